(** * FloatR: what the executable float operations compute, as real numbers.

    The stdlib [SpecFloat] operations are related to Flocq's verified IEEE-754 operations
    (Flocq.IEEE754.BinarySingleNaN); from that, ranges of results follow.  Nothing here
    models code of /repo. *)
From Coq Require Import ZArith Reals Lra Lia Bool.
From Flocq Require Import Core.
From Flocq.IEEE754 Require Import BinarySingleNaN.
From Coq Require Import SpecFloat.
From Verif Require Import F32 F64.
Local Open Scope R_scope.

Section equiv.
  Context (prec emax : Z) (Hp : Prec_gt_0 prec) (Hm : Prec_lt_emax prec emax).
  Notation bf := (binary_float prec emax).
  Lemma rne_equiv s m l : round_nearest_even m l = choice_mode mode_NE s m l.
  Proof. case l; [reflexivity|intro c]. case c; [|reflexivity..]. now simpl; unfold Round.cond_incr; case Z.even. Qed.
  Lemma round_aux_equiv sx mx ex lx :
    SpecFloat.binary_round_aux prec emax sx mx ex lx = BinarySingleNaN.binary_round_aux prec emax mode_NE sx mx ex lx.
  Proof.
    unfold SpecFloat.binary_round_aux, BinarySingleNaN.binary_round_aux.
    set (mrse' := shr_fexp _ _ _ _ _). case mrse'; intros mrs' e'; simpl. now rewrite (rne_equiv sx).
  Qed.
  Lemma round_equiv s m e :
    SpecFloat.binary_round prec emax s m e = BinarySingleNaN.binary_round prec emax mode_NE s m e.
  Proof.
    unfold SpecFloat.binary_round, BinarySingleNaN.binary_round, shl_align_fexp.
    set (mez := shl_align _ _ _); case mez as [mz ez]. apply round_aux_equiv.
  Qed.
  Lemma normalize_equiv m e szero :
    SpecFloat.binary_normalize prec emax m e szero = B2SF (BinarySingleNaN.binary_normalize prec emax Hp Hm mode_NE m e szero).
  Proof. case m as [|p|p]; [now simpl| |]; simpl; rewrite B2SF_SF2B; apply round_equiv. Qed.
  Lemma SFmul_B (x y : bf) : SFmul prec emax (B2SF x) (B2SF y) = B2SF (Bmult mode_NE x y).
  Proof.
    case x as [sx|sx| |sx mx ex Bx]; case y as [sy|sy| |sy my ey By]; [now trivial..|].
    simpl. rewrite B2SF_SF2B. apply round_aux_equiv.
  Qed.
  Lemma SFadd_B (x y : bf) : SFadd prec emax (B2SF x) (B2SF y) = B2SF (Bplus mode_NE x y).
  Proof.
    case x as [sx|sx| |sx mx ex Bx]; case y as [sy|sy| |sy my ey By];
      [now (trivial || simpl; case Bool.eqb)..|]. apply normalize_equiv.
  Qed.
  Lemma SFsub_B (x y : bf) : SFsub prec emax (B2SF x) (B2SF y) = B2SF (Bminus mode_NE x y).
  Proof.
    case x as [sx|sx| |sx mx ex Bx]; case y as [sy|sy| |sy my ey By];
      [now (trivial || simpl; case Bool.eqb)..|].
    simpl. unfold Zminus. rewrite <- cond_Zopp_negb. apply normalize_equiv.
  Qed.
  Lemma SFdiv_B (x y : bf) : SFdiv prec emax (B2SF x) (B2SF y) = B2SF (Bdiv mode_NE x y).
  Proof.
    case x as [sx|sx| |sx mx ex Bx]; case y as [sy|sy| |sy my ey By];
      [now (trivial || simpl; case Bool.eqb)..|].
    simpl. rewrite B2SF_SF2B. set (melz := SFdiv_core_binary _ _ _ _ _ _). case melz as [[mz ez] lz].
    apply round_aux_equiv.
  Qed.
  Lemma SFsqrt_B (x : bf) : SFsqrt prec emax (B2SF x) = B2SF (Bsqrt mode_NE x).
  Proof.
    case x as [sx|sx| |sx mx ex Bx]; [now (trivial || case sx)..|]. case sx; [reflexivity|].
    simpl. rewrite B2SF_SF2B. set (melz := SFsqrt_core_binary _ _ _ _). case melz as [[mz ez] lz].
    apply round_aux_equiv.
  Qed.
End equiv.

(** ** binary32 *)

#[export] Instance p24 : Prec_gt_0 24 := eq_refl.
#[export] Instance p24_128 : Prec_lt_emax 24 128 := eq_refl.
Notation b32 := (binary_float 24 128).
(** A well-formed finite f32 and its value. *)
Definition fin (x : f32) : Prop := valid_binary 24 128 x = true /\ is_finite_SF x = true.
Definition fval (x : f32) : R := SF2R radix2 x.
Definition rnd (r : R) : R := round radix2 (FLT_exp (-149) 24) ZnearestE r.
Definition fmt (r : R) : Prop := generic_format radix2 (FLT_exp (-149) 24) r.
(** The bound below which nothing overflows. *)
Definition big : R := bpow radix2 128.

Lemma fin_b x : fin x -> exists b : b32, x = B2SF b /\ is_finite b = true /\ B2R b = fval x.
Proof.
  intros [Hv Hf]. exists (SF2B x Hv). split; [now rewrite B2SF_SF2B|]. split; [now rewrite is_finite_SF2B|].
  now rewrite B2R_SF2B.
Qed.
Lemma b_fin (b : b32) : is_finite b = true -> fin (B2SF b) /\ fval (B2SF b) = B2R b.
Proof.
  intros Hb. split; [split; [apply valid_binary_B2SF|now destruct b]|]. now destruct b.
Qed.
Lemma fin_fmt x : fin x -> fmt (fval x).
Proof. intros (b & -> & Hf & Hb)%fin_b. rewrite <- Hb. apply (generic_format_B2R 24 128). Qed.

#[export] Instance vexp : Valid_exp (FLT_exp (-149) 24) := FLT_exp_valid (-149) 24.
Lemma rnd_le a b : a <= b -> rnd a <= rnd b.
Proof. apply round_le; auto with typeclass_instances. Qed.
Lemma rnd_fmt a : fmt a -> rnd a = a.
Proof. intros H. apply round_generic; auto with typeclass_instances. Qed.
Lemma fmt_rnd a : fmt (rnd a).
Proof. apply generic_format_round; auto with typeclass_instances. Qed.
Lemma fmt_Z (z : Z) : (Z.abs z <= 16777216)%Z -> fmt (IZR z).
Proof.
  intros Hz. destruct (Z.eq_dec (Z.abs z) 16777216) as [E|E].
  - assert (fmt (bpow radix2 24)) as H by (apply generic_format_bpow; unfold FLT_exp; lia).
    destruct (Z.abs_spec z) as [[_ E']|[_ E']].
    + replace z with 16777216%Z by lia. exact H.
    + replace z with (- (16777216))%Z by lia. rewrite opp_IZR. now apply generic_format_opp.
  - apply generic_format_FLT. exists (Float radix2 z 0); simpl; [now unfold F2R; simpl; rewrite Rmult_1_r|lia|lia].
Qed.
Lemma rnd_Z (z : Z) : (Z.abs z <= 16777216)%Z -> rnd (IZR z) = IZR z.
Proof. intros H. now apply rnd_fmt, fmt_Z. Qed.
Lemma rnd_0 : rnd 0 = 0.
Proof. apply (rnd_Z 0). easy. Qed.
Lemma rnd_1 : rnd 1 = 1.
Proof. apply (rnd_Z 1). easy. Qed.
Lemma rnd_m1 : rnd (-1) = -1.
Proof. apply (rnd_Z (-1)). easy. Qed.
Lemma big_16777216 : 16777216 < big.
Proof. change (IZR 16777216 < bpow radix2 128). change (bpow radix2 24 < bpow radix2 128). apply bpow_lt. lia. Qed.
(** Sandwiching a rounded result between two floats. *)
Lemma rnd_between lo hi a : fmt lo -> fmt hi -> lo <= a <= hi -> lo <= rnd a <= hi.
Proof.
  intros Hl Hh [H1 H2]. split.
  - rewrite <- (rnd_fmt lo Hl). now apply rnd_le.
  - rewrite <- (rnd_fmt hi Hh). now apply rnd_le.
Qed.

Lemma fadd_ok x y : fin x -> fin y -> Rabs (rnd (fval x + fval y)) < big ->
  fin (fadd x y) /\ fval (fadd x y) = rnd (fval x + fval y).
Proof.
  intros (a & -> & Ha & Ea)%fin_b (b & -> & Hb & Eb)%fin_b Hr. unfold fadd.
  change prec32 with 24%Z; change emax32 with 128%Z. rewrite (SFadd_B 24 128 _ _).
  pose proof (Bplus_correct 24 128 _ _ mode_NE a b Ha Hb) as H. rewrite Rlt_bool_true in H.
  - destruct H as (H1 & H2 & _). destruct (b_fin _ H2) as [H3 H4]. split; [exact H3|].
    rewrite H4, H1, Ea, Eb. reflexivity.
  - rewrite Ea, Eb. exact Hr.
Qed.
Lemma fsub_ok x y : fin x -> fin y -> Rabs (rnd (fval x - fval y)) < big ->
  fin (fsub x y) /\ fval (fsub x y) = rnd (fval x - fval y).
Proof.
  intros (a & -> & Ha & Ea)%fin_b (b & -> & Hb & Eb)%fin_b Hr. unfold fsub.
  change prec32 with 24%Z; change emax32 with 128%Z. rewrite (SFsub_B 24 128 _ _).
  pose proof (Bminus_correct 24 128 _ _ mode_NE a b Ha Hb) as H. rewrite Rlt_bool_true in H.
  - destruct H as (H1 & H2 & _). destruct (b_fin _ H2) as [H3 H4]. split; [exact H3|].
    rewrite H4, H1, Ea, Eb. reflexivity.
  - rewrite Ea, Eb. exact Hr.
Qed.
Lemma fmul_ok x y : fin x -> fin y -> Rabs (rnd (fval x * fval y)) < big ->
  fin (fmul x y) /\ fval (fmul x y) = rnd (fval x * fval y).
Proof.
  intros (a & -> & Ha & Ea)%fin_b (b & -> & Hb & Eb)%fin_b Hr. unfold fmul.
  change prec32 with 24%Z; change emax32 with 128%Z. rewrite (SFmul_B 24 128 _ _).
  pose proof (Bmult_correct 24 128 _ _ mode_NE a b) as H. rewrite Rlt_bool_true in H.
  - destruct H as (H1 & H2 & _). rewrite Ha, Hb in H2. destruct (b_fin _ H2) as [H3 H4]. split; [exact H3|].
    rewrite H4, H1, Ea, Eb. reflexivity.
  - rewrite Ea, Eb. exact Hr.
Qed.
Lemma fdiv_ok x y : fin x -> fin y -> fval y <> 0 -> Rabs (rnd (fval x / fval y)) < big ->
  fin (fdiv x y) /\ fval (fdiv x y) = rnd (fval x / fval y).
Proof.
  intros (a & -> & Ha & Ea)%fin_b (b & -> & Hb & Eb)%fin_b Hy Hr. unfold fdiv.
  change prec32 with 24%Z; change emax32 with 128%Z. rewrite (SFdiv_B 24 128 _ _).
  rewrite <- Eb in Hy.
  pose proof (Bdiv_correct 24 128 _ _ mode_NE a b Hy) as H. rewrite Rlt_bool_true in H.
  - destruct H as (H1 & H2 & _). rewrite Ha in H2. destruct (b_fin _ H2) as [H3 H4]. split; [exact H3|].
    rewrite H4, H1, Ea, Eb. reflexivity.
  - rewrite Ea, Eb. exact Hr.
Qed.
Lemma fsqrt_ok x : fin x -> 0 <= fval x ->
  fin (fsqrt x) /\ fval (fsqrt x) = rnd (sqrt (fval x)).
Proof.
  intros (a & -> & Ha & Ea)%fin_b H0. unfold fsqrt.
  change prec32 with 24%Z; change emax32 with 128%Z. rewrite (SFsqrt_B 24 128 _ _).
  destruct (Bsqrt_correct 24 128 _ _ mode_NE a) as (H1 & H2 & _).
  assert (H3 : is_finite (Bsqrt mode_NE a) = true).
  { rewrite H2. destruct a as [s|s| |s m e Hme]; try easy. destruct s; [|easy]. exfalso. revert H0. rewrite <- Ea.
    apply Rlt_not_le. now apply F2R_lt_0. }
  destruct (b_fin _ H3) as [H4 H5]. split; [exact H4|]. rewrite H5, H1, Ea. reflexivity.
Qed.
Lemma f_of_Z_ok z : Rabs (rnd (IZR z)) < big -> fin (f_of_Z z) /\ fval (f_of_Z z) = rnd (IZR z).
Proof.
  intros Hr. unfold f_of_Z. change prec32 with 24%Z; change emax32 with 128%Z. rewrite (normalize_equiv 24 128 _ _).
  pose proof (binary_normalize_correct 24 128 _ _ mode_NE z 0 false) as H. cbv zeta in H.
  assert (E : F2R (Float radix2 z 0) = IZR z) by (unfold F2R; simpl; apply Rmult_1_r).
  rewrite E in H. rewrite Rlt_bool_true in H by exact Hr.
  destruct H as (H1 & H2 & _). destruct (b_fin _ H2) as [H3 H4]. split; [exact H3|]. now rewrite H4, H1.
Qed.
Lemma f_of_Z_small z : (Z.abs z <= 16777216)%Z -> fin (f_of_Z z) /\ fval (f_of_Z z) = IZR z.
Proof.
  intros Hz. rewrite <- (rnd_Z z Hz) at 1. apply f_of_Z_ok. rewrite (rnd_Z z Hz). rewrite <- abs_IZR.
  apply Rle_lt_trans with 16777216; [|apply big_16777216]. now apply IZR_le.
Qed.

(** ** Comparisons *)

Lemma fcmp_ok x y : fin x -> fin y -> SFcompare x y = Some (Rcompare (fval x) (fval y)).
Proof.
  intros (a & -> & Ha & Ea)%fin_b (b & -> & Hb & Eb)%fin_b.
  rewrite <- Ea, <- Eb. now rewrite <- (Bcompare_correct 24 128 a b Ha Hb).
Qed.
Lemma fleb_ok x y : fin x -> fin y -> fleb x y = true <-> fval x <= fval y.
Proof.
  intros Hx Hy. unfold fleb, SFleb. rewrite fcmp_ok by assumption. destruct (Rcompare_spec (fval x) (fval y)); split; try easy; lra.
Qed.
Lemma fltb_ok x y : fin x -> fin y -> fltb x y = true <-> fval x < fval y.
Proof.
  intros Hx Hy. unfold fltb, SFltb. rewrite fcmp_ok by assumption. destruct (Rcompare_spec (fval x) (fval y)); split; try easy; lra.
Qed.
Lemma feqb_ok x y : fin x -> fin y -> feqb x y = true <-> fval x = fval y.
Proof.
  intros Hx Hy. unfold feqb, SFeqb. rewrite fcmp_ok by assumption. destruct (Rcompare_spec (fval x) (fval y)); split; try easy; lra.
Qed.
Lemma fltb_false x y : fin x -> fin y -> fltb x y = false <-> fval y <= fval x.
Proof.
  intros Hx Hy. rewrite <- not_true_iff_false, fltb_ok by assumption. lra.
Qed.
(** A well-formed float between two finite ones is finite. *)
Lemma fin_between lo hi x : fin lo -> fin hi -> valid_binary 24 128 x = true ->
  fleb lo x = true -> fleb x hi = true -> fin x.
Proof.
  intros [_ Hl] [_ Hh] Hx H1 H2. split; [exact Hx|]. destruct x as [s|s| |s m e]; try easy.
  destruct s; [destruct lo as [[]|[]| |[] ? ?]|destruct hi as [[]|[]| |[] ? ?]]; easy.
Qed.

(** ** Well-formedness of every result *)

Notation vf := (valid_binary 24 128).
Lemma valid_b x : vf x = true -> exists b : b32, x = B2SF b.
Proof. intros H. exists (SF2B x H). now rewrite B2SF_SF2B. Qed.
Lemma b_valid (b : b32) : vf (B2SF b) = true.
Proof. apply valid_binary_B2SF. Qed.
Lemma fadd_valid x y : vf x = true -> vf y = true -> vf (fadd x y) = true.
Proof. intros (a & ->)%valid_b (b & ->)%valid_b. unfold fadd. change prec32 with 24%Z; change emax32 with 128%Z. rewrite (SFadd_B 24 128 _ _). apply b_valid. Qed.
Lemma fsub_valid x y : vf x = true -> vf y = true -> vf (fsub x y) = true.
Proof. intros (a & ->)%valid_b (b & ->)%valid_b. unfold fsub. change prec32 with 24%Z; change emax32 with 128%Z. rewrite (SFsub_B 24 128 _ _). apply b_valid. Qed.
Lemma fmul_valid x y : vf x = true -> vf y = true -> vf (fmul x y) = true.
Proof. intros (a & ->)%valid_b (b & ->)%valid_b. unfold fmul. change prec32 with 24%Z; change emax32 with 128%Z. rewrite (SFmul_B 24 128 _ _). apply b_valid. Qed.
Lemma fdiv_valid x y : vf x = true -> vf y = true -> vf (fdiv x y) = true.
Proof. intros (a & ->)%valid_b (b & ->)%valid_b. unfold fdiv. change prec32 with 24%Z; change emax32 with 128%Z. rewrite (SFdiv_B 24 128 _ _). apply b_valid. Qed.
Lemma fsqrt_valid x : vf x = true -> vf (fsqrt x) = true.
Proof. intros (a & ->)%valid_b. unfold fsqrt. change prec32 with 24%Z; change emax32 with 128%Z. rewrite (SFsqrt_B 24 128 _ _). apply b_valid. Qed.
Lemma f_of_Z_valid z : vf (f_of_Z z) = true.
Proof. unfold f_of_Z. change prec32 with 24%Z; change emax32 with 128%Z. rewrite (normalize_equiv 24 128 _ _). apply b_valid. Qed.

(** ** Quotients that may overflow, truncation *)

Lemma fdiv_pos x y : fin x -> fin y -> 0 < fval x -> 0 < fval y ->
  (fin (fdiv x y) /\ fval (fdiv x y) = rnd (fval x / fval y)) \/ fdiv x y = S754_infinity false.
Proof.
  intros Hx Hy Px Py.
  destruct (Rlt_le_dec (Rabs (rnd (fval x / fval y))) big) as [Hb|Hb].
  - left. now apply fdiv_ok; [| |lra|].
  - right. revert Hb Px Py. apply fin_b in Hx as (a & -> & Ha & Ea). apply fin_b in Hy as (b & -> & Hb & Eb). intros Hr Px Py.
    unfold fdiv. change prec32 with 24%Z; change emax32 with 128%Z. rewrite (SFdiv_B 24 128 _ _).
    assert (B2R b <> 0) as Hb0 by (rewrite Eb; lra).
    pose proof (Bdiv_correct 24 128 _ _ mode_NE a b Hb0) as H. rewrite Rlt_bool_false in H by (rewrite Ea, Eb; exact Hr).
    rewrite H. rewrite <- Ea in Px. rewrite <- Eb in Py.
    assert (Hs : forall c : b32, 0 < B2R c -> Bsign c = false).
    { intros c Hc. destruct c as [s|s| |s m e He]; simpl in *; try lra. destruct s; [|easy]. exfalso.
      revert Hc. apply Rle_not_lt, Rlt_le. now apply F2R_lt_0. }
    rewrite (Hs a) by exact Px. rewrite (Hs b) by exact Py. reflexivity.
Qed.
Lemma fdiv_ge1 x y : fin x -> fin y -> 0 < fval y <= fval x ->
  (fin (fdiv x y) /\ 1 <= fval (fdiv x y)) \/ fdiv x y = S754_infinity false.
Proof.
  intros Hx Hy Hxy. assert (Hq : 1 <= rnd (fval x / fval y)).
  { rewrite <- rnd_1. apply rnd_le. apply Rmult_le_reg_r with (fval y); [lra|].
    replace (fval x / fval y * fval y) with (fval x) by (field; lra). lra. }
  destruct (fdiv_pos x y Hx Hy ltac:(lra) ltac:(lra)) as [[F V]| ->]; [|now right]. left. split; [exact F|]. now rewrite V.
Qed.
Lemma trunc_ge1 x : fin x -> 1 <= fval x -> (1 <= trunc_Z x)%Z.
Proof.
  intros [_ Hf] H. destruct x as [s|s| |s m e]; try easy; [unfold fval in H; simpl in H; lra|].
  assert (s = false) as ->.
  { destruct s; [|easy]. exfalso. revert H. apply Rlt_not_le. apply Rlt_trans with 0; [now apply F2R_lt_0|lra]. }
  change (1 <= F2R (Float radix2 (Z.pos m) e)) in H. simpl. destruct e as [|p|p].
  - lia.
  - pose proof (Z.pow_pos_nonneg 2 (Zpos p) ltac:(lia) ltac:(lia)). change (1 <= Z.pos m * 2 ^ Z.pos p)%Z. nia.
  - change (1 <= Z.pos m / 2 ^ Z.pos p)%Z. apply Z.div_le_lower_bound; [apply Z.pow_pos_nonneg; lia|]. rewrite Z.mul_1_r. apply le_IZR.
    change (2 ^ Z.pos p)%Z with (Zpower radix2 (Z.pos p)). rewrite IZR_Zpower by easy.
    unfold F2R in H. simpl Fnum in H. simpl Fexp in H.
    change (bpow radix2 (Z.neg p)) with (bpow radix2 (- Z.pos p)) in H. rewrite bpow_opp in H.
    pose proof (bpow_gt_0 radix2 (Z.pos p)). apply Rmult_le_reg_r with (/ bpow radix2 (Z.pos p)).
    + now apply Rinv_0_lt_compat.
    + rewrite Rinv_r by lra. exact H.
Qed.
(** [floor(a/b)] is at least 1 when 0 < b <= a. *)
Lemma period_ge1 c x y : (1 <= umax c)%Z -> fin x -> fin y -> 0 < fval y <= fval x ->
  (1 <= as_usize c (fdiv x y))%Z.
Proof.
  intros Hu Hx Hy Hxy. destruct (fdiv_ge1 x y Hx Hy Hxy) as [[H1 H2]| ->]; [|easy].
  pose proof (trunc_ge1 _ H1 H2). unfold as_usize. destruct (fdiv x y); try easy; try lia.
Qed.

(** * DoubleR: f64 operations as rounded real operations (Flocq), for the sequencer and the
    random choice.  As [FloatR], for the f64 operations of [F64]. *)
From Coq Require Import Reals Lra.
From Flocq Require Import Core.
From Flocq.IEEE754 Require Import BinarySingleNaN.
From Verif Require Export Base F64.
From Verif Require Import FloatR.
From Coq Require Import Lia.

(** ** f64 results as real numbers *)
Section double.
  Local Open Scope R_scope.
  #[export] Instance p53 : Prec_gt_0 53 := eq_refl.
  #[export] Instance p53_1024 : Prec_lt_emax 53 1024 := eq_refl.
  Notation b64 := (binary_float 53 1024).
  Definition dfin (x : f64) : Prop := valid_binary 53 1024 x = true /\ is_finite_SF x = true.
  Definition dval (x : f64) : R := SF2R radix2 x.
  Definition drnd (r : R) : R := round radix2 (FLT_exp (-1074) 53) ZnearestE r.
  #[export] Instance dexp : Valid_exp (FLT_exp (-1074) 53) := FLT_exp_valid (-1074) 53.
  Lemma dfin_b x : dfin x -> exists b : b64, x = B2SF b /\ is_finite b = true /\ B2R b = dval x.
  Proof.
    intros [Hv Hf]. exists (SF2B x Hv). split; [now rewrite B2SF_SF2B|]. split; [now rewrite is_finite_SF2B|].
    now rewrite B2R_SF2B.
  Qed.
  Lemma b_dfin (b : b64) : is_finite b = true -> dfin (B2SF b) /\ dval (B2SF b) = B2R b.
  Proof. intros Hb. split; [split; [apply valid_binary_B2SF|now destruct b]|]. now destruct b. Qed.
  Definition dfmt (r : R) : Prop := generic_format radix2 (FLT_exp (-1074) 53) r.
  Lemma dfmt_Z (z : Z) : (Z.abs z < 2 ^ 53)%Z -> dfmt (IZR z).
  Proof.
    intros Hz. apply generic_format_FLT. exists (Float radix2 z 0); simpl; [now unfold F2R; simpl; rewrite Rmult_1_r|exact Hz|lia].
  Qed.
  Lemma drnd_between lo hi a : dfmt lo -> dfmt hi -> lo <= a <= hi -> lo <= drnd a <= hi.
  Proof.
    intros Hl Hh [H1 H2]. split.
    - rewrite <- (round_generic radix2 (FLT_exp (-1074) 53) ZnearestE lo Hl). apply round_le; auto with typeclass_instances.
    - rewrite <- (round_generic radix2 (FLT_exp (-1074) 53) ZnearestE hi Hh). apply round_le; auto with typeclass_instances.
  Qed.
  Lemma dbig z : (Z.abs z < 2 ^ 53)%Z -> Rabs (IZR z) < bpow radix2 1024.
  Proof.
    intros H. rewrite <- abs_IZR. apply Rlt_trans with (bpow radix2 53); [|now apply bpow_lt].
    rewrite <- IZR_Zpower by easy. now apply IZR_lt.
  Qed.
  Definition drng (lo hi : Z) (x : f64) : Prop := dfin x /\ IZR lo <= dval x <= IZR hi.
  Section bounds.
    Context (lo hi : Z) (Hlo : (Z.abs lo < 2 ^ 53)%Z) (Hhi : (Z.abs hi < 2 ^ 53)%Z).
    Lemma drnd_rng r : IZR lo <= r <= IZR hi -> IZR lo <= drnd r <= IZR hi /\ Rabs (drnd r) < bpow radix2 1024.
    Proof.
      intros H. pose proof (drnd_between _ _ r (dfmt_Z lo Hlo) (dfmt_Z hi Hhi) H) as H1. split; [exact H1|].
      pose proof (Rabs_def2 _ _ (dbig lo Hlo)). pose proof (Rabs_def2 _ _ (dbig hi Hhi)). apply Rabs_def1; lra.
    Qed.
    Lemma dadd_rng x y : dfin x -> dfin y -> IZR lo <= dval x + dval y <= IZR hi -> drng lo hi (dadd x y).
    Proof.
      intros (a & -> & Ha & Ea)%dfin_b (b & -> & Hb & Eb)%dfin_b [Hr Hr2]%drnd_rng. unfold dadd.
      rewrite (SFadd_B 53 1024 _ _).
      pose proof (Bplus_correct 53 1024 _ _ mode_NE a b Ha Hb) as H. rewrite Rlt_bool_true in H by now rewrite Ea, Eb.
      destruct H as (H1 & H2 & _). destruct (b_dfin _ H2) as [H3 H4]. split; [exact H3|].
      rewrite H4, H1, Ea, Eb. exact Hr.
    Qed.
    Lemma dmul_rng x y : dfin x -> dfin y -> IZR lo <= dval x * dval y <= IZR hi -> drng lo hi (dmul x y).
    Proof.
      intros (a & -> & Ha & Ea)%dfin_b (b & -> & Hb & Eb)%dfin_b [Hr Hr2]%drnd_rng. unfold dmul.
      rewrite (SFmul_B 53 1024 _ _).
      pose proof (Bmult_correct 53 1024 _ _ mode_NE a b) as H. rewrite Rlt_bool_true in H by now rewrite Ea, Eb.
      destruct H as (H1 & H2 & _). rewrite Ha, Hb in H2. destruct (b_dfin _ H2) as [H3 H4]. split; [exact H3|].
      rewrite H4, H1, Ea, Eb. exact Hr.
    Qed.
  End bounds.
  Lemma d_half_val : dval d_half = 1/2.
  Proof.
    replace d_half with (S754_finite false 4503599627370496 (-53)) by now vm_compute.
    unfold dval, SF2R, F2R. cbn [cond_Zopp Fnum Fexp].
    replace (-53)%Z with (- (52) + -1)%Z by easy. rewrite bpow_plus, bpow_opp, <- (IZR_Zpower radix2 52) by easy.
    change (Zpower radix2 52) with 4503599627370496%Z. simpl. lra.
  Qed.
  (** Halving: exact enough for the sum with 1/2 to stay within 0 and 1. *)
  Lemma dmul_half x : drng (-1) 1 x -> dfin (dmul x d_half) /\ - (1/2) <= dval (dmul x d_half) <= 1/2.
  Proof.
    intros [Hx Hr]. assert (Hh : dfin d_half) by now vm_compute.
    assert (Eh : dval d_half = 1/2) by exact d_half_val.
    assert (F1 : dfmt (1/2)).
    { replace (1/2) with (bpow radix2 (-1)) by (simpl; lra). apply generic_format_bpow. unfold FLT_exp. lia. }
    assert (F2 : dfmt (- (1/2))) by now apply generic_format_opp.
    destruct (dfin_b x Hx) as (a & Eq & Ha & Ea). destruct (dfin_b _ Hh) as (b & Eqb & Hb & Eb). unfold dmul.
    assert (Hr2 : - (1/2) <= drnd (dval x * dval d_half) <= 1/2) by (apply drnd_between; try assumption; rewrite Eh; lra).
    rewrite Eq, Eqb, (SFmul_B 53 1024 _ _).
    pose proof (Bmult_correct 53 1024 _ _ mode_NE a b) as H. rewrite Ea, Eb in H. rewrite Rlt_bool_true in H.
    - destruct H as (H1 & H2 & _). rewrite Ha, Hb in H2. destruct (b_dfin _ H2) as [H3 H4]. split; [exact H3|].
      rewrite H4, H1. exact Hr2.
    - change (Rabs (drnd (dval x * dval d_half)) < bpow radix2 1024).
      pose proof (Rabs_def2 _ _ (dbig 1 eq_refl)). apply Rabs_def1; lra.
  Qed.
  Lemma d_of_Z_ok z : (Z.abs z < 2 ^ 53)%Z -> dfin (d_of_Z z) /\ dval (d_of_Z z) = IZR z.
  Proof.
    intros Hz. unfold d_of_Z. rewrite (normalize_equiv 53 1024 _ _).
    pose proof (binary_normalize_correct 53 1024 _ _ mode_NE z 0 false) as H. cbv zeta in H.
    assert (E : F2R (Float radix2 z 0) = IZR z) by (unfold F2R; simpl; apply Rmult_1_r).
    rewrite E in H. rewrite (round_generic radix2 (FLT_exp (-1074) 53) _ _ (dfmt_Z z Hz)) in H.
    rewrite Rlt_bool_true in H by now apply dbig.
    destruct H as (H1 & H2 & _). destruct (b_dfin _ H2) as [H3 H4]. split; [exact H3|]. now rewrite H4, H1.
  Qed.
  Lemma dtrunc x hi : drng 0 hi x -> (0 <= trunc_Z x <= hi)%Z.
  Proof.
    intros [_ [H1 H2]]. destruct x as [s|s| |s m e]; cbn [trunc_Z]; try (change (0 <= IZR hi) in H2; apply le_IZR in H2; lia).
    unfold dval in H1, H2. simpl SF2R in H1, H2. destruct s.
    { exfalso. assert (F2R (Float radix2 (cond_Zopp true (Zpos m)) e) < 0) by (apply F2R_lt_0; now simpl). lra. }
    unfold F2R in *. simpl in *. destruct e as [|p|p].
    - simpl in H2. rewrite Rmult_1_r in H2. apply le_IZR in H2. lia.
    - rewrite <- (IZR_Zpower radix2 (Zpos p)) in H2 by easy. rewrite <- mult_IZR in H2. apply le_IZR in H2.
      change (Zpower radix2 (Zpos p)) with (2 ^ Zpos p)%Z in H2. lia.
    - split; [apply Z.div_pos; lia|]. apply le_IZR. apply Rle_trans with (2 := H2).
      apply Rmult_le_reg_r with (IZR (2 ^ Zpos p)); [apply IZR_lt; lia|]. rewrite Rmult_assoc.
      replace (bpow radix2 (Zneg p) * IZR (2 ^ Zpos p)) with 1.
      + rewrite <- mult_IZR. apply Rle_trans with (IZR (Zpos m)); [|lra]. apply IZR_le. rewrite Z.mul_comm. apply Z.mul_div_le. lia.
      + simpl bpow. change (Z.pow_pos 2 p) with (2 ^ Zpos p)%Z. field. apply not_0_IZR. lia.
  Qed.
  (** ** Operations that may overflow *)
  Definition dvalid (x : f64) : Prop := valid_binary 53 1024 x = true.
  Lemma dvalid_b x : dvalid x -> exists b : b64, x = B2SF b.
  Proof. intros H. exists (SF2B x H). now rewrite B2SF_SF2B. Qed.
  Lemma dmul_valid x y : dvalid x -> dvalid y -> dvalid (dmul x y).
  Proof. intros (a & ->)%dvalid_b (b & ->)%dvalid_b. unfold dmul. rewrite (SFmul_B 53 1024 _ _). apply valid_binary_B2SF. Qed.
  Lemma ddiv_valid x y : dvalid x -> dvalid y -> dvalid (ddiv x y).
  Proof. intros (a & ->)%dvalid_b (b & ->)%dvalid_b. unfold ddiv. rewrite (SFdiv_B 53 1024 _ _). apply valid_binary_B2SF. Qed.
  Lemma d_of_Z_valid z : dvalid (d_of_Z z).
  Proof. unfold d_of_Z. rewrite (normalize_equiv 53 1024 _ _). apply valid_binary_B2SF. Qed.
  Lemma d_of_f_valid x : dvalid (d_of_f x).
  Proof.
    destruct x as [| | |s m e]; try easy. unfold d_of_f, renorm, dvalid. rewrite (normalize_equiv 53 1024 _ _). apply valid_binary_B2SF.
  Qed.
  (** An f32 is exact as f64. *)
  Lemma fmt_dfmt r : fmt r -> dfmt r.
  Proof.
    intros [f Ef Hf1 Hf2]%FLT_format_generic; [|easy]. apply generic_format_FLT. exists f; [exact Ef| |lia].
    apply Z.lt_trans with (1 := Hf1). now vm_compute.
  Qed.
  Lemma d_of_f_ok x : fin x -> dfin (d_of_f x) /\ dval (d_of_f x) = fval x.
  Proof.
    intros Hx. destruct x as [s|s| |s m e]; [split; [split; reflexivity|reflexivity]|now destruct Hx|now destruct Hx|].
    - unfold d_of_f, renorm. rewrite (normalize_equiv 53 1024 _ _).
      pose proof (binary_normalize_correct 53 1024 _ _ mode_NE (if s then Zneg m else Zpos m) e s) as H. cbv zeta in H.
      assert (Ev : F2R (Float radix2 (if s then Zneg m else Zpos m) e) = fval (S754_finite s m e)) by now destruct s.
      rewrite Ev in H. rewrite (round_generic radix2 (FLT_exp (-1074) 53) _ _ (fmt_dfmt _ (fin_fmt _ Hx))) in H.
      rewrite Rlt_bool_true in H.
      + destruct H as (H1 & H2 & _). destruct (b_dfin _ H2) as [H3 H4]. split; [exact H3|]. now rewrite H4, H1.
      + destruct (fin_b _ Hx) as (b & _ & _ & Eb). rewrite <- Eb. apply Rlt_trans with (bpow radix2 128); [apply abs_B2R_lt_emax|].
        now apply bpow_lt.
  Qed.
  Lemma dmul_pos x y : dfin x -> dfin y -> 0 <= dval x -> 0 <= dval y ->
    (dfin (dmul x y) /\ dval (dmul x y) = drnd (dval x * dval y)) \/
    (dmul x y = S754_infinity false /\ bpow radix2 1024 <= drnd (dval x * dval y)).
  Proof.
    intros Hx Hy Px Py. assert (Hp : 0 <= drnd (dval x * dval y)).
    { replace 0 with (drnd 0) by (apply round_0; auto with typeclass_instances). apply round_le; auto with typeclass_instances.
      now apply Rmult_le_pos. }
    destruct (Rlt_le_dec (Rabs (drnd (dval x * dval y))) (bpow radix2 1024)) as [Hb|Hb].
    - left. apply dfin_b in Hx as (a & -> & Ha & Ea). apply dfin_b in Hy as (b & -> & Hb' & Eb). unfold dmul. rewrite (SFmul_B 53 1024 _ _).
      pose proof (Bmult_correct 53 1024 _ _ mode_NE a b) as H. rewrite Ea, Eb in H. rewrite Rlt_bool_true in H by exact Hb.
      destruct H as (H1 & H2 & _). rewrite Ha, Hb' in H2. destruct (b_dfin _ H2) as [H3 H4]. split; [exact H3|]. now rewrite H4, H1.
    - right. split; [|now rewrite Rabs_pos_eq in Hb]. assert (P1 : 0 < dval x * dval y).
      { destruct (Rmult_le_pos _ _ Px Py) as [H|H]; [exact H|]. exfalso. rewrite <- H in Hb.
        unfold drnd in Hb. rewrite round_0, Rabs_R0 in Hb by auto with typeclass_instances.
        revert Hb. apply Rlt_not_le, bpow_gt_0. }
      assert (0 < dval x) as Px' by (destruct Px as [H|H]; [exact H|rewrite <- H in P1; lra]).
      assert (0 < dval y) as Py' by (destruct Py as [H|H]; [exact H|rewrite <- H in P1; lra]). clear Px Py P1 Hp.
      apply dfin_b in Hx as (a & -> & Ha & Ea). apply dfin_b in Hy as (b & -> & Hb' & Eb). unfold dmul. rewrite (SFmul_B 53 1024 _ _).
      pose proof (Bmult_correct 53 1024 _ _ mode_NE a b) as H. rewrite Ea, Eb in H. rewrite Rlt_bool_false in H by exact Hb.
      rewrite H. rewrite <- Ea in Px'. rewrite <- Eb in Py'.
      assert (Hs : forall c : b64, 0 < B2R c -> Bsign c = false).
      { intros c Hc. destruct c as [s|s| |s m e He]; simpl in *; try lra. destruct s; [|easy]. exfalso.
        revert Hc. apply Rle_not_lt, Rlt_le. now apply F2R_lt_0. }
      rewrite (Hs a) by exact Px'. rewrite (Hs b) by exact Py'. reflexivity.
  Qed.
  (** ** Truncation *)
  Lemma dtrunc_floor x : dfin x -> 0 <= dval x -> trunc_Z x = Zfloor (dval x).
  Proof.
    intros [_ Hf] H. destruct x as [s|s| |s m e]; try easy; [symmetry; apply (Zfloor_IZR 0)|].
    assert (s = false) as ->.
    { destruct s; [|easy]. exfalso. revert H. apply Rlt_not_le. unfold dval. simpl SF2R. now apply F2R_lt_0. }
    unfold dval, F2R. simpl SF2R. unfold F2R. simpl Fnum. simpl Fexp. destruct e as [|p|p].
    - simpl. rewrite Rmult_1_r. now rewrite Zfloor_IZR.
    - change (trunc_Z (S754_finite false m (Zpos p))) with (Zpos m * 2 ^ Zpos p)%Z. rewrite <- (IZR_Zpower radix2 (Z.pos p)) by easy.
      rewrite <- mult_IZR. now rewrite Zfloor_IZR.
    - change (trunc_Z (S754_finite false m (Zneg p))) with (Zpos m / 2 ^ Zpos p)%Z.
      change (bpow radix2 (Z.neg p)) with (bpow radix2 (- Z.pos p)). rewrite bpow_opp, <- (IZR_Zpower radix2 (Z.pos p)) by easy.
      symmetry. apply (Zfloor_div (Z.pos m) (2 ^ Z.pos p)). apply Z.pow_nonzero; lia.
  Qed.
  Lemma as_usize_d c x : dfin x -> 0 <= dval x -> (0 <= umax c)%Z -> as_usize c x = Z.min (umax c) (Zfloor (dval x)).
  Proof.
    intros Hx H Hu. pose proof (dtrunc_floor x Hx H) as Ht. assert (0 <= Zfloor (dval x))%Z as Hz by now apply Zfloor_lub.
    destruct Hx as [_ Hf]. unfold as_usize. destruct x; try easy; lia.
  Qed.
  Lemma as_usize_bounds c x : (0 <= umax c)%Z -> (0 <= as_usize c x <= umax c)%Z.
  Proof. intros H. unfold as_usize. destruct x as [| [] | |]; lia. Qed.
  Lemma as_usize_pos c x : dvalid x -> (0 <= umax c)%Z -> as_usize c x <> 0%Z ->
    (dfin x /\ 1 <= dval x) \/ x = S754_infinity false.
  Proof.
    intros Hv Hu H. destruct x as [s|s| |s m e]; try (exfalso; apply H; unfold as_usize; simpl; lia).
    - right. destruct s; [|easy]. exfalso. now apply H.
    - left. assert (Hf : dfin (S754_finite s m e)) by easy. split; [exact Hf|].
      destruct (Rle_lt_dec 0 (dval (S754_finite s m e))) as [Hp|Hp].
      + rewrite as_usize_d in H by assumption. destruct (Rle_lt_dec 1 (dval (S754_finite s m e))) as [|Hl]; [assumption|]. exfalso. apply H.
        assert (Zfloor (dval (S754_finite s m e)) = 0%Z) as -> by (apply Zfloor_imp; change (0 + 1)%Z with 1%Z; lra). lia.
      + exfalso. apply H. destruct s.
        * assert (0 <= - trunc_Z (S754_finite true m e))%Z; [|unfold as_usize; lia]. unfold trunc_Z. destruct e as [|p|p]; [lia| |].
          -- pose proof (Z.pow_pos_nonneg 2 (Z.pos p) ltac:(lia) ltac:(lia)). nia.
          -- pose proof (Z.pow_pos_nonneg 2 (Z.pos p) ltac:(lia) ltac:(lia)). pose proof (Z.div_pos (Z.pos m) (2 ^ Z.pos p) ltac:(lia) ltac:(lia)). lia.
        * exfalso. revert Hp. apply Rle_not_lt. unfold dval. simpl SF2R. now apply F2R_ge_0.
  Qed.
  Lemma dfin_fmt x : dfin x -> dfmt (dval x).
  Proof. intros (b & -> & Hf & Hb)%dfin_b. rewrite <- Hb. apply (generic_format_B2R 53 1024). Qed.
  (** Multiplying by at least 1 does not make it smaller. *)
  Lemma scaled_up c x bar : (0 <= umax c)%Z -> dfin x -> 1 <= dval x -> dvalid bar -> as_usize c bar <> 0%Z ->
    (as_usize c bar <= as_usize c (dmul x bar))%Z.
  Proof.
    intros Hu Hx H1 Hv H0. destruct (as_usize_pos c bar Hv Hu H0) as [[Hb Hb1]| ->].
    - destruct (dmul_pos x bar Hx Hb ltac:(lra) ltac:(lra)) as [[F V]|[-> _]].
      + assert (Hle : dval bar <= dval (dmul x bar)).
        { rewrite V. rewrite <- (round_generic radix2 (FLT_exp (-1074) 53) ZnearestE (dval bar) (dfin_fmt _ Hb)).
          apply round_le; auto with typeclass_instances. rewrite (round_generic radix2 (FLT_exp (-1074) 53) ZnearestE _ (dfin_fmt _ Hb)). nra. }
        rewrite !as_usize_d by (assumption || lra). pose proof (Zfloor_le _ _ Hle). lia.
      + simpl. pose proof (as_usize_bounds c bar Hu). lia.
    - destruct x as [s|s| |s m e]; try now destruct Hx.
      + unfold dval in H1. simpl in H1. lra.
      + destruct s; [|easy]. exfalso. revert H1. apply Rlt_not_le. apply Rlt_trans with 0; [|lra]. unfold dval. simpl SF2R. now apply F2R_lt_0.
  Qed.
End double.


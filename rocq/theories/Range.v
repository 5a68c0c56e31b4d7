(** * Range: intervals of f32 results.

    Nothing here models code of /repo. *)
From Coq Require Import ZArith Reals Lra Lia Bool.
From Flocq Require Import Core.
From Verif Require Import F32 F64 FloatR.
Local Open Scope R_scope.

(** Well-formed, finite, and between two reals. *)
Definition rng (lo hi : R) (x : f32) : Prop := fin x /\ lo <= fval x <= hi.
(** The same in terms of the operations a program has: well-formed and comparing so. *)
Definition in_range (lo hi x : f32) : Prop :=
  valid_binary prec32 emax32 x = true /\ fleb lo x = true /\ fleb x hi = true.

Lemma rng_weaken lo hi lo' hi' x : rng lo hi x -> lo' <= lo -> hi <= hi' -> rng lo' hi' x.
Proof. intros [H1 H2] H3 H4. split; [exact H1|lra]. Qed.
Lemma in_range_rng lo hi x : fin lo -> fin hi -> in_range lo hi x <-> rng (fval lo) (fval hi) x.
Proof.
  intros Hl Hh. split.
  - intros (Hv & H1 & H2). assert (Hx : fin x) by now apply (fin_between lo hi). split; [exact Hx|].
    now rewrite fleb_ok in H1, H2 by assumption.
  - intros [Hx H]. split; [now destruct Hx|]. rewrite !fleb_ok by assumption. lra.
Qed.

Lemma abs_big lo hi r : Rabs lo < big -> Rabs hi < big -> lo <= r <= hi -> Rabs r < big.
Proof. intros H1 H2 H. apply Rabs_def2 in H1, H2. apply Rabs_def1; lra. Qed.
Section ops.
  Context (lo hi : R) (Hlo : fmt lo) (Hhi : fmt hi) (Blo : Rabs lo < big) (Bhi : Rabs hi < big).
  Lemma rnd_rng r : lo <= r <= hi -> lo <= rnd r <= hi /\ Rabs (rnd r) < big.
  Proof. intros H. pose proof (rnd_between lo hi r Hlo Hhi H) as H1. split; [exact H1|now apply (abs_big lo hi)]. Qed.
  Lemma fadd_rng x y : fin x -> fin y -> lo <= fval x + fval y <= hi -> rng lo hi (fadd x y).
  Proof. intros Hx Hy H. apply rnd_rng in H as [H1 H2]. destruct (fadd_ok x y Hx Hy H2) as [H3 H4]. split; [exact H3|now rewrite H4]. Qed.
  Lemma fsub_rng x y : fin x -> fin y -> lo <= fval x - fval y <= hi -> rng lo hi (fsub x y).
  Proof. intros Hx Hy H. apply rnd_rng in H as [H1 H2]. destruct (fsub_ok x y Hx Hy H2) as [H3 H4]. split; [exact H3|now rewrite H4]. Qed.
  Lemma fmul_rng x y : fin x -> fin y -> lo <= fval x * fval y <= hi -> rng lo hi (fmul x y).
  Proof. intros Hx Hy H. apply rnd_rng in H as [H1 H2]. destruct (fmul_ok x y Hx Hy H2) as [H3 H4]. split; [exact H3|now rewrite H4]. Qed.
  Lemma fdiv_rng x y : fin x -> fin y -> fval y <> 0 -> lo <= fval x / fval y <= hi -> rng lo hi (fdiv x y).
  Proof. intros Hx Hy H0 H. apply rnd_rng in H as [H1 H2]. destruct (fdiv_ok x y Hx Hy H0 H2) as [H3 H4]. split; [exact H3|now rewrite H4]. Qed.
  Lemma fsqrt_rng x : fin x -> 0 <= fval x -> lo <= sqrt (fval x) <= hi -> rng lo hi (fsqrt x).
  Proof. intros Hx H0 H. apply rnd_rng in H as [H1 H2]. destruct (fsqrt_ok x Hx H0) as [H3 H4]. split; [exact H3|now rewrite H4]. Qed.
End ops.

(** Integer bounds are floats. *)
Lemma big_Z z : (Z.abs z <= 16777216)%Z -> Rabs (IZR z) < big.
Proof. intros H. rewrite <- abs_IZR. apply Rle_lt_trans with 16777216; [now apply IZR_le|apply big_16777216]. Qed.
Lemma fin_Z z : (Z.abs z <= 16777216)%Z -> fin (f_of_Z z).
Proof. intros H. now apply f_of_Z_small. Qed.
Lemma val_Z z : (Z.abs z <= 16777216)%Z -> fval (f_of_Z z) = IZR z.
Proof. intros H. now apply f_of_Z_small. Qed.
Ltac bnd := first [apply fmt_Z; easy | apply big_Z; easy].

Lemma fin_f0 : fin f0. Proof. now split. Qed.
Lemma fin_f1 : fin f1. Proof. now split. Qed.
Lemma val_f0 : fval f0 = 0. Proof. reflexivity. Qed.
Lemma val_f1 : fval f1 = 1. Proof. exact (val_Z 1 ltac:(easy)). Qed.
Lemma fval_fin s m e : fval (S754_finite s m e) = IZR (cond_Zopp s (Zpos m)) * bpow radix2 e.
Proof. reflexivity. Qed.
#[export] Hint Resolve fin_f0 fin_f1 : core.

(** Counters up to 2^64 as floats: monotone and finite. *)
Lemma big_count z : (0 <= z <= 2 ^ 64)%Z -> 0 <= rnd (IZR z) <= bpow radix2 64 /\ Rabs (rnd (IZR z)) < big.
Proof.
  intros Hz. apply rnd_rng.
  - exact (fmt_Z 0 ltac:(easy)).
  - apply generic_format_bpow. unfold FLT_exp. lia.
  - exact (big_Z 0 ltac:(easy)).
  - rewrite Rabs_pos_eq by apply bpow_ge_0. now apply bpow_lt.
  - split; [apply IZR_le; lia|]. rewrite <- IZR_Zpower by easy. now apply IZR_le.
Qed.
Lemma count_fin z : (0 <= z <= 2 ^ 64)%Z -> fin (f_of_Z z) /\ fval (f_of_Z z) = rnd (IZR z) /\ 0 <= rnd (IZR z).
Proof. intros Hz. destruct (big_count z Hz) as [H1 H2]. destruct (f_of_Z_ok z H2) as [H3 H4]. split; [exact H3|]. split; [exact H4|lra]. Qed.
(** A quotient of counters. *)
Lemma ratio_rng a b : (0 <= a <= b)%Z -> (0 < b <= 2 ^ 64)%Z -> rng 0 1 (fdiv (f_of_Z a) (f_of_Z b)).
Proof.
  intros Ha Hb. destruct (count_fin a ltac:(lia)) as (Fa & Va & Pa). destruct (count_fin b ltac:(lia)) as (Fb & Vb & Pb).
  assert (1 <= rnd (IZR b)) by (rewrite <- rnd_1; apply rnd_le, IZR_le; lia).
  assert (rnd (IZR a) <= rnd (IZR b)) by (apply rnd_le, IZR_le; lia).
  apply fdiv_rng; [bnd..|exact Fa|exact Fb|rewrite Vb; lra|]. rewrite Va, Vb. split.
  - apply Rmult_le_reg_r with (rnd (IZR b)); [lra|]. field_simplify; lra.
  - apply Rmult_le_reg_r with (rnd (IZR b)); [lra|]. field_simplify; lra.
Qed.
Lemma mul01_rng x y : rng 0 1 x -> rng 0 1 y -> rng 0 1 (fmul x y).
Proof. intros [Fx Hx] [Fy Hy]. apply fmul_rng; [bnd..|exact Fx|exact Fy|nra]. Qed.
Lemma one_minus_rng x : rng 0 1 x -> rng 0 1 (fsub f1 x).
Proof. intros [Fx Hx]. apply fsub_rng; [bnd..|auto|exact Fx|]. rewrite val_f1. lra. Qed.

(** Rounding 1-s costs at most 2^-25, which is lost again when s is added. *)
Lemma rnd_err01 r : 0 <= r <= 1 -> Rabs (rnd r - r) <= / 2 * bpow radix2 (-24).
Proof.
  intros H. destruct (Req_dec r 1) as [->|Hne].
  { rewrite rnd_1. rewrite Rminus_diag_eq by easy. rewrite Rabs_R0. pose proof (bpow_gt_0 radix2 (-24)). lra. }
  destruct (Req_dec r 0) as [->|Hn0].
  { rewrite rnd_0. rewrite Rminus_diag_eq by easy. rewrite Rabs_R0. pose proof (bpow_gt_0 radix2 (-24)). lra. }
  unfold rnd. eapply Rle_trans; [apply error_le_half_ulp; auto with typeclass_instances|].
  apply Rmult_le_compat_l; [lra|]. rewrite ulp_neq_0 by exact Hn0. apply bpow_le. unfold cexp.
  assert (Hmag : (mag radix2 r <= 0)%Z).
  { apply mag_le_bpow; [exact Hn0|]. rewrite Rabs_pos_eq by lra. simpl. lra. }
  unfold FLT_exp. lia.
Qed.
Lemma rnd_near_1 r : r <= 1 + / 2 * bpow radix2 (-24) -> rnd r <= 1.
Proof.
  intros H. destruct (Rle_lt_dec r 1) as [H1|H1]; [rewrite <- rnd_1; now apply rnd_le|].
  assert (Hu : ulp radix2 (FLT_exp (-149) 24) 1 = bpow radix2 (-23)).
  { rewrite ulp_neq_0 by lra. f_equal. unfold cexp. replace (mag radix2 1 : Z) with 1%Z; [reflexivity|].
    symmetry. apply mag_unique. rewrite Rabs_R1. simpl. lra. }
  assert (Hb : bpow radix2 (-24) < bpow radix2 (-23)) by (apply bpow_lt; lia).
  assert (H23 : bpow radix2 (-23) = 2 * bpow radix2 (-24)).
  { change (-23)%Z with (1 + -24)%Z. rewrite bpow_plus. reflexivity. }
  apply Rnot_lt_le. intros Hgt.
  assert (Herr : Rabs (rnd r - r) <= / 2 * ulp radix2 (FLT_exp (-149) 24) r) by (apply error_le_half_ulp; auto with typeclass_instances).
  assert (Hur : ulp radix2 (FLT_exp (-149) 24) r = bpow radix2 (-23)).
  { rewrite ulp_neq_0 by lra. f_equal. unfold cexp. replace (mag radix2 r : Z) with 1%Z; [reflexivity|].
    symmetry. apply mag_unique. rewrite Rabs_pos_eq by lra. simpl. change (bpow radix2 0) with 1. 
    assert (bpow radix2 (-24) <= 1) by (change 1 with (bpow radix2 0); apply bpow_le; lia). split; [lra|].
    change (IZR (Z.pow_pos 2 1)) with 2. lra. }
  assert (Hs : 1 + bpow radix2 (-23) <= rnd r).
  { rewrite <- Hu. pose proof (succ_le_lt radix2 (FLT_exp (-149) 24) 1 (rnd r)) as S.
    rewrite succ_eq_pos in S by lra. apply S; [exact (fmt_Z 1 ltac:(easy))|apply fmt_rnd|exact Hgt]. }
  rewrite Hur in Herr. apply Rabs_le_inv in Herr. lra.
Qed.
(** A convex combination of values within [-1, 1] stays there, despite rounding. *)
Lemma rnd_mono_mul t a b : 0 <= t -> a <= b -> t * a <= t * b.
Proof. intros. now apply Rmult_le_compat_l. Qed.
Lemma mix_rng b x y : rng 0 1 b -> rng (-1) 1 x -> rng (-1) 1 y ->
  rng (-1) 1 (fadd (fmul x (fsub f1 b)) (fmul b y)).
Proof.
  intros Hb [Fx Hx] [Fy Hy]. pose proof Hb as [Fb Vb]. pose proof (one_minus_rng b Hb) as [Fa Va].
  destruct (fsub_ok f1 b fin_f1 Fb) as [_ Ea].
  { rewrite val_f1. apply (rnd_rng 0 1); [bnd..|lra]. }
  rewrite val_f1 in Ea.
  assert (Hax : rng (- fval (fsub f1 b)) (fval (fsub f1 b)) (fmul x (fsub f1 b))).
  { apply fmul_rng; [|now apply fin_fmt| | |exact Fx|exact Fa|nra].
    - apply generic_format_opp. now apply fin_fmt.
    - rewrite Rabs_Ropp. apply (abs_big 0 1); [bnd..|lra].
    - apply (abs_big 0 1); [bnd..|lra]. }
  assert (Hby : rng (- fval b) (fval b) (fmul b y)).
  { apply fmul_rng; [|now apply fin_fmt| | |exact Fb|exact Fy|nra].
    - apply generic_format_opp. now apply fin_fmt.
    - rewrite Rabs_Ropp. apply (abs_big 0 1); [bnd..|lra].
    - apply (abs_big 0 1); [bnd..|lra]. }
  destruct Hax as [F1 V1], Hby as [F2 V2].
  set (r := fval (fmul x (fsub f1 b)) + fval (fmul b y)).
  assert (He : fval (fsub f1 b) + fval b <= 1 + / 2 * bpow radix2 (-24)).
  { rewrite Ea. pose proof (rnd_err01 (1 - fval b) ltac:(lra)) as H. apply Rabs_le_inv in H. lra. }
  assert (Hup : rnd r <= 1) by (apply rnd_near_1; unfold r; lra).
  assert (Hdn : -1 <= rnd r).
  { assert (rnd (- r) <= 1) by (apply rnd_near_1; unfold r; lra).
    unfold rnd in *. rewrite round_NE_opp in H. lra. }
  destruct (fadd_ok _ _ F1 F2) as [F3 V3].
  { apply (abs_big (-1) 1); [bnd..|exact (conj Hdn Hup)]. }
  split; [exact F3|]. rewrite V3. split; assumption.
Qed.
Lemma mix01_rng b x y : rng 0 1 b -> rng 0 1 x -> rng 0 1 y ->
  rng 0 1 (fadd (fmul x (fsub f1 b)) (fmul b y)).
Proof.
  intros Hb Hx Hy. destruct (mix_rng b x y Hb) as [F [_ V]].
  - eapply rng_weaken; [exact Hx|lra|lra].
  - eapply rng_weaken; [exact Hy|lra|lra].
  - split; [exact F|]. split; [|exact V].
    pose proof (mul01_rng _ _ Hx (one_minus_rng b Hb)) as [F1 V1]. pose proof (mul01_rng _ _ Hb Hy) as [F2 V2].
    assert (0 <= rnd (fval (fmul x (fsub f1 b)) + fval (fmul b y)) <= 2 /\ Rabs (rnd (fval (fmul x (fsub f1 b)) + fval (fmul b y))) < big)
      as [H1 H2] by (apply (rnd_rng 0 2); [bnd..|lra]).
    destruct (fadd_ok _ _ F1 F2 H2) as [_ ->]. lra.
Qed.

(** ** Floor, ceiling and indices *)

Lemma fneg_ok x : fin x -> fin (fneg x) /\ fval (fneg x) = - fval x.
Proof.
  intros [Hv Hf]. destruct x as [s|s| |s m e]; try easy.
  - split; [easy|]. change (0 = - 0). lra.
  - split; [easy|]. change (fneg (S754_finite s m e)) with (S754_finite (negb s) m e). rewrite !fval_fin.
    destruct s; simpl cond_Zopp; [|]; change (Z.neg m) with (- Z.pos m)%Z; rewrite opp_IZR; ring.
Qed.
Lemma neg_val m e : fval (S754_finite true m e) < 0.
Proof. now apply F2R_lt_0. Qed.
Lemma pos_val m e : 0 < fval (S754_finite false m e).
Proof. now apply F2R_gt_0. Qed.
(** The value of a positive float with a negative exponent is between two quotients. *)
Lemma frac_val m p : let q := (Zpos m / 2 ^ Zpos p)%Z in
  fval (S754_finite false m (Zneg p)) = IZR (Zpos m) / IZR (2 ^ Zpos p) /\ 0 < IZR (2 ^ Zpos p) /\
  (Zpos m = 2 ^ Zpos p * q + Zpos m mod 2 ^ Zpos p)%Z /\ (0 <= Zpos m mod 2 ^ Zpos p < 2 ^ Zpos p)%Z.
Proof.
  cbv zeta. assert (Hp : (0 < 2 ^ Zpos p)%Z) by (apply Z.pow_pos_nonneg; lia).
  split; [|split; [now apply IZR_lt|split; [now apply Z.div_mod; lia|now apply Z.mod_pos_bound]]].
  rewrite fval_fin. simpl cond_Zopp. change (bpow radix2 (Z.neg p)) with (bpow radix2 (- Z.pos p)). rewrite bpow_opp.
  change (2 ^ Z.pos p)%Z with (Zpower radix2 (Z.pos p)). rewrite IZR_Zpower by easy. reflexivity.
Qed.
Lemma trunc_floor x : fin x -> 0 <= fval x -> IZR (trunc_Z x) <= fval x < IZR (trunc_Z x) + 1.
Proof.
  intros [_ Hf] H. destruct x as [s|s| |s m e]; try easy; [change (0 <= 0 < 0 + 1); lra|].
  assert (s = false) as -> by (destruct s; [pose proof (neg_val m e); lra|easy]).
  destruct e as [|p|p].
  - change (trunc_Z (S754_finite false m 0)) with (Zpos m). rewrite fval_fin. simpl. lra.
  - change (trunc_Z (S754_finite false m (Zpos p))) with (Zpos m * 2 ^ Zpos p)%Z. rewrite fval_fin. simpl cond_Zopp.
    rewrite mult_IZR. change (2 ^ Z.pos p)%Z with (Zpower radix2 (Z.pos p)). rewrite IZR_Zpower by easy. lra.
  - change (trunc_Z (S754_finite false m (Zneg p))) with (Zpos m / 2 ^ Zpos p)%Z.
    destruct (frac_val m p) as (-> & Hp & Hd & Hm). set (q := (Z.pos m / 2 ^ Z.pos p)%Z) in *. set (r := (Z.pos m mod 2 ^ Z.pos p)%Z) in *.
    rewrite Hd, plus_IZR, mult_IZR. destruct Hm as [Hm1 Hm2]. apply IZR_le in Hm1. apply IZR_lt in Hm2.
    replace ((IZR (2 ^ Z.pos p) * IZR q + IZR r) / IZR (2 ^ Z.pos p)) with (IZR q + IZR r / IZR (2 ^ Z.pos p)) by (field; lra).
    assert (0 <= IZR r / IZR (2 ^ Z.pos p) < 1); [|lra]. split.
    + apply Rmult_le_pos; [exact Hm1|left; now apply Rinv_0_lt_compat].
    + apply Rmult_lt_reg_r with (IZR (2 ^ Z.pos p)); [exact Hp|]. replace (IZR r / IZR (2 ^ Z.pos p) * IZR (2 ^ Z.pos p)) with (IZR r) by (field; lra). lra.
Qed.
Lemma trunc_exact x z : fin x -> (0 <= z)%Z -> fval x = IZR z -> trunc_Z x = z.
Proof.
  intros Hx Hz E. assert (0 <= IZR z) by now apply IZR_le. pose proof (trunc_floor x Hx ltac:(lra)) as [H1 H2].
  rewrite E in H1, H2. apply le_IZR in H1. rewrite <- plus_IZR in H2. apply lt_IZR in H2. lia.
Qed.
Lemma as_usize_fin c x : fin x -> 0 <= fval x -> (0 <= umax c)%Z -> as_usize c x = Z.min (umax c) (trunc_Z x).
Proof.
  intros Hx H Hu. pose proof (trunc_floor x Hx H) as [_ H2]. assert (0 <= trunc_Z x)%Z.
  { assert (IZR 0 < IZR (trunc_Z x) + 1) as H3 by lra. rewrite <- plus_IZR in H3. apply lt_IZR in H3. lia. }
  destruct Hx as [_ Hf]. unfold as_usize. destruct x; try easy; lia.
Qed.
(** Both neighbours of a float up to [n] are whole numbers up to [n]. *)
Lemma floor_val x n : (0 <= n <= 16777216)%Z -> rng 0 (IZR n) x ->
  exists k, (0 <= k <= n)%Z /\ fin (ffloor x) /\ fval (ffloor x) = IZR k /\ IZR k <= fval x < IZR k + 1.
Proof.
  intros Hn [Fx [V1 V2]]. pose proof (trunc_floor x Fx V1) as [T1 T2]. exists (trunc_Z x).
  assert (Hk : (0 <= trunc_Z x <= n)%Z).
  { split.
    - assert (IZR 0 < IZR (trunc_Z x) + 1) as H3 by lra. rewrite <- plus_IZR in H3. apply lt_IZR in H3. lia.
    - apply le_IZR. lra. }
  split; [exact Hk|]. assert (Hsame : fval x = IZR (trunc_Z x) -> ffloor x = x -> fin (ffloor x) /\ fval (ffloor x) = IZR (trunc_Z x)).
  { intros E1 ->. now split. }
  assert (fin (ffloor x) /\ fval (ffloor x) = IZR (trunc_Z x)) as [F E]; [|repeat split; try assumption; apply F].
  destruct x as [s|s| |s m e]; try (destruct Fx; easy).
  - assert (s = false) as -> by (destruct s; [pose proof (neg_val m e); lra|easy]). destruct e as [|p|p].
    + apply Hsame; [|easy]. rewrite fval_fin. simpl. lra.
    + apply Hsame; [|easy]. change (trunc_Z (S754_finite false m (Zpos p))) with (Zpos m * 2 ^ Zpos p)%Z. rewrite fval_fin. simpl cond_Zopp.
      rewrite mult_IZR. change (2 ^ Z.pos p)%Z with (Zpower radix2 (Z.pos p)). now rewrite IZR_Zpower by easy.
    + change (ffloor (S754_finite false m (Zneg p))) with (f_of_Z (trunc_Z (S754_finite false m (Zneg p)))). apply f_of_Z_small. lia.
Qed.
Lemma ceil_val x n : (0 <= n <= 16777216)%Z -> rng 0 (IZR n) x ->
  exists k, (0 <= k <= n)%Z /\ fin (fceil x) /\ fval (fceil x) = IZR k /\ IZR k - 1 < fval x <= IZR k.
Proof.
  intros Hn [Fx [V1 V2]]. unfold fceil.
  destruct x as [s|s| |s m e]; try (destruct Fx; easy).
  - exists 0%Z. split; [lia|]. split; [now destruct s|]. split; [now destruct s|]. change (0 - 1 < 0 <= 0). lra.
  - assert (s = false) as -> by (destruct s; [pose proof (neg_val m e); lra|easy]).
    pose proof (trunc_floor _ Fx V1) as [T1 T2].
    assert (Hsame : forall k, fval (S754_finite false m e) = IZR k -> fneg (ffloor (fneg (S754_finite false m e))) = S754_finite false m e ->
      exists k, (0 <= k <= n)%Z /\ fin (fneg (ffloor (fneg (S754_finite false m e)))) /\ fval (fneg (ffloor (fneg (S754_finite false m e)))) = IZR k /\
        IZR k - 1 < fval (S754_finite false m e) <= IZR k).
    { intros k E1 ->. exists k. split; [split; apply le_IZR; lra|]. split; [easy|]. split; [easy|]. lra. }
    destruct e as [|p|p].
    + apply (Hsame (Zpos m)); [|easy]. rewrite fval_fin. simpl. lra.
    + apply (Hsame (Zpos m * 2 ^ Zpos p)%Z); [|easy]. rewrite fval_fin. simpl cond_Zopp.
      rewrite mult_IZR. change (2 ^ Z.pos p)%Z with (Zpower radix2 (Z.pos p)). now rewrite IZR_Zpower by easy.
    + clear Hsame. set (q := (Zpos m / 2 ^ Zpos p)%Z). set (k := if (q * 2 ^ Zpos p =? Zpos m)%Z then q else (q + 1)%Z).
      assert (Hk : (1 <= k)%Z /\ IZR k - 1 < fval (S754_finite false m (Zneg p)) <= IZR k).
      { destruct (frac_val m p) as (E & Hp & Hd & Hm). fold q in Hd. rewrite E.
        assert (Hq0 : (0 <= q)%Z) by (apply Z.div_pos; [lia|apply Z.pow_pos_nonneg; lia]).
        unfold k. destruct (Z.eqb_spec (q * 2 ^ Zpos p) (Zpos m)) as [Eq|Ne].
        - split; [destruct (Z.eq_dec q 0) as [E0|E0]; [rewrite E0 in Eq; lia|lia]|]. rewrite <- Eq, mult_IZR.
          replace (IZR q * IZR (2 ^ Z.pos p) / IZR (2 ^ Z.pos p)) with (IZR q) by (field; lra). lra.
        - split; [lia|]. rewrite plus_IZR. rewrite Hd, plus_IZR, mult_IZR.
          assert (Hr : (0 < Z.pos m mod 2 ^ Z.pos p)%Z) by lia. apply IZR_lt in Hr. destruct Hm as [_ Hm2]. apply IZR_lt in Hm2.
          set (r := (Z.pos m mod 2 ^ Z.pos p)%Z) in *.
          replace ((IZR (2 ^ Z.pos p) * IZR q + IZR r) / IZR (2 ^ Z.pos p)) with (IZR q + IZR r / IZR (2 ^ Z.pos p)) by (field; lra).
          assert (0 < IZR r / IZR (2 ^ Z.pos p) < 1); [|lra]. split.
          + apply Rmult_lt_0_compat; [exact Hr|now apply Rinv_0_lt_compat].
          + apply Rmult_lt_reg_r with (IZR (2 ^ Z.pos p)); [exact Hp|]. replace (IZR r / IZR (2 ^ Z.pos p) * IZR (2 ^ Z.pos p)) with (IZR r) by (field; lra). lra. }
      destruct Hk as [Hk1 Hk2]. exists k.
      assert (Hkn : (k <= n)%Z).
      { assert (IZR k < IZR n + 1) as H3 by lra. rewrite <- plus_IZR in H3. apply lt_IZR in H3. lia. }
      split; [lia|].
      assert (E : ffloor (fneg (S754_finite false m (Z.neg p))) = f_of_Z (- k)).
      { change (ffloor (fneg (S754_finite false m (Z.neg p)))) with (binary_normalize prec32 emax32 (- k) 0 true).
        unfold f_of_Z. destruct k; try lia. reflexivity. }
      rewrite E. destruct (f_of_Z_small (- k) ltac:(lia)) as [F1 V]. destruct (fneg_ok _ F1) as [F2 V3].
      split; [exact F2|]. split; [rewrite V3, V, opp_IZR; ring|exact Hk2].
Qed.
Lemma floor_index c x n : (0 <= n <= 16777216)%Z -> (n <= umax c)%Z -> rng 0 (IZR n) x ->
  (0 <= as_usize c (ffloor x) <= n)%Z /\ IZR (as_usize c (ffloor x)) <= fval x < IZR (as_usize c (ffloor x)) + 1.
Proof.
  intros Hn Hu Hx. destruct (floor_val x n Hn Hx) as (k & Hk & F & V & B).
  rewrite as_usize_fin; [|exact F|rewrite V; now apply IZR_le|lia]. rewrite (trunc_exact _ k F) by (try lia; exact V).
  rewrite Z.min_r by lia. now split.
Qed.
Lemma ceil_index c x n : (0 <= n <= 16777216)%Z -> (n <= umax c)%Z -> rng 0 (IZR n) x ->
  (0 <= as_usize c (fceil x) <= n)%Z /\ IZR (as_usize c (fceil x)) - 1 < fval x <= IZR (as_usize c (fceil x)).
Proof.
  intros Hn Hu Hx. destruct (ceil_val x n Hn Hx) as (k & Hk & F & V & B).
  rewrite as_usize_fin; [|exact F|rewrite V; now apply IZR_le|lia]. rewrite (trunc_exact _ k F) by (try lia; exact V).
  rewrite Z.min_r by lia. now split.
Qed.

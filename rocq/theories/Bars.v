(** * Bars: the clocks of the components count at least one sample at sane tempos.

    Nothing here models code of /repo. *)
From Coq Require Import ZArith Reals Lra Lia Bool.
From Flocq Require Import Core.
From Flocq.IEEE754 Require Import BinarySingleNaN.
From Verif Require Import F32 F64 NodesBasic NodesSeq NodesFilter Range DoubleR FloatR.
Local Open Scope R_scope.

(** Between 1 and 1000 beats per minute, at 8 to 192 kHz. *)
Definition sane (bpm : f32) (sr : Z) : Prop := rng 1 1000 bpm /\ (8000 <= sr <= 192000)%Z.
(** A span of a pattern or of an envelope, in bars. *)
Definition sane_span (span : f32) : Prop := rng (/ 64) 1000000 span.
(** A speed of a sequence. *)
Definition sane_speed (x : f32) : Prop := fin x /\ 0 < fval x <= 1000.

Lemma fmt_pow k : (-100 <= k <= 100)%Z -> fmt (bpow radix2 k).
Proof. intros H. apply generic_format_bpow. unfold FLT_exp. lia. Qed.
Lemma big_pow k : (-100 <= k <= 100)%Z -> Rabs (bpow radix2 k) < big.
Proof. intros H. rewrite Rabs_pos_eq by apply bpow_ge_0. apply bpow_lt. lia. Qed.
Lemma dfmt_pow k : (-1000 <= k <= 1000)%Z -> dfmt (bpow radix2 k).
Proof. intros H. apply generic_format_bpow. unfold FLT_exp. lia. Qed.

Lemma ddiv_rng lo hi x y : dfmt lo -> dfmt hi -> Rabs lo < bpow radix2 1024 -> Rabs hi < bpow radix2 1024 ->
  dfin x -> dfin y -> dval y <> 0 -> lo <= dval x / dval y <= hi -> dfin (ddiv x y) /\ lo <= dval (ddiv x y) <= hi.
Proof.
  intros Hl Hh Bl Bh (a & -> & Ha & Ea)%dfin_b (b & -> & Hb & Eb)%dfin_b Hy Hr. rewrite <- Eb in Hy. unfold ddiv.
  rewrite (SFdiv_B 53 1024 _ _). pose proof (drnd_between _ _ _ Hl Hh Hr) as Hr1.
  pose proof (Bdiv_correct 53 1024 _ _ mode_NE a b Hy) as H. rewrite Rlt_bool_true in H.
  - destruct H as (H1 & H2 & _). rewrite Ha in H2. destruct (b_dfin _ H2) as [H3 H4]. split; [exact H3|].
    rewrite H4, H1, Ea, Eb. exact Hr1.
  - rewrite Ea, Eb. apply Rabs_def2 in Bl, Bh. apply Rabs_def1; change (round radix2 _ _ ?r) with (drnd r); lra.
Qed.
Lemma dpow_big k : (-1000 <= k <= 1000)%Z -> Rabs (bpow radix2 k) < bpow radix2 1024.
Proof. intros H. rewrite Rabs_pos_eq by apply bpow_ge_0. apply bpow_lt. lia. Qed.

Lemma fin_pos_low x : fin x -> 0 < fval x -> bpow radix2 (-149) <= fval x.
Proof.
  intros Hx H. apply (generic_format_ge_bpow radix2 (FLT_exp (-149) 24)); [|exact H|now apply fin_fmt]. intros e. unfold FLT_exp. lia.
Qed.
Lemma usize_ge1_d c x : (1 <= umax c)%Z -> dfin x -> 1 <= dval x -> as_usize c x <> 0%Z.
Proof.
  intros Hu Hx H. rewrite as_usize_d by (try assumption; try lra; lia). assert (1 <= Zfloor (dval x))%Z by now apply Zfloor_lub. lia.
Qed.
Lemma usize_ge1_f c x : (1 <= umax c)%Z -> fin x -> 1 <= fval x -> as_usize c x <> 0%Z.
Proof.
  intros Hu Hx H. rewrite as_usize_fin by (try assumption; try lra; lia). pose proof (trunc_ge1 x Hx H). lia.
Qed.

(** The bar of a sequence. *)
Lemma bar_length_ge1 c bpm sr speed : (1 <= umax c)%Z -> sane bpm sr -> sane_speed speed -> as_usize c (bar_length bpm sr speed) <> 0%Z.
Proof.
  intros Hu [[Hb Hb1] Hs] [Hx Hx1]. destruct (d_of_Z_ok 240 ltac:(lia)) as [F240 V240]. destruct (d_of_f_ok bpm Hb) as [Fb Vb].
  destruct (d_of_f_ok speed Hx) as [Fx Vx]. destruct (d_of_Z_ok sr ltac:(lia)) as [Fs Vs].
  assert (Hs' : 8000 <= IZR sr <= 192000) by (split; now apply IZR_le).
  assert (H1 : dfin (ddiv (d_of_Z 240) (d_of_f bpm)) /\ bpow radix2 (-3) <= dval (ddiv (d_of_Z 240) (d_of_f bpm)) <= bpow radix2 8).
  { apply ddiv_rng; try (apply dfmt_pow; lia); try (apply dpow_big; lia); try assumption; rewrite Vb; [lra|]. rewrite V240. simpl bpow. split.
    - apply Rmult_le_reg_r with (fval bpm); [lra|]. unfold Rdiv. rewrite Rmult_assoc, Rinv_l by lra. lra.
    - apply Rmult_le_reg_r with (fval bpm); [lra|]. unfold Rdiv. rewrite Rmult_assoc, Rinv_l by lra. lra. }
  destruct H1 as [F1 V1]. simpl bpow in V1.
  assert (H2 : drng 1000 49152000 (dmul (ddiv (d_of_Z 240) (d_of_f bpm)) (d_of_Z sr))).
  { apply dmul_rng; try lia; try assumption. rewrite Vs. set (q := dval (ddiv _ _)) in *. split; nra. }
  destruct H2 as [F2 V2]. set (n := dmul _ _) in *. pose proof (fin_pos_low speed Hx (proj1 Hx1)) as Hlow.
  assert (H3 : dfin (ddiv n (d_of_f speed)) /\ 1 <= dval (ddiv n (d_of_f speed)) <= bpow radix2 200).
  { apply ddiv_rng; try assumption.
    - apply (dfmt_Z 1). lia.
    - apply dfmt_pow; lia.
    - apply (dbig 1). lia.
    - apply dpow_big; lia.
    - rewrite Vx. lra.
    - rewrite Vx. split; (apply Rmult_le_reg_r with (fval speed); [lra|]); unfold Rdiv; rewrite Rmult_assoc, Rinv_l by lra; [lra|].
      rewrite Rmult_1_r. apply Rle_trans with (bpow radix2 200 * bpow radix2 (-149)).
      + rewrite <- bpow_plus. apply Rle_trans with (IZR 49152000); [apply V2|]. rewrite <- (IZR_Zpower radix2) by lia. apply IZR_le. now vm_compute.
      + apply Rmult_le_compat_l; [apply bpow_ge_0|exact Hlow]. }
  apply usize_ge1_d; [exact Hu|apply H3|apply H3].
Qed.
(** The bar of a points envelope and of a filter pattern. *)
Lemma bar_dur_ge1 c bpm span sr : (1 <= umax c)%Z -> sane bpm sr -> sane_span span -> as_usize c (bar_dur bpm span sr) <> 0%Z.
Proof.
  intros Hu [[Hb Hb1] Hs] [Hx Hx1]. assert (Hs' : 8000 <= IZR sr <= 192000) by (split; now apply IZR_le).
  unfold bar_dur, cycle_dur.
  assert (H1 : rng (bpow radix2 (-5)) (bpow radix2 6) (fdiv (f_of_Z 60) bpm)).
  { apply fdiv_rng; try (apply fmt_pow; lia); try (apply big_pow; lia); try assumption; [apply fin_Z; lia|lra|].
    rewrite val_Z by lia. simpl bpow. split; (apply Rmult_le_reg_r with (fval bpm); [lra|]); unfold Rdiv; rewrite Rmult_assoc, Rinv_l by lra; lra. }
  destruct H1 as [F1 V1]. simpl bpow in V1. set (a := fdiv _ _) in *.
  assert (H2 : rng (bpow radix2 (-3)) (bpow radix2 8) (fmul a (f_of_Z 4))).
  { apply fmul_rng; try (apply fmt_pow; lia); try (apply big_pow; lia); try assumption; [apply fin_Z; lia|]. rewrite val_Z by lia. simpl bpow. lra. }
  destruct H2 as [F2 V2]. simpl bpow in V2. set (b := fmul a (f_of_Z 4)) in *.
  assert (H3 : rng (bpow radix2 (-9)) (bpow radix2 28) (fmul b span)).
  { apply fmul_rng; try (apply fmt_pow; lia); try (apply big_pow; lia); try assumption. simpl bpow. split; nra. }
  destruct H3 as [F3 V3]. simpl bpow in V3. set (d := fmul b span) in *.
  assert (H4 : rng 1 (bpow radix2 60) (fmul d (f_of_Z sr))).
  { apply fmul_rng; try (apply (fmt_pow 0); lia); try (apply fmt_pow; lia); try (apply (big_pow 0); lia); try (apply big_pow; lia); try assumption; [apply fin_Z; lia|].
    rewrite val_Z by lia. simpl bpow. set (x := fval d) in *. set (y := IZR sr) in *. clear -V3 Hs'. split.
    - assert (/ 512 * 8000 <= x * y) by (apply Rmult_le_compat; lra). lra.
    - assert (x * y <= 268435456 * 192000) by (apply Rmult_le_compat; lra). lra. }
  destruct H4 as [F4 V4]. apply usize_ge1_f; [exact Hu|exact F4|lra].
Qed.
(** The bar of a pattern synth does not depend on the tempo. *)
Lemma psynth_bar_ge1 c sr : (1 <= umax c)%Z -> (8000 <= sr <= 192000)%Z -> as_usize c (fmul (fmul f2 f1) (f_of_Z sr)) <> 0%Z.
Proof.
  intros Hu Hs. assert (Hs' : 8000 <= IZR sr <= 192000) by (split; now apply IZR_le).
  replace (fmul f2 f1) with (f_of_Z 2) by now vm_compute.
  assert (H : rng 1 (bpow radix2 24) (fmul (f_of_Z 2) (f_of_Z sr))).
  { apply fmul_rng; try (apply (fmt_pow 0); lia); try (apply fmt_pow; lia); try (apply (big_pow 0); lia); try (apply big_pow; lia); try (apply fin_Z; lia).
    rewrite !val_Z by lia. simpl bpow. lra. }
  destruct H as [F V]. apply usize_ge1_f; [exact Hu|exact F|lra].
Qed.
(** The period of an impulse, with a frequency or without one. *)
Lemma imp_ge1 c sr v : (1 <= umax c)%Z -> (8000 <= sr <= 192000)%Z -> (fin v /\ 0 < fval v <= IZR sr) \/ v = f0 ->
  as_usize c (fdiv (f_of_Z sr) v) <> 0%Z.
Proof.
  intros Hu Hs [[Hv H]| ->].
  - assert (1 <= as_usize c (fdiv (f_of_Z sr) v))%Z; [|lia]. apply period_ge1; [exact Hu|apply fin_Z; lia|exact Hv|]. now rewrite val_Z by lia.
  - destruct (f_of_Z_small sr ltac:(lia)) as [[_ Hf] Hval]. assert (8000 <= IZR sr) by now apply IZR_le.
    destruct (f_of_Z sr) as [s|s| |s m e]; try easy; [unfold fval in Hval; simpl in Hval; lra|].
    destruct s; [exfalso; pose proof (neg_val m e); lra|]. change (umax c <> 0%Z). lia.
Qed.

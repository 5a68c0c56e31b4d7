(** * Props_Choose: [choose] never indexes outside its list (C30). *)
From Coq Require Import Reals Lra.
From Flocq Require Import Core.
From Flocq.IEEE754 Require Import BinarySingleNaN.
From Verif Require Export Props_Signal.
From Verif Require Import FloatR DoubleR.
From Coq Require Import Lia.
Local Open Scope nat_scope.

(** Well-formed and comparing between -1.0 and 1.0, which is what [dasp_signal::noise] yields. *)
Definition unit_noise (v : f64) : Prop :=
  valid_binary 53 1024 v = true /\ SFleb (d_of_Z (-1)) v = true /\ SFleb v (d_of_Z 1) = true.
Lemma unit_noise_rng v : unit_noise v -> drng (-1) 1 v.
Proof.
  intros (Hv & H1 & H2). assert (Hf : dfin v).
  { split; [done|]. by destruct v as [|[]| |]. }
  split; [done|]. destruct (dfin_b v Hf) as (b & -> & Hb & Eb).
  destruct (d_of_Z_ok (-1) eq_refl) as [F1 V1]. destruct (d_of_Z_ok 1 eq_refl) as [F2 V2].
  destruct (dfin_b _ F1) as (b1 & E1 & Hb1 & Eb1). destruct (dfin_b _ F2) as (b2 & E2 & Hb2 & Eb2).
  rewrite E1 in H1. rewrite E2 in H2. unfold SFleb in H1, H2.
  pose proof (Bcompare_correct 53 1024 b1 b Hb1 Hb) as C1. pose proof (Bcompare_correct 53 1024 b b2 Hb Hb2) as C2.
  unfold Bcompare in C1, C2. rewrite C1 in H1. rewrite C2 in H2. rewrite <- V1, <- V2, <- Eb1, <- Eb2, <- Eb.
  destruct (Rcompare_spec (B2R b1) (B2R b)); destruct (Rcompare_spec (B2R b) (B2R b2)); try done; lra.
Qed.

Lemma choose_index_in (P : platform) v len : unit_noise v -> 0 < len -> (Z.of_nat len < 2 ^ 53)%Z ->
  (Z.of_nat len <= umax (p_cfg P))%Z -> (0 <= choose_index P v len < Z.of_nat len)%Z.
Proof.
  intros Hv H0 Hl Hu. apply unit_noise_rng, dmul_half in Hv as [F1 R1].
  assert (Hh : dfin d_half) by by vm_compute.
  assert (Eh : dval d_half = (1/2)%R) by exact d_half_val.
  destruct (dadd_rng 0 1 eq_refl eq_refl _ _ F1 Hh ltac:(rewrite Eh; lra)) as [F2 R2].
  destruct (d_of_Z_ok (Z.of_nat len) ltac:(lia)) as [F3 V3].
  assert (Hlen : (1 <= IZR (Z.of_nat len))%R) by (apply IZR_le; lia).
  assert (H3 : drng 0 (Z.of_nat len) (dmul (dadd (dmul v d_half) d_half) (d_of_Z (Z.of_nat len)))).
  { apply dmul_rng; [done|lia|done|done|]. rewrite V3. split; nra. }
  unfold choose_index. set (x := dmul _ (d_of_Z _)) in *. pose proof (dtrunc _ _ H3) as Ht.
  assert (Ha : as_usize (p_cfg P) x = trunc_Z x).
  { destruct H3 as [[_ Hf] _]. destruct x; try done; unfold as_usize; lia. }
  rewrite Ha. destruct (Z.eqb_spec (trunc_Z x) (Z.of_nat len)); lia.
Qed.

(** For every list of at most 2^53 notes, every seed and every input: [choose] never panics and
    every block repeats one element of the list. *)
Theorem C30_choose_never_panics (P : platform) ev l ms nd out (inss : list inmap) :
  Forall conn_msg ms -> created P ev (CChoose l) ms nd out ->
  (forall k, unit_noise (p_noise P (e_seed ev) k)) ->
  l <> [] -> (Z.of_nat (length l) < 2 ^ 53)%Z -> (Z.of_nat (length l) <= umax (p_cfg P))%Z ->
  exists nd' outs, play P nd out inss = Ok (nd', outs) /\ length outs = length inss /\
    Forall (fun o => exists v, v ∈ l /\ o = [replicate (p_blk P) v; silent P]) outs.
Proof.
  intros Hms Hc Hn Hl Hl1 Hl2. destruct (choose_created P ev l ms nd out Hms Hc) as (o & -> & ->). clear Hc Hms.
  set (k := 0%Z). clearbody k. generalize (silent P) at 1 as b0. revert k.
  induction inss as [|i inss IH]; intros k b0; [do 2 eexists; split; [reflexivity|by split]|].
  cbn [play gproc sproc]. unfold choose_proc. cbn [ch_noise ch_list noise_next no_seed no_count].
  assert (H0 : 0 < length l) by (destruct l; [done|simpl; lia]).
  pose proof (choose_index_in P _ _ (Hn k) H0 Hl1 Hl2) as Hi. set (id := choose_index _ _ _) in *.
  unfold at_. destruct (Z.ltb_spec id 0) as [|_]; [lia|].
  destruct (lookup_lt_is_Some_2 l (Z.to_nat id)) as [v Hv]; [lia|]. rewrite Hv.
  assert (Hm : mapR (fun _ : unit => Ok v) (replicate (p_blk P) tt) = Ok (replicate (p_blk P) v)).
  { clear. induction (p_blk P) as [|n IH]; [done|]. cbn [replicate mapR]. by rewrite IH. }
  cbn [unwrap]. rewrite Hm. cbn [mbind res_bind put0 mret res_ret wrap no_ord].
  destruct (IH (k + 1)%Z (replicate (p_blk P) v)) as (nd' & outs & -> & Hlen & Hf).
  do 2 eexists. split; [reflexivity|]. split; [by simpl; rewrite Hlen|]. constructor; [|done].
  exists v. split; [by eapply elem_of_list_lookup_2|done].
Qed.
Lemma demo_unit_noise seed k : unit_noise (p_noise demo seed k).
Proof.
  unfold demo, p_noise. pose proof (Z.mod_pos_bound (seed + k * 7) 11 eq_refl) as H.
  set (z := ((seed + k * 7) mod 11)%Z) in *. clearbody z.
  assert (z = 0 \/ z = 1 \/ z = 2 \/ z = 3 \/ z = 4 \/ z = 5 \/ z = 6 \/ z = 7 \/ z = 8 \/ z = 9 \/ z = 10)%Z as Hz by lia.
  repeat (destruct Hz as [->|Hz]; [by vm_compute|]). subst z. by vm_compute.
Qed.
Example ex_choose : exists nd out nd' outs,
  created demo demo_env (CChoose [f_of_Z 60; f_of_Z 62; f0]) [] nd out /\
  play demo nd out [[]; []; []] = Ok (nd', outs) /\
  (forall k, unit_noise (p_noise demo (e_seed demo_env) k)) /\
  lane 0 outs = replicate 8 f0 ++ replicate 8 (f_of_Z 62) ++ replicate 8 (f_of_Z 60).
Proof.
  destruct (demo_run_created demo demo_env (CChoose [f_of_Z 60; f_of_Z 62; f0]) [] [[]; []; []]
    [[replicate 8 f0; silent demo]; [replicate 8 (f_of_Z 62); silent demo];
     [replicate 8 (f_of_Z 60); silent demo]]
    ltac:(vm_compute; reflexivity)) as (nd & out & nd' & Hc & Hp).
  exists nd, out, nd'. eexists. split; [exact Hc|]. split; [exact Hp|].
  split; [intros k; apply demo_unit_noise|vm_compute; reflexivity].
Qed.

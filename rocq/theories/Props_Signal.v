(** * Props_Signal: sources, operators and mixing (C21, C25, C26, C29, C30, C33, C44, C46). *)
From Verif Require Export Demo.
From Coq Require Import Lia.
Local Open Scope nat_scope.

(** ** Helpers *)

Lemma length1 {A} (l : list A) : length l = 1 -> exists a, l = [a].
Proof. destruct l as [|a [|]]; simpl; try done. by exists a. Qed.
Lemma length2 {A} (l : list A) : length l = 2 -> exists a b, l = [a; b].
Proof. destruct l as [|a [|b [|]]]; simpl; try done. by exists a, b. Qed.

Lemma concat_const {A B} (l : list B) (b : list A) :
  List.concat (map (fun _ => b) l) = List.concat (replicate (length l) b).
Proof. induction l as [|x l IH]; [done|]. simpl. by rewrite IH. Qed.
Lemma concat_replicate {A} (k n : nat) (x : A) :
  List.concat (replicate k (replicate n x)) = replicate (k * n) x.
Proof. induction k as [|k IH]; [done|]. simpl. rewrite IH. by rewrite replicate_add. Qed.

Lemma as_usize_le0 c x : (match x with S754_zero _ | S754_finite _ _ _ => (trunc_Z x <=? 0)%Z | _ => false end) = true ->
  as_usize c x = 0%Z.
Proof. destruct x; simpl; try done; intros H%Z.leb_le; unfold as_usize; lia. Qed.

(** ** imp *)

Lemma imp_created (P : platform) ev v ms nd out : Forall conn_msg ms ->
  created P ev (CImp (Num v)) ms nd out ->
  exists o, nd = Simple (NImp (Imp 0 (imp_period P (e_sr ev) v) (e_sr ev) o)) /\ out = [silent P].
Proof.
  intros Hms (n0 & refs & [= <- <- _] & Hf). cbn [num_or] in Hf. unfold imp_new in Hf.
  apply (wiring_mk P (fun o => Simple (NImp (Imp 0 (imp_period P (e_sr ev) v) (e_sr ev) o)))) in Hf as [o ->];
    [by exists o|wiring_step|done].
Qed.

Lemma imp_scan c0 per sr o n : per ≠ 0%Z ->
  scanR (fun s (_ : unit) => imp_step s) (Imp c0 per sr o) (replicate n tt)
  = Ok (Imp (c0 + Z.of_nat n) per sr o, map (fun t => if ((c0 + Z.of_nat t) mod per =? 0)%Z then f1 else f0) (seq 0 n)).
Proof.
  intros Hp. revert c0. induction n as [|n IH]; intros c0; cbn [replicate scanR]; [simpl; by rewrite Z.add_0_r|].
  unfold imp_step at 1. cbn [im_clock im_period im_sr im_ord]. unfold umod.
  destruct (Z.eqb_spec per 0); [done|]. cbn [mbind res_bind mret res_ret]. rewrite IH.
  replace (c0 + 1 + Z.of_nat n)%Z with (c0 + Z.of_nat (S n))%Z by lia. do 2 f_equal.
  cbn [seq map]. change (Z.of_nat 0) with 0%Z. rewrite Z.add_0_r. f_equal. rewrite <- seq_shift, map_map.
  apply map_ext. intros t. by replace (c0 + 1 + Z.of_nat t)%Z with (c0 + Z.of_nat (S t))%Z by lia.
Qed.

(** C25: whatever is connected to it, over any number of blocks and for any block size, an
    [imp] is 1.0 exactly at the multiples of its period floor(sr/freq), computed in f32. *)
Theorem C25_imp_periodic (P : platform) ev v ms nd out (inss : list inmap) :
  let period := as_usize (p_cfg P) (fdiv (f_of_Z (e_sr ev)) v) in
  Forall conn_msg ms -> created P ev (CImp (Num v)) ms nd out -> (0 < period)%Z ->
  exists nd' outs, play P nd out inss = Ok (nd', outs) /\
    length (lane 0 outs) = length inss * p_blk P /\
    forall t, t < length (lane 0 outs) ->
      lane 0 outs !! t = Some (if (Z.of_nat t mod period =? 0)%Z then f1 else f0).
Proof.
  intros period Hms Hc Hp. destruct (imp_created P ev v ms nd out Hms Hc) as (o & -> & ->).
  fold period. change (imp_period P (e_sr ev) v) with period.
  pose proof (play_scan P (fun s => Simple (NImp s)) (fun s (_ : unit) => imp_step s) (fun _ => True) [(0, id)] 1
     (map (fun i => (i, replicate (p_blk P) tt)) inss) (Imp 0 period (e_sr ev) o) [silent P]) as H.
  rewrite !map_map in H. cbn [fst snd] in H. rewrite concat_const, concat_replicate in H.
  rewrite imp_scan in H by lia.
  destruct H as (outs & Hpl & _ & _ & Hl); [done|done| |done|].
  { apply Forall_forall. intros b (i & -> & _)%elem_of_list_fmap s o1 _ (x & ->)%length1. cbn [fst snd].
    cbn [gproc sproc]. unfold imp_proc. destruct (scanR _ s _) as [[s' ys]|]; [|done]. simpl.
    exists [ys]. split; [done|]. split; [done|].
    intros ch g [[= -> ->]|[]%elem_of_nil]%elem_of_cons. by rewrite list_fmap_id. }
  rewrite map_id in Hpl. do 2 eexists. split; [exact Hpl|]. rewrite (Hl 0 id) by set_solver.
  rewrite list_fmap_id, map_length, seq_length. split; [done|]. intros t Ht.
  rewrite list_lookup_fmap. rewrite lookup_seq_lt by lia. done.
Qed.

(** C26 is false: any frequency above the sample rate (e.g. 50 kHz), and any negative one,
    makes the very first block panic, on every platform. *)
Theorem C26_imp_any_frequency_refuted : exists v1 v2, fltb f0 v1 = true /\ fltb v2 f0 = true /\
  forall v, v = v1 \/ v = v2 -> forall (P : platform) ev ms nd out ins,
    e_sr ev = 44100%Z -> 0 < p_blk P -> Forall conn_msg ms ->
    created P ev (CImp (Num v)) ms nd out -> play P nd out [ins] = Panic.
Proof.
  exists (f_of_Z 50000), (f_of_Z (-100)). split; [by vm_compute|]. split; [by vm_compute|].
  intros v Hv P ev ms nd out ins Hsr Hb Hms Hc.
  destruct (imp_created P ev v ms nd out Hms Hc) as (o & -> & ->).
  assert (Hper : imp_period P (e_sr ev) v = 0%Z).
  { unfold imp_period. rewrite Hsr. destruct Hv as [-> | ->]; apply as_usize_le0; by vm_compute. }
  rewrite Hper. cbn [play gproc sproc]. unfold imp_proc. destruct (p_blk P) as [|n]; [lia|]. done.
Qed.

(** ** speed *)

(** C29: the value in the first sample of every block, zero elsewhere. *)
Theorem C29_speed_once_per_block (P : platform) ev v ms nd out ins o1 :
  Forall conn_msg ms -> created P ev (CSpeed v) ms nd out -> 0 < p_blk P -> length o1 = 1 ->
  out = [silent P] /\
  gproc P nd ins o1 = Ok (nd, [v :: replicate (p_blk P - 1) f0]).
Proof.
  intros Hms (n0 & refs & [= <- <- _] & Hf) Hb (x & ->)%length1. split; [done|].
  apply (wiring_mk P (fun o => Simple (NSpeed (Spd v o)))) in Hf as [o ->]; [|wiring_step|done].
  cbn [gproc sproc]. unfold spd_proc, silent. destruct (p_blk P) as [|n]; [lia|]. simpl. by rewrite Nat.sub_0_r.
Qed.

(** ** noise and choose *)

Lemma noise_scan P seed c o n :
  scan (fun s (_ : unit) => let '(s', v) := noise_next P s in (s', f_of_d v)) (Noise seed c o) (replicate n tt)
  = (Noise seed (c + Z.of_nat n) o, map (fun t => f_of_d (p_noise P seed (c + Z.of_nat t))) (seq 0 n)).
Proof.
  revert c. induction n as [|n IH]; intros c; cbn [replicate]; [simpl; by rewrite Z.add_0_r|].
  rewrite scan_cons. cbn [noise_next no_seed no_count no_ord fst snd]. rewrite IH. cbn [fst snd].
  replace (c + 1 + Z.of_nat n)%Z with (c + Z.of_nat (S n))%Z by lia. f_equal.
  cbn [seq map]. change (Z.of_nat 0) with 0%Z. rewrite Z.add_0_r. f_equal. rewrite <- seq_shift, map_map.
  apply map_ext. intros t. by replace (c + 1 + Z.of_nat t)%Z with (c + Z.of_nat (S t))%Z by lia.
Qed.

(** C46: the t-th sample of a noise node is a function of its seed and of t alone: not of
    its inputs, the block size, or anything else in the engine. *)
Theorem C46_noise_deterministic (P : platform) ev seed ms nd out (inss : list inmap) :
  Forall conn_msg ms -> created P ev (CNoise seed) ms nd out ->
  exists nd' outs, play P nd out inss = Ok (nd', outs) /\
    lane 0 outs = map (fun t => f_of_d (p_noise P seed (Z.of_nat t))) (seq 0 (length inss * p_blk P)).
Proof.
  intros Hms (n0 & refs & [= <- <- _] & Hf).
  apply (wiring_mk P (fun o => Simple (NNoise (Noise seed 0 o)))) in Hf as [o ->]; [|wiring_step|done].
  destruct (play_scan_pure P (fun s => Simple (NNoise s))
     (fun s (_ : unit) => let '(s', v) := noise_next P s in (s', f_of_d v)) [(0, id)] 1
     (map (fun i => (i, replicate (p_blk P) tt)) inss) (Noise seed 0 o) [silent P]) as (outs & Hpl & _ & _ & Hl).
  - intros b s o1 (i & -> & _)%elem_of_list_fmap (x & ->)%length1. cbn [fst snd gproc sproc]. unfold noise_proc. rewrite scan_cons.
    destruct (scan _ s (replicate _ _)) as [s' ys]. simpl. exists [ys]. split; [done|]. split; [done|].
    intros ch g [[= -> ->]|[]%elem_of_nil]%elem_of_cons. by rewrite list_fmap_id.
  - done.
  - rewrite !map_map in *. cbn [fst snd] in *. rewrite concat_const, concat_replicate, noise_scan in *.
    rewrite map_id in Hpl. do 2 eexists. split; [exact Hpl|]. rewrite (Hl 0 id) by set_solver. by rewrite list_fmap_id.
Qed.

(** ** choose *)

Lemma choose_created (P : platform) ev l ms nd out : Forall conn_msg ms ->
  created P ev (CChoose l) ms nd out ->
  exists o, nd = Simple (NChoose (Choose (Noise (e_seed ev) 0 o) l)) /\ out = [silent P; silent P].
Proof.
  intros Hms (n0 & refs & [= <- <- _] & Hf).
  apply (wiring_mk P (fun o => Simple (NChoose (Choose (Noise (e_seed ev) 0 o) l)))) in Hf as [o ->];
    [by exists o|wiring_step|done].
Qed.
Lemma mapR_const {A} (r : res A) n b : mapR (fun _ : unit => r) (replicate n tt) = Ok b ->
  n = 0 /\ b = [] \/ exists a, r = Ok a /\ b = replicate n a.
Proof.
  destruct r as [a|]; intros H.
  - right. exists a. split; [done|]. revert b H. induction n as [|n IH]; intros b; simpl; [by intros [= <-]|].
    destruct (mapR _ (replicate n tt)) as [b'|]; [|done]. intros [= <-]. by rewrite <- (IH b').
  - destruct n as [|n]; [|done]. injection H as <-. by left.
Qed.

(** C30, the part that holds: every sample a [choose] plays is an element of its list,
    the same one for the whole block, and the right channel stays silent. *)
Theorem C30_choose_partial (P : platform) ev l ms nd out (inss : list inmap) nd' outs :
  Forall conn_msg ms -> created P ev (CChoose l) ms nd out ->
  play P nd out inss = Ok (nd', outs) ->
  Forall (fun o => exists v, (p_blk P = 0 \/ v ∈ l) /\ o = [replicate (p_blk P) v; silent P]) outs.
Proof.
  intros Hms Hc. destruct (choose_created P ev l ms nd out Hms Hc) as (o & -> & ->). clear Hc Hms.
  generalize (Noise (e_seed ev) 0 o) as ns, (silent P) at 1 as b0. intros ns b0. revert ns b0 nd' outs.
  induction inss as [|i inss IH]; intros ns b0 nd' outs; [intros [= <- <-]; constructor|].
  cbn [play gproc sproc]. unfold choose_proc. cbn [ch_noise ch_list noise_next].
  destruct (mapR _ (replicate _ tt)) as [b|] eqn:E; [|done]. cbn [mbind res_bind put0 mret res_ret wrap].
  destruct (play P _ _ inss) as [[n2 os]|] eqn:E2; [|done]. intros [= <- <-].
  constructor; [|by eapply IH]. apply mapR_const in E as [[Hb ->]|(a & Ha & ->)].
  { exists f0. rewrite Hb. split; [by left|done]. }
  exists a. split; [|done]. right. unfold at_ in Ha.
  destruct (_ <? 0)%Z; [done|]. destruct (l !! _) as [a'|] eqn:El; [|done]. injection Ha as ->.
  by eapply elem_of_list_lookup_2.
Qed.

(** The whole of C30 is false: without any trigger (here: no input at all for two blocks) a
    [choose] still plays its note, as it is in the list, in every sample. *)
Theorem C30_choose_refuted : exists l nd out nd' outs,
  created demo demo_env (CChoose l) [] nd out /\ play demo nd out [[]; []] = Ok (nd', outs) /\
  l = [f_of_Z 60] /\ lane 0 outs = replicate 16 (f_of_Z 60).
Proof.
  destruct (demo_run_created demo demo_env (CChoose [f_of_Z 60]) [] [[]; []]
    [[replicate 8 (f_of_Z 60); silent demo]; [replicate 8 (f_of_Z 60); silent demo]]
    ltac:(vm_compute; reflexivity)) as (nd & out & nd' & Hc & Hp).
  exists [f_of_Z 60], nd, out, nd'. eexists. split_and!; [exact Hc|exact Hp|done|by vm_compute].
Qed.

(** ** mul and add *)

(** The component [c] combines its input with parameter [p] by [op]. *)
Definition arith (c : component) (p : numref) (op : f32 -> f32 -> f32) : Prop :=
  (c = CMul p /\ op = fmul) \/ (c = CAdd p /\ op = fadd).

Lemma op_created (P : platform) ev c p op ms o nd out : arith c p op -> announced ms o ->
  created P ev c ms nd out ->
  out = [silent P; silent P] /\
  forall ins o1, gproc P nd ins o1 =
    match apply_op op (Opn (num_or f0 p) o) ins o1 with Ok o2 => Ok (nd, o2) | Panic => Panic end.
Proof.
  intros Ha Hms (n0 & refs & Hmk & Hf).
  destruct Ha as [[-> ->]|[-> ->]]; injection Hmk as <- <- _.
  - rewrite (announced_ord P (fun o => Simple (NMul (Opn (num_or f0 p) o))) ms o) in Hf; [|intros o1 [] ?; try done|done].
    + injection Hf as <-. split; [done|]. intros ins o1. cbn [gproc sproc]. unfold op_proc. by destruct (apply_op _ _ _ _).
    + simpl. by destruct (vec_insert _ _ _).
  - rewrite (announced_ord P (fun o => Simple (NAdd (Opn (num_or f0 p) o))) ms o) in Hf; [|intros o1 [] ?; try done|done].
    + injection Hf as <-. split; [done|]. intros ins o1. cbn [gproc sproc]. unfold op_proc. by destruct (apply_op _ _ _ _).
    + simpl. by destruct (vec_insert _ _ _).
Qed.

(** C33 with a number: every sample of each channel is combined with the number; a mono
    input is written to both channels. *)
Theorem C33_number (P : platform) ev c v op ms nd out src bufs l o1 :
  arith c (Num v) op -> (exists o, announced ms o) -> created P ev c ms nd out ->
  bufs !! 0 = Some l -> length o1 = 2 ->
  exists L R, gproc P nd [(src, bufs)] o1 = Ok (nd, [L; R]) /\
    length L = length l /\ (forall t x, l !! t = Some x -> L !! t = Some (op x v)) /\
    (bufs = [l] -> R = L) /\
    (forall r, bufs !! 1 = Some r -> length R = length r /\ forall t x, r !! t = Some x -> R !! t = Some (op x v)).
Proof.
  intros Ha (o & Hms) Hc Hl (x0 & x1 & ->)%length2. destruct (op_created P ev c (Num v) op ms o nd out Ha Hms Hc) as [_ Hp].
  rewrite Hp. cbn [apply_op snd num_or op_val]. unfold chan. rewrite Hl. cbn [unwrap mbind res_bind mret res_ret].
  eexists _, _. split; [done|]. rewrite fmap_length. split; [done|]. split.
  { intros t x Ht. by rewrite list_lookup_fmap, Ht. }
  split; [by intros ->|]. intros r ->. cbn [from_option]. unfold id. rewrite fmap_length. split; [done|].
  intros t x Ht. by rewrite list_lookup_fmap, Ht.
Qed.

Lemma in_id_perm src r (mb rb : list sig) ins : src ≠ r -> ins ≡ₚ [(src, mb); (r, rb)] ->
  in_id ins src = Ok mb /\ in_id ins r = Ok rb /\ exists a b, ins = [a; b].
Proof.
  intros Hne Hp. apply Permutation_sym in Hp.
  destruct (Permutation_length_2_inv Hp) as [-> | ->]; simpl.
  - rewrite Nat.eqb_refl. destruct (Nat.eqb_spec src r); [done|]. rewrite Nat.eqb_refl. eauto.
  - rewrite Nat.eqb_refl. destruct (Nat.eqb_spec r src) as [->|]; [done|]. rewrite Nat.eqb_refl. eauto.
Qed.

(** C33 with a reference: sample t of the chain's signal is combined with sample t of the
    modulator, whatever the hash order of the two inputs; a mono side counts for both
    channels. *)
Theorem C33_reference (P : platform) ev c s op ms nd out src r mb rb l q ins o1 :
  arith c (NRef s) op -> announced ms [src; r] -> created P ev c ms nd out ->
  src ≠ r -> ins ≡ₚ [(src, mb); (r, rb)] -> mb !! 0 = Some l -> rb !! 0 = Some q -> length o1 = 2 ->
  exists L R, gproc P nd ins o1 = Ok (nd, [L; R]) /\
    (forall t x y, l !! t = Some x -> q !! t = Some y -> L !! t = Some (op x y)) /\
    (forall t x y, default l (mb !! 1) !! t = Some x -> default q (rb !! 1) !! t = Some y -> R !! t = Some (op x y)).
Proof.
  intros Ha Hms Hc Hne Hp Hl Hq (x0 & x1 & ->)%length2.
  destruct (op_created P ev c (NRef s) op ms _ nd out Ha Hms Hc) as [_ Hpr].
  destruct (in_id_perm _ _ _ _ _ Hne Hp) as (H1 & H2 & a & b & ->).
  rewrite Hpr. cbn [apply_op num_or op_val]. unfold in_ord, chan. cbn [lookup list_lookup op_ord].
  rewrite H1, H2. cbn [mbind res_bind]. rewrite Hl, Hq. cbn [unwrap mbind res_bind mret res_ret].
  eexists _, _. split; [done|]. unfold zip_op.
  split; intros t x y Hx Hy; rewrite lookup_zip_with, Hx; simpl; by rewrite Hy.
Qed.

(** ** The mixer at the output *)

(** What input [p] contributes to sample [t] of channel [c]: its channel [c], or its first
    channel when it has only one. *)
Definition contrib (c t : nat) (p : nat * list sig) : f32 :=
  default f0 (default (default [] (p.2 !! 0)) (p.2 !! c) !! t).
Definition full_blocks (P : platform) (ins : inmap) : Prop :=
  Forall (fun p => p.2 ≠ [] /\ Forall (fun b => length b = p_blk P) p.2) ins.

Lemma sum2_chan_spec (P : platform) c ins : full_blocks P ins ->
  exists b, sum2_chan P ins c = Ok b /\ length b = p_blk P /\
    forall t, t < p_blk P -> b !! t = Some (foldl fadd f0 (map (contrib c t) ins)).
Proof.
  unfold sum2_chan. intros H.
  assert (Hg : forall acc, length acc = p_blk P -> exists b,
     foldM (fun acc p => match p.2 !! c with
                      | Some b => Ok (add_sig acc b)
                      | None => b0 ← chan p.2 0; mret (add_sig acc b0)
                      end) acc ins = Ok b /\ length b = p_blk P /\
     forall t x, acc !! t = Some x -> b !! t = Some (foldl fadd x (map (contrib c t) ins))).
  { induction H as [|p ins [Hne Hp] Hins IH]; intros acc Hacc; simpl; [by exists acc|].
    destruct p as [i bs]. cbn [snd] in *. destruct bs as [|b0 bs]; [done|].
    assert (exists b, (match (b0 :: bs) !! c with
                      | Some b => Ok (add_sig acc b)
                      | None => b0 ← chan (b0 :: bs) 0; mret (add_sig acc b0)
                      end) = Ok (add_sig acc b) /\ length b = p_blk P /\
                     forall t, contrib c t (i, b0 :: bs) = default f0 (b !! t)) as (b & -> & Hb & Hc).
    { unfold contrib. cbn [snd]. destruct ((b0 :: bs) !! c) as [b|] eqn:E.
      - exists b. split; [done|]. split; [|done]. by eapply (Forall_lookup_1 _ _ c b Hp).
      - exists b0. split; [done|]. split; [by inversion Hp|done]. }
    destruct (IH (add_sig acc b)) as (b' & H1 & H2 & H3).
    { unfold add_sig. rewrite zip_with_length. lia. }
    exists b'. split; [exact H1|]. split; [done|]. intros t x Ht.
    destruct (lookup_lt_is_Some_2 b t) as [y Hy]; [apply lookup_lt_Some in Ht; lia|].
    rewrite (H3 t (fadd x y)); [by rewrite Hc, Hy|]. unfold add_sig. rewrite lookup_zip_with, Ht. simpl. by rewrite Hy. }
  destruct (Hg (silent P)) as (b & H1 & H2 & H3); [apply replicate_length|].
  exists b. split; [exact H1|]. split; [done|]. intros t Ht. apply H3. by apply lookup_replicate_2.
Qed.

(** C21: each channel is the sum of what all audible chains contribute, sample by sample,
    and silence when there is none. *)
Theorem C21_output_mix (P : platform) ins out : full_blocks P ins -> length out = 2 ->
  exists L R, gproc P (Simple NSum2) ins out = Ok (Simple NSum2, [L; R]) /\
    length L = p_blk P /\ length R = p_blk P /\
    (forall t, t < p_blk P -> L !! t = Some (foldl fadd f0 (map (contrib 0 t) ins)) /\
                            R !! t = Some (foldl fadd f0 (map (contrib 1 t) ins))) /\
    (ins = [] -> L = silent P /\ R = silent P).
Proof.
  intros Hf (x0 & x1 & ->)%length2. cbn [gproc sproc]. unfold sum2_proc. cbn [length seq mapR].
  destruct (sum2_chan_spec P 0 ins Hf) as (L & HL & HLl & HLt).
  destruct (sum2_chan_spec P 1 ins Hf) as (R & HR & HRl & HRt).
  rewrite HL, HR. exists L, R. split_and!; try done; auto.
  intros ->. injection HL as <-. injection HR as <-. done.
Qed.

Lemma fadd_comm x y : fadd x y = fadd y x.
Proof.
  unfold fadd. destruct x as [sx|sx| |sx mx ex], y as [sy|sy| |sy my ey]; try reflexivity.
  - by destruct sx, sy.
  - by destruct sx, sy.
  - unfold SFadd. cbv zeta. rewrite (Z.min_comm ey ex), (Z.add_comm (SpecFloat.cond_Zopp sy _)). reflexivity.
Qed.
Lemma fadd_0_l x : fadd f0 x = match x with S754_zero _ => f0 | _ => x end.
Proof. destruct x as [sx|sx| |sx mx ex]; [by destruct sx|done|done|reflexivity]. Qed.
Lemma fadd_zero_r s x : (forall b, x ≠ S754_zero b) -> fadd x (S754_zero s) = x.
Proof. intros H. destruct x as [sx|sx| |sx mx ex]; [by destruct (H sx)|reflexivity|reflexivity|reflexivity]. Qed.
Lemma mix2_comm a b : fadd (fadd f0 a) b = fadd (fadd f0 b) a.
Proof.
  rewrite !fadd_0_l. destruct a as [sx|sx| |sx mx ex], b as [sy|sy| |sy my ey];
    rewrite ?fadd_0_l, ?fadd_zero_r by discriminate; try reflexivity; apply fadd_comm.
Qed.

(** Two chains can be mixed in any order (hash order of the inputs): same bits. *)
Theorem C21_two_chains_any_order (P : platform) p q out : full_blocks P [p; q] -> length out = 2 ->
  gproc P (Simple NSum2) [p; q] out = gproc P (Simple NSum2) [q; p] out.
Proof.
  intros Hf Hl. assert (Hf' : full_blocks P [q; p]).
  { unfold full_blocks in *. rewrite !Forall_cons in *. tauto. }
  destruct (C21_output_mix P [p; q] out Hf Hl) as (L & R & -> & HL & HR & Ht & _).
  destruct (C21_output_mix P [q; p] out Hf' Hl) as (L' & R' & -> & HL' & HR' & Ht' & _).
  assert (L = L' /\ R = R') as [-> ->]; [|done].
  split; apply list_eq; intros t; destruct (decide (t < p_blk P)) as [Hlt|Hge];
    try (rewrite !lookup_ge_None_2 by lia; done);
    destruct (Ht t Hlt) as [E1 E2], (Ht' t Hlt) as [E3 E4].
  - rewrite E1, E3. f_equal. simpl. apply mix2_comm.
  - rewrite E2, E4. f_equal. simpl. apply mix2_comm.
Qed.

(** Three or more cannot: 2^25 + 1 - 2^25 is 0 or 1. *)
Theorem C21_three_chains_order_refuted : exists p q r : nat * list sig, exists out,
  full_blocks demo [p; q; r] /\
  gproc demo (Simple NSum2) [p; q; r] out ≠ gproc demo (Simple NSum2) [p; r; q] out.
Proof.
  exists (3, [replicate 8 (f_of_Z 33554432)]), (4, [replicate 8 f1]), (5, [replicate 8 (f_of_Z (-33554432))]), [[]; []].
  split.
  { repeat (apply Forall_cons; split; [split; [done|repeat constructor]|]). constructor. }
  intros H. apply (f_equal (fun r => match r with Ok (_, o) => (default [] (o !! 0)) !! 0 | Panic => None end)) in H.
  vm_compute in H. discriminate H.
Qed.

(** ** Channels *)

Lemma put0_inv out b out' : put0 out b = Ok out' -> length out' = length out /\ tail out' = tail out.
Proof. destruct out; [done|]. by intros [= <-]. Qed.
Lemma put01_inv out l r out' : put01 out l r = Ok out' -> length out' = length out.
Proof. destruct out as [|? [|? ?]]; try done. by intros [= <-]. Qed.
Lemma pass_out_length ins out : length (pass_out ins out) = length out.
Proof.
  destruct ins as [|[i bs] ins]; [done|]. unfold pass_out. cbn [snd].
  assert (Hz : length (zip_with (fun (b : sig) (_ : sig) => b) bs out ++ drop (length bs) out) = length out).
  { rewrite app_length, zip_with_length, drop_length. lia. }
  destruct bs as [|b [|]]; [exact Hz| |exact Hz].
  destruct out as [|x [|y [|]]]; exact Hz || reflexivity.
Qed.
Lemma mapR_length {A B} (f : A -> res B) l l' : mapR f l = Ok l' -> length l' = length l.
Proof. intros H%mapR_Ok. symmetry. by eapply Forall2_length. Qed.
Lemma chans_length f rs out ins r : chans f rs out ins = Ok r -> length r.2 = length out.
Proof.
  revert rs ins r. induction out as [|o out IH]; intros rs ins r.
  - destruct rs, ins; simpl; intros [= <-]; done.
  - destruct rs as [|r0 rs]; [simpl; by intros [= <-]|]. destruct ins as [|b ins]; [simpl; by intros [= <-]|].
    simpl. destruct (f r0 b); [|done]. simpl. destruct (chans f rs out ins) eqn:E; [|done]. simpl.
    intros [= <-]. simpl. f_equal. by eapply IH.
Qed.

Ltac res_inv H := repeat
  lazymatch type of H with
  | mbind _ ?e = Ok _ => let E := fresh "E" in destruct e eqn:E; [cbn [mbind res_bind mret res_ret] in H|discriminate H]
  | (if ?b then _ else _) = Ok _ => let E := fresh "E" in destruct b eqn:E
  | (let '(_, _) := ?e in _) = Ok _ => let E := fresh "E" in destruct e eqn:E
  | (match ?e with Ok _ => _ | Panic => _ end) = Ok _ => let E := fresh "E" in destruct e as [[? ?]|] eqn:E; [|discriminate H]
  | (match ?e with [] => _ | _ :: _ => _ end) = Ok _ => destruct e
  | (match ?e with Some _ => _ | None => _ end) = Ok _ => destruct e
  | Ok (_, _) = Ok _ => injection H as <- <-
  | mret (_, _) = Ok _ => injection H as <- <-
  | Ok _ = Ok _ => injection H as <-
  | mret _ = Ok _ => injection H as <-
  | Panic = Ok _ => discriminate H
  end.

(** A node never changes how many output channels it has. *)
Lemma wrap_inv {S N} (c : S -> N) r n o : wrap c r = Ok (n, o) -> exists s, r = Ok (s, o) /\ n = c s.
Proof. destruct r as [[s o']|]; [|done]. intros [= <- <-]. by exists s. Qed.
Lemma op_length op st ins out st' out' : op_proc op st ins out = Ok (st', out') -> length out' = length out.
Proof.
  unfold op_proc, apply_op. intros H. destruct out as [|o out]; [done|]. res_inv H.
  res_inv E; auto; by destruct out.
Qed.
Lemma sproc_length (P : platform) (n : snode P) ins out n' out' :
  sproc P n ins out = Ok (n', out') -> length out' = length out.
Proof.
  destruct n; cbn [sproc]; try (intros (s' & H & _)%wrap_inv).
  - intros [= <- <-]. apply pass_out_length.
  - intros [= <- <-]. unfold sum_proc. apply imap_length.
  - destruct (sum2_proc P ins out) as [o|] eqn:E; [|done]. intros [= <- <-].
    apply mapR_length in E. by rewrite seq_length in E.
  - by eapply op_length.
  - by eapply op_length.
  - unfold osc_proc, osc_put in H. destruct w; res_inv H; auto;
      first [apply fmap_length | by eapply put0_inv
            | match goal with E : Ok (_ <$> _) = Ok _ |- _ => injection E as <-; apply fmap_length end].
  - unfold csig_proc in H. res_inv H. by eapply put0_inv.
  - unfold imp_proc in H. res_inv H. by eapply put0_inv.
  - unfold noise_proc in H. apply (f_equal (fun r => match r with Ok p => length p.2 | Panic => 0 end)) in H.
    cbn [snd] in H. by rewrite scan_length in H.
  - unfold balance_proc in H. res_inv H; auto. by eapply put01_inv.
  - unfold pan_proc in H. res_inv H; by eapply put01_inv.
  - unfold spd_proc in H. res_inv H. by eapply put0_inv.
  - unfold eval_proc in H. res_inv H; by eapply put0_inv.
  - unfold meta_proc in H. res_inv H; auto; by eapply put0_inv.
  - unfold seq_proc in H. res_inv H; by eapply put0_inv.
  - unfold choose_proc in H. res_inv H; by eapply put0_inv.
  - unfold arrange_proc in H. res_inv H; by eapply put0_inv.
  - unfold points_proc in H. res_inv H; auto; by eapply put0_inv.
  - unfold psynth_proc in H. res_inv H; auto; by eapply put0_inv.
  - unfold msynth_proc in H. res_inv H; auto; by eapply put0_inv.
  - unfold sampler_proc in H. res_inv H; auto; by eapply put01_inv.
  - unfold psampler_proc in H. res_inv H; auto; by eapply put01_inv.
  - destruct ins as [|p [|]]; [by injection H as <- <-| |by injection H as <- <-].
    unfold delayn_proc in H. destruct (dn_n s =? 0)%Z.
    { assert (out' = pass_out [p] out) as -> by congruence. apply pass_out_length. }
    res_inv H. match goal with E : put0 _ _ = Ok ?a |- _ => destruct (put0_inv _ _ _ E) as [Hl _]; destruct a as [|x [|y [|]]] end;
      destruct (p.2) as [|b [|]]; auto.
  - unfold delayms_proc in H. res_inv H; auto; try (by eapply put0_inv); by eapply chans_length.
  - unfold envperc_proc in H. res_inv H; auto; by eapply put0_inv.
  - unfold adsr_proc in H. res_inv H; auto.
    match goal with E : put0 _ _ = Ok ?a |- _ => destruct (put0_inv _ _ _ E) as [Hl _]; destruct a as [|x [|y [|]]]; auto end.
  - unfold apf_proc in H. res_inv H; auto; by eapply put0_inv.
  - unfold onepole_proc in H. res_inv H; auto; by eapply put0_inv.
  - unfold rlpf_proc, bq_proc_mod in H. res_inv H; auto; by eapply put0_inv.
  - unfold rhpf_proc, bq_proc_mod in H. res_inv H; auto; by eapply put0_inv.
Qed.
Lemma gproc_length (P : platform) (n : gnode P) ins out n' out' :
  gproc P n ins out = Ok (n', out') -> length out' = length out.
Proof.
  destruct n as [n|c]; cbn [gproc]; intros (s' & H & _)%wrap_inv; [by eapply sproc_length|].
  unfold compound_proc in H.
  assert (Hr : forall s', run_inner P c ins out = Ok (s', out') -> length out' = length out).
  { clear. intros s' H. unfold run_inner in H. res_inv H. by eapply put01_inv. }
  destruct (cp_kind P c); [| |by eapply Hr].
  - destruct ins as [|a [|]]; [by injection H as <- <-|by eapply Hr|by injection H as <- <-].
  - destruct ins as [|a [|]]; [by injection H as <- <-|by eapply Hr|by injection H as <- <-].
Qed.

(** C44, the part that holds: a node with one channel keeps one channel, and the mixer
    gives both outputs the same contribution from it. *)
Theorem C44_one_channel_partial (P : platform) ev c ms nd out inss nd' outs :
  created P ev c ms nd out -> length out = 1 -> play P nd out inss = Ok (nd', outs) ->
  Forall (fun o => length o = 1 /\ forall i t, contrib 0 t (i, o) = contrib 1 t (i, o)) outs.
Proof.
  intros _. revert nd out outs. induction inss as [|i inss IH]; intros nd out outs Hl; [intros [= <- <-]; constructor|].
  cbn [play]. destruct (gproc P nd i out) as [[n1 o1]|] eqn:E; [|done].
  destruct (play P n1 o1 inss) as [[n2 os]|] eqn:E2; [|done]. intros [= <- <-].
  apply gproc_length in E. constructor; [|eapply IH; [|exact E2]; lia].
  split; [lia|]. intros j t. destruct (length1 o1 ltac:(lia)) as [b ->]. done.
Qed.

(** The components whose node has two channels of which it writes only the left one. *)
Definition left_only (c : component) : bool :=
  match c with CSeq _ | CChoose _ | CArrange _ | CEnvPerc _ _ | CApfmsGain _ _ => true | _ => false end.
Definition left_node {P} (n : gnode P) : bool :=
  match n with Simple (NSeq _ | NChoose _ | NArrange _ | NEnvPerc _ | NApf _) => true | _ => false end.
Lemma left_msg (P : platform) (n : gnode P) m n' : gmsg P n m = Ok n' -> left_node n = true -> left_node n' = true.
Proof.
  destruct n as [n|]; [|done]. destruct n; try done; cbn [gmsg smsg].
  - destruct (seq_msg s m); [|done]. by intros [= <-].
  - destruct (choose_msg s m); [|done]. by intros [= <-].
  - destruct (arrange_msg s m); [|done]. by intros [= <-].
  - destruct (envperc_msg s m); [|done]. by intros [= <-].
  - destruct (apf_msg P s m); [|done]. by intros [= <-].
Qed.
Lemma left_created (P : platform) ev c ms nd out : created P ev c ms nd out -> left_only c = true ->
  left_node nd = true /\ out = [silent P; silent P].
Proof.
  intros (n0 & refs & Hmk & Hf) Hl.
  assert (left_node n0 = true /\ out = [silent P; silent P]) as [H0 ->].
  { destruct c; try done; cbn [makenode_] in Hmk; unfold boxed_res, boxed in Hmk.
    all: try (injection Hmk as <- <- _; done).
    destruct (mbind _ _) as [n|] eqn:E; [|done]. injection Hmk as <- <- _. res_inv E. done. }
  split; [|done]. clear Hmk. revert n0 H0 Hf. induction ms as [|m ms IH]; intros n0 H0; simpl; [by intros [= <-]|].
  destruct (gmsg P n0 m) as [n1|] eqn:E; [|done]. apply left_msg in E; [by apply IH|done].
Qed.
Lemma left_proc (P : platform) (n : gnode P) ins out n' out' : gproc P n ins out = Ok (n', out') ->
  left_node n = true -> left_node n' = true /\ tail out' = tail out.
Proof.
  destruct n as [n|]; [|done]. destruct n; try done; cbn [gproc sproc]; intros (s1 & (s2 & H & ->)%wrap_inv & ->)%wrap_inv _;
    (split; [done|]).
  - unfold seq_proc in H. res_inv H; by eapply put0_inv.
  - unfold choose_proc in H. res_inv H; by eapply put0_inv.
  - unfold arrange_proc in H. res_inv H; by eapply put0_inv.
  - unfold envperc_proc in H. res_inv H; auto; by eapply put0_inv.
  - unfold apf_proc in H. res_inv H; auto; by eapply put0_inv.
Qed.

(** For these the right channel stays silent, whatever they are fed, for ever... *)
Theorem C44_left_only_nodes (P : platform) ev c ms nd out inss nd' outs :
  left_only c = true -> created P ev c ms nd out -> play P nd out inss = Ok (nd', outs) ->
  Forall (fun o => o !! 1 = Some (silent P)) outs.
Proof.
  intros Hl Hc. destruct (left_created _ _ _ _ _ _ Hc Hl) as [Hn Ho].
  assert (Ht : tail out = [silent P]) by by rewrite Ho. clear Hc Ho Hl. revert nd out outs Hn Ht.
  induction inss as [|i inss IH]; intros nd out outs Hn Ht; [intros [= <- <-]; constructor|].
  cbn [play]. destruct (gproc P nd i out) as [[n1 o1]|] eqn:E; [|done].
  destruct (play P n1 o1 inss) as [[n2 os]|] eqn:E2; [|done]. intros [= <- <-].
  apply left_proc in E as [Hn1 Ht1]; [|done]. rewrite Ht in Ht1.
  constructor; [|by eapply IH]. destruct o1 as [|? [|? ?]]; try done. simpl in Ht1. injection Ht1 as -> _. done.
Qed.
(** ... so C44 is false: [seq 60] sounds on the left only. *)
Theorem C44_mono_on_both_channels_refuted : exists nd out nd' outs,
  created demo demo_env (CSeq [(f0, Usz 60)]) [] nd out /\ play demo nd out [[]] = Ok (nd', outs) /\
  lane 0 outs = fs [1; 0; 0; 0; 0; 0; 0; 0]%Z /\ lane 1 outs = fs [0; 0; 0; 0; 0; 0; 0; 0]%Z.
Proof.
  destruct (demo_run_created demo demo_env (CSeq [(f0, Usz 60)]) [] [[]]
    [[fs [1; 0; 0; 0; 0; 0; 0; 0]%Z; silent demo]] ltac:(vm_compute; reflexivity)) as (nd & out & nd' & Hc & Hp).
  exists nd, out, nd'. eexists. split_and!; [exact Hc|exact Hp|by vm_compute|by vm_compute].
Qed.

(** ** Examples *)

(** [imp 11025] at 44.1 kHz over two blocks. *)
Example ex_imp : exists nd out nd' outs,
  created demo demo_env (CImp (Num (f_of_Z 11025))) [ResetOrder] nd out /\ play demo nd out [[]; []] = Ok (nd', outs) /\
  lane 0 outs = fs [1; 0; 0; 0; 1; 0; 0; 0; 1; 0; 0; 0; 1; 0; 0; 0]%Z.
Proof.
  destruct (demo_run_created demo demo_env (CImp (Num (f_of_Z 11025))) [ResetOrder] [[]; []]
    [[fs [1; 0; 0; 0; 1; 0; 0; 0]%Z]; [fs [1; 0; 0; 0; 1; 0; 0; 0]%Z]] ltac:(vm_compute; reflexivity)) as (nd & out & nd' & Hc & Hp).
  exists nd, out, nd'. eexists. split_and!; [exact Hc|exact Hp|by vm_compute].
Qed.
Example ex_imp_crash : exists nd out,
  created demo demo_env (CImp (Num (f_of_Z 50000))) [] nd out /\ lanes_of (play demo nd out [[]]) = None.
Proof. apply demo_created. vm_compute. reflexivity. Qed.
Example ex_noise : exists nd out,
  created demo demo_env (CNoise 3) [] nd out /\
  (match play demo nd out [[]; []] with Ok (_, outs) => length (lane 0 outs) | Panic => 0 end) = 16.
Proof. apply demo_created. vm_compute. reflexivity. Qed.
Example ex_speed : exists nd out, created demo demo_env (CSpeed f2) [] nd out /\
  bufs_of (gproc demo nd [] out) = Some [fs [2; 0; 0; 0; 0; 0; 0; 0]%Z].
Proof. apply demo_created. vm_compute. reflexivity. Qed.
Example ex_mul_ref : announced [ResetOrder; Index 9; IndexOrder 0 4] [4; 9] /\ exists nd out,
  created demo demo_env (CMul (NRef "~a")) [ResetOrder; Index 9; IndexOrder 0 4] nd out /\
  bufs_of (gproc demo nd [(9, [fs [1; 2; 3]%Z]); (4, [fs [4; 5; 6]%Z; fs [7; 8; 9]%Z])] out)
    = Some [fs [4; 10; 18]%Z; fs [7; 16; 27]%Z].
Proof.
  split; [split; [by repeat constructor|done]|]. apply demo_created. vm_compute. reflexivity.
Qed.
Example ex_mix : full_blocks demo [(3, [replicate 8 f1; replicate 8 f2]); (5, [replicate 8 f2])] /\
  bufs_of (gproc demo (Simple NSum2) [(3, [replicate 8 f1; replicate 8 f2]); (5, [replicate 8 f2])] [[]; []])
    = Some [replicate 8 (f_of_Z 3); replicate 8 (f_of_Z 4)].
Proof.
  split; [|vm_compute; reflexivity]. repeat (apply Forall_cons; split; [split; [done|repeat constructor]|]). constructor.
Qed.

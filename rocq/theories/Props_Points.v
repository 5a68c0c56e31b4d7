(** * Props_Points: points (C34). *)
From Verif Require Export Props_Range.
From Coq Require Import Lia.
Local Open Scope nat_scope.

(** The breakpoints in samples: bars, plus a fraction of a bar, seconds or milliseconds; a
    silent one at 0 is put in front if there is none at 0. *)
Definition bar_samples (ev : env sampledata) (span : f32) : f32 :=
  fmul (fmul (fmul (fdiv (f_of_Z 60) (e_bpm ev)) (f_of_Z 4)) span) (f_of_Z (e_sr ev)).
Definition time_samples (P : platform) (ev : env sampledata) (span : f32) (t : timelist) : Z :=
  let bar := bar_samples ev span in
  let extra := match tl_time t with
               | None => f0
               | Some (DBar b) => fmul b bar
               | Some (DSec s) => fmul s (f_of_Z (e_sr ev))
               | Some (DMs ms) => fmul (fdiv ms (f_of_Z 1000)) (f_of_Z (e_sr ev))
               end in
  as_usize (p_cfg P) (fadd (fmul (tl_bar t) bar) extra).
Definition breakpoints (P : platform) (ev : env sampledata) (span : f32) (pts : list (timelist * f32)) : list (Z * f32) :=
  let l := map (fun p => (time_samples P ev span p.1, p.2)) pts in
  match l with (0%Z, _) :: _ => l | _ => (0%Z, f0) :: l end.
(** The line through two breakpoints. *)
Definition line (a b : Z * f32) (t : Z) : f32 :=
  fadd a.2 (fmul (fdiv (fsub (f_of_Z t) (f_of_Z a.1)) (fsub (f_of_Z b.1) (f_of_Z a.1))) (fsub b.2 a.2)).
Definition ascending (l : list (Z * f32)) : Prop :=
  forall i j a b, i < j -> l !! i = Some a -> l !! j = Some b -> (a.1 < b.1)%Z.

Lemma find_from_shift pos l k : find_from pos l (S k) = S <$> find_from pos l k.
Proof. revert k. induction l as [|[q v] l IH]; intros k; cbn; [done|]. destruct (pos <=? q)%Z; [done|]. apply IH. Qed.
Lemma find_from_at pos l k q : (forall j r, j < k -> l !! j = Some r -> (r.1 < pos)%Z) ->
  l !! k = Some q -> (pos <= q.1)%Z -> find_from pos l 0 = Some k.
Proof.
  revert k. induction l as [|[r v] l IH]; intros k Hlt Hk Hle; [done|]. cbn [find_from].
  destruct k as [|k].
  - assert (q = (r, v)) as -> by (cbn in Hk; congruence). cbn [fst] in *. by destruct (Z.leb_spec pos r); [|lia].
  - pose proof (Hlt 0 (r, v) ltac:(lia) eq_refl) as H0. cbn [fst] in H0. destruct (Z.leb_spec pos r); [lia|].
    rewrite find_from_shift. rewrite (IH k); [done| |done|done]. intros j x Hj Hx. apply (Hlt (S j) x); [lia|done].
Qed.
Lemma find_from_lt pos l k : find_from pos l 0 = Some k -> k < length l.
Proof.
  revert k. induction l as [|[r v] l IH]; intros k; cbn [find_from]; [done|].
  destruct (pos <=? r)%Z; [intros [= <-]; cbn; lia|]. rewrite find_from_shift.
  destruct (find_from pos l 0) as [j|] eqn:E; [|done]. intros [= <-]. specialize (IH j eq_refl). cbn. lia.
Qed.
Lemma at_lookup {A} (l : list A) k x : l !! k = Some x -> at_ l (Z.of_nat k) = Ok x.
Proof. intros H. unfold at_. destruct (Z.ltb_spec (Z.of_nat k) 0); [lia|]. by rewrite Nat2Z.id, H. Qed.

Lemma points_once_ok (P : platform) l t : debug (p_cfg P) = false -> l ≠ [] ->
  (Z.of_nat (length l) <= umax (p_cfg P) + 1)%Z -> exists v, points_once P l t = Ok v.
Proof.
  intros Hd Hl Hu. unfold points_once.
  assert (Hlast : exists a, last l = Some a).
  { destruct l as [|a l] using rev_ind; [done|]. rewrite last_snoc. by eexists. }
  destruct Hlast as [a Ha].
  assert (Hgo : forall index : Z, (0 <= index)%Z -> exists v, (if (index <? Z.of_nat (length l) - 1)%Z
    then a ← at_ l index; b ← at_ l (index + 1); mret (lerp t a b) else a ← unwrap (last l); mret a.2) = Ok v).
  { intros i Hi. destruct (Z.ltb_spec i (Z.of_nat (length l) - 1)).
    - destruct (lookup_lt_is_Some_2 l (Z.to_nat i) ltac:(lia)) as [x Hx].
      destruct (lookup_lt_is_Some_2 l (S (Z.to_nat i)) ltac:(lia)) as [y Hy].
      apply at_lookup in Hx, Hy. rewrite Z2Nat.id in Hx by done. replace (Z.of_nat (S (Z.to_nat i))) with (i + 1)%Z in Hy by lia.
      rewrite Hx, Hy. by eexists.
    - rewrite Ha. by eexists. }
  destruct (find_from t l 0) as [k|]; [|apply (Hgo 0%Z); lia].
  unfold usub. destruct (Z.leb_spec 1 (Z.of_nat k)); [apply Hgo; lia|]. rewrite Hd. apply Hgo. apply Z.mod_pos_bound.
  destruct l; [done|]. cbn in Hu. lia.
Qed.

Lemma points_created (P : platform) ev pts span loop ms nd out : Forall conn_msg ms ->
  created P ev (CPoints pts span loop) ms nd out ->
  pts ≠ [] /\ exists o, nd = Simple (NPoints (Points (breakpoints P ev span pts) span (e_bpm ev) (e_sr ev) 0 loop o)) /\ out = [silent P].
Proof.
  intros Hms (n0 & refs & Hm & Hf).
  assert (H : pts ≠ [] /\ n0 = Simple (NPoints (Points (breakpoints P ev span pts) span (e_bpm ev) (e_sr ev) 0 loop [])) /\ out = [silent P]).
  { cbv beta delta [makenode_ boxed_res] iota zeta in Hm. unfold make_points in Hm. destruct pts as [|p pts]; [done|]. split; [done|].
    unfold breakpoints. change (time_samples P ev span) with (point_pos P (e_bpm ev) span (e_sr ev)).
    cbn [map] in *. set (p0 := point_pos P (e_bpm ev) span (e_sr ev) p.1) in *.
    clearbody p0. cbn [mbind res_bind mret res_ret] in Hm. unfold boxed in Hm. destruct (Z.eqb_spec p0 0) as [E|E].
    - subst p0. split; [congruence|]. transitivity (chans_of P 1); [congruence|done].
    - assert (En : match p0 with 0%Z => (p0, p.2) :: map (fun q => (point_pos P (e_bpm ev) span (e_sr ev) q.1, q.2)) pts
        | _ => (0%Z, f0) :: (p0, p.2) :: map (fun q => (point_pos P (e_bpm ev) span (e_sr ev) q.1, q.2)) pts end =
        (0%Z, f0) :: (p0, p.2) :: map (fun q => (point_pos P (e_bpm ev) span (e_sr ev) q.1, q.2)) pts) by (by destruct p0).
      rewrite En. split; [congruence|]. transitivity (chans_of P 1); [congruence|done]. }
  destruct H as (H1 & -> & ->). split; [done|]. clear Hm.
  apply (wiring_mk P (fun o => Simple (NPoints (Points (breakpoints P ev span pts) span (e_bpm ev) (e_sr ev) 0 loop o)))) in Hf as [o ->];
    [by exists o| |done].
  generalize (breakpoints P ev span pts) as l. intros l. wiring_step.
Qed.

(** Playing a node whose every sample is a function of its step counter. *)
Lemma points_play (P : platform) l span bpm sr (loop : bool) o (val : nat -> f32) (ins : list inmap) :
  l ≠ [] ->
  (forall t, (if loop then points_looped l (as_usize (p_cfg P) (bar_dur bpm span sr)) (Z.of_nat t)
              else points_once P l (Z.of_nat t)) = Ok (val t)) ->
  exists nd' outs, play P (Simple (NPoints (Points l span bpm sr 0 loop o))) [silent P] ins = Ok (nd', outs) /\
    lane 0 outs = map val (seq 0 (length ins * p_blk P)).
Proof.
  intros Hl Hv. set (st := fun t : nat => Points l span bpm sr (Z.of_nat t) loop o).
  assert (Hscan : forall k, scanR (fun s (_ : unit) => points_step P s) (st k) (replicate (p_blk P) tt) =
    Ok (st (k + p_blk P), map val (seq k (p_blk P)))).
  { intros k. pose proof (scanR_index (fun s (_ : unit) => points_step P s) st val (replicate (p_blk P) tt) k) as H.
    rewrite replicate_length in H. apply H. intros i x _. unfold points_step, st. cbn [po_list po_span po_bpm po_sr po_step po_loop po_ord].
    rewrite Hv. cbn [mbind res_bind mret res_ret]. do 3 f_equal. lia. }
  destruct (play_blocks P (fun b => Simple (NPoints (st (b * p_blk P)))) (fun b => map val (seq (b * p_blk P) (p_blk P))) 1 ins 0
    [silent P]) as (outs & Hp & Hlane).
  - intros b i o1 _ (x & ->)%length1. cbn [Nat.add gproc sproc]. unfold points_proc.
    assert (E : po_list (st (b * p_blk P)) = l) by done. rewrite E.
    assert (Hcase : forall (A : Type) (x y : A), match l with [] => x | _ :: _ => y end = y) by (clear -Hl; intros; by destruct l).
    rewrite Hcase, Hscan. cbn [put0 mbind res_bind mret res_ret wrap]. exists [map val (seq (b * p_blk P) (p_blk P))]. split; [|done].
    by replace (b * p_blk P + p_blk P) with (S b * p_blk P) by lia.
  - done.
  - do 2 eexists. split; [exact Hp|]. rewrite Hlane. by rewrite concat_blocks.
Qed.

Lemma find_from_none pos l : (forall q, q ∈ l -> (q.1 < pos)%Z) -> find_from pos l 0 = None.
Proof.
  induction l as [|[r v] l IH]; intros H; [done|]. cbn [find_from]. pose proof (H (r, v) (elem_of_list_here _ _)) as H0. cbn [fst] in H0.
  destruct (Z.leb_spec pos r); [lia|]. rewrite find_from_shift, IH; [done|]. intros q Hq. apply H. by apply elem_of_list_further.
Qed.
Lemma breakpoints_0 (P : platform) ev span pts : exists v l, breakpoints P ev span pts = (0%Z, v) :: l.
Proof. unfold breakpoints. destruct (map _ pts) as [|[p v] l]; [by exists f0, []|]. destruct p; by eexists _, _. Qed.

(** C34, what holds: without looping, in a release build, from one breakpoint (exclusive) to the next
    (inclusive) the output is the line between them.  The other samples: the very first one is the last
    value, and after the last breakpoint the line through the first two is continued for ever. *)
Theorem C34_points_partial (P : platform) ev pts span ms nd out (ins : list inmap) :
  debug (p_cfg P) = false -> Forall conn_msg ms -> created P ev (CPoints pts span false) ms nd out ->
  let l := breakpoints P ev span pts in
  ascending l -> (Z.of_nat (length l) <= umax (p_cfg P) + 1)%Z ->
  exists nd' outs, play P nd out ins = Ok (nd', outs) /\ length (lane 0 outs) = length ins * p_blk P /\
    (forall i a b t, l !! i = Some a -> l !! S i = Some b -> (a.1 < Z.of_nat t <= b.1)%Z -> t < length ins * p_blk P ->
      lane 0 outs !! t = Some (line a b (Z.of_nat t))) /\
    (forall z, 0 < length ins * p_blk P -> last l = Some z -> lane 0 outs !! 0 = Some z.2) /\
    (forall t, t < length ins * p_blk P -> (forall q, q ∈ l -> (q.1 < Z.of_nat t)%Z) ->
      match l with
      | a :: b :: _ => lane 0 outs !! t = Some (line a b (Z.of_nat t))
      | [a] => lane 0 outs !! t = Some a.2
      | [] => False
      end).
Proof.
  intros Hd Hms Hc l Hasc Hu. destruct (points_created P ev pts span false ms nd out Hms Hc) as (Hne & o & -> & ->).
  fold l. assert (Hl : l ≠ []).
  { unfold l, breakpoints. destruct pts; [done|]. cbn [map]. by destruct (time_samples _ _ _ _). }
  set (val := fun t : nat => match points_once P l (Z.of_nat t) with Ok v => v | Panic => f0 end).
  destruct (points_play P l span (e_bpm ev) (e_sr ev) false o val ins Hl) as (nd' & outs & Hp & Hlane).
  { intros t. unfold val. by destruct (points_once_ok P l (Z.of_nat t) Hd Hl Hu) as [v ->]. }
  do 2 eexists. split; [exact Hp|]. rewrite Hlane. rewrite map_length, seq_length. split; [done|].
  assert (Hat : forall t, t < length ins * p_blk P -> map val (seq 0 (length ins * p_blk P)) !! t = Some (val t)).
  { intros t Ht. by rewrite list_lookup_fmap, lookup_seq_lt by done. }
  split; [|split].
  2: { intros z Hlt Hz. rewrite Hat by done. f_equal. unfold val, points_once.
       destruct (breakpoints_0 P ev span pts) as (v & l' & El). fold l in El. rewrite El in Hz, Hu |- *. cbn [find_from]. change (Z.of_nat 0 <=? 0)%Z with true. cbn [mbind res_bind].
       assert (E : usub (p_cfg P) (Z.of_nat 0) 1 = Ok (umax (p_cfg P))).
       { unfold usub. destruct (Z.leb_spec 1 (Z.of_nat 0)); [lia|]. rewrite Hd. f_equal. cbn [length] in Hu.
         symmetry. apply (Z.mod_unique _ _ (-1)); lia. }
       rewrite E. cbn [mbind res_bind]. destruct (Z.ltb_spec (umax (p_cfg P)) (Z.of_nat (length ((0%Z, v) :: l')) - 1)); [lia|].
       rewrite Hz. done. }
  2: { intros t Hlt Hq. rewrite Hat by done. unfold val, points_once. rewrite find_from_none by done. cbn [mbind res_bind].
       destruct l as [|a [|b l']]; [done| |]; cbn [length].
       - done.
       - destruct (Z.ltb_spec 0 (Z.of_nat (S (S (length l'))) - 1)); [|lia]. done. }
  intros i a b t Ha Hb Ht Hlt. rewrite list_lookup_fmap, lookup_seq_lt by done. cbn [fmap option_fmap option_map Nat.add]. f_equal.
  unfold val, points_once. rewrite (find_from_at (Z.of_nat t) l (S i) b); [|..|done|lia].
  - cbn [mbind res_bind]. unfold usub. destruct (Z.leb_spec 1 (Z.of_nat (S i))); [|lia]. cbn [mbind res_bind].
    replace (Z.of_nat (S i) - 1)%Z with (Z.of_nat i) by lia. pose proof (lookup_lt_Some _ _ _ Hb).
    destruct (Z.ltb_spec (Z.of_nat i) (Z.of_nat (length l) - 1)); [|lia].
    rewrite (at_lookup l i a Ha). cbn [mbind res_bind]. replace (Z.of_nat i + 1)%Z with (Z.of_nat (S i)) by lia.
    rewrite (at_lookup l (S i) b Hb). done.
  - intros j r Hj Hr. destruct (decide (j = i)) as [->|Hji]; [by assert (r = a) as -> by congruence; lia|].
    specialize (Hasc j i r a ltac:(lia) Hr Ha). lia.
Qed.

(** When looping, the line used between breakpoints [i] and [i+1] is the one leaving [i+1] (backwards
    in time), in every cycle; after the last breakpoint it is the line to the first one of the next
    cycle. *)
Theorem C34_points_looping_partial (P : platform) ev pts span ms nd out (ins : list inmap) :
  Forall conn_msg ms -> created P ev (CPoints pts span true) ms nd out ->
  let l := breakpoints P ev span pts in let bar := as_usize (p_cfg P) (bar_samples ev span) in
  ascending l -> (0 < bar)%Z ->
  exists nd' outs, play P nd out ins = Ok (nd', outs) /\ length (lane 0 outs) = length ins * p_blk P /\
    (forall i a t, t < length ins * p_blk P -> l !! i = Some a ->
      (Z.of_nat t mod bar <= a.1)%Z -> (forall j q, j < i -> l !! j = Some q -> (q.1 < Z.of_nat t mod bar)%Z) ->
      exists b, l !! (if decide (S i = length l) then 0 else S i) = Some b /\
        lane 0 outs !! t = Some (line a b (Z.of_nat t mod bar))) /\
    (forall t a b, t < length ins * p_blk P -> (forall q, q ∈ l -> (q.1 < Z.of_nat t mod bar)%Z) ->
      head l = Some a -> last l = Some b ->
      lane 0 outs !! t = Some (fadd b.2 (fmul (fdiv (fsub (f_of_Z (Z.of_nat t mod bar)) (f_of_Z b.1))
        (fadd (fsub (f_of_Z bar) (f_of_Z b.1)) (f_of_Z a.1))) (fsub a.2 b.2)))).
Proof.
  intros Hms Hc l bar Hasc Hbar. destruct (points_created P ev pts span true ms nd out Hms Hc) as (Hne & o & -> & ->).
  fold l. assert (Hl : l ≠ []).
  { unfold l, breakpoints. destruct pts; [done|]. cbn [map]. by destruct (time_samples _ _ _ _). }
  assert (Hlen : length l ≠ 0) by (by destruct l).
  change (bar_samples ev span) with (bar_dur (e_bpm ev) span (e_sr ev)) in bar.
  set (val := fun t : nat => match points_looped l bar (Z.of_nat t) with Ok v => v | Panic => f0 end).
  destruct (points_play P l span (e_bpm ev) (e_sr ev) true o val ins Hl) as (nd' & outs & Hp & Hlane).
  { intros t. fold bar. unfold val.
    assert (exists v, points_looped l bar (Z.of_nat t) = Ok v) as [v ->]; [|done].
    unfold points_looped, umod. destruct (Z.eqb_spec bar 0); [lia|]. cbn [mbind res_bind].
    destruct (find_from _ l 0) as [k|] eqn:Ef.
    - apply find_from_lt in Ef. destruct (lookup_lt_is_Some_2 l k Ef) as [a ->].
      destruct (lookup_lt_is_Some_2 l ((k + 1) mod length l)) as [b Hb]; [by apply Nat.mod_upper_bound|].
      unfold unwrap at 1. cbn [mbind res_bind]. rewrite Hb. by eexists.
    - assert (exists a, last l = Some a) as [a ->].
      { destruct l as [|a l0] using rev_ind; [done|]. rewrite last_snoc. by eexists. }
      destruct (lookup_lt_is_Some_2 l ((length l - 1 + 1) mod length l)) as [b Hb]; [by apply Nat.mod_upper_bound|].
      unfold unwrap at 1. cbn [mbind res_bind]. rewrite Hb. by eexists. }
  do 2 eexists. split; [exact Hp|]. rewrite Hlane. rewrite map_length, seq_length. split; [done|].
  split.
  2: { intros t a b Hlt Hq Ha Hb. rewrite list_lookup_fmap, lookup_seq_lt by done. cbn [fmap option_fmap option_map Nat.add]. f_equal.
       unfold val, points_looped, umod. destruct (Z.eqb_spec bar 0); [lia|]. cbn [mbind res_bind]. rewrite find_from_none by done.
       rewrite Hb. replace (length l - 1 + 1) with (length l) by lia. rewrite Nat.mod_same by done.
       assert (E : l !! 0 = Some a) by (clear -Ha; destruct l; [done|exact Ha]). unfold unwrap at 1. cbn [mbind res_bind]. rewrite E. done. }
  intros i a t Hlt Ha Hle Hbelow.
  assert (Hi : i < length l) by (by apply lookup_lt_Some in Ha).
  assert (Hmod : (i + 1) mod length l = if decide (S i = length l) then 0 else S i).
  { rewrite Nat.add_1_r. case_decide as E; [rewrite E; by apply Nat.mod_same|apply Nat.mod_small; lia]. }
  destruct (lookup_lt_is_Some_2 l ((i + 1) mod length l)) as [b Hb]; [by apply Nat.mod_upper_bound|].
  exists b. split; [by rewrite <- Hmod|].
  rewrite list_lookup_fmap, lookup_seq_lt by done. cbn [fmap option_fmap option_map Nat.add]. f_equal.
  unfold val, points_looped, umod. destruct (Z.eqb_spec bar 0); [lia|]. cbn [mbind res_bind].
  rewrite (find_from_at _ l i a Hbelow Ha Hle). rewrite Ha. unfold unwrap at 1. cbn [mbind res_bind]. rewrite Hb. done.
Qed.

(** ** What does not hold *)

(** Two breakpoints of a ramp 1 -> 0 over one second, at 8 samples a second: [points [0 1; 1_s 0]]. *)
Definition ramp : list (timelist * f32) := [(TimeList f0 None, f1); (TimeList f0 (Some (DSec f1)), f0)].
(** A release build starts with the last value instead of the first, and after the last breakpoint
    does not hold: the first segment is extended for ever. *)
Theorem C34_start_and_hold_refuted : exists nd out nd' outs,
  ascending (breakpoints demo env8 f1 ramp) /\
  created demo env8 (CPoints ramp f1 false) [] nd out /\ play demo nd out [[]; []; []] = Ok (nd', outs) /\
  lane 0 outs !! 0 = Some f0 /\ lane 0 outs !! 4 = Some fhalf /\ lane 0 outs !! 16 = Some fm1.
Proof.
  destruct (demo_created demo env8 (CPoints ramp f1 false) [] (fun nd out => match play demo nd out [[]; []; []] with
    | Ok (_, outs) => [lane 0 outs !! 0; lane 0 outs !! 4; lane 0 outs !! 16] | Panic => [] end)
    [Some f0; Some fhalf; Some fm1]) as (nd & out & Hc & Hv); [vm_compute; reflexivity|].
  destruct (play demo nd out [[]; []; []]) as [[nd' outs]|] eqn:E; [|done].
  exists nd, out, nd', outs. split; [|split; [done|split; [done|]]].
  - assert (breakpoints demo env8 f1 ramp = [(0%Z, f1); (8%Z, f0)]) as -> by (vm_compute; reflexivity).
    intros [|[|i]] [|[|j]] a b Hij Ha Hb; try lia; try done. cbn in Ha, Hb. injection Ha as <-. injection Hb as <-. done.
  - injection Hv as -> -> ->. done.
Qed.
(** Every debug build panics at the first sample, whatever the points. *)
Theorem C34_debug_build_panics (P : platform) ev pts span ms nd out (ins : inmap) :
  debug (p_cfg P) = true -> 0 < p_blk P -> Forall conn_msg ms -> created P ev (CPoints pts span false) ms nd out ->
  gproc P nd ins out = Panic.
Proof.
  intros Hd Hb Hms Hc. destruct (points_created P ev pts span false ms nd out Hms Hc) as (_ & o & -> & ->).
  destruct (breakpoints_0 P ev span pts) as (v & l' & ->). cbn [gproc sproc]. unfold points_proc. cbn [po_list].
  destruct (p_blk P) as [|n]; [lia|]. cbn [replicate scanR]. unfold points_step, points_once. cbn [po_loop po_list po_step find_from Z.leb Z.compare].
  unfold usub. cbn [Z.of_nat Z.leb Z.compare]. rewrite Hd. done.
Qed.
Theorem C34_debug_build_refuted : exists nd out,
  created (with_cfg demo (Cfg true (2 ^ 64 - 1))) env8 (CPoints ramp f1 false) [] nd out /\
  bufs_of (gproc _ nd [] out) = None.
Proof. apply demo_created. vm_compute. reflexivity. Qed.
(** Looping through 0 -> 1 -> 0: between the breakpoints the values leave the range of the breakpoints. *)
Definition triangle : list (timelist * f32) :=
  [(TimeList f0 None, f0); (TimeList f0 (Some (DSec fhalf)), f1); (TimeList f0 (Some (DSec f1)), f0)].
Theorem C34_looping_refuted : exists nd out nd' outs y,
  breakpoints demo env8 f1 triangle = [(0%Z, f0); (4%Z, f1); (8%Z, f0)] /\
  created demo env8 (CPoints triangle f1 true) [] nd out /\ play demo nd out [[]; []; []] = Ok (nd', outs) /\
  lane 0 outs !! 2 = Some y /\ fltb f1 y = true.
Proof.
  destruct (demo_created demo env8 (CPoints triangle f1 true) [] (fun nd out => match play demo nd out [[]; []; []] with
    | Ok (_, outs) => lane 0 outs !! 2 | Panic => None end)
    (Some (fadd f1 fhalf))) as (nd & out & Hc & Hv); [vm_compute; reflexivity|].
  destruct (play demo nd out [[]; []; []]) as [[nd' outs]|] eqn:E; [|done].
  exists nd, out, nd', outs, (fadd f1 fhalf). split; [vm_compute; reflexivity|]. done.
Qed.
(** No breakpoints at all: creating the node panics. *)
Theorem C34_empty_refuted : forall (P : platform) ev span loop, makenode_ P ev (CPoints [] span loop) = Crash.
Proof. done. Qed.

(** The hypotheses of C34_points_partial and C34_points_looping_partial are met. *)
Example ex_points : ascending (breakpoints demo env8 f1 ramp) /\ debug (p_cfg demo) = false /\
  (Z.of_nat (length (breakpoints demo env8 f1 ramp)) <= umax (p_cfg demo) + 1)%Z /\
  (0 < as_usize (p_cfg demo) (bar_samples env8 f1))%Z /\ forall loop, exists nd out, created demo env8 (CPoints ramp f1 loop) [] nd out.
Proof.
  split.
  { assert (breakpoints demo env8 f1 ramp = [(0%Z, f1); (8%Z, f0)]) as -> by (vm_compute; reflexivity).
    intros [|[|i]] [|[|j]] a b Hij Ha Hb; try lia; try done. cbn in Ha, Hb. injection Ha as <-. injection Hb as <-. done. }
  split; [done|]. split; [by vm_compute|]. split; [by vm_compute|]. intros loop.
  destruct (demo_created demo env8 (CPoints ramp f1 loop) [] (fun _ _ => tt) tt) as (nd & out & H & _);
    [by destruct loop; vm_compute|]. by exists nd, out.
Qed.

(** * Props_Seq: seq, arrange (C27, C28, C29, C39). *)
From Verif Require Export Props_Filter.
From Coq Require Import Lia.
Local Open Scope nat_scope.

(** ** What a pattern should play *)

(** A MIDI note as a playback rate relative to note 60; note 0 is a rest. *)
Definition pitch (P : platform) (midi : f32) : f32 :=
  if feqb midi f0 then f0 else p_pow2 P (fdiv (fsub midi (f_of_Z 60)) (f_of_Z 12)).
(** One bar (four beats) in samples, as an f64; [speed] divides it. *)
Definition bar_of (bpm : f32) (sr : Z) (speed : f32) : f64 :=
  ddiv (dmul (ddiv (d_of_Z 240) (d_of_f bpm)) (d_of_Z sr)) (d_of_f speed).
(** Where in the bar an event at relative time [x] is heard. *)
Definition event_pos (P : platform) (bar : f64) (x : f32) : Z := as_usize (p_cfg P) (dmul (d_of_f x) bar).
(** The event heard at sample [t]: the last one written at this position of the bar. *)
Definition event_at (P : platform) (bar : f64) (evs : list (f32 * usizeref)) (t : nat) : option (f32 * usizeref) :=
  last (filter (fun e : f32 * usizeref => event_pos P bar e.1 = (Z.of_nat t mod as_usize (p_cfg P) bar)%Z) evs).
(** The value at sample [t]; [sig_of r] is the signal of reference [r]. *)
Definition seq_value (P : platform) (bar : f64) (evs : list (f32 * usizeref)) (sig_of : string -> sig) (t : nat) : f32 :=
  match event_at P bar evs t with
  | None => f0
  | Some (_, Usz n) => pitch P (f_of_Z n)
  | Some (_, URef r) => pitch P (default f0 (sig_of r !! t))
  end.

(** ** One sample *)

Lemma last_cons_or {A} (x : A) l : last (x :: l) = match last l with Some y => Some y | None => Some x end.
Proof. rewrite last_cons. by destruct (last l). Qed.

Lemma seq_sample_spec (P : platform) bar look (lk : string -> f32) step evs :
  as_usize (p_cfg P) bar ≠ 0%Z ->
  (forall r, r ∈ component_refs (CSeq evs) -> look r = Ok (lk r)) ->
  seq_sample P bar look step evs =
    Ok (match last (filter (fun e : f32 * usizeref => event_pos P bar e.1 = (step mod as_usize (p_cfg P) bar)%Z) evs) with
        | None => f0 | Some (_, Usz n) => pitch P (f_of_Z n) | Some (_, URef r) => pitch P (lk r) end).
Proof.
  intros Hb. unfold seq_sample. generalize f0 as acc.
  induction evs as [|[x u] evs IH]; intros acc Hl; [done|]. cbn [foldM]. unfold umod at 1.
  destruct (Z.eqb_spec (as_usize (p_cfg P) bar) 0) as [|_]; [done|]. cbn [mbind res_bind fst snd].
  assert (Hl' : forall r, r ∈ component_refs (CSeq evs) -> look r = Ok (lk r)).
  { intros r Hr. apply Hl. simpl in *. set_solver. }
  change (as_usize (p_cfg P) (dmul (d_of_f x) bar)) with (event_pos P bar x).
  rewrite filter_cons. cbn [fst].
  destruct (Z.eqb_spec (step mod as_usize (p_cfg P) bar) (event_pos P bar x)) as [E|E].
  - rewrite decide_True by done. rewrite last_cons_or.
    assert (Hv : (match u with Usz n => Ok (f_of_Z n) | URef s => look s end)
                 = Ok (match u with Usz n => f_of_Z n | URef s => lk s end)).
    { destruct u as [n|r]; [done|]. apply Hl. simpl. set_solver. }
    rewrite Hv. cbn [mbind res_bind mret res_ret]. rewrite IH by done.
    destruct (last _) as [[? ?]|]; [done|]. by destruct u.
  - rewrite decide_False by congruence. cbn [mret res_ret]. by rewrite IH.
Qed.

(** ** Loops and blocks by index *)

Lemma scanR_index {T A B} (f : T -> A -> res (T * B)) (st : nat -> T) (g : nat -> B) xs k :
  (forall i x, xs !! i = Some x -> f (st (k + i)) x = Ok (st (S (k + i)), g (k + i))) ->
  scanR f (st k) xs = Ok (st (k + length xs), map g (seq k (length xs))).
Proof.
  revert k. induction xs as [|x xs IH]; intros k Hf; cbn [scanR length seq map].
  - by rewrite Nat.add_0_r.
  - pose proof (Hf 0 x eq_refl) as H0. rewrite Nat.add_0_r in H0. rewrite H0. rewrite IH.
    + by rewrite Nat.add_succ_r.
    + intros i y Hy. specialize (Hf (1 + i) y Hy). by rewrite Nat.add_succ_r in Hf.
Qed.
Lemma play_blocks_inv (P : platform) (nd_at : nat -> gnode P) (blk : nat -> sig) (I : list sig -> Prop) ins b0 out :
  (forall b i out, ins !! b = Some i -> I out ->
     exists out', gproc P (nd_at (b0 + b)) i out = Ok (nd_at (S (b0 + b)), out') /\ I out' /\
       out' !! 0 = Some (blk (b0 + b))) ->
  I out ->
  exists outs, play P (nd_at b0) out ins = Ok (nd_at (b0 + length ins), outs) /\
    lane 0 outs = List.concat (map blk (seq b0 (length ins))).
Proof.
  revert b0 out. induction ins as [|i ins IH]; intros b0 out Hb Hk.
  - exists []. simpl. by rewrite Nat.add_0_r.
  - destruct (Hb 0 i out eq_refl Hk) as (out' & Hp & Hk' & H0). rewrite Nat.add_0_r in Hp, H0.
    destruct (IH (S b0) out') as (outs & Hps & Hl); [|done|].
    + intros b j o1 Hj Ho. specialize (Hb (S b) j o1 Hj Ho). by rewrite Nat.add_succ_r in Hb.
    + exists (out' :: outs). rewrite (play_cons P _ _ _ _ _ _ Hp), Hps. rewrite lane_cons, H0, Hl. cbn [length].
      by rewrite Nat.add_succ_r.
Qed.
Lemma play_blocks (P : platform) (nd_at : nat -> gnode P) (blk : nat -> sig) k ins b0 out :
  (forall b i out, ins !! b = Some i -> length out = k ->
     exists out', gproc P (nd_at (b0 + b)) i out = Ok (nd_at (S (b0 + b)), out') /\ length out' = k /\
       out' !! 0 = Some (blk (b0 + b))) ->
  length out = k ->
  exists outs, play P (nd_at b0) out ins = Ok (nd_at (b0 + length ins), outs) /\
    lane 0 outs = List.concat (map blk (seq b0 (length ins))).
Proof. intros Hb Hk. by apply (play_blocks_inv P nd_at blk (fun o => length o = k)). Qed.
Lemma concat_blocks {A} (g : nat -> A) n k b0 :
  List.concat (map (fun b => map g (seq (b * n) n)) (seq b0 k)) = map g (seq (b0 * n) (k * n)).
Proof.
  revert b0. induction k as [|k IH]; intros b0; [done|]. cbn [seq map List.concat].
  rewrite IH. cbn [Nat.mul]. rewrite seq_app, map_app. by replace (b0 * n + n) with (S b0 * n) by (simpl; lia).
Qed.
Lemma block_sample (feed : list sig) n b i x : Forall (fun f => length f = n) feed ->
  feed !! b = Some x -> i < n -> List.concat feed !! (b * n + i) = x !! i.
Proof.
  intros Hf. revert b. induction Hf as [|y feed Hy Hf IH]; intros b; [done|]. destruct b as [|b]; simpl.
  - intros [= ->] Hi. by rewrite lookup_app_l by lia.
  - intros Hx Hi. rewrite lookup_app_r by lia. rewrite Hy. replace (n + b * n + i - n) with (b * n + i) by lia.
    by apply IH.
Qed.

(** ** seq *)

Lemma seq_created (P : platform) ev evs ms o nd out : announced ms o -> created P ev (CSeq evs) ms nd out ->
  nd = Simple (NSeq (Seqr evs (order_of (dedup_refs [] (component_refs (CSeq evs)))) f1 (e_bpm ev) (e_sr ev) 0 o)) /\
  out = [silent P; silent P].
Proof.
  intros Hms (n0 & refs & Hm & Hf). cbv beta delta [makenode_ boxed silent] iota zeta in Hm.
  assert (out = [silent P; silent P]) as -> by (transitivity (chans_of P 2); [congruence|done]). split; [|done].
  assert (n0 = Simple (NSeq (Seqr evs (order_of (dedup_refs [] (component_refs (CSeq evs)))) f1 (e_bpm ev) (e_sr ev) 0 []))) as ->
    by congruence. clear Hm.
  rewrite (announced_ord P (fun o => Simple (NSeq (Seqr evs (order_of (dedup_refs [] (component_refs (CSeq evs)))) f1 (e_bpm ev) (e_sr ev) 0 o))) ms o) in Hf.
  - congruence.
  - intros o1 m Hm. cbn [gmsg smsg]. unfold seq_msg. destruct m as [| | | |pos i|]; try done; by destruct (ord_msg _ _).
  - done.
Qed.

(** C27, C28 for a pattern at the head of a chain: sample [t] is the rate of the note of the
    last event written at position [t mod bar] of the bar, and 0 when there is none, over all
    blocks and for every block size.  Without inputs references read as 0. *)
Theorem C27_seq_partial (P : platform) ev evs ms o nd out k :
  announced ms o -> created P ev (CSeq evs) ms nd out ->
  let bar := bar_of (e_bpm ev) (e_sr ev) f1 in
  as_usize (p_cfg P) bar ≠ 0%Z ->
  exists nd' outs, play P nd out (replicate k []) = Ok (nd', outs) /\
    lane 0 outs = map (seq_value P bar evs (fun _ => [])) (seq 0 (k * p_blk P)).
Proof.
  intros Hms Hc bar Hbar. destruct (seq_created P ev evs ms o nd out Hms Hc) as [-> ->].
  set (m := order_of _). set (st := fun n => Seqr evs m f1 (e_bpm ev) (e_sr ev) (Z.of_nat n) o).
  destruct (play_blocks P (fun b => Simple (NSeq (st (b * p_blk P))))
    (fun b => map (seq_value P bar evs (fun _ => [])) (seq (b * p_blk P) (p_blk P))) 2 (replicate k []) 0
    [silent P; silent P]) as (outs & Hp & Hl); [|done|].
  - intros b i o1 [-> _]%lookup_replicate (x & y & ->)%length2. cbn [gproc sproc Nat.add]. unfold seq_proc.
    change (bar_length (sq_bpm (st (b * p_blk P))) (sq_sr (st (b * p_blk P))) (sq_speed (st (b * p_blk P)))) with bar.
    rewrite (scanR_index _ st (seq_value P bar evs (fun _ => []))).
    + rewrite replicate_length. replace (b * p_blk P + p_blk P) with (S b * p_blk P) by lia. cbn. by eexists.
    + intros j u _. cbn [sq_step sq_events st].
      rewrite (seq_sample_spec P bar _ (fun _ => f0)) by done. cbn [mbind res_bind mret res_ret].
      unfold st at 2, seq_set. cbn. unfold st. do 3 f_equal; lia.
  - rewrite replicate_length in *. rewrite concat_blocks in Hl. by do 2 eexists.
Qed.

(** What a wired pattern hears in block [b] of the inputs.  Announced input 0 carries a tempo
    [sp] once per block as the speed node writes it (C29_speed_once_per_block), or, when
    [sp = None], is no such signal; the [k]-th distinct reference of the pattern is announced
    input [k], after the tempo.  [feed r] are the blocks of reference [r]. *)
Definition hears (P : platform) (o : list nat) (refs : list string) (sp : option f32)
    (feed : string -> list sig) (b : nat) (i : inmap) : Prop :=
  (exists bs p0 v0, in_ord i o 0 = Ok bs /\ bs !! 0 = Some p0 /\ p0 !! 0 = Some v0 /\
     match sp with
     | Some v => p0 = v :: replicate (p_blk P - 1) f0
     | None => fgtb v0 f0 = false \/ exists v1, p0 !! 1 = Some v1 /\ feqb v1 f0 = false
     end) /\
  (forall k r, refs !! k = Some r ->
     exists bs x, in_ord i o (k + match sp with Some _ => 1 | None => 0 end) = Ok bs /\
       bs !! 0 = Some x /\ feed r !! b = Some x /\ length x = p_blk P).

Lemma dedup_NoDup seen l : NoDup seen -> NoDup (dedup_refs seen l).
Proof.
  revert seen. induction l as [|r l IH]; intros seen Hs; [done|]. simpl. apply IH. case_bool_decide; [done|].
  apply NoDup_app. split; [done|]. split; [|apply NoDup_singleton]. set_solver.
Qed.
Lemma order_of_spec refs k r : NoDup refs -> refs !! k = Some r -> order_of refs !! r = Some k.
Proof.
  intros Hn Hk. unfold order_of. apply elem_of_list_to_map_1.
  - rewrite fst_zip; [done|]. by rewrite seq_length.
  - apply elem_of_list_lookup. exists k. apply lookup_zip_with_Some. exists r, k. split; [done|]. split; [done|].
    apply lookup_seq. split; [done|]. by apply lookup_lt_Some in Hk.
Qed.

(** C27, C28, C29 for a wired pattern.  A note given by reference takes the value the
    referenced chain has at that very sample; a tempo input divides the length of the bar. *)
Theorem C28_seq_wired (P : platform) ev evs ms o nd out (ins : list inmap) sp feed :
  announced ms o -> created P ev (CSeq evs) ms nd out ->
  let refs := dedup_refs [] (component_refs (CSeq evs)) in
  let speed := default f1 sp in
  let bar := bar_of (e_bpm ev) (e_sr ev) speed in
  1 < p_blk P -> as_usize (p_cfg P) bar ≠ 0%Z -> (forall v, sp = Some v -> fgtb v f0 = true) ->
  (forall b i, ins !! b = Some i -> hears P o refs sp feed b i) ->
  (forall r, r ∈ refs -> length (feed r) = length ins /\ Forall (fun x => length x = p_blk P) (feed r)) ->
  exists nd' outs, play P nd out ins = Ok (nd', outs) /\
    lane 0 outs = map (seq_value P bar evs (fun r => List.concat (feed r))) (seq 0 (length ins * p_blk P)).
Proof.
  intros Hms Hc refs speed bar Hblk Hbar Hsp Hins Hfeed. destruct (seq_created P ev evs ms o nd out Hms Hc) as [-> ->].
  fold refs. set (val := seq_value P bar evs (fun r => List.concat (feed r))).
  set (st := fun n => Seqr evs (order_of refs) (if decide (n = 0) then f1 else speed) (e_bpm ev) (e_sr ev) (Z.of_nat n) o).
  set (st' := fun n => Seqr evs (order_of refs) speed (e_bpm ev) (e_sr ev) (Z.of_nat n) o).
  destruct (play_blocks P (fun b => Simple (NSeq (st (b * p_blk P))))
    (fun b => map val (seq (b * p_blk P) (p_blk P))) 2 ins 0
    [silent P; silent P]) as (outs & Hp & Hl); [|done|].
  - intros b i o1 Hi (x & y & ->)%length2. cbn [gproc sproc Nat.add]. unfold seq_proc.
    destruct (Hins b i Hi) as [(bs & p0 & v0 & H1 & H2 & H3 & H4) Hrefs].
    assert (Hne : exists h t, i = h :: t).
    { destruct i as [|h t]; [|by eauto]. unfold in_ord in H1. by destruct (o !! 0). }
    destruct Hne as (h & tl & Ei). rewrite Ei; rewrite <- Ei. cbn [sq_ord st]. rewrite H1. cbn [mbind res_bind].
    unfold chan at 1. rewrite H2. cbn [unwrap mbind res_bind]. rewrite H3. cbn [unwrap mbind res_bind].
    assert (Hhas : (if fgtb v0 f0 then v1 ← unwrap (p0 !! 1); mret (feqb v1 f0) else mret false)
                   = Ok (match sp with Some _ => true | None => false end) /\
                   (match sp with Some _ => v0 | None => sq_speed (st (b * p_blk P)) end) = speed).
    { destruct sp as [v|]; simpl in speed.
      - subst p0. simpl in H3. injection H3 as <-. rewrite (Hsp v eq_refl).
        destruct (p_blk P) as [|[|n]]; [lia..|]. by simpl.
      - split; [|unfold st; simpl; by case_decide]. destruct H4 as [-> | (v1 & -> & Hv1)]; [done|].
        destruct (fgtb v0 f0); [|done]. cbn. by rewrite Hv1. }
    destruct Hhas as [Hhas Hs1]. rewrite Hhas. clear Hhas. cbn [mbind res_bind].
    assert (Es : seq_set (st (b * p_blk P)) (if match sp with Some _ => true | None => false end
                           then v0 else sq_speed (st (b * p_blk P))) (sq_step (st (b * p_blk P))) = st' (b * p_blk P)).
    { unfold seq_set. cbn [st sq_events sq_order sq_bpm sq_sr sq_step sq_ord]. unfold st'. f_equal. by destruct sp. }
    rewrite Es.
    change (bar_length (sq_bpm (st' (b * p_blk P))) (sq_sr (st' (b * p_blk P))) (sq_speed (st' (b * p_blk P)))) with bar.
    rewrite (scanR_index _ st' val).
    + rewrite seq_length. cbn [mbind res_bind put0 mret res_ret]. exists [map val (seq (b * p_blk P) (p_blk P)); y].
      split; [|done]. unfold st, st'. replace (b * p_blk P + p_blk P) with (S b * p_blk P) by lia.
      by rewrite decide_False by lia.
    + intros j u Hu. apply lookup_seq in Hu as [-> Hj]. cbn [sq_step sq_events st'].
      rewrite (seq_sample_spec P bar _ (fun r => default f0 (List.concat (feed r) !! (b * p_blk P + j)))); [|done|].
      * cbn [mbind res_bind mret res_ret]. unfold seq_set. cbn. unfold st'. do 3 f_equal. lia.
      * intros r Hr. unfold seq_look. cbn [sq_order sq_ord st'].
        assert (Hr' : r ∈ refs) by (apply dedup_refs_elem; by right).
        apply elem_of_list_lookup in Hr' as Hk. destruct Hk as [k Hk].
        rewrite (order_of_spec refs k r (dedup_NoDup [] _ (NoDup_nil_2)) Hk). cbn [unwrap mbind res_bind].
        destruct (Hrefs k r Hk) as (bs' & x' & G1 & G2 & G3 & G4).
        replace (k + (if match sp with Some _ => true | None => false end then 1 else 0))
          with (k + match sp with Some _ => 1 | None => 0 end) by (by destruct sp).
        rewrite G1. cbn [mbind res_bind]. unfold chan. rewrite G2. cbn [unwrap mbind res_bind].
        destruct (Hfeed r Hr') as [_ Hf]. rewrite (block_sample _ _ _ _ _ Hf G3) by lia.
        destruct (x' !! j) eqn:Ex; [by cbn; rewrite Ex|]. apply lookup_ge_None in Ex. lia.
  - rewrite concat_blocks in Hl. by do 2 eexists.
Qed.

(** Events at or past the end of the bar are never heard. *)
Lemma event_at_in_bar (P : platform) bar evs t x u : (0 < as_usize (p_cfg P) bar)%Z ->
  event_at P bar evs t = Some (x, u) -> (x, u) ∈ evs /\ (event_pos P bar x < as_usize (p_cfg P) bar)%Z.
Proof.
  intros Hb He. unfold event_at in He. apply last_Some_elem_of in He. apply elem_of_list_filter in He as [He Hin].
  split; [done|]. simpl in He. rewrite He. by apply Z.mod_pos_bound.
Qed.

(** ** arrange *)

(** Sections are pairs of a referenced chain and a number of bars; section [j] ends after
    [sec_end j] bars. *)
Definition sec_events (secs : list (string * f32)) : list numref := List.concat (map (fun s => [NRef s.1; Num s.2]) secs).
Definition sec_end (secs : list (string * f32)) (j : nat) : f32 := foldl fadd f0 (take (S j) secs.*2).
(** A bar in samples (arrange computes in f32). *)
Definition arr_bar (bpm : f32) (sr : Z) : f32 := fdiv (fmul (fdiv (f_of_Z 240) bpm) (f_of_Z sr)) f1.
(** Sample number [s] lies before the end of section [j]. *)
Definition before_end (bar : f32) secs (s : nat) (j : nat) : bool :=
  fltb (fdiv (f_of_Z (Z.of_nat s)) bar) (sec_end secs j).
(** Section [j] plays at sample [s]: it is the first one that has not ended. *)
Definition plays (bar : f32) secs (s j : nat) : Prop :=
  j < length secs /\ before_end bar secs s j = true /\ forall i, i < j -> before_end bar secs s i = false.
(** All sections are over at sample [s]. *)
Definition over (bar : f32) secs (s : nat) : Prop := forall i, i < length secs -> before_end bar secs s i = false.

Lemma ar_find_spec secs pos acc j : secs ≠ [] ->
  match ar_find (sec_events secs) pos acc j with
  | APass k => exists i, k = j + i /\ i < length secs /\ fltb pos (foldl fadd acc (take (S i) secs.*2)) = true /\
                 forall i', i' < i -> fltb pos (foldl fadd acc (take (S i') secs.*2)) = false
  | AWrap => forall i, i < length secs -> fltb pos (foldl fadd acc (take (S i) secs.*2)) = false
  | _ => False
  end.
Proof.
  revert acc j. induction secs as [|[r b] secs IH]; intros acc j Hne; [done|]. clear Hne.
  change (sec_events ((r, b) :: secs)) with (NRef r :: Num b :: sec_events secs). cbn [ar_find].
  destruct (fltb pos (fadd acc b)) eqn:E.
  - exists 0. cbn [length]. split; [lia|]. split; [lia|]. split; [done|]. intros; lia.
  - destruct secs as [|[r' b'] secs].
    + cbn. intros i Hi. replace i with 0 by (cbn in Hi; lia). done.
    + change (sec_events ((r', b') :: secs)) with (NRef r' :: Num b' :: sec_events secs) in *.
      specialize (IH (fadd acc b) (S j) ltac:(done)).
      destruct (ar_find _ pos (fadd acc b) (S j)) as [k| | |]; try done.
      * destruct IH as (i & -> & Hi & Ht & Hf). exists (S i). split; [lia|]. cbn [length] in *. split; [lia|].
        split; [exact Ht|]. intros [|i'] Hi'; [exact E|]. apply (Hf i'). lia.
      * intros [|i] Hi; [exact E|]. apply (IH i). cbn [length] in *. lia.
Qed.
Lemma ar_find_plays bar secs s j : plays bar secs s j ->
  ar_find (sec_events secs) (fdiv (f_of_Z (Z.of_nat s)) bar) f0 0 = APass j.
Proof.
  intros (Hj & Ht & Hf). assert (Hne : secs ≠ []) by (destruct secs; [simpl in Hj; lia|done]).
  pose proof (ar_find_spec secs (fdiv (f_of_Z (Z.of_nat s)) bar) f0 0 Hne) as H.
  destruct (ar_find _ _ _ _) as [k| | |]; try done.
  - destruct H as (i & -> & Hi & Ht' & Hf'). f_equal. simpl. destruct (Nat.lt_trichotomy i j) as [Hl|[->|Hl]]; [|done|].
    + specialize (Hf i Hl). unfold before_end, sec_end in Hf. congruence.
    + specialize (Hf' j Hl). unfold before_end, sec_end in Ht. congruence.
  - specialize (H j Hj). unfold before_end, sec_end in Ht. congruence.
Qed.
Lemma ar_find_over bar secs s : secs ≠ [] -> over bar secs s ->
  ar_find (sec_events secs) (fdiv (f_of_Z (Z.of_nat s)) bar) f0 0 = AWrap.
Proof.
  intros Hne Ho. pose proof (ar_find_spec secs (fdiv (f_of_Z (Z.of_nat s)) bar) f0 0 Hne) as H.
  destruct (ar_find _ _ _ _) as [k| | |]; try done. destruct H as (i & _ & Hi & Ht & _).
  specialize (Ho i Hi). unfold before_end, sec_end in Ho. congruence.
Qed.
Lemma plays_or_over bar secs s : (exists j, plays bar secs s j) \/ over bar secs s.
Proof.
  destruct (list_find (fun j => before_end bar secs s j = true) (seq 0 (length secs))) as [[k j]|] eqn:E.
  - apply list_find_Some in E as ([-> Hk]%lookup_seq & Ht & Hf). left. exists k. split; [done|]. split; [done|].
    intros i Hi. destruct (before_end bar secs s i) eqn:Ei; [|done]. exfalso. eapply (Hf i i); [|done|done].
    apply lookup_seq. lia.
  - apply list_find_None in E. right. intros i Hi. destruct (before_end bar secs s i) eqn:Ei; [|done]. exfalso.
    rewrite Forall_forall in E. apply (E i); [|done]. apply elem_of_seq. lia.
Qed.

Lemma arrange_created (P : platform) ev evs ms o nd out : announced ms o -> created P ev (CArrange evs) ms nd out ->
  nd = Simple (NArrange (Arrange evs (e_bpm ev) (e_sr ev) 0 o)) /\ out = [silent P; silent P].
Proof.
  intros Hms (n0 & refs & Hm & Hf). cbv beta delta [makenode_ boxed] iota zeta in Hm.
  assert (out = [silent P; silent P]) as -> by (transitivity (chans_of P 2); [congruence|done]). split; [|done].
  assert (n0 = Simple (NArrange (Arrange evs (e_bpm ev) (e_sr ev) 0 []))) as -> by congruence. clear Hm.
  rewrite (announced_ord P (fun o => Simple (NArrange (Arrange evs (e_bpm ev) (e_sr ev) 0 o))) ms o) in Hf.
  - congruence.
  - intros o1 m Hm. cbn [gmsg smsg]. unfold arrange_msg. destruct m as [| | | |pos i|]; try done; by destruct (ord_msg _ _).
  - done.
Qed.

(** The counter of arrange before sample [t], when a round takes [T] samples. *)
Definition arr_step (T t : nat) : nat := match t with 0 => 0 | S t' => S (t' mod T) end.
Lemma arr_step_next T t : 0 < T -> arr_step T t < T -> arr_step T (S t) = S (arr_step T t).
Proof.
  intros HT. destruct t as [|t]; cbn [arr_step].
  - intros _. by rewrite Nat.mod_small by lia.
  - intros H. f_equal. pose proof (Nat.div_mod_eq t T). symmetry.
    apply (Nat.mod_unique (S t) T (t / T)); [lia|]. lia.
Qed.
Lemma arr_step_wrap T t : 0 < T -> arr_step T t = T -> arr_step T (S t) = 1 /\ t mod T = 0.
Proof.
  intros HT. destruct t as [|t]; cbn [arr_step]; [lia|]. intros H.
  assert (S t mod T = 0) as E; [|by rewrite E].
  pose proof (Nat.div_mod_eq t T). symmetry. apply (Nat.mod_unique (S t) T (S (t / T))); [lia|]. nia.
Qed.
Lemma arr_step_le T t : 0 < T -> arr_step T t <= T.
Proof. intros HT. destruct t as [|t]; cbn [arr_step]; [lia|]. pose proof (Nat.mod_upper_bound t T). lia. Qed.
Lemma arr_step_mod T t : 0 < T -> arr_step T t < T -> t mod T = arr_step T t.
Proof.
  intros HT. destruct t as [|t]; cbn [arr_step]; [intros _; by apply Nat.mod_0_l; lia|]. intros H.
  pose proof (Nat.div_mod_eq t T). symmetry. apply (Nat.mod_unique (S t) T (t / T)); [lia|]. lia.
Qed.

(** C39.  [T] is the first sample at which all sections are over.  Sample [t] is sample [t] of
    the chain whose section plays at [t mod T]: sections play in order and the whole loops
    for ever, over all blocks. *)
Theorem C39_arrange (P : platform) ev secs ms o nd out (ins : list inmap) (feed : nat -> list sig) T :
  announced ms o -> created P ev (CArrange (sec_events secs)) ms nd out ->
  let bar := arr_bar (e_bpm ev) (e_sr ev) in
  0 < T -> over bar secs T -> (forall s, s < T -> ~ over bar secs s) -> plays bar secs 0 0 ->
  (forall b i j, ins !! b = Some i -> j < length secs ->
     exists bs x, in_ord i o j = Ok bs /\ bs !! 0 = Some x /\ feed j !! b = Some x) ->
  (forall j, j < length secs -> Forall (fun x => length x = p_blk P) (feed j)) ->
  exists nd' outs, play P nd out ins = Ok (nd', outs) /\ length (lane 0 outs) = length ins * p_blk P /\
    forall t j, t < length ins * p_blk P -> plays bar secs (t mod T) j ->
      lane 0 outs !! t = List.concat (feed j) !! t.
Proof.
  intros Hms Hc bar HT Hover Hfirst H0 Hins Hfeed.
  destruct (arrange_created P ev _ ms o nd out Hms Hc) as [-> ->].
  assert (Hne : secs ≠ []) by (intros ->; by destruct H0 as [? _]; simpl in *; lia).
  set (st := fun t => Arrange (sec_events secs) (e_bpm ev) (e_sr ev) (Z.of_nat (arr_step T t)) o).
  (* the section of each sample, as a function *)
  set (sec := fun t => match list_find (fun j => before_end bar secs (t mod T) j = true) (seq 0 (length secs)) with
                       | Some (_, j) => j | None => 0 end).
  assert (Hsec : forall t j, plays bar secs (t mod T) j -> sec t = j).
  { intros t j (Hj & Ht & Hf). unfold sec.
    destruct (list_find _ _) as [[k j']|] eqn:E.
    - apply list_find_Some in E as ([-> Hk]%lookup_seq & Ht' & Hf'). simpl in *.
      destruct (Nat.lt_trichotomy k j) as [Hl|[->|Hl]]; [|done|].
      + specialize (Hf k Hl). congruence.
      + exfalso. eapply (Hf' j j); [apply lookup_seq; lia|done|done].
    - apply list_find_None in E. rewrite Forall_forall in E. exfalso. apply (E j); [|done]. apply elem_of_seq. lia. }
  assert (Hex : forall t, plays bar secs (t mod T) (sec t)).
  { intros t. destruct (plays_or_over bar secs (t mod T)) as [[j Hj]|Ho]; [by rewrite (Hsec t j Hj)|].
    exfalso. eapply Hfirst; [|exact Ho]. apply Nat.mod_upper_bound. lia. }
  set (val := fun t => default f0 (List.concat (feed (sec t)) !! t)).
  assert (Hloop : forall b i old t0, ins !! b = Some i -> t0 + length old = p_blk P ->
            ar_loop (st (b * p_blk P + t0)) i t0 old
            = Ok (st (b * p_blk P + p_blk P), map val (seq (b * p_blk P + t0) (length old)))).
  { intros b i old t0 Hi. revert t0. induction old as [|x old IH]; intros t0 Hlen; cbn [length] in Hlen.
    - cbn [ar_loop length seq map]. by replace t0 with (p_blk P) by lia.
    - cbn [ar_loop length seq map]. set (t := b * p_blk P + t0) in *.
      assert (Hfetch : forall j, j = sec t -> (bs ← in_ord i (ar_ord (st t)) j; b0 ← chan bs 0; unwrap (b0 !! t0)) = Ok (val t)).
      { intros j ->. destruct (Hex t) as [Hj _].
        destruct (Hins b i (sec t) Hi Hj) as (bs & x0 & E1 & E2 & E3). cbn [st ar_ord]. rewrite E1. cbn [mbind res_bind].
        unfold chan. rewrite E2. cbn [unwrap mbind res_bind]. unfold val.
        pose proof (block_sample (feed (sec t)) (p_blk P) b t0 x0 (Hfeed _ Hj) E3 ltac:(lia)) as Hbs. fold t in Hbs. rewrite Hbs.
        pose proof (Hfeed _ Hj) as HF. rewrite Forall_forall in HF. specialize (HF x0 ltac:(by eapply elem_of_list_lookup_2)).
        destruct (x0 !! t0) eqn:Ex; [done|]. apply lookup_ge_None in Ex. lia. }
      specialize (IH (S t0) ltac:(lia)). replace (b * p_blk P + S t0) with (S t) in IH by (unfold t; lia).
      change (ar_bar (st t)) with bar. cbn [ar_events ar_step st].
      destruct (decide (arr_step T t < T)) as [Hlt|Hge].
      + pose proof (Hex t) as Hp. rewrite (arr_step_mod T t HT Hlt) in Hp. rewrite (ar_find_plays _ _ _ _ Hp).
        rewrite Hfetch by done. cbn [mbind res_bind].
        assert (Es : ar_set (st t) (Z.of_nat (arr_step T t) + 1) = st (S t)).
        { unfold ar_set, st. cbn [ar_events ar_bpm ar_sr ar_ord]. rewrite arr_step_next by done. f_equal. lia. }
        rewrite Es, IH. done.
      + pose proof (arr_step_le T t HT). destruct (arr_step_wrap T t HT ltac:(lia)) as [Hw Hm].
        replace (arr_step T t) with T by lia. rewrite (ar_find_over _ _ _ Hne Hover).
        rewrite Hfetch; [|symmetry; apply Hsec; by rewrite Hm]. cbn [mbind res_bind].
        assert (Es : ar_set (st t) 1 = st (S t)) by (unfold ar_set, st; cbn [ar_events ar_bpm ar_sr ar_ord]; by rewrite Hw).
        rewrite Es, IH. done. }
  destruct (play_blocks_inv P (fun b => Simple (NArrange (st (b * p_blk P))))
    (fun b => map val (seq (b * p_blk P) (p_blk P))) (fun o => exists x y, o = [x; y] /\ length x = p_blk P) ins 0
    [silent P; silent P]) as (outs & Hp & Hl).
  - intros b i o1 Hi (x & y & -> & Hx). cbn [gproc sproc Nat.add]. unfold arrange_proc, chan.
    cbn [lookup list_lookup unwrap mbind res_bind].
    specialize (Hloop b i x 0 Hi ltac:(lia)). rewrite Nat.add_0_r in Hloop. rewrite Hloop, Hx.
    cbn [mbind res_bind put0 mret res_ret fst snd]. exists [map val (seq (b * p_blk P) (p_blk P)); y].
    split; [|split; [|done]].
    + by replace (b * p_blk P + p_blk P) with (S b * p_blk P) by lia.
    + do 2 eexists. split; [done|]. by rewrite map_length, seq_length.
  - exists (silent P), (silent P). split; [done|]. apply replicate_length.
  - rewrite concat_blocks in Hl. do 2 eexists. split; [exact Hp|]. rewrite Hl. rewrite map_length, seq_length.
    split; [done|]. intros t j Ht Hj. rewrite list_lookup_fmap, lookup_seq_lt by done. cbn [fmap option_fmap option_map Nat.mul Nat.add].
    unfold val. rewrite (Hsec t j Hj). destruct (List.concat (feed j) !! t) eqn:E; [done|]. exfalso.
    apply lookup_ge_None in E. destruct Hj as [Hj _].
    assert (length (List.concat (feed j)) >= length ins * p_blk P); [|lia].
    assert (Hfl : length ins <= length (feed j)).
    { destruct (decide (length ins = 0)) as [->|Hn]; [lia|].
      destruct (lookup_lt_is_Some_2 ins (length ins - 1) ltac:(lia)) as [i Hi].
      destruct (Hins _ i j Hi Hj) as (_ & x & _ & _ & Hx). apply lookup_lt_Some in Hx. lia. }
    pose proof (Hfeed j Hj) as HF. clear -HF Hfl. revert Hfl. generalize (length ins) as n.
    induction HF as [|x l Hx HF IH]; intros n Hn; simpl in *; [replace n with 0 by lia; lia|].
    rewrite app_length, Hx. destruct n as [|n]; [lia|]. specialize (IH n ltac:(lia)). simpl. lia.
Qed.

(** ** Examples *)

(** 8 samples per bar. *)
Definition bar8 : env sampledata := {| e_samples := ∅; e_sr := 8; e_bpm := f_of_Z 240; e_seed := 0 |}.
Definition pat8 : list (f32 * usizeref) :=
  [(f0, Usz 72); (fhalf, Usz 60); (f_of_dec false 75 (-2), Usz 0); (f1, Usz 84)].
(** Notes 72, 60 and a rest; the event at time 1 is not heard. *)
Example ex_seq : as_usize (p_cfg demo) (bar_of (e_bpm bar8) (e_sr bar8) f1) = 8%Z /\
  map (seq_value demo (bar_of (e_bpm bar8) (e_sr bar8) f1) pat8 (fun _ => [])) (seq 0 16)
    = fs [2; 0; 0; 0; 1; 0; 0; 0; 2; 0; 0; 0; 1; 0; 0; 0]%Z /\
  exists nd out, created demo bar8 (CSeq pat8) [] nd out /\
    lanes_of (play demo nd out [[]; []]) =
      Some (fs [2; 0; 0; 0; 1; 0; 0; 0; 2; 0; 0; 0; 1; 0; 0; 0]%Z, replicate 16 f0).
Proof. split; [by vm_compute|]. split; [by vm_compute|]. apply demo_created. vm_compute. reflexivity. Qed.
(** A note given by chain [~a] (72 in the first half, 60 in the second), at double tempo. *)
Definition pat8r : list (f32 * usizeref) := [(f0, URef "~a"); (fhalf, Usz 60)].
Definition in8r : inmap := [(7, [f2 :: replicate 7 f0]); (9, [fs [72; 72; 72; 72; 60; 60; 60; 60]%Z])].
Example ex_seq_wired :
  hears demo [7; 9] (dedup_refs [] (component_refs (CSeq pat8r))) (Some f2)
    (fun _ => [fs [72; 72; 72; 72; 60; 60; 60; 60]%Z]) 0 in8r /\
  exists nd out, created demo bar8 (CSeq pat8r) [ResetOrder; Index 9; IndexOrder 0 7] nd out /\
    lanes_of (play demo nd out [in8r]) = Some (fs [2; 0; 1; 0; 1; 0; 1; 0]%Z, replicate 8 f0).
Proof.
  split; [|apply demo_created; vm_compute; reflexivity]. split.
  - by do 3 eexists.
  - intros [|k] r; [|by destruct k]. intros [= <-]. by do 2 eexists.
Qed.
(** One bar of [~a], half a bar of [~b]: a round takes 12 samples. *)
Definition arr12 : list (string * f32) := [("~a", f1); ("~b", fhalf)].
Example ex_arrange : let bar := arr_bar (e_bpm bar8) (e_sr bar8) in
  over bar arr12 12 /\ (forall s, s < 12 -> ~ over bar arr12 s) /\ plays bar arr12 0 0 /\ plays bar arr12 11 1 /\
  exists nd out, created demo bar8 (CArrange (sec_events arr12)) [ResetOrder; Index 3; Index 4] nd out /\
    lanes_of (play demo nd out (replicate 3 [(4, [replicate 8 f2]); (3, [replicate 8 f1])])) =
      Some (replicate 8 f1 ++ replicate 4 f2 ++ replicate 8 f1 ++ replicate 4 f2, replicate 24 f0).
Proof.
  cbv zeta. split_and!.
  - intros [|[|i]]; [by vm_compute..|]. simpl. lia.
  - intros s Hs Ho. specialize (Ho 1 ltac:(simpl; lia)). revert Ho.
    do 12 (destruct s as [|s]; [by vm_compute|]). lia.
  - split; [simpl; lia|]. split; [by vm_compute|]. intros; lia.
  - split; [simpl; lia|]. split; [by vm_compute|]. intros [|i]; [by vm_compute|lia].
  - apply demo_created. vm_compute. reflexivity.
Qed.

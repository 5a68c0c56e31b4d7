(** * Props_PSampler: patterns of samples (C38). *)
From Verif Require Export Props_Sampler.
From Verif Require Import FloatR.
From Coq Require Import Reals Lra Lia.
Local Open Scope nat_scope.

(** ** What a pattern plays

    [pat]: the events (sample name and time in cycles), [cycle]: seconds of a cycle, [span]:
    cycles after which the pattern repeats. *)
Section spec.
  Context (c : cfg) (pat : list (string * f32)) (data : string -> sampledata) (sr : Z) (cycle span : f32).
  (** In samples: the length of the pattern and the place of an event in it. *)
  Definition period : Z := as_usize c (fmul (fmul cycle span) (f_of_Z sr)).
  Definition place (ev : string * f32) : Z := as_usize c (fmul (fmul ev.2 cycle) (f_of_Z sr)).
  Definition due (t : nat) (ev : string * f32) : bool := (Z.of_nat t mod period =? place ev)%Z.
  (** A voice: the sample at which it began and the name of what it plays. *)
  Definition starts (t : nat) : list (nat * string) := map (fun ev => (t, ev.1)) (List.filter (due t) pat).
  Definition heard_of (v : nat * string) (t : nat) : f32 := fdiv (f_of_Z (Z.of_nat (t - v.1))) (dur (data v.2) sr f1).
  Definition lasting (t : nat) (v : nat * string) : bool :=
    forallb (fun s => fleb (heard_of v s) f1) (seq v.1 (S (t - v.1))).
  Definition pvoices (t : nat) : list (nat * string) := List.filter (lasting t) (flat_map starts (seq 0 (S t))).
  (** A stereo voice adds to both channels; a mono voice adds to the left channel, which is
      then copied to the right one. *)
  Definition add_voice (P : platform) (d : sampledata) (pos : f32) (lr : f32 * f32) : f32 * f32 :=
    if (sd_chan d =? 1)%Z then let l := fadd lr.1 (tap d P pos).1 in (l, l) else plus2 lr (tap d P pos).
  Definition pmix (P : platform) (t : nat) (vs : list (nat * string)) (lr : f32 * f32) : f32 * f32 :=
    fold_left (fun lr v => add_voice P (data v.2) (heard_of v t) lr) vs lr.
  Definition pplayed (P : platform) (t : nat) : f32 * f32 := pmix P t (pvoices t) (f0, f0).
End spec.

Lemma sd_play_add (P : platform) d pos lr : playable d -> (16777216 <= umax (p_cfg P))%Z -> rng 0 1 pos ->
  sd_play P d (frames d) pos lr = Ok (Some (add_voice P d pos lr)).
Proof.
  intros Hd Hu Hp. unfold add_voice. destruct (sd_chan d =? 1)%Z eqn:E.
  - transitivity (sd_play P d (frames d) pos (lr.1, lr.1)); [unfold sd_play; by rewrite E|].
    rewrite sd_play_tap by done. unfold plus2, tap. by rewrite E.
  - apply sd_play_tap; [done..|]. intros Hc. by rewrite Hc in E.
Qed.

Section run.
  Context (P : platform) (pat : list (string * f32)) (dict : gmap string sampledata) (data : string -> sampledata)
          (sr : Z) (cycle span : f32) (o : list nat).
  Context (Hdict : Forall (fun ev => dict !! ev.1 = Some (data ev.1) /\ playable (data ev.1) /\ (0 <= sd_rate (data ev.1))%Z) pat)
          (Hu : (16777216 <= umax (p_cfg P))%Z) (Hsr : (0 <= sr)%Z)
          (Hper : (0 < period (p_cfg P) sr cycle span)%Z).
  Notation starts := (starts (p_cfg P) pat sr cycle span).
  Notation pvoices := (pvoices (p_cfg P) pat data sr cycle span).
  Notation lasting := (lasting data sr).
  Notation heard_of := (heard_of data sr).
  Let vo (v : nat * string) : Z * string * f32 := (Z.of_nat v.1, v.2, dur (data v.2) sr f1).
  Definition known (t : nat) (v : nat * string) : Prop :=
    v.1 <= t /\ dict !! v.2 = Some (data v.2) /\ playable (data v.2) /\ (0 <= sd_rate (data v.2))%Z.

  Lemma starts_known t : Forall (known t) (starts t).
  Proof.
    apply Forall_forall. intros v Hv%elem_of_list_In. unfold Props_PSampler.starts in Hv.
    apply in_map_iff in Hv as (ev & <- & [Hin _]%List.filter_In). apply elem_of_list_In in Hin.
    rewrite Forall_forall in Hdict. destruct (Hdict ev Hin) as (H1 & H2 & H3). by split_and!.
  Qed.
  Lemma start_spec s t : pa_step s = Z.of_nat t -> pa_pattern s = pat -> pa_dict s = dict -> pa_cycle s = cycle -> pa_span s = span ->
    pa_sr s = sr -> psampler_start P s = Ok (pa_play s ++ map vo (starts t)).
  Proof.
    intros H1 H2 H3 H4 H5 H6. unfold psampler_start. rewrite H1, H2, H3, H4, H5, H6. cbv zeta. change (as_usize (p_cfg P) (fmul (fmul cycle span) (f_of_Z sr))) with (period (p_cfg P) sr cycle span).
    unfold Props_PSampler.starts. generalize (pa_play s) as acc. clear -Hdict Hper. pose proof Hdict as Hd. clear Hdict.
    induction Hd as [|ev l (E1 & E2 & E3) _ IH]; intros acc.
    - simpl. by rewrite app_nil_r.
    - cbn [foldM]. unfold umod at 1. destruct (Z.eqb_spec (period (p_cfg P) sr cycle span) 0); [lia|]. cbn [mbind res_bind].
      change (as_usize (p_cfg P) (fmul (fmul ev.2 cycle) (f_of_Z sr))) with (place (p_cfg P) sr cycle ev).
      cbn [List.filter]. unfold due at 1. destruct (_ =? _)%Z; [|exact (IH acc)].
      rewrite E1. cbn [unwrap mbind res_bind]. assert (Hc : (sd_chan (data ev.1) =? 0)%Z = false).
      { apply Z.eqb_neq. destruct E2 as [_ [[-> _]|[-> _]]]; lia. }
      rewrite Hc. cbn [mret res_ret map]. etransitivity; [apply IH|]. rewrite <- app_assoc. reflexivity.
  Qed.
  Lemma heard_rng v t : playable (data v.2) -> (0 <= sd_rate (data v.2))%Z -> fleb (heard_of v t) f1 = true -> rng 0 1 (heard_of v t).
  Proof.
    intros Hd Hr Hle. assert (Hf : (0 <= frames (data v.2))%Z) by (unfold playable in Hd; lia).
    apply nonneg_rng; [|unfold Props_PSampler.heard_of, dur; repeat apply fdiv_nonneg; try (apply f_of_Z_nonneg; lia); done|done].
    unfold Props_PSampler.heard_of, dur. repeat apply fdiv_valid; try done; apply f_of_Z_valid.
  Qed.
  Lemma voices_spec s t vs lr : pa_step s = Z.of_nat t -> pa_dict s = dict -> Forall (known t) vs ->
    let keep := List.filter (fun v => fleb (heard_of v t) f1) vs in
    psampler_voices P s (map vo vs) lr = Ok (Some (map vo keep), pmix data sr P t keep lr).
  Proof.
    intros Hc Hda Hvs. revert lr. induction Hvs as [|v vs (Hv & Hdv & Hp & Hr) Hvs IH]; intros lr; [done|].
    cbn [map psampler_voices List.filter]. rewrite Hc.
    assert (Epos : fdiv (f_of_Z (Z.of_nat t - (vo v).1.1)) (vo v).2 = heard_of v t).
    { unfold vo, Props_PSampler.heard_of. cbn [fst snd]. by replace (Z.of_nat t - Z.of_nat v.1)%Z with (Z.of_nat (t - v.1)) by lia. }
    cbv zeta. rewrite Epos. cbv zeta in IH. destruct (fleb (heard_of v t) f1) eqn:E; [|by apply IH].
    rewrite Hda. cbn [vo fst snd]. rewrite Hdv. cbn [unwrap mbind res_bind].
    change (sd_len (data v.2) / sd_chan (data v.2))%Z with (frames (data v.2)).
    rewrite sd_play_add; [|done|done|by apply heard_rng]. cbn [mbind res_bind]. rewrite IH. cbn [mbind res_bind fst snd map mret res_ret].
    done.
  Qed.
  Definition going (t : nat) : list (nat * string) := match t with 0 => [] | S t' => pvoices t' end.
  Lemma lasting_S v t : v.1 <= t -> lasting (S t) v = lasting t v && fleb (heard_of v (S t)) f1.
  Proof.
    intros Hut. unfold Props_PSampler.lasting. replace (S t - v.1) with (S (t - v.1)) by lia. rewrite (seq_S (S (t - v.1))), forallb_app.
    replace (v.1 + S (t - v.1)) with (S t) by lia. cbn [forallb]. by rewrite andb_true_r.
  Qed.
  Lemma pvoices_step t : pvoices t = List.filter (fun v => fleb (heard_of v t) f1) (going t ++ starts t).
  Proof.
    unfold Props_PSampler.pvoices at 1. rewrite seq_S, flat_map_app, !List.filter_app. f_equal.
    - destruct t as [|t]; [done|]. cbn [going Nat.add]. unfold Props_PSampler.pvoices.
      assert (forall l, (forall v, In v l -> v.1 <= t) -> List.filter (lasting (S t)) l =
        List.filter (fun v => fleb (heard_of v (S t)) f1) (List.filter (lasting t) l)) as H.
      { induction l as [|v l IH]; intros Hl; [done|]. cbn [List.filter]. rewrite IH by (intros; apply Hl; by right).
        rewrite lasting_S by (apply Hl; by left). destruct (lasting t v); [|done]. cbn [andb List.filter]. done. }
      apply H. intros v (u & Hu1 & Hu2)%in_flat_map. apply in_seq in Hu1. unfold Props_PSampler.starts in Hu2.
      apply in_map_iff in Hu2 as (ev & <- & _). simpl. lia.
    - cbn [Nat.add flat_map]. rewrite app_nil_r. apply List.filter_ext_in. intros v Hv. unfold Props_PSampler.starts in Hv.
      apply in_map_iff in Hv as (ev & <- & _). unfold Props_PSampler.lasting. cbn [fst]. rewrite Nat.sub_diag. cbn [seq forallb].
      by rewrite andb_true_r.
  Qed.
  Lemma going_known t : Forall (known t) (going t).
  Proof.
    destruct t as [|t]; [constructor|]. apply Forall_forall. intros v Hv%elem_of_list_In. cbn [going] in Hv.
    apply List.filter_In in Hv as [(u & Hu1 & Hu2)%in_flat_map _]. apply in_seq in Hu1.
    pose proof (starts_known u) as Hk. rewrite Forall_forall in Hk. destruct (Hk v) as (H1 & H2 & H3 & H4); [by apply elem_of_list_In|].
    split_and!; [lia|done|done|done].
  Qed.
  Definition ps_at (t : nat) : psampler * bool := (PSampler (map vo (going t)) dict pat (Z.of_nat t) span cycle sr o, false).
  Lemma ps_run k n : scanR (fun st (_ : unit) => psampler_step P st) (ps_at k) (replicate n tt) =
    Ok (ps_at (k + n), map (pplayed (p_cfg P) pat data sr cycle span P) (seq k n)).
  Proof.
    pose proof (scanR_index (fun st (_ : unit) => psampler_step P st) ps_at (pplayed (p_cfg P) pat data sr cycle span P) (replicate n tt) k) as H.
    rewrite replicate_length in H. apply H. clear H. intros i x _. generalize (k + i) as t. clear i. intros t.
    unfold psampler_step, ps_at at 1. rewrite (start_spec _ t) by done. cbn [mbind res_bind pa_play]. rewrite <- map_app.
    rewrite (voices_spec _ t); [|done|done|apply Forall_app; split; [apply going_known|apply starts_known]].
    cbn [mbind res_bind fst snd mret res_ret pa_dict pa_pattern pa_step pa_span pa_cycle pa_sr pa_ord].
    rewrite <- pvoices_step. unfold ps_at, pplayed. cbn [going]. do 4 f_equal. lia.
  Qed.
End run.

Lemma select_spec dict names m : select dict names = Done m -> forall n, n ∈ names -> m !! n = dict !! n /\ dict !! n <> None.
Proof.
  revert m. induction names as [|n0 names IH]; intros m; cbn [select]; [by intros _ n ?%elem_of_nil|].
  destruct (dict !! n0) as [d|] eqn:E; [|done]. destruct (select dict names) as [m1| |] eqn:E1; [|done|done]. intros [= <-] n Hn.
  destruct (decide (n = n0)) as [->|Hne]; [by rewrite lookup_insert, E|]. rewrite lookup_insert_ne by done.
  apply elem_of_cons in Hn as [->|Hn]; [done|]. by apply (IH m1).
Qed.

Lemma play_blocks2 (P : platform) (nd_at : nat -> gnode P) (b1 b2 : nat -> sig) ins b0 out :
  (forall b i out, ins !! b = Some i -> length out = 2 ->
     gproc P (nd_at (b0 + b)) i out = Ok (nd_at (S (b0 + b)), [b1 (b0 + b); b2 (b0 + b)])) ->
  length out = 2 ->
  exists outs, play P (nd_at b0) out ins = Ok (nd_at (b0 + length ins), outs) /\
    lane 0 outs = List.concat (map b1 (seq b0 (length ins))) /\ lane 1 outs = List.concat (map b2 (seq b0 (length ins))).
Proof.
  revert b0 out. induction ins as [|i ins IH]; intros b0 out Hb Hk.
  - exists []. cbn [play length]. by rewrite Nat.add_0_r.
  - pose proof (Hb 0 i out eq_refl Hk) as E. rewrite Nat.add_0_r in E.
    destruct (IH (S b0) [b1 b0; b2 b0]) as (outs & Hp & H0 & H1).
    { intros b j o1 Hj Ho. specialize (Hb (S b) j o1 Hj Ho). by rewrite Nat.add_succ_r in Hb. }
    { done. }
    exists ([b1 b0; b2 b0] :: outs). rewrite (play_cons _ _ _ _ _ _ _ E), Hp. cbn [length seq map List.concat].
    rewrite !lane_cons, H0, H1. by rewrite Nat.add_succ_r.
Qed.

(** C38.  For every pattern of playable samples, every tempo and sample rate at which the
    pattern has a positive length, and every number of blocks: sample [t] of the output is the
    mix of the voices begun by the events due at each sample up to [t] and not yet over. *)
Theorem C38_psampler (P : platform) ev (evs : list (evval * f32)) span ms o nd out (data : string -> sampledata) (ins : list inmap) :
  announced ms o -> created P ev (CPSampler (PsPattern evs span)) ms nd out ->
  (forall n, n ∈ map (fun e => ev_name e.1) evs -> e_samples ev !! n = Some (data n) /\ playable (data n) /\ (0 <= sd_rate (data n))%Z) ->
  (16777216 <= umax (p_cfg P))%Z -> (0 <= e_sr ev)%Z -> (0 < period (p_cfg P) (e_sr ev) (cycle_dur (e_bpm ev)) span)%Z ->
  let pat := map (fun e => (ev_name e.1, e.2)) evs in
  let played := map (pplayed (p_cfg P) pat data (e_sr ev) (cycle_dur (e_bpm ev)) span P) (seq 0 (length ins * p_blk P)) in
  exists n' outs, play P nd out ins = Ok (n', outs) /\ lane 0 outs = map fst played /\ lane 1 outs = map snd played.
Proof.
  intros Hms (n0 & refs & Hm & Hf) Hdata Hu Hsr Hper pat played.
  cbv beta delta [makenode_] iota zeta in Hm. destruct (select _ _) as [dict| |] eqn:Es; [|done|done]. fold pat in Hm.
  assert (Hd : Forall (fun e => dict !! e.1 = Some (data e.1) /\ playable (data e.1) /\ (0 <= sd_rate (data e.1))%Z) pat).
  { apply Forall_forall. intros e He. unfold pat in He. apply elem_of_list_In, in_map_iff in He as (x & <- & Hx%elem_of_list_In). cbn [fst].
    assert (Hin : ev_name x.1 ∈ map (fun e => ev_name e.1) evs) by (apply elem_of_list_In, in_map_iff; exists x; split; [done|by apply elem_of_list_In]).
    destruct (Hdata _ Hin) as (H1 & H2 & H3). destruct (select_spec _ _ _ Es _ Hin) as [-> _]. done. }
  assert (n0 = Simple (NPSampler (ps_at P pat dict data (e_sr ev) (cycle_dur (e_bpm ev)) span [] 0).1)) as ->.
  { transitivity (@Simple P (NPSampler (PSampler [] dict pat 0 span (cycle_dur (e_bpm ev)) (e_sr ev) []))); [unfold boxed in Hm; congruence|done]. }
  assert (out = [silent P; silent P]) as -> by (unfold boxed in Hm; transitivity (chans_of P 2); [congruence|done]).
  rewrite (announced_ord P (fun o => Simple (NPSampler (ps_at P pat dict data (e_sr ev) (cycle_dur (e_bpm ev)) span o 0).1)) ms o) in Hf; cycle 1.
  { intros o1 m Hcm. cbn [gmsg smsg]. unfold psampler_msg. destruct m as [| | | |pos i|]; try done; by destruct (ord_msg _ _). }
  { done. }
  injection Hf as <-. clear Hm.
  set (st := ps_at P pat dict data (e_sr ev) (cycle_dur (e_bpm ev)) span o).
  set (val := pplayed (p_cfg P) pat data (e_sr ev) (cycle_dur (e_bpm ev)) span P).
  destruct (play_blocks2 P (fun b => Simple (NPSampler (st (b * p_blk P)).1))
    (fun b => map (fst ∘ val) (seq (b * p_blk P) (p_blk P))) (fun b => map (snd ∘ val) (seq (b * p_blk P) (p_blk P))) ins 0
    [silent P; silent P]) as (outs & Hp & H0 & H1).
  - intros b i o1 _ (x & y & ->)%length2. cbn [Nat.add gproc sproc]. unfold psampler_proc.
    change ((st (b * p_blk P)).1, false) with (st (b * p_blk P)). unfold st at 1.
    rewrite (ps_run P pat dict data (e_sr ev) (cycle_dur (e_bpm ev)) span o Hd Hu Hsr Hper). fold st val.
    cbn [put01 mbind res_bind mret res_ret wrap]. replace (b * p_blk P + p_blk P) with (S b * p_blk P) by lia.
    change (map val ?l).*1 with (map fst (map val l)). change (map val ?l).*2 with (map snd (map val l)). rewrite !map_map. done.
  - done.
  - exists (Simple (NPSampler (st (length ins * p_blk P)).1)), outs. split; [exact Hp|]. unfold played. rewrite !map_map.
    rewrite H0, H1, !concat_blocks. done.
Qed.

(** Each event begins exactly once in every cycle of the pattern, at its place, as long as its
    place lies within the pattern. *)
Theorem C38_every_cycle c sr cycle span ev t : (0 < period c sr cycle span)%Z -> (0 <= place c sr cycle ev < period c sr cycle span)%Z ->
  due c sr cycle span t ev = true <-> exists k, (0 <= k)%Z /\ Z.of_nat t = (k * period c sr cycle span + place c sr cycle ev)%Z.
Proof.
  intros Hp Hv. unfold due. rewrite Z.eqb_eq. split.
  - intros H. exists (Z.of_nat t / period c sr cycle span)%Z. split; [apply Z.div_pos; lia|].
    pose proof (Z.div_mod (Z.of_nat t) (period c sr cycle span) ltac:(lia)). lia.
  - intros (k & _ & ->). rewrite Z.add_comm, Z_mod_plus_full. apply Z.mod_small. lia.
Qed.
(** An event whose place lies outside the pattern never begins. *)
Theorem C38_outside c sr cycle span ev t : (0 < period c sr cycle span <= place c sr cycle ev)%Z -> due c sr cycle span t ev = false.
Proof.
  intros H. unfold due. apply Z.eqb_neq. pose proof (Z.mod_pos_bound (Z.of_nat t) (period c sr cycle span) ltac:(lia)). lia.
Qed.
(** The number of samples played by a voice: from its beginning, without gaps, until its
    progress exceeds 1 for the first time. *)
Theorem C38_voice c pat data sr cycle span t u n :
  (u, n) ∈ pvoices c pat data sr cycle span t <->
    u <= t /\ (exists tm, (n, tm) ∈ pat /\ due c sr cycle span u (n, tm) = true) /\
    forall s, u <= s <= t -> fleb (heard_of data sr (u, n) s) f1 = true.
Proof.
  unfold pvoices. rewrite elem_of_list_In, List.filter_In, in_flat_map. unfold lasting. rewrite forallb_forall. cbn [fst].
  split.
  - intros [(u' & Hu & Hs) Hl]. unfold starts in Hs. apply in_map_iff in Hs as ([n' tm] & [= -> ->] & [H1 H2]%List.filter_In).
    apply in_seq in Hu. split; [lia|]. split; [exists tm; split; [by apply elem_of_list_In|done]|].
    intros s Hs. apply Hl, in_seq. lia.
  - intros (Hu & (tm & H1 & H2) & Hl). split.
    + exists u. split; [apply in_seq; lia|]. unfold starts. apply in_map_iff. exists (n, tm). split; [done|].
      apply List.filter_In. split; [by apply elem_of_list_In|done].
    + intros s Hs%in_seq. apply Hl. lia.
Qed.

(** ** Sessions

    Eight samples a second at 240 bpm: a cycle is a second, which is a block of the model. *)
From Verif Require Import Session.
Local Open Scope string_scope.

Definition kick : sampledata := Sample (fs [4]%Z) 1 8.
Definition kick_env : env sampledata := {| e_samples := {["\kick" := kick]}; e_sr := 8; e_bpm := f_of_Z 240; e_seed := 42 |}.
Definition kick_set : list (call glicol) := [CSample glicol "\kick" kick; CSr glicol 8; CBpm glicol (f_of_Z 240)].
Definition beats : list f32 := fs [4; 4; 0; 0; 4; 4; 0; 0]%Z.

(** The hypotheses of C38_psampler hold of a pattern of two events. *)
Example C38_psampler_case : let evs := [(EvSym "\kick", f0); (EvSym "\kick", fhalf)] in
  (exists nd out, created demo kick_env (CPSampler (PsPattern evs f1)) [] nd out) /\
  (forall n, n ∈ map (fun e => ev_name e.1) evs -> e_samples kick_env !! n = Some kick /\ playable kick /\ (0 <= sd_rate kick)%Z) /\
  period c64 8 (cycle_dur (f_of_Z 240)) f1 = 8%Z /\
  map fst (map (pplayed c64 (map (fun e => (ev_name e.1, e.2)) evs) (fun _ => kick) 8 (cycle_dur (f_of_Z 240)) f1 demo) (seq 0 16)) = (beats ++ beats)%list.
Proof.
  split_and!; [| |vm_compute; reflexivity|vm_compute; reflexivity].
  - destruct (demo_created demo kick_env (CPSampler (PsPattern [(EvSym "\kick", f0); (EvSym "\kick", fhalf)] f1)) [] (fun _ out => length out) 2)
      as (nd & out & H & _); [vm_compute; reflexivity|]. by exists nd, out.
  - intros n Hn. assert (n = "\kick") as -> by (cbn in Hn; set_solver). split_and!; [vm_compute; reflexivity| |done].
    split; [done|]. left. done.
Qed.

(** Two events in a cycle, in two cycles. *)
Example C38_case : sees (kick_set ++ [submit "o: psampler ""\kick@0.0 \kick@0.5""(1)"; play_block; play_block])%list =
  [Quiet; Quiet; Quiet; Quiet; Played [beats; beats]; Played [beats; beats]].
Proof. run_session. Qed.

(** An accepted event placed at the end of the pattern is never played, not even at the beginning
    of the next cycle. *)
Theorem C38_end_event_refuted : exists code, code = "o: psampler ""\kick@0.0 \kick@1.0""(1)" /\
  sees (kick_set ++ [submit code; play_block; play_block])%list =
    let b := fs [4; 4; 0; 0; 0; 0; 0; 0]%Z in [Quiet; Quiet; Quiet; Quiet; Played [b; b]; Played [b; b]].
Proof. eexists. split; [reflexivity|]. run_session. Qed.

(** A mono voice replaces the right channel of the stereo voices before it: here the right
    channel plays 5 where the two voices are at 2 and 4. *)
Theorem C38_mixed_channels_refuted : exists code, code = "o: psampler ""\wide@0.0 \kick@0.125""(1)" /\
  sees ([CSample glicol "\wide" (Sample (fs [1; 1; 2; 2]%Z) 2 8)] ++ kick_set ++ [submit code; play_block])%list =
    [Quiet; Quiet; Quiet; Quiet; Quiet; Played [fs [1; 5; 5; 0; 0; 0; 0; 0]%Z; fs [2; 5; 5; 0; 0; 0; 0; 0]%Z]].
Proof. eexists. split; [reflexivity|]. run_session. Qed.

(** A change of tempo does not reach a running pattern. *)
Theorem C38_tempo_refuted : exists code, code = "o: psampler ""\kick@0.0 \kick@0.5""(1)" /\
  sees (kick_set ++ [submit code; play_block; CBpm glicol (f_of_Z 120); play_block])%list =
    [Quiet; Quiet; Quiet; Quiet; Played [beats; beats]; Quiet; Played [beats; beats]] /\
  sees (kick_set ++ [CBpm glicol (f_of_Z 120); submit code; play_block])%list =
    let b := fs [4; 4; 0; 0; 0; 0; 0; 0]%Z in [Quiet; Quiet; Quiet; Quiet; Quiet; Played [b; b]].
Proof. eexists. split; [reflexivity|]. split; run_session. Qed.

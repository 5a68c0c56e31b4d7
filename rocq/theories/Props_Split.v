(** * Props_Split: the size of the blocks does not change the sound (C59). *)
From Verif Require Export SplitFx.
From Coq Require Import Lia.
Local Open Scope nat_scope.

(** ** Samplers, sequences, scripts *)
Lemma sampler_voices_blk P n s vs lr : sampler_voices (with_blk P n) s vs lr = sampler_voices P s vs lr.
Proof.
  revert lr. induction vs as [|v vs IH]; intros lr; [reflexivity|]. cbn [sampler_voices]. rewrite IH.
  change (sd_play (with_blk P n)) with (sd_play P). destruct (fleb _ _); [|reflexivity].
  cbv [mbind res_bind mret res_ret]. destruct (sd_play _ _ _ _ _); [|reflexivity]. by rewrite IH.
Qed.
Lemma sampler_splits P : splits (fun n => sampler_proc (with_blk P n)) 2 any_in (fun _ _ => 2).
Proof.
  assert (Hs : forall n s x, sampler_step (with_blk P n) s x = sampler_step P s x).
  { intros. unfold sampler_step. by rewrite sampler_voices_blk. }
  split.
  - intros n s a o _ Ho. outs2 o Ho. unfold core, sampler_proc. ins3; bnd; try done. destruct (chan _ 0); [|done]. by destruct (scanR _ _ _) as [[]|].
  - intros n s a s' w _ E. split; [|done]. revert E. unfold core, sampler_proc. ins3; bnd; try by intros [= <- <-].
    destruct (chan _ 0); [|done]. destruct (scanR _ _ _) as [[]|]; [|done]. by intros [= <- <-].
  - intros. lia.
  - sp_start. unfold sampler_proc, silent. cbn [p_blk with_blk]. destruct (pieces_two _ _ _ _ H) as [(-> & -> & ->)|[(i & x & y & -> & -> & -> & Hxy)|(p & q & r & p' & q' & r' & l & l' & l'' & -> & -> & -> & Hl & Hl')]].
    + bnd. cbn [take catc zip_with]. by rewrite replicate_add.
    + sp_chan Hxy 0; [by go|]. go. rewrite !(scanR_ext (sampler_step (with_blk P _)) (sampler_step P)) by done. rewrite scanR_app.
      destruct (scanR (sampler_step P) s u) as [[s1 o1]|]; [|done]. go.
      rewrite !(scanR_ext (sampler_step (with_blk P _)) (sampler_step P)) by done.
      destruct (scanR (sampler_step P) s1 v) as [[s2 o2]|]; [|done]. go. cbn [take catc zip_with]. by rewrite !fmap_app.
    + bnd. cbn [take catc zip_with]. by rewrite replicate_add.
Qed.
Definition no_in {T} (_ : T) (sh : list (nat * nat)) : bool := match sh with [] => true | _ => false end.
Lemma seq_splits P : splits (fun n => seq_proc (with_blk P n)) 2 no_in (fun _ _ => 1).
Proof.
  eapply splits_ext_in; [|apply (loop_splits (fun s => v ← seq_sample P (bar_length (sq_bpm s) (sq_sr s) (sq_speed s)) (fun _ => Ok f0) (sq_step s) (sq_events s);
               mret (seq_set s (sq_speed s) (sq_step s + 1), v))); lia|done].
  intros n s a o Ha Ho. destruct a; [|done]. unfold seq_proc, sample_loop. cbn [p_blk with_blk]. clear Ho.
  change (seq_sample (with_blk P n)) with (seq_sample P).
  match goal with |- match ?l with _ => _ end = match ?r with _ => _ end => assert (l = r) as ->; [|done] end.
  generalize (replicate n tt). intros xs.
  set (f := fun s (_ : unit) => _). set (g := fun s (_ : unit) => _).
  assert (H : forall s1, sq_bpm s1 = sq_bpm s -> sq_sr s1 = sq_sr s -> sq_speed s1 = sq_speed s -> scanR f s1 xs = scanR g s1 xs); [|by apply H].
  induction xs as [|x xs IH]; intros s1 E1 E2 E3; [done|]. cbn [scanR].
  assert (g s1 x = f s1 x) as -> by (unfold f, g; by rewrite E1, E2, E3).
  unfold f at 1 3. cbv [mbind res_bind mret res_ret]. destruct (seq_sample _ _ _ _ _); [|done]. by rewrite IH.
Qed.

(** Scripts: the state of the interpreter has a type of its own on every platform. *)
Definition eval_any (P : platform) (n : nat) (s : evaln P) (ins : inmap) (out : list sig) : res (evaln P * list sig) :=
  xs ← match ins with
       | [] => Ok (replicate n None)
       | _ => bs ← in_ord ins (ev_ord s) 0; b ← chan bs 0; mret (Some <$> b)
       end;
  match scanR (eval_step P) s xs with
  | Ok (s', b) => out' ← put0 out b; mret (s', out')
  | Panic => Panic
  end.
Definition eval_at (P : platform) (n : nat) (s : evaln P) : evaln (with_blk P n) :=
  @Evaln (with_blk P n) (ev_ext s) (ev_phase s) (ev_ord s).
Lemma eval_scan_at P n s xs : scanR (eval_step (with_blk P n)) (eval_at P n s) xs =
  match scanR (eval_step P) s xs with Ok (s', b) => Ok (eval_at P n s', b) | Panic => Panic end.
Proof.
  revert s. induction xs as [|x xs IH]; intros s; [done|]. cbn [scanR]. unfold eval_step at 1 3. cbn [eval_at ev_ext ev_phase ev_ord p_eval_step with_blk].
  destruct (p_eval_step P (ev_ext s) x (ev_phase s)) as [[e v]|]; [|done].
  pose proof (IH (Evaln e (ev_phase s + 1)%Z (ev_ord s))) as IH1. unfold eval_at in IH1 at 1. cbn [ev_ext ev_phase ev_ord] in IH1.
  rewrite IH1. by destruct (scanR (eval_step P) _ xs) as [[]|].
Qed.
Lemma eval_proc_at P n s i o : eval_proc (with_blk P n) (eval_at P n s) i o = wrap (eval_at P n) (eval_any P n s i o).
Proof.
  unfold eval_proc, eval_any. cbn [p_blk with_blk eval_at ev_ord]. cbv [mbind res_bind mret res_ret].
  destruct (match i with [] => _ | _ => _ end) as [xs|]; [|done].
  change (@Evaln (with_blk P n) (ev_ext s) (ev_phase s) (ev_ord s)) with (eval_at P n s). rewrite eval_scan_at.
  destruct (scanR (eval_step P) s xs) as [[s' b]|]; [|done]. cbn [wrap]. by destruct (put0 o b).
Qed.
Lemma eval_keep P s xs s' o : scanR (eval_step P) s xs = Ok (s', o) -> ev_ord s' = ev_ord s.
Proof.
  intros E. apply (scanR_inv (fun s' => ev_ord s' = ev_ord s)) in E; [done| |done].
  intros s0 x s1 y <-. unfold eval_step. destruct (p_eval_step _ _ _ _) as [[]|]; [|done]. by intros [= <- <-].
Qed.
Lemma eval_splits P : splits (eval_any P) 1 any_in (fun _ _ => 1).
Proof.
  split.
  - intros n s a o _ Ho. outs1 o Ho. unfold core, eval_any. bnd. destruct (match a with [] => _ | _ => _ end) as [xs|]; [|done].
    by destruct (scanR (eval_step P) s xs) as [[s' b]|].
  - intros n s a s' w _ E. split; [|done]. revert E. unfold core, eval_any. bnd. destruct (match a with [] => _ | _ => _ end) as [xs|]; [|done].
    destruct (scanR (eval_step P) s xs) as [[s1 b]|]; [|done]. by intros [= <- <-].
  - intros. lia.
  - sp_start. unfold eval_any. destruct a as [|p a].
    + apply pieces_nil in H as ->. cbn [cat zip_with]. go. rewrite replicate_add, scanR_app.
      destruct (scanR (eval_step P) s (replicate n None)) as [[s1 o1]|]; [|done]. go. by destruct (scanR (eval_step P) s1 _) as [[s2 o2]|].
    + sp_ord H (ev_ord s) 0.
      { apply pieces_cons in H as (x & y & i & -> & b' & -> & Hxy & H). cbn [cat zip_with fst snd] in *. by go. }
      sp_chan Hp 0.
      { apply pieces_cons in H as (x' & y' & i & -> & b' & -> & Hxy & H). cbn [cat zip_with fst snd] in *. by go. }
      apply pieces_cons in H as (x' & y' & i & -> & b' & -> & Hxy & H). cbn [cat zip_with fst snd] in *. go. rewrite fmap_app, scanR_app.
      destruct (scanR (eval_step P) s (Some <$> u)) as [[s1 o1]|] eqn:E1; [|done]. apply eval_keep in E1. go. rewrite E1. go.
      by destruct (scanR (eval_step P) s1 _) as [[s2 o2]|].
Qed.

(** ** Components *)
Section component.
  Context (P : platform) {T : Type} (inj : forall n, T -> snode (with_blk P n))
          (proc : nat -> T -> inmap -> list sig -> res (T * list sig)) (msgf : T -> msg -> res T) (k : nat)
          (okin : T -> list (nat * nat) -> bool) (wr : T -> list (nat * nat) -> nat).
  Hypothesis Hsp : splits proc k okin wr.
  Hypothesis Hinj : forall n s i o, sproc (with_blk P n) (inj n s) i o = wrap (inj n) (proc n s i o).
  Hypothesis Hmsg : forall n s m, smsg (with_blk P n) (inj n s) m = wrapm (inj n) (msgf s m).
  Lemma component_split ev c (mk : res T) refs w :
    (forall n, makenode_ (with_blk P n) ev c = boxed_res (with_blk P n) (wrapm (inj n) mk) k refs) ->
    (forall s, okin s (shape w) = true) ->
    forall ms N M q r nd out, 0 < N -> 0 < M -> 0 < q -> 0 < r -> N * q = M * r -> wide (N * q) w ->
    created (with_blk P N) ev c ms nd out ->
    exists nd' out', created (with_blk P M) ev c ms nd' out' /\
      heard (play (with_blk P N) nd out (cut N q w)) = heard (play (with_blk P M) nd' out' (cut M r w)).
  Proof.
    intros Hmk Hok ms N M q r nd out HN HM Hq Hr He Hw (n0 & refs' & E1 & E2). rewrite Hmk in E1. destruct mk as [s0|]; [|done].
    cbn [wrapm boxed_res] in E1. injection E1 as <- <- <-.
    assert (Hf : forall n s, foldM (gmsg (with_blk P n)) (Simple (inj n s)) ms = wrapm (fun s => Simple (inj n s)) (foldM msgf s ms)).
    { clear E2. intros n. induction ms as [|m ms IH]; intros s; [done|]. cbn [foldM gmsg]. rewrite Hmsg. destruct (msgf s m) as [s'|]; [|done]. apply IH. }
    rewrite Hf in E2. destruct (foldM msgf s0 ms) as [s|] eqn:Es; [|done]. cbn [wrapm] in E2. injection E2 as <-.
    exists (Simple (inj M s)), (chans_of (with_blk P M) k). split.
    { exists (Simple (inj M s0)), refs. split; [by rewrite Hmk|]. by rewrite Hf, Es. }
    apply (split_irrelevant P (fun n s => Simple (inj n s)) proc k okin wr); try done.
    intros n s1 i o. cbn [gproc]. rewrite Hinj. by destruct (proc n s1 i o) as [[]|].
  Qed.
End component.

(** Which components work sample by sample, with [inputs] wires coming in: all but [speed],
    [choose], [arrange], [meta], [psampler], the compounds, and, with a modulator, the filters
    and [seq]. *)
Definition streams (c : component) (inputs : nat) : bool :=
  match c with
  | CSin _ | CSaw _ | CSqu _ | CTri _ | CConstSig _ | CImp _ | CNoise _ | CAdd _ | CMul _ | CPan _ | CBalance _ _
  | CGet _ | CMix _ | CDelayn _ | CDelayms _ | CEnvPerc _ _ | CAdsr _ _ _ _ | CApfmsGain _ _ | COnepole _
  | CPoints _ _ _ | CMsgSynth _ _ _ | CPatternSynth _ _ | CSp _ | CEval _ => true
  | CLpf _ _ | CRhpf _ _ => negb (inputs =? 2)
  | CSeq _ => inputs =? 0
  | _ => false
  end.
Lemma one_in_len {T} (s : T) w : negb (length w =? 2) = true -> one_in s (shape w) = true.
Proof. unfold one_in, shape. by rewrite map_length. Qed.
Lemma no_in_len {T} (s : T) (w : inmap) : (length w =? 0) = true -> no_in s (shape w) = true.
Proof. by destruct w. Qed.

(** C59, for the components of [streams]. *)
Theorem C59_split_partial P ev c ms N M q r w nd out :
  streams c (length w) = true ->
  0 < N -> 0 < M -> 0 < q -> 0 < r -> N * q = M * r -> wide (N * q) w ->
  created (with_blk P N) ev c ms nd out ->
  exists nd' out', created (with_blk P M) ev c ms nd' out' /\
    heard (play (with_blk P N) nd out (cut N q w)) = heard (play (with_blk P M) nd' out' (cut M r w)).
Proof.
  intros Hs HN HM Hq Hr He Hw Hc. destruct c; try discriminate Hs.
  - (* points *)
    eapply (component_split P (fun n s => NPoints s) _ points_msg 1 _ _ (points_splits P)) with
      (mk := l ← make_points P (e_bpm ev) span (e_sr ev) pts; mret (Points l span (e_bpm ev) (e_sr ev) 0 loop [])); try eassumption; try done.
    all: (intros n; cbn [makenode_]; change (make_points (with_blk P n)) with (make_points P); cbv [mbind res_bind mret res_ret]; by destruct (make_points P _ _ _ _)).
  - eapply (component_split P (fun n s => NDelayN s) _ (delayn_msg P) 2 _ _ delayn_splits) with
      (mk := delayn_new (match p with Usz n => n | URef _ => 0 end)); try eassumption; try done.
    all: (intros n; cbn [makenode_]; cbv [mbind res_bind mret res_ret]; by destruct (delayn_new _)).
  - eapply (component_split P (fun n s => NDelayMs s) _ (delayms_msg P) 2 _ _ (delayms_splits P)) with
      (mk := delayms_new P (e_sr ev) (num_or (f_of_Z 2000) p) 2); try eassumption; try done.
    all: (intros n; cbn [makenode_]; change (delayms_new (with_blk P n)) with (delayms_new P); cbv [mbind res_bind mret res_ret]; by destruct (delayms_new _ _ _ _)).
  - eapply (component_split P (fun n s => NImp s) _ (imp_msg P) 1 _ _ (imp_splits P)) with
      (mk := Ok (imp_new P (e_sr ev) (num_or f0 p))); try eassumption; try done.
  - eapply (component_split P (fun n s => NOsc WTri s) _ osc_msg 1 _ _ (osc_splits P WTri)) with (mk := Ok (osc_new (num_or f0 p) (e_sr ev))); try eassumption; try done.
  - eapply (component_split P (fun n s => NOsc WSqu s) _ osc_msg 1 _ _ (osc_splits P WSqu)) with (mk := Ok (osc_new (num_or f0 p) (e_sr ev))); try eassumption; try done.
  - eapply (component_split P (fun n s => NOsc WSaw s) _ osc_msg 1 _ _ (osc_splits P WSaw)) with (mk := Ok (osc_new (num_or f0 p) (e_sr ev))); try eassumption; try done.
  - eapply (component_split P (fun n s => NOnePole s) _ (onepole_msg P) 1 _ _ (onepole_splits P)) with (mk := Ok (onepole_new P (num_or f0 p))); try eassumption; try done.
  - eapply (component_split P (fun n s => NOsc WSin s) _ osc_msg 1 _ _ (osc_splits P WSin)) with (mk := Ok (osc_new (num_or f0 p) (e_sr ev))); try eassumption; try done.
  - eapply (component_split P (fun n s => NMul s) _ op_msg 2 _ _ (op_splits fmul)) with (mk := Ok (Opn (num_or f0 p) [])); try eassumption; try done.
  - eapply (component_split P (fun n s => NAdd s) _ op_msg 2 _ _ (op_splits fadd)) with (mk := Ok (Opn (num_or f0 p) [])); try eassumption; try done.
  - eapply (component_split P (fun n s => NPan s) _ pan_msg 2 _ _ pan_splits) with (mk := Ok (Pan (num_or f0 p) [])); try eassumption; try done.
  - eapply (component_split P (fun n s => NSeq s) _ seq_msg 2 _ _ (seq_splits P)) with
      (mk := Ok (Seqr events (order_of (dedup_refs [] (component_refs (CSeq events)))) f1 (e_bpm ev) (e_sr ev) 0 [])); try eassumption; try done.
    intros s. by apply no_in_len.
  - eapply (component_split P (fun n s => NSum2) _ (fun s _ => Ok s) 2 _ _ (sum2_splits P)) with (mk := Ok tt); try eassumption; try done.
    intros n s i o. cbn [sproc]. by destruct (sum2_proc _ _ _).
  - destruct (e_samples ev !! sym) as [d|] eqn:Ed.
    2:{ destruct Hc as (n0 & rf & E & _). cbn [makenode_] in E. by rewrite Ed in E. }
    eapply (component_split P (fun n s => NSampler s) _ sampler_msg 2 _ _ (sampler_splits P)) with (mk := sampler_new P d (e_sr ev)); try eassumption; try done.
    all: (intros n; cbn [makenode_]; rewrite Ed; change (sampler_new (with_blk P n)) with (sampler_new P); cbv [mbind res_bind mret res_ret]; by destruct (sampler_new _ _ _)).
  - eapply (component_split P (fun n s => NConst s) _ csig_msg 1 _ _ (csig_splits P)) with (mk := Ok (CSig v [])); try eassumption; try done.
  - eapply (component_split P (fun n s => NMSynth s) _ (msynth_msg P) 1 _ _ (msynth_splits P)) with (mk := Ok (MSynth [] attack decay [] (e_sr ev) 0 [])); try eassumption; try done.
  - eapply (component_split P (fun n s => NPSynth s) _ psynth_msg 1 _ _ (psynth_splits P)) with
      (mk := evs ← ps_parse sym; mret (PSynth [] evs (e_sr ev) 0 [])); try eassumption; try done.
    all: (intros n; cbn [makenode_]; cbv [mbind res_bind mret res_ret]; by destruct (ps_parse sym)).
  - destruct sg as [v|sref|sev|evs span]; [..|].
    + eapply (component_split P (fun n s => NRlpf s) _ bq_msg 1 _ _ (rlpf_splits P)) with (mk := Ok (bq_new v q0 (e_sr ev) [] f1 (f_of_Z 120))); try eassumption; try done.
      intros s. by apply one_in_len.
    + eapply (component_split P (fun n s => NRlpf s) _ bq_msg 1 _ _ (rlpf_splits P)) with (mk := Ok (bq_new (f_of_Z 20) q0 (e_sr ev) [] f1 (f_of_Z 120))); try eassumption; try done.
      intros s. by apply one_in_len.
    + by destruct Hc as (n0 & rf & E & _).
    + eapply (component_split P (fun n s => NRlpf s) _ bq_msg 1 _ _ (rlpf_splits P)) with (mk := Ok (bq_new (f_of_Z 20) q0 (e_sr ev)
                 (map (fun e => (match e.1 with EvNum v => v | EvSym _ => f_of_Z 100 end, e.2)) evs) span (e_bpm ev))); try eassumption; try done.
      intros s. by apply one_in_len.
  - eapply (component_split P (fun n s => NBalance s) _ ord_msg 2 _ _ balance_splits) with (mk := Ok []); try eassumption; try done.
  - eapply (component_split P (fun n s => NRhpf s) _ bq_msg 1 _ _ (rhpf_splits P)) with (mk := Ok (bq_new (num_or (f_of_Z 100) p) q0 44100 [] f1 (f_of_Z 120))); try eassumption; try done.
    intros s. by apply one_in_len.
  - eapply (component_split P (fun n s => NApf s) _ (apf_msg P) 2 _ _ (apf_splits P)) with (mk := apf_new P (e_sr ev) (num_or f0 p) gain); try eassumption; try done.
    all: (intros n; cbn [makenode_]; change (apf_new (with_blk P n)) with (apf_new P); cbv [mbind res_bind mret res_ret]; by destruct (apf_new _ _ _ _)).
  - eapply (component_split P (fun n s => NEnvPerc s) _ envperc_msg 2 _ _ (envperc_splits P)) with (mk := Ok (envperc_new attack decay (e_sr ev))); try eassumption; try done.
  - eapply (component_split P (fun n s => NAdsr s) _ adsr_msg 2 _ _ (adsr_splits P)) with (mk := Ok (adsr_new attack decay sustain release (e_sr ev))); try eassumption; try done.
  - eapply (component_split P (fun n s => NPass) _ (fun s _ => Ok s) 2 _ _ pass_splits) with (mk := Ok tt); try eassumption; try done.
  - eapply (component_split P (fun n s => NNoise s) _ noise_msg 1 _ _ (noise_splits P)) with (mk := Ok (Noise seed 0 [])); try eassumption; try done.
  - eapply (component_split P (fun n s => NEval (eval_at P n s)) _ (eval_msg P) 1 _ _ (eval_splits P)) with
      (mk := x ← p_eval_code P (p_eval_new P (e_sr ev)) code; mret (Evaln x 0 [])); try eassumption; try done.
    + intros n s i o. cbn [sproc]. rewrite eval_proc_at. by destruct (eval_any P n s i o) as [[]|].
    + intros n s m. cbn [smsg]. unfold eval_msg. cbn [eval_at ev_ext ev_ord ev_phase p_eval_code with_blk]. cbv [mbind res_bind mret res_ret].
      destruct m as [i v|[|i|i] v| | | |]; try (by destruct (ord_msg _ _)); try (by destruct (p_eval_code _ _ _)).
    + intros n. cbn [makenode_ p_eval_code p_eval_new with_blk]. cbv [mbind res_bind mret res_ret]. by destruct (p_eval_code P _ _).
Qed.

(** ... on a delay line, cut in blocks of 2 and of 4 samples. *)
Example C59_split_case :
  let w : inmap := [(5, [fs [1;0;0;1;0;0;0;1;0;0;0;0]%Z])] in
  exists nd out nd' out',
    created (with_blk demo 2) demo_env (CDelayn (Usz 3)) [Index 5] nd out /\
    created (with_blk demo 4) demo_env (CDelayn (Usz 3)) [Index 5] nd' out' /\ wide (2 * 6) w /\
    heard (play (with_blk demo 2) nd out (cut 2 6 w)) = heard (play (with_blk demo 4) nd' out' (cut 4 3 w)) /\
    heard (play (with_blk demo 2) nd out (cut 2 6 w)) =
      Some (fs [0;0;0;1;0;0;1;0;0;0;1;0]%Z, fs [0;0;0;1;0;0;1;0;0;0;1;0]%Z).
Proof.
  set (w := _ : inmap).
  destruct (demo_created (with_blk demo 2) demo_env (CDelayn (Usz 3)) [Index 5] (fun nd out => heard (play (with_blk demo 2) nd out (cut 2 6 w)))
     (Some (fs [0;0;0;1;0;0;1;0;0;0;1;0]%Z, fs [0;0;0;1;0;0;1;0;0;0;1;0]%Z))) as (nd & out & Hc & Hh); [vm_compute; reflexivity|].
  assert (Hw : wide (2 * 6) w) by (vm_compute; repeat constructor).
  destruct (C59_split_partial demo demo_env (CDelayn (Usz 3)) [Index 5] 2 4 6 3 w nd out) as (nd' & out' & Hc' & He); [done|lia..|done|done|].
  exists nd, out, nd', out'. split; [exact Hc|]. split; [exact Hc'|]. split; [exact Hw|]. split; [exact He|exact Hh].
Qed.

(** ** Where it is false *)
Definition split_claim (c : component) : Prop :=
  forall P ev ms N M q r w nd out nd' out',
    0 < N -> 0 < M -> 0 < q -> 0 < r -> N * q = M * r -> wide (N * q) w ->
    created (with_blk P N) ev c ms nd out -> created (with_blk P M) ev c ms nd' out' ->
    heard (play (with_blk P N) nd out (cut N q w)) = heard (play (with_blk P M) nd' out' (cut M r w)).
Definition left_at (t : nat) (h : option (sig * sig)) : option f32 := match h with Some (l, _) => l !! t | None => None end.
Lemma split_differs ev c ms N M q r w t v1 v2 :
  0 < N -> 0 < M -> 0 < q -> 0 < r -> N * q = M * r -> wide (N * q) w ->
  demo_val (with_blk demo N) ev c ms (fun nd out => left_at t (heard (play (with_blk demo N) nd out (cut N q w)))) = Some v1 ->
  demo_val (with_blk demo M) ev c ms (fun nd out => left_at t (heard (play (with_blk demo M) nd out (cut M r w)))) = Some v2 ->
  v1 <> v2 -> ~ split_claim c.
Proof.
  intros HN HM Hq Hr He Hw H1 H2 Hv Hc.
  apply demo_created in H1 as (nd & out & C1 & <-). apply demo_created in H2 as (nd' & out' & C2 & <-). apply Hv.
  by rewrite (Hc demo ev ms N M q r w nd out nd' out').
Qed.
Definition steps12 : inmap :=
  [(5, [fs [1;0;0;1;0;0;0;1;0;0;0;0]%Z]); (6, [fs [100;200;300;4000;500;600;700;800;900;1000;1100;1200]%Z])].

(** [choose] draws once per block. *)
Theorem C59_choose_refuted : exists l, ~ split_claim (CChoose l).
Proof.
  exists (fs [60; 62; 64]%Z). eapply (split_differs demo_env _ [] 2 4 6 3 [] 2); [lia..|constructor|vm_compute; reflexivity|vm_compute; reflexivity|vm_compute; discriminate].
Qed.
(** [speed] sends its number at the start of every block. *)
Theorem C59_speed_refuted : exists v, ~ split_claim (CSpeed v).
Proof.
  exists f2. eapply (split_differs demo_env _ [] 2 4 6 3 [] 2); [lia..|constructor|vm_compute; reflexivity|vm_compute; reflexivity|vm_compute; discriminate].
Qed.
(** A modulated filter reads one sample of the modulator per block. *)
Theorem C59_lpf_refuted : exists s q, ~ split_claim (CLpf (SigRef s) q).
Proof.
  exists "~a"%string, f1. eapply (split_differs demo_env _ [Index 5; Index 6] 2 4 6 3 steps12 4);
    [lia..|repeat constructor|vm_compute; reflexivity|vm_compute; reflexivity|vm_compute; discriminate].
Qed.
Theorem C59_rhpf_refuted : exists s q, ~ split_claim (CRhpf (NRef s) q).
Proof.
  exists "~a"%string, f1. eapply (split_differs demo_env _ [Index 5; Index 6] 2 4 6 3 steps12 4);
    [lia..|repeat constructor|vm_compute; reflexivity|vm_compute; reflexivity|vm_compute; discriminate].
Qed.
(** A sequence takes its speed from the first two samples of a block of its first input. *)
Theorem C59_seq_refuted : exists evs, ~ split_claim (CSeq evs).
Proof.
  exists [(f0, Usz 60)]. eapply (split_differs {| e_samples := ∅; e_sr := 8; e_bpm := f_of_Z 240; e_seed := 42 |} _ [Index 5] 2 8 4 1 [(5, [fs [0;0;2;0;0;0;0;0]%Z])] 4);
    [lia..|vm_compute; repeat constructor|vm_compute; reflexivity|vm_compute; reflexivity|vm_compute; discriminate].
Qed.

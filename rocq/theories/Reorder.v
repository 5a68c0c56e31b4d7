(** * Reorder: nodes that differ only in their lists of inputs.

    Every node but pass and the sums keeps the list of its inputs ([input_order] in the source,
    the [_ord] fields of the model).  A node that has at most one input plays the same whatever
    that list says after its head. *)
From Verif Require Import InputProofs.
From Coq Require Import Lia.
Local Open Scope nat_scope.

Definition snode_order {P} (n : snode P) : list nat :=
  match n with
  | NPass | NSum | NSum2 => []
  | NAdd s | NMul s => op_ord s
  | NOsc _ s => os_ord s
  | NConst s => cs_ord s
  | NImp s => im_ord s
  | NNoise s => no_ord s
  | NBalance o => o
  | NPan s => pn_ord s
  | NSpeed s => sp_ord s
  | NEval s | NMeta s => ev_ord s
  | NSeq s => sq_ord s
  | NChoose s => no_ord (ch_noise s)
  | NArrange s => ar_ord s
  | NPoints s => po_ord s
  | NPSynth s => ps_ord s
  | NMSynth s => ms_ord s
  | NSampler s => sa_ord s
  | NPSampler s => pa_ord s
  | NDelayN s => dn_ord s
  | NDelayMs s => dm_ord s
  | NEnvPerc s => ep_ord s
  | NAdsr s => ad_ord s
  | NApf s => ap_ord s
  | NOnePole s => on_ord s
  | NRlpf s | NRhpf s => bq_ord s
  end.
Definition re_op o s := Opn (op_val s) o.
Definition re_osc o s := Osc (os_freq s) (os_phase s) (os_sr s) (os_inc s) o.
Definition re_noise o s := Noise (no_seed s) (no_count s) o.
Definition re_imp o s := Imp (im_clock s) (im_period s) (im_sr s) o.
Definition re_eval {P} o (s : evaln P) := Evaln (ev_ext s) (ev_phase s) o.
Definition re_seq o s := Seqr (sq_events s) (sq_order s) (sq_speed s) (sq_bpm s) (sq_sr s) (sq_step s) o.
Definition re_arrange o s := Arrange (ar_events s) (ar_bpm s) (ar_sr s) (ar_step s) o.
Definition re_points o s := Points (po_list s) (po_span s) (po_bpm s) (po_sr s) (po_step s) (po_loop s) o.
Definition re_psynth o s := PSynth (ps_voices s) (ps_events s) (ps_sr s) (ps_step s) o.
Definition re_msynth o s := MSynth (ms_voices s) (ms_att s) (ms_dec s) (ms_events s) (ms_sr s) (ms_step s) o.
Definition re_sampler o s := Sampler (sa_play s) (sa_data s) (sa_len s) (sa_clock s) (sa_sr s) o.
Definition re_psampler o s := PSampler (pa_play s) (pa_dict s) (pa_pattern s) (pa_step s) (pa_span s) (pa_cycle s) (pa_sr s) o.
Definition re_delayn o s := DelayN (dn_buf s) (dn_n s) o.
Definition re_delayms o s := DelayMs (dm_bufs s) (dm_sr s) o (dm_n s).
Definition re_envperc o s := EnvPerc (ep_att s) (ep_dec s) (ep_pos s) (ep_scale s) (ep_sr s) o.
Definition re_adsr o s := Adsr (ad_att s) (ad_dec s) (ad_sus s) (ad_rel s) (ad_pos s) (ad_lastx s) (ad_lasty s) (ad_change s) (ad_sr s) (ad_phase s) o.
Definition re_apf o s := Apf (ap_gain s) (ap_x s) (ap_y s) (ap_sr s) o.
Definition re_onepole o s := OnePole (on_a s) (on_b s) (on_y1 s) o.
Definition re_bq o s := Biquad (bq_cutoff s) (bq_q s) (bq_x1 s) (bq_x2 s) (bq_y1 s) (bq_y2 s) (bq_sr s) (bq_pattern s) (bq_span s) (bq_bpm s) (bq_step s) o.
Definition sreord {P} (o : list nat) (n : snode P) : snode P :=
  match n with
  | NPass => NPass | NSum => NSum | NSum2 => NSum2
  | NAdd s => NAdd (re_op o s)
  | NMul s => NMul (re_op o s)
  | NOsc w s => NOsc w (re_osc o s)
  | NConst s => NConst (CSig (cs_val s) o)
  | NImp s => NImp (re_imp o s)
  | NNoise s => NNoise (re_noise o s)
  | NBalance _ => NBalance o
  | NPan s => NPan (Pan (pn_pos s) o)
  | NSpeed s => NSpeed (Spd (sp_val s) o)
  | NEval s => NEval (re_eval o s)
  | NMeta s => NMeta (re_eval o s)
  | NSeq s => NSeq (re_seq o s)
  | NChoose s => NChoose (Choose (re_noise o (ch_noise s)) (ch_list s))
  | NArrange s => NArrange (re_arrange o s)
  | NPoints s => NPoints (re_points o s)
  | NPSynth s => NPSynth (re_psynth o s)
  | NMSynth s => NMSynth (re_msynth o s)
  | NSampler s => NSampler (re_sampler o s)
  | NPSampler s => NPSampler (re_psampler o s)
  | NDelayN s => NDelayN (re_delayn o s)
  | NDelayMs s => NDelayMs (re_delayms o s)
  | NEnvPerc s => NEnvPerc (re_envperc o s)
  | NAdsr s => NAdsr (re_adsr o s)
  | NApf s => NApf (re_apf o s)
  | NOnePole s => NOnePole (re_onepole o s)
  | NRlpf s => NRlpf (re_bq o s)
  | NRhpf s => NRhpf (re_bq o s)
  end.
Definition node_order {P} (n : gnode P) : list nat :=
  match n with Simple s => snode_order s | Comp c => cp_ord _ c end.
Definition re_comp {P} o (c : compound P) : compound P := Compound _ (cp_graph _ c) o (cp_kind _ c).
Definition reord {P} (o : list nat) (n : gnode P) : gnode P :=
  match n with Simple s => Simple (sreord o s) | Comp c => Comp (re_comp o c) end.
Definition has_order {P} (n : gnode P) : bool :=
  match n with Simple NPass | Simple NSum | Simple NSum2 => false | _ => true end.

Lemma reord_same {P} (n : gnode P) : reord (node_order n) n = n.
Proof. destruct n as [n|c]; [|by destruct c]. destruct n; cbn; try reflexivity; try (by destruct s). destruct s as [[]]; reflexivity. Qed.
Lemma reord_reord {P} o o' (n : gnode P) : reord o (reord o' n) = reord o n.
Proof. destruct n as [n|c]; [|done]. by destruct n. Qed.
Lemma reord_order {P} o (n : gnode P) : has_order n = true -> node_order (reord o n) = o.
Proof. destruct n as [n|c]; [|done]. by destruct n. Qed.
Lemma reord_has {P} o (n : gnode P) : has_order (reord o n) = has_order n.
Proof. destruct n as [n|c]; [|done]. by destruct n. Qed.

(** ** Wiring messages change nothing else *)
Lemma conn_reord P (n n' : gnode P) m : conn_msg m -> gmsg P n m = Ok n' -> n' = reord (node_order n') n.
Proof.
  intros Hc. destruct n as [n|c]; cbn [gmsg]; unfold wrapm at 1.
  - destruct (smsg P n m) as [n1|] eqn:E; [|done]. intros [= <-]. cbn [reord node_order]. f_equal.
    destruct n; cbn [smsg] in E; unfold wrapm in E; try (by injection E as <-);
      match type of E with context [match ?x with Ok _ => _ | Panic => _ end] => destruct x as [s2|] eqn:E2; [|done] end;
      injection E as <-; cbn [sreord snode_order]; f_equal; destruct m; try done;
      unfold op_msg, osc_msg, csig_msg, imp_msg, noise_msg, pan_msg, spd_msg, eval_msg, meta_msg, seq_msg, choose_msg, arrange_msg, points_msg, psynth_msg, msynth_msg, sampler_msg, psampler_msg, delayn_msg, delayms_msg, envperc_msg, adsr_msg, apf_msg, onepole_msg, bq_msg in E2;
      revert E2; rs; try (match goal with |- context [match ?x with Ok _ => _ | Panic => _ end] => destruct x as [?|]; [|done] end); intros E2; injection E2 as <-; reflexivity.
  - destruct (compound_msg P c m) as [c1|] eqn:E; [|done]. intros [= <-]. cbn [reord node_order]. f_equal. revert E. unfold compound_msg.
    destruct (cp_kind P c) eqn:Ek, m; try done; rs; match goal with |- context [match ?x with Ok _ => _ | Panic => _ end] => destruct x as [?|]; [|done] end; intros [= <-]; unfold re_comp; cbn; by rewrite Ek.
Qed.
Lemma conns_reord P ms (n n' : gnode P) : Forall conn_msg ms -> foldM (gmsg P) n ms = Ok n' -> n' = reord (node_order n') n.
Proof.
  revert n. induction ms as [|m ms IH]; intros n Hc; cbn [foldM].
  - intros [= <-]. by rewrite reord_same.
  - inversion Hc; subst. destruct (gmsg P n m) as [n1|] eqn:E; [|done]. intros H. apply IH in H; [|done]. apply conn_reord in E; [|done].
    rewrite E in H. by rewrite reord_reord in H.
Qed.
(** A new first input. *)
Lemma first_order P (n n' : gnode P) x : has_order n = true -> gmsg P n (IndexOrder 0 x) = Ok n' -> node_order n' = x :: node_order n.
Proof.
  intros Ho. destruct n as [n|c]; cbn [gmsg]; unfold wrapm at 1.
  - destruct (smsg P n _) as [n1|] eqn:E; [|done]. intros [= <-]. cbn [node_order].
    destruct n; try discriminate Ho; cbn [smsg] in E; unfold wrapm in E;
      match type of E with context [match ?x with Ok _ => _ | Panic => _ end] => destruct x as [s2|] eqn:E2; [|done] end;
      injection E as <-; cbn [snode_order];
      unfold op_msg, osc_msg, csig_msg, imp_msg, noise_msg, pan_msg, spd_msg, eval_msg, meta_msg, seq_msg, choose_msg, arrange_msg, points_msg, psynth_msg, msynth_msg, sampler_msg, psampler_msg, delayn_msg, delayms_msg, envperc_msg, adsr_msg, apf_msg, onepole_msg, bq_msg in E2;
      cbn [ord_msg ord_msg_keep vec_insert] in E2; revert E2; rs; intros E2; injection E2 as <-; reflexivity.
  - destruct (compound_msg P c _) as [c1|] eqn:E; [|done]. intros [= <-]. cbn [node_order]. revert E. unfold compound_msg.
    destruct (cp_kind P c) eqn:Ek; cbn; intros [= <-]; reflexivity.
Qed.

(** ** Playing *)
Lemma wrap_wrap {A B C} (f : B -> C) (g : A -> B) r : wrap f (wrap g r) = wrap (fun x => f (g x)) r.
Proof. by destruct r as [[]|]. Qed.
Section re.
  Context {S A B : Type} (r : S -> S).
  Lemma scan_re (f : S -> A -> S * B) s l : (forall s a, f (r s) a = (r (f s a).1, (f s a).2)) ->
    scan f (r s) l = (r (scan f s l).1, (scan f s l).2).
  Proof.
    intros Hf. revert s. induction l as [|a l IH]; intros s; [done|]. cbn [scan]. rewrite Hf. destruct (f s a) as [s1 b]. cbn [fst snd]. rewrite IH.
    by destruct (scan f s1 l).
  Qed.
  Definition rmap (x : res (S * B)) : res (S * B) := match x with Ok (s, b) => Ok (r s, b) | Panic => Panic end.
End re.
Lemma scanR_re {S A B} (r : S -> S) (f : S -> A -> res (S * B)) s l : (forall s a, f (r s) a = rmap r (f s a)) ->
  scanR f (r s) l = rmap r (scanR f s l).
Proof.
  intros Hf. revert s. induction l as [|a l IH]; intros s; [done|]. cbn [scanR]. rewrite Hf. destruct (f s a) as [[s1 b]|]; [|done]. cbn [rmap]. rewrite IH.
  by destruct (scanR f s1 l) as [[]|].
Qed.
Lemma in_ord_nil o k : in_ord [] o k = Panic.
Proof. unfold in_ord. by destruct (o !! k). Qed.
Lemma in_ord_head ins o o' : o !! 0 = o' !! 0 -> in_ord ins o 0 = in_ord ins o' 0.
Proof. unfold in_ord. by intros ->. Qed.

(** [o] may stand for [o'] when there is at most one input. *)
Definition stands (ins : inmap) (o o' : list nat) : Prop := ins = [] \/ (length ins = 1 /\ o !! 0 = o' !! 0).

Ltac one H := destruct H as [->|[?Hl ?Ho]]; [|match goal with ins : inmap |- _ => destruct ins as [|?p [|]]; try discriminate Hl; clear Hl end].
Ltac few H := match goal with ins : inmap |- _ => destruct ins as [|?p [|]]; [clear H|clear H|exfalso; cbn in H; lia] end.
Ltac head Ho := repeat first [rewrite !in_ord_nil | rewrite (in_ord_head _ _ _ Ho)].
Ltac alt := repeat (cbn [wrap fst snd]; rs; first [reflexivity | match goal with |- context [match ?x with Ok _ => _ | Panic => _ end] => let E := fresh "E" in destruct x eqn:E end]).
Ltac pairs := repeat match goal with |- context [let '(_, _) := ?x in _] => is_var x; destruct x end.
Lemma op_re op o s ins out : length ins <= 1 -> op_proc op (re_op o s) ins out = wrap (re_op o) (op_proc op s ins out).
Proof. intros H. unfold op_proc, apply_op. few H; destruct out; try done. cbn [re_op op_val]. alt. Qed.
Lemma osc_re P w o s ins out : stands ins o (os_ord s) -> osc_proc P w (re_osc o s) ins out = wrap (re_osc o) (osc_proc P w s ins out).
Proof.
  intros H. unfold osc_proc. one H.
  - rewrite (scan_re (re_osc o)) by done. destruct (scan _ _ _) as [s1 b]. cbn [fst snd]. alt.
  - assert (E : match os_ord (re_osc o s) with [] => Ok p.2 | _ => in_ord [p] (os_ord (re_osc o s)) 0 end = match os_ord s with [] => Ok p.2 | _ => in_ord [p] (os_ord s) 0 end).
    { cbn [re_osc os_ord]. destruct o, (os_ord s); try done. by apply in_ord_head. }
    rewrite E. destruct (match os_ord s with [] => _ | _ => _ end) as [mb|]; rs; [|done]. destruct (chan mb 0) as [m0|]; rs; [|done].
    rewrite (scan_re (re_osc o)) by (by destruct w). destruct (scan _ _ _) as [s1 b]. cbn [fst snd]. alt.
Qed.
Lemma imp_re P o s ins out : imp_proc P (re_imp o s) ins out = wrap (re_imp o) (imp_proc P s ins out).
Proof.
  unfold imp_proc. rewrite (scanR_re (re_imp o)).
  - destruct (scanR _ _ _) as [[s1 b]|]; cbn [rmap]; alt.
  - intros s1 []. unfold imp_step. cbn [re_imp im_clock im_period im_sr im_ord]. unfold rmap. alt.
Qed.
Lemma noise_re P o s ins out : noise_proc P (re_noise o s) ins out = wrap (re_noise o) (noise_proc P s ins out).
Proof.
  unfold noise_proc. rewrite (scan_re (re_noise o)); [by destruct (scan _ _ _)|]. intros s1 _. by apply scan_re.
Qed.
Lemma pan_re o s ins out : length ins <= 1 -> pan_proc (Pan (pn_pos s) o) ins out = wrap (fun s => Pan (pn_pos s) o) (pan_proc s ins out).
Proof. intros H. unfold pan_proc. few H; cbn [pn_pos pn_ord]; [by rewrite !in_ord_nil|]. alt. Qed.
Lemma spd_re P o s ins out : spd_proc P (Spd (sp_val s) o) ins out = wrap (fun s => Spd (sp_val s) o) (spd_proc P s ins out).
Proof. unfold spd_proc. cbn [sp_val]. destruct (silent P); alt. Qed.
Lemma csig_re P o s ins out : csig_proc P (CSig (cs_val s) o) ins out = wrap (fun s => CSig (cs_val s) o) (csig_proc P s ins out).
Proof. unfold csig_proc. cbn [cs_val]. alt. Qed.
Lemma eval_re P o (s : evaln P) ins out : stands ins o (ev_ord s) -> eval_proc P (re_eval o s) ins out = wrap (re_eval o) (eval_proc P s ins out).
Proof.
  intros H. unfold eval_proc.
  assert (E : forall xs, scanR (eval_step P) (re_eval o s) xs = rmap (re_eval o) (scanR (eval_step P) s xs)).
  { intros xs. apply scanR_re. intros s1 a. unfold eval_step. cbn [re_eval ev_ext ev_phase ev_ord]. by destruct (p_eval_step _ _ _ _) as [[]|]. }
  one H; cbn [re_eval ev_ord]; [|head Ho]; cbn; rs.
  - unfold re_eval in E. rewrite E. destruct (scanR _ _ _) as [[s1 b]|]; cbn [rmap]; alt.
  - destruct (in_ord _ _ _); rs; [|done]. destruct (chan _ _); rs; [|done]. unfold re_eval in E. rewrite E. destruct (scanR _ _ _) as [[s1 b]|]; cbn [rmap]; alt.
Qed.
Lemma meta_re P o (s : evaln P) ins out : stands ins o (ev_ord s) -> meta_proc P (re_eval o s) ins out = wrap (re_eval o) (meta_proc P s ins out).
Proof.
  intros H. unfold meta_proc.
  one H; cbn [re_eval ev_ord ev_ext ev_phase]; [|head Ho]; cbn; rs.
  - destruct (p_meta_run _ _ _) as [e [r|]]; alt.
  - destruct (in_ord _ _ _); rs; [|done]. destruct (chan _ _); rs; [|done]. destruct (p_meta_run _ _ _) as [e' [r|]]; alt.
Qed.
Lemma sample_look P bar f g step evs : (forall n, f n = g n) -> seq_sample P bar f step evs = seq_sample P bar g step evs.
Proof.
  intros H. unfold seq_sample. generalize f0 as acc. induction evs as [|ev evs IH]; intros acc; [done|]. cbn [foldM].
  destruct ev as [t [n|n]]; cbn [fst snd]; [|rewrite H]; by destruct (_ ≫= _).
Qed.
Lemma seq_scan_re P o p has bar l s : sq_order s = ∅ ->
  scanR (fun st idx => match seq_sample P bar (seq_look st [p] has idx) (sq_step st) (sq_events st) with Ok v => Ok (seq_set st (sq_speed st) (sq_step st + 1)%Z, v) | Panic => Panic end) (re_seq o s) l
  = rmap (re_seq o) (scanR (fun st idx => match seq_sample P bar (seq_look st [p] has idx) (sq_step st) (sq_events st) with Ok v => Ok (seq_set st (sq_speed st) (sq_step st + 1)%Z, v) | Panic => Panic end) s l).
Proof.
  revert s. induction l as [|a l IH]; intros s He; [done|]. cbn [scanR]. change (sq_step (re_seq o s)) with (sq_step s). change (sq_events (re_seq o s)) with (sq_events s).
  rewrite (sample_look _ _ _ (seq_look s [p] has a)) by (intros n; unfold seq_look; cbn [re_seq sq_order]; by rewrite He).
  destruct (seq_sample _ _ _ _ _) as [x|]; [|done].
  change (seq_set (re_seq o s) _ _) with (re_seq o (seq_set s (sq_speed s) (sq_step s + 1)%Z)).
  rewrite IH by done. by destruct (scanR _ _ l) as [[]|].
Qed.
Lemma seq_re P o s ins out : stands ins o (sq_ord s) -> sq_order s = ∅ -> seq_proc P (re_seq o s) ins out = wrap (re_seq o) (seq_proc P s ins out).
Proof.
  intros H He. unfold seq_proc. one H.
  - rewrite (scanR_re (re_seq o)).
    + cbn [re_seq sq_bpm sq_sr sq_speed]. destruct (scanR _ _ _) as [[s1 b]|]; cbn [rmap]; alt.
    + intros s1 []. cbn [re_seq sq_step sq_events sq_bpm sq_sr sq_speed]. unfold rmap. alt.
  - cbn [re_seq sq_ord]. head Ho. destruct (in_ord _ _ _) as [pb|]; rs; [|done]. destruct (chan _ _) as [p0|]; rs; [|done]. destruct (unwrap _) as [v0|]; rs; [|done].
    match goal with |- context [match ?x with Ok _ => _ | Panic => _ end] => destruct x as [has|] end; [|done].
    set (v := if has then v0 else sq_speed s). set (s1 := seq_set s v (sq_step s)).
    change (seq_set (re_seq o s) _ _) with (re_seq o s1).
    rewrite seq_scan_re by done. change (bar_length (sq_bpm (re_seq o s1)) (sq_sr (re_seq o s1)) (sq_speed (re_seq o s1))) with (bar_length (sq_bpm s1) (sq_sr s1) (sq_speed s1)).
    destruct (scanR _ _ _) as [[s2 b]|]; cbn [rmap]; alt.
Qed.
Lemma choose_re P o s ins out : choose_proc P (Choose (re_noise o (ch_noise s)) (ch_list s)) ins out = wrap (fun s => Choose (re_noise o (ch_noise s)) (ch_list s)) (choose_proc P s ins out).
Proof. unfold choose_proc, noise_next. cbn. alt. Qed.
Lemma points_re P o s ins out : points_proc P (re_points o s) ins out = wrap (re_points o) (points_proc P s ins out).
Proof.
  unfold points_proc. change (po_list (re_points o s)) with (po_list s). destruct (po_list s); [done|]. rewrite (scanR_re (re_points o)).
  - destruct (scanR _ _ _) as [[s1 b]|]; cbn [rmap]; alt.
  - intros s1 []. unfold points_step. cbn [re_points po_list po_span po_bpm po_sr po_step po_loop]. unfold rmap. destruct (po_loop s1); alt.
Qed.
Lemma psynth_re P o s ins out : psynth_proc P (re_psynth o s) ins out = wrap (re_psynth o) (psynth_proc P s ins out).
Proof.
  unfold psynth_proc. destruct ins; [|done]. rewrite (scanR_re (re_psynth o)).
  - destruct (scanR _ _ _) as [[s1 b]|]; cbn [rmap]; alt.
  - intros s1 []. unfold psynth_step. cbn [re_psynth ps_events ps_voices ps_sr ps_step]. change (ps_par (re_psynth o s1)) with (ps_par s1). change (ps_bar P (re_psynth o s1)) with (ps_bar P s1).
    unfold rmap. rs. change (fun vs ev => match umod (ps_step s1) (ps_bar P s1) with Ok a => Ok (if (a =? ps_time P (re_psynth o s1) ev.1)%Z then _ else _) | Panic => Panic end) with
     (fun vs ev => match umod (ps_step s1) (ps_bar P s1) with Ok a => Ok (if (a =? ps_time P s1 ev.1)%Z then vs ++ [Voice (ps_step s1) (midi_freq P ev.2) f0] else vs) | Panic => Panic end).
    destruct (foldM _ _ _); [|done]. by destruct (play_voices _ _ _ _ _ _).
Qed.
Lemma msynth_re P o s ins out : msynth_proc P (re_msynth o s) ins out = wrap (re_msynth o) (msynth_proc P s ins out).
Proof.
  unfold msynth_proc. rewrite (scan_re (re_msynth o)).
  - destruct (scan _ _ _) as [s1 b]. cbn [fst snd]. alt.
  - intros s1 []. unfold msynth_step. cbn [re_msynth ms_events ms_voices ms_sr ms_step ms_att]. change (ms_par (re_msynth o s1)) with (ms_par s1). by destruct (play_voices _ _ _ _ _ _).
Qed.
Lemma sampler_voices_re P o s vs lr : sampler_voices P (re_sampler o s) vs lr = sampler_voices P s vs lr.
Proof. revert lr. induction vs as [|v vs IH]; intros lr; [done|]. cbn [sampler_voices re_sampler sa_clock sa_data sa_len]. destruct (fleb _ _); [|apply IH]. destruct (sd_play _ _ _ _ _); rs; [|done]. unfold re_sampler in IH. by rewrite IH. Qed.
Lemma sampler_re P o s ins out : sampler_proc P (re_sampler o s) ins out = wrap (re_sampler o) (sampler_proc P s ins out).
Proof.
  unfold sampler_proc. destruct ins as [|p [|]]; [alt| |alt]. destruct (chan _ _) as [m0|]; rs; [|done]. rewrite (scanR_re (re_sampler o)).
  - destruct (scanR _ _ _) as [[s1 b]|]; cbn [rmap]; alt.
  - intros s1 x. unfold sampler_step. rewrite sampler_voices_re. cbn [re_sampler sa_play sa_clock sa_len sa_data sa_sr]. unfold rmap. alt.
Qed.
Lemma psampler_voices_re P o s vs lr : psampler_voices P (re_psampler o s) vs lr = psampler_voices P s vs lr.
Proof.
  revert lr. induction vs as [|v vs IH]; intros lr; [done|]. cbn [psampler_voices re_psampler pa_step pa_dict]. destruct (fleb _ _); [|apply IH].
  destruct (unwrap _); rs; [|done]. destruct (sd_play _ _ _ _ _) as [[lr'|]|]; rs; [|done|done]. unfold re_psampler in IH. by rewrite IH.
Qed.
Lemma psampler_re P o s ins out : psampler_proc P (re_psampler o s) ins out = wrap (re_psampler o) (psampler_proc P s ins out).
Proof.
  unfold psampler_proc. change (re_psampler o s, false) with ((fun st : psampler * bool => (re_psampler o st.1, st.2)) (s, false)).
  rewrite scanR_re.
  - destruct (scanR _ _ _) as [[s1 b]|]; cbn [rmap]; alt.
  - intros [s1 st] []. unfold psampler_step. cbn [fst snd]. destruct st; [done|]. change (psampler_start P (re_psampler o s1)) with (psampler_start P s1).
    destruct (psampler_start P s1) as [vs|]; rs; [|done]. rewrite psampler_voices_re. destruct (psampler_voices _ _ _ _) as [[[l|] lr]|]; done.
Qed.
Lemma delayn_re o s ins out : delayn_proc (re_delayn o s) ins out = wrap (re_delayn o) (delayn_proc s ins out).
Proof.
  unfold delayn_proc. destruct ins as [|p [|]]; [done| |done]. cbn [re_delayn dn_n dn_buf dn_ord]. destruct (dn_n s =? 0)%Z; [done|].
  destruct (chan _ _); rs; [|done]. destruct (scan _ _ _). alt.
Qed.
Lemma delayms_re P o s ins out : length ins <= 1 -> delayms_proc P (re_delayms o s) ins out = wrap (re_delayms o) (delayms_proc P s ins out).
Proof.
  intros Hl. unfold delayms_proc. destruct (in_first ins) as [m|]; rs; [|done]. destruct (negb _); [done|].
  destruct ins as [|p [|]]; [done| |cbn in Hl; lia]. cbn [re_delayms dm_n dm_bufs dm_ord dm_sr]. destruct (dm_n s =? 0)%Z; alt.
Qed.
Lemma envperc_re P o s ins out : stands ins o (ep_ord s) -> envperc_proc P (re_envperc o s) ins out = wrap (re_envperc o) (envperc_proc P s ins out).
Proof.
  intros H. unfold envperc_proc. one H; [done|]. cbn [re_envperc ep_ord ep_sr ep_att ep_dec]. destruct (uadd _ _ _); rs; [|done]. head Ho.
  destruct (in_ord _ _ _); rs; [|done]. destruct (chan _ _); rs; [|done].
  rewrite (scan_re (re_envperc o)) by done. destruct (scan _ _ _) as [s1 b]. cbn [fst snd]. alt.
Qed.
Lemma adsr_re P o s ins out : stands ins o (ad_ord s) -> adsr_proc P (re_adsr o s) ins out = wrap (re_adsr o) (adsr_proc P s ins out).
Proof.
  intros H. unfold adsr_proc. one H; [done|]. cbn [re_adsr ad_ord ad_sr ad_att ad_dec ad_rel]. head Ho.
  destruct (in_ord _ _ _); rs; [|done]. destruct (chan _ _); rs; [|done].
  rewrite (scanR_re (re_adsr o)).
  - destruct (scanR _ _ _) as [[s1 b]|]; cbn [rmap]; alt.
  - intros s1 x. unfold adsr_step. cbn [re_adsr ad_sus ad_pos ad_lastx ad_lasty ad_change ad_phase]. unfold rmap. alt.
Qed.
Lemma apf_re P o s ins out : stands ins o (ap_ord s) -> apf_proc P (re_apf o s) ins out = wrap (re_apf o) (apf_proc P s ins out).
Proof.
  intros H. unfold apf_proc. one H; [done|]. cbn [re_apf ap_ord]. head Ho.
  destruct (in_ord _ _ _); rs; [|done]. destruct (chan _ _); rs; [|done].
  rewrite (scan_re (re_apf o)) by done. destruct (scan _ _ _) as [s1 b]. cbn [fst snd]. alt.
Qed.
Lemma onepole_re P o s ins out : length ins <= 1 -> onepole_proc P (re_onepole o s) ins out = wrap (re_onepole o) (onepole_proc P s ins out).
Proof.
  intros H. unfold onepole_proc. few H; [done|]. destruct (chan _ _); rs; [|done].
  rewrite (scan_re (re_onepole o)) by done. destruct (scan _ _ _) as [s1 b]. cbn [fst snd]. alt.
Qed.
Lemma bq_step_re k c o s x : bq_step_with k c (re_bq o s) x = (re_bq o (bq_step_with k c s x).1, (bq_step_with k c s x).2).
Proof. unfold bq_step_with. change (bq_val k (re_bq o s)) with (bq_val k s). generalize (bq_val k s). intros y. reflexivity. Qed.
Lemma rlpf_re P o s ins out : length ins <= 1 -> rlpf_proc P (re_bq o s) ins out = wrap (re_bq o) (rlpf_proc P s ins out).
Proof.
  intros H. unfold rlpf_proc. few H; [done|]. destruct (chan _ _); rs; [|done]. rewrite (scanR_re (re_bq o)).
  - destruct (scanR _ _ _) as [[s1 b]|]; cbn [rmap]; alt.
  - intros s1 x. unfold lpf_step. change (bq_cut P (re_bq o s1)) with (bq_cut P s1). destruct (bq_cut P s1) as [cut|]; [|reflexivity].
    change (bq_q (re_bq o s1)) with (bq_q s1). change (bq_sr (re_bq o s1)) with (bq_sr s1). generalize (lpf_coefs P (bq_q s1) (theta cut (bq_sr s1))). intros k.
    rs. rewrite bq_step_re. generalize (bq_step_with k cut s1 x). intros [s2 y]. reflexivity.
Qed.
Lemma rhpf_re P o s ins out : length ins <= 1 -> rhpf_proc P (re_bq o s) ins out = wrap (re_bq o) (rhpf_proc P s ins out).
Proof.
  intros H. unfold rhpf_proc. few H; [done|]. destruct (chan _ _); rs; [|done]. change (bq_q (re_bq o s)) with (bq_q s). change (bq_cutoff (re_bq o s)) with (bq_cutoff s). change (bq_sr (re_bq o s)) with (bq_sr s).
  generalize (hpf_coefs P (bq_q s) (theta (bq_cutoff s) (bq_sr s))). intros k.
  rewrite (scan_re (re_bq o)) by (intros s1 x; change (bq_cutoff (re_bq o s1)) with (bq_cutoff s1); apply bq_step_re). destruct (scan _ _ _) as [s1 b]. cbn [fst snd]. alt.
Qed.
Lemma comp_re P o (c : compound P) ins out : stands ins o (cp_ord _ c) -> compound_proc P (re_comp o c) ins out = wrap (re_comp o) (compound_proc P c ins out).
Proof.
  intros H. unfold compound_proc, run_inner. cbn [re_comp cp_kind cp_ord cp_graph].
  one H; [destruct (cp_kind P c); rewrite ?in_ord_nil; done|]. head Ho. destruct (cp_kind P c) eqn:Ek; rewrite <- ?Ek; alt.
Qed.

(** Sequences that look up references by name, and arrange, read the rest of their lists. *)
Definition plain_order {P} (n : gnode P) : Prop :=
  match n with Simple (NSeq s) => sq_order s = ∅ | Simple (NArrange _) => False | _ => True end.
(** The nodes that look at the head of their list. *)
Definition head_order {P} (n : gnode P) : option (list nat) :=
  match n with
  | Simple (NOsc _ s) => Some (os_ord s)
  | Simple (NEval s) | Simple (NMeta s) => Some (ev_ord s)
  | Simple (NSeq s) => Some (sq_ord s)
  | Simple (NEnvPerc s) => Some (ep_ord s)
  | Simple (NAdsr s) => Some (ad_ord s)
  | Simple (NApf s) => Some (ap_ord s)
  | Comp c => Some (cp_ord _ c)
  | _ => None
  end.
Definition same_head {P} (o : list nat) (n : gnode P) : Prop := forall o', head_order n = Some o' -> o !! 0 = o' !! 0.
Lemma gproc_reord P o (n : gnode P) ins out : length ins <= 1 -> (ins = [] \/ same_head o n) -> plain_order n ->
  gproc P (reord o n) ins out = wrap (reord o) (gproc P n ins out).
Proof.
  intros Hl Ho Hp.
  assert (Hst : forall o', head_order n = Some o' -> stands ins o o').
  { intros o' Hh. destruct Ho as [Ho|Ho]; [by left|]. destruct ins as [|p [|]]; [by left| |cbn in Hl; lia]. right. split; [done|by apply Ho]. }
  destruct n as [n|c]; cbn [gproc reord].
  - replace (sproc P (sreord o n) ins out) with (wrap (sreord o) (sproc P n ins out)); [by rewrite !wrap_wrap|].
    destruct n; cbn [sproc sreord]; try reflexivity; try (by destruct (sum2_proc _ _ _)); try specialize (Hst _ eq_refl); cbn [plain_order] in *; symmetry.
    all: try (first [rewrite op_re by assumption | rewrite osc_re by assumption | rewrite imp_re | rewrite noise_re | rewrite pan_re by assumption | rewrite spd_re | rewrite csig_re | rewrite eval_re by assumption | rewrite meta_re by assumption
       | rewrite seq_re by assumption | rewrite choose_re | rewrite points_re | rewrite psynth_re | rewrite msynth_re | rewrite sampler_re | rewrite psampler_re | rewrite delayn_re | rewrite delayms_re by assumption
       | rewrite envperc_re by assumption | rewrite adsr_re by assumption | rewrite apf_re by assumption | rewrite onepole_re by assumption | rewrite rlpf_re by assumption | rewrite rhpf_re by assumption]; rewrite !wrap_wrap; reflexivity).
    + unfold balance_proc. destruct ins as [|p [|]]; [done|done|cbn in Hl; lia].
    + done.
  - rewrite comp_re by (by apply Hst). by rewrite !wrap_wrap.
Qed.

(** ** The heads of the lists *)
Lemma reord_head P o (n : gnode P) : head_order (reord o n) = match head_order n with Some _ => Some o | None => None end.
Proof. destruct n as [n|c]; [|done]. by destruct n. Qed.
Lemma head_has P (n : gnode P) o : head_order n = Some o -> has_order n = true /\ node_order n = o.
Proof. destruct n as [n|c]; [|by intros [= <-]]. destruct n; try done; by intros [= <-]. Qed.
Lemma eval_keeps P (s : evaln P) ins out s' out' : eval_proc P s ins out = Ok (s', out') -> ev_ord s' = ev_ord s.
Proof.
  unfold eval_proc. rs. match goal with |- context [match ?x with Ok _ => _ | Panic => _ end] => destruct x as [xs|]; [|done] end.
  destruct (scanR _ _ _) as [[s1 b]|] eqn:E; [|done]. apply (scanR_keeps ev_ord) in E; [|by intros s0 x0 s2 b0; unfold eval_step; destruct (p_eval_step _ _ _ _) as [[]|]; [|done]; intros [= <- _]].
  destruct (put0 out b); [|done]. by intros [= <- _].
Qed.
Lemma meta_keeps P (s : evaln P) ins out s' out' : meta_proc P s ins out = Ok (s', out') -> ev_ord s' = ev_ord s.
Proof.
  unfold meta_proc. rs. match goal with |- context [match ?x with Ok _ => _ | Panic => _ end] => destruct x as [xs|]; [|done] end.
  destruct (p_meta_run _ _ _) as [e [r|]]; [|by intros [= <- _]]. destruct (chan _ _); [|done]. destruct (put0 _ _); [|done]. by intros [= <- _].
Qed.
Lemma envperc_keeps P s ins out s' out' : envperc_proc P s ins out = Ok (s', out') -> ep_ord s' = ep_ord s.
Proof.
  unfold envperc_proc. destruct ins as [|p [|]]; try (by intros [= <- _]). rs. destruct (uadd _ _ _); [|done]. destruct (in_ord _ _ _); [|done]. destruct (chan _ _); [|done].
  match goal with |- context [scan ?f s ?l] => pose proof (scan_keeps ep_ord f s l) as E; destruct (scan f s l) as [s1 b] end. destruct (put0 _ _); [|done]. intros [= <- _]. by apply E.
Qed.
Lemma adsr_keeps P s ins out s' out' : adsr_proc P s ins out = Ok (s', out') -> ad_ord s' = ad_ord s.
Proof.
  unfold adsr_proc. destruct ins as [|p [|]]; try (by intros [= <- _]). rs. destruct (in_ord _ _ _); [|done]. destruct (chan _ _); [|done].
  destruct (scanR _ _ _) as [[s1 b]|] eqn:E; [|done]. apply (scanR_keeps ad_ord) in E; [|by intros s0 x0 s2 b0; unfold adsr_step; rs; destruct (adsr_shape _ _ _ _ _ _ _ _); [|done]; intros [= <- _]].
  destruct (put0 _ _); [|done]. by intros [= <- _].
Qed.
Lemma comp_keeps P c ins out c' out' : compound_proc P c ins out = Ok (c', out') -> cp_ord P c' = cp_ord P c.
Proof.
  assert (H : run_inner P c ins out = Ok (c', out') -> cp_ord P c' = cp_ord P c).
  { unfold run_inner. rs. repeat (match goal with |- context [match ?x with Ok _ => _ | Panic => _ end] => destruct x; [|done] end). by intros [= <- _]. }
  unfold compound_proc. destruct (cp_kind P c); [| |exact H]; destruct ins as [|p [|]]; try exact H; by intros [= <- _].
Qed.
Lemma proc_head P (n n' : gnode P) ins out out' : gproc P n ins out = Ok (n', out') -> head_order n' = head_order n.
Proof.
  intros H. pose proof (proc_order _ _ _ _ _ _ H) as Ho. destruct n as [n|c]; cbn [gproc] in H; unfold wrap at 1 in H.
  - destruct (sproc P n ins out) as [[n1 b1]|] eqn:E; [|done]. injection H as <- <-.
    destruct n; cbn [sproc] in E; unfold wrap in E;
      repeat (match type of E with context [match ?x with Ok _ => _ | Panic => _ end] => destruct x as [?|] eqn:?E2; [|done] end);
      repeat (match type of E with context [let '(_, _) := ?x in _] => destruct x end); injection E as <- _; cbn [head_order input_order] in *; try done.
    all: f_equal; first [by eapply eval_keeps | by eapply meta_keeps | by eapply envperc_keeps | by eapply adsr_keeps].
  - destruct (compound_proc P c ins out) as [[c1 b1]|] eqn:E; [|done]. injection H as <- <-. cbn [head_order]. f_equal. by eapply comp_keeps.
Qed.

Lemma user_head P (n n' : gnode P) m : user_msg m -> gmsg P n m = Ok n' -> head_order n' = head_order n.
Proof.
  intros Hu. destruct n as [n|c]; cbn [gmsg]; unfold wrapm at 1.
  - destruct (smsg P n m) as [n1|] eqn:E; [|done]. intros [= <-].
    destruct n; cbn [smsg] in E; unfold wrapm in E; try (by injection E as <-);
      match type of E with context [match ?x with Ok _ => _ | Panic => _ end] => destruct x as [s2|] eqn:E2; [|done] end;
      injection E as <-; cbn [head_order]; try done; f_equal; revert E2;
      unfold osc_msg, eval_msg, meta_msg, seq_msg, envperc_msg, adsr_msg, apf_msg; destruct m as [pos v|pos t|bpm| | |]; try done;
      repeat (match goal with |- context [match ?x with _ => _ end] => is_var x; destruct x end); cbn [ord_msg]; rs; try done;
      repeat (match goal with |- context [match ?x with Ok _ => _ | Panic => _ end] => destruct x; [|done] end); by intros [= <-].
  - destruct (compound_msg P c m) as [c1|] eqn:E; [|done]. intros [= <-]. cbn [head_order]. f_equal. revert E. unfold compound_msg.
    destruct (cp_kind P c); destruct m as [pos v|pos t|bpm| | |]; try done;
      repeat (match goal with |- context [match ?x with _ => _ end] => is_var x; destruct x end); cbn [ord_msg ord_msg_keep]; rs; try done;
      repeat (match goal with |- context [match ?x with Ok _ => _ | Panic => _ end] => destruct x; [|done] end); by intros [= <-].
Qed.

(** ** Several inputs, told apart by their nodes *)
Lemma in_id_mem (ins : inmap) u bs : NoDup ins.*1 -> (u, bs) ∈ ins -> in_id ins u = Ok bs.
Proof.
  induction ins as [|[u0 b0] ins IH]; intros Hnd Hin; [by apply elem_of_nil in Hin|]. cbn [in_id fst snd]. rewrite fmap_cons in Hnd. apply NoDup_cons in Hnd as [Hn Hnd].
  apply elem_of_cons in Hin as [Hin|Hin]; [injection Hin as <- <-; by rewrite Nat.eqb_refl|].
  destruct (Nat.eqb_spec u0 u) as [->|]; [|by apply IH]. exfalso. apply Hn. apply elem_of_list_fmap. by exists (u, bs).
Qed.
Lemma in_id_none (ins : inmap) u : u ∉ ins.*1 -> in_id ins u = Panic.
Proof.
  induction ins as [|[u0 b0] ins IH]; intros Hn; [done|]. cbn [in_id fst snd]. rewrite fmap_cons in Hn. apply not_elem_of_cons in Hn as [Hn1 Hn2]. cbn in Hn1.
  destruct (Nat.eqb_spec u0 u) as [->|]; [done|]. by apply IH.
Qed.
Lemma in_ord_perm (ins ins' : inmap) o k : NoDup ins.*1 -> ins ≡ₚ ins' -> in_ord ins o k = in_ord ins' o k.
Proof.
  intros Hnd Hp. unfold in_ord. destruct (o !! k) as [u|]; [|done]. assert (Hnd' : NoDup ins'.*1) by (by rewrite <- Hp).
  destruct (decide (u ∈ ins.*1)) as [Hu|Hu].
  - apply elem_of_list_fmap in Hu as ([u' bs] & -> & Hin). cbn [fst]. rewrite (in_id_mem _ _ _ Hnd Hin). symmetry. apply in_id_mem; [done|]. by rewrite <- Hp.
  - rewrite in_id_none by done. symmetry. apply in_id_none. by rewrite <- Hp.
Qed.
(** The nodes that use their inputs only by name, or only when there is at most one. *)
Definition keyed {P} (n : gnode P) : bool :=
  match n with
  | Simple (NAdd _) | Simple (NMul _) | Simple (NOsc _ _) | Simple (NBalance _) | Simple (NPan _) | Simple (NSeq _)
  | Simple (NDelayN _) | Simple (NApf _) | Simple (NOnePole _) | Simple (NRlpf _) | Simple (NRhpf _) => true
  | _ => false
  end.
Lemma scanR_ext {S A B} (f g : S -> A -> res (S * B)) s l : (forall s a, f s a = g s a) -> scanR f s l = scanR g s l.
Proof. intros H. revert s. induction l as [|a l IH]; intros s; [done|]. cbn [scanR]. rewrite H. destruct (g s a) as [[s1 b]|]; [|done]. by rewrite IH. Qed.
Lemma seq_perm P s (ins ins' : inmap) out : NoDup ins.*1 -> ins ≡ₚ ins' -> seq_proc P s ins out = seq_proc P s ins' out.
Proof.
  intros Hnd Hp. unfold seq_proc. destruct ins as [|p ins0].
  - apply Permutation_nil in Hp as ->. done.
  - destruct ins' as [|p' ins0']; [by apply Permutation_sym, Permutation_nil in Hp|].
    rewrite (in_ord_perm _ _ _ _ Hnd Hp). destruct (in_ord _ _ _) as [pb|]; rs; [|done]. destruct (chan pb 0) as [p0|]; rs; [|done]. destruct (unwrap _) as [v0|]; rs; [|done].
    match goal with |- context [match ?x with Ok _ => _ | Panic => _ end] => destruct x as [has|] end; [|done].
    erewrite scanR_ext; [reflexivity|]. intros st idx. cbn beta. rewrite (sample_look _ _ _ (seq_look st (p' :: ins0') has idx)); [reflexivity|].
    intros nm. unfold seq_look. rs. destruct (unwrap _); [|done]. by rewrite (in_ord_perm _ _ _ _ Hnd Hp).
Qed.
Lemma gproc_perm P (n : gnode P) (ins ins' : inmap) out : keyed n = true \/ length ins <= 1 -> NoDup ins.*1 -> ins ≡ₚ ins' -> gproc P n ins out = gproc P n ins' out.
Proof.
  intros Hk Hnd Hp. destruct (decide (length ins <= 1)) as [Hl|Hl].
  { destruct ins as [|p [|]]; [apply Permutation_nil in Hp as ->; done| |cbn in Hl; lia]. apply Permutation_singleton_l in Hp as ->. done. }
  destruct Hk as [Hk|]; [|lia]. destruct n as [n|c]; [|done]. cbn [gproc]. f_equal.
  assert (Hlen : length ins = length ins') by (by apply Permutation_length).
  pose proof (fun o k => in_ord_perm ins ins' o k Hnd Hp) as Ho.
  destruct n; try discriminate Hk; cbn [sproc]; f_equal; [..|by apply seq_perm| | | | |]; clear Hk.
  all: destruct ins as [|p1 [|p2 r]]; try (exfalso; cbn in Hl; lia); destruct ins' as [|q1 [|q2 r']]; try discriminate Hlen; destruct r, r'; try discriminate Hlen.
  all: unfold op_proc, apply_op, osc_proc, balance_proc, pan_proc, delayn_proc, apf_proc, onepole_proc, rlpf_proc, rhpf_proc, bq_proc_mod; rewrite ?Ho; reflexivity.
Qed.

(** * Rename: nodes under other node numbers.

    A node sees the numbers of its inputs only through its list of inputs.  When both are
    renamed alike it plays the same; [gproc_one] says so for a node with one input,
    [gproc_keyed] for the nodes that tell several inputs apart by that list. *)
From Verif Require Import InputProofs Reorder.
From Coq Require Import Lia.
Local Open Scope nat_scope.

Lemma in_one u (bs : list sig) o : o !! 0 = Some u -> in_ord [(u, bs)] o 0 = Ok bs.
Proof. unfold in_ord. intros ->. cbn. by rewrite Nat.eqb_refl. Qed.

Section one.
  Context (u1 u2 : nat) (bs : list sig) (o : list nat) (Ho : o !! 0 = Some u2).
  Notation i1 := [(u1, bs)].
  Notation i2 := [(u2, bs)].
  Lemma osc_one P w s out : os_ord s !! 0 = Some u1 -> osc_proc P w (re_osc o s) i2 out = wrap (re_osc o) (osc_proc P w s i1 out).
  Proof.
    intros H. unfold osc_proc. change (os_ord (re_osc o s)) with o.
    assert (E1 : match o with [] => Ok (snd (u2, bs)) | _ :: _ => in_ord i2 o 0 end = Ok bs) by (destruct o; [done|by apply in_one]).
    assert (E2 : match os_ord s with [] => Ok (snd (u1, bs)) | _ :: _ => in_ord i1 (os_ord s) 0 end = Ok bs) by (destruct (os_ord s); [done|by apply in_one]).
    rewrite E1, E2; rs. destruct (chan bs 0) as [m0|]; rs; [|done].
    rewrite (scan_re (re_osc o)) by (by destruct w). destruct (scan _ _ _) as [s1 b]. cbn [fst snd]. alt.
  Qed.
  Lemma eval_one P (s : evaln P) out : ev_ord s !! 0 = Some u1 -> eval_proc P (re_eval o s) i2 out = wrap (re_eval o) (eval_proc P s i1 out).
  Proof.
    intros H. unfold eval_proc. change (ev_ord (re_eval o s)) with o. rewrite (in_one _ _ _ H), (in_one _ _ _ Ho); rs.
    destruct (chan _ _); rs; [|done]. rewrite (scanR_re (re_eval o)).
    - destruct (scanR _ _ _) as [[s1 b]|]; cbn [rmap]; alt.
    - intros s1 a0. unfold eval_step. cbn [re_eval ev_ext ev_phase ev_ord]. by destruct (p_eval_step _ _ _ _) as [[]|].
  Qed.
  Lemma meta_one P (s : evaln P) out : ev_ord s !! 0 = Some u1 -> meta_proc P (re_eval o s) i2 out = wrap (re_eval o) (meta_proc P s i1 out).
  Proof.
    intros H. unfold meta_proc. change (ev_ord (re_eval o s)) with o. rewrite (in_one _ _ _ H), (in_one _ _ _ Ho); rs. cbn [re_eval ev_ext ev_phase].
    destruct (chan _ _); rs; [|done]. destruct (p_meta_run _ _ _) as [e' [r|]]; alt.
  Qed.
  Lemma envperc_one P s out : ep_ord s !! 0 = Some u1 -> envperc_proc P (re_envperc o s) i2 out = wrap (re_envperc o) (envperc_proc P s i1 out).
  Proof.
    intros H. unfold envperc_proc. change (ep_ord (re_envperc o s)) with o. rewrite (in_one _ _ _ H), (in_one _ _ _ Ho); rs.
    change (ep_att (re_envperc o s)) with (ep_att s). change (ep_dec (re_envperc o s)) with (ep_dec s). change (ep_sr (re_envperc o s)) with (ep_sr s).
    destruct (uadd _ _ _); rs; [|done]. destruct (chan _ _); rs; [|done].
    rewrite (scan_re (re_envperc o)) by done. destruct (scan _ _ _) as [s1 b]. cbn [fst snd]. alt.
  Qed.
  Lemma adsr_one P s out : ad_ord s !! 0 = Some u1 -> adsr_proc P (re_adsr o s) i2 out = wrap (re_adsr o) (adsr_proc P s i1 out).
  Proof.
    intros H. unfold adsr_proc. change (ad_ord (re_adsr o s)) with o. rewrite (in_one _ _ _ H), (in_one _ _ _ Ho); rs.
    change (ad_att (re_adsr o s)) with (ad_att s). change (ad_dec (re_adsr o s)) with (ad_dec s). change (ad_rel (re_adsr o s)) with (ad_rel s). change (ad_sr (re_adsr o s)) with (ad_sr s).
    destruct (chan _ _); rs; [|done]. rewrite (scanR_re (re_adsr o)).
    - destruct (scanR _ _ _) as [[s1 b]|]; cbn [rmap]; alt.
    - intros s1 x. unfold adsr_step. cbn [re_adsr ad_sus ad_pos ad_lastx ad_lasty ad_change ad_phase]. unfold rmap. alt.
  Qed.
  Lemma apf_one P s out : ap_ord s !! 0 = Some u1 -> apf_proc P (re_apf o s) i2 out = wrap (re_apf o) (apf_proc P s i1 out).
  Proof.
    intros H. unfold apf_proc. change (ap_ord (re_apf o s)) with o. rewrite (in_one _ _ _ H), (in_one _ _ _ Ho); rs.
    destruct (chan _ _); rs; [|done]. rewrite (scan_re (re_apf o)) by done. destruct (scan _ _ _) as [s1 b]. cbn [fst snd]. alt.
  Qed.
  Lemma comp_one P (c : compound P) out : cp_ord _ c !! 0 = Some u1 -> compound_proc P (re_comp o c) i2 out = wrap (re_comp o) (compound_proc P c i1 out).
  Proof.
    intros H. unfold compound_proc, run_inner. cbn [re_comp cp_kind cp_ord cp_graph]. rewrite (in_one _ _ _ H), (in_one _ _ _ Ho).
    destruct (cp_kind P c) eqn:Ek; rewrite <- ?Ek; alt.
  Qed.
  Lemma seq_look_none s ins has idx nm : sq_order s = ∅ -> seq_look s ins has idx nm = Panic.
  Proof. unfold seq_look. intros ->. by rewrite lookup_empty. Qed.
  Lemma seq_scan_one P p q has bar l s : sq_order s = ∅ ->
    scanR (fun st idx => match seq_sample P bar (seq_look st [q] has idx) (sq_step st) (sq_events st) with Ok v => Ok (seq_set st (sq_speed st) (sq_step st + 1)%Z, v) | Panic => Panic end) (re_seq o s) l
    = rmap (re_seq o) (scanR (fun st idx => match seq_sample P bar (seq_look st [p] has idx) (sq_step st) (sq_events st) with Ok v => Ok (seq_set st (sq_speed st) (sq_step st + 1)%Z, v) | Panic => Panic end) s l).
  Proof.
    revert s. induction l as [|a l IH]; intros s He; [done|]. cbn [scanR]. change (sq_step (re_seq o s)) with (sq_step s). change (sq_events (re_seq o s)) with (sq_events s).
    rewrite (sample_look _ _ _ (seq_look s [p] has a)) by (intros n; by rewrite !seq_look_none).
    destruct (seq_sample _ _ _ _ _) as [x|]; [|done].
    change (seq_set (re_seq o s) _ _) with (re_seq o (seq_set s (sq_speed s) (sq_step s + 1)%Z)).
    rewrite IH by done. by destruct (scanR _ _ l) as [[]|].
  Qed.
  Lemma seq_one P s out : sq_ord s !! 0 = Some u1 -> sq_order s = ∅ -> seq_proc P (re_seq o s) i2 out = wrap (re_seq o) (seq_proc P s i1 out).
  Proof.
    intros H He. unfold seq_proc. change (sq_ord (re_seq o s)) with o. rewrite (in_one _ _ _ H), (in_one _ _ _ Ho); rs.
    destruct (chan _ _) as [p0|]; rs; [|done]. destruct (unwrap _) as [v0|]; rs; [|done].
    match goal with |- context [match ?x with Ok _ => _ | Panic => _ end] => destruct x as [has|] end; [|done].
    set (v := if has then v0 else sq_speed s). set (s1 := seq_set s v (sq_step s)).
    change (seq_set (re_seq o s) _ _) with (re_seq o s1).
    rewrite (seq_scan_one P (u1, bs)) by done. change (bar_length (sq_bpm (re_seq o s1)) (sq_sr (re_seq o s1)) (sq_speed (re_seq o s1))) with (bar_length (sq_bpm s1) (sq_sr s1) (sq_speed s1)).
    destruct (scanR _ _ _) as [[s2 b]|]; cbn [rmap]; alt.
  Qed.
End one.

Lemma gproc_one P o (n : gnode P) u1 u2 bs out : (forall o1, head_order n = Some o1 -> o1 !! 0 = Some u1 /\ o !! 0 = Some u2) -> plain_order n ->
  gproc P (reord o n) [(u2, bs)] out = wrap (reord o) (gproc P n [(u1, bs)] out).
Proof.
  intros Hh Hp. destruct (head_order n) as [o1|] eqn:E.
  - destruct (Hh o1 eq_refl) as [H1 H2]. destruct n as [n|c]; cbn [gproc reord].
    + replace (sproc P (sreord o n) [(u2, bs)] out) with (wrap (sreord o) (sproc P n [(u1, bs)] out)); [by rewrite !wrap_wrap|].
      destruct n; cbn [head_order] in E; try discriminate E; injection E as <-; cbn [sproc sreord plain_order] in *; symmetry;
        [rewrite (osc_one u1) by done|rewrite (eval_one u1) by done|rewrite (meta_one u1) by done|rewrite (seq_one u1) by done|rewrite (envperc_one u1) by done|rewrite (adsr_one u1) by done|rewrite (apf_one u1) by done]; rewrite !wrap_wrap; reflexivity.
    + injection E as <-. rewrite (comp_one u1) by done. by rewrite !wrap_wrap.
  - assert (Heq : gproc P n [(u1, bs)] out = gproc P n [(u2, bs)] out).
    { destruct n as [n|c]; [|done]. destruct n; cbn [head_order] in E; try discriminate E; try reflexivity; done. }
    rewrite Heq. apply gproc_reord; [done| |done]. right. intros o' Ho'. congruence.
Qed.

(** ** Several inputs *)
Lemma seq_scan_keyed P o (ins ins' : inmap) has bar l s : (forall k, in_ord ins' o k = in_ord ins (sq_ord s) k) ->
  scanR (fun st idx => match seq_sample P bar (seq_look st ins' has idx) (sq_step st) (sq_events st) with Ok v => Ok (seq_set st (sq_speed st) (sq_step st + 1)%Z, v) | Panic => Panic end) (re_seq o s) l
  = rmap (re_seq o) (scanR (fun st idx => match seq_sample P bar (seq_look st ins has idx) (sq_step st) (sq_events st) with Ok v => Ok (seq_set st (sq_speed st) (sq_step st + 1)%Z, v) | Panic => Panic end) s l).
Proof.
  intros Ho. revert s Ho. induction l as [|a l IH]; intros s Ho; [done|]. cbn [scanR]. change (sq_step (re_seq o s)) with (sq_step s). change (sq_events (re_seq o s)) with (sq_events s).
  rewrite (sample_look _ _ _ (seq_look s ins has a)) by (intros n; unfold seq_look; cbn [re_seq sq_order sq_ord]; rs; destruct (unwrap _); [by rewrite Ho|done]).
  destruct (seq_sample _ _ _ _ _) as [x|]; [|done].
  change (seq_set (re_seq o s) _ _) with (re_seq o (seq_set s (sq_speed s) (sq_step s + 1)%Z)).
  rewrite IH by done. by destruct (scanR _ _ l) as [[]|].
Qed.
Lemma seq_keyed P o s (ins ins' : inmap) out : length ins' = length ins -> (forall k, in_ord ins' o k = in_ord ins (sq_ord s) k) ->
  seq_proc P (re_seq o s) ins' out = wrap (re_seq o) (seq_proc P s ins out).
Proof.
  intros Hl Ho. destruct ins as [|p ins]; destruct ins' as [|p' ins']; try discriminate Hl.
  - unfold seq_proc. rewrite (scanR_re (re_seq o)).
    + cbn [re_seq sq_bpm sq_sr sq_speed]. destruct (scanR _ _ _) as [[s1 b]|]; cbn [rmap]; alt.
    + intros s1 []. cbn [re_seq sq_step sq_events sq_bpm sq_sr sq_speed]. unfold rmap. alt.
  - unfold seq_proc. change (sq_ord (re_seq o s)) with o. rewrite Ho. destruct (in_ord _ _ _) as [pb|]; rs; [|done].
    destruct (chan _ _) as [p0|]; rs; [|done]. destruct (unwrap _) as [v0|]; rs; [|done].
    match goal with |- context [match ?x with Ok _ => _ | Panic => _ end] => destruct x as [has|] end; [|done].
    set (v := if has then v0 else sq_speed s). set (s1 := seq_set s v (sq_step s)).
    change (seq_set (re_seq o s) _ _) with (re_seq o s1).
    rewrite (seq_scan_keyed P o (p :: ins)) by done. change (bar_length (sq_bpm (re_seq o s1)) (sq_sr (re_seq o s1)) (sq_speed (re_seq o s1))) with (bar_length (sq_bpm s1) (sq_sr s1) (sq_speed s1)).
    destruct (scanR _ _ _) as [[s2 b]|]; cbn [rmap]; alt.
Qed.
Section keyed.
  Context (o : list nat) (ins ins' : inmap) (Hl : length ins' = length ins) (H1 : forall p p', ins = [p] -> ins' = [p'] -> p'.2 = p.2).
  Lemma keyed_cases (Q : inmap -> inmap -> Prop) : (ins = [] -> ins' = [] -> Q [] []) -> (forall u u' bs, ins = [(u, bs)] -> ins' = [(u', bs)] -> Q [(u, bs)] [(u', bs)]) ->
    (forall p q p' q', ins = [p; q] -> ins' = [p'; q'] -> Q [p; q] [p'; q']) ->
    (forall p q r l p' q' r' l', ins = p :: q :: r :: l -> ins' = p' :: q' :: r' :: l' -> Q (p :: q :: r :: l) (p' :: q' :: r' :: l')) -> Q ins ins'.
  Proof.
    intros Q0 Q1 Q2 Q3. destruct ins as [|[u bs] [|q [|r l]]]; destruct ins' as [|[u' bs'] [|q' [|r' l']]]; try discriminate Hl; eauto.
    pose proof (H1 _ _ eq_refl eq_refl) as E. cbn [snd] in E. subst bs'. eauto.
  Qed.
  Ltac cases := apply (keyed_cases (fun i i' => _ = wrap _ _)); [intros -> -> |intros u u' bs -> -> |intros p q p' q' -> -> |intros p q r l p' q' r' l' -> ->].
  Lemma op_keyed op s out : (forall k, in_ord ins' o k = in_ord ins (op_ord s) k) -> op_proc op (re_op o s) ins' out = wrap (re_op o) (op_proc op s ins out).
  Proof.
    revert out s. pattern ins, ins'. apply keyed_cases; clear.
    - intros _ _ out s _. by apply op_re; cbn; lia.
    - intros u u' bs _ _ out s _. change (op_proc op s [(u, bs)] out) with (op_proc op s [(u', bs)] out). by apply op_re; cbn; lia.
    - intros p q p' q' _ _ out s Ho. unfold op_proc, apply_op. change (op_ord (re_op o s)) with o. destruct out; [done|]. rewrite !Ho. alt.
    - intros. unfold op_proc, apply_op. by destruct out.
  Qed.
  Lemma osc_keyed P w s out : (o = [] <-> os_ord s = []) -> (forall k, in_ord ins' o k = in_ord ins (os_ord s) k) -> osc_proc P w (re_osc o s) ins' out = wrap (re_osc o) (osc_proc P w s ins out).
  Proof.
    revert out s. pattern ins, ins'. apply keyed_cases; clear.
    - intros _ _ out s _ _. by apply osc_re; left.
    - intros u u' bs _ _ out s Hn Ho. unfold osc_proc. change (os_ord (re_osc o s)) with o.
      assert (E : match o with [] => Ok (snd (u', bs)) | _ :: _ => in_ord [(u', bs)] o 0 end = match os_ord s with [] => Ok (snd (u, bs)) | _ :: _ => in_ord [(u, bs)] (os_ord s) 0 end).
      { specialize (Ho 0). destruct o, (os_ord s); [done| | |done]; exfalso; [by apply (proj1 Hn) in H || (assert (X : _ :: _ = @nil nat) by (by apply Hn); discriminate X)|assert (X : n :: l = []) by (by apply Hn); discriminate X]. }
      rewrite E. destruct (match os_ord s with [] => _ | _ => _ end) as [mb|]; rs; [|done]. destruct (chan mb 0) as [m0|]; rs; [|done].
      rewrite (scan_re (re_osc o)) by (by destruct w). destruct (scan _ _ _) as [s1 b]. cbn [fst snd]. alt.
    - intros. done.
    - intros. done.
  Qed.
  Lemma balance_keyed s out : (forall k, in_ord ins' o k = in_ord ins s k) -> balance_proc o ins' out = wrap (fun _ => o) (balance_proc s ins out).
  Proof.
    revert out s. pattern ins, ins'. apply keyed_cases; clear; try done.
    intros p q p' q' _ _ out s Ho. unfold balance_proc. rewrite !Ho. alt.
  Qed.
  Lemma pan_keyed s out : (forall k, in_ord ins' o k = in_ord ins (pn_ord s) k) -> pan_proc (Pan (pn_pos s) o) ins' out = wrap (fun s => Pan (pn_pos s) o) (pan_proc s ins out).
  Proof.
    revert out s. pattern ins, ins'. apply keyed_cases; clear.
    - intros _ _ out s _. by apply pan_re; cbn; lia.
    - intros u u' bs _ _ out s _. change (pan_proc s [(u, bs)] out) with (pan_proc s [(u', bs)] out). by apply pan_re; cbn; lia.
    - intros p q p' q' _ _ out s Ho. unfold pan_proc. cbn [pn_ord pn_pos]. rewrite !Ho. alt.
    - intros p q r l p' q' r' l' _ _ out s Ho. unfold pan_proc. cbn [pn_ord pn_pos]. rewrite !Ho. alt.
  Qed.
  Lemma delayn_keyed s out : delayn_proc (re_delayn o s) ins' out = wrap (re_delayn o) (delayn_proc s ins out).
  Proof.
    revert out s. pattern ins, ins'. apply keyed_cases; clear.
    - intros. apply delayn_re.
    - intros u u' bs _ _ out s. change (delayn_proc s [(u, bs)] out) with (delayn_proc s [(u', bs)] out). apply delayn_re.
    - done.
    - done.
  Qed.
  Lemma apf_keyed P s out : (forall k, in_ord ins' o k = in_ord ins (ap_ord s) k) -> apf_proc P (re_apf o s) ins' out = wrap (re_apf o) (apf_proc P s ins out).
  Proof.
    revert out s. pattern ins, ins'. apply keyed_cases; clear.
    - intros _ _ out s _. by apply apf_re; left.
    - intros u u' bs _ _ out s Ho. unfold apf_proc. change (ap_ord (re_apf o s)) with o. rewrite Ho. destruct (in_ord _ _ _); rs; [|done].
      destruct (chan _ _); rs; [|done]. rewrite (scan_re (re_apf o)) by done. destruct (scan _ _ _) as [s1 b]. cbn [fst snd]. alt.
    - intros p q p' q' _ _ out s Ho. unfold apf_proc. change (ap_ord (re_apf o s)) with o. rewrite !Ho. destruct (in_ord _ _ 0); rs; [|done]. destruct (in_ord _ _ 1); rs; [|done].
      destruct (chan _ _); rs; [|done]. destruct (chan _ _); rs; [|done]. rewrite (scanR_re (re_apf o)).
      + destruct (scanR _ _ _) as [[s1 b]|]; cbn [rmap]; alt.
      + intros s1 x. unfold apf_mod_step. cbn. unfold rmap. alt.
    - done.
  Qed.
  Lemma onepole_keyed P s out : (forall k, in_ord ins' o k = in_ord ins (on_ord s) k) -> onepole_proc P (re_onepole o s) ins' out = wrap (re_onepole o) (onepole_proc P s ins out).
  Proof.
    revert out s. pattern ins, ins'. apply keyed_cases; clear.
    - intros _ _ out s _. by apply onepole_re; cbn; lia.
    - intros u u' bs _ _ out s _. change (onepole_proc P s [(u, bs)] out) with (onepole_proc P s [(u', bs)] out). by apply onepole_re; cbn; lia.
    - intros p q p' q' _ _ out s Ho. unfold onepole_proc. change (on_ord (re_onepole o s)) with o. rewrite !Ho. destruct (in_ord _ _ 0); rs; [|done]. destruct (in_ord _ _ 1); rs; [|done].
      destruct (chan _ _); rs; [|done]. destruct (chan _ _); rs; [|done]. rewrite (scan_re (re_onepole o)) by done. destruct (scan _ _ _) as [s1 b]. cbn [fst snd]. alt.
    - done.
  Qed.
  Lemma bq_mod_keyed kf s p q p' q' out : (forall k, in_ord [p'; q'] o k = in_ord [p; q] (bq_ord s) k) -> bq_proc_mod kf (re_bq o s) [p'; q'] out = wrap (re_bq o) (bq_proc_mod kf s [p; q] out).
  Proof.
    intros Ho. unfold bq_proc_mod. change (bq_ord (re_bq o s)) with o. rewrite !Ho. destruct (in_ord _ _ 0); rs; [|done]. destruct (in_ord _ _ 1); rs; [|done].
    destruct (chan _ _); rs; [|done]. destruct (unwrap _) as [c0|]; rs; [|done]. destruct (chan _ _); rs; [|done].
    change (bq_q (re_bq o s)) with (bq_q s). change (bq_sr (re_bq o s)) with (bq_sr s). generalize (kf (bq_q s) (theta c0 (bq_sr s))). intros k.
    rewrite (scan_re (re_bq o)) by (intros s0 x; change (bq_cutoff (re_bq o s0)) with (bq_cutoff s0); apply bq_step_re). destruct (scan _ _ _) as [s3 b]. cbn [fst snd]. alt.
  Qed.
  Lemma rlpf_keyed P s out : (forall k, in_ord ins' o k = in_ord ins (bq_ord s) k) -> rlpf_proc P (re_bq o s) ins' out = wrap (re_bq o) (rlpf_proc P s ins out).
  Proof.
    revert out s. pattern ins, ins'. apply keyed_cases; clear.
    - intros _ _ out s _. by apply rlpf_re; cbn; lia.
    - intros u u' bs _ _ out s _. change (rlpf_proc P s [(u, bs)] out) with (rlpf_proc P s [(u', bs)] out). by apply rlpf_re; cbn; lia.
    - intros p q p' q' _ _ out s Ho. exact (bq_mod_keyed _ _ _ _ _ _ _ Ho).
    - done.
  Qed.
  Lemma rhpf_keyed P s out : (forall k, in_ord ins' o k = in_ord ins (bq_ord s) k) -> rhpf_proc P (re_bq o s) ins' out = wrap (re_bq o) (rhpf_proc P s ins out).
  Proof.
    revert out s. pattern ins, ins'. apply keyed_cases; clear.
    - intros _ _ out s _. by apply rhpf_re; cbn; lia.
    - intros u u' bs _ _ out s _. change (rhpf_proc P s [(u, bs)] out) with (rhpf_proc P s [(u', bs)] out). by apply rhpf_re; cbn; lia.
    - intros p q p' q' _ _ out s Ho. exact (bq_mod_keyed _ _ _ _ _ _ _ Ho).
    - done.
  Qed.
  Lemma gproc_keyed P (n : gnode P) out : keyed n = true -> (forall k, in_ord ins' o k = in_ord ins (node_order n) k) -> (o = [] <-> node_order n = []) ->
    gproc P (reord o n) ins' out = wrap (reord o) (gproc P n ins out).
  Proof.
    intros Hk Ho Hnil. destruct n as [n|c]; [|done]. cbn [gproc reord].
    replace (sproc P (sreord o n) ins' out) with (wrap (sreord o) (sproc P n ins out)); [by rewrite !wrap_wrap|].
    destruct n; try discriminate Hk; cbn [sproc sreord node_order snode_order] in *; symmetry;
      [rewrite op_keyed by done|rewrite op_keyed by done|rewrite osc_keyed by done|match goal with |- context [balance_proc ?s0 ins _] => rewrite (balance_keyed s0) by done end|rewrite pan_keyed by done|match goal with |- context [seq_proc P ?s0 ins _] => rewrite (seq_keyed P o s0 ins ins' out Hl Ho) end
      |rewrite delayn_keyed|rewrite apf_keyed by done|rewrite onepole_keyed by done|rewrite rlpf_keyed by done|rewrite rhpf_keyed by done]; rewrite !wrap_wrap; reflexivity.
  Qed.
End keyed.

(** ** Messages do not touch the list of inputs *)
Lemma user_reord P o (n n' : gnode P) m : user_msg m -> gmsg P n m = Ok n' -> gmsg P (reord o n) m = Ok (reord o n').
Proof.
  intros Hu. destruct n as [n|c]; cbn [gmsg reord]; unfold wrapm at 1.
  - destruct (smsg P n m) as [n1|] eqn:E; [|done]. intros [= <-]. cbn [reord].
    replace (smsg P (sreord o n) m) with (Ok (sreord o n1)); [done|]. symmetry.
    destruct n; cbn [smsg sreord] in *; unfold wrapm in *; try (by injection E as <-);
      match type of E with context [match ?x with Ok _ => _ | Panic => _ end] => destruct x as [s2|] eqn:E2; [|done] end;
      injection E as <-; cbn [sreord].
    all: match goal with |- context [match ?x with Ok _ => _ | Panic => _ end] => match goal with |- _ = Ok (_ ?y) => cut (x = Ok y); [by intros ->|] | |- _ = Ok (_ _ ?y) => cut (x = Ok y); [by intros ->|] end end.
    all: destruct m as [pos v|pos t|bpm| | |]; try done; revert E2.
    all: unfold op_msg, osc_msg, csig_msg, imp_msg, noise_msg, pan_msg, spd_msg, eval_msg, meta_msg, seq_msg, choose_msg, arrange_msg, points_msg, psynth_msg, msynth_msg, sampler_msg, psampler_msg, delayn_msg, delayms_msg, envperc_msg, adsr_msg, apf_msg, onepole_msg, bq_msg.
    all: repeat (match goal with |- context [match ?x with _ => _ end] => is_var x; destruct x end); cbn [ord_msg]; rs; try done.
    all: try (by intros [= <-]).
    all: try (cbn [re_eval re_arrange re_msynth re_delayms ev_ext ev_phase ev_ord ar_events ar_bpm ar_sr ar_ord ar_step dm_bufs dm_sr dm_ord dm_n ms_voices ms_att ms_dec ms_events ms_sr ms_step ms_ord]).
    all: repeat (match goal with |- context [match ?x with _ => _ end] => destruct x; try done end).
    all: try (by intros [= <-]).
  - destruct (compound_msg P c m) as [c1|] eqn:E; [|done]. intros [= <-]. cbn [reord].
    replace (compound_msg P (re_comp o c) m) with (Ok (re_comp o c1)); [done|]. symmetry. revert E. unfold compound_msg.
    change (cp_kind P (re_comp o c)) with (cp_kind P c). destruct (cp_kind P c); destruct m as [pos v|pos t|bpm| | |]; try done.
    all: change (cp_graph P (re_comp o c)) with (cp_graph P c); change (cp_ord P (re_comp o c)) with o.
    all: repeat (match goal with |- context [match ?x with _ => _ end] => is_var x; destruct x end); cbn [ord_msg ord_msg_keep]; rs; try done; try (by intros [= <-]).
    all: repeat (match goal with |- context [match ?x with Ok _ => _ | Panic => _ end] => destruct x; [|done]; cbn beta iota end); by intros [= <-].
Qed.

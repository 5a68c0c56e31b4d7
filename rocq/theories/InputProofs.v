(** * InputProofs: the input lists of the nodes. *)
From Verif Require Export Instance InstanceProofs StateProofs.
From Coq Require Import Lia.
Local Open Scope nat_scope.

(** The list of inputs kept by the nodes that tell their inputs apart and forget them on
    [ResetOrder]; see [Node.ord_msg]. *)
Definition input_order {P} (n : gnode P) : option (list nat) :=
  match n with
  | Simple (NAdd s) | Simple (NMul s) => Some (op_ord s)
  | Simple (NOsc _ s) => Some (os_ord s)
  | Simple (NBalance o) => Some o
  | Simple (NPan s) => Some (pn_ord s)
  | Simple (NSeq s) => Some (sq_ord s)
  | Simple (NArrange s) => Some (ar_ord s)
  | Simple (NDelayN s) => Some (dn_ord s)
  | Simple (NDelayMs s) => Some (dm_ord s)
  | Simple (NApf s) => Some (ap_ord s)
  | Simple (NOnePole s) => Some (on_ord s)
  | Simple (NRlpf s) | Simple (NRhpf s) => Some (bq_ord s)
  | _ => None
  end.

Section inv.
  Context {S A B X : Type} (phi : S -> X).
  Lemma scan_keeps (f : S -> A -> S * B) s l : (forall s a, phi (f s a).1 = phi s) -> phi (scan f s l).1 = phi s.
  Proof.
    intros Hf. revert s. induction l as [|a l IH]; intros s; [done|]. simpl.
    specialize (Hf s a). destruct (f s a) as [s1 b]. specialize (IH s1). destruct (scan f s1 l) as [s2 bs]. simpl in *. congruence.
  Qed.
  Lemma scanR_keeps (f : S -> A -> res (S * B)) s l s' bs : (forall s a s' b, f s a = Ok (s', b) -> phi s' = phi s) ->
    scanR f s l = Ok (s', bs) -> phi s' = phi s.
  Proof.
    intros Hf. revert s s' bs. induction l as [|a l IH]; intros s s' bs; simpl; [by intros [= <- <-]|].
    destruct (f s a) as [[s1 b]|] eqn:E; [|done]. apply Hf in E.
    destruct (scanR f s1 l) as [[s2 bs2]|] eqn:E2; [|done]. apply IH in E2. intros [= <- <-]. congruence.
  Qed.
End inv.

Lemma Ok_fst {A B} (x : A * B) a b : Ok x = Ok (a, b) -> x.1 = a.
Proof. by intros [= ->]. Qed.
Ltac rs := unfold mbind, res_bind, mret, res_ret; cbv beta iota.
Lemma op_keeps op s ins out s' out' : op_proc op s ins out = Ok (s', out') -> s' = s.
Proof. unfold op_proc. rs. destruct (apply_op op s ins out); rs; [|done]. by intros [= <- <-]. Qed.
Lemma osc_keeps P w s ins out s' out' : osc_proc P w s ins out = Ok (s', out') -> os_ord s' = os_ord s.
Proof.
  unfold osc_proc. destruct ins as [|p [|q ins]].
  - pose proof (scan_keeps os_ord (fun o (_ : unit) => osc_step P w o (os_freq o)) s (replicate (p_blk P) tt) ltac:(done)) as H.
    destruct (scan _ _ _) as [s1 b]. simpl in *. destruct (osc_put w out b); rs; [|done]. by intros [= <- <-].
  - rs. destruct (match os_ord s with [] => _ | _ => _ end) as [mb|]; rs; [|done].
    destruct (chan mb 0) as [m0|]; rs; [|done].
    pose proof (scan_keeps os_ord (osc_mod_step P w) s m0 ltac:(intros ? ?; by destruct w)) as H.
    destruct (scan _ _ _) as [s1 b]. simpl in *. destruct (osc_put w out b); rs; [|done]. by intros [= <- <-].
  - by intros [= <- <-].
Qed.
Lemma balance_keeps s ins out s' out' : balance_proc s ins out = Ok (s', out') -> s' = s.
Proof.
  unfold balance_proc. destruct ins as [|p [|q [|r ins]]]; try (by intros [= <- <-]). rs.
  destruct (in_ord _ _ 0) as [lb|]; [|done]. destruct (in_ord _ _ 1) as [rb|]; [|done].
  destruct (chan lb 0) as [l|]; [|done]. destruct (chan rb 0) as [r|]; [|done]. destruct (put01 out l r); [|done]. by intros [= <- <-].
Qed.
Lemma pan_keeps s ins out s' out' : pan_proc s ins out = Ok (s', out') -> s' = s.
Proof.
  assert (H : forall ins, (rb ← in_ord ins (pn_ord s) 1; mb ← in_ord ins (pn_ord s) 0;
      r0 ← chan rb 0; m0 ← chan mb 0;
      out' ← put01 out (zip_with (fun q x => fmul (pan_left q) x) r0 m0)
                       (zip_with (fun q x => fmul (pan_right q) x) r0 m0);
      mret (s, out')) = Ok (s', out') -> s' = s).
  { intros i. rs. destruct (in_ord _ _ 1) as [rb|]; [|done]. destruct (in_ord _ _ 0) as [mb|]; [|done].
    destruct (chan rb 0) as [r0|]; [|done]. destruct (chan mb 0) as [m0|]; [|done]. destruct (put01 out _ _); [|done]. by intros [= <- <-]. }
  unfold pan_proc. destruct ins as [|p [|q ins]]; try apply H. rs.
  destruct (chan p.2 0) as [m0|]; [|done]. destruct (put01 out _ _); [|done]. by intros [= <- <-].
Qed.
Lemma seq_keeps P s ins out s' out' : seq_proc P s ins out = Ok (s', out') -> sq_ord s' = sq_ord s.
Proof.
  unfold seq_proc. destruct ins as [|p ins].
  - match goal with |- context [scanR ?f s ?l] => destruct (scanR f s l) as [[s1 b]|] eqn:E; [|done] end.
    apply (scanR_keeps sq_ord) in E.
    + destruct (put0 out b); rs; [|done]. by intros [= <- <-].
    + intros s0 a s2 b0. destruct (seq_sample P _ _ _ _); rs; [|done]. by intros [= <- <-].
  - rs. destruct (in_ord _ _ 0) as [pb|]; rs; [|done]. destruct (chan pb 0) as [p0|]; rs; [|done].
    destruct (unwrap (p0 !! 0)) as [v0|]; rs; [|done].
    match goal with |- context [match ?x with Ok _ => _ | Panic => _ end] => destruct x as [has|]; rs; [|done] end.
    match goal with |- context [scanR ?f ?s ?l] => destruct (scanR f s l) as [[s1 b]|] eqn:E; [|done] end.
    apply (scanR_keeps sq_ord) in E.
    + destruct (put0 out b); rs; [|done]. by intros [= <- <-].
    + intros s0 a s2 b0. destruct (seq_sample P _ _ _ _); rs; [|done]. by intros [= <- <-].
Qed.
Lemma ar_loop_keeps s ins idx old r : ar_loop s ins idx old = Ok r -> ar_ord r.1 = ar_ord s.
Proof.
  revert s idx r. induction old as [|x old IH]; intros s idx r; [by intros [= <-]|].
  cbn [ar_loop]. destruct (ar_find _ _ _ _) as [j| | |].
  - rs. destruct (in_ord ins (ar_ord s) j) as [bs|]; rs; [|done]. destruct (chan bs 0) as [b|]; rs; [|done].
    destruct (unwrap (b !! idx)); rs; [|done]. destruct (ar_loop _ _ _ _) as [r1|] eqn:E; rs; [|done].
    apply IH in E. by intros [= <-].
  - rs. destruct (in_ord ins (ar_ord s) 0) as [bs|]; rs; [|done]. destruct (chan bs 0) as [b|]; rs; [|done].
    destruct (unwrap (b !! idx)); rs; [|done]. destruct (ar_loop _ _ _ _) as [r1|] eqn:E; rs; [|done].
    apply IH in E. by intros [= <-].
  - rs. destruct (ar_loop _ _ _ _) as [r1|] eqn:E; rs; [|done]. apply IH in E. by intros [= <-].
  - by intros [= <-].
Qed.
Lemma arrange_keeps s ins out s' out' : arrange_proc s ins out = Ok (s', out') -> ar_ord s' = ar_ord s.
Proof.
  unfold arrange_proc. rs. destruct (chan out 0) as [old|]; rs; [|done].
  destruct (ar_loop s ins 0 old) as [r|] eqn:E; rs; [|done]. apply ar_loop_keeps in E.
  destruct (put0 out r.2); rs; [|done]. by intros [= <- <-].
Qed.
Lemma delayn_keeps s ins out s' out' : delayn_proc s ins out = Ok (s', out') -> dn_ord s' = dn_ord s.
Proof.
  unfold delayn_proc. destruct ins as [|p [|q ins]]; [by intros [= <- <-]| |by intros [= <- <-]].
  destruct (dn_n s =? 0)%Z; [by intros [= <- <-]|]. rs. destruct (chan p.2 0) as [m0|]; rs; [|done].
  destruct (scan _ _ _) as [b o]. rs. destruct (put0 out o); rs; [|done]. by intros [= <- <-].
Qed.
Lemma delayms_keeps P s ins out s' out' : delayms_proc P s ins out = Ok (s', out') -> dm_ord s' = dm_ord s.
Proof.
  unfold delayms_proc. rs. destruct (in_first ins) as [m|]; rs; [|done].
  destruct (negb _); [by intros [= <- <-]|].
  destruct ins as [|p [|q [|r ins]]]; try (by intros [= <- <-]).
  - destruct (dm_n s =? 0)%Z; rs.
    + destruct (chan m 0); rs; [|done]. destruct (put0 out _); rs; [|done]. by intros [= <- <-].
    + destruct (chans _ _ _ _); rs; [|done]. by intros [= <- <-].
  - destruct (in_ord _ _ 0); rs; [|done]. destruct (in_ord _ _ 1) as [rb|]; rs; [|done].
    destruct (chan rb 0); rs; [|done]. destruct (mapR _ _); rs; [|done].
    destruct (chans _ _ _ _); rs; [|done]. by intros [= <- <-].
Qed.
Lemma apf_keeps P s ins out s' out' : apf_proc P s ins out = Ok (s', out') -> ap_ord s' = ap_ord s.
Proof.
  unfold apf_proc. destruct ins as [|p [|q [|r ins]]]; try (by intros [= <- <-]); rs.
  - destruct (in_ord _ _ 0) as [bs|]; rs; [|done]. destruct (chan bs 0) as [b|]; rs; [|done].
    pose proof (scan_keeps ap_ord apf_step s b ltac:(done)) as H. destruct (scan _ _ _) as [s1 o]. simpl in *.
    destruct (put0 out o); rs; [|done]. by intros [= <- <-].
  - destruct (in_ord _ _ 0) as [mb|]; rs; [|done]. destruct (in_ord _ _ 1) as [rb|]; rs; [|done].
    destruct (chan mb 0) as [m0|]; rs; [|done]. destruct (chan rb 0) as [r0|]; rs; [|done].
    destruct (scanR _ _ _) as [[s1 o]|] eqn:E; [|done]. apply (scanR_keeps ap_ord) in E.
    + destruct (put0 out o); rs; [|done]. by intros [= <- <-].
    + intros s0 a s2 b0. unfold apf_mod_step. rs. destruct (mod_pos _ _ _ _); rs; [|done].
      destruct (mod_read _ _ _); rs; [|done]. destruct (mod_read _ _ _); rs; [|done]. by intros [= <- <-].
Qed.
Lemma onepole_keeps P s ins out s' out' : onepole_proc P s ins out = Ok (s', out') -> on_ord s' = on_ord s.
Proof.
  unfold onepole_proc. destruct ins as [|p [|q [|r ins]]]; try (by intros [= <- <-]); rs.
  - destruct (chan p.2 0) as [b|]; rs; [|done].
    pose proof (scan_keeps on_ord pole_step s b ltac:(done)) as H. destruct (scan _ _ _) as [s1 o]. simpl in *.
    destruct (put0 out o); rs; [|done]. by intros [= <- <-].
  - destruct (in_ord _ _ 0) as [mb|]; rs; [|done]. destruct (in_ord _ _ 1) as [rb|]; rs; [|done].
    destruct (chan mb 0) as [m0|]; rs; [|done]. destruct (chan rb 0) as [r0|]; rs; [|done].
    pose proof (scan_keeps on_ord (pole_mod_step P) s (zip m0 r0) ltac:(done)) as H.
    destruct (scan _ _ _) as [s1 o]. simpl in *. destruct (put0 out o); rs; [|done]. by intros [= <- <-].
Qed.
Lemma bq_mod_keeps kf s ins out s' out' : bq_proc_mod kf s ins out = Ok (s', out') -> bq_ord s' = bq_ord s.
Proof.
  unfold bq_proc_mod. rs. destruct (in_ord _ _ 0) as [mb|]; rs; [|done]. destruct (in_ord _ _ 1) as [rb|]; rs; [|done].
  destruct (chan rb 0) as [r0|]; rs; [|done]. destruct (unwrap (r0 !! 0)) as [m|]; rs; [|done].
  destruct (chan mb 0) as [m0|]; rs; [|done].
  match goal with |- context [scan ?f s m0] => pose proof (scan_keeps bq_ord f s m0 ltac:(done)) as H; destruct (scan f s m0) as [s1 o] end.
  simpl in *. destruct (put0 out o); rs; [|done]. by intros [= <- <-].
Qed.
Lemma rlpf_keeps P s ins out s' out' : rlpf_proc P s ins out = Ok (s', out') -> bq_ord s' = bq_ord s.
Proof.
  unfold rlpf_proc. destruct ins as [|p [|q [|r ins]]]; try (by intros [= <- <-]); [|apply bq_mod_keeps]. rs.
  destruct (chan p.2 0) as [m0|]; rs; [|done]. destruct (scanR _ _ _) as [[s1 o]|] eqn:E; [|done].
  apply (scanR_keeps bq_ord) in E.
  - destruct (put0 out o); rs; [|done]. by intros [= <- <-].
  - intros s0 a s2 b0. unfold lpf_step. rs. destruct (bq_cut P s0); rs; [|done]. intros H%Ok_fst. rewrite <- H. reflexivity.
Qed.
Lemma rhpf_keeps P s ins out s' out' : rhpf_proc P s ins out = Ok (s', out') -> bq_ord s' = bq_ord s.
Proof.
  unfold rhpf_proc. destruct ins as [|p [|q [|r ins]]]; try (by intros [= <- <-]); [|apply bq_mod_keeps]. rs.
  destruct (chan p.2 0) as [m0|]; rs; [|done].
  match goal with |- context [scan ?f s m0] => pose proof (scan_keeps bq_ord f s m0 ltac:(done)) as H; destruct (scan f s m0) as [s1 o] end.
  simpl in *. destruct (put0 out o); rs; [|done]. by intros [= <- <-].
Qed.

(** Processing never touches the input list. *)
Lemma proc_order P (n n' : gnode P) ins out out' : gproc P n ins out = Ok (n', out') -> input_order n' = input_order n.
Proof.
  destruct n as [s|c]; simpl.
  2: { unfold wrap. destruct (compound_proc P c ins out) as [[c' o]|]; [|done]. by intros [= <- <-]. }
  unfold wrap at 1. destruct (sproc P s ins out) as [[s1 o]|] eqn:E; [|done]. intros [= <- <-].
  destruct s; cbn [sproc] in E; unfold wrap in E;
    try (match type of E with context [match ?x with Ok _ => _ | Panic => _ end] => destruct x as [[s2 o2]|] eqn:E2; [|done] end;
         injection E as <- <-; simpl; try reflexivity; f_equal;
         first [ by apply op_keeps in E2 as -> | by eapply osc_keeps | by apply balance_keeps in E2 as -> | by apply pan_keeps in E2 as ->
               | by eapply seq_keeps | by eapply arrange_keeps | by eapply delayn_keeps | by eapply delayms_keeps | by eapply apf_keeps
               | by eapply onepole_keeps | by eapply rlpf_keeps | by eapply rhpf_keeps ]).
  - by injection E as <- <-.
  - by injection E as <- <-.
  - destruct (sum2_proc P ins out); [|done]. by injection E as <- <-.
Qed.

(** Nodes that keep an input list follow [ord_msg]; the others never get one. *)
Lemma user_ord o m : user_msg m -> ord_msg o m = Ok o.
Proof. by destruct m. Qed.
Lemma msg_order P (n n' : gnode P) m : gmsg P n m = Ok n' ->
  match input_order n with
  | Some o => exists o', ord_msg o m = Ok o' /\ input_order n' = Some o'
  | None => input_order n' = None
  end.
Proof.
  destruct n as [s|c]; simpl.
  2: { unfold wrapm. destruct (compound_msg P c m) as [c'|]; [|done]. by intros [= <-]. }
  unfold wrapm at 1. destruct (smsg P s m) as [s1|] eqn:E; [|done]. intros [= <-].
  destruct s; cbn [smsg] in E; unfold wrapm in E;
    try (by injection E as <-);
    match type of E with context [match ?x with Ok _ => _ | Panic => _ end] => destruct x as [s2|] eqn:E2; [|done] end;
    injection E as <-; cbn [input_order]; try reflexivity.
  all: destruct m as [[|[q|q|]|q] v|pos s0|bpm|i|pos i|];
    unfold op_msg, osc_msg, pan_msg, seq_msg, arrange_msg, delayn_msg, delayms_msg, apf_msg, onepole_msg, bq_msg in E2;
    unfold mbind, res_bind, mret, res_ret in E2; cbv beta iota in E2; cbn [ord_msg] in E2 |- *;
    repeat match type of E2 with
    | context [match ?x with Ok _ => _ | Panic => _ end] => destruct x as [?|] eqn:?; [|discriminate]
    | context [if ?x then _ else _] => destruct x eqn:?; try discriminate
    end;
    first [ injection E2 as <-; eexists; split; [first [reflexivity|eassumption]|reflexivity]
          | eexists; split; [first [exact E2|reflexivity]|reflexivity] ].
Qed.

Lemma msgs_order P ms (n n' : gnode P) : foldM (gmsg P) n ms = Ok n' ->
  match input_order n with
  | Some o => exists o', foldM ord_msg o ms = Ok o' /\ input_order n' = Some o'
  | None => input_order n' = None
  end.
Proof.
  revert n. induction ms as [|m ms IH]; intros n; simpl.
  - intros [= <-]. destruct (input_order n) as [o|]; eauto.
  - destruct (gmsg P n m) as [n1|] eqn:E; [|done]. intros H. apply msg_order in E. apply IH in H.
    destruct (input_order n) as [o|].
    + destruct E as (o1 & -> & E). rewrite E in H. done.
    + by rewrite E in H.
Qed.

(** New nodes know no inputs. *)
Definition unwired {P} (n : gnode P) : Prop := input_order n = None \/ input_order n = Some [].
Lemma boxed_unwired P n ch rs w refs : unwired (Simple n) -> boxed P n ch rs = Done (w, refs) -> unwired w.1.
Proof. by intros H [= <- <-]. Qed.
Lemma boxed_res_unwired P r ch rs w refs : (forall n, r = Ok n -> unwired (Simple n)) -> boxed_res P r ch rs = Done (w, refs) -> unwired w.1.
Proof. unfold boxed_res. destruct r as [n|]; [|done]. intros H. apply boxed_unwired. by apply H. Qed.
Lemma boxed_comp_unwired P r ch rs w refs : boxed_comp P r ch rs = Done (w, refs) -> unwired w.1.
Proof. unfold boxed_comp. destruct r as [n|]; [|done]. intros [= <- <-]. by left. Qed.
Lemma make_order P ev c w refs : makenode_ P ev c = Done (w, refs) -> unwired w.1.
Proof.
  destruct c; cbn [makenode_];
    match goal with
    | |- boxed_comp _ _ _ _ = _ -> _ => apply boxed_comp_unwired
    | |- boxed_res _ _ _ _ = _ -> _ => apply boxed_res_unwired; intros n; rs
    | |- boxed _ _ _ _ = _ -> _ => apply boxed_unwired; first [left; reflexivity | right; reflexivity]
    | |- Crash = _ -> _ => discriminate
    | |- _ => idtac
    end.
  - destruct (make_points _ _ _ _ _); [|done]. intros H. injection H as <-. by left.
  - unfold delayn_new. rs. destruct (ring_from _); [|done]. intros H. injection H as <-. by right.
  - unfold delayms_new. rs. destruct (ring_from _); [|done]. intros H. injection H as <-. by right.
  - destruct (e_samples ev !! _); [|done]. apply boxed_res_unwired. intros n. rs.
    destruct (sampler_new _ _ _); [|done]. intros H. injection H as <-. by left.
  - destruct (ps_parse _); [|done]. intros H. injection H as <-. by left.
  - destruct sg; try done; apply boxed_unwired; right; reflexivity.
  - destruct p; [done|]. destruct (select _ _); try done. apply boxed_unwired. left; reflexivity.
  - unfold apf_new. rs. destruct (ring_from _); [|done]. intros H. injection H as <-. by right.
  - destruct (p_eval_code _ _ _); [|done]. intros H. injection H as <-. by left.
Qed.

(** ** The input list over a tame history *)

Section order.
  Context (P : platform) (get : string -> outcome (gmap string (list component))).
  Notation L := (glang P get).

  Definition order_J (tr : list msg) (c : component) (n : gnode P) : Prop :=
    component_refs c ≠ [] -> forall o, input_order n = Some o -> foldM ord_msg [] tr = Ok o.

  Lemma trace_reset sh t k i rs o0 : rs ≠ [] ->
    foldM ord_msg o0 (trace sh t k i rs) = foldM ord_msg [] (trace sh t k i rs).
  Proof. intros H. unfold trace. by destruct rs. Qed.

  Lemma new_order ev c (w : gnode P * list sig) refs ms (st : gnode P) o : makenode_ P ev c = Done (w, refs) ->
    foldM (gmsg P) w.1 ms = Ok st -> input_order st = Some o -> foldM ord_msg [] ms = Ok o.
  Proof.
    intros Hmk Hf Ho. apply make_order in Hmk. apply msgs_order in Hf.
    destruct Hmk as [E|E]; rewrite E in Hf; [congruence|]. destruct Hf as (o' & H1 & H2). congruence.
  Qed.
  Lemma order_tracked blk e : tamely L blk e -> tracked L order_J e.
  Proof.
    apply tamely_tracked; [apply glang_ok|..].
    - intros ev c w refs sh t k i st Hmk Hf Hne o Ho. exact (new_order ev c w refs _ st o Hmk Hf Ho).
    - intros tr a b st0 sh t k i st HJ Heq Hf Hne o Ho. apply msgs_order in Hf.
      destruct (input_order st0) as [o0|]; [|congruence]. destruct Hf as (o' & H1 & H2).
      assert (o' = o) as -> by congruence. rewrite <- H1. symmetry. by apply trace_reset.
    - intros tr c st m st' HJ Hu Hm Hne o Ho. apply msg_order in Hm. destruct (input_order st) as [o0|] eqn:E; [|congruence].
      destruct Hm as (o' & H1 & H2). rewrite user_ord in H1 by done. injection H1 as <-.
      assert (o = o0) as -> by congruence. by apply HJ.
    - intros tr c st ins b st' b' HJ Hp Hne o Ho. apply proc_order in Hp. apply HJ; [done|]. congruence.
  Qed.

  (** What the wiring messages of an update amount to. *)
  Definition pred_of (t : gmap string (list nat)) (k : string) (i : nat) : list nat :=
    match i with 0 => [] | S j => option_list (t !! k ≫= fun ids => ids !! j) end.
  Lemma index_fold us o : foldM ord_msg o (Index <$> us) = Ok (o ++ us).
  Proof.
    revert o. induction us as [|u us IH]; intros o; simpl; [by rewrite app_nil_r|]. rewrite IH, <- app_assoc. done.
  Qed.
  Lemma trace_order sh t k i rs : rs ≠ [] ->
    foldM ord_msg [] (trace sh t k i rs) = Ok (pred_of t k i ++ (rs ≫= targets sh t)).
  Proof.
    intros Hne. unfold trace. destruct rs as [|r rs]; [done|].
    rewrite <- app_comm_cons. cbn [foldM ord_msg].
    unfold ref_msgs. assert (Hm : ((r :: rs) ≫= fun r0 => Index <$> targets sh t r0) = Index <$> ((r :: rs) ≫= targets sh t)).
    { generalize (r :: rs) as l. induction l as [|x l IH]; [done|]. rewrite !bind_cons, fmap_app, IH. done. }
    rewrite Hm, foldM_app, index_fold. simpl app. unfold pred_of, pred_msg.
    destruct (t !! k) as [ids|]; [|by destruct i]. destruct i as [|j]; [done|]. simpl. destruct (ids !! j); done.
  Qed.

  Lemma dedup_nodup seen l : NoDup (seen ++ l) -> dedup_refs seen l = seen ++ l.
  Proof.
    revert seen. induction l as [|s l IH]; intros seen H; simpl; [by rewrite app_nil_r|].
    rewrite bool_decide_false.
    - rewrite IH; [by rewrite <- app_assoc|]. by rewrite <- app_assoc.
    - intros Hs. apply NoDup_app in H as (_ & H & _). apply (H s Hs). by left.
  Qed.
  Lemma make_refs_exact ev c w refs : makenode_ P ev c = Done (w, refs) -> NoDup (component_refs c) ->
    refs = component_refs c.
  Proof. intros H Hnd. apply makenode_refs in H. destruct c; try exact H. rewrite H. by apply (dedup_nodup []). Qed.

  (** The input list of a node with references, at any moment of a tame history. *)
  Theorem input_list blk e p k i c v st b o : tamely L blk e -> en_ast L e = Some p ->
    placed L (en_info L e) p k i c v -> node_weight (en_graph L e) v = Some (st, b) ->
    component_refs c ≠ [] -> NoDup (component_refs c) -> input_order st = Some o ->
    exists sh, o = pred_of (en_info L e) k i ++ (component_refs c ≫= targets sh (en_info L e)).
  Proof.
    intros Ht Hp Hpl Hw Hne Hnd Ho.
    destruct (order_tracked blk e Ht p k i c v (st, b) Hp Hpl Hw) as (sh & rs & Hrs & HJ).
    assert (rs = component_refs c) as ->.
    { destruct Hrs as [->|(ev & w0 & Hmk)]; [done|]. eapply (make_refs_exact _ _ _ _ Hmk Hnd). }
    exists sh. specialize (HJ Hne o Ho). rewrite trace_order in HJ by done. congruence.
  Qed.
  Lemma plain_target blk e p k i c v r sh : tamely L blk e -> en_ast L e = Some p ->
    placed L (en_info L e) p k i c v -> r ∈ component_refs c -> no_dots r ->
    exists u, chain_end (en_info L e) r u /\ targets sh (en_info L e) r = [u].
  Proof.
    intros Ht Hp (cs & Hk & Hc & _) Hr Hnd. pose proof (plain_ref r Hnd) as Hd.
    destruct (tamely_inv _ (glang_ok P get) _ _ Ht) as (He & Hal & _).
    destruct (tamely_resolved L (glang_ok P get) _ _ Ht p r Hp) as (k' & Hrk & [ids Hids]).
    { exists k, cs, c. split_and!; auto. by eapply elem_of_list_lookup_2. }
    unfold refers in Hrk. rewrite Hd in Hrk. subst k'.
    assert (Hne : ids ≠ []).
    { intros ->. destruct (old_ast L e !! r) as [olds|] eqn:Eo.
      - destruct (al_len _ _ Hal r olds Eo) as (ids' & H1 & H2). rewrite Hids in H1. injection H1 as <-.
        destruct olds; [|done]. by apply (proj2 (al_ok _ _ Hal)) in Eo.
      - pose proof (al_only _ _ Hal r [] Hids Eo) as ->. by destruct (al_input _ _ Hal [] Hids). }
    destruct (last_ne ids Hne) as [u Hu]. exists u. split; [by exists ids|].
    unfold targets. rewrite Hd, Hids. simpl. by rewrite Hu.
  Qed.
  Lemma pred_spec blk e p k j c v : tamely L blk e -> en_ast L e = Some p ->
    placed L (en_info L e) p k (S j) c v ->
    exists m, owner (en_info L e) m k j /\ pred_of (en_info L e) k (S j) = [m].
  Proof.
    intros Ht Hp (cs & Hk & Hc & (ids & Hids & Hj)).
    destruct (lookup_lt_is_Some_2 ids j) as [m Hm]; [apply lookup_lt_Some in Hj; lia|].
    exists m. split; [by exists ids|]. unfold pred_of. rewrite Hids. simpl. by rewrite Hm.
  Qed.
End order.

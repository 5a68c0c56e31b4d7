(** * GraphProofs: the traversal visits exactly the audible nodes, once, in
    dependency order, and the processor computes a dataflow semantics. *)
From Verif Require Export Graph.
From Coq Require Import Lia.

Section dfs.
  Context {W : Type}.
  Implicit Types g : sgraph W.

  (** Spec: an edge of the graph, and reachability along edges. *)
  Definition edge g (u v : nat) : Prop := (u, v) ∈ edges g.
  Definition reaches g : nat -> nat -> Prop := rtc (edge g).

  Lemma elem_of_in_neighbors g u n : u ∈ in_neighbors g n <-> edge g u n.
  Proof.
    unfold in_neighbors, edge. rewrite elem_of_list_fmap. split.
    - intros ([a b] & -> & H). apply elem_of_list_filter in H as [H1 H2]. simpl in *. by subst.
    - intros H. exists (u, n). split; [done|]. apply elem_of_list_filter. done.
  Qed.

  (** Measure showing that the traversal ends. *)
  Definition pending g (disc : list nat) : nat :=
    length (filter (fun e => e.2 ∉ disc) (edges g)).
  Definition dfs_measure g (s : dfs) : nat :=
    2 * pending g (d_disc s) + length (d_stack s)
    + length (filter (fun u => u ∉ d_disc s) (d_stack s)).

  Lemma filter_length_le {A} (P Q : A -> Prop) `{!forall x, Decision (P x), !forall x, Decision (Q x)} l :
    (forall x, P x -> Q x) -> length (filter P l) <= length (filter Q l).
  Proof.
    intros HPQ. induction l as [|x l IH]; [done|].
    rewrite !filter_cons. repeat case_decide; simpl; try lia. exfalso; auto.
  Qed.

  Lemma pending_discover g nx disc : nx ∉ disc ->
    pending g disc = pending g (nx :: disc) + length (in_neighbors g nx).
  Proof.
    intros Hn. unfold pending, in_neighbors. rewrite fmap_length.
    induction (edges g) as [|e l IH]; [done|].
    rewrite !filter_cons.
    destruct (decide (e.2 = nx)) as [He|He]; destruct (decide (e.2 ∈ disc)) as [Hd|Hd];
    repeat case_decide; simpl; try lia; try set_solver.
  Qed.

  Lemma dfs_step_measure g s s' : dfs_step g s = Some s' -> dfs_measure g s' < dfs_measure g s.
  Proof.
    unfold dfs_step, dfs_measure. destruct (d_stack s) as [|nx st] eqn:Hs; [done|].
    intros [= <-]. case_decide as Hd; simpl.
    - rewrite filter_cons. case_decide; simpl; try lia; done.
    - rewrite (pending_discover g nx (d_disc s)) by done.
      rewrite app_length, rev_length. simpl.
      set (nb := filter (fun u => u ∉ nx :: d_disc s) (in_neighbors g nx)).
      assert (length nb <= length (in_neighbors g nx)) by apply filter_length.
      rewrite filter_app, app_length.
      assert (length (filter (fun u => u ∉ nx :: d_disc s) (rev nb)) <= length nb).
      { rewrite <- (rev_length nb). apply filter_length. }
      rewrite filter_cons. case_decide as Hx; [set_solver|].
      rewrite filter_cons. case_decide as Hy; [|done]. simpl.
      assert (length (filter (fun u => u ∉ nx :: d_disc s) st) <=
              length (filter (fun u => u ∉ d_disc s) st)).
      { apply filter_length_le. set_solver. }
      lia.
  Qed.

  Lemma dfs_run_total g fuel s : dfs_measure g s < fuel -> is_Some (dfs_run g fuel s).
  Proof.
    revert s; induction fuel as [|k IH]; intros s Hm; [lia|]. simpl.
    destruct (dfs_step g s) as [s'|] eqn:E; [|eauto].
    apply IH. pose proof (dfs_step_measure _ _ _ E). lia.
  Qed.

  Lemma dfs_order_total g dest : is_Some (dfs_order g dest).
  Proof.
    apply dfs_run_total. unfold dfs_measure, pending; simpl.
    pose proof (filter_length (fun e : nat * nat => e.2 ∉ []) (edges g)).
    pose proof (filter_length (fun u : nat => u ∉ []) [dest]). simpl in *. lia.
  Qed.

  (** Invariant of the traversal. *)
  Record dfs_inv g (dest : nat) (s : dfs) : Prop := {
    di_reach : forall x, x ∈ d_stack s ++ d_disc s -> reaches g x dest;
    di_fin_disc : forall x, x ∈ d_fin s -> x ∈ d_disc s;
    di_nodup : NoDup (d_fin s);
    di_grey : forall x, x ∈ d_disc s -> x ∉ d_fin s -> x ∈ d_stack s;
    di_dest : dest ∈ d_stack s ++ d_disc s;
    di_push : forall s1 v s2 u, d_stack s = s1 ++ v :: s2 -> v ∉ s1 -> v ∈ d_disc s ->
                v ∉ d_fin s -> edge g u v -> u ∈ d_disc s \/ u ∈ s1;
    di_anc : forall s1 v s2 x, d_stack s = s1 ++ v :: s2 -> v ∉ s1 -> v ∈ d_disc s ->
                v ∉ d_fin s -> x ∈ s1 -> reaches g x v;
    di_order : forall l1 v l2 u, d_fin s = l1 ++ v :: l2 -> edge g u v ->
                u ∈ d_disc s /\ (u ∈ l2 \/ reaches g v u)
  }.

  Lemma dfs_inv_init g dest : dfs_inv g dest (Dfs [dest] [] []).
  Proof.
    split; simpl.
    - intros x Hx. assert (x = dest) as -> by set_solver. apply rtc_refl.
    - set_solver.
    - constructor.
    - set_solver.
    - set_solver.
    - intros. set_solver.
    - intros. set_solver.
    - intros l1 v l2 u H. destruct l1; discriminate.
  Qed.

  Lemma app_cons_skip {A} (l s1 t s2 : list A) v :
    l ++ t = s1 ++ v :: s2 -> v ∉ l -> exists s1', s1 = l ++ s1' /\ t = s1' ++ v :: s2.
  Proof.
    revert s1. induction l as [|y l IH]; intros s1 Heq Hv; [by exists s1|].
    destruct s1 as [|z s1]; simpl in Heq; injection Heq as -> Heq; [set_solver|].
    destruct (IH s1 Heq ltac:(set_solver)) as (s1' & -> & ?). by exists s1'.
  Qed.

  Lemma elem_of_rev {A} (x : A) l : x ∈ rev l <-> x ∈ l.
  Proof. rewrite !elem_of_list_In. symmetry. apply in_rev. Qed.

  Lemma dfs_inv_step g dest s s' : dfs_inv g dest s -> dfs_step g s = Some s' -> dfs_inv g dest s'.
  Proof.
    intros HI. unfold dfs_step. destruct s as [stk disc fin]; simpl in *.
    destruct HI as [Hreach Hfd Hnd Hgrey Hdest Hpush Hanc Hord]; simpl in *.
    destruct stk as [|nx st]; [done|]. intros [= <-].
    case_decide as Hd; [case_decide as Hf|].
    - (* pop, already finished *)
      split; simpl; auto.
      + intros x Hx. apply Hreach. set_solver.
      + intros x Hx Hnf. pose proof (Hgrey x Hx Hnf). set_solver.
      + set_solver.
      + intros s1 v s2 u -> Hv Hvd Hvf He.
        destruct (Hpush (nx :: s1) v s2 u) as [?|Hu]; auto; [set_solver|].
        apply elem_of_cons in Hu as [->|?]; auto.
      + intros s1 v s2 x -> Hv Hvd Hvf Hx. eapply (Hanc (nx :: s1)); eauto; set_solver.
    - (* pop and finish [nx] *)
      split; simpl.
      + intros x Hx. apply Hreach. set_solver.
      + intros x Hx. apply elem_of_cons in Hx as [->|Hx]; auto.
      + constructor; auto.
      + intros x Hx Hnf. assert (x ∈ nx :: st) by (apply Hgrey; set_solver). set_solver.
      + set_solver.
      + intros s1 v s2 u -> Hv Hvd Hvf He.
        destruct (Hpush (nx :: s1) v s2 u) as [?|Hu]; auto; [set_solver..|].
        apply elem_of_cons in Hu as [->|?]; auto.
      + intros s1 v s2 x -> Hv Hvd Hvf Hx. eapply (Hanc (nx :: s1)); eauto; set_solver.
      + intros l1 v l2 u Heq He. destruct l1 as [|y l1]; simpl in Heq.
        * injection Heq as <- <-.
          destruct (Hpush [] nx st u) as [Hu|Hu]; [done|set_solver|done..| |set_solver].
          split; [done|]. destruct (decide (u ∈ fin)) as [?|Huf]; [by left|right].
          destruct (decide (u = nx)) as [->|Hne]; [apply rtc_refl|].
          pose proof (Hgrey u Hu Huf) as Hin. assert (u ∈ st) as Hin2 by set_solver.
          apply elem_of_list_split_l in Hin2 as (a & b & -> & Hna).
          eapply (Hanc (nx :: a)); eauto; set_solver.
        * injection Heq as <- Heq. eapply Hord; eauto.
    - (* discover [nx] *)
      set (nb := filter (fun u => u ∉ nx :: disc) (in_neighbors g nx)).
      assert (Hnb : forall u, u ∈ rev nb -> edge g u nx /\ u ∉ nx :: disc).
      { intros u Hu. rewrite elem_of_rev in Hu. apply elem_of_list_filter in Hu as [Hu1 Hu2].
        split; [by apply elem_of_in_neighbors|done]. }
      assert (Hnxr : reaches g nx dest) by (apply Hreach; set_solver).
      assert (Hnf : nx ∉ fin) by (intros H; apply Hd; auto).
      assert (Hseen : forall v, v ∈ nx :: disc -> v ∉ rev nb).
      { intros v Hv Hin. apply Hnb in Hin as [_ Hin]. done. }
      split; simpl.
      + intros x Hx. rewrite <- app_assoc, elem_of_app in Hx. destruct Hx as [Hx|Hx].
        * eapply rtc_l; [by apply Hnb|done].
        * apply Hreach. set_solver.
      + intros x Hx. set_solver.
      + done.
      + intros x Hx Hxf. apply elem_of_app. right. apply elem_of_cons in Hx as [->|Hx]; [set_solver|].
        by apply Hgrey.
      + set_solver.
      + intros s1 v s2 u Heq Hv Hvd Hvf He.
        destruct (decide (u ∈ nx :: disc)) as [?|Hund]; [by left|right].
        destruct (app_cons_skip _ _ _ _ _ Heq (Hseen v Hvd)) as (s1' & -> & Heq').
        apply elem_of_app.
        destruct s1' as [|z s1']; simpl in Heq'; injection Heq' as -> Heq'.
        * left. apply elem_of_rev, elem_of_list_filter. split; [done|]. by apply elem_of_in_neighbors.
        * right. destruct (Hpush (z :: s1') v s2 u) as [?|?]; auto; [by rewrite Heq'|set_solver..].
      + intros s1 v s2 x Heq Hv Hvd Hvf Hx.
        destruct (app_cons_skip _ _ _ _ _ Heq (Hseen v Hvd)) as (s1' & -> & Heq').
        destruct s1' as [|z s1']; simpl in Heq'; injection Heq' as -> Heq'.
        * rewrite app_nil_r in Hx. apply rtc_once. by apply Hnb.
        * assert (Hz : forall y, y ∈ z :: s1' -> reaches g y v).
          { intros y Hy. eapply (Hanc (z :: s1')); [by rewrite Heq'|set_solver..]. }
          apply elem_of_app in Hx as [Hx|Hx]; [|by apply Hz].
          eapply rtc_l; [by apply Hnb|]. apply Hz. set_solver.
      + intros l1 v l2 u Heq He. destruct (Hord l1 v l2 u Heq He). set_solver.
  Qed.

  Lemma dfs_run_inv g dest fuel s l : dfs_inv g dest s -> dfs_run g fuel s = Some l ->
    exists s', dfs_inv g dest s' /\ d_stack s' = [] /\ l = rev (d_fin s').
  Proof.
    revert s; induction fuel as [|k IH]; intros s HI; simpl; [done|].
    destruct (dfs_step g s) as [s'|] eqn:E.
    - apply IH. eapply dfs_inv_step; eauto.
    - intros [= <-]. exists s. split_and!; auto.
      unfold dfs_step in E. destruct (d_stack s); [done|discriminate].
  Qed.

  (** The order produced by the traversal: every node that can reach the
      destination, each exactly once; a predecessor comes earlier unless it is on
      a cycle with its successor. *)
  Lemma dfs_order_spec g dest l : dfs_order g dest = Some l ->
    NoDup l /\ (forall n, n ∈ l <-> reaches g n dest) /\
    (forall l1 v l2 u, l = l1 ++ v :: l2 -> edge g u v -> u ∈ l1 \/ reaches g v u).
  Proof.
    intros H. apply (dfs_run_inv g dest) in H as (s & HI & Hs & ->); [|apply dfs_inv_init].
    destruct HI as [Hreach Hfd Hnd Hgrey Hdest Hpush Hanc Hord]. rewrite Hs in *. simpl in *.
    split_and!.
    - apply NoDup_ListNoDup, NoDup_rev, NoDup_ListNoDup. done.
    - intros n. rewrite elem_of_rev. split; [by auto|].
      assert (Hall : forall x, x ∈ d_disc s -> x ∈ d_fin s).
      { intros x Hx. destruct (decide (x ∈ d_fin s)) as [?|Hn]; [done|].
        pose proof (Hgrey x Hx Hn). set_solver. }
      intros Hr. unfold reaches in Hr. induction Hr as [x|x y z He Hr IH]; [by auto|].
      specialize (IH Hreach Hdest). apply Hall.
      apply elem_of_list_split in IH as (l1 & l2 & Heq).
      by destruct (Hord _ _ _ x Heq He).
    - intros l1 v l2 u Heq He.
      assert (d_fin s = rev l2 ++ v :: rev l1) as Hf.
      { rewrite <- (rev_involutive (d_fin s)), Heq, rev_app_distr. simpl. by rewrite <- app_assoc. }
      destruct (Hord _ _ _ u Hf He) as [_ [?|?]]; [left|by right]. by apply elem_of_rev.
  Qed.
End dfs.

(** ** The processor *)
Section processor_proofs.
  Context {node buf : Type}.
  Context (nproc : node -> list (nat * list buf) -> list buf -> res (node * list buf)).
  Notation W := (node * list buf)%type.
  Implicit Types g : sgraph W.

  Lemma set_weight_spec {V} (g : sgraph V) n w (g' : sgraph V) : set_weight g n w = Ok g' ->
    live g n /\ free g' = free g /\ edges g' = edges g /\ length (slots g') = length (slots g) /\
    forall m, node_weight g' m = if decide (m = n) then Some w else node_weight g m.
  Proof.
    unfold set_weight, live. destruct (node_weight g n) as [w0|] eqn:E; [|done]. intros [= <-]. simpl.
    assert (n < length (slots g)).
    { unfold node_weight in E. destruct (slots g !! n) eqn:E'; [|done].
      by apply lookup_lt_Some in E'. }
    split_and!; [by eauto|done|done|by rewrite insert_length|].
    intros m. unfold node_weight; simpl. case_decide as Hm.
    - subst. by rewrite list_lookup_insert.
    - by rewrite list_lookup_insert_ne.
  Qed.

  Lemma set_weight_live {V} (g : sgraph V) n w : live g n -> exists g' : sgraph V, set_weight g n w = Ok g'.
  Proof. unfold live, set_weight. intros [x ->]. eauto. Qed.

  Lemma mapR_Ok {A B} (f : A -> res B) l l' : mapR f l = Ok l' -> Forall2 (fun a b => f a = Ok b) l l'.
  Proof.
    revert l'; induction l as [|a l IH]; intros l'; simpl.
    - intros [= <-]. constructor.
    - destruct (f a) eqn:E; [|done]. destruct (mapR f l) eqn:E'; [|done].
      intros [= <-]. constructor; auto.
  Qed.

  Lemma mapR_total {A B} (f : A -> res B) (h : A -> B) l :
    (forall a, a ∈ l -> f a = Ok (h a)) -> mapR f l = Ok (h <$> l).
  Proof.
    induction l as [|a l IH]; intros H; simpl; [done|].
    rewrite H by set_solver. rewrite IH; [done|]. intros; apply H; set_solver.
  Qed.

  Lemma elem_of_input_ids g u n : u ∈ input_ids g n <-> edge g u n /\ u ≠ n.
  Proof.
    unfold input_ids. rewrite elem_of_remove_dups, elem_of_list_filter, elem_of_in_neighbors. tauto.
  Qed.

  Lemma inputs_of_spec g n ins : inputs_of g n = Ok ins ->
    ins.*1 = input_ids g n /\
    forall u bs, (u, bs) ∈ ins <-> edge g u n /\ u ≠ n /\ exists w, node_weight g u = Some w /\ w.2 = bs.
  Proof.
    unfold inputs_of. intros H. apply mapR_Ok in H.
    assert (Hfst : ins.*1 = input_ids g n).
    { clear -H. induction H as [|u p l l' Hu HF IH]; [done|]. rewrite fmap_cons, IH. f_equal.
      destruct (node_weight g u); [|done]. by injection Hu as <-. }
    split; [done|]. intros u bs. split.
    - intros Hin. assert (u ∈ input_ids g n) as Hu.
      { rewrite <- Hfst. apply elem_of_list_fmap. by exists (u, bs). }
      apply elem_of_input_ids in Hu as [? ?]. split_and!; auto.
      apply elem_of_list_lookup in Hin as [i Hi].
      destruct (Forall2_lookup_r _ _ _ _ _ H Hi) as (v & Hv & Hf).
      destruct (node_weight g v) as [w|] eqn:E; [|done]. injection Hf as -> <-. eauto.
    - intros (He & Hne & w & Hw & <-).
      assert (u ∈ input_ids g n) as Hu by (apply elem_of_input_ids; auto).
      apply elem_of_list_lookup in Hu as [i Hi].
      destruct (Forall2_lookup_l _ _ _ _ _ H Hi) as (v & Hv & Hf).
      rewrite Hw in Hf. injection Hf as <-. eapply elem_of_list_lookup_2; eauto.
  Qed.

  Lemma process_node_inv sh g n g' : process_node nproc sh g n = Ok g' ->
    exists ins w w', inputs_of g n = Ok ins /\ node_weight g n = Some w /\
      nproc w.1 (sh _ ins) w.2 = Ok w' /\ set_weight g n w' = Ok g'.
  Proof.
    unfold process_node. destruct (inputs_of g n) as [ins|] eqn:E1; [|done]. simpl.
    destruct (node_weight g n) as [w|] eqn:E2; [|done]. simpl.
    destruct (nproc w.1 (sh _ ins) w.2) as [w'|] eqn:E3; [|done]. simpl.
    intros H. by exists ins, w, w'.
  Qed.

  Lemma process_node_edges sh g n g' : process_node nproc sh g n = Ok g' -> edges g' = edges g.
  Proof.
    intros (ins & w & w' & ? & ? & ? & H)%process_node_inv. by apply set_weight_spec in H as (_ & _ & ? & _).
  Qed.

  (** What a run over an arbitrary duplicate-free order computes. *)
  Definition run_spec (g g' : sgraph W) (order : list nat) : Prop :=
    edges g' = edges g /\ free g' = free g /\ length (slots g') = length (slots g) /\
    (forall n, n ∉ order -> node_weight g' n = node_weight g n) /\
    (forall l1 n l2, order = l1 ++ n :: l2 ->
       exists w w' ins, node_weight g n = Some w /\ node_weight g' n = Some w' /\
         nproc w.1 ins w.2 = Ok w' /\ NoDup ins.*1 /\
         (forall u bs, (u, bs) ∈ ins <->
            edge g u n /\ u ≠ n /\
            exists wu, node_weight (if decide (u ∈ l1) then g' else g) u = Some wu /\ wu.2 = bs)).

  Lemma run_order_spec shs g order g' : NoDup order ->
    foldM (fun g n => process_node nproc (shs n) g n) g order = Ok g' -> run_spec g g' order.
  Proof.
    revert g'. induction order as [|n order IH] using rev_ind; intros g' Hnd H.
    { simpl in H. injection H as <-. split_and!; auto. intros [|? l1] ? ?; discriminate. }
    rewrite foldM_app in H. apply NoDup_app in Hnd as (Hnd & Hn & _).
    destruct (foldM _ g order) as [g1|] eqn:E; [|done]. simpl in H.
    destruct (process_node nproc (shs n) g1 n) as [g2|] eqn:E2; [|done]. injection H as <-.
    destruct (IH g1 Hnd eq_refl) as (He & Hf & Hl & Hout & Hin). clear IH E.
    apply process_node_inv in E2 as (ins & w & w' & Hins & Hw & Hp & Hs).
    apply set_weight_spec in Hs as (_ & Hf' & He' & Hl' & Hw').
    assert (Hno : n ∉ order) by (intros Hx; apply (Hn n Hx); set_solver).
    split_and!; [congruence..| |].
    - intros m Hm. rewrite Hw'. case_decide; [set_solver|]. apply Hout. set_solver.
    - intros l1 m l2 Heq.
      destruct l2 as [|z l2 _] using rev_ind.
      + apply app_inj_tail in Heq as [-> ->].
        apply inputs_of_spec in Hins as [Hfst Hmem].
        rewrite (Hout m) in Hw by done.
        exists w, w', (shs m _ ins). split_and!; [done| |done| |].
        * rewrite Hw'. by case_decide.
        * rewrite shuf_perm, Hfst. unfold input_ids. apply NoDup_remove_dups.
        * intros u bs. rewrite shuf_perm, Hmem. unfold edge. rewrite He.
          split; intros (Hed & Hne & wu & Hwu & Hbs); split_and!; auto; exists wu; split; auto.
          -- case_decide as Hc; [rewrite Hw'; by case_decide|by rewrite <- Hout].
          -- case_decide as Hc; [|by rewrite Hout]. rewrite Hw' in Hwu. by case_decide.
      + rewrite app_comm_cons, app_assoc in Heq. apply app_inj_tail in Heq as [-> ->].
        destruct (Hin l1 m l2 eq_refl) as (w0 & w0' & ins0 & H1 & H2 & H3 & H4 & H5).
        exists w0, w0', ins0. split_and!; auto.
        * rewrite Hw'. case_decide; [|done]. set_solver.
        * intros u bs. rewrite H5. split; intros (Hed & Hne & wu & Hwu & Hbs); split_and!; auto;
          exists wu; (split; [|done]); case_decide as Hc; auto.
          -- rewrite Hw'. case_decide; [|done]. set_solver.
          -- rewrite Hw' in Hwu. case_decide; [|done]. set_solver.
  Qed.

  Lemma process_spec shs g dest g' : process nproc shs g dest = Ok g' ->
    exists order, NoDup order /\ (forall n, n ∈ order <-> reaches g n dest) /\
      (forall l1 v l2 u, order = l1 ++ v :: l2 -> edge g u v -> u ∈ l1 \/ reaches g v u) /\
      run_spec g g' order.
  Proof.
    unfold process. destruct (dfs_order g dest) as [order|] eqn:E; [|done].
    apply dfs_order_spec in E as (Hnd & Hr & Ho). intros H. exists order. split_and!; auto.
    eapply run_order_spec; eauto.
  Qed.

  (** Spec: no feedback among the nodes that reach [dest] (a self loop is harmless:
      the processor skips it). *)
  Definition feedback_free g (dest : nat) : Prop :=
    forall u v, reaches g v dest -> edge g u v -> u ≠ v -> ~ reaches g v u.

  (** Spec: [g'] is the synchronous dataflow update of [g]: each audible node is
      updated once from the *new* buffers of its inputs, the rest is unchanged. *)
  Definition dataflow (g g' : sgraph W) (dest : nat) : Prop :=
    edges g' = edges g /\ free g' = free g /\ length (slots g') = length (slots g) /\
    (forall n, ~ reaches g n dest -> node_weight g' n = node_weight g n) /\
    (forall n, reaches g n dest ->
       exists w w' ins, node_weight g n = Some w /\ node_weight g' n = Some w' /\
         nproc w.1 ins w.2 = Ok w' /\ NoDup ins.*1 /\
         (forall u bs, (u, bs) ∈ ins <->
            edge g u n /\ u ≠ n /\ exists wu, node_weight g' u = Some wu /\ wu.2 = bs)).

  Lemma process_dataflow shs g dest g' : feedback_free g dest ->
    process nproc shs g dest = Ok g' -> dataflow g g' dest.
  Proof.
    intros Hff (order & Hnd & Hr & Ho & He & Hf & Hl & Hout & Hin)%process_spec.
    split_and!; auto.
    - intros n Hn. apply Hout. by rewrite Hr.
    - intros n Hn. pose proof (proj2 (Hr n) Hn) as Hmem.
      apply elem_of_list_split in Hmem as (l1 & l2 & Heq).
      destruct (Hin l1 n l2 Heq) as (w & w' & ins & H1 & H2 & H3 & H4 & H5).
      exists w, w', ins. split_and!; auto. intros u bs. rewrite H5.
      split; intros (Hed & Hne & wu & Hwu & Hbs); split_and!; auto; exists wu; (split; [|done]).
      + destruct (Ho _ _ _ u Heq Hed) as [Hu|Hc]; [by rewrite decide_True in Hwu|].
        exfalso. by apply (Hff u n).
      + destruct (Ho _ _ _ u Heq Hed) as [Hu|Hc]; [by rewrite decide_True|].
        exfalso. by apply (Hff u n).
  Qed.

  (** Same nodes and same set of connections, listed in a different order. *)
  Definition same_graph (g1 g2 : sgraph W) : Prop :=
    slots g1 = slots g2 /\ forall u v, edge g1 u v <-> edge g2 u v.

  Definition perm_invariant_at (g : sgraph W) (dest : nat) : Prop :=
    forall n w ins ins', reaches g n dest -> node_weight g n = Some w -> ins ≡ₚ ins' ->
      nproc w.1 ins w.2 = nproc w.1 ins' w.2.

  Lemma reaches_mono g1 g2 u v : (forall a b, edge g1 a b -> edge g2 a b) ->
    reaches g1 u v -> reaches g2 u v.
  Proof. intros H. apply rtc_subrel. exact H. Qed.

  Lemma keyed_perm (l1 l2 : list (nat * list buf)) : NoDup l1.*1 -> NoDup l2.*1 ->
    (forall p, p ∈ l1 <-> p ∈ l2) -> l1 ≡ₚ l2.
  Proof. intros H1 H2 H. apply NoDup_Permutation; eauto using NoDup_fmap_1. Qed.

  Lemma node_weight_ext {V} (g1 g2 : sgraph V) : length (slots g1) = length (slots g2) ->
    (forall n, node_weight g1 n = node_weight g2 n) -> slots g1 = slots g2.
  Proof.
    intros Hl H. apply list_eq. intros i. specialize (H i). unfold node_weight in H.
    destruct (slots g1 !! i) as [x|] eqn:E1, (slots g2 !! i) as [y|] eqn:E2; simpl in H.
    - by f_equal.
    - apply lookup_lt_Some in E1. apply lookup_ge_None in E2. lia.
    - apply lookup_lt_Some in E2. apply lookup_ge_None in E1. lia.
    - done.
  Qed.

  Lemma process_confluent shs1 shs2 g1 g2 dest g1' : same_graph g1 g2 ->
    feedback_free g1 dest -> perm_invariant_at g1 dest ->
    process nproc shs1 g1 dest = Ok g1' ->
    exists g2', process nproc shs2 g2 dest = Ok g2' /\ slots g2' = slots g1' /\ edges g2' = edges g2.
  Proof.
    intros [Hsl Hedge] Hff Hperm H1.
    apply process_dataflow in H1 as (He & _ & Hl & Hout & Hin); [|done].
    unfold process. destruct (dfs_order_total g2 dest) as [order Eo]. rewrite Eo.
    apply dfs_order_spec in Eo as (Hnd & Hr & Ho).
    assert (Hreq : forall u v, reaches g1 u v <-> reaches g2 u v).
    { intros u v. split; apply reaches_mono; intros; by apply Hedge. }
    assert (Hw12 : forall n, node_weight g1 n = node_weight g2 n).
    { intros n. unfold node_weight. by rewrite Hsl. }
    assert (Hgen : forall p q, order = p ++ q ->
      exists g2', foldM (fun g n => process_node nproc (shs2 n) g n) g2 p = Ok g2' /\
        edges g2' = edges g2 /\ length (slots g2') = length (slots g2) /\
        forall n, node_weight g2' n = if decide (n ∈ p) then node_weight g1' n else node_weight g2 n).
    { induction p as [|n p IH] using rev_ind; intros q Hq.
      - exists g2. split_and!; auto.
      - rewrite <- app_assoc in Hq. simpl in Hq. destruct (IH _ Hq) as (gm & Hrun & Hem & Hlm & Hwm).
        rewrite foldM_app, Hrun. simpl.
        assert (Hn : reaches g1 n dest) by (apply Hreq, Hr; set_solver).
        destruct (Hin n Hn) as (w & w' & ins & Hw & Hw' & Hp & Hndi & Hmem).
        assert (Hnp : n ∉ p).
        { rewrite Hq in Hnd. apply NoDup_app in Hnd as (_ & Hd & _). intros Hx. apply (Hd n Hx). set_solver. }
        assert (Hpred : forall u, edge g2 u n -> u ≠ n -> u ∈ p).
        { intros u Hu Hne. destruct (Ho _ _ _ u Hq Hu) as [?|Hc]; [done|].
          exfalso. apply (Hff u n); auto; [by apply Hedge|by apply Hreq]. }
        assert (Hins : exists ins2, inputs_of gm n = Ok ins2).
        { unfold inputs_of. eexists. apply (mapR_total _ (fun u => (u, from_option snd [] (node_weight gm u)))).
          intros u Hu. apply elem_of_input_ids in Hu as [Hu Hne].
          assert (Hu2 : edge g2 u n) by (unfold edge in *; by rewrite <- Hem).
          rewrite Hwm. rewrite decide_True by auto.
          assert (Hur : reaches g1 u dest) by (eapply rtc_l; [by apply Hedge|done]).
          destruct (Hin u Hur) as (? & wu & ? & ? & -> & _). done. }
        destruct Hins as [ins2 Hins2]. pose proof Hins2 as Hi2. apply inputs_of_spec in Hi2 as [Hf2 Hm2].
        assert (Hpm : shs2 n _ ins2 ≡ₚ ins).
        { rewrite shuf_perm. apply keyed_perm; [|done|].
          - rewrite Hf2. unfold input_ids. apply NoDup_remove_dups.
          - intros [u bs]. rewrite Hm2, Hmem. unfold edge. rewrite Hem.
            fold (edge g2 u n). rewrite <- Hedge. split.
            + intros (Hu & Hne & wu & Hwu & Hbs). split_and!; auto. exists wu. split; [|done].
              rewrite Hwm, decide_True in Hwu; [done|]. apply Hpred; [by apply Hedge|done].
            + intros (Hu & Hne & wu & Hwu & Hbs). split_and!; auto. exists wu. split; [|done].
              rewrite Hwm, decide_True; [done|]. apply Hpred; [by apply Hedge|done]. }
        assert (Hwn : node_weight gm n = Some w).
        { rewrite Hwm, decide_False by done. by rewrite <- Hw12. }
        unfold process_node. rewrite Hins2. simpl. rewrite Hwn. simpl.
        rewrite (Hperm n w (shs2 n _ ins2) ins) by done. rewrite Hp. simpl.
        destruct (set_weight_live gm n w') as [g3 Hg3]; [unfold live; rewrite Hwn; eauto|].
        rewrite Hg3. apply set_weight_spec in Hg3 as (_ & _ & He3 & Hl3 & Hw3).
        exists g3. split_and!; [done|congruence|congruence|].
        intros m. rewrite Hw3. case_decide as Hm.
        + subst. by rewrite decide_True by set_solver.
        + rewrite Hwm. destruct (decide (m ∈ p)); [by rewrite decide_True by set_solver|].
          by rewrite decide_False by set_solver. }
    destruct (Hgen order [] ltac:(by rewrite app_nil_r)) as (g2' & Hrun & He2 & Hl2 & Hw2).
    exists g2'. split_and!; auto.
    apply node_weight_ext; [rewrite Hl2, Hl; by rewrite Hsl|].
    intros n. rewrite Hw2. case_decide as Hn; [done|].
    rewrite <- Hw12. symmetry. apply Hout. intros Hx. apply Hn, Hr, Hreq. done.
  Qed.

  (** The processor never panics by itself. *)
  Lemma process_total shs g dest :
    (forall u v, edge g u v -> live g u /\ live g v) -> live g dest ->
    (forall st ins bufs, is_ok (nproc st ins bufs)) ->
    is_ok (process nproc shs g dest).
  Proof.
    intros Hlive Hd Hok. unfold process. destruct (dfs_order_total g dest) as [order Eo]. rewrite Eo.
    apply dfs_order_spec in Eo as (_ & Hr & _).
    assert (Hal : forall n, n ∈ order -> live g n).
    { intros n Hn%Hr. destruct Hn as [n|n m k He _]; [done|]. by apply (Hlive n m). }
    clear Hr. revert g Hlive Hd Hal. induction order as [|n order IH]; intros g Hlive Hd Hal; [done|]. simpl.
    destruct (process_node nproc (shs n) g n) as [g'|] eqn:E.
    - pose proof E as E'. apply process_node_inv in E' as (? & ? & w' & _ & Hw & _ & Hs).
      apply set_weight_spec in Hs as (_ & _ & He & _ & Hw').
      assert (Hll : forall m, live g m -> live g' m).
      { intros m Hm. unfold live. rewrite Hw'. case_decide; [by eauto|done]. }
      apply IH; [|by auto|].
      + intros u v. unfold edge. rewrite He. intros Hu. destruct (Hlive u v Hu). auto.
      + intros m Hm. apply Hll, Hal. set_solver.
    - exfalso. unfold process_node in E.
      assert (Hins : exists ins, inputs_of g n = Ok ins).
      { unfold inputs_of. eexists. apply (mapR_total _ (fun u => (u, from_option snd [] (node_weight g u)))).
        intros u Hu. apply elem_of_input_ids in Hu as [Hu _]. destruct (Hlive _ _ Hu) as [[w Hw] _].
        by rewrite Hw. }
      destruct Hins as [ins Hins]. rewrite Hins in E. simpl in E.
      destruct (Hal n ltac:(set_solver)) as [w Hw]. rewrite Hw in E. simpl in E.
      pose proof (Hok w.1 (shs n _ ins) w.2) as Hk.
      destruct (nproc w.1 (shs n _ ins) w.2) as [w'|]; [|done]. simpl in E.
      unfold set_weight in E. by rewrite Hw in E.
  Qed.
End processor_proofs.

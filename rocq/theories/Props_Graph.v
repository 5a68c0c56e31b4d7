(** * Properties of one block of processing (C16-C20), for every graph, every node
    behaviour and every hash order. *)
From Verif Require Import GraphProofs.
Local Open Scope nat_scope.

Section statements.
  Context {node buf : Type}.
  Context (nproc : node -> list (nat * list buf) -> list buf -> res (node * list buf)).
  Notation graph := (sgraph (node * list buf)).

  (** [n] went through exactly one call of [nproc], on some inputs [ins]. *)
  Definition processed_once (g g' : graph) (n : nat) (ins : list (nat * list buf)) : Prop :=
    exists w w', node_weight g n = Some w /\ node_weight g' n = Some w' /\ nproc w.1 ins w.2 = Ok w'.

  (** C16: the nodes that can reach the output are processed once each, with one
      entry per distinct input other than the node itself; no other node is touched. *)
  Theorem C16_heard_nodes_processed_once shs (g g' : graph) dest :
    process nproc shs g dest = Ok g' ->
    (forall n, reaches g n dest ->
       exists ins, processed_once g g' n ins /\ NoDup ins.*1 /\
         forall u, u ∈ ins.*1 <-> edge g u n /\ u ≠ n) /\
    (forall n, ~ reaches g n dest -> node_weight g' n = node_weight g n).
  Proof.
    intros (order & Hnd & Hr & Ho & He & Hf & Hl & Hout & Hin)%process_spec. split.
    - intros n Hn%Hr. apply elem_of_list_split in Hn as (l1 & l2 & Heq).
      destruct (Hin _ _ _ Heq) as (w & w' & ins & H1 & H2 & H3 & H4 & H5).
      exists ins. split; [by exists w, w'|]. split; [done|]. intros u. split.
      + intros ([u' bs] & -> & Hu)%elem_of_list_fmap. apply H5 in Hu as (? & ? & _). done.
      + intros [Hed Hne].
        assert (Hlive : exists wu, node_weight (if decide (u ∈ l1) then g' else g) u = Some wu).
        { assert (Hu : u ∈ order).
          { apply Hr. apply rtc_l with n; [done|]. apply Hr. rewrite Heq. set_solver. }
          apply elem_of_list_split in Hu as (k1 & k2 & Hk).
          destruct (Hin _ _ _ Hk) as (wu & wu' & _ & Hu1 & Hu2 & _).
          case_decide; eauto. }
        destruct Hlive as [wu Hwu]. apply elem_of_list_fmap. exists (u, wu.2). split; [done|].
        apply H5. split_and!; auto. exists wu. done.
    - intros n Hn. apply Hout. by rewrite Hr.
  Qed.

  (** C17: without feedback each heard node reads the buffers its inputs have after
      this block. *)
  Theorem C17_inputs_before_use shs (g g' : graph) dest :
    feedback_free g dest -> process nproc shs g dest = Ok g' ->
    forall n, reaches g n dest ->
      exists ins, processed_once g g' n ins /\ NoDup ins.*1 /\
        forall u bs, (u, bs) ∈ ins <->
          edge g u n /\ u ≠ n /\ exists st, node_weight g' u = Some (st, bs).
  Proof.
    intros Hff Hp n Hn. destruct (process_dataflow _ _ _ _ _ Hff Hp) as (_ & _ & _ & _ & Hin).
    destruct (Hin n Hn) as (w & w' & ins & H1 & H2 & H3 & H4 & H5).
    exists ins. split; [by exists w, w'|]. split; [done|]. intros u bs. rewrite H5.
    split; intros (? & ? & x & Hx); split_and!; auto.
    - destruct Hx as [Hx <-]. destruct x. by eexists.
    - by exists (x, bs).
  Qed.

  (** C18: processing ends on every graph with live end points and non-panicking
      nodes (feedback included), and every input is read either as it is after the
      block or, only when the node itself feeds that input, as it was before. *)
  Theorem C18_feedback_total shs (g : graph) dest :
    (forall u v, edge g u v -> live g u /\ live g v) -> live g dest ->
    (forall st ins bufs, is_ok (nproc st ins bufs)) ->
    exists g', process nproc shs g dest = Ok g'.
  Proof.
    intros H1 H2 H3. pose proof (process_total nproc shs g dest H1 H2 H3) as H.
    destruct (process nproc shs g dest); [by eexists|done].
  Qed.
  Theorem C18_feedback_reads_previous_block shs (g g' : graph) dest :
    process nproc shs g dest = Ok g' ->
    forall n, reaches g n dest ->
      exists ins, processed_once g g' n ins /\
        forall u bs, (u, bs) ∈ ins ->
          (exists st, node_weight g' u = Some (st, bs)) \/
          (reaches g n u /\ exists st, node_weight g u = Some (st, bs)).
  Proof.
    intros (order & Hnd & Hr & Ho & He & Hf & Hl & Hout & Hin)%process_spec n Hn.
    apply Hr, elem_of_list_split in Hn as (l1 & l2 & Heq).
    destruct (Hin _ _ _ Heq) as (w & w' & ins & H1 & H2 & H3 & H4 & H5).
    exists ins. split; [by exists w, w'|]. intros u bs Hu. apply H5 in Hu as (Hed & Hne & [st b] & Hw & <-).
    destruct (decide (u ∈ l1)) as [Hl1|Hl1].
    - left. by exists st.
    - right. split; [|by exists st]. by destruct (Ho _ _ _ _ Heq Hed).
  Qed.

  (** C19: what cannot be heard does not move. *)
  Theorem C19_silent_parts_frozen shs (g g' : graph) dest :
    process nproc shs g dest = Ok g' ->
    (forall n, ~ reaches g n dest -> node_weight g' n = node_weight g n) /\
    (forall u v, edge g' u v <-> edge g u v) /\ (forall n, live g' n <-> live g n).
  Proof.
    intros Hp. pose proof Hp as (order & Hnd & Hr & Ho & He & Hf & Hl & Hout & Hin)%process_spec.
    split_and!.
    - intros n Hn. apply Hout. by rewrite Hr.
    - intros u v. unfold edge. by rewrite He.
    - intros n. unfold live. destruct (decide (n ∈ order)) as [Hn|Hn]; [|by rewrite Hout].
      apply elem_of_list_split in Hn as (l1 & l2 & Heq).
      destruct (Hin _ _ _ Heq) as (w & w' & ins & -> & -> & _). split; eauto.
  Qed.

  (** C20, positive part: when the graph has no feedback and no heard node cares about
      the order of its inputs, neither the hash orders nor the order in which the
      connections were made can be observed. *)
  Theorem C20_hash_order_irrelevant_partial shs1 shs2 (g1 g2 g1' : graph) dest :
    slots g1 = slots g2 -> (forall u v, edge g1 u v <-> edge g2 u v) ->
    feedback_free g1 dest ->
    (forall n w ins ins', reaches g1 n dest -> node_weight g1 n = Some w -> ins ≡ₚ ins' ->
       nproc w.1 ins w.2 = nproc w.1 ins' w.2) ->
    process nproc shs1 g1 dest = Ok g1' ->
    exists g2', process nproc shs2 g2 dest = Ok g2' /\ slots g2' = slots g1'.
  Proof.
    intros Hs He Hff Hpi Hp.
    destruct (process_confluent nproc shs1 shs2 g1 g2 dest g1' (conj Hs He) Hff Hpi Hp) as (g2' & ? & ? & _).
    by exists g2'.
  Qed.
End statements.
Print Assumptions C16_heard_nodes_processed_once.
Print Assumptions C17_inputs_before_use.
Print Assumptions C18_feedback_total.
Print Assumptions C18_feedback_reads_previous_block.
Print Assumptions C19_silent_parts_frozen.
Print Assumptions C20_hash_order_irrelevant_partial.

(** Non-vacuity: counters that add up their inputs; 2 -> 1 -> 0, 3 -> 0, 3 <-> 4
    (feedback), 5 not heard. *)
Definition ex_proc (st : nat) (ins : list (nat * list nat)) (b : list nat) : res (nat * list nat) :=
  Ok (S st, [st + foldl (fun a p => a + match p.2 with x :: _ => x | [] => 0 end) 0 ins]).
Definition ex_graph (loop : bool) : sgraph (nat * list nat) :=
  SGraph [Some (0, [0]); Some (10, [0]); Some (20, [0]); Some (30, [5]); Some (40, [0]); Some (50, [0])] []
         ((2, 1) :: (1, 0) :: (3, 0) :: (if loop then [(3, 4); (4, 3)] else [(4, 3); (3, 3)])).
Example ex_graph_runs :
  (exists g', process ex_proc (fun _ => id_shuffle) (ex_graph true) 0 = Ok g' /\
     (snd <$> node_weight g' 0) = Some [105]) /\
  (exists g', process ex_proc (fun _ => rev_shuffle) (ex_graph false) 0 = Ok g' /\
     (snd <$> node_weight g' 0) = Some [100]).
Proof. split; eexists; (split; [vm_compute; reflexivity|reflexivity]). Qed.
Lemma ex_edge u v : edge (ex_graph false) u v -> (u, v) ∈ [(2, 1); (1, 0); (3, 0); (4, 3); (3, 3)].
Proof. done. Qed.
Example ex_graph_feedback_free : feedback_free (ex_graph false) 0.
Proof.
  (* edges never increase the rank 2,1,0 / 4,3,0 *)
  assert (Hmono : forall a b, reaches (ex_graph false) a b -> b ≤ a).
  { intros a b H. unfold reaches in H. induction H as [x|x y z He _ IH]; [lia|].
    apply ex_edge in He. repeat (apply elem_of_cons in He as [He|He]; [injection He as -> ->; lia|]). set_solver. }
  intros u v _ He Hne Hr. apply Hmono in Hr. apply ex_edge in He.
  repeat (apply elem_of_cons in He as [He|He]; [injection He as -> ->; lia|]). set_solver.
Qed.

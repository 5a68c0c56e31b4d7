(** * WeightProofs: properties of nodes and their buffers that every history keeps. *)
From Verif Require Export HistoryProofs.
From Coq Require Import Lia.
Local Open Scope nat_scope.

Section all_weights.
  Context {node buf : Type} (R : nat -> node -> list buf -> Prop).
  Notation W := (node * list buf)%type.
  Implicit Types g : sgraph W.

  (** Every live node of a graph satisfies [R]. *)
  Definition gall g : Prop := forall n w, node_weight g n = Some w -> R n w.1 w.2.

  Lemma gall_same g g' : gall g -> (forall n, node_weight g' n = node_weight g n) -> gall g'.
  Proof. intros H Hs n w. rewrite Hs. apply H. Qed.
  Lemma gall_set g n w g' : gall g -> R n w.1 w.2 -> set_weight g n w = Ok g' -> gall g'.
  Proof.
    intros H Hw (_ & _ & _ & _ & Hs)%set_weight_spec m v. rewrite Hs. case_decide as Hm; [|apply H].
    intros [= <-]. by subst m.
  Qed.

  Context (nproc : node -> list (nat * list buf) -> list buf -> res (node * list buf)).
  Lemma inputs_of_all g n ins : gall g -> inputs_of g n = Ok ins -> Forall (fun p => exists st, R p.1 st p.2) ins.
  Proof.
    intros Hg H%mapR_Ok. induction H as [|u p us ps Hp _ IH]; constructor; [|done].
    destruct (node_weight g u) as [w|] eqn:E; [|done]. injection Hp as <-. simpl. exists w.1. by apply Hg.
  Qed.
  (** One pass of the processor keeps it, if every node does. *)
  Lemma gall_process shs g dest g' : gall g ->
    (forall n st ins b st' b', R n st b -> Forall (fun p => exists s, R p.1 s p.2) ins ->
       nproc st ins b = Ok (st', b') -> R n st' b') ->
    process nproc shs g dest = Ok g' -> gall g'.
  Proof.
    intros Hg Hp. unfold process. destruct (dfs_order g dest) as [order|]; [|done]. intros H.
    eapply (foldM_inv gall); [exact Hg| |exact H]. intros x n x' Hx _ E.
    unfold process_node, mbind, res_bind in E. destruct (inputs_of x n) as [ins|] eqn:Ei; [|done].
    destruct (node_weight x n) as [w|] eqn:Ew; [|done]. simpl in E.
    destruct (nproc w.1 (shs n _ ins) w.2) as [[st' b']|] eqn:En; [|done].
    eapply gall_set; [exact Hx| |exact E]. simpl. eapply Hp; [|apply (Permutation_Forall (symmetry (shuf_perm (shs n) _ ins)))|exact En].
    - by apply Hx.
    - by eapply inputs_of_all.
  Qed.
End all_weights.

Section histories.
  Context (L : lang) (R : nat -> node L -> list (buf L) -> Prop).
  Notation W := (node L * list (buf L))%type.
  Notation graph := (sgraph W).
  Notation engine := (engine L).
  (** The destination is always node 0. *)
  Context (Rdest : R 0 (dest_w L).1 (dest_w L).2).
  Context (Rpass : forall n, n <> 0 -> R n (pass_w L).1 (pass_w L).2).
  Context (Rmake : forall n ev c w refs, n <> 0 -> makenode ev c = Done (w, refs) -> R n w.1 w.2).
  Context (Rmsg : forall n st b m st', R n st b -> nmsg st m = Ok st' -> R n st' b).
  Context (Rproc : forall n st ins b st' b', R n st b -> Forall (fun p => exists s, R p.1 s p.2) ins ->
             nproc st ins b = Ok (st', b') -> R n st' b').
  Context (Rcopy : forall n st bs ch b s b', R n st bs -> bs !! ch = Some b -> copy_slice b s = Ok b' ->
             R n st (<[ch := b']> bs)).

  Definition eall (e : engine) : Prop := en_dest L e = 0 /\ gall R (en_graph L e).

  Lemma gall_send_to (g : graph) n m g' : gall R g -> send_to L g n m = Ok g' -> gall R g'.
  Proof.
    intros Hg (w & st & Hw & Hm & Hs)%send_to_spec. eapply gall_set; [done| |exact Hs]. simpl.
    eapply Rmsg; [|exact Hm]. by apply Hg.
  Qed.
  Lemma gall_connect (g : graph) a b g' : gall R g -> connect L g a b = Ok g' -> gall R g'.
  Proof.
    intros Hg. unfold connect. destruct (add_edge g a b) as [g1|] eqn:E; [|done]. apply gall_send_to.
    apply add_edge_spec in E as (_ & _ & Hs & _). eapply gall_same; [done|]. intros n. unfold node_weight. by rewrite Hs.
  Qed.
  Lemma gall_connect_with_order (g : graph) a b k g' : gall R g -> connect_with_order L g a b k = Ok g' -> gall R g'.
  Proof.
    intros Hg. unfold connect_with_order. destruct (add_edge g a b) as [g1|] eqn:E; [|done]. apply gall_send_to.
    apply add_edge_spec in E as (_ & _ & Hs & _). eapply gall_same; [done|]. intros n. unfold node_weight. by rewrite Hs.
  Qed.
  Lemma gall_connect_last ids to (g : graph) g' : gall R g -> connect_last L ids to g = Ok g' -> gall R g'.
  Proof. unfold connect_last. destruct (last ids); [|done]. apply gall_connect. Qed.
  Lemma gall_connect_ref sh t to (g : graph) r g' : gall R g -> connect_ref L sh t to g r = Ok g' -> gall R g'.
  Proof.
    intros Hg. unfold connect_ref. destruct (contains_dotdot r).
    - intros H. eapply (foldM_inv (gall R)); [exact Hg| |exact H]. intros x kv x' Hx _.
      cbv beta. destruct (starts_with kv.1 (remove_dotdot r)); [|by intros [= <-]]. by apply gall_connect_last.
    - destruct (t !! r); [|done]. by apply gall_connect_last.
  Qed.
  Lemma gall_connect_refs sh t l (g : graph) s er g' s' er' : gall R g ->
    foldM (connect_refs_one L sh t) (g, s, er) l = Ok (g', s', er') -> gall R g'.
  Proof.
    intros Hg H. apply (foldM_inv (fun st : ref_state L => gall R st.1.1)) in H; [done|done|].
    intros [[x sx] ex] p [[x' sx'] ex'] Hx _. simpl in *. destruct ex; [by intros [= <- <- <-]|].
    destruct (t !! p.1.2) as [ids|]; [|by intros [= <- <- <-]]. destruct (ids !! p.2) as [idx|]; [|done].
    assert (Hr : forall y y', gall R y -> foldM (connect_ref L sh t idx) y p.1.1 = Ok y' -> gall R y').
    { intros y y' Hy Hf. eapply (foldM_inv (gall R)); [exact Hy| |exact Hf]. intros; by eapply gall_connect_ref. }
    case_decide.
    - destruct (foldM (connect_ref L sh t idx) _ _) as [y|] eqn:E; [|done]. intros [= <- <- <-]. by eapply Hr.
    - destruct (send_to _ _ _ _) as [y|] eqn:E0; [|done].
      destruct (foldM (connect_ref L sh t idx) _ _) as [y'|] eqn:E; [|done]. intros [= <- <- <-].
      eapply Hr; [|exact E]. by eapply gall_send_to.
  Qed.
  Lemma gall_connect_chain d (g : graph) kv g' : gall R g -> connect_chain L d g kv = Ok g' -> gall R g'.
  Proof.
    intros Hg. unfold connect_chain. destruct (foldM _ g _) as [g1|] eqn:E; [|done].
    assert (H1 : gall R g1).
    { eapply (foldM_inv (gall R)); [exact Hg| |exact E]. intros x b x' Hx _. by apply gall_connect_with_order. }
    destruct (contains_char _ _); [by intros [= <-]|]. destruct (last _); [|by intros [= <-]].
    by apply gall_connect_with_order.
  Qed.

  Lemma add_one_all st a st' : wf_graph st.1.1 -> live st.1.1 0 -> gall R st.1.1 ->
    (forall n, n <> 0 -> R n a.2.1 a.2.2) -> add_one L st a = Ok st' ->
    wf_graph st'.1.1 /\ live st'.1.1 0 /\ gall R st'.1.1.
  Proof.
    destruct st as [[g temp] t], a as [[name pos] w]. simpl. intros Hwf Hl Hg Ha.
    unfold add_one. pose proof (add_node_spec g w Hwf) as Hadd.
    destruct (add_node g w) as [g' id]. destruct Hadd as (Hnl & Hw & He' & Hwf').
    assert (Hid : id <> 0) by (intros ->; done).
    assert (Hres : wf_graph g' /\ live g' 0 /\ gall R g').
    { split_and!; [done| |].
      - unfold live. rewrite Hw. case_decide; [done|done].
      - intros n v. rewrite Hw. case_decide as Hn; [|apply Hg]. intros [= <-]. subst n. by apply Ha. }
    destruct (t !! name) as [ids|]; [|by intros [= <-]].
    destruct (vec_insert _ _ _); [|done]. by intros [= <-].
  Qed.

  Lemma made_all ev old l d : diff_chains L ev old l (diff0 L) = Done d ->
    forall a n, a ∈ d_adds L d -> n <> 0 -> R n a.2.1 a.2.2.
  Proof.
    intros H a n Ha Hn. apply diff_chains_spec in H as (_ & Hadds & _). rewrite Hadds in Ha. simpl in Ha.
    apply elem_of_list_bind in Ha as (kn & Ha & _). apply elem_of_list_bind in Ha as (p & Ha & _).
    unfold add_entry, node_of in Ha. destruct (makenode ev p.2) as [[w refs]| |] eqn:E; [|by apply elem_of_nil in Ha..].
    apply elem_of_list_singleton in Ha as ->. simpl. by eapply Rmake.
  Qed.

  Lemma update_all o e new e' er : einv L e -> eall e -> update_ast L o e new = Ok (e', er) -> eall e'.
  Proof.
    intros He [Hd Hg] H. destruct er as [er|].
    { apply update_ast_fail in H; [|done]. destruct H as [H1 _ H3 _ _ _ _ _ _ _ _ _]. split; [congruence|].
      eapply gall_same; [exact Hg|exact H1]. }
    revert H. unfold update_ast.
    destruct (plan L o (set_temp L e []) new) as [[[d t] ids]|er0|] eqn:Ep; [|done..].
    change (en_graph L (set_temp L e [])) with (en_graph L e).
    destruct (foldM (add_one L) (en_graph L e, [], t) (d_adds L d)) as [[[g temp] t']|] eqn:Ea; [|done].
    destruct (ref_check L t' new (ref_names (d_refs L d))) as [r|] eqn:Er; [done|].
    assert (Ha : wf_graph g /\ live g 0 /\ gall R g).
    { pose proof (plan_diff _ _ _ _ _ _ _ Ep) as Hp.
      refine (foldM_inv (fun st => wf_graph st.1.1 /\ live st.1.1 0 /\ gall R st.1.1) _ _ _ _ _ _ Ea).
      - split_and!; [apply (ei_wf _ _ He)| |done]. apply (ei_live _ _ He). left. by rewrite Hd.
      - intros x a x' (H1 & H2 & H3) Hin. apply add_one_all; auto. intros n Hn. by eapply made_all. }
    destruct Ha as (Hwf & _ & Hga). unfold rewire. simpl.
    destruct (foldM (connect_refs_one _ _ _) _ _) as [[[g2 s2] [er2|]]|] eqn:Ec; [done| |done].
    destruct (foldM (connect_chain L _) _ _) as [g3|] eqn:Ec2; [|done]. intros [= <-]. split; [done|]. simpl.
    destruct (remove_nodes_spec ids g Hwf) as (Hr1 & _ & _).
    assert (H1 : gall R (clear_edges (foldl remove_node g ids))).
    { intros n w Hw. change (node_weight (foldl remove_node g ids) n = Some w) in Hw. rewrite Hr1 in Hw.
      case_decide; [done|]. by apply Hga. }
    eapply (foldM_inv (gall R)); [eapply gall_connect_refs; [exact H1|exact Ec]| |exact Ec2].
    intros x kv x' Hx _. by apply gall_connect_chain.
  Qed.

  Lemma write_channel_all e ch s e' : eall e -> write_channel L e ch s = Ok e' -> eall e'.
  Proof.
    intros [Hd Hg]. unfold write_channel. destruct (_ !! input_name) as [ids|]; [|done].
    destruct (ids !! 0) as [id|]; [|done]. destruct (node_weight _ id) as [w|] eqn:Ew; [|done].
    destruct (w.2 !! ch) as [b|] eqn:Eb; [|done]. destruct (copy_slice b s) as [b'|] eqn:Es; [|done].
    destruct (set_weight _ _ _) as [g|] eqn:E; [|done]. intros [= <-]. split; [done|]. simpl.
    eapply gall_set; [exact Hg| |exact E]. simpl. eapply Rcopy; [by apply Hg|exact Eb|exact Es].
  Qed.
  Lemma send_command_all c e s e' : eall e -> send_command L c e s = Ok e' -> eall e'.
  Proof.
    intros [Hd Hg]. unfold send_command. destruct (split_on "," s) as [|a [|b [|d [|v r]]]]; try (by intros [= <-]).
    destruct (_ !! a) as [ids|]; [|by intros [= <-]]. destruct (ids !! _) as [id|]; [|done].
    destruct (send_to _ _ _ _) as [g|] eqn:E1; [|done]. intros [= <-]. split; [done|]. by eapply gall_send_to.
  Qed.

  Lemma step_all blk e c e' ob : einv L e -> eall e -> step L blk e c = Ok (e', ob) -> eall e'.
  Proof.
    intros He Hx. destruct c as [o code|shs ins|c m|nm s|b|sr|sd|]; simpl.
    - unfold update. destruct (parse code) as [new|er|]; [|by intros [= <- <-]|done].
      destruct (update_ast L o e new) as [[e1 [er|]]|] eqn:E; [| |done]; intros [= <- <-]; by eapply update_all.
    - unfold next_block. destruct (write_input L e ins) as [e1|] eqn:Ew; [|done].
      assert (H1 : eall e1).
      { revert Ew. unfold write_input. destruct ins as [|s0 rest]; [by intros [= <-]|].
        destruct (write_channel L e 0 s0) as [e2|] eqn:E0; [|done].
        assert (H2 : eall e2) by (by eapply write_channel_all).
        destruct rest; [by intros [= <-]|]. by apply write_channel_all. }
      destruct (process nproc shs (en_graph L e1) (en_dest L e1)) as [g|] eqn:Ep; [|done].
      destruct (node_weight g (en_dest L e1)) as [w|]; [|done]. intros [= <- <-].
      destruct H1 as [Hd H1]. split; [done|]. simpl. by eapply gall_process.
    - unfold send_msg. destruct (foldM _ _ _) as [e1|] eqn:E; [|done]. intros [= <- <-].
      eapply (foldM_inv eall); [exact Hx| |exact E]. intros; by eapply send_command_all.
    - by intros [= <- <-].
    - unfold set_bpm. destruct (send_to_all _ _ _) as [g|] eqn:E; [|done]. intros [= <- <-].
      destruct Hx as [Hd Hg]. split; [done|]. simpl. apply send_to_all_spec in E as (_ & _ & _ & Hw).
      intros n w Hn. specialize (Hw n). destruct (node_weight (en_graph L e) n) as [w0|] eqn:E0; [|congruence].
      destruct Hw as (st & Hm & Hw). rewrite Hw in Hn. injection Hn as <-. simpl. eapply Rmsg; [|exact Hm]. by apply Hg.
    - by intros [= <- <-].
    - by intros [= <- <-].
    - intros [= <- <-]. split; [done|]. intros n w Hn. simpl in Hn.
      destruct n as [|[|n]]; simpl in Hn; [injection Hn as <-; done|injection Hn as <-; by apply Rpass|done].
  Qed.

  Lemma new_all : eall (engine_new L).
  Proof.
    split; [done|]. intros n w Hn.
    destruct n as [|[|[|n]]]; simpl in Hn; [injection Hn as <-; done|injection Hn as <-; by apply Rpass..|done].
  Qed.

  (** Whatever the calls, every node keeps [R]. *)
  Theorem reachable_all blk e : reachable L blk e -> eall e.
  Proof.
    intros (cs & obs & H).
    assert (Hrun : forall cs e0 obs, einv L e0 -> eall e0 -> run L blk e0 cs = Ok (e, obs) -> eall e).
    { clear -Rdest Rpass Rmake Rmsg Rproc Rcopy. induction cs as [|c cs IH]; intros e0 obs He H0; simpl.
      - intros [= <- <-]. done.
      - destruct (step L blk e0 c) as [[e1 ob]|] eqn:E; [|done].
        destruct (run L blk e1 cs) as [[e2 obs']|] eqn:E2; [|done]. intros [= <- <-].
        eapply IH; [| |exact E2]; [by eapply step_inv|by eapply step_all]. }
    eapply Hrun; [apply engine_new_inv|apply new_all|exact H].
  Qed.
End histories.

(** * HistoryProofs: invariants over arbitrary histories of API calls, and the
    invisibility of failed updates. *)
From Verif Require Export UpdateProofs.
From Coq Require Import Lia.
Local Open Scope nat_scope.

Section dfs_ext.
  Context {W : Type}.
  Lemma dfs_order_edges (g1 g2 : sgraph W) dest : edges g1 = edges g2 -> dfs_order g1 dest = dfs_order g2 dest.
  Proof.
    intros He. unfold dfs_order. rewrite He.
    assert (Hs : forall s, dfs_step g1 s = dfs_step g2 s).
    { intros s. unfold dfs_step, in_neighbors. by rewrite He. }
    generalize (2 * length (edges g2) + 3) as fuel. intros fuel.
    generalize (Dfs [dest] [] []) as s. induction fuel as [|k IH]; intros s; simpl; [done|].
    rewrite Hs. by destruct (dfs_step g2 s).
  Qed.
End dfs_ext.

Section history.
  Context (L : lang).
  Notation W := (node L * list (buf L))%type.
  Notation ast := (gmap string (list (comp L))).
  Notation graph := (sgraph W).
  Notation engine := (engine L).

  (** ** Invariant *)

  Definition same_live (g g' : graph) : Prop :=
    (wf_graph g -> wf_graph g') /\ (forall n, live g' n <-> live g n).

  Lemma einv_graph e e' : einv L e ->
    same_live (en_graph L e) (en_graph L e') -> en_dest L e' = en_dest L e -> en_input L e' = en_input L e ->
    en_info L e' = en_info L e -> en_backup L e' = en_backup L e -> en_ast L e' = en_ast L e -> einv L e'.
  Proof.
    intros [Hwf Hb Hi Hne Hd Hinp Hl Hk] [H1 H2] Hed Hei Hti Htb Hast.
    split; rewrite ?Hti, ?Htb, ?Hed, ?Hei; auto.
    - intros n. rewrite H2. apply Hl.
    - rewrite Hast. done.
  Qed.

  Lemma set_weight_same_live (g : graph) n w g' : set_weight g n w = Ok g' -> same_live g g'.
  Proof.
    intros H. split; [intros; eapply set_weight_wf; eauto|].
    apply set_weight_spec in H as ((w0 & Hw0) & _ & _ & _ & Hw).
    intros m. unfold live. rewrite Hw. case_decide; [subst; rewrite Hw0; split; eauto|done].
  Qed.

  Lemma process_same_live shs (g : graph) dest g' : process nproc shs g dest = Ok g' -> same_live g g'.
  Proof.
    intros (order & _ & _ & _ & He & Hf & Hl & Hout & Hin)%process_spec.
    assert (Hlive : forall n, live g' n <-> live g n).
    { intros n. destruct (decide (n ∈ order)) as [Hn|Hn].
      - apply elem_of_list_split in Hn as (l1 & l2 & ->).
        destruct (Hin l1 n l2 eq_refl) as (w & w' & ins & H1 & H2 & _).
        unfold live. rewrite H1, H2. split; eauto.
      - unfold live. by rewrite Hout. }
    split; [|done]. intros Hwf. eapply wf_transfer; eauto.
  Qed.

  Lemma send_to_same_live (g : graph) n m g' : send_to L g n m = Ok g' -> same_live g g'.
  Proof. intros (w & st & _ & _ & Hs)%send_to_spec. by eapply set_weight_same_live. Qed.

  Lemma write_channel_inv e ch s e' : einv L e -> write_channel L e ch s = Ok e' -> einv L e'.
  Proof.
    intros He. unfold write_channel. destruct (_ !! input_name) as [ids|]; [|done].
    destruct (ids !! 0) as [id|]; [|done]. destruct (node_weight _ _) as [w|]; [|done].
    destruct (w.2 !! ch) as [b|]; [|done]. destruct (copy_slice b s) as [b'|]; [|done].
    destruct (set_weight _ _ _) as [g|] eqn:E; [|done]. intros [= <-].
    eapply einv_graph; eauto. by eapply set_weight_same_live.
  Qed.

  Lemma mapR_lookup {A B} (f : A -> res B) l l' i : mapR f l = Ok l' ->
    match l !! i, l' !! i with
    | Some a, Some b => f a = Ok b
    | None, None => True
    | _, _ => False
    end.
  Proof.
    intros H%mapR_Ok. destruct (l !! i) as [a|] eqn:E.
    - destruct (Forall2_lookup_l _ _ _ _ _ H E) as (b & -> & ?). done.
    - apply Forall2_length in H. apply lookup_ge_None in E. rewrite lookup_ge_None_2 by lia. done.
  Qed.

  Definition slot_msg (m : msg) (s : option W) : res (option W) :=
    match s with
    | Some w => match nmsg w.1 m with Ok st => Ok (Some (st, w.2)) | Panic => Panic end
    | None => Ok None
    end.

  Lemma send_to_all_spec (g : graph) m g' : send_to_all L g m = Ok g' ->
    free g' = free g /\ edges g' = edges g /\ length (slots g') = length (slots g) /\
    (forall n, match node_weight g n with
               | Some w => exists st, nmsg w.1 m = Ok st /\ node_weight g' n = Some (st, w.2)
               | None => node_weight g' n = None
               end).
  Proof.
    unfold send_to_all. change (fun s : option W => _) with (slot_msg m).
    destruct (mapR (slot_msg m) (slots g)) as [sl|] eqn:E; [|done]. intros [= <-]. simpl.
    split_and!; [done|done|symmetry; eapply Forall2_length, mapR_Ok; done|].
    intros n. pose proof (mapR_lookup _ _ _ n E) as H. unfold node_weight. simpl.
    destruct (slots g !! n) as [[w|]|], (sl !! n) as [s'|]; simpl in *; try done.
    - destruct (nmsg w.1 m) as [st|]; [|done]. injection H as <-. eauto.
    - by injection H as <-.
  Qed.

  Lemma send_to_all_same_live (g : graph) m g' : send_to_all L g m = Ok g' -> same_live g g'.
  Proof.
    intros (Hf & He & Hl & Hw)%send_to_all_spec.
    assert (Hlive : forall n, live g' n <-> live g n).
    { intros n. unfold live. specialize (Hw n). destruct (node_weight g n) as [w|].
      - destruct Hw as (st & _ & ->). split; eauto.
      - rewrite Hw. done. }
    split; [|done]. intros. eapply wf_transfer; eauto.
  Qed.

  Lemma send_command_inv c e s e' : einv L e -> send_command L c e s = Ok e' -> einv L e'.
  Proof.
    intros He. unfold send_command. destruct (split_on "," s) as [|a [|b [|d [|v r]]]];
      try (by intros [= <-]).
    destruct (_ !! a) as [ids|]; [|by intros [= <-]]. destruct (ids !! _) as [id|]; [|done].
    destruct (send_to _ _ _ _) as [g|] eqn:E; [|done]. intros [= <-].
    eapply einv_graph; eauto. by eapply send_to_same_live.
  Qed.

  Lemma step_inv blk e c e' ob : einv L e -> step L blk e c = Ok (e', ob) -> einv L e'.
  Proof.
    intros He. destruct c as [o code|shs ins|c m|nm s|b|sr|sd|]; simpl.
    - unfold update. destruct (parse code) as [new|er|]; [| |done].
      + destruct (update_ast L o e new) as [[e1 [er|]]|] eqn:E; [| |done]; intros [= <- <-];
        by eapply update_ast_inv.
      + intros [= <- <-]. done.
    - unfold next_block. destruct (write_input L e ins) as [e1|] eqn:E; [|done].
      assert (He1 : einv L e1).
      { unfold write_input in E. destruct ins as [|s0 rest]; [by injection E as <-|].
        destruct (write_channel L e 0 s0) as [e2|] eqn:E0; [|done].
        pose proof (write_channel_inv _ _ _ _ He E0).
        destruct rest as [|s1 rest]; [by injection E as <-|]. by eapply write_channel_inv. }
      destruct (process _ _ _ _) as [g|] eqn:Ep; [|done].
      destruct (node_weight g _) as [w|]; [|done]. intros [= <- <-].
      eapply einv_graph; eauto. by eapply process_same_live.
    - unfold send_msg. destruct (foldM _ _ _) as [e1|] eqn:E; [|done]. intros [= <- <-].
      eapply (foldM_inv (einv L)); [exact He| |exact E]. intros; by eapply send_command_inv.
    - intros [= <- <-]. eapply einv_graph; eauto. by split.
    - unfold set_bpm. destruct (send_to_all _ _ _) as [g|] eqn:E; [|done]. intros [= <- <-].
      eapply einv_graph; eauto. by eapply send_to_all_same_live.
    - intros [= <- <-]. eapply einv_graph; eauto. by split.
    - intros [= <- <-]. eapply einv_graph; eauto. by split.
    - intros [= <- <-]. apply engine_reset_inv.
  Qed.

  Lemma run_inv blk e cs e' obs : einv L e -> run L blk e cs = Ok (e', obs) -> einv L e'.
  Proof.
    revert e obs. induction cs as [|c cs IH]; intros e obs He; simpl; [by intros [= <- <-]|].
    destruct (step L blk e c) as [[e1 ob]|] eqn:E; [|done].
    destruct (run L blk e1 cs) as [[e2 obs']|] eqn:E2; [|done]. intros [= <- <-].
    eapply IH; [|exact E2]. by eapply step_inv.
  Qed.

  (** Engines reachable from a new one by any history that does not panic. *)
  Definition reachable (blk : Z) (e : engine) : Prop :=
    exists cs obs, run L blk (engine_new L) cs = Ok (e, obs).

  Lemma reachable_inv blk e : reachable blk e -> einv L e.
  Proof. intros (cs & obs & H). eapply run_inv; [apply engine_new_inv|exact H]. Qed.

  (** ** Simulation *)

  Lemma set_weight_eqv (g1 g2 : graph) n w g1' :
    (forall n, node_weight g1 n = node_weight g2 n) -> edges g1 = edges g2 ->
    set_weight g1 n w = Ok g1' ->
    exists g2', set_weight g2 n w = Ok g2' /\ (forall n, node_weight g1' n = node_weight g2' n) /\ edges g1' = edges g2'.
  Proof.
    intros Hw He H. pose proof H as H'. apply set_weight_spec in H' as ((w0 & Hw0) & _ & He1 & _ & Hw1).
    destruct (set_weight_live g2 n w) as [g2' H2]; [exists w0; by rewrite <- Hw|].
    exists g2'. split; [done|]. apply set_weight_spec in H2 as (_ & _ & He2 & _ & Hw2). split.
    - intros m. rewrite Hw1, Hw2. by case_decide.
    - congruence.
  Qed.

  Lemma process_node_eqv sh (g1 g2 : graph) n g1' :
    (forall n, node_weight g1 n = node_weight g2 n) -> edges g1 = edges g2 ->
    process_node nproc sh g1 n = Ok g1' ->
    exists g2', process_node nproc sh g2 n = Ok g2' /\ (forall n, node_weight g1' n = node_weight g2' n) /\ edges g1' = edges g2'.
  Proof.
    intros Hw He (ins & w & w' & H1 & H2 & H3 & H4)%process_node_inv.
    destruct (set_weight_eqv _ _ _ _ _ Hw He H4) as (g2' & H5 & H6 & H7).
    exists g2'. split; [|done]. unfold process_node.
    assert (inputs_of g2 n = Ok ins) as ->.
    { rewrite <- H1. unfold inputs_of, input_ids, in_neighbors. rewrite He.
      clear -Hw. induction (remove_dups _) as [|u l IH]; simpl; [done|]. by rewrite Hw, IH. }
    simpl. rewrite <- Hw, H2. simpl. rewrite H3. simpl. done.
  Qed.

  Lemma process_eqv shs (g1 g2 : graph) dest g1' :
    (forall n, node_weight g1 n = node_weight g2 n) -> edges g1 = edges g2 ->
    process nproc shs g1 dest = Ok g1' ->
    exists g2', process nproc shs g2 dest = Ok g2' /\ (forall n, node_weight g1' n = node_weight g2' n) /\ edges g1' = edges g2'.
  Proof.
    intros Hw He. unfold process. rewrite (dfs_order_edges g1 g2 dest He).
    destruct (dfs_order g2 dest) as [order|]; [|done].
    revert g1 g2 Hw He. induction order as [|n order IH]; intros g1 g2 Hw He; simpl.
    - intros [= <-]. eauto.
    - destruct (process_node nproc (shs n) g1 n) as [g1''|] eqn:E; [|done]. intros H.
      destruct (process_node_eqv _ _ _ _ _ Hw He E) as (g2'' & -> & Hw' & He'). eapply IH; eauto.
  Qed.

  Lemma send_to_eqv (g1 g2 : graph) n m g1' :
    (forall n, node_weight g1 n = node_weight g2 n) -> edges g1 = edges g2 ->
    send_to L g1 n m = Ok g1' ->
    exists g2', send_to L g2 n m = Ok g2' /\ (forall n, node_weight g1' n = node_weight g2' n) /\ edges g1' = edges g2'.
  Proof.
    intros Hw He (w & st & H1 & H2 & H3)%send_to_spec.
    destruct (set_weight_eqv _ _ _ _ _ Hw He H3) as (g2' & H5 & H6 & H7).
    exists g2'. split; [|done]. unfold send_to. rewrite <- Hw, H1, H2. done.
  Qed.

  Lemma mapR_Ok_intro {A B} (f : A -> res B) l : (forall a, a ∈ l -> exists b, f a = Ok b) -> exists l', mapR f l = Ok l'.
  Proof.
    induction l as [|a l IH]; intros H; simpl; [eauto|].
    destruct (H a ltac:(set_solver)) as [b ->]. destruct IH as [l' ->]; [intros; apply H; set_solver|eauto].
  Qed.

  Lemma send_to_all_eqv (g1 g2 : graph) m g1' :
    (forall n, node_weight g1 n = node_weight g2 n) -> edges g1 = edges g2 ->
    send_to_all L g1 m = Ok g1' ->
    exists g2', send_to_all L g2 m = Ok g2' /\ (forall n, node_weight g1' n = node_weight g2' n) /\ edges g1' = edges g2'.
  Proof.
    intros Hw He (Hf & He1 & Hl & Hw1)%send_to_all_spec.
    assert (exists g2', send_to_all L g2 m = Ok g2') as [g2' H2].
    { unfold send_to_all. change (fun s : option W => _) with (slot_msg m).
      destruct (mapR_Ok_intro (slot_msg m) (slots g2)) as [sl ->]; [|eauto].
      intros [w|] Hin; [|simpl; eauto]. apply elem_of_list_lookup in Hin as [i Hi].
      specialize (Hw1 i). rewrite Hw in Hw1. unfold node_weight at 1 in Hw1. rewrite Hi in Hw1. simpl in Hw1.
      destruct Hw1 as (st & Hst & _). simpl. rewrite Hst. eauto. }
    exists g2'. split; [done|]. apply send_to_all_spec in H2 as (Hf2 & He2 & Hl2 & Hw2).
    split; [|congruence]. intros n. specialize (Hw1 n). specialize (Hw2 n). rewrite <- Hw in Hw2.
    destruct (node_weight g1 n) as [w|].
    - destruct Hw1 as (st & H3 & ->), Hw2 as (st' & H4 & ->). congruence.
    - congruence.
  Qed.

  Lemma write_channel_eqv e1 e2 ch s e1' : eqv L e1 e2 -> write_channel L e1 ch s = Ok e1' ->
    exists e2', write_channel L e2 ch s = Ok e2' /\ eqv L e1' e2'.
  Proof.
    intros Hq. unfold write_channel. rewrite <- (eq_info _ _ _ Hq).
    destruct (en_info L e1 !! input_name) as [ids|]; [|done].
    destruct (ids !! 0) as [id|]; [|done]. rewrite <- (eq_weight _ _ _ Hq).
    destruct (node_weight (en_graph L e1) id) as [w|]; [|done].
    destruct (w.2 !! ch) as [b|]; [|done]. destruct (copy_slice b s) as [b'|]; [|done].
    destruct (set_weight (en_graph L e1) id _) as [g|] eqn:E; [|done]. intros [= <-].
    destruct (set_weight_eqv _ _ _ _ _ (eq_weight _ _ _ Hq) (eq_edges _ _ _ Hq) E) as (g2 & -> & H1 & H2).
    eexists. split; [done|]. destruct Hq. split; simpl; auto.
  Qed.

  Lemma write_input_eqv e1 e2 ins e1' : eqv L e1 e2 -> write_input L e1 ins = Ok e1' ->
    exists e2', write_input L e2 ins = Ok e2' /\ eqv L e1' e2'.
  Proof.
    intros Hq. unfold write_input. destruct ins as [|s0 rest]; [intros [= <-]; eauto|].
    destruct (write_channel L e1 0 s0) as [e3|] eqn:E; [|done].
    destruct (write_channel_eqv _ _ _ _ _ Hq E) as (e4 & -> & Hq').
    destruct rest as [|s1 rest]; [intros [= <-]; eauto|]. by apply write_channel_eqv.
  Qed.

  Lemma next_block_eqv blk shs e1 e2 ins e1' b : eqv L e1 e2 -> next_block L blk shs e1 ins = Ok (e1', b) ->
    exists e2', next_block L blk shs e2 ins = Ok (e2', b) /\ eqv L e1' e2'.
  Proof.
    intros Hq. unfold next_block. destruct (write_input L e1 ins) as [e3|] eqn:E; [|done].
    destruct (write_input_eqv _ _ _ _ Hq E) as (e4 & -> & Hq'). clear Hq E e1 e2.
    destruct (process nproc shs (en_graph L e3) (en_dest L e3)) as [g|] eqn:Ep; [|done].
    destruct (process_eqv _ _ _ _ _ (eq_weight _ _ _ Hq') (eq_edges _ _ _ Hq') Ep) as (g2 & Hp2 & Hw & He).
    rewrite <- (eq_dest _ _ _ Hq'), Hp2, <- Hw.
    destruct (node_weight g (en_dest L e3)) as [w|]; [|done]. intros [= <- <-].
    eexists. split; [done|]. destruct Hq'. split; simpl; auto; congruence.
  Qed.

  Lemma send_command_eqv c e1 e2 s e1' : eqv L e1 e2 -> send_command L c e1 s = Ok e1' ->
    exists e2', send_command L c e2 s = Ok e2' /\ eqv L e1' e2'.
  Proof.
    intros Hq. unfold send_command. destruct (split_on "," s) as [|a [|b [|d [|v r]]]];
      try (intros [= <-]; eauto).
    rewrite <- (eq_info _ _ _ Hq).
    destruct (_ !! a) as [ids|]; [|intros [= <-]; eauto]. destruct (ids !! _) as [id|]; [|done].
    destruct (send_to L (en_graph L e1) id _) as [g|] eqn:E; [|done]. intros [= <-].
    destruct (send_to_eqv _ _ _ _ _ (eq_weight _ _ _ Hq) (eq_edges _ _ _ Hq) E) as (g2 & -> & H1 & H2).
    eexists. split; [done|]. destruct Hq. split; simpl; auto.
  Qed.

  Lemma foldM_send_eqv c l e1 e2 e1' : eqv L e1 e2 -> foldM (send_command L c) e1 l = Ok e1' ->
    exists e2', foldM (send_command L c) e2 l = Ok e2' /\ eqv L e1' e2'.
  Proof.
    revert e1 e2. induction l as [|s l IH]; intros e1 e2 Hq; simpl; [intros [= <-]; eauto|].
    destruct (send_command L c e1 s) as [e3|] eqn:E; [|done].
    destruct (send_command_eqv _ _ _ _ _ Hq E) as (e4 & -> & Hq'). by apply IH.
  Qed.

  (** Additions depend on the table only through chain lengths. *)
  Definition same_shape (t1 t2 : gmap string (list nat)) : Prop :=
    forall k, length <$> t1 !! k = length <$> t2 !! k.

  Lemma add_one_shape st1 st2 a st1' : same_shape st1.2 st2.2 -> add_one L st1 a = Ok st1' ->
    exists st2', add_one L st2 a = Ok st2' /\ same_shape st1'.2 st2'.2.
  Proof.
    destruct st1 as [[g1 l1] t1], st2 as [[g2 l2] t2], a as [[name pos] w]. simpl. intros Hs.
    destruct (add_node g1 w) as [g1' id1], (add_node g2 w) as [g2' id2].
    pose proof (Hs name) as Hn.
    destruct (t1 !! name) as [ids1|], (t2 !! name) as [ids2|]; simpl in Hn; try done.
    - injection Hn as Hn. destruct (vec_insert pos id1 ids1) as [ids1'|] eqn:E; [|done]. intros [= <-].
      apply vec_insert_Ok in E as [Hp ->]. unfold vec_insert. rewrite decide_True by lia.
      eexists. split; [done|]. simpl. intros k. destruct (decide (k = name)) as [->|].
      + rewrite !lookup_insert. simpl. f_equal. rewrite !app_length. simpl.
        rewrite !take_length, !drop_length. lia.
      + rewrite !lookup_insert_ne by done. apply Hs.
    - intros [= <-]. eexists. split; [done|]. simpl. intros k. destruct (decide (k = name)) as [->|].
      + by rewrite !lookup_insert.
      + rewrite !lookup_insert_ne by done. apply Hs.
  Qed.
  Lemma adds_shape l st1 st2 st1' : same_shape st1.2 st2.2 -> foldM (add_one L) st1 l = Ok st1' ->
    exists st2', foldM (add_one L) st2 l = Ok st2' /\ same_shape st1'.2 st2'.2.
  Proof.
    revert st1 st2. induction l as [|a l IH]; intros st1 st2 Hs; simpl; [intros [= <-]; eauto|].
    destruct (add_one L st1 a) as [st3|] eqn:E; [|done].
    destruct (add_one_shape _ _ _ _ Hs E) as (st4 & -> & Hs'). by apply IH.
  Qed.

  Lemma same_shape_keys t1 t2 k : same_shape t1 t2 -> is_Some (t1 !! k) <-> is_Some (t2 !! k).
  Proof.
    intros Hs. specialize (Hs k). destruct (t1 !! k), (t2 !! k); simpl in *; try done;
    split; intros [? ?]; eauto; done.
  Qed.

  Lemma ref_ok_spec t (new : ast) r : ref_ok L t new r = true <->
    if contains_dotdot r then exists k, is_Some (t !! k) /\ starts_with k (remove_dotdot r) = true
    else is_Some (new !! r) \/ is_Some (t !! r).
  Proof.
    unfold ref_ok. destruct (contains_dotdot r).
    - rewrite existsb_exists. split.
      + intros (k & Hk & Hp). apply elem_of_list_In, elem_of_list_fmap in Hk as ([k' ids] & -> & Hk).
        apply elem_of_map_to_list in Hk. simpl in *. eauto.
      + intros (k & [ids Hk] & Hp). exists k. split; [|done]. apply elem_of_list_In, elem_of_list_fmap.
        exists (k, ids). split; [done|]. by apply elem_of_map_to_list.
    - rewrite orb_true_iff, !bool_decide_eq_true. done.
  Qed.

  Lemma ref_check_shape t1 t2 (new : ast) rs : same_shape t1 t2 -> ref_check L t1 new rs = ref_check L t2 new rs.
  Proof.
    intros Hs. induction rs as [|r rs IH]; simpl; [done|].
    assert (ref_ok L t1 new r = ref_ok L t2 new r) as ->; [|by rewrite IH].
    apply eq_true_iff_eq. rewrite !ref_ok_spec. destruct (contains_dotdot r).
    - split; intros (k & Hk & Hp); exists k; (split; [|done]); by eapply (same_shape_keys _ _ k Hs).
    - rewrite (same_shape_keys _ _ r Hs). done.
  Qed.

  Lemma plan_eqv o e1 e2 new : eqv L e1 e2 -> plan L o (set_temp L e1 []) new = plan L o (set_temp L e2 []) new.
  Proof.
    intros [? ? ? ? Ha Hi ? Hs Hb Hr Hd ?]. unfold plan, the_env. simpl.
    by rewrite Ha, Hi, Hs, Hb, Hr, Hd.
  Qed.

  Lemma update_ast_eqv_fail o e1 e2 new e1' er : einv L e1 -> einv L e2 -> eqv L e1 e2 ->
    update_ast L o e1 new = Ok (e1', Some er) ->
    exists e2', update_ast L o e2 new = Ok (e2', Some er) /\ eqv L e1' e2'.
  Proof.
    intros He1 He2 Hq Hu.
    assert (Hgoal : exists e2', update_ast L o e2 new = Ok (e2', Some er)).
    { revert Hu. unfold update_ast. rewrite (plan_eqv o e1 e2 new Hq).
      destruct (plan L o (set_temp L e2 []) new) as [[[d t] ids]|er0|] eqn:Ep; [| |done].
      2: { intros [= <- <-]. eauto. }
      change (en_graph L (set_temp L e1 [])) with (en_graph L e1).
      change (en_graph L (set_temp L e2 [])) with (en_graph L e2).
      destruct (foldM (add_one L) (en_graph L e1, [], t) (d_adds L d)) as [[[g temp] t']|] eqn:Ea; [|done].
      destruct (adds_shape _ (en_graph L e1, [], t) (en_graph L e2, [], t) _ (fun k => eq_refl) Ea) as ([[g2 temp2] t2'] & -> & Hs).
      simpl in Hs. rewrite <- (ref_check_shape _ _ new (ref_names (d_refs L d)) Hs).
      destruct (ref_check L t' new (ref_names (d_refs L d))) as [r|] eqn:Er.
      - intros [= <- <-]. eauto.
      - intros H. exfalso. revert H. unfold rewire. simpl.
        destruct (foldM (connect_refs_one _ _ _) _ _) as [[[g3 s3] er3]|] eqn:Ec; [|done].
        apply connect_refs_no_err in Ec.
        + subst er3. destruct (foldM (connect_chain L _) _ _); done.
        + intros p Hp. rewrite <- (plan_eqv o e1 e2 new Hq) in Ep.
          eapply new_keys; [exact He1|exact Ep|exact Ea|]. eapply refs_in_new; eauto. }
    destruct Hgoal as [e2' Hu2]. exists e2'. split; [done|].
    apply update_ast_fail in Hu, Hu2; [|done..].
    eapply eqv_trans; [exact Hu|]. eapply eqv_trans; [exact Hq|]. by apply eqv_sym.
  Qed.

  (** A step that is not a successful update. *)
  Definition quiet (c : call L) (ob : obs L) : Prop :=
    match c with CUpdate _ _ _ => exists er, ob = OError L er | _ => True end.

  Lemma step_eqv blk e1 e2 c e1' ob : einv L e1 -> einv L e2 -> eqv L e1 e2 ->
    step L blk e1 c = Ok (e1', ob) -> quiet c ob ->
    exists e2', step L blk e2 c = Ok (e2', ob) /\ eqv L e1' e2'.
  Proof.
    intros He1 He2 Hq. destruct c as [o code|shs ins|c m|nm s|b|sr|sd|]; simpl.
    - unfold update. destruct (parse code) as [new|er|]; [| |done].
      + destruct (update_ast L o e1 new) as [[e3 [er|]]|] eqn:E; [| |done]; intros [= <- <-] [er' Hq'].
        * destruct (update_ast_eqv_fail _ _ _ _ _ _ He1 He2 Hq E) as (e4 & -> & Hq4). eauto.
        * done.
      + intros [= <- <-] _. eauto.
    - destruct (next_block L blk shs e1 ins) as [[e3 b]|] eqn:E; [|done]. intros [= <- <-] _.
      destruct (next_block_eqv _ _ _ _ _ _ _ Hq E) as (e4 & -> & Hq4). eauto.
    - unfold send_msg. destruct (foldM _ e1 _) as [e3|] eqn:E; [|done]. intros [= <- <-] _.
      destruct (foldM_send_eqv _ _ _ _ _ Hq E) as (e4 & -> & Hq4). eauto.
    - intros [= <- <-] _. eexists. split; [done|]. destruct Hq. split; simpl; try done; congruence.
    - unfold set_bpm. destruct (send_to_all L (en_graph L e1) _) as [g|] eqn:E; [|done]. intros [= <- <-] _.
      destruct (send_to_all_eqv _ _ _ _ (eq_weight _ _ _ Hq) (eq_edges _ _ _ Hq) E) as (g2 & -> & H1 & H2).
      eexists. split; [done|]. destruct Hq. split; simpl; auto.
    - intros [= <- <-] _. eexists. split; [done|]. destruct Hq. split; simpl; try done; congruence.
    - intros [= <- <-] _. eexists. split; [done|]. destruct Hq. split; simpl; try done; congruence.
    - intros [= <- <-] _. eexists. split; [done|]. destruct Hq. split; simpl; try done; congruence.
  Qed.

  Lemma run_eqv blk e1 e2 cs e1' obs : einv L e1 -> einv L e2 -> eqv L e1 e2 ->
    run L blk e1 cs = Ok (e1', obs) -> Forall2 quiet cs obs ->
    exists e2', run L blk e2 cs = Ok (e2', obs) /\ eqv L e1' e2'.
  Proof.
    revert e1 e2 obs. induction cs as [|c cs IH]; intros e1 e2 obs He1 He2 Hq; simpl.
    - intros [= <- <-] _. eauto.
    - destruct (step L blk e1 c) as [[e3 ob]|] eqn:E; [|done].
      destruct (run L blk e3 cs) as [[e5 obs']|] eqn:E2; [|done]. intros [= <- <-] HF.
      apply Forall2_cons in HF as [Hc HF].
      destruct (step_eqv _ _ _ _ _ _ He1 He2 Hq E Hc) as (e4 & E4 & Hq4). rewrite E4.
      destruct (IH e3 e4 obs' (step_inv _ _ _ _ _ He1 E) (step_inv _ _ _ _ _ He2 E4) Hq4 E2 HF) as (e6 & -> & Hq6).
      eauto.
  Qed.
End history.

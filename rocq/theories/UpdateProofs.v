(** * UpdateProofs: an update keeps the engine well formed; a failed one changes
    nothing observable. *)
From Verif Require Export DiffProofs.
From Coq Require Import Lia.
Local Open Scope nat_scope.

Section update_inv.
  Context (L : lang).
  Notation W := (node L * list (buf L))%type.
  Notation ast := (gmap string (list (comp L))).
  Notation graph := (sgraph W).
  Notation engine := (engine L).

  (** The old program, empty before the first load. *)
  Definition old_ast (e : engine) : ast := default ∅ (en_ast L e).

  Lemma plan_diff o e new d t ids : plan L o e new = Done (d, t, ids) ->
    diff_chains L (the_env L e) (old_ast e) (o_new o _ (map_to_list new)) (diff0 L) = Done d.
  Proof.
    unfold plan, old_ast. destruct (en_ast L e) as [old|]; simpl.
    - destruct (diff_chains _ _ _ _ _) as [d0| |]; [|done..].
      destruct (drop_chains _ _ _ _ _) as [st|]; [|done]. destruct (remove_all _ _) as [[t' i']|]; [|done].
      by intros [= <- <- <-].
    - destruct (diff_chains _ _ _ _ _) as [d0| |]; [|done..]. by intros [= <- <- <-].
  Qed.

  (** Keys of chains that stay in the program survive the planning phase. *)
  Lemma drop_chains_keys sh (old new : ast) t st k : drop_chains L sh old new t = Ok st ->
    is_Some (new !! k) -> is_Some (t !! k) -> is_Some (st.1 !! k).
  Proof.
    unfold drop_chains. intros H Hn Ht.
    apply (foldM_inv (fun st => is_Some (st.1 !! k)) _ _ _ _ Ht) in H; [done|].
    intros x b x' Hx _. unfold drop_chain. case_decide as Hd; [by intros [= <-]|].
    destruct (x.1 !! b) as [ids|] eqn:E; [|done]. intros [= <-]. simpl.
    rewrite lookup_delete_ne; [done|]. intros ->. done.
  Qed.
  Lemma remove_all_keys rems st st' k : remove_all rems st = Ok st' ->
    is_Some (st.1 !! k) -> is_Some (st'.1 !! k).
  Proof.
    unfold remove_all. intros H Ht.
    apply (foldM_inv (fun st => is_Some (st.1 !! k)) _ _ _ _ Ht) in H; [done|].
    intros x b x' Hx _. unfold remove_pos. destruct (x.1 !! b.1) as [ids|] eqn:E; [|by intros [= <-]].
    destruct (ids !! _); [|done]. destruct (vec_remove _ _); [|done]. intros [= <-]. simpl.
    destruct (decide (k = b.1)) as [->|]; [rewrite lookup_insert; eauto|by rewrite lookup_insert_ne].
  Qed.
  Lemma plan_keys o e new d t ids k : plan L o e new = Done (d, t, ids) ->
    is_Some (new !! k) -> is_Some (en_info L e !! k) -> is_Some (t !! k).
  Proof.
    unfold plan. intros H Hn Hi. destruct (en_ast L e) as [old|].
    - destruct (diff_chains _ _ _ _ _) as [d0| |]; [|done..].
      destruct (drop_chains _ _ _ _ _) as [st|] eqn:E1; [|done].
      destruct (remove_all _ _) as [[t' i']|] eqn:E2; [|done]. injection H as <- <- <-.
      apply (remove_all_keys _ _ _ k E2). eapply drop_chains_keys; eauto.
    - destruct (diff_chains _ _ _ _ _) as [d0| |]; [|done..]. by injection H as <- <- <-.
  Qed.

  Lemma add_one_keys st a st' k : add_one L st a = Ok st' ->
    is_Some (st.2 !! k) \/ a.1.1 = k -> is_Some (st'.2 !! k).
  Proof.
    destruct st as [[g temp] t], a as [[name pos] w]. unfold add_one. simpl.
    destruct (add_node g w) as [g' id].
    destruct (t !! name) as [ids|] eqn:E; [destruct (vec_insert _ _ _) as [ids'|]; [|done]|];
      intros [= <-] Hk; simpl;
      (destruct (decide (k = name)) as [->|]; [rewrite lookup_insert; eauto|]);
      rewrite lookup_insert_ne by done; destruct Hk as [?|?]; congruence.
  Qed.
  Lemma adds_keys l st st' k : foldM (add_one L) st l = Ok st' ->
    is_Some (st.2 !! k) \/ (exists a, a ∈ l /\ a.1.1 = k) -> is_Some (st'.2 !! k).
  Proof.
    revert st. induction l as [|a l IH]; intros st; simpl.
    - intros [= <-] [?|(a & Ha & _)]; [done|set_solver].
    - destruct (add_one L st a) as [st1|] eqn:E; [|done]. intros H Hk.
      apply IH with st1; [done|]. destruct Hk as [Hk|(b & [->|Hb]%elem_of_cons & Hk)].
      + left. eapply add_one_keys; eauto.
      + left. eapply add_one_keys; eauto.
      + right. eauto.
  Qed.

  (** Every chain of the new program with at least one component is in the table
      after the additions. *)
  Lemma new_keys o e new d t ids g temp t' k :
    einv L e -> plan L o (set_temp L e []) new = Done (d, t, ids) ->
    foldM (add_one L) (en_graph L e, [], t) (d_adds L d) = Ok (g, temp, t') ->
    (exists c cs, new !! k = Some (c :: cs)) -> is_Some (t' !! k).
  Proof.
    intros He Hp Ha (c & cs & Hk). apply (adds_keys _ _ _ k Ha). simpl.
    pose proof (plan_diff _ _ _ _ _ _ Hp) as Hd.
    apply diff_chains_spec in Hd as (Hnode & Hadds & _ & _). simpl in Hadds.
    set (old := old_ast (set_temp L e [])) in *. set (ev := the_env L (set_temp L e [])) in *.
    assert (Hin : (k, c :: cs) ∈ o_new o _ (map_to_list new)).
    { rewrite shuf_perm. by apply elem_of_map_to_list. }
    destruct (decide (added L old k (c :: cs) = [])) as [Hnil|Hne].
    - left. eapply plan_keys; [done|rewrite Hk; eauto|].
      unfold added in Hnil. destruct (old !! k) as [olds|] eqn:Eo; [|done].
      destruct olds as [|ol olds].
      { exfalso. unfold enumerate in Hnil. simpl in Hnil. done. }
      unfold old, old_ast in Eo. simpl in *.
      destruct (en_ast L e) as [old'|] eqn:Ea; [|done].
      eapply (ei_keys _ _ He); eauto.
    - right. destruct (added L old k (c :: cs)) as [|p ps] eqn:Ead; [done|].
      destruct (Hnode (k, c :: cs) p Hin) as [wr Hwr]; [simpl; rewrite Ead; set_solver|].
      exists (k, p.1, wr.1). split; [|done]. rewrite Hadds. apply elem_of_list_bind.
      exists (k, c :: cs). split; [|done]. unfold chain_adds. apply elem_of_list_bind.
      exists p. simpl. split; [|rewrite Ead; set_solver]. unfold add_entry. rewrite Hwr. set_solver.
  Qed.

  (** Every chain named in the reference list is in the table after the additions. *)
  Lemma refs_in_new o e new d t ids p :
    plan L o (set_temp L e []) new = Done (d, t, ids) -> p ∈ d_refs L d ->
    exists c cs, new !! p.1.2 = Some (c :: cs).
  Proof.
    intros Hp Hin. pose proof (plan_diff _ _ _ _ _ _ Hp) as Hd.
    apply diff_chains_spec in Hd as (_ & _ & Hrefs & _). rewrite Hrefs in Hin. simpl in Hin.
    apply elem_of_list_bind in Hin as ([k news] & Hin & Hkn).
    rewrite shuf_perm in Hkn. apply elem_of_map_to_list in Hkn.
    assert (p.1.2 = k /\ news ≠ []) as [-> Hne].
    { unfold chain_refs in Hin. apply elem_of_app in Hin as [Hin|Hin].
      - apply elem_of_list_bind in Hin as (oc & Hin & _). simpl in Hin. unfold kept_ref in Hin.
        destruct (find_comp L oc news) as [[idx nc]|] eqn:E; [|by apply elem_of_nil in Hin].
        apply find_comp_some in E as (Hl & _). destruct news as [|n ns]; [done|]. split; [|done].
        destruct (all_refs nc); [by apply elem_of_nil in Hin|]. apply elem_of_list_singleton in Hin as ->. done.
      - apply elem_of_list_bind in Hin as ([i c] & Hin & Had). simpl in *. unfold ref_entry in Hin.
        destruct (node_of L _ _) as [wr|]; [|by apply elem_of_nil in Hin]. split.
        + destruct (wr.2); [by apply elem_of_nil in Hin|]. apply elem_of_list_singleton in Hin as ->. done.
        + intros ->. unfold added in Had. destruct (old_ast _ !! k); unfold enumerate in Had; simpl in Had; by apply elem_of_nil in Had. }
    destruct news as [|c cs]; [done|]. eauto.
  Qed.

  Lemma connect_refs_no_err sh t l g s g' s' er' :
    (forall p, p ∈ l -> is_Some (t !! p.1.2)) ->
    foldM (connect_refs_one L sh t) (g, s, None) l = Ok (g', s', er') -> er' = None.
  Proof.
    intros Hk H. apply (foldM_inv (fun st : ref_state L => st.2 = None)) in H; [done|done|].
    intros [[x sx] ex] p [[x' sx'] ex'] Hx Hp. simpl in *. subst ex.
    destruct (Hk p Hp) as [ids ->]. destruct (ids !! p.2) as [idx|]; [|done].
    case_decide; simpl.
    - destruct (foldM (connect_ref L sh t idx) _ _); [|done]. by intros [= <- <- <-].
    - destruct (send_to _ _ _ _); [|done].
      destruct (foldM (connect_ref L sh t idx) _ _); [|done]. by intros [= <- <- <-].
  Qed.

  Lemma eqv_refl e : eqv L e e.
  Proof. by split. Qed.
  Lemma eqv_sym e1 e2 : eqv L e1 e2 -> eqv L e2 e1.
  Proof. intros []; split; congruence. Qed.
  Lemma eqv_trans e1 e2 e3 : eqv L e1 e2 -> eqv L e2 e3 -> eqv L e1 e3.
  Proof. intros [] []; split; congruence. Qed.

  Lemma add_inv_init o e new d t ids : einv L e ->
    plan L o (set_temp L e []) new = Done (d, t, ids) ->
    add_inv L (en_graph L e) (fun n => n = en_dest L e \/ n = en_input L e) ids (en_graph L e, [], t).
  Proof.
    intros He Hp. apply plan_inv in Hp; [|simpl; apply (ei_inj _ _ He)].
    destruct Hp as (Hinj & Hin & Hout). simpl in *.
    destruct He as [Hwf Hb Hi Hne Hd Hinp Hl Hk]. split; simpl; auto.
    - intros n [->| ->] Hx; [apply Hd|apply Hinp]; apply Hin; auto.
    - intros n. rewrite Hl, Hin. tauto.
    - set_solver.
  Qed.

  Lemma adds_inv o e new d t ids g temp t' : einv L e ->
    plan L o (set_temp L e []) new = Done (d, t, ids) ->
    foldM (add_one L) (en_graph L e, [], t) (d_adds L d) = Ok (g, temp, t') ->
    add_inv L (en_graph L e) (fun n => n = en_dest L e \/ n = en_input L e) ids (g, temp, t').
  Proof.
    intros He Hp Ha. pose proof (add_inv_init _ _ _ _ _ _ He Hp) as H0.
    eapply (foldM_inv (add_inv L (en_graph L e) _ ids)); [exact H0| |exact Ha].
    intros; eapply add_one_inv; eauto.
  Qed.

  (** Rolling back the added nodes restores the graph. *)
  Lemma rollback g0 base ids g temp t : wf_graph g0 -> add_inv L g0 base ids (g, temp, t) ->
    (forall n, node_weight (foldl remove_node g temp) n = node_weight g0 n) /\
    edges (foldl remove_node g temp) = edges g0 /\ wf_graph (foldl remove_node g temp).
  Proof.
    intros (_ & _ & Hel) [Hwf _ _ _ _ Htemp Hwt He]. simpl in *.
    destruct (remove_nodes_spec temp g Hwf) as (H1 & _ & H3). split_and!; [| |done].
    - intros n. rewrite H1. case_decide as Hn; [|auto]. apply Htemp in Hn. unfold live in Hn.
      destruct (node_weight g0 n); [|done]. exfalso. apply Hn. eauto.
    - rewrite remove_nodes_edges_fresh; [done|done|].
      intros n Hn u. apply Htemp in Hn. unfold edge. rewrite He.
      split; intros Hx; apply Hn; by apply Hel in Hx as [? ?].
  Qed.

  Theorem update_ast_fail o e new e' er : einv L e -> update_ast L o e new = Ok (e', Some er) -> eqv L e' e.
  Proof.
    intros He. unfold update_ast.
    destruct (plan L o (set_temp L e []) new) as [[[d t] ids]|er0|] eqn:Ep; [| |done].
    2: { intros [= <- <-]. by split. }
    change (en_graph L (set_temp L e [])) with (en_graph L e).
    destruct (foldM (add_one L) (en_graph L e, [], t) (d_adds L d)) as [[[g temp] t']|] eqn:Ea; [|done].
    pose proof (adds_inv _ _ _ _ _ _ _ _ _ He Ep Ea) as Hai.
    destruct (ref_check L t' new (ref_names (d_refs L d))) as [r|] eqn:Er.
    - intros [= <- <-]. destruct (rollback _ _ _ _ _ _ (ei_wf _ _ He) Hai) as (H1 & H2 & _).
      split; simpl; auto. apply (ei_backup _ _ He).
    - unfold rewire. simpl.
      destruct (foldM (connect_refs_one _ _ _) _ _) as [[[g2 s2] er2]|] eqn:Ec; [|done].
      apply connect_refs_no_err in Ec.
      + subst er2. destruct (foldM (connect_chain L _) _ _); [|done]. done.
      + intros p Hp. eapply new_keys; eauto. eapply refs_in_new; eauto.
  Qed.

  Theorem update_ast_inv o e new e' er : einv L e -> update_ast L o e new = Ok (e', er) -> einv L e'.
  Proof.
    intros He. unfold update_ast.
    destruct (plan L o (set_temp L e []) new) as [[[d t] ids]|er0|] eqn:Ep; [| |done].
    2: { intros [= <- <-]. by destruct He. }
    change (en_graph L (set_temp L e [])) with (en_graph L e).
    destruct (foldM (add_one L) (en_graph L e, [], t) (d_adds L d)) as [[[g temp] t']|] eqn:Ea; [|done].
    pose proof (adds_inv _ _ _ _ _ _ _ _ _ He Ep Ea) as Hai.
    destruct (ref_check L t' new (ref_names (d_refs L d))) as [r|] eqn:Er.
    - intros [= <- <-]. destruct (rollback _ _ _ _ _ _ (ei_wf _ _ He) Hai) as (H1 & H2 & H3).
      destruct He as [Hwf Hb Hi Hne Hd Hinp Hl Hk]. split; simpl; rewrite ?Hb; auto.
      intros n. unfold live. rewrite H1. apply Hl.
    - unfold rewire. simpl.
      destruct (foldM (connect_refs_one _ _ _) _ _) as [[[g2 s2] er2]|] eqn:Ec; [|done].
      pose proof Ec as Ec'. apply connect_refs_no_err in Ec'; [|].
      2: { intros p Hp. eapply new_keys; eauto. eapply refs_in_new; eauto. }
      subst er2. destruct (foldM (connect_chain L _) _ _) as [g3|] eqn:Ec2; [|done].
      intros [= <- <-].
      destruct Hai as [Hwf Hinj Hout Hbase Hlive Htemp Hwt Hed]. simpl in *.
      destruct (remove_nodes_spec ids g Hwf) as (Hr1 & Hr2 & Hr3).
      destruct (clear_edges_spec _ Hr3) as (Hc1 & Hc2 & Hc3).
      apply connect_refs_conn in Ec as (Hw2 & Hl2 & _); [|done].
      apply foldM_conn in Ec2 as (Hw3 & Hl3 & _); [|intros; eapply connect_chain_conn; eauto|done].
      split; simpl; auto.
      + apply (ei_ne _ _ He).
      + intros n. rewrite Hl3, Hl2. unfold live. rewrite Hc1, Hr1. case_decide as Hn.
        * split; [by intros [? ?]|]. intros [Hx|[Hx|Hx]].
          -- exfalso. pose proof (Hout n Hn). subst n.
             destruct (plan_inv L _ _ _ _ _ _ (ei_inj _ _ He) Ep) as (_ & Hin & _).
             apply (ei_dest _ _ He). apply Hin. auto.
          -- exfalso. subst n. destruct (plan_inv L _ _ _ _ _ _ (ei_inj _ _ He) Ep) as (_ & Hin & _).
             apply (ei_input _ _ He). apply Hin. auto.
          -- exfalso. by apply (Hout n Hn).
        * fold (live g n). rewrite Hlive. tauto.
      + intros old k c cs [= <-] Hk. eapply new_keys; eauto.
  Qed.

  Lemma update_ast_ok_ast o e new e' : update_ast L o e new = Ok (e', None) -> en_ast L e' = Some new.
  Proof.
    unfold update_ast. destruct (plan _ _ _ _) as [[[d t] ids]| |]; [|done..].
    destruct (foldM _ _ _) as [[[g temp] t']|]; [|done].
    destruct (ref_check _ _ _); [done|]. unfold rewire.
    destruct (foldM (connect_refs_one _ _ _) _ _) as [[[g2 s2] [er2|]]|]; [done| |done].
    destruct (foldM (connect_chain L _) _ _); [|done]. by intros [= <-].
  Qed.
End update_inv.

(** * ActProofs: the connection phase of an update as a list of elementary actions. *)
From Verif Require Export TableProofs.
From Coq Require Import Lia.
Local Open Scope nat_scope.

Section acts.
  Context (L : lang).
  Notation W := (node L * list (buf L))%type.
  Notation graph := (sgraph W).
  Notation table := (gmap string (list nat)).

  Inductive act := Conn (u v : nat) (m : msg) | Send (v : nat) (m : msg).

  Definition run_act (g : graph) (a : act) : res graph :=
    match a with
    | Conn u v m => match add_edge g u v with Ok g' => send_to L g' v m | Panic => Panic end
    | Send v m => send_to L g v m
    end.
  Definition run_acts (g : graph) (l : list act) : res graph := foldM run_act g l.

  Definition act_edge (a : act) : list (nat * nat) := match a with Conn u v _ => [(u, v)] | Send _ _ => [] end.
  Definition act_msg (n : nat) (a : act) : list msg :=
    match a with
    | Conn _ v m | Send v m => if decide (v = n) then [m] else []
    end.
  Definition act_nodes (a : act) : list nat := match a with Conn u v _ => [u; v] | Send v _ => [v] end.
  Definition act_m (a : act) : msg := match a with Conn _ _ m | Send _ m => m end.

  Lemma run_acts_app g l1 l2 : run_acts g (l1 ++ l2) =
    match run_acts g l1 with Ok g' => run_acts g' l2 | Panic => Panic end.
  Proof. apply foldM_app. Qed.

  Lemma run_acts_cons g a l : run_acts g (a :: l) =
    match run_act g a with Ok g' => run_acts g' l | Panic => Panic end.
  Proof. reflexivity. Qed.

  Lemma run_act_spec g a g' : wf_graph g -> run_act g a = Ok g' ->
    wf_graph g' /\ edges g' = act_edge a ++ edges g /\ (forall n, live g' n <-> live g n) /\
    (forall n w, node_weight g n = Some w ->
       exists st, foldM nmsg w.1 (act_msg n a) = Ok st /\ node_weight g' n = Some (st, w.2)).
  Proof.
    intros Hwf. assert (Hsend : forall (x : graph) v m, wf_graph x -> send_to L x v m = Ok g' ->
      wf_graph g' /\ edges g' = edges x /\ (forall n, live g' n <-> live x n) /\
      (forall n w, node_weight x n = Some w ->
       exists st, foldM nmsg w.1 (if decide (v = n) then [m] else []) = Ok st /\ node_weight g' n = Some (st, w.2))).
    { intros x v m Hx H. pose proof H as Hs. apply send_to_conn in H as [(H1 & H2 & _) H3]; [|done].
      apply send_to_spec in Hs as (w0 & st & Hw0 & Hm & Hs). apply set_weight_spec in Hs as (_ & _ & _ & _ & Hw').
      split_and!; auto. intros n w Hn. rewrite Hw'. destruct (decide (v = n)) as [->|Hne].
      - rewrite decide_True by done. assert (w0 = w) as -> by congruence. exists st. simpl. by rewrite Hm.
      - rewrite decide_False by done. exists w.1. split; [done|]. rewrite Hn. by destruct w. }
    destruct a as [u v m|v m]; simpl; [|by apply Hsend].
    destruct (add_edge g u v) as [g1|] eqn:E; [|done]. intros H.
    pose proof (add_edge_wf _ _ _ _ Hwf E) as Hwf1. pose proof (add_edge_conn _ _ _ _ _ Hwf E) as (_ & Hl1 & _).
    apply add_edge_spec in E as (_ & _ & Hs & _ & He).
    destruct (Hsend g1 v m Hwf1 H) as (H1 & H2 & H3 & H4). split_and!; auto.
    - congruence.
    - intros n. by rewrite H3.
    - intros n w Hn. apply H4. unfold node_weight in *. by rewrite Hs.
  Qed.

  Lemma run_acts_spec g l g' : wf_graph g -> run_acts g l = Ok g' ->
    wf_graph g' /\ (forall u v, edge g' u v <-> (u, v) ∈ (l ≫= act_edge) \/ edge g u v) /\
    (forall n, live g' n <-> live g n) /\
    (forall n w, node_weight g n = Some w ->
       exists st, foldM nmsg w.1 (l ≫= act_msg n) = Ok st /\ node_weight g' n = Some (st, w.2)).
  Proof.
    revert g. induction l as [|a l IH]; intros g Hwf; unfold run_acts; simpl.
    - intros [= <-]. split_and!; auto.
      + set_solver.
      + intros n [st b] Hn. exists st. done.
    - destruct (run_act g a) as [g1|] eqn:E; [|done]. intros H.
      apply run_act_spec in E as (H1 & H2 & H3 & H4); [|done].
      apply IH in H as (H5 & H6 & H7 & H8); [|done]. split_and!; auto.
      + intros u v. rewrite H6. unfold edge. rewrite H2, !elem_of_app. tauto.
      + intros n. by rewrite H7.
      + intros n w Hn. destruct (H4 n w Hn) as (st & Hst & Hw1).
        destruct (H8 n _ Hw1) as (st' & Hst' & Hw2). exists st'. split; [|done].
        rewrite foldM_app, Hst. done.
  Qed.

  Definition conn_msg (m : msg) : Prop :=
    match m with Index _ | ResetOrder => True | IndexOrder p _ => p = 0 | _ => False end.

  Lemma run_acts_total g l : wf_graph g ->
    (forall a, a ∈ l -> conn_msg (act_m a) /\ forall n, n ∈ act_nodes a -> live g n) ->
    (forall (st : node L) m, conn_msg m -> is_ok (nmsg st m)) ->
    exists g', run_acts g l = Ok g'.
  Proof.
    intros Hwf Hl Hm. revert g Hwf Hl. induction l as [|a l IH]; intros g Hwf Hl; unfold run_acts; simpl; [eauto|].
    assert (exists g1, run_act g a = Ok g1) as [g1 E].
    { destruct (Hl a ltac:(set_solver)) as [Hcm Hnodes].
      assert (Hsend : forall (x : graph) v, live x v -> exists g1, send_to L x v (act_m a) = Ok g1).
      { intros x v [w Hw]. unfold send_to. rewrite Hw. specialize (Hm w.1 _ Hcm).
        destruct (nmsg w.1 (act_m a)); [|done]. apply set_weight_live. unfold live. eauto. }
      destruct a as [u v m|v m]; simpl in *.
      - destruct (add_edge_live g u v) as [g1 E]; [apply Hnodes; set_solver..|]. rewrite E.
        apply Hsend. apply add_edge_spec in E as (_ & Hv & Hs & _). unfold live, node_weight in *. by rewrite Hs.
      - apply Hsend. apply Hnodes. set_solver. }
    rewrite E. apply run_act_spec in E as (H1 & _ & H3 & _); [|done]. apply IH; [done|].
    intros b Hb. destruct (Hl b ltac:(set_solver)) as [? Hn]. split; [done|]. intros n Hnn. apply H3. by apply Hn.
  Qed.

  (** ** The connection phase as actions *)

  Definition tab_ne (t : table) : Prop := forall k ids, t !! k = Some ids -> ids ≠ [].
  Definition ref_known (t : table) (r : string) : Prop := contains_dotdot r = true \/ is_Some (t !! r).

  (** Last nodes of the chains a reference denotes, in connection order. *)
  Definition targets (sh : shuffle) (t : table) (r : string) : list nat :=
    if contains_dotdot r
    then filter (fun kv => starts_with kv.1 (remove_dotdot r) = true) (sh _ (map_to_list t))
           ≫= fun kv => option_list (last kv.2)
    else option_list (t !! r ≫= last).

  Definition ref_act (sh : shuffle) (t : table) (to : nat) (r : string) : list act :=
    (fun u => Conn u to (Index u)) <$> targets sh t r.

  Lemma last_ne (ids : list nat) : ids ≠ [] -> exists u, last ids = Some u.
  Proof. intros H. destruct (last ids) eqn:E; [eauto|]. by apply last_None in E. Qed.

  Lemma connect_ref_acts sh t to g r : tab_ne t -> ref_known t r ->
    connect_ref L sh t to g r = run_acts g (ref_act sh t to r).
  Proof.
    intros Hne Hr. unfold connect_ref, ref_act, targets. destruct (contains_dotdot r) eqn:E.
    - assert (Hall : forall kv, kv ∈ sh _ (map_to_list t) -> kv.2 ≠ []).
      { intros [k ids] Hk. rewrite shuf_perm in Hk. apply elem_of_map_to_list in Hk. by eapply Hne. }
      revert g Hall. generalize (sh _ (map_to_list t)) as l. induction l as [|kv l IH]; intros g Hall; [done|].
      rewrite filter_cons. simpl. destruct (starts_with kv.1 (remove_dotdot r)) eqn:Es.
      + rewrite decide_True by done. destruct (last_ne kv.2) as [u Hu]; [apply Hall; set_solver|].
        rewrite bind_cons. unfold connect_last at 1. rewrite Hu. simpl. unfold connect at 1. rewrite run_acts_cons. simpl.
        destruct (add_edge g u to) as [g1|]; [|done]. destruct (send_to L g1 to (Index u)) as [g2|]; [|done].
        apply IH. intros; apply Hall; set_solver.
      + rewrite decide_False by done. apply IH. intros; apply Hall; set_solver.
    - destruct Hr as [Hr|[ids Hr]]; [congruence|]. rewrite Hr. simpl.
      destruct (last_ne ids) as [u Hu]; [by eapply Hne|]. unfold connect_last. rewrite Hu. simpl.
      unfold connect, run_acts. simpl. destruct (add_edge g u to) as [g1|]; [|done].
      by destruct (send_to L g1 to (Index u)).
  Qed.

  Lemma connect_refl_acts sh t to g rs : tab_ne t -> (forall r, r ∈ rs -> ref_known t r) ->
    foldM (connect_ref L sh t to) g rs = run_acts g (rs ≫= ref_act sh t to).
  Proof.
    intros Hne. revert g. induction rs as [|r rs IH]; intros g Hr; simpl; [done|].
    rewrite run_acts_app, connect_ref_acts by (auto; apply Hr; set_solver).
    destruct (run_acts g (ref_act sh t to r)); [|done]. apply IH. intros; apply Hr; set_solver.
  Qed.

  Fixpoint refs_acts (sh : shuffle) (t : table) (seen : list nat) (l : list (list string * string * nat)) : list act :=
    match l with
    | [] => []
    | p :: l' =>
        match t !! p.1.2 ≫= fun ids => ids !! p.2 with
        | Some idx => (if decide (idx ∈ seen) then [] else [Send idx ResetOrder])
                      ++ (p.1.1 ≫= ref_act sh t idx)
                      ++ refs_acts sh t (if decide (idx ∈ seen) then seen else idx :: seen) l'
        | None => []
        end
    end.

  Lemma connect_refs_acts sh t l g seen : tab_ne t ->
    (forall p, p ∈ l -> (exists idx, owner t idx p.1.2 p.2) /\ forall r, r ∈ p.1.1 -> ref_known t r) ->
    exists seen', foldM (connect_refs_one L sh t) (g, seen, None) l =
      match run_acts g (refs_acts sh t seen l) with Ok g' => Ok (g', seen' , None) | Panic => Panic end.
  Proof.
    intros Hne. revert g seen. induction l as [|p l IH]; intros g seen Hp; simpl; [by exists seen|].
    destruct (Hp p ltac:(set_solver)) as [(idx & ids & Hk & Hi) Hr]. rewrite Hk. simpl. rewrite Hi.
    assert (Hl : forall q, q ∈ l -> (exists idx, owner t idx q.1.2 q.2) /\ forall r, r ∈ q.1.1 -> ref_known t r)
      by (intros; apply Hp; set_solver).
    destruct (decide (idx ∈ seen)) as [Hs|Hs].
    - rewrite run_acts_app. simpl. rewrite run_acts_app, <- connect_refl_acts by done.
      destruct (foldM (connect_ref L sh t idx) g p.1.1) as [g1|]; [|by exists seen]. by apply IH.
    - rewrite run_acts_app. unfold run_acts at 1. simpl.
      destruct (send_to L g idx ResetOrder) as [g1|]; [|by exists seen]. rewrite run_acts_app, <- connect_refl_acts by done.
      destruct (foldM (connect_ref L sh t idx) g1 p.1.1) as [g2|]; [|by exists seen]. by apply IH.
  Qed.

  Definition chain_acts (dest : nat) (kv : string * list nat) : list act :=
    ((fun p => Conn p.1 p.2 (IndexOrder 0 p.1)) <$> windows2 kv.2) ++
    (if contains_char "~" kv.1 then []
     else match last kv.2 with Some e => [Conn e dest (IndexOrder 0 e)] | None => [] end).

  Lemma connect_chain_acts dest g kv : connect_chain L dest g kv = run_acts g (chain_acts dest kv).
  Proof.
    unfold connect_chain, chain_acts. rewrite run_acts_app.
    assert (Hw : foldM (fun g p => connect_with_order L g p.1 p.2 0) g (windows2 kv.2) =
      run_acts g ((fun p => Conn p.1 p.2 (IndexOrder 0 p.1)) <$> windows2 kv.2)).
    { generalize (windows2 kv.2) as l. intros l. revert g. induction l as [|p l IH]; intros g; [done|].
      rewrite fmap_cons. unfold run_acts. simpl. unfold connect_with_order.
      destruct (add_edge g p.1 p.2) as [g1|]; [|done]. destruct (send_to L g1 p.2 _); [|done]. apply IH. }
    rewrite Hw. destruct (run_acts g _) as [g1|]; [|done].
    destruct (contains_char "~" kv.1); [done|]. destruct (last kv.2) as [x|]; [|done].
    unfold run_acts. simpl. unfold connect_with_order. destruct (add_edge g1 x dest) as [g2|]; [|done].
    by destruct (send_to L g2 dest _).
  Qed.
  Lemma connect_chains_acts dest g l : foldM (connect_chain L dest) g l = run_acts g (l ≫= chain_acts dest).
  Proof.
    revert g. induction l as [|kv l IH]; intros g; simpl; [done|].
    rewrite run_acts_app, connect_chain_acts. by destruct (run_acts g (chain_acts dest kv)).
  Qed.

  (** ** Which edges and messages *)

  Definition ref_target (t : table) (r : string) (u : nat) : Prop :=
    exists k ids, t !! k = Some ids /\ last ids = Some u /\
      if contains_dotdot r then starts_with k (remove_dotdot r) = true else k = r.

  Lemma elem_of_option_list {A} (o : option A) x : x ∈ option_list o <-> o = Some x.
  Proof. destruct o; simpl; [rewrite elem_of_list_singleton; split; congruence|]. split; [set_solver|done]. Qed.

  Lemma elem_of_targets sh t r u : u ∈ targets sh t r <-> ref_target t r u.
  Proof.
    unfold targets, ref_target. destruct (contains_dotdot r) eqn:E.
    - rewrite elem_of_list_bind. split.
      + intros ([k ids] & Hu & Hf). apply elem_of_option_list in Hu. apply elem_of_list_filter in Hf as [Hs Hf].
        rewrite shuf_perm in Hf. apply elem_of_map_to_list in Hf. exists k, ids. split_and!; auto.
      + intros (k & ids & Hk & Hl & Hs). exists (k, ids). split; [by apply elem_of_option_list|].
        apply elem_of_list_filter. split; [done|]. rewrite shuf_perm. by apply elem_of_map_to_list.
    - rewrite elem_of_option_list. split.
      + destruct (t !! r) as [ids|] eqn:Er; [|done]. simpl. intros Hl. exists r, ids. split_and!; auto.
      + intros (k & ids & Hk & Hl & ->). by rewrite Hk.
  Qed.

  Lemma elem_of_windows2 {A} (l : list A) u v :
    (u, v) ∈ windows2 l <-> exists i, l !! i = Some u /\ l !! S i = Some v.
  Proof.
    induction l as [|a l IH]; simpl.
    - split; [set_solver|]. intros (i & H & _). done.
    - destruct l as [|b l]; simpl in *.
      + split; [set_solver|]. intros (i & _ & H). done.
      + rewrite elem_of_cons, IH. split.
        * intros [[= -> ->]|(i & H1 & H2)]; [by exists 0|by exists (S i)].
        * intros ([|i] & H1 & H2); simpl in *; [left; congruence|right; eauto].
  Qed.

  Definition refs_edge (t : table) (l : list (list string * string * nat)) (u v : nat) : Prop :=
    exists p r, p ∈ l /\ owner t v p.1.2 p.2 /\ r ∈ p.1.1 /\ ref_target t r u.

  Lemma ref_act_edges sh t to rs u v :
    (u, v) ∈ ((rs ≫= ref_act sh t to) ≫= act_edge) <-> v = to /\ exists r, r ∈ rs /\ ref_target t r u.
  Proof.
    rewrite elem_of_list_bind. split.
    - intros (a & Ha & Hin). apply elem_of_list_bind in Hin as (r & Hin & Hr).
      unfold ref_act in Hin. apply elem_of_list_fmap in Hin as (x & -> & Hx). simpl in Ha.
      apply elem_of_list_singleton in Ha. injection Ha as -> ->. apply elem_of_targets in Hx. eauto.
    - intros (-> & r & Hr & Ht). exists (Conn u to (Index u)). split; [simpl; set_solver|].
      apply elem_of_list_bind. exists r. split; [|done]. unfold ref_act. apply elem_of_list_fmap.
      exists u. split; [done|]. by apply elem_of_targets.
  Qed.

  Lemma refs_acts_edges sh t seen l u v :
    (forall p, p ∈ l -> exists idx, owner t idx p.1.2 p.2) ->
    (u, v) ∈ (refs_acts sh t seen l ≫= act_edge) <-> refs_edge t l u v.
  Proof.
    revert seen. induction l as [|p l IH]; intros seen Hp; simpl.
    - split; [set_solver|]. intros (p & r & Hin & _). set_solver.
    - destruct (Hp p ltac:(set_solver)) as (idx & ids & Hk & Hi). rewrite Hk. simpl. rewrite Hi.
      rewrite !bind_app, !elem_of_app, ref_act_edges, IH by (intros; apply Hp; set_solver).
      assert (Hsend : forall b : bool, (u, v) ∈ ((if b then [] else [Send idx ResetOrder]) ≫= act_edge) <-> False).
      { intros []; simpl; set_solver. }
      assert ((u, v) ∈ ((if decide (idx ∈ seen) then [] else [Send idx ResetOrder]) ≫= act_edge) <-> False) as ->.
      { specialize (Hsend (bool_decide (idx ∈ seen))). case_decide; simpl in *; set_solver. }
      split.
      + intros [[]|[(-> & r & Hr & Ht)|(q & r & Hq & Ho & Hr & Ht)]].
        * exists p, r. split_and!; auto; [set_solver|by exists ids].
        * exists q, r. split_and!; auto. set_solver.
      + intros (q & r & [->|Hq]%elem_of_cons & (ids' & Hk' & Hi') & Hr & Ht).
        * right; left. assert (ids' = ids) as -> by congruence. split; [congruence|eauto].
        * right; right. exists q, r. split_and!; auto. by exists ids'.
  Qed.

  Definition chain_edge (t : table) (dest u v : nat) : Prop :=
    (exists k ids i, t !! k = Some ids /\ ids !! i = Some u /\ ids !! S i = Some v) \/
    (exists k ids, t !! k = Some ids /\ contains_char "~" k = false /\ last ids = Some u /\ v = dest).

  Lemma chain_acts_edges dest l (t : table) u v : (forall kv, kv ∈ l <-> t !! kv.1 = Some kv.2) ->
    (u, v) ∈ ((l ≫= chain_acts dest) ≫= act_edge) <-> chain_edge t dest u v.
  Proof.
    intros Hl. rewrite elem_of_list_bind. unfold chain_edge. split.
    - intros (a & Ha & Hin). apply elem_of_list_bind in Hin as ([k ids] & Hin & Hk).
      apply Hl in Hk. simpl in Hk. unfold chain_acts in Hin. apply elem_of_app in Hin as [Hin|Hin].
      + left. apply elem_of_list_fmap in Hin as ([x y] & -> & Hw). simpl in Ha.
        apply elem_of_list_singleton in Ha. injection Ha as -> ->. apply elem_of_windows2 in Hw as (i & ? & ?).
        exists k, ids, i. done.
      + right. simpl in Hin. destruct (contains_char "~" k) eqn:Ec; [by apply elem_of_nil in Hin|].
        destruct (last ids) as [x|] eqn:El; [|by apply elem_of_nil in Hin].
        apply elem_of_list_singleton in Hin as ->. simpl in Ha. apply elem_of_list_singleton in Ha. injection Ha as -> ->.
        exists k, ids. done.
    - intros [(k & ids & i & Hk & H1 & H2)|(k & ids & Hk & Hc & Hla & ->)].
      + exists (Conn u v (IndexOrder 0 u)). split; [simpl; set_solver|]. apply elem_of_list_bind.
        exists (k, ids). split; [|by apply Hl]. apply elem_of_app. left. apply elem_of_list_fmap.
        exists (u, v). split; [done|]. apply elem_of_windows2. eauto.
      + exists (Conn u dest (IndexOrder 0 u)). split; [simpl; set_solver|]. apply elem_of_list_bind.
        exists (k, ids). split; [|by apply Hl]. apply elem_of_app. right. simpl. rewrite Hc, Hla. set_solver.
  Qed.
End acts.

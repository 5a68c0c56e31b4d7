(** * EngineProofs: invariants of the engine over all histories. *)
From Verif Require Export Engine GraphProofs.
From Coq Require Import Lia.
Local Open Scope nat_scope.

Lemma list_filter_all {A} (P : A -> Prop) `{!forall x, Decision (P x)} (l : list A) :
  (forall x, x ∈ l -> P x) -> filter P l = l.
Proof.
  induction l as [|x l IH]; intros Ha; [done|]. rewrite filter_cons, decide_True by (apply Ha; set_solver).
  f_equal. apply IH. intros; apply Ha; set_solver.
Qed.

(** ** Graph bookkeeping *)
Section graph_lemmas.
  Context {W : Type}.
  Implicit Types g : sgraph W.

  Definition wf_graph g : Prop :=
    NoDup (free g) /\ (forall i, i ∈ free g <-> slots g !! i = Some None) /\
    (forall u v, edge g u v -> live g u /\ live g v).

  Lemma live_lt g n : live g n -> n < length (slots g).
  Proof.
    unfold live, node_weight. intros [w H]. destruct (slots g !! n) eqn:E; [|done].
    by apply lookup_lt_Some in E.
  Qed.

  Lemma add_node_spec g w : wf_graph g ->
    let '(g', id) := add_node g w in
    ~ live g id /\ (forall n, node_weight g' n = if decide (n = id) then Some w else node_weight g n) /\
    edges g' = edges g /\ wf_graph g'.
  Proof.
    intros (Hnd & Hfree & He). unfold add_node. destruct (free g) as [|i fr] eqn:Ef.
    - assert (Hnl : ~ live g (length (slots g))).
      { intros H%live_lt. lia. }
      assert (Hw : forall n, node_weight (SGraph (slots g ++ [Some w]) [] (edges g)) n =
                  if decide (n = length (slots g)) then Some w else node_weight g n).
      { intros n. unfold node_weight; simpl. case_decide as Hn.
        - subst. rewrite lookup_app_r by lia. by rewrite Nat.sub_diag.
        - destruct (decide (n < length (slots g))).
          + by rewrite lookup_app_l.
          + rewrite (lookup_ge_None_2 (slots g)) by lia.
            rewrite lookup_ge_None_2; [done|]. rewrite app_length; simpl. lia. }
      split_and!; [done|done|done|]. split_and!; simpl.
      + constructor.
      + intros i. split; [set_solver|]. intros Hi. apply Hfree.
        apply lookup_app_Some in Hi as [?|[_ Hi]]; [done|]. apply list_lookup_singleton_Some in Hi as [_ Hi]. done.
      + intros u v Huv. destruct (He u v Huv) as [[a Ha] [b Hb]].
        split; unfold live; rewrite Hw; case_decide; eauto.
    - assert (Hi : slots g !! i = Some None) by (apply Hfree; set_solver).
      assert (Hnl : ~ live g i) by (unfold live, node_weight; rewrite Hi; by intros [? ?]).
      assert (Hw : forall n, node_weight (SGraph (<[i:=Some w]> (slots g)) fr (edges g)) n =
                  if decide (n = i) then Some w else node_weight g n).
      { intros n. unfold node_weight; simpl. case_decide as Hn.
        - subst. rewrite list_lookup_insert; [done|]. by apply lookup_lt_Some in Hi.
        - by rewrite list_lookup_insert_ne. }
      split_and!; [done|done|done|]. apply NoDup_cons in Hnd as [Hni Hnd].
      split_and!; simpl.
      + done.
      + intros j. destruct (decide (j = i)) as [->|Hne].
        * split; [done|]. rewrite list_lookup_insert by (by apply lookup_lt_Some in Hi). done.
        * rewrite list_lookup_insert_ne by done. rewrite <- Hfree. set_solver.
      + intros u v Huv. destruct (He u v Huv) as [[a Ha] [b Hb]].
        split; unfold live; rewrite Hw; case_decide; eauto.
  Qed.

  Lemma remove_node_spec g n : wf_graph g ->
    (forall m, node_weight (remove_node g n) m = if decide (m = n) then None else node_weight g m) /\
    (forall u v, edge (remove_node g n) u v <-> edge g u v /\ u ≠ n /\ v ≠ n) /\
    wf_graph (remove_node g n).
  Proof.
    intros (Hnd & Hfree & He). unfold remove_node. destruct (node_weight g n) as [w|] eqn:Ew.
    - assert (Hlt : n < length (slots g)) by (apply live_lt; unfold live; rewrite Ew; eauto).
      assert (Hw : forall m, node_weight (SGraph (<[n:=None]> (slots g)) (n :: free g)
        (filter (fun e : nat * nat => e.1 ≠ n ∧ e.2 ≠ n) (edges g))) m
        = if decide (m = n) then None else node_weight g m).
      { intros m. unfold node_weight; simpl. case_decide as Hm.
        - subst. by rewrite list_lookup_insert.
        - by rewrite list_lookup_insert_ne. }
      assert (Hed : forall u v, edge (SGraph (<[n:=None]> (slots g)) (n :: free g)
        (filter (fun e : nat * nat => e.1 ≠ n ∧ e.2 ≠ n) (edges g))) u v <-> edge g u v /\ u ≠ n /\ v ≠ n).
      { intros u v. unfold edge; simpl. rewrite elem_of_list_filter. simpl. tauto. }
      split_and!; [done|done|]. split_and!; simpl.
      + constructor; [|done]. rewrite Hfree. unfold node_weight in Ew. intros H. by rewrite H in Ew.
      + intros i. rewrite elem_of_cons. destruct (decide (i = n)) as [->|Hne].
        * rewrite list_lookup_insert by done. tauto.
        * rewrite list_lookup_insert_ne by done. rewrite <- Hfree. tauto.
      + intros u v Huv. apply Hed in Huv as (Huv & Hu & Hv). destruct (He u v Huv) as [[a Ha] [b Hb]].
        split; unfold live; rewrite Hw; rewrite decide_False by done; eauto.
    - split_and!; [|intros u v|done..].
      + intros m. case_decide; [by subst|done].
      + split; [|tauto]. intros Huv. split; [done|]. destruct (He u v Huv) as [[a Ha] [b Hb]].
        split; intros ->; congruence.
  Qed.

  Lemma remove_nodes_spec l g : wf_graph g ->
    (forall m, node_weight (foldl remove_node g l) m = if decide (m ∈ l) then None else node_weight g m) /\
    (forall u v, edge (foldl remove_node g l) u v <-> edge g u v /\ u ∉ l /\ v ∉ l) /\
    wf_graph (foldl remove_node g l).
  Proof.
    revert g. induction l as [|n l IH]; intros g Hg; simpl.
    - split_and!; [done| |done]. intros. set_solver.
    - destruct (remove_node_spec g n Hg) as (Hw & He & Hwf).
      destruct (IH _ Hwf) as (Hw' & He' & Hwf'). split_and!; [| |done].
      + intros m. rewrite Hw'. destruct (decide (m ∈ l)); [by rewrite decide_True by set_solver|].
        rewrite Hw. destruct (decide (m = n)); [by rewrite decide_True by set_solver|].
        by rewrite decide_False by set_solver.
      + intros u v. rewrite He', He. set_solver.
  Qed.

  Lemma remove_nodes_edges_fresh l g : wf_graph g -> (forall n, n ∈ l -> forall u, ~ edge g n u /\ ~ edge g u n) ->
    edges (foldl remove_node g l) = edges g.
  Proof.
    revert g. induction l as [|n l IH]; intros g Hg Hfr; simpl; [done|].
    assert (Hes : edges (remove_node g n) = edges g).
    { unfold remove_node. destruct (node_weight g n); [|done]. simpl.
      apply list_filter_all. intros [u v] Hin. simpl.
      split; intros ->; [destruct (Hfr n ltac:(set_solver) v) as [H _]|destruct (Hfr n ltac:(set_solver) u) as [_ H]];
      apply H; apply Hin. }
    rewrite IH; [done|by apply remove_node_spec|].
    intros m Hm u. unfold edge. rewrite Hes. apply Hfr. set_solver.
  Qed.

  Lemma clear_edges_spec g : wf_graph g ->
    (forall m, node_weight (clear_edges g) m = node_weight g m) /\ edges (clear_edges g) = [] /\
    wf_graph (clear_edges g).
  Proof.
    intros (H1 & H2 & H3). split_and!; try done. split_and!; try done.
    intros u v H. unfold edge in H. simpl in H. set_solver.
  Qed.

  Lemma set_weight_wf g n w (g' : sgraph W) : wf_graph g -> set_weight g n w = Ok g' -> wf_graph g'.
  Proof.
    intros (H1 & H2 & H3) H. pose proof H as H'. apply set_weight_spec in H' as (Hl & Hf & He & Hlen & Hw).
    assert (Hlive : forall m, live g m -> live g' m).
    { intros m Hm. unfold live. rewrite Hw. case_decide; eauto. }
    split_and!.
    - by rewrite Hf.
    - intros i. rewrite Hf, H2. unfold set_weight in H. destruct Hl as [w0 Hw0]. rewrite Hw0 in H.
      injection H as <-. simpl. destruct (decide (i = n)) as [->|Hne].
      + rewrite list_lookup_insert by (apply live_lt; unfold live; eauto).
        unfold node_weight in Hw0. split; [|done]. intros Hx. by rewrite Hx in Hw0.
      + by rewrite list_lookup_insert_ne.
    - intros u v. unfold edge. rewrite He. intros Huv. destruct (H3 u v Huv). auto.
  Qed.

  Lemma add_edge_spec g a b (g' : sgraph W) : add_edge g a b = Ok g' ->
    live g a /\ live g b /\ slots g' = slots g /\ free g' = free g /\ edges g' = (a, b) :: edges g.
  Proof.
    unfold add_edge, live. destruct (node_weight g a); [|done]. destruct (node_weight g b); [|done].
    intros [= <-]. simpl. eauto 10.
  Qed.

  Lemma add_edge_wf g a b (g' : sgraph W) : wf_graph g -> add_edge g a b = Ok g' -> wf_graph g'.
  Proof.
    intros (H1 & H2 & H3) (Ha & Hb & Hs & Hf & He)%add_edge_spec.
    assert (Hw : forall m, node_weight g' m = node_weight g m) by (intros; unfold node_weight; by rewrite Hs).
    split_and!; [by rewrite Hf|intros i; by rewrite Hf, Hs|].
    intros u v Huv. unfold edge in Huv. rewrite He in Huv. unfold live. rewrite !Hw.
    apply elem_of_cons in Huv as [[= -> ->]|Huv]; [done|]. by apply H3.
  Qed.

  Lemma add_edge_live g a b : live g a -> live g b -> exists g' : sgraph W, add_edge g a b = Ok g'.
  Proof. unfold live, add_edge. intros [x ->] [y ->]. eauto. Qed.
End graph_lemmas.

(** ** Tables *)
Definition owner (t : gmap string (list nat)) (n : nat) (k : string) (i : nat) : Prop :=
  exists ids, t !! k = Some ids /\ ids !! i = Some n.
Definition in_table (t : gmap string (list nat)) (n : nat) : Prop := exists k i, owner t n k i.
Definition table_inj (t : gmap string (list nat)) : Prop :=
  forall n k i k' i', owner t n k i -> owner t n k' i' -> k = k' /\ i = i'.

Lemma owner_insert t k ids n k' i :
  owner (<[k:=ids]> t) n k' i <-> (k' = k /\ ids !! i = Some n) \/ (k' ≠ k /\ owner t n k' i).
Proof.
  unfold owner. destruct (decide (k' = k)) as [->|Hne].
  - rewrite lookup_insert. split; [intros (x & [= <-] & H); auto|].
    intros [[_ H]|[? _]]; [eauto|done].
  - rewrite lookup_insert_ne by done. split; [auto|]. intros [[? _]|[_ H]]; done.
Qed.

Lemma owner_delete t k n k' i : owner (delete k t) n k' i <-> k' ≠ k /\ owner t n k' i.
Proof.
  unfold owner. destruct (decide (k' = k)) as [->|Hne].
  - rewrite lookup_delete. split; [intros (x & ? & H); done|tauto].
  - rewrite lookup_delete_ne by done. tauto.
Qed.

Lemma vec_insert_Ok {A} pos (x : A) l l' : vec_insert pos x l = Ok l' ->
  pos <= length l /\ l' = take pos l ++ x :: drop pos l.
Proof. unfold vec_insert. case_decide; [|done]. by intros [= <-]. Qed.

Lemma vec_insert_lookup {A} pos (x : A) l i : pos <= length l ->
  (take pos l ++ x :: drop pos l) !! i =
  if decide (i < pos) then l !! i else if decide (i = pos) then Some x else l !! (i - 1).
Proof.
  intros Hp. destruct (decide (i < pos)).
  - rewrite lookup_app_l by (rewrite take_length; lia). by rewrite lookup_take.
  - rewrite lookup_app_r by (rewrite take_length; lia). rewrite take_length.
    replace (pos `min` length l) with pos by lia.
    destruct (decide (i = pos)) as [->|].
    + by rewrite Nat.sub_diag.
    + destruct (i - pos) as [|m] eqn:E; [lia|]. simpl. rewrite lookup_drop. f_equal. lia.
Qed.

Lemma vec_remove_Ok {A} pos (l l' : list A) : vec_remove pos l = Ok l' ->
  pos < length l /\ l' = take pos l ++ drop (S pos) l.
Proof. unfold vec_remove. case_decide; [|done]. by intros [= <-]. Qed.

Lemma vec_remove_lookup {A} pos (l : list A) i : pos < length l ->
  (take pos l ++ drop (S pos) l) !! i = if decide (i < pos) then l !! i else l !! (S i).
Proof.
  intros Hp. destruct (decide (i < pos)).
  - rewrite lookup_app_l by (rewrite take_length; lia). by rewrite lookup_take.
  - rewrite lookup_app_r by (rewrite take_length; lia). rewrite take_length, lookup_drop. f_equal. lia.
Qed.

Definition split_inv (t0 : gmap string (list nat)) (st : gmap string (list nat) * list nat) : Prop :=
  table_inj st.1 /\ (forall n, in_table t0 n <-> in_table st.1 n \/ n ∈ st.2) /\
  (forall n, n ∈ st.2 -> ~ in_table st.1 n).

Section phases.
  Context (L : lang).
  Notation W := (node L * list (buf L))%type.
  Notation ast := (gmap string (list (comp L))).

  Lemma drop_chain_inv t0 (new : ast) st key st' :
    split_inv t0 st -> drop_chain L new st key = Ok st' -> split_inv t0 st'.
  Proof.
    intros (Hinj & Hin & Hout). unfold drop_chain. case_decide; [by intros [= <-]|].
    destruct (st.1 !! key) as [ids|] eqn:E; [|done]. intros [= <-]. split_and!; simpl.
    - intros n k i k' i' [_ H1]%owner_delete [_ H2]%owner_delete. eauto.
    - intros n. rewrite Hin, elem_of_app. split.
      + intros [(k & i & Ho)|?]; [|auto]. destruct (decide (k = key)) as [->|Hne].
        * right; right. destruct Ho as (ids' & E' & Hl). rewrite E in E'. injection E' as <-.
          by eapply elem_of_list_lookup_2.
        * left. exists k, i. by apply owner_delete.
      + intros [(k & i & [_ Ho]%owner_delete)|[?|Hi]]; auto.
        * left. by exists k, i.
        * left. apply elem_of_list_lookup in Hi as [i Hi]. exists key, i, ids. done.
    - intros n [Hn|Hn]%elem_of_app (k & i & [Hk Ho]%owner_delete).
      + apply (Hout n Hn). by exists k, i.
      + apply elem_of_list_lookup in Hn as [j Hj]. apply Hk.
        apply (Hinj n k i key j Ho). by exists ids.
  Qed.

  Lemma remove_pos_inv t0 st r st' :
    split_inv t0 st -> remove_pos st r = Ok st' -> split_inv t0 st'.
  Proof.
    intros (Hinj & Hin & Hout). destruct r as [key pos]. unfold remove_pos; simpl.
    destruct (st.1 !! key) as [ids|] eqn:E; [|by intros [= <-]].
    destruct (ids !! pos) as [id|] eqn:Eid; [|done].
    destruct (vec_remove pos ids) as [ids'|] eqn:Er; [|done]. intros [= <-].
    apply vec_remove_Ok in Er as [Hlt ->].
    assert (Hold : forall n i, (take pos ids ++ drop (S pos) ids) !! i = Some n ->
              exists j, owner st.1 n key j /\ j ≠ pos /\ (j = if decide (i < pos) then i else S i)).
    { intros n i. rewrite vec_remove_lookup by done. case_decide; intros Hl.
      - exists i. split_and!; [by exists ids|lia|done].
      - exists (S i). split_and!; [by exists ids|lia|done]. }
    split_and!; simpl.
    - intros n k i k' i' H1 H2. apply owner_insert in H1, H2.
      destruct H1 as [[-> H1]|[Hk1 H1]], H2 as [[-> H2]|[Hk2 H2]].
      + apply Hold in H1 as (j & Hj & Hjp & Hji), H2 as (j' & Hj' & Hjp' & Hji').
        destruct (Hinj _ _ _ _ _ Hj Hj') as [_ ->]. split; [done|].
        repeat case_decide; lia.
      + apply Hold in H1 as (j & Hj & _). destruct (Hinj _ _ _ _ _ Hj H2). done.
      + apply Hold in H2 as (j & Hj & _). destruct (Hinj _ _ _ _ _ Hj H1). done.
      + eauto.
    - intros n. rewrite Hin, elem_of_app. split.
      + intros [(k & i & Ho)|?]; [|auto]. destruct (decide (k = key)) as [->|Hne].
        * destruct Ho as (ids' & E' & Hl). rewrite E in E'. injection E' as <-.
          destruct (decide (i = pos)) as [->|Hip].
          -- right; right. rewrite Eid in Hl. injection Hl as ->. set_solver.
          -- left. exists key, (if decide (i < pos) then i else i - 1). apply owner_insert. left. split; [done|].
             rewrite vec_remove_lookup by done. destruct (decide (i < pos)) as [Hlp|Hlp].
             ++ by rewrite decide_True.
             ++ rewrite decide_False by lia. replace (S (i - 1)) with i by lia. done.
        * left. exists k, i. apply owner_insert. auto.
      + intros [(k & i & Ho)|[?|Hi]]; auto.
        * apply owner_insert in Ho as [[-> Ho]|[_ Ho]]; left; [|by exists k, i].
          apply Hold in Ho as (j & Hj & _). by exists key, j.
        * apply elem_of_list_singleton in Hi as ->. left. by exists key, pos, ids.
    - intros n Hn (k & i & Ho). apply elem_of_app in Hn as [Hn|Hn].
      + apply owner_insert in Ho as [[-> Ho]|[_ Ho]].
        * apply Hold in Ho as (j & Hj & _). apply (Hout n Hn). by exists key, j.
        * apply (Hout n Hn). by exists k, i.
      + apply elem_of_list_singleton in Hn as ->.
        assert (Hid : owner st.1 id key pos) by (by exists ids).
        apply owner_insert in Ho as [[-> Ho]|[Hk Ho]].
        * apply Hold in Ho as (j & Hj & Hjp & _). by destruct (Hinj _ _ _ _ _ Hj Hid).
        * by destruct (Hinj _ _ _ _ _ Ho Hid).
  Qed.

  Lemma plan_inv o e (new : ast) d t ids : table_inj (en_info L e) ->
    plan L o e new = Done (d, t, ids) -> split_inv (en_info L e) (t, ids).
  Proof.
    intros Hinj. assert (H0 : split_inv (en_info L e) (en_info L e, [])).
    { split_and!; [done|set_solver|set_solver]. }
    unfold plan. destruct (en_ast L e) as [old|].
    - destruct (diff_chains _ _ _ _ _) as [d0| |]; [|done..].
      unfold drop_chains. destruct (foldM (drop_chain L new) _ _) as [st|] eqn:Ed; [|done].
      unfold remove_all. destruct (foldM remove_pos st _) as [[t' ids']|] eqn:Er; [|done].
      intros [= <- <- <-].
      eapply (foldM_inv (split_inv (en_info L e))) in Ed; [|done|intros; eapply drop_chain_inv; eauto].
      eapply (foldM_inv (split_inv (en_info L e))) in Er; [done|done|intros; eapply remove_pos_inv; eauto].
    - destruct (diff_chains _ _ _ _ _) as [d0| |]; [|done..]. by intros [= <- <- <-].
  Qed.

  (** State while nodes are being added: [g0] is the graph before the update, [t] the
      table under construction, [ids] the nodes waiting to be removed. *)
  Record add_inv (g0 : sgraph W) (base : nat -> Prop) (ids : list nat)
      (st : sgraph W * list nat * gmap string (list nat)) : Prop := {
    ai_wf : wf_graph st.1.1;
    ai_inj : table_inj st.2;
    ai_out : forall n, n ∈ ids -> ~ in_table st.2 n;
    ai_base : forall n, base n -> ~ in_table st.2 n;
    ai_live : forall n, live st.1.1 n <-> base n \/ in_table st.2 n \/ n ∈ ids;
    ai_temp : forall n, n ∈ st.1.2 -> ~ live g0 n;
    ai_weight : forall n, n ∉ st.1.2 -> node_weight st.1.1 n = node_weight g0 n;
    ai_edges : edges st.1.1 = edges g0
  }.

  Lemma add_one_inv g0 base ids st a st' : add_inv g0 base ids st -> add_one L st a = Ok st' ->
    add_inv g0 base ids st'.
  Proof.
    destruct st as [[g temp] t], a as [[name pos] w]. intros [Hwf Hinj Hout Hbase Hlive Htemp Hwt He]. simpl in *.
    unfold add_one. pose proof (add_node_spec g w Hwf) as Hadd.
    destruct (add_node g w) as [g' id]. destruct Hadd as (Hnl & Hw & He' & Hwf').
    assert (Hidt : ~ in_table t id) by (intros H; apply Hnl, Hlive; auto).
    assert (Hidi : id ∉ ids) by (intros H; apply Hnl, Hlive; auto).
    assert (Hidb : ~ base id) by (intros H; apply Hnl, Hlive; auto).
    (* a common form: position [i] of [name] holds either the new node or an old one *)
    assert (Hcommon : forall ids' : list nat,
      (forall n i, ids' !! i = Some n -> n = id \/ exists j, owner t n name j) ->
      (forall i i' n, ids' !! i = Some n -> ids' !! i' = Some n -> i = i') ->
      (exists i, ids' !! i = Some id) ->
      (forall n j, owner t n name j -> exists i, ids' !! i = Some n) ->
      add_inv g0 base ids (g', temp ++ [id], <[name:=ids']> t)).
    { intros ids' H1 H2 H3 H4.
      assert (Htab : forall n, in_table (<[name:=ids']> t) n <-> n = id \/ in_table t n).
      { intros n. split.
        - intros (k & i & [[-> Ho]|[_ Ho]]%owner_insert).
          + apply H1 in Ho as [->|[j Hj]]; [by left|right]. by exists name, j.
          + right. by exists k, i.
        - intros [->|(k & i & Ho)].
          + destruct H3 as [i Hi]. exists name, i. apply owner_insert. auto.
          + destruct (decide (k = name)) as [->|Hne].
            * destruct (H4 _ _ Ho) as [j Hj]. exists name, j. apply owner_insert. auto.
            * exists k, i. apply owner_insert. auto. }
      split; simpl.
      - done.
      - intros n k i k' i' Ho1 Ho2. apply owner_insert in Ho1, Ho2.
        destruct Ho1 as [[-> Ho1]|[Hk1 Ho1]], Ho2 as [[-> Ho2]|[Hk2 Ho2]].
        + eauto.
        + apply H1 in Ho1 as [->|[j Hj]]; [exfalso; apply Hidt; by exists k', i'|].
          by destruct (Hinj _ _ _ _ _ Hj Ho2).
        + apply H1 in Ho2 as [->|[j Hj]]; [exfalso; apply Hidt; by exists k, i|].
          by destruct (Hinj _ _ _ _ _ Hj Ho1).
        + eauto.
      - intros n Hn [->|Hx]%Htab; [done|]. by apply (Hout n Hn).
      - intros n Hn [->|Hx]%Htab; [done|]. by apply (Hbase n Hn).
      - intros n. rewrite Htab. unfold live. rewrite Hw. case_decide as Hn.
        + subst. split; [auto|eauto].
        + fold (live g n). rewrite Hlive. tauto.
      - intros n [Hn|Hn]%elem_of_app; [auto|]. apply elem_of_list_singleton in Hn as ->.
        destruct (decide (id ∈ temp)) as [Hi|Hi]; [auto|].
        unfold live. rewrite <- Hwt by done. done.
      - intros n Hn. rewrite Hw. case_decide; [set_solver|]. apply Hwt. set_solver.
      - congruence. }
    destruct (t !! name) as [oids|] eqn:E.
    - destruct (vec_insert pos id oids) as [nids|] eqn:Ei; [|done]. intros [= <-].
      apply vec_insert_Ok in Ei as [Hp ->]. apply Hcommon.
      + intros n i. rewrite vec_insert_lookup by done. repeat case_decide; intros Hl.
        * right. exists i. by exists oids.
        * left. congruence.
        * right. exists (i - 1). by exists oids.
      + assert (Hne : forall i, oids !! i ≠ Some id).
        { intros i Hi. apply Hidt. by exists name, i, oids. }
        assert (Hoi : forall i i' n, oids !! i = Some n -> oids !! i' = Some n -> i = i').
        { intros i i' n Ha Hb. apply (Hinj n name i name i'); by exists oids. }
        intros i i' n. rewrite !vec_insert_lookup by done.
        repeat case_decide; intros Ha Hb; try lia;
          try (injection Ha as <-; by apply Hne in Hb); try (injection Hb as <-; by apply Hne in Ha);
          pose proof (Hoi _ _ _ Ha Hb); lia.
      + exists pos. rewrite vec_insert_lookup by done. rewrite decide_False by lia. by rewrite decide_True.
      + intros n j (x & Ex & Hj). rewrite E in Ex. injection Ex as <-.
        exists (if decide (j < pos) then j else S j). rewrite vec_insert_lookup by done.
        destruct (decide (j < pos)); [by rewrite decide_True|].
        rewrite decide_False by lia. rewrite decide_False by lia. simpl. by rewrite Nat.sub_0_r.
    - intros [= <-]. apply Hcommon.
      + intros n i Hl. apply list_lookup_singleton_Some in Hl as [_ <-]. by left.
      + intros i i' n [-> _]%list_lookup_singleton_Some [-> _]%list_lookup_singleton_Some. done.
      + by exists 0.
      + intros n j (x & Ex & _). congruence.
  Qed.
End phases.

Section wf_transfer.
  Context {W : Type}.
  Lemma slot_none_iff (g : sgraph W) i : slots g !! i = Some None <-> i < length (slots g) /\ ~ live g i.
  Proof.
    unfold live, node_weight. split.
    - intros H. split; [by apply lookup_lt_Some in H|]. rewrite H. by intros [? ?].
    - intros [Hlt Hn]. destruct (lookup_lt_is_Some_2 _ _ Hlt) as [[w|] Hs]; [|done].
      exfalso. apply Hn. rewrite Hs. simpl. eauto.
  Qed.
  Lemma wf_transfer (g g' : sgraph W) : wf_graph g -> free g' = free g ->
    length (slots g') = length (slots g) -> edges g' = edges g ->
    (forall n, live g' n <-> live g n) -> wf_graph g'.
  Proof.
    intros (H1 & H2 & H3) Hf Hl He Hlive. split_and!.
    - by rewrite Hf.
    - intros i. rewrite Hf, H2, !slot_none_iff, Hl, Hlive. done.
    - intros u v. unfold edge. rewrite He, !Hlive. apply H3.
  Qed.
End wf_transfer.

Section invariant.
  Context (L : lang).
  Notation W := (node L * list (buf L))%type.
  Notation ast := (gmap string (list (comp L))).
  Notation graph := (sgraph W).
  Notation engine := (engine L).

  (** What connecting nodes may change: node states (through messages) and edges. *)
  Definition conn_rel (g g' : graph) : Prop :=
    wf_graph g' /\ (forall n, live g' n <-> live g n) /\
    (forall n w', node_weight g' n = Some w' -> exists w, node_weight g n = Some w /\ w.2 = w'.2).

  Lemma conn_rel_refl g : wf_graph g -> conn_rel g g.
  Proof. intros. split_and!; eauto. Qed.
  Lemma conn_rel_trans g1 g2 g3 : conn_rel g1 g2 -> conn_rel g2 g3 -> conn_rel g1 g3.
  Proof.
    intros (H1 & H2 & H3) (H4 & H5 & H6). split_and!; [done| |].
    - intros n. by rewrite H5.
    - intros n w' (w & Hw & Hb)%H6. apply H3 in Hw as (w0 & ? & ?). exists w0. split; congruence.
  Qed.

  Lemma send_to_spec g n m (g' : graph) : send_to L g n m = Ok g' ->
    exists w st, node_weight g n = Some w /\ nmsg w.1 m = Ok st /\ set_weight g n (st, w.2) = Ok g'.
  Proof.
    unfold send_to. destruct (node_weight g n) as [w|] eqn:E; [|done].
    destruct (nmsg w.1 m) as [st|] eqn:E2; [|done]. intros H. eauto 10.
  Qed.

  Lemma send_to_conn g n m (g' : graph) : wf_graph g -> send_to L g n m = Ok g' -> conn_rel g g' /\ edges g' = edges g.
  Proof.
    intros Hwf (w & st & Hw & Hm & Hs)%send_to_spec.
    pose proof (set_weight_wf _ _ _ _ Hwf Hs). apply set_weight_spec in Hs as (Hl & Hf & He & Hlen & Hw').
    split; [|done]. split_and!; [done| |].
    - intros k. unfold live. rewrite Hw'. case_decide; [subst; rewrite Hw; split; eauto|done].
    - intros k w'. rewrite Hw'. case_decide; [|eauto]. intros [= <-]. subst. eauto.
  Qed.

  Lemma add_edge_conn g a b (g' : graph) : wf_graph g -> add_edge g a b = Ok g' -> conn_rel g g'.
  Proof.
    intros Hwf H. pose proof (add_edge_wf _ _ _ _ Hwf H). apply add_edge_spec in H as (_ & _ & Hs & _ & _).
    assert (Hw : forall m, node_weight g' m = node_weight g m) by (intros; unfold node_weight; by rewrite Hs).
    split_and!; [done| |]; intros n; unfold live; rewrite Hw; eauto.
  Qed.

  Lemma connect_conn g a b (g' : graph) : wf_graph g -> connect L g a b = Ok g' -> conn_rel g g'.
  Proof.
    unfold connect. intros Hwf. destruct (add_edge g a b) as [g1|] eqn:E; [|done].
    pose proof (add_edge_conn _ _ _ _ Hwf E) as Hc. intros H. eapply conn_rel_trans; [done|].
    eapply send_to_conn; eauto. apply Hc.
  Qed.
  Lemma connect_with_order_conn g a b p (g' : graph) : wf_graph g -> connect_with_order L g a b p = Ok g' -> conn_rel g g'.
  Proof.
    unfold connect_with_order. intros Hwf. destruct (add_edge g a b) as [g1|] eqn:E; [|done].
    pose proof (add_edge_conn _ _ _ _ Hwf E) as Hc. intros H. eapply conn_rel_trans; [done|].
    eapply send_to_conn; eauto. apply Hc.
  Qed.

  Lemma foldM_conn {B} (f : graph -> B -> res graph) g l (g' : graph) :
    (forall x b x', wf_graph x -> f x b = Ok x' -> conn_rel x x') ->
    wf_graph g -> foldM f g l = Ok g' -> conn_rel g g'.
  Proof.
    intros Hf Hwf H. apply (foldM_inv (conn_rel g) f g l); [by apply conn_rel_refl| |done].
    intros x b x' Hx _ Hb. eapply conn_rel_trans; [done|]. eapply Hf; [apply Hx|done].
  Qed.

  Lemma connect_ref_conn sh t to g r (g' : graph) : wf_graph g -> connect_ref L sh t to g r = Ok g' -> conn_rel g g'.
  Proof.
    intros Hwf. unfold connect_ref, connect_last. destruct (contains_dotdot r).
    - apply foldM_conn; [|done]. intros x b x' Hx. destruct (starts_with _ _); [|intros [= <-]; by apply conn_rel_refl].
      destruct (last b.2); [|done]. by apply connect_conn.
    - destruct (t !! r); [|done]. destruct (last _); [|done]. by apply connect_conn.
  Qed.

  Lemma connect_refs_conn sh t l g s er g' s' er' : wf_graph g ->
    foldM (connect_refs_one L sh t) (g, s, er) l = Ok (g', s', er') -> conn_rel g g'.
  Proof.
    intros Hwf H.
    apply (foldM_inv (fun st : ref_state L => conn_rel g st.1.1)) in H; [done|by apply conn_rel_refl|].
    intros [[x sx] ex] [[rs name] i] [[x' sx'] ex'] Hx _. simpl in Hx.
    unfold connect_refs_one. destruct ex; [by intros [= <- <- <-]|].
    destruct (t !! _) as [ids|]; [|by intros [= <- <- <-]].
    destruct (ids !! _) as [idx|]; [|done].
    assert (Hwx : wf_graph x) by apply Hx.
    case_decide; simpl.
    - destruct (foldM _ x rs) as [g''|] eqn:E; [|done]. intros [= <- <- <-]. simpl.
      eapply conn_rel_trans; [done|]. eapply foldM_conn; [|done|done].
      intros; eapply connect_ref_conn; eauto.
    - destruct (send_to L x idx ResetOrder) as [x1|] eqn:E1; [|done].
      apply send_to_conn in E1 as [Hc1 _]; [|done].
      destruct (foldM _ x1 rs) as [g''|] eqn:E; [|done]. intros [= <- <- <-]. simpl.
      eapply conn_rel_trans; [done|]. eapply conn_rel_trans; [done|].
      eapply foldM_conn; [|apply Hc1|done]. intros; eapply connect_ref_conn; eauto.
  Qed.

  Lemma connect_chain_conn dest g kv (g' : graph) : wf_graph g -> connect_chain L dest g kv = Ok g' -> conn_rel g g'.
  Proof.
    unfold connect_chain. intros Hwf. destruct (foldM _ g _) as [g1|] eqn:E; [|done].
    assert (Hc : conn_rel g g1).
    { eapply foldM_conn; [|done|done]. intros x b x' Hx. by apply connect_with_order_conn. }
    destruct (contains_char _ _); [by intros [= <-]|]. destruct (last _); [|by intros [= <-]].
    intros H. eapply conn_rel_trans; [done|]. eapply connect_with_order_conn; [apply Hc|done].
  Qed.

  Record einv (e : engine) : Prop := {
    ei_wf : wf_graph (en_graph L e);
    ei_backup : en_backup L e = en_info L e;
    ei_inj : table_inj (en_info L e);
    ei_ne : en_dest L e ≠ en_input L e;
    ei_dest : ~ in_table (en_info L e) (en_dest L e);
    ei_input : ~ in_table (en_info L e) (en_input L e);
    ei_live : forall n, live (en_graph L e) n <->
                n = en_dest L e \/ n = en_input L e \/ in_table (en_info L e) n;
    ei_keys : forall old k c cs, en_ast L e = Some old -> old !! k = Some (c :: cs) ->
                is_Some (en_info L e !! k)
  }.

  (** Two engines that agree on everything except the free list, trailing empty slots
      and the scratch list of the last update. *)
  Record eqv (e1 e2 : engine) : Prop := {
    eq_weight : forall n, node_weight (en_graph L e1) n = node_weight (en_graph L e2) n;
    eq_edges : edges (en_graph L e1) = edges (en_graph L e2);
    eq_dest : en_dest L e1 = en_dest L e2;
    eq_input : en_input L e1 = en_input L e2;
    eq_ast : en_ast L e1 = en_ast L e2;
    eq_info : en_info L e1 = en_info L e2;
    eq_backup : en_backup L e1 = en_backup L e2;
    eq_samples : en_samples L e1 = en_samples L e2;
    eq_bpm : en_bpm L e1 = en_bpm L e2;
    eq_sr : en_sr L e1 = en_sr L e2;
    eq_seed : en_seed L e1 = en_seed L e2;
    eq_clock : en_clock L e1 = en_clock L e2
  }.

  Lemma engine_new_inv : einv (engine_new L).
  Proof.
    unfold engine_new. simpl.
    assert (Hown : forall n k i, owner {[input_name := [2]]} n k i <-> k = input_name /\ i = 0 /\ n = 2).
    { intros n k i. unfold owner. split.
      - intros (ids & [<- <-]%lookup_singleton_Some & [-> <-]%list_lookup_singleton_Some). done.
      - intros (-> & -> & ->). exists [2]. by rewrite lookup_singleton. }
    assert (Htab : forall n, in_table {[input_name := [2]]} n <-> n = 2).
    { intros n. split; [intros (k & i & (_ & _ & ->)%Hown); done|]. intros ->. exists input_name, 0. by apply Hown. }
    split; simpl.
    - split_and!; simpl.
      + constructor.
      + intros i. split; [set_solver|]. intros Hi. do 3 (destruct i as [|i]; [done|]). done.
      + intros u v H. unfold edge in H; simpl in H. set_solver.
    - done.
    - intros n k i k' i' (-> & -> & _)%Hown (-> & -> & _)%Hown. done.
    - done.
    - rewrite Htab. done.
    - rewrite Htab. done.
    - intros n. rewrite Htab. unfold live, node_weight. simpl. split.
      + do 3 (destruct n as [|n]; [auto|]). simpl. by intros [? ?].
      + intros [->|[->| ->]]; simpl; eauto.
    - done.
  Qed.

  Lemma engine_reset_inv e : einv (engine_reset L e).
  Proof.
    unfold engine_reset. simpl.
    assert (Htab : forall n, ~ in_table ∅ n).
    { intros n (k & i & ids & H & _). by rewrite lookup_empty in H. }
    split; simpl; auto.
    - split_and!; simpl.
      + constructor.
      + intros i. split; [set_solver|]. intros Hi. do 2 (destruct i as [|i]; [done|]). done.
      + intros u v H. unfold edge in H; simpl in H. set_solver.
    - intros n k i k' i' H. exfalso. apply (Htab n). by exists k, i.
    - intros n. unfold live, node_weight. simpl. split.
      + do 2 (destruct n as [|n]; [auto|]). simpl. by intros [? ?].
      + intros [->|[->|H]]; simpl; eauto. by apply Htab in H.
    - done.
  Qed.
End invariant.

(** * TableProofs: what an update does to the chain table, position by position. *)
From Verif Require Export HistoryProofs.
From Coq Require Import Lia.
Local Open Scope nat_scope.

Lemma enumerate_cons {A} (x : A) l :
  enumerate (x :: l) = (0, x) :: ((fun p => (S p.1, p.2)) <$> enumerate l).
Proof.
  unfold enumerate. rewrite imap_cons. f_equal. apply list_eq. intros i.
  rewrite list_lookup_fmap, !list_lookup_imap. by destruct (l !! i).
Qed.

(** ** Removing positions from the back *)

Definition removes (ids : list nat) (ps : list nat) : res (list nat) :=
  foldM (fun l p => vec_remove p l) ids ps.

Lemma removes_app ids ps qs : removes ids (ps ++ qs) =
  match removes ids ps with Ok r => removes r qs | Panic => Panic end.
Proof. apply foldM_app. Qed.

Lemma removes_S x ids qs : removes (x :: ids) (S <$> qs) =
  match removes ids qs with Ok r => Ok (x :: r) | Panic => Panic end.
Proof.
  unfold removes. revert ids. induction qs as [|q qs IH]; intros ids; [done|].
  rewrite fmap_cons. simpl. unfold vec_remove. simpl.
  destruct (decide (S q < S (length ids))), (decide (q < length ids)); try lia; simpl; auto.
Qed.

(** Positions of the elements rejected by [P]. *)
Definition bad_pos {A} (P : A -> Prop) `{!forall x, Decision (P x)} (l : list A) : list nat :=
  (filter (fun p => ~ P p.2) (enumerate l)).*1.

Lemma bad_pos_cons {A} (P : A -> Prop) `{!forall x, Decision (P x)} (x : A) l :
  bad_pos P (x :: l) = (if decide (P x) then [] else [0]) ++ (S <$> bad_pos P l).
Proof.
  unfold bad_pos. rewrite enumerate_cons, filter_cons. simpl.
  assert (Hmap : (filter (fun p : nat * A => ~ P p.2) ((fun p => (S p.1, p.2)) <$> enumerate l)).*1
    = S <$> (filter (fun p => ~ P p.2) (enumerate l)).*1).
  { generalize (enumerate l) as m. induction m as [|[i y] m IH]; [done|].
    rewrite fmap_cons, !filter_cons. simpl. destruct (decide (P y)) as [Hy|Hy].
    - rewrite !decide_False by (simpl; tauto). done.
    - rewrite !decide_True by (simpl; tauto). rewrite !fmap_cons. simpl. by f_equal. }
  destruct (decide (P x)) as [Hx|Hx].
  - rewrite decide_False by tauto. by rewrite Hmap.
  - rewrite decide_True by tauto. rewrite fmap_cons, Hmap. done.
Qed.

(** The ids whose component satisfies [P]. *)
Definition pick {A} (P : A -> Prop) `{!forall x, Decision (P x)} (l : list A) (ids : list nat) : list nat :=
  (filter (fun p => P p.1) (zip l ids)).*2.

Lemma pick_cons {A} (P : A -> Prop) `{!forall x, Decision (P x)} (x : A) l i ids :
  pick P (x :: l) (i :: ids) = (if decide (P x) then [i] else []) ++ pick P l ids.
Proof. unfold pick. simpl. rewrite filter_cons. simpl. by destruct (decide (P x)). Qed.

Lemma removes_bad {A} (P : A -> Prop) `{!forall x, Decision (P x)} (l : list A) ids :
  length ids = length l -> removes ids (rev (bad_pos P l)) = Ok (pick P l ids).
Proof.
  revert ids. induction l as [|x l IH]; intros [|i ids] Hl; try done.
  injection Hl as Hl. rewrite bad_pos_cons, pick_cons, rev_app_distr.
  change (rev (S <$> bad_pos P l)) with (rev (map S (bad_pos P l))). rewrite <- map_rev.
  change (map S (rev (bad_pos P l))) with (S <$> rev (bad_pos P l)).
  rewrite removes_app, removes_S, IH by done.
  destruct (decide (P x)); simpl; [done|]. unfold removes. simpl. unfold vec_remove. simpl.
  reflexivity.
Qed.

Lemma pick_length {A} (P : A -> Prop) `{!forall x, Decision (P x)} (l : list A) ids :
  length ids = length l -> length (pick P l ids) = length (filter P l).
Proof.
  revert ids. induction l as [|x l IH]; intros [|i ids] Hl; try done.
  injection Hl as Hl. rewrite pick_cons, filter_cons, app_length, IH by done.
  by destruct (decide (P x)).
Qed.

(** ** Inserting from the front *)

Definition inserts (ids : list nat) (qs : list (nat * nat)) : res (list nat) :=
  foldM (fun l q => vec_insert q.1 q.2 l) ids qs.

Lemma inserts_S x ids qs : inserts (x :: ids) ((fun q => (S q.1, q.2)) <$> qs) =
  match inserts ids qs with Ok r => Ok (x :: r) | Panic => Panic end.
Proof.
  unfold inserts. revert ids. induction qs as [|q qs IH]; intros ids; [done|].
  rewrite fmap_cons. simpl. unfold vec_insert. simpl.
  destruct (decide (S q.1 <= S (length ids))), (decide (q.1 <= length ids)); try lia; simpl; auto.
Qed.

(** [flags]: for each position of the new chain, is it a new component?  The new
    chain takes its ids from [news] or, in order, from [kept]. *)
Fixpoint merge (flags : list bool) (kept news : list nat) : list nat :=
  match flags with
  | [] => kept
  | true :: fl => match news with n :: news' => n :: merge fl kept news' | [] => kept end
  | false :: fl => match kept with k :: kept' => k :: merge fl kept' news | [] => merge fl [] news end
  end.

Definition flag_pos (flags : list bool) : list nat := bad_pos (fun b : bool => b = false) flags.

Lemma flag_pos_cons b fl : flag_pos (b :: fl) = (if b then [0] else []) ++ (S <$> flag_pos fl).
Proof. unfold flag_pos. rewrite bad_pos_cons. by destruct b. Qed.

Lemma inserts_merge flags kept news :
  length kept = length (filter (fun b => b = false) flags) -> length news = length (flag_pos flags) ->
  inserts kept (zip (flag_pos flags) news) = Ok (merge flags kept news).
Proof.
  revert kept news. induction flags as [|b fl IH]; intros kept news Hk Hn.
  - destruct kept; [|done]. destruct news; [|done]. done.
  - rewrite flag_pos_cons in *. rewrite filter_cons in Hk. rewrite app_length, fmap_length in Hn.
    assert (Hz : forall ns : list nat, zip (S <$> flag_pos fl) ns = (fun q : nat * nat => (S q.1, q.2)) <$> zip (flag_pos fl) ns).
    { clear. induction (flag_pos fl) as [|p ps IH]; intros [|n ns]; simpl; [done..|]. by rewrite IH. }
    destruct b; simpl in *.
    + destruct news as [|n news]; [done|]. injection Hn as Hn.
      rewrite Hz.
      match goal with |- inserts _ (_ :: ?r) = _ => change (inserts kept ((0, n) :: r)) with (inserts (n :: kept) r) end.
      rewrite inserts_S, IH by done. done.
    + destruct kept as [|k kept]; [done|]. injection Hk as Hk. simpl in Hn. rewrite Hz, inserts_S, IH by done. done.
Qed.

Lemma merge_length flags kept news :
  length kept = length (filter (fun b => b = false) flags) -> length news = length (flag_pos flags) ->
  length (merge flags kept news) = length flags.
Proof.
  revert kept news. induction flags as [|b fl IH]; intros kept news Hk Hn.
  - by destruct kept.
  - rewrite flag_pos_cons, app_length, fmap_length in Hn. rewrite filter_cons in Hk. destruct b; simpl in *.
    + destruct news; [done|]. simpl. f_equal. apply IH; [done|]. simpl in *; lia.
    + destruct kept; [done|]. simpl. f_equal. apply IH; simpl in *; [lia|done].
Qed.

(** Which id a position of the merged chain holds: number of earlier positions of the
    same kind. *)
Lemma merge_lookup_new flags kept news j :
  length kept = length (filter (fun b => b = false) flags) -> length news = length (flag_pos flags) ->
  flags !! j = Some true -> merge flags kept news !! j = news !! length (filter (fun b => b = true) (take j flags)).
Proof.
  revert kept news j. induction flags as [|b fl IH]; intros kept news j Hk Hn Hj; [done|].
  rewrite flag_pos_cons, app_length, fmap_length in Hn. rewrite filter_cons in Hk.
  destruct j as [|j]; simpl in Hj.
  - injection Hj as ->. simpl. destruct news; done.
  - rewrite firstn_cons, filter_cons. destruct b; simpl in *.
    + destruct news as [|n news]; [done|]. simpl. apply IH; [done|simpl in *; lia|done].
    + destruct kept as [|k kept]; [done|]. simpl. apply IH; simpl in *; [lia|done|done].
Qed.
Lemma merge_lookup_kept flags kept news j :
  length kept = length (filter (fun b => b = false) flags) -> length news = length (flag_pos flags) ->
  flags !! j = Some false -> merge flags kept news !! j = kept !! length (filter (fun b => b = false) (take j flags)).
Proof.
  revert kept news j. induction flags as [|b fl IH]; intros kept news j Hk Hn Hj; [done|].
  rewrite flag_pos_cons, app_length, fmap_length in Hn. rewrite filter_cons in Hk.
  destruct j as [|j]; simpl in Hj.
  - injection Hj as ->. simpl in *. destruct kept; done.
  - rewrite firstn_cons, filter_cons. destruct b; simpl in *.
    + destruct news as [|n news]; [done|]. simpl. apply IH; [done|simpl in *; lia|done].
    + destruct kept as [|k kept]; [done|]. simpl. apply IH; simpl in *; [lia|done|done].
Qed.

(** ** Projecting table operations on one chain *)

Definition pos_of (k : string) (l : list (string * nat)) : list nat := (filter (fun r => r.1 = k) l).*2.

Lemma remove_fold_proj l t acc t' acc' k : foldM remove_pos (t, acc) l = Ok (t', acc') ->
  match t !! k with
  | None => t' !! k = None
  | Some ids => exists ids', removes ids (pos_of k l) = Ok ids' /\ t' !! k = Some ids'
  end.
Proof.
  revert t acc. induction l as [|[name p] l IH]; intros t acc; simpl.
  - intros [= <- <-]. destruct (t !! k); [|done]. eauto.
  - unfold remove_pos at 1. simpl. unfold pos_of in *. rewrite filter_cons. simpl.
    destruct (t !! name) as [ids|] eqn:E.
    + destruct (ids !! p) as [id|]; [|done]. destruct (vec_remove p ids) as [ids'|] eqn:Er; [|done].
      intros H. apply IH in H. destruct (decide (name = k)) as [->|Hne].
      * rewrite lookup_insert in H. rewrite E. rewrite fmap_cons. unfold removes in *. simpl. by rewrite Er.
      * rewrite lookup_insert_ne in H by done. done.
    + intros H. apply IH in H. destruct (decide (name = k)) as [->|Hne]; [|done]. by rewrite E in *.
Qed.

Lemma remove_fold_total l t acc :
  (forall k ids, t !! k = Some ids -> is_ok (removes ids (pos_of k l))) ->
  exists st, foldM remove_pos (t, acc) l = Ok st.
Proof.
  revert t acc. induction l as [|[name p] l IH]; intros t acc H; simpl; [eauto|].
  unfold remove_pos at 1. simpl. destruct (t !! name) as [ids|] eqn:E.
  - pose proof (H _ _ E) as Hok. unfold pos_of in Hok. rewrite filter_cons in Hok. simpl in Hok.
    rewrite decide_True in Hok by done. rewrite fmap_cons in Hok. unfold removes in Hok. simpl in Hok.
    destruct (vec_remove p ids) as [ids'|] eqn:Er; [|done].
    pose proof Er as Er'. apply vec_remove_Ok in Er' as [Hlt _].
    destruct (lookup_lt_is_Some_2 _ _ Hlt) as [id ->]. apply IH. intros k ids0 Hk.
    destruct (decide (k = name)) as [->|Hne].
    + rewrite lookup_insert in Hk. injection Hk as <-. done.
    + rewrite lookup_insert_ne in Hk by done. pose proof (H _ _ Hk) as Hok'.
      unfold pos_of in *. rewrite filter_cons in Hok'. simpl in Hok'. rewrite decide_False in Hok' by done. done.
  - apply IH. intros k ids0 Hk. pose proof (H _ _ Hk) as Hok'.
    unfold pos_of in *. rewrite filter_cons in Hok'. simpl in Hok'.
    rewrite decide_False in Hok' by (intros ->; congruence). done.
Qed.

Section adds.
  Context (L : lang).
  Notation W := (node L * list (buf L))%type.
  Notation graph := (sgraph W).
  Notation table := (gmap string (list nat)).

  Definition adds_of (k : string) (l : list (string * nat * W)) (nids : list nat) : list (nat * nat) :=
    (fun q => (q.1.1.2, q.2)) <$> filter (fun q => q.1.1.1 = k) (zip l nids).

  (** [None] behaves as the empty chain when the first insertion is at position 0. *)
  Definition chain_result (o : option (list nat)) (qs : list (nat * nat)) : res (option (list nat)) :=
    match o, qs with
    | None, [] => Ok None
    | None, (_, id) :: qs' => match inserts [id] qs' with Ok r => Ok (Some r) | Panic => Panic end
    | Some ids, _ => match inserts ids qs with Ok r => Ok (Some r) | Panic => Panic end
    end.

  Lemma adds_spec l (g : graph) temp (t : table) g' temp' t' : wf_graph g ->
    foldM (add_one L) (g, temp, t) l = Ok (g', temp', t') ->
    exists nids, temp' = temp ++ nids /\ length nids = length l /\ NoDup nids /\ wf_graph g' /\
      edges g' = edges g /\
      (forall n, n ∈ nids -> ~ live g n) /\
      (forall i a n, l !! i = Some a -> nids !! i = Some n -> node_weight g' n = Some a.2) /\
      (forall n, n ∉ nids -> node_weight g' n = node_weight g n) /\
      (forall k, chain_result (t !! k) (adds_of k l nids) = Ok (t' !! k)).
  Proof.
    revert g temp t. induction l as [|[[name pos] w] l IH]; intros g temp t Hwf.
    - simpl. intros [= <- <- <-]. exists []. rewrite app_nil_r.
      split_and!; try done; try constructor; try set_solver.
      intros k. unfold adds_of. simpl. destruct (t !! k); done.
    - simpl. pose proof (add_node_spec g w Hwf) as Hadd. destruct (add_node g w) as [g1 id].
      destruct Hadd as (Hnl & Hw & He & Hwf1).
      assert (Hmain : forall t1, foldM (add_one L) (g1, temp ++ [id], t1) l = Ok (g', temp', t') ->
        (forall k, k ≠ name -> t1 !! k = t !! k) ->
        (forall nids, chain_result (t !! name) (adds_of name (((name, pos, w) : string * nat * W) :: l) (id :: nids))
             = chain_result (t1 !! name) (adds_of name l nids)) ->
        exists nids, temp' = temp ++ nids /\ length nids = S (length l) /\ NoDup nids /\ wf_graph g' /\
          edges g' = edges g /\ (forall n, n ∈ nids -> ~ live g n) /\
          (forall i a n, ((name, pos, w) :: l) !! i = Some a -> nids !! i = Some n -> node_weight g' n = Some a.2) /\
          (forall n, n ∉ nids -> node_weight g' n = node_weight g n) /\
          (forall k, chain_result (t !! k) (adds_of k ((name, pos, w) :: l) nids) = Ok (t' !! k))).
      { intros t1 H Ht1 Hname. apply IH in H as (nids & -> & Hlen & Hnd & Hwf' & He' & Hfr & Hnew & Hold & Hc); [|done].
        assert (Hlid : live g1 id) by (unfold live; rewrite Hw; rewrite decide_True by done; eauto).
        assert (Hid : id ∉ nids) by (intros Hx; by apply (Hfr id Hx)).
        exists (id :: nids). split_and!.
        - by rewrite <- app_assoc.
        - simpl. by f_equal.
        - by constructor.
        - done.
        - congruence.
        - intros n [->|Hn]%elem_of_cons; [done|]. intros Hl. apply (Hfr n Hn).
          unfold live. rewrite Hw. case_decide; [eauto|done].
        - intros [|i] a n; simpl.
          + intros [= <-] [= <-]. rewrite Hold by done. by rewrite Hw, decide_True.
          + apply Hnew.
        - intros n Hn. rewrite Hold by set_solver. rewrite Hw, decide_False; [done|set_solver].
        - intros k. destruct (decide (k = name)) as [->|Hne].
          + rewrite Hname. apply Hc.
          + unfold adds_of. simpl. rewrite filter_cons. simpl. rewrite decide_False by done.
            rewrite <- (Ht1 k Hne). apply Hc. }
      destruct (t !! name) as [ids|] eqn:E.
      + destruct (vec_insert pos id ids) as [ids'|] eqn:Ei; [|done]. intros H.
        apply Hmain in H; [done| |].
        * intros. by rewrite lookup_insert_ne.
        * intros nids. rewrite lookup_insert. unfold adds_of. simpl. rewrite filter_cons. simpl.
          rewrite decide_True by done. rewrite fmap_cons. simpl. unfold inserts. simpl. by rewrite Ei.
      + intros H. apply Hmain in H; [done| |].
        * intros. by rewrite lookup_insert_ne.
        * intros nids. rewrite lookup_insert. unfold adds_of. simpl. rewrite filter_cons. simpl.
          rewrite decide_True by done. rewrite fmap_cons. simpl. done.
  Qed.

  (** Additions fail only if some position is beyond the end of its chain; whether it
      is does not depend on the ids. *)
  Lemma adds_total l (g : graph) temp (t : table) :
    (forall k nids, length nids = length l -> is_ok (chain_result (t !! k) (adds_of k l nids))) ->
    exists st, foldM (add_one L) (g, temp, t) l = Ok st.
  Proof.
    revert g temp t. induction l as [|[[name pos] w] l IH]; intros g temp t H; simpl; [eauto|].
    destruct (add_node g w) as [g1 id].
    assert (Hother : forall k nids, k ≠ name -> length nids = length l -> is_ok (chain_result (t !! k) (adds_of k l nids))).
    { intros k nids Hk Hl. pose proof (H k (id :: nids) ltac:(simpl; by f_equal)) as Hok.
      unfold adds_of in Hok. simpl in Hok. rewrite filter_cons in Hok. simpl in Hok.
      rewrite decide_False in Hok by done. done. }
    assert (Hthis : forall nids, length nids = length l ->
      is_ok (chain_result (t !! name) ((pos, id) :: adds_of name l nids))).
    { intros nids Hl. pose proof (H name (id :: nids) ltac:(simpl; by f_equal)) as Hok.
      unfold adds_of in Hok. simpl in Hok. rewrite filter_cons in Hok. simpl in Hok.
      rewrite decide_True in Hok by done. done. }
    destruct (t !! name) as [ids|] eqn:E.
    - destruct (vec_insert pos id ids) as [ids'|] eqn:Ei.
      + apply IH. intros k nids Hl. destruct (decide (k = name)) as [->|Hne].
        * rewrite lookup_insert. pose proof (Hthis nids Hl) as Hok. simpl in Hok. unfold inserts in Hok.
          simpl in Hok. rewrite Ei in Hok. done.
        * rewrite lookup_insert_ne by done. auto.
      + pose proof (Hthis (replicate (length l) 0) ltac:(by rewrite replicate_length)) as Hok.
        simpl in Hok. unfold inserts in Hok. simpl in Hok. rewrite Ei in Hok. done.
    - apply IH. intros k nids Hl. destruct (decide (k = name)) as [->|Hne].
      + rewrite lookup_insert. apply (Hthis nids Hl).
      + rewrite lookup_insert_ne by done. auto.
  Qed.
End adds.

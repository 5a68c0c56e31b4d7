(** * TameProofs: what a successful update does, when the edit keeps the relative
    order of surviving components. *)
From Verif Require Export ActProofs.
From Coq Require Import Lia.
Local Open Scope nat_scope.

(** What the engine theorems need to know about a language. *)
Record lang_ok (L : lang) : Prop := {
  lo_refs : forall ev (c : comp L) w refs, makenode ev c = Done (w, refs) ->
              forall r, r ∈ refs <-> r ∈ all_refs c;
  lo_sym : forall a b : comp L, comp_eqb a b = true -> comp_eqb b a = true;
  lo_trans : forall a b c : comp L, comp_eqb a b = true -> comp_eqb b c = true -> comp_eqb a c = true;
  lo_fail : forall ev (c : comp L) er, makenode ev c = Fail er -> exists s, er = NonExistSample s;
  lo_eq_refs : forall a b : comp L, comp_eqb a b = true -> all_refs a = all_refs b;
  lo_msg : forall (st : node L) m, conn_msg m -> is_ok (nmsg st m)
}.

(** ** Lists *)

Lemma list_filter_none {A} (P : A -> Prop) `{!forall x, Decision (P x)} (l : list A) :
  (forall x, x ∈ l -> ~ P x) -> filter P l = [].
Proof.
  induction l as [|x l IH]; intros Ha; [done|]. rewrite filter_cons, decide_False by (apply Ha; set_solver).
  apply IH. intros; apply Ha; set_solver.
Qed.

Lemma filter_bind_key {A B} (key : B -> string) (f : string * A -> list B) (l : list (string * A)) k :
  NoDup l.*1 -> (forall kv x, x ∈ f kv -> key x = kv.1) ->
  filter (fun x => key x = k) (l ≫= f) =
    match list_find (fun kv => kv.1 = k) l with Some (_, kv) => f kv | None => [] end.
Proof.
  intros Hnd Hf. induction l as [|[k0 a] l IH]; [done|].
  rewrite fmap_cons in Hnd. apply NoDup_cons in Hnd as [Hk Hnd]. specialize (IH Hnd).
  rewrite bind_cons, filter_app. simpl. destruct (decide (k0 = k)) as [->|Hne].
  - assert (Hrest : filter (fun x => key x = k) (l ≫= f) = []).
    { rewrite IH. destruct (list_find (fun kv : string * A => kv.1 = k) l) as [[i kv]|] eqn:E; [|done].
      apply list_find_Some in E as (Hi & Hkv & _). exfalso. apply Hk. apply elem_of_list_fmap.
      exists kv. split; [done|]. by eapply elem_of_list_lookup_2. }
    rewrite Hrest, app_nil_r. apply list_filter_all. intros x Hx. by apply Hf in Hx.
  - assert (Hnil : filter (fun x => key x = k) (f (k0, a)) = []).
    { apply list_filter_none. intros x Hx%Hf. simpl in Hx. congruence. }
    rewrite Hnil. simpl. rewrite IH. by destruct (list_find _ l) as [[i kv]|].
Qed.

Lemma list_find_key {A} (l : list (string * A)) (m : gmap string A) k :
  NoDup l.*1 -> (forall kv, kv ∈ l <-> m !! kv.1 = Some kv.2) ->
  match list_find (fun kv => kv.1 = k) l with
  | Some (_, kv) => kv.1 = k /\ m !! k = Some kv.2
  | None => m !! k = None
  end.
Proof.
  intros Hnd Hl. destruct (list_find _ l) as [[i kv]|] eqn:E.
  - apply list_find_Some in E as (Hi & <- & _). split; [done|]. apply Hl. by eapply elem_of_list_lookup_2.
  - apply list_find_None in E. rewrite Forall_forall in E. destruct (m !! k) as [a|] eqn:Ek; [|done].
    exfalso. apply (E (k, a)); [|done]. by apply Hl.
Qed.

Lemma shuffled_map {A} (sh : shuffle) (m : gmap string A) :
  NoDup (sh _ (map_to_list m)).*1 /\ forall kv, kv ∈ sh _ (map_to_list m) <-> m !! kv.1 = Some kv.2.
Proof.
  split.
  - rewrite shuf_perm. apply NoDup_fst_map_to_list.
  - intros [k a]. rewrite shuf_perm. apply elem_of_map_to_list.
Qed.

(** Rank of a position among the elements satisfying [P]. *)
Definition rank {A} (P : A -> Prop) `{!forall x, Decision (P x)} (l : list A) (i : nat) : nat :=
  length (filter P (take i l)).

Lemma filter_lookup_rank {A} (P : A -> Prop) `{!forall x, Decision (P x)} (l : list A) i x :
  l !! i = Some x -> P x -> filter P l !! rank P l i = Some x.
Proof.
  unfold rank. revert i. induction l as [|y l IH]; intros [|i] Hi Hx; try done.
  - injection Hi as ->. simpl. rewrite filter_cons. by rewrite decide_True.
  - simpl in Hi. rewrite firstn_cons, !filter_cons. destruct (decide (P y)); simpl; auto.
Qed.
Lemma filter_lookup_inv {A} (P : A -> Prop) `{!forall x, Decision (P x)} (l : list A) m x :
  filter P l !! m = Some x -> exists i, l !! i = Some x /\ P x /\ rank P l i = m.
Proof.
  unfold rank. revert m. induction l as [|y l IH]; intros m Hm; [done|].
  rewrite filter_cons in Hm. destruct (decide (P y)) as [Hy|Hy].
  - destruct m as [|m]; simpl in Hm.
    + injection Hm as ->. exists 0. done.
    + destruct (IH _ Hm) as (i & H1 & H2 & <-). exists (S i). split_and!; auto. simpl.
      by rewrite filter_cons, decide_True.
  - destruct (IH _ Hm) as (i & H1 & H2 & <-). exists (S i). split_and!; auto. simpl.
    by rewrite filter_cons, decide_False.
Qed.
Lemma rank_inj {A} (P : A -> Prop) `{!forall x, Decision (P x)} (l : list A) i j x y :
  l !! i = Some x -> l !! j = Some y -> P x -> P y -> rank P l i = rank P l j -> i = j.
Proof.
  unfold rank. revert i j. induction l as [|z l IH]; intros [|i] [|j] Hi Hj Hx Hy Hr; try done; simpl in *.
  - injection Hi as ->. rewrite filter_cons, decide_True in Hr by done. done.
  - injection Hj as ->. rewrite filter_cons, decide_True in Hr by done. done.
  - rewrite !filter_cons in Hr. f_equal. apply IH; auto. destruct (decide (P z)); simpl in Hr; lia.
Qed.

Lemma pick_lookup {A} (P : A -> Prop) `{!forall x, Decision (P x)} (l : list A) ids i x :
  length ids = length l -> l !! i = Some x -> P x -> pick P l ids !! rank P l i = ids !! i.
Proof.
  unfold rank. revert ids i. induction l as [|y l IH]; intros [|id ids] [|i] Hl Hi Hx; try done.
  - injection Hi as ->. simpl. rewrite pick_cons. by rewrite decide_True.
  - simpl in Hi. injection Hl as Hl. rewrite firstn_cons, pick_cons, filter_cons.
    destruct (decide (P y)); simpl; auto.
Qed.

Lemma filter_enumerate_pos {A} (Q : A -> Prop) `{!forall x, Decision (Q x)} (l : list A) :
  (filter (fun p => Q p.2) (enumerate l)).*1 = flag_pos ((fun x => bool_decide (Q x)) <$> l).
Proof.
  induction l as [|x l IH]; [done|].
  rewrite enumerate_cons, filter_cons, fmap_cons, flag_pos_cons, <- IH. simpl.
  assert (Hmap : (filter (fun p : nat * A => Q p.2) ((fun p => (S p.1, p.2)) <$> enumerate l)).*1
    = S <$> (filter (fun p => Q p.2) (enumerate l)).*1).
  { generalize (enumerate l) as m. induction m as [|[i y] m IHm]; [done|].
    rewrite fmap_cons, !filter_cons. simpl. destruct (decide (Q y)) as [Hy|Hy]; [|done].
    rewrite !fmap_cons. simpl. by f_equal. }
  case_bool_decide as Hx.
  - rewrite decide_True by done. rewrite fmap_cons, Hmap. done.
  - rewrite decide_False by done. by rewrite Hmap.
Qed.

Lemma filter_flags {A} (Q : A -> Prop) `{!forall x, Decision (Q x)} (f : A -> bool) (l : list A) :
  (forall x, f x = false <-> Q x) ->
  length (filter (fun b => b = false) (f <$> l)) = length (filter Q l).
Proof.
  intros Hf. induction l as [|x l IH]; [done|]. rewrite fmap_cons, !filter_cons.
  destruct (decide (Q x)) as [Hq|Hq].
  - rewrite decide_True by (by apply Hf). simpl. by rewrite IH.
  - rewrite decide_False by (by rewrite Hf). done.
Qed.

Lemma zip_filter {A B} (P : A -> Prop) `{!forall x, Decision (P x)} (l : list A) (ns : list B) :
  length ns = length l -> (filter (fun q => P q.1) (zip l ns)).*1 = filter P l.
Proof.
  revert ns. induction l as [|a l IH]; intros [|n ns] Hl; try done. injection Hl as Hl. simpl.
  rewrite !filter_cons. simpl. destruct (decide (P a)); [rewrite fmap_cons; simpl; f_equal|]; auto.
Qed.

Section tame.
  Context (L : lang).
  Notation W := (node L * list (buf L))%type.
  Notation comp := (comp L).
  Notation ast := (gmap string (list comp)).
  Notation graph := (sgraph W).
  Notation table := (gmap string (list nat)).
  Notation engine := (engine L).

  (** Programs: no empty chain (the grammar guarantees it) and no user chain called
      "~input". *)
  Definition prog_ok (p : ast) : Prop := p !! input_name = None /\ forall k, p !! k ≠ Some [].

  Definition keeps_order (olds news : list comp) : Prop :=
    Forall2 (fun o n => comp_eqb o n = true)
            (filter (occurs_new L news) olds) (filter (occurs_old L olds) news).
  Definition unique_refs (news : list comp) : Prop :=
    forall i j a b, news !! i = Some a -> news !! j = Some b -> comp_eqb a b = true ->
      all_refs a ≠ [] -> i = j.
  Definition tame (old new : ast) : Prop :=
    forall k olds news, old !! k = Some olds -> new !! k = Some news ->
      keeps_order olds news /\ unique_refs news.

  (** The chain table lists as many nodes as the program has components. *)
  Record aligned (e : engine) : Prop := {
    al_ok : prog_ok (old_ast L e);
    al_len : forall k olds, old_ast L e !! k = Some olds ->
               exists ids, en_info L e !! k = Some ids /\ length ids = length olds;
    al_only : forall k ids, en_info L e !! k = Some ids -> old_ast L e !! k = None -> k = input_name;
    al_input : forall ids, en_info L e !! input_name = Some ids -> exists p, ids = [p]
  }.

  (** ** Planning *)

  Lemma drop_fold_lookup (new : ast) ks st st' k : foldM (drop_chain L new) st ks = Ok st' ->
    st'.1 !! k = if decide (k ∈ ks /\ new !! k = None) then None else st.1 !! k.
  Proof.
    revert st. induction ks as [|key ks IH]; intros st; simpl.
    - by intros [= <-].
    - unfold drop_chain at 1. destruct (decide (is_Some (new !! key))) as [Hs|Hn].
      + intros H. rewrite (IH _ H). destruct (decide (k ∈ ks /\ new !! k = None)) as [Hd|Hd].
        * rewrite decide_True by set_solver. done.
        * rewrite decide_False; [done|]. intros [[->|Hk]%elem_of_cons Hnk].
          -- rewrite Hnk in Hs. by destruct Hs.
          -- by apply Hd.
      + destruct (st.1 !! key) as [ids|] eqn:E; [|done]. intros H. rewrite (IH _ H). simpl.
        assert (Hkey : new !! key = None) by (destruct (new !! key) eqn:E'; [exfalso; eauto|done]).
        destruct (decide (k ∈ ks /\ new !! k = None)) as [Hd|Hd].
        * rewrite decide_True by set_solver. done.
        * destruct (decide (k = key)) as [->|Hne].
          -- rewrite lookup_delete. rewrite decide_True by set_solver. done.
          -- rewrite lookup_delete_ne by done. rewrite decide_False; [done|]. set_solver.
  Qed.

  Lemma drop_fold_total (new : ast) ks st : NoDup ks ->
    (forall k, k ∈ ks -> is_Some (st.1 !! k)) -> exists st', foldM (drop_chain L new) st ks = Ok st'.
  Proof.
    revert st. induction ks as [|key ks IH]; intros st Hnd Hs; simpl; [eauto|].
    apply NoDup_cons in Hnd as [Hk Hnd]. unfold drop_chain at 1. case_decide.
    - apply IH; [done|]. intros; apply Hs; set_solver.
    - destruct (Hs key ltac:(set_solver)) as [ids ->]. apply IH; [done|]. intros k Hin. simpl.
      rewrite lookup_delete_ne by (intros ->; done). apply Hs. set_solver.
  Qed.

  Lemma chain_rems_key old kn x : x ∈ chain_rems L old kn -> x.1 = kn.1.
  Proof.
    unfold chain_rems. intros Hin. apply elem_of_list_bind in Hin as (p & Hin & _).
    unfold rem_entry in Hin. destruct (find_comp _ _ _); [by apply elem_of_nil in Hin|].
    apply elem_of_list_singleton in Hin as ->. done.
  Qed.
  Lemma chain_adds_key ev old kn x : x ∈ chain_adds L ev old kn -> x.1.1 = kn.1.
  Proof.
    unfold chain_adds. intros Hin. apply elem_of_list_bind in Hin as (p & Hin & _).
    unfold add_entry in Hin. destruct (node_of _ _ _); [|by apply elem_of_nil in Hin].
    apply elem_of_list_singleton in Hin as ->. done.
  Qed.

  Lemma chain_rems_pos old k news :
    (chain_rems L old (k, news)).*2 = bad_pos (occurs_new L news) (olds_of L old k).
  Proof.
    unfold chain_rems, bad_pos. simpl. induction (enumerate (olds_of L old k)) as [|[i o] l IH]; [done|].
    rewrite bind_cons, fmap_app, IH, filter_cons. simpl. unfold rem_entry. simpl.
    destruct (find_comp L o news) as [[idx nc]|] eqn:E.
    - rewrite decide_False; [done|]. intros Hn. apply Hn. apply find_comp_some in E as (H1 & H2 & _).
      apply occurs_new_spec. exists nc. split; [by eapply elem_of_list_lookup_2|done].
    - apply find_comp_none in E. by rewrite decide_True.
  Qed.

  Lemma rems_pos_of (sh : shuffle) (old new : ast) k :
    pos_of k (rev (sh _ (map_to_list new) ≫= chain_rems L old)) =
    match new !! k with
    | Some news => rev (bad_pos (occurs_new L news) (olds_of L old k))
    | None => []
    end.
  Proof.
    destruct (shuffled_map sh new) as [Hnd Hl].
    set (l := sh _ (map_to_list new)) in *.
    assert (Hrev : pos_of k (rev (l ≫= chain_rems L old)) = rev (filter (fun r => r.1 = k) (l ≫= chain_rems L old)).*2).
    { unfold pos_of. generalize (l ≫= chain_rems L old) as m. induction m as [|r m IH]; [done|].
      simpl. rewrite filter_app, fmap_app, IH, !filter_cons. simpl.
      destruct (decide (r.1 = k)); [by rewrite fmap_cons|]. rewrite filter_nil. simpl. by rewrite app_nil_r. }
    rewrite Hrev, (filter_bind_key fst); [|done|intros; by eapply chain_rems_key].
    pose proof (list_find_key l new k Hnd Hl) as Hf.
    destruct (list_find _ l) as [[i [k' news]]|].
    - simpl in Hf. destruct Hf as [-> ->]. by rewrite chain_rems_pos.
    - by rewrite Hf.
  Qed.

  Lemma pick_nil_all {A} (P : A -> Prop) `{!forall x, Decision (P x)} (ids : list nat) : pick P [] ids = [].
  Proof. done. Qed.

  (** The table after planning. *)
  Definition planned (old new : ast) (t : table) (k : string) : option (list nat) :=
    match new !! k, old !! k with
    | Some news, Some olds => pick (occurs_new L news) olds <$> t !! k
    | None, Some _ => None
    | _, None => t !! k
    end.

  Lemma plan_table o e new d t ids : aligned e ->
    plan L o (set_temp L e []) new = Done (d, t, ids) ->
    forall k, t !! k = planned (old_ast L e) new (en_info L e) k.
  Proof.
    intros Hal Hp k. pose proof (plan_diff _ _ _ _ _ _ _ Hp) as Hd.
    apply diff_chains_spec in Hd as (_ & _ & _ & Hrems). simpl in Hrems.
    change (old_ast L (set_temp L e [])) with (old_ast L e) in Hrems.
    unfold plan in Hp. simpl in Hp. unfold planned.
    destruct (en_ast L e) as [old|] eqn:Ea.
    - assert (Hold : old_ast L e = old) by (unfold old_ast; by rewrite Ea).
      destruct (diff_chains _ _ _ _ _) as [d0| |]; [|done..].
      destruct (drop_chains _ _ _ _ _) as [st|] eqn:E1; [|done].
      destruct (remove_all _ _) as [[t' i']|] eqn:E2; [|done]. injection Hp as <- <- <-.
      unfold drop_chains in E1. apply (drop_fold_lookup _ _ _ _ k) in E1. simpl in E1.
      unfold remove_all in E2. destruct st as [t1 acc]. simpl in E1.
      apply (remove_fold_proj _ _ _ _ _ k) in E2. rewrite Hrems, rems_pos_of, Hold in E2.
      assert (Hks : k ∈ o_old o _ (map_to_list old).*1 <-> is_Some (old !! k)).
      { rewrite shuf_perm. rewrite elem_of_list_fmap. split.
        - intros ([k' cs] & -> & Hin). apply elem_of_map_to_list in Hin. eauto.
        - intros [cs Hcs]. exists (k, cs). split; [done|]. by apply elem_of_map_to_list. }
      rewrite Hold. destruct (new !! k) as [news|] eqn:En.
      + rewrite decide_False in E1 by (intros [_ ?]; done). rewrite E1 in E2.
        destruct (old !! k) as [olds|] eqn:Eo.
        * destruct (al_len _ Hal k olds) as (ids0 & Hids & Hlen); [by rewrite Hold|].
          rewrite Hids in E2 |- *. destruct E2 as (ids' & Hr & ->). simpl. f_equal.
          unfold olds_of in Hr. rewrite Eo in Hr. simpl in Hr. rewrite removes_bad in Hr by done. by injection Hr.
        * destruct (en_info L e !! k) as [ids0|]; [|done]. destruct E2 as (ids' & Hr & ->).
          unfold olds_of in Hr. rewrite Eo in Hr. simpl in Hr. unfold removes in Hr. simpl in Hr. by injection Hr as ->.
      + destruct (old !! k) as [olds|] eqn:Eo.
        * rewrite decide_True in E1 by (split; [apply Hks; eauto|done]). by rewrite E1 in E2.
        * rewrite decide_False in E1 by (intros [Hk _]; apply Hks in Hk; by destruct Hk).
          rewrite E1 in E2. destruct (en_info L e !! k) as [ids0|]; [|done]. destruct E2 as (ids' & Hr & ->).
          unfold removes in Hr. simpl in Hr. by injection Hr as ->.
    - destruct (diff_chains _ _ _ _ _) as [d0| |]; [|done..]. injection Hp as <- <- <-.
      unfold old_ast. rewrite Ea. simpl. rewrite lookup_empty. by destruct (new !! k).
  Qed.

  Lemma plan_no_crash o e new : aligned e ->
    (forall k cs c, new !! k = Some cs -> c ∈ cs -> makenode (the_env L e) c ≠ Crash) ->
    plan L o (set_temp L e []) new ≠ Crash.
  Proof.
    intros Hal Hmk.
    assert (Hdiff : forall (old : ast) l d, (forall kv, kv ∈ l -> new !! kv.1 = Some kv.2) ->
      diff_chains L (the_env L e) old l d ≠ Crash).
    { assert (Hadd : forall k l d, (forall p, p ∈ l -> makenode (the_env L e) p.2 ≠ Crash) ->
        add_nodes L (the_env L e) k l d ≠ Crash).
      { intros k l. induction l as [|[i c] l IH]; intros d Hl; simpl; [done|].
        pose proof (Hl (i, c) ltac:(set_solver)) as Hc. simpl in Hc.
        destruct (makenode (the_env L e) c) as [[w rs]| |]; [|done..]. apply IH. intros; apply Hl; set_solver. }
      intros old l. induction l as [|kv l IH]; intros d Hl; simpl; [done|].
      assert (Hkv : diff_chain L (the_env L e) old d kv ≠ Crash).
      { pose proof (Hl kv ltac:(set_solver)) as Hk. unfold diff_chain.
        destruct (old !! kv.1); apply Hadd; intros [i c] Hp; simpl.
        - apply elem_of_list_filter in Hp as [_ Hp]. apply elem_of_enumerate in Hp.
          eapply Hmk; [done|]. by eapply elem_of_list_lookup_2.
        - apply elem_of_enumerate in Hp. eapply Hmk; [done|]. by eapply elem_of_list_lookup_2. }
      destruct (diff_chain L (the_env L e) old d kv); [|done..]. apply IH. intros; apply Hl; set_solver. }
    unfold plan. simpl. change (the_env L (set_temp L e [])) with (the_env L e).
    pose proof (shuffled_map (o_new o) new) as [_ Hl].
    assert (Hl' : forall kv, kv ∈ o_new o _ (map_to_list new) -> new !! kv.1 = Some kv.2) by (intros; by apply Hl).
    destruct (en_ast L e) as [old|] eqn:Ea.
    - pose proof (Hdiff old _ (diff0 L) Hl') as Hnc.
      destruct (diff_chains L (the_env L e) old _ (diff0 L)) as [d| |] eqn:Ed; [|done..].
      assert (Hold : old_ast L e = old) by (unfold old_ast; by rewrite Ea).
      assert (exists st, drop_chains L (o_old o) old new (en_info L e) = Ok st) as [[t1 acc] E1].
      { apply drop_fold_total; simpl.
        - rewrite shuf_perm. apply NoDup_fst_map_to_list.
        - intros k Hk. rewrite shuf_perm in Hk. apply elem_of_list_fmap in Hk as ([k' cs] & -> & Hk).
          apply elem_of_map_to_list in Hk. simpl. destruct (al_len _ Hal k' cs) as (ids & -> & _); [by rewrite Hold|]. eauto. }
      rewrite E1. unfold drop_chains in E1.
      apply diff_chains_spec in Ed as (_ & _ & _ & Hrems). simpl in Hrems.
      assert (exists st, remove_all (d_rems L d) (t1, acc) = Ok st) as [[t2 ids] E2]; [|by rewrite E2].
      apply remove_fold_total. intros k ids Hk. rewrite Hrems, rems_pos_of.
      apply (drop_fold_lookup _ _ _ _ k) in E1. simpl in E1.
      destruct (new !! k) as [news|] eqn:En; [|done].
      rewrite decide_False in E1 by (intros [_ ?]; done). rewrite E1 in Hk.
      unfold olds_of. destruct (old !! k) as [olds|] eqn:Eo; simpl; [|done].
      destruct (al_len _ Hal k olds) as (ids0 & Hids & Hlen); [by rewrite Hold|].
      assert (ids0 = ids) as -> by congruence. by rewrite removes_bad.
    - pose proof (Hdiff ∅ _ (diff0 L) Hl') as Hnc.
      by destruct (diff_chains L (the_env L e) ∅ _ (diff0 L)).
  Qed.

  (** ** Additions *)

  Definition is_new (old : ast) (k : string) (c : comp) : Prop := ~ occurs_old L (olds_of L old k) c.
  Global Instance is_new_dec old k c : Decision (is_new old k c).
  Proof. unfold is_new. apply _. Defined.
  Definition flags (old : ast) (k : string) (news : list comp) : list bool :=
    (fun c => bool_decide (is_new old k c)) <$> news.

  Lemma added_filter (old : ast) k news :
    added L old k news = filter (fun p => is_new old k p.2) (enumerate news).
  Proof.
    unfold added. destruct (old !! k) as [olds|] eqn:Eo.
    - apply list_filter_iff. intros [i c]. unfold is_new, olds_of, occurs_old. rewrite Eo. simpl.
      by destruct (existsb _ olds).
    - symmetry. apply list_filter_all. intros p _. unfold is_new, olds_of, occurs_old. rewrite Eo. done.
  Qed.

  Lemma chain_adds_shape ev (old : ast) k news :
    (forall p, p ∈ added L old k news -> is_Some (node_of L ev p.2)) ->
    Forall2 (fun p (a : string * nat * W) =>
       a.1 = (k, p.1) /\ exists refs, makenode ev p.2 = Done (a.2, refs)) (added L old k news) (chain_adds L ev old (k, news)).
  Proof.
    unfold chain_adds. simpl. induction (added L old k news) as [|p l IH]; intros H; [constructor|].
    rewrite bind_cons. unfold add_entry at 1.
    destruct (H p ltac:(set_solver)) as [[w refs] Hw]. rewrite Hw. simpl. constructor.
    - split; [done|]. exists refs. unfold node_of in Hw. destruct (makenode ev p.2) as [q| |]; [|done..].
      injection Hw as ->. done.
    - apply IH. intros; apply H; set_solver.
  Qed.

  Lemma adds_of_chain (sh : shuffle) ev (old new : ast) k nids :
    length nids = length (sh _ (map_to_list new) ≫= chain_adds L ev old) ->
    (forall k news p, new !! k = Some news -> p ∈ added L old k news -> is_Some (node_of L ev p.2)) ->
    match new !! k with
    | None => adds_of L k (sh _ (map_to_list new) ≫= chain_adds L ev old) nids = []
    | Some news => exists N, length N = length (flag_pos (flags old k news)) /\
        adds_of L k (sh _ (map_to_list new) ≫= chain_adds L ev old) nids = zip (flag_pos (flags old k news)) N /\
        forall m p n, added L old k news !! m = Some p -> N !! m = Some n ->
          exists i a refs, (sh _ (map_to_list new) ≫= chain_adds L ev old) !! i = Some a /\ nids !! i = Some n /\
            makenode ev p.2 = Done (a.2, refs)
    end.
  Proof.
    intros Hlen Hnode. destruct (shuffled_map sh new) as [Hnd Hl].
    set (l := sh _ (map_to_list new) ≫= chain_adds L ev old) in *.
    assert (Hfk : filter (fun a : string * nat * W => a.1.1 = k) l =
      match new !! k with Some news => chain_adds L ev old (k, news) | None => [] end).
    { unfold l. rewrite (filter_bind_key (fun a : string * nat * W => a.1.1)); [|done|intros; by eapply chain_adds_key].
      pose proof (list_find_key _ new k Hnd Hl) as Hf. destruct (list_find _ _) as [[i [k' news]]|].
      - simpl in Hf. by destruct Hf as [-> ->].
      - by rewrite Hf. }
    set (z := filter (fun q : string * nat * W * nat => q.1.1.1 = k) (zip l nids)) in *.
    assert (Hz1 : z.*1 = filter (fun a : string * nat * W => a.1.1 = k) l).
    { pose proof (zip_filter (fun a : string * nat * W => a.1.1 = k) l nids Hlen) as Hz. exact Hz. }
    unfold adds_of. fold z. destruct (new !! k) as [news|] eqn:En.
    - rewrite Hfk in Hz1.
      pose proof (chain_adds_shape ev old k news (fun p => Hnode k news p En)) as Hsh. rewrite <- Hz1 in Hsh.
      exists z.*2. pose proof (Forall2_length _ _ _ Hsh) as Hlz. rewrite fmap_length in Hlz.
      assert (Hpos : flag_pos (flags old k news) = (added L old k news).*1).
      { rewrite added_filter. symmetry. exact (filter_enumerate_pos (is_new old k) news). }
      split_and!.
      + rewrite Hpos, !fmap_length. lia.
      + rewrite Hpos. clear -Hsh. remember (added L old k news) as ad. clear Heqad.
        revert ad Hsh. induction z as [|q z IH]; intros ad Hsh.
        * by destruct ad.
        * rewrite fmap_cons in Hsh. apply Forall2_cons_inv_r in Hsh as (p & ad' & [Hp _] & Hsh & ->).
          rewrite !fmap_cons. simpl. rewrite <- IH by done. rewrite Hp. done.
      + intros m p n Hp Hn. apply list_lookup_fmap_Some in Hn as (q & Hq & ->).
        destruct (Forall2_lookup_l _ _ _ _ _ Hsh Hp) as (a & Ha & _ & refs & Hmk).
        apply list_lookup_fmap_Some in Ha as (q' & Hq' & ->). rewrite Hq in Hq'. injection Hq' as <-.
        assert (Hin : q ∈ zip l nids).
        { eapply elem_of_list_lookup_2 in Hq. unfold z in Hq. by apply elem_of_list_filter in Hq as [_ ?]. }
        apply elem_of_list_lookup in Hin as [i Hi]. destruct q as [a n]. apply lookup_zip_with_Some in Hi as (a' & n' & [= -> ->] & H1 & H2).
        exists i, a', refs. done.
    - rewrite Hfk in Hz1. apply fmap_nil_inv in Hz1. by rewrite Hz1.
  Qed.

  (** ** The chain table after an order-keeping update *)

  Lemma flags_lookup old k news j c : news !! j = Some c ->
    flags old k news !! j = Some (bool_decide (is_new old k c)).
  Proof. intros H. unfold flags. rewrite list_lookup_fmap, H. done. Qed.

  Lemma is_new_false old k c : bool_decide (is_new old k c) = false <-> occurs_old L (olds_of L old k) c.
  Proof.
    rewrite bool_decide_eq_false. unfold is_new. split; [|auto]. intros H.
    destruct (decide (occurs_old L (olds_of L old k) c)); done.
  Qed.

  Lemma flags_false_rank old k news j :
    length (filter (fun b => b = false) (take j (flags old k news))) = rank (occurs_old L (olds_of L old k)) news j.
  Proof. unfold flags, rank. rewrite <- fmap_take. apply filter_flags. apply is_new_false. Qed.

  Lemma flags_true_added old k news j c : news !! j = Some c -> is_new old k c ->
    added L old k news !! length (filter (fun b => b = true) (take j (flags old k news))) = Some (j, c).
  Proof.
    intros Hj Hc. rewrite added_filter.
    assert (He : enumerate news !! j = Some (j, c)).
    { clear Hc. revert j Hj. induction news as [|x l IH]; intros [|j] Hj; try done.
      - by injection Hj as ->.
      - rewrite enumerate_cons. simpl. rewrite list_lookup_fmap. simpl in Hj. by rewrite IH. }
    assert (Hr : length (filter (fun b => b = true) (take j (flags old k news))) =
      rank (fun p : nat * comp => is_new old k p.2) (enumerate news) j).
    { unfold flags, rank. rewrite <- fmap_take.
      assert (Ht : take j news = (take j (enumerate news)).*2) by (by rewrite fmap_take, enumerate_fmap_snd).
      rewrite Ht. generalize (take j (enumerate news)) as m. induction m as [|q m IH]; [done|].
      rewrite !fmap_cons, !filter_cons. case_bool_decide.
      - rewrite !decide_True by done. simpl. by rewrite IH.
      - by rewrite !decide_False by done. }
    rewrite Hr. by apply (filter_lookup_rank (fun p : nat * comp => is_new old k p.2)).
  Qed.

  Definition orderly (old new : ast) : Prop :=
    forall k olds news, old !! k = Some olds -> new !! k = Some news -> keeps_order olds news.

  (** What is left of an old chain. *)
  Definition kept_ids (old : ast) (info : table) (k : string) (news : list comp) : list nat :=
    match old !! k with
    | Some olds => pick (occurs_new L news) olds (default [] (info !! k))
    | None => []
    end.

  Lemma kept_ids_length e new k news : aligned e -> orderly (old_ast L e) new -> new !! k = Some news ->
    length (kept_ids (old_ast L e) (en_info L e) k news) =
    length (filter (fun b => b = false) (flags (old_ast L e) k news)).
  Proof.
    intros Hal Hord Hk. unfold flags. rewrite (filter_flags _ _ _ (is_new_false _ _)). unfold kept_ids, olds_of.
    destruct (old_ast L e !! k) as [olds|] eqn:Eo; simpl.
    - destruct (al_len _ Hal k olds Eo) as (ids & -> & Hlen). simpl. rewrite pick_length by done.
      apply Forall2_length with (1 := Hord _ _ _ Eo Hk).
    - rewrite list_filter_none; [done|]. intros c _. unfold occurs_old. done.
  Qed.

  Lemma chain_result_new e new k news N :
    aligned e -> prog_ok new -> orderly (old_ast L e) new -> new !! k = Some news ->
    length N = length (flag_pos (flags (old_ast L e) k news)) ->
    chain_result (planned (old_ast L e) new (en_info L e) k) (zip (flag_pos (flags (old_ast L e) k news)) N) =
    Ok (Some (merge (flags (old_ast L e) k news) (kept_ids (old_ast L e) (en_info L e) k news) N)).
  Proof.
    intros Hal [Hin Hne] Hord Hk HN.
    pose proof (inserts_merge _ _ _ (kept_ids_length e new k news Hal Hord Hk) HN) as Hm.
    unfold planned. rewrite Hk. destruct (old_ast L e !! k) as [olds|] eqn:Eo.
    - destruct (al_len _ Hal k olds Eo) as (ids & Hids & Hlen). unfold kept_ids in *. rewrite Eo, Hids in *.
      simpl in *. by rewrite Hm.
    - destruct (en_info L e !! k) as [ids|] eqn:Ei.
      + rewrite (al_only _ Hal _ _ Ei Eo) in Hk. congruence.
      + assert (Hke : kept_ids (old_ast L e) (en_info L e) k news = []) by (unfold kept_ids; by rewrite Eo).
        rewrite Hke in *. destruct news as [|c news]; [by destruct (Hne k)|].
        assert (Hfl : flags (old_ast L e) k (c :: news) = true :: flags (old_ast L e) k news).
        { unfold flags. rewrite fmap_cons. f_equal. apply bool_decide_eq_true. unfold is_new, olds_of, occurs_old.
          rewrite Eo. done. }
        rewrite Hfl in *. rewrite flag_pos_cons in *. destruct N as [|n N]; [done|].
        simpl in Hm |- *. unfold inserts in Hm. simpl in Hm.
        match type of Hm with foldM _ _ _ = ?r => assert (Hi : inserts [n] (zip (S <$> flag_pos (flags (old_ast L e) k news)) N) = r) by exact Hm end.
        by rewrite Hi.
  Qed.

  Record updated (e : engine) (new : ast) (g : graph) (temp : list nat) (t' : table) : Prop := {
    up_gone : forall k, new !! k = None -> t' !! k = if decide (k = input_name) then en_info L e !! k else None;
    up_len : forall k news, new !! k = Some news -> exists ids, t' !! k = Some ids /\ length ids = length news;
    up_new : forall k news j c, new !! k = Some news -> news !! j = Some c -> is_new (old_ast L e) k c ->
      exists n w refs, owner t' n k j /\ n ∈ temp /\
        makenode (the_env L e) c = Done (w, refs) /\ node_weight g n = Some w;
    up_kept : forall k olds news i j a b n, old_ast L e !! k = Some olds -> new !! k = Some news ->
      olds !! i = Some a -> news !! j = Some b -> occurs_new L news a -> occurs_old L olds b ->
      rank (occurs_new L news) olds i = rank (occurs_old L olds) news j ->
      owner (en_info L e) n k i -> owner t' n k j
  }.

  Lemma tame_table o e new d t ids g temp t' :
    einv L e -> aligned e -> prog_ok new -> orderly (old_ast L e) new ->
    plan L o (set_temp L e []) new = Done (d, t, ids) ->
    foldM (add_one L) (en_graph L e, [], t) (d_adds L d) = Ok (g, temp, t') ->
    updated e new g temp t'.
  Proof.
    intros He Hal Hpo Hord Hp Ha.
    pose proof (plan_table _ _ _ _ _ _ Hal Hp) as Ht.
    pose proof (plan_diff _ _ _ _ _ _ _ Hp) as Hd.
    apply diff_chains_spec in Hd as (Hnode & Hadds & _ & _). simpl in Hadds.
    change (old_ast L (set_temp L e [])) with (old_ast L e) in *.
    change (the_env L (set_temp L e [])) with (the_env L e) in *.
    apply adds_spec in Ha as (nids & -> & Hlen & Hnd & Hwf & _ & Hfresh & Hnew & _ & Hc);
      [|apply (ei_wf _ _ He)].
    rewrite Hadds in *. clear Hadds.
    assert (Hnode' : forall k news p, new !! k = Some news -> p ∈ added L (old_ast L e) k news ->
      is_Some (node_of L (the_env L e) p.2)).
    { intros k news p Hk Hin. eapply (Hnode (k, news)); [|done]. rewrite shuf_perm. by apply elem_of_map_to_list. }
    assert (Hchain : forall k news, new !! k = Some news -> exists N,
      length N = length (flag_pos (flags (old_ast L e) k news)) /\
      t' !! k = Some (merge (flags (old_ast L e) k news) (kept_ids (old_ast L e) (en_info L e) k news) N) /\
      forall m p n, added L (old_ast L e) k news !! m = Some p -> N !! m = Some n ->
        exists w refs, n ∈ nids /\ makenode (the_env L e) p.2 = Done (w, refs) /\ node_weight g n = Some w).
    { intros k news Hk. pose proof (adds_of_chain _ _ _ _ k nids Hlen Hnode') as Had. rewrite Hk in Had.
      destruct Had as (N & HN & Hof & Hw). exists N. split; [done|].
      specialize (Hc k). rewrite Ht, Hof, chain_result_new in Hc by done. split; [by injection Hc|].
      intros m p n H1 H2. destruct (Hw m p n H1 H2) as (i & a & refs & Hi & Hni & Hmk).
      exists a.2, refs. split_and!; [by eapply elem_of_list_lookup_2|done|]. eapply Hnew; eauto. }
    split.
    - intros k Hk. pose proof (adds_of_chain _ _ _ _ k nids Hlen Hnode') as Had. rewrite Hk in Had.
      specialize (Hc k). rewrite Ht, Had in Hc.
      assert (t' !! k = planned (old_ast L e) new (en_info L e) k) as ->.
      { destruct (planned _ _ _ _); simpl in Hc; by injection Hc. }
      unfold planned. rewrite Hk. case_decide as Hinp.
      + subst k. by rewrite (proj1 (al_ok _ Hal)).
      + destruct (old_ast L e !! k) eqn:Eo; [done|]. destruct (en_info L e !! k) eqn:Ei; [|done].
        by destruct (Hinp (al_only _ Hal _ _ Ei Eo)).
    - intros k news Hk. destruct (Hchain k news Hk) as (N & HN & -> & _). eexists. split; [done|].
      rewrite merge_length; [unfold flags; by rewrite fmap_length|by eapply kept_ids_length|done].
    - intros k news j c Hk Hj Hcn. destruct (Hchain k news Hk) as (N & HN & Ht' & Hw).
      pose proof (flags_true_added _ _ _ _ _ Hj Hcn) as Had.
      set (m := length (filter (fun b => b = true) (take j (flags (old_ast L e) k news)))) in *.
      assert (exists n, N !! m = Some n) as [n Hn].
      { apply lookup_lt_is_Some. rewrite HN.
        assert (Hpos : flag_pos (flags (old_ast L e) k news) = (added L (old_ast L e) k news).*1).
        { rewrite added_filter. symmetry. exact (filter_enumerate_pos (is_new (old_ast L e) k) news). }
        rewrite Hpos, fmap_length. by eapply lookup_lt_Some. }
      destruct (Hw m _ n Had Hn) as (w & refs & H1 & H2 & H3). exists n, w, refs. split_and!; auto.
      eexists. split; [done|]. rewrite merge_lookup_new; [done|by eapply kept_ids_length|done|].
      rewrite (flags_lookup _ _ _ _ _ Hj). by rewrite bool_decide_eq_true_2.
    - intros k olds news i j a b n Ho Hk Hi Hj Hoa Hob Hrank (ids0 & Hids & Hn).
      destruct (Hchain k news Hk) as (N & HN & Ht' & _). eexists. split; [done|].
      rewrite merge_lookup_kept; [|by eapply kept_ids_length|done|].
      + rewrite flags_false_rank. unfold olds_of. rewrite Ho. simpl. rewrite <- Hrank.
        unfold kept_ids. rewrite Ho, Hids. simpl.
        destruct (al_len _ Hal k olds Ho) as (ids1 & Hids1 & Hlen1). assert (ids1 = ids0) as -> by congruence.
        by rewrite pick_lookup with (x := a).
      + rewrite (flags_lookup _ _ _ _ _ Hj). f_equal. apply bool_decide_eq_false. unfold is_new, olds_of.
        rewrite Ho. simpl. auto.
  Qed.

  Lemma tame_adds_total o e new d t ids :
    einv L e -> aligned e -> prog_ok new -> orderly (old_ast L e) new ->
    plan L o (set_temp L e []) new = Done (d, t, ids) ->
    exists st, foldM (add_one L) (en_graph L e, [], t) (d_adds L d) = Ok st.
  Proof.
    intros He Hal Hpo Hord Hp. pose proof (plan_table _ _ _ _ _ _ Hal Hp) as Ht.
    pose proof (plan_diff _ _ _ _ _ _ _ Hp) as Hd.
    apply diff_chains_spec in Hd as (Hnode & Hadds & _ & _). simpl in Hadds.
    change (old_ast L (set_temp L e [])) with (old_ast L e) in *.
    change (the_env L (set_temp L e [])) with (the_env L e) in *.
    apply adds_total. rewrite Hadds. intros k nids Hlen.
    assert (Hnode' : forall k news p, new !! k = Some news -> p ∈ added L (old_ast L e) k news ->
      is_Some (node_of L (the_env L e) p.2)).
    { intros k' news p Hk Hin. eapply (Hnode (k', news)); [|done]. rewrite shuf_perm. by apply elem_of_map_to_list. }
    pose proof (adds_of_chain _ _ _ _ k nids Hlen Hnode') as Had. rewrite Ht.
    destruct (new !! k) as [news|] eqn:Ek.
    - destruct Had as (N & HN & -> & _). by rewrite chain_result_new.
    - rewrite Had. by destruct (planned _ _ _ _).
  Qed.
End tame.

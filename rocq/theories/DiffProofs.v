(** * DiffProofs: closed form of the program diff (lib.rs:213-275). *)
From Verif Require Export EngineProofs.
From Coq Require Import Lia.
Local Open Scope nat_scope.

Section diff.
  Context (L : lang).
  Notation W := (node L * list (buf L))%type.
  Notation comp := (comp L).
  Notation ast := (gmap string (list comp)).

  (** A component occurs in a chain (in the sense of [PartialEq]). *)
  Definition occurs_new (news : list comp) (o : comp) : Prop := existsb (fun n => comp_eqb o n) news = true.
  Definition occurs_old (olds : list comp) (n : comp) : Prop := existsb (fun o => comp_eqb o n) olds = true.
  Global Instance occurs_new_dec news o : Decision (occurs_new news o).
  Proof. unfold occurs_new. apply _. Defined.
  Global Instance occurs_old_dec olds n : Decision (occurs_old olds n).
  Proof. unfold occurs_old. apply _. Defined.

  Lemma occurs_new_spec news o : occurs_new news o <-> exists n, n ∈ news /\ comp_eqb o n = true.
  Proof.
    unfold occurs_new. rewrite existsb_exists. setoid_rewrite elem_of_list_In. done.
  Qed.
  Lemma occurs_old_spec olds n : occurs_old olds n <-> exists o, o ∈ olds /\ comp_eqb o n = true.
  Proof.
    unfold occurs_old. rewrite existsb_exists. setoid_rewrite elem_of_list_In. done.
  Qed.

  Definition added (old : ast) (k : string) (news : list comp) : list (nat * comp) :=
    match old !! k with
    | None => enumerate news
    | Some olds => filter (fun p => existsb (fun oc => comp_eqb oc p.2) olds = false) (enumerate news)
    end.

  Definition node_of (ev : env (sample L)) (c : comp) : option (W * list string) :=
    match makenode ev c with Done p => Some p | _ => None end.

  Definition add_entry ev (k : string) (p : nat * comp) : list (string * nat * W) :=
    match node_of ev p.2 with Some wr => [(k, p.1, wr.1)] | None => [] end.
  Definition ref_entry ev (k : string) (p : nat * comp) : list (list string * string * nat) :=
    match node_of ev p.2 with
    | Some wr => match wr.2 with [] => [] | _ => [(wr.2, k, p.1)] end
    | None => []
    end.
  Definition kept_ref (k : string) (news : list comp) (o : comp) : list (list string * string * nat) :=
    match find_comp L o news with
    | Some (idx, nc) => match all_refs nc with [] => [] | rs => [(rs, k, idx)] end
    | None => []
    end.
  Definition rem_entry (k : string) (news : list comp) (p : nat * comp) : list (string * nat) :=
    match find_comp L p.2 news with Some _ => [] | None => [(k, p.1)] end.

  Definition olds_of (old : ast) (k : string) : list comp := default [] (old !! k).

  Definition chain_adds ev old (kn : string * list comp) := added old kn.1 kn.2 ≫= add_entry ev kn.1.
  Definition chain_refs ev old (kn : string * list comp) :=
    (olds_of old kn.1 ≫= kept_ref kn.1 kn.2) ++ (added old kn.1 kn.2 ≫= ref_entry ev kn.1).
  Definition chain_rems old (kn : string * list comp) :=
    enumerate (olds_of old kn.1) ≫= rem_entry kn.1 kn.2.

  Lemma add_nodes_spec ev k l d d' : add_nodes L ev k l d = Done d' ->
    (forall p, p ∈ l -> is_Some (node_of ev p.2)) /\
    d_adds L d' = d_adds L d ++ (l ≫= add_entry ev k) /\
    d_refs L d' = d_refs L d ++ (l ≫= ref_entry ev k) /\ d_rems L d' = d_rems L d.
  Proof.
    revert d. induction l as [|[i c] l IH]; intros d; simpl.
    - intros [= <-]. rewrite !app_nil_r. split_and!; auto. set_solver.
    - destruct (makenode ev c) as [[w rs]| |] eqn:E; [|done..]. intros H.
      apply IH in H as (H1 & H2 & H3 & H4). clear IH. simpl in *.
      unfold add_entry at 1, ref_entry at 1, node_of. simpl. rewrite E. simpl. split_and!.
      + intros p [->|Hp]%elem_of_cons; [simpl; rewrite E; eauto|by apply H1].
      + rewrite H2. by rewrite <- app_assoc.
      + rewrite H3. destruct rs; simpl; [done|]. by rewrite <- app_assoc.
      + done.
  Qed.

  Lemma add_nodes_total ev k l d : (forall p, p ∈ l -> is_Some (node_of ev p.2)) ->
    exists d', add_nodes L ev k l d = Done d'.
  Proof.
    revert d. induction l as [|[i c] l IH]; intros d H; simpl; [eauto|].
    destruct (H (i, c) ltac:(set_solver)) as [[w rs] Hw]. simpl in Hw. unfold node_of in Hw.
    destruct (makenode ev c) as [[w' rs']| |]; [|done..]. apply IH. intros p Hp. apply H. set_solver.
  Qed.

  Lemma foldl_diff_old k news l d :
    let d' := foldl (diff_old L k news) d l in
    d_adds L d' = d_adds L d /\ d_refs L d' = d_refs L d ++ (l.*2 ≫= kept_ref k news) /\
    d_rems L d' = d_rems L d ++ (l ≫= rem_entry k news).
  Proof.
    revert d. induction l as [|[i o] l IH]; intros d; simpl.
    - by rewrite !app_nil_r.
    - destruct (IH (diff_old L k news d (i, o))) as (H1 & H2 & H3). simpl in *. clear IH.
      rewrite H1, H2, H3. clear H1 H2 H3. unfold diff_old, kept_ref, rem_entry. simpl.
      destruct (find_comp L o news) as [[idx nc]|]; simpl.
      + destruct (all_refs nc); simpl; split_and!; try done; rewrite <- app_assoc; done.
      + split_and!; try done. rewrite <- app_assoc. done.
  Qed.

  Lemma enumerate_fmap_snd {A} (l : list A) : (enumerate l).*2 = l.
  Proof.
    unfold enumerate. apply list_eq. intros i. rewrite list_lookup_fmap, list_lookup_imap.
    by destruct (l !! i).
  Qed.
  Lemma elem_of_enumerate {A} (l : list A) i x : (i, x) ∈ enumerate l <-> l !! i = Some x.
  Proof.
    unfold enumerate. rewrite elem_of_lookup_imap. split.
    - intros (j & y & [= -> ->] & H). done.
    - intros H. eauto.
  Qed.

  Lemma diff_chain_spec ev old d kn d' : diff_chain L ev old d kn = Done d' ->
    (forall p, p ∈ added old kn.1 kn.2 -> is_Some (node_of ev p.2)) /\
    d_adds L d' = d_adds L d ++ chain_adds ev old kn /\
    d_refs L d' = d_refs L d ++ chain_refs ev old kn /\
    d_rems L d' = d_rems L d ++ chain_rems old kn.
  Proof.
    unfold diff_chain, chain_adds, chain_refs, chain_rems, added, olds_of.
    destruct (old !! kn.1) as [olds|]; simpl; intros H; apply add_nodes_spec in H as (H1 & H2 & H3 & H4).
    - pose proof (foldl_diff_old kn.1 kn.2 (enumerate olds) d) as (Ha & Hb & Hc). cbv zeta in *.
      rewrite enumerate_fmap_snd in Hb. split_and!; [done| | |].
      + by rewrite H2, Ha.
      + rewrite H3, Hb. by rewrite <- app_assoc.
      + by rewrite H4, Hc.
    - split_and!; [done|done|done|]. by rewrite H4, app_nil_r.
  Qed.

  Lemma diff_chains_spec ev old l d d' : diff_chains L ev old l d = Done d' ->
    (forall kn p, kn ∈ l -> p ∈ added old kn.1 kn.2 -> is_Some (node_of ev p.2)) /\
    d_adds L d' = d_adds L d ++ (l ≫= chain_adds ev old) /\
    d_refs L d' = d_refs L d ++ (l ≫= chain_refs ev old) /\
    d_rems L d' = d_rems L d ++ (l ≫= chain_rems old).
  Proof.
    revert d. induction l as [|kn l IH]; intros d; simpl.
    - intros [= <-]. rewrite !app_nil_r. split_and!; auto. set_solver.
    - destruct (diff_chain L ev old d kn) as [d1| |] eqn:E; [|done..]. intros H.
      apply diff_chain_spec in E as (H1 & H2 & H3 & H4).
      apply IH in H as (H5 & H6 & H7 & H8). split_and!.
      + intros kn' p [->|Hk]%elem_of_cons Hp; eauto.
      + rewrite H6, H2. by rewrite <- app_assoc.
      + rewrite H7, H3. by rewrite <- app_assoc.
      + rewrite H8, H4. by rewrite <- app_assoc.
  Qed.

  Lemma diff_chains_total ev old l d :
    (forall kn p, kn ∈ l -> p ∈ added old kn.1 kn.2 -> is_Some (node_of ev p.2)) ->
    exists d', diff_chains L ev old l d = Done d'.
  Proof.
    revert d. induction l as [|kn l IH]; intros d H; simpl; [eauto|].
    assert (exists d1, diff_chain L ev old d kn = Done d1) as [d1 ->].
    { unfold diff_chain. pose proof (H kn) as Hk. unfold added in Hk.
      destruct (old !! kn.1); apply add_nodes_total; intros p Hp; apply Hk; set_solver. }
    apply IH. intros; eapply H; eauto; set_solver.
  Qed.

  Lemma list_find_none_iff {A} (P : A -> Prop) `{!forall x, Decision (P x)} (l : list A) :
    list_find P l = None <-> forall x, x ∈ l -> ~ P x.
  Proof. rewrite list_find_None, Forall_forall. done. Qed.

  Lemma find_comp_none o news : find_comp L o news = None <-> ~ occurs_new news o.
  Proof.
    unfold find_comp. rewrite list_find_none_iff, occurs_new_spec. split.
    - intros H (n & Hn & He). by apply (H n).
    - intros H n Hn He. apply H. eauto.
  Qed.
  Lemma find_comp_some o news idx nc : find_comp L o news = Some (idx, nc) ->
    news !! idx = Some nc /\ comp_eqb o nc = true /\
    forall j n, news !! j = Some n -> comp_eqb o n = true -> idx <= j.
  Proof.
    unfold find_comp. intros H. apply list_find_Some in H as (H1 & H2 & H3). split_and!; auto.
    intros j n Hj Hn. destruct (decide (idx <= j)); [done|]. exfalso. apply (H3 j n); [done|lia|done].
  Qed.
  Lemma find_comp_is_some o news : occurs_new news o -> exists idx nc, find_comp L o news = Some (idx, nc).
  Proof.
    intros H. destruct (find_comp L o news) as [[idx nc]|] eqn:E; [eauto|]. by apply find_comp_none in E.
  Qed.
End diff.

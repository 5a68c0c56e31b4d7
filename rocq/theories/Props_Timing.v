(** * C86: whether an edit is accepted does not depend on when it is made.

    Blocks that are rendered and messages that are sent between the edits change neither the
    verdicts of later updates nor the program that is running in the end. *)
From Verif Require Import Engine.
From Coq Require Import Lia.
Local Open Scope nat_scope.
Local Notation length := List.length.

Section timing.
  Context (L : lang) (blk : Z).
  Notation engine := (engine L).
  Notation table := (gmap string (list nat)).

  (** Everything but rendering and messages. *)
  Definition edits (c : call L) : bool := match c with CNext _ _ _ | CMsg _ _ _ => false | _ => true end.
  (** What the updates of a session returned. *)
  Fixpoint verdicts (cs : list (call L)) (os : list (obs L)) : list (obs L) :=
    match cs, os with
    | CUpdate _ _ _ :: cs', o :: os' => o :: verdicts cs' os'
    | _ :: cs', _ :: os' => verdicts cs' os'
    | _, _ => []
    end.

  (** The same chains have nodes. *)
  Definition same_keys (t1 t2 : table) : Prop := forall k, is_Some (t1 !! k) <-> is_Some (t2 !! k).
  Lemma same_keys_insert t1 t2 k l1 l2 : same_keys t1 t2 -> same_keys (<[k := l1]> t1) (<[k := l2]> t2).
  Proof. intros H k'. destruct (decide (k' = k)) as [->|Hn]; [rewrite !lookup_insert; by split|]. rewrite !lookup_insert_ne by done. apply H. Qed.
  Lemma same_keys_delete t1 t2 k : same_keys t1 t2 -> same_keys (delete k t1) (delete k t2).
  Proof. intros H k'. destruct (decide (k' = k)) as [->|Hn]; [rewrite !lookup_delete; by split|]. rewrite !lookup_delete_ne by done. apply H. Qed.
  Lemma same_keys_none t1 t2 k : same_keys t1 t2 -> t1 !! k = None -> t2 !! k = None.
  Proof. intros H H1. destruct (t2 !! k) eqn:E; [|done]. destruct (H k) as [_ H2]. destruct H2 as [x Hx]; [by eexists|]. by rewrite H1 in Hx. Qed.
  Lemma same_keys_sym t1 t2 : same_keys t1 t2 -> same_keys t2 t1.
  Proof. intros H k. symmetry. apply H. Qed.

  Lemma fold_rel {A B X} (R : A -> B -> Prop) (f : A -> X -> res A) (g : B -> X -> res B) l :
    (forall a b x a' b', R a b -> f a x = Ok a' -> g b x = Ok b' -> R a' b') ->
    forall a b a' b', R a b -> foldM f a l = Ok a' -> foldM g b l = Ok b' -> R a' b'.
  Proof.
    intros H. induction l as [|x l IH]; intros a b a' b' HR; cbn [foldM]; [by intros [= <-] [= <-]|].
    destruct (f a x) as [a1|] eqn:E1; [|done]. destruct (g b x) as [b1|] eqn:E2; [|done]. apply IH. by eapply H.
  Qed.
  Lemma drop_keys new ks t1 t2 l1 l2 st1 st2 : same_keys t1 t2 -> foldM (drop_chain L new) (t1, l1) ks = Ok st1 -> foldM (drop_chain L new) (t2, l2) ks = Ok st2 ->
    same_keys st1.1 st2.1.
  Proof.
    intros H. apply (fold_rel (fun a b : table * list nat => same_keys a.1 b.1)); [|exact H]. intros [a la] [b lb] k a' b' Hab. unfold drop_chain.
    destruct (decide _); [by intros [= <-] [= <-]|]. cbn [fst snd] in *. destruct (a !! k); [|done]. destruct (b !! k); [|done]. intros [= <-] [= <-]. by apply same_keys_delete.
  Qed.
  Lemma remove_keys rs st1 st2 r1 r2 : same_keys st1.1 st2.1 -> remove_all rs st1 = Ok r1 -> remove_all rs st2 = Ok r2 -> same_keys r1.1 r2.1.
  Proof.
    intros H. unfold remove_all. apply (fold_rel (fun a b : table * list nat => same_keys a.1 b.1)); [|exact H]. intros [a la] [b lb] k a' b' Hab. unfold remove_pos. cbn [fst snd] in *.
    destruct (a !! k.1) as [i1|] eqn:E1.
    - destruct (Hab k.1) as [[i2 E2] _]; [by eexists|]. rewrite E2. destruct (i1 !! k.2); [|done]. destruct (vec_remove k.2 i1); [|done]. destruct (i2 !! k.2); [|done]. destruct (vec_remove k.2 i2); [|done].
      intros [= <-] [= <-]. by apply same_keys_insert.
    - rewrite (same_keys_none _ _ _ Hab E1). by intros [= <-] [= <-].
  Qed.
  Lemma add_keys l g1 g2 m1 m2 t1 t2 s1 s2 : same_keys t1 t2 -> foldM (add_one L) (g1, m1, t1) l = Ok s1 -> foldM (add_one L) (g2, m2, t2) l = Ok s2 -> same_keys s1.2 s2.2.
  Proof.
    intros H. apply (fold_rel (fun (a b : sgraph (node L * list (buf L)) * list nat * table) => same_keys a.2 b.2)); [|exact H]. intros [[ga ma] a] [[gb mb] b] [[k pos] w] a' b' Hab. unfold add_one. cbn [fst snd] in *.
    destruct (add_node ga w) as [ga' ia], (add_node gb w) as [gb' ib]. destruct (a !! k) as [i1|] eqn:E1.
    - destruct (Hab k) as [[i2 E2] _]; [by eexists|]. rewrite E2. destruct (vec_insert pos ia i1); [|done]. destruct (vec_insert pos ib i2); [|done]. intros [= <-] [= <-]. by apply same_keys_insert.
    - rewrite (same_keys_none _ _ _ Hab E1). intros [= <-] [= <-]. by apply same_keys_insert.
  Qed.
  Lemma starts_keys t1 t2 p : same_keys t1 t2 -> existsb (fun k => starts_with k p) (map_to_list t1).*1 = true -> existsb (fun k => starts_with k p) (map_to_list t2).*1 = true.
  Proof.
    intros H (k & Hk & Hp)%existsb_exists. apply existsb_exists. exists k. split; [|done]. apply elem_of_list_In in Hk. apply elem_of_list_In.
    apply elem_of_list_fmap in Hk as ([k' i] & -> & Hk). apply elem_of_map_to_list in Hk. destruct (H k') as [[i2 E2] _]; [by eexists|].
    apply elem_of_list_fmap. exists (k', i2). split; [done|]. by apply elem_of_map_to_list.
  Qed.
  Lemma ref_ok_keys t1 t2 new r : same_keys t1 t2 -> ref_ok L t1 new r = ref_ok L t2 new r.
  Proof.
    intros H. unfold ref_ok. destruct (contains_dotdot r).
    - apply Bool.eq_iff_eq_true. split; apply starts_keys; [done|by apply same_keys_sym].
    - f_equal. apply bool_decide_ext. apply H.
  Qed.
  Lemma ref_check_keys t1 t2 new l : same_keys t1 t2 -> ref_check L t1 new l = ref_check L t2 new l.
  Proof. intros H. induction l as [|r l IH]; [done|]. cbn [ref_check]. rewrite (ref_ok_keys t1 t2) by done. by rewrite IH. Qed.
  Lemma refs_keys sh t1 t2 l g1 g2 n1 n2 er s1 s2 : same_keys t1 t2 -> foldM (connect_refs_one L sh t1) (g1, n1, er) l = Ok s1 -> foldM (connect_refs_one L sh t2) (g2, n2, er) l = Ok s2 -> s1.2 = s2.2.
  Proof.
    intros H. apply (fold_rel (fun (a b : ref_state L) => a.2 = b.2)); [|done]. intros [[ga ma] a] [[gb mb] b] p a' b' Hab. cbn [snd] in Hab. subst b. unfold connect_refs_one.
    destruct a as [er'|]; [by intros [= <-] [= <-]|]. destruct (t1 !! p.1.2) as [i1|] eqn:E1.
    - destruct (H p.1.2) as [[i2 E2] _]; [by eexists|]. rewrite E2. destruct (i1 !! p.2) as [x1|]; [|done]. destruct (i2 !! p.2) as [x2|]; [|by intros _]. intros H1 H2.
      assert (Ha : a'.2 = None).
      { revert H1. destruct (if decide (x1 ∈ ma) then _ else _) as [[g' sn]|]; [|done]. destruct (foldM (connect_ref L sh t1 x1) g' p.1.1); [|done]. by intros [= <-]. }
      assert (Hb : b'.2 = None).
      { revert H2. destruct (if decide (x2 ∈ mb) then _ else _) as [[g' sn]|]; [|done]. destruct (foldM (connect_ref L sh t2 x2) g' p.1.1); [|done]. by intros [= <-]. }
      by rewrite Ha, Hb.
    - rewrite (same_keys_none _ _ _ H E1). by intros [= <-] [= <-].
  Qed.

  (** Two engines that differ in what their nodes are doing. *)
  Definition in_step (e f : engine) : Prop :=
    en_ast L e = en_ast L f /\ same_keys (en_info L e) (en_info L f) /\ same_keys (en_backup L e) (en_backup L f) /\ the_env L e = the_env L f.

  Lemma update_in_step o code e f e' f' v w : in_step e f -> update L o e code = Ok (e', v) -> update L o f code = Ok (f', w) -> v = w /\ in_step e' f'.
  Proof.
    intros (Ha & Hi & Hb & He). unfold update. destruct (parse code) as [new|er|]; [|intros [= <- <-] [= <- <-]; by split|done]. unfold update_ast.
    assert (Hp : forall x, the_env L (set_temp L x []) = the_env L x) by done.
    destruct (plan L o (set_temp L e []) new) as [[[d1 t1] r1]|er1|] eqn:P1; [| |done]; (destruct (plan L o (set_temp L f []) new) as [[[d2 t2] r2]|er2|] eqn:P2; [| |done]).
    - assert (Hd : d1 = d2 /\ same_keys t1 t2).
      { unfold plan in P1, P2. rewrite !Hp in P1, P2. rewrite <- He in P2. cbn [set_temp en_ast en_info] in P1, P2. rewrite <- Ha in P2. destruct (en_ast L e) as [old|].
        - destruct (diff_chains L _ old _ _) as [d|er|]; [|done|done]. destruct (drop_chains L _ old new (en_info L e)) as [s1|] eqn:D1; [|done]. destruct (drop_chains L _ old new (en_info L f)) as [s2|] eqn:D2; [|done].
          destruct (remove_all _ s1) as [[t1' i1]|] eqn:R1; [|done]. destruct (remove_all _ s2) as [[t2' i2]|] eqn:R2; [|done]. injection P1 as <- <- <-. injection P2 as <- <- <-. split; [done|].
          apply (remove_keys _ _ _ _ _ (drop_keys _ _ _ _ _ _ _ _ Hi D1 D2) R1 R2).
        - destruct (diff_chains L _ ∅ _ _) as [d|er|]; [|done|done]. injection P1 as <- <- _. injection P2 as <- <- _. by split. }
      destruct Hd as [<- Ht]. cbn [set_temp en_graph].
      destruct (foldM (add_one L) (en_graph L e, _, _) _) as [[[g1 m1] u1]|] eqn:A1; [|done]. destruct (foldM (add_one L) (en_graph L f, _, _) _) as [[[g2 m2] u2]|] eqn:A2; [|done].
      pose proof (add_keys _ _ _ _ _ _ _ _ _ Ht A1 A2) as Hu. cbn [snd] in Hu. rewrite (ref_check_keys u1 u2) by done.
      destruct (ref_check L u2 new _) as [r|].
      + intros [= <- <-] [= <- <-]. split; [done|]. split_and!; try done.
      + unfold rewire. cbn [set_info set_temp set_graph en_graph en_info en_dest].
        destruct (foldM (connect_refs_one L _ u1) _ _) as [[[h1 n1] v1]|] eqn:C1; [|done]. destruct (foldM (connect_refs_one L _ u2) _ _) as [[[h2 n2] v2]|] eqn:C2; [|done].
        pose proof (refs_keys _ _ _ _ _ _ _ _ _ _ _ Hu C1 C2) as Hv. cbn [snd] in Hv. subst v2. destruct v1 as [er|]; [intros [= <- <-] [= <- <-]; split; [done|]; split_and!; done|].
        destruct (foldM (connect_chain L _) h1 _) as [k1|]; [|done]. destruct (foldM (connect_chain L _) h2 _) as [k2|]; [|done]. intros [= <- <-] [= <- <-]. split; [done|]. split_and!; done.
    - exfalso. unfold plan in P1, P2. rewrite !Hp in P1, P2. rewrite <- He in P2. cbn [set_temp en_ast en_info] in P1, P2. rewrite <- Ha in P2. destruct (en_ast L e) as [old|].
      + destruct (diff_chains L _ old _ _) as [d|er|]; [|done|done]. destruct (drop_chains L _ old new (en_info L f)) as [s2|]; [|done]. by destruct (remove_all _ s2) as [[t2' i2]|].
      + by destruct (diff_chains L _ ∅ _ _) as [d|er|].
    - exfalso. unfold plan in P1, P2. rewrite !Hp in P1, P2. rewrite <- He in P2. cbn [set_temp en_ast en_info] in P1, P2. rewrite <- Ha in P2. destruct (en_ast L e) as [old|].
      + destruct (diff_chains L _ old _ _) as [d|er|]; [|done|done]. destruct (drop_chains L _ old new (en_info L e)) as [s2|]; [|done]. by destruct (remove_all _ s2) as [[t2' i2]|].
      + by destruct (diff_chains L _ ∅ _ _) as [d|er|].
    - assert (Hr : er1 = er2).
      { unfold plan in P1, P2. rewrite !Hp in P1, P2. rewrite <- He in P2. cbn [set_temp en_ast en_info] in P1, P2. rewrite <- Ha in P2. destruct (en_ast L e) as [old|].
        - destruct (diff_chains L _ old _ _) as [d|er|]; [|by injection P1 as <-; injection P2 as <-|done]. destruct (drop_chains L _ old new (en_info L e)) as [s1|]; [|done]. by destruct (remove_all _ s1) as [[t2' i2]|].
        - destruct (diff_chains L _ ∅ _ _) as [d|er|]; [done| |done]. by injection P1 as <-; injection P2 as <-. }
      subst er2. intros [= <- <-] [= <- <-]. split; [done|]. split_and!; done.
  Qed.

  Lemma idle_in_step e f c e' o : in_step e f -> edits c = false -> step L blk e c = Ok (e', o) -> in_step e' f.
  Proof.
    assert (Hw : forall x ch s x', write_channel L x ch s = Ok x' -> en_ast L x' = en_ast L x /\ en_info L x' = en_info L x /\ en_backup L x' = en_backup L x /\ the_env L x' = the_env L x).
    { intros x ch s x'. unfold write_channel. destruct (en_info L x !! _) as [ids|]; [|done]. destruct (ids !! 0) as [id|]; [|done]. destruct (node_weight _ id) as [w|]; [|done].
      destruct (w.2 !! ch) as [bf|]; [|done]. destruct (copy_slice bf s) as [b'|]; [|done]. destruct (set_weight _ id _) as [g'|]; [|done]. by intros [= <-]. }
    assert (Hk : forall x x', en_ast L x' = en_ast L x /\ en_info L x' = en_info L x /\ en_backup L x' = en_backup L x /\ the_env L x' = the_env L x -> in_step x f -> in_step x' f).
    { intros x x' (H1 & H2 & H3 & H4) (I1 & I2 & I3 & I4). unfold in_step. by rewrite H1, H2, H3, H4. }
    intros H Hc. destruct c as [|shs ins|cf m| | | | |]; try done; cbn [step].
    - unfold next_block. destruct (write_input L e ins) as [e1|] eqn:E; [|done]. destruct (process _ shs _ _) as [g'|]; [|done]. destruct (node_weight g' _) as [w|]; [|done].
      intros [= <- _]. apply (Hk e1); [done|]. destruct ins as [|x [|y ins]]; cbn [write_input] in E; [by injection E as <-| |]; destruct (write_channel L e 0 x) as [e2|] eqn:E2; try done.
      + injection E as <-. apply (Hk e); [by eapply Hw|done].
      + apply (Hk e2); [by eapply Hw|]. apply (Hk e); [by eapply Hw|done].
    - unfold send_msg. destruct (foldM (send_command L cf) e _) as [e1|] eqn:E; [|done]. intros [= <- _]. revert E.
      generalize (filter (fun s : string => s <> EmptyString) (split_on ";" (sfilter (fun ch => negb (is_space ch)) m))) as l. intros l. revert e H.
      induction l as [|q l IH]; intros e H; cbn [foldM]; [by intros [= <-]|]. destruct (send_command L cf e q) as [e2|] eqn:E2; [|done]. apply IH. apply (Hk e); [|done]. revert E2.
      unfold send_command. destruct (split_on _ q) as [|w1 [|w2 [|w3 [|w4 ws]]]]; try by intros [= <-]. destruct (en_info L e !! w1) as [ids|]; [|by intros [= <-]].
      destruct (ids !! _) as [id|]; [|done]. destruct (send_to L _ id _) as [g'|]; [|done]. by intros [= <-].
  Qed.
  Lemma in_step_sym e f : in_step e f -> in_step f e.
  Proof. intros (H1 & H2 & H3 & H4). split_and!; [done|by apply same_keys_sym|by apply same_keys_sym|done]. Qed.
  Lemma edit_in_step e f c e' f' o o' : in_step e f -> edits c = true -> step L blk e c = Ok (e', o) -> step L blk f c = Ok (f', o') -> o = o' /\ in_step e' f'.
  Proof.
    intros H Hc. destruct c as [od code|shs ins|cf m|n x|b0|r|sd0|]; try done; cbn [step].
    - destruct (update L od e code) as [[e1 v]|] eqn:E1; [|done]. destruct (update L od f code) as [[f1 w]|] eqn:E2; [|by destruct v].
      destruct (update_in_step _ _ _ _ _ _ _ _ H E1 E2) as [<- H1]. destruct v; intros [= <- <-] [= <- <-]; by split.
    - intros [= <- <-] [= <- <-]. split; [done|]. destruct H as (H1 & H2 & H3 & H4). unfold the_env in H4. injection H4 as H4 H5 H6 H7. split_and!; [done|done|done|]. unfold the_env, add_sample. cbn. by rewrite H4, H5, H6, H7.
    - unfold set_bpm. destruct (send_to_all L (en_graph L e) _) as [g1|]; [|done]. destruct (send_to_all L (en_graph L f) _) as [g2|]; [|done]. intros [= <- <-] [= <- <-]. split; [done|].
      destruct H as (H1 & H2 & H3 & H4). unfold the_env in H4. injection H4 as H4 H5 H6 H7. split_and!; [done|done|done|]. unfold the_env. cbn. by rewrite H4, H5, H7.
    - intros [= <- <-] [= <- <-]. split; [done|]. destruct H as (H1 & H2 & H3 & H4). unfold the_env in H4. injection H4 as H4 H5 H6 H7. split_and!; [done|done|done|]. unfold the_env, set_sr. cbn. by rewrite H4, H6, H7.
    - intros [= <- <-] [= <- <-]. split; [done|]. destruct H as (H1 & H2 & H3 & H4). unfold the_env in H4. injection H4 as H4 H5 H6 H7. split_and!; [done|done|done|]. unfold the_env, set_seed. cbn. by rewrite H4, H5, H6.
    - intros [= <- <-] [= <- <-]. split; [done|]. destruct H as (H1 & H2 & H3 & H4). unfold the_env in H4. injection H4 as H4 H5 H6 H7.
      unfold engine_reset. destruct (add_node _ (dest_w L)) as [g0 d0]. destruct (add_node g0 _) as [g1 i1]. split_and!; try done. unfold the_env. cbn. by rewrite H5.
  Qed.
  Lemma verdicts_idle c cs o os : edits c = false -> verdicts (c :: cs) (o :: os) = verdicts cs os.
  Proof. by destruct c. Qed.

  Lemma sessions_in_step cs1 : forall cs2 e f e' f' os1 os2, in_step e f -> filter (fun c => edits c = true) cs1 = filter (fun c => edits c = true) cs2 ->
    run L blk e cs1 = Ok (e', os1) -> run L blk f cs2 = Ok (f', os2) -> verdicts cs1 os1 = verdicts cs2 os2 /\ in_step e' f'.
  Proof.
    induction cs1 as [|c cs1 IH].
    - intros cs2. induction cs2 as [|c2 cs2 IH2]; intros e f e' f' os1 os2 H Hf; cbn [run]; [intros [= <- <-] [= <- <-]; by split|]. intros [= <- <-].
      destruct (step L blk f c2) as [[f1 o1]|] eqn:E; [|done]. destruct (run L blk f1 cs2) as [[f2 os]|] eqn:E2; [|done]. intros [= <- <-]. rewrite filter_cons in Hf. destruct (decide (edits c2 = true)) as [Hc|Hc]; [done|].
      apply Bool.not_true_iff_false in Hc. rewrite verdicts_idle by done. apply (IH2 e f1 e f2 [] os); [|done|done|done]. apply in_step_sym. by eapply idle_in_step; [apply in_step_sym|..].
    - intros cs2 e f e' f' os1 os2 H Hf. cbn [run]. destruct (step L blk e c) as [[e1 o1]|] eqn:E; [|done]. destruct (run L blk e1 cs1) as [[e2 os]|] eqn:E2; [|done]. intros [= <- <-].
      rewrite filter_cons in Hf. destruct (decide (edits c = true)) as [Hc|Hc].
      + revert f f' os2 H Hf. induction cs2 as [|c2 cs2 IH2]; intros f f' os2 H Hf; [done|]. cbn [run]. destruct (step L blk f c2) as [[f1 o2]|] eqn:F; [|done]. destruct (run L blk f1 cs2) as [[f2 os']|] eqn:F2; [|done]. intros [= <- <-].
        rewrite filter_cons in Hf. destruct (decide (edits c2 = true)) as [Hc2|Hc2].
        * injection Hf as <- Hf. destruct (edit_in_step _ _ _ _ _ _ _ H Hc E F) as [<- H1]. destruct (IH cs2 e1 f1 e2 f2 os os' H1 Hf E2 F2) as [Hv H2]. split; [|done]. destruct c; cbn [verdicts]; try done. by rewrite Hv.
        * apply Bool.not_true_iff_false in Hc2. rewrite (verdicts_idle c2) by done. apply (IH2 f1 f2 os'); [|done|done]. apply in_step_sym. by eapply idle_in_step; [apply in_step_sym|..].
      + apply Bool.not_true_iff_false in Hc. rewrite verdicts_idle by done. apply (IH cs2 e1 f e2 f' os os2); [by eapply idle_in_step|done|done].
  Qed.

  (** C86: two sessions from the same engine with the same edits and settings in the same
      order, and any blocks and messages in between, neither of which panics: every update
      returns the same, and the same program is running in the end, with the same chains. *)
  Theorem C86_timing_of_edits e cs1 cs2 e1 e2 os1 os2 :
    filter (fun c => edits c = true) cs1 = filter (fun c => edits c = true) cs2 ->
    run L blk e cs1 = Ok (e1, os1) -> run L blk e cs2 = Ok (e2, os2) ->
    verdicts cs1 os1 = verdicts cs2 os2 /\ en_ast L e1 = en_ast L e2 /\ forall k, is_Some (en_info L e1 !! k) <-> is_Some (en_info L e2 !! k).
  Proof.
    intros Hf H1 H2. assert (H : in_step e e) by (split_and!; done).
    destruct (sessions_in_step cs1 cs2 e e e1 e2 os1 os2 H Hf H1 H2) as (Hv & Ha & Hi & _). by split_and!.
  Qed.
End timing.

(** ** Two sessions that meet the hypotheses: an accepted program, a refused one (there is no
    [~x]) and another accepted one, with blocks and a message in between and without. *)
From Verif Require Import Session.
Local Open Scope string_scope.
Definition with_blocks : list (call glicol) :=
  [submit "o: sig 4 >> mul 2"; play_block; CMsg glicol c64 "o,1,0,3"; play_block; submit "o: sig ~x"; submit "o: sig 4 >> mul ~x"; play_block; submit "o: sig 5"; play_block].
Definition without_blocks : list (call glicol) :=
  [submit "o: sig 4 >> mul 2"; submit "o: sig ~x"; submit "o: sig 4 >> mul ~x"; submit "o: sig 5"].
Example C86_case : filter (fun c => edits glicol c = true) with_blocks = filter (fun c => edits glicol c = true) without_blocks /\
  match run glicol 8 (engine_new glicol) with_blocks, run glicol 8 (engine_new glicol) without_blocks with Ok _, Ok _ => true | _, _ => false end = true /\
  sees with_blocks = [Quiet; level 8; Quiet; level 12; Refused ParsingError; Refused (NonExistReference "~x"); level 12; Quiet; level 5] /\
  sees without_blocks = [Quiet; Refused ParsingError; Refused (NonExistReference "~x"); Quiet].
Proof. split; [reflexivity|]. split; [run_session|]. split; run_session. Qed.

(** * LiveProofs: histories all of whose edits keep the relative order of surviving
    components. *)
From Verif Require Export RewireProofs.
From Coq Require Import Lia.
Local Open Scope nat_scope.

(** ** Text *)

Lemma starts_with_spec s p : starts_with s p = true <-> exists r, s = (p ++ r)%string.
Proof.
  unfold starts_with. revert s. induction p as [|a p IH]; intros s; simpl.
  - split; [intros _; by exists s|intros _; by destruct s].
  - destruct s as [|b s]; simpl.
    + split; [done|]. intros [r Hr]. done.
    + destruct (ascii_dec a b) as [->|Hne].
      * rewrite IH. split; intros [r Hr]; exists r; [by rewrite Hr|by injection Hr].
      * split; [done|]. intros [r Hr]. by injection Hr as -> _.
Qed.

Lemma contains_char_spec c s : contains_char c s = true <-> exists a b, s = (a ++ String c b)%string.
Proof.
  induction s as [|d s IH]; simpl.
  - split; [done|]. intros ([|x a] & b & H); done.
  - rewrite orb_true_iff, Ascii.eqb_eq, IH. split.
    + intros [->|(a & b & ->)]; [by exists ""%string, s|by exists (String d a), b].
    + intros ([|x a] & b & H); simpl in H; injection H as -> H; [auto|]. right. by exists a, b.
Qed.

Definition no_dots (s : string) : Prop := contains_char "." s = false.
Lemma loose_ref pre : no_dots pre ->
  contains_dotdot (pre ++ "..") = true /\ remove_dotdot (pre ++ "..") = pre.
Proof.
  unfold no_dots. induction pre as [|c pre IH]; [done|]. cbn [contains_char].
  intros H. apply orb_false_iff in H as [Hc H]. destruct (IH H) as [H1 H2].
  assert (Hne : c <> "."%char) by (intros ->; by rewrite Ascii.eqb_refl in Hc).
  change (String c pre ++ "..")%string with (String c (pre ++ ".."))%string.
  assert (Hcd : forall s, contains_dotdot (String c s) = contains_dotdot s).
  { intros s. simpl. destruct c as [[] [] [] [] [] [] [] []]; try reflexivity; by destruct Hne. }
  assert (Hrd : forall s, remove_dotdot (String c s) = String c (remove_dotdot s)).
  { intros s. simpl. destruct c as [[] [] [] [] [] [] [] []]; try reflexivity; by destruct Hne. }
  by rewrite Hcd, Hrd, H1, H2.
Qed.
Lemma plain_ref r : no_dots r -> contains_dotdot r = false.
Proof.
  unfold no_dots. induction r as [|c r IH]; [done|]. cbn [contains_char].
  intros H. apply orb_false_iff in H as [Hc H].
  assert (Hne : c <> "."%char) by (intros ->; by rewrite Ascii.eqb_refl in Hc).
  rewrite <- (IH H). simpl. destruct c as [[] [] [] [] [] [] [] []]; try reflexivity; by destruct Hne.
Qed.

Section order.
  Context {A B : Type} (R : A -> B -> Prop).
  Lemma mono_match (l1 : list A) (l2 : list B) :
    (forall i a, l1 !! i = Some a -> exists j b, l2 !! j = Some b /\ R a b) ->
    (forall j b, l2 !! j = Some b -> exists i a, l1 !! i = Some a /\ R a b) ->
    (forall i i' j j' a a' b b', l1 !! i = Some a -> l1 !! i' = Some a' -> l2 !! j = Some b -> l2 !! j' = Some b' ->
       R a b -> R a' b' -> i < i' -> j < j') ->
    (forall i i' j a a' b, l1 !! i = Some a -> l1 !! i' = Some a' -> l2 !! j = Some b -> R a b -> R a' b -> i = i') ->
    (forall i j j' a b b', l1 !! i = Some a -> l2 !! j = Some b -> l2 !! j' = Some b' -> R a b -> R a b' -> j = j') ->
    Forall2 R l1 l2.
  Proof.
    revert l2. induction l1 as [|a l1 IH]; intros l2 Hl Hr Hm Hi Hf.
    - destruct l2 as [|b l2]; [constructor|]. destruct (Hr 0 b eq_refl) as (i & a & H & _). done.
    - destruct (Hl 0 a eq_refl) as (j & b & Hj & Hab). destruct l2 as [|b0 l2]; [done|].
      destruct (Hr 0 b0 eq_refl) as (i & a0 & Hi0 & Hab0).
      assert (i = 0) as ->.
      { destruct i as [|i]; [done|]. exfalso.
        assert (j < 0) by (eapply (Hm 0 (S i) j 0); eauto; lia). lia. }
      injection Hi0 as <-. assert (j = 0) as -> by (eapply (Hf 0 j 0); eauto). injection Hj as <-.
      constructor; [done|]. apply IH.
      + intros i a1 Ha1. destruct (Hl (S i) a1 Ha1) as ([|j] & b1 & Hb1 & HR); [|by exists j, b1].
        injection Hb1 as <-. exfalso. assert (0 = S i) by (eapply (Hi 0 (S i) 0); eauto). done.
      + intros j b1 Hb1. destruct (Hr (S j) b1 Hb1) as ([|i] & a1 & Ha1 & HR); [|by exists i, a1].
        injection Ha1 as <-. exfalso. assert (0 = S j) by (eapply (Hf 0 0 (S j)); eauto). done.
      + intros i i' j j' a1 a2 b1 b2 H1 H2 H3 H4 H5 H6 H7.
        assert (S j < S j') by (eapply (Hm (S i) (S i') (S j) (S j')); eauto; lia). lia.
      + intros i i' j a1 a2 b1 H1 H2 H3 H4 H5.
        assert (S i = S i') by (eapply (Hi (S i) (S i') (S j)); eauto). lia.
      + intros i j j' a1 b1 b2 H1 H2 H3 H4 H5.
        assert (S j = S j') by (eapply (Hf (S i) (S j) (S j')); eauto). lia.
  Qed.
End order.

Lemma rank_mono {A} (P : A -> Prop) `{!forall x, Decision (P x)} (l : list A) i j : i <= j -> rank P l i <= rank P l j.
Proof.
  intros Hij. unfold rank. replace j with (i + (j - i)) by lia.
  rewrite <- (take_take_drop l i (j - i)). rewrite filter_app, app_length. lia.
Qed.

Section live.
  Context (L : lang) (HL : lang_ok L).
  Notation W := (node L * list (buf L))%type.
  Notation comp := (comp L).
  Notation ast := (gmap string (list comp)).
  Notation graph := (sgraph W).
  Notation table := (gmap string (list nat)).
  Notation engine := (engine L).

  (** Plain conditions on an edit of one chain. *)
  Definition no_repeats (cs : list comp) : Prop :=
    forall i j a b, cs !! i = Some a -> cs !! j = Some b -> comp_eqb a b = true -> i = j.
  Definition same_order (olds news : list comp) : Prop :=
    forall i i' j j' a a' b b', olds !! i = Some a -> olds !! i' = Some a' ->
      news !! j = Some b -> news !! j' = Some b' ->
      comp_eqb a b = true -> comp_eqb a' b' = true -> i < i' -> j < j'.

  Lemma keeps_order_intro olds news : no_repeats olds -> no_repeats news -> same_order olds news ->
    keeps_order L olds news.
  Proof.
    intros Ho Hn Hs. unfold keeps_order. apply mono_match.
    - intros m a Ha. apply filter_lookup_inv in Ha as (i & Hi & Hocc & _).
      apply occurs_new_spec in Hocc as (b & Hb & He). apply elem_of_list_lookup in Hb as [j Hj].
      exists (rank (occurs_old L olds) news j), b. split; [|done]. apply filter_lookup_rank; [done|].
      apply occurs_old_spec. exists a. split; [by eapply elem_of_list_lookup_2|done].
    - intros m b Hb. apply filter_lookup_inv in Hb as (j & Hj & Hocc & _).
      apply occurs_old_spec in Hocc as (a & Ha & He). apply elem_of_list_lookup in Ha as [i Hi].
      exists (rank (occurs_new L news) olds i), a. split; [|done]. apply filter_lookup_rank; [done|].
      apply occurs_new_spec. exists b. split; [by eapply elem_of_list_lookup_2|done].
    - intros m m' n n' a a' b b' Ha Ha' Hb Hb' Hab Hab' Hlt.
      apply filter_lookup_inv in Ha as (i & Hi & Hoi & <-). apply filter_lookup_inv in Ha' as (i' & Hi' & Hoi' & <-).
      apply filter_lookup_inv in Hb as (j & Hj & Hoj & <-). apply filter_lookup_inv in Hb' as (j' & Hj' & Hoj' & <-).
      assert (i < i').
      { destruct (decide (i < i')); [done|]. exfalso.
        pose proof (rank_mono (occurs_new L news) olds i' i ltac:(lia)). lia. }
      assert (j < j') by (eapply (Hs i i' j j'); eauto).
      pose proof (rank_mono (occurs_old L olds) news j j' ltac:(lia)).
      assert (rank (occurs_old L olds) news j ≠ rank (occurs_old L olds) news j'); [|lia].
      intros Heq. pose proof (rank_inj _ _ _ _ _ _ Hj Hj' Hoj Hoj' Heq). lia.
    - intros m m' n a a' b Ha Ha' Hb Hab Hab'.
      apply filter_lookup_inv in Ha as (i & Hi & Hoi & <-). apply filter_lookup_inv in Ha' as (i' & Hi' & Hoi' & <-).
      f_equal. eapply Ho; eauto. eapply (lo_trans _ HL); [done|]. by apply (lo_sym _ HL).
    - intros m n n' a b b' Ha Hb Hb' Hab Hab'.
      apply filter_lookup_inv in Hb as (j & Hj & Hoj & <-). apply filter_lookup_inv in Hb' as (j' & Hj' & Hoj' & <-).
      f_equal. eapply Hn; eauto. eapply (lo_trans _ HL); [by apply (lo_sym _ HL)|done].
  Qed.

  Lemma kept_rank olds news i j a b : keeps_order L olds news -> no_repeats news ->
    olds !! i = Some a -> news !! j = Some b -> comp_eqb a b = true ->
    occurs_new L news a /\ occurs_old L olds b /\ rank (occurs_new L news) olds i = rank (occurs_old L olds) news j.
  Proof.
    intros Hord Hn Hi Hj He.
    assert (Ho : occurs_new L news a).
    { apply occurs_new_spec. exists b. split; [by eapply elem_of_list_lookup_2|done]. }
    split; [done|]. split.
    { apply occurs_old_spec. exists a. split; [by eapply elem_of_list_lookup_2|done]. }
    pose proof (filter_lookup_rank _ _ _ _ Hi Ho) as Hf.
    destruct (Forall2_lookup_l _ _ _ _ _ Hord Hf) as (b' & Hb' & He').
    apply filter_lookup_inv in Hb' as (j' & Hj' & _ & <-). f_equal. eapply Hn; eauto.
    eapply (lo_trans _ HL); [by apply (lo_sym _ HL)|done].
  Qed.

  Lemma no_repeats_unique cs : no_repeats cs -> unique_refs L cs.
  Proof. intros H i j a b Hi Hj He _. eauto. Qed.

  (** ** Calls that do not touch the wiring *)

  Definition frame (e e' : engine) : Prop :=
    en_ast L e' = en_ast L e /\ en_info L e' = en_info L e /\ en_dest L e' = en_dest L e /\
    en_input L e' = en_input L e /\ edges (en_graph L e') = edges (en_graph L e).

  Lemma frame_trans e1 e2 e3 : frame e1 e2 -> frame e2 e3 -> frame e1 e3.
  Proof. intros (?&?&?&?&?) (?&?&?&?&?). split_and!; congruence. Qed.

  Lemma set_weight_edges (g : graph) n w g' : set_weight g n w = Ok g' -> edges g' = edges g.
  Proof. by intros (_ & ? & ? & ? & ?)%set_weight_spec. Qed.
  Lemma write_channel_frame e ch s e' : write_channel L e ch s = Ok e' -> frame e e'.
  Proof.
    unfold write_channel. destruct (_ !! input_name) as [ids|]; [|done].
    destruct (ids !! 0) as [id|]; [|done]. destruct (node_weight _ _) as [w|]; [|done].
    destruct (w.2 !! ch) as [b|]; [|done]. destruct (copy_slice b s) as [b'|]; [|done].
    destruct (set_weight _ _ _) as [g|] eqn:E; [|done]. intros [= <-].
    split_and!; try done. simpl. by eapply set_weight_edges.
  Qed.
  Lemma send_command_frame c e s e' : send_command L c e s = Ok e' -> frame e e'.
  Proof.
    unfold send_command. destruct (split_on "," s) as [|a [|b [|d [|v r]]]]; try (intros [= <-]; by split_and!).
    destruct (_ !! a) as [ids|]; [|intros [= <-]; by split_and!]. destruct (ids !! _) as [id|]; [|done].
    destruct (send_to _ _ _ _) as [g|] eqn:E; [|done]. intros [= <-].
    split_and!; try done. simpl. apply send_to_spec in E as (w & st & _ & _ & E). by eapply set_weight_edges.
  Qed.

  Lemma step_frame blk e c e' ob : step L blk e c = Ok (e', ob) ->
    match c with CUpdate _ _ _ | CReset _ => True | _ => frame e e' end.
  Proof.
    destruct c as [o code|shs ins|c m|nm s|b|sr|sd|]; simpl; try done.
    - unfold next_block. destruct (write_input L e ins) as [e1|] eqn:E; [|done].
      assert (Hf : frame e e1).
      { unfold write_input in E. destruct ins as [|s0 rest]; [injection E as <-; by split_and!|].
        destruct (write_channel L e 0 s0) as [e2|] eqn:E0; [|done]. apply write_channel_frame in E0.
        destruct rest as [|s1 rest]; [by injection E as <-|]. apply write_channel_frame in E.
        by eapply frame_trans. }
      destruct (process _ _ _ _) as [g|] eqn:Ep; [|done].
      destruct (node_weight g _) as [w|]; [|done]. intros [= <- <-].
      eapply frame_trans; [done|]. split_and!; try done. simpl.
      by apply process_spec in Ep as (order & _ & _ & _ & He & _).
    - unfold send_msg. destruct (foldM _ _ _) as [e1|] eqn:E; [|done]. intros [= <- <-].
      eapply (foldM_inv (frame e)); [|intros x y z Hx _ Hz; eapply frame_trans; [done|by eapply send_command_frame]|exact E].
      by split_and!.
    - intros [= <- <-]. by split_and!.
    - unfold set_bpm. destruct (send_to_all _ _ _) as [g|] eqn:E; [|done]. intros [= <- <-].
      split_and!; try done. simpl. by apply send_to_all_spec in E as (_ & ? & _).
    - intros [= <- <-]. by split_and!.
    - intros [= <- <-]. by split_and!.
  Qed.

  (** ** Histories *)

  Definition tame_call (e : engine) (c : call L) : Prop :=
    match c with
    | CUpdate _ o code => match parse code with Done new => prog_ok L new /\ tame L (old_ast L e) new | _ => True end
    | _ => True
    end.
  Inductive tamely (blk : Z) : engine -> Prop :=
  | tm_new : tamely blk (engine_new L)
  | tm_step e c e' ob : tamely blk e -> tame_call e c -> step L blk e c = Ok (e', ob) -> tamely blk e'.

  Definition matches (e : engine) : Prop :=
    forall p, en_ast L e = Some p -> forall u v, edge (en_graph L e) u v <-> wired L (en_info L e) (en_dest L e) p u v.

  Lemma aligned_ext e e' : aligned L e -> en_ast L e' = en_ast L e -> en_info L e' = en_info L e -> aligned L e'.
  Proof.
    intros [H1 H2 H3 H4] Ha Hi. assert (Ho : old_ast L e' = old_ast L e) by (unfold old_ast; by rewrite Ha).
    split; rewrite ?Ho, ?Hi; auto.
  Qed.

  Lemma aligned_empty e : en_ast L e = None -> (en_info L e = {[input_name := [2]]} \/ en_info L e = ∅) -> aligned L e.
  Proof.
    intros Ha Hi. assert (Ho : old_ast L e = ∅) by (unfold old_ast; by rewrite Ha).
    split; rewrite ?Ho.
    - split; [done|]. intros k. by rewrite lookup_empty.
    - intros k olds. by rewrite lookup_empty.
    - intros k ids Hk _. destruct Hi as [Hi|Hi]; rewrite Hi in Hk; [|done].
      by apply lookup_singleton_Some in Hk as [<- _].
    - intros ids Hk. destruct Hi as [Hi|Hi]; rewrite Hi in Hk; [|done].
      rewrite lookup_singleton in Hk. injection Hk as <-. eauto.
  Qed.

  Lemma tamely_inv blk e : tamely blk e -> einv L e /\ aligned L e /\ matches e.
  Proof.
    induction 1 as [|e c e' ob Ht (IH1 & IH2 & IH3) Htc Hs].
    - split_and!; [apply engine_new_inv|by apply aligned_empty; auto|done].
    - pose proof (step_inv _ _ _ _ _ _ IH1 Hs) as He'. split; [done|].
      destruct c as [o code|shs ins|c m|nm s|b|sr|sd|].
      + simpl in Hs, Htc. unfold update in Hs. destruct (parse code) as [new|er|]; [| |done].
        * destruct Htc as [Hpo Htame].
          destruct (update_ast L o e new) as [[e1 [er|]]|] eqn:E; [| |done]; injection Hs as <- <-.
          -- apply update_ast_fail in E; [|done]. destruct E as [E1 E2 E3 E4 E5 E6 _ _ _ _ _ _].
             split; [by eapply aligned_ext|]. intros p Hp u v. unfold edge. rewrite E2, E3, E6. apply IH3. congruence.
          -- eapply tame_update_result in E; eauto. split; [apply (re_al _ _ _ _ _ E)|].
             intros p Hp u v. rewrite (re_ast _ _ _ _ _ E) in Hp. injection Hp as <-.
             apply (re_wired _ _ _ _ _ E).
        * injection Hs as <- <-. done.
      + apply step_frame in Hs as (E1 & E2 & E3 & E4 & E5). split; [by eapply aligned_ext|].
        intros p Hp u v. unfold edge. rewrite E2, E3, E5. apply IH3. congruence.
      + apply step_frame in Hs as (E1 & E2 & E3 & E4 & E5). split; [by eapply aligned_ext|].
        intros p Hp u v. unfold edge. rewrite E2, E3, E5. apply IH3. congruence.
      + apply step_frame in Hs as (E1 & E2 & E3 & E4 & E5). split; [by eapply aligned_ext|].
        intros p Hp u v. unfold edge. rewrite E2, E3, E5. apply IH3. congruence.
      + apply step_frame in Hs as (E1 & E2 & E3 & E4 & E5). split; [by eapply aligned_ext|].
        intros p Hp u v. unfold edge. rewrite E2, E3, E5. apply IH3. congruence.
      + apply step_frame in Hs as (E1 & E2 & E3 & E4 & E5). split; [by eapply aligned_ext|].
        intros p Hp u v. unfold edge. rewrite E2, E3, E5. apply IH3. congruence.
      + apply step_frame in Hs as (E1 & E2 & E3 & E4 & E5). split; [by eapply aligned_ext|].
        intros p Hp u v. unfold edge. rewrite E2, E3, E5. apply IH3. congruence.
      + simpl in Hs. injection Hs as <- <-. split; [|done]. apply aligned_empty; [done|]. right. done.
  Qed.
End live.

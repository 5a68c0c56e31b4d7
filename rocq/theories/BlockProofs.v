(** * BlockProofs: what one block computes on the engines of tame histories. *)
From Verif Require Export StateProofs.
From Coq Require Import Lia.
Local Open Scope nat_scope.

Section block.
  Context (L : lang) (HL : lang_ok L).
  Notation W := (node L * list (buf L))%type.
  Notation comp := (comp L).
  Notation ast := (gmap string (list comp)).
  Notation graph := (sgraph W).
  Notation engine := (engine L).

  (** ** The destination *)

  Section dest.
    Context (D : node L -> list (buf L) -> Prop).
    Context (Dnew : D (dest_w L).1 (dest_w L).2).
    Context (Dmsg : forall st b m st', D st b -> nmsg st m = Ok st' -> D st' b).
    Context (Dproc : forall st ins b st' b', D st b -> nproc st ins b = Ok (st', b') -> D st' b').

    Definition dest_ok (e : engine) : Prop := forall w, node_weight (en_graph L e) (en_dest L e) = Some w -> D w.1 w.2.

    Lemma D_msgs ms st b st' : D st b -> foldM nmsg st ms = Ok st' -> D st' b.
    Proof.
      revert st. induction ms as [|m ms IH]; intros st H; simpl; [by intros [= <-]|].
      destruct (nmsg st m) as [st1|] eqn:E; [|done]. apply IH. by eapply Dmsg.
    Qed.
    Lemma process_dest shs (g : graph) d g' : process nproc shs g d = Ok g' ->
      (forall w, node_weight g d = Some w -> D w.1 w.2) -> forall w, node_weight g' d = Some w -> D w.1 w.2.
    Proof.
      intros (order & Hnd & _ & _ & _ & _ & _ & Hout & Hin)%process_spec Hd w Hw.
      destruct (decide (d ∈ order)) as [Ho|Ho].
      - apply elem_of_list_split in Ho as (l1 & l2 & ->).
        destruct (Hin l1 d l2 eq_refl) as (w0 & w1 & ins & H1 & H2 & H3 & _).
        rewrite H2 in Hw. injection Hw as <-. destruct w1 as [st1 b1]. eapply Dproc; [|exact H3]. by apply Hd.
      - rewrite Hout in Hw by done. by apply Hd.
    Qed.
    Lemma write_dest e ch s e' : einv L e -> write_channel L e ch s = Ok e' ->
      node_weight (en_graph L e') (en_dest L e) = node_weight (en_graph L e) (en_dest L e).
    Proof.
      intros He. unfold write_channel. destruct (_ !! input_name) as [ids|] eqn:Ei; [|done].
      destruct (ids !! 0) as [id|] eqn:E0; [|done]. destruct (node_weight _ id) as [w|] eqn:Ew; [|done].
      destruct (w.2 !! ch) as [b|]; [|done]. destruct (copy_slice b s) as [b'|]; [|done].
      destruct (set_weight _ _ _) as [g|] eqn:E; [|done]. intros [= <-]. simpl.
      apply set_weight_spec in E as (_ & _ & _ & _ & Hs). rewrite Hs, decide_False; [done|].
      intros Hd. apply (ei_dest _ _ He). exists input_name, 0. exists ids. by rewrite Hd.
    Qed.
    Lemma write_node e ch s e' n : write_channel L e ch s = Ok e' -> ~ owner (en_info L e) n input_name 0 ->
      node_weight (en_graph L e') n = node_weight (en_graph L e) n.
    Proof.
      intros Hw Hn. revert Hw. unfold write_channel. destruct (_ !! input_name) as [ids|] eqn:Ei; [|done].
      destruct (ids !! 0) as [id|] eqn:E0; [|done]. destruct (node_weight _ id) as [w|] eqn:Ew; [|done].
      destruct (w.2 !! ch) as [b|]; [|done]. destruct (copy_slice b s) as [b'|]; [|done].
      destruct (set_weight _ _ _) as [g|] eqn:E; [|done]. intros [= <-]. simpl.
      apply set_weight_spec in E as (_ & _ & _ & _ & Hs). rewrite Hs, decide_False; [done|].
      intros ->. apply Hn. by exists ids.
    Qed.
  End dest.

  Lemma write_input_node e ins e' n : write_input L e ins = Ok e' -> ~ owner (en_info L e) n input_name 0 ->
    node_weight (en_graph L e') n = node_weight (en_graph L e) n.
  Proof.
    unfold write_input. destruct ins as [|s0 rest]; [by intros [= <-]|].
    destruct (write_channel L e 0 s0) as [e1|] eqn:E0; [|done]. intros H Hn.
    pose proof (write_node _ _ _ _ n E0 Hn) as H1.
    destruct rest as [|s1 rest]; [by injection H as <-|].
    pose proof (write_channel_frame L _ _ _ _ E0) as (_ & Hi & _).
    rewrite <- H1. eapply write_node; [exact H|]. by rewrite Hi.
  Qed.
  Lemma write_input_frame e ins e' : write_input L e ins = Ok e' -> frame L e e'.
  Proof.
    unfold write_input. destruct ins as [|s0 rest]; [intros [= <-]; by split_and!|].
    destruct (write_channel L e 0 s0) as [e1|] eqn:E0; [|done]. apply write_channel_frame in E0.
    destruct rest as [|s1 rest]; [by intros [= <-]|]. intros H%write_channel_frame. by eapply frame_trans.
  Qed.

  (** ** A block of the running program *)

  (** What feeds node [v]: the node before it in its chain, and the ends of the chains its
      component refers to. *)
  Definition feeds (e : engine) (c : comp) (k : string) (i : nat) (u : nat) : Prop :=
    (exists j, i = S j /\ owner (en_info L e) u k j) \/
    (exists r k', r ∈ all_refs c /\ refers r k' /\ chain_end (en_info L e) k' u).

  Lemma feeds_edge blk e p k i c v u : tamely L blk e -> en_ast L e = Some p ->
    placed L (en_info L e) p k i c v -> edge (en_graph L e) u v <-> feeds e c k i u.
  Proof.
    intros Ht Hp Hpl. destruct (tamely_inv L HL _ _ Ht) as (He & Hal & Hm).
    rewrite (Hm p Hp u v). pose proof Hpl as (cs & Hk & Hc & Hown). unfold wired, feeds. split.
    - intros [(k1 & j & Hu & Hv)|[(k1 & _ & _ & ->)|(k1 & i1 & c1 & r & k' & Hpl1 & Hr)]].
      + destruct (ei_inj _ _ He v k (i) k1 (S j) Hown Hv) as [-> ->]. left. eauto.
      + exfalso. apply (ei_dest _ _ He). by exists k, i.
      + destruct Hpl1 as (cs1 & Hk1 & Hc1 & Hown1).
        destruct (ei_inj _ _ He v k i k1 i1 Hown Hown1) as [<- <-]. rewrite Hk in Hk1. injection Hk1 as <-.
        rewrite Hc in Hc1. injection Hc1 as <-. right. by exists r, k'.
    - intros [(j & -> & Hu)|(r & k' & Hr)]; [left; eauto|]. right. right. by exists k, i, c, r, k'.
  Qed.
  Lemma dest_edge blk e p u : tamely L blk e -> en_ast L e = Some p ->
    edge (en_graph L e) u (en_dest L e) <->
    exists k, contains_char "~" k = false /\ chain_end (en_info L e) k u.
  Proof.
    intros Ht Hp. destruct (tamely_inv L HL _ _ Ht) as (He & Hal & Hm).
    rewrite (Hm p Hp u _). unfold wired. split.
    - intros [(k1 & j & Hu & Hv)|[(k1 & H1 & H2 & _)|(k1 & i1 & c1 & r & k' & (cs & _ & _ & Hv) & _)]].
      + exfalso. apply (ei_dest _ _ He). by exists k1, (S j).
      + by exists k1.
      + exfalso. apply (ei_dest _ _ He). by exists k1, i1.
    - intros (k & H1 & H2). right. left. by exists k.
  Qed.

  (** Nothing that [v] feeds, directly or not, feeds [v]. *)
  Definition no_feedback (e : engine) (v : nat) : Prop :=
    forall u, edge (en_graph L e) u v -> u ≠ v -> ~ reaches (en_graph L e) v u.
  Definition heard (e : engine) (v : nat) : Prop := reaches (en_graph L e) v (en_dest L e).

  Lemma next_block_node blk shs e ins e' out v : next_block L blk shs e ins = Ok (e', out) ->
    heard e v -> no_feedback e v -> ~ owner (en_info L e) v input_name 0 ->
    exists st b st' b' inp, node_weight (en_graph L e) v = Some (st, b) /\
      node_weight (en_graph L e') v = Some (st', b') /\ nproc st inp b = Ok (st', b') /\ NoDup inp.*1 /\
      forall u bs, (u, bs) ∈ inp <->
        edge (en_graph L e) u v /\ u ≠ v /\ exists su, node_weight (en_graph L e') u = Some (su, bs).
  Proof.
    unfold next_block. destruct (write_input L e ins) as [e1|] eqn:Ew; [|done]. intros H Hh Hnf Hni.
    destruct (process nproc shs (en_graph L e1) (en_dest L e1)) as [g|] eqn:Ep; [|done].
    destruct (node_weight g (en_dest L e1)) as [w|] eqn:Ed; [|done]. injection H as <- <-. simpl.
    pose proof (write_input_frame _ _ _ Ew) as (_ & _ & Hd & _ & Hed).
    apply process_spec in Ep as (order & Hnd & Hr & Ho & _ & _ & _ & Hout & Hin).
    assert (He1 : forall u v, edge (en_graph L e1) u v <-> edge (en_graph L e) u v) by (intros; unfold edge; by rewrite Hed).
    assert (Hre : forall u v, reaches (en_graph L e1) u v -> reaches (en_graph L e) u v).
    { intros u1 v1. apply rtc_subrel. intros; by apply He1. }
    assert (Hv : v ∈ order).
    { apply Hr. rewrite Hd. unfold heard in Hh. revert Hh. apply rtc_subrel. intros; by apply He1. }
    apply elem_of_list_split in Hv as (l1 & l2 & Heq).
    destruct (Hin l1 v l2 Heq) as ([st b] & [st' b'] & inp & H1 & H2 & H3 & H4 & H5).
    rewrite (write_input_node _ _ _ _ Ew Hni) in H1.
    exists st, b, st', b', inp. split_and!; auto. intros u bs. rewrite H5, He1. cbn [snd].
    assert (Hback : edge (en_graph L e) u v -> u ≠ v -> u ∈ l1).
    { intros Hu Hne. destruct (Ho l1 v l2 u Heq) as [?|Hc]; [by apply He1|done|].
      exfalso. by eapply Hnf; [exact Hu|done|apply Hre]. }
    split; intros (Hu & Hne & x & Hx); split_and!; auto.
    - destruct Hx as [Hx <-]. rewrite decide_True in Hx by auto. destruct x as [su bu]. by exists su.
    - exists (x, bs). rewrite decide_True by auto. done.
  Qed.

  Lemma next_block_out blk shs e ins e' out : next_block L blk shs e ins = Ok (e', out) ->
    en_dest L e' = en_dest L e /\ exists st, node_weight (en_graph L e') (en_dest L e) = Some (st, out).
  Proof.
    unfold next_block. destruct (write_input L e ins) as [e1|] eqn:Ew; [|done].
    destruct (process nproc shs (en_graph L e1) (en_dest L e1)) as [g|] eqn:Ep; [|done].
    destruct (node_weight g (en_dest L e1)) as [w|] eqn:Ed; [|done]. intros [= <- <-]. simpl.
    pose proof (write_input_frame _ _ _ Ew) as (_ & _ & Hd & _ & _). rewrite Hd in Ed |- *. split; [done|].
    destruct w as [st b]. by exists st.
  Qed.

  (** The engines that a tame history passes through keep the kind of their destination. *)
  Theorem tamely_dest (D : node L -> list (buf L) -> Prop) blk e :
    D (dest_w L).1 (dest_w L).2 ->
    (forall st b m st', D st b -> nmsg st m = Ok st' -> D st' b) ->
    (forall st ins b st' b', D st b -> nproc st ins b = Ok (st', b') -> D st' b') ->
    tamely L blk e -> dest_ok D e.
  Proof.
    intros Dnew Dmsg Dproc. induction 1 as [|e c e' ob Ht IH Htc Hs].
    { intros w [= <-]. exact Dnew. }
    destruct (tamely_inv L HL _ _ Ht) as (He & Hal & _).
    destruct c as [o code|shs ins|c m|nm s|b|sr|sd|]; simpl in Hs.
    - simpl in Htc. unfold update in Hs. destruct (parse code) as [new|er|]; [| |done].
      + destruct Htc as [Hpo Htame].
        destruct (update_ast L o e new) as [[e1 [er|]]|] eqn:E; [| |done]; injection Hs as <- <-.
        * apply update_ast_fail in E; [|done]. destruct E as [E1 E2 E3 _ E5 E6 _ _ _ _ _ _].
          intros w Hw. apply IH. rewrite E1, E3 in Hw. exact Hw.
        * pose proof (tame_update_result L HL _ _ _ _ He Hal Hpo Htame E) as R.
          intros w Hw. rewrite (re_dest _ _ _ _ _ R) in Hw.
          assert (Hl : live (en_graph L e) (en_dest L e)) by (apply (ei_live _ _ He); by left).
          destruct Hl as [w0 Hw0]. destruct (re_dest_w _ _ _ _ _ R w0 Hw0) as (st & Hst & Hw').
          rewrite Hw in Hw'. injection Hw' as ->. simpl. eapply D_msgs; [exact Dmsg| |exact Hst]. by apply IH.
      + by injection Hs as <- <-.
    - unfold next_block in Hs. destruct (write_input L e ins) as [e1|] eqn:Ew; [|done].
      destruct (process nproc shs (en_graph L e1) (en_dest L e1)) as [g|] eqn:Ep; [|done].
      destruct (node_weight g (en_dest L e1)) as [w|] eqn:Ed; [|done]. injection Hs as <- <-.
      intros w' Hw'. simpl in Hw'. eapply (process_dest D Dproc); [exact Ep| |exact Hw'].
      intros w0 Hw0. pose proof (write_input_frame _ _ _ Ew) as (_ & _ & Hd & _ & _).
      rewrite Hd, (write_input_node _ _ _ _ Ew) in Hw0; [by apply IH|].
      intros Ho. apply (ei_dest _ _ He). by eexists _, _.
    - unfold send_msg in Hs. destruct (foldM _ _ _) as [e1|] eqn:E; [|done]. injection Hs as <- <-.
      refine (proj2 (foldM_inv (fun x => frame L e x /\ dest_ok D x) _ _ _ _ _ _ E)); [split; [by split_and!|done]|].
      intros x y z [Hx1 Hx2] _ Hz. split; [eapply frame_trans; [exact Hx1|]; by eapply send_command_frame|].
      revert Hz. unfold send_command. destruct (split_on "," y) as [|a [|b [|d [|v r]]]]; try (by intros [= <-]).
      destruct (_ !! a) as [ids|]; [|by intros [= <-]]. destruct (ids !! _) as [id|]; [|done].
      destruct (send_to _ _ _ _) as [g|] eqn:E1; [|done]. intros [= <-].
      apply send_to_spec in E1 as (w & st & Hw & Hm & E1). apply set_weight_spec in E1 as (_ & _ & _ & _ & Hs).
      intros w' Hw'. simpl in Hw'. rewrite Hs in Hw'. case_decide as Hd.
      + injection Hw' as <-. simpl. eapply Dmsg; [|exact Hm]. apply Hx2. by rewrite Hd.
      + by apply Hx2.
    - by injection Hs as <- <-.
    - unfold set_bpm in Hs. destruct (send_to_all _ _ _) as [g|] eqn:E; [|done]. injection Hs as <- <-.
      apply send_to_all_spec in E as (_ & _ & _ & Hw). intros w' Hw'. simpl in Hw'. specialize (Hw (en_dest L e)).
      destruct (node_weight (en_graph L e) (en_dest L e)) as [w|] eqn:E0; [|congruence].
      destruct Hw as (st & Hm & Hw). rewrite Hw in Hw'. injection Hw' as <-. simpl. eapply Dmsg; [|exact Hm]. by apply IH.
    - by injection Hs as <- <-.
    - by injection Hs as <- <-.
    - injection Hs as <- <-. intros w [= <-]. exact Dnew.
  Qed.
End block.

(** * StateProofs: where the states of the nodes come from, over tame histories. *)
From Verif Require Export RefProofs.
From Coq Require Import Lia.
Local Open Scope nat_scope.

(** Messages that users cause; the others come from the engine's wiring. *)
Definition user_msg (m : msg) : Prop :=
  match m with SetToNumber _ _ | SetToSymbol _ _ | SetBPM _ => True | _ => False end.

Section state.
  Context (L : lang) (HL : lang_ok L).
  Notation W := (node L * list (buf L))%type.
  Notation comp := (comp L).
  Notation ast := (gmap string (list comp)).
  Notation graph := (sgraph W).
  Notation engine := (engine L).

  (** What playing and user messages do to the state of a node. *)
  Inductive evolves : node L -> node L -> Prop :=
  | ev_refl st : evolves st st
  | ev_msg st m st1 st2 : user_msg m -> nmsg st m = Ok st1 -> evolves st1 st2 -> evolves st st2
  | ev_proc st ins b st1 b1 st2 : nproc st ins b = Ok (st1, b1) -> evolves st1 st2 -> evolves st st2.
  Lemma evolves_trans a b c : evolves a b -> evolves b c -> evolves a c.
  Proof. induction 1; intros; [done|eapply ev_msg; eauto|eapply ev_proc; eauto]. Qed.

  Definition moved (g g' : graph) : Prop :=
    forall n w', node_weight g' n = Some w' -> exists w, node_weight g n = Some w /\ evolves w.1 w'.1.
  Lemma moved_refl g : moved g g.
  Proof. intros n w' H. exists w'. split; [done|constructor]. Qed.
  Lemma moved_trans g1 g2 g3 : moved g1 g2 -> moved g2 g3 -> moved g1 g3.
  Proof.
    intros H1 H2 n w' H. destruct (H2 n w' H) as (w2 & Hw2 & E2). destruct (H1 n w2 Hw2) as (w1 & Hw1 & E1).
    exists w1. split; [done|]. by eapply evolves_trans.
  Qed.
  Lemma moved_set (g : graph) n w w1 g' : node_weight g n = Some w -> evolves w.1 w1.1 -> set_weight g n w1 = Ok g' -> moved g g'.
  Proof.
    intros Hw He (_ & _ & _ & _ & Hs)%set_weight_spec m w' Hm. rewrite Hs in Hm. case_decide.
    - subst m. injection Hm as <-. eauto.
    - exists w'. split; [done|constructor].
  Qed.
  Lemma moved_process shs (g : graph) dest g' : process nproc shs g dest = Ok g' -> moved g g'.
  Proof.
    intros (order & Hnd & _ & _ & _ & _ & _ & Hout & Hin)%process_spec n w' Hn.
    destruct (decide (n ∈ order)) as [Ho|Ho].
    - apply elem_of_list_split in Ho as (l1 & l2 & ->).
      destruct (Hin l1 n l2 eq_refl) as (w & w1 & ins & H1 & H2 & Hrest).
      rewrite H2 in Hn. injection Hn as <-. exists w. split; [done|].
      destruct w1 as [st1 b1]. destruct Hrest as [Hrest _]. eapply ev_proc; [exact Hrest|constructor].
    - rewrite Hout in Hn by done. exists w'. split; [done|constructor].
  Qed.
  Lemma moved_write e ch s e' : write_channel L e ch s = Ok e' -> moved (en_graph L e) (en_graph L e').
  Proof.
    unfold write_channel. destruct (_ !! input_name) as [ids|]; [|done].
    destruct (ids !! 0) as [id|]; [|done]. destruct (node_weight _ _) as [w|] eqn:Ew; [|done].
    destruct (w.2 !! ch) as [b|]; [|done]. destruct (copy_slice b s) as [b'|]; [|done].
    destruct (set_weight _ _ _) as [g|] eqn:E; [|done]. intros [= <-]. simpl.
    eapply moved_set; [exact Ew| |exact E]. constructor.
  Qed.
  Lemma moved_command c e s e' : send_command L c e s = Ok e' -> moved (en_graph L e) (en_graph L e').
  Proof.
    unfold send_command. destruct (split_on "," s) as [|a [|b [|d [|v r]]]]; try (intros [= <-]; apply moved_refl).
    destruct (_ !! a) as [ids|]; [|intros [= <-]; apply moved_refl]. destruct (ids !! _) as [id|]; [|done].
    destruct (send_to _ _ _ _) as [g|] eqn:E; [|done]. intros [= <-]. simpl.
    apply send_to_spec in E as (w & st & Hw & Hm & E). eapply moved_set; [exact Hw| |exact E].
    eapply ev_msg; [|exact Hm|constructor]. by destruct (parse_f32 v).
  Qed.

  Lemma step_moved blk e c e' ob : step L blk e c = Ok (e', ob) ->
    match c with CUpdate _ _ _ | CReset _ => True | _ => moved (en_graph L e) (en_graph L e') end.
  Proof.
    destruct c as [o code|shs ins|c m|nm s|b|sr|sd|]; simpl; try done.
    - unfold next_block. destruct (write_input L e ins) as [e1|] eqn:E; [|done].
      assert (Hf : moved (en_graph L e) (en_graph L e1)).
      { unfold write_input in E. destruct ins as [|s0 rest]; [injection E as <-; apply moved_refl|].
        destruct (write_channel L e 0 s0) as [e2|] eqn:E0; [|done]. apply moved_write in E0.
        destruct rest as [|s1 rest]; [by injection E as <-|]. apply moved_write in E. by eapply moved_trans. }
      destruct (process _ _ _ _) as [g|] eqn:Ep; [|done].
      destruct (node_weight g _) as [w|]; [|done]. intros [= <- <-]. simpl.
      eapply moved_trans; [done|]. by eapply moved_process.
    - unfold send_msg. destruct (foldM _ _ _) as [e1|] eqn:E; [|done]. intros [= <- <-].
      eapply (foldM_inv (fun x => moved (en_graph L e) (en_graph L x))); [|intros x y z Hx _ Hz; eapply moved_trans; [done|by eapply moved_command]|exact E].
      apply moved_refl.
    - intros [= <- <-]. apply moved_refl.
    - unfold set_bpm. destruct (send_to_all _ _ _) as [g|] eqn:E; [|done]. intros [= <- <-]. simpl.
      apply send_to_all_spec in E as (_ & _ & _ & Hw). intros n w' Hn. specialize (Hw n).
      destruct (node_weight (en_graph L e) n) as [w|]; [|congruence]. destruct Hw as (st & Hm & Hw).
      rewrite Hw in Hn. injection Hn as <-. exists w. split; [done|]. eapply ev_msg; [|exact Hm|constructor]. done.
    - intros [= <- <-]. apply moved_refl.
    - intros [= <- <-]. apply moved_refl.
  Qed.

  (** ** A relation between components and node states, kept by every call *)

  Section tracked.
    Context (J : list msg -> comp -> node L -> Prop).
    Context (Jnew : forall ev c w refs sh t k i st, makenode ev c = Done (w, refs) ->
      foldM nmsg w.1 (trace sh t k i refs) = Ok st -> J (trace sh t k i refs) c st).
    Context (Jkept : forall tr a b st0 sh t k i st, J tr a st0 -> comp_eqb a b = true ->
      foldM nmsg st0 (trace sh t k i (all_refs b)) = Ok st -> J (trace sh t k i (all_refs b)) b st).
    Context (Jmsg : forall tr c st m st', J tr c st -> user_msg m -> nmsg st m = Ok st' -> J tr c st').
    Context (Jproc : forall tr c st ins b st' b', J tr c st -> nproc st ins b = Ok (st', b') -> J tr c st').

    Lemma J_evolves tr c st st' : J tr c st -> evolves st st' -> J tr c st'.
    Proof. intros H E. induction E; [done|eauto|eauto]. Qed.

    Definition tracked (e : engine) : Prop :=
      forall p k i c v w, en_ast L e = Some p -> placed L (en_info L e) p k i c v ->
        node_weight (en_graph L e) v = Some w ->
        exists sh rs, (rs = all_refs c \/ exists ev w0, makenode ev c = Done (w0, rs)) /\
          J (trace sh (en_info L e) k i rs) c w.1.

    Lemma tracked_frame e e' : tracked e -> frame L e e' -> moved (en_graph L e) (en_graph L e') -> tracked e'.
    Proof.
      intros H (E1 & E2 & _) Hm p k i c v w Hp Hpl Hw. rewrite E1 in Hp. rewrite E2 in Hpl |- *.
      destruct (Hm v w Hw) as (w0 & Hw0 & Hev). destruct (H p k i c v w0 Hp Hpl Hw0) as (sh & rs & Hrs & HJ).
      exists sh, rs. split; [done|]. by eapply J_evolves.
    Qed.

    Lemma tracked_update o e new e' : einv L e -> aligned L e -> prog_ok L new -> tame L (old_ast L e) new ->
      tracked e -> update_ast L o e new = Ok (e', None) -> tracked e'.
    Proof.
      intros He Hal Hpo Htame HT Hu. pose proof (tame_update_result L HL _ _ _ _ He Hal Hpo Htame Hu) as R.
      intros p k i c v w Hp Hpl Hw. rewrite (re_ast _ _ _ _ _ R) in Hp. injection Hp as <-.
      destruct (decide (occurs_old L (olds_of L (old_ast L e) k) c)) as [Hocc|Hnew].
      - pose proof Hpl as (news & Hk & Hc & Hown). unfold olds_of in Hocc.
        destruct (old_ast L e !! k) as [olds|] eqn:Ho.
        2: { apply occurs_old_spec in Hocc as (a & Ha & _). by apply elem_of_nil in Ha. }
        destruct (Htame k olds news Ho Hk) as [Hko _]. unfold keeps_order in Hko.
        pose proof (filter_lookup_rank (occurs_old L olds) news i c Hc Hocc) as Hf.
        destruct (Forall2_lookup_r _ _ _ _ _ Hko Hf) as (a & Ha & Heq).
        apply filter_lookup_inv in Ha as (i0 & Hi0 & Hon & Hrank).
        destruct (al_len _ _ Hal k olds Ho) as (ids & Hids & Hlen).
        destruct (lookup_lt_is_Some_2 ids i0) as [n Hn]; [rewrite Hlen; by eapply lookup_lt_Some|].
        destruct (re_kept _ _ _ _ _ R k olds news i0 i a c n Ho Hk Hi0 Hc Hon Hocc Hrank) as [Hown' Hst];
          [by exists ids|].
        assert (n = v) as ->.
        { destruct Hown as (x & Hx & Hxi), Hown' as (y & Hy & Hyi). rewrite Hx in Hy. injection Hy as <-. congruence. }
        assert (Hl : live (en_graph L e) v) by (apply (ei_live _ _ He); right; right; exists k, i0; by exists ids).
        destruct Hl as [w0 Hw0]. destruct (Hst w0 Hw0) as (st & Hfold & Hw').
        rewrite Hw in Hw'. injection Hw' as ->.
        assert (Hast : en_ast L e = Some (old_ast L e)).
        { unfold old_ast in Ho |- *. by destruct (en_ast L e). }
        destruct (HT (old_ast L e) k i0 a v w0 Hast) as (sh & rs & _ & HJ); [|done|].
        { exists olds. split_and!; auto. by exists ids. }
        exists (o_wild o), (all_refs c). split; [by left|]. eapply Jkept; [exact HJ|done|exact Hfold].
      - destruct (re_new _ _ _ _ _ R k i c v Hpl Hnew) as (_ & w0 & refs & st & Hmk & Hfold & Hw').
        rewrite Hw in Hw'. injection Hw' as ->. exists (o_wild o), refs. split; [right; eauto|].
        eapply Jnew; [exact Hmk|exact Hfold].
    Qed.

    Theorem tamely_tracked blk e : tamely L blk e -> tracked e.
    Proof.
      induction 1 as [|e c e' ob Ht IH Htc Hs]; [done|].
      destruct (tamely_inv L HL _ _ Ht) as (He & Hal & _).
      pose proof (step_frame L _ _ _ _ _ Hs) as Hf. pose proof (step_moved _ _ _ _ _ Hs) as Hm.
      destruct c as [o code|shs ins|c m|nm s|b|sr|sd|]; try (by eapply tracked_frame).
      - simpl in Hs, Htc. unfold update in Hs. destruct (parse code) as [new|er|]; [| |done].
        + destruct Htc as [Hpo Htame].
          destruct (update_ast L o e new) as [[e1 [er|]]|] eqn:E; [| |done]; injection Hs as <- <-.
          * apply update_ast_fail in E; [|done]. destruct E as [E1 E2 _ _ E5 E6 _ _ _ _ _ _].
            intros p k i c v w Hp Hpl Hw. rewrite E5 in Hp. rewrite E6 in Hpl |- *. rewrite E1 in Hw. eapply IH; eauto.
          * by eapply tracked_update.
        + by injection Hs as <- <-.
      - simpl in Hs. injection Hs as <- <-. intros p k i c v w Hp. done.
    Qed.
  End tracked.

  (** ** Every reference of the running program denotes some chain *)

  Definition resolved (e : engine) : Prop :=
    forall p r, en_ast L e = Some p -> used L p r -> exists k, refers r k /\ is_Some (en_info L e !! k).
  Theorem tamely_resolved blk e : tamely L blk e -> resolved e.
  Proof.
    induction 1 as [|e c e' ob Ht IH Htc Hs]; [done|].
    destruct (tamely_inv L HL _ _ Ht) as (He & Hal & _).
    pose proof (step_frame L _ _ _ _ _ Hs) as Hf.
    destruct c as [o code|shs ins|c m|nm s|b|sr|sd|];
      try (destruct Hf as (E1 & E2 & _); intros p r Hp Hr; rewrite E1 in Hp; rewrite E2; by eapply IH).
    - simpl in Hs, Htc. unfold update in Hs. destruct (parse code) as [new|er|]; [| |done].
      + destruct Htc as [Hpo Htame].
        destruct (update_ast L o e new) as [[e1 [er|]]|] eqn:E; [| |done]; injection Hs as <- <-.
        * apply update_ast_fail in E; [|done]. destruct E as [_ _ _ _ E5 E6 _ _ _ _ _ _].
          intros p r Hp Hr. rewrite E5 in Hp. rewrite E6. by eapply IH.
        * intros p r Hp Hr. pose proof (tame_update_result L HL _ _ _ _ He Hal Hpo Htame E) as R.
          rewrite (re_ast _ _ _ _ _ R) in Hp. injection Hp as <-.
          assert (Hko : keys_ok L e).
          { intros k [ids Hk]. destruct (old_ast L e !! k) eqn:Eo; [left; eauto|right; by eapply (al_only _ _ Hal)]. }
          pose proof (ref_check_exact L HL _ _ _ _ _ He Hko (proj2 Hpo) E) as Hex. simpl in Hex.
          destruct (Hex r Hr) as (k & Hrk & Hav). exists k. split; [done|].
          destruct Hav as [[cs Hcs]|(-> & Hs & Ho)].
          -- destruct (re_len _ _ _ _ _ R k cs Hcs) as (ids & Hids & _). eauto.
          -- rewrite (re_gone _ _ _ _ _ R input_name (proj1 Hpo)). by rewrite decide_True.
      + by injection Hs as <- <-.
    - simpl in Hs. injection Hs as <- <-. intros p r Hp. done.
  Qed.
End state.

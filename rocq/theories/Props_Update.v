(** * Properties of live updates: C02, C03, C05, C06, C08, C09, C10. *)
From Verif Require Import RefProofs Toy Props_History.
Local Open Scope nat_scope.

(** Vocabulary (RewireProofs, LiveProofs), in terms of the chain table and the program:
    [owner t n k i]    node n is at position i of chain k;
    [placed t p k i c n]  component c is at position i of chain k of program p, node n plays it;
    [chain_end t k n]  n is the last node of chain k;
    [refers r k]       reference text r denotes chain k;
    [wired t dest p u v]  u feeds v according to program p;
    [tamely blk e]     e is reached by API calls none of whose program submissions reorders
                       or ambiguously repeats components (failed ones included). *)

(** What one accepted submission must look like. *)
Definition plain_edit {L : lang} (old new : gmap string (list (comp L))) : Prop :=
  forall k olds news, old !! k = Some olds -> new !! k = Some news ->
    no_repeats L olds /\ no_repeats L news /\ same_order L olds news.

Lemma plain_tame (L : lang) (HL : lang_ok L) old new : plain_edit old new -> tame L old new.
Proof.
  intros H k olds news Ho Hn. destruct (H k olds news Ho Hn) as (H1 & H2 & H3).
  split; [by apply keeps_order_intro|by apply no_repeats_unique].
Qed.

(** C02: no condition on the program except non-empty chains, none called "~input".
    [en_ast e = None] holds for a new engine, after [reset], and after failed updates. *)
Theorem C02_first_program_as_written (L : lang) (HL : lang_ok L) blk e o new e' :
  tamely L blk e -> en_ast L e = None -> prog_ok L new ->
  update_ast L o e new = Ok (e', None) ->
  (forall k cs, new !! k = Some cs -> exists ids, en_info L e' !! k = Some ids /\ length ids = length cs) /\
  (forall k i c n, placed L (en_info L e') new k i c n ->
     exists w refs st ms, makenode (the_env L e) c = Done (w, refs) /\
       Forall conn_msg ms /\ foldM nmsg w.1 ms = Ok st /\
       node_weight (en_graph L e') n = Some (st, w.2)) /\
  (forall n k i k' i', owner (en_info L e') n k i -> owner (en_info L e') n k' i' -> k = k' /\ i = i') /\
  (forall u v, edge (en_graph L e') u v <-> wired L (en_info L e') (en_dest L e') new u v).
Proof.
  intros Ht Hn Hpo Hu. destruct (tamely_inv L HL _ _ Ht) as (He & Hal & _).
  assert (Hold : old_ast L e = ∅) by (unfold old_ast; by rewrite Hn).
  assert (Htame : tame L (old_ast L e) new) by (rewrite Hold; intros k olds news; by rewrite lookup_empty).
  pose proof (tame_update_result L HL _ _ _ _ He Hal Hpo Htame Hu) as R. split_and!.
  - apply (re_len _ _ _ _ _ R).
  - intros k i c n Hpl. destruct (re_new _ _ _ _ _ R k i c n Hpl) as (_ & w & refs & st & H1 & H2 & H3).
    { unfold is_new, olds_of, occurs_old. rewrite Hold, lookup_empty. done. }
    eexists w, refs, st, _. split_and!; [done| |exact H2|done]. apply trace_conn.
  - apply (ei_inj _ _ (re_inv _ _ _ _ _ R)).
  - apply (re_wired _ _ _ _ _ R).
Qed.
Print Assumptions C02_first_program_as_written.

(** C03: the graph after the edit is the one the new program prescribes; nodes of
    surviving components are the same nodes, with the same buffers, and received only
    wiring messages; every other node is freshly made; nothing else is connected. *)
Theorem C03_edit_converges_and_keeps_state (L : lang) (HL : lang_ok L) blk e o new e' :
  tamely L blk e -> prog_ok L new -> plain_edit (old_ast L e) new ->
  update_ast L o e new = Ok (e', None) ->
  (forall k cs, new !! k = Some cs -> exists ids, en_info L e' !! k = Some ids /\ length ids = length cs) /\
  (forall u v, edge (en_graph L e') u v <-> wired L (en_info L e') (en_dest L e') new u v) /\
  (forall k i a j b n, placed L (en_info L e) (old_ast L e) k i a n ->
     (exists news, new !! k = Some news /\ news !! j = Some b) -> comp_eqb a b = true ->
     owner (en_info L e') n k j /\
     exists w st ms, node_weight (en_graph L e) n = Some w /\ Forall conn_msg ms /\
       foldM nmsg w.1 ms = Ok st /\ node_weight (en_graph L e') n = Some (st, w.2)) /\
  (forall k j b n, placed L (en_info L e') new k j b n ->
     (forall olds a, old_ast L e !! k = Some olds -> a ∈ olds -> comp_eqb a b = false) ->
     ~ live (en_graph L e) n /\
     exists w refs st ms, makenode (the_env L e) b = Done (w, refs) /\ Forall conn_msg ms /\
       foldM nmsg w.1 ms = Ok st /\ node_weight (en_graph L e') n = Some (st, w.2)).
Proof.
  intros Ht Hpo Hpl Hu. destruct (tamely_inv L HL _ _ Ht) as (He & Hal & _).
  pose proof (plain_tame L HL _ _ Hpl) as Htame.
  pose proof (tame_update_result L HL _ _ _ _ He Hal Hpo Htame Hu) as R. split_and!.
  - apply (re_len _ _ _ _ _ R).
  - apply (re_wired _ _ _ _ _ R).
  - intros k i a j b n (olds & Ho & Hi & Hown) (news & Hn & Hj) Heq.
    destruct (Hpl k olds news Ho Hn) as (H1 & H2 & H3).
    destruct (kept_rank L HL olds news i j a b) as (Ha & Hb & Hr); auto.
    { by apply keeps_order_intro. }
    destruct (re_kept _ _ _ _ _ R k olds news i j a b n Ho Hn Hi Hj Ha Hb Hr Hown) as [Hown' Hst].
    split; [done|].
    assert (Hl : live (en_graph L e) n) by (apply (ei_live _ _ He); right; right; by exists k, i).
    destruct Hl as [w Hw]. destruct (Hst w Hw) as (st & Hf & Hw'). eexists w, st, _.
    split_and!; [done| |exact Hf|done]. apply trace_conn.
  - intros k j b n Hp Hnone.
    destruct (re_new _ _ _ _ _ R k j b n Hp) as (H0 & w & refs & st & H1 & H2 & H3).
    { unfold is_new. rewrite occurs_old_spec. intros (a & Ha & Heq). unfold olds_of in Ha.
      destruct (old_ast L e !! k) as [olds|] eqn:Eo; [|by apply elem_of_nil in Ha].
      rewrite (Hnone olds a eq_refl Ha) in Heq. done. }
    split; [done|]. eexists w, refs, st, _. split_and!; [done| |exact H2|done]. apply trace_conn.
Qed.
Print Assumptions C03_edit_converges_and_keeps_state.

(** C05, partial: for histories of plain edits.  The general claim is refuted in
    Props_Refuted.v (two edits that repeat a component). *)
Theorem C05_no_panic_partial (L : lang) (HL : lang_ok L) blk e o code :
  tamely L blk e ->
  (forall new, parse code = Done new -> prog_ok L new /\ plain_edit (old_ast L e) new /\
     forall k cs c, new !! k = Some cs -> c ∈ cs -> makenode (the_env L e) c ≠ Crash) ->
  parse code ≠ Crash ->
  exists e' er, update L o e code = Ok (e', er).
Proof.
  intros Ht H Hnc. destruct (tamely_inv L HL _ _ Ht) as (He & Hal & _). unfold update.
  destruct (parse code) as [new|er|]; [|eauto|done].
  destruct (H new eq_refl) as (Hpo & Hpl & Hmk). apply (plain_tame L HL) in Hpl as Htame.
  pose proof (tame_update_total L HL o e new He Hal Hpo Htame Hmk) as Hok.
  destruct (update_ast L o e new) as [[e' er]|]; [eauto|done].
Qed.
Print Assumptions C05_no_panic_partial.

(** C06: the chain table, the set of connections and the buffers are unchanged; node
    states only receive wiring messages.  Programs with repeated components are
    excluded ([no_repeats]); for those the claim is refuted in Props_Refuted.v. *)
Theorem C06_resubmit_partial (L : lang) (HL : lang_ok L) blk e o p :
  tamely L blk e -> en_ast L e = Some p ->
  (forall k cs, p !! k = Some cs -> no_repeats L cs /\ forall c, c ∈ cs -> comp_eqb c c = true) ->
  (forall k cs c, p !! k = Some cs -> c ∈ cs -> makenode (the_env L e) c ≠ Crash) ->
  exists e' er, update_ast L o e p = Ok (e', er) /\
    en_info L e' = en_info L e /\ en_ast L e' = Some p /\
    (forall u v, edge (en_graph L e') u v <-> edge (en_graph L e) u v) /\
    (forall n, match node_weight (en_graph L e) n with
               | Some w => exists st ms, Forall conn_msg ms /\ foldM nmsg w.1 ms = Ok st /\
                             node_weight (en_graph L e') n = Some (st, w.2)
               | None => node_weight (en_graph L e') n = None
               end).
Proof.
  intros Ht Hast Hp Hmk. destruct (tamely_inv L HL _ _ Ht) as (He & Hal & Hm).
  assert (Hold : old_ast L e = p) by (unfold old_ast; by rewrite Hast).
  assert (Hpo : prog_ok L p) by (rewrite <- Hold; apply (al_ok _ _ Hal)).
  assert (Hpl : plain_edit (old_ast L e) p).
  { rewrite Hold. intros k olds news Ho Hn. rewrite Ho in Hn. injection Hn as <-.
    destruct (Hp k olds Ho) as [Hnr _]. split_and!; auto.
    intros i i' j j' a a' b b' H1 H2 H3 H4 H5 H6 Hlt.
    assert (i = j) as <- by eauto. assert (i' = j') as <- by eauto. done. }
  pose proof (plain_tame L HL _ _ Hpl) as Htame.
  pose proof (tame_update_total L HL o e p He Hal Hpo Htame Hmk) as Hok.
  destruct (update_ast L o e p) as [[e' er]|] eqn:Hu; [|done]. exists e', er. split; [done|].
  destruct er as [er|].
  { pose proof (update_ast_fail L _ _ _ _ _ He Hu) as [H1 H2 _ _ H3 H4 _ _ _ _ _ _].
    split_and!; [done|congruence| |].
    - intros u v. unfold edge. by rewrite H2.
    - intros n. rewrite H1. destruct (node_weight (en_graph L e) n) as [w|]; [|done].
      exists w.1, []. split_and!; [constructor|done|by destruct w]. }
  pose proof (tame_update_result L HL _ _ _ _ He Hal Hpo Htame Hu) as R.
  assert (Hkept : forall k cs i c n, p !! k = Some cs -> cs !! i = Some c -> owner (en_info L e) n k i ->
    owner (en_info L e') n k i /\ forall w, node_weight (en_graph L e) n = Some w ->
      exists st, foldM nmsg w.1 (trace (o_wild o) (en_info L e') k i (all_refs c)) = Ok st /\
        node_weight (en_graph L e') n = Some (st, w.2)).
  { intros k cs i c n Hk Hc Hown. destruct (Hp k cs Hk) as [Hnr Hrefl].
    assert (Hcc : comp_eqb c c = true) by (apply Hrefl; by eapply elem_of_list_lookup_2).
    assert (Ho : old_ast L e !! k = Some cs) by (by rewrite Hold).
    destruct (Hpl k cs cs Ho Hk) as (_ & _ & Hso).
    destruct (kept_rank L HL cs cs i i c c) as (Ha & Hb & Hr); auto.
    { by apply keeps_order_intro. }
    apply (re_kept _ _ _ _ _ R k cs cs i i c c n); auto. }
  assert (Hinfo : en_info L e' = en_info L e).
  { apply map_eq. intros k. destruct (p !! k) as [cs|] eqn:Ek.
    - destruct (al_len _ _ Hal k cs) as (ids & Hids & Hlen); [by rewrite Hold|].
      destruct (re_len _ _ _ _ _ R k cs Ek) as (ids' & Hids' & Hlen'). rewrite Hids, Hids'. f_equal.
      apply list_eq. intros i. destruct (ids !! i) as [n|] eqn:Ei.
      + destruct (lookup_lt_is_Some_2 cs i) as [c Hc]; [rewrite <- Hlen; by eapply lookup_lt_Some|].
        destruct (Hkept k cs i c n Ek Hc) as [(x & Hx & Hxi) _]; [by exists ids|].
        rewrite Hids' in Hx. by injection Hx as <-.
      + apply lookup_ge_None in Ei. apply lookup_ge_None. lia.
    - rewrite (re_gone _ _ _ _ _ R k Ek). case_decide as Hd; [done|].
      destruct (en_info L e !! k) as [ids|] eqn:Ei; [|done].
      destruct Hd. apply (al_only _ _ Hal k ids Ei). by rewrite Hold. }
  assert (Hdest : en_dest L e' = en_dest L e) by apply (re_dest _ _ _ _ _ R).
  split_and!; [done|apply (re_ast _ _ _ _ _ R)| |].
  - intros u v. rewrite (re_wired _ _ _ _ _ R), (Hm p Hast), Hinfo, Hdest. done.
  - intros n. destruct (node_weight (en_graph L e) n) as [w|] eqn:Ew.
    + assert (Hl : live (en_graph L e) n) by (unfold live; eauto). apply (ei_live _ _ He) in Hl.
      destruct Hl as [->|[->|(k & i & ids & Hk & Hi)]].
      * destruct (re_dest_w _ _ _ _ _ R w Ew) as (st & Hst & Hw). eexists st, _. split_and!; [|exact Hst|done].
        apply dest_conn.
      * exists w.1, []. rewrite (re_input_w _ _ _ _ _ R), Ew. split_and!; [constructor|done|by destruct w].
      * destruct (p !! k) as [cs|] eqn:Ek.
        -- destruct (al_len _ _ Hal k cs) as (ids' & Hids & Hlen); [by rewrite Hold|].
           rewrite Hk in Hids. injection Hids as <-.
           destruct (lookup_lt_is_Some_2 cs i) as [c Hc]; [rewrite <- Hlen; by eapply lookup_lt_Some|].
           destruct (Hkept k cs i c n Ek Hc) as [_ Hst]; [by exists ids|].
           destruct (Hst w Ew) as (st & Hf & Hw). eexists st, _. split_and!; [|exact Hf|done]. apply trace_conn.
        -- assert (k = input_name) as -> by (apply (al_only _ _ Hal k ids Hk); by rewrite Hold).
           destruct (al_input _ _ Hal ids Hk) as [n' ->]. destruct i; [|done]. injection Hi as ->.
           exists w.1, []. rewrite (re_input_chain _ _ _ _ _ R n Hk), Ew. split_and!; [constructor|done|by destruct w].
    + assert (Hnl : ~ live (en_graph L e') n).
      { intros Hl. apply (ei_live _ _ (re_inv _ _ _ _ _ R)) in Hl.
        rewrite Hinfo, Hdest, (re_input _ _ _ _ _ R) in Hl. apply (ei_live _ _ He) in Hl.
        unfold live in Hl. rewrite Ew in Hl. by destruct Hl. }
      unfold live in Hnl. destruct (node_weight (en_graph L e') n); [|done]. exfalso. eauto.
Qed.
Print Assumptions C06_resubmit_partial.

(** C08: for every history that does not panic, repeats and reorderings included. *)
Theorem C08_missing_references_reported (L : lang) (HL : lang_ok L) blk past e o code e' er :
  history L blk past e -> update L o e code = Ok (e', er) ->
  (forall new, parse code = Done new -> forall k, new !! k ≠ Some []) ->
  let available (new : gmap string (list (comp L))) k :=
    is_Some (new !! k) \/
    (k = "~input"%string /\ is_Some (en_info L e !! k) /\ old_ast L e !! k = None) in
  let used (new : gmap string (list (comp L))) r :=
    exists k cs c, new !! k = Some cs /\ c ∈ cs /\ r ∈ all_refs c in
  match er with
  | None => exists new, parse code = Done new /\
      forall r, used new r -> exists k, refers r k /\ available new k
  | Some (NonExistReference r) => parse code = Fail (NonExistReference r) \/
      exists new, parse code = Done new /\ used new r /\ forall k, refers r k -> ~ available new k
  | Some _ => True
  end.
Proof.
  intros [obs Hr] Hu Hne available used0.
  assert (He : einv L e) by (eapply run_inv; [apply engine_new_inv|exact Hr]).
  assert (Hk : keys_ok L e) by (eapply run_keys; [apply engine_new_inv|apply new_engine_keys|exact Hr]).
  unfold update in Hu. destruct (parse code) as [new|er0|] eqn:Ep; [| |done].
  - pose proof (ref_check_exact L HL _ _ _ _ _ He Hk (Hne new eq_refl) Hu) as H.
    destruct er as [[| |]|]; [done| |done|].
    + right. exists new. destruct H as [H1 H2]. split_and!; auto. intros k Hk1 [H3|(-> & H3)]; eapply (H2 _ Hk1); [by left|by right].
    + exists new. split; [done|]. intros r Hused. destruct (H r Hused) as (k & H1 & H2). exists k. split; [done|].
      destruct H2 as [H2|(-> & H2)]; [by left|by right].
  - injection Hu as <- <-. destruct er0; auto.
Qed.
Print Assumptions C08_missing_references_reported.

(** C09. *)
Theorem C09_loose_reference (L : lang) (HL : lang_ok L) blk e p k i c v pre :
  tamely L blk e -> en_ast L e = Some p -> placed L (en_info L e) p k i c v ->
  all_refs c = [(pre ++ "..")%string] -> no_dots pre ->
  forall u, edge (en_graph L e) u v <->
    (exists j, i = S j /\ owner (en_info L e) u k j) \/
    (exists name rest, name = (pre ++ rest)%string /\ chain_end (en_info L e) name u).
Proof.
  intros Ht Hast Hpl Hr Hnd u. destruct (tamely_inv L HL _ _ Ht) as (He & Hal & Hm).
  destruct (loose_ref pre Hnd) as [Hdd Hrd]. pose proof Hpl as (cs & Hk & Hc & Hown).
  assert (Hrefers : forall k', refers (pre ++ "..") k' <-> exists rest, k' = (pre ++ rest)%string).
  { intros k'. unfold refers. rewrite Hdd, Hrd. apply starts_with_spec. }
  rewrite (Hm p Hast). unfold wired. split.
  - intros [(k' & j & Hu & Hv)|[(k' & _ & _ & Hd)|(k' & j & c' & r & k2 & (cs' & Hk' & Hc' & Hv) & Hr' & Href & Hend)]].
    + left. destruct (ei_inj _ _ He _ _ _ _ _ Hown Hv) as [-> ->]. eauto.
    + exfalso. subst v. apply (ei_dest _ _ He). by exists k, i.
    + right. destruct (ei_inj _ _ He _ _ _ _ _ Hown Hv) as [-> ->].
      rewrite Hk in Hk'. injection Hk' as <-. rewrite Hc in Hc'. injection Hc' as <-.
      rewrite Hr in Hr'. apply elem_of_list_singleton in Hr' as ->.
      apply Hrefers in Href as [rest Hrest]. eauto.
  - intros [(j & -> & Hu)|(name & rest & Hname & Hend)].
    + left. by exists k, j.
    + right; right. exists k, i, c, (pre ++ "..")%string, name. split_and!; auto.
      * rewrite Hr. by apply elem_of_list_singleton.
      * apply Hrefers. eauto.
Qed.
Print Assumptions C09_loose_reference.

(** C10. *)
Theorem C10_audible_chains (L : lang) (HL : lang_ok L) blk e p :
  tamely L blk e -> en_ast L e = Some p ->
  forall u, edge (en_graph L e) u (en_dest L e) <->
    exists k cs, p !! k = Some cs /\ ~ (exists a b, k = (a ++ String "~" b)%string) /\
      chain_end (en_info L e) k u.
Proof.
  intros Ht Hast u. destruct (tamely_inv L HL _ _ Ht) as (He & Hal & Hm).
  assert (Hold : old_ast L e = p) by (unfold old_ast; by rewrite Hast).
  rewrite (Hm p Hast). unfold wired. split.
  - intros [(k & i & _ & Hv)|[(k & Hc & Hend & _)|(k & i & c & r & k' & (cs & _ & _ & Hv) & _)]].
    + exfalso. apply (ei_dest _ _ He). by exists k, (S i).
    + destruct (p !! k) as [cs|] eqn:Ek.
      * exists k, cs. split_and!; auto. rewrite <- contains_char_spec. by rewrite Hc.
      * exfalso. destruct Hend as (ids & Hids & _).
        assert (k = input_name) as -> by (apply (al_only _ _ Hal k ids Hids); by rewrite Hold).
        vm_compute in Hc. done.
    + exfalso. apply (ei_dest _ _ He). by exists k, i.
  - intros (k & cs & Hk & Hc & Hend). right; left. exists k. split_and!; auto.
    rewrite <- contains_char_spec in Hc. by destruct (contains_char "~" k).
Qed.
Print Assumptions C10_audible_chains.

(** ** Non-vacuity *)

Lemma toy_ok : lang_ok toy.
Proof.
  split.
  - intros ev [n|l|s] w refs; simpl.
    + by intros [= <- <-] r.
    + by intros [= <- <-] r.
    + case_match; [|done]. by intros [= <- <-] r.
  - intros [] []; simpl; try done.
    + rewrite !Nat.eqb_eq. by intros ->.
    + rewrite !bool_decide_eq_true. by intros ->.
    + rewrite !bool_decide_eq_true. by intros ->.
  - intros [] [] []; simpl; try done.
    + rewrite !Nat.eqb_eq. congruence.
    + rewrite !bool_decide_eq_true. congruence.
    + rewrite !bool_decide_eq_true. congruence.
  - intros ev [n|l|s] er; simpl; try done. case_match; [done|]. intros [= <-]. eauto.
  - intros [] []; simpl; try done. by rewrite bool_decide_eq_true.
  - done.
Qed.

Lemma toy_no_crash ev c : makenode (l := toy) ev c ≠ Crash.
Proof. destruct c; simpl; try done. case_match; done. Qed.

(** [o: 1 + ~a.. + 7] becomes [o: 1 + ~a..; p: 3] and ~a1, ~a2 swap roles. *)
Definition ex_first : gmap string (list tcomp) :=
  list_to_map [("o", [TConst 1; TAdd ["~a.."]; TConst 7]); ("~a1", [TConst 5]); ("~a2", [TConst 6])]%string.
Definition ex_second : gmap string (list tcomp) :=
  list_to_map [("o", [TConst 1; TConst 2; TAdd ["~a.."]]); ("~a1", [TConst 5; TConst 8]); ("p", [TConst 3])]%string.
Definition ex_run1 : engine toy :=
  match update_ast toy id_orders (engine_new toy) ex_first with Ok (e, _) => e | Panic => engine_new toy end.
Definition ex_run2 : engine toy :=
  match update_ast toy rev_orders ex_run1 ex_second with Ok (e, _) => e | Panic => engine_new toy end.
Definition ex_first_text : text toy :=
  Some [("o", [TConst 1; TAdd ["~a.."]; TConst 7]); ("~a1", [TConst 5]); ("~a2", [TConst 6])]%string.

Lemma ok_of {A B} (r : res (A * option B)) (d : A) :
  match r with Ok (_, None) => true | _ => false end = true ->
  r = Ok (match r with Ok (e, _) => e | Panic => d end, None).
Proof. by destruct r as [[e [|]]|]. Qed.

Lemma ex_upd1 : update_ast toy id_orders (engine_new toy) ex_first = Ok (ex_run1, None).
Proof. apply ok_of. vm_compute. reflexivity. Qed.
Lemma ex_upd2 : update_ast toy rev_orders ex_run1 ex_second = Ok (ex_run2, None).
Proof. apply ok_of. vm_compute. reflexivity. Qed.

Lemma ex_step1 : step toy 128 (engine_new toy) (CUpdate toy id_orders ex_first_text) = Ok (ex_run1, ODone toy).
Proof.
  unfold step, update. change (parse (l := toy) ex_first_text) with (Done (A := gmap string (list tcomp)) ex_first).
  cbv iota. rewrite ex_upd1. reflexivity.
Qed.

Lemma ex_prog_ok (l : list (string * list tcomp)) :
  forallb (fun kv => negb (String.eqb kv.1 input_name) && match kv.2 with [] => false | _ => true end) l = true ->
  prog_ok toy (list_to_map l).
Proof.
  intros H. rewrite forallb_forall in H. split.
  - apply not_elem_of_list_to_map. intros Hin. apply elem_of_list_fmap in Hin as ([k cs] & Hk & Hin).
    apply elem_of_list_In in Hin. apply H in Hin. simpl in *. subst k. by rewrite String.eqb_refl in Hin.
  - intros k Hk. apply elem_of_list_to_map_2 in Hk. apply elem_of_list_In in Hk. apply H in Hk. simpl in Hk.
    by rewrite andb_false_r in Hk.
Qed.

Definition norep_b (cs : list tcomp) : bool :=
  forallb (fun i => forallb (fun j =>
    match cs !! i, cs !! j with Some a, Some b => implb (tcomp_eqb a b) (Nat.eqb i j) | _, _ => true end)
    (seq 0 (length cs))) (seq 0 (length cs)).
Definition order_b (x y : list tcomp) : bool :=
  forallb (fun i => forallb (fun i' => forallb (fun j => forallb (fun j' =>
    match x !! i, x !! i', y !! j, y !! j' with
    | Some a, Some a', Some b, Some b' => implb (tcomp_eqb a b && tcomp_eqb a' b' && Nat.ltb i i') (Nat.ltb j j')
    | _, _, _, _ => true end)
    (seq 0 (length y))) (seq 0 (length y))) (seq 0 (length x))) (seq 0 (length x)).
Lemma ex_plain (l1 l2 : list (string * list tcomp)) :
  forallb (fun p => forallb (fun q => implb (String.eqb p.1 q.1)
    (norep_b p.2 && norep_b q.2 && order_b p.2 q.2)) l2) l1 = true ->
  plain_edit (L := toy) (list_to_map l1) (list_to_map l2).
Proof.
  intros H k x y Ho Hn. apply elem_of_list_to_map_2 in Ho, Hn. apply elem_of_list_In in Ho, Hn.
  rewrite forallb_forall in H. apply H in Ho. rewrite forallb_forall in Ho. apply Ho in Hn. simpl in Hn.
  rewrite String.eqb_refl in Hn. simpl in Hn. apply andb_true_iff in Hn as [Hn Hxy].
  apply andb_true_iff in Hn as [Hx Hy]. clear H Ho.
  assert (Hnr : forall cs : list tcomp, norep_b cs = true -> no_repeats toy cs).
  { intros cs Hcs i j a b Hi Hj Hab. change (comp toy) with tcomp in *. unfold norep_b in Hcs. rewrite forallb_forall in Hcs.
    assert (Hii : In i (seq 0 (length cs))) by (apply in_seq; apply lookup_lt_Some in Hi; lia).
    assert (Hjj : In j (seq 0 (length cs))) by (apply in_seq; apply lookup_lt_Some in Hj; lia).
    apply Hcs in Hii. rewrite forallb_forall in Hii. apply Hii in Hjj. rewrite Hi, Hj in Hjj.
    cbn in Hab. rewrite Hab in Hjj. simpl in Hjj. by apply Nat.eqb_eq in Hjj. }
  split_and!; [by apply Hnr|by apply Hnr|].
  intros i i' j j' a a' b b' Hi Hi' Hj Hj' H1 H2 Hlt. change (comp toy) with tcomp in *.
  assert (Q1 : In i (seq 0 (length x))) by (apply in_seq; apply lookup_lt_Some in Hi; lia).
  assert (Q2 : In i' (seq 0 (length x))) by (apply in_seq; apply lookup_lt_Some in Hi'; lia).
  assert (Q3 : In j (seq 0 (length y))) by (apply in_seq; apply lookup_lt_Some in Hj; lia).
  assert (Q4 : In j' (seq 0 (length y))) by (apply in_seq; apply lookup_lt_Some in Hj'; lia).
  unfold order_b in Hxy.
  rewrite forallb_forall in Hxy. apply Hxy in Q1. rewrite forallb_forall in Q1. apply Q1 in Q2.
  rewrite forallb_forall in Q2. apply Q2 in Q3. rewrite forallb_forall in Q3. apply Q3 in Q4.
  rewrite Hi, Hi', Hj, Hj' in Q4. cbn in H1, H2. rewrite H1, H2 in Q4. simpl in Q4.
  apply Nat.ltb_lt in Hlt. rewrite Hlt in Q4. simpl in Q4. by apply Nat.ltb_lt.
Qed.

Lemma ex_ok1 : prog_ok toy ex_first.
Proof. unfold ex_first. apply ex_prog_ok. vm_compute. reflexivity. Qed.
Lemma ex_ok2 : prog_ok toy ex_second.
Proof. unfold ex_second. apply ex_prog_ok. vm_compute. reflexivity. Qed.
Lemma ex_ast1 : en_ast toy ex_run1 = Some ex_first.
Proof. eapply update_ast_ok_ast, ex_upd1. Qed.
Lemma ex_tamely : tamely toy 128 ex_run1.
Proof.
  eapply tm_step; [apply tm_new| |apply ex_step1]. cbn [tame_call]. split; [exact ex_ok1|].
  intros k olds news. unfold old_ast. simpl. by rewrite lookup_empty.
Qed.
Lemma ex_plain12 : plain_edit (L := toy) (old_ast toy ex_run1) ex_second.
Proof. unfold old_ast. rewrite ex_ast1. cbv iota beta. unfold ex_first, ex_second. apply ex_plain. vm_compute. reflexivity. Qed.
Lemma ex_plain11 : plain_edit (L := toy) ex_first ex_first.
Proof. unfold ex_first. apply ex_plain. vm_compute. reflexivity. Qed.

Example C02_case : tamely toy 128 (engine_new toy) /\ prog_ok toy ex_first /\
  update_ast toy id_orders (engine_new toy) ex_first = Ok (ex_run1, None) /\
  placed toy (en_info toy ex_run1) ex_first "o" 1 (TAdd ["~a.."]) 6 /\
  edge (en_graph toy ex_run1) 3 6 /\ edge (en_graph toy ex_run1) 4 6 /\ edge (en_graph toy ex_run1) 5 6 /\
  edge (en_graph toy ex_run1) 7 0.
Proof.
  split_and!; [apply tm_new|exact ex_ok1|exact ex_upd1| | | | |].
  - eexists. split_and!; [vm_compute; reflexivity|reflexivity|]. eexists. split; vm_compute; reflexivity.
  - vm_compute. repeat (first [apply elem_of_list_here|apply elem_of_list_further]).
  - vm_compute. repeat (first [apply elem_of_list_here|apply elem_of_list_further]).
  - vm_compute. repeat (first [apply elem_of_list_here|apply elem_of_list_further]).
  - vm_compute. repeat (first [apply elem_of_list_here|apply elem_of_list_further]).
Qed.

Example C03_case :
  tamely toy 128 ex_run1 /\ prog_ok toy ex_second /\
  plain_edit (L := toy) (old_ast toy ex_run1) ex_second /\
  update_ast toy rev_orders ex_run1 ex_second = Ok (ex_run2, None) /\
  (* the new node 8 comes between the kept nodes 5 and 6 *)
  en_info toy ex_run1 !! "o"%string = Some [5; 6; 7] /\
  en_info toy ex_run2 !! "o"%string = Some [5; 8; 6] /\
  edge (en_graph toy ex_run2) 9 6 /\ chain_end (en_info toy ex_run2) "~a1" 9.
Proof.
  split_and!; [exact ex_tamely|exact ex_ok2|exact ex_plain12|exact ex_upd2| | | |].
  - vm_compute. reflexivity.
  - vm_compute. reflexivity.
  - vm_compute. repeat (first [apply elem_of_list_here|apply elem_of_list_further]).
  - eexists. split; vm_compute; reflexivity.
Qed.

Example C05_case : exists e' er, update toy rev_orders ex_run1 ex_first_text = Ok (e', er).
Proof.
  apply (C05_no_panic_partial toy toy_ok 128); [exact ex_tamely| |done].
  intros new Hnew. change (parse (l := toy) ex_first_text) with (Done (A := gmap string (list tcomp)) ex_first) in Hnew.
  injection Hnew as <-. split_and!; [exact ex_ok1| |].
  - unfold old_ast. rewrite ex_ast1. exact ex_plain11.
  - intros k cs c _ _. apply toy_no_crash.
Qed.

Example C06_case : exists e' er, update_ast toy rev_orders ex_run1 ex_first = Ok (e', er) /\
  en_info toy e' = en_info toy ex_run1.
Proof.
  destruct (C06_resubmit_partial toy toy_ok 128 ex_run1 rev_orders ex_first) as (e' & er & H1 & H2 & _).
  - exact ex_tamely.
  - exact ex_ast1.
  - intros k cs Hk. split; [apply (ex_plain11 k cs cs Hk Hk)|]. intros [n|l|t] _; cbn.
    + by apply Nat.eqb_eq.
    + by apply bool_decide_eq_true.
    + by apply bool_decide_eq_true.
  - intros k cs c _ _. apply toy_no_crash.
  - exists e', er. split; [exact H1|exact H2].
Qed.

(** One missing reference is reported, the loose one with matches is not. *)
Definition ex_bad_text : text toy := Some [("o", [TAdd ["~b.."]; TAdd ["~c"; "~b"]]); ("~b", [TConst 1])]%string.
Example C08_case : history toy 128 [] (engine_new toy) /\
  exists e', update toy rev_orders (engine_new toy) ex_bad_text = Ok (e', Some (NonExistReference "~c")).
Proof.
  split; [by exists []|].
  assert (H : match update toy rev_orders (engine_new toy) ex_bad_text with Ok (_, er) => er | Panic => None end
              = Some (NonExistReference "~c")) by (vm_compute; reflexivity).
  destruct (update toy rev_orders (engine_new toy) ex_bad_text) as [[e' er]|]; [|done].
  exists e'. by rewrite H.
Qed.

Example C09_case : tamely toy 128 ex_run1 /\ en_ast toy ex_run1 = Some ex_first /\
  placed toy (en_info toy ex_run1) ex_first "o" 1 (TAdd ["~a.."]) 6 /\ no_dots "~a" /\
  all_refs (l := toy) (TAdd ["~a.."]) = [("~a" ++ "..")%string].
Proof.
  split_and!; [exact ex_tamely|exact ex_ast1| |vm_compute; reflexivity|reflexivity].
  eexists. split_and!; [vm_compute; reflexivity|reflexivity|]. eexists. split; vm_compute; reflexivity.
Qed.

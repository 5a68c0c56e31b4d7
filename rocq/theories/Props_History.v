(** * Properties of whole histories of API calls: C01, C07. *)
From Verif Require Import HistoryProofs Toy.
Local Open Scope nat_scope.

(** A history from a fresh engine. *)
Definition history (L : lang) (blk : Z) (cs : list (call L)) (e : engine L) : Prop :=
  exists obs, run L blk (engine_new L) cs = Ok (e, obs).

(** C01.  [later] is any sequence of calls whose updates, if any, fail as well (a
    successful update is free to give its new nodes other internal numbers).  It
    panics in neither or in both of the runs with and without the failed update, and
    every observation (error values, blocks of samples) is equal. *)
Theorem C01_failed_update_invisible (L : lang) blk past (e e1 : engine L) o code er :
  history L blk past e ->
  update L o e code = Ok (e1, Some er) ->
  (forall n, node_weight (en_graph L e1) n = node_weight (en_graph L e) n) /\
  edges (en_graph L e1) = edges (en_graph L e) /\
  en_info L e1 = en_info L e /\ en_ast L e1 = en_ast L e /\
  forall later obs,
    Forall2 (fun c ob => match c with CUpdate _ _ _ => exists er, ob = OError L er | _ => True end)
            later obs ->
    (exists e2, run L blk e1 later = Ok (e2, obs)) <-> (exists e2, run L blk e later = Ok (e2, obs)).
Proof.
  intros [obs0 Hr] Hu.
  assert (He : einv L e) by (eapply run_inv; [apply engine_new_inv|exact Hr]).
  assert (Hs : step L blk e (CUpdate L o code) = Ok (e1, OError L er)) by (simpl; by rewrite Hu).
  pose proof (step_inv _ _ _ _ _ _ He Hs) as He1.
  assert (Hq : eqv L e1 e).
  { unfold update in Hu. destruct (parse code) as [new|er0|]; [|injection Hu as <- <-; apply eqv_refl|done].
    by eapply update_ast_fail. }
  pose proof Hq as [H1 H2 _ _ H3 H4 _ _ _ _ _ _]. split_and!; auto.
  intros later obs Hquiet. split; intros [e2 H].
  - destruct (run_eqv L blk e1 e later e2 obs He1 He Hq H) as (e3 & ? & _); [exact Hquiet|]. by exists e3.
  - destruct (run_eqv L blk e e1 later e2 obs He He1 (eqv_sym _ _ _ Hq) H) as (e3 & ? & _); [exact Hquiet|].
    by exists e3.
Qed.
Print Assumptions C01_failed_update_invisible.

(** C07: after any history the live nodes are the output node, the context's input
    node and the nodes in the chain table, and the table lists no node twice. *)
Theorem C07_no_leak (L : lang) blk past (e : engine L) :
  history L blk past e ->
  let table := List.concat (map_to_list (en_info L e)).*2 in
  NoDup (en_dest L e :: en_input L e :: table) /\
  forall n, live (en_graph L e) n <-> n ∈ en_dest L e :: en_input L e :: table.
Proof.
  intros [obs0 Hr] table.
  assert (He : einv L e) by (eapply run_inv; [apply engine_new_inv|exact Hr]).
  destruct He as [Hwf _ Hinj Hne Hd Hi Hl _].
  assert (Htab : forall n, n ∈ table <-> in_table (en_info L e) n).
  { intros n. unfold table. rewrite elem_of_list_In, in_concat. split.
    - intros (ids & Hids & Hn). apply elem_of_list_In, elem_of_list_fmap in Hids as ([k ids'] & -> & Hk).
      apply elem_of_map_to_list in Hk. apply elem_of_list_In, elem_of_list_lookup in Hn as [i Hn].
      exists k, i, ids'. done.
    - intros (k & i & ids & Hk & Hn). exists ids. split.
      + apply elem_of_list_In, elem_of_list_fmap. exists (k, ids). split; [done|]. by apply elem_of_map_to_list.
      + apply elem_of_list_In. by eapply elem_of_list_lookup_2. }
  split.
  - assert (NoDup table).
    { unfold table. clear -Hinj.
      pose proof (NoDup_fst_map_to_list (en_info L e)) as Hnd.
      assert (Hsub : forall k ids, (k, ids) ∈ map_to_list (en_info L e) -> en_info L e !! k = Some ids).
      { intros k ids. by rewrite elem_of_map_to_list. }
      induction (map_to_list (en_info L e)) as [|[k ids] l IH]; simpl; [constructor|].
      rewrite fmap_cons in Hnd. apply NoDup_cons in Hnd as [Hk Hnd].
      apply NoDup_app. split_and!.
      + apply NoDup_alt. intros i j x Hi Hj.
        assert (Hkk : en_info L e !! k = Some ids) by (apply Hsub; set_solver).
        destruct (Hinj x k i k j) as [_ ?]; [by exists ids|by exists ids|]. done.
      + intros x Hx Hc. apply elem_of_list_In, in_concat in Hc as (ids' & Hids' & Hx').
        apply elem_of_list_In, elem_of_list_fmap in Hids' as ([k' ids''] & -> & Hk').
        apply elem_of_list_lookup in Hx as [i Hx]. apply elem_of_list_In, elem_of_list_lookup in Hx' as [j Hx'].
        destruct (Hinj x k i k' j) as [-> _].
        * exists ids. split; [apply Hsub; set_solver|done].
        * exists ids''. split; [apply Hsub; set_solver|done].
        * apply Hk. apply elem_of_list_fmap. by exists (k', ids'').
      + apply IH; [done|]. intros; apply Hsub; set_solver. }
    apply NoDup_cons. split.
    + intros [?|Hin]%elem_of_cons; [done|]. by apply Hd, Htab.
    + apply NoDup_cons. split; [|done]. intros Hin. by apply Hi, Htab.
  - intros n. rewrite Hl, !elem_of_cons, Htab. done.
Qed.
Print Assumptions C07_no_leak.

(** Non-vacuity: a program is playing, a further update fails on a missing reference
    after two nodes have been created, and the music goes on. *)
Definition ex_prog1 : text toy := Some [("o", [TConst 1; TAdd ["~a"]]); ("~a", [TConst 5])]%string.
Definition ex_prog2 : text toy := Some [("o", [TConst 1; TConst 2; TAdd ["~b"]]); ("~a", [TConst 5])]%string.
Definition ex_next : call toy := CNext toy (fun _ => id_shuffle) [].
Definition ex_past : list (call toy) := [CUpdate toy id_orders ex_prog1; ex_next].
(** The value of a computation that is known to succeed. *)
Definition ex_e : engine toy :=
  match run toy 128 (engine_new toy) ex_past with Ok (e, _) => e | Panic => engine_new toy end.
Definition ex_e1 : engine toy :=
  match update toy rev_orders ex_e ex_prog2 with Ok (e, _) => e | Panic => engine_new toy end.
Definition ex_later : list (call toy) := [ex_next; CUpdate toy id_orders None; ex_next].
Example C01_case :
  history toy 128 ex_past ex_e /\
  update toy rev_orders ex_e ex_prog2 = Ok (ex_e1, Some (NonExistReference "~b")) /\
  (exists e2, run toy 128 ex_e1 ex_later =
     Ok (e2, [OBlock toy [6]; OError toy ParsingError; OBlock toy [6]])) /\
  free (en_graph toy ex_e1) ≠ free (en_graph toy ex_e).
Proof.
  split_and!.
  - unfold history, ex_e. destruct (run toy 128 (engine_new toy) ex_past) as [[e ob]|] eqn:E; [by exists ob|].
    exfalso. assert (Hn : is_ok (run toy 128 (engine_new toy) ex_past)) by (vm_compute; exact I). by rewrite E in Hn.
  - unfold ex_e1. destruct (update toy rev_orders ex_e ex_prog2) as [[e er]|] eqn:E.
    + assert (Hs : match update toy rev_orders ex_e ex_prog2 with Ok (_, er) => er | Panic => None end
                   = Some (NonExistReference "~b")) by (vm_compute; reflexivity).
      rewrite E in Hs. by rewrite Hs.
    + exfalso. assert (Hn : is_ok (update toy rev_orders ex_e ex_prog2)) by (vm_compute; exact I). by rewrite E in Hn.
  - assert (Hs : match run toy 128 ex_e1 ex_later with Ok (_, ob) => ob | Panic => [] end
                 = [OBlock toy [6]; OError toy ParsingError; OBlock toy [6]]) by (vm_compute; reflexivity).
    destruct (run toy 128 ex_e1 ex_later) as [[e2 ob]|]; [|done]. exists e2. by rewrite Hs.
  - vm_compute. discriminate.
Qed.

(** * Session: running the whole model (parser, engine, nodes) on concrete sessions.
    Used for counterexamples and to show that hypotheses can be met. *)
From Verif Require Export Props_Syntax Demo Toy LiveProofs Instance InstanceProofs.
From Coq Require Import Lia.
Local Open Scope nat_scope.

(** ** Deciding that a history is tame *)

Section check.
  Context (L : lang).
  Notation ast := (gmap string (list (comp L))).

  Definition prog_ok_b (p : ast) : bool :=
    match p !! input_name with None => true | Some _ => false end &&
    forallb (fun kv : string * list (comp L) => match kv.2 with [] => false | _ => true end) (map_to_list p).
  Definition keeps_b (olds news : list (comp L)) : bool :=
    (fix go l1 l2 := match l1, l2 with
                     | [], [] => true
                     | a :: l1, b :: l2 => comp_eqb a b && go l1 l2
                     | _, _ => false
                     end) (filter (occurs_new L news) olds) (filter (occurs_old L olds) news).
  Definition unique_b (news : list (comp L)) : bool :=
    forallb (fun i => forallb (fun j =>
      match news !! i, news !! j with
      | Some a, Some b => implb (comp_eqb a b && match all_refs a with [] => false | _ => true end) (Nat.eqb i j)
      | _, _ => true
      end) (seq 0 (length news))) (seq 0 (length news)).
  Definition tame_b (old new : ast) : bool :=
    forallb (fun kv : string * list (comp L) =>
      match new !! kv.1 with Some news => keeps_b kv.2 news && unique_b news | None => true end) (map_to_list old).

  Lemma prog_ok_b_spec p : prog_ok_b p = true -> prog_ok L p.
  Proof.
    intros [H1 H2]%andb_true_iff. split; [by destruct (p !! input_name)|].
    intros k Hk%elem_of_map_to_list%elem_of_list_In. rewrite forallb_forall in H2. by apply H2 in Hk.
  Qed.
  Lemma keeps_b_spec olds news : keeps_b olds news = true -> keeps_order L olds news.
  Proof.
    unfold keeps_b, keeps_order. generalize (filter (occurs_old L olds) news) as l2.
    generalize (filter (occurs_new L news) olds) as l1.
    induction l1 as [|a l1 IH]; intros [|b l2]; try done. intros [H1 H2]%andb_true_iff. constructor; auto.
  Qed.
  Lemma unique_b_spec news : unique_b news = true -> unique_refs L news.
  Proof.
    unfold unique_b. intros H i j a b Hi Hj He Hr. rewrite forallb_forall in H.
    assert (Q1 : In i (seq 0 (length news))) by (apply in_seq; apply lookup_lt_Some in Hi; lia).
    assert (Q2 : In j (seq 0 (length news))) by (apply in_seq; apply lookup_lt_Some in Hj; lia).
    apply H in Q1. rewrite forallb_forall in Q1. apply Q1 in Q2. rewrite Hi, Hj, He in Q2.
    destruct (all_refs a); [done|]. by apply Nat.eqb_eq.
  Qed.
  Lemma tame_b_spec old new : tame_b old new = true -> tame L old new.
  Proof.
    unfold tame_b. intros H k olds news Ho Hn. rewrite forallb_forall in H.
    apply elem_of_map_to_list, elem_of_list_In, H in Ho. cbn [fst snd] in Ho. rewrite Hn in Ho.
    apply andb_true_iff in Ho as [H1 H2]. split; [by apply keeps_b_spec|by apply unique_b_spec].
  Qed.

  (** The engine after some calls, if none panics and all submissions are tame. *)
  Fixpoint tame_run (blk : Z) (e : engine L) (cs : list (call L)) : option (engine L) :=
    match cs with
    | [] => Some e
    | c :: cs' =>
        let ok := match c with
                  | CUpdate _ _ code => match parse code with
                                        | Done new => prog_ok_b new && tame_b (old_ast L e) new
                                        | _ => true end
                  | _ => true
                  end in
        if ok then match step L blk e c with Ok (e', _) => tame_run blk e' cs' | Panic => None end else None
    end.
  Lemma tame_run_spec blk e cs e' : tamely L blk e -> tame_run blk e cs = Some e' -> tamely L blk e'.
  Proof.
    revert e. induction cs as [|c cs IH]; intros e Ht; simpl; [by intros [= <-]|].
    destruct (match c with CUpdate _ _ code => _ | _ => true end) eqn:Ec; [|done].
    destruct (step L blk e c) as [[e1 ob]|] eqn:Es; [|done]. apply IH. eapply tm_step; [exact Ht| |exact Es].
    destruct c; try done. simpl in *. destruct (parse code); [|done|done].
    apply andb_true_iff in Ec as [H1 H2]. split; [by apply prog_ok_b_spec|by apply tame_b_spec].
  Qed.
End check.

(** ** Sessions of the language with the nodes of Demo.v *)

Definition glicol : lang := glang demo (get_ast c64 no_math).

(** What the caller of each function sees. *)
Inductive seen := Quiet | Refused (er : engine_error) | Played (b : list (list f32)) | Panicked.
Fixpoint session (e : engine glicol) (cs : list (call glicol)) : list seen :=
  match cs with
  | [] => []
  | c :: cs' =>
      match step glicol 8 e c with
      | Ok (e', ob) =>
          match ob with ODone _ => Quiet | OError _ er => Refused er | OBlock _ b => Played b end :: session e' cs'
      | Panic => [Panicked]
      end
  end.
Definition sees (cs : list (call glicol)) : list seen := session (engine_new glicol) cs.

Definition play_block : call glicol := CNext glicol (fun _ => id_shuffle) [].
Definition play_input (s : list f32) : call glicol := CNext glicol (fun _ => id_shuffle) [s].
Definition submit (s : string) : call glicol := CUpdate glicol id_orders s.
Definition level (z : Z) : seen := Played [replicate 8 (f_of_Z z); replicate 8 (f_of_Z z)].

Ltac run_session := with_strategy transparent [peg_run W W1] (vm_compute; reflexivity).

Example session_case :
  sees [submit "o: sig 1 >> mul 2"; play_block; submit "o: sig 1 >> mul 2 >> add 3"; play_block; submit "o: sig"; play_block]
  = [Quiet; level 2; Quiet; level 5; Refused ParsingError; level 5].
Proof. run_session. Qed.

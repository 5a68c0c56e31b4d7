(** * The external input "~input": C11.

    Partial: for histories in which the engine is not reset and no program defines a chain
    called "~input" (in full the claim is refuted in Props_Refuted.v). *)
From Verif Require Import StateProofs BlockProofs Props_Inputs Session.
From Coq Require Import Lia.
Local Open Scope nat_scope.

Lemma no_edge_same {V} (g g' : sgraph V) n : edges g' = edges g -> (forall u, ~ edge g u n) -> forall u, ~ edge g' u n.
Proof. intros E H u. unfold edge. rewrite E. apply H. Qed.

Section external.
  Context (P : platform) (get : string -> outcome (gmap string (list component))).
  Notation L := (glang P get).
  Notation HL := (glang_ok P get).
  Notation engine := (engine L).

  (** Tame histories without [reset]. *)
  Inductive unreset (blk : Z) : engine -> Prop :=
  | un_new : unreset blk (engine_new L)
  | un_step e c e' ob : unreset blk e -> tame_call L e c -> c ≠ CReset L -> step L blk e c = Ok (e', ob) -> unreset blk e'.
  Lemma unreset_tamely blk e : unreset blk e -> tamely L blk e.
  Proof. induction 1; [constructor|]. by eapply tm_step. Qed.

  (** The node of "~input": it has two channels of a full block and nothing is connected to it. *)
  Definition holds_input (e : engine) (n : nat) (b0 b1 : sig) : Prop :=
    en_info L e !! input_name = Some [n] /\ node_weight (en_graph L e) n = Some (Simple NPass, [b0; b1]) /\
    length b0 = p_blk P /\ length b1 = p_blk P /\ forall u, ~ edge (en_graph L e) u n.

  Lemma no_edge_in blk e p n : tamely L blk e -> en_ast L e = Some p -> en_info L e !! input_name = Some [n] ->
    forall u, ~ edge (en_graph L e) u n.
  Proof.
    intros Ht Hp Hi u. destruct (tamely_inv L HL _ _ Ht) as (He & Hal & Hm). rewrite (Hm p Hp u n).
    assert (Ho : owner (en_info L e) n input_name 0) by (by exists [n]).
    intros [(k1 & j & _ & Hv)|[(k1 & _ & _ & ->)|(k1 & i1 & c1 & r & k' & (cs & Hk & _ & Hv) & _)]].
    - destruct (ei_inj _ _ He n _ _ _ _ Ho Hv) as [_ H]. discriminate H.
    - apply (ei_dest _ _ He). by exists input_name, 0.
    - destruct (ei_inj _ _ He n _ _ _ _ Ho Hv) as [<- _].
      pose proof (al_ok _ _ Hal) as [Hn _]. unfold old_ast in Hn. rewrite Hp in Hn. cbn in Hn.
      assert (Hx : Some cs = None) by (etransitivity; [symmetry; exact Hk|exact Hn]). discriminate Hx.
  Qed.

  Lemma write_channel_input e n b0 b1 ch s : holds_input e n b0 b1 -> length s = p_blk P -> ch < 2 ->
    exists e', write_channel L e ch s = Ok e' /\ en_info L e' = en_info L e /\
      holds_input e' n (if Nat.eqb ch 0 then s else b0) (if Nat.eqb ch 0 then b1 else s).
  Proof.
    intros (Hi & Hw & H0 & H1 & He) Hs Hch. unfold write_channel. rewrite Hi. cbn [lookup list_lookup].
    rewrite Hw. cbn [snd fst].
    assert (Hgo : forall b (bs : list sig), length b = p_blk P -> <[ch := s]> [b0; b1] = bs ->
      bs = [if Nat.eqb ch 0 then s else b0; if Nat.eqb ch 0 then b1 else s] ->
      exists e', match copy_slice_ b s with
                 | Panic => Panic
                 | Ok b' => match set_weight (en_graph L e) n (Simple NPass, <[ch := b']> [b0; b1]) with
                            | Ok g => Ok (set_graph L e g) | Panic => Panic end end = Ok e' /\ en_info L e' = en_info L e /\
      holds_input e' n (if Nat.eqb ch 0 then s else b0) (if Nat.eqb ch 0 then b1 else s)).
    { intros b bs Hl Hins Hbs. unfold copy_slice_. rewrite (proj2 (Nat.eqb_eq _ _)) by congruence. rewrite Hins, Hbs.
      destruct (set_weight _ _ _) as [g|] eqn:E.
      2:{ exfalso. unfold set_weight in E. by rewrite Hw in E. }
      exists (set_graph L e g). split; [done|]. split; [done|].
      apply set_weight_spec in E as (_ & _ & Hed & _ & Hsw). split_and!.
      - done.
      - cbn. by rewrite Hsw, decide_True by done.
      - by destruct (Nat.eqb ch 0).
      - by destruct (Nat.eqb ch 0).
      - exact (no_edge_same _ _ _ Hed He). }
    destruct ch as [|[|ch]]; [exact (Hgo b0 _ H0 eq_refl eq_refl)|exact (Hgo b1 _ H1 eq_refl eq_refl)|lia].
  Qed.

  Lemma process_input e n b0 b1 shs g : holds_input e n b0 b1 -> process (gproc P) shs (en_graph L e) (en_dest L e) = Ok g ->
    node_weight g n = Some (Simple NPass, [b0; b1]) /\ edges g = edges (en_graph L e).
  Proof.
    intros (_ & Hw & _ & _ & He) (order & _ & _ & _ & Hed & _ & _ & Hout & Hin)%process_spec. split; [|done].
    destruct (decide (n ∈ order)) as [Hn|Hn]; [|by rewrite (Hout n Hn)].
    apply elem_of_list_split in Hn as (l1 & l2 & Heq).
    destruct (Hin l1 n l2 Heq) as (w & w' & inp & H1 & H2 & H3 & _ & H5).
    assert (inp = []) as ->.
    { destruct inp as [|[u bs] inp]; [done|]. exfalso. destruct (H5 u bs) as [H _]. destruct H as (Hu & _); [by left|]. by eapply He. }
    assert (Hx : Some w = Some (Simple NPass, [b0; b1])) by (etransitivity; [symmetry; exact H1|exact Hw]).
    injection Hx as ->. cbn in H3. injection H3 as <-. exact H2.
  Qed.

  Lemma write_input_input e n b0 b1 ins : holds_input e n b0 b1 -> Forall (fun s => length s = p_blk P) ins ->
    exists e', write_input L e ins = Ok e' /\
      holds_input e' n (default b0 (ins !! 0)) (default b1 (ins !! 1)).
  Proof.
    intros Hh Hf. unfold write_input. destruct ins as [|s0 [|s1 r]].
    - by exists e.
    - inversion Hf as [|? ? F1 F2]; subst. destruct (write_channel_input e n b0 b1 0 s0 Hh) as (e1 & E1 & _ & H1); [done|lia|].
      rewrite E1. by exists e1.
    - inversion Hf as [|? ? F1 F2]; subst. inversion F2 as [|? ? F3 F4]; subst.
      destruct (write_channel_input e n b0 b1 0 s0 Hh) as (e1 & E1 & _ & H1); [done|lia|].
      rewrite E1. cbn in H1. destruct (write_channel_input e1 n s0 b1 1 s1 H1) as (e2 & E2 & _ & H2); [done|lia|].
      by exists e2.
  Qed.

  Lemma next_block_input blk e n b0 b1 shs ins e' out : holds_input e n b0 b1 ->
    Forall (fun s => length s = p_blk P) ins -> next_block L blk shs e ins = Ok (e', out) ->
    holds_input e' n (default b0 (ins !! 0)) (default b1 (ins !! 1)).
  Proof.
    intros Hh Hf. destruct (write_input_input e n b0 b1 ins Hh Hf) as (e1 & E1 & H1). unfold next_block. rewrite E1.
    destruct (process _ shs (en_graph L e1) (en_dest L e1)) as [g|] eqn:Ep; [|done].
    destruct (process_input _ _ _ _ _ _ H1 Ep) as [Hw Hed].
    destruct (node_weight g (en_dest L e1)) as [w|]; [|done]. intros [= <- _].
    destruct H1 as (Hi & _ & Hl0 & Hl1 & He). split_and!; try done.
    exact (no_edge_same _ _ _ Hed He).
  Qed.

  (** Blocks given with slices of another length are left out: they panic or are ignored. *)
  Lemma write_channel_sizes e n b0 b1 ch s e' : holds_input e n b0 b1 -> write_channel L e ch s = Ok e' -> length s = p_blk P.
  Proof.
    intros (Hi & Hw & H0 & H1 & _). unfold write_channel. rewrite Hi. cbn [lookup list_lookup]. rewrite Hw. cbn [snd fst].
    destruct ch as [|[|ch]]; cbn [lookup list_lookup]; [| |done].
    - destruct (copy_slice _ _) as [x|] eqn:E; [|done]. intros _. cbn in E. unfold copy_slice_ in E.
      destruct (Nat.eqb_spec (length b0) (length s)); [congruence|done].
    - destruct (copy_slice _ _) as [x|] eqn:E; [|done]. intros _. cbn in E. unfold copy_slice_ in E.
      destruct (Nat.eqb_spec (length b1) (length s)); [congruence|done].
  Qed.
  Lemma unreset_holds blk e : unreset blk e -> exists n b0 b1, holds_input e n b0 b1.
  Proof.
    induction 1 as [|e c e' ob Hu (n & b0 & b1 & IH) Htc Hnr Hs].
    { exists 2, (silent P), (silent P). unfold holds_input, silent. split_and!; try done; try apply replicate_length.
      intros u Hu. by apply elem_of_nil in Hu. }
    pose proof (unreset_tamely _ _ Hu) as Ht. destruct (tamely_inv L HL _ _ Ht) as (He & Hal & _).
    pose proof IH as (Hi & Hw & H0 & H1 & Hed).
    destruct c as [o code|shs ins|c m|nm s|b|sr|sd|]; [| | | | | | |done].
    - pose proof (tm_step _ _ _ _ _ _ Ht Htc Hs) as Ht'. unfold step, update in Hs. unfold tame_call in Htc.
      destruct (parse code) as [new|er|]; [| |done].
      + destruct Htc as [Hpo Htame].
        destruct (update_ast L o e new) as [[e1 [er|]]|] eqn:E; [| |done]; injection Hs as <- <-.
        * apply update_ast_fail in E; [|done]. destruct E as [E1 E2 E3 _ _ E6 _ _ _ _ _ _].
          exists n, b0, b1. split_and!; try done; [by rewrite E6|by rewrite E1|]. exact (no_edge_same _ _ _ E2 Hed).
        * pose proof (tame_update_result L HL _ _ _ _ He Hal Hpo Htame E) as R.
          pose proof (re_gone _ _ _ _ _ R input_name (proj1 Hpo)) as Hg. rewrite decide_True in Hg by done.
          exists n, b0, b1. split_and!; try done; [by rewrite Hg|by rewrite (re_input_chain _ _ _ _ _ R n Hi)|].
          eapply no_edge_in; [exact Ht'|exact (re_ast _ _ _ _ _ R)|by rewrite Hg].
      + injection Hs as <- <-. by exists n, b0, b1.
    - simpl in Hs. destruct (next_block L blk shs e ins) as [[e1 out]|] eqn:E; [|done]. injection Hs as <- <-.
      assert (Hf : Forall (fun s => length s = p_blk P) (take 2 ins)).
      { pose proof E as E2. unfold next_block, write_input in E2. destruct ins as [|s0 [|s1 r]]; [constructor| |]; cbn [take].
        - destruct (write_channel L e 0 s0) as [e2|] eqn:Ew; [|done]. pose proof (write_channel_sizes _ _ _ _ _ _ _ IH Ew). by repeat constructor.
        - destruct (write_channel L e 0 s0) as [e2|] eqn:Ew; [|done]. pose proof (write_channel_sizes _ _ _ _ _ _ _ IH Ew) as Hz.
          destruct (write_channel_input e n b0 b1 0 s0 IH Hz) as (e3 & E3 & _ & H3); [lia|]. rewrite Ew in E3. injection E3 as <-.
          destruct (write_channel L e2 1 s1) as [e4|] eqn:Ew2; [|done]. pose proof (write_channel_sizes _ _ _ _ _ _ _ H3 Ew2). by repeat constructor. }
      assert (E' : next_block L blk shs e (take 2 ins) = Ok (e1, out)) by (by destruct ins as [|s0 [|s1 r]]).
      exists n. do 2 eexists. by eapply next_block_input.
    - simpl in Hs. unfold send_msg in Hs. destruct (foldM _ _ _) as [e1|] eqn:E; [|done]. injection Hs as <- <-.
      exists n, b0, b1. revert E. apply (foldM_inv (fun x => holds_input x n b0 b1)); [done|].
      intros x y z (Xi & Xw & X0 & X1 & Xe) _ Hz. pose proof (send_command_frame _ _ _ _ _ Hz) as (_ & F2 & _ & _ & F5).
      split_and!; try done; [by rewrite F2| |exact (no_edge_same _ _ _ F5 Xe)].
      revert Hz. unfold send_command. destruct (split_on "," y) as [|a [|b [|d [|v r]]]]; try (by intros [= <-]).
      destruct (_ !! a) as [ids|]; [|by intros [= <-]]. destruct (ids !! _) as [id|]; [|done].
      destruct (send_to _ _ _ _) as [g|] eqn:E1; [|done]. intros [= <-].
      apply send_to_spec in E1 as (w & st & Hw1 & Hm & E1). apply set_weight_spec in E1 as (_ & _ & _ & _ & Hs). cbn.
      rewrite Hs. case_decide as Hd; [|done]. subst id. rewrite Xw in Hw1. injection Hw1 as <-. cbn in Hm. by injection Hm as <-.
    - simpl in Hs. injection Hs as <- <-. by exists n, b0, b1.
    - simpl in Hs. unfold set_bpm in Hs. destruct (send_to_all _ _ _) as [g|] eqn:E; [|done]. injection Hs as <- <-.
      apply send_to_all_spec in E as (_ & Xe & _ & Hx). specialize (Hx n). rewrite Hw in Hx. destruct Hx as (st & Hm & Hx).
      cbn in Hm. injection Hm as <-. exists n, b0, b1. split_and!; try done. exact (no_edge_same _ _ _ Xe Hed).
    - simpl in Hs. injection Hs as <- <-. by exists n, b0, b1.
    - simpl in Hs. injection Hs as <- <-. by exists n, b0, b1.
  Qed.

  (** C11, partial.  Blocks of input of the right size are always accepted, and after the block
      the node of "~input" holds them.  A channel that is not given keeps the samples of the
      last block that had it. *)
  Theorem C11_available_partial blk e ins : unreset blk e -> Forall (fun s => length s = p_blk P) ins ->
    exists n b0 b1, holds_input e n b0 b1 /\ (exists e1, write_input L e ins = Ok e1) /\
      forall shs e' out, next_block L blk shs e ins = Ok (e', out) ->
        holds_input e' n (default b0 (ins !! 0)) (default b1 (ins !! 1)).
  Proof.
    intros (n & b0 & b1 & Hh)%unreset_holds Hf. exists n, b0, b1. split; [done|]. split.
    - destruct (write_input_input e n b0 b1 ins Hh Hf) as (e1 & E1 & _). by exists e1.
    - intros shs e' out. by apply next_block_input.
  Qed.
  (** Every component that refers to "~input" and is heard reads these samples in this block. *)
  Theorem C11_read_partial blk e p k i c v shs l r e' out : unreset blk e -> en_ast L e = Some p ->
    placed L (en_info L e) p k i c v -> heard L e v -> no_feedback L e v -> input_name ∈ component_refs c ->
    length l = p_blk P -> length r = p_blk P -> next_block L blk shs e [l; r] = Ok (e', out) ->
    exists n st b st' b' inp, node_weight (en_graph L e) v = Some (st, b) /\
      node_weight (en_graph L e') v = Some (st', b') /\ gproc P st inp b = Ok (st', b') /\ (n, [l; r]) ∈ inp.
  Proof.
    intros Hu Hp Hpl Hh Hnf Hr Hl1 Hl2 Hn. pose proof (unreset_tamely _ _ Hu) as Ht.
    destruct (unreset_holds _ _ Hu) as (n & b0 & b1 & Hi). pose proof Hi as (Hi1 & Hi2 & _).
    destruct (C17_component_inputs L HL blk e p k i c v shs _ e' out Ht Hp Hpl Hh Hnf Hn) as (st & b & st' & b' & inp & H1 & H2 & H3 & _ & H5).
    exists n, st, b, st', b', inp. split_and!; auto. apply H5.
    assert (Hb : holds_input e' n l r).
    { apply (next_block_input blk e n b0 b1 shs [l; r] e' out Hi); [by repeat constructor|done]. }
    split_and!.
    - right. exists input_name, input_name. split_and!; [done|done|]. exists [n]. done.
    - intros ->. destruct (tamely_inv L HL _ _ Ht) as (He & Hal & _). destruct Hpl as (cs & Hk & _ & Ho).
      assert (Ho2 : owner (en_info L e) v input_name 0) by (by exists [v]).
      destruct (ei_inj _ _ He v _ _ _ _ Ho Ho2) as [-> _].
      pose proof (al_ok _ _ Hal) as [Hx _]. unfold old_ast in Hx. rewrite Hp in Hx. cbn in Hx.
      assert (Hy : Some cs = None) by (etransitivity; [symmetry; exact Hk|exact Hx]). discriminate Hy.
    - exists (Simple NPass). apply Hb.
  Qed.
End external.
(** With a program: both channels come through, at any time. *)
Example C11_case : exists p, sees [submit "o: sig 1"; play_block; submit p; CNext glicol (fun _ => id_shuffle) [fs [1; 2; 3; 4; 5; 6; 7; 8]%Z; fs [8; 7; 6; 5; 4; 3; 2; 1]%Z]]
  = [Quiet; level 1; Quiet; Played [fs [2; 4; 6; 8; 10; 12; 14; 16]%Z; fs [16; 14; 12; 10; 8; 6; 4; 2]%Z]].
Proof. exists "o: ~input >> mul 2"%string. run_session. Qed.

(** * Props_Blocks: the shape of the blocks an engine returns.

    Whatever calls an engine has received, every block it returns has exactly two channels of
    exactly one block of samples, and every node of its graph keeps full buffers.  This makes
    the sums of [C21_output_of_program] statements about every sample of the block. *)
From Verif Require Import InputProofs BlockProofs FullProofs Props_Signal Props_Inputs Session.
From Coq Require Import Lia.
Local Open Scope nat_scope.

Section reach.
  Context (L : lang).
  Lemma run_snoc blk e cs c e1 ob e2 o : run L blk e cs = Ok (e1, ob) -> step L blk e1 c = Ok (e2, o) ->
    run L blk e (cs ++ [c]) = Ok (e2, ob ++ [o]).
  Proof.
    revert e ob. induction cs as [|a cs IH]; intros e ob; simpl.
    - intros [= -> <-] ->. done.
    - destruct (step L blk e a) as [[e' o']|]; [|done]. destruct (run L blk e' cs) as [[e'' os]|] eqn:E; [|done].
      intros [= -> <-] Hs. by rewrite (IH _ _ E Hs).
  Qed.
  Lemma reachable_step blk e c e' o : reachable L blk e -> step L blk e c = Ok (e', o) -> reachable L blk e'.
  Proof. intros (cs & ob & H) Hs. exists (cs ++ [c]), (ob ++ [o]). by eapply run_snoc. Qed.
  Lemma tamely_reachable blk e : tamely L blk e -> reachable L blk e.
  Proof. induction 1 as [|e c e' ob _ IH _ Hs]; [by exists [], []|]. by eapply reachable_step. Qed.
  Lemma reachable_next blk e shs ins e' out : reachable L blk e -> next_block L blk shs e ins = Ok (e', out) ->
    reachable L blk e'.
  Proof. intros He Hn. apply (reachable_step blk e (CNext L shs ins) e' (OBlock L out) He). simpl. by rewrite Hn. Qed.
End reach.

(** C21: every block has two channels of one block each, whatever happened before: any
    programs, messages, samples, tempo changes, resets, input blocks and hash orders. *)
Theorem C21_block_shape P get blk e shs ins e' out :
  reachable (glang P get) blk e -> next_block (glang P get) blk shs e ins = Ok (e', out) ->
  exists lft rgt : sig, out = [lft; rgt] /\ length lft = p_blk P /\ length rgt = p_blk P.
Proof.
  intros He Hn. pose proof (reachable_next _ _ _ _ _ _ _ He Hn) as He'.
  destruct (reachable_full P get blk e He) as [Hd _]. destruct (reachable_full P get blk e' He') as [_ Hg].
  destruct (next_block_out _ _ _ _ _ _ _ Hn) as (_ & st & Hw). rewrite Hd in Hw.
  destruct (Hg _ _ Hw) as (_ & (_ & Hf) & H2). cbn [snd] in Hf, H2. destruct (H2 eq_refl) as [_ Hl].
  destruct out as [|l [|r [|]]]; try discriminate Hl. exists l, r.
  inversion Hf as [|? ? Hl1 Hf1]; subst. inversion Hf1; subst. done.
Qed.
Print Assumptions C21_block_shape.

(** C21: every node, audible or not, holds full buffers after every call. *)
Theorem C21_nodes_full P get blk e n st bs b : reachable (glang P get) blk e ->
  node_weight (en_graph (glang P get) e) n = Some (st, bs) -> b ∈ bs -> length b = p_blk P.
Proof.
  intros He Hn Hb. destruct (reachable_full P get blk e He) as [_ Hg]. destruct (Hg _ _ Hn) as (_ & (_ & Hf) & _).
  exact (proj1 (List.Forall_forall _ _) Hf b (proj1 (elem_of_list_In _ _) Hb)).
Qed.

(** C21, in full: at every sample of the block both channels are the sums of the ends of the
    audible chains. *)
Theorem C21_every_sample P get blk e p shs ins e' out :
  tamely (glang P get) blk e -> en_ast (glang P get) e = Some p ->
  next_block (glang P get) blk shs e ins = Ok (e', out) ->
  exists inp, NoDup inp.*1 /\
    (forall u bs, (u, bs) ∈ inp <->
       (exists k, contains_char "~" k = false /\ chain_end (en_info (glang P get) e) k u) /\
       exists su, node_weight (en_graph (glang P get) e') u = Some (su, bs)) /\
    (forall u bs b, (u, bs) ∈ inp -> b ∈ bs -> length b = p_blk P) /\
    out = [map (fun t => foldl fadd f0 (map (contrib 0 t) inp)) (seq 0 (p_blk P));
           map (fun t => foldl fadd f0 (map (contrib 1 t) inp)) (seq 0 (p_blk P))].
Proof.
  intros Ht Hp Hn. pose proof (tamely_reachable _ _ _ Ht) as He. pose proof (reachable_next _ _ _ _ _ _ _ He Hn) as He'.
  destruct (C21_output_of_program P get blk e p shs ins e' out Ht Hp Hn) as (l & r & inp & -> & H1 & H2 & H3 & H4).
  destruct (C21_block_shape P get blk e shs ins e' [l; r] He Hn) as (l' & r' & E & Hl & Hr). injection E as <- <-.
  assert (Hx : forall (q : sig) c, length q = p_blk P ->
            (forall t x, q !! t = Some x -> x = foldl fadd f0 (map (contrib c t) inp)) ->
            q = map (fun t => foldl fadd f0 (map (contrib c t) inp)) (seq 0 (p_blk P))).
  { intros q c Hq Hs. apply list_eq. intros t. destruct (decide (t < p_blk P)) as [Hlt|Hge].
    - destruct (lookup_lt_is_Some_2 q t) as [x Hx]; [lia|]. rewrite Hx, (Hs _ _ Hx). symmetry.
      change (map ?f ?l) with (f <$> l). rewrite list_lookup_fmap, lookup_seq_lt by done. done.
    - rewrite lookup_ge_None_2 by lia. symmetry. apply lookup_ge_None_2. rewrite map_length, seq_length. lia. }
  exists inp. split_and!; [done|exact H2| |].
  - intros u bs b Hin Hb. apply H2 in Hin as (_ & su & Hw). exact (C21_nodes_full P get blk e' u su bs b He' Hw Hb).
  - f_equal; [|f_equal]; by apply Hx.
Qed.
Print Assumptions C21_every_sample.

(** The session of [ex_engine] meets the hypotheses and plays 12 on the left. *)
Example C21_every_sample_case : exists p e' out,
  tamely glicol 8 ex_engine /\ en_ast glicol ex_engine = Some p /\
  next_block glicol 8 (fun _ => id_shuffle) ex_engine [] = Ok (e', out) /\ out !! 0 = Some (replicate 8 (f_of_Z 12)).
Proof.
  destruct ex_engine_ast as (p & Hp & _). destruct ex_engine_plays as (e' & rest & Hn).
  exists p, e', [replicate 8 (f_of_Z 12); rest]. split; [exact ex_engine_tame|]. split; [exact Hp|]. split; [exact Hn|].
  reflexivity.
Qed.

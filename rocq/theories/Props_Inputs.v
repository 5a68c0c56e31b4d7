(** * Properties of nodes over the life of an engine: C04 (positive part), C13 (positive
    part), C15.

    Vocabulary: see Props_Update.v. *)
From Verif Require Import InputProofs BlockProofs Props_Signal.
From Coq Require Import Lia.
Local Open Scope nat_scope.

(** ** C04 *)

(** A node state that began as the node created for a component equal to [c] and has since
    only been played and sent messages. *)
Inductive plays {L : lang} (c : comp L) : node L -> Prop :=
| pl_made ev c0 w refs : c0 = c \/ comp_eqb c0 c = true -> makenode ev c0 = Done (w, refs) -> plays c w.1
| pl_msg st m st' : plays c st -> nmsg st m = Ok st' -> plays c st'
| pl_proc st ins b st' b' : plays c st -> nproc st ins b = Ok (st', b') -> plays c st'.

Lemma plays_msgs (L : lang) (c : comp L) ms st st' : plays c st -> foldM nmsg st ms = Ok st' -> plays c st'.
Proof.
  revert st. induction ms as [|m ms IH]; intros st H; simpl; [by intros [= <-]|].
  destruct (nmsg st m) as [st1|] eqn:E; [|done]. apply IH. by eapply pl_msg.
Qed.
Lemma plays_eq (L : lang) (HL : lang_ok L) (a b : comp L) st : plays a st -> comp_eqb a b = true -> plays b st.
Proof.
  intros H Hab. induction H as [ev c0 w refs H0 Hmk|st m st' H IH Hm|st ins bs st' bs' H IH Hp].
  - eapply pl_made; [|exact Hmk]. right. destruct H0 as [->|H0]; [done|]. by eapply (lo_trans _ HL).
  - by eapply pl_msg.
  - by eapply pl_proc.
Qed.

(** C04, partial: for engines reached by edits that neither reorder nor ambiguously repeat
    components.  Whatever was submitted, played and sent before, the nodes of every chain
    stand for the components of the running program in their order, and each feeds the next.
    In full the claim is refuted in Props_Refuted.v. *)
Theorem C04_plays_the_program_partial (L : lang) (HL : lang_ok L) blk e p k cs :
  tamely L blk e -> en_ast L e = Some p -> p !! k = Some cs ->
  exists ids, en_info L e !! k = Some ids /\ length ids = length cs /\
    (forall i c n, cs !! i = Some c -> ids !! i = Some n ->
       exists w, node_weight (en_graph L e) n = Some w /\ plays c w.1) /\
    (forall i m n, ids !! i = Some m -> ids !! S i = Some n -> edge (en_graph L e) m n).
Proof.
  intros Ht Hp Hk. destruct (tamely_inv L HL _ _ Ht) as (He & Hal & Hm).
  destruct (al_len _ _ Hal k cs) as (ids & Hids & Hlen).
  { unfold old_ast. by rewrite Hp. }
  exists ids. split_and!; auto.
  - intros i c n Hc Hn. assert (Hown : owner (en_info L e) n k i) by (by exists ids).
    assert (Hl : live (en_graph L e) n) by (apply (ei_live _ _ He); right; right; by exists k, i).
    destruct Hl as [w Hw]. exists w. split; [done|].
    assert (HT : tracked L (fun _ c st => plays c st) e).
    { apply (tamely_tracked L HL) with (blk := blk); [..|done].
      - intros ev c1 w1 refs sh t k1 i1 st Hmk Hf. eapply plays_msgs; [|exact Hf]. eapply pl_made; [by left|exact Hmk].
      - intros tr a b st0 sh t k1 i1 st Ha Hab Hf. eapply plays_msgs; [|exact Hf]. by eapply plays_eq.
      - intros tr c1 st m st' H1 _ H2. by eapply pl_msg.
      - intros tr c1 st ins b st' b' H1 H2. by eapply pl_proc. }
    destruct (HT p k i c n w Hp) as (_ & _ & _ & H); [by exists cs|done|exact H].
  - intros i m n Hm1 Hn1. apply (Hm p Hp). left. exists k, i. split; by exists ids.
Qed.
Print Assumptions C04_plays_the_program_partial.

(** ** C15 *)

(** C15: a node with a predecessor and one plain reference keeps them apart: its input list
    is the predecessor, then the node that ends the chain referred to.  It holds at every
    moment of a tame history, for all nodes that forget their inputs on a rewiring
    ([input_order]); the others (imp, the drums) are modulated by their only input. *)
Theorem C15_inputs_told_apart P get blk e p k i c v st b r o :
  tamely (glang P get) blk e -> en_ast (glang P get) e = Some p ->
  placed (glang P get) (en_info (glang P get) e) p k i c v ->
  node_weight (en_graph (glang P get) e) v = Some (st, b) ->
  component_refs c = [r] -> no_dots r -> input_order st = Some o ->
  exists u, chain_end (en_info (glang P get) e) r u /\
    match i with
    | 0 => o = [u]
    | S j => exists m, owner (en_info (glang P get) e) m k j /\ o = [m; u]
    end.
Proof.
  intros Ht Hp Hpl Hw Hr Hnd Ho.
  destruct (input_list P get blk e p k i c v st b o Ht Hp Hpl Hw) as (sh & ->); [by rewrite Hr| |done|].
  { rewrite Hr. apply NoDup_singleton. }
  destruct (plain_target P get blk e p k i c v r sh Ht Hp Hpl) as (u & Hu & Htar); [rewrite Hr; by left|done|].
  exists u. split; [done|]. rewrite Hr. cbn [mbind list_bind]. rewrite Htar, app_nil_r. destruct i as [|j]; [done|].
  destruct (pred_spec P get blk e p k j c v Ht Hp Hpl) as (m & Hm & ->). by exists m.
Qed.
Print Assumptions C15_inputs_told_apart.

(** ** What kind of node plays a component *)

Definition kind_J {P} (tr : list msg) (c : component) (st : gnode P) : Prop :=
  match c with
  | CMul _ => exists s, st = Simple (NMul s)
  | CAdd _ => exists s, st = Simple (NAdd s)
  | CSeq evs => exists s, st = Simple (NSeq s) /\ sq_order s = order_of (dedup_refs [] (component_refs (CSeq evs)))
  | _ => True
  end.
Lemma kind_msgs P tr tr' c ms (st st' : gnode P) : kind_J tr c st -> foldM (gmsg P) st ms = Ok st' -> kind_J tr' c st'.
Proof.
  revert st. induction ms as [|m ms IH]; intros st H; simpl; [by intros [= <-]|].
  destruct (gmsg P st m) as [st1|] eqn:E; [|done]. apply IH. destruct c; try done.
  - destruct H as (s & ->). cbn [gmsg smsg] in E. destruct (op_msg s m) as [s'|] eqn:E'; [|done]. injection E as <-. by exists s'.
  - destruct H as (s & ->). cbn [gmsg smsg] in E. destruct (op_msg s m) as [s'|] eqn:E'; [|done]. injection E as <-. by exists s'.
  - destruct H as (s & -> & H). cbn [gmsg smsg] in E. destruct (seq_msg s m) as [s'|] eqn:E'; [|done]. injection E as <-.
    exists s'. split; [done|]. rewrite <- H. revert E'. unfold seq_msg. rs.
    destruct m; try (by intros [= <-]); destruct (ord_msg _ _); try done; by intros [= <-].
Qed.
Lemma seq_order_keeps P s ins out s' out' : seq_proc P s ins out = Ok (s', out') -> sq_order s' = sq_order s.
Proof.
  unfold seq_proc. destruct ins as [|p ins].
  - match goal with |- context [scanR ?f s ?l] => destruct (scanR f s l) as [[s1 b]|] eqn:E; [|done] end.
    apply (scanR_keeps sq_order) in E.
    + destruct (put0 out b); rs; [|done]. by intros [= <- <-].
    + intros s0 a s2 b0. destruct (seq_sample P _ _ _ _); rs; [|done]. by intros [= <- <-].
  - rs. destruct (in_ord _ _ 0) as [pb|]; rs; [|done]. destruct (chan pb 0) as [p0|]; rs; [|done].
    destruct (unwrap (p0 !! 0)) as [v0|]; rs; [|done].
    match goal with |- context [match ?x with Ok _ => _ | Panic => _ end] => destruct x as [has|]; rs; [|done] end.
    match goal with |- context [scanR ?f ?s ?l] => destruct (scanR f s l) as [[s1 b]|] eqn:E; [|done] end.
    apply (scanR_keeps sq_order) in E.
    + destruct (put0 out b); rs; [|done]. by intros [= <- <-].
    + intros s0 a s2 b0. destruct (seq_sample P _ _ _ _); rs; [|done]. by intros [= <- <-].
Qed.
Lemma kind_proc P tr c ins b b' (st st' : gnode P) : kind_J tr c st -> gproc P st ins b = Ok (st', b') -> kind_J tr c st'.
Proof.
  intros H E. destruct c; try done.
  - destruct H as (s & ->). cbn [gproc sproc] in E. unfold wrap in E.
    destruct (op_proc fmul s ins b) as [[s' o]|]; [|done]. injection E as <- <-. by exists s'.
  - destruct H as (s & ->). cbn [gproc sproc] in E. unfold wrap in E.
    destruct (op_proc fadd s ins b) as [[s' o]|]; [|done]. injection E as <- <-. by exists s'.
  - destruct H as (s & -> & H). cbn [gproc sproc] in E. unfold wrap in E.
    destruct (seq_proc P s ins b) as [[s' o]|] eqn:E'; [|done]. injection E as <- <-. exists s'. split; [done|].
    by rewrite (seq_order_keeps _ _ _ _ _ _ E').
Qed.
Lemma kind_eq P tr a b (st : gnode P) : kind_J tr a st -> component_eqb a b = true -> kind_J tr b st.
Proof.
  intros H E. destruct b; try done; destruct a; try done.
  destruct H as (s & -> & H). exists s. split; [done|]. by rewrite H, (component_eqb_refs _ _ E).
Qed.
Lemma kind_tracked P get blk e : tamely (glang P get) blk e -> tracked (glang P get) kind_J e.
Proof.
  apply tamely_tracked; [apply glang_ok|..].
  - intros ev c w refs sh t k i st Hmk Hf. eapply (kind_msgs P [] _ c _ w.1); [|exact Hf].
    destruct c; try done; cbn in Hmk; injection Hmk as <- <-; simpl; eauto.
  - intros tr a b st0 sh t k i st Ha Hab Hf. eapply (kind_msgs P tr); [|exact Hf]. by eapply kind_eq.
  - intros tr c st m st' H _ Hm. eapply (kind_msgs P tr _ _ [m]); [exact H|]. simpl.
    change (gmsg P st m = Ok st') in Hm. by rewrite Hm.
  - intros tr c st ins b st' b' H Hp. exact (kind_proc P tr c ins b b' st st' H Hp).
Qed.

(** ** C13 *)

(** C13, partial: a pattern whose references are pairwise different.  At every moment of a
    tame history the sequencer finds, for each of its references, the node that ends the
    chain of that name: its own numbering of the references ([sq_order]) and its input list
    agree, the first input being the predecessor if there is one. *)
Theorem C13_seq_references_partial P get blk e p k i evs v st b :
  tamely (glang P get) blk e -> en_ast (glang P get) e = Some p ->
  placed (glang P get) (en_info (glang P get) e) p k i (CSeq evs) v ->
  node_weight (en_graph (glang P get) e) v = Some (st, b) ->
  NoDup (component_refs (CSeq evs)) -> Forall no_dots (component_refs (CSeq evs)) ->
  exists s, st = Simple (NSeq s) /\
    forall name, name ∈ component_refs (CSeq evs) ->
      exists q u, sq_order s !! name = Some q /\ chain_end (en_info (glang P get) e) name u /\
        sq_ord s !! (match i with 0 => q | S _ => S q end) = Some u.
Proof.
  intros Ht Hp Hpl Hw Hnd Hdots.
  destruct (kind_tracked P get blk e Ht p k i _ v _ Hp Hpl Hw) as (_ & _ & _ & (s & Hst & Hso)).
  exists s. split; [exact Hst|]. intros name Hname. simpl in Hst. subst st.
  rewrite (dedup_nodup [] (component_refs (CSeq evs)) Hnd) in Hso. rewrite app_nil_l in Hso.
  destruct (input_list P get blk e p k i (CSeq evs) v _ b (sq_ord s) Ht Hp Hpl Hw) as (sh & Ho); auto.
  { intros E. rewrite E in Hname. by apply elem_of_nil in Hname. }
  revert Hnd Hdots Hname Hso Ho Hpl. generalize (CSeq evs) as c. intros c Hnd Hdots Hname Hso Ho Hpl.
  apply elem_of_list_lookup in Hname as [q Hq]. 
  destruct (plain_target P get blk e p k i c v name sh Ht Hp Hpl) as (u & Hu & Htar).
  { by eapply elem_of_list_lookup_2. }
  { rewrite Forall_forall in Hdots. apply Hdots. by eapply elem_of_list_lookup_2. }
  exists q, u. split_and!; [|done|].
  - rewrite Hso. unfold order_of. apply elem_of_list_to_map_1.
    + rewrite fst_zip; [done|]. by rewrite seq_length.
    + apply elem_of_list_lookup. exists q. rewrite lookup_zip_with, Hq. simpl.
      rewrite lookup_seq_lt; [done|]. by eapply lookup_lt_Some.
  - assert (Hlook : (component_refs c ≫= targets sh (en_info (glang P get) e)) !! q = Some u).
    { assert (Hall : forall r, r ∈ component_refs c -> exists u, targets sh (en_info (glang P get) e) r = [u]).
      { intros r Hr. rewrite Forall_forall in Hdots.
        destruct (plain_target P get blk e p k i c v r sh Ht Hp Hpl Hr (Hdots r Hr)) as (u' & _ & ?). eauto. }
      clear - Hq Htar Hall. revert q Hq Hall. generalize (component_refs c) as l.
      induction l as [|r l IH]; intros q Hq Hall; [done|]. rewrite bind_cons.
      destruct (Hall r) as [u0 Hu0]; [by left|]. rewrite Hu0. destruct q as [|q].
      - injection Hq as ->. rewrite Htar in Hu0. by injection Hu0 as ->.
      - simpl. apply IH; [done|]. intros r' Hr'. apply Hall. by right. }
    rewrite Ho. destruct i as [|j]; [done|].
    destruct (pred_spec P get blk e p k j c v Ht Hp Hpl) as (m & _ & ->). simpl. done.
Qed.
Print Assumptions C13_seq_references_partial.

(** ** Blocks of the running program *)

(** C17 for programs: in each block, every component that is heard and not part of a
    feedback loop is played once, reading exactly the buffers that its predecessor and the
    ends of the chains it refers to have after this block. *)
Theorem C17_component_inputs (L : lang) (HL : lang_ok L) blk e p k i c v shs ins e' out :
  tamely L blk e -> en_ast L e = Some p -> placed L (en_info L e) p k i c v ->
  heard L e v -> no_feedback L e v -> next_block L blk shs e ins = Ok (e', out) ->
  exists st b st' b' inp, node_weight (en_graph L e) v = Some (st, b) /\
    node_weight (en_graph L e') v = Some (st', b') /\ nproc st inp b = Ok (st', b') /\ NoDup inp.*1 /\
    forall u bs, (u, bs) ∈ inp <->
      feeds L e c k i u /\ u ≠ v /\ exists su, node_weight (en_graph L e') u = Some (su, bs).
Proof.
  intros Ht Hp Hpl Hh Hnf Hn. destruct (tamely_inv L HL _ _ Ht) as (He & Hal & Hm).
  destruct (next_block_node L blk shs e ins e' out v Hn Hh Hnf) as (st & b & st' & b' & inp & H1 & H2 & H3 & H4 & H5).
  { intros Ho. pose proof Hpl as (cs & Hk & _ & Hown).
    destruct (ei_inj _ _ He v _ _ _ _ Hown Ho) as [-> _].
    pose proof (al_ok _ _ Hal) as [Hi _]. unfold old_ast in Hi. rewrite Hp in Hi. simpl in Hi.
    by rewrite Hi in Hk. }
  exists st, b, st', b', inp. split_and!; auto. intros u bs. rewrite H5.
  by rewrite (feeds_edge L HL blk e p k i c v u Ht Hp Hpl).
Qed.
Print Assumptions C17_component_inputs.

Lemma mapR_two {A B} (f : A -> res B) a b l : mapR f [a; b] = Ok l -> exists x y, f a = Ok x /\ f b = Ok y /\ l = [x; y].
Proof.
  simpl. destruct (f a) as [x|]; [|done]. destruct (f b) as [y|]; [|done]. intros [= <-]. eauto.
Qed.
Lemma sum2_chan_sound P ch ins b : sum2_chan P ins ch = Ok b ->
  forall t x, b !! t = Some x -> x = foldl fadd f0 (map (contrib ch t) ins).
Proof.
  unfold sum2_chan.
  assert (Hg : forall acc b, foldM (fun acc p => match p.2 !! ch with
                      | Some b => Ok (add_sig acc b)
                      | None => b0 ← chan p.2 0; mret (add_sig acc b0)
                      end) acc ins = Ok b -> forall t x, b !! t = Some x ->
     exists a, acc !! t = Some a /\ x = foldl fadd a (map (contrib ch t) ins)).
  { induction ins as [|[i bs] ins IH]; intros acc b0 H t x Hx.
    - simpl in H. injection H as <-. by exists x.
    - cbn [foldM snd] in H.
      assert (exists b1, (match bs !! ch with Some b => Ok (add_sig acc b)
                          | None => b0 ← chan bs 0; mret (add_sig acc b0) end) = Ok (add_sig acc b1) /\
                contrib ch t (i, bs) = default f0 (b1 !! t)) as (b1 & E & Hc).
      { unfold contrib. cbn [snd]. destruct (bs !! ch) as [b1|]; [by exists b1|].
        unfold chan in H |- *. destruct (bs !! 0) as [b1|]; [by exists b1|done]. }
      rewrite E in H. destruct (IH _ _ H t x Hx) as (a & Ha & ->).
      unfold add_sig in Ha. apply lookup_zip_with_Some in Ha as (a0 & y & -> & Ha0 & Hy).
      exists a0. split; [done|]. cbn [map foldl]. by rewrite Hc, Hy. }
  intros H t x Hx. destruct (Hg _ _ H t x Hx) as (a & Ha & ->). by apply lookup_replicate in Ha as [-> _].
Qed.

(** C21 for programs: what next_block returns is the sum, sample by sample, of the ends of
    the chains whose names contain no tilde (mono chains in both channels), and nothing
    else; the sum starts from 0 and runs in some order (the hash order of that call). *)
Theorem C21_output_of_program P get blk e p shs ins e' out :
  tamely (glang P get) blk e -> en_ast (glang P get) e = Some p ->
  next_block (glang P get) blk shs e ins = Ok (e', out) ->
  exists lft rgt inp, out = [lft; rgt] /\ NoDup inp.*1 /\
    (forall u bs, (u, bs) ∈ inp <->
       (exists k, contains_char "~" k = false /\ chain_end (en_info (glang P get) e) k u) /\
       exists su, node_weight (en_graph (glang P get) e') u = Some (su, bs)) /\
    (forall t x, lft !! t = Some x -> x = foldl fadd f0 (map (contrib 0 t) inp)) /\
    (forall t x, rgt !! t = Some x -> x = foldl fadd f0 (map (contrib 1 t) inp)).
Proof.
  intros Ht Hp Hn. destruct (tamely_inv _ (glang_ok P get) _ _ Ht) as (He & Hal & Hm).
  assert (Hdo : forall u, edge (en_graph (glang P get) e) (en_dest (glang P get) e) u -> False).
  { intros u Hu. apply (Hm p Hp) in Hu.
    destruct Hu as [(k1 & j & Hu & Hv)|[(k1 & H1 & (ids & H2 & H3) & _)|(k1 & i1 & c1 & r & k' & _ & _ & _ & (ids & H2 & H3))]].
    - apply (ei_dest _ _ He). by exists k1, j.
    - apply (ei_dest _ _ He). exists k1, (pred (length ids)), ids. by rewrite <- last_lookup.
    - apply (ei_dest _ _ He). exists k', (pred (length ids)), ids. by rewrite <- last_lookup. }
  assert (Hre : forall u, reaches (en_graph (glang P get) e) (en_dest (glang P get) e) u -> u = en_dest (glang P get) e).
  { intros u Hu. inversion Hu; [done|]. exfalso. by eapply Hdo. }
  destruct (next_block_node _ blk shs e ins e' out (en_dest _ e) Hn) as (st & b & st' & b' & inp & H1 & H2 & H3 & H4 & H5).
  { constructor. }
  { intros u Hu Hne Hr%Hre. by apply Hne. }
  { intros Ho. apply (ei_dest _ _ He). by eexists _, _. }
  destruct (next_block_out _ blk shs e ins e' out Hn) as (_ & so & Ho). rewrite H2 in Ho. injection Ho as -> ->.
  pose proof (tamely_dest _ (glang_ok P get) (fun st b => st = Simple NSum2 /\ length b = 2) blk e) as HD.
  destruct (HD) with (w := (st, b)) as [Hst Hlen]; clear HD; [by split| | |done|done|].
  { intros s1 b1 m s2 [-> Hb] Hmm. injection Hmm as <-. done. }
  { intros s1 i1 b1 s2 b2 [-> Hb] Hpp. destruct (length2 _ Hb) as (x & y & ->).
    cbn [nproc glang gproc sproc] in Hpp. unfold sum2_proc in Hpp. cbn [length seq] in Hpp.
    destruct (mapR _ _) as [o|] eqn:E; [|done]. apply mapR_two in E as (? & ? & _ & _ & ->).
    injection Hpp as <- <-. done. }
  simpl in Hst, Hlen. subst st. destruct (length2 _ Hlen) as (x & y & ->).
  cbn [nproc glang gproc sproc] in H3. unfold sum2_proc in H3. cbn [length seq] in H3.
  destruct (mapR _ _) as [o|] eqn:E; [|done]. apply mapR_two in E as (l & r & El & Er & ->).
  injection H3 as <- <-. exists l, r, inp. split_and!; auto.
  - intros u bs. rewrite H5, (dest_edge _ (glang_ok P get) blk e p u Ht Hp).
    split; [intros (? & ? & ?); done|]. intros [(k & Hk1 & ids & Hk2 & Hk3) Hx]. split_and!; eauto.
    { exists k. split; [done|]. by exists ids. }
    intros ->. apply (ei_dest _ _ He). exists k, (pred (length ids)), ids. by rewrite <- last_lookup.
  - by eapply sum2_chan_sound.
  - by eapply sum2_chan_sound.
Qed.
Print Assumptions C21_output_of_program.

Lemma next_block_live (L : lang) blk shs e ins e' out n : einv L e -> next_block L blk shs e ins = Ok (e', out) ->
  in_table (en_info L e) n -> exists w, node_weight (en_graph L e') n = Some w.
Proof.
  intros He Hn Hi. assert (Hs : step L blk e (CNext L shs ins) = Ok (e', OBlock L out)).
  { simpl. by rewrite Hn. }
  pose proof (step_inv _ _ _ _ _ _ He Hs) as He'. pose proof (step_frame L _ _ _ _ _ Hs) as (_ & Hi' & _).
  apply (ei_live _ _ He'). right. right. by rewrite Hi'.
Qed.

Lemma zip_op_lookup op (l q : sig) t x y : l !! t = Some x -> q !! t = Some y -> zip_op op l q !! t = Some (op x y).
Proof. intros Hx Hy. unfold zip_op. rewrite lookup_zip_with, Hx. simpl. by rewrite Hy. Qed.

(** C33 for programs, C15: a [mul ~r] or [add ~r] after another component combines, in each
    block, sample t of its predecessor with sample t of the end of chain [r] (left
    channels), at every moment of a tame history: the chain and its modulator are never
    swapped or mixed up by edits made while playing. *)
Theorem C33_modulated_in_program P get blk e p k j c r op v m u shs ins e' out :
  tamely (glang P get) blk e -> en_ast (glang P get) e = Some p ->
  arith c (NRef r) op -> placed (glang P get) (en_info (glang P get) e) p k (S j) c v ->
  no_dots r -> owner (en_info (glang P get) e) m k j -> chain_end (en_info (glang P get) e) r u -> u ≠ v ->
  heard (glang P get) e v -> no_feedback (glang P get) e v ->
  next_block (glang P get) blk shs e ins = Ok (e', out) ->
  exists sm bm su bu sv bv l q o,
    node_weight (en_graph (glang P get) e') m = Some (sm, bm) /\
    node_weight (en_graph (glang P get) e') u = Some (su, bu) /\
    node_weight (en_graph (glang P get) e') v = Some (sv, bv) /\
    bm !! 0 = Some l /\ bu !! 0 = Some q /\ bv !! 0 = Some o /\
    forall t x y, l !! t = Some x -> q !! t = Some y -> o !! t = Some (op x y).
Proof.
  intros Ht Hp Ha Hpl Hnd Hm Hu Huv Hh Hnf Hn.
  destruct (tamely_inv _ (glang_ok P get) _ _ Ht) as (He & Hal & _).
  pose proof Hpl as (cs & Hk & Hc & Hown).
  assert (Hrefs : component_refs c = [r] /\ all_refs (l := glang P get) c = [r]) by (by destruct Ha as [[-> _]|[-> _]]).
  destruct Hrefs as [Hrefs Hall].
  destruct (C17_component_inputs _ (glang_ok P get) blk e p k (S j) c v shs ins e' out Ht Hp Hpl Hh Hnf Hn)
    as (st & b & st' & b' & inp & H1 & H2 & H3 & H4 & H5).
  assert (Hum : u ≠ m).
  { intros ->. destruct Hu as (ids & Hi & Hl). rewrite last_lookup in Hl.
    assert (Ho : owner (en_info (glang P get) e) m r (pred (length ids))) by (by exists ids).
    destruct (ei_inj _ _ He m _ _ _ _ Hm Ho) as [-> Hj]. destruct Hown as (ids' & Hi' & Hl').
    rewrite Hi in Hi'. injection Hi' as <-. apply lookup_lt_Some in Hl'. lia. }
  assert (Hmv : m ≠ v).
  { intros ->. destruct (ei_inj _ _ He v _ _ _ _ Hm Hown) as [_ ?]. lia. }
  destruct (next_block_live _ blk shs e ins e' out m He Hn) as [[sm bm] Hwm]; [by exists k, j|].
  destruct (next_block_live _ blk shs e ins e' out u He Hn) as [[su bu] Hwu].
  { destruct Hu as (ids & Hi & Hl). rewrite last_lookup in Hl. by exists r, (pred (length ids)), ids. }
  assert (Hperm : inp ≡ₚ [(m, bm); (u, bu)]).
  { apply NoDup_Permutation.
    - by eapply NoDup_fmap_1.
    - apply NoDup_cons. split; [|apply NoDup_singleton]. rewrite elem_of_list_singleton. intros [= ->]. done.
    - intros [n bs]. rewrite H5. unfold feeds. rewrite Hall.
      rewrite elem_of_cons, elem_of_list_singleton. split.
      + intros ([(j' & [= <-] & Hn1)|(r' & k' & Hr' & Hr2 & Hce)] & _ & sn & Hsn).
        * left. destruct Hm as (x & Hx & Hxj), Hn1 as (y & Hy & Hyj). rewrite Hx in Hy. injection Hy as <-.
          rewrite Hxj in Hyj. injection Hyj as <-. rewrite Hwm in Hsn. by injection Hsn as -> ->.
        * right. apply elem_of_list_singleton in Hr' as ->. unfold refers in Hr2. rewrite (plain_ref r Hnd) in Hr2. subst k'.
          destruct Hu as (x & Hx & Hxl), Hce as (y & Hy & Hyl). rewrite Hx in Hy. injection Hy as <-.
          rewrite Hxl in Hyl. injection Hyl as <-. rewrite Hwu in Hsn. by injection Hsn as -> ->.
      + intros [[= -> ->]|[= -> ->]].
        * split; [left; by exists j|]. split; [done|]. by exists sm.
        * split; [right; exists r, r; split; [by left|split; [|done]]; unfold refers; by rewrite (plain_ref r Hnd)|]. split; [done|]. by exists su. }
  destruct (kind_tracked P get blk e Ht p k (S j) c v (st, b) Hp Hpl H1) as (sh0 & rs0 & _ & HJ). cbn [fst] in HJ.
  assert (exists s, (st = Simple (NMul s) /\ op = fmul \/ st = Simple (NAdd s) /\ op = fadd)) as (s & Hs).
  { destruct Ha as [[-> ->]|[-> ->]]; destruct HJ as (s & HJ); exists s; [left|right]; by split. }
  assert (Hord : op_ord s = [m; u]).
  { destruct (C15_inputs_told_apart P get blk e p k (S j) c v st b r (op_ord s) Ht Hp Hpl H1 Hrefs Hnd) as (u1 & Hu1 & m1 & Hm1 & ->).
    { destruct Hs as [[-> _]|[-> _]]; done. }
    destruct Hu as (x & Hx & Hxl), Hu1 as (y & Hy & Hyl). rewrite Hx in Hy. injection Hy as <-.
    rewrite Hxl in Hyl. injection Hyl as <-.
    destruct Hm as (x1 & Hx1 & Hxj), Hm1 as (y1 & Hy1 & Hyj). rewrite Hx1 in Hy1. injection Hy1 as <-.
    rewrite Hxj in Hyj. by injection Hyj as <-. }
  assert (Hop : op_proc op s inp b = Ok (s, b')).
  { clear - H3 Hs. destruct Hs as [[-> ->]|[-> ->]]; cbn [nproc glang gproc sproc] in H3; unfold wrap, op_proc in *.
    all: revert H3; rs; destruct (apply_op _ s inp b) as [o|]; [|done]; by intros [= _ <-]. }
  destruct (in_id_perm m u bm bu inp (not_eq_sym Hum) Hperm) as (Hi1 & Hi2 & x1 & x2 & Hinp).
  revert Hop. unfold op_proc. rs. destruct (apply_op op s inp b) as [o|] eqn:Eo; [|done]. intros [= ->].
  revert Eo. unfold apply_op. destruct b as [|out_l out_r]; [by destruct inp|].
  rewrite Hinp. rewrite <- Hinp. rs. unfold in_ord. rewrite Hord. cbn [lookup list_lookup]. rewrite Hi1, Hi2. rs.
  unfold chan. match goal with |- context [unwrap ?x] => destruct x as [l|] eqn:El end; cbn [unwrap]; rs; [|done].
  match goal with |- context [unwrap ?x] => destruct x as [q|] eqn:Eq end; cbn [unwrap]; rs; [|done]. intros [= <-].
  exists sm, bm, su, bu, st', (zip_op op l q :: match out_r with [] => [] | _ :: o => zip_op op (default l (bm !! 1)) (default q (bu !! 1)) :: o end), l, q, (zip_op op l q).
  split_and!; auto. intros t x y Hx Hy. exact (zip_op_lookup op l q t x y Hx Hy).
Qed.
Print Assumptions C33_modulated_in_program.

(** ** Non-vacuity: a session with an edit while playing *)
From Verif Require Import Session.

Definition ex_prog : string := "~a: sig 2
~b: sig 3
o: sig 5 >> add 1 >> mul ~a
p: speed 2 >> seq ~b~a".
Definition ex_calls : list (call glicol) :=
  [submit "~a: sig 2
o: sig 5 >> mul ~a"; play_block; submit ex_prog; play_block].
Definition ex_engine : engine glicol := default (engine_new glicol) (tame_run glicol 8 (engine_new glicol) ex_calls).
Definition ex_ast : gmap string (list component) :=
  match get_ast c64 no_math ex_prog with Done p => p | _ => ∅ end.

Lemma ex_engine_tame : tamely glicol 8 ex_engine.
Proof.
  assert (H : match tame_run glicol 8 (engine_new glicol) ex_calls with Some _ => true | None => false end = true) by run_session.
  unfold ex_engine. destruct (tame_run glicol 8 (engine_new glicol) ex_calls) as [e|] eqn:E; [|done].
  simpl. eapply tame_run_spec; [apply tm_new|exact E].
Qed.
Lemma ex_engine_info : en_info glicol ex_engine !! "~a"%string = Some [3] /\ en_info glicol ex_engine !! "~b"%string = Some [8] /\
  en_info glicol ex_engine !! "o"%string = Some [4; 9; 5] /\ en_info glicol ex_engine !! "p"%string = Some [6; 7].
Proof. split_and!; run_session. Qed.
Lemma ex_engine_edges : edges (en_graph glicol ex_engine) = [(5, 0); (9, 5); (4, 9); (7, 0); (6, 7); (3, 5); (3, 7); (8, 7)].
Proof. run_session. Qed.
Lemma ex_engine_dest : en_dest glicol ex_engine = 0.
Proof. run_session. Qed.
Definition ex_o : list component := [CConstSig (f_of_Z 5); CAdd (Num f1); CMul (NRef "~a")].
Definition ex_seq : list (f32 * usizeref) := [(f0, URef "~b"); (fhalf, URef "~a")].
Definition ex_p : list component := [CSpeed (f_of_Z 2); CSeq ex_seq].
Lemma ex_engine_ast : exists p, en_ast glicol ex_engine = Some p /\ p !! "o"%string = Some ex_o /\ p !! "p"%string = Some ex_p.
Proof.
  assert (H : match en_ast glicol ex_engine with
              | Some p => p !! "o"%string = Some ex_o /\ p !! "p"%string = Some ex_p | None => False end)
    by (with_strategy transparent [peg_run W W1] (vm_compute; split; reflexivity)).
  destruct (en_ast glicol ex_engine) as [p|]; [|done]. by exists p.
Qed.
Lemma ex_engine_next : exists e' out, next_block glicol 8 (fun _ => id_shuffle) ex_engine [] = Ok (e', out).
Proof.
  assert (H : match next_block glicol 8 (fun _ => id_shuffle) ex_engine [] with Ok _ => true | Panic => false end = true) by run_session.
  destruct (next_block glicol 8 (fun _ => id_shuffle) ex_engine []) as [[e' out]|]; [eauto|done].
Qed.
(** What this engine plays next: 5 + 1 times 2, plus the note of the pattern. *)
Example ex_engine_plays : exists e' rest, next_block glicol 8 (fun _ => id_shuffle) ex_engine [] = Ok (e', [replicate 8 (f_of_Z 12); rest]).
Proof.
  assert (H : match next_block glicol 8 (fun _ => id_shuffle) ex_engine [] with Ok (_, [l; _]) => l = replicate 8 (f_of_Z 12) | _ => False end) by run_session.
  destruct (next_block glicol 8 (fun _ => id_shuffle) ex_engine []) as [[e' [|l [|r [|]]]]|]; try done. subst l. eauto.
Qed.
Local Opaque ex_engine.
Ltac ex_in H := rewrite !elem_of_cons, elem_of_nil in H;
  repeat (destruct H as [H|H]; [pose proof (f_equal fst H); pose proof (f_equal snd H); simpl in *; lia|]); done.
Lemma ex_heard : heard glicol ex_engine 5 /\ no_feedback glicol ex_engine 5.
Proof.
  unfold heard, no_feedback, reaches, edge. rewrite ex_engine_edges, ex_engine_dest. split.
  - eapply rtc_l; [|constructor]. by left.
  - intros u Hu _ Hr. assert (Hin : u = 5 \/ u = 0).
    { eapply (rtc_ind_r (fun z => z = 5 \/ z = 0) 5); [by left| |exact Hr].
      intros y z _ Hyz Hy. cbv beta in Hyz. ex_in Hyz. }
    ex_in Hu.
Qed.
Lemma ex_owner (t : gmap string (list nat)) k i n ids : t !! k = Some ids -> ids !! i = Some n -> owner t n k i.
Proof. intros. by exists ids. Qed.
Lemma ex_end (t : gmap string (list nat)) k n ids : t !! k = Some ids -> last ids = Some n -> chain_end t k n.
Proof. intros. by exists ids. Qed.
Lemma ex_placed (L : lang) t (p : gmap string (list (comp L))) k i c n cs ids :
  p !! k = Some cs -> cs !! i = Some c -> t !! k = Some ids -> ids !! i = Some n -> placed L t p k i c n.
Proof. intros. exists cs. split_and!; auto. by exists ids. Qed.

Example C04_plays_case : exists p, tamely glicol 8 ex_engine /\ en_ast glicol ex_engine = Some p /\ p !! "o"%string = Some ex_o.
Proof. destruct ex_engine_ast as (p & H1 & H2 & H3). exists p. split_and!; [apply ex_engine_tame|exact H1|exact H2]. Qed.
Example C17_component_case : exists p e' out, tamely glicol 8 ex_engine /\ en_ast glicol ex_engine = Some p /\
  placed glicol (en_info glicol ex_engine) p "o" 2 (CMul (NRef "~a")) 5 /\
  heard glicol ex_engine 5 /\ no_feedback glicol ex_engine 5 /\
  next_block glicol 8 (fun _ => id_shuffle) ex_engine [] = Ok (e', out) /\
  owner (en_info glicol ex_engine) 9 "o" 1 /\ chain_end (en_info glicol ex_engine) "~a" 3 /\ no_dots "~a".
Proof.
  destruct ex_engine_ast as (p & H1 & H2 & H3), ex_engine_next as (e' & out & Hn), ex_heard as [Hh Hf].
  destruct ex_engine_info as (I1 & I2 & I3 & I4). exists p, e', out.
  split_and!; [apply ex_engine_tame|exact H1|exact (ex_placed glicol _ p "o" 2 _ 5 ex_o _ H2 eq_refl I3 eq_refl)|exact Hh|exact Hf|exact Hn
    |exact (ex_owner _ "o" 1 9 _ I3 eq_refl)|exact (ex_end _ "~a" 3 _ I1 eq_refl)|reflexivity].
Qed.
Example C13_seq_references_case : exists p w, tamely glicol 8 ex_engine /\ en_ast glicol ex_engine = Some p /\
  placed glicol (en_info glicol ex_engine) p "p" 1 (CSeq ex_seq) 7 /\
  node_weight (en_graph glicol ex_engine) 7 = Some w /\
  NoDup (component_refs (CSeq ex_seq)) /\ Forall no_dots (component_refs (CSeq ex_seq)).
Proof.
  destruct ex_engine_ast as (p & H1 & H2 & H3). destruct ex_engine_info as (I1 & I2 & I3 & I4).
  pose proof (ex_owner _ "p" 1 7 _ I4 eq_refl) as Ho.
  destruct (tamely_inv _ (glang_ok _ _) _ _ ex_engine_tame) as (He & _ & _).
  assert (Hl : live (en_graph glicol ex_engine) 7) by (apply (ei_live _ _ He); right; right; exists "p"%string, 1; exact Ho).
  destruct Hl as [w Hw]. exists p, w.
  split_and!; [apply ex_engine_tame|exact H1|exact (ex_placed glicol _ p "p" 1 _ 7 ex_p _ H3 eq_refl I4 eq_refl)|exact Hw| |].
  - apply (bool_decide_unpack _). reflexivity.
  - repeat constructor.
Qed.

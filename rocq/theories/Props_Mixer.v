(** * C75, C76, C77: mix, balance and get.

    Vocabulary: see Props_Update.v and Props_Inputs.v. *)
From Verif Require Import InputProofs BlockProofs WeightProofs FullProofs SafeNet Props_Signal Props_Inputs Props_Blocks.
From Verif Require Import Session.
From Coq Require Import Lia.
Local Open Scope nat_scope.

Section mixer.
  Context (P : platform) (get : string -> outcome (gmap string (list component))).
  Notation L := (glang P get).

  (** ** Their nodes have two channels *)
  Definition router (st : gnode P) : bool :=
    match st with Simple NSum2 | Simple NPass | Simple (NBalance _) => true | _ => false end.
  Lemma router_msg st m st' : gmsg P st m = Ok st' -> router st' = router st.
  Proof.
    destruct st as [n|c]; cbn [gmsg]; unfold wrapm.
    - destruct (smsg P n m) as [n'|] eqn:E; [|done]. intros [= <-]. apply (tag_msg P) in E. destruct n, n'; try discriminate E; reflexivity.
    - destruct (compound_msg P c m); [|done]. by intros [= <-].
  Qed.
  Lemma router_proc st ins b st' b' : gproc P st ins b = Ok (st', b') -> router st' = router st.
  Proof.
    destruct st as [n|c]; cbn [gproc]; intros (s' & H & ->)%wrap_inv; [|done]. apply (tag_proc P) in H. destruct n, s'; try discriminate H; reflexivity.
  Qed.
  Lemma router_made ev c w refs : makenode_ P ev c = Done (w, refs) -> router w.1 = true -> length w.2 = 2.
  Proof.
    assert (Hb : forall n ch r w r', router (Simple n) = false \/ ch = 2 -> boxed P n ch r = Done (w, r') -> router w.1 = true -> length w.2 = 2).
    { intros n ch r w0 r' Hn. unfold boxed. intros [= <- _]. cbn [fst snd]. destruct Hn as [->| ->]; [done|]. reflexivity. }
    assert (Hr : forall x ch r w r', (forall n, x = Ok n -> router (Simple n) = false \/ ch = 2) -> boxed_res P x ch r = Done (w, r') -> router w.1 = true -> length w.2 = 2).
    { intros [n|] ch r w0 r' Hn; [|done]. unfold boxed_res. by apply Hb, Hn. }
    assert (Hc : forall x ch r w r', boxed_comp P x ch r = Done (w, r') -> router w.1 = true -> length w.2 = 2).
    { intros [n|] ch r w0 r'; [|done]. unfold boxed_comp. by intros [= <- _]. }
    destruct c; cbn [makenode_];
      repeat match goal with
      | |- boxed_comp _ _ _ _ = _ -> _ => apply Hc
      | |- boxed_res _ _ _ _ = _ -> _ => apply Hr; intros n; rs
      | |- boxed _ _ _ _ = _ -> _ => apply Hb; first [by left|by right]
      | |- Crash = _ -> _ => discriminate
      | |- Fail _ = _ -> _ => discriminate
      | |- (match ?x with _ => _ end) = _ -> _ => destruct x
      | |- Ok _ = Ok _ -> _ => intros H; injection H as <-; by left
      end; try discriminate.
  Qed.
  Lemma router_two blk e v st b : reachable L blk e -> node_weight (en_graph L e) v = Some (st, b) -> router st = true ->
    exists l r, b = [l; r] /\ length l = p_blk P /\ length r = p_blk P.
  Proof.
    intros He Hw Hr. assert (H : en_dest L e = 0 /\ gall (fun (_ : nat) (st : gnode P) (b : list sig) => router st = true -> length b = 2) (en_graph L e)).
    { refine (reachable_all L (fun (_ : nat) (st : gnode P) (b : list sig) => router st = true -> length b = 2) _ _ _ _ _ _ blk e He).
      - reflexivity.
      - reflexivity.
      - intros n ev c w refs _ Hm. exact (router_made ev c w refs Hm).
      - intros n s b0 m s' H Hm Hq. apply H. by rewrite <- (router_msg _ _ _ Hm).
      - intros n s ins b0 s' b' H _ Hp Hq. pose proof (gproc_length _ _ _ _ _ _ Hp) as Hl. rewrite (router_proc _ _ _ _ _ Hp) in Hq.
        etransitivity; [exact Hl|by apply H].
      - intros n s bs ch b0 s0 b' H _ _ Hq. rewrite insert_length. by apply H. }
    pose proof (proj2 H v (st, b) Hw Hr) as Hl. cbn [snd] in Hl. destruct (length2 _ Hl) as (l & r & ->). exists l, r. split; [done|].
    split; eapply (C21_nodes_full P get blk e v st); try eassumption; [by left|by right; left].
  Qed.

  (** ** Which nodes they are *)
  Definition routing (tr : list msg) (c : component) (st : gnode P) : Prop :=
    match c with
    | CMix _ => st = Simple NSum2
    | CGet _ => st = Simple NPass
    | CBalance _ _ => exists o, st = Simple (NBalance o)
    | _ => True
    end.
  Lemma routing_msg tr tr' c st m st' : routing tr c st -> gmsg P st m = Ok st' -> routing tr' c st'.
  Proof.
    assert (Hb : forall o, gmsg P (Simple (NBalance o)) m = Ok st' -> exists o', st' = Simple (NBalance o')).
    { intros o H. pose proof H as H'. cbn [gmsg] in H. unfold wrapm in H. destruct (smsg P (NBalance o) m) as [n|] eqn:E; [|done]. injection H as <-.
      apply (tag_msg P) in E. destruct n; try discriminate E. by eexists. }
    destruct c; try done; cbn [routing].
    all: first [intros ->; by intros [= <-]|intros (o & ->); apply Hb].
  Qed.
  Lemma routing_msgs tr tr' c ms st st' : routing tr c st -> foldM (gmsg P) st ms = Ok st' -> routing tr' c st'.
  Proof.
    revert st. induction ms as [|m ms IH]; intros st H; cbn [foldM].
    - intros [= <-]. exact H.
    - destruct (gmsg P st m) as [st1|] eqn:E; [|done]. apply IH. exact (routing_msg tr tr c st m st1 H E).
  Qed.
  Lemma routing_tracked blk e : tamely L blk e -> tracked L routing e.
  Proof.
    apply tamely_tracked; [apply glang_ok|..].
    - intros ev c w refs sh t k i st Hmk Hf. eapply (routing_msgs []); [|exact Hf]. destruct c; try exact I; cbn [makenode glang makenode_] in Hmk; unfold boxed in Hmk; injection Hmk as <- _; try reflexivity. by eexists.
    - intros tr a b st0 sh t k i st Hk Heq Hf. eapply (routing_msgs []); [|exact Hf]. change (component_eqb a b = true) in Heq. destruct a, b; try discriminate Heq; exact Hk.
    - intros tr c st m st' Hk Hu Hm. exact (routing_msg tr tr c st m st' Hk Hm).
    - intros tr c st ins b st' b' Hk Hp. destruct c; try exact I; cbn [routing] in *.
      all: try (destruct Hk as (o & ->); cbn [nproc glang gproc] in Hp; apply wrap_inv in Hp as (n & Hp & ->); cbn [sproc] in Hp; apply wrap_inv in Hp as (o' & Hp & ->); by eexists).
      all: subst st; cbn [nproc glang gproc] in Hp; apply wrap_inv in Hp as (n & Hp & ->); apply (tag_proc P) in Hp; destruct n; try discriminate Hp; reflexivity.
  Qed.

  (** ** What they put out *)

  (** The buffers of the ends of the chains that are named, after a block. *)
  Definition named_ends (e e' : engine L) (rs : list string) (l : list (nat * list sig)) : Prop :=
    Forall2 (fun r q => chain_end (en_info L e) r q.1 /\ exists su, node_weight (en_graph L e') q.1 = Some (su, q.2)) rs l.
  Definition sum_of (l : list (nat * list sig)) (ch : nat) : sig := map (fun t => foldl fadd f0 (map (contrib ch t) l)) (seq 0 (p_blk P)).

  (** C75, at any place of a chain: [mix] adds up, on each channel and sample by sample, the
      component before it and the ends of all the chains it names (a mono input counts for both
      channels), each once, and never itself. *)
  Theorem C75_mix_anywhere blk e p k i rs v shs ins e' out :
    tamely L blk e -> en_ast L e = Some p -> placed L (en_info L e) p k i (CMix rs) v ->
    heard L e v -> no_feedback L e v -> next_block L blk shs e ins = Ok (e', out) ->
    exists sv inp, node_weight (en_graph L e') v = Some (sv, [sum_of inp 0; sum_of inp 1]) /\ NoDup inp.*1 /\
      forall u bs, (u, bs) ∈ inp <-> feeds L e (CMix rs) k i u /\ u ≠ v /\ exists su, node_weight (en_graph L e') u = Some (su, bs).
  Proof.
    intros Ht Hp Hpl Hh Hnf Hn. pose proof (tamely_reachable _ _ _ Ht) as He. pose proof (reachable_next _ _ _ _ _ _ _ He Hn) as He'.
    destruct (C17_component_inputs _ (glang_ok P get) blk e p k i _ v shs ins e' out Ht Hp Hpl Hh Hnf Hn) as (st & b & st' & b' & inp & H1 & H2 & H3 & H4 & H5).
    destruct (routing_tracked blk e Ht p k i _ v (st, b) Hp Hpl H1) as (sh0 & rs0 & _ & Hst). cbn [fst routing] in Hst. subst st.
    exists st', inp. split; [|by split]. rewrite H2.
    destruct (router_two blk e v _ b He H1 eq_refl) as (l0 & r0 & -> & _ & _). cbn [nproc glang gproc sproc] in H3. unfold sum2_proc in H3. cbn [length seq] in H3.
    destruct (mapR _ _) as [o|] eqn:E; [|done]. apply mapR_two in E as (l & r & El & Er & ->). injection H3 as <- <-.
    destruct (router_two blk e' v _ _ He' H2 eq_refl) as (l1 & r1 & Hlr & Hl & Hr). injection Hlr as <- <-.
    do 2 f_equal. assert (Hx : forall (q : sig) c, length q = p_blk P -> (forall t x, q !! t = Some x -> x = foldl fadd f0 (map (contrib c t) inp)) -> q = sum_of inp c).
    { intros q c Hlq Hq. apply list_eq. intros t. unfold sum_of. rewrite list_lookup_fmap. destruct (decide (t < p_blk P)) as [Hlt|Hge].
      - rewrite lookup_seq_lt by done. destruct (lookup_lt_is_Some_2 q t) as [x Hx]; [lia|]. rewrite Hx. cbn. f_equal. by apply Hq.
      - rewrite lookup_ge_None_2 by lia. symmetry. apply fmap_None, lookup_seq_ge. lia. }
    f_equal; [|f_equal]; apply Hx; try done; by eapply sum2_chan_sound.
  Qed.

  Lemma end_of_chain e k u : einv L e -> chain_end (en_info L e) k u -> exists j, owner (en_info L e) u k j.
  Proof. intros _ (ids & Hi & Hl). rewrite last_lookup in Hl. by exists (pred (length ids)), ids. Qed.

  (** The inputs of a component at the head of its chain with plain references. *)
  Lemma head_inputs blk e p k c v shs ins e' out inp : tamely L blk e -> en_ast L e = Some p -> placed L (en_info L e) p k 0 c v ->
    next_block L blk shs e ins = Ok (e', out) ->
    NoDup (component_refs c) -> Forall no_dots (component_refs c) -> k ∉ component_refs c -> NoDup inp.*1 ->
    (forall u bs, (u, bs) ∈ inp <-> feeds L e c k 0 u /\ u ≠ v /\ exists su, node_weight (en_graph L e') u = Some (su, bs)) ->
    exists l, named_ends e e' (component_refs c) l /\ inp ≡ₚ l.
  Proof.
    intros Ht Hp Hpl Hn Hnd Hdots Hk Hni Hin. destruct (tamely_inv _ (glang_ok P get) _ _ Ht) as (He & Hal & _).
    assert (Hall : forall rs, (forall r, r ∈ rs -> r ∈ component_refs c) -> exists l, named_ends e e' rs l).
    { induction rs as [|r rs IH]; intros Hr; [exists []; constructor|]. destruct IH as [l Hl]; [intros r0 Hr0; apply Hr; by right|].
      assert (Hd : no_dots r) by (rewrite Forall_forall in Hdots; apply Hdots, Hr; by left).
      destruct (plain_target P get blk e p k 0 c v r id_shuffle Ht Hp Hpl) as (u & Hu & _); [apply Hr; by left|done|].
      destruct (next_block_live _ blk shs e ins e' out u He Hn) as [[su bu] Hwu].
      { destruct (end_of_chain e r u He Hu) as (j & Hj). by exists r, j. }
      exists ((u, bu) :: l). constructor; [|done]. split; [done|]. by exists su. }
    destruct (Hall (component_refs c)) as [l Hl]; [done|]. exists l. split; [done|].
    assert (Hmem : forall u bs, (u, bs) ∈ l <-> exists r, r ∈ component_refs c /\ chain_end (en_info L e) r u /\ exists su, node_weight (en_graph L e') u = Some (su, bs)).
    { intros u bs. split.
      - intros [j Hj]%elem_of_list_lookup. destruct (Forall2_lookup_r _ _ _ _ _ Hl Hj) as (r & Hr & Hc & Hs). exists r. split; [by eapply elem_of_list_lookup_2|done].
      - intros (r & [j Hj]%elem_of_list_lookup & Hc & su & Hs). destruct (Forall2_lookup_l _ _ _ _ _ Hl Hj) as ([u' bs'] & Hq & Hc' & su' & Hs'). cbn [fst snd] in *.
        destruct Hc as (x & Hx & Hxl), Hc' as (y & Hy & Hyl). rewrite Hx in Hy. injection Hy as <-. rewrite Hxl in Hyl. injection Hyl as <-.
        rewrite Hs in Hs'. injection Hs' as _ <-. by eapply elem_of_list_lookup_2. }
    apply NoDup_Permutation.
    - by eapply NoDup_fmap_1.
    - apply NoDup_alt. intros a b q Ha Hb. destruct (Forall2_lookup_r _ _ _ _ _ Hl Ha) as (r & Hr & Hc & _), (Forall2_lookup_r _ _ _ _ _ Hl Hb) as (r' & Hr' & Hc' & _).
      destruct (end_of_chain e r q.1 He Hc) as (j & Hj), (end_of_chain e r' q.1 He Hc') as (j' & Hj').
      destruct (ei_inj _ _ He q.1 r j r' j' Hj Hj') as [<- _]. exact (NoDup_lookup _ a b r Hnd Hr Hr').
    - intros [u bs]. rewrite Hin, Hmem. unfold feeds. cbn [all_refs glang]. split.
      + intros ([(j & [=] & _)|(r & k' & Hr & Hrk & Hc)] & _ & Hs). exists r. split; [done|]. unfold refers in Hrk.
        rewrite Forall_forall in Hdots. rewrite (plain_ref r (Hdots r Hr)) in Hrk. by subst k'.
      + intros (r & Hr & Hc & Hs). split_and!; [|intros ->|done].
        * right. exists r, r. split_and!; try done. unfold refers. rewrite Forall_forall in Hdots. by rewrite (plain_ref r (Hdots r Hr)).
        * destruct (end_of_chain e r v He Hc) as (j & Hj). destruct Hpl as (cs & _ & _ & Hv). destruct (ei_inj _ _ He v k 0 r j Hv Hj) as [<- _]. done.
  Qed.

  (** C75: at the head of a chain, [mix] puts out on each channel, sample by sample, the sum of
      the ends of all the chains it names (mono chains on both channels), in some order, when it
      names no chain twice, no chains by prefix and not its own. *)
  Theorem C75_mix_partial blk e p k rs v shs ins e' out :
    tamely L blk e -> en_ast L e = Some p -> placed L (en_info L e) p k 0 (CMix rs) v -> heard L e v -> no_feedback L e v ->
    NoDup rs -> Forall no_dots rs -> k ∉ rs ->
    next_block L blk shs e ins = Ok (e', out) ->
    exists sv l inp, node_weight (en_graph L e') v = Some (sv, [sum_of inp 0; sum_of inp 1]) /\ named_ends e e' rs l /\ inp ≡ₚ l.
  Proof.
    intros Ht Hp Hpl Hh Hnf Hnd Hdots Hk Hn. destruct (C75_mix_anywhere blk e p k 0 rs v shs ins e' out Ht Hp Hpl Hh Hnf Hn) as (sv & inp & H1 & H2 & H3).
    destruct (head_inputs blk e p k (CMix rs) v shs ins e' out inp Ht Hp Hpl Hn Hnd Hdots Hk H2 H3) as (l & Hl & Hperm). by exists sv, l, inp.
  Qed.

  Lemma balance_parts u1 u2 (b1 b2 : list sig) (inp : inmap) l0 r0 o' b' x1 x2 : in_id inp u1 = Ok b1 -> in_id inp u2 = Ok b2 -> inp = [x1; x2] ->
    balance_proc [u1; u2] inp [l0; r0] = Ok (o', b') -> exists lf rt, b1 !! 0 = Some lf /\ b2 !! 0 = Some rt /\ b' = [lf; rt].
  Proof.
    intros Hi1 Hi2 Hinp. unfold balance_proc. rewrite Hinp. rewrite <- Hinp. unfold in_ord. cbn [lookup list_lookup]. rs. rewrite Hi1, Hi2.
    unfold chan. destruct b1 as [|lf q1]; cbn; [done|]. destruct b2 as [|rt q2]; cbn; [done|]. intros [= _ <-]. by exists lf, rt.
  Qed.

  (** C76: at the head of a chain, [balance] plays its first chain on the left and its second
      chain on the right, taking the first channel of each, when the two differ and neither is
      its own. *)
  Theorem C76_balance_partial blk e p k r1 r2 v shs ins e' out :
    tamely L blk e -> en_ast L e = Some p -> placed L (en_info L e) p k 0 (CBalance r1 r2) v -> heard L e v -> no_feedback L e v ->
    r1 ≠ r2 -> no_dots r1 -> no_dots r2 -> k ≠ r1 -> k ≠ r2 ->
    next_block L blk shs e ins = Ok (e', out) ->
    exists sv lf rt u1 s1 b1 u2 s2 b2, node_weight (en_graph L e') v = Some (sv, [lf; rt]) /\
      chain_end (en_info L e) r1 u1 /\ node_weight (en_graph L e') u1 = Some (s1, b1) /\ b1 !! 0 = Some lf /\
      chain_end (en_info L e) r2 u2 /\ node_weight (en_graph L e') u2 = Some (s2, b2) /\ b2 !! 0 = Some rt.
  Proof.
    intros Ht Hp Hpl Hh Hnf Hne Hd1 Hd2 Hk1 Hk2 Hn. pose proof (tamely_reachable _ _ _ Ht) as He0. destruct (tamely_inv _ (glang_ok P get) _ _ Ht) as (He & _ & _).
    destruct (C17_component_inputs _ (glang_ok P get) blk e p k 0 _ v shs ins e' out Ht Hp Hpl Hh Hnf Hn) as (st & b & st' & b' & inp & H1 & H2 & H3 & H4 & H5).
    destruct (routing_tracked blk e Ht p k 0 _ v (st, b) Hp Hpl H1) as (sh0 & rs0 & _ & (o & Hst)). cbn [fst] in Hst. subst st.
    assert (Hnd : NoDup [r1; r2]) by (apply NoDup_cons; split; [by rewrite elem_of_list_singleton|apply NoDup_singleton]).
    assert (Hdots : Forall no_dots [r1; r2]) by (by repeat constructor).
    destruct (head_inputs blk e p k (CBalance r1 r2) v shs ins e' out inp Ht Hp Hpl Hn Hnd Hdots) as (l & Hl & Hperm); [|exact H4|exact H5|].
    { cbn [component_refs]. rewrite elem_of_cons, elem_of_list_singleton. by intros [?|?]. }
    cbn [component_refs] in Hl. apply Forall2_cons_inv_l in Hl as ([u1 b1] & l1 & [Hc1 [s1 Hw1]] & Hl & ->). apply Forall2_cons_inv_l in Hl as ([u2 b2] & l2 & [Hc2 [s2 Hw2]] & Hl & ->).
    apply Forall2_nil_inv_l in Hl as ->. cbn [fst snd] in *.
    destruct (input_list P get blk e p k 0 _ v _ b o Ht Hp Hpl H1) as (sh & Ho); [done|exact Hnd|done|].
    destruct (plain_target P get blk e p k 0 _ v r1 sh Ht Hp Hpl) as (w1 & Hv1 & Ht1); [by left|done|].
    destruct (plain_target P get blk e p k 0 _ v r2 sh Ht Hp Hpl) as (w2 & Hv2 & Ht2); [by right; left|done|].
    assert (Hu : forall r u w, chain_end (en_info L e) r u -> chain_end (en_info L e) r w -> w = u).
    { intros r u w (x & Hx & Hxl) (y & Hy & Hyl). rewrite Hx in Hy. injection Hy as <-. rewrite Hxl in Hyl. by injection Hyl. }
    rewrite (Hu r1 u1 w1 Hc1 Hv1) in Ht1. rewrite (Hu r2 u2 w2 Hc2 Hv2) in Ht2.
    cbn [component_refs mbind list_bind] in Ho. rewrite Ht1, Ht2 in Ho. cbn in Ho. subst o.
    assert (Hne' : u1 ≠ u2).
    { intros ->. destruct (end_of_chain e r1 u2 He Hc1) as (j & Hj), (end_of_chain e r2 u2 He Hc2) as (j' & Hj'). by destruct (ei_inj _ _ He u2 r1 j r2 j' Hj Hj'). }
    destruct (in_id_perm u1 u2 b1 b2 inp Hne' Hperm) as (Hi1 & Hi2 & x1 & x2 & Hinp).
    destruct (router_two blk e v _ b He0 H1 eq_refl) as (l0 & r0 & -> & _ & _).
    cbn [nproc glang gproc sproc] in H3. apply wrap_inv in H3 as (n & H3 & ->). apply wrap_inv in H3 as (o' & H3 & ->).
    destruct (balance_parts u1 u2 b1 b2 inp l0 r0 o' b' x1 x2 Hi1 Hi2 Hinp H3) as (lf & rt & E1 & E2 & ->).
    exists (Simple (NBalance o')), lf, rt, u1, s1, b1, u2, s2, b2. by split_and!.
  Qed.

  (** C77: at the head of a chain, [get] plays the chain it names: a stereo chain as it is, a
      mono chain on both channels. *)
  Theorem C77_get_partial blk e p k r v shs ins e' out :
    tamely L blk e -> en_ast L e = Some p -> placed L (en_info L e) p k 0 (CGet r) v -> heard L e v -> no_feedback L e v ->
    no_dots r -> k ≠ r ->
    next_block L blk shs e ins = Ok (e', out) ->
    exists sv lf rt u su bu, node_weight (en_graph L e') v = Some (sv, [lf; rt]) /\
      chain_end (en_info L e) r u /\ node_weight (en_graph L e') u = Some (su, bu) /\
      (forall x, bu = [x] -> lf = x /\ rt = x) /\ forall x y, bu = [x; y] -> lf = x /\ rt = y.
  Proof.
    intros Ht Hp Hpl Hh Hnf Hd Hk Hn. pose proof (tamely_reachable _ _ _ Ht) as He0.
    destruct (C17_component_inputs _ (glang_ok P get) blk e p k 0 _ v shs ins e' out Ht Hp Hpl Hh Hnf Hn) as (st & b & st' & b' & inp & H1 & H2 & H3 & H4 & H5).
    destruct (routing_tracked blk e Ht p k 0 _ v (st, b) Hp Hpl H1) as (sh0 & rs0 & _ & Hst). cbn [fst routing] in Hst. subst st.
    destruct (head_inputs blk e p k (CGet r) v shs ins e' out inp Ht Hp Hpl Hn) as (l & Hl & Hperm); [apply NoDup_singleton|by repeat constructor| |exact H4|exact H5|].
    { cbn [component_refs]. by rewrite elem_of_list_singleton. }
    cbn [component_refs] in Hl. apply Forall2_cons_inv_l in Hl as ([u bu] & l1 & [Hc [su Hw]] & Hl & ->). apply Forall2_nil_inv_l in Hl as ->. cbn [fst snd] in *.
    apply Permutation_singleton_r in Hperm. subst inp.
    destruct (router_two blk e v _ b He0 H1 eq_refl) as (l0 & r0 & -> & _ & _). pose proof (reachable_next _ _ _ _ _ _ _ He0 Hn) as He'.
    cbn [nproc glang gproc sproc] in H3. injection H3 as <- <-.
    destruct (router_two blk e' v _ _ He' H2 eq_refl) as (lf & rt & E & _ & _). rewrite E in H2.
    exists (Simple NPass), lf, rt, u, su, bu. split_and!; try done.
    - intros x ->. cbn in E. by injection E as <- <-.
    - intros x y ->. cbn in E. by injection E as <- <-.
  Qed.
End mixer.
Print Assumptions C75_mix_anywhere.
Print Assumptions C75_mix_partial.
Print Assumptions C76_balance_partial.
Print Assumptions C77_get_partial.

(** ** Non-vacuity: one engine with all three *)

Definition mx_head : string := "~a: sig 1
~b: sig 2
".
Definition mx_calls : list (call glicol) :=
  [submit "~a: sig 1
o: get ~a"; play_block; submit (mx_head ++ "o: mix ~a ~b
p: balance ~a ~b
q: get ~a"); play_block].
Definition mx_engine : engine glicol := default (engine_new glicol) (tame_run glicol 8 (engine_new glicol) mx_calls).
Lemma mx_tame : tamely glicol 8 mx_engine.
Proof.
  assert (H : match tame_run glicol 8 (engine_new glicol) mx_calls with Some _ => true | None => false end = true) by run_session.
  unfold mx_engine. destruct (tame_run glicol 8 (engine_new glicol) mx_calls) as [e|] eqn:E; [|done].
  simpl. eapply tame_run_spec; [apply tm_new|exact E].
Qed.
Lemma mx_info : en_info glicol mx_engine !! "~a"%string = Some [3] /\ en_info glicol mx_engine !! "~b"%string = Some [6] /\
  en_info glicol mx_engine !! "o"%string = Some [8] /\ en_info glicol mx_engine !! "p"%string = Some [5] /\ en_info glicol mx_engine !! "q"%string = Some [7].
Proof. split_and!; run_session. Qed.
Lemma mx_edges : edges (en_graph glicol mx_engine) = [(8, 0); (7, 0); (5, 0); (6, 8); (3, 8); (3, 7); (6, 5); (3, 5)].
Proof. run_session. Qed.
Lemma mx_dest : en_dest glicol mx_engine = 0.
Proof. run_session. Qed.
Lemma mx_ast : exists p, en_ast glicol mx_engine = Some p /\ p !! "o"%string = Some [CMix ["~a"; "~b"]%string] /\
  p !! "p"%string = Some [CBalance "~a" "~b"] /\ p !! "q"%string = Some [CGet "~a"].
Proof.
  assert (H : match en_ast glicol mx_engine with
              | Some p => p !! "o"%string = Some [CMix ["~a"; "~b"]%string] /\ p !! "p"%string = Some [CBalance "~a" "~b"] /\ p !! "q"%string = Some [CGet "~a"]
              | None => False end)
    by (with_strategy transparent [peg_run W W1] (vm_compute; split_and!; reflexivity)).
  destruct (en_ast glicol mx_engine) as [p|]; [|done]. by exists p.
Qed.
Lemma mx_next : exists e', next_block glicol 8 (fun _ => id_shuffle) mx_engine [] = Ok (e', [replicate 8 (f_of_Z 5); replicate 8 (f_of_Z 6)]).
Proof.
  assert (H : match next_block glicol 8 (fun _ => id_shuffle) mx_engine [] with Ok (_, o) => o = [replicate 8 (f_of_Z 5); replicate 8 (f_of_Z 6)] | Panic => False end) by run_session.
  destruct (next_block glicol 8 (fun _ => id_shuffle) mx_engine []) as [[e' o]|]; [|done]. rewrite H. by exists e'.
Qed.
Local Opaque mx_engine.
Lemma mx_heard v : v ∈ [5; 7; 8] -> heard glicol mx_engine v /\ no_feedback glicol mx_engine v.
Proof.
  intros Hv. unfold heard, no_feedback, reaches, edge. rewrite mx_edges, mx_dest.
  rewrite !elem_of_cons, elem_of_nil in Hv. destruct Hv as [->|[->|[->|[]]]]; split; try (eapply rtc_l; [|constructor]; set_solver).
  all: intros u Hu _ Hr; match type of Hr with rtc _ ?v u =>
      assert (Hin : u = v \/ u = 0); [eapply (rtc_ind_r (fun z => z = v \/ z = 0) v); [by left| |exact Hr]; intros y z _ Hyz Hy; cbv beta in Hyz; ex_in Hyz|] end; ex_in Hu.
Qed.

(** The engine meets the hypotheses of all the theorems above; what they say adds up to the
    5 on the left (3, 1, 1) and 6 on the right (3, 2, 1) that it plays. *)
Example C75_C76_C77_case : exists p e', tamely glicol 8 mx_engine /\ en_ast glicol mx_engine = Some p /\
  placed glicol (en_info glicol mx_engine) p "o" 0 (CMix ["~a"; "~b"]%string) 8 /\
  placed glicol (en_info glicol mx_engine) p "p" 0 (CBalance "~a" "~b") 5 /\
  placed glicol (en_info glicol mx_engine) p "q" 0 (CGet "~a") 7 /\
  (forall v, v ∈ [5; 7; 8] -> heard glicol mx_engine v /\ no_feedback glicol mx_engine v) /\
  NoDup ["~a"; "~b"]%string /\ Forall no_dots ["~a"; "~b"]%string /\ "o"%string ∉ ["~a"; "~b"]%string /\
  next_block glicol 8 (fun _ => id_shuffle) mx_engine [] = Ok (e', [replicate 8 (f_of_Z 5); replicate 8 (f_of_Z 6)]).
Proof.
  destruct mx_ast as (p & H1 & H2 & H3 & H4), mx_next as (e' & Hn), mx_info as (_ & _ & I3 & I4 & I5). exists p, e'.
  split; [exact mx_tame|]. split; [exact H1|].
  split; [exact (ex_placed glicol _ p "o" 0 _ 8 _ _ H2 eq_refl I3 eq_refl)|].
  split; [exact (ex_placed glicol _ p "p" 0 _ 5 _ _ H3 eq_refl I4 eq_refl)|].
  split; [exact (ex_placed glicol _ p "q" 0 _ 7 _ _ H4 eq_refl I5 eq_refl)|].
  split; [exact mx_heard|]. split; [by apply (bool_decide_unpack _)|]. split; [by repeat constructor|]. split; [by apply (bool_decide_unpack _)|]. exact Hn.
Qed.

(** ** What is false of the three in general *)

(** A chain named twice is added once: [mix ~a ~a] plays what [get ~a] plays. *)
Theorem C75_named_twice_refuted :
  sees [submit "~a: sig 1
~b: sig 1
o: mix ~a ~b"; play_block] = [Quiet; level 2] /\
  sees [submit "~a: sig 1
~b: sig 1
o: mix ~a ~a"; play_block] = [Quiet; level 1].
Proof. split; run_session. Qed.
Print Assumptions C75_named_twice_refuted.

(** A chain may name itself in [mix]; the reference is then ignored, in every block. *)
Theorem C75_names_itself_refuted :
  sees [submit "~a: sig 1
~p: mix ~a ~p
o: get ~p"; play_block; play_block; play_block] = [Quiet; level 1; level 1; level 1].
Proof. run_session. Qed.
Print Assumptions C75_names_itself_refuted.

(** [balance] with the same chain for both sides is silent, and so is a [balance] that follows
    another component. *)
Theorem C76_silent_refuted :
  sees [submit (mx_head ++ "o: balance ~a ~b"); play_block] = [Quiet; Played [replicate 8 (f_of_Z 1); replicate 8 (f_of_Z 2)]] /\
  sees [submit (mx_head ++ "o: balance ~a ~a"); play_block] = [Quiet; Played [replicate 8 f0; replicate 8 f0]] /\
  sees [submit (mx_head ++ "o: sig 4 >> balance ~a ~b"); play_block] = [Quiet; Played [replicate 8 f0; replicate 8 f0]].
Proof. split_and!; run_session. Qed.
Print Assumptions C76_silent_refuted.

(** A [get] that follows another component plays either that component or the chain it names:
    which one depends on the order in which a hash map is walked. *)
Theorem C77_after_another_refuted :
  sees [submit (mx_head ++ "o: sig 4 >> get ~b"); CNext glicol (fun _ => id_shuffle) []] = [Quiet; level 4] /\
  sees [submit (mx_head ++ "o: sig 4 >> get ~b"); CNext glicol (fun _ => rev_shuffle) []] = [Quiet; level 2].
Proof. split; run_session. Qed.
Print Assumptions C77_after_another_refuted.

(** * C79: a component of a running program does over time what it does alone.

    The node properties (Props_Delay.v, Props_Range.v, Props_Seq.v, ...) are about one node
    that is handed its inputs block by block ([play]).  Here they are carried over to
    programs: what the node of a component puts out during any number of calls of
    [next_block] is what [play] says for the blocks that its predecessor and the chains it
    refers to put out in the same calls. *)
From Verif Require Import InputProofs BlockProofs FullProofs StateProofs Props_Signal Props_Update Props_Inputs Reorder Props_Delay Props_Range Props_Seq Props_Blocks.
From Coq Require Import Lia.
Local Open Scope nat_scope.

Section whole.
  Context (P : platform) (get : string -> outcome (gmap string (list component))) (blk : Z).
  Notation L := (glang P get).
  Notation engine := (engine L).
  Notation prog := (gmap string (list component)).

  (** The buffers of the component at position [i] of chain [k], as left by the last block. *)
  Definition sound (e : engine) (k : string) (i : nat) : option (list sig) :=
    match en_info L e !! k with
    | Some ids => match ids !! i with
                  | Some v => match node_weight (en_graph L e) v with Some w => Some (snd (w : gnode P * list sig)) | None => None end
                  | None => None
                  end
    | None => None
    end.
  (** The engines after each of a number of successive blocks, each with any hash orders and
      any input. *)
  Inductive rolls : engine -> list engine -> Prop :=
  | ro_end e : rolls e []
  | ro_block e shs ins e' out es : next_block L blk shs e ins = Ok (e', out) -> rolls e' es -> rolls e (e' :: es).

  Lemma sound_owner e v k i w : owner (en_info L e) v k i -> node_weight (en_graph L e) v = Some w -> sound e k i = Some w.2.
  Proof. intros (ids & Hi & Hv) Hw. unfold sound. rewrite Hi, Hv, Hw. done. Qed.
  Lemma sound_some e v k i x : owner (en_info L e) v k i -> sound e k i = Some x -> exists st, node_weight (en_graph L e) v = Some (st, x).
  Proof.
    intros (ids & Hi & Hv). unfold sound. rewrite Hi, Hv. destruct (node_weight (en_graph L e) v) as [[st b]|] eqn:E; [|done]. intros [= <-]. by exists st.
  Qed.
  Lemma block_keeps e shs ins e' out : tamely L blk e -> next_block L blk shs e ins = Ok (e', out) ->
    tamely L blk e' /\ en_ast L e' = en_ast L e /\ en_info L e' = en_info L e /\
    (forall v, heard L e v -> heard L e' v) /\ (forall v, no_feedback L e v -> no_feedback L e' v).
  Proof.
    intros Ht Hn. assert (Hst : step L blk e (CNext L shs ins) = Ok (e', OBlock L out)) by (cbn [step]; by rewrite Hn).
    pose proof (step_frame L _ _ _ _ _ Hst) as (H1 & H2 & H3 & _ & H5).
    assert (He : edge (en_graph L e') = edge (en_graph L e)) by (unfold edge; by rewrite H5).
    split_and!; [eapply tm_step; [exact Ht| |exact Hst]; exact I|done|done| |].
    - intros v. unfold heard, reaches. by rewrite He, H3.
    - intros v. unfold no_feedback, reaches. by rewrite He.
  Qed.

  (** C79: the component at position [i] of chain [k], heard and not part of a feedback loop,
      in an engine reached by any tame history.  Over any number of blocks its outputs are
      those of its node run alone ([play]) from its present state; in each block the node is
      given exactly what the components that feed it put out in the same block. *)
  Theorem C79_component_alone e p k i c v st b es :
    tamely L blk e -> en_ast L e = Some p -> placed L (en_info L e) p k i c v -> heard L e v -> no_feedback L e v ->
    node_weight (en_graph L e) v = Some (st, b) -> rolls e es ->
    exists inps st' outs, play P st b inps = Ok (st', outs) /\ length inps = length es /\ length outs = length es /\
      forall t e', es !! t = Some e' -> sound e' k i = outs !! t /\
        exists inp, inps !! t = Some inp /\ NoDup inp.*1 /\
          forall u bs, (u, bs) ∈ inp <-> feeds L e c k i u /\ u ≠ v /\ exists k' i', owner (en_info L e) u k' i' /\ sound e' k' i' = Some bs.
  Proof.
    intros Ht Hp Hpl Hh Hnf Hw Hr. revert st b Ht Hp Hpl Hh Hnf Hw.
    induction Hr as [e|e shs ins e' out es Hn Hr IH]; intros st b Ht Hp Hpl Hh Hnf Hw.
    { exists [], st, []. split_and!; [done|done|done|]. intros t e' H. done. }
    destruct (block_keeps e shs ins e' out Ht Hn) as (Ht' & Ha & Hi & Hh' & Hnf').
    destruct (C17_component_inputs L (glang_ok P get) blk e p k i c v shs ins e' out Ht Hp Hpl Hh Hnf Hn) as (st0 & b0 & st1 & b1 & inp & A1 & A2 & A3 & A4 & A5).
    assert ((st0, b0) = (st, b)) as [= -> ->] by (assert (E : Some (st0, b0) = Some (st, b)) by (rewrite <- A1; exact Hw); by injection E as -> ->).
    change (gproc P st inp b = Ok (st1, b1)) in A3.
    destruct (IH st1 b1) as (inps & st' & outs & B1 & B2 & B3 & B4); [done|by rewrite Ha|by rewrite Hi|by apply Hh'|by apply Hnf'|exact A2|].
    exists (inp :: inps), st', (b1 :: outs). split_and!.
    - rewrite (play_cons P _ _ _ _ _ _ A3), B1. done.
    - cbn. by rewrite B2.
    - cbn. by rewrite B3.
    - intros [|t] e1 He1.
      + injection He1 as <-. destruct Hpl as (cs & Hk & Hc & Hown). split; [apply (sound_owner _ v k i (st1, b1)); [by rewrite Hi|exact A2]|].
        exists inp. split_and!; [done|done|]. intros u bs. rewrite A5. split; intros (Hf & Hne & H); (split_and!; [done|done|]).
        * destruct H as [su Hsu].
          assert (exists k' i', owner (en_info L e) u k' i') as (k' & i' & Ho).
          { destruct Hf as [(j & _ & Ho)|(r & k' & _ & _ & (ids & H1 & H2))]; [by exists k, j|]. rewrite last_lookup in H2. exists k', (pred (length ids)). by exists ids. }
          exists k', i'. split; [done|]. apply (sound_owner _ u k' i' (su, bs)); [by rewrite Hi|exact Hsu].
        * destruct H as (k' & i' & Ho & Hs). eapply sound_some; [|exact Hs]. rewrite Hi. exact Ho.
      + destruct (B4 t e1 He1) as (C1 & inp1 & C2 & C3 & C4). split; [exact C1|]. exists inp1. split_and!; [exact C2|exact C3|].
        intros u bs. rewrite C4. unfold feeds. rewrite Hi. done.
  Qed.

  (** What a component puts out, block by block. *)
  Definition stream (es : list engine) (k : string) (i : nat) : list (list sig) := map (fun e' => default [] (sound e' k i)) es.
  (** The inputs of a component without references: none at the head, its predecessor elsewhere. *)
  Definition fed (src : nat) (k : string) (i : nat) (es : list engine) : list inmap :=
    match i with
    | 0 => replicate (length es) []
    | S j => map (fun bs => [(src, bs)]) (stream es k j)
    end.
  Lemma stream_is es k i outs : length outs = length es -> (forall t e', es !! t = Some e' -> sound e' k i = outs !! t) -> stream es k i = outs.
  Proof.
    intros Hl H. unfold stream. apply list_eq. intros t. change (map ?f ?l) with (f <$> l). rewrite list_lookup_fmap. destruct (es !! t) as [e'|] eqn:E.
    - cbn. rewrite (H t e' E). destruct (lookup_lt_is_Some_2 outs t) as [x ->]; [apply lookup_lt_Some in E; lia|]. done.
    - cbn. symmetry. apply lookup_ge_None. apply lookup_ge_None in E. lia.
  Qed.
  Lemma one_elem {A} (l : list A) x : NoDup l -> (forall y, y ∈ l <-> y = x) -> l = [x].
  Proof.
    intros Hnd H. destruct l as [|a [|b l]].
    - exfalso. assert (Hx : x ∈ []) by (by apply H). by apply elem_of_nil in Hx.
    - f_equal. apply H. by left.
    - exfalso. assert (a = x) as -> by (apply H; by left). assert (b = x) as -> by (apply H; right; by left).
      apply NoDup_cons in Hnd as [Hn _]. apply Hn. by left.
  Qed.
  Theorem C79_plain_component e p k i c v st b es :
    tamely L blk e -> en_ast L e = Some p -> placed L (en_info L e) p k i c v -> heard L e v -> no_feedback L e v ->
    node_weight (en_graph L e) v = Some (st, b) -> rolls e es -> component_refs c = [] ->
    exists src st', play P st b (fed src k i es) = Ok (st', stream es k i).
  Proof.
    intros Ht Hp Hpl Hh Hnf Hw Hr Hc.
    destruct (C79_component_alone e p k i c v st b es Ht Hp Hpl Hh Hnf Hw Hr) as (inps & st' & outs & H1 & H2 & H3 & H4).
    destruct (tamely_inv L (glang_ok P get) _ _ Ht) as (He & Hal & _).
    assert (Hinfo : forall t e', es !! t = Some e' -> tamely L blk e' /\ en_info L e' = en_info L e).
    { clear - Hr Ht. revert Ht. induction Hr as [|e shs ins e' out es Hn Hr IH]; intros Ht t e1 He; [done|].
      destruct (block_keeps e shs ins e' out Ht Hn) as (Ht' & _ & Hi & _). destruct t as [|t]; [injection He as <-; by split|].
      destruct (IH Ht' t e1 He) as [? ->]. done. }
    assert (Hfeed : forall u, feeds L e c k i u <-> exists j, i = S j /\ owner (en_info L e) u k j).
    { intros u. unfold feeds. split; [|by left]. intros [H|(r & k' & Hrr & _)]; [done|]. change (all_refs c) with (component_refs c) in Hrr. rewrite Hc in Hrr. by apply elem_of_nil in Hrr. }
    destruct i as [|j].
    - exists 0, st'. rewrite (stream_is es k 0 outs H3) by (intros t e' H; by apply H4).
      replace (fed 0 k 0 es) with inps; [done|]. cbn [fed]. apply list_eq. intros t. destruct (es !! t) as [e'|] eqn:Et.
      + destruct (H4 t e' Et) as (_ & inp & -> & _ & Hin). rewrite lookup_replicate_2 by (by eapply lookup_lt_Some). f_equal.
        destruct inp as [|[u bs] inp]; [done|]. exfalso. destruct (proj1 (Hin u bs)) as (Hf & _); [by left|]. apply Hfeed in Hf as (j & Hj & _). done.
      + apply lookup_ge_None in Et. rewrite (proj2 (lookup_ge_None _ _)) by lia. symmetry. apply lookup_ge_None. rewrite replicate_length. lia.
    - destruct Hpl as (cs & Hk & Hcs & (ids & Hids & Hv)).
      destruct (lookup_lt_is_Some_2 ids j) as [m Hm]; [apply lookup_lt_Some in Hv; lia|].
      assert (Hmo : owner (en_info L e) m k j) by (by exists ids).
      exists m, st'. rewrite (stream_is es k (S j) outs H3) by (intros t e' H; by apply H4).
      replace (fed m k (S j) es) with inps; [done|]. cbn [fed]. unfold stream. rewrite map_map. apply list_eq. intros t. change (map ?f ?l) with (f <$> l). rewrite list_lookup_fmap. destruct (es !! t) as [e'|] eqn:Et.
      + destruct (H4 t e' Et) as (_ & inp & -> & Hnd & Hin). cbn. f_equal. destruct (Hinfo t e' Et) as [Ht' Hi'].
        destruct (tamely_inv L (glang_ok P get) _ _ Ht') as (He' & _).
        assert (Hl : live (en_graph L e') m) by (apply (ei_live _ _ He'); right; right; rewrite Hi'; by exists k, j).
        destruct Hl as [w Hl]. assert (Hs : sound e' k j = Some w.2) by (apply (sound_owner _ m); [by rewrite Hi'|done]).
        rewrite Hs. cbn. apply one_elem; [by eapply NoDup_fmap_1|]. intros [u bs]. rewrite Hin. split.
        * intros (Hf & Hne & k' & i' & Ho & Hs'). apply Hfeed in Hf as (j' & Hj & Hu). injection Hj as <-.
          destruct (ei_inj _ _ He u _ _ _ _ Hu Ho) as [<- <-]. rewrite Hs in Hs'. injection Hs' as <-.
          destruct Hu as (ids' & Hi1 & Hu). rewrite Hids in Hi1. injection Hi1 as <-. rewrite Hm in Hu. by injection Hu as ->.
        * intros [= -> ->]. split_and!.
          -- apply Hfeed. by exists j.
          -- intros ->. destruct (ei_inj _ _ He v k j k (S j)) as [_ Hj]; [done|by exists ids|]. lia.
          -- by exists k, j.
      + apply lookup_ge_None in Et. rewrite (proj2 (lookup_ge_None _ _)) by lia. done.
  Qed.

  (** A component that an accepted text brings in: its node is as created, and from there on
      it plays as it does alone. *)
  Theorem C79_new_component e0 o code p e k cs i c es :
    tamely L blk e0 -> parse (l := L) code = Done p -> prog_ok L p -> plain_edit (L := L) (old_ast L e0) p -> update L o e0 code = Ok (e, None) ->
    p !! k = Some cs -> cs !! i = Some c -> (forall olds a, old_ast L e0 !! k = Some olds -> a ∈ olds -> component_eqb a c = false) ->
    component_refs c = [] ->
    (forall v, owner (en_info L e) v k i -> heard L e v /\ no_feedback L e v) -> rolls e es ->
    exists ms or nd out src nd', announced ms or /\ created P (the_env L e0) c ms nd out /\
      play P nd out (fed src k i es) = Ok (nd', stream es k i).
  Proof.
    intros Ht0 Hparse Hpo Hpl Hu Hk Hc Hnew Href Hh Hr.
    destruct (tamely_inv L (glang_ok P get) _ _ Ht0) as (He & Hal & _). pose proof (plain_tame L (glang_ok P get) _ _ Hpl) as Htame.
    assert (Ht : tamely L blk e).
    { eapply (tm_step L blk e0 (CUpdate L o code) e _ Ht0); [unfold tame_call; rewrite Hparse; by split|]. cbn [step]. rewrite Hu. reflexivity. }
    unfold update in Hu. rewrite Hparse in Hu.
    pose proof (tame_update_result L (glang_ok P get) _ _ _ _ He Hal Hpo Htame Hu) as R.
    destruct (re_len _ _ _ _ _ R k cs Hk) as (ids & Hids & Hlen). destruct (lookup_lt_is_Some_2 ids i) as [v Hv]; [rewrite Hlen; exact (lookup_lt_Some _ _ _ Hc)|].
    assert (Hown : owner (en_info L e) v k i) by (by exists ids). assert (Hpv : placed L (en_info L e) p k i c v) by (by exists cs).
    destruct (re_new _ _ _ _ _ R k i c v Hpv) as (_ & w & refs & st & Hmk & Hf & Hw).
    { unfold is_new. rewrite occurs_old_spec. intros (a & Ha & Heq). unfold olds_of in Ha.
      destruct (old_ast L e0 !! k) as [olds|] eqn:Eo; [|by apply elem_of_nil in Ha]. change (component_eqb a c = true) in Heq. by rewrite (Hnew olds a eq_refl Ha) in Heq. }
    destruct (Hh v Hown) as [Hhe Hnf].
    destruct (C79_plain_component e p k i c v st w.2 es Ht (re_ast _ _ _ _ _ R) Hpv Hhe Hnf Hw Hr Href) as (src & nd' & H1).
    change (makenode_ P (the_env L e0) c = Done (w, refs)) in Hmk.
    assert (refs = []) as -> by (rewrite (make_refs_exact P _ _ _ _ Hmk); [done|rewrite Href; constructor]).
    set (ms := trace (o_wild o) (en_info L e) k i []) in *.
    assert (exists or, foldM ord_msg [] ms = Ok or) as [or Hor].
    { subst ms. unfold trace. rewrite Hids. unfold pred_msg. destruct i as [|i]; [by eexists|]. cbn [app]. destruct (ids !! i); by eexists. }
    exists ms, or, st, w.2, src, nd'. split_and!; [split; [apply trace_conn|exact Hor]| |exact H1].
    exists w.1, []. split; [by rewrite <- surjective_pairing|exact Hf].
  Qed.

  (** For instance a delay in a program: both channels are what the component before it put
      out, [n] samples later, counted over all blocks since the delay was brought in. *)
  Corollary C79_delayn e0 o code p e k cs j n es bs :
    tamely L blk e0 -> parse (l := L) code = Done p -> prog_ok L p -> plain_edit (L := L) (old_ast L e0) p -> update L o e0 code = Ok (e, None) ->
    p !! k = Some cs -> cs !! S j = Some (CDelayn (Usz n)) ->
    (forall olds a, old_ast L e0 !! k = Some olds -> a ∈ olds -> component_eqb a (CDelayn (Usz n)) = false) ->
    (forall v, owner (en_info L e) v k (S j) -> heard L e v /\ no_feedback L e v) -> rolls e es ->
    stream es k j = map (fun b => [b]) bs ->
    lane 0 (stream es k (S j)) = delayed (Z.to_nat n) (List.concat bs) /\ lane 1 (stream es k (S j)) = delayed (Z.to_nat n) (List.concat bs).
  Proof.
    intros Ht0 Hparse Hpo Hpl Hu Hk Hc Hnew Hh Hr Hbs.
    destruct (C79_new_component e0 o code p e k cs (S j) _ es Ht0 Hparse Hpo Hpl Hu Hk Hc Hnew eq_refl Hh Hr) as (ms & or & nd & out & src & nd' & [H1 _] & H2 & H3).
    cbn [fed] in H3. rewrite Hbs, map_map in H3. destruct (C22_delayn_exact P _ n ms nd out src bs H1 H2) as (nd2 & outs & H4 & H5).
    unfold mono_in in H4. rewrite H3 in H4. injection H4 as _ <-. exact H5.
  Qed.

  (** ** Chains without references *)
  Definition bare (cs : list component) : Prop := Forall (fun c => component_refs c = []) cs.
  Section bare.
    Context (e : engine) (p : prog) (k : string) (cs : list component).
    Context (Ht : tamely L blk e) (Hp : en_ast L e = Some p) (Hk : p !! k = Some cs) (Hb : bare cs).
    Lemma bare_placed i v : owner (en_info L e) v k i -> exists c, placed L (en_info L e) p k i c v.
    Proof.
      intros Hv. destruct (tamely_inv L (glang_ok P get) _ _ Ht) as (He & Hal & _).
      destruct (al_len _ _ Hal k cs) as (ids & Hi & Hl); [unfold old_ast; by rewrite Hp|]. pose proof Hv as (ids' & Hi' & Hx). rewrite Hi in Hi'. injection Hi' as <-.
      destruct (lookup_lt_is_Some_2 cs i) as [c Hc]; [|by exists c, cs]. apply lookup_lt_Some in Hx. by rewrite Hl in Hx.
    Qed.
    Lemma bare_edge i v u : owner (en_info L e) v k i -> edge (en_graph L e) u v -> exists j, i = S j /\ owner (en_info L e) u k j.
    Proof.
      intros Hv Hu. destruct (bare_placed i v Hv) as [c Hpl]. apply (feeds_edge L (glang_ok P get) blk e p k i c v u Ht Hp Hpl) in Hu.
      destruct Hu as [H|(r & k' & Hr & _)]; [done|]. exfalso. destruct Hpl as (cs' & Hk' & Hc & _). assert (E : Some cs' = Some cs) by (rewrite <- Hk'; exact Hk). injection E as ->.
      unfold bare in Hb. rewrite Forall_lookup in Hb. change (all_refs c) with (component_refs c) in Hr. rewrite (Hb i c Hc) in Hr. by apply elem_of_nil in Hr.
    Qed.
    Lemma bare_reaches i v u : owner (en_info L e) v k i -> reaches (en_graph L e) u v -> exists j, j <= i /\ owner (en_info L e) u k j.
    Proof.
      intros Hv Hr. revert Hv. induction Hr as [u|u w v Huw Hwv IH]; intros Hv; [by exists i|].
      destruct (IH Hv) as (j & Hj & Hw). destruct (bare_edge j w u Hw Huw) as (j' & -> & Hu). exists j'. split; [lia|done].
    Qed.
    Lemma bare_clear i v : owner (en_info L e) v k i -> no_feedback L e v.
    Proof.
      intros Hv u Hu _ Hr. destruct (bare_edge i v u Hv Hu) as (j & -> & Ho). destruct (bare_reaches j u v Ho Hr) as (j' & Hj & Ho').
      destruct (tamely_inv L (glang_ok P get) _ _ Ht) as (He & _). destruct (ei_inj _ _ He v _ _ _ _ Hv Ho') as [_ H]. lia.
    Qed.
    Lemma chain_to_end d : forall i v u, owner (en_info L e) v k i -> chain_end (en_info L e) k u ->
      (forall ids, en_info L e !! k = Some ids -> length ids = i + S d) -> reaches (en_graph L e) v u.
    Proof.
      induction d as [|d IH]; intros i v u (ids & Hids & Hi) (ids' & Hids' & Hl) Hlen; rewrite Hids in Hids'; injection Hids' as <-; specialize (Hlen ids Hids).
      - rewrite last_lookup, Hlen in Hl. replace (pred (i + 1)) with i in Hl by lia. rewrite Hi in Hl. injection Hl as ->. apply rtc_refl.
      - destruct (lookup_lt_is_Some_2 ids (S i)) as [w Hw]; [lia|]. eapply rtc_l; [|apply (IH (S i) w u)].
        + destruct (bare_placed (S i) w) as [c Hpl]; [by exists ids|]. apply (feeds_edge L (glang_ok P get) blk e p k (S i) c w v Ht Hp Hpl). left. exists i. split; [done|]. by exists ids.
        + by exists ids.
        + by exists ids.
        + intros ids1 H1. rewrite Hids in H1. injection H1 as <-. lia.
    Qed.
    Lemma audible_heard i v : contains_char "~" k = false -> owner (en_info L e) v k i -> heard L e v.
    Proof.
      intros Hc Hv. pose proof Hv as (ids & Hids & Hi). destruct (last ids) as [u|] eqn:El; [|apply last_None in El as ->; done].
      unfold heard. eapply rtc_r.
      - apply (chain_to_end (length ids - S i) i v u Hv); [by exists ids|]. intros ids1 H1. rewrite Hids in H1. injection H1 as <-. apply lookup_lt_Some in Hi. lia.
      - apply (dest_edge L (glang_ok P get) blk e p u Ht Hp). exists k. split; [done|]. by exists ids.
    Qed.
  End bare.

  (** What a chain of components without references plays, said without any graph: the first
      node plays alone, each further one plays what the one before it put out. *)
  Inductive chain_plays (ev : env sampledata) (n : nat) : list component -> list (list sig) -> Prop :=
  | cp_head c ms o nd out nd' outs : announced ms o -> created P ev c ms nd out ->
      play P nd out (replicate n []) = Ok (nd', outs) -> chain_plays ev n [c] outs
  | cp_next cs c bss ms o nd out src nd' outs : chain_plays ev n cs bss -> announced ms o -> created P ev c ms nd out ->
      play P nd out (map (fun bs => [(src, bs)]) bss) = Ok (nd', outs) -> chain_plays ev n (cs ++ [c]) outs.

  (** C80: a new audible chain without references plays what its components play one after
      the other, whatever else the program contains, for any number of blocks. *)
  Theorem C80_chain e0 o code p e k cs es :
    tamely L blk e0 -> parse (l := L) code = Done p -> prog_ok L p -> plain_edit (L := L) (old_ast L e0) p -> update L o e0 code = Ok (e, None) ->
    p !! k = Some cs -> old_ast L e0 !! k = None -> bare cs -> contains_char "~" k = false -> rolls e es ->
    forall i, i < length cs -> chain_plays (the_env L e0) (length es) (take (S i) cs) (stream es k i).
  Proof.
    intros Ht0 Hparse Hpo Hpl Hu Hk Hnew Hb Hc Hr.
    assert (Ht : tamely L blk e).
    { eapply (tm_step L blk e0 (CUpdate L o code) e _ Ht0); [unfold tame_call; rewrite Hparse; split; [done|by apply (plain_tame L (glang_ok P get))]|]. cbn [step]. rewrite Hu. reflexivity. }
    assert (Hast : en_ast L e = Some p).
    { destruct (tamely_inv L (glang_ok P get) _ _ Ht0) as (He & Hal & _). pose proof Hu as Hu'. unfold update in Hu'. rewrite Hparse in Hu'.
      exact (re_ast _ _ _ _ _ (tame_update_result L (glang_ok P get) _ _ _ _ He Hal Hpo (plain_tame L (glang_ok P get) _ _ Hpl) Hu')). }
    assert (Hone : forall i c, cs !! i = Some c -> exists ms or nd out src nd', announced ms or /\ created P (the_env L e0) c ms nd out /\
      play P nd out (fed src k i es) = Ok (nd', stream es k i)).
    { intros i c Hi. eapply (C79_new_component e0 o code p e k cs i c es); try done.
      - intros olds a Ho. rewrite Hnew in Ho. done.
      - unfold bare in Hb. rewrite Forall_lookup in Hb. by apply (Hb i).
      - intros v Hv. split; [by eapply audible_heard|by eapply bare_clear]. }
    induction i as [|i IH]; intros Hi.
    - destruct cs as [|c cs]; [cbn in Hi; lia|]. destruct (Hone 0 c eq_refl) as (ms & or & nd & out & src & nd' & H1 & H2 & H3). cbn. rewrite take_0. by eapply cp_head.
    - destruct (lookup_lt_is_Some_2 cs (S i) Hi) as [c Hci]. rewrite (take_S_r _ _ _ Hci).
      destruct (Hone (S i) c Hci) as (ms & or & nd & out & src & nd' & H1 & H2 & H3). eapply cp_next; [apply IH; lia|exact H1|exact H2|exact H3].
  Qed.

  (** ** What the caller gets *)
  (** The blocks returned by successive calls of [next_block]. *)
  Inductive puts_out : engine -> list engine -> list (list sig) -> Prop :=
  | pu_end e : puts_out e [] []
  | pu_block e shs ins e' (out : list sig) es outs : next_block L blk shs e ins = Ok (e', out) -> puts_out e' es outs -> puts_out e (e' :: es) (out :: outs).
  Lemma puts_out_rolls e es outs : puts_out e es outs -> rolls e es.
  Proof. induction 1; [constructor|]. by eapply ro_block. Qed.
  (** The samples that a block of a chain adds to channel [ch]. *)
  Definition heard_in (ch : nat) (bs : list sig) : sig := default (default [] (bs !! 0)) (bs !! ch).

  Lemma heard_in_in ch bs : bs <> [] -> heard_in ch bs ∈ bs.
  Proof.
    intros H. unfold heard_in. destruct (bs !! ch) as [b|] eqn:E; [by eapply elem_of_list_lookup_2|]. destruct bs as [|b bs]; [done|]. by left.
  Qed.

  (** C80: with one audible chain the caller gets that chain, a mono chain on both channels
      (each sample added to 0). *)
  Theorem C80_only_audible e p k cs es outs ch :
    tamely L blk e -> en_ast L e = Some p -> p !! k = Some cs -> contains_char "~" k = false ->
    (forall k' cs', p !! k' = Some cs' -> contains_char "~" k' = false -> k' = k) -> puts_out e es outs -> ch < 2 ->
    lane ch outs = map (fadd f0) (List.concat (map (heard_in ch) (stream es k (pred (length cs))))).
  Proof.
    intros Ht Hp Hk Hc Honly Hr Hch. revert Ht Hp. induction Hr as [e|e shs ins e' out es outs Hn Hr IH]; intros Ht Hp; [done|].
    destruct (block_keeps e shs ins e' out Ht Hn) as (Ht' & Ha & Hi & _).
    rewrite lane_cons, (IH Ht') by (by rewrite Ha). cbn [stream map List.concat]. fold (stream es k (pred (length cs))). rewrite map_app. f_equal. clear IH Hr.
    destruct (tamely_inv L (glang_ok P get) _ _ Ht) as (He & Hal & _).
    assert (Ho : old_ast L e = p) by (unfold old_ast; by rewrite Hp).
    destruct (al_len _ _ Hal k cs) as (ids & Hids & Hlen); [by rewrite Ho|].
    assert (Hne : ids ≠ []).
    { intros ->. destruct cs; [|done]. pose proof (al_ok _ _ Hal) as [_ Hne]. rewrite Ho in Hne. by apply (Hne k). }
    destruct (last ids) as [u|] eqn:El; [|by apply last_None in El]. pose proof El as Hu. rewrite last_lookup, Hlen in Hu.
    assert (Hown : owner (en_info L e) u k (pred (length cs))) by (by exists ids).
    destruct (C21_every_sample P get blk e p shs ins e' out Ht Hp Hn) as (inp & Hnd & Hin & Hfull & ->).
    destruct (tamely_inv L (glang_ok P get) _ _ Ht') as (He' & _).
    assert (Hl : live (en_graph L e') u) by (apply (ei_live _ _ He'); right; right; rewrite Hi; by exists k, (pred (length cs))).
    destruct Hl as [[su bs] Hw]. rewrite (sound_owner e' u k (pred (length cs)) (su, bs)); [|by rewrite Hi|exact Hw]. cbn [snd default from_option id].
    assert (inp = [(u, bs)]) as ->.
    { apply one_elem; [by eapply NoDup_fmap_1|]. intros [u' bs']. rewrite Hin. split.
      - intros [(k' & Hk' & Hend) [su' Hw']]. assert (k' = k) as ->.
        { destruct (p !! k') as [cs'|] eqn:E; [by eapply Honly|]. exfalso. destruct Hend as (ids' & Hids' & _).
          assert (k' = input_name) as -> by (apply (al_only _ _ Hal k' ids' Hids'); by rewrite Ho). vm_compute in Hk'. done. }
        destruct Hend as (ids' & Hids' & Hl'). rewrite Hids in Hids'. injection Hids' as <-. rewrite El in Hl'. injection Hl' as <-.
        assert (E : Some (su, bs) = Some (su', bs')) by exact (eq_trans (eq_sym Hw) Hw'). by injection E as _ ->.
      - intros [= -> ->]. split; [exists k; split; [done|by exists ids]|by exists su]. }
    assert (Hlb : length (heard_in ch bs) = p_blk P).
    { destruct bs as [|b0 bs].
      - exfalso. pose proof (tamely_reachable _ _ _ Ht') as Hre. destruct (reachable_full P get blk e' Hre) as [_ Hg]. destruct (Hg _ _ Hw) as (_ & (Hx & _) & _). by apply Hx.
      - apply (Hfull u (b0 :: bs)); [by left|]. by apply heard_in_in. }
    assert (E : default [] ([map (fun t => foldl fadd f0 (map (contrib 0 t) [(u, bs)])) (seq 0 (p_blk P)); map (fun t => foldl fadd f0 (map (contrib 1 t) [(u, bs)])) (seq 0 (p_blk P))] !! ch)
      = map (fun t => foldl fadd f0 (map (contrib ch t) [(u, bs)])) (seq 0 (p_blk P))).
    { destruct ch as [|[|]]; [done|done|lia]. }
    rewrite E. clear E. cbn [map foldl]. apply list_eq. intros t. change (map ?f ?l) with (f <$> l). rewrite !list_lookup_fmap. destruct (decide (t < p_blk P)) as [Hlt|Hge].
    - rewrite lookup_seq_lt by done. cbn. destruct (lookup_lt_is_Some_2 (heard_in ch bs) t) as [x Hx]; [lia|]. rewrite Hx. cbn. unfold contrib, heard_in in *. cbn [snd]. by rewrite Hx.
    - rewrite (lookup_ge_None_2 (seq _ _)) by (rewrite seq_length; lia). cbn. rewrite (lookup_ge_None_2 (heard_in ch bs)) by lia. done.
  Qed.
End whole.
Print Assumptions C79_component_alone.
Print Assumptions C79_plain_component.
Print Assumptions C79_new_component.
Print Assumptions C79_delayn.
Print Assumptions C80_chain.
Print Assumptions C80_only_audible.

From Verif Require Import Session.
(** The multiplier at the end of chain "o" of [ex_engine], which refers to "~a", during one
    block. *)
Example C79_case : exists p st b e', tamely glicol 8 ex_engine /\ en_ast glicol ex_engine = Some p /\
  placed glicol (en_info glicol ex_engine) p "o" 2 (CMul (NRef "~a")) 5 /\
  heard glicol ex_engine 5 /\ no_feedback glicol ex_engine 5 /\ node_weight (en_graph glicol ex_engine) 5 = Some (st, b) /\
  rolls demo (get_ast c64 no_math) 8 ex_engine [e'].
Proof.
  destruct C17_component_case as (p & e' & out & H1 & H2 & H3 & H4 & H5 & H6 & _).
  destruct (tamely_inv _ (glang_ok _ _) _ _ H1) as (He & _ & _).
  assert (Hl : live (en_graph glicol ex_engine) 5) by (apply (ei_live _ _ He); right; right; exists "o"%string, 2; by destruct H3 as (? & _ & _ & ?)).
  destruct Hl as [[st b] Hw]. exists p, st, b, e'. split_and!; [exact H1|exact H2|exact H3|exact H4|exact H5|exact Hw|].
  eapply ro_block; [exact H6|constructor].
Qed.

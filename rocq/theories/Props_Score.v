(** * C83: the sound of a program with references.

    [C80_chain] says what a chain without references plays.  Here references are followed:
    the sound of a component is what its node, run alone from its creation, makes of the
    sound of the component before it and of the chains it names.  [score] says this without
    graph, engine or node indices of the program; the theorems say that a text brought into
    an engine plays its score. *)
From Verif Require Import InputProofs RewireProofs BlockProofs FullProofs StateProofs LiveProofs Props_Signal Props_Update Props_Inputs Reorder Props_Delay Props_Filter Props_Range Props_Seq Props_Blocks Props_Whole.
From Verif Require Import SafeNet Props_Live Syntax Props_Syntax Props_Listen Stream.
From Coq Require Import Lia.
Local Open Scope nat_scope.
Local Notation length := List.length.

Section score.
  Context (P : platform).
  (** Where a component gets its inputs from, in the order in which it counts them: the
      component before it, then the end of each chain it names. *)
  Definition sources (p : string -> option (list component)) (k : string) (i : nat) (c : component) : list (string * nat) :=
    match i with 0 => [] | S j => [(k, j)] end ++
    map (fun r => (r, pred (length (default [] (p r))))) (component_refs c).

  (** [score ev n p k i outs]: during [n] blocks component [i] of line [k] of the program [p]
      puts out [outs].  [h] are the sounds of its sources and [ids] any names for them. *)
  Inductive score (ev : env sampledata) (n : nat) (p : string -> option (list component)) : string -> nat -> list (list sig) -> Prop :=
  | sc_component k cs i c (h : string * nat -> list (list sig)) ids ms nd out inps nd' outs :
      p k = Some cs -> cs !! i = Some c ->
      (forall s, s ∈ sources p k i c -> score ev n p s.1 s.2 (h s)) ->
      length ids = length (sources p k i c) -> NoDup ids -> announced ms ids -> created P ev c ms nd out ->
      length inps = n ->
      (forall t inp, inps !! t = Some inp -> inp ≡ₚ zip ids (map (fun s => default [] (h s !! t)) (sources p k i c))) ->
      play P nd out inps = Ok (nd', outs) -> score ev n p k i outs.

  Context (get : string -> outcome (gmap string (list component))) (blk : Z).
  Notation L := (glang P get).
  Notation engine := (engine L).
  Notation prog := (gmap string (list component)).

  (** A set of lines that name, without wildcards, only lines of the set, and never come back
      to themselves: the rank of a line is above that of every line it names. *)
  Record closed (p : prog) (S : string -> Prop) (rank : string -> nat) : Prop := {
    cl_refs : forall k cs c, S k -> p !! k = Some cs -> c ∈ cs -> NoDup (component_refs c) /\
      forall r, r ∈ component_refs c -> no_dots r /\ S r /\ is_Some (p !! r) /\ rank r < rank k }.
  (** A line that is audible or named by such a line. *)
  Inductive wanted (p : prog) : string -> Prop :=
  | wa_audible k : contains_char "~" k = false -> wanted p k
  | wa_named k cs c r : wanted p k -> p !! k = Some cs -> c ∈ cs -> r ∈ component_refs c -> no_dots r -> wanted p r.

  Section engine.
    Context (e : engine) (p : prog) (Ht : tamely L blk e) (Hp : en_ast L e = Some p).
    Context (S : string -> Prop) (rank : string -> nat) (Hc : closed p S rank).

    Lemma score_edge k i v u : S k -> is_Some (p !! k) -> owner (en_info L e) v k i -> edge (en_graph L e) u v ->
      exists k' i', S k' /\ is_Some (p !! k') /\ owner (en_info L e) u k' i' /\ (rank k' < rank k \/ k' = k /\ i' < i).
    Proof.
      intros HS [cs Hk] Hv Hu. destruct (bare_placed P get blk e p k cs Ht Hp Hk i v Hv) as [c Hpl].
      apply (feeds_edge L (glang_ok P get) blk e p k i c v u Ht Hp Hpl) in Hu. destruct Hu as [(j & -> & Ho)|(r & k' & Hr & Hrk & Hend)].
      - exists k, j. split_and!; [done|by eexists|done|right]. split; [done|lia].
      - destruct Hpl as (cs' & Hk' & Hci & _). assert (E : Some cs' = Some cs) by (rewrite <- Hk'; exact Hk). injection E as ->.
        destruct (cl_refs _ _ _ Hc k cs c HS Hk (elem_of_list_lookup_2 _ _ _ Hci)) as [_ H]. destruct (H r Hr) as (Hnd & HSr & Hpr & Hlt).
        unfold refers in Hrk. rewrite (plain_ref r Hnd) in Hrk. subst k'. destruct Hend as (ids & Hids & Hl). rewrite last_lookup in Hl.
        exists r, (pred (length ids)). split_and!; [done|done|by exists ids|by left].
    Qed.
    Lemma score_reaches k i v u : S k -> is_Some (p !! k) -> owner (en_info L e) v k i -> reaches (en_graph L e) u v ->
      exists k' i', S k' /\ is_Some (p !! k') /\ owner (en_info L e) u k' i' /\ (rank k' < rank k \/ k' = k /\ i' <= i).
    Proof.
      intros HS Hk Hv Hr. revert Hv. induction Hr as [u|u w v Huw Hwv IH]; intros Hv.
      - exists k, i. split_and!; [done|done|done|]. right. split; [done|lia].
      - destruct (IH Hv) as (k1 & i1 & H1 & H2 & H3 & H4). destruct (score_edge k1 i1 w u H1 H2 H3 Huw) as (k2 & i2 & H5 & H6 & H7 & H8).
        exists k2, i2. split_and!; [done|done|done|]. destruct H4 as [?|[-> ?]], H8 as [?|[-> ?]]; (left; lia) || (right; split; [done|lia]).
    Qed.
    Lemma score_clear k i v : S k -> is_Some (p !! k) -> owner (en_info L e) v k i -> no_feedback L e v.
    Proof.
      intros HS Hk Hv u Hu _ Hr. destruct (score_edge k i v u HS Hk Hv Hu) as (k1 & i1 & H1 & H2 & H3 & H4).
      destruct (score_reaches k1 i1 u v H1 H2 H3 Hr) as (k2 & i2 & H5 & H6 & H7 & H8).
      destruct (tamely_inv L (glang_ok P get) _ _ Ht) as (He & _). destruct (ei_inj _ _ He v _ _ _ _ Hv H7) as [<- <-].
      destruct H4 as [?|[-> ?]], H8 as [?|[E ?]]; lia || (subst; lia).
    Qed.
  End engine.
  Lemma to_end e p k cs i v u : tamely L blk e -> en_ast L e = Some p -> p !! k = Some cs -> owner (en_info L e) v k i -> chain_end (en_info L e) k u ->
    reaches (en_graph L e) v u.
  Proof.
    intros Ht Hp Hk Hv Hu. pose proof Hv as (ids & Hids & Hi).
    apply (chain_to_end P get blk e p k cs Ht Hp Hk (length ids - Datatypes.S i) i v u Hv Hu). intros ids1 H1. rewrite Hids in H1. injection H1 as <-. apply lookup_lt_Some in Hi. lia.
  Qed.
  Lemma wanted_heard e p k : tamely L blk e -> en_ast L e = Some p -> wanted p k ->
    forall cs i v, p !! k = Some cs -> owner (en_info L e) v k i -> heard L e v.
  Proof.
    intros Ht Hp Hw. induction Hw as [k Hk|k cs0 c r Hw IH Hk0 Hc Hr Hnd]; intros cs i v Hk1 Hv.
    - pose proof Hv as (ids & Hids & Hi). destruct (last ids) as [u|] eqn:El; [|apply last_None in El as ->; done].
      unfold heard. eapply rtc_r; [by eapply to_end; [..|exists ids]|].
      apply (dest_edge L (glang_ok P get) blk e p u Ht Hp). exists k. split; [done|]. by exists ids.
    - pose proof Hv as (ids & Hids & Hi). destruct (last ids) as [u|] eqn:El; [|apply last_None in El as ->; done].
      apply elem_of_list_lookup in Hc as [j Hj]. destruct (tamely_inv L (glang_ok P get) _ _ Ht) as (He & Hal & _).
      destruct (al_len _ _ Hal k cs0) as (ids0 & Hids0 & Hl0); [unfold old_ast; by rewrite Hp|].
      destruct (lookup_lt_is_Some_2 ids0 j) as [w Hw0]; [rewrite Hl0; exact (lookup_lt_Some _ _ _ Hj)|].
      assert (Ho : owner (en_info L e) w k j) by (by exists ids0). specialize (IH cs0 j w Hk0 Ho). unfold heard in *.
      etrans; [by eapply to_end; [..|exists ids]|]. eapply rtc_l; [|exact IH].
      apply (feeds_edge L (glang_ok P get) blk e p k j c w u Ht Hp); [by exists cs0|]. right. exists r, r. split_and!; [exact Hr| |by exists ids].
      unfold refers. by rewrite (plain_ref r Hnd).
  Qed.

  (** The messages that the wiring of a component sends and the order they announce. *)
  Lemma score_order e p k i c v sh : tamely L blk e -> en_ast L e = Some p -> placed L (en_info L e) p k i c v ->
    (forall r, r ∈ component_refs c -> no_dots r /\ is_Some (p !! r)) ->
    exists ids, foldM ord_msg [] (trace sh (en_info L e) k i (component_refs c)) = Ok ids /\
      Forall2 (fun s u => owner (en_info L e) u s.1 s.2) (sources (fun k' => p !! k') k i c) ids.
  Proof.
    intros Ht Hp Hpl Href. destruct (tamely_inv L (glang_ok P get) _ _ Ht) as (He & Hal & _).
    pose proof Hpl as (cs & Hk & Hci & (idl & Hidl & Hv)).
    assert (Hpre : exists q, pred_of (en_info L e) k i = q /\ Forall2 (fun s u => owner (en_info L e) u s.1 s.2) (match i with 0 => [] | S j => [(k, j)] end) q).
    { destruct i as [|j]; [exists []; split; [done|constructor]|]. cbn [pred_of]. rewrite Hidl. cbn. destruct (lookup_lt_is_Some_2 idl j) as [m Hm]; [apply lookup_lt_Some in Hv; lia|].
      rewrite Hm. exists [m]. split; [done|]. repeat constructor. by exists idl. }
    destruct Hpre as (q & Hq & Hq2).
    assert (Hrest : forall rs, (forall r, r ∈ rs -> r ∈ component_refs c) -> Forall2 (fun s u => owner (en_info L e) u s.1 s.2)
      (map (fun r => (r, pred (length (default [] (p !! r))))) rs) (rs ≫= targets sh (en_info L e))).
    { induction rs as [|r rs IH]; intros Hrs; [constructor|].
      destruct (plain_target P get blk e p k i c v r sh Ht Hp Hpl) as (u & (ids & Hids & Hu) & Htar); [apply Hrs; by left|by apply Href, Hrs; left|].
      rewrite bind_cons, Htar. cbn [map app]. constructor; [|apply IH; intros r' Hr'; apply Hrs; by right].
      exists ids. split; [exact Hids|]. cbn [fst snd]. rewrite last_lookup in Hu. destruct (Href r) as [_ [cr Hcr]]; [apply Hrs; by left|].
      destruct (al_len _ _ Hal r cr) as (ids' & Hi' & Hl'); [unfold old_ast; by rewrite Hp|]. rewrite Hids in Hi'. injection Hi' as <-.
      rewrite Hcr. cbn [default from_option id]. change (@List.length component cr) with (length (A := comp L) cr). by rewrite <- Hl'. }
    destruct (decide (component_refs c = [])) as [E|E].
    - exists q. unfold sources. rewrite E in *. cbn [map]. rewrite app_nil_r. split; [|exact Hq2]. rewrite <- Hq.
      unfold trace. cbn [app]. rewrite Hidl. unfold pred_msg, pred_of. rewrite Hidl. destruct i as [|j]; [done|]. cbn. by destruct (idl !! j).
    - exists (q ++ (component_refs c ≫= targets sh (en_info L e))). split; [rewrite (trace_order sh _ k i _ E), Hq; done|].
      unfold sources. apply Forall2_app; [exact Hq2|by apply Hrest].
  Qed.

  (** C83: every wanted line of a text whose lines are new to the engine plays its score, if
      its references are plain and lead to no feedback; whatever else the text contains,
      whatever the hash orders and the input, for any number of blocks. *)
  Theorem C83_plays_the_score e0 o code (p : prog) e S rank k cs es :
    tamely L blk e0 -> parse (l := L) code = Done p -> prog_ok L p -> update L o e0 code = Ok (e, None) ->
    (forall k', is_Some (p !! k') -> old_ast L e0 !! k' = None) ->
    closed p S rank -> S k -> wanted p k -> p !! k = Some cs -> rolls P get blk e es ->
    forall i, i < length cs -> score (the_env L e0) (length es) (fun k' => p !! k') k i (stream P get es k i).
  Proof.
    intros Ht0 Hparse Hpo Hu Hnew Hc HS Hw Hk Hr.
    assert (Hpl : plain_edit (L := L) (old_ast L e0) p).
    { intros k' olds news H1 H2. assert (E : old_ast L e0 !! k' = None) by (apply Hnew; by eexists). by rewrite E in H1. }
    destruct (tamely_inv L (glang_ok P get) _ _ Ht0) as (He0 & Hal0 & _). pose proof (plain_tame L (glang_ok P get) _ _ Hpl) as Htame.
    assert (Ht : tamely L blk e).
    { eapply (tm_step L blk e0 (CUpdate L o code) e _ Ht0); [unfold tame_call; rewrite Hparse; by split|]. cbn [step]. rewrite Hu. reflexivity. }
    pose proof Hu as Hu'. unfold update in Hu'. rewrite Hparse in Hu'.
    pose proof (tame_update_result L (glang_ok P get) _ _ _ _ He0 Hal0 Hpo Htame Hu') as R. pose proof (re_ast _ _ _ _ _ R) as Hast.
    destruct (tamely_inv L (glang_ok P get) _ _ Ht) as (He & Hal & _).
    assert (Hinfo : forall t e', es !! t = Some e' -> tamely L blk e' /\ en_info L e' = en_info L e).
    { clear - Hr Ht. revert Ht. induction Hr as [|e shs ins e' out es Hn Hr IH]; intros Ht t e1 He; [done|].
      destruct (block_keeps P get blk e shs ins e' out Ht Hn) as (Ht' & _ & Hi & _). destruct t as [|t]; [injection He as <-; by split|].
      destruct (IH Ht' t e1 He) as [? ->]. done. }
    remember (rank k) as m eqn:Em. revert k cs HS Hw Hk Em. induction (lt_wf m) as [m _ IHm]. intros k cs HS Hw Hk ->.
    induction i as [i IHi] using lt_wf_ind. intros Hi.
    destruct (lookup_lt_is_Some_2 cs i Hi) as [c Hci]. pose proof (elem_of_list_lookup_2 _ _ _ Hci) as Hcin.
    destruct (cl_refs _ _ _ Hc k cs c HS Hk Hcin) as [Hnd Href].
    destruct (re_len _ _ _ _ _ R k cs Hk) as (idl & Hidl & Hlen). destruct (lookup_lt_is_Some_2 idl i) as [v Hv]; [rewrite Hlen; exact Hi|].
    assert (Hown : owner (en_info L e) v k i) by (by exists idl). assert (Hpv : placed L (en_info L e) p k i c v) by (by exists cs).
    destruct (re_new _ _ _ _ _ R k i c v Hpv) as (_ & w & refs & st & Hmk & Hf & Hwt).
    { unfold is_new. rewrite occurs_old_spec. intros (a & Ha & _). unfold olds_of in Ha.
      rewrite (Hnew k) in Ha by (by eexists). by apply elem_of_nil in Ha. }
    change (makenode_ P (the_env L e0) c = Done (w, refs)) in Hmk.
    assert (refs = component_refs c) as -> by (by apply (make_refs_exact P _ _ _ _ Hmk)).
    destruct (C79_component_alone P get blk e p k i c v st w.2 es Ht Hast Hpv) as (inps & st' & outs & H1 & H2 & H3 & H4);
      [by eapply wanted_heard|by eapply score_clear|exact Hwt|exact Hr|].
    destruct (score_order e p k i c v (o_wild o) Ht Hast Hpv) as (ids & Hids & Hsrc); [intros r Hr'; by destruct (Href r Hr') as (? & _ & ? & _)|].
    set (ms := trace (o_wild o) (en_info L e) k i (component_refs c)) in *.
    set (src := sources (fun k' => p !! k') k i c) in *. change (Forall2 (fun s u => owner (en_info L e) u s.1 s.2) src ids) in Hsrc.
    rewrite (stream_is P get es k i outs H3) by (intros t e' H; by apply H4).
    assert (Hsnd : NoDup src).
    { subst src. unfold sources. apply NoDup_app. split; [destruct i; [constructor|apply NoDup_singleton]|]. split.
      - intros s Hs1 Hs2. destruct i as [|j]; [by apply elem_of_nil in Hs1|]. apply elem_of_list_singleton in Hs1 as ->.
        apply elem_of_list_fmap in Hs2 as (r & E & Hrr). injection E as E _. destruct (Href r Hrr) as (_ & _ & _ & Hlt). rewrite E in Hlt. lia.
      - change (map ?f ?l) with (f <$> l). apply NoDup_fmap_2; [|exact Hnd]. by intros x y [= ->]. }
    assert (Hidn : NoDup ids).
    { clearbody src. clear -Hsrc Hsnd He. induction Hsrc as [|s u src1 ids1 Hs Hsrc IH]; [constructor|]. apply NoDup_cons in Hsnd as [Hn Hsnd].
      constructor; [|by apply IH]. intros Hin. apply elem_of_list_lookup in Hin as [j Hj]. destruct (Forall2_lookup_r _ _ _ _ _ Hsrc Hj) as (s' & Hs' & Ho).
      destruct (ei_inj _ _ He u _ _ _ _ Hs Ho) as [E1 E2]. apply Hn. assert (s = s') as -> by (by destruct s, s'; cbn in *; subst). by eapply elem_of_list_lookup_2. }
    eapply (sc_component (the_env L e0) (length es) (fun k' => p !! k') k cs i c (fun s => stream P get es s.1 s.2) ids ms st w.2 inps st' outs); try done.
    - intros [k' i'] Hs. cbn [fst snd]. unfold sources in Hs. apply elem_of_app in Hs as [Hs|Hs].
      + destruct i as [|j]; [by apply elem_of_nil in Hs|]. apply elem_of_list_singleton in Hs. injection Hs as -> ->. apply IHi; lia.
      + apply elem_of_list_fmap in Hs as (r & E & Hrr). injection E as -> ->. destruct (Href r Hrr) as (Hd & HSr & [cr Hcr] & Hlt).
        rewrite Hcr. cbn [default from_option id]. eapply (IHm (rank r) Hlt r cr); try done; [by eapply wa_named|].
        destruct cr; [|cbn; lia]. exfalso. by apply (proj2 Hpo r).
    - fold src. symmetry. by eapply Forall2_length.
    - split; [apply trace_conn|exact Hids].
    - exists w.1, (component_refs c). split; [by rewrite <- surjective_pairing|exact Hf].
    - intros t inp Hinp. assert (exists e', es !! t = Some e') as [e' He'] by (apply lookup_lt_is_Some_2; apply lookup_lt_Some in Hinp; lia).
      destruct (H4 t e' He') as (_ & inp' & Hinp' & Hndi & Hin). rewrite Hinp in Hinp'. injection Hinp' as <-. fold src.
      destruct (Hinfo t e' He') as [Ht' Hi']. destruct (tamely_inv L (glang_ok P get) _ _ Ht') as (He1 & _).
      assert (Hd : forall s, default [] (stream P get es s.1 s.2 !! t) = default [] (sound P get e' s.1 s.2)).
      { intros s. unfold stream. change (map ?f ?l) with (f <$> l). rewrite list_lookup_fmap, He'. done. }
      assert (Hz : forall u bs, (u, bs) ∈ zip ids (map (fun s => default [] (stream P get es s.1 s.2 !! t)) src) <->
        exists s, s ∈ src /\ owner (en_info L e) u s.1 s.2 /\ bs = default [] (sound P get e' s.1 s.2)).
      { intros u bs. clearbody src. clear -Hsrc Hd. induction Hsrc as [|s u' src1 ids1 Hs Hsrc IH]; cbn [map zip zip_with].
        - rewrite elem_of_nil. split; [done|]. intros (s & Hs & _). by apply elem_of_nil in Hs.
        - rewrite elem_of_cons, IH, Hd. split.
          + intros [[= -> ->]|(s' & H1 & H2)]; [exists s; split; [by left|done]|exists s'; split; [by right|done]].
          + intros (s' & H1 & H2 & H3). apply elem_of_cons in H1 as [->|H1]; [|right; by exists s'].
            left. destruct H2 as (x & Hx & Hux), Hs as (y & Hy & Huy). rewrite Hx in Hy. injection Hy as <-. rewrite Hux in Huy. injection Huy as <-. by rewrite H3. }
      assert (Hsf : forall s u, s ∈ src -> owner (en_info L e) u s.1 s.2 -> feeds L e c k i u /\ u <> v).
      { intros s u Hs Ho. subst src. unfold sources in Hs. apply elem_of_app in Hs as [Hs|Hs].
        - destruct i as [|j]; [by apply elem_of_nil in Hs|]. apply elem_of_list_singleton in Hs as ->. cbn [fst snd] in Ho. split; [left; by exists j|].
          intros ->. destruct (ei_inj _ _ He v _ _ _ _ Hown Ho) as [_ ?]. lia.
        - apply elem_of_list_fmap in Hs as (r & -> & Hrr). cbn [fst snd] in Ho. destruct (Href r Hrr) as (Hd1 & HSr & [cr Hcr] & Hlt). split.
          + right. exists r, r. split_and!; [exact Hrr|unfold refers; by rewrite (plain_ref r Hd1)|]. destruct Ho as (ids1 & Hi1 & Hu1).
            exists ids1. split; [exact Hi1|]. rewrite last_lookup. destruct (re_len _ _ _ _ _ R r cr Hcr) as (ids2 & Hi2 & Hl2). rewrite Hi1 in Hi2. injection Hi2 as <-.
            rewrite Hcr in Hu1. cbn [default from_option id] in Hu1. change (@List.length component cr) with (length (A := comp L) cr) in Hu1. by rewrite <- Hl2 in Hu1.
          + intros ->. destruct (ei_inj _ _ He v _ _ _ _ Hown Ho) as [E _]. rewrite E in Hlt. lia. }
      apply NoDup_Permutation.
      + by eapply NoDup_fmap_1.
      + apply (NoDup_fmap_1 fst). rewrite fst_zip; [exact Hidn|]. rewrite map_length. apply Forall2_length in Hsrc. lia.
      + intros [u bs]. rewrite Hin, Hz. split.
        * intros (Hfe & _ & k1 & i1 & Ho & Hs). exists (k1, i1). cbn [fst snd]. split_and!; [|exact Ho|by rewrite Hs].
          subst src. unfold sources. apply elem_of_app. destruct Hfe as [(j & -> & Ho')|(r & k' & Hrr & Hrk & Hend)].
          -- left. destruct (ei_inj _ _ He u _ _ _ _ Ho Ho') as [-> ->]. by left.
          -- right. destruct (Href r Hrr) as (Hd1 & HSr & [cr Hcr] & Hlt). unfold refers in Hrk. rewrite (plain_ref r Hd1) in Hrk. subst k'.
             destruct Hend as (ids1 & Hi1 & Hl1). rewrite last_lookup in Hl1. destruct (re_len _ _ _ _ _ R r cr Hcr) as (ids2 & Hi2 & Hl2). rewrite Hi1 in Hi2. injection Hi2 as <-.
             assert (Ho2 : owner (en_info L e) u r (pred (length ids1))) by (by exists ids1). destruct (ei_inj _ _ He u _ _ _ _ Ho Ho2) as [-> ->].
             apply elem_of_list_fmap. exists r. split; [|exact Hrr]. rewrite Hcr. cbn [default from_option id]. f_equal. f_equal. exact Hl2.
        * intros (s & Hs & Ho & ->). destruct (Hsf s u Hs Ho) as [Hfe Hne]. split_and!; [exact Hfe|exact Hne|]. exists s.1, s.2. split; [exact Ho|].
          assert (Hl : live (en_graph L e') u) by (apply (ei_live _ _ He1); right; right; rewrite Hi'; by exists s.1, s.2).
          destruct Hl as [w1 Hw1]. rewrite (sound_owner P get e' u s.1 s.2 w1); [done| |exact Hw1]. by rewrite Hi'.
  Qed.
End score.

(** ** Synthesis: what the scores of oscillators, constants, gains and offsets sound like *)
Section tones.
  Context (P : platform).

  (** The frequency that a modulated oscillator uses at sample [t]: see [freq_at]. *)
  Fixpoint last_struck (g : nat -> f32) (t : nat) : f32 :=
    if feqb (g t) f0 then match t with 0 => f0 | S t' => last_struck g t' end else g t.
  Definition freq_of (w : wave) (g : nat -> f32) (t : nat) : f32 := match w with WSin => g t | _ => last_struck g t end.

  (** The signal one and two samples earlier. *)
  Definition past1 (h : nat -> f32) (t : nat) : f32 := match t with 0 => f0 | S t' => h t' end.
  Definition past2 (h : nat -> f32) (t : nat) : f32 := match t with S (S t') => h t' | _ => f0 end.
  (** A one-pole filter with coefficient [b t] at sample [t], run from silence. *)
  Fixpoint pole_run (b g : nat -> f32) (t : nat) : f32 :=
    pole_eq (b t) (g t) (match t with 0 => f0 | S t' => pole_run b g t' end).
  (** A biquad section with coefficients [kf t] at sample [t], run from silence: the outputs
      one and two samples before [t].  The current input does not enter (finding of C42). *)
  Fixpoint bq_past (kf : nat -> coefs) (g : nat -> f32) (t : nat) : f32 * f32 :=
    match t with
    | 0 => (f0, f0)
    | S t' => let y := bq_past kf g t' in (biquad_eq (kf t') f0 (past1 g t') (past2 g t') y.1 y.2, y.1)
    end.
  Definition bq_run kf g t : f32 := (bq_past kf g (S t)).1.
  (** lpf or hpf, with a number or a line for the cutoff. *)
  Definition filter_comp (lo : bool) (p : numref) (q : f32) : component :=
    if lo then CLpf (match p with Num v => SigNum v | NRef r => SigRef r end) q else CRhpf p q.
  Definition filter_coefs (lo : bool) (sr : Z) (cut q : f32) : coefs := if lo then low_pass P cut q sr else high_pass P cut q 44100.
  (** [effect sr c p F]: component [c] with parameter [p] makes [F m g] of an input [g] when its
      parameter follows [m].  A filter looks at its cutoff once per block.  A onepole with a
      line for its rate filters that line, at the rate that the chain sets (finding of C41). *)
  Inductive effect (sr : Z) : component -> numref -> ((nat -> f32) -> (nat -> f32) -> nat -> f32) -> Prop :=
  | ef_filter lo p q : effect sr (filter_comp lo p q) p (fun m g => bq_run (fun t => filter_coefs lo sr (m (t / p_blk P * p_blk P)) q) g)
  | ef_pole v : effect sr (COnepole (Num v)) (Num v) (fun m g => pole_run (fun t => rate_b P (m t)) g)
  | ef_pole_line r : effect sr (COnepole (NRef r)) (NRef r) (fun m g => pole_run (fun t => rate_b P (g t)) m).

  (** [tone sr p k i g]: sample [t] of component [i] of line [k] is [g t]. *)
  Inductive tone (sr : Z) (p : string -> option (list component)) : string -> nat -> (nat -> f32) -> Prop :=
  | tn_sig k cs v : p k = Some cs -> cs !! 0 = Some (CConstSig v) -> tone sr p k 0 (fun _ => v)
  | tn_osc k cs w f : p k = Some cs -> cs !! 0 = Some (osc_comp w (Num f)) ->
      tone sr p k 0 (fun t => shape P w (phase_at sr (fun _ => f) t))
  | tn_fm k cs w r cs' g : p k = Some cs -> cs !! 0 = Some (osc_comp w (NRef r)) ->
      p r = Some cs' -> tone sr p r (pred (length cs')) g ->
      tone sr p k 0 (fun t => shape P w (phase_at sr (freq_of w g) t))
  | tn_get k cs r cs' g : p k = Some cs -> cs !! 0 = Some (CGet r) ->
      p r = Some cs' -> tone sr p r (pred (length cs')) g -> tone sr p k 0 g
  | tn_number k cs i c a op g : p k = Some cs -> cs !! S i = Some c -> arith c (Num a) op ->
      tone sr p k i g -> tone sr p k (S i) (fun t => op (g t) a)
  | tn_line k cs i c r cs' op g m : p k = Some cs -> cs !! S i = Some c -> arith c (NRef r) op ->
      tone sr p k i g -> p r = Some cs' -> tone sr p r (pred (length cs')) m ->
      tone sr p k (S i) (fun t => op (g t) (m t))
  | tn_noise k cs sd : p k = Some cs -> cs !! 0 = Some (CNoise sd) -> tone sr p k 0 (fun t => f_of_d (p_noise P sd (Z.of_nat t)))
  | tn_effect k cs i c v F g : p k = Some cs -> cs !! S i = Some c -> effect sr c (Num v) F ->
      tone sr p k i g -> tone sr p k (S i) (F (fun _ => v) g)
  | tn_effect_line k cs i c r cs' F g m : p k = Some cs -> cs !! S i = Some c -> effect sr c (NRef r) F ->
      tone sr p k i g -> p r = Some cs' -> tone sr p r (pred (length cs')) m -> tone sr p k (S i) (F m g).

  (** Block [b] of a signal given sample by sample, and [n] blocks that carry it: on one
      channel, or the same on two. *)
  Definition block (g : nat -> f32) (b : nat) : sig := map g (seq (b * p_blk P) (p_blk P)).
  Definition carries (n : nat) (outs : list (list sig)) (g : nat -> f32) : Prop :=
    length outs = n /\ forall b o, outs !! b = Some o -> o = [block g b] \/ o = [block g b; block g b].

  Lemma block_length g b : length (block g b) = p_blk P.
  Proof. unfold block. by rewrite map_length, seq_length. Qed.
  Lemma block_map (f : f32 -> f32) g b : map f (block g b) = block (fun t => f (g t)) b.
  Proof. unfold block. by rewrite map_map. Qed.
  Lemma block_zip op g m b : zip_op op (block g b) (block m b) = block (fun t => op (g t) (m t)) b.
  Proof. unfold block, zip_op. generalize (seq (b * p_blk P) (p_blk P)) as l. induction l as [|x l IH]; [done|]. cbn. by rewrite IH. Qed.
  Lemma blocks_concat g n : List.concat (map (block g) (seq 0 n)) = map g (seq 0 (n * p_blk P)).
  Proof.
    induction n as [|n IH]; [done|]. rewrite seq_S, map_app, concat_app, IH. cbn [map List.concat Nat.add]. rewrite app_nil_r. unfold block.
    rewrite <- map_app. f_equal. replace (S n * p_blk P) with (n * p_blk P + p_blk P) by lia. by rewrite seq_app.
  Qed.
  Lemma concat_blocks g n : forall (xs : list sig) d, length xs = n -> Forall (fun x => length x = p_blk P) xs ->
    List.concat xs = map g (seq (d * p_blk P) (n * p_blk P)) -> forall b x, xs !! b = Some x -> x = block g (d + b).
  Proof.
    induction n as [|n IH]; intros [|y xs] d Hl Hf Hc b x Hx; try done. inversion Hf as [|? ? Hy Hf']; subst. cbn [List.concat] in Hc.
    replace (S n * p_blk P) with (p_blk P + n * p_blk P) in Hc by lia. rewrite seq_app, map_app in Hc.
    apply app_inj_1 in Hc as [Hc1 Hc2]; [|by rewrite map_length, seq_length].
    destruct b as [|b].
    - injection Hx as <-. rewrite Hc1, Nat.add_0_r. done.
    - replace (d + S b) with (S d + b) by lia. apply (IH xs (S d)); [by injection Hl|done| |done].
      rewrite Hc2. f_equal. f_equal. lia.
  Qed.
  Lemma carries_concat n outs g : carries n outs g -> forall ch, ch < 2 -> List.concat (map (heard_in ch) outs) = map g (seq 0 (n * p_blk P)).
  Proof.
    intros [Hl H] ch Hch. rewrite <- blocks_concat. f_equal. apply list_eq. intros b. change (map ?f ?l) with (f <$> l). rewrite !list_lookup_fmap.
    destruct (outs !! b) as [o|] eqn:E.
    - rewrite lookup_seq_lt by (apply lookup_lt_Some in E; lia). cbn. f_equal. unfold heard_in. destruct (H b o E) as [-> | ->]; destruct ch as [|[|]]; done || lia.
    - rewrite (proj2 (lookup_ge_None (seq 0 n) b)); [done|]. rewrite seq_length. apply lookup_ge_None in E. lia.
  Qed.

  (** Running a node block by block. *)
  Lemma play_blocks (I : gnode P -> list sig -> Prop) (Q : nat -> list sig -> Prop) inps : forall d nd out nd' outs,
    (forall t nd b inp nd1 b1, inps !! t = Some inp -> I nd b -> gproc P nd inp b = Ok (nd1, b1) -> I nd1 b1 /\ Q (d + t) b1) ->
    I nd out -> play P nd out inps = Ok (nd', outs) -> length outs = length inps /\ forall t o, outs !! t = Some o -> Q (d + t) o.
  Proof.
    induction inps as [|inp inps IH]; intros d nd out nd' outs Hs HI.
    - cbn. intros [= <- <-]. split; [done|]. intros t o Ho. done.
    - cbn [play]. destruct (gproc P nd inp out) as [[nd1 o1]|] eqn:E; [|done].
      destruct (play P nd1 o1 inps) as [[nd2 os]|] eqn:E2; [|done]. intros [= <- <-].
      destruct (Hs 0 nd out inp nd1 o1 eq_refl HI E) as [HI1 HQ].
      destruct (IH (S d) nd1 o1 nd2 os) as [Hl H]; [|exact HI1|exact E2|].
      + intros t nda b inp' nd3 b3 Ht Ha Hg. replace (S d + t) with (d + S t) by lia. by apply (Hs (S t) nda b inp').
      + split; [cbn; by rewrite Hl|]. intros [|t] o Ho; [injection Ho as <-; exact HQ|]. replace (d + S t) with (S d + t) by lia. by apply H.
  Qed.

  Lemma score_inv ev n p k i outs cs c : score P ev n p k i outs -> p k = Some cs -> cs !! i = Some c ->
    exists h ids ms nd out inps nd', (forall s, s ∈ sources p k i c -> score P ev n p s.1 s.2 (h s)) /\
      length ids = length (sources p k i c) /\ NoDup ids /\ announced ms ids /\ created P ev c ms nd out /\ length inps = n /\
      (forall t inp, inps !! t = Some inp -> inp ≡ₚ zip ids (map (fun s => default [] (h s !! t)) (sources p k i c))) /\
      play P nd out inps = Ok (nd', outs).
  Proof.
    intros H Hk Hi. destruct H as [k cs' i c' h ids ms nd out inps nd' outs Hk' Hi' H1 H2 H3 H4 H5 H6 H7 H8].
    rewrite Hk in Hk'. injection Hk' as <-. rewrite Hi in Hi'. injection Hi' as <-. by exists h, ids, ms, nd, out, inps, nd'.
  Qed.

  (** What a source that carries [g] hands over in block [t]. *)
  Lemma carries_at n outs g t : carries n outs g -> t < n ->
    default [] (outs !! t) = [block g t] \/ default [] (outs !! t) = [block g t; block g t].
  Proof. intros [Hl H] Ht. destruct (lookup_lt_is_Some_2 outs t) as [o Ho]; [lia|]. rewrite Ho. cbn. by apply H. Qed.

  (** An oscillator handed nothing or one signal puts out one full buffer. *)
  Lemma osc_block w s inp b nd1 b1 : (inp = [] \/ exists u x o, inp = [(u, x :: o)] /\ length x = p_blk P) -> length b = 1 ->
    gproc P (Simple (NOsc w s)) inp b = Ok (nd1, b1) -> (exists s', nd1 = Simple (NOsc w s')) /\ exists y, b1 = [y] /\ length y = p_blk P.
  Proof.
    intros Hi Hb. destruct b as [|b0 [|]]; try done. cbn [gproc sproc]. unfold osc_proc. destruct Hi as [-> | (u & x & o & -> & Hx)].
    - destruct (scan _ _ _) as [s1 ys] eqn:E. assert (Hy : length ys = p_blk P).
      { pose proof (scan_length (fun o (_ : unit) => osc_step P w o (os_freq o)) s (replicate (p_blk P) tt)) as H. rewrite E in H. cbn in H. by rewrite replicate_length in H. }
      destruct w; cbn; intros [= <- <-]; (split; [by eexists|by eexists]).
    - cbn [snd]. destruct (match os_ord s with [] => Ok (x :: o) | _ :: _ => in_ord [(u, x :: o)] (os_ord s) 0 end) as [mb|] eqn:Em; [|done].
      assert (mb = x :: o) as ->.
      { destruct (os_ord s) as [|q qs]; [by injection Em|]. unfold in_ord in Em. cbn in Em. unfold in_id in Em. cbn in Em. destruct (u =? q)%nat; [by injection Em|done]. }
      cbn [mbind res_bind chan lookup list_lookup unwrap].
      destruct (scan (osc_mod_step P w) s x) as [s1 ys] eqn:E. assert (Hy : length ys = p_blk P).
      { pose proof (scan_length (osc_mod_step P w) s x) as H. rewrite E in H. cbn in H. by rewrite Hx in H. }
      destruct w; cbn; intros [= <- <-]; (split; [by eexists|by eexists]).
  Qed.
  Lemma osc_second w s u x o b : gproc P (Simple (NOsc w s)) [(u, x :: o)] b = gproc P (Simple (NOsc w s)) [(u, [x])] b.
  Proof.
    cbn [gproc sproc]. unfold osc_proc. cbn [snd]. destruct (os_ord s) as [|q qs]; [done|]. unfold in_ord. cbn [lookup list_lookup]. unfold in_id. cbn.
    by destruct (u =? q)%nat.
  Qed.
  Lemma osc_carries w s inps nd' outs g n : length inps = n ->
    (forall t inp, inps !! t = Some inp -> inp = [] \/ exists u x o, inp = [(u, x :: o)] /\ length x = p_blk P) ->
    play P (Simple (NOsc w s)) [silent P] inps = Ok (nd', outs) ->
    (forall t, t < n * p_blk P -> lane 0 outs !! t = Some (g t)) -> carries n outs g.
  Proof.
    intros Hn Hi Hp Hv.
    destruct (play_blocks (fun nd b => (exists s', nd = Simple (NOsc w s')) /\ length b = 1) (fun _ b => exists y, b = [y] /\ length y = p_blk P) inps 0 (Simple (NOsc w s)) [silent P] nd' outs
      ltac:(intros t nd b inp nd1 b1 Ht [[s' ->] Hb] Hg; destruct (osc_block w s' inp b nd1 b1 (Hi t inp Ht) Hb Hg) as [H1 (y & -> & Hy)]; split; [by split|by exists y])
      ltac:(split; [by eexists|done]) Hp) as [Hl H].
    split; [by rewrite Hl|]. intros b o Ho. left. destruct (H b o Ho) as (y & -> & Hy). f_equal.
    apply (concat_blocks g n (map (fun o => default [] (o !! 0)) outs) 0).
    - rewrite map_length. lia.
    - rewrite Forall_forall. intros x (o & -> & Hin)%elem_of_list_fmap. apply elem_of_list_lookup in Hin as [j Hj]. destruct (H j o Hj) as (z & -> & Hz). done.
    - cbn [Nat.mul]. change (List.concat (map (fun o => default [] (o !! 0)) outs)) with (lane 0 outs).
      assert (Hll : length (lane 0 outs) = n * p_blk P).
      { unfold lane. rewrite <- Hn, <- Hl. clear -H.
        assert (Hf : Forall (fun o => exists y : sig, o = [y] /\ length y = p_blk P) outs) by (rewrite Forall_lookup; intros j o Hj; by apply (H j)).
        clear H. induction Hf as [|o outs (y & -> & Hy) Hf IH]; [done|].
        cbn [map List.concat default from_option lookup list_lookup]. rewrite app_length, IH. change (length y + length outs * p_blk P = S (length outs) * p_blk P). rewrite Hy. lia. }
      apply list_eq. intros t. change (map ?f ?l) with (f <$> l). rewrite list_lookup_fmap. destruct (decide (t < n * p_blk P)) as [Hlt|Hge].
      + rewrite (Hv t Hlt), lookup_seq_lt by done. done.
      + rewrite !lookup_ge_None_2; [done|rewrite seq_length; lia|lia].
    - change (map ?f ?l) with (f <$> l). rewrite list_lookup_fmap, Ho. done.
  Qed.
  Lemma play_mono_same w u xs : forall s b (oo : list (list sig)), length oo = length xs ->
    play P (Simple (NOsc w s)) b (zip_with (fun x o => [(u, x :: o)]) xs oo) = play P (Simple (NOsc w s)) b (map (mono_in u) xs).
  Proof.
    induction xs as [|x xs IH]; intros s b [|o oo] Hl; try done. cbn [zip_with map play]. rewrite osc_second. fold (mono_in u x).
    destruct (gproc P (Simple (NOsc w s)) (mono_in u x) b) as [[nd1 b1]|] eqn:E; [|done].
    assert (exists s', nd1 = Simple (NOsc w s')) as [s' ->].
    { cbn [gproc sproc] in E. destruct (osc_proc P w s (mono_in u x) b) as [[s1 b2]|]; [|done]. injection E as <- _. by eexists. }
    rewrite (IH s' b1 oo) by (by injection Hl). done.
  Qed.

  Lemma last_struck_same g N t : t < N -> last_nonzero (map g (seq 0 N)) t = last_struck g t.
  Proof.
    induction t as [|t IH]; intros Ht; cbn [last_nonzero last_struck]; change (map g ?l) with (g <$> l); rewrite list_lookup_fmap, lookup_seq_lt by lia; cbn [fmap option_fmap option_map default from_option id Nat.add].
    - done.
    - change (g <$> seq 0 N) with (map g (seq 0 N)). rewrite IH by lia. done.
  Qed.
  Lemma freq_same w g N t : t < N -> freq_at w (map g (seq 0 N)) t = freq_of w g t.
  Proof.
    intros Ht. destruct w; cbn [freq_at freq_of]; try (by apply last_struck_same).
    change (map g ?l) with (g <$> l). by rewrite list_lookup_fmap, lookup_seq_lt by lia.
  Qed.
  Lemma phase_same sr f1 f2 t : (forall t', t' < t -> f1 t' = f2 t') -> phase_at sr f1 t = phase_at sr f2 t.
  Proof. induction t as [|t IH]; intros H; [done|]. cbn [phase_at]. rewrite IH, H by (lia || (intros; apply H; lia)). done. Qed.

  Lemma perm1 {A} (l : list A) x : l ≡ₚ [x] -> l = [x].
  Proof. intros H. apply Permutation_sym in H. by apply Permutation_length_1_inv in H. Qed.


  (** ** Effects *)
  Lemma play_time (I : nat -> gnode P -> list sig -> Prop) (Q : nat -> list sig -> Prop) inps : forall d nd out nd' outs,
    (forall t nd b inp nd1 b1, inps !! t = Some inp -> I (d + t) nd b -> gproc P nd inp b = Ok (nd1, b1) -> I (S (d + t)) nd1 b1 /\ Q (d + t) b1) ->
    I d nd out -> play P nd out inps = Ok (nd', outs) -> length outs = length inps /\ forall t o, outs !! t = Some o -> Q (d + t) o.
  Proof.
    induction inps as [|inp inps IH]; intros d nd out nd' outs Hs HI.
    - cbn. intros [= <- <-]. split; [done|]. intros t o Ho. done.
    - cbn [play]. destruct (gproc P nd inp out) as [[nd1 o1]|] eqn:E; [|done].
      destruct (play P nd1 o1 inps) as [[nd2 os]|] eqn:E2; [|done]. intros [= <- <-].
      destruct (Hs 0 nd out inp nd1 o1 eq_refl ltac:(by rewrite Nat.add_0_r) E) as [HI1 HQ]. rewrite Nat.add_0_r in HI1, HQ.
      destruct (IH (S d) nd1 o1 nd2 os) as [Hl H]; [|exact HI1|exact E2|].
      + intros t nda b inp' nd3 b3 Ht Ha Hg. replace (S d + t) with (d + S t) in * by lia. by apply (Hs (S t) nda b inp').
      + split; [cbn; by rewrite Hl|]. intros [|t] o Ho; [injection Ho as <-; by rewrite Nat.add_0_r|]. replace (d + S t) with (S d + t) by lia. by apply H.
  Qed.
  Lemma scan_time {St A} (f : St -> A -> St * f32) (x : nat -> A) (y : nat -> f32) (R : nat -> St -> Prop) n : forall T s,
    (forall T' s, T <= T' < T + n -> R T' s -> R (S T') (f s (x T')).1 /\ (f s (x T')).2 = y T') -> R T s ->
    R (T + n) (scan f s (map x (seq T n))).1 /\ (scan f s (map x (seq T n))).2 = map y (seq T n).
  Proof.
    induction n as [|n IH]; intros T s Hs HR; [cbn; by rewrite Nat.add_0_r|]. cbn [seq map]. rewrite scan_cons. cbn [fst snd].
    destruct (Hs T s ltac:(lia) HR) as [H1 H2]. destruct (IH (S T) (f s (x T)).1) as [H3 H4]; [intros T' s' HT; apply Hs; lia|done|].
    replace (T + S n) with (S T + n) by lia. split; [done|]. by rewrite H2, H4.
  Qed.
  Lemma map_shift (h h' : nat -> f32) d n : (forall j, h' j = h (d + j)) -> map h' (seq 0 n) = map h (seq d n).
  Proof.
    intros H. apply list_eq. intros j. change (map ?f ?l) with (f <$> l). rewrite !list_lookup_fmap. destruct (decide (j < n)) as [Hj|Hj].
    - rewrite !lookup_seq_lt by done. cbn. by rewrite H.
    - rewrite !(proj2 (lookup_ge_None _ _)) by (rewrite seq_length; lia). done.
  Qed.
  Lemma zip_block g m t : zip (block g t) (block m t) = map (fun t => (g t, m t)) (seq (t * p_blk P) (p_blk P)).
  Proof. unfold block. generalize (seq (t * p_blk P) (p_blk P)) as l. induction l as [|z l IH]; [done|]. cbn. by rewrite IH. Qed.
  Lemma bq_run_past kf g t : bq_past kf g t = (past1 (bq_run kf g) t, past2 (bq_run kf g) t).
  Proof. destruct t as [|[|t]]; done. Qed.
  Lemma bq_run_eq kf g t : bq_run kf g t = biquad_eq (kf t) f0 (past1 g t) (past2 g t) (past1 (bq_run kf g) t) (past2 (bq_run kf g) t).
  Proof. unfold bq_run at 1. cbn [bq_past]. by rewrite bq_run_past. Qed.
  Lemma pole_run_eq b g t : pole_run b g t = pole_eq (b t) (g t) (past1 (pole_run b g) t).
  Proof. by destruct t. Qed.

  (** The state of a filter after [T] samples. *)
  Definition bq_after (kf : nat -> coefs) (g : nat -> f32) (q : f32) (sr : Z) (o : list nat) (T : nat) (s : biquad) : Prop :=
    bq_q s = q /\ bq_sr s = sr /\ bq_pattern s = [] /\ bq_ord s = o /\ bq_x1 s = past1 g T /\ bq_x2 s = past2 g T /\
    bq_y1 s = past1 (bq_run kf g) T /\ bq_y2 s = past2 (bq_run kf g) T.
  Lemma bq_after_step kf g q sr o cut T s k : bq_after kf g q sr o T s -> k = kf T ->
    bq_after kf g q sr o (S T) (bq_step_with k cut s (g T)).1 /\ (bq_step_with k cut s (g T)).2 = bq_run kf g T.
  Proof.
    intros (H1 & H2 & H3 & H4 & H5 & H6 & H7 & H8) ->. unfold bq_step_with, bq_val. cbn [fst snd]. rewrite H5, H6, H7, H8.
    assert (Hy : fsub (fsub (fadd (fadd (fmul (c_a0 (kf T)) f0) (fmul (c_a1 (kf T)) (past1 g T))) (fmul (c_a2 (kf T)) (past2 g T))) (fmul (c_b1 (kf T)) (past1 (bq_run kf g) T))) (fmul (c_b2 (kf T)) (past2 (bq_run kf g) T)) = bq_run kf g T) by (symmetry; apply bq_run_eq).
    split; [|exact Hy]. unfold bq_after. cbn [bq_q bq_sr bq_pattern bq_ord bq_x1 bq_x2 bq_y1 bq_y2 past1]. split_and!; try done; by destruct T.
  Qed.
  Definition filter_node (lo : bool) (s : biquad) : gnode P := Simple (if lo then NRlpf s else NRhpf s).
  Lemma filter_created ev lo p q ms o nd out : announced ms o -> created P ev (filter_comp lo p q) ms nd out ->
    exists s, nd = filter_node lo s /\ out = [silent P] /\ (forall kf g, bq_after kf g q (if lo then e_sr ev else 44100%Z) o 0 s) /\ forall v, p = Num v -> bq_cutoff s = v.
  Proof.
    intros Hms Hc. assert (Hcm : Forall conn_msg ms) by apply Hms.
    destruct (bq_created P ev (filter_comp lo p q) (if lo then bq_new (num_or (f_of_Z 20) p) q (e_sr ev) [] f1 (f_of_Z 120) else bq_new (num_or (f_of_Z 100) p) q 44100 [] f1 (f_of_Z 120)) ms nd out
      (if lo then NRlpf else NRhpf)) as (o' & Ho' & -> & ->); [destruct lo; [by left|by right]|by destruct lo|destruct lo, p; by eexists|done|exact Hc|].
    assert (o' = o) as ->. { destruct Hms as [_ H1], Ho' as [_ H2]. rewrite H1 in H2. by injection H2. }
    destruct lo; (eexists; split; [reflexivity|]; split; [done|]; split; [by repeat split|]; intros v ->; reflexivity).
  Qed.
  Lemma filter_one lo s u x xs b v : bq_pattern s = [] -> bq_cutoff s = v -> length b = 1 ->
    gproc P (filter_node lo s) [(u, x :: xs)] b =
      Ok (filter_node lo (scan (fun s x => bq_step_with (if lo then lpf_coefs P (bq_q s) (theta v (bq_sr s)) else hpf_coefs P (bq_q s) (theta v (bq_sr s))) v s x) s x).1,
          [(scan (fun s x => bq_step_with (if lo then lpf_coefs P (bq_q s) (theta v (bq_sr s)) else hpf_coefs P (bq_q s) (theta v (bq_sr s))) v s x) s x).2]).
  Proof.
    intros Hp <- (y & ->)%length1. destruct lo; cbn [filter_node gproc sproc].
    - unfold rlpf_proc. cbn [snd]. unfold chan. cbn [lookup list_lookup unwrap mbind res_bind].
      assert (Hsc : forall b s v, bq_pattern s = [] -> bq_cutoff s = v -> scanR (lpf_step P) s b = Ok (scan (fun s x => bq_step_with (lpf_coefs P (bq_q s) (theta v (bq_sr s))) v s x) s b)).
      { clear. induction b as [|x b IH]; intros s v Hs Hv; [done|]. cbn [scanR scan].
        assert (lpf_step P s x = Ok (bq_step_with (lpf_coefs P (bq_q s) (theta v (bq_sr s))) v s x)) as ->. { unfold lpf_step, bq_cut. by rewrite Hs, <- Hv. }
        destruct (bq_step_with _ v s x) as [s1 y] eqn:E. rewrite (IH s1 v); [by destruct (scan _ s1 b)| |]; unfold bq_step_with in E; injection E as <- _; done. }
      rewrite (Hsc x s _ Hp eq_refl). destruct (scan _ s x) as [s1 ys]. done.
    - unfold rhpf_proc. cbn [snd]. unfold chan. cbn [lookup list_lookup unwrap mbind res_bind].
      assert (Hsc : forall b s v qq sr, bq_cutoff s = v -> bq_q s = qq -> bq_sr s = sr -> scan (fun st x => bq_step_with (hpf_coefs P qq (theta v sr)) (bq_cutoff st) st x) s b = scan (fun s x => bq_step_with (hpf_coefs P (bq_q s) (theta v (bq_sr s))) v s x) s b).
      { clear. induction b as [|x b IH]; intros s v qq sr <- <- <-; [done|]. rewrite !scan_cons. rewrite (IH _ (bq_cutoff s) (bq_q s) (bq_sr s)); done. }
      rewrite (Hsc x s _ _ _ eq_refl eq_refl eq_refl). destruct (scan _ s x) as [s1 ys]. done.
  Qed.
  Lemma filter_two lo s u u' x xs m ms inp b : u <> u' -> bq_ord s = [u; u'] -> inp ≡ₚ [(u, x :: xs); (u', m :: ms)] -> length b = 1 ->
    gproc P (filter_node lo s) inp b = match m !! 0 with
      | Some v => let r := scan (fun s' x => bq_step_with (if lo then lpf_coefs P (bq_q s) (theta v (bq_sr s)) else hpf_coefs P (bq_q s) (theta v (bq_sr s))) (bq_cutoff s') s' x) s x in Ok (filter_node lo r.1, [r.2])
      | None => Panic
      end.
  Proof.
    intros Hne Ho Hp (y & ->)%length1. destruct (in_id_perm _ _ _ _ _ Hne Hp) as (H1 & H2 & xa & xb & ->).
    destruct lo; cbn [filter_node gproc sproc]; unfold rlpf_proc, rhpf_proc, bq_proc_mod, in_ord; rewrite Ho; cbn [lookup list_lookup]; rewrite H1, H2; cbn [mbind res_bind chan lookup list_lookup unwrap];
      unfold chan; cbn [lookup list_lookup unwrap mbind res_bind]; (destruct m as [|v m]; [done|]); cbn [lookup list_lookup unwrap mbind res_bind]; by destruct (scan _ s x).
  Qed.
  Lemma in_block t T : t * p_blk P <= T < t * p_blk P + p_blk P -> T / p_blk P = t.
  Proof. intros H. symmetry. apply (Nat.div_unique T (p_blk P) t (T - t * p_blk P)); lia. Qed.
  Lemma coefs_lit (lo : bool) sr v q : (if lo then lpf_coefs P q (theta v sr) else hpf_coefs P q (theta v 44100)) = filter_coefs lo sr v q.
  Proof. unfold filter_coefs. destruct lo; [apply lpf_coefs_lit|apply hpf_coefs_lit]. Qed.

  Lemma effect_number ev c v F g n ms u nd out inps nd' outs : effect (e_sr ev) c (Num v) F -> announced ms [u] -> created P ev c ms nd out ->
    length inps = n -> (forall t inp, inps !! t = Some inp -> exists xs, inp = [(u, block g t :: xs)]) ->
    play P nd out inps = Ok (nd', outs) -> carries n outs (F (fun _ => v) g).
  Proof.
    intros HF Hms Hc Hn Hin Hp. remember (Num v) as p eqn:Ep. destruct HF as [lo p q|v'|r]; [subst p|injection Ep as ->|discriminate Ep].
    - destruct (filter_created ev lo (Num v) q ms [u] nd out Hms Hc) as (s & -> & -> & H0 & Hv).
      set (kf := fun t : nat => filter_coefs lo (e_sr ev) v q). change (carries n outs (bq_run kf g)).
      destruct (play_time (fun t nd b => length b = 1 /\ exists s, nd = filter_node lo s /\ bq_cutoff s = v /\ bq_after kf g q (if lo then e_sr ev else 44100%Z) [u] (t * p_blk P) s)
        (fun t b => b = [block (bq_run kf g) t]) inps 0 (filter_node lo s) [silent P] nd' outs) as [Hl H]; [| |exact Hp|].
      + intros t nd1 b inp nd2 b2 Hi (Hb & s1 & -> & Hc1 & Ha1) Hg. cbn [Nat.add] in *. destruct (Hin t inp Hi) as [xs ->].
        rewrite (filter_one lo s1 u (block g t) xs b v) in Hg by (apply Ha1 || done). injection Hg as <- <-.
        destruct (scan_time (fun s x => bq_step_with (if lo then lpf_coefs P (bq_q s) (theta v (bq_sr s)) else hpf_coefs P (bq_q s) (theta v (bq_sr s))) v s x) g (bq_run kf g)
          (fun T s => bq_cutoff s = v /\ bq_after kf g q (if lo then e_sr ev else 44100%Z) [u] T s) (p_blk P) (t * p_blk P) s1) as [H1 H2]; [| |].
        * intros T s2 _ [_ Ha]. destruct (bq_after_step kf g q _ [u] v T s2 (if lo then lpf_coefs P (bq_q s2) (theta v (bq_sr s2)) else hpf_coefs P (bq_q s2) (theta v (bq_sr s2))) Ha) as [H1 H2]; [|by split].
          destruct Ha as (-> & -> & _). unfold kf. rewrite <- coefs_lit. by destruct lo.
        * by split.
        * split; [|f_equal; exact H2]. split; [done|]. eexists. split; [reflexivity|]. replace (S t * p_blk P) with (t * p_blk P + p_blk P) by lia. exact H1.
      + split; [done|]. exists s. split; [done|]. split; [by apply Hv|]. apply H0.
      + split; [lia|]. intros b o Ho. left. by apply (H b o Ho).
    - destruct (onepole_created P ev (Num v) ms [u] nd out Hms Hc) as [-> ->]. cbn [num_or] in *.
      set (y := pole_run (fun _ => rate_b P v) g). change (carries n outs y).
      set (R := fun (T : nat) s => on_a s = fsub f1 (rate_b P v) /\ on_b s = rate_b P v /\ on_y1 s = past1 y T).
      destruct (fun a b => play_time (fun t nd b => length b = 1 /\ exists s, nd = Simple (NOnePole s) /\ R (t * p_blk P) s) (fun t b => b = [block y t]) inps 0 _ [silent P] nd' outs a b Hp) as [Hl H]; [| |].
      + intros t nd1 b inp nd2 b2 Hi ((x & ->)%length1 & s1 & -> & HR) Hg. cbn [Nat.add] in *. destruct (Hin t inp Hi) as [xs ->].
        destruct (scan_time pole_step g y R (p_blk P) (t * p_blk P) s1) as [H1 H2]; [|exact HR|].
        * intros T s2 _ (Ha & Hb & Hy). unfold pole_step, R. cbn [fst snd on_a on_b on_y1 past1]. rewrite Ha, Hb, Hy. split; [split; [done|split; [done|]]|]; (etransitivity; [|symmetry; apply pole_run_eq]); done.
        * cbn [gproc sproc] in Hg. unfold onepole_proc in Hg. cbn [snd] in Hg. unfold chan in Hg. cbn [lookup list_lookup unwrap mbind res_bind] in Hg. fold (block g t) in H1, H2.
          destruct (scan pole_step s1 (block g t)) as [s3 ys]. cbn in Hg. injection Hg as <- <-. cbn [fst snd] in H1, H2. split; [|f_equal; exact H2].
          split; [done|]. eexists. split; [reflexivity|]. replace (S t * p_blk P) with (t * p_blk P + p_blk P) by lia. exact H1.
      + split; [done|]. eexists. split; [reflexivity|]. by repeat split.
      + split; [lia|]. intros b o Ho. left. by apply (H b o Ho).
  Qed.
  Lemma effect_by_line ev c r F g m n ms u u' nd out inps nd' outs : effect (e_sr ev) c (NRef r) F -> announced ms [u; u'] -> u <> u' -> created P ev c ms nd out ->
    length inps = n -> (forall t inp, inps !! t = Some inp -> exists xs ys, inp ≡ₚ [(u, block g t :: xs); (u', block m t :: ys)]) ->
    play P nd out inps = Ok (nd', outs) -> carries n outs (F m g).
  Proof.
    intros HF Hms Hne Hc Hn Hin Hp. remember (NRef r) as p eqn:Ep. destruct HF as [lo p q|v'|r']; [subst p|discriminate Ep|injection Ep as ->].
    - destruct (filter_created ev lo (NRef r) q ms [u; u'] nd out Hms Hc) as (s & -> & -> & H0 & _).
      set (kf := fun t : nat => filter_coefs lo (e_sr ev) (m (t / p_blk P * p_blk P)) q).
      destruct (play_time (fun t nd b => length b = 1 /\ exists s, nd = filter_node lo s /\ bq_after kf g q (if lo then e_sr ev else 44100%Z) [u; u'] (t * p_blk P) s)
        (fun t b => b = [block (bq_run kf g) t]) inps 0 (filter_node lo s) [silent P] nd' outs) as [Hl H]; [| |exact Hp|].
      + intros t nd1 b inp nd2 b2 Hi (Hb & s1 & -> & Ha1) Hg. cbn [Nat.add] in *. destruct (Hin t inp Hi) as (xs & ys & Hperm).
        rewrite (filter_two lo s1 u u' (block g t) xs (block m t) ys inp b Hne) in Hg by (apply Ha1 || done).
        destruct (block m t !! 0) as [v|] eqn:Ev; [|done].
        assert (v = m (t * p_blk P)) as -> by (unfold block in Ev; destruct (p_blk P); [done|]; by injection Ev).
        cbv zeta in Hg. injection Hg as <- <-.
        destruct (scan_time (fun s' x => bq_step_with (if lo then lpf_coefs P (bq_q s1) (theta (m (t * p_blk P)) (bq_sr s1)) else hpf_coefs P (bq_q s1) (theta (m (t * p_blk P)) (bq_sr s1))) (bq_cutoff s') s' x) g (bq_run kf g)
          (bq_after kf g q (if lo then e_sr ev else 44100%Z) [u; u']) (p_blk P) (t * p_blk P) s1) as [H1 H2]; [|exact Ha1|].
        * intros T s2 HT Ha. apply (bq_after_step kf g q _ [u; u'] (bq_cutoff s2) T s2 _ Ha).
          destruct Ha1 as (-> & -> & _). unfold kf. rewrite (in_block t T HT), <- coefs_lit. by destruct lo.
        * split; [|f_equal; exact H2]. split; [done|]. eexists. split; [reflexivity|]. replace (S t * p_blk P) with (t * p_blk P + p_blk P) by lia. exact H1.
      + split; [done|]. exists s. split; [done|]. apply H0.
      + split; [lia|]. intros b o Ho. left. by apply (H b o Ho).
    - destruct (onepole_created P ev (NRef r) ms [u; u'] nd out Hms Hc) as [-> ->].
      set (y := pole_run (fun t => rate_b P (g t)) m).
      set (R := fun (T : nat) s => on_ord s = [u; u'] /\ on_y1 s = past1 y T).
      destruct (fun a b => play_time (fun t nd b => length b = 1 /\ exists s, nd = Simple (NOnePole s) /\ R (t * p_blk P) s) (fun t b => b = [block y t]) inps 0 _ [silent P] nd' outs a b Hp) as [Hl H]; [| |].
      + intros t nd1 b inp nd2 b2 Hi ((x & ->)%length1 & s1 & -> & HR) Hg. cbn [Nat.add] in *. destruct (Hin t inp Hi) as (xs & ys & Hperm).
        destruct (scan_time (pole_mod_step P) (fun t => (g t, m t)) y R (p_blk P) (t * p_blk P) s1) as [H1 H2]; [|exact HR|].
        * intros T s2 _ (Ho & Hy). unfold pole_mod_step, pole_step, R. cbn [fst snd on_a on_b on_y1 on_ord past1]. rewrite Hy. split; [split; [done|]|]; (etransitivity; [|symmetry; apply pole_run_eq]); done.
        * destruct (in_id_perm _ _ _ _ _ Hne Hperm) as (I1 & I2 & xa & xb & ->). cbn [gproc sproc] in Hg. unfold onepole_proc, in_ord in Hg. rewrite (proj1 HR) in Hg. cbn [lookup list_lookup] in Hg. rewrite I1, I2 in Hg.
          cbn [mbind res_bind] in Hg. unfold chan in Hg. cbn [lookup list_lookup unwrap mbind res_bind] in Hg. rewrite zip_block in Hg.
          destruct (scan (pole_mod_step P) s1 _) as [s3 zs]. cbn in Hg. injection Hg as <- <-. cbn [fst snd] in H1, H2. split; [|f_equal; exact H2].
          split; [done|]. eexists. split; [reflexivity|]. replace (S t * p_blk P) with (t * p_blk P + p_blk P) by lia. exact H1.
      + split; [done|]. eexists. split; [reflexivity|]. by repeat split.
      + split; [lia|]. intros b o Ho. left. by apply (H b o Ho).
  Qed.

  Theorem C83_tone ev n p k i g outs : tone (e_sr ev) p k i g -> score P ev n p k i outs -> carries n outs g.
  Proof.
    intros Ht. revert outs. induction Ht as [k cs v Hk Hc|k cs w f Hk Hc|k cs w r cs' g Hk Hc Hr Ht IH|k cs r cs' g Hk Hc Hr Ht IH|k cs i c a op g Hk Hc Ha Ht IH|k cs i c r cs' op g m Hk Hc Ha Ht IH Hr Htm IHm|k cs sd Hk Hc|k cs i c v F g Hk Hc HF Ht IH|k cs i c r cs' F g m Hk Hc HF Ht IH Hr Htm IHm];
      intros outs Hs; destruct (score_inv _ _ _ _ _ _ _ _ Hs Hk Hc) as (h & ids & ms & nd & out & inps & nd' & H1 & H2 & H3 & H4 & H5 & H6 & H7 & H8).
    - destruct H5 as (n0 & refs & Hmk & Hf). injection Hmk as <- <- _.
      assert (Hnd : exists s, nd = Simple (NConst s) /\ cs_val s = v).
      { destruct H4 as [Hms _]. clear -Hms Hf. change (@nil nat) with (cs_ord (CSig v [])) in Hf. 
        assert (Hg : forall s, cs_val s = v -> foldM (gmsg P) (Simple (NConst s)) ms = Ok nd -> exists s, nd = Simple (NConst s) /\ cs_val s = v); [|by eapply Hg; [|exact Hf]].
        clear Hf. induction Hms as [|m ms Hm Hms IH]; intros s Hv; [by intros [= <-]; exists s|]. cbn [foldM gmsg smsg csig_msg].
        destruct m; try done; unfold csig_msg, ord_msg_keep; cbn [ord_msg]; (match goal with |- context [vec_insert ?a ?b ?c] => destruct (vec_insert a b c) | _ => idtac end); try done; cbn; apply IH; exact Hv. }
      destruct (play_blocks (fun nd b => (exists s, nd = Simple (NConst s) /\ cs_val s = v) /\ length b = 1) (fun _ b => b = [replicate (p_blk P) v]) inps 0 nd [silent P] nd' outs) as [Hl H].
      + intros t nd1 b inp nd2 b2 _ [(s & -> & Hv) Hb] Hg. destruct b as [|b0 [|]]; try done. cbn in Hg. injection Hg as <- <-. rewrite Hv. split; [|done]. split; [by exists s|done].
      + by split.
      + exact H8.
      + split; [lia|]. intros b o Ho. left. rewrite (H b o Ho). f_equal. clear. unfold block. generalize (b * p_blk P). induction (p_blk P) as [|q IHq]; intros d; [done|]. cbn. f_equal. apply IHq.
    - assert (Hsrc : sources p k 0 (osc_comp w (Num f)) = []) by (by destruct w). rewrite Hsrc in *.
      destruct (C64_osc_phase P ev w f ms ids nd out n H4 H5) as (nd2 & outs2 & Hp2 & Hlen & Hval).
      assert (inps = replicate n []) as ->.
      { apply list_eq. intros t. destruct (inps !! t) as [inp|] eqn:E.
        - rewrite lookup_replicate_2 by (apply lookup_lt_Some in E; lia). f_equal. pose proof (H7 t inp E) as Hq. destruct ids; [|done]. cbn in Hq. apply Permutation_sym in Hq. by apply Permutation_nil in Hq.
        - symmetry. apply lookup_ge_None. rewrite replicate_length. apply lookup_ge_None in E. lia. }
      assert (outs2 = outs) as -> by congruence. destruct (osc_created P _ w (Num f) ms ids nd out H4 H5) as [-> ->].
      eapply osc_carries; [exact H6| |exact H8|exact Hval]. intros t inp Hi. left. apply lookup_replicate in Hi as [-> _]. done.
    - assert (Hsrc : sources p k 0 (osc_comp w (NRef r)) = [(r, pred (length cs'))]) by (unfold sources; destruct w; cbn; by rewrite Hr). rewrite Hsrc in *.
      destruct ids as [|u [|]]; try done. specialize (IH (h (r, pred (length cs')))). specialize (H1 (r, pred (length cs')) ltac:(by left)). cbn [fst snd] in H1. specialize (IH H1).
      set (xs := map (block g) (seq 0 n)). set (hs := h (r, pred (length cs'))) in *.
      assert (Hin : inps = zip_with (fun x o => [(u, x :: o)]) xs (map (fun t => drop 1 (default [] (hs !! t))) (seq 0 n))).
      { apply list_eq. intros t. rewrite lookup_zip_with. unfold xs. change (map ?a ?l) with (a <$> l). rewrite !list_lookup_fmap. destruct (inps !! t) as [inp|] eqn:E.
        - pose proof (lookup_lt_Some _ _ _ E) as Hlt. rewrite lookup_seq_lt by lia. cbn [fmap option_fmap option_map mbind option_bind Nat.add].
          pose proof (H7 t inp E) as Hq. cbn [map zip zip_with] in Hq. apply perm1 in Hq. rewrite Hq. fold hs. destruct (carries_at n hs g t IH) as [-> | ->]; [lia|done|done].
        - apply lookup_ge_None in E. rewrite (proj2 (lookup_ge_None (seq 0 n) t)) by (rewrite seq_length; lia). done. }
      assert (Hcat : List.concat xs = map g (seq 0 (n * p_blk P))) by apply blocks_concat.
      destruct (C64_osc_phase_modulated P ev w r ms [u] nd out u xs H4 ltac:(right; by eexists) H5) as (nd2 & outs2 & Hp2 & Hlen & Hval).
      destruct (osc_created P _ w (NRef r) ms [u] nd out H4 H5) as [-> ->].
      rewrite <- (play_mono_same w u xs _ _ (map (fun t => drop 1 (default [] (hs !! t))) (seq 0 n))) in Hp2 by (unfold xs; by rewrite !map_length).
      rewrite <- Hin, H8 in Hp2. injection Hp2 as <- <-.
      eapply osc_carries; [exact H6| |exact H8|].
      + intros t inp Hi. right. rewrite Hin in Hi. rewrite lookup_zip_with in Hi. destruct (xs !! t) as [x|] eqn:Ex; [|done]. cbn in Hi.
        match type of Hi with context [?l !! t] => destruct (l !! t) as [oo|] eqn:Eo end; [|done]. injection Hi as <-. exists u, x, oo. split; [done|].
        unfold xs in Ex. change (map ?a ?l) with (a <$> l) in Ex. apply list_lookup_fmap_inv in Ex as (q & -> & _). apply block_length.
      + intros t Hlt. rewrite Hcat, map_length, seq_length in Hval. rewrite (Hval t Hlt). f_equal. f_equal. apply phase_same. intros t' Ht'. apply freq_same. lia.
    - assert (Hsrc : sources p k 0 (CGet r) = [(r, pred (length cs'))]) by (unfold sources; cbn; by rewrite Hr). rewrite Hsrc in *.
      destruct ids as [|u [|]]; try done. specialize (H1 (r, pred (length cs')) ltac:(by left)). cbn [fst snd] in H1. specialize (IH _ H1).
      destruct H5 as (n0 & refs & Hmk & Hf). injection Hmk as <- <- _.
      assert (nd = Simple NPass) as ->.
      { destruct H4 as [Hms _]. clear -Hms Hf. revert Hf. induction Hms as [|m ms Hm Hms IH]; [by intros [= <-]|]. cbn [foldM gmsg smsg]. exact IH. }
      destruct (play_blocks (fun nd b => nd = Simple NPass /\ length b = 2) (fun t b => t < n -> b = [block g t; block g t]) inps 0 (Simple NPass) [silent P; silent P] nd' outs) as [Hl H].
      + intros t nd1 b inp nd2 b2 Hi [-> Hb] Hg. pose proof (H7 t inp Hi) as Hq. cbn [map zip zip_with] in Hq. apply perm1 in Hq as ->. destruct b as [|b0 [|b1 [|]]]; try done.
        pose proof (lookup_lt_Some _ _ _ Hi) as Hlt. destruct (carries_at n _ g t IH) as [E|E]; [lia| |]; rewrite E in Hg; cbn in Hg; injection Hg as <- <-; (split; [by split|done]).
      + by split.
      + exact H8.
      + split; [lia|]. intros b o Ho. right. apply (H b o Ho). apply lookup_lt_Some in Ho. lia.
    - assert (Hsrc : sources p k (S i) c = [(k, i)]) by (unfold sources; by destruct Ha as [[-> _]|[-> _]]). rewrite Hsrc in *.
      destruct ids as [|u [|]]; try done. specialize (H1 (k, i) ltac:(by left)). cbn [fst snd] in H1. specialize (IH _ H1).
      destruct (op_created P ev c (Num a) op ms [u] nd out Ha H4 H5) as [-> Hg].
      destruct (play_blocks (fun nd1 b => nd1 = nd /\ length b = 2) (fun t b => t < n -> b = [block (fun t => op (g t) a) t; block (fun t => op (g t) a) t]) inps 0 nd [silent P; silent P] nd' outs) as [Hl H].
      + intros t nd1 b inp nd2 b2 Hi [-> Hb] Hgp. pose proof (H7 t inp Hi) as Hq. cbn [map zip zip_with] in Hq. apply perm1 in Hq as ->. destruct b as [|b0 [|b1 [|]]]; try done.
        pose proof (lookup_lt_Some _ _ _ Hi) as Hlt. rewrite Hg in Hgp. rewrite <- (block_map (fun x => op x a)). destruct (carries_at n _ g t IH) as [E|E]; [lia| |]; rewrite E in Hgp; cbn in Hgp; injection Hgp as <- <-; (split; [by split|done]).
      + by split.
      + exact H8.
      + split; [lia|]. intros b o Ho. right. apply (H b o Ho). apply lookup_lt_Some in Ho. lia.
    - assert (Hsrc : sources p k (S i) c = [(k, i); (r, pred (length cs'))]) by (unfold sources; destruct Ha as [[-> _]|[-> _]]; cbn; by rewrite Hr). rewrite Hsrc in *.
      destruct ids as [|u [|u' [|]]]; try done. pose proof (H1 (k, i) ltac:(by left)) as Hs1. pose proof (H1 (r, pred (length cs')) ltac:(by right; left)) as Hs2. cbn [fst snd] in Hs1, Hs2.
      specialize (IH _ Hs1). specialize (IHm _ Hs2). destruct (op_created P ev c (NRef r) op ms [u; u'] nd out Ha H4 H5) as [-> Hg].
      assert (Hne : u <> u') by (intros ->; apply NoDup_cons in H3 as [H3 _]; apply H3; by left).
      destruct (play_blocks (fun nd1 b => nd1 = nd /\ length b = 2) (fun t b => t < n -> b = [block (fun t => op (g t) (m t)) t; block (fun t => op (g t) (m t)) t]) inps 0 nd [silent P; silent P] nd' outs) as [Hl H].
      + intros t nd1 b inp nd2 b2 Hi [-> Hb] Hgp. pose proof (H7 t inp Hi) as Hq. cbn [map zip zip_with] in Hq. destruct b as [|b0 [|b1 [|]]]; try done.
        destruct (in_id_perm _ _ _ _ _ Hne Hq) as (Hi1 & Hi2 & xa & xb & ->).
        pose proof (lookup_lt_Some _ _ _ Hi) as Hlt. rewrite Hg in Hgp. rewrite <- block_zip. revert Hgp. cbn [apply_op op_ord]. unfold in_ord. cbn [lookup list_lookup]. rewrite Hi1, Hi2.
        destruct (carries_at n _ g t IH) as [E1|E1], (carries_at n _ m t IHm) as [E2|E2]; try lia; rewrite E1, E2; cbn; intros [= <- <-]; (split; [by split|done]).
      + by split.
      + exact H8.
      + split; [lia|]. intros b o Ho. right. apply (H b o Ho). apply lookup_lt_Some in Ho. lia.
    - destruct H5 as (n0 & refs & Hmk & Hf). injection Hmk as <- <- _. pose proof (proj1 H4) as Hms.
      apply (wiring_mk P (fun o => Simple (NNoise (Noise sd 0 o)))) in Hf as [o ->]; [|wiring_step|done].
      destruct (fun a b => play_time (fun t nd b => length b = 1 /\ nd = Simple (NNoise (Noise sd (Z.of_nat (t * p_blk P)) o))) (fun t b => b = [block (fun t => f_of_d (p_noise P sd (Z.of_nat t))) t]) inps 0 _ [silent P] nd' outs a b H8) as [Hl H]; [| |].
      + intros t nd1 b inp nd2 b2 _ ((x & ->)%length1 & ->) Hg. cbn [Nat.add] in *. cbn [gproc sproc] in Hg. unfold noise_proc in Hg. cbn [scan] in Hg. rewrite noise_scan in Hg. cbn in Hg. injection Hg as <- <-.
        split; [split; [done|]; do 4 f_equal; lia|]. f_equal. apply map_shift. intros j. do 2 f_equal. lia.
      + by split.
      + split; [lia|]. intros b o' Ho. left. by apply (H b o' Ho).
    - assert (Hsrc : sources p k (S i) c = [(k, i)]).
      { unfold sources. remember (Num v) as pp eqn:Ep. destruct HF as [lo pp q|v'|r]; [subst pp; by destruct lo|done|done]. }
      rewrite Hsrc in *. destruct ids as [|u [|]]; try done. specialize (H1 (k, i) ltac:(by left)). cbn [fst snd] in H1. specialize (IH _ H1).
      eapply (effect_number ev c v F g n ms u nd out inps nd' outs HF H4 H5 H6); [|exact H8].
      intros t inp Hi. pose proof (H7 t inp Hi) as Hq. cbn [map zip zip_with] in Hq. apply perm1 in Hq as ->. pose proof (lookup_lt_Some _ _ _ Hi) as Hlt.
      destruct (carries_at n _ g t IH) as [-> | ->]; [lia|by eexists|by eexists].
    - assert (Hsrc : sources p k (S i) c = [(k, i); (r, pred (length cs'))]).
      { unfold sources. remember (NRef r) as pp eqn:Ep. destruct HF as [lo pp q|v'|r']; [subst pp; destruct lo; cbn; by rewrite Hr|done|injection Ep as ->; cbn; by rewrite Hr]. }
      rewrite Hsrc in *. destruct ids as [|u [|u' [|]]]; try done. pose proof (H1 (k, i) ltac:(by left)) as Hs1. pose proof (H1 (r, pred (length cs')) ltac:(by right; left)) as Hs2. cbn [fst snd] in Hs1, Hs2.
      specialize (IH _ Hs1). specialize (IHm _ Hs2). assert (Hne : u <> u') by (intros ->; apply NoDup_cons in H3 as [H3 _]; apply H3; by left).
      eapply (effect_by_line ev c r F g m n ms u u' nd out inps nd' outs HF H4 Hne H5 H6); [|exact H8].
      intros t inp Hi. pose proof (H7 t inp Hi) as Hq. cbn [map zip zip_with] in Hq. pose proof (lookup_lt_Some _ _ _ Hi) as Hlt.
      destruct (carries_at n _ g t IH) as [E1|E1], (carries_at n _ m t IHm) as [E2|E2]; try lia; rewrite E1, E2 in Hq; by do 2 eexists.
  Qed.
  (** A component has only one tone. *)
  Lemma freq_ext w g g' t : (forall t, g t = g' t) -> freq_of w g t = freq_of w g' t.
  Proof.
    intros H. assert (Hl : last_struck g t = last_struck g' t) by (induction t as [|t IH]; cbn [last_struck]; rewrite H; [done|by rewrite IH]).
    destruct w; cbn [freq_of]; [apply H|done|done|done].
  Qed.
  Lemma osc_inj w p w' p' : osc_comp w p = osc_comp w' p' -> w = w' /\ p = p'.
  Proof. destruct w, w'; try done; intros [= ->]; done. Qed.
  Lemma osc_not w p : (forall v, osc_comp w p <> CConstSig v) /\ (forall r, osc_comp w p <> CGet r).
  Proof. by destruct w. Qed.
  Lemma arith_inj c p op p' op' : arith c p op -> arith c p' op' -> p = p' /\ op = op'.
  Proof. intros [[-> ->]|[-> ->]] [[H ->]|[H ->]]; try done; by injection H. Qed.
  Lemma past_ext g g' t : (forall t, g t = g' t) -> past1 g t = past1 g' t /\ past2 g t = past2 g' t.
  Proof. intros H. destruct t as [|[|t]]; cbn; rewrite ?H; done. Qed.
  Lemma bq_run_ext kf kf' g g' t : (forall t, kf t = kf' t) -> (forall t, g t = g' t) -> bq_run kf g t = bq_run kf' g' t.
  Proof.
    intros Hk Hg. unfold bq_run. f_equal. generalize (S t) as j. induction j as [|j IH]; [done|]. cbn [bq_past]. destruct (past_ext g g' j Hg) as [-> ->]. by rewrite IH, Hk.
  Qed.
  Lemma pole_run_ext b b' g g' t : (forall t, b t = b' t) -> (forall t, g t = g' t) -> pole_run b g t = pole_run b' g' t.
  Proof. intros Hb Hg. induction t as [|t IH]; cbn [pole_run]; rewrite Hb, Hg; [done|by rewrite IH]. Qed.
  Lemma effect_ext sr c p F m m' g g' t : effect sr c p F -> (forall t, m t = m' t) -> (forall t, g t = g' t) -> F m g t = F m' g' t.
  Proof.
    intros [lo p0 q|v|r] Hm Hg; [apply bq_run_ext; [intros t'; by rewrite Hm|done]|apply pole_run_ext; [intros t'; by rewrite Hm|done]|apply pole_run_ext; [intros t'; by rewrite Hg|done]].
  Qed.
  Lemma filter_inj lo p q lo' p' q' : filter_comp lo p q = filter_comp lo' p' q' -> lo = lo' /\ p = p' /\ q = q'.
  Proof. destruct lo, lo', p, p'; try done; intros [= -> ->]; done. Qed.
  Lemma effect_inj sr c p F p' F' : effect sr c p F -> effect sr c p' F' -> p = p' /\ F = F'.
  Proof.
    enough (Hg : forall c c' p F p' F', effect sr c p F -> effect sr c' p' F' -> c = c' -> p = p' /\ F = F') by (intros H H'; by apply (Hg c c)).
    clear. intros c c' p F p' F' H H' Ec1. destruct H as [lo p0 q|v|r], H' as [lo1 p1 q1|v1|r1]; try (by destruct lo); try (by destruct lo1); try done.
    - apply filter_inj in Ec1 as (-> & -> & ->). done.
    - injection Ec1 as ->. done.
    - injection Ec1 as ->. done.
  Qed.
  Lemma effect_not sr c p F : effect sr c p F -> (forall p' op, ~ arith c p' op).
  Proof. intros [lo p0 q|v|r] p' op [[H _]|[H _]]; try discriminate H; by destruct lo. Qed.
  Lemma osc_not_noise w p sd : osc_comp w p <> CNoise sd.
  Proof. by destruct w. Qed.
  Theorem C83_tone_unique sr p k i g : tone sr p k i g -> forall g', tone sr p k i g' -> forall t, g t = g' t.
  Proof.
    induction 1 as [k cs v Hk Hc|k cs w f Hk Hc|k cs w r cs' g Hk Hc Hr Ht IH|k cs r cs' g Hk Hc Hr Ht IH|k cs i c a op g Hk Hc Ha Ht IH|k cs i c r cs' op g m Hk Hc Ha Ht IH Hr Htm IHm|k cs sd Hk Hc|k cs i c v F g Hk Hc HF Ht IH|k cs i c r cs' F g m Hk Hc HF Ht IH Hr Htm IHm];
      intros g2 H2 t; inversion H2 as [k1 cs1 v1 Hk1 Hc1|k1 cs1 w1 f1 Hk1 Hc1|k1 cs1 w1 r1 cs1' g1 Hk1 Hc1 Hr1 Ht1|k1 cs1 r1 cs1' g1 Hk1 Hc1 Hr1 Ht1|k1 cs1 i1 c1 a1 op1 g1 Hk1 Hc1 Ha1 Ht1|k1 cs1 i1 c1 r1 cs1' op1 g1 m1 Hk1 Hc1 Ha1 Ht1 Hr1 Htm1|k1 cs1 sd1 Hk1 Hc1|k1 cs1 i1 c1 v1 F1 g1 Hk1 Hc1 HF1 Ht1|k1 cs1 i1 c1 r1 cs1' F1 g1 m1 Hk1 Hc1 HF1 Ht1 Hr1 Htm1]; subst;
      rewrite Hk in Hk1; injection Hk1 as <-; rewrite Hc in Hc1; apply (inj Some) in Hc1; rename Hc1 into E;
      try (exfalso; first [apply (proj1 (osc_not _ _) _ E)|apply (proj2 (osc_not _ _) _ E)|apply (proj1 (osc_not _ _) _ (eq_sym E))|apply (proj2 (osc_not _ _) _ (eq_sym E))|apply (osc_not_noise _ _ _ E)|apply (osc_not_noise _ _ _ (eq_sym E))]);
      try discriminate E; try subst c1; try (exfalso; first [by apply (effect_not _ _ _ _ HF _ _ Ha1)|by apply (effect_not _ _ _ _ HF1 _ _ Ha)]).
    - by injection E as ->.
    - apply osc_inj in E as [-> [= ->]]. done.
    - apply osc_inj in E as [_ E]. done.
    - apply osc_inj in E as [_ E]. done.
    - apply osc_inj in E as [-> [= ->]]. rewrite Hr in Hr1. injection Hr1 as <-. f_equal. apply phase_same. intros t' _. apply freq_ext. intros t2. by apply IH.
    - injection E as ->. rewrite Hr in Hr1. injection Hr1 as <-. by apply IH.
    - destruct (arith_inj _ _ _ _ _ Ha Ha1) as [[= ->] ->]. by rewrite (IH _ Ht1 t).
    - by destruct (arith_inj _ _ _ _ _ Ha Ha1).
    - by destruct (arith_inj _ _ _ _ _ Ha Ha1).
    - destruct (arith_inj _ _ _ _ _ Ha Ha1) as [[= ->] ->]. rewrite Hr in Hr1. injection Hr1 as <-. by rewrite (IH _ Ht1 t), (IHm _ Htm1 t).
    - by injection E as ->.
    - destruct (effect_inj _ _ _ _ _ _ HF HF1) as [[= ->] ->]. apply (effect_ext _ _ _ _ _ _ _ _ _ HF); [done|by apply IH].
    - by destruct (effect_inj _ _ _ _ _ _ HF HF1).
    - by destruct (effect_inj _ _ _ _ _ _ HF HF1).
    - destruct (effect_inj _ _ _ _ _ _ HF HF1) as [[= ->] ->]. rewrite Hr in Hr1. injection Hr1 as <-. apply (effect_ext _ _ _ _ _ _ _ _ _ HF); [by apply IHm|by apply IH].
  Qed.
End tones.

Section texts.
  Context (P : platform) (cf : cfg) (math : string -> res f32).
  Context (Hrel : debug (p_cfg P) = false) (Hblk : 0 < p_blk P) (Humax : (16777216 <= umax (p_cfg P))%Z).
  Notation get := (get_ast cf math).
  Notation L := (glang P get).
  Notation new_env := (Env ∅ 44100%Z default_bpm 42%Z).

  Lemma sources_ext (p q : string -> option (list component)) k i c : (forall n, p n = q n) -> sources p k i c = sources q k i c.
  Proof. intros H. unfold sources. f_equal. apply map_ext. intros r. by rewrite H. Qed.
  Lemma score_ext ev n p q k i outs : (forall n, p n = q n) -> score P ev n p k i outs -> score P ev n q k i outs.
  Proof.
    intros H Hs. induction Hs as [k cs i c h ids ms nd out inps nd' outs Hk Hi H1 IH H2 H3 H4 H5 H6 H7 H8].
    rewrite (sources_ext p q) in * by done. eapply (sc_component P ev n q k cs i c h ids ms nd out inps nd' outs); try done.
    by rewrite <- H.
  Qed.

  (** The lines of a text refer to each other without wildcards and without coming back. *)
  Definition ordered_lines (ls : list (string * list component)) (rank : string -> nat) : Prop :=
    forall n ks c, last_named n ls = Some ks -> c ∈ ks -> NoDup (component_refs c) /\
      forall r, r ∈ component_refs c -> no_dots r /\ is_Some (last_named r ls) /\ rank r < rank n.
  (** [k] is the only audible line. *)
  Definition only_audible (ls : list (string * list component)) (k : string) : Prop :=
    contains_char "~" k = false /\ forall n, is_Some (last_named n ls) -> contains_char "~" n = false -> n = k.

  (** C83: a text of calm components whose lines refer to each other without coming back is
      accepted by a new engine and plays every further block; if [k] is its only audible line,
      the caller gets the score of the last component of [k]. *)
  Theorem C83_text_to_sound blk txt ls rank k cs (o : orders) :
    program_text cf math txt ls -> ordered_lines ls rank -> last_named k ls = Some cs -> only_audible ls k ->
    (forall n ks i c, last_named n ls = Some ks -> ks !! i = Some c -> n <> "~input"%string /\ calm c i /\ makeable c) ->
    exists e, update L o (engine_new L) txt = Ok (e, None) /\
      forall l, Forall (fun x => Forall (fun s => length s = p_blk P) x.2) l ->
        exists outs bss, render P cf math blk e l = Ok outs /\
          score P new_env (length l) (fun n => last_named n ls) k (pred (length cs)) bss /\
          forall ch, ch < 2 -> lane ch outs = map (fadd f0) (List.concat (map (heard_in ch) bss)).
  Proof.
    intros Ht Hord Hk [Hka Honly] Hcm. pose proof (line_nonempty _ _ _ _ Ht) as Hnel.
    assert (Hne : forall n ks, last_named n ls = Some ks -> ks <> []) by (intros n ks Hn; apply last_named_in in Hn; rewrite Forall_forall in Hnel; by apply (Hnel _ Hn)).
    destruct (C73_text_plays P cf math Hrel Hblk Humax blk txt ls o Ht) as (e & Hu & Hold & _ & _ & Hplay).
    { intros n ks Hn. split.
      - destruct ks as [|c ks]; [by destruct (Hne _ _ Hn)|]. exact (proj1 (Hcm n (c :: ks) 0 c Hn eq_refl)).
      - intros i c Hi. destruct (Hcm n ks i c Hn Hi) as (_ & H1 & H2). split_and!; [done|done|]. intros r Hr.
        destruct (Hord n ks c Hn (elem_of_list_lookup_2 _ _ _ Hi)) as [_ H]. destruct (H r Hr) as (Hd & Hs & _). exists r.
        split; [unfold refers; by rewrite (plain_ref r Hd)|by left]. }
    exists e. split; [exact Hu|]. intros l Hl. destruct (plays_render P cf math blk e l (Hplay l Hl)) as (outs & es & Hr & Hrs & Hlen).
    destruct (C53_layout_partial cf math txt ls Ht) as (p & Hp & Hpl).
    assert (Hparse : parse (l := L) txt = Done p) by exact Hp.
    assert (Hpk : p !! k = Some cs) by (by rewrite Hpl).
    assert (Hok : prog_ok L p).
    { split.
      - change input_name with "~input"%string. rewrite Hpl. destruct (last_named "~input"%string ls) as [ks|] eqn:E; [|done]. exfalso.
        destruct ks as [|c ks]; [by destruct (Hne _ _ E)|]. by destruct (Hcm _ (c :: ks) 0 c E eq_refl).
      - intros k' H. rewrite Hpl in H. by apply (Hne _ _ H). }
    assert (Hnone : forall k', old_ast L (engine_new L) !! k' = None) by (intros k'; apply lookup_empty).
    assert (Hpe : Props_Update.plain_edit (L := L) (old_ast L (engine_new L)) p) by (intros k' olds news H; rewrite Hnone in H; done).
    assert (Ht0 : tamely L blk (engine_new L)) by constructor.
    assert (Hcl : closed p (fun _ => True) rank).
    { split. intros n ks c _ Hn Hc. rewrite Hpl in Hn. destruct (Hord n ks c Hn Hc) as [H1 H2]. split; [done|]. intros r Hrr. destruct (H2 r Hrr) as (? & ? & ?). rewrite Hpl. done. }
    pose proof (C83_plays_the_score P get blk (engine_new L) o txt p e (fun _ => True) rank k cs es Ht0 Hparse Hok Hu ltac:(by intros k' _; apply Hnone) Hcl I
      (wa_audible p k Hka) Hpk (puts_out_rolls P get blk e es outs Hrs) (pred (length cs))) as Hsc.
    assert (Hlc : pred (length cs) < length cs) by (pose proof (Hne _ _ Hk) as Hn; destruct cs; [done|cbn; lia]).
    specialize (Hsc Hlc). rewrite Hlen in Hsc.
    exists outs, (stream P get es k (pred (length cs))). split_and!; [done| |].
    - eapply score_ext; [|exact Hsc]. exact Hpl.
    - intros ch Hch. eapply (C80_only_audible P get blk e p k cs es outs ch); try done.
      + eapply (tm_step L blk _ (CUpdate L o txt) e _ Ht0); [unfold tame_call; rewrite Hparse; split; [done|by apply (Props_Update.plain_tame L (glang_ok P get))]|]. cbn [step]. rewrite Hu. reflexivity.
      + destruct (tamely_inv L (glang_ok P get) _ _ Ht0) as (He & Hal & _). pose proof Hu as Hu'. unfold update in Hu'. rewrite Hparse in Hu'.
        exact (re_ast _ _ _ _ _ (tame_update_result L (glang_ok P get) _ _ _ _ He Hal Hok (Props_Update.plain_tame L (glang_ok P get) _ _ Hpe) Hu')).
      + intros k' cs' Hk' Hk'a. apply Honly; [|done]. rewrite Hpl in Hk'. by eexists.
  Qed.

  (** Programs of oscillators, constants, gains and offsets: a constant, an oscillator or
      another line at the head, then gains and offsets, each by a number or by another line. *)
  Inductive synth : component -> nat -> Prop :=
  | sy_sig v : synth (CConstSig v) 0
  | sy_osc w p : synth (osc_comp w p) 0
  | sy_get r : synth (CGet r) 0
  | sy_op c p op i : arith c p op -> synth c (S i)
  | sy_noise sd : synth (CNoise sd) 0
  | sy_filter lo p q i : synth (filter_comp lo p q) (S i)
  | sy_pole p i : synth (COnepole p) (S i).
  Lemma synth_calm c i : synth c i -> (forall r, r ∈ component_refs c -> no_dots r) -> calm c i /\ makeable c.
  Proof.
    intros H Hr. assert (Hp : forall p, (forall r, r ∈ numref_refs p -> no_dots r) -> plain_num p) by (intros [v|r] H'; [done|apply H'; by left]).
    destruct H as [v|w p|r|c p op i [[-> _]|[-> _]]|sd|lo p q i|p i]; try done; [destruct w; (split; [by apply Hp|done])|split; [by apply Hp|done]|split; [by apply Hp|done]| |split; [by apply Hp|done]].
    destruct lo; [|split; [by apply Hp|done]]. destruct p as [v|r]; [done|]. split; [apply Hr; by left|done].
  Qed.
  Lemma tone_exists sr ls rank : ordered_lines ls rank ->
    (forall n ks i c, last_named n ls = Some ks -> ks !! i = Some c -> synth c i) ->
    (forall n ks, last_named n ls = Some ks -> ks <> []) ->
    forall k cs i, last_named k ls = Some cs -> i < length cs -> exists g, tone P sr (fun n => last_named n ls) k i g.
  Proof.
    intros Hord Hsy Hne k. remember (rank k) as m eqn:Em. revert k Em. induction (lt_wf m) as [m _ IHm]. intros k -> cs i Hk.
    assert (Hline : forall c r, c ∈ cs -> r ∈ component_refs c -> exists cs' g, last_named r ls = Some cs' /\ tone P sr (fun n => last_named n ls) r (pred (length cs')) g).
    { intros c r Hc Hr. destruct (Hord k cs c Hk Hc) as [_ H]. destruct (H r Hr) as (_ & [cs' Hr'] & Hlt). exists cs'.
      destruct (IHm (rank r) Hlt r eq_refl cs' (pred (length cs')) Hr') as [g Hg]; [pose proof (Hne _ _ Hr') as Hn; destruct cs'; [done|cbn; lia]|]. by exists g. }
    induction i as [i IHi] using lt_wf_ind. intros Hi. destruct (lookup_lt_is_Some_2 cs i Hi) as [c Hc]. pose proof (elem_of_list_lookup_2 _ _ _ Hc) as Hin.
    pose proof (Hsy k cs i c Hk Hc) as Hs. destruct Hs as [v|w [f|r]|r|c [a|r] op i Ha|sd|lo [v|r] q i|[v|r] i].
    - eexists. by eapply tn_sig.
    - eexists. by eapply tn_osc.
    - destruct (Hline _ r Hin) as (cs' & g & H1 & H2); [by destruct w; left|]. eexists. by eapply tn_fm.
    - destruct (Hline _ r Hin) as (cs' & g & H1 & H2); [by left|]. eexists. by eapply tn_get.
    - destruct (IHi i) as [g Hg]; [lia|lia|]. eexists. by eapply tn_number.
    - destruct (IHi i) as [g Hg]; [lia|lia|]. destruct (Hline _ r Hin) as (cs' & m & H1 & H2); [by destruct Ha as [[-> _]|[-> _]]; left|]. eexists. by eapply tn_line.
    - eexists. by eapply tn_noise.
    - destruct (IHi i) as [g Hg]; [lia|lia|]. eexists. by eapply tn_effect; [..|apply ef_filter|].
    - destruct (IHi i) as [g Hg]; [lia|lia|]. destruct (Hline _ r Hin) as (cs' & m & H1 & H2); [by destruct lo; left|]. eexists. by eapply tn_effect_line; [..|apply ef_filter| | |].
    - destruct (IHi i) as [g Hg]; [lia|lia|]. eexists. by eapply tn_effect; [..|apply ef_pole|].
    - destruct (IHi i) as [g Hg]; [lia|lia|]. destruct (Hline _ r Hin) as (cs' & m & H1 & H2); [by left|]. eexists. by eapply tn_effect_line; [..|apply ef_pole_line| | |].
  Qed.

  (** C83: such a text is accepted by a new engine; its only audible line has a tone, and both
      channels carry that tone sample by sample from the first sample on, whatever the block
      size, the number of blocks, the hash orders and the input. *)
  Theorem C83_synthesis blk txt ls rank k cs (o : orders) :
    program_text cf math txt ls -> ordered_lines ls rank -> last_named k ls = Some cs -> only_audible ls k ->
    (forall n ks i c, last_named n ls = Some ks -> ks !! i = Some c -> n <> "~input"%string /\ synth c i) ->
    exists e g, update L o (engine_new L) txt = Ok (e, None) /\ tone P 44100 (fun n => last_named n ls) k (pred (length cs)) g /\
      forall l, Forall (fun x => Forall (fun s => length s = p_blk P) x.2) l ->
        exists outs, render P cf math blk e l = Ok outs /\
          forall ch, ch < 2 -> lane ch outs = map (fun t => fadd f0 (g t)) (seq 0 (length l * p_blk P)).
  Proof.
    intros Ht Hord Hk Hau Hsy. pose proof (line_nonempty _ _ _ _ Ht) as Hnel.
    assert (Hne : forall n ks, last_named n ls = Some ks -> ks <> []) by (intros n ks Hn; apply last_named_in in Hn; rewrite Forall_forall in Hnel; by apply (Hnel _ Hn)).
    destruct (C83_text_to_sound blk txt ls rank k cs o Ht Hord Hk Hau) as (e & Hu & H).
    { intros n ks i c Hn Hi. destruct (Hsy n ks i c Hn Hi) as [H1 H2]. split; [done|]. apply (synth_calm c i H2). intros r Hr.
      destruct (Hord n ks c Hn (elem_of_list_lookup_2 _ _ _ Hi)) as [_ H3]. by apply (H3 r Hr). }
    destruct (tone_exists 44100 ls rank Hord ltac:(intros; by eapply Hsy) Hne k cs (pred (length cs)) Hk) as [g Hg].
    { pose proof (Hne _ _ Hk) as Hn. destruct cs; [done|cbn; lia]. }
    exists e, g. split_and!; [exact Hu|exact Hg|]. intros l Hl. destruct (H l Hl) as (outs & bss & Hr & Hs & Hlane). exists outs. split; [exact Hr|].
    intros ch Hch. rewrite (Hlane ch Hch). rewrite (carries_concat P (length l) bss g) by (done || exact (C83_tone P new_env _ _ _ _ _ _ Hg Hs)). by rewrite map_map.
  Qed.
End texts.

Section instruments.
  Context (P : platform) (cf : cfg) (math : string -> res f32).
  Context (Hrel : debug (p_cfg P) = false) (Hblk : 0 < p_blk P) (Humax : (16777216 <= umax (p_cfg P))%Z).
  Notation L := (glang P (get_ast cf math)).

  (** What two lines have to be: one audible, the other not. *)
  Definition line_pair (ls : list (string * list component)) (k r : string) : Prop :=
    (forall n, is_Some (last_named n ls) -> n = k \/ n = r) /\ contains_char "~" k = false /\ contains_char "~" r = true /\
    no_dots r /\ r <> "~input"%string.

  Lemma two_lines_play blk txt ls k r cs rs (o : orders) g :
    program_text cf math txt ls -> line_pair ls k r -> last_named k ls = Some cs -> last_named r ls = Some rs ->
    (forall i c, cs !! i = Some c -> synth c i /\ (component_refs c = [] \/ component_refs c = [r])) ->
    (forall i c, rs !! i = Some c -> synth c i /\ component_refs c = []) ->
    tone P 44100 (fun n => last_named n ls) k (pred (length cs)) g ->
    exists e, update L o (engine_new L) txt = Ok (e, None) /\
      forall l, Forall (fun x => Forall (fun s => length s = p_blk P) x.2) l ->
        exists outs, render P cf math blk e l = Ok outs /\
          forall ch, ch < 2 -> lane ch outs = map (fun t => fadd f0 (g t)) (seq 0 (length l * p_blk P)).
  Proof.
    intros Ht (H1 & H2 & H3 & H4 & H5) Hk Hr Hcs Hrs Hg.
    assert (Hkr : k <> r) by (intros ->; congruence).
    destruct (C83_synthesis P cf math Hrel Hblk Humax blk txt ls (fun n => if String.eqb n k then 1 else 0) k cs o Ht) as (e & g' & Hu & Hg' & H); [..|exists e; split; [exact Hu|]].
    - intros n ks c Hn Hc. apply elem_of_list_lookup in Hc as [i Hi]. destruct (H1 n) as [-> | ->]; [by eexists|..].
      + rewrite Hk in Hn. injection Hn as <-. destruct (Hcs i c Hi) as [_ [-> | ->]]; [split; [constructor|]; intros x Hx; by apply elem_of_nil in Hx|].
        split; [apply NoDup_singleton|]. intros x Hx. apply elem_of_list_singleton in Hx as ->. split_and!; [exact H4|by eexists|].
        rewrite String.eqb_refl. destruct (String.eqb_spec r k); [by subst|lia].
      + rewrite Hr in Hn. injection Hn as <-. destruct (Hrs i c Hi) as [_ ->]. split; [constructor|]. intros x Hx. by apply elem_of_nil in Hx.
    - exact Hk.
    - split; [exact H2|]. intros n Hn Hna. destruct (H1 n Hn) as [-> | ->]; [done|congruence].
    - intros n ks i c Hn Hi. destruct (H1 n) as [-> | ->]; [by eexists|..].
      + rewrite Hk in Hn. injection Hn as <-. split; [intros ->; done|]. by apply Hcs.
      + rewrite Hr in Hn. injection Hn as <-. split; [done|]. by apply Hrs.
    - intros l Hl. destruct (H l Hl) as (outs & Hrd & Hlane). exists outs. split; [exact Hrd|]. intros ch Hch. rewrite (Hlane ch Hch).
      apply map_ext. intros t. f_equal. exact (C83_tone_unique P _ _ _ _ _ Hg' _ Hg t).
  Qed.

  (** C83: amplitude modulation, [k: osc f >> mul ~r] with [~r: osc f']: the product of the two
      waveforms, on both channels. *)
  Theorem C83_ring_modulation blk txt ls k r w f w' f' (o : orders) :
    program_text cf math txt ls -> line_pair ls k r ->
    last_named k ls = Some [osc_comp w (Num f); CMul (NRef r)] -> last_named r ls = Some [osc_comp w' (Num f')] ->
    exists e, update L o (engine_new L) txt = Ok (e, None) /\
      forall l, Forall (fun x => Forall (fun s => length s = p_blk P) x.2) l ->
        exists outs, render P cf math blk e l = Ok outs /\
          forall ch, ch < 2 -> lane ch outs = map (fun t => fadd f0 (fmul (shape P w (phase_at 44100 (fun _ => f) t)) (shape P w' (phase_at 44100 (fun _ => f') t)))) (seq 0 (length l * p_blk P)).
  Proof.
    intros Ht H2 Hk Hr. eapply (two_lines_play blk txt ls k r _ _ o (fun t => fmul _ _) Ht H2 Hk Hr).
    - intros [|[|i]] c [= <-]; [split; [constructor|left; by destruct w]|]. split; [eapply sy_op; by left|by right].
    - intros [|i] c [= <-]. split; [constructor|by destruct w'].
    - cbn [length pred]. eapply (tn_line P _ _ k _ 0 _ r _ fmul); [exact Hk|done|by left|by eapply tn_osc|exact Hr|by eapply tn_osc].
  Qed.
  (** C83: frequency modulation, [k: osc ~r] with [~r: osc f >> mul d >> add c]: the carrier's
      phase advances by the modulator sample by sample. *)
  Theorem C83_frequency_modulation blk txt ls k r w w' f d c (o : orders) :
    program_text cf math txt ls -> line_pair ls k r ->
    last_named k ls = Some [osc_comp w (NRef r)] -> last_named r ls = Some [osc_comp w' (Num f); CMul (Num d); CAdd (Num c)] ->
    let modulator t := fadd (fmul (shape P w' (phase_at 44100 (fun _ => f) t)) d) c in
    exists e, update L o (engine_new L) txt = Ok (e, None) /\
      forall l, Forall (fun x => Forall (fun s => length s = p_blk P) x.2) l ->
        exists outs, render P cf math blk e l = Ok outs /\
          forall ch, ch < 2 -> lane ch outs = map (fun t => fadd f0 (shape P w (phase_at 44100 (freq_of w modulator) t))) (seq 0 (length l * p_blk P)).
  Proof.
    intros Ht H2 Hk Hr modulator. eapply (two_lines_play blk txt ls k r _ _ o (fun t => shape P w _) Ht H2 Hk Hr).
    - intros [|i] x [= <-]. split; [constructor|right; by destruct w].
    - intros [|[|[|i]]] x [= <-]; [split; [constructor|by destruct w']| |]; (split; [|done]).
      + eapply sy_op. by left.
      + eapply sy_op. by right.
    - cbn [length pred]. eapply tn_fm; [exact Hk|done|exact Hr|]. cbn [length pred].
      eapply (tn_number P _ _ r _ 1 _ c fadd (fun t => fmul (shape P w' (phase_at 44100 (fun _ => f) t)) d)); [exact Hr|done|by right|].
      eapply (tn_number P _ _ r _ 0 _ d fmul); [exact Hr|done|by left|]. by eapply tn_osc.
  Qed.
  (** C83: a filter sweep, [k: osc f0 >> lpf ~r q >> mul g] with [~r: osc f >> mul d >> add c]:
      the filter takes its cutoff from the modulator once per block, at the first sample. *)
  Theorem C83_filter_sweep blk txt ls k r w fr lo q gain w' f d c (o : orders) :
    program_text cf math txt ls -> line_pair ls k r ->
    last_named k ls = Some [osc_comp w (Num fr); filter_comp lo (NRef r) q; CMul (Num gain)] -> last_named r ls = Some [osc_comp w' (Num f); CMul (Num d); CAdd (Num c)] ->
    let cutoff t := fadd (fmul (shape P w' (phase_at 44100 (fun _ => f) t)) d) c in
    let start t := t / p_blk P * p_blk P in
    exists e, update L o (engine_new L) txt = Ok (e, None) /\
      forall l, Forall (fun x => Forall (fun s => length s = p_blk P) x.2) l ->
        exists outs, render P cf math blk e l = Ok outs /\
          forall ch, ch < 2 -> lane ch outs =
            map (fun t => fadd f0 (fmul (bq_run (fun t => filter_coefs P lo 44100 (cutoff (start t)) q) (fun t => shape P w (phase_at 44100 (fun _ => fr) t)) t) gain)) (seq 0 (length l * p_blk P)).
  Proof.
    intros Ht H2 Hk Hr cutoff start. eapply (two_lines_play blk txt ls k r _ _ o (fun t => fmul _ gain) Ht H2 Hk Hr).
    - intros [|[|[|i]]] x [= <-]; [split; [constructor|left; by destruct w]|split; [constructor|right; by destruct lo]|split; [eapply sy_op; by left|by left]].
    - intros [|[|[|i]]] x [= <-]; [split; [constructor|by destruct w']| |]; (split; [|done]).
      + eapply sy_op. by left.
      + eapply sy_op. by right.
    - cbn [length pred].
      eapply (tn_number P _ _ k _ 1 _ gain fmul (bq_run (fun t => filter_coefs P lo 44100 (cutoff (start t)) q) (fun t => shape P w (phase_at 44100 (fun _ => fr) t)))); [exact Hk|done|by left|].
      eapply (tn_effect_line P 44100 _ k _ 0 (filter_comp lo (NRef r) q) r _ (fun m g => bq_run (fun t => filter_coefs P lo 44100 (m (t / p_blk P * p_blk P)) q) g) (fun t => shape P w (phase_at 44100 (fun _ => fr) t)) cutoff Hk eq_refl); [apply ef_filter|by eapply tn_osc|exact Hr|].
      cbn [length pred]. eapply (tn_number P _ _ r _ 1 _ c fadd (fun t => fmul (shape P w' (phase_at 44100 (fun _ => f) t)) d)); [exact Hr|done|by right|].
      eapply (tn_number P _ _ r _ 0 _ d fmul); [exact Hr|done|by left|]. by eapply tn_osc.
  Qed.
End instruments.

(** ** Non-vacuity *)
From Verif Require Import Session.
Local Open Scope string_scope.
Definition fm_text : string := "o: sin ~b
~b: sin 440 >> mul 0.5 >> add 440".
Definition fm_lines : list (string * list component) :=
  [("o", [osc_comp WSin (NRef "~b")]);
   ("~b", [osc_comp WSin (Num (f_of_dec false 440 0)); CMul (Num (f_of_dec false 5 (-1))); CAdd (Num (f_of_dec false 440 0))])].
Lemma t_sin_b : node_text c64 no_math "sin ~b" (CSin (NRef "~b")).
Proof.
  exists "sin", ["~b"], (" " ++ "~b"). split; [|split; [|done]].
  - apply (sp_one_arg _ _ "sin" CSin); [seth|]. constructor. apply free_tilde_b.
  - rewrite <- (sapp_nil_r "~b"). constructor; [done|constructor].
Qed.
Lemma t_add g : space g -> node_text c64 no_math ("add" ++ g ++ "440") (CAdd (Num (f_of_dec false 440 0))).
Proof.
  intros Hg. exists "add", ["440"], (g ++ "440"). split; [|split; [|done]].
  - apply (sp_one_arg c64 no_math "add" CAdd); [seth|]. constructor. apply num440.
  - rewrite <- (sapp_nil_r "440") at 2. constructor; [done|constructor].
Qed.
Lemma fm_text_ok : program_text c64 no_math fm_text fm_lines.
Proof.
  exists "", fm_text. split; [done|]. split; [done|].
  apply (prog_line _ _ "o: sin ~b" ("o", [CSin (NRef "~b")]) eol "~b: sin 440 >> mul 0.5 >> add 440").
  - exists "", " ", "sin ~b". eexists. exists "". eexists.
    split; [by apply (name_plain _ "o" "")|]. split; [done|]. split; [done|]. split; [by apply t_sin_b|]. split; [|split; [reflexivity|reflexivity]].
    constructor.
  - exists "", "", "", eol. split_and!; try done; [seth|]. rewrite <- (sapp_nil_r eol). apply (breaks_cons "" ""); [done|constructor].
  - rewrite <- (sapp_nil_r "~b: sin 440 >> mul 0.5 >> add 440"). rewrite <- (sapp_nil_r "") at 2. constructor; [|..].
    + exists "", " ", ("sin" ++ " " ++ "440"). eexists. exists ((" " ++ "" ++ "" ++ ">>" ++ " ") ++ ("mul" ++ " " ++ "0.5") ++ (" " ++ "" ++ "" ++ ">>" ++ " ") ++ ("add" ++ " " ++ "440") ++ ""). eexists.
      split; [by apply (name_tilde _ "b" "")|]. split; [done|]. split; [done|]. split; [by apply t_sin|]. split; [|split; reflexivity].
      constructor; [|by apply t_mul|]; [apply joint_here; try done; seth|]. constructor; [|by apply t_add|constructor]. apply joint_here; try done. seth.
    + exists "", "", "", "". split_and!; try done; [seth|constructor].
    + constructor.
    + by left.
  - right. right. done.
Qed.
Example C83_case : exists txt ls, program_text c64 no_math txt ls /\ line_pair ls "o" "~b" /\
  last_named "o" ls = Some [osc_comp WSin (NRef "~b")] /\
  last_named "~b" ls = Some [osc_comp WSin (Num (f_of_dec false 440 0)); CMul (Num (f_of_dec false 5 (-1))); CAdd (Num (f_of_dec false 440 0))].
Proof.
  exists fm_text, fm_lines. split; [exact fm_text_ok|]. split; [|split; reflexivity]. split; [|done].
  intros n [ks Hn]. apply last_named_in in Hn. apply elem_of_cons in Hn as [Hn|Hn]; [injection Hn as -> _; by left|].
  apply elem_of_list_singleton in Hn. injection Hn as -> _. by right.
Qed.
(** Two blocks of eight samples: the carrier of this text is not the unmodulated one. *)
Example C83_samples : exists e outs, update (glang demo (get_ast c64 no_math)) id_orders (engine_new (glang demo (get_ast c64 no_math))) fm_text = Ok (e, None) /\
  render demo c64 no_math 8 e [((fun _ => id_shuffle), []); ((fun _ => rev_shuffle), [])] = Ok outs /\
  lane 1 outs = map (fun t => fadd f0 (shape demo WSin (phase_at 44100 (freq_of WSin
    (fun t => fadd (fmul (shape demo WSin (phase_at 44100 (fun _ => f_of_dec false 440 0) t)) (f_of_dec false 5 (-1))) (f_of_dec false 440 0))) t))) (seq 0 16) /\
  lane 1 outs <> map (fun t => fadd f0 (shape demo WSin (phase_at 44100 (fun _ => f_of_dec false 440 0) t))) (seq 0 16).
Proof.
  destruct (C83_frequency_modulation demo c64 no_math eq_refl ltac:(cbn; lia) ltac:(cbn; lia) 8 fm_text fm_lines "o" "~b" WSin WSin (f_of_dec false 440 0) (f_of_dec false 5 (-1)) (f_of_dec false 440 0) id_orders fm_text_ok) as (e & Hu & H); [|reflexivity|reflexivity|].
  { split; [|done]. intros n [ks Hn]. apply last_named_in in Hn. apply elem_of_cons in Hn as [Hn|Hn]; [injection Hn as -> _; by left|].
    apply elem_of_list_singleton in Hn. injection Hn as -> _. by right. }
  destruct (H [((fun _ => id_shuffle), []); ((fun _ => rev_shuffle), [])]) as (outs & Hr & Hl); [by repeat constructor|].
  exists e, outs. split; [exact Hu|]. split; [exact Hr|]. split; [exact (Hl 1 ltac:(lia))|]. rewrite (Hl 1 ltac:(lia)). vm_compute. intros [=].
Qed.
(** The hypotheses of [C83_plays_the_score] for line "~b", which is heard through "o". *)
Example C83_score_case : exists p e, parse (l := glicol) fm_text = Done p /\ prog_ok glicol p /\ update glicol id_orders (engine_new glicol) fm_text = Ok (e, None) /\
  closed p (fun _ => True) (fun n => if String.eqb n "o" then 1 else 0)%nat /\ wanted p "~b" /\ is_Some (p !! "~b") /\ contains_char "~" "~b" = true.
Proof.
  destruct (C53_layout_partial _ _ _ _ fm_text_ok) as (p & Hp & Hpl).
  assert (Hall : forall n ks, p !! n = Some ks -> (n, ks) ∈ fm_lines) by (intros n ks Hn; rewrite Hpl in Hn; by apply last_named_in).
  destruct (C73_text_plays demo c64 no_math eq_refl ltac:(cbn; lia) ltac:(cbn; lia) 8 fm_text fm_lines id_orders fm_text_ok) as (e & Hu & _).
  { intros n ks Hn. apply last_named_in in Hn. apply elem_of_cons in Hn as [Hn|Hn]; [|apply elem_of_list_singleton in Hn]; injection Hn as -> ->; (split; [done|]);
      intros [|[|[|i]]] c [= <-]; (split; [first [exact I|reflexivity]|]); (split; [exact I|]); intros r Hr; try (by apply elem_of_nil in Hr).
    apply elem_of_list_singleton in Hr as ->. exists "~b". split; [done|]. left. by eexists. }
  exists p, e. split; [exact Hp|]. split; [|split; [exact Hu|clear Hu Hp e; split_and!; [| | |reflexivity]]].
  - clear Hu Hp e. split; [by rewrite Hpl|]. intros k Hk. apply Hall in Hk. apply elem_of_cons in Hk as [Hk|Hk]; [|apply elem_of_list_singleton in Hk]; done.
  - split. intros n ks c _ Hn Hc. apply Hall in Hn. apply elem_of_list_lookup in Hc as [i Hi]. apply elem_of_cons in Hn as [Hn|Hn]; [|apply elem_of_list_singleton in Hn]; injection Hn as -> ->.
    + destruct i as [|i]; [|discriminate Hi]. injection Hi as <-. split; [apply NoDup_singleton|]. intros r Hr.
      apply elem_of_list_singleton in Hr as ->. split_and!; [reflexivity|exact I|rewrite Hpl; by eexists|apply Nat.lt_0_1].
    + destruct i as [|[|[|i]]]; [| | |discriminate Hi]; injection Hi as <-; (split; [constructor|]); intros r Hr; by apply elem_of_nil in Hr.
  - eapply (wa_named p "o"); [by constructor|by rewrite Hpl| | |]; [by left|by left|reflexivity].
  - rewrite Hpl. by eexists.
Qed.
(** A sweep: the hypotheses of [C83_filter_sweep] hold for a text, and two blocks of it are
    not what a fixed cutoff gives. *)
Definition sweep_text : string := "o: sin 440 >> lpf ~b 0.5 >> mul 0.5
~b: sin 440 >> mul 0.5 >> add 440".
Definition sweep_lines : list (string * list component) :=
  [("o", [osc_comp WSin (Num (f_of_dec false 440 0)); filter_comp true (NRef "~b") (f_of_dec false 5 (-1)); CMul (Num (f_of_dec false 5 (-1)))]);
   ("~b", [osc_comp WSin (Num (f_of_dec false 440 0)); CMul (Num (f_of_dec false 5 (-1))); CAdd (Num (f_of_dec false 440 0))])].
Lemma t_lpf_b : node_text c64 no_math "lpf ~b 0.5" (CLpf (SigRef "~b") (f_of_dec false 5 (-1))).
Proof.
  exists "lpf", ["~b"; "0.5"], (" " ++ "~b" ++ " " ++ "0.5"). split; [|split; [|done]].
  - apply sp_lpf_ref; [apply free_tilde_b|]. apply num05.
  - constructor; [done|]. rewrite <- (sapp_nil_r "0.5"). constructor; [done|constructor].
Qed.
Lemma sweep_text_ok : program_text c64 no_math sweep_text sweep_lines.
Proof.
  exists "", sweep_text. split; [done|]. split; [done|].
  apply (prog_line _ _ "o: sin 440 >> lpf ~b 0.5 >> mul 0.5" ("o", [CSin (Num (f_of_dec false 440 0)); CLpf (SigRef "~b") (f_of_dec false 5 (-1)); CMul (Num (f_of_dec false 5 (-1)))]) eol "~b: sin 440 >> mul 0.5 >> add 440").
  - exists "", " ", ("sin" ++ " " ++ "440"). eexists. exists ((" " ++ "" ++ "" ++ ">>" ++ " ") ++ "lpf ~b 0.5" ++ (" " ++ "" ++ "" ++ ">>" ++ " ") ++ ("mul" ++ " " ++ "0.5") ++ ""). eexists.
    split; [by apply (name_plain _ "o" "")|]. split; [done|]. split; [done|]. split; [by apply t_sin|]. split; [|split; [reflexivity|reflexivity]].
    constructor; [|by apply t_lpf_b|]; [apply joint_here; try done; seth|]. constructor; [|by apply t_mul|constructor]. apply joint_here; try done. seth.
  - exists "", "", "", eol. split_and!; try done; [seth|]. rewrite <- (sapp_nil_r eol). apply (breaks_cons "" ""); [done|constructor].
  - rewrite <- (sapp_nil_r "~b: sin 440 >> mul 0.5 >> add 440"). rewrite <- (sapp_nil_r "") at 2. constructor; [|..].
    + exists "", " ", ("sin" ++ " " ++ "440"). eexists. exists ((" " ++ "" ++ "" ++ ">>" ++ " ") ++ ("mul" ++ " " ++ "0.5") ++ (" " ++ "" ++ "" ++ ">>" ++ " ") ++ ("add" ++ " " ++ "440") ++ ""). eexists.
      split; [by apply (name_tilde _ "b" "")|]. split; [done|]. split; [done|]. split; [by apply t_sin|]. split; [|split; reflexivity].
      constructor; [|by apply t_mul|]; [apply joint_here; try done; seth|]. constructor; [|by apply t_add|constructor]. apply joint_here; try done. seth.
    + exists "", "", "", "". split_and!; try done; [seth|constructor].
    + constructor.
    + by left.
  - right. right. done.
Qed.
Example C83_sweep_case : program_text c64 no_math sweep_text sweep_lines /\ line_pair sweep_lines "o" "~b" /\ exists e outs,
  update (glang demo (get_ast c64 no_math)) id_orders (engine_new (glang demo (get_ast c64 no_math))) sweep_text = Ok (e, None) /\
  render demo c64 no_math 8 e [((fun _ => id_shuffle), []); ((fun _ => rev_shuffle), [])] = Ok outs /\
  lane 1 outs <> map (fun t => fadd f0 (fmul (bq_run (fun _ => filter_coefs demo true 44100 (f_of_dec false 440 0) (f_of_dec false 5 (-1))) (fun t => shape demo WSin (phase_at 44100 (fun _ => f_of_dec false 440 0) t)) t) (f_of_dec false 5 (-1)))) (seq 0 16).
Proof.
  assert (H2 : line_pair sweep_lines "o" "~b").
  { split; [|done]. intros n [ks Hn]. apply last_named_in in Hn. apply elem_of_cons in Hn as [Hn|Hn]; [injection Hn as -> _; by left|].
    apply elem_of_list_singleton in Hn. injection Hn as -> _. by right. }
  split; [exact sweep_text_ok|]. split; [exact H2|].
  destruct (C83_filter_sweep demo c64 no_math eq_refl ltac:(cbn; lia) ltac:(cbn; lia) 8 sweep_text sweep_lines "o" "~b" WSin (f_of_dec false 440 0) true (f_of_dec false 5 (-1)) (f_of_dec false 5 (-1)) WSin (f_of_dec false 440 0) (f_of_dec false 5 (-1)) (f_of_dec false 440 0) id_orders sweep_text_ok H2 eq_refl eq_refl) as (e & Hu & H).
  destruct (H [((fun _ => id_shuffle), []); ((fun _ => rev_shuffle), [])]) as (outs & Hr & Hl); [by repeat constructor|].
  exists e, outs. split; [exact Hu|]. split; [exact Hr|]. rewrite (Hl 1 ltac:(lia)). vm_compute. intros [=].
Qed.

(** * C78: what a chain plays does not depend on edits made elsewhere.

    Vocabulary: see Props_Update.v and Props_Inputs.v. *)
From Verif Require Import InputProofs BlockProofs SafeNet Reorder Props_Signal Props_Inputs Props_Update Props_Blocks.
From Coq Require Import Lia.
Local Open Scope nat_scope.

Section kinds.
  Context (P : platform) (get : string -> outcome (gmap string (list component))).
  Notation L := (glang P get).

  (** ** Which node plays which component *)
  Definition cls (n : gnode P) : nat := match n with Simple s => tag P s | Comp _ => 100 end.
  Definition makes (c : component) : nat :=
    match c with
    | CPSampler _ => 21 | CArrange _ => 16 | CEval _ => 12 | CPlate _ => 100
    | _ => match kind_of c with Some t => t | None => 100 end
    end.
  Definition cls_J (tr : list msg) (c : component) (n : gnode P) : Prop := cls n = makes c.
  Lemma cls_msg n m n' : gmsg P n m = Ok n' -> cls n' = cls n.
  Proof.
    destruct n as [n|c]; cbn [gmsg]; unfold wrapm at 1.
    - destruct (smsg P n m) as [n1|] eqn:E; [|done]. intros [= <-]. cbn [cls]. by apply tag_msg in E.
    - destruct (compound_msg P c m); [|done]. by intros [= <-].
  Qed.
  Lemma cls_msgs ms n n' : foldM (gmsg P) n ms = Ok n' -> cls n' = cls n.
  Proof.
    revert n. induction ms as [|m ms IH]; intros n; cbn [foldM]; [by intros [= <-]|].
    destruct (gmsg P n m) as [n1|] eqn:E; [|done]. intros H. apply IH in H. rewrite H. by apply cls_msg in E.
  Qed.
  Lemma cls_proc n ins b n' b' : gproc P n ins b = Ok (n', b') -> cls n' = cls n.
  Proof.
    destruct n as [n|c]; cbn [gproc]; intros H; apply wrap_inv in H as (n1 & H & ->); [|done]. cbn [cls]. by apply tag_proc in H.
  Qed.
  Lemma cls_boxed n ch rs w refs t : tag P n = t -> boxed P n ch rs = Done (w, refs) -> cls w.1 = t.
  Proof. unfold boxed. by intros <- [= <- _]. Qed.
  Lemma cls_boxed_res r ch rs w refs t : (forall n, r = Ok n -> tag P n = t) -> boxed_res P r ch rs = Done (w, refs) -> cls w.1 = t.
  Proof. unfold boxed_res. destruct r as [n|]; [|done]. intros H. apply cls_boxed. by apply H. Qed.
  Lemma cls_boxed_comp r ch rs w refs : boxed_comp P r ch rs = Done (w, refs) -> cls w.1 = 100.
  Proof. unfold boxed_comp. destruct r as [n|]; [|done]. by intros [= <- _]. Qed.
  Lemma cls_make ev c w refs : makenode_ P ev c = Done (w, refs) -> cls w.1 = makes c.
  Proof.
    destruct c; cbn [makenode_ makes kind_of].
    all: lazymatch goal with
         | |- Crash = _ -> _ => discriminate
         | |- boxed _ _ _ _ = _ -> _ => apply cls_boxed; reflexivity
         | |- boxed_comp _ _ _ _ = _ -> _ => apply cls_boxed_comp
         | |- boxed_res _ _ _ _ = _ -> _ => apply cls_boxed_res; intros n; rs; (match goal with |- context [match ?x with Ok _ => _ | Panic => _ end] => destruct x; [|discriminate] end); intros H; injection H as <-; reflexivity
         | _ => idtac
         end.
    - destruct (e_samples ev !! sym); [|discriminate]. apply cls_boxed_res. intros n; rs. destruct (sampler_new _ _ _); [|discriminate]. intros H; injection H as <-; reflexivity.
    - destruct sg; try discriminate; apply cls_boxed; reflexivity.
    - destruct p; [discriminate|]. destruct (select _ _); try discriminate. apply cls_boxed; reflexivity.
  Qed.
  Lemma cls_tracked blk e : tamely L blk e -> tracked L cls_J e.
  Proof.
    apply tamely_tracked; [apply glang_ok|..]; unfold cls_J.
    - intros ev c w refs sh t k i st Hmk Hf. rewrite (cls_msgs _ _ _ Hf). exact (cls_make _ _ _ _ Hmk).
    - intros tr a b st0 sh t k i st HJ Heq Hf. rewrite (cls_msgs _ _ _ Hf), HJ. clear -Heq. destruct a, b; try discriminate Heq; reflexivity.
    - intros tr c st m st' HJ _ Hm. rewrite <- HJ. exact (cls_msg _ _ _ Hm).
    - intros tr c st ins b st' b' HJ Hp. rewrite <- HJ. exact (cls_proc _ _ _ _ _ Hp).
  Qed.

  (** ** The first input of a component without references *)
  Definition head_J (tr : list msg) (c : component) (n : gnode P) : Prop :=
    component_refs c = [] -> forall x o, IndexOrder 0 x ∈ tr -> head_order n = Some o -> o !! 0 = Some x.
  Lemma bare_trace sh t k i : trace sh t k i [] = [] \/ exists x, trace sh t k i [] = [IndexOrder 0 x].
  Proof. unfold trace, pred_msg. destruct (t !! k) as [ids|]; [|by left]. destruct i as [|i]; [by left|]. destruct (ids !! i) as [x|]; [right; by exists x|by left]. Qed.
  Lemma head_after sh t k i (n n' : gnode P) x o : foldM (gmsg P) n (trace sh t k i []) = Ok n' ->
    IndexOrder 0 x ∈ trace sh t k i [] -> head_order n' = Some o -> o !! 0 = Some x.
  Proof.
    destruct (bare_trace sh t k i) as [->|(y & ->)]; [by intros _ H%elem_of_nil|]. cbn [foldM]. destruct (gmsg P n (IndexOrder 0 y)) as [n1|] eqn:E; [|done].
    intros [= <-] Hx Ho. apply elem_of_list_singleton in Hx as [= ->]. apply head_has in Ho as [Hh <-].
    rewrite (first_order P n n1 y); [done| |exact E]. apply conn_reord in E; [|done]. rewrite E, reord_has in Hh. done.
  Qed.
  Lemma head_tracked blk e : tamely L blk e -> tracked L head_J e.
  Proof.
    apply tamely_tracked; [apply glang_ok|..].
    - intros ev c w refs sh t k i st Hmk Hf Hr x o Hx Ho. pose proof (make_refs_exact P _ _ _ _ Hmk) as Hre. rewrite Hr in Hre. rewrite Hre in Hx, Hf by constructor.
      exact (head_after _ _ _ _ _ _ _ _ Hf Hx Ho).
    - intros tr a b st0 sh t k i st HJ Heq Hf Hr x o Hx Ho. change (all_refs b) with (component_refs b) in *. rewrite Hr in Hx, Hf. exact (head_after _ _ _ _ _ _ _ _ Hf Hx Ho).
    - intros tr c st m st' HJ Hu Hm Hr x o Hx Ho. rewrite (user_head P _ _ _ Hu Hm) in Ho. by eapply HJ.
    - intros tr c st ins b st' b' HJ Hp Hr x o Hx Ho. rewrite (proc_head P _ _ _ _ _ Hp) in Ho. by eapply HJ.
  Qed.
End kinds.

Section isolation.
  Context (P : platform) (get : string -> outcome (gmap string (list component))) (blk : Z).
  Notation L := (glang P get).
  Notation engine := (engine (glang P get)).
  Notation prog := (gmap string (list component)).
  (** The chains in question, and an order in which they can be read: no chain refers to one
      that comes after it. *)
  Context (K : string -> Prop) (rk : string -> nat).

  (** Components that tell their inputs apart by name. *)
  Definition by_name (c : component) : bool :=
    match c with
    | CMul _ | CAdd _ | CPan _ | CSeq _ | CBalance _ _ | COnepole _ | CApfmsGain _ _ | CRhpf _ _ | CLpf _ _
    | CSin _ | CSaw _ | CSqu _ | CTri _ | CDelayn _ => true
    | _ => false
    end.
  Definition part (i : nat) (c : component) : Prop :=
    (component_refs c = [] /\ forall evs, c ≠ CArrange evs) \/ by_name c = true \/ (i = 0 /\ exists r, c = CGet r).
  (** Chain [k] is played, or read by a chain that is. *)
  Inductive in_use (p : prog) : string -> Prop :=
  | iu_out k : K k -> contains_char "~" k = false -> in_use p k
  | iu_ref k k' cs c : K k -> in_use p k' -> K k' -> p !! k' = Some cs -> c ∈ cs -> k ∈ component_refs c -> in_use p k.
  Record self_contained (p : prog) : Prop := {
    sc_has : forall k, K k -> exists cs, p !! k = Some cs;
    sc_use : forall k, K k -> in_use p k;
    sc_part : forall k cs i c, K k -> p !! k = Some cs -> cs !! i = Some c ->
      part i c /\ component_eqb c c = true /\ NoDup (component_refs c) /\
      forall r, r ∈ component_refs c -> no_dots r /\ K r /\ rk r < rk k
  }.
  Lemma in_use_agree p p' k : (forall k, K k -> p' !! k = p !! k) -> in_use p k -> in_use p' k.
  Proof. intros H. induction 1 as [k Hk Hc|k k' cs c Hk Hu IH Hk' Hp Hc Hr]; [by constructor|]. eapply iu_ref; eauto. by rewrite H. Qed.
  Lemma agree_contained p p' : (forall k, K k -> p' !! k = p !! k) -> self_contained p -> self_contained p'.
  Proof.
    intros H [H1 H2 H3]. split.
    - intros k Hk. rewrite H by done. by apply H1.
    - intros k Hk. eapply in_use_agree; [exact H|]. by apply H2.
    - intros k cs i c Hk Hp. rewrite H in Hp by done. by apply H3.
  Qed.
  Definition good (e : engine) : Prop := tamely L blk e /\ exists p, en_ast L e = Some p /\ self_contained p.

  (** ** Hearing the chains *)
  Section one.
    Context (e : engine) (p : prog) (Ht : tamely L blk e) (Hp : en_ast L e = Some p) (Hsc : self_contained p).
    Lemma k_ids k : K k -> exists cs ids, p !! k = Some cs /\ en_info L e !! k = Some ids /\ length ids = length cs /\ ids ≠ [].
    Proof.
      intros Hk. destruct (sc_has _ Hsc k Hk) as [cs Hcs]. destruct (tamely_inv L (glang_ok P get) _ _ Ht) as (He & Hal & _).
      assert (Ho : old_ast L e = p) by (unfold old_ast; by rewrite Hp).
      destruct (al_len _ _ Hal k cs) as (ids & Hi & Hl); [by rewrite Ho|]. exists cs, ids. split_and!; auto.
      intros ->. destruct cs; [|done]. pose proof (al_ok _ _ Hal) as [_ Hne]. rewrite Ho in Hne. by apply (Hne k).
    Qed.
    Lemma k_placed k i v : K k -> owner (en_info L e) v k i -> exists c, placed L (en_info L e) p k i c v.
    Proof.
      intros Hk Hv. destruct (k_ids k Hk) as (cs & ids & Hcs & Hi & Hl & _). pose proof Hv as (ids' & Hi' & Hx). rewrite Hi in Hi'. injection Hi' as <-.
      destruct (lookup_lt_is_Some_2 cs i) as [c Hc]; [apply lookup_lt_Some in Hx; lia|]. exists c, cs. done.
    Qed.
    Lemma k_edge k i v u : K k -> owner (en_info L e) v k i -> edge (en_graph L e) u v ->
      exists k' i', K k' /\ owner (en_info L e) u k' i' /\ (rk k' < rk k \/ (k' = k /\ i' < i)).
    Proof.
      intros Hk Hv Hu. destruct (k_placed k i v Hk Hv) as [c Hpl]. apply (feeds_edge L (glang_ok P get) blk e p k i c v u Ht Hp Hpl) in Hu.
      destruct Hpl as (cs & Hcs & Hc & _). destruct (sc_part _ Hsc k cs i c Hk Hcs Hc) as (_ & _ & _ & Hr).
      destruct Hu as [(j & -> & Ho)|(r & k' & Hin & Href & (ids & Hids & Hlast))].
      - exists k, j. split_and!; [done|done|]. right. split; [done|lia].
      - destruct (Hr r Hin) as (Hnd & Hkr & Hlt). unfold refers in Href. rewrite (plain_ref r Hnd) in Href. subst k'.
        rewrite last_lookup in Hlast. exists r, (pred (length ids)). split_and!; [done|by exists ids|]. by left.
    Qed.
    Lemma k_reaches k i v u : K k -> owner (en_info L e) v k i -> reaches (en_graph L e) u v ->
      exists k' i', K k' /\ owner (en_info L e) u k' i' /\ (rk k' < rk k \/ (k' = k /\ i' <= i)).
    Proof.
      intros Hk Hv Hr. revert k i Hk Hv. induction Hr as [u|u w v Huw Hwv IH]; intros k i Hk Hv.
      - exists k, i. split_and!; [done|done|]. right. split; [done|lia].
      - destruct (IH k i Hk Hv) as (k1 & i1 & Hk1 & Ho1 & Hm1). destruct (k_edge k1 i1 w u Hk1 Ho1 Huw) as (k2 & i2 & Hk2 & Ho2 & Hm2).
        exists k2, i2. split_and!; [done|done|]. destruct Hm1 as [?|[-> ?]], Hm2 as [?|[-> ?]]; try (left; lia); right; split; [done|lia].
    Qed.
    Lemma k_owner_inj n k i k' i' : owner (en_info L e) n k i -> owner (en_info L e) n k' i' -> k = k' /\ i = i'.
    Proof. destruct (tamely_inv L (glang_ok P get) _ _ Ht) as (He & _). intros H1 H2. exact (ei_inj _ _ He n k i k' i' H1 H2). Qed.
    Lemma k_no_feedback k i v : K k -> owner (en_info L e) v k i -> no_feedback L e v.
    Proof.
      intros Hk Hv u Hu _ Hr. destruct (k_edge k i v u Hk Hv Hu) as (k1 & i1 & Hk1 & Ho1 & Hm1).
      destruct (k_reaches k1 i1 u v Hk1 Ho1 Hr) as (k2 & i2 & Hk2 & Ho2 & Hm2). destruct (k_owner_inj _ _ _ _ _ Hv Ho2) as [<- <-].
      destruct Hm1 as [?|[-> ?]], Hm2 as [?|[? ?]]; subst; lia.
    Qed.
    Lemma k_to_end k d : forall i v u, K k -> owner (en_info L e) v k i -> chain_end (en_info L e) k u -> 
      (forall ids, en_info L e !! k = Some ids -> length ids = i + S d) -> reaches (en_graph L e) v u.
    Proof.
      induction d as [|d IH]; intros i v u Hk (ids & Hids & Hi) (ids' & Hids' & Hl) Hlen; rewrite Hids in Hids'; injection Hids' as <-; specialize (Hlen ids Hids).
      - rewrite last_lookup, Hlen in Hl. replace (pred (i + 1)) with i in Hl by lia. rewrite Hi in Hl. injection Hl as ->. apply rtc_refl.
      - destruct (lookup_lt_is_Some_2 ids (S i)) as [w Hw]; [lia|]. eapply rtc_l; [|apply (IH (S i) w u Hk)].
        + destruct (k_placed k (S i) w Hk) as [c Hpl]; [by exists ids|]. apply (feeds_edge L (glang_ok P get) blk e p k (S i) c w v Ht Hp Hpl). left. exists i. split; [done|]. by exists ids.
        + by exists ids.
        + by exists ids.
        + intros ids1 H1. rewrite Hids in H1. injection H1 as <-. lia.
    Qed.
    Lemma k_end k i v : K k -> owner (en_info L e) v k i -> exists u, chain_end (en_info L e) k u /\ reaches (en_graph L e) v u.
    Proof.
      intros Hk Hv. pose proof Hv as (ids & Hids & Hi). destruct (last ids) as [u|] eqn:El; [|apply last_None in El as ->; done].
      exists u. split; [by exists ids|]. apply (k_to_end k (length ids - S i) i v u Hk Hv); [by exists ids|].
      intros ids1 H1. rewrite Hids in H1. injection H1 as <-. apply lookup_lt_Some in Hi. lia.
    Qed.
    Lemma k_heard k : in_use p k -> forall i v, owner (en_info L e) v k i -> heard L e v.
    Proof.
      induction 1 as [k Hk Hc|k k' cs c Hk Hu IH Hk' Hcs Hin Hr]; intros i v Hv; destruct (k_end k i v Hk Hv) as (u & Hu' & Hreach); unfold heard.
      - eapply rtc_r; [exact Hreach|]. apply (dest_edge L (glang_ok P get) blk e p u Ht Hp). by exists k.
      - apply elem_of_list_lookup in Hin as [j Hj]. destruct (k_ids k' Hk') as (cs' & ids & Hcs' & Hids & Hl & _). rewrite Hcs in Hcs'. injection Hcs' as <-.
        destruct (lookup_lt_is_Some_2 ids j) as [w Hw]; [apply lookup_lt_Some in Hj; lia|].
        assert (Ho : owner (en_info L e) w k' j) by (by exists ids). 
        eapply rtc_transitive; [exact Hreach|]. eapply rtc_l; [|exact (IH j w Ho)].
        apply (feeds_edge L (glang_ok P get) blk e p k' j c w u Ht Hp); [by exists cs|]. right. exists k, k. split_and!; [done| |done].
        destruct (sc_part _ Hsc k' cs j c Hk' Hcs Hj) as (_ & _ & _ & Hrr). destruct (Hrr k Hr) as (Hnd & _ & _). unfold refers. by rewrite (plain_ref k Hnd).
    Qed.
  End one.

  (** ** Two engines that play the chains alike *)
  Definition alike (w1 w2 : gnode P * list sig) : Prop := w2.2 = w1.2 /\ exists o, w2.1 = reord o w1.1.
  Lemma alike_refl w : alike w w.
  Proof. split; [done|]. exists (node_order w.1). by rewrite reord_same. Qed.
  Lemma alike_sym w1 w2 : alike w1 w2 -> alike w2 w1.
  Proof. intros [H (o & Ho)]. split; [done|]. exists (node_order w1.1). by rewrite Ho, reord_reord, reord_same. Qed.
  Lemma alike_trans w1 w2 w3 : alike w1 w2 -> alike w2 w3 -> alike w1 w3.
  Proof. intros [H (o & Ho)] [H' (o' & Ho')]. split; [congruence|]. exists o'. by rewrite Ho', Ho, reord_reord. Qed.
  Definition same_k (e1 e2 : engine) : Prop :=
    (forall k, K k -> en_info L e2 !! k = en_info L e1 !! k) /\ (forall k, K k -> old_ast L e2 !! k = old_ast L e1 !! k) /\
    forall k i v, K k -> owner (en_info L e1) v k i -> exists w1 w2 : gnode P * list sig,
      node_weight (en_graph L e1) v = Some w1 /\ node_weight (en_graph L e2) v = Some w2 /\ alike w1 w2.
  Lemma owner_agree (t1 t2 : gmap string (list nat)) v k i : t2 !! k = t1 !! k -> owner t1 v k i -> owner t2 v k i.
  Proof. intros H (ids & Hi & Hv). exists ids. by rewrite H. Qed.
  Lemma same_refl e : good e -> same_k e e.
  Proof.
    intros (Ht & p & Hp & Hsc). split_and!; [done|done|]. intros k i v Hk Hv. destruct (tamely_inv L (glang_ok P get) _ _ Ht) as (He & _).
    assert (Hl : live (en_graph L e) v) by (apply (ei_live _ _ He); right; right; by exists k, i). destruct Hl as [w Hw].
    exists w, w. split_and!; [done|done|apply alike_refl].
  Qed.
  Lemma same_sym e1 e2 : same_k e1 e2 -> same_k e2 e1.
  Proof.
    intros (H1 & H2 & H3). split_and!; [intros; symmetry; auto|intros; symmetry; auto|]. intros k i v Hk Hv.
    destruct (H3 k i v Hk) as (w1 & w2 & Hw1 & Hw2 & Ha); [by eapply owner_agree; [symmetry; apply H1|]|]. exists w2, w1. split_and!; [done|done|by apply alike_sym].
  Qed.
  Lemma same_trans e1 e2 e3 : same_k e1 e2 -> same_k e2 e3 -> same_k e1 e3.
  Proof.
    intros (H1 & H2 & H3) (H1' & H2' & H3'). split_and!; [intros k Hk; by rewrite (H1' k Hk), (H1 k Hk)|intros k Hk; by rewrite (H2' k Hk), (H2 k Hk)|]. intros k i v Hk Hv.
    destruct (H3 k i v Hk Hv) as (w1 & w2 & Hw1 & Hw2 & Ha). destruct (H3' k i v Hk) as (w2' & w3 & Hw2' & Hw3 & Ha'); [by eapply owner_agree; [apply H1|]|].
    assert (w2' = w2) as -> by (assert (E : Some w2' = Some w2) by (rewrite <- Hw2'; exact Hw2); by injection E).
    exists w1, w3. split_and!; [done|done|by eapply alike_trans].
  Qed.

  Lemma by_name_keyed (n : gnode P) c : by_name c = true -> cls P n = makes c -> keyed n = true /\ input_order n = Some (node_order n).
  Proof.
    intros Hb. assert (Hc : makes c ∈ [4; 3; 10; 14; 9; 27; 26; 29; 28; 5; 22]) by (destruct c; try discriminate Hb; vm_compute; set_solver).
    intros E. rewrite <- E in Hc. clear E Hb. destruct n as [n|cp]; [|exfalso; cbn in Hc; set_solver]. destruct n; cbn [cls tag] in Hc; try (split; reflexivity); exfalso; set_solver.
  Qed.
  Lemma targets_agree sh1 sh2 (t1 t2 : gmap string (list nat)) rs : (forall r, r ∈ rs -> no_dots r /\ t2 !! r = t1 !! r) -> rs ≫= targets sh2 t2 = rs ≫= targets sh1 t1.
  Proof.
    intros H. induction rs as [|r rs IH]; [done|]. rewrite !bind_cons, IH by (intros r' Hr'; apply H; by right).
    destruct (H r) as [Hnd Hr]; [by left|]. unfold targets. by rewrite (plain_ref r Hnd), Hr.
  Qed.
  Lemma single_input (inp : inmap) u : NoDup inp.*1 -> (forall x bs, (x, bs) ∈ inp -> x = u) -> length inp <= 1.
  Proof.
    intros Hnd H. destruct inp as [|[x b] [|[y b'] inp]]; cbn; try lia. exfalso. rewrite !fmap_cons in Hnd. apply NoDup_cons in Hnd as [Hn _]. apply Hn.
    rewrite (H x b), (H y b'); [cbn; by left|right; by left|by left].
  Qed.

  Lemma block_alike e1 e2 shs1 shs2 ins1 ins2 e1' e2' out1 out2 : good e1 -> good e2 -> same_k e1 e2 ->
    next_block L blk shs1 e1 ins1 = Ok (e1', out1) -> next_block L blk shs2 e2 ins2 = Ok (e2', out2) ->
    forall k i v, K k -> owner (en_info L e1) v k i -> exists w1 w2 : gnode P * list sig,
      node_weight (en_graph L e1') v = Some w1 /\ node_weight (en_graph L e2') v = Some w2 /\ alike w1 w2.
  Proof.
    intros (Ht1 & p1 & Hp1 & Hsc1) (Ht2 & p2 & Hp2 & Hsc2) (Hinfo & Hold & Hsame) Hn1 Hn2.
    assert (Hpp : forall k, K k -> p2 !! k = p1 !! k) by (intros k Hk; specialize (Hold k Hk); unfold old_ast in Hold; by rewrite Hp1, Hp2 in Hold).
    enough (Hall : forall m d k i v, rk k = m -> i = d -> K k -> owner (en_info L e1) v k i -> exists w1 w2 : gnode P * list sig,
      node_weight (en_graph L e1') v = Some w1 /\ node_weight (en_graph L e2') v = Some w2 /\ alike w1 w2) by (intros k i v; by apply (Hall (rk k) i)).
    intros m. induction (lt_wf m) as [m _ IHm]. intros d. induction (lt_wf d) as [d _ IHd]. intros k i v Hm Hd Hk Hv. subst m d.
    assert (Hv2 : owner (en_info L e2) v k i) by (eapply owner_agree; [by apply Hinfo|done]).
    destruct (k_placed e1 p1 Ht1 Hp1 Hsc1 k i v Hk Hv) as [c Hpl]. pose proof Hpl as (cs & Hcs & Hc & _).
    assert (Hpl2 : placed L (en_info L e2) p2 k i c v) by (exists cs; split_and!; [by rewrite Hpp|done|done]).
    destruct (sc_part _ Hsc1 k cs i c Hk Hcs Hc) as (Hpart & _ & Hnd & Hrefs).
    destruct (C17_component_inputs _ (glang_ok P get) blk e1 p1 k i c v shs1 ins1 e1' out1 Ht1 Hp1 Hpl
      (k_heard e1 p1 Ht1 Hp1 Hsc1 k (sc_use _ Hsc1 k Hk) i v Hv) (k_no_feedback e1 p1 Ht1 Hp1 Hsc1 k i v Hk Hv) Hn1) as (st1 & b1 & st1' & b1' & inp1 & A1 & A2 & A3 & A4 & A5).
    destruct (C17_component_inputs _ (glang_ok P get) blk e2 p2 k i c v shs2 ins2 e2' out2 Ht2 Hp2 Hpl2
      (k_heard e2 p2 Ht2 Hp2 Hsc2 k (sc_use _ Hsc2 k Hk) i v Hv2) (k_no_feedback e2 p2 Ht2 Hp2 Hsc2 k i v Hk Hv2) Hn2) as (st2 & b2 & st2' & b2' & inp2 & B1 & B2 & B3 & B4 & B5).
    assert (Hfeeds : forall u, feeds L e2 c k i u <-> feeds L e1 c k i u).
    { intros u. unfold feeds. change (all_refs c) with (component_refs c). unfold owner, chain_end. rewrite (Hinfo k Hk).
      split; (intros [H|(r & k' & Hr & Href & H)]; [by left|right; exists r, k'; split_and!; [done|done|]]);
        destruct (Hrefs r Hr) as (Hdots & HK & _); unfold refers in Href; rewrite (plain_ref r Hdots) in Href; subst k'; [rewrite <- (Hinfo r HK)|rewrite (Hinfo r HK)]; exact H. }
    assert (Hback : forall u, feeds L e1 c k i u -> exists w1 w2 : gnode P * list sig,
      node_weight (en_graph L e1') u = Some w1 /\ node_weight (en_graph L e2') u = Some w2 /\ alike w1 w2).
    { intros u Hu. apply (feeds_edge L (glang_ok P get) blk e1 p1 k i c v u Ht1 Hp1 Hpl) in Hu.
      destruct (k_edge e1 p1 Ht1 Hp1 Hsc1 k i v u Hk Hv Hu) as (k' & i' & Hk' & Ho' & [Hlt|[-> Hlt]]).
      - exact (IHm (rk k') Hlt i' k' i' u eq_refl eq_refl Hk' Ho').
      - exact (IHd i' Hlt k i' u eq_refl eq_refl Hk Ho'). }
    assert (Hperm : inp1 ≡ₚ inp2).
    { apply NoDup_Permutation; [by eapply NoDup_fmap_1|by eapply NoDup_fmap_1|]. intros [u bs]. rewrite A5, B5, Hfeeds.
      split; intros (Hf & Hne & su & Hw); (split_and!; [done|done|]); destruct (Hback u Hf) as ([s1 x1] & [s2 x2] & Hw1 & Hw2 & [Hb _]); cbn in Hb; subst x2.
      - assert (E : Some (su, bs) = Some (s1, x1)) by (rewrite <- Hw; exact Hw1). injection E as -> ->. by exists s2.
      - assert (E : Some (su, bs) = Some (s2, x1)) by (rewrite <- Hw; exact Hw2). injection E as -> ->. by exists s1. }
    destruct (Hsame k i v Hk Hv) as (w1 & w2 & Hw1 & Hw2 & [Hb (o & Ho)]).
    assert (w1 = (st1, b1)) as -> by (assert (E : Some w1 = Some (st1, b1)) by (rewrite <- Hw1; exact A1); by injection E).
    assert (w2 = (st2, b2)) as -> by (assert (E : Some w2 = Some (st2, b2)) by (rewrite <- Hw2; exact B1); by injection E).
    cbn [fst snd] in Hb, Ho. subst b2.
    change (gproc P st1 inp1 b1 = Ok (st1', b1')) in A3. change (gproc P st2 inp2 b1 = Ok (st2', b2')) in B3.
    exists (st1', b1'), (st2', b2'). split_and!; [exact A2|exact B2|].
    destruct (cls_tracked P get blk e1 Ht1 p1 k i c v _ Hp1 Hpl A1) as (sh0 & rs0 & _ & Hcls). unfold cls_J in Hcls. cbn [fst] in Hcls.
    destruct (decide (component_refs c = [])) as [Hnr|Hr].
    - (* no references *)
      assert (Hlen : length inp1 <= 1).
      { destruct i as [|j].
        - destruct inp1 as [|[u bs] inp1]; [cbn; lia|]. exfalso. destruct (proj1 (A5 u bs)) as (Hf & _); [by left|].
          destruct Hf as [(j & Hj & _)|(r & k' & Hr & _)]; [done|]. change (all_refs c) with (component_refs c) in Hr. rewrite Hnr in Hr. by apply elem_of_nil in Hr.
        - destruct Hv as (ids & Hids & Hi). destruct (lookup_lt_is_Some_2 ids j) as [u Hu]; [apply lookup_lt_Some in Hi; lia|].
          apply (single_input inp1 u A4). intros x bs Hx. apply A5 in Hx as (Hf & _).
          destruct Hf as [(j' & Hj & (ids' & Hids' & Hx))|(r & k' & Hr & _)].
          + injection Hj as <-. rewrite Hids in Hids'. injection Hids' as <-. congruence.
          + change (all_refs c) with (component_refs c) in Hr. rewrite Hnr in Hr. by apply elem_of_nil in Hr. }
      assert (Hplain : plain_order st1).
      { destruct Hpart as [[_ Hna]|[Hbn|[_ [r ->]]]]; [| |done].
        - destruct c; try (by destruct (Hna events));
            try (destruct st1 as [st1|]; [|exact I]; destruct st1; try exact I; exfalso; clear -Hcls; cbn in Hcls; discriminate Hcls).
          destruct (kind_tracked P get blk e1 Ht1 p1 k i _ v _ Hp1 Hpl A1) as (sh3 & rs3 & _ & (s & Hst & Hso)). cbn [fst] in Hst. subst st1.
          cbn [plain_order]. by rewrite Hso, Hnr.
        - destruct c; try discriminate Hbn;
            try (destruct st1 as [st1|]; [|exact I]; destruct st1; try exact I; exfalso; clear -Hcls; cbn in Hcls; discriminate Hcls).
          destruct (kind_tracked P get blk e1 Ht1 p1 k i _ v _ Hp1 Hpl A1) as (sh3 & rs3 & _ & (s & Hst & Hso)). cbn [fst] in Hst. subst st1.
          cbn [plain_order]. by rewrite Hso, Hnr. }
      assert (Hhead : inp1 = [] \/ same_head o st1).
      { destruct inp1 as [|[u bs] inp1]; [by left|]. right. destruct (proj1 (A5 u bs)) as (Hf & _); [by left|].
        destruct Hf as [(j & -> & (ids & Hids & Hu))|(r & k' & Hrr & _)]; [|change (all_refs c) with (component_refs c) in Hrr; rewrite Hnr in Hrr; by apply elem_of_nil in Hrr].
        assert (Hin : forall sh t, t !! k = Some ids -> IndexOrder 0 u ∈ trace sh t k (S j) []).
        { intros sh t Ht. unfold trace. rewrite Ht. cbn. rewrite Hu. by left. }
        intros o' Ho'.
        destruct (head_tracked P get blk e1 Ht1 p1 k (S j) c v _ Hp1 Hpl A1) as (sh1 & rs1 & Hrs1 & H1).
        destruct (head_tracked P get blk e2 Ht2 p2 k (S j) c v _ Hp2 Hpl2 B1) as (sh2 & rs2 & Hrs2 & H2).
        assert (Hrs : forall rs, (rs = component_refs c \/ (exists ev w0, makenode_ P ev c = Done (w0, rs))) -> rs = []).
        { intros rs [->|(ev & w0 & Hmk)]; [done|]. rewrite (make_refs_exact P _ _ _ _ Hmk Hnd). done. }
        rewrite (Hrs rs1 Hrs1) in H1. rewrite (Hrs rs2 Hrs2) in H2.
        specialize (H1 Hnr u o' (Hin _ _ Hids) Ho'). rewrite H1. apply (H2 Hnr u o); [apply Hin; by rewrite Hinfo|]. cbn [fst]. by rewrite Ho, reord_head, Ho'. }
      rewrite <- (gproc_perm P st2 inp1 inp2 b1 (or_intror Hlen) A4 Hperm), Ho, (gproc_reord P o st1 inp1 b1 Hlen Hhead Hplain), A3 in B3.
      cbn in B3. injection B3 as <- <-. split; [done|]. by exists o.
    - (* references *)
      destruct Hpart as [[Hnr _]|[Hbn|[-> [r ->]]]]; [done| |].
      + destruct (by_name_keyed st1 c Hbn Hcls) as [Hkey Hio1].
        destruct (cls_tracked P get blk e2 Ht2 p2 k i c v _ Hp2 Hpl2 B1) as (sh3 & rs3 & _ & Hcls2). unfold cls_J in Hcls2. cbn [fst] in Hcls2.
        destruct (by_name_keyed st2 c Hbn Hcls2) as [_ Hio2].
        destruct (input_list P get blk e1 p1 k i c v st1 b1 _ Ht1 Hp1 Hpl A1 Hr Hnd Hio1) as (sh1 & Ho1).
        destruct (input_list P get blk e2 p2 k i c v st2 b1 _ Ht2 Hp2 Hpl2 B1 Hr Hnd Hio2) as (sh2 & Ho2).
        assert (Heq : st2 = st1).
        { assert (Hsame_o : node_order st2 = node_order st1).
          { rewrite Ho1, Ho2. f_equal; [unfold pred_of; by rewrite Hinfo|]. apply targets_agree. intros r Hrr. destruct (Hrefs r Hrr) as (Hdots & HK & _). split; [done|]. by apply Hinfo. }
          rewrite <- (reord_same st1), <- Hsame_o. transitivity (reord (node_order st2) st2); [by rewrite reord_same|]. by rewrite Ho, reord_reord. }
        rewrite Heq, <- (gproc_perm P st1 inp1 inp2 b1 (or_introl Hkey) A4 Hperm), A3 in B3. injection B3 as <- <-. apply alike_refl.
      + assert (Heq : st2 = st1).
        { destruct st1 as [st1|]; [|clear -Hcls; cbn in Hcls; discriminate Hcls]. destruct st1; try (exfalso; clear -Hcls; cbn in Hcls; discriminate Hcls). exact Ho. }
        assert (Hlen : length inp1 <= 1).
        { destruct (Hrefs r) as (Hdots & HK & _); [by left|]. destruct (k_ids e1 p1 Ht1 Hp1 Hsc1 r HK) as (cs' & ids & _ & Hids & _ & Hne).
          destruct (last ids) as [u|] eqn:El; [|by apply last_None in El].
          apply (single_input inp1 u A4). intros x bs Hx. apply A5 in Hx as (Hf & _).
          destruct Hf as [(j' & Hj & _)|(r' & k' & Hr' & Href & (ids' & Hids' & Hl'))]; [done|].
          apply elem_of_list_singleton in Hr' as ->. unfold refers in Href. rewrite (plain_ref r Hdots) in Href. subst k'. rewrite Hids in Hids'. injection Hids' as <-. congruence. }
        rewrite Heq, <- (gproc_perm P st1 inp1 inp2 b1 (or_intror Hlen) A4 Hperm), A3 in B3. injection B3 as <- <-. apply alike_refl.
  Qed.

  (** ** Calls that leave the chains alone *)

  (** Anything but [set_bpm] and [reset]; an accepted program has the chains as they are, and
      the others edited as C03 asks for; the commands of a message name other chains. *)
  Definition spares (e : engine) (c : call L) : Prop :=
    match c with
    | CUpdate _ o code => forall new, parse code = Done new -> prog_ok L new /\ plain_edit (old_ast L e) new /\
        ((exists e', update L o e code = Ok (e', None)) -> forall k, K k -> new !! k = old_ast L e !! k)
    | CMsg _ _ m => forall cmd nm, cmd ∈ split_on ";" (sfilter (fun ch => negb (is_space ch)) m) -> head (split_on "," cmd) = Some nm -> ~ K nm
    | CNext _ _ _ | CSample _ _ _ | CSr _ _ | CSeed _ _ => True
    | _ => False
    end.
  Definition blocks (c : call L) : nat := match c with CNext _ _ _ => 1 | _ => 0 end.

  Lemma spares_tame e c : spares e c -> tame_call L e c.
  Proof.
    destruct c; try done. cbn [spares tame_call]. intros H. destruct (parse code) as [new|er|] eqn:E; [|done|done].
    destruct (H new eq_refl) as (H1 & H2 & _). split; [done|]. apply plain_tame; [apply glang_ok|done].
  Qed.
  (** What a message to other chains leaves. *)
  Definition untouched (e e' : engine) : Prop :=
    einv L e' /\ en_ast L e' = en_ast L e /\ en_info L e' = en_info L e /\
    forall k i v, K k -> owner (en_info L e) v k i -> node_weight (en_graph L e') v = node_weight (en_graph L e) v.
  Lemma command_spares c (e e' : engine) s : einv L e -> (forall nm, head (split_on "," s) = Some nm -> ~ K nm) -> send_command L c e s = Ok e' -> untouched e e'.
  Proof.
    intros He Hn Hs. assert (He' : einv L e') by (by eapply send_command_inv). revert Hs. unfold send_command. destruct (split_on "," s) as [|a [|b [|d [|v r]]]]; try (intros [= <-]; by split_and!).
    destruct (_ !! a) as [ids|] eqn:Ea; [|intros [= <-]; by split_and!]. destruct (ids !! _) as [id|] eqn:Ei; [|done].
    destruct (send_to _ _ _ _) as [g|] eqn:E; [|done]. intros [= <-]. split_and!; [done..|]. intros k i v0 Hk Hv.
    apply send_to_spec in E as (w & st & _ & _ & E). apply set_weight_spec in E as (_ & _ & _ & _ & E). cbn [en_graph set_graph]. rewrite E.
    rewrite decide_False; [done|]. intros ->. destruct (ei_inj _ _ He id k i a (Z.to_nat (default 0%Z (parse_usize c b)))) as [-> _]; [done|by exists ids|]. by apply (Hn a).
  Qed.
  Lemma message_spares c (e e' : engine) m : einv L e -> spares e (CMsg L c m) -> send_msg L c e m = Ok e' -> untouched e e'.
  Proof.
    intros He Hs Hm. refine (foldM_inv (untouched e) _ e _ e' _ _ Hm); [by split_and!|]. intros x cmd x' (X1 & X2 & X3 & X4) Hin Hst. apply elem_of_list_filter in Hin as [_ Hin].
    destruct (command_spares c x x' cmd X1 (fun nm => Hs cmd nm Hin) Hst) as (Y1 & Y2 & Y3 & Y4). split_and!; [done|congruence|congruence|].
    intros k i v Hk Hv. rewrite (Y4 k i v Hk) by (by rewrite X3). by eapply X4.
  Qed.
  Lemma quiet_same e c e' ob : good e -> spares e c -> blocks c = 0 -> step L blk e c = Ok (e', ob) -> good e' /\ same_k e e'.
  Proof.
    intros Hg Hs Hb Hst. pose proof Hg as (Ht & p & Hp & Hsc). destruct (tamely_inv L (glang_ok P get) _ _ Ht) as (He & Hal & _).
    assert (Ht' : tamely L blk e') by (eapply tm_step; [exact Ht|by apply spares_tame|exact Hst]).
    assert (Hfix : en_ast L e' = en_ast L e -> en_info L e' = en_info L e -> (forall k i v, K k -> owner (en_info L e) v k i -> node_weight (en_graph L e') v = node_weight (en_graph L e) v) -> good e' /\ same_k e e').
    { intros E1 E2 E3. split; [split; [done|]; exists p; by rewrite E1|]. destruct (same_refl e Hg) as (_ & _ & H3). split_and!.
      - intros k _. by rewrite E2.
      - intros k _. unfold old_ast. by rewrite E1.
      - intros k i v Hk Hv. destruct (H3 k i v Hk Hv) as (w1 & w2 & Hw1 & Hw2 & Ha). exists w1, w2. split_and!; [done|by rewrite (E3 k i v Hk Hv)|done]. }
    destruct c as [o code|shs ins|c m|nm s|b|sr|sd|]; try done; cbn [step] in Hst; try (injection Hst as <- <-; by apply Hfix).
    2: { destruct (send_msg L c e m) as [em|] eqn:Em; [|done]. injection Hst as <- <-. destruct (message_spares c e em m He Hs Em) as (_ & E1 & E2 & E3). by apply Hfix. }
    cbn [spares] in Hs. unfold update in Hst, Hs. destruct (parse code) as [new|er|] eqn:Epc; [| |done].
    2: { injection Hst as <- <-. by apply Hfix. }
    destruct (Hs new eq_refl) as (Hpo & Hpl & Hag). destruct (update_ast L o e new) as [[e1 [er|]]|] eqn:E; [| |done]; injection Hst as <- <-.
    { apply update_ast_fail in E; [|done]. destruct E as [E1 E2 E3 E4 E5 E6 _ _ _ _ _ _]. by apply Hfix. }
    specialize (Hag (ex_intro _ e1 eq_refl)).
    pose proof (plain_tame L (glang_ok P get) _ _ Hpl) as Htame. pose proof (tame_update_result L (glang_ok P get) _ _ _ _ He Hal Hpo Htame E) as R.
    assert (Ho : old_ast L e = p) by (unfold old_ast; by rewrite Hp). rewrite Ho in Hag.
    assert (Hsc' : self_contained new) by (by eapply agree_contained).
    assert (Hkept : forall k i v, K k -> owner (en_info L e) v k i -> owner (en_info L e1) v k i /\ exists w1 w2 : gnode P * list sig, node_weight (en_graph L e) v = Some w1 /\ node_weight (en_graph L e1) v = Some w2 /\ alike w1 w2).
    { intros k i v Hk Hv. destruct (k_placed e p Ht Hp Hsc k i v Hk Hv) as [c Hplc]. pose proof Hplc as (cs & Hcs & Hc & _).
      destruct (sc_part _ Hsc k cs i c Hk Hcs Hc) as (_ & Hcc & _).
      destruct (Hpl k cs cs) as (H1 & H2 & H3); [by rewrite Ho|by rewrite Hag|].
      destruct (kept_rank L (glang_ok P get) cs cs i i c c) as (Ha & Hb' & Hr); auto.
      { apply keeps_order_intro; auto. apply glang_ok. }
      destruct (re_kept _ _ _ _ _ R k cs cs i i c c v) as [Hown' Hst]; auto; [by rewrite Ho|by rewrite Hag|].
      split; [done|].
      assert (Hl : live (en_graph L e) v) by (apply (ei_live _ _ He); right; right; by exists k, i).
      destruct Hl as [w Hw]. destruct (Hst w Hw) as (st & Hf & Hw'). exists w, (st, w.2). split_and!; [done|done|]. split; [done|].
      exists (node_order st). cbn [fst]. eapply conns_reord; [|exact Hf]. apply trace_conn. }
    split; [split; [done|]; exists new; split; [apply (re_ast _ _ _ _ _ R)|done]|]. split_and!.
    - intros k Hk. destruct (k_ids e p Ht Hp Hsc k Hk) as (cs & ids & Hcs & Hids & Hl & _).
      destruct (re_len _ _ _ _ _ R k cs) as (ids' & Hids' & Hl'); [by rewrite Hag|]. rewrite Hids, Hids'. f_equal.
      assert (Hlen : length ids' = length ids) by (rewrite Hl, Hl'; reflexivity). apply list_eq. intros i. destruct (ids !! i) as [x|] eqn:Ei.
      + destruct (Hkept k i x Hk) as [(ids1 & H1 & H2) _]; [by exists ids|]. rewrite Hids' in H1. injection H1 as <-. exact H2.
      + apply lookup_ge_None_1 in Ei. apply lookup_ge_None_2. lia.
    - intros k Hk. rewrite Ho, <- (Hag k Hk). unfold old_ast. by rewrite (re_ast _ _ _ _ _ R).
    - intros k i v Hk Hv. by destruct (Hkept k i v Hk Hv).
  Qed.
  Lemma block_good e shs ins e' out : good e -> next_block L blk shs e ins = Ok (e', out) ->
    good e' /\ en_info L e' = en_info L e /\ en_ast L e' = en_ast L e.
  Proof.
    intros (Ht & p & Hp & Hsc) Hn.
    assert (Hst : step L blk e (CNext L shs ins) = Ok (e', OBlock L out)) by (cbn [step]; by rewrite Hn).
    pose proof (step_frame L _ _ _ _ _ Hst) as (E1 & E2 & _). split_and!; [|done|done]. split; [eapply tm_step; [exact Ht| |exact Hst]; exact I|]. exists p. by rewrite E1.
  Qed.
  Lemma block_same e1 e2 shs1 shs2 ins1 ins2 e1' e2' out1 out2 : good e1 -> good e2 -> same_k e1 e2 ->
    next_block L blk shs1 e1 ins1 = Ok (e1', out1) -> next_block L blk shs2 e2 ins2 = Ok (e2', out2) -> same_k e1' e2'.
  Proof.
    intros Hg1 Hg2 Hs Hn1 Hn2. pose proof (block_alike e1 e2 _ _ _ _ _ _ _ _ Hg1 Hg2 Hs Hn1 Hn2) as Hal.
    destruct (block_good e1 _ _ _ _ Hg1 Hn1) as (_ & I1 & P1). destruct (block_good e2 _ _ _ _ Hg2 Hn2) as (_ & I2 & P2). destruct Hs as (H1 & H2 & _).
    split_and!.
    - intros k Hk. rewrite I1, I2. by apply H1.
    - intros k Hk. unfold old_ast. rewrite P1, P2. by apply H2.
    - rewrite I1. exact Hal.
  Qed.

  (** [plays_on e n e']: from [e] to [e'] by calls that leave the chains alone, [n] of them blocks. *)
  Inductive plays_on (e : engine) : nat -> engine -> Prop :=
  | po_start : plays_on e 0 e
  | po_call n e1 c e2 ob : plays_on e n e1 -> spares e1 c -> step L blk e1 c = Ok (e2, ob) -> plays_on e (blocks c + n) e2.
  Lemma plays_good e n e' : good e -> plays_on e n e' -> good e'.
  Proof.
    intros Hg. induction 1 as [|n e1 c e2 ob H IH Hs Hst]; [done|]. destruct (decide (blocks c = 0)) as [Hb|Hb]; [by eapply quiet_same|].
    destruct c as [o code|shs ins|c m|nm s|b|sr|sd|]; try done. cbn [step] in Hst. destruct (next_block L blk shs e1 ins) as [[e3 out]|] eqn:E; [|done]. injection Hst as <- <-.
    by eapply block_good.
  Qed.
  Lemma quiet_plays e e' : good e -> plays_on e 0 e' -> same_k e e'.
  Proof.
    intros Hg H. remember 0 as n eqn:En. induction H as [|n e1 c e2 ob H IH Hs Hst]; [by apply same_refl|].
    assert (n = 0 /\ blocks c = 0) as [-> Hb] by lia. eapply same_trans; [by apply IH|]. eapply quiet_same; eauto. by eapply plays_good.
  Qed.
  Lemma plays_same e n e1 e2 : good e -> plays_on e n e1 -> plays_on e n e2 -> same_k e1 e2.
  Proof.
    intros Hg H1. revert e2. induction H1 as [|n e1 c e1' ob H1 IH Hs Hst]; intros e2 H2; [by apply quiet_plays|].
    destruct (decide (blocks c = 0)) as [Hb|Hb].
    { rewrite Hb in H2. eapply same_trans; [|by apply IH]. apply same_sym. eapply quiet_same; eauto. by eapply plays_good. }
    destruct c as [o code|shs ins|c m|nm s|b|sr|sd|]; try done. cbn [step] in Hst. destruct (next_block L blk shs e1 ins) as [[e3 out]|] eqn:E; [|done]. injection Hst as -> <-.
    cbn [blocks] in H2. remember (1 + n) as n' eqn:En. induction H2 as [|n2 e2 c e2' ob H2 IH2 Hs2 Hst2]; [done|].
    destruct (decide (blocks c = 0)) as [Hb2|Hb2].
    { eapply same_trans; [apply IH2; lia|]. eapply quiet_same; eauto. by eapply plays_good. }
    destruct c as [o code|shs2 ins2|c m|nm s|b|sr|sd|]; try done. cbn [step] in Hst2. destruct (next_block L blk shs2 e2 ins2) as [[e4 out2]|] eqn:E2; [|done]. injection Hst2 as -> <-.
    cbn [blocks] in En. injection En as ->. eapply block_same; [| | |exact E|exact E2]; [by eapply plays_good|by eapply plays_good|by apply IH].
  Qed.

  (** C78: from one moment on, let two sessions make the same number of blocks and otherwise do
      whatever they like to the other chains.  Then the chains put out the same signals. *)
  Theorem C78_edits_elsewhere_partial e p n e1 e2 : tamely L blk e -> en_ast L e = Some p -> self_contained p ->
    plays_on e n e1 -> plays_on e n e2 ->
    forall k i v, K k -> owner (en_info L e) v k i ->
      owner (en_info L e1) v k i /\ owner (en_info L e2) v k i /\
      exists s1 s2 b, node_weight (en_graph L e1) v = Some (s1, b) /\ node_weight (en_graph L e2) v = Some (s2, b).
  Proof.
    intros Ht Hp Hsc H1 H2 k i v Hk Hv. assert (Hg : good e) by (split; [done|]; by exists p).
    assert (Hinfo : forall n e', plays_on e n e' -> owner (en_info L e') v k i).
    { clear -Hg Hk Hv. intros n e' H. induction H as [|n e1 c e2 ob H IH Hs Hst]; [done|]. destruct (decide (blocks c = 0)) as [Hb|Hb].
      - destruct (quiet_same e1 c e2 ob) as [_ (H1 & _)]; auto; [by eapply plays_good|]. eapply owner_agree; [by apply H1|done].
      - destruct c as [o code|shs ins|c m|nm s|b|sr|sd|]; try done. cbn [step] in Hst. destruct (next_block L blk shs e1 ins) as [[e3 out]|] eqn:E; [|done]. injection Hst as -> <-.
        destruct (block_good e1 shs ins e2 out) as (_ & I & _); auto; [by eapply plays_good|]. by rewrite I. }
    destruct (plays_same e n e1 e2 Hg H1 H2) as (_ & _ & H). destruct (H k i v Hk (Hinfo _ _ H1)) as ([s1 b1] & [s2 b2] & Hw1 & Hw2 & [Hb _]). cbn in Hb. subst b2.
    split_and!; [by eapply Hinfo|by eapply Hinfo|]. by exists s1, s2, b1.
  Qed.

  (** What the player hears, when the chains are the only audible ones: the same signals added
      up, sample by sample (in the order of that call's hash map, C21). *)
  Definition alone (p : prog) : Prop := forall k cs, p !! k = Some cs -> contains_char "~" k = false -> K k.
  Lemma heard_incl e1 e2 p1 shs1 shs2 ins1 ins2 e1' e2' out1 out2 : good e1 -> good e2 -> same_k e1 e2 -> en_ast L e1 = Some p1 -> alone p1 ->
    next_block L blk shs1 e1 ins1 = Ok (e1', out1) -> next_block L blk shs2 e2 ins2 = Ok (e2', out2) ->
    forall u bs, (exists k, contains_char "~" k = false /\ chain_end (en_info L e1) k u) -> (exists su, node_weight (en_graph L e1') u = Some (su, bs)) ->
      exists k, K k /\ contains_char "~" k = false /\ chain_end (en_info L e1) k u /\ chain_end (en_info L e2) k u /\ exists su, node_weight (en_graph L e2') u = Some (su, bs).
  Proof.
    intros Hg1 Hg2 Hs Hp1 Hal Hn1 Hn2 u bs Hk (su & Hw). pose proof Hg1 as (Ht1 & _).
    assert (He : edge (en_graph L e1) u (en_dest L e1)) by (by apply (dest_edge _ (glang_ok P get) blk e1 p1 u Ht1 Hp1)).
    apply (C10_audible_chains L (glang_ok P get) blk e1 p1 Ht1 Hp1) in He as (k & cs & Hc & Ha & Hend).
    assert (Hnt : contains_char "~" k = false) by (destruct (contains_char "~" k) eqn:E; [|done]; exfalso; by apply Ha, contains_char_spec).
    assert (HK : K k) by (by eapply Hal). pose proof Hend as (ids & Hids & Hl). rewrite last_lookup in Hl.
    destruct (block_alike e1 e2 _ _ _ _ _ _ _ _ Hg1 Hg2 Hs Hn1 Hn2 k (pred (length ids)) u HK) as ([s1 b1] & [s2 b2] & Hw1 & Hw2 & [Hb _]); [by exists ids|].
    cbn in Hb. subst b2. assert (Heq : Some (su, bs) = Some (s1, b1)) by (rewrite <- Hw; exact Hw1). injection Heq as <- <-.
    exists k. split_and!; [done..| |by exists s2]. destruct Hs as (Hi & _). exists ids. rewrite (Hi k HK), last_lookup. done.
  Qed.
  Theorem C78_mix_partial e p n e1 e2 p1 p2 shs1 shs2 ins1 ins2 e1' e2' out1 out2 : tamely L blk e -> en_ast L e = Some p -> self_contained p ->
    plays_on e n e1 -> plays_on e n e2 -> en_ast L e1 = Some p1 -> en_ast L e2 = Some p2 -> alone p1 -> alone p2 ->
    next_block L blk shs1 e1 ins1 = Ok (e1', out1) -> next_block L blk shs2 e2 ins2 = Ok (e2', out2) ->
    exists inp1 inp2, Permutation inp1 inp2 /\ NoDup inp1.*1 /\
      (forall u, u ∈ inp1.*1 -> exists k, K k /\ contains_char "~" k = false /\ chain_end (en_info L e1) k u) /\
      out1 = [map (fun t => foldl fadd f0 (map (contrib 0 t) inp1)) (seq 0 (p_blk P)); map (fun t => foldl fadd f0 (map (contrib 1 t) inp1)) (seq 0 (p_blk P))] /\
      out2 = [map (fun t => foldl fadd f0 (map (contrib 0 t) inp2)) (seq 0 (p_blk P)); map (fun t => foldl fadd f0 (map (contrib 1 t) inp2)) (seq 0 (p_blk P))].
  Proof.
    intros Ht Hp Hsc H1 H2 Hp1 Hp2 Ha1 Ha2 Hn1 Hn2. assert (Hg : good e) by (split; [done|]; by exists p).
    pose proof (plays_good e n e1 Hg H1) as Hg1. pose proof (plays_good e n e2 Hg H2) as Hg2.
    pose proof (plays_same e n e1 e2 Hg H1 H2) as S12. pose proof (plays_same e n e2 e1 Hg H2 H1) as S21.
    destruct (C21_every_sample P get blk e1 p1 shs1 ins1 e1' out1 (proj1 Hg1) Hp1 Hn1) as (i1 & D1 & M1 & _ & ->).
    destruct (C21_every_sample P get blk e2 p2 shs2 ins2 e2' out2 (proj1 Hg2) Hp2 Hn2) as (i2 & D2 & M2 & _ & ->).
    exists i1, i2. split_and!; [|done| |done|done].
    - apply NoDup_Permutation; [by eapply NoDup_fmap_1|by eapply NoDup_fmap_1|]. intros [u bs]. split.
      + intros [X Y]%M1. destruct (heard_incl e1 e2 p1 _ _ _ _ _ _ _ _ Hg1 Hg2 S12 Hp1 Ha1 Hn1 Hn2 u bs X Y) as (k & Z1 & Z2 & _ & Z3 & Z4). apply M2. split; [by exists k|done].
      + intros [X Y]%M2. destruct (heard_incl e2 e1 p2 _ _ _ _ _ _ _ _ Hg2 Hg1 S21 Hp2 Ha2 Hn2 Hn1 u bs X Y) as (k & Z1 & Z2 & _ & Z3 & Z4). apply M1. split; [by exists k|done].
    - intros u ([u' bs] & -> & [X Y]%M1)%elem_of_list_fmap. cbn [fst] in *.
      destruct (heard_incl e1 e2 p1 _ _ _ _ _ _ _ _ Hg1 Hg2 S12 Hp1 Ha1 Hn1 Hn2 u' bs X Y) as (k & Z1 & Z2 & Z0 & _). by exists k.
  Qed.
  Lemma perm_two {A} (l l' : list A) : Permutation l l' -> length l <= 2 -> l' = l \/ exists x y, l = [x; y] /\ l' = [y; x].
  Proof.
    intros Hp Hl. destruct l as [|x [|y [|z l]]]; [|..|simpl in Hl; lia].
    - apply Permutation_nil in Hp. by left.
    - apply Permutation_length_1_inv in Hp. by left.
    - apply Permutation_length_2_inv in Hp as [->| ->]; [by left|right; by exists x, y].
  Qed.
  (** With one or two audible chains the blocks are the same, bit for bit. *)
  Theorem C78_heard_partial e p n e1 e2 p1 p2 shs1 shs2 ins1 ins2 e1' e2' out1 out2 a b : tamely L blk e -> en_ast L e = Some p -> self_contained p ->
    plays_on e n e1 -> plays_on e n e2 -> en_ast L e1 = Some p1 -> en_ast L e2 = Some p2 -> alone p1 -> alone p2 ->
    (forall k, K k -> contains_char "~" k = false -> k = a \/ k = b) ->
    next_block L blk shs1 e1 ins1 = Ok (e1', out1) -> next_block L blk shs2 e2 ins2 = Ok (e2', out2) -> out1 = out2.
  Proof.
    intros Ht Hp Hsc H1 H2 Hp1 Hp2 Ha1 Ha2 Hab Hn1 Hn2.
    destruct (C78_mix_partial e p n e1 e2 p1 p2 shs1 shs2 ins1 ins2 e1' e2' out1 out2 Ht Hp Hsc H1 H2 Hp1 Hp2 Ha1 Ha2 Hn1 Hn2) as (i1 & i2 & Hperm & Hnd & Hin & -> & ->).
    assert (Hlen : length i1 <= 2).
    { rewrite <- (fmap_length fst i1).
      set (ea := match en_info L e1 !! a with Some ids => last ids | None => None end). set (eb := match en_info L e1 !! b with Some ids => last ids | None => None end).
      assert (Hsub : Some <$> i1.*1 ⊆ [ea; eb]).
      { intros x (u & -> & Hu)%elem_of_list_fmap. destruct (Hin u Hu) as (k & HK & Hk & ids & Hi & Hl).
        rewrite elem_of_cons, elem_of_list_singleton. destruct (Hab k HK Hk) as [->| ->]; [left|right]; subst ea eb; rewrite Hi, Hl; reflexivity. }
      rewrite <- (fmap_length Some i1.*1). apply (submseteq_length _ [ea; eb]). apply NoDup_submseteq; [|done]. apply NoDup_fmap_2; [apply _|done]. }
    destruct (perm_two i1 i2 Hperm Hlen) as [->|(x & y & -> & ->)]; [done|]. cbn [map foldl].
    f_equal; [|f_equal]; apply map_ext; intros t; apply mix2_comm.
  Qed.
End isolation.

(** ** Non-vacuity: two sessions, one of which edits, adds and removes other chains *)
From Verif Require Import Session.

Section plain.
  Context (L : lang).
  Definition lone_b (cs : list (comp L)) : bool :=
    forallb (fun i => forallb (fun j => match cs !! i, cs !! j with Some a, Some b => implb (comp_eqb a b) (Nat.eqb i j) | _, _ => true end) (seq 0 (length cs))) (seq 0 (length cs)).
  Definition order_b (olds news : list (comp L)) : bool :=
    forallb (fun i => forallb (fun i' => forallb (fun j => forallb (fun j' =>
      match olds !! i, olds !! i', news !! j, news !! j' with
      | Some a, Some a', Some b, Some b' => implb (comp_eqb a b && comp_eqb a' b' && (i <? i')) (j <? j')
      | _, _, _, _ => true
      end) (seq 0 (length news))) (seq 0 (length news))) (seq 0 (length olds))) (seq 0 (length olds)).
  Definition plain_b (old new : gmap string (list (comp L))) : bool :=
    forallb (fun kv : string * list (comp L) => match new !! kv.1 with Some news => lone_b kv.2 && lone_b news && order_b kv.2 news | None => true end) (map_to_list old).
  Lemma in_range {A} (l : list A) i x : l !! i = Some x -> In i (seq 0 (length l)).
  Proof. intros H%lookup_lt_Some. apply in_seq. lia. Qed.
  Lemma lone_b_spec cs : lone_b cs = true -> no_repeats L cs.
  Proof.
    intros H i j a b Hi Hj He. unfold lone_b in H. rewrite forallb_forall in H. specialize (H i (in_range _ _ _ Hi)). rewrite forallb_forall in H.
    specialize (H j (in_range _ _ _ Hj)). rewrite Hi, Hj, He in H. by apply Nat.eqb_eq.
  Qed.
  Lemma order_b_spec olds news : order_b olds news = true -> same_order L olds news.
  Proof.
    intros H i i' j j' a a' b b' Hi Hi' Hj Hj' He He' Hlt. unfold order_b in H. rewrite forallb_forall in H. specialize (H i (in_range _ _ _ Hi)).
    rewrite forallb_forall in H. specialize (H i' (in_range _ _ _ Hi')). rewrite forallb_forall in H. specialize (H j (in_range _ _ _ Hj)).
    rewrite forallb_forall in H. specialize (H j' (in_range _ _ _ Hj')). rewrite Hi, Hi', Hj, Hj', He, He' in H. apply Nat.ltb_lt in Hlt. rewrite Hlt in H. by apply Nat.ltb_lt.
  Qed.
  Lemma plain_b_spec old new : plain_b old new = true -> plain_edit old new.
  Proof.
    unfold plain_b. intros H k olds news Ho Hn. rewrite forallb_forall in H. apply elem_of_map_to_list, elem_of_list_In, H in Ho. cbn [fst snd] in Ho. rewrite Hn in Ho.
    apply andb_true_iff in Ho as [[H1 H2]%andb_true_iff H3]. split_and!; [by apply lone_b_spec|by apply lone_b_spec|by apply order_b_spec].
  Qed.
End plain.

Definition is_ours (k : string) : Prop := k = "~a"%string \/ k = "o"%string.
Definition is_rank (k : string) : nat := if String.eqb k "o" then 1 else 0.
Definition is_text : string := "~a: sig 2 >> add 1
o: sig 3 >> mul ~a".
Definition is_edit : string := "~a: sig 2 >> add 1
~n: sig 7
o: sig 3 >> mul ~a
q: sig 1 >> mul ~n >> add ~a".
Definition is_run (e : engine glicol) (cs : list (call glicol)) : engine glicol := default e (tame_run glicol 8 e cs).
Definition is_0 : engine glicol := is_run (engine_new glicol) [submit is_text].
Definition is_1 : engine glicol := is_run is_0 [play_block].
Definition is_2 : engine glicol := is_run is_1 [play_block].
Definition is_3 : engine glicol := is_run is_1 [submit is_edit].
Definition is_4 : engine glicol := is_run is_3 [play_block].
Definition is_note : call glicol := CMsg glicol c64 "q,0,0,5; ~n,0,0,0.5".
Definition is_5 : engine glicol := is_run is_4 [is_note].
Definition is_6 : engine glicol := is_run is_5 [submit is_text].
Lemma is_tame : tamely glicol 8 is_0.
Proof.
  assert (H : match tame_run glicol 8 (engine_new glicol) [submit is_text] with Some _ => true | None => false end = true) by run_session.
  unfold is_0, is_run. destruct (tame_run glicol 8 (engine_new glicol) [submit is_text]) as [e|] eqn:E; [|done].
  simpl. eapply tame_run_spec; [apply tm_new|exact E].
Qed.
Definition is_a : list component := [CConstSig (f_of_Z 2); CAdd (Num f1)].
Definition is_o : list component := [CConstSig (f_of_Z 3); CMul (NRef "~a")].
Lemma is_ast : exists p, en_ast glicol is_0 = Some p /\ p !! "~a"%string = Some is_a /\ p !! "o"%string = Some is_o.
Proof.
  assert (H : match en_ast glicol is_0 with Some p => p !! "~a"%string = Some is_a /\ p !! "o"%string = Some is_o | None => False end)
    by (with_strategy transparent [peg_run W W1] (vm_compute; split_and!; reflexivity)).
  destruct (en_ast glicol is_0) as [p|]; [|done]. by exists p.
Qed.
Lemma is_contained (p : gmap string (list component)) : p !! "~a"%string = Some is_a -> p !! "o"%string = Some is_o -> self_contained is_ours is_rank p.
Proof.
  intros Ha Ho. assert (Hu : in_use is_ours p "o") by (constructor; [by right|reflexivity]). split.
  - intros k [->| ->]; eauto.
  - intros k [->| ->]; [|done]. eapply (iu_ref is_ours p "~a" "o"); [by left|done|by right|exact Ho|right; left|by left].
  - intros k cs i c [->| ->] Hk Hi; [rewrite Ha in Hk|rewrite Ho in Hk]; injection Hk as <-.
    + destruct i as [|[|i]]; [..|done]; injection Hi as <-; (split_and!; [left; split; [reflexivity|discriminate]|reflexivity|constructor|]); intros r Hr%elem_of_nil; done.
    + destruct i as [|[|i]]; [..|done]; injection Hi as <-.
      * split_and!; [left; split; [reflexivity|discriminate]|reflexivity|constructor|]. intros r Hr%elem_of_nil; done.
      * split_and!; [right; left; reflexivity|reflexivity|apply NoDup_singleton|]. intros r ->%elem_of_list_singleton. split_and!; [by repeat constructor|by left|by vm_compute; lia].
Qed.
Lemma is_step e c : match tame_run glicol 8 e [c] with Some _ => true | None => false end = true -> exists ob, step glicol 8 e c = Ok (is_run e [c], ob).
Proof.
  unfold is_run. cbn [tame_run]. destruct (match c with CUpdate _ _ _ => _ | _ => _ end); [|done]. destruct (step glicol 8 e c) as [[e' ob]|]; [|done]. by exists ob.
Qed.
Ltac spared e code :=
  let H := fresh in
  assert (H : match parse (l := glicol) code with
              | Done new => prog_ok_b glicol new = true /\ plain_b glicol (old_ast glicol e) new = true /\
                  new !! "~a"%string = old_ast glicol e !! "~a"%string /\ new !! "o"%string = old_ast glicol e !! "o"%string
              | _ => False end) by (with_strategy transparent [peg_run W W1] (vm_compute; split_and!; reflexivity));
  let new := fresh in let Hn := fresh in let H1 := fresh in let H2 := fresh in let H3 := fresh in let H4 := fresh in
  intros new Hn; change (parse (l := glicol) code = Done new) in Hn; rewrite Hn in H; destruct H as (H1 & H2 & H3 & H4);
  split_and!; [by apply prog_ok_b_spec|by apply plain_b_spec|intros _ k [->| ->]; assumption].
Lemma is_spared : spares demo (get_ast c64 no_math) is_ours is_1 (submit is_edit).
Proof. spared is_1 is_edit. Qed.
Lemma is_spared' : spares demo (get_ast c64 no_math) is_ours is_5 (submit is_text).
Proof. spared is_5 is_text. Qed.
Lemma is_message e : spares demo (get_ast c64 no_math) is_ours e is_note.
Proof.
  intros cmd nm Hc Hn. assert (E : split_on ";" (sfilter (fun ch => negb (is_space ch)) "q,0,0,5; ~n,0,0,0.5") = ["q,0,0,5"%string; "~n,0,0,0.5"%string]) by reflexivity.
  rewrite E in Hc. apply elem_of_cons in Hc as [->| ->%elem_of_list_singleton]; vm_compute in Hn; injection Hn as <-; intros [?|?]; discriminate.
Qed.
(** In the second run two more chains join after the first block, one of them audible; they
    are heard, sent a message, and taken away again. *)
Lemma is_runs : plays_on demo (get_ast c64 no_math) 8 is_ours is_0 2 is_2 /\ plays_on demo (get_ast c64 no_math) 8 is_ours is_0 2 is_6.
Proof.
  split.
  - assert (S1 : exists ob, step glicol 8 is_0 play_block = Ok (is_1, ob)) by (apply is_step; run_session).
    assert (S2 : exists ob, step glicol 8 is_1 play_block = Ok (is_2, ob)) by (apply is_step; run_session).
    destruct S1 as [b1 S1], S2 as [b2 S2].
    exact (po_call _ _ _ _ _ 1 is_1 play_block is_2 b2 (po_call _ _ _ _ _ 0 is_0 play_block is_1 b1 (po_start _ _ _ _ _) I S1) I S2).
  - assert (S1 : exists ob, step glicol 8 is_0 play_block = Ok (is_1, ob)) by (apply is_step; run_session).
    assert (S2 : exists ob, step glicol 8 is_1 (submit is_edit) = Ok (is_3, ob)) by (apply is_step; run_session).
    assert (S3 : exists ob, step glicol 8 is_3 play_block = Ok (is_4, ob)) by (apply is_step; run_session).
    assert (S4 : exists ob, step glicol 8 is_4 is_note = Ok (is_5, ob)) by (apply is_step; run_session).
    assert (S5 : exists ob, step glicol 8 is_5 (submit is_text) = Ok (is_6, ob)) by (apply is_step; run_session).
    destruct S1 as [b1 S1], S2 as [b2 S2], S3 as [b3 S3], S4 as [b4 S4], S5 as [b5 S5].
    exact (po_call _ _ _ _ _ 2 is_5 (submit is_text) is_6 b5 (po_call _ _ _ _ _ 2 is_4 is_note is_5 b4 (po_call _ _ _ _ _ 1 is_3 play_block is_4 b3
      (po_call _ _ _ _ _ 1 is_1 (submit is_edit) is_3 b2 (po_call _ _ _ _ _ 0 is_0 play_block is_1 b1 (po_start _ _ _ _ _) I S1) is_spared S2) I S3) (is_message is_4) S4) is_spared' S5).
Qed.
Example C78_case :
  tamely glicol 8 is_0 /\
  (exists p, en_ast glicol is_0 = Some p /\ self_contained is_ours is_rank p) /\
  plays_on demo (get_ast c64 no_math) 8 is_ours is_0 2 is_2 /\
  plays_on demo (get_ast c64 no_math) 8 is_ours is_0 2 is_6 /\
  exists v, owner (en_info glicol is_0) v "o" 1.
Proof.
  split_and!.
  - exact is_tame.
  - destruct is_ast as (p & H1 & H2 & H3). exists p. split; [exact H1|]. by apply is_contained.
  - apply is_runs.
  - apply is_runs.
  - assert (H : match en_info glicol is_0 !! "o"%string with Some ids => match ids !! 1 with Some v => true | None => false end | None => false end = true) by run_session.
    destruct (en_info glicol is_0 !! "o"%string) as [ids|] eqn:E; [|done]. destruct (ids !! 1) as [v|] eqn:E2; [|done]. exists v. exists ids. split; assumption.
Qed.
Lemma is_alone e : match en_ast glicol e with Some p => forallb (fun kv : string * list component => contains_char "~" kv.1 || String.eqb kv.1 "o") (map_to_list p) | None => false end = true ->
  exists p, en_ast glicol e = Some p /\ alone is_ours p.
Proof.
  destruct (en_ast glicol e) as [p|]; [|done]. intros H. exists p. split; [done|]. intros k cs Hk Hc. rewrite forallb_forall in H.
  apply elem_of_map_to_list, elem_of_list_In, H in Hk. cbn [fst] in Hk. rewrite Hc in Hk. right. by apply String.eqb_eq.
Qed.
Example C78_heard_case :
  (exists p1, en_ast glicol is_2 = Some p1 /\ alone is_ours p1) /\ (exists p2, en_ast glicol is_6 = Some p2 /\ alone is_ours p2) /\
  (forall k, is_ours k -> contains_char "~" k = false -> k = "o"%string \/ k = "o"%string) /\
  sees [submit is_text; play_block; play_block; play_block] = [Quiet; level 9; level 9; level 9] /\
  sees [submit is_text; play_block; submit is_edit; play_block; is_note; submit is_text; play_block] = [Quiet; level 9; Quiet; level 19; Quiet; Quiet; level 9].
Proof.
  split_and!; [apply is_alone; run_session..| |run_session|run_session]. intros k [->| ->]; [done|]. by left.
Qed.

(** A chain nobody reads does not run: the same text of [~a] is in force all
    the time and [o] keeps nothing, yet taking [o] away for one block leaves
    [~a] one block behind. *)
Definition is_lefts (s : list seen) : list (list f32) := omap (fun x => match x with Played (l :: _) => Some l | _ => None end) s.
Definition is_tick (n : nat) : list f32 := map (fun i => if Nat.eqb i n then f1 else f0) (seq 0 8).
Theorem C78_unread_refuted : exists read unread,
  is_lefts (sees [CSr glicol 12; submit read; play_block; play_block; play_block]) = [is_tick 0; is_tick 4; replicate 8 f0] /\
  is_lefts (sees [CSr glicol 12; submit read; play_block; submit unread; play_block; submit read; play_block]) = [is_tick 0; replicate 8 f1; is_tick 4].
Proof. exists "~a: imp 1
o: sig 1 >> mul ~a"%string, "~a: imp 1
o: sig 1"%string. split; run_session. Qed.

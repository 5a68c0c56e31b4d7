(** * C81: a program sounds the same wherever it is loaded.

    Vocabulary: see Props_Isolation.v and Props_Inputs.v. *)
From Verif Require Import InputProofs BlockProofs SafeNet Reorder Rename Props_Signal Props_Inputs Props_Update Props_Blocks Props_Isolation.
From Coq Require Import Lia.
Local Open Scope nat_scope.

(** ** Other names for the chains *)
Definition ren_num (f : string -> string) (p : numref) : numref := match p with NRef r => NRef (f r) | Num v => Num v end.
Definition ren_usz (f : string -> string) (p : usizeref) : usizeref := match p with URef r => URef (f r) | Usz v => Usz v end.
Definition ren (f : string -> string) (c : component) : component :=
  match c with
  | CDelayn p => CDelayn (ren_usz f p)
  | CDelayms p => CDelayms (ren_num f p) | CImp p => CImp (ren_num f p)
  | CTri p => CTri (ren_num f p) | CSqu p => CSqu (ren_num f p) | CSaw p => CSaw (ren_num f p) | CSin p => CSin (ren_num f p)
  | COnepole p => COnepole (ren_num f p) | CMul p => CMul (ren_num f p) | CAdd p => CAdd (ren_num f p) | CPan p => CPan (ren_num f p)
  | CBd p => CBd (ren_num f p) | CSn p => CSn (ren_num f p) | CHh p => CHh (ren_num f p)
  | CRhpf p q => CRhpf (ren_num f p) q | CApfmsGain p q => CApfmsGain (ren_num f p) q
  | CLpf (SigRef s) q => CLpf (SigRef (f s)) q
  | CGet s => CGet (f s)
  | CSeq evs => CSeq (map (fun e => (e.1, ren_usz f e.2)) evs)
  | CArrange evs => CArrange (map (ren_num f) evs)
  | CMix l => CMix (map f l)
  | CBalance l r => CBalance (f l) (f r)
  | c => c
  end.
Lemma ren_num_refs f p : numref_refs (ren_num f p) = map f (numref_refs p).
Proof. by destruct p. Qed.
Lemma ren_usz_refs f p : usizeref_refs (ren_usz f p) = map f (usizeref_refs p).
Proof. by destruct p. Qed.
Lemma ren_refs f c : component_refs (ren f c) = map f (component_refs c).
Proof.
  destruct c; cbn [ren component_refs]; try apply ren_num_refs; try apply ren_usz_refs; try reflexivity.
  - induction events as [|[t u] evs IH]; [done|]. cbn [map List.concat snd]. by rewrite map_app, IH, ren_usz_refs.
  - induction events as [|u evs IH]; [done|]. cbn [map List.concat]. by rewrite map_app, IH, ren_num_refs.
  - by destruct sg.
Qed.
Lemma ren_fix f c : (forall r, r ∈ component_refs c -> f r = r) -> ren f c = c.
Proof.
  assert (Hn : forall p, (forall r, r ∈ numref_refs p -> f r = r) -> ren_num f p = p) by (intros [|r] H; [done|]; cbn; by rewrite H by (by left)).
  assert (Hu : forall p, (forall r, r ∈ usizeref_refs p -> f r = r) -> ren_usz f p = p) by (intros [|r] H; [done|]; cbn; by rewrite H by (by left)).
  destruct c; cbn [ren component_refs]; intros H; try reflexivity; try (by rewrite Hn); try (by rewrite Hu).
  - f_equal. induction events as [|[t u] evs IH]; [done|]. cbn [map List.concat snd fst] in *. f_equal.
    + f_equal. apply Hu. intros r Hr. apply H. apply elem_of_app. by left.
    + apply IH. intros r Hr. apply H. apply elem_of_app. by right.
  - f_equal. induction events as [|u evs IH]; [done|]. cbn [map List.concat] in *. f_equal.
    + apply Hn. intros r Hr. apply H. apply elem_of_app. by left.
    + apply IH. intros r Hr. apply H. apply elem_of_app. by right.
  - f_equal. induction nodes as [|u l IH]; [done|]. cbn [map]. f_equal; [apply H; by left|]. apply IH. intros r Hr. apply H. by right.
  - destruct sg; try reflexivity. rewrite H; [done|by left].
  - rewrite !H; [done|right; by left|by left].
  - rewrite H; [done|by left].
Qed.
Lemma ren_bare f c : component_refs c = [] -> ren f c = c.
Proof. intros H. apply ren_fix. rewrite H. by intros r Hr%elem_of_nil. Qed.
Lemma ren_by_name f c : by_name (ren f c) = by_name c.
Proof. destruct c; try reflexivity. by destruct sg. Qed.
Lemma ren_eqb f c : component_eqb c c = true -> component_eqb (ren f c) (ren f c) = true.
Proof.
  assert (Hn : forall p, numref_eqb p p = true -> numref_eqb (ren_num f p) (ren_num f p) = true) by (intros [|r] H; [done|]; apply String.eqb_refl).
  assert (Hu : forall p, usizeref_eqb p p = true -> usizeref_eqb (ren_usz f p) (ren_usz f p) = true) by (intros [|r] H; [done|]; apply String.eqb_refl).
  assert (Hs : forall s, seqb s s = true) by (intros s; apply String.eqb_refl).
  destruct c; cbn [ren component_eqb]; intros H; try exact H; try (by apply Hn); try (by apply Hu).
  - induction events as [|[t u] evs IH]; [done|]. cbn [map list_eqb] in *. unfold pair_eqb in *. cbn [fst snd] in *.
    apply andb_true_iff in H as [[H1 H2]%andb_true_iff H3]. rewrite H1, (Hu u H2). cbn. by apply IH.
  - induction events as [|u evs IH]; [done|]. cbn [map list_eqb] in *. apply andb_true_iff in H as [H1 H2]. rewrite (Hn u H1). by apply IH.
  - clear H. induction nodes as [|u evs IH]; [done|]. cbn [map list_eqb]. by rewrite Hs, IH.
  - destruct sg; try exact H. cbn [component_eqb signal_eqb] in *. rewrite Hs in *. exact H.
  - by rewrite !Hs.
  - apply andb_true_iff in H as [H1 H2]. by rewrite (Hn _ H1), H2.
  - apply andb_true_iff in H as [H1 H2]. by rewrite (Hn _ H1), H2.
  - apply Hs.
Qed.
Lemma boxed_same P n ch rs1 rs2 w w' r r' : boxed P n ch rs1 = Done (w, r) -> boxed P n ch rs2 = Done (w', r') -> w' = w.
Proof. unfold boxed. congruence. Qed.
Lemma boxed_res_same P n ch rs1 rs2 w w' r r' : boxed_res P n ch rs1 = Done (w, r) -> boxed_res P n ch rs2 = Done (w', r') -> w' = w.
Proof. unfold boxed_res. destruct n; [|done]. apply boxed_same. Qed.
Lemma boxed_comp_same P n ch rs1 rs2 w w' r r' : boxed_comp P n ch rs1 = Done (w, r) -> boxed_comp P n ch rs2 = Done (w', r') -> w' = w.
Proof. unfold boxed_comp. destruct n; [|done]. congruence. Qed.
Local Opaque bd_new sn_new hh_new plate_new synth_new imp_new delayms_new delayn_new apf_new onepole_new bq_new osc_new boxed boxed_res boxed_comp.
Lemma ren_make P f ev c w rs w' rs' : (forall evs, c ≠ CArrange evs) -> (forall evs, c = CSeq evs -> ren f c = c) ->
  makenode_ P ev c = Done (w, rs) -> makenode_ P ev (ren f c) = Done (w', rs') -> w' = w.
Proof.
  intros Ha Hs H1 H2.
  destruct c; cbn [ren] in H2; try (rewrite H1 in H2; by injection H2);
    try (destruct p; cbn [ren_num ren_usz] in H2; cbn [makenode_ num_or] in H1, H2;
      lazymatch type of H1 with boxed _ _ _ _ = _ => exact (boxed_same _ _ _ _ _ _ _ _ _ H1 H2) | boxed_res _ _ _ _ = _ => exact (boxed_res_same _ _ _ _ _ _ _ _ _ H1 H2) | boxed_comp _ _ _ _ = _ => exact (boxed_comp_same _ _ _ _ _ _ _ _ _ H1 H2) end).
  - specialize (Hs events eq_refl). cbn [ren] in Hs. rewrite Hs, H1 in H2. by injection H2.
  - by destruct (Ha events).
  - cbn [makenode_] in H1, H2. exact (boxed_same _ _ _ _ _ _ _ _ _ H1 H2).
  - destruct sg; try (rewrite H1 in H2; by injection H2). cbn [makenode_] in H1, H2. exact (boxed_same _ _ _ _ _ _ _ _ _ H1 H2).
  - cbn [makenode_] in H1, H2. exact (boxed_same _ _ _ _ _ _ _ _ _ H1 H2).
  - cbn [makenode_] in H1, H2. exact (boxed_same _ _ _ _ _ _ _ _ _ H1 H2).
Qed.
Local Transparent bd_new sn_new hh_new plate_new synth_new imp_new delayms_new delayn_new apf_new onepole_new bq_new osc_new boxed boxed_res boxed_comp.

(** ** Lists that correspond *)
Lemma pick_list {A B} (Q : A -> B -> Prop) (l : list A) : (forall x, x ∈ l -> exists y, Q x y) -> exists l', Forall2 Q l l'.
Proof.
  induction l as [|x l IH]; intros H; [by exists []|]. destruct (H x) as [y Hy]; [by left|]. destruct IH as [l' Hl']; [intros z Hz; apply H; by right|].
  exists (y :: l'). by constructor.
Qed.
Section matching.
  Context (R : nat -> nat -> Prop) (R1 : forall x y y', R x y -> R x y' -> y = y') (R2 : forall x x' y, R x y -> R x' y -> x = x').
  Definition same_in (p q : nat * list sig) : Prop := R p.1 q.1 /\ q.2 = p.2.
  Lemma matched_nodup l l' : Forall2 same_in l l' -> NoDup l.*1 -> NoDup l'.*1.
  Proof.
    induction 1 as [|p q l l' [Hpq _] Hf IH]; [done|]. rewrite !fmap_cons, !NoDup_cons. intros [Hn Hd]. split; [|by apply IH].
    intros ([y b] & Hy & (j & Hj)%elem_of_list_lookup)%elem_of_list_fmap. cbn in Hy. destruct (Forall2_lookup_r _ _ _ _ _ Hf Hj) as ([x b'] & Hx & [Hxy _]). cbn in Hxy.
    apply Hn. rewrite Hy in Hpq. rewrite (R2 _ _ _ Hpq Hxy). apply elem_of_list_fmap. exists (x, b'). split; [done|]. by eapply elem_of_list_lookup_2.
  Qed.
  Lemma match_inputs (l m : inmap) : NoDup l.*1 -> NoDup m.*1 ->
    (forall p, p ∈ l -> exists q, q ∈ m /\ same_in p q) -> (forall q, q ∈ m -> exists p, p ∈ l /\ same_in p q) ->
    exists m', Forall2 same_in l m' /\ m' ≡ₚ m /\ NoDup m'.*1.
  Proof.
    intros Hl Hm H12 H21. destruct (pick_list (fun p q => q ∈ m /\ same_in p q) l H12) as [m' Hm'].
    assert (Hs : Forall2 same_in l m') by (eapply Forall2_impl; [exact Hm'|]; by intros p q [_ H]).
    pose proof (matched_nodup _ _ Hs Hl) as Hd. exists m'. split_and!; [done| |done].
    apply NoDup_Permutation; [by eapply NoDup_fmap_1|by eapply NoDup_fmap_1|]. intros q. split.
    - intros (j & Hj)%elem_of_list_lookup. destruct (Forall2_lookup_r _ _ _ _ _ Hm' Hj) as (p & _ & Hq & _). done.
    - intros Hq. destruct (H21 q Hq) as (p & Hp & [Hpq Hb]). apply elem_of_list_lookup in Hp as [j Hj]. destruct (Forall2_lookup_l _ _ _ _ _ Hs Hj) as (q' & Hq' & [Hpq' Hb']).
      assert (q = q') as ->; [|by eapply elem_of_list_lookup_2]. destruct q as [y b], q' as [y' b']. cbn in *. rewrite (R1 _ _ _ Hpq Hpq'). congruence.
  Qed.
  Lemma match_ord l m o1 o2 k : Forall2 same_in l m -> Forall2 R o1 o2 -> in_ord m o2 k = in_ord l o1 k.
  Proof.
    intros Hs Ho. unfold in_ord. destruct (o1 !! k) as [x|] eqn:E1.
    - destruct (Forall2_lookup_l _ _ _ _ _ Ho E1) as (y & -> & Hxy). cbn. clear Ho E1.
      induction Hs as [|[u b] [u' b'] l m [Hu Hb] Hf IH]; [done|]. cbn in Hu, Hb. subst b'. cbn.
      destruct (Nat.eqb_spec u x) as [->|Hn].
      + rewrite (R1 _ _ _ Hu Hxy), Nat.eqb_refl. done.
      + destruct (Nat.eqb_spec u' y) as [->|Hn']; [|exact IH]. by destruct (Hn (R2 _ _ _ Hu Hxy)).
    - destruct (o2 !! k) as [y|] eqn:E2; [|done]. destruct (Forall2_lookup_r _ _ _ _ _ Ho E2) as (x & Hx & _). congruence.
  Qed.
End matching.

Section elsewhere.
  Context (P : platform) (get : string -> outcome (gmap string (list component))) (blk : Z).
  Notation L := (glang P get).
  Notation engine := (engine (glang P get)).
  Notation prog := (gmap string (list component)).
  (** The chains, an order in which they can be read, their names elsewhere and back. *)
  Context (K : string -> Prop) (rk : string -> nat) (f g : string -> string).
  Record renaming : Prop := {
    rn_back : forall k, K k -> g (f k) = k;
    rn_tilde : forall k, K k -> contains_char "~" (f k) = contains_char "~" k;
    rn_dots : forall k, K k -> no_dots k -> no_dots (f k)
  }.
  Definition there (k : string) : Prop := K (g k) /\ f (g k) = k.
  Definition rk_there (k : string) : nat := rk (g k).
  (** The second program has the chains of the first, with their names changed throughout;
      steps of a [seq] that name chains keep their names. *)
  Record renamed (p1 p2 : prog) : Prop := {
    rd_text : forall k, K k -> p2 !! f k = map (ren f) <$> p1 !! k;
    rd_seq : forall k cs evs r, K k -> p1 !! k = Some cs -> CSeq evs ∈ cs -> r ∈ component_refs (CSeq evs) -> f r = r
  }.
  Context (Hren : renaming).
  Lemma there_of k : K k -> there (f k).
  Proof. intros Hk. split; rewrite (rn_back Hren k Hk); done. Qed.
  Lemma renamed_contained p1 p2 : renamed p1 p2 -> self_contained K rk p1 -> self_contained there rk_there p2.
  Proof.
    intros [Ht Hq] [H1 H2 H3]. split.
    - intros k' [Hk Hf]. destruct (H1 _ Hk) as [cs Hcs]. exists (map (ren f) cs). by rewrite <- Hf, (Ht _ Hk), Hcs.
    - intros k' [Hk Hf]. rewrite <- Hf. generalize (H2 _ Hk). generalize (g k'). clear k' Hk Hf. intros k. induction 1 as [k Hk Hc|k k' cs c Hk Hu IH Hk' Hp Hc Hr].
      + constructor; [by apply there_of|]. by rewrite (rn_tilde Hren).
      + eapply (iu_ref there p2 (f k) (f k') (map (ren f) cs) (ren f c)); [by apply there_of|done|by apply there_of| | |].
        * by rewrite (Ht _ Hk'), Hp.
        * apply elem_of_list_fmap. by exists c.
        * rewrite ren_refs. apply elem_of_list_fmap. by exists k.
    - intros k' cs' i c' [Hk Hf] Hcs' Hc'. rewrite <- Hf, (Ht _ Hk) in Hcs'. destruct (p1 !! g k') as [cs|] eqn:Hcs; [|done]. injection Hcs' as <-.
      change (map (ren f) cs) with (ren f <$> cs) in Hc'. rewrite list_lookup_fmap in Hc'. destruct (cs !! i) as [c|] eqn:Hc; [|done]. injection Hc' as <-.
      destruct (H3 _ _ _ _ Hk Hcs Hc) as (Hp & He & Hd & Hr). split_and!.
      + destruct Hp as [[Hb Hna]|[Hb|[-> [r ->]]]].
        * left. rewrite (ren_bare f c Hb). done.
        * right; left. by rewrite ren_by_name.
        * right; right. split; [done|]. by exists (f r).
      + by apply ren_eqb.
      + rewrite ren_refs. change (map f (component_refs c)) with (f <$> component_refs c). apply (NoDup_fmap_1 g). rewrite <- list_fmap_compose.
        assert (E : g ∘ f <$> component_refs c = component_refs c); [|by rewrite E].
        clear -Hr Hren. induction (component_refs c) as [|r rs IH]; [done|]. rewrite fmap_cons. f_equal.
        * cbn. apply (rn_back Hren). apply (Hr r). by left.
        * apply IH. intros r' Hr'. apply Hr. by right.
      + intros r' Hr'. rewrite ren_refs in Hr'. apply elem_of_list_fmap in Hr' as (r & -> & Hin). destruct (Hr r Hin) as (Hdots & HK & Hlt).
        split_and!; [by apply (rn_dots Hren)|by apply there_of|]. unfold rk_there. by rewrite (rn_back Hren r HK).
  Qed.

  (** ** Two engines that play the chains alike *)
  Notation alike := (alike P).
  Definition pair_up (e1 e2 : engine) (u1 u2 : nat) : Prop := exists k i, K k /\ owner (en_info L e1) u1 k i /\ owner (en_info L e2) u2 (f k) i.
  Definition same_at (e1 e2 : engine) : Prop := forall u1 u2, pair_up e1 e2 u1 u2 -> exists w1 w2 : gnode P * list sig,
    node_weight (en_graph L e1) u1 = Some w1 /\ node_weight (en_graph L e2) u2 = Some w2 /\ alike w1 w2.
  Lemma f_inj k k' : K k -> K k' -> f k = f k' -> k = k'.
  Proof. intros H H' E. rewrite <- (rn_back Hren k H), <- (rn_back Hren k' H'). by rewrite E. Qed.
  Lemma owner_same (t : gmap string (list nat)) u u' k i : owner t u k i -> owner t u' k i -> u = u'.
  Proof. intros (ids & Hi & Hu) (ids' & Hi' & Hu'). congruence. Qed.
  Section two.
    Context (e1 e2 : engine) (p1 p2 : prog) (Ht1 : tamely L blk e1) (Ht2 : tamely L blk e2) (Hp1 : en_ast L e1 = Some p1) (Hp2 : en_ast L e2 = Some p2)
      (Hsc1 : self_contained K rk p1) (Hrd : renamed p1 p2).
    Let Hsc2 : self_contained there rk_there p2 := renamed_contained p1 p2 Hrd Hsc1.
    Lemma pair_fun u1 u2 u2' : pair_up e1 e2 u1 u2 -> pair_up e1 e2 u1 u2' -> u2 = u2'.
    Proof.
      intros (k & i & _ & H1 & H2) (k' & i' & _ & H1' & H2'). destruct (k_owner_inj P get blk e1 Ht1 _ _ _ _ _ H1 H1') as [<- <-]. by eapply owner_same.
    Qed.
    Lemma pair_inj u1 u1' u2 : pair_up e1 e2 u1 u2 -> pair_up e1 e2 u1' u2 -> u1 = u1'.
    Proof.
      intros (k & i & Hk & H1 & H2) (k' & i' & Hk' & H1' & H2'). destruct (k_owner_inj P get blk e2 Ht2 _ _ _ _ _ H2 H2') as [E <-].
      apply f_inj in E as <-; [|done|done]. by eapply owner_same.
    Qed.
    Lemma pair_ids k : K k -> exists cs ids1 ids2, p1 !! k = Some cs /\ en_info L e1 !! k = Some ids1 /\ en_info L e2 !! f k = Some ids2 /\
      length ids1 = length cs /\ length ids2 = length cs /\ ids1 ≠ [].
    Proof.
      intros Hk. destruct (k_ids P get blk K rk e1 p1 Ht1 Hp1 Hsc1 k Hk) as (cs & ids1 & Hcs & Hi1 & Hl1 & Hn).
      destruct (k_ids P get blk there rk_there e2 p2 Ht2 Hp2 Hsc2 (f k) (there_of k Hk)) as (cs' & ids2 & Hcs' & Hi2 & Hl2 & _).
      rewrite (rd_text _ _ Hrd k Hk), Hcs in Hcs'. injection Hcs' as <-. rewrite map_length in Hl2. exists cs, ids1, ids2. done.
    Qed.
    Lemma pair_there k i u1 : K k -> owner (en_info L e1) u1 k i -> exists u2, owner (en_info L e2) u2 (f k) i.
    Proof.
      intros Hk (ids & Hi & Hu). destruct (pair_ids k Hk) as (cs & ids1 & ids2 & _ & Hi1 & Hi2 & Hl1 & Hl2 & _). rewrite Hi in Hi1. injection Hi1 as <-.
      destruct (lookup_lt_is_Some_2 ids2 i) as [u2 Hu2]; [apply lookup_lt_Some in Hu; lia|]. exists u2. by exists ids2.
    Qed.
    Lemma pair_back k i u2 : K k -> owner (en_info L e2) u2 (f k) i -> exists u1, owner (en_info L e1) u1 k i.
    Proof.
      intros Hk (ids & Hi & Hu). destruct (pair_ids k Hk) as (cs & ids1 & ids2 & _ & Hi1 & Hi2 & Hl1 & Hl2 & _). rewrite Hi in Hi2. injection Hi2 as <-.
      destruct (lookup_lt_is_Some_2 ids1 i) as [u1 Hu1]; [apply lookup_lt_Some in Hu; lia|]. exists u1. by exists ids1.
    Qed.
    (** The ends of corresponding chains. *)
    Lemma pair_end k u1 : K k -> chain_end (en_info L e1) k u1 -> exists u2 i, chain_end (en_info L e2) (f k) u2 /\ owner (en_info L e1) u1 k i /\ owner (en_info L e2) u2 (f k) i.
    Proof.
      intros Hk (ids & Hi & Hl). destruct (pair_ids k Hk) as (cs & ids1 & ids2 & _ & Hi1 & Hi2 & Hl1 & Hl2 & _). rewrite Hi in Hi1. injection Hi1 as <-.
      rewrite last_lookup in Hl. destruct (lookup_lt_is_Some_2 ids2 (pred (length ids))) as [u2 Hu2]; [apply lookup_lt_Some in Hl; lia|].
      exists u2, (pred (length ids)). split_and!; [|by exists ids|by exists ids2]. exists ids2. split; [done|]. rewrite last_lookup, Hl2, <- Hl1. done.
    Qed.
    Lemma pair_end_back k u2 : K k -> chain_end (en_info L e2) (f k) u2 -> exists u1 i, chain_end (en_info L e1) k u1 /\ owner (en_info L e1) u1 k i /\ owner (en_info L e2) u2 (f k) i.
    Proof.
      intros Hk (ids & Hi & Hl). destruct (pair_ids k Hk) as (cs & ids1 & ids2 & _ & Hi1 & Hi2 & Hl1 & Hl2 & _). rewrite Hi in Hi2. injection Hi2 as <-.
      rewrite last_lookup in Hl. destruct (lookup_lt_is_Some_2 ids1 (pred (length ids))) as [u1 Hu1]; [apply lookup_lt_Some in Hl; lia|].
      exists u1, (pred (length ids)). split_and!; [|by exists ids1|by exists ids]. exists ids1. split; [done|]. rewrite last_lookup, Hl1, <- Hl2. done.
    Qed.
    Lemma pair_placed k i c v1 v2 : K k -> placed L (en_info L e1) p1 k i c v1 -> owner (en_info L e2) v2 (f k) i -> placed L (en_info L e2) p2 (f k) i (ren f c) v2.
    Proof.
      intros Hk (cs & Hcs & Hc & _) Hv2. revert cs Hcs Hc. change (comp L) with component. intros cs Hcs Hc.
      assert (E : p2 !! f k = Some (map (ren f) cs)) by (rewrite (rd_text _ _ Hrd k Hk); by rewrite Hcs).
      exists (map (ren f) cs). split_and!; [exact E| |done].
      assert (E2 : (ren f <$> cs) !! i = Some (ren f c)) by (by rewrite list_lookup_fmap, Hc). exact E2.
    Qed.
    Lemma pair_feeds k i c v1 u1 : K k -> placed L (en_info L e1) p1 k i c v1 -> feeds L e1 c k i u1 ->
      exists u2, feeds L e2 (ren f c) (f k) i u2 /\ pair_up e1 e2 u1 u2.
    Proof.
      intros Hk (cs & Hcs & Hc & Hv) [(j & -> & Hu)|(r & k' & Hr & Href & Hu)].
      - destruct (pair_there k j u1 Hk Hu) as [u2 Hu2]. exists u2. split; [left; by exists j|]. by exists k, j.
      - destruct (sc_part _ _ _ Hsc1 k cs i c Hk Hcs Hc) as (_ & _ & _ & Hrs). destruct (Hrs r Hr) as (Hd & HK & _).
        unfold refers in Href. rewrite (plain_ref r Hd) in Href. subst k'. destruct (pair_end r u1 HK Hu) as (u2 & j & Hu2 & O1 & O2).
        exists u2. split; [|by exists r, j]. right. exists (f r), (f r). split_and!; [|unfold refers; by rewrite (plain_ref _ (rn_dots Hren r HK Hd))|done].
        change (all_refs (l := L) (ren f c)) with (component_refs (ren f c)). rewrite ren_refs. apply elem_of_list_fmap. by exists r.
    Qed.
    Lemma pair_feeds_back k i c v1 u2 : K k -> placed L (en_info L e1) p1 k i c v1 -> feeds L e2 (ren f c) (f k) i u2 ->
      exists u1, feeds L e1 c k i u1 /\ pair_up e1 e2 u1 u2.
    Proof.
      intros Hk (cs & Hcs & Hc & Hv) [(j & -> & Hu)|(r' & k' & Hr & Href & Hu)].
      - destruct (pair_back k j u2 Hk Hu) as [u1 Hu1]. exists u1. split; [left; by exists j|]. by exists k, j.
      - change (all_refs (l := L) (ren f c)) with (component_refs (ren f c)) in Hr. rewrite ren_refs in Hr. apply elem_of_list_fmap in Hr as (r & -> & Hr).
        destruct (sc_part _ _ _ Hsc1 k cs i c Hk Hcs Hc) as (_ & _ & _ & Hrs). destruct (Hrs r Hr) as (Hd & HK & _).
        unfold refers in Href. rewrite (plain_ref _ (rn_dots Hren r HK Hd)) in Href. subst k'. destruct (pair_end_back r u2 HK Hu) as (u1 & j & Hu1 & O1 & O2).
        exists u1. split; [|by exists r, j]. right. exists r, r. split_and!; [done|unfold refers; by rewrite (plain_ref r Hd)|done].
    Qed.
    Lemma pair_targets sh1 sh2 rs : (forall r, r ∈ rs -> no_dots r /\ K r) -> Forall2 (pair_up e1 e2) (rs ≫= targets sh1 (en_info L e1)) (map f rs ≫= targets sh2 (en_info L e2)).
    Proof.
      intros H. induction rs as [|r rs IH]; [constructor|]. cbn [map]. rewrite !bind_cons. apply Forall2_app; [|apply IH; intros r' Hr'; apply H; by right].
      destruct (H r) as [Hd HK]; [by left|]. unfold targets. rewrite (plain_ref r Hd), (plain_ref _ (rn_dots Hren r HK Hd)).
      destruct (pair_ids r HK) as (cs & ids1 & ids2 & _ & Hi1 & Hi2 & Hl1 & Hl2 & Hn). rewrite Hi1, Hi2. cbn.
      destruct (last ids1) as [u1|] eqn:El; [|by apply last_None in El]. destruct (pair_end r u1 HK) as (u2 & j & (ids & Hi & Hl) & O1 & O2); [by exists ids1|].
      rewrite Hi2 in Hi. injection Hi as <-. rewrite Hl. constructor; [|constructor]. by exists r, j.
    Qed.
    Lemma pair_pred k i v1 : K k -> owner (en_info L e1) v1 k i -> Forall2 (pair_up e1 e2) (pred_of (en_info L e1) k i) (pred_of (en_info L e2) (f k) i).
    Proof.
      intros Hk (ids & Hi & Hv). destruct i as [|j]; [constructor|]. cbn [pred_of]. rewrite Hi. cbn.
      destruct (lookup_lt_is_Some_2 ids j) as [u1 Hu1]; [apply lookup_lt_Some in Hv; lia|]. rewrite Hu1.
      destruct (pair_there k j u1 Hk) as (u2 & (ids2 & Hi2 & Hu2)); [by exists ids|]. rewrite Hi2. cbn. rewrite Hu2. constructor; [|constructor].
      exists k, j. split_and!; [done|by exists ids|by exists ids2].
    Qed.
    Lemma keyed_order (n : gnode P) : keyed n = true -> has_order n = true.
    Proof. destruct n as [n|]; [|done]. by destruct n. Qed.
    Lemma block_there shs1 shs2 ins1 ins2 e1' e2' out1 out2 : same_at e1 e2 ->
      next_block L blk shs1 e1 ins1 = Ok (e1', out1) -> next_block L blk shs2 e2 ins2 = Ok (e2', out2) ->
      forall k i v1 v2, K k -> owner (en_info L e1) v1 k i -> owner (en_info L e2) v2 (f k) i -> exists w1 w2 : gnode P * list sig,
        node_weight (en_graph L e1') v1 = Some w1 /\ node_weight (en_graph L e2') v2 = Some w2 /\ alike w1 w2.
    Proof.
      intros Hsame Hn1 Hn2.
      enough (Hall : forall m d k i v1 v2, rk k = m -> i = d -> K k -> owner (en_info L e1) v1 k i -> owner (en_info L e2) v2 (f k) i -> exists w1 w2 : gnode P * list sig,
        node_weight (en_graph L e1') v1 = Some w1 /\ node_weight (en_graph L e2') v2 = Some w2 /\ alike w1 w2) by (intros k i v1 v2; by apply (Hall (rk k) i)).
      intros m. induction (lt_wf m) as [m _ IHm]. intros d. induction (lt_wf d) as [d _ IHd]. intros k i v1 v2 Hm Hd Hk Hv1 Hv2. subst m d.
      destruct (k_placed P get blk K rk e1 p1 Ht1 Hp1 Hsc1 k i v1 Hk Hv1) as [c Hpl]. pose proof Hpl as (cs & Hcs & Hc & _).
      pose proof (pair_placed k i c v1 v2 Hk Hpl Hv2) as Hpl2. pose proof (there_of k Hk) as Hk2.
      destruct (sc_part _ _ _ Hsc1 k cs i c Hk Hcs Hc) as (Hpart & _ & Hnd & Hrefs).
      destruct (C17_component_inputs _ (glang_ok P get) blk e1 p1 k i c v1 shs1 ins1 e1' out1 Ht1 Hp1 Hpl
        (k_heard P get blk K rk e1 p1 Ht1 Hp1 Hsc1 k (sc_use _ _ _ Hsc1 k Hk) i v1 Hv1) (k_no_feedback P get blk K rk e1 p1 Ht1 Hp1 Hsc1 k i v1 Hk Hv1) Hn1) as (st1 & b1 & st1' & b1' & inp1 & A1 & A2 & A3 & A4 & A5).
      destruct (C17_component_inputs _ (glang_ok P get) blk e2 p2 (f k) i (ren f c) v2 shs2 ins2 e2' out2 Ht2 Hp2 Hpl2
        (k_heard P get blk there rk_there e2 p2 Ht2 Hp2 Hsc2 (f k) (sc_use _ _ _ Hsc2 (f k) Hk2) i v2 Hv2) (k_no_feedback P get blk there rk_there e2 p2 Ht2 Hp2 Hsc2 (f k) i v2 Hk2 Hv2) Hn2) as (st2 & b2 & st2' & b2' & inp2 & B1 & B2 & B3 & B4 & B5).
      assert (Hback : forall u1 u2, feeds L e1 c k i u1 -> pair_up e1 e2 u1 u2 -> u1 ≠ v1 /\ u2 ≠ v2 /\ exists w1 w2 : gnode P * list sig,
        node_weight (en_graph L e1') u1 = Some w1 /\ node_weight (en_graph L e2') u2 = Some w2 /\ alike w1 w2).
      { intros u1 u2 Hu Hpr. apply (feeds_edge L (glang_ok P get) blk e1 p1 k i c v1 u1 Ht1 Hp1 Hpl) in Hu.
        destruct (k_edge P get blk K rk e1 p1 Ht1 Hp1 Hsc1 k i v1 u1 Hk Hv1 Hu) as (k' & i' & Hk' & Ho' & Hlt).
        destruct Hpr as (k0 & i0 & Hk0 & O1 & O2). destruct (k_owner_inj P get blk e1 Ht1 _ _ _ _ _ O1 Ho') as [-> ->].
        assert (Hv12 : pair_up e1 e2 v1 v2) by (by exists k, i). assert (Hu12 : pair_up e1 e2 u1 u2) by (by exists k', i').
        assert (Hne : u1 ≠ v1).
        { intros ->. destruct (k_owner_inj P get blk e1 Ht1 _ _ _ _ _ O1 Hv1) as [-> ->]. destruct Hlt as [?|[_ ?]]; lia. }
        split_and!; [done|intros ->; by apply Hne, (pair_inj _ _ v2)|].
        destruct Hlt as [Hlt|[-> Hlt]].
        - exact (IHm (rk k') Hlt i' k' i' u1 u2 eq_refl eq_refl Hk' O1 O2).
        - exact (IHd i' Hlt k i' u1 u2 eq_refl eq_refl Hk O1 O2). }
      destruct (match_inputs (pair_up e1 e2) pair_fun pair_inj inp1 inp2 A4 B4) as (inp & Hin & Hperm & Hdup).
      { intros [u1 bs] Hu. apply A5 in Hu as (Hf & _ & su & Hw). destruct (pair_feeds k i c v1 u1 Hk Hpl Hf) as (u2 & Hf2 & Hpr).
        destruct (Hback u1 u2 Hf Hpr) as (_ & Hne & [s1 x1] & [s2 x2] & Hw1 & Hw2 & [Hb _]). cbn in Hb. subst x2.
        assert (E : Some (su, bs) = Some (s1, x1)) by exact (eq_trans (eq_sym Hw) Hw1). injection E as -> ->.
        exists (u2, x1). split; [apply B5; split_and!; [done|done|by exists s2]|done]. }
      { intros [u2 bs] Hu. apply B5 in Hu as (Hf & _ & su & Hw). destruct (pair_feeds_back k i c v1 u2 Hk Hpl Hf) as (u1 & Hf1 & Hpr).
        destruct (Hback u1 u2 Hf1 Hpr) as (Hne & _ & [s1 x1] & [s2 x2] & Hw1 & Hw2 & [Hb _]). cbn in Hb. subst x2.
        assert (E : Some (su, bs) = Some (s2, x1)) by exact (eq_trans (eq_sym Hw) Hw2). injection E as -> ->.
        exists (u1, x1). split; [apply A5; split_and!; [done|done|by exists s1]|done]. }
      destruct (Hsame v1 v2) as (w1 & w2 & Hw1 & Hw2 & [Hb (o & Ho)]); [by exists k, i|].
      assert (w1 = (st1, b1)) as -> by (assert (E : Some w1 = Some (st1, b1)) by (rewrite <- Hw1; exact A1); by injection E).
      assert (w2 = (st2, b2)) as -> by (assert (E : Some w2 = Some (st2, b2)) by (rewrite <- Hw2; exact B1); by injection E).
      cbn [fst snd] in Hb, Ho. subst b2.
      change (gproc P st1 inp1 b1 = Ok (st1', b1')) in A3. change (gproc P st2 inp2 b1 = Ok (st2', b2')) in B3.
      exists (st1', b1'), (st2', b2'). split_and!; [exact A2|exact B2|].
      destruct (cls_tracked P get blk e1 Ht1 p1 k i c v1 _ Hp1 Hpl A1) as (sh0 & rs0 & _ & Hcls). unfold cls_J in Hcls. cbn [fst] in Hcls.
      enough (Hgp : gproc P (reord o st1) inp b1 = wrap (reord o) (gproc P st1 inp1 b1) /\ (keyed st2 = true \/ length inp <= 1)).
      { destruct Hgp as [Hgp Hk12]. rewrite <- (gproc_perm P st2 inp inp2 b1 Hk12 Hdup Hperm), Ho, Hgp, A3 in B3. cbn in B3. injection B3 as <- <-. split; [done|]. by exists o. }
      assert (Hlen12 : length inp = length inp1) by (symmetry; by eapply Forall2_length).
      destruct (decide (component_refs c = [])) as [Hnr|Hr].
      - (* no references *)
        assert (Hlen : length inp1 <= 1).
        { destruct i as [|j].
          - destruct inp1 as [|[u bs] inp1]; [cbn; lia|]. exfalso. destruct (proj1 (A5 u bs)) as (Hf & _); [by left|].
            destruct Hf as [(j & Hj & _)|(r & k' & Hr & _)]; [done|]. change (all_refs (l := L) c) with (component_refs c) in Hr. rewrite Hnr in Hr. by apply elem_of_nil in Hr.
          - destruct Hv1 as (ids & Hids & Hi). destruct (lookup_lt_is_Some_2 ids j) as [u Hu]; [apply lookup_lt_Some in Hi; lia|].
            apply (single_input inp1 u A4). intros x bs Hx. apply A5 in Hx as (Hf & _).
            destruct Hf as [(j' & Hj & (ids' & Hids' & Hx))|(r & k' & Hr & _)].
            + injection Hj as <-. rewrite Hids in Hids'. injection Hids' as <-. congruence.
            + change (all_refs (l := L) c) with (component_refs c) in Hr. rewrite Hnr in Hr. by apply elem_of_nil in Hr. }
        split; [|right; lia].
        assert (Hplain : plain_order st1).
        { destruct Hpart as [[_ Hna]|[Hbn|[_ [r ->]]]]; [| |done].
          - destruct c; try (by destruct (Hna events));
              try (destruct st1 as [st1|]; [|exact I]; destruct st1; try exact I; exfalso; clear -Hcls; cbn in Hcls; discriminate Hcls).
            destruct (kind_tracked P get blk e1 Ht1 p1 k i _ v1 _ Hp1 Hpl A1) as (sh3 & rs3 & _ & (s & Hst & Hso)). cbn [fst] in Hst. subst st1.
            cbn [plain_order]. by rewrite Hso, Hnr.
          - destruct c; try discriminate Hbn;
              try (destruct st1 as [st1|]; [|exact I]; destruct st1; try exact I; exfalso; clear -Hcls; cbn in Hcls; discriminate Hcls).
            destruct (kind_tracked P get blk e1 Ht1 p1 k i _ v1 _ Hp1 Hpl A1) as (sh3 & rs3 & _ & (s & Hst & Hso)). cbn [fst] in Hst. subst st1.
            cbn [plain_order]. by rewrite Hso, Hnr. }
        destruct inp1 as [|[u1 bs] [|? inp1]]; [| |cbn in Hlen; lia].
        { inversion Hin; subst. apply gproc_reord; [cbn; lia|by left|done]. }
        inversion Hin as [|? [u2 bs2] ? ? [Hpr Hbs] Hin']; subst. inversion Hin'; subst. cbn [fst snd] in Hpr, Hbs. subst bs2.
        apply gproc_one; [|done]. intros o1 Ho1. rewrite (ren_bare f c Hnr) in Hpl2.
        destruct (proj1 (A5 u1 bs)) as (Hf & _); [by left|].
        destruct Hf as [(j & -> & Hu1)|(r & k' & Hrr & _)]; [|change (all_refs (l := L) c) with (component_refs c) in Hrr; rewrite Hnr in Hrr; by apply elem_of_nil in Hrr].
        assert (Hu2 : owner (en_info L e2) u2 (f k) j).
        { destruct Hpr as (k0 & i0 & _ & O1 & O2). by destruct (k_owner_inj P get blk e1 Ht1 _ _ _ _ _ O1 Hu1) as [-> ->]. }
        assert (Hmsg : forall sh t u k, owner t u k j -> IndexOrder 0 u ∈ trace sh t k (S j) []).
        { intros sh t u k0 (ids & Hids & Hu). unfold trace. rewrite Hids. cbn. rewrite Hu. by left. }
        destruct (head_tracked P get blk e1 Ht1 p1 k (S j) c v1 _ Hp1 Hpl A1) as (sh1 & rs1 & Hrs1 & H1).
        destruct (head_tracked P get blk e2 Ht2 p2 (f k) (S j) c v2 _ Hp2 Hpl2 B1) as (sh2 & rs2 & Hrs2 & H2).
        assert (Hrs : forall rs, (rs = component_refs c \/ (exists ev w0, makenode_ P ev c = Done (w0, rs))) -> rs = []).
        { intros rs [->|(ev & w0 & Hmk)]; [done|]. rewrite (make_refs_exact P _ _ _ _ Hmk Hnd). done. }
        rewrite (Hrs rs1 Hrs1) in H1. rewrite (Hrs rs2 Hrs2) in H2.
        split; [exact (H1 Hnr u1 o1 (Hmsg _ _ _ _ Hu1) Ho1)|]. apply (H2 Hnr u2 o (Hmsg _ _ _ _ Hu2)). cbn [fst]. by rewrite reord_head, Ho1.
      - (* references *)
        destruct Hpart as [[Hnr _]|[Hbn|[-> [r ->]]]]; [done| |].
        + destruct (by_name_keyed P get K rk st1 c Hbn Hcls) as [Hkey Hio1].
          destruct (cls_tracked P get blk e2 Ht2 p2 (f k) i (ren f c) v2 _ Hp2 Hpl2 B1) as (sh3 & rs3 & _ & Hcls2). unfold cls_J in Hcls2. cbn [fst] in Hcls2.
          destruct (by_name_keyed P get K rk st2 (ren f c)) as [Hkey2 Hio2]; [by rewrite ren_by_name|exact Hcls2|].
          destruct (input_list P get blk e1 p1 k i c v1 st1 b1 _ Ht1 Hp1 Hpl A1 Hr Hnd Hio1) as (sh1 & Ho1).
          pose proof Hpl2 as (cs2 & Hcs2 & Hc2 & _). destruct (sc_part _ _ _ Hsc2 (f k) cs2 i (ren f c) Hk2 Hcs2 Hc2) as (_ & _ & Hnd2 & _).
          assert (Hr2 : component_refs (ren f c) ≠ []) by (rewrite ren_refs; by destruct (component_refs c)).
          destruct (input_list P get blk e2 p2 (f k) i (ren f c) v2 st2 b1 _ Ht2 Hp2 Hpl2 B1 Hr2 Hnd2 Hio2) as (sh2 & Ho2).
          split; [|by left]. assert (Hoo : o = node_order st2) by (rewrite Ho, reord_order; [done|by apply keyed_order]).
          assert (Hord : Forall2 (pair_up e1 e2) (node_order st1) o).
          { rewrite Hoo, Ho1, Ho2, ren_refs. apply Forall2_app; [by eapply pair_pred|]. apply pair_targets. intros r Hrr. destruct (Hrefs r Hrr) as (? & ? & _). done. }
          apply gproc_keyed; [done| |done| |].
          * intros q q' -> ->. inversion Hin as [|? ? ? ? [_ Hq] _]; subst. exact Hq.
          * intros x. apply (match_ord (pair_up e1 e2) pair_fun pair_inj); done.
          * split; intros E; rewrite E in Hord; [by apply Forall2_nil_inv_r in Hord|by apply Forall2_nil_inv_l in Hord].
        + assert (Hp : st1 = Simple NPass).
          { destruct st1 as [st1|]; [|clear -Hcls; cbn in Hcls; discriminate Hcls]. destruct st1; try (exfalso; clear -Hcls; cbn in Hcls; discriminate Hcls). done. }
          assert (Hlen : length inp1 <= 1).
          { destruct (Hrefs r) as (Hdots & HK & _); [by left|]. destruct (k_ids P get blk K rk e1 p1 Ht1 Hp1 Hsc1 r HK) as (cs' & ids & _ & Hids & _ & Hne).
            destruct (last ids) as [u|] eqn:El; [|by apply last_None in El].
            apply (single_input inp1 u A4). intros x bs Hx. apply A5 in Hx as (Hf & _).
            destruct Hf as [(j' & Hj & _)|(r' & k' & Hr' & Href & (ids' & Hids' & Hl'))]; [done|].
            apply elem_of_list_singleton in Hr' as ->. unfold refers in Href. rewrite (plain_ref r Hdots) in Href. subst k'. rewrite Hids in Hids'. injection Hids' as <-. congruence. }
          split; [|right; lia]. subst st1. destruct inp1 as [|[u1 bs] [|? inp1]]; [| |cbn in Hlen; lia].
          * inversion Hin; subst. apply gproc_reord; [cbn; lia|by left|done].
          * inversion Hin as [|? [u2 bs2] ? ? [Hpr Hbs] Hin']; subst. inversion Hin'; subst. cbn [fst snd] in Hpr, Hbs. subst bs2. by apply gproc_one.
    Qed.
  End two.
End elsewhere.

Section sessions.
  Context (P : platform) (get : string -> outcome (gmap string (list component))) (blk : Z).
  Notation L := (glang P get).
  Notation engine := (engine (glang P get)).
  Notation prog := (gmap string (list component)).
  Notation alike := (alike P).

  (** ** One engine *)

  (** Where the components of an accepted program come from. *)
  Lemma edit_origin o (e e' : engine) (new : prog) : tamely L blk e -> prog_ok L new -> Props_Update.plain_edit (L := L) (old_ast L e) new -> update_ast L o e new = Ok (e', None) ->
    en_ast L e' = Some new /\ forall k j b v', placed L (en_info L e') new k j b v' ->
      (exists (olds : list (comp L)) i (a : comp L) v (w w' : gnode P * list sig), old_ast L e !! k = Some olds /\ olds !! i = Some a /\ component_eqb a b = true /\ owner (en_info L e) v k i /\ v' = v /\
         node_weight (en_graph L e) v = Some w /\ node_weight (en_graph L e') v' = Some w' /\ alike w w') \/
      ((forall (olds : list (comp L)) i (a : comp L), old_ast L e !! k = Some olds -> olds !! i = Some a -> component_eqb a b = false) /\
       exists (w w' : gnode P * list sig) refs, makenode_ P (the_env L e) b = Done (w, refs) /\ node_weight (en_graph L e') v' = Some w' /\ alike w w').
  Proof.
    intros Ht Hpo Hpl Hu. destruct (tamely_inv L (glang_ok P get) _ _ Ht) as (He & Hal & _).
    pose proof (tame_update_result L (glang_ok P get) _ _ _ _ He Hal Hpo (Props_Update.plain_tame L (glang_ok P get) _ _ Hpl) Hu) as R.
    split; [apply (re_ast _ _ _ _ _ R)|]. intros k j b v' Hpb. pose proof Hpb as (news & Hnews & Hb & Hown).
    destruct (decide (is_new L (old_ast L e) k b)) as [Hn|Hn].
    - right. split.
      + intros olds i a Ho Hi. destruct (component_eqb a b) eqn:E; [|done]. exfalso. apply Hn. unfold occurs_old, olds_of. rewrite Ho. cbn [default].
        apply existsb_exists. exists a. split; [by apply elem_of_list_In, elem_of_list_lookup_2 with i|exact E].
      + destruct (re_new _ _ _ _ _ R k j b v' Hpb Hn) as (_ & w & refs & st & Hmk & Hf & Hw). exists w, (st, w.2), refs. split_and!; [exact Hmk|exact Hw|].
        split; [done|]. exists (node_order st). cbn [fst]. eapply conns_reord; [|exact Hf]. apply trace_conn.
    - left. assert (Hoc : occurs_old L (olds_of L (old_ast L e) k) b) by (destruct (decide (occurs_old L (olds_of L (old_ast L e) k) b)); [done|by destruct Hn]).
      unfold olds_of in Hoc. destruct (old_ast L e !! k) as [olds|] eqn:Ho; [|by cbv in Hoc]. cbn [default] in Hoc.
      apply existsb_exists in Hoc as (a & Ha & Hab). apply elem_of_list_In, elem_of_list_lookup in Ha as [i Hi].
      destruct (Hpl k olds news Ho Hnews) as (H1 & H2 & H3).
      destruct (kept_rank L (glang_ok P get) olds news i j a b) as (Ha & Hb' & Hr); auto.
      { apply keeps_order_intro; auto. apply glang_ok. }
      destruct (al_len _ _ Hal k olds Ho) as (ids & Hids & Hlen). destruct (lookup_lt_is_Some_2 ids i) as [v Hv]; [apply lookup_lt_Some in Hi; rewrite Hlen; exact Hi|].
      assert (Hov : owner (en_info L e) v k i) by (by exists ids).
      destruct (re_kept _ _ _ _ _ R k olds news i j a b v Ho Hnews Hi Hb Ha Hb' Hr Hov) as [Hown' Hst].
      assert (v' = v) as -> by (destruct Hown as (i1 & X1 & Y1), Hown' as (i2 & X2 & Y2); congruence).
      assert (Hl : live (en_graph L e) v) by (apply (ei_live _ _ He); right; right; by exists k, i).
      destruct Hl as [w Hw]. destruct (Hst w Hw) as (st & Hf & Hw'). exists olds, i, a, v, w, (st, w.2).
      split; [done|]. split; [done|]. split; [exact Hab|]. split; [done|]. split; [done|]. split; [done|]. split; [done|]. split; [done|].
      exists (node_order st). cbn [fst]. eapply conns_reord; [|exact Hf]. apply trace_conn.
  Qed.

  (** A call, other than a block, that leaves the chains of [K] alone. *)
  Lemma own_same (K : string -> Prop) e c e' ob : tamely L blk e -> (forall k, K k -> k ≠ input_name) ->
    (forall k (cs : list (comp L)) i (a : comp L), K k -> old_ast L e !! k = Some cs -> cs !! i = Some a -> component_eqb a a = true) ->
    spares P get K e c -> blocks P get c = 0 -> step L blk e c = Ok (e', ob) ->
    tamely L blk e' /\ (forall k, K k -> old_ast L e' !! k = old_ast L e !! k) /\
    forall k i v, K k -> owner (en_info L e') v k i -> owner (en_info L e) v k i /\ exists w w' : gnode P * list sig,
      node_weight (en_graph L e) v = Some w /\ node_weight (en_graph L e') v = Some w' /\ alike w w'.
  Proof.
    intros Ht Hin Hrefl Hs Hb Hst. destruct (tamely_inv L (glang_ok P get) _ _ Ht) as (He & Hal & _).
    assert (Ht' : tamely L blk e') by (eapply tm_step; [exact Ht|by apply (spares_tame P get K)|exact Hst]).
    split; [done|].
    assert (Hfix : en_ast L e' = en_ast L e -> en_info L e' = en_info L e -> (forall k i v, K k -> owner (en_info L e) v k i -> node_weight (en_graph L e') v = node_weight (en_graph L e) v) ->
      (forall k, K k -> old_ast L e' !! k = old_ast L e !! k) /\ forall k i v, K k -> owner (en_info L e') v k i -> owner (en_info L e) v k i /\ exists w w' : gnode P * list sig,
      node_weight (en_graph L e) v = Some w /\ node_weight (en_graph L e') v = Some w' /\ alike w w').
    { intros E1 E2 E3. split; [intros k _; unfold old_ast; by rewrite E1|]. rewrite E2. intros k i v Hk Hv. split; [done|].
      assert (Hl : live (en_graph L e) v) by (apply (ei_live _ _ He); right; right; by exists k, i). destruct Hl as [w Hw].
      exists w, w. split_and!; [done|by rewrite (E3 k i v Hk Hv)|apply alike_refl]. }
    destruct c as [o code|shs ins|c m|nm s|b|sr|sd|]; try done; cbn [step] in Hst; try (injection Hst as <- <-; by apply Hfix).
    2: { destruct (send_msg L c e m) as [em|] eqn:Em; [|done]. injection Hst as <- <-. destruct (message_spares P get K c e em m He Hs Em) as (_ & E1 & E2 & E3). by apply Hfix. }
    cbn [spares] in Hs. unfold update in Hst, Hs. destruct (parse code) as [new|er|] eqn:Epc; [| |done].
    2: { injection Hst as <- <-. by apply Hfix. }
    destruct (Hs new eq_refl) as (Hpo & Hpl & Hag). destruct (update_ast L o e new) as [[e1 [er|]]|] eqn:E; [| |done]; injection Hst as <- <-.
    { apply update_ast_fail in E; [|done]. destruct E as [E1 E2 E3 E4 E5 E6 _ _ _ _ _ _]. by apply Hfix. }
    specialize (Hag (ex_intro _ e1 eq_refl)).
    destruct (edit_origin o e e1 new Ht Hpo Hpl E) as (Hnew & Hor).
    assert (Hold' : old_ast L e1 = new) by (unfold old_ast; by rewrite Hnew).
    split; [intros k Hk; rewrite Hold'; by apply Hag|]. intros k j v' Hk Hv'.
    destruct (tamely_inv L (glang_ok P get) _ _ Ht') as (He' & Hal' & _).
    destruct (new !! k) as [news|] eqn:En.
    2: { exfalso. destruct Hv' as (ids & Hi & _). apply (Hin k Hk). eapply (al_only _ _ Hal'); [exact Hi|by rewrite Hold']. }
    destruct (al_len _ _ Hal' k news) as (ids & Hids & Hlen); [by rewrite Hold'|]. pose proof Hv' as (ids' & Hids' & Hj). rewrite Hids in Hids'. injection Hids' as <-.
    destruct (lookup_lt_is_Some_2 news j) as [b Hbj]; [apply lookup_lt_Some in Hj; rewrite <- Hlen; exact Hj|].
    pose proof (Hag k Hk) as Hak. rewrite En in Hak. symmetry in Hak. pose proof (Hrefl k news j b Hk Hak Hbj) as Hbb.
    destruct (Hor k j b v') as [(olds & i & a & v & w & w' & Ho & Hi & Hab & Hov & -> & Hw & Hw' & Hal2)|(Hno & _)]; [by exists news| |].
    - rewrite Hak in Ho. injection Ho as <-. destruct (Hpl k news news Hak En) as (_ & Hnr & _).
      assert (i = j) as -> by (by eapply (Hnr i j)). split; [done|]. by exists w, w'.
    - rewrite (Hno news j b Hak Hbj) in Hbb. done.
  Qed.

  (** ** Two engines *)
  Context (K : string -> Prop) (f g : string -> string) (Hren : renaming K f g) (Hin : forall k, K k -> k ≠ input_name /\ f k ≠ input_name).
  Lemma ren_eqb_iff a b : (forall r, r ∈ component_refs a -> K r) -> (forall r, r ∈ component_refs b -> K r) -> component_eqb (ren f a) (ren f b) = component_eqb a b.
  Proof.
    assert (Hs : forall r r', K r -> K r' -> seqb (f r) (f r') = seqb r r').
    { intros r r' Hr Hr'. unfold seqb. destruct (String.eqb_spec r r') as [->|Hn]; [apply String.eqb_refl|]. apply String.eqb_neq. intros E. apply Hn. by apply (f_inj K f g Hren). }
    assert (Hn : forall p q, (forall r, r ∈ numref_refs p -> K r) -> (forall r, r ∈ numref_refs q -> K r) -> numref_eqb (ren_num f p) (ren_num f q) = numref_eqb p q).
    { intros [|r] [|r'] H H'; try done. apply Hs; [apply H|apply H']; by left. }
    assert (Hu : forall p q, (forall r, r ∈ usizeref_refs p -> K r) -> (forall r, r ∈ usizeref_refs q -> K r) -> usizeref_eqb (ren_usz f p) (ren_usz f q) = usizeref_eqb p q).
    { intros [|r] [|r'] H H'; try done. apply Hs; [apply H|apply H']; by left. }
    intros Ha Hb. destruct a, b; cbn [ren component_eqb component_refs] in *; try done; try (by apply Hn); try (by apply Hu);
      try (by match goal with |- context [match ?sg with SigRef _ => _ | _ => _ end] => destruct sg end).
    - revert events0 Hb. induction events as [|[t u] evs IH]; intros [|[t' u'] evs'] Hb; try done. cbn [map list_eqb List.concat] in *. unfold pair_eqb. cbn [fst snd] in *.
      rewrite Hu, IH; [done|..]; intros r Hr; first [apply Ha; apply elem_of_app; tauto|apply Hb; apply elem_of_app; tauto].
    - revert events0 Hb. induction events as [|u evs IH]; intros [|u' evs'] Hb; try done. cbn [map list_eqb List.concat] in *.
      rewrite Hn, IH; [done|..]; intros r Hr; first [apply Ha; apply elem_of_app; tauto|apply Hb; apply elem_of_app; tauto].
    - revert nodes0 Hb. induction nodes as [|u l IH]; intros [|u' l'] Hb; try done. cbn [map list_eqb].
      rewrite Hs, IH; [done|..]; try (apply Ha; by left); try (apply Hb; by left); intros r Hr; first [apply Ha; by right|apply Hb; by right].
    - destruct sg, sg0; try done. cbn [component_eqb signal_eqb]. rewrite Hs; [done|apply Ha|apply Hb]; by left.
    - rewrite !Hs; [done|apply Ha|apply Hb|apply Ha|apply Hb]; try (by left); right; by left.
    - by rewrite Hn.
    - by rewrite Hn.
    - apply Hs; [apply Ha|apply Hb]; by left.
  Qed.

  Definition text (e : engine) : prog := old_ast L e.
  (** What a component of the group may be. *)
  Definition fit (c : component) : Prop := (forall evs, c ≠ CArrange evs) /\ component_eqb c c = true /\ (forall r, r ∈ component_refs c -> K r) /\
    (forall evs, c = CSeq evs -> forall r, r ∈ component_refs c -> f r = r).
  Definition fits (p : prog) : Prop := forall k cs i c, K k -> p !! k = Some cs -> cs !! i = Some c -> fit c.
  Definition corresponds (p1 p2 : prog) : Prop := forall k, K k -> p2 !! f k = map (ren f) <$> p1 !! k.
  Record tie (e1 e2 : engine) : Prop := {
    ti_1 : tamely L blk e1;
    ti_2 : tamely L blk e2;
    ti_text : corresponds (text e1) (text e2);
    ti_fit : fits (text e1);
    ti_same : same_at P get K f e1 e2
  }.
  Lemma has_text e k i v : tamely L blk e -> owner (en_info L e) v k i -> k ≠ input_name -> exists (cs : list component) (c : component), text e !! k = Some cs /\ cs !! i = Some c /\ placed L (en_info L e) (text e) k i c v.
  Proof.
    intros Ht Hv Hk. destruct (tamely_inv L (glang_ok P get) _ _ Ht) as (He & Hal & _). pose proof Hv as (ids & Hi & Hx).
    destruct (old_ast L e !! k) as [cs|] eqn:E; [|by destruct (Hk (al_only _ _ Hal k ids Hi E))].
    destruct (al_len _ _ Hal k cs E) as (ids' & Hi' & Hl). rewrite Hi in Hi'. injection Hi' as <-.
    destruct (lookup_lt_is_Some_2 cs i) as [c Hc]; [apply lookup_lt_Some in Hx; rewrite <- Hl; exact Hx|]. exists cs, c. split_and!; [exact E|exact Hc|by exists cs].
  Qed.
  Lemma tie_start e1 e2 : tamely L blk e1 -> tamely L blk e2 -> (forall k, K k -> text e1 !! k = None /\ text e2 !! f k = None) -> tie e1 e2.
  Proof.
    intros Ht1 Ht2 Hno. split; [done|done|..].
    - intros k Hk. destruct (Hno k Hk) as [-> ->]. done.
    - intros k cs i c Hk H. destruct (Hno k Hk) as [E _]. by rewrite E in H.
    - intros u1 u2 (k & i & Hk & O1 & O2). destruct (has_text e1 k i u1 Ht1 O1) as (cs & c & H & _); [by apply Hin|]. destruct (Hno k Hk) as [E _]. by rewrite E in H.
  Qed.
  Lemma fit_there e1 e2 : corresponds (text e1) (text e2) -> fits (text e1) -> forall k (cs : list (comp L)) i (a : comp L), there K f g k -> old_ast L e2 !! k = Some cs -> cs !! i = Some a -> component_eqb a a = true.
  Proof.
    intros Hc Hf k cs i a [Hk Hg] Ho Hi. assert (E : text e2 !! k = Some (cs : list component)) by exact Ho. rewrite <- Hg, (Hc _ Hk) in E. destruct (text e1 !! g k) as [cs1|] eqn:E1; [|done]. injection E as <-.
    assert (E2 : (ren f <$> cs1) !! i = Some (a : component)) by exact Hi. rewrite list_lookup_fmap in E2. destruct (cs1 !! i) as [c|] eqn:E3; [|done]. injection E2 as <-. apply ren_eqb. by apply (Hf _ _ _ _ Hk E1 E3).
  Qed.
  Lemma tie_left e1 e2 c e1' ob : tie e1 e2 -> spares P get K e1 c -> blocks P get c = 0 -> step L blk e1 c = Ok (e1', ob) -> tie e1' e2.
  Proof.
    intros [Ht1 Ht2 Hc Hf Hs] Hsp Hb Hst. destruct (own_same K e1 c e1' ob Ht1 (fun k Hk => proj1 (Hin k Hk))) as (Ht1' & Ho & Hw); [|done..|].
    { intros k cs i a Hk H1 H2. by apply (Hf k cs i a Hk). }
    assert (Ho' : forall k, K k -> text e1' !! k = text e1 !! k) by exact Ho. split; [done|done|..].
    - intros k Hk. rewrite (Hc k Hk). by rewrite Ho'.
    - intros k cs i a Hk H1 H2. rewrite Ho' in H1 by done. by eapply Hf.
    - intros u1 u2 (k & i & Hk & O1 & O2). destruct (Hw k i u1 Hk O1) as (O & w & w' & W1 & W2 & A). destruct (Hs u1 u2) as (w1 & w2 & X1 & X2 & B); [by exists k, i|].
      assert (w1 = w) as -> by (assert (E : Some w1 = Some w) by exact (eq_trans (eq_sym X1) W1); by injection E).
      exists w', w2. split_and!; [done|done|]. eapply alike_trans; [by apply alike_sym|done].
  Qed.
  Lemma tie_right e1 e2 c e2' ob : tie e1 e2 -> spares P get (there K f g) e2 c -> blocks P get c = 0 -> step L blk e2 c = Ok (e2', ob) -> tie e1 e2'.
  Proof.
    intros [Ht1 Ht2 Hc Hf Hs] Hsp Hb Hst. destruct (own_same (there K f g) e2 c e2' ob Ht2) as (Ht2' & Ho & Hw); [| |done..|].
    { intros k [Hk Hg]. rewrite <- Hg. by apply Hin. }
    { by apply (fit_there e1 e2). }
    assert (Ho' : forall k, K k -> text e2' !! f k = text e2 !! f k) by (intros k Hk; apply Ho; by apply there_of). split; [done|done|..].
    - intros k Hk. rewrite (Ho' k Hk). by apply Hc.
    - done.
    - intros u1 u2 (k & i & Hk & O1 & O2). destruct (Hw (f k) i u2) as (O & w & w' & W1 & W2 & A); [by apply there_of|done|]. destruct (Hs u1 u2) as (w1 & w2 & X1 & X2 & B); [by exists k, i|].
      assert (w2 = w) as -> by (assert (E : Some w2 = Some w) by exact (eq_trans (eq_sym X2) W1); by injection E).
      exists w1, w'. split_and!; [done|done|]. by eapply alike_trans.
  Qed.
  Lemma tie_edit o1 o2 e1 e2 e1' e2' (new1 new2 : prog) : tie e1 e2 -> the_env L e1 = the_env L e2 ->
    prog_ok L new1 -> Props_Update.plain_edit (L := L) (old_ast L e1) new1 -> update_ast L o1 e1 new1 = Ok (e1', None) -> tamely L blk e1' ->
    prog_ok L new2 -> Props_Update.plain_edit (L := L) (old_ast L e2) new2 -> update_ast L o2 e2 new2 = Ok (e2', None) -> tamely L blk e2' ->
    corresponds new1 new2 -> fits new1 -> tie e1' e2'.
  Proof.
    intros [Ht1 Ht2 Hc Hf Hs] Henv Hpo1 Hpl1 Hu1 Ht1' Hpo2 Hpl2 Hu2 Ht2' Hc' Hf'.
    destruct (edit_origin o1 e1 e1' new1 Ht1 Hpo1 Hpl1 Hu1) as (Hn1 & Hor1). destruct (edit_origin o2 e2 e2' new2 Ht2 Hpo2 Hpl2 Hu2) as (Hn2 & Hor2).
    assert (E1 : text e1' = new1) by (unfold text, old_ast; by rewrite Hn1). assert (E2 : text e2' = new2) by (unfold text, old_ast; by rewrite Hn2).
    split; [done|done|by rewrite E1, E2|by rewrite E1|]. intros u1 u2 (k & j & Hk & O1 & O2).
    destruct (has_text e1' k j u1 Ht1' O1) as (news & b & Hnews & Hb & Hpb); [by apply Hin|]. rewrite E1 in Hnews, Hpb.
    destruct (has_text e2' (f k) j u2 Ht2' O2) as (news2 & b2 & Hnews2 & Hb2 & Hpb2); [by apply Hin|]. rewrite E2 in Hnews2, Hpb2.
    rewrite (Hc' k Hk), Hnews in Hnews2. injection Hnews2 as <-. change (map (ren f) news) with (ren f <$> news) in Hb2. rewrite list_lookup_fmap, Hb in Hb2. injection Hb2 as <-.
    destruct (Hf' k news j b Hk Hnews Hb) as (Hna & _ & Hrb & Hsq).
    destruct (Hor1 k j b u1 Hpb) as [(olds & i & a & v & w & w' & Ho & Hi & Hab & Hov & -> & Hw & Hw' & Hal)|(Hno & w & w' & refs & Hmk & Hw' & Hal)];
    destruct (Hor2 (f k) j (ren f b) u2 Hpb2) as [(olds2 & i2 & a2 & v2 & x & x' & Ho2 & Hi2 & Hab2 & Hov2 & -> & Hx & Hx' & Hal2)|(Hno2 & x & x' & refs2 & Hmk2 & Hx' & Hal2)].
    all: change (comp L) with component in *.
    - assert (Ho1 : text e1 !! k = Some (olds : list component)) by exact Ho. assert (Ho2' : text e2 !! f k = Some (olds2 : list component)) by exact Ho2. rewrite (Hc k Hk), Ho1 in Ho2'. injection Ho2' as <-.
      assert (Hi2' : (ren f <$> olds) !! i2 = Some (a2 : component)) by exact Hi2. rewrite list_lookup_fmap in Hi2'. destruct (olds !! i2) as [a'|] eqn:Ea'; [|done]. injection Hi2' as <-.
      rewrite ren_eqb_iff in Hab2; [|by apply (Hf k olds i2 a' Hk)|done].
      destruct (Hpl1 k olds news Ho Hnews) as (Hnr & _ & _).
      assert (i = i2) as <-.
      { apply (Hnr i i2 a a' Hi Ea'). apply (lo_trans L (glang_ok P get) a b a'); [exact Hab|]. apply (lo_sym L (glang_ok P get)). exact Hab2. }
      destruct (Hs v v2) as (w1 & w2 & X1 & X2 & B); [by exists k, i|].
      assert (w1 = w) as -> by (assert (E : Some w1 = Some w) by exact (eq_trans (eq_sym X1) Hw); by injection E).
      assert (w2 = x) as -> by (assert (E : Some w2 = Some x) by exact (eq_trans (eq_sym X2) Hx); by injection E).
      exists w', x'. split_and!; [done|done|]. eapply alike_trans; [by apply alike_sym|]. by eapply alike_trans.
    - exfalso. assert (Ho1 : text e1 !! k = Some (olds : list component)) by exact Ho. assert (Ho2 : text e2 !! f k = Some (map (ren f) olds)) by (rewrite (Hc k Hk), Ho1; done).
      assert (Hi2 : (ren f <$> olds) !! i = Some (ren f a)) by (rewrite list_lookup_fmap; change (comp L) with component in Hi; by rewrite Hi).
      pose proof (Hno2 _ i (ren f a) Ho2 Hi2) as X. rewrite ren_eqb_iff in X; [|by apply (Hf k olds i a Hk)|done]. congruence.
    - exfalso. assert (Ho2' : text e2 !! f k = Some (olds2 : list component)) by exact Ho2. rewrite (Hc k Hk) in Ho2'. destruct (text e1 !! k) as [olds|] eqn:Ho; [|done]. injection Ho2' as <-.
      assert (Hi2' : (ren f <$> olds) !! i2 = Some (a2 : component)) by exact Hi2. rewrite list_lookup_fmap in Hi2'. destruct (olds !! i2) as [a'|] eqn:Ea'; [|done]. injection Hi2' as <-.
      rewrite ren_eqb_iff in Hab2; [|by apply (Hf k olds i2 a' Hk)|done]. pose proof (Hno olds i2 a' Ho Ea') as X. congruence.
    - rewrite <- Henv in Hmk2. assert (x = w) as ->.
      { eapply ren_make; [exact Hna| |exact Hmk|exact Hmk2]. intros evs Hev. apply ren_fix. exact (Hsq evs Hev). }
      exists w', x'. split_and!; [done|done|]. eapply alike_trans; [by apply alike_sym|done].
  Qed.
  (** The chains there are. *)
  Definition now (e : engine) (k : string) : Prop := K k /\ is_Some (text e !! k).
  Lemma now_renaming e : renaming (now e) f g.
  Proof. destruct Hren as [H1 H2 H3]. split; intros k [Hk _]; auto. Qed.
  Lemma now_at e1 e2 : same_at P get K f e1 e2 -> same_at P get (now e1) f e1 e2.
  Proof. intros H u1 u2 (k & i & [Hk _] & O1 & O2). apply H. by exists k, i. Qed.
  Lemma block_frame e shs ins e' out : tamely L blk e -> next_block L blk shs e ins = Ok (e', out) -> tamely L blk e' /\ en_info L e' = en_info L e /\ text e' = text e.
  Proof.
    intros Ht Hn. assert (Hst : step L blk e (CNext L shs ins) = Ok (e', OBlock L out)) by (cbn [step]; by rewrite Hn).
    pose proof (step_frame L _ _ _ _ _ Hst) as (E1 & E2 & _). split_and!; [eapply tm_step; [exact Ht| |exact Hst]; exact I|done|]. unfold text, old_ast. by rewrite E1.
  Qed.
  Lemma there_now e1 e2 : corresponds (text e1) (text e2) -> fits (text e1) -> renamed (now e1) f (text e1) (text e2).
  Proof.
    intros Hc Hf. split; [intros k [Hk _]; by apply Hc|]. intros k cs evs r [Hk _] Hcs Hev Hr. apply elem_of_list_lookup in Hev as [i Hi]. by eapply (Hf k cs i _ Hk Hcs Hi).
  Qed.
  Lemma ast_text e k cs : text e !! k = Some cs -> en_ast L e = Some (text e).
  Proof. unfold text, old_ast. destruct (en_ast L e); [done|]. intros H. change ((∅ : prog) !! k = Some cs) in H. by rewrite lookup_empty in H. Qed.
  Lemma tie_block e1 e2 rk shs1 shs2 ins1 ins2 e1' e2' out1 out2 : tie e1 e2 -> self_contained (now e1) rk (text e1) ->
    next_block L blk shs1 e1 ins1 = Ok (e1', out1) -> next_block L blk shs2 e2 ins2 = Ok (e2', out2) -> tie e1' e2'.
  Proof.
    intros [Ht1 Ht2 Hc Hf Hs] Hsc Hn1 Hn2. destruct (block_frame _ _ _ _ _ Ht1 Hn1) as (Ht1' & I1 & T1). destruct (block_frame _ _ _ _ _ Ht2 Hn2) as (Ht2' & I2 & T2).
    split; [done|done|by rewrite T1, T2|by rewrite T1|]. intros u1 u2 (k & i & Hk & O1 & O2). rewrite I1 in O1. rewrite I2 in O2.
    destruct (has_text e1 k i u1 Ht1 O1) as (cs & c & Hcs & _); [by apply Hin|]. destruct (has_text e2 (f k) i u2 Ht2 O2) as (cs2 & c2 & Hcs2 & _); [by apply Hin|].
    eapply (block_there P get blk (now e1) rk f g (now_renaming e1) e1 e2 (text e1) (text e2) Ht1 Ht2); [by eapply ast_text|by eapply ast_text|done|by apply there_now|by apply now_at|done|done| |done|done].
    split; [done|by exists cs].
  Qed.

  (** ** The same message on both sides *)
  Lemma ids_match e1 e2 k : tie e1 e2 -> K k -> (en_info L e1 !! k = None /\ en_info L e2 !! f k = None) \/
    exists ids1 ids2, en_info L e1 !! k = Some ids1 /\ en_info L e2 !! f k = Some ids2 /\ length ids1 = length ids2.
  Proof.
    intros [Ht1 Ht2 Hc _ _] Hk. destruct (tamely_inv L (glang_ok P get) _ _ Ht1) as (_ & Hal1 & _). destruct (tamely_inv L (glang_ok P get) _ _ Ht2) as (_ & Hal2 & _).
    specialize (Hc k Hk). destruct (text e1 !! k) as [cs|] eqn:E.
    - right. destruct (al_len _ _ Hal1 k cs E) as (ids1 & H1 & L1). destruct (al_len _ _ Hal2 (f k) _ Hc) as (ids2 & H2 & L2). exists ids1, ids2. split_and!; [done|done|].
      rewrite map_length in L2. exact (eq_trans L1 (eq_sym L2)).
    - left. split.
      + destruct (en_info L e1 !! k) as [ids|] eqn:Ei; [|done]. by destruct (proj1 (Hin k Hk) (al_only _ _ Hal1 k ids Ei E)).
      + destruct (en_info L e2 !! f k) as [ids|] eqn:Ei; [|done]. by destruct (proj2 (Hin k Hk) (al_only _ _ Hal2 (f k) ids Ei Hc)).
  Qed.
  Definition same_command (s1 s2 : string) : Prop := exists k rest, K k /\ split_on "," s1 = k :: rest /\ split_on "," s2 = f k :: rest.
  Definition commands (m : string) : list string := filter (fun s => s ≠ EmptyString) (split_on ";" (sfilter (fun ch => negb (is_space ch)) m)).
  (** Two graphs that differ in the messages their nodes got. *)
  Definition on_from (e1 e2 x1 x2 : engine) : Prop := en_info L x1 = en_info L e1 /\ en_info L x2 = en_info L e2 /\ en_ast L x1 = en_ast L e1 /\ en_ast L x2 = en_ast L e2 /\ same_at P get K f x1 x2.
  Lemma alike_msg w1 w2 m st1 st2 : user_msg m -> alike w1 w2 -> gmsg P w1.1 m = Ok st1 -> gmsg P w2.1 m = Ok st2 -> alike (st1, w1.2) (st2, w2.2).
  Proof.
    intros Hu [Hb (o & Ho)] H1 H2. rewrite Ho, (user_reord P o _ _ m Hu H1) in H2. injection H2 as <-. split; [exact Hb|]. by exists o.
  Qed.
  Lemma tie_command e1 e2 c x1 x2 s1 s2 x1' x2' : tie e1 e2 -> on_from e1 e2 x1 x2 -> same_command s1 s2 ->
    send_command L c x1 s1 = Ok x1' -> send_command L c x2 s2 = Ok x2' -> on_from e1 e2 x1' x2'.
  Proof.
    intros Htie Hon (k & rest & Hk & Hs1 & Hs2). pose proof Hon as (I1 & I2 & A1 & A2 & Hs). unfold send_command. rewrite Hs1, Hs2.
    destruct rest as [|b [|d [|v r]]]; try (intros [= <-] [= <-]; done). rewrite I1, I2.
    destruct (ids_match e1 e2 k Htie Hk) as [[-> ->]|(ids1 & ids2 & E1 & E2 & Hl)]; [by intros [= <-] [= <-]|]. rewrite E1, E2.
    set (pos := Z.to_nat (default 0%Z (parse_usize c b))). set (m := match parse_f32 v with Some _ => _ | None => _ end).
    destruct (ids1 !! pos) as [id1|] eqn:P1; [|done]. destruct (ids2 !! pos) as [id2|] eqn:P2; [|done].
    destruct (send_to L (en_graph L x1) id1 m) as [g1|] eqn:G1; [|done]. destruct (send_to L (en_graph L x2) id2 m) as [g2|] eqn:G2; [|done]. intros [= <-] [= <-].
    apply send_to_spec in G1 as (w1 & st1 & W1 & M1 & G1). apply send_to_spec in G2 as (w2 & st2 & W2 & M2 & G2).
    apply set_weight_spec in G1 as (_ & _ & _ & _ & G1). apply set_weight_spec in G2 as (_ & _ & _ & _ & G2).
    split_and!; [done..|]. intros u1 u2 Hu. cbn [en_graph set_graph en_info] in *.
    assert (Hu' : pair_up P get K f e1 e2 u1 u2) by (destruct Hu as (k0 & i0 & H0 & O1 & O2); exists k0, i0; cbn in O1, O2; by rewrite I1 in O1; rewrite I2 in O2).
    assert (Hid : pair_up P get K f e1 e2 id1 id2) by (exists k, pos; split_and!; [done|by exists ids1|by exists ids2]).
    assert (Hid' : pair_up P get K f x1 x2 id1 id2) by (destruct Hid as (k0 & i0 & H0 & O1 & O2); exists k0, i0; by rewrite I1, I2).
    assert (Hux : pair_up P get K f x1 x2 u1 u2) by (destruct Hu' as (k0 & i0 & H0 & O1 & O2); exists k0, i0; by rewrite I1, I2).
    rewrite G1, G2. destruct (decide (u1 = id1)) as [->|Hn].
    - assert (u2 = id2) as -> by (by eapply (pair_fun P get blk K f e1 e2 (ti_1 _ _ Htie))). rewrite !decide_True by done.
      exists (st1, w1.2), (st2, w2.2). split_and!; [done|done|]. destruct (Hs id1 id2 Hid') as (y1 & y2 & Y1 & Y2 & B).
      assert (y1 = w1) as -> by (assert (E : Some y1 = Some w1) by exact (eq_trans (eq_sym Y1) W1); by injection E).
      assert (y2 = w2) as -> by (assert (E : Some y2 = Some w2) by exact (eq_trans (eq_sym Y2) W2); by injection E).
      eapply (alike_msg w1 w2 m); [|done|exact M1|exact M2]. subst m. by destruct (parse_f32 v).
    - assert (u2 ≠ id2) by (intros ->; apply Hn; by eapply (pair_inj P get blk K f g Hren e1 e2 (ti_2 _ _ Htie))). rewrite !decide_False by done. by apply Hs.
  Qed.
  Lemma tie_frame e1 e2 e1' e2' : tie e1 e2 -> tamely L blk e1' -> tamely L blk e2' -> on_from e1 e2 e1' e2' -> tie e1' e2'.
  Proof.
    intros [Ht1 Ht2 Hc Hf Hs] H1 H2 (I1 & I2 & A1 & A2 & Hs'). assert (T1 : text e1' = text e1) by (unfold text, old_ast; by rewrite A1). assert (T2 : text e2' = text e2) by (unfold text, old_ast; by rewrite A2).
    split; [done|done|by rewrite T1, T2|by rewrite T1|done].
  Qed.
  Lemma tie_msg e1 e2 c m1 m2 e1' e2' : tie e1 e2 -> Forall2 same_command (commands m1) (commands m2) ->
    send_msg L c e1 m1 = Ok e1' -> send_msg L c e2 m2 = Ok e2' -> tie e1' e2'.
  Proof.
    intros Htie Hcmd H1 H2. apply (tie_frame e1 e2 e1' e2' Htie).
    - eapply (tm_step _ _ e1 (CMsg L c m1) e1'); [exact (ti_1 _ _ Htie)| |cbn [step]; rewrite H1; reflexivity]. exact I.
    - eapply (tm_step _ _ e2 (CMsg L c m2) e2'); [exact (ti_2 _ _ Htie)| |cbn [step]; rewrite H2; reflexivity]. exact I.
    - change (foldM (send_command L c) e1 (commands m1) = Ok e1') in H1. change (foldM (send_command L c) e2 (commands m2) = Ok e2') in H2.
      assert (Hon : on_from e1 e2 e1 e2) by (split_and!; [done..|apply (ti_same _ _ Htie)]).
      enough (H : forall x1 x2, on_from e1 e2 x1 x2 -> foldM (send_command L c) x1 (commands m1) = Ok e1' -> foldM (send_command L c) x2 (commands m2) = Ok e2' -> on_from e1 e2 e1' e2') by (by apply (H e1 e2)).
      clear H1 H2 Hon. induction Hcmd as [|s1 s2 l1 l2 Hs Hf IH]; intros x1 x2 Hon; cbn [foldM]; [by intros [= <-] [= <-]|].
      destruct (send_command L c x1 s1) as [y1|] eqn:Y1; [|done]. destruct (send_command L c x2 s2) as [y2|] eqn:Y2; [|done]. apply IH. by eapply (tie_command e1 e2 c x1 x2).
  Qed.
  Lemma tie_bpm e1 e2 b e1' e2' : tie e1 e2 -> set_bpm L e1 b = Ok e1' -> set_bpm L e2 b = Ok e2' -> tie e1' e2'.
  Proof.
    intros Htie H1 H2. apply (tie_frame e1 e2 e1' e2' Htie).
    - eapply (tm_step _ _ e1 (CBpm L b) e1'); [exact (ti_1 _ _ Htie)| |cbn [step]; rewrite H1; reflexivity]. exact I.
    - eapply (tm_step _ _ e2 (CBpm L b) e2'); [exact (ti_2 _ _ Htie)| |cbn [step]; rewrite H2; reflexivity]. exact I.
    - unfold set_bpm in H1, H2. destruct (send_to_all L (en_graph L e1) (SetBPM b)) as [g1|] eqn:G1; [|done]. destruct (send_to_all L (en_graph L e2) (SetBPM b)) as [g2|] eqn:G2; [|done].
      injection H1 as <-. injection H2 as <-. apply send_to_all_spec in G1 as (_ & _ & _ & W1). apply send_to_all_spec in G2 as (_ & _ & _ & W2).
      split_and!; [done..|]. intros u1 u2 Hu. cbn [en_graph]. destruct (ti_same _ _ Htie u1 u2 Hu) as (w1 & w2 & X1 & X2 & B).
      specialize (W1 u1). specialize (W2 u2). rewrite X1 in W1. rewrite X2 in W2. destruct W1 as (st1 & M1 & W1), W2 as (st2 & M2 & W2).
      exists (st1, w1.2), (st2, w2.2). split_and!; [done|done|]. by eapply (alike_msg w1 w2 (SetBPM b)).
  Qed.

  (** ** Two sessions *)

  (** [side_by_side e1 e2]: two engines with any pasts, none of the chains in either.  From there
      on the chains are written, edited and sent messages in the same way on both sides (under their
      other names on the second), the blocks are made in step, and in between each side does
      whatever it likes to its other chains.  Node numbers, hash orders, external input and everything
      said about other chains may differ. *)
  Inductive side_by_side : engine -> engine -> Prop :=
  | sb_start e1 e2 : tamely L blk e1 -> tamely L blk e2 -> (forall k, K k -> text e1 !! k = None /\ text e2 !! f k = None) -> side_by_side e1 e2
  | sb_left e1 e2 c e1' ob : side_by_side e1 e2 -> spares P get K e1 c -> blocks P get c = 0 -> step L blk e1 c = Ok (e1', ob) -> side_by_side e1' e2
  | sb_right e1 e2 c e2' ob : side_by_side e1 e2 -> spares P get (there K f g) e2 c -> blocks P get c = 0 -> step L blk e2 c = Ok (e2', ob) -> side_by_side e1 e2'
  | sb_edit e1 e2 o1 o2 t1 t2 (n1 n2 : prog) e1' e2' : side_by_side e1 e2 -> the_env L e1 = the_env L e2 -> get t1 = Done n1 -> get t2 = Done n2 ->
      prog_ok L n1 -> Props_Update.plain_edit (L := L) (old_ast L e1) n1 -> prog_ok L n2 -> Props_Update.plain_edit (L := L) (old_ast L e2) n2 -> corresponds n1 n2 -> fits n1 ->
      update L o1 e1 t1 = Ok (e1', None) -> update L o2 e2 t2 = Ok (e2', None) -> side_by_side e1' e2'
  | sb_msg e1 e2 c m1 m2 e1' e2' : side_by_side e1 e2 -> Forall2 same_command (commands m1) (commands m2) ->
      send_msg L c e1 m1 = Ok e1' -> send_msg L c e2 m2 = Ok e2' -> side_by_side e1' e2'
  | sb_bpm e1 e2 b e1' e2' : side_by_side e1 e2 -> set_bpm L e1 b = Ok e1' -> set_bpm L e2 b = Ok e2' -> side_by_side e1' e2'
  | sb_block e1 e2 rk shs1 shs2 ins1 ins2 e1' e2' out1 out2 : side_by_side e1 e2 -> self_contained (now e1) rk (text e1) ->
      next_block L blk shs1 e1 ins1 = Ok (e1', out1) -> next_block L blk shs2 e2 ins2 = Ok (e2', out2) -> side_by_side e1' e2'.
  Lemma accepted o (e e' : engine) t (n : prog) : tamely L blk e -> get t = Done n -> prog_ok L n -> Props_Update.plain_edit (L := L) (old_ast L e) n -> update L o e t = Ok (e', None) ->
    tamely L blk e' /\ update_ast L o e n = Ok (e', None).
  Proof.
    intros Ht Hg Hpo Hpl Hu. assert (Hp : parse (l := L) t = Done n) by exact Hg. split.
    - eapply (tm_step L blk e (CUpdate L o t) e'); [exact Ht| |cbn [step]; rewrite Hu; reflexivity].
      unfold tame_call. rewrite Hp. split; [done|by apply (Props_Update.plain_tame L (glang_ok P get))].
    - unfold update in Hu. rewrite Hp in Hu. exact Hu.
  Qed.
  Lemma side_tie e1 e2 : side_by_side e1 e2 -> tie e1 e2.
  Proof.
    induction 1 as [e1 e2 H1 H2 Hno|e1 e2 c e1' ob _ IH Hs Hb Hst|e1 e2 c e2' ob _ IH Hs Hb Hst|e1 e2 o1 o2 t1 t2 n1 n2 e1' e2' _ IH Henv Hg1 Hg2 Hpo1 Hpl1 Hpo2 Hpl2 Hc Hf Hu1 Hu2
      |e1 e2 c m1 m2 e1' e2' _ IH Hc H1 H2|e1 e2 b e1' e2' _ IH H1 H2|e1 e2 rk shs1 shs2 ins1 ins2 e1' e2' out1 out2 _ IH Hsc H1 H2].
    - by apply tie_start.
    - by eapply tie_left.
    - by eapply tie_right.
    - destruct (accepted o1 e1 e1' t1 n1 (ti_1 _ _ IH) Hg1 Hpo1 Hpl1 Hu1) as [Ht1 Ha1]. destruct (accepted o2 e2 e2' t2 n2 (ti_2 _ _ IH) Hg2 Hpo2 Hpl2 Hu2) as [Ht2 Ha2].
      exact (tie_edit o1 o2 e1 e2 e1' e2' n1 n2 IH Henv Hpo1 Hpl1 Ha1 Ht1 Hpo2 Hpl2 Ha2 Ht2 Hc Hf).
    - by eapply tie_msg.
    - by eapply tie_bpm.
    - by eapply tie_block.
  Qed.

  (** C81: whatever else the two sessions do, every component of the group puts out the same
      block on both sides. *)
  Theorem C81_side_by_side_partial e1 e2 : side_by_side e1 e2 -> forall k, K k ->
    (text e1 !! k = None /\ text e2 !! f k = None) \/
    exists ids1 ids2, en_info L e1 !! k = Some ids1 /\ en_info L e2 !! f k = Some ids2 /\
      Forall2 (fun v1 v2 => exists s1 s2 b, node_weight (en_graph L e1) v1 = Some (s1, b) /\ node_weight (en_graph L e2) v2 = Some (s2, b)) ids1 ids2.
  Proof.
    intros H%side_tie k Hk. pose proof (ti_text _ _ H k Hk) as Hc. destruct (text e1 !! k) as [cs|] eqn:E; [|by left]. right.
    destruct (ids_match e1 e2 k H Hk) as [[H1 _]|(ids1 & ids2 & H1 & H2 & Hl)].
    { destruct (tamely_inv L (glang_ok P get) _ _ (ti_1 _ _ H)) as (_ & Hal & _). destruct (al_len _ _ Hal k cs E) as (ids & Hi & _). rewrite H1 in Hi. done. }
    exists ids1, ids2. split_and!; [done|done|]. apply Forall2_same_length_lookup_2; [done|]. intros i v1 v2 V1 V2.
    destruct (ti_same _ _ H v1 v2) as ([s1 b1] & [s2 b2] & W1 & W2 & [Hb _]); [exists k, i; split_and!; [done|by exists ids1|by exists ids2]|].
    cbn in Hb. subst b2. by exists s1, s2, b1.
  Qed.

  (** What is heard, when the group is all that is audible: the same signals, added up. *)
  Theorem C81_mix_partial e1 e2 rk shs1 shs2 ins1 ins2 e1' e2' out1 out2 : side_by_side e1 e2 -> self_contained (now e1) rk (text e1) ->
    en_ast L e1 = Some (text e1) -> en_ast L e2 = Some (text e2) -> alone K (text e1) -> alone (there K f g) (text e2) ->
    next_block L blk shs1 e1 ins1 = Ok (e1', out1) -> next_block L blk shs2 e2 ins2 = Ok (e2', out2) ->
    exists inp1 inp2, Permutation (map snd inp1) (map snd inp2) /\ NoDup inp1.*1 /\
      (forall u, u ∈ inp1.*1 -> exists k, now e1 k /\ contains_char "~" k = false /\ chain_end (en_info L e1) k u) /\
      out1 = [map (fun t => foldl fadd f0 (map (contrib 0 t) inp1)) (seq 0 (p_blk P)); map (fun t => foldl fadd f0 (map (contrib 1 t) inp1)) (seq 0 (p_blk P))] /\
      out2 = [map (fun t => foldl fadd f0 (map (contrib 0 t) inp2)) (seq 0 (p_blk P)); map (fun t => foldl fadd f0 (map (contrib 1 t) inp2)) (seq 0 (p_blk P))].
  Proof.
    intros H%side_tie Hsc Hp1 Hp2 Ha1 Ha2 Hn1 Hn2. pose proof H as [Ht1 Ht2 Hc Hf Hs].
    destruct (C21_every_sample P get blk e1 (text e1) shs1 ins1 e1' out1 Ht1 Hp1 Hn1) as (i1 & D1 & M1 & _ & ->).
    destruct (C21_every_sample P get blk e2 (text e2) shs2 ins2 e2' out2 Ht2 Hp2 Hn2) as (i2 & D2 & M2 & _ & ->).
    pose proof (now_renaming e1) as Hrn. pose proof (there_now e1 e2 Hc Hf) as Hrd. pose proof (now_at e1 e2 Hs) as Hsn.
    assert (Hk1 : forall k u, contains_char "~" k = false -> chain_end (en_info L e1) k u -> now e1 k).
    { intros k u Hk (ids & Hi & Hl). rewrite last_lookup in Hl. destruct (has_text e1 k (pred (length ids)) u Ht1) as (cs & c & Hcs & _); [by exists ids|by intros ->|].
      split; [by eapply Ha1|by exists cs]. }
    assert (Hk2 : forall k u, contains_char "~" k = false -> chain_end (en_info L e2) k u -> exists k1, now e1 k1 /\ k = f k1 /\ contains_char "~" k1 = false).
    { intros k u Hk (ids & Hi & Hl). rewrite last_lookup in Hl. destruct (has_text e2 k (pred (length ids)) u Ht2) as (cs & c & Hcs & _); [by exists ids|by intros ->|].
      destruct (Ha2 k cs Hcs Hk) as [HK Hg]. exists (g k). split_and!; [|done|rewrite <- (rn_tilde _ _ _ Hren _ HK), Hg; done].
      split; [done|]. rewrite <- Hg, (Hc _ HK) in Hcs. destruct (text e1 !! g k) as [cs1|]; [by exists cs1|done]. }
    assert (Hw : forall k i u1 u2, now e1 k -> owner (en_info L e1) u1 k i -> owner (en_info L e2) u2 (f k) i -> exists s1 s2 b, node_weight (en_graph L e1') u1 = Some (s1, b) /\ node_weight (en_graph L e2') u2 = Some (s2, b)).
    { intros k i u1 u2 Hk O1 O2. destruct (block_there P get blk (now e1) rk f g Hrn e1 e2 (text e1) (text e2) Ht1 Ht2 Hp1 Hp2 Hsc Hrd _ _ _ _ _ _ _ _ Hsn Hn1 Hn2 k i u1 u2 Hk O1 O2) as ([s1 b1] & [s2 b2] & W1 & W2 & [Hb _]).
      cbn in Hb. subst b2. by exists s1, s2, b1. }
    destruct (match_inputs (pair_up P get (now e1) f e1 e2) (pair_fun P get blk (now e1) f e1 e2 Ht1) (pair_inj P get blk (now e1) f g Hrn e1 e2 Ht2) i1 i2 D1 D2) as (m & Hm & Hperm & _).
    { intros [u1 bs] [(k & Hk & Hend) (su & Hu)]%M1. pose proof (Hk1 k u1 Hk Hend) as Hnow.
      destruct (pair_end P get blk (now e1) rk f g Hrn e1 e2 (text e1) (text e2) Ht1 Ht2 Hp1 Hp2 Hsc Hrd k u1 Hnow Hend) as (u2 & i & Hend2 & O1 & O2).
      destruct (Hw k i u1 u2 Hnow O1 O2) as (s1 & s2 & b & W1 & W2). assert (E : Some (su, bs) = Some (s1, b)) by exact (eq_trans (eq_sym Hu) W1). injection E as -> ->.
      exists (u2, b). split; [|split; [by exists k, i|done]]. apply M2. split; [|by exists s2]. exists (f k). split; [|done]. rewrite (rn_tilde _ _ _ Hren k (proj1 Hnow)). done. }
    { intros [u2 bs] [(k2 & Hk & Hend) (su & Hu)]%M2. destruct (Hk2 k2 u2 Hk Hend) as (k & Hnow & -> & Hkt).
      destruct (pair_end_back P get blk (now e1) rk f g Hrn e1 e2 (text e1) (text e2) Ht1 Ht2 Hp1 Hp2 Hsc Hrd k u2 Hnow Hend) as (u1 & i & Hend1 & O1 & O2).
      destruct (Hw k i u1 u2 Hnow O1 O2) as (s1 & s2 & b & W1 & W2). assert (E : Some (su, bs) = Some (s2, b)) by exact (eq_trans (eq_sym Hu) W2). injection E as -> ->.
      exists (u1, b). split; [|split; [by exists k, i|done]]. apply M1. split; [by exists k|by exists s1]. }
    exists i1, i2. split_and!; [|done| |done|done].
    - assert (E : map snd i1 = map snd m) by (clear -Hm; induction Hm as [|p q l l' [_ Hq] _ IH]; [done|]; cbn [map]; by rewrite Hq, IH). rewrite E. by apply Permutation_map.
    - intros u ([u' bs] & -> & [(k & Hk & Hend) _]%M1)%elem_of_list_fmap. exists k. split_and!; [by apply (Hk1 k u' Hk Hend)|done|done].
  Qed.
  (** With one or two audible chains, the same block, bit for bit. *)
  Theorem C81_heard_partial e1 e2 rk shs1 shs2 ins1 ins2 e1' e2' out1 out2 a b : side_by_side e1 e2 -> self_contained (now e1) rk (text e1) ->
    en_ast L e1 = Some (text e1) -> en_ast L e2 = Some (text e2) -> alone K (text e1) -> alone (there K f g) (text e2) ->
    (forall k, now e1 k -> contains_char "~" k = false -> k = a \/ k = b) ->
    next_block L blk shs1 e1 ins1 = Ok (e1', out1) -> next_block L blk shs2 e2 ins2 = Ok (e2', out2) -> out1 = out2.
  Proof.
    intros H Hsc Hp1 Hp2 Ha1 Ha2 Hab Hn1 Hn2.
    destruct (C81_mix_partial e1 e2 rk shs1 shs2 ins1 ins2 e1' e2' out1 out2 H Hsc Hp1 Hp2 Ha1 Ha2 Hn1 Hn2) as (i1 & i2 & Hperm & Hnd & Hin1 & -> & ->).
    assert (Hlen : length i1 <= 2).
    { rewrite <- (fmap_length fst i1).
      set (ea := match en_info L e1 !! a with Some ids => last ids | None => None end). set (eb := match en_info L e1 !! b with Some ids => last ids | None => None end).
      assert (Hsub : Some <$> i1.*1 ⊆ [ea; eb]).
      { intros x (u & -> & Hu)%elem_of_list_fmap. destruct (Hin1 u Hu) as (k & HK & Hk & ids & Hi & Hl).
        rewrite elem_of_cons, elem_of_list_singleton. destruct (Hab k HK Hk) as [->| ->]; [left|right]; subst ea eb; rewrite Hi, Hl; reflexivity. }
      rewrite <- (fmap_length Some i1.*1). apply (submseteq_length _ [ea; eb]). apply NoDup_submseteq; [|done]. apply NoDup_fmap_2; [apply _|done]. }
    set (cn := fun (ch t : nat) (bs : list sig) => default f0 (default (default [] (bs !! 0)) (bs !! ch) !! t)).
    assert (Hcn : forall ch t (l : inmap), map (contrib ch t) l = map (cn ch t) (map snd l)) by (intros ch t l; by rewrite map_map).
    destruct (perm_two (map snd i1) (map snd i2) Hperm) as [E|(x & y & E1 & E2)]; [by rewrite map_length| |].
    - f_equal; [|f_equal]; apply map_ext; intros t; by rewrite !Hcn, E.
    - f_equal; [|f_equal]; apply map_ext; intros t; rewrite !Hcn, E1, E2; cbn [map foldl]; apply mix2_comm.
  Qed.
End sessions.

(** ** A case *)
From Verif Require Import Session.
Local Open Scope nat_scope.
Definition ew_f (k : string) : string := if String.eqb k "~a" then "~b"%string else if String.eqb k "o" then "p"%string else k.
Definition ew_g (k : string) : string := if String.eqb k "~b" then "~a"%string else if String.eqb k "p" then "o"%string else k.
(** The second engine has played something else before, and still holds it when the chains
    arrive, under other names, below it. *)
Definition ew_before : string := "~x: sig 5
q: sig 1 >> mul ~x".
Definition ew_text : string := "~x: sig 5
q: sig 1 >> mul ~x
~b: sig 2 >> add 1
p: sig 3 >> mul ~b".
Definition ew_after : string := "~x: sig 5
~b: sig 2 >> add 1
p: sig 3 >> mul ~b".
Definition ew_1 : engine glicol := is_run (engine_new glicol) [submit is_text].
Definition ew_2 : engine glicol := is_run ew_1 [play_block].
Definition ew_3 : engine glicol := is_run ew_2 [CMsg glicol c64 "o,0,0,4"].
Definition ew_4 : engine glicol := is_run ew_3 [play_block].
Definition ew_b0 : engine glicol := is_run (engine_new glicol) [submit ew_before; play_block].
Definition ew_b1 : engine glicol := is_run ew_b0 [submit ew_text].
Definition ew_b2 : engine glicol := is_run ew_b1 [play_block].
Definition ew_b3 : engine glicol := is_run ew_b2 [CMsg glicol c64 "p,0,0,4"].
Definition ew_b4 : engine glicol := is_run ew_b3 [submit ew_after].
Definition ew_b5 : engine glicol := is_run ew_b4 [play_block].
Lemma ew_renaming : renaming is_ours ew_f ew_g.
Proof. split; intros k [->| ->]; try reflexivity; intros _; by repeat constructor. Qed.
Lemma ew_input k : is_ours k -> k ≠ input_name /\ ew_f k ≠ input_name.
Proof. by intros [->| ->]. Qed.
Lemma ew_there k : there is_ours ew_f ew_g k -> k = "~b"%string \/ k = "p"%string.
Proof. intros [[H|H] E]; rewrite H in E; vm_compute in E; subst k; auto. Qed.
Notation ew_side := (side_by_side demo (get_ast c64 no_math) 8 is_ours ew_f ew_g).
Lemma ew_edit (e1 e2 : engine glicol) t1 t2 : ew_side e1 e2 -> the_env glicol e1 = the_env glicol e2 ->
  match update glicol id_orders e1 t1, update glicol id_orders e2 t2 with Ok (_, None), Ok (_, None) => true | _, _ => false end = true ->
  match tame_run glicol 8 e1 [submit t1], tame_run glicol 8 e2 [submit t2] with Some _, Some _ => true | _, _ => false end = true ->
  match parse (l := glicol) t1, parse (l := glicol) t2 with
  | Done n1, Done n2 => prog_ok_b glicol n1 = true /\ plain_b glicol (old_ast glicol e1) n1 = true /\ prog_ok_b glicol n2 = true /\ plain_b glicol (old_ast glicol e2) n2 = true /\
      n1 !! "~a"%string = Some is_a /\ n1 !! "o"%string = Some is_o /\ n2 !! "~b"%string = Some is_a /\ n2 !! "p"%string = Some (map (ren ew_f) is_o)
  | _, _ => False end -> ew_side (is_run e1 [submit t1]) (is_run e2 [submit t2]).
Proof.
  intros H Henv Hu Hr Hp. destruct (is_step e1 (submit t1)) as [b1 S1]; [by destruct (tame_run glicol 8 e1 [submit t1])|].
  destruct (is_step e2 (submit t2)) as [b2 S2]; [by destruct (tame_run glicol 8 e1 [submit t1]), (tame_run glicol 8 e2 [submit t2])|].
  set (e1' := is_run e1 _) in *. set (e2' := is_run e2 _) in *. clearbody e1' e2'. unfold submit in S1, S2. cbn [step] in S1, S2. clear Hr.
  destruct (parse t1) as [n1| |] eqn:E1; [|done..]. destruct (parse t2) as [n2| |] eqn:E2; [|done..]. destruct Hp as (P1 & Q1 & P2 & Q2 & A1 & O1 & A2 & O2).
  destruct (update glicol id_orders e1 t1) as [[x1 [err|]]|] eqn:U1; [done| |done]. destruct (update glicol id_orders e2 t2) as [[x2 [err|]]|] eqn:U2; [done| |done]. injection S1 as -> _. injection S2 as -> _.
  eapply (sb_edit _ _ _ _ _ _ e1 e2 id_orders id_orders t1 t2 n1 n2); [exact H|exact Henv|exact E1|exact E2|by apply prog_ok_b_spec|by apply plain_b_spec|by apply prog_ok_b_spec|by apply plain_b_spec| | |exact U1|exact U2].
  - intros k [->| ->]; [exact (eq_trans A2 (eq_sym (f_equal (fmap (map (ren ew_f))) A1)))|exact (eq_trans O2 (eq_sym (f_equal (fmap (map (ren ew_f))) O1)))].
  - intros k cs i c [->| ->] Hk Hi; [assert (E : Some cs = Some is_a) by exact (eq_trans (eq_sym Hk) A1)|assert (E : Some cs = Some is_o) by exact (eq_trans (eq_sym Hk) O1)]; injection E as ->;
      destruct i as [|[|i]]; [..|done| | |done]; injection Hi as <-; (split_and!; [discriminate|reflexivity| |discriminate]); intros r; try (intros Hr%elem_of_nil; done). intros ->%elem_of_list_singleton. by left.
Qed.
Lemma in_use_iff (K K' : string -> Prop) p k : (forall k, K k <-> K' k) -> in_use K p k -> in_use K' p k.
Proof. intros H. induction 1 as [k Hk Hc|k k' cs c Hk Hu IH Hk' Hp Hc Hr]; [constructor; [by apply H|done]|]. eapply iu_ref; [by apply H|exact IH|by apply H|done..]. Qed.
Lemma self_contained_iff (K K' : string -> Prop) rk p : (forall k, K k <-> K' k) -> self_contained K rk p -> self_contained K' rk p.
Proof.
  intros H [H1 H2 H3]. split.
  - intros k Hk%H. by apply H1.
  - intros k Hk%H. eapply in_use_iff; [exact H|]. by apply H2.
  - intros k cs i c Hk%H Hp Hi. destruct (H3 k cs i c Hk Hp Hi) as (A & B & C & D). split_and!; [done..|]. intros r Hr. destruct (D r Hr) as (D1 & D2 & D3). split_and!; [done|by apply H|done].
Qed.
Notation ew_now := (now demo (get_ast c64 no_math) is_ours).
Lemma ew_contained (e : engine glicol) : old_ast glicol e !! "~a"%string = Some is_a -> old_ast glicol e !! "o"%string = Some is_o -> self_contained (ew_now e) is_rank (old_ast glicol e).
Proof.
  intros Ha Ho. eapply self_contained_iff; [|by apply is_contained]. intros k. split; [|by intros [Hk _]]. intros [->| ->]; split; [by left|by exists is_a|by right|by exists is_o].
Qed.
Lemma ew_block (e1 e2 : engine glicol) : ew_side e1 e2 -> old_ast glicol e1 !! "~a"%string = Some is_a -> old_ast glicol e1 !! "o"%string = Some is_o ->
  match tame_run glicol 8 e1 [play_block], tame_run glicol 8 e2 [play_block] with Some _, Some _ => true | _, _ => false end = true -> ew_side (is_run e1 [play_block]) (is_run e2 [play_block]).
Proof.
  intros H Ha Ho Hr. destruct (is_step e1 play_block) as [b1 S1]; [by destruct (tame_run glicol 8 e1 [play_block])|]. destruct (is_step e2 play_block) as [b2 S2]; [by destruct (tame_run glicol 8 e1 [play_block]), (tame_run glicol 8 e2 [play_block])|].
  set (r1 := is_run e1 [play_block]) in *. set (r2 := is_run e2 [play_block]) in *. clearbody r1 r2. unfold play_block in S1, S2. cbn [step] in S1, S2.
  destruct (next_block glicol 8 _ e1 _) as [[x1 y1]|] eqn:N1; [|discriminate S1]. destruct (next_block glicol 8 _ e2 _) as [[x2 y2]|] eqn:N2; [|discriminate S2].
  injection S1 as <- _. injection S2 as <- _. eapply (sb_block _ _ _ _ _ _ e1 e2 is_rank); [exact H| |exact N1|exact N2]. by apply ew_contained.
Qed.
Lemma ew_note (e1 e2 : engine glicol) c m1 m2 : ew_side e1 e2 -> Forall2 (same_command is_ours ew_f) (commands m1) (commands m2) ->
  match tame_run glicol 8 e1 [CMsg glicol c m1], tame_run glicol 8 e2 [CMsg glicol c m2] with Some _, Some _ => true | _, _ => false end = true ->
  ew_side (is_run e1 [CMsg glicol c m1]) (is_run e2 [CMsg glicol c m2]).
Proof.
  intros H Hc Hr. destruct (is_step e1 (CMsg glicol c m1)) as [b1 S1]; [by destruct (tame_run glicol 8 e1 [CMsg glicol c m1])|].
  destruct (is_step e2 (CMsg glicol c m2)) as [b2 S2]; [by destruct (tame_run glicol 8 e1 [CMsg glicol c m1]), (tame_run glicol 8 e2 [CMsg glicol c m2])|].
  set (r1 := is_run e1 _) in *. set (r2 := is_run e2 _) in *. clearbody r1 r2. cbn [step] in S1, S2.
  destruct (send_msg glicol c e1 m1) as [x1|] eqn:N1; [|discriminate S1]. destruct (send_msg glicol c e2 m2) as [x2|] eqn:N2; [|discriminate S2].
  injection S1 as <- _. injection S2 as <- _. eapply (sb_msg _ _ _ _ _ _ e1 e2); [exact H|exact Hc|exact N1|exact N2].
Qed.
Ltac by_run := with_strategy transparent [peg_run W W1] (vm_compute; repeat split; reflexivity).
Lemma ew_tame (cs : list (call glicol)) : match tame_run glicol 8 (engine_new glicol) cs with Some _ => true | None => false end = true -> tamely glicol 8 (is_run (engine_new glicol) cs).
Proof. intros H. unfold is_run. destruct (tame_run glicol 8 (engine_new glicol) cs) as [e|] eqn:E; [|done]. simpl. eapply tame_run_spec; [apply tm_new|exact E]. Qed.
Lemma ew_sides : ew_side ew_1 ew_b1 /\ ew_side ew_2 ew_b2 /\ ew_side ew_3 ew_b3 /\ ew_side ew_3 ew_b4 /\ ew_side ew_4 ew_b5.
Proof.
  assert (H0 : ew_side (engine_new glicol) ew_b0).
  { apply sb_start; [apply tm_new|apply ew_tame; run_session|]. intros k [->| ->]; by_run. }
  assert (H1 : ew_side ew_1 ew_b1).
  { apply (ew_edit _ _ is_text ew_text); [exact H0|run_session|run_session|run_session|by_run]. }
  assert (H2 : ew_side ew_2 ew_b2) by (apply ew_block; [exact H1|run_session..]).
  assert (H3 : ew_side ew_3 ew_b3).
  { apply ew_note; [exact H2| |run_session]. vm_compute commands. constructor; [|constructor]. exists "o"%string. eexists. split_and!; [by right|reflexivity|reflexivity]. }
  assert (H4 : ew_side ew_3 ew_b4).
  { destruct (is_step ew_b3 (submit ew_after)) as [ob S]; [run_session|]. eapply (sb_right _ _ _ _ _ _ ew_3 ew_b3 (submit ew_after) ew_b4 ob H3); [|reflexivity|exact S].
    assert (H : match parse (l := glicol) ew_after with
                | Done new => prog_ok_b glicol new = true /\ plain_b glicol (old_ast glicol ew_b3) new = true /\
                    new !! "~b"%string = old_ast glicol ew_b3 !! "~b"%string /\ new !! "p"%string = old_ast glicol ew_b3 !! "p"%string
                | _ => False end) by by_run.
    intros new Hn. change (parse (l := glicol) ew_after = Done new) in Hn. rewrite Hn in H. destruct H as (A & B & C & D).
    split_and!; [by apply prog_ok_b_spec|by apply plain_b_spec|]. intros _ k [->| ->]%ew_there; assumption. }
  split_and!; [exact H1|exact H2|exact H3|exact H4|]. apply ew_block; [exact H4|run_session..].
Qed.
(** The second engine is loaded in another order, its nodes have other numbers, another chain is
    heard beside [p] for a block and then taken away; from there on both sound the same. *)
Example C81_case :
  renaming is_ours ew_f ew_g /\ (forall k, is_ours k -> k ≠ input_name /\ ew_f k ≠ input_name) /\
  ew_side ew_3 ew_b4 /\ self_contained (ew_now ew_3) is_rank (old_ast glicol ew_3) /\
  (exists p, en_ast glicol ew_3 = Some p /\ alone is_ours p) /\ (exists p, en_ast glicol ew_b4 = Some p /\ alone (there is_ours ew_f ew_g) p) /\
  (forall k, ew_now ew_3 k -> contains_char "~" k = false -> k = "o"%string \/ k = "o"%string) /\
  (exists ids1 ids2, en_info glicol ew_3 !! "o"%string = Some ids1 /\ en_info glicol ew_b4 !! "p"%string = Some ids2 /\ ids1 <> ids2) /\
  sees [submit is_text; play_block; CMsg glicol c64 "o,0,0,4"; play_block] = [Quiet; level 9; Quiet; level 12] /\
  sees [submit ew_before; play_block; submit ew_text; play_block; CMsg glicol c64 "p,0,0,4"; submit ew_after; play_block] = [Quiet; level 5; Quiet; level 14; Quiet; Quiet; level 12].
Proof.
  split_and!.
  - exact ew_renaming.
  - exact ew_input.
  - apply ew_sides.
  - apply ew_contained; run_session.
  - apply is_alone. run_session.
  - assert (H : match en_ast glicol ew_b4 with Some p => forallb (fun kv : string * list component => contains_char "~" kv.1 || String.eqb kv.1 "p") (map_to_list p) | None => false end = true) by run_session.
    destruct (en_ast glicol ew_b4) as [p|]; [|done]. exists p. split; [done|]. intros k cs Hk Hc. rewrite forallb_forall in H.
    apply elem_of_map_to_list, elem_of_list_In, H in Hk. cbn [fst] in Hk. rewrite Hc in Hk. apply String.eqb_eq in Hk as ->. split; [by right|reflexivity].
  - intros k [[->| ->] _]; [done|]. by left.
  - assert (H : match en_info glicol ew_3 !! "o"%string, en_info glicol ew_b4 !! "p"%string with Some a, Some b => negb (bool_decide (a = b)) | _, _ => false end = true) by run_session.
    destruct (en_info glicol ew_3 !! "o"%string) as [a|]; [|done]. destruct (en_info glicol ew_b4 !! "p"%string) as [b|]; [|done]. exists a, b. split_and!; [done|done|]. by apply negb_true_iff, bool_decide_eq_false in H.
  - run_session.
  - run_session.
Qed.

(** * RewireProofs: connections and messages after an update that keeps the relative
    order of surviving components. *)
From Verif Require Export TameProofs.
From Coq Require Import Lia.
Local Open Scope nat_scope.

(** ** Lists *)

Lemma bind_one {A B} (f : A -> list B) l x : NoDup l -> x ∈ l ->
  (forall y, y ∈ l -> y ≠ x -> f y = []) -> l ≫= f = f x.
Proof.
  induction l as [|y l IH]; intros Hnd Hx Hf; [by apply elem_of_nil in Hx|].
  apply NoDup_cons in Hnd as [Hy Hnd]. rewrite bind_cons. apply elem_of_cons in Hx as [->|Hx].
  - assert (l ≫= f = []) as ->; [|by rewrite app_nil_r].
    assert (Hall : forall z, z ∈ l -> f z = []) by (intros z Hz; apply Hf; [set_solver|intros ->; done]).
    clear -Hall. induction l as [|z l IH]; [done|]. rewrite bind_cons, Hall by set_solver. apply IH.
    intros; apply Hall; set_solver.
  - rewrite Hf; [|set_solver|intros ->; done]. simpl. apply IH; auto. intros; apply Hf; set_solver.
Qed.
Lemma bind_none {A B} (f : A -> list B) l : (forall y, y ∈ l -> f y = []) -> l ≫= f = [].
Proof.
  induction l as [|y l IH]; intros Hf; [done|]. rewrite bind_cons, Hf by set_solver. apply IH.
  intros; apply Hf; set_solver.
Qed.

Lemma NoDup_bind_map {A B C} (h : B -> C) (g : A -> list B) (l : list A) :
  (forall i j x y a b, l !! i = Some x -> l !! j = Some y -> a ∈ g x -> b ∈ g y -> h a = h b -> i = j) ->
  (forall x, x ∈ l -> NoDup (h <$> g x)) -> NoDup (h <$> (l ≫= g)).
Proof.
  induction l as [|x l IH]; intros Hij Hx; [constructor|].
  rewrite bind_cons, fmap_app. apply NoDup_app. split_and!.
  - apply Hx. set_solver.
  - intros c H1 H2. apply elem_of_list_fmap in H1 as (a & -> & Ha). apply elem_of_list_fmap in H2 as (b & Hh & Hb).
    apply elem_of_list_bind in Hb as (y & Hb & Hy). apply elem_of_list_lookup in Hy as [j Hj].
    specialize (Hij 0 (S j) x y a b eq_refl Hj Ha Hb Hh). done.
  - apply IH; [|intros; apply Hx; set_solver]. intros i j y z a b Hi Hj Ha Hb Hh.
    pose proof (Hij (S i) (S j) y z a b Hi Hj Ha Hb Hh). lia.
Qed.

Section rewire.
  Context (L : lang) (HL : lang_ok L).
  Notation W := (node L * list (buf L))%type.
  Notation comp := (comp L).
  Notation ast := (gmap string (list comp)).
  Notation graph := (sgraph W).
  Notation table := (gmap string (list nat)).
  Notation engine := (engine L).
  Notation entry := (list string * string * nat)%type.

  Lemma tame_orderly old new : tame L old new -> orderly L old new.
  Proof. intros H k olds news Ho Hn. by destruct (H k olds news Ho Hn). Qed.

  (** ** The reference list *)

  Definition ent_pos (p : entry) : string * nat := (p.1.2, p.2).

  (** The component at a position of the new program and the references the engine
      recorded for it. *)
  Lemma chain_refs_sound ev (old : ast) k news p :
    p ∈ chain_refs L ev old (k, news) ->
    p.1.2 = k /\ p.1.1 ≠ [] /\ exists c, news !! p.2 = Some c /\ (forall r, r ∈ p.1.1 <-> r ∈ all_refs c) /\
      ((p.1.1 = all_refs c /\ occurs_old L (olds_of L old k) c) \/
       ((exists w, makenode ev c = Done (w, p.1.1)) /\ is_new L old k c)).
  Proof.
    intros Hp. unfold chain_refs in Hp. simpl in Hp. apply elem_of_app in Hp as [Hp|Hp].
    - apply elem_of_list_bind in Hp as (o & Hp & Ho). unfold kept_ref in Hp.
      destruct (find_comp L o news) as [[idx nc]|] eqn:E; [|by apply elem_of_nil in Hp].
      apply find_comp_some in E as (Hl & Heq & _).
      destruct (all_refs nc) as [|r0 rs] eqn:Er; [by apply elem_of_nil in Hp|].
      apply elem_of_list_singleton in Hp as ->. simpl. split; [done|]. split; [done|].
      exists nc. split; [done|]. rewrite Er. split; [done|]. left. split; [done|].
      apply occurs_old_spec. eauto.
    - apply elem_of_list_bind in Hp as ([i c] & Hp & Hin). rewrite added_filter in Hin.
      apply elem_of_list_filter in Hin as [Hnew Hin]. apply elem_of_enumerate in Hin. simpl in Hnew.
      unfold ref_entry, node_of in Hp. simpl in Hp.
      destruct (makenode ev c) as [[w rs]| |] eqn:Em; [|by apply elem_of_nil in Hp..]. simpl in Hp.
      destruct rs as [|r0 rs]; [by apply elem_of_nil in Hp|]. apply elem_of_list_singleton in Hp as ->.
      simpl. split; [done|]. split; [done|]. exists c. split; [done|]. split.
      + by apply (lo_refs _ HL ev c w).
      + right. split; [eauto|done].
  Qed.

  Lemma kept_unique olds news i1 i2 o1 o2 idx nc : keeps_order L olds news -> unique_refs L news ->
    olds !! i1 = Some o1 -> olds !! i2 = Some o2 ->
    news !! idx = Some nc -> comp_eqb o1 nc = true -> comp_eqb o2 nc = true -> all_refs nc ≠ [] -> i1 = i2.
  Proof.
    intros Hord Hu H1 H2 Hnc He1 He2 Hr.
    assert (Hgen : forall i o, olds !! i = Some o -> comp_eqb o nc = true ->
      occurs_new L news o /\ rank (occurs_new L news) olds i = rank (occurs_old L olds) news idx).
    { intros i o Hi He. assert (Hocc : occurs_new L news o).
      { apply occurs_new_spec. exists nc. split; [by eapply elem_of_list_lookup_2|done]. }
      split; [done|].
      pose proof (filter_lookup_rank (occurs_new L news) olds i o Hi Hocc) as Hf.
      destruct (Forall2_lookup_l _ _ _ _ _ Hord Hf) as (n1 & Hn1 & Heq).
      apply filter_lookup_inv in Hn1 as (j & Hj & _ & Hrank).
      assert (Hen : comp_eqb nc n1 = true).
      { eapply (lo_trans _ HL); [|exact Heq]. by apply (lo_sym _ HL). }
      assert (idx = j) as <- by (eapply Hu; eauto). done. }
    destruct (Hgen _ _ H1 He1) as [Ho1 Hr1]. destruct (Hgen _ _ H2 He2) as [Ho2 Hr2].
    eapply (rank_inj (occurs_new L news)); eauto. congruence.
  Qed.

  Lemma chain_refs_nodup ev (old new : ast) k news : tame L old new -> new !! k = Some news ->
    NoDup (ent_pos <$> chain_refs L ev old (k, news)).
  Proof.
    intros Htame Hk. unfold chain_refs. simpl. rewrite fmap_app. apply NoDup_app. split_and!.
    - unfold olds_of. destruct (old !! k) as [olds|] eqn:Eo; simpl; [|constructor].
      destruct (Htame k olds news Eo Hk) as [Hord Hu]. apply NoDup_bind_map.
      + intros i j x y a b Hi Hj Ha Hb Hab. unfold kept_ref in Ha, Hb.
        destruct (find_comp L x news) as [[idx nc]|] eqn:E1; [|by apply elem_of_nil in Ha].
        destruct (find_comp L y news) as [[idx2 nc2]|] eqn:E2; [|by apply elem_of_nil in Hb].
        apply find_comp_some in E1 as (Hl1 & He1 & _). apply find_comp_some in E2 as (Hl2 & He2 & _).
        destruct (all_refs nc) as [|r1 rs1] eqn:Er1; [by apply elem_of_nil in Ha|].
        destruct (all_refs nc2) as [|r2 rs2] eqn:Er2; [by apply elem_of_nil in Hb|].
        apply elem_of_list_singleton in Ha as ->. apply elem_of_list_singleton in Hb as ->.
        unfold ent_pos in Hab. simpl in Hab. injection Hab as <-. rewrite Hl1 in Hl2. injection Hl2 as <-.
        eapply kept_unique; eauto. by rewrite Er1.
      + intros x _. unfold kept_ref. destruct (find_comp L x news) as [[idx nc]|]; [|constructor].
        destruct (all_refs nc); [constructor|]. apply NoDup_singleton.
    - intros [k' i] Ha Hb. apply elem_of_list_fmap in Ha as (p & Hp & Ha). apply elem_of_list_fmap in Hb as (q & Hq & Hb).
      unfold ent_pos in Hp, Hq. injection Hp as Hp1 Hp2. injection Hq as Hq1 Hq2.
      apply elem_of_list_bind in Ha as (x & Ha & Hx). unfold kept_ref in Ha.
      destruct (find_comp L x news) as [[idx nc]|] eqn:E1; [|by apply elem_of_nil in Ha].
      apply find_comp_some in E1 as (Hl1 & He1 & _).
      destruct (all_refs nc) as [|r1 rs1]; [by apply elem_of_nil in Ha|]. apply elem_of_list_singleton in Ha as ->.
      apply elem_of_list_bind in Hb as ([j c] & Hb & Hc). rewrite added_filter in Hc.
      apply elem_of_list_filter in Hc as [Hnew Hc]. apply elem_of_enumerate in Hc. simpl in Hnew.
      unfold ref_entry in Hb. destruct (node_of L ev (j, c).2) as [[w rs]|]; [|by apply elem_of_nil in Hb]. simpl in Hb.
      destruct rs; [by apply elem_of_nil in Hb|]. apply elem_of_list_singleton in Hb as ->. simpl in *. subst i.
      subst idx. rewrite Hl1 in Hc. injection Hc as ->. apply Hnew. apply occurs_old_spec. eauto.
    - apply NoDup_bind_map.
      + intros i j x y a b Hi Hj Ha Hb Hab.
        assert (Hpos : forall z e, e ∈ ref_entry L ev k z -> ent_pos e = (k, z.1)).
        { intros z e Hz. unfold ref_entry in Hz. destruct (node_of L ev z.2) as [[w rs]|]; [|by apply elem_of_nil in Hz].
          simpl in Hz. destruct rs; [by apply elem_of_nil in Hz|]. by apply elem_of_list_singleton in Hz as ->. }
        apply Hpos in Ha, Hb. rewrite Ha, Hb in Hab. injection Hab as Hab.
        assert (Hnd : NoDup (added L old k news).*1).
        { rewrite added_filter. apply NoDup_fmap_2_strong.
          - intros [i1 c1] [i2 c2] H1 H2 Heq. apply elem_of_list_filter in H1 as [_ H1].
            apply elem_of_list_filter in H2 as [_ H2]. apply elem_of_enumerate in H1, H2. simpl in Heq. congruence.
          - apply NoDup_filter. apply NoDup_alt. intros u v [q c1] H1 H2. unfold enumerate in H1, H2.
            rewrite list_lookup_imap in H1, H2.
            destruct (news !! u); [|done]. destruct (news !! v); [|done]. simpl in H1, H2. congruence. }
        eapply NoDup_lookup; [exact Hnd| |].
        * rewrite list_lookup_fmap, Hi. done.
        * rewrite list_lookup_fmap, Hj. simpl. by rewrite Hab.
      + intros z _. unfold ref_entry. destruct (node_of L ev z.2) as [[w rs]|]; [|constructor]. simpl.
        destruct rs; [constructor|]. apply NoDup_singleton.
  Qed.

  Lemma chain_refs_complete ev (old new : ast) k news i c : tame L old new -> new !! k = Some news ->
    (forall p, p ∈ added L old k news -> is_Some (node_of L ev p.2)) ->
    news !! i = Some c -> all_refs c ≠ [] -> exists p, p ∈ chain_refs L ev old (k, news) /\ ent_pos p = (k, i).
  Proof.
    intros Htame Hk Hnode Hi Hr. unfold chain_refs. simpl.
    destruct (decide (is_new L old k c)) as [Hn|Hn].
    - assert (Hin : (i, c) ∈ added L old k news).
      { rewrite added_filter. apply elem_of_list_filter. split; [done|]. by apply elem_of_enumerate. }
      destruct (Hnode _ Hin) as [[w rs] Hw]. simpl in Hw.
      assert (Hm : makenode ev c = Done (w, rs)).
      { unfold node_of in Hw. destruct (makenode ev c) as [q| |]; [|done..]. by injection Hw as ->. }
      destruct rs as [|r0 rs].
      + exfalso. destruct (all_refs c) as [|r1 rs1] eqn:E; [done|].
        pose proof (proj2 (lo_refs _ HL ev c w [] Hm r1)) as H. rewrite E in H.
        assert (r1 ∈ []) as Hx by (apply H; set_solver). by apply elem_of_nil in Hx.
      + exists (r0 :: rs, k, i). split; [|done]. apply elem_of_app. right. apply elem_of_list_bind.
        exists (i, c). split; [|done]. unfold ref_entry. simpl. rewrite Hw. simpl. set_solver.
    - assert (Hocc : occurs_old L (olds_of L old k) c).
      { unfold is_new in Hn. destruct (decide (occurs_old L (olds_of L old k) c)); done. }
      apply occurs_old_spec in Hocc as (o & Ho & He). unfold olds_of in Ho.
      destruct (old !! k) as [olds|] eqn:Eo; [|by apply elem_of_nil in Ho]. simpl in Ho.
      destruct (Htame k olds news Eo Hk) as [_ Hu].
      destruct (find_comp_is_some L o news) as (idx & nc & E).
      { apply occurs_new_spec. exists c. split; [by eapply elem_of_list_lookup_2|done]. }
      pose proof E as E'. apply find_comp_some in E' as (Hl & He' & _).
      assert (Hcn : comp_eqb c nc = true) by (eapply (lo_trans _ HL); [by apply (lo_sym _ HL)|done]).
      assert (i = idx) as <- by (eapply Hu; eauto).
      rewrite Hi in Hl. injection Hl as <-.
      destruct (all_refs c) as [|r1 rs1] eqn:Er; [done|].
      exists (r1 :: rs1, k, i). split; [|done]. apply elem_of_app. left. apply elem_of_list_bind.
      exists o. split; [|unfold olds_of; by rewrite Eo]. unfold kept_ref. rewrite E, Er. set_solver.
  Qed.

  (** ** Messages *)

  Definition ref_msgs (sh : shuffle) (t : table) (rs : list string) : list msg :=
    rs ≫= fun r => Index <$> targets sh t r.

  Lemma ref_act_msgs sh t to rs n : (rs ≫= ref_act sh t to) ≫= act_msg n =
    if decide (n = to) then ref_msgs sh t rs else [].
  Proof.
    unfold ref_msgs. induction rs as [|r rs IH]; [simpl; by case_decide|].
    rewrite !bind_cons, bind_app, IH. unfold ref_act at 1. generalize (targets sh t r) as us. intros us.
    assert (Hus : (((fun u => Conn u to (Index u)) <$> us) ≫= act_msg n) = if decide (n = to) then Index <$> us else []).
    { induction us as [|u us IHu]; [simpl; by case_decide|]. rewrite fmap_cons, bind_cons, IHu. simpl.
      destruct (decide (n = to)) as [->|Hne].
      - by rewrite decide_True.
      - by rewrite decide_False by auto. }
    rewrite Hus. by destruct (decide (n = to)).
  Qed.

  Lemma refs_acts_msgs_none sh t seen l n :
    (forall p, p ∈ l -> ~ owner t n p.1.2 p.2) -> refs_acts sh t seen l ≫= act_msg n = [].
  Proof.
    revert seen. induction l as [|p l IH]; intros seen Hl; simpl; [done|].
    destruct (t !! p.1.2) as [ids|] eqn:Ek; simpl; [|done]. destruct (ids !! p.2) as [idx|] eqn:Ei; [|done].
    assert (Hne : n ≠ idx).
    { intros ->. apply (Hl p); [set_solver|]. exists ids. done. }
    rewrite !bind_app, ref_act_msgs, IH by (intros; apply Hl; set_solver).
    rewrite (decide_False (P := n = idx)) by done.
    destruct (decide (idx ∈ seen)); simpl; [done|]. by rewrite decide_False by auto.
  Qed.

  Lemma refs_acts_msgs_one sh t seen l p n : table_inj t ->
    (forall q, q ∈ l -> exists idx, owner t idx q.1.2 q.2) ->
    NoDup (ent_pos <$> l) -> p ∈ l -> owner t n p.1.2 p.2 -> n ∉ seen ->
    refs_acts sh t seen l ≫= act_msg n = ResetOrder :: ref_msgs sh t p.1.1.
  Proof.
    intros Hinj. revert seen. induction l as [|q l IH]; intros seen Hl Hnd Hp Hn Hs; [by apply elem_of_nil in Hp|].
    rewrite fmap_cons in Hnd. apply NoDup_cons in Hnd as [Hq Hnd]. simpl.
    destruct (Hl q ltac:(set_solver)) as (idx & ids & Hk & Hi). rewrite Hk. simpl. rewrite Hi.
    rewrite !bind_app, ref_act_msgs.
    destruct (decide (n = idx)) as [->|Hne].
    - assert (ent_pos q = ent_pos p) as Hpq.
      { unfold ent_pos. assert (Hoq : owner t idx q.1.2 q.2) by (by exists ids).
        destruct (Hinj _ _ _ _ _ Hn Hoq) as [-> ->]. done. }
      assert (p = q) as ->.
      { apply elem_of_cons in Hp as [->|Hp]; [done|]. exfalso. apply Hq. rewrite Hpq. by apply elem_of_list_fmap_1. }
      rewrite decide_False by done. simpl. rewrite decide_True by done. simpl.
      rewrite refs_acts_msgs_none; [by rewrite app_nil_r|].
      intros r Hr Ho. destruct (Hinj _ _ _ _ _ Hn Ho) as [H1 H2]. apply Hq. unfold ent_pos at 1. rewrite H1, H2.
      by apply (elem_of_list_fmap_1 ent_pos).
    - rewrite IH.
      + destruct (decide (idx ∈ seen)); simpl; [done|]. by rewrite decide_False by auto.
      + intros; apply Hl; set_solver.
      + done.
      + apply elem_of_cons in Hp as [->|Hp]; [|done]. destruct Hn as (ids' & Hk' & Hi').
        congruence.
      + done.
      + destruct (decide (idx ∈ seen)); [done|]. set_solver.
  Qed.

  (** Message from the predecessor in the chain. *)
  Definition pred_msg (ids : list nat) (i : nat) : list msg :=
    match i with 0 => [] | S i' => match ids !! i' with Some u => [IndexOrder 0 u] | None => [] end end.

  Lemma windows2_msgs ids i n : NoDup ids -> ids !! i = Some n ->
    ((fun p : nat * nat => Conn p.1 p.2 (IndexOrder 0 p.1)) <$> windows2 ids) ≫= act_msg n = pred_msg ids i.
  Proof.
    revert i. induction ids as [|a ids IH]; intros i Hnd Hi; [done|].
    apply NoDup_cons in Hnd as [Ha Hnd]. destruct ids as [|b ids].
    - destruct i as [|i]; [done|]. done.
    - simpl windows2. rewrite fmap_cons, bind_cons.
      destruct i as [|i].
      + injection Hi as ->. simpl.
        assert (Hnil : ((fun p : nat * nat => Conn p.1 p.2 (IndexOrder 0 p.1)) <$> windows2 (b :: ids)) ≫= act_msg n = []).
        { apply bind_none. intros act Hact. apply elem_of_list_fmap in Hact as ([x y] & -> & Hxy). simpl.
          apply elem_of_windows2 in Hxy as (j & _ & Hj). rewrite decide_False; [done|]. intros ->.
          apply Ha. by eapply elem_of_list_lookup_2. }
        simpl windows2 in Hnil. rewrite Hnil. rewrite decide_False; [done|]. intros ->. apply Ha. set_solver.
      + simpl in Hi. simpl windows2 in IH. rewrite (IH i Hnd Hi). destruct i as [|i]; simpl.
        * injection Hi as ->. by rewrite decide_True.
        * rewrite decide_False; [done|]. intros <-. apply NoDup_cons in Hnd as [Hb _].
          apply Hb. by eapply elem_of_list_lookup_2.
  Qed.

  Lemma bind_bind {A B C} (l : list A) (f : A -> list B) (g : B -> list C) :
    (l ≫= f) ≫= g = l ≫= (fun x => f x ≫= g).
  Proof. induction l as [|x l IH]; [done|]. by rewrite !bind_cons, bind_app, IH. Qed.

  Lemma chain_acts_msgs (sh : shuffle) t dest k ids i n : table_inj t -> ~ in_table t dest ->
    t !! k = Some ids -> ids !! i = Some n ->
    (sh _ (map_to_list t) ≫= chain_acts dest) ≫= act_msg n = pred_msg ids i.
  Proof.
    intros Hinj Hdest Hk Hi. destruct (shuffled_map sh t) as [Hnd Hl]. rewrite bind_bind.
    assert (Hn : owner t n k i) by (by exists ids).
    assert (Htail : forall kv : string * list nat,
      (if contains_char "~" kv.1 then []
       else match last kv.2 with Some e => [Conn e dest (IndexOrder 0 e)] | None => [] end) ≫= act_msg n = []).
    { intros kv. destruct (contains_char "~" kv.1); [done|]. destruct (last kv.2); [|done]. simpl.
      rewrite decide_False; [done|]. intros ->. apply Hdest. by exists k, i. }
    rewrite (bind_one _ _ (k, ids)).
    - unfold chain_acts. rewrite bind_app, Htail, app_nil_r. simpl. apply windows2_msgs; [|done].
      apply NoDup_alt. intros x y z Hx Hy. destruct (Hinj z k x k y) as [_ ?]; [by exists ids..|done].
    - by apply NoDup_fmap_1 in Hnd.
    - by apply Hl.
    - intros [k' ids'] Hin Hne. apply Hl in Hin. simpl in Hin. unfold chain_acts.
      rewrite bind_app, Htail, app_nil_r. simpl. apply bind_none. intros act Hact.
      apply elem_of_list_fmap in Hact as ([x y] & -> & Hxy). simpl.
      apply elem_of_windows2 in Hxy as (j & _ & Hj). rewrite decide_False; [done|]. intros ->.
      destruct (Hinj n k i k' (S j)) as [<- _]; [done|by exists ids'|]. congruence.
  Qed.

  Lemma chain_acts_msgs_out (sh : shuffle) t dest n : ~ in_table t n -> n ≠ dest ->
    (sh _ (map_to_list t) ≫= chain_acts dest) ≫= act_msg n = [].
  Proof.
    intros Hn Hd. destruct (shuffled_map sh t) as [_ Hl]. rewrite bind_bind. apply bind_none.
    intros [k ids] Hin. apply Hl in Hin. simpl in Hin. unfold chain_acts. rewrite bind_app. simpl.
    rewrite (bind_none _ ((fun p : nat * nat => Conn p.1 p.2 (IndexOrder 0 p.1)) <$> windows2 ids)).
    - destruct (contains_char "~" k); [done|]. destruct (last ids); [|done]. simpl. by rewrite decide_False by auto.
    - intros act Hact. apply elem_of_list_fmap in Hact as ([x y] & -> & Hxy). simpl.
      apply elem_of_windows2 in Hxy as (j & _ & Hj). rewrite decide_False; [done|]. intros ->.
      apply Hn. exists k, (S j), ids. done.
  Qed.

  (** ** The wiring a program prescribes *)

  Definition chain_end (t : table) (k : string) (u : nat) : Prop := exists ids, t !! k = Some ids /\ last ids = Some u.
  Definition refers (r k : string) : Prop :=
    if contains_dotdot r then starts_with k (remove_dotdot r) = true else k = r.
  (** A component at a position of a program, and its node. *)
  Definition placed (t : table) (prog : ast) (k : string) (i : nat) (c : comp) (v : nat) : Prop :=
    exists cs, prog !! k = Some cs /\ cs !! i = Some c /\ owner t v k i.

  Definition wired (t : table) (dest : nat) (prog : ast) (u v : nat) : Prop :=
    (exists k i, owner t u k i /\ owner t v k (S i)) \/
    (exists k, contains_char "~" k = false /\ chain_end t k u /\ v = dest) \/
    (exists k i c r k', placed t prog k i c v /\ r ∈ all_refs c /\ refers r k' /\ chain_end t k' u).

  Lemma ref_target_spec t r u : ref_target t r u <-> exists k, refers r k /\ chain_end t k u.
  Proof.
    unfold ref_target, refers, chain_end. split.
    - intros (k & ids & H1 & H2 & H3). exists k. eauto.
    - intros (k & H1 & ids & H2 & H3). exists k, ids. eauto.
  Qed.

  Lemma ref_check_all t (new : ast) rs : ref_check L t new rs = None -> forall r, r ∈ rs -> ref_ok L t new r = true.
  Proof.
    induction rs as [|r rs IH]; simpl; [intros _ r H; by apply elem_of_nil in H|].
    destruct (ref_ok L t new r) eqn:E; [|done]. intros H x [->|Hx]%elem_of_cons; auto.
  Qed.
  Lemma elem_of_ref_names (l : list entry) r : r ∈ ref_names l <-> exists p, p ∈ l /\ r ∈ p.1.1.
  Proof.
    unfold ref_names. rewrite elem_of_list_In, in_concat. split.
    - intros (x & Hx & Hr). apply in_map_iff in Hx as (p & <- & Hp). exists p. by rewrite !elem_of_list_In.
    - intros (p & Hp & Hr). exists p.1.1. rewrite <- !elem_of_list_In. split; [|done].
      apply elem_of_list_fmap_1 with (f := fun p : entry => p.1.1). done.
  Qed.

  (** ** The whole update *)

  (** References the engine announces to a node: for a new node those returned by
      [makenode], for a kept one those written in the program. *)
  Definition announced (e : engine) (k : string) (c : comp) (rs : list string) : Prop :=
    (rs = all_refs c /\ occurs_old L (olds_of L (old_ast L e) k) c) \/
    ((exists w, makenode (the_env L e) c = Done (w, rs)) /\ is_new L (old_ast L e) k c).

  (** Messages received during the update by the node of a component. *)
  Definition trace (sh : shuffle) (t : table) (k : string) (i : nat) (rs : list string) : list msg :=
    match rs with [] => [] | _ => ResetOrder :: ref_msgs sh t rs end ++
    match t !! k with Some ids => pred_msg ids i | None => [] end.

  Lemma trace_conn sh t k i rs : Forall conn_msg (trace sh t k i rs).
  Proof.
    unfold trace, ref_msgs, pred_msg. apply Forall_app. split.
    - destruct rs as [|r rs]; [constructor|]. constructor; [done|]. apply Forall_forall. intros m Hm.
      apply elem_of_list_bind in Hm as (x & Hm & _). by apply elem_of_list_fmap in Hm as (u & -> & _).
    - destruct (t !! k) as [ids|]; [|constructor]. destruct i as [|i]; [constructor|].
      destruct (ids !! i); repeat constructor.
  Qed.
  Lemma dest_conn (l : list (string * list nat)) dest n : Forall conn_msg ((l ≫= chain_acts dest) ≫= act_msg n).
  Proof.
    apply Forall_forall. intros m Hm. apply elem_of_list_bind in Hm as (a & Hm & Ha).
    apply elem_of_list_bind in Ha as (kv & Ha & _). unfold chain_acts in Ha. apply elem_of_app in Ha as [Ha|Ha].
    - apply elem_of_list_fmap in Ha as ([x y] & -> & _). simpl in Hm. case_decide; [|by apply elem_of_nil in Hm].
      by apply elem_of_list_singleton in Hm as ->.
    - destruct (contains_char "~" kv.1); [by apply elem_of_nil in Ha|].
      destruct (last kv.2); [|by apply elem_of_nil in Ha]. apply elem_of_list_singleton in Ha as ->. simpl in Hm.
      case_decide; [|by apply elem_of_nil in Hm]. by apply elem_of_list_singleton in Hm as ->.
  Qed.

  Record result (o : orders) (e : engine) (new : ast) (e' : engine) : Prop := {
    re_ast : en_ast L e' = Some new;
    re_dest : en_dest L e' = en_dest L e;
    re_input : en_input L e' = en_input L e;
    re_env : the_env L e' = the_env L e;
    re_clock : en_clock L e' = en_clock L e;
    re_inv : einv L e';
    re_al : aligned L e';
    re_gone : forall k, new !! k = None ->
      en_info L e' !! k = if decide (k = input_name) then en_info L e !! k else None;
    re_len : forall k cs, new !! k = Some cs -> exists ids, en_info L e' !! k = Some ids /\ length ids = length cs;
    re_wired : forall u v, edge (en_graph L e') u v <-> wired (en_info L e') (en_dest L e') new u v;
    re_new : forall k i c v, placed (en_info L e') new k i c v -> is_new L (old_ast L e) k c ->
      ~ live (en_graph L e) v /\
      exists w refs st, makenode (the_env L e) c = Done (w, refs) /\
        foldM nmsg w.1 (trace (o_wild o) (en_info L e') k i refs) = Ok st /\
        node_weight (en_graph L e') v = Some (st, w.2);
    re_kept : forall k olds news i j a b n, old_ast L e !! k = Some olds -> new !! k = Some news ->
      olds !! i = Some a -> news !! j = Some b -> occurs_new L news a -> occurs_old L olds b ->
      rank (occurs_new L news) olds i = rank (occurs_old L olds) news j ->
      owner (en_info L e) n k i ->
      owner (en_info L e') n k j /\
      forall w, node_weight (en_graph L e) n = Some w ->
        exists st, foldM nmsg w.1 (trace (o_wild o) (en_info L e') k j (all_refs b)) = Ok st /\
          node_weight (en_graph L e') n = Some (st, w.2);
    re_dest_w : forall w, node_weight (en_graph L e) (en_dest L e) = Some w ->
      exists st, foldM nmsg w.1 ((o_conn o _ (map_to_list (en_info L e')) ≫= chain_acts (en_dest L e)) ≫= act_msg (en_dest L e)) = Ok st /\
        node_weight (en_graph L e') (en_dest L e) = Some (st, w.2);
    re_input_w : node_weight (en_graph L e') (en_input L e) = node_weight (en_graph L e) (en_input L e);
    re_input_chain : forall n, en_info L e !! input_name = Some [n] ->
      node_weight (en_graph L e') n = node_weight (en_graph L e) n
  }.


  Section one_update.
    Context (o : orders) (e : engine) (new : ast) (d : diff L) (t : table) (ids : list nat)
            (g : graph) (temp : list nat) (t' : table).
    Context (He : einv L e) (Hal : aligned L e) (Hpo : prog_ok L new) (Htame : tame L (old_ast L e) new).
    Context (Hp : plan L o (set_temp L e []) new = Done (d, t, ids)).
    Context (Ha : foldM (add_one L) (en_graph L e, [], t) (d_adds L d) = Ok (g, temp, t')).

    Local Definition the_up : updated L e new g temp t' :=
      tame_table L o e new d t ids g temp t' He Hal Hpo (tame_orderly _ _ Htame) Hp Ha.

    Lemma the_nodes : forall k news p, new !! k = Some news -> p ∈ added L (old_ast L e) k news ->
      is_Some (node_of L (the_env L e) p.2).
    Proof.
      intros k news p Hk Hin. pose proof (plan_diff _ _ _ _ _ _ _ Hp) as Hd.
      apply diff_chains_spec in Hd as (Hnode & _). eapply (Hnode (k, news)); [|done].
      rewrite shuf_perm. by apply elem_of_map_to_list.
    Qed.

    Lemma the_refs : d_refs L d = o_new o _ (map_to_list new) ≫= chain_refs L (the_env L e) (old_ast L e).
    Proof.
      pose proof (plan_diff _ _ _ _ _ _ _ Hp) as Hd. by apply diff_chains_spec in Hd as (_ & _ & Hr & _).
    Qed.

    Lemma elem_of_refs p : p ∈ d_refs L d <->
      exists news, new !! p.1.2 = Some news /\ p ∈ chain_refs L (the_env L e) (old_ast L e) (p.1.2, news).
    Proof.
      rewrite the_refs, elem_of_list_bind. destruct (shuffled_map (o_new o) new) as [_ Hl]. split.
      - intros ([k news] & Hin & Hk). apply Hl in Hk. simpl in Hk.
        destruct (chain_refs_sound _ _ _ _ _ Hin) as [<- _]. eauto.
      - intros (news & Hk & Hin). exists (p.1.2, news). split; [done|]. by apply Hl.
    Qed.

    Lemma the_refs_nodup : NoDup (ent_pos <$> d_refs L d).
    Proof.
      rewrite the_refs. destruct (shuffled_map (o_new o) new) as [Hnd Hl]. apply NoDup_bind_map.
      - intros i j [k1 n1] [k2 n2] a b Hi Hj H1 H2 Hab.
        assert (Hk1 : new !! k1 = Some n1) by (apply (Hl (k1, n1)); by eapply elem_of_list_lookup_2).
        assert (Hk2 : new !! k2 = Some n2) by (apply (Hl (k2, n2)); by eapply elem_of_list_lookup_2).
        apply chain_refs_sound in H1 as [H1 _]. apply chain_refs_sound in H2 as [H2 _].
        unfold ent_pos in Hab. injection Hab as Hab _.
        eapply NoDup_lookup; [exact Hnd| |].
        + rewrite list_lookup_fmap, Hi. done.
        + rewrite list_lookup_fmap, Hj. simpl. congruence.
      - intros [k news] Hin. apply Hl in Hin. by eapply chain_refs_nodup.
    Qed.

    Lemma placed_lookup k news i c : new !! k = Some news -> news !! i = Some c -> exists v, owner t' v k i.
    Proof.
      intros Hk Hi. destruct (up_len _ _ _ _ _ _ the_up k news Hk) as (ids' & Hids & Hlen).
      destruct (lookup_lt_is_Some_2 ids' i) as [v Hv].
      { rewrite Hlen. by eapply lookup_lt_Some. }
      exists v, ids'. done.
    Qed.

    Lemma refs_owner p : p ∈ d_refs L d -> exists idx, owner t' idx p.1.2 p.2.
    Proof.
      intros (news & Hk & Hin)%elem_of_refs. apply chain_refs_sound in Hin as (_ & _ & c & Hc & _).
      by eapply placed_lookup.
    Qed.

    Lemma tab_ne_new : tab_ne t'.
    Proof.
      intros k ids' Hk ->. destruct (new !! k) as [news|] eqn:En.
      - destruct (up_len _ _ _ _ _ _ the_up k news En) as (ids' & Hids & Hlen).
        rewrite Hk in Hids. injection Hids as <-. destruct news; [|done]. by destruct (proj2 Hpo k).
      - rewrite (up_gone _ _ _ _ _ _ the_up k En) in Hk. destruct (decide (k = input_name)) as [->|]; [|done].
        destruct (al_input _ _ Hal _ Hk) as [? ?]. done.
    Qed.

    Lemma refs_edge_spec u v : refs_edge t' (d_refs L d) u v <->
      exists k i c r k', placed t' new k i c v /\ r ∈ all_refs c /\ refers r k' /\ chain_end t' k' u.
    Proof.
      split.
      - intros (p & r & Hpd & Ho & Hr & Ht). apply elem_of_refs in Hpd as (news & Hk & Hin).
        apply chain_refs_sound in Hin as (_ & _ & c & Hc & Hrefs & _).
        apply ref_target_spec in Ht as (k' & H1 & H2).
        exists p.1.2, p.2, c, r, k'. split_and!; auto; [by exists news|by apply Hrefs].
      - intros (k & i & c & r & k' & (news & Hk & Hc & Ho) & Hr & H1 & H2).
        destruct (chain_refs_complete (the_env L e) (old_ast L e) new k news i c) as (p & Hin & Hpos); auto.
        { intros; by eapply the_nodes. }
        { intros E. rewrite E in Hr. by apply elem_of_nil in Hr. }
        unfold ent_pos in Hpos. injection Hpos as Hp1 Hp2.
        pose proof (chain_refs_sound _ _ _ _ _ Hin) as (_ & _ & c' & Hc' & Hrefs & _).
        rewrite Hp2, Hc in Hc'. injection Hc' as <-.
        exists p, r. split_and!.
        + apply elem_of_refs. exists news. rewrite Hp1. done.
        + by rewrite Hp1, Hp2.
        + by apply Hrefs.
        + apply ref_target_spec. eauto.
    Qed.

    Context (Hrc : ref_check L t' new (ref_names (d_refs L d)) = None).

    Lemma refs_known p : p ∈ d_refs L d -> forall r, r ∈ p.1.1 -> ref_known t' r.
    Proof.
      intros Hpd r Hr. pose proof (ref_check_all _ _ _ Hrc r) as Hok.
      rewrite ref_ok_spec in Hok. unfold ref_known.
      destruct (contains_dotdot r) eqn:Edd; [auto|]. right.
      destruct Hok as [[news Hn]|Hs]; [|eauto|done].
      - apply elem_of_ref_names. eauto.
      - destruct (up_len _ _ _ _ _ _ the_up r news Hn) as (ids' & -> & _). eauto.
    Qed.

    Local Notation g1 := (clear_edges (foldl remove_node g ids)).
    Local Notation all_acts := (refs_acts (o_wild o) t' [] (d_refs L d) ++
       (o_conn o _ (map_to_list t') ≫= chain_acts (en_dest L e))).

    Lemma g1_facts : wf_graph g1 /\ edges g1 = [] /\
      (forall n, n ∉ ids -> node_weight g1 n = node_weight g n) /\
      (forall n, live g1 n <-> n = en_dest L e \/ n = en_input L e \/ in_table t' n) /\
      table_inj t' /\ ~ in_table t' (en_dest L e) /\ ~ in_table t' (en_input L e) /\
      (forall n, n ∈ ids -> n ≠ en_dest L e /\ n ≠ en_input L e /\ ~ in_table t' n).
    Proof.
      pose proof (adds_inv L _ _ _ _ _ _ _ _ _ He Hp Ha) as Hai.
      pose proof (plan_inv L _ _ _ _ _ _ (ei_inj _ _ He) Hp) as (_ & Hsplit & _). simpl in Hsplit.
      destruct Hai as [Hwf Hinj Hout Hbase Hlive Htemp Hwt Hed]. simpl in *.
      destruct (remove_nodes_spec ids g Hwf) as (Hr1 & Hr2 & Hr3).
      destruct (clear_edges_spec _ Hr3) as (Hc1 & Hc2 & Hc3).
      assert (Hids : forall n, n ∈ ids -> n ≠ en_dest L e /\ n ≠ en_input L e /\ ~ in_table t' n).
      { intros n Hn. split_and!.
        - intros ->. apply (ei_dest _ _ He). apply Hsplit. auto.
        - intros ->. apply (ei_input _ _ He). apply Hsplit. auto.
        - by apply Hout. }
      split_and!; auto.
      - intros n Hn. rewrite Hc1, Hr1. by rewrite decide_False.
      - intros n. unfold live. rewrite Hc1, Hr1. case_decide as Hn.
        + destruct (Hids n Hn) as (? & ? & ?). split; [by intros [? ?]|]. tauto.
        + fold (live g n). rewrite Hlive. tauto.
    Qed.

    Lemma acts_conn a : a ∈ all_acts -> conn_msg (act_m a) /\ forall n, n ∈ act_nodes a -> live g1 n.
    Proof.
      destruct g1_facts as (_ & _ & _ & Hlive & _ & _ & _ & _).
      assert (Hend : forall r u, ref_target t' r u -> in_table t' u).
      { intros r u (k & ids' & Hk & Hla & _). rewrite last_lookup in Hla. exists k, (pred (length ids')), ids'. done. }
      intros [Hin|Hin]%elem_of_app.
      - assert (Hgen : forall seen l, (forall p, p ∈ l -> exists idx, owner t' idx p.1.2 p.2) ->
          a ∈ refs_acts (o_wild o) t' seen l -> conn_msg (act_m a) /\ forall n, n ∈ act_nodes a -> live g1 n).
        { clear Hin. intros seen l. revert seen. induction l as [|p l IH]; intros seen Hl Hin; [by apply elem_of_nil in Hin|].
          simpl in Hin. destruct (Hl p ltac:(set_solver)) as (idx & ids' & Hk & Hi). rewrite Hk in Hin. simpl in Hin.
          rewrite Hi in Hin.
          assert (Hli : live g1 idx).
          { apply Hlive. right; right. exists p.1.2, p.2, ids'. done. }
          apply elem_of_app in Hin as [Hin|Hin]; [|apply elem_of_app in Hin as [Hin|Hin]].
          - destruct (decide (idx ∈ seen)); [by apply elem_of_nil in Hin|]. apply elem_of_list_singleton in Hin as ->.
            simpl. split; [done|]. intros m Hm. apply elem_of_list_singleton in Hm as ->. done.
          - apply elem_of_list_bind in Hin as (r & Hin & Hr). unfold ref_act in Hin.
            apply elem_of_list_fmap in Hin as (u & -> & Hu). simpl. split; [done|].
            apply elem_of_targets in Hu. apply Hend in Hu.
            intros m Hn; apply elem_of_cons in Hn as [->|Hn]; [apply Hlive; auto|]. apply elem_of_list_singleton in Hn as ->. done.
          - eapply IH; [|exact Hin]. intros; apply Hl; set_solver. }
        eapply Hgen; [|exact Hin]. apply refs_owner.
      - apply elem_of_list_bind in Hin as ([k ids'] & Hin & Hk).
        destruct (shuffled_map (o_conn o) t') as [_ Hl]. apply Hl in Hk. simpl in Hk.
        unfold chain_acts in Hin. simpl in Hin. apply elem_of_app in Hin as [Hin|Hin].
        + apply elem_of_list_fmap in Hin as ([x y] & -> & Hxy). apply elem_of_windows2 in Hxy as (i & Hx & Hy).
          simpl. split; [done|]. intros m Hn; apply elem_of_cons in Hn as [->|Hn]; [|apply elem_of_list_singleton in Hn as ->];
          apply Hlive; right; right; [exists k, i, ids'|exists k, (S i), ids']; done.
        + destruct (contains_char "~" k); [by apply elem_of_nil in Hin|].
          destruct (last ids') as [x|] eqn:El; [|by apply elem_of_nil in Hin].
          apply elem_of_list_singleton in Hin as ->. simpl. split; [done|].
          intros m Hn; apply elem_of_cons in Hn as [->|Hn]; [|apply elem_of_list_singleton in Hn as ->; apply Hlive; auto].
          apply Hlive. right; right. rewrite last_lookup in El. exists k, (pred (length ids')), ids'. done.
    Qed.

    (** The connection phase is the run of [all_acts]; it always succeeds. *)
    Lemma rewire_acts : exists g3, run_acts L g1 all_acts = Ok g3 /\
      rewire L o (set_info L (set_temp L (set_graph L (set_temp L e []) g) temp) t') new d ids =
      Ok (Engine L g3 (en_dest L e) (en_input L e) (Some new) t' t' temp
                 (en_samples L e) (en_bpm L e) (en_sr L e) (en_seed L e) (en_clock L e), None).
    Proof.
      destruct g1_facts as (Hwf & _).
      destruct (run_acts_total L g1 all_acts Hwf acts_conn (lo_msg _ HL)) as [g3 Hg3].
      exists g3. split; [done|]. unfold rewire. simpl.
      destruct (connect_refs_acts L (o_wild o) t' (d_refs L d) g1 [] tab_ne_new) as (seen & Hs).
      { intros p Hpd. split; [by apply refs_owner|by apply refs_known]. }
      rewrite run_acts_app in Hg3.
      rewrite Hs. destruct (run_acts L g1 (refs_acts (o_wild o) t' [] (d_refs L d))) as [g2|]; [|done].
      rewrite connect_chains_acts, Hg3. done.
    Qed.

    Lemma node_trace k i c v rs : placed t' new k i c v -> announced e k c rs ->
      all_acts ≫= act_msg v = trace (o_wild o) t' k i rs.
    Proof.
      intros (news & Hk & Hc & Ho) Hann. destruct g1_facts as (_ & _ & _ & _ & Hinj & Hdest & _ & _).
      rewrite bind_app. unfold trace. destruct Ho as (ids' & Hids & Hi). rewrite Hids.
      rewrite (chain_acts_msgs _ _ _ k ids' i v) by done. f_equal.
      assert (Ho : owner t' v k i) by (by exists ids').
      destruct rs as [|r0 rs].
      - apply refs_acts_msgs_none. intros p Hpd Hop. destruct (Hinj _ _ _ _ _ Ho Hop) as [-> ->].
        apply elem_of_refs in Hpd as (news' & Hk' & Hin). rewrite Hk in Hk'. injection Hk' as <-.
        apply chain_refs_sound in Hin as (_ & Hne & c' & Hc' & Hrefs & _).
        rewrite Hc in Hc'. injection Hc' as <-.
        destruct p.1.1 as [|r1 rs1]; [done|].
        assert (Hr1 : r1 ∈ all_refs c) by (apply Hrefs; set_solver).
        destruct Hann as [[Hnil _]|[[w Hm] _]]; [rewrite <- Hnil in Hr1; by apply elem_of_nil in Hr1|].
        apply (lo_refs _ HL _ _ _ _ Hm) in Hr1. by apply elem_of_nil in Hr1.
      - assert (Hrc' : all_refs c ≠ []).
        { intros E. destruct Hann as [[Hnil _]|[[w Hm] _]]; [congruence|].
          assert (Hr : r0 ∈ all_refs c) by (apply (lo_refs _ HL _ _ _ _ Hm); set_solver).
          rewrite E in Hr. by apply elem_of_nil in Hr. }
        destruct (chain_refs_complete (the_env L e) (old_ast L e) new k news i c) as (p & Hin & Hpos); auto.
        { intros; by eapply the_nodes. }
        unfold ent_pos in Hpos. injection Hpos as Hp1 Hp2.
        pose proof (chain_refs_sound _ _ _ _ _ Hin) as (_ & _ & c' & Hc' & _ & Hsrc).
        rewrite Hp2, Hc in Hc'. injection Hc' as <-.
        assert (Hpr : p.1.1 = r0 :: rs).
        { destruct Hann as [[-> Hocc]|[[w Hm] Hnew]], Hsrc as [[-> Hocc']|[[w' Hm'] Hnew']]; try done.
          rewrite Hm in Hm'. by injection Hm'. }
        rewrite <- Hpr. apply refs_acts_msgs_one; auto.
        + apply refs_owner.
        + apply the_refs_nodup.
        + apply elem_of_refs. exists news. by rewrite Hp1.
        + by rewrite Hp1, Hp2.
        + set_solver.
    Qed.

    Lemma out_trace n : ~ in_table t' n -> refs_acts (o_wild o) t' [] (d_refs L d) ≫= act_msg n = [].
    Proof. intros Hn. apply refs_acts_msgs_none. intros p _ Ho. apply Hn. by exists p.1.2, p.2. Qed.
  End one_update.

  Lemma owner_fun (t : table) u v k i : owner t u k i -> owner t v k i -> u = v.
  Proof. intros (x & Hx & Hu) (y & Hy & Hv). congruence. Qed.

  Theorem tame_update_result o e new e' : einv L e -> aligned L e -> prog_ok L new -> tame L (old_ast L e) new ->
    update_ast L o e new = Ok (e', None) -> result o e new e'.
  Proof.
    intros He Hal Hpo Htame H. pose proof H as H0. unfold update_ast in H.
    destruct (plan L o (set_temp L e []) new) as [[[d t] ids]|er0|] eqn:Ep; [|done..].
    change (en_graph L (set_temp L e [])) with (en_graph L e) in H.
    destruct (foldM (add_one L) (en_graph L e, [], t) (d_adds L d)) as [[[g temp] t']|] eqn:Ea; [|done].
    destruct (ref_check L t' new (ref_names (d_refs L d))) as [r|] eqn:Er; [done|].
    destruct (rewire_acts o e new d t ids g temp t' He Hal Hpo Htame Ep Ea Er) as (g3 & Hg3 & Hrw).
    rewrite Hrw in H. injection H as <-.
    pose proof (the_up o e new d t ids g temp t' He Hal Hpo Htame Ep Ea) as Hup.
    destruct (g1_facts o e new d t ids g temp t' He Ep Ea) as (Hwf & Hed & Hwt & Hlive & Hinj & Hd & Hi & Hids).
    destruct (run_acts_spec L _ _ _ Hwf Hg3) as (Hwf3 & Hedge & Hlive3 & Htr).
    pose proof (adds_inv L _ _ _ _ _ _ _ _ _ He Ep Ea) as Hai.
    assert (Hsame : forall n, live (en_graph L e) n -> n ∉ ids ->
      node_weight (clear_edges (foldl remove_node g ids)) n = node_weight (en_graph L e) n).
    { intros n Hl Hn. rewrite Hwt by done. apply (ai_weight _ _ _ _ _ Hai). simpl.
      intros Hx. by apply (ai_temp _ _ _ _ _ Hai n Hx). }
    assert (Hout : forall n, (n = en_dest L e \/ n = en_input L e \/ in_table t' n) -> n ∉ ids).
    { intros n Hn Hx. destruct (Hids n Hx) as (? & ? & ?). tauto. }
    split; simpl; try done.
    - by eapply update_ast_inv in H0.
    - split; simpl.
      + done.
      + apply (up_len _ _ _ _ _ _ Hup).
      + intros k ids' Hk Hn. rewrite (up_gone _ _ _ _ _ _ Hup k Hn) in Hk.
        by destruct (decide (k = input_name)).
      + intros ids' Hk. rewrite (up_gone _ _ _ _ _ _ Hup _ (proj1 Hpo)), decide_True in Hk by done.
        by apply (al_input _ _ Hal).
    - apply (up_gone _ _ _ _ _ _ Hup).
    - apply (up_len _ _ _ _ _ _ Hup).
    - intros u v. rewrite Hedge, bind_app, elem_of_app.
      rewrite refs_acts_edges by (eapply refs_owner; eauto).
      rewrite (refs_edge_spec o e new d t ids t') by done.
      rewrite (chain_acts_edges _ _ t') by (apply (shuffled_map (o_conn o) t')).
      unfold edge at 1. rewrite Hed. unfold wired, chain_edge, chain_end, owner. split.
      + intros [[Hx|[(k & ids' & i & H1 & H2 & H3)|(k & ids' & H1 & H2 & H3 & ->)]]|Hx]; [auto| | |by apply elem_of_nil in Hx].
        * left. exists k, i. split; by exists ids'.
        * right; left. exists k. split_and!; auto. by exists ids'.
      + intros [(k & i & (x & H1 & H2) & (y & H3 & H4))|[(k & H1 & (x & H2 & H3) & ->)|Hx]]; [| |auto].
        * left; right; left. exists k, x, i. split_and!; auto. congruence.
        * left; right; right. exists k, x. done.
    - intros k i c v Hpl Hnew. pose proof Hpl as (news & Hk & Hc & Ho).
      destruct (up_new _ _ _ _ _ _ Hup k news i c Hk Hc Hnew) as (n & w & refs & Ho' & Htemp & Hm & Hw).
      assert (n = v) as -> by (by eapply owner_fun).
      split; [by apply (ai_temp _ _ _ _ _ Hai)|].
      destruct (Htr v w) as (st & Hst & Hw3).
      { rewrite Hwt; [done|]. apply Hout. right; right. by exists k, i. }
      exists w, refs, st. split_and!; auto.
      rewrite <- Hst. f_equal. symmetry. eapply node_trace; eauto. right. eauto.
    - intros k olds news i j a b n Ho Hk Ha Hb Hoa Hob Hrank Hn.
      pose proof (up_kept _ _ _ _ _ _ Hup k olds news i j a b n Ho Hk Ha Hb Hoa Hob Hrank Hn) as Hn'.
      split; [done|]. intros w Hw.
      destruct (Htr n w) as (st & Hst & Hw3).
      { rewrite Hsame; [done| |].
        - unfold live. eauto.
        - apply Hout. right; right. by exists k, j. }
      exists st. split; [|done]. rewrite <- Hst. f_equal. symmetry. eapply node_trace; eauto; [by exists news|].
      left. split; [done|]. unfold olds_of. by rewrite Ho.
    - intros w Hw. destruct (Htr (en_dest L e) w) as (st & Hst & Hw3).
      { rewrite Hsame; [done| |apply Hout; auto]. unfold live. eauto. }
      exists st. split; [|done]. rewrite <- Hst, bind_app. f_equal.
      by rewrite (out_trace o d t' _ Hd).
    - assert (Hl : live (en_graph L e) (en_input L e)) by (apply (ei_live _ _ He); auto).
      destruct Hl as [w Hw]. destruct (Htr (en_input L e) w) as (st & Hst & Hw3).
      { rewrite Hsame; [done| |apply Hout; auto]. unfold live. eauto. }
      rewrite bind_app, (out_trace o d t' _ Hi), chain_acts_msgs_out in Hst; [|done|].
      + simpl in Hst. injection Hst as <-. rewrite Hw3, Hw. by destruct w.
      + intros E. by apply (ei_ne _ _ He).
    - intros n Hin.
      assert (Hin' : t' !! input_name = Some [n]).
      { rewrite (up_gone _ _ _ _ _ _ Hup _ (proj1 Hpo)), decide_True by done. done. }
      assert (Hon : owner t' n input_name 0) by (by exists [n]).
      assert (Hl : live (en_graph L e) n).
      { apply (ei_live _ _ He). right; right. exists input_name, 0, [n]. done. }
      destruct Hl as [w Hw]. destruct (Htr n w) as (st & Hst & Hw3).
      { rewrite Hsame; [done| |apply Hout; right; right; by exists input_name, 0]. unfold live. eauto. }
      rewrite bind_app, (chain_acts_msgs _ _ _ input_name [n] 0 n) in Hst by done.
      rewrite refs_acts_msgs_none in Hst.
      + simpl in Hst. injection Hst as <-. rewrite Hw3, Hw. by destruct w.
      + intros p Hpd Hop. destruct (Hinj _ _ _ _ _ Hon Hop) as [Hpk _].
        eapply elem_of_refs in Hpd as (news & Hk & _); [|exact Ep]. rewrite <- Hpk in Hk.
        by rewrite (proj1 Hpo) in Hk.
  Qed.

  Theorem tame_update_total o e new : einv L e -> aligned L e -> prog_ok L new -> tame L (old_ast L e) new ->
    (forall k cs c, new !! k = Some cs -> c ∈ cs -> makenode (the_env L e) c ≠ Crash) ->
    is_ok (update_ast L o e new).
  Proof.
    intros He Hal Hpo Htame Hmk. unfold update_ast.
    pose proof (plan_no_crash L o e new Hal Hmk) as Hnc.
    destruct (plan L o (set_temp L e []) new) as [[[d t] ids]|er0|] eqn:Ep; [|done..].
    change (en_graph L (set_temp L e [])) with (en_graph L e).
    destruct (tame_adds_total L o e new d t ids He Hal Hpo (tame_orderly _ _ Htame) Ep) as ([[g temp] t'] & Ea).
    rewrite Ea. destruct (ref_check L t' new (ref_names (d_refs L d))) as [r|] eqn:Er; [done|].
    destruct (rewire_acts o e new d t ids g temp t' He Hal Hpo Htame Ep Ea Er) as (g3 & _ & Hrw).
    by rewrite Hrw.
  Qed.

  (** References are checked against the new program and the "~input" chain. *)
  Theorem update_ref_error o e new e' er : einv L e -> aligned L e -> prog_ok L new -> tame L (old_ast L e) new ->
    (forall k cs c, new !! k = Some cs -> c ∈ cs -> exists w, makenode (the_env L e) c = Done w) ->
    update_ast L o e new = Ok (e', er) ->
    let avail k := is_Some (new !! k) \/ (k = input_name /\ is_Some (en_info L e !! input_name)) in
    let used r := exists k cs c, new !! k = Some cs /\ c ∈ cs /\ r ∈ all_refs c in
    match er with
    | None => forall r, used r -> exists k, refers r k /\ avail k
    | Some x => exists r, x = NonExistReference r /\ used r /\ forall k, refers r k -> ~ avail k
    end.
  Proof.
    intros He Hal Hpo Htame Hmk H avail used. unfold update_ast in H.
    destruct (plan L o (set_temp L e []) new) as [[[d t] ids]|er0|] eqn:Ep; [| |done].
    - change (en_graph L (set_temp L e [])) with (en_graph L e) in H.
      destruct (foldM (add_one L) (en_graph L e, [], t) (d_adds L d)) as [[[g temp] t']|] eqn:Ea; [|done].
      pose proof (the_up o e new d t ids g temp t' He Hal Hpo Htame Ep Ea) as Hup.
      assert (Hav : forall k, is_Some (t' !! k) <-> avail k).
      { intros k. unfold avail. destruct (new !! k) as [news|] eqn:Ek.
        - destruct (up_len _ _ _ _ _ _ Hup k news Ek) as (x & -> & _). split; eauto.
        - rewrite (up_gone _ _ _ _ _ _ Hup k Ek). destruct (decide (k = input_name)) as [->|Hne].
          + split; [auto|]. intros [Hx|[_ Hx]]; [by destruct Hx|done].
          + split; [intros Hx; by destruct Hx|]. intros [Hx|[? _]]; [by destruct Hx|done]. }
      assert (Hused : forall r, r ∈ ref_names (d_refs L d) <-> used r).
      { intros r. rewrite elem_of_ref_names. unfold used. split.
        - intros (p & Hpd & Hr). eapply elem_of_refs in Hpd as (news & Hk & Hin); [|exact Ep].
          apply chain_refs_sound in Hin as (_ & _ & c & Hc & Hrefs & _).
          exists p.1.2, news, c. split_and!; auto; [by eapply elem_of_list_lookup_2|by apply Hrefs].
        - intros (k & cs & c & Hk & Hc & Hr). apply elem_of_list_lookup in Hc as [i Hi].
          destruct (chain_refs_complete (the_env L e) (old_ast L e) new k cs i c) as (p & Hin & Hpos); auto.
          { intros q Hq. by eapply the_nodes. }
          { intros E. rewrite E in Hr. by apply elem_of_nil in Hr. }
          unfold ent_pos in Hpos. injection Hpos as Hp1 Hp2. exists p. split.
          + eapply elem_of_refs; [exact Ep|]. exists cs. by rewrite Hp1.
          + apply chain_refs_sound in Hin as (_ & _ & c' & Hc' & Hrefs & _). rewrite Hp2, Hi in Hc'.
            injection Hc' as <-. by apply Hrefs. }
      assert (Hok : forall r, ref_ok L t' new r = true <-> exists k, refers r k /\ avail k).
      { intros r. rewrite ref_ok_spec. unfold refers. destruct (contains_dotdot r).
        - split; intros (k & H1 & H2); exists k; (split; [|by apply Hav]) || (split; [by apply Hav|]); done.
        - rewrite Hav. split.
          + intros [Hx|Hx]; exists r; split; auto. by left.
          + intros (k & -> & Hx). auto. }
      destruct (ref_check L t' new (ref_names (d_refs L d))) as [r|] eqn:Er.
      + injection H as <- <-. exists r. split; [done|].
        assert (Hr : r ∈ ref_names (d_refs L d) /\ ref_ok L t' new r = false).
        { revert Er. generalize (ref_names (d_refs L d)) as rs. induction rs as [|x rs IH]; simpl; [done|].
          destruct (ref_ok L t' new x) eqn:Ex.
          - intros Hx. destruct (IH Hx). split; [set_solver|done].
          - intros [= ->]. split; [set_solver|done]. }
        destruct Hr as [Hr1 Hr2]. split; [by apply Hused|]. intros k Hk Hx.
        assert (ref_ok L t' new r = true) by (apply Hok; eauto). congruence.
      + destruct (rewire_acts o e new d t ids g temp t' He Hal Hpo Htame Ep Ea Er) as (g3 & _ & Hrw).
        rewrite Hrw in H. injection H as <- <-. intros r Hr. apply Hok. eapply ref_check_all; [done|]. by apply Hused.
    - exfalso. injection H as <- <-. unfold plan in Ep. simpl in Ep.
      assert (Hd : forall old : ast, exists d', diff_chains L (the_env L e) old (o_new o _ (map_to_list new)) (diff0 L) = Done d').
      { intros old. apply diff_chains_total. intros [k cs] p Hin Hpin. rewrite shuf_perm in Hin.
        apply elem_of_map_to_list in Hin. simpl in Hpin. rewrite added_filter in Hpin.
        apply elem_of_list_filter in Hpin as [_ Hpin]. destruct p as [i c]. apply elem_of_enumerate in Hpin.
        destruct (Hmk k cs c Hin) as [w Hw]; [by eapply elem_of_list_lookup_2|]. unfold node_of. simpl. rewrite Hw. eauto. }
      change (the_env L (set_temp L e [])) with (the_env L e) in Ep.
      destruct (en_ast L e) as [old|].
      + destruct (Hd old) as [d' Hd']. rewrite Hd' in Ep. destruct (drop_chains _ _ _ _ _) as [st|]; [|done].
        by destruct (remove_all _ st) as [[? ?]|].
      + destruct (Hd ∅) as [d' Hd']. by rewrite Hd' in Ep.
  Qed.
End rewire.

(** * RefProofs: which references an update accepts, for arbitrary histories. *)
From Verif Require Export LiveProofs.
From Coq Require Import Lia.
Local Open Scope nat_scope.

Section refs.
  Context (L : lang) (HL : lang_ok L).
  Notation W := (node L * list (buf L))%type.
  Notation comp := (comp L).
  Notation ast := (gmap string (list comp)).
  Notation graph := (sgraph W).
  Notation table := (gmap string (list nat)).
  Notation engine := (engine L).

  (** Chains of the table are chains of the running program, or "~input". *)
  Definition keys_ok (e : engine) : Prop :=
    forall k, is_Some (en_info L e !! k) -> is_Some (old_ast L e !! k) \/ k = input_name.

  Lemma plan_gone o e new d t ids k : plan L o (set_temp L e []) new = Done (d, t, ids) ->
    new !! k = None -> t !! k = match old_ast L e !! k with Some _ => None | None => en_info L e !! k end.
  Proof.
    intros Hp En. pose proof (plan_diff _ _ _ _ _ _ _ Hp) as Hd.
    apply diff_chains_spec in Hd as (_ & _ & _ & Hrems). simpl in Hrems.
    change (old_ast L (set_temp L e [])) with (old_ast L e) in Hrems.
    unfold plan in Hp. simpl in Hp.
    destruct (en_ast L e) as [old|] eqn:Ea.
    - assert (Hold : old_ast L e = old) by (unfold old_ast; by rewrite Ea).
      destruct (diff_chains _ _ _ _ _) as [d0| |]; [|done..].
      destruct (drop_chains _ _ _ _ _) as [st|] eqn:E1; [|done].
      destruct (remove_all _ _) as [[t' i']|] eqn:E2; [|done]. injection Hp as <- <- <-.
      unfold drop_chains in E1. apply (drop_fold_lookup _ _ _ _ _ k) in E1. simpl in E1.
      unfold remove_all in E2. destruct st as [t1 acc]. simpl in E1.
      apply (remove_fold_proj _ _ _ _ _ k) in E2. rewrite Hrems, rems_pos_of, En in E2.
      assert (Hks : k ∈ o_old o _ (map_to_list old).*1 <-> is_Some (old !! k)).
      { rewrite shuf_perm. rewrite elem_of_list_fmap. split.
        - intros ([k' cs] & -> & Hin). apply elem_of_map_to_list in Hin. eauto.
        - intros [cs Hcs]. exists (k, cs). split; [done|]. by apply elem_of_map_to_list. }
      rewrite Hold. destruct (old !! k) as [olds|] eqn:Eo.
      + rewrite decide_True in E1 by (split; [apply Hks; eauto|done]). by rewrite E1 in E2.
      + rewrite decide_False in E1 by (intros [Hk _]; apply Hks in Hk; by destruct Hk).
        rewrite E1 in E2. destruct (en_info L e !! k) as [ids0|]; [|done]. destruct E2 as (ids' & Hr & ->).
        unfold removes in Hr. simpl in Hr. by injection Hr as ->.
    - destruct (diff_chains _ _ _ _ _) as [d0| |]; [|done..]. injection Hp as <- <- <-.
      unfold old_ast. rewrite Ea. simpl. by rewrite lookup_empty.
  Qed.

  (** The chains a reference may denote after the update. *)
  Definition available (e : engine) (new : ast) (k : string) : Prop :=
    is_Some (new !! k) \/ (k = input_name /\ is_Some (en_info L e !! input_name) /\ old_ast L e !! input_name = None).

  Lemma keys_after o e new d t ids g temp t' : einv L e -> keys_ok e -> (forall k, new !! k ≠ Some []) ->
    plan L o (set_temp L e []) new = Done (d, t, ids) ->
    foldM (add_one L) (en_graph L e, [], t) (d_adds L d) = Ok (g, temp, t') ->
    forall k, is_Some (t' !! k) <-> available e new k.
  Proof.
    intros He Hk Hne Hp Ha k. unfold available. destruct (new !! k) as [news|] eqn:En.
    - split; [eauto|]. intros _. destruct news as [|c cs]; [by destruct (Hne k)|]. eapply new_keys; eauto.
    - assert (Htt : t' !! k = t !! k).
      { pose proof (plan_diff _ _ _ _ _ _ _ Hp) as Hd.
        apply diff_chains_spec in Hd as (Hnode & Hadds & _ & _). simpl in Hadds.
        apply adds_spec in Ha as (nids & _ & Hlen & _ & _ & _ & _ & _ & _ & Hc); [|apply (ei_wf _ _ He)].
        rewrite Hadds in *. specialize (Hc k).
        match type of Hlen with _ = length (?x ≫= chain_adds _ ?ev ?old) =>
          pose proof (adds_of_chain L (o_new o) ev old new k nids Hlen) as Had end.
        rewrite En in Had. rewrite Had in Hc.
        - destruct (t !! k); simpl in Hc; by injection Hc.
        - intros k' news p Hk' Hin. eapply (Hnode (k', news)); [|done]. rewrite shuf_perm. by apply elem_of_map_to_list. }
      rewrite Htt, (plan_gone _ _ _ _ _ _ _ Hp En). split.
      + destruct (old_ast L e !! k) eqn:Eo; [by intros [? ?]|]. intros Hs. right.
        destruct (Hk k Hs) as [Hx|Hx]; [rewrite Eo in Hx; by destruct Hx|]. subst k. done.
      + intros [[? ?]|(-> & Hs & ->)]; done.
  Qed.

  Definition used (new : ast) (r : string) : Prop := exists k cs c, new !! k = Some cs /\ c ∈ cs /\ r ∈ all_refs c.

  Lemma names_used o e new d t ids r : plan L o (set_temp L e []) new = Done (d, t, ids) ->
    r ∈ ref_names (d_refs L d) <-> used new r.
  Proof.
    intros Hp. rewrite elem_of_ref_names. unfold used. split.
    - intros (p & Hpd & Hr). eapply elem_of_refs in Hpd as (news & Hk & Hin); [|done|exact Hp].
      apply chain_refs_sound in Hin as (_ & _ & c & Hc & Hrefs & _); [|done].
      exists p.1.2, news, c. split_and!; auto; [by eapply elem_of_list_lookup_2|by apply Hrefs].
    - intros (k & cs & c & Hk & Hc & Hr). apply elem_of_list_lookup in Hc as [i Hi].
      assert (Hx : exists p, p ∈ chain_refs L (the_env L e) (old_ast L e) (k, cs) /\ p.1.2 = k /\ r ∈ p.1.1).
      { destruct (decide (is_new L (old_ast L e) k c)) as [Hn|Hn].
        - assert (Hin : (i, c) ∈ added L (old_ast L e) k cs).
          { rewrite added_filter. apply elem_of_list_filter. split; [done|]. by apply elem_of_enumerate. }
          destruct (the_nodes L o e new d t ids Hp k cs _ Hk Hin) as [[w rs] Hw]. simpl in Hw.
          assert (Hm : makenode (the_env L e) c = Done (w, rs)).
          { unfold node_of in Hw. destruct (makenode (the_env L e) c) as [q| |]; [|done..]. by injection Hw as ->. }
          apply (lo_refs _ HL _ _ _ _ Hm) in Hr. exists (rs, k, i). split_and!; [|done|done].
          unfold chain_refs. apply elem_of_app. right. apply elem_of_list_bind. exists (i, c). split; [|done].
          unfold ref_entry. simpl. rewrite Hw. simpl. destruct rs; [by apply elem_of_nil in Hr|set_solver].
        - assert (Hocc : occurs_old L (olds_of L (old_ast L e) k) c).
          { unfold is_new in Hn. destruct (decide (occurs_old L (olds_of L (old_ast L e) k) c)); done. }
          apply occurs_old_spec in Hocc as (oc & Ho & Heq).
          destruct (find_comp_is_some L oc cs) as (idx & nc & E).
          { apply occurs_new_spec. exists c. split; [by eapply elem_of_list_lookup_2|done]. }
          pose proof E as E'. apply find_comp_some in E' as (Hl & He' & _).
          assert (Hrefs : all_refs nc = all_refs c).
          { rewrite <- (lo_eq_refs _ HL _ _ He'). by apply (lo_eq_refs _ HL). }
          exists (all_refs c, k, idx). split_and!; [|done|done].
          unfold chain_refs. apply elem_of_app. left. apply elem_of_list_bind. exists oc. split; [|done].
          unfold kept_ref. simpl. rewrite E, Hrefs. destruct (all_refs c); [by apply elem_of_nil in Hr|set_solver]. }
      destruct Hx as (p & Hin & Hpk & Hrp). exists p. split; [|done].
      eapply elem_of_refs; [done|exact Hp|]. exists cs. by rewrite Hpk.
  Qed.

  Theorem ref_check_exact o e new e' er : einv L e -> keys_ok e -> (forall k, new !! k ≠ Some []) ->
    update_ast L o e new = Ok (e', er) ->
    match er with
    | None => forall r, used new r -> exists k, refers r k /\ available e new k
    | Some (NonExistReference r) => used new r /\ forall k, refers r k -> ~ available e new k
    | Some (NonExistSample s) => exists k cs c, new !! k = Some cs /\ c ∈ cs /\ makenode (the_env L e) c = Fail (NonExistSample s)
    | Some ParsingError => False
    end.
  Proof.
    intros He Hko Hne H. unfold update_ast in H.
    destruct (plan L o (set_temp L e []) new) as [[[d t] ids]|er0|] eqn:Ep; [| |done].
    - change (en_graph L (set_temp L e [])) with (en_graph L e) in H.
      destruct (foldM (add_one L) (en_graph L e, [], t) (d_adds L d)) as [[[g temp] t']|] eqn:Ea; [|done].
      pose proof (keys_after _ _ _ _ _ _ _ _ _ He Hko Hne Ep Ea) as Hav.
      assert (Hok : forall r, ref_ok L t' new r = true <-> exists k, refers r k /\ available e new k).
      { intros r. rewrite ref_ok_spec. unfold refers. destruct (contains_dotdot r).
        - split; intros (k & H1 & H2); exists k; (split; [|by apply Hav]) || (split; [by apply Hav|]); done.
        - rewrite Hav. split.
          + intros [Hx|Hx]; exists r; split; auto. by left.
          + intros (k & -> & Hx). auto. }
      destruct (ref_check L t' new (ref_names (d_refs L d))) as [r|] eqn:Er.
      + injection H as <- <-.
        assert (Hr : r ∈ ref_names (d_refs L d) /\ ref_ok L t' new r = false).
        { revert Er. generalize (ref_names (d_refs L d)) as rs. induction rs as [|x rs IH]; simpl; [done|].
          destruct (ref_ok L t' new x) eqn:Ex.
          - intros Hx. destruct (IH Hx). split; [set_solver|done].
          - intros [= ->]. split; [set_solver|done]. }
        destruct Hr as [Hr1 Hr2]. split; [by apply (names_used _ _ _ _ _ _ r Ep)|]. intros k Hk Hx.
        assert (ref_ok L t' new r = true) by (apply Hok; eauto). congruence.
      + assert (Hall : forall r, used new r -> exists k, refers r k /\ available e new k).
        { intros r Hr. apply Hok. eapply ref_check_all; [done|]. by apply (names_used _ _ _ _ _ _ r Ep). }
        unfold rewire in H. simpl in H.
        destruct (foldM (connect_refs_one _ _ _) _ _) as [[[g2 s2] er2]|] eqn:Ec; [|done].
        apply connect_refs_no_err in Ec.
        * subst er2. destruct (foldM (connect_chain L _) _ _); [|done]. injection H as <- <-. done.
        * intros p Hp. eapply new_keys; eauto. eapply refs_in_new; eauto.
    - injection H as <- <-. unfold plan in Ep. simpl in Ep.
      change (the_env L (set_temp L e [])) with (the_env L e) in Ep.
      assert (Hd : forall (old : ast) l d0, (forall kv, kv ∈ l -> new !! kv.1 = Some kv.2) ->
        diff_chains L (the_env L e) old l d0 = Fail er0 ->
        exists k cs c, new !! k = Some cs /\ c ∈ cs /\ makenode (the_env L e) c = Fail er0).
      { assert (Hadd : forall k l d0, add_nodes L (the_env L e) k l d0 = Fail er0 ->
          exists p, p ∈ l /\ makenode (the_env L e) p.2 = Fail er0).
        { intros k l. induction l as [|[i c] l IH]; intros d0 Hl; simpl in Hl; [done|].
          destruct (makenode (the_env L e) c) as [[w rs]|er1|] eqn:Em; [| |done].
          - destruct (IH _ Hl) as (p & ? & ?). exists p. split; [set_solver|done].
          - injection Hl as ->. exists (i, c). split; [set_solver|done]. }
        intros old l. induction l as [|kv l IH]; intros d0 Hl Hf; simpl in Hf; [done|].
        destruct (diff_chain L (the_env L e) old d0 kv) as [d1|er1|] eqn:Ed; [| |done].
        - eapply IH; [|exact Hf]. intros; apply Hl; set_solver.
        - injection Hf as ->. pose proof (Hl kv ltac:(set_solver)) as Hk. unfold diff_chain in Ed.
          exists kv.1, kv.2. destruct (old !! kv.1) as [olds|]; apply Hadd in Ed as ([i c] & Hin & Hm); exists c; (split; [done|]); (split; [|done]).
          + apply elem_of_list_filter in Hin as [_ Hin]. apply elem_of_enumerate in Hin. by eapply elem_of_list_lookup_2.
          + apply elem_of_enumerate in Hin. by eapply elem_of_list_lookup_2. }
      pose proof (shuffled_map (o_new o) new) as [_ Hl].
      assert (Hl' : forall kv, kv ∈ o_new o _ (map_to_list new) -> new !! kv.1 = Some kv.2) by (intros; by apply Hl).
      assert (Hx : exists k cs c, new !! k = Some cs /\ c ∈ cs /\ makenode (the_env L e) c = Fail er0).
      { destruct (en_ast L e) as [old|]; destruct (diff_chains _ _ _ _ _) as [d0|er1|] eqn:Ed; try done.
        - destruct (drop_chains _ _ _ _ _) as [st|]; [|done]. by destruct (remove_all _ st) as [[? ?]|].
        - injection Ep as ->. eauto.
        - injection Ep as ->. eauto. }
      destruct Hx as (k & cs & c & H1 & H2 & H3). destruct (lo_fail _ HL _ _ _ H3) as [s ->]. by exists k, cs, c.
  Qed.

  Lemma update_keys o e new e' : einv L e -> keys_ok e ->
    update_ast L o e new = Ok (e', None) -> keys_ok e'.
  Proof.
    intros He Hko H. unfold update_ast in H.
    destruct (plan L o (set_temp L e []) new) as [[[d t] ids]|er0|] eqn:Ep; [|done..].
    change (en_graph L (set_temp L e [])) with (en_graph L e) in H.
    destruct (foldM (add_one L) (en_graph L e, [], t) (d_adds L d)) as [[[g temp] t']|] eqn:Ea; [|done].
    destruct (ref_check L t' new (ref_names (d_refs L d))) as [r|] eqn:Er; [done|].
    unfold rewire in H. simpl in H.
    destruct (foldM (connect_refs_one _ _ _) _ _) as [[[g2 s2] [er2|]]|] eqn:Ec; [done| |done].
    destruct (foldM (connect_chain L _) _ _); [|done]. injection H as <-. intros k Hk. simpl in Hk.
    unfold old_ast. simpl. destruct (new !! k) as [news|] eqn:En; [eauto|]. right.
    assert (Htt : t' !! k = t !! k).
    { pose proof (plan_diff _ _ _ _ _ _ _ Ep) as Hd.
      apply diff_chains_spec in Hd as (Hnode & Hadds & _ & _). simpl in Hadds.
      apply adds_spec in Ea as (nids & _ & Hlen & _ & _ & _ & _ & _ & _ & Hc); [|apply (ei_wf _ _ He)].
      rewrite Hadds in *. specialize (Hc k).
      match type of Hlen with _ = length (?x ≫= chain_adds _ ?ev ?old) =>
        pose proof (adds_of_chain L (o_new o) ev old new k nids Hlen) as Had end.
      rewrite En in Had. rewrite Had in Hc.
      - destruct (t !! k); simpl in Hc; by injection Hc.
      - intros k' news p Hk' Hin. eapply (Hnode (k', news)); [|done]. rewrite shuf_perm. by apply elem_of_map_to_list. }
    rewrite Htt, (plan_gone _ _ _ _ _ _ _ Ep En) in Hk.
    destruct (old_ast L e !! k) eqn:Eo; [by destruct Hk|]. destruct (Hko k Hk) as [Hx|Hx]; [|done].
    rewrite Eo in Hx. by destruct Hx.
  Qed.

  Lemma keys_ok_ext e e' : keys_ok e -> en_ast L e' = en_ast L e -> en_info L e' = en_info L e -> keys_ok e'.
  Proof.
    intros H Ha Hi k. assert (Ho : old_ast L e' = old_ast L e) by (unfold old_ast; by rewrite Ha).
    rewrite Hi, Ho. apply H.
  Qed.

  Lemma run_keys blk e cs e' obs : einv L e -> keys_ok e -> run L blk e cs = Ok (e', obs) -> keys_ok e'.
  Proof.
    revert e obs. induction cs as [|c cs IH]; intros e obs He Hk; simpl; [by intros [= <- <-]|].
    destruct (step L blk e c) as [[e1 ob]|] eqn:E; [|done].
    destruct (run L blk e1 cs) as [[e2 obs']|] eqn:E2; [|done]. intros [= <- <-].
    eapply IH; [|clear IH E2|exact E2]; [by eapply step_inv|].
    pose proof (step_frame _ _ _ _ _ _ E) as Hf.
    destruct c as [o code|shs ins|c m|nm s|b|sr|sd|].
    - simpl in E. unfold update in E. destruct (parse code) as [new|er|]; [| |done].
      + destruct (update_ast L o e new) as [[e3 [er|]]|] eqn:Eu; [| |done]; injection E as <- <-.
        * apply update_ast_fail in Eu; [|done]. destruct Eu. by eapply keys_ok_ext.
        * by eapply update_keys.
      + by injection E as <- <-.
    - destruct Hf as (? & ? & _). by eapply keys_ok_ext.
    - destruct Hf as (? & ? & _). by eapply keys_ok_ext.
    - destruct Hf as (? & ? & _). by eapply keys_ok_ext.
    - destruct Hf as (? & ? & _). by eapply keys_ok_ext.
    - destruct Hf as (? & ? & _). by eapply keys_ok_ext.
    - destruct Hf as (? & ? & _). by eapply keys_ok_ext.
    - simpl in E. injection E as <- <-. intros k. simpl. rewrite lookup_empty. by intros [? ?].
  Qed.

  Lemma new_engine_keys : keys_ok (engine_new L).
  Proof. intros k [ids Hk]. simpl in Hk. apply lookup_singleton_Some in Hk as [<- _]. by right. Qed.
End refs.

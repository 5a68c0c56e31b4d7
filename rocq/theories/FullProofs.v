(** * FullProofs: a [Buffer<N>] always holds N samples.

    In the source the length of a buffer is part of its type (/repo/rs/synth/src/buffer.rs:27);
    in the model a buffer is a list, so it is proved: whatever the calls, every buffer of
    every node, also inside compound nodes, has exactly [p_blk] samples. *)
From Verif Require Import WeightProofs Props_Signal.
From Coq Require Import Lia.
Local Open Scope nat_scope.

Section full.
  Context (P : platform).
  Definition full (b : sig) : Prop := length b = p_blk P.
  Definition fulls (bs : list sig) : Prop := bs <> [] /\ Forall full bs.
  Definition ins_full (ins : inmap) : Prop := Forall (fun p => fulls p.2) ins.

  Lemma silent_full : full (silent P).
  Proof. apply replicate_length. Qed.
  Lemma in_id_full ins i bs : ins_full ins -> in_id ins i = Ok bs -> fulls bs.
  Proof.
    induction 1 as [|p ins Hp _ IH]; simpl; [done|]. destruct (p.1 =? i)%nat; [by intros [= <-]|done].
  Qed.
  Lemma in_ord_full ins o k bs : ins_full ins -> in_ord ins o k = Ok bs -> fulls bs.
  Proof. intros H. unfold in_ord. destruct (o !! k); [|done]. by apply in_id_full. Qed.
  Lemma chan_full bs c b : fulls bs -> chan bs c = Ok b -> full b.
  Proof.
    intros [_ H]. unfold chan, unwrap. destruct (bs !! c) as [x|] eqn:E; [|done]. intros [= <-].
    by eapply (Forall_lookup_1 _ _ _ _ H).
  Qed.
  Lemma put0_full out b out' : fulls out -> full b -> put0 out b = Ok out' -> fulls out'.
  Proof.
    intros [Hn H] Hb. destruct out as [|x out]; [done|]. intros [= <-]. split; [done|].
    inversion H; subst. by constructor.
  Qed.
  Lemma put01_full out l r out' : fulls out -> full l -> full r -> put01 out l r = Ok out' -> fulls out'.
  Proof.
    intros [Hn H] Hl Hr. destruct out as [|x [|y out]]; try done. intros [= <-]. split; [done|].
    apply Forall_cons in H as [_ H]. apply Forall_cons in H as [_ H]. by repeat constructor.
  Qed.
  Lemma scan_len {S A B} (f : S -> A -> S * B) s xs s' o : scan f s xs = (s', o) -> length o = length xs.
  Proof. intros H. pose proof (scan_length f s xs) as Hl. by rewrite H in Hl. Qed.
  Lemma default_full b (o : option sig) : full b -> (forall x, o = Some x -> full x) -> full (default b o).
  Proof. intros Hb Ho. destruct o; simpl; auto. Qed.
  Lemma lookup_full bs c x : fulls bs -> bs !! c = Some x -> full x.
  Proof. intros [_ H] E. by eapply (Forall_lookup_1 _ _ _ _ H). Qed.

  Lemma pass_full ins out : fulls out -> ins_full ins -> fulls (pass_out ins out).
  Proof.
    intros [Hn Ho] Hi.
    assert (Hl : pass_out ins out <> []).
    { intros H. apply (f_equal length) in H. rewrite pass_out_length in H. by destruct out. }
    split; [done|]. destruct ins as [|[i bs] ins]; [done|].
    apply Forall_cons in Hi as [[_ Hb] _]. cbn [snd] in Hb. unfold pass_out. cbn [snd].
    assert (Hz : Forall full (zip_with (fun (b : sig) (_ : sig) => b) bs out ++ drop (length bs) out)).
    { apply Forall_app. split; [|by apply Forall_drop].
      clear Hn Hl. revert out Ho. induction Hb as [|b bs Hb _ IH]; intros [|o out] Ho; simpl; constructor; [done|].
      apply IH. by inversion Ho. }
    destruct bs as [|b [|]]; [exact Hz| |exact Hz].
    destruct out as [|x [|y [|]]]; exact Hz || (apply Forall_cons in Hb as [Hb _]; by repeat constructor).
  Qed.
  Lemma sum_chan_full ins ch : ins_full ins -> full (sum_chan P ins ch).
  Proof.
    unfold sum_chan. intros Hi. generalize silent_full. generalize (silent P) as acc.
    induction Hi as [|p ins Hp _ IH]; intros acc Ha; simpl; [done|]. apply IH.
    destruct (p.2 !! ch) as [b|] eqn:E; [|done]. apply (lookup_full _ _ _ Hp) in E.
    unfold full, add_sig in *. rewrite zip_with_length. lia.
  Qed.
  Lemma sum2_chan_full ins ch b : ins_full ins -> sum2_chan P ins ch = Ok b -> full b.
  Proof.
    unfold sum2_chan. intros Hi H. refine (foldM_inv full _ _ _ _ silent_full _ H).
    intros x p x' Hx Hp E. pose proof (proj1 (Forall_forall _ _) Hi p Hp) as Hf. simpl in Hf.
    destruct (p.2 !! ch) as [y|] eqn:Ey.
    - injection E as <-. apply (lookup_full _ _ _ Hf) in Ey. unfold full, add_sig in *. rewrite zip_with_length. lia.
    - unfold mbind, res_bind in E. destruct (chan p.2 0) as [y|] eqn:Ec; [|done]. injection E as <-.
      apply (chan_full _ _ _ Hf) in Ec. unfold full, add_sig in *. rewrite zip_with_length. lia.
  Qed.
  Lemma chans_full f rs out ins r : fulls ins -> Forall full out ->
    (forall r b r' b', full b -> f r b = Ok (r', b') -> full b') ->
    chans f rs out ins = Ok r -> Forall full r.2.
  Proof.
    intros [_ Hi] Ho Hf. revert rs ins r Hi. induction Ho as [|o out Ho1 Ho IH]; intros rs ins r Hi.
    - destruct rs, ins; simpl; intros [= <-]; constructor.
    - destruct rs as [|r0 rs]; [simpl; intros [= <-]; by constructor|].
      destruct Hi as [|b ins Hb Hi]; [simpl; intros [= <-]; by constructor|].
      simpl. destruct (f r0 b) as [[r1 b1]|] eqn:E; [|done]. simpl. destruct (chans f rs out ins) as [r2|] eqn:E2; [|done]. simpl.
      intros [= <-]. simpl. constructor; [by eapply Hf|]. by eapply IH.
  Qed.
  Lemma ar_loop_full s ins i old s' o : ar_loop s ins i old = Ok (s', o) -> length o = length old.
  Proof.
    revert s i s' o. induction old as [|x old IH]; intros s i s' o; simpl; [by intros [= <- <-]|].
    destruct (ar_find _ _ _ _) as [j| | |]; unfold mbind, res_bind; simpl.
    - destruct (in_ord ins (ar_ord s) j) as [bs|]; [|done]. destruct (chan bs 0) as [b|]; [|done]. destruct (unwrap _); [|done].
      destruct (ar_loop _ _ _ _) as [[s1 o1]|] eqn:E; [|done]. intros [= <- <-]. simpl. f_equal. by eapply IH.
    - destruct (in_ord ins (ar_ord s) 0) as [bs|]; [|done]. destruct (chan bs 0) as [b|]; [|done]. destruct (unwrap _); [|done].
      destruct (ar_loop _ _ _ _) as [[s1 o1]|] eqn:E; [|done]. intros [= <- <-]. simpl. f_equal. by eapply IH.
    - destruct (ar_loop _ _ _ _) as [[s1 o1]|] eqn:E; [|done]. intros [= <- <-]. simpl. f_equal. by eapply IH.
    - intros [= <- <-]. done.
  Qed.
  Lemma meta_write_length b r : length (meta_write b r) = length b.
  Proof. revert r. induction b as [|x b IH]; intros [|v r]; simpl; auto. Qed.
  Lemma op_full op st ins out st' out' : fulls out -> ins_full ins -> op_proc op st ins out = Ok (st', out') -> fulls out'.
  Proof.
    intros Ho Hi. unfold op_proc, apply_op. destruct Ho as [_ Ho]. destruct out as [|o out]; [done|].
    assert (Hk : forall l r, full l -> full r -> fulls (l :: match out with [] => [] | _ :: o => r :: o end)).
    { intros l r Hl Hr. split; [done|]. constructor; [done|]. apply Forall_cons in Ho as [_ Ho].
      destruct Ho as [|? ? _ Ho]; constructor; auto. }
    unfold mbind, res_bind, mret, res_ret.
    destruct ins as [|p [|q [|]]]; cbn beta iota.
    - intros [= <- <-]. by split.
    - apply Forall_cons in Hi as [Hp _]. destruct (chan p.2 0) as [m0|] eqn:E; [|done]. intros [= <- <-].
      apply (chan_full _ _ _ Hp) in E. apply Hk; unfold full; rewrite fmap_length; [done|].
      apply default_full; [done|]. intros x. by apply lookup_full.
    - destruct (in_ord _ _ 0) as [mb|] eqn:E1; [|done]. destruct (in_ord _ _ 1) as [rb|] eqn:E2; [|done].
      apply (in_ord_full _ _ _ _ Hi) in E1, E2.
      destruct (chan mb 0) as [m0|] eqn:E3; [|done]. destruct (chan rb 0) as [r0|] eqn:E4; [|done]. intros [= <- <-].
      apply (chan_full _ _ _ E1) in E3. apply (chan_full _ _ _ E2) in E4.
      assert (H3 : full (default m0 (mb !! 1))) by (apply default_full; [done|]; intros x; by apply lookup_full).
      assert (H4 : full (default r0 (rb !! 1))) by (apply default_full; [done|]; intros x; by apply lookup_full).
      unfold full in *. apply Hk; unfold full, zip_op; rewrite zip_with_length; lia.
    - intros [= <- <-]. by split.
  Qed.

  Ltac facts := repeat match goal with
    | Hi : ins_full _, E : in_ord _ _ _ = Ok _ |- _ => apply (in_ord_full _ _ _ _ Hi) in E
    | Hi : ins_full _, E : in_first _ = Ok _ |- _ =>
        apply (fun H => proj1 (proj1 (Forall_cons _ _ _) Hi)) in E
    | Hf : fulls ?bs, E : chan ?bs _ = Ok _ |- _ => apply (chan_full _ _ _ Hf) in E
    | E : scan _ _ _ = (_, _) |- _ => apply scan_len in E
    | E : scanR _ _ _ = Ok (_, _) |- _ => apply scanR_length in E
    end.
  Ltac one := match goal with Hi : ins_full (?p :: _) |- _ => pose proof (proj1 (proj1 (Forall_cons _ _ _) Hi)) end.
  Ltac fin := unfold full in *; rewrite ?fmap_length, ?zip_with_length, ?replicate_length, ?seq_length in *; cbn [length fst snd] in *; try lia.
  Ltac crush := try one; facts;
    first [ assumption
          | match goal with E : put0 _ _ = Ok ?o |- fulls ?o => refine (put0_full _ _ _ _ _ E); [assumption|fin] end
          | match goal with E : put01 _ _ _ = Ok ?o |- fulls ?o => refine (put01_full _ _ _ _ _ _ _ E); [assumption|fin|fin] end ].

  Lemma sproc_full (n : snode P) ins out n' out' : fulls out -> ins_full ins ->
    sproc P n ins out = Ok (n', out') -> fulls out'.
  Proof.
    intros Ho Hi. destruct n; cbn [sproc]; try (intros (s' & H & _)%wrap_inv).
    - intros [= <- <-]. by apply pass_full.
    - intros [= <- <-]. unfold sum_proc. split.
      { destruct Ho as [Ho _]. by destruct out. }
      apply Forall_forall. intros b Hb. apply elem_of_lookup_imap in Hb as (i & x & -> & _). by apply sum_chan_full.
    - destruct (sum2_proc P ins out) as [o|] eqn:E; [|done]. intros [= <- <-]. split.
      { intros ->. apply mapR_length in E. rewrite seq_length in E. destruct Ho as [Ho _]. by destruct out. }
      apply mapR_Ok in E. clear Ho. induction E; constructor; [by eapply sum2_chan_full|done].
    - by eapply op_full.
    - by eapply op_full.
    - unfold osc_proc in H.
      assert (Hput : forall b o, full b -> osc_put w out b = Ok o -> fulls o).
      { intros b o Hb E. destruct w; [|by eapply put0_full..]. injection E as <-. destruct Ho as [Ho _]. split.
        - by destruct out.
        - apply Forall_fmap, Forall_forall. done. }
      res_inv H; auto.
      + facts. match goal with E : osc_put _ _ _ = Ok _ |- _ => eapply Hput; [|exact E]; fin end.
      + one. match goal with E : (match os_ord s with [] => _ | _ :: _ => _ end) = Ok ?a |- _ =>
          assert (fulls a) by (destruct (os_ord s); [by injection E as <-|by eapply in_ord_full]) end.
        facts. match goal with E : osc_put _ _ _ = Ok _ |- _ => eapply Hput; [|exact E]; fin end.
    - unfold csig_proc in H. res_inv H. crush.
    - unfold imp_proc in H. res_inv H. crush.
    - unfold noise_proc in H. apply (f_equal (fun r => match r with Ok p => p.2 | Panic => [] end)) in H. cbn beta iota in H.
      cbn [snd] in H. rewrite <- H. split.
      { intros Hn. apply (f_equal length) in Hn. rewrite scan_length in Hn. destruct Ho as [Ho _]. by destruct out. }
      clear. revert s. induction out as [|o out IH]; intros s; simpl; [constructor|].
      destruct (scan _ s (replicate _ _)) as [s1 b] eqn:E. specialize (IH s1). destruct (scan _ s1 out) as [s2 l]. simpl in *.
      constructor; [|done]. apply scan_len in E. by rewrite replicate_length in E.
    - unfold balance_proc in H. res_inv H; crush.
    - unfold pan_proc in H. res_inv H; crush.
    - unfold spd_proc in H. destruct (silent P) as [|x r] eqn:Es; [done|]. res_inv H.
      pose proof silent_full as Hs. rewrite Es in Hs. crush.
    - unfold eval_proc in H. destruct ins as [|p ins]; cbn [mbind res_bind] in H; res_inv H; res_inv E; crush.
    - unfold meta_proc in H. res_inv H; auto.
      match goal with E : put0 _ _ = Ok _ |- _ => refine (put0_full _ _ _ Ho _ E) end. facts. unfold full. by rewrite meta_write_length.
    - unfold seq_proc in H. res_inv H; crush.
    - unfold choose_proc in H. res_inv H. match goal with E : mapR _ _ = Ok _ |- _ => apply mapR_length in E end. crush.
    - unfold arrange_proc in H. res_inv H. match goal with E : ar_loop _ _ _ _ = Ok ?x |- _ => destruct x as [? ?]; apply ar_loop_full in E end. crush.
    - unfold points_proc in H. res_inv H; crush.
    - unfold psynth_proc in H. res_inv H; crush.
    - unfold msynth_proc in H. res_inv H; crush.
    - unfold sampler_proc in H. res_inv H; crush; apply silent_full.
    - unfold psampler_proc in H. res_inv H; crush.
    - destruct ins as [|p [|]]; [by injection H as <- <-| |by injection H as <- <-].
      unfold delayn_proc in H. destruct (dn_n s =? 0)%Z.
      { assert (out' = pass_out [p] out) as -> by congruence. by apply pass_full. }
      res_inv H. one. facts.
      match goal with E : put0 _ _ = Ok ?a |- _ => assert (Ha : fulls a) by (refine (put0_full _ _ _ Ho _ E); fin) end.
      destruct (p.2) as [|b [|]]; try done. destruct Ha as [Hne Ha].
      match goal with E : put0 _ _ = Ok ?a |- _ => destruct a as [|x [|y [|]]] end; try (split; [assumption|assumption]).
      apply Forall_cons in Ha as [Hx _]. split; [done|]. by repeat constructor.
    - unfold delayms_proc in H. destruct (in_first ins) as [m|] eqn:Em; [|done]. cbn [mbind res_bind] in H.
      assert (Hm : fulls m).
      { destruct ins as [|p ins]; [done|]. injection Em as <-. by inversion Hi. }
      assert (Hn : forall o, Forall full o -> length o = length out -> fulls o).
      { intros o H1 H2. split; [|done]. intros ->. destruct Ho as [Ho _]. by destruct out. }
      res_inv H; auto; try (by crush).
      + apply Hn; [|by eapply chans_length]. destruct Ho as [_ Ho]. eapply chans_full; [| | |exact E1]; [done|done|].
        intros r b r' b' Hb [= E2]. pose proof (scan_length ring_push r b) as Hl. rewrite E2 in Hl. simpl in Hl. by unfold full in *; lia.
      + apply Hn; [|by eapply chans_length]. destruct Ho as [_ Ho]. facts.
        match goal with E : mapR _ _ = Ok _ |- _ => apply mapR_length in E end.
        match goal with E : chans _ _ _ _ = Ok _ |- _ => eapply chans_full; [| | |exact E]; [done|done|] end.
        intros r b r' b' Hb E9. unfold delayms_mod_chan in E9. apply scanR_length in E9. fin.
    - unfold envperc_proc in H. res_inv H; crush.
    - unfold adsr_proc in H. res_inv H; auto. facts.
      match goal with E : put0 _ _ = Ok ?a |- _ => assert (Ha : fulls a) by (refine (put0_full _ _ _ Ho _ E); fin) end.
      destruct Ha as [Hne Ha].
      match goal with E : put0 _ _ = Ok ?a |- _ => destruct a as [|x [|y [|]]] end; try (split; [assumption|assumption]).
      apply Forall_cons in Ha as [Hx _]. split; [done|]. by repeat constructor.
    - unfold apf_proc in H. res_inv H; crush.
    - unfold onepole_proc in H. res_inv H; crush.
    - unfold rlpf_proc, bq_proc_mod in H. res_inv H; crush.
    - unfold rhpf_proc, bq_proc_mod in H. res_inv H; crush.
  Qed.

  (** ** Compound nodes *)

  Notation iw := (snode P * list sig)%type.
  Definition inner (g : sgraph iw) : Prop := gall (fun _ _ b => fulls b) g.
  Definition whole (n : gnode P) : Prop := match n with Simple _ => True | Comp c => inner (cp_graph P c) end.

  Lemma mono_full (n : snode P) : fulls (mono P n).2.
  Proof. split; [done|]. repeat constructor. apply silent_full. Qed.
  Lemma stereo_full (n : snode P) : fulls (stereo P n).2.
  Proof. split; [done|]. repeat constructor; apply silent_full. Qed.

  Lemma isend_inner g n m g' : inner g -> isend P g n m = Ok g' -> inner g'.
  Proof.
    intros Hg. unfold isend. destruct (node_weight g n) as [w|] eqn:E; [|done]. destruct (smsg P w.1 m) as [st|]; [|done].
    intros Hs. eapply gall_set; [exact Hg| |exact Hs]. exact (Hg n w E).
  Qed.
  Lemma ichain_inner l g g' : inner g -> ichain P g l = Ok g' -> inner g'.
  Proof.
    revert g. induction l as [|a l IH]; intros g Hg; [by intros [= <-]|]. destruct l as [|b l]; [by intros [= <-]|].
    change (ichain P g (a :: b :: l)) with (g1 ← iconnect P g a b; ichain P g1 (b :: l)).
    unfold mbind, res_bind. destruct (iconnect P g a b) as [g1|] eqn:E; [|done]. apply IH.
    unfold iconnect, mbind, res_bind in E. destruct (add_edge g a b) as [g2|] eqn:E2; [|done].
    eapply isend_inner; [|exact E]. eapply gall_same; [exact Hg|]. intros n.
    apply add_edge_spec in E2 as (_ & _ & Hs & _). unfold node_weight. by rewrite Hs.
  Qed.
  Lemma build_inner ws cs g : Forall (fun w => fulls w.2) ws -> build P ws cs = Ok g -> inner g.
  Proof.
    intros Hw. unfold build. intros H.
    refine (foldM_inv inner _ _ _ _ _ _ H).
    - intros n w Hn. unfold node_weight in Hn. simpl in Hn.
      destruct n as [|[|[|n]]]; simpl in Hn.
      + injection Hn as <-. apply stereo_full.
      + injection Hn as <-. apply stereo_full.
      + injection Hn as <-. apply mono_full.
      + rewrite list_lookup_fmap in Hn. destruct (ws !! n) as [v|] eqn:E; [|done]. simpl in Hn. injection Hn as <-.
        exact (Forall_lookup_1 _ _ _ _ Hw E).
    - intros x b x' Hx _. by apply ichain_inner.
  Qed.
  Ltac parts := repeat first [apply Forall_nil; exact I | apply Forall_cons; split; [first [apply mono_full|apply stereo_full]|]].
  Lemma bd_inner v c : bd_new P v = Ok c -> inner (cp_graph P c).
  Proof.
    unfold bd_new, mbind, res_bind. destruct (build _ _ _) as [g|] eqn:E; [|done]. intros [= <-]. simpl.
    eapply build_inner; [|exact E]. parts.
  Qed.
  Lemma hh_inner v c : hh_new P v = Ok c -> inner (cp_graph P c).
  Proof.
    unfold hh_new, mbind, res_bind. destruct (build _ _ _) as [g|] eqn:E; [|done]. intros [= <-]. simpl.
    eapply build_inner; [|exact E]. parts.
  Qed.
  Lemma sn_inner v c : sn_new P v = Ok c -> inner (cp_graph P c).
  Proof.
    unfold sn_new, mbind, res_bind. destruct (build _ _ _) as [g|] eqn:E; [|done]. intros [= <-]. simpl.
    eapply build_inner; [|exact E]. parts.
  Qed.
  Lemma synth_inner w a d c : synth_new P w a d = Ok c -> inner (cp_graph P c).
  Proof.
    unfold synth_new, mbind, res_bind. destruct (build _ _ _) as [g|] eqn:E; [|done]. intros [= <-]. simpl.
    eapply build_inner; [|exact E]. parts.
  Qed.
  Definition good (r : res iw) : Prop := match r with Ok w => fulls w.2 | Panic => True end.
  Lemma mapR_good l ws : Forall good l -> mapR id l = Ok ws -> Forall (fun w => fulls w.2) ws.
  Proof. intros Hl H%mapR_Ok. induction H as [|r w l ws Hw _ IH]; inversion Hl; subst; constructor; auto. by unfold id in Hw; subst r. Qed.
  Lemma apf_good a b : good (n_apf P a b).
  Proof. unfold n_apf, mbind, res_bind. destruct (apf_new _ _ _ _); [apply mono_full|done]. Qed.
  Lemma dn_good n : good (n_dn P n).
  Proof. unfold n_dn, mbind, res_bind. destruct (delayn_new _); [apply mono_full|done]. Qed.
  Lemma pole_good v : good (Ok (n_pole P v)).
  Proof. apply mono_full. Qed.
  Lemma mono_good n : good (Ok (mono P n)).
  Proof. apply mono_full. Qed.
  Lemma stereo_good n : good (Ok (stereo P n)).
  Proof. apply stereo_full. Qed.
  Lemma plate_inner v c : plate_new P v = Ok c -> inner (cp_graph P c).
  Proof.
    unfold plate_new, mbind, res_bind. destruct (plate_nodes P v) as [ws|] eqn:Ew; [|done].
    destruct (build _ _ _) as [g|] eqn:E; [|done]. intros [= <-]. simpl.
    eapply build_inner; [|exact E]. unfold plate_nodes in Ew. eapply mapR_good; [|exact Ew]. clear.
    apply Forall_cons. split; [apply pole_good|]. apply Forall_cons. split.
    { unfold mbind, res_bind. destruct (delayms_new _ _ _ _); [apply mono_good|done]. }
    repeat first [apply Forall_nil; exact I
                 | apply Forall_cons; split; [first [apply apf_good|apply dn_good|apply pole_good|apply mono_good|apply stereo_good]|]].
  Qed.

  Lemma compound_msg_inner c m c' : inner (cp_graph P c) -> compound_msg P c m = Ok c' -> inner (cp_graph P c').
  Proof.
    intros Hc.
    assert (Hk : forall (r : res (list nat)) k, (o ← r; mret (Compound P (cp_graph P c) o k)) = Ok c' -> inner (cp_graph P c')).
    { intros r k. unfold mbind, res_bind. destruct r; [|done]. by intros [= <-]. }
    assert (H1 : forall n v k, (g ← isend P (cp_graph P c) n v; mret (Compound P g (cp_ord P c) k)) = Ok c' -> inner (cp_graph P c')).
    { intros n v k. unfold mbind, res_bind. destruct (isend P _ n v) as [g|] eqn:E; [|done]. intros [= <-]. by eapply isend_inner. }
    unfold compound_msg. destruct (cp_kind P c) as [e|e|w1 d1 w2 d2].
    - destruct m as [[|q|q] v| | | | |]; try apply Hk; apply H1.
    - destruct m as [[|[q|q|]|q] v| | | | |]; try apply Hk; apply H1.
    - destruct m as [[|q|q] v| | | | |]; try apply Hk. unfold mbind, res_bind.
      destruct (isend P (cp_graph P c) w1 _) as [g1|] eqn:E1; [|done]. destruct (isend P g1 _ _) as [g2|] eqn:E2; [|done].
      destruct (isend P g2 _ _) as [g3|] eqn:E3; [|done]. destruct (isend P g3 _ _) as [g4|] eqn:E4; [|done]. intros [= <-]. simpl.
      eapply isend_inner, E4. eapply isend_inner, E3. eapply isend_inner, E2. by eapply isend_inner, E1.
  Qed.

  Lemma run_inner_full c ins out c' out' : inner (cp_graph P c) -> fulls out -> ins_full ins ->
    run_inner P c ins out = Ok (c', out') -> inner (cp_graph P c') /\ fulls out'.
  Proof.
    intros Hc Ho Hi. unfold run_inner, mbind, res_bind, mret, res_ret.
    destruct (in_ord ins (cp_ord P c) 0) as [bs|] eqn:E1; [|done]. apply (in_ord_full _ _ _ _ Hi) in E1.
    destruct (chan bs 0) as [b|] eqn:E2; [|done]. apply (chan_full _ _ _ E1) in E2.
    destruct (node_weight (cp_graph P c) 2) as [w|] eqn:Ew; [|done]. cbn [unwrap].
    destruct (put0 w.2 b) as [b2|] eqn:E3; [|done]. pose proof (Hc _ _ Ew) as Hw. simpl in Hw. apply (put0_full _ _ _ Hw E2) in E3.
    destruct (set_weight (cp_graph P c) 2 (w.1, b2)) as [g1|] eqn:E4; [|done].
    assert (Hg1 : inner g1) by (eapply gall_set; [exact Hc| |exact E4]; exact E3).
    destruct (process (sproc P) (p_inner P) g1 0) as [g2|] eqn:E5; [|done].
    assert (Hg2 : inner g2).
    { eapply gall_process; [exact Hg1| |exact E5]. intros n st i o st' o' Hf Hin Hp. eapply sproc_full; [exact Hf| |exact Hp].
      eapply Forall_impl; [exact Hin|]. by intros p [_ ?]. }
    destruct (node_weight g2 0) as [d|] eqn:Ed; [|done]. cbn [unwrap]. pose proof (Hg2 _ _ Ed) as Hd. simpl in Hd.
    destruct (chan d.2 0) as [l|] eqn:El; [|done]. destruct (chan d.2 1) as [r|] eqn:Er; [|done].
    apply (chan_full _ _ _ Hd) in El, Er.
    destruct (put01 out l r) as [o|] eqn:E6; [|done]. intros [= <- <-]. split; [done|]. by apply (put01_full _ _ _ _ Ho El Er E6).
  Qed.
  Lemma gproc_full n ins out n' out' : whole n -> fulls out -> ins_full ins ->
    gproc P n ins out = Ok (n', out') -> whole n' /\ fulls out'.
  Proof.
    intros Hw Ho Hi. destruct n as [s|c]; cbn [gproc]; intros (s' & H & ->)%wrap_inv.
    - split; [done|]. by eapply sproc_full.
    - unfold compound_proc in H. destruct (cp_kind P c).
      + destruct ins as [|p [|]]; [by injection H as <- <-| |by injection H as <- <-]. by eapply run_inner_full.
      + destruct ins as [|p [|]]; [by injection H as <- <-| |by injection H as <- <-]. by eapply run_inner_full.
      + by eapply run_inner_full.
  Qed.
  Lemma gmsg_whole n m n' : whole n -> gmsg P n m = Ok n' -> whole n'.
  Proof.
    destruct n as [s|c]; cbn [gmsg]; unfold wrapm at 1.
    - destruct (smsg P s m); [|done]. by intros _ [= <-].
    - destruct (compound_msg P c m) as [c'|] eqn:E; [|done]. intros H [= <-]. by eapply compound_msg_inner.
  Qed.

  Lemma chans_of_full n : 0 < n -> fulls (chans_of P n).
  Proof.
    intros Hn. unfold chans_of. split; [by destruct n; [lia|]|]. apply Forall_replicate, silent_full.
  Qed.
  Lemma boxed_full n ch rs w refs : 0 < ch -> boxed P n ch rs = Done (w, refs) -> whole w.1 /\ fulls w.2.
  Proof. intros Hc [= <- <-]. split; [done|]. by apply chans_of_full. Qed.
  Lemma boxed_res_full r ch rs w refs : 0 < ch -> boxed_res P r ch rs = Done (w, refs) -> whole w.1 /\ fulls w.2.
  Proof. intros Hc. unfold boxed_res. destruct r; [|done]. by apply boxed_full. Qed.
  Lemma boxed_comp_full r ch rs w refs : 0 < ch -> (forall c, r = Ok c -> inner (cp_graph P c)) ->
    boxed_comp P r ch rs = Done (w, refs) -> whole w.1 /\ fulls w.2.
  Proof. intros Hc Hr. unfold boxed_comp. destruct r; [|done]. intros [= <- <-]. split; [by apply Hr|]. by apply chans_of_full. Qed.
  Lemma make_full ev c w refs : makenode_ P ev c = Done (w, refs) -> whole w.1 /\ fulls w.2.
  Proof.
    destruct c; cbn [makenode_];
      repeat match goal with
      | |- boxed_comp _ _ _ _ = _ -> _ => apply boxed_comp_full; [lia|intros ?]
      | |- boxed_res _ _ _ _ = _ -> _ => apply boxed_res_full; lia
      | |- boxed _ _ _ _ = _ -> _ => apply boxed_full; lia
      | |- Crash = _ -> _ => discriminate
      | |- Fail _ = _ -> _ => discriminate
      | |- (match ?x with _ => _ end) = _ -> _ => destruct x
      end.
    all: match goal with
         | |- bd_new _ _ = _ -> _ => apply bd_inner
         | |- hh_new _ _ = _ -> _ => apply hh_inner
         | |- sn_new _ _ = _ -> _ => apply sn_inner
         | |- plate_new _ _ = _ -> _ => apply plate_inner
         | |- synth_new _ _ _ _ = _ -> _ => apply synth_inner
         end.
  Qed.
End full.

(** Every node of every reachable engine has at least one output buffer, all of them full;
    the destination is a mixer with two. *)
Definition sound_node (P : platform) (n : nat) (st : gnode P) (b : list sig) : Prop :=
  whole P st /\ fulls P b /\ (n = 0 -> st = Simple NSum2 /\ length b = 2).

Theorem reachable_full P get blk e : reachable (glang P get) blk e ->
  en_dest (glang P get) e = 0 /\ gall (sound_node P) (en_graph (glang P get) e).
Proof.
  intros He. refine (reachable_all (glang P get) (sound_node P) _ _ _ _ _ _ blk e He).
  - split_and!; [done|by apply chans_of_full; lia|done].
  - intros n Hn. split_and!; [done|by apply chans_of_full; lia|done].
  - intros n ev c w refs Hn Hm. destruct (make_full P ev c w refs Hm) as [H1 H2]. split_and!; [done|done|done].
  - intros n st b m st' (H1 & H2 & H3) Hm. split; [exact (gmsg_whole P _ _ _ H1 Hm)|]. split; [exact H2|].
    intros Hn. destruct (H3 Hn) as [E H4]. subst st. injection Hm as <-. done.
  - intros n st ins b st' b' (H1 & H2 & H3) Hi Hp.
    assert (Hf : ins_full P ins) by (eapply Forall_impl; [exact Hi|]; by intros p (s & _ & ? & _)).
    destruct (gproc_full P st ins b st' b' H1 H2 Hf Hp) as [H4 H5]. split_and!; [done|done|].
    intros Hn. destruct (H3 Hn) as [-> H6]. pose proof (gproc_length _ _ _ _ _ _ Hp) as Hl. split; [|lia].
    cbn [nproc glang gproc sproc] in Hp. destruct (sum2_proc P ins b); [|done]. by injection Hp as <- _.
  - intros n st bs ch b s b' (H1 & (H2 & H3) & H4) Hb Hc. split_and!; [done| |].
    + split.
      { intros Hx. apply (f_equal length) in Hx. rewrite insert_length in Hx. apply H2. by apply nil_length_inv. }
      cbn [copy_slice glang] in Hc. unfold copy_slice_ in Hc.
      destruct (length b =? length s)%nat eqn:E; [|done]. injection Hc as <-. apply Nat.eqb_eq in E.
      apply Forall_insert; [done|]. pose proof (Forall_lookup_1 _ _ _ _ H3 Hb) as Hf. unfold full in *.
      etransitivity; [|exact Hf]. by symmetry.
    + intros Hn. rewrite insert_length. by apply H4.
Qed.

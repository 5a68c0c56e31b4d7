(** * C73: a performance with programs of calm components never panics. *)
From Verif Require Import Props_NoPanic Props_Update Props_External Props_Calls Session Syntax Props_Syntax.
From Verif Require Import SafeSeq WeightProofs BlockProofs Props_Signal Props_Choose Props_Blocks.
From Verif Require Import DoubleR.
From Coq Require Import Lia.
Local Open Scope nat_scope.

(** The components whose nodes can be processed in whatever state the calls of the API have
    put them: [steady] ones without a clock that is divided by and without a sample. *)
Definition calm (c : component) (i : nat) : Prop :=
  match c with
  | CImp _ | CPatternSynth _ _ | CPoints _ _ _ | CSp _ | CPSampler _ | CChoose _ | CSeq _ | CLpf (SigPattern _ _) _ => False
  | _ => steady c i
  end.
Definition all_calm (p : gmap string (list component)) : Prop :=
  forall k cs i c, p !! k = Some cs -> cs !! i = Some c -> calm c i.

Lemma calm_steady c i : calm c i -> steady c i.
Proof. destruct c; try done. by destruct sg. Qed.

Section live.
  Context (P : platform) (get : string -> outcome (gmap string (list component))).
  Context (Hrel : debug (p_cfg P) = false) (Hblk : 0 < p_blk P) (Humax : (16777216 <= umax (p_cfg P))%Z).
  Notation L := (glang P get).

  (** ** The pattern of a filter without a pattern stays empty *)
  Definition no_pattern (tr : list msg) (c : component) (st : gnode P) : Prop :=
    match c with
    | CLpf (SigNum _) _ | CLpf (SigRef _) _ => forall s, st = Simple (NRlpf s) -> bq_pattern s = []
    | _ => True
    end.
  Lemma bq_msg_pattern s m s' : bq_msg s m = Ok s' -> bq_pattern s' = bq_pattern s.
  Proof.
    unfold bq_msg. destruct m as [[|[q|q|]|q] v|pos s0|bpm|i|pos i|]; try (intros H; injection H as <-; reflexivity);
      (match goal with |- context [ord_msg ?a ?b] => destruct (ord_msg a b) end); cbn; try discriminate; intros H; injection H as <-; reflexivity.
  Qed.
  Lemma no_pattern_msg tr tr' c st m st' : no_pattern tr c st -> gmsg P st m = Ok st' -> no_pattern tr' c st'.
  Proof.
    unfold no_pattern. destruct c; try done.
    assert (H0 : (forall s, st = Simple (NRlpf s) -> bq_pattern s = []) -> gmsg P st m = Ok st' -> forall s, st' = Simple (NRlpf s) -> bq_pattern s = []).
    { intros H Hm s ->. destruct st as [n|cp]; cbn [gmsg] in Hm; unfold wrapm in Hm.
      - destruct (smsg P n m) as [n'|] eqn:E; [|done]. injection Hm as ->. pose proof (tag_msg P _ _ _ E) as Ht.
        destruct n; try discriminate Ht. cbn [smsg] in E. unfold wrapm in E. destruct (bq_msg s0 m) as [s'|] eqn:E'; [|done]. injection E as ->.
        rewrite (bq_msg_pattern _ _ _ E'). by apply H.
      - destruct (compound_msg P cp m); discriminate Hm. }
    by destruct sg.
  Qed.
  Lemma no_pattern_msgs tr tr' c ms st st' : no_pattern tr c st -> foldM (gmsg P) st ms = Ok st' -> no_pattern tr' c st'.
  Proof.
    revert st. induction ms as [|m ms IH]; intros st H; cbn [foldM].
    - intros [= <-]. exact H.
    - destruct (gmsg P st m) as [st1|] eqn:E; [|done]. apply IH. exact (no_pattern_msg tr tr c st m st1 H E).
  Qed.
  Lemma no_pattern_proc tr c st ins b st' b' : no_pattern tr c st -> gproc P st ins b = Ok (st', b') -> no_pattern tr c st'.
  Proof.
    unfold no_pattern. destruct c; try done.
    assert (H0 : (forall s, st = Simple (NRlpf s) -> bq_pattern s = []) -> gproc P st ins b = Ok (st', b') -> forall s, st' = Simple (NRlpf s) -> bq_pattern s = []).
    { intros H Hm s ->. destruct st as [n|cp]; cbn [gproc] in Hm; apply wrap_inv in Hm as (n' & Hm & Heq); [|discriminate Heq].
      injection Heq as <-. pose proof (tag_proc P _ _ _ _ _ Hm) as Ht. destruct n; try discriminate Ht. cbn [sproc] in Hm.
      apply wrap_inv in Hm as (s' & Hm & Heq). injection Heq as <-. apply rlpf_pattern in Hm. unfold bq_shape in Hm. injection Hm as -> _ _ _. by apply H. }
    by destruct sg.
  Qed.
  Lemma no_pattern_tracked blk e : tamely L blk e -> tracked L no_pattern e.
  Proof.
    apply tamely_tracked; [apply glang_ok|..].
    - intros ev c w refs sh t k i st Hmk Hf. eapply (no_pattern_msgs []); [|exact Hf].
      unfold no_pattern. destruct c; try done. cbn [makenode glang makenode_] in Hmk. destruct sg; try done; unfold boxed in Hmk; injection Hmk as <- _; intros z Hz; injection Hz as <-; reflexivity.
    - intros tr a b st0 sh t k i st Hk Heq Hf. eapply (no_pattern_msgs []); [|exact Hf]. revert Hk. unfold no_pattern. change (component_eqb a b = true) in Heq.
      clear Hf. destruct a, b; try discriminate Heq; try done. cbn [component_eqb] in Heq. by destruct sg, sg0; try discriminate Heq.
    - intros tr c st m st' Hk Hu Hm. exact (no_pattern_msg tr tr c st m st' Hk Hm).
    - intros tr c st ins b st' b' Hk Hp. exact (no_pattern_proc tr c st ins b st' b' Hk Hp).
  Qed.

  Lemma calm_ready blk e p k i c v st b : tamely L blk e -> en_ast L e = Some p -> placed L (en_info L e) p k i c v ->
    node_weight (en_graph L e) v = Some (st, b) -> calm c i -> ready P st.
  Proof.
    intros Ht Hp Hpl Hw Hc. destruct (no_pattern_tracked blk e Ht p k i c v (st, b) Hp Hpl Hw) as (sh & rs & _ & Hn). cbn [fst] in Hn.
    pose proof (kin_shape P get Hrel Hblk blk e p k i c v st b Ht Hp Hpl Hw) as Hk.
    destruct c; cbn [calm steady] in Hc; try contradiction; cbn [kind_of drum] in Hk.
    all: try (destruct Hk as (n & -> & Htg & _); destruct n; try discriminate Htg; exact I).
    all: try (destruct (Hk eq_refl) as (cp & -> & _); exact I).
    destruct Hk as (n & -> & Htg & _). destruct n; try discriminate Htg. cbn [ready]. left. destruct sg; try contradiction; by apply Hn.
  Qed.
  Lemma calm_settled blk e p : tamely L blk e -> en_ast L e = Some p -> all_calm p -> settled P get e p.
  Proof.
    intros Ht Hp Hc k i c v Hpl _. pose proof Hpl as (cs & Hk & Hi & _). specialize (Hc k cs i c Hk Hi).
    split; [left; by apply calm_steady|]. intros st b Hw. eapply calm_ready; eauto.
  Qed.

  (** ** Before the first program, and after a reset, nothing is connected *)
  Lemma idle_edges blk e : tamely L blk e -> en_ast L e = None -> edges (en_graph L e) = [].
  Proof.
    induction 1 as [|e c e' ob Ht IH Htc Hs]; [done|].
    destruct (tamely_inv L (glang_ok P get) _ _ Ht) as (He & _ & _).
    pose proof (step_frame L _ _ _ _ _ Hs) as Hf.
    destruct c as [o code|shs ins|c m|nm s|b|sr|sd|]; try (destruct Hf as (F1 & _ & _ & _ & F5); rewrite F1, F5; exact IH).
    - cbn [step] in Hs. unfold tame_call in Htc. unfold update in Hs. destruct (parse code) as [new|er|]; [| |done].
      + destruct Htc as [Hpo Htame]. destruct (tamely_inv L (glang_ok P get) _ _ Ht) as (_ & Hal & _).
        destruct (update_ast L o e new) as [[e1 [er|]]|] eqn:E; [| |done]; injection Hs as <- <-.
        * apply update_ast_fail in E; [|done]. destruct E as [E1 E2 E3 E4 E5 E6 _ _ _ _ _ _]. rewrite E5. intros Hn. rewrite <- (IH Hn). done.
        * pose proof (tame_update_result L (glang_ok P get) _ _ _ _ He Hal Hpo Htame E) as R. rewrite (re_ast _ _ _ _ _ R). done.
      + by injection Hs as <- <-.
    - cbn [step] in Hs. injection Hs as <- <-. done.
  Qed.
  Lemma idle_plays blk e shs ins : tamely L blk e -> en_ast L e = None -> fits P get blk e ins ->
    exists e' out, next_block L blk shs e ins = Ok (e', out).
  Proof.
    intros Ht Hp Hf. destruct (tamely_inv L (glang_ok P get) _ _ Ht) as (He & Hal & Hm).
    destruct (reachable_full P get blk e (tamely_reachable _ _ _ Ht)) as [Hd0 _].
    destruct (written P get blk e ins Ht Hf) as (e1 & E1 & Hst & Hlv). pose proof (write_input_frame L _ _ _ E1) as (Fa & Fi & Fd & _ & Fe).
    pose proof (idle_edges blk e Ht Hp) as Hno.
    assert (Hno1 : forall u v, ~ edge (en_graph L e1) u v).
    { intros u v H. unfold edge in H. rewrite Fe, Hno in H. by apply elem_of_nil in H. }
    assert (Hre : forall n d, reaches (en_graph L e1) n d -> n = d).
    { intros n d H. inversion H as [|? y ? Hx _]; [done|]. by apply Hno1 in Hx. }
    set (R := fun (n : nat) (st : gnode P) (b : list sig) => roomy P n st b).
    destruct (process_ok R (gproc P) shs (en_graph L e1) (en_dest L e1)) as (g & Ep & _ & Hge & Hlive).
    - intros n [st b] Hn. by destruct (Hst n st b Hn).
    - intros u v Huv. by apply Hno1 in Huv.
    - rewrite Fd. apply Hlv, (ei_live _ _ He). by left.
    - intros n st i b st' b' Hh [(Hw & Hfu & Hz) Hwd] Hins Hpi Hpr. apply Hre in Hh. subst n.
      assert (Hif : ins_full P i) by (eapply Forall_impl; [exact Hins|]; by intros q (s & (_ & ? & _) & _)).
      destruct (gproc_full P st i b st' b' Hw Hfu Hif Hpr) as [Hw' Hfu']. pose proof (gproc_length _ _ _ _ _ _ Hpr) as Hlen.
      pose proof (wide_proc P st i b st' b' Hpr) as Hwide.
      split; [split_and!; [exact Hw'|exact Hfu'|]|rewrite Hwide, Hlen; exact Hwd].
      intros Hn. destruct (Hz Hn) as [-> Hl]. split; [|lia]. cbn [gproc sproc] in Hpr. destruct (sum2_proc P i b); [|done]. by injection Hpr as <- _.
    - intros n st b i Hh [(Hw & Hfu & Hz) Hwd] Hpi Hins. apply Hre in Hh. subst n.
      assert (Hif : ins_full P i) by (eapply Forall_impl; [exact Hins|]; by intros q (s & (_ & ? & _) & _)).
      destruct (Hz ltac:(by rewrite Fd)) as [-> _]. eapply (gproc_ok P Hblk); [|exact Hw|exact Hfu|exact Hwd|exact Hif|exact Hpi]. exact I.
    - unfold next_block. rewrite E1. assert (Ep' : process (@nproc L) shs (en_graph L e1) (en_dest L e1) = Ok g) by exact Ep. rewrite Ep'.
      destruct (Hlive (en_dest L e1)) as [w Hw]; [rewrite Fd; apply Hlv, (ei_live _ _ He); by left|].
      assert (Hw' : node_weight (g : sgraph (node L * list (buf L))) (en_dest L e1) = Some w) by exact Hw. rewrite Hw'. by do 2 eexists.
  Qed.

  (** ** Setting the tempo *)
  Lemma bpm_node st b : is_ok (gmsg P st (SetBPM b)).
  Proof.
    destruct st as [n|cp]; cbn [gmsg].
    - destruct n; cbn [smsg]; unfold wrapm; try exact I.
    - unfold wrapm, compound_msg. destruct (cp_kind P cp); exact I.
  Qed.
  Lemma bpm_ok e b : exists e', set_bpm L e b = Ok e'.
  Proof.
    unfold set_bpm, send_to_all. match goal with |- context [mapR ?f ?l] => assert (H : exists sl, mapR f l = Ok sl) end.
    { generalize (slots (en_graph L e)) as l. intros l. induction l as [|w l [sl IH]]; [by exists []|].
      cbn [mapR]. destruct w as [[st b']|].
      - pose proof (bpm_node st b) as Hb. destruct (gmsg P st (SetBPM b)) as [st'|] eqn:Eb; [|contradiction].
        assert (Eb' : nmsg (l := L) st (SetBPM b) = Ok st') by exact Eb. cbn [fst snd]. rewrite Eb'. cbn [mbind res_bind]. setoid_rewrite IH. by eexists.
      - cbn [mbind res_bind]. setoid_rewrite IH. by eexists. }
    destruct H as [sl ->]. by eexists.
  Qed.

  (** ** Messages with a number *)
  Definition env_live (cp : compound P) : Prop :=
    match cp_kind P cp with
    | KDrum n | KSynth n => match node_weight (cp_graph P cp) n with Some _ => True | None => False end
    | _ => True
    end.
  Lemma isend_live (g g' : sgraph (snode P * list sig)) n m k : isend P g n m = Ok g' -> live g k -> live g' k.
  Proof.
    unfold isend. destruct (node_weight g n) as [w|]; [|done]. destruct (smsg P w.1 m) as [st|]; [|done].
    intros (_ & _ & _ & _ & Hw)%set_weight_spec Hk. unfold live. rewrite Hw. case_decide; [by eexists|exact Hk].
  Qed.
  Lemma env_live_intro (cp : compound P) : match cp_kind P cp with KDrum n | KSynth n => live (cp_graph P cp) n | _ => True end <-> env_live cp.
  Proof. unfold env_live. destruct (cp_kind P cp); try done; unfold live; destruct (node_weight _ _) eqn:E; split; try done; try (intros _; by eexists); by intros [? ?]. Qed.
  Lemma env_msg c m c' : compound_msg P c m = Ok c' -> env_live c -> env_live c'.
  Proof.
    rewrite <- !env_live_intro. unfold compound_msg. destruct (cp_kind P c) as [n|n|] eqn:Ek.
    3: { destruct m as [[|[q|q|]|q] v|pos s0|bpm|i|pos i|]; rs; repeat (match goal with |- context [match ?x with Ok _ => _ | Panic => _ end] => destruct x; [|done] end);
           intros [= <-]; cbn; intros; try exact I; rewrite Ek; exact I. }
    all: destruct m as [[|[q|q|]|q] v|pos s0|bpm|i|pos i|]; rs;
      try (match goal with |- context [isend P ?g ?n ?m] => destruct (isend P g n m) as [g'|] eqn:E; [|done] end;
           intros [= <-]; cbn [cp_kind cp_graph]; try rewrite Ek; intros Hl; eapply isend_live; [exact E|exact Hl]);
      match goal with |- context [ord_msg_keep ?o ?m] => destruct (ord_msg_keep o m) as [o'|]; [|done] end; intros [= <-]; cbn [cp_kind cp_graph]; try rewrite Ek; done.
  Qed.
  Lemma env_proc c ins b c' b' : compound_proc P c ins b = Ok (c', b') -> drumlike P c -> env_live c -> env_live c'.
  Proof.
    rewrite <- !env_live_intro. intros E Hd Hl.
    assert (Hrun : run_inner P c ins b = Ok (c', b') -> match cp_kind P c' with KDrum n | KSynth n => live (cp_graph P c') n | _ => True end).
    { unfold run_inner. rs. destruct (in_ord _ _ 0) as [bs|]; [|done]. destruct (chan bs 0) as [x|]; [|done].
      destruct (node_weight (cp_graph P c) 2) as [w|] eqn:E2; [|done]. cbn [unwrap].
      destruct (put0 w.2 x) as [bs2|] eqn:Ep; [|done]. destruct (set_weight _ _ _) as [g1|] eqn:Es; [|done].
      destruct (process _ _ _ _) as [g2|] eqn:Epr; [|done]. destruct (node_weight g2 0) as [d|]; [|done]. cbn [unwrap].
      destruct (chan d.2 0) as [l|]; [|done]. destruct (chan d.2 1) as [r|]; [|done]. destruct (put01 b l r) as [o|]; [|done].
      intros [= <- <-]. cbn [cp_kind cp_graph].
      assert (Hk : forall n, live (cp_graph P c) n -> live g2 n).
      { intros n Hn. apply set_weight_spec in Es as (_ & _ & _ & _ & Hw). assert (H1 : live g1 n) by (unfold live; rewrite Hw; case_decide; [by eexists|exact Hn]).
        apply process_spec in Epr as (order & _ & _ & _ & He & _ & _ & Hout & Hin). destruct H1 as [w1 Hm].
        destruct (decide (n ∈ order)) as [Ho|Ho].
        - apply elem_of_list_split in Ho as (l1 & l2 & ->). destruct (Hin l1 n l2 eq_refl) as (? & w2 & _ & _ & Hw1 & _). by exists w2.
        - exists w1. by rewrite Hout. }
      destruct (cp_kind P c); [by apply Hk|by apply Hk|done]. }
    revert E. unfold compound_proc. unfold drumlike in Hd. destruct (cp_kind P c) eqn:Ek; [..|done];
      (destruct ins as [|p [|q ins]]; [|exact Hrun|]; intros [= <- <-]; rewrite Ek; exact Hl).
  Qed.
  Definition has_env (tr : list msg) (c : component) (st : gnode P) : Prop :=
    drum c = true -> exists cp, st = Comp cp /\ safe_comp P cp /\ env_live cp.
  Lemma has_env_msg tr tr' c st m st' : has_env tr c st -> gmsg P st m = Ok st' -> has_env tr' c st'.
  Proof.
    intros H Hm Hd. destruct (H Hd) as (cp & -> & Hs & He). cbn [gmsg] in Hm. unfold wrapm in Hm. destruct (compound_msg P cp m) as [c'|] eqn:E; [|done].
    injection Hm as <-. exists c'. split_and!; [done|by eapply comp_msg_safe|by eapply env_msg].
  Qed.
  Lemma has_env_msgs tr tr' c ms st st' : has_env tr c st -> foldM (gmsg P) st ms = Ok st' -> has_env tr' c st'.
  Proof.
    revert st. induction ms as [|m ms IH]; intros st H; cbn [foldM].
    - intros [= <-]. exact H.
    - destruct (gmsg P st m) as [st1|] eqn:E; [|done]. apply IH. exact (has_env_msg tr tr c st m st1 H E).
  Qed.
  Lemma made_env tr ev c w refs : makenode_ P ev c = Done (w, refs) -> has_env tr c w.1.
  Proof.
    intros Hmk Hd. assert (H : exists r ch rf, makenode_ P ev c = boxed_comp P r ch rf /\ (forall cp, r = Ok cp -> safe_comp P cp) /\
      match r with Ok cp => env_live cp | Panic => True end).
    { clear Hmk. destruct c; try discriminate Hd; do 3 eexists; (split; [reflexivity|]); (split; [|exact I]).
      all: lazymatch goal with
           | |- forall cp, bd_new _ _ = _ -> _ => exact (bd_safe P Hrel Hblk _)
           | |- forall cp, hh_new _ _ = _ -> _ => exact (hh_safe P Hrel Hblk _)
           | |- forall cp, sn_new _ _ = _ -> _ => exact (sn_safe P Hrel Hblk _)
           | |- forall cp, synth_new _ _ _ _ = _ -> _ => exact (synth_safe P Hrel Hblk _ _ _)
           end. }
    destruct H as (r & ch & rf & Hr & Hs & He). rewrite Hr in Hmk. unfold boxed_comp in Hmk. destruct r as [cp|]; [|done]. injection Hmk as <- _.
    exists cp. split_and!; [reflexivity|by apply Hs|exact He].
  Qed.
  Lemma has_env_tracked blk e : tamely L blk e -> tracked L has_env e.
  Proof.
    apply tamely_tracked; [apply glang_ok|..].
    - intros ev c w refs sh t k i st Hmk Hf. eapply (has_env_msgs []); [|exact Hf]. exact (made_env [] ev c w refs Hmk).
    - intros tr a b st0 sh t k i st Hk Heq Hf. eapply (has_env_msgs []); [|exact Hf]. intros Hd. apply Hk.
      change (component_eqb a b = true) in Heq. destruct a, b; try discriminate Heq; done.
    - intros tr c st m st' Hk Hu Hm. exact (has_env_msg tr tr c st m st' Hk Hm).
    - intros tr c st ins b st' b' Hk Hp Hd. destruct (Hk Hd) as (cp & -> & Hs & He). cbn [nproc glang gproc] in Hp. apply wrap_inv in Hp as (c' & Hp & ->).
      exists c'. split_and!; [done|by eapply comp_proc_safe|]. eapply env_proc; [exact Hp|apply Hs|exact He].
  Qed.

  Definition movable (c : component) : Prop := match c with CDelayn _ => False | _ => True end.
  Lemma ord_user o pos v : ord_msg o (SetToNumber pos v) = Ok o.
  Proof. reflexivity. Qed.
  Lemma number_taken blk e p k i c v st b pos x : tamely L blk e -> en_ast L e = Some p -> placed L (en_info L e) p k i c v ->
    node_weight (en_graph L e) v = Some (st, b) -> calm c i -> movable c -> is_ok (gmsg P st (SetToNumber pos x)).
  Proof.
    intros Ht Hp Hpl Hw Hc Hm.
    pose proof (kin_shape P get Hrel Hblk blk e p k i c v st b Ht Hp Hpl Hw) as Hk.
    destruct (has_env_tracked blk e Ht p k i c v (st, b) Hp Hpl Hw) as (sh & rs & _ & Henv). cbn [fst] in Henv.
    assert (Hpart : forall n, part P n = true -> forall q, is_ok (smsg P n (SetToNumber q x))).
    { intros n Hn q. destruct n; try discriminate Hn; cbn [smsg]; try exact I; destruct q as [|[q|q|]|q]; exact I. }
    assert (Hsend : forall cp n q, safe_comp P cp -> live (cp_graph P cp) n -> is_ok (isend P (cp_graph P cp) n (SetToNumber q x))).
    { intros cp n q [_ Hs] [w Hl]. unfold isend. rewrite Hl. destruct (si_all _ _ Hs n w Hl) as (Hn & _).
      pose proof (Hpart w.1 Hn q) as Hq. destruct (smsg P w.1 (SetToNumber q x)) as [st'|]; [|contradiction].
      destruct (set_weight_live (cp_graph P cp) n (st', w.2)) as [g' ->]; [by eexists|done]. }
    destruct (drum c) eqn:Ed.
    - destruct (Henv Ed) as (cp & -> & Hs & He%env_live_intro). cbn [gmsg]. unfold wrapm, compound_msg.
      destruct (cp_kind P cp) as [n|n|] eqn:Ek; [| |by destruct Hs as [Hd _]; unfold drumlike in Hd; rewrite Ek in Hd].
      all: pose proof (fun q => Hsend cp n q Hs He) as Hq; destruct pos as [|[q|q|]|q]; rs; try exact I.
      + specialize (Hq 1%Z). by destruct (isend P (cp_graph P cp) n (SetToNumber 1 x)).
      + specialize (Hq 0%Z). by destruct (isend P (cp_graph P cp) n (SetToNumber 0 x)).
      + specialize (Hq 1%Z). by destruct (isend P (cp_graph P cp) n (SetToNumber 1 x)).
    - destruct c; cbn [calm steady movable] in Hc, Hm; try contradiction; try discriminate Ed; cbn [kind_of drum] in Hk.
      all: destruct Hk as (n & -> & Htg & _); destruct n; try discriminate Htg; cbn [gmsg smsg]; unfold wrapm.
      all: try (destruct pos as [|[[y|y|]|[y|y|]|]|y]; exact I).
      destruct pos as [|q|q]; try exact I. cbn [delayms_msg]. pose proof (as_usize_bounds (p_cfg P) (fmul (fdiv x (f_of_Z 1000)) (f_of_Z (dm_sr s))) ltac:(lia)) as Hb.
      fold (ms_samples P (dm_sr s) x) in Hb. destruct (Z.eqb_spec (ms_samples P (dm_sr s) x) 0) as [E|E]; [exact I|].
      unfold zeros. destruct (Z.to_nat (ms_samples P (dm_sr s) x)) eqn:En; [lia|]. exact I.
  Qed.

  (** ** The performance *)

  (** What the musician may do: submit a text that is rejected by the parser, or one whose
      components are calm and can be made, keeping the order of what stays; play a block with
      inputs that fit; send a number to a component of the program that is not a [delayn], or
      to a chain that does not exist; set the tempo, sample rate and seed, add samples, reset. *)
  Definition safe_call (blk : Z) (e : engine L) (c : call L) : Prop :=
    match c with
    | CUpdate _ o code =>
      match get code with
      | Done new => prog_ok L new /\ plain_edit (old_ast L e) new /\ all_calm new /\
          forall k cs c, new !! k = Some cs -> c ∈ cs -> makenode_ P (the_env L e) c <> Crash
      | Fail _ => True
      | Crash => False
      end
    | CNext _ shs ins => fits P get blk e ins
    | CMsg _ cf m => exists nm i pos v, command cf m nm i (SetToNumber pos v) /\
        ((old_ast L e !! nm = None /\ nm <> "~input"%string) \/
         exists cs c, old_ast L e !! nm = Some cs /\ cs !! i = Some c /\ movable c)
    | _ => True
    end.
  (** Performances: such calls, and any other messages that were carried out. *)
  Inductive performing (blk : Z) : engine L -> Prop :=
  | pf_new : performing blk (engine_new L)
  | pf_call e c e' ob : performing blk e -> safe_call blk e c -> step L blk e c = Ok (e', ob) -> performing blk e'
  | pf_msg e cf m e' : performing blk e -> send_msg L cf e m = Ok e' -> performing blk e'.

  Lemma performing_inv blk e : performing blk e -> tamely L blk e /\ forall p, en_ast L e = Some p -> all_calm p.
  Proof.
    induction 1 as [|e c e' ob _ [Ht Hc] Hs Hstep|e cf m e' _ [Ht Hc] Hm].
    - split; [apply tm_new|discriminate].
    - assert (Htc : tame_call L e c).
      { destruct c as [o code|shs ins|c m|nm s|b|sr|sd|]; try exact I. unfold tame_call, safe_call in *. cbn [parse glang]. destruct (get code) as [new|er|]; try exact I.
        destruct Hs as (H1 & H2 & _). split; [exact H1|]. by apply (plain_tame L (glang_ok P get)). }
      split; [by eapply tm_step|]. pose proof (step_frame L _ _ _ _ _ Hstep) as Hf.
      destruct c as [o code|shs ins|c m|nm s|b|sr|sd|]; try (destruct Hf as (-> & _); exact Hc).
      + cbn [step] in Hstep. unfold update in Hstep. unfold tame_call in Htc. cbn [safe_call] in Hs. cbn [parse glang] in *.
        destruct (tamely_inv L (glang_ok P get) _ _ Ht) as (He & Hal & _). destruct (get code) as [new|er|]; [| |done].
        * destruct (update_ast L o e new) as [[e1 [er|]]|] eqn:E; [| |done]; injection Hstep as <- <-.
          -- apply update_ast_fail in E; [|done]. destruct E as [_ _ _ _ E5 _ _ _ _ _ _ _]. rewrite E5. exact Hc.
          -- pose proof (tame_update_result L (glang_ok P get) _ _ _ _ He Hal (proj1 Htc) (proj2 Htc) E) as R. rewrite (re_ast _ _ _ _ _ R).
             intros p [= <-]. apply Hs.
        * by injection Hstep as <- <-.
      + cbn [step] in Hstep. injection Hstep as <- <-. discriminate.
    - assert (Hstep : step L blk e (CMsg L cf m) = Ok (e', ODone L)) by (cbn [step]; by rewrite Hm).
      split; [exact (tm_step L blk e (CMsg L cf m) e' _ Ht I Hstep)|]. pose proof (step_frame L _ _ _ _ _ Hstep) as (-> & _). exact Hc.
  Qed.

  (** C73: nothing the musician may do makes the engine panic, at any moment of a performance. *)
  Theorem C73_performance_never_panics blk e c : performing blk e -> safe_call blk e c ->
    exists e' ob, step L blk e c = Ok (e', ob) /\ performing blk e'.
  Proof.
    intros Hpf Hs. cut (exists e' ob, step L blk e c = Ok (e', ob)).
    { intros (e' & ob & E). exists e', ob. split; [exact E|]. by eapply pf_call. }
    destruct (performing_inv blk e Hpf) as [Ht Hc]. destruct c as [o code|shs ins|c m|nm s|b|sr|sd|]; try (do 2 eexists; reflexivity).
    - destruct (C05_no_panic_partial L (glang_ok P get) blk e o code Ht) as (e' & er & E).
      + cbn [parse glang safe_call] in *. intros new E. rewrite E in Hs. destruct Hs as (H1 & H2 & _ & H3). by split_and!.
      + cbn [parse glang safe_call] in *. intros E. by rewrite E in Hs.
      + cbn [step]. rewrite E. destruct er; by do 2 eexists.
    - cbn [step safe_call] in *. destruct (en_ast L e) as [p|] eqn:Ep.
      + destruct (C62_next_block_plays_partial P get Hrel Hblk Humax blk e p shs ins Ht Ep) as (e' & out & -> & _); [|exact Hs|by do 2 eexists].
        eapply calm_settled; eauto.
      + destruct (idle_plays blk e shs ins Ht Ep Hs) as (e' & out & ->). by do 2 eexists.
    - cbn [step safe_call] in *. destruct Hs as (nm & i & pos & x & Hcmd & Hs). destruct (tamely_inv L (glang_ok P get) _ _ Ht) as (He & Hal & _).
      destruct Hs as [[Hno Hni]|(cs & c' & Hcs & Hi & Hmv)].
      + rewrite (C12_unknown_chain L c e m nm i _ Hcmd); [by do 2 eexists|]. destruct (en_info L e !! nm) as [ids|] eqn:E; [|done].
        by destruct (Hni (al_only _ _ Hal nm ids E Hno)).
      + destruct (al_len _ _ Hal nm cs Hcs) as (ids & Hids & Hlen).
        destruct (lookup_lt_is_Some_2 ids i) as [n Hn]; [rewrite Hlen; by eapply lookup_lt_Some|].
        assert (Hl : live (en_graph L e) n) by (apply (ei_live _ _ He); right; right; exists nm, i; by exists ids).
        destruct Hl as [[st b] Hw]. assert (Hast : en_ast L e = Some (old_ast L e)) by (unfold old_ast in Hcs |- *; by destruct (en_ast L e)).
        assert (Hpl : placed L (en_info L e) (old_ast L e) nm i c' n) by (exists cs; split_and!; [done|done|by exists ids]).
        pose proof (number_taken blk e _ nm i c' n st b pos x Ht Hast Hpl Hw (Hc _ Hast nm cs i c' Hcs Hi) Hmv) as Hok.
        destruct (gmsg P st (SetToNumber pos x)) as [st'|] eqn:Em; [|contradiction].
        destruct (C12_one_command_partial L c e m nm i _ ids n (st, b) st' Hcmd Hids Hn Hw Em) as (g & -> & _). by do 2 eexists.
    - cbn [step]. destruct (bpm_ok e b) as [e' ->]. by do 2 eexists.
  Qed.

  (** ** Every text of calm components is accepted and plays *)

  (** Calm components whose nodes can always be made: all but [apfmsgain]; [delayn] takes a
      number of samples. *)
  Definition makeable (c : component) : Prop :=
    match c with
    | CApfmsGain _ _ => False
    | CDelayn (Usz n) => (0 <= n)%Z
    | _ => True
    end.
  Lemma zeros_some n : (0 < n)%Z -> exists r, ring_from (zeros n) = Ok r.
  Proof. intros H. unfold zeros. destruct (Z.to_nat n) eqn:E; [lia|]. by eexists. Qed.
  Lemma calm_made ev c i : calm c i -> makeable c -> exists w, makenode_ P ev c = Done w.
  Proof.
    assert (Hbox : forall n ch refs, exists w, boxed P n ch refs = Done w) by (intros n ch refs; unfold boxed; eexists; reflexivity).
    assert (Hcomp : forall r ch refs, is_ok r -> exists w, boxed_comp P r ch refs = Done w) by (intros [cp|] ch refs H; [unfold boxed_comp; eexists; reflexivity|contradiction]).
    destruct c; cbn [calm steady makeable]; try contradiction; intros Hc Hm; cbn [makenode_];
      lazymatch goal with
      | |- exists w, boxed _ _ _ _ = _ => apply Hbox
      | |- exists w, boxed_comp _ _ _ _ = _ => apply Hcomp; exact I
      | |- _ => idtac
      end.
    - unfold boxed_res, delayn_new. destruct p as [n|r].
      + destruct (zeros_some (if (n =? 0)%Z then 1 else n)%Z) as [r ->]; [destruct (Z.eqb_spec n 0); lia|]. by eexists.
      + eexists. reflexivity.
    - unfold boxed_res, delayms_new. destruct (zeros_some (Z.max (ms_samples P (e_sr ev) (num_or (f_of_Z 2000) p)) 1)) as [r ->]; [lia|]. by eexists.
    - destruct sg; try contradiction; unfold boxed; by eexists.
  Qed.
End live.

Lemma line_nonempty c math txt ls : program_text c math txt ls -> Forall (fun l => l.2 <> []) ls.
Proof.
  intros (pre & body & _ & _ & H). induction H as [|t l f rest ls H _ _ IH _| |]; try done. constructor; [|exact IH].
  destruct H as (b1 & b2 & t1 & k1 & t2 & ks & _ & _ & _ & _ & _ & _ & ->). done.
Qed.
Lemma last_named_in {A} n (ls : list (string * A)) x : last_named n ls = Some x -> (n, x) ∈ ls.
Proof.
  unfold last_named. destruct (List.find _ _) as [[n' x']|] eqn:E; [|done]. cbn. intros [= ->]. apply find_some in E as [H1 H2].
  apply String.eqb_eq in H2. cbn [fst] in H2. subst n'. apply elem_of_list_In. by apply in_rev.
Qed.

Section text.
  Context (P : platform) (cf : cfg) (math : string -> res f32).
  Context (Hrel : debug (p_cfg P) = false) (Hblk : 0 < p_blk P) (Humax : (16777216 <= umax (p_cfg P))%Z).
  Notation get := (get_ast cf math).
  Notation L := (glang P get).

  (** C73: a text in the notation of [Syntax] whose components are calm and can be made and
      whose references all name a line of the text or "~input" is accepted by a new engine,
      and then plays every further block, whatever the iteration orders and the input. *)
  Theorem C73_text_plays blk txt ls (o : orders) :
    program_text cf math txt ls ->
    (forall n ks, last_named n ls = Some ks -> n <> "~input"%string /\
       forall i c, ks !! i = Some c -> calm c i /\ makeable c /\
         forall r, r ∈ component_refs c -> exists n', refers r n' /\ (is_Some (last_named n' ls) \/ n' = "~input"%string)) ->
    exists e, update L o (engine_new L) txt = Ok (e, None) /\ (forall n, old_ast L e !! n = last_named n ls) /\
      unreset P get blk e /\ performing P get blk e /\
      forall l, Forall (fun x => Forall (fun s => length s = p_blk P) x.2) l -> is_ok (plays_on P get blk e l).
  Proof.
    intros Ht H. destruct (C53_layout_partial cf math txt ls Ht) as (new & Eg & Hnew). pose proof (line_nonempty _ _ _ _ Ht) as Hne.
    assert (Hprog : prog_ok L new).
    { split.
      - change input_name with "~input"%string. rewrite Hnew. destruct (last_named "~input"%string ls) as [ks|] eqn:E; [|done]. by destruct (H _ _ E).
      - intros k Hk. rewrite Hnew in Hk. apply last_named_in in Hk. rewrite Forall_forall in Hne. by apply (Hne _ Hk). }
    assert (Hcalm : all_calm new).
    { intros k cs i c Hk Hi. rewrite Hnew in Hk. by apply (H _ _ Hk). }
    assert (Hmk : forall k cs c, new !! k = Some cs -> c ∈ cs -> exists w, makenode_ P (the_env L (engine_new L)) c = Done w).
    { intros k cs c Hk Hc. rewrite Hnew in Hk. apply elem_of_list_lookup in Hc as [i Hi]. destruct (proj2 (H _ _ Hk) i c Hi) as (H1 & H2 & _). by eapply calm_made. }
    assert (Hsafe : safe_call P get blk (engine_new L) (CUpdate L o txt)).
    { cbn [safe_call]. rewrite Eg. split_and!; [exact Hprog| |exact Hcalm|].
      - intros k olds news Hk. exfalso. revert Hk. unfold old_ast. cbn. by rewrite lookup_empty.
      - intros k cs c Hk Hc. destruct (Hmk k cs c Hk Hc) as [w ->]. done. }
    destruct (C73_performance_never_panics P get Hrel Hblk Humax blk _ _ (pf_new P get blk) Hsafe) as (e & ob & E & Hpf).
    cbn [step] in E. destruct (update L o (engine_new L) txt) as [[e1 er]|] eqn:Eu; [|done].
    assert (e1 = e) as -> by (by destruct er; injection E).
    assert (Eu' : update_ast L o (engine_new L) new = Ok (e, er)).
    { unfold update in Eu. cbn [parse glang] in Eu. rewrite Eg in Eu. exact Eu. }
    assert (er = None) as ->.
    { pose proof (ref_check_exact L (glang_ok P get) o (engine_new L) new e er) as Hr. destruct er as [er|]; [|done]. exfalso.
      assert (Hkeys : keys_ok L (engine_new L)).
      { intros k [x Hk]. right. destruct (decide (k = input_name)) as [->|Hn]; [done|]. exfalso.
        assert (Hx : ({[input_name := [2]]} : gmap string (list nat)) !! k = Some x) by exact Hk. by rewrite lookup_singleton_ne in Hx. }
      assert (Hr' := Hr (engine_new_inv L) Hkeys (proj2 Hprog) Eu').
      destruct er as [|r|sn]; [done| |].
      - destruct Hr' as ((k & cs & c & Hk & Hc & Hrc) & Hno). rewrite Hnew in Hk. apply elem_of_list_lookup in Hc as [i Hi].
        destruct (proj2 (H _ _ Hk) i c Hi) as (_ & _ & H3). destruct (H3 r Hrc) as (n' & Hn & Ha). apply (Hno n' Hn). destruct Ha as [Ha| ->].
        + left. by rewrite Hnew.
        + right. split_and!; [done|by eexists|done].
      - destruct Hr' as (k & cs & c & Hk & Hc & Hf). destruct (Hmk k cs c Hk Hc) as [w Hw]. cbn [makenode glang] in Hf. by rewrite Hw in Hf. }
    destruct (performing_inv P get blk e Hpf) as [Htm Hc].
    assert (Htame : tame L (old_ast L (engine_new L)) new) by (apply (plain_tame L (glang_ok P get)); cbn [safe_call] in Hsafe; rewrite Eg in Hsafe; apply Hsafe).
    assert (Hast : en_ast L e = Some new).
    { destruct (tamely_inv L (glang_ok P get) _ _ (tm_new L blk)) as (He & Hal & _).
      exact (re_ast _ _ _ _ _ (tame_update_result L (glang_ok P get) _ _ _ _ He Hal Hprog Htame Eu')). }
    assert (Hun : unreset P get blk e).
    { eapply (un_step P get blk (engine_new L) (CUpdate L o txt)); [apply un_new| |discriminate|cbn [step]; rewrite Eu; reflexivity].
      unfold tame_call. cbn [parse glang]. rewrite Eg. by split. }
    exists e. split_and!; [done|unfold old_ast; rewrite Hast; exact Hnew|exact Hun|exact Hpf|]. intros l Hl.
    apply (C62_plays_for_ever_partial P get Hrel Hblk Humax blk e new l Htm Hast); [by eapply calm_settled|].
    eapply Forall_impl; [exact Hl|]. intros x Hx. by right.
  Qed.
End text.

(** ** An example: a text with modulation is accepted, and a message, a change of tempo and an
    edit may follow. *)
Local Open Scope string_scope.
Definition live_text : string := "o: sin 440 >> mul ~b
~b: sin 440 >> mul 0.5".
Definition live_lines : list (string * list component) :=
  [("o", [CSin (Num (f_of_dec false 440 0)); CMul (NRef "~b")]);
   ("~b", [CSin (Num (f_of_dec false 440 0)); CMul (Num (f_of_dec false 5 (-1)))])].
Lemma free_tilde_b : free_name "~b".
Proof. exists "~". split; [|done]. split; [seth|]. exists "b"%char, "", "". split_and!; try done. seth. Qed.
Lemma t_mul_b : node_text Props_Syntax.c64 Props_Syntax.no_math "mul ~b" (CMul (NRef "~b")).
Proof.
  exists "mul", ["~b"], (" " ++ "~b"). split; [|split; [|done]].
  - apply (sp_one_arg _ _ "mul" CMul); [seth|]. constructor. apply free_tilde_b.
  - rewrite <- (sapp_nil_r "~b"). constructor; [done|constructor].
Qed.
Lemma live_text_ok : program_text Props_Syntax.c64 Props_Syntax.no_math live_text live_lines.
Proof.
  exists "", live_text. split; [done|]. split; [done|].
  apply (prog_line _ _ "o: sin 440 >> mul ~b" ("o", [CSin (Num (f_of_dec false 440 0)); CMul (NRef "~b")]) eol "~b: sin 440 >> mul 0.5").
  - exists "", " ", ("sin" ++ " " ++ "440"). eexists. exists ((" " ++ "" ++ "" ++ ">>" ++ " ") ++ "mul ~b" ++ ""). eexists.
    split; [by apply (name_plain _ "o" "")|]. split; [done|]. split; [done|]. split; [by apply t_sin|]. split; [|split; [reflexivity|reflexivity]].
    constructor; [|by apply t_mul_b|constructor]. apply joint_here; try done. seth.
  - exists "", "", "", eol. split_and!; try done; [seth|]. rewrite <- (sapp_nil_r eol). apply (breaks_cons "" ""); [done|constructor].
  - rewrite <- (sapp_nil_r "~b: sin 440 >> mul 0.5"). rewrite <- (sapp_nil_r "") at 2. constructor; [|..].
    + exists "", " ", ("sin" ++ " " ++ "440"). eexists. exists ((" " ++ "" ++ "" ++ ">>" ++ " ") ++ ("mul" ++ " " ++ "0.5") ++ ""). eexists.
      split; [by apply (name_tilde _ "b" "")|]. split; [done|]. split; [done|]. split; [by apply t_sin|]. split; [|split; reflexivity].
      constructor; [|by apply t_mul|constructor]. apply joint_here; try done. seth.
    + exists "", "", "", "". split_and!; try done; [seth|constructor].
    + constructor.
    + by left.
  - right. right. done.
Qed.
Lemma live_lines_ok n ks : last_named n live_lines = Some ks -> n <> "~input" /\
  forall i c, ks !! i = Some c -> calm c i /\ makeable c /\
    forall r, r ∈ component_refs c -> exists n', refers r n' /\ (is_Some (last_named n' live_lines) \/ n' = "~input").
Proof.
  intros H%last_named_in. apply elem_of_cons in H as [H|H].
  - injection H as -> ->. split; [done|]. intros [|[|i]] c [= <-]; (split; [first [exact I|reflexivity]|]); (split; [exact I|]).
    + intros r Hr. by apply elem_of_nil in Hr.
    + intros r Hr. apply elem_of_list_singleton in Hr as ->. exists "~b". split; [done|]. left. by eexists.
  - apply elem_of_list_singleton in H. injection H as -> ->. split; [done|]. intros [|[|i]] c [= <-]; (split; [first [exact I|reflexivity]|]); (split; [exact I|]);
      intros r Hr; by apply elem_of_nil in Hr.
Qed.
Lemma live_command : command Props_Syntax.c64 "o,1,0,0.5" "o" 1 (SetToNumber 0 (f_of_dec false 5 (-1))).
Proof.
  apply (co_number Props_Syntax.c64 "o" "1" 1 "0" 0 "0.5"); [done| | |apply num05].
  - exists "", "1". split_and!; try done. set_solver.
  - exists "", "0". split_and!; try done. set_solver.
Qed.
Lemma two_zeros : Forall (fun s => length s = p_blk demo) [zeros 8; zeros 8].
Proof. by repeat constructor. Qed.
Notation LP := (glang demo (get_ast Props_Syntax.c64 Props_Syntax.no_math)).
Example C73_case : exists e, update LP id_orders (engine_new LP) live_text = Ok (e, None) /\
  performing demo (get_ast Props_Syntax.c64 Props_Syntax.no_math) 8 e /\
  safe_call demo (get_ast Props_Syntax.c64 Props_Syntax.no_math) 8 e (CMsg LP Props_Syntax.c64 "o,1,0,0.5") /\
  safe_call demo (get_ast Props_Syntax.c64 Props_Syntax.no_math) 8 e (CNext LP (fun _ => id_shuffle) [zeros 8; zeros 8]) /\
  safe_call demo (get_ast Props_Syntax.c64 Props_Syntax.no_math) 8 e (CUpdate LP id_orders live_text).
Proof.
  destruct (C73_text_plays demo Props_Syntax.c64 Props_Syntax.no_math eq_refl ltac:(cbn; lia) ltac:(cbn; lia) 8 live_text live_lines id_orders live_text_ok live_lines_ok) as (e & E & Hold & Hun & Hpf & _).
  exists e. split; [exact E|]. split; [exact Hpf|]. split; [|split].
  - exists "o", 1, 0%Z, (f_of_dec false 5 (-1)). split.
    + exact live_command.
    + right. exists [CSin (Num (f_of_dec false 440 0)); CMul (NRef "~b")], (CMul (NRef "~b")). split; [rewrite Hold; reflexivity|]. split; [reflexivity|exact I].
  - right. split; [exact Hun|exact two_zeros].
  - cbn [safe_call]. destruct (C53_layout_partial _ _ _ _ live_text_ok) as (new & Eg & Hnew). rewrite Eg.
    assert (Hcase : forall k cs, new !! k = Some cs -> cs = [CSin (Num (f_of_dec false 440 0)); CMul (NRef "~b")] \/
                                                       cs = [CSin (Num (f_of_dec false 440 0)); CMul (Num (f_of_dec false 5 (-1)))]).
    { intros k cs Hk. rewrite Hnew in Hk. apply last_named_in in Hk. apply elem_of_cons in Hk as [Hk|Hk]; [by injection Hk as _ ->; left|].
      apply elem_of_list_singleton in Hk. injection Hk as _ ->. by right. }
    clear E. split; [|split; [|split]].
    + split; [rewrite Hnew; reflexivity|]. intros k Hk. by destruct (Hcase _ _ Hk).
    + intros k olds news Ho Hn. rewrite Hold in Ho. rewrite Hnew in Hn. assert (news = olds) as -> by congruence. clear Ho. rewrite <- Hnew in Hn.
      assert (Hr : no_repeats LP olds).
      { destruct (Hcase _ _ Hn) as [-> | ->]; intros [|[|i]] [|[|j]] x y [= <-] [= <-]; done. }
      split; [exact Hr|]. split; [exact Hr|]. intros i i' j j' x x' y y' H1 H2 H3 H4 H5 H6 H7.
      by rewrite <- (Hr i j x y H1 H3 H5), <- (Hr i' j' x' y' H2 H4 H6).
    + intros k cs i c Hk Hi. rewrite Hnew in Hk. by apply (live_lines_ok _ _ Hk).
    + intros k cs c Hk Hc. rewrite Hnew in Hk. apply elem_of_list_lookup in Hc as [i Hi].
      destruct (proj2 (live_lines_ok _ _ Hk) i c Hi) as (H1 & H2 & _). destruct (calm_made demo ltac:(cbn; lia) (the_env LP e) c i H1 H2) as [w ->]. done.
Qed.

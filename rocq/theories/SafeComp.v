(** * SafeComp: drums and synths do not panic; what kind of node a component becomes. *)
From Verif Require Export SafeProofs.
From Verif Require Import WeightProofs Props_Signal Props_Compound.
From Coq Require Import Lia.
Local Open Scope nat_scope.

Section compounds.
  Context (P : platform) (Hrel : debug (p_cfg P) = false) (Hblk : 0 < p_blk P).
  Notation W := (snode P * list sig)%type.
  Implicit Types g : sgraph W.

  (** The nodes inside drums and synths. *)
  Definition part (n : snode P) : bool :=
    match n with NSum2 | NPass | NMul _ | NAdd _ | NOsc _ _ | NEnvPerc _ | NNoise _ | NRhpf _ => true | _ => false end.
  Lemma part_msg n ids m n' : part n = true -> sturdy P n ids -> user_msg m -> smsg P n m = Ok n' ->
    part n' = true /\ sturdy P n' ids /\ (n = NSum2 -> n' = NSum2).
  Proof.
    intros Hp Hs Hu. destruct n; try discriminate Hp; cbn [smsg]; unfold wrapm;
      try (by intros [= <-]);
      (match goal with |- context [match ?x with Ok _ => _ | Panic => _ end] => destruct x as [s'|] eqn:E; [|done] end);
      intros [= <-]; (split; [reflexivity|]); (split; [|discriminate]); cbn [sturdy] in Hs |- *.
    all: destruct m as [[|[q|q|]|q] v|pos s0|bpm|i|pos i|]; try done;
      unfold op_msg, osc_msg, envperc_msg, noise_msg, bq_msg in E; revert E; rs; cbn [ord_msg ord_msg_keep];
      (repeat match goal with |- context [if ?x then _ else _] => destruct x end);
      by intros [= <-].
  Qed.
  Definition inner_R (ids : nat -> list nat) (n : nat) (st : snode P) (b : list sig) : Prop :=
    part st = true /\ sturdy P st (ids n) /\ b <> [] /\ (n = 0 -> st = NSum2 /\ length b = 2).
  Record safe_inner g : Prop := {
    si_all : gall (inner_R (input_ids g)) g;
    si_edges : forall u v, edge g u v -> live g u /\ live g v;
    si_dest : live g 0;
    si_in : live g 2
  }.
  Lemma safe_set g n w w' g' : safe_inner g -> node_weight g n = Some w -> inner_R (input_ids g) n w'.1 w'.2 -> set_weight g n w' = Ok g' -> safe_inner g'.
  Proof.
    intros [H1 H2 H3 H4] Hw HR Hs. pose proof (set_weight_spec _ _ _ _ Hs) as (_ & _ & He & _ & Hw').
    assert (Hl : forall m, live g m -> live g' m).
    { intros m Hm. unfold live. rewrite Hw'. case_decide; [by eexists|exact Hm]. }
    assert (Hids : forall m, input_ids g' m = input_ids g m) by (intros m; by apply input_ids_edges).
    split; [|intros u v; unfold edge; rewrite He; intros Huv; destruct (H2 u v Huv); auto|auto|auto].
    intros m v Hm. rewrite Hw' in Hm. unfold inner_R. rewrite Hids. case_decide as E; [subst m; injection Hm as <-; exact HR|]. by apply H1.
  Qed.
  Lemma isend_safe g n m g' : safe_inner g -> user_msg m -> isend P g n m = Ok g' -> safe_inner g'.
  Proof.
    intros Hg Hu. unfold isend. destruct (node_weight g n) as [w|] eqn:E; [|done]. destruct (smsg P w.1 m) as [st|] eqn:Em; [|done].
    intros Hs. eapply safe_set; [exact Hg|exact E| |exact Hs]. destruct (si_all _ Hg n w E) as (H1 & H2 & H3 & H4).
    destruct (part_msg _ _ _ _ H1 H2 Hu Em) as (H5 & H6 & H7). split_and!; [done|done|done|]. intros Hn. destruct (H4 Hn). auto.
  Qed.
  Lemma inner_R_proc ids n st ins b st' b' : inner_R ids n st b -> sproc P st ins b = Ok (st', b') -> inner_R ids n st' b'.
  Proof.
    intros (H1 & H2 & H3 & H4) E. pose proof (sproc_length _ _ _ _ _ _ E) as Hl.
    assert (Hseq : is_seq P st = true -> ins.*1 ≡ₚ ids n) by (destruct st; discriminate).
    destruct (sturdy_proc P st (ids n) ins b st' b' H2 Hseq E) as [H5 _].
    split_and!; [|done|intros ->; destruct b; [done|discriminate Hl]|].
    - destruct st; try discriminate H1; cbn [sproc] in E; try (apply wrap_inv in E as (s' & _ & ->); reflexivity).
      + by injection E as <- <-.
      + destruct (sum2_proc P ins b); [|done]. by injection E as <- <-.
    - intros Hn. destruct (H4 Hn) as [-> H6]. split; [|congruence]. cbn [sproc] in E. destruct (sum2_proc P ins b); [|done]. by injection E as <- <-.
  Qed.
  Lemma process_safe shs g g' : safe_inner g -> process (sproc P) shs g 0 = Ok g' -> safe_inner g'.
  Proof.
    intros Hg E. assert (Hall : gall (inner_R (input_ids g)) g').
    { eapply gall_process; [exact (si_all _ Hg)| |exact E]. intros n st ins b st' b' HR _ Hp. by eapply inner_R_proc. }
    apply process_spec in E as (order & _ & _ & _ & He & _ & _ & Hout & Hin).
    assert (Hl : forall m, live g m -> live g' m).
    { intros m [w Hm]. destruct (decide (m ∈ order)) as [Ho|Ho].
      - apply elem_of_list_split in Ho as (l1 & l2 & ->). destruct (Hin l1 m l2 eq_refl) as (? & w1 & _ & _ & Hw1 & _). by exists w1.
      - exists w. by rewrite Hout. }
    assert (Hids : forall m, input_ids g' m = input_ids g m) by (intros m; by apply input_ids_edges).
    destruct Hg as [_ H2 H3 H4]. split; [|intros u v; unfold edge; rewrite He; intros Huv; destruct (H2 u v Huv); auto|auto|auto].
    intros m w Hm. unfold inner_R. rewrite Hids. by apply Hall.
  Qed.

  Definition drumlike (c : compound P) : Prop := match cp_kind P c with KPlate _ _ _ _ => False | _ => True end.
  Definition safe_comp (c : compound P) : Prop := drumlike c /\ safe_inner (cp_graph P c).
  Lemma comp_msg_safe c m c' : safe_comp c -> compound_msg P c m = Ok c' -> safe_comp c'.
  Proof.
    intros [Hd Hs]. unfold safe_comp, drumlike in *. unfold compound_msg. destruct (cp_kind P c) as [n|n|] eqn:Ek; [..|done].
    all: destruct m as [[|[q|q|]|q] v|pos s0|bpm|i|pos i|]; rs;
      try (match goal with |- context [isend P ?g ?n ?m] => destruct (isend P g n m) as [g'|] eqn:E; [|done] end;
           intros [= <-]; cbn; split; [done|]; eapply isend_safe; [exact Hs| |exact E]; done);
      match goal with |- context [ord_msg_keep ?o ?m] => destruct (ord_msg_keep o m) as [o'|]; [|done] end; intros [= <-]; cbn; done.
  Qed.
  Lemma comp_proc_safe c ins b c' b' : safe_comp c -> compound_proc P c ins b = Ok (c', b') -> safe_comp c'.
  Proof.
    intros Hself. pose proof Hself as [Hd Hs]. assert (Hrun : run_inner P c ins b = Ok (c', b') -> safe_comp c').
    { unfold run_inner. rs. destruct (in_ord _ _ 0) as [bs|]; [|done]. destruct (chan bs 0) as [x|]; [|done].
      destruct (node_weight (cp_graph P c) 2) as [w|] eqn:E2; [|done]. cbn [unwrap].
      destruct (put0 w.2 x) as [bs2|] eqn:Ep; [|done]. destruct (set_weight _ _ _) as [g1|] eqn:Es; [|done].
      destruct (process _ _ _ _) as [g2|] eqn:Epr; [|done]. destruct (node_weight g2 0) as [d|]; [|done]. cbn [unwrap].
      destruct (chan d.2 0) as [l|]; [|done]. destruct (chan d.2 1) as [r|]; [|done]. destruct (put01 b l r) as [o|]; [|done].
      intros [= <- <-]. split; [exact Hd|]. cbn. eapply process_safe; [|exact Epr].
      eapply safe_set; [exact Hs|exact E2| |exact Es]. destruct (si_all _ Hs 2 w E2) as (H1 & H2 & H3 & H4). cbn [fst snd].
      split_and!; [done|done| |done]. unfold put0 in Ep. destruct w.2; [done|]. by injection Ep as <-. }
    unfold compound_proc. unfold drumlike in Hd. destruct (cp_kind P c); [..|done]; (destruct ins as [|p [|q ins]]; [|exact Hrun|]; intros [= <- <-]; exact Hself).
  Qed.
  Lemma comp_ok c ids ins out : safe_comp c -> inner P (cp_graph P c) -> length out = 2 -> ins_full P ins -> ins.*1 ≡ₚ ids ->
    (length ids = 1 -> covers (cp_ord P c) ids 1) -> is_ok (compound_proc P c ins out).
  Proof.
    intros [Hd Hs] Hf Ho Hi Hids Hc. apply (ids_one ins) in Hids as Hl. unfold compound_proc. unfold drumlike in Hd.
    assert (Hrun : length ins = 1 -> is_ok (run_inner P c ins out)).
    { intros H1. unfold run_inner. rs. rewrite H1 in Hl.
      destruct (in_ord_ok P ins _ _ 1 0 Hi Hids (Hc Hl) ltac:(lia)) as (bs & -> & Hbs). destruct (chan_ok P bs Hbs) as (x & -> & Hx).
      destruct (si_in _ Hs) as [w E2]. rewrite E2. cbn [unwrap]. pose proof (si_all _ Hs 2 w E2) as (H2 & H3 & H4 & _).
      destruct (put0_ok w.2 x H4) as [bs2 Ep]. rewrite Ep.
      destruct (set_weight_live (cp_graph P c) 2 (w.1, bs2) ltac:(by eexists)) as [g1 Es]. rewrite Es.
      assert (Hs1 : safe_inner g1).
      { eapply safe_set; [exact Hs|exact E2| |exact Es]. cbn [fst snd]. split_and!; [done|done| |done].
        unfold put0 in Ep. destruct w.2; [done|]. by injection Ep as <-. }
      assert (Hf1 : inner P g1).
      { eapply gall_set; [exact Hf| |exact Es]. cbn [fst snd]. eapply put0_full; [exact (Hf 2 w E2)|exact Hx|exact Ep]. }
      destruct (process_ok (fun n st b => inner_R (input_ids g1) n st b /\ fulls P b) (sproc P) (p_inner P) g1 0) as (g2 & Epr & Hall & _ & Hlive).
      - intros n v Hn. split; [by apply (si_all _ Hs1)|exact (Hf1 n v Hn)].
      - exact (si_edges _ Hs1).
      - exact (si_dest _ Hs1).
      - intros n st i b st' b' _ [HR HF] HI _ Hp. split; [by eapply inner_R_proc|]. eapply sproc_full; [exact HF| |exact Hp].
        eapply Forall_impl; [exact HI|]. by intros p (_ & _ & ?).
      - intros n st b i _ [(H5 & H6 & _) HF] Hp HI. eapply sproc_ok; [exact H6|exact HF|destruct st; discriminate| |exact Hp].
        eapply Forall_impl; [exact HI|]. by intros p (_ & _ & ?).
      - rewrite Epr. destruct (Hlive 0 (si_dest _ Hs1)) as [d Ed]. rewrite Ed. cbn [unwrap].
        destruct (Hall 0 d Ed) as [(_ & _ & _ & H5) _]. destruct (H5 eq_refl) as [_ H6].
        destruct d as [ds [|dl [|dr [|]]]]; try discriminate H6. cbn [snd]. unfold chan. cbn [lookup list_lookup unwrap].
        destruct (put01_ok out dl dr Ho) as [o ->]. done. }
    destruct (cp_kind P c); [..|done]; (destruct ins as [|p [|q ins]]; [done|by apply Hrun|done]).
  Qed.

  (** The graphs of the drums and synths. *)
  Definition coversb (o ids : list nat) (n : nat) : bool :=
    forallb (fun k => match o !! k with Some x => bool_decide (x ∈ ids) | None => false end) (seq 0 n).
  Lemma coversb_ok o ids n : coversb o ids n = true -> covers o ids n.
  Proof.
    intros H k Hk. unfold coversb in H. rewrite forallb_forall in H.
    specialize (H k ltac:(apply in_seq; lia)). destruct (o !! k) as [x|] eqn:E; [|discriminate H]. exists x. split; [reflexivity|]. by apply bool_decide_eq_true in H.
  Qed.
  Definition partb (n : snode P) (ids : list nat) : bool :=
    match n with
    | NSum2 | NPass | NNoise _ => true
    | NMul s | NAdd s => if Nat.eqb (length ids) 2 then coversb (op_ord s) ids 2 else true
    | NOsc _ s => if Nat.eqb (length ids) 1 then coversb (os_ord s) ids 1 else true
    | NEnvPerc s => if Nat.eqb (length ids) 1 then coversb (ep_ord s) ids 1 else true
    | NRhpf s => if Nat.eqb (length ids) 2 then coversb (bq_ord s) ids 2 else true
    | _ => false
    end.
  Lemma partb_ok n ids : partb n ids = true -> part n = true /\ sturdy P n ids.
  Proof.
    destruct n; try discriminate; cbn [partb part sturdy]; intros H; (split; [reflexivity|]); auto; try split; auto; try done.
    all: intros E; rewrite E, Nat.eqb_refl in H; try right; by apply coversb_ok.
  Qed.
  Definition node_check (es : list (nat * nat)) (n : nat) (w : W) : bool :=
    partb w.1 (input_ids (SGraph (W := W) [] [] es) n) && negb (bool_decide (w.2 = [])) &&
    match n with 0 => match w.1, w.2 with NSum2, [_; _] => true | _, _ => false end | _ => true end.
  Fixpoint nodes_check (es : list (nat * nat)) (n : nat) (ws : list W) : bool :=
    match ws with [] => true | w :: ws => node_check es n w && nodes_check es (S n) ws end.
  Lemma nodes_check_ok es ws n k w : nodes_check es n ws = true -> ws !! k = Some w -> node_check es (n + k) w = true.
  Proof.
    revert n k. induction ws as [|w0 ws IH]; intros n [|k]; cbn [nodes_check lookup list_lookup]; try done; intros H%andb_prop.
    - intros [= <-]. rewrite Nat.add_0_r. apply H.
    - intros Hk. rewrite Nat.add_succ_r. apply (IH (S n)); [apply H|exact Hk].
  Qed.
  Lemma graph_safe ws es : nodes_check es 0 ws = true -> forallb (fun e => Nat.ltb e.1 (length ws) && Nat.ltb e.2 (length ws)) es = true -> 3 <= length ws ->
    safe_inner (SGraph (map Some ws) [] es).
  Proof.
    intros Hn He Hl. assert (Hnw : forall n, node_weight (SGraph (map Some ws) [] es) n = ws !! n).
    { intros n. unfold node_weight. cbn [slots]. change (map Some ws) with (Some <$> ws). rewrite list_lookup_fmap. by destruct (ws !! n). }
    assert (Hlive : forall n, n < length ws -> live (SGraph (map Some ws) [] es) n).
    { intros n H. unfold live. rewrite Hnw. by apply lookup_lt_is_Some_2. }
    split; [|intros u v Huv|apply Hlive; lia|apply Hlive; lia].
    - intros n w Hw. rewrite Hnw in Hw. pose proof (nodes_check_ok es ws 0 n w Hn Hw) as H. cbn [plus] in H. unfold node_check in H.
      apply andb_prop in H as [H H3]. apply andb_prop in H as [H1 H2]. apply partb_ok in H1 as [H0 H1].
      split_and!; [exact H0|exact H1| |].
      + intros E. rewrite bool_decide_true in H2 by exact E. discriminate H2.
      + intros ->. destruct w as [[] [|? [|? [|]]]]; try discriminate H3. done.
    - unfold edge in Huv. cbn [edges] in Huv. rewrite forallb_forall in He. apply elem_of_list_In in Huv. specialize (He _ Huv). apply andb_prop in He as [E1 E2].
      apply Nat.ltb_lt in E1, E2. split; by apply Hlive.
  Qed.
  Lemma made_safe g o k c : (match k with KPlate _ _ _ _ => False | _ => True end) -> safe_inner g -> Ok (Compound P g o k) = Ok c -> safe_comp c.
  Proof. intros Hk Hg [= <-]. split; [by destruct k|exact Hg]. Qed.
  Notation S1 := [silent P]. Notation S2 := [silent P; silent P].
  Lemma bd_safe d c : bd_new P d = Ok c -> safe_comp c.
  Proof.
    assert (Hn : bd_new P d = Ok (Compound P (SGraph (map Some [(NSum2, S2); (NPass, S2); (NPass, S1);
      (NEnvPerc (EnvPerc (num 3 (-3)) d 0 f1 44100 [2]), S1); (NEnvPerc (EnvPerc (num 1 (-2)) (num 1 (-1)) 0 f1 44100 [2]), S1);
      (NMul (Opn (num 50 0) [4]), S2); (NAdd (Opn (num 60 0) [5]), S2); (NOsc WSin (Osc f1 f0 44100 f0 [6]), S1); (NMul (Opn f0 [7; 3]), S1)]) [] bd_edges) [] (KDrum 3))) by reflexivity.
    rewrite Hn. clear Hn. intros H. refine (made_safe _ [] (KDrum _) _ I _ H). apply graph_safe; [reflexivity|reflexivity|cbn [length]; lia].
  Qed.
  Lemma hh_safe d c : hh_new P d = Ok c -> safe_comp c.
  Proof.
    assert (Hn : hh_new P d = Ok (Compound P (SGraph (map Some [(NSum2, S2); (NPass, S2); (NPass, S1); (NNoise (Noise 42 0 []), S1);
      (NRhpf (Biquad (num 15000 0) f1 f0 f0 f0 f0 44100 [] f1 (num 120 0) 0 [3]), S1); (NMul (Opn f0 [4; 6]), S2);
      (NEnvPerc (EnvPerc (num 3 (-3)) d 0 f1 44100 [2]), S1)]) [] hh_edges) [] (KDrum 6))) by reflexivity.
    rewrite Hn. clear Hn. intros H. refine (made_safe _ [] (KDrum _) _ I _ H). apply graph_safe; [reflexivity|reflexivity|cbn [length]; lia].
  Qed.
  Lemma sn_safe d c : sn_new P d = Ok c -> safe_comp c.
  Proof.
    assert (Hn : sn_new P d = Ok (Compound P (SGraph (map Some [(NSum2, S2); (NPass, S2); (NPass, S1);
      (NEnvPerc (EnvPerc (num 1 (-3)) d 0 f1 44100 [2]), S1); (NEnvPerc (EnvPerc (num 1 (-3)) (num 1 (-1)) 0 f1 44100 [2]), S1);
      (NMul (Opn (num 55 0) [4]), S2); (NAdd (Opn (num 60 0) [5]), S2); (NOsc WSin (Osc f1 f0 44100 f0 [6]), S1);
      (NAdd (Opn f0 [7; 12]), S2); (NAdd (Opn f0 [8]), S2); (NMul (Opn f0 [9; 3]), S2); (NNoise (Noise 42 0 []), S1); (NMul (Opn (num 3 (-1)) [11]), S2)])
      [] sn_edges) [] (KDrum 3))) by reflexivity.
    rewrite Hn. clear Hn. intros H. refine (made_safe _ [] (KDrum _) _ I _ H). apply graph_safe; [reflexivity|reflexivity|cbn [length]; lia].
  Qed.
  Lemma synth_safe w a d c : synth_new P w a d = Ok c -> safe_comp c.
  Proof.
    assert (Hn : synth_new P w a d = Ok (Compound P (SGraph (map Some [(NSum2, S2); (NPass, S2); (NPass, S1); (NOsc w (Osc f1 f0 44100 f0 [6]), S1);
      (NMul (Opn f0 [3; 5]), S2); (NEnvPerc (EnvPerc a d 0 f1 44100 [2]), S1); (NMul (Opn middle_c [2]), S2)]) [] synth_edges) [] (KSynth 5))) by reflexivity.
    rewrite Hn. clear Hn. intros H. refine (made_safe _ [] (KSynth _) _ I _ H). apply graph_safe; [reflexivity|reflexivity|cbn [length]; lia].
  Qed.
End compounds.

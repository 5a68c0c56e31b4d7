(** * C74: a performance with clocks, sequences and samples never panics. *)
From Verif Require Import Props_NoPanic Props_Update Props_External Props_Calls Session Syntax Props_Syntax Props_Live.
From Verif Require Import SafeSeq WeightProofs BlockProofs Props_Signal Props_Choose Props_Blocks Props_Sampler.
From Verif Require Props_Range Props_PSampler.
From Verif Require Import Range DoubleR Bars FloatR.
From Coq Require Import Reals Lra Lia.
Local Open Scope nat_scope.

(** ** The processor keeps what every node keeps *)
Section keeps.
  Context {node buf : Type} (R : nat -> node -> list buf -> Prop).
  Context (nproc : node -> list (nat * list buf) -> list buf -> res (node * list buf)).
  Notation W := (node * list buf)%type.
  Implicit Types g : sgraph W.
  Lemma process_keeps shs g dest g' : gall R g ->
    (forall n st ins b st' b', R n st b -> R_ins R ins -> ins.*1 ≡ₚ input_ids g n -> nproc st ins b = Ok (st', b') -> R n st' b') ->
    process nproc shs g dest = Ok g' -> gall R g'.
  Proof.
    intros HR Hpres. unfold process. destruct (dfs_order _ _) as [order|]; [|done].
    assert (Hrun : forall l x, edges x = edges g -> gall R x -> foldM (fun g n => process_node nproc (shs n) g n) x l = Ok g' -> gall R g').
    { intros l. induction l as [|n l IH]; intros x He Hx; cbn [foldM]; [by intros [= <-]|].
      destruct (process_node nproc (shs n) x n) as [y|] eqn:E; [|done]. revert E. unfold process_node.
      destruct (inputs_of x n) as [ins|] eqn:Ei; [|done]. destruct (node_weight x n) as [[st b]|] eqn:Ew; [|done].
      cbn [unwrap mbind res_bind fst snd]. destruct (nproc st (shs n _ ins) b) as [[st' b']|] eqn:Ep; [|done]. intros Es.
      assert (Hfi : R_ins R (shs n _ ins)).
      { apply (Permutation_Forall (symmetry (shuf_perm (shs n) _ ins))). by eapply inputs_of_all. }
      assert (Hpi : (shs n _ ins).*1 ≡ₚ input_ids g n).
      { rewrite (shuf_perm (shs n)). rewrite (proj1 (inputs_of_spec x n ins Ei)), (input_ids_edges g x n He). done. }
      assert (Hn : R n st' b') by (eapply Hpres; [exact (Hx n _ Ew)|exact Hfi|exact Hpi|exact Ep]).
      apply set_weight_spec in Es as (_ & _ & He' & _ & Hw). apply IH.
      - by rewrite He'.
      - intros m w Hm. rewrite Hw in Hm. case_decide; [by injection Hm as <-; subst|by apply Hx]. }
    by apply Hrun.
  Qed.
End keeps.

(** ** What the musician keeps to *)

(** The parameters of a component, when its node is made. *)
Definition timed (ev : env sampledata) (c : component) : Prop :=
  match c with
  | CImp (Num v) => fin v /\ (0 < fval v <= IZR (e_sr ev))%R
  | CSpeed x => sane_speed x
  | CPoints pts span loop => pts <> [] /\ (loop = true -> sane_span span)
  | CLpf (SigPattern evs span) _ => evs = [] \/ sane_span span
  | CSp sym => forall d, e_samples ev !! sym = Some d -> playable d
  | CPSampler (PsPattern evs span) => sane_span span /\ forall x, x ∈ evs -> forall d, e_samples ev !! ev_name x.1 = Some d -> playable d
  | CPSampler (PsEvent _) => False
  | CArrange evs => length evs / 2 <= length (component_refs (CArrange evs))
  | CChoose l => (0 < Z.of_nat (length l) <= 1000000)%Z
  | CPatternSynth sym _ => is_ok (ps_parse sym)
  | _ => makeable c
  end.
(** Components that a sequence can take its speed from. *)
Definition pacer (c : component) : Prop := match c with CSpeed _ | CImp _ | CConstSig _ => True | _ => False end.
(** The place of a component in its chain. *)
Definition in_place (k : string) (cs : list component) (i : nat) (c : component) : Prop :=
  steady c i \/
  (exists evs j d, c = CSeq evs /\ i = S j /\ cs !! j = Some d /\ pacer d /\
    NoDup (component_refs c) /\ Forall no_dots (component_refs c) /\ k ∉ component_refs c) \/
  arranges k c.
Definition all_placed (p : gmap string (list component)) : Prop :=
  forall k cs i c, p !! k = Some cs -> cs !! i = Some c -> in_place k cs i c.
(** The numbers that may be sent to a component. *)
Definition told (c : component) (pos : Z) (v : f32) : Prop :=
  match c with
  | CImp _ => pos = 0%Z -> fin v /\ (0 < fval v <= 8000)%R
  | CSpeed _ => pos = 0%Z -> sane_speed v
  | CPoints _ _ _ => pos = 1%Z -> sane_span v
  | CDelayn _ | CArrange _ => False
  | _ => True
  end.

(** ** The nodes *)
Definition asks_ok (b : list sig) : Prop := forall x, asks b = Some x -> sane_speed x.
Definition rate_ok (sr : Z) : Prop := (8000 <= sr <= 192000)%Z.

Lemma sane_f1 : sane_speed f1.
Proof. split; [exact fin_f1|]. rewrite val_f1. lra. Qed.

Section nodes.
  Context (P : platform).
  Context (Hrel : debug (p_cfg P) = false) (Hblk : 1 < p_blk P) (Humax : (16777216 <= umax (p_cfg P))%Z).
  Context (Hnoise : forall seed k, unit_noise (p_noise P seed k)).

  Definition ranged (c : component) (st : gnode P) (b : list sig) : Prop :=
    match c with
    | CImp _ => exists s, st = Simple (NImp s) /\ im_period s <> 0%Z /\ rate_ok (im_sr s) /\ asks_ok b
    | CSpeed _ => exists s, st = Simple (NSpeed s) /\ sane_speed (sp_val s) /\ asks_ok b
    | CConstSig _ => exists s, st = Simple (NConst s) /\ asks_ok b
    | CPatternSynth _ _ => exists s, st = Simple (NPSynth s) /\ rate_ok (ps_sr s)
    | CPoints _ _ _ => exists s, st = Simple (NPoints s) /\ (po_loop s = true -> sane_span (po_span s)) /\ sane (po_bpm s) (po_sr s)
    | CSp _ => exists s, st = Simple (NSampler s) /\ playable (sa_data s)
    | CPSampler _ => exists s, st = Simple (NPSampler s) /\ pa_fine P s
    | CArrange evs => exists s, st = Simple (NArrange s) /\ length (ar_events s) / 2 <= length (component_refs (CArrange evs))
    | CChoose _ => exists s, st = Simple (NChoose s) /\ ch_fine P s
    | CSeq _ => exists s, st = Simple (NSeq s) /\ sane (sq_bpm s) (sq_sr s) /\ sane_speed (sq_speed s)
    | CLpf (SigPattern _ _) _ => exists s, st = Simple (NRlpf s) /\ (bq_pattern s = [] \/ (sane (bq_bpm s) (bq_sr s) /\ sane_span (bq_span s)))
    | _ => True
    end.

  Lemma asks_silent n : asks (chans_of P n) = None.
  Proof. unfold chans_of. destruct n; [done|]. cbn. unfold silent. by destruct (p_blk P) as [|[|k]]. Qed.
  Lemma asks_ok_silent n : asks_ok (chans_of P n).
  Proof. intros x H. by rewrite asks_silent in H. Qed.

  (** Fresh nodes. *)
  Lemma made_ranged ev c w refs : sane (e_bpm ev) (e_sr ev) -> timed ev c -> makenode_ P ev c = Done (w, refs) -> ranged c w.1 w.2.
  Proof.
    intros Hev Ht. pose proof (proj2 Hev) as Hsr. assert (Hu : (1 <= umax (p_cfg P))%Z) by lia.
    destruct c; try (intros _; exact I);
      lazymatch goal with
      | |- makenode_ _ _ (CPoints _ _ _) = _ -> _ =>
        cbn [makenode_ ranged timed] in *; unfold boxed, boxed_res; rs; destruct (make_points _ _ _ _ _) as [l|]; [|done];
        intros [= <- _]; eexists; (split; [reflexivity|]); cbn; (split; [apply Ht|exact Hev])
      | |- makenode_ _ _ (CImp ?p) = _ -> _ =>
        cbn [makenode_ ranged timed] in *; intros [= <- _]; eexists; (split; [reflexivity|]); cbn;
        (split_and!; [|exact Hsr|exact (asks_ok_silent 1)]); unfold imp_period; (apply imp_ge1; [exact Hu|exact Hsr|]); destruct p; [by left|by right]
      | |- makenode_ _ _ (CSpeed _) = _ -> _ =>
        cbn [makenode_ ranged timed] in *; intros [= <- _]; eexists; (split; [reflexivity|]); (split; [exact Ht|exact (asks_ok_silent 1)])
      | |- makenode_ _ _ (CConstSig _) = _ -> _ =>
        cbn [makenode_ ranged timed] in *; intros [= <- _]; eexists; (split; [reflexivity|exact (asks_ok_silent 1)])
      | |- makenode_ _ _ (CSeq _) = _ -> _ =>
        cbn [makenode_ ranged timed] in *; intros [= <- _]; eexists; (split; [reflexivity|]); (split; [exact Hev|exact sane_f1])
      | |- makenode_ _ _ (CChoose _) = _ -> _ =>
        cbn [makenode_ ranged timed] in *; intros [= <- _]; eexists; (split; [reflexivity|]); unfold ch_fine; cbn; split_and!; try lia; apply Hnoise
      | |- makenode_ _ _ (CArrange _) = _ -> _ =>
        cbn [makenode_ ranged timed] in *; intros [= <- _]; eexists; (split; [reflexivity|]); exact Ht
      | |- _ => idtac
      end.
    all: cbn [makenode_ ranged timed] in *; unfold boxed, boxed_res.
    - destruct (e_samples ev !! sym) as [d|] eqn:Ed; [|done]. unfold sampler_new. rs. destruct (sd_chan d =? 0)%Z; [done|].
      destruct (usub _ _ _); [|done]. intros [= <- _]. eexists. split; [reflexivity|]. by apply Ht.
    - rs. destruct (ps_parse sym); [|done]. intros [= <- _]. eexists. split; [reflexivity|exact Hsr].
    - destruct sg; try done. intros [= <- _]. eexists. split; [reflexivity|]. cbn. destruct Ht as [->|Ht]; [by left|right]. by split.
    - destruct p as [x|evs span]; [done|]. destruct (select _ _) as [dict| |] eqn:Es; [|done|done]. intros [= <- _]. eexists. split; [reflexivity|].
      destruct Ht as [Hsp Ht]. split; [apply (bar_dur_ge1 (p_cfg P) _ _ _ Hu Hev Hsp)|]. split; [|constructor]. cbn [pa_pattern pa_dict].
      apply Forall_forall. intros y Hy. apply elem_of_list_fmap in Hy as (x & -> & Hx). cbn [fst].
      destruct (Props_PSampler.select_spec _ _ _ Es (ev_name x.1)) as [Heq Hne]; [apply elem_of_list_fmap; by exists x|].
      destruct (e_samples ev !! ev_name x.1) as [d|] eqn:Ed; [|done]. exists d. split; [exact Heq|]. by apply (Ht x Hx).
  Qed.

  (** Messages. *)
  Definition okmsg (c : component) (m : msg) : Prop :=
    match m with
    | SetToNumber pos v => told c pos v
    | SetToSymbol _ _ => False
    | SetBPM b => rng 1 1000 b
    | _ => True
    end.
  Lemma ranged_msg c st m st' b : ranged c st b -> okmsg c m -> gmsg P st m = Ok st' -> ranged c st' b.
  Proof.
    assert (Hu : (1 <= umax (p_cfg P))%Z) by lia.
    destruct c; try (intros; exact I); cbn [ranged].
    all: try (destruct sg; try (intros; exact I)).
    all: intros (s & -> & H) Hm; cbn [gmsg smsg]; unfold wrapm.
    all: match goal with |- match ?x with Ok _ => _ | Panic => _ end = _ -> _ => destruct x as [s'|] eqn:E; [|done] end; intros [= <-];
         match type of E with match ?x with Ok _ => _ | Panic => _ end = _ => destruct x as [s1|] eqn:E1; [|done]; injection E as <- | _ => idtac end.
    - revert E1. unfold points_msg. rs. destruct H as [H1 H2].
      destruct m as [[|[q|q|]|q] v|pos s0|bpm|n|pos n|]; cbn [ord_msg_keep ord_msg okmsg told] in *;
        repeat match goal with |- context [match ?x with Ok _ => _ | Panic => _ end] => destruct x; [|done] end; intros [= <-]; eexists; (split; [reflexivity|]); cbn;
        try (split; [exact H1|exact H2]); try contradiction.
      + split; [intros _; by apply Hm|exact H2].
      + split; [exact H1|]. split; [exact Hm|apply H2].
    - revert E1. unfold imp_msg. rs. destruct H as (H1 & H2 & H3).
      destruct m as [[|q|q] v|pos s0|bpm|n|pos n|]; cbn [ord_msg_keep ord_msg okmsg told] in *;
        repeat match goal with |- context [match ?x with Ok _ => _ | Panic => _ end] => destruct x; [|done] end; intros [= <-]; eexists; (split; [reflexivity|]); cbn;
        try (split_and!; [exact H1|exact H2|exact H3]).
      split_and!; [|exact H2|exact H3]. unfold imp_period. apply imp_ge1; [exact Hu|exact H2|]. left. destruct (Hm eq_refl) as [Hf Hv]. split; [exact Hf|].
      assert (8000 <= IZR (im_sr s))%R by (apply IZR_le, H2). lra.
    - revert E1. unfold seq_msg. rs. destruct H as [H1 H2]. destruct m as [pos v|pos s0|bpm|n|pos n|]; cbn [ord_msg okmsg] in *;
        repeat match goal with |- context [match ?x with Ok _ => _ | Panic => _ end] => destruct x; [|done] end; intros [= <-]; eexists; (split; [reflexivity|]); cbn;
        try (split; [exact H1|exact H2]). split; [|exact H2]. split; [exact Hm|apply H1].
    - revert E1. unfold choose_msg. rs. destruct (ord_msg _ _); [|done]. intros [= <-]. eexists. split; [reflexivity|]. exact H.
    - revert E1. unfold arrange_msg. rs. destruct m as [pos v|pos s0|bpm|n|pos n|]; cbn [okmsg told] in Hm; try contradiction;
        (destruct (ord_msg _ _); [|done]); intros [= <-]; eexists; (split; [reflexivity|]); exact H.
    - revert E1. unfold sampler_msg. rs. destruct (ord_msg _ _); [|done]. intros [= <-]. eexists. split; [reflexivity|]. exact H.
    - revert E1. unfold spd_msg. rs. destruct H as [H1 H2]. destruct m as [[|q|q] v0|pos s0|bpm|n|pos n|]; cbn [ord_msg okmsg told] in *;
        repeat match goal with |- context [match ?x with Ok _ => _ | Panic => _ end] => destruct x; [|done] end; intros [= <-]; eexists; (split; [reflexivity|]); cbn;
        try (split; [exact H1|exact H2]). split; [by apply Hm|exact H2].
    - eexists. split; [reflexivity|exact H].
    - revert E1. unfold psynth_msg. rs. destruct m as [pos v|[|q|q] s0|bpm|n|pos n|]; cbn [ord_msg okmsg] in *; try contradiction;
        repeat match goal with |- context [match ?x with Ok _ => _ | Panic => _ end] => destruct x; [|done] end; intros [= <-]; eexists; (split; [reflexivity|exact H]).
    - assert (Hs : bq_shape s1 = bq_shape s).
      { revert E1. unfold bq_msg. destruct m as [[|[r|r|]|r] v|pos s0|bpm|n|pos n|]; try (intros E1; injection E1 as <-; reflexivity);
          (match goal with |- context [ord_msg ?a ?b] => destruct (ord_msg a b) end); cbn; try discriminate; intros E1; injection E1 as <-; reflexivity. }
      clear E1. rename Hs into E1. eexists. split; [reflexivity|]. injection E1 as -> -> -> ->. exact H.
    - revert E1. unfold psampler_msg. rs. destruct (ord_msg _ _); [|done]. intros [= <-]. eexists. split; [reflexivity|]. exact H.
  Qed.
  Lemma ranged_msgs c ms st st' b : ranged c st b -> Forall (okmsg c) ms -> foldM (gmsg P) st ms = Ok st' -> ranged c st' b.
  Proof.
    revert st. induction ms as [|m ms IH]; intros st H Hm; cbn [foldM]; [by intros [= <-]|]. inversion Hm as [|? ? Hm1 Hm2]; subst.
    destruct (gmsg P st m) as [st1|] eqn:E; [|done]. apply IH; [|done]. by eapply ranged_msg.
  Qed.

  (** Processing. *)
  Lemma imp_rate s ins out s' out' : imp_proc P s ins out = Ok (s', out') -> im_sr s' = im_sr s.
  Proof.
    unfold imp_proc. match goal with |- context [scanR ?f s ?b] => destruct (scanR f s b) as [[s1 o]|] eqn:E; [|done] end.
    rs. destruct (put0 out o); [|done]. intros [= <- <-]. apply (scanR_keeps im_sr) in E; [done|].
    intros s0 x s2 y. unfold imp_step. rs. destruct (umod _ _); [|done]. by intros [= <- <-].
  Qed.
  Lemma imp_asks s ins b s' b' : imp_proc P s ins b = Ok (s', b') -> asks_ok b'.
  Proof.
    intros H. unfold imp_proc in H. destruct (scanR _ _ _) as [[s1 o]|] eqn:E; [|done].
    assert (Ho : Forall (fun v => v = f1 \/ v = f0) o).
    { revert E. generalize s, (replicate (p_blk P) tt), o. clear. intros s l. revert s. induction l as [|[] l IH]; intros s o; cbn [scanR]; [by intros [= <- <-]|].
      unfold imp_step at 1. rs. destruct (umod _ _) as [r|]; [|done]. cbn. destruct (scanR _ _ l) as [[s2 o2]|] eqn:E; [|done]. intros [= <- <-].
      constructor; [destruct (r =? 0)%Z; [by left|by right]|]. by eapply IH. }
    destruct (put0 b o) as [o'|] eqn:E'; [|done]. cbn in H. injection H as <- <-. apply put0_head in E' as [r ->].
    intros x. cbn [asks]. destruct o as [|x0 [|y o]]; try done. destruct (fgtb x0 f0 && feqb y f0) eqn:Eb; [|done]. intros [= <-].
    inversion Ho as [|? ? [->| ->] _]; subst; [exact sane_f1|]. discriminate Eb.
  Qed.
  Lemma speed_asks s ins b s' b' : sane_speed (sp_val s) -> spd_proc P s ins b = Ok (s', b') -> s' = s /\ asks_ok b'.
  Proof.
    intros Hs H. unfold spd_proc in H. destruct (silent P) as [|v0 l] eqn:El; [done|]. destruct (put0 b _) as [o|] eqn:E; [|done]. cbn in H. injection H as <- <-.
    split; [done|]. apply put0_head in E as [r ->]. intros x. cbn [asks]. destruct l as [|y l]; [done|]. destruct (_ && _); [|done]. by intros [= <-].
  Qed.
  Lemma const_asks s ins b s' b' : csig_proc P s ins b = Ok (s', b') -> asks_ok b'.
  Proof.
    intros H. unfold csig_proc in H. destruct (put0 b _) as [o|] eqn:E; [|done]. cbn in H. injection H as <- <-. apply put0_head in E as [r ->].
    intros x. cbn [asks]. destruct (p_blk P) as [|[|k]]; try done. cbn [replicate]. destruct (fgtb (cs_val s) f0) eqn:E; [|done].
    by rewrite (pos_not_zero _ E).
  Qed.
  (** The speed of a sequence after a block: the one it had or the one asked for. *)
  Lemma seq_speed_after s ins b s' b' u : seq_proc P s ins b = Ok (s', b') -> (ins <> [] -> sq_ord s !! 0 = Some u) ->
    sq_speed s' = sq_speed s \/ exists bs, (u, bs) ∈ ins /\ asks bs = Some (sq_speed s').
  Proof.
    unfold seq_proc. destruct ins as [|p ins].
    - match goal with |- context [scanR ?f s ?l] => destruct (scanR f s l) as [[s1 o]|] eqn:E; [|done] end.
      apply (scanR_keeps sq_speed) in E.
      + rs. destruct (put0 b o); [|done]. intros [= <- <-] _. by left.
      + intros s0 x s2 b0. rs. destruct (seq_sample _ _ _ _ _); [|done]. by intros [= <- <-].
    - intros H Ho. specialize (Ho ltac:(done)). revert H. rs. unfold in_ord at 1. rewrite Ho. destruct (in_id _ u) as [pb|] eqn:Eu; [|done]. apply in_id_in in Eu.
      destruct (chan pb 0) as [p0|] eqn:Ec; [|done]. destruct (p0 !! 0) as [v0|] eqn:E0; [|done]. cbn [unwrap].
      match goal with |- match ?x with _ => _ end = _ -> _ => destruct x as [has|] eqn:Eh; [|done] end.
      match goal with |- context [scanR ?f ?s1 ?l] => destruct (scanR f s1 l) as [[s2 o]|] eqn:E; [|done] end.
      apply (scanR_keeps sq_speed) in E.
      + destruct (put0 b o); [|done]. intros [= <- <-]. rewrite E. cbn. destruct has; [right|by left]. exists pb. split; [exact Eu|].
        destruct pb as [|q pb]; [done|]. cbn in Ec. injection Ec as ->. destruct p0 as [|x0 p0]; [done|]. cbn in E0. injection E0 as ->.
        destruct (fgtb v0 f0) eqn:Ef; [|done]. destruct p0 as [|y p0]; [done|]. cbn in Eh. injection Eh as Eh. cbn [asks]. by rewrite Ef, Eh.
      + intros s0 x s3 b0. destruct (seq_sample _ _ _ _ _); [|done]. by intros [= <- <-].
  Qed.
  Lemma ranged_proc c st ins b st' b' : ranged c st b -> gproc P st ins b = Ok (st', b') ->
    (forall evs s, c = CSeq evs -> st = Simple (NSeq s) -> exists u, (ins <> [] -> sq_ord s !! 0 = Some u) /\ forall bs, (u, bs) ∈ ins -> asks_ok bs) ->
    ranged c st' b'.
  Proof.
    destruct c; try (intros; exact I); cbn [ranged].
    all: try (destruct sg; try (intros; exact I)).
    all: intros (s & -> & H) Hp Hq; cbn [gproc sproc] in Hp; apply wrap_inv in Hp as (n' & Hp & ->); apply wrap_inv in Hp as (s' & Hp & ->); exists s'; (split; [reflexivity|]).
    - apply points_keeps in Hp. injection Hp as -> -> -> ->. exact H.
    - destruct H as (H1 & H2 & H3). split_and!; [by rewrite (imp_keeps _ _ _ _ _ _ Hp)|by rewrite (imp_rate _ _ _ _ _ Hp)|by eapply imp_asks].
    - destruct (Hq _ s eq_refl eq_refl) as (u & Hu & Hb). destruct (seq_speed_after _ _ _ _ _ u Hp Hu) as [E|(bs & Hin & E)];
        pose proof (seq_fixed_keep P _ _ _ _ _ Hp) as Hf; unfold seq_fixed in Hf; injection Hf as _ _ _ -> ->; destruct H as [H1 H2]; split; try exact H1.
      + by rewrite E.
      + by apply (Hb bs Hin).
    - apply choose_keeps in Hp. unfold ch_fine in *. injection Hp as -> ->. exact H.
    - apply arrange_keeps in Hp as [-> _]. exact H.
    - apply sampler_keeps in Hp. by injection Hp as -> _.
    - destruct H as [H1 _]. destruct (speed_asks _ _ _ _ _ H1 Hp) as [-> H2]. by split.
    - by eapply const_asks.
    - by rewrite (psynth_keeps _ _ _ _ _ _ Hp).
    - apply rlpf_pattern in Hp. unfold bq_shape in Hp. injection Hp as -> -> -> ->. exact H.
    - exact (psampler_keeps P _ _ _ _ _ H Hp).
  Qed.

  (** Kept nodes. *)
  Lemma refs_as_many x y : list_eqb numref_eqb x y = true -> length (component_refs (CArrange x)) = length (component_refs (CArrange y)).
  Proof.
    revert y. induction x as [|a x IH]; intros [|d y]; try discriminate; [done|]. cbn [list_eqb]. intros [H1 H2]%andb_prop. apply IH in H2.
    cbn [component_refs map List.concat] in *. rewrite !app_length, H2. f_equal. by destruct a, d.
  Qed.
  Lemma ranged_eq a c st b : component_eqb a c = true -> ranged a st b -> ranged c st b.
  Proof.
    destruct a, c; try (intros H; discriminate H); try (intros _ H; exact H); cbn [component_eqb].
    - intros E (s & -> & H). exists s. split; [reflexivity|]. by rewrite <- (refs_as_many _ _ E).
    - destruct sg, sg0; try done.
  Qed.

  (** Such nodes can be processed. *)
  Lemma ranged_ready c st b i : ranged c st b -> (calm c i -> ready P st) -> steady c i \/ (exists evs, c = CSeq evs) \/
    (exists evs, c = CArrange evs /\ forall o, input_order st = Some o -> length (component_refs c) <= length o) -> ready P st.
  Proof.
    assert (Hu : (1 <= umax (p_cfg P))%Z) by lia.
    intros H Hc Hs. destruct c; try (apply Hc; by destruct Hs as [Hs|[[? [=]]|(? & [=] & _)]]); cbn [ranged] in H.
    all: try (destruct sg; try (apply Hc; by destruct Hs as [Hs|[[? [=]]|(? & [=] & _)]])).
    all: destruct H as (s & -> & H); cbn [ready].
    - intros Hl. destruct H as [H1 H2]. unfold points_bar. apply bar_dur_ge1; [exact Hu|exact H2|by apply H1].
    - apply H.
    - unfold seq_bar. destruct H as [H1 H2]. by apply bar_length_ge1.
    - exact H.
    - destruct Hs as [[]|[[? [=]]|(evs & _ & Ho)]]. specialize (Ho _ eq_refl). lia.
    - exact H.
    - unfold ps_bar. by apply psynth_bar_ge1.
    - unfold bq_fine. destruct H as [H|[H1 H2]]; [by left|right]. unfold lpf_bar. by apply bar_dur_ge1.
    - exact H.
  Qed.
End nodes.

Section song.
  Context (P : platform) (get : string -> outcome (gmap string (list component))).
  Context (Hrel : debug (p_cfg P) = false) (Hblk : 1 < p_blk P) (Humax : (16777216 <= umax (p_cfg P))%Z).
  Context (Hnoise : forall seed k, unit_noise (p_noise P seed k)).
  Notation L := (glang P get).
  Let Hblk0 : 0 < p_blk P.
  Proof. lia. Qed.

  (** What the musician may do: submit a text that is rejected by the parser, or one whose
      components are in place and in time, keeping the order of what stays; play a block with
      inputs that fit; send a number to a component of the program that takes it, or to a chain
      that does not exist; set the tempo and the sample rate within bounds; set the seed, add
      samples, reset. *)
  Definition song_call (blk : Z) (e : engine L) (c : call L) : Prop :=
    match c with
    | CUpdate _ o code =>
      match get code with
      | Done new => prog_ok L new /\ plain_edit (old_ast L e) new /\ all_placed new /\
          forall k cs c, new !! k = Some cs -> c ∈ cs -> timed (the_env L e) c
      | Fail _ => True
      | Crash => False
      end
    | CNext _ shs ins => fits P get blk e ins
    | CMsg _ cf m => exists nm i pos v, command cf m nm i (SetToNumber pos v) /\
        ((old_ast L e !! nm = None /\ nm <> "~input"%string) \/
         exists cs c, old_ast L e !! nm = Some cs /\ cs !! i = Some c /\ told c pos v)
    | CBpm _ b => rng 1 1000 b
    | CSr _ sr => (8000 <= sr <= 192000)%Z
    | _ => True
    end.
  Inductive playing (blk : Z) : engine L -> Prop :=
  | pl_new : playing blk (engine_new L)
  | pl_call e c e' ob : playing blk e -> song_call blk e c -> step L blk e c = Ok (e', ob) -> playing blk e'.

  (** ** What holds throughout *)
  Definition kept_ranges (e : engine L) : Prop :=
    forall p k i c v st b, en_ast L e = Some p -> placed L (en_info L e) p k i c v -> node_weight (en_graph L e) v = Some (st, b) -> ranged P c st b.
  Record in_tune (blk : Z) (e : engine L) : Prop := {
    tu_tame : tamely L blk e;
    tu_env : sane (en_bpm L e) (en_sr L e);
    tu_place : forall p, en_ast L e = Some p -> all_placed p;
    tu_range : kept_ranges e
  }.

  Lemma song_tame blk e c : song_call blk e c -> tame_call L e c.
  Proof.
    intros Hs. destruct c as [o code|shs ins|c m|nm s|b|sr|sd|]; try exact I. unfold tame_call, song_call in *. cbn [parse glang]. destruct (get code) as [new|er|]; try exact I.
    destruct Hs as (H1 & H2 & _). split; [exact H1|]. by apply (plain_tame L (glang_ok P get)).
  Qed.

  Lemma sane_new : sane (f_of_Z 120) 44100.
  Proof. split; [|lia]. split; [apply fin_Z; lia|]. rewrite val_Z by lia. lra. Qed.

  (** The node of a pacer. *)
  Lemma conn_okmsg c ms : Forall conn_msg ms -> Forall (okmsg c) ms.
  Proof. intros H. eapply List.Forall_impl; [|exact H]. intros [] Hm; first [exact I|destruct Hm]. Qed.

  Lemma owner_one (e : engine L) k x y j : owner (en_info L e) x k j -> owner (en_info L e) y k j -> x = y.
  Proof. intros (a & Ha & Hx) (a' & Ha' & Hy). rewrite Ha in Ha'. injection Ha' as <-. congruence. Qed.

  (** The program is settled. *)
  Lemma in_tune_settled blk e p : in_tune blk e -> en_ast L e = Some p -> settled P get e p.
  Proof.
    intros [Ht Hev Hpl Hrg] Hp k i c v Hp1 _. pose proof Hp1 as (cs & Hk & Hi & Hv). pose proof (Hpl p Hp k cs i c Hk Hi) as Hin.
    split.
    - destruct Hin as [Hs|[(evs & j & d & -> & -> & Hj & Hpa & Hnd & Hdt & Hno)|Hs]]; [by left|right; left|by right; right].
      destruct (pred_spec P get blk e p k j (CSeq evs) v Ht Hp Hp1) as (m & Hm & _). exists evs, j, m. split_and!; try done.
      intros s b st b' Hw Hwm. pose proof (Hrg p k (S j) _ v _ _ Hp Hp1 Hw) as (s' & Hs & Hsn & _). injection Hs as <-.
      assert (Hpm : placed L (en_info L e) p k j d m) by (exists cs; by split_and!).
      pose proof (Hrg p k j d m st b' Hp Hpm Hwm) as Hd.
      assert (Hask : forall x, sane_speed x -> as_usize (p_cfg P) (bar_length (sq_bpm s) (sq_sr s) x) <> 0%Z) by (intros x Hx; apply bar_length_ge1; [lia|done|done]).
      destruct d; try contradiction.
      + destruct Hd as (t & -> & _ & _ & Hb). split; [apply Hask, sane_f1|]. intros x Hx. by apply Hask, Hb.
      + destruct Hd as (t & -> & Hsv & Hb). split; [by apply Hask|]. intros x Hx. by apply Hask, Hb.
      + destruct Hd as (t & -> & Hb). split; [exact I|]. intros x Hx. by apply Hask, Hb.
    - intros st b Hw. eapply (ranged_ready P Hblk Humax c st b i); [by eapply Hrg| |].
      + intros Hc. eapply calm_ready; eauto.
      + destruct Hin as [Hs|[(evs & j & d & -> & _)|(evs & Hc & Hne & Hdt & _)]]; [by left|right; left; by eexists|right; right].
        exists evs. split; [exact Hc|]. intros o Ho. exact (room_many P get Hblk0 blk e p k i c v st b Ht Hp Hp1 Hw o Hne ltac:(by subst c) Hdt Ho).
  Qed.

  (** A block keeps the ranges. *)
  Lemma block_ranges blk e shs ins e' out : in_tune blk e -> fits P get blk e ins -> next_block L blk shs e ins = Ok (e', out) -> kept_ranges e'.
  Proof.
    intros [Ht Hev Hpl Hrg] Hf E. destruct (tamely_inv L (glang_ok P get) _ _ Ht) as (He & Hal & _).
    destruct (written P get blk e ins Ht Hf) as (e1 & E1 & Hst & Hlv). pose proof (write_input_frame L _ _ _ E1) as (Fa & Fi & Fd & _ & Fe).
    revert E. unfold next_block. rewrite E1. destruct (process _ _ _ _) as [g|] eqn:Ep; [|done]. destruct (node_weight g _) as [w|]; [|done]. intros [= <- <-].
    intros p k i c v st b Hp Hp1 Hw. cbn [en_ast en_info en_graph] in *. rewrite Fa in Hp. rewrite Fi in Hp1.
    set (R := fun (n : nat) (st : gnode P) (b : list sig) => forall k i c, placed L (en_info L e) p k i c n -> ranged P c st b /\
      forall s, st = Simple (NSeq s) -> exists s0 b0, node_weight (en_graph L e) n = Some (Simple (NSeq s0), b0) /\ seq_fixed s = seq_fixed s0).
    assert (Hids : forall n, input_ids (en_graph L e1) n = input_ids (en_graph L e) n) by (intros n; by apply input_ids_edges).
    assert (Hall : gall R g); [|by apply (Hall v (st, b) Hw k i c Hp1)].
    refine (process_keeps R (gproc P) shs (en_graph L e1) (en_dest L e1) g _ _ Ep).
    - intros n [st0 b0] Hn k0 i0 c0 Hp0. destruct (Hst n st0 b0 Hn) as [_ (b1 & Hn1 & Hb)]. cbn [fst snd]. split.
      + pose proof (Hrg p k0 i0 c0 n st0 b1 Hp Hp0 Hn1) as Hr. destruct Hb as [->| ->]; [exact Hr|].
        revert Hr. destruct c0; try done; cbn [ranged]; intros (? & [=] & _).
      + intros s ->. exists s, b1. split; [exact Hn1|reflexivity].
    - intros n st0 is b0 st' b' HR Hins Hpi Hpr k0 i0 c0 Hp0. destruct (HR k0 i0 c0 Hp0) as [Hr Hfx]. split.
      + eapply ranged_proc; try eassumption. clear Hr. intros evs s -> ->. destruct (Hfx s eq_refl) as (s0 & bs0 & Hn0 & Hfs).
        unfold seq_fixed in Hfs. injection Hfs as T1 T2 T3 T4 T5. pose proof Hp0 as (cs & Hk & Hi & _).
        destruct (Hpl p Hp k0 cs i0 _ Hk Hi) as [Hs|[(evs' & j & d & _ & -> & Hj & Hpa & Hnd & Hdt & Hno)|(evs' & [=] & _)]].
        * destruct Hs as [-> Hnil]. destruct (apt_nil P get Hrel Hblk0 blk e p k0 0 _ n _ _ Ht Hp Hp0 Hn0 Hnil) as (Hz & _).
          exists 0. rewrite Hids, Hz in Hpi by done. apply Permutation_nil_r, fmap_nil_inv in Hpi as ->. split; [done|]. intros bs Hb. by apply elem_of_nil in Hb.
        * destruct (seq_finds P get Hrel Hblk0 blk e p k0 j evs n _ bs0 Ht Hp Hp0 Hn0 Hnd Hdt Hno) as (s1 & m & Hs1 & Hm & Ho & _). injection Hs1 as <-.
          exists m. split; [by rewrite T3|]. intros bs Hb. unfold R_ins in Hins. rewrite Forall_forall in Hins. destruct (Hins _ Hb) as (stm & HRm). cbn [fst snd] in HRm.
          assert (Hpm : placed L (en_info L e) p k0 j d m) by (exists cs; by split_and!).
          destruct (HRm k0 j d Hpm) as [Hd _]. destruct d; try contradiction; destruct Hd as (t & _ & Hd); apply Hd.
      + intros s' ->. destruct st0 as [nd|]; cbn [gproc] in Hpr; apply wrap_inv in Hpr as (nd' & Hpr & Heq); [|discriminate Heq]. injection Heq as <-.
        pose proof (tag_proc _ _ _ _ _ _ Hpr) as Htg. destruct nd; try discriminate Htg. cbn [sproc] in Hpr. apply wrap_inv in Hpr as (s2 & Hpr & Heq). injection Heq as <-.
        rewrite (seq_fixed_keep P _ _ _ _ _ Hpr). by apply Hfx.
  Qed.

  (** An accepted program has its nodes in range. *)
  Lemma update_ranges blk o e new e' : in_tune blk e -> prog_ok L new -> tame L (old_ast L e) new ->
    (forall k cs c, new !! k = Some cs -> c ∈ cs -> timed (the_env L e) c) -> update_ast L o e new = Ok (e', None) -> kept_ranges e'.
  Proof.
    intros [Ht Hev Hpl Hrg] Hpo Htame Htm Hu. destruct (tamely_inv L (glang_ok P get) _ _ Ht) as (He & Hal & _).
    pose proof (tame_update_result L (glang_ok P get) _ _ _ _ He Hal Hpo Htame Hu) as R.
    intros p k i c v st b Hp Hp1 Hw. rewrite (re_ast _ _ _ _ _ R) in Hp. injection Hp as <-.
    destruct (decide (occurs_old L (olds_of L (old_ast L e) k) c)) as [Hocc|Hnew].
    - pose proof Hp1 as (news & Hk & Hc & Hown). unfold olds_of in Hocc.
      destruct (old_ast L e !! k) as [olds|] eqn:Ho.
      2: { apply occurs_old_spec in Hocc as (a & Ha & _). by apply elem_of_nil in Ha. }
      destruct (Htame k olds news Ho Hk) as [Hko _]. unfold keeps_order in Hko.
      pose proof (filter_lookup_rank (occurs_old L olds) news i c Hc Hocc) as Hf.
      destruct (Forall2_lookup_r _ _ _ _ _ Hko Hf) as (a & Ha & Heq).
      apply filter_lookup_inv in Ha as (i0 & Hi0 & Hon & Hrank).
      destruct (al_len _ _ Hal k olds Ho) as (ids & Hids & Hlen).
      destruct (lookup_lt_is_Some_2 ids i0) as [n Hn]; [rewrite Hlen; by eapply lookup_lt_Some|].
      destruct (re_kept _ _ _ _ _ R k olds news i0 i a c n Ho Hk Hi0 Hc Hon Hocc Hrank) as [Hown' Hst]; [by exists ids|].
      assert (n = v) as -> by exact (owner_one e' k n v i Hown' Hown).
      assert (Hl : live (en_graph L e) v) by (apply (ei_live _ _ He); right; right; exists k, i0; by exists ids).
      destruct Hl as [[st0 b0] Hw0]. destruct (Hst _ Hw0) as (st1 & Hfold & Hw'). rewrite Hw in Hw'. injection Hw' as -> ->.
      assert (Hast : en_ast L e = Some (old_ast L e)) by (unfold old_ast in Ho |- *; by destruct (en_ast L e)).
      assert (Hr : ranged P a st0 b0).
      { apply (Hrg (old_ast L e) k i0 a v st0 b0 Hast); [|exact Hw0]. exists olds. split_and!; auto. by exists ids. }
      eapply ranged_msgs; [exact Hblk|exact Humax|exact (ranged_eq P a c st0 b0 Heq Hr)|apply conn_okmsg, trace_conn|exact Hfold].
    - destruct (re_new _ _ _ _ _ R k i c v Hp1 Hnew) as (_ & w0 & refs & st1 & Hmk & Hfold & Hw').
      rewrite Hw in Hw'. injection Hw' as -> ->. pose proof Hp1 as (news & Hk & Hc & _).
      eapply ranged_msgs; [exact Hblk|exact Humax| |apply conn_okmsg, trace_conn|exact Hfold].
      eapply made_ranged; [exact Hblk|exact Humax|exact Hnoise| | |exact Hmk]; [exact Hev|]. eapply Htm; [exact Hk|]. by eapply elem_of_list_lookup_2.
  Qed.

  (** Numbers are taken by the nodes. *)
  Lemma number_ok blk e p k i c v st b pos x : in_tune blk e -> en_ast L e = Some p -> placed L (en_info L e) p k i c v ->
    node_weight (en_graph L e) v = Some (st, b) -> told c pos x -> is_ok (gmsg P st (SetToNumber pos x)).
  Proof.
    intros [Ht Hev Hpl Hrg] Hp Hp1 Hw Htold. pose proof Hp1 as (cs & Hk & Hi & _).
    pose proof (Hrg p k i c v st b Hp Hp1 Hw) as Hr.
    assert (Hcalm : calm c i -> is_ok (gmsg P st (SetToNumber pos x))).
    { intros Hc. eapply number_taken; eauto. destruct c; try exact I. exact Htold. }
    destruct (Hpl p Hp k cs i c Hk Hi) as [Hs|[(evs & j & d & -> & _)|(evs & -> & _)]]; [| |destruct Htold].
    2: { destruct Hr as (s & -> & _). cbn [gmsg smsg]. unfold wrapm. by destruct pos. }
    clear Hw Hp1 Htold. destruct c; try (apply Hcalm; exact Hs); cbn [ranged] in Hr.
    all: try (destruct sg; try (apply Hcalm; exact Hs)).
    all: destruct Hr as (s & -> & _); clear Hcalm; cbn [gmsg smsg]; unfold wrapm; destruct pos as [|[[y|y|]|[y|y|]|]|y]; exact I.
  Qed.

  Lemma select_done dict names : select dict names <> Crash.
  Proof. induction names as [|n names IH]; [done|]. cbn [select]. destruct (dict !! n); [|done]. by destruct (select dict names). Qed.
  (** Making the nodes of an update does not panic. *)
  Lemma timed_made ev k cs i c : in_place k cs i c -> timed ev c -> makenode_ P ev c <> Crash.
  Proof.
    intros Hin Ht. assert (Hcalm : calm c i -> makeable c -> makenode_ P ev c <> Crash).
    { intros H1 H2. destruct (calm_made P Hblk0 ev c i H1 H2) as [w ->]. done. }
    destruct Hin as [Hs|[(evs & j & d & -> & _)|(evs & -> & _)]]; [|done|done].
    destruct c; try (apply Hcalm; [exact Hs|first [exact Ht|exact I]]); cbn [makenode_ timed] in *; unfold boxed_res, boxed; try done.
    all: rs.
    - destruct Ht as [Ht _]. unfold make_points. destruct pts as [|q pts]; [done|]. cbn [map]. done.
    - destruct (e_samples ev !! sym) as [d|] eqn:Ed; [|done]. destruct (Ht d eq_refl) as [_ Hd]. unfold sampler_new, usub. rs.
      rewrite Hrel. destruct (Z.eqb_spec (sd_chan d) 0); [destruct Hd; lia|]. destruct (1 <=? sd_len d)%Z; done.
    - destruct (ps_parse sym); [done|contradiction].
    - destruct sg; try contradiction; done.
    - destruct p as [x|evs span]; [contradiction|]. destruct (select _ _) as [dict|er|] eqn:Es; [done|done|]. by destruct (select_done _ _ Es).
  Qed.

  Theorem in_tune_step blk e c : in_tune blk e -> song_call blk e c -> exists e' ob, step L blk e c = Ok (e', ob) /\ in_tune blk e'.
  Proof.
    intros Hin Hs. pose proof (song_tame _ _ _ Hs) as Htc. pose proof Hin as [Ht Hev Hpl Hrg].
    destruct (tamely_inv L (glang_ok P get) _ _ Ht) as (He & Hal & _).
    cut (exists e' ob, step L blk e c = Ok (e', ob) /\ sane (en_bpm L e') (en_sr L e') /\ (forall p, en_ast L e' = Some p -> all_placed p) /\ kept_ranges e').
    { intros (e' & ob & E & H1 & H2 & H3). exists e', ob. split; [exact E|]. split; try assumption. by eapply tm_step. }
    destruct c as [o code|shs ins|cf m|nm s|b|sr|sd|].
    - destruct (C05_no_panic_partial L (glang_ok P get) blk e o code Ht) as (e' & er & E).
      + cbn [parse glang song_call] in *. intros new E. rewrite E in Hs. destruct Hs as (H1 & H2 & H3 & H4). split_and!; try assumption.
        intros k cs c0 Hk Hc0. pose proof Hc0 as [i Hi]%elem_of_list_lookup. exact (timed_made _ k cs i c0 (H3 k cs i c0 Hk Hi) (H4 k cs c0 Hk Hc0)).
      + cbn [parse glang song_call] in *. intros E. by rewrite E in Hs.
      + exists e'. exists (match er with None => ODone L | Some x => OError L x end). split; [cbn [step]; rewrite E; by destruct er|].
        unfold update in E. unfold tame_call in Htc. cbn [parse glang song_call] in *. destruct (get code) as [new|er'|]; [| |done].
        * destruct Htc as [Htc1 Htc2]. destruct Hs as (H1 & H2 & H3 & H4). destruct er as [er|].
          -- apply update_ast_fail in E; [|done]. destruct E as [E1 E2 E3 E4 E5 E6 E7 E8 E9 E10 _ _]. rewrite E9, E10. split_and!; [exact Hev|by rewrite E5|].
             intros p k i c v st b. rewrite E5, E6, E1. apply Hrg.
          -- pose proof (tame_update_result L (glang_ok P get) _ _ _ _ He Hal Htc1 Htc2 E) as R. pose proof (re_env _ _ _ _ _ R) as Henv.
             pose proof (f_equal e_bpm Henv) as Eb. pose proof (f_equal e_sr Henv) as Er. cbn in Eb, Er. rewrite Eb, Er. split_and!; [exact Hev| |].
             ++ rewrite (re_ast _ _ _ _ _ R). intros p [= <-]. exact H3.
             ++ exact (update_ranges blk o e new e' Hin H1 Htc2 H4 E).
        * injection E as <- <-. by split_and!.
    - cbn [step song_call] in *. assert (Hok : exists e' out, next_block L blk shs e ins = Ok (e', out)).
      { destruct (en_ast L e) as [p|] eqn:Ep; [|by eapply idle_plays].
        destruct (C62_next_block_plays_partial P get Hrel Hblk0 Humax blk e p shs ins Ht Ep) as (e' & out & E & _); [by eapply in_tune_settled|exact Hs|]. by exists e', out. }
      destruct Hok as (e' & out & E). exists e', (OBlock L out). split; [by rewrite E|]. pose proof (block_ranges blk e shs ins e' out Hin Hs E) as Hk.
      assert (Hf : en_bpm L e' = en_bpm L e /\ en_sr L e' = en_sr L e /\ en_ast L e' = en_ast L e).
      { destruct (written P get blk e ins Ht Hs) as (e1 & E1 & _). assert (H1 : en_bpm L e1 = en_bpm L e /\ en_sr L e1 = en_sr L e /\ en_ast L e1 = en_ast L e).
        { assert (Hch : forall ch s e0 e1, write_channel L e0 ch s = Ok e1 -> en_bpm L e1 = en_bpm L e0 /\ en_sr L e1 = en_sr L e0 /\ en_ast L e1 = en_ast L e0).
          { intros ch s e2 e3. unfold write_channel. destruct (en_info L e2 !! input_name) as [ids|]; [|done]. destruct (ids !! 0); [|done]. destruct (node_weight _ _) as [w|]; [|done].
            destruct (w.2 !! ch); [|done]. repeat (match goal with |- context [match ?x with _ => _ end] => destruct x; try done end); by intros [= <-]. }
          revert E1. unfold write_input. destruct ins as [|s0 rest]; [by intros [= <-]|]. destruct (write_channel L e 0 s0) as [e2|] eqn:E0; [|done]. apply Hch in E0 as (F1 & F2 & F3).
          destruct rest as [|s1 rest]; [by intros [= <-]|]. intros E1. apply Hch in E1 as (F4 & F5 & F6). rewrite F4, F5, F6. by split_and!. }
        revert E. unfold next_block. rewrite E1. destruct (process _ _ _ _); [|done]. destruct (node_weight _ _); [|done]. intros [= <- <-]. exact H1. }
      destruct Hf as (-> & -> & ->). by split_and!.
    - cbn [song_call] in Hs. destruct Hs as (nm & i & pos & x & Hcmd & Hs). destruct Hs as [[Hno Hni]|(cs & c' & Hcs & Hi & Hmv)].
      + exists e, (ODone L). cbn [step]. rewrite (C12_unknown_chain L cf e m nm i _ Hcmd); [by split_and!|]. destruct (en_info L e !! nm) as [ids|] eqn:E; [|done].
        by destruct (Hni (al_only _ _ Hal nm ids E Hno)).
      + destruct (al_len _ _ Hal nm cs Hcs) as (ids & Hids & Hlen).
        destruct (lookup_lt_is_Some_2 ids i) as [n Hn]; [rewrite Hlen; by eapply lookup_lt_Some|].
        assert (Hl : live (en_graph L e) n) by (apply (ei_live _ _ He); right; right; exists nm, i; by exists ids).
        destruct Hl as [[st b] Hw]. assert (Hast : en_ast L e = Some (old_ast L e)) by (unfold old_ast in Hcs |- *; by destruct (en_ast L e)).
        assert (Hp1 : placed L (en_info L e) (old_ast L e) nm i c' n) by (exists cs; split_and!; [done|done|by exists ids]).
        pose proof (number_ok blk e _ nm i c' n st b pos x Hin Hast Hp1 Hw Hmv) as Hok.
        destruct (gmsg P st (SetToNumber pos x)) as [st'|] eqn:Em; [|contradiction].
        destruct (C12_one_command_partial L cf e m nm i _ ids n (st, b) st' Hcmd Hids Hn Hw Em) as (g & E & Hgn & Hgo & _).
        exists (set_graph L e g), (ODone L). cbn [step]. rewrite E. split; [done|]. split; [exact Hev|]. split; [exact Hpl|].
        intros p k j c v st0 b0 Hp Hp2 Hw2. cbn [set_graph en_ast en_info en_graph] in *. destruct (decide (v = n)) as [->|Hne].
        * rewrite Hgn in Hw2. injection Hw2 as <- <-. rewrite Hast in Hp. injection Hp as <-.
          pose proof Hp2 as (cs2 & Hk2 & Hj2 & Hv2). destruct (ei_inj _ _ He n nm i k j) as [<- <-]; [by exists ids|exact Hv2|].
          assert (cs2 = cs) as -> by congruence. assert (Hcc : Some c = Some c') by (etransitivity; [symmetry; exact Hj2|exact Hi]). injection Hcc as ->.
          eapply ranged_msg; [exact Hblk|exact Humax|exact (Hrg _ _ _ _ _ _ _ Hast Hp1 Hw)| |exact Em]. exact Hmv.
        * rewrite Hgo in Hw2 by done. by eapply Hrg.
    - do 2 eexists. split; [reflexivity|]. by split_and!.
    - cbn [step song_call] in *. destruct (bpm_ok P get e b) as [e' E]. exists e', (ODone L). split; [by rewrite E|].
      assert (Hsr : en_sr L e' = en_sr L e) by (revert E; unfold set_bpm; destruct (send_to_all _ _ _); [|done]; by intros [= <-]).
      destruct (C14_reaches_every_node_partial L e e' b E) as (-> & Hi & Ha & _ & Hall). rewrite Hsr. split; [split; [exact Hs|apply Hev]|]. rewrite Ha. split; [exact Hpl|].
      intros p k i c v st b0 Hp Hp1 Hw. rewrite Ha in Hp. rewrite Hi in Hp1.
      assert (Hl : live (en_graph L e) v) by (destruct Hp1 as (cs & _ & _ & Hv); apply (ei_live _ _ He); right; right; by exists k, i).
      destruct Hl as [[st0 b1] Hw0]. destruct (Hall v (st0, b1) Hw0) as (st1 & Hm & Hw1). rewrite Hw in Hw1. injection Hw1 as -> ->.
      eapply ranged_msg; [exact Hblk|exact Humax|exact (Hrg _ _ _ _ _ _ _ Hp Hp1 Hw0)| |exact Hm]. exact Hs.
    - do 2 eexists. split; [reflexivity|]. split; [split; [apply Hev|exact Hs]|]. by split.
    - do 2 eexists. split; [reflexivity|]. by split_and!.
    - do 2 eexists. split; [reflexivity|]. split; [split; [exact (proj1 sane_new)|apply Hev]|]. split; [discriminate|]. intros p k i c v st b [=].
  Qed.

  Lemma playing_tune blk e : playing blk e -> in_tune blk e.
  Proof.
    induction 1 as [|e c e' ob _ IH Hs Hstep].
    - split; [apply tm_new|exact sane_new|discriminate|]. intros p k i c v st b [=].
    - destruct (in_tune_step blk e c IH Hs) as (e2 & ob2 & E & H). rewrite Hstep in E. by injection E as -> ->.
  Qed.

  (** C74: nothing the musician may do makes the engine panic, at any moment of a performance
      with clocks, sequences, envelopes and samples. *)
  Theorem C74_performance_never_panics blk e c : playing blk e -> song_call blk e c ->
    exists e' ob, step L blk e c = Ok (e', ob) /\ playing blk e'.
  Proof.
    intros Hp Hs. destruct (in_tune_step blk e c (playing_tune blk e Hp) Hs) as (e' & ob & E & _). exists e', ob. split; [exact E|]. by eapply pl_call.
  Qed.
End song.

Section songtext.
  Context (P : platform) (cf : cfg) (math : string -> res f32).
  Context (Hrel : debug (p_cfg P) = false) (Hblk : 1 < p_blk P) (Humax : (16777216 <= umax (p_cfg P))%Z).
  Context (Hnoise : forall seed k, unit_noise (p_noise P seed k)).
  Notation get := (get_ast cf math).
  Notation L := (glang P get).
  Let Hblk0 : 0 < p_blk P.
  Proof. lia. Qed.

  Definition sampled (ev : env sampledata) (c : component) : Prop :=
    match c with
    | CSp sym => is_Some (e_samples ev !! sym)
    | CPSampler (PsPattern evs _) => forall x, x ∈ evs -> is_Some (e_samples ev !! ev_name x.1)
    | _ => True
    end.
  Lemma select_found dict names : (forall n, n ∈ names -> is_Some (dict !! n)) -> exists m, select dict names = Done m.
  Proof.
    induction names as [|n names IH]; intros H; [by eexists|]. cbn [select]. destruct (H n ltac:(by left)) as [d ->].
    destruct IH as [m ->]; [intros n' Hn; apply H; by right|]. by eexists.
  Qed.
  Lemma timed_found ev k cs i c : in_place k cs i c -> timed ev c -> sampled ev c -> exists w, makenode_ P ev c = Done w.
  Proof.
    intros Hin Ht Hk. pose proof (timed_made P Hrel Hblk ev k cs i c Hin Ht) as Hc.
    destruct (makenode_ P ev c) as [w|er|] eqn:E; [by eexists| |done]. exfalso.
    assert (Hcalm : calm c i -> makeable c -> False).
    { intros H1 H2. destruct (calm_made P Hblk0 ev c i H1 H2) as [w Hw]. by rewrite Hw in E. }
    clear Hc. destruct Hin as [Hs|[(evs & j & d & -> & _)|(evs & -> & _)]]; [|discriminate E|discriminate E].
    destruct c; try (apply Hcalm; [exact Hs|first [exact Ht|exact I]]); cbn [makenode_ timed sampled] in *; unfold boxed_res, boxed in E; try discriminate E.
    all: try (destruct sg; try contradiction; discriminate E).
    all: try (match type of E with match ?x with _ => _ end = _ => destruct x; discriminate E end).
    2: { destruct p as [x|evs span]; [contradiction|]. destruct (select_found (e_samples ev) (map (fun e => ev_name e.1) evs)) as [m Hm]; [|by rewrite Hm in E].
         intros n (x & -> & Hx)%elem_of_list_fmap. by apply Hk. }
    destruct Hk as [d Hd]. rewrite Hd in E. match type of E with match ?x with _ => _ end = _ => destruct x; discriminate E end.
  Qed.

  (** C74: at any moment of a performance, a text in the notation of [Syntax] that keeps the
      order of what stays, whose components are in place and in time, whose samples have been
      added and whose references all name a line of the text, or "~input" before any reset, is
      accepted, and then plays every further block, whatever the iteration orders and the input. *)
  Theorem C74_text_plays blk e txt ls (o : orders) :
    playing P get blk e -> program_text cf math txt ls ->
    (forall new, (forall n, new !! n = last_named n ls) -> plain_edit (old_ast L e) new) ->
    (forall n ks, last_named n ls = Some ks -> n <> "~input"%string /\
       forall i c, ks !! i = Some c -> in_place n ks i c /\ timed (the_env L e) c /\ sampled (the_env L e) c /\
         forall r, r ∈ component_refs c -> exists n', refers r n' /\ (is_Some (last_named n' ls) \/ (n' = "~input"%string /\ unreset P get blk e))) ->
    exists e', update L o e txt = Ok (e', None) /\ (forall n, old_ast L e' !! n = last_named n ls) /\ playing P get blk e' /\
      forall l, Forall (fun x => fits P get blk e' x.2) l -> is_ok (plays_on P get blk e' l).
  Proof.
    intros Hpl Ht Hpe H. destruct (C53_layout_partial cf math txt ls Ht) as (new & Eg & Hnew). pose proof (line_nonempty _ _ _ _ Ht) as Hne.
    specialize (Hpe new Hnew).
    assert (Hprog : prog_ok L new).
    { split.
      - change input_name with "~input"%string. rewrite Hnew. destruct (last_named "~input"%string ls) as [ks|] eqn:E; [|done]. by destruct (H _ _ E).
      - intros k Hk. rewrite Hnew in Hk. apply last_named_in in Hk. rewrite Forall_forall in Hne. by apply (Hne _ Hk). }
    assert (Hplaced : all_placed new).
    { intros k cs i c Hk Hi. rewrite Hnew in Hk. by apply (H _ _ Hk). }
    assert (Hmk : forall k cs c, new !! k = Some cs -> c ∈ cs -> exists w, makenode_ P (the_env L e) c = Done w).
    { intros k cs c Hk Hc. rewrite Hnew in Hk. apply elem_of_list_lookup in Hc as [i Hi]. destruct (proj2 (H _ _ Hk) i c Hi) as (H1 & H2 & H3 & _). by eapply timed_found. }
    assert (Hsafe : song_call P get blk e (CUpdate L o txt)).
    { cbn [song_call]. rewrite Eg. split_and!; [exact Hprog|exact Hpe|exact Hplaced|].
      intros k cs c Hk Hc. rewrite Hnew in Hk. apply elem_of_list_lookup in Hc as [i Hi]. by apply (proj2 (H _ _ Hk) i c Hi). }
    pose proof (playing_tune P get Hrel Hblk Humax Hnoise blk e Hpl) as [Htm _ _ _]. destruct (tamely_inv L (glang_ok P get) _ _ Htm) as (He & Hal & _).
    destruct (C74_performance_never_panics P get Hrel Hblk Humax Hnoise blk _ _ Hpl Hsafe) as (e' & ob & E & Hpf).
    cbn [step] in E. destruct (update L o e txt) as [[e1 er]|] eqn:Eu; [|done].
    assert (e1 = e') as -> by (by destruct er; injection E).
    assert (Eu' : update_ast L o e new = Ok (e', er)).
    { unfold update in Eu. cbn [parse glang] in Eu. rewrite Eg in Eu. exact Eu. }
    assert (er = None) as ->.
    { pose proof (ref_check_exact L (glang_ok P get) o e new e' er) as Hr. destruct er as [er|]; [|done]. exfalso.
      assert (Hkeys : keys_ok L e).
      { intros k [ids Hk]. destruct (old_ast L e !! k) eqn:Eo; [left; eauto|right; by eapply (al_only _ _ Hal)]. }
      assert (Hr' := Hr He Hkeys (proj2 Hprog) Eu').
      destruct er as [|r|sn]; [done| |].
      - destruct Hr' as ((k & cs & c & Hk & Hc & Hrc) & Hno). rewrite Hnew in Hk. apply elem_of_list_lookup in Hc as [i Hi].
        destruct (proj2 (H _ _ Hk) i c Hi) as (_ & _ & _ & H3). destruct (H3 r Hrc) as (n' & Hn & Ha). apply (Hno n' Hn). destruct Ha as [Ha|[-> Hun]].
        + left. by rewrite Hnew.
        + right. destruct (unreset_holds P get blk e Hun) as (n & b0 & b1 & Hi1 & _). split_and!; [done|by eexists|]. exact (proj1 (al_ok _ _ Hal)).
      - destruct Hr' as (k & cs & c & Hk & Hc & Hf). destruct (Hmk k cs c Hk Hc) as [w Hw]. cbn [makenode glang] in Hf. by rewrite Hw in Hf. }
    pose proof (playing_tune P get Hrel Hblk Humax Hnoise blk e' Hpf) as Htu. pose proof Htu as [Htm' _ _ _].
    assert (Hast : en_ast L e' = Some new).
    { exact (re_ast _ _ _ _ _ (tame_update_result L (glang_ok P get) _ _ _ _ He Hal Hprog (plain_tame L (glang_ok P get) _ _ Hpe) Eu')). }
    exists e'. split_and!; [done|unfold old_ast; rewrite Hast; exact Hnew|exact Hpf|]. intros l Hl.
    apply (C62_plays_for_ever_partial P get Hrel Hblk0 Humax blk e' new l Htm' Hast); [|exact Hl].
    eapply in_tune_settled; eauto.
  Qed.
End songtext.

(** ** An example: a sample is added, a text with a speed, a sequence and a sampler is accepted,
    and blocks, a message, a change of tempo and the text once more may follow. *)
Local Open Scope string_scope.
Definition song_text : string := "o: speed 0.5 >> seq 60 _60 >> sp \bd0".
Definition song_chain : list component :=
  [CSpeed (f_of_dec false 5 (-1)); CSeq (seq_events [[Note 60]; [Rest; Note 60]]); CSp "\bd0"].
Definition song_lines : list (string * list component) := [("o", song_chain)].
Lemma group_r60 : group_word Props_Syntax.c64 "_60" [Rest; Note 60].
Proof. apply (gw_more Props_Syntax.c64 "_" Rest "60" [Note 60]); [constructor|apply group_60|done]. Qed.
Lemma song_text_ok : program_text Props_Syntax.c64 Props_Syntax.no_math song_text song_lines.
Proof.
  exists "", song_text. split; [done|]. split; [done|].
  apply (prog_line _ _ song_text ("o", song_chain) "" "" []).
  - exists "", " ", "speed 0.5". eexists. exists ((" " ++ "" ++ "" ++ ">>" ++ " ") ++ "seq 60 _60" ++ (" " ++ "" ++ "" ++ ">>" ++ " ") ++ "sp \bd0" ++ ""). eexists.
    split; [by apply (name_plain _ "o" "")|]. split; [done|]. split; [done|]. split; [|split; [|split; reflexivity]].
    + exists "speed", ["0.5"], (" " ++ "0.5"). split; [|split; [|done]].
      * apply (sp_one_num _ _ "speed" CSpeed); [seth|apply num05].
      * rewrite <- (sapp_nil_r "0.5") at 2. constructor; [done|constructor].
    + constructor; [apply joint_here; try done; seth| |constructor; [apply joint_here; try done; seth| |constructor]].
      * exists "seq", ["60"; "_60"], (" " ++ "60" ++ " " ++ "_60"). split; [|split; [|done]].
        -- apply (sp_seq _ _ [("60", [Note 60]); ("_60", [Rest; Note 60])]); [done|]. constructor; [apply group_60|]. constructor; [apply group_r60|constructor].
        -- constructor; [done|]. rewrite <- (sapp_nil_r "_60") at 2. constructor; [done|constructor].
      * exists "sp", ["\bd0"], (" " ++ "\bd0"). split; [|split; [|done]].
        -- apply sp_sp; [seth|]. exists "bd0". split; [done|]. split; [done|]. by right.
        -- rewrite <- (sapp_nil_r "\bd0") at 2. constructor; [done|constructor].
  - exists "", "", "", "". split_and!; try done; [seth|constructor].
  - constructor.
  - by left.
Qed.

Notation LS := (glang demo (get_ast Props_Syntax.c64 Props_Syntax.no_math)).
Definition song_hit : sampledata := Sample [f1; fhalf; f0] 1 44100.
Definition song_start : engine LS := add_sample LS (engine_new LS) "\bd0" song_hit.
Lemma song_started : playing demo (get_ast Props_Syntax.c64 Props_Syntax.no_math) 8 song_start.
Proof. exact (pl_call demo _ 8 _ (CSample LS "\bd0" song_hit) song_start (ODone LS) (pl_new demo _ 8) I eq_refl). Qed.
Lemma half_sane : sane_speed (f_of_dec false 5 (-1)).
Proof.
  assert (E : f_of_dec false 5 (-1) = fhalf) by (vm_compute; reflexivity). rewrite E. split; [by vm_compute|].
  rewrite Props_Range.val_half. lra.
Qed.
Lemma song_hit_fits : playable song_hit.
Proof. split; [vm_compute; discriminate|left]. split; [reflexivity|vm_compute; discriminate]. Qed.
Lemma song_lines_ok e n ks : e_samples (the_env LS e) = {["\bd0" := song_hit]} -> last_named n song_lines = Some ks -> n <> "~input" /\
  forall i c, ks !! i = Some c -> in_place n ks i c /\ timed (the_env LS e) c /\ sampled (the_env LS e) c /\
    forall r, r ∈ component_refs c -> exists n', refers r n' /\ (is_Some (last_named n' song_lines) \/ (n' = "~input" /\ unreset demo (get_ast Props_Syntax.c64 Props_Syntax.no_math) 8 e)).
Proof.
  intros Hsm H%last_named_in. assert (Hl : (e_samples (the_env LS e) : gmap string sampledata) !! "\bd0" = Some song_hit) by (rewrite Hsm; apply lookup_singleton).
  apply elem_of_list_singleton in H. injection H as -> ->. split; [done|].
  intros [|[|[|i]]] c [= <-]; (split; [|split; [|split; [|intros r Hr; by apply elem_of_nil in Hr]]]); try exact I.
  - left. exact I.
  - exact half_sane.
  - right. left. eexists _, 0, _. split_and!; try reflexivity; try exact I; try constructor. intros H. by apply elem_of_nil in H.
  - left. reflexivity.
  - cbn [timed]. intros d Hd. assert (Hs : Some d = Some song_hit) by (etransitivity; [symmetry; exact Hd|exact Hl]). injection Hs as ->. exact song_hit_fits.
  - exists song_hit. exact Hl.
Qed.
Lemma song_edit (old new : gmap string (list component)) : (forall n, old !! n = None \/ old !! n = last_named n song_lines) -> (forall n, new !! n = last_named n song_lines) -> @plain_edit LS old new.
Proof.
  intros Ho Hn k olds news H1 H2. change (list component) in olds, news. change (old !! k = Some olds) in H1. change (new !! k = Some news) in H2.
  destruct (Ho k) as [H|H]; rewrite H in H1; [discriminate H1|]. rewrite Hn in H2. rewrite H1 in H2. injection H2 as ->. rename H1 into H2.
  apply last_named_in, elem_of_list_singleton in H2. injection H2 as -> ->.
  assert (Hr : no_repeats LS song_chain).
  { intros [|[|[|i]]] [|[|[|j]]] x y [= <-] [= <-]; try done. }
  split; [exact Hr|]. split; [exact Hr|]. intros i i' j j' x x' y y' G1 G2 G3 G4 G5 G6 G7.
  by rewrite <- (Hr i j x y G1 G3 G5), <- (Hr i' j' x' y' G2 G4 G6).
Qed.
Lemma song_command : command Props_Syntax.c64 "o,0,0,0.5" "o" 0 (SetToNumber 0 (f_of_dec false 5 (-1))).
Proof.
  apply (co_number Props_Syntax.c64 "o" "0" 0 "0" 0 "0.5"); [done| | |apply num05].
  - exists "", "0". split_and!; try done. set_solver.
  - exists "", "0". split_and!; try done. set_solver.
Qed.
Example C74_case : exists e, update LS id_orders song_start song_text = Ok (e, None) /\
  playing demo (get_ast Props_Syntax.c64 Props_Syntax.no_math) 8 e /\
  song_call demo (get_ast Props_Syntax.c64 Props_Syntax.no_math) 8 e (CMsg LS Props_Syntax.c64 "o,0,0,0.5") /\
  song_call demo (get_ast Props_Syntax.c64 Props_Syntax.no_math) 8 e (CNext LS (fun _ => id_shuffle) []) /\
  song_call demo (get_ast Props_Syntax.c64 Props_Syntax.no_math) 8 e (CBpm LS (f_of_Z 180)) /\
  song_call demo (get_ast Props_Syntax.c64 Props_Syntax.no_math) 8 e (CUpdate LS id_orders song_text).
Proof.
  destruct (C74_text_plays demo Props_Syntax.c64 Props_Syntax.no_math eq_refl ltac:(cbn; lia) ltac:(cbn; lia) demo_unit_noise 8 song_start song_text song_lines id_orders song_started song_text_ok)
    as (e & E & Hold & Hpf & _).
  - intros new Hnew. apply song_edit; [|exact Hnew]. intros n. left. exact (lookup_empty n).
  - intros n ks H. by apply song_lines_ok.
  - exists e. split; [exact E|]. split; [exact Hpf|]. split; [|split; [|split]].
    + exists "o", 0, 0%Z, (f_of_dec false 5 (-1)). split.
      * exact song_command.
      * right. exists song_chain, (CSpeed (f_of_dec false 5 (-1))). split; [rewrite Hold; reflexivity|]. split; [reflexivity|]. intros _. exact half_sane.
    + by left.
    + split; [apply fin_Z; lia|]. rewrite val_Z by lia. lra.
    + cbn [song_call]. destruct (C53_layout_partial _ _ _ _ song_text_ok) as (new & Eg & Hnew). rewrite Eg.
      assert (Hsm : e_samples (the_env LS e) = {["\bd0" := song_hit]}).
      { unfold update in E. cbn [parse glang] in E. rewrite Eg in E.
        pose proof (playing_tune demo _ eq_refl ltac:(cbn; lia) ltac:(cbn; lia) demo_unit_noise 8 _ song_started) as [Ht _ _ _].
        destruct (tamely_inv LS (glang_ok demo _) _ _ Ht) as (He & Hal & _).
        assert (Hpo : prog_ok LS new).
        { split; [rewrite Hnew; reflexivity|]. intros k Hk. rewrite Hnew in Hk. apply last_named_in, elem_of_list_singleton in Hk. discriminate Hk. }
        assert (Htm : tame LS (old_ast LS song_start) new).
        { intros k olds news Hk. exfalso. revert Hk. unfold old_ast. cbn. by rewrite lookup_empty. }
        pose proof (re_env _ _ _ _ _ (tame_update_result LS (glang_ok demo _) _ _ _ _ He Hal Hpo Htm E)) as Hv. rewrite Hv. reflexivity. }
      clear E. split; [|split; [|split]].
      * split; [rewrite Hnew; reflexivity|]. intros k Hk. rewrite Hnew in Hk. apply last_named_in, elem_of_list_singleton in Hk. discriminate Hk.
      * apply song_edit; [|exact Hnew]. intros n. right. apply Hold.
      * intros k cs i c Hk Hi. rewrite Hnew in Hk. by apply (song_lines_ok e k cs Hsm Hk).
      * intros k cs c Hk Hc. rewrite Hnew in Hk. apply elem_of_list_lookup in Hc as [i Hi]. by apply (proj2 (song_lines_ok e k cs Hsm Hk) i c Hi).
Qed.

(** A text with an arrangement of two chains and a pattern of samples may be submitted after the
    sample was added; it is accepted and what follows is still part of the performance. *)
Definition parts_text : string := "~a: sig 0.5
~b: saw 100.0
o: arrange ~a 1.0 ~b 2.0 ~a 0.5
q: psampler ""\bd0@0.0 \bd0@0.5""(1.0)".
Definition parts : gmap string (list component) := match get_ast Props_Syntax.c64 Props_Syntax.no_math parts_text with Done m => m | _ => ∅ end.
Lemma parts_parsed : get_ast Props_Syntax.c64 Props_Syntax.no_math parts_text = Done parts.
Proof.
  unfold parts. assert (H : match get_ast Props_Syntax.c64 Props_Syntax.no_math parts_text with Done _ => true | _ => false end = true) by (vm_compute; reflexivity).
  by destruct (get_ast _ _ _).
Qed.
Definition parts_list : list (string * list component) :=
  [("~b", [CSaw (Num (f_of_Z 100))]); ("~a", [CConstSig fhalf]);
   ("q", [CPSampler (PsPattern [(EvSym "\bd0", f0); (EvSym "\bd0", fhalf)] f1)]); ("o", [CArrange [NRef "~a"; Num f1; NRef "~b"; Num f2; NRef "~a"; Num fhalf]])].
Lemma parts_in k cs : parts !! k = Some cs -> (k, cs) ∈ parts_list.
Proof. intros H%elem_of_map_to_list. assert (E : map_to_list parts = parts_list) by (vm_compute; reflexivity). by rewrite E in H. Qed.
Example C74_parts_case : song_call demo (get_ast Props_Syntax.c64 Props_Syntax.no_math) 8 song_start (CUpdate LS id_orders parts_text) /\
  exists e, update LS id_orders song_start parts_text = Ok (e, None) /\ playing demo (get_ast Props_Syntax.c64 Props_Syntax.no_math) 8 e.
Proof.
  assert (Hc : song_call demo (get_ast Props_Syntax.c64 Props_Syntax.no_math) 8 song_start (CUpdate LS id_orders parts_text)).
  { cbn [song_call]. rewrite parts_parsed. split; [|split; [|split]].
    - split; [by vm_compute|]. intros k Hk%parts_in. unfold parts_list in Hk. repeat (apply elem_of_cons in Hk as [[=]|Hk]). by apply elem_of_nil in Hk.
    - intros k olds news Hk. exfalso. revert Hk. unfold old_ast. cbn. by rewrite lookup_empty.
    - intros k cs i c Hk%parts_in Hi. unfold parts_list in Hk. repeat (apply elem_of_cons in Hk as [Hk|Hk]; [injection Hk as -> ->; destruct i as [|i]; [injection Hi as <-|discriminate Hi]|]);
        [by left|by left|by left| |by apply elem_of_nil in Hk].
      right. right. eexists. split; [reflexivity|]. cbn [component_refs numref_refs map List.concat app]. split_and!; [done| |].
      + by repeat constructor.
      + rewrite !elem_of_cons, elem_of_nil. by intros [?|[?|[?|[]]]].
    - intros k cs c Hk%parts_in Hc. unfold parts_list in Hk. repeat (apply elem_of_cons in Hk as [Hk|Hk]; [injection Hk as -> ->; apply elem_of_list_singleton in Hc as ->|]);
        [exact I|exact I| | |by apply elem_of_nil in Hk].
      + cbn [timed]. split; [split; [exact fin_f1|rewrite val_f1; lra]|]. intros x Hx d Hd. assert (Hn : ev_name x.1 = "\bd0") by (apply elem_of_cons in Hx as [->|Hx%elem_of_list_singleton]; [|subst x]; reflexivity).
        rewrite Hn in Hd. assert (Hs : Some d = Some song_hit) by (etransitivity; [symmetry; exact Hd|vm_compute; reflexivity]). injection Hs as ->. exact song_hit_fits.
      + cbn. lia. }
  split; [exact Hc|]. assert (Hu : match update LS id_orders song_start parts_text with Ok (_, None) => true | _ => false end = true) by (vm_compute; reflexivity).
  destruct (update LS id_orders song_start parts_text) as [[e [er|]]|] eqn:E; try discriminate Hu. exists e. split; [reflexivity|].
  eapply pl_call; [exact song_started|exact Hc|]. cbn [step]. by rewrite E.
Qed.

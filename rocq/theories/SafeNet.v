(** * SafeNet: the nodes of a running program and the inputs they look up. *)
From Verif Require Export SafeComp.
From Verif Require Import WeightProofs BlockProofs Props_Signal Props_Sampler Props_Inputs.
From Coq Require Import Lia.
Local Open Scope nat_scope.

Section nodes.
  Context (P : platform) (Hrel : debug (p_cfg P) = false) (Hblk : 0 < p_blk P).

  (** ** Nodes and drums alike *)
  Definition gsturdy (st : gnode P) (ids : list nat) : Prop :=
    match st with
    | Simple n => sturdy P n ids
    | Comp c => safe_comp P c /\ (length ids = 1 -> covers (cp_ord P c) ids 1)
    end.
  Definition wide (st : gnode P) : bool := match st with Simple n => two_out P n | Comp _ => true end.
  Definition gseq (st : gnode P) : bool := match st with Simple n => is_seq P n | Comp _ => false end.

  Lemma comp_ord_keeps c ins b c' b' : compound_proc P c ins b = Ok (c', b') -> drumlike P c -> cp_ord P c' = cp_ord P c.
  Proof.
    intros H Hd. unfold compound_proc, drumlike in *. assert (Hrun : run_inner P c ins b = Ok (c', b') -> cp_ord P c' = cp_ord P c).
    { unfold run_inner. rs. destruct (in_ord _ _ 0) as [bs|]; [|done]. destruct (chan bs 0) as [x|]; [|done].
      destruct (node_weight (cp_graph P c) 2) as [w|]; [|done]. cbn [unwrap].
      destruct (put0 w.2 x); [|done]. destruct (set_weight _ _ _) as [g1|]; [|done].
      destruct (process _ _ _ _) as [g2|]; [|done]. destruct (node_weight g2 0) as [d|]; [|done]. cbn [unwrap].
      destruct (chan d.2 0) as [l|]; [|done]. destruct (chan d.2 1) as [r|]; [|done]. destruct (put01 b l r); [|done]. by intros [= <- <-]. }
    destruct (cp_kind P c); [..|done]; (destruct ins as [|p [|q ins]]; [|exact (Hrun H)|]; by injection H as <- <-).
  Qed.
  Lemma gproc_ok st ids ins out : gsturdy st ids -> whole P st -> fulls P out -> (wide st = true -> length out = 2) -> ins_full P ins ->
    ins.*1 ≡ₚ ids -> is_ok (gproc P st ins out).
  Proof.
    destruct st as [n|c]; cbn [gsturdy wide whole gproc].
    - intros Hs _ Ho Hw Hi Hids. pose proof (sproc_ok P n ids ins out Hs Ho Hw Hi Hids) as H. by destruct (sproc P n ins out) as [[??]|].
    - intros [Hs Hc] Hin Ho Hw Hi Hids. pose proof (comp_ok P Hblk c ids ins out Hs Hin (Hw eq_refl) Hi Hids Hc) as H. by destruct (compound_proc P c ins out) as [[??]|].
  Qed.
  Lemma gsturdy_proc st ids ins out st' out' : gsturdy st ids -> (gseq st = true -> ins.*1 ≡ₚ ids) -> gproc P st ins out = Ok (st', out') ->
    gsturdy st' ids /\ wide st' = wide st.
  Proof.
    destruct st as [n|c]; cbn [gsturdy wide gseq gproc]; intros Hs Hi (s' & H & ->)%wrap_inv; cbn [gsturdy wide].
    - eapply sturdy_proc; eassumption.
    - destruct Hs as [Hs Hc]. split; [|done]. split; [eapply comp_proc_safe; eassumption|]. intros Hl.
      rewrite (comp_ord_keeps _ _ _ _ _ H (proj1 Hs)). by apply Hc.
  Qed.

  (** ** The kinds of nodes *)
  Definition tag (n : snode P) : nat :=
    match n with
    | NPass => 0 | NSum => 1 | NSum2 => 2 | NAdd _ => 3 | NMul _ => 4 | NOsc _ _ => 5 | NConst _ => 6 | NImp _ => 7 | NNoise _ => 8
    | NBalance _ => 9 | NPan _ => 10 | NSpeed _ => 11 | NEval _ => 12 | NMeta _ => 13 | NSeq _ => 14 | NChoose _ => 15 | NArrange _ => 16
    | NPoints _ => 17 | NPSynth _ => 18 | NMSynth _ => 19 | NSampler _ => 20 | NPSampler _ => 21 | NDelayN _ => 22 | NDelayMs _ => 23
    | NEnvPerc _ => 24 | NAdsr _ => 25 | NApf _ => 26 | NOnePole _ => 27 | NRlpf _ => 28 | NRhpf _ => 29
    end.
  Lemma tag_proc n ins b n' b' : sproc P n ins b = Ok (n', b') -> tag n' = tag n.
  Proof.
    destruct n; cbn [sproc]; try (intros (s' & _ & ->)%wrap_inv; reflexivity).
    - by intros [= <- _].
    - by intros [= <- _].
    - destruct (sum2_proc P ins b); [|done]. by intros [= <- _].
  Qed.
  Lemma tag_msg n m n' : smsg P n m = Ok n' -> tag n' = tag n.
  Proof.
    destruct n; cbn [smsg]; unfold wrapm; try (intros H; injection H as <-; reflexivity);
      match goal with |- match ?x with Ok _ => _ | Panic => _ end = _ -> _ => destruct x end; try discriminate; intros H; injection H as <-; reflexivity.
  Qed.
  (** The kind of node made for a component; the drums and synths apart. *)
  Definition kind_of (c : component) : option nat :=
    match c with
    | CConstSig _ => Some 6 | CMsgSynth _ _ _ => Some 19 | CPatternSynth _ _ => Some 18 | CPoints _ _ _ => Some 17 | CSp _ => Some 20
    | CMeta _ => Some 13 | CLpf _ _ => Some 28 | CBalance _ _ => Some 9 | CRhpf _ _ => Some 29 | CApfmsGain _ _ => Some 26
    | CEnvPerc _ _ => Some 24 | CAdsr _ _ _ _ => Some 25 | CTri _ | CSqu _ | CSaw _ | CSin _ => Some 5 | CImp _ => Some 7 | CMul _ => Some 4
    | CPan _ => Some 10 | CDelayn _ => Some 22 | CDelayms _ => Some 23 | CNoise _ => Some 8 | CSpeed _ => Some 11 | COnepole _ => Some 27
    | CAdd _ => Some 3 | CGet _ => Some 0 | CSeq _ => Some 14 | CChoose _ => Some 15 | CMix _ => Some 2
    | CArrange _ => Some 16 | CPSampler _ => Some 21
    | _ => None
    end.
  Definition drum (c : component) : bool :=
    match c with CBd _ | CHh _ | CSn _ | CSawSynth _ _ | CSquSynth _ _ | CTriSynth _ _ => true | _ => false end.
  Definition sa_whole (n : snode P) : Prop := match n with NSampler s => sa_len s = frames (sa_data s) | _ => True end.
  Definition kin (tr : list msg) (c : component) (st : gnode P) : Prop :=
    match kind_of c with
    | Some t => exists n, st = Simple n /\ tag n = t /\ sa_whole n
    | None => drum c = true -> exists cp, st = Comp cp /\ safe_comp P cp
    end.
  Lemma whole_msg n m n' : smsg P n m = Ok n' -> sa_whole n -> sa_whole n'.
  Proof.
    intros H Hp. pose proof (tag_msg _ _ _ H) as Ht. destruct n; try (destruct n'; try discriminate Ht; exact I).
    cbn [smsg] in H. unfold wrapm in H. destruct (sampler_msg s m) as [s'|] eqn:E; [|done]. injection H as <-. cbn [sa_whole] in *.
    revert E. unfold sampler_msg. rs. destruct m as [[|[q|q|]|q] v|pos s0|bpm|i|pos i|]; cbn [ord_msg ord_msg_keep];
      try (match goal with |- context [vec_insert ?a ?b ?c] => destruct (vec_insert a b c) end); try done; by intros [= <-].
  Qed.
  Lemma whole_proc n ins b n' b' : sproc P n ins b = Ok (n', b') -> sa_whole n -> sa_whole n'.
  Proof.
    intros H Hp. pose proof (tag_proc _ _ _ _ _ H) as Ht. destruct n; try (destruct n'; try discriminate Ht; exact I).
    cbn [sproc] in H. apply wrap_inv in H as (s' & H & ->). cbn [sa_whole] in *. apply sampler_keeps in H. by injection H as -> ->.
  Qed.
  Lemma kin_msg tr tr' c st m st' : kin tr c st -> gmsg P st m = Ok st' -> kin tr' c st'.
  Proof.
    unfold kin. destruct (kind_of c) as [t|].
    - intros (n & -> & <- & Hw) H. cbn [gmsg] in H. unfold wrapm in H. destruct (smsg P n m) as [n'|] eqn:E; [|done]. injection H as <-.
      exists n'. split_and!; [done|by eapply tag_msg|by eapply whole_msg].
    - intros Hk H Hd. destruct (Hk Hd) as (cp & -> & Hs). cbn [gmsg] in H. unfold wrapm in H. destruct (compound_msg P cp m) as [c'|] eqn:E; [|done]. injection H as <-.
      exists c'. split; [done|]. by eapply comp_msg_safe.
  Qed.
  Lemma kin_proc tr c st ins b st' b' : kin tr c st -> gproc P st ins b = Ok (st', b') -> kin tr c st'.
  Proof.
    unfold kin. destruct (kind_of c) as [t|].
    - intros (n & -> & <- & Hw) H. cbn [gproc] in H. apply wrap_inv in H as (n' & H & ->).
      exists n'. split_and!; [done|by eapply tag_proc|by eapply whole_proc].
    - intros Hk H Hd. destruct (Hk Hd) as (cp & -> & Hs). cbn [gproc] in H. apply wrap_inv in H as (c' & H & ->).
      exists c'. split; [done|]. by eapply comp_proc_safe.
  Qed.
  Lemma kin_msgs tr tr' c ms st st' : kin tr c st -> foldM (gmsg P) st ms = Ok st' -> kin tr' c st'.
  Proof.
    revert st. induction ms as [|m ms IH]; intros st H; cbn [foldM].
    - intros [= <-]. exact H.
    - destruct (gmsg P st m) as [st1|] eqn:E; [|done]. apply IH. by eapply kin_msg.
  Qed.
  Lemma kin_eq tr tr' a b st : kin tr a st -> component_eqb a b = true -> kin tr' b st.
  Proof.
    intros H E. unfold kin in *. assert (Hk : kind_of b = kind_of a /\ drum b = drum a).
    { clear H. destruct a, b; try discriminate E; try (split_and!; reflexivity). }
    destruct Hk as (-> & ->). exact H.
  Qed.
  Lemma kin_boxed tr c n ch refs w refs' : kind_of c = Some (tag n) -> sa_whole n -> boxed P n ch refs = Done (w, refs') -> kin tr c w.1.
  Proof.
    intros Hk Hw H. unfold boxed in H. injection H as <- _. unfold kin. rewrite Hk. exists n. split_and!; [reflexivity|reflexivity|exact Hw].
  Qed.
  Lemma kin_boxed_res tr c r ch refs w refs' : (forall n, r = Ok n -> kind_of c = Some (tag n) /\ sa_whole n) ->
    boxed_res P r ch refs = Done (w, refs') -> kin tr c w.1.
  Proof. intros Hr. unfold boxed_res. destruct r as [n|]; [|discriminate]. destruct (Hr n eq_refl) as (H1 & H2). by apply kin_boxed. Qed.
  Lemma kin_comp tr c r ch refs w refs' : kind_of c = None -> (drum c = true -> forall cp, r = Ok cp -> safe_comp P cp) -> boxed_comp P r ch refs = Done (w, refs') -> kin tr c w.1.
  Proof.
    intros Hk Hr. unfold boxed_comp. destruct r as [cp|]; [|discriminate]. intros H. injection H as <- _. unfold kin. rewrite Hk.
    intros Hd. exists cp. split; [reflexivity|]. by apply Hr.
  Qed.
  Lemma make_kin ev c w refs tr : makenode_ P ev c = Done (w, refs) -> kin tr c w.1.
  Proof.
    assert (Hnone : kind_of c = None -> drum c = false -> kin tr c w.1) by (intros H1 H2; unfold kin; rewrite H1, H2; discriminate).
    destruct c; try (intros _; apply Hnone; reflexivity); clear Hnone; cbn [makenode_];
      match goal with
      | |- boxed_comp _ _ _ _ = _ -> _ => apply kin_comp; [reflexivity|intros _ cp]
      | |- boxed _ _ _ _ = _ -> _ => apply kin_boxed; [reflexivity|exact I]
      | |- boxed_res _ _ _ _ = _ -> _ => apply kin_boxed_res; intros n; rs
      | |- _ => idtac
      end.
    all: match goal with
         | |- bd_new _ _ = _ -> _ => exact (bd_safe P Hrel Hblk _ _)
         | |- hh_new _ _ = _ -> _ => exact (hh_safe P Hrel Hblk _ _)
         | |- sn_new _ _ = _ -> _ => exact (sn_safe P Hrel Hblk _ _)
         | |- synth_new _ _ _ _ = _ -> _ => exact (synth_safe P Hrel Hblk _ _ _ _)
         | |- _ => idtac
         end.
    - destruct (make_points _ _ _ _ _); [|discriminate]. intros H. injection H as <-. split; [reflexivity|exact I].
    - destruct (delayn_new _); [|discriminate]. intros H. injection H as <-. split; [reflexivity|exact I].
    - destruct (delayms_new _ _ _ _); [|discriminate]. intros H. injection H as <-. split; [reflexivity|exact I].
    - destruct (e_samples ev !! sym) as [d|]; [|discriminate]. apply kin_boxed_res. intros n. rs. unfold sampler_new. rs.
      destruct (sd_chan d =? 0)%Z; [discriminate|]. destruct (usub _ _ _); [|discriminate]. intros H. injection H as <-.
      split; reflexivity.
    - destruct (ps_parse sym); [|discriminate]. intros H. injection H as <-. split; [reflexivity|exact I].
    - destruct sg; [| |discriminate|]; apply kin_boxed; first [reflexivity|exact I].
    - destruct p as [x|evs span]; [discriminate|]. destruct (select _ _); [|discriminate|discriminate]. apply kin_boxed; [reflexivity|exact I].
    - destruct (apf_new _ _ _ _); [|discriminate]. intros H. injection H as <-. split; [reflexivity|exact I].
  Qed.

  (** ** The first input of a node without references *)
  Definition front (st : gnode P) : option (list nat) :=
    match st with
    | Simple (NEnvPerc s) => Some (ep_ord s)
    | Simple (NAdsr s) => Some (ad_ord s)
    | Simple (NMeta s) => Some (ev_ord s)
    | Comp c => match cp_kind P c with KPlate _ _ _ _ => None | _ => Some (cp_ord P c) end
    | _ => input_order st
    end.
  Lemma front_msg st m st' : gmsg P st m = Ok st' ->
    match front st with
    | Some o => exists o', (ord_msg o m = Ok o' \/ (m = ResetOrder /\ o' = o)) /\ front st' = Some o'
    | None => front st' = None
    end.
  Proof.
    intros H. assert (Hgen : (forall s, st = Simple s -> match s with NEnvPerc _ | NAdsr _ | NMeta _ => False | _ => True end) -> (forall c, st <> Comp c) ->
      match front st with Some o => exists o', (ord_msg o m = Ok o' \/ (m = ResetOrder /\ o' = o)) /\ front st' = Some o' | None => front st' = None end).
    { intros Hs Hc. pose proof (msg_order _ _ _ _ H) as Ho. destruct st as [s|c]; [|by destruct (Hc c)]. specialize (Hs s eq_refl).
      cbn [gmsg] in H. unfold wrapm in H. destruct (smsg P s m) as [s'|] eqn:E; [|discriminate]. injection H as <-. apply tag_msg in E.
      destruct s; try contradiction; destruct s'; try discriminate E; cbn [front]; exact Ho || (destruct Ho as (o' & H1 & H2); exists o'; split; [by left|exact H2]). }
    destruct st as [s|c].
    - destruct s; try (apply Hgen; [by intros ? [= <-]|discriminate]); clear Hgen; cbn [gmsg smsg] in H; unfold wrapm in H.
      + destruct (meta_msg P s m) as [s'|] eqn:E; [|discriminate]. injection H as <-. cbn [front]. unfold meta_msg in E. revert E. rs.
        destruct m as [pos v|[|pos|pos] s0|bpm|i|pos i|]; cbn [ord_msg];
          try (match goal with |- context [vec_insert ?a ?b ?c] => destruct (vec_insert a b c) end); try discriminate; intros E; injection E as <-; eexists; (split; [left; reflexivity|reflexivity]).
      + destruct (envperc_msg s m) as [s'|] eqn:E; [|discriminate]. injection H as <-. cbn [front]. unfold envperc_msg in E. revert E. rs.
        destruct m as [[|[q|q|]|q] v|pos s0|bpm|i|pos i|]; cbn [ord_msg];
          try (match goal with |- context [vec_insert ?a ?b ?c] => destruct (vec_insert a b c) end); try discriminate; intros E; injection E as <-; eexists; (split; [left; reflexivity|reflexivity]).
      + destruct (adsr_msg s m) as [s'|] eqn:E; [|discriminate]. injection H as <-. cbn [front]. unfold adsr_msg in E. revert E. rs.
        destruct m as [[|[[q|q|]|[q|q|]|]|q] v|pos s0|bpm|i|pos i|]; cbn [ord_msg];
          try (match goal with |- context [vec_insert ?a ?b ?c] => destruct (vec_insert a b c) end); try discriminate; intros E; injection E as <-; eexists; (split; [left; reflexivity|reflexivity]).
    - clear Hgen. cbn [gmsg] in H. unfold wrapm in H. destruct (compound_msg P c m) as [c'|] eqn:E; [|discriminate]. injection H as <-. cbn [front].
      unfold compound_msg in E. revert E. rs. destruct (cp_kind P c) eqn:Ek.
      3: { destruct m as [[|[q|q|]|q] v|pos s0|bpm|i|pos i|]; cbn [ord_msg];
        repeat (match goal with |- context [isend P ?a ?b ?c] => destruct (isend P a b c) end; try discriminate);
        try (match goal with |- context [vec_insert ?a ?b ?c] => destruct (vec_insert a b c) end); try discriminate; intros E; injection E as <-; reflexivity. }
      all: destruct m as [[|[q|q|]|q] v|pos s0|bpm|i|pos i|]; cbn [ord_msg ord_msg_keep];
        repeat (match goal with |- context [isend P ?a ?b ?c] => destruct (isend P a b c) end; try discriminate);
        try (match goal with |- context [vec_insert ?a ?b ?c] => destruct (vec_insert a b c) end); try discriminate; intros E; injection E as <-;
        eexists; (split; [first [right; split; reflexivity|left; reflexivity]|reflexivity]).
  Qed.
  Lemma front_proc st ins b st' b' : gproc P st ins b = Ok (st', b') -> front st' = front st.
  Proof.
    intros H. pose proof (proc_order _ _ _ _ _ _ H) as Ho. destruct st as [s|c]; cbn [gproc] in H; apply wrap_inv in H as (s' & H & ->).
    - pose proof (tag_proc _ _ _ _ _ H) as E. destruct s; destruct s'; try discriminate E; try exact Ho; cbn [front]; cbn [sproc] in H; apply wrap_inv in H as (s' & H & [= ->]).
      + by rewrite (meta_keeps _ _ _ _ _ _ H).
      + by rewrite (envperc_keeps _ _ _ _ _ _ H).
      + by rewrite (adsr_keeps _ _ _ _ _ _ H).
    - cbn [front]. assert (Hk : cp_kind P s' = cp_kind P c).
      { clear -H. unfold compound_proc in H. assert (Hrun : run_inner P c ins b = Ok (s', b') -> cp_kind P s' = cp_kind P c).
        { unfold run_inner. rs. destruct (in_ord _ _ 0) as [bs|]; [|done]. destruct (chan bs 0) as [x|]; [|done].
          destruct (node_weight (cp_graph P c) 2) as [w|]; [|done]. cbn [unwrap].
          destruct (put0 w.2 x); [|done]. destruct (set_weight _ _ _) as [g1|]; [|done].
          destruct (process _ _ _ _) as [g2|]; [|done]. destruct (node_weight g2 0) as [d|]; [|done]. cbn [unwrap].
          destruct (chan d.2 0) as [l|]; [|done]. destruct (chan d.2 1) as [r|]; [|done]. destruct (put01 b l r); [|done]. by intros [= <- <-]. }
        destruct (cp_kind P c) eqn:Ek; try (destruct ins as [|p [|q ins]]; [|exact (Hrun H)|]; by injection H as <- <-); exact (Hrun H). }
      rewrite Hk. destruct (cp_kind P c) eqn:Ek; [| |reflexivity].
      all: by rewrite (comp_ord_keeps _ _ _ _ _ H) by (unfold drumlike; by rewrite Ek).
  Qed.
  Definition lead (tr : list msg) (c : component) (st : gnode P) : Prop :=
    component_refs c = [] -> forall u o, tr = [IndexOrder 0 u] -> front st = Some o -> o !! 0 = Some u.
  Lemma lead_msgs sh t k i c st st' : component_refs c = [] -> foldM (gmsg P) st (trace sh t k i (component_refs c)) = Ok st' ->
    lead (trace sh t k i (component_refs c)) c st'.
  Proof.
    intros Hr H _ u o Htr Ho. rewrite Htr in H. cbn [foldM] in H. destruct (gmsg P st (IndexOrder 0 u)) as [st1|] eqn:E; [|done]. injection H as <-.
    apply front_msg in E. destruct (front st) as [o0|]; [|congruence]. destruct E as (o' & [H1|[H1 _]] & H2); [|done]. rewrite Ho in H2. injection H2 as <-.
    cbn [ord_msg] in H1. unfold vec_insert in H1. cbn in H1. injection H1 as <-. reflexivity.
  Qed.
End nodes.

(** ** Programs *)

(** A parameter that is a number or a plain reference. *)
Definition plain_num (p : numref) : Prop := match p with Num _ => True | NRef r => no_dots r end.
Definition is_num (p : numref) : Prop := match p with Num _ => True | NRef _ => False end.
(** Components whose node looks up only inputs it has, at place [i] of a chain. *)
Definition steady (c : component) (i : nat) : Prop :=
  match c with
  | CConstSig _ | CNoise _ | CSpeed _ | CGet _ | CMix _ | CImp _ | CDelayn _ | CMsgSynth _ _ _ | CPatternSynth _ _ | CPoints _ _ _ | CSp _ | CPSampler _ | CChoose _
  | CMeta _ | CEnvPerc _ _ | CAdsr _ _ _ _ | CSawSynth _ _ | CSquSynth _ _ | CTriSynth _ _ => True
  | CSin p | CSaw p | CSqu p | CTri p | CMul p | CAdd p | COnepole p | CRhpf p _ => plain_num p
  | CLpf (SigNum _) _ | CLpf (SigPattern _ _) _ => True
  | CLpf (SigRef r) _ => no_dots r
  | CBd p | CHh p | CSn p | CApfmsGain p _ => is_num p
  | CPan p => 0 < i /\ plain_num p
  | CDelayms p => 0 < i /\ is_num p
  | CBalance l r => i = 0 /\ no_dots l /\ no_dots r
  | CSeq evs => i = 0 /\ component_refs (CSeq evs) = []
  | _ => False
  end.
(** An arrangement of chains of the program, none of them the one it stands in. *)
Definition arranges (k : string) (c : component) : Prop :=
  exists evs, c = CArrange evs /\ component_refs c <> [] /\ Forall no_dots (component_refs c) /\ k ∉ component_refs c.
(** The states in which the nodes with a clock do not divide by zero and the samples are
    not too short. *)
Definition ready (P : platform) (st : gnode P) : Prop :=
  match st with
  | Simple (NImp s) => im_period s <> 0%Z
  | Simple (NPSynth s) => ps_bar P s <> 0%Z
  | Simple (NSeq s) => seq_bar P s <> 0%Z
  | Simple (NPoints s) => po_loop s = true -> points_bar P s <> 0%Z
  | Simple (NSampler s) => playable (sa_data s)
  | Simple (NPSampler s) => pa_fine P s
  | Simple (NArrange s) => length (ar_events s) / 2 <= length (ar_ord s)
  | Simple (NRlpf s) => bq_fine P s
  | Simple (NChoose s) => ch_fine P s
  | _ => True
  end.

Section net.
  Context (P : platform) (get : string -> outcome (gmap string (list component))).
  Context (Hrel : debug (p_cfg P) = false) (Hblk : 0 < p_blk P) (Humax : (16777216 <= umax (p_cfg P))%Z).
  Notation L := (glang P get).

  Lemma net_tracked blk e : tamely L blk e -> tracked L (fun tr c st => kin P tr c st /\ lead P tr c st) e.
  Proof.
    apply tamely_tracked; [apply glang_ok|..].
    - intros ev c w refs sh t k i st Hmk Hf. split.
      + eapply (kin_msgs P []); [|exact Hf]. exact (make_kin P Hrel Hblk ev c w refs [] Hmk).
      + intros Hr. assert (refs = component_refs c) as -> by (eapply make_refs_exact; [exact Hmk|rewrite Hr; constructor]).
        by eapply lead_msgs.
    - intros tr a b st0 sh t k i st [Hk _] Heq Hf. split.
      + eapply (kin_msgs P []); [|exact Hf]. exact (kin_eq P tr [] a b st0 Hk Heq).
      + intros Hr. by eapply lead_msgs.
    - intros tr c st m st' [Hk Hl] Hu Hm. split; [exact (kin_msg P tr tr c st m st' Hk Hm)|].
      intros Hr u o Htr Ho. apply front_msg in Hm. destruct (front P st) as [o0|] eqn:E; [|congruence]. destruct Hm as (o' & [H1|[H1 _]] & H2).
      + rewrite user_ord in H1 by done. injection H1 as <-. rewrite Ho in H2. injection H2 as ->. by apply (Hl Hr u o0).
      + by subst m.
    - intros tr c st ins b st' b' [Hk Hl] Hp. split; [exact (kin_proc P tr c st ins b st' b' Hk Hp)|].
      intros Hr u o Htr Ho. apply front_proc in Hp. rewrite Hp in Ho. by apply (Hl Hr u o).
  Qed.

  Section one.
    Context (blk : Z) (e : engine L) (p : gmap string (list component)) (k : string) (i : nat) (c : component) (v : nat) (st : gnode P) (b : list sig).
    Context (Ht : tamely L blk e) (Hp : en_ast L e = Some p) (Hpl : placed L (en_info L e) p k i c v) (Hw : node_weight (en_graph L e) v = Some (st, b)).
    Notation ids := (input_ids (en_graph L e) v).

    Lemma ids_feeds x : x ∈ ids <-> feeds L e c k i x /\ x <> v.
    Proof. rewrite elem_of_input_ids. by rewrite (feeds_edge L (glang_ok P get) blk e p k i c v x Ht Hp Hpl). Qed.
    Lemma ids_nodup : NoDup ids.
    Proof. apply NoDup_remove_dups. Qed.
    Lemma one_kin : exists tr, kin P tr c st.
    Proof. destruct (net_tracked blk e Ht p k i c v (st, b) Hp Hpl Hw) as (sh & rs & _ & H & _). eauto. Qed.
    Lemma owner_pred j : i = S j -> exists m, owner (en_info L e) m k j /\ m <> v.
    Proof.
      intros ->. destruct (pred_spec P get blk e p k j c v Ht Hp Hpl) as (m & Hm & _). exists m. split; [done|]. intros ->.
      destruct (tamely_inv _ (glang_ok P get) _ _ Ht) as (He & _ & _). destruct Hpl as (cs & _ & _ & Hv).
      destruct (ei_inj _ _ He v k j k (S j) Hm Hv). lia.
    Qed.
    Lemma owner_same x y j : owner (en_info L e) x k j -> owner (en_info L e) y k j -> x = y.
    Proof. intros (a & Ha & Hx) (a' & Ha' & Hy). rewrite Ha in Ha'. injection Ha' as <-. congruence. Qed.

    (** No references. *)
    Lemma apt_nil : component_refs c = [] -> (i = 0 -> ids = []) /\ (0 < i -> length ids = 1) /\
      (forall o, front P st = Some o -> length ids = 1 -> covers o ids 1).
    Proof.
      intros Hr. assert (Hf : forall x, x ∈ ids <-> exists j, i = S j /\ owner (en_info L e) x k j /\ x <> v).
      { intros x. rewrite ids_feeds. unfold feeds. cbn [all_refs glang]. rewrite Hr. split.
        - intros [[(j & -> & H)|(r & k' & H & _)] Hx]; [by exists j|by apply elem_of_nil in H].
        - intros (j & -> & H & Hx). split; [left; by exists j|done]. }
      assert (Hz : i = 0 -> ids = []).
      { intros ->. destruct ids as [|x l] eqn:E; [done|]. assert (x ∈ ids) as H by (rewrite E; left). rewrite E in H. apply Hf in H as (j & ? & _). done. }
      assert (Hs : forall j, i = S j -> exists m, owner (en_info L e) m k j /\ ids = [m]).
      { intros j Hj. destruct (owner_pred j Hj) as (m & Hm & Hmv). exists m. split; [done|].
        apply Permutation_singleton_r, NoDup_Permutation; [apply ids_nodup|apply NoDup_singleton|]. intros x. rewrite Hf, elem_of_list_singleton. split.
        - intros (j' & Hj' & Hx & _). assert (j' = j) as -> by lia. by eapply owner_same.
        - intros ->. by exists j. }
      split_and!; [exact Hz|intros Hi; destruct i as [|j]; [lia|]; destruct (Hs j eq_refl) as (m & _ & ->); done|].
      intros o Ho Hl. destruct i as [|j]; [by rewrite Hz in Hl|]. destruct (Hs j eq_refl) as (m & Hm & Hids). rewrite Hids.
      destruct (net_tracked blk e Ht p k (S j) c v (st, b) Hp Hpl Hw) as (sh & rs & Hrs & _ & Hle).
      assert (rs = []) as ->.
      { destruct Hrs as [->|(ev & w0 & Hmk)]; [done|]. rewrite (make_refs_exact P ev c w0 rs Hmk), Hr; [done|rewrite Hr; constructor]. }
      intros n Hn. exists m. split; [|by left]. assert (n = 0) as -> by lia. refine (Hle Hr m o _ Ho).
      unfold trace. destruct Hm as (is & -> & Hm). cbn [app pred_msg]. by rewrite Hm.
    Qed.
    (** One plain reference. *)
    Lemma apt_one r : component_refs c = [r] -> no_dots r -> (0 < i -> 1 <= length ids) /\ length ids <= 2 /\
      (forall o, input_order st = Some o -> forall n, n = length ids -> covers o ids n).
    Proof.
      intros Hr Hd. destruct (plain_target P get blk e p k i c v r id_shuffle Ht Hp Hpl) as (u & Hu & _); [rewrite Hr; by left|done|].
      assert (Hf : forall x, x ∈ ids <-> x <> v /\ (x = u \/ exists j, i = S j /\ owner (en_info L e) x k j)).
      { intros x. rewrite ids_feeds. unfold feeds. cbn [all_refs glang]. rewrite Hr. split.
        - intros [[H|(r' & k' & H & Hre & Hx)] Hne]; (split; [done|]); [by right|]. left. apply elem_of_list_singleton in H as ->.
          unfold refers in Hre. rewrite (plain_ref r Hd) in Hre. subst k'. destruct Hu as (a & Ha & Hua), Hx as (a' & Ha' & Hxa). rewrite Ha in Ha'. injection Ha' as <-. congruence.
        - intros [Hne [->|H]]; (split; [|done]); [|by left]. right. exists r, r. split_and!; [by left| |done]. unfold refers. by rewrite (plain_ref r Hd). }
      assert (Hord : forall o, input_order st = Some o -> match i with 0 => o = [u] | S j => exists m, owner (en_info L e) m k j /\ o = [m; u] end).
      { intros o Ho. destruct (Props_Inputs.C15_inputs_told_apart P get blk e p k i c v st b r o Ht Hp Hpl Hw Hr Hd Ho) as (u' & Hu' & H).
        assert (u' = u) as ->; [|exact H]. destruct Hu as (a & Ha & Hua), Hu' as (a' & Ha' & Hxa). rewrite Ha in Ha'. injection Ha' as <-. congruence. }
      pose proof owner_pred as Hop. pose proof ids_nodup as Hnd. pose proof owner_same as Hos.
      destruct i as [|j].
      - assert (Hsub : ids ⊆ [u]).
        { intros x [_ [->|(j & ? & _)]]%Hf; [by left|done]. }
        pose proof (NoDup_submseteq _ _ Hnd Hsub) as Hsm. pose proof (submseteq_length _ _ Hsm) as Hl. cbn [length] in Hl.
        split_and!; [lia|lia|]. intros o Ho n ->. rewrite (Hord o Ho). intros q Hq. exists u. assert (q = 0) as -> by lia. split; [done|].
        destruct ids as [|x l] eqn:E; [cbn in Hq; lia|]. specialize (Hsub x ltac:(by left)). apply elem_of_list_singleton in Hsub as ->. by left.
      - destruct (Hop j eq_refl) as (m & Hm & Hmv). assert (Hmi : m ∈ ids) by (apply Hf; split; [done|]; right; by exists j).
        assert (Hsub : ids ⊆ [m; u]).
        { intros x [_ [->|(j' & Hj & Hx)]]%Hf; [by right; left|]. assert (j' = j) as -> by lia. rewrite (Hos x m j Hx Hm). by left. }
        pose proof (NoDup_submseteq _ _ Hnd Hsub) as Hsm. pose proof (submseteq_length _ _ Hsm) as Hl. cbn [length] in Hl.
        assert (1 <= length ids) by (destruct ids; [by apply elem_of_nil in Hmi|cbn; lia]).
        split_and!; [lia|lia|]. intros o Ho n ->. destruct (Hord o Ho) as (m' & Hm' & ->). rewrite (Hos m' m j Hm' Hm). intros q Hq.
        destruct q as [|[|q]]; [by exists m|exists u; split; [done|]|lia].
        assert (length ids = 2) as H2 by lia. pose proof (submseteq_Permutation_length_le ids [m; u] ltac:(rewrite H2; cbn; lia) Hsm) as Hpm. rewrite Hpm. by right; left.
    Qed.
    (** Two plain references at the head of a chain. *)
    Lemma apt_two l r : component_refs c = [l; r] -> no_dots l -> no_dots r -> i = 0 ->
      forall o, input_order st = Some o -> length ids = 2 -> covers o ids 2.
    Proof.
      intros Hr Hdl Hdr Hi o Ho H2.
      destruct (plain_target P get blk e p k i c v l id_shuffle Ht Hp Hpl) as (u & Hu & _); [rewrite Hr; by left|done|].
      destruct (plain_target P get blk e p k i c v r id_shuffle Ht Hp Hpl) as (w & Hwr & _); [rewrite Hr; by right; left|done|].
      assert (Hend : forall q x y, chain_end (en_info L e) q x -> chain_end (en_info L e) q y -> x = y).
      { intros q x y (a & Ha & Hx) (a' & Ha' & Hy). rewrite Ha in Ha'. injection Ha' as <-. congruence. }
      assert (Hsub : ids ⊆ [u; w]).
      { intros x [[(j & ? & _)|(q & k' & Hq & Hre & Hx)] _]%ids_feeds; [lia|]. cbn [all_refs glang] in Hq. rewrite Hr in Hq. unfold refers in Hre.
        apply elem_of_cons in Hq as [->|Hq].
        - rewrite (plain_ref l Hdl) in Hre. subst k'. rewrite (Hend _ _ _ Hx Hu). by left.
        - apply elem_of_list_singleton in Hq as ->. rewrite (plain_ref r Hdr) in Hre. subst k'. rewrite (Hend _ _ _ Hx Hwr). by right; left. }
      pose proof (NoDup_submseteq _ _ ids_nodup Hsub) as Hsm. pose proof (submseteq_Permutation_length_le ids [u; w] ltac:(rewrite H2; cbn; lia) Hsm) as Hpm.
      assert (Huw : u <> w).
      { intros ->. pose proof ids_nodup as Hnd. rewrite Hpm in Hnd. apply NoDup_cons in Hnd as [Hn _]. apply Hn. by left. }
      assert (Hlr : l <> r) by (intros ->; by apply Huw, (Hend r)).
      destruct (input_list P get blk e p k i c v st b o Ht Hp Hpl Hw) as (sh & ->); [by rewrite Hr| |done|].
      { rewrite Hr. apply NoDup_cons. split; [|apply NoDup_singleton]. by intros ?%elem_of_list_singleton. }
      destruct (plain_target P get blk e p k i c v l sh Ht Hp Hpl) as (u' & Hu' & Hl'); [rewrite Hr; by left|done|].
      destruct (plain_target P get blk e p k i c v r sh Ht Hp Hpl) as (w' & Hw' & Hr'); [rewrite Hr; by right; left|done|].
      rewrite (Hend _ _ _ Hu' Hu) in Hl'. rewrite (Hend _ _ _ Hw' Hwr) in Hr'. rewrite Hr, Hi. cbn [pred_of mbind list_bind app]. rewrite Hl', Hr'. cbn [app].
      intros q Hq. destruct q as [|[|q]]; [exists u|exists w|lia]; (split; [done|]); rewrite Hpm; [by left|by right; left].
    Qed.

    (** Only a sequence leaves out the references it repeats. *)
    Lemma input_list_free o : component_refs c <> [] -> (forall evs, c <> CSeq evs) -> input_order st = Some o ->
      exists sh, o = pred_of (en_info L e) k i ++ (component_refs c ≫= targets sh (en_info L e)).
    Proof.
      intros Hne Hsq Ho. destruct (order_tracked P get blk e Ht p k i c v (st, b) Hp Hpl Hw) as (sh & rs & Hrs & HJ).
      assert (rs = component_refs c) as ->.
      { destruct Hrs as [->|(ev & w0 & Hmk)]; [done|]. apply makenode_refs in Hmk. clear -Hmk Hsq. destruct c; try exact Hmk. by destruct (Hsq events). }
      exists sh. specialize (HJ Hne o Ho). rewrite trace_order in HJ by done. congruence.
    Qed.
    (** Any number of plain references, none of them to the chain itself. *)
    Lemma apt_many o : component_refs c <> [] -> (forall evs, c <> CSeq evs) -> Forall no_dots (component_refs c) -> k ∉ component_refs c ->
      input_order st = Some o -> Forall (fun x => x ∈ ids) o.
    Proof.
      intros Hne Hnd Hdots Hk Ho. rewrite Forall_forall in Hdots. apply Forall_forall. intros x.
      destruct (input_list_free o Hne Hnd Ho) as (sh & ->). rewrite elem_of_app, elem_of_list_bind. intros [Hx|(r & Hx & Hr)].
      - pose proof ids_feeds as Hf. pose proof owner_pred as Hop. destruct i as [|j]; [by apply elem_of_nil in Hx|].
        destruct (pred_spec P get blk e p k j c v Ht Hp Hpl) as (m & Hm & Epr). rewrite Epr in Hx. apply elem_of_list_singleton in Hx as ->.
        apply Hf. split; [left; by exists j|]. destruct (Hop j eq_refl) as (m' & Hm' & Hmv). by rewrite (owner_same m m' j Hm Hm').
      - destruct (plain_target P get blk e p k i c v r sh Ht Hp Hpl Hr) as (u & Hu & Htar); [by apply Hdots|].
        rewrite Htar in Hx. apply elem_of_list_singleton in Hx as ->. apply ids_feeds. split.
        + right. exists r, r. split; [exact Hr|]. split; [|exact Hu]. unfold refers. rewrite plain_ref; [done|]. by apply Hdots.
        + intros ->. destruct (tamely_inv _ (glang_ok P get) _ _ Ht) as (He & _ & _). destruct Hpl as (cs & _ & _ & Hv).
          destruct Hu as (is & His & Hl). rewrite last_lookup in Hl.
          destruct (ei_inj _ _ He v r (pred (length is)) k i ltac:(by exists is) Hv) as [-> _]. done.
    Qed.

    Lemma room_many o : component_refs c <> [] -> (forall evs, c <> CSeq evs) -> Forall no_dots (component_refs c) ->
      input_order st = Some o -> length (component_refs c) <= length o.
    Proof.
      intros Hne Hnd Hdots Ho. destruct (input_list_free o Hne Hnd Ho) as (sh & ->). rewrite app_length.
      assert (Hall : forall l, (forall r, r ∈ l -> r ∈ component_refs c) -> length l <= length (l ≫= targets sh (en_info L e))).
      { induction l as [|r l IH]; intros Hl; [done|]. cbn [mbind list_bind]. rewrite app_length. specialize (IH ltac:(intros; apply Hl; by right)).
        destruct (plain_target P get blk e p k i c v r sh Ht Hp Hpl) as (u & _ & Htar); [apply Hl; by left|rewrite Forall_forall in Hdots; apply Hdots, Hl; by left|].
        rewrite Htar. cbn [length]. cbn [mbind] in IH. lia. }
      specialize (Hall (component_refs c) ltac:(done)). lia.
    Qed.

    Lemma kin_shape : match kind_of c with Some t => exists n, st = Simple n /\ tag P n = t /\ sa_whole P n
      | None => drum c = true -> exists cp, st = Comp cp /\ safe_comp P cp end.
    Proof. destruct one_kin as (tr & H). exact H. Qed.
    Lemma drum_front cp : safe_comp P cp -> front P (Comp cp) = Some (cp_ord P cp).
    Proof. intros [Hd _]. cbn [front]. unfold drumlike in Hd. by destruct (cp_kind P cp). Qed.
    Theorem steady_sturdy : steady c i -> ready P st -> gsturdy P st ids.
    Proof.
      intros Hs Hrd. pose proof kin_shape as Hk. pose proof apt_nil as H0. pose proof apt_one as H1. pose proof apt_two as H2.
      assert (Hnum : forall q n o, component_refs c = numref_refs q -> plain_num q -> st = Simple n -> input_order st = Some o -> front P st = Some o ->
        (length ids = 1 -> covers o ids 1) /\ (length ids = 2 -> covers o ids 2) /\ (0 < i -> length ids = 1 \/ covers o ids 2)).
      { intros q n o Hq Hpq Hn Ho Hf. destruct q as [q|q]; cbn [numref_refs plain_num] in Hq, Hpq.
        - destruct (H0 Hq) as (Ha & Hb & Hc). assert (length ids <= 1) by (destruct i; [rewrite Ha by done; cbn; lia|rewrite Hb by lia; lia]).
          split_and!; [intros E; by apply Hc|lia|intros Hi; left; by apply Hb].
        - destruct (H1 q Hq Hpq) as (Ha & Hb & Hc). split_and!; [intros E; by apply (Hc o Ho)|intros E; by apply (Hc o Ho)|].
          intros Hi. specialize (Ha Hi). assert (length ids = 1 \/ length ids = 2) as [E|E] by lia; [by left|right; by apply (Hc o Ho)]. }
      destruct c; cbn [steady] in Hs; try contradiction; cbn [kind_of drum] in Hk;
        try (destruct Hk as (n & Hst & Htag & Hwh); destruct n; try discriminate Htag; subst st);
        try (destruct (Hk eq_refl) as (cp & -> & Hsafe)); cbn [gsturdy sturdy ready] in *; try exact I; try assumption.
      - destruct (po_loop s); [by apply Hrd|]. split; [done|]. lia.
      - destruct Hs as [Hi Hn]. destruct p0; [|contradiction]. by apply (H0 eq_refl).
      - intros E. right. by apply (Hnum p0 _ _ eq_refl Hs eq_refl eq_refl eq_refl).
      - intros E. right. by apply (Hnum p0 _ _ eq_refl Hs eq_refl eq_refl eq_refl).
      - intros E. right. by apply (Hnum p0 _ _ eq_refl Hs eq_refl eq_refl eq_refl).
      - by apply (Hnum p0 _ _ eq_refl Hs eq_refl eq_refl eq_refl).
      - intros E. right. by apply (Hnum p0 _ _ eq_refl Hs eq_refl eq_refl eq_refl).
      - by apply (Hnum p0 _ _ eq_refl Hs eq_refl eq_refl eq_refl).
      - by apply (Hnum p0 _ _ eq_refl Hs eq_refl eq_refl eq_refl).
      - destruct Hs as [Hi Hn]. by apply (Hnum p0 _ _ eq_refl Hn eq_refl eq_refl eq_refl).
      - destruct Hs as [Hi Hn]. split; [by apply (H0 Hn)|exact Hrd].
      - split_and!; [exact Hrd|exact Hwh|exact Humax].
      - split; [exact Hsafe|]. destruct p0; [|contradiction]. apply (H0 eq_refl). apply drum_front, Hsafe.
      - split; [exact Hsafe|]. destruct p0; [|contradiction]. apply (H0 eq_refl). apply drum_front, Hsafe.
      - split; [exact Hsafe|]. destruct p0; [|contradiction]. apply (H0 eq_refl). apply drum_front, Hsafe.
      - split; [exact Hsafe|]. apply (H0 eq_refl). apply drum_front, Hsafe.
      - split; [exact Hsafe|]. apply (H0 eq_refl). apply drum_front, Hsafe.
      - split; [exact Hsafe|]. apply (H0 eq_refl). apply drum_front, Hsafe.
      - intros _. exact Hrd.
      - split; [exact Hblk|]. destruct sg as [x|r| |evs span]; try contradiction; (split; [exact Hrd|]).
        + by apply (Hnum (Num x) _ _ eq_refl I eq_refl eq_refl eq_refl).
        + by apply (Hnum (NRef r) _ _ eq_refl Hs eq_refl eq_refl eq_refl).
        + by apply (Hnum (Num f0) _ _ eq_refl I eq_refl eq_refl eq_refl).
      - split; [exact Hrd|exact Humax].
      - destruct Hs as (Hi & Hl & Hr). by apply (H2 _ _ eq_refl Hl Hr Hi ord).
      - split; [exact Hblk|]. by apply (Hnum p0 _ _ eq_refl Hs eq_refl eq_refl eq_refl).
      - destruct p0; [|contradiction]. destruct (H0 eq_refl) as (Ha & Hb & Hc). split; [|by apply Hc].
        destruct i; [rewrite Ha by done; cbn; lia|rewrite Hb by lia; lia].
      - split; [done|]. by apply (H0 eq_refl).
      - split; [done|]. by apply (H0 eq_refl).
      - destruct (H0 eq_refl) as (Ha & Hb & Hc). destruct i as [|j]; [left; by apply Ha|right]. apply Hc; [reflexivity|]. apply Hb. lia.
    Qed.
    (** An arrangement of chains, none of them its own, finds every part. *)
    Theorem arranges_sturdy : arranges k c -> ready P st -> gsturdy P st ids.
    Proof.
      intros (evs & Hc & Hne & Hdots & Hk) Hrd. assert (Hnd : forall l, c <> CSeq l) by (by subst c). pose proof kin_shape as Hsh. pose proof apt_many as Hm. subst c. cbn [kind_of] in Hsh.
      destruct Hsh as (n & Hst & Htag & _). destruct n; try discriminate Htag. subst st. cbn [ready gsturdy sturdy] in *.
      specialize (Hm _ Hne Hnd Hdots Hk eq_refl). rewrite Forall_forall in Hm. intros q Hq.
      destruct (lookup_lt_is_Some_2 (ar_ord s) q) as [x Hx]; [lia|]. exists x. split; [exact Hx|]. apply Hm. by eapply elem_of_list_lookup_2.
    Qed.
  End one.
End net.

(** ** Channels *)
Section wide.
  Context (P : platform).
  Lemma two_out_tag (n n' : snode P) : tag P n' = tag P n -> two_out P n' = two_out P n.
  Proof. destruct n, n'; try discriminate; reflexivity. Qed.
  Lemma wide_msg st m st' : gmsg P st m = Ok st' -> wide P st' = wide P st.
  Proof.
    destruct st as [n|c]; cbn [gmsg]; unfold wrapm.
    - destruct (smsg P n m) as [n'|] eqn:E; [|done]. intros [= <-]. cbn [wide]. by apply two_out_tag, tag_msg with m.
    - destruct (compound_msg P c m); [|done]. by intros [= <-].
  Qed.
  Lemma wide_proc st ins b st' b' : gproc P st ins b = Ok (st', b') -> wide P st' = wide P st.
  Proof.
    destruct st as [n|c]; cbn [gproc]; intros (s' & H & ->)%wrap_inv; cbn [wide]; [|done]. by eapply two_out_tag, tag_proc.
  Qed.
  Definition roomy (n : nat) (st : gnode P) (b : list sig) : Prop := sound_node P n st b /\ (wide P st = true -> length b = 2).
  Lemma boxed_roomy n ch refs w refs' : two_out P n = false \/ ch = 2 -> boxed P n ch refs = Done (w, refs') -> wide P w.1 = true -> length w.2 = 2.
  Proof. unfold boxed. intros Hc H. injection H as <- _. cbn [fst snd wide]. intros Hw. destruct Hc as [Hc| ->]; [congruence|]. reflexivity. Qed.
  Lemma boxed_res_roomy r ch refs w refs' : (ch = 2 \/ forall n, r = Ok n -> two_out P n = false) -> boxed_res P r ch refs = Done (w, refs') -> wide P w.1 = true -> length w.2 = 2.
  Proof. intros Hr. unfold boxed_res. destruct r as [n|]; [|discriminate]. apply boxed_roomy. destruct Hr as [->|Hr]; [by right|left; by apply Hr]. Qed.
  Lemma boxed_comp_roomy r refs w refs' : boxed_comp P r 2 refs = Done (w, refs') -> length w.2 = 2.
  Proof. unfold boxed_comp. destruct r; [|discriminate]. intros H. injection H as <- _. reflexivity. Qed.
  Lemma make_roomy ev c w refs : makenode_ P ev c = Done (w, refs) -> wide P w.1 = true -> length w.2 = 2.
  Proof.
    destruct c; cbn [makenode_];
      repeat match goal with
      | |- boxed_comp _ _ _ _ = _ -> _ => intros H _; revert H; apply boxed_comp_roomy
      | |- boxed_res _ _ 2 _ = _ -> _ => apply boxed_res_roomy; by left
      | |- boxed_res _ _ _ _ = _ -> _ => apply boxed_res_roomy; right; intros n; rs
      | |- boxed _ _ _ _ = _ -> _ => apply boxed_roomy; first [by left|by right]
      | |- Crash = _ -> _ => discriminate
      | |- Fail _ = _ -> _ => discriminate
      | |- (match ?x with _ => _ end) = _ -> _ => destruct x
      | |- Ok _ = Ok _ -> _ => intros H; injection H as <-; reflexivity
      end; try discriminate.
  Qed.
  Theorem reachable_roomy get blk e : reachable (glang P get) blk e -> gall roomy (en_graph (glang P get) e).
  Proof.
    intros He. destruct (reachable_full P get blk e He) as [_ Hs].
    assert (Hw : en_dest (glang P get) e = 0 /\ gall (fun (_ : nat) (st : gnode P) (b : list sig) => wide P st = true -> length b = 2) (en_graph (glang P get) e)).
    { refine (reachable_all (glang P get) (fun (_ : nat) (st : gnode P) (b : list sig) => wide P st = true -> length b = 2) _ _ _ _ _ _ blk e He).
      - discriminate.
      - discriminate.
      - intros n ev c w refs _ Hm. exact (make_roomy ev c w refs Hm).
      - intros n st b m st' H Hm Hw. apply H. by rewrite <- (wide_msg _ _ _ Hm).
      - intros n st ins b st' b' H _ Hp Hw. pose proof (gproc_length _ _ _ _ _ _ Hp) as Hl. rewrite (wide_proc _ _ _ _ _ Hp) in Hw.
        etransitivity; [exact Hl|by apply H].
      - intros n st bs ch b s b' H _ _ Hw. rewrite insert_length. by apply H. }
    intros n w Hn. split; [by apply Hs|by apply (proj2 Hw n)].
  Qed.

  Lemma ready_proc st ins b st' b' : debug (p_cfg P) = false -> ready P st -> (gseq P st = true -> ins = []) -> gproc P st ins b = Ok (st', b') -> ready P st'.
  Proof.
    intros Hrel Hr Hs. destruct st as [n|c]; cbn [gproc]; intros (s' & H & ->)%wrap_inv; [|exact I].
    pose proof (tag_proc _ _ _ _ _ _ H) as Ht. destruct n; try (destruct s'; try discriminate Ht; exact I); cbn [ready] in Hr; cbn [sproc] in H; apply wrap_inv in H as (s1 & H & ->); cbn [ready].
    - by rewrite (imp_keeps _ _ _ _ _ _ H).
    - specialize (Hs eq_refl). subst ins. apply seq_alone_keeps in H. unfold seq_bar in *. by injection H as -> -> ->.
    - unfold ch_fine in *. apply choose_keeps in H. by injection H as -> ->.
    - apply arrange_keeps in H as [-> ->]. exact Hr.
    - apply points_keeps in H. unfold points_bar in *. by injection H as -> -> -> ->.
    - unfold ps_bar in *. by rewrite (psynth_keeps _ _ _ _ _ _ H).
    - apply sampler_keeps in H. by injection H as -> _.
    - exact (psampler_keeps P _ _ _ _ _ Hr H).
    - apply rlpf_pattern in H. unfold bq_shape in H. injection H as E1 E2 E3 E4. unfold bq_fine, lpf_bar in *. by rewrite E1, E2, E3, E4.
  Qed.

  (** The node of "~input" stays a pass with two channels. *)
  Section input.
    Context (get : string -> outcome (gmap string (list component))).
    Notation L := (glang P get).
    Definition input_pass (e : engine L) : Prop :=
      forall n, en_info L e !! input_name = Some [n] -> forall w, node_weight (en_graph L e) n = Some w -> w.1 = Simple NPass.
    Lemma evolves_pass (st st' : gnode P) : evolves L st st' -> st = Simple NPass -> st' = Simple NPass.
    Proof.
      induction 1 as [st|st m st1 st2 Hu Hm _ IH|st ins b st1 b1 st2 Hp _ IH]; intros E; [exact E|apply IH|apply IH]; subst st.
      - injection Hm as <-. reflexivity.
      - injection Hp as <- _. reflexivity.
    Qed.
    Theorem tamely_input_pass blk e : tamely L blk e -> input_pass e.
    Proof.
      induction 1 as [|e c e' ob Ht IH Htc Hs].
      - intros n Hn w Hw. vm_compute in Hn. injection Hn as <-. injection Hw as <-. reflexivity.
      - destruct (tamely_inv L (glang_ok P get) _ _ Ht) as (He & Hal & _).
        assert (Hfr : en_info L e' = en_info L e -> StateProofs.moved L (en_graph L e) (en_graph L e') -> input_pass e').
        { intros Hi Hm n Hn w Hw. rewrite Hi in Hn. destruct (Hm n w Hw) as (w0 & Hw0 & Hev). eapply evolves_pass; [exact Hev|]. by eapply IH. }
        pose proof (step_frame L _ _ _ _ _ Hs) as Hf. pose proof (step_moved L _ _ _ _ _ Hs) as Hm.
        destruct c as [o code|shs ins|c m|nm s|b|sr|sd|]; try (apply Hfr; [apply Hf|exact Hm]).
        + clear Hfr Hf Hm. simpl in Hs, Htc. unfold update in Hs. cbn [parse glang] in Hs, Htc. destruct (get code) as [new|er|]; [| |done].
          * destruct Htc as [Hpo Htame]. destruct (update_ast L o e new) as [[e1 [er|]]|] eqn:E; [| |done]; injection Hs as <- <-.
            -- apply update_ast_fail in E; [|done]. destruct E as [E1 _ _ _ _ E6 _ _ _ _ _ _]. intros n Hn w Hw. rewrite E6 in Hn. rewrite E1 in Hw. by eapply IH.
            -- pose proof (tame_update_result L (glang_ok P get) _ _ _ _ He Hal Hpo Htame E) as R. intros n Hn w Hw.
               pose proof (re_gone _ _ _ _ _ R input_name (proj1 Hpo)) as Hg. rewrite decide_True in Hg by done. rewrite Hg in Hn.
               rewrite (re_input_chain _ _ _ _ _ R n Hn) in Hw. by eapply IH.
          * injection Hs as <- <-. exact IH.
        + simpl in Hs. injection Hs as <- <-. intros n Hn. vm_compute in Hn. discriminate Hn.
    Qed.
  End input.
End wide.

(** * Props_Compound: the drums and synths are their inner chains (C47). *)
From Verif Require Export Props_Env.
From Verif Require Import Props_Range Props_Filter Props_Signal.
From Coq Require Import Lia.
Local Open Scope nat_scope.

(** ** Composition of sample loops *)
Section machines.
  Context {S T A B C D : Type}.
  Lemma scan_map (f : S -> B -> S * C) (h : A -> B) s xs : scan (fun s x => f s (h x)) s xs = scan f s (map h xs).
  Proof. revert s. induction xs as [|x xs IH]; intros s; cbn [scan map]; [reflexivity|]. destruct (f s (h x)). by rewrite IH. Qed.
  Lemma scan_post (f : S -> A -> S * B) (h : B -> C) s xs :
    scan (fun s x => let '(s', y) := f s x in (s', h y)) s xs = ((scan f s xs).1, map h (scan f s xs).2).
  Proof.
    revert s. induction xs as [|x xs IH]; intros s; cbn [scan map]; [reflexivity|]. destruct (f s x) as [s1 y]. rewrite IH.
    by destruct (scan f s1 xs).
  Qed.
  Lemma scan_both (f : S -> A -> S * B) (g : T -> A -> T * C) (op : B -> C -> D) s t xs :
    scan (fun st x => let '(s', b) := f st.1 x in let '(t', c) := g st.2 x in ((s', t'), op b c)) (s, t) xs =
      (((scan f s xs).1, (scan g t xs).1), zip_with op (scan f s xs).2 (scan g t xs).2).
  Proof.
    revert s t. induction xs as [|x xs IH]; intros s t; cbn [scan fst snd]; [reflexivity|].
    destruct (f s x) as [s1 b]. destruct (g t x) as [t1 c]. rewrite IH. destruct (scan f s1 xs). by destruct (scan g t1 xs).
  Qed.
  Lemma scan_after (f : S -> A -> S * B) (g : T -> B -> T * C) s t xs :
    scan (fun st x => let '(s', b) := f st.1 x in let '(t', c) := g st.2 b in ((s', t'), c)) (s, t) xs =
      (((scan f s xs).1, (scan g t (scan f s xs).2).1), (scan g t (scan f s xs).2).2).
  Proof.
    revert s t. induction xs as [|x xs IH]; intros s t; cbn [scan fst snd]; [reflexivity|].
    destruct (f s x) as [s1 b]. destruct (g t b) as [t1 c] eqn:E. rewrite IH. destruct (scan f s1 xs). cbn [fst snd scan]. rewrite E.
    by destruct (scan g t1 l).
  Qed.
  Lemma scan_units (f : S -> unit -> S * B) s (xs : list A) : scan f s (replicate (length xs) tt) = scan (fun s _ => f s tt) s xs.
  Proof. revert s. induction xs as [|x xs IH]; intros s; cbn [scan length replicate]; [reflexivity|]. destruct (f s tt). by rewrite IH. Qed.
End machines.

(** A node that keeps the relation [R] to the state of a loop plays what the loop produces, on both channels. *)
Lemma play_loop (P : platform) {T} (R : T -> gnode P -> Prop) (f : T -> f32 -> T * f32) src :
  (forall s nd x r out, R s nd -> length x = p_blk P -> length out = 2 ->
     exists nd', gproc P nd [(src, x :: r)] out = Ok (nd', [(scan f s x).2; (scan f s x).2]) /\ R (scan f s x).1 nd') ->
  forall (bs : list (sig * list sig)) s nd out, R s nd -> length out = 2 -> Forall (fun b => length b.1 = p_blk P) bs ->
  exists nd' outs, play P nd out (map (fun b => [(src, b.1 :: b.2)]) bs) = Ok (nd', outs) /\
    R (scan f s (List.concat (map fst bs))).1 nd' /\
    lane 0 outs = (scan f s (List.concat (map fst bs))).2 /\ lane 1 outs = (scan f s (List.concat (map fst bs))).2.
Proof.
  intros Hstep bs. induction bs as [|[x r] bs IH]; intros s nd out Hr Ho Hl; cbn [map List.concat fst snd].
  - exists nd, []. done.
  - inversion Hl as [|? ? Hx Hl']; subst. cbn [fst] in Hx. destruct (Hstep s nd x r out Hr Hx Ho) as (nd1 & E & Hr1).
    destruct (IH (scan f s x).1 nd1 [(scan f s x).2; (scan f s x).2] Hr1 eq_refl Hl') as (nd2 & outs & Hp & Hr2 & H0 & H1).
    exists nd2, ([(scan f s x).2; (scan f s x).2] :: outs). rewrite (play_cons _ _ _ _ _ _ _ E), Hp. rewrite !lane_cons, H0, H1. rewrite scan_app.
    destruct (scan f s x) as [s1 y]. cbn [fst snd] in *. destruct (scan f s1 _) as [s2 z]. done.
Qed.

(** ** One block of an inner graph *)
Lemma shuf_one (sh : shuffle) {A} (x : A) : sh A [x] = [x].
Proof. apply Permutation_singleton_r. apply (shuf_perm sh). Qed.
Lemma shuf_nil (sh : shuffle) {A} : sh A [] = [].
Proof. apply Permutation_nil_r. apply (shuf_perm sh). Qed.
Lemma shuf_two (sh : shuffle) {A} (x y : A) : sh A [x; y] = [x; y] \/ sh A [x; y] = [y; x].
Proof.
  pose proof (shuf_perm sh A [x; y]) as H. symmetry in H. by apply Permutation_length_2_inv in H.
Qed.
Section inner.
  Context (P : platform).
  Notation W := (snode P * list sig)%type.
  Lemma process_step (sh : shuffle) (ws : list (option W)) fr es n ins w w' :
    inputs_of (SGraph ws fr es) n = Ok ins -> ws !! n = Some (Some w) -> sproc P w.1 (shuf sh ins) w.2 = Ok w' ->
    process_node (sproc P) sh (SGraph ws fr es) n = Ok (SGraph (<[n := Some w']> ws) fr es).
  Proof.
    intros H1 H2 H3. unfold process_node. rewrite H1. cbn [mbind res_bind]. unfold node_weight. cbn [slots]. rewrite H2. cbn [mbind option_bind id unwrap].
    cbn [res_bind]. rewrite H3. cbn [res_bind]. unfold set_weight, node_weight. cbn [slots]. rewrite H2. done.
  Qed.
  (** An input goes through a [mul] or [add] with a number, or with a second input. *)
  Lemma op_one op v o u x out sh : length out = 1 \/ length out = 2 ->
    op_proc op (Opn v o) (shuf sh [(u, [x])]) out = Ok (Opn v o, map (fun _ => map (fun a => op a v) x) out).
  Proof. rewrite shuf_one. intros [Ho|Ho]; destruct out as [|a [|b [|]]]; try discriminate Ho; done. Qed.
  Lemma op_one2 op v o u x out sh : length out = 1 \/ length out = 2 ->
    op_proc op (Opn v o) (shuf sh [(u, [x; x])]) out = Ok (Opn v o, map (fun _ => map (fun a => op a v) x) out).
  Proof. rewrite shuf_one. intros [Ho|Ho]; destruct out as [|a [|b [|]]]; try discriminate Ho; done. Qed.
  Lemma same_two {A} (l : list A) (x : A) : l = [x] \/ l = [x; x] -> l !! 0 = Some x /\ default x (l !! 1) = x.
  Proof. by intros [-> | ->]. Qed.
  Lemma op_two op v u1 u2 (b1 b2 : list sig) x y out sh ins : u1 <> u2 -> (ins = [(u1, b1); (u2, b2)] \/ ins = [(u2, b2); (u1, b1)]) ->
    (b1 = [x] \/ b1 = [x; x]) -> (b2 = [y] \/ b2 = [y; y]) -> length out = 1 \/ length out = 2 ->
    op_proc op (Opn v [u1; u2]) (shuf sh ins) out = Ok (Opn v [u1; u2], map (fun _ => zip_with op x y) out).
  Proof.
    intros Hne Hins Hb1 Hb2 Ho.
    assert (Hi : shuf sh ins = [(u1, b1); (u2, b2)] \/ shuf sh ins = [(u2, b2); (u1, b1)]).
    { destruct Hins as [-> | ->]; destruct (shuf_two sh (u1, b1) (u2, b2)) as [E|E]; destruct (shuf_two sh (u2, b2) (u1, b1)) as [E'|E']; auto. }
    destruct (same_two b1 x Hb1) as [X0 X1]. destruct (same_two b2 y Hb2) as [Y0 Y1].
    assert (N1 : (u2 =? u1) = false) by (apply Nat.eqb_neq; congruence). assert (N2 : (u1 =? u2) = false) by (by apply Nat.eqb_neq).
    unfold op_proc, apply_op. destruct out as [|o1 out]; [destruct Ho; discriminate|].
    destruct Hi as [-> | ->]; unfold in_ord; cbn [lookup list_lookup op_ord in_id fst snd]; rewrite ?Nat.eqb_refl, ?N1, ?N2; cbn [mbind res_bind];
      unfold chan; rewrite X0, Y0; cbn [unwrap mbind res_bind]; rewrite X1, Y1; destruct out as [|o2 [|]]; (reflexivity || (destruct Ho; discriminate)).
  Qed.
  (** The destination passes on one input; adding it to silence makes -0 into 0. *)
  Definition summed (x : f32) : f32 := fadd f0 x.
  Lemma add_silent x : length x = p_blk P -> add_sig (silent P) x = map summed x.
  Proof.
    intros Hx. unfold silent, add_sig. rewrite <- Hx. clear. induction x as [|a x IH]; [reflexivity|]. cbn [length replicate zip_with map]. by rewrite IH.
  Qed.
  Lemma sum2_one u (b : list sig) x o1 o2 sh : (b = [x] \/ b = [x; x]) -> length x = p_blk P ->
    sproc P NSum2 (shuf sh [(u, b)]) [o1; o2] = Ok (NSum2, [map summed x; map summed x]).
  Proof.
    intros Hb Hx. rewrite shuf_one. cbn [sproc]. unfold sum2_proc. cbn [length seq mapR]. unfold sum2_chan. cbn [foldM snd].
    destruct Hb as [-> | ->]; unfold chan; cbn [lookup list_lookup unwrap mbind res_bind mret res_ret]; rewrite !(add_silent x Hx); reflexivity.
  Qed.
End inner.

Section blocks.
  Context (P : platform).
  Lemma env_block a d e x out u : ep_ord e = [u] -> secs P (ep_sr e) (ep_att e) = a -> secs P (ep_sr e) (ep_dec e) = d ->
    (a + d <= umax (p_cfg P))%Z ->
    envperc_proc P e [(u, [x])] [out] = Ok ((scan (envperc_step a d (a + d)) e x).1, [(scan (envperc_step a d (a + d)) e x).2]).
  Proof.
    intros He Ha Hd Hu. unfold envperc_proc. rewrite Ha, Hd. unfold uadd. rewrite (proj2 (Z.leb_le _ _) Hu). cbn [mbind res_bind].
    unfold in_ord. rewrite He. cbn [lookup list_lookup in_id fst snd]. rewrite Nat.eqb_refl. cbn [mbind res_bind]. unfold chan.
    cbn [lookup list_lookup unwrap mbind res_bind]. by destruct (scan _ e x).
  Qed.
  Lemma osc_block w s x r out u : os_ord s = [u] ->
    osc_proc P w s [(u, x :: r)] [out] = Ok ((scan (osc_mod_step P w) s x).1, [(scan (osc_mod_step P w) s x).2]).
  Proof.
    intros Hs. unfold osc_proc. rewrite Hs. unfold in_ord. cbn [lookup list_lookup in_id fst snd]. rewrite Nat.eqb_refl. cbn [mbind res_bind]. unfold chan.
    cbn [lookup list_lookup unwrap mbind res_bind]. destruct (scan _ s x). by destruct w.
  Qed.
  Notation W := (snode P * list sig)%type.
  Lemma run_block (ws ws' : list (option W)) es src o k x r out n2 n0 p y : (forall w1 d1 w2 d2, k <> KPlate w1 d1 w2 d2) ->
    ws !! 2 = Some (Some (n2, [p])) -> length out = 2 ->
    process (sproc P) (p_inner P) (SGraph (<[2 := Some (n2, [x])]> ws) [] es) 0 = Ok (SGraph ws' [] es) -> ws' !! 0 = Some (Some (n0, [y; y])) ->
    gproc P (Comp (Compound P (SGraph ws [] es) (src :: o) k)) [(src, x :: r)] out = Ok (Comp (Compound P (SGraph ws' [] es) (src :: o) k), [y; y]).
  Proof.
    intros Hk H2 Ho Hp H0. destruct out as [|o1 [|o2 [|]]]; try discriminate Ho. cbn [gproc].
    assert (Hr : run_inner P (Compound P (SGraph ws [] es) (src :: o) k) [(src, x :: r)] [o1; o2] = Ok (Compound P (SGraph ws' [] es) (src :: o) k, [y; y])).
    { assert (Hw : node_weight (SGraph ws [] es) 2 = Some (n2, [p])) by (unfold node_weight; cbn [slots]; by rewrite H2).
      assert (Hw' : node_weight (SGraph ws' [] es) 0 = Some (n0, [y; y])) by (unfold node_weight; cbn [slots]; by rewrite H0).
      assert (Hs : set_weight (SGraph ws [] es) 2 (n2, [x]) = Ok (SGraph (<[2 := Some (n2, [x])]> ws) [] es)) by (unfold set_weight; by rewrite Hw).
      unfold run_inner. cbn [cp_ord cp_graph cp_kind]. rewrite Hw. unfold in_ord. cbn [lookup list_lookup in_id fst snd].
      rewrite Nat.eqb_refl. cbn [mbind res_bind unwrap fst snd put0]. change (chan (x :: r) 0) with (Ok x). cbn [mbind res_bind].
      rewrite Hs. cbn [mbind res_bind]. rewrite Hp. cbn [mbind res_bind]. rewrite Hw'. reflexivity. }
    unfold compound_proc. cbn [cp_kind]. destruct k; [rewrite Hr; reflexivity..|]. exfalso; by eapply Hk.
  Qed.
  Lemma fold_step {A B} (f : A -> B -> res A) g g' h n l : f g n = Ok g' -> foldM f g' l = Ok h -> foldM f g (n :: l) = Ok h.
  Proof. intros H1 H2. cbn [foldM]. rewrite H1. exact H2. Qed.
End blocks.
Ltac next_node ins t := eapply fold_step; [eapply (process_step _ _ _ _ _ _ ins); [reflexivity|reflexivity|cbn [fst snd map]; t]|cbn [insert list_insert map fst snd]].

(** ** What the inner nodes keep and play *)
Lemma scan_keep {T A B} (I : T -> Prop) (f : T -> A -> T * B) s xs : (forall s x, I s -> I (f s x).1) -> I s -> I (scan f s xs).1.
Proof.
  intros Hf. revert s. induction xs as [|x xs IH]; intros s Hs; [done|]. rewrite scan_cons. cbn [fst]. apply IH, Hf, Hs.
Qed.
Definition env_is (att dec : f32) (u : nat) (e : envperc) : Prop := ep_att e = att /\ ep_dec e = dec /\ ep_sr e = 44100%Z /\ ep_ord e = [u].
Lemma env_keep att dec u a d e x : env_is att dec u e -> env_is att dec u (scan (envperc_step a d (a + d)) e x).1.
Proof. apply scan_keep. intros s y H. exact H. Qed.
Lemma osc_keep P w u s x : os_ord s = [u] -> os_ord (scan (osc_mod_step P w) s x).1 = [u].
Proof. apply (scan_keep (fun s => os_ord s = [u])). intros s0 y H. by destruct w. Qed.
Lemma env_plays (P : platform) a d e att dec u x : e = EnvPerc att dec 0 f1 44100 [u] ->
  (scan (envperc_step a d (a + d)) e x).2 = map (perc_at a d x) (seq 0 (length x)).
Proof.
  intros ->. apply list_eq. intros t. rewrite list_lookup_fmap. destruct (x !! t) as [xt|] eqn:E.
  - etransitivity; [exact (perc_scan a d 44100 [u] x att dec t xt E)|]. by rewrite lookup_seq_lt by (by apply lookup_lt_Some in E).
  - apply lookup_ge_None in E. rewrite !lookup_ge_None_2; [done|by rewrite seq_length|by rewrite scan_length].
Qed.
Lemma osc_plays (P : platform) w v sr o x :
  (scan (osc_mod_step P w) (Osc v f0 sr f0 o) x).2 = map (fun t => shape P w (phase_at sr (freq_at w x) t)) (seq 0 (length x)).
Proof.
  set (s0 := Osc v f0 sr f0 o). set (f := osc_mod_step P w).
  assert (Hst : forall t, t <= length x -> let s := state_at f s0 (take t x) in
      os_sr s = sr /\ os_phase s = phase_at sr (freq_at w x) t /\
      (w ≠ WSin -> os_inc s = match t with 0 => f0 | S t' => last_nonzero x t' end)).
  { intros t. induction t as [|t IH]; intros Ht; cbv zeta; [by rewrite take_0|].
    destruct (lookup_lt_is_Some_2 x t ltac:(lia)) as [xt Hxt].
    rewrite (take_S_r _ _ _ Hxt), state_at_snoc. specialize (IH ltac:(lia)). cbv zeta in IH.
    revert IH. generalize (state_at f s0 (take t x)) as s. intros s (H1 & H2 & H3).
    assert (Hn : w ≠ WSin -> (if feqb xt f0 then os_inc s else xt) = last_nonzero x t).
    { intros Hw. rewrite (H3 Hw). destruct t; cbn [last_nonzero]; rewrite Hxt; cbn [from_option]; unfold Datatypes.id; by destruct (feqb xt f0). }
    assert (Hx : default f0 (x !! t) = xt) by (by rewrite Hxt).
    destruct w; unfold f, osc_mod_step, osc_step, osc_set_phase; cbn [fst os_sr os_phase os_inc phase_at freq_at];
      rewrite H1, H2; rewrite ?Hx, ?(Hn ltac:(done)); (split; [done|]); (split; [by unfold moved, advance|]); done. }
  apply list_eq. intros t. rewrite list_lookup_fmap. destruct (x !! t) as [xt|] eqn:Hxt.
  - assert (Ht : t < length x) by (by apply lookup_lt_Some in Hxt). rewrite lookup_seq_lt by done. rewrite (scan_lookup f s0 x t xt Hxt). cbn [fmap option_fmap option_map].
    f_equal. specialize (Hst t ltac:(lia)). cbv zeta in Hst. revert Hst. generalize (state_at f s0 (take t x)) as s. intros s (_ & H2 & _).
    cbn [Nat.add]. rewrite <- H2. by destruct w.
  - apply lookup_ge_None in Hxt. rewrite !lookup_ge_None_2; [done|by rewrite seq_length|by rewrite scan_length].
Qed.

(** The drums and synths ignore [ResetOrder]: the sources they were told about pile up. *)
Definition told (ms : list msg) (o : list nat) : Prop := Forall conn_msg ms /\ foldM ord_msg_keep [] ms = Ok o.
Lemma comp_created (P : platform) ev c g k refs ms o nd out : (forall w1 d1 w2 d2, k <> KPlate w1 d1 w2 d2) ->
  makenode_ P ev c = boxed_comp P (Ok (Compound P g [] k)) 2 refs -> told ms o -> created P ev c ms nd out ->
  nd = Comp (Compound P g o k) /\ length out = 2.
Proof.
  intros Hk Hm [Hms Ho] (n0 & refs0 & Hc & Hf). rewrite Hm in Hc. unfold boxed_comp, boxed in Hc. injection Hc as Hn Hout _.
  subst n0 out. split; [|reflexivity]. revert Ho Hf. generalize (@nil nat) as o0. induction Hms as [|m ms Hm1 Hms IH]; intros o0 Ho Hf.
  - cbn in Ho, Hf. injection Ho as ->. by injection Hf as <-.
  - cbn [foldM] in Ho, Hf. destruct (ord_msg_keep o0 m) as [o1|] eqn:E; [|done]. cbn [mbind res_bind] in Ho.
    apply (IH o1 Ho). rewrite <- Hf. cbn [gmsg]. unfold compound_msg. cbn [cp_kind cp_ord cp_graph].
    destruct k; [| |exfalso; by eapply Hk]; destruct m; try (exfalso; exact Hm1); rewrite E; reflexivity.
Qed.
Lemma seq_map2 (f : f32 -> f32 -> f32) (g h : nat -> f32) l : zip_with f (map g l) (map h l) = map (fun t => f (g t) (h t)) l.
Proof. induction l as [|t l IH]; [done|]. cbn [map zip_with]. by rewrite IH. Qed.

(** ** The synths *)
Section synth.
  Context (P : platform) (w : wave) (att dec : f32).
  Notation W := (snode P * list sig)%type.
  Notation a := (samples_of P 44100 att).
  Notation d := (samples_of P 44100 dec).
  Definition middle_c : f32 := f_of_dec false 26163 (-2).
  Definition synth_slots (e : envperc) (s : osc) (b : list (list sig)) : list (option W) :=
    match b with
    | [b0; b1; b2; b3; b4; b5; b6] => map Some [(NSum2, b0); (NPass, b1); (NPass, b2); (NOsc w s, b3); (NMul (Opn f0 [3; 5]), b4);
        (NEnvPerc e, b5); (NMul (Opn middle_c [2]), b6)]
    | _ => []
    end.
  Definition synth_edges : list (nat * nat) := [(6, 3); (2, 6); (5, 4); (2, 5); (4, 0); (3, 4)].
  Definition synth_node (o : list nat) (st : envperc * osc) (nd : gnode P) : Prop :=
    exists d0 d1 i0 i1 p sb m0 m1 eb q0 q1,
      nd = Comp (Compound P (SGraph (synth_slots st.1 st.2 [[d0; d1]; [i0; i1]; [p]; [sb]; [m0; m1]; [eb]; [q0; q1]]) [] synth_edges) o (KSynth 5)) /\
      env_is att dec 2 st.1 /\ os_ord st.2 = [6].
  Definition synth_loop : envperc * osc -> f32 -> envperc * osc * f32 := fun st x =>
    let '(e', y) := envperc_step a d (a + d) st.1 x in let '(s', z) := osc_mod_step P w st.2 (fmul x middle_c) in ((e', s'), summed (fmul z y)).
  Notation env_run e x := (scan (envperc_step a d (a + d)) e x).
  Notation osc_run s x := (scan (osc_mod_step P w) s (map (fun v => fmul v middle_c) x)).
  Lemma synth_scan e s x : scan synth_loop (e, s) x = (((env_run e x).1, (osc_run s x).1), map summed (zip_with fmul (osc_run s x).2 (env_run e x).2)).
  Proof.
    revert e s. induction x as [|v x IH]; intros e s; [done|]. cbn [map]. rewrite !scan_cons.
    assert (E : synth_loop (e, s) v = (((envperc_step a d (a + d) e v).1, (osc_mod_step P w s (fmul v middle_c)).1), summed (fmul (osc_mod_step P w s (fmul v middle_c)).2 (envperc_step a d (a + d) e v).2))).
    { unfold synth_loop. cbn [fst snd]. destruct (envperc_step _ _ _ e v). by destruct (osc_mod_step _ _ _ _). }
    rewrite E. cbn [fst snd]. rewrite IH. reflexivity.
  Qed.
  Lemma synth_block src o st nd x r out : (a + d <= umax (p_cfg P))%Z -> synth_node (src :: o) st nd -> length x = p_blk P -> length out = 2 ->
    exists nd', gproc P nd [(src, x :: r)] out = Ok (nd', [(scan synth_loop st x).2; (scan synth_loop st x).2]) /\
      synth_node (src :: o) (scan synth_loop st x).1 nd'.
  Proof.
    intros Hu (d0 & d1 & i0 & i1 & p & sb & m0 & m1 & eb & q0 & q1 & -> & He & Hs) Hx Ho. destruct st as [e s]. cbn [fst snd] in *.
    rewrite synth_scan. cbn [fst snd].
    pose proof (env_keep att dec 2 a d e x He) as He'. pose proof (osc_keep P w 6 s (map (fun v => fmul v middle_c) x) Hs) as Hs'.
    destruct He as (E1 & E2 & E3 & E4).
    assert (Ha : secs P (ep_sr e) (ep_att e) = a) by (by rewrite E1, E3). assert (Hd : secs P (ep_sr e) (ep_dec e) = d) by (by rewrite E2, E3).
    set (ys := zip_with fmul (osc_run s x).2 (env_run e x).2).
    assert (Hys : length ys = p_blk P) by (unfold ys; rewrite zip_with_length, !scan_length, map_length; lia).
    eexists. split.
    - eapply (run_block P _ (synth_slots (env_run e x).1 (osc_run s x).1 [_; _; _; _; _; _; _])); [discriminate|reflexivity|done| |reflexivity].
      cbn [insert list_insert synth_slots map]. unfold process.
      assert (Hdfs : forall ws : list (option W), dfs_order (SGraph ws [] synth_edges) 0 = Some [2; 6; 3; 5; 4; 0]) by reflexivity.
      rewrite Hdfs.
      next_node (@nil (nat * list sig)) ltac:(rewrite shuf_nil; reflexivity).
      next_node [(2, [x])] ltac:(cbn [sproc]; rewrite op_one by (by right); reflexivity).
      next_node [(6, [map (fun v => fmul v middle_c) x; map (fun v => fmul v middle_c) x])] ltac:(rewrite shuf_one; cbn [sproc]; rewrite osc_block by done; reflexivity).
      next_node [(2, [x])] ltac:(rewrite shuf_one; cbn [sproc]; rewrite (env_block P a d) by done; reflexivity).
      next_node [(5, [(env_run e x).2]); (3, [(osc_run s x).2])] ltac:(cbn [sproc];
        rewrite (op_two fmul f0 3 5 [(osc_run s x).2] [(env_run e x).2] (osc_run s x).2 (env_run e x).2) by (done || auto); reflexivity).
      next_node [(4, [ys; ys])] ltac:(apply sum2_one; [by right|exact Hys]).
      reflexivity.
    - do 11 eexists. split; [reflexivity|]. done.
  Qed.
End synth.

Definition synth_comp (w : wave) (att dec : f32) : option component :=
  match w with WSaw => Some (CSawSynth att dec) | WSqu => Some (CSquSynth att dec) | WTri => Some (CTriSynth att dec) | WSin => None end.
(** C47 for [sawsynth], [squsynth] and [trisynth]: an oscillator at 261.63 Hz times the input, multiplied
    by an [envperc] triggered by the input, on both channels; always at 44100 samples a second. *)
Theorem C47_synth (P : platform) ev w att dec c ms src o nd out (bs : list (sig * list sig)) :
  synth_comp w att dec = Some c -> told ms (src :: o) -> created P ev c ms nd out ->
  Forall (fun b => length b.1 = p_blk P) bs ->
  let a := samples_of P 44100 att in let d := samples_of P 44100 dec in (a + d <= umax (p_cfg P))%Z ->
  let x := List.concat (map fst bs) in
  exists nd' outs, play P nd out (map (fun b => [(src, b.1 :: b.2)]) bs) = Ok (nd', outs) /\
    lane 0 outs = lane 1 outs /\
    lane 0 outs = map (fun t => fadd f0 (fmul (shape P w (phase_at 44100 (freq_at w (map (fun v => fmul v middle_c) x)) t)) (perc_at a d x t)))
                      (seq 0 (length x)).
Proof.
  intros Hw Hms Hc Hbs a d Hu x.
  assert (Hm : exists refs, makenode_ P ev c = boxed_comp P (synth_new P w att dec) 2 refs).
  { destruct w; [discriminate Hw|injection Hw as <-..]; by eexists. }
  destruct Hm as [refs Hm].
  set (e0 := EnvPerc att dec 0 f1 44100 [2]). set (s0 := Osc f1 f0 44100 f0 [6]).
  set (g0 := SGraph (synth_slots P w e0 s0 [[silent P; silent P]; [silent P; silent P]; [silent P]; [silent P]; [silent P; silent P]; [silent P]; [silent P; silent P]]) [] synth_edges).
  assert (Hn : synth_new P w att dec = Ok (Compound P g0 [] (KSynth 5))) by reflexivity.
  rewrite Hn in Hm.
  assert (Hnode : synth_node P w att dec (src :: o) (e0, s0) (Comp (Compound P g0 (src :: o) (KSynth 5)))).
  { do 11 eexists. split; [reflexivity|]. split; [split; [reflexivity|]; split; [reflexivity|]; split; reflexivity|reflexivity]. }
  clearbody g0. clear Hn.
  assert (Hk : forall w1 d1 w2 d2, KSynth 5 <> KPlate w1 d1 w2 d2) by (intros; discriminate).
  destruct (comp_created P ev c g0 (KSynth 5) refs ms (src :: o) nd out Hk Hm Hms Hc) as [-> Hout].
  destruct (play_loop P (synth_node P w att dec (src :: o)) (synth_loop P w att dec) src (fun s nd x r out H1 H2 H3 => synth_block P w att dec src o s nd x r out Hu H1 H2 H3)
    bs (e0, s0) _ out Hnode Hout Hbs)
    as (nd' & outs & Hp & _ & H0 & H1).
  exists nd', outs. split; [exact Hp|]. split; [etransitivity; [exact H0|by symmetry]|]. rewrite H0, synth_scan. cbn [snd]. fold x.
    unfold s0. rewrite osc_plays, map_length, (env_plays P a d e0 att dec 2) by reflexivity. rewrite seq_map2, map_map. reflexivity.
Qed.

(** ** The bass drum *)
Lemma phase_at_ext sr fr fr' t : (forall u, u < t -> fr u = fr' u) -> phase_at sr fr t = phase_at sr fr' t.
Proof. induction t as [|t IH]; intros H; [done|]. cbn [phase_at]. rewrite (H t) by lia. rewrite IH; [done|]. intros u Hu. apply H. lia. Qed.
Lemma sin_of (P : platform) v o (g : nat -> f32) n :
  (scan (osc_mod_step P WSin) (Osc v f0 44100 f0 o) (map g (seq 0 n))).2 = map (fun t => shape P WSin (phase_at 44100 g t)) (seq 0 n).
Proof.
  rewrite osc_plays, map_length, seq_length. apply map_ext_in. intros t Ht. f_equal. apply phase_at_ext. intros u Hu. cbn [freq_at].
  apply in_seq in Ht. by rewrite list_lookup_fmap, lookup_seq_lt by lia.
Qed.
Lemma env_usize (P : platform) n m : (n + m <= umax (p_cfg P))%Z -> (0 <= n)%Z -> (0 <= m)%Z -> (Z.max 0 (Z.min (umax (p_cfg P)) n) = n)%Z.
Proof. lia. Qed.
Definition num (m : N) (e : Z) : f32 := f_of_dec false m e.
Lemma samples_lit (P : platform) v n : (65536 <= umax (p_cfg P))%Z -> (n <= 65536)%Z ->
  as_usize (Cfg false 65536) (fmul v (f_of_Z 44100)) = n -> (0 <= n < 65536)%Z -> samples_of P 44100 v = n.
Proof.
  intros Hu Hn Hv H0. unfold samples_of. revert Hv. unfold as_usize. cbn [umax]. destruct (fmul v (f_of_Z 44100)) as [b|b| |b m e]; [lia|destruct b; lia|lia|].
  lia.
Qed.
Lemma lit_samples (P : platform) : (65536 <= umax (p_cfg P))%Z ->
  samples_of P 44100 (num 1 (-3)) = 44%Z /\ samples_of P 44100 (num 3 (-3)) = 132%Z /\ samples_of P 44100 (num 1 (-2)) = 441%Z /\ samples_of P 44100 (num 1 (-1)) = 4410%Z.
Proof. intros Hu. split_and!; (apply samples_lit; [exact Hu|lia|vm_compute; reflexivity|lia]). Qed.

Section bd.
  Context (P : platform) (decay : f32) (Hu16 : (65536 <= umax (p_cfg P))%Z).
  Notation W := (snode P * list sig)%type.
  Notation d := (samples_of P 44100 decay).
  Context (Hu : (132 + d <= umax (p_cfg P))%Z).
  Definition bd_slots (e f : envperc) (s : osc) (b : list (list sig)) : list (option W) :=
    match b with
    | [b0; b1; b2; b3; b4; b5; b6; b7; b8] => map Some [(NSum2, b0); (NPass, b1); (NPass, b2); (NEnvPerc e, b3); (NEnvPerc f, b4);
        (NMul (Opn (num 50 0) [4]), b5); (NAdd (Opn (num 60 0) [5]), b6); (NOsc WSin s, b7); (NMul (Opn f0 [7; 3]), b8)]
    | _ => []
    end.
  Definition bd_edges : list (nat * nat) := [(6, 7); (5, 6); (4, 5); (2, 4); (3, 8); (2, 3); (8, 0); (7, 8)].
  Definition bd_node (o : list nat) (st : envperc * envperc * osc) (nd : gnode P) : Prop :=
    exists d0 d1 i0 i1 p eb fb m0 m1 q0 q1 sb y,
      nd = Comp (Compound P (SGraph (bd_slots st.1.1 st.1.2 st.2 [[d0; d1]; [i0; i1]; [p]; [eb]; [fb]; [m0; m1]; [q0; q1]; [sb]; [y]]) [] bd_edges) o (KDrum 3)) /\
      env_is (num 3 (-3)) decay 2 st.1.1 /\ env_is (num 1 (-2)) (num 1 (-1)) 2 st.1.2 /\ os_ord st.2 = [6].
  Definition bd_pitch (v : f32) : f32 := fadd (fmul v (num 50 0)) (num 60 0).
  Definition bd_loop (st : envperc * envperc * osc) (x : f32) : envperc * envperc * osc * f32 :=
    let amp := envperc_step 132 d (132 + d) st.1.1 x in let pit := envperc_step 441 4410 (441 + 4410) st.1.2 x in
    let snd := osc_mod_step P WSin st.2 (bd_pitch pit.2) in ((amp.1, pit.1, snd.1), summed (fmul snd.2 amp.2)).
  Notation amp_run e x := (scan (envperc_step 132 d (132 + d)) e x).
  Notation pit_run e x := (scan (envperc_step 441 4410 (441 + 4410)) e x).
  Notation sin_run f s x := (scan (osc_mod_step P WSin) s (map bd_pitch (pit_run f x).2)).
  Lemma bd_scan e f s x : scan bd_loop (e, f, s) x =
    (((amp_run e x).1, (pit_run f x).1, (sin_run f s x).1), map summed (zip_with fmul (sin_run f s x).2 (amp_run e x).2)).
  Proof.
    revert e f s. induction x as [|v x IH]; intros e f s; [reflexivity|]. rewrite !scan_cons. cbn [fst snd map]. rewrite scan_cons.
    set (s1 := (osc_mod_step P WSin s (bd_pitch (envperc_step 441 4410 (441 + 4410) f v).2)).1).
    assert (E : (bd_loop (e, f, s) v).1 = ((envperc_step 132 d (132 + d) e v).1, (envperc_step 441 4410 (441 + 4410) f v).1, s1)) by reflexivity.
    rewrite E, IH. cbn [fst snd zip_with map]. reflexivity.
  Qed.
  Lemma bd_block src o st nd x r out : bd_node (src :: o) st nd -> length x = p_blk P -> length out = 2 ->
    exists nd', gproc P nd [(src, x :: r)] out = Ok (nd', [(scan bd_loop st x).2; (scan bd_loop st x).2]) /\
      bd_node (src :: o) (scan bd_loop st x).1 nd'.
  Proof.
    intros (d0 & d1 & i0 & i1 & p & eb & fb & m0 & m1 & q0 & q1 & sb & y & -> & He & Hf & Hs) Hx Ho. destruct st as [[e f] s]. cbn [fst snd] in *.
    rewrite bd_scan. cbn [fst snd]. destruct (lit_samples P Hu16) as (_ & L1 & L2 & L3).
    pose proof (env_keep _ _ 2 132 d e x He) as He'. pose proof (env_keep _ _ 2 441 4410 f x Hf) as Hf'.
    pose proof (osc_keep P WSin 6 s (map bd_pitch (pit_run f x).2) Hs) as Hs'.
    destruct He as (E1 & E2 & E3 & E4). destruct Hf as (F1 & F2 & F3 & F4).
    assert (Ha : secs P (ep_sr e) (ep_att e) = 132%Z) by (rewrite E1, E3; exact L1). assert (Hd : secs P (ep_sr e) (ep_dec e) = d) by (by rewrite E2, E3).
    assert (Ha' : secs P (ep_sr f) (ep_att f) = 441%Z) by (rewrite F1, F3; exact L2). assert (Hd' : secs P (ep_sr f) (ep_dec f) = 4410%Z) by (rewrite F2, F3; exact L3).
    set (ys := zip_with fmul (sin_run f s x).2 (amp_run e x).2).
    assert (Hys : length ys = p_blk P) by (unfold ys; rewrite zip_with_length, !scan_length, map_length, scan_length; lia).
    assert (Hmm : map (fun v => fadd v (num 60 0)) (map (fun v => fmul v (num 50 0)) (pit_run f x).2) = map bd_pitch (pit_run f x).2) by (by rewrite map_map).
    eexists. split.
    - eapply (run_block P _ (bd_slots (amp_run e x).1 (pit_run f x).1 (sin_run f s x).1 [_; _; _; _; _; _; _; _; _])); [discriminate|reflexivity|exact Ho| |reflexivity].
      cbn [insert list_insert bd_slots map]. unfold process.
      assert (Hdfs : forall ws : list (option W), dfs_order (SGraph ws [] bd_edges) 0 = Some [2; 4; 5; 6; 7; 3; 8; 0]) by reflexivity.
      rewrite Hdfs.
      next_node (@nil (nat * list sig)) ltac:(rewrite shuf_nil; reflexivity).
      next_node [(2, [x])] ltac:(rewrite shuf_one; cbn [sproc]; rewrite (env_block P 441 4410) by (assumption || lia); reflexivity).
      next_node [(4, [(pit_run f x).2])] ltac:(cbn [sproc]; rewrite op_one by (right; reflexivity); reflexivity).
      next_node [(5, [map (fun v => fmul v (num 50 0)) (pit_run f x).2; map (fun v => fmul v (num 50 0)) (pit_run f x).2])]
        ltac:(cbn [sproc]; rewrite op_one2 by (right; reflexivity); rewrite Hmm; reflexivity).
      next_node [(6, [map bd_pitch (pit_run f x).2; map bd_pitch (pit_run f x).2])] ltac:(rewrite shuf_one; cbn [sproc]; rewrite osc_block by assumption; reflexivity).
      next_node [(2, [x])] ltac:(rewrite shuf_one; cbn [sproc]; rewrite (env_block P 132 d) by assumption; reflexivity).
      next_node [(3, [(amp_run e x).2]); (7, [(sin_run f s x).2])] ltac:(cbn [sproc];
        rewrite (op_two fmul f0 7 3 [(sin_run f s x).2] [(amp_run e x).2] (sin_run f s x).2 (amp_run e x).2);
          [reflexivity|discriminate|right; reflexivity|left; reflexivity|left; reflexivity|left; reflexivity]).
      next_node [(8, [ys])] ltac:(apply sum2_one; [left; reflexivity|exact Hys]).
      reflexivity.
    - do 13 eexists. split; [reflexivity|]. split; [exact He'|]. split; [exact Hf'|exact Hs'].
  Qed.
End bd.

(** C47 for [bd]: a sine whose frequency is 60 Hz plus 50 Hz times an [envperc 0.01 0.1], multiplied by an
    [envperc 0.003 decay], both triggered by the input. *)
Theorem C47_bd (P : platform) ev p ms src o nd out (bs : list (sig * list sig)) :
  told ms (src :: o) -> created P ev (CBd p) ms nd out -> Forall (fun b => length b.1 = p_blk P) bs ->
  let decay := num_or f0 p in let n s := samples_of P 44100 s in
  (65536 <= umax (p_cfg P))%Z -> (n (num 3 (-3)) + n decay <= umax (p_cfg P))%Z ->
  let x := List.concat (map fst bs) in
  let pitch t := fadd (fmul (perc_at (n (num 1 (-2))) (n (num 1 (-1))) x t) (num 50 0)) (num 60 0) in
  exists nd' outs, play P nd out (map (fun b => [(src, b.1 :: b.2)]) bs) = Ok (nd', outs) /\
    lane 0 outs = lane 1 outs /\
    lane 0 outs = map (fun t => fadd f0 (fmul (shape P WSin (phase_at 44100 pitch t)) (perc_at (n (num 3 (-3))) (n decay) x t))) (seq 0 (length x)).
Proof.
  intros Hms Hc Hbs decay n Hu16 Hu x. destruct (lit_samples P Hu16) as (_ & L1 & L2 & L3). intros pitch'.
  set (pitch := fun t => fadd (fmul (perc_at 441 4410 x t) (num 50 0)) (num 60 0)).
  assert (Hpitch : pitch' = pitch) by (unfold pitch', pitch, n; rewrite L2, L3; reflexivity).
  rewrite Hpitch. unfold n in *. rewrite L1 in *. clear pitch' Hpitch.
  assert (Hm : makenode_ P ev (CBd p) = boxed_comp P (bd_new P decay) 2 (numref_refs p)) by reflexivity.
  set (e0 := EnvPerc (num 3 (-3)) decay 0 f1 44100 [2]). set (f0' := EnvPerc (num 1 (-2)) (num 1 (-1)) 0 f1 44100 [2]). set (s0 := Osc f1 f0 44100 f0 [6]).
  set (g0 := SGraph (bd_slots P e0 f0' s0 [[silent P; silent P]; [silent P; silent P]; [silent P]; [silent P]; [silent P]; [silent P; silent P]; [silent P; silent P]; [silent P]; [silent P]]) [] bd_edges).
  assert (Hn : bd_new P decay = Ok (Compound P g0 [] (KDrum 3))) by reflexivity.
  rewrite Hn in Hm.
  assert (Hnode : bd_node P decay (src :: o) (e0, f0', s0) (Comp (Compound P g0 (src :: o) (KDrum 3)))).
  { do 13 eexists. split; [reflexivity|]. unfold env_is. repeat (split; [reflexivity|]). split; [split; [reflexivity|]; split; [reflexivity|]; split; reflexivity|].
    split; [split; [reflexivity|]; split; [reflexivity|]; split; reflexivity|reflexivity]. }
  clearbody g0. clear Hn.
  assert (Hk : forall w1 d1 w2 d2, KDrum 3 <> KPlate w1 d1 w2 d2) by (intros; discriminate).
  destruct (comp_created P ev (CBd p) g0 (KDrum 3) _ ms (src :: o) nd out Hk Hm Hms Hc) as [-> Hout].
  destruct (play_loop P (bd_node P decay (src :: o)) (bd_loop P decay) src (bd_block P decay Hu16 Hu src o) bs (e0, f0', s0) _ out Hnode Hout Hbs)
    as (nd' & outs & Hp & _ & H0 & H1).
  exists nd', outs. split; [exact Hp|]. split; [etransitivity; [exact H0|by symmetry]|]. rewrite H0, bd_scan. cbn [snd]. fold x.
  unfold s0. rewrite (env_plays P 441 4410 f0' _ _ 2 x eq_refl), map_map. fold pitch.
  change (fun x0 => bd_pitch (perc_at 441 4410 x x0)) with pitch. rewrite sin_of, (env_plays P 132 _ e0 _ _ 2 x eq_refl).
  rewrite seq_map2, map_map. reflexivity.
Qed.

(** ** Noise and the hi-hat *)
Definition noise_step (P : platform) (s : noise) : noise * f32 := let '(s', v) := noise_next P s in (s', f_of_d v).
Definition white (P : platform) (t : nat) : f32 := f_of_d (p_noise P 42 (Z.of_nat t)).
Lemma noise_block (P : platform) s ins out (x : sig) : length x = p_blk P ->
  noise_proc P s ins [out] = Ok ((scan (fun s _ => noise_step P s) s x).1, [(scan (fun s _ => noise_step P s) s x).2]).
Proof.
  intros Hx. unfold noise_proc. cbn [scan]. rewrite <- Hx. rewrite scan_units. unfold noise_step.
  destruct (scan _ s x). reflexivity.
Qed.
Lemma noise_plays (P : platform) (x : sig) o : (scan (fun s _ => noise_step P s) (Noise 42 0 o) x).2 = map (white P) (seq 0 (length x)).
Proof.
  rewrite <- (scan_units (fun s (_ : unit) => noise_step P s)). unfold noise_step. rewrite noise_scan. reflexivity.
Qed.

Section hh.
  Context (P : platform) (decay : f32) (Hu16 : (65536 <= umax (p_cfg P))%Z).
  Notation W := (snode P * list sig)%type.
  Notation d := (samples_of P 44100 decay).
  Context (Hu : (132 + d <= umax (p_cfg P))%Z).
  Definition hh_slots (n : noise) (b : biquad) (e : envperc) (bb : list (list sig)) : list (option W) :=
    match bb with
    | [b0; b1; b2; b3; b4; b5; b6] => map Some [(NSum2, b0); (NPass, b1); (NPass, b2); (NNoise n, b3); (NRhpf b, b4); (NMul (Opn f0 [4; 6]), b5); (NEnvPerc e, b6)]
    | _ => []
    end.
  Definition hh_edges : list (nat * nat) := [(6, 5); (2, 6); (5, 0); (4, 5); (3, 4)].
  Definition bq_is (b : biquad) : Prop := bq_cutoff b = num 15000 0 /\ bq_q b = f1 /\ bq_sr b = 44100%Z.
  Definition hh_node (o : list nat) (st : noise * biquad * envperc) (nd : gnode P) : Prop :=
    exists d0 d1 i0 i1 p nb fb m0 m1 eb,
      nd = Comp (Compound P (SGraph (hh_slots st.1.1 st.1.2 st.2 [[d0; d1]; [i0; i1]; [p]; [nb]; [fb]; [m0; m1]; [eb]]) [] hh_edges) o (KDrum 6)) /\
      bq_is st.1.2 /\ env_is (num 3 (-3)) decay 2 st.2.
  Notation k := (high_pass P (num 15000 0) f1 44100).
  Notation bqs := (fun (st : biquad) (v : f32) => bq_step_with k (bq_cutoff st) st v).
  Definition hh_loop (st : noise * biquad * envperc) (x : f32) : noise * biquad * envperc * f32 :=
    let n := noise_step P st.1.1 in let b := bq_step_with k (bq_cutoff st.1.2) st.1.2 n.2 in let e := envperc_step 132 d (132 + d) st.2 x in
    ((n.1, b.1, e.1), summed (fmul b.2 e.2)).
  Notation amp_run e x := (scan (envperc_step 132 d (132 + d)) e x).
  Notation noise_run n x := (scan (fun s (_ : f32) => noise_step P s) n x).
  Notation bq_run n b x := (scan bqs b (noise_run n x).2).
  Lemma hh_scan n b e x : scan hh_loop (n, b, e) x =
    (((noise_run n x).1, (bq_run n b x).1, (amp_run e x).1), map summed (zip_with fmul (bq_run n b x).2 (amp_run e x).2)).
  Proof.
    revert n b e. induction x as [|v x IH]; intros n b e; [reflexivity|]. rewrite !scan_cons. cbn [fst snd]. rewrite scan_cons.
    set (b1 := (bq_step_with k (bq_cutoff b) b (noise_step P n).2).1).
    assert (E : (hh_loop (n, b, e) v).1 = ((noise_step P n).1, b1, (envperc_step 132 d (132 + d) e v).1)) by reflexivity.
    rewrite E, IH. cbn [fst snd zip_with map]. reflexivity.
  Qed.
  Lemma bq_keep b x : bq_is b -> bq_is (scan bqs b x).1.
  Proof. apply scan_keep. intros s v H. exact H. Qed.
  Lemma hh_block src o st nd x r out : hh_node (src :: o) st nd -> length x = p_blk P -> length out = 2 ->
    exists nd', gproc P nd [(src, x :: r)] out = Ok (nd', [(scan hh_loop st x).2; (scan hh_loop st x).2]) /\
      hh_node (src :: o) (scan hh_loop st x).1 nd'.
  Proof.
    intros (d0 & d1 & i0 & i1 & p & nb & fb & m0 & m1 & eb & -> & Hb & He) Hx Ho. destruct st as [[n b] e]. cbn [fst snd] in *.
    rewrite hh_scan. cbn [fst snd]. destruct (lit_samples P Hu16) as (_ & L1 & _).
    pose proof (env_keep _ _ 2 132 d e x He) as He'. pose proof (bq_keep b (noise_run n x).2 Hb) as Hb'.
    destruct He as (E1 & E2 & E3 & E4). destruct Hb as (B1 & B2 & B3).
    assert (Ha : secs P (ep_sr e) (ep_att e) = 132%Z) by (rewrite E1, E3; exact L1). assert (Hd : secs P (ep_sr e) (ep_dec e) = d) by (by rewrite E2, E3).
    assert (Hk : hpf_coefs P (bq_q b) (theta (bq_cutoff b) (bq_sr b)) = k) by (rewrite B1, B2, B3; apply hpf_coefs_lit).
    set (ys := zip_with fmul (bq_run n b x).2 (amp_run e x).2).
    assert (Hys : length ys = p_blk P) by (unfold ys; rewrite zip_with_length, !scan_length; lia).
    assert (Hfil : rhpf_proc P b [(3, [(noise_run n x).2])] [fb] = Ok ((bq_run n b x).1, [(bq_run n b x).2])).
    { unfold rhpf_proc. cbn [snd]. change (chan [(noise_run n x).2] 0) with (Ok (noise_run n x).2). cbn [mbind res_bind]. rewrite Hk. by destruct (bq_run n b x). }
    eexists. split.
    - eapply (run_block P _ (hh_slots (noise_run n x).1 (bq_run n b x).1 (amp_run e x).1 [_; _; _; _; _; _; _])); [discriminate|reflexivity|exact Ho| |reflexivity].
      cbn [insert list_insert hh_slots map]. unfold process.
      assert (Hdfs : forall ws : list (option W), dfs_order (SGraph ws [] hh_edges) 0 = Some [3; 4; 2; 6; 5; 0]) by reflexivity.
      rewrite Hdfs.
      next_node (@nil (nat * list sig)) ltac:(cbn [sproc]; rewrite (noise_block P n _ nb x Hx); reflexivity).
      next_node [(3, [(noise_run n x).2])] ltac:(rewrite shuf_one; cbn [sproc]; rewrite Hfil; reflexivity).
      next_node (@nil (nat * list sig)) ltac:(rewrite shuf_nil; reflexivity).
      next_node [(2, [x])] ltac:(rewrite shuf_one; cbn [sproc]; rewrite (env_block P 132 d) by assumption; reflexivity).
      next_node [(6, [(amp_run e x).2]); (4, [(bq_run n b x).2])] ltac:(cbn [sproc];
        rewrite (op_two fmul f0 4 6 [(bq_run n b x).2] [(amp_run e x).2] (bq_run n b x).2 (amp_run e x).2);
          [reflexivity|discriminate|right; reflexivity|left; reflexivity|left; reflexivity|right; reflexivity]).
      next_node [(5, [ys; ys])] ltac:(apply sum2_one; [right; reflexivity|exact Hys]).
      reflexivity.
    - do 10 eexists. split; [reflexivity|]. split; [exact Hb'|exact He'].
  Qed.
End hh.

(** C47 for [hh]: the noise of seed 42 through the section [rhpf 15000 1.0] (with the equation the code has,
    see C42), multiplied by an [envperc 0.003 decay] triggered by the input. *)
Theorem C47_hh (P : platform) ev p ms src o nd out (bs : list (sig * list sig)) :
  told ms (src :: o) -> created P ev (CHh p) ms nd out -> Forall (fun b => length b.1 = p_blk P) bs ->
  let decay := num_or f0 p in let n s := samples_of P 44100 s in
  (65536 <= umax (p_cfg P))%Z -> (n (num 3 (-3)) + n decay <= umax (p_cfg P))%Z ->
  let x := List.concat (map fst bs) in
  let hiss := map (white P) (seq 0 (length x)) in
  exists nd' outs h, play P nd out (map (fun b => [(src, b.1 :: b.2)]) bs) = Ok (nd', outs) /\ length h = length x /\
    (forall t, t < length x -> h !! t = Some (biquad_eq (high_pass P (num 15000 0) f1 44100) f0 (ago 1 t hiss) (ago 2 t hiss) (ago 1 t h) (ago 2 t h))) /\
    lane 0 outs = lane 1 outs /\
    lane 0 outs = zip_with (fun v t => fadd f0 (fmul v (perc_at (n (num 3 (-3))) (n decay) x t))) h (seq 0 (length x)).
Proof.
  intros Hms Hc Hbs decay n Hu16 Hu x hiss. destruct (lit_samples P Hu16) as (_ & L1 & _). unfold n in *. rewrite L1 in *.
  assert (Hm : makenode_ P ev (CHh p) = boxed_comp P (hh_new P decay) 2 (numref_refs p)) by reflexivity.
  set (e0 := EnvPerc (num 3 (-3)) decay 0 f1 44100 [2]). set (n0 := Noise 42 0 []). set (b0 := Biquad (num 15000 0) f1 f0 f0 f0 f0 44100 [] f1 (num 120 0) 0 [3]).
  set (g0 := SGraph (hh_slots P n0 b0 e0 [[silent P; silent P]; [silent P; silent P]; [silent P]; [silent P]; [silent P]; [silent P; silent P]; [silent P]]) [] hh_edges).
  assert (Hn : hh_new P decay = Ok (Compound P g0 [] (KDrum 6))) by reflexivity.
  rewrite Hn in Hm.
  assert (Hnode : hh_node P decay (src :: o) (n0, b0, e0) (Comp (Compound P g0 (src :: o) (KDrum 6)))).
  { do 10 eexists. split; [reflexivity|]. split; [split; [reflexivity|]; split; reflexivity|]. split; [reflexivity|]; split; [reflexivity|]; split; reflexivity. }
  clearbody g0. clear Hn.
  assert (Hk : forall w1 d1 w2 d2, KDrum 6 <> KPlate w1 d1 w2 d2) by (intros; discriminate).
  destruct (comp_created P ev (CHh p) g0 (KDrum 6) _ ms (src :: o) nd out Hk Hm Hms Hc) as [-> Hout].
  destruct (play_loop P (hh_node P decay (src :: o)) (hh_loop P decay) src (hh_block P decay Hu16 Hu src o) bs (n0, b0, e0) _ out Hnode Hout Hbs)
    as (nd' & outs & Hp & _ & H0 & H1).
  set (k := high_pass P (num 15000 0) f1 44100). set (bqs := fun (st : biquad) (v : f32) => bq_step_with k (bq_cutoff st) st v).
  exists nd', outs, (scan bqs b0 hiss).2. split; [exact Hp|].
  assert (Hlen : length hiss = length x) by (unfold hiss; by rewrite map_length, seq_length).
  split; [by rewrite scan_length|]. split; [|split; [etransitivity; [exact H0|by symmetry]|]].
  - intros t Ht. apply (bq_scan bqs k (num 15000 0) f1 44100).
    + intros s v H _ _ _. unfold bqs. by rewrite H.
    + split_and!; reflexivity.
    + by rewrite Hlen.
  - rewrite H0, hh_scan. cbn [snd]. fold x. unfold n0. rewrite noise_plays. fold hiss k. rewrite (env_plays P 132 _ e0 _ _ 2 x eq_refl).
    fold bqs. assert (Hl : length (scan bqs b0 hiss).2 = length x) by (by rewrite scan_length). revert Hl.
    generalize (scan bqs b0 hiss).2 as h. intros h Hl.
    rewrite <- Hl. clear. generalize (seq 0 (length h)) as l. induction h as [|v h IH]; intros [|t l]; try reflexivity. cbn [map zip_with]. by rewrite IH.
Qed.

(** ** The snare drum *)
Section sn.
  Context (P : platform) (decay : f32) (Hu16 : (65536 <= umax (p_cfg P))%Z).
  Notation W := (snode P * list sig)%type.
  Notation d := (samples_of P 44100 decay).
  Context (Hu : (44 + d <= umax (p_cfg P))%Z).
  Definition sn_slots (e f : envperc) (s : osc) (n : noise) (b : list (list sig)) : list (option W) :=
    match b with
    | [b0; b1; b2; b3; b4; b5; b6; b7; b8; b9; b10; b11; b12] => map Some [(NSum2, b0); (NPass, b1); (NPass, b2); (NEnvPerc e, b3); (NEnvPerc f, b4);
        (NMul (Opn (num 55 0) [4]), b5); (NAdd (Opn (num 60 0) [5]), b6); (NOsc WSin s, b7); (NAdd (Opn f0 [7; 12]), b8); (NAdd (Opn f0 [8]), b9);
        (NMul (Opn f0 [9; 3]), b10); (NNoise n, b11); (NMul (Opn (num 3 (-1)) [11]), b12)]
    | _ => []
    end.
  Definition sn_edges : list (nat * nat) := [(6, 7); (5, 6); (4, 5); (2, 4); (3, 10); (2, 3); (12, 8); (11, 12); (10, 0); (9, 10); (8, 9); (7, 8)].
  Definition sn_node (o : list nat) (st : envperc * envperc * osc * noise) (nd : gnode P) : Prop :=
    exists d0 d1 i0 i1 p eb fb m0 m1 q0 q1 sb x0 x1 y0 y1 z0 z1 nb w0 w1,
      nd = Comp (Compound P (SGraph (sn_slots st.1.1.1 st.1.1.2 st.1.2 st.2 [[d0; d1]; [i0; i1]; [p]; [eb]; [fb]; [m0; m1]; [q0; q1]; [sb]; [x0; x1]; [y0; y1]; [z0; z1]; [nb]; [w0; w1]])
        [] sn_edges) o (KDrum 3)) /\
      env_is (num 1 (-3)) decay 2 st.1.1.1 /\ env_is (num 1 (-3)) (num 1 (-1)) 2 st.1.1.2 /\ os_ord st.1.2 = [6].
  Definition sn_pitch (v : f32) : f32 := fadd (fmul v (num 55 0)) (num 60 0).
  Definition sn_mix (v n : f32) : f32 := fadd (fadd v (fmul n (num 3 (-1)))) f0.
  Definition sn_loop (st : envperc * envperc * osc * noise) (x : f32) : envperc * envperc * osc * noise * f32 :=
    let amp := envperc_step 44 d (44 + d) st.1.1.1 x in let pit := envperc_step 44 4410 (44 + 4410) st.1.1.2 x in
    let snd := osc_mod_step P WSin st.1.2 (sn_pitch pit.2) in let n := noise_step P st.2 in
    ((amp.1, pit.1, snd.1, n.1), summed (fmul (sn_mix snd.2 n.2) amp.2)).
  Notation amp_run e x := (scan (envperc_step 44 d (44 + d)) e x).
  Notation pit_run e x := (scan (envperc_step 44 4410 (44 + 4410)) e x).
  Notation sin_run f s x := (scan (osc_mod_step P WSin) s (map sn_pitch (pit_run f x).2)).
  Notation noise_run n x := (scan (fun s (_ : f32) => noise_step P s) n x).
  Lemma sn_scan e f s n x : scan sn_loop (e, f, s, n) x =
    (((amp_run e x).1, (pit_run f x).1, (sin_run f s x).1, (noise_run n x).1),
     map summed (zip_with fmul (zip_with sn_mix (sin_run f s x).2 (noise_run n x).2) (amp_run e x).2)).
  Proof.
    revert e f s n. induction x as [|v x IH]; intros e f s n; [reflexivity|]. rewrite !scan_cons. cbn [fst snd map]. rewrite scan_cons.
    set (s1 := (osc_mod_step P WSin s (sn_pitch (envperc_step 44 4410 (44 + 4410) f v).2)).1).
    assert (E : (sn_loop (e, f, s, n) v).1 = ((envperc_step 44 d (44 + d) e v).1, (envperc_step 44 4410 (44 + 4410) f v).1, s1, (noise_step P n).1)) by reflexivity.
    rewrite E, IH. cbn [fst snd zip_with map]. reflexivity.
  Qed.
  Lemma map_zip_with {A B C D} (g : C -> D) (h : A -> B -> C) l1 l2 : map g (zip_with h l1 l2) = zip_with (fun a b => g (h a b)) l1 l2.
  Proof. revert l2. induction l1 as [|x l1 IH]; intros [|y l2]; try reflexivity. cbn [zip_with map]. by rewrite IH. Qed.
  Lemma zip_with_map_r {A B C D} (g : B -> C) (h : A -> C -> D) l1 l2 : zip_with h l1 (map g l2) = zip_with (fun a b => h a (g b)) l1 l2.
  Proof. revert l2. induction l1 as [|x l1 IH]; intros [|y l2]; try reflexivity. cbn [zip_with map]. by rewrite IH. Qed.
  Lemma sn_block src o st nd x r out : sn_node (src :: o) st nd -> length x = p_blk P -> length out = 2 ->
    exists nd', gproc P nd [(src, x :: r)] out = Ok (nd', [(scan sn_loop st x).2; (scan sn_loop st x).2]) /\
      sn_node (src :: o) (scan sn_loop st x).1 nd'.
  Proof.
    intros (d0 & d1 & i0 & i1 & p & eb & fb & m0 & m1 & q0 & q1 & sb & x0 & x1 & y0 & y1 & z0 & z1 & nb & w0 & w1 & -> & He & Hf & Hs) Hx Ho.
    destruct st as [[[e f] s] n]. cbn [fst snd] in *.
    rewrite sn_scan. cbn [fst snd]. destruct (lit_samples P Hu16) as (L1 & _ & _ & L3).
    pose proof (env_keep _ _ 2 44 d e x He) as He'. pose proof (env_keep _ _ 2 44 4410 f x Hf) as Hf'.
    pose proof (osc_keep P WSin 6 s (map sn_pitch (pit_run f x).2) Hs) as Hs'.
    destruct He as (E1 & E2 & E3 & E4). destruct Hf as (F1 & F2 & F3 & F4).
    assert (Ha : secs P (ep_sr e) (ep_att e) = 44%Z) by (rewrite E1, E3; exact L1). assert (Hd : secs P (ep_sr e) (ep_dec e) = d) by (by rewrite E2, E3).
    assert (Ha' : secs P (ep_sr f) (ep_att f) = 44%Z) by (rewrite F1, F3; exact L1). assert (Hd' : secs P (ep_sr f) (ep_dec f) = 4410%Z) by (rewrite F2, F3; exact L3).
    set (zs := map (fun v => fmul v (num 3 (-1))) (noise_run n x).2).
    set (ms := zip_with fadd (sin_run f s x).2 zs).
    assert (Hms : map (fun v => fadd v f0) ms = zip_with sn_mix (sin_run f s x).2 (noise_run n x).2).
    { unfold ms, zs. rewrite zip_with_map_r, map_zip_with. reflexivity. }
    set (ns := zip_with sn_mix (sin_run f s x).2 (noise_run n x).2) in *.
    set (ys := zip_with fmul ns (amp_run e x).2).
    assert (Hys : length ys = p_blk P) by (unfold ys, ns; rewrite !zip_with_length, !scan_length, map_length, scan_length; lia).
    assert (Hmm : map (fun v => fadd v (num 60 0)) (map (fun v => fmul v (num 55 0)) (pit_run f x).2) = map sn_pitch (pit_run f x).2) by (by rewrite map_map).
    eexists. split.
    - eapply (run_block P _ (sn_slots (amp_run e x).1 (pit_run f x).1 (sin_run f s x).1 (noise_run n x).1 [_; _; _; _; _; _; _; _; _; _; _; _; _]));
        [discriminate|reflexivity|exact Ho| |reflexivity].
      cbn [insert list_insert sn_slots map]. unfold process.
      assert (Hdfs : forall ws : list (option W), dfs_order (SGraph ws [] sn_edges) 0 = Some [2; 4; 5; 6; 7; 11; 12; 8; 9; 3; 10; 0]) by reflexivity.
      rewrite Hdfs.
      next_node (@nil (nat * list sig)) ltac:(rewrite shuf_nil; reflexivity).
      next_node [(2, [x])] ltac:(rewrite shuf_one; cbn [sproc]; rewrite (env_block P 44 4410) by (assumption || lia); reflexivity).
      next_node [(4, [(pit_run f x).2])] ltac:(cbn [sproc]; rewrite op_one by (right; reflexivity); reflexivity).
      next_node [(5, [map (fun v => fmul v (num 55 0)) (pit_run f x).2; map (fun v => fmul v (num 55 0)) (pit_run f x).2])]
        ltac:(cbn [sproc]; rewrite op_one2 by (right; reflexivity); rewrite Hmm; reflexivity).
      next_node [(6, [map sn_pitch (pit_run f x).2; map sn_pitch (pit_run f x).2])] ltac:(rewrite shuf_one; cbn [sproc]; rewrite osc_block by assumption; reflexivity).
      next_node (@nil (nat * list sig)) ltac:(cbn [sproc]; rewrite (noise_block P n _ nb x Hx); reflexivity).
      next_node [(11, [(noise_run n x).2])] ltac:(cbn [sproc]; rewrite op_one by (right; reflexivity); reflexivity).
      next_node [(12, [zs; zs]); (7, [(sin_run f s x).2])] ltac:(cbn [sproc];
        rewrite (op_two fadd f0 7 12 [(sin_run f s x).2] [zs; zs] (sin_run f s x).2 zs);
          [reflexivity|discriminate|right; reflexivity|left; reflexivity|right; reflexivity|right; reflexivity]).
      next_node [(8, [ms; ms])] ltac:(cbn [sproc]; rewrite op_one2 by (right; reflexivity); rewrite Hms; reflexivity).
      next_node [(2, [x])] ltac:(rewrite shuf_one; cbn [sproc]; rewrite (env_block P 44 d) by assumption; reflexivity).
      next_node [(3, [(amp_run e x).2]); (9, [ns; ns])] ltac:(cbn [sproc];
        rewrite (op_two fmul f0 9 3 [ns; ns] [(amp_run e x).2] ns (amp_run e x).2);
          [reflexivity|discriminate|right; reflexivity|right; reflexivity|left; reflexivity|right; reflexivity]).
      next_node [(10, [ys; ys])] ltac:(apply sum2_one; [right; reflexivity|exact Hys]).
      reflexivity.
    - do 21 eexists. split; [reflexivity|]. split; [exact He'|]. split; [exact Hf'|exact Hs'].
  Qed.
End sn.

(** C47 for [sn]: a sine whose frequency is 60 Hz plus 55 Hz times an [envperc 0.001 0.1], plus 0.3 times the
    noise of seed 42, multiplied by an [envperc 0.001 decay], both triggered by the input. *)
Theorem C47_sn (P : platform) ev p ms src o nd out (bs : list (sig * list sig)) :
  told ms (src :: o) -> created P ev (CSn p) ms nd out -> Forall (fun b => length b.1 = p_blk P) bs ->
  let decay := num_or f0 p in let n s := samples_of P 44100 s in
  (65536 <= umax (p_cfg P))%Z -> (n (num 1 (-3)) + n decay <= umax (p_cfg P))%Z ->
  let x := List.concat (map fst bs) in
  let pitch t := fadd (fmul (perc_at (n (num 1 (-3))) (n (num 1 (-1))) x t) (num 55 0)) (num 60 0) in
  exists nd' outs, play P nd out (map (fun b => [(src, b.1 :: b.2)]) bs) = Ok (nd', outs) /\
    lane 0 outs = lane 1 outs /\
    lane 0 outs = map (fun t => fadd f0 (fmul (fadd (fadd (shape P WSin (phase_at 44100 pitch t)) (fmul (white P t) (num 3 (-1)))) f0)
                                              (perc_at (n (num 1 (-3))) (n decay) x t))) (seq 0 (length x)).
Proof.
  intros Hms Hc Hbs decay n Hu16 Hu x. destruct (lit_samples P Hu16) as (L1 & _ & _ & L3). intros pitch'.
  set (pitch := fun t => fadd (fmul (perc_at 44 4410 x t) (num 55 0)) (num 60 0)).
  assert (Hpitch : pitch' = pitch) by (unfold pitch', pitch, n; rewrite L1, L3; reflexivity).
  rewrite Hpitch. unfold n in *. rewrite L1 in *. clear pitch' Hpitch.
  assert (Hm : makenode_ P ev (CSn p) = boxed_comp P (sn_new P decay) 2 (numref_refs p)) by reflexivity.
  set (e0 := EnvPerc (num 1 (-3)) decay 0 f1 44100 [2]). set (f0' := EnvPerc (num 1 (-3)) (num 1 (-1)) 0 f1 44100 [2]). set (s0 := Osc f1 f0 44100 f0 [6]).
  set (n0 := Noise 42 0 []).
  set (g0 := SGraph (sn_slots P e0 f0' s0 n0 [[silent P; silent P]; [silent P; silent P]; [silent P]; [silent P]; [silent P]; [silent P; silent P]; [silent P; silent P]; [silent P];
    [silent P; silent P]; [silent P; silent P]; [silent P; silent P]; [silent P]; [silent P; silent P]]) [] sn_edges).
  assert (Hn : sn_new P decay = Ok (Compound P g0 [] (KDrum 3))) by reflexivity.
  rewrite Hn in Hm.
  assert (Hnode : sn_node P decay (src :: o) (e0, f0', s0, n0) (Comp (Compound P g0 (src :: o) (KDrum 3)))).
  { do 21 eexists. split; [reflexivity|]. split; [split; [reflexivity|]; split; [reflexivity|]; split; reflexivity|].
    split; [split; [reflexivity|]; split; [reflexivity|]; split; reflexivity|reflexivity]. }
  clearbody g0. clear Hn.
  assert (Hk : forall w1 d1 w2 d2, KDrum 3 <> KPlate w1 d1 w2 d2) by (intros; discriminate).
  destruct (comp_created P ev (CSn p) g0 (KDrum 3) _ ms (src :: o) nd out Hk Hm Hms Hc) as [-> Hout].
  destruct (play_loop P (sn_node P decay (src :: o)) (sn_loop P decay) src (sn_block P decay Hu16 Hu src o) bs (e0, f0', s0, n0) _ out Hnode Hout Hbs)
    as (nd' & outs & Hp & _ & H0 & H1).
  exists nd', outs. split; [exact Hp|]. split; [etransitivity; [exact H0|by symmetry]|]. rewrite H0, sn_scan. cbn [snd]. fold x.
  unfold s0, n0. rewrite (env_plays P 44 4410 f0' _ _ 2 x eq_refl), map_map, noise_plays.
  change (fun x0 => sn_pitch (perc_at 44 4410 x x0)) with pitch. rewrite sin_of, (env_plays P 44 _ e0 _ _ 2 x eq_refl).
  rewrite !seq_map2, map_map. reflexivity.
Qed.

(** ** Examples *)
Definition ex_beat : list (sig * list sig) := [([f1; f0; f0; f0; f0; f0; f0; f0], []); ([f0; f0; fhalf; f0; f0; f0; f0; f0], [])].
Example C47_hypotheses : told [ResetOrder; Index 7] [7] /\ Forall (fun b => length b.1 = p_blk demo) ex_beat /\
  (65536 <= umax (p_cfg demo))%Z /\ (samples_of demo 44100 (num 3 (-3)) + samples_of demo 44100 (num 2 (-1)) <= umax (p_cfg demo))%Z.
Proof. split; [split; [repeat constructor|reflexivity]|]. split; [repeat constructor|]. split; vm_compute; discriminate. Qed.
(** All six play something, and not the same. *)
Definition ex_played (c : component) : bool :=
  match makenode_ demo demo_env c with
  | Done ((n0, out), _) =>
      match foldM (gmsg demo) n0 [ResetOrder; Index 7] with
      | Ok nd => match lanes_of (play demo nd out (map (fun b => [(7, b.1 :: b.2)]) ex_beat)) with
                 | Some (l, _) => (length l =? 16) && negb (forallb (fun y => feqb y f0) l) && negb (forallb (fun y => feqb y (nth 3 l f0)) l)
                 | None => false end
      | Panic => false end
  | _ => false end.
Example C47_plays : forallb ex_played [CSawSynth (num 1 (-2)) (num 1 (-1)); CSquSynth (num 1 (-2)) (num 1 (-1)); CTriSynth (num 1 (-2)) (num 1 (-1));
  CBd (Num (num 2 (-1))); CHh (Num (num 2 (-1))); CSn (Num (num 2 (-1)))] = true.
Proof. vm_compute. reflexivity. Qed.

(** ** The sample rate (C72) *)

(** The rate of the engine has no effect on the drums and synths: their sound is the sound at 44100. *)
Definition fixed_rate (c : component) : Prop :=
  match c with CBd _ | CHh _ | CSn _ | CSawSynth _ _ | CSquSynth _ _ | CTriSynth _ _ | CPlate _ => True | _ => False end.
Theorem C72_fixed_rate (P : platform) ev ev' c ms nd out : fixed_rate c -> created P ev c ms nd out -> created P ev' c ms nd out.
Proof.
  assert (H : makenode_ P ev' c = makenode_ P ev c \/ ~ fixed_rate c).
  { destruct c; first [right; intros H; exact H|left; cbn [makenode_]; reflexivity]. }
  intros Hc (n0 & refs & Hm & Hf). exists n0, refs. split; [|exact Hf]. destruct H as [->|H]; [exact Hm|by destruct H].
Qed.
(** So at another rate a [sawsynth] is not the saw and envelope of that rate: the note is off. *)
Definition ex_env48 : env sampledata := Env (e_samples demo_env) 48000 (e_bpm demo_env) (e_seed demo_env).
Theorem C72_pitch_follows_rate_refuted : exists ev att dec nd out outs nd',
  let x := List.concat (map fst ex_beat) in
  e_sr ev = 48000%Z /\ created demo ev (CSawSynth att dec) [ResetOrder; Index 7] nd out /\
  play demo nd out (map (fun b => [(7, b.1 :: b.2)]) ex_beat) = Ok (nd', outs) /\
  lane 0 outs <> map (fun t => fadd f0 (fmul (shape demo WSaw (phase_at (e_sr ev) (freq_at WSaw (map (fun v => fmul v middle_c) x)) t))
                                   (perc_at (samples_of demo (e_sr ev) att) (samples_of demo (e_sr ev) dec) x t))) (seq 0 (length x)).
Proof.
  set (att := num 1 (-2)). set (dec := num 1 (-1)).
  set (want := map (fun t => fadd f0 (fmul (shape demo WSaw (phase_at (e_sr ex_env48) (freq_at WSaw (map (fun v => fmul v middle_c) (List.concat (map fst ex_beat)))) t))
                                   (perc_at (samples_of demo (e_sr ex_env48) att) (samples_of demo (e_sr ex_env48) dec) (List.concat (map fst ex_beat)) t))) (seq 0 (length (List.concat (map fst ex_beat))))).
  assert (H : exists nd out, created demo ex_env48 (CSawSynth att dec) [ResetOrder; Index 7] nd out /\
    match lanes_of (play demo nd out (map (fun b => [(7, b.1 :: b.2)]) ex_beat)) with
    | Some (l, _) => existsb (fun p => negb (feqb p.1 p.2)) (zip l want) | None => false end = true).
  { apply demo_created. vm_compute. reflexivity. }
  destruct H as (nd & out & Hc & H). destruct (play demo nd out (map (fun b => [(7, b.1 :: b.2)]) ex_beat)) as [[nd' outs]|] eqn:E; [|discriminate H].
  cbn [lanes_of] in H. exists ex_env48, att, dec, nd, out, outs, nd'. split; [reflexivity|]. split; [exact Hc|]. split; [exact E|].
  intros Heq. change (lane 0 outs = want) in Heq. rewrite Heq in H. clear -H. vm_compute in H. discriminate H.
Qed.

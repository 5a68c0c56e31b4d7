(** * C85: changing the sample rate, the seed or a sample does not disturb what is playing.

    A setting is read when a node is created.  So the calls of one kind can be left out of a
    session without any effect, as long as no component that depends on them is created. *)
From Verif Require Import Engine InputProofs Instance InstanceProofs.
From Coq Require Import Lia.
Local Open Scope nat_scope.
Local Notation length := List.length.

(** The settings: the sample rate, the seed, the sample of one name. *)
Inductive setting := KRate | KSeed | KSample (n : string).
Definition alike {S : Type} (k : setting) (ev ev' : env S) : Prop :=
  e_bpm ev = e_bpm ev' /\
  match k with
  | KRate => e_samples ev = e_samples ev' /\ e_seed ev = e_seed ev'
  | KSeed => e_samples ev = e_samples ev' /\ e_sr ev = e_sr ev'
  | KSample n => e_sr ev = e_sr ev' /\ e_seed ev = e_seed ev' /\ forall m, m <> n -> e_samples ev !! m = e_samples ev' !! m
  end.

Section settings.
  Context (L : lang) (blk : Z) (k : setting).
  Notation engine := (engine L).

  (** The calls that change the setting. *)
  Definition sets (c : call L) : bool :=
    match c, k with
    | CSr _ _, KRate | CSeed _ _, KSeed => true
    | CSample _ n _, KSample m => String.eqb n m
    | _, _ => false
    end.
  (** A session without these calls, and the observations of the session from those of the
      session without them: the calls themselves return nothing. *)
  Definition without (cs : list (call L)) : list (call L) := filter (fun c => sets c = false) cs.
  Fixpoint put_back (cs : list (call L)) (obs : list (obs L)) : list (Engine.obs L) :=
    match cs with
    | [] => []
    | c :: cs' => if sets c then ODone L :: put_back cs' obs
                  else match obs with o :: obs' => o :: put_back cs' obs' | [] => [] end
    end.

  (** The setting does not matter to a component. *)
  Definition deaf (c : comp L) : Prop := forall ev ev', alike k ev ev' -> makenode ev c = makenode ev' c.
  (** Every component of a program is deaf to the setting or is running already in the chain
      of the same name. *)
  Definition undisturbed (e : engine) (code : text L) : Prop :=
    forall new n cs c, parse code = Done new -> new !! n = Some cs -> c ∈ cs ->
      deaf c \/ exists old olds, en_ast L e = Some old /\ old !! n = Some olds /\ existsb (fun oc => comp_eqb oc c) olds = true.
  (** In a session from [e] this holds of every text when it is submitted. *)
  Fixpoint steady_session (e : engine) (cs : list (call L)) : Prop :=
    match cs with
    | [] => True
    | c :: cs' => match c with CUpdate _ _ code => undisturbed e code | _ => True end /\
        forall e' o, step L blk e c = Ok (e', o) -> steady_session e' cs'
    end.

  Inductive only : engine -> engine -> Prop :=
  | only_intro g d i a inf bk tmp b cl s sr sd s' sr' sd' : alike k (Env s sr b sd) (Env s' sr' b sd') ->
      only (Engine L g d i a inf bk tmp s b sr sd cl) (Engine L g d i a inf bk tmp s' b sr' sd' cl).
  Definition agree {A} (r1 r2 : res (engine * A)) : Prop :=
    match r1, r2 with
    | Ok (e1, x), Ok (e2, y) => x = y /\ only e1 e2
    | Panic, Panic => True
    | _, _ => False
    end.

  Lemma add_nodes_same ev ev' n l : forall d, (forall i c, (i, c) ∈ l -> makenode ev c = makenode ev' c) ->
    add_nodes L ev n l d = add_nodes L ev' n l d.
  Proof.
    induction l as [|[i c] l IH]; intros d H; [done|]. cbn [add_nodes]. rewrite (H i c) by (by left).
    destruct (makenode ev' c) as [[w refs]|er|]; try done. apply IH. intros j c' Hc. apply (H j). by right.
  Qed.
  Lemma diff_chain_same ev ev' old d n cs :
    (forall c, c ∈ cs -> makenode ev c = makenode ev' c \/ exists olds, old !! n = Some olds /\ existsb (fun oc => comp_eqb oc c) olds = true) ->
    diff_chain L ev old d (n, cs) = diff_chain L ev' old d (n, cs).
  Proof.
    intros H. unfold diff_chain. cbn [fst snd].
    assert (He : forall i c, (i, c) ∈ enumerate cs -> c ∈ cs).
    { intros i c Hc. unfold enumerate in Hc. apply elem_of_lookup_imap in Hc as (j & x & [= -> ->] & Hj). by eapply elem_of_list_lookup_2. }
    destruct (old !! n) as [olds|].
    - apply add_nodes_same. intros i c Hc. apply elem_of_list_filter in Hc as [Hf Hc]. cbn [snd] in Hf.
      destruct (H c (He i c Hc)) as [Hm|(olds' & [= <-] & Hm)]; [done|]. by rewrite Hf in Hm.
    - apply add_nodes_same. intros i c Hc. destruct (H c (He i c Hc)) as [Hm|(olds' & Hm & _)]; done.
  Qed.
  Lemma diff_chains_same ev ev' old l : forall d,
    (forall n cs c, (n, cs) ∈ l -> c ∈ cs -> makenode ev c = makenode ev' c \/ exists olds, old !! n = Some olds /\ existsb (fun oc => comp_eqb oc c) olds = true) ->
    diff_chains L ev old l d = diff_chains L ev' old l d.
  Proof.
    induction l as [|[n cs] l IH]; intros d H; [done|]. cbn [diff_chains].
    rewrite (diff_chain_same ev ev') by (intros c Hc; by apply (H n cs c); [left|]).
    destruct (diff_chain L ev' old d (n, cs)); try done. apply IH. intros n' cs' c Hn. apply H. by right.
  Qed.

  Lemma update_agrees e f o code : only e f -> undisturbed e code -> agree (update L o e code) (update L o f code).
  Proof.
    intros H Hu. unfold update. destruct (parse code) as [new|er|] eqn:Ep; [|by split|done].
    specialize (Hu new). destruct H as [g d i a inf bk tmp b cl s sr sd s' sr' sd' Ha]. cbn [en_ast] in Hu.
    unfold update_ast, plan, the_env, set_temp, set_info, set_graph. cbn [en_dest en_input en_backup en_temp en_clock en_ast en_info en_samples en_sr en_bpm en_seed en_graph].
    assert (Hd : forall old, a = Some old -> diff_chains L (Env s sr b sd) old (o_new o _ (map_to_list new)) (diff0 L) = diff_chains L (Env s' sr' b sd') old (o_new o _ (map_to_list new)) (diff0 L)).
    { intros old Ho. apply diff_chains_same. intros n cs c Hn Hc. rewrite shuf_perm in Hn. apply elem_of_map_to_list in Hn.
      destruct (Hu n cs c Ep Hn Hc) as [Hq|(old' & olds & E & Hq & Hx)]; [left; by apply Hq|]. rewrite Ho in E. injection E as <-. right. by exists olds. }
    assert (Hd0 : a = None -> diff_chains L (Env s sr b sd) ∅ (o_new o _ (map_to_list new)) (diff0 L) = diff_chains L (Env s' sr' b sd') ∅ (o_new o _ (map_to_list new)) (diff0 L)).
    { intros Ho. apply diff_chains_same. intros n cs c Hn Hc. rewrite shuf_perm in Hn. apply elem_of_map_to_list in Hn.
      destruct (Hu n cs c Ep Hn Hc) as [Hq|(old' & olds & E & _)]; [left; by apply Hq|]. by rewrite Ho in E. }
    assert (Hr : forall g' tmp' t' df idrem,
      agree (rewire L o (Engine L g' d i a t' bk tmp' s b sr sd cl) new df idrem) (rewire L o (Engine L g' d i a t' bk tmp' s' b sr' sd' cl) new df idrem)).
    { intros g' tmp' t' df idrem. unfold rewire. cbn [en_graph en_info en_dest en_input en_temp en_samples en_bpm en_sr en_seed en_clock].
      destruct (foldM (connect_refs_one _ _ _) _ _) as [[[g2 sn] [er|]]|]; [by split|  |done].
      destruct (foldM _ g2 _) as [g3|]; [by split|done]. }
    destruct a as [old|].
    - rewrite (Hd old eq_refl). destruct (diff_chains L _ old _ _) as [df|er|]; [|by split|done].
      destruct (drop_chains L _ _ _ _) as [st|]; [|done]. destruct (remove_all _ st) as [[t ids]|]; [|done].
      destruct (foldM (add_one L) _ _) as [[[g' tmp'] t']|]; [|done]. destruct (ref_check L t' new _) as [r|]; [by split|apply Hr].
    - rewrite (Hd0 eq_refl). match goal with |- context [diff_chains L ?ev ?a ?l ?d] => destruct (diff_chains L ev a l d) as [df|er|] end; [|by split|done].
      destruct (foldM (add_one L) _ _) as [[[g' tmp'] t']|]; [|done]. destruct (ref_check L t' new _) as [r|]; [by split|apply Hr].
  Qed.

  Definition both (r1 r2 : res engine) : Prop :=
    match r1, r2 with Ok e1, Ok e2 => only e1 e2 | Panic, Panic => True | _, _ => False end.
  Lemma command_agrees cf e f m : only e f -> both (send_command L cf e m) (send_command L cf f m).
  Proof.
    intros [g d i a inf bk tmp b cl s sr sd s' sr' sd' Ha]. unfold send_command. cbn [en_info en_graph].
    destruct (split_on _ m) as [|w1 [|w2 [|w3 [|w4 ws]]]]; try by split. destruct (inf !! w1) as [ids|]; [|by split].
    destruct (ids !! _) as [id|]; [|done]. destruct (send_to L g id _) as [g'|]; [by split|done].
  Qed.
  Lemma commands_agree cf l : forall e f, only e f -> both (foldM (send_command L cf) e l) (foldM (send_command L cf) f l).
  Proof.
    induction l as [|m l IH]; intros e f H; [done|]. cbn [foldM]. pose proof (command_agrees cf e f m H) as Hc.
    destruct (send_command L cf e m) as [e1|], (send_command L cf f m) as [f1|]; try done. by apply IH.
  Qed.
  Lemma channel_agrees e f ch x : only e f -> both (write_channel L e ch x) (write_channel L f ch x).
  Proof.
    intros [g d i a inf bk tmp b cl s sr sd s' sr' sd' Ha]. unfold write_channel. cbn [en_info en_graph].
    destruct (inf !! _) as [ids|]; [|done]. destruct (ids !! 0) as [id|]; [|done]. destruct (node_weight g id) as [w|]; [|done].
    destruct (w.2 !! ch) as [bf|]; [|done]. destruct (copy_slice bf x) as [b'|]; [|done]. destruct (set_weight g id _) as [g'|]; [by split|done].
  Qed.
  Lemma input_agrees e f ins : only e f -> both (write_input L e ins) (write_input L f ins).
  Proof.
    intros H. destruct ins as [|x [|y ins]]; cbn [write_input]; [done| |]; pose proof (channel_agrees e f 0 x H) as Hc;
      destruct (write_channel L e 0 x) as [e1|], (write_channel L f 0 x) as [f1|]; try done. by apply channel_agrees.
  Qed.

  Lemma step_agrees e f c : only e f -> match c with CUpdate _ _ code => undisturbed e code | _ => True end ->
    sets c = false -> agree (step L blk e c) (step L blk f c).
  Proof.
    intros H Hu Hs. destruct c as [o code|shs ins|cf m|n x|b0|r|sd0|]; cbn [step].
    - pose proof (update_agrees e f o code H Hu) as Ha. destruct (update L o e code) as [[e1 [er|]]|], (update L o f code) as [[f1 [er'|]]|]; try done;
        destruct Ha as [Hx Ha]; (discriminate Hx || (injection Hx as <-; by split) || by split).
    - unfold next_block. pose proof (input_agrees e f ins H) as Ha.
      destruct (write_input L e ins) as [e1|], (write_input L f ins) as [f1|]; try done.
      destruct Ha as [g d i a inf bk tmp b cl s sr sd s' sr' sd' Ha]. cbn [en_graph en_dest en_input en_ast en_info en_backup en_temp en_samples en_bpm en_sr en_seed en_clock].
      destruct (process _ shs g d) as [g'|]; [|done]. destruct (node_weight g' d) as [w|]; [by split|done].
    - pose proof (commands_agree cf (filter (fun s => s ≠ EmptyString) (split_on ";" (sfilter (fun ch => negb (is_space ch)) m))) e f H) as Ha.
      unfold send_msg. destruct (foldM (send_command L cf) e _) as [e1|], (foldM (send_command L cf) f _) as [f1|]; try done.
    - destruct H as [g d i a inf bk tmp b cl s sr sd s' sr' sd' Ha]. split; [done|]. constructor. destruct Ha as [Hb Ha]. split; [done|].
      unfold sets in Hs. destruct k as [| |n']; cbn in *.
      + destruct Ha as [-> ->]. done.
      + destruct Ha as [-> ->]. done.
      + destruct Ha as (-> & -> & Ha). split; [done|]. split; [done|]. intros m' Hm. destruct (decide (m' = n)) as [->|Hne]; [by rewrite !lookup_insert|]. rewrite !lookup_insert_ne by done. by apply Ha.
    - destruct H as [g d i a inf bk tmp b cl s sr sd s' sr' sd' Ha]. unfold set_bpm. cbn [en_graph en_dest en_input en_ast en_info en_backup en_temp en_samples en_bpm en_sr en_seed en_clock].
      destruct (send_to_all L g _) as [g'|]; [|done]. split; [done|]. constructor. destruct Ha as [_ Ha]. split; [done|]. exact Ha.
    - destruct H as [g d i a inf bk tmp b cl s sr sd s' sr' sd' Ha]. split; [done|]. constructor. destruct Ha as [Hb Ha]. split; [done|].
      unfold sets in Hs. destruct k as [| |n']; cbn in *; [done| |]; [by destruct Ha as [-> _]|by destruct Ha as (_ & -> & Ha)].
    - destruct H as [g d i a inf bk tmp b cl s sr sd s' sr' sd' Ha]. split; [done|]. constructor. destruct Ha as [Hb Ha]. split; [done|].
      unfold sets in Hs. destruct k as [| |n']; cbn in *; [|done|]; [by destruct Ha as [-> _]|by destruct Ha as (-> & _ & Ha)].
    - destruct H as [g d i a inf bk tmp b cl s sr sd s' sr' sd' Ha]. split; [done|]. unfold engine_reset. destruct (add_node _ (dest_w L)) as [g0 d0]. destruct (add_node g0 _) as [g1 i1].
      constructor. cbn [en_sr]. destruct Ha as [Hb Ha]. split; [done|]. destruct k as [| |n']; cbn in *; [done|by destruct Ha as [_ ->]|by destruct Ha as (-> & _)].
  Qed.
  Lemma step_sets e f c e' o : only e f -> sets c = true -> step L blk e c = Ok (e', o) -> o = ODone L /\ only e' f.
  Proof.
    intros [g d i a inf bk tmp b cl s sr sd s' sr' sd' [Hb Ha]] Hs. unfold sets in Hs.
    destruct c as [o' code|shs ins|cf m|n x|b0|r|sd0|]; try (by destruct k); cbn [step]; intros [= <- <-]; (split; [done|]); constructor; (split; [done|]); destruct k as [| |n']; try done.
    apply String.eqb_eq in Hs as ->. cbn in *. destruct Ha as (-> & -> & Ha). split; [done|]. split; [done|]. intros m Hm. rewrite lookup_insert_ne by done. by apply Ha.
  Qed.
  Lemma step_sets_ok e c : sets c = true -> exists e', step L blk e c = Ok (e', ODone L).
  Proof. intros H. destruct c; try (by destruct k); by eexists. Qed.

  Lemma run_agrees cs : forall e f, only e f -> steady_session e cs ->
    match run L blk e cs, run L blk f (without cs) with
    | Ok (e', obs), Ok (f', obs') => obs = put_back cs obs' /\ only e' f'
    | Panic, Panic => True
    | _, _ => False
    end.
  Proof.
    induction cs as [|c cs IH]; intros e f H Hq; [by split|]. cbn [steady_session] in Hq. destruct Hq as [Hu Hq]. cbn [run]. unfold without. rewrite filter_cons.
    destruct (sets c) eqn:Es.
    - rewrite decide_False by done. destruct (step_sets_ok e c Es) as [e1 E1]. rewrite E1.
      destruct (step_sets e f c e1 _ H Es E1) as [_ H1]. specialize (IH e1 f H1 (Hq _ _ E1)). unfold without in IH.
      destruct (run L blk e1 cs) as [[e2 obs]|], (run L blk f _) as [[f2 obs']|]; try done. cbn [put_back]. rewrite Es. destruct IH as [-> IH]. by split.
    - rewrite decide_True by done. cbn [run]. pose proof (step_agrees e f c H Hu Es) as Ha.
      destruct (step L blk e c) as [[e1 o]|] eqn:E1, (step L blk f c) as [[f1 o']|] eqn:E2; try done. destruct Ha as [<- H1].
      specialize (IH e1 f1 H1 (Hq _ _ eq_refl)). unfold without in IH.
      destruct (run L blk e1 cs) as [[e2 obs]|], (run L blk f1 _) as [[f2 obs']|]; try done. cbn [put_back]. rewrite Es. destruct IH as [-> IH]. by split.
  Qed.
  Lemma only_refl e : only e e.
  Proof. destruct e. constructor. split; [done|]. by destruct k. Qed.

  (** C85: a session and the session without the calls that change one setting: one panics if
      and only if the other does, and otherwise every call returns the same. *)
  Theorem C85_settings_are_silent e cs : steady_session e cs ->
    match run L blk e cs, run L blk e (without cs) with
    | Ok (_, obs), Ok (_, obs') => obs = put_back cs obs'
    | Panic, Panic => True
    | _, _ => False
    end.
  Proof.
    intros H. pose proof (run_agrees cs e e (only_refl e) H) as Ha.
    destruct (run L blk e cs) as [[e1 obs]|], (run L blk e (without cs)) as [[f1 obs']|]; try done. by destruct Ha.
  Qed.

  (** The running program stays the same through anything but another program and [reset]. *)
  Definition same_program (new : gmap string (list (comp L))) (c : call L) : Prop :=
    match c with CUpdate _ _ code => forall p, parse code = Done p -> p = new | CReset _ => False | _ => True end.
  Lemma channel_ast e ch x e' : write_channel L e ch x = Ok e' -> en_ast L e' = en_ast L e.
  Proof.
    unfold write_channel. destruct (en_info L e !! _) as [ids|]; [|done]. destruct (ids !! 0) as [id|]; [|done]. destruct (node_weight _ id) as [w|]; [|done].
    destruct (w.2 !! ch) as [bf|]; [|done]. destruct (copy_slice bf x) as [b'|]; [|done]. destruct (set_weight _ id _) as [g'|]; [|done]. by intros [= <-].
  Qed.
  Lemma commands_ast cf l : forall e e', foldM (send_command L cf) e l = Ok e' -> en_ast L e' = en_ast L e.
  Proof.
    induction l as [|m l IH]; intros e e'; cbn [foldM]; [by intros [= <-]|]. destruct (send_command L cf e m) as [e1|] eqn:E; [|done]. intros H. rewrite (IH e1 e' H). clear H IH. revert E.
    unfold send_command. destruct (split_on _ m) as [|w1 [|w2 [|w3 [|w4 ws]]]]; try by intros [= <-]. destruct (en_info L e !! w1) as [ids|]; [|by intros [= <-]].
    destruct (ids !! _) as [id|]; [|done]. destruct (send_to L _ id _) as [g'|]; [|done]. by intros [= <-].
  Qed.
  Lemma update_ast_ast o e new e' er : update_ast L o e new = Ok (e', er) -> en_ast L e' = en_ast L e \/ en_ast L e' = Some new.
  Proof.
    unfold update_ast. destruct (plan L o _ new) as [[[df t] idrem]|er'|]; [|intros [= <- _]; by left|done].
    destruct (foldM (add_one L) _ _) as [[[g' tmp'] t']|]; [|done]. destruct (ref_check L t' new _) as [r|]; [intros [= <- _]; by left|].
    unfold rewire. destruct (foldM (connect_refs_one _ _ _) _ _) as [[[g2 sn] [er'|]]|]; [intros [= <- _]; by left| |done].
    destruct (foldM _ g2 _) as [g3|]; [|done]. intros [= <- _]. by right.
  Qed.
  Lemma step_ast e c e' o new : step L blk e c = Ok (e', o) -> same_program new c -> en_ast L e = Some new -> en_ast L e' = Some new.
  Proof.
    intros Hs Hc He. destruct c as [o' code|shs ins|cf m|n x|b0|r|sd0|]; cbn [step same_program] in Hs, Hc.
    - assert (Hu : exists er, update L o' e code = Ok (e', er)) by (destruct (update L o' e code) as [[e1 [er|]]|]; [| |done]; injection Hs as <- _; by eexists).
      destruct Hu as [er Hu]. unfold update in Hu. destruct (parse code) as [p|er'|] eqn:Ep; [|by injection Hu as <- _|done].
      rewrite (Hc p eq_refl) in Hu. destruct (update_ast_ast _ _ _ _ _ Hu) as [E|E]; [by rewrite E|done].
    - unfold next_block in Hs. destruct (write_input L e ins) as [e1|] eqn:E; [|done].
      assert (H1 : en_ast L e1 = Some new).
      { destruct ins as [|x [|y ins]]; cbn [write_input] in E; [by injection E as <-| |]; destruct (write_channel L e 0 x) as [e2|] eqn:E2; try done.
        - injection E as <-. by rewrite (channel_ast _ _ _ _ E2).
        - rewrite (channel_ast _ _ _ _ E). by rewrite (channel_ast _ _ _ _ E2). }
      destruct (process _ shs _ _) as [g'|]; [|done]. destruct (node_weight g' _) as [w|]; [|done]. injection Hs as <- _. exact H1.
    - unfold send_msg in Hs. destruct (foldM (send_command L cf) e _) as [e1|] eqn:E; [|done]. injection Hs as <- _. by rewrite (commands_ast _ _ _ _ E).
    - injection Hs as <- _. done.
    - unfold set_bpm in Hs. destruct (send_to_all L _ _) as [g|]; [|done]. by injection Hs as <- _.
    - injection Hs as <- _. done.
    - injection Hs as <- _. done.
    - done.
  Qed.
  (** C85 while one program is running, whatever it is made of: it may be submitted again, in
      any layout, and texts that do not parse may be submitted too.  The components must equal
      themselves, as all without a NaN do. *)
  Theorem C85_same_program e cs new : en_ast L e = Some new -> Forall (same_program new) cs ->
    (forall n ks c, new !! n = Some ks -> c ∈ ks -> comp_eqb c c = true) ->
    match run L blk e cs, run L blk e (without cs) with
    | Ok (_, obs), Ok (_, obs') => obs = put_back cs obs'
    | Panic, Panic => True
    | _, _ => False
    end.
  Proof.
    intros He Hcs Hself. apply C85_settings_are_silent. revert e He. induction Hcs as [|c cs Hc Hcs IH]; intros e He; [done|]. cbn [steady_session]. split.
    - destruct c as [o' code| | | | | | |]; try done. intros p n ks c Hp Hn Hin. right. exists new, ks. cbn in Hc. rewrite (Hc p Hp) in Hn. split; [done|]. split; [done|].
      apply existsb_exists. exists c. split; [by apply elem_of_list_In|]. by eapply Hself.
    - intros e' o Hs. apply IH. by eapply step_ast.
  Qed.
End settings.

(** ** Which components of the language depend on which setting *)
Definition rateless (c : component) : Prop :=
  match c with
  | CBalance _ _ | CRhpf _ _ | CPlate _ | CMul _ | CPan _ | CDelayn _ | CNoise _ | CSpeed _ | COnepole _ | CAdd _ | CConstSig _
  | CBd _ | CHh _ | CSn _ | CSawSynth _ _ | CSquSynth _ _ | CTriSynth _ _ | CGet _ | CChoose _ | CMix _ => True
  | _ => False
  end.
Definition indifferent (k : setting) (c : component) : Prop :=
  match k with
  | KRate => rateless c
  | KSeed => match c with CChoose _ => False | _ => True end
  | KSample n => match c with
                 | CSp m => m <> n
                 | CPSampler (PsPattern evs _) => Forall (fun e => ev_name e.1 <> n) evs
                 | _ => True
                 end
  end.
Lemma select_same (d d' : gmap string sampledata) n l : (forall m, m <> n -> d !! m = d' !! m) -> Forall (fun m => m <> n) l -> select d l = select d' l.
Proof. intros H. induction 1 as [|m l Hm Hl IH]; [done|]. cbn [select]. rewrite (H m Hm). destruct (d' !! m); [|done]. by rewrite IH. Qed.
Local Opaque bd_new sn_new hh_new plate_new synth_new imp_new delayms_new delayn_new apf_new onepole_new bq_new osc_new boxed boxed_res boxed_comp.
Theorem C85_indifferent P get k c : indifferent k c -> deaf (glang P get) k c.
Proof.
  intros Hc [s sr b sd] [s' sr' b' sd'] [Hb Ha]. cbn in Hb. subst b'. change (makenode_ P (Env s sr b sd) c = makenode_ P (Env s' sr' b sd') c). destruct k as [| |n]; cbn in Ha, Hc.
  - destruct Ha as [-> ->]. destruct c; try contradiction; unfold makenode_; cbn [e_sr e_bpm e_samples e_seed]; reflexivity.
  - destruct Ha as [-> ->]. destruct c; try contradiction; unfold makenode_; cbn [e_sr e_bpm e_samples e_seed]; reflexivity.
  - destruct Ha as (-> & -> & Ha). destruct c; unfold makenode_; cbn [e_sr e_bpm e_samples e_seed]; try reflexivity.
    + rewrite (Ha _ Hc). reflexivity.
    + match goal with x : psam |- _ => destruct x end; [reflexivity|]. cbn in Hc. rewrite (select_same s s' n); [reflexivity|exact Ha|]. rewrite Forall_map. exact Hc.
Qed.
Local Transparent bd_new sn_new hh_new plate_new synth_new imp_new delayms_new delayn_new apf_new onepole_new bq_new osc_new boxed boxed_res boxed_comp.

(** C85 for programs of components that do not depend on the setting, on any engine. *)
Corollary C85_programs P get blk k (e : engine (glang P get)) cs :
  (forall o code new n ks c, CUpdate (glang P get) o code ∈ cs -> get code = Done new -> new !! n = Some ks -> c ∈ ks -> indifferent k c) ->
  match run (glang P get) blk e cs, run (glang P get) blk e (without (glang P get) k cs) with
  | Ok (_, obs), Ok (_, obs') => obs = put_back (glang P get) k cs obs'
  | Panic, Panic => True
  | _, _ => False
  end.
Proof.
  intros H. apply C85_settings_are_silent. revert e. induction cs as [|c cs IH]; intros e; [done|]. cbn [steady_session]. split.
  - destruct c; try done. intros new n ks c Hp Hn Hc. left. apply C85_indifferent. by eapply (H _ _ new n ks c ltac:(by left)).
  - intros e' o _. apply IH. intros o' code new n ks c' Hin. apply (H o'). by right.
Qed.

(** ** Sessions that meet the hypotheses *)
From Verif Require Import Session.
Local Open Scope string_scope.
(** A sine is playing; the rate changes, a gain is added behind it, the rate changes again. *)
Definition gain_text : string := "o: sin 440 >> mul 2".
Lemma case_ok : match update glicol id_orders (engine_new glicol) "o: sin 440" with Ok (_, None) => true | _ => false end = true.
Proof. run_session. Qed.
Lemma case_ast : match update glicol id_orders (engine_new glicol) "o: sin 440" with
  | Ok (e, _) => match en_ast glicol e with Some a => a !! "o" | None => None end | Panic => None end = Some [CSin (Num (f_of_dec false 440 0))].
Proof. run_session. Qed.
Lemma case_text : match get_ast c64 no_math gain_text with Done a => map_to_list a | _ => [] end = [("o", [CSin (Num (f_of_dec false 440 0)); CMul (Num (f_of_dec false 2 0))])].
Proof. run_session. Qed.
Example C85_case : exists e, update glicol id_orders (engine_new glicol) "o: sin 440" = Ok (e, None) /\
  steady_session glicol 8 KRate e [CSr glicol 48000; submit gain_text; CSr glicol 22050; play_block].
Proof.
  pose proof case_ok as H1. pose proof case_ast as H2. destruct (update glicol id_orders (engine_new glicol) "o: sin 440") as [[e [er|]]|]; [discriminate H1| |discriminate H1].
  exists e. split; [reflexivity|]. clear H1. destruct (en_ast glicol e) as [old|] eqn:Ha; [|discriminate H2].
  cbn [steady_session]. split; [exact I|]. intros e1 o1 He1. injection He1 as <- _. split; [|intros e2 o2 _; split; [exact I|]; intros e3 o3 _; split; [exact I|]; intros; exact I].
  intros new n cs c Hp Hn Hc. pose proof case_text as Hg. change (get_ast c64 no_math gain_text = Done new) in Hp. rewrite Hp in Hg. clear Hp.
  apply elem_of_map_to_list in Hn.
  assert (Hn2 : ((n, cs) : string * list component) ∈ [("o", [CSin (Num (f_of_dec false 440 0)); CMul (Num (f_of_dec false 2 0))])]) by (rewrite <- Hg; exact Hn).
  clear Hn Hg. apply elem_of_list_singleton in Hn2. apply pair_equal_spec in Hn2 as [-> ->].
  apply elem_of_cons in Hc as [->|Hc%elem_of_list_singleton]; [|subst c; left; apply C85_indifferent; exact I].
  right. exists old, [CSin (Num (f_of_dec false 440 0))]. split; [exact Ha|]. split; [exact H2|reflexivity].
Qed.
(** The sine is submitted again after a change of the rate. *)
Example C85_same_case : exists e new, update glicol id_orders (engine_new glicol) "o: sin 440" = Ok (e, None) /\ en_ast glicol e = Some new /\
  Forall (same_program glicol new) [CSr glicol 48000; submit "o: sin 440"; submit "o: sin"; play_block] /\
  new !! "o" = Some [CSin (Num (f_of_dec false 440 0))].
Proof.
  pose proof case_ok as H1. pose proof case_ast as H2. destruct (update glicol id_orders (engine_new glicol) "o: sin 440") as [[e [er|]]|] eqn:E; [discriminate H1| |discriminate H1].
  clear H1. destruct (en_ast glicol e) as [new|] eqn:Ha; [|discriminate H2]. exists e, new. split; [reflexivity|]. split; [exact Ha|]. split; [|exact H2]. clear H2.
  assert (H3 : same_program glicol new (submit "o: sin 440")).
  { unfold same_program, submit. intros p Hp. unfold update in E. rewrite Hp in E. apply update_ast_ast in E. rewrite Ha in E. destruct E as [E|E]; [discriminate E|]. injection E as ->. reflexivity. }
  clear E Ha. assert (H4 : same_program glicol new (submit "o: sin")).
  { unfold same_program, submit. intros p Hp. exfalso.
    assert (Hx : match get_ast c64 no_math "o: sin" with Done _ => false | _ => true end = true) by run_session.
    change (get_ast c64 no_math "o: sin" = Done p) in Hp. rewrite Hp in Hx. discriminate Hx. }
  exact (Forall_cons_2 _ (CSr glicol 48000) _ I (Forall_cons_2 _ _ _ H3 (Forall_cons_2 _ _ _ H4 (Forall_cons_2 _ (play_block) _ I (Forall_nil_2 _))))).
Qed.
(** The hypothesis is needed: a sine that is created after the change is another one, and one
    that was created before it stays as it is when the text is submitted again. *)
Definition block_of (s : list seen) : option (list (list f32)) := match last s with Some (Played b) => Some b | _ => None end.
Example C85_new_sine : block_of (sees [CSr glicol 48000; submit "o: sin 440"; play_block]) <> block_of (sees [submit "o: sin 440"; play_block]) /\
  block_of (sees [submit "o: sin 440"; CSr glicol 48000; submit "o: sin 440"; play_block]) = block_of (sees [submit "o: sin 440"; play_block]).
Proof. split; [|run_session]. with_strategy transparent [peg_run W W1] (vm_compute). discriminate. Qed.

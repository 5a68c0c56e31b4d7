(** * C84: the same text sounds the same at every block size.

    [C59_split_partial] says this of a single node.  Here it is said of a whole text brought
    into two engines that differ in nothing but the number of samples in a block. *)
From Verif Require Import InputProofs RewireProofs BlockProofs FullProofs StateProofs LiveProofs Props_Signal Props_Update Props_Inputs Reorder Props_Delay Props_Filter Props_Range Props_Seq Props_Blocks Props_Whole.
From Verif Require Import SafeNet Props_Live Syntax Props_Syntax Props_Listen Stream Demo Props_Score Props_Mixdown.
From Coq Require Import Lia.
Local Open Scope nat_scope.
Local Notation length := List.length.

(** No filter takes its cutoff from another line (it would read it once per block). *)
Definition no_sweeps (p : string -> option (list component)) : Prop :=
  forall k cs i lo r q, p k = Some cs -> cs !! i <> Some (filter_comp lo (NRef r) q).

(** The tone of a component does not depend on the block size. *)
Lemma tone_blk P n sr p k i g : no_sweeps p -> tone P sr p k i g -> tone (with_blk P n) sr p k i g.
Proof.
  intros Hns. induction 1 as [k cs v Hk Hc|k cs w f Hk Hc|k cs w r cs' g Hk Hc Hr Ht IH|k cs r cs' g Hk Hc Hr Ht IH|k cs i c a op g Hk Hc Ha Ht IH|k cs i c r cs' op g m Hk Hc Ha Ht IH Hr Htm IHm|k cs sd Hk Hc|k cs i c v F g Hk Hc HF Ht IH|k cs i c r cs' F g m Hk Hc HF Ht IH Hr Htm IHm].
  - by eapply tn_sig.
  - exact (tn_osc (with_blk P n) sr p k cs w f Hk Hc).
  - exact (tn_fm (with_blk P n) sr p k cs w r cs' g Hk Hc Hr IH).
  - by eapply tn_get.
  - by eapply tn_number.
  - by eapply tn_line.
  - exact (tn_noise (with_blk P n) sr p k cs sd Hk Hc).
  - remember (Num v) as pp eqn:Ep. destruct HF as [lo pp q|v'|r]; [subst pp|injection Ep as ->|discriminate Ep].
    + exact (tn_effect (with_blk P n) sr p k cs i _ v _ g Hk Hc (ef_filter (with_blk P n) sr lo (Num v) q) IH).
    + exact (tn_effect (with_blk P n) sr p k cs i _ v _ g Hk Hc (ef_pole (with_blk P n) sr v) IH).
  - remember (NRef r) as pp eqn:Ep. destruct HF as [lo pp q|v'|r']; [subst pp|discriminate Ep|injection Ep as ->].
    + by destruct (Hns k cs (S i) lo r q Hk).
    + exact (tn_effect_line (with_blk P n) sr p k cs i _ r cs' _ g m Hk Hc (ef_pole_line (with_blk P n) sr r) IH Hr IHm).
Qed.

Lemma tone_ext P sr p p' k i g : (forall k, p k = p' k) -> tone P sr p k i g -> tone P sr p' k i g.
Proof.
  intros Hp. induction 1 as [k cs v Hk Hc|k cs w f Hk Hc|k cs w r cs' g Hk Hc Hr Ht IH|k cs r cs' g Hk Hc Hr Ht IH|k cs i c a op g Hk Hc Ha Ht IH|k cs i c r cs' op g m Hk Hc Ha Ht IH Hr Htm IHm|k cs sd Hk Hc|k cs i c v F g Hk Hc HF Ht IH|k cs i c r cs' F g m Hk Hc HF Ht IH Hr Htm IHm];
    rewrite Hp in Hk; try rewrite Hp in Hr.
  - by eapply tn_sig.
  - by eapply tn_osc.
  - by eapply tn_fm.
  - by eapply tn_get.
  - by eapply tn_number.
  - by eapply tn_line.
  - by eapply tn_noise.
  - by eapply tn_effect.
  - by eapply tn_effect_line.
Qed.

(** Up to two summands can be added in any order. *)
Lemma sum_few (G : string -> f32) aud ks : length aud <= 2 -> ks ≡ₚ aud -> foldl fadd f0 (map G ks) = foldl fadd f0 (map G aud).
Proof.
  intros Hl Hp. destruct aud as [|a [|b [|]]]; cbn in Hl; try lia.
  - apply Permutation_sym, Permutation_nil in Hp as ->. done.
  - apply Permutation_sym, Permutation_length_1_inv in Hp as ->. done.
  - apply Permutation_sym, Permutation_length_2_inv in Hp as [-> | ->]; [done|]. cbn [map foldl]. apply mix2_comm.
Qed.
Lemma lane_sum P (G : string -> nat -> f32) aud outs : length aud <= 2 ->
  (forall b out, outs !! b = Some out -> exists ks, ks ≡ₚ aud /\ forall ch, ch < 2 -> out !! ch = Some (block P (fun t => foldl fadd f0 (map (fun k => G k t) ks)) b)) ->
  forall ch, ch < 2 -> lane ch outs = map (fun t => foldl fadd f0 (map (fun k => G k t) aud)) (seq 0 (length outs * p_blk P)).
Proof.
  intros Hl H ch Hch. rewrite <- blocks_concat. unfold lane. f_equal. apply list_eq. intros b. change (map ?f ?l) with (f <$> l). rewrite !list_lookup_fmap.
  destruct (outs !! b) as [out|] eqn:E.
  - rewrite lookup_seq_lt by (by eapply lookup_lt_Some). cbn [fmap option_fmap option_map Nat.add]. f_equal. destruct (H b out E) as (ks & Hks & Ho).
    change (default [] (out !! ch) = block P (fun t => foldl fadd f0 (map (fun k => G k t) aud)) b). rewrite (Ho ch Hch). apply map_ext. intros t.
    by apply (sum_few (fun k => G k t)).
  - rewrite (proj2 (lookup_ge_None (seq 0 (length outs)) b)); [done|]. rewrite seq_length. by apply lookup_ge_None in E.
Qed.

(** C84: texts as in C83 without filter sweeps and with up to two audible lines.  Two texts
    whose names stand for the same lines, in any order and layout, are brought into two new
    engines with block sizes of their own: every sample that both have returned is the same,
    whatever the hash orders, the input and the number of blocks. *)
Theorem C84_same_sound_partial P n cf math blk1 blk2 txt1 txt2 ls1 ls2 rank aud (o1 o2 : orders) :
  debug (p_cfg P) = false -> (16777216 <= umax (p_cfg P))%Z -> 0 < p_blk P -> 0 < n ->
  program_text cf math txt1 ls1 -> program_text cf math txt2 ls2 -> (forall k, last_named k ls2 = last_named k ls1) ->
  ordered_lines ls1 rank -> audible_lines (fun k => last_named k ls1) aud -> length aud <= 2 ->
  (forall k ks i c, last_named k ls1 = Some ks -> ks !! i = Some c -> k <> "~input"%string /\ synth c i) -> no_sweeps (fun k => last_named k ls1) ->
  exists e1 e2, update (glang P (get_ast cf math)) o1 (engine_new _) txt1 = Ok (e1, None) /\
    update (glang (with_blk P n) (get_ast cf math)) o2 (engine_new _) txt2 = Ok (e2, None) /\
    forall l1 l2, Forall (fun x => Forall (fun s => length s = p_blk P) x.2) l1 -> Forall (fun x => Forall (fun s => length s = n) x.2) l2 ->
      exists outs1 outs2, render P cf math blk1 e1 l1 = Ok outs1 /\ render (with_blk P n) cf math blk2 e2 l2 = Ok outs2 /\
        forall ch t, ch < 2 -> t < length l1 * p_blk P -> t < length l2 * n ->
          is_Some (lane ch outs1 !! t) /\ lane ch outs1 !! t = lane ch outs2 !! t.
Proof.
  intros Hrel Humax Hblk Hn Ht Htt Hsame Hord Haud Hfew Hsy Hns.
  destruct (C83_patch P cf math Hrel Hblk Humax blk1 txt1 ls1 rank aud o1 Ht Hord Haud Hsy) as (e1 & G1 & Hu1 & HG1 & H1).
  destruct (C83_patch (with_blk P n) cf math Hrel Hn Humax blk2 txt2 ls2 rank aud o2 Htt) as (e2 & G2 & Hu2 & HG2 & H2).
  { intros k ks c Hk Hc. rewrite Hsame in Hk. destruct (Hord k ks c Hk Hc) as [Ha Hb]. split; [done|]. intros r Hr. rewrite Hsame. by apply Hb. }
  { destruct Haud as [Ha Hb]. split; [done|]. intros k. rewrite Hsame. apply Hb. }
  { intros k ks i c Hk. rewrite Hsame in Hk. by apply Hsy. }
  exists e1, e2. split; [exact Hu1|]. split; [exact Hu2|]. intros l1 l2 Hl1 Hl2.
  destruct (H1 l1 Hl1) as (outs1 & Hr1 & Hn1 & Hb1). destruct (H2 l2 Hl2) as (outs2 & Hr2 & Hn2 & Hb2).
  exists outs1, outs2. split; [exact Hr1|]. split; [exact Hr2|]. clear Hu1 Hu2 H1 H2 Hr1 Hr2. intros ch t Hch Ht1 Ht2.
  rewrite (lane_sum P G1 aud outs1 Hfew Hb1 ch Hch), (lane_sum (with_blk P n) G2 aud outs2 Hfew Hb2 ch Hch), Hn1, Hn2.
  change (map ?f ?l) with (f <$> l). rewrite !list_lookup_fmap, !lookup_seq_lt by done. cbn [fmap option_fmap option_map Nat.add]. split; [by eexists|]. f_equal. f_equal.
  assert (He : forall k, k ∈ aud -> G1 k t = G2 k t).
  { intros k Hk. assert (Hlo : last_of (fun k => last_named k ls2) k = last_of (fun k => last_named k ls1) k) by (unfold last_of; by rewrite Hsame).
    pose proof (HG2 k Hk) as Hg2. rewrite Hlo in Hg2.
    apply (C83_tone_unique (with_blk P n) 44100 (fun k => last_named k ls1) k (last_of (fun k => last_named k ls1) k)); [apply tone_blk; [done|by apply HG1]|].
    apply (tone_ext (with_blk P n) _ (fun k => last_named k ls2)); [intros k'; by rewrite Hsame|exact Hg2]. }
  clear -He. induction aud as [|a aud IH]; [done|]. cbn [map fmap list_fmap]. rewrite He by (by left). f_equal. apply IH. intros k Hk. apply He. by right.
Qed.
(** The same text at two block sizes. *)
Corollary C84_block_size_partial P n cf math blk1 blk2 txt ls rank aud (o1 o2 : orders) :
  debug (p_cfg P) = false -> (16777216 <= umax (p_cfg P))%Z -> 0 < p_blk P -> 0 < n ->
  program_text cf math txt ls -> ordered_lines ls rank -> audible_lines (fun k => last_named k ls) aud -> length aud <= 2 ->
  (forall k ks i c, last_named k ls = Some ks -> ks !! i = Some c -> k <> "~input"%string /\ synth c i) -> no_sweeps (fun k => last_named k ls) ->
  exists e1 e2, update (glang P (get_ast cf math)) o1 (engine_new _) txt = Ok (e1, None) /\
    update (glang (with_blk P n) (get_ast cf math)) o2 (engine_new _) txt = Ok (e2, None) /\
    forall l1 l2, Forall (fun x => Forall (fun s => length s = p_blk P) x.2) l1 -> Forall (fun x => Forall (fun s => length s = n) x.2) l2 ->
      exists outs1 outs2, render P cf math blk1 e1 l1 = Ok outs1 /\ render (with_blk P n) cf math blk2 e2 l2 = Ok outs2 /\
        forall ch t, ch < 2 -> t < length l1 * p_blk P -> t < length l2 * n ->
          is_Some (lane ch outs1 !! t) /\ lane ch outs1 !! t = lane ch outs2 !! t.
Proof. intros Hrel Humax Hblk Hn Ht Hord Haud Hfew Hsy Hns. by apply (C84_same_sound_partial P n cf math blk1 blk2 txt txt ls ls rank aud o1 o2). Qed.

(** ** A text that meets the hypotheses, and the sweep that does not. *)
From Verif Require Import Session.
Local Open Scope string_scope.
Example C84_case : program_text c64 no_math duo_text duo_lines /\
  ordered_lines duo_lines (fun n => if String.eqb n "o" then 1 else 0)%nat /\ audible_lines (fun n => last_named n duo_lines) ["p"; "o"] /\
  (forall n ks i c, last_named n duo_lines = Some ks -> ks !! i = Some c -> n <> "~input" /\ synth c i) /\ no_sweeps (fun n => last_named n duo_lines).
Proof.
  destruct C83_two_voices_case as (H1 & H2 & H3 & H4). split_and!; try done. intros k cs i lo r q Hk Hi. apply last_named_in in Hk.
  apply elem_of_cons in Hk as [Hk|Hk]; [|apply elem_of_cons in Hk as [Hk|Hk]; [|apply elem_of_list_singleton in Hk]]; injection Hk as -> ->;
    destruct i as [|[|[|i]]]; try discriminate Hi; apply (inj Some) in Hi; by destruct lo.
Qed.

(** The lines of [duo_text] in another order, with other white space, and a first line that a
    later one replaces. *)
Definition turned_text : string := "p: sin ~b
~b: sin 440 >> mul 0.5 >> add 440

p:  sin 440
o: sin ~b".
Definition turned_lines : list (string * list component) :=
  [("p", [osc_comp WSin (NRef "~b")]);
   ("~b", [osc_comp WSin (Num (f_of_dec false 440 0)); CMul (Num (f_of_dec false 5 (-1))); CAdd (Num (f_of_dec false 440 0))]);
   ("p", [osc_comp WSin (Num (f_of_dec false 440 0))]); ("o", [osc_comp WSin (NRef "~b")])].
Example C84_turned_case : program_text c64 no_math turned_text turned_lines /\ forall k, last_named k turned_lines = last_named k duo_lines.
Proof.
  split.
  - exists "", turned_text. split; [done|]. split; [done|].
    apply (prog_line _ _ "p: sin ~b" ("p", [CSin (NRef "~b")]) eol ("~b: sin 440 >> mul 0.5 >> add 440" ++ (eol ++ eol) ++ "p:  sin 440" ++ eol ++ "o: sin ~b")).
    + exists "", " ", "sin ~b". eexists. exists "". eexists.
      split; [by apply (name_plain _ "p" "")|]. split; [done|]. split; [done|]. split; [by apply t_sin_b|]. split; [|split; [reflexivity|reflexivity]]. constructor.
    + exists "", "", "", eol. split_and!; try done; [seth|]. rewrite <- (sapp_nil_r eol). apply (breaks_cons "" ""); [done|constructor].
    + apply (prog_line _ _ "~b: sin 440 >> mul 0.5 >> add 440" ("~b", _) (eol ++ eol) ("p:  sin 440" ++ eol ++ "o: sin ~b")).
      * exists "", " ", ("sin" ++ " " ++ "440"). eexists. exists ((" " ++ "" ++ "" ++ ">>" ++ " ") ++ ("mul" ++ " " ++ "0.5") ++ (" " ++ "" ++ "" ++ ">>" ++ " ") ++ ("add" ++ " " ++ "440") ++ ""). eexists.
        split; [by apply (name_tilde _ "b" "")|]. split; [done|]. split; [done|]. split; [by apply t_sin|]. split; [|split; reflexivity].
        constructor; [|by apply t_mul|]; [apply joint_here; try done; seth|]. constructor; [|by apply t_add|constructor]. apply joint_here; try done. seth.
      * exists "", "", "", (eol ++ eol). split_and!; try done; [seth|]. apply (breaks_cons "" eol); [done|]. rewrite <- (sapp_nil_r eol). apply (breaks_cons "" ""); [done|constructor].
      * apply (prog_line _ _ "p:  sin 440" ("p", _) eol "o: sin ~b").
        -- exists "", "  ", ("sin" ++ " " ++ "440"). eexists. exists "". eexists.
           split; [by apply (name_plain _ "p" "")|]. split; [done|]. split; [done|]. split; [by apply t_sin|]. split; [|split; [reflexivity|reflexivity]]. constructor.
        -- exists "", "", "", eol. split_and!; try done; [seth|]. rewrite <- (sapp_nil_r eol). apply (breaks_cons "" ""); [done|constructor].
        -- rewrite <- (sapp_nil_r "o: sin ~b"). rewrite <- (sapp_nil_r "") at 2. constructor; [|..].
           ++ exists "", " ", "sin ~b". eexists. exists "". eexists.
              split; [by apply (name_plain _ "o" "")|]. split; [done|]. split; [done|]. split; [by apply t_sin_b|]. split; [|split; [reflexivity|reflexivity]]. constructor.
           ++ exists "", "", "", "". split_and!; try done; [seth|constructor].
           ++ constructor.
           ++ by left.
        -- right. right. done.
      * right. right. done.
    + right. right. done.
  - intros k. unfold turned_lines, duo_lines, fm_lines, last_named. cbn [rev app List.find fst snd].
    destruct (String.eqb_spec "p" k) as [<-|Hp]; [done|]. destruct (String.eqb_spec "o" k) as [<-|Ho]; [done|]. by destruct (String.eqb_spec "~b" k) as [<-|Hb].
Qed.

(** With a filter sweep the sound does depend on the block size: the same 16 samples in blocks
    of 8 and in blocks of 4. *)
Theorem C84_block_size_refuted : exists txt ls e1 e2 outs1 outs2, program_text c64 no_math txt ls /\ line_pair ls "o" "~b" /\
  update (glang demo (get_ast c64 no_math)) id_orders (engine_new _) txt = Ok (e1, None) /\
  update (glang (with_blk demo 4) (get_ast c64 no_math)) id_orders (engine_new _) txt = Ok (e2, None) /\
  render demo c64 no_math 8 e1 (replicate 2 ((fun _ => id_shuffle), [])) = Ok outs1 /\
  render (with_blk demo 4) c64 no_math 4 e2 (replicate 4 ((fun _ => id_shuffle), [])) = Ok outs2 /\
  length (lane 1 outs1) = 16%nat /\ length (lane 1 outs2) = 16%nat /\ lane 1 outs1 <> lane 1 outs2.
Proof.
  destruct C83_sweep_case as (_ & H2 & _).
  destruct (C83_filter_sweep demo c64 no_math eq_refl ltac:(cbn; lia) ltac:(cbn; lia) 8 sweep_text sweep_lines "o" "~b" WSin (f_of_dec false 440 0) true (f_of_dec false 5 (-1)) (f_of_dec false 5 (-1)) WSin (f_of_dec false 440 0) (f_of_dec false 5 (-1)) (f_of_dec false 440 0) id_orders sweep_text_ok H2 eq_refl eq_refl) as (e1 & Hu1 & Hr1).
  destruct (C83_filter_sweep (with_blk demo 4) c64 no_math eq_refl ltac:(cbn; lia) ltac:(cbn; lia) 4 sweep_text sweep_lines "o" "~b" WSin (f_of_dec false 440 0) true (f_of_dec false 5 (-1)) (f_of_dec false 5 (-1)) WSin (f_of_dec false 440 0) (f_of_dec false 5 (-1)) (f_of_dec false 440 0) id_orders sweep_text_ok H2 eq_refl eq_refl) as (e2 & Hu2 & Hr2).
  destruct (Hr1 (replicate 2 ((fun _ => id_shuffle), []))) as (outs1 & R1 & L1); [by repeat constructor|].
  destruct (Hr2 (replicate 4 ((fun _ => id_shuffle), []))) as (outs2 & R2 & L2); [by repeat constructor|].
  exists sweep_text, sweep_lines, e1, e2, outs1, outs2. split; [exact sweep_text_ok|]. split; [exact H2|]. split; [exact Hu1|]. split; [exact Hu2|]. split; [exact R1|]. split; [exact R2|].
  clear Hu1 Hu2 Hr1 Hr2 R1 R2 H2 e1 e2. rewrite (L1 1 ltac:(lia)), (L2 1 ltac:(lia)). split; [by rewrite map_length, seq_length|]. split; [by rewrite map_length, seq_length|].
  clear. vm_compute. intros H. discriminate H.
Qed.

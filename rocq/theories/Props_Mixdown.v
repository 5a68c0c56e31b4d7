(** * C83, several audible lines: the caller gets the sum of their signals. *)
From Verif Require Import InputProofs RewireProofs BlockProofs FullProofs StateProofs LiveProofs Props_Signal Props_Update Props_Inputs Reorder Props_Delay Props_Range Props_Seq Props_Blocks Props_Whole.
From Verif Require Import SafeNet Props_Live Syntax Props_Syntax Props_Listen Stream Props_Score.
From Coq Require Import Lia.
Local Open Scope nat_scope.
Local Notation length := List.length.

Section mixdown.
  Context (P : platform) (get : string -> outcome (gmap string (list component))) (blk : Z).
  Notation L := (glang P get).
  Notation engine := (engine L).
  Notation prog := (gmap string (list component)).

  (** The audible lines of a program. *)
  Definition audible_lines (p : string -> option (list component)) (aud : list string) : Prop :=
    NoDup aud /\ forall k, k ∈ aud <-> is_Some (p k) /\ contains_char "~" k = false.
  (** The last component of a line. *)
  Definition last_of (p : string -> option (list component)) (k : string) : nat := pred (length (default [] (p k))).

  Lemma forall2_ex {A B} (R : A -> B -> Prop) (l : list A) : (forall x, x ∈ l -> exists y, R x y) -> exists l', Forall2 R l l'.
  Proof.
    induction l as [|x l IH]; intros H; [by exists []|]. destruct (H x ltac:(by left)) as [y Hy]. destruct IH as [l' Hl']; [intros z Hz; apply H; by right|].
    exists (y :: l'). by constructor.
  Qed.

  (** One block: the lines are summed in an order that the hash maps decide. *)
  Lemma mix_block e p shs ins e' out aud : tamely L blk e -> en_ast L e = Some p -> next_block L blk shs e ins = Ok (e', out) ->
    audible_lines (fun k => p !! k) aud ->
    exists ks, ks ≡ₚ aud /\ forall ch, ch < 2 -> out !! ch =
      Some (map (fun t => foldl fadd f0 (map (fun k => contrib ch t (0, default [] (sound P get e' k (last_of (fun k => p !! k) k)))) ks)) (seq 0 (p_blk P))).
  Proof.
    intros Ht Hp Hn [Hnd Haud]. destruct (tamely_inv L (glang_ok P get) _ _ Ht) as (He & Hal & _).
    assert (Ho : old_ast L e = p) by (unfold old_ast; by rewrite Hp).
    destruct (block_keeps P get blk e shs ins e' out Ht Hn) as (Ht' & Ha & Hi & _). destruct (tamely_inv L (glang_ok P get) _ _ Ht') as (He' & _).
    destruct (C21_every_sample P get blk e p shs ins e' out Ht Hp Hn) as (inp & Hndi & Hin & Hfull & ->).
    assert (Hline : forall k, k ∈ aud -> exists u bs, chain_end (en_info L e) k u /\ (exists su, node_weight (en_graph L e') u = Some (su, bs)) /\ sound P get e' k (last_of (fun k => p !! k) k) = Some bs).
    { intros k Hk. apply Haud in Hk as [[cs Hk] _]. destruct (al_len _ _ Hal k cs) as (ids & Hids & Hlen); [by rewrite Ho|].
      assert (Hne : ids ≠ []).
      { intros ->. destruct cs; [|done]. pose proof (al_ok _ _ Hal) as [_ Hne]. rewrite Ho in Hne. by apply (Hne k). }
      destruct (last ids) as [u|] eqn:El; [|by apply last_None in El]. pose proof El as Hu. rewrite last_lookup, Hlen in Hu.
      assert (Hown : owner (en_info L e) u k (pred (length cs))) by (by exists ids).
      assert (Hl : live (en_graph L e') u) by (apply (ei_live _ _ He'); right; right; rewrite Hi; by exists k, (pred (length cs))).
      destruct Hl as [[su bs] Hw]. exists u, bs. split_and!; [by exists ids|by exists su|]. unfold last_of. rewrite Hk. cbn [default from_option id].
      apply (sound_owner P get e' u k (pred (length cs)) (su, bs)); [by rewrite Hi|exact Hw]. }
    destruct (forall2_ex (fun (x : nat * list sig) k => k ∈ aud /\ chain_end (en_info L e) k x.1 /\ sound P get e' k (last_of (fun k => p !! k) k) = Some x.2) inp) as [ks Hks].
    { intros [u bs] Hx. apply Hin in Hx as [(k & Hk & Hend) [su Hw]]. exists k. cbn [fst snd].
      assert (Hka : k ∈ aud).
      { apply Haud. split; [|done]. destruct (p !! k) as [cs|] eqn:E; [by eexists|]. exfalso. destruct Hend as (ids' & Hids' & _).
        assert (k = input_name) as -> by (apply (al_only _ _ Hal k ids' Hids'); by rewrite Ho). vm_compute in Hk. done. }
      split_and!; [done|done|]. destruct (Hline k Hka) as (u' & bs' & Hend' & [su' Hw'] & ->). destruct Hend as (i1 & H1 & H2), Hend' as (i2 & H3 & H4).
      rewrite H1 in H3. injection H3 as <-. rewrite H2 in H4. injection H4 as <-. assert (E : Some (su, bs) = Some (su', bs')) by exact (eq_trans (eq_sym Hw) Hw'). by injection E as _ ->. }
    exists ks. split.
    - apply NoDup_Permutation; [|done|].
      + clear -Hks Hndi. induction Hks as [|[u bs] k inp ks (H1 & H2 & H3) Hks IH]; [constructor|]. cbn [fmap list_fmap fst] in Hndi. apply NoDup_cons in Hndi as [Hn Hndi].
        constructor; [|by apply IH]. intros Hk. apply elem_of_list_lookup in Hk as [j Hj]. destruct (Forall2_lookup_r _ _ _ _ _ Hks Hj) as ([u' bs'] & Hx & H4 & H5 & H6).
        cbn [fst] in H2, H5. destruct H2 as (i1 & H7 & H8), H5 as (i2 & H9 & H10). rewrite H7 in H9. injection H9 as <-. rewrite H8 in H10. injection H10 as <-.
        apply Hn. apply elem_of_list_fmap. exists (u, bs'). split; [done|]. by eapply elem_of_list_lookup_2.
      + intros k. split.
        * intros Hk. apply elem_of_list_lookup in Hk as [j Hj]. destruct (Forall2_lookup_r _ _ _ _ _ Hks Hj) as (x & _ & H4 & _). done.
        * intros Hk. destruct (Hline k Hk) as (u & bs & Hend & Hw & _). assert (Hx : (u, bs) ∈ inp) by (apply Hin; split; [exists k; split; [by apply Haud|done]|done]).
          apply elem_of_list_lookup in Hx as [j Hj]. destruct (Forall2_lookup_l _ _ _ _ _ Hks Hj) as (k' & Hk' & Hka' & Hend' & _). cbn [fst] in Hend'.
          assert (k' = k) as <-; [|by eapply elem_of_list_lookup_2]. destruct Hend as (i1 & H1 & H2), Hend' as (i2 & H3 & H4). rewrite last_lookup in H2, H4.
          destruct (ei_inj _ _ He u k (pred (length i1)) k' (pred (length i2))) as [-> _]; [by exists i1|by exists i2|done].
    - assert (E : forall ch t, map (contrib ch t) inp = map (fun k => contrib ch t (0, default [] (sound P get e' k (last_of (fun k => p !! k) k)))) ks).
      { intros ch t. clear -Hks. induction Hks as [|[u bs] k inp ks (H1 & H2 & H3) Hks IH]; [done|]. cbn [map]. rewrite IH, H3. done. }
      intros ch Hch. destruct ch as [|[|]]; [| |lia]; cbn [lookup list_lookup]; f_equal; apply map_ext; intros t; by rewrite E.
  Qed.

  Lemma puts_out_at e es outs : puts_out P get blk e es outs -> tamely L blk e -> forall b out, outs !! b = Some out ->
    exists eb shs ins e', es !! b = Some e' /\ tamely L blk eb /\ en_ast L eb = en_ast L e /\ next_block L blk shs eb ins = Ok (e', out).
  Proof.
    induction 1 as [e|e shs ins e' out es outs Hn Hr IH]; intros Ht b out1 Hb; [done|].
    destruct (block_keeps P get blk e shs ins e' out Ht Hn) as (Ht' & Ha & _). destruct b as [|b].
    - injection Hb as <-. by exists e, shs, ins, e'.
    - destruct (IH Ht' b out1 Hb) as (eb & s1 & i1 & e1 & H1 & H2 & H3 & H4). exists eb, s1, i1, e1. split_and!; [done|done|by rewrite H3|done].
  Qed.
  Lemma puts_out_length e es outs : puts_out P get blk e es outs -> length outs = length es.
  Proof. induction 1; [done|]. cbn. by f_equal. Qed.

  (** C83: the sum, for any number of audible lines: in each block there is an order of the
      audible lines in which every sample of both channels is added up. *)
  Theorem C83_mix e p es outs aud : tamely L blk e -> en_ast L e = Some p -> puts_out P get blk e es outs ->
    audible_lines (fun k => p !! k) aud ->
    forall b out, outs !! b = Some out -> exists ks, ks ≡ₚ aud /\ forall ch, ch < 2 -> out !! ch =
      Some (map (fun t => foldl fadd f0 (map (fun k => contrib ch t (0, default [] (stream P get es k (last_of (fun k => p !! k) k) !! b))) ks)) (seq 0 (p_blk P))).
  Proof.
    intros Ht Hp Hr Ha b out Hb. destruct (puts_out_at e es outs Hr Ht b out Hb) as (eb & shs & ins & e' & He' & Htb & Hab & Hn).
    destruct (mix_block eb p shs ins e' out aud Htb ltac:(by rewrite Hab) Hn Ha) as (ks & Hks & H). exists ks. split; [exact Hks|]. intros ch Hch. refine (eq_trans (H ch Hch) _).
    f_equal. apply map_ext. intros t. f_equal. apply map_ext. intros k. unfold stream. change (map ?f ?l) with (f <$> l). by rewrite list_lookup_fmap, He'.
  Qed.
End mixdown.

Section patches.
  Context (P : platform) (cf : cfg) (math : string -> res f32).
  Context (Hrel : debug (p_cfg P) = false) (Hblk : 0 < p_blk P) (Humax : (16777216 <= umax (p_cfg P))%Z).
  Notation get := (get_ast cf math).
  Notation L := (glang P get).
  Notation new_env := (Env ∅ 44100%Z default_bpm 42%Z).

  Lemma choose_each {A} (R : string -> A -> Prop) (d : A) (l : list string) : (forall k, k ∈ l -> exists a, R k a) -> exists G, forall k, k ∈ l -> R k (G k).
  Proof.
    induction l as [|x l IH]; intros H; [exists (fun _ => d); intros k Hk; by apply elem_of_nil in Hk|].
    destruct (H x ltac:(by left)) as [a Ha]. destruct IH as [G HG]; [intros k Hk; apply H; by right|].
    exists (fun k => if String.eqb k x then a else G k). intros k Hk. destruct (String.eqb_spec k x) as [->|Hne]; [done|].
    apply elem_of_cons in Hk as [->|Hk]; [done|by apply HG].
  Qed.

  (** C83: a patch with any number of audible lines.  It is accepted by a new engine and every
      audible line has a tone; in each block both channels carry the sum of the tones, the
      additions being made in an order of the lines that may change from block to block. *)
  Theorem C83_patch blk txt ls rank aud (o : orders) :
    program_text cf math txt ls -> ordered_lines ls rank -> audible_lines (fun n => last_named n ls) aud ->
    (forall n ks i c, last_named n ls = Some ks -> ks !! i = Some c -> n <> "~input"%string /\ synth c i) ->
    exists e G, update L o (engine_new L) txt = Ok (e, None) /\
      (forall k, k ∈ aud -> tone P 44100 (fun n => last_named n ls) k (last_of (fun n => last_named n ls) k) (G k)) /\
      forall l, Forall (fun x => Forall (fun s => length s = p_blk P) x.2) l ->
        exists outs, render P cf math blk e l = Ok outs /\ length outs = length l /\
          forall b out, outs !! b = Some out -> exists ks, ks ≡ₚ aud /\
            forall ch, ch < 2 -> out !! ch = Some (block P (fun t => foldl fadd f0 (map (fun k => G k t) ks)) b).
  Proof.
    intros Ht Hord Haud Hsy. pose proof (line_nonempty _ _ _ _ Ht) as Hnel.
    assert (Hne : forall n ks, last_named n ls = Some ks -> ks <> []) by (intros n ks Hn; apply last_named_in in Hn; rewrite Forall_forall in Hnel; by apply (Hnel _ Hn)).
    assert (Hlast : forall k cs, last_named k ls = Some cs -> last_of (fun n => last_named n ls) k = pred (length cs)) by (intros k cs Hk; unfold last_of; by rewrite Hk).
    assert (Hcm : forall n ks i c, last_named n ls = Some ks -> ks !! i = Some c -> n <> "~input"%string /\ calm c i /\ makeable c).
    { intros n ks i c Hn Hi. destruct (Hsy n ks i c Hn Hi) as [H1 H2]. split; [done|]. apply (synth_calm c i H2). intros r Hr.
      destruct (Hord n ks c Hn (elem_of_list_lookup_2 _ _ _ Hi)) as [_ H3]. by apply (H3 r Hr). }
    destruct (choose_each (fun k g => tone P 44100 (fun n => last_named n ls) k (last_of (fun n => last_named n ls) k) g) (fun _ => f0) aud) as [G HG].
    { intros k Hk. apply Haud in Hk as [[cs Hk] _]. rewrite (Hlast k cs Hk). apply (tone_exists P Hblk 44100 ls rank Hord ltac:(intros; by eapply Hsy) Hne k cs (pred (length cs)) Hk).
      pose proof (Hne _ _ Hk) as Hn. destruct cs; [done|cbn; lia]. }
    destruct (C73_text_plays P cf math Hrel Hblk Humax blk txt ls o Ht) as (e & Hu & Hold & _ & _ & Hplay).
    { intros n ks Hn. split.
      - destruct ks as [|c ks]; [by destruct (Hne _ _ Hn)|]. exact (proj1 (Hcm n (c :: ks) 0 c Hn eq_refl)).
      - intros i c Hi. destruct (Hcm n ks i c Hn Hi) as (_ & H1 & H2). split_and!; [done|done|]. intros r Hr.
        destruct (Hord n ks c Hn (elem_of_list_lookup_2 _ _ _ Hi)) as [_ H]. destruct (H r Hr) as (Hd & Hs & _). exists r.
        split; [unfold refers; by rewrite (plain_ref r Hd)|by left]. }
    exists e, G. split; [exact Hu|]. split; [exact HG|]. intros l Hl. destruct (plays_render P cf math blk e l (Hplay l Hl)) as (outs & es & Hr & Hrs & Hlen).
    exists outs. split; [exact Hr|]. split; [rewrite <- Hlen; by eapply puts_out_length|].
    destruct (C53_layout_partial cf math txt ls Ht) as (p & Hp & Hpl).
    assert (Hparse : parse (l := L) txt = Done p) by exact Hp.
    assert (Hok : prog_ok L p).
    { split.
      - change input_name with "~input"%string. rewrite Hpl. destruct (last_named "~input"%string ls) as [ks|] eqn:E; [|done]. exfalso.
        destruct ks as [|c ks]; [by destruct (Hne _ _ E)|]. by destruct (Hcm _ (c :: ks) 0 c E eq_refl).
      - intros k' H. rewrite Hpl in H. by apply (Hne _ _ H). }
    assert (Hnone : forall k', old_ast L (engine_new L) !! k' = None) by (intros k'; apply lookup_empty).
    assert (Hpe : Props_Update.plain_edit (L := L) (old_ast L (engine_new L)) p) by (intros k' olds news H; rewrite Hnone in H; done).
    assert (Ht0 : tamely L blk (engine_new L)) by constructor.
    assert (Hte : tamely L blk e).
    { eapply (tm_step L blk _ (CUpdate L o txt) e _ Ht0); [unfold tame_call; rewrite Hparse; split; [done|by apply (Props_Update.plain_tame L (glang_ok P get))]|]. cbn [step]. rewrite Hu. reflexivity. }
    assert (Hast : en_ast L e = Some p).
    { destruct (tamely_inv L (glang_ok P get) _ _ Ht0) as (He & Hal & _). pose proof Hu as Hu'. unfold update in Hu'. rewrite Hparse in Hu'.
      exact (re_ast _ _ _ _ _ (tame_update_result L (glang_ok P get) _ _ _ _ He Hal Hok (Props_Update.plain_tame L (glang_ok P get) _ _ Hpe) Hu')). }
    assert (Hcl : closed p (fun _ => True) rank).
    { split. intros n ks c _ Hn Hc. rewrite Hpl in Hn. destruct (Hord n ks c Hn Hc) as [H1 H2]. split; [done|]. intros r Hrr. destruct (H2 r Hrr) as (? & ? & ?). rewrite Hpl. done. }
    assert (Hlo : forall k, last_of (fun n => p !! n) k = last_of (fun n => last_named n ls) k) by (intros k; unfold last_of; by rewrite Hpl).
    assert (Hcar : forall k, k ∈ aud -> carries P (length l) (stream P get es k (last_of (fun n => p !! n) k)) (G k)).
    { intros k Hk. rewrite Hlo. pose proof Hk as Hka. apply Haud in Hka as [[cs Hcs] Hka]. pose proof (HG k Hk) as Hg. rewrite (Hlast k cs Hcs) in *.
      apply (C83_tone P new_env (length l) (fun n => last_named n ls) k (pred (length cs)) (G k) _ Hg). eapply score_ext; [exact Hpl|]. rewrite <- Hlen.
      eapply (C83_plays_the_score P get blk (engine_new L) o txt p e (fun _ => True) rank k cs es Ht0 Hparse Hok Hu ltac:(by intros k' _; apply Hnone) Hcl I).
      - by constructor.
      - by rewrite Hpl.
      - by eapply puts_out_rolls.
      - pose proof (Hne _ _ Hcs) as Hn. destruct cs; [done|cbn; lia]. }
    intros b out Hb. destruct (C83_mix P get blk e p es outs aud Hte Hast Hrs) with (b := b) (out := out) as (ks & Hks & H); [|exact Hb|].
    { destruct Haud as [H1 H2]. split; [exact H1|]. intros k. rewrite H2, Hpl. done. }
    exists ks. split; [exact Hks|]. intros ch Hch. refine (eq_trans (H ch Hch) _). f_equal. unfold block.
    assert (Hbl : b < length l) by (apply lookup_lt_Some in Hb; rewrite (puts_out_length P get blk e es outs Hrs) in Hb; lia).
    assert (Hk1 : forall k t, k ∈ ks -> t < p_blk P -> contrib ch t (0, default [] (stream P get es k (last_of (fun n => p !! n) k) !! b)) = G k (b * p_blk P + t)).
    { intros k t Hk Htb. assert (Hka : k ∈ aud) by (by rewrite <- Hks). unfold contrib. cbn [snd].
      assert (Hb1 : block P (G k) b !! t = Some (G k (b * p_blk P + t))).
      { unfold block. change (map ?f ?l) with (f <$> l). by rewrite list_lookup_fmap, lookup_seq_lt. }
      destruct (carries_at P (length l) _ (G k) b (Hcar k Hka) Hbl) as [-> | ->]; destruct ch as [|[|]]; try lia; cbn [lookup list_lookup default from_option id]; by rewrite Hb1. }
    apply list_eq. intros t. change (map ?f (seq ?x ?y)) with (f <$> seq x y). rewrite !list_lookup_fmap. destruct (decide (t < p_blk P)) as [Hlt|Hge].
    - rewrite !lookup_seq_lt by done. cbn [fmap option_fmap option_map Nat.add]. f_equal. f_equal. clear -Hk1 Hlt. induction ks as [|k ks IH]; [done|]. cbn [map]. rewrite Hk1; [|by left|done].
      f_equal. apply IH. intros k' t' Hk' Ht'. apply Hk1; [by right|done].
    - rewrite !lookup_ge_None_2 by (rewrite seq_length; lia). done.
  Qed.

  (** With two audible lines the order does not matter. *)
  Corollary C83_two_voices blk txt ls rank k1 k2 (o : orders) :
    program_text cf math txt ls -> ordered_lines ls rank -> audible_lines (fun n => last_named n ls) [k1; k2] ->
    (forall n ks i c, last_named n ls = Some ks -> ks !! i = Some c -> n <> "~input"%string /\ synth c i) ->
    exists e g1 g2, update L o (engine_new L) txt = Ok (e, None) /\
      tone P 44100 (fun n => last_named n ls) k1 (last_of (fun n => last_named n ls) k1) g1 /\
      tone P 44100 (fun n => last_named n ls) k2 (last_of (fun n => last_named n ls) k2) g2 /\
      forall l, Forall (fun x => Forall (fun s => length s = p_blk P) x.2) l ->
        exists outs, render P cf math blk e l = Ok outs /\
          forall ch, ch < 2 -> lane ch outs = map (fun t => fadd (fadd f0 (g1 t)) (g2 t)) (seq 0 (length l * p_blk P)).
  Proof.
    intros Ht Hord Haud Hsy. destruct (C83_patch blk txt ls rank [k1; k2] o Ht Hord Haud Hsy) as (e & G & Hu & HG & H).
    exists e, (G k1), (G k2). split; [exact Hu|]. split; [apply HG; by left|]. split; [apply HG; right; by left|]. intros l Hl.
    destruct (H l Hl) as (outs & Hr & Hlen & Hb). exists outs. split; [exact Hr|]. intros ch Hch. rewrite <- Hlen, <- blocks_concat. unfold lane. f_equal.
    apply list_eq. intros b. change (map ?f ?l) with (f <$> l). rewrite !list_lookup_fmap. destruct (outs !! b) as [out|] eqn:E.
    - rewrite lookup_seq_lt by (by eapply lookup_lt_Some). cbn [fmap option_fmap option_map Nat.add]. f_equal. destruct (Hb b out E) as (ks & Hks & Ho).
      assert (Hd : out !! ch = Some (block P (fun t => fadd (fadd f0 (G k1 t)) (G k2 t)) b)).
      { refine (eq_trans (Ho ch Hch) _). f_equal. apply map_ext. intros t. apply Permutation_sym in Hks. apply Permutation_length_2_inv in Hks as [-> | ->]; cbn [map foldl]; [done|]. apply mix2_comm. }
      change (default [] (out !! ch) = block P (fun t => fadd (fadd f0 (G k1 t)) (G k2 t)) b). by rewrite Hd.
    - rewrite (proj2 (lookup_ge_None (seq 0 (length outs)) b)); [done|]. rewrite seq_length. by apply lookup_ge_None in E.
  Qed.
End patches.

(** ** A text with two audible lines. *)
From Verif Require Import Session.
Local Open Scope string_scope.
Definition duo_text : string := "p: sin 440
o: sin ~b
~b: sin 440 >> mul 0.5 >> add 440".
Definition duo_lines : list (string * list component) := ("p", [osc_comp WSin (Num (f_of_dec false 440 0))]) :: fm_lines.
Lemma duo_text_ok : program_text c64 no_math duo_text duo_lines.
Proof.
  exists "", duo_text. split; [done|]. split; [done|].
  apply (prog_line _ _ "p: sin 440" ("p", [CSin (Num (f_of_dec false 440 0))]) eol fm_text).
  - exists "", " ", ("sin" ++ " " ++ "440"). eexists. exists "". eexists.
    split; [by apply (name_plain _ "p" "")|]. split; [done|]. split; [done|]. split; [by apply t_sin|]. split; [|split; [reflexivity|reflexivity]].
    constructor.
  - exists "", "", "", eol. split_and!; try done; [seth|]. rewrite <- (sapp_nil_r eol). apply (breaks_cons "" ""); [done|constructor].
  - apply (prog_line _ _ "o: sin ~b" ("o", [CSin (NRef "~b")]) eol "~b: sin 440 >> mul 0.5 >> add 440").
  + exists "", " ", "sin ~b". eexists. exists "". eexists.
    split; [by apply (name_plain _ "o" "")|]. split; [done|]. split; [done|]. split; [by apply t_sin_b|]. split; [|split; [reflexivity|reflexivity]].
    constructor.
  + exists "", "", "", eol. split_and!; try done; [seth|]. rewrite <- (sapp_nil_r eol). apply (breaks_cons "" ""); [done|constructor].
  + rewrite <- (sapp_nil_r "~b: sin 440 >> mul 0.5 >> add 440"). rewrite <- (sapp_nil_r "") at 2. constructor; [|..].
    * exists "", " ", ("sin" ++ " " ++ "440"). eexists. exists ((" " ++ "" ++ "" ++ ">>" ++ " ") ++ ("mul" ++ " " ++ "0.5") ++ (" " ++ "" ++ "" ++ ">>" ++ " ") ++ ("add" ++ " " ++ "440") ++ ""). eexists.
      split; [by apply (name_tilde _ "b" "")|]. split; [done|]. split; [done|]. split; [by apply t_sin|]. split; [|split; reflexivity].
      constructor; [|by apply t_mul|]; [apply joint_here; try done; seth|]. constructor; [|by apply t_add|constructor]. apply joint_here; try done. seth.
    * exists "", "", "", "". split_and!; try done; [seth|constructor].
    * constructor.
    * by left.
  + right. right. done.
  - right. right. done.
Qed.
Example C83_two_voices_case : program_text c64 no_math duo_text duo_lines /\
  ordered_lines duo_lines (fun n => if String.eqb n "o" then 1 else 0)%nat /\ audible_lines (fun n => last_named n duo_lines) ["p"; "o"] /\
  (forall n ks i c, last_named n duo_lines = Some ks -> ks !! i = Some c -> n <> "~input" /\ synth c i).
Proof.
  assert (Hall : forall n ks, last_named n duo_lines = Some ks -> n = "p" /\ ks = [osc_comp WSin (Num (f_of_dec false 440 0))] \/ n = "o" /\ ks = [osc_comp WSin (NRef "~b")] \/
      n = "~b" /\ ks = [osc_comp WSin (Num (f_of_dec false 440 0)); CMul (Num (f_of_dec false 5 (-1))); CAdd (Num (f_of_dec false 440 0))]).
  { intros n ks Hn. apply last_named_in in Hn. apply elem_of_cons in Hn as [Hn|Hn]; [injection Hn as -> ->; by left|]. right.
    apply elem_of_cons in Hn as [Hn|Hn]; [|apply elem_of_list_singleton in Hn]; injection Hn as -> ->; [by left|by right]. }
  split; [exact duo_text_ok|]. split_and!.
  - intros n ks c Hn Hc. apply Hall in Hn. apply elem_of_list_lookup in Hc as [i Hi]. destruct Hn as [[-> ->]|[[-> ->]|[-> ->]]].
    + destruct i as [|i]; [|discriminate Hi]. injection Hi as <-. split; [constructor|]. intros r Hr; by apply elem_of_nil in Hr.
    + destruct i as [|i]; [|discriminate Hi]. injection Hi as <-. split; [apply NoDup_singleton|]. intros r Hr.
      apply elem_of_list_singleton in Hr as ->. split_and!; [reflexivity|by eexists|apply Nat.lt_0_1].
    + destruct i as [|[|[|i]]]; [| | |discriminate Hi]; injection Hi as <-; (split; [constructor|]); intros r Hr; by apply elem_of_nil in Hr.
  - split; [apply (bool_decide_unpack _); vm_compute; exact I|]. intros k. split.
    + intros Hk. apply elem_of_cons in Hk as [->|Hk]; [|apply elem_of_list_singleton in Hk as ->]; (split; [by eexists|reflexivity]).
    + intros [[ks Hk] Hc]. destruct (Hall _ _ Hk) as [[-> _]|[[-> _]|[-> _]]]; [by left|right; by left|discriminate Hc].
  - intros n ks i c Hn Hi. apply Hall in Hn. destruct Hn as [[-> ->]|[[-> ->]|[-> ->]]]; (split; [done|]).
    + destruct i as [|i]; [|discriminate Hi]. injection Hi as <-. apply (sy_osc WSin).
    + destruct i as [|i]; [|discriminate Hi]. injection Hi as <-. apply (sy_osc WSin).
    + destruct i as [|[|[|i]]]; [| | |discriminate Hi]; injection Hi as <-; [apply (sy_osc WSin)|eapply sy_op; left; split; reflexivity|eapply sy_op; right; split; reflexivity].
Qed.

(** * C80: from the text to the samples.

    [C73_text_plays] says that a text of the notation is accepted and plays; [C80_chain] and
    [C80_only_audible] say what an audible chain without references sounds like.  Together:
    the samples that the caller gets for a text with one such line. *)
From Verif Require Import InputProofs RewireProofs Props_Update BlockProofs.
From Verif Require Import Props_Live Props_Whole Props_Signal Props_Range Syntax Props_Syntax.
From Coq Require Import Lia.
Local Open Scope nat_scope.
Local Notation length := List.length.

Section listen.
  Context (P : platform) (cf : cfg) (math : string -> res f32).
  Context (Hrel : debug (p_cfg P) = false) (Hblk : 0 < p_blk P) (Humax : (16777216 <= umax (p_cfg P))%Z).
  Notation get := (get_ast cf math).
  Notation L := (glang P get).

  (** The blocks that successive calls of [next_block] return, with these hash orders and
      inputs. *)
  Fixpoint render (blk : Z) (e : engine L) (l : list ((nat -> shuffle) * list sig)) : res (list (list sig)) :=
    match l with
    | [] => Ok []
    | (shs, ins) :: l => match next_block L blk shs e ins with
                         | Ok (e', out) => match render blk e' l with Ok outs => Ok (out :: outs) | Panic => Panic end
                         | Panic => Panic
                         end
    end.
  Lemma plays_render blk e l : is_ok (Props_NoPanic.plays_on P get blk e l) ->
    exists outs es, render blk e l = Ok outs /\ puts_out P get blk e es outs /\ length es = length l.
  Proof.
    revert e. induction l as [|[shs ins] l IH]; intros e; cbn [Props_NoPanic.plays_on render].
    - intros _. exists [], []. split_and!; [done|constructor|done].
    - destruct (next_block L blk shs e ins) as [[e' out]|] eqn:E; [|done]. intros H. destruct (IH e' H) as (outs & es & -> & H2 & H3).
      exists (out :: outs), (e' :: es). split_and!; [done|by eapply pu_block|cbn; by rewrite H3].
  Qed.

  (** C80: a text whose only line is an audible chain of calm components without references:
      it is accepted by a new engine, every further block is played, and channel by channel
      the caller gets what the components play one after the other. *)
  Theorem C80_text_to_sound blk txt k cs (o : orders) :
    program_text cf math txt [(k, cs)] -> contains_char "~" k = false -> bare cs ->
    (forall i c, cs !! i = Some c -> calm c i /\ makeable c) ->
    exists e, update L o (engine_new L) txt = Ok (e, None) /\
      forall l, Forall (fun x => Forall (fun s => length s = p_blk P) x.2) l ->
        exists outs bss, render blk e l = Ok outs /\ chain_plays P (Env ∅ 44100%Z default_bpm 42%Z) (length l) cs bss /\
          forall ch, ch < 2 -> lane ch outs = map (fadd f0) (List.concat (map (heard_in ch) bss)).
  Proof.
    intros Ht Hk Hb Hcm. assert (Hln : forall n, last_named n [(k, cs)] = if (k =? n)%string then Some cs else None).
    { intros n. unfold last_named. cbn. by destruct (k =? n)%string. }
    destruct (C73_text_plays P cf math Hrel Hblk Humax blk txt [(k, cs)] o Ht) as (e & Hu & Hold & _ & _ & Hplay).
    { intros n ks Hn. rewrite Hln in Hn. destruct (String.eqb_spec k n) as [->|]; [|done]. injection Hn as <-. split.
      - intros ->. done.
      - intros i c Hi. destruct (Hcm i c Hi) as [H1 H2]. split_and!; [done|done|]. intros r Hr. exfalso. unfold bare in Hb. rewrite Forall_lookup in Hb.
        rewrite (Hb i c Hi) in Hr. by apply elem_of_nil in Hr. }
    exists e. split; [exact Hu|]. intros l Hl. destruct (plays_render blk e l (Hplay l Hl)) as (outs & es & Hr & Hrs & Hlen).
    destruct (C53_layout_partial cf math txt [(k, cs)] Ht) as (p & Hp & Hpl).
    assert (Hparse : parse (l := L) txt = Done p) by exact Hp.
    assert (Hpk : p !! k = Some cs) by (rewrite Hpl, Hln, String.eqb_refl; done).
    assert (Hne : cs <> []) by (pose proof (line_nonempty _ _ _ _ Ht) as H; inversion H; done).
    assert (Hok : prog_ok L p).
    { split.
      - rewrite Hpl, Hln. destruct (String.eqb_spec k input_name) as [->|]; [|done]. vm_compute in Hk. done.
      - intros k' H. rewrite Hpl, Hln in H. destruct (String.eqb_spec k k') as [->|]; [|done]. injection H as H. done. }
    assert (Hnone : forall k', old_ast L (engine_new L) !! k' = None) by (intros k'; apply lookup_empty).
    assert (Hpe : Props_Update.plain_edit (L := L) (old_ast L (engine_new L)) p) by (intros k' olds news H; rewrite Hnone in H; done).
    assert (Ht0 : tamely L blk (engine_new L)) by constructor.
    pose proof (C80_chain P get blk (engine_new L) o txt p e k cs es Ht0 Hparse Hok Hpe Hu Hpk (Hnone k) Hb Hk (puts_out_rolls P get blk e es outs Hrs) (pred (length cs))) as Hcp.
    assert (Hlc : S (pred (length cs)) = length cs) by (destruct cs; done).
    rewrite Hlc, take_ge, Hlen in Hcp by lia. exists outs, (stream P get es k (pred (length cs))). split_and!; [done|apply Hcp; lia|].
    intros ch Hch. eapply (C80_only_audible P get blk e p k cs es outs ch); try done.
    - eapply (tm_step L blk _ (CUpdate L o txt) e _ Ht0); [unfold tame_call; rewrite Hparse; split; [done|by apply (Props_Update.plain_tame L (glang_ok P get))]|]. cbn [step]. rewrite Hu. reflexivity.
    - destruct (tamely_inv L (glang_ok P get) _ _ Ht0) as (He & Hal & _). pose proof Hu as Hu'. unfold update in Hu'. rewrite Hparse in Hu'.
      exact (re_ast _ _ _ _ _ (tame_update_result L (glang_ok P get) _ _ _ _ He Hal Hok (Props_Update.plain_tame L (glang_ok P get) _ _ Hpe) Hu')).
    - intros k' cs' Hk' _. rewrite Hpl, Hln in Hk'. by destruct (String.eqb_spec k k') as [->|].
  Qed.

  (** ** An oscillator through a gain *)
  Lemma osc_mono w n : forall s b nd' outs, length b = 1 -> play P (Simple (NOsc w s)) b (replicate n []) = Ok (nd', outs) -> Forall (fun bs => exists x, bs = [x]) outs.
  Proof.
    induction n as [|n IH]; intros s b nd' outs Hb; cbn [replicate play]; [by intros [= <- <-]; constructor|].
    destruct (gproc P (Simple (NOsc w s)) [] b) as [[nd1 o1]|] eqn:E; [|done]. cbn [gproc sproc] in E. unfold osc_proc in E.
    destruct b as [|x [|y b]]; try done. destruct (scan _ _ _) as [s1 ys]. destruct (osc_put w [x] ys) as [o2|] eqn:E2; [|done]. cbn in E. injection E as <- <-.
    assert (o2 = [ys]) as -> by (by destruct w; injection E2 as <-).
    destruct (play P (Simple (NOsc w s1)) [ys] (replicate n [])) as [[nd2 outs2]|] eqn:E3; [|done]. intros [= <- <-].
    constructor; [by exists ys|]. by eapply (IH s1 [ys]).
  Qed.
  Lemma mul_mono ev a ms o nd out src bss nd' outs : announced ms o -> created P ev (CMul (Num a)) ms nd out ->
    Forall (fun bs => exists x, bs = [x]) bss -> play P nd out (map (fun bs => [(src, bs)]) bss) = Ok (nd', outs) ->
    outs = map (fun bs => let y := map (fun x => fmul x a) (default [] (bs !! 0)) in [y; y]) bss.
  Proof.
    intros Ha Hc Hm. destruct (op_created P ev (CMul (Num a)) (Num a) fmul ms o nd out) as [-> Hg]; [by left|done|done|].
    assert (Hgen : forall b, length b = 2 -> play P nd b (map (fun bs => [(src, bs)]) bss) = Ok (nd', outs) ->
      outs = map (fun bs => let y := map (fun x => fmul x a) (default [] (bs !! 0)) in [y; y]) bss); [|by apply Hgen].
    revert outs. induction Hm as [|bs bss [x ->] Hm IH]; intros outs b Hb; cbn [map play]; [by intros [= _ <-]|].
    rewrite Hg. destruct b as [|b1 [|b2 [|]]]; try done. cbn [apply_op snd chan lookup list_lookup unwrap mbind res_bind]. cbn [default from_option id mret res_ret op_val num_or].
    match goal with |- context [play P nd ?q _] => destruct (play P nd q (map (fun bs => [(src, bs)]) bss)) as [[n1 o1]|] eqn:E end; [|done].
    intros [= <- <-]. f_equal. by eapply IH; [|exact E].
  Qed.

  (** C80: the text [k: osc f >> mul a] (any layout, any of the four waveforms, any numbers)
      puts on both channels, from the first sample on, the waveform at the phase
      [phase_at 44100 f t], times [a]. *)
  Theorem C80_osc_gain blk txt k w f a (o : orders) :
    program_text cf math txt [(k, [osc_comp w (Num f); CMul (Num a)])] -> contains_char "~" k = false ->
    exists e, update L o (engine_new L) txt = Ok (e, None) /\
      forall l, Forall (fun x => Forall (fun s => length s = p_blk P) x.2) l ->
        exists outs, render blk e l = Ok outs /\
          forall ch, ch < 2 -> lane ch outs = map (fun t => fadd f0 (fmul (shape P w (phase_at 44100 (fun _ => f) t)) a)) (seq 0 (length l * p_blk P)).
  Proof.
    intros Ht Hk. destruct (C80_text_to_sound blk txt k _ o Ht Hk) as (e & Hu & H).
    { repeat constructor. by destruct w. }
    { intros [|[|i]] c [= <-]; [by destruct w|done]. }
    exists e. split; [exact Hu|]. intros l Hl. destruct (H l Hl) as (outs & bss & Hr & Hcp & Hlane). exists outs. split; [exact Hr|].
    intros ch Hch. rewrite (Hlane ch Hch). clear Hlane H Hr.
    inversion Hcp as [|cs c bss1 ms2 o2 nd2 out2 src nd2' outs2 Hcp1 Han2 Hc2 Hp2 E].
    change [osc_comp w (Num f); CMul (Num a)] with ([osc_comp w (Num f)] ++ [CMul (Num a)]) in E. apply app_inj_2 in E as [-> E]; [|done]. injection E as ->. subst outs2.
    inversion Hcp1 as [c1 ms1 o1 nd1 out1 nd1' outs1 Han1 Hc1 Hp1|cs c1 bss0 ? ? ? ? ? ? ? Hcp0 ? ? ? E]; [subst|].
    2: { destruct cs; [inversion Hcp0; by destruct cs|]. by destruct cs. }
    destruct (C64_osc_phase P (Env ∅ 44100%Z default_bpm 42%Z) w f ms1 o1 nd1 out1 (length l) Han1 Hc1) as (nd1'' & outs1' & Hp1' & Hlen & Hval).
    rewrite Hp1 in Hp1'. injection Hp1' as <- <-.
    assert (Hm : Forall (fun bs => exists x, bs = [x]) bss1).
    { destruct (osc_created P _ w (Num f) ms1 o1 nd1 out1 Han1 Hc1) as [-> ->]. by eapply (osc_mono w _ _ [silent P]). }
    rewrite (mul_mono _ a ms2 o2 nd2 out2 src bss1 nd2' bss Han2 Hc2 Hm Hp2).
    assert (Hcat : List.concat (map (heard_in ch) (map (fun bs => let y := map (fun x => fmul x a) (default [] (bs !! 0)) in [y; y]) bss1)) = map (fun x => fmul x a) (lane 0 bss1)).
    { unfold lane. clear -Hch. induction bss1 as [|bs bss IH]; [done|]. cbn [map List.concat]. rewrite map_app, IH. f_equal. by destruct ch as [|[|]]; [| |lia]. }
    rewrite Hcat, map_map. apply list_eq. intros t. change (map ?g ?q) with (g <$> q). rewrite !list_lookup_fmap.
    destruct (decide (t < length l * p_blk P)) as [Hlt|Hge].
    - rewrite (Hval t Hlt), lookup_seq_lt by done. done.
    - rewrite !lookup_ge_None_2; [done|rewrite seq_length; lia|]. unfold sample in *. lia.
  Qed.
End listen.
Print Assumptions C80_text_to_sound.
Print Assumptions C80_osc_gain.

From Verif Require Import Session.
Local Open Scope string_scope.
Example C80_case : exists txt, txt = "o: sin 440 >> mul 0.5" /\
  program_text c64 no_math txt [("o", [osc_comp WSin (Num (f_of_dec false 440 0)); CMul (Num (f_of_dec false 5 (-1)))])] /\
  contains_char "~" "o" = false.
Proof.
  exists "o: sin 440 >> mul 0.5". split; [done|]. split; [|done]. exists "", "o: sin 440 >> mul 0.5". split; [done|]. split; [done|].
  rewrite <- (sapp_nil_r "o: sin 440 >> mul 0.5"). rewrite <- (sapp_nil_r "") at 2. constructor; [|..].
  - exists "", " ", ("sin" ++ " " ++ "440"). eexists. exists ((" " ++ "" ++ "" ++ ">>" ++ " ") ++ ("mul" ++ " " ++ "0.5") ++ ""). eexists.
    split; [by apply (name_plain _ "o" "")|]. split; [done|]. split; [done|]. split; [by apply t_sin|]. split; [|split; reflexivity].
    constructor; [|by apply t_mul|constructor]. apply joint_here; try done. seth.
  - exists "", "", "", "". split_and!; try done; [seth|constructor].
  - constructor.
  - by left.
Qed.
(** The samples are those of the program: two blocks of eight. *)
Example C80_samples : exists e outs, update (glang demo (get_ast c64 no_math)) id_orders (engine_new (glang demo (get_ast c64 no_math))) "o: sin 440 >> mul 0.5" = Ok (e, None) /\
  render demo c64 no_math 8 e [((fun _ => id_shuffle), []); ((fun _ => id_shuffle), [])] = Ok outs /\
  lane 1 outs = map (fun t => fadd f0 (fmul (shape demo WSin (phase_at 44100 (fun _ => f_of_dec false 440 0) t)) (f_of_dec false 5 (-1)))) (seq 0 16) /\
  lane 1 outs !! 1 <> Some f0.
Proof.
  destruct C80_case as (txt & -> & Ht & Hk).
  destruct (C80_osc_gain demo c64 no_math eq_refl ltac:(cbn; lia) ltac:(cbn; lia) 8 _ _ _ _ _ id_orders Ht Hk) as (e & Hu & H).
  destruct (H [((fun _ => id_shuffle), []); ((fun _ => id_shuffle), [])]) as (outs & Hr & Hl); [by repeat constructor|].
  exists e, outs. split; [exact Hu|]. split; [exact Hr|]. split; [exact (Hl 1 ltac:(lia))|]. rewrite (Hl 1 ltac:(lia)). vm_compute. intros [=].
Qed.

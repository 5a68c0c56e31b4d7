(** * Props_Voices: the notes of [psynth] and [msgsynth] (C45). *)
From Verif Require Export Props_Range.
From Verif Require Import FloatR.
From Coq Require Import Reals Lra Lia.
Local Open Scope nat_scope.

(** ** Notes

    [notes t]: the frequencies of the notes begun at sample [t]; [len]: samples a note lasts after
    its first; [amp]: the envelope by position in the note.  A note is (first sample, frequency). *)
Section spec.
  Context (notes : nat -> list f32) (sr len : Z) (amp : Z -> f32).
  Definition begun (t : nat) : list (nat * f32) := map (fun f => (t, f)) (notes t).
  Definition lives (t : nat) (n : nat * f32) : bool := (Z.of_nat (t - n.1) <=? len)%Z.
  Definition sounding (t : nat) : list (nat * f32) := List.filter (lives t) (flat_map begun (seq 0 (S t))).
  Definition saw (p : f32) : f32 := fsub (fmul p f2) f1.
  Definition tenth : f32 := f_of_dec false 1 (-1).
  Definition tone (t : nat) (n : nat * f32) : f32 :=
    fmul (fmul (amp (Z.of_nat (t - n.1))) (saw (phase_at sr (fun _ => n.2) (t - n.1)))) tenth.
  Definition tones (t : nat) (l : list (nat * f32)) (acc : f32) : f32 := fold_left (fun acc n => fadd acc (tone t n)) l acc.
  Definition synth (t : nat) : f32 := tones t (sounding t) f0.
End spec.

(** The envelope of a note with attack [att] and decay [dec] in seconds. *)
Section envelope.
  Context (c : cfg) (sr : Z) (att dec : f32).
  Definition samples (t : f32) : Z := as_usize c (fmul t (f_of_Z sr)).
  Definition lasts : Z := samples (fadd att dec).
  Definition rising (pos : Z) : f32 := if (samples att =? 0)%Z then f0 else fdiv (f_of_Z pos) (fmul att (f_of_Z sr)).
  Definition falling (pos : Z) : f32 := if (samples dec =? 0)%Z then f0 else fdiv (f_of_Z (lasts - pos)) (fmul dec (f_of_Z sr)).
  (** pattern_synth.rs rises during the attack, msgsynth.rs after it. *)
  Definition p_amp (pos : Z) : f32 := if (pos <=? samples att)%Z then rising pos else falling pos.
  Definition m_amp (pos : Z) : f32 := if (samples att <=? pos)%Z then rising pos else falling pos.
End envelope.

Section voices.
  Context (P : platform) (rise : Z -> bool) (v : vpar) (notes : nat -> list f32).
  Notation sr := (vp_sr v). Notation len := (vp_dur P v). Notation amp := (voice_amp P rise v).
  Notation lives := (lives len). Notation begun := (begun notes). Notation sounding := (sounding notes len).
  Definition vo (t : nat) (n : nat * f32) : voice := Voice (Z.of_nat n.1) n.2 (phase_at sr (fun _ => n.2) (t - n.1)).
  Definition going (t : nat) : list (nat * f32) := match t with 0 => [] | S t' => sounding t' end.
  Lemma voices_play t vs acc : Forall (fun n => n.1 <= t) vs ->
    play_voices P rise v (Z.of_nat t) (map (vo t) vs) acc =
      (map (vo (S t)) (List.filter (lives t) vs), tones sr amp t (List.filter (lives t) vs) acc).
  Proof.
    intros Hv. revert acc. induction Hv as [|n vs Hn Hv IH]; intros acc; [done|]. cbn [map play_voices List.filter vo vo_begin vo_freq vo_phase].
    replace (Z.of_nat t - Z.of_nat n.1)%Z with (Z.of_nat (t - n.1)) by lia. change (Z.of_nat (t - n.1) <=? len)%Z with (lives t n).
    destruct (lives t n); [|apply IH]. rewrite IH. cbn [map]. unfold tones. cbn [fold_left]. f_equal. f_equal.
    unfold vo. f_equal. replace (S t - n.1) with (S (t - n.1)) by lia. reflexivity.
  Qed.
  Lemma sounding_step t : sounding t = List.filter (lives t) (going t ++ begun t).
  Proof.
    unfold Props_Voices.sounding at 1. rewrite seq_S, flat_map_app, !List.filter_app. f_equal.
    - destruct t as [|t]; [done|]. cbn [going Nat.add]. unfold Props_Voices.sounding.
      induction (flat_map begun (seq 0 (S t))) as [|n l IH]; [done|]. cbn [List.filter]. rewrite IH.
      destruct (lives t n) eqn:E; cbn [List.filter]; [done|]. unfold Props_Voices.lives in *. destruct (Z.of_nat (S t - n.1) <=? len)%Z eqn:E2; [|done]. apply Z.leb_gt in E. apply Z.leb_le in E2. cbn in E, E2. lia.
    - cbn [Nat.add flat_map]. by rewrite app_nil_r.
  Qed.
  Lemma begun_le t : Forall (fun n => n.1 <= t) (going t ++ begun t).
  Proof.
    apply Forall_app. split.
    - destruct t as [|t]; [constructor|]. apply Forall_forall. intros n Hn%elem_of_list_In. cbn [going] in Hn.
      apply List.filter_In in Hn as [(u & Hu1 & Hu2)%in_flat_map _]. apply in_seq in Hu1. unfold Props_Voices.begun in Hu2.
      apply in_map_iff in Hu2 as (f & <- & _). cbn. lia.
    - apply Forall_forall. intros n Hn%elem_of_list_In. unfold Props_Voices.begun in Hn. by apply in_map_iff in Hn as (f & <- & _).
  Qed.
  Lemma voices_step t : play_voices P rise v (Z.of_nat t) (map (vo t) (going t) ++ map (vo t) (begun t)) f0 =
    (map (vo (S t)) (going (S t)), synth notes sr len amp t).
  Proof. rewrite <- map_app, voices_play by apply begun_le. rewrite <- sounding_step. done. Qed.
  Lemma new_voices t : map (vo t) (begun t) = map (fun f => Voice (Z.of_nat t) f f0) (notes t).
  Proof. unfold Props_Voices.begun. rewrite map_map. apply map_ext. intros f. unfold vo. cbn [fst snd]. by rewrite Nat.sub_diag. Qed.
End voices.

(** ** psynth *)
Section psynth_spec.
  Context (P : platform) (sr : Z) (evs : list (f32 * f32)).
  (** The pattern repeats every two seconds; an event is (time in cycles, MIDI note). *)
  Definition p_period : Z := as_usize (p_cfg P) (fmul (fmul f2 f1) (f_of_Z sr)).
  Definition p_due (t : nat) (e : f32 * f32) : bool := (Z.of_nat t mod p_period =? as_usize (p_cfg P) (fmul (fmul e.1 f2) (f_of_Z sr)))%Z.
  Definition hz (m : f32) : f32 := fmul (p_pow2 P (fdiv (fsub m (f_of_Z 69)) (f_of_Z 12))) (f_of_Z 440).
  Definition p_notes (t : nat) : list f32 := map (fun e => hz e.2) (List.filter (p_due t) evs).
  Definition p_attack : f32 := f_of_dec false 1 (-3).
  Definition p_out (t : nat) : f32 := synth p_notes sr (lasts (p_cfg P) sr p_attack tenth) (p_amp (p_cfg P) sr p_attack tenth) t.
End psynth_spec.
Section psynth_run.
  Context (P : platform) (sr : Z) (evs : list (f32 * f32)) (o : list nat) (Hper : (0 < p_period P sr)%Z).
  Let v := VPar p_attack tenth sr.
  Let rise pos := (pos <=? vp_n P sr p_attack)%Z.
  Definition pst (t : nat) : psynth := PSynth (map (vo v t) (going P v (p_notes P sr evs) t)) evs sr (Z.of_nat t) o.
  Lemma pst_start s0 t l acc : ps_bar P s0 = p_period P sr -> ps_sr s0 = sr ->
    foldM (fun vs ev => r ← umod (Z.of_nat t) (ps_bar P s0);
          mret (if (r =? ps_time P s0 ev.1)%Z then vs ++ [Voice (Z.of_nat t) (midi_freq P ev.2) f0] else vs)) acc l =
    Ok (acc ++ map (fun f => Voice (Z.of_nat t) f f0) (p_notes P sr l t)).
  Proof.
    intros Hb Hs. set (f := fun vs ev => _).
    assert (Hf : forall acc e, f acc e = Ok (acc ++ map (fun f => Voice (Z.of_nat t) f f0) (p_notes P sr [e] t))).
    { intros a e. unfold f. rewrite Hb. unfold umod. replace (p_period P sr =? 0)%Z with false by (symmetry; apply Z.eqb_neq; lia).
      cbn [mbind res_bind mret res_ret]. unfold p_notes. cbn [List.filter]. unfold p_due, ps_time. rewrite Hs.
      destruct (_ =? _)%Z; cbn [map]; [done|by rewrite app_nil_r]. }
    clearbody f. revert acc. induction l as [|e l IH]; intros acc; cbn [foldM].
    - by rewrite app_nil_r.
    - rewrite Hf. cbn [mbind res_bind]. rewrite IH. f_equal. rewrite <- app_assoc. f_equal. unfold p_notes. cbn [List.filter].
      by destruct (p_due P sr t e).
  Qed.
  Lemma psynth_run k n : scanR (fun s (_ : unit) => psynth_step P s) (pst k) (replicate n tt) =
    Ok (pst (k + n), map (p_out P sr evs) (seq k n)).
  Proof.
    pose proof (scanR_index (fun s (_ : unit) => psynth_step P s) pst (p_out P sr evs) (replicate n tt) k) as H.
    rewrite replicate_length in H. apply H. clear H. intros i x _. generalize (k + i) as t. clear i. intros t.
    unfold psynth_step. change (ps_events (pst t)) with evs. change (ps_step (pst t)) with (Z.of_nat t).
    rewrite (pst_start (pst t) t evs) by reflexivity. cbn [mbind res_bind].
    rewrite <- (new_voices v (p_notes P sr evs) t). change (ps_voices (pst t)) with (map (vo v t) (going P v (p_notes P sr evs) t)).
    change (ps_par (pst t)) with v. change (ps_sr (pst t)) with sr. change (vp_att v) with p_attack. fold rise.
    rewrite (voices_step P rise v (p_notes P sr evs) t). cbn [mret res_ret]. unfold pst. replace (Z.of_nat (S t)) with (Z.of_nat t + 1)%Z by lia.
    reflexivity.
  Qed.
End psynth_run.

(** C45, [psynth].  For every text that is a pattern, every sample rate at which the pattern has a
    positive length and every number of blocks: sample [t] of the output is the sum of the notes
    that have begun by [t] and have not outlived attack plus decay. *)
Theorem C45_psynth (P : platform) ev sym span evs ms o nd out k :
  announced ms o -> created P ev (CPatternSynth sym span) ms nd out -> ps_parse sym = Ok evs -> (0 < p_period P (e_sr ev))%Z ->
  exists nd' outs, play P nd out (replicate k []) = Ok (nd', outs) /\
    lane 0 outs = map (p_out P (e_sr ev) evs) (seq 0 (k * p_blk P)).
Proof.
  intros Hms (n0 & refs & Hm & Hf) He Hper.
  cbv beta delta [makenode_] iota zeta in Hm. rewrite He in Hm. cbn [mbind res_bind mret res_ret] in Hm.
  unfold boxed_res, boxed in Hm. cbv beta iota in Hm. injection Hm as Hn Ho Hr. subst n0.
  change (@Simple P (NPSynth (PSynth [] evs (e_sr ev) 0 []))) with (@Simple P (NPSynth (pst P (e_sr ev) evs [] 0))) in Hf.
  change (chans_of P 1) with [silent P] in Ho. subst out.
  rewrite (announced_ord P (fun o => Simple (NPSynth (pst P (e_sr ev) evs o 0))) ms o) in Hf; cycle 1.
  { intros o1 m Hcm. cbn [gmsg smsg]. unfold psynth_msg. destruct m as [| | | |pos i|]; try done; by destruct (ord_msg _ _). }
  { done. }
  injection Hf as <-. set (st := pst P (e_sr ev) evs o).
  destruct (play_blocks P (fun b => Simple (NPSynth (st (b * p_blk P))))
    (fun b => map (p_out P (e_sr ev) evs) (seq (b * p_blk P) (p_blk P))) 1 (replicate k []) 0 [silent P]) as (outs & Hp & H0).
  - intros b i o1 [-> _]%lookup_replicate (x & ->)%length1. cbn [Nat.add gproc sproc]. unfold psynth_proc, st at 1.
    rewrite (psynth_run P (e_sr ev) evs o Hper). fold st. cbn [put0 mbind res_bind mret res_ret wrap].
    replace (b * p_blk P + p_blk P) with (S b * p_blk P) by lia. eexists. split; [reflexivity|]. done.
  - done.
  - do 2 eexists. split; [exact Hp|]. rewrite H0, concat_blocks, replicate_length. done.
Qed.

(** ** Silence *)
Theorem C45_silence notes sr len amp t : (forall u, u <= t -> (Z.of_nat (t - u) <= len)%Z -> notes u = []) ->
  synth notes sr len amp t = f0.
Proof.
  intros H. unfold synth. assert (sounding notes len t = []) as ->; [|done]. unfold sounding.
  destruct (List.filter _ _) as [|n l] eqn:E; [done|]. exfalso.
  assert (In n (List.filter (lives len t) (flat_map (begun notes) (seq 0 (S t))))) as Hn by (rewrite E; by left).
  apply List.filter_In in Hn as [(u & Hu & Hs)%in_flat_map Hl]. apply in_seq in Hu. unfold begun in Hs.
  apply in_map_iff in Hs as (f & <- & Hf). unfold lives in Hl. apply Z.leb_le in Hl. cbn [fst] in Hl.
  rewrite (H u) in Hf by lia. done.
Qed.
(** Before the first note as well. *)
Theorem C45_psynth_silence P sr evs t :
  (forall u, u <= t -> (Z.of_nat (t - u) <= lasts (p_cfg P) sr p_attack tenth)%Z -> forall e, e ∈ evs -> p_due P sr u e = false) ->
  p_out P sr evs t = f0.
Proof.
  intros H. apply C45_silence. intros u Hu Hl. unfold p_notes. specialize (H u Hu Hl).
  assert (List.filter (p_due P sr u) evs = []) as ->; [|done].
  induction evs as [|e l IH]; [done|]. cbn [List.filter]. rewrite H by set_solver. apply IH. intros e' He'. apply H. set_solver.
Qed.

(** ** The envelope *)

(** Attack and decay last a number of samples that floats can count, and the rounding of their sum
    does not lengthen the decay. *)
Definition tame (c : cfg) (sr : Z) (att dec : f32) : Prop :=
  in_range f0 (f_of_Z 16777216) (fmul att (f_of_Z sr)) /\ in_range f0 (f_of_Z 16777216) (fmul dec (f_of_Z sr)) /\
  (lasts c sr att dec <= 16777216)%Z /\
  fleb (f_of_Z (lasts c sr att dec - samples c sr att - 1)) (fmul dec (f_of_Z sr)) = true.
Lemma samples_le c sr t : (0 <= umax c)%Z -> rng 0 16777216 (fmul t (f_of_Z sr)) ->
  (0 <= samples c sr t <= 16777216)%Z /\ (IZR (samples c sr t) <= fval (fmul t (f_of_Z sr)))%R.
Proof.
  intros Hu [F V]. unfold samples. rewrite as_usize_fin by (done || lra || lia).
  pose proof (trunc_floor _ F ltac:(lra)) as [T1 T2].
  assert (0 <= trunc_Z (fmul t (f_of_Z sr)))%Z by (assert (IZR 0 < IZR (trunc_Z (fmul t (f_of_Z sr))) + 1)%R as H3 by lra; rewrite <- plus_IZR in H3; apply lt_IZR in H3; lia).
  assert (trunc_Z (fmul t (f_of_Z sr)) <= 16777216)%Z by (apply le_IZR; lra).
  split; [lia|]. eapply Rle_trans; [|exact T1]. apply IZR_le. lia.
Qed.
Lemma ratio_rng z y : (0 <= z <= 16777216)%Z -> fin y -> (0 < fval y)%R -> (IZR z <= fval y)%R -> rng 0 1 (fdiv (f_of_Z z) y).
Proof.
  intros Hz Fy Hy Hzy. assert (Z.abs z <= 16777216)%Z as Ha by lia. assert (0 <= IZR z)%R by (apply IZR_le; lia).
  apply fdiv_rng; [bnd..|by apply fin_Z|done|lra|]. rewrite val_Z by done. split.
  - apply Rmult_le_reg_r with (fval y); [done|]. replace (IZR z / fval y * fval y)%R with (IZR z) by (field; lra). lra.
  - apply Rmult_le_reg_r with (fval y); [done|]. replace (IZR z / fval y * fval y)%R with (IZR z) by (field; lra). lra.
Qed.
Lemma p_amp_rng c sr att dec pos : (0 <= umax c)%Z -> tame c sr att dec -> (0 <= pos <= lasts c sr att dec)%Z ->
  rng 0 1 (p_amp c sr att dec pos).
Proof.
  intros Hu (Ha & Hd & Hl & Hc) Hp.
  assert (F24 : fin (f_of_Z 16777216)) by (by apply fin_Z). assert (V24 : fval (f_of_Z 16777216) = 16777216%R) by (by apply val_Z).
  apply in_range_rng in Ha; [|apply fin_f0|done]. apply in_range_rng in Hd; [|apply fin_f0|done]. rewrite val_f0, V24 in Ha, Hd.
  destruct (samples_le c sr att Hu Ha) as [A1 A2]. destruct (samples_le c sr dec Hu Hd) as [D1 D2].
  assert (R0 : rng 0 1 f0) by (split; [apply fin_f0|rewrite val_f0; lra]). unfold p_amp. case Z.leb_spec; intros Hle.
  - unfold rising. case Z.eqb_spec; intros Hz; [done|]. assert (1 <= IZR (samples c sr att))%R by (apply IZR_le; lia).
    destruct Ha as [Fa Va]. apply ratio_rng; [lia|done|lra|]. assert (IZR pos <= IZR (samples c sr att))%R by (apply IZR_le; lia). lra.
  - unfold falling. case Z.eqb_spec; intros Hz; [done|]. assert (1 <= IZR (samples c sr dec))%R by (apply IZR_le; lia).
    destruct Hd as [Fd Vd]. apply ratio_rng; [lia|done|lra|].
    apply fleb_ok in Hc; [|apply fin_Z; lia|done]. rewrite val_Z in Hc by lia. eapply Rle_trans; [|exact Hc]. apply IZR_le. lia.
Qed.
(** C45.  The envelope of every sample of a note of [psynth] lies between 0 and 1. *)
Theorem C45_envelope c sr att dec pos : (0 <= umax c)%Z -> tame c sr att dec -> (0 <= pos <= lasts c sr att dec)%Z ->
  in_range f0 f1 (p_amp c sr att dec pos).
Proof.
  intros. apply in_range_rng; [apply fin_f0|apply fin_f1|]. rewrite val_f0, val_f1. by apply p_amp_rng.
Qed.
(** The usual sample rates. *)
Definition rates : list Z := [8000; 11025; 16000; 22050; 32000; 44100; 48000; 88200; 96000; 176400; 192000]%Z.
(** The same, as a calculation. *)
Definition whole (x : f32) : bool :=
  valid_binary prec32 emax32 x && fleb f0 x && fleb x (f_of_Z 16777216) && (trunc_Z x <=? 16777216)%Z &&
  match x with S754_zero _ | S754_finite _ _ _ => true | _ => false end.
Definition tame_check (sr : Z) (att dec : f32) : bool :=
  let a := fmul att (f_of_Z sr) in let d := fmul dec (f_of_Z sr) in let l := fmul (fadd att dec) (f_of_Z sr) in
  whole a && whole d && whole l && fleb (f_of_Z (Z.max 0 (trunc_Z l) - Z.max 0 (trunc_Z a) - 1)) d.
Lemma as_usize_any c x : (16777216 <= umax c)%Z -> whole x = true ->
  in_range f0 (f_of_Z 16777216) x /\ as_usize c x = Z.max 0 (trunc_Z x) /\ (trunc_Z x <= 16777216)%Z.
Proof.
  intros Hu H. unfold whole in H. apply andb_prop in H as [H Hf]. apply andb_prop in H as [H Ht]. apply andb_prop in H as [H H3].
  apply andb_prop in H as [H1 H2]. apply Z.leb_le in Ht. split; [by split|]. split; [|done].
  unfold as_usize. destruct x; (discriminate || lia).
Qed.
Lemma tame_checked c sr att dec : (16777216 <= umax c)%Z -> tame_check sr att dec = true -> tame c sr att dec.
Proof.
  intros Hu H. unfold tame_check in H. apply andb_prop in H as [H Hc]. apply andb_prop in H as [H Hl]. apply andb_prop in H as [Ha Hd].
  destruct (as_usize_any c _ Hu Ha) as (A1 & A2 & A3). destruct (as_usize_any c _ Hu Hd) as (D1 & D2 & D3).
  destruct (as_usize_any c _ Hu Hl) as (L1 & L2 & L3). unfold tame, lasts, samples. rewrite A2, L2. split_and!; [done|done|lia|done].
Qed.
Theorem C45_rates c sr : (16777216 <= umax c)%Z -> sr ∈ rates -> tame c sr p_attack tenth.
Proof.
  intros Hu Hsr. apply tame_checked; [done|]. assert (H : forallb (fun sr => tame_check sr p_attack tenth) rates = true) by (vm_compute; reflexivity).
  rewrite forallb_forall in H. apply H. by apply elem_of_list_In.
Qed.

(** ** The sound *)
Lemma saw_rng sr f k : (0 < sr <= 16777216)%Z -> fin f -> (0 <= fval f <= IZR sr)%R -> rng (-1) 1 (saw (phase_at sr (fun _ => f) k)).
Proof.
  intros Hsr Hf Hv. assert (Hp : rng 0 1 (phase_at sr (fun _ => f) k)).
  { induction k as [|k IH]; [split; [apply fin_f0|change (phase_at sr (fun _ => f) 0) with f0; rewrite val_f0; lra]|].
    change (phase_at sr (fun _ => f) (S k)) with (advance sr (phase_at sr (fun _ => f) k) f). by apply advance_rng. }
  apply (wave_rng demo WSaw); [done|exact Hp].
Qed.
Lemma fmt_eighths z : (Z.abs z < 16777216)%Z -> fmt (IZR z / 8)%R.
Proof.
  intros Hz. apply FLT.generic_format_FLT. exists (Defs.Float Zaux.radix2 z (-3)); simpl; [unfold Defs.F2R; simpl; lra|lia|lia].
Qed.
Lemma big_eighths z : (Z.abs z < 16777216)%Z -> (Rabs (IZR z / 8) < big)%R.
Proof.
  intros Hz. assert (-16777216 <= IZR z <= 16777216)%R by (split; apply IZR_le; lia). pose proof big_16777216.
  apply Rabs_def1; lra.
Qed.
Lemma tenth_ok : fin tenth /\ (0 <= fval tenth <= 1 / 8)%R.
Proof.
  assert (tenth = S754_finite false 13421773 (-27)) as -> by (vm_compute; reflexivity). split; [by split|]. rewrite fval_fin. simpl. lra.
Qed.
Lemma tone_rng sr amp t n : (0 < sr <= 16777216)%Z -> fin n.2 -> (0 <= fval n.2 <= IZR sr)%R ->
  rng 0 1 (amp (Z.of_nat (t - n.1))) -> rng (IZR (-1) / 8) (IZR 1 / 8) (tone sr amp t n).
Proof.
  intros Hsr Hf Hv [Fa Va]. destruct (saw_rng sr n.2 (t - n.1) Hsr Hf Hv) as [Fs Vs]. unfold tone. destruct tenth_ok as [Ft Vt].
  assert (rng (-1) 1 (fmul (amp (Z.of_nat (t - n.1))) (saw (phase_at sr (fun _ => n.2) (t - n.1))))) as [Fm Vm].
  { apply fmul_rng; [bnd..|done|done|]. nra. }
  apply fmul_rng; [by apply fmt_eighths|by apply fmt_eighths|by apply big_eighths|by apply big_eighths|done|done|]. nra.
Qed.
Lemma tones_rng sr amp t l acc k : (0 < sr <= 16777216)%Z -> (0 <= k)%Z -> (k + Z.of_nat (length l) < 16777216)%Z ->
  Forall (fun n => fin n.2 /\ (0 <= fval n.2 <= IZR sr)%R /\ rng 0 1 (amp (Z.of_nat (t - n.1)))) l ->
  rng (IZR (- k) / 8) (IZR k / 8) acc -> let m := (k + Z.of_nat (length l))%Z in rng (IZR (- m) / 8) (IZR m / 8) (tones sr amp t l acc).
Proof.
  intros Hsr Hk Hm Hl. revert acc k Hk Hm. induction Hl as [|n l (H1 & H2 & H3) Hl IH]; intros acc k Hk Hm [Fa Va]; cbn [length] in *.
  - rewrite Z.add_0_r. done.
  - unfold tones. cbn [fold_left]. destruct (tone_rng sr amp t n Hsr H1 H2 H3) as [Ft Vt].
    cbv zeta in *. replace (k + Z.of_nat (S (length l)))%Z with ((k + 1) + Z.of_nat (length l))%Z by lia. apply IH; [lia|lia|].
    apply fadd_rng; [apply fmt_eighths; lia|apply fmt_eighths; lia|apply big_eighths; lia|apply big_eighths; lia|done|done|].
    rewrite opp_IZR, plus_IZR in *. lra.
Qed.
(** C45.  At the usual sample rates, with events whose frequencies lie between 0 and the sample
    rate, a sample of [psynth] never exceeds an eighth of the number of notes that sound. *)
Theorem C45_psynth_bound P sr evs t : (16777216 <= umax (p_cfg P))%Z -> sr ∈ rates ->
  Forall (fun e => in_range f0 (f_of_Z sr) (hz P e.2)) evs ->
  let k := Z.of_nat (length (sounding (p_notes P sr evs) (lasts (p_cfg P) sr p_attack tenth) t)) in
  (k < 16777216)%Z -> fin (p_out P sr evs t) /\ (Rabs (fval (p_out P sr evs t)) <= IZR k / 8)%R.
Proof.
  intros Hu Hsr He k Hk. assert (Hr : (0 < sr <= 16777216)%Z).
  { assert (H : forallb (fun sr => (0 <? sr)%Z && (sr <=? 16777216)%Z) rates = true) by (vm_compute; reflexivity).
    rewrite forallb_forall in H. specialize (H sr ltac:(by apply elem_of_list_In)). apply andb_prop in H as [H1%Z.ltb_lt H2%Z.leb_le]. lia. }
  pose proof (C45_rates (p_cfg P) sr Hu Hsr) as Ht.
  destruct (tones_rng sr (p_amp (p_cfg P) sr p_attack tenth) t (sounding (p_notes P sr evs) (lasts (p_cfg P) sr p_attack tenth) t) f0 0)
    as [F V]; [done|done|lia| |split; [apply fin_f0|rewrite val_f0; change (- 0)%Z with 0%Z; lra]|].
  - apply Forall_forall. intros n Hn%elem_of_list_In. unfold sounding in Hn. apply List.filter_In in Hn as [(u & Hu1 & Hs)%in_flat_map Hl].
    unfold begun in Hs. apply in_map_iff in Hs as (f & <- & Hf). unfold p_notes in Hf. apply in_map_iff in Hf as (e & <- & [Hin _]%List.filter_In).
    unfold lives in Hl. apply Z.leb_le in Hl. cbn [fst snd] in *. rewrite Forall_forall in He. specialize (He e ltac:(by apply elem_of_list_In)).
    apply in_range_rng in He as [F V]; [|apply fin_f0|apply fin_Z; lia]. rewrite val_f0, val_Z in V by lia.
    split; [done|]. split; [done|]. apply p_amp_rng; [lia|done|lia].
  - split; [exact F|]. rewrite Z.add_0_l, opp_IZR in V. apply Rabs_le. fold k in V. unfold p_out, synth. lra.
Qed.

(** ** msgsynth

    What messages say to a [msgsynth]: the attack, the decay, or "time=>note" (the time in seconds,
    the note as a MIDI number; white space does not count). *)
Definition plain (a : string) : Prop := forall u v, a <> String.append u (String.append "=>" v).
Definition asks (t : string) (x y : f32) : Prop := exists a b r,
  sfilter (fun c => negb (is_space c)) t = String.append a (String.append "=>" (String.append b r)) /\ plain a /\ plain b /\
  (r = EmptyString \/ exists r', r = String.append "=>" r') /\ parse_f32 a = Some x /\ parse_f32 b = Some y.
(** A note to begin at sample [u]. *)
Definition noted (c : cfg) (sr : Z) (ms : list msg) (u : Z) : Prop :=
  exists t x y, SetToSymbol 3 t ∈ ms /\ asks t x y /\ u = as_usize c (fmul x (f_of_Z sr)).
Definition last_set (pos : Z) (ms : list msg) (v : f32) : f32 :=
  fold_left (fun v m => match m with SetToNumber p w => if (p =? pos)%Z then w else v | _ => v end) ms v.

(** A node that receives messages before each of its blocks. *)
Fixpoint drive (P : platform) (n : gnode P) (out : list sig) (l : list (list msg * inmap)) : res (gnode P * list (list sig)) :=
  match l with
  | [] => Ok (n, [])
  | (ms, i) :: l' =>
      n1 ← foldM (gmsg P) n ms; r ← gproc P n1 i out; r' ← drive P r.1 r.2 l'; mret (r'.1, r.2 :: r'.2)
  end.

Lemma plain_tail c a : plain (String c a) -> plain a.
Proof. intros H u v ->. exact (H (String c u) v eq_refl). Qed.
Lemma split_arrow_char c a : (forall a', String c a <> String "=" (String ">" a')) ->
  split_arrow (String c a) = match split_arrow a with p :: ps => String c p :: ps | [] => [String c EmptyString] end.
Proof.
  intros H. destruct c as [[] [] [] [] [] [] [] []]; try reflexivity.
  destruct a as [|[[] [] [] [] [] [] [] []] a]; try reflexivity. by destruct (H a).
Qed.
Lemma split_arrow_app a s : plain a -> split_arrow (String.append a (String.append "=>" s)) = a :: split_arrow s.
Proof.
  induction a as [|c a IH]; intros Ha; [reflexivity|]. change (String.append (String c a) ?x) with (String c (String.append a x)).
  rewrite split_arrow_char; [by rewrite IH by (by eapply plain_tail)|]. intros a' [= -> E].
  destruct a as [|c2 a2]; [discriminate|]. change (String.append (String c2 a2) ?x) with (String c2 (String.append a2 x)) in E.
  injection E as -> E. exact (Ha EmptyString a2 eq_refl).
Qed.
Lemma split_arrow_end a : plain a -> split_arrow a = [a].
Proof.
  induction a as [|c a IH]; intros Ha; [reflexivity|]. rewrite split_arrow_char; [by rewrite IH by (by eapply plain_tail)|].
  intros a' [= -> ->]. exact (Ha EmptyString a' eq_refl).
Qed.
Lemma plain_nil : plain EmptyString.
Proof. intros [] v H; discriminate. Qed.
Lemma plain_cons c a : (forall a', String c a <> String "=" (String ">" a')) -> plain a -> plain (String c a).
Proof. intros H Ha [|c' u] v E; [exact (H v E)|]. injection E as <- E. exact (Ha u v E). Qed.
Lemma arrow_dec c s : (exists s', String c s = String "=" (String ">" s')) \/ (forall s', String c s <> String "=" (String ">" s')).
Proof.
  destruct (decide (c = "="%char)) as [->|]; [|right; intros s' [= -> _]; done].
  destruct s as [|c2 s2]; [right; discriminate|]. destruct (decide (c2 = ">"%char)) as [->|]; [left; by exists s2|].
  right. intros s' [= -> _]. done.
Qed.
Lemma arrows s : plain s \/ exists a r, s = String.append a (String.append "=>" r) /\ plain a.
Proof.
  induction s as [|c s IH]; [left; apply plain_nil|]. destruct (arrow_dec c s) as [(s' & ->)|Hne].
  - right. exists EmptyString, s'. split; [reflexivity|apply plain_nil].
  - destruct IH as [Hp|(a & r & -> & Ha)]; [left; by apply plain_cons|]. right. exists (String c a), r. split; [reflexivity|].
    apply plain_cons; [|done]. intros a' [= -> ->]. exact (Hne _ eq_refl).
Qed.
Lemma append_nil b : String.append b EmptyString = b.
Proof. induction b as [|c b IH]; [reflexivity|]. change (String.append (String c b) "") with (String c (String.append b "")). by rewrite IH. Qed.
(** A message is understood as a note exactly when it asks for one. *)
Lemma asks_split t x y : asks t x y <-> exists a b l,
  split_arrow (sfilter (fun c => negb (is_space c)) t) = a :: b :: l /\ parse_f32 a = Some x /\ parse_f32 b = Some y.
Proof.
  split.
  - intros (a & b & r & -> & Ha & Hb & Hr & Hx & Hy). rewrite split_arrow_app by done. destruct Hr as [->|[r' ->]].
    + rewrite append_nil.
      rewrite split_arrow_end by done. by exists a, b, [].
    + rewrite split_arrow_app by done. by exists a, b, (split_arrow r').
  - intros (a & b & l & E & Hx & Hy). unfold asks. destruct (arrows (sfilter (fun c => negb (is_space c)) t)) as [Hp|(a' & r & Es & Ha)].
    { by rewrite split_arrow_end in E by done. }
    rewrite Es in *. rewrite split_arrow_app in E by done. injection E as -> E. destruct (arrows r) as [Hp|(b' & r' & -> & Hb)].
    + rewrite split_arrow_end in E by done. injection E as -> <-.
      eexists _, _, EmptyString. rewrite append_nil. eauto 10.
    + rewrite split_arrow_app in E by done. injection E as -> E. exists a, b, (String.append "=>" r'). eauto 10.
Qed.

(** *** What the messages leave behind *)
Inductive heard (c : cfg) (sr : Z) : list msg -> list (Z * f32) -> Prop :=
| heard_nil : heard c sr [] []
| heard_note t x y ms evs : asks t x y -> heard c sr ms evs ->
    heard c sr (SetToSymbol 3 t :: ms) ((as_usize c (fmul x (f_of_Z sr)), y) :: evs)
| heard_other m ms evs : (forall t x y, m = SetToSymbol 3 t -> ~ asks t x y) -> heard c sr ms evs -> heard c sr (m :: ms) evs.

Definition mst (P : platform) (s : msynth) (att dec : f32) (evs : list (Z * f32)) (o : list nat) : msynth :=
  MSynth (ms_voices s) att dec (ms_events s ++ evs) (ms_sr s) (ms_step s) o.
Lemma msynth_msgs P ms s s' : foldM (msynth_msg P) s ms = Ok s' -> exists evs o,
  heard (p_cfg P) (ms_sr s) ms evs /\ s' = mst P s (last_set 1 ms (ms_att s)) (last_set 2 ms (ms_dec s)) evs o.
Proof.
  revert s. induction ms as [|m ms IH]; intros s; cbn [foldM].
  - intros [= <-]. exists [], (ms_ord s). split; [constructor|]. unfold mst. rewrite app_nil_r. by destruct s.
  - destruct (msynth_msg P s m) as [s1|] eqn:E; [|done]. cbn [mbind res_bind]. intros (evs & o & H1 & ->)%IH.
    destruct m as [pos v|pos t|b|i|pos i|].
    + assert (s1 = MSynth (ms_voices s) (if (pos =? 1)%Z then v else ms_att s) (if (pos =? 2)%Z then v else ms_dec s) (ms_events s) (ms_sr s) (ms_step s) (ms_ord s)) as ->.
      { unfold msynth_msg in E. destruct pos as [|[[|[]|]|[|[]|]|]|]; cbn in E; try (injection E as <-; reflexivity). 
        all: try (injection E as <-; by destruct s). }
      exists evs, o. split; [apply heard_other; [discriminate|exact H1]|]. reflexivity.
    + destruct (decide (pos = 3%Z)) as [->|Hpos].
      * unfold msynth_msg in E. destruct (split_arrow (sfilter (fun c => negb (is_space c)) t)) as [|a [|b l]] eqn:Es.
        1,2: (injection E as <-; exists evs, o; split; [apply heard_other; [|exact H1]|reflexivity]; intros ? x y [= <-] (a1 & b1 & l1 & E1 & _)%asks_split; congruence).
        destruct (parse_f32 a) as [x|] eqn:Ea; [|done]. destruct (parse_f32 b) as [y|] eqn:Eb; [|done].
        cbn [unwrap mbind res_bind mret res_ret] in E. injection E as <-.
        exists ((as_usize (p_cfg P) (fmul x (f_of_Z (ms_sr s))), y) :: evs), o. split.
        -- apply heard_note; [|exact H1]. apply asks_split. eauto 10.
        -- unfold mst. cbn [ms_voices ms_events ms_sr ms_step ms_att ms_dec]. rewrite <- app_assoc. reflexivity.
      * assert (s1 = s) as ->.
        { unfold msynth_msg in E. destruct pos as [|[[|[]|]|[|[]|]|]|]; cbn in E; try done; injection E as <-; by destruct s. }
        exists evs, o. split; [apply heard_other; [congruence|exact H1]|reflexivity].
    + exists evs, o. injection E as <-. split; [apply heard_other; [discriminate|exact H1]|reflexivity].
    + exists evs, o. injection E as <-. split; [apply heard_other; [discriminate|exact H1]|reflexivity].
    + exists evs, o. unfold msynth_msg in E. destruct (ord_msg _ _) as [o1|]; [|done]. injection E as <-. split; [apply heard_other; [discriminate|exact H1]|reflexivity].
    + exists evs, o. injection E as <-. split; [apply heard_other; [discriminate|exact H1]|reflexivity].
Qed.
Lemma heard_noted c sr ms evs : heard c sr ms evs -> forall e, e ∈ evs -> noted c sr ms e.1.
Proof.
  induction 1 as [|t x y ms evs Ha Hh IH|m ms evs Hm Hh IH]; intros e He; [by apply elem_of_nil in He| |].
  - apply elem_of_cons in He as [->|He]; [exists t, x, y; split_and!; [by left|done|done]|].
    destruct (IH e He) as (t' & x' & y' & H1 & H2 & H3). exists t', x', y'. split_and!; [by right|done|done].
  - destruct (IH e He) as (t' & x' & y' & H1 & H2 & H3). exists t', x', y'. split_and!; [by right|done|done].
Qed.
Definition m_notes (P : platform) (evs : list (Z * f32)) (t : nat) : list f32 :=
  map (fun e => hz P e.2) (List.filter (fun e => Z.of_nat t =? e.1)%Z evs).
Definition m_out (P : platform) (sr : Z) (att dec : f32) (evs : list (Z * f32)) (t : nat) : f32 :=
  synth (m_notes P evs) sr (lasts (p_cfg P) sr att dec) (m_amp (p_cfg P) sr att dec) t.

Section msynth_run.
  Context (P : platform) (sr : Z) (att dec : f32) (evs : list (Z * f32)) (o : list nat).
  Let v := VPar att dec sr.
  Let rise pos := (vp_n P sr att <=? pos)%Z.
  Definition mrun (t : nat) : msynth := MSynth (map (vo v t) (going P v (m_notes P evs) t)) att dec evs sr (Z.of_nat t) o.
  Lemma mrun_start t l acc :
    foldl (fun vs ev => if (Z.of_nat t =? ev.1)%Z then vs ++ [Voice (Z.of_nat t) (midi_freq P ev.2) f0] else vs) acc l =
    acc ++ map (fun f => Voice (Z.of_nat t) f f0) (m_notes P l t).
  Proof.
    unfold m_notes. revert acc. induction l as [|e l IH]; intros acc; cbn [foldl List.filter map]; [by rewrite app_nil_r|]. rewrite IH.
    destruct (_ =? _)%Z; cbn [map]; [|done]. rewrite <- app_assoc. done.
  Qed.
  Lemma msynth_run k n : scanR (fun s (_ : unit) => Ok (msynth_step P s)) (mrun k) (replicate n tt) =
    Ok (mrun (k + n), map (m_out P sr att dec evs) (seq k n)).
  Proof.
    pose proof (scanR_index (fun s (_ : unit) => Ok (msynth_step P s)) mrun (m_out P sr att dec evs) (replicate n tt) k) as H.
    rewrite replicate_length in H. apply H. clear H. intros i x _. generalize (k + i) as t. clear i. intros t. f_equal.
    unfold msynth_step. change (ms_events (mrun t)) with evs. change (ms_step (mrun t)) with (Z.of_nat t).
    rewrite (mrun_start t evs).
    rewrite <- (new_voices v (m_notes P evs) t). change (ms_voices (mrun t)) with (map (vo v t) (going P v (m_notes P evs) t)).
    change (ms_par (mrun t)) with v. change (ms_sr (mrun t)) with sr. change (ms_att (mrun t)) with att. fold rise.
    rewrite (voices_step P rise v (m_notes P evs) t). unfold mrun. replace (Z.of_nat (S t)) with (Z.of_nat t + 1)%Z by lia.
    reflexivity.
  Qed.
End msynth_run.
Lemma msynth_msgs_node P ms s (n : gnode P) : foldM (gmsg P) (Simple (NMSynth s)) ms = Ok n ->
  exists s', n = Simple (NMSynth s') /\ foldM (msynth_msg P) s ms = Ok s'.
Proof.
  revert s. induction ms as [|m ms IH]; intros s; cbn [foldM]; [intros [= <-]; by exists s|].
  cbn [gmsg smsg]. destruct (msynth_msg P s m) as [s1|]; [|done]. cbn [wrapm mbind res_bind]. apply IH.
Qed.

(** C45, [msgsynth].  For every list of messages it can receive: a message asks for a note or not;
    the samples that follow are the sum of the notes asked for that have begun and have not
    outlived attack plus decay, each with the envelope [m_amp]. *)
Theorem C45_msgsynth (P : platform) ev sym att dec ms nd out : created P ev (CMsgSynth sym att dec) ms nd out ->
  exists evs, heard (p_cfg P) (e_sr ev) ms evs /\ forall ins, exists nd' outs, play P nd out ins = Ok (nd', outs) /\
    lane 0 outs = map (m_out P (e_sr ev) (last_set 1 ms att) (last_set 2 ms dec) evs) (seq 0 (length ins * p_blk P)).
Proof.
  intros (n0 & refs & Hm & Hf).
  cbv beta delta [makenode_] iota zeta in Hm. unfold boxed in Hm. injection Hm as Hn Ho Hr. subst n0.
  change (chans_of P 1) with [silent P] in Ho. subst out.
  apply msynth_msgs_node in Hf as (s & -> & Hf). apply msynth_msgs in Hf as (evs & o & Hh & ->).
  cbn [ms_sr ms_att ms_dec] in *. unfold mst. cbn [ms_voices ms_events ms_sr ms_step app].
  exists evs. split; [exact Hh|]. intros ins.
  set (a := last_set 1 ms att). set (d := last_set 2 ms dec). set (st := mrun P (e_sr ev) a d evs o).
  change (MSynth [] a d evs (e_sr ev) 0 o) with (st 0).
  destruct (play_blocks P (fun b => Simple (NMSynth (st (b * p_blk P))))
    (fun b => map (m_out P (e_sr ev) a d evs) (seq (b * p_blk P) (p_blk P))) 1 ins 0 [silent P]) as (outs & Hp & H0).
  - intros b i o1 _ (x & ->)%length1. cbn [Nat.add gproc sproc]. unfold msynth_proc.
    pose proof (msynth_run P (e_sr ev) a d evs o (b * p_blk P) (p_blk P)) as Hrun. fold st in Hrun.
    rewrite (scanR_scan (fun s (_ : unit) => msynth_step P s)) in Hrun by done.
    injection Hrun as Hrun. rewrite Hrun. cbn [put0 mbind res_bind mret res_ret wrap].
    replace (b * p_blk P + p_blk P) with (S b * p_blk P) by lia. eexists. split; [reflexivity|]. done.
  - done.
  - do 2 eexists. split; [exact Hp|]. rewrite H0, concat_blocks. done.
Qed.

(** *** Silence under every stream of messages *)
Section silence.
  Context (P : platform).
  (** A voice belongs to a note asked for and has begun before this step. *)
  Definition owned (evs : list (Z * f32)) (step : Z) (v : voice) : Prop := (vo_begin v < step)%Z /\ exists e, e ∈ evs /\ e.1 = vo_begin v.
  Definition minv (evs : list (Z * f32)) (s : msynth) : Prop := ms_events s = evs /\ Forall (owned evs (ms_step s)) (ms_voices s).
  Lemma play_voices_sub rise v step vs acc :
    Forall (fun x => exists y, y ∈ vs /\ vo_begin x = vo_begin y) (play_voices P rise v step vs acc).1.
  Proof.
    revert acc. induction vs as [|y vs IH]; intros acc; cbn [play_voices]; [constructor|]. destruct (_ <=? _)%Z.
    - specialize (IH (fadd acc (fmul (fmul (voice_amp P rise v (step - vo_begin y)) (fsub (fmul (vo_phase y) f2) f1)) (f_of_dec false 1 (-1))))).
      destruct (play_voices _ _ _ _ _ _) as [r a]. cbn [fst] in *. constructor; [exists y; split; [by left|reflexivity]|].
      eapply Forall_impl; [exact IH|]. intros x (z & Hz & E). exists z. split; [by right|done].
    - eapply Forall_impl; [apply IH|]. intros x (z & Hz & E). exists z. split; [by right|done].
  Qed.
  Lemma play_voices_none rise v step vs acc : Forall (fun x => (vp_dur P v < step - vo_begin x)%Z) vs ->
    (play_voices P rise v step vs acc).2 = acc.
  Proof.
    induction 1 as [|y vs Hy Hv IH]; cbn [play_voices]; [reflexivity|]. replace (_ <=? _)%Z with false; [exact IH|]. symmetry. by apply Z.leb_gt.
  Qed.
  Lemma started step (l : list (Z * f32)) acc : let vs := foldl (fun vs ev => if (step =? ev.1)%Z then vs ++ [Voice step (midi_freq P ev.2) f0] else vs) acc l in
    Forall (fun x => x ∈ acc \/ (vo_begin x = step /\ exists e, e ∈ l /\ e.1 = step)) vs.
  Proof.
    revert acc. induction l as [|e l IH]; intros acc; cbn [foldl]; [apply Forall_forall; by left|].
    eapply Forall_impl; [apply IH|]. intros x [Hx|(H1 & e' & H2 & H3)]; [|right; split; [done|]; exists e'; split; [by right|done]].
    destruct (Z.eqb_spec step e.1) as [E|]; [|by left]. apply elem_of_app in Hx as [Hx|Hx]; [by left|].
    apply elem_of_list_singleton in Hx as ->. right. split; [done|]. exists e. split; [by left|done].
  Qed.
  Lemma msynth_step_inv evs s : minv evs s -> let r := msynth_step P s in
    minv evs r.1 /\ ms_att r.1 = ms_att s /\ ms_dec r.1 = ms_dec s /\ ms_sr r.1 = ms_sr s /\ ms_step r.1 = (ms_step s + 1)%Z /\
    ((forall e, e ∈ evs -> (e.1 <= ms_step s)%Z -> (lasts (p_cfg P) (ms_sr s) (ms_att s) (ms_dec s) < ms_step s - e.1)%Z) -> r.2 = f0).
  Proof.
    intros [He Hv]. cbv zeta. unfold msynth_step. rewrite He.
    pose proof (started (ms_step s) evs (ms_voices s)) as Hs. cbv zeta in Hs. revert Hs.
    generalize (foldl (fun vs ev => if (ms_step s =? ev.1)%Z then vs ++ [Voice (ms_step s) (midi_freq P ev.2) f0] else vs) (ms_voices s) evs) as vs.
    intros vs Hs. set (rise := fun pos => _). pose proof (play_voices_sub rise (ms_par s) (ms_step s) vs f0) as Hsub.
    pose proof (play_voices_none rise (ms_par s) (ms_step s) vs f0) as Hnone. destruct (play_voices _ _ _ _ _ _) as [r a]. cbn [fst snd] in *.
    assert (Hw : Forall (fun x => (vo_begin x <= ms_step s)%Z /\ exists e, e ∈ evs /\ e.1 = vo_begin x) vs).
    { eapply Forall_impl; [exact Hs|]. rewrite Forall_forall in Hv. intros x [Hx|(-> & H)]; [|split; [lia|done]].
      destruct (Hv x Hx) as [H1 H2]. split; [lia|done]. }
    split_and!; [|reflexivity..|].
    - split; [reflexivity|]. cbn [ms_voices ms_step]. eapply Forall_impl; [exact Hsub|]. rewrite Forall_forall in Hw.
      intros x (y & Hy & E). unfold owned. rewrite E. destruct (Hw y Hy) as [H1 H2]. split; [lia|done].
    - intros H. apply Hnone. eapply Forall_impl; [exact Hw|]. intros x (H1 & e & H2 & H3). rewrite <- H3 in *. exact (H e H2 H1).
  Qed.
  Lemma msynth_scan_inv evs n s : minv evs s -> let r := scan (fun s (_ : unit) => msynth_step P s) s (replicate n tt) in
    minv evs r.1 /\ ms_att r.1 = ms_att s /\ ms_dec r.1 = ms_dec s /\ ms_sr r.1 = ms_sr s /\ ms_step r.1 = (ms_step s + Z.of_nat n)%Z /\
    length r.2 = n /\ forall i, i < n -> (forall e, e ∈ evs -> (e.1 <= ms_step s + Z.of_nat i)%Z ->
      (lasts (p_cfg P) (ms_sr s) (ms_att s) (ms_dec s) < ms_step s + Z.of_nat i - e.1)%Z) -> r.2 !! i = Some f0.
  Proof.
    revert s. induction n as [|n IH]; intros s Hi; cbn [replicate scan].
    - split_and!; [done..|simpl; lia|done|]. intros i Hlt. lia.
    - destruct (msynth_step_inv evs s Hi) as (H1 & H2 & H3 & H4 & H5 & H6). cbv zeta in *.
      destruct (msynth_step P s) as [s1 y]. cbn [fst snd] in *. specialize (IH s1 H1).
      destruct (scan _ s1 _) as [s2 ys]. cbn [fst snd] in *. destruct IH as (I1 & I2 & I3 & I4 & I5 & I6 & I7).
      split_and!; [done|congruence|congruence|congruence|lia|simpl; lia|]. intros [|i] Hlt Hq.
      + cbn [lookup list_lookup]. f_equal. apply H6. intros e He Hl. specialize (Hq e He). lia.
      + change ((y :: ys) !! S i) with (ys !! i). apply I7; [lia|]. intros e He Hl. rewrite H2, H3, H4. specialize (Hq e He). lia.
  Qed.
End silence.
Lemma last_set_app pos ms ms' v : last_set pos (ms ++ ms') v = last_set pos ms' (last_set pos ms v).
Proof. unfold last_set. by rewrite fold_left_app. Qed.
Lemma noted_app c sr ms ms' u : noted c sr ms u \/ noted c sr ms' u -> noted c sr (ms ++ ms') u.
Proof. intros [(t & x & y & H & H')|(t & x & y & H & H')]; exists t, x, y; (split; [set_solver|done]). Qed.
(** The messages received up to block [b], and the sample a block begins with. *)
Definition told (l : list (list msg * inmap)) (b : nat) : list msg := List.concat (map fst (take (S b) l)).
Lemma drive_silence P sr att dec l : forall past evs s out0 nd' outs b0, minv evs s ->
  (forall e, e ∈ evs -> noted (p_cfg P) sr past e.1) -> ms_sr s = sr -> ms_att s = last_set 1 past att -> ms_dec s = last_set 2 past dec ->
  ms_step s = Z.of_nat (b0 * p_blk P) -> length out0 = 1 -> drive P (Simple (NMSynth s)) out0 l = Ok (nd', outs) ->
  forall b o, outs !! b = Some o -> exists y, o = [y] /\ length y = p_blk P /\
    forall i, i < p_blk P -> let ms := past ++ told l b in let t := Z.of_nat ((b0 + b) * p_blk P + i) in
      (forall u, noted (p_cfg P) sr ms u -> (u <= t)%Z -> (lasts (p_cfg P) sr (last_set 1 ms att) (last_set 2 ms dec) < t - u)%Z) ->
      y !! i = Some f0.
Proof.
  induction l as [|[ms i] l IH]; intros past evs s out0 nd' outs b0 Hi Hn Hsr Ha Hd Hst (x0 & ->)%length1 E b o Hb; cbn [drive] in E.
  { injection E as <- <-. by rewrite lookup_nil in Hb. }
  destruct (foldM (gmsg P) _ ms) as [n1|] eqn:E1; [|done]. cbn [mbind res_bind] in E.
  apply msynth_msgs_node in E1 as (s1 & -> & E1). apply msynth_msgs in E1 as (new & oo & Hh & ->).
  assert (Hi1 : minv (evs ++ new) (mst P s (last_set 1 ms (ms_att s)) (last_set 2 ms (ms_dec s)) new oo)).
  { destruct Hi as [He Hv]. split; [unfold mst; cbn [ms_events]; by rewrite He|]. unfold mst. cbn [ms_step ms_voices].
    eapply Forall_impl; [exact Hv|]. intros v (H1 & e & H2 & H3). split; [done|]. exists e. split; [apply elem_of_app; by left|done]. }
  rewrite Hsr in Hh. pose proof (heard_noted _ _ _ _ Hh) as Hnew.
  assert (Hn1 : forall e, e ∈ evs ++ new -> noted (p_cfg P) sr (past ++ ms) e.1).
  { intros e [He|He]%elem_of_app; apply noted_app; [left; by apply Hn|right; by apply Hnew]. }
  pose proof (msynth_scan_inv P (evs ++ new) (p_blk P) _ Hi1) as Hsc. cbv zeta in Hsc.
  cbn [gproc sproc] in E. unfold msynth_proc in E. revert Hsc E.
  destruct (scan _ (mst _ _ _ _ _ _) _) as [s2 ys]. cbn [fst snd]. unfold mst at 1 2 3 4. cbn [ms_att ms_dec ms_sr ms_step].
  intros (J1 & J2 & J3 & J4 & J5 & J6 & J7) E. cbn [put0 mbind res_bind mret res_ret wrap] in E.
  cbn [fst snd] in E. destruct (drive P (Simple (NMSynth s2)) [ys] l) as [[n3 outs3]|] eqn:E3; [|done]. cbn [mbind res_bind mret res_ret fst snd] in E.
  injection E as <- <-. destruct b as [|b].
  - injection Hb as <-. exists ys. split; [done|]. split; [done|]. intros k Hk. cbv zeta. unfold told. cbn [take map List.concat fst]. rewrite take_0. cbn [map List.concat].
    rewrite app_nil_r, !last_set_app, <- Ha, <- Hd. intros Hq. apply J7; [done|]. unfold mst. cbn [ms_step ms_sr ms_att ms_dec]. rewrite Hst, Hsr.
    intros e He Hle. specialize (Hq e.1 (Hn1 e He)). rewrite Nat.add_0_r in Hq. lia.
  - specialize (IH (past ++ ms) (evs ++ new) s2 [ys] n3 outs3 (S b0) J1 Hn1).
    destruct IH with (b := b) (o := o) as (y & -> & Hy & Hz); [by rewrite J4|by rewrite J2, last_set_app, Ha|by rewrite J3, last_set_app, Hd|
      rewrite J5, Hst; lia|done|done|exact Hb|].
    exists y. split; [done|]. split; [done|]. intros k Hk. cbv zeta. specialize (Hz k Hk). cbv zeta in Hz. 
    assert ((past ++ ms) ++ told l b = past ++ told ((ms, i) :: l) (S b)) as Eq by (unfold told; cbn [take map List.concat fst]; by rewrite <- app_assoc).
    rewrite Eq in Hz. replace (b0 + S b) with (S b0 + b) by lia. exact Hz.
Qed.
(** C45, [msgsynth].  Whatever messages arrive before whichever blocks: a sample is 0 when every
    note asked for so far lies in the future or has outlived the present attack plus decay. *)
Theorem C45_msgsynth_silence P ev sym att dec nd out l nd' outs b o :
  created P ev (CMsgSynth sym att dec) [] nd out -> drive P nd out l = Ok (nd', outs) -> outs !! b = Some o ->
  exists y, o = [y] /\ length y = p_blk P /\ forall i, i < p_blk P ->
    let ms := told l b in let t := Z.of_nat (b * p_blk P + i) in
    (forall u, noted (p_cfg P) (e_sr ev) ms u -> (u <= t)%Z ->
       (lasts (p_cfg P) (e_sr ev) (last_set 1 ms att) (last_set 2 ms dec) < t - u)%Z) -> y !! i = Some f0.
Proof.
  intros (n0 & refs & Hm & Hf) Hd Hb.
  cbv beta delta [makenode_] iota zeta in Hm. unfold boxed in Hm. injection Hm as Hn Ho Hr. subst n0.
  change (chans_of P 1) with [silent P] in Ho. subst out. injection Hf as <-.
  assert (Hi : minv [] (MSynth [] att dec [] (e_sr ev) 0 [])) by (split; [reflexivity|constructor]).
  exact (drive_silence P (e_sr ev) att dec l [] [] _ [silent P] nd' outs 0 Hi (fun e He => False_ind _ (proj1 (elem_of_nil e) He))
    eq_refl eq_refl eq_refl eq_refl eq_refl Hd b o Hb).
Qed.

(** ** Cases *)
From Verif Require Import Session Props_Refuted.
Local Open Scope string_scope.
(** Thousandths. *)
Definition to_z (x : f32) : Z := trunc_Z (fmul x (f_of_Z 1000)).
Definition a4 : f32 := f_of_dec false 1 (-4).
Definition d3 : f32 := f_of_dec false 1 (-3).

(** C45 fails for [msgsynth]: the envelope of a note exceeds 1, at its first sample already, and is
    largest at its last. *)
Theorem C45_msgsynth_envelope_refuted : exists pos pos', (0 <= pos < pos' /\ pos' <= lasts c64 44100 a4 d3)%Z /\
  fltb f1 (m_amp c64 44100 a4 d3 pos) = true /\ fltb (f_of_Z 10) (m_amp c64 44100 a4 d3 pos') = true.
Proof. exists 0%Z, 48%Z. split_and!; [done|done|vm_compute; discriminate|vm_compute; reflexivity|vm_compute; reflexivity]. Qed.
(** It is heard: one note of an accepted program is louder than an eighth. *)
Definition loudest (l : list (list f32)) : list Z := map (fun b => fold_left Z.min (map to_z b) 0%Z) l.
Theorem C45_msgsynth_refuted : exists code, code = "o: msgsynth \saw 0.0001 0.001" /\
  loudest (lefts (sees [submit code; CMsg glicol c64 "o,0,3,0=>60"; play_block; play_block; play_block; play_block; play_block; play_block; play_block])) =
    [-153; -314; -461; -594; -712; -815; -827]%Z.
Proof. eexists. split; [reflexivity|]. run_session. Qed.

(** The hypotheses of the theorems hold. *)
Example C45_psynth_case : let evs := [(f0, f_of_Z 60); (fhalf, f_of_Z 72)] in
  (exists nd out, created demo demo_env (CPatternSynth "`0.0 60, 0.5 72`" f1) [] nd out) /\
  ps_parse "`0.0 60, 0.5 72`" = Ok evs /\ p_period demo (e_sr demo_env) = 88200%Z /\ 44100%Z ∈ rates /\
  Forall (fun e => in_range f0 (f_of_Z 44100) (hz demo e.2)) evs /\
  sounding (p_notes demo 44100 evs) (lasts c64 44100 p_attack tenth) 4 = [(0, hz demo (f_of_Z 60))] /\
  p_out demo 44100 evs 4 <> f0.
Proof.
  split_and!.
  - destruct (demo_created demo demo_env (CPatternSynth "`0.0 60, 0.5 72`" f1) [] (fun _ out => length out) 1)
      as (nd & out & H & _); [vm_compute; reflexivity|]. by exists nd, out.
  - vm_compute. reflexivity.
  - vm_compute. reflexivity.
  - unfold rates. set_solver.
  - repeat apply Forall_cons_2; [split_and!; vm_compute; reflexivity|split_and!; vm_compute; reflexivity|constructor].
  - vm_compute. reflexivity.
  - vm_compute. discriminate.
Qed.
Example C45_psynth_silence_case : let evs := [(fhalf, f_of_Z 60)] in
  (forall u, u <= 20 -> (Z.of_nat (20 - u) <= lasts c64 44100 p_attack tenth)%Z -> forall e, e ∈ evs -> p_due demo 44100 u e = false).
Proof.
  intros evs u Hu _ e [->|[]%elem_of_nil]%elem_of_cons. unfold p_due.
  assert (p_period demo 44100 = 88200%Z) as -> by (vm_compute; reflexivity).
  assert (as_usize (p_cfg demo) (fmul (fmul (fhalf, f_of_Z 60).1 f2) (f_of_Z 44100)) = 44100%Z) as -> by (vm_compute; reflexivity).
  apply Z.eqb_neq. rewrite Z.mod_small by lia. lia.
Qed.
Example C45_msgsynth_case : (exists nd out, created demo demo_env (CMsgSynth "\saw" a4 d3) [SetToSymbol 3 "0 => 60"; SetToNumber 1 d3] nd out) /\
  asks "0 => 60" f0 (f_of_Z 60) /\ heard c64 44100 [SetToSymbol 3 "0 => 60"; SetToNumber 1 d3] [(0%Z, f_of_Z 60)] /\
  last_set 1 [SetToSymbol 3 "0 => 60"; SetToNumber 1 d3] a4 = d3 /\ m_out demo 44100 d3 d3 [(0%Z, f_of_Z 60)] 3 <> f0.
Proof.
  assert (Ha : asks "0 => 60" f0 (f_of_Z 60)).
  { apply asks_split. exists "0", "60", []. split_and!; vm_compute; reflexivity. }
  split_and!.
  - destruct (demo_created demo demo_env (CMsgSynth "\saw" a4 d3) [SetToSymbol 3 "0 => 60"; SetToNumber 1 d3] (fun _ out => length out) 1)
      as (nd & out & H & _); [vm_compute; reflexivity|]. by exists nd, out.
  - exact Ha.
  - assert (0%Z = as_usize c64 (fmul f0 (f_of_Z 44100))) as E by (vm_compute; reflexivity). rewrite E.
    apply heard_note; [exact Ha|]. apply heard_other; [discriminate|constructor].
  - reflexivity.
  - vm_compute. discriminate.
Qed.
(** A note that has sounded is followed by silence. *)
Example C45_msgsynth_silence_case : let l := [([SetToSymbol 3 "0=>60"; SetToNumber 1 d3], []); ([SetToNumber 1 f0; SetToNumber 2 a4], [])] in
  demo_val demo demo_env (CMsgSynth "\saw" a4 d3) [] (fun n out => match drive demo n out l with Ok (_, [[a]; [b]]) => Some (map (fun x => feqb x f0) a, b) | _ => None end) =
    Some (Some (replicate 8 false, replicate 8 f0)).
Proof. vm_compute. reflexivity. Qed.

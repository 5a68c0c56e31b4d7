(** * Props_Sampler: sampler (C37, C66). *)
From Verif Require Export Props_Range.
From Verif Require Import FloatR.
From Coq Require Import Reals Lra Lia.
Local Open Scope nat_scope.

(** ** Signs of quotients *)

Definition nonneg (x : f32) : Prop :=
  match x with S754_zero s | S754_infinity s | S754_finite s _ _ => s = false | S754_nan => True end.
Lemma round_aux_nonneg m e l : nonneg (binary_round_aux prec32 emax32 false m e l).
Proof.
  unfold binary_round_aux. destruct (shr_fexp _ _ _ _) as [a b]. destruct (shr_fexp _ _ _ _) as [c d].
  destruct (shr_m c); cbn; try done. by destruct (_ <=? _)%Z.
Qed.
Lemma f_of_Z_nonneg z : (0 <= z)%Z -> nonneg (f_of_Z z).
Proof.
  intros Hz. unfold f_of_Z, binary_normalize. destruct z as [|p|p]; [done| |lia].
  unfold binary_round. destruct (shl_align _ _ _). apply round_aux_nonneg.
Qed.
Lemma fdiv_nonneg x y : nonneg x -> nonneg y -> nonneg (fdiv x y).
Proof.
  unfold fdiv. destruct x as [s|s| |s m e], y as [s'|s'| |s' m' e']; cbn [nonneg]; try done; intros -> ->; try done.
  unfold SFdiv. destruct (SFdiv_core_binary _ _ _ _ _ _) as [[a b] c]. apply round_aux_nonneg.
Qed.
Lemma fgtb_nonneg x : fgtb x f0 = true -> nonneg x.
Proof. by destruct x as [[]|[]| |[] m e]. Qed.
Lemma nonneg_rng x : vf x = true -> nonneg x -> fleb x f1 = true -> rng 0 1 x.
Proof.
  intros Hv Hn Hle. assert (H0 : fleb f0 x = true).
  { destruct x as [[]|[]| |[] m e]; try done. }
  assert (in_range f0 f1 x) as H by done. apply in_range_rng in H; [|done|done]. by rewrite val_f0, val_f1 in H.
Qed.

(** ** What a sampler plays *)

(** [t]: samples; [u]: the sample at which a trigger came; [x]: the triggers. *)
Section spec.
  Context (d : sampledata) (sr : Z) (x : sig).
  (** Samples per channel, and the time in samples of the engine they take at the pitch of the trigger. *)
  Definition frames : Z := (Z.of_nat (length (sd_data d)) / sd_chan d)%Z.
  Definition dur (pitch : f32) : f32 := fdiv (fdiv (f_of_Z frames) pitch) (fdiv (f_of_Z (sd_rate d)) (f_of_Z sr)).
  Definition pitch_at (u : nat) : f32 := default f0 (x !! u).
  (** How far the voice started at [u] has come at [t], as a fraction. *)
  Definition progress (u t : nat) : f32 := fdiv (f_of_Z (Z.of_nat (t - u))) (dur (pitch_at u)).
  Definition alive (u t : nat) : bool := forallb (fun s => fleb (progress u s) f1) (seq u (S (t - u))).
  Definition sounding (u t : nat) : bool := fgtb (pitch_at u) f0 && alive u t.
  Definition voices (t : nat) : list nat := List.filter (fun u => sounding u t) (seq 0 (S t)).
  (** The sample read at a fractional index; the weights are the ones of the code, see C66. *)
  Definition datum (i : Z) : f32 := default f0 (sd_data d !! Z.to_nat i).
  Definition between_data (P : platform) (y : f32) (off : Z) : f32 :=
    let part := fsub y (ffloor y) in
    fadd (fmul (datum (as_usize (p_cfg P) (ffloor y) + off)) part)
         (fmul (datum (as_usize (p_cfg P) (fceil y) + off)) (fsub f1 part)).
  Definition tap (P : platform) (pos : f32) : f32 * f32 :=
    let total := Z.of_nat (length (sd_data d)) in
    if (sd_chan d =? 1)%Z then
      let v := if feqb pos f0 then datum 0 else if feqb pos f1 then datum (total - 1)
               else between_data P (fmul pos (f_of_Z (total - 1))) 0 in (v, v)
    else if feqb pos f0 then (datum 0, datum frames)
    else if feqb pos f1 then (datum (frames - 1), datum (total - 1))
    else let y := fmul pos (f_of_Z (frames - 2)) in (between_data P y 0, between_data P y (frames + 1)).
  Definition plus2 (a b : f32 * f32) : f32 * f32 := (fadd a.1 b.1, fadd a.2 b.2).
  Definition mixed (P : platform) (t : nat) (us : list nat) (acc : f32 * f32) : f32 * f32 :=
    fold_left (fun acc u => plus2 acc (tap P (progress u t))) us acc.
  Definition played (P : platform) (t : nat) : f32 * f32 := mixed P t (voices t) (f0, f0).
End spec.

(** Data the sampler can play without running out of it: mono or stereo, at least one or two
    frames, at most 2^24 samples (6 minutes of mono at 44.1 kHz). *)
Definition playable (d : sampledata) : Prop :=
  (Z.of_nat (length (sd_data d)) <= 16777216)%Z /\
  ((sd_chan d = 1 /\ 1 <= frames d) \/ (sd_chan d = 2 /\ 2 <= frames d))%Z.

Lemma at_datum d i : (0 <= i < Z.of_nat (length (sd_data d)))%Z -> at_ (sd_data d) i = Ok (datum d i).
Proof.
  intros Hi. unfold at_, datum. destruct (Z.ltb_spec i 0); [lia|].
  destruct (lookup_lt_is_Some_2 (sd_data d) (Z.to_nat i)) as [v ->]; [lia|]. done.
Qed.
Lemma interp_ok (P : platform) d y n off : (0 <= n <= 16777216)%Z -> (n <= umax (p_cfg P))%Z -> rng 0 (IZR n) y ->
  (0 <= off)%Z -> (n + off < Z.of_nat (length (sd_data d)))%Z -> sd_interp P d y off = Ok (between_data d P y off).
Proof.
  intros Hn Hu Hy Ho Hl. unfold sd_interp, between_data.
  destruct (floor_index (p_cfg P) y n Hn Hu Hy) as [H1 _]. destruct (ceil_index (p_cfg P) y n Hn Hu Hy) as [H2 _].
  rewrite !at_datum by lia. done.
Qed.
Lemma sd_play_tap (P : platform) d pos lr : playable d -> (16777216 <= umax (p_cfg P))%Z ->
  rng 0 1 pos -> (sd_chan d = 1%Z -> lr.1 = lr.2) ->
  sd_play P d (frames d) pos lr = Ok (Some (plus2 lr (tap d P pos))).
Proof.
  intros (Hlen & Hch) Hu Hpos Hlr. unfold sd_play, tap, sd_len. cbv zeta.
  assert (Hmid : feqb pos f0 = false -> feqb pos f1 = false -> fgtb pos f0 && fltb pos f1 = true).
  { intros E0 E1. destruct Hpos as [F V].
    assert (H0 : fval pos ≠ 0%R). { intros E. assert (feqb pos f0 = true) by (apply feqb_ok; [done..|by rewrite val_f0]). congruence. }
    assert (H1 : fval pos ≠ 1%R). { intros E. assert (feqb pos f1 = true) by (apply feqb_ok; [done..|by rewrite val_f1]). congruence. }
    apply andb_true_intro. split.
    - change (fgtb pos f0) with (fltb f0 pos). apply fltb_ok; [done..|]. rewrite val_f0. lra.
    - apply fltb_ok; [done..|]. rewrite val_f1. lra. }
  assert (Hscale : forall n, (0 <= n <= 16777216)%Z -> rng 0 (IZR n) (fmul pos (f_of_Z n))).
  { intros n Hn. destruct Hpos as [F V]. assert (0 <= IZR n)%R by (apply IZR_le; lia).
    apply fmul_rng; [bnd|apply fmt_Z; lia|bnd|apply big_Z; lia|done|apply fin_Z; lia|]. rewrite val_Z by lia. nra. }
  destruct Hch as [[Hc Hf]|[Hc Hf]]; rewrite Hc.
  - rewrite Z.eqb_refl. unfold frames in Hf. rewrite Hc, Z.div_1_r in Hf.
    unfold usub. destruct (Z.leb_spec 1 (Z.of_nat (length (sd_data d)))); [|lia]. cbn [mbind res_bind].
    destruct lr as [l r]. specialize (Hlr Hc). cbn [fst snd] in *. subst r. unfold plus2. cbn [fst snd].
    destruct (feqb pos f0) eqn:E0; [by rewrite at_datum by lia|]. destruct (feqb pos f1) eqn:E1; [by rewrite at_datum by lia|].
    rewrite Hmid by done. rewrite (interp_ok P d _ (Z.of_nat (length (sd_data d)) - 1)%Z); [done|lia|lia| |lia|lia]. apply Hscale. lia.
  - change (2 =? 1)%Z with false. change (2 =? 2)%Z with true. cbv iota.
    assert (H2 : (2 * frames d <= Z.of_nat (length (sd_data d)))%Z).
    { unfold frames. rewrite Hc. pose proof (Z.mul_div_le (Z.of_nat (length (sd_data d))) 2). lia. }
    unfold plus2. destruct (feqb pos f0) eqn:E0; [by rewrite !at_datum by lia|].
    destruct (feqb pos f1) eqn:E1.
    { unfold usub. destruct (Z.leb_spec 1 (frames d)); [|lia]. cbn [mbind res_bind].
      destruct (Z.leb_spec 1 (Z.of_nat (length (sd_data d)))); [|lia]. cbn [mbind res_bind]. by rewrite !at_datum by lia. }
    rewrite Hmid by done. unfold usub. destruct (Z.leb_spec 2 (frames d)); [|lia]. cbn [mbind res_bind].
    assert (Hy : rng 0 (IZR (frames d - 2)) (fmul pos (f_of_Z (frames d - 2)))) by (apply Hscale; lia).
    rewrite (interp_ok P d _ (frames d - 2)%Z 0), (interp_ok P d _ (frames d - 2)%Z (frames d + 1)); try done; lia.
Qed.

Section run.
  Context (P : platform) (d : sampledata) (sr : Z) (x : sig).
  Context (Hd : playable d) (Hu : (16777216 <= umax (p_cfg P))%Z) (Hr : (0 <= sd_rate d)%Z) (Hsr : (0 <= sr)%Z)
          (Hx : Forall (fun v => vf v = true) x).
  Let vo (u : nat) : Z * f32 := (Z.of_nat u, dur d sr (pitch_at x u)).

  Lemma progress_rng u t : fgtb (pitch_at x u) f0 = true -> fleb (progress d sr x u t) f1 = true -> rng 0 1 (progress d sr x u t).
  Proof.
    intros Ht Hle. assert (Hf : (0 <= frames d)%Z) by (unfold playable in Hd; lia).
    assert (Hv : vf (pitch_at x u) = true).
    { unfold pitch_at. destruct (x !! u) as [v|] eqn:E; [|done]. cbn. rewrite Forall_lookup in Hx. by apply (Hx u). }
    apply nonneg_rng; [|unfold progress, dur; repeat apply fdiv_nonneg; try (apply f_of_Z_nonneg; lia); by apply fgtb_nonneg|done].
    unfold progress, dur. repeat apply fdiv_valid; try done; apply f_of_Z_valid.
  Qed.

  Lemma sampler_voices_spec s t us lr : sa_clock s = Z.of_nat t -> sa_data s = d -> sa_len s = frames d ->
    Forall (fun u => u <= t /\ fgtb (pitch_at x u) f0 = true) us -> (sd_chan d = 1%Z -> lr.1 = lr.2) ->
    let keep := List.filter (fun u => fleb (progress d sr x u t) f1) us in
    sampler_voices P s (map vo us) lr = Ok (map vo keep, mixed d sr x P t keep lr).
  Proof.
    intros Hc Hda Hl Hus. revert lr. induction Hus as [|u us [Hut Hp] Hus IH]; intros lr Hlr; [done|].
    cbn [map sampler_voices List.filter]. rewrite Hc.
    assert (Epos : fdiv (f_of_Z (Z.of_nat t - (vo u).1)) (vo u).2 = progress d sr x u t).
    { unfold vo, progress. cbn [fst snd]. by replace (Z.of_nat t - Z.of_nat u)%Z with (Z.of_nat (t - u)) by lia. }
    cbv zeta. rewrite Epos. cbv zeta in IH.
    destruct (fleb (progress d sr x u t) f1) eqn:E.
    - rewrite Hda, Hl, sd_play_tap; [|done|done|by apply progress_rng|done]. cbn [mbind res_bind from_option].
      unfold Datatypes.id. rewrite IH.
      + cbn [mbind res_bind fst snd map]. done.
      + intros Hc1. unfold plus2, tap. rewrite Hc1. cbn [fst snd Z.eqb Pos.eqb]. by rewrite (Hlr Hc1).
    - by apply IH.
  Qed.

  Definition ongoing (t : nat) : list nat := match t with 0 => [] | S t' => voices d sr x t' end.
  Lemma alive_S u t : u <= t -> alive d sr x u (S t) = alive d sr x u t && fleb (progress d sr x u (S t)) f1.
  Proof.
    intros Hut. unfold alive. replace (S t - u) with (S (t - u)) by lia. rewrite (seq_S (S (t - u))), forallb_app.
    replace (u + S (t - u)) with (S t) by lia. cbn [forallb]. by rewrite andb_true_r.
  Qed.
  Lemma voices_step t : voices d sr x t =
    List.filter (fun u => fleb (progress d sr x u t) f1) (ongoing t ++ if fgtb (pitch_at x t) f0 then [t] else []).
  Proof.
    unfold voices. rewrite seq_S, !List.filter_app. f_equal.
    - destruct t as [|t]; [done|]. cbn [ongoing Nat.add]. unfold voices.
      assert (forall l, (forall u, In u l -> u <= t) -> List.filter (fun u => sounding d sr x u (S t)) l =
        List.filter (fun u => fleb (progress d sr x u (S t)) f1) (List.filter (fun u => sounding d sr x u t) l)) as H.
      { induction l as [|u l IH]; intros Hl; [done|]. cbn [List.filter]. rewrite IH by (intros; apply Hl; by right).
        assert (Es : sounding d sr x u (S t) = sounding d sr x u t && fleb (progress d sr x u (S t)) f1).
        { unfold sounding. rewrite alive_S by (apply Hl; by left). by rewrite andb_assoc. }
        rewrite Es. destruct (sounding d sr x u t); [|done]. cbn [andb List.filter]. done. }
      apply H. intros u Hin. apply in_seq in Hin. lia.
    - cbn [Nat.add List.filter]. unfold sounding, alive. rewrite Nat.sub_diag. cbn [seq forallb]. rewrite andb_true_r.
      destruct (fgtb (pitch_at x t) f0); [|done]. cbn [andb List.filter]. done.
  Qed.
  Lemma ongoing_ok t : Forall (fun u => u <= t /\ fgtb (pitch_at x u) f0 = true) (ongoing t ++ if fgtb (pitch_at x t) f0 then [t] else []).
  Proof.
    apply Forall_app. split.
    - destruct t as [|t]; [constructor|]. apply Forall_forall. intros u Hin%elem_of_list_In. cbn [ongoing] in Hin.
      apply List.filter_In in Hin as [Hin Hs]. apply in_seq in Hin. split; [lia|]. unfold sounding in Hs. by apply andb_true_iff in Hs as [? _].
    - destruct (fgtb (pitch_at x t) f0) eqn:E; [|constructor]. by repeat constructor.
  Qed.

  Definition samp_at (o : list nat) (t : nat) : sampler := Sampler (map vo (ongoing t)) d (frames d) (Z.of_nat t) sr o.
  Lemma sampler_run o : scanR (sampler_step P) (samp_at o 0) x = Ok (samp_at o (length x), map (played d sr x P) (seq 0 (length x))).
  Proof.
    apply (scanR_index (sampler_step P) (samp_at o) (played d sr x P) x 0). cbn [Nat.add]. intros t v Hv.
    unfold sampler_step. cbn [samp_at sa_play sa_clock sa_len sa_data sa_sr sa_ord].
    assert (Hp : pitch_at x t = v) by (unfold pitch_at; by rewrite Hv).
    assert (E : (if fgtb v f0 then map vo (ongoing t) ++ [(Z.of_nat t, fdiv (fdiv (f_of_Z (frames d)) v) (fdiv (f_of_Z (sd_rate d)) (f_of_Z sr)))]
                 else map vo (ongoing t)) = map vo (ongoing t ++ if fgtb (pitch_at x t) f0 then [t] else [])).
    { rewrite Hp. destruct (fgtb v f0); [|by rewrite app_nil_r]. rewrite map_app. cbn [map]. unfold vo at 3, dur. by rewrite Hp. }
    rewrite E. rewrite (sampler_voices_spec (samp_at o t) t _ (f0, f0)); [|done..|apply ongoing_ok|done].
    cbn [mbind res_bind fst snd]. rewrite <- voices_step. unfold mret, res_ret, samp_at, played. cbn [ongoing]. do 4 f_equal. lia.
  Qed.
End run.

Lemma sampler_created (P : platform) ev name d ms o nd out : announced ms o -> e_samples ev !! name = Some d ->
  created P ev (CSp name) ms nd out -> nd = Simple (NSampler (Sampler [] d (frames d) 0 (e_sr ev) o)) /\ out = [silent P; silent P].
Proof.
  intros Hms Hname (n0 & refs & Hm & Hf).
  assert (n0 = Simple (NSampler (Sampler [] d (frames d) 0 (e_sr ev) [])) /\ out = [silent P; silent P]) as [-> ->].
  { cbv beta delta [makenode_ boxed_res] iota zeta in Hm. rewrite Hname in Hm. unfold sampler_new in Hm.
    destruct (sd_chan d =? 0)%Z; [done|]. destruct (usub _ _ _) as [e|]; [|done]. cbn [mbind res_bind mret res_ret] in Hm. unfold boxed in Hm.
    change (sd_len d / sd_chan d)%Z with (frames d) in Hm. split; [congruence|].
    transitivity (chans_of P 2); [congruence|done]. }
  split; [|done]. clear Hm.
  rewrite (announced_ord P (fun o => Simple (NSampler (Sampler [] d (frames d) 0 (e_sr ev) o))) ms o) in Hf.
  - congruence.
  - intros o1 m Hm. cbn [gmsg smsg]. unfold sampler_msg. destruct m as [| | | |pos i|]; try done; by destruct (ord_msg _ _).
  - done.
Qed.

(** C37.  Every positive trigger starts a voice; a voice ends the first time its progress exceeds 1;
    each output sample is the sum over the sounding voices of the sample data at their progress; and
    the only voices stored after the block are the ones still sounding. *)
Theorem C37_sampler (P : platform) ev name d ms o nd out src (bs : list sig) :
  announced ms o -> e_samples ev !! name = Some d -> created P ev (CSp name) ms nd out ->
  playable d -> (16777216 <= umax (p_cfg P))%Z -> (0 <= sd_rate d)%Z -> (0 <= e_sr ev)%Z ->
  let x := List.concat bs in Forall (fun v => vf v = true) x ->
  exists s' outs, play P nd out (map (mono_in src) bs) = Ok (Simple (NSampler s'), outs) /\
    length (lane 0 outs) = length x /\ length (lane 1 outs) = length x /\
    (forall t, t < length x -> lane 0 outs !! t = Some (played d (e_sr ev) x P t).1 /\
                               lane 1 outs !! t = Some (played d (e_sr ev) x P t).2) /\
    length (sa_play s') = match length x with 0 => 0 | S t => length (voices d (e_sr ev) x t) end.
Proof.
  intros Hms Hname Hc Hd Hu Hr Hsr x Hx.
  destruct (sampler_created P ev name d ms o nd out Hms Hname Hc) as [-> ->].
  pose proof (sampler_run P d (e_sr ev) x Hd Hu Hr Hsr Hx o) as Hrun.
  pose proof (play_scan P (fun s => Simple (NSampler s)) (sampler_step P) (fun _ => True) [(0, fst); (1, snd)] 2
    (map (fun b => (mono_in src b, b)) bs) (samp_at d (e_sr ev) x o 0) [silent P; silent P]) as Hplay.
  rewrite !map_map in Hplay. cbn [fst snd] in Hplay. rewrite map_id in Hplay. fold x in Hplay. rewrite Hrun in Hplay.
  destruct Hplay as (outs & Hp & _ & _ & Hl).
  - done.
  - done.
  - apply Forall_forall. intros b (b0 & -> & _)%elem_of_list_fmap s o1 _ (y & z & ->)%length2. cbn [fst snd].
    cbn [gproc sproc]. unfold sampler_proc, mono_in. unfold chan. cbn [snd lookup list_lookup unwrap mbind res_bind].
    destruct (scanR (sampler_step P) s b0) as [[s1 lrs]|]; [|done].
    exists [lrs.*1; lrs.*2]. split; [reflexivity|]. split; [done|].
    intros ch g Hch. rewrite !elem_of_cons in Hch. by destruct Hch as [[= -> ->]|[[= -> ->]|[]%elem_of_nil]].
  - done.
  - exists (samp_at d (e_sr ev) x o (length x)), outs. split; [exact Hp|].
    rewrite (Hl 0 fst ltac:(rewrite !elem_of_cons; auto)), (Hl 1 snd ltac:(rewrite !elem_of_cons; auto)).
    rewrite ?fmap_length, ?map_length, !seq_length. split; [done|]. split; [done|]. split.
    + intros t Ht. rewrite !list_lookup_fmap, !lookup_seq_lt by done. done.
    + cbn [samp_at sa_play]. rewrite map_length. by destruct (length x).
Qed.

(** A voice of at most [K] samples has ended when [2 K] samples have passed (the quotients are
    rounded, so [K] would not do). *)
Theorem C37_voice_ends d sr x u t K : u < t -> (0 < K <= 8388608)%Z -> (2 * K <= Z.of_nat (t - u) <= 2 ^ 64)%Z ->
  in_range f0 (f_of_Z K) (dur d sr (pitch_at x u)) -> fltb f0 (dur d sr (pitch_at x u)) = true ->
  alive d sr x u t = false.
Proof.
  intros Hut HK Ht HD Hpos. apply in_range_rng in HD; [|apply fin_f0|apply fin_Z; lia]. rewrite val_f0, val_Z in HD by lia.
  destruct HD as [FD VD]. apply fltb_ok in Hpos; [|done|done]. rewrite val_f0 in Hpos.
  unfold alive. rewrite seq_S, forallb_app. cbn [forallb]. rewrite andb_true_r. apply andb_false_intro2.
  replace (u + (t - u)) with t by lia. unfold progress.
  destruct (count_fin (Z.of_nat (t - u)) ltac:(lia)) as (Fn & Vn & Pn).
  assert (Hn : (IZR (2 * K) <= rnd (IZR (Z.of_nat (t - u))))%R).
  { rewrite <- (rnd_Z (2 * K)) by lia. apply rnd_le, IZR_le. lia. }
  rewrite mult_IZR in Hn. assert (1 <= IZR K)%R by (apply IZR_le; lia).
  destruct (fdiv_pos (f_of_Z (Z.of_nat (t - u))) (dur d sr (pitch_at x u)) Fn FD ltac:(lra) Hpos) as [[F V]| ->]; [|done].
  destruct (fleb (fdiv _ _) f1) eqn:E; [|done]. exfalso. apply fleb_ok in E; [|done|done]. rewrite V, val_f1, Vn in E.
  assert (2 <= rnd (rnd (IZR (Z.of_nat (t - u))) / fval (dur d sr (pitch_at x u))))%R; [|lra].
  rewrite <- (rnd_Z 2) by lia. apply rnd_le. apply Rmult_le_reg_r with (fval (dur d sr (pitch_at x u))); [lra|].
  unfold Rdiv. rewrite Rmult_assoc, Rinv_l by lra. lra.
Qed.

(** Nothing is heard without a trigger: no sounding voice, no sound. *)
Corollary C37_silent_without_voices d sr x (P : platform) t :
  (forall u, u <= t -> fgtb (pitch_at x u) f0 = true -> alive d sr x u t = false) -> played d sr x P t = (f0, f0).
Proof.
  intros H. unfold played, voices. assert (List.filter (fun u => sounding d sr x u t) (seq 0 (S t)) = []) as ->; [|done].
  assert (forall l, (forall u, In u l -> u <= t) -> List.filter (fun u => sounding d sr x u t) l = []) as Hl.
  { induction l as [|u l IH]; intros Hl; [done|]. cbn [List.filter]. rewrite IH by (intros; apply Hl; by right).
    unfold sounding. destruct (fgtb (pitch_at x u) f0) eqn:E; [|done]. by rewrite H by (try done; apply Hl; by left). }
  apply Hl. intros u Hu%in_seq. lia.
Qed.
(** The voices held are bounded by the longest time one can last, however long the program runs. *)
Corollary C37_voices_bounded d sr x t B :
  (forall u, u + B <= t -> sounding d sr x u t = false) -> length (voices d sr x t) <= B.
Proof.
  intros H. unfold voices. replace (S t) with ((S t - B) + (S t - (S t - B))) by lia. rewrite seq_app, List.filter_app, app_length.
  assert (List.filter (fun u => sounding d sr x u t) (seq 0 (S t - B)) = []) as ->.
  { assert (forall l, (forall u, In u l -> u + B <= t) -> List.filter (fun u => sounding d sr x u t) l = []) as Hl.
    { induction l as [|u l IH]; intros Hl; [done|]. cbn [List.filter]. rewrite IH by (intros; apply Hl; by right).
      by rewrite H by (apply Hl; by left). }
    apply Hl. intros u Hu%in_seq. lia. }
  cbn [length Nat.add]. assert (Hf : forall f (l : list nat), length (List.filter f l) <= length l).
  { intros f. induction l as [|u l IH]; [done|]. cbn [List.filter]. destruct (f u); cbn [length]; lia. }
  specialize (Hf (fun u => sounding d sr x u t) (seq (S t - B) (S t - (S t - B)))). rewrite seq_length in Hf. lia.
Qed.

(** Hence, when every trigger gives a voice of at most [K] samples: at most [2 K] voices are held, and
    after [2 K] samples without a trigger there is silence. *)
Theorem C37_sampler_partial d sr x (P : platform) K t :
  (0 < K <= 8388608)%Z -> (Z.of_nat t <= 2 ^ 64)%Z ->
  (forall u, fgtb (pitch_at x u) f0 = true ->
     in_range f0 (f_of_Z K) (dur d sr (pitch_at x u)) /\ fltb f0 (dur d sr (pitch_at x u)) = true) ->
  length (voices d sr x t) <= Z.to_nat (2 * K) /\
  ((forall u, u <= t -> t < u + Z.to_nat (2 * K) -> fgtb (pitch_at x u) f0 = false) -> played d sr x P t = (f0, f0)).
Proof.
  intros HK Ht Hd. assert (Hend : forall u, u + Z.to_nat (2 * K) <= t -> fgtb (pitch_at x u) f0 = true -> alive d sr x u t = false).
  { intros u Hu Hp. destruct (Hd u Hp) as [H1 H2]. apply (C37_voice_ends d sr x u t K); [lia|done|lia|done|done]. }
  split.
  - apply C37_voices_bounded. intros u Hu. unfold sounding. destruct (fgtb (pitch_at x u) f0) eqn:E; [|done]. by rewrite Hend.
  - intros Hq. apply C37_silent_without_voices. intros u Hu Hp.
    destruct (decide (u + Z.to_nat (2 * K) <= t)) as [H|H]; [by apply Hend|]. rewrite Hq in Hp by lia. done.
Qed.

(** What is missing: a positive trigger so small that the duration overflows starts a voice that
    never ends, and never moves from the first sample either. *)
Definition four : sampledata := Sample (fs [0; 1; 2; 3]%Z) 1 8.
Definition speck : f32 := S754_finite false 1 (-149).
Theorem C37_voices_end_refuted : exists d sr p, playable d /\ fgtb p f0 = true /\
  forall x u t, pitch_at x u = p -> u <= t -> (Z.of_nat t <= 2 ^ 64)%Z -> sounding d sr x u t = true.
Proof.
  exists four, 8%Z, speck. split; [split; [done|]; left; done|]. split; [done|]. intros x u t Hp Hut Ht.
  unfold sounding. rewrite Hp. change (fgtb speck f0) with true. cbn [andb]. unfold alive. apply forallb_forall.
  intros s Hs%in_seq. unfold progress. rewrite Hp. change (dur four 8 speck) with (S754_infinity false).
  destruct (count_fin (Z.of_nat (s - u)) ltac:(lia)) as (Fn & _). destruct Fn as [_ Fn].
  destruct (f_of_Z (Z.of_nat (s - u))) as [[]|[]| |[]]; done.
Qed.

(** ** C66: the data are not reproduced *)
Definition unchanged (d : sampledata) (sr : Z) (P : platform) : Prop :=
  forall t v, sd_data d !! t = Some v -> feqb (played d sr [f1] P t).1 v = true.
Theorem C66_unity_pitch_refuted : exists d sr, playable d /\ sd_chan d = 1%Z /\ sd_rate d = sr /\ ~ unchanged d sr demo.
Proof.
  exists four, 8%Z. split; [split; [done|]; left; done|]. split; [done|]. split; [done|].
  intros H. specialize (H 1 f1 eq_refl). revert H. vm_compute. done.
Qed.
(** Linear interpolation would weigh the sample on the right with the fractional part. *)
Definition linear (d : sampledata) (P : platform) (y : f32) : f32 :=
  let part := fsub y (ffloor y) in
  fadd (fmul (datum d (as_usize (p_cfg P) (ffloor y))) (fsub f1 part))
       (fmul (datum d (as_usize (p_cfg P) (fceil y))) part).
(** A ramp from 0 to 3 read at growing indices gives falling values: at index 1 the value is 1, at
    index 1.25 it is 1.75, and at 1.75 it is 1.25. *)
Theorem C66_interpolation_refuted : exists d y z, playable d /\ Forall (in_range f0 (f_of_Z 3)) (sd_data d) /\
  (forall i j, (0 <= i <= j)%Z -> (j < 4)%Z -> fleb (datum d i) (datum d j) = true) /\
  fltb y z = true /\ fltb (between_data d demo z 0) (between_data d demo y 0) = true /\
  feqb (linear d demo y) y = true /\ feqb (linear d demo z) z = true.
Proof.
  exists four, (f_of_dec false 125 (-2)), (f_of_dec false 175 (-2)). split; [split; [done|]; left; done|].
  split; [repeat constructor; by vm_compute|]. split.
  { intros i j Hij Hj. assert (i = 0 \/ i = 1 \/ i = 2 \/ i = 3)%Z as Hi by lia. assert (j = 0 \/ j = 1 \/ j = 2 \/ j = 3)%Z as Hj' by lia.
    destruct Hi as [->|[->|[->| ->]]], Hj' as [->|[->|[->| ->]]]; try lia; done. }
  repeat split; by vm_compute.
Qed.
(** What does hold: a voice starts on the first sample of the data, in both channels, and a voice
    whose progress reaches exactly 1 ends on the last one. *)
Theorem C66_ends_partial d (P : platform) : playable d ->
  tap d P f0 = (datum d 0, if (sd_chan d =? 1)%Z then datum d 0 else datum d (frames d)) /\
  tap d P f1 = (datum d (frames d - 1), datum d (Z.of_nat (length (sd_data d)) - 1)).
Proof.
  intros [_ [[Hc Hf]|[Hc Hf]]]; unfold tap; rewrite Hc; cbn [Z.eqb Pos.eqb].
  - change (feqb f0 f0) with true. change (feqb f1 f0) with false. change (feqb f1 f1) with true. cbv iota zeta.
    unfold frames. rewrite Hc, Z.div_1_r. done.
  - change (feqb f0 f0) with true. change (feqb f1 f0) with false. change (feqb f1 f1) with true. done.
Qed.
(** In stereo, the right channel is read one sample further on than the left one between the ends. *)
Theorem C66_stereo_refuted : exists d pos, playable d /\ sd_chan d = 2%Z /\
  (forall i, (0 <= i < frames d)%Z -> feqb (datum d i) (datum d (frames d + i)) = true) /\
  in_range f0 f1 pos /\ feqb (tap d demo pos).1 (tap d demo pos).2 = false.
Proof.
  exists (Sample (fs [0; 1; 2; 3; 0; 1; 2; 3]%Z) 2 8), fhalf. split; [split; [done|]; right; done|]. split; [done|]. split.
  { change (frames _) with 4%Z. intros i Hi. assert (i = 0 \/ i = 1 \/ i = 2 \/ i = 3)%Z as [->|[->|[->| ->]]] by lia; done. }
  split; by vm_compute.
Qed.

Definition env_s : env sampledata := {| e_samples := {[ "kick"%string := four ]}; e_sr := 8; e_bpm := f_of_Z 240; e_seed := 42 |}.
Example ex_sampler : announced [ResetOrder; IndexOrder 0 4] [4] /\ e_samples env_s !! "kick"%string = Some four /\ playable four /\
  in_range f0 (f_of_Z 4) (dur four 8 f1) /\
  exists nd out, created demo env_s (CSp "kick"%string) [ResetOrder; IndexOrder 0 4] nd out /\
  lanes_of (play demo nd out (map (mono_in 4) [fs [0; 1; 0; 0; 0; 0; 0; 0]%Z])) =
    Some (let l := fs [0; 0]%Z ++ [f_of_dec false 25 (-2); f_of_dec false 15 (-1); f_of_dec false 275 (-2)] ++ fs [3; 0; 0]%Z in (l, l)).
Proof.
  split; [split; [by repeat constructor|done]|]. split; [done|]. split; [split; [done|]; left; done|]. split; [by vm_compute|].
  apply demo_created. vm_compute. reflexivity.
Qed.

(** * Props_Range: oscillators, pan, envelopes and filters stay in range (C25, C31, C32, C36, C40, C45, C63). *)
From Verif Require Export Props_Seq Range.
From Verif Require Import FloatR.
From Coq Require Import Reals Lra Lia.
Local Open Scope nat_scope.

(** ** Constants *)

Lemma fin_f2 : fin f2. Proof. by split. Qed.
Lemma val_f2 : fval f2 = 2%R. Proof. exact (val_Z 2 ltac:(done)). Qed.
Lemma fin_fm1 : fin fm1. Proof. by split. Qed.
Lemma val_fm1 : fval fm1 = (-1)%R. Proof. exact (val_Z (-1) ltac:(done)). Qed.
Lemma fin_half : fin fhalf. Proof. by split. Qed.
Lemma val_half : fval fhalf = (1 / 2)%R.
Proof.
  assert (fhalf = S754_finite false 8388608 (-24)) as -> by (vm_compute; reflexivity). rewrite fval_fin. simpl. lra.
Qed.
Lemma fabs_ok x : fin x -> fin (fabs x) /\ fval (fabs x) = Rabs (fval x).
Proof.
  intros [Hv Hf]. destruct x as [s|s| |s m e]; try done.
  - split; [done|]. change (0 = Rabs 0)%R. by rewrite Rabs_R0.
  - split; [done|]. change (fabs (S754_finite s m e)) with (S754_finite false m e). rewrite !fval_fin.
    rewrite Rabs_mult, (Rabs_pos_eq _ (Raux.bpow_ge_0 _ _)). f_equal. rewrite <- abs_IZR. by destruct s.
Qed.
Lemma fmt_half : fmt (1 / 2)%R.
Proof. rewrite <- val_half. apply fin_fmt, fin_half. Qed.
Lemma fmt_mhalf : fmt (- (1 / 2))%R.
Proof. apply Generic_fmt.generic_format_opp, fmt_half. Qed.
Lemma big_half r : (-1 <= r <= 1)%R -> (Rabs r < big)%R.
Proof. apply abs_big; bnd. Qed.

(** ** Oscillators *)

Lemma step_rng sr f : (0 < sr <= 16777216)%Z -> fin f -> (0 <= fval f <= IZR sr)%R -> rng 0 1 (fdiv f (f_of_Z sr)).
Proof.
  intros Hsr Hf Hv. assert (0 < IZR sr)%R by (apply IZR_lt; lia).
  assert (Z.abs sr <= 16777216)%Z as Habs by lia.
  apply fdiv_rng; [bnd..|done|by apply fin_Z|rewrite val_Z by done; lra|]. rewrite val_Z by done. split.
  - apply Rmult_le_reg_r with (IZR sr); [done|]. replace (fval f / IZR sr * IZR sr)%R with (fval f) by (field; lra). lra.
  - apply Rmult_le_reg_r with (IZR sr); [done|]. replace (fval f / IZR sr * IZR sr)%R with (fval f) by (field; lra). lra.
Qed.
Lemma advance_rng sr p f : (0 < sr <= 16777216)%Z -> rng 0 1 p -> fin f -> (0 <= fval f <= IZR sr)%R ->
  rng 0 1 (advance sr p f).
Proof.
  intros Hsr [Fp Vp] Hf Hv. destruct (step_rng sr f Hsr Hf Hv) as [Fd Vd]. unfold advance.
  assert (rng 0 2 (fadd p (fdiv f (f_of_Z sr)))) as [Fs Vs] by (apply fadd_rng; [bnd..|done|done|lra]).
  unfold fgtb. change (SFltb f1 ?x) with (fltb f1 x). destruct (fltb f1 _) eqn:E.
  - apply fltb_ok in E; [|done|done]. rewrite val_f1 in E. apply fsub_rng; [bnd..|done|done|]. rewrite val_f1. lra.
  - apply fltb_false in E; [|done|done]. rewrite val_f1 in E. split; [done|lra].
Qed.
Lemma wave_rng P w p : w ≠ WSin -> rng 0 1 p -> rng (-1) 1 (wave_val P w p).
Proof.
  intros Hw [Fp Vp]. assert (rng 0 2 (fmul p f2)) as [F2 V2].
  { apply fmul_rng; [bnd..|done|apply fin_f2|]. rewrite val_f2. lra. }
  destruct w; [done| | |].
  - apply fsub_rng; [bnd..|done|done|]. rewrite val_f1. lra.
  - cbn [wave_val]. destruct (fleb p fhalf).
    + split; [done|]. rewrite val_f1. lra.
    + split; [apply fin_fm1|]. rewrite val_fm1. lra.
  - cbn [wave_val]. assert (rng (-1) 1 (fadd fm1 (fmul p f2))) as [Fv Vv].
    { apply fadd_rng; [bnd..|apply fin_fm1|done|]. rewrite val_fm1. lra. }
    destruct (fabs_ok _ Fv) as [Fa Va].
    assert (0 <= fval (fabs (fadd fm1 (fmul p f2))) <= 1)%R as Ha.
    { rewrite Va. split; [apply Rabs_pos|]. apply Rabs_le. lra. }
    assert (rng (- (1 / 2)) (1 / 2) (fsub (fabs (fadd fm1 (fmul p f2))) fhalf)) as [Fs Vs].
    { apply fsub_rng; [apply fmt_mhalf|apply fmt_half|apply big_half; lra|apply big_half; lra|done|apply fin_half|].
      rewrite val_half. lra. }
    apply fmul_rng; [bnd..|apply fin_f2|done|]. rewrite val_f2. lra.
Qed.

(** The four oscillators and the shapes documented for them, as functions of the phase. *)
Definition osc_comp (w : wave) (p : numref) : component :=
  match w with WSin => CSin p | WSaw => CSaw p | WSqu => CSqu p | WTri => CTri p end.
Definition shape (P : platform) (w : wave) (p : f32) : f32 :=
  match w with
  | WSin => p_sin P (fmul (fmul p f2) fpi)
  | WSaw => fsub (fmul p f2) f1
  | WSqu => if fleb p fhalf then f1 else fm1
  | WTri => fmul f2 (fsub (fabs (fadd fm1 (fmul p f2))) fhalf)
  end.
Lemma osc_created (P : platform) ev w p ms o nd out : announced ms o -> created P ev (osc_comp w p) ms nd out ->
  nd = Simple (NOsc w (Osc (num_or f0 p) f0 (e_sr ev) f0 o)) /\ out = [silent P].
Proof.
  intros Hms (n0 & refs & Hm & Hf).
  assert (n0 = Simple (NOsc w (osc_new (num_or f0 p) (e_sr ev))) /\ out = [silent P]) as [-> ->].
  { destruct w; cbv beta delta [makenode_ osc_comp boxed chans_of] iota zeta in Hm; split; try congruence;
      (transitivity (chans_of P 1); [unfold chans_of; congruence|done]). }
  split; [|done]. clear Hm. unfold osc_new in Hf.
  rewrite (announced_ord P (fun o => Simple (NOsc w (Osc (num_or f0 p) f0 (e_sr ev) f0 o))) ms o) in Hf.
  - congruence.
  - intros o1 m Hm. cbn [gmsg smsg]. unfold osc_msg. destruct m as [| | | |pos i|]; try done; by destruct (ord_msg _ _).
  - done.
Qed.

(** C31.  For every frequency between 0 and the sample rate, however many blocks are played
    and whatever rounding does: each sample is the wave shape at a phase between 0 and 1, and
    saw, squ and tri stay within [-1, 1]. *)
Theorem C31_osc_bounded (P : platform) ev w v ms o nd out k :
  announced ms o -> created P ev (osc_comp w (Num v)) ms nd out ->
  (0 < e_sr ev <= 16777216)%Z -> in_range f0 (f_of_Z (e_sr ev)) v ->
  exists nd' outs, play P nd out (replicate k []) = Ok (nd', outs) /\ length (lane 0 outs) = k * p_blk P /\
    Forall (fun y => (exists p, in_range f0 f1 p /\ y = shape P w p) /\ (w ≠ WSin -> in_range fm1 f1 y)) (lane 0 outs).
Proof.
  intros Hms Hc Hsr Hv. destruct (osc_created P ev w (Num v) ms o nd out Hms Hc) as [-> ->]. cbn [num_or].
  assert (Hsf : fin (f_of_Z (e_sr ev))) by (apply fin_Z; lia).
  apply in_range_rng in Hv as [Fv Vv]; [|done|done]. rewrite val_f0, val_Z in Vv by lia.
  set (inv := fun s => rng 0 1 (os_phase s) /\ os_sr s = e_sr ev /\ os_freq s = v).
  set (f := fun s (_ : unit) => osc_step P w s (os_freq s)).
  assert (Hstep : forall s x, inv s -> inv (f s x).1).
  { intros s x (H1 & H2 & H3). cbn. rewrite H2, H3. split; [|done]. by apply advance_rng. }
  destruct (play_scan_inv P (fun s => Simple (NOsc w s)) f inv [(0, fun y => y)] 1
    (map (fun i => (i, replicate (p_blk P) tt)) (replicate k [])) (Osc v f0 (e_sr ev) f0 o) [silent P])
    as (outs & Hp & _ & _ & Hl).
  - done.
  - split; [|done]. split; [done|]. cbn [os_phase]. rewrite val_f0. lra.
  - intros b s o1 (i & -> & [-> _]%elem_of_replicate)%elem_of_list_fmap Hs (x & ->)%length1. cbn [fst snd gproc sproc].
    unfold osc_proc. fold f. destruct (scan f s (replicate (p_blk P) tt)) as [s' ys].
    exists [ys]. split; [by destruct w|]. split; [done|].
    intros ch g [[= -> ->]|[]%elem_of_nil]%elem_of_cons. by rewrite list_fmap_id.
  - done.
  - rewrite !map_map in Hp, Hl. cbn [fst snd] in Hp, Hl. rewrite map_id in Hp. do 2 eexists. split; [exact Hp|].
    rewrite (Hl 0 (fun y => y)) by set_solver. rewrite list_fmap_id, concat_const, replicate_length, concat_replicate.
    rewrite scan_length, replicate_length. split; [done|].
    generalize (k * p_blk P). intros n.
    assert (Hs0 : inv (Osc v f0 (e_sr ev) f0 o)).
    { split; [|done]. split; [done|]. cbn [os_phase]. rewrite val_f0. lra. }
    revert Hs0. generalize (Osc v f0 (e_sr ev) f0 o). induction n as [|n IH]; intros s Hs; [constructor|].
    cbn [replicate]. rewrite scan_cons. cbn [snd]. constructor; [|apply IH; by apply Hstep].
    destruct Hs as (H1 & _ & _). unfold f, osc_step. cbn [snd]. split.
    + exists (os_phase s). split; [apply in_range_rng; [done..|]; rewrite val_f0, val_f1; done|]. by destruct w.
    + intros Hw. apply in_range_rng; [apply fin_fm1|done|]. rewrite val_fm1, val_f1. by apply wave_rng.
Qed.

(** C31 when the frequency is a signal between 0 and the sample rate. *)
Theorem C31_osc_modulated (P : platform) ev w r ms o nd out src (bs : list sig) :
  announced ms o -> o = [] \/ (exists o', o = src :: o') -> created P ev (osc_comp w (NRef r)) ms nd out ->
  (0 < e_sr ev <= 16777216)%Z -> Forall (in_range f0 (f_of_Z (e_sr ev))) (List.concat bs) ->
  exists nd' outs, play P nd out (map (mono_in src) bs) = Ok (nd', outs) /\
    length (lane 0 outs) = length (List.concat bs) /\
    Forall (fun y => (exists p, in_range f0 f1 p /\ y = shape P w p) /\ (w ≠ WSin -> in_range fm1 f1 y)) (lane 0 outs).
Proof.
  intros Hms Ho Hc Hsr Hm. destruct (osc_created P ev w (NRef r) ms o nd out Hms Hc) as [-> ->]. cbn [num_or].
  assert (Hsf : fin (f_of_Z (e_sr ev))) by (apply fin_Z; lia).
  set (s0 := Osc f0 f0 (e_sr ev) f0 o).
  destruct (play_mono P (fun s => Simple (NOsc w s)) (osc_mod_step P w) (fun s => os_ord s = o) 1 src bs s0 [silent P])
    as (outs & Hp & Hl).
  - intros s x Hs. by destruct w.
  - done.
  - intros b s o1 Hs (x & ->)%length1. cbn [gproc sproc]. unfold mono_in, osc_proc. rewrite Hs.
    assert (Hi : match o with [] => Ok [b] | _ :: _ => in_ord [(src, [b])] o 0 end = Ok [b]).
    { destruct Ho as [-> | (o' & ->)]; [done|]. unfold in_ord. cbn. unfold in_id. simpl. by rewrite Nat.eqb_refl. }
    cbn [snd]. rewrite Hi. cbn [mbind res_bind]. unfold chan. cbn [lookup list_lookup unwrap mbind res_bind].
    destruct (scan (osc_mod_step P w) s b) as [s' ys]. exists [ys]. split; [by destruct w|]. by split.
  - done.
  - do 2 eexists. split; [exact Hp|]. rewrite Hl. rewrite scan_length. split; [done|].
    set (inv := fun s => rng 0 1 (os_phase s) /\ os_sr s = e_sr ev /\ in_range f0 (f_of_Z (e_sr ev)) (os_inc s)).
    assert (Hs0 : inv s0).
    { split; [split; [done|]; cbn [os_phase s0]; rewrite val_f0; lra|]. split; [done|].
      apply in_range_rng; [done|done|]. split; [done|]. cbn [os_inc s0]. rewrite val_f0, val_Z by lia.
      split; [lra|]. apply IZR_le. lia. }
    clear Hp Hl. revert Hs0. generalize s0. induction Hm as [|m xs Hm Hxs IH]; intros s Hs; [constructor|].
    rewrite scan_cons. cbn [snd].
    assert (Hstep : inv (osc_mod_step P w s m).1 /\ (osc_mod_step P w s m).2 = shape P w (os_phase s)).
    { destruct Hs as (H1 & H2 & H3).
      assert (Hfr : in_range f0 (f_of_Z (e_sr ev)) (if feqb m f0 then os_inc s else m)) by (by destruct (feqb m f0)).
      assert (Hadv : forall q, in_range f0 (f_of_Z (e_sr ev)) q -> rng 0 1 (advance (os_sr s) (os_phase s) q)).
      { intros q [Fq Vq]%in_range_rng; [|done|done]. rewrite val_f0, val_Z in Vq by lia. rewrite H2. by apply advance_rng. }
      destruct w; unfold osc_mod_step, osc_step, osc_set_phase; cbn [fst snd os_phase os_sr os_inc];
        (split; [|done]); (split; [by apply Hadv|]; by split). }
    destruct Hstep as [Hinv Hval]. constructor; [|by apply IH]. rewrite Hval. destruct Hs as (H1 & _ & _).
    split.
    + exists (os_phase s). split; [apply in_range_rng; [done..|]; rewrite val_f0, val_f1; done|done].
    + intros Hw. apply in_range_rng; [apply fin_fm1|done|]. rewrite val_fm1, val_f1.
      replace (shape P w (os_phase s)) with (wave_val P w (os_phase s)) by (by destruct w). by apply wave_rng.
Qed.

(** ** The phase *)

(** What one sample of frequency [f] does to the phase; the phase after [t] samples. *)
Definition moved (sr : Z) (p f : f32) : f32 :=
  let q := fadd p (fdiv f (f_of_Z sr)) in if fltb f1 q then fsub q f1 else q.
Fixpoint phase_at (sr : Z) (fr : nat -> f32) (t : nat) : f32 :=
  match t with 0 => f0 | S t' => moved sr (phase_at sr fr t') (fr t') end.
(** The frequency a modulated oscillator uses: [sin] each sample as it comes, the others the last
    one that was not 0. *)
Fixpoint last_nonzero (x : sig) (t : nat) : f32 :=
  let v := default f0 (x !! t) in
  if feqb v f0 then match t with 0 => f0 | S t' => last_nonzero x t' end else v.
Definition freq_at (w : wave) (x : sig) (t : nat) : f32 :=
  match w with WSin => default f0 (x !! t) | _ => last_nonzero x t end.

(** C64.  Without modulation, for every frequency whatever: sample [t] is the shape at the phase
    accumulated over [t] samples, across all block boundaries. *)
Theorem C64_osc_phase (P : platform) ev w v ms o nd out k :
  announced ms o -> created P ev (osc_comp w (Num v)) ms nd out ->
  exists nd' outs, play P nd out (replicate k []) = Ok (nd', outs) /\ length (lane 0 outs) = k * p_blk P /\
    forall t, t < k * p_blk P -> lane 0 outs !! t = Some (shape P w (phase_at (e_sr ev) (fun _ => v) t)).
Proof.
  intros Hms Hc. destruct (osc_created P ev w (Num v) ms o nd out Hms Hc) as [-> ->]. cbn [num_or].
  set (f := fun s (_ : unit) => osc_step P w s (os_freq s)).
  set (s0 := Osc v f0 (e_sr ev) f0 o).
  destruct (play_scan_inv P (fun s => Simple (NOsc w s)) f (fun _ => True) [(0, fun y => y)] 1
    (map (fun i => (i, replicate (p_blk P) tt)) (replicate k [])) s0 [silent P])
    as (outs & Hp & _ & _ & Hl).
  - done.
  - done.
  - intros b s o1 (i & -> & [-> _]%elem_of_replicate)%elem_of_list_fmap Hs (x & ->)%length1. cbn [fst snd gproc sproc].
    unfold osc_proc. fold f. destruct (scan f s (replicate (p_blk P) tt)) as [s' ys].
    exists [ys]. split; [by destruct w|]. split; [done|].
    intros ch g [[= -> ->]|[]%elem_of_nil]%elem_of_cons. by rewrite list_fmap_id.
  - done.
  - rewrite !map_map in Hp, Hl. cbn [fst snd] in Hp, Hl. rewrite map_id in Hp. do 2 eexists. split; [exact Hp|].
    rewrite (Hl 0 (fun y => y)) by set_solver. rewrite list_fmap_id, concat_const, replicate_length, concat_replicate.
    rewrite scan_length, replicate_length. split; [done|]. intros t Ht.
    rewrite (scan_lookup f s0 _ t tt) by (by apply lookup_replicate_2). f_equal.
    assert (Hst : let s := state_at f s0 (replicate t tt) in
      os_freq s = v /\ os_sr s = e_sr ev /\ os_phase s = phase_at (e_sr ev) (fun _ => v) t).
    { clear. induction t as [|t IH]; [done|]. rewrite replicate_S_end. cbv zeta in *. 
      assert (E : forall xs x, state_at f s0 (xs ++ [x]) = (f (state_at f s0 xs) x).1).
      { intros xs x. generalize s0. induction xs as [|z xs IHx]; intros s; [done|]. simpl. apply IHx. }
      rewrite E. revert IH. generalize (state_at f s0 (replicate t tt)) as s. intros s (H1 & H2 & H3).
      unfold f, osc_step, osc_set_phase. cbn [fst os_freq os_sr os_phase phase_at]. rewrite H1, H2, H3. by unfold moved, advance. }
    rewrite take_replicate, Nat.min_l by lia. revert Hst. cbv zeta.
    generalize (state_at f s0 (replicate t tt)) as s. intros s (H1 & H2 & H3). unfold f, osc_step. cbn [snd]. rewrite H3.
    by destruct w.
Qed.
Theorem C64_osc_phase_modulated (P : platform) ev w r ms o nd out src (bs : list sig) :
  announced ms o -> o = [] \/ (exists o', o = src :: o') -> created P ev (osc_comp w (NRef r)) ms nd out ->
  exists nd' outs, play P nd out (map (mono_in src) bs) = Ok (nd', outs) /\
    length (lane 0 outs) = length (List.concat bs) /\
    forall t, t < length (List.concat bs) ->
      lane 0 outs !! t = Some (shape P w (phase_at (e_sr ev) (freq_at w (List.concat bs)) t)).
Proof.
  intros Hms Ho Hc. destruct (osc_created P ev w (NRef r) ms o nd out Hms Hc) as [-> ->]. cbn [num_or].
  set (s0 := Osc f0 f0 (e_sr ev) f0 o). set (f := osc_mod_step P w).
  destruct (play_mono P (fun s => Simple (NOsc w s)) f (fun s => os_ord s = o) 1 src bs s0 [silent P])
    as (outs & Hp & Hl).
  - intros s x Hs. by destruct w.
  - done.
  - intros b s o1 Hs (x & ->)%length1. cbn [gproc sproc]. unfold mono_in, osc_proc. rewrite Hs.
    assert (Hi : match o with [] => Ok [b] | _ :: _ => in_ord [(src, [b])] o 0 end = Ok [b]).
    { destruct Ho as [-> | (o' & ->)]; [done|]. unfold in_ord. cbn. unfold in_id. simpl. by rewrite Nat.eqb_refl. }
    cbn [snd]. rewrite Hi. cbn [mbind res_bind]. unfold chan. cbn [lookup list_lookup unwrap mbind res_bind].
    fold f. destruct (scan f s b) as [s' ys]. exists [ys]. split; [by destruct w|]. by split.
  - done.
  - do 2 eexists. split; [exact Hp|]. rewrite Hl. rewrite scan_length. split; [done|].
    set (x := List.concat bs). clear Hp Hl.
    assert (Hst : forall t, t <= length x -> let s := state_at f s0 (take t x) in
      os_sr s = e_sr ev /\ os_phase s = phase_at (e_sr ev) (freq_at w x) t /\
      (w ≠ WSin -> os_inc s = match t with 0 => f0 | S t' => last_nonzero x t' end)).
    { intros t. induction t as [|t IH]; intros Ht; cbv zeta; [by rewrite take_0|].
      destruct (lookup_lt_is_Some_2 x t ltac:(lia)) as [xt Hxt].
      assert (E : forall xs x, state_at f s0 (xs ++ [x]) = (f (state_at f s0 xs) x).1).
      { clear. intros xs x. generalize s0. induction xs as [|z xs IHx]; intros s; [done|]. simpl. apply IHx. }
      rewrite (take_S_r _ _ _ Hxt), E. specialize (IH ltac:(lia)). cbv zeta in IH.
      revert IH. generalize (state_at f s0 (take t x)) as s. intros s (H1 & H2 & H3).
      assert (Hn : w ≠ WSin -> (if feqb xt f0 then os_inc s else xt) = last_nonzero x t).
      { intros Hw. rewrite (H3 Hw). destruct t; cbn [last_nonzero]; rewrite Hxt; cbn [from_option]; unfold Datatypes.id; by destruct (feqb xt f0). }
      assert (Hx : default f0 (x !! t) = xt) by (by rewrite Hxt).
      destruct w; unfold f, osc_mod_step, osc_step, osc_set_phase; cbn [fst os_sr os_phase os_inc phase_at freq_at];
        rewrite H1, H2; rewrite ?Hx, ?(Hn ltac:(done)); (split; [done|]); (split; [by unfold moved, advance|]); done. }
    intros t Ht. destruct (lookup_lt_is_Some_2 x t Ht) as [xt Hxt]. rewrite (scan_lookup f s0 x t xt Hxt). f_equal.
    specialize (Hst t ltac:(lia)). cbv zeta in Hst. revert Hst. generalize (state_at f s0 (take t x)) as s. intros s (_ & H2 & _).
    rewrite <- H2. by destruct w.
Qed.

(** C32 is false: with a negative frequency, or one above the sample rate, a saw leaves
    [-1, 1] within a few samples. *)
Theorem C32_any_frequency_refuted : exists v1 v2 : f32, fltb v1 f0 = true /\ fltb (f_of_Z 44100) v2 = true /\
  forall v, v = v1 \/ v = v2 -> exists nd out nd' outs y,
    created demo demo_env (CSaw (Num v)) [] nd out /\ play demo nd out [[]; []] = Ok (nd', outs) /\
    y ∈ lane 0 outs /\ ~ in_range fm1 f1 y.
Proof.
  exists (f_of_Z (-11025)), (f_of_Z 110250). split; [by vm_compute|]. split; [by vm_compute|].
  intros v Hv.
  assert (H : exists nd out, created demo demo_env (CSaw (Num v)) [] nd out /\
    match lanes_of (play demo nd out [[]; []]) with
    | Some (l, _) => existsb (fun y => negb (fleb fm1 y && fleb y f1)) l | None => false end = true).
  { apply demo_created. destruct Hv as [-> | ->]; vm_compute; reflexivity. }
  destruct H as (nd & out & Hc & H). destruct (play demo nd out [[]; []]) as [[nd' outs]|] eqn:E; [|done].
  cbn [lanes_of] in H. apply existsb_exists in H as (y & Hy & Hb). exists nd, out, nd', outs, y.
  split; [done|]. split; [done|]. split; [by apply elem_of_list_In|]. intros (_ & H1 & H2). by rewrite H1, H2 in Hb.
Qed.

(** ** imp at every audible frequency *)

(** C25 in terms of the frequency: 0 < freq <= sr is enough for the period to be positive. *)
Theorem C25_imp_audible (P : platform) ev v ms nd out (inss : list inmap) :
  let period := as_usize (p_cfg P) (fdiv (f_of_Z (e_sr ev)) v) in
  Forall conn_msg ms -> created P ev (CImp (Num v)) ms nd out ->
  (1 <= umax (p_cfg P))%Z -> (0 < e_sr ev <= 16777216)%Z ->
  in_range f0 (f_of_Z (e_sr ev)) v -> fltb f0 v = true ->
  (0 < period)%Z /\
  exists nd' outs, play P nd out inss = Ok (nd', outs) /\
    length (lane 0 outs) = length inss * p_blk P /\
    forall t, t < length (lane 0 outs) ->
      lane 0 outs !! t = Some (if (Z.of_nat t mod period =? 0)%Z then f1 else f0).
Proof.
  intros period Hms Hc Hu Hsr Hv Hpos. assert (Hsf : fin (f_of_Z (e_sr ev))) by (apply fin_Z; lia).
  apply in_range_rng in Hv as [Fv Vv]; [|done|done].
  assert (0 < period)%Z as Hp.
  { apply fltb_ok in Hpos; [|done|done]. rewrite val_f0 in Hpos.
    pose proof (period_ge1 (p_cfg P) (f_of_Z (e_sr ev)) v Hu Hsf Fv ltac:(lra)). unfold period. lia. }
  split; [done|]. by apply (C25_imp_periodic P ev v ms nd out inss Hms Hc).
Qed.

(** ** pan *)

(** The documented gains of position [p]: sqrt((1-p)/2) and sqrt((1+p)/2), as computed. *)
Definition gain_right (p : f32) : f32 := fsqrt (fdiv (fadd p f1) f2).
Definition gain_left (p : f32) : f32 := fsqrt (fsub f1 (fdiv (fadd p f1) f2)).
Lemma sqrt01 r : (0 <= r <= 1)%R -> (0 <= sqrt r <= 1)%R.
Proof. intros H. split; [apply sqrt_pos|]. rewrite <- sqrt_1. apply sqrt_le_1; lra. Qed.
Lemma pan_norm_rng p : rng (-1) 1 p -> rng 0 1 (fdiv (fadd p f1) f2).
Proof.
  intros [Fp Vp]. assert (rng 0 2 (fadd p f1)) as [F1 V1] by (apply fadd_rng; [bnd..|done|done|]; rewrite val_f1; lra).
  apply fdiv_rng; [bnd..|done|apply fin_f2|rewrite val_f2; lra|]. rewrite val_f2. lra.
Qed.
Lemma gains_rng p : rng (-1) 1 p -> rng 0 1 (gain_left p) /\ rng 0 1 (gain_right p).
Proof.
  intros Hp. pose proof (pan_norm_rng p Hp) as Hn. pose proof (one_minus_rng _ Hn) as [Fl Vl]. destruct Hn as [Fn Vn].
  split; apply fsqrt_rng; try bnd; try done; try lra; by apply sqrt01.
Qed.
Lemma gain_bounded g x : rng 0 1 g -> fin x -> fin (fmul g x) /\ (Rabs (fval (fmul g x)) <= Rabs (fval x))%R.
Proof.
  intros [Fg Vg] Fx. destruct (fabs_ok x Fx) as [Fa Va].
  assert (Hb : (Rabs (fval x) < big)%R).
  { apply fin_b in Fx as (b & -> & _ & <-). apply (BinarySingleNaN.abs_B2R_lt_emax 24 128 b). }
  assert (rng (- Rabs (fval x)) (Rabs (fval x)) (fmul g x)) as [Fm Vm].
  { apply fmul_rng; [| |by rewrite Rabs_Ropp, Rabs_Rabsolu|by rewrite Rabs_Rabsolu|done|done|].
    - apply Generic_fmt.generic_format_opp. rewrite <- Va. by apply fin_fmt.
    - rewrite <- Va. by apply fin_fmt.
    - pose proof (Rabs_pos (fval x)). pose proof (Rle_abs (fval x)). pose proof (Rle_abs (- fval x)).
      rewrite Rabs_Ropp in *. nra. }
  split; [done|]. by apply Rabs_le.
Qed.

Lemma pan_created (P : platform) ev p ms o nd out : announced ms o -> created P ev (CPan p) ms nd out ->
  nd = Simple (NPan (Pan (num_or f0 p) o)) /\ out = [silent P; silent P].
Proof.
  intros Hms (n0 & refs & Hm & Hf).
  assert (n0 = Simple (NPan (Pan (num_or f0 p) [])) /\ out = [silent P; silent P]) as [-> ->].
  { cbv beta delta [makenode_ boxed] iota zeta in Hm. split; [congruence|].
    transitivity (chans_of P 2); [congruence|done]. }
  split; [|done]. clear Hm.
  rewrite (announced_ord P (fun o => Simple (NPan (Pan (num_or f0 p) o))) ms o) in Hf.
  - congruence.
  - intros o1 m Hm. cbn [gmsg smsg]. unfold pan_msg. destruct m as [| | | |pos i|]; try done; by destruct (ord_msg _ _).
  - done.
Qed.

(** C40.  For a position within [-1, 1] the left and right channels are the input times the two
    gains, both gains are within [0, 1], and no output sample is larger than its input. *)
Theorem C40_pan (P : platform) ev p ms o nd out src (bs : list sig) :
  announced ms o -> created P ev (CPan (Num p)) ms nd out -> in_range fm1 f1 p ->
  in_range f0 f1 (gain_left p) /\ in_range f0 f1 (gain_right p) /\
  (forall g x, g = gain_left p \/ g = gain_right p -> fin x -> fleb (fabs (fmul g x)) (fabs x) = true) /\
  exists nd' outs, play P nd out (map (mono_in src) bs) = Ok (nd', outs) /\
    lane 0 outs = fmul (gain_left p) <$> List.concat bs /\ lane 1 outs = fmul (gain_right p) <$> List.concat bs.
Proof.
  intros Hms Hc Hp. destruct (pan_created P ev (Num p) ms o nd out Hms Hc) as [-> ->]. cbn [num_or].
  apply in_range_rng in Hp; [|apply fin_fm1|done]. rewrite val_fm1, val_f1 in Hp.
  destruct (gains_rng p Hp) as [Hl Hr].
  split; [apply in_range_rng; [done..|]; by rewrite val_f0, val_f1|].
  split; [apply in_range_rng; [done..|]; by rewrite val_f0, val_f1|].
  split.
  { intros g x Hg Fx. assert (rng 0 1 g) as Hg' by (by destruct Hg as [-> | ->]).
    destruct (gain_bounded g x Hg' Fx) as [Fm Vm]. destruct (fabs_ok _ Fm) as [F1 V1]. destruct (fabs_ok _ Fx) as [F2 V2].
    apply fleb_ok; [done..|]. by rewrite V1, V2. }
  destruct (play_scan_pure P (fun _ : unit => Simple (NPan (Pan p o))) (fun s (x : f32) => (s, x))
    [(0, fmul (gain_left p)); (1, fmul (gain_right p))] 2 (map (fun b => (mono_in src b, b)) bs) tt [silent P; silent P])
    as (outs & Hpl & _ & _ & Hlane); [|done|].
  - intros b s o1 (b0 & -> & _)%elem_of_list_fmap (x & y & ->)%length2. cbn [fst snd]. destruct s.
    assert (Hs : (scan (fun (s : unit) (x : f32) => (s, x)) tt b0).2 = b0).
    { clear. induction b0 as [|z b0 IH]; [done|]. rewrite scan_cons. cbn [fst snd]. by rewrite IH. }
    eexists. split; [done|]. split; [done|]. rewrite Hs.
    intros ch g [[= -> ->]|[[= -> ->]|[]%elem_of_nil]%elem_of_cons]%elem_of_cons; done.
  - rewrite !map_map in Hpl, Hlane. cbn [fst snd] in Hpl, Hlane. rewrite map_id in Hlane.
    assert (Hs : forall l : sig, (scan (fun (s : unit) (x : f32) => (s, x)) tt l).2 = l).
    { clear. induction l as [|z l IH]; [done|]. rewrite scan_cons. cbn [fst snd]. by rewrite IH. }
    rewrite Hs in Hlane. do 2 eexists. split; [exact Hpl|]. split; apply Hlane; set_solver.
Qed.
(** Outside [-1, 1] the constructor does not clamp (send_msg does): [pan 3] makes one
    channel NaN. *)
Theorem C40_unclamped_refuted : exists p nd out,
  created demo demo_env (CPan (Num p)) [] nd out /\
  bufs_of (gproc demo nd (mono_in 4 [f1]) out) = Some [[S754_nan]; [gain_right p]].
Proof. exists (f_of_Z 3). apply demo_created. vm_compute. reflexivity. Qed.

(** ** onepole *)

(** C63.  A onepole whose coefficient is within [0, 1] never exceeds its input: samples within
    [-1, 1] give samples within [-1, 1], for ever, despite rounding. *)
Theorem C63_onepole_bounded (P : platform) ev v ms o nd out src (bs : list sig) :
  announced ms o -> created P ev (COnepole (Num v)) ms nd out ->
  in_range f0 f1 (rate_b P v) -> Forall (in_range fm1 f1) (List.concat bs) ->
  exists nd' outs, play P nd out (map (mono_in src) bs) = Ok (nd', outs) /\
    length (lane 0 outs) = length (List.concat bs) /\ Forall (in_range fm1 f1) (lane 0 outs).
Proof.
  intros Hms Hc Hb Hx. destruct (C41_onepole_partial P ev v ms o nd out src bs Hms Hc) as (nd' & outs & Hp & Hlen & Heq).
  cbv zeta in Hlen, Heq. do 2 eexists. split; [exact Hp|]. split; [done|].
  apply in_range_rng in Hb; [|done|done]. rewrite val_f0, val_f1 in Hb.
  assert (H : forall t y, lane 0 outs !! t = Some y -> rng (-1) 1 y).
  { induction t as [t IH] using lt_wf_ind. intros y Hy.
    destruct (lookup_lt_is_Some_2 (List.concat bs) t) as [xt Hxt].
    { rewrite <- Hlen. by apply lookup_lt_Some in Hy. }
    rewrite (Heq t xt Hxt) in Hy. injection Hy as <-. unfold pole_eq.
    rewrite Forall_lookup in Hx. apply mix_rng; [done| |].
    - specialize (Hx t xt Hxt). apply in_range_rng in Hx; [|apply fin_fm1|done]. by rewrite val_fm1, val_f1 in Hx.
    - unfold ago. case_decide as Hd; [split; [done|]; rewrite val_f0; lra|].
      destruct (lane 0 outs !! (t - 1)) as [y1|] eqn:E1; cbn [from_option]; unfold id.
      + apply (IH (t - 1)); [lia|done].
      + split; [done|]. rewrite val_f0. lra. }
  apply Forall_lookup. intros t y Hy. apply in_range_rng; [apply fin_fm1|done|]. rewrite val_fm1, val_f1. by apply (H t).
Qed.

(** ** Examples *)

Definition env8 : env sampledata := {| e_samples := ∅; e_sr := 8; e_bpm := f_of_Z 240; e_seed := 42 |}.
Example ex_osc : announced [ResetOrder] [] /\ (0 < e_sr env8 <= 16777216)%Z /\ in_range f0 (f_of_Z (e_sr env8)) f2 /\
  exists nd out, created demo env8 (osc_comp WSaw (Num f2)) [ResetOrder] nd out /\
  lanes_of (play demo nd out (replicate 1 [])) =
    Some ([fm1; fneg fhalf; f0; fhalf; f1; fneg fhalf; f0; fhalf], []).
Proof. split; [split; [by repeat constructor|done]|]. split; [done|]. split; [by vm_compute|]. apply demo_created. vm_compute. reflexivity. Qed.
Example ex_osc_modulated : announced [ResetOrder; IndexOrder 0 4] [4] /\
  Forall (in_range f0 (f_of_Z (e_sr env8))) (fs [2; 0; 4]%Z) /\
  exists nd out, created demo env8 (osc_comp WSaw (NRef EmptyString)) [ResetOrder; IndexOrder 0 4] nd out /\
  lanes_of (play demo nd out (map (mono_in 4) [fs [2; 0; 4]%Z])) = Some ([fm1; fneg fhalf; f0], []).
Proof. split; [split; [by repeat constructor|done]|]. split; [repeat constructor|]. apply demo_created. vm_compute. reflexivity. Qed.
Example ex_imp_audible : in_range f0 (f_of_Z (e_sr env8)) f2 /\ fltb f0 f2 = true /\
  exists nd out, created demo env8 (CImp (Num f2)) [] nd out /\
  lanes_of (play demo nd out [[]]) = Some (fs [1; 0; 0; 0; 1; 0; 0; 0]%Z, []).
Proof. split; [by vm_compute|]. split; [done|]. apply demo_created. vm_compute. reflexivity. Qed.
Example ex_pan : announced [ResetOrder; IndexOrder 0 4] [4] /\ in_range fm1 f1 f1 /\
  exists nd out, created demo demo_env (CPan (Num f1)) [ResetOrder; IndexOrder 0 4] nd out /\
  lanes_of (play demo nd out (map (mono_in 4) [fs [3; -5]%Z])) = Some ([f0; fneg f0], fs [3; -5]%Z).
Proof. split; [split; [by repeat constructor|done]|]. split; [by vm_compute|]. apply demo_created. vm_compute. reflexivity. Qed.
Example ex_onepole_bounded : announced [ResetOrder; IndexOrder 0 4] [4] /\ in_range f0 f1 (rate_b demo f0) /\
  Forall (in_range fm1 f1) (fs [1; -1; 0]%Z) /\ exists nd out,
  created demo demo_env (COnepole (Num f0)) [ResetOrder; IndexOrder 0 4] nd out.
Proof.
  split; [split; [by repeat constructor|done]|]. split; [by vm_compute|]. split; [repeat constructor; by vm_compute|].
  destruct (demo_created demo demo_env (COnepole (Num f0)) [ResetOrder; IndexOrder 0 4] (fun _ _ => tt) tt) as (nd & out & H & _);
    [by vm_compute|]. by exists nd, out.
Qed.

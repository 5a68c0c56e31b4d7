(** * Props_Filter: onepole, lpf and hpf (C41, C42). *)
From Verif Require Export Props_Delay Props_Signal.
From Coq Require Import Lia.
Local Open Scope nat_scope.

(** ** Streams through a node with one mono input *)

Lemma play_mono (P : platform) {S} (inj : S -> gnode P) (f : S -> f32 -> S * f32) (Inv : S -> Prop) k src bs s out :
  (forall s x, Inv s -> Inv (f s x).1) -> Inv s ->
  (forall b s out, Inv s -> length out = k ->
     exists out', gproc P (inj s) (mono_in src b) out = Ok (inj (scan f s b).1, out') /\ length out' = k /\
       out' !! 0 = Some (scan f s b).2) ->
  length out = k ->
  exists outs, play P (inj s) out (map (mono_in src) bs) = Ok (inj (scan f s (List.concat bs)).1, outs) /\
    lane 0 outs = (scan f s (List.concat bs)).2.
Proof.
  intros Hinv Hs Hstep Hk.
  destruct (play_scan_inv P inj f Inv [(0, id)] k (map (fun b => (mono_in src b, b)) bs) s out) as (outs & Hp & _ & _ & Hl);
    [done|done| |done|].
  - intros b s0 out0 (b0 & -> & _)%elem_of_list_fmap Hs0 Hk0. cbn [fst snd].
    destruct (Hstep b0 s0 out0 Hs0 Hk0) as (out' & H1 & H2 & H3). exists out'. split; [done|]. split; [done|].
    intros ch g [[= -> ->]|[]%elem_of_nil]%elem_of_cons. by rewrite list_fmap_id.
  - rewrite !map_map in *. cbn [fst snd] in *. rewrite map_id in *. exists outs. split; [exact Hp|].
    rewrite (Hl 0 id) by set_solver. by rewrite list_fmap_id.
Qed.

Lemma ago_take d t (x : sig) : 0 < d -> ago d t (take t x) = ago d t x.
Proof. intros Hd. unfold ago. case_decide; [done|]. by rewrite lookup_take by lia. Qed.
Lemma ago_1_snoc (h : sig) x : ago 1 (length (h ++ [x])) (h ++ [x]) = x.
Proof.
  unfold ago. rewrite app_length. simpl. case_decide; [lia|].
  replace (length h + 1 - 1) with (length h) by lia. by rewrite list_lookup_middle.
Qed.
Lemma ago_2_snoc (h : sig) x : ago 2 (length (h ++ [x])) (h ++ [x]) = ago 1 (length h) h.
Proof.
  unfold ago. rewrite app_length. simpl. case_decide as H1.
  - case_decide; [done|]. lia.
  - case_decide as H2; [lia|]. replace (length h + 1 - 2) with (length h - 1) by lia. by rewrite lookup_app_l by lia.
Qed.

(** ** onepole *)

(** y[t] = x[t]*a + b*y[t-1], with a+b=1 up to rounding. *)
Definition pole_eq (b : f32) (xt yprev : f32) : f32 := fadd (fmul xt (fsub f1 b)) (fmul b yprev).
(** The coefficient for a rate. *)
Definition rate_b (P : platform) (rate : f32) : f32 := p_exp P (fmul (fmul (f_of_Z (-2)) fpi) rate).

Lemma onepole_created (P : platform) ev p ms o nd out : announced ms o ->
  created P ev (COnepole p) ms nd out ->
  nd = Simple (NOnePole (OnePole (fsub f1 (rate_b P (num_or f0 p))) (rate_b P (num_or f0 p)) f0 o)) /\ out = [silent P].
Proof.
  intros Hms (n0 & refs & [= <- <- _] & Hf). unfold onepole_new in Hf.
  rewrite (announced_ord P (fun o => Simple (NOnePole (OnePole (fsub f1 (pole_b P (num_or f0 p))) (pole_b P (num_or f0 p)) f0 o))) ms o) in Hf.
  - by injection Hf as <-.
  - intros o1 m Hm. cbn [gmsg smsg]. unfold onepole_msg. destruct m as [| | | |pos i|]; try done; by destruct (ord_msg _ _).
  - done.
Qed.

(** C41 with a number: the first-order recursion holds over all blocks. *)
Theorem C41_onepole_partial (P : platform) ev v ms o nd out src (bs : list sig) :
  announced ms o -> created P ev (COnepole (Num v)) ms nd out ->
  exists nd' outs, play P nd out (map (mono_in src) bs) = Ok (nd', outs) /\
    let x := List.concat bs in let y := lane 0 outs in
    length y = length x /\
    forall t xt, x !! t = Some xt -> y !! t = Some (pole_eq (rate_b P v) xt (ago 1 t y)).
Proof.
  intros Hms Hc. destruct (onepole_created P ev (Num v) ms o nd out Hms Hc) as [-> ->]. cbn [num_or].
  set (b := rate_b P v). set (s0 := OnePole (fsub f1 b) b f0 o).
  destruct (play_mono P (fun s => Simple (NOnePole s)) pole_step (fun _ => True) 1 src bs s0 [silent P])
    as (outs & Hp & Hl); [done|done| |done|].
  { intros b1 s o1 _ (x & ->)%length1. cbn [gproc sproc]. unfold onepole_proc, mono_in. cbn [snd].
    cbn [chan lookup list_lookup unwrap mbind res_bind]. unfold chan. cbn [lookup list_lookup unwrap mbind res_bind].
    destruct (scan pole_step s b1) as [s1 ys]. cbn. by eexists. }
  do 2 eexists. split; [exact Hp|]. cbv zeta. rewrite Hl. split; [apply scan_length|]. intros t xt Ht.
  assert (Hk : length (take t (scan pole_step s0 (List.concat bs)).2) = t).
  { rewrite take_length, scan_length. apply lookup_lt_Some in Ht. lia. }
  rewrite (scan_recur pole_step
    (fun h k s => on_a s = fsub f1 b /\ on_b s = b /\ on_y1 s = ago 1 (length k) k)
    (fun x h k => pole_eq b x (ago 1 (length k) k))) with (h := []) (k := []) (x := xt) at 1.
  - cbn [app]. rewrite Hk, ago_take by lia. done.
  - intros h k s x (H1 & H2 & H3). unfold pole_step. cbn [fst snd on_a on_b on_y1].
    split; [unfold pole_eq; by rewrite H1, H2, H3|]. rewrite ago_1_snoc. done.
  - done.
  - done.
Qed.

(** With a modulator the two inputs have swapped roles: the signal of the chain sets the
    rate and the modulator is what gets filtered. *)
Theorem C41_onepole_modulated (P : platform) ev s ms nd out src r (bs : list (inmap * (sig * sig))) :
  announced ms [src; r] -> created P ev (COnepole (NRef s)) ms nd out -> src ≠ r ->
  Forall (fun b => b.1 ≡ₚ [(src, [b.2.1]); (r, [b.2.2])] /\ length b.2.1 = length b.2.2) bs ->
  exists nd' outs, play P nd out bs.*1 = Ok (nd', outs) /\
    let x := List.concat (bs.*2).*1 in let m := List.concat (bs.*2).*2 in let y := lane 0 outs in
    length y = length x /\
    forall t xt mt, x !! t = Some xt -> m !! t = Some mt -> y !! t = Some (pole_eq (rate_b P xt) mt (ago 1 t y)).
Proof.
  intros Hms Hc Hne Hbs. destruct (onepole_created P ev (NRef s) ms _ nd out Hms Hc) as [-> ->].
  set (s0 := OnePole _ _ f0 [src; r]).
  destruct (play_scan_inv P (fun s => Simple (NOnePole s)) (pole_mod_step P) (fun s => on_ord s = [src; r]) [(0, id)] 1
              (map (fun b => (b.1, zip b.2.1 b.2.2)) bs) s0 [silent P]) as (outs & Hp & _ & _ & Hl); [done|done| |done|].
  { intros b s1 o1 (b0 & -> & Hb0)%elem_of_list_fmap Hs (x & ->)%length1. cbn [fst snd].
    rewrite Forall_forall in Hbs. destruct (Hbs b0 Hb0) as [Hperm Hlen].
    destruct (in_id_perm _ _ _ _ _ Hne Hperm) as (H1 & H2 & i1 & i2 & Hi). cbn [gproc sproc]. unfold onepole_proc.
    rewrite Hi in *. unfold in_ord. rewrite Hs. cbn [lookup list_lookup]. rewrite H1, H2. cbn.
    destruct (scan (pole_mod_step P) s1 _) as [s2 ys]. cbn. eexists. split; [done|]. split; [done|].
    intros ch g [[= -> ->]|[]%elem_of_nil]%elem_of_cons. by rewrite list_fmap_id. }
  rewrite !map_map in Hp, Hl. cbn [fst snd] in Hp, Hl. do 2 eexists. split; [exact Hp|]. cbv zeta.
  rewrite (Hl 0 id) by set_solver. rewrite list_fmap_id.
  assert (Hz : List.concat (map (fun b : inmap * (sig * sig) => zip b.2.1 b.2.2) bs)
               = zip (List.concat (bs.*2).*1) (List.concat (bs.*2).*2) /\
               length (List.concat (bs.*2).*1) = length (List.concat (bs.*2).*2)).
  { clear -Hbs. induction Hbs as [|b bs [_ Hb] Hbs [IH1 IH2]]; [done|]. cbn. rewrite IH1.
    split; [by rewrite zip_with_app by done|]. rewrite !app_length. lia. }
  destruct Hz as [Hz Hlen]. rewrite Hz in *.
  set (x := List.concat (bs.*2).*1) in *. set (m := List.concat (bs.*2).*2) in *.
  rewrite scan_length, zip_with_length. split; [lia|]. intros t xt mt Hx Hm.
  assert (Ht : zip x m !! t = Some (xt, mt)) by (rewrite lookup_zip_with, Hx; simpl; by rewrite Hm).
  assert (Hk : length (take t (scan (pole_mod_step P) s0 (zip x m)).2) = t).
  { rewrite take_length, scan_length. apply lookup_lt_Some in Ht. lia. }
  rewrite (scan_recur (pole_mod_step P)
    (fun h k s => on_y1 s = ago 1 (length k) k)
    (fun xm h k => pole_eq (rate_b P xm.1) xm.2 (ago 1 (length k) k))) with (h := []) (k := []) (x := (xt, mt)) at 1.
  - cbn [app fst snd]. rewrite Hk, ago_take by lia. done.
  - intros h k s1 [x1 m1] H1. unfold pole_mod_step, pole_step. cbn [fst snd on_a on_b on_y1].
    split; [unfold pole_eq; by rewrite H1|]. by rewrite ago_1_snoc.
  - done.
  - done.
Qed.

(** So the declared equation, with the chain's signal filtered and the modulator as the
    rate, is false. *)
Theorem C41_onepole_modulated_refuted : exists x m y : f32,
  (exists nd out, created demo demo_env (COnepole (NRef "~a")) [ResetOrder; Index 9; IndexOrder 0 4] nd out /\
     bufs_of (gproc demo nd [(9, [[m]]); (4, [[x]])] out) = Some [[y]]) /\
  y ≠ pole_eq (rate_b demo m) x f0.
Proof.
  exists f1, f2. set (y := fmul f2 (fsub f1 (rate_b demo f1))). vm_compute in y. exists y. subst y. split; [apply demo_created; vm_compute; reflexivity|]. intros H. vm_compute in H. discriminate H.
Qed.

(** ** lpf and hpf *)

(** The biquad equation of the literature (and of the comments in the source), and what
    the code computes: the same without the current input sample. *)
Definition biquad_eq (k : coefs) (x0 x1 x2 y1 y2 : f32) : f32 :=
  fsub (fsub (fadd (fadd (fmul (c_a0 k) x0) (fmul (c_a1 k) x1)) (fmul (c_a2 k) x2)) (fmul (c_b1 k) y1)) (fmul (c_b2 k) y2).

(** The coefficients of the literature, written out: [th] = 2 pi cutoff / sr,
    beta = 1/2 (1 - d/2 sin th) / (1 + d/2 sin th) with d = 1/q, gamma = (1/2 + beta) cos th;
    the low-pass section has numerator (1/2 + beta - gamma) (1/2, 1, 1/2), the high-pass
    section (1/2 + beta + gamma) (1/2, -1, 1/2), both denominator (1, -2 gamma, 2 beta). *)
Section literature.
  Context (P : platform) (cutoff q : f32) (sr : Z).
  Definition lit_theta : f32 := fdiv (fmul (fmul (f_of_Z 2) fpi) cutoff) (f_of_Z sr).
  Definition lit_damp : f32 := fdiv (fmul (fdiv (f_of_Z 1) q) (p_sin P lit_theta)) (f_of_Z 2).
  Definition lit_half : f32 := f_of_dec false 5 (-1).
  Definition lit_beta : f32 :=
    fdiv (fmul lit_half (fsub (f_of_Z 1) lit_damp)) (fadd (f_of_Z 1) lit_damp).
  Definition lit_gamma : f32 := fmul (fadd lit_half lit_beta) (p_cos P lit_theta).
  Definition low_pass : coefs :=
    let g := fsub (fadd lit_half lit_beta) lit_gamma in
    Coefs (fdiv g (f_of_Z 2)) g (fdiv g (f_of_Z 2)) (fmul (f_of_Z (-2)) lit_gamma) (fmul (f_of_Z 2) lit_beta).
  Definition high_pass : coefs :=
    let g := fadd (fadd lit_half lit_beta) lit_gamma in
    Coefs (fdiv g (f_of_Z 2)) (fsub (fsub (fneg lit_half) lit_beta) lit_gamma) (fdiv g (f_of_Z 2))
          (fmul (f_of_Z (-2)) lit_gamma) (fmul (f_of_Z 2) lit_beta).
End literature.
Lemma f2_lit : f_of_Z 2 = f2. Proof. reflexivity. Qed.
Lemma f1_lit : f_of_Z 1 = f1. Proof. reflexivity. Qed.
Lemma half_lit : lit_half = fhalf. Proof. vm_compute. reflexivity. Qed.
Lemma lpf_coefs_lit P v q sr : lpf_coefs P q (theta v sr) = low_pass P v q sr.
Proof.
  unfold low_pass, lit_gamma, lit_beta, lit_damp, lit_theta. rewrite half_lit, f2_lit, f1_lit.
  reflexivity.
Qed.
Lemma hpf_coefs_lit P v q sr : hpf_coefs P q (theta v sr) = high_pass P v q sr.
Proof.
  unfold high_pass, lit_gamma, lit_beta, lit_damp, lit_theta. rewrite half_lit, f2_lit, f1_lit.
  reflexivity.
Qed.

Definition bq_R (cut q : f32) (sr : Z) (h k : sig) (s : biquad) : Prop :=
  length h = length k /\ bq_cutoff s = cut /\ bq_q s = q /\ bq_sr s = sr /\ bq_pattern s = [] /\
  bq_x1 s = ago 1 (length h) h /\ bq_x2 s = ago 2 (length h) h /\
  bq_y1 s = ago 1 (length k) k /\ bq_y2 s = ago 2 (length k) k.
Lemma bq_R_step kf cut q sr h k s x : bq_R cut q sr h k s ->
  (bq_step_with kf cut s x).2 = biquad_eq kf f0 (ago 1 (length h) h) (ago 2 (length h) h) (ago 1 (length k) k) (ago 2 (length k) k) /\
  bq_R cut q sr (h ++ [x]) (k ++ [(bq_step_with kf cut s x).2]) (bq_step_with kf cut s x).1.
Proof.
  intros (H0 & H1 & H2 & H3 & H4 & H5 & H6 & H7 & H8). unfold bq_step_with, bq_val, bq_R.
  cbn [fst snd bq_cutoff bq_q bq_sr bq_pattern bq_x1 bq_x2 bq_y1 bq_y2].
  rewrite !ago_1_snoc, !ago_2_snoc. split; [unfold biquad_eq; by rewrite H5, H6, H7, H8|].
  split_and!; try done. rewrite !app_length. simpl. lia.
Qed.
Lemma bq_scan (f : biquad -> f32 -> biquad * f32) kf cut q sr s xs :
  (forall s x, bq_cutoff s = cut -> bq_q s = q -> bq_sr s = sr -> bq_pattern s = [] -> f s x = bq_step_with kf cut s x) ->
  bq_R cut q sr [] [] s ->
  forall t, t < length xs -> (scan f s xs).2 !! t =
    Some (biquad_eq kf f0 (ago 1 t xs) (ago 2 t xs) (ago 1 t (scan f s xs).2) (ago 2 t (scan f s xs).2)).
Proof.
  intros Hf Hs t [xt Ht]%lookup_lt_is_Some.
  assert (Hk : length (take t (scan f s xs).2) = t).
  { rewrite take_length, scan_length. apply lookup_lt_Some in Ht. lia. }
  assert (Hx : length (take t xs) = t).
  { rewrite take_length. apply lookup_lt_Some in Ht. lia. }
  rewrite (scan_recur f (bq_R cut q sr)
    (fun x h k => biquad_eq kf f0 (ago 1 (length h) h) (ago 2 (length h) h) (ago 1 (length k) k) (ago 2 (length k) k)))
    with (h := []) (k := []) (x := xt) at 1.
  - cbn [app]. rewrite Hk, Hx, !ago_take by lia. done.
  - intros h k s1 x HR. rewrite Hf by apply HR. by apply bq_R_step.
  - done.
  - done.
Qed.

Lemma bq_created (P : platform) ev c s0 ms nd out (inj : biquad -> snode P) :
  inj = NRlpf \/ inj = NRhpf -> bq_ord s0 = [] ->
  (exists refs, makenode_ P ev c = boxed P (inj s0) 1 refs) -> Forall conn_msg ms -> created P ev c ms nd out ->
  exists o, announced ms o /\ out = [silent P] /\
    nd = Simple (inj (Biquad (bq_cutoff s0) (bq_q s0) (bq_x1 s0) (bq_x2 s0) (bq_y1 s0) (bq_y2 s0) (bq_sr s0) (bq_pattern s0)
                        (bq_span s0) (bq_bpm s0) (bq_step s0) o)).
Proof.
  intros Hinj Ho0 [refs0 Hmk] Hms (n0 & refs & Hmk' & Hf). rewrite Hmk in Hmk'. injection Hmk' as <- <- _.
  assert (Hord : exists o, foldM ord_msg [] ms = Ok o).
  { generalize (@nil nat) as o. clear -Hms. induction Hms as [|m ms Hm Hms IH]; intros o; simpl; [by eexists|].
    pose proof (ord_msg_ok o m Hm) as Hok. destruct (ord_msg o m); [apply IH|done]. }
  destruct Hord as [o Hord]. exists o. assert (Ha : announced ms o) by done. split; [done|]. split; [done|].
  pose proof (announced_ord P (fun o => Simple (inj (Biquad (bq_cutoff s0) (bq_q s0) (bq_x1 s0) (bq_x2 s0) (bq_y1 s0) (bq_y2 s0)
     (bq_sr s0) (bq_pattern s0) (bq_span s0) (bq_bpm s0) (bq_step s0) o))) ms o) as Hn. cbn beta in Hn.
  rewrite <- Ho0 in Hn at 1. assert (Hs0 : Biquad (bq_cutoff s0) (bq_q s0) (bq_x1 s0) (bq_x2 s0) (bq_y1 s0) (bq_y2 s0)
     (bq_sr s0) (bq_pattern s0) (bq_span s0) (bq_bpm s0) (bq_step s0) (bq_ord s0) = s0) by by destruct s0.
  rewrite Hs0 in Hn. rewrite Hn in Hf; [by injection Hf as <-| |done].
  intros o1 m Hm. destruct Hinj as [-> | ->]; cbn [gmsg smsg]; unfold bq_msg; cbn [bq_ord];
    destruct m as [| | | |pos i|]; try done; by destruct (ord_msg _ _).
Qed.

(** C42, the part that holds: lpf with a numeric cutoff follows a biquad recursion over all
    blocks, with coefficients computed from cutoff, q and the sample rate. *)
Theorem C42_lpf_partial (P : platform) ev v q ms nd out src (bs : list sig) :
  Forall conn_msg ms -> created P ev (CLpf (SigNum v) q) ms nd out ->
  exists nd' outs, play P nd out (map (mono_in src) bs) = Ok (nd', outs) /\
    let x := List.concat bs in let y := lane 0 outs in
    length y = length x /\
    forall t, t < length x -> y !! t =
      Some (biquad_eq (low_pass P v q (e_sr ev)) f0 (ago 1 t x) (ago 2 t x) (ago 1 t y) (ago 2 t y)).
Proof.
  intros Hms Hc. destruct (bq_created P ev (CLpf (SigNum v) q) (bq_new v q (e_sr ev) [] f1 (f_of_Z 120)) ms nd out NRlpf
    (or_introl eq_refl) eq_refl (ex_intro _ [] eq_refl) Hms Hc) as (o & Ha & -> & ->).
  unfold bq_new. cbn [bq_cutoff bq_q bq_x1 bq_x2 bq_y1 bq_y2 bq_sr bq_pattern bq_span bq_bpm bq_step bq_ord].
  set (s0 := Biquad v q f0 f0 f0 f0 (e_sr ev) [] f1 (f_of_Z 120) 0 o).
  set (f := fun s x => bq_step_with (lpf_coefs P (bq_q s) (theta (bq_cutoff s) (bq_sr s))) (bq_cutoff s) s x).
  destruct (play_mono P (fun s => Simple (NRlpf s)) f (fun s => bq_pattern s = []) 1 src bs s0 [silent P])
    as (outs & Hp & Hl); [done|done| |done|].
  { intros b s o1 Hs (x & ->)%length1. cbn [gproc sproc]. unfold rlpf_proc, mono_in. cbn [snd].
    unfold chan. cbn [lookup list_lookup unwrap mbind res_bind].
    assert (Hsc : forall b s, bq_pattern s = [] -> scanR (lpf_step P) s b = Ok (scan f s b)).
    { clear. induction b as [|x b IH]; intros s Hs; [done|]. cbn [scanR scan].
      assert (lpf_step P s x = Ok (f s x)) as ->. { unfold lpf_step, bq_cut. by rewrite Hs. }
      destruct (f s x) as [s1 y] eqn:E. rewrite IH; [by destruct (scan f s1 b)|].
      unfold f, bq_step_with in E. injection E as <- _. done. }
    rewrite Hsc by done. destruct (scan f s b) as [s1 ys]. cbn. by eexists. }
  do 2 eexists. split; [exact Hp|]. cbv zeta. rewrite Hl. split; [apply scan_length|]. intros t Ht.
  rewrite <- lpf_coefs_lit. apply (bq_scan f _ v q (e_sr ev)); [|by repeat split|done].
  intros s x <- <- <- _. done.
Qed.

(** hpf: the same with its own coefficients, always for 44.1 kHz. *)
Theorem C42_hpf_partial (P : platform) ev v q ms nd out src (bs : list sig) :
  Forall conn_msg ms -> created P ev (CRhpf (Num v) q) ms nd out ->
  exists nd' outs, play P nd out (map (mono_in src) bs) = Ok (nd', outs) /\
    let x := List.concat bs in let y := lane 0 outs in
    length y = length x /\
    forall t, t < length x -> y !! t =
      Some (biquad_eq (high_pass P v q 44100) f0 (ago 1 t x) (ago 2 t x) (ago 1 t y) (ago 2 t y)).
Proof.
  intros Hms Hc. destruct (bq_created P ev (CRhpf (Num v) q) (bq_new v q 44100 [] f1 (f_of_Z 120)) ms nd out NRhpf
    (or_intror eq_refl) eq_refl (ex_intro _ [] eq_refl) Hms Hc) as (o & Ha & -> & ->).
  unfold bq_new. cbn [bq_cutoff bq_q bq_x1 bq_x2 bq_y1 bq_y2 bq_sr bq_pattern bq_span bq_bpm bq_step bq_ord].
  set (s0 := Biquad v q f0 f0 f0 f0 44100 [] f1 (f_of_Z 120) 0 o).
  set (f := fun s x => bq_step_with (hpf_coefs P q (theta v 44100)) (bq_cutoff s) s x).
  destruct (play_mono P (fun s => Simple (NRhpf s)) f (fun s => bq_cutoff s = v /\ bq_q s = q /\ bq_sr s = 44100%Z) 1 src bs s0 [silent P])
    as (outs & Hp & Hl); [done|done| |done|].
  { intros b s o1 (Hv & Hq & Hsr) (x & ->)%length1. cbn [gproc sproc]. unfold rhpf_proc, mono_in. cbn [snd].
    unfold chan. cbn [lookup list_lookup unwrap mbind res_bind]. rewrite Hv, Hq, Hsr.
    change (fun (st : biquad) (x0 : f32) => bq_step_with (hpf_coefs P q (theta v 44100)) (bq_cutoff st) st x0) with f.
    destruct (scan f s b) as [s1 ys]. cbn. by eexists. }
  do 2 eexists. split; [exact Hp|]. cbv zeta. rewrite Hl. split; [apply scan_length|]. intros t Ht.
  rewrite <- hpf_coefs_lit. apply (bq_scan f _ v q 44100); [|by repeat split|done].
  intros s x <- _ _ _. done.
Qed.

(** The equation of C42 itself, with the current sample, is false: an impulse is heard one
    sample late. *)
Theorem C42_current_sample_refuted : exists v q y0 y1,
  (exists nd out, created demo demo_env (CLpf (SigNum v) q) [] nd out /\
     bufs_of (gproc demo nd (mono_in 4 [f1; f0]) out) = Some [[y0; y1]]) /\
  y0 ≠ biquad_eq (low_pass demo v q 44100) f1 f0 f0 f0 f0.
Proof.
  exists (f_of_Z 1000), f1.
  set (k := low_pass demo (f_of_Z 1000) f1 44100).
  set (y1 := biquad_eq k f0 f1 f0 f0 f0). vm_compute in y1. exists f0, y1. subst y1.
  split; [apply demo_created; vm_compute; reflexivity|]. intros H. vm_compute in H. discriminate H.
Qed.

(** ** Examples *)
Example ex_onepole : announced [ResetOrder; IndexOrder 0 4] [4] /\ exists nd out,
  created demo demo_env (COnepole (Num f0)) [ResetOrder; IndexOrder 0 4] nd out /\
  lanes_of (play demo nd out (map (mono_in 4) [fs [1; 2]%Z; fs [3]%Z])) = Some (fs [0; 0; 0]%Z, []).
Proof. split; [split; [by repeat constructor|done]|]. apply demo_created. vm_compute. reflexivity. Qed.
Example ex_hpf : exists nd out, created demo demo_env (CRhpf (Num (f_of_Z 1000)) f1) [ResetOrder; IndexOrder 0 4] nd out /\
  (match play demo nd out (map (mono_in 4) [fs [1; 2]%Z; fs [3]%Z]) with
   | Ok (_, outs) => (length (lane 0 outs), feqb (default f0 (lane 0 outs !! 1)) f0) | Panic => (0, true) end) = (3, false).
Proof. apply demo_created. vm_compute. reflexivity. Qed.

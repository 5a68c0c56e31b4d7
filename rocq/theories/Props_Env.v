(** * Props_Env: envperc and adsr (C35, C36). *)
From Verif Require Export Props_Range.
From Verif Require Import FloatR.
From Coq Require Import Reals Lra Lia.
Local Open Scope nat_scope.

(** ** envperc *)

(** The last sample up to [t] with a positive value. *)
Fixpoint last_trig (x : sig) (t : nat) : option nat :=
  if fgtb (default f0 (x !! t)) f0 then Some t
  else match t with 0 => None | S t' => last_trig x t' end.
(** The envelope [p] samples after a trigger: a straight line to 1 in [a] samples, then a
    straight line to 0 in [d] samples, then 0. *)
Definition perc (a d p : Z) : f32 :=
  if decide (p <= a)%Z then if decide (a = 0)%Z then f0 else fdiv (f_of_Z p) (f_of_Z a)
  else if decide (p <= a + d)%Z then if decide (d = 0)%Z then f0 else fdiv (f_of_Z (a + d - p)) (f_of_Z d)
  else f0.
Definition samples_of (P : platform) (sr : Z) (secs : f32) : Z := as_usize (p_cfg P) (fmul secs (f_of_Z sr)).

Lemma perc_shape_perc a d p : perc_shape a d (a + d) p = perc a d p.
Proof.
  unfold perc_shape, perc.
  destruct (Z.leb_spec p a); [rewrite decide_True by done|rewrite decide_False by lia].
  - destruct (Z.eqb_spec a 0); [by rewrite decide_True|by rewrite decide_False].
  - destruct (Z.leb_spec p (a + d)); [rewrite decide_True by done|by rewrite decide_False by lia].
    destruct (Z.eqb_spec d 0); [by rewrite decide_True|by rewrite decide_False].
Qed.

Lemma envperc_created (P : platform) ev a d ms o nd out : announced ms o -> created P ev (CEnvPerc a d) ms nd out ->
  nd = Simple (NEnvPerc (EnvPerc a d 0 f1 (e_sr ev) o)) /\ out = [silent P; silent P].
Proof.
  intros Hms (n0 & refs & Hm & Hf).
  assert (n0 = Simple (NEnvPerc (EnvPerc a d 0 f1 (e_sr ev) [])) /\ out = [silent P; silent P]) as [-> ->].
  { cbv beta delta [makenode_ boxed] iota zeta in Hm. unfold envperc_new in Hm. split; [congruence|].
    transitivity (chans_of P 2); [congruence|done]. }
  split; [|done]. clear Hm.
  rewrite (announced_ord P (fun o => Simple (NEnvPerc (EnvPerc a d 0 f1 (e_sr ev) o))) ms o) in Hf.
  - congruence.
  - intros o1 m Hm. cbn [gmsg smsg]. unfold envperc_msg. destruct m as [| | | |pos i|]; try done; by destruct (ord_msg _ _).
  - done.
Qed.

(** What an envperc plays at sample [t] for the input [x].  Before the first trigger it behaves
    as if triggered with 1.0 at sample 0. *)
Definition perc_at (a d : Z) (x : sig) (t : nat) : f32 :=
  match last_trig x t with
  | Some u => fmul (perc a d (Z.of_nat (t - u))) (default f0 (x !! u))
  | None => fmul (perc a d (Z.of_nat t)) f1
  end.

Lemma state_at_snoc {T A B} (f : T -> A -> T * B) s xs x : state_at f s (xs ++ [x]) = (f (state_at f s xs) x).1.
Proof. revert s. induction xs as [|y xs IH]; intros s; [done|]. simpl. apply IH. Qed.

Lemma perc_scan a d sa o (x : sig) att dec :
  let f := envperc_step a d (a + d) in let s0 := EnvPerc att dec 0 f1 sa o in
  forall t xt, x !! t = Some xt -> (scan f s0 x).2 !! t = Some (perc_at a d x t).
Proof.
  intros f s0.
  assert (Hst : forall t, t <= length x ->
    let s := state_at f s0 (take t x) in
    (ep_pos s, ep_scale s) =
      match t with
      | 0 => (0%Z, f1)
      | S t' => match last_trig x t' with
                | Some u => (Z.of_nat (t - u), default f0 (x !! u))
                | None => (Z.of_nat t, f1)
                end
      end).
  { intros t. induction t as [|t IH]; intros Ht; cbv zeta.
    - by rewrite take_0.
    - destruct (lookup_lt_is_Some_2 x t ltac:(lia)) as [xt Hxt].
      rewrite (take_S_r _ _ _ Hxt), state_at_snoc. specialize (IH ltac:(lia)). cbv zeta in IH.
      revert IH. generalize (state_at f s0 (take t x)) as s. intros s IH. unfold f, envperc_step. cbn [fst ep_pos ep_scale].
      destruct t as [|t].
      + injection IH as -> ->. cbn [last_trig]. rewrite Hxt. cbn [from_option]. unfold Datatypes.id. destruct (fgtb xt f0); [|done]. by rewrite Hxt.
      + cbn [last_trig]. rewrite Hxt. cbn [from_option]. unfold Datatypes.id at 1. destruct (fgtb xt f0).
        * rewrite Hxt. cbn [from_option]. unfold Datatypes.id. by replace (S (S t) - S t) with 1 by lia.
        * destruct (last_trig x t) as [u|] eqn:Eu.
          -- injection IH as -> ->. f_equal. assert (u <= t); [|lia]. clear -Eu. induction t as [|t IH]; cbn in Eu.
             ++ destruct (fgtb _ _); [|done]. injection Eu as <-. done.
             ++ destruct (fgtb _ _); [injection Eu as <-; lia|]. specialize (IH Eu). lia.
          -- injection IH as -> ->. f_equal. lia. }
  intros t xt Hxt. rewrite (scan_lookup f s0 x t xt Hxt). f_equal.
  specialize (Hst t ltac:(apply lookup_lt_Some in Hxt; lia)). cbv zeta in Hst.
  revert Hst. generalize (state_at f s0 (take t x)) as s. intros s Hst. unfold f, envperc_step. cbn [snd]. rewrite perc_shape_perc.
  unfold perc_at. destruct t as [|t].
  - injection Hst as -> ->. cbn [last_trig]. rewrite Hxt. cbn [from_option]. unfold Datatypes.id at 1.
    destruct (fgtb xt f0); [|done]. rewrite Hxt. done.
  - cbn [last_trig]. rewrite Hxt. cbn [from_option]. unfold Datatypes.id at 1. destruct (fgtb xt f0).
    + rewrite Hxt. by rewrite Nat.sub_diag.
    + destruct (last_trig x t) as [u|]; by injection Hst as -> ->.
Qed.

(** C35 with the start-up behaviour as it is: over all blocks, each sample is the envelope of the
    last trigger times its value, and the envelope is within [0, 1] and 0 after attack+decay. *)
Theorem C35_envperc_partial (P : platform) ev att dec ms o nd out src (bs : list sig) :
  announced ms o -> (exists o', o = src :: o') -> created P ev (CEnvPerc att dec) ms nd out ->
  let a := samples_of P (e_sr ev) att in let d := samples_of P (e_sr ev) dec in
  (a + d <= umax (p_cfg P))%Z -> (0 <= umax (p_cfg P) <= 2 ^ 64)%Z ->
  (forall p, (0 <= p)%Z -> in_range f0 f1 (perc a d p)) /\
  (forall p, (a + d < p)%Z -> perc a d p = f0) /\
  exists nd' outs, play P nd out (map (mono_in src) bs) = Ok (nd', outs) /\
    lane 0 outs = map (perc_at a d (List.concat bs)) (seq 0 (length (List.concat bs))).
Proof.
  intros Hms (o' & ->) Hc a d Had Hu. destruct (envperc_created P ev att dec ms (src :: o') nd out Hms Hc) as [-> ->].
  assert (H0a : (0 <= a)%Z) by (unfold a, samples_of, as_usize; destruct (fmul _ _) as [|[]| |]; clear -Hu; lia).
  assert (H0d : (0 <= d)%Z) by (unfold d, samples_of, as_usize; destruct (fmul _ _) as [|[]| |]; clear -Hu; lia).
  split; [|split].
  - intros p Hp. apply in_range_rng; [done..|]. rewrite val_f0, val_f1. unfold perc.
    assert (H0 : rng 0 1 f0) by (split; [done|rewrite val_f0; lra]).
    repeat case_decide; try done; apply ratio_rng; lia.
  - intros p Hp. unfold perc. repeat case_decide; try done; lia.
  - set (f := envperc_step a d (a + d)). set (s0 := EnvPerc att dec 0 f1 (e_sr ev) (src :: o')).
    destruct (play_mono P (fun s => Simple (NEnvPerc s)) f
      (fun s => ep_att s = att /\ ep_dec s = dec /\ ep_sr s = e_sr ev /\ ep_ord s = src :: o') 2 src bs s0
      [silent P; silent P]) as (outs & Hp & Hl).
    + intros s x Hs. exact Hs.
    + done.
    + intros b s o1 (E1 & E2 & E3 & E4) (x & y & ->)%length2. cbn [gproc sproc]. unfold envperc_proc, mono_in.
      rewrite E1, E2, E3, E4. change (secs P (e_sr ev) att) with a. change (secs P (e_sr ev) dec) with d.
      unfold uadd. destruct (Z.leb_spec (a + d) (umax (p_cfg P))); [|lia]. cbn [mbind res_bind].
      unfold in_ord. cbn [lookup list_lookup]. unfold in_id. cbn [map find fst]. simpl. rewrite ?Nat.eqb_refl.
      unfold mbind, res_bind, chan. cbn [lookup list_lookup]. fold f. destruct (scan f s b) as [s1 ys] eqn:Es. exists [ys; y]. cbn [fst snd]. split; [|done]. unfold unwrap. rewrite Es. reflexivity.
    + done.
    + do 2 eexists. split; [exact Hp|]. rewrite Hl. apply list_eq. intros t.
      destruct (List.concat bs !! t) as [xt|] eqn:E.
      * etransitivity; [exact (perc_scan a d (e_sr ev) (src :: o') _ att dec t xt E)|]. rewrite list_lookup_fmap.
        rewrite lookup_seq_lt by (by apply lookup_lt_Some in E). done.
      * apply lookup_ge_None in E. rewrite !lookup_ge_None_2; [done| |].
        -- by rewrite map_length, seq_length.
        -- by rewrite scan_length.
Qed.

(** C35 as stated is false: an envperc that never receives a trigger plays a full envelope when it starts. *)
Theorem C35_untriggered_refuted : exists (P : platform) ev att dec ms o src nd out outs,
  announced ms o /\ o = [src] /\ created P ev (CEnvPerc att dec) ms nd out /\
  (exists nd', play P nd out [mono_in src (fs [0; 0; 0]%Z)] = Ok (nd', outs)) /\
  exists y, lane 0 outs !! 1 = Some y /\ fgtb y f0 = true.
Proof.
  exists demo, demo_env, (f_of_dec false 1 (-2)), (f_of_dec false 1 (-1)), [ResetOrder; IndexOrder 0 4], [4], 4.
  destruct (demo_created demo demo_env (CEnvPerc (f_of_dec false 1 (-2)) (f_of_dec false 1 (-1))) [ResetOrder; IndexOrder 0 4]
    (fun nd out => match play demo nd out [mono_in 4 (fs [0; 0; 0]%Z)] with
                   | Ok (_, outs) => (length outs, match lane 0 outs !! 1 with Some y => fgtb y f0 | None => false end)
                   | Panic => (0, false) end) (1, true)) as (nd & out & Hc & Hv).
  { vm_compute. reflexivity. }
  destruct (play demo nd out [mono_in 4 (fs [0; 0; 0]%Z)]) as [[nd' outs]|] eqn:Ep; [|done].
  exists nd, out, outs. split; [split; [by repeat constructor|done]|]. split; [done|]. split; [exact Hc|]. split; [by exists nd'|].
  destruct (lane 0 outs !! 1) as [y|]; [|done]. exists y. split; [done|]. by injection Hv.
Qed.
Example ex_envperc : announced [ResetOrder; IndexOrder 0 4] [4] /\
  (samples_of demo 8 fhalf + samples_of demo 8 (f_of_dec false 25 (-2)) <= umax (p_cfg demo))%Z /\
  exists nd out, created demo {| e_samples := ∅; e_sr := 8; e_bpm := f1; e_seed := 42 |} (CEnvPerc fhalf (f_of_dec false 25 (-2)))
    [ResetOrder; IndexOrder 0 4] nd out /\
  lanes_of (play demo nd out (map (mono_in 4) [fs [8; 0; 0]%Z; fs [0; 0; -3; 0; 0]%Z])) =
    Some (fs [0; 2; 4; 6; 8; 4; 0; 0]%Z, zeros 16).
Proof. split; [split; [by repeat constructor|done]|]. split; [vm_compute; done|]. apply demo_created. vm_compute. reflexivity. Qed.

(** ** adsr *)

(** The sample before [t]; silence before the start. *)
Definition before (x : sig) (t : nat) : f32 := match t with 0 => f0 | S t' => default f0 (x !! t') end.
(** The gate opens at a positive sample after a zero one and closes at a zero sample after a positive one. *)
Definition opens (x : sig) (t : nat) : bool := fgtb (default f0 (x !! t)) f0 && feqb (before x t) f0.
Definition closes (x : sig) (t : nat) : bool := feqb (default f0 (x !! t)) f0 && fgtb (before x t) f0.
(** The last such event up to [t]: [true] for opening. *)
Fixpoint last_edge (x : sig) (t : nat) : option (bool * nat) :=
  if opens x t then Some (true, t) else if closes x t then Some (false, t)
  else match t with 0 => None | S t' => last_edge x t' end.
(** The envelope [p] samples after the gate opened or closed with the output at [c]. *)
Definition held (a d : Z) (sus c : f32) (p : Z) : f32 :=
  if decide (p <= a)%Z then if decide (a = 0)%Z then f0 else fmul (fdiv (f_of_Z p) (f_of_Z a)) (fsub f1 c)
  else if decide (p <= a + d)%Z
       then if decide (d = 0)%Z then sus else fadd (fmul (fdiv (f_of_Z (a + d - p)) (f_of_Z d)) (fsub f1 sus)) sus
       else sus.
Definition released (r : Z) (c : f32) (p : Z) : f32 :=
  if decide (r <= p)%Z then f0 else fmul (fdiv (f_of_Z (r - p)) (f_of_Z r)) c.
Definition adsr_at (a d r : Z) (sus : f32) (x y : sig) (t : nat) : f32 :=
  match last_edge x t with
  | None => f0
  | Some (true, u) => held a d sus (before y u) (Z.of_nat (t - u))
  | Some (false, u) => released r (before y u) (Z.of_nat (t - u))
  end.

Lemma decay_rng t s : rng 0 1 t -> rng 0 1 s -> rng 0 1 (fadd (fmul t (fsub f1 s)) s).
Proof.
  intros Ht Hs. assert (H1 : rng 0 1 f1) by (split; [done|rewrite val_f1; lra]).
  pose proof (mix01_rng s t f1 Hs Ht H1) as [F V]. pose proof (mul01_rng t _ Ht (one_minus_rng s Hs)) as [Fm Vm].
  assert (Es : fin (fmul s f1) /\ fval (fmul s f1) = fval s).
  { destruct Hs as [Fs Vs]. destruct (fmul_ok s f1 Fs fin_f1) as [F1 E1].
    - rewrite val_f1, Rmult_1_r. apply (rnd_rng 0 1); [bnd..|exact Vs].
    - split; [exact F1|]. rewrite E1, val_f1, Rmult_1_r. apply rnd_fmt. by apply fin_fmt. }
  destruct Es as [Fs1 Es1]. destruct Hs as [Fs Vs].
  assert (Hb : (Rabs (rnd (fval (fmul t (fsub f1 s)) + fval s)) < big)%R).
  { apply (rnd_rng 0 2); [bnd..|lra]. }
  destruct (fadd_ok _ _ Fm Fs Hb) as [F2 V2]. rewrite <- Es1 in Hb. destruct (fadd_ok _ _ Fm Fs1 Hb) as [F3 V3].
  split; [exact F2|]. rewrite V2, <- Es1, <- V3. exact V.
Qed.

Lemma held_rng a d sus c p : (0 <= a)%Z -> (0 <= d)%Z -> (a + d <= 2 ^ 64)%Z -> (0 <= p)%Z ->
  rng 0 1 sus -> rng 0 1 c -> rng 0 1 (held a d sus c p).
Proof.
  intros Ha Hd Hu Hp Hs Hc. unfold held. assert (H0 : rng 0 1 f0) by (split; [done|rewrite val_f0; lra]).
  repeat case_decide; try done.
  - apply mul01_rng; [apply ratio_rng; lia|by apply one_minus_rng].
  - apply decay_rng; [apply ratio_rng; lia|done].
Qed.
Lemma released_rng r c p : (0 <= r <= 2 ^ 64)%Z -> (0 <= p)%Z -> rng 0 1 c -> rng 0 1 (released r c p).
Proof.
  intros Hr Hp Hc. unfold released. assert (H0 : rng 0 1 f0) by (split; [done|rewrite val_f0; lra]).
  case_decide; [done|]. apply mul01_rng; [apply ratio_rng; lia|done].
Qed.
(** Monotone during the attack. *)
Lemma ratio_mono a b n : (0 <= a <= b)%Z -> (b <= n)%Z -> (0 < n <= 2 ^ 64)%Z ->
  (fval (fdiv (f_of_Z a) (f_of_Z n)) <= fval (fdiv (f_of_Z b) (f_of_Z n)))%R.
Proof.
  intros Hab Hbn Hn. destruct (count_fin a ltac:(lia)) as (Fa & Va & Pa). destruct (count_fin b ltac:(lia)) as (Fb & Vb & Pb).
  destruct (count_fin n ltac:(lia)) as (Fn & Vn & Pn).
  assert (1 <= rnd (IZR n))%R by (rewrite <- rnd_1; apply rnd_le, IZR_le; lia).
  assert (Hle : (rnd (IZR a) <= rnd (IZR b))%R) by (apply rnd_le, IZR_le; lia).
  assert (Hln : (rnd (IZR b) <= rnd (IZR n))%R) by (apply rnd_le, IZR_le; lia).
  assert (Hq : forall u, (0 <= u <= rnd (IZR n) -> 0 <= u / rnd (IZR n) <= 1)%R).
  { intros u Hu. split; [apply Rmult_le_pos; [lra|left; apply Rinv_0_lt_compat; lra]|].
    apply Rmult_le_reg_r with (rnd (IZR n)); [lra|]. replace (u / rnd (IZR n) * rnd (IZR n))%R with u by (field; lra). lra. }
  destruct (fdiv_ok _ _ Fa Fn ltac:(rewrite Vn; lra)) as [_ ->].
  { apply (rnd_rng 0 1); [bnd..|]. rewrite Va, Vn. apply Hq. lra. }
  destruct (fdiv_ok _ _ Fb Fn ltac:(rewrite Vn; lra)) as [_ ->].
  { apply (rnd_rng 0 1); [bnd..|]. rewrite Vb, Vn. apply Hq. lra. }
  apply rnd_le. rewrite Va, Vb, Vn. apply Rmult_le_compat_r; [left; apply Rinv_0_lt_compat; lra|exact Hle].
Qed.
Lemma held_mono a d sus c p q : (0 < a <= 2 ^ 64)%Z -> (0 <= p <= q)%Z -> (q <= a)%Z -> rng 0 1 c ->
  (fval (held a d sus c p) <= fval (held a d sus c q))%R.
Proof.
  intros Ha Hpq Hqa Hc. unfold held. rewrite (decide_True (P := (p <= a)%Z)), (decide_True (P := (q <= a)%Z)) by lia.
  rewrite !(decide_False (P := (a = 0)%Z)) by lia.
  pose proof (ratio_rng p a ltac:(lia) ltac:(lia)) as [Fp Vp]. pose proof (ratio_rng q a ltac:(lia) ltac:(lia)) as [Fq Vq].
  pose proof (ratio_mono p q a ltac:(lia) ltac:(lia) ltac:(lia)) as Hm. destruct (one_minus_rng c Hc) as [Fc Vc].
  destruct (fmul_ok _ _ Fp Fc) as [_ ->]; [apply (rnd_rng 0 1); [bnd..|nra]|].
  destruct (fmul_ok _ _ Fq Fc) as [_ ->]; [apply (rnd_rng 0 1); [bnd..|nra]|].
  apply rnd_le. apply Rmult_le_compat_r; [lra|exact Hm].
Qed.

Lemma adsr_created (P : platform) ev a d su r ms o nd out : announced ms o -> created P ev (CAdsr a d su r) ms nd out ->
  nd = Simple (NAdsr (Adsr a d su r 0 f0 f0 f0 (e_sr ev) 0 o)) /\ out = [silent P; silent P].
Proof.
  intros Hms (n0 & refs & Hm & Hf).
  assert (n0 = Simple (NAdsr (Adsr a d su r 0 f0 f0 f0 (e_sr ev) 0 [])) /\ out = [silent P; silent P]) as [-> ->].
  { cbv beta delta [makenode_ boxed] iota zeta in Hm. unfold adsr_new in Hm. split; [congruence|].
    transitivity (chans_of P 2); [congruence|done]. }
  split; [|done]. clear Hm.
  rewrite (announced_ord P (fun o => Simple (NAdsr (Adsr a d su r 0 f0 f0 f0 (e_sr ev) 0 o))) ms o) in Hf.
  - congruence.
  - intros o1 m Hm. cbn [gmsg smsg]. unfold adsr_msg. destruct m as [| | | |pos i|]; try done; by destruct (ord_msg _ _).
  - done.
Qed.

(** The step without the overflow check. *)
Definition adsr_pure (a d r : Z) (s : adsr) (x : f32) : adsr * f32 :=
  let rise := fgtb x f0 && feqb (ad_lastx s) f0 in
  let fall := feqb x f0 && fgtb (ad_lastx s) f0 in
  let phase := (if rise then 1 else if fall then 2 else ad_phase s)%Z in
  let pos := (if rise || fall then 0 else ad_pos s)%Z in
  let change := if rise || fall then ad_lasty s else ad_change s in
  let y := (if phase =? 1 then held a d (ad_sus s) change pos else if phase =? 2 then released r change pos else f0)%Z in
  (Adsr (ad_att s) (ad_dec s) (ad_sus s) (ad_rel s) (pos + 1) x y change (ad_sr s) phase (ad_ord s), y).
Lemma adsr_step_pure c a d r s x : (a + d <= umax c)%Z -> adsr_step c a d r s x = Ok (adsr_pure a d r s x).
Proof.
  intros Hu. unfold adsr_step, adsr_pure. cbv zeta.
  set (ph := (if fgtb x f0 && _ then _ else _)). set (po := (if _ || _ then 0%Z else _)). set (ch := (if _ || _ then ad_lasty s else _)).
  unfold adsr_shape. destruct (ph =? 1)%Z; [|destruct (ph =? 2)%Z].
  - unfold held. destruct (Z.leb_spec po a); [rewrite decide_True by done|rewrite decide_False by lia].
    + destruct (Z.eqb_spec a 0); [by rewrite decide_True|by rewrite decide_False].
    + unfold uadd. destruct (Z.leb_spec (a + d) (umax c)); [|lia]. cbn [mbind res_bind].
      destruct (Z.leb_spec po (a + d)); [rewrite decide_True by done|by rewrite decide_False by lia].
      destruct (Z.eqb_spec d 0); [by rewrite decide_True|by rewrite decide_False].
  - unfold released. destruct (Z.leb_spec r po); [by rewrite decide_True|by rewrite decide_False by lia].
  - done.
Qed.

Lemma last_edge_le x t b u : last_edge x t = Some (b, u) -> u <= t.
Proof.
  induction t as [|t IH]; cbn [last_edge]; (destruct (opens _ _); [intros [= <- <-]; done|]);
    (destruct (closes _ _); [intros [= <- <-]; done|]); [done|]. intros H. specialize (IH H). lia.
Qed.

Lemma adsr_scan a d r (x : sig) s0 :
  ad_pos s0 = 0%Z -> ad_lastx s0 = f0 -> ad_lasty s0 = f0 -> ad_change s0 = f0 -> ad_phase s0 = 0%Z ->
  let f := adsr_pure a d r in let y := (scan f s0 x).2 in
  forall t xt, x !! t = Some xt -> y !! t = Some (adsr_at a d r (ad_sus s0) x y t).
Proof.
  intros Z1 Z2 Z3 Z4 Z5 f y.
  assert (Hsus : forall t, ad_sus (state_at f s0 (take t x)) = ad_sus s0).
  { intros t. generalize (take t x) as l. intros l. generalize s0 at 1 2. induction l as [|z l IH] using rev_ind; intros s; [done|].
    rewrite state_at_snoc. apply IH. }
  assert (Hst : forall t, t <= length x ->
    let s := state_at f s0 (take t x) in
    ad_lastx s = before x t /\ ad_lasty s = before y t /\
    (ad_phase s, ad_pos s, ad_change s) =
      match t with
      | 0 => (0%Z, 0%Z, f0)
      | S t' => match last_edge x t' with
                | Some (b, u) => (if b then 1%Z else 2%Z, Z.of_nat (t - u), before y u)
                | None => (0%Z, Z.of_nat t, f0)
                end
      end).
  { intros t. induction t as [|t IH]; intros Ht; cbv zeta.
    - rewrite take_0. cbn [state_at]. rewrite Z1, Z2, Z3, Z4, Z5. done.
    - destruct (lookup_lt_is_Some_2 x t ltac:(lia)) as [xt Hxt].
      assert (Hy : y !! t = Some (f (state_at f s0 (take t x)) xt).2) by (by apply scan_lookup).
      rewrite (take_S_r _ _ _ Hxt), state_at_snoc. specialize (IH ltac:(lia)). cbv zeta in IH.
      revert IH Hy. generalize (state_at f s0 (take t x)) as s. intros s (I1 & I2 & I3) Hy.
      split; [|split].
      + unfold f, adsr_pure. cbn [fst ad_lastx before]. by rewrite Hxt.
      + unfold before. rewrite Hy. done.
      + unfold f, adsr_pure. cbv zeta. cbn [fst ad_phase ad_pos ad_change]. rewrite I1, I2.
        assert (Ho : opens x t = fgtb xt f0 && feqb (before x t) f0) by (unfold opens; by rewrite Hxt).
        assert (Hcl : closes x t = feqb xt f0 && fgtb (before x t) f0) by (unfold closes; by rewrite Hxt).
        rewrite <- Ho, <- Hcl.
        assert (E : last_edge x t = if opens x t then Some (true, t) else if closes x t then Some (false, t)
          else match t with 0 => None | S t' => last_edge x t' end) by (by destruct t). rewrite E. clear E.
        destruct (opens x t); [cbn [orb]; by replace (S t - t) with 1 by lia|].
        destruct (closes x t); [cbn [orb]; by replace (S t - t) with 1 by lia|]. cbn [orb].
        destruct t as [|t]; [by injection I3 as -> -> ->|].
        destruct (last_edge x t) as [[b u]|] eqn:Eu.
        * apply last_edge_le in Eu. injection I3 as -> -> ->. do 2 f_equal. lia.
        * injection I3 as -> -> ->. do 2 f_equal. lia. }
  intros t xt Hxt. unfold y at 1. rewrite (scan_lookup f s0 x t xt Hxt). f_equal.
  specialize (Hst t ltac:(apply lookup_lt_Some in Hxt; lia)). cbv zeta in Hst. specialize (Hsus t).
  revert Hst Hsus. generalize (state_at f s0 (take t x)) as s. intros s (I1 & I2 & I3) Hsus. unfold f, adsr_pure. cbn [snd].
  rewrite I1, I2, Hsus. unfold adsr_at.
  assert (Ho : opens x t = fgtb xt f0 && feqb (before x t) f0) by (unfold opens; by rewrite Hxt).
  assert (Hcl : closes x t = feqb xt f0 && fgtb (before x t) f0) by (unfold closes; by rewrite Hxt).
  rewrite <- Ho, <- Hcl.
  assert (E : last_edge x t = if opens x t then Some (true, t) else if closes x t then Some (false, t)
    else match t with 0 => None | S t' => last_edge x t' end) by (by destruct t). rewrite E. clear E.
  destruct (opens x t); [cbn [orb]; by rewrite Nat.sub_diag|].
  destruct (closes x t); [cbn [orb]; by rewrite Nat.sub_diag|]. cbn [orb].
  destruct t as [|t]; [by injection I3 as -> -> ->|].
  destruct (last_edge x t) as [[[] u]|]; by injection I3 as -> -> ->.
Qed.

Lemma adsr_at_rng a d r sus x y : (0 <= a)%Z -> (0 <= d)%Z -> (a + d <= 2 ^ 64)%Z -> (0 <= r <= 2 ^ 64)%Z -> rng 0 1 sus ->
  length y = length x -> (forall t, t < length x -> y !! t = Some (adsr_at a d r sus x y t)) ->
  forall t, rng 0 1 (default f0 (y !! t)).
Proof.
  intros Ha Hd Had Hr Hs Hl Hy. assert (H0 : rng 0 1 f0) by (split; [done|rewrite val_f0; lra]).
  intros t. induction (lt_wf t) as [t _ IH].
  destruct (decide (t < length x)) as [Ht|Ht]; [|by rewrite lookup_ge_None_2 by lia].
  rewrite Hy by done. cbn [from_option]. unfold Datatypes.id, adsr_at.
  assert (Hb : forall u, u <= t -> rng 0 1 (before y u)) by (intros [|u] Hu; [done|apply IH; lia]).
  destruct (last_edge x t) as [[[] u]|] eqn:E; [| |done]; apply last_edge_le in E.
  - apply held_rng; try done; [lia|auto].
  - apply released_rng; try done; [lia|auto].
Qed.

(** C36.  [y] is determined by the equation in terms of its own past, the gate and the times:
    nothing before the gate first opens, rising from 0 during the attack, the sustain level after
    attack and decay, 0 once the gate has been closed for the release time; never outside [0, 1]. *)
Theorem C36_adsr (P : platform) ev att dec sus rel ms o nd out src (bs : list sig) :
  announced ms o -> (exists o', o = src :: o') -> created P ev (CAdsr att dec sus rel) ms nd out ->
  let a := samples_of P (e_sr ev) att in let d := samples_of P (e_sr ev) dec in let r := samples_of P (e_sr ev) rel in
  (a + d <= umax (p_cfg P))%Z -> (0 <= umax (p_cfg P) <= 2 ^ 64)%Z -> in_range f0 f1 sus ->
  exists nd' outs, play P nd out (map (mono_in src) bs) = Ok (nd', outs) /\
    let x := List.concat bs in let y := lane 0 outs in
    lane 1 outs = y /\ length y = length x /\
    (forall t, t < length x -> y !! t = Some (adsr_at a d r sus x y t)) /\
    (forall t yt, y !! t = Some yt -> in_range f0 f1 yt) /\
    (forall t u, t < length x -> last_edge x t = Some (false, u) -> (r <= Z.of_nat (t - u))%Z -> y !! t = Some f0) /\
    (forall t u, t < length x -> last_edge x t = Some (true, u) -> (a + d < Z.of_nat (t - u))%Z -> y !! t = Some sus) /\
    (forall t t' u yt yt', last_edge x t = Some (true, u) -> last_edge x t' = Some (true, u) -> t <= t' ->
       (Z.of_nat (t' - u) <= a)%Z -> y !! t = Some yt -> y !! t' = Some yt' -> fleb yt yt' = true).
Proof.
  intros Hms (o' & ->) Hc a d r Had Hu Hsus. destruct (adsr_created P ev att dec sus rel ms (src :: o') nd out Hms Hc) as [-> ->].
  assert (H0 : forall t, (0 <= samples_of P (e_sr ev) t <= umax (p_cfg P))%Z).
  { intros t. unfold samples_of, as_usize. destruct (fmul _ _) as [|[]| |]; clear -Hu; lia. }
  pose proof (H0 att) as H0a. pose proof (H0 dec) as H0d. pose proof (H0 rel) as H0r. fold a in H0a. fold d in H0d. fold r in H0r.
  set (f := adsr_pure a d r). set (s0 := Adsr att dec sus rel 0 f0 f0 f0 (e_sr ev) 0 (src :: o')).
  destruct (play_scan_inv P (fun s => Simple (NAdsr s)) f
      (fun s => ad_att s = att /\ ad_dec s = dec /\ ad_rel s = rel /\ ad_sr s = e_sr ev /\ ad_ord s = src :: o')
      [(0, Datatypes.id); (1, Datatypes.id)] 2 (map (fun b => (mono_in src b, b)) bs) s0 [silent P; silent P]) as (outs & Hp & _ & _ & Hl).
  - intros s x Hs. exact Hs.
  - done.
  - intros b s o1 (b0 & -> & _)%elem_of_list_fmap (E1 & E2 & E3 & E4 & E5) (x & y & ->)%length2. cbn [fst snd gproc sproc].
    unfold adsr_proc, mono_in. rewrite E1, E2, E3, E4, E5.
    change (secs P (e_sr ev) att) with a. change (secs P (e_sr ev) dec) with d. change (secs P (e_sr ev) rel) with r.
    unfold in_ord. cbn [lookup list_lookup]. unfold in_id. cbn [map find fst]. simpl. rewrite ?Nat.eqb_refl.
    unfold mbind, res_bind, chan. cbn [lookup list_lookup]. unfold unwrap.
    rewrite (scanR_scan f) by (intros; by apply adsr_step_pure).
    destruct (scan f s b0) as [s1 ys]. exists [ys; ys]. cbn [fst snd]. split; [reflexivity|]. split; [done|].
    intros ch g Hch. rewrite !elem_of_cons in Hch. destruct Hch as [[= -> ->]|[[= -> ->]|[]%elem_of_nil]]; by rewrite list_fmap_id.
  - done.
  - rewrite !map_map in Hp, Hl. cbn [fst snd] in Hp, Hl. rewrite map_id in Hl. change (fun x : sig => mono_in src x) with (mono_in src) in Hp.
    assert (Hy0 : lane 0 outs = (scan f s0 (List.concat bs)).2).
    { rewrite (Hl 0 Datatypes.id ltac:(rewrite !elem_of_cons; auto)). apply list_fmap_id. }
    assert (Hy1 : lane 1 outs = (scan f s0 (List.concat bs)).2).
    { rewrite (Hl 1 Datatypes.id ltac:(rewrite !elem_of_cons; auto)). apply list_fmap_id. }
    do 2 eexists. split; [exact Hp|]. cbv zeta. rewrite Hy1, Hy0. split; [done|].
    set (x := List.concat bs) in *. set (y := (scan f s0 x).2) in *.
    assert (Hlen : length y = length x) by apply scan_length. split; [done|].
    assert (Hat : forall t, t < length x -> y !! t = Some (adsr_at a d r sus x y t)).
    { intros t Ht. destruct (lookup_lt_is_Some_2 x t Ht) as [xt Hxt].
      exact (adsr_scan a d r x s0 eq_refl eq_refl eq_refl eq_refl eq_refl t xt Hxt). }
    assert (Hrs : rng 0 1 sus).
    { apply in_range_rng in Hsus; [|done|done]. by rewrite val_f0, val_f1 in Hsus. }
    assert (Hrng : forall t, rng 0 1 (default f0 (y !! t))).
    { apply (adsr_at_rng a d r sus x y); try done; lia. }
    split; [done|]. split; [|split; [|split]].
    + intros t yt Hyt. specialize (Hrng t). rewrite Hyt in Hrng. apply in_range_rng; [done..|]. by rewrite val_f0, val_f1.
    + intros t u Ht Hed Hr. rewrite Hat by done. unfold adsr_at. rewrite Hed. unfold released. by rewrite decide_True.
    + intros t u Ht Hed Hr. rewrite Hat by done. unfold adsr_at. rewrite Hed. unfold held. by rewrite !decide_False by lia.
    + intros t t' u yt yt' Hed Hed' Htt Hle Hyt Hyt'.
      assert (Ht' : t' < length x) by (rewrite <- Hlen; by apply lookup_lt_Some in Hyt').
      pose proof (last_edge_le _ _ _ _ Hed) as Hut.
      pose proof (Hrng t) as R1. pose proof (Hrng t') as R2. rewrite Hyt in R1. rewrite Hyt' in R2. destruct R1 as [F1 _], R2 as [F2 _].
      apply fleb_ok; [done|done|]. rewrite Hat in Hyt by lia. rewrite Hat in Hyt' by done.
      injection Hyt as <-. injection Hyt' as <-. unfold adsr_at. rewrite Hed, Hed'.
      destruct (decide (a = 0%Z)) as [Ea|Ea].
      { unfold held. rewrite !(decide_True (P := (a = 0)%Z)) by done. rewrite !decide_True by lia. lra. }
      apply held_mono; [lia|lia|lia|]. destruct u as [|u]; [split; [done|cbn [before]; rewrite val_f0; lra]|]. apply Hrng.
Qed.

(** Half a second of attack, a quarter of decay, sustain 1/2, half a second of release, at 8 samples a second. *)
Example ex_adsr : announced [ResetOrder; IndexOrder 0 4] [4] /\ in_range f0 f1 fhalf /\
  (samples_of demo 8 fhalf + samples_of demo 8 (f_of_dec false 25 (-2)) <= umax (p_cfg demo))%Z /\
  exists nd out, created demo env8 (CAdsr fhalf (f_of_dec false 25 (-2)) fhalf fhalf) [ResetOrder; IndexOrder 0 4] nd out /\
  let q := fmul fhalf fhalf in let e := fmul q fhalf in
  match lanes_of (play demo nd out (map (mono_in 4) [fs [0; 1; 1; 1; 1]%Z; fs [1; 1; 1; 1; 0]%Z; fs [0; 0; 0; 0; 0]%Z])) with
  | Some (l, r) => (l, forallb (fun p => feqb p.1 p.2) (combine l r)) | None => ([], false) end =
    ([f0; f0; q; fhalf; fadd fhalf q; f1; fadd fhalf q; fhalf; fhalf; fhalf; fsub fhalf e; q; e; f0; f0], true).
Proof.
  split; [split; [by repeat constructor|done]|]. split; [by vm_compute|]. split; [by vm_compute|]. apply demo_created. vm_compute. reflexivity.
Qed.

(** C65.  Opening the gate again while the note still sounds does not continue from the level
    reached (adsr.rs:92 says "attack from: lasty -> 1.0"): the output jumps to 0, and the attack ends
    at 1 minus the old level. *)
Theorem C65_adsr_retrigger_refuted : exists nd out y0 y1 y5,
  created demo env8 (CAdsr fhalf f0 fhalf f1) [ResetOrder; IndexOrder 0 4] nd out /\
  match lanes_of (play demo nd out (map (mono_in 4) [fs [1; 1; 1; 1; 1; 1; 0; 1; 1; 1; 1; 1]%Z])) with
  | Some (l, _) => [l !! 6; l !! 7; l !! 11] | None => [] end = [Some y0; Some y1; Some y5] /\
  feqb y0 fhalf = true /\ feqb y1 f0 = true /\ feqb y5 fhalf = true.
Proof.
  set (h := fun (nd : gnode demo) out => match lanes_of (play demo nd out (map (mono_in 4) [fs [1; 1; 1; 1; 1; 1; 0; 1; 1; 1; 1; 1]%Z])) with
  | Some (l, _) => [l !! 6; l !! 7; l !! 11] | None => [] end).
  destruct (demo_created demo env8 (CAdsr fhalf f0 fhalf f1) [ResetOrder; IndexOrder 0 4] h [Some fhalf; Some f0; Some fhalf])
    as (nd & out & Hc & Hv); [vm_compute; reflexivity|].
  exists nd, out, fhalf, f0, fhalf. split; [exact Hc|]. split; [exact Hv|]. done.
Qed.

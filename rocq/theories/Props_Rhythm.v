(** * Props_Rhythm: when the notes of a [seq] are heard (C27, C49). *)
From Coq Require Import Reals Lra.
From Flocq Require Import Core.
From Verif Require Export Props_Seq Props_Syntax.
From Verif Require Import DoubleR Range FloatR.
From Coq Require Import Lia.
Local Open Scope nat_scope.
Local Open Scope string_scope.
Local Opaque W W1 peg_run.

(** ** What the notation promises *)

(** What a note plays; a rest plays nothing. *)
Definition sounds (n : note) : option usizeref :=
  match n with Note k => Some (Usz k) | Rest => None | RefNote s => Some (URef s) end.
(** The bar is divided evenly among the groups, a group evenly among its notes. *)
Definition even_times (gs : list (list note)) : list (R * usizeref) :=
  List.concat (imap (fun i ns => List.concat (imap (fun j n =>
    match sounds n with
    | Some u => [((INR i + INR j / INR (length ns)) / INR (length gs), u)%R]
    | None => []
    end) ns)) gs).
(** Events at the nearest f32 of given times. *)
Definition timed (evs : list (f32 * usizeref)) (l : list (R * usizeref)) : Prop :=
  Forall2 (fun e x => fin e.1 /\ fval e.1 = rnd x.1 /\ e.2 = x.2) evs l.

(** ** Times of notes *)
Lemma IZR_nat n : IZR (Z.of_nat n) = INR n.
Proof. symmetry. apply INR_IZR_INZ. Qed.
Lemma small_nat n : (Z.of_nat n <= 2 ^ 24)%Z -> fin (f_of_Z (Z.of_nat n)) /\ fval (f_of_Z (Z.of_nat n)) = INR n.
Proof. intros H. rewrite <- IZR_nat. apply f_of_Z_small. lia. Qed.
Lemma ratio01 j m : j < m -> (0 <= INR j / INR m <= 1)%R.
Proof.
  intros H. assert (0 < INR m)%R by (apply lt_0_INR; lia). assert (INR j <= INR m)%R by (apply le_INR; lia). pose proof (pos_INR j).
  split; [apply Rmult_le_pos; [lra|left; now apply Rinv_0_lt_compat]|]. apply Rmult_le_reg_r with (INR m); [lra|].
  replace (INR j / INR m * INR m)%R with (INR j) by (field; lra). lra.
Qed.
Lemma ratio_time j m : j < m -> (Z.of_nat m <= 2 ^ 24)%Z ->
  fin (fdiv (f_of_Z (Z.of_nat j)) (f_of_Z (Z.of_nat m))) /\
  fval (fdiv (f_of_Z (Z.of_nat j)) (f_of_Z (Z.of_nat m))) = rnd (INR j / INR m).
Proof.
  intros H Hm. destruct (small_nat j ltac:(lia)) as [F1 V1]. destruct (small_nat m Hm) as [F2 V2].
  pose proof (ratio01 j m H) as Hr.
  assert (Hb : (0 <= rnd (INR j / INR m) <= 1)%R) by (rewrite <- rnd_0, <- rnd_1; split; apply rnd_le; lra).
  rewrite <- V1, <- V2. rewrite <- V1, <- V2 in Hb. apply fdiv_ok; [done|done| |].
  - rewrite V2. apply not_0_INR. lia.
  - pose proof big_16777216. apply Rabs_def1; lra.
Qed.
Lemma note_time i j m : j < m -> (Z.of_nat m <= 2 ^ 24)%Z -> (Z.of_nat i < 2 ^ 24)%Z ->
  let time := fadd (fdiv (f_of_Z (Z.of_nat j)) (f_of_Z (Z.of_nat m))) (f_of_Z (Z.of_nat i)) in
  fin time /\ fval time = rnd (rnd (INR j / INR m) + INR i) /\ (INR i <= fval time)%R.
Proof.
  intros H Hm Hi. cbv zeta. destruct (ratio_time j m H Hm) as [F1 V1]. destruct (small_nat i ltac:(lia)) as [F2 V2].
  pose proof (ratio01 j m H) as Hr.
  assert (Hb : (0 <= rnd (INR j / INR m) <= 1)%R) by (rewrite <- rnd_0, <- rnd_1; split; apply rnd_le; lra).
  assert (Hs : (INR i <= rnd (rnd (INR j / INR m) + INR i) <= INR (S i))%R).
  { assert (Hf : forall k, (Z.of_nat k <= 2 ^ 24)%Z -> fmt (INR k)) by (intros k Hk; rewrite <- IZR_nat; apply fmt_Z; lia).
    apply rnd_between; [apply Hf; lia|apply Hf; lia|]. rewrite S_INR. lra. }
  destruct (fadd_ok _ _ F1 F2) as [F3 V3].
  - rewrite V1, V2. pose proof big_16777216. assert (INR (S i) <= 16777216)%R by (rewrite <- IZR_nat; apply IZR_le; lia).
    pose proof (pos_INR i). apply Rabs_def1; lra.
  - rewrite V1, V2 in V3. split; [done|]. split; [done|]. rewrite V3. lra.
Qed.
Lemma rnd_rnd r : rnd (rnd r) = rnd r.
Proof. apply rnd_fmt, fmt_rnd. Qed.

Lemma Forall2_concat_imap {A B C} (R : B -> C -> Prop) (f : nat -> A -> list B) (g : nat -> A -> list C) l :
  (forall i x, l !! i = Some x -> Forall2 R (f i x) (g i x)) -> Forall2 R (List.concat (imap f l)) (List.concat (imap g l)).
Proof.
  revert f g. induction l as [|x l IH]; intros f g H; [constructor|]. rewrite !imap_cons. cbn [List.concat].
  apply Forall2_app; [by apply H|]. apply IH. intros i y Hy. by apply (H (S i)).
Qed.
Lemma one_group_timed ns : (Z.of_nat (length ns) <= 2 ^ 24)%Z -> timed (seq_events [ns]) (even_times [ns]).
Proof.
  intros Hm. unfold timed, seq_events, even_times, group_events. apply Forall2_concat_imap.
  intros i x Hi. apply list_lookup_singleton_Some in Hi as [Ei Ex]. subst i x. apply Forall2_concat_imap. intros j n Hj.
  assert (Hl : j < length ns) by (by eapply lookup_lt_Some).
  destruct (note_time 0 j (length ns) Hl Hm ltac:(lia)) as (F & V & _).
  unfold note_event. cbn [length].
  assert (E : fval (fadd (fdiv (f_of_Z (Z.of_nat j)) (f_of_Z (Z.of_nat (length ns)))) (f_of_Z (Z.of_nat 0))) =
    rnd ((INR 0 + INR j / INR (length ns)) / INR 1)).
  { rewrite V. simpl INR. rewrite Rplus_0_r, rnd_rnd. f_equal. lra. }
  destruct n as [k| |s]; cbn [sounds]; [constructor; [by split_and!|constructor]|constructor|constructor; [by split_and!|constructor]].
Qed.

(** ** C49: one group *)

(** Every pattern of a single group of up to 2^24 notes: the notes come at the nearest f32 of
    their even share of the bar. *)
Theorem C49_one_group_partial c math w ns g : group_word c w ns -> space g -> (Z.of_nat (length ns) <= 2 ^ 24)%Z ->
  exists ast evs, get_ast c math ("o: seq" ++ g ++ w) = Done ast /\ ast !! "o" = Some [CSeq evs] /\
    timed evs (even_times [ns]).
Proof.
  intros Hw Hg Hm.
  destruct (C60_spellings_partial c math "seq" [w] (CSeq (seq_events [ns])) (g ++ w) "" " ") as (ast & E & L); [..|done|done|].
  - apply (sp_seq c math [(w, ns)]); [done|]. constructor; [done|constructor].
  - assert (Ha : args [w] (g ++ w ++ "")) by (constructor; [done|constructor]). by rewrite sapp_nil_r in Ha.
  - exists ast, (seq_events [ns]). split; [done|]. split; [done|]. by apply one_group_timed.
Qed.
(** The pattern 60_~b_ : four notes, two of them rests. *)
Example C49_case : exists ast evs, get_ast c64 no_math "o: seq 60_~b_" = Done ast /\ ast !! "o" = Some [CSeq evs] /\
  timed evs [(0, Usz 60); (2 / 4, URef "~b")]%R.
Proof.
  destruct (C49_one_group_partial c64 no_math "60_~b_" [Note 60; Rest; RefNote "~b"; Rest] " ") as (ast & evs & E & L & T); [|done|simpl; lia|].
  - apply (gw_more c64 "60" (Note 60) "_~b_"); [apply nw_note; exists "", "60"; split_and!; try done; seth| |].
    + apply (gw_more c64 "_" Rest "~b_"); [constructor| |done].
      apply (gw_more c64 "~b" (RefNote "~b") "_"); [by constructor| |done]. constructor. constructor.
    + by intros k ch s1 _ [= <- _].
  - exists ast, evs. split; [done|]. split; [done|].
    replace [(0%R, Usz 60); ((2 / 4)%R, URef "~b")] with (even_times [[Note 60; Rest; RefNote "~b"; Rest]]); [done|].
    unfold even_times. simpl. f_equal; [f_equal; lra|]. f_equal. f_equal. lra.
Qed.
(** With more than one group the division fails: the second of two groups starts a whole bar
    late. *)
Lemma half_fmt : rnd (1 / 2) = (1 / 2)%R.
Proof. apply rnd_fmt. replace (1 / 2)%R with (bpow radix2 (-1)) by (simpl; lra). apply generic_format_bpow. unfold FLT_exp. lia. Qed.
Theorem C49_groups_refuted : exists w1 w2 ns1 ns2 g ast evs, group_word c64 w1 ns1 /\ group_word c64 w2 ns2 /\ space g /\
  get_ast c64 no_math ("o: seq" ++ g ++ w1 ++ g ++ w2) = Done ast /\ ast !! "o" = Some [CSeq evs] /\
  ~ timed evs (even_times [ns1; ns2]) /\ evs = [(f_of_Z 0, Usz 60); (f_of_Z 1, Usz 72)].
Proof.
  assert (G1 : group_word c64 "60" [Note 60]) by apply group_60.
  assert (G2 : group_word c64 "72" [Note 72]) by (apply gw_one, nw_note; exists "", "72"; split_and!; try done; seth).
  destruct (C60_spellings_partial c64 no_math "seq" ["60"; "72"] (CSeq (seq_events [[Note 60]; [Note 72]])) " 60 72" "" " ") as (ast & E & L); [..|done|done|].
  - apply (sp_seq c64 no_math [("60", [Note 60]); ("72", [Note 72])]); [done|]. constructor; [done|]. constructor; [done|constructor].
  - change (args ["60"; "72"] (" " ++ "60" ++ " " ++ "72" ++ "")). constructor; [done|]. constructor; [done|constructor].
  - exists "60", "72", [Note 60], [Note 72], " ", ast. eexists. split; [done|]. split; [done|]. split; [done|]. split; [exact E|].
    split; [exact L|]. split; [|vm_compute; reflexivity].
    intros H. apply Forall2_cons in H as [_ H]. apply Forall2_cons in H as [(_ & H & _) _]. cbn [fst] in H.
    replace (fval _) with (fval (f_of_Z 1)) in H by (f_equal; vm_compute; reflexivity).
    destruct (f_of_Z_small 1 ltac:(lia)) as [_ V]. rewrite V in H. simpl INR in H.
    replace ((1 + 0 / 1) / (1 + 1))%R with (1 / 2)%R in H by lra. rewrite half_fmt in H. lra.
Qed.

(** ** C27: only the first group is heard *)
Lemma bar_valid bpm sr sp : dvalid (bar_of bpm sr sp).
Proof. unfold bar_of. apply ddiv_valid; [apply dmul_valid; [apply ddiv_valid|]|]; apply d_of_Z_valid || apply d_of_f_valid. Qed.
Lemma late_event (P : platform) bar x t : (0 <= umax (p_cfg P))%Z -> dvalid bar -> as_usize (p_cfg P) bar <> 0%Z ->
  fin x -> (1 <= fval x)%R -> event_pos P bar x <> (Z.of_nat t mod as_usize (p_cfg P) bar)%Z.
Proof.
  intros Hu Hv H0 Hx H1. destruct (d_of_f_ok x Hx) as [F V].
  pose proof (scaled_up (p_cfg P) (d_of_f x) bar Hu F ltac:(lra) Hv H0) as Hle.
  pose proof (as_usize_bounds (p_cfg P) bar Hu). pose proof (Z.mod_pos_bound (Z.of_nat t) (as_usize (p_cfg P) bar) ltac:(lia)).
  unfold event_pos. lia.
Qed.
Lemma seq_events_cons ns gs : exists late, seq_events (ns :: gs) = (seq_events [ns] ++ late)%list /\
  ((Z.of_nat (length gs) < 2 ^ 24)%Z -> Forall (fun ns => (Z.of_nat (length ns) <= 2 ^ 24)%Z) gs ->
   Forall (fun e => fin e.1 /\ (1 <= fval e.1)%R) late).
Proof.
  exists (List.concat (imap (group_events ∘ S) gs)). split.
  - unfold seq_events. rewrite !imap_cons. cbn [List.concat imap]. by rewrite app_nil_r.
  - intros Hn Hm. apply List.Forall_concat, Forall_lookup. intros i x Hx. apply list_lookup_imap_Some in Hx as (ms & Hms & ->).
    cbn [compose]. unfold group_events. apply List.Forall_concat, Forall_lookup. intros j y Hy.
    apply list_lookup_imap_Some in Hy as (n & Hn' & ->).
    assert (Hi : i < length gs) by (by eapply lookup_lt_Some). assert (Hj : j < length ms) by (by eapply lookup_lt_Some).
    rewrite Forall_lookup in Hm. pose proof (Hm i ms Hms) as Hl.
    destruct (note_time (S i) j (length ms) Hj Hl ltac:(lia)) as (F & _ & V).
    assert (1 <= INR (S i))%R by (apply (le_INR 1); lia).
    set (time := fadd _ _) in *. assert (1 <= fval time)%R by lra.
    unfold note_event. fold time. destruct n; [by apply Forall_singleton|constructor|by apply Forall_singleton].
Qed.
(** Whatever comes after the first group makes no difference, at any time. *)
Theorem C27_later_groups_silent (P : platform) ev ns gs ms o nd out ms' o' nd' out' k :
  (0 <= umax (p_cfg P))%Z -> as_usize (p_cfg P) (bar_of (e_bpm ev) (e_sr ev) f1) <> 0%Z ->
  (Z.of_nat (length gs) < 2 ^ 24)%Z -> Forall (fun ns => (Z.of_nat (length ns) <= 2 ^ 24)%Z) gs ->
  announced ms o -> created P ev (CSeq (seq_events (ns :: gs))) ms nd out ->
  announced ms' o' -> created P ev (CSeq (seq_events [ns])) ms' nd' out' ->
  exists n1 outs n2 outs', play P nd out (replicate k []) = Ok (n1, outs) /\ play P nd' out' (replicate k []) = Ok (n2, outs') /\
    lane 0 outs = lane 0 outs'.
Proof.
  intros Hu Hb Hn Hm A1 C1 A2 C2.
  destruct (C27_seq_partial P ev _ ms o nd out k A1 C1 Hb) as (n1 & outs & P1 & L1).
  destruct (C27_seq_partial P ev _ ms' o' nd' out' k A2 C2 Hb) as (n2 & outs' & P2 & L2).
  exists n1, outs, n2, outs'. split; [done|]. split; [done|]. rewrite L1, L2. apply map_ext. intros t.
  destruct (seq_events_cons ns gs) as (late & -> & Hlate). specialize (Hlate Hn Hm).
  unfold seq_value, event_at. rewrite filter_app.
  assert (filter (fun e : f32 * usizeref => event_pos P (bar_of (e_bpm ev) (e_sr ev) f1) e.1 =
    (Z.of_nat t mod as_usize (p_cfg P) (bar_of (e_bpm ev) (e_sr ev) f1))%Z) late = []) as ->; [|by rewrite app_nil_r].
  induction Hlate as [|e late [F V] _ IH]; [done|]. rewrite filter_cons_False; [done|].
  apply late_event; try done. apply bar_valid.
Qed.
Lemma sample_at {A} (f : nat -> A) n t v : map f (seq 0 n) !! t = Some v -> v = f t.
Proof.
  rewrite list_lookup_fmap. destruct (seq 0 n !! t) eqn:E; [|done]. apply lookup_seq in E as [-> _]. by intros [= <-].
Qed.
(** The second group of "seq 60 72" should start half way through the bar of 88200 samples;
    there is silence. *)
Theorem C27_groups_refuted : exists evs nd out t,
  created demo demo_env (CSeq evs) [] nd out /\ evs = seq_events [[Note 60]; [Note 72]] /\ Z.of_nat t = 44100%Z /\
  forall k, exists nd' outs, play demo nd out (replicate k []) = Ok (nd', outs) /\
    forall v, lane 0 outs !! t = Some v -> v = f0 /\ v <> pitch demo (f_of_Z 72).
Proof.
  set (evs := seq_events [[Note 60]; [Note 72]]).
  destruct (demo_run_created demo demo_env (CSeq evs) [] [] [] ltac:(vm_compute; reflexivity)) as (nd & out & nd1 & Hc & _).
  assert (Ht : Z.of_nat (Z.to_nat 44100) = 44100%Z) by (by rewrite Z2Nat.id). generalize dependent (Z.to_nat 44100). intros t Ht.
  exists evs, nd, out, t. split; [done|]. split; [done|]. split; [done|]. intros k.
  destruct (C27_seq_partial demo demo_env evs [] [] nd out k) as (nd' & outs & Hp & Hl); [by split; [constructor|]|done|by vm_compute|].
  exists nd', outs. split; [done|]. rewrite Hl. intros v Hv. apply sample_at in Hv. rewrite Hv. clear Hv v.
  unfold seq_value, event_at. cbn [Nat.add]. rewrite Ht.
  replace (last _) with (@None (f32 * usizeref)) by (vm_compute; reflexivity). split; [done|by vm_compute].
Qed.

(** ** C27: positions within the bar *)
Section positions.
  Local Open Scope R_scope.
  Lemma drnd_err r : 0 <= r <= bpow radix2 22 -> Rabs (drnd r - r) <= / 8.
  Proof.
    intros H. unfold drnd. eapply Rle_trans; [apply error_le_half_ulp; auto with typeclass_instances|].
    apply Rle_trans with (/ 2 * bpow radix2 (-3)); [|simpl; lra]. apply Rmult_le_compat_l; [lra|].
    destruct (Req_dec r 0) as [->|Hn].
    - rewrite ulp_FLT_0 by easy. apply bpow_le. lia.
    - rewrite ulp_neq_0 by exact Hn. apply bpow_le. unfold cexp.
      assert (Hmag : (mag radix2 r <= 23)%Z).
      { apply mag_le_bpow; [exact Hn|]. rewrite Rabs_pos_eq by lra. apply Rle_lt_trans with (1 := proj2 H). now apply bpow_lt. }
      unfold FLT_exp. lia.
  Qed.
  (** A note is heard at most one sample away from its even share of a bar of up to 2^22
      samples. *)
  Lemma near_ideal c j m bar : (j < m)%nat -> (Z.of_nat m <= 2 ^ 24)%Z -> (2 ^ 23 <= umax c)%Z ->
    dfin bar -> 1 <= dval bar <= IZR (2 ^ 22) ->
    let ideal := Zfloor (INR j / INR m * dval bar) in
    (ideal - 1 <= as_usize c (dmul (d_of_f (fadd (fdiv (f_of_Z (Z.of_nat j)) (f_of_Z (Z.of_nat m))) (f_of_Z (Z.of_nat 0)))) bar) <= ideal + 1)%Z.
  Proof.
    intros Hj Hm Hu Fb Hb ideal. destruct (note_time 0 j m Hj Hm ltac:(lia)) as (F & V & _).
    set (time := fadd _ _) in *. simpl INR in V. rewrite Rplus_0_r, rnd_rnd in V.
    destruct (d_of_f_ok time F) as [F1 V1]. pose proof (ratio01 j m Hj) as Hr. set (r := INR j / INR m) in *.
    pose proof (rnd_err01 r Hr) as He. rewrite <- V in He. apply Rabs_le_inv in He.
    assert (Ht : 0 <= fval time <= 1) by (rewrite V, <- rnd_0, <- rnd_1; split; apply rnd_le; lra).
    change (IZR (2 ^ 22)) with 4194304 in Hb.
    assert (H24 : bpow radix2 (-24) = / 16777216) by reflexivity. rewrite H24 in He.
    assert (Hp : Rabs (fval time * dval bar - r * dval bar) <= / 8).
    { rewrite <- Rmult_minus_distr_r. apply Rabs_le. nra. }
    assert (Hpb : 0 <= dval (d_of_f time) * dval bar <= bpow radix2 22).
    { rewrite V1. change (bpow radix2 22) with 4194304. nra. }
    pose proof (drnd_err _ Hpb) as Hd.
    destruct (dmul_pos (d_of_f time) bar F1 Fb ltac:(lra) ltac:(lra)) as [[F2 V2]|[_ Hbig]].
    2:{ exfalso. revert Hbig. apply Rlt_not_le. apply Rabs_le_inv in Hd. apply Rlt_trans with (bpow radix2 24); [|now apply bpow_lt].
        apply Rle_lt_trans with (bpow radix2 22 + 1); [lra|]. simpl. lra. }
    assert (H0 : 0 <= dval (dmul (d_of_f time) bar)).
    { rewrite V2. replace 0 with (drnd 0) by (apply round_0; auto with typeclass_instances). apply round_le; auto with typeclass_instances. lra. }
    rewrite as_usize_d by (done || lia). rewrite <- V2 in Hd. rewrite V1 in Hd. set (p := dval (dmul _ _)) in *.
    apply Rabs_le_inv in Hp. apply Rabs_le_inv in Hd.
    assert (Hi : IZR ideal <= r * dval bar < IZR ideal + 1) by (split; [apply Zfloor_lb|apply Zfloor_ub]).
    assert (Hf : IZR (Zfloor p) <= p < IZR (Zfloor p) + 1) by (split; [apply Zfloor_lb|apply Zfloor_ub]).
    assert (A1 : IZR (ideal - 1) < IZR (Zfloor p + 1)) by (rewrite minus_IZR, plus_IZR; lra).
    assert (A2 : IZR (Zfloor p) < IZR (ideal + 2)) by (rewrite plus_IZR; lra).
    apply lt_IZR in A1, A2.
    assert (A3 : (Zfloor p < umax c)%Z).
    { apply lt_IZR. apply Rlt_le_trans with (IZR (2 ^ 23)); [|now apply IZR_le]. apply Rle_lt_trans with p; [lra|].
      change (IZR (2 ^ 23)) with 8388608. rewrite V1 in Hpb. change (bpow radix2 22) with 4194304 in Hpb. lra. }
    lia.
  Qed.
End positions.

Lemma last_concat_imap {A B} (f : nat -> A -> list B) (Q : B -> Prop) `{!forall b, Decision (Q b)} l :
  (forall i x, l !! i = Some x -> length (f i x) <= 1) ->
  match last (filter Q (List.concat (imap f l))) with
  | Some b => exists i x, l !! i = Some x /\ f i x = [b] /\ Q b /\
      (forall i' x' b', i < i' -> l !! i' = Some x' -> f i' x' = [b'] -> ~ Q b')
  | None => forall i x b, l !! i = Some x -> f i x = [b] -> ~ Q b
  end.
Proof.
  revert f. induction l as [|x l IH]; intros f Hf; [by intros ????|]. rewrite imap_cons. cbn [List.concat].
  rewrite filter_app, last_app. specialize (IH (f ∘ S) ltac:(intros i y Hy; by apply (Hf (S i)))).
  destruct (last (filter Q (List.concat (imap (f ∘ S) l)))) as [b|].
  - destruct IH as (i & y & H1 & H2 & H3 & H4). exists (S i), y. split_and!; try done.
    intros [|i'] x' b' Hi Hx Hb; [lia|]. apply (H4 i' x' b'); [lia|done|done].
  - pose proof (Hf 0 x eq_refl) as H0. destruct (f 0 x) as [|b [|]] eqn:E; [| |simpl in H0; lia].
    + intros [|i] y b Hy Hb; [|by apply (IH i y b)]. injection Hy as <-. by rewrite E in Hb.
    + rewrite filter_cons, filter_nil. destruct (decide (Q b)) as [HQ|HQ].
      * cbn [last]. exists 0, x. split_and!; try done. intros [|i'] x' b' Hi Hx Hb; [lia|]. by apply (IH i' x' b').
      * cbn [last]. intros [|i] y b' Hy Hb; [|by apply (IH i y b')]. injection Hy as <-. rewrite E in Hb. by injection Hb as <-.
Qed.

(** Bars of up to 2^22 samples (95 s at 44.1 kHz), groups of up to 2^24 notes, any block size,
    any time: there is a position for each note, at most one sample away from its even share
    of the bar, and sample [t] is the last note at this position of the bar, or silence. *)
Theorem C27_one_group_partial (P : platform) ev ns ms o nd out k :
  let bar := bar_of (e_bpm ev) (e_sr ev) f1 in let m := length ns in
  (2 ^ 23 <= umax (p_cfg P))%Z -> dfin bar -> (1 <= dval bar <= IZR (2 ^ 22))%R -> (Z.of_nat m <= 2 ^ 24)%Z ->
  announced ms o -> created P ev (CSeq (seq_events [ns])) ms nd out ->
  exists (pos : nat -> Z) nd' outs,
    (forall j, j < m -> (Zfloor (INR j / INR m * dval bar) - 1 <= pos j <= Zfloor (INR j / INR m * dval bar) + 1)%Z) /\
    play P nd out (replicate k []) = Ok (nd', outs) /\ length (lane 0 outs) = k * p_blk P /\
    forall t v, lane 0 outs !! t = Some v ->
      let here j := exists n u, ns !! j = Some n /\ sounds n = Some u /\ pos j = (Z.of_nat t mod Zfloor (dval bar))%Z in
      (v = f0 /\ forall j, ~ here j) \/
      exists j n u, here j /\ (forall j', j < j' -> ~ here j') /\ ns !! j = Some n /\ sounds n = Some u /\
        v = match u with Usz z => pitch P (f_of_Z z) | URef _ => pitch P f0 end.
Proof.
  intros bar m Hu Fb Hb Hm Ha Hc.
  assert (HB : as_usize (p_cfg P) bar = Zfloor (dval bar)).
  { rewrite as_usize_d by (done || lia || lra). assert (Zfloor (dval bar) <= 2 ^ 22)%Z; [|lia].
    apply le_IZR. apply Rle_trans with (dval bar); [apply Zfloor_lb|lra]. }
  assert (H1 : (1 <= Zfloor (dval bar))%Z) by (apply Zfloor_lub; lra).
  destruct (C27_seq_partial P ev _ ms o nd out k Ha Hc) as (nd' & outs & Hp & Hl); [fold bar; lia|]. fold bar in Hl.
  exists (fun j => event_pos P bar (fadd (fdiv (f_of_Z (Z.of_nat j)) (f_of_Z (Z.of_nat m))) (f_of_Z (Z.of_nat 0)))), nd', outs.
  split; [intros j Hj; by apply near_ideal|]. split; [done|]. split; [by rewrite Hl, map_length, seq_length|].
  intros t v Hv here. rewrite Hl in Hv. apply sample_at in Hv. rewrite Hv. clear Hv v. cbn [Nat.add]. unfold seq_value, event_at.
  pose proof (last_concat_imap (note_event m 0) (fun e => event_pos P bar e.1 = (Z.of_nat t mod as_usize (p_cfg P) bar)%Z) ns) as HL.
  assert (Hs : seq_events [ns] = List.concat (imap (note_event m 0) ns)).
  { unfold seq_events. cbn [imap List.concat]. by rewrite app_nil_r. }
  rewrite Hs. rewrite HB in *.
  assert (Hone : forall i x, ns !! i = Some x -> length (note_event m 0 i x) <= 1) by (intros i [] _; simpl; lia).
  specialize (HL Hone). clear Hone.
  assert (Hev : forall j n u, sounds n = Some u ->
    note_event m 0 j n = [(fadd (fdiv (f_of_Z (Z.of_nat j)) (f_of_Z (Z.of_nat m))) (f_of_Z (Z.of_nat 0)), u)]).
  { intros j [z| |s] u; cbn [sounds note_event]; intros [= <-]; done. }
  assert (Hev' : forall j n b, note_event m 0 j n = [b] -> exists u, sounds n = Some u /\
    b = (fadd (fdiv (f_of_Z (Z.of_nat j)) (f_of_Z (Z.of_nat m))) (f_of_Z (Z.of_nat 0)), u)).
  { intros j [z| |s] b; cbn [sounds note_event]; intros [= <-]; by eexists. }
  destruct (last _) as [b|].
  - destruct HL as (j & n & Hn & Hb' & HQ & Hlater). destruct (Hev' _ _ _ Hb') as (u & Hu' & ->). right.
    exists j, n, u. split; [by exists n, u|]. split.
    + intros j' Hj' (n' & u' & A1 & A2 & A3). by apply (Hlater j' n' _ Hj' A1 (Hev j' n' u' A2)).
    + split; [done|]. split; [done|]. by destruct u.
  - left. split; [done|]. intros j (n & u & A1 & A2 & A3). by apply (HL j n _ A1 (Hev j n u A2)).
Qed.
Lemma demo_bar : dfin (bar_of (e_bpm demo_env) (e_sr demo_env) f1) /\ dval (bar_of (e_bpm demo_env) (e_sr demo_env) f1) = 88200%R.
Proof.
  replace (bar_of (e_bpm demo_env) (e_sr demo_env) f1) with (d_of_Z 88200) by (vm_compute; reflexivity).
  by apply d_of_Z_ok.
Qed.
Example C27_case : exists nd out, created demo demo_env (CSeq (seq_events [[Note 60; Rest; Note 72]])) [] nd out /\ announced [] [] /\
  dfin (bar_of (e_bpm demo_env) (e_sr demo_env) f1) /\ (1 <= dval (bar_of (e_bpm demo_env) (e_sr demo_env) f1) <= IZR (2 ^ 22))%R.
Proof.
  destruct (demo_run_created demo demo_env (CSeq (seq_events [[Note 60; Rest; Note 72]])) [] [] [] ltac:(vm_compute; reflexivity)) as (nd & out & nd1 & Hc & _).
  exists nd, out. split; [done|]. split; [by split; [constructor|]|]. destruct demo_bar as [F V]. split; [done|]. rewrite V.
  change (IZR (2 ^ 22)) with 4194304%R. lra.
Qed.
(** The claimed positions are not always met exactly: note 7 of 10 is heard at sample 61739
    of the bar of 88200 samples, not at 61740. *)
Theorem C27_exact_position_refuted : exists nd out t1 t2, Z.of_nat t1 = 61740%Z /\ Z.of_nat t2 = 61739%Z /\
  created demo demo_env (CSeq (seq_events [replicate 7 Rest ++ [Note 72] ++ replicate 2 Rest]%list)) [] nd out /\
  Zfloor (INR 7 / INR 10 * dval (bar_of (e_bpm demo_env) (e_sr demo_env) f1)) = 61740%Z /\
  forall k, exists nd' outs, play demo nd out (replicate k []) = Ok (nd', outs) /\
    (forall v, lane 0 outs !! t1 = Some v -> v = f0) /\
    (forall v, lane 0 outs !! t2 = Some v -> v = pitch demo (f_of_Z 72) /\ v <> f0).
Proof.
  set (evs := seq_events _).
  destruct (demo_run_created demo demo_env (CSeq evs) [] [] [] ltac:(vm_compute; reflexivity)) as (nd & out & nd1 & Hc & _).
  assert (H1 : Z.of_nat (Z.to_nat 61740) = 61740%Z) by (by rewrite Z2Nat.id). generalize dependent (Z.to_nat 61740). intros t1 H1.
  assert (H2 : Z.of_nat (Z.to_nat 61739) = 61739%Z) by (by rewrite Z2Nat.id). generalize dependent (Z.to_nat 61739). intros t2 H2.
  exists nd, out, t1, t2. split; [done|]. split; [done|]. split; [done|]. split.
  { destruct demo_bar as [_ ->]. replace (INR 7 / INR 10 * 88200)%R with (IZR 61740) by (simpl; lra). apply Zfloor_IZR. }
  intros k.
  destruct (C27_seq_partial demo demo_env evs [] [] nd out k) as (nd' & outs & Hp & Hl); [by split; [constructor|]|done|by vm_compute|].
  exists nd', outs. split; [done|]. rewrite Hl. split; intros v Hv; apply sample_at in Hv; rewrite Hv; clear Hv v.
  - unfold seq_value, event_at. cbn [Nat.add]. rewrite H1.
    by replace (last _) with (@None (f32 * usizeref)) by (vm_compute; reflexivity).
  - unfold seq_value, event_at. cbn [Nat.add]. rewrite H2.
    replace (last _) with (Some (fdiv (f_of_Z 7) (f_of_Z 10), Usz 72)) by (vm_compute; reflexivity). split; [done|by vm_compute].
Qed.

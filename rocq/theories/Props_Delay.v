(** * Props_Delay: delays and all-pass filters (C22, C23, C24, C43). *)
From Verif Require Export Demo.
From Coq Require Import Lia.
Local Open Scope nat_scope.

(** ** Specification *)

(** [x] delayed by [d] samples: silence first, then [x]; as long as [x]. *)
Definition delayed (d : nat) (x : sig) : sig := take (length x) (replicate d f0 ++ x).
(** The value [d] samples before time [t]. *)
Definition ago (d t : nat) (x : sig) : f32 := if decide (t < d) then f0 else default f0 (x !! (t - d)).

Lemma delayed_spec d x t : t < length x -> delayed d x !! t = Some (ago d t x).
Proof.
  intros Ht. unfold delayed, ago. rewrite lookup_take by done. case_decide as Hd.
  - rewrite lookup_app_l by (rewrite replicate_length; lia). by apply lookup_replicate_2.
  - rewrite lookup_app_r by (rewrite replicate_length; lia). rewrite replicate_length.
    destruct (lookup_lt_is_Some_2 x (t - d)) as [v Hv]; [lia|]. by rewrite Hv.
Qed.
Lemma delayed_0 x : delayed 0 x = x.
Proof. unfold delayed. simpl. apply take_ge. done. Qed.

Global Arguments ring_push : simpl never.
(** ** The ring buffer is a queue *)

Definition ring_ok (r : ring) : Prop := r_first r < length (r_data r).
Definition ring_q (r : ring) : sig := drop (r_first r) (r_data r) ++ take (r_first r) (r_data r).

Lemma ring_push_q r x y q : ring_ok r -> ring_q r = y :: q ->
  ring_ok (ring_push r x).1 /\ ring_q (ring_push r x).1 = q ++ [x] /\ (ring_push r x).2 = y.
Proof.
  destruct r as [l i]. unfold ring_ok, ring_q, ring_push, ring_len.
  cbn [r_data r_first fst snd]. intros Hi Hq.
  assert (Hli : l !! i = Some y).
  { destruct (l !! i) as [z|] eqn:E; [|apply lookup_ge_None in E; lia].
    rewrite (drop_S l z i E) in Hq. simpl in Hq. congruence. }
  rewrite (drop_S l y i Hli) in Hq. rewrite <- app_comm_cons in Hq. injection Hq as Hq.
  rewrite <- Hq, Hli. cbn [default from_option id].
  destruct (Nat.eqb_spec (S i) (length l)) as [Hl|Hl]; rewrite insert_length.
  - split; [lia|]. split; [|done].
    rewrite drop_0, take_0, app_nil_r. rewrite (drop_ge l (S i)) by lia. simpl.
    rewrite (insert_take_drop l i x) by lia. by rewrite (drop_ge l (S i)) by lia.
  - split; [lia|]. split; [|done].
    rewrite drop_insert_gt by lia. rewrite (insert_take_drop l i x) by lia.
    rewrite cons_middle, app_assoc, take_app_alt; [by rewrite <- app_assoc|].
    rewrite app_length, take_length. simpl. lia.
Qed.
Lemma ring_get_q r y q : ring_ok r -> ring_q r = y :: q -> ring_get r 0 = y.
Proof.
  destruct r as [l i]. unfold ring_ok, ring_q, ring_get, ring_len. cbn [r_data r_first]. intros Hi Hq.
  rewrite Z.add_0_r, Z.mod_small by lia. rewrite Nat2Z.id.
  destruct (l !! i) as [z|] eqn:E; [|apply lookup_ge_None in E; lia].
  rewrite (drop_S l z i E) in Hq. rewrite <- app_comm_cons in Hq. by injection Hq as ->.
Qed.
Lemma ring_push_len r x : ring_len (ring_push r x).1 = ring_len r.
Proof. unfold ring_len, ring_push; simpl. by rewrite insert_length. Qed.
Lemma ring_from_q l r : ring_from l = Ok r -> ring_ok r /\ ring_q r = l /\ 0 < length l.
Proof.
  unfold ring_from. destruct l as [|x l]; [done|]. intros [= <-]. unfold ring_ok, ring_q; simpl.
  rewrite app_nil_r. split; [lia|]. split; [done|lia].
Qed.

(** Pushing a stream through a ring gives its content, then the stream. *)
Lemma scan_ring r xs : ring_ok r ->
  ring_ok (scan ring_push r xs).1 /\
  ring_q (scan ring_push r xs).1 = drop (length xs) (ring_q r ++ xs) /\
  (scan ring_push r xs).2 = take (length xs) (ring_q r ++ xs).
Proof.
  revert r. induction xs as [|x xs IH]; intros r Hr.
  - simpl. by rewrite app_nil_r.
  - rewrite scan_cons. cbn [length fst snd]. destruct (ring_q r) as [|y q] eqn:Eq.
    { exfalso. assert (length (ring_q r) = 0) as H by by rewrite Eq. unfold ring_q in H.
      rewrite app_length, drop_length, take_length in H. unfold ring_ok in Hr. lia. }
    destruct (ring_push_q r x y q Hr Eq) as (Hr' & Hq' & Hy).
    destruct (IH _ Hr') as (H1 & H2 & H3).
    rewrite Hq', <- app_assoc in H2, H3. cbn [app] in H2, H3.
    split_and!; [done|exact H2|by rewrite H3, Hy].
Qed.

(** ** delayn *)

Lemma delayn_wired (P : platform) s ms : Forall conn_msg ms ->
  exists o, foldM (gmsg P) (Simple (NDelayN s)) ms = Ok (Simple (NDelayN (DelayN (dn_buf s) (dn_n s) o))).
Proof.
  intros Hms. revert s. induction Hms as [|m ms Hm Hms IH]; intros s; simpl.
  - exists (dn_ord s). by destruct s.
  - pose proof (ord_msg_ok (dn_ord s) m Hm) as Hok.
    unfold delayn_msg. destruct m as [| | | |pos i|]; try done; destruct (ord_msg (dn_ord s) _) as [o|]; try done; simpl;
      destruct (IH (DelayN (dn_buf s) (dn_n s) o)) as [o' Ho]; exists o'; exact Ho.
Qed.
Lemma delayn_created (P : platform) ev n ms nd out : Forall conn_msg ms ->
  created P ev (CDelayn (Usz n)) ms nd out ->
  exists r o, nd = Simple (NDelayN (DelayN r n o)) /\ out = [silent P; silent P] /\
    ring_ok r /\ ring_q r = zeros (if (n =? 0)%Z then 1 else n).
Proof.
  intros Hms (n0 & refs & Hmk & Hfold). unfold makenode_, boxed_res, delayn_new in Hmk.
  destruct (ring_from _) as [r|] eqn:Er; [|done]. injection Hmk as <- <- _.
  destruct (delayn_wired P (DelayN r n []) ms Hms) as [o Ho]. simpl in *.
  rewrite Ho in Hfold. injection Hfold as <-.
  apply ring_from_q in Er as (H1 & H2 & _). by exists r, o.
Qed.

Definition mono_in (src : nat) (b : sig) : inmap := [(src, [b])].
Definition stereo_in (src : nat) (lr : sig * sig) : inmap := [(src, [lr.1; lr.2])].

(** C22: mono input, both output channels, any cutting of the input into blocks. *)
Theorem C22_delayn_exact (P : platform) ev n ms nd out src (bs : list sig) :
  Forall conn_msg ms -> created P ev (CDelayn (Usz n)) ms nd out ->
  exists nd' outs, play P nd out (map (mono_in src) bs) = Ok (nd', outs) /\
    lane 0 outs = delayed (Z.to_nat n) (List.concat bs) /\
    lane 1 outs = delayed (Z.to_nat n) (List.concat bs).
Proof.
  intros Hms Hc. destruct (delayn_created P ev n ms nd out Hms Hc) as (r & o & -> & -> & Hr & Hq).
  destruct (Z.eqb_spec n 0) as [->|Hn].
  - destruct (play_scan_pure P (fun _ : unit => Simple (NDelayN (DelayN r 0 o))) (fun u (x : f32) => (u, x))
                [(0, id); (1, id)] 2 (map (fun b => (mono_in src b, b)) bs) tt [silent P; silent P])
      as (outs & Hp & _ & _ & Hl).
    + intros b u out (b0 & -> & _)%elem_of_list_fmap Hout. simpl.
      destruct out as [|o1 [|o2 [|]]]; try done. simpl.
      assert (Hs : (scan (fun (u : unit) (x : f32) => (u, x)) u b0).2 = b0).
      { clear. induction b0 as [|x b0 IH]; simpl; [done|]. destruct (scan _ u b0); simpl in *. by f_equal. }
      exists [b0; b0]. split; [done|]. split; [done|]. rewrite Hs.
      intros ch g [[= -> ->]|[[= -> ->]|[]%elem_of_nil]%elem_of_cons]%elem_of_cons; by rewrite list_fmap_id.
    + done.
    + rewrite !map_map in *. simpl in *. exists (Simple (NDelayN (DelayN r 0 o))), outs.
      assert (Hs : forall l, (scan (fun (u : unit) (x : f32) => (u, x)) tt l).2 = l).
      { clear. induction l as [|x b0 IH]; simpl; [done|]. destruct (scan _ tt b0); simpl in *. by f_equal. }
      rewrite Hs, map_id in Hl. split; [exact Hp|]. rewrite delayed_0.
      split; rewrite (Hl _ id) by set_solver; by rewrite list_fmap_id.
  - destruct (play_scan_pure P (fun r => Simple (NDelayN (DelayN r n o))) ring_push
                [(0, id); (1, id)] 2 (map (fun b => (mono_in src b, b)) bs) r [silent P; silent P])
      as (outs & Hp & _ & _ & Hl).
    + intros b r0 out (b0 & -> & _)%elem_of_list_fmap Hout. simpl. unfold delayn_proc. simpl.
      destruct (Z.eqb_spec n 0); [done|]. destruct out as [|o1 [|o2 [|]]]; try done.
      destruct (scan ring_push r0 b0) as [r1 ys]; simpl. exists [ys; ys]. split; [done|]. split; [done|].
      intros ch g [[= -> ->]|[[= -> ->]|[]%elem_of_nil]%elem_of_cons]%elem_of_cons; by rewrite list_fmap_id.
    + done.
    + rewrite !map_map in *. simpl in *. rewrite map_id in *. destruct (scan_ring r (List.concat bs) Hr) as (_ & _ & Hy).
      do 2 eexists. split; [exact Hp|].
      split; rewrite (Hl _ id) by set_solver; rewrite list_fmap_id, Hy, Hq; by unfold delayed, zeros.
Qed.

Lemma delayn_stereo_step r n o src l rr o1 o2 : n ≠ 0%Z ->
  delayn_proc (DelayN r n o) (stereo_in src (l, rr)) [o1; o2] =
    Ok (DelayN (scan ring_push r l).1 n o, [(scan ring_push r l).2; o2]).
Proof.
  intros Hn. unfold delayn_proc, stereo_in; simpl. destruct (Z.eqb_spec n 0); [done|].
  by destruct (scan ring_push r l).
Qed.

(** C23 (partial): a stereo input.  The left channel is delayed by n; the right output
    channel is never written for n > 0 and stays silent.  (Full claim: both channels are
    delayed by n; refuted below.) *)
Theorem C23_delayn_stereo_partial (P : platform) ev n ms nd out src (bs : list (sig * sig)) :
  Forall conn_msg ms -> created P ev (CDelayn (Usz n)) ms nd out -> n ≠ 0%Z ->
  exists nd' outs, play P nd out (map (stereo_in src) bs) = Ok (nd', outs) /\
    lane 0 outs = delayed (Z.to_nat n) (List.concat bs.*1) /\
    lane 1 outs = List.concat (replicate (length bs) (silent P)).
Proof.
  intros Hms Hc Hn. destruct (delayn_created P ev n ms nd out Hms Hc) as (r & o & -> & -> & Hr & Hq).
  destruct (Z.eqb_spec n 0) as [->|_]; [done|].
  assert (Hrun : forall o1 r, ring_ok r -> exists r' outs,
    play P (Simple (NDelayN (DelayN r n o))) [o1; silent P] (map (stereo_in src) bs)
      = Ok (Simple (NDelayN (DelayN r' n o)), outs) /\
    lane 0 outs = (scan ring_push r (List.concat bs.*1)).2 /\
    lane 1 outs = List.concat (replicate (length bs) (silent P))).
  { clear - Hn. induction bs as [|[l rr] bs IH]; intros o1 r Hr.
    - by exists r, [].
    - change (((l, rr) :: bs).*1) with (l :: bs.*1). cbn [List.concat map]. rewrite scan_app.
      destruct (scan_ring r l Hr) as (Hr' & _ & _).
      destruct (IH (scan ring_push r l).2 _ Hr') as (r' & outs & Hp & H0 & H1).
      erewrite play_cons by (cbn [gproc sproc]; rewrite delayn_stereo_step by done; done). rewrite Hp.
      do 2 eexists. split; [done|]. rewrite !lane_cons, H0, H1. done. }
  destruct (Hrun (silent P) r Hr) as (r' & outs & Hp & H0 & H1). do 2 eexists. split; [exact Hp|]. split; [|done].
  rewrite H0. destruct (scan_ring r (List.concat bs.*1) Hr) as (_ & _ & ->). rewrite Hq. done.
Qed.

Lemma delayn_ready (P : platform) ev n : (0 < n)%Z ->
  exists nd, created P ev (CDelayn (Usz n)) [] nd [silent P; silent P].
Proof.
  intros Hn. unfold created, makenode_, boxed_res, delayn_new. destruct (Z.eqb_spec n 0); [lia|].
  unfold zeros. destruct (Z.to_nat n) as [|k] eqn:E; [lia|]. simpl. eexists. do 2 eexists. split; done.
Qed.

(** C23 is false: whatever the platform, two blocks of ones through [delayn 1]. *)
Theorem C23_delayn_stereo_refuted (P : platform) ev : 0 < p_blk P ->
  exists n nd out bs nd' outs, created P ev (CDelayn (Usz n)) [] nd out /\
    Forall (fun lr => length lr.1 = p_blk P /\ length lr.2 = p_blk P) bs /\
    play P nd out (map (stereo_in 1) bs) = Ok (nd', outs) /\
    lane 1 outs ≠ delayed (Z.to_nat n) (List.concat bs.*2).
Proof.
  intros Hb. destruct (delayn_ready P ev 1) as [nd Hc]; [done|].
  set (one := replicate (p_blk P) f1). set (bs := [(one, one); (one, one)]).
  destruct (C23_delayn_stereo_partial P ev 1 [] nd _ 1 bs (Forall_nil_2 _) Hc) as (nd' & outs & Hp & _ & Hr); [done|].
  exists 1%Z, nd, [silent P; silent P], bs, nd', outs. split; [done|]. split.
  { unfold bs, one. repeat constructor; simpl; apply replicate_length. }
  split; [done|]. rewrite Hr. intros He.
  assert (Hlen : 1 < length (List.concat bs.*2)).
  { unfold bs, one. simpl. rewrite app_nil_r, app_length, replicate_length. lia. }
  pose proof (delayed_spec (Z.to_nat 1) _ 1 Hlen) as Hd. rewrite <- He in Hd.
  assert (H1 : ago (Z.to_nat 1) 1 (List.concat bs.*2) = f1).
  { unfold ago. rewrite decide_False by (simpl; lia). unfold bs, one. simpl.
    destruct (p_blk P); [lia|]. done. }
  rewrite H1 in Hd. apply elem_of_list_lookup_2 in Hd.
  apply elem_of_list_In, in_concat in Hd as (l & Hl%elem_of_list_In & Hx%elem_of_list_In).
  apply elem_of_replicate in Hl as [-> _]. unfold silent in Hx. apply elem_of_replicate in Hx as [Hx _]. done.
Qed.

(** ** delayms *)

(** The number of samples of a constant delay: at least one. *)
Definition ms_delay (P : platform) (sr : Z) (ms : f32) : nat :=
  Z.to_nat (Z.max 1 (as_usize (p_cfg P) (fmul (fdiv ms (f_of_Z 1000)) (f_of_Z sr)))).

Lemma delayms_wired (P : platform) s ms : Forall conn_msg ms ->
  exists o, foldM (gmsg P) (Simple (NDelayMs s)) ms = Ok (Simple (NDelayMs (DelayMs (dm_bufs s) (dm_sr s) o (dm_n s)))).
Proof.
  intros Hms. revert s. induction Hms as [|m ms Hm Hms IH]; intros s; simpl.
  - exists (dm_ord s). by destruct s.
  - pose proof (ord_msg_ok (dm_ord s) m Hm) as Hok.
    unfold delayms_msg. destruct m as [| | | |pos i|]; try done; destruct (ord_msg (dm_ord s) _) as [o|]; try done; simpl;
      destruct (IH (DelayMs (dm_bufs s) (dm_sr s) o (dm_n s))) as [o' Ho]; exists o'; exact Ho.
Qed.
Lemma delayms_created (P : platform) ev v ms nd out : Forall conn_msg ms ->
  created P ev (CDelayms (Num v)) ms nd out ->
  exists r o k, nd = Simple (NDelayMs (DelayMs [r; r] (e_sr ev) o k)) /\ out = [silent P; silent P] /\
    k ≠ 0%Z /\ ring_ok r /\ ring_q r = replicate (ms_delay P (e_sr ev) v) f0.
Proof.
  intros Hms (n0 & refs & Hmk & Hfold). unfold makenode_, boxed_res, delayms_new in Hmk. cbn [num_or] in Hmk.
  destruct (ring_from _) as [r|] eqn:Er; [|done]. injection Hmk as <- <- _.
  destruct (delayms_wired P (DelayMs [r; r] (e_sr ev) [] (Z.max (ms_samples P (e_sr ev) v) 1)) ms Hms) as [o Ho].
  simpl in *. rewrite Ho in Hfold. injection Hfold as <-.
  apply ring_from_q in Er as (H1 & H2 & _). exists r, o, (Z.max (ms_samples P (e_sr ev) v) 1).
  split; [done|]. split; [done|]. split; [lia|]. split; [done|]. rewrite H2. unfold zeros, ms_delay, ms_samples.
  by rewrite Z.max_comm.
Qed.

Lemma delayms_stereo_step (P : platform) r1 r2 sr o k src l rr o1 o2 : k ≠ 0%Z ->
  delayms_proc P (DelayMs [r1; r2] sr o k) (stereo_in src (l, rr)) [o1; o2] =
    Ok (DelayMs [(scan ring_push r1 l).1; (scan ring_push r2 rr).1] sr o k,
        [(scan ring_push r1 l).2; (scan ring_push r2 rr).2]).
Proof. intros Hk. unfold delayms_proc, stereo_in; simpl. destruct (Z.eqb_spec k 0); [done|]. done. Qed.
Lemma delayms_mono_step (P : platform) r1 r2 sr o k src l o1 o2 : k ≠ 0%Z ->
  delayms_proc P (DelayMs [r1; r2] sr o k) (mono_in src l) [o1; o2] =
    Ok (DelayMs [(scan ring_push r1 l).1; r2] sr o k, [(scan ring_push r1 l).2; o2]).
Proof. intros Hk. unfold delayms_proc, mono_in; simpl. destruct (Z.eqb_spec k 0); [done|]. done. Qed.

(** C24: a stereo input is delayed on both channels. *)
Theorem C24_delayms_stereo (P : platform) ev v ms nd out src (bs : list (sig * sig)) :
  Forall conn_msg ms -> created P ev (CDelayms (Num v)) ms nd out ->
  Forall (fun lr => length lr.1 = length lr.2) bs ->
  exists nd' outs, play P nd out (map (stereo_in src) bs) = Ok (nd', outs) /\
    lane 0 outs = delayed (ms_delay P (e_sr ev) v) (List.concat bs.*1) /\
    lane 1 outs = delayed (ms_delay P (e_sr ev) v) (List.concat bs.*2).
Proof.
  intros Hms Hc Hlen. destruct (delayms_created P ev v ms nd out Hms Hc) as (r & o & k & -> & -> & Hk & Hr & Hq).
  assert (Hrun : forall bs r1 r2 out, length out = 2 -> exists r1' r2' outs,
    play P (Simple (NDelayMs (DelayMs [r1; r2] (e_sr ev) o k))) out (map (stereo_in src) bs)
      = Ok (Simple (NDelayMs (DelayMs [r1'; r2'] (e_sr ev) o k)), outs) /\
    lane 0 outs = (scan ring_push r1 (List.concat bs.*1)).2 /\
    lane 1 outs = (scan ring_push r2 (List.concat bs.*2)).2).
  { clear - Hk. induction bs as [|[l rr] bs IH]; intros r1 r2 out Hout.
    - by exists r1, r2, [].
    - destruct out as [|o1 [|o2 [|]]]; try done. change (((l, rr) :: bs).*1) with (l :: bs.*1). change (((l, rr) :: bs).*2) with (rr :: bs.*2).
      cbn [List.concat map]. rewrite !scan_app.
      destruct (IH (scan ring_push r1 l).1 (scan ring_push r2 rr).1 [(scan ring_push r1 l).2; (scan ring_push r2 rr).2] eq_refl)
        as (r1' & r2' & outs & Hp & H0 & H1).
      erewrite play_cons by (cbn [gproc sproc]; rewrite delayms_stereo_step by done; done). rewrite Hp.
      do 3 eexists. split; [done|]. rewrite !lane_cons, H0, H1. done. }
  destruct (Hrun bs r r [silent P; silent P] eq_refl) as (r1' & r2' & outs & Hp & H0 & H1).
  do 2 eexists. split; [exact Hp|]. rewrite H0, H1.
  destruct (scan_ring r (List.concat bs.*1) Hr) as (_ & _ & ->).
  destruct (scan_ring r (List.concat bs.*2) Hr) as (_ & _ & ->). rewrite Hq. done.
Qed.

(** A mono input: the left channel is delayed, the right one stays silent (so the echo
    of a mono sound is heard on the left only, see C44). *)
Theorem C24_delayms_mono (P : platform) ev v ms nd out src (bs : list sig) :
  Forall conn_msg ms -> created P ev (CDelayms (Num v)) ms nd out ->
  exists nd' outs, play P nd out (map (mono_in src) bs) = Ok (nd', outs) /\
    lane 0 outs = delayed (ms_delay P (e_sr ev) v) (List.concat bs) /\
    lane 1 outs = List.concat (replicate (length bs) (silent P)).
Proof.
  intros Hms Hc. destruct (delayms_created P ev v ms nd out Hms Hc) as (r & o & k & -> & -> & Hk & Hr & Hq).
  assert (Hrun : forall bs r1 o1, exists r1' outs,
    play P (Simple (NDelayMs (DelayMs [r1; r] (e_sr ev) o k))) [o1; silent P] (map (mono_in src) bs)
      = Ok (Simple (NDelayMs (DelayMs [r1'; r] (e_sr ev) o k)), outs) /\
    lane 0 outs = (scan ring_push r1 (List.concat bs)).2 /\
    lane 1 outs = List.concat (replicate (length bs) (silent P))).
  { clear - Hk. induction bs as [|l bs IH]; intros r1 o1.
    - by exists r1, [].
    - cbn [List.concat map]. rewrite !scan_app.
      destruct (IH (scan ring_push r1 l).1 (scan ring_push r1 l).2) as (r1' & outs & Hp & H0 & H1).
      erewrite play_cons by (cbn [gproc sproc]; rewrite delayms_mono_step by done; done). rewrite Hp.
      do 2 eexists. split; [done|]. rewrite !lane_cons, H0, H1. done. }
  destruct (Hrun bs r (silent P)) as (r1' & outs & Hp & H0 & H1).
  do 2 eexists. split; [exact Hp|]. rewrite H0, H1.
  destruct (scan_ring r (List.concat bs) Hr) as (_ & _ & ->). rewrite Hq. done.
Qed.

(** ** apfmsgain *)

(** The number of samples of the delay line; a delay of 0.0 means three seconds. *)
Definition apf_delay (P : platform) (sr : Z) (v : f32) : nat :=
  Z.to_nat (as_usize (p_cfg P)
    (if feqb v f0 then fmul (f_of_Z 3) (f_of_Z sr) else fmul (fdiv v (f_of_Z 1000)) (f_of_Z sr))).

Lemma apf_wired (P : platform) s ms o : announced ms o -> ap_ord s = [] ->
  foldM (gmsg P) (Simple (NApf s)) ms = Ok (Simple (NApf (Apf (ap_gain s) (ap_x s) (ap_y s) (ap_sr s) o))).
Proof.
  intros Ha Hs. destruct s as [g x y sr o0]; simpl in *; subst o0.
  apply (announced_ord P (fun o => Simple (NApf (Apf g x y sr o)))); [|done].
  intros o1 m Hm. simpl. unfold apf_msg. destruct m as [| | | |pos i|]; try done; destruct (ord_msg _ _); done.
Qed.

(** After the samples [h] went in and [k] came out, the rings hold the last [d] of each. *)
Definition apf_inv (d : nat) (h k : sig) (s : apf) : Prop :=
  length h = length k /\ ring_ok (ap_x s) /\ ring_ok (ap_y s) /\
  ring_q (ap_x s) = drop (length h) (replicate d f0 ++ h) /\
  ring_q (ap_y s) = drop (length k) (replicate d f0 ++ k).
Lemma ago_hd d (h : sig) : 0 < d -> exists q, drop (length h) (replicate d f0 ++ h) = ago d (length h) h :: q.
Proof.
  intros Hd. assert (Hlt : length h < length (replicate d f0 ++ h)) by (rewrite app_length, replicate_length; lia).
  destruct (lookup_lt_is_Some_2 _ _ Hlt) as [v Hv]. exists (drop (S (length h)) (replicate d f0 ++ h)).
  rewrite (drop_S _ v _ Hv). f_equal. unfold ago. case_decide as Hc.
  - rewrite lookup_app_l in Hv by (rewrite replicate_length; lia). by apply lookup_replicate in Hv as [-> _].
  - rewrite lookup_app_r in Hv by (rewrite replicate_length; lia). rewrite replicate_length in Hv. by rewrite Hv.
Qed.
Lemma drop_snoc {A} (l h : list A) x y q : drop (length h) (l ++ h) = y :: q -> drop (length (h ++ [x])) (l ++ h ++ [x]) = q ++ [x].
Proof.
  intros H. assert (Hlen : length h < length (l ++ h)).
  { destruct (decide (length (l ++ h) <= length h)) as [Hle|]; [|lia]. by rewrite drop_ge in H. }
  rewrite app_assoc, app_length. simpl.
  rewrite drop_app_le by lia. f_equal. replace (length h + 1) with (S (length h)) by lia.
  destruct (lookup_lt_is_Some_2 _ _ Hlen) as [v Hv]. rewrite (drop_S _ v _ Hv) in H. congruence.
Qed.
Lemma apf_inv_step d h k s x : 0 < d -> apf_inv d h k s ->
  (apf_step s x).2 = apf_val (ap_gain s) x (ago d (length h) h) (ago d (length k) k) /\
  apf_inv d (h ++ [x]) (k ++ [(apf_step s x).2]) (apf_step s x).1 /\
  ap_gain (apf_step s x).1 = ap_gain s.
Proof.
  intros Hd (Hl & Hx & Hy & Hqx & Hqy). destruct (ago_hd d h Hd) as [qx Hgx]. destruct (ago_hd d k Hd) as [qy Hgy].
  rewrite Hgx in Hqx. rewrite Hgy in Hqy.
  set (yv := (apf_step s x).2).
  destruct (ring_push_q (ap_x s) x _ _ Hx Hqx) as (Hx' & Hqx' & _).
  destruct (ring_push_q (ap_y s) yv _ _ Hy Hqy) as (Hy' & Hqy' & _).
  split_and!.
  - unfold yv, apf_step; cbn [fst snd]. by rewrite (ring_get_q _ _ _ Hx Hqx), (ring_get_q _ _ _ Hy Hqy).
  - unfold apf_inv, apf_step, apf_push; cbn [fst snd ap_x ap_y]. fold yv. split_and!; try done.
    + rewrite !app_length. simpl. lia.
    + rewrite Hqx'. symmetry. by eapply drop_snoc.
    + etransitivity; [exact Hqy'|]. symmetry. by eapply drop_snoc.
  - done.
Qed.
Lemma take_snoc_lookup {A} (l : list A) t x : l !! t = Some x -> take (S t) l = take t l ++ [x].
Proof. apply take_S_r. Qed.
Lemma apf_scan d xs h k s : 0 < d -> apf_inv d h k s -> forall t x, xs !! t = Some x ->
  (scan apf_step s xs).2 !! t = Some (apf_val (ap_gain s) x (ago d (length h + t) (h ++ xs))
                                        (ago d (length h + t) (k ++ (scan apf_step s xs).2))).
Proof.
  intros Hd. revert h k s. induction xs as [|x0 xs IH]; intros h k s Hinv t x Ht; [done|].
  destruct (apf_inv_step d h k s x0 Hd Hinv) as (Hv & Hinv' & Hg).
  rewrite scan_cons. cbn [snd fst]. set (y0 := (apf_step s x0).2) in *.
  assert (Hlhk : length h = length k) by apply Hinv.
  assert (Hago : forall (a b : sig) n, n <= length a -> ago d n (a ++ b) = ago d n a).
  { intros a b n Hn. unfold ago. case_decide; [done|]. by rewrite lookup_app_l by lia. }
  destruct t as [|t].
  - injection Ht as <-. transitivity (Some y0); [done|]. f_equal. rewrite Hv, Nat.add_0_r.
    f_equal; [by rewrite Hago by lia|]. rewrite Hlhk. by rewrite Hago by lia.
  - change (xs !! t = Some x) in Ht. specialize (IH _ _ _ Hinv' t x Ht).
    change ((scan apf_step (apf_step s x0).1 xs).2 !! t = Some (apf_val (ap_gain s) x (ago d (length h + S t) (h ++ x0 :: xs))
              (ago d (length h + S t) (k ++ y0 :: (scan apf_step (apf_step s x0).1 xs).2)))).
    rewrite IH at 1. rewrite Hg. f_equal. rewrite app_length. cbn [length].
    replace (length h + 1 + t) with (length h + S t) by lia. by rewrite <- !app_assoc.
Qed.

(** C43 (partial): for every delay of at least one sample, [apfmsgain] never panics and its
    output satisfies the all-pass equation.  (Full claim: for every non-negative delay;
    refuted below.) *)
Theorem C43_allpass_partial (P : platform) ev v g ms o nd out src (bs : list sig) :
  announced ms o -> o !! 0 = Some src ->
  created P ev (CApfmsGain (Num v) g) ms nd out ->
  exists nd' outs, play P nd out (map (mono_in src) bs) = Ok (nd', outs) /\
    let d := apf_delay P (e_sr ev) v in let x := List.concat bs in let y := lane 0 outs in
    0 < d /\ length y = length x /\
    forall t xt, x !! t = Some xt ->
      y !! t = Some (fadd (fadd (fmul (fneg g) xt) (ago d t x)) (fmul g (ago d t y))).
Proof.
  intros Hms Hsrc (n0 & refs & Hmk & Hfold). unfold makenode_, boxed_res, apf_new in Hmk. cbn [num_or] in Hmk.
  destruct (ring_from _) as [r|] eqn:Er; [|done]. injection Hmk as <- <- _.
  rewrite (apf_wired P (Apf g r r (e_sr ev) []) ms o Hms eq_refl) in Hfold. injection Hfold as <-. cbn [ap_gain ap_x ap_y ap_sr].
  apply ring_from_q in Er as (Hr & Hq & Hlen).
  assert (Hd : zeros (if feqb v f0 then as_usize (p_cfg P) (fmul (f_of_Z 3) (f_of_Z (e_sr ev)))
                      else ms_samples P (e_sr ev) v) = replicate (apf_delay P (e_sr ev) v) f0).
  { unfold zeros, apf_delay, ms_samples. by destruct (feqb v f0). }
  rewrite Hd in Hq, Hlen. rewrite replicate_length in Hlen.
  set (d := apf_delay P (e_sr ev) v) in *.
  destruct (play_scan_inv P (fun s => Simple (NApf s)) apf_step (fun s => ap_ord s = o)
              [(0, id)] 2 (map (fun b => (mono_in src b, b)) bs) (Apf g r r (e_sr ev) o) [silent P; silent P])
    as (outs & Hp & _ & _ & Hl).
  - done.
  - done.
  - intros b s out (b0 & -> & _)%elem_of_list_fmap Hs Hout. destruct out as [|o1 [|o2 [|]]]; try done.
    cbn [fst snd gproc sproc]. unfold apf_proc, mono_in. rewrite Hs. unfold in_ord. rewrite Hsrc. simpl.
    rewrite Nat.eqb_refl. simpl. destruct (scan apf_step s b0) as [s1 ys].
    eexists. split; [reflexivity|]. split; [done|].
    intros ch f [[= -> ->]|[]%elem_of_nil]%elem_of_cons. by rewrite list_fmap_id.
  - done.
  - rewrite !map_map in *. cbn [fst snd] in *. rewrite map_id in *.
    do 2 eexists. split; [exact Hp|]. rewrite (Hl 0 id) by set_solver. rewrite list_fmap_id.
    split; [done|]. split; [by rewrite scan_length|].
    intros t xt Ht. apply (apf_scan d (List.concat bs) [] [] (Apf g r r (e_sr ev) o) Hlen).
    + unfold apf_inv. cbn [ap_x ap_y length]. rewrite !app_nil_r. done.
    + exact Ht.
Qed.

Lemma as_usize_small c x : trunc_Z x = 0%Z -> is_nan x = false -> (forall s, x ≠ S754_infinity s) -> as_usize c x = 0%Z.
Proof.
  intros Ht Hn Hi. destruct x as [s|s| |s m e]; [|by destruct (Hi s)|done|]; unfold as_usize; rewrite Ht; lia.
Qed.

(** C43 is false for a delay shorter than one sample, e.g. 0.01 ms at 44.1 kHz: creating
    the node panics, on every platform. *)
Theorem C43_allpass_refuted : exists v g, fleb f0 v = true /\
  forall (P : platform) ev, e_sr ev = 44100%Z -> makenode_ P ev (CApfmsGain (Num v) g) = Crash.
Proof.
  exists (f_of_dec false 1 (-2)), fhalf. split; [by vm_compute|]. intros P ev Hsr.
  unfold makenode_, boxed_res, apf_new, ms_samples. rewrite Hsr. cbn [num_or].
  replace (feqb (f_of_dec false 1 (-2)) f0) with false by by vm_compute.
  rewrite as_usize_small; [done|by vm_compute|by vm_compute|].
  intros s H. vm_compute in H. done.
Qed.

(** ** Examples *)

(** [delayn 3] on two blocks of different length. *)
Example ex_delayn : exists nd out nd' outs,
  created demo demo_env (CDelayn (Usz 3)) [ResetOrder; IndexOrder 0 7] nd out /\
  play demo nd out (map (mono_in 7) [fs [1; 2; 3; 4]; fs [5; 6]]%Z) = Ok (nd', outs) /\
  lane 0 outs = fs [0; 0; 0; 1; 2; 3]%Z /\ lane 1 outs = fs [0; 0; 0; 1; 2; 3]%Z.
Proof.
  destruct (demo_run_created demo demo_env (CDelayn (Usz 3)) [ResetOrder; IndexOrder 0 7]
    (map (mono_in 7) [fs [1; 2; 3; 4]; fs [5; 6]]%Z) _ ltac:(vm_compute; reflexivity)) as (n & out & n' & Hc & Hp).
  do 4 eexists. split; [exact Hc|]. split; [exact Hp|]. split; vm_compute; reflexivity.
Qed.
(** [delayms 0.1] at 44.1 kHz is a delay of 4 samples. *)
Example ex_delayms : exists nd out nd' outs,
  created demo demo_env (CDelayms (Num (f_of_dec false 1 (-1)))) [Index 7] nd out /\
  play demo nd out (map (stereo_in 7) [(fs [1; 2; 3], fs [4; 5; 6]); (fs [7; 8; 9], fs [10; 11; 12])]%Z) = Ok (nd', outs) /\
  lane 0 outs = fs [0; 0; 0; 0; 1; 2]%Z /\ lane 1 outs = fs [0; 0; 0; 0; 4; 5]%Z /\
  ms_delay demo 44100 (f_of_dec false 1 (-1)) = 4.
Proof.
  destruct (demo_run_created demo demo_env (CDelayms (Num (f_of_dec false 1 (-1)))) [Index 7]
    (map (stereo_in 7) [(fs [1; 2; 3], fs [4; 5; 6]); (fs [7; 8; 9], fs [10; 11; 12])]%Z) _
    ltac:(vm_compute; reflexivity)) as (n & out & n' & Hc & Hp).
  do 4 eexists. split; [exact Hc|]. split; [exact Hp|]. split; [|split]; vm_compute; reflexivity.
Qed.
(** [apfmsgain 0.05 0.5]: a delay of two samples. *)
Example ex_apf : exists nd out nd' outs,
  announced [ResetOrder; IndexOrder 0 7] [7] /\
  created demo demo_env (CApfmsGain (Num (f_of_dec false 5 (-2))) fhalf) [ResetOrder; IndexOrder 0 7] nd out /\
  play demo nd out (map (mono_in 7) [fs [2; 0; 0]; fs [0; 0]]%Z) = Ok (nd', outs) /\
  lane 0 outs = [fneg f1; f0; fadd f1 fhalf; f0; fdiv (f_of_Z 3) (f_of_Z 4)] /\
  apf_delay demo 44100 (f_of_dec false 5 (-2)) = 2.
Proof.
  destruct (demo_run_created demo demo_env (CApfmsGain (Num (f_of_dec false 5 (-2))) fhalf) [ResetOrder; IndexOrder 0 7]
    (map (mono_in 7) [fs [2; 0; 0]; fs [0; 0]]%Z) _
    ltac:(vm_compute; reflexivity)) as (n & out & n' & Hc & Hp).
  do 4 eexists. split; [split; [repeat constructor|done]|]. split; [exact Hc|]. split; [exact Hp|]. split; vm_compute; reflexivity.
Qed.

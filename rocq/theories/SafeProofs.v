(** * SafeProofs: when a node cannot panic. *)
From Verif Require Export FullProofs InputProofs.
From Verif Require Import WeightProofs Props_Signal Props_Sampler Props_Choose.
From Coq Require Import Reals Lra Lia.
From Verif Require Import FloatR.
Local Open Scope nat_scope.

(** ** The processor *)
Section processor.
  Context {node buf : Type} (R : nat -> node -> list buf -> Prop).
  Context (nproc : node -> list (nat * list buf) -> list buf -> res (node * list buf)).
  Notation W := (node * list buf)%type.
  Implicit Types g : sgraph W.
  Definition R_ins (ins : list (nat * list buf)) : Prop := Forall (fun p => exists s, R p.1 s p.2) ins.
  Lemma input_ids_edges g g' n : edges g' = edges g -> input_ids g' n = input_ids g n.
  Proof. intros E. unfold input_ids, in_neighbors. by rewrite E. Qed.
  (** A pass succeeds if every node that it reaches can process buffers of the other nodes,
      and it keeps what every such node keeps. *)
  Lemma process_ok shs g dest : gall R g -> (forall u v, edge g u v -> live g u /\ live g v) -> live g dest ->
    (forall n st ins b st' b', reaches g n dest -> R n st b -> R_ins ins -> ins.*1 ≡ₚ input_ids g n -> nproc st ins b = Ok (st', b') -> R n st' b') ->
    (forall n st b ins, reaches g n dest -> R n st b -> ins.*1 ≡ₚ input_ids g n -> R_ins ins -> is_ok (nproc st ins b)) ->
    exists g', process nproc shs g dest = Ok g' /\ gall R g' /\ edges g' = edges g /\ forall m, live g m -> live g' m.
  Proof.
    intros HR Hlive Hd Hpres Hok. unfold process. destruct (dfs_order_total g dest) as [order Eo]. rewrite Eo.
    apply dfs_order_spec in Eo as (Hnd & Hr & _).
    assert (Hrun : forall l x, (forall n, n ∈ l -> reaches g n dest) -> edges x = edges g -> gall R x ->
        (forall m, live g m -> live x m) ->
        exists g', foldM (fun g n => process_node nproc (shs n) g n) x l = Ok g' /\ gall R g' /\ edges g' = edges g /\ forall m, live g m -> live g' m).
    { clear Hr Hnd. intros l. induction l as [|n l IH]; intros x Hre He Hx Hll; [by exists x|]. cbn [foldM].
      assert (Hrn : reaches g n dest) by (apply Hre; by left).
      assert (Hln : live g n).
      { destruct Hrn as [n|n m k Hed _]; [done|]. by apply (Hlive n m). }
      assert (Hins : exists ins, inputs_of x n = Ok ins).
      { unfold inputs_of. eexists. apply (mapR_total _ (fun u => (u, from_option snd [] (node_weight x u)))).
        intros u Hu. rewrite (input_ids_edges g x n He) in Hu. apply elem_of_input_ids in Hu as [Hu _]. destruct (Hlive _ _ Hu) as [Hlu _].
        destruct (Hll u Hlu) as [w Hw']. by rewrite Hw'. }
      destruct Hins as [ins Hins]. destruct (Hll n Hln) as [[st b] Hwx].
      assert (Hfi : R_ins (shs n _ ins)).
      { apply (Permutation_Forall (symmetry (shuf_perm (shs n) _ ins))). by eapply inputs_of_all. }
      assert (Hpi : (shs n _ ins).*1 ≡ₚ input_ids g n).
      { rewrite (shuf_perm (shs n)). rewrite (proj1 (inputs_of_spec x n ins Hins)), (input_ids_edges g x n He). done. }
      pose proof (Hok n st b _ Hrn (Hx n _ Hwx) Hpi Hfi) as Hok'.
      destruct (nproc st (shs n _ ins) b) as [w'|] eqn:En; [|done].
      destruct (set_weight_live x n w' ltac:(by eexists)) as [x' Hx'].
      assert (Hp : process_node nproc (shs n) x n = Ok x').
      { unfold process_node. rewrite Hins. cbn [mbind res_bind]. rewrite Hwx. cbn [unwrap mbind res_bind fst snd]. rewrite En. exact Hx'. }
      rewrite Hp. pose proof (set_weight_spec _ _ _ _ Hx') as (_ & _ & He' & _ & Hw').
      apply IH; [intros m Hm; apply Hre; by right|by rewrite He'| |].
      - eapply gall_set; [exact Hx| |exact Hx']. destruct w' as [st' b']. eapply Hpres; [exact Hrn|exact (Hx n _ Hwx)|exact Hfi|exact Hpi|exact En].
      - intros m Hm. unfold live. rewrite Hw'. case_decide; [by eexists|]. by apply Hll. }
    apply Hrun; auto. intros n Hn. by apply Hr.
  Qed.
End processor.

(** ** Simple nodes *)

(** The first [n] entries of an input list are inputs of the node. *)
Definition covers (o ids : list nat) (n : nat) : Prop := forall k, k < n -> exists x, o !! k = Some x /\ x ∈ ids.
Lemma in_id_ok ins i : i ∈ ins.*1 -> exists bs, in_id ins i = Ok bs.
Proof.
  induction ins as [|p ins IH]; [intros H; by apply elem_of_nil in H|]. cbn [fmap list_fmap in_id]. intros H.
  destruct (Nat.eqb p.1 i) eqn:E; [by eexists|]. apply elem_of_cons in H as [->|H]; [by rewrite Nat.eqb_refl in E|]. by apply IH.
Qed.
Lemma in_ord_ok P ins o ids n k : ins_full P ins -> ins.*1 ≡ₚ ids -> covers o ids n -> k < n -> exists bs, in_ord ins o k = Ok bs /\ fulls P bs.
Proof.
  intros Hf Hi Hc Hk. destruct (Hc k Hk) as (x & Hx & Hin). rewrite <- Hi in Hin. destruct (in_id_ok ins x Hin) as [bs Hbs].
  exists bs. unfold in_ord. rewrite Hx. split; [done|]. by eapply in_id_full.
Qed.
Lemma chan_ok P bs : fulls P bs -> exists b, chan bs 0 = Ok b /\ length b = p_blk P.
Proof. intros [Hn H]. destruct bs as [|b bs]; [done|]. exists b. split; [done|]. by inversion H. Qed.
Lemma put0_ok out (b : sig) : out <> [] -> exists o, put0 out b = Ok o.
Proof. destruct out; [done|]. by eexists. Qed.
Lemma put01_ok out (l r : sig) : length out = 2 -> exists o, put01 out l r = Ok o.
Proof. destruct out as [|a [|b out]]; try discriminate. by eexists. Qed.
Lemma scanR_ok {S A B} (I : S -> Prop) (f : S -> A -> res (S * B)) s xs :
  (forall s x, I s -> exists s' y, f s x = Ok (s', y) /\ I s') -> I s -> exists s' ys, scanR f s xs = Ok (s', ys) /\ I s' /\ length ys = length xs.
Proof.
  intros Hf. revert s. induction xs as [|x xs IH]; intros s Hs; cbn [scanR]; [by exists s, []|].
  destruct (Hf s x Hs) as (s1 & y & -> & H1). destruct (IH s1 H1) as (s2 & ys & -> & H2 & H3). exists s2, (y :: ys). cbn [length]. auto.
Qed.

Section sturdy.
  Context (P : platform).
  Notation release := (debug (p_cfg P) = false).

  (** The period of a sequence or of a loop of points, in whole samples. *)
  Definition seq_bar (s : seqr) : Z := as_usize (p_cfg P) (bar_length (sq_bpm s) (sq_sr s) (sq_speed s)).
  Definition points_bar (s : points) : Z := as_usize (p_cfg P) (bar_dur (po_bpm s) (po_span s) (po_sr s)).

  Definition lpf_bar (s : biquad) : Z :=
    as_usize (p_cfg P) (fmul (fmul (fmul (fdiv (f_of_Z 60) (bq_bpm s)) (f_of_Z 4)) (bq_span s)) (f_of_Z (bq_sr s))).
  Definition bq_fine (s : biquad) : Prop := bq_pattern s = [] \/ lpf_bar s <> 0%Z.
  (** The noise stays between -1 and 1 and the list is neither empty nor enormous. *)
  Definition ch_fine (s : chooser) : Prop :=
    0 < length (ch_list s) /\ (Z.of_nat (length (ch_list s)) < 2 ^ 53)%Z /\ (Z.of_nat (length (ch_list s)) <= umax (p_cfg P))%Z /\
    forall k, unit_noise (p_noise P (no_seed (ch_noise s)) k).

  (** A bar of a pattern of samples lasts a whole sample at least, and every sample that is named
      by the pattern or still sounding is known and can be played. *)
  Definition pa_bar (s : psampler) : Z := as_usize (p_cfg P) (fmul (fmul (pa_cycle s) (pa_span s)) (f_of_Z (pa_sr s))).
  Definition known (dict : gmap string sampledata) (name : string) : Prop := exists d, dict !! name = Some d /\ playable d.
  Definition pa_fine (s : psampler) : Prop :=
    pa_bar s <> 0%Z /\ Forall (fun ev => known (pa_dict s) ev.1) (pa_pattern s) /\ Forall (fun v => known (pa_dict s) v.1.2) (pa_play s).

  (** What keeps a node with inputs [ids] from panicking. *)
  Definition sturdy (n : snode P) (ids : list nat) : Prop :=
    match n with
    | NPass | NSum | NSum2 | NConst _ | NNoise _ | NMSynth _ | NDelayN _ => True
    | NSpeed _ => 0 < p_blk P
    | NAdd s | NMul s => length ids = 2 -> covers (op_ord s) ids 2
    | NOsc _ s => length ids = 1 -> os_ord s = [] \/ covers (os_ord s) ids 1
    | NOnePole s => length ids = 2 -> covers (on_ord s) ids 2
    | NRhpf s => 0 < p_blk P /\ (length ids = 2 -> covers (bq_ord s) ids 2)
    | NRlpf s => 0 < p_blk P /\ bq_fine s /\ (length ids = 2 -> covers (bq_ord s) ids 2)
    | NPan s => length ids = 1 \/ covers (pn_ord s) ids 2
    | NBalance o => length ids = 2 -> covers o ids 2
    | NDelayMs _ => length ids = 1
    | NEnvPerc s => release /\ (length ids = 1 -> covers (ep_ord s) ids 1)
    | NAdsr s => release /\ (length ids = 1 -> covers (ad_ord s) ids 1)
    | NApf s => length ids <> 2 /\ (length ids = 1 -> covers (ap_ord s) ids 1)
    | NMeta s => ids = [] \/ covers (ev_ord s) ids 1
    | NImp s => im_period s <> 0%Z
    | NPSynth s => ids = [] -> ps_bar P s <> 0%Z
    | NSampler s => playable (sa_data s) /\ sa_len s = frames (sa_data s) /\ (16777216 <= umax (p_cfg P))%Z
    | NPSampler s => pa_fine s /\ (16777216 <= umax (p_cfg P))%Z
    | NArrange s => covers (ar_ord s) ids (length (ar_events s) / 2)
    | NSeq s => ids = [] /\ seq_bar s <> 0%Z
    | NChoose s => ch_fine s
    | NPoints s => if po_loop s then points_bar s <> 0%Z else release /\ (0 <= umax (p_cfg P))%Z
    | _ => False
    end.
  (** Nodes that write two channels whatever they were given. *)
  Definition two_out (n : snode P) : bool := match n with NPan _ | NBalance _ | NSampler _ | NPSampler _ => true | _ => false end.

  Lemma uadd_ok a b : release -> exists r, uadd (p_cfg P) a b = Ok r.
  Proof. intros Hr. unfold uadd. destruct (_ <=? _)%Z; [by eexists|]. rewrite Hr. by eexists. Qed.
  Lemma usub_ok a b : release -> exists r, usub (p_cfg P) a b = Ok r.
  Proof. intros Hr. unfold usub. destruct (_ <=? _)%Z; [by eexists|]. rewrite Hr. by eexists. Qed.
  Lemma umod_ok a b : b <> 0%Z -> umod a b = Ok (a mod b)%Z.
  Proof. intros H. unfold umod. by rewrite (proj2 (Z.eqb_neq _ _) H). Qed.
  Lemma ids_one (ins : inmap) ids : ins.*1 ≡ₚ ids -> length ids = length ins.
  Proof. intros H. apply Permutation_length in H. by rewrite <- H, fmap_length. Qed.

  Ltac two_ins Hc :=
    let bs0 := fresh "mb" in let bs1 := fresh "rb" in
    destruct (in_ord_ok P _ _ _ 2 0 ltac:(eassumption) ltac:(eassumption) Hc ltac:(lia)) as (bs0 & -> & ?);
    destruct (in_ord_ok P _ _ _ 2 1 ltac:(eassumption) ltac:(eassumption) Hc ltac:(lia)) as (bs1 & -> & ?).
  Ltac the_chan bs :=
    let b := fresh "b" in
    destruct (chan_ok P bs ltac:(assumption)) as (b & -> & ?).

  Lemma op_ok op s ins ids out : fulls P out -> ins_full P ins -> ins.*1 ≡ₚ ids -> (length ids = 2 -> covers (op_ord s) ids 2) ->
    is_ok (op_proc op s ins out).
  Proof.
    intros [Ho _] Hf Hi Hc. apply ids_one in Hi as Hl. unfold op_proc, apply_op. destruct out as [|l out]; [done|].
    destruct ins as [|p [|q [|r ins]]]; try done; rs.
    - apply Forall_cons in Hf as [Hp _]. destruct (chan_ok P p.2 Hp) as (b & -> & _). done.
    - specialize (Hc Hl). two_ins Hc. rs. the_chan mb. the_chan rb. done.
  Qed.
  Lemma osc_ok w s ins ids out : fulls P out -> ins_full P ins -> ins.*1 ≡ₚ ids -> (length ids = 1 -> os_ord s = [] \/ covers (os_ord s) ids 1) ->
    is_ok (osc_proc P w s ins out).
  Proof.
    intros [Ho _] Hf Hi Hc. apply ids_one in Hi as Hl.
    assert (Hput : forall b, exists o, osc_put w out b = Ok o).
    { intros b. destruct w; cbn [osc_put]; [by eexists|by apply put0_ok..]. }
    unfold osc_proc. destruct ins as [|p [|q ins]]; try done.
    - destruct (scan _ _ _) as [s' b]. destruct (Hput b) as [o ->]. done.
    - assert (Hm : exists mb, match os_ord s with [] => Ok p.2 | _ :: _ => in_ord [p] (os_ord s) 0 end = Ok mb /\ fulls P mb).
      { apply Forall_cons in Hf as Hf'. destruct Hf' as [Hp _]. destruct (Hc Hl) as [->|Hcov]; [by exists p.2|].
        destruct (in_ord_ok P [p] _ _ 1 0 Hf Hi Hcov ltac:(lia)) as (bs & Hbs & Hfb). destruct (os_ord s); [by exists p.2|by exists bs]. }
      destruct Hm as (mb & -> & Hmb). rs. the_chan mb. destruct (scan _ _ _) as [s' o]. destruct (Hput o) as [o' ->]. done.
  Qed.
  Lemma pan_ok s ins ids out : length out = 2 -> ins_full P ins -> ins.*1 ≡ₚ ids -> length ids = 1 \/ covers (pn_ord s) ids 2 ->
    is_ok (pan_proc s ins out).
  Proof.
    intros Ho Hf Hi Hc. apply ids_one in Hi as Hl.
    assert (H2 : covers (pn_ord s) ids 2 -> exists mb rb, in_ord ins (pn_ord s) 1 = Ok rb /\ in_ord ins (pn_ord s) 0 = Ok mb /\ fulls P mb /\ fulls P rb).
    { intros Hcov. destruct (in_ord_ok P ins _ _ 2 0 Hf Hi Hcov ltac:(lia)) as (mb & H1 & H3).
      destruct (in_ord_ok P ins _ _ 2 1 Hf Hi Hcov ltac:(lia)) as (rb & H4 & H5). by exists mb, rb. }
    assert (Hm : covers (pn_ord s) ids 2 -> is_ok (rb ← in_ord ins (pn_ord s) 1; mb ← in_ord ins (pn_ord s) 0;
      r0 ← chan rb 0; m0 ← chan mb 0;
      out' ← put01 out (zip_with (fun q x => fmul (pan_left q) x) r0 m0) (zip_with (fun q x => fmul (pan_right q) x) r0 m0);
      mret (s, out'))).
    { intros Hcov. destruct (H2 Hcov) as (mb & rb & -> & -> & Hmb & Hrb). rs. the_chan rb. the_chan mb.
      edestruct put01_ok as [o Ho']; [exact Ho|]. by rewrite Ho'. }
    unfold pan_proc. destruct ins as [|p [|q ins]].
    - destruct Hc as [Hc|Hc]; [rewrite Hl in Hc; discriminate Hc|]. exact (Hm Hc).
    - apply Forall_cons in Hf as [Hp _]. rs. the_chan (p.2). edestruct put01_ok as [o Ho']; [exact Ho|]. by rewrite Ho'.
    - destruct Hc as [Hc|Hc]; [rewrite Hl in Hc; discriminate Hc|]. exact (Hm Hc).
  Qed.
  Lemma balance_ok o ins ids out : length out = 2 -> ins_full P ins -> ins.*1 ≡ₚ ids -> (length ids = 2 -> covers o ids 2) ->
    is_ok (balance_proc o ins out).
  Proof.
    intros Ho Hf Hi Hc. apply ids_one in Hi as Hl. unfold balance_proc. destruct ins as [|p [|q [|r ins]]]; try done.
    specialize (Hc Hl). two_ins Hc. rs. the_chan mb. the_chan rb. edestruct put01_ok as [o' Ho']; [exact Ho|]. by rewrite Ho'.
  Qed.
  Lemma onepole_ok s ins ids out : out <> [] -> ins_full P ins -> ins.*1 ≡ₚ ids -> (length ids = 2 -> covers (on_ord s) ids 2) ->
    is_ok (onepole_proc P s ins out).
  Proof.
    intros Ho Hf Hi Hc. apply ids_one in Hi as Hl. unfold onepole_proc. destruct ins as [|p [|q [|r ins]]]; try done; rs.
    - apply Forall_cons in Hf as [Hp _]. the_chan (p.2). destruct (scan _ _ _) as [s' o]. by destruct (put0_ok out o Ho) as [o' ->].
    - specialize (Hc Hl). two_ins Hc. the_chan mb. the_chan rb. destruct (scan _ _ _) as [s' o]. by destruct (put0_ok out o Ho) as [o' ->].
  Qed.
  Lemma bq_mod_ok kf s ins ids out : 0 < p_blk P -> out <> [] -> ins_full P ins -> ins.*1 ≡ₚ ids -> covers (bq_ord s) ids 2 ->
    is_ok (bq_proc_mod kf s ins out).
  Proof.
    intros Hb Ho Hf Hi Hc. unfold bq_proc_mod. two_ins Hc. rs. the_chan rb. the_chan mb.
    match goal with H : length b = p_blk P |- _ => destruct b as [|x b]; [cbn in H; lia|] end. cbn [lookup list_lookup unwrap].
    destruct (scan _ _ _) as [s' o]. by destruct (put0_ok out o Ho) as [o' ->].
  Qed.
  Lemma rhpf_ok s ins ids out : 0 < p_blk P -> out <> [] -> ins_full P ins -> ins.*1 ≡ₚ ids -> (length ids = 2 -> covers (bq_ord s) ids 2) ->
    is_ok (rhpf_proc P s ins out).
  Proof.
    intros Hb Ho Hf Hi Hc. apply ids_one in Hi as Hl. unfold rhpf_proc. destruct ins as [|p [|q [|r ins]]]; try done; rs.
    - apply Forall_cons in Hf as [Hp _]. the_chan (p.2). destruct (scan _ _ _) as [s' o]. by destruct (put0_ok out o Ho) as [o' ->].
    - eapply bq_mod_ok; eauto.
  Qed.
  Lemma foldM_ok {A B} (f : A -> B -> res A) a l : (forall a x, exists a', f a x = Ok a') -> exists a', foldM f a l = Ok a'.
  Proof. intros Hf. revert a. induction l as [|x l IH]; intros a; cbn [foldM]; [by eexists|]. destruct (Hf a x) as [a' ->]. apply IH. Qed.
  Lemma rlpf_ok s ins ids out : 0 < p_blk P -> bq_fine s -> out <> [] -> ins_full P ins -> ins.*1 ≡ₚ ids ->
    (length ids = 2 -> covers (bq_ord s) ids 2) -> is_ok (rlpf_proc P s ins out).
  Proof.
    intros Hb Hpat Ho Hf Hi Hc. apply ids_one in Hi as Hl. unfold rlpf_proc. destruct ins as [|p [|q [|r ins]]]; try done; rs.
    - apply Forall_cons in Hf as [Hp _]. the_chan (p.2).
      destruct (scanR_ok bq_fine (lpf_step P) s b) as (s' & o & -> & _).
      + intros s0 x H0. unfold lpf_step. assert (Hcut : exists cut, bq_cut P s0 = Ok cut).
        { unfold bq_cut. destruct H0 as [H0|H0]; [rewrite H0; by eexists|]. apply foldM_ok. intros cut ev. rs.
          rewrite umod_ok by exact H0. rs. by eexists. }
        destruct Hcut as [cut ->]. rs. do 2 eexists. split; [reflexivity|exact H0].
      + exact Hpat.
      + by destruct (put0_ok out o Ho) as [o' ->].
    - eapply bq_mod_ok; eauto.
  Qed.
  Lemma choose_ok s ins out : ch_fine s -> out <> [] -> is_ok (choose_proc P s ins out).
  Proof.
    intros (H0 & H1 & H2 & Hn) Ho. unfold choose_proc. cbn [noise_next].
    pose proof (choose_index_in P _ _ (Hn (no_count (ch_noise s))) H0 H1 H2) as Hi. set (id := choose_index _ _ _) in *.
    assert (Hm : forall l : list unit, exists b, mapR (fun _ : unit => at_ (ch_list s) id) l = Ok b).
    { assert (Hat : exists x, at_ (ch_list s) id = Ok x).
      { unfold at_. destruct (lookup_lt_is_Some_2 (ch_list s) (Z.to_nat id)) as [x Hx]; [lia|]. exists x.
        destruct (Z.ltb_spec id 0) as [|_]; [lia|]. by rewrite Hx. }
      destruct Hat as [x Hx]. induction l as [|u l [b IH]]; cbn [mapR]; [by eexists|]. rewrite IH, Hx. by eexists. }
    destruct (Hm (replicate (p_blk P) tt)) as [b ->]. rs. by destruct (put0_ok out b Ho) as [o ->].
  Qed.
  Lemma chans_ok f rs out ins : (forall r b, exists x, f r b = Ok x) -> exists x, chans f rs out ins = Ok x.
  Proof.
    intros Hf. revert out ins. induction rs as [|r rs IH]; intros [|o out] [|i ins]; cbn [chans]; try (by eexists).
    destruct (Hf r i) as [x ->]. destruct (IH out ins) as [y Hy]. rs. rewrite Hy. by eexists.
  Qed.
  Lemma delayms_ok s ins ids out : out <> [] -> ins_full P ins -> ins.*1 ≡ₚ ids -> length ids = 1 -> is_ok (delayms_proc P s ins out).
  Proof.
    intros Ho Hf Hi Hc. apply ids_one in Hi as Hl. rewrite Hc in Hl. destruct ins as [|p [|q ins]]; try discriminate Hl.
    unfold delayms_proc. cbn [in_first]. rs. destruct (negb _); [done|]. apply Forall_cons in Hf as [Hp _]. destruct (dm_n s =? 0)%Z.
    - the_chan (p.2). by destruct (put0_ok out b Ho) as [o' ->].
    - edestruct chans_ok as [x Hx]; [|rewrite Hx; done]. intros r b. by eexists.
  Qed.
  Lemma envperc_ok s ins ids out : release -> out <> [] -> ins_full P ins -> ins.*1 ≡ₚ ids -> (length ids = 1 -> covers (ep_ord s) ids 1) ->
    is_ok (envperc_proc P s ins out).
  Proof.
    intros Hr Ho Hf Hi Hc. apply ids_one in Hi as Hl. unfold envperc_proc. destruct ins as [|p [|q ins]]; try done.
    edestruct uadd_ok as [du Hdu]; [exact Hr|]. rewrite Hdu. rs.
    destruct (in_ord_ok P [p] _ _ 1 0 Hf Hi (Hc Hl) ltac:(lia)) as (bs & -> & Hbs). the_chan bs.
    destruct (scan _ _ _) as [s' o]. by destruct (put0_ok out o Ho) as [o' ->].
  Qed.
  Lemma adsr_ok s ins ids out : release -> out <> [] -> ins_full P ins -> ins.*1 ≡ₚ ids -> (length ids = 1 -> covers (ad_ord s) ids 1) ->
    is_ok (adsr_proc P s ins out).
  Proof.
    intros Hr Ho Hf Hi Hc. apply ids_one in Hi as Hl. unfold adsr_proc. destruct ins as [|p [|q ins]]; try done. rs.
    destruct (in_ord_ok P [p] _ _ 1 0 Hf Hi (Hc Hl) ltac:(lia)) as (bs & -> & Hbs). the_chan bs.
    match goal with |- context [scanR ?f s b] => destruct (scanR_ok (fun _ => True) f s b) as (s' & o & -> & _) end.
    - intros s0 x _. unfold adsr_step. rs. unfold adsr_shape. rs.
      repeat match goal with
      | |- context [uadd ?c ?a ?b] => let r := fresh in let E := fresh in destruct (uadd_ok a b Hr) as [r E]; rewrite E; clear E
      | |- context [if ?x then _ else _] => destruct x
      end; do 2 eexists; split; reflexivity.
    - done.
    - by destruct (put0_ok out o Ho) as [o' ->].
  Qed.
  Lemma apf_ok s ins ids out : out <> [] -> ins_full P ins -> ins.*1 ≡ₚ ids -> length ids <> 2 -> (length ids = 1 -> covers (ap_ord s) ids 1) ->
    is_ok (apf_proc P s ins out).
  Proof.
    intros Ho Hf Hi H2 Hc. apply ids_one in Hi as Hl. unfold apf_proc. destruct ins as [|p [|q [|r ins]]]; try done. rs.
    destruct (in_ord_ok P [p] _ _ 1 0 Hf Hi (Hc Hl) ltac:(lia)) as (bs & -> & Hbs). the_chan bs.
    destruct (scan _ _ _) as [s' o]. by destruct (put0_ok out o Ho) as [o' ->].
  Qed.
  Lemma meta_ok s ins ids out : fulls P out -> ins_full P ins -> ins.*1 ≡ₚ ids -> ids = [] \/ covers (ev_ord s) ids 1 -> is_ok (meta_proc P s ins out).
  Proof.
    intros Ho Hf Hi Hc. apply ids_one in Hi as Hl. unfold meta_proc. rs.
    assert (Hx : exists x, match ins with [] => Ok None | _ => match in_ord ins (ev_ord s) 0 with Ok bs => match chan bs 0 with Ok b => Ok (Some b) | Panic => Panic end | Panic => Panic end end = Ok x).
    { destruct ins as [|p ins]; [by eexists|]. destruct Hc as [->|Hc]; [discriminate Hl|].
      destruct (in_ord_ok P (p :: ins) _ _ 1 0 Hf Hi Hc ltac:(lia)) as (bs & -> & Hbs). the_chan bs. by eexists. }
    destruct Hx as [x ->]. destruct (p_meta_run P _ _) as [e [r|]]; [|done]. the_chan out.
    edestruct put0_ok as [o' Ho']; [exact (proj1 Ho)|]. by rewrite Ho'.
  Qed.
  Lemma imp_ok s ins out : out <> [] -> im_period s <> 0%Z -> is_ok (imp_proc P s ins out).
  Proof.
    intros Ho Hp. unfold imp_proc.
    match goal with |- context [scanR ?f s ?l] => destruct (scanR_ok (fun s => im_period s <> 0%Z) f s l) as (s' & o & -> & _) end.
    - intros s0 x H0. unfold imp_step. rewrite umod_ok by exact H0. rs. do 2 eexists. split; [reflexivity|exact H0].
    - exact Hp.
    - by destruct (put0_ok out o Ho) as [o' ->].
  Qed.
  Lemma psynth_ok s ins (ids : list nat) out : out <> [] -> ins.*1 ≡ₚ ids -> (ids = [] -> ps_bar P s <> 0%Z) -> is_ok (psynth_proc P s ins out).
  Proof.
    intros Ho Hi Hb. unfold psynth_proc. destruct ins as [|p ins]; [|done]. apply Permutation_nil in Hi. specialize (Hb Hi).
    match goal with |- context [scanR ?f s ?l] => destruct (scanR_ok (fun s => ps_bar P s <> 0%Z) f s l) as (s' & o & -> & _) end.
    - intros s0 x H0. unfold psynth_step. rs. match goal with |- context [foldM ?f ?a ?l] => destruct (foldM_ok f a l) as [vs Hvs]; [|rewrite Hvs] end.
      + intros vs ev. cbv beta. rewrite umod_ok by exact H0. rs. by eexists.
      + destruct (play_voices _ _ _ _ _ _) as [vs' v]. do 2 eexists. split; [reflexivity|exact H0].
    - exact Hb.
    - by destruct (put0_ok out o Ho) as [o' ->].
  Qed.
  Lemma seq_ok s ins (ids : list nat) out : out <> [] -> ins.*1 ≡ₚ ids -> ids = [] -> seq_bar s <> 0%Z -> is_ok (seq_proc P s ins out).
  Proof.
    intros Ho Hi -> Hb. destruct ins as [|p ins]; [|apply Permutation_length in Hi; discriminate Hi]. unfold seq_proc.
    match goal with |- context [scanR ?f s ?l] => destruct (scanR_ok (fun _ => True) f s l) as (s' & o & -> & _) end.
    - intros s0 x _. unfold seq_sample. rs. match goal with |- context [foldM ?f ?a ?l] => destruct (foldM_ok f a l) as [v Hv]; [|rewrite Hv] end.
      + intros a ev. cbv beta. rewrite umod_ok by exact Hb. rs. destruct (_ =? _)%Z; [|by eexists]. destruct ev.2; by eexists.
      + do 2 eexists. split; reflexivity.
    - done.
    - by destruct (put0_ok out o Ho) as [o' ->].
  Qed.
  Lemma find_from_lt pos l k j : find_from pos l k = Some j -> k <= j < k + length l.
  Proof.
    revert k. induction l as [|[q v] l IH]; intros k; cbn [find_from length]; [done|].
    destruct (pos <=? q)%Z; [intros [= ->]; lia|]. intros H%IH. lia.
  Qed.
  Lemma at_ok {A} (l : list A) i : (0 <= i < Z.of_nat (length l))%Z -> exists x, at_ l i = Ok x.
  Proof.
    intros H. unfold at_. destruct (Z.ltb_spec i 0) as [|_]; [lia|].
    destruct (lookup_lt_is_Some_2 l (Z.to_nat i) ltac:(lia)) as [x ->]. by eexists.
  Qed.
  Lemma last_ok {A} (l : list A) : l <> [] -> exists x, unwrap (last l) = Ok x.
  Proof. intros H. destruct (last l) as [x|] eqn:E; [by exists x|]. by apply last_None in E. Qed.
  Lemma look_ok {A} (l : list A) i : i < length l -> exists x, unwrap (l !! i) = Ok x.
  Proof. intros H. destruct (lookup_lt_is_Some_2 l i H) as [x ->]. by eexists. Qed.
  Lemma points_ok s ins out : out <> [] -> (if po_loop s then points_bar s <> 0%Z else release /\ (0 <= umax (p_cfg P))%Z) -> is_ok (points_proc P s ins out).
  Proof.
    intros Ho Hb. unfold points_proc. destruct (po_list s) as [|p0 l0] eqn:El; [done|].
    match goal with |- context [scanR ?f s ?l] =>
      destruct (scanR_ok (fun s => po_list s <> [] /\ if po_loop s then points_bar s <> 0%Z else release /\ (0 <= umax (p_cfg P))%Z) f s l) as (s' & o & -> & _) end.
    - intros s0 x [Hl H0]. unfold points_step. rs.
      assert (Hv : exists v, (if po_loop s0 then points_looped (po_list s0) (as_usize (p_cfg P) (bar_dur (po_bpm s0) (po_span s0) (po_sr s0))) (po_step s0)
          else points_once P (po_list s0) (po_step s0)) = Ok v).
      { assert (Hlen : 0 < length (po_list s0)) by (destruct (po_list s0); [done|cbn; lia]).
        destruct (po_loop s0).
        - unfold points_looped. rewrite umod_ok by exact H0. rs.
          assert (Hm : forall k, Nat.modulo k (length (po_list s0)) < length (po_list s0)) by (intros k; apply Nat.mod_upper_bound; lia).
          destruct (find_from _ _ _) as [k|] eqn:Ek.
          + apply find_from_lt in Ek. destruct (look_ok (po_list s0) k ltac:(lia)) as [a ->].
            destruct (look_ok (po_list s0) _ (Hm (k + 1))) as [b ->]. by eexists.
          + destruct (last_ok (po_list s0) Hl) as [a ->].
            destruct (look_ok (po_list s0) _ (Hm (length (po_list s0) - 1 + 1))) as [b ->]. by eexists.
        - unfold points_once. rs.
          assert (Hi : exists i, match find_from (po_step s0) (po_list s0) 0 with None => Ok 0%Z | Some p => usub (p_cfg P) (Z.of_nat p) 1 end = Ok i /\
              ((0 <= i)%Z \/ (Z.of_nat (length (po_list s0)) - 1 <= i)%Z)).
          { destruct (find_from _ _ _) as [k|] eqn:Ek; [|exists 0%Z; split; [done|lia]]. unfold usub.
            destruct (Z.leb_spec 1 (Z.of_nat k)); [eexists; split; [reflexivity|lia]|]. destruct H0 as [-> H0]. eexists. split; [reflexivity|].
            left. apply Z.mod_pos_bound. lia. }
          destruct Hi as (i & -> & Hi'). destruct (Z.ltb_spec i (Z.of_nat (length (po_list s0)) - 1)) as [Hlt|Hge].
          + destruct (at_ok (po_list s0) i ltac:(lia)) as [a ->]. destruct (at_ok (po_list s0) (i + 1) ltac:(lia)) as [b ->]. by eexists.
          + destruct (last_ok (po_list s0) Hl) as [a ->]. by eexists. }
      destruct Hv as [v ->]. do 2 eexists. split; [reflexivity|]. split; [exact Hl|exact H0].
    - by rewrite El.
    - by destruct (put0_ok out o Ho) as [o' ->].
  Qed.
  Lemma fdiv_vf x y : vf (fdiv x y) = true.
  Proof.
    unfold fdiv, SFdiv. change prec32 with 24%Z; change emax32 with 128%Z.
    destruct x as [sx|sx| |sx mx ex], y as [sy|sy| |sy my ey]; try reflexivity.
    destruct (BinarySingleNaN.Bdiv_correct_aux 24 128 _ _ BinarySingleNaN.mode_NE sx mx ex sy my ey) as [H _].
    destruct (SFdiv_core_binary _ _ _ _ _ _) as [[mz ez] lz]. rewrite round_aux_equiv. exact H.
  Qed.
  Lemma sd_play_ok d pos lr : playable d -> (16777216 <= umax (p_cfg P))%Z -> vf pos = true -> exists o, sd_play P d (frames d) pos lr = Ok o.
  Proof.
    intros Hd Hu Hv. destruct (feqb pos f0 || feqb pos f1 || (fgtb pos f0 && fltb pos f1)) eqn:E.
    - assert (Hf : fin pos).
      { split; [exact Hv|]. destruct pos as [[]|[]| |]; [reflexivity..|discriminate E|discriminate E|discriminate E|reflexivity]. }
      assert (Hr : rng 0 1 pos).
      { split; [exact Hf|]. apply orb_prop in E as [E|E]; [apply orb_prop in E as [E|E]|].
        - apply feqb_ok in E; [|done..]. rewrite val_f0 in E. lra.
        - apply feqb_ok in E; [|done..]. rewrite val_f1 in E. lra.
        - apply andb_prop in E as [E1 E2]. change (fgtb pos f0) with (fltb f0 pos) in E1. apply fltb_ok in E1; [|done..]. apply fltb_ok in E2; [|done..].
          rewrite val_f0 in E1. rewrite val_f1 in E2. lra. }
      destruct (Z.eq_dec (sd_chan d) 1) as [Hc|Hc].
      + assert (Hx : forall l r, is_ok (sd_play P d (frames d) pos (l, r)) <-> is_ok (sd_play P d (frames d) pos (l, l))).
        { intros l r. unfold sd_play. rewrite Hc, Z.eqb_refl. rs. destruct (usub _ _ _); [|done]. cbn [fst].
          match goal with |- context [match ?x with Ok _ => _ | Panic => _ end] => by destruct x end. }
        destruct lr as [l r]. assert (Hok : is_ok (sd_play P d (frames d) pos (l, r))); [|destruct (sd_play P d (frames d) pos (l, r)); [by eexists|done]].
        apply Hx. by rewrite sd_play_tap.
      + eexists. apply sd_play_tap; [done..|]. intros H. by destruct (Hc H).
    - apply orb_false_elim in E as [E E2]. apply orb_false_elim in E as [E0 E1]. unfold sd_play. rewrite E0, E1, E2. rs.
      destruct Hd as [_ [[Hc Hd]|[Hc Hd]]]; rewrite Hc.
      + rewrite Z.eqb_refl. unfold usub, sd_len. unfold frames in Hd. rewrite Hc, Z.div_1_r in Hd. destruct (Z.leb_spec 1 (Z.of_nat (length (sd_data d)))); [|lia]. by eexists.
      + by eexists.
  Qed.
  Lemma sampler_voices_ok s vs lr : playable (sa_data s) -> sa_len s = frames (sa_data s) -> (16777216 <= umax (p_cfg P))%Z ->
    exists r, sampler_voices P s vs lr = Ok r.
  Proof.
    intros Hd Hl Hu. revert lr. induction vs as [|v vs IH]; intros lr; cbn [sampler_voices]; [by eexists|].
    destruct (fleb _ _); [|apply IH]. rewrite Hl. rs. edestruct sd_play_ok as [o Ho]; [exact Hd|exact Hu|apply fdiv_vf|rewrite Ho].
    destruct (IH (default lr o)) as [r ->]. by eexists.
  Qed.
  Lemma sampler_ok s ins out : length out = 2 -> ins_full P ins -> playable (sa_data s) -> sa_len s = frames (sa_data s) -> (16777216 <= umax (p_cfg P))%Z ->
    is_ok (sampler_proc P s ins out).
  Proof.
    intros Ho Hf Hd Hl Hu. unfold sampler_proc.
    assert (Hs : is_ok (out' ← put01 out (silent P) (silent P); mret (s, out'))).
    { edestruct put01_ok as [o Ho']; [exact Ho|]. by rewrite Ho'. }
    destruct ins as [|p [|q ins]]; [exact Hs| |exact Hs]. apply Forall_cons in Hf as [Hp _]. rs. the_chan (p.2).
    match goal with |- context [scanR ?f s ?l] =>
      destruct (scanR_ok (fun s => playable (sa_data s) /\ sa_len s = frames (sa_data s)) f s l) as (s' & o & -> & _) end.
    - intros s0 x [H0 H1]. unfold sampler_step. rs. edestruct (sampler_voices_ok s0) as [r Hr]; [exact H0|exact H1|exact Hu|].
      rewrite Hr. do 2 eexists. split; [reflexivity|]. split; [exact H0|exact H1].
    - done.
    - edestruct put01_ok as [o' Ho']; [exact Ho|]. by rewrite Ho'.
  Qed.

  Lemma psampler_start_ok s : pa_fine s -> exists vs, psampler_start P s = Ok vs /\ Forall (fun v => known (pa_dict s) v.1.2) vs.
  Proof.
    intros (Hb & Hp & Hv). unfold psampler_start. fold (pa_bar s). rewrite umod_ok by exact Hb. rs. revert Hp Hv. generalize (pa_play s) as vs. generalize (pa_pattern s) as l.
    induction l as [|ev l IH]; intros vs Hp Hv; cbn [foldM]; [by exists vs|]. inversion Hp as [|? ? Hd Hl]; subst.
    destruct (_ =? _)%Z; [|by apply IH]. destruct Hd as (d & Hd & Hpl). rewrite Hd. cbn [unwrap].
    assert (Hc : (sd_chan d =? 0)%Z = false).
    { apply Z.eqb_neq. destruct Hpl as [_ [[Hx _]|[Hx _]]]; rewrite Hx; discriminate. }
    rewrite Hc. apply IH; [done|]. apply Forall_app. split; [done|]. constructor; [|done]. exists d. split; [exact Hd|exact Hpl].
  Qed.
  Lemma psampler_voices_ok s vs lr : (16777216 <= umax (p_cfg P))%Z -> Forall (fun v => known (pa_dict s) v.1.2) vs ->
    exists r, psampler_voices P s vs lr = Ok r /\ forall l, r.1 = Some l -> Forall (fun v => known (pa_dict s) v.1.2) l.
  Proof.
    intros Hu Hv. revert lr. induction Hv as [|v vs Hd Hv IH]; intros lr; cbn [psampler_voices].
    - eexists. split; [reflexivity|]. by intros l [= <-].
    - destruct (fleb _ _); [|apply IH]. pose proof Hd as (d & Hd1 & Hd2). rewrite Hd1. cbn [unwrap]. rs.
      edestruct (sd_play_ok d) as [o Ho]; [exact Hd2|exact Hu|apply fdiv_vf|]. unfold frames in Ho. fold (sd_len d) in Ho. rewrite Ho.
      destruct o as [lr'|]; [|by eexists]. destruct (IH lr') as (r & -> & Hr). eexists. split; [reflexivity|]. cbn [fst].
      destruct r.1 as [l0|]; [|done]. intros l [= <-]. constructor; [exact Hd|by apply Hr].
  Qed.
  Lemma psampler_step_ok s stop : (16777216 <= umax (p_cfg P))%Z -> pa_fine s -> exists st y, psampler_step P (s, stop) = Ok (st, y) /\ pa_fine st.1.
  Proof.
    intros Hu Hs. unfold psampler_step. destruct stop; [by do 2 eexists|]. destruct (psampler_start_ok s Hs) as (vs & -> & Hv). rs.
    destruct (psampler_voices_ok s vs (f0, f0) Hu Hv) as (r & -> & Hr). do 2 eexists. split; [reflexivity|]. destruct Hs as (H1 & H2 & H3).
    destruct (r.1) as [l|]; cbn [fst]; (split; [exact H1|]; split; [exact H2|]); cbn [pa_play pa_dict]; [by apply Hr|exact Hv].
  Qed.
  Lemma psampler_run s ins out : length out = 2 -> (16777216 <= umax (p_cfg P))%Z -> pa_fine s ->
    exists s' out', psampler_proc P s ins out = Ok (s', out') /\ pa_fine s'.
  Proof.
    intros Ho Hu Hs. unfold psampler_proc.
    match goal with |- context [scanR ?f ?a ?l] => destruct (scanR_ok (fun st => pa_fine st.1) f a l) as (s' & o & -> & Hs' & _) end.
    - intros [s0 stop] x H0. apply psampler_step_ok; [exact Hu|exact H0].
    - exact Hs.
    - rs. edestruct put01_ok as [o' Ho']; [exact Ho|]. rewrite Ho'. by do 2 eexists.
  Qed.

  (** The places an arrangement can look up. *)
  Lemma ar_find_bound n : forall events pos acc j, length events <= n ->
    match ar_find events pos acc j with APass k => k < j + length events / 2 | AWrap => 0 < length events / 2 | _ => True end.
  Proof.
    induction n as [|n IH]; intros events pos acc j Hn.
    - destruct events; [exact I|]. cbn [length] in Hn. lia.
    - destruct events as [|a [|b rest]]; [exact I|exact I|]. cbn [ar_find]. destruct b as [bar|r]; [|exact I].
      assert (Hl : length (a :: Num bar :: rest) / 2 = S (length rest / 2)).
      { cbn [length]. replace (S (S (length rest))) with (length rest + 1 * 2) by lia. rewrite Nat.div_add by lia. lia. }
      rewrite Hl. destruct (fltb _ _); [lia|]. destruct rest as [|c [|d rest]]; [lia|lia|].
      specialize (IH (c :: d :: rest) pos (fadd acc bar) (S j) ltac:(cbn [length] in *; lia)).
      destruct (ar_find _ _ _ _); try exact I; lia.
  Qed.
  Lemma ar_loop_ok s ins ids idx old : ins_full P ins -> ins.*1 ≡ₚ ids -> covers (ar_ord s) ids (length (ar_events s) / 2) -> idx + length old = p_blk P ->
    exists s' o, ar_loop s ins idx old = Ok (s', o) /\ ar_events s' = ar_events s /\ ar_ord s' = ar_ord s.
  Proof.
    intros Hf Hi. revert s idx. induction old as [|x old IH]; intros s idx Hc Hl; cbn [ar_loop]; [by exists s, []|]. cbn [length] in Hl.
    assert (Hfetch : forall k, k < length (ar_events s) / 2 -> exists v, (bs ← in_ord ins (ar_ord s) k; b ← chan bs 0; unwrap (b !! idx)) = Ok v).
    { intros k Hk. destruct (in_ord_ok P ins (ar_ord s) ids _ k Hf Hi Hc Hk) as (bs & -> & Hbs). rs. the_chan bs.
      destruct (lookup_lt_is_Some_2 b idx) as [v Hv]; [lia|]. exists v. rewrite Hv. reflexivity. }
    pose proof (ar_find_bound _ (ar_events s) (fdiv (f_of_Z (ar_step s)) (ar_bar s)) f0 0 (le_n _)) as Hb.
    destruct (ar_find _ _ _ _) as [j| | |].
    - destruct (Hfetch j Hb) as [v Hv]. rewrite Hv. rs. destruct (IH (ar_set s (ar_step s + 1)) (S idx)) as (s' & o & -> & E1 & E2); [exact Hc|lia|].
      do 2 eexists. split; [reflexivity|]. split; [exact E1|exact E2].
    - destruct (Hfetch 0 Hb) as [v Hv]. rewrite Hv. rs. destruct (IH (ar_set s 1) (S idx)) as (s' & o & -> & E1 & E2); [exact Hc|lia|].
      do 2 eexists. split; [reflexivity|]. split; [exact E1|exact E2].
    - destruct (IH (ar_set s (ar_step s + 1)) (S idx)) as (s' & o & -> & E1 & E2); [exact Hc|lia|].
      do 2 eexists. split; [reflexivity|]. split; [exact E1|exact E2].
    - by do 2 eexists.
  Qed.
  Lemma arrange_ok s ins ids out : fulls P out -> ins_full P ins -> ins.*1 ≡ₚ ids -> covers (ar_ord s) ids (length (ar_events s) / 2) ->
    is_ok (arrange_proc s ins out).
  Proof.
    intros Ho Hf Hi Hc. unfold arrange_proc. rs. the_chan out. destruct (ar_loop_ok s ins ids 0 b Hf Hi Hc) as (s' & o & -> & _); [done|].
    cbn [fst snd]. by destruct (put0_ok out o (proj1 Ho)) as [o' ->].
  Qed.
  Lemma ar_loop_keeps old : forall s ins idx s' o, ar_loop s ins idx old = Ok (s', o) -> ar_events s' = ar_events s /\ ar_ord s' = ar_ord s.
  Proof.
    induction old as [|x old IH]; intros s ins idx s' o; cbn [ar_loop]; [by intros [= <- <-]|]. rs.
    destruct (ar_find _ _ _ _) as [j| | |].
    - destruct (in_ord _ _ _) as [bs|]; [|done]. destruct (chan _ _) as [b|]; [|done]. destruct (unwrap _); [|done].
      destruct (ar_loop _ _ _ _) as [[s1 o1]|] eqn:E; [|done]. intros [= <- <-]. exact (IH _ _ _ _ _ E).
    - destruct (in_ord _ _ _) as [bs|]; [|done]. destruct (chan _ _) as [b|]; [|done]. destruct (unwrap _); [|done].
      destruct (ar_loop _ _ _ _) as [[s1 o1]|] eqn:E; [|done]. intros [= <- <-]. exact (IH _ _ _ _ _ E).
    - destruct (ar_loop _ _ _ _) as [[s1 o1]|] eqn:E; [|done]. intros [= <- <-]. exact (IH _ _ _ _ _ E).
    - by intros [= <- <-].
  Qed.
  Lemma arrange_keeps s ins out s' out' : arrange_proc s ins out = Ok (s', out') -> ar_events s' = ar_events s /\ ar_ord s' = ar_ord s.
  Proof.
    unfold arrange_proc. rs. destruct (chan out 0) as [b|]; [|done]. destruct (ar_loop _ _ _ _) as [[s1 o1]|] eqn:E; [|done].
    destruct (put0 _ _); [|done]. intros [= <- <-]. exact (ar_loop_keeps _ _ _ _ _ _ E).
  Qed.
  Lemma psampler_start_keeps s vs : psampler_start P s = Ok vs -> Forall (fun ev => known (pa_dict s) ev.1) (pa_pattern s) ->
    Forall (fun v => known (pa_dict s) v.1.2) (pa_play s) -> Forall (fun v => known (pa_dict s) v.1.2) vs.
  Proof.
    unfold psampler_start. generalize (pa_play s) as vs0. generalize (pa_pattern s) as l.
    induction l as [|ev l IH]; intros vs0; cbn [foldM]; [by intros [= ->]|]. destruct (umod _ _); [|done]. rs.
    intros H Hp Hv. inversion Hp as [|? ? Hd Hl]; subst. revert H. destruct (_ =? _)%Z; [|by intros H; apply (IH _ H)].
    destruct (pa_dict s !! ev.1); [|done]. cbn [unwrap]. rs. destruct (sd_chan _ =? 0)%Z; [done|]. intros H. apply (IH _ H); [done|].
    apply Forall_app. split; [done|]. by repeat constructor.
  Qed.
  Lemma psampler_voices_sub s vs : forall lr l lr', psampler_voices P s vs lr = Ok (Some l, lr') -> l ⊆ vs.
  Proof.
    induction vs as [|v vs IH]; intros lr l lr'; cbn [psampler_voices]; [by intros [= <- <-]|].
    destruct (fleb _ _).
    - destruct (unwrap _) as [d|]; [|done]. rs. destruct (sd_play _ _ _ _ _) as [[lr1|]|]; [|done|done].
      destruct (psampler_voices P s vs lr1) as [[[l1|] lr2]|] eqn:E; [|done|done]. intros [= <- <-]. apply IH in E. set_solver.
    - intros H. apply IH in H. set_solver.
  Qed.
  Lemma psampler_keeps s ins out s' out' : pa_fine s -> psampler_proc P s ins out = Ok (s', out') -> pa_fine s'.
  Proof.
    intros Hs. unfold psampler_proc. rs. destruct (scanR _ _ _) as [[[s1 stop] o]|] eqn:E; [|done]. destruct (put01 _ _ _); [|done]. intros [= <- <-].
    revert E Hs. generalize false as st0. generalize (replicate (p_blk P) tt) as l. intros l. revert s o.
    induction l as [|x l IH]; intros s o st0; cbn [scanR]; [by intros [= -> _ _]|].
    destruct (psampler_step P (s, st0)) as [[[s2 st2] y]|] eqn:Es; [|done]. destruct (scanR _ _ l) as [[[s3 st3] o3]|] eqn:El; [|done].
    intros [= <- <- <-] Hs. eapply IH; [exact El|]. revert Es. unfold psampler_step. destruct st0; [by intros [= <- _ _]|]. rs.
    destruct (psampler_start P s) as [vs|] eqn:Ev; [|done]. destruct (psampler_voices P s vs (f0, f0)) as [[[l0|] lr]|] eqn:Ew; [..|done];
      cbn [fst]; intros [= <- _ _]; destruct Hs as (H1 & H2 & H3); pose proof (psampler_start_keeps s vs Ev H2 H3) as Hv;
      (split; [exact H1|]; split; [exact H2|]); cbn [pa_play pa_dict]; [|exact Hv].
    apply psampler_voices_sub in Ew. rewrite Forall_forall in Hv. apply Forall_forall. intros v Hin. apply Hv, Ew, Hin.
  Qed.

  (** A sturdy node does not panic. *)
  Lemma sproc_ok n ids ins out : sturdy n ids -> fulls P out -> (two_out n = true -> length out = 2) -> ins_full P ins -> ins.*1 ≡ₚ ids ->
    is_ok (sproc P n ins out).
  Proof.
    intros Hs Ho H2 Hf Hi. pose proof (proj1 Ho) as Hne.
    destruct n; cbn [sturdy two_out] in Hs, H2; try (exfalso; exact Hs); cbn [sproc];
      match goal with |- is_ok (wrap _ ?x) => cut (is_ok x); [by destruct x as [[??]|]|] | _ => idtac end.
    - done.
    - done.
    - assert (Hc : forall ch, exists b, sum2_chan P ins ch = Ok b).
      { intros ch. unfold sum2_chan. generalize (silent P). clear Hi. induction Hf as [|p ins Hp _ IH]; intros acc; cbn [foldM]; [by eexists|].
        destruct (p.2 !! ch); [apply IH|]. rs. the_chan (p.2). apply IH. }
      assert (Hm : forall l, exists o, mapR (sum2_chan P ins) l = Ok o).
      { induction l as [|ch l [o IH]]; cbn [mapR]; [by eexists|]. destruct (Hc ch) as [b ->]. rewrite IH. by eexists. }
      unfold sum2_proc. by destruct (Hm (seq 0 (length out))) as [o ->].
    - by eapply op_ok.
    - by eapply op_ok.
    - by eapply osc_ok.
    - unfold csig_proc. edestruct put0_ok as [o Ho']; [exact Hne|]. by rewrite Ho'.
    - by apply imp_ok.
    - done.
    - eapply balance_ok; eauto.
    - eapply pan_ok; eauto.
    - unfold spd_proc, silent. destruct (p_blk P) as [|k] eqn:Eb; [lia|]. cbn [replicate].
      edestruct put0_ok as [o Ho']; [exact Hne|]. by rewrite Ho'.
    - by eapply meta_ok.
    - destruct Hs. by eapply seq_ok.
    - by apply choose_ok.
    - by eapply arrange_ok.
    - by apply points_ok.
    - by eapply psynth_ok.
    - unfold msynth_proc. destruct (scan _ _ _) as [s' b]. by destruct (put0_ok out b Hne) as [o ->].
    - destruct Hs as (? & ? & ?). apply sampler_ok; auto.
    - destruct Hs as [Hs Hu]. destruct (psampler_run s ins out (H2 eq_refl) Hu Hs) as (s' & o & -> & _). exact I.
    - unfold delayn_proc. destruct ins as [|p [|q ins]]; try done. destruct (dn_n s =? 0)%Z; [done|].
      apply Forall_cons in Hf as [Hp _]. rs. the_chan (p.2). destruct (scan _ _ _) as [s' o]. by destruct (put0_ok out o Hne) as [o' ->].
    - by eapply delayms_ok.
    - destruct Hs. by eapply envperc_ok.
    - destruct Hs. by eapply adsr_ok.
    - destruct Hs. by eapply apf_ok.
    - by eapply onepole_ok.
    - destruct Hs as (? & ? & ?). by eapply rlpf_ok.
    - destruct Hs. by eapply rhpf_ok.
  Qed.
  (** Playing keeps a node sturdy. *)
  Lemma envperc_keeps s ins out s' out' : envperc_proc P s ins out = Ok (s', out') -> ep_ord s' = ep_ord s.
  Proof.
    unfold envperc_proc. destruct ins as [|p [|q ins]]; try (by intros [= <- <-]). rs.
    destruct (uadd _ _ _) as [du|]; [|done]. destruct (in_ord _ _ 0) as [bs|]; [|done]. destruct (chan bs 0) as [b|]; [|done].
    match goal with |- context [scan ?f s b] => pose proof (scan_keeps ep_ord f s b) as H; destruct (scan f s b) as [s1 o] end.
    destruct (put0 out o); [|done]. intros [= <- <-]. apply H. intros s0 x. unfold envperc_step. destruct (fgtb x f0); reflexivity.
  Qed.
  Lemma adsr_keeps s ins out s' out' : adsr_proc P s ins out = Ok (s', out') -> ad_ord s' = ad_ord s.
  Proof.
    unfold adsr_proc. destruct ins as [|p [|q ins]]; try (by intros [= <- <-]). rs.
    destruct (in_ord _ _ 0) as [bs|]; [|done]. destruct (chan bs 0) as [b|]; [|done].
    match goal with |- context [scanR ?f s b] => destruct (scanR f s b) as [[s1 o]|] eqn:E; [|done] end.
    destruct (put0 out o); [|done]. intros [= <- <-]. apply (scanR_keeps ad_ord) in E; [done|].
    intros s0 x s2 b0. unfold adsr_step. rs. destruct (adsr_shape _ _ _ _ _ _ _ _) as [y|]; [|done]. by intros [= <- <-].
  Qed.
  Lemma meta_keeps s ins out s' out' : meta_proc P s ins out = Ok (s', out') -> ev_ord s' = ev_ord s.
  Proof.
    unfold meta_proc. rs. destruct (match ins with [] => _ | _ => _ end) as [x|]; [|done].
    destruct (p_meta_run P _ _) as [e [r|]]; [|by intros [= <- <-]]. destruct (chan out 0); [|done]. destruct (put0 out _); [|done]. by intros [= <- <-].
  Qed.
  Lemma imp_keeps s ins out s' out' : imp_proc P s ins out = Ok (s', out') -> im_period s' = im_period s.
  Proof.
    unfold imp_proc. match goal with |- context [scanR ?f s ?b] => destruct (scanR f s b) as [[s1 o]|] eqn:E; [|done] end.
    rs. destruct (put0 out o); [|done]. intros [= <- <-]. apply (scanR_keeps im_period) in E; [done|].
    intros s0 x s2 b0. unfold imp_step. rs. destruct (umod _ _); [|done]. by intros [= <- <-].
  Qed.
  Lemma psynth_keeps s ins out s' out' : psynth_proc P s ins out = Ok (s', out') -> ps_sr s' = ps_sr s.
  Proof.
    unfold psynth_proc. destruct ins as [|p ins]; [|by intros [= <- <-]].
    match goal with |- context [scanR ?f s ?b] => destruct (scanR f s b) as [[s1 o]|] eqn:E; [|done] end.
    rs. destruct (put0 out o); [|done]. intros [= <- <-]. apply (scanR_keeps ps_sr) in E; [done|].
    intros s0 x s2 b0. unfold psynth_step. rs. destruct (foldM _ _ _) as [vs|]; [|done]. destruct (play_voices _ _ _ _ _ _). by intros [= <- <-].
  Qed.
  Lemma seq_alone_keeps s out s' out' : seq_proc P s [] out = Ok (s', out') -> (sq_bpm s', sq_sr s', sq_speed s') = (sq_bpm s, sq_sr s, sq_speed s).
  Proof.
    unfold seq_proc. match goal with |- context [scanR ?f s ?b] => destruct (scanR f s b) as [[s1 o]|] eqn:E; [|done] end.
    rs. destruct (put0 out o); [|done]. intros [= <- <-]. apply (scanR_keeps (fun s => (sq_bpm s, sq_sr s, sq_speed s))) in E; [done|].
    intros s0 x s2 b0. rs. destruct (seq_sample _ _ _ _ _); [|done]. by intros [= <- <-].
  Qed.
  Lemma points_keeps s ins out s' out' : points_proc P s ins out = Ok (s', out') ->
    (po_loop s', po_bpm s', po_span s', po_sr s') = (po_loop s, po_bpm s, po_span s, po_sr s).
  Proof.
    unfold points_proc. destruct (po_list s); [by intros [= <- <-]|].
    match goal with |- context [scanR ?f s ?b] => destruct (scanR f s b) as [[s1 o]|] eqn:E; [|done] end.
    rs. destruct (put0 out o); [|done]. intros [= <- <-]. apply (scanR_keeps (fun s => (po_loop s, po_bpm s, po_span s, po_sr s))) in E; [done|].
    intros s0 x s2 b0. unfold points_step. rs.
    destruct (if po_loop s0 then _ else _) as [v|]; [|done]. by intros [= <- <-].
  Qed.
  Definition bq_shape (s : biquad) := (bq_pattern s, bq_bpm s, bq_span s, bq_sr s).
  Lemma bq_mod_pattern kf s ins out s' out' : bq_proc_mod kf s ins out = Ok (s', out') -> bq_shape s' = bq_shape s.
  Proof.
    unfold bq_proc_mod. rs. destruct (in_ord _ _ 0) as [mb|]; rs; [|done]. destruct (in_ord _ _ 1) as [rb|]; rs; [|done].
    destruct (chan rb 0) as [r0|]; rs; [|done]. destruct (unwrap (r0 !! 0)) as [m|]; rs; [|done].
    destruct (chan mb 0) as [m0|]; rs; [|done].
    match goal with |- context [scan ?f s m0] => pose proof (scan_keeps bq_shape f s m0 ltac:(done)) as H; destruct (scan f s m0) as [s1 o] end.
    simpl in *. destruct (put0 out o); rs; [|done]. by intros [= <- <-].
  Qed.
  Lemma rlpf_pattern s ins out s' out' : rlpf_proc P s ins out = Ok (s', out') -> bq_shape s' = bq_shape s.
  Proof.
    unfold rlpf_proc. destruct ins as [|p [|q [|r ins]]]; try (by intros [= <- <-]); [|apply bq_mod_pattern]. rs.
    destruct (chan p.2 0) as [m0|]; rs; [|done]. destruct (scanR _ _ _) as [[s1 o]|] eqn:E; [|done].
    apply (scanR_keeps bq_shape) in E.
    - destruct (put0 out o); rs; [|done]. by intros [= <- <-].
    - intros s0 x s2 b0. unfold lpf_step. rs. destruct (bq_cut P s0); rs; [|done]. intros H%Ok_fst. rewrite <- H. reflexivity.
  Qed.
  Lemma sampler_keeps s ins out s' out' : sampler_proc P s ins out = Ok (s', out') -> (sa_data s', sa_len s') = (sa_data s, sa_len s).
  Proof.
    unfold sampler_proc. rs. destruct ins as [|p [|q ins]]; try (destruct (put01 _ _ _); [|done]; by intros [= <- <-]).
    destruct (chan _ _) as [b|]; [|done]. destruct (scanR _ _ _) as [[s1 o]|] eqn:E; [|done].
    destruct (put01 _ _ _); [|done]. intros [= <- <-]. apply (scanR_keeps (fun s => (sa_data s, sa_len s))) in E; [done|].
    intros s0 x s2 b0. unfold sampler_step. rs. destruct (sampler_voices _ _ _ _); [|done]. by intros [= <- <-].
  Qed.
  Definition is_seq (n : snode P) : bool := match n with NSeq _ => true | _ => false end.
  Lemma choose_keeps s ins out s' out' : choose_proc P s ins out = Ok (s', out') -> (ch_list s', no_seed (ch_noise s')) = (ch_list s, no_seed (ch_noise s)).
  Proof.
    unfold choose_proc. cbn [noise_next]. rs. destruct (mapR _ _) as [b|]; [|done]. destruct (put0 out b); [|done]. by intros [= <- <-].
  Qed.
  Lemma sturdy_proc n ids ins out n' out' : sturdy n ids -> (is_seq n = true -> ins.*1 ≡ₚ ids) -> sproc P n ins out = Ok (n', out') ->
    sturdy n' ids /\ two_out n' = two_out n.
  Proof.
    intros Hs Hi. destruct n; cbn [sproc]; try (exfalso; exact Hs); try (intros (s' & H & ->)%wrap_inv; split; [|reflexivity]; cbn [sturdy] in Hs |- *).
    - by intros [= <- <-].
    - by intros [= <- <-].
    - destruct (sum2_proc _ _ _); [|done]. by intros [= <- <-].
    - by rewrite (op_keeps _ _ _ _ _ _ H).
    - by rewrite (op_keeps _ _ _ _ _ _ H).
    - by rewrite (osc_keeps _ _ _ _ _ _ _ H).
    - done.
    - by rewrite (imp_keeps _ _ _ _ _ H).
    - done.
    - by rewrite (balance_keeps _ _ _ _ _ H).
    - by rewrite (pan_keeps _ _ _ _ _ H).
    - done.
    - by rewrite (meta_keeps _ _ _ _ _ H).
    - destruct Hs as [-> Hb]. specialize (Hi eq_refl). apply Permutation_nil_r, fmap_nil_inv in Hi. subst ins. apply seq_alone_keeps in H.
      unfold seq_bar in *. injection H as -> -> ->. done.
    - unfold ch_fine in *. apply choose_keeps in H. injection H as -> ->. done.
    - apply arrange_keeps in H as [-> ->]. done.
    - apply points_keeps in H. unfold points_bar in *. injection H as -> -> -> ->. done.
    - unfold ps_bar in *. by rewrite (psynth_keeps _ _ _ _ _ H).
    - done.
    - apply sampler_keeps in H. injection H as -> ->. done.
    - destruct Hs as [Hs Hu]. split; [exact (psampler_keeps _ _ _ _ _ Hs H)|exact Hu].
    - done.
    - done.
    - by rewrite (envperc_keeps _ _ _ _ _ H).
    - by rewrite (adsr_keeps _ _ _ _ _ H).
    - by rewrite (apf_keeps _ _ _ _ _ _ H).
    - by rewrite (onepole_keeps _ _ _ _ _ _ H).
    - rewrite (rlpf_keeps _ _ _ _ _ _ H). apply rlpf_pattern in H. unfold bq_shape in H. injection H as E1 E2 E3 E4. unfold bq_fine, lpf_bar in *. by rewrite E1, E2, E3, E4.
    - by rewrite (rhpf_keeps _ _ _ _ _ _ H).
  Qed.
End sturdy.

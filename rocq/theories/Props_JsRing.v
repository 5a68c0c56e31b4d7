(** * Props_JsRing: what crosses the ring buffer of ringbuf.js (C57, C58, C67-C70). *)
From Verif Require Export JsRing.
Local Open Scope nat_scope.

Section fifo.
  Context {A : Type}.
  Notation state := (state A).
  Notation label := (label A).

  (** What the producer was told is taken, and what the consumer was given. *)
  Definition accepted (tr : list label) : list A :=
    List.concat (map (fun l => match l with PushRet xs n => take n xs | _ => [] end) tr).
  Definition delivered (tr : list label) : list A :=
    List.concat (map (fun l => match l with PopRet es n => take n es | _ => [] end) tr).

  Lemma accepted_app tr l : accepted (tr ++ l) = accepted tr ++ accepted l.
  Proof. unfold accepted. by rewrite map_app, concat_app. Qed.
  Lemma delivered_app tr l : delivered (tr ++ l) = delivered tr ++ delivered l.
  Proof. unfold delivered. by rewrite map_app, concat_app. Qed.

  (** Arithmetic of positions modulo the size of the storage. *)
  Lemma mod_add cap a b r : cap <> 0 -> r = a mod cap -> (r + b) mod cap = (a + b) mod cap.
  Proof. intros Hc ->. by rewrite Nat.add_mod_idemp_l. Qed.
  Lemma mod_neq cap a b : b < a -> a - b < cap -> a mod cap <> b mod cap.
  Proof.
    intros H1 H2 He. assert (cap <> 0) by lia.
    pose proof (Nat.div_mod a cap ltac:(done)) as Ha. pose proof (Nat.div_mod b cap ltac:(done)) as Hb.
    rewrite He in Ha. assert (a - b = cap * (a / cap - b / cap)) by nia.
    destruct (a / cap - b / cap) eqn:E; nia.
  Qed.
  Lemma mod_dist cap r w : cap <> 0 -> r <= w -> w - r < cap ->
    w - r = if Nat.ltb (w mod cap) (r mod cap) then w mod cap + cap - r mod cap else w mod cap - r mod cap.
  Proof.
    intros Hc H1 H2. pose proof (Nat.div_mod w cap Hc). pose proof (Nat.div_mod r cap Hc).
    pose proof (Nat.mod_upper_bound w cap Hc). pose proof (Nat.mod_upper_bound r cap Hc).
    assert (r / cap <= w / cap) by (by apply Nat.div_le_mono).
    assert (w / cap <= r / cap + 1) by nia.
    generalize dependent (w / cap). generalize dependent (r / cap). intros qr Hr qw Hw Hl Hu.
    assert (qw = qr \/ qw = qr + 1) as [-> | ->] by lia.
    - destruct (Nat.ltb_spec (w mod cap) (r mod cap)); lia.
    - rewrite Nat.mul_add_distr_l, Nat.mul_1_r in Hw. destruct (Nat.ltb_spec (w mod cap) (r mod cap)); lia.
  Qed.
  Lemma mod_cell cap a n i f : cap <> 0 -> f <= cap - a mod cap -> (n <= f \/ f = cap - a mod cap) -> i < n -> n <= cap ->
    cell (a mod cap) f i = (a + i) mod cap.
  Proof.
    intros Hc Hf Hn Hi Hnc. pose proof (Nat.mod_upper_bound a cap Hc). unfold cell.
    rewrite <- (Nat.add_mod_idemp_l a i cap) by done. destruct (Nat.ltb_spec i f).
    - by rewrite (Nat.mod_small (a mod cap + i) cap) by lia.
    - destruct Hn as [Hn| ->]; [lia|]. rewrite (Nat.mod_eq (a mod cap + i) cap) by done.
      replace ((a mod cap + i) / cap) with 1; [lia|]. apply (Nat.div_unique _ _ 1 (a mod cap + i - cap)); lia.
  Qed.
  Lemma write_room c r w : r <= w -> w - r <= c ->
    available_write (c + 1) (r mod (c + 1)) (w mod (c + 1)) = c - (w - r).
  Proof.
    intros H1 H2. rewrite (mod_dist (c + 1) r w) by lia. unfold available_write.
    pose proof (Nat.mod_upper_bound w (c + 1) ltac:(lia)). pose proof (Nat.mod_upper_bound r (c + 1) ltac:(lia)).
    destruct (Nat.leb_spec (r mod (c + 1)) (w mod (c + 1))), (Nat.ltb_spec (w mod (c + 1)) (r mod (c + 1))); lia.
  Qed.
  Lemma read_room c r w : r < w -> w - r <= c ->
    available_read (c + 1) (r mod (c + 1)) (w mod (c + 1)) = w - r.
  Proof.
    intros H1 H2. pose proof (mod_neq (c + 1) w r H1 ltac:(lia)).
    rewrite (mod_dist (c + 1) r w) by lia. unfold available_read.
    destruct (Nat.ltb_spec (r mod (c + 1)) (w mod (c + 1))), (Nat.ltb_spec (w mod (c + 1)) (r mod (c + 1))); lia.
  Qed.
  Lemma full_room c r w : r <= w -> w - r <= c ->
    ring_full (c + 1) (r mod (c + 1)) (w mod (c + 1)) = true <-> w - r = c.
  Proof.
    intros H1 H2. unfold ring_full. rewrite Nat.eqb_eq, Nat.add_mod_idemp_l by lia. split.
    - intros He. destruct (decide (w - r = c)) as [|Hn]; [done|].
      exfalso. apply (mod_neq (c + 1) (w + 1) r); [lia|lia|done].
    - intros He. replace (w + 1) with (r + 1 * (c + 1)) by lia. by rewrite Nat.mod_add by lia.
  Qed.
  Lemma same_room c r w : r <= w -> w - r <= c -> w mod (c + 1) = r mod (c + 1) -> w = r.
  Proof.
    intros H1 H2 He. destruct (decide (w = r)) as [|]; [done|]. exfalso. apply (mod_neq (c + 1) w r); [lia|lia|done].
  Qed.

  (** The invariant, for everything accepted ([sent]) and delivered ([got]) so far. *)
  Definition p_inv (c : nat) (sent got : list A) (store : list A) (p : producer A) : Prop :=
    match p with
    | PAsk2 _ rd | PLoad2 _ rd => exists r, rd = r mod (c + 1) /\ r <= length got /\ length sent <= r + c
    | PCopy xs wr n i => wr = length sent mod (c + 1) /\ n <= length xs /\ i <= n /\
        length sent + n <= length got + c /\ forall j, j < i -> store !! ((length sent + j) mod (c + 1)) = xs !! j
    | _ => True
    end.
  Definition c_inv (c : nat) (sent got : list A) (k : consumer A) : Prop :=
    match k with
    | CAsk2 _ rd | CLoad2 _ rd => rd = length got mod (c + 1)
    | CCopy es rd n i => rd = length got mod (c + 1) /\ n <= length es /\ length got + n <= length sent /\
        i <= pop_copies (c + 1) rd n es /\ forall j, j < i -> j < n -> es !! j = sent !! (length got + j)
    | _ => True
    end.
  Record inv (c : nat) (sent got : list A) (s : state) : Prop := {
    iv_prefix : exists q, sent = got ++ q /\ length q <= c;
    iv_wp : sh_wp (st_sh s) = length sent mod (c + 1);
    iv_rp : sh_rp (st_sh s) = length got mod (c + 1);
    iv_len : length (sh_store (st_sh s)) = c + 1;
    iv_store : forall k, length got <= k -> k < length sent -> sh_store (st_sh s) !! (k mod (c + 1)) = sent !! k;
    iv_p : p_inv c sent got (sh_store (st_sh s)) (st_p s);
    iv_c : c_inv c sent got (st_c s) }.

  Lemma inv_fresh z c : inv c [] [] (fresh_ring z c).
  Proof.
    split; cbn; auto.
    - exists []. cbn. split; [done|lia].
    - by rewrite Nat.mod_0_l by lia.
    - by rewrite Nat.mod_0_l by lia.
    - by rewrite replicate_length.
    - intros k H1 H2. lia.
  Qed.

  Lemma inv_pstep c sent got sh p k l sh' p' : inv c sent got (State sh p k) -> pstep (c + 1) (sh, p) l (sh', p') ->
    inv c (sent ++ accepted (seen_ l)) (got ++ delivered (seen_ l)) (State sh' p' k).
  Proof.
    intros [(q & Hq & Hqc) Hwp Hrp Hlen Hst Hp Hc] Hs. cbn in *.
    assert (Hsg : length sent = length got + length q) by (by rewrite Hq, app_length).
    assert (Hkeep : p_inv c sent got (sh_store sh) p' -> inv c sent got (State sh p' k)).
    { intros Hp'. split; auto. by exists q. }
    inversion Hs; subst l; subst; unfold accepted, delivered; cbn [seen_ map List.concat]; rewrite ?take_0, ?app_nil_r;
      try (apply Hkeep; cbn; auto; try done; fail).
    - apply Hkeep. cbn. exists (length got). rewrite app_length in *. split_and!; auto; lia.
    - apply Hkeep. cbn. exists (length got). rewrite app_length in *. split_and!; auto; lia.
    - apply Hkeep. cbn. destruct Hp as (r & -> & Hr1 & Hr2). rewrite Hwp. rewrite write_room by lia.
      split_and!; auto; try lia.
    - (* one element copied *)
      destruct Hp as (-> & Hn & Hi & Hroom & Hw). set (W := length (got ++ q)) in *.
      assert (Hcell : cell (W mod (c + 1)) (push_first (c + 1) (W mod (c + 1)) n) i = (W + i) mod (c + 1)).
      { pose proof (Nat.mod_upper_bound W (c + 1) ltac:(lia)).
        apply (mod_cell (c + 1) W n i); unfold push_first; lia. }
      rewrite Hcell. split; cbn; auto.
      + by exists q.
      + by rewrite insert_length.
      + intros j H1 H2. rewrite list_lookup_insert_ne; [by apply Hst|]. apply mod_neq; lia.
      + split_and!; auto. intros j Hj. destruct (decide (j = i)) as [->|Hne].
        * rewrite list_lookup_insert; [done|]. rewrite Hlen. apply Nat.mod_upper_bound. lia.
        * rewrite list_lookup_insert_ne; [apply Hw; lia|]. destruct (decide (j < i)); [|lia].
          apply mod_neq; lia.
    - (* published *)
      destruct Hp as (-> & Hn & _ & Hroom & Hw). set (W := length (got ++ q)) in *.
      assert (HL : length ((got ++ q) ++ take n xs) = W + n) by (rewrite app_length, take_length; fold W; lia).
      split; cbn; auto.
      + exists (q ++ take n xs). rewrite <- app_assoc. split; [done|]. rewrite app_length, take_length. lia.
      + rewrite HL. by apply mod_add; [lia|].
      + intros j H1 H2. rewrite HL in H2. destruct (decide (j < W)) as [Hj|Hj].
        * rewrite (lookup_app_l (got ++ q) _ j) by done. by apply Hst.
        * rewrite (lookup_app_r (got ++ q) _ j) by lia. fold W. rewrite lookup_take by lia.
          rewrite <- Hw by lia. do 2 f_equal. lia.
      + destruct k as [|es|es rd|es|es rd|es rd m i]; cbn in *; auto.
        destruct Hc as (H1 & H2 & H3 & H4 & H5). split_and!; auto; [lia|]. intros j Hj1 Hj2.
        rewrite (lookup_app_l (got ++ q)) by (fold W; lia). by apply H5.
  Qed.

  Lemma inv_cstep c sent got sh p k l sh' k' : inv c sent got (State sh p k) -> cstep (c + 1) (sh, k) l (sh', k') ->
    inv c (sent ++ accepted (seen_ l)) (got ++ delivered (seen_ l)) (State sh' p k').
  Proof.
    intros [(q & Hq & Hqc) Hwp Hrp Hlen Hst Hp Hc] Hs. cbn in *.
    assert (Hsg : length sent = length got + length q) by (by rewrite Hq, app_length).
    assert (Hkeep : c_inv c sent got k' -> inv c sent got (State sh p k')).
    { intros Hc'. split; auto. by exists q. }
    inversion Hs; subst l; subst; unfold accepted, delivered; cbn [seen_ map List.concat]; rewrite ?take_0, ?app_nil_r;
      try (apply Hkeep; cbn; auto; try done; fail).
    - apply Hkeep. cbn. cbn in Hc. subst rd. rewrite Hwp. rewrite app_length in *.
      assert (length q <> 0) by (intros He; rewrite He, Nat.add_0_r in Hwp; congruence).
      rewrite read_room by lia. split_and!; auto; try lia.
    - (* one element copied *)
      destruct Hc as (-> & Hn & Hroom & Hi & Hg). set (R := length got) in *.
      apply Hkeep. cbn. rewrite insert_length. split_and!; auto.
      + unfold pop_copies, pop_first in *. rewrite insert_length. lia.
      + intros j Hj1 Hj2. destruct (decide (j = i)) as [->|Hne].
        * rewrite list_lookup_insert by lia. symmetry.
          assert (Hcell : cell (R mod (c + 1)) (pop_first (c + 1) (R mod (c + 1)) es) i = (R + i) mod (c + 1)).
          { apply (mod_cell (c + 1) R n i); unfold pop_first; lia. }
          rewrite Hcell in *. rewrite <- Hst by lia. done.
        * rewrite list_lookup_insert_ne by lia. apply Hg; lia.
    - (* taken *)
      destruct Hc as (-> & Hn & Hroom & _ & Hg). set (R := length got) in *.
      assert (Htake : take n es = take n q).
      { apply list_eq. intros j. destruct (decide (j < n)) as [Hj|Hj].
        - rewrite !lookup_take by done. rewrite Hg; [|unfold pop_copies, pop_first; lia|done].
          rewrite lookup_app_r by (unfold R; lia). f_equal. unfold R. lia.
        - rewrite !lookup_take_ge by lia. done. }
      assert (HL : length (got ++ take n es) = R + n) by (rewrite app_length, take_length; fold R; lia).
      split; cbn; auto.
      + exists (drop n q). rewrite <- app_assoc, Htake, take_drop. split; [done|]. rewrite drop_length. lia.
      + rewrite HL. by apply mod_add; [lia|].
      + intros j H1 H2. apply Hst; lia.
      + destruct p as [|xs|xs rd|xs|xs rd|xs wr m i]; cbn in *; auto.
        * destruct Hp as (r & H1 & H2 & H3). exists r. split_and!; auto; lia.
        * destruct Hp as (r & H1 & H2 & H3). exists r. split_and!; auto; lia.
        * destruct Hp as (H1 & H2 & H3 & H4 & H5). split_and!; auto; lia.
  Qed.

  Lemma inv_run z c tr s : run (c + 1) (fresh_ring z c) tr s -> inv c (accepted tr) (delivered tr) s.
  Proof.
    remember (fresh_ring z c) as s0 eqn:E0. induction 1 as [s|s tr s1 l s2 Hr IH Hs]; subst; [apply inv_fresh|].
    rewrite accepted_app, delivered_app. specialize (IH eq_refl). inversion Hs; subst.
    - by eapply inv_pstep.
    - by eapply inv_cstep.
  Qed.

  (** ** C57 *)

  (** Under every interleaving: what the consumer was given is, in order and without gaps or
      repetitions, the beginning of what the producer was told is taken, and the rest is at
      most the capacity asked for. *)
  Theorem C57_fifo (z : A) c tr s : run (c + 1) (fresh_ring z c) tr s ->
    exists waiting, accepted tr = delivered tr ++ waiting /\ length waiting <= c.
  Proof. intros H. apply (iv_prefix _ _ _ _ (inv_run _ _ _ _ H)). Qed.

  (** A push takes at least what there was room for when it was called, and a pop delivers at
      least what was waiting when it was called, whatever the other side does meanwhile. *)
  Definition push_label (l : label) : Prop := match l with PushCall _ | PushRet _ _ => True | _ => False end.
  Definition pop_label (l : label) : Prop := match l with PopCall _ | PopRet _ _ => True | _ => False end.

  Definition p_owes (c : nat) (xs : list A) (room : nat) (sent got : list A) (p : producer A) : Prop :=
    match p with
    | PIdle => False
    | PAsk1 ys | PLoad1 ys => ys = xs /\ room <= c - (length sent - length got)
    | PAsk2 ys rd | PLoad2 ys rd => ys = xs /\
        exists r, rd = r mod (c + 1) /\ r <= length got /\ length sent <= r + c /\ r <= length sent /\ room <= c - (length sent - r)
    | PCopy ys _ n _ => ys = xs /\ min (length xs) room <= n
    end.
  Definition c_owes (len ready : nat) (sent got : list A) (k : consumer A) : Prop :=
    match k with
    | CIdle => False
    | CAsk1 es | CLoad1 es | CAsk2 es _ | CLoad2 es _ => length es = len /\ ready <= length sent - length got
    | CCopy es _ n _ => length es = len /\ min len ready <= n
    end.
  Lemma inv_step c sent got s l s' : inv c sent got s -> step (c + 1) s l s' ->
    inv c (sent ++ accepted (seen_ l)) (got ++ delivered (seen_ l)) s'.
  Proof. intros Hi Hs. inversion Hs; subst; [by eapply inv_pstep|by eapply inv_cstep]. Qed.
  Lemma inv_order c sent got s : inv c sent got s -> length got <= length sent /\ length sent <= length got + c.
  Proof. intros [(q & -> & Hq) _ _ _ _ _ _]. rewrite app_length. lia. Qed.

  Lemma p_owes_step c xs room sent got s l s' : inv c sent got s -> step (c + 1) s l s' ->
    Forall (fun x => ~ push_label x) (seen_ l) -> p_owes c xs room sent got (st_p s) ->
    p_owes c xs room sent (got ++ delivered (seen_ l)) (st_p s').
  Proof.
    intros Hi Hs Hq Ho. pose proof (inv_order _ _ _ _ Hi) as [Hord1 Hord2].
    inversion Hs as [sh p k l0 sh' p' Hst|sh p k l0 sh' k' Hst]; subst; cbn in *.
    - pose proof (iv_wp _ _ _ _ Hi) as Hwp. pose proof (iv_rp _ _ _ _ Hi) as Hrp. cbn in Hwp, Hrp.
      inversion Hst; subst; unfold delivered; cbn [seen_ map List.concat] in *; rewrite ?app_nil_r;
        try (inversion Hq as [|? ? Hq1 _]; subst; by destruct Hq1); cbn in *.
      + destruct Ho as [-> Ho]. split; [done|]. exists (length got). split_and!; auto; lia.
      + destruct Ho as (-> & r & Hr1 & Hr2 & Hr3 & Hr4 & Hr5). split; [done|]. lia.
      + destruct Ho as [-> Ho]. split; [done|]. exists (length got). split_and!; auto; lia.
      + destruct Ho as (-> & r & -> & Hr2 & Hr3 & Hr4 & Hr5). split; [done|]. rewrite Hwp, write_room by lia. lia.
      + done.
    - set (got' := got ++ _). assert (length got <= length got') by (unfold got'; rewrite app_length; lia).
      destruct p as [|ys|ys rd|ys|ys rd|ys wr n i]; cbn in *; auto.
      + destruct Ho as [-> Ho]. split; [done|lia].
      + destruct Ho as (-> & r & Hr1 & Hr2 & Hr3 & Hr4 & Hr5). split; [done|]. exists r. split_and!; auto; lia.
      + destruct Ho as [-> Ho]. split; [done|lia].
      + destruct Ho as (-> & r & Hr1 & Hr2 & Hr3 & Hr4 & Hr5). split; [done|]. exists r. split_and!; auto; lia.
  Qed.
  Lemma c_owes_step c len ready sent got s l s' : inv c sent got s -> step (c + 1) s l s' ->
    Forall (fun x => ~ pop_label x) (seen_ l) -> c_owes len ready sent got (st_c s) ->
    c_owes len ready (sent ++ accepted (seen_ l)) got (st_c s').
  Proof.
    intros Hi Hs Hq Ho. pose proof (inv_order _ _ _ _ Hi) as [Hord1 Hord2].
    inversion Hs as [sh p k l0 sh' p' Hst|sh p k l0 sh' k' Hst]; subst; cbn in *.
    - set (sent' := sent ++ _). assert (length sent <= length sent') by (unfold sent'; rewrite app_length; lia).
      destruct k as [|ys|ys rd|ys|ys rd|ys wr n i]; cbn in *; auto; destruct Ho as [? Ho]; split; auto; lia.
    - pose proof (iv_wp _ _ _ _ Hi) as Hwp. pose proof (iv_rp _ _ _ _ Hi) as Hrp. pose proof (iv_c _ _ _ _ Hi) as Hc. cbn in Hwp, Hrp, Hc.
      inversion Hst; subst; unfold accepted; cbn [seen_ map List.concat] in *; rewrite ?app_nil_r;
        try (inversion Hq as [|? ? Hq1 _]; subst; by destruct Hq1); cbn in *; try done.
      + destruct Ho as [<- Ho]. split; [done|]. subst rd. rewrite Hwp, read_room; [lia| |lia].
        destruct (decide (length sent = length got)) as [He|]; [|lia]. rewrite He in Hwp. congruence.
      + rewrite insert_length. done.
  Qed.
  Lemma quiet_accepted l : Forall (fun x => ~ push_label x) l -> accepted l = [].
  Proof. induction 1 as [|x l Hx _ IH]; [done|]. unfold accepted in *. cbn. rewrite IH. by destruct x as [| | |]; try (by destruct Hx). Qed.
  Lemma quiet_delivered l : Forall (fun x => ~ pop_label x) l -> delivered l = [].
  Proof. induction 1 as [|x l Hx _ IH]; [done|]. unfold delivered in *. cbn. rewrite IH. by destruct x as [| | |]; try (by destruct Hx). Qed.

  Lemma run_inv c s tr s' sent got : run (c + 1) s tr s' -> inv c sent got s ->
    inv c (sent ++ accepted tr) (got ++ delivered tr) s'.
  Proof.
    induction 1 as [s|s tr s1 l s2 Hr IH Hs]; intros Hi; [by rewrite !app_nil_r|].
    rewrite accepted_app, delivered_app, !app_assoc. eapply inv_step; eauto.
  Qed.
  Lemma p_owes_run c xs room sent got s tr s' : run (c + 1) s tr s' -> inv c sent got s ->
    Forall (fun x => ~ push_label x) tr -> p_owes c xs room sent got (st_p s) ->
    p_owes c xs room sent (got ++ delivered tr) (st_p s').
  Proof.
    induction 1 as [s|s tr s1 l s2 Hr IH Hs]; intros Hi Hq Ho; [by rewrite app_nil_r|].
    apply Forall_app in Hq as [Hq1 Hq2]. rewrite delivered_app, app_assoc.
    eapply p_owes_step; [|exact Hs|done|by apply IH].
    pose proof (run_inv _ _ _ _ _ _ Hr Hi) as H. by rewrite (quiet_accepted tr Hq1), app_nil_r in H.
  Qed.
  Lemma c_owes_run c len ready sent got s tr s' : run (c + 1) s tr s' -> inv c sent got s ->
    Forall (fun x => ~ pop_label x) tr -> c_owes len ready sent got (st_c s) ->
    c_owes len ready (sent ++ accepted tr) got (st_c s').
  Proof.
    induction 1 as [s|s tr s1 l s2 Hr IH Hs]; intros Hi Hq Ho; [by rewrite app_nil_r|].
    apply Forall_app in Hq as [Hq1 Hq2]. rewrite accepted_app, app_assoc.
    eapply c_owes_step; [|exact Hs|done|by apply IH].
    pose proof (run_inv _ _ _ _ _ _ Hr Hi) as H. by rewrite (quiet_delivered tr Hq1), app_nil_r in H.
  Qed.

  Lemma push_room (z : A) c tr s0 xs s1 mid s2 ys n s3 : run (c + 1) (fresh_ring z c) tr s0 ->
    step (c + 1) s0 (Some (PushCall xs)) s1 -> run (c + 1) s1 mid s2 -> Forall (fun x => ~ push_label x) mid ->
    step (c + 1) s2 (Some (PushRet ys n)) s3 ->
    ys = xs /\ min (length xs) (c - (length (accepted tr) - length (delivered tr))) <= n <= length xs.
  Proof.
    intros H0 H1 Hm Hq H2. pose proof (inv_run _ _ _ _ H0) as Hi0. pose proof (inv_step _ _ _ _ _ _ Hi0 H1) as Hi1.
    cbn in Hi1. rewrite !app_nil_r in Hi1.
    set (room := c - _). assert (Ho : p_owes c xs room (accepted tr) (delivered tr) (st_p s1)).
    { inversion H1 as [sh p k l0 sh' p' Hst|sh p k l0 sh' k' Hst]; subst; inversion Hst; subst; done. }
    pose proof (p_owes_run _ _ _ _ _ _ _ _ Hm Hi1 Hq Ho) as Ho2. pose proof (run_inv _ _ _ _ _ _ Hm Hi1) as Hi2.
    rewrite (quiet_accepted mid Hq), app_nil_r in Hi2. pose proof (iv_p _ _ _ _ Hi2) as Hp2. pose proof (iv_wp _ _ _ _ Hi2) as Hwp.
    pose proof (inv_order _ _ _ _ Hi2) as [Hord1 Hord2].
    inversion H2 as [sh p k l0 sh' p' Hst|sh p k l0 sh' k' Hst]; subst; inversion Hst; subst; cbn in *.
    - destruct Ho2 as (-> & r & -> & Hr2 & Hr3 & Hr4 & Hr5). split; [done|]. rewrite Hwp, write_room in * by lia. lia.
    - destruct Ho2 as (-> & r & -> & Hr2 & Hr3 & Hr4 & Hr5). split; [done|].
      match goal with H : ring_full _ _ _ = true |- _ => rewrite Hwp in H; apply full_room in H; lia end.
    - destruct Ho2 as [-> Ho2]. split; [done|]. lia.
  Qed.
  Lemma pop_ready (z : A) c tr s0 es s1 mid s2 es' n s3 : run (c + 1) (fresh_ring z c) tr s0 ->
    step (c + 1) s0 (Some (PopCall es)) s1 -> run (c + 1) s1 mid s2 -> Forall (fun x => ~ pop_label x) mid ->
    step (c + 1) s2 (Some (PopRet es' n)) s3 ->
    length es' = length es /\ min (length es) (length (accepted tr) - length (delivered tr)) <= n <= length es.
  Proof.
    intros H0 H1 Hm Hq H2. pose proof (inv_run _ _ _ _ H0) as Hi0. pose proof (inv_step _ _ _ _ _ _ Hi0 H1) as Hi1.
    cbn in Hi1. rewrite !app_nil_r in Hi1.
    set (ready := length _ - _). assert (Ho : c_owes (length es) ready (accepted tr) (delivered tr) (st_c s1)).
    { inversion H1 as [sh p k l0 sh' p' Hst|sh p k l0 sh' k' Hst]; subst; inversion Hst; subst; done. }
    pose proof (c_owes_run _ _ _ _ _ _ _ _ Hm Hi1 Hq Ho) as Ho2. pose proof (run_inv _ _ _ _ _ _ Hm Hi1) as Hi2.
    rewrite (quiet_delivered mid Hq), app_nil_r in Hi2. pose proof (iv_c _ _ _ _ Hi2) as Hc2. pose proof (iv_wp _ _ _ _ Hi2) as Hwp.
    pose proof (inv_order _ _ _ _ Hi2) as [Hord1 Hord2].
    inversion H2 as [sh p k l0 sh' p' Hst|sh p k l0 sh' k' Hst]; subst; inversion Hst; subst; cbn in *.
    - destruct Ho2 as [-> Ho2]. split; [done|]. rewrite Hwp in Hc2. apply same_room in Hc2; lia.
    - destruct Ho2 as [-> Ho2]. split; [done|]. rewrite Hwp in Hc2. apply same_room in Hc2; lia.
    - destruct Ho2 as [Hl Ho2]. split; [done|]. lia.
  Qed.

  Lemma run_one cap (s : state) l s' : step cap s l s' -> run cap s (seen_ l) s'.
  Proof. intros H. apply (r_step _ s [] s l s'); [constructor|done]. Qed.
  Lemma run_trans cap (s : state) tr s1 tr2 s2 : run cap s tr s1 -> run cap s1 tr2 s2 -> run cap s (tr ++ tr2) s2.
  Proof.
    intros H1 H2. induction H2 as [s1|s1 tr2 s3 l s4 _ IH Hs]; [by rewrite app_nil_r|].
    rewrite app_assoc. econstructor; [by apply IH|done].
  Qed.
  Lemma run_split cap (s : state) tr l tr2 s' : run cap s (tr ++ l :: tr2) s' ->
    exists s1 s2, run cap s tr s1 /\ step cap s1 (Some l) s2 /\ run cap s2 tr2 s'.
  Proof.
    remember (tr ++ l :: tr2) as t eqn:E. intros H. revert tr2 E. induction H as [s|s t s1 l0 s2 Hr IH Hs]; intros tr2 E.
    { by apply app_cons_not_nil in E. }
    destruct l0 as [x|]; cbn in E.
    - destruct tr2 as [|y tr3 _] using rev_ind.
      + apply app_inj_tail in E as [-> ->]. exists s1, s2. split_and!; auto. constructor.
      + replace (tr ++ l :: tr3 ++ [y]) with ((tr ++ l :: tr3) ++ [y]) in E by (by rewrite <- app_assoc).
        apply app_inj_tail in E as [-> ->]. destruct (IH tr3 eq_refl) as (a & b & H1 & H2 & H3).
        exists a, b. split_and!; auto. by apply (r_step _ b tr3 s1 (Some y) s2).
    - rewrite app_nil_r in E. destruct (IH tr2 E) as (a & b & H1 & H2 & H3). exists a, b. split_and!; auto.
      pose proof (r_step _ _ _ _ _ _ H3 Hs) as H4. cbn in H4. by rewrite app_nil_r in H4.
  Qed.

  Theorem C57_push_room (z : A) c tr xs mid ys n s : run (c + 1) (fresh_ring z c) (tr ++ PushCall xs :: mid ++ [PushRet ys n]) s ->
    Forall (fun x => ~ push_label x) mid ->
    ys = xs /\ min (length xs) (c - (length (accepted tr) - length (delivered tr))) <= n <= length xs.
  Proof.
    intros (s1 & s2 & H1 & H2 & (s3 & s4 & H3 & H4 & _)%run_split)%run_split Hq. by eapply push_room.
  Qed.
  Theorem C57_pop_ready (z : A) c tr es mid es' n s : run (c + 1) (fresh_ring z c) (tr ++ PopCall es :: mid ++ [PopRet es' n]) s ->
    Forall (fun x => ~ pop_label x) mid ->
    length es' = length es /\ min (length es) (length (accepted tr) - length (delivered tr)) <= n <= length es.
  Proof.
    intros (s1 & s2 & H1 & H2 & (s3 & s4 & H3 & H4 & _)%run_split)%run_split Hq. by eapply pop_ready.
  Qed.

  (** Neither side ever waits for the other: a call that has begun can finish by its own steps. *)
  Definition p_left (p : producer A) : nat :=
    match p with PIdle => 0 | PCopy _ _ n i => S (n - i) | PLoad2 xs _ => S (S (length xs))
            | PLoad1 xs => S (S (S (length xs))) | PAsk2 xs _ => 4 + length xs | PAsk1 xs => 5 + length xs end.
  Definition c_left (c : nat) (k : consumer A) : nat :=
    match k with CIdle => 0 | CCopy es rd n i => S (pop_copies (c + 1) rd n es - i)
            | CLoad2 es _ => 3 + 2 * length es | CLoad1 es => 4 + 2 * length es
            | CAsk2 es _ => 5 + 2 * length es | CAsk1 es => 6 + 2 * length es end.
  Lemma push_moves c sent got s : inv c sent got s -> st_p s <> PIdle ->
    exists l s', step (c + 1) s l s' /\ st_c s' = st_c s /\ p_left (st_p s') < p_left (st_p s) /\
      match l with None => st_p s' <> PIdle | Some (PushRet _ _) => st_p s' = PIdle | _ => False end.
  Proof.
    intros Hi Hne. destruct s as [sh p k]. pose proof (iv_p _ _ _ _ Hi) as Hp. cbn in *.
    destruct p as [|xs|xs rd|xs|xs rd|xs wr n i]; [done| | | | |].
    - exists None. eexists. split; [apply s_p, ps_ask1|]. cbn. split_and!; auto; lia.
    - destruct (decide (available_write (c + 1) rd (sh_wp sh) = 0)) as [He|He].
      + exists (Some (PushRet xs 0)). eexists. split; [by apply s_p, ps_ask2_no|]. cbn. split_and!; auto; lia.
      + exists None. eexists. split; [by apply s_p, ps_ask2|]. cbn. split_and!; auto; lia.
    - exists None. eexists. split; [apply s_p, ps_load1|]. cbn. split_and!; auto; lia.
    - destruct (ring_full (c + 1) rd (sh_wp sh)) eqn:He.
      + exists (Some (PushRet xs 0)). eexists. split; [by apply s_p, ps_load2_full|]. cbn. split_and!; auto; lia.
      + exists None. eexists. split; [by apply s_p, ps_load2|]. cbn. split_and!; auto; lia.
    - destruct Hp as (_ & Hn & Hin & _). destruct (decide (i = n)) as [->|Hne2].
      + exists (Some (PushRet xs n)). eexists. split; [apply s_p, ps_store|]. cbn. split_and!; auto; lia.
      + destruct (lookup_lt_is_Some_2 xs i) as [x Hx]; [lia|].
        exists None. eexists. split; [apply s_p, ps_copy; [lia|done]|]. cbn. split_and!; auto; lia.
  Qed.
  Lemma pop_moves c sent got s : inv c sent got s -> st_c s <> CIdle ->
    exists l s', step (c + 1) s l s' /\ st_p s' = st_p s /\ c_left c (st_c s') < c_left c (st_c s) /\
      match l with None => st_c s' <> CIdle | Some (PopRet _ _) => st_c s' = CIdle | _ => False end.
  Proof.
    intros Hi Hne. destruct s as [sh p k]. pose proof (iv_c _ _ _ _ Hi) as Hc. pose proof (iv_len _ _ _ _ Hi) as Hlen. cbn in *.
    destruct k as [|xs|xs rd|xs|xs rd|xs rd n i]; [done| | | | |].
    - exists None. eexists. split; [apply s_c, cs_ask1|]. cbn. split_and!; auto; lia.
    - destruct (decide (sh_wp sh = rd)) as [He|He].
      + exists (Some (PopRet xs 0)). eexists. split; [by apply s_c, cs_ask2_no|]. cbn. split_and!; auto; lia.
      + exists None. eexists. split; [by apply s_c, cs_ask2|]. cbn. split_and!; auto; lia.
    - exists None. eexists. split; [apply s_c, cs_load1|]. cbn. split_and!; auto; lia.
    - destruct (decide (sh_wp sh = rd)) as [He|He].
      + exists (Some (PopRet xs 0)). eexists. split; [by apply s_c, cs_load2_empty|]. cbn. split_and!; auto; lia.
      + exists None. eexists. split; [by apply s_c, cs_load2|]. cbn [st_p st_c c_left]. split_and!; [done| |done]. unfold pop_copies, pop_first. lia.
    - destruct Hc as (-> & Hn & Hnq & Hin & _). pose proof (inv_order _ _ _ _ Hi) as [_ Hord]. set (rd := length got mod (c + 1)) in *.
      assert (rd < c + 1) by (apply Nat.mod_upper_bound; lia). destruct (decide (i = pop_copies (c + 1) rd n xs)) as [->|Hne2].
      + exists (Some (PopRet xs n)). eexists. split; [apply s_c, cs_store|]. cbn. split_and!; auto; lia.
      + destruct (lookup_lt_is_Some_2 (sh_store sh) (cell rd (pop_first (c + 1) rd xs) i)) as [x Hx].
        { rewrite Hlen. unfold cell, pop_copies, pop_first in *. destruct (Nat.ltb_spec i ((c + 1 - rd) `min` length xs)); lia. }
        exists None. eexists. split; [apply s_c, cs_copy; [lia|done]|]. cbn. split_and!; [done| |done].
        unfold pop_copies, pop_first in *. rewrite insert_length. lia.
  Qed.
  Lemma push_finishes c sent got s : inv c sent got s -> st_p s <> PIdle ->
    exists xs n s1 s', run (c + 1) s [] s1 /\ step (c + 1) s1 (Some (PushRet xs n)) s' /\ st_p s' = PIdle /\ st_c s' = st_c s.
  Proof.
    remember (p_left (st_p s)) as m eqn:Hm. revert s Hm. induction (lt_wf m) as [m _ IH]. intros s -> Hi Hne.
    destruct (push_moves _ _ _ _ Hi Hne) as (l & s' & Hs & Hc & Hlt & Hl).
    destruct l as [[xs|xs n|es|es n]|]; try done.
    - exists xs, n, s, s'. split_and!; auto. constructor.
    - pose proof (inv_step _ _ _ _ _ _ Hi Hs) as Hi'. cbn in Hi'. rewrite !app_nil_r in Hi'.
      destruct (IH _ Hlt s' eq_refl Hi' Hl) as (xs & n & s1 & s2 & H1 & H2 & H3 & H4). exists xs, n, s1, s2. split_and!; auto; [|congruence].
      apply (run_trans _ _ [] s' [] s1); [|done]. by apply (run_one _ _ None).
  Qed.
  Lemma pop_finishes c sent got s : inv c sent got s -> st_c s <> CIdle ->
    exists es n s1 s', run (c + 1) s [] s1 /\ step (c + 1) s1 (Some (PopRet es n)) s' /\ st_c s' = CIdle /\ st_p s' = st_p s.
  Proof.
    remember (c_left c (st_c s)) as m eqn:Hm. revert s Hm. induction (lt_wf m) as [m _ IH]. intros s -> Hi Hne.
    destruct (pop_moves _ _ _ _ Hi Hne) as (l & s' & Hs & Hc & Hlt & Hl).
    destruct l as [[xs|xs n|es|es n]|]; try done.
    - exists es, n, s, s'. split_and!; auto. constructor.
    - pose proof (inv_step _ _ _ _ _ _ Hi Hs) as Hi'. cbn in Hi'. rewrite !app_nil_r in Hi'.
      destruct (IH _ Hlt s' eq_refl Hi' Hl) as (xs & n & s1 & s2 & H1 & H2 & H3 & H4). exists xs, n, s1, s2. split_and!; auto; [|congruence].
      apply (run_trans _ _ [] s' [] s1); [|done]. by apply (run_one _ _ None).
  Qed.
  Theorem C57_push_never_waits (z : A) c tr s : run (c + 1) (fresh_ring z c) tr s -> st_p s <> PIdle ->
    exists xs n s', run (c + 1) s [PushRet xs n] s' /\ st_p s' = PIdle /\ st_c s' = st_c s.
  Proof.
    intros H Hne. destruct (push_finishes _ _ _ _ (inv_run _ _ _ _ H) Hne) as (xs & n & s1 & s' & H1 & H2 & H3 & H4).
    exists xs, n, s'. split_and!; auto. by apply (r_step _ s [] s1 _ s' H1 H2).
  Qed.
  Theorem C57_pop_never_waits (z : A) c tr s : run (c + 1) (fresh_ring z c) tr s -> st_c s <> CIdle ->
    exists es n s', run (c + 1) s [PopRet es n] s' /\ st_c s' = CIdle /\ st_p s' = st_p s.
  Proof.
    intros H Hne. destruct (pop_finishes _ _ _ _ (inv_run _ _ _ _ H) Hne) as (es & n & s1 & s' & H1 & H2 & H3 & H4).
    exists es, n, s'. split_and!; auto. by apply (r_step _ s [] s1 _ s' H1 H2).
  Qed.

  (** ** C58 *)

  (** What [full()] returns between two calls: the opposite of what it is documented to. *)
  Theorem C58_full_method_partial (z : A) c tr s : run (c + 1) (fresh_ring z c) tr s ->
    (full_method (c + 1) (sh_rp (st_sh s)) (sh_wp (st_sh s)) = false <-> length (accepted tr) - length (delivered tr) = c).
  Proof.
    intros H%inv_run. pose proof (inv_order _ _ _ _ H) as [H1 H2]. rewrite (iv_wp _ _ _ _ H), (iv_rp _ _ _ _ H).
    rewrite <- (full_room c (length (delivered tr)) (length (accepted tr))) by lia.
    unfold full_method, ring_full. by rewrite negb_false_iff.
  Qed.

  Lemma accepted_push tr xs n : accepted (tr ++ [PushCall xs; PushRet xs n]) = accepted tr ++ take n xs.
  Proof. rewrite accepted_app. unfold accepted at 2. cbn. by rewrite app_nil_r. Qed.
  Lemma delivered_push tr xs n : delivered (tr ++ [PushCall xs; PushRet xs n]) = delivered tr.
  Proof. rewrite delivered_app. unfold delivered at 2. cbn. by rewrite app_nil_r. Qed.
  Lemma accepted_pop es es' n : accepted [PopCall es; PopRet es' n] = [].
  Proof. done. Qed.
  Lemma delivered_pop es es' n : delivered [PopCall es; PopRet es' n] = take n es'.
  Proof. unfold delivered. cbn. by rewrite app_nil_r. Qed.

  (** ** C67: a program submitted with run() arrives whole *)

  (** Partial: when nothing is waiting, the program fits the buffer (2048 bytes in index.js:47
      and glicol-engine.js:11) and the worklet reads before anything else is submitted. *)
  Theorem C67_whole_program_partial (z : A) c tr code k es es' n s :
    run (c + 1) (fresh_ring z c) (tr ++ [PushCall code; PushRet code k; PopCall es; PopRet es' n]) s ->
    accepted tr = delivered tr -> length code <= c -> length code <= length es ->
    k = length code /\ n = length code /\ take n es' = code.
  Proof.
    intros H Ha Hc Hes.
    assert (Hk : k = length code).
    { replace (tr ++ [PushCall code; PushRet code k; PopCall es; PopRet es' n])
        with ((tr ++ PushCall code :: [] ++ [PushRet code k]) ++ PopCall es :: [PopRet es' n]) in H by (by rewrite <- app_assoc).
      apply run_split in H as (s1 & _ & H & _ & _). apply C57_push_room in H as (_ & H); [|constructor]. rewrite Ha in H. lia. }
    replace (tr ++ [PushCall code; PushRet code k; PopCall es; PopRet es' n])
      with ((tr ++ [PushCall code; PushRet code k]) ++ PopCall es :: [] ++ [PopRet es' n]) in H by (by rewrite <- app_assoc).
    pose proof (C57_fifo _ _ _ _ H) as (w & Hw & _).
    apply C57_pop_ready in H as (Hl & Hn); [|constructor].
    rewrite (accepted_app (tr ++ _)), (delivered_app (tr ++ _)) in Hw. cbn [app] in Hw. rewrite !accepted_push, !delivered_push in *.
    rewrite accepted_pop, delivered_pop, Ha, app_nil_r, <- app_assoc in Hw. rewrite Ha, app_length, take_length in Hn.
    apply app_inv_head in Hw. rewrite (take_ge code) in Hw by lia.
    assert (Hn2 : n = length code).
    { apply (f_equal length) in Hw. rewrite app_length, take_length in Hw. lia. }
    split_and!; auto. subst n. apply (f_equal (take (length code))) in Hw. rewrite take_ge in Hw by done.
    rewrite take_app_alt in Hw by (rewrite take_length; lia). done.
  Qed.

  (** In full the claim is false. *)
  Definition resting (s : state) : Prop := st_p s = PIdle /\ st_c s = CIdle.
  Lemma do_push (z : A) c tr s xs : run (c + 1) (fresh_ring z c) tr s -> resting s ->
    exists n s', run (c + 1) (fresh_ring z c) (tr ++ [PushCall xs; PushRet xs n]) s' /\ resting s'.
  Proof.
    intros H [Hp Hc]. destruct s as [sh p k]. cbn in Hp, Hc. subst p k.
    pose proof (r_step _ _ _ _ _ _ H (s_p _ _ _ CIdle _ _ _ (ps_run (c + 1) sh xs))) as H1. cbn in H1.
    destruct (C57_push_never_waits _ _ _ _ H1) as (ys & n & s' & H2 & H3 & H4); [done|].
    pose proof (run_trans _ _ _ _ _ _ H1 H2) as H5. rewrite <- app_assoc in H5. cbn in H5.
    destruct (C57_push_room z c tr xs [] ys n s' H5) as [-> _]; [constructor|]. exists n, s'. done.
  Qed.
  Lemma do_pop (z : A) c tr s es : run (c + 1) (fresh_ring z c) tr s -> resting s ->
    exists es' n s', run (c + 1) (fresh_ring z c) (tr ++ [PopCall es; PopRet es' n]) s' /\ resting s'.
  Proof.
    intros H [Hp Hc]. destruct s as [sh p k]. cbn in Hp, Hc. subst p k.
    pose proof (r_step _ _ _ _ _ _ H (s_c _ _ PIdle _ _ _ _ (cs_dequeue (c + 1) sh es))) as H1. cbn in H1.
    destruct (C57_pop_never_waits _ _ _ _ H1) as (es' & n & s' & H2 & H3 & H4); [done|].
    pose proof (run_trans _ _ _ _ _ _ H1 H2) as H5. rewrite <- app_assoc in H5. cbn in H5.
    exists es', n, s'. done.
  Qed.

  (** Two programs submitted within one block arrive as one text. *)
  Theorem C67_merged_refuted (z : A) c code1 code2 es : length code1 + length code2 <= c -> c <= length es ->
    exists es' s, run (c + 1) (fresh_ring z c)
      [PushCall code1; PushRet code1 (length code1); PushCall code2; PushRet code2 (length code2);
       PopCall es; PopRet es' (length (code1 ++ code2))] s /\ take (length (code1 ++ code2)) es' = code1 ++ code2.
  Proof.
    intros Hc Hes. destruct (do_push z c [] (fresh_ring z c) code1) as (n1 & s1 & H1 & R1); [constructor|done|].
    destruct (do_push z c _ s1 code2 H1 R1) as (n2 & s2 & H2 & R2). destruct (do_pop z c _ s2 es H2 R2) as (es' & n & s3 & H3 & R3).
    pose proof (C57_push_room z c [] code1 [] code1 n1 s1 H1 ltac:(constructor)) as [_ B1]. cbn in B1.
    assert (n1 = length code1) as -> by lia.
    pose proof (C57_push_room z c _ code2 [] code2 n2 s2 H2 ltac:(constructor)) as [_ B2].
    unfold accepted, delivered in B2. cbn in B2. rewrite app_nil_r, take_length in B2. assert (n2 = length code2) as -> by lia.
    pose proof (C57_pop_ready z c _ es [] es' n s3 H3 ltac:(constructor)) as [B3 B4].
    unfold accepted, delivered in B4. cbn in B4. rewrite app_nil_r, app_length, !take_length in B4.
    pose proof (C57_fifo z c _ s3 H3) as (w & Hw & _). unfold accepted, delivered in Hw. cbn in Hw.
    rewrite !app_nil_r in Hw. rewrite !take_ge in Hw by lia.
    assert (n = length (code1 ++ code2)) as ->.
    { rewrite app_length. apply (f_equal length) in Hw. rewrite !app_length, take_length in Hw. lia. }
    exists es', s3. split; [done|].
    apply (f_equal (take (length (code1 ++ code2)))) in Hw. rewrite (take_ge (code1 ++ code2)) in Hw by done.
    rewrite take_app_alt in Hw by (rewrite take_length, app_length; lia). done.
  Qed.
  (** A program longer than the buffer is cut off and the rest is lost. *)
  Theorem C67_truncated_refuted (z : A) c code es : c < length code -> c <= length es ->
    exists es' s, run (c + 1) (fresh_ring z c) [PushCall code; PushRet code c; PopCall es; PopRet es' c] s /\
      take c es' = take c code.
  Proof.
    intros Hc Hes. destruct (do_push z c [] (fresh_ring z c) code) as (n1 & s1 & H1 & R1); [constructor|done|].
    destruct (do_pop z c _ s1 es H1 R1) as (es' & n & s2 & H2 & R2).
    pose proof (C57_push_room z c [] code [] code n1 s1 H1 ltac:(constructor)) as [_ B1]. cbn in B1.
    pose proof (C57_fifo z c _ s1 H1) as (w1 & Hw1 & Hw1c). unfold accepted, delivered in Hw1. cbn in Hw1.
    rewrite app_nil_r in Hw1. subst w1. rewrite take_length in Hw1c. assert (n1 = c) as -> by lia.
    pose proof (C57_pop_ready z c _ es [] es' n s2 H2 ltac:(constructor)) as [B3 B4].
    unfold accepted, delivered in B4. cbn in B4. rewrite app_nil_r, take_length in B4.
    pose proof (C57_fifo z c _ s2 H2) as (w & Hw & _). unfold accepted, delivered in Hw. cbn in Hw. rewrite !app_nil_r in Hw.
    assert (n = c) as ->.
    { apply (f_equal length) in Hw. rewrite !app_length, !take_length in Hw. lia. }
    exists es', s2. split; [done|]. apply (f_equal (take c)) in Hw. rewrite take_take, Nat.min_id in Hw.
    rewrite take_app_alt in Hw by (rewrite take_length; lia). done.
  Qed.

  (** ** C68: stop() silences the engine *)

  (** index.js:226-228 submits the empty text; the worklet then finds nothing to read, and
      glicol-engine.js:127 updates the engine only when something was read. *)
  Theorem C68_stop_refuted (z : A) c tr k es es' n s :
    run (c + 1) (fresh_ring z c) (tr ++ [PushCall []; PushRet [] k; PopCall es; PopRet es' n]) s ->
    accepted tr = delivered tr -> n = 0.
  Proof.
    intros H Ha.
    replace (tr ++ [PushCall []; PushRet [] k; PopCall es; PopRet es' n])
      with ((tr ++ [PushCall []; PushRet [] k]) ++ PopCall es :: [] ++ [PopRet es' n]) in H by (by rewrite <- app_assoc).
    pose proof (C57_fifo _ _ _ _ H) as (w & Hw & _).
    apply C57_pop_ready in H as (Hl & Hn); [|constructor].
    rewrite (accepted_app (tr ++ _)), (delivered_app (tr ++ _)) in Hw. cbn [app] in Hw. rewrite !accepted_push, !delivered_push in *.
    rewrite accepted_pop, delivered_pop, Ha, take_nil, !app_nil_r in Hw.
    apply (f_equal length) in Hw. rewrite !app_length, take_length in Hw. lia.
  Qed.
End fifo.

(** Concrete runs: the two sides take turns. *)
Lemma run_silent {A} cap (s s1 s2 : state A) tr : step cap s None s1 -> run cap s1 tr s2 -> run cap s tr s2.
Proof. intros H1 H2. apply (run_trans cap s [] s1 tr s2); [by apply (run_one _ _ None)|done]. Qed.
Lemma run_seen {A} cap (s s1 s2 : state A) l tr : step cap s (Some l) s1 -> run cap s1 tr s2 -> run cap s (l :: tr) s2.
Proof. intros H1 H2. apply (run_trans cap s [l] s1 tr s2); [by apply (run_one _ _ (Some l))|done]. Qed.
Ltac act := first
  [ eapply run_silent; [apply s_p; first [apply ps_load1 | apply ps_load2; reflexivity | eapply ps_copy; [cbn; lia|reflexivity]]|]
  | eapply run_silent; [apply s_c; first [apply cs_load1 | apply cs_load2; cbn; discriminate | eapply cs_copy; [cbn; lia|reflexivity]]|]
  | eapply run_seen; [apply s_p; first [apply ps_push | apply ps_store]|]
  | eapply run_seen; [apply s_c; first [apply cs_pop | apply cs_store]|] ]; cbn.

(** Three elements through a ring of four cells after two others, wrapping around its end. *)
Example C57_case : exists s, run (4 + 1) (fresh_ring 0 4)
  [PushCall [7; 8]; PushRet [7; 8] 2; PopCall [0; 0]; PopRet [7; 8] 2;
   PushCall [1; 2; 3; 4]; PushRet [1; 2; 3; 4] 4; PopCall [0; 0; 0]; PopRet [1; 2; 3] 3] s.
Proof. eexists. repeat act. constructor. Qed.
(** A pop that looked while a push was copying reports only what had been published. *)
Example C57_case_concurrent : exists s, run (4 + 1) (fresh_ring 0 4)
  [PushCall [7]; PushRet [7] 1; PushCall [8; 9]; PopCall [0; 0]; PushRet [8; 9] 2; PopRet [7; 8] 1] s.
Proof.
  eexists. do 7 act. do 2 act.
  eapply run_seen; [apply s_c, cs_pop|]. cbn. repeat act. constructor.
Qed.
Example C58_case : exists s, run (4 + 1) (fresh_ring 0 4) [PushCall [7; 8; 9; 10]; PushRet [7; 8; 9; 10] 4] s /\
  full_method (4 + 1) (sh_rp (st_sh s)) (sh_wp (st_sh s)) = false.
Proof. eexists. split; [repeat act; constructor|done]. Qed.
(** [full()] of an empty ring says true, although there is room for everything. *)
Theorem C58_full_refuted : exists tr (s : state nat), run (4 + 1) (fresh_ring 0 4) tr s /\ accepted tr = delivered tr /\
  full_method (4 + 1) (sh_rp (st_sh s)) (sh_wp (st_sh s)) = true.
Proof. exists [], (fresh_ring 0 4). split_and!; [constructor|done|done]. Qed.

(** ** C69: pop only writes the elements that it reports *)

(** False: it copies to the end of the storage or of the array, whatever was there. *)
Theorem C69_pop_overwrites_refuted : exists s, run (4 + 1) (fresh_ring 0 4)
  [PushCall [7]; PushRet [7] 1; PopCall [1; 2; 3; 4]; PopRet [7; 0; 0; 0] 1] s.
Proof. eexists. repeat act. constructor. Qed.

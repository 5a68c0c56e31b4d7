(** * Split: nodes whose sound does not depend on the size of the blocks. *)
From Verif Require Export Demo.
From Coq Require Import Lia.
Local Open Scope nat_scope.

(** ** Streams cut in blocks

    [wires]: the inputs of a node over the whole time, with the id of the node each comes from
    and its channels.  [cut n k wires]: the first [k] blocks of [n] samples. *)
Definition take_in (n : nat) (wires : inmap) : inmap := map (fun p => (p.1, map (take n) p.2)) wires.
Definition drop_in (n : nat) (wires : inmap) : inmap := map (fun p => (p.1, map (drop n) p.2)) wires.
Fixpoint cut (n k : nat) (wires : inmap) : list inmap :=
  match k with
  | 0 => []
  | S k' => take_in n wires :: cut n k' (drop_in n wires)
  end.
(** All channels are [n] samples long. *)
Definition wide (n : nat) (b : inmap) : Prop := Forall (fun p => Forall (fun s => length s = n) p.2) b.
(** What is heard of a node: its two channels over the whole time. *)
Definition heard {P} (r : res (gnode P * list (list sig))) : option (sig * sig) :=
  match r with Ok (_, outs) => Some (lane 0 outs, lane 1 outs) | Panic => None end.

(** ** Blocks put together *)
Definition catc (x y : list sig) : list sig := zip_with app x y.
Definition cat (a b : inmap) : inmap := zip_with (fun p q => (p.1, catc p.2 q.2)) a b.
Definition shape (a : inmap) : list (nat * nat) := map (fun p => (p.1, length p.2)) a.

Lemma catc_take_drop n x : catc (map (take n) x) (map (drop n) x) = x.
Proof. unfold catc. induction x as [|s x IH]; [done|]. cbn [map zip_with]. by rewrite take_drop, IH. Qed.
Lemma cat_take_drop n w : cat (take_in n w) (drop_in n w) = w.
Proof.
  unfold cat, take_in, drop_in. induction w as [|[i x] w IH]; [done|]. cbn [map zip_with fst snd].
  by rewrite catc_take_drop, IH.
Qed.
Lemma shape_take n w : shape (take_in n w) = shape w.
Proof. unfold shape, take_in. rewrite map_map. apply map_ext. intros [i x]. cbn. by rewrite map_length. Qed.
Lemma shape_drop n w : shape (drop_in n w) = shape w.
Proof. unfold shape, drop_in. rewrite map_map. apply map_ext. intros [i x]. cbn. by rewrite map_length. Qed.
Lemma wide_take n m w : wide (n + m) w -> wide n (take_in n w).
Proof.
  unfold wide, take_in. rewrite !Forall_forall. intros H p (q & <- & Hq%elem_of_list_In)%elem_of_list_In%in_map_iff.
  apply H in Hq. cbn. rewrite Forall_forall in *. intros s (s0 & <- & Hs%elem_of_list_In)%elem_of_list_In%in_map_iff.
  apply Hq in Hs. rewrite take_length. lia.
Qed.
Lemma wide_drop n m w : wide (n + m) w -> wide m (drop_in n w).
Proof.
  unfold wide, drop_in. rewrite !Forall_forall. intros H p (q & <- & Hq%elem_of_list_In)%elem_of_list_In%in_map_iff.
  apply H in Hq. cbn. rewrite Forall_forall in *. intros s (s0 & <- & Hs%elem_of_list_In)%elem_of_list_In%in_map_iff.
  apply Hq in Hs. rewrite drop_length. lia.
Qed.

(** Two parts of the same channels. *)
Definition parts (n m : nat) (x y : list sig) : Prop :=
  length x = length y /\ Forall (fun s => length s = n) x /\ Forall (fun s => length s = m) y.
Definition pieces (n m : nat) (a b : inmap) : Prop := shape a = shape b /\ wide n a /\ wide m b.

Lemma pieces_nil n m b : pieces n m [] b -> b = [].
Proof. intros (H & _). by destruct b. Qed.
Lemma pieces_cons n m p a b : pieces n m (p :: a) b ->
  exists x y q, p = (q, x) /\ exists b', b = (q, y) :: b' /\ parts n m x y /\ pieces n m a b'.
Proof.
  destruct p as [i x]. intros (H & H1 & H2). destruct b as [|[j y] b]; [done|]. injection H as -> Hl H.
  apply Forall_cons in H1 as [H1 H1']. apply Forall_cons in H2 as [H2 H2'].
  exists x, y, j. split; [done|]. exists b. done.
Qed.

Section reading.
  Context (n m : nat).
  Lemma chan_parts x y c : parts n m x y ->
    (chan x c = Panic /\ chan y c = Panic /\ chan (catc x y) c = Panic) \/
    exists u v, chan x c = Ok u /\ chan y c = Ok v /\ chan (catc x y) c = Ok (u ++ v) /\ length u = n /\ length v = m.
  Proof.
    intros (Hl & Hx & Hy). unfold chan, catc. rewrite lookup_zip_with.
    destruct (x !! c) as [u|] eqn:E1.
    - right. destruct (lookup_lt_is_Some_2 y c) as [v E2]; [rewrite <- Hl; by eapply lookup_lt_Some|].
      rewrite E2. exists u, v. rewrite Forall_forall in Hx, Hy.
      apply elem_of_list_lookup_2 in E1, E2. split_and!; [done|done|done|by apply Hx|by apply Hy].
    - left. assert (y !! c = None) as -> by (apply lookup_ge_None; rewrite <- Hl; by apply lookup_ge_None). done.
  Qed.
  Lemma in_id_pieces a b i : pieces n m a b ->
    (in_id a i = Panic /\ in_id b i = Panic /\ in_id (cat a b) i = Panic) \/
    exists x y, in_id a i = Ok x /\ in_id b i = Ok y /\ in_id (cat a b) i = Ok (catc x y) /\ parts n m x y.
  Proof.
    revert b. induction a as [|p a IH]; intros b H.
    - apply pieces_nil in H as ->. by left.
    - apply pieces_cons in H as (x & y & q & -> & b' & -> & Hp & H). cbn [in_id cat zip_with fst snd].
      destruct (q =? i); [right; by exists x, y|]. by apply IH.
  Qed.
  Lemma in_ord_pieces a b o k : pieces n m a b ->
    (in_ord a o k = Panic /\ in_ord b o k = Panic /\ in_ord (cat a b) o k = Panic) \/
    exists x y, in_ord a o k = Ok x /\ in_ord b o k = Ok y /\ in_ord (cat a b) o k = Ok (catc x y) /\ parts n m x y.
  Proof. intros H. unfold in_ord. destruct (o !! k); [by apply in_id_pieces|by left]. Qed.
End reading.

Lemma zip_with_cat {A B C} (f : A -> B -> C) a a' b b' : length a = length b ->
  zip_with f (a ++ a') (b ++ b') = zip_with f a b ++ zip_with f a' b'.
Proof. intros H. by rewrite zip_with_app. Qed.
Lemma replicate_cat {A} n m (x : A) : replicate (n + m) x = replicate n x ++ replicate m x.
Proof. apply replicate_add. Qed.

(** ** Nodes that work sample by sample *)

(** [proc N]: the node at block size [N], with [k] output channels, of which it writes the first
    [wr] when its inputs have the given shape. *)
Section node.
  Context {T : Type} (proc : nat -> T -> inmap -> list sig -> res (T * list sig)) (k : nat)
          (okin : T -> list (nat * nat) -> bool) (wr : T -> list (nat * nat) -> nat).
  Definition core (n : nat) (s : T) (a : inmap) : res (T * list sig) :=
    match proc n s a (replicate k []) with
    | Ok (s', o) => Ok (s', take (wr s (shape a)) o)
    | Panic => Panic
    end.
  Record splits : Prop := {
    sp_proc : forall n s a o, okin s (shape a) = true -> length o = k ->
      proc n s a o = match core n s a with Ok (s', w) => Ok (s', w ++ drop (wr s (shape a)) o) | Panic => Panic end;
    sp_core : forall n s a s' w, okin s (shape a) = true -> core n s a = Ok (s', w) ->
      length w = wr s (shape a) /\ wr s' (shape a) = wr s (shape a) /\ okin s' (shape a) = true;
    sp_wr : forall s sh, okin s sh = true -> wr s sh <= k;
    sp_split : forall n m s a b, okin s (shape a) = true -> 0 < n -> 0 < m -> pieces n m a b ->
      core (n + m) s (cat a b) =
        match core n s a with
        | Ok (s1, w1) => match core m s1 b with Ok (s2, w2) => Ok (s2, catc w1 w2) | Panic => Panic end
        | Panic => Panic
        end }.
End node.

Lemma shape_cat n m a b : pieces n m a b -> shape (cat a b) = shape a.
Proof.
  revert b. induction a as [|p a IH]; intros b H; [done|]. apply pieces_cons in H as (x & y & q & -> & b' & -> & (Hl & _) & H).
  cbn [cat zip_with shape map fst snd]. unfold catc. rewrite zip_with_length, <- Hl, Nat.min_id. f_equal. by apply IH.
Qed.

(** ** From one node to a run of blocks *)
Section run.
  Context (P : platform) {T : Type} (inj : forall n, T -> gnode (with_blk P n))
          (proc : nat -> T -> inmap -> list sig -> res (T * list sig)) (k : nat)
          (okin : T -> list (nat * nat) -> bool) (wr : T -> list (nat * nat) -> nat).
  Hypothesis Hinj : forall n s i o, gproc (with_blk P n) (inj n s) i o = wrap (inj n) (proc n s i o).
  Hypothesis Hsp : splits proc k okin wr.

  Definition channel (t : nat) (r : list sig) (wn : nat) (ch : nat) : sig :=
    if decide (ch < wn) then default [] (r !! ch) else if decide (ch < k) then replicate t f0 else [].

  Lemma play_core n q s w o : 0 < n -> okin s (shape w) = true -> wide (n * S q) w -> length o = k ->
    (forall ch, wr s (shape w) <= ch < k -> o !! ch = Some (replicate n f0)) ->
    match core proc k wr (n * S q) s w with
    | Ok (s', r) => exists outs, play (with_blk P n) (inj n s) o (cut n (S q) w) = Ok (inj n s', outs) /\
        forall ch, lane ch outs = channel (n * S q) r (wr s (shape w)) ch
    | Panic => play (with_blk P n) (inj n s) o (cut n (S q) w) = Panic
    end.
  Proof.
    intros Hn. revert s w o. induction q as [|q IH]; intros s w o Hok Hw Ho Hkeep.
    - rewrite Nat.mul_1_r in *. cbn [cut play]. rewrite Hinj.
      assert (Et : take_in n w = w).
      { rewrite <- (Nat.add_0_r n) in Hw at 1. clear -Hw. unfold take_in. unfold wide in Hw.
        induction w as [|[i x] w IH]; [done|]. apply Forall_cons in Hw as [H1 H2]. cbn [map fst snd]. rewrite IH by done. f_equal. f_equal.
        cbn [snd] in H1. induction x as [|s x IHx]; [done|]. apply Forall_cons in H1 as [H1 H1']. cbn [map]. rewrite IHx by done.
        f_equal. apply take_ge. lia. }
      rewrite Et, (sp_proc _ _ _ _ Hsp) by done. destruct (core proc k wr n s w) as [[s' r]|] eqn:E; [|done].
      cbn [wrap]. eexists. split; [reflexivity|]. intros ch. rewrite lane_cons. change (lane ch []) with (@nil f32).
      rewrite app_nil_r. apply (sp_core _ _ _ _ Hsp) in E as (El & _); [|done]. unfold channel.
      case_decide as H1.
      { rewrite lookup_app_l by lia. done. }
      rewrite lookup_app_r, lookup_drop by lia. replace (wr s (shape w) + (ch - length r)) with ch by lia.
      case_decide as H2; [by rewrite Hkeep by lia|]. rewrite lookup_ge_None_2 by lia. done.
    - remember (S q) as q1. replace (n * S q1) with (n + n * q1) in * by lia. cbn [cut].
      assert (Hp : pieces n (n * q1) (take_in n w) (drop_in n w)).
      { split; [by rewrite shape_take, shape_drop|]. split; [by eapply wide_take|by eapply wide_drop]. }
      pose proof (sp_split _ _ _ _ Hsp n (n * q1) s (take_in n w) (drop_in n w)) as Hsplit.
      rewrite cat_take_drop, shape_take in Hsplit. rewrite Hsplit by (try done; lia). clear Hsplit.
      cbn [play]. rewrite Hinj, (sp_proc _ _ _ _ Hsp), shape_take by (try done; by rewrite shape_take).
      destruct (core proc k wr n s (take_in n w)) as [[s1 w1]|] eqn:E; [|done]. cbn [wrap].
      apply (sp_core _ _ _ _ Hsp) in E as (El & Ew & Eo); [|by rewrite shape_take]. rewrite shape_take in El, Ew, Eo.
      pose proof (sp_wr _ _ _ _ Hsp _ _ Hok) as Hwr.
      specialize (IH s1 (drop_in n w) (w1 ++ drop (wr s (shape w)) o)). rewrite shape_drop, Ew in IH.
      destruct (core proc k wr (n * q1) s1 (drop_in n w)) as [[s2 w2]|] eqn:E2.
      + destruct IH as (outs & -> & Hl); [done|by apply Hp|rewrite app_length, drop_length; lia| |].
        { intros ch Hch. rewrite lookup_app_r, lookup_drop by lia. replace (wr s (shape w) + (ch - length w1)) with ch by lia. by apply Hkeep. }
        eexists. split; [reflexivity|]. intros ch. rewrite lane_cons, Hl. unfold channel.
        apply (sp_core _ _ _ _ Hsp) in E2 as (El2 & _); [|by rewrite shape_drop]. rewrite shape_drop, Ew in El2.
        case_decide as H1.
        { rewrite lookup_app_l by lia. unfold catc. rewrite lookup_zip_with.
          destruct (lookup_lt_is_Some_2 w1 ch) as [u ->]; [lia|]. destruct (lookup_lt_is_Some_2 w2 ch) as [v ->]; [lia|]. done. }
        rewrite lookup_app_r, lookup_drop by lia. replace (wr s (shape w) + (ch - length w1)) with ch by lia.
        case_decide as H2; [rewrite Hkeep by lia; cbn; by rewrite replicate_add|]. rewrite lookup_ge_None_2 by lia. done.
      + rewrite IH; [done|done|by apply Hp|rewrite app_length, drop_length; lia|].
        intros ch Hch. rewrite lookup_app_r, lookup_drop by lia. replace (wr s (shape w) + (ch - length w1)) with ch by lia. by apply Hkeep.
  Qed.

  Theorem split_irrelevant n1 q1 n2 q2 s w : 0 < n1 -> 0 < n2 -> 0 < q1 -> 0 < q2 -> n1 * q1 = n2 * q2 ->
    okin s (shape w) = true -> wide (n1 * q1) w ->
    heard (play (with_blk P n1) (inj n1 s) (replicate k (replicate n1 f0)) (cut n1 q1 w)) =
    heard (play (with_blk P n2) (inj n2 s) (replicate k (replicate n2 f0)) (cut n2 q2 w)).
  Proof.
    intros Hn1 Hn2 Hq1 Hq2 He Hok Hw. destruct q1 as [|q1]; [lia|]. destruct q2 as [|q2]; [lia|].
    pose proof (play_core n1 q1 s w (replicate k (replicate n1 f0)) Hn1 Hok Hw ltac:(by rewrite replicate_length)) as H1.
    pose proof (play_core n2 q2 s w (replicate k (replicate n2 f0)) Hn2 Hok ltac:(by rewrite <- He) ltac:(by rewrite replicate_length)) as H2.
    rewrite <- He in H2. destruct (core proc k wr (n1 * S q1) s w) as [[s' r]|].
    - destruct H1 as (o1 & -> & L1); [intros; apply lookup_replicate; split; [done|lia]|].
      destruct H2 as (o2 & -> & L2); [intros; apply lookup_replicate; split; [done|lia]|].
      cbn [heard]. by rewrite !L1, !L2.
    - rewrite H1, H2; [done|intros; apply lookup_replicate; split; [done|lia]..].
  Qed.
End run.

(** ** The nodes *)
Definition any_in {T} : T -> list (nat * nat) -> bool := fun _ _ => true.

Ltac outs2 o Ho := destruct o as [|? [|? [|? ?]]]; try discriminate Ho; clear Ho.
Ltac outs1 o Ho := destruct o as [|? [|? ?]]; try discriminate Ho; clear Ho.
Ltac crush := simplify_eq/=; repeat (case_match; simplify_eq/=); try done.

(** Inputs of the two parts of a block. *)
Ltac bnd := cbv [mbind res_bind mret res_ret put0 put01]; cbn [fst snd length shape map replicate].
Ltac sp_ord H o k := destruct (in_ord_pieces _ _ _ _ o k H) as [(? & ? & ?)|(? & ? & ? & ? & ? & ?Hp)].
Ltac sp_chan H c := destruct (chan_parts _ _ _ _ c H) as [(? & ? & ?)|(?u & ?v & ? & ? & ? & ? & ?)].
Ltac go := bnd; repeat (match goal with
  | H : ?x = Ok _ |- context [?x] => rewrite H
  | H : ?x = Panic |- context [?x] => rewrite H
  end; bnd).
Lemma pieces_two n m a b : pieces n m a b ->
  (a = [] /\ b = [] /\ cat a b = []) \/
  (exists i x y, a = [(i, x)] /\ b = [(i, y)] /\ cat a b = [(i, catc x y)] /\ parts n m x y) \/
  (exists p q r p' q' r' l l' l'', a = p :: q :: l /\ b = p' :: q' :: l' /\ cat a b = r :: r' :: l'' /\
     length l = length l' /\ length l'' = length l).
Proof.
  intros H. destruct a as [|p a]; [apply pieces_nil in H as ->; by left|right].
  apply pieces_cons in H as (x & y & i & -> & b' & -> & Hxy & H).
  destruct a as [|p a]; [apply pieces_nil in H as ->; left; by exists i, x, y|right].
  apply pieces_cons in H as (x' & y' & i' & -> & b'' & -> & Hxy' & H).
  exists (i, x), (i', x'), (i, catc x y), (i, y), (i', y'), (i', catc x' y'), a, b'', (cat a b''). split_and!; [done|done|done| |].
  - destruct H as [H _]. apply (f_equal length) in H. unfold shape in H. by rewrite !map_length in H.
  - pose proof (shape_cat _ _ _ _ H) as H0. apply (f_equal length) in H0. unfold shape in H0. by rewrite !map_length in H0.
Qed.


Lemma default_parts n m x y u v c : parts n m x y -> length u = n -> length v = m ->
  exists u' v', default u (x !! c) = u' /\ default v (y !! c) = v' /\ default (u ++ v) (catc x y !! c) = u' ++ v' /\ length u' = n /\ length v' = m.
Proof.
  intros H Hu Hv. destruct (chan_parts _ _ _ _ c H) as [(E1 & E2 & E3)|(u1 & v1 & E1 & E2 & E3 & ? & ?)]; unfold chan in E1, E2, E3;
    destruct (x !! c), (y !! c), (catc x y !! c); simplify_eq/=; by do 2 eexists.
Qed.
Ltac sp_default H Hu Hv c := destruct (default_parts _ _ _ _ _ _ c H Hu Hv) as (?u & ?v & -> & -> & -> & ? & ?).
Ltac shapes H i x y Hxy E := let p := fresh "p" in let q := fresh "q" in let p' := fresh "p'" in let q' := fresh "q'" in
  let l := fresh "l" in let l' := fresh "l'" in let l'' := fresh "l''" in let Hl := fresh in let Hl' := fresh in
  destruct (pieces_two _ _ _ _ H) as [(-> & -> & ->)|[(i & x & y & -> & -> & -> & Hxy)|(p & q & ? & p' & q' & ? & l & l' & l'' & -> & -> & E & Hl & Hl')]];
  [| |rewrite E; destruct l, l', l''; try discriminate Hl; try discriminate Hl'; [clear Hl Hl'; bnd; try done; try rewrite <- E|bnd; try done]].
Ltac sp_start := intros n m s a b _ Hn Hm H; unfold core; rewrite ?(shape_cat n m) by done.
Ltac ins3 := match goal with a : inmap |- _ => destruct a as [|? [|? [|? ?]]] end.

Definition op_wr {T} (_ : T) (sh : list (nat * nat)) : nat := match length sh with 1 | 2 => 2 | _ => 0 end.
Lemma op_splits op : splits (fun _ => op_proc op) 2 any_in op_wr.
Proof.
  split.
  - intros n s a o _ Ho. outs2 o Ho. unfold core, op_proc, apply_op. ins3; bnd; crush.
  - intros n s a s' w _ E. unfold core, op_proc, apply_op in E. ins3; revert E; bnd; intros; crush.
  - intros s sh _. unfold op_wr. crush; lia.
  - sp_start. unfold op_proc, apply_op. shapes H i x y Hxy E.
    + done.
    + sp_chan Hxy 0; [by go|]. go. sp_default Hxy H3 H4 1. by rewrite !fmap_app.
    + sp_ord H (op_ord s) 0; [by go|]. sp_ord H (op_ord s) 1; [by go|]. sp_chan Hp 0; [by go|]. sp_chan Hp0 0; [by go|]. go.
      sp_default Hp H9 H10 1. sp_default Hp0 H14 H15 1. unfold zip_op. by rewrite !zip_with_cat by lia.
Qed.

Definition one_wr {T} (_ : T) (sh : list (nat * nat)) : nat := match length sh with 0 | 1 => 1 | _ => 0 end.
Lemma osc_ord {A} f s (xs : list A) : (forall s x, os_ord (f s x).1 = os_ord s) -> os_ord (scan f s xs : osc * sig).1 = os_ord s.
Proof. intros Hf. apply (scan_invariant f (fun s' => os_ord s' = os_ord s)); [|done]. intros s' x <-. apply Hf. Qed.
Lemma osc_put1 w o b : osc_put w [o] b = Ok [b].
Proof. by destruct w. Qed.
Lemma osc_splits P w : splits (fun n => osc_proc (with_blk P n) w) 1 any_in one_wr.
Proof.
  split.
  - intros n s a o _ Ho. outs1 o Ho. unfold core, osc_proc. ins3; bnd; crush; by destruct w; simplify_eq/=.
  - intros n s a s' o _ E. unfold core, osc_proc in E. ins3; revert E; bnd; intros; crush; destruct w; simplify_eq/=; done.
  - intros s sh _. unfold one_wr. crush; lia.
  - sp_start. unfold osc_proc. shapes H i x y Hxy E.
    + cbn [p_blk with_blk]. rewrite replicate_add, scan_app. go.
      change (osc_step (with_blk P (n + m)) w) with (osc_step P w). change (osc_step (with_blk P n) w) with (osc_step P w). change (osc_step (with_blk P m) w) with (osc_step P w).
      destruct (scan _ s (replicate n tt)) as [s1 o1]. go. rewrite !osc_put1. go. destruct (scan _ s1 (replicate m tt)) as [s2 o2]. go. by rewrite !osc_put1.
    + change (osc_mod_step (with_blk P (n + m)) w) with (osc_mod_step P w). change (osc_mod_step (with_blk P n) w) with (osc_mod_step P w).
      change (osc_mod_step (with_blk P m) w) with (osc_mod_step P w).
      assert (Ho : forall s xs, os_ord (scan (osc_mod_step P w) s xs).1 = os_ord s) by (intros; apply osc_ord; intros; by destruct w).
      assert (Hin : (match os_ord s with [] => Ok x | _ => in_ord [(i, x)] (os_ord s) 0 end = Panic /\
                     match os_ord s with [] => Ok y | _ => in_ord [(i, y)] (os_ord s) 0 end = Panic /\
                     match os_ord s with [] => Ok (catc x y) | _ => in_ord [(i, catc x y)] (os_ord s) 0 end = Panic) \/
                    (match os_ord s with [] => Ok x | _ => in_ord [(i, x)] (os_ord s) 0 end = Ok x /\
                     match os_ord s with [] => Ok y | _ => in_ord [(i, y)] (os_ord s) 0 end = Ok y /\
                     match os_ord s with [] => Ok (catc x y) | _ => in_ord [(i, catc x y)] (os_ord s) 0 end = Ok (catc x y))).
      { destruct (os_ord s) as [|j l]; [by right|]. unfold in_ord. cbn. destruct (i =? j); [by right|by left]. }
      destruct Hin as [(E1 & E2 & E3)|(E1 & E2 & E3)]; bnd; rewrite E3, E1; bnd; [done|].
      sp_chan Hxy 0; [by go|]. go. rewrite scan_app. specialize (Ho s u). destruct (scan _ s u) as [s1 o1]. cbn [fst snd] in *.
      rewrite !osc_put1. bnd. rewrite Ho, E2. go.
      destruct (scan _ s1 v) as [s2 o2]. go. by rewrite !osc_put1.
Qed.


(** A node that ignores its inputs and writes one channel. *)
Definition sample_loop {T} (f : T -> res (T * f32)) (n : nat) (s : T) (out : list sig) : res (T * list sig) :=
  match scanR (fun s (_ : unit) => f s) s (replicate n tt) with
  | Ok (s', b) => out' ← put0 out b; mret (s', out')
  | Panic => Panic
  end.
Ltac blkless g P n m := change (g (with_blk P (n + m))) with (g P); change (g (with_blk P n)) with (g P); change (g (with_blk P m)) with (g P).
Lemma loop_split {T} (f : T -> res (T * f32)) k n m s : 0 < k ->
  match sample_loop f (n + m) s (replicate k []) with Ok (s', o) => Ok (s', take 1 o) | Panic => Panic end =
  match match sample_loop f n s (replicate k []) with Ok (s', o) => Ok (s', take 1 o) | Panic => Panic end with
  | Ok (s1, w1) => match match sample_loop f m s1 (replicate k []) with Ok (s', o) => Ok (s', take 1 o) | Panic => Panic end with
                   | Ok (s2, w2) => Ok (s2, catc w1 w2) | Panic => Panic end
  | Panic => Panic
  end.
Proof.
  intros Hk. destruct k as [|k]; [lia|]. unfold sample_loop. rewrite replicate_add, scanR_app. go.
  destruct (scanR _ s (replicate n tt)) as [[s1 o1]|]; [|done]. go.
  destruct (scanR _ s1 (replicate m tt)) as [[s2 o2]|]; done.
Qed.
Lemma loop_proc {T} (f : T -> res (T * f32)) k n s o : 0 < k -> length o = k ->
  sample_loop f n s o = match match sample_loop f n s (replicate k []) with Ok (s', o) => Ok (s', take 1 o) | Panic => Panic end with
                        | Ok (s', w) => Ok (s', w ++ drop 1 o) | Panic => Panic end.
Proof.
  intros Hk Ho. destruct k as [|k]; [lia|]. destruct o as [|x o]; [done|]. unfold sample_loop. go.
  by destruct (scanR _ s (replicate n tt)) as [[s1 o1]|].
Qed.
Lemma loop_core {T} (f : T -> res (T * f32)) k n s s' w : 0 < k ->
  match sample_loop f n s (replicate k []) with Ok (s', o) => Ok (s', take 1 o) | Panic => Panic end = Ok (s', w) -> length w = 1.
Proof.
  intros Hk. destruct k as [|k]; [lia|]. unfold sample_loop. go.
  destruct (scanR _ s (replicate n tt)) as [[s1 o1]|]; by intros [= <- <-].
Qed.
Lemma loop_splits {T} (f : T -> res (T * f32)) k : 0 < k -> splits (fun n s _ out => sample_loop f n s out) k any_in (fun _ _ => 1).
Proof.
  intros Hk. split.
  - intros. by apply loop_proc.
  - intros n s a s' w _ E. apply loop_core in E; [|done]. done.
  - intros. lia.
  - intros n m s a b _ Hn Hm H. unfold core. by apply loop_split.
Qed.
Lemma splits_ext {T} (p q : nat -> T -> inmap -> list sig -> res (T * list sig)) k okin wr :
  (forall n s a o, p n s a o = q n s a o) -> splits q k okin wr -> splits p k okin wr.
Proof.
  intros Hpq [H1 H2 H3 H4]. assert (Hc : forall n s a, core p k wr n s a = core q k wr n s a) by (intros; unfold core; by rewrite Hpq).
  split; [|by intros *; rewrite Hc; apply H2|done|]; intros *; rewrite ?Hpq, ?Hc; [apply H1|].
  intros Ho Hn Hm Hp. rewrite (H4 n m s a b) by done. destruct (core q k wr n s a) as [[s1 w1]|]; [|done]. by rewrite Hc.
Qed.
(** ... when it has no inputs, and nothing otherwise. *)
Definition alone_wr {T} (_ : T) (sh : list (nat * nat)) : nat := match sh with [] => 1 | _ => 0 end.
Lemma loop_alone_splits {T} (f : T -> res (T * f32)) k : 0 < k ->
  splits (fun n s i out => match i with [] => sample_loop f n s out | _ => Ok (s, out) end) k any_in alone_wr.
Proof.
  intros Hk. split.
  - intros n s a o _ Ho. unfold core. destruct a as [|p a]; [by apply loop_proc|done].
  - intros n s a s' w _ E. unfold core in E. destruct a as [|p a]; [apply loop_core in E; [|done]; done|]. by injection E as <- <-.
  - intros s sh _. unfold alone_wr. destruct sh; lia.
  - intros n m s a b _ Hn Hm H. unfold core. rewrite (shape_cat n m) by done. destruct a as [|p a].
    + apply pieces_nil in H as ->. by apply loop_split.
    + by apply pieces_cons in H as (x & y & i & -> & b' & -> & Hxy & H).
Qed.

Lemma csig_splits P : splits (fun n => csig_proc (with_blk P n)) 1 any_in (fun _ _ => 1).
Proof.
  eapply splits_ext; [|apply (loop_splits (fun s => Ok (s, cs_val s))); lia]. intros n s a o. unfold sample_loop, csig_proc. cbn [p_blk with_blk].
  assert (scanR (fun s (_ : unit) => Ok (s, cs_val s)) s (replicate n tt) = Ok (s, replicate n (cs_val s))) as ->; [|done].
  induction n as [|n IH]; [done|]. cbn [replicate scanR]. by rewrite IH.
Qed.
Lemma imp_splits P : splits (fun n => imp_proc (with_blk P n)) 1 any_in (fun _ _ => 1).
Proof. eapply splits_ext; [|apply (loop_splits imp_step); lia]. done. Qed.
Lemma noise_splits P : splits (fun n => noise_proc (with_blk P n)) 1 any_in (fun _ _ => 1).
Proof.
  split.
  - intros n s a o _ Ho. outs1 o Ho. unfold core, noise_proc. go. cbn [scan]. by destruct (scan _ s _).
  - intros n s a s' w _ E. unfold core, noise_proc in E. cbn [scan replicate] in E. destruct (scan _ s _). by injection E as <- <-.
  - intros. lia.
  - sp_start. unfold noise_proc. cbn [p_blk with_blk replicate scan]. rewrite replicate_add.
    blkless (noise_next) P n m. rewrite scan_app. destruct (scan _ s (replicate n tt)) as [s1 o1]. go. cbn [scan].
    by destruct (scan _ s1 (replicate m tt)) as [s2 o2].
Qed.
Lemma points_keep (P : platform) n s s' b : scanR (fun s (_ : unit) => points_step P s) s (replicate n tt) = Ok (s', b) -> po_list s' = po_list s.
Proof.
  apply (scanR_inv (fun s' => po_list s' = po_list s)); [|done]. intros s0 x s1 y <-. unfold points_step. cbv [mbind res_bind mret res_ret].
  destruct (if po_loop s0 then _ else _); [|done]. by intros [= <- <-].
Qed.
Lemma points_splits P : splits (fun n => points_proc (with_blk P n)) 1 any_in (fun s _ => match po_list s with [] => 0 | _ => 1 end).
Proof.
  split.
  - intros n s a o _ Ho. unfold core, points_proc. destruct (po_list s) as [|p l] eqn:El; [done|].
    change (sample_loop (points_step P) n s o = match match sample_loop (points_step P) n s (replicate 1 []) with Ok (s', o) => Ok (s', take 1 o) | Panic => Panic end with
                        | Ok (s', w) => Ok (s', w ++ drop 1 o) | Panic => Panic end).
    apply loop_proc; [lia|done].
  - intros n s a s' w _ E. unfold core, points_proc in E. destruct (po_list s) as [|p l] eqn:El; [injection E as <- <-; by rewrite El|].
    cbn [p_blk with_blk] in E. change (points_step (with_blk P n)) with (points_step P) in E.
    destruct (scanR _ s _) as [[s1 b]|] eqn:Es; [|done]. cbn in E. injection E as <- <-. apply points_keep in Es. by rewrite Es, El.
  - intros s sh _. destruct (po_list s); lia.
  - sp_start. unfold points_proc. destruct (po_list s) as [|p l] eqn:El.
    { by rewrite El. }
    cbn [p_blk with_blk]. blkless points_step P n m. rewrite replicate_add, scanR_app. go.
    destruct (scanR _ s (replicate n tt)) as [[s1 o1]|] eqn:Es; [|done]. apply points_keep in Es. go. rewrite Es, El.
    by destruct (scanR _ s1 (replicate m tt)) as [[s2 o2]|].
Qed.
Lemma play_voices_blk P n rise v step vs acc : play_voices (with_blk P n) rise v step vs acc = play_voices P rise v step vs acc.
Proof.
  revert acc. induction vs as [|x vs IH]; intros acc; [done|]. cbn [play_voices].
  change (vp_dur (with_blk P n) v) with (vp_dur P v). change (voice_amp (with_blk P n)) with (voice_amp P).
  destruct (_ <=? _)%Z; by rewrite IH.
Qed.
Lemma psynth_step_blk P n s : psynth_step (with_blk P n) s = psynth_step P s.
Proof.
  unfold psynth_step. change (ps_bar (with_blk P n)) with (ps_bar P). change (ps_time (with_blk P n)) with (ps_time P).
  change (midi_freq (with_blk P n)) with (midi_freq P). change (vp_n (with_blk P n)) with (vp_n P). cbv [mbind res_bind mret res_ret].
  destruct (foldM _ _ _); [|done]. by rewrite play_voices_blk.
Qed.
Lemma msynth_step_blk P n s : msynth_step (with_blk P n) s = msynth_step P s.
Proof.
  unfold msynth_step. change (midi_freq (with_blk P n)) with (midi_freq P). change (vp_n (with_blk P n)) with (vp_n P).
  by rewrite play_voices_blk.
Qed.
Lemma scanR_ext {T A B} (f g : T -> A -> res (T * B)) s xs : (forall s x, f s x = g s x) -> scanR f s xs = scanR g s xs.
Proof. intros H. revert s. induction xs as [|x xs IH]; intros s; [done|]. cbn [scanR]. rewrite H. destruct (g s x) as [[s' y]|]; [|done]. by rewrite IH. Qed.
Lemma scan_ext {T A B} (f g : T -> A -> T * B) s xs : (forall s x, f s x = g s x) -> scan f s xs = scan g s xs.
Proof. intros H. revert s. induction xs as [|x xs IH]; intros s; [done|]. cbn [scan]. rewrite H. destruct (g s x) as [s' y]. by rewrite IH. Qed.
Lemma psynth_splits P : splits (fun n => psynth_proc (with_blk P n)) 1 any_in alone_wr.
Proof.
  eapply splits_ext; [|apply (loop_alone_splits (psynth_step P)); lia]. intros n s a o. destruct a; [|done]. unfold psynth_proc, sample_loop.
  cbn [p_blk with_blk]. by rewrite (scanR_ext _ (fun s (_ : unit) => psynth_step P s)) by (intros; apply psynth_step_blk).
Qed.
Lemma msynth_splits P : splits (fun n => msynth_proc (with_blk P n)) 1 any_in (fun _ _ => 1).
Proof.
  eapply splits_ext; [|apply (loop_splits (fun s => Ok (msynth_step P s))); lia]. intros n s a o. unfold sample_loop, msynth_proc.
  rewrite (scanR_scan (fun s (_ : unit) => msynth_step P s)) by done. cbn [p_blk with_blk].
  rewrite (scan_ext _ (fun s (_ : unit) => msynth_step P s)) by (intros; apply msynth_step_blk). by destruct (scan _ s _).
Qed.

Definition two_wr {T} (_ : T) (sh : list (nat * nat)) : nat := match length sh with 2 => 2 | _ => 0 end.
Lemma balance_splits : splits (fun _ => balance_proc) 2 any_in two_wr.
Proof.
  split.
  - intros n s a o _ Ho. outs2 o Ho. unfold core, balance_proc. ins3; bnd; crush.
  - intros n s a s' w _ E. unfold core, balance_proc in E. ins3; revert E; bnd; intros; crush.
  - intros s sh _. unfold two_wr. crush; lia.
  - sp_start. unfold balance_proc. shapes H i x y Hxy E.
    + done.
    + done.
    + sp_ord H s 0; [by go|]. sp_ord H s 1; [by go|]. sp_chan Hp 0; [by go|]. sp_chan Hp0 0; [by go|]. by go.
Qed.
Lemma pan_splits : splits (fun _ => pan_proc) 2 any_in (fun _ _ => 2).
Proof.
  split.
  - intros n s a o _ Ho. outs2 o Ho. unfold core, pan_proc. ins3; bnd; crush.
  - intros n s a s' w _ E. unfold core, pan_proc in E. ins3; revert E; bnd; intros; crush.
  - intros. lia.
  - sp_start. unfold pan_proc.
    assert (Hgen : forall s, pieces n m a b -> 
      match (rb ← in_ord (cat a b) (pn_ord s) 1; mb ← in_ord (cat a b) (pn_ord s) 0; r0 ← chan rb 0; m0 ← chan mb 0;
        out' ← put01 [[]; []] (zip_with (fun q x => fmul (pan_left q) x) r0 m0) (zip_with (fun q x => fmul (pan_right q) x) r0 m0); mret (s, out') : res (pan * list sig)) 
      with Ok (s', o) => Ok (s', take 2 o) | Panic => Panic end =
      match match (rb ← in_ord a (pn_ord s) 1; mb ← in_ord a (pn_ord s) 0; r0 ← chan rb 0; m0 ← chan mb 0;
        out' ← put01 [[]; []] (zip_with (fun q x => fmul (pan_left q) x) r0 m0) (zip_with (fun q x => fmul (pan_right q) x) r0 m0); mret (s, out') : res (pan * list sig)) 
      with Ok (s', o) => Ok (s', take 2 o) | Panic => Panic end with
      | Ok (s1, w1) => match match (rb ← in_ord b (pn_ord s1) 1; mb ← in_ord b (pn_ord s1) 0; r0 ← chan rb 0; m0 ← chan mb 0;
        out' ← put01 [[]; []] (zip_with (fun q x => fmul (pan_left q) x) r0 m0) (zip_with (fun q x => fmul (pan_right q) x) r0 m0); mret (s1, out') : res (pan * list sig)) 
      with Ok (s', o) => Ok (s', take 2 o) | Panic => Panic end with Ok (s2, w2) => Ok (s2, catc w1 w2) | Panic => Panic end
      | Panic => Panic end).
    { clear. intros s H. sp_ord H (pn_ord s) 1; [by go|]. sp_ord H (pn_ord s) 0; [by go|]. sp_chan Hp 0; [by go|]. sp_chan Hp0 0; [by go|]. go.
      by rewrite !zip_with_cat by lia. }
    specialize (Hgen s H). destruct (pieces_two _ _ _ _ H) as [(E1 & E2 & E3)|[(i & x & y & -> & -> & -> & Hxy)|(p & q & r & p' & q' & r' & l & l' & l'' & E1 & E2 & E3 & Hl)]].
    + rewrite E1, E2, E3 in *. exact Hgen.
    + sp_chan Hxy 0; [by go|]. go. by rewrite !fmap_app.
    + rewrite E1, E2, E3 in *. exact Hgen.
Qed.

Definition pass_wr (sh : list (nat * nat)) : nat :=
  match sh with [] => 0 | (_, c) :: _ => if c =? 1 then 2 else c `min` 2 end.
Lemma parts_len n m x y : parts n m x y -> length (catc x y) = length x /\ length y = length x.
Proof. intros (H & _). unfold catc. rewrite zip_with_length. lia. Qed.
Lemma pass_proc a x y : pass_out a [x; y] = take (pass_wr (shape a)) (pass_out a [[]; []]) ++ drop (pass_wr (shape a)) [x; y].
Proof. unfold pass_out. destruct a as [|[i [|b [|b1 [|b2 l]]]] a]; done. Qed.
Lemma pass_len a : length (take (pass_wr (shape a)) (pass_out a [[]; []])) = pass_wr (shape a).
Proof. unfold pass_out. destruct a as [|[i [|b [|b1 [|b2 l]]]] a]; done. Qed.
Lemma pass_wr_le sh : pass_wr sh <= 2.
Proof. destruct sh as [|[i c] sh]; cbn; [lia|]. destruct (c =? 1); lia. Qed.
Lemma pass_cat n m a b : pieces n m a b ->
  take (pass_wr (shape a)) (pass_out (cat a b) [[]; []]) =
    catc (take (pass_wr (shape a)) (pass_out a [[]; []])) (take (pass_wr (shape b)) (pass_out b [[]; []])).
Proof.
  intros H. unfold pass_out. destruct a as [|p a]; [apply pieces_nil in H as ->; done|].
  apply pieces_cons in H as (x & y & i & -> & b' & -> & (Hl & _) & H).
  destruct x as [|x0 [|x1 [|x2 x]]], y as [|y0 [|y1 [|y2 y]]]; done.
Qed.
Lemma pass_splits : splits (fun _ (s : unit) a o => Ok (s, pass_out a o)) 2 any_in (fun _ => pass_wr).
Proof.
  split.
  - intros n s a o _ Ho. outs2 o Ho. unfold core. cbn [replicate]. by rewrite pass_proc.
  - intros n s a s' w _ E. unfold core in E. cbn [replicate] in E. injection E as <- <-. by rewrite pass_len.
  - intros s sh _. apply pass_wr_le.
  - sp_start. cbn [replicate]. by rewrite (pass_cat n m).
Qed.

Lemma add_cat a a' b b' : length a = length b -> add_sig (a ++ a') (b ++ b') = add_sig a b ++ add_sig a' b'.
Proof. apply zip_with_cat. Qed.
Lemma sum2_cat n m a b ch acc1 acc2 : pieces n m a b -> length acc1 = n -> length acc2 = m ->
  let f := (fun acc p => match p.2 !! ch with Some b => Ok (add_sig acc b) | None => b0 ← chan p.2 0; mret (add_sig acc b0) end) : sig -> nat * list sig -> res sig in
  (foldM f acc1 a = Panic /\ foldM f acc2 b = Panic /\ foldM f (acc1 ++ acc2) (cat a b) = Panic) \/
  exists u v, foldM f acc1 a = Ok u /\ foldM f acc2 b = Ok v /\ foldM f (acc1 ++ acc2) (cat a b) = Ok (u ++ v).
Proof.
  intros H H1 H2 f. revert b acc1 acc2 H H1 H2. induction a as [|p a IH]; intros b acc1 acc2 H H1 H2.
  - apply pieces_nil in H as ->. right. by do 2 eexists.
  - apply pieces_cons in H as (x & y & i & -> & b' & -> & Hxy & H).
    change (cat ((i, x) :: a) ((i, y) :: b')) with ((i, catc x y) :: cat a b'). cbn [foldM].
    assert (Hf : (f acc1 (i, x) = Panic /\ f acc2 (i, y) = Panic /\ f (acc1 ++ acc2) (i, catc x y) = Panic) \/
      exists u v, f acc1 (i, x) = Ok u /\ f acc2 (i, y) = Ok v /\ f (acc1 ++ acc2) (i, catc x y) = Ok (u ++ v) /\ length u = n /\ length v = m).
    { unfold f. cbn [snd]. destruct (chan_parts _ _ _ _ ch Hxy) as [(E1 & E2 & E3)|(u1 & v1 & E1 & E2 & E3 & L1 & L2)]; unfold chan in E1, E2, E3.
      - destruct (x !! ch), (y !! ch), (catc x y !! ch); simplify_eq/=. sp_chan Hxy 0; go; [by left|right].
        exists (add_sig acc1 u), (add_sig acc2 v). rewrite add_cat by lia. unfold add_sig. rewrite !zip_with_length. split_and!; try done; lia.
      - destruct (x !! ch), (y !! ch), (catc x y !! ch); simplify_eq/=. right.
        exists (add_sig acc1 u1), (add_sig acc2 v1). rewrite add_cat by lia. unfold add_sig. rewrite !zip_with_length. split_and!; try done; lia. }
    destruct Hf as [(-> & -> & ->)|(u & v & -> & -> & -> & Hu & Hv)]; [by left|]. by apply IH.
Qed.
Lemma sum2_splits P : splits (fun n (s : unit) a o => match sum2_proc (with_blk P n) a o with Ok o' => Ok (s, o') | Panic => Panic end) 2 any_in (fun _ _ => 2).
Proof.
  split.
  - intros n s a o _ Ho. outs2 o Ho. unfold core, sum2_proc. cbn [replicate length seq mapR]. cbv [mbind res_bind mret res_ret]. by repeat case_match; simplify_eq/=.
  - intros n s a s' w _ E. unfold core, sum2_proc in E. cbn [replicate length seq mapR] in E. revert E. cbv [mbind res_bind mret res_ret]. intros. by repeat case_match; simplify_eq/=.
  - intros. lia.
  - sp_start. unfold sum2_proc. cbn [replicate length seq mapR].
    assert (Hc : forall ch, (sum2_chan (with_blk P n) a ch = Panic /\ sum2_chan (with_blk P m) b ch = Panic /\ sum2_chan (with_blk P (n + m)) (cat a b) ch = Panic) \/
      exists u v, sum2_chan (with_blk P n) a ch = Ok u /\ sum2_chan (with_blk P m) b ch = Ok v /\ sum2_chan (with_blk P (n + m)) (cat a b) ch = Ok (u ++ v)).
    { intros ch. unfold sum2_chan, silent. cbn [p_blk with_blk]. rewrite replicate_add.
      apply (sum2_cat n m a b ch (replicate n f0) (replicate m f0) H); by rewrite replicate_length. }
    destruct (Hc 0) as [(? & ? & ?)|(u & v & ? & ? & ?)]; [by go|].
    destruct (Hc 1) as [(? & ? & ?)|(u' & v' & ? & ? & ?)]; by go.
Qed.

(** *** Delays *)
Definition delayn_wr (s : delayn) (sh : list (nat * nat)) : nat :=
  match sh with
  | [(_, c)] => if (dn_n s =? 0)%Z then pass_wr sh else if c =? 1 then 2 else 1
  | _ => 0
  end.
Lemma delayn_splits : splits (fun _ => delayn_proc) 2 any_in delayn_wr.
Proof.
  split.
  - intros n s a o _ Ho. outs2 o Ho. unfold core, delayn_proc. destruct a as [|[i x] [|]]; [done| |done].
    cbn [shape map fst snd delayn_wr]. destruct (dn_n s =? 0)%Z eqn:En.
    + cbn [replicate]. by rewrite pass_proc.
    + destruct x as [|x0 [|x1 x]]; [done| |]; cbn; by destruct (scan ring_push _ _).
  - intros n s a s' w _ E. unfold core, delayn_proc in E. destruct a as [|[i x] [|]]; [by injection E as <- <-| |by injection E as <- <-].
    cbn [shape map fst snd delayn_wr] in *. destruct (dn_n s =? 0)%Z eqn:En.
    + cbn [replicate] in E. injection E as <- <-. split; [exact (pass_len [(i, x)])|by rewrite En].
    + destruct x as [|x0 [|x1 x]]; [done| |]; cbn in E; destruct (scan ring_push _ _); injection E as <- <-; cbn [dn_n]; by rewrite En.
  - intros s sh _. unfold delayn_wr. destruct sh as [|[i c] [|]]; [lia| |lia]. destruct (dn_n s =? 0)%Z; [apply pass_wr_le|]. destruct (c =? 1); lia.
  - sp_start. unfold delayn_proc.
    destruct (pieces_two _ _ _ _ H) as [(-> & -> & ->)|[(i & x & y & -> & -> & E & Hxy)|(p & q & r & p' & q' & r' & l & l' & l'' & -> & -> & E & Hl & Hl')]].
    + done.
    + rewrite E. destruct (dn_n s =? 0)%Z eqn:En.
      * rewrite En. cbn [replicate]. cbn [shape map fst snd delayn_wr]. rewrite En. rewrite <- E. pose proof (pass_cat _ _ _ _ H) as Hc. cbn [shape map fst snd] in Hc. by rewrite Hc.
      * sp_chan Hxy 0; [by go|]. go. rewrite scan_app. destruct (scan ring_push (dn_buf s) u) as [b1 o1]. go. cbn [dn_n dn_buf]. rewrite En. go.
        destruct (scan ring_push b1 v) as [b2 o2]. go. cbn [delayn_wr dn_n]. rewrite En. destruct Hxy as [Hl _].
        destruct x as [|x0 [|x1 x]], y as [|y0 [|y1 y]]; done.
    + by rewrite E.
Qed.

(** * Stream: running one node over a sequence of blocks.

    Specification vocabulary of the node properties.  Nothing here models code of
    /repo; [play] only iterates [Node::process] (lib.rs:147), feeding each block of
    inputs and keeping the node's output buffers between blocks, as the graph does. *)
From Verif Require Export InstanceProofs Instance.
From Coq Require Import Lia.
Local Open Scope nat_scope.

Section play.
  Context (P : platform).
  (** Output buffers after each block. *)
  Fixpoint play (n : gnode P) (out : list sig) (ins : list inmap) : res (gnode P * list (list sig)) :=
    match ins with
    | [] => Ok (n, [])
    | i :: ins' => match gproc P n i out with
                   | Ok (n', out') => match play n' out' ins' with
                                      | Ok (n'', outs) => Ok (n'', out' :: outs)
                                      | Panic => Panic
                                      end
                   | Panic => Panic
                   end
    end.
End play.
Lemma play_cons (P : platform) n out i ins n' out' : gproc P n i out = Ok (n', out') ->
  play P n out (i :: ins) =
    match play P n' out' ins with Ok (n'', outs) => Ok (n'', out' :: outs) | Panic => Panic end.
Proof. intros H. cbn [play]. by rewrite H. Qed.
(** What channel [ch] plays: the blocks one after the other. *)
Definition lane (ch : nat) (outs : list (list sig)) : sig :=
  List.concat (map (fun o => default [] (o !! ch)) outs).

(** The wiring messages an engine sends to a node and the order of inputs they announce. *)
Definition announced (ms : list msg) (o : list nat) : Prop :=
  Forall conn_msg ms /\ foldM ord_msg [] ms = Ok o.
(** A node as the engine creates it for component [c], after the wiring messages [ms]. *)
Definition created (P : platform) (ev : env sampledata) (c : component) (ms : list msg)
    (n : gnode P) (out : list sig) : Prop :=
  exists n0 refs, makenode_ P ev c = Done ((n0, out), refs) /\ foldM (gmsg P) n0 ms = Ok n.

(** ** Scans *)

Section scans.
  Context {S A B : Type}.
  Lemma scan_app (f : S -> A -> S * B) s xs ys :
    scan f s (xs ++ ys) =
      ((scan f (scan f s xs).1 ys).1, (scan f s xs).2 ++ (scan f (scan f s xs).1 ys).2).
  Proof.
    revert s. induction xs as [|x xs IH]; intros s; simpl; [by destruct (scan f s ys)|].
    destruct (f s x) as [s' y]. rewrite (IH s'). destruct (scan f s' xs) as [s1 l1]; simpl.
    by destruct (scan f s1 ys).
  Qed.
  Lemma scan_cons (f : S -> A -> S * B) s x xs :
    scan f s (x :: xs) = ((scan f (f s x).1 xs).1, (f s x).2 :: (scan f (f s x).1 xs).2).
  Proof. simpl. destruct (f s x) as [s' y]. simpl. by destruct (scan f s' xs). Qed.
  Lemma scan_length (f : S -> A -> S * B) s xs : length (scan f s xs).2 = length xs.
  Proof.
    revert s. induction xs as [|x xs IH]; intros s; simpl; [done|].
    destruct (f s x) as [s' y]. specialize (IH s'). destruct (scan f s' xs); simpl in *. lia.
  Qed.
  Lemma scanR_app (f : S -> A -> res (S * B)) s xs ys :
    scanR f s (xs ++ ys) =
      match scanR f s xs with
      | Ok (s1, l1) => match scanR f s1 ys with Ok (s2, l2) => Ok (s2, l1 ++ l2) | Panic => Panic end
      | Panic => Panic
      end.
  Proof.
    revert s. induction xs as [|x xs IH]; intros s; simpl; [by destruct (scanR f s ys) as [[]|]|].
    destruct (f s x) as [[s' y]|]; [|done]. rewrite (IH s').
    destruct (scanR f s' xs) as [[s1 l1]|]; [|done]. by destruct (scanR f s1 ys) as [[]|].
  Qed.
  Lemma scanR_length (f : S -> A -> res (S * B)) s xs s' ys : scanR f s xs = Ok (s', ys) -> length ys = length xs.
  Proof.
    revert s s' ys. induction xs as [|x xs IH]; intros s s' ys; simpl; [by intros [= <- <-]|].
    destruct (f s x) as [[s1 y]|]; [|done]. destruct (scanR f s1 xs) as [[s2 l]|] eqn:E; [|done].
    intros [= <- <-]. simpl. by rewrite (IH _ _ _ E).
  Qed.
  Lemma scanR_scan (f : S -> A -> S * B) (g : S -> A -> res (S * B)) s xs :
    (forall s x, g s x = Ok (f s x)) -> scanR g s xs = Ok (scan f s xs).
  Proof.
    intros Hg. revert s. induction xs as [|x xs IH]; intros s; simpl; [done|].
    rewrite Hg. destruct (f s x) as [s' y]. rewrite IH. by destruct (scan f s' xs).
  Qed.
  (** The state reached by a scan, and each of its outputs. *)
  Fixpoint state_at (f : S -> A -> S * B) (s : S) (xs : list A) : S :=
    match xs with [] => s | x :: xs' => state_at f (f s x).1 xs' end.
  Lemma scan_state f s xs : (scan f s xs).1 = state_at f s xs.
  Proof.
    revert s. induction xs as [|x xs IH]; intros s; simpl; [done|].
    destruct (f s x) as [s' y] eqn:E. simpl. rewrite <- IH. by destruct (scan f s' xs).
  Qed.
  Lemma scan_lookup f s xs t x : xs !! t = Some x ->
    (scan f s xs).2 !! t = Some (f (state_at f s (take t xs)) x).2.
  Proof.
    revert s t. induction xs as [|y xs IH]; intros s t; [done|]. simpl.
    destruct (f s y) as [s' z] eqn:E. specialize (IH s').
    destruct t as [|t]; simpl.
    - intros [= ->]. destruct (scan f s' xs). simpl. by rewrite E.
    - intros H. specialize (IH t H). destruct (scan f s' xs). simpl in *. by rewrite IH, E.
  Qed.
End scans.

(** An output that is a function of the inputs and outputs so far. *)
Lemma scan_recur {S A B} (f : S -> A -> S * B) (R : list A -> list B -> S -> Prop) (G : A -> list A -> list B -> B) :
  (forall h k s x, R h k s -> (f s x).2 = G x h k /\ R (h ++ [x]) (k ++ [(f s x).2]) (f s x).1) ->
  forall xs h k s t x, R h k s -> xs !! t = Some x ->
    (scan f s xs).2 !! t = Some (G x (h ++ take t xs) (k ++ take t (scan f s xs).2)).
Proof.
  intros Hf. induction xs as [|x0 xs IH]; intros h k s t x HR Ht; [done|].
  destruct (Hf h k s x0 HR) as [Hv HR']. rewrite scan_cons. cbn [snd].
  destruct t as [|t].
  - injection Ht as <-. simpl. by rewrite !app_nil_r, Hv.
  - change (xs !! t = Some x) in Ht. specialize (IH _ _ _ t x HR' Ht).
    rewrite <- !app_assoc in IH. exact IH.
Qed.
Lemma scan_invariant {S A B} (f : S -> A -> S * B) (Inv : S -> Prop) xs s :
  (forall s x, Inv s -> Inv (f s x).1) -> Inv s -> Inv (scan f s xs).1.
Proof.
  intros Hf. revert s. induction xs as [|x xs IH]; intros s Hs; [done|]. rewrite scan_cons. cbn [fst].
  apply IH. by apply Hf.
Qed.

(** ** From blocks to streams *)

Lemma lane_cons ch o outs : lane ch (o :: outs) = default [] (o !! ch) ++ lane ch outs.
Proof. done. Qed.

Lemma scanR_inv {S A B} (Inv : S -> Prop) (f : S -> A -> res (S * B)) s xs s' ys :
  (forall s x s' y, Inv s -> f s x = Ok (s', y) -> Inv s') -> Inv s -> scanR f s xs = Ok (s', ys) -> Inv s'.
Proof.
  intros Hf. revert s s' ys. induction xs as [|x xs IH]; intros s s' ys Hs; simpl; [by intros [= <- <-]|].
  destruct (f s x) as [[s1 y]|] eqn:E; [|done]. destruct (scanR f s1 xs) as [[s2 l]|] eqn:E2; [|done].
  intros [= <- <-]. eapply IH; [|exact E2]. by eapply Hf.
Qed.

Section play_scan.
  Context (P : platform) {S A B : Type}.
  Context (inj : S -> gnode P) (f : S -> A -> res (S * B)) (Inv : S -> Prop)
          (chs : list (nat * (B -> f32))) (k : nat).
  (** One block: the node consumes the samples of the block one by one and writes the
      channels [chs]. *)
  Definition block_ok (b : inmap * list A) : Prop := forall s out, Inv s -> length out = k ->
    match scanR f s b.2 with
    | Ok (s', ys) => exists out', gproc P (inj s) b.1 out = Ok (inj s', out') /\ length out' = k /\
                       forall ch g, (ch, g) ∈ chs -> out' !! ch = Some (g <$> ys)
    | Panic => gproc P (inj s) b.1 out = Panic
    end.
  Lemma play_scan bs s out : (forall s x s' y, Inv s -> f s x = Ok (s', y) -> Inv s') -> Inv s ->
    Forall block_ok bs -> length out = k ->
    match scanR f s (List.concat (map snd bs)) with
    | Ok (s', ys) => exists outs, play P (inj s) out (map fst bs) = Ok (inj s', outs) /\
                       length outs = length bs /\ Forall (fun o => length o = k) outs /\
                       forall ch g, (ch, g) ∈ chs -> lane ch outs = g <$> ys
    | Panic => play P (inj s) out (map fst bs) = Panic
    end.
  Proof.
    intros Hinv Hs Hbs. revert s out Hs. induction Hbs as [|b bs Hb Hbs IH]; intros s out Hs Hout; simpl.
    - exists []. done.
    - rewrite scanR_app. specialize (Hb s out Hs Hout). destruct (scanR f s b.2) as [[s1 l1]|] eqn:E1.
      + destruct Hb as (out' & -> & Hk & Hch).
        specialize (IH s1 out' (scanR_inv Inv f _ _ _ _ Hinv Hs E1) Hk).
        destruct (scanR f s1 (List.concat (map snd bs))) as [[s2 l2]|].
        * destruct IH as (outs & -> & Hl & Hks & Hlane). exists (out' :: outs).
          split; [done|]. split; [simpl; lia|]. split; [by constructor|].
          intros ch g Hin. rewrite lane_cons, (Hch _ _ Hin), (Hlane _ _ Hin). simpl. by rewrite fmap_app.
        * by rewrite IH.
      + by rewrite Hb.
  Qed.
End play_scan.

(** The same for sample loops that cannot panic. *)
Lemma play_scan_inv (P : platform) {S A B} (inj : S -> gnode P) (f : S -> A -> S * B) (Inv : S -> Prop)
    (chs : list (nat * (B -> f32))) (k : nat) bs s out :
  (forall s x, Inv s -> Inv (f s x).1) -> Inv s ->
  (forall b s out, b ∈ bs -> Inv s -> length out = k ->
     exists out', gproc P (inj s) b.1 out = Ok (inj (scan f s b.2).1, out') /\ length out' = k /\
       forall ch g, (ch, g) ∈ chs -> out' !! ch = Some (g <$> (scan f s b.2).2)) ->
  length out = k ->
  exists outs, play P (inj s) out (map fst bs) = Ok (inj (scan f s (List.concat (map snd bs))).1, outs) /\
    length outs = length bs /\ Forall (fun o => length o = k) outs /\
    forall ch g, (ch, g) ∈ chs -> lane ch outs = g <$> (scan f s (List.concat (map snd bs))).2.
Proof.
  intros Hinv Hs Hb Hk.
  pose proof (play_scan P inj (fun s x => Ok (f s x)) Inv chs k bs s out) as H.
  rewrite (scanR_scan f) in H by done.
  destruct (scan f s (List.concat (map snd bs))) as [s' ys]. apply H; [| |  |done].
  - intros s0 x s1 y H0 [= E]. specialize (Hinv s0 x H0). by rewrite E in Hinv.
  - done.
  - apply Forall_forall. intros b Hin s0 out0 Hs0 Hk0. rewrite (scanR_scan f) by done.
    destruct (scan f s0 b.2) as [s1 l1] eqn:E. specialize (Hb b s0 out0 Hin Hs0 Hk0). by rewrite E in Hb.
Qed.
Lemma play_scan_pure (P : platform) {S A B} (inj : S -> gnode P) (f : S -> A -> S * B)
    (chs : list (nat * (B -> f32))) (k : nat) bs s out :
  (forall b s out, b ∈ bs -> length out = k ->
     exists out', gproc P (inj s) b.1 out = Ok (inj (scan f s b.2).1, out') /\ length out' = k /\
       forall ch g, (ch, g) ∈ chs -> out' !! ch = Some (g <$> (scan f s b.2).2)) ->
  length out = k ->
  exists outs, play P (inj s) out (map fst bs) = Ok (inj (scan f s (List.concat (map snd bs))).1, outs) /\
    length outs = length bs /\ Forall (fun o => length o = k) outs /\
    forall ch g, (ch, g) ∈ chs -> lane ch outs = g <$> (scan f s (List.concat (map snd bs))).2.
Proof. intros Hb Hk. apply (play_scan_inv P inj f (fun _ => True)); auto. Qed.

(** ** Wiring messages *)

Lemma announced_ord (P : platform) (mk : list nat -> gnode P) ms o :
  (forall o m, conn_msg m -> gmsg P (mk o) m = match ord_msg o m with Ok o' => Ok (mk o') | Panic => Panic end) ->
  announced ms o -> foldM (gmsg P) (mk []) ms = Ok (mk o).
Proof.
  intros Hmk [Hms Ho]. revert Ho. generalize (@nil nat) as o0. induction Hms as [|m ms Hm Hms IH]; intros o0; simpl.
  - by intros [= ->].
  - rewrite Hmk by done. destruct (ord_msg o0 m) as [o1|]; [|done]. apply IH.
Qed.
Lemma fold_stable (P : platform) (n : gnode P) ms :
  (forall m, conn_msg m -> gmsg P n m = Ok n) -> Forall conn_msg ms -> foldM (gmsg P) n ms = Ok n.
Proof. intros Hn Hms. induction Hms as [|m ms Hm Hms IH]; simpl; [done|]. by rewrite Hn. Qed.
(** Nodes whose wiring messages only change the announced order. *)
Lemma wiring_mk (P : platform) (mk : list nat -> gnode P) ms o nd :
  (forall o m n, conn_msg m -> gmsg P (mk o) m = Ok n -> exists o', n = mk o') ->
  Forall conn_msg ms -> foldM (gmsg P) (mk o) ms = Ok nd -> exists o', nd = mk o'.
Proof.
  intros Hmk Hms. revert o. induction Hms as [|m ms Hm Hms IH]; intros o; simpl.
  - intros [= <-]. by exists o.
  - destruct (gmsg P (mk o) m) as [n|] eqn:E; [|done]. apply Hmk in E as [o' ->]; [|done]. apply IH.
Qed.
Ltac wiring_step :=
  let o := fresh "o" in let m := fresh "m" in let n := fresh "n" in
  intros o m n Hcm; destruct m; try done;
  cbv [gmsg smsg op_msg osc_msg csig_msg imp_msg noise_msg balance_proc pan_msg spd_msg eval_msg meta_msg seq_msg
       choose_msg arrange_msg points_msg psynth_msg msynth_msg sampler_msg psampler_msg delayn_msg delayms_msg
       envperc_msg adsr_msg apf_msg onepole_msg bq_msg ord_msg ord_msg_keep mbind res_bind mret res_ret wrapm];
  try (destruct (vec_insert _ _ _)); try done; intros [= <-]; by eexists.

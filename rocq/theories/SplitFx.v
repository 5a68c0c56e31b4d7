(** * SplitFx: delays, envelopes and filters do not depend on the size of the blocks. *)
From Verif Require Export Split.
From Coq Require Import Lia.
Local Open Scope nat_scope.
Local Arguments Nat.leb : simpl never.
Local Arguments Nat.eqb : simpl never.

Definition chans_wr (rs : list ring) (c : nat) : nat := (2 `min` c) `min` length rs.
Lemma chans_nil f rs ms : chans f rs [] ms = Ok (rs, []).
Proof. by destruct rs. Qed.
Lemma chans_proc f rs x y ms : chans f rs [x; y] ms =
  match chans f rs [[]; []] ms with Ok (rs', o) => Ok (rs', take (chans_wr rs (length ms)) o ++ drop (chans_wr rs (length ms)) [x; y]) | Panic => Panic end.
Proof.
  destruct rs as [|r0 [|r1 rs]], ms as [|b0 [|b1 ms]]; try done; cbn [chans]; rewrite ?chans_nil; cbv [mbind res_bind mret res_ret];
    repeat (destruct (f _ _) as [[]|]; cbn; try done).
Qed.
Lemma chans_len f rs ms rs' o : chans f rs [[]; []] ms = Ok (rs', o) -> length rs' = length rs /\ length (take (chans_wr rs (length ms)) o) = chans_wr rs (length ms).
Proof.
  destruct rs as [|r0 [|r1 rs]], ms as [|b0 [|b1 ms]]; cbn [chans]; rewrite ?chans_nil; cbv [mbind res_bind mret res_ret];
    repeat (destruct (f _ _) as [[]|]; cbn; try done); by intros [= <- <-].
Qed.
Lemma chans_cat n m f f1 f2 rs x y : parts n m x y ->
  (forall r u v, r ∈ rs -> length u = n -> length v = m -> f r (u ++ v) =
     match f1 r u with Ok (r1, o1) => match f2 r1 v with Ok (r2, o2) => Ok (r2, o1 ++ o2) | Panic => Panic end | Panic => Panic end) ->
  match chans f rs [[]; []] (catc x y) with Ok (rs', o) => Ok (rs', take (chans_wr rs (length x)) o) | Panic => Panic end =
  match chans f1 rs [[]; []] x with
  | Ok (rs1, o1) => match chans f2 rs1 [[]; []] y with
                    | Ok (rs2, o2) => Ok (rs2, catc (take (chans_wr rs (length x)) o1) (take (chans_wr rs1 (length y)) o2))
                    | Panic => Panic end
  | Panic => Panic
  end.
Proof.
  intros (Hl & Hx & Hy) Hf.
  destruct rs as [|r0 [|r1 rs]], x as [|x0 [|x1 x]], y as [|y0 [|y1 y]]; try discriminate Hl; try done; cbn [catc zip_with chans];
    rewrite ?chans_nil, ?Forall_cons in *; destruct_and?; rewrite ?Hf by (try done; set_solver); cbv [mbind res_bind mret res_ret];
    repeat (first [destruct (f1 _ _) as [[]|]|destruct (f2 _ _) as [[]|]]; cbn; rewrite ?chans_nil; cbn; try done).
Qed.
Lemma ring_push_len r x : ring_len (ring_push r x).1 = ring_len r.
Proof. unfold ring_push, ring_len. cbn. by rewrite insert_length. Qed.
Lemma mapR_app {A B} (f : A -> res B) xs ys : mapR f (xs ++ ys) =
  match mapR f xs with Ok us => match mapR f ys with Ok vs => Ok (us ++ vs) | Panic => Panic end | Panic => Panic end.
Proof.
  induction xs as [|x xs IH]; cbn [mapR app]; [by destruct (mapR f ys)|]. cbv [mbind res_bind mret res_ret] in *.
  destruct (f x); [|done]. rewrite IH. destruct (mapR f xs); [|done]. by destruct (mapR f ys).
Qed.
Lemma mapR_len {A B} (f : A -> res B) xs us : mapR f xs = Ok us -> length us = length xs.
Proof.
  revert us. induction xs as [|x xs IH]; intros us; cbn [mapR]; cbv [mbind res_bind mret res_ret] in *; [by intros [= <-]|].
  destruct (f x); [|done]. destruct (mapR f xs); [|done]. intros [= <-]. cbn. by rewrite (IH _ eq_refl).
Qed.

(** The channels of the input announced first. *)
Definition first_count (sh : list (nat * nat)) (ord : list nat) : nat :=
  match ord !! 0 with
  | Some id => match List.find (fun p => p.1 =? id) sh with Some p => p.2 | None => 0 end
  | None => 0
  end.
Lemma first_count_ok a ord x : in_ord a ord 0 = Ok x -> first_count (shape a) ord = length x.
Proof.
  unfold in_ord, first_count. destruct (ord !! 0) as [id|]; [|done]. induction a as [|[i y] a IH]; [done|].
  cbn [in_id shape map fst snd List.find]. destruct (i =? id); [by intros [= ->]|]. apply IH.
Qed.
Definition delayms_wr (s : delayms) (sh : list (nat * nat)) : nat :=
  match sh with
  | [] => 0
  | (_, c) :: r =>
      if negb ((1 <=? c) && (c <=? 2)) then 0
      else match r with
           | [] => if (dm_n s =? 0)%Z then 1 else chans_wr (dm_bufs s) c
           | [_] => chans_wr (dm_bufs s) (first_count sh (dm_ord s))
           | _ => 0
           end
  end.
Lemma delayms_wr_state s s' sh : dm_n s' = dm_n s -> dm_ord s' = dm_ord s -> length (dm_bufs s') = length (dm_bufs s) ->
  delayms_wr s' sh = delayms_wr s sh.
Proof. unfold delayms_wr, chans_wr. by intros -> -> ->. Qed.
Lemma delayms_mod_cat P n m p1 p2 r u v : length u = n -> length v = m -> length p1 = n ->
  delayms_mod_chan P (p1 ++ p2) r (u ++ v) =
    match delayms_mod_chan P p1 r u with
    | Ok (r1, o1) => match delayms_mod_chan P p2 r1 v with Ok (r2, o2) => Ok (r2, o1 ++ o2) | Panic => Panic end
    | Panic => Panic end.
Proof. intros Hu Hv Hp. unfold delayms_mod_chan. rewrite zip_with_cat by lia. apply scanR_app. Qed.
Lemma delayms_mod_len P p r u r' o : delayms_mod_chan P p r u = Ok (r', o) -> ring_len r' = ring_len r.
Proof.
  unfold delayms_mod_chan. intros E. apply (scanR_inv (fun r' => ring_len r' = ring_len r)) in E; [done| |done].
  intros s x s' y <-. cbv [mbind res_bind mret res_ret]. destruct (mod_read _ _ _); [|done]. intros [= <- <-]. apply ring_push_len.
Qed.
Definition delayms_pos (P : platform) (s : delayms) (v : f32) : res (Z * f32) :=
  match dm_bufs s with
  | r0 :: _ => mod_pos P (dm_sr s) (ring_len r0) v
  | [] => if fltb (fmul (fdiv (fneg v) (f_of_Z 1000)) (f_of_Z (dm_sr s))) f0 then Panic else Ok (0%Z, f0)
  end.
Lemma mapR_ext {A B} (f g : A -> res B) xs : (forall x, f x = g x) -> mapR f xs = mapR g xs.
Proof. intros H. induction xs as [|x xs IH]; [done|]. cbn [mapR]. by rewrite H, IH. Qed.
Lemma chans_lens f rs o ms rs' o' : (forall r u r' v, f r u = Ok (r', v) -> ring_len r' = ring_len r) ->
  chans f rs o ms = Ok (rs', o') -> map ring_len rs' = map ring_len rs.
Proof.
  intros Hf. revert o ms rs' o'. induction rs as [|r rs IH]; intros [|x o] [|b ms] rs' o'; cbn [chans]; try by intros [= <- <-].
  cbv [mbind res_bind mret res_ret]. destruct (f r b) as [[r1 v]|] eqn:E; [|done]. destruct (chans f rs o ms) as [[rs1 o1]|] eqn:E1; [|done].
  intros [= <- <-]. cbn [map fst]. by rewrite (Hf _ _ _ _ E), (IH _ _ _ _ E1).
Qed.
Lemma chans_pos P s pu mb rs1 o1 z : chans (delayms_mod_chan P pu) (dm_bufs s) [[]; []] mb = Ok (rs1, o1) ->
  match rs1 with
  | r0 :: _ => mod_pos P (dm_sr s) (ring_len r0) z
  | [] => if fltb (fmul (fdiv (fneg z) (f_of_Z 1000)) (f_of_Z (dm_sr s))) f0 then Panic else Ok (0%Z, f0)
  end = delayms_pos P s z.
Proof.
  intros E. apply chans_lens in E; [|intros; by eapply delayms_mod_len]. unfold delayms_pos.
  destruct (dm_bufs s) as [|r0 rs], rs1 as [|r1 rs1]; [reflexivity|discriminate E..|]. injection E as -> _. reflexivity.
Qed.
Lemma mod_pos_blk P n : mod_pos (with_blk P n) = mod_pos P.
Proof. unfold delayms_mod_chan, mod_read, mod_pos. cbn [p_cfg with_blk]. reflexivity. Qed.
Lemma delayms_mod_chan_blk P n : delayms_mod_chan (with_blk P n) = delayms_mod_chan P.
Proof. unfold delayms_mod_chan, mod_read, mod_pos. cbn [p_cfg with_blk]. reflexivity. Qed.
Lemma delayms_splits P : splits (fun n => delayms_proc (with_blk P n)) 2 any_in delayms_wr.
Proof.
  split.
  - intros n s a o _ Ho. outs2 o Ho. unfold core, delayms_proc. destruct a as [|[i x] a]; [done|]. cbn [in_first fst snd]. go.
    cbn [delayms_wr]. destruct (negb _) eqn:En; [done|]. destruct a as [|[j y] [|]].
    + destruct (dm_n s =? 0)%Z; [by destruct (chan x 0)|]. rewrite chans_proc. by destruct (chans _ _ _ _) as [[]|].
    + destruct (in_ord _ _ 0) as [mb|] eqn:E0; [|done]. destruct (in_ord _ _ 1) as [rb|]; [|done]. destruct (chan rb 0); [|done].
      destruct (mapR _ _); [|done]. rewrite chans_proc. apply first_count_ok in E0. cbn [shape map fst snd] in E0 |- *. rewrite E0. by destruct (chans _ _ _ _) as [[]|].
    + done.
  - intros n s a s' w _ E. unfold core, delayms_proc in E. destruct a as [|[i x] a]; [done|]. revert E. go. cbn [in_first snd].
    destruct (negb _) eqn:En.
    { intros [= <- <-]. split; [|done]. unfold delayms_wr. by rewrite En. }
    destruct a as [|[j y] [|]].
    + destruct (dm_n s =? 0)%Z eqn:Ez.
      { destruct (chan x 0); [|done]. intros [= <- <-]. split; [|done]. cbn [map delayms_wr]. by rewrite En, Ez. }
      destruct (chans _ _ _ _) as [[rs o]|] eqn:Ec; [|done]. apply chans_len in Ec as [El Ew]. intros [= <- <-]. split; [|split; [apply delayms_wr_state; done|done]].
      cbn [map delayms_wr]. rewrite En, Ez. exact Ew.
    + destruct (in_ord _ _ 0) as [mb|] eqn:E0; [|done]. destruct (in_ord _ _ 1) as [rb|]; [|done]. destruct (chan rb 0); [|done].
      destruct (mapR _ _); [|done]. destruct (chans _ _ _ _) as [[rs o]|] eqn:Ec; [|done]. apply first_count_ok in E0.
      apply chans_len in Ec as [El Ew]. intros [= <- <-]. split; [|split; [apply delayms_wr_state; done|done]].
      cbn [map delayms_wr]. rewrite En. cbn [shape map fst snd] in *. by rewrite E0.
    + intros [= <- <-]. split; [|done]. cbn [map delayms_wr]. by rewrite En.
  - intros s sh _. unfold delayms_wr, chans_wr. repeat case_match; lia.
  - sp_start. unfold delayms_proc.
    destruct (pieces_two _ _ _ _ H) as [(-> & -> & ->)|[(i & x & y & -> & -> & -> & Hxy)|(p & q & r & p' & q' & r' & l & l' & l'' & Ea & Eb & E & Hl & Hl')]].
    + done.
    + destruct (parts_len _ _ _ _ Hxy) as [L1 L2]. cbn [in_first snd fst]. go. rewrite L1. cbn [delayms_wr].
      destruct (negb _) eqn:En.
      { cbn [in_first]. go. cbn [delayms_wr]. rewrite L2, En. done. }
      destruct (dm_n s =? 0)%Z eqn:Ez.
      * sp_chan Hxy 0; [by go|]. go. cbn [delayms_wr]. rewrite ?L2, ?En, ?Ez. go. done.
      * pose proof (chans_cat n m (fun r b => Ok (scan ring_push r b)) (fun r b => Ok (scan ring_push r b)) (fun r b => Ok (scan ring_push r b)) (dm_bufs s) x y Hxy) as Hc.
        rewrite L2 in Hc.
        assert (Hc' := Hc ltac:(intros r u v _ _ _; rewrite scan_app; by destruct (scan ring_push r u) as [? ?], (scan ring_push _ v))). clear Hc.
        destruct (chans _ (dm_bufs s) _ (catc x y)) as [[rs o]|];
        destruct (chans _ (dm_bufs s) _ x) as [[rs1 o1]|]; go; cbn [dm_n dm_bufs dm_sr dm_ord]; rewrite ?L2, ?En, ?Ez; try done;
        destruct (chans _ rs1 _ y) as [[rs2 o2]|]; go; congruence.
    + destruct a as [|[i x] a]; [done|]. apply pieces_cons in H as Hq. destruct Hq as (x' & y & i' & [= <- <-] & b' & -> & Hxy & H').
      destruct (parts_len _ _ _ _ Hxy) as [L1 L2]. injection Ea as <- ->. injection Eb as <- ->.
      destruct (pieces_two _ _ _ _ H') as [(? & _)|[(j & x1 & y1 & [= -> ->] & [= -> ->] & _ & Hxy1)|(p & q0 & r0 & p' & q0' & r0' & l0 & l0' & l0'' & [= -> ->] & [= -> ->] & E' & _)]]; [done| |].
      2:{ assert (Ec : cat ((i, x) :: p :: q0 :: l0) ((i, y) :: p' :: q0' :: l0') = (i, catc x y) :: r0 :: r0' :: l0'') by (cbn [cat zip_with fst snd]; f_equal; exact E').
          rewrite Ec. cbn [in_first fst snd]. go. cbn [delayms_wr]. rewrite L1.
          destruct (negb _) eqn:En; go; cbn [in_first fst snd]; go; rewrite L2, En; done. }
      pose proof (in_ord_pieces n m _ _ (dm_ord s) 0 H) as H0. pose proof (in_ord_pieces n m _ _ (dm_ord s) 1 H) as H1.
      clear E Hl Hl' r r' l''.
      cbn [cat zip_with fst snd in_first] in *. go. cbn [in_first fst snd delayms_wr]. rewrite L1.
      destruct (negb _) eqn:En.
      { go. rewrite L2, En. done. }
      destruct H0 as [(-> & _ & ->)|(mb1 & mb2 & E1 & E2 & E3 & Hm1)]; [done|].
      destruct H1 as [(? & _ & ?)|(rb1 & rb2 & F1 & F2 & F3 & Hr1)]; [by go|].
      pose proof (first_count_ok _ _ _ E1) as G1. pose proof (first_count_ok _ _ _ E2) as G2. cbn [shape map fst snd] in G1, G2. rewrite L2 in G2.
      sp_chan Hr1 0; [by go|]. go. rewrite mapR_app. rewrite G1.
      rewrite !mod_pos_blk, !delayms_mod_chan_blk. fold (delayms_pos P s).
      destruct (mapR (delayms_pos P s) u) as [pu|] eqn:Epu; [|done]. apply mapR_len in Epu. 
      destruct (mapR (delayms_pos P s) v) as [pv|] eqn:Epv.
      * assert (Hc := chans_cat n m (delayms_mod_chan P (pu ++ pv)) (delayms_mod_chan P pu) (delayms_mod_chan P pv) (dm_bufs s) mb1 mb2 Hm1
           ltac:(intros; apply (delayms_mod_cat P n m); lia)).
        destruct (parts_len _ _ _ _ Hm1) as [L3 L4]. rewrite L4 in *.
        destruct (chans (delayms_mod_chan P pu) _ _ _) as [[rs1 o1]|] eqn:Ec1; go.
        2:{ by destruct (chans _ _ _ (catc mb1 mb2)) as [[]|]. }
        rewrite L2, En. cbn [dm_n dm_bufs dm_sr dm_ord]. go. rewrite G2.
        erewrite mapR_ext; [rewrite Epv|]. 
        2:{ intros z. exact (chans_pos P s _ _ _ _ z Ec1). }
        destruct (chans _ _ _ (catc mb1 mb2)) as [[rs o]|];
        destruct (chans _ rs1 _ mb2) as [[rs2 o2]|]; go; congruence.
      * destruct (chans (delayms_mod_chan P pu) _ _ _) as [[rs1 o1]|] eqn:Ec1; go; [|done].
        rewrite L2, En. cbn [dm_n dm_bufs dm_sr dm_ord]. go.
        erewrite mapR_ext; [by rewrite Epv|]. intros z. exact (chans_pos P s _ _ _ _ z Ec1).
Qed.

(** A node that scans its one input, or its two inputs side by side, and writes [dup] times
    the same channel.  [par]: what it works out once per block. *)
Section fx.
  Context {T A : Type} (par : T -> res A) (ord : T -> list nat) (byord : bool)
          (step : A -> T -> f32 -> res (T * f32)) (mstep : option (T -> f32 * f32 -> res (T * f32))) (dup k : nat).
  Definition fx_in (s : T) (ins : inmap) : res (list sig) := if byord then in_ord ins (ord s) 0 else in_first ins.
  Definition fx_write {B} (r : res (B * sig)) (out : list sig) : res (B * list sig) :=
    match r with Ok (s', o) => Ok (s', replicate dup o ++ drop dup out) | Panic => Panic end.
  Definition fx_proc (s : T) (ins : inmap) (out : list sig) : res (T * list sig) :=
    match ins with
    | [_] => a ← par s; bs ← fx_in s ins; b ← chan bs 0; fx_write (scanR (step a) s b) out
    | [_; _] =>
        match mstep with
        | Some f => mb ← in_ord ins (ord s) 0; rb ← in_ord ins (ord s) 1; m0 ← chan mb 0; r0 ← chan rb 0;
                    fx_write (scanR f s (zip m0 r0)) out
        | None => Ok (s, out)
        end
    | _ => Ok (s, out)
    end.
  Definition fx_wr (_ : T) (sh : list (nat * nat)) : nat :=
    match sh with [_] => dup | [_; _] => match mstep with Some _ => dup | None => 0 end | _ => 0 end.
  Context (Hdup : dup <= k)
          (Hstep : forall a s x s' y, par s = Ok a -> step a s x = Ok (s', y) -> par s' = Ok a /\ ord s' = ord s)
          (Hmstep : forall f s x s' y, mstep = Some f -> f s x = Ok (s', y) -> ord s' = ord s).
  Lemma fx_keep a s xs s' o : par s = Ok a -> scanR (step a) s xs = Ok (s', o) -> par s' = Ok a /\ ord s' = ord s.
  Proof.
    intros Hp E. apply (scanR_inv (fun s' => par s' = Ok a /\ ord s' = ord s)) in E; [done| |done].
    intros s0 x s1 y [H1 H2] E1. destruct (Hstep _ _ _ _ _ H1 E1) as [? H3]. split; [done|]. by rewrite H3.
  Qed.
  Lemma fx_mkeep f s xs s' o : mstep = Some f -> scanR f s xs = Ok (s', o) -> ord s' = ord s.
  Proof.
    intros Hp E. apply (scanR_inv (fun s' => ord s' = ord s)) in E; [done| |done].
    intros s0 x s1 y <- E1. by eapply Hmstep.
  Qed.
  Lemma fx_write_core {B} (r : res (B * sig)) : match fx_write r (replicate k []) with Ok (s', o) => Ok (s', take dup o) | Panic => Panic end =
    match r with Ok (s', o) => Ok (s', replicate dup o) | Panic => Panic end.
  Proof. destruct r as [[s' o]|]; [|done]. cbn [fx_write]. by rewrite take_app_alt by (by rewrite replicate_length). Qed.
  Lemma catc_replicate c u v : catc (replicate c u) (replicate c v) = replicate c (u ++ v).
  Proof. induction c as [|c IH]; [done|]. cbn [replicate catc zip_with]. f_equal. exact IH. Qed.
  Lemma fx_in_one s i x y :
    (fx_in s [(i, x)] = Panic /\ fx_in s [(i, catc x y)] = Panic) \/
    (fx_in s [(i, x)] = Ok x /\ fx_in s [(i, catc x y)] = Ok (catc x y) /\ forall s', ord s' = ord s -> fx_in s' [(i, y)] = Ok y).
  Proof.
    unfold fx_in. destruct byord; [|by right]. unfold in_ord. destruct (ord s !! 0) as [j|] eqn:Ej; [|by left].
    cbn [in_id fst snd]. destruct (i =? j) eqn:Eij; [right|by left]. split; [done|]. split; [done|]. intros s' ->. by rewrite Ej, Eij.
  Qed.
  Lemma fx_splits : splits (fun _ => fx_proc) k any_in fx_wr.
  Proof.
    split.
    - intros n s a o _ Ho. unfold core, fx_proc.
      assert (Hw : forall (r : res (T * sig)), fx_write r o = match match fx_write r (replicate k []) with Ok (s', o) => Ok (s', take dup o) | Panic => Panic end with
                                                     | Ok (s', w) => Ok (s', w ++ drop dup o) | Panic => Panic end).
      { intros r. rewrite fx_write_core. by destruct r as [[]|]. }
      destruct a as [|p [|q [|]]]; try done; cbn [shape map fx_wr]; cbv [mbind res_bind mret res_ret].
      + destruct (par s) as [a|]; [|done]. destruct (fx_in s _) as [bs|]; [|done]. destruct (chan bs 0); [|done]. apply Hw.
      + destruct mstep as [f|]; [|done]. destruct (in_ord _ _ 0) as [mb|]; [|done]. destruct (in_ord _ _ 1) as [rb|]; [|done].
        destruct (chan mb 0); [|done]. destruct (chan rb 0); [|done]. apply Hw.
    - intros n s a s' w _ E. split; [|done]. revert E. unfold core, fx_proc. destruct a as [|p [|q [|]]]; try by intros [= <- <-].
      all: cbn [shape map fx_wr]; cbv [mbind res_bind mret res_ret].
      + destruct (par s) as [a|]; [|done]. destruct (fx_in s _) as [bs|]; [|done]. destruct (chan bs 0); [|done].
        rewrite fx_write_core. destruct (scanR _ _ _) as [[]|]; [|done]. intros [= <- <-]. apply replicate_length.
      + destruct mstep as [f|]; [|by intros [= <- <-]]. destruct (in_ord _ _ 0) as [mb|]; [|done]. destruct (in_ord _ _ 1) as [rb|]; [|done].
        destruct (chan mb 0); [|done]. destruct (chan rb 0); [|done]. rewrite fx_write_core.
        destruct (scanR _ _ _) as [[]|]; [|done]. intros [= <- <-]. apply replicate_length.
    - intros s sh _. unfold fx_wr. repeat case_match; lia.
    - sp_start. unfold fx_proc. shapes H i x y Hxy E.
      + done.
      + cbn [fx_wr]. destruct (par s) as [a|] eqn:Ep; [|done].
        destruct (fx_in_one s i x y) as [(-> & ->)|(-> & -> & Hy)]; [done|]. sp_chan Hxy 0; [by go|]. go. rewrite !fx_write_core, scanR_app.
        destruct (scanR (step a) s u) as [[s1 o1]|] eqn:E1; [|done]. apply fx_keep in E1 as [Ep1 Eo]; [|done]. rewrite Ep1, Hy by done. go.
        rewrite fx_write_core. destruct (scanR (step a) s1 v) as [[s2 o2]|]; [|done]. by rewrite catc_replicate.
      + cbn [fx_wr]. pose proof fx_mkeep as Hmk. destruct mstep as [f|]; [|done].
        sp_ord H (ord s) 0; [by go|]. sp_ord H (ord s) 1; [by go|]. sp_chan Hp 0; [by go|]. sp_chan Hp0 0; [by go|]. go.
        rewrite !fx_write_core. rewrite zip_with_cat, scanR_app by lia.
        destruct (scanR f s (zip_with pair u u0)) as [[s1 o1]|] eqn:E1; [|done]. apply Hmk in E1; [|done]. rewrite E1. go.
        rewrite fx_write_core. destruct (scanR f s1 _) as [[s2 o2]|]; [|done]. by rewrite catc_replicate.
  Qed.
End fx.
Lemma splits_ext_in {T} (p q : nat -> T -> inmap -> list sig -> res (T * list sig)) k okin wr :
  (forall n s a o, okin s (shape a) = true -> length o = k -> p n s a o = q n s a o) ->
  splits q k any_in wr -> (forall n s a s' w, okin s (shape a) = true -> core q k wr n s a = Ok (s', w) -> okin s' (shape a) = true) -> splits p k okin wr.
Proof.
  intros Hpq [H1 H2 H3 H4] Hok.
  assert (Hc : forall n s a, okin s (shape a) = true -> core p k wr n s a = core q k wr n s a).
  { intros n s a Ha. unfold core. by rewrite Hpq by (try done; apply replicate_length). }
  split.
  - intros n s a o Ha Ho. rewrite Hc, Hpq by done. by apply H1.
  - intros n s a s' w Ha. rewrite Hc by done. intros E. destruct (H2 _ _ _ _ _ eq_refl E) as (? & ? & _). split; [done|]. split; [done|]. by eapply Hok.
  - intros s sh _. by apply H3.
  - intros n m s a b Ha Hn Hm Hp. rewrite !Hc by (try done; by rewrite (shape_cat n m)). rewrite (H4 n m s a b) by done.
    destruct (core q k wr n s a) as [[s1 w1]|] eqn:E; [|done]. rewrite Hc; [done|]. destruct Hp as [<- _]. by eapply Hok.
Qed.

(** Envelopes and filters. *)
Lemma fx_ext {T A} p k (par : T -> res A) ord byord step mstep dup :
  dup <= k -> (forall a s x s' y, par s = Ok a -> step a s x = Ok (s', y) -> par s' = Ok a /\ ord s' = ord s) ->
  (forall f s x s' y, mstep = Some f -> f s x = Ok (s', y) -> ord s' = ord s) ->
  (forall n s a o, length o = k -> p n s a o = fx_proc par ord byord step mstep dup s a o) ->
  splits p k any_in (fx_wr mstep dup).
Proof.
  intros Hd H1 H2 Hp. eapply splits_ext_in; [|by apply (fx_splits par ord byord step mstep dup k Hd H1 H2)|done].
  intros n s a o _ Ho. by apply Hp.
Qed.
Definition ep_par (P : platform) (s : envperc) : res (Z * Z * Z) :=
  let a := secs P (ep_sr s) (ep_att s) in let d := secs P (ep_sr s) (ep_dec s) in
  dur ← uadd (p_cfg P) a d; mret (a, d, dur).
Lemma envperc_splits P : splits (fun n => envperc_proc (with_blk P n)) 2 any_in (@fx_wr envperc None 1).
Proof.
  apply (fx_ext _ 2 (ep_par P) ep_ord true (fun a s x => Ok (envperc_step a.1.1 a.1.2 a.2 s x))); [lia| |done|].
  - intros a s x s' y Hp [= <- <-]. split; [|done]. exact Hp.
  - intros n s a o Ho. outs2 o Ho. unfold envperc_proc, fx_proc, fx_in. destruct a as [|p [|q a]]; [done| |by destruct a].
    unfold ep_par. cbn [p_cfg with_blk]. change (secs (with_blk P n)) with (secs P). cbv [mbind res_bind mret res_ret put0].
    destruct (uadd _ _ _); [|done]. destruct (in_ord _ _ _) as [bs|]; [|done]. destruct (chan bs 0) as [b|]; [|done].
    erewrite (scanR_scan _ (fun s x => Ok _)); [|done]. cbn [fst snd]. by destruct (scan _ s b).
Qed.
Lemma adsr_splits P : splits (fun n => adsr_proc (with_blk P n)) 2 any_in (@fx_wr adsr None 2).
Proof.
  apply (fx_ext _ 2 (fun s => Ok (secs P (ad_sr s) (ad_att s), secs P (ad_sr s) (ad_dec s), secs P (ad_sr s) (ad_rel s))) ad_ord true
          (fun a => adsr_step (p_cfg P) a.1.1 a.1.2 a.2)); [lia| |done|].
  - intros a s x s' y Hp. unfold adsr_step. cbv [mbind res_bind mret res_ret]. destruct (adsr_shape _ _ _ _ _ _ _ _); [|done]. intros [= <- <-]. done.
  - intros n s a o Ho. outs2 o Ho. unfold adsr_proc, fx_proc, fx_in. destruct a as [|p [|q a]]; [done| |by destruct a].
    cbn [p_cfg with_blk]. change (secs (with_blk P n)) with (secs P). cbv [mbind res_bind mret res_ret put0].
    destruct (in_ord _ _ _) as [bs|]; [|done]. destruct (chan bs 0) as [b|]; [|done]. cbn [fst snd]. by destruct (scanR _ s b) as [[]|].
Qed.
Lemma apf_mod_step_blk P n : apf_mod_step (with_blk P n) = apf_mod_step P.
Proof. unfold apf_mod_step, mod_read, mod_pos. cbn [p_cfg with_blk]. reflexivity. Qed.
Lemma apf_splits P : splits (fun n => apf_proc (with_blk P n)) 2 any_in (fx_wr (Some (apf_mod_step P)) 1).
Proof.
  apply (fx_ext _ 2 (fun _ => Ok tt) ap_ord true (fun _ s x => Ok (apf_step s x))); [lia| | |].
  - intros [] s x s' y _ [= <- <-]. done.
  - intros f s x s' y [= <-]. unfold apf_mod_step. cbv [mbind res_bind mret res_ret].
    destruct (mod_pos _ _ _ _); [|done]. destruct (mod_read P (ap_x s) _); [|done]. destruct (mod_read P (ap_y s) _); [|done]. intros [= <- <-]. done.
  - intros n s a o Ho. outs2 o Ho. unfold apf_proc, fx_proc, fx_in. destruct a as [|p [|q [|]]]; [done| | |done].
    + cbv [mbind res_bind mret res_ret put0]. destruct (in_ord _ _ _) as [bs|]; [|done]. destruct (chan bs 0) as [b|]; [|done].
      erewrite (scanR_scan _ (fun s x => Ok _)); [|done]. by destruct (scan _ s b).
    + cbv [mbind res_bind mret res_ret put0]. destruct (in_ord _ _ 0) as [mb|]; [|done]. destruct (in_ord _ _ 1) as [rb|]; [|done].
      destruct (chan mb 0); [|done]. destruct (chan rb 0); [|done]. rewrite apf_mod_step_blk. by destruct (scanR _ s _) as [[]|].
Qed.
Lemma onepole_splits P : splits (fun n => onepole_proc (with_blk P n)) 1 any_in (fx_wr (Some (fun s x => Ok (pole_mod_step P s x))) 1).
Proof.
  apply (fx_ext _ 1 (fun _ => Ok tt) on_ord false (fun _ s x => Ok (pole_step s x))); [lia| | |].
  - intros [] s x s' y _ [= <- <-]. done.
  - intros f s x s' y [= <-] [= <- <-]. done.
  - intros n s a o Ho. outs1 o Ho. unfold onepole_proc, fx_proc, fx_in. destruct a as [|p [|q [|]]]; [done| | |done].
    + destruct p. cbn [in_first]. cbv [mbind res_bind mret res_ret put0]. cbn [fst snd]. destruct (chan _ 0) as [b|]; [|done].
      erewrite (scanR_scan _ (fun s x => Ok _)); [|done]. by destruct (scan _ s b).
    + cbv [mbind res_bind mret res_ret put0]. destruct (in_ord _ _ 0) as [mb|]; [|done]. destruct (in_ord _ _ 1) as [rb|]; [|done].
      destruct (chan mb 0); [|done]. destruct (chan rb 0); [|done]. change (pole_mod_step (with_blk P n)) with (pole_mod_step P).
      erewrite (scanR_scan _ (fun s x => Ok _)); [|done]. by destruct (scan _ s _).
Qed.
(** With a modulator they read one sample of it per block: not there. *)
Definition one_in {T} (_ : T) (sh : list (nat * nat)) : bool := negb (length sh =? 2).
Lemma ok_fst {A B} (p : A * B) s' y : Ok p = Ok (s', y) -> s' = p.1.
Proof. intros [= ->]. done. Qed.
Lemma rlpf_splits P : splits (fun n => rlpf_proc (with_blk P n)) 1 one_in (@fx_wr biquad None 1).
Proof.
  eapply splits_ext_in; [|apply (fx_splits (fun _ => Ok tt) bq_ord false (fun _ => lpf_step P) None 1 1); [lia| |done]|done].
  - intros n s a o Ha Ho. outs1 o Ho. unfold rlpf_proc, fx_proc, fx_in. destruct a as [|p [|q [|]]]; [done| |done|done].
    destruct p. cbn [in_first]. cbv [mbind res_bind mret res_ret put0]. cbn [fst snd]. destruct (chan _ 0) as [b|]; [|done].
    change (lpf_step (with_blk P n)) with (lpf_step P). by destruct (scanR _ s b) as [[]|].
  - intros [] s x s' y _. unfold lpf_step. cbv [mbind res_bind mret res_ret]. destruct (bq_cut P s); [|done]. intros E%ok_fst. rewrite E. done.
Qed.
Lemma rhpf_splits P : splits (fun n => rhpf_proc (with_blk P n)) 1 one_in (@fx_wr biquad None 1).
Proof.
  eapply splits_ext_in; [|apply (fx_splits (fun s => Ok (hpf_coefs P (bq_q s) (theta (bq_cutoff s) (bq_sr s)))) bq_ord false
      (fun c s x => Ok (bq_step_with c (bq_cutoff s) s x)) None 1 1); [lia| |done]|done].
  - intros n s a o Ha Ho. outs1 o Ho. unfold rhpf_proc, fx_proc, fx_in. destruct a as [|p [|q [|]]]; [done| |done|done].
    destruct p. cbn [in_first]. cbv [mbind res_bind mret res_ret put0]. cbn [fst snd]. destruct (chan _ 0) as [b|]; [|done].
    change (hpf_coefs (with_blk P n)) with (hpf_coefs P).
    erewrite (scanR_scan _ (fun s x => Ok _)); [|done]. by destruct (scan _ s b).
  - intros a s x s' y Hp [= <- <-]. done.
Qed.

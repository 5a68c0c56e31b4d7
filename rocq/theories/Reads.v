(** * Reads: running parsing expressions on texts of which only a part is known.

    [sim] runs an expression on a known text followed by an unknown rest of which only the
    first character is known; [reads_on Q e txt ps] says that [e] takes exactly [txt] and
    makes the pairs [ps], whatever rest satisfying [Q] follows.  Nothing here models code
    of /repo. *)
From Coq Require Import Lia Bool.
From Verif Require Export PegProofs.
From stdpp Require Import base tactics list.
Local Open Scope nat_scope.
Local Open Scope string_scope.

Definition shead (s : string) : option ascii := match s with EmptyString => None | String c _ => Some c end.

Section sim.
  Context {R : Type}.
  Implicit Types (e a b : peg R) (s t : string) (p : list (pair R)).

  (** [None]: not decided. *)
  Fixpoint lit_sim (q kw : string) (o : option ascii) : option (option string) :=
    match q, kw with
    | EmptyString, _ => Some (Some kw)
    | String a q', String c kw' => if Ascii.eqb a c then lit_sim q' kw' o else Some None
    | String a _, EmptyString =>
        match o with
        | None => Some None
        | Some c => if Ascii.eqb a c then None else Some None
        end
    end.
  Fixpoint star_sim (f : string -> option (option (hit R))) (n : nat) (kw : string) : option (option (hit R)) :=
    match n with
    | O => None
    | S n' =>
        match f kw with
        | None => None
        | Some None | Some (Some (_, EmptyString, _)) => Some (Some ([], "", kw))
        | Some (Some (p, t, kw')) =>
            match star_sim f n' kw' with
            | Some (Some (p2, t2, kw2)) => Some (Some ((p ++ p2)%list, t ++ t2, kw2))
            | _ => None
            end
        end
    end.
  Fixpoint sim (m : bool) e (kw : string) (o : option ascii) : option (option (hit R)) :=
    match e with
    | Eps => Some (Some ([], "", kw))
    | Lit q => match lit_sim q kw o with
               | Some (Some kw') => Some (Some ([], q, kw'))
               | Some None => Some None
               | None => None
               end
    | Chr f => match kw with
               | String c kw' => if f c then Some (Some ([], String c "", kw')) else Some None
               | EmptyString => match o with
                                | None => Some None
                                | Some c => if f c then None else Some None
                                end
               end
    | Cat a b =>
        match sim m a kw o with
        | Some (Some (p1, t1, kw1)) =>
            match sim m b kw1 o with
            | Some (Some (p2, t2, kw2)) => Some (Some ((p1 ++ p2)%list, t1 ++ t2, kw2))
            | r => r
            end
        | r => r
        end
    | Alt a b => match sim m a kw o with Some None => sim m b kw o | r => r end
    | Star a => star_sim (fun k => sim m a k o) (S (String.length kw)) kw
    | Opt a => match sim m a kw o with Some None => Some (Some ([], "", kw)) | r => r end
    | Not a => match sim m a kw o with
               | Some None => Some (Some ([], "", kw))
               | Some (Some _) => Some None
               | None => None
               end
    | Eoi => match kw, o with EmptyString, None => Some (Some ([], "", "")) | _, _ => Some None end
    | Rul k r a =>
        match sim (match k with Atomic => false | Compound => true | _ => m end) a kw o with
        | Some (Some (p, t, kw')) =>
            let shown := match k with Silent => false | Compound => true | _ => m end in
            Some (Some (if shown then [Pair r t p] else p, t, kw'))
        | r => r
        end
    end.

  Definition follows (r : option (hit R)) (rest : string) : option (hit R) :=
    match r with Some (p, t, kw) => Some (p, t, kw ++ rest) | None => None end.

  Lemma lit_sim_sound q : forall kw rest r, lit_sim q kw (shead rest) = Some r ->
    strip q (kw ++ rest) = match r with Some kw' => Some (kw' ++ rest) | None => None end.
  Proof.
    induction q as [|a q IH]; intros kw rest r; simpl.
    - by intros [= <-].
    - destruct kw as [|c kw]; simpl.
      + destruct rest as [|c rest]; simpl; [by intros [= <-]|]. destruct (Ascii.eqb a c); [done|]. by intros [= <-].
      + destruct (Ascii.eqb a c); [apply IH|by intros [= <-]].
  Qed.
  Lemma sim_sound e : forall m kw rest r, sim m e kw (shead rest) = Some r ->
    peg_run m e (kw ++ rest) = follows r rest.
  Proof.
    induction e as [|q|f|a IHa b IHb|a IHa b IHb|a IHa|a IHa|a IHa| |k r0 a IHa]; intros m kw rest r.
    - intros [= <-]. reflexivity.
    - simpl. destruct (lit_sim q kw (shead rest)) as [l|] eqn:E; [|done]. apply lit_sim_sound in E.
      rewrite E. destruct l as [kw'|]; intros [= <-]; done.
    - simpl. destruct kw as [|c kw]; simpl.
      + destruct rest as [|c rest]; simpl; [by intros [= <-]|]. destruct (f c) eqn:E; [done|by intros [= <-]].
      + destruct (f c); by intros [= <-].
    - simpl. destruct (sim m a kw (shead rest)) as [[[[p1 t1] kw1]|]|] eqn:E1; [| |done];
        apply IHa in E1; rewrite E1; simpl; [|by intros [= <-]].
      destruct (sim m b kw1 (shead rest)) as [[[[p2 t2] kw2]|]|] eqn:E2; [| |done];
        apply IHb in E2; rewrite E2; simpl; by intros [= <-].
    - simpl. destruct (sim m a kw (shead rest)) as [[[[p1 t1] kw1]|]|] eqn:E1; [| |done];
        apply IHa in E1; rewrite E1; simpl; [by intros [= <-]|apply IHb].
    - cbn [sim]. generalize (S (String.length kw)) as n. intros n. revert kw r.
      induction n as [|n IH]; intros kw r; simpl star_sim; [done|]. rewrite run_star.
      destruct (sim m a kw (shead rest)) as [[[[p1 [|c1 t1]] kw1]|]|] eqn:E1; [..|done];
        apply IHa in E1; rewrite E1; cbn [follows]; [by intros [= <-]| |by intros [= <-]].
      destruct (star_sim _ n kw1) as [[[[p2 t2] kw2]|]|] eqn:E2; [..|done]; apply IH in E2; rewrite E2; simpl; [|done].
      by intros [= <-].
    - simpl. destruct (sim m a kw (shead rest)) as [[[[p1 t1] kw1]|]|] eqn:E1; [| |done];
        apply IHa in E1; rewrite E1; simpl; by intros [= <-].
    - simpl. destruct (sim m a kw (shead rest)) as [[[[p1 t1] kw1]|]|] eqn:E1; [| |done];
        apply IHa in E1; rewrite E1; simpl; by intros [= <-].
    - simpl. destruct kw as [|c kw]; [destruct rest as [|c rest]|]; simpl; by intros [= <-].
    - simpl. destruct (sim _ a kw (shead rest)) as [[[[p1 t1] kw1]|]|] eqn:E1; [| |done];
        apply IHa in E1; rewrite E1; simpl; by intros [= <-].
  Qed.

  (** A decided result for each of several first characters. *)
  Definition sim_fails (m : bool) e (kw : string) (os : list (option ascii)) : bool :=
    forallb (fun o => match sim m e kw o with Some None => true | _ => false end) os.
  Lemma sim_fails_sound m e kw os rest : sim_fails m e kw os = true -> shead rest ∈ os ->
    peg_run m e (kw ++ rest) = None.
  Proof.
    intros H1 H2. unfold sim_fails in H1. rewrite forallb_forall in H1. specialize (H1 (shead rest)).
    destruct (sim m e kw (shead rest)) as [[|]|] eqn:E; [..|].
    - rewrite elem_of_list_In in H2. by specialize (H1 H2).
    - by rewrite (sim_sound _ _ _ _ _ E).
    - rewrite elem_of_list_In in H2. by specialize (H1 H2).
  Qed.

  (** The first alternative that does not surely fail. *)
  Fixpoint pick (e : peg R) (kw : string) (os : list (option ascii)) : peg R :=
    match e with
    | Alt a b => if sim_fails true a kw os then pick b kw os else a
    | _ => e
    end.
  Lemma pick_sound e kw os rest h : shead rest ∈ os ->
    peg_run true (pick e kw os) (kw ++ rest) = Some h -> peg_run true e (kw ++ rest) = Some h.
  Proof.
    intros Ho. induction e as [| | | |a IHa b IHb| | | | |]; try done. cbn [pick].
    destruct (sim_fails true a kw os) eqn:E.
    - intros H. cbn [peg_run]. rewrite (sim_fails_sound _ _ _ _ _ E Ho). by apply IHb.
    - intros H. cbn [peg_run]. by rewrite H.
  Qed.

  (** The same by position. *)
  Fixpoint pick_pos (e : peg R) (kw : string) (os : list (option ascii)) : nat :=
    match e with
    | Alt a b => if sim_fails true a kw os then S (pick_pos b kw os) else O
    | _ => O
    end.
  Fixpoint alt_at (n : nat) (e : peg R) : peg R :=
    match e with
    | Alt a b => match n with O => a | S n' => alt_at n' b end
    | _ => e
    end.
  Lemma pick_at e kw os n : pick_pos e kw os = n -> pick e kw os = alt_at n e.
  Proof.
    intros <-. induction e as [| | | |a IHa b IHb| | | | |]; try done. cbn [pick pick_pos].
    destruct (sim_fails true a kw os); [exact IHb|done].
  Qed.

  (** ** Exact readings *)
  Definition reads_on (Q : string -> Prop) e (txt : string) p : Prop :=
    forall m rest, Q rest -> peg_run m e (txt ++ rest) = Some (p, txt, rest).
  Lemma reads_weaken (Q Q' : string -> Prop) e txt p : (forall rest, Q' rest -> Q rest) ->
    reads_on Q e txt p -> reads_on Q' e txt p.
  Proof. intros H1 H2 m rest Hr. by apply H2, H1. Qed.
  Lemma reads_lit Q q : reads_on Q (Lit q) q [].
  Proof. intros m rest _. simpl. by rewrite strip_app. Qed.
  Lemma reads_eps Q : reads_on Q Eps "" [].
  Proof. by intros m rest _. Qed.
  Lemma reads_cat (Q1 Q2 : string -> Prop) a b ta tb pa pb :
    reads_on Q1 a ta pa -> reads_on Q2 b tb pb -> (forall rest, Q2 rest -> Q1 (tb ++ rest)) ->
    reads_on Q2 (Cat a b) (ta ++ tb) (pa ++ pb).
  Proof.
    intros Ha Hb Hq m rest Hr. cbn [peg_run]. rewrite sapp_assoc, (Ha m _ (Hq _ Hr)), (Hb m _ Hr). done.
  Qed.
  Lemma reads_alt1 Q a b txt p : reads_on Q a txt p -> reads_on Q (Alt a b) txt p.
  Proof. intros H m rest Hr. cbn [peg_run]. by rewrite (H m _ Hr). Qed.
  Lemma reads_alt2 (Q : string -> Prop) a b txt p :
    (forall m rest, Q rest -> peg_run m a (txt ++ rest) = None) ->
    reads_on Q b txt p -> reads_on Q (Alt a b) txt p.
  Proof. intros Ha Hb m rest Hr. cbn [peg_run]. rewrite (Ha m _ Hr). by apply Hb. Qed.
  Lemma reads_opt1 Q a txt p : reads_on Q a txt p -> reads_on Q (Opt a) txt p.
  Proof. intros H m rest Hr. cbn [peg_run]. by rewrite (H m _ Hr). Qed.
  Lemma reads_opt2 (Q : string -> Prop) a :
    (forall m rest, Q rest -> peg_run m a rest = None) -> reads_on Q (Opt a) "" [].
  Proof. intros H m rest Hr. cbn [peg_run append]. by rewrite (H m _ Hr). Qed.
  Lemma reads_not (Q : string -> Prop) a :
    (forall m rest, Q rest -> peg_run m a rest = None) -> reads_on Q (Not a) "" [].
  Proof. intros H m rest Hr. cbn [peg_run append]. by rewrite (H m _ Hr). Qed.
  Lemma reads_compound Q r a txt p : reads_on Q a txt p -> reads_on Q (Rul Compound r a) txt [Pair r txt p].
  Proof. intros H m rest Hr. cbn [peg_run]. by rewrite (H true _ Hr). Qed.
  Lemma reads_silent Q r a txt p : reads_on Q a txt p -> reads_on Q (Rul Silent r a) txt p.
  Proof. intros H m rest Hr. cbn [peg_run]. by rewrite (H m _ Hr). Qed.
  (** A predicate in front. *)
  Lemma reads_guard (Q : string -> Prop) g a txt p :
    (forall m rest, Q rest -> peg_run m g (txt ++ rest) = None) ->
    reads_on Q a txt p -> reads_on Q (Cat (Not g) a) txt p.
  Proof.
    intros Hg Ha m rest Hr. cbn [peg_run]. rewrite (Hg m _ Hr), (Ha m _ Hr). done.
  Qed.
  Lemma reads_star_nil (Q : string -> Prop) a :
    (forall m rest, Q rest -> peg_run m a rest = None) -> reads_on Q (Star a) "" [].
  Proof. intros H m rest Hr. rewrite run_star. cbn [append]. by rewrite (H m _ Hr). Qed.
  Lemma reads_star_cons (Q1 Q2 : string -> Prop) a ta tb pa pb :
    reads_on Q1 a ta pa -> ta <> "" -> reads_on Q2 (Star a) tb pb -> (forall rest, Q2 rest -> Q1 (tb ++ rest)) ->
    reads_on Q2 (Star a) (ta ++ tb) (pa ++ pb).
  Proof.
    intros Ha Hn Hb Hq m rest Hr. rewrite run_star, sapp_assoc, (Ha m _ (Hq _ Hr)).
    destruct ta as [|c ta]; [done|]. by rewrite (Hb m _ Hr).
  Qed.
  Lemma reads_exact Q e txt txt' p : txt = txt' -> reads_on Q e txt p -> reads_on Q e txt' p.
  Proof. by intros ->. Qed.
End sim.

(** The text does not begin with such a character. *)
Definition nohead (f : ascii -> bool) (s : string) : Prop :=
  match s with EmptyString => True | String c _ => f c = false end.
Lemma nohead_app f a b : a <> "" -> nohead f a -> nohead f (a ++ b).
Proof. by destruct a. Qed.
Lemma nohead_cons f c a b : f c = false -> nohead f (String c a ++ b).
Proof. done. Qed.
Lemma nohead_imp (f g : ascii -> bool) s : (forall c, g c = true -> f c = true) -> nohead f s -> nohead g s.
Proof. intros H. destruct s as [|c s]; [done|]. simpl. intros E. destruct (g c) eqn:Eg; [|done]. apply H in Eg. congruence. Qed.

Section chars.
  Context {R : Type}.
  Lemma reads_chars f txt : sall f txt = true -> reads_on (R := R) (nohead f) (Star (Chr f)) txt [].
  Proof.
    intros H m rest Hr. induction txt as [|c txt IH]; simpl in H.
    - rewrite run_star. destruct rest as [|c rest]; [done|]. simpl in Hr |- *. by rewrite Hr.
    - apply andb_prop in H as [Hc H]. specialize (IH H). rewrite run_star. cbn [peg_run append]. rewrite Hc.
      cbn [append] in IH. cbn [peg_run] in IH. injection IH as IH. rewrite IH. done.
  Qed.
  Lemma reads_chars1 f txt : txt <> "" -> sall f txt = true ->
    reads_on (R := R) (nohead f) (Cat (Chr f) (Star (Chr f))) txt [].
  Proof.
    intros Hn H m rest Hr. destruct txt as [|c txt]; [done|]. simpl in H. apply andb_prop in H as [Hc H].
    pose proof (reads_chars f txt H m rest Hr) as IH. cbn [peg_run append]. rewrite Hc.
    cbn [peg_run append] in IH. injection IH as IH. rewrite IH. done.
  Qed.
  (** A repetition that behaves as the repetition of a character class. *)
  Lemma star_ext m (a b : peg R) s : (forall s, peg_run m a s = peg_run m b s) ->
    peg_run m (Star a) s = peg_run m (Star b) s.
  Proof.
    intros H. cbn [peg_run]. f_equal. generalize (String.length s) as n. intros n. revert s.
    induction n as [|n IH]; intros s; simpl; [done|]. rewrite H. destruct (peg_run m b s) as [[[p [|]] s']|]; try done.
    by rewrite IH.
  Qed.
  Lemma many1_ext m (a b : peg R) s : (forall s, peg_run m a s = peg_run m b s) ->
    peg_run m (Cat a (Star a)) s = peg_run m (Cat b (Star b)) s.
  Proof.
    intros H. change (match peg_run m a s with
      | Some (p1, t1, s1) => match peg_run m (Star a) s1 with Some (p2, t2, s2) => Some ((p1 ++ p2)%list, t1 ++ t2, s2) | None => None end
      | None => None end = match peg_run m b s with
      | Some (p1, t1, s1) => match peg_run m (Star b) s1 with Some (p2, t2, s2) => Some ((p1 ++ p2)%list, t1 ++ t2, s2) | None => None end
      | None => None end). rewrite H. destruct (peg_run m b s) as [[[p1 t1] s1]|]; [|done].
    by rewrite (star_ext m a b s1 H).
  Qed.
End chars.

(** * PegProofs: what the parsing expressions recognise.

    [derives] is the semantics of parsing expressions as a set of rules (Ford 2004),
    without fuel: a text has a result only if pest comes to an end on it.  The interpreter
    [peg_run] computes exactly these results when no repeated expression accepts the empty
    text, and every text then has a result. *)
From Coq Require Import Lia Bool.
From Verif Require Export Peg.
From stdpp Require Import base tactics list.
Local Open Scope nat_scope.
Local Open Scope string_scope.

Lemma sapp_nil_r s : s ++ "" = s.
Proof. induction s as [|c s IH]; simpl; [done|by rewrite IH]. Qed.
Lemma sapp_cons c a b : String c a ++ b = String c (a ++ b).
Proof. reflexivity. Qed.
Lemma sapp_assoc a b c : (a ++ b) ++ c = a ++ (b ++ c).
Proof. induction a as [|x a IH]; simpl; [done|by rewrite IH]. Qed.
Lemma sapp_length a b : String.length (a ++ b) = String.length a + String.length b.
Proof. induction a as [|x a IH]; simpl; [done|by rewrite IH]. Qed.
Lemma sapp_inj a b b' : a ++ b = a ++ b' -> b = b'.
Proof. induction a as [|x a IH]; simpl; [done|intros E; injection E as E; by apply IH]. Qed.

Lemma strip_some p s s' : strip p s = Some s' -> s = p ++ s'.
Proof.
  revert s. induction p as [|a p IH]; intros [|b s]; simpl; try congruence.
  destruct (Ascii.eqb a b) eqn:E; [|done]. apply Ascii.eqb_eq in E as ->. intros H. by rewrite (IH s H).
Qed.
Lemma strip_app p s : strip p (p ++ s) = Some s.
Proof. induction p as [|a p IH]; simpl; [done|]. by rewrite Ascii.eqb_refl. Qed.

Section peg.
  Context {R : Type}.
  Implicit Types (e a b : peg R) (s t : string) (p : list (pair R)).

  (** ** Results as a set of rules. *)
  Inductive derives : bool -> peg R -> string -> option (hit R) -> Prop :=
  | d_eps m s : derives m Eps s (Some ([], "", s))
  | d_lit_yes m q s : derives m (Lit q) (q ++ s) (Some ([], q, s))
  | d_lit_no m q s : (forall s', s <> q ++ s') -> derives m (Lit q) s None
  | d_chr_yes m f c s : f c = true -> derives m (Chr f) (String c s) (Some ([], String c "", s))
  | d_chr_no m f s : (forall c s', s = String c s' -> f c = false) -> derives m (Chr f) s None
  | d_cat m a b s p1 t1 s1 p2 t2 s2 :
      derives m a s (Some (p1, t1, s1)) -> derives m b s1 (Some (p2, t2, s2)) ->
      derives m (Cat a b) s (Some ((p1 ++ p2)%list, t1 ++ t2, s2))
  | d_cat_no1 m a b s : derives m a s None -> derives m (Cat a b) s None
  | d_cat_no2 m a b s p1 t1 s1 :
      derives m a s (Some (p1, t1, s1)) -> derives m b s1 None -> derives m (Cat a b) s None
  | d_alt_1 m a b s h : derives m a s (Some h) -> derives m (Alt a b) s (Some h)
  | d_alt_2 m a b s r : derives m a s None -> derives m b s r -> derives m (Alt a b) s r
  | d_star_end m a s : derives m a s None -> derives m (Star a) s (Some ([], "", s))
  | d_star m a s p1 t1 s1 p2 t2 s2 :
      derives m a s (Some (p1, t1, s1)) -> derives m (Star a) s1 (Some (p2, t2, s2)) ->
      derives m (Star a) s (Some ((p1 ++ p2)%list, t1 ++ t2, s2))
  | d_opt_1 m a s h : derives m a s (Some h) -> derives m (Opt a) s (Some h)
  | d_opt_2 m a s : derives m a s None -> derives m (Opt a) s (Some ([], "", s))
  | d_not_yes m a s : derives m a s None -> derives m (Not a) s (Some ([], "", s))
  | d_not_no m a s h : derives m a s (Some h) -> derives m (Not a) s None
  | d_eoi_yes m : derives m Eoi "" (Some ([], "", ""))
  | d_eoi_no m c s : derives m Eoi (String c s) None
  | d_rul m k r a s p t s' :
      derives (match k with Atomic => false | Compound => true | _ => m end) a s (Some (p, t, s')) ->
      derives m (Rul k r a) s
        (Some (if match k with Silent => false | Compound => true | _ => m end
               then [Pair r t p] else p, t, s'))
  | d_rul_no m k r a s :
      derives (match k with Atomic => false | Compound => true | _ => m end) a s None ->
      derives m (Rul k r a) s None.

  (** ** The text consumed is a prefix. *)
  Lemma star_loop_split f n : (forall s p t s', f s = Some (p, t, s') -> s = t ++ s') ->
    forall s p t s', star_loop (R := R) f n s = (p, t, s') -> s = t ++ s'.
  Proof.
    intros Hf. induction n as [|n IH]; intros s p t s'; simpl; [by intros [= <- <- <-]|].
    destruct (f s) as [[[p1 [|c t1]] s1]|] eqn:E; try by intros [= <- <- <-].
    destruct (star_loop f n s1) as [[p2 t2] s2] eqn:E2. intros [= <- <- <-].
    apply Hf in E. apply IH in E2. subst. simpl. by rewrite sapp_assoc.
  Qed.
  Lemma peg_split e : forall m s p t s', peg_run m e s = Some (p, t, s') -> s = t ++ s'.
  Proof.
    induction e as [| |f|a IHa b IHb|a IHa b IHb|a IHa|a IHa|a IHa| |k r a IHa]; intros m s0 p t0 s'; simpl.
    - by intros [= <- <- <-].
    - destruct (strip s s0) eqn:E; [|done]. intros [= <- <- <-]. by apply strip_some in E.
    - destruct s0 as [|c s0]; [done|]. destruct (f c); [|done]. by intros [= <- <- <-].
    - destruct (peg_run m a s0) as [[[p1 t1] s1]|] eqn:E1; [|done].
      destruct (peg_run m b s1) as [[[p2 t2] s2]|] eqn:E2; [|done]. intros [= <- <- <-].
      apply IHa in E1. apply IHb in E2. subst. by rewrite sapp_assoc.
    - destruct (peg_run m a s0) as [[[p1 t1] s1]|] eqn:E1; [|apply IHb].
      intros [= <- <- <-]. by apply IHa in E1.
    - intros [= H]. eapply star_loop_split; [|done]. intros ????. apply IHa.
    - destruct (peg_run m a s0) as [[[p1 t1] s1]|] eqn:E1; intros [= <- <- <-]; [|done].
      by apply IHa in E1.
    - destruct (peg_run m a s0) as [[[p1 t1] s1]|]; [done|]. by intros [= <- <- <-].
    - destruct s0; [|done]. by intros [= <- <- <-].
    - destruct (peg_run _ a s0) as [[[p1 t1] s1]|] eqn:E1; [|done]. intros [= <- <- <-].
      by apply IHa in E1.
  Qed.

  (** ** Fuel. *)
  Lemma star_loop_fuel f : (forall s p t s', f s = Some (p, t, s') -> s = t ++ s') ->
    forall n s, String.length s <= n -> star_loop (R := R) f n s = star_loop f (String.length s) s.
  Proof.
    intros Hf n. induction (lt_wf n) as [n _ IH]. intros s Hn.
    destruct n as [|n]; [destruct s; [done|simpl in Hn; lia]|].
    destruct s as [|c s].
    - simpl. destruct (f "") as [[[p1 [|c1 t1]] s1]|] eqn:E; try done. apply Hf in E. done.
    - cbn [String.length star_loop]. destruct (f (String c s)) as [[[p1 [|c1 t1]] s1]|] eqn:E; try done.
      apply Hf in E. injection E as E1 E2.
      assert (String.length s1 <= String.length s) by (rewrite E2, sapp_length; lia).
      simpl in Hn. rewrite (IH n) by lia. rewrite (IH (String.length s)) by lia. done.
  Qed.
  (** The step of a repetition. *)
  Lemma run_star m a s :
    peg_run m (Star a) s =
    match peg_run m a s with
    | Some (p1, String c t1, s1) =>
        match peg_run m (Star a) s1 with
        | Some (p2, t2, s2) => Some ((p1 ++ p2)%list, String c t1 ++ t2, s2)
        | None => None
        end
    | _ => Some ([], "", s)
    end.
  Proof.
    assert (Hf : forall s p t s', peg_run m a s = Some (p, t, s') -> s = t ++ s')
      by (intros ????; apply peg_split).
    cbn [peg_run]. destruct s as [|c0 s0]; cbn [String.length star_loop].
    - destruct (peg_run m a "") as [[[p1 [|c t1]] s1]|] eqn:E; try done. by apply Hf in E.
    - destruct (peg_run m a (String c0 s0)) as [[[p1 [|c t1]] s1]|] eqn:E; try done.
      apply Hf in E. injection E as -> ->.
      rewrite (star_loop_fuel _ Hf (String.length (t1 ++ s1)) s1) by (rewrite sapp_length; lia).
      by destruct (star_loop _ (String.length s1) s1) as [[p2 t2] s2].
  Qed.

  (** ** Expressions that may accept the empty text; grammars without repetition of one. *)
  Fixpoint nullable e : bool :=
    match e with
    | Eps | Star _ | Opt _ | Not _ | Eoi => true
    | Lit s => match s with EmptyString => true | _ => false end
    | Chr _ => false
    | Cat a b => nullable a && nullable b
    | Alt a b => nullable a || nullable b
    | Rul _ _ a => nullable a
    end.
  Fixpoint productive e : bool :=
    match e with
    | Eps | Lit _ | Chr _ | Eoi => true
    | Cat a b | Alt a b => productive a && productive b
    | Star a => productive a && negb (nullable a)
    | Opt a | Not a | Rul _ _ a => productive a
    end.
  Lemma nullable_sound e : forall m s p s', peg_run m e s = Some (p, "", s') -> nullable e = true.
  Proof.
    induction e as [| |f|a IHa b IHb|a IHa b IHb|a IHa|a IHa|a IHa| |k r a IHa]; intros m s0 p s'; simpl; try done.
    - destruct (strip s s0); [|done]. by intros [= <- -> <-].
    - destruct s0 as [|c s0]; [done|]. by destruct (f c).
    - destruct (peg_run m a s0) as [[[p1 t1] s1]|] eqn:E1; [|done].
      destruct (peg_run m b s1) as [[[p2 t2] s2]|] eqn:E2; [|done]. intros [= <- Ht <-].
      destruct t1; [|done]. simpl in Ht. subst t2. by rewrite (IHa _ _ _ _ E1), (IHb _ _ _ _ E2).
    - destruct (peg_run m a s0) as [[[p1 t1] s1]|] eqn:E1.
      + intros [= <- -> <-]. by rewrite (IHa _ _ _ _ E1).
      + intros E2. rewrite (IHb _ _ _ _ E2). by rewrite orb_true_r.
    - destruct (peg_run _ a s0) as [[[p1 t1] s1]|] eqn:E1; [|done]. intros [= <- -> <-].
      by apply IHa in E1.
  Qed.

  (** ** The interpreter computes the derivable results. *)
  Theorem peg_run_derives e : productive e = true ->
    forall m s, derives m e s (peg_run m e s).
  Proof.
    induction e as [| |f|a IHa b IHb|a IHa b IHb|a IHa|a IHa|a IHa| |k r a IHa]; intros Hp m s0; simpl in Hp.
    - constructor.
    - simpl. destruct (strip s s0) eqn:E; [apply strip_some in E as ->; constructor|].
      constructor. intros s' ->. by rewrite strip_app in E.
    - simpl. destruct s0 as [|c s0]; [by constructor|].
      destruct (f c) eqn:E; constructor; [done|]. by intros ?? [= <- <-].
    - apply andb_prop in Hp as [Ha Hb]. specialize (IHa Ha m s0). simpl.
      destruct (peg_run m a s0) as [[[p1 t1] s1]|]; [|by constructor].
      specialize (IHb Hb m s1). destruct (peg_run m b s1) as [[[p2 t2] s2]|];
        [by econstructor|by eapply d_cat_no2].
    - apply andb_prop in Hp as [Ha Hb]. specialize (IHa Ha m s0). simpl.
      destruct (peg_run m a s0) as [h|]; [by constructor|]. apply d_alt_2; [done|by apply IHb].
    - apply andb_prop in Hp as [Ha Hn]. specialize (IHa Ha m).
      remember (String.length s0) as n eqn:En. revert s0 En.
      induction (lt_wf n) as [n _ IH]. intros s0 ->. rewrite run_star. specialize (IHa s0) as Hd.
      destruct (peg_run m a s0) as [[[p1 [|c t1]] s1]|] eqn:E; [|..].
      + apply nullable_sound in E. by rewrite E in Hn.
      + apply peg_split in E. specialize (IH (String.length s1)). subst s0.
        rewrite sapp_length in IH. simpl in IH. specialize (IH ltac:(lia) s1 eq_refl).
        destruct (peg_run m (Star a) s1) as [[[p2 t2] s2]|] eqn:E2; [|done].
        apply (d_star _ _ _ p1 (String c t1) s1 p2 t2 s2); [exact Hd|cbn [peg_run] in E2; injection E2 as E2; rewrite E2 in IH; exact IH].
      + by apply d_star_end.
    - specialize (IHa Hp m s0). simpl. destruct (peg_run m a s0) as [h|]; by constructor.
    - specialize (IHa Hp m s0). simpl. destruct (peg_run m a s0) as [h|]; by econstructor.
    - simpl. destruct s0; constructor.
    - specialize (IHa Hp (match k with Atomic => false | Compound => true | _ => m end) s0). simpl.
      destruct (peg_run _ a s0) as [[[p1 t1] s1]|]; by constructor.
  Qed.

  (** At most one result can be derived. *)
  Theorem derives_functional m e s r1 r2 : derives m e s r1 -> derives m e s r2 -> r1 = r2.
  Proof.
    intros H. revert r2.
    induction H; intros r2 H2; inversion H2; subst; try done;
      repeat match goal with
        | IH : forall r, derives ?m ?a ?s r -> _ = r, H : derives ?m ?a ?s _ |- _ =>
            apply IH in H; try discriminate; try (injection H as ?; subst); clear IH
        end; try done; try congruence.
    all: try (match goal with H : _ ++ _ = _ ++ _ |- _ => apply sapp_inj in H; congruence end).
    all: try (exfalso; naive_solver).
    all: match goal with H : forall c s0, String ?x ?y = String c s0 -> _ |- _ => specialize (H x y eq_refl); congruence end.
  Qed.
  Corollary peg_run_exact e : productive e = true ->
    forall m s r, derives m e s r <-> peg_run m e s = r.
  Proof.
    intros Hp m s r. split; [|intros <-; by apply peg_run_derives].
    intros H. eapply derives_functional; [by apply peg_run_derives|done].
  Qed.

  (** ** Properties of all pairs of a result. *)
  Definition pairs_ok (Q : pair R -> Prop) e : Prop :=
    forall m s p t s', peg_run m e s = Some (p, t, s') -> Forall Q p.
  Lemma ok_eps Q : pairs_ok Q Eps. Proof. intros m s p t s' [= <- <- <-]. constructor. Qed.
  Lemma ok_lit Q x : pairs_ok Q (Lit x).
  Proof. intros m s p t s'. simpl. destruct (strip x s); [|done]. intros [= <- <- <-]. constructor. Qed.
  Lemma ok_chr Q f : pairs_ok Q (Chr f).
  Proof.
    intros m s p t s'. simpl. destruct s; [done|]. destruct (f a); [|done]. intros [= <- <- <-]. constructor.
  Qed.
  Lemma ok_not Q a : pairs_ok Q (Not a).
  Proof. intros m s p t s'. simpl. destruct (peg_run m a s); [done|]. intros [= <- <- <-]. constructor. Qed.
  Lemma ok_eoi Q : pairs_ok Q Eoi.
  Proof. intros m s p t s'. simpl. destruct s; [|done]. intros [= <- <- <-]. constructor. Qed.
  Lemma ok_cat Q a b : pairs_ok Q a -> pairs_ok Q b -> pairs_ok Q (Cat a b).
  Proof.
    intros Ha Hb m s p t s'. simpl.
    destruct (peg_run m a s) as [[[p1 t1] s1]|] eqn:E1; [|done].
    destruct (peg_run m b s1) as [[[p2 t2] s2]|] eqn:E2; [|done]. intros [= <- <- <-].
    apply Forall_app. split; [by eapply Ha|by eapply Hb].
  Qed.
  Lemma ok_alt Q a b : pairs_ok Q a -> pairs_ok Q b -> pairs_ok Q (Alt a b).
  Proof.
    intros Ha Hb m s p t s'. simpl. destruct (peg_run m a s) as [[[p1 t1] s1]|] eqn:E1.
    - intros [= <- <- <-]. by eapply Ha.
    - by apply Hb.
  Qed.
  Lemma ok_opt Q a : pairs_ok Q a -> pairs_ok Q (Opt a).
  Proof.
    intros Ha m s p t s'. simpl. destruct (peg_run m a s) as [[[p1 t1] s1]|] eqn:E1; intros [= <- <- <-].
    - by eapply Ha.
    - constructor.
  Qed.
  Lemma ok_star Q a : pairs_ok Q a -> pairs_ok Q (Star a).
  Proof.
    intros Ha m s p t s'. cbn [peg_run]. intros [= H]. revert p t s' H. generalize (String.length s) as n.
    intros n. revert s. induction n as [|n IH]; intros s p t s'; simpl; [intros [= <- <- <-]; constructor|].
    destruct (peg_run m a s) as [[[p1 [|c t1]] s1]|] eqn:E; try (intros [= <- <- <-]; constructor).
    destruct (star_loop (peg_run m a) n s1) as [[p2 t2] s2] eqn:E2. intros [= <- <- <-].
    apply Forall_app. split; [by eapply Ha|by eapply IH].
  Qed.
  Lemma ok_rul (Q : pair R -> Prop) k r a :
    (forall m s p t s', peg_run m a s = Some (p, t, s') -> Q (Pair r t p)) ->
    (k <> Compound -> pairs_ok Q a) -> pairs_ok Q (Rul k r a).
  Proof.
    intros Hq Hi m s p t s'. simpl. destruct (peg_run _ a s) as [[[p1 t1] s1]|] eqn:E; [|done].
    intros [= <- <- <-]. destruct (match k with Silent => false | Compound => true | _ => m end) eqn:Em.
    - constructor; [by eapply Hq|constructor].
    - destruct k; try done; (eapply Hi; [done|exact E]).
  Qed.
End peg.

Section inversion.
  Context {R : Type}.
  Implicit Types (e a b : peg R) (s t : string) (p : list (pair R)).

  Lemma run_cat m a b s p t s' : peg_run m (Cat a b) s = Some (p, t, s') ->
    exists p1 t1 s1 p2 t2, peg_run m a s = Some (p1, t1, s1) /\ peg_run m b s1 = Some (p2, t2, s') /\
                           p = (p1 ++ p2)%list /\ t = t1 ++ t2.
  Proof.
    simpl. destruct (peg_run m a s) as [[[p1 t1] s1]|] eqn:E1; [|done].
    destruct (peg_run m b s1) as [[[p2 t2] s2]|] eqn:E2; [|done]. intros [= <- <- <-].
    by exists p1, t1, s1, p2, t2.
  Qed.
  Lemma run_alt m a b s h : peg_run m (Alt a b) s = Some h ->
    peg_run m a s = Some h \/ (peg_run m a s = None /\ peg_run m b s = Some h).
  Proof. simpl. destruct (peg_run m a s); [by left|by right]. Qed.
  Lemma run_opt m a s p t s' : peg_run m (Opt a) s = Some (p, t, s') ->
    peg_run m a s = Some (p, t, s') \/ (peg_run m a s = None /\ p = [] /\ t = "" /\ s' = s).
  Proof. simpl. destruct (peg_run m a s); [by left|]. intros [= <- <- <-]. by right. Qed.
  Lemma run_not m a s p t s' : peg_run m (Not a) s = Some (p, t, s') ->
    peg_run m a s = None /\ p = [] /\ t = "" /\ s' = s.
  Proof. simpl. destruct (peg_run m a s); [done|]. by intros [= <- <- <-]. Qed.
  Lemma run_lit m x s p t s' : peg_run (R := R) m (Lit x) s = Some (p, t, s') ->
    p = [] /\ t = x /\ s = x ++ s'.
  Proof. simpl. destruct (strip x s) eqn:E; [|done]. intros [= <- <- <-]. by apply strip_some in E. Qed.
  Lemma run_chr m f s p t s' : peg_run (R := R) m (Chr f) s = Some (p, t, s') ->
    exists c, p = [] /\ t = String c "" /\ s = String c s' /\ f c = true.
  Proof. simpl. destruct s as [|c s]; [done|]. destruct (f c) eqn:E; [|done]. intros [= <- <- <-]. by exists c. Qed.
  Lemma run_compound m r a s p t s' : peg_run m (Rul Compound r a) s = Some (p, t, s') ->
    exists l, peg_run true a s = Some (l, t, s') /\ p = [Pair r t l].
  Proof.
    simpl. destruct (peg_run true a s) as [[[p1 t1] s1]|] eqn:E1; [|done]. intros [= <- <- <-]. by exists p1.
  Qed.
  Lemma run_silent m r a s h : peg_run m (Rul Silent r a) s = Some h -> peg_run m a s = Some h.
  Proof. simpl. by destruct (peg_run m a s) as [[[p1 t1] s1]|]. Qed.

  Lemma run_eoi m s p t s' : peg_run (R := R) m Eoi s = Some (p, t, s') -> p = [] /\ t = "" /\ s = "" /\ s' = "".
  Proof. simpl. destruct s; [|done]. by intros [= <- <- <-]. Qed.
  Lemma star_loop_ind f (P : list (pair R) -> string -> string -> Prop) :
    (forall s, P [] "" s) ->
    (forall s p1 t1 s1 p2 t2 s2, f s = Some (p1, t1, s1) -> P p2 t2 s2 -> s1 = t2 ++ s2 ->
                                 P (p1 ++ p2)%list (t1 ++ t2) s2) ->
    (forall s p t s', f s = Some (p, t, s') -> s = t ++ s') ->
    forall n s p t s', star_loop f n s = (p, t, s') -> P p t s'.
  Proof.
    intros H0 H1 Hf n. induction n as [|n IH]; intros s p t s'; simpl; [by intros [= <- <- <-]|].
    destruct (f s) as [[[p1 [|c t1]] s1]|] eqn:E; try by intros [= <- <- <-].
    destruct (star_loop f n s1) as [[p2 t2] s2] eqn:E2. intros [= <- <- <-].
    eapply (H1 _ _ (String c t1)); [exact E|by eapply IH|].
    eapply star_loop_split; [|exact E2]. done.
  Qed.
  Lemma run_star_ind m a (P : list (pair R) -> string -> string -> Prop) :
    (forall s, P [] "" s) ->
    (forall s p1 t1 s1 p2 t2 s2, peg_run m a s = Some (p1, t1, s1) -> P p2 t2 s2 -> s1 = t2 ++ s2 ->
                                 P (p1 ++ p2)%list (t1 ++ t2) s2) ->
    forall s p t s', peg_run m (Star a) s = Some (p, t, s') -> P p t s'.
  Proof.
    intros H0 H1 s p t s' [= H]. eapply star_loop_ind; [exact H0|exact H1| |exact H].
    intros ????. apply peg_split.
  Qed.

  (** The text of a pair is part of the text consumed. *)
  Definition part_of (x t : string) : Prop := exists u v, t = u ++ x ++ v.
  Lemma part_refl t : part_of t t. Proof. exists "", "". simpl. by rewrite sapp_nil_r. Qed.
  Lemma part_l x t u : part_of x t -> part_of x (t ++ u).
  Proof. intros (a & b & ->). exists a, (b ++ u). by rewrite !sapp_assoc. Qed.
  Lemma part_r x t u : part_of x t -> part_of x (u ++ t).
  Proof. intros (a & b & ->). exists (u ++ a), b. by rewrite !sapp_assoc. Qed.
  Lemma part_trans x y z : part_of x y -> part_of y z -> part_of x z.
  Proof. intros (a & b & ->) (u & v & ->). apply part_r, part_l. by exists a, b. Qed.

  Lemma run_parts e : forall m s p t s', peg_run m e s = Some (p, t, s') ->
    Forall (fun q => part_of (p_text q) t) p.
  Proof.
    induction e as [|x|f|a IHa b IHb|a IHa b IHb|a IHa|a IHa|a IHa| |k r a IHa]; intros m s p t s' H.
    - injection H as <- <- <-. constructor.
    - apply run_lit in H as (-> & _). constructor.
    - apply run_chr in H as (? & -> & _). constructor.
    - apply run_cat in H as (p1 & t1 & s1 & p2 & t2 & H1 & H2 & -> & ->). apply IHa in H1. apply IHb in H2.
      apply Forall_app. split; (eapply Forall_impl; [done|]); intros q; [apply part_l|apply part_r].
    - apply run_alt in H as [H|[_ H]]; [by eapply IHa|by eapply IHb].
    - pattern p, t, s'. eapply run_star_ind; [| |exact H]; cbv beta; [constructor|].
      intros ? p1 t1 ? p2 t2 ? H1 H2 _. apply IHa in H1.
      apply Forall_app. split; (eapply Forall_impl; [done|]); intros q; [apply part_l|apply part_r].
    - apply run_opt in H as [H|(_ & -> & _)]; [by eapply IHa|constructor].
    - apply run_not in H as (_ & -> & _). constructor.
    - simpl in H. destruct s; [|done]. injection H as <- <- <-. constructor.
    - simpl in H. destruct (peg_run _ a s) as [[[p1 t1] s1]|] eqn:E1; [|done]. injection H as <- <- <-.
      apply IHa in E1. destruct (match k with Silent => false | Compound => true | _ => m end); [|done].
      constructor; [apply part_refl|constructor].
  Qed.
End inversion.

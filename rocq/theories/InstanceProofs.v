(** * InstanceProofs: the glicol language satisfies what the engine theorems ask of a language. *)
From Verif Require Import Instance.
From Verif Require Export TameProofs.
From Coq Require Import Lia.
Local Open Scope Z_scope.

(** ** The derived equality *)

Lemma feqb_cases x y : feqb x y = true ->
  (x = y /\ x ≠ S754_nan) \/ (exists s t, x = S754_zero s /\ y = S754_zero t).
Proof.
  unfold feqb, SFeqb, SFcompare. intros H.
  destruct x as [s|s| |s m e], y as [t|t| |t n f]; try destruct s; try destruct t; try done;
    try (right; by eauto); try (left; done);
    destruct (Z.compare e f) eqn:E1; try done;
    destruct (Pos.compare_cont Eq m n) eqn:E2; try done;
    left; apply Z.compare_eq in E1; apply Pos.compare_eq in E2; by subst.
Qed.
Lemma feqb_refl x : x ≠ S754_nan -> feqb x x = true.
Proof.
  intros H. unfold feqb, SFeqb, SFcompare. destruct x as [s|s| |s m e]; try destruct s; try done;
    rewrite Z.compare_refl; change (Pos.compare_cont Eq m m) with (Pos.compare m m); by rewrite Pos.compare_refl.
Qed.
Lemma feqb_zero s t : feqb (S754_zero s) (S754_zero t) = true.
Proof. done. Qed.
Lemma feqb_sym x y : feqb x y = true -> feqb y x = true.
Proof. intros [[-> H]|(s & t & -> & ->)]%feqb_cases; [by apply feqb_refl|apply feqb_zero]. Qed.
Lemma feqb_trans x y z : feqb x y = true -> feqb y z = true -> feqb x z = true.
Proof.
  intros [[-> H]|(s & t & -> & ->)]%feqb_cases; [done|].
  intros [[<- H]|(s' & t' & E & ->)]%feqb_cases; apply feqb_zero.
Qed.

Class PER {A} (e : A -> A -> bool) : Prop := {
  per_sym : forall a b, e a b = true -> e b a = true;
  per_trans : forall a b c, e a b = true -> e b c = true -> e a c = true }.
Global Instance feqb_per : PER feqb := {| per_sym := feqb_sym; per_trans := feqb_trans |}.
Global Instance seqb_per : PER seqb.
Proof.
  split; unfold seqb.
  - intros a b H%String.eqb_eq. by apply String.eqb_eq.
  - intros a b c H1%String.eqb_eq H2%String.eqb_eq. apply String.eqb_eq. congruence.
Qed.
Global Instance zeqb_per : PER Z.eqb.
Proof. split; intros *; rewrite !Z.eqb_eq; congruence. Qed.
Global Instance beqb_per : PER Bool.eqb.
Proof. split; [intros [] []|intros [] [] []]; done. Qed.
Global Instance list_per {A} (e : A -> A -> bool) : PER e -> PER (list_eqb e).
Proof.
  intros He. split.
  - induction a as [|x a IH]; intros [|y b]; simpl; try done.
    intros [H1 H2]%andb_true_iff. by rewrite (per_sym _ _ H1), (IH _ H2).
  - induction a as [|x a IH]; intros [|y b] [|z c]; simpl; try done.
    intros [H1 H2]%andb_true_iff [H3 H4]%andb_true_iff. by rewrite (per_trans _ _ _ H1 H3), (IH _ _ H2 H4).
Qed.
Global Instance pair_per {A B} (ea : A -> A -> bool) (eb : B -> B -> bool) : PER ea -> PER eb -> PER (pair_eqb ea eb).
Proof.
  intros Ha Hb. split; unfold pair_eqb.
  - intros a b [H1 H2]%andb_true_iff. by rewrite (per_sym _ _ H1), (per_sym _ _ H2).
  - intros a b c [H1 H2]%andb_true_iff [H3 H4]%andb_true_iff.
    by rewrite (per_trans _ _ _ H1 H3), (per_trans _ _ _ H2 H4).
Qed.
Global Instance option_per {A} (e : A -> A -> bool) : PER e -> PER (option_eqb e).
Proof.
  intros He. split.
  - intros [a|] [b|]; simpl; try done. apply per_sym.
  - intros [a|] [b|] [c|]; simpl; try done. apply per_trans.
Qed.

Ltac eqb_hyps :=
  repeat match goal with H : (_ && _) = true |- _ => apply andb_true_iff in H as [? ?] end.
Ltac per_solve :=
  eqb_hyps; repeat (apply andb_true_iff; split); try done;
  first [ eapply per_sym; eassumption | eapply per_trans; eassumption ].

Global Instance numref_per : PER numref_eqb.
Proof. split; [intros [] []|intros [] [] []]; simpl; try done; intros; per_solve. Qed.
Global Instance usizeref_per : PER usizeref_eqb.
Proof. split; [intros [] []|intros [] [] []]; simpl; try done; intros; per_solve. Qed.
Global Instance duration_per : PER duration_eqb.
Proof. split; [intros [] []|intros [] [] []]; simpl; try done; intros; per_solve. Qed.
Global Instance timelist_per : PER timelist_eqb.
Proof. split; unfold timelist_eqb; intros; per_solve. Qed.
Global Instance evval_per : PER evval_eqb.
Proof. split; [intros [] []|intros [] [] []]; simpl; try done; intros; per_solve. Qed.
Global Instance evinner_per : PER evinner_eqb.
Proof. unfold evinner_eqb. apply _. Qed.
Global Instance signal_per : PER signal_eqb.
Proof. split; [intros [] []|intros [] [] []]; simpl; try done; intros; per_solve. Qed.
Global Instance psam_per : PER psam_eqb.
Proof. split; [intros [] []|intros [] [] []]; simpl; try done; intros; per_solve. Qed.
Lemma component_eqb_sym a b : component_eqb a b = true -> component_eqb b a = true.
Proof. destruct a, b; try (intros H; exact H); try (intros H; discriminate H); simpl; intros; per_solve. Qed.
Lemma component_eqb_trans a b c :
  component_eqb a b = true -> component_eqb b c = true -> component_eqb a c = true.
Proof.
  destruct a, b; try (intros H; discriminate H); destruct c; try (intros _ H; discriminate H);
    simpl; intros; per_solve.
Qed.

(** ** Equal components have the same references *)

Lemma seqb_eq a b : seqb a b = true -> a = b.
Proof. apply String.eqb_eq. Qed.
Lemma numref_eqb_refs a b : numref_eqb a b = true -> numref_refs a = numref_refs b.
Proof. destruct a, b; simpl; try done. by intros ->%seqb_eq. Qed.
Lemma usizeref_eqb_refs a b : usizeref_eqb a b = true -> usizeref_refs a = usizeref_refs b.
Proof. destruct a, b; simpl; try done. by intros ->%seqb_eq. Qed.
Lemma list_eqb_map {A B} (e : A -> A -> bool) (f : A -> B) :
  (forall a b, e a b = true -> f a = f b) -> forall l k, list_eqb e l k = true -> map f l = map f k.
Proof.
  intros He. induction l as [|x l IH]; intros [|y k]; simpl; try done.
  intros [H1 H2]%andb_true_iff. by rewrite (He _ _ H1), (IH _ H2).
Qed.
Lemma component_eqb_refs a b : component_eqb a b = true -> component_refs a = component_refs b.
Proof.
  destruct a, b; try (intros H; discriminate H); try (intros _; reflexivity); simpl; intros H; eqb_hyps;
    try (by apply numref_eqb_refs); try (by apply usizeref_eqb_refs).
  - f_equal. revert H. apply list_eqb_map. intros [t u] [t' u']. unfold pair_eqb; simpl.
    intros [_ H]%andb_true_iff. by apply usizeref_eqb_refs.
  - f_equal. revert H. apply list_eqb_map. apply numref_eqb_refs.
  - apply (list_eqb_map seqb id seqb_eq) in H. by rewrite !map_id in H.
  - destruct sg, sg0; simpl in *; try done. by rewrite (seqb_eq s s0).
  - by rewrite (seqb_eq left left0), (seqb_eq right right0).
  - by rewrite (seqb_eq r r0).
Qed.

(** ** The constructor and the parser agree on the references *)

Lemma dedup_refs_elem seen l r : r ∈ dedup_refs seen l <-> r ∈ seen \/ r ∈ l.
Proof.
  revert seen. induction l as [|s l IH]; intros seen; simpl; [set_solver|].
  rewrite IH. case_bool_decide; set_solver.
Qed.
Lemma boxed_res_refs P r ch refs w refs' : boxed_res P r ch refs = Done (w, refs') -> refs' = refs.
Proof. unfold boxed_res, boxed. destruct r; naive_solver. Qed.
Lemma boxed_comp_refs P r ch refs w refs' : boxed_comp P r ch refs = Done (w, refs') -> refs' = refs.
Proof. unfold boxed_comp. destruct r; naive_solver. Qed.
Lemma makenode_refs P ev c w refs : makenode_ P ev c = Done (w, refs) ->
  refs = match c with CSeq _ => dedup_refs [] (component_refs c) | _ => component_refs c end.
Proof.
  destruct c; unfold makenode_; intros H;
    lazymatch type of H with
    | boxed_comp _ _ _ _ = _ => apply boxed_comp_refs in H; exact H
    | boxed_res _ _ _ _ = _ => apply boxed_res_refs in H; exact H
    | boxed _ _ _ _ = _ => injection H as _ <-; reflexivity
    | Crash = _ => discriminate H
    | _ => idtac
    end.
  - destruct (_ !! _); [|done]. by apply boxed_res_refs in H.
  - destruct sg; simpl in *; try done; by injection H as _ <-.
  - destruct p; simpl in *; try done. destruct (select _ _); try done. by injection H as _ <-.
Qed.
Lemma select_fail d l er : select d l = Fail er -> exists s, er = NonExistSample s.
Proof.
  induction l as [|n l IH]; simpl; [done|]. destruct (d !! n); [|by intros [= <-]; eauto].
  destruct (select d l); naive_solver.
Qed.
Lemma boxed_res_fail P r ch refs er : boxed_res P r ch refs ≠ Fail er.
Proof. by destruct r. Qed.
Lemma boxed_comp_fail P r ch refs er : boxed_comp P r ch refs ≠ Fail er.
Proof. by destruct r. Qed.
Lemma makenode_fail P ev c er : makenode_ P ev c = Fail er -> exists s, er = NonExistSample s.
Proof.
  destruct c; unfold makenode_; intros H;
    lazymatch type of H with
    | boxed_comp _ _ _ _ = _ => by apply boxed_comp_fail in H
    | boxed_res _ _ _ _ = _ => by apply boxed_res_fail in H
    | boxed _ _ _ _ = _ => discriminate H
    | Crash = _ => discriminate H
    | _ => idtac
    end.
  - destruct (_ !! _); [by apply boxed_res_fail in H|]. injection H as <-. eauto.
  - destruct sg; simpl in *; done.
  - destruct p; simpl in *; try done. destruct (select _ _) eqn:E; try done.
    injection H as <-. by apply select_fail in E.
Qed.

(** ** Wiring messages never panic *)

Lemma ord_msg_ok o m : conn_msg m -> is_ok (ord_msg o m).
Proof. destruct m as [| | | |pos i|]; simpl; try done. intros ->. by destruct o. Qed.
Lemma ord_msg_keep_ok o m : conn_msg m -> is_ok (ord_msg_keep o m).
Proof. destruct m; simpl; try done. apply (ord_msg_ok o (IndexOrder _ _)). Qed.
Lemma wrapm_ok {S N} (c : S -> N) r : is_ok r -> is_ok (wrapm c r).
Proof. by destruct r. Qed.

Ltac msg_solve :=
  first [ done
        | match goal with Hm : conn_msg ?m |- context [ord_msg ?o ?m] =>
            let H := fresh in pose proof (ord_msg_ok o m Hm) as H; by destruct (ord_msg o m) end
        | match goal with Hm : conn_msg ?m |- context [ord_msg_keep ?o ?m] =>
            let H := fresh in pose proof (ord_msg_keep_ok o m Hm) as H; by destruct (ord_msg_keep o m) end ].

Lemma smsg_ok P (n : snode P) m : conn_msg m -> is_ok (smsg P n m).
Proof.
  intros Hm. destruct n; try (by simpl); apply wrapm_ok;
    first [ by apply ord_msg_ok
          | unfold op_msg, osc_msg, csig_msg, imp_msg, noise_msg, pan_msg, spd_msg, eval_msg, meta_msg,
              seq_msg, choose_msg, arrange_msg, points_msg, psynth_msg, msynth_msg, sampler_msg, psampler_msg,
              delayn_msg, delayms_msg, envperc_msg, adsr_msg, apf_msg, onepole_msg, bq_msg;
            destruct m as [| | | |pos i|]; try done; msg_solve ].
Qed.
Lemma gmsg_ok P (n : gnode P) m : conn_msg m -> is_ok (gmsg P n m).
Proof.
  intros Hm. destruct n as [n|[g o k]]; simpl; apply wrapm_ok; [by apply smsg_ok|].
  unfold compound_msg; simpl. destruct k; destruct m as [| | | |pos i|]; try done; msg_solve.
Qed.

Theorem glang_ok P get : lang_ok (glang P get).
Proof.
  split; simpl.
  - intros ev c w refs H r. rewrite (makenode_refs _ _ _ _ _ H). destruct c; try done.
    rewrite dedup_refs_elem. set_solver.
  - apply component_eqb_sym.
  - apply component_eqb_trans.
  - apply makenode_fail.
  - apply component_eqb_refs.
  - apply gmsg_ok.
Qed.

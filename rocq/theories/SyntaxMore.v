(** * SyntaxMore: patterns, points and plain names are read as they are meant. *)
From Coq Require Import Lia Bool.
From Verif Require Export SyntaxNodes.
Local Open Scope nat_scope.
Local Open Scope string_scope.
Local Opaque W W1 peg_run.

Lemma rul_run m r (e : G) s : peg_run m (Rul Peg.Compound r e) s =
  match peg_run true e s with Some (p, tx, s') => Some ([Pair r tx p], tx, s') | None => None end.
Proof. with_strategy transparent [peg_run] reflexivity. Qed.

(** ** White space with line breaks *)
Lemma wsn_chr m s : peg_run m g_ws s = peg_run m (Chr is_white) s.
Proof.
  with_strategy transparent [peg_run] (unfold g_ws, t, tab, lf; cbn [peg_run]). destruct s as [|c s]; [done|]. cbn [strip].
  unfold is_white, is_separator. rewrite !(Ascii.eqb_sym _ c).
  destruct (Ascii.eqb_spec c " ") as [->|]; [done|]. destruct (Ascii.eqb_spec c ",") as [->|]; [done|].
  destruct (Ascii.eqb_spec c "|") as [->|]; [done|]. destruct (Ascii.eqb_spec c "009") as [->|]; [done|].
  by destruct (Ascii.eqb_spec c "010") as [->|].
Qed.
Lemma reads_w g : white g -> reads_on (nohead is_white) w g [].
Proof.
  intros Hb m rest Hr. unfold w. rewrite (star_ext _ _ (Chr is_white)) by apply wsn_chr. by apply reads_chars.
Qed.
Lemma blanks_white g : blanks g -> white g.
Proof.
  unfold blanks, white. induction g as [|ch g IH]; [done|]. cbn [sall]. intros H. apply andb_prop in H as [H1 H2].
  unfold is_white at 1. by rewrite H1, IH.
Qed.
Lemma reads_w1 g : space g -> reads_on (nohead is_white) w1 g [].
Proof.
  intros [Hn Hb] m rest Hr. unfold w1, many1. rewrite (many1_ext _ _ (Chr is_white)) by apply wsn_chr.
  apply reads_chars1; [done|by apply blanks_white|done].
Qed.
Local Opaque w w1.

(** ** Items and patterns *)
Definition dq_head (ch : ascii) : bool := Ascii.eqb ch "034".
Lemma reads_symbol_at w : symbol w -> reads_on (begins (Ascii.eqb "@")) g_symbol w [Pair r_symbol w []].
Proof.
  intros (s & Hn & Hs & H). unfold g_symbol. apply reads_compound. destruct H as [-> | ->].
  - apply reads_alt1. apply (reads_cat (fun _ => True) _ _ _ _ _ [] []); [apply reads_lit| |done].
    apply (reads_cat (nohead is_symbol_char) _ _ _ _ _ [] []); [by apply reads_sym_chars|apply reads_lit|done].
  - apply reads_alt2.
    + intros m rest _. rewrite sapp_cons. apply (dead_on_sound (Ascii.eqb "092")); [vm_compute; reflexivity|done].
    + change (String "092" s) with (bslash ++ s). apply (reads_cat (fun _ => True) _ _ _ _ _ [] []); [apply reads_lit| |done].
      eapply reads_weaken; [|by apply reads_sym_chars]. intros rest (ch & r & -> & Hc). apply Ascii.eqb_eq in Hc as <-. done.
Qed.
Definition word_head (ch : ascii) : bool := (sign_digit ch || sym_head ch)%bool.
Lemma item_word_head w e : item_word w e -> begins word_head w.
Proof.
  intros H. inversion H as [w' v u x Hw Hu|w' u x Hw Hu]; subst.
  - apply number_head in Hw as (ch & s & -> & Hc). rewrite sapp_cons. exists ch. eexists. split; [done|]. unfold word_head. by rewrite Hc.
  - apply symbol_head in Hw as (ch & s & -> & Hc). rewrite sapp_cons. exists ch. eexists. split; [done|]. unfold word_head. by rewrite Hc, orb_true_r.
Qed.
Lemma reads_item w e : item_word w e -> exists p, reads_on (nohead num_char) g_value_time w [p] /\ p_valtime p = Done e.
Proof.
  intros H. inversion H as [w' v u x Hw Hu|w' u x Hw Hu]; subst; destruct (reads_num u x Hu) as (q & Hq & _ & _ & Hv).
  - destruct (reads_num w' v Hw) as (p & Hp & Hr & _ & Hpv).
    eexists. split.
    + unfold g_value_time. apply reads_compound. apply (reads_cat (nohead num_char) _ _ _ _ _ [p] [q]).
      * by apply reads_alt1.
      * apply (reads_cat (fun _ => True) _ _ _ _ _ [] [q]); [apply reads_lit|exact Hq|done].
      * done.
    + unfold p_valtime, next_f32. cbn [p_in next bind app]. rewrite Hr, Hpv. cbn [bind next]. by rewrite Hv.
  - eexists. split.
    + unfold g_value_time. apply reads_compound. apply (reads_cat (begins (Ascii.eqb "@")) _ _ _ _ _ [Pair r_symbol w' []] [q]).
      * apply reads_alt2; [|by apply reads_symbol_at]. intros m rest _.
        apply (dead_app sym_head); [vm_compute; reflexivity|by apply symbol_head].
      * apply (reads_cat (fun _ => True) _ _ _ _ _ [] [q]); [apply reads_lit|exact Hq|done].
      * intros rest _. by eexists _, _.
    + unfold p_valtime, next_f32. cbn [p_in next bind app p_rule p_text]. by rewrite Hv.
Qed.
Lemma dq_nohead f s : f "034"%char = false -> begins dq_head s -> nohead f s.
Proof. intros Hf (ch & r & -> & Hc). apply Ascii.eqb_eq in Hc as ->. done. Qed.
Lemma space_num g s : space g -> nohead num_char (g ++ s).
Proof. intros H. apply stop_num. by apply space_stop. Qed.
Lemma reads_items (l : list (string * (evval * f32))) : forall t, args (map fst l) t -> Forall (fun x => item_word x.1 x.2) l ->
  exists ps, reads_on (begins dq_head) (Star (Cat W1 g_value_time)) t ps /\ collect p_valtime ps = Done (map snd l).
Proof.
  induction l as [|[w e] l IH]; intros t Ht HF.
  - apply args_nil_inv in Ht as ->. exists []. split; [|done]. apply reads_star_nil. intros m rest Hr. rewrite cat_run, W1_fails; [done|].
    by apply dq_nohead.
  - cbn [map fst] in Ht. sp g t' Ht. apply Forall_cons_1 in HF as [Hw HF]. cbn [fst snd] in Hw.
    destruct (reads_item w e Hw) as (p & Hp & Hv). destruct (IH t' Ht HF) as (ps & Hps & Hc). exists (p :: ps). split.
    + apply (reads_star_cons (nohead num_char) _ _ _ _ [p] ps); [|destruct G as [G _]; by destruct g|exact Hps|].
      * apply (reads_cat (nohead is_separator) _ _ _ _ _ [] [p]); [by apply reads_W1|exact Hp|].
        intros rest _. eapply begins_nosep; [by eapply item_word_head|vm_compute; reflexivity].
      * intros rest Hr. inversion Ht; subst; [by apply dq_nohead|]. rewrite !sapp_assoc. by apply space_num.
    + cbn [collect map snd]. rewrite Hv. cbn [bind]. by rewrite Hc.
Qed.
Lemma reads_quoted w evs : quoted w evs -> exists p, p_rule p = r_pattern_event_body /\
  collect p_valtime (p_in p) = Done evs /\
  forall (Q : string -> Prop) (e : G) te pe, reads_on Q e te pe ->
    reads_on Q (Cat (t quote) (Cat g_pattern_event_body (Cat (t quote) e))) (w ++ te) (p :: pe).
Proof.
  intros (b & w0 & e0 & l & t1 & Hb & Hw0 & HF & Ht & -> & ->).
  destruct (reads_item w0 e0 Hw0) as (p0 & Hp0 & Hv0). destruct (reads_items l t1 Ht HF) as (ps & Hps & Hc).
  exists (Pair r_pattern_event_body (b ++ w0 ++ t1) (p0 :: ps)). split; [done|]. split.
  { cbn [p_in collect]. rewrite Hv0. cbn [bind]. by rewrite Hc. }
  intros Q e te pe He.
  assert (Hbody : reads_on (begins dq_head) g_pattern_event_body (b ++ w0 ++ t1) [Pair r_pattern_event_body (b ++ w0 ++ t1) (p0 :: ps)]).
  { unfold g_pattern_event_body. apply reads_compound. apply (reads_cat (nohead is_separator) _ _ _ _ _ [] (p0 :: ps)); [by apply reads_W| |].
    - apply (reads_cat (nohead num_char) _ _ _ _ _ [p0] ps); [exact Hp0|exact Hps|].
      intros rest Hr. inversion Ht; subst; [by apply dq_nohead|]. rewrite !sapp_assoc. by apply space_num.
    - intros rest _. rewrite sapp_assoc. eapply begins_nosep; [by eapply item_word_head|vm_compute; reflexivity]. }
  eapply reads_exact; [|apply (reads_cat (fun _ => True) Q (t quote) _ quote ((b ++ w0 ++ t1) ++ quote ++ te) [] (_ :: pe)); [apply reads_lit| |done]].
  - unfold dquote, quote. by rewrite !sapp_assoc.
  - apply (reads_cat (begins dq_head) Q _ _ _ _ [_] pe); [exact Hbody| |].
    + apply (reads_cat (fun _ => True) Q _ _ _ _ [] pe); [apply reads_lit|exact He|done].
    + intros rest _. rewrite sapp_assoc. by eexists _, _.
Qed.
Lemma quoted_head w evs : quoted w evs -> begins dq_head w.
Proof. intros (b & w0 & e0 & l & t1 & _ & _ & _ & _ & -> & _). by eexists _, _. Qed.
Lemma reads_pattern w evs span : pattern_word w evs span -> exists p, reads_on (fun _ => True) g_pattern w [p] /\
  p_rule p = r_pattern /\ p_pattern (p_in p) = Done (evs, span).
Proof.
  intros (q & s & Hq & -> & Hs). destruct (reads_quoted q evs Hq) as (b & Hb & Hc & Hr).
  assert (Hspan : exists ps, reads_on (fun _ => True) (Cat (t "(") (Cat (Opt g_number) (t ")"))) ("(" ++ s ++ ")") ps /\
    match ps with [] => Done f1 | p :: _ => pf32 p end = Done span).
  { destruct Hs as [[-> ->]|Hs].
    - exists []. split; [|done]. apply (reads_cat (fun _ => True) _ _ _ _ _ [] []); [apply reads_lit| |done].
      apply (reads_cat (begins (Ascii.eqb ")")) _ _ _ "" ")" [] []); [|apply reads_lit|intros; by eexists _, _].
      apply reads_opt2. intros m rest (ch & r & -> & Hch). apply (dead_on_sound (Ascii.eqb ")")); [vm_compute; reflexivity|done].
    - destruct (reads_num s span Hs) as (p & Hp & _ & _ & Hv). exists [p]. split; [|done].
      apply (reads_cat (fun _ => True) _ _ _ _ _ [] [p]); [apply reads_lit| |done].
      apply (reads_cat (nohead num_char) _ _ _ _ _ [p] []); [by apply reads_opt1|apply reads_lit|done]. }
  destruct Hspan as (ps & Hps & Hv). eexists. split; [unfold g_pattern; apply reads_compound, (Hr _ _ _ _ Hps)|].
  split; [done|]. unfold p_pattern, p_evinner. cbn [p_in next bind]. rewrite Hc. cbn [bind].
  destruct ps as [|p ps]; [by injection Hv as ->|]. by rewrite Hv.
Qed.
Lemma pattern_fails_event w evs m rest : quoted w evs -> nohead (Ascii.eqb "(") rest -> peg_run m g_pattern (w ++ rest) = None.
Proof.
  intros Hq Hr. destruct (reads_quoted w evs Hq) as (b & _ & _ & H).
  pose proof (H (fun _ => True) Eps "" [] (reads_eps _) true rest I) as E. rewrite sapp_nil_r in E.
  unfold g_pattern. rewrite rul_run, cat_run. rewrite cat_run in E.
  destruct (peg_run true (t quote) (w ++ rest)) as [[[p1 t1] s1]|]; [|done].
  rewrite cat_run in E |- *. destruct (peg_run true g_pattern_event_body s1) as [[[p2 t2] s2]|]; [|done].
  rewrite cat_run in E |- *. destruct (peg_run true (t quote) s2) as [[[p3 t3] s3]|]; [|done].
  with_strategy transparent [peg_run] cbn [peg_run] in E. injection E as _ _ ->. rewrite cat_run.
  assert (E : peg_run true (t "(") rest = None); [|by rewrite E].
  destruct rest as [|ch rest]; [by with_strategy transparent [peg_run] reflexivity|]. cbn [nohead] in Hr.
  with_strategy transparent [peg_run] (unfold t; cbn [peg_run strip]). by rewrite Hr.
Qed.
Lemma reads_event w evs : quoted w evs -> exists p, reads_on (fun _ => True) g_event w [p] /\
  p_rule p = r_event /\ exists l, p_evinner (p_in p) = Done (evs, l).
Proof.
  intros Hq. destruct (reads_quoted w evs Hq) as (b & Hb & Hc & Hr).
  pose proof (Hr (fun _ => True) Eps "" [] (reads_eps _)) as H. rewrite sapp_nil_r in H. eexists. split.
  - unfold g_event. apply reads_compound. intros m rest HI. specialize (H m rest HI).
    rewrite cat_run in H |- *. destruct (peg_run m (t quote) (w ++ rest)) as [[[p1 t1] s1]|]; [|done].
    rewrite cat_run in H |- *. destruct (peg_run m g_pattern_event_body s1) as [[[p2 t2] s2]|]; [|done].
    rewrite cat_run in H. destruct (peg_run m (t quote) s2) as [[[p3 t3] s3]|]; [|done].
    with_strategy transparent [peg_run] cbn [peg_run] in H. rewrite sapp_nil_r, app_nil_r in H. exact H.
  - split; [done|]. eexists. unfold p_evinner. cbn [p_in next bind]. rewrite Hc. done.
Qed.
Lemma pattern_head w evs span : pattern_word w evs span -> begins dq_head w.
Proof. intros (q & s & Hq & -> & _). destruct (quoted_head _ _ Hq) as (ch & r & -> & Hc). rewrite sapp_cons. by eexists _, _. Qed.
Lemma reads_pattern_alt w evs span : pattern_word w evs span -> exists p, reads_on stop (Alt g_pattern g_event) w [p] /\
  p_rule p = r_pattern /\ p_pattern (p_in p) = Done (evs, span).
Proof.
  intros H. destruct (reads_pattern w evs span H) as (p & Hp & Hr & Hv). exists p. split; [|done].
  apply reads_alt1. by eapply reads_weaken; [|exact Hp].
Qed.
Lemma reads_event_alt w evs : quoted w evs -> exists p, reads_on stop (Alt g_pattern g_event) w [p] /\
  p_rule p = r_event /\ exists l, p_evinner (p_in p) = Done (evs, l).
Proof.
  intros H. destruct (reads_event w evs H) as (p & Hp & Hr & Hv). exists p. split; [|done].
  apply reads_alt2; [|by eapply reads_weaken; [|exact Hp]]. intros m rest Hs. eapply pattern_fails_event; [done|].
  revert Hs. apply stop_nohead. vm_compute. reflexivity.
Qed.

(** ** Literals that begin an expression *)
Fixpoint openers (e : G) : option (list string) :=
  match e with
  | Lit q => Some [q]
  | Cat a _ => openers a
  | Alt a b => match openers a, openers b with Some l, Some l' => Some (l ++ l')%list | _, _ => None end
  | Rul _ _ a => openers a
  | _ => None
  end.
Lemma openers_fail m (e : G) l s : openers e = Some l -> (forall q, q ∈ l -> strip q s = None) -> peg_run m e s = None.
Proof.
  revert m l. induction e as [|q|f|a IHa b IHb|a IHa b IHb|a IHa|a IHa|a IHa| |k r0 a IHa]; intros m l; try done; cbn [openers].
  - intros [= <-] H. with_strategy transparent [peg_run] cbn [peg_run]. rewrite H; [done|by left].
  - intros E H. rewrite cat_run. by rewrite (IHa m l E H).
  - destruct (openers a) as [l1|]; [|done]. destruct (openers b) as [l2|]; [|done]. intros [= <-] H.
    with_strategy transparent [peg_run] cbn [peg_run]. rewrite (IHa m l1 eq_refl).
    + apply (IHb m l2 eq_refl). intros q Hq. apply H, elem_of_app. by right.
    + intros q Hq. apply H, elem_of_app. by left.
  - intros E H. pose proof (fun m => IHa m l E H) as Hf. clear IHa. revert Hf. generalize a. intros e Hf.
    with_strategy transparent [peg_run] cbn [peg_run]. destruct k; by rewrite Hf.
Qed.

(** The literals that begin the first [n] alternatives. *)
Fixpoint firsts (n : nat) (e : G) : option (list string) :=
  match n, e with
  | O, _ => Some []
  | S n', Alt a b => match openers a, firsts n' b with Some l, Some l' => Some (l ++ l')%list | _, _ => None end
  | _, _ => None
  end.
Lemma firsts_fail m n : forall (e : G) l s h, firsts n e = Some l -> (forall q, q ∈ l -> strip q s = None) ->
  peg_run m (alt_at n e) s = Some h -> peg_run m e s = Some h.
Proof.
  induction n as [|n IH]; intros e l s h.
  - intros _ _. destruct e; try done. cbn [alt_at]. intros E. with_strategy transparent [peg_run] cbn [peg_run]. by rewrite E.
  - destruct e as [| | | |a b| | | | |]; try done. cbn [firsts alt_at]. destruct (openers a) as [l1|] eqn:E1; [|done].
    destruct (firsts n b) as [l2|] eqn:E2; [|done]. intros [= <-] H Hh. with_strategy transparent [peg_run] cbn [peg_run].
    rewrite (openers_fail m a l1 s E1); [|intros q Hq; apply H, elem_of_app; by left].
    apply (IH b l2); [done|intros q Hq; apply H, elem_of_app; by right|done].
Qed.
Lemma prefix_trans a b s : String.prefix a b = true -> String.prefix a s = false -> String.prefix b s = false.
Proof.
  revert b s. induction a as [|x a IH]; intros b s; [by destruct s|].
  destruct b as [|y b]; [done|]. destruct s as [|z s]; [done|]. cbn [String.prefix].
  destruct (ascii_dec x y) as [->|]; [|done]. destruct (ascii_dec y z) as [->|]; [|done]. apply IH.
Qed.
Definition get_pos : nat := 28.
Lemma get_at : alt_at get_pos node_alts = g_get. Proof. reflexivity. Qed.

(** ** Points *)
Lemma white_nohead (f : ascii -> bool) g s : forallb (fun ch => if is_white ch then negb (f ch) else true) all_chars = true ->
  white g -> (g = "" -> nohead f s) -> nohead f (g ++ s).
Proof.
  intros Hf Hg Hs. destruct g as [|ch g]; [by apply Hs|]. unfold white in Hg. cbn [sall] in Hg. apply andb_prop in Hg as [Hg _].
  rewrite sapp_cons. cbn [nohead]. pose proof (by_chars _ Hf ch) as H. cbv beta in H. rewrite Hg in H. by apply negb_true_iff in H.
Qed.
Ltac wh := first [vm_compute; reflexivity | done].
Lemma reads_int w v : integer w v -> exists p, reads_on (nohead int_char) g_integer w [p] /\ pf32 p = Done v.
Proof.
  intros (l & Hl & Ht & -> & ->). assert (Hp := parse_literal l Hl). destruct l as [sg d tl]. cbn [l_tail] in Ht. subst tl.
  unfold l_text in *. cbn [l_sign l_int l_tail] in *. rewrite (sapp_nil_r d) in *. destruct Hl as (Hs & Hd & Hn & _). cbn [l_sign l_int] in *.
  eexists. split; [by apply reads_integer|]. unfold pf32. cbn [p_text]. by rewrite Hp.
Qed.
Lemma int_head w v : integer w v -> begins sign_digit w.
Proof. intros (l & Hl & _ & -> & _). destruct (l_head l Hl) as (ch & s & E & Hc). by exists ch, s. Qed.
Lemma reads_ratio w v : ratio w v -> exists p, reads_on (nohead int_char) g_bar w [p] /\ p_bar p = Done v.
Proof.
  intros (w1 & v1 & g1 & g2 & w2 & v2 & H1 & H2 & Hg1 & Hg2 & -> & ->).
  destruct (reads_int w1 v1 H1) as (p1 & Hp1 & E1). destruct (reads_int w2 v2 H2) as (p2 & Hp2 & E2). eexists. split.
  - unfold g_bar. apply reads_compound. apply (reads_cat (nohead int_char) _ _ _ _ _ [p1] [p2]); [exact Hp1| |].
    + apply (reads_cat (nohead is_white) _ _ _ _ _ [] [p2]); [by apply reads_w| |done].
      apply (reads_cat (fun _ => True) _ _ _ _ _ [] [p2]); [apply reads_lit| |done].
      apply (reads_cat (nohead is_white) _ _ _ _ _ [] [p2]); [by apply reads_w|exact Hp2|].
      intros rest _. destruct (int_head _ _ H2) as (ch & s & -> & Hc). rewrite sapp_cons. cbn [nohead].
      pose proof (by_chars (fun ch => if sign_digit ch then negb (is_white ch) else true) ltac:(vm_compute; reflexivity) ch) as H.
      cbv beta in H. rewrite Hc in H. by apply negb_true_iff in H.
    + intros rest _. rewrite sapp_assoc. apply white_nohead; wh.
  - unfold p_bar, next_f32. cbn [p_rule p_in next bind app]. rewrite E1. cbn [bind next]. by rewrite E2.
Qed.
(** What follows a time in bars: white space and then the arrow or a sign. *)
Definition after_bar (ch : ascii) : bool := (Ascii.eqb ch "=" || Ascii.eqb ch "+" || Ascii.eqb ch "-")%bool.
Definition mrest (s : string) : Prop := exists g s', s = g ++ s' /\ white g /\ begins after_bar s'.
Lemma mrest_nohead f s : forallb (fun ch => if (is_white ch || after_bar ch)%bool then negb (f ch) else true) all_chars = true ->
  mrest s -> nohead f s.
Proof.
  intros Hf (g & s' & -> & Hg & ch & r & -> & Hc).
  assert (Hx : forall ch, (is_white ch || after_bar ch)%bool = true -> f ch = false).
  { intros ch' H'. pose proof (by_chars _ Hf ch') as H. cbv beta in H. rewrite H' in H. by apply negb_true_iff in H. }
  destruct g as [|c g]; [apply Hx; by rewrite Hc, orb_true_r|]. unfold white in Hg. cbn [sall] in Hg. apply andb_prop in Hg as [Hg _].
  apply Hx. by rewrite Hg.
Qed.
Lemma integer_fails_point m sg d s : is_sign sg -> digits d -> d <> "" -> peg_run m g_integer (sg ++ d ++ "." ++ s) = None.
Proof.
  intros Hs Hd Hn. unfold g_integer. rewrite rul_run.
  pose proof (reads_signed sg d Hs Hd Hn true ("." ++ s) eq_refl) as H. rewrite cat_run in H. rewrite sapp_assoc in H.
  rewrite cat_run. destruct (peg_run true opt_sign (sg ++ d ++ "." ++ s)) as [[[p1 t1] s1]|]; [|done].
  rewrite cat_run. destruct (peg_run true (many1 ascii_digit) s1) as [[[p2 t2] s2]|]; [|done]. injection H as _ _ ->.
  assert (E : peg_run true (Not (t ".")) ("." ++ s) = None) by (with_strategy transparent [peg_run] reflexivity).
  by rewrite E.
Qed.
Lemma bar_fails_number m w v rest : number w v -> mrest rest -> peg_run m g_bar (w ++ rest) = None.
Proof.
  intros (l & Hl & -> & _) Hr. unfold g_bar. rewrite rul_run, cat_run. destruct l as [sg d [[fp ex]|]].
  - destruct Hl as (Hs & Hd & Hn & _). cbn [l_sign l_int] in *.
    assert (E : exists s, l_text (Literal sg d (Some (fp, ex))) ++ rest = sg ++ d ++ "." ++ s).
    { unfold l_text. cbn [l_sign l_int l_tail]. destruct ex as [[[e es] ed]|]; rewrite !sapp_assoc; by eexists. }
    destruct E as [s ->]. by rewrite integer_fails_point.
  - destruct (reads_int (l_text (Literal sg d None)) _ (ex_intro _ _ (conj Hl (conj eq_refl (conj eq_refl eq_refl))))) as (p & Hp & _).
    rewrite (Hp true rest) by (eapply mrest_nohead; [vm_compute; reflexivity|done]). rewrite cat_run.
    destruct Hr as (g & s' & -> & Hg & Hb). rewrite (reads_w g Hg true s').
    2: { destruct Hb as (ch & r & -> & Hc). pose proof (by_chars (fun ch => if after_bar ch then negb (is_white ch) else true) ltac:(vm_compute; reflexivity) ch) as H.
         cbv beta in H. rewrite Hc in H. by apply negb_true_iff in H. }
    assert (E : peg_run true (Cat (t "/") (Cat Grammar.w g_integer)) s' = None); [|by rewrite E].
    rewrite cat_run. destruct Hb as (ch & r & -> & Hc).
    assert (E : peg_run true (t "/") (String ch r) = None); [|by rewrite E].
    apply (dead_on_sound after_bar); [vm_compute; reflexivity|done].
Qed.
Lemma reads_moment w v : moment w v -> exists p, reads_on mrest (Alt g_bar g_number) w [p] /\ p_bar p = Done v.
Proof.
  intros [H|H].
  - destruct (reads_num w v H) as (p & Hp & Hr & _ & Hv). exists p. split; [|unfold p_bar; by rewrite Hr].
    apply reads_alt2; [intros; by eapply bar_fails_number|]. eapply reads_weaken; [|exact Hp]. intros rest. apply mrest_nohead. vm_compute. reflexivity.
  - destruct (reads_ratio w v H) as (p & Hp & Hv). exists p. split; [|done]. apply reads_alt1.
    eapply reads_weaken; [|exact Hp]. intros rest. apply mrest_nohead. vm_compute. reflexivity.
Qed.
Definition trest (s : string) : Prop := exists g s', s = g ++ "=>" ++ s' /\ white g.
Lemma reads_time wt tl : time_word wt tl -> exists p, reads_on trest g_time wt [p] /\
  exists b l, p_in p = b :: l /\ p_bar b = Done (tl_bar tl) /\ p_offset l = Done (tl_time tl).
Proof.
  intros H. destruct H as [wt v Hm|wt v g1 ws s g2 u x wu k Hm Hg1 Hg2 Hs Hu Hk];
    destruct (reads_moment wt v Hm) as (p & Hp & Hv).
  - eexists. split.
    + unfold g_time. apply reads_compound. apply (reads_exact _ _ (wt ++ "")); [apply sapp_nil_r|].
      apply (reads_cat mrest _ _ _ _ _ [p] []); [exact Hp|apply reads_opt2|].
      * intros m rest (g & s' & -> & Hg). rewrite cat_run, (reads_w g Hg m ("=>" ++ s')) by done.
        rewrite cat_run.
        assert (E : peg_run m g_sign ("=>" ++ s') = None); [|by rewrite E].
        apply (dead_on_sound (Ascii.eqb "=")); [vm_compute; reflexivity|done].
      * intros rest (g & s' & -> & Hg). exists g, ("=>" ++ s'). split; [done|]. split; [done|]. by eexists _, _.
    + exists p, []. by split_and!.
  - destruct (reads_num u x Hu) as (pu & Hpu & _ & _ & Hxu).
    assert (Hsign : reads_on (fun _ => True) g_sign ws [Pair r_sign ws []]).
    { unfold g_sign. apply reads_compound. destruct Hs as [[-> _]|[-> _]]; [apply reads_alt1, reads_lit|].
      apply reads_alt2; [|apply reads_lit]. intros m rest _. by with_strategy transparent [peg_run] reflexivity. }
    assert (Hunit : exists q, reads_on (fun _ => True) (Alt g_ms g_second) (u ++ wu) [q] /\
       p_rule q = (if String.eqb wu "_ms" then r_ms else r_second) /\ p_in q = [pu]).
    { destruct Hk as [[-> _]|[-> _]].
      - exists (Pair r_ms (u ++ "_ms") [pu]). split; [|split; [reflexivity|reflexivity]]. apply reads_alt1. unfold g_ms. apply reads_compound.
        apply (reads_cat (nohead num_char) _ _ _ _ "_ms" [pu] []); [exact Hpu| |done].
        apply (reads_cat (fun _ => True) _ _ _ "_" "ms" [] []); [apply reads_lit|apply reads_lit|done].
      - exists (Pair r_second (u ++ "_s") [pu]). split; [|split; [reflexivity|reflexivity]]. apply reads_alt2.
        + intros m rest _. unfold g_ms. rewrite rul_run, cat_run, sapp_assoc, (Hpu true ("_s" ++ rest)) by done.
          assert (E : peg_run true (Cat (t "_") (t "ms")) ("_s" ++ rest) = None); [|by rewrite E].
          by with_strategy transparent [peg_run] reflexivity.
        + unfold g_second. apply reads_compound. apply (reads_cat (nohead num_char) _ _ _ _ "_s" [pu] []); [exact Hpu| |done].
          apply (reads_cat (fun _ => True) _ _ _ "_" "s" [] []); [apply reads_lit|apply reads_lit|done]. }
    destruct Hunit as (q & Hq & Hqr & Hqi). eexists. split.
    + unfold g_time. apply reads_compound. apply (reads_cat mrest _ _ _ _ _ [p] [Pair r_sign ws []; q]); [exact Hp|apply reads_opt1|].
      * apply (reads_cat (nohead is_white) _ _ _ _ _ [] [Pair r_sign ws []; q]); [by apply reads_w| |].
        -- apply (reads_cat (fun _ => True) _ _ _ _ _ [Pair r_sign ws []] [q]); [exact Hsign| |done].
           apply (reads_cat (nohead is_white) _ _ _ _ _ [] [q]); [by apply reads_w|by eapply reads_weaken; [|exact Hq]|].
           intros rest _. rewrite sapp_assoc. destruct (number_head _ _ Hu) as (ch & r & -> & Hc). rewrite sapp_cons. cbn [nohead].
           pose proof (by_chars (fun ch => if sign_digit ch then negb (is_white ch) else true) ltac:(vm_compute; reflexivity) ch) as H1.
           cbv beta in H1. rewrite Hc in H1. by apply negb_true_iff in H1.
        -- intros rest _. destruct Hs as [[-> _]|[-> _]]; done.
      * intros rest _. exists g1, (ws ++ g2 ++ u ++ wu ++ rest). split; [by rewrite !sapp_assoc|]. split; [done|].
        destruct Hs as [[-> _]|[-> _]]; by eexists _, _.
    + exists p, [Pair r_sign ws []; q]. split; [done|]. split; [done|]. unfold p_offset, next_f32. cbn [p_text next bind].
      rewrite Hqr, Hqi. destruct Hk as [[-> ->]|[-> ->]]; cbn [String.eqb Ascii.eqb Bool.eqb]; cbn [next bind]; rewrite Hxu; cbn [bind];
        destruct Hs as [[-> ->]|[-> ->]]; done.
Qed.

Lemma time_head wt tl : time_word wt tl -> begins sign_digit wt.
Proof.
  assert (Hm : forall w v, moment w v -> begins sign_digit w).
  { intros w v [H|H]; [by eapply number_head|]. destruct H as (w1 & v1 & g1 & g2 & w2 & v2 & H1 & _ & _ & _ & -> & _).
    destruct (int_head _ _ H1) as (ch & s & -> & Hc). rewrite sapp_cons. by eexists _, _. }
  intros [w v H|w v g1 ws s g2 u x wu k H]; [by eapply Hm|]. destruct (Hm _ _ H) as (ch & r & -> & Hc). rewrite sapp_cons. by eexists _, _.
Qed.
(** What follows a point: the next point or the closing bracket. *)
Definition point_follow (ch : ascii) : bool := (sign_digit ch || Ascii.eqb ch "]")%bool.
Lemma reads_point w p g : point_word w p -> white g ->
  exists q, reads_on (fun rest => begins point_follow rest /\ (g = "" -> nohead num_char rest)) g_point (w ++ g) [q] /\ p_point q = Done p.
Proof.
  intros (wt & g1 & g2 & u & Ht & Hg1 & Hg2 & Hu & ->) Hg. destruct p as [tl v]. cbn [fst snd] in *.
  destruct (reads_time wt tl Ht) as (pt & Hpt & b & l & Hi & Hb & Ho). destruct (reads_num u v Hu) as (pu & Hpu & _ & _ & Hv).
  exists (Pair r_point (wt ++ g1 ++ "=>" ++ g2 ++ u ++ g) [pt; pu]). split.
  - unfold g_point. apply (reads_exact _ _ (wt ++ g1 ++ "=>" ++ g2 ++ u ++ g)); [by rewrite !sapp_assoc|].
    apply reads_compound. apply (reads_cat trest _ _ _ _ _ [pt] [pu]); [exact Hpt| |].
    + apply (reads_cat (nohead is_white) _ _ _ _ _ [] [pu]); [by apply reads_w| |done].
      apply (reads_cat (fun _ => True) _ _ _ _ _ [] [pu]); [apply reads_lit| |done].
      apply (reads_cat (nohead is_white) _ _ _ _ _ [] [pu]); [by apply reads_w| |].
      * apply (reads_cat (nohead num_char) _ _ _ _ _ [pu] []); [exact Hpu| |].
        -- eapply reads_weaken; [|by apply reads_w]. intros rest [Hf _]. destruct Hf as (ch & s & -> & Hc).
           pose proof (by_chars (fun ch => if point_follow ch then negb (is_white ch) else true) ltac:(vm_compute; reflexivity) ch) as H1.
           cbv beta in H1. rewrite Hc in H1. by apply negb_true_iff in H1.
        -- intros rest [_ Hn]. apply white_nohead; wh.
      * intros rest _. rewrite sapp_assoc. destruct (number_head _ _ Hu) as (ch & r & -> & Hc). rewrite sapp_cons. cbn [nohead].
        pose proof (by_chars (fun ch => if sign_digit ch then negb (is_white ch) else true) ltac:(vm_compute; reflexivity) ch) as H1.
        cbv beta in H1. rewrite Hc in H1. by apply negb_true_iff in H1.
    + intros rest _. exists g1, (g2 ++ u ++ g ++ rest). split; [|done]. rewrite !sapp_assoc. done.
  - unfold p_point, next_f32. cbn [p_in next bind]. rewrite Hi. cbn [next bind]. rewrite Hb. cbn [bind]. rewrite Ho. cbn [bind].
    rewrite Hv. by destruct tl.
Qed.
Lemma point_head w p : point_word w p -> begins sign_digit w.
Proof.
  intros (wt & g1 & g2 & u & Ht & _ & _ & _ & ->). destruct (time_head _ _ Ht) as (ch & s & -> & Hc). rewrite sapp_cons. by eexists _, _.
Qed.
Lemma point_list_head b l rest : point_list b l -> begins (Ascii.eqb "]") rest -> begins point_follow (b ++ rest).
Proof.
  intros H (ch & s & -> & Hc). destruct H as [|w p g Hw Hg|w p g b l Hw Hg Hn Hl].
  - exists ch, s. split; [done|]. apply Ascii.eqb_eq in Hc as <-. done.
  - destruct (point_head _ _ Hw) as (ch' & s' & -> & Hc'). rewrite !sapp_cons. eexists _, _. split; [done|]. unfold point_follow. by rewrite Hc'.
  - destruct (point_head _ _ Hw) as (ch' & s' & -> & Hc'). rewrite !sapp_cons. eexists _, _. split; [done|]. unfold point_follow. by rewrite Hc'.
Qed.
Lemma reads_point_list b l : point_list b l ->
  exists qs, reads_on (begins (Ascii.eqb "]")) (Star g_point) b qs /\ collect p_point qs = Done l.
Proof.
  induction 1 as [|w p g Hw Hg|w p g b l Hw Hg Hn Hl IH].
  - exists []. split; [|done]. apply reads_star_nil. intros m rest (ch & s & -> & Hc). apply (dead_on_sound (Ascii.eqb "]")); [vm_compute; reflexivity|done].
  - destruct (reads_point w p g Hw Hg) as (q & Hq & Hp). exists [q]. split.
    + apply (reads_exact _ _ ((w ++ g) ++ "")); [by rewrite sapp_nil_r|].
      apply (reads_star_cons _ _ _ _ _ [q] [] Hq).
      * destruct (point_head _ _ Hw) as (ch & s & -> & _). done.
      * apply reads_star_nil. intros m rest (ch & s & -> & Hc). apply (dead_on_sound (Ascii.eqb "]")); [vm_compute; reflexivity|done].
      * intros rest (ch & s & -> & Hc). apply Ascii.eqb_eq in Hc as <-. split; [by eexists _, _|done].
    + cbn [collect]. by rewrite Hp.
  - destruct (reads_point w p g Hw Hg) as (q & Hq & Hp). destruct IH as (qs & Hqs & Hps). exists (q :: qs). split.
    + apply (reads_exact _ _ ((w ++ g) ++ b)); [by rewrite sapp_assoc|].
      apply (reads_star_cons _ _ _ _ _ [q] qs Hq).
      * destruct (point_head _ _ Hw) as (ch & s & -> & _). done.
      * exact Hqs.
      * intros rest Hr. split; [by eapply point_list_head|done].
    + cbn [collect]. by rewrite Hp, Hps.
Qed.
Lemma reads_points_inner g0 b l : white g0 -> point_list b l ->
  exists q, reads_on (fun _ => True) g_points_inner ("[" ++ g0 ++ b ++ "]") [q] /\ collect p_point (p_in q) = Done l.
Proof.
  intros Hg Hb. destruct (reads_point_list b l Hb) as (qs & Hq & Hl). exists (Pair r_points_inner ("[" ++ g0 ++ b ++ "]") qs). split; [|done].
  unfold g_points_inner. apply reads_compound. apply (reads_cat (fun _ => True) _ _ _ "[" _ [] qs); [apply reads_lit| |done].
  apply (reads_cat (nohead is_white) _ _ _ _ _ [] qs); [by apply reads_w| |].
  - rewrite <- (app_nil_r qs). apply (reads_cat (begins (Ascii.eqb "]")) _ _ _ _ _ qs []); [exact Hq| |intros; by eexists _, _].
    apply (reads_cat (nohead is_white) _ _ _ "" "]" [] []); [by apply reads_w|apply reads_lit|done].
  - intros rest _. rewrite sapp_assoc. destruct (point_list_head b l ("]" ++ rest) Hb) as (ch & s & E & Hc); [by eexists _, _|].
    rewrite E. cbn [nohead].
    pose proof (by_chars (fun ch => if point_follow ch then negb (is_white ch) else true) ltac:(vm_compute; reflexivity) ch) as H1.
    cbv beta in H1. rewrite Hc in H1. by apply negb_true_iff in H1.
Qed.
Lemma reads_span w : span_word w -> exists p, reads_on (nohead num_char) g_math_expression w [p] /\ p_rule p = r_math_expression /\ p_text p = w.
Proof.
  intros (op & g & x & v & Ho & Hg & -> & Hx).
  assert (Hop : reads_on (fun _ => True) (Alt (t "/") (t "*")) op []).
  { apply elem_of_cons in Ho as [->|Ho]; [apply reads_alt1, reads_lit|]. apply elem_of_list_singleton in Ho as ->.
    apply reads_alt2; [|apply reads_lit]. intros m rest _. by with_strategy transparent [peg_run] reflexivity. }
  assert (Hval : exists q, reads_on (nohead num_char) (Alt g_number (Cat (t "(") (Cat g_bar (t ")")))) x [q]).
  { destruct Hx as [Hx|(r & Hr & ->)].
    - destruct (reads_num x v Hx) as (q & Hq & _). exists q. by apply reads_alt1.
    - destruct (reads_ratio r v Hr) as (q & Hq & _). exists q. apply reads_alt2.
      + intros m rest _. apply (dead_on_sound (Ascii.eqb "(")); [vm_compute; reflexivity|done].
      + apply (reads_cat (fun _ => True) _ _ _ "(" _ [] [q]); [apply reads_lit| |done].
        apply (reads_cat (nohead int_char) _ _ _ r ")" [q] []); [exact Hq|apply reads_lit|done]. }
  destruct Hval as (q & Hq). exists (Pair r_math_expression (op ++ g ++ x) [q]). split; [|split; reflexivity]. unfold g_math_expression. apply reads_compound.
  apply (reads_cat (fun _ => True) _ _ _ op _ [] [q]); [exact Hop| |done].
  apply (reads_cat (nohead is_white) _ _ _ g x [] [q]); [by apply reads_w|exact Hq|].
  intros rest _. destruct Hx as [Hx|(r & Hr & ->)]; [|done].
  destruct (number_head _ _ Hx) as (ch & s & -> & Hc). rewrite sapp_cons. cbn [nohead].
  pose proof (by_chars (fun ch => if sign_digit ch then negb (is_white ch) else true) ltac:(vm_compute; reflexivity) ch) as H1.
  cbv beta in H1. rewrite Hc in H1. by apply negb_true_iff in H1.
Qed.

Section more.
  Context (c : cfg) (math : string -> res f32).
  Notation means := (means c math).
  Ltac by_alt g := eapply (means_by _ _ _ g); [vm_compute; reflexivity|reflexivity|reflexivity|heads|apply reads_kw_seg; [kw1|]|].
  Ltac one g Ht := let t' := fresh "t" in sp g t' Ht; apply args_nil_inv in Ht as ->; rewrite sapp_nil_r.
  Ltac two g1 g2 Ht := let t1 := fresh "t" in let t2 := fresh "t" in
    sp g1 t1 Ht; sp g2 t2 Ht; apply args_nil_inv in Ht as ->; rewrite sapp_nil_r.

  Lemma m_psampler w evs span t : pattern_word w evs span -> args [w] t -> means ("psampler" ++ t) (CPSampler (PsPattern evs span)).
  Proof.
    intros Hw Ht. one g Ht. destruct (reads_pattern_alt w evs span Hw) as (p & Hp & Hr & Hv).
    by_alt g_psampler.
    - apply reads_ends, (seg dq_head); [done|by eapply pattern_head|vm_compute; reflexivity|exact Hp].
    - unfold p_component, p_psampler. cbn [p_rule p_in next bind]. rewrite Hr, Hv. done.
  Qed.
  Lemma m_psampler_event w evs t : quoted w evs -> args [w] t -> means ("psampler" ++ t) (CPSampler (PsEvent evs)).
  Proof.
    intros Hw Ht. one g Ht. destruct (reads_event_alt w evs Hw) as (p & Hp & Hr & l & Hv).
    by_alt g_psampler.
    - apply reads_ends, (seg dq_head); [done|by eapply quoted_head|vm_compute; reflexivity|exact Hp].
    - unfold p_component, p_psampler. cbn [p_rule p_in next bind]. rewrite Hr, Hv. done.
  Qed.
  Lemma lpf_alt g w p : space g -> begins dq_head w -> reads_on stop (Alt g_pattern g_event) w [p] ->
    reads_on stop (Cat W1 (Cat no_name (Alt g_number (Alt g_reference (Alt g_pattern g_event))))) (g ++ w) [p].
  Proof.
    intros Hg Hw Hp. apply (seg dq_head); [done|done|vm_compute; reflexivity|]. apply reads_guard.
    - intros m rest _. apply (dead_app dq_head); [vm_compute; reflexivity|done].
    - apply reads_alt2; [|apply reads_alt2; [|exact Hp]]; intros m rest _; (apply (dead_app dq_head); [vm_compute; reflexivity|done]).
  Qed.
  Lemma m_lpf_pattern w evs span w2 v2 t : pattern_word w evs span -> number w2 v2 -> args [w; w2] t ->
    means ("lpf" ++ t) (CLpf (SigPattern evs span) v2).
  Proof.
    intros H1 H2 Ht. two g1 g2 Ht. destruct (reads_pattern_alt w evs span H1) as (p1 & Hp1 & Hr1 & Hv1).
    apply (lpf_alt g1) in Hp1; [|done|by eapply pattern_head].
    destruct (seg_num (Alt g_node_name g_reference) g2 w2 v2 ltac:(gd) G0 H2) as (p2 & Hp2 & Hv2). apply reads_ends in Hp2.
    by_alt g_lpf; [apply lpf_reads; [exact Hp1|exact Hp2|stops]|].
    destruct Hv2 as (_ & _ & Hv2). unfold p_component, next_signal, next_f32. cbn [p_rule p_in next bind]. rewrite Hr1, Hv1. cbn [bind next]. by rewrite Hv2.
  Qed.
  Lemma m_lpf_event w evs w2 v2 t : quoted w evs -> number w2 v2 -> args [w; w2] t ->
    means ("lpf" ++ t) (CLpf (SigEvent evs) v2).
  Proof.
    intros H1 H2 Ht. two g1 g2 Ht. destruct (reads_event_alt w evs H1) as (p1 & Hp1 & Hr1 & l & Hv1).
    apply (lpf_alt g1) in Hp1; [|done|by eapply quoted_head].
    destruct (seg_num (Alt g_node_name g_reference) g2 w2 v2 ltac:(gd) G0 H2) as (p2 & Hp2 & Hv2). apply reads_ends in Hp2.
    by_alt g_lpf; [apply lpf_reads; [exact Hp1|exact Hp2|stops]|].
    destruct Hv2 as (_ & _ & Hv2). unfold p_component, next_signal, next_f32. cbn [p_rule p_in next bind]. rewrite Hr1, Hv1. cbn [bind next]. by rewrite Hv2.
  Qed.
  Lemma m_expr w code t : code_word w code -> args [w] t -> means ("expr" ++ t) (CExpr code).
  Proof.
    intros Hw Ht. one g Ht. by_alt g_expr.
    - apply reads_ends. apply (reads_cat (nohead is_white) _ _ _ _ _ [] [Pair r_code w [Pair r_inner code []]]).
      + by apply reads_w1.
      + eapply reads_weaken; [|by apply reads_code]. done.
      + intros rest _. destruct Hw as [-> _]. done.
    - unfold p_component, code_of, p_code. cbn [p_rule p_in next bind p_text app]. by rewrite (strip_ends_code _ _ Hw).
  Qed.
  Lemma natural_u32 w n : natural c w n -> (n < 2 ^ 32)%Z -> parse_u32 w = Some n.
  Proof.
    intros (sg & ds & Hs & Hd & Hn & -> & -> & Hu) Hlt.
    assert (Hc : natural {| debug := false; umax := 4294967295 |} (sg ++ ds) (Z.of_N (digits_val 0 ds))).
    { exists sg, ds. cbn. split_and!; try done. lia. }
    destruct (natural_literal _ _ _ Hc) as (l & _ & _ & _ & E). exact E.
  Qed.
  Lemma m_adc w n t : natural c w n -> (n < 2 ^ 32)%Z -> args [w] t -> means ("adc" ++ t) (CAdc n).
  Proof.
    intros Hn Hlt Ht. one g Ht. destruct (natural_number c w n Hn) as (v & Hv & _).
    destruct (seg_num g_node_name g w v ltac:(gd) G Hv) as (p & Hp & _ & Et & _). apply reads_ends in Hp.
    by_alt g_adc; [exact Hp|]. unfold p_component. cbn [p_rule p_in next bind]. rewrite Et, (natural_u32 w n Hn Hlt). done.
  Qed.
  Lemma m_plain w : free_name w -> String.prefix "get" w = false -> means w (CGet w).
  Proof.
    intros Hf Hg. destruct (reads_ref w (free_is_name _ Hf)) as (p & H & Hr & Et). apply reads_ends in H.
    destruct Hf as (pre & Hn & Hres). destruct (String.eqb_spec pre "") as [->|Hne]; [|by eapply m_bare].
    specialize (Hres eq_refl).
    assert (Hkw : forall q rest, sall not_stop q = true -> existsb (fun k => String.prefix k q) ("get" :: reserved) = true -> stop rest ->
      strip q (w ++ rest) = None).
    { intros q rest Hq Hex Hs. apply prefix_strip; [done|done|]. apply existsb_exists in Hex as (k & Hk & Hpk).
      apply (prefix_trans k); [done|]. apply elem_of_list_In in Hk. apply elem_of_cons in Hk as [->|Hk]; [done|by apply Hres]. }
    exists (Pair r_node w [Pair r_get w [p]]). split; [|split; [done|]].
    2: { unfold p_node, p_component. cbn [p_in next bind p_rule]. by rewrite Et. }
    change g_node with (Rul Peg.Compound r_node node_alts). apply reads_compound1. intros rest Hs.
    apply (firsts_fail true get_pos node_alts (default [] (firsts get_pos node_alts)) (w ++ rest)).
    - vm_compute. reflexivity.
    - intros q Hq. apply Hkw; [| |by apply ends_stop].
      + assert (forallb (sall not_stop) (default [] (firsts get_pos node_alts)) = true) as Hall by (vm_compute; reflexivity).
        rewrite forallb_forall in Hall. by apply Hall, elem_of_list_In.
      + assert (forallb (fun q => existsb (fun k => String.prefix k q) ("get" :: reserved)) (default [] (firsts get_pos node_alts)) = true) as Hall
          by (vm_compute; reflexivity).
        rewrite forallb_forall in Hall. by apply Hall, elem_of_list_In.
    - rewrite get_at. unfold g_get. rewrite rul_run.
      assert (E : peg_run true (Cat (Opt (Cat (t "get") W1)) (Cat no_name g_reference)) (w ++ rest) = Some ([p], w, rest)).
      { assert (Hf : free_name w) by (by exists ""). rewrite cat_run.
        assert (E1 : peg_run true (Opt (Cat (t "get") W1)) (w ++ rest) = Some ([], "", w ++ rest)).
        { assert (E0 : peg_run true (Cat (t "get") W1) (w ++ rest) = None).
          { apply (openers_fail true _ ["get"]); [done|]. intros q Hq. apply elem_of_list_singleton in Hq as ->.
            apply Hkw; [done|done|by apply ends_stop]. }
          revert E0. generalize (Cat (t "get") W1). intros e E0. with_strategy transparent [peg_run] cbn [peg_run]. by rewrite E0. }
        rewrite E1. pose proof (reads_guard ends g_node_name g_reference w [p]) as Hgd. unfold no_name. rewrite (Hgd); [done| |exact H|exact Hs].
        intros m r Hr'. apply free_no_name; [done|by apply ends_stop]. }
      by rewrite E.
  Qed.

  Lemma reads_bang : reads_on (fun _ => True) (Opt g_is_looping) "!" [Pair r_is_looping "!" []].
  Proof. apply reads_opt1. unfold g_is_looping. apply reads_compound, reads_lit. Qed.
  Lemma m_points g0 body pts g1 : white g0 -> point_list body pts -> white g1 ->
    means ("[" ++ g0 ++ body ++ "]" ++ g1 ++ "!") (CPoints pts f1 true).
  Proof.
    intros Hg0 Hb Hg1. destruct (reads_points_inner g0 body pts Hg0 Hb) as (q & Hq & Hl).
    assert (H : reads_on (fun _ => True) (Cat g_points_inner (Cat Grammar.w (Cat (Opt g_math_expression) (Cat Grammar.w (Opt g_is_looping)))))
      (("[" ++ g0 ++ body ++ "]") ++ g1 ++ "!") [q; Pair r_is_looping "!" []]).
    { apply (reads_cat (fun _ => True) _ _ _ _ _ [q] [Pair r_is_looping "!" []]); [exact Hq| |done].
      apply (reads_cat (nohead is_white) _ _ _ g1 "!" [] [Pair r_is_looping "!" []]); [by apply reads_w| |done].
      apply (reads_cat (begins (Ascii.eqb "!")) _ _ _ "" "!" [] [Pair r_is_looping "!" []]);
        [apply reads_opt2; intros m rest (ch & s & -> & Hc); apply (dead_on_sound (Ascii.eqb "!")); [vm_compute; reflexivity|done]| |intros; by eexists _, _].
      apply (reads_cat (nohead is_white) _ _ _ "" "!" [] [Pair r_is_looping "!" []]); [by apply reads_w|apply reads_bang|done]. }
    eapply (means_by1 _ _ any_head _ g_points); [vm_compute; reflexivity|reflexivity|reflexivity|intros; apply any_head_spec| |].
    - intros rest _. specialize (H true rest I). rewrite !sapp_assoc in H. rewrite !sapp_assoc. exact H.
    - unfold p_component, p_points. cbn [p_rule p_in next bind]. by rewrite Hl.
  Qed.
  Lemma m_points_span g0 body pts g1 x v g2 : white g0 -> point_list body pts -> white g1 -> span_word x -> white g2 ->
    math ("1" ++ x) = Ok v ->
    means ("[" ++ g0 ++ body ++ "]" ++ g1 ++ x ++ g2 ++ "!") (CPoints pts v true).
  Proof.
    intros Hg0 Hb Hg1 Hx Hg2 Hv. destruct (reads_points_inner g0 body pts Hg0 Hb) as (q & Hq & Hl).
    destruct (reads_span x Hx) as (p & Hp & Hr & Ht).
    assert (H : reads_on (fun _ => True) (Cat g_points_inner (Cat Grammar.w (Cat (Opt g_math_expression) (Cat Grammar.w (Opt g_is_looping)))))
      (("[" ++ g0 ++ body ++ "]") ++ g1 ++ x ++ g2 ++ "!") [q; p; Pair r_is_looping "!" []]).
    { apply (reads_cat (fun _ => True) _ _ _ _ _ [q] [p; Pair r_is_looping "!" []]); [exact Hq| |done].
      apply (reads_cat (nohead is_white) _ _ _ g1 _ [] [p; Pair r_is_looping "!" []]); [by apply reads_w| |].
      - apply (reads_cat (nohead num_char) _ _ _ x _ [p] [Pair r_is_looping "!" []]); [by apply reads_opt1| |].
        + apply (reads_cat (nohead is_white) _ _ _ g2 "!" [] [Pair r_is_looping "!" []]); [by apply reads_w|apply reads_bang|done].
        + intros rest _. rewrite sapp_assoc. apply white_nohead; wh.
      - intros rest _. destruct Hx as (op & g & y & v' & Ho & _ & -> & _).
        apply elem_of_cons in Ho as [->|Ho]; [done|]. by apply elem_of_list_singleton in Ho as ->. }
    eapply (means_by1 _ _ any_head _ g_points); [vm_compute; reflexivity|reflexivity|reflexivity|intros; apply any_head_spec| |].
    - intros rest _. specialize (H true rest I). rewrite !sapp_assoc in H. rewrite !sapp_assoc. exact H.
    - unfold p_component, p_points. cbn [p_rule p_in next bind]. rewrite Hr, Ht. 
      change (append "1" x) with ("1" ++ x). rewrite Hv. cbn [bind]. by rewrite Hl.
  Qed.

  (** ** Every node is read *)
  Theorem node_means kw ws k t : spells c math kw ws k -> args ws t -> means (kw ++ t) k.
  Proof.
    intros H Ht. destruct H.
    - by eapply m_one_arg.
    - by eapply m_one_num.
    - by eapply m_two_num.
    - by eapply m_arg_and_num.
    - by eapply m_lpf_num.
    - by eapply m_lpf_ref.
    - by eapply m_delayn.
    - by eapply m_delayn_ref.
    - by eapply m_noise.
    - by eapply m_adsr.
    - by eapply m_reverb.
    - by eapply m_get.
    - apply args_nil_inv in Ht as ->. rewrite sapp_nil_r. by eapply m_bare.
    - by eapply m_balance.
    - by eapply m_mix.
    - by eapply m_arrange.
    - by eapply m_choose.
    - by eapply m_sp.
    - by eapply m_seq.
    - by eapply m_meta.
    - by eapply m_msgsynth.
    - by eapply m_psynth.
    - by eapply m_psampler.
    - by eapply m_psampler_event.
    - by eapply m_lpf_pattern.
    - by eapply m_lpf_event.
    - by eapply m_expr.
    - by eapply m_adc.
    - apply args_nil_inv in Ht as ->. rewrite sapp_nil_r. by eapply m_plain.
    - apply args_nil_inv in Ht as ->. rewrite sapp_nil_r. by eapply m_points.
    - apply args_nil_inv in Ht as ->. rewrite sapp_nil_r. by eapply m_points_span.
  Qed.
End more.

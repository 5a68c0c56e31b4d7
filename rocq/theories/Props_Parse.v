(** * Props_Parse: C50, C51, C54 — what [get_ast] does with every text. *)
From Verif Require Export Parse PegProofs.
Local Open Scope string_scope.

(** ** C54. *)

(** The grammar repeats no expression that accepts the empty text. *)
Lemma g_block_productive : productive g_block = true.
Proof. vm_compute. reflexivity. Qed.

(** pest comes to an end on every text, with one result. *)
Theorem C54_parser_terminates (code : string) :
  exists r, derives true g_block code r /\ forall r', derives true g_block code r' -> r' = r.
Proof.
  exists (peg_run true g_block code). split.
  - apply peg_run_derives, g_block_productive.
  - intros r' H. symmetry. by apply (peg_run_exact _ g_block_productive).
Qed.

Lemma collect_crash {A B} (f : A -> outcome B) l : collect f l = Crash -> exists x, x ∈ l /\ f x = Crash.
Proof.
  induction l as [|x l IH]; [done|]. simpl. destruct (f x) eqn:E; simpl; try done.
  - destruct (collect f l); simpl; try done. intros _. destruct IH as (y & Hy & Ey); [done|].
    exists y. split; [by right|done].
  - intros _. exists x. split; [by left|done].
Qed.

(** Nothing but [CodeBlock] and the length of a point list can panic. *)
Section nocrash.
  Context (c : cfg) (math : string -> res f32).
  Ltac nc := unfold bind; repeat (case_match; try done; subst; simplify_eq).
  Lemma of_option_nc {A} (o : option A) : of_option o <> Crash. Proof. by destruct o. Qed.
  Lemma pf32_nc p : pf32 p <> Crash. Proof. apply of_option_nc. Qed.
  Lemma pusize_nc p : pusize c p <> Crash. Proof. apply of_option_nc. Qed.
  Lemma next_nc l : next l <> Crash. Proof. by destruct l. Qed.
  Lemma next_f32_nc l : next_f32 l <> Crash.
  Proof. destruct l as [|p l]; [done|]. unfold next_f32; simpl. pose proof (pf32_nc p). by destruct (pf32 p). Qed.
  Lemma p_numref_nc p : p_numref p <> Crash.
  Proof. unfold p_numref. pose proof (pf32_nc p). by destruct (p_rule p), (pf32 p). Qed.
  Lemma bind_nc {A B} (o : outcome A) (k : A -> outcome B) :
    o <> Crash -> (forall a, o = Done a -> k a <> Crash) -> bind o k <> Crash.
  Proof. destruct o; simpl; auto. Qed.
  Lemma collect_nc {A B} (f : A -> outcome B) l : (forall x, f x <> Crash) -> collect f l <> Crash.
  Proof. intros H E. apply collect_crash in E as (x & _ & E). by apply (H x). Qed.
  Ltac step := apply bind_nc; [|intros; repeat case_match; subst].
  Ltac go := repeat first
    [ done | apply collect_nc; intros | apply next_f32_nc | apply pf32_nc | apply next_nc | apply p_numref_nc | apply pusize_nc
    | apply of_option_nc | (apply bind_nc; [|intros; repeat case_match; subst]) ].
  Lemma p_offset_nc l : p_offset l <> Crash.
  Proof. destruct l as [|sg l]; [done|]. unfold p_offset. apply bind_nc; [apply next_nc|]. intros [s l'] _.
    destruct (p_rule s); try done; go. Qed.
  Lemma p_bar_nc l : p_bar l <> Crash.
  Proof. unfold p_bar. destruct (p_rule l); try done; go. Qed.
  Lemma p_point_nc p : p_point p <> Crash.
  Proof.
    unfold p_point. apply bind_nc; [apply next_nc|]. intros [tm l1] _.
    apply bind_nc; [apply next_nc|]. intros [b l2] _.
    apply bind_nc; [apply p_bar_nc|]. intros bar _. apply bind_nc; [apply p_offset_nc|]. intros off _. go.
  Qed.
  Lemma p_valtime_nc p : p_valtime p <> Crash.
  Proof.
    unfold p_valtime. apply bind_nc; [apply next_nc|]. intros [v l1] _.
    apply bind_nc; [destruct (p_rule v); try done; go|]. intros value _. go.
  Qed.
  Lemma p_evinner_nc l : p_evinner l <> Crash.
  Proof.
    unfold p_evinner. apply bind_nc; [apply next_nc|]. intros [b l1] _.
    apply bind_nc; [apply collect_nc, p_valtime_nc|done].
  Qed.
  Lemma p_pattern_nc l : p_pattern l <> Crash.
  Proof.
    unfold p_pattern. apply bind_nc; [apply p_evinner_nc|]. intros [ev [|s l1]] _; [done|]. go.
  Qed.
  Ltac go1 := repeat first
    [ done | apply p_evinner_nc | apply p_pattern_nc | apply next_f32_nc | apply pf32_nc | apply next_nc
    | apply p_numref_nc | apply pusize_nc | apply of_option_nc
    | (apply collect_nc; intros)
    | (apply bind_nc; [|intros; repeat case_match; subst]) ].
  Lemma next_signal_nc l : next_signal l <> Crash.
  Proof.
    unfold next_signal. apply bind_nc; [apply next_nc|]. intros [p l1] _.
    apply bind_nc; [|done]. destruct (p_rule p); try done; go1.
  Qed.
  Lemma p_psampler_nc l : p_psampler l <> Crash.
  Proof.
    unfold p_psampler. apply bind_nc; [apply next_nc|]. intros [p l1] _.
    destruct (p_rule p); try done; go1.
  Qed.
  Lemma p_element_nc m i j el : p_element c m i j el <> Crash.
  Proof.
    unfold p_element. apply bind_nc; [apply next_nc|]. intros [e l1] _. destruct (p_rule e); try done; go1.
  Qed.
  Lemma p_seq_nc l : p_seq c l <> Crash.
  Proof.
    unfold p_seq. apply bind_nc; [apply next_nc|]. intros [p l1] _.
    apply bind_nc; [|done]. apply collect_nc. intros ic. unfold p_compound.
    apply bind_nc; [|done]. apply collect_nc. intros je. apply p_element_nc.
  Qed.

  Ltac go2 := repeat first
    [ done | apply p_point_nc | apply p_seq_nc | apply next_signal_nc | apply p_psampler_nc | apply p_evinner_nc | apply p_pattern_nc | apply next_f32_nc | apply pf32_nc | apply next_nc
    | apply p_numref_nc | apply pusize_nc | apply of_option_nc
    | (apply collect_nc; intros)
    | (apply bind_nc; [|intros; repeat case_match; subst]) ].
  (** The components that can panic, and on what. *)
  Lemma p_component_crash p : p_component c math p = Crash ->
    (p_rule p = r_points /\ exists x, x ∈ p_in p /\ math (append "1" (p_text x)) = Panic) \/
    ((p_rule p = r_meta \/ p_rule p = r_expr \/ p_rule p = r_eval) /\
     exists x l, p_in p = x :: l /\ String.length (p_text x) < 2)%nat.
  Proof.
    assert (Hcode : forall k, code_of k (p_in p) = Crash ->
              exists x l, p_in p = x :: l /\ (String.length (p_text x) < 2)%nat).
    { intros k H. unfold code_of, p_code in H. destruct (p_in p) as [|x l]; [done|]. exists x, l.
      split; [done|]. unfold bind, strip_ends in H. simpl in H.
      destruct (p_text x) as [|a1 [|a2 s]]; simpl; [lia|lia|done]. }
    unfold p_component. intros H. destruct (p_rule p) eqn:Er; try done.
    all: try (right; split; [by auto|by eapply Hcode]).
    all: try (exfalso; revert H; fold not; unfold one_numref, one_f32, two_f32, next_numref, next_usizeref; go2; fail).
    - left. split; [done|]. unfold p_points in H. destruct (p_in p) as [|pts l]; [done|].
      simpl in H. destruct l as [|m l].
      + simpl in H. exfalso. revert H. go2.
      + destruct (p_rule m) eqn:Em; try done.
        * destruct (math (append "1" (p_text m))) eqn:E; [|exists m; split; [by right; left|done]].
          simpl in H. exfalso. revert H. go2.
        * simpl in H. exfalso. revert H. go2.
  Qed.
End nocrash.

(** ** The shape of the pairs of an accepted text. *)
Lemma newline_cr m r : peg_run m newline (String "013" r) <> None.
Proof. unfold newline, t, peg_run, lf, cr. cbn. by destruct (strip _ _). Qed.
Local Opaque peg_run.


(** A pair made by the compound rule [r] with body [a]. *)
Definition made_by (r : rule) (a : G) (p : tree) : Prop :=
  exists s s', p_rule p = r /\ peg_run true a s = Some (p_in p, p_text p, s').
Lemma compound_made m r a s p t s' : peg_run m (Rul Compound r a) s = Some (p, t, s') ->
  exists q, p = [q] /\ p_text q = t /\ made_by r a q.
Proof.
  intros H. apply run_compound in H as (l & H & ->). exists (Pair r t l). split; [done|]. split; [done|].
  by exists s, s'.
Qed.
Lemma ok_made r a : pairs_ok (made_by r a) (Rul Compound r a).
Proof. intros m s p t s' H. apply compound_made in H as (q & -> & _ & H). by constructor. Qed.

Lemma W_none m s p t s' : peg_run m W s = Some (p, t, s') -> p = [] /\ sall is_blank t = true.
Proof.
  intros H. pattern p, t, s'. eapply run_star_ind; [| |exact H]; cbv beta; [done|].
  intros s0 p1 t1 s1 p2 t2 s2 H1 [-> H2] _. apply run_silent in H1.
  assert (p1 = [] /\ sall is_blank t1 = true) as [-> Ht].
  { repeat (apply run_alt in H1 as [H1|[_ H1]]; [apply run_lit in H1 as (-> & -> & _); done|]).
    apply run_lit in H1 as (-> & -> & _). done. }
  split; [done|]. clear H1 H. induction t1 as [|c t1 IH]; [done|]. simpl in *.
  destruct (is_blank c); [|done]. by apply IH.
Qed.

(** The text between lines: blanks, newlines, semicolons and comments. *)
Definition is_nl (c : ascii) : bool := (Ascii.eqb c "010" || Ascii.eqb c "013")%bool.
Inductive gap : string -> Prop :=
| gap_nil : gap ""
| gap_char c s : (is_blank c || Ascii.eqb c "010" || Ascii.eqb c ";")%bool = true -> gap s -> gap (String c s)
| gap_comment b n s : sall (fun c => negb (is_nl c)) b = true -> sall is_nl n = true -> gap s ->
                      gap ("//" ++ b ++ n ++ s).
Lemma gap_app a b : gap a -> gap b -> gap (a ++ b).
Proof.
  induction 1 as [|c s Hc Hs IH|b' n s Hb Hn Hs IH]; intros H; [done|rewrite sapp_cons; constructor; auto|].
  rewrite !sapp_assoc. apply (gap_comment b' n (s ++ b)); auto.
Qed.
Lemma gap_blanks t : sall is_blank t = true -> gap t.
Proof.
  induction t as [|c t IH]; simpl; [constructor|]. destruct (is_blank c) eqn:E; [|done]. intros H.
  constructor; [by rewrite E|by apply IH].
Qed.
Lemma sall_app f a b : sall f (a ++ b) = (sall f a && sall f b)%bool.
Proof. induction a as [|c a IH]; [done|]. rewrite sapp_cons. cbn [sall]. rewrite IH. by destruct (f c). Qed.

Lemma W_gap m s p t s' : peg_run m W s = Some (p, t, s') -> p = [] /\ gap t.
Proof. intros H. apply W_none in H as [-> H]. split; [done|by apply gap_blanks]. Qed.
Lemma newline_inv m s p t s' : peg_run m newline s = Some (p, t, s') -> p = [] /\ sall is_nl t = true.
Proof.
  intros H. repeat (apply run_alt in H as [H|[_ H]]; [by apply run_lit in H as (-> & -> & _)|]).
  by apply run_lit in H as (-> & -> & _).
Qed.
Lemma comment_gap m s p t s' : peg_run m g_comment s = Some (p, t, s') -> p = [] /\ gap t.
Proof.
  intros H. apply run_silent in H. apply run_cat in H as (p1 & t1 & s1 & p2 & t2 & H1 & H2 & -> & ->).
  apply run_cat in H2 as (p3 & t3 & s3 & p4 & t4 & H3 & H4 & -> & ->).
  apply run_cat in H4 as (p5 & t5 & s5 & p6 & t6 & H5 & H6 & -> & ->).
  apply run_lit in H1 as (-> & -> & _). apply run_not in H6 as (_ & -> & -> & ->).
  assert (p3 = [] /\ sall (fun c => negb (is_nl c)) t3 = true) as [-> Ht3].
  { pattern p3, t3, s3. eapply run_star_ind; [| |exact H3]; cbv beta; [done|].
    intros s0 q1 u1 r1 q2 u2 r2 Ha [-> Hu] _. apply run_cat in Ha as (? & ? & ? & ? & ? & Hn & Ha & -> & ->).
    apply run_not in Hn as (Hn & -> & -> & ->). apply run_chr in Ha as (c & -> & -> & -> & _).
    split; [done|]. simpl. rewrite Hu, andb_true_r.
    unfold is_nl. destruct (Ascii.eqb c "010") eqn:E1; [apply Ascii.eqb_eq in E1 as ->; by vm_compute in Hn|].
    destruct (Ascii.eqb c "013") eqn:E2; [|done]. apply Ascii.eqb_eq in E2 as ->.
    by apply newline_cr in Hn. }
  assert (p5 = [] /\ sall is_nl t5 = true) as [-> Ht5].
  { pattern p5, t5, s5. eapply run_star_ind; [| |exact H5]; cbv beta; [done|].
    intros s0 q1 u1 r1 q2 u2 r2 Ha [-> Hu] _. apply newline_inv in Ha as [-> Ha].
    split; [done|]. by rewrite sall_app, Ha, Hu. }
  split; [done|]. apply (gap_comment t3 t5 ""); [done|done|constructor].
Qed.

(** One item: a line or a comment, and the separators after it. *)
Lemma item_inv m s p t s' : peg_run m item s = Some (p, t, s') ->
  (p = [] /\ gap t) \/
  (exists q l g, p = [q] /\ t = l ++ g /\ gap g /\ peg_run m g_line s = Some ([q], l, g ++ s')).
Proof.
  intros H. assert (Hs := peg_split _ _ _ _ _ _ H).
  apply run_cat in H as (p1 & t1 & s1 & p2 & t2 & H1 & H2 & -> & ->).
  assert (Hs1 := peg_split _ _ _ _ _ _ H2).
  assert (p2 = [] /\ gap t2) as [-> Hg].
  { apply run_cat in H2 as (q1 & u1 & r1 & q2 & u2 & Ha & Hb & -> & ->).
    apply run_cat in Hb as (q3 & u3 & r3 & q4 & u4 & Hb & Hc & -> & ->).
    apply run_cat in Hc as (q5 & u5 & r5 & q6 & u6 & Hc & Hd & -> & ->).
    apply W_gap in Ha as [-> Ha]. apply W_gap in Hc as [-> Hc].
    assert (q3 = [] /\ gap u3) as [-> Hb'].
    { apply run_opt in Hb as [Hb|(_ & -> & -> & _)]; [|by split; [|constructor]].
      apply run_lit in Hb as (-> & -> & _). split; [done|]. constructor; [done|constructor]. }
    assert (q6 = [] /\ gap u6) as [-> Hd'].
    { pattern q6, u6, s'. eapply run_star_ind; [| |exact Hd]; cbv beta; [by split; [|constructor]|].
      intros ? k1 v1 ? k2 v2 ? He [-> Hv] _. apply run_cat in He as (? & ? & ? & ? & ? & He & Hf & -> & ->).
      apply run_lit in He as (-> & -> & _). apply W_gap in Hf as [-> Hf]. split; [done|].
      constructor; [done|]. by apply gap_app. }
    split; [done|]. repeat apply gap_app; done. }
  rewrite app_nil_r. apply run_alt in H1 as [H1|[_ H1]].
  - right. destruct (compound_made _ _ _ _ _ _ _ H1) as (q & -> & Hq & _). exists q, t1, t2.
    split; [done|]. split; [done|]. split; [done|]. by rewrite <- Hs1.
  - left. apply comment_gap in H1 as [-> H1]. split; [done|by apply gap_app].
Qed.

(** The text is its lines with gaps before, between and after them. *)
Inductive laid_out : string -> list string -> Prop :=
| laid_end g : gap g -> laid_out g []
| laid_line g l rest ls : gap g -> laid_out rest ls -> laid_out (g ++ l ++ rest) (l :: ls).
Lemma laid_gap g t ls : gap g -> laid_out t ls -> laid_out (g ++ t) ls.
Proof.
  intros Hg H. destruct H as [g' Hg'|g' l rest ls Hg' H]; [constructor; by apply gap_app|].
  rewrite <- sapp_assoc. constructor; [by apply gap_app|done].
Qed.

Lemma block_inv code p t s' : peg_run true g_block code = Some (p, t, s') ->
  exists lps, p = [Pair r_block code lps] /\ laid_out code (List.map p_text lps) /\
    Forall (fun q => exists rest, part_of (p_text q ++ rest) code /\
                       peg_run true g_line (p_text q ++ rest) = Some ([q], p_text q, rest)) lps.
Proof.
  intros H. assert (Hs := peg_split _ _ _ _ _ _ H). apply run_compound in H as (lps & H & ->).
  apply run_cat in H as (p1 & t1 & s1 & p2 & t2 & H1 & H2 & -> & ->).
  apply run_cat in H2 as (p3 & t3 & s3 & p4 & t4 & H3 & H4 & -> & ->).
  apply run_eoi in H4 as (-> & -> & -> & ->). rewrite sapp_nil_r in Hs.
  rewrite !sapp_nil_r in *. rewrite app_nil_r.
  assert (p1 = [] /\ gap t1) as [-> Hg].
  { pattern p1, t1, s1. eapply run_star_ind; [| |exact H1]; cbv beta; [by split; [|constructor]|].
    intros ? k1 v1 ? k2 v2 ? He [-> Hv] _. apply run_alt in He as [He|[_ He]].
    - apply run_lit in He as (-> & -> & _). split; [done|]. by constructor.
    - apply run_silent in He. assert (k1 = [] /\ gap v1) as [-> Hv1].
      { repeat (apply run_alt in He as [He|[_ He]];
          [apply run_lit in He as (-> & -> & _); split; [done|]; constructor; [done|constructor]|]).
        apply run_lit in He as (-> & -> & _); split; [done|]; constructor; [done|constructor]. }
      split; [done|by apply gap_app]. }
  exists p3. cbn [app]. split; [by rewrite Hs|].
  assert (laid_out t3 (List.map p_text p3) /\
          Forall (fun q => exists rest, part_of (p_text q ++ rest) (t3 ++ "") /\
                    peg_run true g_line (p_text q ++ rest) = Some ([q], p_text q, rest)) p3) as [Hl Hf].
  { pattern p3, t3, "". eapply run_star_ind; [| |exact H3]; cbv beta.
    - split; [repeat constructor|constructor].
    - intros s0 k1 v1 r1 k2 v2 r2 Ha [Hl Hf] Hr.
      assert (Hs0 := peg_split _ _ _ _ _ _ Ha).
      apply item_inv in Ha as [[-> Ha]|(q & l & g & -> & -> & Hg' & Ha)].
      + split; [by apply laid_gap|]. eapply Forall_impl; [done|]. intros q (rest & Hp & Hq).
        exists rest. split; [|done]. rewrite sapp_assoc. by apply part_r.
      + destruct (compound_made _ _ _ _ _ _ _ Ha) as (q' & [= <-] & Hq & _).
        split.
        * rewrite sapp_assoc. simpl. rewrite Hq. apply (laid_line "" l); [constructor|by apply laid_gap].
        * constructor.
          -- exists (g ++ r1). rewrite Hq. split.
             ++ rewrite Hr, !sapp_assoc. apply part_refl.
             ++ rewrite <- Ha. f_equal. by rewrite Hs0, sapp_assoc.
          -- eapply Forall_impl; [done|]. intros q1 (rest & Hp & Hq1).
             exists rest. split; [|done]. rewrite !sapp_assoc. by apply part_r, part_r. }
  rewrite sapp_nil_r in Hf. rewrite Hs. split; [by apply laid_gap|].
  eapply Forall_impl; [exact Hf|]. intros q (rest & Hp & Hq). exists rest. split; [by apply part_r|done].
Qed.

(** The separators of arguments: space, comma, bar, tab and newline. *)
Definition is_sep (c : ascii) : bool := (is_blank c || Ascii.eqb c "010")%bool.
(** What is known of the pair of a node. *)
Definition node_ok (p : tree) : Prop :=
  match p_rule p with
  | r_meta | r_expr => exists x l, p_in p = x :: l /\ (2 <= String.length (p_text x))%nat
  | r_eval => exists x w, p_in p = [x] /\ p_text p = "eval" ++ w ++ "`" ++ p_text x ++ "`" /\
                       sall is_sep w = true
  | _ => Forall (fun x => part_of (p_text x) (p_text p)) (p_in p)
  end.
Lemma ws_inv m s p t s' : peg_run m g_ws s = Some (p, t, s') -> p = [] /\ sall is_sep t = true.
Proof.
  intros H. apply run_silent in H.
  repeat (apply run_alt in H as [H|[_ H]]; [by apply run_lit in H as (-> & -> & _)|]).
  by apply run_lit in H as (-> & -> & _).
Qed.
Lemma w1_inv m s p t s' : peg_run m w1 s = Some (p, t, s') -> p = [] /\ sall is_sep t = true.
Proof.
  intros H. apply run_cat in H as (p1 & t1 & s1 & p2 & t2 & H1 & H2 & -> & ->).
  apply ws_inv in H1 as [-> H1].
  assert (p2 = [] /\ sall is_sep t2 = true) as [-> H3].
  { pattern p2, t2, s'. eapply run_star_ind; [| |exact H2]; cbv beta; [done|].
    intros ? q1 u1 ? q2 u2 ? Hq [-> Hu] _. apply ws_inv in Hq as [-> Hq].
    split; [done|]. by rewrite sall_app, Hq, Hu. }
  split; [done|]. by rewrite sall_app, H1, H3.
Qed.
Lemma many1_none m (a : G) : (forall s p t s', peg_run m a s = Some (p, t, s') -> p = []) ->
  forall s p t s', peg_run m (many1 a) s = Some (p, t, s') -> p = [].
Proof.
  intros Ha s p t s' H. apply run_cat in H as (p1 & t1 & s1 & p2 & t2 & H1 & H2 & -> & ->).
  apply Ha in H1 as ->. simpl. pattern p2, t2, s'. eapply run_star_ind; [| |exact H2]; cbv beta; [done|].
  intros ? q1 ? ? q2 ? ? Hq -> _. by apply Ha in Hq as ->.
Qed.
Lemma whitespace_none m s p t s' : peg_run m g_whitespace s = Some (p, t, s') -> p = [].
Proof.
  intros H. apply run_silent in H.
  repeat (apply run_alt in H as [H|[_ H]]; [by apply run_lit in H as (-> & _)|]).
  by apply run_lit in H as (-> & _).
Qed.
Lemma code_inv m s p t s' : peg_run m g_code s = Some (p, t, s') ->
  exists x, p = [x] /\ p_text x = t /\ (2 <= String.length t)%nat /\ p_rule x = r_code.
Proof.
  intros H. destruct (compound_made _ _ _ _ _ _ _ H) as (x & -> & <- & (s1 & s2 & Hr & H1)).
  exists x. split; [done|]. split; [done|]. split; [|done].
  apply run_cat in H1 as (p1 & t1 & s3 & p2 & t2 & H1 & H2 & _ & ->).
  apply run_cat in H2 as (p3 & t3 & s4 & p4 & t4 & H2 & H3 & _ & ->).
  apply run_lit in H1 as (_ & -> & _). apply run_lit in H3 as (_ & -> & _).
  rewrite !sapp_length. simpl. lia.
Qed.
Local Opaque pairs_ok.
Lemma node_inner_ok :
  pairs_ok node_ok (match g_node with Rul _ _ a => a | a => a end).
Proof.
  unfold g_node. cbv iota.
  repeat match goal with |- pairs_ok _ (Alt _ _) => apply ok_alt end.
  all: match goal with |- pairs_ok _ ?g => unfold g; apply ok_rul; [|intros Hk; by destruct Hk] end.
  all: intros m s p t0 s' H; unfold node_ok; cbn [p_rule p_in p_text].
  all: try (eapply run_parts; exact H).
  - (* expr *)
    apply run_cat in H as (p1 & t1 & s1 & p2 & t2 & H1 & H2 & -> & ->). apply run_lit in H1 as (-> & -> & _).
    apply run_cat in H2 as (p3 & t3 & s3 & p4 & t4 & H3 & H4 & -> & ->).
    apply w1_inv in H3 as [-> _]. apply code_inv in H4 as (x & -> & <- & Hl & _).
    exists x, []. by split.
  - (* eval *)
    apply run_cat in H as (p1 & t1 & s1 & p2 & t2 & H1 & H2 & -> & ->). apply run_lit in H1 as (-> & -> & _).
    apply run_cat in H2 as (p3 & t3 & s3 & p4 & t4 & H3 & H4 & -> & ->).
    apply w1_inv in H3 as [-> Hw].
    apply run_cat in H4 as (p5 & t5 & s5 & p6 & t6 & H5 & H6 & -> & ->). apply run_lit in H5 as (-> & -> & _).
    apply run_cat in H6 as (p7 & t7 & s7 & p8 & t8 & H7 & H8 & -> & ->). apply run_lit in H8 as (-> & -> & _).
    destruct (compound_made _ _ _ _ _ _ _ H7) as (x & -> & <- & _).
    exists x, t3. by split.
  - (* meta *)
    apply run_cat in H as (p1 & t1 & s1 & p2 & t2 & H1 & H2 & -> & ->).
    assert (p1 = []) as -> by (apply run_alt in H1 as [H1|[_ H1]]; by apply run_lit in H1 as (-> & -> & _)).
    apply run_cat in H2 as (p3 & t3 & s3 & p4 & t4 & H3 & H4 & -> & ->).
    apply (many1_none _ _ (whitespace_none _)) in H3 as ->. apply code_inv in H4 as (x & -> & <- & Hl & _).
    exists x, []. by split.
Qed.

(** The pair of a node of a chain: one pair inside, of the same text. *)
Definition chain_node_ok (q : tree) : Prop :=
  exists n, p_rule q = r_node /\ p_in q = [n] /\ p_text n = p_text q /\ node_ok n.
Lemma alts_one (l : list G) :
  (forall a, a ∈ l -> forall m s p t s', peg_run m a s = Some (p, t, s') -> exists x, p = [x] /\ p_text x = t) ->
  forall m s p t s', peg_run m (fold_right Alt (Not Eps) l) s = Some (p, t, s') -> exists x, p = [x] /\ p_text x = t.
Proof.
  induction l as [|a l IH]; intros Ha m s p t s' H; [done|]. cbn [fold_right] in H.
  apply run_alt in H as [H|[_ H]].
  - eapply Ha; [by left|done].
  - eapply IH; [|done]. intros b Hb. apply Ha. by right.
Qed.
Lemma node_inv m s p t s' : peg_run m g_node s = Some (p, t, s') ->
  exists q, p = [q] /\ p_text q = t /\ chain_node_ok q.
Proof.
  intros H. apply run_compound in H as (l & H & ->). eexists. split; [done|]. split; [done|].
  assert (Hok := node_inner_ok _ _ _ _ _ H).
  assert (exists x, l = [x] /\ p_text x = t) as (x & -> & Ht).
  { clear Hok.
    repeat (match type of H with peg_run _ (Alt _ _) _ = _ => apply run_alt in H as [H|[_ H]] end;
      [destruct (compound_made _ _ _ _ _ _ _ H) as (x & -> & Ht & _); by exists x|]).
    destruct (compound_made _ _ _ _ _ _ _ H) as (x & -> & Ht & _). by exists x. }
  exists x. split; [done|]. split; [done|]. split; [done|]. by apply Forall_inv in Hok.
Qed.
Lemma chain_inv m s p t s' : peg_run m g_chain s = Some (p, t, s') ->
  exists ch, p = [ch] /\ p_text ch = t /\ p_rule ch = r_chain /\ p_in ch <> [] /\
    Forall (fun q => chain_node_ok q /\ part_of (p_text q) t) (p_in ch).
Proof.
  intros H. apply run_compound in H as (l & H & ->). eexists. split; [done|]. split; [done|]. split; [done|].
  assert (Hp := run_parts _ _ _ _ _ _ H). cbn [p_in].
  apply run_cat in H as (p1 & t1 & s1 & p2 & t2 & H1 & H2 & -> & ->).
  apply node_inv in H1 as (q & -> & <- & Hq). split; [done|].
  assert (Forall chain_node_ok p2).
  { clear Hp. pattern p2, t2, s'. eapply run_star_ind; [| |exact H2]; cbv beta; [constructor|].
    intros ? k1 v1 ? k2 v2 ? Ha Hk _. apply Forall_app. split; [|done]. clear Hk.
    apply run_cat in Ha as (q1 & u1 & r1 & q2 & u2 & Ha & Hb & -> & ->).
    apply run_cat in Hb as (q3 & u3 & r3 & q4 & u4 & Hb & Hc & -> & ->).
    apply run_cat in Hc as (q5 & u5 & r5 & q6 & u6 & Hc & Hd & -> & ->).
    apply W_gap in Ha as [-> _]. apply W_gap in Hc as [-> _].
    assert (q3 = []) as ->.
    { apply run_opt in Hb as [Hb|(_ & -> & _)]; [|done]. by apply run_lit in Hb as (-> & _). }
    simpl. apply run_alt in Hd as [Hd|[_ Hd]]; [|by apply comment_gap in Hd as [-> _]].
    apply run_cat in Hd as (q7 & u7 & r7 & q8 & u8 & Hd & He & -> & ->). apply run_lit in Hd as (-> & _).
    apply run_cat in He as (q9 & u9 & r9 & q10 & u10 & He & Hf & -> & ->). apply W_gap in He as [-> _].
    apply node_inv in Hf as (q' & -> & _ & Hq'). by constructor. }
  apply Forall_forall. intros x Hx. split.
  - rewrite Forall_forall in H. apply elem_of_app in Hx as [Hx|Hx]; [|by apply H].
    apply elem_of_list_singleton in Hx as ->. done.
  - rewrite Forall_forall in Hp. by apply Hp.
Qed.
Lemma line_inv m s p t s' : peg_run m g_line s = Some (p, t, s') ->
  exists nm ch w1 w2, p = [Pair r_line t [nm; ch]] /\ p_rule nm = r_reference /\ p_rule ch = r_chain /\
    t = p_text nm ++ w1 ++ ":" ++ w2 ++ p_text ch /\ sall is_blank w1 = true /\ sall is_blank w2 = true /\
    p_in ch <> [] /\ Forall (fun q => chain_node_ok q /\ part_of (p_text q) (p_text ch)) (p_in ch).
Proof.
  intros H. apply run_compound in H as (l & H & ->).
  apply run_cat in H as (p1 & t1 & s1 & p2 & t2 & H1 & H2 & -> & ->).
  destruct (compound_made _ _ _ _ _ _ _ H1) as (nm & -> & <- & (? & ? & Hr & _)).
  apply run_cat in H2 as (p3 & t3 & s3 & p4 & t4 & H3 & H4 & -> & ->). apply W_none in H3 as [-> Hw1].
  apply run_cat in H4 as (p5 & t5 & s5 & p6 & t6 & H5 & H6 & -> & ->). apply run_lit in H5 as (-> & -> & _).
  apply run_cat in H6 as (p7 & t7 & s7 & p8 & t8 & H7 & H8 & -> & ->). apply W_none in H7 as [-> Hw2].
  apply chain_inv in H8 as (ch & -> & <- & Hc & Hn & Hf).
  exists nm, ch, t3, t7. done.
Qed.

(** ** What [get_ast] makes of the lines. *)
Definition line_ok (q : tree) : Prop :=
  exists nm ch, p_rule q = r_line /\ p_in q = [nm; ch] /\ p_rule nm = r_reference /\ p_rule ch = r_chain /\
    part_of (p_text ch) (p_text q) /\ p_in ch <> [] /\
    Forall (fun x => chain_node_ok x /\ part_of (p_text x) (p_text ch)) (p_in ch).
Lemma block_lines code p t s' : peg_run true g_block code = Some (p, t, s') ->
  exists lps, p = [Pair r_block code lps] /\ laid_out code (List.map p_text lps) /\
    List.filter (is_rule r_line) lps = lps /\
    Forall (fun q => line_ok q /\ part_of (p_text q) code /\
              exists rest, peg_run true g_line (p_text q ++ rest) = Some ([q], p_text q, rest)) lps.
Proof.
  intros H. apply block_inv in H as (lps & -> & Hl & Hf). exists lps. split; [done|]. split; [done|].
  assert (Hf' : Forall (fun q => line_ok q /\ part_of (p_text q) code /\
              exists rest, peg_run true g_line (p_text q ++ rest) = Some ([q], p_text q, rest)) lps).
  { eapply Forall_impl; [exact Hf|]. intros q (rest & Hp & Hq). split; [|split].
    - apply line_inv in Hq as (nm & ch & w1 & w2 & E & Hn & Hc & Ht & _ & _ & Hne & Hfo).
      exists nm, ch. injection E as ->. cbn [p_rule p_in p_text] in *. repeat split; try done.
      rewrite Ht. do 4 apply part_r. apply part_refl.
    - destruct Hp as (u & v & ->). exists u, (rest ++ v). by rewrite !sapp_assoc.
    - by exists rest. }
  split; [|done]. clear Hf Hl. induction Hf' as [|q l ((nm & ch & Hr & _) & _) _ IH]; [done|].
  cbn [List.filter]. unfold is_rule at 1. rewrite bool_decide_true by done. by rewrite IH.
Qed.

Lemma collect_done {A B} (f : A -> outcome B) l bs : collect f l = Done bs -> Forall2 (fun x b => f x = Done b) l bs.
Proof.
  revert bs. induction l as [|x l IH]; intros bs; simpl; [intros [= <-]; constructor|].
  destruct (f x) eqn:E; simpl; try done. destruct (collect f l); simpl; try done.
  intros [= <-]. constructor; auto.
Qed.

Section whole.
  Context (c : cfg) (math : string -> res f32).

  Lemma get_ast_done code ast : get_ast c math code = Done ast ->
    exists lps ls, peg_run true g_block code = Some ([Pair r_block code lps], code, "") /\
      laid_out code (List.map p_text lps) /\
      Forall2 (fun q b => p_line c math q = Done b) lps ls /\ ast = to_ast ls /\
      Forall (fun q => line_ok q /\ part_of (p_text q) code /\
              exists rest, peg_run true g_line (p_text q ++ rest) = Some ([q], p_text q, rest)) lps.
  Proof.
    unfold get_ast. destruct (peg_run true g_block code) as [[[p t] s']|] eqn:E; [|done].
    assert (s' = "") as ->.
    { assert (E' := E). apply run_compound in E' as (l & E' & _).
      apply run_cat in E' as (p1 & t1 & s1 & p2 & t2 & _ & H2 & _ & _).
      apply run_cat in H2 as (p3 & t3 & s3 & p4 & t4 & _ & H4 & _ & _). by apply run_eoi in H4 as (_ & _ & _ & ->). }
    assert (Hs := peg_split _ _ _ _ _ _ E). rewrite sapp_nil_r in Hs. subst t.
    destruct (block_lines _ _ _ _ E) as (lps & -> & Hl & Hfi & Hf). cbn [p_in]. rewrite Hfi.
    destruct (collect (p_line c math) lps) as [ls| |] eqn:Ec; simpl; try done. intros [= <-].
    exists lps, ls. split; [done|]. split; [done|]. split; [by apply collect_done|]. done.
  Qed.

  Lemma get_ast_crash code : get_ast c math code = Crash ->
    exists n, node_ok n /\ part_of (p_text n) code /\ p_component c math n = Crash.
  Proof.
    unfold get_ast. destruct (peg_run true g_block code) as [[[p t] s']|] eqn:E; [|done].
    destruct (block_lines _ _ _ _ E) as (lps & -> & Hl & Hfi & Hf). cbn [p_in]. rewrite Hfi.
    intros Hc. destruct (collect (p_line c math) lps) as [ls| |] eqn:Ec; simpl in Hc; try done.
    apply collect_crash in Ec as (q & Hq & Ec). rewrite Forall_forall in Hf.
    destruct (Hf q Hq) as ((nm & ch & Hr & Hi & Hn & Hch & Hpc & _ & Hfo) & Hpq & _).
    unfold p_line in Ec. rewrite Hi in Ec. cbn [next bind] in Ec. unfold is_rule in Ec.
    rewrite !bool_decide_true in Ec by done.
    destruct (collect (p_node c math) (p_in ch)) as [cs| |] eqn:En; simpl in Ec; try done.
    apply collect_crash in En as (x & Hx & En). rewrite Forall_forall in Hfo.
    destruct (Hfo x Hx) as [(n & Hrn & Hin & Htn & Hok) Hpx].
    exists n. split; [done|]. unfold p_node in En. rewrite Hin in En. simpl in En. split; [|done].
    rewrite Htn. eapply part_trans; [exact Hpx|]. by eapply part_trans.
  Qed.

  (** A panic comes from the length of a point list that fasteval rejects, or from an eval
      node with less than two bytes between its backquotes.  What is missing for the full
      claim is false: see [C54_parse_total_refuted]. *)
  Theorem C54_parse_total_partial code : get_ast c math code = Crash ->
    (exists x, part_of x code /\ math ("1" ++ x) = Panic) \/
    (exists w x, part_of ("eval" ++ w ++ "`" ++ x ++ "`") code /\ sall is_sep w = true /\
                 (String.length x < 2)%nat).
  Proof.
    intros H. apply get_ast_crash in H as (n & Hok & Hp & H).
    apply p_component_crash in H as [(Hr & x & Hx & Hm)|([Hr|[Hr|Hr]] & x & l & Hi & Hl)];
      unfold node_ok in Hok; rewrite Hr in Hok.
    - left. exists (p_text x). split; [|done]. rewrite Forall_forall in Hok. eapply part_trans; [by apply Hok|done].
    - destruct Hok as (x' & l' & Hi' & Hl'). rewrite Hi in Hi'. injection Hi' as <- <-. lia.
    - destruct Hok as (x' & l' & Hi' & Hl'). rewrite Hi in Hi'. injection Hi' as <- <-. lia.
    - destruct Hok as (x' & w & Hi' & Ht & Hw). rewrite Hi in Hi'. injection Hi' as <- ->.
      right. exists w, (p_text x). rewrite <- Ht. done.
  Qed.

  (** ** C51: the lines of the text, in order, make the program. *)

  (** [txt] is read as the line named [n] with the chain [cs]. *)
  Definition reads_as (txt : string) (line : string * list component) : Prop :=
    exists w1 w2 chain rest q,
      txt = line.1 ++ w1 ++ ":" ++ w2 ++ chain /\ sall is_blank w1 = true /\ sall is_blank w2 = true /\
      line.2 <> [] /\ peg_run true g_line (txt ++ rest) = Some ([q], txt, rest) /\
      p_line c math q = Done line.
  (** The last line with a name. *)
  Definition last_named {A} (n : string) (l : list (string * A)) : option A :=
    match List.find (fun kv => String.eqb kv.1 n) (rev l) with Some kv => Some kv.2 | None => None end.

  Lemma to_ast_lookup ls n : to_ast ls !! n = last_named n ls.
  Proof.
    unfold to_ast. pattern ls. apply rev_ind; [done|]. clear ls. intros [k cs] ls IH.
    rewrite fold_left_app. cbn [fold_left fst snd]. unfold last_named. rewrite rev_app_distr. cbn [rev app List.find fst snd].
    destruct (String.eqb k n) eqn:E.
    - apply String.eqb_eq in E as ->. by rewrite lookup_insert.
    - apply String.eqb_neq in E. rewrite lookup_insert_ne by done. exact IH.
  Qed.

  Theorem C51_no_line_dropped code ast : get_ast c math code = Done ast ->
    exists texts lines, laid_out code texts /\ Forall2 reads_as texts lines /\
      forall n, ast !! n = last_named n lines.
  Proof.
    intros H. apply get_ast_done in H as (lps & ls & _ & Hl & H2 & -> & Hf).
    exists (List.map p_text lps), ls. split; [done|]. split; [|apply to_ast_lookup].
    clear Hl. induction H2 as [|q [n cs] lps ls Hq H2 IH]; [constructor|].
    apply Forall_cons_1 in Hf as [(Hok & Hp & rest & Hr) Hf]. constructor; [|by apply IH].
    assert (Hr' := Hr). apply line_inv in Hr' as (nm & ch & w1 & w2 & E & Hn & Hc & Ht & Hw1 & Hw2 & Hne & Hfo).
    injection E as E. exists w1, w2, (p_text ch), rest, q.
    assert (n = p_text nm /\ cs <> []) as [-> Hcs].
    { unfold p_line in Hq. rewrite E in Hq. cbn [p_in next bind] in Hq. unfold is_rule in Hq.
      rewrite !bool_decide_true in Hq by done.
      destruct (collect (p_node c math) (p_in ch)) as [cs'| |] eqn:En; simpl in Hq; try done.
      injection Hq as <- <-. split; [done|]. apply collect_done in En. intros ->.
      by apply Forall2_nil_inv_r in En. }
    done.
  Qed.

  (** ** C50: eval drops the first and the last byte between its backquotes. *)
  Theorem C50_eval_code_partial code ast n cs k :
    get_ast c math code = Done ast -> ast !! n = Some cs -> CEval k ∈ cs ->
    exists w a b, sall is_sep w = true /\
      part_of ("eval" ++ w ++ "`" ++ String a (k ++ String b "") ++ "`") code.
  Proof.
    intros H Hn Hk. apply get_ast_done in H as (lps & ls & _ & _ & H2 & -> & Hf).
    rewrite to_ast_lookup in Hn. unfold last_named in Hn.
    destruct (List.find _ (rev ls)) as [[n' cs']|] eqn:Ef; [|done]. injection Hn as <-.
    apply find_some in Ef as [Hin _]. rewrite <- in_rev in Hin. apply elem_of_list_In in Hin.
    apply elem_of_list_lookup in Hin as [i Hi].
    destruct (Forall2_lookup_r _ _ _ _ _ H2 Hi) as (q & Hq & Hp).
    rewrite Forall_forall in Hf. apply elem_of_list_lookup_2 in Hq.
    destruct (Hf q Hq) as ((nm & ch & Hr & Hin & Hnm & Hch & Hpc & _ & Hfo) & Hpq & _).
    unfold p_line in Hp. rewrite Hin in Hp. cbn [next bind] in Hp. unfold is_rule in Hp.
    rewrite !bool_decide_true in Hp by done.
    destruct (collect (p_node c math) (p_in ch)) as [cs2| |] eqn:En; simpl in Hp; try done.
    injection Hp as _ ->. apply collect_done in En. cbn [snd] in Hk.
    apply elem_of_list_lookup in Hk as [j Hj].
    destruct (Forall2_lookup_r _ _ _ _ _ En Hj) as (x & Hx & Hxn). apply elem_of_list_lookup_2 in Hx.
    rewrite Forall_forall in Hfo. destruct (Hfo x Hx) as [(nd & Hrn & Hind & Htn & Hok) Hpx].
    unfold p_node in Hxn. rewrite Hind in Hxn. cbn [next bind] in Hxn.
    assert (p_rule nd = r_eval /\ code_of CEval (p_in nd) = Done (CEval k)) as [Hre Hco].
    { revert Hxn. clear. unfold p_component. destruct (p_rule nd); try (by intros); intros H; exfalso; revert H.
      all: unfold one_numref, one_f32, two_f32, code_of, p_seq, p_psampler, p_points, bind, err; repeat case_match; congruence. }
    unfold node_ok in Hok. rewrite Hre in Hok. destruct Hok as (cx & w & Hic & Ht & Hw).
    unfold code_of, p_code in Hco. rewrite Hic in Hco. cbn [next bind] in Hco.
    destruct (p_text cx) as [|a [|b0 s0]] eqn:Ecx; try done. cbn [strip_ends bind] in Hco. injection Hco as Hk.
    assert (exists b, String b0 s0 = k ++ String b "") as [b Hb].
    { subst k. clear. revert b0. induction s0 as [|c1 s0 IH]; intros b0; [by exists b0|].
      destruct (IH c1) as [b Hb]. exists b. cbn [String.length] in *.
      rewrite Nat.sub_0_r in *. rewrite sapp_cons. by f_equal. }
    exists w, a, b. split; [done|]. rewrite <- Hb, <- Ht, Htn. eapply part_trans; [exact Hpx|]. by eapply part_trans.
  Qed.
End whole.

(** The claims themselves are false. *)
Theorem C54_parse_total_refuted : exists code, forall c math, get_ast c math code = Crash.
Proof. exists "o: eval `x`". intros c math. vm_compute. reflexivity. Qed.

(** The code given to an eval node is never the text between its backquotes. *)
Theorem C50_eval_code_refuted : exists code inside ast cs k, forall c math,
  code = "o: eval `" ++ inside ++ "`" /\ get_ast c math code = Done ast /\
  ast !! "o" = Some cs /\ cs = [CEval k] /\ k <> inside.
Proof.
  exists "o: eval `sin(x)`", "sin(x)", {["o" := [CEval "in(x"]]}, [CEval "in(x"], "in(x".
  intros c math. split; [reflexivity|]. split; [vm_compute; reflexivity|].
  split; [vm_compute; reflexivity|]. split; [reflexivity|]. intros H. discriminate H.
Qed.

(** ** Examples: the hypotheses are met. *)
Definition no_math (_ : string) : res f32 := Panic.
Definition cfg64 : cfg := {| debug := false; umax := 18446744073709551615 |}.
Definition ast_list (o : outcome (gmap string (list component))) : outcome (list (string * list component)) :=
  match o with Done m => Done (map_to_list m) | Fail e => Fail e | Crash => Crash end.
Example ex_crash : get_ast cfg64 no_math "o: [0.0 => 1.0] *2.0" = Crash.
Proof. vm_compute. reflexivity. Qed.
Example ex_lines : exists ast, get_ast cfg64 no_math ("// one" ++ lf ++ "a: sig 1 ;; b : sig 2" ++ lf) = Fail ParsingError /\
  get_ast cfg64 no_math ("// one" ++ lf ++ "a: sig 1 ; b : sig 2" ++ lf ++ lf ++ "a: sig 3") = Done ast /\
  map_to_list ast = [("b", [CConstSig (f_of_Z 2)]); ("a", [CConstSig (f_of_Z 3)])].
Proof. eexists. split; [vm_compute; reflexivity|]. split; vm_compute; reflexivity. Qed.
Example ex_eval : ast_list (get_ast cfg64 no_math ("~e: eval ` a := sin(1.0); a * x `")) =
  Done [("~e", [CEval "a := sin(1.0); a * x"])].
Proof. vm_compute. reflexivity. Qed.

(** ** The repository's own parser tests (/repo/rs/parser/tests) hold of the model. *)
Example test_nodes :
  (ast_list (get_ast cfg64 no_math "o: delayn 8") = Done [("o", [CDelayn (Usz 8)])]) /\
  (ast_list (get_ast cfg64 no_math "o: delayn o") = Done [("o", [CDelayn (URef "o")])]) /\
  (ast_list (get_ast cfg64 no_math "o: delayn 0.5") = Fail ParsingError) /\
  (ast_list (get_ast cfg64 no_math "o: delayms 5") = Done [("o", [CDelayms (Num (f_of_Z 5))])]) /\
  (ast_list (get_ast cfg64 no_math "o: sin i") = Done [("o", [CSin (NRef "i")])]) /\
  (ast_list (get_ast cfg64 no_math "o: squ suq") = Done [("o", [CSqu (NRef "suq")])]) /\
  (ast_list (get_ast cfg64 no_math "o: saw 00.5") = Done [("o", [CSaw (Num fhalf)])]) /\
  (ast_list (get_ast cfg64 no_math "out: mix ~t.. ~drum..") = Done [("out", [CMix ["~t.."; "~drum.."]])]) /\
  (ast_list (get_ast cfg64 no_math "o: sp \808db") = Done [("o", [CSp "\808db"])]) /\
  (ast_list (get_ast cfg64 no_math "oo_: constsig 5.111") =
     Done [("oo_", [CConstSig (f_of_dec false 5111 (-3))])]) /\
  (ast_list (get_ast cfg64 no_math "b_b: adc 5") = Done [("b_b", [CAdc 5])]) /\
  (ast_list (get_ast cfg64 no_math "q: squsynth 1.000 300") = Done [("q", [CSquSynth f1 (f_of_Z 300)])]) /\
  (ast_list (get_ast cfg64 no_math "~l: lpf ~mod 1.0") = Done [("~l", [CLpf (SigRef "~mod") f1])]) /\
  (ast_list (get_ast cfg64 no_math "o0: balance ~llll right0") = Done [("o0", [CBalance "~llll" "right0"])]) /\
  (ast_list (get_ast cfg64 no_math "o: arrange ~t1 3 ~t2 1") =
     Done [("o", [CArrange [NRef "~t1"; Num (f_of_Z 3); NRef "~t2"; Num (f_of_Z 1)]])]).
Proof. repeat split; vm_compute; reflexivity. Qed.
Example test_seq :
  ast_list (get_ast cfg64 no_math "o: seq 60_ 1000_ 1010__10 ~a12_13_ ~r4 4") =
  Done [("o", [CSeq [(f0, Usz 60); (f1, Usz 1000); (f2, Usz 1010); (f_of_dec false 275 (-2), Usz 10);
                     (f_of_Z 3, URef "~a"); (f_of_dec false 32 (-1), Usz 12); (f_of_dec false 36 (-1), Usz 13);
                     (f_of_Z 4, URef "~r"); (f_of_dec false 45 (-1), Usz 4); (f_of_Z 5, Usz 4)]])].
Proof. vm_compute. reflexivity. Qed.
Example test_comments :
  ast_list (get_ast cfg64 no_math ("o: sin 440" ++ lf ++ "    // >> mul 0.5" ++ lf ++ "    >> mul 0.6")) =
  Done [("o", [CSin (Num (f_of_Z 440)); CMul (Num (f_of_dec false 6 (-1)))])].
Proof. vm_compute. reflexivity. Qed.

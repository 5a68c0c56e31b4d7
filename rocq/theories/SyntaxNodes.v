(** * SyntaxNodes: the grammar and the parser give every node of [Syntax] its meaning. *)
From Coq Require Import Lia Bool.
From Verif Require Export SyntaxProofs.
Local Open Scope nat_scope.
Local Open Scope string_scope.
Local Opaque W W1 peg_run.

Lemma cat_run m (a b : G) s : peg_run m (Cat a b) s =
  match peg_run m a s with
  | Some (p1, t1, s1) =>
      match peg_run m b s1 with
      | Some (p2, t2, s2) => Some ((p1 ++ p2)%list, t1 ++ t2, s2)
      | None => None
      end
  | None => None
  end.
Proof. with_strategy transparent [peg_run] reflexivity. Qed.

(** ** From an alternative to a node *)
Definition node_alts : G := match g_node with Rul _ _ a => a | _ => Eps end.
Lemma node_by os (alt : G) kw atxt p : pick node_alts kw os = alt ->
  (forall rest, shead (atxt ++ rest) ∈ os) ->
  (forall rest, ends rest -> peg_run true alt ((kw ++ atxt) ++ rest) = Some ([p], kw ++ atxt, rest)) ->
  reads_on ends g_node (kw ++ atxt) [Pair r_node (kw ++ atxt) [p]].
Proof.
  intros Hp Hb H m rest Hr. change g_node with (Rul Peg.Compound r_node node_alts).
  assert (E : peg_run true node_alts ((kw ++ atxt) ++ rest) = Some ([p], kw ++ atxt, rest)).
  { rewrite sapp_assoc. apply (pick_sound _ kw os); [apply Hb|]. rewrite Hp, <- sapp_assoc. by apply H. }
  with_strategy transparent [peg_run] cbn [peg_run]. by rewrite E.
Qed.
(** The node and its meaning. *)
Definition means (c : cfg) (math : string -> res f32) (txt : string) (k : component) : Prop :=
  exists q, reads_on ends g_node txt [q] /\ p_rule q = r_node /\ p_node c math q = Done k.
Lemma means_by1 c math os n (alt : G) r (body : G) kw atxt ps k : pick_pos node_alts kw os = n -> alt_at n node_alts = alt ->
  alt = Rul Peg.Compound r body ->
  (forall rest, shead (atxt ++ rest) ∈ os) ->
  (forall rest, ends rest -> peg_run true body ((kw ++ atxt) ++ rest) = Some (ps, kw ++ atxt, rest)) ->
  p_component c math (Pair r (kw ++ atxt) ps) = Done k ->
  means c math (kw ++ atxt) k.
Proof.
  intros Hn%pick_at Hp -> Hb H Hk. rewrite Hp in Hn. eexists. split; [|split].
  - eapply node_by; [exact Hn|exact Hb|]. intros rest Hr. with_strategy transparent [peg_run] cbn [peg_run]. by rewrite (H rest Hr).
  - done.
  - unfold p_node. cbn [p_in next bind]. exact Hk.
Qed.
Lemma means_by c math n (alt : G) r (body : G) kw atxt ps k : pick_pos node_alts kw blank_heads = n -> alt_at n node_alts = alt ->
  alt = Rul Peg.Compound r body ->
  (forall rest, shead (atxt ++ rest) ∈ blank_heads) ->
  reads_on ends body (kw ++ atxt) ps ->
  p_component c math (Pair r (kw ++ atxt) ps) = Done k ->
  means c math (kw ++ atxt) k.
Proof. intros Hn Hp Ha Hb H. eapply means_by1; [exact Hn|exact Hp|exact Ha|exact Hb|]. intros rest. apply H. Qed.
(** Keywords with two spellings. *)
Lemma reads_kw2 (Q : string -> Prop) a b : sim_fails true (t a) b any_head = true -> sim_fails false (t a) b any_head = true ->
  reads_on Q (Alt (t a) (t b)) b [].
Proof.
  intros H1 H2. apply reads_alt2; [|apply reads_lit]. intros m rest _.
  destruct m; [apply (sim_fails_sound _ _ _ _ _ H1)|apply (sim_fails_sound _ _ _ _ _ H2)]; apply any_head_spec.
Qed.
Lemma reads_kw_seg (Q : string -> Prop) (kwe e : G) kw atxt ps :
  reads_on (fun _ => True) kwe kw [] -> reads_on Q e atxt ps -> reads_on Q (Cat kwe e) (kw ++ atxt) ps.
Proof. intros H1 H2. by apply (reads_cat (fun _ => True) _ _ _ _ _ [] ps). Qed.
Lemma reads_segs (Q : string -> Prop) (a b : G) ta tb p ps : reads_on stop a ta [p] -> reads_on Q b tb ps ->
  (forall rest, Q rest -> stop (tb ++ rest)) -> reads_on Q (Cat a b) (ta ++ tb) (p :: ps).
Proof. intros H1 H2 H3. by apply (reads_cat stop _ _ _ _ _ [p] ps). Qed.
Lemma reads_ends (e : G) txt ps : reads_on stop e txt ps -> reads_on ends e txt ps.
Proof. apply reads_weaken. apply ends_stop. Qed.
Lemma args_inv w ws t : args (w :: ws) t -> exists g t', space g /\ args ws t' /\ t = (g ++ w) ++ t'.
Proof. intros H. inversion H; subst. eexists _, _. split_and!; [done|done|]. by rewrite sapp_assoc. Qed.
Lemma args_nil_inv t : args [] t -> t = "".
Proof. by inversion 1. Qed.
Ltac sp g t Ha := let Hg := fresh "G" in apply args_inv in Ha as (g & t & Hg & Ha & ->).
Lemma sapp2 g w t rest : (((g ++ w) ++ t) ++ rest) = g ++ (w ++ t ++ rest).
Proof. by rewrite !sapp_assoc. Qed.
Ltac heads := intros; rewrite ?sapp2; first [by apply space_head | rewrite ?sapp_assoc; by apply space_head].
Ltac stops := intros; rewrite ?sapp2; first [by apply space_stop | rewrite ?sapp_assoc; by apply space_stop | by apply ends_stop].
Ltac kw1 := first [apply reads_lit | apply reads_alt1, reads_lit | apply reads_kw2; vm_compute; reflexivity].
Ltac num_step := match goal with
    | H : p_numref ?p = Done _ |- context [p_numref ?p] => rewrite H
    | H : pf32 ?p = Done _ |- context [pf32 ?p] => rewrite H
    | H : pusize _ ?p = Done _ |- context [pusize _ ?p] => rewrite H
    | H : p_text ?p = _ |- context [p_text ?p] => rewrite H
    | H : p_rule ?p = _ |- context [p_rule ?p] => rewrite H
    end; cbn [next bind].
Ltac nums := repeat match goal with H : is_num _ _ _ |- _ => destruct H as (? & ? & ?) end;
  unfold p_component, one_numref, one_f32, two_f32, next_numref, next_f32, next_usizeref, next_signal;
  cbn [p_rule p_in next bind fst snd app]; repeat num_step; try done; unfold p_numref; repeat num_step; try done.
Ltac pick_in H := repeat (apply elem_of_cons in H as [H|H]; [injection H as -> ->|]); try by apply elem_of_nil in H.
Ltac gd := vm_compute; reflexivity.


Lemma reads_assoc (Q : string -> Prop) (a b d : G) txt ps : reads_on Q (Cat a (Cat b d)) txt ps -> reads_on Q (Cat (Cat a b) d) txt ps.
Proof.
  intros H m rest Hr. specialize (H m rest Hr). rewrite cat_run in H. rewrite cat_run, (cat_run m a b).
  destruct (peg_run m a (txt ++ rest)) as [[[p1 t1] s1]|]; [|done]. rewrite cat_run in H.
  destruct (peg_run m b s1) as [[[p2 t2] s2]|]; [|done]. cbv beta iota in H |- *.
  destruct (peg_run m d s2) as [[[p3 t3] s3]|]; [|done]. by rewrite sapp_assoc, <- app_assoc.
Qed.

Lemma reads_assoc' (Q : string -> Prop) (a b d : G) txt ps : reads_on Q (Cat (Cat a b) d) txt ps -> reads_on Q (Cat a (Cat b d)) txt ps.
Proof.
  intros H m rest Hr. specialize (H m rest Hr). rewrite cat_run, (cat_run m a b) in H. rewrite cat_run.
  destruct (peg_run m a (txt ++ rest)) as [[[p1 t1] s1]|]; [|done]. rewrite cat_run.
  destruct (peg_run m b s1) as [[[p2 t2] s2]|]; [|done]. cbv beta iota in H |- *.
  destruct (peg_run m d s2) as [[[p3 t3] s3]|]; [|done]. by rewrite sapp_assoc, <- app_assoc in H.
Qed.
(** Lists of words. *)
Lemma reads_words (e : G) (Pw : string -> Prop) (Rw : string -> tree -> Prop) :
  sim_fails true e "" end_heads = true -> sim_fails false e "" end_heads = true ->
  (forall g w, space g -> Pw w -> exists p, reads_on stop (Cat W1 e) (g ++ w) [p] /\ Rw w p) ->
  forall ws t, args ws t -> Forall Pw ws -> exists ps, reads_on ends (Star (Cat W1 e)) t ps /\ Forall2 Rw ws ps.
Proof.
  intros H1 H2 Hw. induction ws as [|w ws IH]; intros t Ht HF.
  - apply args_nil_inv in Ht as ->. exists []. split; [|constructor]. apply reads_star_nil. intros m rest Hr.
    apply no_more_words; [by destruct m|done].
  - sp g t' Ht. apply Forall_cons_1 in HF as [Hw0 HF]. destruct (Hw g w G Hw0) as (p & Hp & Rp).
    destruct (IH t' Ht HF) as (ps & Hps & HR). exists (p :: ps). split; [|by constructor].
    apply (reads_star_cons stop ends _ _ _ [p] ps); [done| |done|].
    + destruct G as [G _]. by destruct g.
    + intros rest Hr. inversion Ht; subst; [by apply ends_stop|]. rewrite !sapp_assoc. by apply space_stop.
Qed.
Lemma reads_words1 (e : G) (Pw : string -> Prop) (Rw : string -> tree -> Prop) :
  sim_fails true e "" end_heads = true -> sim_fails false e "" end_heads = true ->
  (forall g w, space g -> Pw w -> exists p, reads_on stop (Cat W1 e) (g ++ w) [p] /\ Rw w p) ->
  forall ws t, args ws t -> ws <> [] -> Forall Pw ws ->
  exists ps, reads_on ends (Cat W1 (Cat e (Star (Cat W1 e)))) t ps /\ Forall2 Rw ws ps.
Proof.
  intros H1 H2 Hw ws t Ht Hn HF. destruct ws as [|w ws]; [done|].
  sp g t' Ht. apply Forall_cons_1 in HF as [Hw0 HF]. destruct (Hw g w G Hw0) as (p & Hp & Rp).
  destruct (reads_words e Pw Rw H1 H2 Hw ws t' Ht HF) as (ps & Hps & HR). exists (p :: ps). split; [|by constructor].
  apply reads_assoc', reads_segs; [exact Hp|exact Hps|].
  intros rest Hr. inversion Ht; subst; [by apply ends_stop|]. rewrite !sapp_assoc. by apply space_stop.
Qed.

(** ** Symbols and code *)
Definition sym_head (ch : ascii) : bool := (Ascii.eqb ch "'" || Ascii.eqb ch "092")%bool.
Lemma symbol_head w : symbol w -> begins sym_head w.
Proof. intros (s & _ & _ & [-> | ->]); by eexists _, _. Qed.
Lemma sym_char_run m s : peg_run (R := rule) m symbol_char s = peg_run m (Chr is_symbol_char) s.
Proof.
  with_strategy transparent [peg_run] (unfold symbol_char, t, ascii_alphanumeric; cbn [peg_run]).
  destruct s as [|ch s]; [done|]. cbn [strip]. unfold is_symbol_char. fold (is_alnum ch).
  destruct (is_alnum ch); [done|]. cbn [orb].
  rewrite (Ascii.eqb_sym "_" ch), (Ascii.eqb_sym "-" ch).
  destruct (Ascii.eqb_spec ch "_") as [->|]; [done|]. cbn [orb]. by destruct (Ascii.eqb_spec ch "-") as [->|].
Qed.
Lemma reads_sym_chars s : s <> "" -> sall is_symbol_char s = true -> reads_on (nohead is_symbol_char) (many1 symbol_char) s [].
Proof.
  intros Hn Hs m rest Hr. unfold many1. rewrite (many1_ext _ _ (Chr is_symbol_char)) by apply sym_char_run. by apply reads_chars1.
Qed.
Lemma reads_symbol w : symbol w -> reads_on stop g_symbol w [Pair r_symbol w []].
Proof.
  intros (s & Hn & Hs & H). unfold g_symbol. apply reads_compound. destruct H as [-> | ->].
  - apply reads_alt1. apply (reads_cat (fun _ => True) _ _ _ _ _ [] []); [apply reads_lit| |done].
    apply (reads_cat (nohead is_symbol_char) _ _ _ _ _ [] []); [by apply reads_sym_chars|apply reads_lit|done].
  - apply reads_alt2.
    + intros m rest _. rewrite sapp_cons. apply (dead_on_sound (Ascii.eqb "092")); [vm_compute; reflexivity|done].
    + change (String "092" s) with (bslash ++ s). apply (reads_cat (fun _ => True) _ _ _ _ _ [] []); [apply reads_lit| |done].
      eapply reads_weaken; [|by apply reads_sym_chars]. intros rest. apply stop_nohead. vm_compute. reflexivity.
Qed.
Definition code_char (ch : ascii) : bool := negb (Ascii.eqb ch "096" || Ascii.eqb ch "092").
Lemma char_run ch s : code_char ch = true -> peg_run false g_char (String ch s) = Some ([], String ch "", s).
Proof.
  intros H. unfold code_char in H. apply negb_true_iff, orb_false_iff in H as [H1 H2].
  with_strategy transparent [peg_run] (unfold g_char, t, bquote, bslash, any; cbn [peg_run]). cbn [strip].
  by rewrite !(Ascii.eqb_sym _ ch), H1, H2.
Qed.
Lemma char_stop m s : peg_run m g_char (String "096" s) = None.
Proof. change (String "096" s) with (bquote ++ s). apply (sim_sound g_char m bquote s None). by destruct m. Qed.
Lemma chars_run code s : sall code_char code = true ->
  peg_run false (Star g_char) (code ++ String "096" s) = Some ([], code, String "096" s).
Proof.
  induction code as [|ch code IH]; intros H.
  - rewrite run_star. change ("" ++ ?x) with x. by rewrite char_stop.
  - cbn [sall] in H. apply andb_prop in H as [Hc H]. rewrite run_star, sapp_cons.
    rewrite (char_run ch _ Hc), (IH H). done.
Qed.
(** Inside a compound rule, pairs are made. *)
Lemma reads_compound1 (Q : string -> Prop) r (a : G) txt p : (forall rest, Q rest -> peg_run true a (txt ++ rest) = Some (p, txt, rest)) ->
  reads_on Q (Rul Peg.Compound r a) txt [Pair r txt p].
Proof. intros H m rest Hr. with_strategy transparent [peg_run] cbn [peg_run]. by rewrite (H _ Hr). Qed.
Lemma reads_code w code : code_word w code -> reads_on (fun _ => True) g_code w [Pair r_code w [Pair r_inner code []]].
Proof.
  intros [-> Hc]. unfold g_code. apply reads_compound1. intros rest _.
  rewrite sapp_cons, sapp_assoc. change (String "096" "" ++ rest) with (String "096" rest).
  unfold g_inner. pose proof (chars_run code rest Hc) as E. revert E. generalize (Star g_char). intros e E.
  with_strategy transparent [peg_run] (unfold t, bquote; cbn [peg_run strip]). rewrite Ascii.eqb_refl, E. cbn [strip].
  rewrite Ascii.eqb_refl. done.
Qed.
Definition bq_head (ch : ascii) : bool := Ascii.eqb ch "096".
Lemma code_head w code : code_word w code -> begins bq_head w.
Proof. intros [-> _]. by eexists _, _. Qed.
Lemma strip_ends_code w code : code_word w code -> strip_ends w = Done code.
Proof.
  intros [-> _]. unfold strip_ends. destruct code as [|ch code]; [done|]. rewrite sapp_cons. f_equal.
  change (String ch (code ++ String "096" "")) with (String ch code ++ String "096" ""). generalize (String ch code). clear.
  intros s. rewrite sapp_length. cbn [String.length]. rewrite Nat.add_sub. induction s as [|c s IH]; [done|].
  rewrite sapp_cons. cbn [String.length substring]. by rewrite IH.
Qed.

(** ** Notes *)
Definition note_pair (w : string) (n : note) : tree := Pair r_note w
  match n with Note _ => [Pair r_integer w []] | Rest => [Pair r_rest w []] | RefNote _ => [Pair r_note_ref w []] end.
Definition note_rest (n : note) (s : string) : Prop := match n with Note _ => nohead int_char s | _ => True end.
Lemma natural_sign sg : sg ∈ [""; "+"] -> is_sign sg.
Proof. unfold is_sign. intros H. repeat (apply elem_of_cons in H as [->|H]; [by set_solver|]). by apply elem_of_nil in H. Qed.
Lemma natural_head c w n : natural c w n -> begins sign_digit w.
Proof.
  intros H. destruct (natural_literal c w n H) as (l & Hl & _ & -> & _). destruct (l_head l Hl) as (ch & s & E & Hc). by exists ch, s.
Qed.
Lemma reads_note c w n : note_word c w n -> reads_on (note_rest n) g_note w [note_pair w n].
Proof.
  intros H. unfold g_note, note_pair. apply reads_compound. inversion H as [w' k Hk|E|ch Hch]; subst.
  - apply reads_alt1. destruct Hk as (sg & ds & Hs & Hd & Hn & -> & _). apply reads_integer; [by apply natural_sign|done|done].
  - apply reads_alt2.
    + intros m rest _. apply (dead_on_sound (Ascii.eqb "_")); [vm_compute; reflexivity|done].
    + apply reads_alt1. apply reads_compound, reads_lit.
  - apply reads_alt2; [|apply reads_alt2].
    + intros m rest _. rewrite sapp_cons. apply (dead_on_sound (Ascii.eqb "~")); [vm_compute; reflexivity|done].
    + intros m rest _. rewrite sapp_cons. apply (dead_on_sound (Ascii.eqb "~")); [vm_compute; reflexivity|done].
    + apply reads_compound. change (String "~" (String ch "")) with ("~" ++ String ch "").
      apply (reads_cat (fun _ => True) _ _ _ _ _ [] []); [apply reads_lit| |done].
      intros m rest _. with_strategy transparent [peg_run] (unfold ascii_alpha_lower; cbn [peg_run]).
      rewrite sapp_cons. by rewrite Hch.
Qed.
Lemma stop_int s : stop s -> nohead int_char s.
Proof. apply stop_nohead. vm_compute. reflexivity. Qed.
Lemma group_nonempty c w ns : group_word c w ns -> w <> "".
Proof.
  intros H. assert (Hn : forall w n, note_word c w n -> w <> "").
  { intros w0 n0 Hn ->. inversion Hn as [w' k Hk| |]; subst. apply natural_head in Hk as (ch & s & ? & _). done. }
  inversion H as [w' n Hw|w' n w'' ns' Hw]; subst; [by eapply Hn|]. apply Hn in Hw. by destruct w'.
Qed.
Definition note_head (ch : ascii) : bool := (sign_digit ch || Ascii.eqb ch "_" || Ascii.eqb ch "~")%bool.
Lemma note_word_head c w n : note_word c w n -> begins note_head w.
Proof.
  intros H. inversion H as [w' k Hk| |]; subst.
  - eapply begins_imp; [|by eapply natural_head]. intros ch. unfold note_head. by intros ->.
  - by eexists _, _.
  - by eexists _, _.
Qed.
Lemma group_head c w ns : group_word c w ns -> begins note_head w.
Proof.
  intros H. inversion H as [w' n Hw|w' n w'' ns' Hw]; subst; [by eapply note_word_head|].
  apply note_word_head in Hw as (ch & s & -> & Hc). rewrite sapp_cons. by eexists _, _.
Qed.
Lemma reads_notes c w ns : group_word c w ns -> exists ps, reads_on stop (Star g_note) w ps /\
  Forall2 (fun n p => exists v, note_word c v n /\ p = note_pair v n) ns ps.
Proof.
  induction 1 as [w n Hw|w n w' ns Hw Hg (ps & IH & HF) Hd].
  - exists [note_pair w n]. split; [|constructor; [by exists w|done]].
    apply (reads_exact _ _ (w ++ "")); [apply sapp_nil_r|].
    apply (reads_star_cons (note_rest n) stop _ _ _ [note_pair w n] []); [by eapply reads_note| | |].
    + by destruct (note_word_head _ _ _ Hw) as (? & ? & -> & _).
    + apply reads_star_nil. intros m rest Hr. unfold stop in Hr.
      apply (sim_fails_sound m g_note "" stop_heads rest); [destruct m; vm_compute; reflexivity|done].
    + intros rest Hr. destruct n; [by apply stop_int|done|done].
  - exists (note_pair w n :: ps). split; [|constructor; [by exists w|done]].
    apply (reads_star_cons (note_rest n) stop _ _ _ [note_pair w n] ps); [by eapply reads_note| |done|].
    + by destruct (note_word_head _ _ _ Hw) as (? & ? & -> & _).
    + intros rest Hr. destruct n as [k| |]; [|done|done]. destruct (group_head _ _ _ Hg) as (ch & s & E & Hc).
      specialize (Hd k ch s eq_refl E). subst w'. cbn [note_rest]. rewrite sapp_cons. cbn [nohead]. unfold int_char. rewrite Hd. cbn [orb].
      pose proof (by_chars (fun ch => if note_head ch then negb (Ascii.eqb ch ".") else true) ltac:(vm_compute; reflexivity) ch) as H1.
      cbv beta in H1. rewrite Hc in H1. by apply negb_true_iff in H1.
Qed.
Lemma reads_group c w ns : group_word c w ns -> exists ps, reads_on stop g_compound w [Pair r_compound w ps] /\
  Forall2 (fun n p => exists v, note_word c v n /\ p = note_pair v n) ns ps.
Proof.
  intros H. destruct (reads_notes c w ns H) as (ps & Hr & HF). exists ps. split; [|done].
  unfold g_compound. apply reads_compound. intros m rest Hs. specialize (Hr m rest Hs). rewrite run_star in Hr.
  unfold many1. rewrite cat_run.
  destruct (peg_run m g_note (w ++ rest)) as [[[p1 [|c1 t1]] s1]|].
  - injection Hr as <- E _. by destruct (group_nonempty _ _ _ H).
  - destruct (peg_run m (Star g_note) s1) as [[[p2 t2] s2]|]; done.
  - injection Hr as <- E _. by destruct (group_nonempty _ _ _ H).
Qed.

Section nodes.
  Context (c : cfg) (math : string -> res f32).
  Notation means := (means c math).

  Ltac by_alt g := eapply (means_by _ _ _ g); [vm_compute; reflexivity|reflexivity|reflexivity|heads|apply reads_kw_seg; [kw1|]|].
  Lemma m_one_arg kw k w a t : (kw, k) ∈ one_arg -> argument w a -> args [w] t -> means (kw ++ t) (k a).
  Proof.
    intros Hk Ha Ht. sp g t' Ht. apply args_nil_inv in Ht as ->. rewrite sapp_nil_r.
    destruct (seg_arg g w a G Ha) as (p & Hp & Hv). apply reads_ends in Hp.
    unfold one_arg in Hk. pick_in Hk.
    - by_alt g_sin; [exact Hp|nums].
    - by_alt g_saw; [exact Hp|nums].
    - by_alt g_squ; [exact Hp|nums].
    - by_alt g_tri; [exact Hp|nums].
    - by_alt g_mul; [exact Hp|nums].
    - by_alt g_add; [exact Hp|nums].
    - by_alt g_pan; [exact Hp|nums].
    - by_alt g_onepole; [exact Hp|nums].
    - by_alt g_delayms; [exact Hp|nums].
  Qed.

  Lemma m_one_num kw k w v t : (kw, k) ∈ one_num -> number w v -> args [w] t -> means (kw ++ t) (k v).
  Proof.
    intros Hk Ha Ht. sp g t' Ht. apply args_nil_inv in Ht as ->. rewrite sapp_nil_r.
    destruct (seg_num g_node_name g w v ltac:(gd) G Ha) as (p & Hp & Hv). apply reads_ends in Hp.
    destruct (seg_num0 g w v G Ha) as (p0 & Hp0 & Hv0). apply reads_ends in Hp0.
    destruct (seg_num (Alt g_node_name g_reference) g w v ltac:(gd) G Ha) as (p1 & Hp1 & Hv1). apply reads_ends in Hp1.
    unfold one_num in Hk. pick_in Hk.
    - by_alt g_imp; [exact Hp|nums].
    - by_alt g_bd; [exact Hp|nums].
    - by_alt g_sn; [exact Hp|nums].
    - by_alt g_hh; [exact Hp|nums].
    - by_alt g_speed; [exact Hp0|nums].
    - eapply (means_by _ _ _ g_constsig); [vm_compute; reflexivity|reflexivity|reflexivity|heads| |].
      + apply reads_assoc, reads_kw_seg; [kw1|exact Hp].
      + nums.
    - eapply (means_by _ _ _ g_constsig); [vm_compute; reflexivity|reflexivity|reflexivity|heads| |].
      + apply reads_assoc, reads_kw_seg; [kw1|exact Hp].
      + nums.
    - by_alt g_plate; [exact Hp1|nums].
  Qed.
  Lemma m_two_num kw k w1 v1 w2 v2 t : (kw, k) ∈ two_num -> number w1 v1 -> number w2 v2 -> args [w1; w2] t ->
    means (kw ++ t) (k v1 v2).
  Proof.
    intros Hk H1 H2 Ht. sp g1 t1 Ht. sp g2 t2 Ht. apply args_nil_inv in Ht as ->. rewrite sapp_nil_r.
    destruct (seg_num (Alt g_node_name g_reference) g1 w1 v1 ltac:(gd) G H1) as (p1 & Hp1 & Hv1).
    destruct (seg_num (Alt g_node_name g_reference) g2 w2 v2 ltac:(gd) G0 H2) as (p2 & Hp2 & Hv2). apply reads_ends in Hp2.
    assert (Hp : reads_on ends (Cat a_num' a_num') ((g1 ++ w1) ++ (g2 ++ w2)) [p1; p2])
      by (apply reads_segs; [exact Hp1|exact Hp2|stops]).
    unfold two_num in Hk. pick_in Hk.
    - by_alt g_envperc; [exact Hp|nums].
    - by_alt g_sawsynth; [exact Hp|nums].
    - by_alt g_squsynth; [exact Hp|nums].
    - by_alt g_trisynth; [exact Hp|nums].
  Qed.
  Lemma m_arg_and_num kw k w1 a w2 v2 t : (kw, k) ∈ arg_and_num -> argument w1 a -> number w2 v2 -> args [w1; w2] t ->
    means (kw ++ t) (k a v2).
  Proof.
    intros Hk H1 H2 Ht. sp g1 t1 Ht. sp g2 t2 Ht. apply args_nil_inv in Ht as ->. rewrite sapp_nil_r.
    destruct (seg_arg g1 w1 a G H1) as (p1 & Hp1 & Hv1).
    destruct (seg_num (Alt g_node_name g_reference) g2 w2 v2 ltac:(gd) G0 H2) as (p2 & Hp2 & Hv2). apply reads_ends in Hp2.
    assert (Hp : reads_on ends (Cat a_numref a_num') ((g1 ++ w1) ++ (g2 ++ w2)) [p1; p2])
      by (apply reads_segs; [exact Hp1|exact Hp2|stops]).
    unfold arg_and_num in Hk. pick_in Hk.
    - by_alt g_rhpf; [exact Hp|nums].
    - by_alt g_rhpf; [exact Hp|nums].
    - by_alt g_apfmsgain; [exact Hp|nums].
    - by_alt g_apfmsgain; [exact Hp|nums].
  Qed.

  Lemma num_alt (e : G) g w v : space g -> number w v ->
    exists p, reads_on stop (Cat W1 (Cat no_name (Alt g_number e))) (g ++ w) [p] /\ is_num w v p.
  Proof.
    intros Hg Hn. destruct (reads_num w v Hn) as (p & H & Hp). exists p. split; [|done].
    apply (seg sign_digit); [done|by eapply number_head|vm_compute; reflexivity|]. apply reads_guard.
    - intros m rest _. apply (dead_app sign_digit); [vm_compute; reflexivity|by eapply number_head].
    - apply reads_alt1. by eapply reads_weaken; [apply stop_num|].
  Qed.
  Lemma ref_alt (e : G) g w : space g -> free_name w ->
    exists p, reads_on stop (Cat W1 (Cat no_name (Alt g_number (Alt g_reference e)))) (g ++ w) [p] /\ p_rule p = r_reference /\ p_text p = w.
  Proof.
    intros Hg Hf. destruct (reads_ref w (free_is_name _ Hf)) as (p & H & Hp). exists p. split; [|done].
    assert (Hw : begins ref_head w) by (destruct Hf as (pre & Hn & _); by eapply name_head).
    apply (seg ref_head); [done|done|vm_compute; reflexivity|]. apply reads_guard.
    - intros m rest Hr. by apply free_no_name.
    - apply reads_alt2; [|by apply reads_alt1]. intros m rest _. apply (dead_app ref_head); [vm_compute; reflexivity|done].
  Qed.
  Ltac two g1 g2 t1 t2 Ht := sp g1 t1 Ht; sp g2 t2 Ht; apply args_nil_inv in Ht as ->; rewrite sapp_nil_r.
  Lemma lpf_reads (e : G) ta tb p1 p2 : reads_on stop (Cat W1 (Cat no_name e)) ta [p1] -> reads_on ends a_num' tb [p2] ->
    (forall rest, ends rest -> stop (tb ++ rest)) -> reads_on ends (Cat W1 (Cat no_name (Cat e a_num'))) (ta ++ tb) [p1; p2].
  Proof.
    intros H1 H2 H3. pose proof (reads_segs ends _ _ _ _ _ _ H1 H2 H3) as H. intros m rest Hr. specialize (H m rest Hr). revert H.
    rewrite !cat_run. destruct (peg_run m W1 ((ta ++ tb) ++ rest)) as [[[q1 u1] s1]|]; [|done].
    rewrite !cat_run. destruct (peg_run m no_name s1) as [[[q2 u2] s2]|]; [|done].
    rewrite !cat_run. destruct (peg_run m e s2) as [[[q3 u3] s3]|]; [|done]. cbv beta iota.
    destruct (peg_run m a_num' s3) as [[[q4 u4] s4]|]; [|done]. by rewrite !sapp_assoc, <- !app_assoc.
  Qed.
  Lemma m_lpf_num w v w2 v2 t : number w v -> number w2 v2 -> args [w; w2] t -> means ("lpf" ++ t) (CLpf (SigNum v) v2).
  Proof.
    intros H1 H2 Ht. two g1 g2 t1 t2 Ht.
    destruct (num_alt (Alt g_reference (Alt g_pattern g_event)) g1 w v G H1) as (p1 & Hp1 & Hv1).
    destruct (seg_num (Alt g_node_name g_reference) g2 w2 v2 ltac:(gd) G0 H2) as (p2 & Hp2 & Hv2). apply reads_ends in Hp2.
    by_alt g_lpf; [apply lpf_reads; [exact Hp1|exact Hp2|stops]|nums].
  Qed.
  Lemma m_lpf_ref w w2 v2 t : free_name w -> number w2 v2 -> args [w; w2] t -> means ("lpf" ++ t) (CLpf (SigRef w) v2).
  Proof.
    intros H1 H2 Ht. two g1 g2 t1 t2 Ht.
    destruct (ref_alt (Alt g_pattern g_event) g1 w G H1) as (p1 & Hp1 & Hr1 & Ht1).
    destruct (seg_num (Alt g_node_name g_reference) g2 w2 v2 ltac:(gd) G0 H2) as (p2 & Hp2 & Hv2). apply reads_ends in Hp2.
    by_alt g_lpf; [apply lpf_reads; [exact Hp1|exact Hp2|stops]|nums].
  Qed.
  Lemma natural_number w n : natural c w n -> exists v, number w v /\ parse_usize c w = Some n.
  Proof. intros H. destruct (natural_literal c w n H) as (l & Hl & _ & E & Hp). exists (l_value l). split; [by exists l|done]. Qed.
  Lemma m_delayn w n t : natural c w n -> args [w] t -> means ("delayn" ++ t) (CDelayn (Usz n)).
  Proof.
    intros Hn Ht. sp g t' Ht. apply args_nil_inv in Ht as ->. rewrite sapp_nil_r.
    destruct (natural_number w n Hn) as (v & Hv & E).
    destruct (seg_arg g w _ G (arg_num _ _ Hv)) as (p & Hp & Hnr).
    destruct (num_alt g_reference g w v G Hv) as (p1 & Hp1 & Hv1). apply reads_ends in Hp1.
    assert (pusize c p1 = Done n). { destruct Hv1 as (_ & Et & _). unfold pusize. by rewrite Et, E. }
    by_alt g_delayn; [exact Hp1|nums].
  Qed.
  Lemma m_delayn_ref w t : free_name w -> args [w] t -> means ("delayn" ++ t) (CDelayn (URef w)).
  Proof.
    intros Hn Ht. sp g t' Ht. apply args_nil_inv in Ht as ->. rewrite sapp_nil_r.
    assert (Hp : exists p, reads_on stop a_numref (g ++ w) [p] /\ p_rule p = r_reference /\ p_text p = w).
    { destruct (reads_ref w (free_is_name _ Hn)) as (p & H & Hp). exists p. split; [|done].
      assert (Hw : begins ref_head w) by (destruct Hn as (pre & Hn & _); by eapply name_head).
      apply (seg ref_head); [done|done|vm_compute; reflexivity|]. apply reads_guard.
      - intros m rest Hr. by apply free_no_name.
      - apply reads_alt2; [|done]. intros m rest _. apply (dead_app ref_head); [vm_compute; reflexivity|done]. }
    destruct Hp as (p & Hp & Hr & Et). apply reads_ends in Hp. by_alt g_delayn; [exact Hp|nums].
  Qed.
  Lemma m_noise kw w n t : kw ∈ ["noise"; "noiz"] -> natural c w n -> args [w] t -> means (kw ++ t) (CNoise n).
  Proof.
    intros Hk Hn Ht. sp g t' Ht. apply args_nil_inv in Ht as ->. rewrite sapp_nil_r.
    destruct (natural_number w n Hn) as (v & Hv & E).
    destruct (seg_num0 g w v G Hv) as (p & Hp & Hv1). apply reads_ends in Hp.
    assert (pusize c p = Done n). { destruct Hv1 as (_ & Et & _). unfold pusize. by rewrite Et, E. }
    apply elem_of_cons in Hk as [->|Hk]; [|apply elem_of_list_singleton in Hk as ->].
    - by_alt g_noise; [exact Hp|nums].
    - by_alt g_noise; [exact Hp|nums].
  Qed.
  Lemma m_adsr w1 v1 w2 v2 w3 v3 w4 v4 t : number w1 v1 -> number w2 v2 -> number w3 v3 -> number w4 v4 ->
    args [w1; w2; w3; w4] t -> means ("adsr" ++ t) (CAdsr v1 v2 v3 v4).
  Proof.
    intros H1 H2 H3 H4 Ht. sp g1 t1 Ht. sp g2 t2 Ht. sp g3 t3 Ht. sp g4 t4 Ht. apply args_nil_inv in Ht as ->. rewrite sapp_nil_r.
    destruct (seg_num g_node_name g1 w1 v1 ltac:(gd) G H1) as (p1 & Hp1 & Hv1).
    destruct (seg_num g_node_name g2 w2 v2 ltac:(gd) G0 H2) as (p2 & Hp2 & Hv2).
    destruct (seg_num g_node_name g3 w3 v3 ltac:(gd) G1 H3) as (p3 & Hp3 & Hv3).
    destruct (seg_num g_node_name g4 w4 v4 ltac:(gd) G2 H4) as (p4 & Hp4 & Hv4). apply reads_ends in Hp4.
    by_alt g_adsr; [apply reads_segs; [exact Hp1|apply reads_segs; [exact Hp2|apply reads_segs; [exact Hp3|exact Hp4|]|]|]; stops|nums].
  Qed.
  Lemma m_reverb w1 v1 w2 v2 w3 v3 w4 v4 w5 v5 t : number w1 v1 -> number w2 v2 -> number w3 v3 -> number w4 v4 -> number w5 v5 ->
    args [w1; w2; w3; w4; w5] t -> means ("reverb" ++ t) (CReverb v1 v2 v3 v4 v5).
  Proof.
    intros H1 H2 H3 H4 H5 Ht. sp g1 t1 Ht. sp g2 t2 Ht. sp g3 t3 Ht. sp g4 t4 Ht. sp g5 t5 Ht. apply args_nil_inv in Ht as ->.
    rewrite sapp_nil_r.
    destruct (seg_num (Alt g_node_name g_reference) g1 w1 v1 ltac:(gd) G H1) as (p1 & Hp1 & Hv1).
    destruct (seg_num (Alt g_node_name g_reference) g2 w2 v2 ltac:(gd) G0 H2) as (p2 & Hp2 & Hv2).
    destruct (seg_num (Alt g_node_name g_reference) g3 w3 v3 ltac:(gd) G1 H3) as (p3 & Hp3 & Hv3).
    destruct (seg_num (Alt g_node_name g_reference) g4 w4 v4 ltac:(gd) G2 H4) as (p4 & Hp4 & Hv4).
    destruct (seg_num (Alt g_node_name g_reference) g5 w5 v5 ltac:(gd) G3 H5) as (p5 & Hp5 & Hv5). apply reads_ends in Hp5.
    by_alt g_reverb; [apply reads_segs; [exact Hp1|apply reads_segs; [exact Hp2|apply reads_segs; [exact Hp3|
      apply reads_segs; [exact Hp4|exact Hp5|]|]|]|]; stops|nums].
  Qed.
  Lemma m_balance w1 w2 t : name w1 -> name w2 -> args [w1; w2] t -> means ("balance" ++ t) (CBalance w1 w2).
  Proof.
    intros H1 H2 Ht. two g1 g2 t1 t2 Ht.
    destruct (seg_ref g1 w1 G H1) as (p1 & Hp1 & Hr1 & Ht1). destruct (seg_ref g2 w2 G0 H2) as (p2 & Hp2 & Hr2 & Ht2).
    apply reads_ends in Hp2. by_alt g_balance; [apply reads_assoc', reads_segs; [exact Hp1|exact Hp2|stops]|nums].
  Qed.

  Lemma m_get w t : free_name w -> args [w] t -> means ("get" ++ t) (CGet w).
  Proof.
    intros Hn Ht. sp g t' Ht. apply args_nil_inv in Ht as ->. rewrite sapp_nil_r.
    destruct (reads_ref w (free_is_name _ Hn)) as (p & H & Hr & Et). apply reads_ends in H.
    assert (Hw : begins ref_head w) by (destruct Hn as (pre & Hn' & _); by eapply name_head).
    eapply (means_by _ _ _ g_get); [vm_compute; reflexivity|reflexivity|reflexivity|heads| |].
    - eapply reads_exact; [apply sapp_assoc|].
      apply (reads_cat (nohead is_separator) ends _ _ ("get" ++ g) w [] [p]).
      + apply reads_opt1. apply (reads_cat (fun _ => True) _ _ _ _ _ [] []); [apply reads_lit|by apply reads_W1|done].
      + apply reads_guard; [|exact H]. intros m rest Hs. apply free_no_name; [done|by apply ends_stop].
      + intros rest _. eapply begins_nosep; [exact Hw|vm_compute; reflexivity].
    - nums.
  Qed.
  Definition tilde (ch : ascii) : bool := (Ascii.eqb ch "~" || Ascii.eqb ch "_")%bool.
  Lemma m_bare pre w : pre <> "" -> name_of pre w -> means w (CGet w).
  Proof.
    intros Hp Hn. destruct (reads_ref w (ex_intro _ pre Hn)) as (p & H & Hr & Et). apply reads_ends in H.
    assert (Hb : exists w', w = pre ++ w') by (destruct Hn as (_ & ch & body & dots & -> & _); by eexists).
    assert (Hw : begins tilde w).
    { destruct Hb as [w' ->]. destruct Hn as (Hpre & _). apply elem_of_cons in Hpre as [->|Hpre]; [done|].
      apply elem_of_cons in Hpre as [->|Hpre]; [|apply elem_of_list_singleton in Hpre as ->]; by eexists _, _. }
    assert (Hbody : reads_on ends (Cat (Opt (Cat (t "get") W1)) (Cat no_name g_reference)) w [p]).
    { apply (reads_exact _ _ ("" ++ w)); [done|]. apply (reads_cat (begins tilde) ends _ _ "" w [] [p]).
      - apply reads_opt2. intros m rest (ch & s & -> & Hc). apply (dead_on_sound tilde); [|done].
        with_strategy transparent [W1] (vm_compute; reflexivity).
      - apply reads_guard; [|exact H]. intros m rest _. apply (dead_app tilde); [vm_compute; reflexivity|done].
      - intros rest _. destruct Hw as (ch & s & -> & Hc). rewrite sapp_cons. by eexists _, _. }
    destruct Hb as [w' ->]. destruct Hn as (Hpre & _). apply elem_of_cons in Hpre as [->|Hpre]; [done|].
    apply elem_of_cons in Hpre as [->|Hpre]; [|apply elem_of_list_singleton in Hpre as ->].
    - eapply (means_by1 _ _ any_head _ g_get);
        [vm_compute; reflexivity|reflexivity|reflexivity|intros; apply any_head_spec|intros rest; apply Hbody|nums].
    - eapply (means_by1 _ _ any_head _ g_get);
        [vm_compute; reflexivity|reflexivity|reflexivity|intros; apply any_head_spec|intros rest; apply Hbody|nums].
  Qed.
  Lemma args_space w ws t rest : args (w :: ws) t -> shead (t ++ rest) ∈ blank_heads.
  Proof. intros H. apply args_inv in H as (g & t' & Hg & _ & ->). rewrite !sapp_assoc. by apply space_head. Qed.
  Lemma m_mix ws t : ws <> [] -> Forall name ws -> args ws t -> means ("mix" ++ t) (CMix ws).
  Proof.
    intros Hn HF Ht.
    destruct (reads_words1 g_reference name (fun w p => p_text p = w) ltac:(vm_compute; reflexivity) ltac:(vm_compute; reflexivity)
      ltac:(intros g w Hg Hw; destruct (seg_ref g w Hg Hw) as (p & ? & ? & ?); by exists p) ws t Ht Hn HF) as (ps & Hps & HR).
    eapply (means_by _ _ _ g_mix); [vm_compute; reflexivity|reflexivity|reflexivity| | |].
    - intros rest. destruct ws as [|w ws]; [done|]. by eapply args_space.
    - apply reads_kw_seg; [kw1|exact Hps].
    - unfold p_component. cbn [p_rule p_in]. do 2 f_equal. clear -HR. induction HR as [|w p ws ps Hw _ IH]; [done|].
      cbn [List.map]. by rewrite Hw, IH.
  Qed.
  Lemma m_choose (l : list (string * f32)) t : l <> [] -> Forall (fun x => integer x.1 x.2) l -> args (map fst l) t ->
    means ("choose" ++ t) (CChoose (map snd l)).
  Proof.
    intros Hn HF Ht.
    destruct (reads_words1 g_integer (fun w => exists v, integer w v)
      (fun w p => forall v, integer w v -> pf32 p = Done v)
      ltac:(vm_compute; reflexivity) ltac:(vm_compute; reflexivity)) with (ws := map fst l) (t := t) as (ps & Hps & HR); [|done| | |].
    - intros g w Hg (v & li & Hli & Hti & -> & ->).
      assert (E : l_text li = l_sign li ++ l_int li). { unfold l_text. rewrite Hti. by rewrite sapp_nil_r. }
      exists (Pair r_integer (l_text li) []). split.
      + apply (seg sign_digit); [done| |vm_compute; reflexivity|].
        * destruct (l_head li Hli) as (ch & s & E' & Hc). by exists ch, s.
        * rewrite E. eapply reads_weaken; [apply stop_int|]. destruct Hli as (? & ? & ? & _). by apply reads_integer.
      + intros v (li' & Hli' & Hti' & E' & ->). unfold pf32. cbn [p_text]. rewrite E'. by rewrite parse_literal.
    - by destruct l.
    - apply Forall_map. eapply Forall_impl; [exact HF|]. intros x Hx. by exists x.2.
    - eapply (means_by _ _ _ g_choose); [vm_compute; reflexivity|reflexivity|reflexivity| | |].
      + intros rest. destruct l as [|x l]; [done|]. by eapply args_space.
      + apply reads_kw_seg; [kw1|exact Hps].
      + unfold p_component. cbn [p_rule p_in]. assert (E : collect pf32 ps = Done (map snd l)); [|by rewrite E].
        clear -HR HF. revert ps HR. induction HF as [|x l Hx HF IH]; intros ps HR; inversion HR as [|? ? ? ? H1 H2]; subst; [done|].
        cbn [collect map]. rewrite (H1 _ Hx). cbn [bind]. by rewrite (IH _ H2).
  Qed.
  Lemma m_sp kw w t : kw ∈ ["sp"; "sampler"] -> symbol w -> args [w] t -> means (kw ++ t) (CSp w).
  Proof.
    intros Hk Hw Ht. sp g t' Ht. apply args_nil_inv in Ht as ->. rewrite sapp_nil_r.
    assert (Hp : reads_on ends (Cat W1 (Cat (Not (Alt g_node_name (Alt g_reference g_number))) g_symbol)) (g ++ w) [Pair r_symbol w []]).
    { apply reads_ends, (seg sym_head); [done|by apply symbol_head|vm_compute; reflexivity|]. apply reads_guard; [|by apply reads_symbol].
      intros m rest _. apply (dead_app sym_head); [vm_compute; reflexivity|by apply symbol_head]. }
    apply elem_of_cons in Hk as [->|Hk]; [|apply elem_of_list_singleton in Hk as ->].
    - by_alt g_sp; [exact Hp|nums].
    - by_alt g_sp; [exact Hp|nums].
  Qed.
  Lemma m_meta kw w code t : kw ∈ ["meta"; "script"] -> code_word w code -> args [w] t -> means (kw ++ t) (CMeta code).
  Proof.
    intros Hk Hw Ht. sp g t' Ht. apply args_nil_inv in Ht as ->. rewrite sapp_nil_r.
    assert (Hp : reads_on ends (Cat W1 g_code) (g ++ w) [Pair r_code w [Pair r_inner code []]]).
    { apply reads_ends, (seg bq_head); [done|by eapply code_head|vm_compute; reflexivity|].
      eapply reads_weaken; [|by apply reads_code]. done. }
    assert (E : strip_ends w = Done code) by by apply strip_ends_code.
    apply elem_of_cons in Hk as [->|Hk]; [|apply elem_of_list_singleton in Hk as ->].
    - by_alt g_meta; [exact Hp|]. unfold p_component, code_of, p_code. cbn [p_rule p_in next bind p_text]. by rewrite E.
    - by_alt g_meta; [exact Hp|]. unfold p_component, code_of, p_code. cbn [p_rule p_in next bind p_text]. by rewrite E.
  Qed.
  Lemma m_msgsynth w w1 v1 w2 v2 t : symbol w -> number w1 v1 -> number w2 v2 -> args [w; w1; w2] t ->
    means ("msgsynth" ++ t) (CMsgSynth w v1 v2).
  Proof.
    intros Hw H1 H2 Ht. sp g0 t0 Ht. two g1 g2 t1 t2 Ht.
    assert (Hp : reads_on stop (Cat W1 (Cat no_name g_symbol)) (g0 ++ w) [Pair r_symbol w []]).
    { apply (seg sym_head); [done|by apply symbol_head|vm_compute; reflexivity|]. apply reads_guard; [|by apply reads_symbol].
      intros m rest _. apply (dead_app sym_head); [vm_compute; reflexivity|by apply symbol_head]. }
    destruct (seg_num g_node_name g1 w1 v1 ltac:(gd) G0 H1) as (p1 & Hp1 & Hv1).
    destruct (seg_num g_node_name g2 w2 v2 ltac:(gd) G1 H2) as (p2 & Hp2 & Hv2). apply reads_ends in Hp2.
    by_alt g_msgsynth; [apply reads_segs; [exact Hp|apply reads_segs; [exact Hp1|exact Hp2|]|]; stops|nums].
  Qed.
  Lemma m_psynth kw w code w1 v1 t : kw ∈ ["psynth"; "p_synth"; "pattern_synth"] -> code_word w code -> number w1 v1 ->
    args [w; w1] t -> means (kw ++ t) (CPatternSynth w v1).
  Proof.
    intros Hk Hw H1 Ht. two g1 g2 t1 t2 Ht.
    assert (Hp : reads_on stop (Cat W1 g_code) (g1 ++ w) [Pair r_code w [Pair r_inner code []]]).
    { apply (seg bq_head); [done|by eapply code_head|vm_compute; reflexivity|].
      eapply reads_weaken; [|by apply reads_code]. done. }
    destruct (seg_num g_node_name g2 w1 v1 ltac:(gd) G0 H1) as (p1 & Hp1 & Hv1). apply reads_ends in Hp1.
    assert (Hb : reads_on ends (Cat W1 (Cat g_code (Opt a_num))) ((g1 ++ w) ++ (g2 ++ w1)) [Pair r_code w [Pair r_inner code []]; p1])
      by (apply reads_assoc', reads_segs; [exact Hp|apply reads_opt1; exact Hp1|stops]).
    apply elem_of_cons in Hk as [->|Hk]; [|apply elem_of_cons in Hk as [->|Hk]; [|apply elem_of_list_singleton in Hk as ->]].
    - by_alt g_pattern_synth; [exact Hb|nums].
    - eapply (means_by _ _ _ g_pattern_synth); [vm_compute; reflexivity|reflexivity|reflexivity|heads| |].
      + apply reads_kw_seg; [|exact Hb]. apply reads_alt2; [|apply reads_alt1, reads_lit].
        intros m rest _. apply (sim_fails_sound m (t "psynth") "p_synth" any_head); [by destruct m|apply any_head_spec].
      + nums.
    - eapply (means_by _ _ _ g_pattern_synth); [vm_compute; reflexivity|reflexivity|reflexivity|heads| |].
      + apply reads_kw_seg; [|exact Hb]. apply reads_alt2; [|kw1].
        intros m rest _. apply (sim_fails_sound m (t "psynth") "pattern_synth" any_head); [by destruct m|apply any_head_spec].
      + nums.
  Qed.

  (** [arrange]: names and numbers in turn. *)
  Definition turn : G := Cat W1 (Cat g_reference (Cat W1 g_number)).
  Definition turn_args (l : list (string * string * f32)) : list string := List.concat (map (fun x => [x.1.1; x.1.2]) l).
  Definition turn_refs (l : list (string * string * f32)) : list numref := List.concat (map (fun x => [NRef x.1.1; Num x.2]) l).
  Lemma reads_turn g1 w g2 w2 v : space g1 -> space g2 -> name w -> number w2 v ->
    exists p q, reads_on stop turn ((g1 ++ w) ++ (g2 ++ w2)) [p; q] /\ p_numref p = Done (NRef w) /\ p_numref q = Done (Num v).
  Proof.
    intros Hg1 Hg2 Hw Hv. destruct (seg_ref g1 w Hg1 Hw) as (p & Hp & Hr & Et). destruct (seg_num0 g2 w2 v Hg2 Hv) as (q & Hq & Hn).
    exists p, q. split; [|split].
    - apply reads_assoc', reads_segs; [exact Hp|exact Hq|stops].
    - unfold p_numref. by rewrite Hr, Et.
    - destruct Hn as (Hqr & _ & Hqv). unfold p_numref. by rewrite Hqr, Hqv.
  Qed.
  Lemma args_stop ws t rest : args ws t -> ends rest -> stop (t ++ rest).
  Proof. intros H Hr. inversion H; subst; [by apply ends_stop|]. rewrite !sapp_assoc. by apply space_stop. Qed.
  Lemma reads_turns (l : list (string * string * f32)) : forall t, args (turn_args l) t ->
    Forall (fun x => name x.1.1 /\ number x.1.2 x.2) l ->
    exists ps, reads_on ends (Star turn) t ps /\ collect p_numref ps = Done (turn_refs l).
  Proof.
    induction l as [|[[w w2] v] l IH]; intros t Ht HF.
    - apply args_nil_inv in Ht as ->. exists []. split; [|done]. apply reads_star_nil. intros m rest Hr. unfold turn.
      apply no_more_words; [|done]. destruct m; with_strategy transparent [W1] (vm_compute; reflexivity).
    - apply Forall_cons_1 in HF as [[Hw Hv] HF]. cbn [fst snd] in Hw, Hv. unfold turn_args in Ht. cbn [map List.concat app fst snd] in Ht.
      fold (turn_args l) in Ht. sp g1 t1 Ht. sp g2 t2 Ht. destruct (IH t2 Ht HF) as (ps & Hps & Hc).
      destruct (reads_turn g1 w g2 w2 v G G0 Hw Hv) as (p & q & Hpq & Hp & Hq). exists (p :: q :: ps). split.
      + eapply reads_exact; [apply sapp_assoc|]. apply (reads_star_cons stop ends _ _ _ [p; q] ps); [exact Hpq| |exact Hps|].
        * destruct G as [G _]. by destruct g1.
        * intros rest Hr. by eapply args_stop.
      + cbn [collect]. rewrite Hp, Hq. cbn [bind]. rewrite Hc. done.
  Qed.
  Lemma m_arrange (l : list (string * string * f32)) t : l <> [] -> Forall (fun x => name x.1.1 /\ number x.1.2 x.2) l ->
    args (turn_args l) t -> means ("arrange" ++ t) (CArrange (turn_refs l)).
  Proof.
    intros Hn HF Ht. destruct l as [|[[w w2] v] l]; [done|].
    apply Forall_cons_1 in HF as [[Hw Hv] HF]. cbn [fst snd] in Hw, Hv. unfold turn_args in Ht. cbn [map List.concat app fst snd] in Ht.
    fold (turn_args l) in Ht. sp g1 t1 Ht. sp g2 t2 Ht. destruct (reads_turns l t2 Ht HF) as (ps & Hps & Hc).
    destruct (seg_ref g1 w G Hw) as (p & Hp & Hr & Et). destruct (seg_num0 g2 w2 v G0 Hv) as (q & Hq & Hqr & _ & Hqv).
    by_alt g_arrange.
    - apply reads_assoc', reads_segs; [exact Hp| |stops]. apply reads_assoc', reads_segs; [exact Hq|exact Hps|].
      intros rest Hrest. by eapply args_stop.
    - unfold p_component. cbn [p_rule p_in collect]. unfold p_numref at 1. rewrite Hr, Et. cbn [bind].
      unfold p_numref at 1. rewrite Hqr, Hqv. cbn [bind]. rewrite Hc. done.
  Qed.

  (** [seq]. *)
  Lemma note_element m i j v n : note_word c v n ->
    p_element c m i j (note_pair v n) = Done (match n with
      | Note k => Some (fadd (fdiv (f_of_Z (Z.of_nat j)) (f_of_Z (Z.of_nat m))) (f_of_Z (Z.of_nat i)), Usz k)
      | Rest => None
      | RefNote s => Some (fadd (fdiv (f_of_Z (Z.of_nat j)) (f_of_Z (Z.of_nat m))) (f_of_Z (Z.of_nat i)), URef s)
      end).
  Proof.
    intros H. unfold p_element, note_pair. inversion H as [v' k Hk| |ch Hch]; subst; cbn [p_in next bind p_rule p_text]; [|done|done].
    destruct (natural_number v k Hk) as (f & _ & E). unfold pusize. cbn [p_text]. by rewrite E.
  Qed.
  Lemma notes_collect m i : forall ns ps k,
    Forall2 (fun n p => exists v, note_word c v n /\ p = note_pair v n) ns ps ->
    exists os, collect (fun je => p_element c m i je.1 je.2) (combine (seq k (length ps)) ps) = Done os /\
      omap (fun x => x) os = List.concat (imap (fun j => note_event m i (k + j)) ns).
  Proof.
    intros ns ps k HF. revert k. induction HF as [|n p ns ps (v & Hv & ->) HF IH]; intros k; [by exists []|].
    destruct (IH (S k)) as (os & Hos & E). cbn [length seq combine collect fst snd]. rewrite (note_element m i k v n Hv). cbn [bind].
    rewrite Hos. cbn [bind]. eexists. split; [reflexivity|]. rewrite imap_cons. cbn [List.concat]. rewrite Nat.add_0_r.
    assert (E2 : imap ((λ j, note_event m i (k + j)) ∘ S) ns = imap (fun j => note_event m i (S k + j)) ns).
    { apply imap_ext. intros j x _. cbn. by rewrite Nat.add_succ_r. }
    rewrite E2, <- E. destruct n; done.
  Qed.
  Lemma group_collect i w ns ps : Forall2 (fun n p => exists v, note_word c v n /\ p = note_pair v n) ns ps ->
    p_compound c (i, Pair r_compound w ps) = Done (group_events i ns).
  Proof.
    intros HF. unfold p_compound. cbn [snd fst p_in]. unfold enumerate.
    destruct (notes_collect (length ps) i ns ps 0 HF) as (os & -> & E). cbn [bind]. rewrite E. unfold group_events.
    by rewrite (Forall2_length _ _ _ HF).
  Qed.
  Lemma groups_collect : forall (gs : list (string * list note)) ps k,
    Forall2 (fun x p => exists qs, p = Pair r_compound x.1 qs /\ Forall2 (fun n p => exists v, note_word c v n /\ p = note_pair v n) x.2 qs) gs ps ->
    exists os, collect (p_compound c) (combine (seq k (length ps)) ps) = Done os /\
      os = imap (fun i => group_events (k + i)) (map snd gs).
  Proof.
    intros gs ps k HF. revert k. induction HF as [|x p gs ps (qs & -> & Hq) HF IH]; intros k; [by exists []|].
    destruct (IH (S k)) as (os & Hos & ->). cbn [length seq combine collect map]. rewrite (group_collect k _ x.2 qs Hq). cbn [bind].
    rewrite Hos. cbn [bind]. eexists. split; [reflexivity|]. rewrite imap_cons, Nat.add_0_r. f_equal.
    apply imap_ext. intros j y _. cbn. by rewrite Nat.add_succ_r.
  Qed.
  Lemma m_seq (l : list (string * list note)) t : l <> [] -> Forall (fun x => group_word c x.1 x.2) l -> args (map fst l) t ->
    means ("seq" ++ t) (CSeq (seq_events (map snd l))).
  Proof.
    intros Hn HF Ht.
    assert (Hread : forall l t, args (map fst l) t -> Forall (fun x => group_word c x.1 x.2) l ->
      exists ps, reads_on ends (Star (Cat W1 g_compound)) t ps /\
      Forall2 (fun x p => exists qs, p = Pair r_compound x.1 qs /\ Forall2 (fun n p => exists v, note_word c v n /\ p = note_pair v n) x.2 qs) l ps).
    { clear. induction l as [|[w ns] l IH]; intros t Ht HF.
      - apply args_nil_inv in Ht as ->. exists []. split; [|constructor]. apply reads_star_nil. intros m rest Hr.
        apply no_more_words; [destruct m; vm_compute; reflexivity|done].
      - cbn [map fst] in Ht. sp g t' Ht. apply Forall_cons_1 in HF as [Hw HF]. cbn [fst snd] in Hw.
        destruct (reads_group c w ns Hw) as (qs & Hq & HQ). destruct (IH t' Ht HF) as (ps & Hps & HR).
        exists (Pair r_compound w qs :: ps). split; [|constructor; [by exists qs|done]].
        apply (reads_star_cons stop ends _ _ _ [Pair r_compound w qs] ps); [|destruct G as [G _]; by destruct g|done|].
        + apply (seg note_head); [done|by eapply group_head|vm_compute; reflexivity|done].
        + intros rest Hr. by eapply args_stop. }
    destruct l as [|[w ns] l]; [done|]. cbn [map fst] in Ht. sp g t' Ht. apply Forall_cons_1 in HF as [Hw HF]. cbn [fst snd] in Hw.
    destruct (reads_group c w ns Hw) as (qs & Hq & HQ). destruct (Hread l t' Ht HF) as (ps & Hps & HR).
    assert (Hc : reads_on ends (Cat g_compound (Star (Cat W1 g_compound))) (w ++ t') (Pair r_compound w qs :: ps)).
    { apply reads_segs; [exact Hq|exact Hps|]. intros rest Hr. by eapply args_stop. }
    eapply (means_by1 _ _ blank_heads _ g_seq); [vm_compute; reflexivity|reflexivity|reflexivity|heads| |].
    - intros rest Hr.
      assert (E1 : peg_run true g_compound_notes ((w ++ t') ++ rest) = Some ([Pair r_compound_notes (w ++ t') (Pair r_compound w qs :: ps)], w ++ t', rest)).
      { unfold g_compound_notes. specialize (Hc false rest Hr). revert Hc. generalize (Cat g_compound (Star (Cat W1 g_compound))). intros e E.
        with_strategy transparent [peg_run] cbn [peg_run]. by rewrite E. }
      change ("seq" ++ (g ++ w) ++ t') with ("seq" ++ (g ++ w) ++ t').
      rewrite cat_run, sapp_assoc. pose proof (reads_lit (R := rule) (fun _ => True) "seq" true (((g ++ w) ++ t') ++ rest) I) as El.
      unfold t. rewrite El. rewrite cat_run. rewrite !sapp_assoc.
      pose proof (reads_W1 g G true (w ++ t' ++ rest)) as Eg. rewrite Eg.
      2: { eapply begins_nosep; [by eapply group_head|vm_compute; reflexivity]. }
      rewrite sapp_assoc in E1. rewrite E1. reflexivity.
    - unfold p_component, p_seq. cbn [p_rule p_in next bind app]. unfold enumerate.
      destruct (groups_collect ((w, ns) :: l) (Pair r_compound w qs :: ps) 0) as (os & Ho & ->).
      { constructor; [by exists qs|done]. }
      rewrite Ho. cbn [bind]. unfold seq_events. done.
  Qed.
End nodes.

(** * Props_Syntax: programs written as in [Syntax] are read with that meaning (C49, C52,
    C53, C60). *)
From Coq Require Import Lia Bool.
From Verif Require Export SyntaxMore Props_Parse.
Local Open Scope nat_scope.
Local Open Scope string_scope.
Local Opaque W W1 peg_run.

(** ** Pieces of the layout *)
Lemma alt_run m (a b : G) s : peg_run m (Alt a b) s = match peg_run m a s with Some h => Some h | None => peg_run m b s end.
Proof. with_strategy transparent [peg_run] reflexivity. Qed.
Lemma opt_run m (a : G) s : peg_run m (Opt a) s = match peg_run m a s with Some h => Some h | None => Some ([], "", s) end.
Proof. with_strategy transparent [peg_run] reflexivity. Qed.
Lemma lit_run m q s : peg_run m (t q) s = match strip q s with Some s' => Some ([], q, s') | None => None end.
Proof. with_strategy transparent [peg_run] reflexivity. Qed.

Lemma blanks_app a b : blanks a -> blanks b -> blanks (a ++ b).
Proof. unfold blanks. rewrite sall_app. by intros -> ->. Qed.
Lemma not_lf m s : nohead is_eol s -> peg_run m (t lf) s = None.
Proof.
  rewrite lit_run. destruct s as [|ch s]; [done|]. unfold lf, is_eol. cbn [nohead strip]. rewrite Ascii.eqb_sym. by intros ->.
Qed.
Lemma W_run m b s : blanks b -> nohead is_separator s -> peg_run m W (b ++ s) = Some ([], b, s).
Proof. intros H Hs. by apply reads_W. Qed.
(** The start of a link: blanks, at most one line break, blanks. *)
Lemma link_run m (e : G) b1 nl b2 s : blanks b1 -> blanks b2 -> nl ∈ [""; eol] -> nohead is_separator s ->
  (nl = "" -> nohead is_eol s) ->
  peg_run m (Cat W (Cat (Opt (t lf)) (Cat W e))) (b1 ++ nl ++ b2 ++ s) =
  match peg_run m e s with Some (p, tx, s') => Some (p, (b1 ++ nl ++ b2) ++ tx, s') | None => None end.
Proof.
  intros H1 H2 Hn Hs He. apply elem_of_cons in Hn as [->|Hn]; [|apply elem_of_list_singleton in Hn as ->].
  - specialize (He eq_refl). nilapp. rewrite <- sapp_assoc.
    rewrite cat_run, (W_run m (b1 ++ b2) s (blanks_app _ _ H1 H2) Hs).
    rewrite cat_run, opt_run, (not_lf m s He). rewrite cat_run.
    pose proof (W_run m "" s eq_refl Hs) as E. change ("" ++ s) with s in E. rewrite E.
    destruct (peg_run m e s) as [[[p tx] s']|]; [|done]. nilapp. done.
  - rewrite cat_run, (W_run m b1 _ H1) by done.
    rewrite cat_run, opt_run, lit_run. change eol with lf. rewrite strip_app.
    rewrite cat_run, (W_run m b2 s H2 Hs).
    destruct (peg_run m e s) as [[[p tx] s']|]; [|done]. by rewrite !sapp_assoc.
Qed.
Definition link_end : G := Alt (Cat (t ">>") (Cat W g_node)) g_comment.
Lemma link_eq : link = Cat W (Cat (Opt (t lf)) (Cat W link_end)). Proof. reflexivity. Qed.
Lemma link_run' m b1 nl b2 s : blanks b1 -> blanks b2 -> nl ∈ [""; eol] -> nohead is_separator s ->
  (nl = "" -> nohead is_eol s) ->
  peg_run m link (b1 ++ nl ++ b2 ++ s) =
  match peg_run m link_end s with Some (p, tx, s') => Some (p, (b1 ++ nl ++ b2) ++ tx, s') | None => None end.
Proof. apply link_run. Qed.
Definition linkish (ch : ascii) : bool := (Ascii.eqb ch ">" || Ascii.eqb ch "/")%bool.
Lemma link_end_fails m s : nohead linkish s -> peg_run m link_end s = None.
Proof.
  destruct s as [|ch s]; intros H.
  - apply (sim_fails_sound m link_end "" [None] ""); [by destruct m|by left].
  - apply (dead_on_sound (fun ch => negb (linkish ch))); [|by apply negb_true_iff].
    with_strategy transparent [W] (vm_compute; reflexivity).
Qed.

(** Comments. *)
Lemma newline_stop m s : nohead is_break s -> peg_run m newline s = None.
Proof.
  destruct s as [|ch s]; intros H.
  - apply (sim_fails_sound m newline "" [None] ""); [by destruct m|by left].
  - apply (dead_on_sound (fun ch => negb (is_break ch))); [vm_compute; reflexivity|by apply negb_true_iff].
Qed.
Lemma body_char m ch s : is_break ch = false -> peg_run m (Cat (Not newline) any) (String ch s) = Some ([], String ch "", s).
Proof.
  intros H. rewrite cat_run.
  assert (E : peg_run m (Not newline) (String ch s) = Some ([], "", String ch s)).
  { pose proof (newline_stop m (String ch s) H) as E. revert E. generalize newline. intros e E.
    with_strategy transparent [peg_run] cbn [peg_run]. by rewrite E. }
  rewrite E. with_strategy transparent [peg_run] reflexivity.
Qed.
Lemma nohead_dec s : nohead is_eol s \/ exists s', s = String "010" s'.
Proof.
  destruct s as [|ch s]; [by left|]. cbn [nohead]. unfold is_eol. destruct (Ascii.eqb_spec ch "010") as [->|]; [right; by eexists|by left].
Qed.
Lemma body_stop m ch s : is_break ch = true -> peg_run m (Cat (Not newline) any) (String ch s) = None.
Proof.
  intros H. change (String ch s) with (String ch "" ++ s).
  assert (E : ch = "010"%char \/ ch = "013"%char).
  { unfold is_break in H. apply orb_prop in H as [H|H]; apply Ascii.eqb_eq in H as ->; auto. }
  destruct E as [-> | ->].
  - apply (sim_fails_sound m _ _ any_head); [by destruct m|apply any_head_spec].
  - destruct (nohead_dec s) as [Hs|(s' & ->)].
    + apply (sim_fails_sound m _ (String "013" "") (List.filter (fun o => negb (bool_decide (o = Some "010"%char))) any_head)); [by destruct m|].
      apply elem_of_list_In, filter_In. split; [apply elem_of_list_In, any_head_spec|]. apply negb_true_iff, bool_decide_eq_false_2.
      destruct s as [|ch s]; [done|]. intros [= ->]. done.
    + change (String "013" "" ++ String "010" s') with (String "013" (String "010" "") ++ s').
      apply (sim_fails_sound m _ _ any_head); [by destruct m|apply any_head_spec].
Qed.
Lemma reads_body m body s : sall (fun ch => negb (is_break ch)) body = true -> (s = "" \/ begins is_break s) ->
  peg_run m (Star (Cat (Not newline) any)) (body ++ s) = Some ([], body, s).
Proof.
  induction body as [|ch body IH]; intros Hb Hs.
  - rewrite run_star. change ("" ++ s) with s. destruct Hs as [->|(ch & s' & -> & Hc)].
    + destruct m; with_strategy transparent [peg_run] reflexivity.
    + by rewrite body_stop.
  - cbn [sall] in Hb. apply andb_prop in Hb as [Hc Hb]. apply negb_true_iff in Hc.
    rewrite run_star, sapp_cons, (body_char m ch _ Hc), (IH Hb Hs). done.
Qed.
Lemma reads_nls m nls s : sall is_eol nls = true -> nohead is_break s -> peg_run m (Star newline) (nls ++ s) = Some ([], nls, s).
Proof.
  induction nls as [|ch nls IH]; intros Hn Hs.
  - rewrite run_star. change ("" ++ s) with s. by rewrite newline_stop.
  - cbn [sall] in Hn. apply andb_prop in Hn as [Hc Hn]. apply Ascii.eqb_eq in Hc as ->.
    rewrite run_star, sapp_cons.
    assert (E : peg_run m newline (String "010" (nls ++ s)) = Some ([], String "010" "", nls ++ s))
      by (with_strategy transparent [peg_run] reflexivity).
    rewrite E, (IH Hn Hs). done.
Qed.
Lemma comment_run m body nls s : sall (fun ch => negb (is_break ch)) body = true -> sall is_eol nls = true ->
  (nls = "" -> s = "") -> nohead is_break s ->
  peg_run m g_comment (("//" ++ body ++ nls) ++ s) = Some ([], "//" ++ body ++ nls, s).
Proof.
  intros Hb Hn Hz Hs.
  assert (E : peg_run m (Cat (t "//") (Cat (Star (Cat (Not newline) any)) (Cat (Star newline) (Not newline)))) (("//" ++ body ++ nls) ++ s)
              = Some ([], "//" ++ body ++ nls, s)).
  { rewrite !sapp_assoc, cat_run, lit_run, strip_app, cat_run, (reads_body m body (nls ++ s) Hb).
    2: { destruct nls as [|ch nls]; [left; by rewrite Hz|]. right. exists ch. eexists. split; [by rewrite sapp_cons|].
         cbn [sall] in Hn. apply andb_prop in Hn as [Hn _]. unfold is_eol in Hn. unfold is_break. by rewrite Hn. }
    rewrite cat_run, (reads_nls m nls s Hn Hs).
    assert (E : peg_run m (Not newline) s = Some ([], "", s)).
    { pose proof (newline_stop m s Hs) as E. revert E. generalize newline. intros e E.
      with_strategy transparent [peg_run] cbn [peg_run]. by rewrite E. }
    rewrite E. by rewrite sapp_nil_r. }
  revert E. unfold g_comment. generalize (Cat (t "//") (Cat (Star (Cat (Not newline) any)) (Cat (Star newline) (Not newline)))).
  intros e E. with_strategy transparent [peg_run] cbn [peg_run]. by rewrite E.
Qed.
Lemma link_end_comment m k s : comment k -> nohead is_break s -> peg_run m link_end (k ++ s) = Some ([], k, s).
Proof.
  intros (body & nls & -> & Hb & Hne & Hn) Hs. unfold link_end. rewrite alt_run.
  assert (E : peg_run m (Cat (t ">>") (Cat W g_node)) (("//" ++ body ++ nls) ++ s) = None).
  { rewrite cat_run, lit_run. rewrite sapp_assoc. by rewrite sapp_cons. }
  rewrite E. by apply comment_run.
Qed.
Lemma link_end_last m body : sall (fun ch => negb (is_break ch)) body = true ->
  peg_run m link_end ("//" ++ body) = Some ([], "//" ++ body, "").
Proof.
  intros Hb. unfold link_end. rewrite alt_run.
  assert (E : peg_run m (Cat (t ">>") (Cat W g_node)) ("//" ++ body) = None).
  { rewrite cat_run, lit_run. by rewrite sapp_cons. }
  rewrite E. pose proof (comment_run m body "" "" Hb eq_refl (fun _ => eq_refl) I) as H.
  by rewrite !sapp_nil_r in H.
Qed.

(** ** What follows a line *)
Definition head_of_program (ch : ascii) : bool := (ref_head ch || Ascii.eqb ch "/")%bool.
Lemma line_head c math txt l : line_text c math txt l -> begins ref_head txt.
Proof.
  intros (b1 & b2 & t1 & k1 & t2 & ks & (pre & Hn) & _ & _ & _ & _ & -> & _).
  destruct (name_head _ _ Hn) as (ch & s & -> & Hc). rewrite sapp_cons. by eexists _, _.
Qed.
Lemma program_head c math txt ls : program c math txt ls -> txt = "" \/ begins head_of_program txt.
Proof.
  intros H. destruct H as [|txt l f rest ls Hl _ _ _|body _|k f rest ls (body & nls & -> & _) _ _ _]; [by left|right..].
  - destruct (line_head _ _ _ _ Hl) as (ch & s & -> & Hc). rewrite sapp_cons. exists ch. eexists. split; [done|].
    unfold head_of_program. by rewrite Hc.
  - by eexists _, _.
  - by eexists _, _.
Qed.
Lemma head_nosuch (f g : ascii -> bool) s : s = "" \/ begins f s ->
  forallb (fun ch => if f ch then negb (g ch) else true) all_chars = true -> nohead g s.
Proof.
  intros [->|(ch & s' & -> & Hc)] H; [done|]. pose proof (by_chars _ H ch) as E. cbv beta in E. rewrite Hc in E. by apply negb_true_iff in E.
Qed.
Lemma program_nosep c math txt ls : program c math txt ls -> nohead is_separator txt.
Proof. intros H. eapply head_nosuch; [by eapply program_head|vm_compute; reflexivity]. Qed.
Lemma program_noeol c math txt ls : program c math txt ls -> nohead is_eol txt.
Proof. intros H. eapply head_nosuch; [by eapply program_head|vm_compute; reflexivity]. Qed.
Lemma program_nosemi c math txt ls : program c math txt ls -> nohead (Ascii.eqb ";") txt.
Proof. intros H. eapply head_nosuch; [by eapply program_head|vm_compute; reflexivity]. Qed.

(** A filler without semicolon and with at most one line break, or the place where a link
    stops in it. *)
Lemma filler_cases f : filler f ->
  (exists b1 nl b2, f = b1 ++ nl ++ b2 /\ blanks b1 /\ blanks b2 /\ nl ∈ [""; eol] /\ (nl = "" -> b2 = "")) \/
  (exists b1 nl b2 ch s, f = b1 ++ nl ++ b2 ++ String ch s /\ blanks b1 /\ blanks b2 /\ nl ∈ [""; eol] /\
     (ch = ";"%char \/ ch = "010"%char) /\ (nl = "" -> ch = ";"%char)).
Proof.
  intros (b1 & semi & b2 & t1 & H1 & H2 & Hs & Hse & Ht & ->).
  apply elem_of_cons in Hs as [->|Hs]; [|apply elem_of_list_singleton in Hs as ->].
  - rewrite (Hse eq_refl). change ("" ++ "" ++ t1) with t1. inversion Ht as [|b t2 Hb Ht2]; subst.
    + left. exists b1, "", "". split_and!; [done|done|done|set_solver|done].
    + inversion Ht2 as [|b' t3 Hb' Ht3]; subst.
      * left. exists b1, eol, b. rewrite sapp_nil_r. split_and!; [done|done|done|set_solver|done].
      * right. exists b1, eol, b, "010"%char, (b' ++ t3). split_and!; [done|done|done|set_solver|by right|done].
  - right. exists b1, "", "", ";"%char, (b2 ++ t1). split_and!; [done|done|done|set_solver|by left|done].
Qed.
Lemma link_fails_in m f s : (exists b1 nl b2 ch s0, f = b1 ++ nl ++ b2 ++ String ch s0 /\ blanks b1 /\ blanks b2 /\ nl ∈ [""; eol] /\
     (ch = ";"%char \/ ch = "010"%char) /\ (nl = "" -> ch = ";"%char)) -> peg_run m link (f ++ s) = None.
Proof.
  intros (b1 & nl & b2 & ch & s0 & -> & H1 & H2 & Hn & Hc & Hz). rewrite !sapp_assoc, sapp_cons, link_run'; [| done..| |].
  - rewrite link_end_fails; [done|]. by destruct Hc as [-> | ->].
  - by destruct Hc as [-> | ->].
  - intros E. by rewrite (Hz E).
Qed.
Lemma link_fails_before m f s : (exists b1 nl b2, f = b1 ++ nl ++ b2 /\ blanks b1 /\ blanks b2 /\ nl ∈ [""; eol] /\ (nl = "" -> b2 = "")) ->
  s = "" \/ begins ref_head s -> peg_run m link (f ++ s) = None.
Proof.
  intros (b1 & nl & b2 & -> & H1 & H2 & Hn & Hz) Hs. rewrite !sapp_assoc, link_run'; [| done..| |].
  - rewrite link_end_fails; [done|]. eapply head_nosuch; [exact Hs|vm_compute; reflexivity].
  - eapply head_nosuch; [exact Hs|vm_compute; reflexivity].
  - intros _. eapply head_nosuch; [exact Hs|vm_compute; reflexivity].
Qed.
Lemma comment_nohead k s g : comment k -> g "/"%char = false -> nohead g (k ++ s).
Proof. intros (body & nls & -> & _) H. done. Qed.
(** A chain takes the comments right after it and stops. *)
Lemma links_end c math m rest ls : program c math rest ls -> forall f, filler f ->
  exists a f' rest', peg_run m (Star link) (f ++ rest) = Some ([], a, f' ++ rest') /\
    filler f' /\ program c math rest' ls /\ String.length rest' <= String.length rest.
Proof.
  induction 1 as [|txt l f2 rest ls Hl Hf2 Hp IH Hc|body Hb|k f2 rest ls Hk Hf2 Hp IH Hnb]; intros f Hf.
  - exists "", f, "". split; [|split; [done|split; [constructor|done]]]. rewrite run_star.
    destruct (filler_cases f Hf) as [Hs|Hs]; [rewrite link_fails_before by auto|rewrite link_fails_in by auto]; done.
  - exists "", f, (txt ++ f2 ++ rest). split; [|split; [done|split; [by constructor|done]]]. rewrite run_star.
    destruct (filler_cases f Hf) as [Hs|Hs]; [|rewrite link_fails_in by auto; done].
    rewrite link_fails_before; [done|done|]. right. destruct (line_head _ _ _ _ Hl) as (ch & s & -> & Hch). rewrite sapp_cons. by eexists _, _.
  - destruct (filler_cases f Hf) as [(b1 & nl & b2 & -> & H1 & H2 & Hn & Hz)|Hs].
    + exists ((b1 ++ nl ++ b2) ++ "//" ++ body), "", "". split; [|split; [|split; [constructor|cbn; lia]]].
      * rewrite run_star, !sapp_assoc, link_run'; [|done..]. rewrite (link_end_last m body Hb).
        rewrite !sapp_assoc. destruct (b1 ++ nl ++ b2 ++ "//" ++ body) as [|ch0 s0] eqn:E.
        { exfalso. apply (f_equal String.length) in E. rewrite !sapp_length in E. cbn in E. lia. }
        rewrite run_star. pose proof (link_fails_before m "" "") as E2. change ("" ++ "") with "" in E2. rewrite E2.
        { change ("" ++ "") with "". by rewrite sapp_nil_r. }
        { exists "", "", "". split_and!; [done|done|done|set_solver|done]. }
        { by left. }
      * exists "", "", "", "". split_and!; [done|done|set_solver|done|constructor|done].
    + exists "", f, ("//" ++ body). split; [|split; [done|split; [by constructor|done]]]. rewrite run_star. rewrite link_fails_in by auto. done.
  - destruct (filler_cases f Hf) as [(b1 & nl & b2 & -> & H1 & H2 & Hn & Hz)|Hs].
    + destruct (IH f2 Hf2) as (a & f' & rest' & E & Hf' & Hp' & Hlen).
      exists (((b1 ++ nl ++ b2) ++ k) ++ a), f', rest'. split; [|split; [done|split; [done|]]].
      * rewrite run_star, !sapp_assoc, link_run'; [| done..| |].
        2: { by apply comment_nohead. } 2: { intros _. by apply comment_nohead. }
        rewrite (link_end_comment m k (f2 ++ rest) Hk).
        2: { destruct (f2 ++ rest) as [|ch s]; [done|]. cbn [nohead]. destruct (is_break ch) eqn:Eb; [|done]. destruct Hnb. by eexists _, _. }
        destruct ((b1 ++ nl ++ b2) ++ k) as [|ch0 s0] eqn:Ek.
        { exfalso. apply (f_equal String.length) in Ek. destruct Hk as (body & nls & -> & _). rewrite !sapp_length in Ek. cbn in Ek. lia. }
        rewrite E. do 2 f_equal. rewrite <- Ek, !sapp_assoc. done.
      * rewrite !sapp_length. lia.
    + exists "", f, (k ++ f2 ++ rest). split; [|split; [done|split; [by constructor|done]]]. rewrite run_star. rewrite link_fails_in by auto. done.
Qed.

(** The end of an item. *)
Definition item_end : G := Cat W (Cat (Opt (t ";")) (Cat W (Star (Cat (t lf) W)))).
Lemma breaks_run m t1 s : breaks t1 -> nohead is_separator s -> nohead is_eol s ->
  peg_run m (Star (Cat (t lf) W)) (t1 ++ s) = Some ([], t1, s).
Proof.
  intros H Hs He. induction H as [|b t2 Hb Ht IH].
  - rewrite run_star. change ("" ++ s) with s. rewrite cat_run. by rewrite not_lf.
  - rewrite run_star, !sapp_assoc, cat_run, lit_run. change eol with lf. rewrite strip_app, (W_run m b (t2 ++ s)); [|done|].
    2: { inversion Ht; subst; [done|]. done. }
    change (lf ++ b) with (String "010" b). rewrite IH. done.
Qed.
Lemma item_end_run m f s : filler f -> nohead is_separator s -> nohead is_eol s -> nohead (Ascii.eqb ";") s ->
  peg_run m item_end (f ++ s) = Some ([], f, s).
Proof.
  intros (b1 & semi & b2 & t1 & H1 & H2 & Hs & Hse & Ht & ->) Hsep Heol Hsemi. unfold item_end. rewrite cat_run, !sapp_assoc.
  assert (Hbr : forall s0, nohead is_separator s0 -> nohead is_separator (t1 ++ s0)) by (intros; by inversion Ht; subst).
  apply elem_of_cons in Hs as [->|Hs]; [|apply elem_of_list_singleton in Hs as ->].
  - rewrite (Hse eq_refl). nilapp. rewrite (W_run m b1 (t1 ++ s) H1 (Hbr _ Hsep)). rewrite cat_run, opt_run, lit_run.
    assert (E : strip ";" (t1 ++ s) = None).
    { assert (nohead (Ascii.eqb ";") (t1 ++ s)) as H by (by inversion Ht; subst). destruct (t1 ++ s) as [|ch r]; [done|].
      cbn [strip nohead] in *. by rewrite H. }
    rewrite E, cat_run. pose proof (W_run m "" (t1 ++ s) eq_refl (Hbr _ Hsep)) as Ew. change ("" ++ t1 ++ s) with (t1 ++ s) in Ew.
    rewrite Ew, breaks_run by done. done.
  - rewrite (W_run m b1 _ H1) by done. rewrite cat_run, opt_run, lit_run, strip_app, cat_run, (W_run m b2 _ H2 (Hbr _ Hsep)).
    rewrite breaks_run by done. done.
Qed.

(** ** Chains *)
Definition node_start (ch : ascii) : bool := (ref_head ch || Ascii.eqb ch "[")%bool.
Lemma node_head c math txt k : node_text c math txt k -> begins node_start txt.
Proof.
  intros (kw & ws & t1 & H & _ & ->).
  assert (Hk : begins node_start kw).
  { destruct H; try (by eexists _, _);
      try (match goal with H : (_, _) ∈ ?l |- _ => unfold one_arg, one_num, two_num, arg_and_num in H; pick_in H; by eexists _, _ end);
      try (match goal with H : _ ∈ _ |- _ => repeat (apply elem_of_cons in H as [->|H]; [by eexists _, _|]); by apply elem_of_nil in H end).
    all: match goal with H : name_of _ _ |- _ => apply name_head in H as (ch & s & -> & Hc)
         | H : free_name _ |- _ => destruct H as (pre & H & _); apply name_head in H as (ch & s & -> & Hc) end; exists ch, s; split; [done|]; unfold node_start; by rewrite Hc. }
  destruct Hk as (ch & s & -> & Hc). rewrite sapp_cons. by eexists _, _.
Qed.
Lemma node_reads c math txt k : node_text c math txt k -> means c math txt k.
Proof. intros (kw & ws & t1 & H & Ha & ->). by eapply node_means. Qed.
Definition joint_head (ch : ascii) : bool := (is_separator ch || is_eol ch || linkish ch)%bool.
Lemma joint_begins j : joint j -> begins joint_head j.
Proof.
  assert (H : forall b1 nl b2 s, blanks b1 -> blanks b2 -> nl ∈ [""; eol] -> begins joint_head s -> begins joint_head (b1 ++ nl ++ b2 ++ s)).
  { assert (Hb : forall b s, blanks b -> begins joint_head s -> begins joint_head (b ++ s)).
    { intros b s Hb Hs. destruct b as [|ch b]; [done|]. exists ch. eexists. split; [by rewrite sapp_cons|]. unfold blanks in Hb. cbn [sall] in Hb.
      apply andb_prop in Hb as [Hb _]. unfold joint_head. by rewrite Hb. }
    intros b1 nl b2 s H1 H2 Hn Hs. apply Hb; [done|]. apply elem_of_cons in Hn as [->|Hn]; [|apply elem_of_list_singleton in Hn as ->].
    - change ("" ++ ?x) with x. by apply Hb.
    - by eexists _, _. }
  intros Hj. destruct Hj as [b1 nl b2 b3 H1 H2 H3 Hn|b1 nl b2 k j H1 H2 Hn (body & nls & -> & _) _ _]; apply H; try done; by eexists _, _.
Qed.
Lemma joint_ends j s : joint j -> ends (j ++ s).
Proof.
  assert (H : forall b1 nl b2 s, blanks b1 -> blanks b2 -> nl ∈ [""; eol] -> begins linkish s -> ends (b1 ++ nl ++ b2 ++ s)).
  { intros b1 nl b2 s0 H1 H2 Hn (ch & s' & -> & Hc). apply elem_of_cons in Hn as [->|Hn]; [|apply elem_of_list_singleton in Hn as ->].
    - exists (b1 ++ b2), (String ch s'). split; [by rewrite sapp_assoc|]. split; [by apply blanks_app|]. cbn [shead].
      unfold linkish in Hc. apply orb_prop in Hc as [Hc|Hc]; apply Ascii.eqb_eq in Hc as ->; vm_compute; set_solver.
    - exists b1. eexists. split; [done|]. split; [done|]. vm_compute. set_solver. }
  intros Hj. destruct Hj as [b1 nl b2 b3 H1 H2 H3 Hn|b1 nl b2 k j H1 H2 Hn (body & nls & -> & _) _ _]; rewrite !sapp_assoc; apply H; try done; by eexists _, _.
Qed.
Lemma joint_run c math m j txt k s : joint j -> node_text c math txt k -> ends s ->
  exists q, p_node c math q = Done k /\
   (forall ps tx s', peg_run m (Star link) s = Some (ps, tx, s') ->
      peg_run m (Star link) (j ++ txt ++ s) = Some ((q :: ps)%list, (j ++ txt) ++ tx, s')).
Proof.
  intros Hj Hn Hs. destruct (node_reads c math txt k Hn) as (q & Hq & _ & Hk). exists q. split; [done|].
  intros ps tx s' E. assert (Hh := node_head c math txt k Hn). clear Hn Hk.
  induction Hj as [b1 nl b2 b3 H1 H2 H3 Hnl|b1 nl b2 kk j H1 H2 Hnl Hkk Hj IH Hb].
  - rewrite run_star, !sapp_assoc, link_run'; [|done..].
    assert (El : peg_run m link_end (">>" ++ b3 ++ txt ++ s) = Some ([q], ">>" ++ b3 ++ txt, s)).
    { unfold link_end. rewrite alt_run, cat_run, lit_run, strip_app, cat_run, (W_run m b3 _ H3).
      2: { destruct Hh as (ch & r & -> & Hc). rewrite sapp_cons. cbn [nohead].
           pose proof (by_chars (fun ch => if node_start ch then negb (is_separator ch) else true) ltac:(vm_compute; reflexivity) ch) as Hx.
           cbv beta in Hx. rewrite Hc in Hx. by apply negb_true_iff in Hx. }
      rewrite (Hq m s Hs). done. }
    rewrite El. destruct ((b1 ++ nl ++ b2) ++ ">>" ++ b3 ++ txt) as [|ch0 s0] eqn:Ek.
    { exfalso. apply (f_equal String.length) in Ek. rewrite !sapp_length in Ek. cbn in Ek. lia. }
    rewrite E. do 2 f_equal. rewrite <- Ek, !sapp_assoc. done.
  - rewrite run_star, !sapp_assoc, link_run'; [| done..| |].
    2: { by apply comment_nohead. } 2: { intros _. by apply comment_nohead. }
    rewrite (link_end_comment m kk (j ++ txt ++ s) Hkk).
    2: { destruct (joint_begins j Hj) as (ch & r & -> & Hc). rewrite sapp_cons. cbn [nohead].
         assert (is_eol ch = false). { destruct (is_eol ch) eqn:Ee; [|done]. destruct Hb. by eexists _, _. }
         pose proof (by_chars (fun ch => if joint_head ch && negb (is_eol ch) then negb (is_break ch) else true) ltac:(vm_compute; reflexivity) ch) as Hx.
         cbv beta in Hx. rewrite Hc, H in Hx. by apply negb_true_iff in Hx. }
    destruct ((b1 ++ nl ++ b2) ++ kk) as [|ch0 s0] eqn:Ek.
    { exfalso. apply (f_equal String.length) in Ek. destruct Hkk as (body & nls & -> & _). rewrite !sapp_length in Ek. cbn in Ek. lia. }
    rewrite IH. do 2 f_equal. rewrite <- Ek, !sapp_assoc. done.
Qed.
Lemma more_ends c math t1 ks s : more_nodes c math t1 ks -> ends s -> ends (t1 ++ s).
Proof. intros H Hs. destruct H; [done|]. rewrite sapp_assoc. by apply joint_ends. Qed.
Lemma more_run c math m t1 ks s a s' : more_nodes c math t1 ks -> ends s -> peg_run m (Star link) s = Some ([], a, s') ->
  exists qs, peg_run m (Star link) (t1 ++ s) = Some (qs, t1 ++ a, s') /\ collect (p_node c math) qs = Done ks.
Proof.
  intros H Hs Ha. induction H as [|j txt k t1 ks Hj Hn Hm IH].
  - exists []. change ("" ++ ?x) with x. done.
  - destruct IH as (qs & E & Hc). destruct (joint_run c math m j txt k (t1 ++ s) Hj Hn (more_ends c math t1 ks s Hm Hs)) as (q & Hk & Hrun).
    exists (q :: qs). rewrite !sapp_assoc, (Hrun _ _ _ E). split; [by rewrite !sapp_assoc|]. cbn [collect]. rewrite Hk. cbn [bind]. by rewrite Hc.
Qed.

(** ** Lines and programs *)
Lemma rul_compound m r (e : G) s : peg_run m (Rul Peg.Compound r e) s =
  match peg_run true e s with Some (p, tx, s') => Some ([Pair r tx p], tx, s') | None => None end.
Proof. with_strategy transparent [peg_run] reflexivity. Qed.
Lemma line_run c math m txt l f rest a s' : line_text c math txt l -> ends (f ++ rest) ->
  peg_run true (Star link) (f ++ rest) = Some ([], a, s') ->
  exists p, peg_run m g_line (txt ++ f ++ rest) = Some ([p], txt ++ a, s') /\ p_rule p = r_line /\ p_line c math p = Done l.
Proof.
  intros (b1 & b2 & t1 & k1 & t2 & ks & (pre & Hn) & H1 & H2 & Hk & Hm & -> & El) He Ha.
  destruct (reads_name pre l.1 Hn) as [inner Hnm].
  destruct (node_reads c math t1 k1 Hk) as (q & Hq & Hqr & Hqk).
  destruct (more_run c math true t2 ks (f ++ rest) a s' Hm He Ha) as (qs & Eqs & Hqs).
  assert (Hsep : nohead is_separator (t1 ++ t2 ++ f ++ rest)).
  { destruct (node_head c math t1 k1 Hk) as (ch & r & -> & Hc). rewrite sapp_cons. cbn [nohead].
    pose proof (by_chars (fun ch => if node_start ch then negb (is_separator ch) else true) ltac:(vm_compute; reflexivity) ch) as Hx.
    cbv beta in Hx. rewrite Hc in Hx. by apply negb_true_iff in Hx. }
  assert (Hch : peg_run true g_chain (t1 ++ t2 ++ f ++ rest) =
    Some ([Pair r_chain (t1 ++ t2 ++ a) (q :: qs)], t1 ++ t2 ++ a, s')).
  { unfold g_chain. rewrite rul_compound, cat_run, (Hq true _ (more_ends c math t2 ks _ Hm He)), Eqs. done. }
  assert (Hcol : nohead ref_char (b1 ++ ":" ++ b2 ++ t1 ++ t2 ++ f ++ rest)).
  { destruct b1 as [|ch b1]; [done|]. unfold blanks in H1. cbn [sall] in H1. apply andb_prop in H1 as [H1 _]. rewrite sapp_cons. cbn [nohead].
    pose proof (by_chars (fun ch => if is_separator ch then negb (ref_char ch) else true) ltac:(vm_compute; reflexivity) ch) as Hx.
    cbv beta in Hx. rewrite H1 in Hx. by apply negb_true_iff in Hx. }
  eexists. split; [|split].
  - unfold g_line. rewrite rul_compound, cat_run, !sapp_assoc, (Hnm true _ Hcol).
    rewrite cat_run, (W_run true b1 _ H1) by done. rewrite cat_run, lit_run, strip_app, cat_run, (W_run true b2 _ H2 Hsep), Hch.
    reflexivity.
  - done.
  - unfold p_line. cbn [p_in next bind app]. unfold is_rule. cbn [p_rule]. rewrite !bool_decide_true by done.
    cbn [next bind p_in collect]. rewrite Hqk. cbn [bind]. rewrite Hqs. cbn [bind p_text]. rewrite <- El. by destruct l.
Qed.
Definition item_head : G := Alt g_line g_comment.
Lemma item_eq : item = Cat item_head item_end. Proof. reflexivity. Qed.
Lemma item_run m s : peg_run m item s = match peg_run m item_head s with
  | Some (p1, t1, s1) => match peg_run m item_end s1 with Some (p2, t2, s2) => Some ((p1 ++ p2)%list, t1 ++ t2, s2) | None => None end
  | None => None end.
Proof. apply cat_run. Qed.
Lemma line_no_comment m s : peg_run m g_line ("//" ++ s) = None.
Proof.
  rewrite sapp_cons. apply (dead_on_sound (Ascii.eqb "/")); [|done]. with_strategy transparent [W] (vm_compute; reflexivity).
Qed.
Lemma filler_ends c math f rest ls : filler f -> program c math rest ls -> (rest = "" \/ begins (Ascii.eqb "/") rest \/ ~ blanks f) -> ends (f ++ rest).
Proof.
  intros (b1 & semi & b2 & t1 & H1 & H2 & Hs & Hse & Ht & ->) Hp Hc. exists b1, (semi ++ b2 ++ t1 ++ rest).
  split; [by rewrite !sapp_assoc|]. split; [done|].
  apply elem_of_cons in Hs as [->|Hs]; [|apply elem_of_list_singleton in Hs as ->; vm_compute; set_solver].
  rewrite (Hse eq_refl). nilapp. inversion Ht as [|b t2 Hb Ht2]; subst; [|vm_compute; set_solver].
  nilapp. destruct Hc as [->|[(ch & s & -> & Hc)|Hc]].
  - vm_compute. set_solver.
  - apply Ascii.eqb_eq in Hc as <-. vm_compute. set_solver.
  - destruct Hc. rewrite (Hse eq_refl). change ("" ++ "" ++ "") with "". by rewrite sapp_nil_r.
Qed.
Lemma star_item m s p1 ch t1 s1 ps t2 s2 : peg_run m item s = Some (p1, String ch t1, s1) -> peg_run m (Star item) s1 = Some (ps, t2, s2) ->
  peg_run m (Star item) s = Some ((p1 ++ ps)%list, String ch t1 ++ t2, s2).
Proof. intros H1 H2. by rewrite run_star, H1, H2. Qed.
Lemma item_none m : peg_run m item "" = None.
Proof. rewrite item_run. destruct m; with_strategy transparent [peg_run W] reflexivity. Qed.
Lemma items_run c math n : forall txt ls, String.length txt <= n -> program c math txt ls ->
  exists ps, peg_run true (Star item) txt = Some (ps, txt, "") /\ Forall (fun p => p_rule p = r_line) ps /\
    collect (p_line c math) ps = Done ls.
Proof.
  induction n as [n IH] using lt_wf_ind. intros txt ls Hlen Hp.
  destruct Hp as [|txt l f rest ls Hl Hf Hp Hc|body Hb|k f rest ls Hk Hf Hp Hnb].
  - exists []. rewrite run_star, item_none. done.
  - destruct (links_end c math true rest ls Hp f Hf) as (a & f' & rest' & Ea & Hf' & Hp' & Hlen').
    destruct (line_run c math true txt l f rest a (f' ++ rest') Hl (filler_ends c math f rest ls Hf Hp Hc) Ea) as (p & Ep & Hpr & Hpl).
    assert (Hne : exists ch t1, (txt ++ a) ++ f' = String ch t1).
    { destruct (line_head _ _ _ _ Hl) as (ch & s & -> & _). rewrite !sapp_cons. by eexists _, _. }
    destruct Hne as (ch & t1 & Ht1).
    assert (Hlt : 0 < String.length txt) by (destruct (line_head _ _ _ _ Hl) as (ch0 & s & -> & _); cbn; lia).
    rewrite !sapp_length in Hlen.
    destruct (IH (String.length rest') ltac:(lia) rest' ls (le_n _) Hp') as (ps & Eps & Hps & Hcs).
    assert (Ei : peg_run true item (txt ++ f ++ rest) = Some ([p], String ch t1, rest')).
    { rewrite item_run. unfold item_head. rewrite alt_run, Ep, item_end_run; [|done|by eapply program_nosep|by eapply program_noeol|by eapply program_nosemi].
      by rewrite Ht1. }
    exists (p :: ps). split; [|split].
    + rewrite (star_item _ _ _ _ _ _ _ _ _ Ei Eps). cbn [app]. do 2 f_equal. f_equal. rewrite <- Ht1.
      apply peg_split in Ea. rewrite Ea, !sapp_assoc. done.
    + by constructor.
    + cbn [collect]. rewrite Hpl. cbn [bind]. by rewrite Hcs.
  - exists []. split; [|done].
    assert (Ei : peg_run true item ("//" ++ body) = Some ([], "//" ++ body, "")).
    { rewrite item_run. unfold item_head. rewrite alt_run, line_no_comment.
      pose proof (comment_run true body "" "" Hb eq_refl (fun _ => eq_refl) I) as E. rewrite !sapp_nil_r in E. rewrite E.
      with_strategy transparent [peg_run W] (cbn [peg_run]). rewrite (eq_refl : peg_run true item_end "" = Some ([], "", "")). by rewrite sapp_nil_r. }
    rewrite sapp_cons in Ei |- *. rewrite (star_item _ _ _ _ _ _ [] "" "" Ei).
    + by rewrite sapp_nil_r.
    + by rewrite run_star, item_none.
  - rewrite !sapp_length in Hlen. assert (Hlt : 0 < String.length k) by (destruct Hk as (body & nls & -> & _); rewrite sapp_length; cbn; lia).
    destruct (IH (String.length rest) ltac:(lia) rest ls (le_n _) Hp) as (ps & Eps & Hps & Hcs).
    exists ps. split; [|done].
    assert (Ei : peg_run true item (k ++ f ++ rest) = Some ([], k ++ f, rest)).
    { rewrite item_run. unfold item_head. rewrite alt_run.
      assert (El : peg_run true g_line (k ++ f ++ rest) = None).
      { destruct Hk as (body & nls & -> & _). rewrite sapp_assoc. apply line_no_comment. }
      rewrite El. assert (Ec : peg_run true g_comment (k ++ f ++ rest) = Some ([], k, f ++ rest)).
      { destruct Hk as (body & nls & -> & Hb & Hne & Hn). apply comment_run; [done|done|done|].
        destruct (f ++ rest) as [|ch s]; [done|]. cbn [nohead]. destruct (is_break ch) eqn:Eb; [|done]. destruct Hnb. by eexists _, _. }
      rewrite Ec, item_end_run; [done|done|by eapply program_nosep|by eapply program_noeol|by eapply program_nosemi]. }
    destruct (k ++ f) as [|ch t1] eqn:Ek.
    { exfalso. apply (f_equal String.length) in Ek. rewrite sapp_length in Ek. cbn in Ek. lia. }
    rewrite (star_item _ _ _ _ _ _ _ _ _ Ei Eps). cbn [app]. by rewrite <- Ek, sapp_assoc.
Qed.
Lemma lead_run pre s : sall (fun ch => is_eol ch || is_separator ch)%bool pre = true -> nohead is_eol s -> nohead is_separator s ->
  peg_run true (Star (Alt (t lf) g_whitespace)) (pre ++ s) = Some ([], pre, s).
Proof.
  intros Hp He Hs.
  assert (Hchr : forall s, peg_run true (Alt (t lf) g_whitespace) s = peg_run true (Chr (fun ch => is_eol ch || is_separator ch)%bool) s).
  { intros s0. rewrite alt_run, lit_run, ws_chr. with_strategy transparent [peg_run] cbn [peg_run]. destruct s0 as [|ch s0]; [done|].
    unfold lf. cbn [strip]. unfold is_eol. rewrite Ascii.eqb_sym. destruct (Ascii.eqb_spec ch "010") as [->|]; done. }
  rewrite (star_ext _ _ (Chr (fun ch => is_eol ch || is_separator ch)%bool)) by apply Hchr.
  apply reads_chars; [done|]. destruct s as [|ch s]; [done|]. cbn [nohead] in *. by rewrite He, Hs.
Qed.

(** C53: every program written with the notation and layout of [Syntax] - any separators
    between words, comments after lines, between lines and between the nodes of a chain,
    semicolons and blank lines between lines, a line break before [>>] - is accepted and
    means the same: exactly its lines, with exactly their nodes; the last line of a name
    counts.  *)
Theorem C53_layout_partial c math txt ls : program_text c math txt ls ->
  exists ast, get_ast c math txt = Done ast /\ forall n, ast !! n = last_named n ls.
Proof.
  intros (pre & body & -> & Hpre & Hp). destruct (items_run c math (String.length body) body ls (le_n _) Hp) as (ps & Eps & Hps & Hcs).
  exists (to_ast ls). split; [|intros n; apply to_ast_lookup].
  assert (E : peg_run true g_block (pre ++ body) = Some ([Pair r_block (pre ++ body) ps], pre ++ body, "")).
  { unfold g_block. rewrite rul_compound, cat_run, (lead_run pre body Hpre); [|by eapply program_noeol|by eapply program_nosep].
    rewrite cat_run, Eps. with_strategy transparent [peg_run] cbn [peg_run]. rewrite sapp_nil_r, app_nil_r. done. }
  unfold get_ast. rewrite E. cbn [p_in].
  assert (Ef : List.filter (is_rule r_line) ps = ps).
  { clear -Hps. induction Hps as [|p ps Hp _ IH]; [done|]. cbn [List.filter]. unfold is_rule at 1. rewrite bool_decide_true by done. by rewrite IH. }
  rewrite Ef, Hcs. done.
Qed.
Corollary C53_same_meaning_partial c math txt1 txt2 ls : program_text c math txt1 ls -> program_text c math txt2 ls ->
  exists ast, get_ast c math txt1 = Done ast /\ get_ast c math txt2 = Done ast.
Proof.
  intros H1 H2. destruct (C53_layout_partial c math txt1 ls H1) as (a1 & E1 & L1).
  destruct (C53_layout_partial c math txt2 ls H2) as (a2 & E2 & L2). exists a1. split; [done|]. rewrite E2. f_equal.
  apply map_eq. intros n. by rewrite L1, L2.
Qed.

(** The same program in two layouts: in one line each, and with comments, tabs, commas,
    bars, blank lines and a semicolon. *)
Definition c64 : cfg := Cfg false 18446744073709551615.
Definition no_math (s : string) : res f32 := Panic.
Definition plain_text : string := "o: sin 440 >> mul 0.5
~b: seq 60 _~b".
Definition loose_text : string := "
  // intro

o :sin  ,440 // the pitch
  // more
 >>mul|0.5; 

   // and then
~b: seq 60, _~b // end".
Definition two_lines : list (string * list component) :=
  [("o", [CSin (Num (f_of_dec false 440 0)); CMul (Num (f_of_dec false 5 (-1)))]);
   ("~b", [CSeq (seq_events [[Note 60]; [Rest; RefNote "~b"]])])].
Ltac seth := repeat first [by apply elem_of_list_here | apply elem_of_list_further].
Lemma num440 : number "440" (f_of_dec false 440 0).
Proof. exists (Literal "" "440" None). unfold l_ok, is_sign. split_and!; try done. seth. Qed.
Lemma num05 : number "0.5" (f_of_dec false 5 (-1)).
Proof. exists (Literal "" "0" (Some ("5", None))). unfold l_ok, is_sign. split_and!; try done. seth. Qed.
Lemma group_60 : group_word c64 "60" [Note 60].
Proof. constructor. constructor. exists "", "60". split_and!; try done. seth. Qed.
Lemma group_rb : group_word c64 "_~b" [Rest; RefNote "~b"].
Proof. apply (gw_more c64 "_" Rest "~b" [RefNote "~b"]); [constructor| |done]. constructor. by constructor. Qed.
Lemma t_sin g : space g -> node_text c64 no_math ("sin" ++ g ++ "440") (CSin (Num (f_of_dec false 440 0))).
Proof.
  intros Hg. exists "sin", ["440"], (g ++ "440"). split; [|split; [|done]].
  - apply (sp_one_arg c64 no_math "sin" CSin); [seth|]. constructor. apply num440.
  - rewrite <- (sapp_nil_r "440") at 2. constructor; [done|constructor].
Qed.
Lemma t_mul g : space g -> node_text c64 no_math ("mul" ++ g ++ "0.5") (CMul (Num (f_of_dec false 5 (-1)))).
Proof.
  intros Hg. exists "mul", ["0.5"], (g ++ "0.5"). split; [|split; [|done]].
  - apply (sp_one_arg c64 no_math "mul" CMul); [seth|]. constructor. apply num05.
  - rewrite <- (sapp_nil_r "0.5") at 2. constructor; [done|constructor].
Qed.
Lemma t_seq g1 g2 : space g1 -> space g2 ->
  node_text c64 no_math ("seq" ++ g1 ++ "60" ++ g2 ++ "_~b") (CSeq (seq_events [[Note 60]; [Rest; RefNote "~b"]])).
Proof.
  intros H1 H2. exists "seq", ["60"; "_~b"], (g1 ++ "60" ++ g2 ++ "_~b"). split; [|split; [|done]].
  - apply (sp_seq c64 no_math [("60", [Note 60]); ("_~b", [Rest; RefNote "~b"])]); [done|].
    constructor; [apply group_60|]. constructor; [apply group_rb|constructor].
  - constructor; [done|]. rewrite <- (sapp_nil_r "_~b") at 2. constructor; [done|constructor].
Qed.
Lemma name_plain w ch body : w = String ch body -> is_lower ch = true -> sall is_name_char body = true -> name w.
Proof. intros -> H1 H2. exists "". split; [seth|]. exists ch, body, "". rewrite sapp_nil_r. split_and!; try done. seth. Qed.
Lemma name_tilde w ch body : w = String "~" (String ch body) -> is_lower ch = true -> sall is_name_char body = true -> name w.
Proof. intros -> H1 H2. exists "~". split; [seth|]. exists ch, body, "". rewrite sapp_nil_r. split_and!; try done. seth. Qed.
Example C53_case_plain : program_text c64 no_math plain_text two_lines.
Proof.
  exists "", plain_text. split; [done|]. split; [done|].
  apply (prog_line c64 no_math "o: sin 440 >> mul 0.5" _ eol "~b: seq 60 _~b" [("~b", [CSeq (seq_events [[Note 60]; [Rest; RefNote "~b"]])])]).
  - exists "", " ", ("sin" ++ " " ++ "440"). eexists. exists ((" " ++ "" ++ "" ++ ">>" ++ " ") ++ ("mul" ++ " " ++ "0.5") ++ ""). eexists.
    split; [by apply (name_plain _ "o" "")|]. split; [done|]. split; [done|]. split; [by apply t_sin|]. split; [|split; [reflexivity|reflexivity]].
    constructor; [|by apply t_mul|constructor]. apply joint_here; try done. seth.
  - exists "", "", "", eol. split_and!; try done; [seth|]. rewrite <- (sapp_nil_r eol). apply (breaks_cons "" ""); [done|constructor].
  - rewrite <- (sapp_nil_r "~b: seq 60 _~b"). rewrite <- (sapp_nil_r "") at 2. constructor; [|..].
    + exists "", " ", ("seq" ++ " " ++ "60" ++ " " ++ "_~b"). eexists. exists "". eexists.
      split; [by apply (name_tilde _ "b" "")|]. split; [done|]. split; [done|]. split; [by apply t_seq|]. split; [constructor|split; reflexivity].
    + exists "", "", "", "". split_and!; try done; [seth|constructor].
    + constructor.
    + by left.
  - right. right. done.
Qed.
Lemma is_comment body nls : sall (fun ch => negb (is_break ch)) body = true -> nls <> "" -> sall is_eol nls = true -> comment ("//" ++ body ++ nls).
Proof. intros H1 H2 H3. by exists body, nls. Qed.
Lemma no_filler : filler "".
Proof. exists "", "", "", "". split_and!; try done; [seth|constructor]. Qed.
Lemma not_begins f ch s : f ch = false -> ~ begins f (String ch s).
Proof. intros H (c1 & s1 & [= <- <-] & H1). congruence. Qed.
Example C53_case_loose : program_text c64 no_math loose_text two_lines.
Proof.
  exists (eol ++ "  "). eexists. split; [reflexivity|]. split; [done|].
  apply (prog_comment c64 no_math ("//" ++ " intro" ++ (eol ++ eol)) "" "o :sin  ,440 // the pitch
  // more
 >>mul|0.5; 

   // and then
~b: seq 60, _~b // end"); [by apply is_comment|apply no_filler| |by apply not_begins].
  apply (prog_line c64 no_math "o :sin  ,440 // the pitch
  // more
 >>mul|0.5" _ (";" ++ " " ++ eol ++ "" ++ eol ++ "   ") "// and then
~b: seq 60, _~b // end" [("~b", [CSeq (seq_events [[Note 60]; [Rest; RefNote "~b"]])])]).
  - exists " ", "", ("sin" ++ "  ," ++ "440"). eexists.
    exists ((" " ++ "" ++ "" ++ ("//" ++ " the pitch" ++ eol) ++ ("  " ++ "" ++ "" ++ ("//" ++ " more" ++ eol) ++ (" " ++ "" ++ "" ++ ">>" ++ ""))) ++ ("mul" ++ "|" ++ "0.5") ++ "").
    eexists. split; [by apply (name_plain _ "o" "")|]. split; [done|]. split; [done|]. split; [by apply t_sin|]. split; [|split; [reflexivity|reflexivity]].
    constructor; [|by apply t_mul|constructor].
    apply joint_comment; [done|done|seth|by apply is_comment| |by apply not_begins].
    apply joint_comment; [done|done|seth|by apply is_comment| |by apply not_begins].
    apply joint_here; [done|done|done|seth].
  - exists "", ";", " ". eexists. split_and!; [done|done|seth|done| |reflexivity].
    apply breaks_cons; [done|]. rewrite <- (sapp_nil_r "   "). apply breaks_cons; [done|constructor].
  - apply (prog_comment c64 no_math ("//" ++ " and then" ++ eol) "" "~b: seq 60, _~b // end"); [by apply is_comment|apply no_filler| |by apply not_begins].
    apply (prog_line c64 no_math "~b: seq 60, _~b" _ " " "// end" []).
    + exists "", " ", ("seq" ++ " " ++ "60" ++ ", " ++ "_~b"). eexists. exists "". eexists.
      split; [by apply (name_tilde _ "b" "")|]. split; [done|]. split; [done|]. split; [by apply t_seq|]. split; [constructor|split; reflexivity].
    + exists " ", "", "", "". split_and!; try done; [seth|constructor].
    + by apply (prog_last c64 no_math " end").
    + right. left. by eexists _, _.
  - right. right. done.
Qed.
Example C53_case : get_ast c64 no_math plain_text = get_ast c64 no_math loose_text /\
  exists ast, get_ast c64 no_math plain_text = Done ast /\ List.length (default [] (ast !! "o")) = 2.
Proof.
  destruct (C53_same_meaning_partial c64 no_math _ _ _ C53_case_plain C53_case_loose) as (ast & E1 & E2).
  split; [by rewrite E1, E2|]. exists ast. split; [done|].
  destruct (C53_layout_partial c64 no_math _ _ C53_case_plain) as (ast' & E & L). rewrite E in E1. injection E1 as <-. by rewrite L.
Qed.

(** C53 as stated fails: a blank line before [>>], a line break after it, and carriage
    returns change an accepted program into an error. *)
Definition accepts (txt : string) : bool := match get_ast c64 no_math txt with Done _ => true | _ => false end.
Theorem C53_blank_line_refuted : exists b, sall (fun ch => is_eol ch || is_separator ch)%bool b = true /\
  get_ast c64 no_math ("o: sin 440" ++ eol ++ ">> mul 0.5") <> get_ast c64 no_math ("o: sin 440" ++ b ++ eol ++ ">> mul 0.5") /\
  accepts ("o: sin 440" ++ eol ++ ">> mul 0.5") = true /\ accepts ("o: sin 440" ++ b ++ eol ++ ">> mul 0.5") = false.
Proof.
  exists eol. assert (E1 : accepts ("o: sin 440" ++ eol ++ ">> mul 0.5") = true) by (with_strategy transparent [peg_run W W1] (vm_compute; reflexivity)).
  assert (E2 : accepts ("o: sin 440" ++ eol ++ eol ++ ">> mul 0.5") = false) by (with_strategy transparent [peg_run W W1] (vm_compute; reflexivity)).
  split; [done|]. split; [|done]. intros E. unfold accepts in E1, E2. rewrite E in E1. congruence.
Qed.
Theorem C53_line_break_refuted : accepts "o: sin 440 >> mul 0.5" = true /\ accepts ("o: sin 440 >>" ++ eol ++ " mul 0.5") = false.
Proof. with_strategy transparent [peg_run W W1] (vm_compute; split; reflexivity). Qed.
Theorem C53_crlf_refuted : accepts ("o: sin 440" ++ eol ++ "~a: sin 1") = true /\ accepts ("o: sin 440" ++ String "013" eol ++ "~a: sin 1") = false.
Proof. with_strategy transparent [peg_run W W1] (vm_compute; split; reflexivity). Qed.

(** ** C60: spellings *)
(** Every spelling of the tables works in every program: the line is read as that node. *)
Theorem C60_spellings_partial c math kw ws k t1 b1 b2 : spells c math kw ws k -> args ws t1 -> blanks b1 -> blanks b2 ->
  exists ast, get_ast c math ("o" ++ b1 ++ ":" ++ b2 ++ kw ++ t1) = Done ast /\ ast !! "o" = Some [k].
Proof.
  intros Hs Ha H1 H2.
  destruct (C53_layout_partial c math ("o" ++ b1 ++ ":" ++ b2 ++ kw ++ t1) [("o", [k])]) as (ast & E & L).
  - exists "". eexists. split; [reflexivity|]. split; [done|].
    change ("" ++ "o" ++ b1 ++ ":" ++ b2 ++ kw ++ t1) with ("o" ++ b1 ++ ":" ++ b2 ++ kw ++ t1).
    cut (program c math (("o" ++ b1 ++ ":" ++ b2 ++ kw ++ t1) ++ "" ++ "") [("o", [k])]).
    { change ("" ++ "") with "". by rewrite sapp_nil_r. }
    apply (prog_line c math _ _ "" "" []).
    + exists b1, b2, (kw ++ t1), k, "", []. split; [by apply (name_plain _ "o" "")|]. split_and!; try done.
      * by exists kw, ws, t1.
      * constructor.
      * by rewrite sapp_nil_r.
    + apply no_filler.
    + constructor.
    + by left.
  - exists ast. split; [done|]. by rewrite L.
Qed.
(** All pairs of spellings of the grammar for which it holds. *)
Example C60_pairs : exists k1 k2 k3 k4 k5,
  (("sig", k1) ∈ one_num /\ ("constsig", k1) ∈ one_num) /\
  (("hpf", k2) ∈ arg_and_num /\ ("rhpf", k2) ∈ arg_and_num) /\
  (("apfgain", k3) ∈ arg_and_num /\ ("apfmsgain", k3) ∈ arg_and_num) /\
  (forall n w, natural c64 w n -> spells c64 no_math "noise" [w] (k4 n) /\ spells c64 no_math "noiz" [w] (k4 n)) /\
  (forall w, symbol w -> spells c64 no_math "sp" [w] (k5 w) /\ spells c64 no_math "sampler" [w] (k5 w)).
Proof.
  exists CConstSig, CRhpf, CApfmsGain, CNoise, CSp. split_and!; try seth.
  - intros n w Hn. split; apply sp_noise; try done; seth.
  - intros w Hw. split; apply sp_sp; try done; seth.
Qed.
Example C60_case : exists ast, get_ast c64 no_math "o: sampler \bd0" = Done ast /\ ast !! "o" = Some [CSp "\bd0"].
Proof.
  apply (C60_spellings_partial c64 no_math "sampler" ["\bd0"] _ " \bd0" "" " "); [|..|done|done].
  - apply sp_sp; [seth|]. exists "bd0". split; [done|]. split; [done|]. by right.
  - rewrite <- (sapp_nil_r " \bd0"). apply (args_cons "\bd0" [] " " ""); [done|constructor].
Qed.
(** [msg_synth] is read as a reference to a chain of that name, whatever follows. *)
Lemma msg_synth_is_get m rest : shead rest ∈ blank_heads ->
  peg_run m g_node ("msg_synth" ++ rest) =
  Some ([Pair r_node "msg_synth" [Pair r_get "msg_synth" [Pair r_reference "msg_synth" []]]], "msg_synth", rest).
Proof.
  intros H. assert (E : sim m g_node "msg_synth" (shead rest) =
    Some (Some ([Pair r_node "msg_synth" [Pair r_get "msg_synth" [Pair r_reference "msg_synth" []]]], "msg_synth", ""))).
  { unfold blank_heads in H. repeat (apply elem_of_cons in H as [->|H]; [by destruct m; vm_compute|]). by apply elem_of_nil in H. }
  by rewrite (sim_sound _ _ _ _ _ E).
Qed.
Theorem C60_msg_synth_refuted : exists w w1 v1 w2 v2 g, symbol w /\ number w1 v1 /\ number w2 v2 /\ space g /\
  accepts ("o: msgsynth" ++ g ++ w ++ g ++ w1 ++ g ++ w2) = true /\
  accepts ("o: msg_synth" ++ g ++ w ++ g ++ w1 ++ g ++ w2) = false.
Proof.
  exists "\a", "0.5", (f_of_dec false 5 (-1)), "440", (f_of_dec false 440 0), " ".
  split; [exists "a"; split_and!; try done; by right|]. split; [apply num05|]. split; [apply num440|]. split; [done|].
  with_strategy transparent [peg_run W W1] (vm_compute; split; reflexivity).
Qed.
(** [sendpass] is in the grammar but no program with it is accepted. *)
Theorem C60_sendpass_refuted : accepts "o: sin 440 >> sendpass ~a" = false /\ peg_run true g_node "sendpass ~a" <> None.
Proof. split; with_strategy transparent [peg_run W W1] (vm_compute; done). Qed.

(** ** C52: names *)
(** A name that is marked with [~] or [_], or does not begin with the name of a node, can be
    used as argument wherever a number can. *)
Theorem C52_references_partial c math kw k w g : (kw, k) ∈ one_arg -> free_name w -> space g ->
  exists ast, get_ast c math ("o: " ++ kw ++ g ++ w) = Done ast /\ ast !! "o" = Some [k (NRef w)].
Proof.
  intros Hk Hw Hg. apply (C60_spellings_partial c math kw [w] (k (NRef w)) (g ++ w) "" " "); [|..|done|done].
  - by apply sp_one_arg; [|constructor].
  - rewrite <- (sapp_nil_r w) at 2. constructor; [done|constructor].
Qed.
Theorem C52_marked_names_partial c math kw k pre w g : (kw, k) ∈ one_arg -> name_of pre w -> pre <> "" -> space g ->
  exists ast, get_ast c math ("o: " ++ kw ++ g ++ w) = Done ast /\ ast !! "o" = Some [k (NRef w)].
Proof. intros Hk Hw Hp Hg. apply C52_references_partial; [done| |done]. by exists pre. Qed.
Example C52_case : exists ast, get_ast c64 no_math "o: mul ~rain_2" = Done ast /\ ast !! "o" = Some [CMul (NRef "~rain_2")].
Proof.
  apply (C52_marked_names_partial c64 no_math "mul" CMul "~" "~rain_2" " "); [seth| |done|done].
  split; [seth|]. exists "r"%char, "ain_2", "". split_and!; try done. seth.
Qed.
(** Every line name is legal, but an unmarked name that begins with a node name is not
    accepted as argument: here "rain", because "r" is in the list of node names. *)
Theorem C52_references_refuted : exists w, name w /\ accepts (w ++ ": sin 440") = true /\
  accepts ("~" ++ w ++ ": sin 440" ++ eol ++ "o: mul ~" ++ w) = true /\
  accepts (w ++ ": sin 440" ++ eol ++ "o: mul " ++ w) = false.
Proof.
  exists "rain". split; [by apply (name_plain _ "r" "ain")|]. with_strategy transparent [peg_run W W1] (vm_compute; done).
Qed.
(** And it holds for every such name: no reference to it is ever read. *)
Theorem C52_reserved_never_read n w m rest : n ∈ node_names -> name w -> String.prefix n w = true ->
  peg_run m arg_num_ref (w ++ rest) = None.
Proof.
  intros Hn Hw Hp. unfold arg_num_ref. rewrite cat_run.
  assert (E : peg_run m no_name (w ++ rest) = None).
  { assert (Ea : exists h, peg_run true (alts node_names) (w ++ rest) = Some h).
    { apply String.prefix_correct in Hp. clear Hw.
      assert (Hs : exists s, strip n (w ++ rest) = Some s).
      { revert w Hp. clear Hn. induction n as [|a n IH]; intros w0 Hp; [by eexists|]. destruct w0 as [|b w0]; [done|].
        cbn [String.length substring] in Hp. injection Hp as -> Hp. rewrite sapp_cons. cbn [strip]. rewrite Ascii.eqb_refl. by apply IH. }
      destruct Hs as [s Hs]. revert Hn Hs. generalize (w ++ rest). generalize node_names. clear.
      intros l tx Hn Hs. induction l as [|a l IH]; [by apply elem_of_nil in Hn|].
      destruct l as [|b l].
      - apply elem_of_list_singleton in Hn as ->. cbn [alts]. rewrite lit_run, Hs. by eexists.
      - change (alts (a :: b :: l)) with (Alt (t a) (alts (b :: l))). rewrite alt_run, lit_run.
        apply elem_of_cons in Hn as [->|Hn]; [rewrite Hs; by eexists|]. destruct (strip a tx); [by eexists|]. by apply IH. }
    destruct Ea as [[[p tx] s] Ea]. unfold no_name, g_node_name. revert Ea. generalize (alts node_names). intros e Ea.
    with_strategy transparent [peg_run] cbn [peg_run]. by rewrite Ea. }
  by rewrite E.
Qed.

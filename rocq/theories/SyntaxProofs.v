(** * SyntaxProofs: the grammar reads the tokens of [Syntax] as they are meant. *)
From Coq Require Import Lia Bool.
From Verif Require Export Syntax Reads Parse.
Local Open Scope nat_scope.
Local Open Scope string_scope.

Ltac nilapp := rewrite ?sapp_cons; repeat match goal with |- context [append "" ?s] => change (append "" s) with s end.
(** ** Character classes *)
Definition all_chars : list ascii := map (fun n => ascii_of_nat n) (seq 0 256).
Lemma all_chars_spec c : c ∈ all_chars.
Proof.
  apply elem_of_list_fmap. exists (nat_of_ascii c). split; [by rewrite ascii_nat_embedding|].
  apply elem_of_seq. pose proof (nat_ascii_bounded c). lia.
Qed.
(** To decide a statement about one character, look at all of them. *)
Lemma by_chars (P : ascii -> bool) : forallb P all_chars = true -> forall c, P c = true.
Proof. intros H c. rewrite forallb_forall in H. apply H, elem_of_list_In, all_chars_spec. Qed.
Definition any_head : list (option ascii) := None :: map Some all_chars.
Lemma any_head_spec s : shead s ∈ any_head.
Proof. destruct s as [|c s]; [left|right]. apply elem_of_list_fmap. exists c. split; [done|apply all_chars_spec]. Qed.

Definition blank_heads : list (option ascii) := [Some " "%char; Some ","%char; Some "|"%char; Some "009"%char].
Definition end_heads : list (option ascii) := [None; Some "010"%char; Some ";"%char; Some "/"%char; Some ">"%char].
Definition stop_heads : list (option ascii) := (blank_heads ++ end_heads)%list.
(** What may follow a token; what may follow a node. *)
Definition stop (s : string) : Prop := shead s ∈ stop_heads.
Definition ends (s : string) : Prop := exists b r, s = b ++ r /\ blanks b /\ shead r ∈ end_heads.
Lemma is_blank_sep c : is_blank c = is_separator c. Proof. reflexivity. Qed.
Lemma blank_head c s : is_separator c = true -> shead (String c s) ∈ blank_heads.
Proof.
  unfold is_separator. intros H. apply orb_prop in H as [H|H]; [apply orb_prop in H as [H|H]; [apply orb_prop in H as [H|H]|]|];
    apply Ascii.eqb_eq in H as ->; simpl; set_solver.
Qed.
Lemma ends_stop s : ends s -> stop s.
Proof.
  intros (b & r & -> & Hb & Hr). unfold stop, stop_heads. destruct b as [|c b]; [apply elem_of_app; by right|].
  unfold blanks in Hb. simpl in Hb. apply andb_prop in Hb as [Hb _].
  apply elem_of_app; left. by apply blank_head.
Qed.
Lemma stop_nohead (f : ascii -> bool) s : forallb (fun o => match o with Some c => negb (f c) | None => true end) stop_heads = true ->
  stop s -> nohead f s.
Proof.
  intros H Hs. rewrite forallb_forall in H. specialize (H (shead s)). rewrite <- elem_of_list_In in H. specialize (H Hs).
  destruct s as [|c s]; [done|]. simpl in *. by destruct (f c).
Qed.
Lemma space_stop g s : space g -> stop (g ++ s).
Proof.
  intros [Hn Hg]. destruct g as [|c g]; [done|]. unfold blanks in Hg. simpl in Hg. apply andb_prop in Hg as [Hg _].
  apply elem_of_app; left. by apply blank_head.
Qed.
Lemma space_head g s : space g -> shead (g ++ s) ∈ blank_heads.
Proof.
  intros [Hn Hg]. destruct g as [|c g]; [done|]. unfold blanks in Hg. simpl in Hg. apply andb_prop in Hg as [Hg _].
  by apply blank_head.
Qed.

(** ** White space *)
Lemma ws_chr m s : peg_run m g_whitespace s = peg_run m (Chr is_separator) s.
Proof.
  unfold g_whitespace, t, tab. cbn [peg_run]. destruct s as [|c s]; [done|]. cbn [strip].
  unfold is_separator. rewrite !(Ascii.eqb_sym _ c).
  destruct (Ascii.eqb_spec c " ") as [->|]; [done|]. destruct (Ascii.eqb_spec c ",") as [->|]; [done|].
  destruct (Ascii.eqb_spec c "|") as [->|]; [done|]. by destruct (Ascii.eqb_spec c "009") as [->|].
Qed.
Lemma reads_W b : blanks b -> reads_on (nohead is_separator) W b [].
Proof.
  intros Hb m rest Hr. unfold W. rewrite (star_ext _ _ (Chr is_separator)) by apply ws_chr. by apply reads_chars.
Qed.
Lemma reads_W1 g : space g -> reads_on (nohead is_separator) W1 g [].
Proof.
  intros [Hn Hb] m rest Hr. unfold W1, many1. rewrite (many1_ext _ _ (Chr is_separator)) by apply ws_chr.
  by apply reads_chars1.
Qed.
Lemma W1_fails m s : nohead is_separator s -> peg_run m W1 s = None.
Proof.
  intros H. unfold W1, many1. rewrite (many1_ext _ _ (Chr is_separator)) by apply ws_chr. destruct s as [|c s]; [done|].
  simpl in H |- *. by rewrite H.
Qed.
Lemma ends_cases s : ends s -> (nohead is_separator s /\ shead s ∈ end_heads) \/
  exists g r, s = g ++ r /\ space g /\ nohead is_separator r /\ shead r ∈ end_heads.
Proof.
  intros (b & r & -> & Hb & Hr). assert (nohead is_separator r).
  { destruct r as [|c r]; [done|]. simpl in *. unfold end_heads in Hr. 
    repeat (apply elem_of_cons in Hr as [Hr|Hr]; [simplify_eq; reflexivity|]). by apply elem_of_nil in Hr. }
  destruct b as [|c b]; [by left|]. right. exists (String c b), r. by repeat split.
Qed.
(** A further word in a list of words ends the list when the node ends. *)
Lemma no_more_words (e : G) m s : sim_fails m e "" end_heads = true -> ends s -> peg_run m (Cat W1 e) s = None.
Proof.
  intros He Hs. cbn [peg_run]. apply ends_cases in Hs as [[H _]|(g & r & -> & Hg & Hr & He')]; [by rewrite W1_fails|].
  rewrite (reads_W1 g Hg m r Hr). pose proof (sim_fails_sound m e "" end_heads r He He') as H. change ("" ++ r) with r in H. by rewrite H.
Qed.
Local Opaque W W1.

(** ** Numerals *)
Definition num_char (c : ascii) : bool := (is_digit c || Ascii.eqb c "." || Ascii.eqb (lower c) "e")%bool.
Lemma reads_sign s : is_sign s -> reads_on (nohead (fun c => Ascii.eqb c "+" || Ascii.eqb c "-")) opt_sign s [].
Proof.
  intros Hs m rest Hr. unfold opt_sign, t. unfold is_sign in Hs.
  apply elem_of_cons in Hs as [->|Hs]; [|apply elem_of_cons in Hs as [->|Hs]; [done|apply elem_of_cons in Hs as [->|Hs]; [done|by apply elem_of_nil in Hs]]].
  nilapp. destruct rest as [|c rest]; [done|]. simpl in Hr. cbn [peg_run strip].
  rewrite !(Ascii.eqb_sym _ c). by destruct (Ascii.eqb c "+"), (Ascii.eqb c "-").
Qed.
Lemma digits_nosign d s : digits d -> d <> "" -> nohead (fun c => Ascii.eqb c "+" || Ascii.eqb c "-") (d ++ s).
Proof.
  intros Hd Hn. destruct d as [|c d]; [done|]. unfold digits in Hd. simpl in Hd. apply andb_prop in Hd as [Hd _]. simpl.
  pose proof (by_chars (fun c => negb (is_digit c) || negb (Ascii.eqb c "+" || Ascii.eqb c "-")) ltac:(vm_compute; reflexivity) c) as H.
  cbv beta in H. rewrite Hd in H. simpl in H. by apply negb_true_iff in H.
Qed.
Lemma reads_digits d : digits d -> d <> "" -> reads_on (nohead is_digit) (many1 ascii_digit) d [].
Proof. intros Hd Hn. by apply reads_chars1. Qed.
Lemma reads_signed sg d : is_sign sg -> digits d -> d <> "" ->
  reads_on (nohead is_digit) (Cat opt_sign (many1 ascii_digit)) (sg ++ d) [].
Proof.
  intros Hs Hd Hn. apply (reads_cat (nohead (fun c => Ascii.eqb c "+" || Ascii.eqb c "-")) _ _ _ _ _ [] []);
    [by apply reads_sign|by apply reads_digits|]. intros rest _. by apply digits_nosign.
Qed.
Definition int_char (c : ascii) : bool := (is_digit c || Ascii.eqb c ".")%bool.
Lemma reads_integer sg d : is_sign sg -> digits d -> d <> "" ->
  reads_on (nohead int_char) g_integer (sg ++ d) [Pair r_integer (sg ++ d) []].
Proof.
  intros Hs Hd Hn. unfold g_integer. apply reads_compound. intros m rest Hr.
  pose proof (reads_signed sg d Hs Hd Hn m rest) as H. cbn [peg_run] in H |- *.
  assert (H1 : nohead is_digit rest).
  { eapply nohead_imp; [|exact Hr]. intros c. unfold int_char. by intros ->. }
  specialize (H H1).
  destruct (peg_run m opt_sign ((sg ++ d) ++ rest)) as [[[p1 t1] s1]|]; [|done].
  destruct (peg_run m (many1 ascii_digit) s1) as [[[p2 t2] s2]|]; [|done]. injection H as H1' H2 ->.
  assert (E : strip "." rest = None).
  { destruct rest as [|c rest]; [done|]. simpl in Hr. unfold int_char in Hr. apply orb_false_iff in Hr as [_ Hr].
    cbn [strip]. by rewrite Ascii.eqb_sym, Hr. }
  unfold t. cbn [peg_run]. rewrite E. rewrite !sapp_nil_r, !app_nil_r. by rewrite H1', H2.
Qed.
Lemma reads_float sg d fp ex : is_sign sg -> digits d -> d <> "" -> digits fp ->
  match ex with None => True | Some (e, es, ed) => (e = "e"%char \/ e = "E"%char) /\ is_sign es /\ digits ed /\ ed <> "" end ->
  exists l, reads_on (nohead num_char) g_float
    (sg ++ d ++ "." ++ fp ++ match ex with None => "" | Some (e, es, ed) => String e (es ++ ed) end) 
    [Pair r_float (sg ++ d ++ "." ++ fp ++ match ex with None => "" | Some (e, es, ed) => String e (es ++ ed) end) l].
Proof.
  intros Hs Hd Hn Hfp Hex.
  assert (Hdot : forall s, nohead is_digit ("." ++ s)) by done.
  assert (Hfrac : forall (b : G) tb pb (Q : string -> Prop), reads_on Q b tb pb -> (forall rest, Q rest -> nohead is_digit (tb ++ rest)) ->
     reads_on Q (Cat (Cat opt_sign (many1 ascii_digit)) (Cat (t ".") (Cat (Star ascii_digit) b))) (sg ++ d ++ "." ++ fp ++ tb) pb).
  { intros b tb pb Q Hb Hq. rewrite <- sapp_assoc.
    apply (reads_cat (nohead is_digit) Q _ _ (sg ++ d) _ [] pb); [by apply reads_signed| |done].
    apply (reads_cat (fun _ => True) Q _ _ "." _ [] pb); [apply reads_lit| |done].
    apply (reads_cat (nohead is_digit) Q _ _ fp _ [] pb); [by apply reads_chars|done|done]. }
  destruct ex as [[[e es] ed]|].
  - destruct Hex as (He & Hes & Hed & Hedn). eexists. unfold g_float. apply reads_compound. apply Hfrac.
    + apply reads_opt1. change (String e (es ++ ed)) with (String e "" ++ (es ++ ed)).
      apply (reads_cat (fun _ => True) _ _ _ _ _ [] [Pair r_integer (es ++ ed) []]); [| |done].
      * intros m rest _. unfold e_any_case. nilapp. cbn [peg_run].
        replace (Ascii.eqb (lower e) "e") with true by by destruct He as [-> | ->]. done.
      * eapply reads_weaken; [|by apply reads_integer]. intros rest. apply nohead_imp. intros c. unfold int_char, num_char.
        intros H. apply orb_prop in H as [-> | ->]; [done|by rewrite orb_true_r].
    + intros rest _. simpl. by destruct He as [-> | ->].
  - eexists. unfold g_float. apply reads_compound. apply Hfrac.
    + apply reads_opt2. intros m rest Hr. unfold e_any_case. cbn [peg_run]. destruct rest as [|c rest]; [done|].
      simpl in Hr. unfold num_char in Hr. apply orb_false_iff in Hr as [_ Hr]. by rewrite Hr.
    + intros rest Hr. nilapp. eapply nohead_imp; [|exact Hr]. intros c. unfold num_char. by intros ->.
Qed.
Lemma float_fails_int m sg d rest : is_sign sg -> digits d -> d <> "" -> nohead int_char rest ->
  peg_run m g_float ((sg ++ d) ++ rest) = None.
Proof.
  intros Hs Hd Hn Hr. unfold g_float. cbn [peg_run]. fold (@peg_run rule).
  pose proof (reads_signed sg d Hs Hd Hn true rest) as H. cbn [peg_run] in H.
  assert (H1 : nohead is_digit rest).
  { eapply nohead_imp; [|exact Hr]. intros c. unfold int_char. by intros ->. }
  specialize (H H1).
  destruct (peg_run true opt_sign ((sg ++ d) ++ rest)) as [[[p1 t1] s1]|]; [|done].
  destruct (peg_run true (many1 ascii_digit) s1) as [[[p2 t2] s2]|]; [|done]. injection H as _ _ ->.
  unfold t. cbn [peg_run].
  assert (E : strip "." rest = None).
  { destruct rest as [|c rest]; [done|]. simpl in Hr. unfold int_char in Hr. apply orb_false_iff in Hr as [_ Hr].
    cbn [strip]. by rewrite Ascii.eqb_sym, Hr. }
  by rewrite E.
Qed.
Lemma reads_number l : l_ok l -> exists inner,
  reads_on (nohead num_char) g_number (l_text l) [Pair r_number (l_text l) inner].
Proof.
  destruct l as [sg d tl]. unfold l_ok, l_text. cbn [l_sign l_int l_tail]. intros (Hs & Hd & Hn & Ht).
  assert (Hw : forall rest, nohead num_char rest -> nohead int_char rest).
  { intros rest. apply nohead_imp. intros c. unfold int_char, num_char.
    intros H. apply orb_prop in H as [-> | ->]; [done|by rewrite orb_true_r]. }
  destruct tl as [[fp ex]|].
  - destruct (reads_float sg d fp ex Hs Hd Hn) as [il H]; [by destruct ex as [[[??]?]|]; [destruct Ht|]..|].
    exists [Pair r_float (l_text (Literal sg d (Some (fp, ex)))) il]. unfold l_text. cbn [l_sign l_int l_tail].
    unfold g_number. apply reads_compound, reads_alt1.
    replace (sg ++ d ++ match ex with Some (e, es, ed) => "." ++ fp ++ String e (es ++ ed) | None => "." ++ fp end)
      with (sg ++ d ++ "." ++ fp ++ match ex with Some (e, es, ed) => String e (es ++ ed) | None => "" end); [exact H|].
    destruct ex as [[[??]?]|]; [done|]. by rewrite (sapp_nil_r fp).
  - exists [Pair r_integer (sg ++ d ++ "") []]. rewrite (sapp_nil_r d). unfold g_number. apply reads_compound, reads_alt2.
    + intros m rest Hr. apply float_fails_int; auto.
    + eapply reads_weaken; [exact Hw|]. by apply reads_integer.
Qed.
Lemma stop_num s : stop s -> nohead num_char s.
Proof. apply stop_nohead. vm_compute. reflexivity. Qed.
Definition sign_digit (c : ascii) : bool := (is_digit c || Ascii.eqb c "+" || Ascii.eqb c "-")%bool.
Lemma l_head l : l_ok l -> exists c s, l_text l = String c s /\ sign_digit c = true.
Proof.
  destruct l as [sg d tl]. unfold l_ok, l_text. cbn [l_sign l_int l_tail]. intros (Hs & Hd & Hn & _).
  destruct d as [|c d]; [done|]. unfold digits in Hd. simpl in Hd. apply andb_prop in Hd as [Hc _].
  unfold is_sign in Hs.
  apply elem_of_cons in Hs as [->|Hs]; [|apply elem_of_cons in Hs as [->|Hs]; [|apply elem_of_cons in Hs as [->|Hs]; [|by apply elem_of_nil in Hs]]].
  - do 2 eexists. split; [reflexivity|]. unfold sign_digit. by rewrite Hc.
  - by do 2 eexists.
  - by do 2 eexists.
Qed.

(** ** What [str::parse] makes of them *)
Lemma span_digits_app d s : digits d -> nohead is_digit s -> span_digits (d ++ s) = (d, s).
Proof.
  intros Hd Hs. unfold digits in Hd. induction d as [|c d IH].
  - destruct s as [|c s]; [done|]. simpl in *. by rewrite Hs.
  - cbn [sall] in Hd. apply andb_prop in Hd as [Hc Hd]. rewrite sapp_cons. cbn [span_digits]. rewrite Hc. by rewrite (IH Hd).
Qed.
Lemma digits_val_app d1 d2 acc : digits_val acc (d1 ++ d2) = digits_val (digits_val acc d1) d2.
Proof. revert acc. induction d1 as [|c d IH]; intros acc; [done|]. rewrite sapp_cons. cbn [digits_val]. apply IH. Qed.
Lemma split_sign_of sg c s : is_sign sg -> is_digit c = true ->
  split_sign (sg ++ String c s) = (String.eqb sg "-", String c s).
Proof.
  intros Hs Hc. unfold is_sign in Hs.
  apply elem_of_cons in Hs as [->|Hs]; [|apply elem_of_cons in Hs as [->|Hs]; [done|apply elem_of_cons in Hs as [->|Hs]; [done|by apply elem_of_nil in Hs]]].
  nilapp. cbn [String.eqb]. unfold split_sign.
  pose proof (by_chars (fun c => negb (is_digit c) || negb (Ascii.eqb c "-" || Ascii.eqb c "+")) ltac:(vm_compute; reflexivity) c) as H.
  cbv beta in H. rewrite Hc in H. simpl in H. apply negb_true_iff, orb_false_iff in H as [H1 H2].
  apply Ascii.eqb_neq in H1, H2. destruct c as [[] [] [] [] [] [] [] []]; try done.
Qed.
Lemma lower_digit c : is_digit c = true -> Ascii.eqb (lower c) "i" = false /\ Ascii.eqb (lower c) "n" = false.
Proof.
  intros Hc.
  pose proof (by_chars (fun c => negb (is_digit c) || negb (Ascii.eqb (lower c) "i" || Ascii.eqb (lower c) "n")) ltac:(vm_compute; reflexivity) c) as H.
  cbv beta in H. rewrite Hc in H. simpl in H. by apply negb_true_iff, orb_false_iff in H.
Qed.
Lemma parse_literal l : l_ok l -> parse_f32 (l_text l) = Some (l_value l).
Proof.
  destruct l as [sg d tl]. unfold l_ok, l_text, l_value, l_mant, l_exp. cbn [l_sign l_int l_tail]. intros (Hs & Hd & Hn & Ht).
  destruct d as [|c d]; [done|]. assert (Hd' := Hd). unfold digits in Hd. cbn [sall] in Hd. apply andb_prop in Hd as [Hc Hd].
  unfold parse_f32. rewrite sapp_cons, split_sign_of by done. cbn [smap String.eqb].
  destruct (lower_digit c Hc) as [H1 H2]. rewrite H1, H2. cbn [orb].
  change (String c (d ++ ?s)) with (String c d ++ s).
  destruct tl as [[fp [[[e es] ed]|]]|].
  - destruct Ht as (Hf & He & Hes & Hed & Hedn). rewrite span_digits_app by done. nilapp. cbn iota.
    assert (nohead is_digit (String e (es ++ ed))) by by destruct He as [-> | ->].
    rewrite span_digits_app by done. cbn [String.eqb andb].
    replace (Ascii.eqb (lower e) "e") with true by by destruct He as [-> | ->].
    destruct ed as [|ce ed]; [done|]. assert (Hce : is_digit ce = true).
    { unfold digits in Hed. simpl in Hed. by apply andb_prop in Hed as [? _]. }
    rewrite split_sign_of by done. rewrite <- (sapp_nil_r (String ce ed)) at 1. rewrite span_digits_app by done. cbn [String.eqb].
    cbn [digits_val]. by rewrite digits_val_app.
  - rewrite span_digits_app by done. nilapp. cbn iota. rewrite <- (sapp_nil_r fp) at 1. rewrite span_digits_app by done. cbn [String.eqb andb].
    cbn [digits_val]. by rewrite digits_val_app.
  - rewrite span_digits_app by done. cbn [String.eqb andb String.length]. rewrite sapp_nil_r. done.
Qed.
Lemma natural_literal c w n : natural c w n -> exists l, l_ok l /\ l_tail l = None /\ w = l_text l /\ parse_usize c w = Some n.
Proof.
  intros (sg & ds & Hs & Hd & Hn & -> & -> & Hu). exists (Literal sg ds None). unfold l_ok, l_text. cbn [l_sign l_int l_tail].
  split_and!; try done. { unfold is_sign. set_solver. } { by rewrite (sapp_nil_r ds). }
  unfold parse_usize, parse_uint.
  assert (Hb : match sg ++ ds with String "+" s' => s' | _ => sg ++ ds end = ds).
  { apply elem_of_cons in Hs as [->|Hs]; [|apply elem_of_list_singleton in Hs as ->; done].
    destruct ds as [|ch ds]; [done|]. unfold digits in Hd. simpl in Hd. apply andb_prop in Hd as [Hc _].
    nilapp. by destruct ch as [[] [] [] [] [] [] [] []]. }
  rewrite Hb. destruct ds as [|ch ds]; [done|]. unfold digits in Hd. rewrite Hd.
  replace (digits_val 0 (String ch ds) <=? Z.to_N (umax c))%N with true; [done|]. symmetry. apply N.leb_le.
  apply N2Z.inj_le. lia.
Qed.

(** ** Expressions that fail on a first character *)
Definition dead_on (f : ascii -> bool) (e : G) : bool :=
  forallb (fun c => if f c then sim_fails true e "" [Some c] && sim_fails false e "" [Some c] else true) all_chars.
Lemma dead_on_sound f e m c s : dead_on f e = true -> f c = true -> peg_run m e (String c s) = None.
Proof.
  intros H Hf. pose proof (by_chars _ H c) as Hc. cbv beta in Hc. rewrite Hf in Hc. apply andb_prop in Hc as [H1 H2].
  destruct m; [apply (sim_fails_sound true e "" [Some c] (String c s) H1)|apply (sim_fails_sound false e "" [Some c] (String c s) H2)];
    by left.
Qed.
Lemma dead_app f e m w rest : dead_on f e = true -> begins f w -> peg_run m e (w ++ rest) = None.
Proof. intros H (c & s & -> & Hc). rewrite sapp_cons. by apply (dead_on_sound f). Qed.
Lemma begins_nosep f w rest : begins f w -> forallb (fun c => if f c then negb (is_separator c) else true) all_chars = true ->
  nohead is_separator (w ++ rest).
Proof.
  intros (c & s & -> & Hc) H. pose proof (by_chars _ H c) as H1. cbv beta in H1. rewrite Hc in H1. simpl.
  by apply negb_true_iff in H1.
Qed.

(** ** Names *)
Lemma sall_app f a b : sall f (a ++ b) = (sall f a && sall f b)%bool.
Proof. induction a as [|c a IH]; [done|]. rewrite sapp_cons. cbn [sall]. by rewrite IH, andb_assoc. Qed.
Lemma span_by f s : exists a b, s = a ++ b /\ sall f a = true /\ nohead f b.
Proof.
  induction s as [|c s IH]; [by exists "", ""|]. destruct (f c) eqn:E.
  - destruct IH as (a & b & -> & H1 & H2). exists (String c a), b. split; [done|]. cbn [sall]. by rewrite E.
  - exists "", (String c s). done.
Qed.
Definition ref_char (c : ascii) : bool := (is_name_char c || Ascii.eqb c ".")%bool.
Definition ref_head (c : ascii) : bool := (Ascii.eqb c "~" || Ascii.eqb c "_" || is_lower c)%bool.
Lemma name_char_run m s : peg_run (R := rule) m (Alt (t "_") (Alt ascii_alpha_lower ascii_digit)) s = peg_run m (Chr is_name_char) s.
Proof.
  unfold t, ascii_alpha_lower, ascii_digit. cbn [peg_run]. destruct s as [|c s]; [done|]. cbn [strip].
  unfold is_name_char. rewrite (Ascii.eqb_sym "_" c). destruct (Ascii.eqb_spec c "_") as [->|]; [done|].
  cbn [orb]. by destruct (is_lower c), (is_digit c).
Qed.
Lemma reads_name pre w : name_of pre w -> exists inner,
  reads_on (nohead ref_char) g_reference w [Pair r_reference w inner].
Proof.
  intros (Hp & ch & body & dots & -> & Hch & Hb & Hd).
  destruct (span_by is_lower body) as (lo & hi & -> & Hlo & Hhi). rewrite sall_app in Hb. apply andb_prop in Hb as [_ Hb].
  assert (Hrest : exists inner, reads_on (nohead ref_char) (Cat (Star (Alt (t "_") (Alt ascii_alpha_lower ascii_digit))) (Opt g_loose_match)) (hi ++ dots) inner).
  { assert (Hstar : forall Q : string -> Prop, (forall rest, Q rest -> nohead is_name_char rest) ->
      reads_on Q (Star (Alt (t "_") (Alt ascii_alpha_lower ascii_digit))) hi []).
    { intros Q HQ m rest Hr. rewrite (star_ext _ _ (Chr is_name_char)) by apply name_char_run. apply reads_chars; auto. }
    apply elem_of_cons in Hd as [->|Hd]; [|apply elem_of_list_singleton in Hd as ->].
    - exists []. apply (reads_cat (nohead ref_char) _ _ _ _ _ [] []); [|apply reads_opt2|done].
      + apply Hstar. intros rest. apply nohead_imp. intros c. unfold ref_char. by intros ->.
      + intros m rest Hr. unfold g_loose_match, t. cbn [peg_run]. destruct rest as [|c rest]; [done|]. cbn [strip].
        simpl in Hr. unfold ref_char in Hr. apply orb_false_iff in Hr as [_ Hr]. by rewrite Ascii.eqb_sym, Hr.
    - exists [Pair r_loose_match ".." []].
      apply (reads_cat (nohead is_name_char) _ _ _ _ _ [] [Pair r_loose_match ".." []]); [by apply Hstar| |done].
      apply reads_opt1. unfold g_loose_match, t. apply reads_compound, reads_lit. }
  destruct Hrest as [inner Hrest]. exists inner. unfold g_reference. apply reads_compound.
  rewrite sapp_cons, sapp_assoc. change (String ch (lo ++ hi ++ dots)) with (String ch lo ++ (hi ++ dots)).
  assert (Hl : forall rest, nohead is_lower ((hi ++ dots) ++ rest) \/ True) by (intros; by right).
  apply (reads_cat (fun s => begins is_lower s) _ _ _ _ _ [] inner).
  - intros m rest (c & s & -> & Hc). unfold t. 
    apply elem_of_cons in Hp as [->|Hp]; [|apply elem_of_cons in Hp as [->|Hp]; [done|apply elem_of_list_singleton in Hp as ->; done]].
    nilapp. cbn [peg_run strip].
    pose proof (by_chars (fun c => if is_lower c then negb (Ascii.eqb "~" c || Ascii.eqb "_" c) else true) ltac:(vm_compute; reflexivity) c) as H.
    cbv beta in H. rewrite Hc in H. apply negb_true_iff, orb_false_iff in H as [-> ->]. done.
  - apply (reads_cat (nohead is_lower) _ _ _ (String ch lo) _ [] inner); [|exact Hrest|].
    + apply reads_chars1; [done|]. cbn [sall]. by rewrite Hch.
    + intros rest Hr. destruct hi as [|c hi]; [|done]. apply elem_of_cons in Hd as [->|Hd]; [|apply elem_of_list_singleton in Hd as ->; done].
      change (nohead is_lower rest). eapply nohead_imp; [|exact Hr]. intros c. unfold ref_char, is_name_char. intros ->. by rewrite orb_true_r.
  - intros rest _. exists ch. eexists. split; [|done]. rewrite !sapp_cons. done.
Qed.
Lemma name_head pre w : name_of pre w -> begins ref_head w.
Proof.
  intros (Hp & ch & body & dots & -> & Hch & _). unfold ref_head.
  apply elem_of_cons in Hp as [->|Hp]; [|apply elem_of_cons in Hp as [->|Hp]; [|apply elem_of_list_singleton in Hp as ->]].
  - exists ch. eexists. split; [done|]. by rewrite Hch, !orb_true_r.
  - by exists "~"%char; eexists.
  - by exists "_"%char; eexists.
Qed.
Lemma stop_ref s : stop s -> nohead ref_char s.
Proof. apply stop_nohead. vm_compute. reflexivity. Qed.

(** The names of nodes are refused in front of an argument. *)
Definition not_stop (c : ascii) : bool := forallb (fun o => match o with Some d => negb (Ascii.eqb c d) | None => true end) stop_heads.
Lemma prefix_strip n : forall w rest, sall not_stop n = true -> stop rest -> String.prefix n w = false -> strip n (w ++ rest) = None.
Proof.
  induction n as [|a n IH]; intros w rest Hn Hr Hp; [by destruct w|]. cbn [sall] in Hn. apply andb_prop in Hn as [Ha Hn].
  destruct w as [|c w]; nilapp.
  - destruct rest as [|c rest]; [done|]. cbn [strip]. destruct (Ascii.eqb_spec a c) as [->|]; [|done]. exfalso.
    unfold stop in Hr. simpl in Hr. unfold not_stop in Ha. rewrite forallb_forall in Ha.
    apply elem_of_list_In in Hr. apply Ha in Hr. by rewrite Ascii.eqb_refl in Hr.
  - cbn [strip]. simpl in Hp. destruct (Ascii.eqb_spec a c) as [->|]; [|done].
    destruct (ascii_dec c c) as [_|]; [|done]. by apply IH.
Qed.
Lemma alts_fail m l s : l <> [] -> (forall n, n ∈ l -> strip n s = None) -> peg_run m (alts l) s = None.
Proof.
  induction l as [|n l IH]; [done|]. intros _ H. destruct l as [|n' l].
  - unfold alts, t. cbn [peg_run]. by rewrite (H n) by left.
  - change (alts (n :: n' :: l)) with (Alt (t n) (alts (n' :: l))). unfold t. cbn [peg_run]. fold (@peg_run rule).
    rewrite (H n) by left. apply IH; [done|]. intros k Hk. apply H. by right.
Qed.
Lemma free_no_name m w rest : free_name w -> stop rest -> peg_run m g_node_name (w ++ rest) = None.
Proof.
  intros (pre & Hn & Hfree) Hr. destruct Hn as (Hp & ch & body & dots & Hw & Hch & _).
  assert (Hspec : pre = "~" \/ pre = "_" -> peg_run m g_node_name (w ++ rest) = None).
  { intros Hpre. apply (dead_app (fun c => Ascii.eqb c "~" || Ascii.eqb c "_")%bool); [vm_compute; reflexivity|].
    destruct Hpre as [-> | ->]; subst w; eexists _, _; (split; [reflexivity|done]). }
  apply elem_of_cons in Hp as [->|Hp]; [|apply Hspec; apply elem_of_cons in Hp as [->|Hp]; [by left|apply elem_of_list_singleton in Hp as ->; by right]].
  assert (H : peg_run true (alts node_names) (w ++ rest) = None).
  { apply alts_fail; [done|]. intros n Hin. apply prefix_strip; [|done|].
    - assert (forallb (sall not_stop) node_names = true) as Hall by (vm_compute; reflexivity).
      rewrite forallb_forall in Hall. by apply Hall, elem_of_list_In.
    - destruct (decide (n = "*")) as [->|Hne].
      + subst w. change ("" ++ ?x) with x. rewrite sapp_cons. cbn [String.prefix].
        destruct (ascii_dec "*" ch) as [<-|]; done.
      + apply Hfree; [done|].
        assert (forallb (fun n => if String.eqb n "*" then true else existsb (String.eqb n) reserved) node_names = true) as Hall
          by (vm_compute; reflexivity).
        rewrite forallb_forall in Hall. apply elem_of_list_In, Hall in Hin.
        apply String.eqb_neq in Hne. rewrite Hne in Hin. apply existsb_exists in Hin as (x & Hx & Ex).
        apply String.eqb_eq in Ex as ->. by apply elem_of_list_In. }
  unfold g_node_name. cbn [peg_run]. fold (@peg_run rule). by rewrite H.
Qed.

(** ** Arguments *)
Definition is_num (w : string) (v : f32) (p : tree) : Prop := p_rule p = r_number /\ p_text p = w /\ pf32 p = Done v.
Lemma number_head w v : number w v -> begins sign_digit w.
Proof. intros (l & Hl & -> & _). destruct (l_head l Hl) as (c & s & E & Hc). by exists c, s. Qed.
Lemma reads_num w v : number w v -> exists p, reads_on (nohead num_char) g_number w [p] /\ is_num w v p.
Proof.
  intros (l & Hl & -> & ->). destruct (reads_number l Hl) as [inner H]. eexists. split; [exact H|].
  split; [done|]. split; [done|]. unfold pf32. cbn [p_text]. by rewrite parse_literal.
Qed.
Lemma num_guard (g : G) w v : dead_on sign_digit g = true -> number w v ->
  exists p, reads_on stop (Cat (Not g) g_number) w [p] /\ is_num w v p.
Proof.
  intros Hg Hn. destruct (reads_num w v Hn) as (p & H & Hp). exists p. split; [|done].
  apply reads_guard; [|by eapply reads_weaken; [apply stop_num|]].
  intros m rest _. apply (dead_app sign_digit); [done|by eapply number_head].
Qed.
Definition arg_num_ref : G := Cat no_name (Alt g_number g_reference).
Lemma reads_arg w a : argument w a -> exists p, reads_on stop arg_num_ref w [p] /\ p_numref p = Done a.
Proof.
  intros [w' v Hn|w' Hf].
  - destruct (reads_num w' v Hn) as (p & H & Hr & Ht & Hv). exists p. split.
    + apply reads_guard.
      * intros m rest _. apply (dead_app sign_digit); [vm_compute; reflexivity|by eapply number_head].
      * apply reads_alt1. by eapply reads_weaken; [apply stop_num|].
    + unfold p_numref. by rewrite Hr, Hv.
  - destruct Hf as (pre & Hn & Hfree). destruct (reads_name pre w' Hn) as [inner H].
    exists (Pair r_reference w' inner). split; [|done]. apply reads_guard.
    + intros m rest Hr. apply free_no_name; [by exists pre|done].
    + apply reads_alt2; [|by eapply reads_weaken; [apply stop_ref|]].
      intros m rest Hr. apply (dead_app ref_head); [vm_compute; reflexivity|by eapply name_head].
Qed.
Lemma reads_ref w : name w -> exists p, reads_on stop g_reference w [p] /\ p_rule p = r_reference /\ p_text p = w.
Proof.
  intros (pre & H). destruct (reads_name _ _ H) as [inner Hi]. eexists. split; [by eapply reads_weaken; [apply stop_ref|]|done].
Qed.
Lemma free_is_name w : free_name w -> name w.
Proof. intros (pre & H & _). by exists pre. Qed.

(** A word after some space. *)
Lemma seg f (e : G) g w p : space g -> begins f w ->
  forallb (fun c => if f c then negb (is_separator c) else true) all_chars = true ->
  reads_on stop e w [p] -> reads_on stop (Cat W1 e) (g ++ w) [p].
Proof.
  intros Hg Hw Hf H. apply (reads_cat (nohead is_separator) _ _ _ _ _ [] [p]); [by apply reads_W1|done|].
  intros rest _. by eapply begins_nosep.
Qed.
Lemma seg_num (gd : G) g w v : dead_on sign_digit gd = true -> space g -> number w v ->
  exists p, reads_on stop (Cat W1 (Cat (Not gd) g_number)) (g ++ w) [p] /\ is_num w v p.
Proof.
  intros Hd Hg Hn. destruct (num_guard gd w v Hd Hn) as (p & H & Hp). exists p. split; [|done].
  apply (seg sign_digit); [done|by eapply number_head|vm_compute; reflexivity|done].
Qed.
Lemma seg_num0 g w v : space g -> number w v ->
  exists p, reads_on stop (Cat W1 g_number) (g ++ w) [p] /\ is_num w v p.
Proof.
  intros Hg Hn. destruct (reads_num w v Hn) as (p & H & Hp). exists p. split; [|done].
  apply (seg sign_digit); [done|by eapply number_head|vm_compute; reflexivity|by eapply reads_weaken; [apply stop_num|]].
Qed.
Definition arg_head (c : ascii) : bool := (sign_digit c || ref_head c)%bool.
Lemma begins_imp (f g : ascii -> bool) s : (forall c, f c = true -> g c = true) -> begins f s -> begins g s.
Proof. intros H (c & s' & -> & Hc). exists c, s'. auto. Qed.
Lemma argument_head w a : argument w a -> begins arg_head w.
Proof.
  intros [w' v H|w' (pre & H & _)].
  - eapply begins_imp; [|by eapply number_head]. intros c. unfold arg_head. by intros ->.
  - eapply begins_imp; [|by eapply name_head]. intros c. unfold arg_head. intros ->. by rewrite orb_true_r.
Qed.
Lemma seg_arg g w a : space g -> argument w a -> exists p, reads_on stop a_numref (g ++ w) [p] /\ p_numref p = Done a.
Proof.
  intros Hg Ha. destruct (reads_arg w a Ha) as (p & H & Hp). exists p. split; [|done].
  apply (seg arg_head); [done|by eapply argument_head|vm_compute; reflexivity|done].
Qed.
Lemma seg_ref g w : space g -> name w ->
  exists p, reads_on stop (Cat W1 g_reference) (g ++ w) [p] /\ p_rule p = r_reference /\ p_text p = w.
Proof.
  intros Hg Hn. destruct (reads_ref w Hn) as (p & H & Hp). exists p. split; [|done]. destruct Hn as [pre Hn].
  apply (seg ref_head); [done|by eapply name_head|vm_compute; reflexivity|done].
Qed.

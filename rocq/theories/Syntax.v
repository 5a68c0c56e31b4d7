(** * Syntax: the notation of Glicol programs, as a specification.

    Which words make up a node, how words may be separated and what a program text means,
    written down without reference to the grammar or the parser.  Not covered: [eval], code
    with back slashes, and point lists that do not end in [!] (they also take the white space
    after them). *)
From Verif Require Export Instance.
Local Open Scope string_scope.

(** ** Tokens *)

(** A numeral: sign, digits, and optionally a point with further digits and an exponent. *)
Record literal := Literal {
  l_sign : string;
  l_int : string;
  l_tail : option (string * option (ascii * string * string)) }.
Definition is_sign (s : string) : Prop := s ∈ [""; "+"; "-"].
Definition digits (s : string) : Prop := sall is_digit s = true.
Definition l_ok (l : literal) : Prop :=
  is_sign (l_sign l) /\ digits (l_int l) /\ l_int l <> "" /\
  match l_tail l with
  | None => True
  | Some (fp, None) => digits fp
  | Some (fp, Some (e, es, ed)) =>
      digits fp /\ (e = "e"%char \/ e = "E"%char) /\ is_sign es /\ digits ed /\ ed <> ""
  end.
Definition l_text (l : literal) : string :=
  l_sign l ++ l_int l ++
  match l_tail l with
  | None => ""
  | Some (fp, None) => "." ++ fp
  | Some (fp, Some (e, es, ed)) => "." ++ fp ++ String e (es ++ ed)
  end.
(** The digits before and after the point as one number, and the power of ten it is
    multiplied with. *)
Definition l_mant (l : literal) : N :=
  digits_val 0 (l_int l ++ match l_tail l with Some (fp, _) => fp | None => "" end).
Definition l_exp (l : literal) : Z :=
  match l_tail l with
  | None => 0
  | Some (fp, None) => - Z.of_nat (String.length fp)
  | Some (fp, Some (_, es, ed)) =>
      - Z.of_nat (String.length fp)
      + (if String.eqb es "-" then - Z.of_N (digits_val 0 ed) else Z.of_N (digits_val 0 ed))
  end.
(** The f32 nearest to it (see [Props_Literal.C48_literal_nearest]). *)
Definition l_value (l : literal) : f32 := f_of_dec (String.eqb (l_sign l) "-") (l_mant l) (l_exp l).

(** [w] is a numeral of value [v]; a numeral without point and exponent. *)
Definition number (w : string) (v : f32) : Prop := exists l, l_ok l /\ w = l_text l /\ v = l_value l.
Definition integer (w : string) (v : f32) : Prop :=
  exists l, l_ok l /\ l_tail l = None /\ w = l_text l /\ v = l_value l.
(** A numeral for a machine word of the platform. *)
Definition natural (c : cfg) (w : string) (n : Z) : Prop :=
  exists sg ds, sg ∈ [""; "+"] /\ digits ds /\ ds <> "" /\ w = sg ++ ds /\
                n = Z.of_N (digits_val 0 ds) /\ (n <= umax c)%Z.

(** A name of a chain, possibly standing for all names that begin so ("..").  *)
Definition is_name_char (ch : ascii) : bool := (Ascii.eqb ch "_" || is_lower ch || is_digit ch)%bool.
Definition name_of (pre w : string) : Prop :=
  pre ∈ [""; "~"; "_"] /\
  exists ch body dots, w = pre ++ String ch body ++ dots /\ is_lower ch = true /\
    sall is_name_char body = true /\ dots ∈ [""; ".."].
Definition name (w : string) : Prop := exists pre, name_of pre w.
(** The names of nodes that a plain argument name must not begin with. *)
Definition reserved : list string :=
  ["reverb";"arrange";"adsr";"sig";"psampler";"synth";"msgsynth";"psynth";"p_synth";
   "pattern_synth";"bd";"sn";"hh";"squsynth";"trisynth";"seq";"speed";"choose";"mul";"add";
   "linrange";"apfdecay";"delayn";"delaymod";"expr";"eval";"sin";"squ";"imp";"envperc";
   "sampler";"noiz";"lpf";"plate";"onepole";"hpf";"pha";"buf";"state";"freeverb";"pan";"delay";
   "apfgain";"comb";"mix";"monosum";"const_sig";"constsig";"sp";"spd";"tri";"noise";
   "amplfo";"balance";"rlpf";"rhpf";"kick";"ks";"pha";"shape";"sawsynth";"saw";"script";
   "closure";"r";"apfmsgain";"sendpass";"mix";"sum";"meta";"adc"]%list.
Definition free_name (w : string) : Prop :=
  exists pre, name_of pre w /\ (pre = "" -> forall n, n ∈ reserved -> String.prefix n w = false).

(** A number or the name of a chain. *)
Inductive argument : string -> numref -> Prop :=
| arg_num w v : number w v -> argument w (Num v)
| arg_ref w : free_name w -> argument w (NRef w).

(** A symbol: 'abc' or \abc. *)
Definition is_symbol_char (ch : ascii) : bool :=
  (is_digit ch || is_lower ch || is_upper ch || Ascii.eqb ch "_" || Ascii.eqb ch "-")%bool.
Definition symbol (w : string) : Prop :=
  exists s, s <> "" /\ sall is_symbol_char s = true /\
    (w = "'" ++ s ++ "'" \/ w = String "092" s).
(** Code between back quotes, without back slashes. *)
Definition code_word (w code : string) : Prop :=
  w = String "096" (code ++ String "096" "") /\
  sall (fun ch => negb (Ascii.eqb ch "096" || Ascii.eqb ch "092")) code = true.

(** ** seq: groups of notes *)
Inductive note := Note (n : Z) | Rest | RefNote (name : string).
Inductive note_word (c : cfg) : string -> note -> Prop :=
| nw_note w n : natural c w n -> note_word c w (Note n)
| nw_rest : note_word c "_" Rest
| nw_ref ch : is_lower ch = true -> note_word c (String "~" (String ch "")) (RefNote (String "~" (String ch ""))).
(** The notes of a group are written without space; two numbers must be told apart, so a
    number that follows a number carries a sign. *)
Inductive group_word (c : cfg) : string -> list note -> Prop :=
| gw_one w n : note_word c w n -> group_word c w [n]
| gw_more w n w' ns : note_word c w n -> group_word c w' ns ->
    (forall k ch s, n = Note k -> w' = String ch s -> is_digit ch = false) ->
    group_word c (w ++ w') (n :: ns).

(** ** Space *)
(** Blanks: space, comma, bar and tab. *)
Definition is_separator (ch : ascii) : bool :=
  (Ascii.eqb ch " " || Ascii.eqb ch "," || Ascii.eqb ch "|" || Ascii.eqb ch "009")%bool.
Definition blanks (s : string) : Prop := sall is_separator s = true.
Definition space (s : string) : Prop := s <> "" /\ blanks s.
(** Words, each after some space. *)
Inductive args : list string -> string -> Prop :=
| args_nil : args [] ""
| args_cons w ws g t : space g -> args ws t -> args (w :: ws) (g ++ w ++ t).

(** ** Values in time: "value@time value@time ..."(span) *)
Definition dquote : string := String "034" "".
Inductive item_word : string -> evval * f32 -> Prop :=
| iw_num w v u x : number w v -> number u x -> item_word (w ++ "@" ++ u) (EvNum v, x)
| iw_sym w u x : symbol w -> number u x -> item_word (w ++ "@" ++ u) (EvSym w, x).
(** One or more items between double quotes; the span may be left out of its brackets. *)
Definition quoted (w : string) (evs : evinner) : Prop :=
  exists b w0 e0 (l : list (string * (evval * f32))) t, blanks b /\ item_word w0 e0 /\
    Forall (fun x => item_word x.1 x.2) l /\ args (map fst l) t /\
    w = dquote ++ b ++ w0 ++ t ++ dquote /\ evs = e0 :: map snd l.
Definition pattern_word (w : string) (evs : evinner) (span : f32) : Prop :=
  exists q s, quoted q evs /\ w = q ++ "(" ++ s ++ ")" /\ (s = "" /\ span = f1 \/ number s span).

(** ** Points: [time => value time => value ...] *)
Definition is_white (ch : ascii) : bool := (is_separator ch || Ascii.eqb ch "010")%bool.
Definition white (s : string) : Prop := sall is_white s = true.
(** A fraction of two integers. *)
Definition ratio (w : string) (v : f32) : Prop :=
  exists w1 v1 g1 g2 w2 v2, integer w1 v1 /\ integer w2 v2 /\ white g1 /\ white g2 /\
    w = w1 ++ g1 ++ "/" ++ g2 ++ w2 /\ v = fdiv v1 v2.
Definition moment (w : string) (v : f32) : Prop := number w v \/ ratio w v.
(** A time in bars, with an offset in milliseconds or seconds. *)
Definition offset_sign (w : string) (v : f32) : Prop := w = "+" /\ v = f1 \/ w = "-" /\ v = fm1.
Definition offset_unit (w : string) (k : f32 -> duration) : Prop := w = "_ms" /\ k = DMs \/ w = "_s" /\ k = DSec.
Inductive time_word : string -> timelist -> Prop :=
| tw_bar w v : moment w v -> time_word w (TimeList v None)
| tw_offset w v g1 ws s g2 u x wu k : moment w v -> white g1 -> white g2 -> offset_sign ws s -> number u x ->
    offset_unit wu k -> time_word (w ++ g1 ++ ws ++ g2 ++ u ++ wu) (TimeList v (Some (k (fmul s x)))).
Definition point_word (w : string) (p : timelist * f32) : Prop :=
  exists wt g1 g2 u, time_word wt p.1 /\ white g1 /\ white g2 /\ number u p.2 /\ w = wt ++ g1 ++ "=>" ++ g2 ++ u.
Inductive point_list : string -> list (timelist * f32) -> Prop :=
| pl_nil : point_list "" []
| pl_last w p g : point_word w p -> white g -> point_list (w ++ g) [p]
| pl_more w p g t l : point_word w p -> white g -> g <> "" -> point_list t l -> point_list (w ++ g ++ t) (p :: l).
(** The length of the loop: [/4], [*2] or [*(3/4)]. *)
Definition span_word (w : string) : Prop :=
  exists op g x v, op ∈ ["/"; "*"] /\ white g /\ w = op ++ g ++ x /\
    (number x v \/ exists r, ratio r v /\ x = "(" ++ r ++ ")").

(** ** Nodes: first word, further words, meaning *)
Definition one_arg : list (string * (numref -> component)) :=
  [("sin", CSin); ("saw", CSaw); ("squ", CSqu); ("tri", CTri); ("mul", CMul); ("add", CAdd);
   ("pan", CPan); ("onepole", COnepole); ("delayms", CDelayms)].
Definition one_num : list (string * (f32 -> component)) :=
  [("imp", fun v => CImp (Num v)); ("bd", fun v => CBd (Num v)); ("sn", fun v => CSn (Num v));
   ("hh", fun v => CHh (Num v)); ("speed", CSpeed); ("sig", CConstSig); ("constsig", CConstSig);
   ("plate", CPlate)].
Definition two_num : list (string * (f32 -> f32 -> component)) :=
  [("envperc", CEnvPerc); ("sawsynth", CSawSynth); ("squsynth", CSquSynth); ("trisynth", CTriSynth)].
Definition arg_and_num : list (string * (numref -> f32 -> component)) :=
  [("rhpf", CRhpf); ("hpf", CRhpf); ("apfgain", CApfmsGain); ("apfmsgain", CApfmsGain)].

(** [math] is the evaluator of arithmetic expressions (the crate fasteval), see [Parse]. *)
Section nodes.
  Context (c : cfg) (math : string -> res f32).
  (** Event times of [seq], as the code assigns them: note [j] of [m] in group [i] is at
      [j / m + i] (see C49). *)
  Definition note_event (m i j : nat) (n : note) : list (f32 * usizeref) :=
    let time := fadd (fdiv (f_of_Z (Z.of_nat j)) (f_of_Z (Z.of_nat m))) (f_of_Z (Z.of_nat i)) in
    match n with
    | Note k => [(time, Usz k)]
    | Rest => []
    | RefNote s => [(time, URef s)]
    end.
  Definition group_events (i : nat) (ns : list note) : list (f32 * usizeref) :=
    List.concat (imap (note_event (length ns) i) ns).
  Definition seq_events (gs : list (list note)) : list (f32 * usizeref) :=
    List.concat (imap group_events gs).

  Inductive spells : string -> list string -> component -> Prop :=
  | sp_one_arg kw k w a : (kw, k) ∈ one_arg -> argument w a -> spells kw [w] (k a)
  | sp_one_num kw k w v : (kw, k) ∈ one_num -> number w v -> spells kw [w] (k v)
  | sp_two_num kw k w1 v1 w2 v2 : (kw, k) ∈ two_num -> number w1 v1 -> number w2 v2 ->
      spells kw [w1; w2] (k v1 v2)
  | sp_arg_and_num kw k w a w2 v2 : (kw, k) ∈ arg_and_num -> argument w a -> number w2 v2 ->
      spells kw [w; w2] (k a v2)
  | sp_lpf_num w v w2 v2 : number w v -> number w2 v2 -> spells "lpf" [w; w2] (CLpf (SigNum v) v2)
  | sp_lpf_ref w w2 v2 : free_name w -> number w2 v2 -> spells "lpf" [w; w2] (CLpf (SigRef w) v2)
  | sp_delayn w n : natural c w n -> spells "delayn" [w] (CDelayn (Usz n))
  | sp_delayn_ref w : free_name w -> spells "delayn" [w] (CDelayn (URef w))
  | sp_noise kw w n : kw ∈ ["noise"; "noiz"] -> natural c w n -> spells kw [w] (CNoise n)
  | sp_adsr w1 v1 w2 v2 w3 v3 w4 v4 : number w1 v1 -> number w2 v2 -> number w3 v3 -> number w4 v4 ->
      spells "adsr" [w1; w2; w3; w4] (CAdsr v1 v2 v3 v4)
  | sp_reverb w1 v1 w2 v2 w3 v3 w4 v4 w5 v5 :
      number w1 v1 -> number w2 v2 -> number w3 v3 -> number w4 v4 -> number w5 v5 ->
      spells "reverb" [w1; w2; w3; w4; w5] (CReverb v1 v2 v3 v4 v5)
  | sp_get w : free_name w -> spells "get" [w] (CGet w)
  | sp_bare pre w : pre <> "" -> name_of pre w -> spells w [] (CGet w)
  | sp_balance w1 w2 : name w1 -> name w2 -> spells "balance" [w1; w2] (CBalance w1 w2)
  | sp_mix ws : ws <> [] -> Forall name ws -> spells "mix" ws (CMix ws)
  | sp_arrange (l : list (string * string * f32)) : l <> [] ->
      Forall (fun x => name x.1.1 /\ number x.1.2 x.2) l ->
      spells "arrange" (List.concat (map (fun x => [x.1.1; x.1.2]) l))
        (CArrange (List.concat (map (fun x => [NRef x.1.1; Num x.2]) l)))
  | sp_choose (l : list (string * f32)) : l <> [] -> Forall (fun x => integer x.1 x.2) l ->
      spells "choose" (map fst l) (CChoose (map snd l))
  | sp_sp kw w : kw ∈ ["sp"; "sampler"] -> symbol w -> spells kw [w] (CSp w)
  | sp_seq (l : list (string * list note)) : l <> [] -> Forall (fun x => group_word c x.1 x.2) l ->
      spells "seq" (map fst l) (CSeq (seq_events (map snd l)))
  | sp_meta kw w code : kw ∈ ["meta"; "script"] -> code_word w code -> spells kw [w] (CMeta code)
  | sp_msgsynth w w1 v1 w2 v2 : symbol w -> number w1 v1 -> number w2 v2 ->
      spells "msgsynth" [w; w1; w2] (CMsgSynth w v1 v2)
  | sp_psynth kw w code w1 v1 : kw ∈ ["psynth"; "p_synth"; "pattern_synth"] ->
      code_word w code -> number w1 v1 -> spells kw [w; w1] (CPatternSynth w v1)
  | sp_psampler w evs span : pattern_word w evs span -> spells "psampler" [w] (CPSampler (PsPattern evs span))
  | sp_psampler_event w evs : quoted w evs -> spells "psampler" [w] (CPSampler (PsEvent evs))
  | sp_lpf_pattern w evs span w2 v2 : pattern_word w evs span -> number w2 v2 ->
      spells "lpf" [w; w2] (CLpf (SigPattern evs span) v2)
  | sp_lpf_event w evs w2 v2 : quoted w evs -> number w2 v2 -> spells "lpf" [w; w2] (CLpf (SigEvent evs) v2)
  | sp_expr w code : code_word w code -> spells "expr" [w] (CExpr code)
  | sp_adc w n : natural c w n -> (n < 2 ^ 32)%Z -> spells "adc" [w] (CAdc n)
  | sp_plain w : free_name w -> String.prefix "get" w = false -> spells w [] (CGet w)
  | sp_points g0 body pts g1 : white g0 -> point_list body pts -> white g1 ->
      spells ("[" ++ g0 ++ body ++ "]" ++ g1 ++ "!") [] (CPoints pts f1 true)
  | sp_points_span g0 body pts g1 w v g2 : white g0 -> point_list body pts -> white g1 -> span_word w -> white g2 ->
      math ("1" ++ w) = Ok v ->
      spells ("[" ++ g0 ++ body ++ "]" ++ g1 ++ w ++ g2 ++ "!") [] (CPoints pts v true).

  (** ** Layout *)

  Definition node_text (txt : string) (k : component) : Prop :=
    exists kw ws t, spells kw ws k /\ args ws t /\ txt = kw ++ t.

  Definition eol : string := String "010" "".
  Definition is_eol (ch : ascii) : bool := Ascii.eqb ch "010".
  Definition is_break (ch : ascii) : bool := (Ascii.eqb ch "010" || Ascii.eqb ch "013")%bool.
  (** A comment with the end of its line and any number of blank lines after it. *)
  Definition comment (s : string) : Prop :=
    exists body nls, s = "//" ++ body ++ nls /\ sall (fun ch => negb (is_break ch)) body = true /\
      nls <> "" /\ sall is_eol nls = true.
  Definition begins (f : ascii -> bool) (s : string) : Prop := exists ch s', s = String ch s' /\ f ch = true.
  (** What may stand between two nodes of a chain: at most one line break before [>>], and
      comments before that. *)
  Inductive joint : string -> Prop :=
  | joint_here b1 nl b2 b3 : blanks b1 -> blanks b2 -> blanks b3 -> nl ∈ [""; eol] ->
      joint (b1 ++ nl ++ b2 ++ ">>" ++ b3)
  | joint_comment b1 nl b2 k j : blanks b1 -> blanks b2 -> nl ∈ [""; eol] -> comment k ->
      joint j -> ~ begins is_eol j -> joint (b1 ++ nl ++ b2 ++ k ++ j).
  Inductive more_nodes : string -> list component -> Prop :=
  | more_nil : more_nodes "" []
  | more_cons j txt k t ks : joint j -> node_text txt k -> more_nodes t ks ->
      more_nodes (j ++ txt ++ t) (k :: ks).
  (** A line: name, colon, nodes. *)
  Definition line_text (txt : string) (line : string * list component) : Prop :=
    exists b1 b2 t1 k1 t ks, name line.1 /\ blanks b1 /\ blanks b2 /\ node_text t1 k1 /\ more_nodes t ks /\
      txt = line.1 ++ b1 ++ ":" ++ b2 ++ t1 ++ t /\ line.2 = k1 :: ks.
  (** What may follow a line or a comment: blanks, a semicolon, line breaks. *)
  Inductive breaks : string -> Prop :=
  | breaks_nil : breaks ""
  | breaks_cons b t : blanks b -> breaks t -> breaks (eol ++ b ++ t).
  Definition filler (s : string) : Prop :=
    exists b1 semi b2 t, blanks b1 /\ blanks b2 /\ semi ∈ [""; ";"] /\ (semi = "" -> b2 = "") /\
      breaks t /\ s = b1 ++ semi ++ b2 ++ t.
  (** Two lines must be separated by a semicolon or a line break; a comment may follow at
      once. *)
  Inductive program : string -> list (string * list component) -> Prop :=
  | prog_nil : program "" []
  | prog_line txt l f rest ls : line_text txt l -> filler f -> program rest ls ->
      (rest = "" \/ begins (Ascii.eqb "/") rest \/ ~ blanks f) -> program (txt ++ f ++ rest) (l :: ls)
  | prog_last body : sall (fun ch => negb (is_break ch)) body = true -> program ("//" ++ body) []
  | prog_comment k f rest ls : comment k -> filler f -> program rest ls ->
      ~ begins is_break (f ++ rest) -> program (k ++ f ++ rest) ls.
  (** Line breaks and blanks may come first. *)
  Definition program_text (txt : string) (ls : list (string * list component)) : Prop :=
    exists pre body, txt = pre ++ body /\ sall (fun ch => is_eol ch || is_separator ch) pre = true /\
      program body ls.
End nodes.

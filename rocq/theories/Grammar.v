(** * Grammar: /repo/rs/parser/src/glicol.pest, rule by rule (line numbers of that file). *)
From Verif Require Export Peg.
From Coq Require Import List NArith.
Import ListNotations.
Local Open Scope string_scope.

(** The rules whose pairs are named by the code; [r_other] names every other rule. *)
Inductive rule :=
| r_block | r_line | r_chain | r_node | r_points | r_points_inner | r_math_expression
| r_is_looping | r_point | r_time | r_bar | r_sign | r_ms | r_second | r_psampler | r_msgsynth
| r_pattern_synth | r_adc | r_expr | r_eval | r_eval_content | r_return | r_eval_sentence
| r_assign_to | r_assign_value | r_value_char | r_valid_token | r_meta | r_code | r_inner | r_char
| r_arrange | r_reverb | r_balance | r_get | r_sendpass | r_plate | r_envperc | r_delayn
| r_delayms | r_seq | r_adsr | r_choose | r_mix | r_apfmsgain | r_lpf | r_rhpf | r_mul | r_imp
| r_bd | r_sn | r_hh | r_sawsynth | r_squsynth | r_trisynth | r_add | r_sin | r_saw | r_squ
| r_tri | r_pan | r_constsig | r_onepole | r_speed | r_noise | r_sp | r_event | r_pattern
| r_pattern_event_body | r_value_time | r_number | r_float | r_symbol | r_compound_notes
| r_compound | r_note | r_note_ref | r_reference | r_loose_match | r_rest | r_integer
| r_node_name | r_silent.

Notation G := (peg rule).
Notation tree := (pair rule).
Definition t (s : string) : G := Lit s.
Local Infix "~~" := Cat (at level 45, right associativity).
Local Infix "//" := Alt (at level 46, right associativity).
Definition many1 (a : G) : G := a ~~ Star a.
Local Notation compound := (Rul Compound).

(** pest's built-in character rules. *)
Definition is_hex (c : ascii) : bool :=
  let n := N_of_ascii (lower c) in (is_digit c || ((97 <=? n) && (n <=? 102))%N)%bool.
Definition is_alnum (c : ascii) : bool := (is_digit c || is_lower c || is_upper c)%bool.
Definition ascii_digit : G := Chr is_digit.
Definition ascii_alpha_lower : G := Chr is_lower.
Definition ascii_alphanumeric : G := Chr is_alnum.
Definition ascii_hex_digit : G := Chr is_hex.
Definition any : G := Chr (fun _ => true).
Definition cr := String "013" "".
Definition lf := String "010" "".
Definition tab := String "009" "".
Definition quote := String "034" "".
Definition bslash := String "092" "".
Definition bquote := String "096" "".
(** [NEWLINE] = "\n" | "\r\n" | "\r". *)
Definition newline : G := t lf // t (cr ++ lf) // t cr.
(** [^"e"]: ASCII case-insensitive. *)
Definition e_any_case : G := Chr (fun c => Ascii.eqb (lower c) "e").

(** glicol.pest:109-110 *)
Definition is_blank (c : ascii) : bool :=
  (Ascii.eqb c " " || Ascii.eqb c "," || Ascii.eqb c "|" || Ascii.eqb c "009")%bool.
Definition g_whitespace : G := Rul Silent r_silent (t " " // t "," // t "|" // t tab).
Definition g_ws : G := Rul Silent r_silent (t " " // t "," // t "|" // t tab // t lf).
Definition W : G := Star g_whitespace.
Definition W1 : G := many1 g_whitespace.
Definition w : G := Star g_ws.
Definition w1 : G := many1 g_ws.

(** glicol.pest:105-108 *)
Definition opt_sign : G := Opt (t "+" // t "-").
Definition g_integer : G := compound r_integer (opt_sign ~~ many1 ascii_digit ~~ Not (t ".")).
Definition g_rest : G := compound r_rest (t "_").
Definition g_loose_match : G := compound r_loose_match (t "..").
Definition g_reference : G :=
  compound r_reference
    (Opt (t "~" // t "_") ~~ many1 ascii_alpha_lower
     ~~ Star (t "_" // ascii_alpha_lower // ascii_digit) ~~ Opt g_loose_match).
(** glicol.pest:101-104 *)
Definition g_note_ref : G := compound r_note_ref (t "~" ~~ ascii_alpha_lower).
Definition g_note : G := compound r_note (g_integer // g_rest // g_note_ref).
Definition g_compound : G := compound r_compound (many1 g_note).
Definition g_compound_notes : G :=
  Rul Atomic r_compound_notes (g_compound ~~ Star (W1 ~~ g_compound)).

(** glicol.pest:97-99 *)
Definition g_float : G :=
  compound r_float ((opt_sign ~~ many1 ascii_digit) ~~ t "." ~~ Star ascii_digit
                    ~~ Opt (e_any_case ~~ g_integer)).
Definition g_number : G := compound r_number (g_float // g_integer).
Definition symbol_char : G := ascii_alphanumeric // t "_" // t "-".
Definition g_symbol : G :=
  compound r_symbol ((t "'" ~~ many1 symbol_char ~~ t "'") // (t bslash ~~ many1 symbol_char)).
(** glicol.pest:92-95 *)
Definition g_value_time : G := compound r_value_time ((g_number // g_symbol) ~~ t "@" ~~ g_number).
Definition g_pattern_event_body : G :=
  compound r_pattern_event_body (W ~~ g_value_time ~~ Star (W1 ~~ g_value_time)).
Definition g_event : G := compound r_event (t quote ~~ g_pattern_event_body ~~ t quote).
Definition g_pattern : G :=
  compound r_pattern (t quote ~~ g_pattern_event_body ~~ t quote ~~ t "(" ~~ Opt g_number ~~ t ")").

(** glicol.pest:112-118 *)
Fixpoint alts (l : list string) : G :=
  match l with
  | [] => Not Eps
  | [a] => t a
  | a :: l' => t a // alts l'
  end%list.
Definition node_names : list string :=
  ["reverb";"arrange";"adsr";"sig";"psampler";"synth";"msgsynth";"psynth";"p_synth";
   "pattern_synth";"bd";"sn";"hh";"squsynth";"trisynth";"seq";"speed";"choose";"mul";"add";
   "linrange";"apfdecay";"delayn";"delaymod";"expr";"eval";"sin";"squ";"imp";"envperc";
   "sampler";"noiz";"lpf";"plate";"onepole";"hpf";"pha";"buf";"state";"freeverb";"pan";"delay";
   "apfgain";"comb";"mix";"monosum";"const_sig";"constsig";"*";"sp";"spd";"tri";"noise";
   "amplfo";"balance";"rlpf";"rhpf";"kick";"ks";"pha";"shape";"sawsynth";"saw";"script";
   "closure";"r";"apfmsgain";"sendpass";"mix";"sum";"meta";"adc"]%list.
Definition g_node_name : G := compound r_node_name (alts node_names).
Definition no_name : G := Not g_node_name.
Definition no_name_ref : G := Not (g_node_name // g_reference).
(** The argument shapes used over and over: [WHITESPACE+ ~ !node_name ~ number] etc. *)
Definition a_num : G := W1 ~~ no_name ~~ g_number.
Definition a_num' : G := W1 ~~ no_name_ref ~~ g_number.
Definition a_numref : G := W1 ~~ no_name ~~ (g_number // g_reference).

(** glicol.pest:87-89 *)
Definition g_speed : G := compound r_speed (t "speed" ~~ W1 ~~ g_number).
Definition g_noise : G := compound r_noise ((t "noiz" // t "noise") ~~ W1 ~~ g_number).
Definition g_sp : G :=
  compound r_sp ((t "sp" // t "sampler") ~~ W1 ~~ Not (g_node_name // g_reference // g_number)
                 ~~ g_symbol).
(** glicol.pest:77-84 *)
Definition g_add : G := compound r_add (t "add" ~~ a_numref).
Definition g_sin : G := compound r_sin (t "sin" ~~ a_numref).
Definition g_saw : G := compound r_saw (t "saw" ~~ a_numref).
Definition g_squ : G := compound r_squ (t "squ" ~~ a_numref).
Definition g_tri : G := compound r_tri (t "tri" ~~ a_numref).
Definition g_pan : G := compound r_pan (t "pan" ~~ a_numref).
Definition g_constsig : G :=
  compound r_constsig ((((t "sig" // t "constsig") ~~ W1)) ~~ no_name ~~ g_number).
Definition g_onepole : G := compound r_onepole (t "onepole" ~~ a_numref).
(** glicol.pest:67-76 *)
Definition g_lpf : G :=
  compound r_lpf (t "lpf" ~~ W1 ~~ no_name ~~ (g_number // g_reference // g_pattern // g_event)
                  ~~ a_num').
Definition g_rhpf : G := compound r_rhpf ((t "rhpf" // t "hpf") ~~ a_numref ~~ a_num').
Definition g_mul : G := compound r_mul (t "mul" ~~ a_numref).
Definition g_imp : G := compound r_imp (t "imp" ~~ a_num).
Definition g_bd : G := compound r_bd (t "bd" ~~ a_num).
Definition g_sn : G := compound r_sn (t "sn" ~~ a_num).
Definition g_hh : G := compound r_hh (t "hh" ~~ a_num).
Definition g_sawsynth : G := compound r_sawsynth (t "sawsynth" ~~ a_num' ~~ a_num').
Definition g_squsynth : G := compound r_squsynth (t "squsynth" ~~ a_num' ~~ a_num').
Definition g_trisynth : G := compound r_trisynth (t "trisynth" ~~ a_num' ~~ a_num').
(** glicol.pest:52-66 *)
Definition g_arrange : G :=
  compound r_arrange (t "arrange" ~~ W1 ~~ g_reference ~~ W1 ~~ g_number
                      ~~ Star (W1 ~~ g_reference ~~ W1 ~~ g_number)).
Definition g_reverb : G :=
  compound r_reverb (t "reverb" ~~ a_num' ~~ a_num' ~~ a_num' ~~ a_num' ~~ a_num').
Definition g_balance : G :=
  compound r_balance (t "balance" ~~ W1 ~~ g_reference ~~ W1 ~~ g_reference).
Definition g_get : G := compound r_get (Opt (t "get" ~~ W1) ~~ no_name ~~ g_reference).
Definition g_sendpass : G :=
  compound r_sendpass (t "sendpass" ~~ W1 ~~ g_reference ~~ Star (W1 ~~ g_reference)).
Definition g_plate : G := compound r_plate (t "plate" ~~ a_num').
Definition g_envperc : G := compound r_envperc (t "envperc" ~~ a_num' ~~ a_num').
Definition g_delayn : G := compound r_delayn (t "delayn" ~~ a_numref).
Definition g_delayms : G := compound r_delayms (t "delayms" ~~ a_numref).
Definition g_seq : G := compound r_seq (t "seq" ~~ W1 ~~ g_compound_notes).
Definition g_adsr : G := compound r_adsr (t "adsr" ~~ a_num ~~ a_num ~~ a_num ~~ a_num).
Definition g_choose : G :=
  compound r_choose (t "choose" ~~ W1 ~~ g_integer ~~ Star (W1 ~~ g_integer)).
Definition g_mix : G := compound r_mix (t "mix" ~~ W1 ~~ g_reference ~~ Star (W1 ~~ g_reference)).
Definition g_apfmsgain : G :=
  compound r_apfmsgain ((t "apfgain" // t "apfmsgain") ~~ a_numref ~~ a_num').
(** glicol.pest:44-51 *)
Definition g_char : G :=
  Rul Plain r_char
    (Not (t bquote // t bslash) ~~ any
     // t bslash ~~ (t quote // t bslash // t "/" // t "b" // t "f" // t "n" // t "r" // t "t")
     // t bslash ~~ (t "u" ~~ ascii_hex_digit ~~ ascii_hex_digit ~~ ascii_hex_digit
                     ~~ ascii_hex_digit)).
Definition g_inner : G := Rul Atomic r_inner (Star g_char).
Definition g_code : G := compound r_code (t bquote ~~ g_inner ~~ t bquote).
Definition g_meta : G := compound r_meta ((t "meta" // t "script") ~~ W1 ~~ g_code).
(** glicol.pest:30-42 *)
Definition g_expr : G := compound r_expr (t "expr" ~~ w1 ~~ g_code).
Definition g_var : G :=
  Rul Silent r_silent
    (many1 ascii_alpha_lower ~~ Star (t "_" // ascii_alpha_lower // ascii_digit)).
Definition g_valid_token : G :=
  Rul Plain r_valid_token
    (g_var // t " " // t lf // t "%" // t "+" // t "-" // t "*" // t "/" // t "^" // t "(" // t ")"
     // t "[" // t "]" // t ">=" // t "<=" // t "==" // t "!=" // t ">" // t "<" // t "true"
     // t "false" // t "&" // t "." // ascii_digit).
Definition g_value_char : G :=
  Rul Plain r_value_char (Not (t ";" // t bquote) ~~ g_valid_token).
Definition g_assign_value : G := Rul Atomic r_assign_value (Star g_value_char).
Definition g_assign_to : G := compound r_assign_to g_var.
Definition g_eval_sentence : G :=
  compound r_eval_sentence (g_assign_to ~~ w ~~ t ":=" ~~ w ~~ g_assign_value ~~ w ~~ t ";").
Definition g_return : G := Rul Atomic r_return (Star g_value_char).
Definition g_eval_content : G :=
  compound r_eval_content (Star (w ~~ g_eval_sentence ~~ w) ~~ g_return).
Definition g_eval : G :=
  compound r_eval (t "eval" ~~ w1 ~~ t bquote ~~ g_eval_content ~~ t bquote).
(** glicol.pest:25-28 *)
Definition g_psampler : G := compound r_psampler (t "psampler" ~~ W1 ~~ (g_pattern // g_event)).
Definition g_msgsynth : G :=
  compound r_msgsynth ((t "msgsynth" // t "msg_synth") ~~ (W1 ~~ no_name ~~ g_symbol)
                       ~~ a_num ~~ a_num).
Definition g_pattern_synth : G :=
  compound r_pattern_synth ((t "psynth" // t "p_synth" // t "pattern_synth") ~~ W1 ~~ g_code
                            ~~ Opt a_num).
Definition g_adc : G := compound r_adc (t "adc" ~~ a_num).
(** glicol.pest:10-23 *)
Definition g_second : G := compound r_second (g_number ~~ t "_" ~~ t "s").
Definition g_ms : G := compound r_ms (g_number ~~ t "_" ~~ t "ms").
Definition g_sign : G := compound r_sign (t "+" // t "-").
Definition g_bar : G := compound r_bar (g_integer ~~ w ~~ t "/" ~~ w ~~ g_integer).
Definition g_time : G :=
  compound r_time ((g_bar // g_number) ~~ Opt (w ~~ g_sign ~~ w ~~ (g_ms // g_second))).
Definition g_point : G := compound r_point (g_time ~~ w ~~ t "=>" ~~ w ~~ g_number ~~ w).
Definition g_is_looping : G := compound r_is_looping (t "!").
Definition g_math_expression : G :=
  compound r_math_expression
    ((t "/" // t "*") ~~ w ~~ (g_number // (t "(" ~~ g_bar ~~ t ")"))).
Definition g_points_inner : G :=
  compound r_points_inner (t "[" ~~ w ~~ Star g_point ~~ w ~~ t "]").
Definition g_points : G :=
  compound r_points (g_points_inner ~~ w ~~ Opt g_math_expression ~~ w ~~ Opt g_is_looping).

(** glicol.pest:6-8 *)
Definition g_node : G :=
  compound r_node
    (g_reverb // g_arrange // g_psampler // g_mix // g_seq // g_choose // g_mul // g_add // g_sin
     // g_saw // g_squ // g_tri // g_pan // g_speed // g_noise // g_onepole // g_sp // g_constsig
     // g_lpf // g_rhpf // g_onepole // g_imp // g_delayn // g_delayms // g_envperc // g_apfmsgain
     // g_plate // g_sendpass // g_get // g_bd // g_sn // g_hh // g_expr // g_eval // g_points
     // g_meta // g_sawsynth // g_squsynth // g_trisynth // g_balance // g_adc // g_pattern_synth
     // g_msgsynth // g_adsr).

(** glicol.pest:2 *)
Definition g_comment : G :=
  Rul Silent r_silent (t "//" ~~ Star (Not newline ~~ any) ~~ Star newline ~~ Not newline).
(** glicol.pest:4 *)
Definition link : G := W ~~ Opt (t lf) ~~ W ~~ ((t ">>" ~~ W ~~ g_node) // g_comment).
Definition g_chain : G := compound r_chain (g_node ~~ Star link).
(** glicol.pest:3 *)
Definition g_line : G := compound r_line (g_reference ~~ W ~~ t ":" ~~ W ~~ g_chain).
(** glicol.pest:1 *)
Definition item : G :=
  (g_line // g_comment) ~~ W ~~ Opt (t ";") ~~ W ~~ Star (t lf ~~ W).
Definition g_block : G :=
  compound r_block (Star (t lf // g_whitespace) ~~ Star item ~~ Eoi).

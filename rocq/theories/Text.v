(** * Text: the std string operations used by the engine and the parser.

    Text is a Coq [string] of bytes.  Simplification: only ASCII text is given its
    Rust meaning (Unicode white space and multi-byte characters are not decoded). *)
From Coq Require Export Strings.String Strings.Ascii.
From Coq Require Import List NArith.
From Verif Require Export F32.
Import ListNotations.
Local Open Scope N_scope.

Definition is_digit (c : ascii) : bool := let n := N_of_ascii c in (48 <=? n) && (n <=? 57).
Definition is_lower (c : ascii) : bool := let n := N_of_ascii c in (97 <=? n) && (n <=? 122).
Definition is_upper (c : ascii) : bool := let n := N_of_ascii c in (65 <=? n) && (n <=? 90).
Definition digit_val (c : ascii) : N := N_of_ascii c - 48.
(** [char::is_whitespace] on ASCII. *)
Definition is_space (c : ascii) : bool :=
  let n := N_of_ascii c in ((9 <=? n) && (n <=? 13)) || (n =? 32).
(** [char::to_ascii_lowercase]. *)
Definition lower (c : ascii) : ascii :=
  if is_upper c then ascii_of_N (N_of_ascii c + 32) else c.

Fixpoint sfilter (f : ascii -> bool) (s : string) : string :=
  match s with
  | EmptyString => EmptyString
  | String c s' => if f c then String c (sfilter f s') else sfilter f s'
  end.

(** [str::split(c)]: always at least one piece. *)
Fixpoint split_on (c : ascii) (s : string) : list string :=
  match s with
  | EmptyString => [EmptyString]
  | String d s' =>
      if Ascii.eqb c d then EmptyString :: split_on c s'
      else match split_on c s' with
           | p :: ps => String d p :: ps
           | [] => [String d EmptyString]
           end
  end.

Fixpoint smap (f : ascii -> ascii) (s : string) : string :=
  match s with EmptyString => EmptyString | String c s' => String (f c) (smap f s') end.

Fixpoint sall (f : ascii -> bool) (s : string) : bool :=
  match s with EmptyString => true | String c s' => f c && sall f s' end.

(** Value of a digit string, most significant first. *)
Fixpoint digits_val (acc : N) (s : string) : N :=
  match s with
  | EmptyString => acc
  | String c s' => digits_val (10 * acc + digit_val c) s'
  end.

(** [str::parse::<usize>] with maximum [mx]: optional '+', at least one digit, no overflow. *)
Definition parse_uint (mx : N) (s : string) : option N :=
  let body := match s with String "+" s' => s' | _ => s end in
  match body with
  | EmptyString => None
  | _ => if sall is_digit body then
           let v := digits_val 0 body in if v <=? mx then Some v else None
         else None
  end.

Definition parse_usize (c : cfg) (s : string) : option Z :=
  match parse_uint (Z.to_N (umax c)) s with Some n => Some (Z.of_N n) | None => None end.
Definition parse_u8 (s : string) : option Z :=
  match parse_uint 255 s with Some n => Some (Z.of_N n) | None => None end.

(** Longest digit prefix and the rest. *)
Fixpoint span_digits (s : string) : string * string :=
  match s with
  | String c s' =>
      if is_digit c then let (a, b) := span_digits s' in (String c a, b) else (EmptyString, s)
  | EmptyString => (EmptyString, EmptyString)
  end.

Definition split_sign (s : string) : bool * string :=
  match s with
  | String "-" s' => (true, s')
  | String "+" s' => (false, s')
  | _ => (false, s)
  end.

(** [str::parse::<f32>] (core::num documentation: [Number ::= (Digit+ | Digit+ '.' Digit* |
    Digit* '.' Digit+) Exp?], [Exp ::= 'e' Sign? Digit+], plus inf/infinity/nan). *)
Definition parse_f32 (s0 : string) : option f32 :=
  let (neg, s) := split_sign s0 in
  let low := smap lower s in
  if (String.eqb low "inf" || String.eqb low "infinity")%bool then Some (S754_infinity neg)
  else if String.eqb low "nan" then Some S754_nan
  else
    let (ip, r1) := span_digits s in
    let (fp, r2) := match r1 with
                    | String "." r => span_digits r
                    | _ => (EmptyString, r1)
                    end in
    if (String.eqb ip "" && String.eqb fp "")%bool then None
    else
      let mant := digits_val (digits_val 0 ip) fp in
      let scale := (- Z.of_nat (String.length fp))%Z in
      match r2 with
      | EmptyString => Some (f_of_dec neg mant scale)
      | String ce r =>
          if Ascii.eqb (lower ce) "e" then
            let (eneg, r') := split_sign r in
            let (ed, r3) := span_digits r' in
            if String.eqb ed "" then None
            else match r3 with
                 | EmptyString =>
                     let ev := Z.of_N (digits_val 0 ed) in
                     Some (f_of_dec neg mant (scale + (if eneg then - ev else ev))%Z)
                 | _ => None
                 end
          else None
      end.

(** [str::contains("..")]. *)
Fixpoint contains_dotdot (s : string) : bool :=
  match s with
  | String "." ((String "." _) as s') => true
  | String _ s' => contains_dotdot s'
  | EmptyString => false
  end.

(** [str::replace("..", "")]: non-overlapping matches removed left to right. *)
Fixpoint remove_dotdot (s : string) : string :=
  match s with
  | String "." (String "." s') => remove_dotdot s'
  | String c s' => String c (remove_dotdot s')
  | EmptyString => EmptyString
  end.

(** [str::starts_with]. *)
Definition starts_with (s p : string) : bool := prefix p s.

(** [str::contains(c)]. *)
Fixpoint contains_char (c : ascii) (s : string) : bool :=
  match s with
  | EmptyString => false
  | String d s' => Ascii.eqb c d || contains_char c s'
  end.

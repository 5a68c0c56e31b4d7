(** * Wasm: the functions a web page calls.

    /repo/rs/wasm/src/lib.rs (lines 17-129) over the engine, and the JavaScript that prepares
    their arguments and reads their results (/repo/js/npm/index.js, glicol-engine.js).

    Simplifications: the global engine and its mutex are the engine value passed along (a
    panic while the mutex is held ends the history); bytes are the integers 0..255; what
    pest puts in the error of a refused program (location, line, column, the lists of rules)
    is an argument, as are the hash orders of the calls. *)
From Verif Require Export Instance.
Local Open Scope nat_scope.

(** [&b[..n]]: panics when the slice is shorter. *)
Definition slice_to {A} (b : list A) (n : nat) : res (list A) :=
  if Nat.leb n (length b) then Ok (take n b) else Panic.
(** [dst.copy_from_slice(src)]: panics when the lengths differ. *)
Definition copy_from_slice {A} (dst src : list A) : res (list A) :=
  if Nat.eqb (length dst) (length src) then Ok src else Panic.

(** lib.rs:17-29 after [next_block]: [zero] fills the fresh vector of [size] samples. *)
Definition left_then_right {A} (zero : A) (size : nat) (engine_out : list (list A)) : res (list A) :=
  let out_buf := replicate size zero in
  let half_size := Nat.div2 size in
  dst ← slice_to out_buf half_size;
  l ← unwrap (engine_out !! 0);
  l1 ← slice_to l half_size;
  a ← copy_from_slice dst l1;
  r ← unwrap (engine_out !! 1);
  r1 ← slice_to r half_size;
  b ← copy_from_slice (drop half_size out_buf) r1;
  mret (a ++ b)%list.

(** lib.rs:17-29: [process]. *)
Definition wasm_process (P : platform) get (blk : Z) (shs : nat -> shuffle) (e : engine (glang P get)) (size : nat)
    : res (engine (glang P get) * sig) :=
  match next_block (glang P get) blk shs e [] with
  | Panic => Panic
  | Ok (e', eo) => out ← left_then_right f0 size eo; mret (e', out)
  end.

(** [str::as_bytes]. *)
Definition bytes_of (s : string) : list Z := map (fun a => Z.of_N (N_of_ascii a)) (list_ascii_of_string s).

(** lib.rs:90. *)
Definition RES_BUFFER_SIZE : nat := 256.

(** What pest reports about a refused program (lib.rs:101-115), each part as printed by
    [{:?}]: numbers in decimal, lists of rule names. *)
Record parse_report := ParseReport { pr_pos : string; pr_line : string; pr_col : string;
  pr_positives : list string; pr_negatives : list string }.

(** [{:?}] of a list of rules without its brackets: names separated by a comma and a space. *)
Fixpoint joined (l : list string) : string :=
  match l with
  | [] => ""
  | [n] => n
  | n :: l' => n ++ ", " ++ joined l'
  end%string.

(** lib.rs:117-120. *)
Definition parse_message (r : parse_report) : string :=
  ("pos[" ++ pr_pos r ++ "], line[" ++ pr_line r ++ "], col[" ++ pr_col r ++ "], positives[" ++
   joined (pr_positives r) ++ "], negatives[" ++ joined (pr_negatives r) ++ "]")%string.

(** lib.rs:93-97. *)
Definition error_class (er : engine_error) : Z :=
  match er with ParsingError => 1 | NonExistSample _ => 2 | NonExistReference _ => 3 end.
(** lib.rs:99-124. *)
Definition error_message (r : parse_report) (er : engine_error) : string :=
  match er with
  | ParsingError => parse_message r
  | NonExistSample v => "There is no sample named " ++ v
  | NonExistReference v => "There is no reference named " ++ v
  end%string.

(** lib.rs:92-129: [write_err_to_buf]. *)
Definition write_err_to_buf (r : parse_report) (er : engine_error) (result : list Z) : res (list Z) :=
  match result with
  | [] => Panic
  | _ :: _ =>
      let result := <[0 := error_class er]> result in
      let s := bytes_of (error_message r er) in
      let max_bytes_len := min (length s) (RES_BUFFER_SIZE - 2) in
      if Nat.ltb (length result) 2 then Panic else
      let tail := drop 2 result in
      dst ← slice_to tail max_bytes_len;
      src ← slice_to s max_bytes_len;
      w ← copy_from_slice dst src;
      mret (take 2 result ++ w ++ drop max_bytes_len tail)%list
  end.

(** lib.rs:41-51: [update]; the program text is already decoded. *)
Definition wasm_update (L : lang) (o : orders) (r : parse_report) (e : engine L) (code : text L)
    : res (engine L * list Z) :=
  match update L o e code with
  | Panic => Panic
  | Ok (e', None) => Ok (e', replicate RES_BUFFER_SIZE 0%Z)
  | Ok (e', Some er) => res ← write_err_to_buf r er (replicate RES_BUFFER_SIZE 0%Z); mret (e', res)
  end.

(** ** The page *)

(** index.js:112, 130: the text shown for a status. *)
Definition js_info (info : list Z) : list Z := List.filter (fun v => negb (Z.eqb v 0)) (drop 2 info).

(** The text around the first occurrence of a separator. *)
Fixpoint is_prefix (sep s : list Z) : bool :=
  match sep, s with
  | [], _ => true
  | a :: sep', b :: s' => Z.eqb a b && is_prefix sep' s'
  | _ :: _, [] => false
  end.
Fixpoint cut (sep s : list Z) : option (list Z * list Z) :=
  if is_prefix sep s then Some ([], drop (length sep) s) else
  match s with
  | [] => None
  | a :: s' => p ← cut sep s'; Some (a :: p.1, p.2)
  end.
(** [s.split(sep)[0]] *)
Definition before (sep s : list Z) : list Z := match cut sep s with Some p => p.1 | None => s end.
(** [s.split(sep)[1]]: [None] when there is no second part (the page then throws). *)
Definition second (sep s : list Z) : option (list Z) := p ← cut sep s; Some (before sep p.2).
(** index.js:114-118: [info.split("pos[")[1].split("]")[0]] and so on. *)
Definition field (name : string) (info : list Z) : option (list Z) :=
  x ← second (bytes_of name) info; Some (before (bytes_of "]") x).
(** The five fields the page reads (their further formatting is not modelled); [None] when it
    throws. *)
Definition js_fields (info : list Z) : option (list (list Z)) :=
  a ← field "pos[" info; b ← field "line[" info; c ← field "col[" info;
  d ← field "positives[" info; e ← field "negatives[" info; Some [a; b; c; d; e].

(** index.js:179-193: [sendMsg] ends a message with a semicolon unless it has one. *)
Fixpoint ends_with (c : ascii) (s : string) : bool :=
  match s with
  | EmptyString => false
  | String d EmptyString => Ascii.eqb c d
  | String _ s' => ends_with c s'
  end.
Definition ended (msg : string) : string := if ends_with ";" msg then msg else (msg ++ ";")%string.

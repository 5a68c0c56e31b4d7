(** * Peg: the parsing expressions of pest 2.

    pest is the dependency named in /repo/rs/Cargo.toml; its code is not in /repo.  The
    interpreter below transcribes its documented semantics: ordered choice, greedy
    repetition without backtracking into it, predicates that consume nothing, and the
    token rules for the four rule kinds of the grammar:
    - [name = { e }] emits a pair unless it is run inside an atomic rule;
    - [name = @{ e }] emits a pair likewise, and runs [e] atomically: plain rules and
      atomic rules called by [e] emit nothing;
    - [name = ${ e }] always emits a pair and runs [e] so that called rules emit theirs;
    - [name = _{ e }] emits nothing itself.
    All rules of glicol.pest run below the compound-atomic rule [block], so there is no
    implicit white space anywhere.  Text is a string of bytes; [ANY] takes one byte
    (pest takes one character, but every use of [ANY] in the grammar is in a loop that
    stops at ASCII characters only). *)
From Verif Require Export Text.
From Coq Require Import List Lia.
Import ListNotations.
Local Open Scope nat_scope.
Local Open Scope string_scope.

Section peg.
  Context {R : Type}.

  (** The four kinds of rules. *)
  Inductive kind := Plain | Silent | Atomic | Compound.
  (** [SOI] is not represented: it stands at the very start of the only start rule. *)
  Inductive peg :=
  | Eps
  | Lit (s : string)
  | Chr (f : ascii -> bool)
  | Cat (a b : peg)
  | Alt (a b : peg)
  | Star (a : peg)
  | Opt (a : peg)
  | Not (a : peg)
  | Eoi
  | Rul (k : kind) (r : R) (a : peg).
  Inductive pair := Pair (r : R) (text : string) (inner : list pair).
  Definition p_rule (p : pair) : R := let '(Pair r _ _) := p in r.
  Definition p_text (p : pair) : string := let '(Pair _ t _) := p in t.
  Definition p_in (p : pair) : list pair := let '(Pair _ _ l) := p in l.

  (** The rest of [s] after the prefix [p]. *)
  Fixpoint strip (p s : string) : option string :=
    match p, s with
    | EmptyString, _ => Some s
    | String a p', String b s' => if Ascii.eqb a b then strip p' s' else None
    | _, _ => None
    end.

  (** Pairs, text consumed, text left. *)
  Definition hit : Type := list pair * string * string.

  (** A repetition; [n] bounds the number of rounds.  A round that consumes nothing would
      repeat forever in pest (and pest refuses to compile such a grammar, see
      [Grammar.g_block_productive]): it ends the loop here. *)
  Fixpoint star_loop (f : string -> option hit) (n : nat) (s : string) : hit :=
    match n with
    | O => ([], "", s)
    | S n' =>
        match f s with
        | Some (p, t, s') =>
            match t with
            | EmptyString => ([], "", s)
            | _ => let '(p2, t2, s2) := star_loop f n' s' in (p ++ p2, (t ++ t2)%string, s2)
            end
        | None => ([], "", s)
        end
    end%list.

  (** [emit]: not inside an atomic rule. *)
  Fixpoint peg_run (emit : bool) (e : peg) (s : string) : option hit :=
    match e with
    | Eps => Some ([], "", s)
    | Lit p => match strip p s with Some s' => Some ([], p, s') | None => None end
    | Chr f => match s with
               | String c s' => if f c then Some ([], String c "", s') else None
               | EmptyString => None
               end
    | Cat a b =>
        match peg_run emit a s with
        | Some (p1, t1, s1) =>
            match peg_run emit b s1 with
            | Some (p2, t2, s2) => Some (p1 ++ p2, (t1 ++ t2)%string, s2)%list
            | None => None
            end
        | None => None
        end
    | Alt a b => match peg_run emit a s with Some r => Some r | None => peg_run emit b s end
    | Star a => Some (star_loop (peg_run emit a) (String.length s) s)
    | Opt a => match peg_run emit a s with Some r => Some r | None => Some ([], "", s) end
    | Not a => match peg_run emit a s with Some _ => None | None => Some ([], "", s) end
    | Eoi => match s with EmptyString => Some ([], "", s) | _ => None end
    | Rul k r a =>
        match peg_run (match k with Atomic => false | Compound => true | _ => emit end) a s with
        | Some (p, t, s') =>
            let shown := match k with Silent => false | Compound => true | _ => emit end in
            Some (if shown then [Pair r t p] else p, t, s')
        | None => None
        end
    end.
End peg.
Arguments peg R : clear implicits.
Arguments pair R : clear implicits.
Arguments hit R : clear implicits.

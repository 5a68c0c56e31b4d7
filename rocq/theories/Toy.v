(** * Toy: a minimal [lang] used only in non-vacuity examples of engine theorems.

    A program is given directly as an association list; components are constants or
    adders of references; buffers are single numbers. *)
From Verif Require Export Engine.
Local Open Scope nat_scope.

Inductive tcomp := TConst (n : nat) | TAdd (refs : list string) | TSample (s : string).
Definition tcomp_eqb (a b : tcomp) : bool :=
  match a, b with
  | TConst x, TConst y => Nat.eqb x y
  | TAdd x, TAdd y => bool_decide (x = y)
  | TSample x, TSample y => bool_decide (x = y)
  | _, _ => false
  end.
Definition trefs (c : tcomp) : list string := match c with TAdd l => l | _ => [] end.

(** State of a toy node: constant, number of blocks played, messages received. *)
Record tnode := TNode { tn_val : nat; tn_age : nat; tn_log : list msg }.

Definition tmake (ev : env nat) (c : tcomp) : outcome ((tnode * list nat) * list string) :=
  match c with
  | TConst n => Done ((TNode n 0 [], [0]), [])
  | TAdd l => Done ((TNode 0 0 [], [0]), l)
  | TSample s => match e_samples ev !! s with
                 | Some v => Done ((TNode v 0 [], [0]), [])
                 | None => Fail (NonExistSample s)
                 end
  end.
Definition tproc (n : tnode) (ins : list (nat * list nat)) (b : list nat) : res (tnode * list nat) :=
  Ok (TNode (tn_val n) (S (tn_age n)) (tn_log n),
      [foldl (fun a p => a + match p.2 with x :: _ => x | [] => 0 end) (tn_val n) ins]).
Definition tmsg (n : tnode) (m : msg) : res tnode := Ok (TNode (tn_val n) (tn_age n) (tn_log n ++ [m])).

Definition toy : lang :=
  {| comp := tcomp; node := tnode; buf := nat; slice := nat; sample := nat;
     text := option (list (string * list tcomp));
     comp_eqb := tcomp_eqb; all_refs := trefs; makenode := tmake; nmsg := tmsg; nproc := tproc;
     parse := fun c => match c with Some l => Done (list_to_map l) | None => Fail ParsingError end;
     dest_w := (TNode 0 0 [], [0]); pass_w := (TNode 0 0 [], [0]);
     copy_slice := fun _ s => Ok s |}.

Definition id_orders : orders := Orders id_shuffle id_shuffle id_shuffle id_shuffle.
Definition rev_orders : orders := Orders rev_shuffle rev_shuffle rev_shuffle rev_shuffle.

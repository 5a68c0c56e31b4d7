(** * Base: panics, HashMap iteration order, small list helpers.

    Everything here is modelling infrastructure; it has no counterpart in
    /repo except where a line citation is given. *)
From stdpp Require Export prelude list gmap strings sorting.

(** A Rust computation either returns a value or panics (index out of bounds,
    [unwrap] on [None], arithmetic overflow in debug builds, ...).  A panic in
    the audio thread aborts it; it is never turned into a default value. *)
Inductive res (A : Type) : Type :=
| Ok (a : A)
| Panic.
Arguments Ok {A} _.
Arguments Panic {A}.

Global Instance res_ret : MRet res := fun A a => Ok a.
Global Instance res_bind : MBind res := fun A B f m =>
  match m with Ok a => f a | Panic => Panic end.
Global Instance res_fmap : FMap res := fun A B f m =>
  match m with Ok a => Ok (f a) | Panic => Panic end.

(** [Option::unwrap]/[expect]/indexing: [None] panics. *)
Definition unwrap {A} (o : option A) : res A :=
  match o with Some a => Ok a | None => Panic end.

Definition is_ok {A} (r : res A) : Prop := match r with Ok _ => True | Panic => False end.

Fixpoint foldM {A B} (f : A -> B -> res A) (a : A) (l : list B) : res A :=
  match l with
  | [] => Ok a
  | b :: l' => match f a b with Ok a' => foldM f a' l' | Panic => Panic end
  end.

Fixpoint mapR {A B} (f : A -> res B) (l : list A) : res (list B) :=
  match l with
  | [] => Ok []
  | a :: l' =>
      match f a with
      | Ok b => match mapR f l' with Ok bs => Ok (b :: bs) | Panic => Panic end
      | Panic => Panic
      end
  end.

(** Iteration order of a hash map.  Rust's [HashMap] iterates in an order that
    depends on hashing; the model asks an oracle for an arbitrary permutation of
    the entries.  Every theorem quantifies over the oracle.  Any concrete
    permutation of any concrete list is produced by some oracle (a permutation of
    positions), so no iteration order is left out. *)
Record shuffle := Shuffle {
  shuf :> forall A : Type, list A -> list A;
  shuf_perm : forall (A : Type) (l : list A), shuf A l ≡ₚ l
}.
Arguments shuf _ {A} _.

(** The identity order, used in examples only. *)
Definition id_shuffle : shuffle := {| shuf := fun _ l => l; shuf_perm := fun A l => Permutation_refl l |}.
(** The reversed order, used in examples only. *)
Definition rev_shuffle : shuffle :=
  {| shuf := fun _ l => rev l; shuf_perm := fun A l => Permutation_sym (Permutation_rev l) |}.

(** [Vec::insert(pos, x)]: panics when [pos > len] (alloc::vec documentation). *)
Definition vec_insert {A} (pos : nat) (x : A) (l : list A) : res (list A) :=
  if decide (pos ≤ length l) then Ok (take pos l ++ x :: drop pos l) else Panic.

(** [Vec::remove(pos)]: panics when [pos >= len]. *)
Definition vec_remove {A} (pos : nat) (l : list A) : res (list A) :=
  if decide (pos < length l) then Ok (take pos l ++ drop (S pos) l) else Panic.

(** [slice::windows(2)]. *)
Fixpoint windows2 {A} (l : list A) : list (A * A) :=
  match l with
  | a :: ((b :: _) as l') => (a, b) :: windows2 l'
  | _ => []
  end.

Lemma foldM_app {A B} (f : A -> B -> res A) a l1 l2 :
  foldM f a (l1 ++ l2) = match foldM f a l1 with Ok a' => foldM f a' l2 | Panic => Panic end.
Proof. revert a; induction l1 as [|b l1 IH]; intros a; simpl; [done|]. destruct (f a b); auto. Qed.

Lemma foldM_inv {A B} (P : A -> Prop) (f : A -> B -> res A) a l a' :
  P a -> (forall x b x', P x -> b ∈ l -> f x b = Ok x' -> P x') -> foldM f a l = Ok a' -> P a'.
Proof.
  revert a; induction l as [|b l IH]; intros a Ha Hf; simpl; [by intros [= <-]|].
  destruct (f a b) as [x|] eqn:E; [|done]. apply IH; [eapply Hf; eauto; set_solver|].
  intros; eapply Hf; eauto; set_solver.
Qed.

(** * Node: what every audio node needs.

    A [Buffer<N>] (/repo/rs/synth/src/buffer.rs:27) is a list of N f32 values; the
    length is not part of the type here.  [Node::process] (/repo/rs/synth/src/lib.rs:147)
    gets the inputs (a [HashMap<usize, Input>]) as a list of (node id, buffers) pairs in
    iteration order and the node's output buffers, and returns the new node state and
    the new output buffers.  The sample loops of the source run over the N samples of a
    block and carry the node state; they are [scan]s here. *)
From Verif Require Export Engine F64.
Local Open Scope Z_scope.

Notation sig := (list f32).
Notation inmap := (list (nat * list sig)).

(** What the code takes from outside /repo.  [p_blk] is the const generic N.  The
    functions of libm, dasp_signal's noise (crate dasp_signal, [p_noise seed n] is the
    n-th value of [signal::noise(seed)]), the fasteval and rhai interpreters and the
    hash order inside compound nodes are arbitrary parameters: no theorem assumes
    anything about them unless it says so. *)
Record platform := Platform {
  p_blk : nat;
  p_cfg : cfg;
  p_sin : f32 -> f32;
  p_cos : f32 -> f32;
  p_exp : f32 -> f32;
  p_pow2 : f32 -> f32;                                (* 2f32.powf(x) *)
  p_noise : Z -> Z -> f64;
  p_inner : nat -> shuffle;
  p_ext : Type;                                       (* interpreter states *)
  p_eval_new : Z -> p_ext;                            (* dynamic/eval.rs:30,57 [Eval::new().sr(sr)] *)
  p_eval_code : p_ext -> string -> res p_ext;         (* eval.rs:70 [apply_code], panics on a syntax error *)
  p_eval_step : p_ext -> option f32 -> Z -> res (p_ext * f32); (* eval.rs:94-113, one sample *)
  p_meta_new : Z -> p_ext;                            (* dynamic/meta.rs:22,86,145 *)
  p_meta_code : p_ext -> string -> p_ext;             (* meta.rs:90: ignored when it does not compile *)
  p_meta_run : p_ext -> option sig -> p_ext * option (list (option f32)) (* meta.rs:100-113 *)
}.

(** Sample loops. *)
Fixpoint scan {S A B} (f : S -> A -> S * B) (s : S) (xs : list A) : S * list B :=
  match xs with
  | [] => (s, [])
  | x :: xs' => let '(s', y) := f s x in let '(s'', ys) := scan f s' xs' in (s'', y :: ys)
  end.
Fixpoint scanR {S A B} (f : S -> A -> res (S * B)) (s : S) (xs : list A) : res (S * list B) :=
  match xs with
  | [] => Ok (s, [])
  | x :: xs' =>
      match f s x with
      | Ok (s', y) => match scanR f s' xs' with
                      | Ok (s'', ys) => Ok (s'', y :: ys)
                      | Panic => Panic
                      end
      | Panic => Panic
      end
  end.

(** [usize] arithmetic of the build: debug builds panic on overflow, release builds wrap. *)
Definition uadd (c : cfg) (a b : Z) : res Z :=
  if a + b <=? umax c then Ok (a + b)
  else if debug c then Panic else Ok ((a + b) mod (umax c + 1)).
Definition usub (c : cfg) (a b : Z) : res Z :=
  if b <=? a then Ok (a - b)
  else if debug c then Panic else Ok ((a - b) mod (umax c + 1)).
(** [a % b] panics for [b = 0] in every build. *)
Definition umod (a b : Z) : res Z := if b =? 0 then Panic else Ok (a mod b).

(** Slice indexing with a [usize]. *)
Definition at_ {A} (l : list A) (i : Z) : res A :=
  if i <? 0 then Panic else unwrap (l !! Z.to_nat i).

(** [vec![0.0; n]]. *)
Definition zeros (n : Z) : sig := replicate (Z.to_nat n) f0.

(** Inputs: [inputs.values().next().unwrap()], [inputs[&id]], [input_order[k]],
    [buffers()[ch]], writing [output[0]]. *)
Definition in_first (ins : inmap) : res (list sig) :=
  match ins with p :: _ => Ok p.2 | [] => Panic end.
Fixpoint in_id (ins : inmap) (id : nat) : res (list sig) :=
  match ins with
  | [] => Panic
  | p :: ins' => if Nat.eqb p.1 id then Ok p.2 else in_id ins' id
  end.
Definition in_ord (ins : inmap) (ord : list nat) (k : nat) : res (list sig) :=
  match ord !! k with Some id => in_id ins id | None => Panic end.
Definition chan (bs : list sig) (ch : nat) : res sig := unwrap (bs !! ch).
Definition put0 (out : list sig) (b : sig) : res (list sig) :=
  match out with _ :: r => Ok (b :: r) | [] => Panic end.
(** Write [output[0]] and [output[1]]. *)
Definition put01 (out : list sig) (l r : sig) : res (list sig) :=
  match out with _ :: _ :: o => Ok (l :: r :: o) | _ => Panic end.

(** [Message::Index], [IndexOrder], [ResetOrder] on the [input_order] field, as handled
    by all nodes that have all three arms (e.g. operator/add.rs:41-45). *)
Definition ord_msg (ord : list nat) (m : msg) : res (list nat) :=
  match m with
  | Index i => Ok (ord ++ [i])
  | IndexOrder pos i => vec_insert pos i ord
  | ResetOrder => Ok []
  | _ => Ok ord
  end.
(** The nodes without a [ResetOrder] arm (e.g. signal/imp.rs:51-58). *)
Definition ord_msg_keep (ord : list nat) (m : msg) : res (list nat) :=
  match m with ResetOrder => Ok ord | _ => ord_msg ord m end.

(** A [while] loop, at most 2^n iterations.  [inl]: still running.  The loops of the
    source run over a single f32 and the model uses 2^33 iterations, more than there
    are f32 values: a loop still running then repeats a state and never ends.  Such a
    non-terminating loop is given the outcome [Panic]: either way the audio thread
    does not deliver the block. *)
Fixpoint loop_pow {S A} (n : nat) (body : S -> S + A) (s : S) : S + A :=
  match n with
  | O => body s
  | S k => match loop_pow k body s with
           | inl s' => loop_pow k body s'
           | inr a => inr a
           end
  end.
Definition while_ {S A} (body : S -> S + A) (s : S) : res A :=
  match loop_pow 33 body s with inr a => Ok a | inl _ => Panic end.

(** Literals. *)
Definition f2 : f32 := f_of_Z 2.
Definition fhalf : f32 := f_of_dec false 5 (-1).
Definition fm1 : f32 := f_of_Z (-1).
(** [std::f32::consts::PI] = 3.14159265358979323846264338327950288. *)
Definition fpi : f32 := f_of_dec false 314159265358979323846264338327950288 (-35).
Definition silent (P : platform) : sig := replicate (p_blk P) f0.

(** dasp_ring_buffer 0.11 [Fixed<Vec<f32>>] (not in /repo; its documented behaviour):
    [from] asserts a non-empty buffer; [push] replaces the oldest element and returns
    it; [get i] is the i-th oldest, wrapping.  Simplification: [first + i] does not
    overflow. *)
Record ring := Ring { r_data : sig; r_first : nat }.
Definition ring_from (l : sig) : res ring :=
  match l with [] => Panic | _ => Ok (Ring l 0) end.
Definition ring_len (r : ring) : nat := length (r_data r).
Definition ring_push (r : ring) (x : f32) : ring * f32 :=
  let nxt := if Nat.eqb (S (r_first r)) (ring_len r) then 0%nat else S (r_first r) in
  (Ring (<[r_first r := x]> (r_data r)) nxt, default f0 (r_data r !! r_first r)).
Definition ring_get (r : ring) (i : Z) : f32 :=
  default f0 (r_data r !! Z.to_nat ((Z.of_nat (r_first r) + i) mod Z.of_nat (ring_len r))).
Definition ring_set_first (r : ring) (i : Z) : ring :=
  Ring (r_data r) (Z.to_nat (i mod Z.of_nat (ring_len r))).

(** * F64: the few f64 operations of the audio code (sequencer and random choice).

    As [F32], at precision 53 and maximal exponent 1024. *)
From Verif Require Export F32.
Open Scope Z_scope.

Definition f64 : Set := spec_float.
Definition dadd (x y : f64) : f64 := SFadd 53 1024 x y.
Definition dmul (x y : f64) : f64 := SFmul 53 1024 x y.
Definition ddiv (x y : f64) : f64 := SFdiv 53 1024 x y.
(** Integer literal or [usize as f64]. *)
Definition d_of_Z (z : Z) : f64 := binary_normalize 53 1024 z 0 false.
(** [f32 as f64] (exact) and [f64 as f32] (rounded). *)
Definition renorm (prec emax : Z) (x : spec_float) : spec_float :=
  match x with
  | S754_finite s m e => binary_normalize prec emax (if s then Zneg m else Zpos m) e s
  | _ => x
  end.
Definition d_of_f (x : f32) : f64 := renorm 53 1024 x.
Definition f_of_d (x : f64) : f32 := renorm prec32 emax32 x.
(** [0.5f64]. *)
Definition d_half : f64 := ddiv (d_of_Z 1) (d_of_Z 2).
(** [f64 as usize] is [as_usize] (saturating, NaN to 0), defined on any [spec_float]. *)

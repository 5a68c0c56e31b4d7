(** * F32: the f32 arithmetic used by the audio code.

    Rust's [f32] [+ - * / sqrt] are IEEE-754 binary32 operations rounding to nearest,
    ties to even.  They are modelled by the stdlib's executable [SpecFloat]
    operations at precision 24 and maximal exponent 128.  Simplification: all NaNs
    are one value (payload and sign of NaN are not represented). *)
From Coq Require Export ZArith Floats.SpecFloat.
From Coq Require Import Lia.
Open Scope Z_scope.

Definition f32 : Set := spec_float.
Definition prec32 : Z := 24.
Definition emax32 : Z := 128.

Definition fadd (x y : f32) : f32 := SFadd prec32 emax32 x y.
Definition fsub (x y : f32) : f32 := SFsub prec32 emax32 x y.
Definition fmul (x y : f32) : f32 := SFmul prec32 emax32 x y.
Definition fdiv (x y : f32) : f32 := SFdiv prec32 emax32 x y.
Definition fsqrt (x : f32) : f32 := SFsqrt prec32 emax32 x.
Definition fneg (x : f32) : f32 := SFopp x.
Definition fabs (x : f32) : f32 := SFabs x.
(** [PartialEq]/[PartialOrd]: NaN compares false with everything, -0.0 == 0.0. *)
Definition feqb (x y : f32) : bool := SFeqb x y.
Definition fltb (x y : f32) : bool := SFltb x y.
Definition fleb (x y : f32) : bool := SFleb x y.
Definition fgtb (x y : f32) : bool := SFltb y x.
Definition fgeb (x y : f32) : bool := SFleb y x.
Definition is_nan (x : f32) : bool := match x with S754_nan => true | _ => false end.

Definition f0 : f32 := S754_zero false.
(** Integer literal or [usize as f32]: round to nearest even. *)
Definition f_of_Z (z : Z) : f32 := binary_normalize prec32 emax32 z 0 false.
Definition f1 : f32 := f_of_Z 1.

(** Truncation towards zero of a finite float. *)
Definition trunc_Z (x : f32) : Z :=
  match x with
  | S754_finite s m e =>
      let a := match e with
               | Z0 => Zpos m
               | Zpos _ => Zpos m * 2 ^ e
               | Zneg p => Zpos m / 2 ^ (Zpos p)
               end in
      if s then - a else a
  | _ => 0
  end.

(** Decimal literal [m * 10^e10] with a sign, correctly rounded, as
    [str::parse::<f32>] and the Rust compiler do. *)
Definition f_of_dec (s : bool) (m : N) (e10 : Z) : f32 :=
  match m with
  | N0 => S754_zero s
  | Npos p =>
      if (0 <=? e10)%Z
      then binary_normalize prec32 emax32 (if s then Zneg p * 10 ^ e10 else Zpos p * 10 ^ e10) 0 s
      else SFdiv prec32 emax32 (S754_finite s p 0)
             (S754_finite false (Z.to_pos (10 ^ (- e10))) 0)
  end.

(** Build profile and pointer width: [debug] builds panic on [usize] underflow,
    release builds wrap modulo [umax + 1]; [umax] is 2^32-1 (wasm) or 2^64-1. *)
Record cfg := Cfg { debug : bool; umax : Z }.

(** [f32 as usize]: saturating, NaN becomes 0. *)
Definition as_usize (c : cfg) (x : f32) : Z :=
  match x with
  | S754_nan => 0
  | S754_infinity s => if s then 0 else umax c
  | _ => Z.max 0 (Z.min (umax c) (trunc_Z x))
  end.

(** [f32 as u8]. *)
Definition as_u8 (x : f32) : Z :=
  match x with
  | S754_nan => 0
  | S754_infinity s => if s then 0 else 255
  | _ => Z.max 0 (Z.min 255 (trunc_Z x))
  end.

(** [f32::floor]/[ceil]: exact, computed on integers. *)
Definition ffloor (x : f32) : f32 :=
  match x with
  | S754_finite s m (Zneg p) =>
      let q := Zpos m / 2 ^ (Zpos p) in
      let exact := (q * 2 ^ (Zpos p) =? Zpos m)%Z in
      if s then binary_normalize prec32 emax32 (- (if exact then q else q + 1)) 0 true
      else binary_normalize prec32 emax32 q 0 false
  | _ => x
  end.
Definition fceil (x : f32) : f32 := fneg (ffloor (fneg x)).
(** [f32::fract x = x - x.trunc()]. *)
Definition ftrunc (x : f32) : f32 :=
  match x with
  | S754_finite s _ (Zneg _) => binary_normalize prec32 emax32 (trunc_Z x) 0 s
  | _ => x
  end.
Definition ffract (x : f32) : f32 := fsub x (ftrunc x).

(** [f32::clamp(lo, hi)] for ordered finite bounds (std implementation:
    [if x < min {min}; if x > max {max}]; NaN stays NaN). *)
Definition fclamp (x lo hi : f32) : f32 :=
  let x := if fltb x lo then lo else x in
  if fgtb x hi then hi else x.
(** [f32::max]/[min]: the non-NaN argument wins. *)
Definition fmax (x y : f32) : f32 := if is_nan x then y else if fltb x y then y else x.
Definition fmin (x y : f32) : f32 := if is_nan x then y else if fltb y x then y else x.

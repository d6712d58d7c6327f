(** The arithmetic the image code computes in.  [Image.cpp] works on [double] colours and
    stores [float] or integer channels; the image model (ImageModel.v) is written once over a
    record of operations and used with two instances: IEEE 754 binary64/binary32
    ([double_arith], the arithmetic of the program) and the real numbers ([real_arith] in
    ArithReal.v, the same formulas without rounding). *)

From Coq Require Import ZArith Bool.
From Flocq Require Import IEEE754.BinarySingleNaN IEEE754.Binary IEEE754.Bits.
From Verif Require Import FloatModel.
Local Open Scope Z_scope.

(** [num] is C++ [double], [flt] is C++ [float].  [ntrunc] is the integer a conversion to an
    integer type yields before its range check, [nround] the integer [std::round] yields;
    both are [None] for NaN and the infinities. *)
Record arith := Arith {
  num : Type;
  flt : Type;
  ofZ : Z -> num;
  nadd : num -> num -> num;
  nsub : num -> num -> num;
  nmul : num -> num -> num;
  ndiv : num -> num -> num;
  nsqrt : num -> num;
  nabs : num -> num;
  nltb : num -> num -> bool;
  nleb : num -> num -> bool;
  npow : num -> num -> num;
  ntrunc : num -> option Z;
  nround : num -> option Z;
  widen : flt -> num;
  narrow : num -> flt }.

(** C++ [double]. *)
Definition double := binary64.

(** A NaN of each width, for conversions of NaN (the payload is not modelled: a conversion of
    a NaN yields this one). *)
Definition nan32 : float := proj1_sig default_nan_pl32.
Definition nan64 : double := proj1_sig default_nan_pl64.

(** Conversion of an integer to [double]. *)
Definition double_of_Z (z : Z) : double :=
  binary_normalize 53 1024 eq_refl eq_refl mode_NE z 0 false.

(** Implicit conversion of [float] to [double]. *)
Definition dwiden (x : float) : double :=
  match x with
  | B754_zero _ _ s => B754_zero 53 1024 s
  | B754_infinity _ _ s => B754_infinity 53 1024 s
  | B754_nan _ _ _ _ _ => nan64
  | B754_finite _ _ s m e _ =>
      binary_normalize 53 1024 eq_refl eq_refl mode_NE (SpecFloat.cond_Zopp s (Zpos m)) e s
  end.

(** [static_cast<float>] of a [double]: rounds to nearest even, overflows to infinity. *)
Definition dnarrow (x : double) : float :=
  match x with
  | B754_zero _ _ s => B754_zero 24 128 s
  | B754_infinity _ _ s => B754_infinity 24 128 s
  | B754_nan _ _ _ _ _ => nan32
  | B754_finite _ _ s m e _ =>
      binary_normalize 24 128 eq_refl eq_refl mode_NE (SpecFloat.cond_Zopp s (Zpos m)) e s
  end.

(** [x < y] and [x <= y] on [double]: false when either is NaN. *)
Definition dltb (x y : double) : bool :=
  match b64_compare x y with Some Lt => true | _ => false end.
Definition dleb (x y : double) : bool :=
  match b64_compare x y with Some Lt | Some Eq => true | _ => false end.

(** Truncation towards zero, for conversions to an integer type. *)
Definition dtrunc (x : double) : option Z :=
  match x with
  | B754_zero _ _ _ => Some 0
  | B754_finite _ _ s m e _ =>
      let k := match e with
               | Zneg p => Zpos m / 2 ^ Zpos p
               | _ => Zpos m * 2 ^ e
               end in
      Some (if s then - k else k)
  | _ => None
  end.

(** [std::round]: nearest integer, halfway cases away from zero (see [roundZ]). *)
Definition dround (x : double) : option Z :=
  match x with
  | B754_zero _ _ _ => Some 0
  | B754_finite _ _ s m e _ =>
      let k := match e with
               | Zneg p => (2 * Zpos m + 2 ^ Zpos p) / (2 * 2 ^ Zpos p)
               | _ => Zpos m * 2 ^ e
               end in
      Some (if s then - k else k)
  | _ => None
  end.

(** The arithmetic of the program.  [std::pow] is a library function whose result is not
    specified bit for bit, so it is a parameter [pw]; [FLT_EVAL_METHOD] is assumed to be 0 and
    the compiler not to contract expressions into fused multiply-adds. *)
Definition double_arith (pw : double -> double -> double) : arith := {|
  num := double;
  flt := float;
  ofZ := double_of_Z;
  nadd := b64_plus mode_NE;
  nsub := b64_minus mode_NE;
  nmul := b64_mult mode_NE;
  ndiv := b64_div mode_NE;
  nsqrt := b64_sqrt mode_NE;
  nabs := b64_abs;
  nltb := dltb;
  nleb := dleb;
  npow := pw;
  ntrunc := dtrunc;
  nround := dround;
  widen := dwiden;
  narrow := dnarrow |}.

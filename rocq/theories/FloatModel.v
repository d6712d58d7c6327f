(** Single precision arithmetic as the library uses it.  The model of [float] is IEEE 754
    binary32 with rounding to nearest even, from Flocq; the compiler is assumed to evaluate
    [float] expressions in [float] (FLT_EVAL_METHOD = 0), as on x86-64 and ARM64. *)

From Coq Require Import ZArith Bool.
From Flocq Require Import IEEE754.BinarySingleNaN IEEE754.Binary IEEE754.Bits.
Local Open Scope Z_scope.

(** C++ [float]. *)
Definition float := binary32.

(** [x < y] on [float]: false when either is NaN. *)
Definition fltb (x y : float) : bool :=
  match b32_compare x y with Some Lt => true | _ => false end.

(** Conversion of an integer to [float] (implicit in [x*maxVal] and in
    [static_cast<float>(std::numeric_limits<T>::max())]). *)
Definition float_of_Z (z : Z) : float :=
  binary_normalize 24 128 eq_refl eq_refl mode_NE z 0 false.

(** [x*y] on [float]. *)
Definition fmul (x y : float) : float := b32_mult mode_NE x y.

(** [clamp], lib/src/Shared.h:30-37. *)
Definition clampf (v minVal maxVal : float) : float :=
  if fltb v minVal then minVal
  else if fltb maxVal v then maxVal
  else v.

(** The integer [std::round] returns: halfway cases go away from zero.  [None] for NaN and
    the infinities, where there is no integer.  (The C++ function returns a [float]; that is
    the same number, because an integer nearest to a [float] is a [float].) *)
Definition roundZ (x : float) : option Z :=
  match x with
  | B754_zero _ _ _ => Some 0
  | B754_finite _ _ s m e _ =>
      let k := match e with
               | Zneg p => (2 * Zpos m + 2 ^ Zpos p) / (2 * 2 ^ Zpos p)
               | _ => Zpos m * 2 ^ e
               end in
      Some (if s then - k else k)
  | _ => None
  end.

(** [static_cast<T>] of a [float] with integral value to an integer type with range
    [lo..hi]; outside the range the behaviour is undefined (C++17 [conv.fpint]): [None]. *)
Definition cast_int (lo hi : Z) (z : option Z) : option Z :=
  match z with
  | Some k => if (lo <=? k) && (k <=? hi) then Some k else None
  | None => None
  end.

(** What the float conversions should compute, over the real numbers. *)

From Coq Require Import ZArith Reals.
From Flocq Require Import Core IEEE754.Binary IEEE754.Bits.
From Verif Require Import FloatModel.
Local Open Scope R_scope.

(** The real number a finite [float] denotes. *)
Definition real (v : float) : R := B2R 24 128 v.
Definition nan (v : float) : bool := is_nan 24 128 v.
Definition finite (v : float) : bool := is_finite 24 128 v.

(** [v] limited to [lo..hi]; the infinities go to the bounds. *)
Definition limit (lo hi : R) (v : float) : R :=
  match v with
  | B754_infinity _ _ s => if s then lo else hi
  | _ => Rmax lo (Rmin hi (real v))
  end.

(** Correctly rounded binary32 result (to nearest, ties to even). *)
Definition rnd32 (x : R) : R := round radix2 (FLT_exp (-149) 24) ZnearestE x.

(** Nearest integer, halves away from zero. *)
Definition nearest (x : R) : Z := ZnearestA x.

(** Order on the non-NaN floats, including the infinities. *)
Definition fle (x y : float) : Prop :=
  match b32_compare x y with Some Lt | Some Eq => True | _ => False end.

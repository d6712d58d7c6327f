(** What is assumed of [std::pow], for the properties of sRGB images. *)

From Coq Require Import ZArith Reals.
From Flocq Require Import Core.
From Verif Require Import FloatModel ArithModel ArithSpec.
Local Open Scope R_scope.

(** On the arguments the sRGB functions can pass to it, [std::pow] is accurate to 2^-50 (glibc
    and the Microsoft runtime stay below 2^-52). *)
Definition pow_ok (pw : double -> double -> double) : Prop :=
  forall x y, dfinite x = true -> dfinite y = true ->
    / 512 <= dreal x <= bpow radix2 130 -> 0 <= dreal y <= 3 ->
    dfinite (pw x y) = true /\
    Rabs (dreal (pw x y) - Rpower (dreal x) (dreal y)) <= / IZR (2 ^ 50) * Rpower (dreal x) (dreal y).

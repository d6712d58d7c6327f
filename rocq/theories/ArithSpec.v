(** What the double precision operations denote, over the real numbers. *)

From Coq Require Import ZArith Reals.
From Flocq Require Import Core IEEE754.Binary IEEE754.Bits.
From Verif Require Import FloatModel ArithModel.
Local Open Scope R_scope.

(** The real number a finite [double] denotes. *)
Definition dreal (v : double) : R := B2R 53 1024 v.
Definition dfinite (v : double) : bool := is_finite 53 1024 v.
Definition dnan (v : double) : bool := is_nan 53 1024 v.

(** Correctly rounded binary64 result (to nearest, ties to even). *)
Definition rnd64 (x : R) : R := round radix2 (FLT_exp (-1074) 53) ZnearestE x.

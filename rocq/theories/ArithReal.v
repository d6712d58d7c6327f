(** The image formulas over the real numbers: the second instance of the arithmetic of
    ArithModel.v.  Nothing is rounded; conversions to integers are those of the program
    (truncation, and rounding to nearest with halfway cases away from zero).  This is an
    idealisation of the program, used where a property is about the formulas themselves. *)

From Coq Require Import ZArith Reals Bool.
From Flocq Require Import Core.
From Verif Require Import FloatSpec ArithModel ImageModel.
Local Open Scope R_scope.

Definition real_arith : arith := {|
  num := R;
  flt := R;
  ofZ := IZR;
  nadd := Rplus;
  nsub := Rminus;
  nmul := Rmult;
  ndiv := Rdiv;
  nsqrt := sqrt;
  nabs := Rabs;
  nltb := Rlt_bool;
  nleb := Rle_bool;
  npow := Rpower;
  ntrunc := fun x => Some (Ztrunc x);
  nround := fun x => Some (nearest x);
  widen := fun x => x;
  narrow := fun x => x |}.

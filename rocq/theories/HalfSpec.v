(** What a half float is, and what should be stored for a float: IEEE 754 binary16 read from its
    definition, with the real numbers. *)

From Coq Require Import NArith ZArith Reals Bool.
From Flocq Require Import Core IEEE754.Binary IEEE754.Bits.
From Verif Require Import FloatModel FloatSpec.
From Verif Require FormatModel.
Local Open Scope R_scope.

(** A number, an infinity (negative if [true]), or not a number. *)
Inductive hvalue := HNumber (x : R) | HInfinity (negative : bool) | HNaN.

(** The value of a 16-bit word: one bit of sign, five of exponent, ten of fraction. *)
Definition half_value (w : N) : hvalue :=
  let negative := (32768 <=? w)%N in
  let exponent := ((w / 1024) mod 32)%N in
  let fraction := (w mod 1024)%N in
  let sign := if negative then -1 else 1 in
  if (exponent =? 31)%N then
    if (fraction =? 0)%N then HInfinity negative else HNaN
  else if (exponent =? 0)%N then HNumber (sign * (IZR (Z.of_N fraction) * / 16777216))
  else HNumber (sign * ((1024 + IZR (Z.of_N fraction)) * bpow radix2 (Z.of_N exponent - 25))).

(** The half float nearest to a number, ties to even: eleven digits, none below 2^-24. *)
Definition rnd16 (x : R) : R := round radix2 (FLT_exp (-24) 11) ZnearestE x.

(** The sign of a float; NaN has one too. *)
Definition negative (v : float) : bool := Bsign 24 128 v.

(** What should be stored for [v]: 65520 is halfway between the largest half float, 65504, and
    the number after it. *)
Definition half_expected (v : float) : hvalue :=
  match v with
  | B754_nan _ _ _ _ _ => HNaN
  | B754_infinity _ _ s => HInfinity s
  | _ => if Rle_bool 65520 (Rabs (real v)) then HInfinity (negative v) else HNumber (rnd16 (real v))
  end.

(** The [i]-th 16-bit number of a buffer, low byte first. *)
Definition word16 (buf : list N) (i : N) : N :=
  (List.nth (N.to_nat (2 * i)) buf 0 + 256 * List.nth (N.to_nat (2 * i + 1)) buf 0)%N.

(** Order on values; nothing is below or above NaN. *)
Definition hle (a b : hvalue) : Prop :=
  match a, b with
  | HNaN, _ | _, HNaN => False
  | HInfinity true, _ | _, HInfinity false => True
  | HNumber x, HNumber y => x <= y
  | HInfinity false, _ | _, HInfinity true => False
  end.

(** The texture formats of half floats, with the channels they store. *)
Definition half_channels (f : FormatModel.format) : option N :=
  match f with
  | FormatModel.F_R16 => Some 1%N
  | FormatModel.F_R16G16 => Some 2%N
  | FormatModel.F_R16G16B16 => Some 3%N
  | FormatModel.F_R16G16B16A16 => Some 4%N
  | _ => None
  end.

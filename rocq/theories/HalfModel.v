(** The conversion to half floats on hardware that has it: lib/src/HalfFloat.h and the part of
    HalfConverter that uses it, lib/src/StandardConverter.h:231-316.

    The instructions themselves ([_mm_cvtps_ph] with rounding mode 0 on x86, [vcvt_f16_f32] with
    the default mode on ARM) are part of the trusted base: they are modelled, lane by lane, as the
    conversion IEEE 754 defines, from binary32 to binary16, to nearest, ties to even. *)

From Coq Require Import NArith ZArith List Bool.
From Flocq Require Import IEEE754.BinarySingleNaN IEEE754.Binary IEEE754.Bits.
From Verif Require Import Base FormatModel FloatModel PixelModel ConverterModel.
Import ListNotations.
Local Open Scope N_scope.

(** IEEE 754 binary16. *)
Definition binary16 := binary_float 11 16.

(** Rounding of a number to binary16; infinity stays infinity.  (NaN is handled by [cvt].) *)
Definition half_of (v : float) : binary16 :=
  match v with
  | B754_infinity _ _ s => B754_infinity 11 16 s
  | B754_finite _ _ s m e _ =>
      binary_normalize 11 16 eq_refl eq_refl mode_NE (SpecFloat.cond_Zopp s (Zpos m)) e s
  | B754_zero _ _ s | B754_nan _ _ s _ _ => B754_zero 11 16 s
  end.

Definition sign_bit (s : bool) : N := if s then 32768 else 0.

(** The interchange format of binary16: sign, five bits of exponent, ten bits of fraction. *)
Definition half_bits (x : binary16) : N :=
  match x with
  | B754_zero _ _ s => sign_bit s
  | B754_infinity _ _ s => sign_bit s + 31744
  | B754_nan _ _ s _ _ => sign_bit s + 32256
  | B754_finite _ _ s m e _ =>
      sign_bit s + (if 1024 <=? Npos m then Z.to_N (e + 25) * 1024 + (Npos m - 1024) else Npos m)
  end.

(** One lane of the conversion.  A NaN keeps its sign and the upper bits of its payload, and is
    made quiet. *)
Definition cvt (v : float) : N :=
  match v with
  | B754_nan _ _ s pl _ => sign_bit s + 31744 + N.lor 512 (Npos pl / 8192 mod 1024)
  | _ => half_bits (half_of v)
  end.

(** The register with four half floats, HalfFloat.h:64-65, 81-82, 99-100, 122-123: "Always assume
    input has 4 floats". *)
Definition cvtps (p : rgba) : N :=
  cvt (pr p) + 65536 * cvt (pg p) + 65536 * 65536 * cvt (pb p)
  + 65536 * 65536 * 65536 * cvt (pa p).

(** packHardwareHalfFloat1, HalfFloat.h:61-76: the low 32 bits, cast to 16. *)
Definition pack1 (h : N) : list N := le_bytes 2 (h mod 2 ^ 32 mod 2 ^ 16).
(** packHardwareHalfFloat2, HalfFloat.h:78-94: a store of the low 32 bits. *)
Definition pack2 (h : N) : list N := le_bytes 4 (h mod 2 ^ 32).
(** packHardwareHalfFloat3, HalfFloat.h:96-117: the lanes go through a 64-bit temporary. *)
Definition pack3 (h : N) : list N :=
  let lane k := le_bytes 2 (h / 2 ^ (16 * k) mod 2 ^ 16) in lane 0 ++ lane 1 ++ lane 2.
(** packHardwareHalfFloat4, HalfFloat.h:119-134: a store of 64 bits. *)
Definition pack4 (h : N) : list N := le_bytes 8 (h mod 2 ^ 64).

(** The body of the loop of HalfConverter::processHardware, StandardConverter.h:294-311.  The
    default case is an assertion that stores nothing. *)
Definition hardware_px (n : N) (p : rgba) : list N :=
  let h := cvtps p in
  if n =? 1 then pack1 h
  else if n =? 2 then pack2 h
  else if n =? 3 then pack3 h
  else if n =? 4 then pack4 h
  else [].

(** HalfConverter::process, StandardConverter.h:244-270: [hardware] is hasHardwareHalfFloat
    (HalfFloat.cpp:41-56), [pk] holds glm::packHalf for the other case. *)
Definition half_px (hardware : bool) (pk : packers) (n : N) (p : rgba) : option (list N) :=
  if hardware then Some (hardware_px n p) else enc_px pk (CvHalf n) p.

(** The packers of a machine: with hardware support glm::packHalf is not used. *)
Definition hardware_packers (pk : packers) : packers :=
  Packers cvt (pack_111110 pk) (pack_9995 pk).

(** What a pixel of an image means, and when another pixel holds that meaning: vocabulary for the
    properties of Image::convert. *)

From Coq Require Import ZArith NArith List Bool Reals.
From Flocq Require Import Core IEEE754.Binary.
From Verif Require Import Base FormatModel FloatModel FloatSpec ArithModel ArithSpec TextureModel
  ImageModel ImageSpec.
Import ListNotations.
Local Open Scope R_scope.

(** A colour over the real numbers. *)
Record rgba := RGBA { red : R; green : R; blue : R; alpha : R }.
Definition gray_rgba (v : R) : rgba := RGBA v v v 1.
Definition norm (m v : Z) : R := IZR v / IZR m.

Section Meaning.
Context (pw : double -> double -> double).
Local Notation D := (double_arith pw).

(** The colour a stored pixel stands for: normalised integers are fractions of their maximum,
    other numbers stand for themselves; gray has three equal channels, missing alpha is 1, the
    parts of a complex number are red and green. *)
Definition meaning (f : imgfmt) (p : pix D) : rgba :=
  match f, p with
  | I_Gray8, PZ [v] => gray_rgba (norm 255 v)
  | I_Gray16, PZ [v] => gray_rgba (norm 65535 v)
  | I_RGB5, PZ [w] => RGBA (norm 31 (w / 1024 mod 32)) (norm 31 (w / 32 mod 32)) (norm 31 (w mod 32)) 1
  | I_RGB565, PZ [w] => RGBA (norm 31 (w / 2048)) (norm 63 (w / 32 mod 64)) (norm 31 (w mod 32)) 1
  | I_RGB8, PZ [r; g; b] => RGBA (norm 255 r) (norm 255 g) (norm 255 b) 1
  | I_RGB16, PZ [r; g; b] => RGBA (norm 65535 r) (norm 65535 g) (norm 65535 b) 1
  | I_RGBA8, PZ [r; g; b; a] => RGBA (norm 255 r) (norm 255 g) (norm 255 b) (norm 255 a)
  | I_RGBA16, PZ [r; g; b; a] => RGBA (norm 65535 r) (norm 65535 g) (norm 65535 b) (norm 65535 a)
  | I_RGBF, PF [r; g; b] => RGBA (real r) (real g) (real b) 1
  | I_RGBAF, PF [r; g; b; a] => RGBA (real r) (real g) (real b) (real a)
  | I_Int16, PZ [v] | I_UInt16, PZ [v] | I_Int32, PZ [v] | I_UInt32, PZ [v] => gray_rgba (IZR v)
  | I_Float, PF [v] => gray_rgba (real v)
  | I_Double, PN [v] => gray_rgba (dreal v)
  | I_Complex, PN [r; i] => RGBA (dreal r) (dreal i) 0 1
  | _, _ => RGBA 0 0 0 0
  end.

(** Every channel is a finite number. *)
Definition finite_pix (p : pix D) : Prop :=
  match p with
  | PZ _ => True
  | PF l => Forall (fun x => finite x = true) l
  | PN l => Forall (fun x => dfinite x = true) l
  end.

(** The number stored for [x]: the nearest of the [m] steps of [0, 1], the nearest float, the
    nearest double, or [x] without its fraction. *)
Definition clip (x : R) : R := Rmax 0 (Rmin 1 x).
Definition step_of (m v : Z) (x : R) : Prop :=
  (0 <= v <= m)%Z /\ Rabs (IZR v - clip x * IZR m) <= / 2 + / IZR (2 ^ 26).
Definition float_near (v : float) (x : R) : Prop :=
  Rabs x <= bpow radix2 127 ->
  finite v = true /\ Rabs (real v - x) <= / IZR (2 ^ 24) * Rabs x + / IZR (2 ^ 52).
Definition double_near (v : double) (x : R) : Prop :=
  dfinite v = true /\ Rabs (dreal v - x) <= / IZR (2 ^ 53) * Rabs x.
Definition whole (lo hi v : Z) (x : R) : Prop := (lo <= v <= hi)%Z /\ v = Ztrunc x.

(** The pixel [q] of format [f] holds the colour [c]; single channel formats hold red. *)
Definition holds (f : imgfmt) (q : pix D) (c : rgba) : Prop :=
  match f, q with
  | I_Gray8, PZ [v] => step_of 255 v (red c)
  | I_Gray16, PZ [v] => step_of 65535 v (red c)
  | I_RGB5, PZ [w] => (0 <= w < 2 ^ 15)%Z /\ step_of 31 (w / 1024 mod 32) (red c) /\
      step_of 31 (w / 32 mod 32) (green c) /\ step_of 31 (w mod 32) (blue c)
  | I_RGB565, PZ [w] => (0 <= w < 2 ^ 16)%Z /\ step_of 31 (w / 2048) (red c) /\
      step_of 63 (w / 32 mod 64) (green c) /\ step_of 31 (w mod 32) (blue c)
  | I_RGB8, PZ [r; g; b] => step_of 255 r (red c) /\ step_of 255 g (green c) /\ step_of 255 b (blue c)
  | I_RGB16, PZ [r; g; b] =>
      step_of 65535 r (red c) /\ step_of 65535 g (green c) /\ step_of 65535 b (blue c)
  | I_RGBA8, PZ [r; g; b; a] => step_of 255 r (red c) /\ step_of 255 g (green c) /\
      step_of 255 b (blue c) /\ step_of 255 a (alpha c)
  | I_RGBA16, PZ [r; g; b; a] => step_of 65535 r (red c) /\ step_of 65535 g (green c) /\
      step_of 65535 b (blue c) /\ step_of 65535 a (alpha c)
  | I_RGBF, PF [r; g; b] => float_near r (red c) /\ float_near g (green c) /\ float_near b (blue c)
  | I_RGBAF, PF [r; g; b; a] => float_near r (red c) /\ float_near g (green c) /\
      float_near b (blue c) /\ float_near a (alpha c)
  | I_Int16, PZ [v] => whole (- 2 ^ 15) (2 ^ 15 - 1) v (red c)
  | I_UInt16, PZ [v] => whole 0 (2 ^ 16 - 1) v (red c)
  | I_Int32, PZ [v] => whole (- 2 ^ 31) (2 ^ 31 - 1) v (red c)
  | I_UInt32, PZ [v] => whole 0 (2 ^ 32 - 1) v (red c)
  | I_Float, PF [v] => float_near v (red c)
  | I_Double, PN [v] => double_near v (red c)
  | I_Complex, PN [r; i] => double_near r (red c) /\ double_near i (green c)
  | _, _ => False
  end.

(** The limits of the plain integer formats. *)
Definition limits (f : imgfmt) : option (Z * Z) :=
  match f with
  | I_Int16 => Some (- 2 ^ 15, 2 ^ 15 - 1) | I_UInt16 => Some (0, 2 ^ 16 - 1)
  | I_Int32 => Some (- 2 ^ 31, 2 ^ 31 - 1) | I_UInt32 => Some (0, 2 ^ 32 - 1)
  | _ => None
  end%Z.

(** [x] without its fraction is a value of the format, if it has limits. *)
Definition fits_format (f : imgfmt) (x : R) : Prop :=
  match limits f with Some (lo, hi) => (lo <= Ztrunc x <= hi)%Z | None => True end.

End Meaning.

(** The pairs of formats for which the library never asks FreeImage.  [gray] is whether a
    conversion to gray is wanted and the destination is a gray format. *)
Definition gray_format (f : imgfmt) : Prop := In f [I_Gray8; I_Gray16; I_Float; I_Double].
Definition float_format (f : imgfmt) : Prop := In f [I_RGBF; I_RGBAF; I_Float].
Definition own_conversion (src dst : imgfmt) (gray : bool) (cs : colorspace) : Prop :=
  src = I_UInt16 \/ dst = I_UInt16 \/ dst = I_Complex \/
  (float_format src /\ (float_format dst \/ dst = I_Double)) \/
  (dst = I_RGBF /\ In src [I_RGB5; I_RGB565]) \/
  (dst = I_Double /\ gray_format src) \/
  (gray_format dst /\ ~ gray_format src /\ (gray = false \/ cs = CS_sRGB)).

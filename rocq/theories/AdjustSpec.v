(** What the integer levels of an image are, for the properties of adjustImageValueRange. *)

From Coq Require Import ZArith NArith List Bool Reals.
From Verif Require Import Base FormatModel FloatModel FloatSpec ArithModel TextureModel ImageModel ImageSpec.
Import ListNotations.
Local Open Scope Z_scope.

(** The formats with normalised integer channels, and the bits of each channel. *)
Definition bits (f : imgfmt) : list Z :=
  match f with
  | I_Gray8 => [8]
  | I_Gray16 => [16]
  | I_RGB5 => [5; 5; 5]
  | I_RGB565 => [5; 6; 5]
  | I_RGB8 => [8; 8; 8]
  | I_RGB16 => [16; 16; 16]
  | I_RGBA8 => [8; 8; 8; 8]
  | I_RGBA16 => [16; 16; 16; 16]
  | _ => []
  end.

Definition normalised (f : imgfmt) : Prop := bits f <> [].

(** The channels of a stored pixel of such a format. *)
Definition levels {A} (f : imgfmt) (p : pix A) : list Z :=
  match f, p with
  | I_RGB5, PZ [w] => [w / 1024 mod 32; w / 32 mod 32; w mod 32]
  | I_RGB565, PZ [w] => [w / 2048 mod 32; w / 32 mod 64; w mod 32]
  | _, PZ l => l
  | _, _ => []
  end.

(** The fraction an n-bit level stands for. *)
Definition fraction (n k : Z) : R := (IZR k / IZR (2 ^ n - 1))%R.

(** [v] is a finite float close to the fraction. *)
Definition close (n k : Z) (v : float) : Prop :=
  finite v = true /\ (Rabs (real v - fraction n k) <= / IZR (2 ^ 22))%R.

(** [v] is the finite float denoting [x]. *)
Definition denotes (v : float) (x : R) : Prop := finite v = true /\ real v = x.

(** What an n-bit level becomes for each integer target. *)
Definition target (ty : ttype) (n k : Z) : Z :=
  match ty with T_Int => k - 2 ^ (n - 1) | _ => k end.

(** The channels of a float pixel. *)
Definition channels {A} (p : pix A) : list (flt A) := match p with PF l => l | _ => [] end.

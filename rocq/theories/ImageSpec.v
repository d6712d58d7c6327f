(** Independent vocabulary for the image properties: what a bitmap holds, when two pixels are
    the same, rotations and channel selection, in the coordinates of the API (x to the right,
    y downwards from the top row). *)

From Coq Require Import ZArith NArith List Bool.
From Verif Require Import Base FormatModel FloatModel FloatSpec ArithModel TextureModel ImageModel.
Import ListNotations.
Local Open Scope N_scope.

Definition range (lo hi v : Z) : Prop := (lo <= v <= hi)%Z.
Definition u8 := range 0 255.
Definition u16 := range 0 65535.

Section Spec.
Context (pw : double -> double -> double).
Local Notation D := (double_arith pw).

(** The stored pixels of each format. *)
Definition stored (f : imgfmt) (p : pix D) : Prop :=
  match f, p with
  | I_Gray8, PZ [v] => u8 v
  | I_Gray16, PZ [v] | I_RGB5, PZ [v] | I_RGB565, PZ [v] | I_UInt16, PZ [v] => u16 v
  | I_RGB8, PZ [r; g; b] => u8 r /\ u8 g /\ u8 b
  | I_RGB16, PZ [r; g; b] => u16 r /\ u16 g /\ u16 b
  | I_RGBA8, PZ [r; g; b; a] => u8 r /\ u8 g /\ u8 b /\ u8 a
  | I_RGBA16, PZ [r; g; b; a] => u16 r /\ u16 g /\ u16 b /\ u16 a
  | I_RGBF, PF [r; g; b] => True
  | I_RGBAF, PF [r; g; b; a] => True
  | I_Int16, PZ [v] => range (- 32768) 32767 v
  | I_Int32, PZ [v] => range (- 2147483648) 2147483647 v
  | I_UInt32, PZ [v] => range 0 4294967295 v
  | I_Float, PF [v] => True
  | I_Double, PN [v] => True
  | I_Complex, PN [r; i] => True
  | _, _ => False
  end.

(** Two floats are the same: equal, or both NaN. *)
Definition same_float (a b : float) : Prop := a = b \/ (nan a = true /\ nan b = true).

(** Two stored pixels hold the same channels: the unused top bit of RGB5 does not count. *)
Definition same_pix (f : imgfmt) (p q : pix D) : Prop :=
  match p, q with
  | PZ l, PZ l' =>
      match f with
      | I_RGB5 => map (fun w => w mod 2 ^ 15)%Z l = map (fun w => w mod 2 ^ 15)%Z l'
      | _ => l = l'
      end
  | PF l, PF l' => Forall2 same_float l l'
  | PN l, PN l' => l = l'
  | _, _ => False
  end.

(** The stored pixel in column [x] of row [y] counted from the top. *)
Definition at_ (b : bitmap D) (x y : N) : pix D := b_px b x (b_h b - 1 - y).

Definition within (b : bitmap D) (x y : N) : Prop := x < b_w b /\ y < b_h b.

(** A bitmap as FreeImage makes them: extents are C [int]s, pixels are of the format. *)
Definition good (b : bitmap D) : Prop :=
  b_w b < 2 ^ 31 /\ b_h b < 2 ^ 31 /\
  forall x y, within b x y -> stored (b_fmt b) (at_ b x y).

(** Same format, extents, colour space and pixels. *)
Definition same_image (a b : bitmap D) : Prop :=
  b_fmt a = b_fmt b /\ b_w a = b_w b /\ b_h a = b_h b /\ b_cs a = b_cs b /\
  forall x y, within a x y -> same_pix (b_fmt a) (at_ a x y) (at_ b x y).

(** [r] is [s] turned counter-clockwise by a quarter, a half and three quarters: the top right
    corner of [s] becomes the top left, bottom left, bottom right corner of [r]. *)
Definition turned90 (s r : bitmap D) : Prop :=
  b_fmt r = b_fmt s /\ b_cs r = b_cs s /\ b_w r = b_h s /\ b_h r = b_w s /\
  forall x y, within s x y -> same_pix (b_fmt s) (at_ r y (b_w s - 1 - x)) (at_ s x y).
Definition turned180 (s r : bitmap D) : Prop :=
  b_fmt r = b_fmt s /\ b_cs r = b_cs s /\ b_w r = b_w s /\ b_h r = b_h s /\
  forall x y, within s x y ->
    same_pix (b_fmt s) (at_ r (b_w s - 1 - x) (b_h s - 1 - y)) (at_ s x y).
Definition turned270 (s r : bitmap D) : Prop :=
  b_fmt r = b_fmt s /\ b_cs r = b_cs s /\ b_w r = b_h s /\ b_h r = b_w s /\
  forall x y, within s x y -> same_pix (b_fmt s) (at_ r (b_h s - 1 - y) x) (at_ s x y).

Definition turned (a : angle) : bitmap D -> bitmap D -> Prop :=
  match a with
  | CCW90 | CW270 => turned90
  | CCW180 | CW180 => turned180
  | CCW270 | CW90 => turned270
  end.

(** The angle that undoes [a]. *)
Definition inverse (a : angle) : angle :=
  match a with
  | CW90 => CCW90 | CW180 => CCW180 | CW270 => CCW270
  | CCW90 => CW90 | CCW180 => CW180 | CCW270 => CW270
  end.

(** Two doubles are the same: equal, or both NaN. *)
Definition same_double (a b : double) : Prop :=
  a = b \/ (Binary.is_nan 53 1024 a = true /\ Binary.is_nan 53 1024 b = true).
Definition same_color (c c' : color D) : Prop :=
  same_double (c_r c) (c_r c') /\ same_double (c_g c) (c_g c') /\
  same_double (c_b c) (c_b c') /\ same_double (c_a c) (c_a c').

End Spec.

(** Channel selection and what a format can hold. *)
Section Channels.
Context (pw : double -> double -> double).
Local Notation D := (double_arith pw).

(** The value of channel [ch] of [c]; None is 0 for a colour channel and 1 for alpha. *)
Definition pick (c : color D) (ch : channel) (none : Z) : double :=
  match ch with
  | Ch_Red => c_r c | Ch_Green => c_g c | Ch_Blue => c_b c | Ch_Alpha => c_a c
  | Ch_None => double_of_Z none
  end.

Definition picked (c : color D) (r g b a : channel) : color D :=
  @C4 D (pick c r 0) (pick c g 0) (pick c b 0) (pick c a 1).

(** The channels a format stores; the others read as shown. *)
Definition hold (f : imgfmt) (c : color D) : color D :=
  match f with
  | I_RGBA8 | I_RGBA16 | I_RGBAF => c
  | I_RGB5 | I_RGB565 | I_RGB8 | I_RGB16 | I_RGBF =>
      @C4 D (c_r c) (c_g c) (c_b c) (double_of_Z 1)
  | I_Complex => @C4 D (c_r c) (c_g c) (double_of_Z 0) (double_of_Z 1)
  | I_Gray8 | I_Gray16 | I_Int16 | I_UInt16 | I_Int32 | I_UInt32 | I_Float | I_Double =>
      @C4 D (c_r c) (c_r c) (c_r c) (double_of_Z 1)
  end.

(** RGB565 stores green with another precision than red and blue. *)
Definition mixes_precision (f : imgfmt) (r g b : channel) : Prop :=
  f = I_RGB565 /\ (r = Ch_Green \/ b = Ch_Green \/ g = Ch_Red \/ g = Ch_Blue).

End Channels.

(** What the pixels of the file should be, for a job of the tool that keeps the size of its inputs:
    where each comes from, what colour it has, and how the format stores that. *)

From Coq Require Import ZArith NArith List Bool Reals.
From Flocq Require Import Core IEEE754.Binary IEEE754.Bits.
From Verif Require Import Base FormatModel FormatSpec ContainerSpec FloatModel FloatSpec ArithModel TextureModel
  ImageModel ImageSpec ImageConvertSpec.
From Verif Require Import PixelModel PixelSpec CompressSpec PropsImage CommandLineModel ToolImageModel.
From Verif Require Import PropsSrgb SrgbSpec.
From Verif Require ImageConvertModel.
Import ListNotations.
Local Open Scope R_scope.

(** The formats with channels of 8 or of 16 bits. *)
Definition channel_bits (f : imgfmt) : option Z :=
  match f with
  | I_Gray8 | I_RGB8 | I_RGBA8 => Some 8%Z
  | I_Gray16 | I_RGB16 | I_RGBA16 => Some 16%Z
  | _ => None
  end.

(** [v] is a finite float within [e] of [x]. *)
Definition within_error (e : R) (v : float) (x : R) : Prop := finite v = true /\ Rabs (real v - x) <= e.

Definition float_error : R := / IZR (2 ^ 22).

(** The floats of a pixel are within [e] of a colour. *)
Definition near_colour {pw} (e : R) (p : pix (double_arith pw)) (c : ImageConvertSpec.rgba) : Prop :=
  match p with
  | PF [r; g; b; a] => within_error e r (red c) /\ within_error e g (green c) /\
                       within_error e b (blue c) /\ within_error e a (alpha c)
  | _ => False
  end.

(** ** What is assumed of FreeImage *)

Section Library.
Context (pw : double -> double -> double).
Local Notation D := (double_arith pw).

(** It does not run out of memory; it loads proper bitmaps; it converts 8 and 16 bit channels to
    floats that are right to 22 bits; a rotated bitmap is the bitmap rotated; flipping mirrors the
    columns or the rows. *)
Record freeimage_ok (F : freeimage pw) : Prop := FreeImageOk {
  fk_load : forall p f w h px cs, fi_load pw F p = Some (f, w, h, px) ->
    (1 <= w)%N /\ (1 <= h)%N /\ good pw (Bitmap f w h cs px);
  fk_alloc : forall f w h, fi_alloc pw F f w h <> None;
  fk_rescale : forall b w h rf, fi_rescale pw F b w h rf <> None;
  fk_floats : forall b, good pw b -> channel_bits (b_fmt b) <> None ->
    exists px, fi_conv pw F ImageConvertModel.FI_ToRGBAF b = Some (b_w b, b_h b, px) /\
      forall x y, within pw b x y ->
        near_colour float_error (px x (b_h b - 1 - y)%N) (meaning pw (b_fmt b) (at_ pw b x y));
  fk_rotate : forall b, good pw b -> freeimage_rotates pw b (fi_rotate pw F b);
  fk_fliph : forall b x y, good pw b -> (x < b_w b)%N -> (y < b_h b)%N ->
    fi_fliph pw F b x y = b_px b (b_w b - 1 - x)%N y;
  fk_flipv : forall b x y, good pw b -> (x < b_w b)%N -> (y < b_h b)%N ->
    fi_flipv pw F b x y = b_px b x (b_h b - 1 - y)%N
}.

(** Every channel of the image is a number from 0 to 1. *)
Definition unit_colour (c : ImageConvertSpec.rgba) : Prop :=
  0 <= red c <= 1 /\ 0 <= green c <= 1 /\ 0 <= blue c <= 1 /\ 0 <= alpha c <= 1.
Definition unit_image (b : bitmap D) : Prop :=
  forall x y, within pw b x y ->
    finite_pix pw (at_ pw b x y) /\ unit_colour (meaning pw (b_fmt b) (at_ pw b x y)).

(** The inputs the properties are about: 8 or 16 bits per channel, or floats from 0 to 1. *)
Definition plain_input (b : bitmap D) : Prop :=
  channel_bits (b_fmt b) <> None \/ (In (b_fmt b) [I_RGBF; I_RGBAF; I_Float] /\ unit_image b).

End Library.

(** ** What a job does *)

(** No normal map is made; if colours are computed in another space than the one they are in, so that
    [std::pow] is used, it is accurate. *)
Definition plain_job (pw : double -> double -> double) (a : cl) : Prop :=
  c_normalMap a = false /\
  (c_imageCS a = CS_sRGB ->
   c_textureCS a = CS_Linear \/ c_grayscale a = true \/ c_preMultiply a = true -> pow_ok pw).

(** The pixel of the input, of [w] x [h], that is shown at column [x] of row [y]. *)
Definition origin (a : cl) (w h : N) (x y : N) : N * N :=
  let quarter := c_rotate a && match c_rotateAngle a with CW180 | CCW180 => false | _ => true end in
  let '(W, H) := if quarter then (h, w) else (w, h) in
  let x := (if c_flipX a then W - 1 - x else x)%N in
  let y := (if c_flipY a then H - 1 - y else y)%N in
  if c_rotate a then
    match c_rotateAngle a with
    | CCW90 | CW270 => (w - 1 - y, x)
    | CW180 | CCW180 => (w - 1 - x, h - 1 - y)
    | CW90 | CCW270 => (y, h - 1 - x)
    end%N
  else (x, y).

(** The channel selected for a channel of the result; none is 0 for a colour and 1 for alpha. *)
Definition selected (ch : channel) (none : R) (c : ImageConvertSpec.rgba) : R :=
  match ch with
  | Ch_Red => red c | Ch_Green => green c | Ch_Blue => blue c | Ch_Alpha => alpha c | Ch_None => none
  end.

(** A number of a colour space as linear light, and back ([decode] and [encode] are the functions of
    the sRGB standard, PropsSrgb.v). *)
Definition to_light (cs : colorspace) (x : R) : R := match cs with CS_sRGB => decode x | CS_Linear => x end.
Definition from_light (cs : colorspace) (x : R) : R := match cs with CS_sRGB => encode x | CS_Linear => x end.

(** What becomes of a colour: sRGB colours are made linear if the texture is linear; then gray, then
    the channels chosen, then times alpha.  Gray and the products are those of the light. *)
Definition in_space (a : cl) (c : ImageConvertSpec.rgba) : ImageConvertSpec.rgba :=
  match c_imageCS a, c_textureCS a with
  | CS_sRGB, CS_Linear => RGBA (decode (red c)) (decode (green c)) (decode (blue c)) (alpha c)
  | _, _ => c
  end.
Definition finished (a : cl) (c : ImageConvertSpec.rgba) : ImageConvertSpec.rgba :=
  let cs := c_textureCS a in
  let c := if c_grayscale a
           then let l := from_light cs (2126 / 10000 * to_light cs (red c) + 7152 / 10000 * to_light cs (green c) +
                                        722 / 10000 * to_light cs (blue c)) in
                RGBA l l l (alpha c)
           else c in
  let c := if c_swizzle a
           then RGBA (selected (c_redSwzl a) 0 c) (selected (c_greenSwzl a) 0 c)
                     (selected (c_blueSwzl a) 0 c) (selected (c_alphaSwzl a) 1 c)
           else c in
  if c_preMultiply a
  then let times x := from_light cs (to_light cs x * alpha c) in
       RGBA (times (red c)) (times (green c)) (times (blue c)) (alpha c)
  else c.
Definition processed (a : cl) (c : ImageConvertSpec.rgba) : ImageConvertSpec.rgba := finished a (in_space a c).

(** Small light is far apart as sRGB numbers, so what is computed in an sRGB texture is less accurate. *)
Definition coarse (a : cl) : bool :=
  match c_textureCS a with CS_sRGB => c_grayscale a || c_preMultiply a | CS_Linear => false end.

(** The number a value from 0 to 1 of an input of format [f] stands for in a texture of type [t]. *)
Definition number_for (t : ttype) (f : imgfmt) (x : R) : R :=
  match channel_bits f, t with
  | Some n, T_SNorm => 2 * x - 1
  | Some n, T_UInt => x * IZR (2 ^ n - 1)
  | Some n, T_Int => x * IZR (2 ^ n - 1) - IZR (2 ^ (n - 1))
  | _, _ => x
  end.

(** [r] in a channel of [b] bits of type [t] stands for the number [y]: for the normalised types and
    the integers it is the closest there is, except that a value close to halfway may go either way. *)
Definition kept (pk : packers) (t : ttype) (b : N) (y : R) (r : N) : Prop :=
  let n := Z.of_N b in
  match t with
  | T_UNorm => Rabs (IZR (Z.of_N r) - y * IZR (2 ^ n - 1)) <= 5 / 8
  | T_SNorm => Rabs (IZR (sext b r) - y * IZR (2 ^ (n - 1) - 1)) <= 5 / 8
  | T_UInt => exists m, Rabs (IZR m - y) <= 5 / 8 /\ Z.of_N r = Z.min m (2 ^ n - 1)
  | T_Int => exists m, Rabs (IZR m - y) <= 5 / 8 /\
      sext b r = Z.max (- 2 ^ (n - 1)) (Z.min m (2 ^ (n - 1) - 1))
  | T_Float => exists v, within_error (/ IZR (2 ^ 19)) v y /\
      r = if (b =? 32)%N then Z.to_N (bits_of_b32 v) else (pack_half pk v mod 2 ^ b)%N
  | T_UFloat => True
  end.

(** The channel of a colour. *)
Definition of_channel (c : chan) (v : ImageConvertSpec.rgba) : R :=
  match c with ChR => red v | ChG => green v | ChB => blue v | ChA => alpha v | ChE => 0 end.

(** [data] holds, row by row, the pixels of the processed image: every channel of every pixel of
    the format [f] and type [t] stands for the colour of the input's pixel it comes from. *)
Definition shows {pw} (pk : packers) (a : cl) (s : bitmap (double_arith pw)) (data : list N) : Prop :=
  let '(W, H) := if c_rotate a && match c_rotateAngle a with CW180 | CCW180 => false | _ => true end
                 then (b_h s, b_w s) else (b_w s, b_h s) in
  exists l, lsb_layout (c_fmt a) = Some l /\
  let size := (layout_bits l / 8)%N in
  N.of_nat (length data) = (W * H * size)%N /\
  forall x y c b, (x < W)%N -> (y < H)%N -> In (c, b) l ->
    exists r, field l c (le_val (bytes_at data ((y * W + x) * size) size)) = Some r /\
      let '(x0, y0) := origin a (b_w s) (b_h s) x y in
      kept pk (c_ttyp a) b
        (number_for (c_ttyp a) (b_fmt s) (of_channel c (processed a (meaning pw (b_fmt s) (at_ pw s x0 y0))))) r.

(** ** Inputs whose levels are kept *)

(** The level of a channel of a pixel with channels of [n] bits: gray is the same in all colours,
    and a pixel without alpha is opaque. *)
Definition level {A} (n : Z) (p : pix A) (ch : channel) (none : Z) : Z :=
  match ch, p with
  | Ch_None, _ => none
  | Ch_Alpha, PZ [_; _; _; v] => v
  | Ch_Alpha, _ => 2 ^ n - 1
  | _, PZ [v] => v
  | Ch_Red, PZ (v :: _) | Ch_Green, PZ (_ :: v :: _) | Ch_Blue, PZ (_ :: _ :: v :: _) => v
  | _, _ => 0
  end.

(** The channel of the input that a channel of the result is made from. *)
Definition taken (a : cl) (c : chan) : channel :=
  match c with
  | ChR => if c_swizzle a then c_redSwzl a else Ch_Red
  | ChG => if c_swizzle a then c_greenSwzl a else Ch_Green
  | ChB => if c_swizzle a then c_blueSwzl a else Ch_Blue
  | ChA => if c_swizzle a then c_alphaSwzl a else Ch_Alpha
  | ChE => Ch_None
  end.

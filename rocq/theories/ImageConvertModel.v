(** Model of Image::convert, lib/src/Image.cpp:1130-1322, over an arithmetic [A].  FreeImage's
    conversion functions are a parameter; the loops the library falls back to are modelled. *)

From Coq Require Import ZArith NArith List Bool.
From Verif Require Import Base FormatModel ArithModel TextureModel ImageModel.
Import ListNotations.
Local Open Scope N_scope.

(** The FreeImage functions Image::convert calls, Image.cpp:1157-1266. *)
Inductive fi_call :=
| FI_To8Bits | FI_To555 | FI_To565 | FI_To24Bits | FI_ToRGB16 | FI_ToRGBF | FI_To32Bits | FI_ToRGBA16
| FI_ToRGBAF | FI_ToUInt16 | FI_ToInt16 | FI_ToInt32 | FI_ToUInt32 | FI_ToFloat | FI_ToDouble.

(** Which of them is called for a source format, a destination format and whether FreeImage may
    convert to gray (convertLinearGrayscale): the condition at 1155 and the switch 1157-1266. *)
Definition fiCall (src dst : imgfmt) (lin : bool) : option fi_call :=
  if imgfmt_eqb src I_UInt16 then None
  else
    match dst with
    | I_Gray8 => if lin || isGrayscaleFormat src then Some FI_To8Bits else None
    | I_Gray16 => if lin || isGrayscaleFormat src then Some FI_ToUInt16 else None
    | I_RGB5 => Some FI_To555
    | I_RGB565 => Some FI_To565
    | I_RGB8 => Some FI_To24Bits
    | I_RGB16 => Some FI_ToRGB16
    | I_RGBF => if negb (needFloatConvertFallback src) && negb (isRGB16BPPFormat src)
                then Some FI_ToRGBF else None
    | I_RGBA8 => Some FI_To32Bits
    | I_RGBA16 => Some FI_ToRGBA16
    | I_RGBAF => if negb (needFloatConvertFallback src) then Some FI_ToRGBAF else None
    | I_Int16 => Some FI_ToInt16
    | I_UInt16 => None
    | I_Int32 => Some FI_ToInt32
    | I_UInt32 => Some FI_ToUInt32
    | I_Float => if (lin || isGrayscaleFormat src) && negb (needFloatConvertFallback src)
                 then Some FI_ToFloat else None
    | I_Double => if lin && negb (isGrayscaleFormat src) && negb (needFloatConvertFallback src)
                  then Some FI_ToDouble else None
    | I_Complex => None
    end.

Section Convert.
Context {A : arith}.

(** What a FreeImage function returns for a bitmap: nothing, or the extents and contents of the
    new bitmap.  Impl::create is given the destination format (1162 and so on), so it takes the
    bitmap as it is unless it has a palette; that it has none is assumed here. *)
Definition fi_convert := fi_call -> bitmap A -> option (N * N * (N -> N -> pix A)).

(** The bodies of the three loops, Image.cpp:1278-1319: the colour and how it is stored. *)
Definition convertPixel (src dst : imgfmt) (cs : colorspace) (grayscale : bool) (p : pix A)
  : option (pix A) :=
  obind (getPixelImpl src p) (fun c =>
  if grayscale && negb (imgfmt_eqb src I_Complex) then
    match cs with
    | CS_Linear => setPixelImpl dst c
    | CS_sRGB =>
        let g := linearToSRGB (toGrayscale (sRGBToLinear (c_r c)) (sRGBToLinear (c_g c))
                                 (sRGBToLinear (c_b c))) in
        setPixelNoGrayscaleImpl dst (C4 g g g (c_a c))
    end
  else setPixelNoGrayscaleImpl dst c).

(** The loops over the scanlines of both bitmaps, Image.cpp:1278-1319. *)
Definition convertLoop (s : bitmap A) (grayscale : bool) (d : bitmap A) : option (bitmap A) :=
  loop 0 (b_h s) (fun y => loop 0 (b_w s) (fun x d' =>
    obind (read s x y) (fun p =>
    obind (convertPixel (b_fmt s) (b_fmt d) (b_cs s) grayscale p) (write d' x y)))) d.

(** Image::convert, Image.cpp:1130-1322, for a valid destination format. *)
Definition convert (fi : fi_convert) (alloc : allocator A) (im : image A) (dst : imgfmt)
  (convertGrayscale : bool) : option (image A) :=
  match im with
  | None => Some None
  | Some s =>
      if imgfmt_eqb (b_fmt s) dst then Some (Some s)
      else
        let grayscale := convertGrayscale && isGrayscaleFormat dst in
        let lin := grayscale && negb (cs_is_srgb (b_cs s)) in
        match obind (fiCall (b_fmt s) dst lin) (fun call => fi call s) with
        | Some (w, h, px) => Some (Some (Bitmap dst w h (b_cs s) px))
        | None =>
            match initialize alloc dst (b_w s) (b_h s) (b_cs s) with
            | None => Some None
            | Some d => obind (convertLoop s grayscale d) (fun d' => Some (Some d'))
            end
        end
  end.

End Convert.
Arguments fi_convert : clear implicits.

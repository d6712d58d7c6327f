(** Model of the pixel operations of lib/src/Image.cpp, over an arithmetic [A]
    (ArithModel.v).  A bitmap is a function from column and FreeImage scanline (scanline 0 is
    the bottom row) to stored pixels; reading or writing outside it is undefined behaviour, as
    is a conversion of an out-of-range [double] to an integer type.  Undefined behaviour is
    [None].  What FreeImage returns is an argument: [None] for a null bitmap. *)

From Coq Require Import ZArith NArith List Bool.
From Verif Require Import Base FormatModel FloatModel ArithModel TextureModel.
Import ListNotations.
Local Open Scope N_scope.

(** Image::Channel, lib/include/cuttlefish/Image.h:104-111. *)
Inductive channel := Ch_Red | Ch_Green | Ch_Blue | Ch_Alpha | Ch_None.

(** Image::RotateAngle, Image.h:91-99. *)
Inductive angle := CW90 | CW180 | CW270 | CCW90 | CCW180 | CCW270.

(** Unsigned subtraction. *)
Definition usub (a b : N) : N := u32 (a + 2 ^ 32 - b).

(** The values of a [for] loop counter from [a] while less than [b]. *)
Definition upto (a b : N) : list N := map (N.add a) (Nrange (b - a)).

(** [for (i = a; i < b; ++i) body], where the body may be undefined. *)
Definition loop {S} (a b : N) (body : N -> S -> option S) (s : S) : option S :=
  fold_left (fun acc i => obind acc (body i)) (upto a b) (Some s).

Section Image.
Context {A : arith}.

Local Notation num := (num A).
Local Notation flt := (flt A).
Local Notation "x +! y" := (nadd A x y) (at level 50, left associativity).
Local Notation "x -! y" := (nsub A x y) (at level 50, left associativity).
Local Notation "x *! y" := (nmul A x y) (at level 40, left associativity).
Local Notation "x /! y" := (ndiv A x y) (at level 40, left associativity).

(** ColorRGBAd, lib/include/cuttlefish/Color.h. *)
Record color := C4 { c_r : num; c_g : num; c_b : num; c_a : num }.

(** A stored pixel: integer channels (or the packed 16-bit word), [float] channels, or
    [double] channels. *)
Inductive pix := PZ (l : list Z) | PF (l : list flt) | PN (l : list num).

(** Numeric literals: an integer, and n/10^k, whose correctly rounded quotient is the value of
    the decimal literal. *)
Definition lit (z : Z) : num := ofZ A z.
Definition dec (n k : Z) : num := ofZ A n /! ofZ A (10 ^ k).
Definition half : num := dec 5 1.

(** std::min and std::max on double. *)
Definition nmin (a b : num) : num := if nltb A b a then b else a.
Definition nmax (a b : num) : num := if nltb A a b then b else a.

(** toGrayscale, Color.h:213-217. *)
Definition toGrayscale (r g b : num) : num :=
  r *! dec 2126 4 +! g *! dec 7152 4 +! b *! dec 722 4.

(** sRGBToLinear, Color.h:224-229. *)
Definition sRGBToLinear (c : num) : num :=
  if nleb A c (dec 4045 5) then c /! dec 1292 2
  else npow A ((c +! dec 55 3) /! dec 1055 3) (dec 24 1).

(** linearToSRGB, Color.h:236-242. *)
Definition linearToSRGB (c : num) : num :=
  if nleb A c (dec 31308 7) then c *! dec 1292 2
  else dec 1055 3 *! npow A c (lit 1 /! dec 24 1) -! dec 55 3.

(** toDoubleNorm, toDoubleNorm5, toDoubleNorm6, Image.cpp:293-311: value/maximum. *)
Definition toNorm (m v : Z) : num := lit v /! lit m.

(** clamp(double), Image.cpp:313-316. *)
Definition clamp01 (d : num) : num := nmax (nmin d (lit 1)) (lit 0).

(** fromDoubleNorm<T>, fromDoubleNorm5, fromDoubleNorm6, Image.cpp:324-338; [m] is the maximum
    (255, 65535, 31, 63), [hi] the largest value of the type converted to. *)
Definition fromNorm (hi m : Z) (d : num) : option Z :=
  cast_int 0 hi (nround A (clamp01 d *! lit m)).
Definition from8 := fromNorm 255 255.
Definition from16 := fromNorm 65535 65535.
Definition from5 := fromNorm 255 31.
Definition from6 := fromNorm 255 63.

(** isGrayscaleFormat, Image.cpp:183-195. *)
Definition isGrayscaleFormat (f : imgfmt) : bool :=
  match f with I_Gray8 | I_Gray16 | I_Float | I_Double => true | _ => false end.

(** needFloatConvertFallback, Image.cpp:169-181. *)
Definition needFloatConvertFallback (f : imgfmt) : bool :=
  match f with I_UInt16 | I_RGBF | I_RGBAF | I_Float => true | _ => false end.

(** isRGB16BPPFormat, Image.cpp:197-207. *)
Definition isRGB16BPPFormat (f : imgfmt) : bool :=
  match f with I_RGB5 | I_RGB565 => true | _ => false end.

Definition gray (v : num) : color := C4 v v v (lit 1).

(** FreeImage's FI16_555_RED_MASK, FI16_565_RED_MASK, ... and the shifts (FreeImage.h). *)
Definition M555r := 31744%Z. Definition M555g := 992%Z. Definition M555b := 31%Z.
Definition M565r := 63488%Z. Definition M565g := 2016%Z. Definition M565b := 31%Z.
Definition field (word mask shift : Z) : Z := Z.shiftr (Z.land word mask) shift.

(** getPixelImpl, Image.cpp:345-474.  The C++ structures RGBTRIPLE and RGBQUAD hold blue first;
    a stored pixel here lists the channels in the order red, green, blue, alpha.  [None]: the
    pixel is not stored the way the format says (no reachable image). *)
Definition getPixelImpl (f : imgfmt) (p : pix) : option color :=
  match f, p with
  | I_Gray8, PZ [v] => Some (gray (toNorm 255 v))
  | I_Gray16, PZ [v] => Some (gray (toNorm 65535 v))
  | I_RGB5, PZ [w] =>
      Some (C4 (toNorm 31 (field w M555r 10)) (toNorm 31 (field w M555g 5))
              (toNorm 31 (field w M555b 0)) (lit 1))
  | I_RGB565, PZ [w] =>
      Some (C4 (toNorm 31 (field w M565r 11)) (toNorm 63 (field w M565g 5))
              (toNorm 31 (field w M565b 0)) (lit 1))
  | I_RGB8, PZ [r; g; b] => Some (C4 (toNorm 255 r) (toNorm 255 g) (toNorm 255 b) (lit 1))
  | I_RGB16, PZ [r; g; b] =>
      Some (C4 (toNorm 65535 r) (toNorm 65535 g) (toNorm 65535 b) (lit 1))
  | I_RGBF, PF [r; g; b] => Some (C4 (widen A r) (widen A g) (widen A b) (lit 1))
  | I_RGBA8, PZ [r; g; b; a] =>
      Some (C4 (toNorm 255 r) (toNorm 255 g) (toNorm 255 b) (toNorm 255 a))
  | I_RGBA16, PZ [r; g; b; a] =>
      Some (C4 (toNorm 65535 r) (toNorm 65535 g) (toNorm 65535 b) (toNorm 65535 a))
  | I_RGBAF, PF [r; g; b; a] => Some (C4 (widen A r) (widen A g) (widen A b) (widen A a))
  | I_Int16, PZ [v] | I_UInt16, PZ [v] | I_Int32, PZ [v] | I_UInt32, PZ [v] =>
      Some (gray (lit v))
  | I_Float, PF [v] => Some (gray (widen A v))
  | I_Double, PN [v] => Some (gray v)
  | I_Complex, PN [r; i] => Some (C4 r i (lit 0) (lit 1))
  | _, _ => None
  end.

Definition oPZ1 (v : option Z) : option pix := obind v (fun v => Some (PZ [v])).
Definition oPZ3 (r g b : option Z) : option pix :=
  obind r (fun r => obind g (fun g => obind b (fun b => Some (PZ [r; g; b])))).
Definition oPZ4 (r g b a : option Z) : option pix :=
  obind r (fun r => obind g (fun g => obind b (fun b => obind a (fun a =>
  Some (PZ [r; g; b; a]))))).
(** [static_cast<std::uint16_t>((r << rs) | (g << gs) | b)]. *)
Definition oPack (rs gs : Z) (r g b : option Z) : option pix :=
  obind r (fun r => obind g (fun g => obind b (fun b =>
  Some (PZ [Z.lor (Z.lor (Z.shiftl r rs) (Z.shiftl g gs)) b mod 2 ^ 16]%Z)))).

(** [static_cast<T>(color.r)] to an integer type; the clamp<T> around it (Image.cpp:318-322)
    is the identity on the values of T. *)
Definition toInt (lo hi : Z) (d : num) : option Z := cast_int lo hi (ntrunc A d).

(** The cases setPixelImpl and setPixelNoGrayscaleImpl have in common. *)
Definition setCommon (f : imgfmt) (c : color) : option pix :=
  match f with
  | I_RGB5 => oPack 10 5 (from5 (c_r c)) (from5 (c_g c)) (from5 (c_b c))
  | I_RGB565 => oPack 11 5 (from5 (c_r c)) (from6 (c_g c)) (from5 (c_b c))
  | I_RGB8 => oPZ3 (from8 (c_r c)) (from8 (c_g c)) (from8 (c_b c))
  | I_RGB16 => oPZ3 (from16 (c_r c)) (from16 (c_g c)) (from16 (c_b c))
  | I_RGBF => Some (PF [narrow A (c_r c); narrow A (c_g c); narrow A (c_b c)])
  | I_RGBA8 => oPZ4 (from8 (c_r c)) (from8 (c_g c)) (from8 (c_b c)) (from8 (c_a c))
  | I_RGBA16 => oPZ4 (from16 (c_r c)) (from16 (c_g c)) (from16 (c_b c)) (from16 (c_a c))
  | I_RGBAF =>
      Some (PF [narrow A (c_r c); narrow A (c_g c); narrow A (c_b c); narrow A (c_a c)])
  | I_Int16 => oPZ1 (toInt (- 2 ^ 15) (2 ^ 15 - 1) (c_r c))
  | I_Int32 => oPZ1 (toInt (- 2 ^ 31) (2 ^ 31 - 1) (c_r c))
  | I_UInt32 => oPZ1 (toInt 0 (2 ^ 32 - 1) (c_r c))
  | I_Complex => Some (PN [c_r c; c_g c])
  | I_Gray8 | I_Gray16 | I_UInt16 | I_Float | I_Double => None
  end.

(** setPixelImpl, Image.cpp:476-591; UInt16 goes through std::int16_t (564-567). *)
Definition setPixelImpl (f : imgfmt) (c : color) : option pix :=
  match f with
  | I_Gray8 => oPZ1 (from8 (toGrayscale (c_r c) (c_g c) (c_b c)))
  | I_Gray16 => oPZ1 (from16 (toGrayscale (c_r c) (c_g c) (c_b c)))
  | I_UInt16 =>
      oPZ1 (obind (toInt (- 2 ^ 15) (2 ^ 15 - 1) (c_r c)) (fun v => Some (v mod 2 ^ 16)%Z))
  | I_Float => Some (PF [narrow A (toGrayscale (c_r c) (c_g c) (c_b c))])
  | I_Double => Some (PN [toGrayscale (c_r c) (c_g c) (c_b c)])
  | _ => setCommon f c
  end.

(** setPixelNoGrayscaleImpl, Image.cpp:593-705. *)
Definition setPixelNoGrayscaleImpl (f : imgfmt) (c : color) : option pix :=
  match f with
  | I_Gray8 => oPZ1 (from8 (c_r c))
  | I_Gray16 => oPZ1 (from16 (c_r c))
  | I_UInt16 => oPZ1 (toInt 0 (2 ^ 16 - 1) (c_r c))
  | I_Float => Some (PF [narrow A (c_r c)])
  | I_Double => Some (PN [c_r c])
  | _ => setCommon f c
  end.

(** A valid Image: the members format, width, height and colorSpace of Image::Impl
    (Image.cpp:784-797) and the bitmap.  The masks and shifts are in ImageObjectModel.v. *)
Record bitmap := Bitmap {
  b_fmt : imgfmt; b_w : N; b_h : N; b_cs : colorspace; b_px : N -> N -> pix }.

(** FreeImage_GetScanLine(image, y)[x], reading. *)
Definition read (im : bitmap) (x y : N) : option pix :=
  if (x <? b_w im) && (y <? b_h im) then Some (b_px im x y) else None.

(** FreeImage_GetScanLine(image, y)[x], writing. *)
Definition write (im : bitmap) (x y : N) (p : pix) : option bitmap :=
  if (x <? b_w im) && (y <? b_h im)
  then Some (Bitmap (b_fmt im) (b_w im) (b_h im) (b_cs im)
               (fun x' y' => if (x' =? x) && (y' =? y) then p else b_px im x' y'))
  else None.

Definition getAt (im : bitmap) (x y : N) : option color :=
  obind (read im x y) (getPixelImpl (b_fmt im)).

Definition setAt (im : bitmap) (x y : N) (c : color) : option bitmap :=
  obind (setPixelNoGrayscaleImpl (b_fmt im) c) (write im x y).

(** An Image object: no bitmap, or one. *)
Definition image := option bitmap.

(** Image::initialize, Image.cpp:960-973, for a valid format; [alloc] is the contents of the
    bitmap FreeImage_AllocateT returns for the format and size. *)
Definition allocator := imgfmt -> N -> N -> option (N -> N -> pix).
Definition initialize (alloc : allocator) (f : imgfmt) (w h : N) (cs : colorspace) : image :=
  match alloc f w h with Some px => Some (Bitmap f w h cs px) | None => None end.

(** getScanlineImpl, Image.cpp:340-343. *)
Definition scanlineOf (h y : N) : N := usub (usub h y) 1.

(** Image::getPixel, Image.cpp:1100-1107: [Some None] is the return value false. *)
Definition getPixel (im : image) (x y : N) : option (option color) :=
  match im with
  | None => Some None
  | Some b =>
      if (b_w b <=? x) || (b_h b <=? y) then Some None
      else obind (getAt b x (scanlineOf (b_h b) y)) (fun c => Some (Some c))
  end.

(** Image::setPixel, Image.cpp:1109-1128: the new image and the return value.  After storing
    the grayscale computed in linear space the code goes on to store the plain one. *)
Definition setPixel (im : image) (x y : N) (c : color) (convertGrayscale : bool)
  : option (image * bool) :=
  match im with
  | None => Some (im, false)
  | Some b =>
      if (b_w b <=? x) || (b_h b <=? y) then Some (im, false)
      else
        let y' := scanlineOf (b_h b) y in
        if convertGrayscale then
          obind (if cs_is_srgb (b_cs b) && isGrayscaleFormat (b_fmt b)
                 then let g := linearToSRGB (toGrayscale (sRGBToLinear (c_r c))
                                 (sRGBToLinear (c_g c)) (sRGBToLinear (c_b c))) in
                      setAt b x y' (C4 g g g (c_a c))
                 else Some b) (fun b' =>
          obind (obind (setPixelImpl (b_fmt b') c) (write b' x y')) (fun b'' =>
          Some (Some b'', true)))
        else obind (setAt b x y' c) (fun b' => Some (Some b', true))
  end.

(** The loops of the in-place operations: read a pixel, change the colour, store it. *)
Definition mapPixels (g : color -> color) (b : bitmap) : option bitmap :=
  loop 0 (b_h b) (fun y =>
    loop 0 (b_w b) (fun x b' => obind (getAt b' x y) (fun c => setAt b' x y (g c)))) b.

Definition onRGB (g : num -> num) (c : color) : color :=
  C4 (g (c_r c)) (g (c_g c)) (g (c_b c)) (c_a c).

(** The body of the loop of Image::preMultiplyAlpha, Image.cpp:1634-1655. *)
Definition preMultiplyColor (cs : colorspace) (c : color) : color :=
  let c1 := match cs with CS_sRGB => onRGB sRGBToLinear c | CS_Linear => c end in
  let c2 := onRGB (fun v => v *! c_a c) c1 in
  match cs with CS_sRGB => onRGB linearToSRGB c2 | CS_Linear => c2 end.

(** Image::preMultiplyAlpha, Image.cpp:1621-1665. *)
Definition preMultiplyAlpha (im : image) : option (image * bool) :=
  match im with
  | None => Some (im, false)
  | Some b =>
      match b_fmt b with
      | I_RGBA8 | I_RGBA16 | I_RGBAF =>
          obind (mapPixels (preMultiplyColor (b_cs b)) b) (fun b' => Some (Some b', true))
      | _ => Some (im, true)
      end
  end.

Definition setColorSpace (cs : colorspace) (b : bitmap) : bitmap :=
  Bitmap (b_fmt b) (b_w b) (b_h b) cs (b_px b).

(** Image::changeColorSpace, Image.cpp:1667-1712. *)
Definition changeColorSpace (im : image) (cs : colorspace) : option (image * bool) :=
  match im with
  | None => Some (im, false)
  | Some b =>
      match cs, b_cs b with
      | CS_Linear, CS_Linear | CS_sRGB, CS_sRGB => Some (im, true)
      | CS_Linear, CS_sRGB =>
          obind (mapPixels (onRGB sRGBToLinear) b) (fun b' =>
          Some (Some (setColorSpace CS_Linear b'), true))
      | CS_sRGB, CS_Linear =>
          obind (mapPixels (onRGB linearToSRGB) b) (fun b' =>
          Some (Some (setColorSpace CS_sRGB b'), true))
      end
  end.

(** The body of the loop of Image::grayscale, Image.cpp:1725-1741. *)
Definition grayscaleColor (cs : colorspace) (c : color) : color :=
  let c1 := match cs with CS_sRGB => onRGB sRGBToLinear c | CS_Linear => c end in
  let g := toGrayscale (c_r c1) (c_g c1) (c_b c1) in
  let g := match cs with CS_sRGB => linearToSRGB g | CS_Linear => g end in
  C4 g g g (c_a c1).

(** Image::grayscale, Image.cpp:1714-1746. *)
Definition grayscale (im : image) : option (image * bool) :=
  match im with
  | None => Some (im, false)
  | Some b => obind (mapPixels (grayscaleColor (b_cs b)) b) (fun b' => Some (Some b', true))
  end.

(** [reinterpret_cast<double*>(&color)[channel]] or the default, Image.cpp:1760-1776. *)
Definition select (c : color) (ch : channel) (def : num) : num :=
  match ch with
  | Ch_Red => c_r c | Ch_Green => c_g c | Ch_Blue => c_b c | Ch_Alpha => c_a c
  | Ch_None => def
  end.

(** Image::swizzle, Image.cpp:1748-1781. *)
Definition swizzleColor (r g b a : channel) (c : color) : color :=
  C4 (select c r (lit 0)) (select c g (lit 0)) (select c b (lit 0)) (select c a (lit 1)).
Definition swizzle (im : image) (r g b a : channel) : option (image * bool) :=
  match im with
  | None => Some (im, false)
  | Some bm => obind (mapPixels (swizzleColor r g b a) bm) (fun b' => Some (Some b', true))
  end.

(** Image::rotate, Image.cpp:1513-1603.  [fi] is FreeImage_Rotate: it gets the angle in degrees
    counter-clockwise (1519-1534) and returns the new extents and contents. *)
Definition degrees (a : angle) : N :=
  match a with
  | CCW90 | CW270 => 90
  | CCW180 | CW180 => 180
  | CCW270 | CW90 => 270
  end.

Definition rotate (fi : N -> option (N * N * (N -> N -> pix))) (alloc : allocator)
  (im : image) (a : angle) : option image :=
  match im with
  | None => Some None
  | Some s =>
      match fi (degrees a) with
      | Some (w, h, px) => Some (Some (Bitmap (b_fmt s) w h (b_cs s) px))
      | None =>
          match a with
          | CCW90 | CW270 =>
              match initialize alloc (b_fmt s) (b_h s) (b_w s) (b_cs s) with
              | None => Some None
              | Some d =>
                  obind (loop 0 (b_h s) (fun y =>
                    loop 0 (b_w s) (fun x d =>
                      obind (getAt s x y) (fun c =>
                      setAt d (usub (usub (b_w d) y) 1) x c))) d) (fun d => Some (Some d))
              end
          | CCW180 | CW180 =>
              match initialize alloc (b_fmt s) (b_w s) (b_h s) (b_cs s) with
              | None => Some None
              | Some d =>
                  obind (loop 0 (b_h s) (fun y =>
                    loop 0 (b_w s) (fun x d =>
                      obind (getAt s x y) (fun c =>
                      setAt d (usub (usub (b_w s) x) 1) (usub (usub (b_h s) y) 1) c))) d)
                    (fun d => Some (Some d))
              end
          | CCW270 | CW90 =>
              match initialize alloc (b_fmt s) (b_h s) (b_w s) (b_cs s) with
              | None => Some None
              | Some d =>
                  obind (loop 0 (b_h s) (fun y =>
                    loop 0 (b_w s) (fun x d =>
                      obind (getAt s (usub (usub (b_w s) x) 1) y) (fun c =>
                      setAt d y x c))) d) (fun d => Some (Some d))
              end
          end
      end
  end.

(** Whether Image::convert asks FreeImage for the conversion, Image.cpp:1149-1272. *)
Definition usesFreeImage (src dst : imgfmt) (convertGrayscale : bool) (cs : colorspace) : bool :=
  let cg := convertGrayscale && isGrayscaleFormat dst in
  let clg := cg && negb (cs_is_srgb cs) in
  match src with
  | I_UInt16 => false
  | _ =>
      match dst with
      | I_Gray8 | I_Gray16 => clg || isGrayscaleFormat src
      | I_RGB5 | I_RGB565 | I_RGB8 | I_RGB16 | I_RGBA8 | I_RGBA16 => true
      | I_RGBF => negb (needFloatConvertFallback src) && negb (isRGB16BPPFormat src)
      | I_RGBAF => negb (needFloatConvertFallback src)
      | I_Int16 | I_Int32 | I_UInt32 => true
      | I_Float => (clg || isGrayscaleFormat src) && negb (needFloatConvertFallback src)
      | I_Double => clg && negb (isGrayscaleFormat src) && negb (needFloatConvertFallback src)
      | I_UInt16 | I_Complex => false
      end
  end.

(** The generic conversion of one colour, Image.cpp:1281-1317. *)
Definition convertColor (src dst : imgfmt) (convertGrayscale : bool) (cs : colorspace)
  (c : color) : option pix :=
  if convertGrayscale && isGrayscaleFormat dst
     && negb (match src with I_Complex => true | _ => false end)
  then match cs with
       | CS_Linear => setPixelImpl dst c
       | CS_sRGB =>
           let g := linearToSRGB (toGrayscale (sRGBToLinear (c_r c)) (sRGBToLinear (c_g c))
                                    (sRGBToLinear (c_b c))) in
           setPixelNoGrayscaleImpl dst (C4 g g g (c_a c))
       end
  else setPixelNoGrayscaleImpl dst c.

(** Image::convert, Image.cpp:1130-1322, to a valid format.  [fi] is what the FreeImage
    conversion returns, when it is called. *)
Definition convert (fi : option (N * N * (N -> N -> pix))) (alloc : allocator) (im : image)
  (dst : imgfmt) (convertGrayscale : bool) : option image :=
  match im with
  | None => Some None
  | Some s =>
      if imgfmt_eqb (b_fmt s) dst then Some im
      else
        match (if usesFreeImage (b_fmt s) dst convertGrayscale (b_cs s) then fi else None) with
        | Some (w, h, px) => Some (Some (Bitmap dst w h (b_cs s) px))
        | None =>
            match initialize alloc dst (b_w s) (b_h s) (b_cs s) with
            | None => Some None
            | Some d =>
                obind (loop 0 (b_h s) (fun y =>
                  loop 0 (b_w s) (fun x d =>
                    obind (getAt s x y) (fun c =>
                    obind (convertColor (b_fmt s) dst convertGrayscale (b_cs s) c)
                      (write d x y)))) d) (fun d => Some (Some d))
            end
        end
  end.

End Image.

Arguments color : clear implicits.
Arguments pix : clear implicits.
Arguments bitmap : clear implicits.
Arguments image : clear implicits.
Arguments allocator : clear implicits.

(** Model of the resampling code: Image::resize, lib/src/Image.cpp:1324-1511, and
    generateMips3d, lib/src/Texture.cpp:103-227, over an arithmetic [A] (ArithModel.v).
    Undefined behaviour (reading outside an image, converting an out-of-range [double] to an
    integer) is [None]. *)

From Coq Require Import ZArith NArith List Bool.
From Verif Require Import Base FormatModel FloatModel ArithModel TextureModel ImageModel.
Import ListNotations.
Local Open Scope N_scope.

Section Resize.
Context {A : arith}.

Local Notation num := (num A).
Local Notation "x +! y" := (nadd A x y) (at level 50, left associativity).
Local Notation "x -! y" := (nsub A x y) (at level 50, left associativity).
Local Notation "x *! y" := (nmul A x y) (at level 40, left associativity).
Local Notation "x /! y" := (ndiv A x y) (at level 40, left associativity).

(** Conversion of an unsigned integer to double. *)
Definition ofN (n : N) : num := lit (Z.of_N n).

(** [x == 0.0]. *)
Definition isZero (x : num) : bool := nleb A x (lit 0) && nleb A (lit 0) x.

(** invScaleX and invScaleY, Image.cpp:1384-1385; invScale, Texture.cpp:108-109. *)
Definition invScale (s n : N) : num := ofN s /! ofN n.
(** offsetX and offsetY, Image.cpp:1386-1387; offset, Texture.cpp:110. *)
Definition offset (s n : N) : num := nmax (invScale s n) (lit 1).
(** filterScaleX and filterScaleY, Image.cpp:1388-1389; filterScale, Texture.cpp:111. *)
Definition filterScale (s n : N) : num := lit 1 /! offset s n.
(** centerX and centerY, Image.cpp:1402, 1410, 1455, 1463; center, Texture.cpp:117, 173. *)
Definition center (s n o : N) : num := (ofN o +! half) *! invScale s n.

(** [std::max(static_cast<int>(center - offset + 0.5), 0)], Image.cpp:1403, 1411-1412, 1456,
    1464-1465; Texture.cpp:118, 174. *)
Definition firstSample (c off : num) : option N :=
  obind (toInt (- 2 ^ 31) (2 ^ 31 - 1) (c -! off +! half)) (fun z =>
  Some (Z.to_N (Z.max z 0))).
(** [std::min(static_cast<unsigned int>(center + offset + 0.5), size)], Image.cpp:1404-1405,
    1413-1414, 1457-1458, 1466-1467; Texture.cpp:119-121, 175-177. *)
Definition lastSample (c off : num) (s : N) : option N :=
  obind (toInt 0 (2 ^ 32 - 1) (c +! off +! half)) (fun z => Some (N.min (Z.to_N z) s)).

(** [std::abs(i + 0.5 - center)*filterScale], Image.cpp:1420, 1426, 1474, 1482; Texture.cpp:131,
    189. *)
Definition distance (c fs : num) (i : N) : num := nabs A (ofN i +! half -! c) *! fs.
(** The test that skips a sample of the box filter, Image.cpp:1420, 1426; Texture.cpp:131. *)
Definition outsideBox (c fs : num) (i : N) : bool := nltb A half (distance c fs i).
(** The weight of the linear filter, Image.cpp:1473-1474, 1481-1482; Texture.cpp:188-189. *)
Definition linearScale (c fs : num) (i : N) : num := nmax (lit 1 -! distance c fs i) (lit 0).

Definition black : color A := C4 (lit 0) (lit 0) (lit 0) (lit 0).

(** [color.r += curColor.r], ... *)
Definition addColor (a c : color A) : color A :=
  C4 (c_r a +! c_r c) (c_g a +! c_g c) (c_b a +! c_b c) (c_a a +! c_a c).
(** [color.r += curColor.r*scale], ... *)
Definition addScaled (k : num) (a c : color A) : color A :=
  C4 (c_r a +! c_r c *! k) (c_g a +! c_g c *! k) (c_b a +! c_b c *! k) (c_a a +! c_a c *! k).
(** [color.r /= totalScale], ... *)
Definition divColor (c : color A) (k : num) : color A :=
  C4 (c_r c /! k) (c_g c /! k) (c_b c /! k) (c_a c /! k).

(** One pixel of the box filter, Image.cpp:1402-1443.  The vertical window (1402-1405), which
    the code computes once per row, is computed for each pixel here: it has no effects. *)
Definition boxPixel (s : bitmap A) (w h x y : N) : option (color A) :=
  let cy := center (b_h s) h y in
  let cx := center (b_w s) w x in
  let fy := filterScale (b_h s) h in
  let fx := filterScale (b_w s) w in
  let oy := offset (b_h s) h *! half in
  let ox := offset (b_w s) w *! half in
  obind (firstSample cy oy) (fun top =>
  obind (lastSample cy oy (b_h s)) (fun bottom =>
  obind (firstSample cx ox) (fun left =>
  obind (lastSample cx ox (b_w s)) (fun right =>
  obind (loop top bottom (fun i acc =>
    if outsideBox cy fy i then Some acc
    else loop left right (fun j acc =>
      if outsideBox cx fx j then Some acc
      else obind (getAt s j i) (fun cur =>
           Some (addColor (fst acc) cur, u32 (snd acc + 1)))) acc) (black, 0)) (fun acc =>
  Some (divColor (fst acc) (ofN (snd acc)))))))).

(** One pixel of the linear filter, Image.cpp:1455-1501; see [boxPixel] for the window. *)
Definition linearPixel (s : bitmap A) (w h x y : N) : option (color A) :=
  let cy := center (b_h s) h y in
  let cx := center (b_w s) w x in
  let fy := filterScale (b_h s) h in
  let fx := filterScale (b_w s) w in
  let oy := offset (b_h s) h in
  let ox := offset (b_w s) w in
  obind (firstSample cy oy) (fun top =>
  obind (lastSample cy oy (b_h s)) (fun bottom =>
  obind (firstSample cx ox) (fun left =>
  obind (lastSample cx ox (b_w s)) (fun right =>
  obind (loop top bottom (fun i acc =>
    if isZero (linearScale cy fy i) then Some acc
    else loop left right (fun j acc =>
      if isZero (linearScale cx fx j) then Some acc
      else obind (getAt s j i) (fun cur =>
           let scale := linearScale cx fx j *! linearScale cy fy i in
           Some (addScaled scale (fst acc) cur, snd acc +! scale))) acc) (black, lit 0)) (fun acc =>
  Some (divColor (fst acc) (snd acc))))))).

(** The formats FreeImage_Rescale is not called for, Image.cpp:1367-1373. *)
Definition rescaleFallback (f : imgfmt) : bool :=
  match f with I_Int16 | I_Int32 | I_UInt32 | I_Double | I_Complex => true | _ => false end.

(** The two filters of the fallback, Image.cpp:1393-1508: each pixel is computed and stored
    with setPixelNoGrayscaleImpl. *)
Definition fillPixels (pixel : N -> N -> option (color A)) (w h : N) (d : bitmap A)
  : option (bitmap A) :=
  loop 0 h (fun y => loop 0 w (fun x d => obind (pixel x y) (setAt d x y))) d.

Definition resizeFallback (alloc : allocator A) (s : bitmap A) (w h : N) (rf : rfilter)
  : option (image A) :=
  match (match rf with
         | RF_Box => Some (boxPixel s w h)
         | RF_Linear => Some (linearPixel s w h)
         | RF_Cubic | RF_CatmullRom | RF_BSpline => None
         end) with
  | None => Some None
  | Some pixel =>
      match initialize alloc (b_fmt s) w h (b_cs s) with
      | None => Some None
      | Some d => obind (fillPixels pixel w h d) (fun d => Some (Some d))
      end
  end.

(** The part of Image::resize for images in linear space, Image.cpp:1345-1510.  [fi] is
    FreeImage_Rescale: it gets the bitmap, the size and the filter. *)
Definition rescaler := bitmap A -> N -> N -> rfilter -> option (N * N * (N -> N -> pix A)).
Definition resizeLinear (fi : rescaler) (alloc : allocator A) (s : bitmap A) (w h : N)
  (rf : rfilter) : option (image A) :=
  match (if rescaleFallback (b_fmt s) then None else fi s w h rf) with
  | Some (w', h', px) => Some (Some (Bitmap (b_fmt s) w' h' (b_cs s) px))
  | None => resizeFallback alloc s w h rf
  end.

(** Image::resize, Image.cpp:1324-1511.  Copying an image (1332, 1339) is assumed to succeed.
    The recursive call (1341) is on an image in linear space of the same size. *)
Definition resize (fi : rescaler) (alloc : allocator A) (im : image A) (w h : N) (rf : rfilter)
  : option (image A) :=
  match im with
  | None => Some None
  | Some s =>
      if (w =? 0) || (h =? 0) then Some None
      else if (w =? b_w s) && (h =? b_h s) then Some im
      else
        match b_cs s with
        | CS_Linear => resizeLinear fi alloc s w h rf
        | CS_sRGB =>
            obind (changeColorSpace (Some s) CS_Linear) (fun r =>
            match fst r with
            | None => Some None
            | Some s' =>
                obind (resizeLinear fi alloc s' w h rf) (fun d =>
                obind (changeColorSpace d CS_sRGB) (fun r' => Some (fst r')))
            end)
        end
  end.

(** generateMips3d, Texture.cpp:103-227. *)

(** [reinterpret_cast<const ColorRGBAf*>(image.scanline(y))[x]]: the image must hold [float]
    channels. *)
Definition floatPixel (b : bitmap A) (x y : N) : option (flt A * flt A * flt A * flt A) :=
  obind (read b x (scanlineOf (b_h b) y)) (fun p =>
  match p with PF [r; g; b; a] => Some (r, g, b, a) | _ => None end).

(** Reading a source colour in linear space, Texture.cpp:134-144, 193-203. *)
Definition linearColor (cs : colorspace) (p : flt A * flt A * flt A * flt A) : color A :=
  let '(r, g, b, a) := p in
  let lin v := match cs with
               | CS_sRGB => widen A (narrow A (sRGBToLinear (widen A v)))
               | CS_Linear => widen A v
               end in
  C4 (lin r) (lin g) (lin b) (widen A a).

(** Storing the average, Texture.cpp:153-163, 212-222. *)
Definition storeLinear (cs : colorspace) (c : color A) : pix A :=
  let out v := match cs with
               | CS_sRGB => narrow A (linearToSRGB (widen A (narrow A v)))
               | CS_Linear => narrow A v
               end in
  PF [out (c_r c); out (c_g c); out (c_b c); narrow A (c_a c)].

Definition sourceColor (cs : colorspace) (prev : list (bitmap A)) (i x y : N) : option (color A) :=
  obind (nth_error prev (N.to_nat i)) (fun b =>
  obind (floatPixel b x y) (fun p => Some (linearColor cs p))).

(** The colour of one pixel of layer [d] of [n] with the box filter, Texture.cpp:117-156; note
    that the window is not halved here. *)
Definition boxLayer (cs : colorspace) (prev : list (bitmap A)) (n d x y : N) : option (color A) :=
  let s := N.of_nat (length prev) in
  let c := center s n d in
  obind (firstSample c (offset s n)) (fun start =>
  obind (lastSample c (offset s n) (u32 s)) (fun stop =>
  obind (loop start stop (fun i acc =>
    if outsideBox c (filterScale s n) i then Some acc
    else obind (sourceColor cs prev i x y) (fun cur =>
         Some (addColor (fst acc) cur, u32 (snd acc + 1)))) (black, 0)) (fun acc =>
  Some (divColor (fst acc) (ofN (snd acc)))))).

(** The same with any other filter, Texture.cpp:173-215. *)
Definition linearLayer (cs : colorspace) (prev : list (bitmap A)) (n d x y : N)
  : option (color A) :=
  let s := N.of_nat (length prev) in
  let c := center s n d in
  obind (firstSample c (offset s n)) (fun start =>
  obind (lastSample c (offset s n) (u32 s)) (fun stop =>
  obind (loop start stop (fun i acc =>
    let scale := linearScale c (filterScale s n) i in
    if isZero scale then Some acc
    else obind (sourceColor cs prev i x y) (fun cur =>
         Some (addScaled scale (fst acc) cur, snd acc +! scale))) (black, lit 0)) (fun acc =>
  Some (divColor (fst acc) (snd acc))))).

(** One layer, Texture.cpp:114-168, 173-226: writing through the null scanline of an image that
    could not be allocated is undefined. *)
Definition mipLayer (alloc : allocator A) (cs : colorspace) (prev : list (bitmap A))
  (w h n : N) (rf : rfilter) (d : N) : option (bitmap A) :=
  obind (initialize alloc I_RGBAF w h cs) (fun im =>
  loop 0 h (fun y => loop 0 w (fun x im =>
    obind (match rf with
           | RF_Box => boxLayer cs prev n d x y
           | _ => linearLayer cs prev n d x y
           end) (fun c =>
    write im x (scanlineOf (b_h im) y) (storeLinear cs c)))) im).

(** generateMips3d, Texture.cpp:103-227, for valid images [prev]. *)
Definition mips3d (alloc : allocator A) (prev : list (bitmap A)) (w h n : N) (cs : colorspace)
  (rf : rfilter) : option (list (bitmap A)) :=
  omap (mipLayer alloc cs prev w h n rf) (Nrange n).

End Resize.

Arguments rescaler : clear implicits.

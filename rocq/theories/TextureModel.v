(** Model of the Texture object: lib/src/Texture.cpp and the parts of
    lib/src/Image.cpp it relies on.  Pixel contents are an abstract type [C];
    the numerical work done by FreeImage and by the resampling loops is an
    oracle record [lib] whose operations may fail.  Out-of-range indexing of a
    std::vector and dereferencing the scanline of an invalid image are
    undefined behaviour, represented by [None]. *)
From Coq Require Import List NArith Bool Lia.
From Verif Require Import Base FormatModel.
Import ListNotations.
Local Open Scope N_scope.

(** Image::Format, lib/include/cuttlefish/Image.h (enum class Format), without
    Invalid, which is the format of the [NoImage] state. *)
Inductive imgfmt :=
| I_Gray8 | I_Gray16 | I_RGB5 | I_RGB565 | I_RGB8 | I_RGB16 | I_RGBF | I_RGBA8 | I_RGBA16
| I_RGBAF | I_Int16 | I_UInt16 | I_Int32 | I_UInt32 | I_Float | I_Double | I_Complex.

Definition imgfmt_eqb (a b : imgfmt) : bool :=
  match a, b with
  | I_Gray8, I_Gray8 | I_Gray16, I_Gray16 | I_RGB5, I_RGB5 | I_RGB565, I_RGB565
  | I_RGB8, I_RGB8 | I_RGB16, I_RGB16 | I_RGBF, I_RGBF | I_RGBA8, I_RGBA8
  | I_RGBA16, I_RGBA16 | I_RGBAF, I_RGBAF | I_Int16, I_Int16 | I_UInt16, I_UInt16
  | I_Int32, I_Int32 | I_UInt32, I_UInt32 | I_Float, I_Float | I_Double, I_Double
  | I_Complex, I_Complex => true
  | _, _ => false
  end.

(** Image::ResizeFilter, lib/include/cuttlefish/Image.h. *)
Inductive rfilter := RF_Box | RF_Linear | RF_Cubic | RF_CatmullRom | RF_BSpline.

(** Texture::MipReplacement, lib/include/cuttlefish/Texture.h 171-176. *)
Inductive replacement := Once | Continue.

(** Texture::ColorMask, Texture.h 216-235. *)
Record colormask := Mask { m_r : bool; m_g : bool; m_b : bool; m_a : bool }.

(** std::vector::resize: keep the first elements, value-initialise new ones. *)
Definition vresize {A} (def : A) (n : N) (l : list A) : list A :=
  firstn (N.to_nat n) l ++ repeat def (N.to_nat n - length l)%nat.

(** operator[] of std::vector; out of range is undefined behaviour ([None]). *)
Definition nthN {A} (l : list A) (i : N) : option A := nth_error l (N.to_nat i).

Definition get3 {A} (l : list (list (list A))) (i j k : N) : option A :=
  obind (nthN l i) (fun l1 => obind (nthN l1 j) (fun l2 => nthN l2 k)).

(** Assignment through operator[]; [None] when the index is out of range. *)
Definition updN {A} (l : list A) (i : N) (a : A) : option (list A) :=
  if i <? N.of_nat (length l) then Some (upd (N.to_nat i) a l) else None.

Definition set3 {A} (l : list (list (list A))) (i j k : N) (a : A)
  : option (list (list (list A))) :=
  obind (nthN l i) (fun l1 =>
  obind (nthN l1 j) (fun l2 =>
  obind (updN l2 k a) (fun l2' =>
  obind (updN l1 j l2') (fun l1' => updN l i l1')))).

Section Texture.
Context {C : Type}.

(** An Image object (Image.cpp 709-812): either reset/invalid (m_impl null) or a
    bitmap with a format, extents, colour space and pixel contents. *)
Inductive image := NoImage | Img (f : imgfmt) (w h : N) (cs : colorspace) (c : C).

(** Image::isValid, Image.cpp 861-864. *)
Definition isValid (i : image) : bool := match i with NoImage => false | _ => true end.
(** Image::width, Image.cpp 1000-1006; 0 for an invalid image. *)
Definition iwidth (i : image) : N := match i with NoImage => 0 | Img _ w _ _ _ => w end.
(** Image::height, Image.cpp 1008-1014. *)
Definition iheight (i : image) : N := match i with NoImage => 0 | Img _ _ h _ _ => h end.
(** Image::format() == RGBAF, Image.cpp 976-982. *)
Definition is_rgbaf (i : image) : bool :=
  match i with NoImage => false | Img f _ _ _ _ => imgfmt_eqb f I_RGBAF end.

(** The numerical operations the Texture code calls.  [None] = failure
    (FreeImage returned a null bitmap, i.e. allocation or conversion failure).
    - [l_rescale]: FreeImage_Rescale, called at Image.cpp 1370;
    - [l_fallback]: the Box/Linear fallback loops, Image.cpp 1381-1505;
    - [l_convert]: the pixel work of Image::convert, Image.cpp 1135-1321;
    - [l_tolinear]/[l_tosrgb]: the loops of Image::changeColorSpace,
      Image.cpp 1675-1708 (these cannot fail);
    - [l_mips3d]: the loops of generateMips3d, Texture.cpp 107-226, given the
      contents of the previous level's slices. *)
Record lib := Lib {
  l_rescale : imgfmt -> N -> N -> C -> N -> N -> rfilter -> option C;
  l_fallback : imgfmt -> N -> N -> C -> N -> N -> rfilter -> option C;
  l_convert : imgfmt -> N -> N -> C -> imgfmt -> option C;
  l_tolinear : imgfmt -> N -> N -> C -> C;
  l_tosrgb : imgfmt -> N -> N -> C -> C;
  l_mips3d : N -> N -> N -> colorspace -> rfilter -> list C -> option (list C)
}.

(** Image::resize only asks FreeImage to rescale the formats it supports,
    Image.cpp 1336-1353: the others go straight to the fallback. *)
Definition no_freeimage_resize (f : imgfmt) : bool :=
  match f with I_Int16 | I_Int32 | I_UInt32 | I_Double | I_Complex => true | _ => false end.

(** Image::resize in linear space, Image.cpp 1336-1511: FreeImage first, then
    the fallback, which exists for Box and Linear only. *)
Definition resize_content (L : lib) (f : imgfmt) (w h : N) (c : C) (w' h' : N) (rf : rfilter)
  : option C :=
  match (if no_freeimage_resize f then None else l_rescale L f w h c w' h' rf) with
  | Some c' => Some c'
  | None =>
      match rf with
      | RF_Box | RF_Linear => l_fallback L f w h c w' h' rf
      | _ => None
      end
  end.

(** Image::resize, Image.cpp 1324-1511: same size is a plain copy, sRGB images
    are resized in linear space and converted back. *)
Definition iresize (L : lib) (i : image) (w' h' : N) (rf : rfilter) : image :=
  match i with
  | NoImage => NoImage
  | Img f w h cs c =>
      if (w' =? 0) || (h' =? 0) then NoImage
      else if (w =? w') && (h =? h') then i
      else match cs with
           | CS_Linear =>
               match resize_content L f w h c w' h' rf with
               | Some c' => Img f w' h' CS_Linear c' | None => NoImage end
           | CS_sRGB =>
               match resize_content L f w h (l_tolinear L f w h c) w' h' rf with
               | Some c' => Img f w' h' CS_sRGB (l_tosrgb L f w' h' c') | None => NoImage end
           end
  end.

(** Image::convert, Image.cpp 1130-1322: converting to the same format copies. *)
Definition iconvert (L : lib) (i : image) (dst : imgfmt) : image :=
  match i with
  | NoImage => NoImage
  | Img f w h cs c =>
      if imgfmt_eqb f dst then i
      else match l_convert L f w h c dst with
           | Some c' => Img dst w h cs c' | None => NoImage end
  end.

(** Image::changeColorSpace, Image.cpp 1667-1712. *)
Definition ichange (L : lib) (i : image) (cs' : colorspace) : image :=
  match i with
  | NoImage => NoImage
  | Img f w h cs c =>
      match cs, cs' with
      | CS_Linear, CS_sRGB => Img f w h CS_sRGB (l_tosrgb L f w h c)
      | CS_sRGB, CS_Linear => Img f w h CS_Linear (l_tolinear L f w h c)
      | _, _ => i
      end
  end.

(** clz, Texture.cpp 87-101 (__builtin_clz on a non-zero 32-bit value is 31
    minus the index of the highest set bit). *)
Definition clz (x : N) : N := if x =? 0 then 32 else 31 - N.log2 x.

(** Texture::maxMipmapLevels, Texture.cpp 514-527. *)
Definition maxMipmapLevels (dim : dimension) (w h d : N) : N :=
  let lw := 32 - clz w in
  let lh := 32 - clz h in
  let m := N.max lw lh in
  match dim with Dim3D => N.max m (32 - clz d) | _ => m end.

(** Texture::Impl, Texture.cpp 240-256. *)
Record impl := Impl {
  t_dim : dimension; t_cs : colorspace;
  t_width : N; t_height : N; t_depth : N; t_mips : N; t_faces : N;
  t_images : list (list (list image));
  t_format : option format;   (* None = Format::Unknown *)
  t_type : ttype; t_alpha : alpha; t_mask : colormask;
  t_textures : list (list (list (list N)))
}.

(** A Texture object: m_impl may be null. *)
Definition texture := option impl.

Definition with_images (t : impl) (im : list (list (list image))) : impl :=
  Impl (t_dim t) (t_cs t) (t_width t) (t_height t) (t_depth t) (t_mips t) (t_faces t) im
       (t_format t) (t_type t) (t_alpha t) (t_mask t) (t_textures t).

(** Texture::initialize, Texture.cpp 1136-1163.  The previous state is
    discarded by reset(). *)
Definition initialize (dim : dimension) (w h d mips : N) (cs : colorspace) : bool * texture :=
  if (w =? 0) || (h =? 0) || (match dim with Dim3D => d =? 0 | _ => false end)
  then (false, None)
  else
    let levels := N.min (N.max mips 1) (maxMipmapLevels dim w h d) in
    let faces := match dim with Cube => 6 | _ => 1 end in
    (true, Some (Impl dim cs w h d levels faces
      (repeat (repeat (repeat NoImage (N.to_nat faces)) (N.to_nat (N.max d 1))) (N.to_nat levels))
      None T_UNorm AlphaStandard (Mask true true true true) [])).

(** Texture::isArray, Texture.cpp 1186-1189. *)
Definition isArray (t : texture) : bool :=
  match t with
  | None => false
  | Some i => match t_dim i with Dim3D => false | _ => true end && (0 <? t_depth i)
  end.

(** Texture::width, Texture.cpp 1191-1197. *)
Definition width (t : texture) (mip : N) : N :=
  match t with
  | None => 0
  | Some i => if t_mips i <=? mip then 0 else N.max (N.shiftr (t_width i) mip) 1
  end.

(** Texture::height, Texture.cpp 1199-1205. *)
Definition height (t : texture) (mip : N) : N :=
  match t with
  | None => 0
  | Some i => if t_mips i <=? mip then 0 else N.max (N.shiftr (t_height i) mip) 1
  end.

(** Texture::depth, Texture.cpp 1207-1216. *)
Definition depth (t : texture) (mip : N) : N :=
  match t with
  | None => 0
  | Some i => if t_mips i <=? mip then 0
              else match t_dim i with
                   | Dim3D => N.max (N.shiftr (t_depth i) mip) 1
                   | _ => N.max (t_depth i) 1
                   end
  end.

(** Texture::dimension, colorSpace, mipLevelCount, faceCount, Texture.cpp
    1170-1184 and 1218-1232. *)
Definition dimensionOf (t : texture) : dimension :=
  match t with None => Dim2D | Some i => t_dim i end.
Definition colorSpaceOf (t : texture) : colorspace :=
  match t with None => CS_Linear | Some i => t_cs i end.
Definition mipLevelCount (t : texture) : N := match t with None => 0 | Some i => t_mips i end.
Definition faceCount (t : texture) : N := match t with None => 0 | Some i => t_faces i end.

(** Texture::getImage(mipLevel, depth), Texture.cpp 1234-1241. *)
Definition getImage (t : texture) (mip d : N) : option image :=
  if depth t mip <=? d then Some NoImage
  else match t with
       | None => None
       | Some i => if negb (t_faces i =? 1) then Some NoImage
                   else get3 (t_images i) mip d 0
       end.

(** Texture::getImage(face, mipLevel, depth), Texture.cpp 1243-1250. *)
Definition getImageF (t : texture) (f mip d : N) : option image :=
  if depth t mip <=? d then Some NoImage
  else match t with
       | None => None
       | Some i => if negb (t_faces i =? 6) && negb (f =? 0) then Some NoImage
                   else get3 (t_images i) mip d f
       end.

(** The common tail of the four setImage overloads, Texture.cpp 1261-1263,
    1275-1280, 1292-1296, 1308-1317.  The overloads taking an rvalue move an
    image that already is RGBAF instead of converting it; converting to the
    same format is a copy, so all four store the same value. *)
Definition store_image (L : lib) (i : impl) (img : image) (f mip d : N)
  : option (bool * texture) :=
  let new := ichange L (iconvert L img I_RGBAF) (t_cs i) in
  obind (set3 (t_images i) mip d f new) (fun im =>
  Some (isValid new, Some (with_images i im))).

(** Texture::setImage(image, mipLevel, depth), Texture.cpp 1252-1281. *)
Definition setImage (L : lib) (t : texture) (img : image) (mip d : N)
  : option (bool * texture) :=
  if (depth t mip <=? d) || negb (iwidth img =? width t mip)
     || negb (iheight img =? height t mip)
  then Some (false, t)
  else match t with
       | None => None
       | Some i => if negb (t_faces i =? 1) then Some (false, t)
                   else store_image L i img 0 mip d
       end.

(** Texture::setImage(image, face, mipLevel, depth), Texture.cpp 1283-1318. *)
Definition setImageF (L : lib) (t : texture) (img : image) (f mip d : N)
  : option (bool * texture) :=
  if (depth t mip <=? d) || negb (iwidth img =? width t mip)
     || negb (iheight img =? height t mip)
  then Some (false, t)
  else match t with
       | None => None
       | Some i => if negb (t_faces i =? 6) && negb (f =? 0) then Some (false, t)
                   else store_image L i img f mip d
       end.

(** CustomMipImages, Texture.h 400: a map from (face, level, depth) to an image
    and its replacement mode.  A null image pointer and a pointer to an invalid
    image are both [NoImage]: the only code that looks at either treats them
    alike (Texture.cpp 1335-1339). *)
Definition customs := list ((N * N * N) * (image * replacement)).

Definition key_eqb (a b : N * N * N) : bool :=
  let '(f, m, d) := a in let '(f', m', d') := b in (f =? f') && (m =? m') && (d =? d').

(** unordered_map::find with ImageIndex::operator==, Texture.h 271-274. *)
Fixpoint cfind (cm : customs) (f m d : N) : option (image * replacement) :=
  match cm with
  | [] => None
  | (k, v) :: r => if key_eqb k (f, m, d) then Some v else cfind r f m d
  end.

Definition repl_eqb (a b : replacement) : bool :=
  match a, b with Once, Once | Continue, Continue => true | _, _ => false end.

(** The custom image resized to the level and converted to RGBAF,
    Texture.cpp 1425-1428 and 1501-1504. *)
Definition custom_level (L : lib) (img : image) (w h : N) (rf : rfilter) : image :=
  let r := iresize L img w h rf in
  if is_rgbaf r then r else iconvert L r I_RGBAF.

(** One step of the non-3D loop, Texture.cpp 1465-1507, on the stored images
    and prevImage. *)
Definition gm_step (L : lib) (t : impl) (rf : rfilter) (cm : customs)
  (st : list (list (list image)) * image) (j : N * N * N)
  : option (list (list (list image)) * image) :=
  let '(im, prev) := st in
  let '(d, f, mip) := j in
  let w := width (Some t) mip in
  let h := height (Some t) mip in
  let found := cfind cm f mip d in
  let restore := match found with Some (_, Once) => true | _ => false end in
  let custom := match found with Some _ => true | None => false end in
  obind (if negb custom || restore
         then if isValid prev then Some (iresize L prev w h rf)
              else obind (get3 im (mip - 1) d f) (fun p => Some (iresize L p w h rf))
         else Some NoImage) (fun cur =>
  let prev' := if restore then cur else NoImage in
  let new := match found with
             | Some (ci, _) => custom_level L ci w h rf
             | None => cur
             end in
  obind (set3 im mip d f new) (fun im' => Some (im', prev'))).

Fixpoint gm_loop (L : lib) (t : impl) (rf : rfilter) (cm : customs)
  (js : list (N * N * N)) (st : list (list (list image)) * image)
  : option (list (list (list image)) * image) :=
  match js with
  | [] => Some st
  | j :: r => obind (gm_step L t rf cm st j) (gm_loop L t rf cm r)
  end.

(** The iteration order of the three nested loops, Texture.cpp 1459-1463. *)
Definition gm_jobs (depth faces mips : N) : list (N * N * N) :=
  flat_map (fun d => flat_map (fun f => map (fun m => (d, f, m + 1)) (Nrange (mips - 1)))
    (Nrange faces)) (Nrange depth).

(** The storage set-up loop, Texture.cpp 1445-1455: levels 1 and up. *)
Definition gm_storage (depth faces : N) (im : list (list (list image)))
  : list (list (list image)) :=
  match im with
  | [] => []
  | l0 :: r => l0 :: map (fun dl => map (vresize NoImage faces) (vresize [] depth dl)) r
  end.

(** The consistency check of the 3D loop, Texture.cpp 1359-1376.  The state is
    (customMips, replacement); [None] = return false. *)
Fixpoint cm3_check (cm : customs) (mip : N) (ds : list N) (st : bool * replacement)
  : option (bool * replacement) :=
  match ds with
  | [] => Some st
  | d :: r =>
      match cfind cm 0 mip d with
      | None => if fst st then None else cm3_check cm mip r st
      | Some (_, rp) =>
          if d =? 0 then cm3_check cm mip r (true, rp)
          else if negb (fst st) || negb (repl_eqb (snd st) rp) then None
          else cm3_check cm mip r st
      end
  end.

(** generateMips3d, Texture.cpp 103-227.  Its loops read the scanlines of the
    given slices as RGBAF pixels of the level's extents; anything else is
    undefined behaviour. *)
Definition slice_content (w h : N) (i : image) : option C :=
  match i with
  | NoImage => None
  | Img f w' h' _ c => if imgfmt_eqb f I_RGBAF && (w =? w') && (h =? h') then Some c else None
  end.
Definition generateMips3d (L : lib) (imgs : list image) (w h d : N) (cs : colorspace)
  (rf : rfilter) : option (list image) :=
  obind (omap (slice_content w h) imgs) (fun contents =>
  obind (l_mips3d L w h d cs rf contents) (fun out =>
  if N.of_nat (length out) =? d then Some (map (Img I_RGBAF w h cs) out) else None)).

(** Outcome of the 3D loop: finished, or the early "return false". *)
Inductive loop3 := L3_ok (im : list (list (list image))) | L3_fail (im : list (list (list image))).

(** One iteration of the 3D loop, Texture.cpp 1353-1439; [input] is
    inputImages.  mipImages is rebuilt in every iteration that reads it: by
    generateMips3d or by the custom images. *)
Definition gm3_step (L : lib) (t : impl) (rf : rfilter) (cm : customs) (mips mip : N)
  (im : list (list (list image))) (input : list image)
  : option (loop3 * list image) :=
  let w := width (Some t) mip in
  let h := height (Some t) mip in
  let d := depth (Some t) mip in
  match cm3_check cm mip (Nrange d) (false, Once) with
  | None => Some (L3_fail im, input)
  | Some (custom, rp) =>
      let restore := custom && repl_eqb rp Once && (mip <? mips - 1) in
      obind (if negb custom || restore
             then obind (match input with
                         | [] => obind (nthN im (mip - 1)) (fun prev =>
                                 omap (fun fl => obind (nthN fl 0) (fun i =>
                                         Some (iresize L i w h rf))) prev)
                         | _ => Some (map (fun i => iresize L i w h rf) input)
                         end) (fun inp => generateMips3d L inp w h d (t_cs t) rf)
             else Some []) (fun gen =>
      let input' := if restore then gen else [] in
      let level := if custom
                   then omap (fun k => match cfind cm 0 mip k with
                                       | Some (ci, _) => Some (custom_level L ci w h rf)
                                       | None => None end) (Nrange d)
                   else Some gen in
      obind level (fun lv =>
      obind (updN im mip (map (fun i => [i]) lv)) (fun im' => Some (L3_ok im', input'))))
  end.

Fixpoint gm3_loop (L : lib) (t : impl) (rf : rfilter) (cm : customs) (mips : N)
  (levels : list N) (im : list (list (list image))) (input : list image) : option loop3 :=
  match levels with
  | [] => Some (L3_ok im)
  | m :: r =>
      match gm3_step L t rf cm mips m im input with
      | None => None
      | Some (L3_fail im', _) => Some (L3_fail im')
      | Some (L3_ok im', input') => gm3_loop L t rf cm mips r im' input'
      end
  end.

(** Texture::generateMipmaps, Texture.cpp 1320-1514.  When the 3D loop returns
    false early the object already has the new level count and the images
    processed so far. *)
Definition generateMipmaps (L : lib) (t : texture) (rf : rfilter) (levels : N) (cm : customs)
  : option (bool * texture) :=
  match t with
  | None => Some (false, t)
  | Some i =>
      obind (nthN (t_images i) 0) (fun base =>
      if negb (forallb (forallb isValid) base) then Some (false, t)
      else if negb (forallb (fun kv => isValid (fst (snd kv))) cm) then Some (false, t)
      else
        let mips := N.min (N.max levels 1)
          (maxMipmapLevels (dimensionOf t) (width t 0) (height t 0) (depth t 0)) in
        let i1 := Impl (t_dim i) (t_cs i) (t_width i) (t_height i) (t_depth i) mips (t_faces i)
                    (vresize [] mips (t_images i)) (t_format i) (t_type i) (t_alpha i) (t_mask i)
                    (t_textures i) in
        match t_dim i with
        | Dim3D =>
            match gm3_loop L i1 rf cm mips (map (fun m => m + 1) (Nrange (mips - 1)))
                    (t_images i1) [] with
            | None => None
            | Some (L3_fail im) => Some (false, Some (with_images i1 im))
            | Some (L3_ok im) => Some (true, Some (with_images i1 im))
            end
        | _ =>
            let dep := N.max (t_depth i) 1 in
            obind (gm_loop L i1 rf cm (gm_jobs dep (t_faces i) mips)
                     (gm_storage dep (t_faces i) (t_images i1), NoImage)) (fun st =>
            Some (true, Some (with_images i1 (fst st))))
        end)
  end.

(** Texture::imagesComplete, Texture.cpp 1516-1534. *)
Definition imagesComplete (t : texture) : bool :=
  match t with
  | None => false
  | Some i => forallb (forallb (forallb isValid)) (t_images i)
  end.

(** Texture::converted, Texture.cpp 1563-1566. *)
Definition converted (t : texture) : bool :=
  match t with None => false | Some i => match t_textures i with [] => false | _ => true end end.

(** Texture::format, type, alphaType, colorMask, Texture.cpp 1568-1598. *)
Definition formatOf (t : texture) : option format :=
  match t with None => None | Some i => t_format i end.
Definition typeOf (t : texture) : ttype := match t with None => T_UNorm | Some i => t_type i end.
Definition alphaOf (t : texture) : alpha := match t with None => AlphaNone | Some i => t_alpha i end.
Definition maskOf (t : texture) : colormask :=
  match t with None => Mask true true true true | Some i => t_mask i end.

(** The arguments of a conversion that reach the converter objects, besides
    the image: format, type, alpha, mask, quality and thread count. *)
Record convargs := ConvArgs {
  ca_format : format; ca_type : ttype; ca_alpha : alpha; ca_mask : colormask;
  ca_quality : N; ca_threads : N
}.

(** Texture::convert, Texture.cpp 1536-1561, with Converter::convert,
    Converter.cpp 508-593.  [encode c a i] stands for the bytes the converter
    object [c] produces for image [i] (modelled in ConverterModel).  The source
    images are reset and the data takes their shape. *)
Definition convert (fl : flags) (encode : converter -> convargs -> image -> list N)
  (t : texture) (a : convargs) : bool * texture :=
  let f := ca_format a in
  let ty := ca_type a in
  if negb (imagesComplete t) || negb (isFormatValid fl f ty) then (false, t)
  else match t with
       | None => (false, t)
       | Some i =>
           if cs_is_srgb (t_cs i) && negb (hasNativeSRGB f ty) then (false, t)
           else match createConverter fl f ty with
                | None => (false, Some (Impl (t_dim i) (t_cs i) (t_width i) (t_height i)
                             (t_depth i) (t_mips i) (t_faces i) (t_images i) None ty
                             (ca_alpha a) (ca_mask a) []))
                | Some cv =>
                    (true, Some (Impl (t_dim i) (t_cs i) (t_width i) (t_height i) (t_depth i)
                       (t_mips i) (t_faces i)
                       (map (map (map (fun _ => NoImage))) (t_images i))
                       (Some f) ty (ca_alpha a) (ca_mask a)
                       (map (map (map (encode cv a))) (t_images i))))
                end
       end.

(** Texture::data / dataSize(mipLevel, depth), Texture.cpp 1600-1606 and
    1619-1625.  [Some None] is the null pointer / size 0 answer. *)
Definition data (t : texture) (mip d : N) : option (option (list N)) :=
  if negb (converted t) || (depth t mip <=? d) || negb (faceCount t =? 1) then Some None
  else match t with
       | None => None
       | Some i => obind (get3 (t_textures i) mip d 0) (fun b => Some (Some b))
       end.

(** Texture::data / dataSize(face, mipLevel, depth), Texture.cpp 1608-1617 and
    1627-1636. *)
Definition dataF (t : texture) (f mip d : N) : option (option (list N)) :=
  if negb (converted t) || (depth t mip <=? d)
     || (negb (faceCount t =? 6) && negb (f =? 0)) then Some None
  else match t with
       | None => None
       | Some i => obind (get3 (t_textures i) mip d f) (fun b => Some (Some b))
       end.

(** The state-changing calls of the public API, and a history of them. *)
Inductive call :=
| CInit (dim : dimension) (w h d mips : N) (cs : colorspace)
| CReset
| CSet (img : image) (mip d : N)
| CSetF (img : image) (f mip d : N)
| CMips (rf : rfilter) (levels : N) (cm : customs)
| CConvert (fl : flags) (a : convargs).

Definition step (L : lib) (encode : converter -> convargs -> image -> list N)
  (t : texture) (c : call) : option (bool * texture) :=
  match c with
  | CInit dim w h d m cs => Some (initialize dim w h d m cs)
  | CReset => Some (true, None)    (* Texture::reset, Texture.cpp 1165-1168 *)
  | CSet img m d => setImage L t img m d
  | CSetF img f m d => setImageF L t img f m d
  | CMips rf l cm => generateMipmaps L t rf l cm
  | CConvert fl a => Some (convert fl encode t a)
  end.

End Texture.

Arguments image : clear implicits.
Arguments lib : clear implicits.
Arguments impl : clear implicits.
Arguments texture : clear implicits.
Arguments customs : clear implicits.
Arguments call : clear implicits.

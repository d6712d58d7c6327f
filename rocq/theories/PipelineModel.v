(** The whole command line tool: tool/main.cpp on top of the models of the command line, of
    Texture and of saving.  Pixel contents are an abstract type [C]; what the Image operations
    do to the contents is an oracle record [ops] (their pixel arithmetic is modelled in
    ImageModel, NormalModel, AdjustModel and ResizeModel).  [None] is undefined behaviour. *)
From Coq Require Import List NArith ZArith Bool String.
From Verif Require Import Base FormatModel SaveFormats TextureModel SaveModel CommandLineModel ToolModel.
Import ListNotations.
Local Open Scope list_scope.
Local Open Scope N_scope.
Local Notation length := List.length.

Section Pipeline.
Context {C : Type}.

(** What the Image operations compute.
    - [o_load]: FreeImage_Load with Impl::create, Image.cpp 711-741 and 870-880: format, extents
      and contents, or a failure;
    - [o_rotate]: Image::rotate, Image.cpp 1513-1603; [None] when no bitmap can be allocated;
    - [o_gray]: Image::grayscale, Image.cpp 1714-1746;
    - [o_normal options height]: Image::createNormalMap to RGBF, Image.cpp 1783-1880; the height
      is the text given on the command line, [None] for 1.0;
    - [o_flipx], [o_flipy]: Image::flipHorizontal and flipVertical, Image.cpp 1605-1619;
    - [o_swizzle]: Image::swizzle, Image.cpp 1748-1781;
    - [o_premul]: Image::preMultiplyAlpha, Image.cpp 1621-1665;
    - [o_range ty orig]: the loops of Texture::adjustImageValueRange, Texture.cpp 1016-1080, on
      an image of floats. *)
Record ops := Ops {
  o_lib : lib C;
  o_load : string -> option (imgfmt * N * N * C);
  o_rotate : angle -> imgfmt -> N -> N -> C -> option C;
  o_gray : colorspace -> imgfmt -> N -> N -> C -> C;
  o_normal : N -> option string -> imgfmt -> N -> N -> C -> option C;
  o_flipx : imgfmt -> N -> N -> C -> C;
  o_flipy : imgfmt -> N -> N -> C -> C;
  o_swizzle : channel -> channel -> channel -> channel -> imgfmt -> N -> N -> C -> C;
  o_premul : colorspace -> imgfmt -> N -> N -> C -> C;
  o_range : ttype -> imgfmt -> imgfmt -> N -> N -> C -> C
}.
Variable O : ops.

(** An operation that works in place and cannot fail on a valid image. *)
Definition in_place (g : colorspace -> imgfmt -> N -> N -> C -> C) (i : image C) : image C :=
  match i with
  | NoImage => NoImage
  | Img f w h cs c => Img f w h cs (g cs f w h c)
  end.

(** Image::rotate, Image.cpp 1513-1603: the extents of the result. *)
Definition irotate (a : angle) (i : image C) : image C :=
  match i with
  | NoImage => NoImage
  | Img f w h cs c =>
      match o_rotate O a f w h c with
      | None => NoImage
      | Some c' => match a with
                   | CW180 | CCW180 => Img f w h cs c'
                   | _ => Img f h w cs c'
                   end
      end
  end.

(** Image::createNormalMap, Image.cpp 1783-1791: the result is RGBF by default (Image.h 458). *)
Definition inormal (options : N) (height : option string) (i : image C) : image C :=
  match i with
  | NoImage => NoImage
  | Img f w h cs c =>
      match o_normal O options height f w h c with
      | None => NoImage
      | Some c' => Img I_RGBF w h cs c'
      end
  end.

(** The formats adjustImageValueRange remaps, Texture.cpp 969-977. *)
Definition remapped_format (f : imgfmt) : bool :=
  match f with
  | I_Gray8 | I_Gray16 | I_RGB5 | I_RGB565 | I_RGB8 | I_RGB16 | I_RGBA8 | I_RGBA16 => true
  | _ => false
  end.

(** The format an image is converted to before it is remapped, Texture.cpp 979-1013; [None]: the
    image is left alone. *)
Definition float_format (f : imgfmt) : option imgfmt :=
  match f with
  | I_Gray8 | I_Gray16 | I_Double | I_Float => Some I_Float
  | I_RGB5 | I_RGB565 | I_RGB8 | I_RGB16 | I_Complex | I_RGBF => Some I_RGBF
  | I_RGBA8 | I_RGBA16 | I_RGBAF => Some I_RGBAF
  | _ => None
  end.

(** Texture::adjustImageValueRange, Texture.cpp 958-1084; an invalid image is left alone. *)
Definition iadjust (ty : ttype) (orig : imgfmt) (i : image C) : image C :=
  match i with
  | NoImage => NoImage
  | Img f _ _ _ _ =>
      match ty with
      | T_SNorm | T_UInt | T_Int =>
          if remapped_format orig then
            match float_format f with
            | None => i
            | Some f' => in_place (fun _ => o_range O ty orig) (iconvert (o_lib O) i f')
            end
          else i
      | _ => i
      end
  end.

(** unset, main.cpp 39. *)
Definition unset : N := 4294967295.

(** isSigned, main.cpp 63-79. *)
Definition isSigned (ty : ttype) : bool :=
  match ty with T_UNorm | T_UInt | T_UFloat => false | _ => true end.

Definition cs_eqb (a b : colorspace) : bool :=
  match a, b with CS_Linear, CS_Linear | CS_sRGB, CS_sRGB => true | _, _ => false end.

(** loadAndProcessImage, main.cpp 147-277.  [wh] are the width and height references.  The
    answer is the image and the new values of the references; [Some None] is "return false".
    Shifting a 32-bit number by 32 or more is undefined. *)
Definition loadAndProcessImage (a : cl) (path : string) (wh : N * N) (mipLevel : N)
  : option (option (image C * (N * N))) :=
  let L := o_lib O in
  match o_load O path with
  | None => Some None                                                   (* 152-156 *)
  | Some (f, w, h, c) =>
      let image := Img f w h (c_imageCS a) c in
      let '(width, height) :=                                           (* 158-162 *)
        if (fst wh =? unset) && (snd wh =? unset)
        then (getDimension w w h (c_width a), getDimension h w h (c_height a))
        else wh in
      let image := if imgfmt_eqb f I_RGBAF then image else iconvert L image I_RGBAF in (* 164-170 *)
      let image := if cs_eqb (c_textureCS a) (c_imageCS a) then image   (* 172-180 *)
                   else ichange L image (c_textureCS a) in
      if 32 <=? mipLevel then None
      else
      let thisWidth := N.max (N.shiftr width mipLevel) 1 in             (* 184-191 *)
      let thisHeight := N.max (N.shiftr height mipLevel) 1 in
      let normalWidth := if c_normalMap a then width else thisWidth in
      let normalHeight := if c_normalMap a then height else thisHeight in
      let image := if negb (normalWidth =? iwidth image) || negb (normalHeight =? iheight image)
                   then iresize L image normalWidth normalHeight (c_resizeFilter a) (* 192-200 *)
                   else image in
      let image := if c_rotate a then irotate (c_rotateAngle a) image else image in (* 202-207 *)
      let image := if c_grayscale a then in_place (o_gray O) image else image in    (* 209-217 *)
      let '(image, orig) :=                                             (* 219-237 *)
        if c_normalMap a then
          let options := if isSigned (c_ttyp a) then N.lor (c_normalOptions a) 1
                         else c_normalOptions a in
          let image := inormal options (c_normalHeight a) image in
          let image := if negb (normalWidth =? thisWidth) || negb (normalHeight =? thisHeight)
                       then iresize L image thisWidth thisHeight (c_resizeFilter a) else image in
          (image, match image with NoImage => f | Img f' _ _ _ _ => f' end)
        else (image, f) in
      let image := if c_flipX a then in_place (fun _ => o_flipx O) image else image in (* 239-247 *)
      let image := if c_flipY a then in_place (fun _ => o_flipy O) image else image in (* 249-257 *)
      let image := if c_swizzle a                                       (* 259-264 *)
                   then in_place (fun _ => o_swizzle O (c_redSwzl a) (c_greenSwzl a)
                                             (c_blueSwzl a) (c_alphaSwzl a)) image
                   else image in
      let image := if c_preMultiply a then in_place (o_premul O) image else image in (* 266-274 *)
      Some (Some (iadjust (c_ttyp a) orig image, (width, height)))      (* 276-277 *)
  end.

(** The first loop of loadImages, main.cpp 284-288. *)
Fixpoint load_inputs (a : cl) (paths : list string) (wh : N * N)
  : option (option (list (image C) * (N * N))) :=
  match paths with
  | [] => Some (Some ([], wh))
  | p :: r =>
      obind (loadAndProcessImage a p wh 0) (fun x =>
      match x with
      | None => Some None
      | Some (i, wh') =>
          obind (load_inputs a r wh') (fun y =>
          match y with
          | None => Some None
          | Some (is, wh'') => Some (Some (i :: is, wh''))
          end)
      end)
  end.

(** The second loop of loadImages, main.cpp 293-319, over the custom mips in the order in which
    the unordered_map visits them. *)
Fixpoint load_mips (a : cl) (mipLevels : N) (l : list (index * (string * replacement)))
  (wh : N * N) : option (option (customs C)) :=
  match l with
  | [] => Some (Some [])
  | (k, (path, rp)) :: r =>
      if mipLevels <=? x_level k then Some None
      else if negb (x_face k =? 0) && negb (match c_dim a with Cube => true | _ => false end)
      then Some None
      else
        obind (loadAndProcessImage a path wh (x_level k)) (fun x =>
        match x with
        | None => Some None
        | Some (i, wh') =>
            obind (load_mips a mipLevels r wh') (fun y =>
            match y with
            | None => Some None
            | Some cm => Some (Some (((x_face k, x_level k, x_depth k), (i, rp)) :: cm))
            end)
        end)
  end.

Variable visit : list (index * (string * replacement)) -> list (index * (string * replacement)).

(** loadImages, main.cpp 279-325. *)
Definition loadImages (a : cl) : option (option (list (image C) * customs C)) :=
  obind (load_inputs a (c_images a) (unset, unset)) (fun x =>
  match x with
  | None => Some None
  | Some (images, wh) =>
      let mipLevels := N.min (c_mipLevels a)
        (maxMipmapLevels (c_dim a) (fst wh) (snd wh) (to_uint (N.of_nat (length images)))) in
      obind (load_mips a mipLevels (visit (c_customMips a)) wh) (fun y =>
      match y with
      | None => Some None
      | Some cm => Some (Some (images, cm))
      end)
  end).

(** The loops that fill the texture, main.cpp 344-370; their answers are ignored. *)
Fixpoint fill (kind : imagetype) (t : texture C) (i : N) (images : list (image C))
  : option (texture C) :=
  match images with
  | [] => Some t
  | im :: r =>
      obind (match kind with
             | IT_Image | IT_Array => setImage (o_lib O) t im 0 i
             | IT_Cube => setImageF (o_lib O) t im i 0 0
             | IT_CubeArray => setImageF (o_lib O) t im (i mod 6) 0 (i / 6)
             end) (fun bt => fill kind (snd bt) (i + 1) r)
  end.

(** Texture::Quality, Texture.h, as a number. *)
Definition quality_number (q : qualitylevel) : N :=
  match q with Q_Lowest => 0 | Q_Low => 1 | Q_Normal => 2 | Q_High => 3 | Q_Highest => 4 end.

(** The arguments of Texture::convert, main.cpp 382-383. *)
Definition convert_args (a : cl) : convargs :=
  ConvArgs (c_fmt a) (c_ttyp a) (c_alph a)
           (Mask (c_maskR a) (c_maskG a) (c_maskB a) (c_maskA a))
           (quality_number (c_quality a)) (c_jobs a).

(** The texture built from the images, main.cpp 327-378. *)
Definition build (a : cl) (images : list (image C)) (cm : customs C) : option (texture C) :=
  match images with
  | [] => None                                                          (* images[0] *)
  | i0 :: _ =>
      let n := N.of_nat (length images) in
      let depth := match c_imageType a with
                   | IT_Array => to_uint n
                   | IT_CubeArray => to_uint (n / 6)
                   | _ => 0
                   end in
      let t := snd (initialize (c_dim a) (iwidth i0) (iheight i0) depth 1 (c_textureCS a)) in
      obind (fill (c_imageType a) t 0
               (match c_imageType a with IT_Image => [i0] | _ => images end)) (fun t =>
      if 1 <? c_mipLevels a
      then obind (generateMipmaps (o_lib O) t (c_mipFilter a) (c_mipLevels a) cm)
             (fun bt => Some (snd bt))
      else Some t)
  end.

(** What the tool does to the file system: calls of Texture::save with the texture, the answer
    and the new content of the output file ([None]: not touched), and calls of mkdir. *)
Inductive tevent :=
| TvSave (t : texture C) (r : saveresult) (content : option (list N))
| TvMkdir (path : list N).

(** The system: the buffer of a file stream; for the n-th attempt to open the output file, the
    space there is for it or [None]; the answers of mkdir. *)
Record sys := Sys {
  y_bufsize : N;
  y_room : nat -> option N;
  y_mkdir : N -> list N -> mkres
}.

Variable fl : flags.
Variable encode : converter -> convargs -> image C -> list N.
Variable Y : sys.
Variable fuel : nat.

(** saveTexture, main.cpp 327-423. *)
Definition save_texture (a : cl) (images : list (image C)) (cm : customs C)
  : option (bool * list tevent) :=
  obind (build a images cm) (fun t =>
  let '(ok, t) := convert fl encode t (convert_args a) in
  if negb ok then Some (false, [])
  else
    let out := match c_output a with None => None | Some o => Some (codes o) end in
    obind (saveFile (y_bufsize Y) (y_room Y 0) t out (c_ftype a)) (fun rc =>
    let ev := TvSave t (fst rc) (snd rc) in
    match fst rc with
    | SR_Success => Some (true, [ev])
    | SR_WriteError =>
        if c_createOutputDir a then
          obind (createParentDir fuel (y_mkdir Y) (match out with Some o => o | None => [] end))
            (fun d =>
          let evs := ev :: map TvMkdir (snd d) in
          if negb (fst d) then Some (false, evs)
          else
            obind (saveFile (y_bufsize Y) (y_room Y 1) t out (c_ftype a)) (fun rc' =>
            Some (match fst rc' with SR_Success => true | _ => false end,
                  evs ++ [TvSave t (fst rc') (snd rc')])))
        else Some (false, [ev])
    | _ => Some (false, [ev])
    end)).

(** main, main.cpp 427-442, after the command line has been parsed to [a]: the exit status and
    the events. *)
Definition run_tool (a : cl) : option (N * list tevent) :=
  obind (loadImages a) (fun x =>
  match x with
  | None => Some (2, [])
  | Some (images, cm) =>
      obind (save_texture a images cm) (fun r => Some ((if fst r then 0 else 3), snd r))
  end).

End Pipeline.
Arguments ops : clear implicits.
Arguments tevent : clear implicits.

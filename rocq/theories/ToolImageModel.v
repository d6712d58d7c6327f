(** The image operations of the command line tool on real pixels: the oracle record [ops] of
    PipelineModel.v filled in with the models of Image.cpp and Texture.cpp (ImageModel.v,
    ImageConvertModel.v, ResizeModel.v, NormalModel.v, AdjustModel.v).  What is left open is
    FreeImage itself.  The contents of an image are its bitmap. *)

From Coq Require Import ZArith NArith List Bool String.
From Verif Require Import Base FormatModel FloatModel ArithModel PixelModel TextureModel ImageModel.
From Verif Require ImageConvertModel ResizeModel NormalModel AdjustModel CommandLineModel.
From Verif Require Import PipelineModel.
Import ListNotations.
Local Open Scope N_scope.

Section ToolImage.
Context (pw : double -> double -> double).
Local Notation D := (double_arith pw).
Local Notation contents := (N -> N -> pix D).

(** The FreeImage functions the tool reaches.
    - [fi_load]: FreeImage_Load with Impl::create, Image.cpp 711-741 and 870-880;
    - [fi_conv]: the FreeImage_ConvertTo functions, Image.cpp 1157-1266;
    - [fi_rescale]: FreeImage_Rescale, Image.cpp 1367-1391;
    - [fi_rotate]: FreeImage_Rotate, Image.cpp 1536, by degrees counter-clockwise;
    - [fi_fliph], [fi_flipv]: FreeImage_FlipHorizontal and FlipVertical, Image.cpp 1610 and 1618;
    - [fi_alloc]: FreeImage_AllocateT, Image.cpp 960-973.
    [fi_number] is std::stod of the text of a number, CommandLine.cpp. *)
Record freeimage := FreeImage {
  fi_load : string -> option (imgfmt * N * N * contents);
  fi_conv : ImageConvertModel.fi_convert D;
  fi_rescale : ResizeModel.rescaler D;
  fi_rotate : bitmap D -> N -> option (N * N * contents);
  fi_fliph : bitmap D -> contents;
  fi_flipv : bitmap D -> contents;
  fi_alloc : allocator D;
  fi_number : string -> double
}.
Variable F : freeimage.

(** The two declarations of the enums in the models. *)
Definition to_angle (a : CommandLineModel.angle) : angle :=
  match a with
  | CommandLineModel.CW90 => CW90 | CommandLineModel.CW180 => CW180 | CommandLineModel.CW270 => CW270
  | CommandLineModel.CCW90 => CCW90 | CommandLineModel.CCW180 => CCW180 | CommandLineModel.CCW270 => CCW270
  end.
Definition to_channel (c : CommandLineModel.channel) : channel :=
  match c with
  | CommandLineModel.Ch_Red => Ch_Red | CommandLineModel.Ch_Green => Ch_Green
  | CommandLineModel.Ch_Blue => Ch_Blue | CommandLineModel.Ch_Alpha => Ch_Alpha
  | CommandLineModel.Ch_None => Ch_None
  end.

(** Image::NormalOptions, lib/include/cuttlefish/Image.h:116-122, by number. *)
Definition normal_flags (o : N) : NormalModel.normal_options :=
  NormalModel.NormalOptions (N.testbit o 0) (N.testbit o 1) (N.testbit o 2).

(** The bitmap an operation leaves.  Simplification: the record has no place for undefined
    behaviour, so an operation whose model is undefined is taken to leave the bitmap [b]; the
    theorems show the operations they are about to be defined. *)
Definition made (b : bitmap D) (r : option (image D)) : option (bitmap D) :=
  match r with Some i => i | None => Some b end.
Definition changed (b : bitmap D) (r : option (image D * bool)) : bitmap D :=
  match r with Some (Some b', _) => b' | _ => b end.

(** What Texture.cpp and the tool use of Image: Image::resize in linear space (Image.cpp
    1345-1510), convert (1130-1322, to gray by default, Image.h), changeColorSpace (1667-1712), and
    generateMips3d (Texture.cpp 103-227). *)
Definition image_lib : lib (bitmap D) := Lib
  (fun f w h b w' h' rf =>
     match fi_rescale F b w' h' rf with
     | Some (w', h', px) => Some (Bitmap (b_fmt b) w' h' (b_cs b) px)
     | None => None
     end)
  (fun f w h b w' h' rf => made b (ResizeModel.resizeFallback (fi_alloc F) b w' h' rf))
  (fun f w h b dst => made b (ImageConvertModel.convert (fi_conv F) (fi_alloc F) (Some b) dst true))
  (fun f w h b => changed b (changeColorSpace (Some b) CS_Linear))
  (fun f w h b => changed b (changeColorSpace (Some b) CS_sRGB))
  (fun w h n cs rf bs =>
     match ResizeModel.mips3d (fi_alloc F) bs w h n cs rf with
     | Some l => Some l
     | None => Some (map (fun _ => Bitmap I_RGBAF w h cs (fun _ _ => PF [])) (Nrange n))
     end).

(** The operations of the tool; [cs] is the colour space images are loaded with
    (tool/main.cpp:152).  Flipping works in place on the FreeImage bitmap, Image.cpp 1605-1619. *)
Definition image_ops (cs : colorspace) : ops (bitmap D) := Ops
  image_lib
  (fun p => match fi_load F p with
            | Some (f, w, h, px) => Some (f, w, h, Bitmap f w h cs px)
            | None => None
            end)
  (fun a f w h b => made b (rotate (fi_rotate F b) (fi_alloc F) (Some b) (to_angle a)))
  (fun cs f w h b => changed b (grayscale (Some b)))
  (fun o ht f w h b =>
     made b (NormalModel.createNormalMap (fi_alloc F) (Some b) (normal_flags o)
       (match ht with Some s => fi_number F s | None => double_of_Z 1 end) I_RGBF))
  (fun f w h b => Bitmap (b_fmt b) (b_w b) (b_h b) (b_cs b) (fi_fliph F b))
  (fun f w h b => Bitmap (b_fmt b) (b_w b) (b_h b) (b_cs b) (fi_flipv F b))
  (fun r g bl a f w h b =>
     changed b (swizzle (Some b) (to_channel r) (to_channel g) (to_channel bl) (to_channel a)))
  (fun cs f w h b => changed b (preMultiplyAlpha (Some b)))
  (fun ty orig f w h b =>
     match AdjustModel.adjustImageValueRange pw None (fi_alloc F) (Some b) ty (Some orig) with
     | Some (Some b') => b'
     | _ => b
     end).

(** The floats of an image as the converters read them, StandardConverter.h:87-103: row by row from the top
    (Image::scanline, Image.cpp 1084-1098).  They are given images of RGBAF only (Texture::setImage,
    Texture.cpp 1261-1313). *)
Definition floats (b : bitmap D) : N -> N -> rgba :=
  fun row col =>
    match b_px b col (scanlineOf (b_h b) row) with
    | PF [r; g; bl; a] => Rgba r g bl a
    | _ => Rgba (float_of_Z 0) (float_of_Z 0) (float_of_Z 0) (float_of_Z 0)
    end.
Definition view (i : TextureModel.image (bitmap D)) : TextureModel.image (N -> N -> rgba) :=
  match i with
  | NoImage => NoImage
  | Img f w h cs b => Img f w h cs (floats b)
  end.

End ToolImage.

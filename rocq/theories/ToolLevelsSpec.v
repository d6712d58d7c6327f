(** What the mip levels of the file should be, for a job of the tool. *)

From Coq Require Import ZArith NArith List Bool Reals String.
From Flocq Require Import Core IEEE754.Binary IEEE754.Bits.
From Verif Require Import Base FormatModel FormatSpec ContainerSpec FloatModel FloatSpec ArithModel TextureModel TextureSpec
  SaveModel SaveSpec SaveRead SaveReadDds SaveReadPvr ImageModel ImageSpec ImageConvertSpec.
From Verif Require Import PixelModel PixelSpec CompressSpec CommandLineModel PipelineModel PipelineSpec ToolImageModel
  ToolImageSpec.
Import ListNotations.
Local Open Scope R_scope.

(** ** The file *)

(** The bytes a reader of the format [ft] finds for level [m] of a face of a layer (of a slice, if
    the texture is a volume). *)
Definition surface (psize : format -> N -> N -> N) (ft : filetype) (dim : dimension) (bytes : list N) (face m d : N) : option (list N) :=
  let element := match dim with Dim3D => 0%N | _ => d end in
  let slice := match dim with Dim3D => d | _ => 0%N end in
  match ft with
  | FT_DDS => match read_dds bytes with
              | Some (p, []) => nth4 (dd_surfaces p) element face m slice
              | _ => None
              end
  | FT_KTX => match read_ktx bytes with
              | Some (p, []) => nth4 (kx_surfaces p) m element face slice
              | _ => None
              end
  | FT_PVR => match read_pvr psize bytes with
              | Some (p, []) => nth4 (pv_surfaces p) m element face slice
              | _ => None
              end
  | FT_Auto => None
  end.

(** The conditions of C26 for KTX: a 1D texture has one row, and the size of a level fits the 32-bit
    field that announces it. *)
Definition ktx_fits {C} (psize : format -> N -> N -> N) (a : cl) (evs : list (tevent C)) : Prop :=
  (forall f w h, psize f w h mod 4 = 0)%N /\
  forall t r x, In (TvSave t r x) evs ->
    (c_dim a = Dim1D -> TextureModel.height t 0 = 1%N) /\
    forall m, (m < mipLevelCount t)%N -> (ktx_level_bytes psize t m < 2 ^ 32)%N.

(** ** Averages *)

Section Levels.
Context (pw : double -> double -> double).
Local Notation D := (double_arith pw).

(** A channel of a pixel of floats. *)
Definition float_of (c : chan) (p : pix D) : option float :=
  match c, p with
  | ChR, PF [r; _; _; _] => Some r
  | ChG, PF [_; g; _; _] => Some g
  | ChB, PF [_; _; b; _] => Some b
  | ChA, PF [_; _; _; a] => Some a
  | _, _ => None
  end.

(** It is a finite number from [lo] to [hi]. *)
Definition lies (lo hi : R) (c : chan) (p : pix D) : Prop :=
  exists v, float_of c p = Some v /\ finite v = true /\ lo <= real v <= hi.

(** FreeImage_Rescale with a filter that has no negative weights: the size is the one asked for, and
    every pixel is an average of pixels of the bitmap, right to 22 bits: if a channel of all the
    pixels lies in a range, so does that channel of the result. *)
Definition averages (F : freeimage pw) (rf : rfilter) : Prop :=
  forall b w h, good pw b -> b_fmt b = I_RGBAF -> (1 <= b_w b)%N -> (1 <= b_h b)%N ->
  (1 <= w < 2 ^ 31)%N -> (1 <= h < 2 ^ 31)%N ->
  exists px, fi_rescale pw F b w h rf = Some (w, h, px) /\ good pw (Bitmap I_RGBAF w h (b_cs b) px) /\
  forall c lo hi K, 1 <= K <= IZR (2 ^ 17) -> - K <= lo -> hi <= K ->
    (forall x y, within pw b x y -> lies lo hi c (at_ pw b x y)) ->
    forall x y, (x < w)%N -> (y < h)%N ->
      lies (lo - K / IZR (2 ^ 22)) (hi + K / IZR (2 ^ 22)) c (px x y).

(** The largest number there is in an image of a type made from inputs of format [f]. *)
Definition magnitude (t : ttype) (f : imgfmt) : R :=
  match channel_bits f, t with
  | Some n, T_UInt | Some n, T_Int => IZR (2 ^ n)
  | _, _ => 2
  end.

(** A level is made by one average, over the pixels of the previous level, or for a volume by two,
    the second over its slices. *)
Definition passes (d : dimension) : Z := match d with Dim3D => 2 | _ => 1 end.

(** What an average may lose, in units of 2^-22: the averages of an sRGB texture are over linear
    colours, and small linear colours are far apart as sRGB numbers. *)
Definition loss (cs : colorspace) (t : ttype) (f : imgfmt) (c : chan) : R :=
  match cs, c with
  | CS_sRGB, ChR | CS_sRGB, ChG | CS_sRGB, ChB => 24
  | _, _ => magnitude t f
  end.

(** What is lost in [m] levels, each made by [n] averages, if [e] is lost in the processing of the
    picture before them. *)
Definition level_error (e : R) (n : Z) (cs : colorspace) (t : ttype) (f : imgfmt) (c : chan) (m : N) : R :=
  (e + IZR n * IZR (Z.of_N m) * loss cs t f c) / IZR (2 ^ 22).

(** What the processing loses: more if it computes with the colours of an sRGB texture, and more if
    the picture is resized first. *)
Definition first_error (a : cl) : R := if coarse a then 1420 else 13.
Definition resized_error (a : cl) : R :=
  if coarse a then if c_grayscale a && c_preMultiply a then 35000 else 1110 else 25.

(** The numbers of channel [c] of the pixels of a picture, after the processing, lie in a range. *)
Definition spans (a : cl) (s : bitmap D) (c : chan) (lo hi : R) : Prop :=
  (forall x y, within pw s x y ->
     lo <= number_for (c_ttyp a) (b_fmt s) (of_channel c (processed a (meaning pw (b_fmt s) (at_ pw s x y)))) <= hi) /\
  (c_ttyp a = T_UInt \/ c_ttyp a = T_Int -> exists i j, lo = IZR i /\ hi = IZR j).

(** The same for a picture that is resized: there are pixels that are not in the picture, but in a box
    that has them all. *)
Definition boxed (blo bhi : chan -> R) (k : ImageConvertSpec.rgba) : Prop :=
  forall d, d = ChR \/ d = ChG \/ d = ChB \/ d = ChA -> 0 <= of_channel d k <= 1 /\ blo d <= of_channel d k <= bhi d.
Definition box_spans (a : cl) (s : bitmap D) (blo bhi : chan -> R) (c : chan) (lo hi : R) : Prop :=
  (forall x y, within pw s x y -> boxed blo bhi (in_space a (meaning pw (b_fmt s) (at_ pw s x y)))) /\
  (forall k, boxed blo bhi k -> lo <= number_for (c_ttyp a) (b_fmt s) (of_channel c (finished a k)) <= hi) /\
  (c_ttyp a = T_UInt \/ c_ttyp a = T_Int -> exists i j, lo = IZR i /\ hi = IZR j).

(** [data] holds [w] x [h] pixels, and every channel stands for a number of its range, but for what
    is lost in the processing and in [m] levels. *)
Definition level_ranged (pk : packers) (a : cl) (first : R) (f : imgfmt) (w h m : N) (lo hi : chan -> R) (data : list N) : Prop :=
  exists l, lsb_layout (c_fmt a) = Some l /\
  let size := (layout_bits l / 8)%N in
  N.of_nat (List.length data) = (w * h * size)%N /\
  forall x y c b, (x < w)%N -> (y < h)%N -> In (c, b) l ->
    let e := level_error first (passes (c_dim a)) (c_textureCS a) (c_ttyp a) f c m in
    exists r v, PixelSpec.field l c (le_val (bytes_at data ((y * w + x) * size) size)) = Some r /\
      lo c - e <= v <= hi c + e /\
      kept pk (c_ttyp a) b v r.

End Levels.

(** What the converters of compressed formats hand to the third-party encoders: the pixels of a
    block and the settings.  The encoders themselves are not modelled: a call is the constructor
    of [ecall] with its arguments.  Clamped gathering of a block is [clamp_block] and [etc_block]
    of ConverterModel.v.  [None] is undefined behaviour. *)

From Coq Require Import NArith ZArith List Bool.
From Flocq Require Import IEEE754.BinarySingleNaN IEEE754.Binary IEEE754.Bits.
From Verif Require Import Base FormatModel FloatModel ConverterModel PixelModel TextureModel AdjustModel.
From Verif Require CommandLineModel.
Import ListNotations.
Local Open Scope Z_scope.

(** [enum class Texture::Quality], lib/include/cuttlefish/Texture.h:181-188. *)
Notation quality := CommandLineModel.qualitylevel.
Definition quality_value (q : quality) : N :=
  match q with
  | CommandLineModel.Q_Lowest => 0 | CommandLineModel.Q_Low => 1 | CommandLineModel.Q_Normal => 2
  | CommandLineModel.Q_High => 3 | CommandLineModel.Q_Highest => 4
  end%N.

(** [x/y] on [float]. *)
Definition fdiv (x y : float) : float := b32_div mode_NE x y.
(** A literal such as [0.2126f]: the float nearest to [n/d]. *)
Definition flit (n d : Z) : float := fdiv (float_of_Z n) (float_of_Z d).

(** The build and the constants of the third-party headers: whether CUTTLEFISH_ISPC is set,
    rgbcx::MIN_LEVEL and MAX_LEVEL, ETCCOMP_MIN_EFFORT_LEVEL, ETCCOMP_DEFAULT_EFFORT_LEVEL and
    ETCCOMP_MAX_EFFORT_LEVEL (whole numbers). *)
Record build := Build {
  bd_ispc : bool; bd_minLevel : N; bd_maxLevel : N;
  bd_minEffort : Z; bd_defEffort : Z; bd_maxEffort : Z }.

(** What a converter reads from the texture and the image. *)
Record settings := Settings {
  s_quality : quality; s_alpha : alpha; s_mask : colormask;
  s_texCS : colorspace; s_imgCS : colorspace }.

(** ** Calls *)

Inductive squish_fit := FitRange | FitCluster | FitIterative.
(** bc7enc_compress_block_params; [b7_partitions] is [None] for BC7ENC_MAX_PARTITIONS. *)
Record bc7params := Bc7Params {
  b7_partitions : option N; b7_uber : N; b7_leastSquares : bool; b7_filterbank : bool;
  b7_perceptual : bool; b7_zeroed : list bool }.
Inductive etc_format := EtcETC1 | EtcRGB8 | EtcRGB8A1 | EtcRGBA8 | EtcR11 | EtcSR11 | EtcRG11 | EtcSRG11.
Inductive etc_metric := MetricRGBX | MetricRGBA | MetricREC709 | MetricNumeric.
Inductive astc_profile := ProfileLDR | ProfileHDR_RGB_LDR_A | ProfileHDR.
Inductive swz := SwzR | SwzG | SwzB | SwzA | Swz0 | Swz1.
Inductive astc_preset := PresetFastest | PresetFast | PresetMedium | PresetThorough | PresetExhaustive.

(** Pixels are lists of bytes, one list per pixel; the presets of ISPC are the quality. *)
Inductive ecall :=
| E_Bc1 (level : N) (pixels : list (list Z)) (allow3 black3 : bool)   (* rgbcx::encode_bc1 *)
| E_Squish (fit : squish_fit) (weights : list float) (pixels : list (list Z)) (* squish::Compress *)
| E_Bc3 (level : N) (pixels : list (list Z))
| E_Bc3hq (level radius : N) (pixels : list (list Z))
| E_Bc4 (values : list Z)
| E_Bc4hq (radius : N) (values : list Z)
| E_Bc4s (qual : float) (values : list Z)                             (* CompressBlockBC4S *)
| E_Bc5 (values : list (list Z))
| E_Bc5hq (radius : N) (values : list (list Z))
| E_Bc5s (qual : float) (reds greens : list Z)                        (* CompressBlockBC5S *)
| E_Bc6ispc (preset : quality) (halves : list (list N))
| E_Bc6 (qual : float) (sgn : bool) (halves : list (list N))          (* CompressBlockBC6 *)
| E_Bc7ispc (preset : quality) (perceptual : bool) (pixels : list (list Z))
| E_Bc7 (params : bc7params) (pixels : list (list Z))
| E_Etc (f : etc_format) (m : etc_metric) (effort : float) (w h : N) (pixels : list rgba)
| E_Astc (p : astc_profile) (bx by_ : N) (preset : astc_preset) (alphaWeight perceptual : bool)
    (swizzle : list swz) (pixels : list rgba)
| E_Pvrtc (f : format) (q : quality) (preMultiplied : bool) (threads : N) (w h : N)
    (pixels : list (list Z)).

(** The block: bytes written by the converter itself, then the encoder's. *)
Record request := Request { r_own : list Z; r_call : ecall }.

(** ** S3TC *)

(** getRgbcxQualityLevel, lib/src/S3tcConverter.cpp:66-71. *)
Definition rgbcxLevel (bd : build) (q : quality) : N :=
  u32 (bd_minLevel bd + u32 (u32 (bd_maxLevel bd - bd_minLevel bd) * quality_value q) / 4).

(** getCompressonatorQualityLevel, S3tcConverter.cpp:73-78. *)
Definition compQuality (q : quality) : float := fdiv (float_of_Z (Z.of_N (quality_value q))) (float_of_Z 4).

(** getSearchRadius, S3tcConverter.cpp:80-95. *)
Definition searchRadius (q : quality) : N :=
  match q with
  | CommandLineModel.Q_Lowest | CommandLineModel.Q_Low => 3
  | CommandLineModel.Q_Normal => 5
  | CommandLineModel.Q_High => 16
  | CommandLineModel.Q_Highest => 32
  end%N.
Definition lowQuality (q : quality) : bool := (quality_value q <=? 1)%N.

(** toColorBlock, S3tcConverter.cpp:97-111. *)
Definition toColorBlock (px : list rgba) : option (list (list Z)) :=
  omap (fun p => omap (unorm 8 255) [pr p; pg p; pb p; pa p]) px.

(** packBc2Alpha, S3tcConverter.cpp:131-144. *)
Definition alphaScale : float := fdiv (float_of_Z 15) (float_of_Z 255).
Definition bc2Alpha (a : Z) : option Z := cast_int 0 255 (roundZ (fmul (float_of_Z a) alphaScale)).
Definition alphaAt (block : list (list Z)) (i : nat) : option Z :=
  obind (nth_error block i) (fun p => nth_error p 3).
Definition packBc2Alpha (block : list (list Z)) : option (list Z) :=
  omap (fun i =>
    obind (alphaAt block (i * 2)) (fun a0 =>
    obind (alphaAt block (i * 2 + 1)) (fun a1 =>
    obind (bc2Alpha a0) (fun c0 =>
    obind (bc2Alpha a1) (fun c1 =>
    Some (Z.lor c0 (Z.shiftl c1 4) mod 256)))))) (seq 0 8).

(** The weights of Bc1AConverter::compressBlock, S3tcConverter.cpp:296-326. *)
Definition bc1aWeights (st : settings) : list float :=
  let w (on : bool) srgb :=
    if on then match s_imgCS st with CS_sRGB => srgb | CS_Linear => float_of_Z 1 end
    else float_of_Z 0 in
  [w (m_r (s_mask st)) (flit 2126 10000); w (m_g (s_mask st)) (flit 7152 10000);
   w (m_b (s_mask st)) (flit 722 10000)].
(** The flags, S3tcConverter.cpp:273-281: cluster fit unless another is asked for. *)
Definition squishFit (q : quality) : squish_fit :=
  if lowQuality q then FitRange
  else match q with CommandLineModel.Q_Highest => FitIterative | _ => FitCluster end.

(** createBc7BlockParams, S3tcConverter.cpp:170-227. *)
Definition bc7Params (st : settings) : bc7params :=
  let '(p, u, l, f, per) :=
    match s_quality st with
    | CommandLineModel.Q_Lowest => (Some 0%N, 0%N, false, true, false)
    | CommandLineModel.Q_Low => (Some 16%N, 0%N, true, true, false)
    | CommandLineModel.Q_Normal => (None, 1%N, true, false, cs_is_srgb (s_imgCS st))
    | CommandLineModel.Q_High | CommandLineModel.Q_Highest => (None, 4%N, true, false, cs_is_srgb (s_imgCS st))
    end in
  let m := s_mask st in
  Bc7Params p u l f per [negb (m_r m); negb (m_g m); negb (m_b m); negb (m_a m)].

Section Compress.
Variables (pk : packers) (bd : build) (st : settings).
Let q := s_quality st.

(** The half floats of Bc6HConverter::compressBlock, S3tcConverter.cpp:546-591. *)
Definition halves (n : N) (px : list rgba) : list (list N) :=
  map (fun p => map (pack_half pk) (channels n p)) px.

(** [static_cast<std::int8_t>(..)] stored in a [std::uint8_t]. *)
Definition sbyte (v : float) : option Z := obind (snorm 8 v) (fun z => Some (z mod 256)).

(** compressBlock of each converter, S3tcConverter.cpp:263-647; [px] are the 16 pixels. *)
Definition s3tcRequest (c : converter) (px : list rgba) : option request :=
  match c with
  | CvBc1 =>
      obind (toColorBlock px) (fun b => Some (Request [] (E_Bc1 (rgbcxLevel bd q) b true true)))
  | CvBc1A =>
      let hasAlpha := existsb (fun p => fltb (pa p) (flit 1 2)) px in
      obind (toColorBlock px) (fun b =>
      Some (Request [] (if hasAlpha then E_Squish (squishFit q) (bc1aWeights st) b
                        else E_Bc1 (rgbcxLevel bd q) b true false)))
  | CvBc2 =>
      obind (toColorBlock px) (fun b =>
      obind (packBc2Alpha b) (fun a =>
      Some (Request a (E_Bc1 (rgbcxLevel bd q) b false false))))
  | CvBc3 =>
      obind (toColorBlock px) (fun b =>
      Some (Request [] (if lowQuality q then E_Bc3 (rgbcxLevel bd q) b
                        else E_Bc3hq (rgbcxLevel bd q) (searchRadius q) b)))
  | CvBc4 true =>
      obind (omap (fun p => sbyte (pr p)) px) (fun v => Some (Request [] (E_Bc4s (compQuality q) v)))
  | CvBc4 false =>
      obind (omap (fun p => unorm 8 255 (pr p)) px) (fun v =>
      Some (Request [] (if lowQuality q then E_Bc4 v else E_Bc4hq (searchRadius q) v)))
  | CvBc5 true =>
      obind (omap (fun p => sbyte (pr p)) px) (fun r =>
      obind (omap (fun p => sbyte (pg p)) px) (fun g =>
      Some (Request [] (E_Bc5s (compQuality q) r g))))
  | CvBc5 false =>
      obind (omap (fun p => omap (unorm 8 255) [pr p; pg p]) px) (fun v =>
      Some (Request [] (if lowQuality q then E_Bc5 v else E_Bc5hq (searchRadius q) v)))
  | CvBc6H sgn =>
      Some (Request [] (if bd_ispc bd && negb sgn then E_Bc6ispc q (halves 4 px)
                        else E_Bc6 (compQuality q) sgn (halves 3 px)))
  | CvBc7 =>
      obind (toColorBlock px) (fun b =>
      Some (Request [] (if bd_ispc bd then E_Bc7ispc q (cs_is_srgb (s_imgCS st)) b
                        else E_Bc7 (bc7Params st) b)))
  | _ => None
  end.

(** ** ETC *)

(** The effort, lib/src/EtcConverter.cpp:34-54. *)
Definition etcEffort : float :=
  let lo := float_of_Z (bd_minEffort bd) in
  let def := float_of_Z (bd_defEffort bd) in
  let hi := float_of_Z (bd_maxEffort bd) in
  match q with
  | CommandLineModel.Q_Lowest => lo
  | CommandLineModel.Q_Low => fdiv (fadd lo def) (float_of_Z 2)
  | CommandLineModel.Q_Normal => def
  | CommandLineModel.Q_High => fdiv (fadd def hi) (float_of_Z 2)
  | CommandLineModel.Q_Highest => hi
  end.

(** Format and metric, EtcConverter.cpp:56-114.  [None]: the members stay uninitialised. *)
Definition etcKind (f : format) (t : ttype) : option (etc_format * etc_metric) :=
  let m (lin : etc_metric) := match s_texCS st with CS_Linear => lin | CS_sRGB => MetricREC709 end in
  match f with
  | F_ETC1 => Some (EtcETC1, m MetricRGBX)
  | F_ETC2_R8G8B8 => Some (EtcRGB8, m MetricRGBX)
  | F_ETC2_R8G8B8A1 => Some (EtcRGB8A1, m MetricRGBA)
  | F_ETC2_R8G8B8A8 => Some (EtcRGBA8, m MetricRGBA)
  | F_EAC_R11 => Some (match t with T_UNorm => EtcR11 | _ => EtcSR11 end, MetricNumeric)
  | F_EAC_R11G11 => Some (match t with T_UNorm => EtcRG11 | _ => EtcSRG11 end, MetricNumeric)
  | _ => None
  end.

(** The remapping of signed formats, EtcConverter.cpp:132-143, over the whole array; an element
    that was never written is [None], and reading it is undefined. *)
Definition remap (v : float) : float := fadd (fmul v (flit 1 2)) (flit 1 2).
Definition remapPixel (p : rgba) : rgba := Rgba (remap (pr p)) (remap (pg p)) (pb p) (pa p).
Definition array16 (px : list rgba) : list (option rgba) :=
  map Some px ++ repeat None (16 - length px).
Definition remapAll (a : list (option rgba)) : option (list (option rgba)) :=
  omap (fun o => obind o (fun p => Some (Some (remapPixel p)))) a.

(** EtcConverter::process, EtcConverter.cpp:120-152, on the [w] by [h] pixels [px] of the block
    inside the image; the encoder reads the first [w*h] elements of the array. *)
Definition etcRequest (f : format) (t : ttype) (w h : N) (px : list rgba) : option request :=
  obind (etcKind f t) (fun k =>
  obind (match fst k with
         | EtcSR11 | EtcSRG11 => remapAll (array16 px)
         | _ => Some (array16 px)
         end) (fun a =>
  obind (omap (fun o => o) (firstn (N.to_nat (w * h)) a)) (fun p =>
  Some (Request [] (E_Etc (fst k) (snd k) etcEffort w h p))))).

(** ** ASTC *)

(** AstcConverter::AstcConverter, lib/src/AstcConverter.cpp:134-201, and process, 208-230. *)
Definition astcRequest (t : ttype) (bx by_ : N) (px : list rgba) : request :=
  let m := s_mask st in
  let profile :=
    match t with
    | T_UFloat => match s_alpha st with
                  | AlphaNone | AlphaPreMultiplied => ProfileHDR_RGB_LDR_A
                  | _ => ProfileHDR
                  end
    | _ => ProfileLDR
    end in
  let preset :=
    match q with
    | CommandLineModel.Q_Lowest => PresetFastest | CommandLineModel.Q_Low => PresetFast
    | CommandLineModel.Q_Normal => PresetMedium | CommandLineModel.Q_High => PresetThorough
    | CommandLineModel.Q_Highest => PresetExhaustive
    end in
  Request [] (E_Astc profile bx by_ preset
    (match s_alpha st with AlphaStandard | AlphaPreMultiplied => true | _ => false end)
    (cs_is_srgb (s_imgCS st))
    [if m_r m then SwzR else Swz0; if m_g m then SwzG else Swz0; if m_b m then SwzB else Swz0;
     if m_a m then match s_alpha st with AlphaNone => Swz1 | _ => SwzA end else Swz0] px).

(** ** PVRTC *)

(** PvrtcConverter::process, lib/src/PvrtcConverter.cpp:50-129, on all the pixels of the image
    row by row, lines 58-73; larger images, where the byte index wraps, are not modelled. *)
Definition pvrtcPixels (im : surface rgba) : option (list rgba) :=
  if (sf_w im * sf_h im * 4 <=? 2 ^ 32)%N then
    obind (omap (fun y => omap (fun x => sf_px im y x) (Nrange (sf_w im))) (Nrange (sf_h im)))
      (fun rows => Some (concat rows))
  else None.
Definition pvrtcRequest (f : format) (threads : N) (w h : N) (px : list rgba) : option request :=
  obind (toColorBlock px) (fun b =>
  match f with
  | F_PVRTC1_RGB_2BPP | F_PVRTC1_RGBA_2BPP | F_PVRTC1_RGB_4BPP | F_PVRTC1_RGBA_4BPP
  | F_PVRTC2_RGBA_2BPP | F_PVRTC2_RGBA_4BPP =>
      Some (Request [] (E_Pvrtc f q (match s_alpha st with AlphaPreMultiplied => true | _ => false end)
                          threads w h b))
  | _ => None
  end).

(** What the job (x, y) of a converter hands to the encoder: the gathering of each process
    function (see ConverterModel.v), then the above. *)
Definition jobRequest (threads : N) (c : converter) (im : surface rgba) (x y : N) : option request :=
  match c with
  | CvEtc f t =>
      obind (etc_block im x y) (fun px =>
      etcRequest f t (N.min (u32 ((x + 1) * 4)) (sf_w im) - u32 (x * 4))
                     (N.min (u32 ((y + 1) * 4)) (sf_h im) - u32 (y * 4)) px)
  | CvAstc _ t bx by_ =>
      obind (clamp_block im bx by_ x y) (fun px => Some (astcRequest t bx by_ px))
  | CvPvrtc f => obind (pvrtcPixels im) (fun px => pvrtcRequest f threads (sf_w im) (sf_h im) px)
  | _ => obind (clamp_block im 4 4 x y) (fun px => s3tcRequest c px)
  end.

End Compress.

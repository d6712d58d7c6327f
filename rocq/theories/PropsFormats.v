(** C01-C05: the format tables. *)

From Coq Require Import NArith List Bool Lia.
From Verif Require Import Base FormatModel SaveFormats FormatSpec ContainerSpec FormatLayoutSpec
  ConverterModel FormatProofs.
Import ListNotations.
Local Open Scope N_scope.

(** * C01 *)

(** [isFormatValid] answers true exactly when a converter exists, in every build. *)
Theorem C01_valid_iff_convertible : forall fl f t,
  isFormatValid fl f t = true <-> exists c, createConverter fl f t = Some c.
Proof. exact valid_iff_converter. Qed.
Print Assumptions C01_valid_iff_convertible.

(** The converter that is created writes the channels and the value type asked for. *)
Theorem C01_converter_writes_request : forall fl f t c,
  createConverter fl f t = Some c -> converter_for c f t.
Proof. exact created_converter_matches. Qed.
Print Assumptions C01_converter_writes_request.

(** A build flag only switches the formats of its own codec. *)
Theorem C01_build_flags : forall fl f t,
  isFormatValid fl f t = true <->
  isFormatValid (Flags true true true true) f t = true /\ codec_enabled fl f = true.
Proof. intros; rewrite valid_config; apply andb_true_iff. Qed.
Print Assumptions C01_build_flags.

(** Every format whose codec is built is usable with some type. *)
Theorem C01_every_format_usable : forall fl f,
  codec_enabled fl f = true -> exists t, isFormatValid fl f t = true.
Proof. exact codec_valid. Qed.
Print Assumptions C01_every_format_usable.

Example C01_example :
  isFormatValid (Flags true false false false) F_BC6H T_Float = true /\
  isFormatValid (Flags false true true true) F_BC6H T_Float = false /\
  createConverter (Flags true false false false) F_BC6H T_Float = Some (CvBc6H true).
Proof. repeat split. Qed.

(** * C02 *)

(** The public block geometry is that of the format. *)
Theorem C02_block_geometry : forall f,
  (blockWidth f, blockHeight f, blockSize f) = spec_block f.
Proof. exact block_table. Qed.
Print Assumptions C02_block_geometry.

(** Size of the converted data.  Out of scope: PVRTC, where the encoder decides. *)
Theorem C02_converted_size : forall fl f t c w h,
  createConverter fl f t = Some c ->
  is_pvrtc f = false ->
  0 < w -> 0 < h -> w + 16 <= 2^32 -> h + 16 <= 2^32 ->
  w * h < 2^32 ->
  cdiv w (blockWidth f) * cdiv h (blockHeight f) * blockSize f < 2^32 ->
  converter_data_size c w h
  = Some (cdiv w (blockWidth f) * cdiv h (blockHeight f) * blockSize f).
Proof. exact converted_size. Qed.
Print Assumptions C02_converted_size.

(** The bounds matter: past them the allocated buffer is too small. *)
Theorem C02_unbounded_refuted : exists w h,
  0 < w /\ 0 < h /\ w < 2^32 /\ h < 2^32 /\
  createConverter (Flags true true true true) F_R8 T_UNorm = Some (CvUNorm 8 1) /\
  converter_data_size (CvUNorm 8 1) w h <> Some (w * h * blockSize F_R8).
Proof. exists 65536, 65537; repeat split; try lia; vm_compute; discriminate. Qed.
Print Assumptions C02_unbounded_refuted.

Example C02_example :
  createConverter (Flags true true true true) F_ASTC_10x6 T_UNorm
    = Some (CvAstc F_ASTC_10x6 T_UNorm 10 6) /\
  converter_data_size (CvAstc F_ASTC_10x6 T_UNorm 10 6) 101 61 = Some (11 * 11 * 16).
Proof. split; vm_compute; reflexivity. Qed.

(** * C04 *)
Theorem C04_hasAlpha : forall f, f <> F_A4R4G4B4 -> hasAlpha f = stores_alpha f.
Proof. exact hasAlpha_correct. Qed.
Print Assumptions C04_hasAlpha.

Theorem C04_hasAlpha_all_refuted : exists f, hasAlpha f = false /\ stores_alpha f = true.
Proof. exists F_A4R4G4B4; split; reflexivity. Qed.
Print Assumptions C04_hasAlpha_all_refuted.

Example C04_example : hasAlpha F_R5G5B5A1 = true /\ hasAlpha F_BC5 = false.
Proof. split; reflexivity. Qed.

(** * C03, C05 *)

(** DDS: supported exactly when a DXGI code exists, and the code means the request. *)
Theorem C05_dds_code_describes : forall fl f t c,
  isFormatValidFile fl f t FT_DDS = true -> (c = CS_sRGB -> hasNativeSRGB f t = true) ->
  exists d, lookup (getDdsFormat f t c) dxgi_table = Some (d, t, c) /\ describes d f = true
            /\ getDdsFormat f t c <> 0.
Proof.
  intros fl f t c H A; eapply dds_has_code; eauto.
  unfold accepted_cs; destruct c; cbn; auto.
Qed.
Print Assumptions C05_dds_code_describes.

Theorem C05_dds_unsupported_has_no_code : forall fl f t c,
  isFormatValid fl f t = true -> isFormatValidFile fl f t FT_DDS = false ->
  getDdsFormat f t c = 0.
Proof. exact dds_no_code. Qed.
Print Assumptions C05_dds_unsupported_has_no_code.

Theorem C05_dds_identifies : forall fl f t c f' t' c',
  isFormatValidFile fl f t FT_DDS = true -> (c = CS_sRGB -> hasNativeSRGB f t = true) ->
  isFormatValidFile fl f' t' FT_DDS = true -> (c' = CS_sRGB -> hasNativeSRGB f' t' = true) ->
  getDdsFormat f t c = getDdsFormat f' t' c' ->
  (f = f' \/ (In f [F_BC1_RGB; F_BC1_RGBA] /\ In f' [F_BC1_RGB; F_BC1_RGBA])) /\ t = t' /\ c = c'.
Proof.
  intros fl f t c f' t' c' H A H' A'; eapply dds_distinct; eauto; unfold accepted_cs.
  - destruct c; cbn; auto.
  - destruct c'; cbn; auto.
Qed.
Print Assumptions C05_dds_identifies.

(** KTX: supported exactly when header fields exist; the internal format names the channels,
    type and colour space; type and format put the channels where the data has them, except
    for the two formats whose byte order is written reversed; etc. *)
Theorem C05_ktx_fields_describe : forall fl f t c,
  isFormatValidFile fl f t FT_KTX = true -> (c = CS_sRGB -> hasNativeSRGB f t = true) ->
  exists glType glTypeSize glFormat glInternal glBase,
    getFormatInfo f t c = Some (KtxInfo (Some glType) (Some glTypeSize) (Some glFormat)
                                        (Some glInternal) (Some glBase)) /\
    gl_internal_ok f t c glInternal = true /\
    (gl_order_ok f glType glFormat = true <-> ~ In f [F_B8G8R8A8; F_A8B8G8R8]) /\
    (gl_sign_ok f t glType = true <-> ~ (f = F_R8G8 /\ (t = T_SNorm \/ t = T_Int))) /\
    (gl_integer_ok f t glFormat = true <->
       ((t = T_UInt \/ t = T_Int) -> In f [F_R8G8B8A8; F_A2R10G10B10; F_A2B10G10R10])) /\
    glTypeSize = gl_type_size glType.
Proof.
  intros fl f t c H A.
  destruct (ktx_has_info fl f t c H) as (ty & ts & fo & i & b & E & H1 & H2 & H3 & H4 & H5).
  { unfold accepted_cs; destruct c; cbn; auto. }
  exists ty, ts, fo, i, b; repeat (split; [first [exact E | exact H1]|]).
  rewrite H2, H3, H4; clear - H5; split; [|split; [|split]]; [| | |exact H5].
  - destruct f; cbn; split; try discriminate; try reflexivity;
      try (intros N; exfalso; apply N; tauto); intros _ K; repeat (destruct K as [K|K]; try discriminate); exact K.
  - destruct f, t; cbn; split; try discriminate; try reflexivity;
      try (intros N; exfalso; apply N; tauto); intros _ [K [L|L]]; discriminate.
  - unfold ktx_integer_right; destruct t; cbn; split; try reflexivity; try (intros _ [K|K]; discriminate);
      intros K; destruct f; cbn in *; try discriminate; try tauto; try reflexivity;
      exfalso; (destruct K as [K|[K|[K|K]]]; [auto| discriminate | discriminate| discriminate| exact K]).
Qed.
Print Assumptions C05_ktx_fields_describe.

Theorem C05_ktx_order_refuted :
  exists f t c glType glTypeSize glFormat glInternal glBase,
    isFormatValidFile (Flags true true true true) f t FT_KTX = true /\
    getFormatInfo f t c = Some (KtxInfo (Some glType) (Some glTypeSize) (Some glFormat)
                                        (Some glInternal) (Some glBase)) /\
    gl_order_ok f glType glFormat = false.
Proof.
  exists F_B8G8R8A8, T_UNorm, CS_Linear. do 5 eexists. repeat split.
Qed.
Print Assumptions C05_ktx_order_refuted.

Theorem C05_ktx_unsupported_has_no_fields : forall fl f t c,
  isFormatValid fl f t = true -> isFormatValidFile fl f t FT_KTX = false ->
  getFormatInfo f t c = None.
Proof. exact ktx_no_info. Qed.
Print Assumptions C05_ktx_unsupported_has_no_fields.

Theorem C05_ktx_identifies : forall fl f t c f' t' c',
  isFormatValidFile fl f t FT_KTX = true -> (c = CS_sRGB -> hasNativeSRGB f t = true) ->
  isFormatValidFile fl f' t' FT_KTX = true -> (c' = CS_sRGB -> hasNativeSRGB f' t' = true) ->
  getFormatInfo f t c = getFormatInfo f' t' c' ->
  f = f' /\ c = c' /\ (t = t' \/ In f astc_formats).
Proof.
  intros fl f t c f' t' c' H A H' A'; eapply ktx_distinct; eauto; unfold accepted_cs.
  - destruct c; cbn; auto.
  - destruct c'; cbn; auto.
Qed.
Print Assumptions C05_ktx_identifies.

(** PVR: every valid format has a pixel format and channel type that mean the request, and
    the two DXT variants agree with the alpha mode. *)
Theorem C05_pvr_fields_describe : forall fl f t a,
  isFormatValid fl f t = true ->
  exists code, getPixelFormat f a = Some code /\ pvr_format_ok f code = true /\
    (forall b, pvr_premultiplied code = Some b -> b = alpha_is_premultiplied a) /\
    pvr_channel_type_ok t (getChannelType f t) = true.
Proof. exact pvr_has_format. Qed.
Print Assumptions C05_pvr_fields_describe.

Theorem C05_pvr_identifies : forall fl f t c a f' t' c' a',
  isFormatValidFile fl f t FT_PVR = true -> (c = CS_sRGB -> hasNativeSRGB f t = true) ->
  isFormatValidFile fl f' t' FT_PVR = true -> (c' = CS_sRGB -> hasNativeSRGB f' t' = true) ->
  getPixelFormat f a = getPixelFormat f' a' ->
  getChannelType f t = getChannelType f' t' -> c = c' ->
  (f = f' \/ (In f [F_BC1_RGB; F_BC1_RGBA] /\ In f' [F_BC1_RGB; F_BC1_RGBA])) /\ t = t'.
Proof.
  intros fl f t c a f' t' c' a' H A H' A'; eapply pvr_distinct; eauto; unfold accepted_cs.
  - destruct c; cbn; auto.
  - destruct c'; cbn; auto.
Qed.
Print Assumptions C05_pvr_identifies.

Example C05_example :
  isFormatValidFile (Flags true true true true) F_A1R5G5B5 T_UNorm FT_DDS = true /\
  getDdsFormat F_A1R5G5B5 T_UNorm CS_Linear = 86 /\
  isFormatValidFile (Flags true true true true) F_R8G8B8A8 T_UNorm FT_KTX = true /\
  hasNativeSRGB F_R8G8B8A8 T_UNorm = true /\
  getFormatInfo F_R8G8B8A8 T_UNorm CS_sRGB
    = Some (KtxInfo (Some 0x1401) (Some 1) (Some 0x1908) (Some 0x8C43) (Some 0x1908)) /\
  getPixelFormat F_BC2 AlphaPreMultiplied = Some 8.
Proof. repeat split. Qed.

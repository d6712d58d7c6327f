(** One surface through Converter::convert: the converter object, its jobs and its threads, with the
    pixels of the image and the bytes that come out. *)

From Coq Require Import NArith ZArith List Bool.
From Verif Require Import Base FormatModel FloatModel ConverterModel ConverterSpec PixelModel TextureModel
  BlockModel CompressModel.
From Verif Require CommandLineModel.
Import ListNotations.
Local Open Scope N_scope.

(** The contents of an image of format RGBAF, by row and column: Image::scanline,
    lib/src/Image.cpp:1084-1098, as the converters read it. *)
Definition pixels : Type := N -> N -> rgba.

(** What the build is made of: glm's packing functions, the constants of the third-party headers
    and the third-party encoders; and std::thread::hardware_concurrency(). *)
Record world := World { wo_pack : packers; wo_build : build; wo_enc : ecall -> list N; wo_cores : N }.

(** The number of threads, lib/src/Texture.cpp:1550-1551; [allCores] is (unsigned int)-1,
    lib/include/cuttlefish/Texture.h:410. *)
Definition thread_count (W : world) (a : convargs) : N :=
  if ca_threads a =? 2 ^ 32 - 1 then wo_cores W else ca_threads a.

(** [enum class Texture::Quality], lib/include/cuttlefish/Texture.h:181-188, by number. *)
Definition quality_of (n : N) : quality :=
  match n with
  | 0 => CommandLineModel.Q_Lowest | 1 => CommandLineModel.Q_Low | 2 => CommandLineModel.Q_Normal
  | 3 => CommandLineModel.Q_High | _ => CommandLineModel.Q_Highest
  end.

(** What the constructors of the converters read: Texture::convert has stored the alpha type and
    the mask in the texture, lib/src/Texture.cpp:1545-1548, and passes the quality on. *)
Definition surface_settings (texCS : colorspace) (a : convargs) (imgCS : colorspace) : settings :=
  Settings (quality_of (ca_quality a)) (ca_alpha a) (ca_mask a) texCS imgCS.

(** Converter::process of the converter [c]: StandardConverter.h and .cpp (PixelModel.v), or a block
    (CompressModel.v).  PVRTC is not covered: its one job lets the library decide on the data. *)
Definition surface_process (W : world) (texCS : colorspace) (c : converter) (a : convargs)
    (cs : colorspace) (w h : N) (px : pixels) (j : N * N) : option (list (N * N)) :=
  match std_params c with
  | Some (sz, ch) => std_process (enc_px (wo_pack W) c) sz ch (img w h px) (fst j)
  | None => blockProcess (wo_pack W) (wo_build W) (surface_settings texCS a cs) (thread_count W a)
              (wo_enc W) c (img w h px) j
  end.

(** jobsX() and jobsY(): StandardConverter.h:56-65; S3tcConverter.h:41-42, EtcConverter.h:47-48,
    AstcConverter.h:35-36. *)
Definition jobs_xy (c : converter) (w h : N) : N * N :=
  match std_params c with
  | Some _ => (std_jobsX w h, 1)
  | None => match block_params c with
            | Some (bx, by_, _) => (block_jobs w bx, block_jobs h by_)
            | None => (1, 1)
            end
  end.

(** The body of the loops of Converter::convert, lib/src/Converter.cpp:527-587: [b] is what
    [converter->data()] may be at the end; with several threads it is the buffer after any run in
    which all of them have returned.  The buffer is zero at first: [data().resize(...)]. *)
Definition surface_result (W : world) (texCS : colorspace) (c : converter) (a : convargs)
    (i : image pixels) (b : list N) : Prop :=
  match i with
  | NoImage => False
  | Img _ w h cs px =>
      match converter_data_size c w h with
      | None => False
      | Some size =>
          let buf := repeat 0 (N.to_nat size) in
          let '(jx, jy) := jobs_xy c w h in
          let jobs := job_list jx jy in
          let process := surface_process W texCS c a cs w h px in
          let n := cur_threads (u32 (jx * jy)) (thread_count W a) in
          if n <=? 1 then run_serial process jobs buf = Some b
          else exists m, reach process jobs buf (N.to_nat n) m /\ mfinal m /\ m_buf m = b
      end
  end.

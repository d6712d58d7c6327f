(** What the data of a surface is. *)

From Coq Require Import NArith ZArith List Bool.
From Verif Require Import Base FormatModel FormatSpec FloatModel ConverterModel ConverterSpec PixelModel PixelSpec
  TextureModel BlockModel BlockSpec CompressSpec EncodeModel.
Import ListNotations.
Local Open Scope N_scope.

(** A surface whose data and jobs can be counted with 32 bits. *)
Definition fits (f : format) (w h : N) : Prop :=
  0 < w /\ 0 < h /\ w * h + 31 < 2 ^ 32 /\ w + 16 <= 2 ^ 32 /\ h + 16 <= 2 ^ 32 /\
  let '(bw, bh, bs) := spec_block f in cdiv w bw * cdiv h bh * bs < 2 ^ 32.

(** The request to the encoder for block (x, y), see C60 and C61. *)
Definition block_request (W : world) (texCS : colorspace) (c : converter) (a : convargs)
    (cs : colorspace) (w h : N) (px : pixels) (x y : N) : option request :=
  jobRequest (wo_pack W) (wo_build W)
    (Settings (match ca_quality a with
               | 0 => CommandLineModel.Q_Lowest | 1 => CommandLineModel.Q_Low
               | 2 => CommandLineModel.Q_Normal | 3 => CommandLineModel.Q_High
               | _ => CommandLineModel.Q_Highest end)
       (ca_alpha a) (ca_mask a) texCS cs)
    (if ca_threads a =? 2 ^ 32 - 1 then wo_cores W else ca_threads a) c (img w h px) x y.

(** Nothing about the pixels is undefined: see C22 for pixels and C60 for blocks. *)
Definition defined (W : world) (texCS : colorspace) (c : converter) (a : convargs) (i : image pixels) : Prop :=
  match i with
  | NoImage => False
  | Img _ w h cs px =>
      match layout_of (ca_format a) with
      | NoLayout => False
      | Channels _ => forall r q, r < h -> q < w -> enc_px (wo_pack W) c (px r q) <> None
      | Blocks bx by_ _ _ =>
          forall x y, x < cdiv w bx -> y < cdiv h by_ -> block_request W texCS c a cs w h px x y <> None
      end
  end.

(** [b] is the image [i] in the format and type of [a]: for an uncompressed format the pixels row
    by row, each as C19 to C22 and C65 say; for a compressed one the blocks row by row, each what
    the encoder answers to the request for it. *)
Definition holds (W : world) (texCS : colorspace) (c : converter) (a : convargs) (i : image pixels)
    (b : list N) : Prop :=
  match i with
  | NoImage => False
  | Img _ w h cs px =>
      match layout_of (ca_format a) with
      | NoLayout => False
      | Channels l =>
          let n := layout_bits l / 8 in
          N.of_nat (length b) = w * h * n /\
          forall r q, r < h -> q < w ->
            stores (wo_pack W) (ca_format a) (ca_type a) (px r q) (bytes_at b ((r * w + q) * n) n)
      | Blocks bx by_ bs _ =>
          N.of_nat (length b) = cdiv w bx * cdiv h by_ * bs /\
          forall x y, x < cdiv w bx -> y < cdiv h by_ ->
          exists r, block_request W texCS c a cs w h px x y = Some r /\
            bytes_at b ((y * cdiv w bx + x) * bs) bs = map Z.to_N (r_own r) ++ wo_enc W (r_call r)
      end
  end.

(** The function [enc] of the model of Texture::convert answers what Converter::convert computes,
    PVRTC aside. *)
Definition computes (W : world) (texCS : colorspace) (enc : converter -> convargs -> image pixels -> list N) : Prop :=
  forall fl a c i, createConverter fl (ca_format a) (ca_type a) = Some c ->
    family_of (ca_format a) <> Fam_Pvrtc -> fits (ca_format a) (iwidth i) (iheight i) -> defined W texCS c a i ->
    surface_result W texCS c a i (enc c a i).

(** The job of a converter of a compressed format with fixed-size blocks: the request of
    BlockModel.v, and the stores of the encoder's answer into the block's place. *)

From Coq Require Import NArith ZArith List Bool.
From Verif Require Import Base FormatModel FloatModel ConverterModel PixelModel TextureModel BlockModel.
Import ListNotations.
Local Open Scope N_scope.

(** S3tcConverter::process, lib/src/S3tcConverter.cpp:242-255; EtcConverter::process,
    lib/src/EtcConverter.cpp:120-152; AstcConverter::process, lib/src/AstcConverter.cpp:208-230.
    All three compute [data().data() + (y*m_jobsX + x)*blockSize].  [enc] are the third-party
    encoders, functions of their arguments; Bc2Converter::compressBlock stores its own 8 bytes and
    hands [block + 8] to the encoder, S3tcConverter.cpp:346-356.  PVRTC is not a converter of
    this kind. *)
Definition blockProcess (pk : packers) (bd : build) (st : settings) (threads : N)
    (enc : ecall -> list N) (c : converter) (im : surface rgba) (j : N * N)
  : option (list (N * N)) :=
  let '(x, y) := j in
  obind (block_params c) (fun p => let '(bx, _, bs) := p in
  obind (jobRequest pk bd st threads c im x y) (fun r =>
  Some (place (u32 (u32 (u32 (y * block_jobs (sf_w im) bx) + x) * bs))
              (map Z.to_N (r_own r) ++ enc (r_call r))))).

(** What the pixel formats are, written from the documentation of [Texture::Format]
    (lib/include/cuttlefish/Texture.h:59-130) and independently of the tables in the code:
    the channels of each uncompressed format with their bit counts, in name order, and the
    block geometry of each compressed format. *)

From Coq Require Import NArith List Bool.
From Verif Require Import FormatModel.
Import ListNotations.
Local Open Scope N_scope.

Inductive chan := ChR | ChG | ChB | ChA | ChE.

(** [Channels l]: uncompressed, channels in name order with their bits.
    [Blocks w h bytes a]: fixed-size blocks of [w] x [h] pixels in [bytes] bytes; [a] tells
    whether alpha is stored. *)
Inductive layout :=
| NoLayout
| Channels (l : list (chan * N))
| Blocks (w h bytes : N) (a : bool).

Definition layout_of (f : format) : layout :=
  match f with
  | F_Unknown => NoLayout
  | F_R4G4 => Channels [(ChR,4);(ChG,4)]
  | F_R4G4B4A4 => Channels [(ChR,4);(ChG,4);(ChB,4);(ChA,4)]
  | F_B4G4R4A4 => Channels [(ChB,4);(ChG,4);(ChR,4);(ChA,4)]
  | F_A4R4G4B4 => Channels [(ChA,4);(ChR,4);(ChG,4);(ChB,4)]
  | F_R5G6B5 => Channels [(ChR,5);(ChG,6);(ChB,5)]
  | F_B5G6R5 => Channels [(ChB,5);(ChG,6);(ChR,5)]
  | F_R5G5B5A1 => Channels [(ChR,5);(ChG,5);(ChB,5);(ChA,1)]
  | F_B5G5R5A1 => Channels [(ChB,5);(ChG,5);(ChR,5);(ChA,1)]
  | F_A1R5G5B5 => Channels [(ChA,1);(ChR,5);(ChG,5);(ChB,5)]
  | F_R8 => Channels [(ChR,8)]
  | F_R8G8 => Channels [(ChR,8);(ChG,8)]
  | F_R8G8B8 => Channels [(ChR,8);(ChG,8);(ChB,8)]
  | F_B8G8R8 => Channels [(ChB,8);(ChG,8);(ChR,8)]
  | F_R8G8B8A8 => Channels [(ChR,8);(ChG,8);(ChB,8);(ChA,8)]
  | F_B8G8R8A8 => Channels [(ChB,8);(ChG,8);(ChR,8);(ChA,8)]
  | F_A8B8G8R8 => Channels [(ChA,8);(ChB,8);(ChG,8);(ChR,8)]
  | F_A2R10G10B10 => Channels [(ChA,2);(ChR,10);(ChG,10);(ChB,10)]
  | F_A2B10G10R10 => Channels [(ChA,2);(ChB,10);(ChG,10);(ChR,10)]
  | F_R16 => Channels [(ChR,16)]
  | F_R16G16 => Channels [(ChR,16);(ChG,16)]
  | F_R16G16B16 => Channels [(ChR,16);(ChG,16);(ChB,16)]
  | F_R16G16B16A16 => Channels [(ChR,16);(ChG,16);(ChB,16);(ChA,16)]
  | F_R32 => Channels [(ChR,32)]
  | F_R32G32 => Channels [(ChR,32);(ChG,32)]
  | F_R32G32B32 => Channels [(ChR,32);(ChG,32);(ChB,32)]
  | F_R32G32B32A32 => Channels [(ChR,32);(ChG,32);(ChB,32);(ChA,32)]
  | F_B10G11R11_UFloat => Channels [(ChB,10);(ChG,11);(ChR,11)]
  | F_E5B9G9R9_UFloat => Channels [(ChE,5);(ChB,9);(ChG,9);(ChR,9)]
  | F_BC1_RGB => Blocks 4 4 8 false
  | F_BC1_RGBA => Blocks 4 4 8 true
  | F_BC2 => Blocks 4 4 16 true
  | F_BC3 => Blocks 4 4 16 true
  | F_BC4 => Blocks 4 4 8 false
  | F_BC5 => Blocks 4 4 16 false
  | F_BC6H => Blocks 4 4 16 false
  | F_BC7 => Blocks 4 4 16 true
  | F_ETC1 => Blocks 4 4 8 false
  | F_ETC2_R8G8B8 => Blocks 4 4 8 false
  | F_ETC2_R8G8B8A1 => Blocks 4 4 8 true
  | F_ETC2_R8G8B8A8 => Blocks 4 4 16 true
  | F_EAC_R11 => Blocks 4 4 8 false
  | F_EAC_R11G11 => Blocks 4 4 16 false
  | F_ASTC_4x4 => Blocks 4 4 16 true
  | F_ASTC_5x4 => Blocks 5 4 16 true
  | F_ASTC_5x5 => Blocks 5 5 16 true
  | F_ASTC_6x5 => Blocks 6 5 16 true
  | F_ASTC_6x6 => Blocks 6 6 16 true
  | F_ASTC_8x5 => Blocks 8 5 16 true
  | F_ASTC_8x6 => Blocks 8 6 16 true
  | F_ASTC_8x8 => Blocks 8 8 16 true
  | F_ASTC_10x5 => Blocks 10 5 16 true
  | F_ASTC_10x6 => Blocks 10 6 16 true
  | F_ASTC_10x8 => Blocks 10 8 16 true
  | F_ASTC_10x10 => Blocks 10 10 16 true
  | F_ASTC_12x10 => Blocks 12 10 16 true
  | F_ASTC_12x12 => Blocks 12 12 16 true
  | F_PVRTC1_RGB_2BPP => Blocks 8 4 8 false
  | F_PVRTC1_RGBA_2BPP => Blocks 8 4 8 true
  | F_PVRTC1_RGB_4BPP => Blocks 4 4 8 false
  | F_PVRTC1_RGBA_4BPP => Blocks 4 4 8 true
  | F_PVRTC2_RGBA_2BPP => Blocks 8 4 8 true
  | F_PVRTC2_RGBA_4BPP => Blocks 4 4 8 true
  end.

Definition chan_is_alpha (c : chan) : bool := match c with ChA => true | _ => false end.

(** Does the format store an alpha channel? *)
Definition stores_alpha (f : format) : bool :=
  match layout_of f with
  | NoLayout => false
  | Channels l => existsb (fun p => chan_is_alpha (fst p)) l
  | Blocks _ _ _ a => a
  end.

Definition layout_bits (l : list (chan * N)) : N :=
  fold_right (fun p acc => snd p + acc) 0 l.

(** Pixels per block and bytes per block; uncompressed formats are 1x1 blocks. *)
Definition spec_block (f : format) : N * N * N :=
  match layout_of f with
  | NoLayout => (0, 0, 0)
  | Channels l => (1, 1, layout_bits l / 8)
  | Blocks w h b _ => (w, h, b)
  end.

(** A format is available when its codec is compiled in. *)
Definition codec_enabled (fl : flags) (f : format) : bool :=
  match f with
  | F_Unknown => false
  | F_BC1_RGB | F_BC1_RGBA | F_BC2 | F_BC3 | F_BC4 | F_BC5 | F_BC6H | F_BC7 => has_s3tc fl
  | F_ETC1 | F_ETC2_R8G8B8 | F_ETC2_R8G8B8A1 | F_ETC2_R8G8B8A8 | F_EAC_R11 | F_EAC_R11G11 =>
      has_etc fl
  | F_ASTC_4x4 | F_ASTC_5x4 | F_ASTC_5x5 | F_ASTC_6x5 | F_ASTC_6x6 | F_ASTC_8x5 | F_ASTC_8x6
  | F_ASTC_8x8 | F_ASTC_10x5 | F_ASTC_10x6 | F_ASTC_10x8 | F_ASTC_10x10 | F_ASTC_12x10
  | F_ASTC_12x12 => has_astc fl
  | F_PVRTC1_RGB_2BPP | F_PVRTC1_RGBA_2BPP | F_PVRTC1_RGB_4BPP | F_PVRTC1_RGBA_4BPP
  | F_PVRTC2_RGBA_2BPP | F_PVRTC2_RGBA_4BPP => has_pvrtc fl
  | _ => true
  end.

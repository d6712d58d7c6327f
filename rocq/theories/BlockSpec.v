(** What the encoders of compressed formats should be given, in real numbers. *)

From Coq Require Import NArith ZArith Reals List Bool.
From Flocq Require Import Core IEEE754.Binary IEEE754.Bits.
From Verif Require Import Base FormatModel FormatSpec FloatModel FloatSpec ConverterSpec PixelModel BlockModel.
Import ListNotations.

(** The byte of an unsigned channel: the value limited to [0, 1], times 255 in single precision,
    to the nearest integer; and the signed one. *)
Definition byte8 (v : float) : Z := nearest (rnd32 (limit 0 1 v * 255)).
Definition sbyte8 (v : float) : Z := nearest (rnd32 (limit (-1) 1 v * 127)).

(** [o] is (v + 1)/2 for a value in [-1, 1], up to single precision and exactly at -1, 0 and 1. *)
Definition halfway (v o : float) : Prop :=
  finite v = true -> (-1 <= real v <= 1)%R ->
  finite o = true /\ (0 <= real o <= 1)%R /\
  (Rabs (real o - (real v + 1) / 2) <= bpow radix2 (-23))%R /\
  (real v = -1 -> real o = 0)%R /\ (real v = 0 -> real o = / 2)%R /\ (real v = 1 -> real o = 1)%R.

(** The four channels of a pixel. *)
Definition four (p : rgba) : list float := [pr p; pg p; pb p; pa p].

(** The channels a compressed format with 8-bit input reads. *)
Definition inputs (f : format) : option (rgba -> list float) :=
  match f with
  | F_BC1_RGB | F_BC1_RGBA | F_BC2 | F_BC3 | F_BC7
  | F_PVRTC1_RGB_2BPP | F_PVRTC1_RGBA_2BPP | F_PVRTC1_RGB_4BPP | F_PVRTC1_RGBA_4BPP
  | F_PVRTC2_RGBA_2BPP | F_PVRTC2_RGBA_4BPP => Some four
  | F_BC4 => Some (fun p => [pr p])
  | F_BC5 => Some (fun p => [pr p; pg p])
  | _ => None
  end.

(** The bytes of the pixels given to an encoder with 8-bit input. *)
Definition given (e : ecall) : option (list (list Z)) :=
  match e with
  | E_Bc1 _ px _ _ | E_Squish _ _ px | E_Bc3 _ px | E_Bc3hq _ _ px | E_Bc7ispc _ _ px
  | E_Bc7 _ px | E_Pvrtc _ _ _ _ _ _ px | E_Bc5 px | E_Bc5hq _ px => Some px
  | E_Bc4 v | E_Bc4hq _ v => Some (map (fun z => [z]) v)
  | _ => None
  end.

(** Bytes of signed channels, in two's complement. *)
Definition given_signed (e : ecall) : option (list (list Z)) :=
  match e with
  | E_Bc4s _ v => Some (map (fun z => [z]) v)
  | E_Bc5s _ r g => Some (map (fun rg => [fst rg; snd rg]) (combine r g))
  | _ => None
  end.

(** Half floats. *)
Definition given_half (e : ecall) : option (list (list N)) :=
  match e with E_Bc6ispc _ h | E_Bc6 _ _ h => Some h | _ => None end.

(** Everything an encoder is given that is not a setting. *)
Inductive payload :=
| PBytes (l : list (list Z)) | PSigned (l : list (list Z)) | PHalf (l : list (list N))
| PFloat (w h : N) (l : list rgba) | PHalf4 (l : list (list N)).
Definition payload_of (e : ecall) : payload :=
  match e with
  | E_Bc6ispc _ h => PHalf4 h
  | E_Bc6 _ _ h => PHalf h
  | E_Etc _ _ _ w h px => PFloat w h px
  | E_Astc _ bx by_ _ _ _ _ px => PFloat bx by_ px
  | _ => match given e, given_signed e with
         | Some l, _ => PBytes l
         | _, Some l => PSigned l
         | _, _ => PBytes []
         end
  end.

(** Quality levels from worst to best. *)
Definition rank (q : quality) : nat :=
  match q with
  | CommandLineModel.Q_Lowest => 0 | CommandLineModel.Q_Low => 1 | CommandLineModel.Q_Normal => 2
  | CommandLineModel.Q_High => 3 | CommandLineModel.Q_Highest => 4
  end.

(** The kinds of compressed formats. *)
Inductive family := Fam_S3tc | Fam_Etc | Fam_Astc | Fam_Pvrtc | Fam_None.
Definition family_of (f : format) : family :=
  match f with
  | F_BC1_RGB | F_BC1_RGBA | F_BC2 | F_BC3 | F_BC4 | F_BC5 | F_BC6H | F_BC7 => Fam_S3tc
  | F_ETC1 | F_ETC2_R8G8B8 | F_ETC2_R8G8B8A1 | F_ETC2_R8G8B8A8 | F_EAC_R11 | F_EAC_R11G11 => Fam_Etc
  | F_ASTC_4x4 | F_ASTC_5x4 | F_ASTC_5x5 | F_ASTC_6x5 | F_ASTC_6x6 | F_ASTC_8x5 | F_ASTC_8x6
  | F_ASTC_8x8 | F_ASTC_10x5 | F_ASTC_10x6 | F_ASTC_10x8 | F_ASTC_10x10 | F_ASTC_12x10
  | F_ASTC_12x12 => Fam_Astc
  | F_PVRTC1_RGB_2BPP | F_PVRTC1_RGBA_2BPP | F_PVRTC1_RGB_4BPP | F_PVRTC1_RGBA_4BPP
  | F_PVRTC2_RGBA_2BPP | F_PVRTC2_RGBA_4BPP => Fam_Pvrtc
  | _ => Fam_None
  end.

(** The pixels of a w by h image that block (x, y) is made from: the block, with the last row
    and column repeated past the edge; for ETC the part inside the image; for PVRTC everything. *)
Definition source (f : format) (w h : N) (px : N -> N -> rgba) (x y : N) : list rgba :=
  match family_of f, layout_of f with
  | Fam_Etc, _ => inner w h px x y
  | Fam_Pvrtc, _ => flat_map (fun r => map (px r) (Nrange w)) (Nrange h)
  | _, Blocks bx by_ _ _ => footprint w h bx by_ px x y
  | _, _ => []
  end.

(** (x, y) is a block of a w by h image of that format, and 32-bit coordinates are enough. *)
Definition block_at (f : format) (w h x y : N) : Prop :=
  (0 < w)%N /\ (0 < h)%N /\
  match family_of f, layout_of f with
  | Fam_Pvrtc, _ => (w * h * 4 <= 2 ^ 32)%N
  | _, Blocks bx by_ _ _ =>
      (w + bx <= 2 ^ 32)%N /\ (h + by_ <= 2 ^ 32)%N /\ (x * bx < w)%N /\ (y * by_ < h)%N
  | _, _ => False
  end.

(** Settings that differ in one field. *)
Definition with_quality (q : quality) (s : settings) := Settings q (s_alpha s) (s_mask s) (s_texCS s) (s_imgCS s).
Definition with_alpha (a : alpha) (s : settings) := Settings (s_quality s) a (s_mask s) (s_texCS s) (s_imgCS s).
Definition with_mask (m : TextureModel.colormask) (s : settings) := Settings (s_quality s) (s_alpha s) m (s_texCS s) (s_imgCS s).
Definition with_texCS (c : colorspace) (s : settings) := Settings (s_quality s) (s_alpha s) (s_mask s) c (s_imgCS s).
Definition with_imgCS (c : colorspace) (s : settings) := Settings (s_quality s) (s_alpha s) (s_mask s) (s_texCS s) c.

(** Formats whose encoder looks at the colour mask, the alpha type, the colour space of the
    texture and that of the image. *)
Definition sees_mask (ispc : bool) (f : format) : bool :=
  match f with F_BC1_RGBA => true | F_BC7 => negb ispc
             | _ => match family_of f with Fam_Astc => true | _ => false end end.
Definition sees_alpha (f : format) : bool :=
  match family_of f with Fam_Astc | Fam_Pvrtc => true | _ => false end.
Definition sees_texCS (f : format) : bool :=
  match f with F_ETC1 | F_ETC2_R8G8B8 | F_ETC2_R8G8B8A1 | F_ETC2_R8G8B8A8 => true | _ => false end.
Definition sees_imgCS (f : format) : bool :=
  match f with F_BC1_RGBA | F_BC7 => true
             | _ => match family_of f with Fam_Astc => true | _ => false end end.

(** The encoder's format for an ETC or EAC texture. *)
Definition etc_name (f : format) (t : ttype) : option etc_format :=
  match f, t with
  | F_ETC1, T_UNorm => Some EtcETC1
  | F_ETC2_R8G8B8, T_UNorm => Some EtcRGB8
  | F_ETC2_R8G8B8A1, T_UNorm => Some EtcRGB8A1
  | F_ETC2_R8G8B8A8, T_UNorm => Some EtcRGBA8
  | F_EAC_R11, T_UNorm => Some EtcR11
  | F_EAC_R11, T_SNorm => Some EtcSR11
  | F_EAC_R11G11, T_UNorm => Some EtcRG11
  | F_EAC_R11G11, T_SNorm => Some EtcSRG11
  | _, _ => None
  end.

(** The numbers that trade time for quality. *)
Definition level_of (e : ecall) : option N :=
  match e with E_Bc1 l _ _ _ | E_Bc3 l _ | E_Bc3hq l _ _ => Some l | _ => None end.
Definition radius_of (e : ecall) : option N :=
  match e with E_Bc3hq _ r _ | E_Bc4hq r _ | E_Bc5hq r _ => Some r | _ => None end.
Definition effort_of (e : ecall) : option float :=
  match e with E_Etc _ _ x _ _ _ => Some x | E_Bc4s x _ | E_Bc5s x _ _ | E_Bc6 x _ _ => Some x | _ => None end.

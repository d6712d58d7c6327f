(** What the numeric format fields of DDS, KTX and PVR files mean, written from the public
    documentation of the three containers (DXGI_FORMAT, the OpenGL registry, PVR v3), and
    independently of the writers in /repo.  Used to state that the header of a saved file
    describes the data that follows it. *)

From Coq Require Import NArith List Bool.
From Verif Require Import FormatModel FormatSpec.
Import ListNotations.
Local Open Scope N_scope.

(** How a container describes pixel data: channels from the least significant bit upwards
    (equivalently, for whole-byte channels, in memory order), or a compressed codec, given
    as the formats of this library that use that codec. *)
Inductive pixdesc :=
| LsbFirst (l : list (chan * N))
| OneOf (fs : list format).

(** Channel list of an uncompressed format from the least significant bit upwards.  Formats
    made of whole bytes are named in memory order, the others from the most significant bit
    downwards. *)
Definition whole_bytes (l : list (chan * N)) : bool :=
  forallb (fun p => snd p mod 8 =? 0) l.

Definition lsb_layout (f : format) : option (list (chan * N)) :=
  match layout_of f with
  | Channels l => Some (if whole_bytes l then l else rev l)
  | _ => None
  end.

Definition chan_code (c : chan) : N :=
  match c with ChR => 0 | ChG => 1 | ChB => 2 | ChA => 3 | ChE => 4 end.

Definition chbits_eqb (a b : chan * N) : bool :=
  (chan_code (fst a) =? chan_code (fst b)) && (snd a =? snd b).

Fixpoint chlist_eqb (a b : list (chan * N)) : bool :=
  match a, b with
  | [], [] => true
  | x :: s, y :: t => chbits_eqb x y && chlist_eqb s t
  | _, _ => false
  end.

Definition describes (d : pixdesc) (f : format) : bool :=
  match d with
  | LsbFirst l => match lsb_layout f with Some l' => chlist_eqb l l' | None => false end
  | OneOf fs => existsb (format_eqb f) fs
  end.

Definition ch1 (b : N) : list (chan * N) := [(ChR,b)].
Definition ch2 (b : N) : list (chan * N) := [(ChR,b);(ChG,b)].
Definition ch3 (b : N) : list (chan * N) := [(ChR,b);(ChG,b);(ChB,b)].
Definition ch4 (b : N) : list (chan * N) := [(ChR,b);(ChG,b);(ChB,b);(ChA,b)].

(** * DXGI_FORMAT *)
Definition dxgi_table : list (N * (pixdesc * ttype * colorspace)) := [
  (2, (LsbFirst (ch4 32), T_Float, CS_Linear));
  (3, (LsbFirst (ch4 32), T_UInt, CS_Linear));
  (4, (LsbFirst (ch4 32), T_Int, CS_Linear));
  (6, (LsbFirst (ch3 32), T_Float, CS_Linear));
  (7, (LsbFirst (ch3 32), T_UInt, CS_Linear));
  (8, (LsbFirst (ch3 32), T_Int, CS_Linear));
  (10, (LsbFirst (ch4 16), T_Float, CS_Linear));
  (11, (LsbFirst (ch4 16), T_UNorm, CS_Linear));
  (12, (LsbFirst (ch4 16), T_UInt, CS_Linear));
  (13, (LsbFirst (ch4 16), T_SNorm, CS_Linear));
  (14, (LsbFirst (ch4 16), T_Int, CS_Linear));
  (16, (LsbFirst (ch2 32), T_Float, CS_Linear));
  (17, (LsbFirst (ch2 32), T_UInt, CS_Linear));
  (18, (LsbFirst (ch2 32), T_Int, CS_Linear));
  (24, (LsbFirst [(ChR,10);(ChG,10);(ChB,10);(ChA,2)], T_UNorm, CS_Linear));
  (25, (LsbFirst [(ChR,10);(ChG,10);(ChB,10);(ChA,2)], T_UInt, CS_Linear));
  (26, (LsbFirst [(ChR,11);(ChG,11);(ChB,10)], T_UFloat, CS_Linear));
  (28, (LsbFirst (ch4 8), T_UNorm, CS_Linear));
  (29, (LsbFirst (ch4 8), T_UNorm, CS_sRGB));
  (30, (LsbFirst (ch4 8), T_UInt, CS_Linear));
  (31, (LsbFirst (ch4 8), T_SNorm, CS_Linear));
  (32, (LsbFirst (ch4 8), T_Int, CS_Linear));
  (34, (LsbFirst (ch2 16), T_Float, CS_Linear));
  (35, (LsbFirst (ch2 16), T_UNorm, CS_Linear));
  (36, (LsbFirst (ch2 16), T_UInt, CS_Linear));
  (37, (LsbFirst (ch2 16), T_SNorm, CS_Linear));
  (38, (LsbFirst (ch2 16), T_Int, CS_Linear));
  (41, (LsbFirst (ch1 32), T_Float, CS_Linear));
  (42, (LsbFirst (ch1 32), T_UInt, CS_Linear));
  (43, (LsbFirst (ch1 32), T_Int, CS_Linear));
  (49, (LsbFirst (ch2 8), T_UNorm, CS_Linear));
  (50, (LsbFirst (ch2 8), T_UInt, CS_Linear));
  (51, (LsbFirst (ch2 8), T_SNorm, CS_Linear));
  (52, (LsbFirst (ch2 8), T_Int, CS_Linear));
  (54, (LsbFirst (ch1 16), T_Float, CS_Linear));
  (56, (LsbFirst (ch1 16), T_UNorm, CS_Linear));
  (57, (LsbFirst (ch1 16), T_UInt, CS_Linear));
  (58, (LsbFirst (ch1 16), T_SNorm, CS_Linear));
  (59, (LsbFirst (ch1 16), T_Int, CS_Linear));
  (61, (LsbFirst (ch1 8), T_UNorm, CS_Linear));
  (62, (LsbFirst (ch1 8), T_UInt, CS_Linear));
  (63, (LsbFirst (ch1 8), T_SNorm, CS_Linear));
  (64, (LsbFirst (ch1 8), T_Int, CS_Linear));
  (67, (LsbFirst [(ChR,9);(ChG,9);(ChB,9);(ChE,5)], T_UFloat, CS_Linear));
  (71, (OneOf [F_BC1_RGB; F_BC1_RGBA], T_UNorm, CS_Linear));
  (72, (OneOf [F_BC1_RGB; F_BC1_RGBA], T_UNorm, CS_sRGB));
  (74, (OneOf [F_BC2], T_UNorm, CS_Linear));
  (75, (OneOf [F_BC2], T_UNorm, CS_sRGB));
  (77, (OneOf [F_BC3], T_UNorm, CS_Linear));
  (78, (OneOf [F_BC3], T_UNorm, CS_sRGB));
  (80, (OneOf [F_BC4], T_UNorm, CS_Linear));
  (81, (OneOf [F_BC4], T_SNorm, CS_Linear));
  (83, (OneOf [F_BC5], T_UNorm, CS_Linear));
  (84, (OneOf [F_BC5], T_SNorm, CS_Linear));
  (85, (LsbFirst [(ChB,5);(ChG,6);(ChR,5)], T_UNorm, CS_Linear));
  (86, (LsbFirst [(ChB,5);(ChG,5);(ChR,5);(ChA,1)], T_UNorm, CS_Linear));
  (87, (LsbFirst [(ChB,8);(ChG,8);(ChR,8);(ChA,8)], T_UNorm, CS_Linear));
  (91, (LsbFirst [(ChB,8);(ChG,8);(ChR,8);(ChA,8)], T_UNorm, CS_sRGB));
  (95, (OneOf [F_BC6H], T_UFloat, CS_Linear));
  (96, (OneOf [F_BC6H], T_Float, CS_Linear));
  (98, (OneOf [F_BC7], T_UNorm, CS_Linear));
  (99, (OneOf [F_BC7], T_UNorm, CS_sRGB));
  (* IA44 is a palettised video format without colour channels; the writer uses it for R4G4. *)
  (112, (OneOf [F_R4G4], T_UNorm, CS_Linear));
  (115, (LsbFirst [(ChB,4);(ChG,4);(ChR,4);(ChA,4)], T_UNorm, CS_Linear))
].

Fixpoint lookup {A} (k : N) (l : list (N * A)) : option A :=
  match l with [] => None | (k', a) :: t => if k =? k' then Some a else lookup k t end.

(** * OpenGL enumerants *)

(** [glFormat]: components in order, and whether it is an integer ("_INTEGER") format. *)
Definition gl_formats : list (N * (list chan * bool)) := [
  (0x1903, ([ChR], false)); (0x8227, ([ChR;ChG], false));
  (0x1907, ([ChR;ChG;ChB], false)); (0x1908, ([ChR;ChG;ChB;ChA], false));
  (0x80E0, ([ChB;ChG;ChR], false)); (0x80E1, ([ChB;ChG;ChR;ChA], false));
  (0x8D94, ([ChR], true)); (0x8228, ([ChR;ChG], true));
  (0x8D98, ([ChR;ChG;ChB], true)); (0x8D99, ([ChR;ChG;ChB;ChA], true));
  (0x8D9A, ([ChB;ChG;ChR], true)); (0x8D9B, ([ChB;ChG;ChR;ChA], true))].

(** [glType]: one value per component, or a packed word whose fields are listed from the
    most significant bit; plain types put the first component there, [_REV] types last. *)
Inductive gltype :=
| GlArray (bits : N) (signed : bool) (flt : bool)
| GlPacked (fields : list N)
| GlPackedRev (fields : list N).

Definition gl_types : list (N * gltype) := [
  (0x1400, GlArray 8 true false); (0x1401, GlArray 8 false false);
  (0x1402, GlArray 16 true false); (0x1403, GlArray 16 false false);
  (0x1404, GlArray 32 true false); (0x1405, GlArray 32 false false);
  (0x1406, GlArray 32 true true); (0x140B, GlArray 16 true true);
  (0x8033, GlPacked [4;4;4;4]); (0x8034, GlPacked [5;5;5;1]);
  (0x8035, GlPacked [8;8;8;8]); (0x8363, GlPacked [5;6;5]);
  (0x8364, GlPackedRev [5;6;5]); (0x8365, GlPackedRev [4;4;4;4]);
  (0x8366, GlPackedRev [1;5;5;5]); (0x8367, GlPackedRev [8;8;8;8]);
  (0x8368, GlPackedRev [2;10;10;10]); (0x8C3B, GlPackedRev [10;11;11]);
  (0x8C3E, GlPackedRev [5;9;9;9])].

(** Channels from the least significant bit, for a component list and a type.  The shared
    exponent of [GL_UNSIGNED_INT_5_9_9_9_REV] is the extra field without a component. *)
Definition gl_lsb (comps : list chan) (t : gltype) : list (chan * N) :=
  match t with
  | GlArray b _ _ => map (fun c => (c, b)) comps
  | GlPacked fs => rev (combine comps fs)
  | GlPackedRev fs =>
      let fs := rev fs in
      combine comps fs ++ map (fun b => (ChE, b)) (skipn (length comps) fs)
  end.

(** Sized internal formats: channels in R,G,B,A(,E) order, type and colour space. *)
Definition gl_internal : list (N * (list (chan * N) * ttype * colorspace)) := [
  (0x8056, (ch4 4, T_UNorm, CS_Linear));
  (0x8057, ([(ChR,5);(ChG,5);(ChB,5);(ChA,1)], T_UNorm, CS_Linear));
  (0x8D62, ([(ChR,5);(ChG,6);(ChB,5)], T_UNorm, CS_Linear));
  (0x8229, (ch1 8, T_UNorm, CS_Linear)); (0x822B, (ch2 8, T_UNorm, CS_Linear));
  (0x8051, (ch3 8, T_UNorm, CS_Linear)); (0x8058, (ch4 8, T_UNorm, CS_Linear));
  (0x8C41, (ch3 8, T_UNorm, CS_sRGB)); (0x8C43, (ch4 8, T_UNorm, CS_sRGB));
  (0x8F94, (ch1 8, T_SNorm, CS_Linear)); (0x8F95, (ch2 8, T_SNorm, CS_Linear));
  (0x8F96, (ch3 8, T_SNorm, CS_Linear)); (0x8F97, (ch4 8, T_SNorm, CS_Linear));
  (0x8F98, (ch1 16, T_SNorm, CS_Linear)); (0x8F99, (ch2 16, T_SNorm, CS_Linear));
  (0x8F9A, (ch3 16, T_SNorm, CS_Linear)); (0x8F9B, (ch4 16, T_SNorm, CS_Linear));
  (0x8231, (ch1 8, T_Int, CS_Linear)); (0x8232, (ch1 8, T_UInt, CS_Linear));
  (0x8233, (ch1 16, T_Int, CS_Linear)); (0x8234, (ch1 16, T_UInt, CS_Linear));
  (0x8235, (ch1 32, T_Int, CS_Linear)); (0x8236, (ch1 32, T_UInt, CS_Linear));
  (0x8237, (ch2 8, T_Int, CS_Linear)); (0x8238, (ch2 8, T_UInt, CS_Linear));
  (0x8239, (ch2 16, T_Int, CS_Linear)); (0x823A, (ch2 16, T_UInt, CS_Linear));
  (0x823B, (ch2 32, T_Int, CS_Linear)); (0x823C, (ch2 32, T_UInt, CS_Linear));
  (0x8D8F, (ch3 8, T_Int, CS_Linear)); (0x8D7D, (ch3 8, T_UInt, CS_Linear));
  (0x8D89, (ch3 16, T_Int, CS_Linear)); (0x8D77, (ch3 16, T_UInt, CS_Linear));
  (0x8D83, (ch3 32, T_Int, CS_Linear)); (0x8D71, (ch3 32, T_UInt, CS_Linear));
  (0x8D8E, (ch4 8, T_Int, CS_Linear)); (0x8D7C, (ch4 8, T_UInt, CS_Linear));
  (0x8D88, (ch4 16, T_Int, CS_Linear)); (0x8D76, (ch4 16, T_UInt, CS_Linear));
  (0x8D82, (ch4 32, T_Int, CS_Linear)); (0x8D70, (ch4 32, T_UInt, CS_Linear));
  (0x822A, (ch1 16, T_UNorm, CS_Linear)); (0x822C, (ch2 16, T_UNorm, CS_Linear));
  (0x8054, (ch3 16, T_UNorm, CS_Linear)); (0x805B, (ch4 16, T_UNorm, CS_Linear));
  (0x822D, (ch1 16, T_Float, CS_Linear)); (0x822F, (ch2 16, T_Float, CS_Linear));
  (0x881B, (ch3 16, T_Float, CS_Linear)); (0x881A, (ch4 16, T_Float, CS_Linear));
  (0x822E, (ch1 32, T_Float, CS_Linear)); (0x8230, (ch2 32, T_Float, CS_Linear));
  (0x8815, (ch3 32, T_Float, CS_Linear)); (0x8814, (ch4 32, T_Float, CS_Linear));
  (0x8059, ([(ChR,10);(ChG,10);(ChB,10);(ChA,2)], T_UNorm, CS_Linear));
  (0x906F, ([(ChR,10);(ChG,10);(ChB,10);(ChA,2)], T_UInt, CS_Linear));
  (0x8C3A, ([(ChR,11);(ChG,11);(ChB,10)], T_UFloat, CS_Linear));
  (0x8C3D, ([(ChR,9);(ChG,9);(ChB,9);(ChE,5)], T_UFloat, CS_Linear))].

(** Compressed internal formats.  The LDR/HDR profile of ASTC is not part of the code, so a
    linear ASTC code stands for both types. *)
Definition gl_compressed : list (N * (format * list ttype * colorspace)) := [
  (0x83F0, (F_BC1_RGB, [T_UNorm], CS_Linear)); (0x8C4C, (F_BC1_RGB, [T_UNorm], CS_sRGB));
  (0x83F1, (F_BC1_RGBA, [T_UNorm], CS_Linear)); (0x8C4D, (F_BC1_RGBA, [T_UNorm], CS_sRGB));
  (0x83F2, (F_BC2, [T_UNorm], CS_Linear)); (0x8C4E, (F_BC2, [T_UNorm], CS_sRGB));
  (0x83F3, (F_BC3, [T_UNorm], CS_Linear)); (0x8C4F, (F_BC3, [T_UNorm], CS_sRGB));
  (0x8DBB, (F_BC4, [T_UNorm], CS_Linear)); (0x8DBC, (F_BC4, [T_SNorm], CS_Linear));
  (0x8DBD, (F_BC5, [T_UNorm], CS_Linear)); (0x8DBE, (F_BC5, [T_SNorm], CS_Linear));
  (0x8E8C, (F_BC7, [T_UNorm], CS_Linear)); (0x8E8D, (F_BC7, [T_UNorm], CS_sRGB));
  (0x8E8E, (F_BC6H, [T_Float], CS_Linear)); (0x8E8F, (F_BC6H, [T_UFloat], CS_Linear));
  (0x8D64, (F_ETC1, [T_UNorm], CS_Linear));
  (0x9270, (F_EAC_R11, [T_UNorm], CS_Linear)); (0x9271, (F_EAC_R11, [T_SNorm], CS_Linear));
  (0x9272, (F_EAC_R11G11, [T_UNorm], CS_Linear)); (0x9273, (F_EAC_R11G11, [T_SNorm], CS_Linear));
  (0x9274, (F_ETC2_R8G8B8, [T_UNorm], CS_Linear)); (0x9275, (F_ETC2_R8G8B8, [T_UNorm], CS_sRGB));
  (0x9276, (F_ETC2_R8G8B8A1, [T_UNorm], CS_Linear)); (0x9277, (F_ETC2_R8G8B8A1, [T_UNorm], CS_sRGB));
  (0x9278, (F_ETC2_R8G8B8A8, [T_UNorm], CS_Linear)); (0x9279, (F_ETC2_R8G8B8A8, [T_UNorm], CS_sRGB));
  (0x93B0, (F_ASTC_4x4, [T_UNorm; T_UFloat], CS_Linear)); (0x93D0, (F_ASTC_4x4, [T_UNorm], CS_sRGB));
  (0x93B1, (F_ASTC_5x4, [T_UNorm; T_UFloat], CS_Linear)); (0x93D1, (F_ASTC_5x4, [T_UNorm], CS_sRGB));
  (0x93B2, (F_ASTC_5x5, [T_UNorm; T_UFloat], CS_Linear)); (0x93D2, (F_ASTC_5x5, [T_UNorm], CS_sRGB));
  (0x93B3, (F_ASTC_6x5, [T_UNorm; T_UFloat], CS_Linear)); (0x93D3, (F_ASTC_6x5, [T_UNorm], CS_sRGB));
  (0x93B4, (F_ASTC_6x6, [T_UNorm; T_UFloat], CS_Linear)); (0x93D4, (F_ASTC_6x6, [T_UNorm], CS_sRGB));
  (0x93B5, (F_ASTC_8x5, [T_UNorm; T_UFloat], CS_Linear)); (0x93D5, (F_ASTC_8x5, [T_UNorm], CS_sRGB));
  (0x93B6, (F_ASTC_8x6, [T_UNorm; T_UFloat], CS_Linear)); (0x93D6, (F_ASTC_8x6, [T_UNorm], CS_sRGB));
  (0x93B7, (F_ASTC_8x8, [T_UNorm; T_UFloat], CS_Linear)); (0x93D7, (F_ASTC_8x8, [T_UNorm], CS_sRGB));
  (0x93B8, (F_ASTC_10x5, [T_UNorm; T_UFloat], CS_Linear)); (0x93D8, (F_ASTC_10x5, [T_UNorm], CS_sRGB));
  (0x93B9, (F_ASTC_10x6, [T_UNorm; T_UFloat], CS_Linear)); (0x93D9, (F_ASTC_10x6, [T_UNorm], CS_sRGB));
  (0x93BA, (F_ASTC_10x8, [T_UNorm; T_UFloat], CS_Linear)); (0x93DA, (F_ASTC_10x8, [T_UNorm], CS_sRGB));
  (0x93BB, (F_ASTC_10x10, [T_UNorm; T_UFloat], CS_Linear)); (0x93DB, (F_ASTC_10x10, [T_UNorm], CS_sRGB));
  (0x93BC, (F_ASTC_12x10, [T_UNorm; T_UFloat], CS_Linear)); (0x93DC, (F_ASTC_12x10, [T_UNorm], CS_sRGB));
  (0x93BD, (F_ASTC_12x12, [T_UNorm; T_UFloat], CS_Linear)); (0x93DD, (F_ASTC_12x12, [T_UNorm], CS_sRGB));
  (0x8C00, (F_PVRTC1_RGB_4BPP, [T_UNorm], CS_Linear)); (0x8A55, (F_PVRTC1_RGB_4BPP, [T_UNorm], CS_sRGB));
  (0x8C01, (F_PVRTC1_RGB_2BPP, [T_UNorm], CS_Linear)); (0x8A54, (F_PVRTC1_RGB_2BPP, [T_UNorm], CS_sRGB));
  (0x8C02, (F_PVRTC1_RGBA_4BPP, [T_UNorm], CS_Linear)); (0x8A57, (F_PVRTC1_RGBA_4BPP, [T_UNorm], CS_sRGB));
  (0x8C03, (F_PVRTC1_RGBA_2BPP, [T_UNorm], CS_Linear)); (0x8A56, (F_PVRTC1_RGBA_2BPP, [T_UNorm], CS_sRGB));
  (0x9137, (F_PVRTC2_RGBA_2BPP, [T_UNorm], CS_Linear)); (0x93F0, (F_PVRTC2_RGBA_2BPP, [T_UNorm], CS_sRGB));
  (0x9138, (F_PVRTC2_RGBA_4BPP, [T_UNorm], CS_Linear)); (0x93F1, (F_PVRTC2_RGBA_4BPP, [T_UNorm], CS_sRGB))].

(** Channels of a format in R,G,B,A,E order. *)
Definition rgba_order (l : list (chan * N)) : list (chan * N) :=
  flat_map (fun k => filter (fun p => chan_code (fst p) =? k) l) [0;1;2;3;4].

Definition cs_eqb (a b : colorspace) : bool := Bool.eqb (cs_is_srgb a) (cs_is_srgb b).

(** The internal format names the channels, type and colour space of [f]. *)
Definition gl_internal_ok (f : format) (t : ttype) (cs : colorspace) (code : N) : bool :=
  match layout_of f with
  | Channels l =>
      match lookup code gl_internal with
      | Some (l', t', cs') => chlist_eqb (rgba_order l) l' && type_eqb t t' && cs_eqb cs cs'
      | None => false
      end
  | Blocks _ _ _ _ =>
      match lookup code gl_compressed with
      | Some (f', ts, cs') => format_eqb f f' && existsb (type_eqb t) ts && cs_eqb cs cs'
      | None => false
      end
  | NoLayout => false
  end.

(** [glType]/[glFormat] put every channel where the format puts it. *)
Definition gl_order_ok (f : format) (glType glFormat : N) : bool :=
  match layout_of f with
  | Channels _ =>
      match lookup glFormat gl_formats, lookup glType gl_types with
      | Some (comps, _), Some t => describes (LsbFirst (gl_lsb comps t)) f
      | _, _ => false
      end
  | Blocks _ _ _ _ => (glType =? 0) && (glFormat =? 0)
  | NoLayout => false
  end.

(** [glType] has the sign and kind of the texture type (array types only). *)
Definition gl_sign_ok (f : format) (t : ttype) (glType : N) : bool :=
  match layout_of f with
  | Channels _ =>
      match lookup glType gl_types with
      | Some (GlArray _ sg fl) =>
          Bool.eqb fl (match t with T_Float => true | _ => false end) &&
          (fl || Bool.eqb sg (match t with T_SNorm | T_Int => true | _ => false end))
      | Some _ => true
      | None => false
      end
  | _ => true
  end.

(** Size in bytes of the unit that [glType] swaps for endianness; 1 for compressed data. *)
Definition gl_type_size (glType : N) : N :=
  match lookup glType gl_types with
  | Some (GlArray b _ _) => b / 8
  | Some (GlPacked fs) | Some (GlPackedRev fs) => fold_right N.add 0 fs / 8
  | None => 1
  end.

(** [glFormat] is an integer format exactly for integer types. *)
Definition gl_integer_ok (f : format) (t : ttype) (glFormat : N) : bool :=
  match layout_of f with
  | Channels _ =>
      match lookup glFormat gl_formats with
      | Some (_, ig) => Bool.eqb ig (match t with T_UInt | T_Int => true | _ => false end)
      | None => false
      end
  | _ => true
  end.

(** * PVR v3 *)

(** The high word of the pixel format is zero for the enumerated formats. *)
Definition pvr_special : list (N * list format) := [
  (0, [F_PVRTC1_RGB_2BPP]); (1, [F_PVRTC1_RGBA_2BPP]); (2, [F_PVRTC1_RGB_4BPP]);
  (3, [F_PVRTC1_RGBA_4BPP]); (4, [F_PVRTC2_RGBA_2BPP]); (5, [F_PVRTC2_RGBA_4BPP]);
  (6, [F_ETC1]); (7, [F_BC1_RGB; F_BC1_RGBA]);
  (8, [F_BC2]); (9, [F_BC2]);      (* DXT2 pre-multiplied, DXT3 straight *)
  (10, [F_BC3]); (11, [F_BC3]);    (* DXT4, DXT5 *)
  (12, [F_BC4]); (13, [F_BC5]); (14, [F_BC6H]); (15, [F_BC7]);
  (19, [F_E5B9G9R9_UFloat]); (22, [F_ETC2_R8G8B8]); (23, [F_ETC2_R8G8B8A8]);
  (24, [F_ETC2_R8G8B8A1]); (25, [F_EAC_R11]); (26, [F_EAC_R11G11]);
  (27, [F_ASTC_4x4]); (28, [F_ASTC_5x4]); (29, [F_ASTC_5x5]); (30, [F_ASTC_6x5]);
  (31, [F_ASTC_6x6]); (32, [F_ASTC_8x5]); (33, [F_ASTC_8x6]); (34, [F_ASTC_8x8]);
  (35, [F_ASTC_10x5]); (36, [F_ASTC_10x6]); (37, [F_ASTC_10x8]); (38, [F_ASTC_10x10]);
  (39, [F_ASTC_12x10]); (40, [F_ASTC_12x12])].

(** DXT2/DXT4 are the pre-multiplied variants of DXT3/DXT5. *)
Definition pvr_premultiplied (code : N) : option bool :=
  if (code =? 8) || (code =? 10) then Some true
  else if (code =? 9) || (code =? 11) then Some false else None.

(** Channel names are ASCII letters in the low word, bit counts bytes of the high word. *)
Definition pvr_channels (code : N) : list (chan * N) :=
  flat_map (fun k =>
    let name := (code / 2^(8*k)) mod 256 in
    let bits := (code / 2^(32 + 8*k)) mod 256 in
    match lookup name [(114, ChR); (103, ChG); (98, ChB); (97, ChA)] with
    | Some c => [(c, bits)]
    | None => []
    end) [0;1;2;3].

Definition pvr_format_ok (f : format) (code : N) : bool :=
  if code / 2^32 =? 0 then
    match lookup code pvr_special with
    | Some fs => existsb (format_eqb f) fs
    | None => false
    end
  else match layout_of f with
       | Channels l => chlist_eqb (pvr_channels code) l
       | _ => false
       end.

(** Channel types: 0-3 bytes, 4-7 shorts, 8-11 ints (unsigned/signed normalised, then plain),
    12 signed float, 13 unsigned float. *)
Definition pvr_channel_type_ok (t : ttype) (code : N) : bool :=
  match t with
  | T_UNorm => existsb (N.eqb code) [0;4;8]
  | T_SNorm => existsb (N.eqb code) [1;5;9]
  | T_UInt => existsb (N.eqb code) [2;6;10]
  | T_Int => existsb (N.eqb code) [3;7;11]
  | T_Float => code =? 12
  | T_UFloat => code =? 13
  end.

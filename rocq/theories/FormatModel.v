(** Pixel formats, their static tables, and the choice of converter.

    The tables and the switch statements below were transcribed mechanically from the C++
    source, in source order, so that a row can be checked against the line it comes from.
    Every definition cites the file and the lines of /repo it models. *)

From Coq Require Import NArith List Bool.
Import ListNotations.
Local Open Scope N_scope.

(** [enum class Texture::Format], lib/include/cuttlefish/Texture.h:59-130.
    C++ values outside the enumerators are not representable here. *)
Inductive format :=
| F_Unknown | F_R4G4 | F_R4G4B4A4 | F_B4G4R4A4 | F_A4R4G4B4 | F_R5G6B5 | F_B5G6R5
| F_R5G5B5A1 | F_B5G5R5A1 | F_A1R5G5B5 | F_R8 | F_R8G8 | F_R8G8B8 | F_B8G8R8 | F_R8G8B8A8
| F_B8G8R8A8 | F_A8B8G8R8 | F_A2R10G10B10 | F_A2B10G10R10 | F_R16 | F_R16G16
| F_R16G16B16 | F_R16G16B16A16 | F_R32 | F_R32G32 | F_R32G32B32 | F_R32G32B32A32
| F_B10G11R11_UFloat | F_E5B9G9R9_UFloat | F_BC1_RGB | F_BC1_RGBA | F_BC2 | F_BC3 | F_BC4
| F_BC5 | F_BC6H | F_BC7 | F_ETC1 | F_ETC2_R8G8B8 | F_ETC2_R8G8B8A1 | F_ETC2_R8G8B8A8
| F_EAC_R11 | F_EAC_R11G11 | F_ASTC_4x4 | F_ASTC_5x4 | F_ASTC_5x5 | F_ASTC_6x5
| F_ASTC_6x6 | F_ASTC_8x5 | F_ASTC_8x6 | F_ASTC_8x8 | F_ASTC_10x5 | F_ASTC_10x6
| F_ASTC_10x8 | F_ASTC_10x10 | F_ASTC_12x10 | F_ASTC_12x12 | F_PVRTC1_RGB_2BPP
| F_PVRTC1_RGBA_2BPP | F_PVRTC1_RGB_4BPP | F_PVRTC1_RGBA_4BPP | F_PVRTC2_RGBA_2BPP
| F_PVRTC2_RGBA_4BPP.

(** [enum class Texture::Type], lib/include/cuttlefish/Texture.h:135-143. *)
Inductive ttype := T_UNorm | T_SNorm | T_UInt | T_Int | T_UFloat | T_Float.

(** [enum class Texture::Dimension], lib/include/cuttlefish/Texture.h:48-54. *)
Inductive dimension := Dim1D | Dim2D | Dim3D | Cube.

(** [enum class Texture::Alpha], lib/include/cuttlefish/Texture.h:161-167. *)
Inductive alpha := AlphaNone | AlphaStandard | AlphaPreMultiplied | AlphaEncoded.

(** [enum class ColorSpace], lib/include/cuttlefish/Color.h:40-44. *)
Inductive colorspace := CS_Linear | CS_sRGB.

(** [enum class Texture::FileType], lib/include/cuttlefish/Texture.h:193-199. *)
Inductive filetype := FT_Auto | FT_DDS | FT_KTX | FT_PVR.

(** [enum class Texture::SaveResult], lib/include/cuttlefish/Texture.h:204-211. *)
Inductive saveresult := SR_Success | SR_Invalid | SR_UnknownFormat | SR_Unsupported | SR_WriteError.

(** The enumerators in declaration order. *)
Definition all_formats : list format :=
  [
   F_Unknown; F_R4G4; F_R4G4B4A4; F_B4G4R4A4; F_A4R4G4B4; F_R5G6B5; F_B5G6R5; F_R5G5B5A1;
   F_B5G5R5A1; F_A1R5G5B5; F_R8; F_R8G8; F_R8G8B8; F_B8G8R8; F_R8G8B8A8; F_B8G8R8A8;
   F_A8B8G8R8; F_A2R10G10B10; F_A2B10G10R10; F_R16; F_R16G16; F_R16G16B16; F_R16G16B16A16;
   F_R32; F_R32G32; F_R32G32B32; F_R32G32B32A32; F_B10G11R11_UFloat; F_E5B9G9R9_UFloat;
   F_BC1_RGB; F_BC1_RGBA; F_BC2; F_BC3; F_BC4; F_BC5; F_BC6H; F_BC7; F_ETC1; F_ETC2_R8G8B8;
   F_ETC2_R8G8B8A1; F_ETC2_R8G8B8A8; F_EAC_R11; F_EAC_R11G11; F_ASTC_4x4; F_ASTC_5x4;
   F_ASTC_5x5; F_ASTC_6x5; F_ASTC_6x6; F_ASTC_8x5; F_ASTC_8x6; F_ASTC_8x8; F_ASTC_10x5;
   F_ASTC_10x6; F_ASTC_10x8; F_ASTC_10x10; F_ASTC_12x10; F_ASTC_12x12; F_PVRTC1_RGB_2BPP;
   F_PVRTC1_RGBA_2BPP; F_PVRTC1_RGB_4BPP; F_PVRTC1_RGBA_4BPP; F_PVRTC2_RGBA_2BPP;
   F_PVRTC2_RGBA_4BPP].

Definition all_types : list ttype := [T_UNorm; T_SNorm; T_UInt; T_Int; T_UFloat; T_Float].

(** [static_cast<unsigned int>(format)]: position in the enum declaration. *)
Definition format_index (f : format) : nat :=
  match f with
  | F_Unknown => 0
  | F_R4G4 => 1
  | F_R4G4B4A4 => 2
  | F_B4G4R4A4 => 3
  | F_A4R4G4B4 => 4
  | F_R5G6B5 => 5
  | F_B5G6R5 => 6
  | F_R5G5B5A1 => 7
  | F_B5G5R5A1 => 8
  | F_A1R5G5B5 => 9
  | F_R8 => 10
  | F_R8G8 => 11
  | F_R8G8B8 => 12
  | F_B8G8R8 => 13
  | F_R8G8B8A8 => 14
  | F_B8G8R8A8 => 15
  | F_A8B8G8R8 => 16
  | F_A2R10G10B10 => 17
  | F_A2B10G10R10 => 18
  | F_R16 => 19
  | F_R16G16 => 20
  | F_R16G16B16 => 21
  | F_R16G16B16A16 => 22
  | F_R32 => 23
  | F_R32G32 => 24
  | F_R32G32B32 => 25
  | F_R32G32B32A32 => 26
  | F_B10G11R11_UFloat => 27
  | F_E5B9G9R9_UFloat => 28
  | F_BC1_RGB => 29
  | F_BC1_RGBA => 30
  | F_BC2 => 31
  | F_BC3 => 32
  | F_BC4 => 33
  | F_BC5 => 34
  | F_BC6H => 35
  | F_BC7 => 36
  | F_ETC1 => 37
  | F_ETC2_R8G8B8 => 38
  | F_ETC2_R8G8B8A1 => 39
  | F_ETC2_R8G8B8A8 => 40
  | F_EAC_R11 => 41
  | F_EAC_R11G11 => 42
  | F_ASTC_4x4 => 43
  | F_ASTC_5x4 => 44
  | F_ASTC_5x5 => 45
  | F_ASTC_6x5 => 46
  | F_ASTC_6x6 => 47
  | F_ASTC_8x5 => 48
  | F_ASTC_8x6 => 49
  | F_ASTC_8x8 => 50
  | F_ASTC_10x5 => 51
  | F_ASTC_10x6 => 52
  | F_ASTC_10x8 => 53
  | F_ASTC_10x10 => 54
  | F_ASTC_12x10 => 55
  | F_ASTC_12x12 => 56
  | F_PVRTC1_RGB_2BPP => 57
  | F_PVRTC1_RGBA_2BPP => 58
  | F_PVRTC1_RGB_4BPP => 59
  | F_PVRTC1_RGBA_4BPP => 60
  | F_PVRTC2_RGBA_2BPP => 61
  | F_PVRTC2_RGBA_4BPP => 62
  end%nat.

Definition type_index (t : ttype) : nat :=
  match t with T_UNorm => 0 | T_SNorm => 1 | T_UInt => 2 | T_Int => 3 | T_UFloat => 4 | T_Float => 5 end%nat.

(** Equality tests used by the translated [==] comparisons. *)
Definition type_eqb (a b : ttype) : bool := Nat.eqb (type_index a) (type_index b).
Definition format_eqb (a b : format) : bool := Nat.eqb (format_index a) (format_index b).
Definition cs_is_srgb (c : colorspace) : bool := match c with CS_sRGB => true | _ => false end.
Definition alpha_is_premultiplied (a : alpha) : bool :=
  match a with AlphaPreMultiplied => true | _ => false end.
Definition is_dim3d (d : dimension) : bool := match d with Dim3D => true | _ => false end.
Definition is_cube (d : dimension) : bool := match d with Cube => true | _ => false end.
Definition is_dim1d (d : dimension) : bool := match d with Dim1D => true | _ => false end.

(** Build configuration: CUTTLEFISH_HAS_S3TC/ETC/ASTC/PVRTC,
    lib/src/Texture.cpp:56-78.  Every theorem quantifies over all four switches. *)
Record flags := Flags { has_s3tc : bool; has_etc : bool; has_astc : bool; has_pvrtc : bool }.

(** The [valid] table of [Texture::isFormatValid(format, type)], lib/src/Texture.cpp:320-392.
    Columns: UNorm, SNorm, UInt, Int, UFloat, Float. *)
Definition valid_table (fl : flags) : list (list bool) := [
  [false; false; false; false; false; false]; (* Unknown *)
  [true; false; false; false; false; false]; (* R4G4 *)
  [true; false; false; false; false; false]; (* R4G4B4A4 *)
  [true; false; false; false; false; false]; (* B4G4R4A4 *)
  [true; false; false; false; false; false]; (* A4R4G4B4 *)
  [true; false; false; false; false; false]; (* R5G6B5 *)
  [true; false; false; false; false; false]; (* B5G6R5 *)
  [true; false; false; false; false; false]; (* R5G5B5A1 *)
  [true; false; false; false; false; false]; (* B5G5R5A1 *)
  [true; false; false; false; false; false]; (* A1R5G5B5 *)
  [true; true; true; true; false; false]; (* R8 *)
  [true; true; true; true; false; false]; (* R8G8 *)
  [true; true; true; true; false; false]; (* R8G8B8 *)
  [true; false; false; false; false; false]; (* B8G8R8 *)
  [true; true; true; true; false; false]; (* R8G8B8A8 *)
  [true; false; false; false; false; false]; (* B8G8R8A8 *)
  [true; false; false; false; false; false]; (* A8B8G8R8 *)
  [true; false; true; false; false; false]; (* A2R10G10B10 *)
  [true; false; true; false; false; false]; (* A2B10G10R10 *)
  [true; true; true; true; false; true]; (* R16 *)
  [true; true; true; true; false; true]; (* R16G16 *)
  [true; true; true; true; false; true]; (* R16G16B16 *)
  [true; true; true; true; false; true]; (* R16G16B16A16 *)
  [false; false; true; true; false; true]; (* R32 *)
  [false; false; true; true; false; true]; (* R32G32 *)
  [false; false; true; true; false; true]; (* R32G32B32 *)
  [false; false; true; true; false; true]; (* R32G32B32A32 *)
  [false; false; false; false; true; false]; (* B10G11R11_UFloat *)
  [false; false; false; false; true; false]; (* E5B9G9R9_UFloat *)
  [has_s3tc fl; false; false; false; false; false]; (* BC1_RGB *)
  [has_s3tc fl; false; false; false; false; false]; (* BC1_RGBA *)
  [has_s3tc fl; false; false; false; false; false]; (* BC2 *)
  [has_s3tc fl; false; false; false; false; false]; (* BC3 *)
  [has_s3tc fl; has_s3tc fl; false; false; false; false]; (* BC4 *)
  [has_s3tc fl; has_s3tc fl; false; false; false; false]; (* BC5 *)
  [false; false; false; false; has_s3tc fl; has_s3tc fl]; (* BC6H *)
  [has_s3tc fl; false; false; false; false; false]; (* BC7 *)
  [has_etc fl; false; false; false; false; false]; (* ETC1 *)
  [has_etc fl; false; false; false; false; false]; (* ETC2_R8G8B8 *)
  [has_etc fl; false; false; false; false; false]; (* ETC2_R8G8B8A1 *)
  [has_etc fl; false; false; false; false; false]; (* ETC2_R8G8B8A8 *)
  [has_etc fl; has_etc fl; false; false; false; false]; (* EAC_R11 *)
  [has_etc fl; has_etc fl; false; false; false; false]; (* EAC_R11G11 *)
  [has_astc fl; false; false; false; has_astc fl; false]; (* ASTC_4x4 *)
  [has_astc fl; false; false; false; has_astc fl; false]; (* ASTC_5x4 *)
  [has_astc fl; false; false; false; has_astc fl; false]; (* ASTC_5x5 *)
  [has_astc fl; false; false; false; has_astc fl; false]; (* ASTC_6x5 *)
  [has_astc fl; false; false; false; has_astc fl; false]; (* ASTC_6x6 *)
  [has_astc fl; false; false; false; has_astc fl; false]; (* ASTC_8x5 *)
  [has_astc fl; false; false; false; has_astc fl; false]; (* ASTC_8x6 *)
  [has_astc fl; false; false; false; has_astc fl; false]; (* ASTC_8x8 *)
  [has_astc fl; false; false; false; has_astc fl; false]; (* ASTC_10x5 *)
  [has_astc fl; false; false; false; has_astc fl; false]; (* ASTC_10x6 *)
  [has_astc fl; false; false; false; has_astc fl; false]; (* ASTC_10x8 *)
  [has_astc fl; false; false; false; has_astc fl; false]; (* ASTC_10x10 *)
  [has_astc fl; false; false; false; has_astc fl; false]; (* ASTC_12x10 *)
  [has_astc fl; false; false; false; has_astc fl; false]; (* ASTC_12x12 *)
  [has_pvrtc fl; false; false; false; false; false]; (* PVRTC1_RGB_2BPP *)
  [has_pvrtc fl; false; false; false; false; false]; (* PVRTC1_RGBA_2BPP *)
  [has_pvrtc fl; false; false; false; false; false]; (* PVRTC1_RGB_4BPP *)
  [has_pvrtc fl; false; false; false; false; false]; (* PVRTC1_RGBA_4BPP *)
  [has_pvrtc fl; false; false; false; false; false]; (* PVRTC2_RGBA_2BPP *)
  [has_pvrtc fl; false; false; false; false; false] (* PVRTC2_RGBA_4BPP *)
].

(** [Texture::isFormatValid(Format, Type)], lib/src/Texture.cpp:318-396.  The range guard
    of lines 389-393 is the default of [nth]. *)
Definition isFormatValid (fl : flags) (f : format) (t : ttype) : bool :=
  nth (type_index t) (nth (format_index f) (valid_table fl) []) false.

(** [Texture::hasNativeSRGB], lib/src/Texture.cpp:421-465. *)
Definition hasNativeSRGB (format : format) (type : ttype) : bool :=
  match format with
  | F_R8G8B8 | F_B8G8R8 | F_R8G8B8A8 | F_B8G8R8A8 | F_A8B8G8R8 | F_BC1_RGB | F_BC1_RGBA |
    F_BC2 | F_BC3 | F_BC7 | F_ETC2_R8G8B8 | F_ETC2_R8G8B8A1 | F_ETC2_R8G8B8A8 |
    F_PVRTC1_RGB_2BPP | F_PVRTC1_RGBA_2BPP | F_PVRTC1_RGB_4BPP | F_PVRTC1_RGBA_4BPP |
    F_PVRTC2_RGBA_2BPP | F_PVRTC2_RGBA_4BPP =>
      type_eqb type T_UNorm
  | F_ASTC_4x4 | F_ASTC_5x4 | F_ASTC_5x5 | F_ASTC_6x5 | F_ASTC_6x6 | F_ASTC_8x5 | F_ASTC_8x6 |
    F_ASTC_8x8 | F_ASTC_10x5 | F_ASTC_10x6 | F_ASTC_10x8 | F_ASTC_10x10 | F_ASTC_12x10 |
    F_ASTC_12x12 =>
      type_eqb type T_UNorm
  | _ =>
      false
  end.

(** [Texture::hasAlpha], lib/src/Texture.cpp:467-512. *)
Definition hasAlpha (format : format) : bool :=
  match format with
  | F_R4G4B4A4 | F_B4G4R4A4 | F_R5G5B5A1 | F_B5G5R5A1 | F_A1R5G5B5 | F_R8G8B8A8 | F_B8G8R8A8 |
    F_A8B8G8R8 | F_A2R10G10B10 | F_A2B10G10R10 | F_R16G16B16A16 | F_R32G32B32A32 |
    F_BC1_RGBA | F_BC2 | F_BC3 | F_BC7 | F_ETC2_R8G8B8A1 | F_ETC2_R8G8B8A8 | F_ASTC_4x4 |
    F_ASTC_5x4 | F_ASTC_5x5 | F_ASTC_6x5 | F_ASTC_6x6 | F_ASTC_8x5 | F_ASTC_8x6 | F_ASTC_8x8 |
    F_ASTC_10x5 | F_ASTC_10x6 | F_ASTC_10x8 | F_ASTC_10x10 | F_ASTC_12x10 | F_ASTC_12x12 |
    F_PVRTC1_RGBA_2BPP | F_PVRTC1_RGBA_4BPP | F_PVRTC2_RGBA_2BPP | F_PVRTC2_RGBA_4BPP =>
      true
  | _ =>
      false
  end.

(** Table and accessor of [Texture::blockWidth], lib/src/Texture.cpp:529-609. *)
Definition blockWidth_table : list N := [
  0; (* Unknown *)
  1; (* R4G4 *)
  1; (* R4G4B4A4 *)
  1; (* B4G4R4A4 *)
  1; (* A4R4G4B4 *)
  1; (* R5G6B5 *)
  1; (* B5G6R5 *)
  1; (* R5G5B5A1 *)
  1; (* B5G5R5A1 *)
  1; (* A1R5G5B5 *)
  1; (* R8 *)
  1; (* R8G8 *)
  1; (* R8G8B8 *)
  1; (* B8G8R8 *)
  1; (* R8G8B8A8 *)
  1; (* B8G8R8A8 *)
  1; (* A8B8G8R8 *)
  1; (* A2R10G10B10 *)
  1; (* A2B10G10R10 *)
  1; (* R16 *)
  1; (* R16G16 *)
  1; (* R16G16B16 *)
  1; (* R16G16B16A16 *)
  1; (* R32 *)
  1; (* R32G32 *)
  1; (* R32G32B32 *)
  1; (* R32G32B32A32 *)
  1; (* B10G11R11_UFloat *)
  1; (* E5B9G9R9_UFloat *)
  4; (* BC1_RGB *)
  4; (* BC1_RGBA *)
  4; (* BC2 *)
  4; (* BC3 *)
  4; (* BC4 *)
  4; (* BC5 *)
  4; (* BC6H *)
  4; (* BC7 *)
  4; (* ETC1 *)
  4; (* ETC2_R8G8B8 *)
  4; (* ETC2_R8G8B8A1 *)
  4; (* ETC2_R8G8B8A8 *)
  4; (* EAC_R11 *)
  4; (* EAC_R11G11 *)
  4; (* ASTC_4x4 *)
  5; (* ASTC_5x4 *)
  5; (* ASTC_5x5 *)
  6; (* ASTC_6x5 *)
  6; (* ASTC_6x6 *)
  8; (* ASTC_8x5 *)
  8; (* ASTC_8x6 *)
  8; (* ASTC_8x8 *)
  10; (* ASTC_10x5 *)
  10; (* ASTC_10x6 *)
  10; (* ASTC_10x8 *)
  10; (* ASTC_10x10 *)
  12; (* ASTC_12x10 *)
  12; (* ASTC_12x12 *)
  8; (* PVRTC1_RGB_2BPP *)
  8; (* PVRTC1_RGBA_2BPP *)
  4; (* PVRTC1_RGB_4BPP *)
  4; (* PVRTC1_RGBA_4BPP *)
  8; (* PVRTC2_RGBA_2BPP *)
  4 (* PVRTC2_RGBA_4BPP *)
].
Definition blockWidth (f : format) : N := nth (format_index f) blockWidth_table 0.

(** Table and accessor of [Texture::blockHeight], lib/src/Texture.cpp:611-691. *)
Definition blockHeight_table : list N := [
  0; (* Unknown *)
  1; (* R4G4 *)
  1; (* R4G4B4A4 *)
  1; (* B4G4R4A4 *)
  1; (* A4R4G4B4 *)
  1; (* R5G6B5 *)
  1; (* B5G6R5 *)
  1; (* R5G5B5A1 *)
  1; (* B5G5R5A1 *)
  1; (* A1R5G5B5 *)
  1; (* R8 *)
  1; (* R8G8 *)
  1; (* R8G8B8 *)
  1; (* B8G8R8 *)
  1; (* R8G8B8A8 *)
  1; (* B8G8R8A8 *)
  1; (* A8B8G8R8 *)
  1; (* A2R10G10B10 *)
  1; (* A2B10G10R10 *)
  1; (* R16 *)
  1; (* R16G16 *)
  1; (* R16G16B16 *)
  1; (* R16G16B16A16 *)
  1; (* R32 *)
  1; (* R32G32 *)
  1; (* R32G32B32 *)
  1; (* R32G32B32A32 *)
  1; (* B10G11R11_UFloat *)
  1; (* E5B9G9R9_UFloat *)
  4; (* BC1_RGB *)
  4; (* BC1_RGBA *)
  4; (* BC2 *)
  4; (* BC3 *)
  4; (* BC4 *)
  4; (* BC5 *)
  4; (* BC6H *)
  4; (* BC7 *)
  4; (* ETC1 *)
  4; (* ETC2_R8G8B8 *)
  4; (* ETC2_R8G8B8A1 *)
  4; (* ETC2_R8G8B8A8 *)
  4; (* EAC_R11 *)
  4; (* EAC_R11G11 *)
  4; (* ASTC_4x4 *)
  4; (* ASTC_5x4 *)
  5; (* ASTC_5x5 *)
  5; (* ASTC_6x5 *)
  6; (* ASTC_6x6 *)
  5; (* ASTC_8x5 *)
  6; (* ASTC_8x6 *)
  8; (* ASTC_8x8 *)
  5; (* ASTC_10x5 *)
  6; (* ASTC_10x6 *)
  8; (* ASTC_10x8 *)
  10; (* ASTC_10x10 *)
  10; (* ASTC_12x10 *)
  12; (* ASTC_12x12 *)
  4; (* PVRTC1_RGB_2BPP *)
  4; (* PVRTC1_RGBA_2BPP *)
  4; (* PVRTC1_RGB_4BPP *)
  4; (* PVRTC1_RGBA_4BPP *)
  4; (* PVRTC2_RGBA_2BPP *)
  4 (* PVRTC2_RGBA_4BPP *)
].
Definition blockHeight (f : format) : N := nth (format_index f) blockHeight_table 0.

(** Table and accessor of [Texture::blockSize], lib/src/Texture.cpp:693-773. *)
Definition blockSize_table : list N := [
  0; (* Unknown *)
  1; (* R4G4 *)
  2; (* R4G4B4A4 *)
  2; (* B4G4R4A4 *)
  2; (* A4R4G4B4 *)
  2; (* R5G6B5 *)
  2; (* B5G6R5 *)
  2; (* R5G5B5A1 *)
  2; (* B5G5R5A1 *)
  2; (* A1R5G5B5 *)
  1; (* R8 *)
  2; (* R8G8 *)
  3; (* R8G8B8 *)
  3; (* B8G8R8 *)
  4; (* R8G8B8A8 *)
  4; (* B8G8R8A8 *)
  4; (* A8B8G8R8 *)
  4; (* A2R10G10B10 *)
  4; (* A2B10G10R10 *)
  2; (* R16 *)
  4; (* R16G16 *)
  6; (* R16G16B16 *)
  8; (* R16G16B16A16 *)
  4; (* R32 *)
  8; (* R32G32 *)
  12; (* R32G32B32 *)
  16; (* R32G32B32A32 *)
  4; (* B10G11R11_UFloat *)
  4; (* E5B9G9R9_UFloat *)
  8; (* BC1_RGB *)
  8; (* BC1_RGBA *)
  16; (* BC2 *)
  16; (* BC3 *)
  8; (* BC4 *)
  16; (* BC5 *)
  16; (* BC6H *)
  16; (* BC7 *)
  8; (* ETC1 *)
  8; (* ETC2_R8G8B8 *)
  8; (* ETC2_R8G8B8A1 *)
  16; (* ETC2_R8G8B8A8 *)
  8; (* EAC_R11 *)
  16; (* EAC_R11G11 *)
  16; (* ASTC_4x4 *)
  16; (* ASTC_5x4 *)
  16; (* ASTC_5x5 *)
  16; (* ASTC_6x5 *)
  16; (* ASTC_6x6 *)
  16; (* ASTC_8x5 *)
  16; (* ASTC_8x6 *)
  16; (* ASTC_8x8 *)
  16; (* ASTC_10x5 *)
  16; (* ASTC_10x6 *)
  16; (* ASTC_10x8 *)
  16; (* ASTC_10x10 *)
  16; (* ASTC_12x10 *)
  16; (* ASTC_12x12 *)
  8; (* PVRTC1_RGB_2BPP *)
  8; (* PVRTC1_RGBA_2BPP *)
  8; (* PVRTC1_RGB_4BPP *)
  8; (* PVRTC1_RGBA_4BPP *)
  8; (* PVRTC2_RGBA_2BPP *)
  8 (* PVRTC2_RGBA_4BPP *)
].
Definition blockSize (f : format) : N := nth (format_index f) blockSize_table 0.

(** Table and accessor of [Texture::minWidth], lib/src/Texture.cpp:775-855. *)
Definition minWidth_table : list N := [
  0; (* Unknown *)
  1; (* R4G4 *)
  1; (* R4G4B4A4 *)
  1; (* B4G4R4A4 *)
  1; (* A4R4G4B4 *)
  1; (* R5G6B5 *)
  1; (* B5G6R5 *)
  1; (* R5G5B5A1 *)
  1; (* B5G5R5A1 *)
  1; (* A1R5G5B5 *)
  1; (* R8 *)
  1; (* R8G8 *)
  1; (* R8G8B8 *)
  1; (* B8G8R8 *)
  1; (* R8G8B8A8 *)
  1; (* B8G8R8A8 *)
  1; (* A8B8G8R8 *)
  1; (* A2R10G10B10 *)
  1; (* A2B10G10R10 *)
  1; (* R16 *)
  1; (* R16G16 *)
  1; (* R16G16B16 *)
  1; (* R16G16B16A16 *)
  1; (* R32 *)
  1; (* R32G32 *)
  1; (* R32G32B32 *)
  1; (* R32G32B32A32 *)
  1; (* B10G11R11_UFloat *)
  1; (* E5B9G9R9_UFloat *)
  4; (* BC1_RGB *)
  4; (* BC1_RGBA *)
  4; (* BC2 *)
  4; (* BC3 *)
  4; (* BC4 *)
  4; (* BC5 *)
  4; (* BC6H *)
  4; (* BC7 *)
  4; (* ETC1 *)
  4; (* ETC2_R8G8B8 *)
  4; (* ETC2_R8G8B8A1 *)
  4; (* ETC2_R8G8B8A8 *)
  4; (* EAC_R11 *)
  4; (* EAC_R11G11 *)
  4; (* ASTC_4x4 *)
  5; (* ASTC_5x4 *)
  5; (* ASTC_5x5 *)
  6; (* ASTC_6x5 *)
  6; (* ASTC_6x6 *)
  8; (* ASTC_8x5 *)
  8; (* ASTC_8x6 *)
  8; (* ASTC_8x8 *)
  10; (* ASTC_10x5 *)
  10; (* ASTC_10x6 *)
  10; (* ASTC_10x8 *)
  10; (* ASTC_10x10 *)
  12; (* ASTC_12x10 *)
  12; (* ASTC_12x12 *)
  16; (* PVRTC1_RGB_2BPP *)
  16; (* PVRTC1_RGBA_2BPP *)
  8; (* PVRTC1_RGB_4BPP *)
  8; (* PVRTC1_RGBA_4BPP *)
  16; (* PVRTC2_RGBA_2BPP *)
  8 (* PVRTC2_RGBA_4BPP *)
].
Definition minWidth (f : format) : N := nth (format_index f) minWidth_table 0.

(** Table and accessor of [Texture::minHeight], lib/src/Texture.cpp:857-937. *)
Definition minHeight_table : list N := [
  0; (* Unknown *)
  1; (* R4G4 *)
  1; (* R4G4B4A4 *)
  1; (* B4G4R4A4 *)
  1; (* A4R4G4B4 *)
  1; (* R5G6B5 *)
  1; (* B5G6R5 *)
  1; (* R5G5B5A1 *)
  1; (* B5G5R5A1 *)
  1; (* A1R5G5B5 *)
  1; (* R8 *)
  1; (* R8G8 *)
  1; (* R8G8B8 *)
  1; (* B8G8R8 *)
  1; (* R8G8B8A8 *)
  1; (* B8G8R8A8 *)
  1; (* A8B8G8R8 *)
  1; (* A2R10G10B10 *)
  1; (* A2B10G10R10 *)
  1; (* R16 *)
  1; (* R16G16 *)
  1; (* R16G16B16 *)
  1; (* R16G16B16A16 *)
  1; (* R32 *)
  1; (* R32G32 *)
  1; (* R32G32B32 *)
  1; (* R32G32B32A32 *)
  1; (* B10G11R11_UFloat *)
  1; (* E5B9G9R9_UFloat *)
  4; (* BC1_RGB *)
  4; (* BC1_RGBA *)
  4; (* BC2 *)
  4; (* BC3 *)
  4; (* BC4 *)
  4; (* BC5 *)
  4; (* BC6H *)
  4; (* BC7 *)
  4; (* ETC1 *)
  4; (* ETC2_R8G8B8 *)
  4; (* ETC2_R8G8B8A1 *)
  4; (* ETC2_R8G8B8A8 *)
  4; (* EAC_R11 *)
  4; (* EAC_R11G11 *)
  4; (* ASTC_4x4 *)
  4; (* ASTC_5x4 *)
  5; (* ASTC_5x5 *)
  5; (* ASTC_6x5 *)
  6; (* ASTC_6x6 *)
  5; (* ASTC_8x5 *)
  6; (* ASTC_8x6 *)
  8; (* ASTC_8x8 *)
  5; (* ASTC_10x5 *)
  6; (* ASTC_10x6 *)
  8; (* ASTC_10x8 *)
  10; (* ASTC_10x10 *)
  10; (* ASTC_12x10 *)
  12; (* ASTC_12x12 *)
  8; (* PVRTC1_RGB_2BPP *)
  8; (* PVRTC1_RGBA_2BPP *)
  8; (* PVRTC1_RGB_4BPP *)
  8; (* PVRTC1_RGBA_4BPP *)
  8; (* PVRTC2_RGBA_2BPP *)
  8 (* PVRTC2_RGBA_4BPP *)
].
Definition minHeight (f : format) : N := nth (format_index f) minHeight_table 0.

(** What [createConverter] returns: one constructor per converter class, with the template
    and constructor arguments that distinguish instances.
    [bits] is [8*sizeof(T)], [ch] the channel count [C]. *)
Inductive converter :=
| CvUNorm (bits ch : N)            (* UNormConverter<uintN_t, C>, StandardConverter.h:69-107 *)
| CvSNorm (bits ch : N)            (* SNormConverter<intN_t, C>, StandardConverter.h:110-148 *)
| CvInt (signed : bool) (bits ch : N) (* IntConverter<T, C>, StandardConverter.h:151-191 *)
| CvFloat (ch : N)                 (* FloatConverter<C>, StandardConverter.h:194-228 *)
| CvHalf (ch : N)                  (* HalfConverter<C>, StandardConverter.h:231-312 *)
| CvR4G4 | CvR4G4B4A4 | CvB4G4R4A4 | CvA4R4G4B4 | CvR5G6B5 | CvB5G6R5
| CvR5G5B5A1 | CvB5G5R5A1 | CvA1R5G5B5 | CvB8G8R8 | CvB8G8R8A8 | CvA8B8G8R8
| CvA2R10G10B10UNorm | CvA2R10G10B10UInt | CvA2B10G10R10UNorm | CvA2B10G10R10UInt
| CvB10R11R11UFloat | CvE5B9G9R9UFloat  (* StandardConverter.cpp *)
| CvBc1 | CvBc1A | CvBc2 | CvBc3 | CvBc4 (signed : bool) | CvBc5 (signed : bool)
| CvBc6H (signed : bool) | CvBc7   (* S3tcConverter.h *)
| CvEtc (f : format) (t : ttype)   (* EtcConverter.h, reads texture.format()/type() *)
| CvAstc (f : format) (t : ttype) (bx by_ : N) (* AstcConverter.h *)
| CvPvrtc (f : format).            (* PvrtcConverter.h *)

(** [createConverter], lib/src/Converter.cpp:32-506.  [None] is [nullptr].  Cases inside an
    [#if CUTTLEFISH_HAS_x] block fall to [default: return nullptr] when the switch is off. *)
Definition createConverter (fl : flags) (format : format) (type : ttype) : option converter :=
  match format with
  | F_R4G4 =>
      if type_eqb type T_UNorm then
        Some CvR4G4
      else
        None
  | F_R4G4B4A4 =>
      if type_eqb type T_UNorm then
        Some CvR4G4B4A4
      else
        None
  | F_B4G4R4A4 =>
      if type_eqb type T_UNorm then
        Some CvB4G4R4A4
      else
        None
  | F_A4R4G4B4 =>
      if type_eqb type T_UNorm then
        Some CvA4R4G4B4
      else
        None
  | F_R5G6B5 =>
      if type_eqb type T_UNorm then
        Some CvR5G6B5
      else
        None
  | F_B5G6R5 =>
      if type_eqb type T_UNorm then
        Some CvB5G6R5
      else
        None
  | F_R5G5B5A1 =>
      if type_eqb type T_UNorm then
        Some CvR5G5B5A1
      else
        None
  | F_B5G5R5A1 =>
      if type_eqb type T_UNorm then
        Some CvB5G5R5A1
      else
        None
  | F_A1R5G5B5 =>
      if type_eqb type T_UNorm then
        Some CvA1R5G5B5
      else
        None
  | F_R8 =>
      match type with
      | T_UNorm =>
          Some (CvUNorm 8 1)
      | T_SNorm =>
          Some (CvSNorm 8 1)
      | T_UInt =>
          Some (CvInt false 8 1)
      | T_Int =>
          Some (CvInt true 8 1)
      | _ =>
          None
      end
  | F_R8G8 =>
      match type with
      | T_UNorm =>
          Some (CvUNorm 8 2)
      | T_SNorm =>
          Some (CvSNorm 8 2)
      | T_UInt =>
          Some (CvInt false 8 2)
      | T_Int =>
          Some (CvInt true 8 2)
      | _ =>
          None
      end
  | F_R8G8B8 =>
      match type with
      | T_UNorm =>
          Some (CvUNorm 8 3)
      | T_SNorm =>
          Some (CvSNorm 8 3)
      | T_UInt =>
          Some (CvInt false 8 3)
      | T_Int =>
          Some (CvInt true 8 3)
      | _ =>
          None
      end
  | F_B8G8R8 =>
      if type_eqb type T_UNorm then
        Some CvB8G8R8
      else
        None
  | F_R8G8B8A8 =>
      match type with
      | T_UNorm =>
          Some (CvUNorm 8 4)
      | T_SNorm =>
          Some (CvSNorm 8 4)
      | T_UInt =>
          Some (CvInt false 8 4)
      | T_Int =>
          Some (CvInt true 8 4)
      | _ =>
          None
      end
  | F_B8G8R8A8 =>
      if type_eqb type T_UNorm then
        Some CvB8G8R8A8
      else
        None
  | F_A8B8G8R8 =>
      if type_eqb type T_UNorm then
        Some CvA8B8G8R8
      else
        None
  | F_A2R10G10B10 =>
      match type with
      | T_UNorm =>
          Some CvA2R10G10B10UNorm
      | T_UInt =>
          Some CvA2R10G10B10UInt
      | _ =>
          None
      end
  | F_A2B10G10R10 =>
      match type with
      | T_UNorm =>
          Some CvA2B10G10R10UNorm
      | T_UInt =>
          Some CvA2B10G10R10UInt
      | _ =>
          None
      end
  | F_R16 =>
      match type with
      | T_UNorm =>
          Some (CvUNorm 16 1)
      | T_SNorm =>
          Some (CvSNorm 16 1)
      | T_UInt =>
          Some (CvInt false 16 1)
      | T_Int =>
          Some (CvInt true 16 1)
      | T_Float =>
          Some (CvHalf 1)
      | _ =>
          None
      end
  | F_R16G16 =>
      match type with
      | T_UNorm =>
          Some (CvUNorm 16 2)
      | T_SNorm =>
          Some (CvSNorm 16 2)
      | T_UInt =>
          Some (CvInt false 16 2)
      | T_Int =>
          Some (CvInt true 16 2)
      | T_Float =>
          Some (CvHalf 2)
      | _ =>
          None
      end
  | F_R16G16B16 =>
      match type with
      | T_UNorm =>
          Some (CvUNorm 16 3)
      | T_SNorm =>
          Some (CvSNorm 16 3)
      | T_UInt =>
          Some (CvInt false 16 3)
      | T_Int =>
          Some (CvInt true 16 3)
      | T_Float =>
          Some (CvHalf 3)
      | _ =>
          None
      end
  | F_R16G16B16A16 =>
      match type with
      | T_UNorm =>
          Some (CvUNorm 16 4)
      | T_SNorm =>
          Some (CvSNorm 16 4)
      | T_UInt =>
          Some (CvInt false 16 4)
      | T_Int =>
          Some (CvInt true 16 4)
      | T_Float =>
          Some (CvHalf 4)
      | _ =>
          None
      end
  | F_R32 =>
      match type with
      | T_UInt =>
          Some (CvInt false 32 1)
      | T_Int =>
          Some (CvInt true 32 1)
      | T_Float =>
          Some (CvFloat 1)
      | _ =>
          None
      end
  | F_R32G32 =>
      match type with
      | T_UInt =>
          Some (CvInt false 32 2)
      | T_Int =>
          Some (CvInt true 32 2)
      | T_Float =>
          Some (CvFloat 2)
      | _ =>
          None
      end
  | F_R32G32B32 =>
      match type with
      | T_UInt =>
          Some (CvInt false 32 3)
      | T_Int =>
          Some (CvInt true 32 3)
      | T_Float =>
          Some (CvFloat 3)
      | _ =>
          None
      end
  | F_R32G32B32A32 =>
      match type with
      | T_UInt =>
          Some (CvInt false 32 4)
      | T_Int =>
          Some (CvInt true 32 4)
      | T_Float =>
          Some (CvFloat 4)
      | _ =>
          None
      end
  | F_B10G11R11_UFloat =>
      if type_eqb type T_UFloat then
        Some CvB10R11R11UFloat
      else
        None
  | F_E5B9G9R9_UFloat =>
      if type_eqb type T_UFloat then
        Some CvE5B9G9R9UFloat
      else
        None
  | F_BC1_RGB =>
      if has_s3tc fl then
        if type_eqb type T_UNorm then
          Some CvBc1
        else
          None
      else None
  | F_BC1_RGBA =>
      if has_s3tc fl then
        if type_eqb type T_UNorm then
          Some CvBc1A
        else
          None
      else None
  | F_BC2 =>
      if has_s3tc fl then
        if type_eqb type T_UNorm then
          Some CvBc2
        else
          None
      else None
  | F_BC3 =>
      if has_s3tc fl then
        if type_eqb type T_UNorm then
          Some CvBc3
        else
          None
      else None
  | F_BC4 =>
      if has_s3tc fl then
        match type with
        | T_UNorm =>
            if has_s3tc fl then
              Some (CvBc4 false)
            else None
        | T_SNorm =>
            if has_s3tc fl then
              Some (CvBc4 true)
            else None
        | _ =>
            if has_s3tc fl then
              None
            else None
        end
      else None
  | F_BC5 =>
      if has_s3tc fl then
        match type with
        | T_UNorm =>
            if has_s3tc fl then
              Some (CvBc5 false)
            else None
        | T_SNorm =>
            if has_s3tc fl then
              Some (CvBc5 true)
            else None
        | _ =>
            if has_s3tc fl then
              None
            else None
        end
      else None
  | F_BC6H =>
      if has_s3tc fl then
        match type with
        | T_UFloat =>
            if has_s3tc fl then
              Some (CvBc6H false)
            else None
        | T_Float =>
            if has_s3tc fl then
              Some (CvBc6H true)
            else None
        | _ =>
            if has_s3tc fl then
              None
            else None
        end
      else None
  | F_BC7 =>
      if has_s3tc fl then
        if type_eqb type T_UNorm then
          Some CvBc7
        else
          None
      else None
  | F_ETC1 | F_ETC2_R8G8B8 | F_ETC2_R8G8B8A1 | F_ETC2_R8G8B8A8 =>
      if has_etc fl then
        if type_eqb type T_UNorm then
          Some (CvEtc format type)
        else
          None
      else None
  | F_EAC_R11 | F_EAC_R11G11 =>
      if has_etc fl then
        if type_eqb type T_UNorm || type_eqb type T_SNorm then
          Some (CvEtc format type)
        else
          None
      else None
  | F_ASTC_4x4 =>
      if has_astc fl then
        if type_eqb type T_UNorm || type_eqb type T_UFloat then
          Some (CvAstc format type 4 4)
        else
          None
      else None
  | F_ASTC_5x4 =>
      if has_astc fl then
        if type_eqb type T_UNorm || type_eqb type T_UFloat then
          Some (CvAstc format type 5 4)
        else
          None
      else None
  | F_ASTC_5x5 =>
      if has_astc fl then
        if type_eqb type T_UNorm || type_eqb type T_UFloat then
          Some (CvAstc format type 5 5)
        else
          None
      else None
  | F_ASTC_6x5 =>
      if has_astc fl then
        if type_eqb type T_UNorm || type_eqb type T_UFloat then
          Some (CvAstc format type 6 5)
        else
          None
      else None
  | F_ASTC_6x6 =>
      if has_astc fl then
        if type_eqb type T_UNorm || type_eqb type T_UFloat then
          Some (CvAstc format type 6 6)
        else
          None
      else None
  | F_ASTC_8x5 =>
      if has_astc fl then
        if type_eqb type T_UNorm || type_eqb type T_UFloat then
          Some (CvAstc format type 8 5)
        else
          None
      else None
  | F_ASTC_8x6 =>
      if has_astc fl then
        if type_eqb type T_UNorm || type_eqb type T_UFloat then
          Some (CvAstc format type 8 6)
        else
          None
      else None
  | F_ASTC_8x8 =>
      if has_astc fl then
        if type_eqb type T_UNorm || type_eqb type T_UFloat then
          Some (CvAstc format type 8 8)
        else
          None
      else None
  | F_ASTC_10x5 =>
      if has_astc fl then
        if type_eqb type T_UNorm || type_eqb type T_UFloat then
          Some (CvAstc format type 10 5)
        else
          None
      else None
  | F_ASTC_10x6 =>
      if has_astc fl then
        if type_eqb type T_UNorm || type_eqb type T_UFloat then
          Some (CvAstc format type 10 6)
        else
          None
      else None
  | F_ASTC_10x8 =>
      if has_astc fl then
        if type_eqb type T_UNorm || type_eqb type T_UFloat then
          Some (CvAstc format type 10 8)
        else
          None
      else None
  | F_ASTC_10x10 =>
      if has_astc fl then
        if type_eqb type T_UNorm || type_eqb type T_UFloat then
          Some (CvAstc format type 10 10)
        else
          None
      else None
  | F_ASTC_12x10 =>
      if has_astc fl then
        if type_eqb type T_UNorm || type_eqb type T_UFloat then
          Some (CvAstc format type 12 10)
        else
          None
      else None
  | F_ASTC_12x12 =>
      if has_astc fl then
        if type_eqb type T_UNorm || type_eqb type T_UFloat then
          Some (CvAstc format type 12 12)
        else
          None
      else None
  | F_PVRTC1_RGB_2BPP | F_PVRTC1_RGBA_2BPP | F_PVRTC1_RGB_4BPP | F_PVRTC1_RGBA_4BPP |
    F_PVRTC2_RGBA_2BPP | F_PVRTC2_RGBA_4BPP =>
      if has_pvrtc fl then
        if type_eqb type T_UNorm then
          Some (CvPvrtc format)
        else
          None
      else None
  | _ =>
      None
  end.

(** Format codes written by the three container writers.

    Transcribed mechanically from lib/src/SaveDds.cpp, lib/src/SaveKtx.cpp and
    lib/src/SavePvr.cpp, in source order. *)

From Coq Require Import NArith List Bool.
From Verif Require Import FormatModel.
Import ListNotations.
Local Open Scope N_scope.

(** * DDS.  [enum DdsDxt10Format], lib/src/SaveDds.cpp:70-193 (the enumerators in use). *)
Definition DdsDxt10Format_UNKNOWN : N := 0. (* :72 *)
Definition DdsDxt10Format_R32G32B32A32_FLOAT : N := 2. (* :74 *)
Definition DdsDxt10Format_R32G32B32A32_UINT : N := 3. (* :75 *)
Definition DdsDxt10Format_R32G32B32A32_SINT : N := 4. (* :76 *)
Definition DdsDxt10Format_R32G32B32_FLOAT : N := 6. (* :78 *)
Definition DdsDxt10Format_R32G32B32_UINT : N := 7. (* :79 *)
Definition DdsDxt10Format_R32G32B32_SINT : N := 8. (* :80 *)
Definition DdsDxt10Format_R16G16B16A16_FLOAT : N := 10. (* :82 *)
Definition DdsDxt10Format_R16G16B16A16_UNORM : N := 11. (* :83 *)
Definition DdsDxt10Format_R16G16B16A16_UINT : N := 12. (* :84 *)
Definition DdsDxt10Format_R16G16B16A16_SNORM : N := 13. (* :85 *)
Definition DdsDxt10Format_R16G16B16A16_SINT : N := 14. (* :86 *)
Definition DdsDxt10Format_R32G32_FLOAT : N := 16. (* :88 *)
Definition DdsDxt10Format_R32G32_UINT : N := 17. (* :89 *)
Definition DdsDxt10Format_R32G32_SINT : N := 18. (* :90 *)
Definition DdsDxt10Format_R10G10B10A2_UNORM : N := 24. (* :96 *)
Definition DdsDxt10Format_R10G10B10A2_UINT : N := 25. (* :97 *)
Definition DdsDxt10Format_R11G11B10_FLOAT : N := 26. (* :98 *)
Definition DdsDxt10Format_R8G8B8A8_UNORM : N := 28. (* :100 *)
Definition DdsDxt10Format_R8G8B8A8_UNORM_SRGB : N := 29. (* :101 *)
Definition DdsDxt10Format_R8G8B8A8_UINT : N := 30. (* :102 *)
Definition DdsDxt10Format_R8G8B8A8_SNORM : N := 31. (* :103 *)
Definition DdsDxt10Format_R8G8B8A8_SINT : N := 32. (* :104 *)
Definition DdsDxt10Format_R16G16_FLOAT : N := 34. (* :106 *)
Definition DdsDxt10Format_R16G16_UNORM : N := 35. (* :107 *)
Definition DdsDxt10Format_R16G16_UINT : N := 36. (* :108 *)
Definition DdsDxt10Format_R16G16_SNORM : N := 37. (* :109 *)
Definition DdsDxt10Format_R16G16_SINT : N := 38. (* :110 *)
Definition DdsDxt10Format_R32_FLOAT : N := 41. (* :113 *)
Definition DdsDxt10Format_R32_UINT : N := 42. (* :114 *)
Definition DdsDxt10Format_R32_SINT : N := 43. (* :115 *)
Definition DdsDxt10Format_R8G8_UNORM : N := 49. (* :121 *)
Definition DdsDxt10Format_R8G8_UINT : N := 50. (* :122 *)
Definition DdsDxt10Format_R8G8_SNORM : N := 51. (* :123 *)
Definition DdsDxt10Format_R8G8_SINT : N := 52. (* :124 *)
Definition DdsDxt10Format_R16_FLOAT : N := 54. (* :126 *)
Definition DdsDxt10Format_R16_UNORM : N := 56. (* :128 *)
Definition DdsDxt10Format_R16_UINT : N := 57. (* :129 *)
Definition DdsDxt10Format_R16_SNORM : N := 58. (* :130 *)
Definition DdsDxt10Format_R16_SINT : N := 59. (* :131 *)
Definition DdsDxt10Format_R8_UNORM : N := 61. (* :133 *)
Definition DdsDxt10Format_R8_UINT : N := 62. (* :134 *)
Definition DdsDxt10Format_R8_SNORM : N := 63. (* :135 *)
Definition DdsDxt10Format_R8_SINT : N := 64. (* :136 *)
Definition DdsDxt10Format_R9G9B9E5_SHAREDEXP : N := 67. (* :139 *)
Definition DdsDxt10Format_BC1_UNORM : N := 71. (* :143 *)
Definition DdsDxt10Format_BC1_UNORM_SRGB : N := 72. (* :144 *)
Definition DdsDxt10Format_BC2_UNORM : N := 74. (* :146 *)
Definition DdsDxt10Format_BC2_UNORM_SRGB : N := 75. (* :147 *)
Definition DdsDxt10Format_BC3_UNORM : N := 77. (* :149 *)
Definition DdsDxt10Format_BC3_UNORM_SRGB : N := 78. (* :150 *)
Definition DdsDxt10Format_BC4_UNORM : N := 80. (* :152 *)
Definition DdsDxt10Format_BC4_SNORM : N := 81. (* :153 *)
Definition DdsDxt10Format_BC5_UNORM : N := 83. (* :155 *)
Definition DdsDxt10Format_BC5_SNORM : N := 84. (* :156 *)
Definition DdsDxt10Format_B5G6R5_UNORM : N := 85. (* :157 *)
Definition DdsDxt10Format_B5G5R5A1_UNORM : N := 86. (* :158 *)
Definition DdsDxt10Format_B8G8R8A8_UNORM : N := 87. (* :159 *)
Definition DdsDxt10Format_B8G8R8A8_UNORM_SRGB : N := 91. (* :163 *)
Definition DdsDxt10Format_BC6H_UF16 : N := 95. (* :167 *)
Definition DdsDxt10Format_BC6H_SF16 : N := 96. (* :168 *)
Definition DdsDxt10Format_BC7_UNORM : N := 98. (* :170 *)
Definition DdsDxt10Format_BC7_UNORM_SRGB : N := 99. (* :171 *)
Definition DdsDxt10Format_IA44 : N := 112. (* :184 *)
Definition DdsDxt10Format_B4G4R4A4_UNORM : N := 115. (* :187 *)

(** [getDdsFormat], lib/src/SaveDds.cpp:255-551. *)
Definition getDdsFormat (format : format) (type : ttype) (colorSpace : colorspace) : N :=
  match format with
  | F_R4G4 =>
      if type_eqb type T_UNorm then
        DdsDxt10Format_IA44
      else
        DdsDxt10Format_UNKNOWN
  | F_A4R4G4B4 =>
      if type_eqb type T_UNorm then
        DdsDxt10Format_B4G4R4A4_UNORM
      else
        DdsDxt10Format_UNKNOWN
  | F_R5G6B5 =>
      if type_eqb type T_UNorm then
        DdsDxt10Format_B5G6R5_UNORM
      else
        DdsDxt10Format_UNKNOWN
  | F_A1R5G5B5 =>
      if type_eqb type T_UNorm then
        DdsDxt10Format_B5G5R5A1_UNORM
      else
        DdsDxt10Format_UNKNOWN
  | F_R8 =>
      match type with
      | T_UNorm =>
          DdsDxt10Format_R8_UNORM
      | T_SNorm =>
          DdsDxt10Format_R8_SNORM
      | T_UInt =>
          DdsDxt10Format_R8_UINT
      | T_Int =>
          DdsDxt10Format_R8_SINT
      | _ =>
          DdsDxt10Format_UNKNOWN
      end
  | F_R8G8 =>
      match type with
      | T_UNorm =>
          DdsDxt10Format_R8G8_UNORM
      | T_SNorm =>
          DdsDxt10Format_R8G8_SNORM
      | T_UInt =>
          DdsDxt10Format_R8G8_UINT
      | T_Int =>
          DdsDxt10Format_R8G8_SINT
      | _ =>
          DdsDxt10Format_UNKNOWN
      end
  | F_R8G8B8A8 =>
      match type with
      | T_UNorm =>
          if cs_is_srgb colorSpace then
            DdsDxt10Format_R8G8B8A8_UNORM_SRGB
          else
            DdsDxt10Format_R8G8B8A8_UNORM
      | T_SNorm =>
          DdsDxt10Format_R8G8B8A8_SNORM
      | T_UInt =>
          DdsDxt10Format_R8G8B8A8_UINT
      | T_Int =>
          DdsDxt10Format_R8G8B8A8_SINT
      | _ =>
          DdsDxt10Format_UNKNOWN
      end
  | F_B8G8R8A8 =>
      if type_eqb type T_UNorm then
        if cs_is_srgb colorSpace then
          DdsDxt10Format_B8G8R8A8_UNORM_SRGB
        else
          DdsDxt10Format_B8G8R8A8_UNORM
      else
        DdsDxt10Format_UNKNOWN
  | F_A2B10G10R10 =>
      match type with
      | T_UNorm =>
          DdsDxt10Format_R10G10B10A2_UNORM
      | T_UInt =>
          DdsDxt10Format_R10G10B10A2_UINT
      | _ =>
          DdsDxt10Format_UNKNOWN
      end
  | F_R16 =>
      match type with
      | T_UNorm =>
          DdsDxt10Format_R16_UNORM
      | T_SNorm =>
          DdsDxt10Format_R16_SNORM
      | T_UInt =>
          DdsDxt10Format_R16_UINT
      | T_Int =>
          DdsDxt10Format_R16_SINT
      | T_Float =>
          DdsDxt10Format_R16_FLOAT
      | _ =>
          DdsDxt10Format_UNKNOWN
      end
  | F_R16G16 =>
      match type with
      | T_UNorm =>
          DdsDxt10Format_R16G16_UNORM
      | T_SNorm =>
          DdsDxt10Format_R16G16_SNORM
      | T_UInt =>
          DdsDxt10Format_R16G16_UINT
      | T_Int =>
          DdsDxt10Format_R16G16_SINT
      | T_Float =>
          DdsDxt10Format_R16G16_FLOAT
      | _ =>
          DdsDxt10Format_UNKNOWN
      end
  | F_R16G16B16A16 =>
      match type with
      | T_UNorm =>
          DdsDxt10Format_R16G16B16A16_UNORM
      | T_SNorm =>
          DdsDxt10Format_R16G16B16A16_SNORM
      | T_UInt =>
          DdsDxt10Format_R16G16B16A16_UINT
      | T_Int =>
          DdsDxt10Format_R16G16B16A16_SINT
      | T_Float =>
          DdsDxt10Format_R16G16B16A16_FLOAT
      | _ =>
          DdsDxt10Format_UNKNOWN
      end
  | F_R32 =>
      match type with
      | T_UInt =>
          DdsDxt10Format_R32_UINT
      | T_Int =>
          DdsDxt10Format_R32_SINT
      | T_Float =>
          DdsDxt10Format_R32_FLOAT
      | _ =>
          DdsDxt10Format_UNKNOWN
      end
  | F_R32G32 =>
      match type with
      | T_UInt =>
          DdsDxt10Format_R32G32_UINT
      | T_Int =>
          DdsDxt10Format_R32G32_SINT
      | T_Float =>
          DdsDxt10Format_R32G32_FLOAT
      | _ =>
          DdsDxt10Format_UNKNOWN
      end
  | F_R32G32B32 =>
      match type with
      | T_UInt =>
          DdsDxt10Format_R32G32B32_UINT
      | T_Int =>
          DdsDxt10Format_R32G32B32_SINT
      | T_Float =>
          DdsDxt10Format_R32G32B32_FLOAT
      | _ =>
          DdsDxt10Format_UNKNOWN
      end
  | F_R32G32B32A32 =>
      match type with
      | T_UInt =>
          DdsDxt10Format_R32G32B32A32_UINT
      | T_Int =>
          DdsDxt10Format_R32G32B32A32_SINT
      | T_Float =>
          DdsDxt10Format_R32G32B32A32_FLOAT
      | _ =>
          DdsDxt10Format_UNKNOWN
      end
  | F_B10G11R11_UFloat =>
      if type_eqb type T_UFloat then
        DdsDxt10Format_R11G11B10_FLOAT
      else
        DdsDxt10Format_UNKNOWN
  | F_E5B9G9R9_UFloat =>
      if type_eqb type T_UFloat then
        DdsDxt10Format_R9G9B9E5_SHAREDEXP
      else
        DdsDxt10Format_UNKNOWN
  | F_BC1_RGB | F_BC1_RGBA =>
      if type_eqb type T_UNorm then
        if cs_is_srgb colorSpace then
          DdsDxt10Format_BC1_UNORM_SRGB
        else
          DdsDxt10Format_BC1_UNORM
      else
        DdsDxt10Format_UNKNOWN
  | F_BC2 =>
      if type_eqb type T_UNorm then
        if cs_is_srgb colorSpace then
          DdsDxt10Format_BC2_UNORM_SRGB
        else
          DdsDxt10Format_BC2_UNORM
      else
        DdsDxt10Format_UNKNOWN
  | F_BC3 =>
      if type_eqb type T_UNorm then
        if cs_is_srgb colorSpace then
          DdsDxt10Format_BC3_UNORM_SRGB
        else
          DdsDxt10Format_BC3_UNORM
      else
        DdsDxt10Format_UNKNOWN
  | F_BC4 =>
      match type with
      | T_UNorm =>
          DdsDxt10Format_BC4_UNORM
      | T_SNorm =>
          DdsDxt10Format_BC4_SNORM
      | _ =>
          DdsDxt10Format_UNKNOWN
      end
  | F_BC5 =>
      match type with
      | T_UNorm =>
          DdsDxt10Format_BC5_UNORM
      | T_SNorm =>
          DdsDxt10Format_BC5_SNORM
      | _ =>
          DdsDxt10Format_UNKNOWN
      end
  | F_BC6H =>
      match type with
      | T_UFloat =>
          DdsDxt10Format_BC6H_UF16
      | T_Float =>
          DdsDxt10Format_BC6H_SF16
      | _ =>
          DdsDxt10Format_UNKNOWN
      end
  | F_BC7 =>
      if type_eqb type T_UNorm then
        if cs_is_srgb colorSpace then
          DdsDxt10Format_BC7_UNORM_SRGB
        else
          DdsDxt10Format_BC7_UNORM
      else
        DdsDxt10Format_UNKNOWN
  | F_Unknown | F_R4G4B4A4 | F_B4G4R4A4 | F_B5G6R5 | F_R5G5B5A1 | F_B5G5R5A1 | F_R8G8B8 |
    F_B8G8R8 | F_A8B8G8R8 | F_A2R10G10B10 | F_R16G16B16 | F_ETC1 | F_ETC2_R8G8B8 |
    F_ETC2_R8G8B8A1 | F_ETC2_R8G8B8A8 | F_EAC_R11 | F_EAC_R11G11 | F_ASTC_4x4 | F_ASTC_5x4 |
    F_ASTC_5x5 | F_ASTC_6x5 | F_ASTC_6x6 | F_ASTC_8x5 | F_ASTC_8x6 | F_ASTC_8x8 |
    F_ASTC_10x5 | F_ASTC_10x6 | F_ASTC_10x8 | F_ASTC_10x10 | F_ASTC_12x10 | F_ASTC_12x12 |
    F_PVRTC1_RGB_2BPP | F_PVRTC1_RGBA_2BPP | F_PVRTC1_RGB_4BPP | F_PVRTC1_RGBA_4BPP |
    F_PVRTC2_RGBA_2BPP | F_PVRTC2_RGBA_4BPP =>
      DdsDxt10Format_UNKNOWN
  end.

(** [isValidForDds], lib/src/SaveDds.cpp:560-563. *)
Definition isValidForDds (f : format) (t : ttype) : bool :=
  negb (getDdsFormat f t CS_Linear =? DdsDxt10Format_UNKNOWN).

(** * KTX.  GL enumerants, lib/src/SaveKtx.cpp:23-178 (those in use). *)
Definition GL_BYTE : N := 0x1400. (* :23 *)
Definition GL_UNSIGNED_BYTE : N := 0x1401. (* :24 *)
Definition GL_SHORT : N := 0x1402. (* :25 *)
Definition GL_UNSIGNED_SHORT : N := 0x1403. (* :26 *)
Definition GL_INT : N := 0x1404. (* :27 *)
Definition GL_UNSIGNED_INT : N := 0x1405. (* :28 *)
Definition GL_FLOAT : N := 0x1406. (* :29 *)
Definition GL_HALF_FLOAT : N := 0x140B. (* :30 *)
Definition GL_RED : N := 0x1903. (* :31 *)
Definition GL_LUMINANCE : N := 0x1909. (* :32 *)
Definition GL_LUMINANCE_ALPHA : N := 0x190A. (* :33 *)
Definition GL_RGB : N := 0x1907. (* :34 *)
Definition GL_RGBA : N := 0x1908. (* :35 *)
Definition GL_UNSIGNED_INT_8_8_8_8 : N := 0x8035. (* :36 *)
Definition GL_BGRA : N := 0x80E1. (* :38 *)
Definition GL_RGBA4 : N := 0x8056. (* :39 *)
Definition GL_RGB5_A1 : N := 0x8057. (* :40 *)
Definition GL_RGB16 : N := 0x8054. (* :41 *)
Definition GL_RGBA16 : N := 0x805B. (* :42 *)
Definition GL_RGB8 : N := 0x8051. (* :43 *)
Definition GL_RGBA8 : N := 0x8058. (* :44 *)
Definition GL_RGB10_A2 : N := 0x8059. (* :45 *)
Definition GL_UNSIGNED_SHORT_4_4_4_4 : N := 0x8033. (* :46 *)
Definition GL_UNSIGNED_SHORT_5_5_5_1 : N := 0x8034. (* :47 *)
Definition GL_RG : N := 0x8227. (* :48 *)
Definition GL_R8 : N := 0x8229. (* :50 *)
Definition GL_R16 : N := 0x822A. (* :51 *)
Definition GL_RG8 : N := 0x822B. (* :52 *)
Definition GL_RG16 : N := 0x822C. (* :53 *)
Definition GL_R16F : N := 0x822D. (* :54 *)
Definition GL_R32F : N := 0x822E. (* :55 *)
Definition GL_RG16F : N := 0x822F. (* :56 *)
Definition GL_RG32F : N := 0x8230. (* :57 *)
Definition GL_R8I : N := 0x8231. (* :58 *)
Definition GL_R8UI : N := 0x8232. (* :59 *)
Definition GL_R16I : N := 0x8233. (* :60 *)
Definition GL_R16UI : N := 0x8234. (* :61 *)
Definition GL_R32I : N := 0x8235. (* :62 *)
Definition GL_R32UI : N := 0x8236. (* :63 *)
Definition GL_RG8I : N := 0x8237. (* :64 *)
Definition GL_RG8UI : N := 0x8238. (* :65 *)
Definition GL_RG16I : N := 0x8239. (* :66 *)
Definition GL_RG16UI : N := 0x823A. (* :67 *)
Definition GL_RG32I : N := 0x823B. (* :68 *)
Definition GL_RG32UI : N := 0x823C. (* :69 *)
Definition GL_UNSIGNED_SHORT_5_6_5 : N := 0x8363. (* :70 *)
Definition GL_UNSIGNED_SHORT_5_6_5_REV : N := 0x8364. (* :71 *)
Definition GL_UNSIGNED_SHORT_1_5_5_5_REV : N := 0x8366. (* :72 *)
Definition GL_UNSIGNED_INT_8_8_8_8_REV : N := 0x8367. (* :73 *)
Definition GL_UNSIGNED_INT_2_10_10_10_REV : N := 0x8368. (* :74 *)
Definition GL_COMPRESSED_RGB_S3TC_DXT1_EXT : N := 0x83F0. (* :75 *)
Definition GL_COMPRESSED_RGBA_S3TC_DXT1_EXT : N := 0x83F1. (* :76 *)
Definition GL_COMPRESSED_RGBA_S3TC_DXT3_EXT : N := 0x83F2. (* :77 *)
Definition GL_COMPRESSED_RGBA_S3TC_DXT5_EXT : N := 0x83F3. (* :78 *)
Definition GL_RGBA32F : N := 0x8814. (* :79 *)
Definition GL_RGB32F : N := 0x8815. (* :80 *)
Definition GL_RGBA16F : N := 0x881A. (* :81 *)
Definition GL_RGB16F : N := 0x881B. (* :82 *)
Definition GL_COMPRESSED_SRGB_PVRTC_2BPPV1_EXT : N := 0x8A54. (* :83 *)
Definition GL_COMPRESSED_SRGB_PVRTC_4BPPV1_EXT : N := 0x8A55. (* :84 *)
Definition GL_COMPRESSED_SRGB_ALPHA_PVRTC_2BPPV1_EXT : N := 0x8A56. (* :85 *)
Definition GL_COMPRESSED_SRGB_ALPHA_PVRTC_4BPPV1_EXT : N := 0x8A57. (* :86 *)
Definition GL_COMPRESSED_RGB_PVRTC_4BPPV1_IMG : N := 0x8C00. (* :87 *)
Definition GL_COMPRESSED_RGB_PVRTC_2BPPV1_IMG : N := 0x8C01. (* :88 *)
Definition GL_COMPRESSED_RGBA_PVRTC_4BPPV1_IMG : N := 0x8C02. (* :89 *)
Definition GL_COMPRESSED_RGBA_PVRTC_2BPPV1_IMG : N := 0x8C03. (* :90 *)
Definition GL_R11F_G11F_B10F : N := 0x8C3A. (* :91 *)
Definition GL_UNSIGNED_INT_10F_11F_11F_REV : N := 0x8C3B. (* :92 *)
Definition GL_RGB9_E5 : N := 0x8C3D. (* :93 *)
Definition GL_UNSIGNED_INT_5_9_9_9_REV : N := 0x8C3E. (* :94 *)
Definition GL_SRGB8 : N := 0x8C41. (* :95 *)
Definition GL_SRGB8_ALPHA8 : N := 0x8C43. (* :96 *)
Definition GL_COMPRESSED_SRGB_S3TC_DXT1_EXT : N := 0x8C4C. (* :97 *)
Definition GL_COMPRESSED_SRGB_ALPHA_S3TC_DXT1_EXT : N := 0x8C4D. (* :98 *)
Definition GL_COMPRESSED_SRGB_ALPHA_S3TC_DXT3_EXT : N := 0x8C4E. (* :99 *)
Definition GL_COMPRESSED_SRGB_ALPHA_S3TC_DXT5_EXT : N := 0x8C4F. (* :100 *)
Definition GL_RGB565 : N := 0x8D62. (* :101 *)
Definition GL_ETC1_RGB8_OES : N := 0x8D64. (* :102 *)
Definition GL_RGBA32UI : N := 0x8D70. (* :103 *)
Definition GL_RGB32UI : N := 0x8D71. (* :104 *)
Definition GL_RGBA16UI : N := 0x8D76. (* :105 *)
Definition GL_RGB16UI : N := 0x8D77. (* :106 *)
Definition GL_RGBA8UI : N := 0x8D7C. (* :107 *)
Definition GL_RGB8UI : N := 0x8D7D. (* :108 *)
Definition GL_RGBA32I : N := 0x8D82. (* :109 *)
Definition GL_RGB32I : N := 0x8D83. (* :110 *)
Definition GL_RGBA16I : N := 0x8D88. (* :111 *)
Definition GL_RGB16I : N := 0x8D89. (* :112 *)
Definition GL_RGBA8I : N := 0x8D8E. (* :113 *)
Definition GL_RGB8I : N := 0x8D8F. (* :114 *)
Definition GL_RGBA_INTEGER : N := 0x8D99. (* :117 *)
Definition GL_BGRA_INTEGER : N := 0x8D9B. (* :119 *)
Definition GL_COMPRESSED_RED_RGTC1 : N := 0x8DBB. (* :121 *)
Definition GL_COMPRESSED_SIGNED_RED_RGTC1 : N := 0x8DBC. (* :122 *)
Definition GL_COMPRESSED_RG_RGTC2 : N := 0x8DBD. (* :123 *)
Definition GL_COMPRESSED_SIGNED_RG_RGTC2 : N := 0x8DBE. (* :124 *)
Definition GL_COMPRESSED_RGBA_BPTC_UNORM : N := 0x8E8C. (* :125 *)
Definition GL_COMPRESSED_SRGB_ALPHA_BPTC_UNORM : N := 0x8E8D. (* :126 *)
Definition GL_COMPRESSED_RGB_BPTC_SIGNED_FLOAT : N := 0x8E8E. (* :127 *)
Definition GL_COMPRESSED_RGB_BPTC_UNSIGNED_FLOAT : N := 0x8E8F. (* :128 *)
Definition GL_R8_SNORM : N := 0x8F94. (* :129 *)
Definition GL_RG8_SNORM : N := 0x8F95. (* :130 *)
Definition GL_RGB8_SNORM : N := 0x8F96. (* :131 *)
Definition GL_RGBA8_SNORM : N := 0x8F97. (* :132 *)
Definition GL_R16_SNORM : N := 0x8F98. (* :133 *)
Definition GL_RG16_SNORM : N := 0x8F99. (* :134 *)
Definition GL_RGB16_SNORM : N := 0x8F9A. (* :135 *)
Definition GL_RGBA16_SNORM : N := 0x8F9B. (* :136 *)
Definition GL_RGB10_A2UI : N := 0x906F. (* :137 *)
Definition GL_COMPRESSED_RGBA_PVRTC_2BPPV2_IMG : N := 0x9137. (* :138 *)
Definition GL_COMPRESSED_RGBA_PVRTC_4BPPV2_IMG : N := 0x9138. (* :139 *)
Definition GL_COMPRESSED_R11_EAC : N := 0x9270. (* :140 *)
Definition GL_COMPRESSED_SIGNED_R11_EAC : N := 0x9271. (* :141 *)
Definition GL_COMPRESSED_RG11_EAC : N := 0x9272. (* :142 *)
Definition GL_COMPRESSED_SIGNED_RG11_EAC : N := 0x9273. (* :143 *)
Definition GL_COMPRESSED_RGB8_ETC2 : N := 0x9274. (* :144 *)
Definition GL_COMPRESSED_SRGB8_ETC2 : N := 0x9275. (* :145 *)
Definition GL_COMPRESSED_RGB8_PUNCHTHROUGH_ALPHA1_ETC2 : N := 0x9276. (* :146 *)
Definition GL_COMPRESSED_SRGB8_PUNCHTHROUGH_ALPHA1_ETC2 : N := 0x9277. (* :147 *)
Definition GL_COMPRESSED_RGBA8_ETC2_EAC : N := 0x9278. (* :148 *)
Definition GL_COMPRESSED_SRGB8_ALPHA8_ETC2_EAC : N := 0x9279. (* :149 *)
Definition GL_COMPRESSED_RGBA_ASTC_4x4_KHR : N := 0x93B0. (* :150 *)
Definition GL_COMPRESSED_RGBA_ASTC_5x4_KHR : N := 0x93B1. (* :151 *)
Definition GL_COMPRESSED_RGBA_ASTC_5x5_KHR : N := 0x93B2. (* :152 *)
Definition GL_COMPRESSED_RGBA_ASTC_6x5_KHR : N := 0x93B3. (* :153 *)
Definition GL_COMPRESSED_RGBA_ASTC_6x6_KHR : N := 0x93B4. (* :154 *)
Definition GL_COMPRESSED_RGBA_ASTC_8x5_KHR : N := 0x93B5. (* :155 *)
Definition GL_COMPRESSED_RGBA_ASTC_8x6_KHR : N := 0x93B6. (* :156 *)
Definition GL_COMPRESSED_RGBA_ASTC_8x8_KHR : N := 0x93B7. (* :157 *)
Definition GL_COMPRESSED_RGBA_ASTC_10x5_KHR : N := 0x93B8. (* :158 *)
Definition GL_COMPRESSED_RGBA_ASTC_10x6_KHR : N := 0x93B9. (* :159 *)
Definition GL_COMPRESSED_RGBA_ASTC_10x8_KHR : N := 0x93BA. (* :160 *)
Definition GL_COMPRESSED_RGBA_ASTC_10x10_KHR : N := 0x93BB. (* :161 *)
Definition GL_COMPRESSED_RGBA_ASTC_12x10_KHR : N := 0x93BC. (* :162 *)
Definition GL_COMPRESSED_RGBA_ASTC_12x12_KHR : N := 0x93BD. (* :163 *)
Definition GL_COMPRESSED_SRGB8_ALPHA8_ASTC_4x4_KHR : N := 0x93D0. (* :164 *)
Definition GL_COMPRESSED_SRGB8_ALPHA8_ASTC_5x4_KHR : N := 0x93D1. (* :165 *)
Definition GL_COMPRESSED_SRGB8_ALPHA8_ASTC_5x5_KHR : N := 0x93D2. (* :166 *)
Definition GL_COMPRESSED_SRGB8_ALPHA8_ASTC_6x5_KHR : N := 0x93D3. (* :167 *)
Definition GL_COMPRESSED_SRGB8_ALPHA8_ASTC_6x6_KHR : N := 0x93D4. (* :168 *)
Definition GL_COMPRESSED_SRGB8_ALPHA8_ASTC_8x5_KHR : N := 0x93D5. (* :169 *)
Definition GL_COMPRESSED_SRGB8_ALPHA8_ASTC_8x6_KHR : N := 0x93D6. (* :170 *)
Definition GL_COMPRESSED_SRGB8_ALPHA8_ASTC_8x8_KHR : N := 0x93D7. (* :171 *)
Definition GL_COMPRESSED_SRGB8_ALPHA8_ASTC_10x5_KHR : N := 0x93D8. (* :172 *)
Definition GL_COMPRESSED_SRGB8_ALPHA8_ASTC_10x6_KHR : N := 0x93D9. (* :173 *)
Definition GL_COMPRESSED_SRGB8_ALPHA8_ASTC_10x8_KHR : N := 0x93DA. (* :174 *)
Definition GL_COMPRESSED_SRGB8_ALPHA8_ASTC_10x10_KHR : N := 0x93DB. (* :175 *)
Definition GL_COMPRESSED_SRGB8_ALPHA8_ASTC_12x10_KHR : N := 0x93DC. (* :176 *)
Definition GL_COMPRESSED_SRGB8_ALPHA8_ASTC_12x12_KHR : N := 0x93DD. (* :177 *)
Definition GL_COMPRESSED_SRGB_ALPHA_PVRTC_2BPPV2_IMG : N := 0x93F0. (* :178 *)
Definition GL_COMPRESSED_SRGB_ALPHA_PVRTC_4BPPV2_IMG : N := 0x93F1. (* :179 *)

(** [struct FormatInfo], lib/src/SaveKtx.cpp:183-190.  A field is [None] while it has not
    been assigned: the C++ object starts uninitialised. *)
Record ktxinfo := KtxInfo
  { ki_type : option N; ki_typeSize : option N; ki_format : option N;
    ki_internalFormat : option N; ki_baseInternalFormat : option N }.

Definition ktx_uninit : ktxinfo := KtxInfo None None None None None.
Definition set_type v i := KtxInfo (Some v) (ki_typeSize i) (ki_format i) (ki_internalFormat i) (ki_baseInternalFormat i).
Definition set_typeSize v i := KtxInfo (ki_type i) (Some v) (ki_format i) (ki_internalFormat i) (ki_baseInternalFormat i).
Definition set_format v i := KtxInfo (ki_type i) (ki_typeSize i) (Some v) (ki_internalFormat i) (ki_baseInternalFormat i).
Definition set_internalFormat v i := KtxInfo (ki_type i) (ki_typeSize i) (ki_format i) (Some v) (ki_baseInternalFormat i).
Definition set_baseInternalFormat v i := KtxInfo (ki_type i) (ki_typeSize i) (ki_format i) (ki_internalFormat i) (Some v).

(** [getFormatInfo], lib/src/SaveKtx.cpp:200-1181.  [None] is [return false]. *)
Definition getFormatInfo (format : format) (type : ttype) (colorSpace : colorspace) : option ktxinfo :=
  let info := ktx_uninit in
  match format with
  | F_R4G4B4A4 =>
      let info := set_type GL_UNSIGNED_SHORT_4_4_4_4 info in
      let info := set_typeSize 2 info in
      let info := set_format GL_RGBA (set_baseInternalFormat GL_RGBA info) in
      if type_eqb type T_UNorm then
        let info := set_internalFormat GL_RGBA4 info in
        Some info
      else
        None
  | F_B4G4R4A4 =>
      let info := set_type GL_UNSIGNED_SHORT_4_4_4_4 info in
      let info := set_typeSize 2 info in
      let info := set_format GL_BGRA (set_baseInternalFormat GL_BGRA info) in
      if type_eqb type T_UNorm then
        let info := set_internalFormat GL_RGBA4 info in
        Some info
      else
        None
  | F_R5G6B5 =>
      let info := set_type GL_UNSIGNED_SHORT_5_6_5 info in
      let info := set_typeSize 2 info in
      let info := set_format GL_RGB (set_baseInternalFormat GL_RGB info) in
      if type_eqb type T_UNorm then
        let info := set_internalFormat GL_RGB565 info in
        Some info
      else
        None
  | F_B5G6R5 =>
      let info := set_type GL_UNSIGNED_SHORT_5_6_5_REV info in
      let info := set_typeSize 2 info in
      let info := set_format GL_RGB (set_baseInternalFormat GL_RGB info) in
      if type_eqb type T_UNorm then
        let info := set_internalFormat GL_RGB565 info in
        Some info
      else
        None
  | F_R5G5B5A1 =>
      let info := set_type GL_UNSIGNED_SHORT_5_5_5_1 info in
      let info := set_typeSize 2 info in
      let info := set_format GL_RGBA (set_baseInternalFormat GL_RGBA info) in
      if type_eqb type T_UNorm then
        let info := set_internalFormat GL_RGB5_A1 info in
        Some info
      else
        None
  | F_B5G5R5A1 =>
      let info := set_type GL_UNSIGNED_SHORT_5_5_5_1 info in
      let info := set_typeSize 2 info in
      let info := set_format GL_BGRA (set_baseInternalFormat GL_BGRA info) in
      if type_eqb type T_UNorm then
        let info := set_internalFormat GL_RGB5_A1 info in
        Some info
      else
        None
  | F_A1R5G5B5 =>
      let info := set_type GL_UNSIGNED_SHORT_1_5_5_5_REV info in
      let info := set_typeSize 2 info in
      let info := set_format GL_BGRA (set_baseInternalFormat GL_BGRA info) in
      if type_eqb type T_UNorm then
        let info := set_internalFormat GL_RGB5_A1 info in
        Some info
      else
        None
  | F_R8 =>
      let info := set_typeSize 1 info in
      let info := set_format GL_RED info in
      let info := set_baseInternalFormat GL_LUMINANCE info in
      match type with
      | T_UNorm =>
          let info := set_type GL_UNSIGNED_BYTE info in
          let info := set_internalFormat GL_R8 info in
          Some info
      | T_SNorm =>
          let info := set_type GL_BYTE info in
          let info := set_internalFormat GL_R8_SNORM info in
          Some info
      | T_UInt =>
          let info := set_type GL_UNSIGNED_BYTE info in
          let info := set_internalFormat GL_R8UI info in
          Some info
      | T_Int =>
          let info := set_type GL_BYTE info in
          let info := set_internalFormat GL_R8I info in
          Some info
      | _ =>
          None
      end
  | F_R8G8 =>
      let info := set_type GL_UNSIGNED_BYTE info in
      let info := set_typeSize 1 info in
      let info := set_format GL_RG info in
      let info := set_baseInternalFormat GL_LUMINANCE_ALPHA info in
      match type with
      | T_UNorm =>
          let info := set_internalFormat GL_RG8 info in
          Some info
      | T_SNorm =>
          let info := set_internalFormat GL_RG8_SNORM info in
          Some info
      | T_UInt =>
          let info := set_internalFormat GL_RG8UI info in
          Some info
      | T_Int =>
          let info := set_internalFormat GL_RG8I info in
          Some info
      | _ =>
          None
      end
  | F_R8G8B8 =>
      let info := set_typeSize 1 info in
      let info := set_format GL_RGB (set_baseInternalFormat GL_RGB info) in
      match type with
      | T_UNorm =>
          let info := set_type GL_UNSIGNED_BYTE info in
          let info := if cs_is_srgb colorSpace then set_internalFormat GL_SRGB8 info else set_internalFormat GL_RGB8 info in
          Some info
      | T_SNorm =>
          let info := set_type GL_BYTE info in
          let info := set_internalFormat GL_RGB8_SNORM info in
          Some info
      | T_UInt =>
          let info := set_type GL_UNSIGNED_BYTE info in
          let info := set_internalFormat GL_RGB8UI info in
          Some info
      | T_Int =>
          let info := set_type GL_BYTE info in
          let info := set_internalFormat GL_RGB8I info in
          Some info
      | _ =>
          None
      end
  | F_R8G8B8A8 =>
      let info := set_typeSize 1 info in
      let info := set_baseInternalFormat GL_RGBA info in
      match type with
      | T_UNorm =>
          let info := set_type GL_UNSIGNED_BYTE info in
          let info := if cs_is_srgb colorSpace then set_internalFormat GL_SRGB8_ALPHA8 info else set_internalFormat GL_RGBA8 info in
          let info := set_format GL_RGBA info in
          Some info
      | T_SNorm =>
          let info := set_type GL_BYTE info in
          let info := set_internalFormat GL_RGBA8_SNORM info in
          let info := set_format GL_RGBA info in
          Some info
      | T_UInt =>
          let info := set_type GL_UNSIGNED_BYTE info in
          let info := set_internalFormat GL_RGBA8UI info in
          let info := set_format GL_RGBA_INTEGER info in
          Some info
      | T_Int =>
          let info := set_type GL_BYTE info in
          let info := set_internalFormat GL_RGBA8I info in
          let info := set_format GL_RGBA_INTEGER info in
          Some info
      | _ =>
          None
      end
  | F_B8G8R8A8 =>
      let info := set_type GL_UNSIGNED_INT_8_8_8_8 info in
      let info := set_typeSize 4 info in
      let info := set_baseInternalFormat GL_BGRA info in
      match type with
      | T_UNorm =>
          let info := if cs_is_srgb colorSpace then set_internalFormat GL_SRGB8_ALPHA8 info else set_internalFormat GL_RGBA8 info in
          let info := set_format GL_BGRA info in
          Some info
      | T_SNorm =>
          let info := set_internalFormat GL_RGBA8_SNORM info in
          let info := set_format GL_BGRA info in
          Some info
      | T_UInt =>
          let info := set_internalFormat GL_RGBA8UI info in
          let info := set_format GL_BGRA_INTEGER info in
          Some info
      | T_Int =>
          let info := set_internalFormat GL_RGBA8I info in
          Some info
      | _ =>
          None
      end
  | F_A8B8G8R8 =>
      let info := set_type GL_UNSIGNED_INT_8_8_8_8_REV info in
      let info := set_typeSize 4 info in
      let info := set_baseInternalFormat GL_RGBA info in
      match type with
      | T_UNorm =>
          let info := if cs_is_srgb colorSpace then set_internalFormat GL_SRGB8_ALPHA8 info else set_internalFormat GL_RGBA8 info in
          let info := set_format GL_RGBA info in
          Some info
      | T_SNorm =>
          let info := set_internalFormat GL_RGBA8_SNORM info in
          let info := set_format GL_RGBA info in
          Some info
      | T_UInt =>
          let info := set_internalFormat GL_RGBA8UI info in
          let info := set_format GL_RGBA_INTEGER info in
          Some info
      | T_Int =>
          let info := set_internalFormat GL_RGBA8I info in
          let info := set_format GL_RGBA_INTEGER info in
          Some info
      | _ =>
          None
      end
  | F_A2R10G10B10 =>
      let info := set_type GL_UNSIGNED_INT_2_10_10_10_REV info in
      let info := set_typeSize 4 info in
      let info := set_baseInternalFormat GL_BGRA info in
      match type with
      | T_UNorm =>
          let info := set_internalFormat GL_RGB10_A2 info in
          let info := set_format GL_BGRA info in
          Some info
      | T_UInt =>
          let info := set_internalFormat GL_RGB10_A2UI info in
          let info := set_format GL_BGRA_INTEGER info in
          Some info
      | _ =>
          None
      end
  | F_A2B10G10R10 =>
      let info := set_type GL_UNSIGNED_INT_2_10_10_10_REV info in
      let info := set_typeSize 4 info in
      let info := set_baseInternalFormat GL_RGBA info in
      match type with
      | T_UNorm =>
          let info := set_internalFormat GL_RGB10_A2 info in
          let info := set_format GL_RGBA info in
          Some info
      | T_UInt =>
          let info := set_internalFormat GL_RGB10_A2UI info in
          let info := set_format GL_RGBA_INTEGER info in
          Some info
      | _ =>
          None
      end
  | F_R16 =>
      let info := set_typeSize 2 info in
      let info := set_format GL_RED info in
      let info := set_baseInternalFormat GL_LUMINANCE info in
      match type with
      | T_UNorm =>
          let info := set_type GL_UNSIGNED_SHORT info in
          let info := set_internalFormat GL_R16 info in
          Some info
      | T_SNorm =>
          let info := set_type GL_SHORT info in
          let info := set_internalFormat GL_R16_SNORM info in
          Some info
      | T_UInt =>
          let info := set_type GL_UNSIGNED_SHORT info in
          let info := set_internalFormat GL_R16UI info in
          Some info
      | T_Int =>
          let info := set_type GL_SHORT info in
          let info := set_internalFormat GL_R16I info in
          Some info
      | T_Float =>
          let info := set_type GL_HALF_FLOAT info in
          let info := set_internalFormat GL_R16F info in
          Some info
      | _ =>
          None
      end
  | F_R16G16 =>
      let info := set_typeSize 2 info in
      let info := set_format GL_RG info in
      let info := set_baseInternalFormat GL_LUMINANCE_ALPHA info in
      match type with
      | T_UNorm =>
          let info := set_type GL_UNSIGNED_SHORT info in
          let info := set_internalFormat GL_RG16 info in
          Some info
      | T_SNorm =>
          let info := set_type GL_SHORT info in
          let info := set_internalFormat GL_RG16_SNORM info in
          Some info
      | T_UInt =>
          let info := set_type GL_UNSIGNED_SHORT info in
          let info := set_internalFormat GL_RG16UI info in
          Some info
      | T_Int =>
          let info := set_type GL_SHORT info in
          let info := set_internalFormat GL_RG16I info in
          Some info
      | T_Float =>
          let info := set_type GL_HALF_FLOAT info in
          let info := set_internalFormat GL_RG16F info in
          Some info
      | _ =>
          None
      end
  | F_R16G16B16 =>
      let info := set_typeSize 2 info in
      let info := set_format GL_RGB (set_baseInternalFormat GL_RGB info) in
      match type with
      | T_UNorm =>
          let info := set_type GL_UNSIGNED_SHORT info in
          let info := set_internalFormat GL_RGB16 info in
          Some info
      | T_SNorm =>
          let info := set_type GL_SHORT info in
          let info := set_internalFormat GL_RGB16_SNORM info in
          Some info
      | T_UInt =>
          let info := set_type GL_UNSIGNED_SHORT info in
          let info := set_internalFormat GL_RGB16UI info in
          Some info
      | T_Int =>
          let info := set_type GL_SHORT info in
          let info := set_internalFormat GL_RGB16I info in
          Some info
      | T_Float =>
          let info := set_type GL_HALF_FLOAT info in
          let info := set_internalFormat GL_RGB16F info in
          Some info
      | _ =>
          None
      end
  | F_R16G16B16A16 =>
      let info := set_typeSize 2 info in
      let info := set_format GL_RGBA (set_baseInternalFormat GL_RGBA info) in
      match type with
      | T_UNorm =>
          let info := set_type GL_UNSIGNED_SHORT info in
          let info := set_internalFormat GL_RGBA16 info in
          Some info
      | T_SNorm =>
          let info := set_type GL_SHORT info in
          let info := set_internalFormat GL_RGBA16_SNORM info in
          Some info
      | T_UInt =>
          let info := set_type GL_UNSIGNED_SHORT info in
          let info := set_internalFormat GL_RGBA16UI info in
          Some info
      | T_Int =>
          let info := set_type GL_SHORT info in
          let info := set_internalFormat GL_RGBA16I info in
          Some info
      | T_Float =>
          let info := set_type GL_HALF_FLOAT info in
          let info := set_internalFormat GL_RGBA16F info in
          Some info
      | _ =>
          None
      end
  | F_R32 =>
      let info := set_typeSize 4 info in
      let info := set_format GL_RED info in
      let info := set_baseInternalFormat GL_LUMINANCE info in
      match type with
      | T_UInt =>
          let info := set_type GL_UNSIGNED_INT info in
          let info := set_internalFormat GL_R32UI info in
          Some info
      | T_Int =>
          let info := set_type GL_INT info in
          let info := set_internalFormat GL_R32I info in
          Some info
      | T_Float =>
          let info := set_type GL_FLOAT info in
          let info := set_internalFormat GL_R32F info in
          Some info
      | _ =>
          None
      end
  | F_R32G32 =>
      let info := set_typeSize 4 info in
      let info := set_format GL_RG info in
      let info := set_baseInternalFormat GL_LUMINANCE_ALPHA info in
      match type with
      | T_UInt =>
          let info := set_type GL_UNSIGNED_INT info in
          let info := set_internalFormat GL_RG32UI info in
          Some info
      | T_Int =>
          let info := set_type GL_INT info in
          let info := set_internalFormat GL_RG32I info in
          Some info
      | T_Float =>
          let info := set_type GL_FLOAT info in
          let info := set_internalFormat GL_RG32F info in
          Some info
      | _ =>
          None
      end
  | F_R32G32B32 =>
      let info := set_typeSize 4 info in
      let info := set_format GL_RGB (set_baseInternalFormat GL_RGB info) in
      match type with
      | T_UInt =>
          let info := set_type GL_UNSIGNED_INT info in
          let info := set_internalFormat GL_RGB32UI info in
          Some info
      | T_Int =>
          let info := set_type GL_INT info in
          let info := set_internalFormat GL_RGB32I info in
          Some info
      | T_Float =>
          let info := set_type GL_FLOAT info in
          let info := set_internalFormat GL_RGB32F info in
          Some info
      | _ =>
          None
      end
  | F_R32G32B32A32 =>
      let info := set_typeSize 4 info in
      let info := set_format GL_RGBA (set_baseInternalFormat GL_RGBA info) in
      match type with
      | T_UInt =>
          let info := set_type GL_UNSIGNED_INT info in
          let info := set_internalFormat GL_RGBA32UI info in
          Some info
      | T_Int =>
          let info := set_type GL_INT info in
          let info := set_internalFormat GL_RGBA32I info in
          Some info
      | T_Float =>
          let info := set_type GL_FLOAT info in
          let info := set_internalFormat GL_RGBA32F info in
          Some info
      | _ =>
          None
      end
  | F_B10G11R11_UFloat =>
      let info := set_type GL_UNSIGNED_INT_10F_11F_11F_REV info in
      let info := set_typeSize 4 info in
      let info := set_format GL_RGB (set_baseInternalFormat GL_RGB info) in
      if type_eqb type T_UFloat then
        let info := set_internalFormat GL_R11F_G11F_B10F info in
        Some info
      else
        None
  | F_E5B9G9R9_UFloat =>
      let info := set_type GL_UNSIGNED_INT_5_9_9_9_REV info in
      let info := set_typeSize 4 info in
      let info := set_format GL_RGB (set_baseInternalFormat GL_RGB info) in
      if type_eqb type T_UFloat then
        let info := set_internalFormat GL_RGB9_E5 info in
        Some info
      else
        None
  | F_BC1_RGB =>
      let info := set_type 0 info in
      let info := set_typeSize 1 info in
      let info := set_format 0 info in
      let info := set_baseInternalFormat GL_RGB info in
      if type_eqb type T_UNorm then
        let info := if cs_is_srgb colorSpace then set_internalFormat GL_COMPRESSED_SRGB_S3TC_DXT1_EXT info else set_internalFormat GL_COMPRESSED_RGB_S3TC_DXT1_EXT info in
        Some info
      else
        None
  | F_BC1_RGBA =>
      let info := set_type 0 info in
      let info := set_typeSize 1 info in
      let info := set_format 0 info in
      let info := set_baseInternalFormat GL_RGBA info in
      if type_eqb type T_UNorm then
        let info := if cs_is_srgb colorSpace then set_internalFormat GL_COMPRESSED_SRGB_ALPHA_S3TC_DXT1_EXT info else set_internalFormat GL_COMPRESSED_RGBA_S3TC_DXT1_EXT info in
        Some info
      else
        None
  | F_BC2 =>
      let info := set_type 0 info in
      let info := set_typeSize 1 info in
      let info := set_format 0 info in
      let info := set_baseInternalFormat GL_RGBA info in
      if type_eqb type T_UNorm then
        let info := if cs_is_srgb colorSpace then set_internalFormat GL_COMPRESSED_SRGB_ALPHA_S3TC_DXT3_EXT info else set_internalFormat GL_COMPRESSED_RGBA_S3TC_DXT3_EXT info in
        Some info
      else
        None
  | F_BC3 =>
      let info := set_type 0 info in
      let info := set_typeSize 1 info in
      let info := set_format 0 info in
      let info := set_baseInternalFormat GL_RGBA info in
      if type_eqb type T_UNorm then
        let info := if cs_is_srgb colorSpace then set_internalFormat GL_COMPRESSED_SRGB_ALPHA_S3TC_DXT5_EXT info else set_internalFormat GL_COMPRESSED_RGBA_S3TC_DXT5_EXT info in
        Some info
      else
        None
  | F_BC4 =>
      let info := set_type 0 info in
      let info := set_typeSize 1 info in
      let info := set_format 0 info in
      let info := set_baseInternalFormat GL_RED info in
      match type with
      | T_UNorm =>
          let info := set_internalFormat GL_COMPRESSED_RED_RGTC1 info in
          Some info
      | T_SNorm =>
          let info := set_internalFormat GL_COMPRESSED_SIGNED_RED_RGTC1 info in
          Some info
      | _ =>
          None
      end
  | F_BC5 =>
      let info := set_type 0 info in
      let info := set_typeSize 1 info in
      let info := set_format 0 info in
      let info := set_baseInternalFormat GL_RG info in
      match type with
      | T_UNorm =>
          let info := set_internalFormat GL_COMPRESSED_RG_RGTC2 info in
          Some info
      | T_SNorm =>
          let info := set_internalFormat GL_COMPRESSED_SIGNED_RG_RGTC2 info in
          Some info
      | _ =>
          None
      end
  | F_BC6H =>
      let info := set_type 0 info in
      let info := set_typeSize 1 info in
      let info := set_format 0 info in
      let info := set_baseInternalFormat GL_RGB info in
      match type with
      | T_UFloat =>
          let info := set_internalFormat GL_COMPRESSED_RGB_BPTC_UNSIGNED_FLOAT info in
          Some info
      | T_Float =>
          let info := set_internalFormat GL_COMPRESSED_RGB_BPTC_SIGNED_FLOAT info in
          Some info
      | _ =>
          None
      end
  | F_BC7 =>
      let info := set_type 0 info in
      let info := set_typeSize 1 info in
      let info := set_format 0 info in
      let info := set_baseInternalFormat GL_RGBA info in
      if type_eqb type T_UNorm then
        let info := if cs_is_srgb colorSpace then set_internalFormat GL_COMPRESSED_SRGB_ALPHA_BPTC_UNORM info else set_internalFormat GL_COMPRESSED_RGBA_BPTC_UNORM info in
        Some info
      else
        None
  | F_ETC1 =>
      let info := set_type 0 info in
      let info := set_typeSize 1 info in
      let info := set_format 0 info in
      let info := set_baseInternalFormat GL_RGB info in
      if type_eqb type T_UNorm then
        let info := set_internalFormat GL_ETC1_RGB8_OES info in
        Some info
      else
        None
  | F_ETC2_R8G8B8 =>
      let info := set_type 0 info in
      let info := set_typeSize 1 info in
      let info := set_format 0 info in
      let info := set_baseInternalFormat GL_RGB info in
      if type_eqb type T_UNorm then
        let info := if cs_is_srgb colorSpace then set_internalFormat GL_COMPRESSED_SRGB8_ETC2 info else set_internalFormat GL_COMPRESSED_RGB8_ETC2 info in
        Some info
      else
        None
  | F_ETC2_R8G8B8A1 =>
      let info := set_type 0 info in
      let info := set_typeSize 1 info in
      let info := set_format 0 info in
      let info := set_baseInternalFormat GL_RGBA info in
      if type_eqb type T_UNorm then
        let info := if cs_is_srgb colorSpace then set_internalFormat GL_COMPRESSED_SRGB8_PUNCHTHROUGH_ALPHA1_ETC2 info else set_internalFormat GL_COMPRESSED_RGB8_PUNCHTHROUGH_ALPHA1_ETC2 info in
        Some info
      else
        None
  | F_ETC2_R8G8B8A8 =>
      let info := set_type 0 info in
      let info := set_typeSize 1 info in
      let info := set_format 0 info in
      let info := set_baseInternalFormat GL_RGBA info in
      if type_eqb type T_UNorm then
        let info := if cs_is_srgb colorSpace then set_internalFormat GL_COMPRESSED_SRGB8_ALPHA8_ETC2_EAC info else set_internalFormat GL_COMPRESSED_RGBA8_ETC2_EAC info in
        Some info
      else
        None
  | F_EAC_R11 =>
      let info := set_type 0 info in
      let info := set_typeSize 1 info in
      let info := set_format 0 info in
      let info := set_baseInternalFormat GL_RED info in
      match type with
      | T_UNorm =>
          let info := set_internalFormat GL_COMPRESSED_R11_EAC info in
          Some info
      | T_SNorm =>
          let info := set_internalFormat GL_COMPRESSED_SIGNED_R11_EAC info in
          Some info
      | _ =>
          None
      end
  | F_EAC_R11G11 =>
      let info := set_type 0 info in
      let info := set_typeSize 1 info in
      let info := set_format 0 info in
      let info := set_baseInternalFormat GL_RG info in
      match type with
      | T_UNorm =>
          let info := set_internalFormat GL_COMPRESSED_RG11_EAC info in
          Some info
      | T_SNorm =>
          let info := set_internalFormat GL_COMPRESSED_SIGNED_RG11_EAC info in
          Some info
      | _ =>
          None
      end
  | F_ASTC_4x4 =>
      let info := set_type 0 info in
      let info := set_typeSize 1 info in
      let info := set_format 0 info in
      let info := set_baseInternalFormat GL_RGBA info in
      if type_eqb type T_UNorm || type_eqb type T_UFloat then
        let info := if cs_is_srgb colorSpace then set_internalFormat GL_COMPRESSED_SRGB8_ALPHA8_ASTC_4x4_KHR info else set_internalFormat GL_COMPRESSED_RGBA_ASTC_4x4_KHR info in
        Some info
      else
        None
  | F_ASTC_5x4 =>
      let info := set_type 0 info in
      let info := set_typeSize 1 info in
      let info := set_format 0 info in
      let info := set_baseInternalFormat GL_RGBA info in
      if type_eqb type T_UNorm || type_eqb type T_UFloat then
        let info := if cs_is_srgb colorSpace then set_internalFormat GL_COMPRESSED_SRGB8_ALPHA8_ASTC_5x4_KHR info else set_internalFormat GL_COMPRESSED_RGBA_ASTC_5x4_KHR info in
        Some info
      else
        None
  | F_ASTC_5x5 =>
      let info := set_type 0 info in
      let info := set_typeSize 1 info in
      let info := set_format 0 info in
      let info := set_baseInternalFormat GL_RGBA info in
      if type_eqb type T_UNorm || type_eqb type T_UFloat then
        let info := if cs_is_srgb colorSpace then set_internalFormat GL_COMPRESSED_SRGB8_ALPHA8_ASTC_5x5_KHR info else set_internalFormat GL_COMPRESSED_RGBA_ASTC_5x5_KHR info in
        Some info
      else
        None
  | F_ASTC_6x5 =>
      let info := set_type 0 info in
      let info := set_typeSize 1 info in
      let info := set_format 0 info in
      let info := set_baseInternalFormat GL_RGBA info in
      if type_eqb type T_UNorm || type_eqb type T_UFloat then
        let info := if cs_is_srgb colorSpace then set_internalFormat GL_COMPRESSED_SRGB8_ALPHA8_ASTC_6x5_KHR info else set_internalFormat GL_COMPRESSED_RGBA_ASTC_6x5_KHR info in
        Some info
      else
        None
  | F_ASTC_6x6 =>
      let info := set_type 0 info in
      let info := set_typeSize 1 info in
      let info := set_format 0 info in
      let info := set_baseInternalFormat GL_RGBA info in
      if type_eqb type T_UNorm || type_eqb type T_UFloat then
        let info := if cs_is_srgb colorSpace then set_internalFormat GL_COMPRESSED_SRGB8_ALPHA8_ASTC_6x6_KHR info else set_internalFormat GL_COMPRESSED_RGBA_ASTC_6x6_KHR info in
        Some info
      else
        None
  | F_ASTC_8x5 =>
      let info := set_type 0 info in
      let info := set_typeSize 1 info in
      let info := set_format 0 info in
      let info := set_baseInternalFormat GL_RGBA info in
      if type_eqb type T_UNorm || type_eqb type T_UFloat then
        let info := if cs_is_srgb colorSpace then set_internalFormat GL_COMPRESSED_SRGB8_ALPHA8_ASTC_8x5_KHR info else set_internalFormat GL_COMPRESSED_RGBA_ASTC_8x5_KHR info in
        Some info
      else
        None
  | F_ASTC_8x6 =>
      let info := set_type 0 info in
      let info := set_typeSize 1 info in
      let info := set_format 0 info in
      let info := set_baseInternalFormat GL_RGBA info in
      if type_eqb type T_UNorm || type_eqb type T_UFloat then
        let info := if cs_is_srgb colorSpace then set_internalFormat GL_COMPRESSED_SRGB8_ALPHA8_ASTC_8x6_KHR info else set_internalFormat GL_COMPRESSED_RGBA_ASTC_8x6_KHR info in
        Some info
      else
        None
  | F_ASTC_8x8 =>
      let info := set_type 0 info in
      let info := set_typeSize 1 info in
      let info := set_format 0 info in
      let info := set_baseInternalFormat GL_RGBA info in
      if type_eqb type T_UNorm || type_eqb type T_UFloat then
        let info := if cs_is_srgb colorSpace then set_internalFormat GL_COMPRESSED_SRGB8_ALPHA8_ASTC_8x8_KHR info else set_internalFormat GL_COMPRESSED_RGBA_ASTC_8x8_KHR info in
        Some info
      else
        None
  | F_ASTC_10x5 =>
      let info := set_type 0 info in
      let info := set_typeSize 1 info in
      let info := set_format 0 info in
      let info := set_baseInternalFormat GL_RGBA info in
      if type_eqb type T_UNorm || type_eqb type T_UFloat then
        let info := if cs_is_srgb colorSpace then set_internalFormat GL_COMPRESSED_SRGB8_ALPHA8_ASTC_10x5_KHR info else set_internalFormat GL_COMPRESSED_RGBA_ASTC_10x5_KHR info in
        Some info
      else
        None
  | F_ASTC_10x6 =>
      let info := set_type 0 info in
      let info := set_typeSize 1 info in
      let info := set_format 0 info in
      let info := set_baseInternalFormat GL_RGBA info in
      if type_eqb type T_UNorm || type_eqb type T_UFloat then
        let info := if cs_is_srgb colorSpace then set_internalFormat GL_COMPRESSED_SRGB8_ALPHA8_ASTC_10x6_KHR info else set_internalFormat GL_COMPRESSED_RGBA_ASTC_10x6_KHR info in
        Some info
      else
        None
  | F_ASTC_10x8 =>
      let info := set_type 0 info in
      let info := set_typeSize 1 info in
      let info := set_format 0 info in
      let info := set_baseInternalFormat GL_RGBA info in
      if type_eqb type T_UNorm || type_eqb type T_UFloat then
        let info := if cs_is_srgb colorSpace then set_internalFormat GL_COMPRESSED_SRGB8_ALPHA8_ASTC_10x8_KHR info else set_internalFormat GL_COMPRESSED_RGBA_ASTC_10x8_KHR info in
        Some info
      else
        None
  | F_ASTC_10x10 =>
      let info := set_type 0 info in
      let info := set_typeSize 1 info in
      let info := set_format 0 info in
      let info := set_baseInternalFormat GL_RGBA info in
      if type_eqb type T_UNorm || type_eqb type T_UFloat then
        let info := if cs_is_srgb colorSpace then set_internalFormat GL_COMPRESSED_SRGB8_ALPHA8_ASTC_10x10_KHR info else set_internalFormat GL_COMPRESSED_RGBA_ASTC_10x10_KHR info in
        Some info
      else
        None
  | F_ASTC_12x10 =>
      let info := set_type 0 info in
      let info := set_typeSize 1 info in
      let info := set_format 0 info in
      let info := set_baseInternalFormat GL_RGBA info in
      if type_eqb type T_UNorm || type_eqb type T_UFloat then
        let info := if cs_is_srgb colorSpace then set_internalFormat GL_COMPRESSED_SRGB8_ALPHA8_ASTC_12x10_KHR info else set_internalFormat GL_COMPRESSED_RGBA_ASTC_12x10_KHR info in
        Some info
      else
        None
  | F_ASTC_12x12 =>
      let info := set_type 0 info in
      let info := set_typeSize 1 info in
      let info := set_format 0 info in
      let info := set_baseInternalFormat GL_RGBA info in
      if type_eqb type T_UNorm || type_eqb type T_UFloat then
        let info := if cs_is_srgb colorSpace then set_internalFormat GL_COMPRESSED_SRGB8_ALPHA8_ASTC_12x12_KHR info else set_internalFormat GL_COMPRESSED_RGBA_ASTC_12x12_KHR info in
        Some info
      else
        None
  | F_PVRTC1_RGB_2BPP =>
      let info := set_type 0 info in
      let info := set_typeSize 1 info in
      let info := set_format 0 info in
      let info := set_baseInternalFormat GL_RGB info in
      if type_eqb type T_UNorm then
        let info := if cs_is_srgb colorSpace then set_internalFormat GL_COMPRESSED_SRGB_PVRTC_2BPPV1_EXT info else set_internalFormat GL_COMPRESSED_RGB_PVRTC_2BPPV1_IMG info in
        Some info
      else
        None
  | F_PVRTC1_RGBA_2BPP =>
      let info := set_type 0 info in
      let info := set_typeSize 1 info in
      let info := set_format 0 info in
      let info := set_baseInternalFormat GL_RGBA info in
      if type_eqb type T_UNorm then
        let info := if cs_is_srgb colorSpace then set_internalFormat GL_COMPRESSED_SRGB_ALPHA_PVRTC_2BPPV1_EXT info else set_internalFormat GL_COMPRESSED_RGBA_PVRTC_2BPPV1_IMG info in
        Some info
      else
        None
  | F_PVRTC1_RGB_4BPP =>
      let info := set_type 0 info in
      let info := set_typeSize 1 info in
      let info := set_format 0 info in
      let info := set_baseInternalFormat GL_RGB info in
      if type_eqb type T_UNorm then
        let info := if cs_is_srgb colorSpace then set_internalFormat GL_COMPRESSED_SRGB_PVRTC_4BPPV1_EXT info else set_internalFormat GL_COMPRESSED_RGB_PVRTC_4BPPV1_IMG info in
        Some info
      else
        None
  | F_PVRTC1_RGBA_4BPP =>
      let info := set_type 0 info in
      let info := set_typeSize 1 info in
      let info := set_format 0 info in
      let info := set_baseInternalFormat GL_RGBA info in
      if type_eqb type T_UNorm then
        let info := if cs_is_srgb colorSpace then set_internalFormat GL_COMPRESSED_SRGB_ALPHA_PVRTC_4BPPV1_EXT info else set_internalFormat GL_COMPRESSED_RGBA_PVRTC_4BPPV1_IMG info in
        Some info
      else
        None
  | F_PVRTC2_RGBA_2BPP =>
      let info := set_type 0 info in
      let info := set_typeSize 1 info in
      let info := set_format 0 info in
      let info := set_baseInternalFormat GL_RGBA info in
      if type_eqb type T_UNorm then
        let info := if cs_is_srgb colorSpace then set_internalFormat GL_COMPRESSED_SRGB_ALPHA_PVRTC_2BPPV2_IMG info else set_internalFormat GL_COMPRESSED_RGBA_PVRTC_2BPPV2_IMG info in
        Some info
      else
        None
  | F_PVRTC2_RGBA_4BPP =>
      let info := set_type 0 info in
      let info := set_typeSize 1 info in
      let info := set_format 0 info in
      let info := set_baseInternalFormat GL_RGBA info in
      if type_eqb type T_UNorm then
        let info := if cs_is_srgb colorSpace then set_internalFormat GL_COMPRESSED_SRGB_ALPHA_PVRTC_4BPPV2_IMG info else set_internalFormat GL_COMPRESSED_RGBA_PVRTC_4BPPV2_IMG info in
        Some info
      else
        None
  | F_Unknown | F_R4G4 | F_A4R4G4B4 | F_B8G8R8 =>
      None
  end.

(** [isValidForKtx], lib/src/SaveKtx.cpp:1183-1187. *)
Definition isValidForKtx (f : format) (t : ttype) : bool :=
  match getFormatInfo f t CS_Linear with Some _ => true | None => false end.

(** * PVR.  [enum PvrChannelType] and [enum PvrSpecialFormat] (the enumerators in use),
    lib/src/SavePvr.cpp:32-49 and 52-106. *)
Definition PvrChannelType_UByteN : N := 0.
Definition PvrChannelType_SByteN : N := 1.
Definition PvrChannelType_UByte : N := 2.
Definition PvrChannelType_SByte : N := 3.
Definition PvrChannelType_UShortN : N := 4.
Definition PvrChannelType_SShortN : N := 5.
Definition PvrChannelType_UShort : N := 6.
Definition PvrChannelType_SShort : N := 7.
Definition PvrChannelType_UIntN : N := 8.
Definition PvrChannelType_SIntN : N := 9.
Definition PvrChannelType_UInt : N := 10.
Definition PvrChannelType_SInt : N := 11.
Definition PvrChannelType_Float : N := 12.
Definition PvrChannelType_UFloat : N := 13.
Definition PvrSpecialFormat_PVRTC_2bppRGB : N := 0.
Definition PvrSpecialFormat_PVRTC_2bppRGBA : N := 1.
Definition PvrSpecialFormat_PVRTC_4bppRGB : N := 2.
Definition PvrSpecialFormat_PVRTC_4bppRGBA : N := 3.
Definition PvrSpecialFormat_PVRTC2_2bpp : N := 4.
Definition PvrSpecialFormat_PVRTC2_4bpp : N := 5.
Definition PvrSpecialFormat_ETC1 : N := 6.
Definition PvrSpecialFormat_BC1 : N := 7.
Definition PvrSpecialFormat_DXT2 : N := 8.
Definition PvrSpecialFormat_BC2 : N := 9.
Definition PvrSpecialFormat_DXT4 : N := 10.
Definition PvrSpecialFormat_BC3 : N := 11.
Definition PvrSpecialFormat_BC4 : N := 12.
Definition PvrSpecialFormat_BC5 : N := 13.
Definition PvrSpecialFormat_BC6 : N := 14.
Definition PvrSpecialFormat_BC7 : N := 15.
Definition PvrSpecialFormat_R9G9B9E5_UFloat : N := 19.
Definition PvrSpecialFormat_ETC2_RGB : N := 22.
Definition PvrSpecialFormat_ETC2_RGBA : N := 23.
Definition PvrSpecialFormat_ETC2_RGB_A1 : N := 24.
Definition PvrSpecialFormat_EAC_R11 : N := 25.
Definition PvrSpecialFormat_EAC_RG11 : N := 26.
Definition PvrSpecialFormat_ASTC_4x4 : N := 27.
Definition PvrSpecialFormat_ASTC_5x4 : N := 28.
Definition PvrSpecialFormat_ASTC_5x5 : N := 29.
Definition PvrSpecialFormat_ASTC_6x5 : N := 30.
Definition PvrSpecialFormat_ASTC_6x6 : N := 31.
Definition PvrSpecialFormat_ASTC_8x5 : N := 32.
Definition PvrSpecialFormat_ASTC_8x6 : N := 33.
Definition PvrSpecialFormat_ASTC_8x8 : N := 34.
Definition PvrSpecialFormat_ASTC_10x5 : N := 35.
Definition PvrSpecialFormat_ASTC_10x6 : N := 36.
Definition PvrSpecialFormat_ASTC_10x8 : N := 37.
Definition PvrSpecialFormat_ASTC_10x10 : N := 38.
Definition PvrSpecialFormat_ASTC_12x10 : N := 39.
Definition PvrSpecialFormat_ASTC_12x12 : N := 40.

(** [PVR_GENERIC_FORMAT], lib/src/SavePvr.cpp:21-27: four channel names in the low word, four
    bit counts in the high word. *)
Definition PVR_GENERIC_FORMAT (c0 b0 c1 b1 c2 b2 c3 b3 : N) : N :=
  c0 + c1 * 2^8 + c2 * 2^16 + c3 * 2^24 + b0 * 2^32 + b1 * 2^40 + b2 * 2^48 + b3 * 2^56.

(** [getChannelType], lib/src/SavePvr.cpp:109-268. *)
Definition getChannelType (format : format) (type : ttype) : N :=
  match type with
  | T_UNorm =>
      match format with
      | F_R4G4 | F_R8 | F_R8G8 | F_R8G8B8 | F_B8G8R8 | F_R8G8B8A8 | F_B8G8R8A8 | F_A8B8G8R8 |
        F_BC4 | F_BC5 =>
          PvrChannelType_UByteN
      | F_R4G4B4A4 | F_B4G4R4A4 | F_A4R4G4B4 | F_R5G6B5 | F_B5G6R5 | F_R5G5B5A1 | F_B5G5R5A1 |
        F_A1R5G5B5 | F_R16 | F_R16G16 | F_R16G16B16 | F_R16G16B16A16 | F_EAC_R11 |
        F_EAC_R11G11 =>
          PvrChannelType_UShortN
      | F_A2R10G10B10 | F_A2B10G10R10 | F_R32 | F_R32G32 | F_R32G32B32 | F_R32G32B32A32 =>
          PvrChannelType_UIntN
      | _ =>
          PvrChannelType_UByteN
      end
  | T_SNorm =>
      match format with
      | F_R4G4 | F_R8 | F_R8G8 | F_R8G8B8 | F_B8G8R8 | F_R8G8B8A8 | F_B8G8R8A8 | F_A8B8G8R8 |
        F_BC4 | F_BC5 =>
          PvrChannelType_SByteN
      | F_R4G4B4A4 | F_B4G4R4A4 | F_A4R4G4B4 | F_R5G6B5 | F_B5G6R5 | F_R5G5B5A1 | F_B5G5R5A1 |
        F_A1R5G5B5 | F_R16 | F_R16G16 | F_R16G16B16 | F_R16G16B16A16 | F_EAC_R11 |
        F_EAC_R11G11 =>
          PvrChannelType_SShortN
      | F_A2R10G10B10 | F_A2B10G10R10 | F_R32 | F_R32G32 | F_R32G32B32 | F_R32G32B32A32 =>
          PvrChannelType_SIntN
      | _ =>
          PvrChannelType_SByteN
      end
  | T_UInt =>
      match format with
      | F_R4G4 | F_R8 | F_R8G8 | F_R8G8B8 | F_B8G8R8 | F_R8G8B8A8 | F_B8G8R8A8 | F_A8B8G8R8 =>
          PvrChannelType_UByte
      | F_R4G4B4A4 | F_B4G4R4A4 | F_A4R4G4B4 | F_R5G6B5 | F_B5G6R5 | F_R5G5B5A1 | F_B5G5R5A1 |
        F_A1R5G5B5 | F_R16 | F_R16G16 | F_R16G16B16 | F_R16G16B16A16 =>
          PvrChannelType_UShort
      | F_A2R10G10B10 | F_A2B10G10R10 | F_R32 | F_R32G32 | F_R32G32B32 | F_R32G32B32A32 =>
          PvrChannelType_UInt
      | _ =>
          PvrChannelType_UByte
      end
  | T_Int =>
      match format with
      | F_R4G4 | F_R8 | F_R8G8 | F_R8G8B8 | F_B8G8R8 | F_R8G8B8A8 | F_B8G8R8A8 | F_A8B8G8R8 =>
          PvrChannelType_SByte
      | F_R4G4B4A4 | F_B4G4R4A4 | F_A4R4G4B4 | F_R5G6B5 | F_B5G6R5 | F_R5G5B5A1 | F_B5G5R5A1 |
        F_A1R5G5B5 | F_R16 | F_R16G16 | F_R16G16B16 | F_R16G16B16A16 =>
          PvrChannelType_SShort
      | F_A2R10G10B10 | F_A2B10G10R10 | F_R32 | F_R32G32 | F_R32G32B32 | F_R32G32B32A32 =>
          PvrChannelType_SInt
      | _ =>
          PvrChannelType_UByte
      end
  | T_UFloat =>
      PvrChannelType_UFloat
  | T_Float =>
      PvrChannelType_Float
  end.

(** [getPixelFormat], lib/src/SavePvr.cpp:270-470.  Channel names are ASCII codes:
    97 = a, 98 = b, 103 = g, 114 = r. *)
Definition getPixelFormat (format : format) (alphaType : alpha) : option N :=
  let pixelFormat := 0 in
  match format with
  | F_Unknown =>
      None
  | F_R4G4 =>
      let pixelFormat := PVR_GENERIC_FORMAT 114 4 103 4 0 0 0 0 in
      Some pixelFormat
  | F_R4G4B4A4 =>
      let pixelFormat := PVR_GENERIC_FORMAT 114 4 103 4 98 4 97 4 in
      Some pixelFormat
  | F_B4G4R4A4 =>
      let pixelFormat := PVR_GENERIC_FORMAT 98 4 103 4 114 4 97 4 in
      Some pixelFormat
  | F_A4R4G4B4 =>
      let pixelFormat := PVR_GENERIC_FORMAT 97 4 114 4 103 4 98 4 in
      Some pixelFormat
  | F_R5G6B5 =>
      let pixelFormat := PVR_GENERIC_FORMAT 114 5 103 6 98 5 0 0 in
      Some pixelFormat
  | F_B5G6R5 =>
      let pixelFormat := PVR_GENERIC_FORMAT 98 5 103 6 114 5 0 0 in
      Some pixelFormat
  | F_R5G5B5A1 =>
      let pixelFormat := PVR_GENERIC_FORMAT 114 5 103 5 98 5 97 1 in
      Some pixelFormat
  | F_B5G5R5A1 =>
      let pixelFormat := PVR_GENERIC_FORMAT 98 5 103 5 114 5 97 1 in
      Some pixelFormat
  | F_A1R5G5B5 =>
      let pixelFormat := PVR_GENERIC_FORMAT 97 1 114 5 103 5 98 5 in
      Some pixelFormat
  | F_R8 =>
      let pixelFormat := PVR_GENERIC_FORMAT 114 8 0 0 0 0 0 0 in
      Some pixelFormat
  | F_R8G8 =>
      let pixelFormat := PVR_GENERIC_FORMAT 114 8 103 8 0 0 0 0 in
      Some pixelFormat
  | F_R8G8B8 =>
      let pixelFormat := PVR_GENERIC_FORMAT 114 8 103 8 98 8 0 0 in
      Some pixelFormat
  | F_B8G8R8 =>
      let pixelFormat := PVR_GENERIC_FORMAT 98 8 103 8 114 8 0 0 in
      Some pixelFormat
  | F_R8G8B8A8 =>
      let pixelFormat := PVR_GENERIC_FORMAT 114 8 103 8 98 8 97 8 in
      Some pixelFormat
  | F_B8G8R8A8 =>
      let pixelFormat := PVR_GENERIC_FORMAT 98 8 103 8 114 8 97 8 in
      Some pixelFormat
  | F_A8B8G8R8 =>
      let pixelFormat := PVR_GENERIC_FORMAT 97 8 98 8 103 8 114 8 in
      Some pixelFormat
  | F_A2R10G10B10 =>
      let pixelFormat := PVR_GENERIC_FORMAT 97 2 114 10 103 10 98 10 in
      Some pixelFormat
  | F_A2B10G10R10 =>
      let pixelFormat := PVR_GENERIC_FORMAT 97 2 98 10 103 10 114 10 in
      Some pixelFormat
  | F_R16 =>
      let pixelFormat := PVR_GENERIC_FORMAT 114 16 0 0 0 0 0 0 in
      Some pixelFormat
  | F_R16G16 =>
      let pixelFormat := PVR_GENERIC_FORMAT 114 16 103 16 0 0 0 0 in
      Some pixelFormat
  | F_R16G16B16 =>
      let pixelFormat := PVR_GENERIC_FORMAT 114 16 103 16 98 16 0 0 in
      Some pixelFormat
  | F_R16G16B16A16 =>
      let pixelFormat := PVR_GENERIC_FORMAT 114 16 103 16 98 16 97 16 in
      Some pixelFormat
  | F_R32 =>
      let pixelFormat := PVR_GENERIC_FORMAT 114 32 0 0 0 0 0 0 in
      Some pixelFormat
  | F_R32G32 =>
      let pixelFormat := PVR_GENERIC_FORMAT 114 32 103 32 0 0 0 0 in
      Some pixelFormat
  | F_R32G32B32 =>
      let pixelFormat := PVR_GENERIC_FORMAT 114 32 103 32 98 32 0 0 in
      Some pixelFormat
  | F_R32G32B32A32 =>
      let pixelFormat := PVR_GENERIC_FORMAT 114 32 103 32 98 32 97 32 in
      Some pixelFormat
  | F_B10G11R11_UFloat =>
      let pixelFormat := PVR_GENERIC_FORMAT 98 10 103 11 114 11 0 0 in
      Some pixelFormat
  | F_E5B9G9R9_UFloat =>
      let pixelFormat := PvrSpecialFormat_R9G9B9E5_UFloat in
      Some pixelFormat
  | F_BC1_RGB | F_BC1_RGBA =>
      let pixelFormat := PvrSpecialFormat_BC1 in
      Some pixelFormat
  | F_BC2 =>
      let pixelFormat := if alpha_is_premultiplied alphaType then PvrSpecialFormat_DXT2 else PvrSpecialFormat_BC2 in
      Some pixelFormat
  | F_BC3 =>
      let pixelFormat := if alpha_is_premultiplied alphaType then PvrSpecialFormat_DXT4 else PvrSpecialFormat_BC3 in
      Some pixelFormat
  | F_BC4 =>
      let pixelFormat := PvrSpecialFormat_BC4 in
      Some pixelFormat
  | F_BC5 =>
      let pixelFormat := PvrSpecialFormat_BC5 in
      Some pixelFormat
  | F_BC6H =>
      let pixelFormat := PvrSpecialFormat_BC6 in
      Some pixelFormat
  | F_BC7 =>
      let pixelFormat := PvrSpecialFormat_BC7 in
      Some pixelFormat
  | F_ETC1 =>
      let pixelFormat := PvrSpecialFormat_ETC1 in
      Some pixelFormat
  | F_ETC2_R8G8B8 =>
      let pixelFormat := PvrSpecialFormat_ETC2_RGB in
      Some pixelFormat
  | F_ETC2_R8G8B8A1 =>
      let pixelFormat := PvrSpecialFormat_ETC2_RGB_A1 in
      Some pixelFormat
  | F_ETC2_R8G8B8A8 =>
      let pixelFormat := PvrSpecialFormat_ETC2_RGBA in
      Some pixelFormat
  | F_EAC_R11 =>
      let pixelFormat := PvrSpecialFormat_EAC_R11 in
      Some pixelFormat
  | F_EAC_R11G11 =>
      let pixelFormat := PvrSpecialFormat_EAC_RG11 in
      Some pixelFormat
  | F_ASTC_4x4 =>
      let pixelFormat := PvrSpecialFormat_ASTC_4x4 in
      Some pixelFormat
  | F_ASTC_5x4 =>
      let pixelFormat := PvrSpecialFormat_ASTC_5x4 in
      Some pixelFormat
  | F_ASTC_5x5 =>
      let pixelFormat := PvrSpecialFormat_ASTC_5x5 in
      Some pixelFormat
  | F_ASTC_6x5 =>
      let pixelFormat := PvrSpecialFormat_ASTC_6x5 in
      Some pixelFormat
  | F_ASTC_6x6 =>
      let pixelFormat := PvrSpecialFormat_ASTC_6x6 in
      Some pixelFormat
  | F_ASTC_8x5 =>
      let pixelFormat := PvrSpecialFormat_ASTC_8x5 in
      Some pixelFormat
  | F_ASTC_8x6 =>
      let pixelFormat := PvrSpecialFormat_ASTC_8x6 in
      Some pixelFormat
  | F_ASTC_8x8 =>
      let pixelFormat := PvrSpecialFormat_ASTC_8x8 in
      Some pixelFormat
  | F_ASTC_10x5 =>
      let pixelFormat := PvrSpecialFormat_ASTC_10x5 in
      Some pixelFormat
  | F_ASTC_10x6 =>
      let pixelFormat := PvrSpecialFormat_ASTC_10x6 in
      Some pixelFormat
  | F_ASTC_10x8 =>
      let pixelFormat := PvrSpecialFormat_ASTC_10x8 in
      Some pixelFormat
  | F_ASTC_10x10 =>
      let pixelFormat := PvrSpecialFormat_ASTC_10x10 in
      Some pixelFormat
  | F_ASTC_12x10 =>
      let pixelFormat := PvrSpecialFormat_ASTC_12x10 in
      Some pixelFormat
  | F_ASTC_12x12 =>
      let pixelFormat := PvrSpecialFormat_ASTC_12x12 in
      Some pixelFormat
  | F_PVRTC1_RGB_2BPP =>
      let pixelFormat := PvrSpecialFormat_PVRTC_2bppRGB in
      Some pixelFormat
  | F_PVRTC1_RGBA_2BPP =>
      let pixelFormat := PvrSpecialFormat_PVRTC_2bppRGBA in
      Some pixelFormat
  | F_PVRTC1_RGB_4BPP =>
      let pixelFormat := PvrSpecialFormat_PVRTC_4bppRGB in
      Some pixelFormat
  | F_PVRTC1_RGBA_4BPP =>
      let pixelFormat := PvrSpecialFormat_PVRTC_4bppRGBA in
      Some pixelFormat
  | F_PVRTC2_RGBA_2BPP =>
      let pixelFormat := PvrSpecialFormat_PVRTC2_2bpp in
      Some pixelFormat
  | F_PVRTC2_RGBA_4BPP =>
      let pixelFormat := PvrSpecialFormat_PVRTC2_4bpp in
      Some pixelFormat
  end.

(** [isValidForPvr], lib/src/SavePvr.cpp:472-476.  The type is ignored. *)
Definition isValidForPvr (f : format) (t : ttype) : bool :=
  match getPixelFormat f AlphaStandard with Some _ => true | None => false end.

(** [Texture::isFormatValid(Format, Type, FileType)], lib/src/Texture.cpp:398-419. *)
Definition isFormatValidFile (fl : flags) (f : format) (t : ttype) (ft : filetype) : bool :=
  if negb (isFormatValid fl f t) then false
  else match ft with
       | FT_DDS => isValidForDds f t
       | FT_KTX => isValidForKtx f t
       | FT_PVR => isValidForPvr f t
       | FT_Auto => false
       end.


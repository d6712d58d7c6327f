{
 "claims": [
  {
   "property": "C01",
   "status": "proved",
   "theorems": [
    "C01_valid_iff_convertible",
    "C01_converter_writes_request",
    "C01_build_flags",
    "C01_every_format_usable"
   ],
   "note": ""
  },
  {
   "property": "C02",
   "status": "proved",
   "theorems": [
    "C02_block_geometry",
    "C02_converted_size",
    "C02_unbounded_refuted"
   ],
   "note": "PVRTC sizes are chosen by the external encoder and excluded; the 32-bit bound is shown necessary by C02_unbounded_refuted"
  },
  {
   "property": "C03",
   "status": "proved",
   "theorems": [
    "C03_supported_iff"
   ],
   "note": "Theorem over all reachable textures, builds, containers and streams."
  },
  {
   "property": "C04",
   "status": "proved",
   "theorems": [
    "C04_hasAlpha",
    "C04_hasAlpha_all_refuted"
   ],
   "note": "C04_hasAlpha_all_refuted is the A4R4G4B4 exception named in the property"
  },
  {
   "property": "C05",
   "status": "proved",
   "theorems": [
    "C05_dds_code_describes",
    "C05_dds_unsupported_has_no_code",
    "C05_dds_identifies",
    "C05_ktx_fields_describe",
    "C05_ktx_order_refuted",
    "C05_ktx_unsupported_has_no_fields",
    "C05_ktx_identifies",
    "C05_pvr_fields_describe",
    "C05_pvr_identifies"
   ],
   "note": "aliases: BC1_RGB/BC1_RGBA in DDS and PVR, ASTC UNorm/UFloat in KTX; KTX channel order, sign and integer exceptions are exact"
  },
  {
   "property": "C06",
   "status": "proved",
   "theorems": [
    "C06_mip_count",
    "C06_last_level"
   ],
   "note": "sizes are 32-bit and non-zero"
  },
  {
   "property": "C07",
   "status": "proved",
   "theorems": [
    "C07_extents",
    "C07_floor"
   ],
   "note": "pixel library calls (convert, resize, colour space) are parameters constrained by lib_ok"
  },
  {
   "property": "C08",
   "status": "proved",
   "theorems": [
    "C08_initialize"
   ],
   "note": "pixel library calls (convert, resize, colour space) are parameters constrained by lib_ok"
  },
  {
   "property": "C09",
   "status": "proved",
   "theorems": [
    "C09_setImage",
    "C09_stored_form",
    "C09_no_face"
   ],
   "note": "pixel library calls (convert, resize, colour space) are parameters constrained by lib_ok"
  },
  {
   "property": "C10",
   "status": "proved",
   "theorems": [
    "C10_accessors_defined",
    "C10_failed_volume_mips_refuted",
    "C10_mips_after_convert_refuted"
   ],
   "note": "reachable histories exclude the two cases refuted beside it; CubeFace arguments are the six enumerators"
  },
  {
   "property": "C11",
   "status": "proved",
   "theorems": [
    "C11_complete_iff_all_set",
    "C11_complete_all_set",
    "C11_volume_never_complete"
   ],
   "note": "pixel library calls (convert, resize, colour space) are parameters constrained by lib_ok"
  },
  {
   "property": "C12",
   "status": "proved",
   "theorems": [
    "C12_levels_filled",
    "C12_unresizable_refuted"
   ],
   "note": "C12_unresizable_refuted shows the proviso is needed"
  },
  {
   "property": "C13",
   "status": "proved",
   "theorems": [
    "C13_custom_used",
    "C13_level_contents",
    "C13_own_chain",
    "C13_volume_contents",
    "C13_once_isolated",
    "C13_once_last_refuted",
    "C13_colour_space_refuted"
   ],
   "note": "C13_once_last_refuted and C13_colour_space_refuted are the exceptions named in the property; C13_level_contents is the exact content for 1D/2D/cube, C13_volume_contents for 3D"
  },
  {
   "property": "C14",
   "status": "proved",
   "theorems": [
    "C14_success_iff",
    "C14_failure_changes_levels_refuted"
   ],
   "note": ""
  },
  {
   "property": "C15",
   "status": "proved",
   "theorems": [
    "C15_convert",
    "C15_data_range"
   ],
   "note": "the encoder is an arbitrary function of the converter, the arguments and the image; data contents are the subject of C16-C22"
  },
  {
   "property": "C16",
   "status": "proved",
   "theorems": [
    "C16_no_undefined_behaviour",
    "C16_terminates",
    "C16_schedule_independent"
   ],
   "note": "interleaving at single-byte stores with sequential consistency; per-thread encoder scratch data is not modelled; needs jobs+threads < 2^32 because the job counter is an unsigned int"
  },
  {
   "property": "C17",
   "status": "proved",
   "theorems": [
    "C17_pixels_in_order",
    "C17_any_schedule",
    "C17_pixel_position",
    "C17_large_image_refuted"
   ],
   "note": "needs w*h+31 < 2^32 and w*h*channels <= 2^32; C17_large_image_refuted shows the second bound is needed"
  },
  {
   "property": "C18",
   "status": "proved",
   "theorems": [
    "C18_clamped_blocks",
    "C18_etc_blocks",
    "C18_block_position"
   ],
   "note": "block encoders are parameters that return blockSize bytes; PVRTC has a single job and is not covered"
  },
  {
   "property": "C19",
   "status": "proved",
   "theorems": [
    "C19_stored",
    "C19_endpoints",
    "C19_monotone",
    "C19_round_trip",
    "C19_undefined"
   ],
   "note": "For every binary32 value of every stored channel of every UNorm format: stored number, error bound, range, end points, monotonicity, re-encoding; undefined exactly for NaN. Arithmetic is Flocq binary32."
  },
  {
   "property": "C20",
   "status": "proved",
   "theorems": [
    "C20_stored",
    "C20_endpoints",
    "C20_odd",
    "C20_monotone",
    "C20_round_trip",
    "C20_undefined"
   ],
   "note": "Stored two's complement number, error bound, symmetric range, end points, oddness, monotonicity, re-encoding; undefined exactly for NaN."
  },
  {
   "property": "C21",
   "status": "proved",
   "theorems": [
    "C21_stored",
    "C21_exact",
    "C21_monotone",
    "C21_undefined",
    "C21_saturates",
    "C21_saturates_refuted"
   ],
   "note": "Stored integer, exactness, monotonicity, exact set of undefined inputs (NaN; 2^32 / 2^31 and above for 32-bit channels); saturation refuted for R32 UInt."
  },
  {
   "property": "C22",
   "status": "proved",
   "theorems": [
    "C22_fields",
    "C22_undefined",
    "C22_small_floats",
    "C22_surface"
   ],
   "note": "Each channel of the documented layout holds its quantised value, for every createConverter result; half and packed small float conversions are parameters (SSE / glm code not modelled)."
  },
  {
   "property": "C25",
   "status": "proved",
   "theorems": [
    "C25_dds_reads_back",
    "C25_dds_header",
    "C25_complex_flag_refuted"
   ],
   "note": "Reader in SaveSpec.v written from the DDS documentation. The external codecs are assumed to return surfaces of the size C02 states (enc_sized)."
  },
  {
   "property": "C26",
   "status": "proved",
   "theorems": [
    "C26_ktx_reads_back",
    "C26_tall_1d_refuted"
   ],
   "note": "Reader in SaveSpec.v written from the KTX 1.1 specification. PVRTC surfaces are assumed to be multiples of four bytes."
  },
  {
   "property": "C27",
   "status": "proved",
   "theorems": [
    "C27_pvr_reads_back"
   ],
   "note": "Reader in SaveSpec.v written from the PVR v3 specification."
  },
  {
   "property": "C28",
   "status": "proved",
   "theorems": [
    "C28_stream_failures",
    "C28_already_failed",
    "C28_every_failure_point",
    "C28_file",
    "C28_file_flush_refuted"
   ],
   "note": "Streams are an arbitrary state machine satisfying stream_ok; the lost-flush case is the _refuted theorem."
  },
  {
   "property": "C29",
   "status": "proved",
   "theorems": [
    "C29_vector_equals_stream",
    "C29_any_stream"
   ],
   "note": "Both read paths of readStreamData."
  },
  {
   "property": "C30",
   "status": "proved",
   "theorems": [
    "C30_file_type"
   ],
   "note": "Characters are numbers; ASCII case folding as in the C locale."
  },
  {
   "property": "C31",
   "status": "proved",
   "theorems": [
    "C31_misuse_writes_nothing",
    "C31_file_untouched",
    "C31_file_emptied",
    "C31_file_untouched_refuted"
   ],
   "note": "File truncation is part of the statement and shown by the _refuted theorem."
  },
  {
   "property": "C33",
   "status": "proved",
   "theorems": [
    "C33_rotate",
    "C33_inverse",
    "C33_four",
    "C33_two_quarters"
   ],
   "note": "Relative to the stated contract of FreeImage_Rotate (turned image or null); the fallback loops are proved outright."
  },
  {
   "property": "C34",
   "status": "proved",
   "theorems": [
    "C34_swizzle",
    "C34_swizzle_565",
    "C34_compose",
    "C34_exchange_twice",
    "C34_no_image",
    "C34_565_compose_refuted"
   ],
   "note": "All formats; RGB565 with mixed precision by the exact closest-value theorem; composition refuted there."
  },
  {
   "property": "C35",
   "status": "proved",
   "theorems": [
    "C35_read_defined",
    "C35_write_back",
    "C35_write_back_gray",
    "C35_only_that_pixel",
    "C35_uint16_refuted",
    "C35_double_refuted"
   ],
   "note": "All 15 formats over IEEE binary64/binary32; two defects refuted."
  },
  {
   "property": "C36",
   "status": "proved",
   "theorems": [
    "C36_mips3d_rounding",
    "C36_mips3d_srgb",
    "C36_weights",
    "C36_formula",
    "C36_between",
    "C36_constant",
    "C36_mips3d_formula",
    "C36_rounding",
    "C36_box_integers",
    "C36_other_filters",
    "C36_linear_constant_refuted",
    "C36_srgb_steps",
    "C36_srgb_formula"
   ],
   "note": "Real arithmetic: exact formulas for resize and generateMips3d. Binary64: C36_rounding, C36_box_integers, C36_mips3d_rounding and, for sRGB volumes and any std::pow as accurate as SrgbSpec asks, C36_mips3d_srgb bound the rounding. sRGB images: C36_srgb_steps for every format and arithmetic, C36_srgb_formula over the reals. FreeImage_Rescale itself is a parameter."
  },
  {
   "property": "C37",
   "status": "proved",
   "theorems": [
    "C37_normal",
    "C37_defined",
    "C37_unit",
    "C37_invalid",
    "C37_uint32_refuted",
    "C37_overflow_refuted"
   ],
   "note": "C37_normal: binary64, all sizes and options, colour formats, in API coordinates against NormalSpec.v; C37_defined: the remaining formats never hit an undefined conversion except UInt32 with KeepSign (C37_uint32_refuted); C37_unit: the specified vectors have length one; C37_overflow_refuted: beyond the stated bound the result is the zero vector; C37_invalid."
  },
  {
   "property": "C38",
   "status": "proved",
   "theorems": [
    "C38_endpoints",
    "C38_decode_monotone",
    "C38_encode_monotone_pieces",
    "C38_encode_almost_monotone",
    "C38_encode_monotone_refuted",
    "C38_unit_interval",
    "C38_encode_decode",
    "C38_decode_encode",
    "C38_gap_error",
    "C38_inverse_refuted"
   ],
   "note": "Model over the reals (ArithReal); thresholds decided by exact 5th/12th powers. Monotonicity and inverse fail exactly at the thresholds (refuted theorems)."
  },
  {
   "property": "C39",
   "status": "proved",
   "theorems": [
    "C39_levels",
    "C39_snorm_levels",
    "C39_float_levels",
    "C39_float_snorm",
    "C39_unchanged",
    "C39_packed_alpha_refuted"
   ],
   "note": "binary32 arithmetic; FreeImage's conversion to float is a contract (floats within 2^-22 of k/(2^n-1)). Alpha from RGB5/RGB565 originals is lost: refuted theorem."
  },
  {
   "property": "C40",
   "status": "proved",
   "theorems": [
    "C40_named",
    "C40_number",
    "C40_default",
    "C40_negative_refuted",
    "C40_next",
    "C40_next_out_of_range",
    "C40_nearest",
    "C40_nearest_out_of_range",
    "C40_dimension"
   ],
   "note": "C40_next, C40_nearest: least / nearest power of two for 1..2^31 (ties go down); C40_*_out_of_range: 0 otherwise; C40_dimension: every named size of the -r option gives a usable side."
  },
  {
   "property": "C41",
   "status": "proved",
   "theorems": [
    "C41_consistent",
    "C41_custom_mips",
    "C41_whole_levels_refuted",
    "C41_cube_depth_refuted"
   ],
   "note": "Positive theorems for every guarantee that holds; the two that do not hold are the _refuted theorems with concrete arguments."
  },
  {
   "property": "C42",
   "status": "proved",
   "theorems": [
    "C42_options",
    "C42_type_kept",
    "C42_type_refuted",
    "C42_unknown_format_refuted"
   ],
   "note": "All fields at once in C42_options; order dependence of -t and acceptance of an unknown -f are _refuted theorems."
  },
  {
   "property": "C43",
   "status": "proved",
   "theorems": [
    "C43_terminates",
    "C43_images",
    "C43_shift",
    "C43_defined",
    "C43_list_refuted",
    "C43_negative_refuted",
    "C43_wrap_refuted",
    "C43_shift_refuted"
   ],
   "note": "strtod and file contents are arbitrary parameters; cap is the largest vector size before an exception."
  },
  {
   "property": "C44",
   "status": "proved",
   "theorems": [
    "C44_status",
    "C44_meaning",
    "C44_terminates"
   ],
   "note": "Exit status, event order and termination of main for every outcome of the library calls and of mkdir; the library calls are parameters."
  },
  {
   "property": "C45",
   "status": "proved",
   "theorems": [
    "C45_calls"
   ],
   "note": "For every path without NUL characters and every behaviour of mkdir; parents is defined independently in ToolSpec.v."
  },
  {
   "property": "C46",
   "status": "proved",
   "theorems": [
    "C46_legal",
    "C46_exclusive",
    "C46_bounded",
    "C46_no_leak",
    "C46_reuse",
    "C46_defined",
    "C46_zero_refuted"
   ],
   "note": "The two operations hold the mutex throughout, so executions are sequences of calls; allocation failure is covered."
  },
  {
   "property": "C47",
   "status": "proved",
   "theorems": [
    "C47_never_aliases",
    "C47_independent",
    "C47_built",
    "C47_construct",
    "C47_assign",
    "C47_assign_mode_refuted"
   ],
   "note": "an operation history over addresses; copying an Image is assumed to succeed"
  },
  {
   "property": "C48",
   "status": "proved",
   "theorems": [
    "C48_premultiply_no_alpha",
    "C48_premultiply_integer",
    "C48_premultiply_integer_opaque",
    "C48_premultiply_float",
    "C48_grayscale_normalised",
    "C48_grayscale_float",
    "C48_grayscale_integer",
    "C48_grayscale_integer_refuted",
    "C48_premultiply_srgb",
    "C48_grayscale_srgb"
   ],
   "note": "Linear images in PropsColor.v; sRGB images with normalised channels in PropsSrgbOps.v, for any std::pow meeting pow_ok. sRGB float images are not covered."
  },
  {
   "property": "C49",
   "status": "proved",
   "theorems": [
    "C49_input_list"
   ],
   "note": "Whole parse from the argument vector."
  },
  {
   "property": "C50",
   "status": "proved",
   "theorems": [
    "C50_lists_end",
    "C50_custom_mip_list"
   ],
   "note": "Stated for one parser step in any state; list files that omit optional fields are covered by the termination theorem only."
  },
  {
   "property": "C51",
   "status": "proved",
   "theorems": [
    "C51_decimal",
    "C51_saturates",
    "C51_unsigned",
    "C51_signed",
    "C51_negative_refuted"
   ],
   "note": "strtoul in the C locale with 64-bit unsigned long."
  },
  {
   "property": "C52",
   "status": "proved",
   "theorems": [
    "C52_settings",
    "C52_unambiguous",
    "C52_accepted",
    "C52_caseless"
   ],
   "note": "Grammar in CommandGrammar.v (spelled, settings, makes_texture): accepted => spelled and settings; spelled is unambiguous; spelled and makes_texture => accepted. Numbers are read by the modelled strtoul/strtol; strtod is a parameter."
  },
  {
   "property": "C53",
   "status": "proved",
   "theorems": [
    "C53_images",
    "C53_custom_mips",
    "C53_cube_index_refuted"
   ],
   "note": "Places as a function of the directives (placed, entries). Hypothesis: cube numbers below 2^61; C53_cube_index_refuted shows that some bound is needed. List files of custom mips are described when written in the full form of C50."
  },
  {
   "property": "C54",
   "status": "proved",
   "theorems": [
    "C54_file",
    "C54_dds_contents",
    "C54_pvr_contents",
    "C54_ktx_contents",
    "C54_product",
    "C54_turned_normal_refuted"
   ],
   "note": "End to end over PipelineModel; pixel operations, FreeImage and the encoders are parameters with the contracts ops_ok and enc_sized. The exception for turned normal maps is C54_product and C54_turned_normal_refuted. Levels after a last level replaced 'once' are excluded, see C13."
  },
  {
   "property": "C55",
   "status": "proved",
   "theorems": [
    "C55_outcome",
    "C55_mixed_modes_refuted"
   ],
   "note": "C55_outcome; the excluded case is C55_mixed_modes_refuted (undefined behaviour of the code)."
  },
  {
   "property": "C56",
   "status": "proved",
   "theorems": [
    "C56_same",
    "C56_to_linear",
    "C56_to_srgb",
    "C56_linear_roundtrip",
    "C56_srgb_roundtrip",
    "C56_to_linear_float",
    "C56_to_srgb_float",
    "C56_float_roundtrip",
    "C56_double",
    "C56_integer_to_linear",
    "C56_integer_to_srgb",
    "C56_defined_refuted",
    "C56_srgb_roundtrip_refuted"
   ],
   "note": "For any std::pow meeting pow_ok (SrgbSpec.v), which good_pow_ok shows can be met. The complex format is not covered."
  },
  {
   "property": "C57",
   "status": "proved",
   "theorems": [
    "C57_copy",
    "C57_own_conversion",
    "C57_library",
    "C57_pixels",
    "C57_undefined",
    "C57_floats_kept",
    "C57_exact_double",
    "C57_gray_linear",
    "C57_gray_srgb",
    "C57_no_memory",
    "C57_nan_undefined"
   ],
   "note": "FreeImage's own conversions are a parameter; gray conversion is bounded for channels up to 2^700 (linear) and in [0,1] (sRGB); pow by contract pow_ok; 16 bpp RGB to RGBAF still goes to FreeImage although the code calls that conversion incorrect (C57_case_pairs)"
  },
  {
   "property": "C58",
   "status": "proved",
   "theorems": [
    "C58_initialized",
    "C58_invalid_format",
    "C58_results",
    "C58_loaded",
    "C58_load_succeeds",
    "C58_masks",
    "C58_masks_refuted"
   ],
   "note": "The masks and shifts of blue, and of the colours of RGB8 and RGBA8, are wrong in the code: C58_masks_refuted."
  },
  {
   "property": "C59",
   "status": "proved",
   "theorems": [
    "C59_safe",
    "C59_ownership",
    "C59_all_released",
    "C59_frame",
    "C59_copy",
    "C59_assign",
    "C59_move"
   ],
   "note": "FreeImage is a parameter: each call that makes a bitmap may fail and may answer differently each time; the pixels it writes are opaque here."
  },
  {
   "property": "C60",
   "status": "proved",
   "theorems": [
    "C60_bytes",
    "C60_byte_error",
    "C60_byte_exact",
    "C60_bc2_alpha",
    "C60_bc1a_transparent",
    "C60_signed_bytes",
    "C60_signed_error",
    "C60_halves",
    "C60_floats",
    "C60_eac_signed",
    "C60_eac_increasing",
    "C60_eac_refuted"
   ],
   "note": "The encoders themselves are not modelled: a call is a constructor with its arguments. PVRTC images above 2^30 pixels are outside the model."
  },
  {
   "property": "C61",
   "status": "proved",
   "theorems": [
    "C61_same_pixels",
    "C61_levels",
    "C61_effort",
    "C61_ignored",
    "C61_masked",
    "C61_mode"
   ],
   "note": "The bounds of the encoders' levels and efforts are parameters of the build with ordering hypotheses."
  },
  {
   "property": "C62",
   "status": "proved",
   "theorems": [
    "C62_reads_as_file",
    "C62_good_means_same",
    "C62_failed_stays_failed",
    "C62_past_end",
    "C62_items",
    "C62_load_memory",
    "C62_load_stream",
    "C62_load_rest",
    "C62_short_file_refuted"
   ],
   "note": "FreeImage is an arbitrary interactive program over the callbacks; std::istream is modelled with its state bits. C62_short_file_refuted shows that the condition on reading past the end is needed: a three-byte file that loads from memory and from a pipe fails from a seekable stream."
  },
  {
   "property": "C63",
   "status": "proved",
   "theorems": [
    "C63_good_means_stored",
    "C63_stays_good",
    "C63_rejected",
    "C63_failure_unseen",
    "C63_vector",
    "C63_full_disk_refuted",
    "C63_items_refuted"
   ],
   "note": "Same model for std::ostream, with a device that may cut any write short. The two _refuted theorems show what the answer of save does not tell (a full disk) and that encoders writing larger items fail."
  },
  {
   "property": "C64",
   "status": "proved",
   "theorems": [
    "C64_values",
    "C64_copies_equal",
    "C64_safe",
    "C64_ownership",
    "C64_copy_converts",
    "C64_empty"
   ],
   "note": "Texture objects over a heap of Impl structures; the member functions act on them as in TextureModel.v. An allocation that throws ends the program and is not modelled; FreeImage clones that fail are."
  },
  {
   "property": "C65",
   "status": "proved",
   "theorems": [
    "C65_formats",
    "C65_lanes",
    "C65_surface",
    "C65_nearest",
    "C65_exact",
    "C65_ties_even",
    "C65_error",
    "C65_monotone"
   ],
   "note": "The conversion instruction is modelled as the IEEE 754 conversion from binary32 to binary16 (trusted). Without hardware support glm::packHalf is used, which stays a parameter; for it C22 says which bytes its answer goes to."
  },
  {
   "property": "C66",
   "status": "proved",
   "theorems": [
    "C66_surface",
    "C66_local",
    "C66_undefined"
   ],
   "note": "Encoders are functions of their arguments that answer with a block of the format's size (hypothesis). PVRTC, whose library lays out the whole surface, is covered only by C60 and C61."
  },
  {
   "property": "C67",
   "status": "proved",
   "theorems": [
    "C67_surface",
    "C67_texture",
    "C67_dds",
    "C67_ktx",
    "C67_pvr",
    "C67_tool_dds",
    "C67_tool_ktx",
    "C67_tool_pvr",
    "C67_settings"
   ],
   "note": "Composition of C15-C18, C22, C25-C27, C54 and C66: the encoder parameter of the models of Texture and of the tool is tied to runs of the converters (computes); serial_computes shows that there is such a function. PVRTC is left out: its library lays out the surface. KTX has the conditions of C26."
  },
  {
   "property": "C68",
   "status": "proved",
   "theorems": [
    "C68_dds",
    "C68_ktx",
    "C68_pvr",
    "C68_levels",
    "C68_packed_dds",
    "C68_packed_ktx",
    "C68_packed_pvr"
   ],
   "note": "The operations record of the tool model is filled in with the models of the Image functions (ToolImageModel.v); error bounds are carried through every step. FreeImage enters by the contract freeimage_ok (loads proper bitmaps, converts channels to floats right to 22 bits, rotates and flips exactly, does not run out of memory), which ex_freeimage_ok shows can be met. A step left undefined by the models would leave the image as it is; the proof shows the steps to be defined. Halves go through the packer parameter (C65). The words of B10G11R11_UFloat and E5B9G9R9_UFloat (C68_packed_*) are those of the packer parameters, as in C22."
  },
  {
   "property": "C69",
   "status": "proved",
   "theorems": [
    "C69_dds",
    "C69_ktx",
    "C69_pvr",
    "C69_levels"
   ],
   "note": "Joins the model of the tool on real pixels (C68) with the requests of the block converters (C60, C61), their places and schedules (C66, C67) and the file (C54). The encoders are a parameter; the settings of the calls are those of C61. Not covered: PVRTC, whose one job leaves the data to the library."
  },
  {
   "property": "C70",
   "status": "proved",
   "theorems": [
    "C70_custom",
    "C70_range",
    "C70_resized",
    "C70_custom_resized",
    "C70_flat",
    "C70_volume",
    "C70_volume_resized"
   ],
   "note": "Joins C54 (which level is made from what) with C68 and C69. The contract of FreeImage_Rescale is in the statement: results are averages, right to 22 bits; the averages over the slices of a volume are the modelled loops with their double arithmetic (C36); the changes to linear space and back are the modelled ones (C56) for any std::pow that meets pow_ok. Filters with negative weights (cubic, Catmull-Rom) overshoot on purpose and do not meet the contract. The _resized theorems speak of a box of colours because a resized picture has colours that are not in the input."
  },
  {
   "property": "C71",
   "status": "proved",
   "theorems": [
    "C71_status",
    "C71_stderr",
    "C71_quiet",
    "C71_normal",
    "C71_same_result",
    "C71_culprit",
    "C71_verbose",
    "C71_messages_refuted"
   ],
   "note": "All messages of CommandLine.cpp and main.cpp are modelled, apart from the text of the help, which is a parameter. The last sentence is C71_messages_refuted, with the missing warning for B5G5R5A1."
  }
 ]
}
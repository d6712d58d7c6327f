# Formal model of Cuttlefish in Rocq: design

The model lives in `rocq/theories`. Every definition in a `*Model.v` file cites the C++
file and lines it models. Specifications live in `*Spec.v` files, proofs in `*Proofs.v`
files, and the statements that `MANIFEST.json` refers to in `Props*.v` files: `Theorem`s named
`Cnn_...`, non-vacuity `Example`s and `Print Assumptions`.

## Modelling conventions

* Unsigned 32-bit values are `N`. Where the code can wrap, the model writes the `mod 2^32`.
* `std::vector` is `list`. An out-of-range index, a conversion of an unrepresentable `double` to an
  integer and similar undefined behaviour are a distinct outcome (`None`), never a default value.
* Loops are structural recursion or folds over index ranges. Where the number of steps is not
  structural the function takes fuel, and a theorem says how much is enough.
* Foreign code (FreeImage, block encoders, `pow`, `strtod`, the file system) is a parameter of the
  function that calls it. Theorems quantify over it. Where a contract is needed it is an explicit
  hypothesis, and an `Example` or lemma shows an instance that satisfies it.
* binary32/binary64 arithmetic is Flocq's IEEE-754 formalisation (round to nearest even).
* A property whose naive form is false of the code is stated as the exact truth: the theorem carries
  the precise condition, and a theorem `Cnn_..._refuted` shows, with concrete data, that the
  condition cannot be dropped.

## Plan per property

| Id | Modelled | Proof method |
|----|----------|--------------|
| C01, C02, C04, C05 | all format tables and switches, with the four build flags as parameters | exhaustive computation over the finite domain, lifted by `forallb_forall` |
| C03 | the support tables against the three writers | case analysis over reachable textures |
| C06-C08 | `maxMipmapLevels`, `width/height/depth`, `initialize` | `N.log2` laws, arithmetic |
| C09-C15 | `Texture` as a state machine with nested image and data lists, `generateMipmaps`, `convert`; images abstract, FreeImage as oracle with contract | invariant over all histories, frame lemmas, refinement to a small spec; counterexample histories by computation |
| C16 | worker threads as a small-step relation, one byte write per step | invariant over reachable scheduler states, termination measure, confluence |
| C17, C18 | `StandardConverter` batch loop, block converters' `process` | loop invariants, disjointness and covering arithmetic |
| C19-C21 | `clamp`, multiplication, `round`, cast on binary32 | Flocq rounding lemmas |
| C22 | packed words | bit-level lemmas over `N.testbit` / arithmetic |
| C25-C29, C31 | `saveDds`, `saveKtx`, `savePvr`, stream with a failure point, `readStreamData` | independent parsers written from the container documentation; round trip by induction over surfaces |
| C30 | `fileType` on strings | induction |
| C33, C34, C35, C48 | pixel access and the in-place operations of `Image` over binary64 and binary32 | loop invariants over the pixel grid, Flocq error bounds per stored value |
| C36 | `Image::resize` and `generateMips3d`, once over an arithmetic record | over the reals: the loops equal the weighted average of a separate specification; over binary64: error bounds for windows, weights, sums and averages |
| C37 | `Image::createNormalMap` | binary64 error bound against the normal of a height field in `NormalSpec.v` |
| C38 | the transfer functions of `Color.h` | Coq Reals, thresholds decided by exact powers |
| C39 | `adjustImageValueRange` over binary32 | Flocq error bounds, then integer rounding |
| C40 | bit smearing on `N`, named sizes | bit-level induction |
| C41-C43 | `CommandLine::parse` and `validate` over token lists | invariant over the option loop |
| C44, C45 | `main`, `saveTexture`, `createParentDir` with the environment as oracle | case analysis / induction |
| C46 | context cache as a transition system | invariant over histories |
| C47 | objects with self pointers | case analysis on ownership |
| C49-C51 | list files, `strtoul` | induction over the text |
| C52, C53 | the grammar of the command line, written separately as directives with operands | the parser refines the grammar: every accepted line has one reading, every setting is a fold over the directives; completeness by construction |
| C56 | `Image::changeColorSpace`, and the sRGB side of `preMultiplyAlpha`, `grayscale` (C48) and `resize` (C36) | binary64 error bounds against the real transfer functions, for any `std::pow` that meets `pow_ok` |
| C57 | `Image::convert` over any arithmetic; FreeImage's conversions are a parameter that may decline | an independent meaning of stored pixels over the reals; rounding bounds of reading and storing; scatter loop |
| C58, C59 | `Image` objects over a heap of FreeImage bitmaps: every constructor, assignment, loader and operation; each FreeImage call is a parameter that may fail | ownership invariant with framing, by induction on programs; case analysis of the format tables |
| C60, C61 | What each converter of a compressed format hands to its encoder: pixels and settings, as constructors of a call; per block of an image of any size | case analysis per converter; single-precision error bounds with Flocq; independence by comparing two runs |
| C62, C63 | The callbacks through which FreeImage reads and writes streams, `readStreamData`, `Image::load` and `Image::save`; `std::istream` and `std::ostream` with positions, state bits and a device that may refuse bytes; FreeImage as an arbitrary interactive program | induction on the program, simulating the stream by a C file |
| C64 | `Texture` objects with their pointers to `Impl` over a heap; constructors, assignments, destruction, calls (`TextureObjectModel.v`) | ownership invariant, by induction on programs |
| C65 | the four hardware packing functions and the loop that calls them; the instruction as the IEEE 754 conversion to binary16 (`HalfModel.v`) | Flocq's `binary_normalize`, decoding in `HalfSpec.v`; any schedule by C17 |
| C66 | the jobs of the block converters: request, encoder's answer, stores (`CompressModel.v`) | composition of the tiling argument of C18 with the requests of C60 |
| C67 | one surface through `Converter::convert`: converter, jobs, threads, buffer (`EncodeModel.v`), under the models of `Texture`, the writers and the tool | the encoder that C15, C25-C27 and C54 leave open is instantiated with runs of the converters (C16-C18, C22, C66) |
| C68 | the operations record of the tool filled in with the models of `Image::convert`, `rotate`, `changeColorSpace`, `grayscale`, `swizzle`, `preMultiplyAlpha`, `resize`, `createNormalMap` and `adjustImageValueRange` (`ToolImageModel.v`); FreeImage as a record of functions with a contract | error bounds through each step (2^-22 after loading, 1/680000 before the value range; after the curves of C56 at most 1420/2^22), then C22 for the stored channel; C54 and C67 for the place in the file |
| C69 | the tool on real pixels (C68) with the block converters (C60, C66, C67) | the floats of C68 are within 2^-18 of the colours (2^-11 where luminance or products are computed in an sRGB texture); C60 says what the encoder is given for them; equality of bytes from the distance being less than 1 |
| C70 | the tool on real pixels (C68), the levels of C54, FreeImage_Rescale as an averaging contract | custom pictures: the processing of C68 at the size of the level, and the resize to the level is no change; ranges: induction over the levels with an error that grows by magnitude/2^22; volumes: the same on all slices at once, with C36 for the average over slices; resized pictures (`ToolResizedProofs`): the resize of the input leaves every pixel near a colour of the box of the input's colours, and the steps after it are those of C68 on that colour; sRGB: C56 for the way to linear space and back, whose slope of 12.92 makes the error 24/2^22 |
| C71 | every message of the parser and of `main`, with its stream, next to the model of the tool (`MessagesModel.v`); the text of the help is a parameter | for each option, the message appears exactly if the option's model fails; then composition along the loop, `validate`, loading and saving |
| C54, C55 | the whole tool: `loadAndProcessImage`, `loadImages`, `main` and `saveTexture` on top of the models of the parser, of `Texture` and of the writers | composition of C09-C15, C25-C31, C41, C44 and C52 |

The numbers C23, C24 and C32 are not used.

## What is modelled

| File | Modelled | Not modelled |
|------|----------|--------------|
| `lib/include/cuttlefish/Color.h` | `toGrayscale`, `sRGBToLinear`, `linearToSRGB` (`ImageModel.v`) | |
| `lib/include/cuttlefish/Texture.h`, `Image.h` | enumerations, `CustomMipImage`, `ImageIndex` | |
| `lib/src/Texture.cpp` | format predicates and tables, `initialize`, extents, `setImage`, `getImage`, `generateMipmaps`, `generateMips3d`, `imagesComplete`, `convert`, `adjustImageValueRange`, `fileType`, `save`, copying and moving `Texture` objects (`TextureObjectModel.v`) | |
| `lib/src/Image.cpp` | `getFormat`-independent pixel access (`getPixelImpl`, `setPixelImpl`, `setPixelNoGrayscaleImpl`, `getPixel`, `setPixel`), `resize`, `rotate`, `preMultiplyAlpha`, `changeColorSpace`, `grayscale`, `swizzle`, `createNormalMap`, `convert` with FreeImage's functions as a parameter, `getFormat`, `Impl::create` with masks and shifts, construction, copy, move, `load`, `initialize`, `reset` (`ImageObjectModel.v`), the stream callbacks, `load` and `save` on streams (`StreamModel.v`) | FreeImage's own load, save, rescale, rotate and type conversions |
| `lib/src/Converter.cpp` | `createConverter`, `Converter::convert` with its job queue and threads | |
| `lib/src/StandardConverter.*` | every pixel converter and the batch loop | |
| `lib/src/HalfFloat.*` | `packHardwareHalfFloat1`..`4` (`HalfModel.v`); the conversion instruction as the IEEE 754 conversion | detection of the instruction; `glm::packHalf`, used without it, is the parameter `pack_half` |
| `lib/src/S3tcConverter.*`, `EtcConverter.*`, `PvrtcConverter.*`, `AstcConverter.*` | block grid, clamped reads, output offsets; the pixels and settings handed to the encoders; the context cache of ASTC | what Compressonator, rgbcx, squish, ISPC, bc7enc, etc2comp, astcenc and PVRTexLib make of them |
| `lib/src/SaveDds.cpp`, `SaveKtx.cpp`, `SavePvr.cpp`, `Shared.*` | everything: tables, headers, padding, order of surfaces, stream failures | |
| `tool/CommandLine.cpp` | `parse`, `validate`, all readers of operands and list files, all messages | the text of `printHelp` |
| `tool/main.cpp` | everything, with the messages | the Windows branches (`_WIN32`) |

Two simplifications that cross files:

* `loadImages` ignores the answers of `setImage` and `generateMipmaps` (main.cpp 279-325). `ToolModel.v`,
  which C44 is about, treats "building the texture" as one step. `PipelineModel.v` keeps the two
  calls apart and ignores their answers as the code does, and C54/C55 are proved about that model:
  they show that on accepted command lines with a working image library the answers are positive.
* A run of the tool is sequential; the only concurrency in the code base is inside
  `Converter::convert` and the ASTC context cache, which have their own models (C16, C46).

## Trusted base

* Coq 8.16.1's kernel (including `vm_compute`), and Flocq 4.1.0 for the definition of IEEE-754
  arithmetic, whose own theorems rest on the axioms below.
* That the model says what the code says: each definition cites the lines it was transcribed from.
  The format tables and switches of `FormatModel.v` and `SaveFormats.v` were transcribed mechanically.
* The platform assumptions stated in the model files: little-endian host, 32-bit `unsigned int`,
  64-bit `unsigned long` and `size_t`, `FLT_EVAL_METHOD == 0` and no contraction to fused
  multiply-add, round to nearest even, the "C" locale.
* In C65, that the instructions `_mm_cvtps_ph` (rounding mode 0) and `vcvt_f16_f32` convert each lane
  as IEEE 754 defines (`HalfModel.cvt`).
* The contracts of foreign code, which are hypotheses of the theorems that need them: `lib_ok`
  (FreeImage conversions and rescaling keep the requested form), `enc_sized` (encoders return
  surfaces of the documented size), `stream_ok` (an output stream keeps failing once it has failed),
  `ops_ok` (`lib_ok`, and images from files have at least one pixel), the contract of
  `FreeImage_Rotate` in C33, of `FreeImage_ConvertTo...` in C39, `pow_ok` in C48 and C56 (`std::pow` on
  arguments from 1/512 to 2^130 and exponents from 0 to 3 has relative error at most 2^-50; `SrgbPow.v`
  constructs a function that meets it), and `freeimage_ok` in C68 (FreeImage loads proper bitmaps,
  turns 8 and 16 bit channels into floats right to 22 bits, rotates and flips exactly and does not run
  out of memory; `ex_freeimage_ok` shows that this can be met).

No axiom is added. `Print Assumptions` after each theorem shows one of the following sets, all from
the standard library:

* none ("closed under the global context");
* the axioms of the real numbers: `ClassicalDedekindReals.sig_forall_dec`,
  `ClassicalDedekindReals.sig_not_dec`, with
  `FunctionalExtensionality.functional_extensionality_dep` and, through Flocq,
  `Classical_Prop.classic`.

<!-- axioms -->

### What `Print Assumptions` lists, per theorem

No axioms (177 theorems):

* `C01_build_flags`, `C01_converter_writes_request`, `C01_every_format_usable`, `C01_valid_iff_convertible`
* `C02_block_geometry`, `C02_converted_size`, `C02_unbounded_refuted`
* `C03_supported_iff`
* `C04_hasAlpha`, `C04_hasAlpha_all_refuted`
* `C05_dds_code_describes`, `C05_dds_identifies`, `C05_dds_unsupported_has_no_code`, `C05_ktx_fields_describe`, `C05_ktx_identifies`, `C05_ktx_order_refuted`, `C05_ktx_unsupported_has_no_fields`, `C05_pvr_fields_describe`, `C05_pvr_identifies`
* `C06_last_level`, `C06_mip_count`
* `C07_extents`, `C07_floor`
* `C08_initialize`
* `C09_no_face`, `C09_setImage`, `C09_stored_form`
* `C10_accessors_defined`, `C10_failed_volume_mips_refuted`, `C10_mips_after_convert_refuted`
* `C11_complete_all_set`, `C11_complete_iff_all_set`, `C11_volume_never_complete`
* `C12_levels_filled`, `C12_unresizable_refuted`
* `C13_colour_space_refuted`, `C13_custom_used`, `C13_level_contents`, `C13_once_isolated`, `C13_once_last_refuted`, `C13_own_chain`, `C13_volume_contents`
* `C14_failure_changes_levels_refuted`, `C14_success_iff`
* `C15_convert`, `C15_data_range`
* `C16_no_undefined_behaviour`, `C16_schedule_independent`, `C16_terminates`
* `C17_any_schedule`, `C17_large_image_refuted`, `C17_pixel_position`, `C17_pixels_in_order`
* `C18_block_position`, `C18_clamped_blocks`, `C18_etc_blocks`
* `C25_complex_flag_refuted`, `C25_dds_reads_back`
* `C26_ktx_reads_back`, `C26_tall_1d_refuted`
* `C27_pvr_reads_back`
* `C28_already_failed`, `C28_every_failure_point`, `C28_file`, `C28_file_flush_refuted`, `C28_stream_failures`
* `C29_any_stream`, `C29_vector_equals_stream`
* `C30_file_type`
* `C31_file_emptied`, `C31_file_untouched`, `C31_file_untouched_refuted`, `C31_misuse_writes_nothing`
* `C36_srgb_steps`
* `C40_default`, `C40_dimension`, `C40_named`, `C40_nearest`, `C40_nearest_out_of_range`, `C40_negative_refuted`, `C40_next`, `C40_next_out_of_range`, `C40_number`
* `C41_consistent`, `C41_cube_depth_refuted`, `C41_custom_mips`, `C41_whole_levels_refuted`
* `C42_options`, `C42_type_kept`, `C42_type_refuted`, `C42_unknown_format_refuted`
* `C43_defined`, `C43_images`, `C43_list_refuted`, `C43_negative_refuted`, `C43_shift`, `C43_shift_refuted`, `C43_terminates`, `C43_wrap_refuted`
* `C44_meaning`, `C44_status`, `C44_terminates`
* `C45_calls`
* `C46_bounded`, `C46_defined`, `C46_exclusive`, `C46_legal`, `C46_no_leak`, `C46_reuse`, `C46_zero_refuted`
* `C47_assign`, `C47_assign_mode_refuted`, `C47_construct`, `C47_independent`, `C47_never_aliases`
* `C49_input_list`
* `C50_custom_mip_list`, `C50_lists_end`
* `C51_decimal`, `C51_negative_refuted`, `C51_saturates`
* `C52_accepted`, `C52_settings`, `C52_unambiguous`
* `C53_cube_index_refuted`, `C53_custom_mips`, `C53_images`
* `C54_dds_contents`, `C54_file`, `C54_ktx_contents`, `C54_product`, `C54_pvr_contents`, `C54_turned_normal_refuted`
* `C55_mixed_modes_refuted`, `C55_outcome`
* `C56_same`
* `C57_copy`, `C57_library`, `C57_no_memory`, `C57_own_conversion`
* `C58_initialized`, `C58_invalid_format`, `C58_load_succeeds`, `C58_loaded`, `C58_masks`, `C58_masks_refuted`, `C58_results`
* `C59_all_released`, `C59_assign`, `C59_copy`, `C59_frame`, `C59_move`, `C59_ownership`, `C59_safe`
* `C62_failed_stays_failed`, `C62_good_means_same`, `C62_items`, `C62_load_memory`, `C62_load_rest`, `C62_load_stream`, `C62_past_end`, `C62_reads_as_file`, `C62_short_file_refuted`
* `C63_failure_unseen`, `C63_full_disk_refuted`, `C63_good_means_stored`, `C63_items_refuted`, `C63_rejected`, `C63_stays_good`, `C63_vector`
* `C64_copies_equal`, `C64_copy_converts`, `C64_empty`, `C64_ownership`, `C64_safe`, `C64_values`
* `C65_formats`

`ClassicalDedekindReals.sig_forall_dec`, `FunctionalExtensionality.functional_extensionality_dep` (1 theorems):

* `C36_weights`

`ClassicalDedekindReals.sig_forall_dec`, `ClassicalDedekindReals.sig_not_dec`, `FunctionalExtensionality.functional_extensionality_dep` (1 theorems):

* `C37_unit`

`ClassicalDedekindReals.sig_forall_dec`, `ClassicalDedekindReals.sig_not_dec`, `Classical_Prop.classic`, `FunctionalExtensionality.functional_extensionality_dep` (133 theorems):

* `C19_endpoints`, `C19_monotone`, `C19_round_trip`, `C19_stored`, `C19_undefined`
* `C20_endpoints`, `C20_monotone`, `C20_odd`, `C20_round_trip`, `C20_stored`, `C20_undefined`
* `C21_exact`, `C21_monotone`, `C21_saturates`, `C21_saturates_refuted`, `C21_stored`, `C21_undefined`
* `C22_fields`, `C22_small_floats`, `C22_surface`, `C22_undefined`
* `C33_four`, `C33_inverse`, `C33_rotate`, `C33_two_quarters`
* `C34_565_compose_refuted`, `C34_compose`, `C34_exchange_twice`, `C34_no_image`, `C34_swizzle`, `C34_swizzle_565`
* `C35_double_refuted`, `C35_only_that_pixel`, `C35_read_defined`, `C35_uint16_refuted`, `C35_write_back`, `C35_write_back_gray`
* `C36_between`, `C36_box_integers`, `C36_constant`, `C36_formula`, `C36_linear_constant_refuted`, `C36_mips3d_formula`, `C36_mips3d_rounding`, `C36_other_filters`, `C36_rounding`, `C36_srgb_formula`
* `C37_defined`, `C37_invalid`, `C37_normal`, `C37_overflow_refuted`, `C37_uint32_refuted`
* `C38_decode_encode`, `C38_decode_monotone`, `C38_encode_almost_monotone`, `C38_encode_decode`, `C38_encode_monotone_pieces`, `C38_encode_monotone_refuted`, `C38_endpoints`, `C38_gap_error`, `C38_inverse_refuted`, `C38_unit_interval`
* `C39_float_levels`, `C39_float_snorm`, `C39_levels`, `C39_packed_alpha_refuted`, `C39_snorm_levels`, `C39_unchanged`
* `C48_grayscale_float`, `C48_grayscale_integer`, `C48_grayscale_integer_refuted`, `C48_grayscale_normalised`, `C48_grayscale_srgb`, `C48_premultiply_float`, `C48_premultiply_integer`, `C48_premultiply_integer_opaque`, `C48_premultiply_no_alpha`, `C48_premultiply_srgb`
* `C56_defined_refuted`, `C56_double`, `C56_float_roundtrip`, `C56_integer_to_linear`, `C56_integer_to_srgb`, `C56_linear_roundtrip`, `C56_srgb_roundtrip`, `C56_srgb_roundtrip_refuted`, `C56_to_linear`, `C56_to_linear_float`, `C56_to_srgb`, `C56_to_srgb_float`
* `C57_exact_double`, `C57_floats_kept`, `C57_gray_linear`, `C57_gray_srgb`, `C57_nan_undefined`, `C57_pixels`, `C57_undefined`
* `C60_bc1a_transparent`, `C60_bc2_alpha`, `C60_byte_error`, `C60_byte_exact`, `C60_bytes`, `C60_eac_increasing`, `C60_eac_refuted`, `C60_eac_signed`, `C60_floats`, `C60_halves`, `C60_signed_bytes`, `C60_signed_error`
* `C61_effort`, `C61_ignored`, `C61_levels`, `C61_masked`, `C61_mode`, `C61_same_pixels`
* `C65_error`, `C65_exact`, `C65_lanes`, `C65_monotone`, `C65_nearest`, `C65_surface`, `C65_ties_even`
* `C66_local`, `C66_surface`, `C66_undefined`
* `C67_dds`, `C67_ktx`, `C67_pvr`, `C67_surface`, `C67_texture`, `C67_tool_dds`, `C67_tool_ktx`, `C67_tool_pvr`

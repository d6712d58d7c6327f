(** The command line parser, tool/CommandLine.cpp.

    Arguments and file contents are strings of characters.  An argument vector is the list of
    the arguments after the program name.  What the parser prints is modelled in MessagesModel.v.  Files
    are a function from names to contents ([None]: the file cannot be opened), [strtod] is a
    predicate telling whether a string is a number up to its end, and the memory available to
    std::vector::resize is the largest size [cap] it can reach before it throws. *)

From Coq Require Import NArith ZArith List Bool String Ascii.
From Verif Require Import Base FormatModel SaveFormats TextureModel SaveModel.
Import ListNotations.
Local Open Scope string_scope.
Local Open Scope list_scope.
Local Open Scope N_scope.
Local Notation length := List.length.

(** * Characters and numbers *)

Definition code (c : ascii) : N := N_of_ascii c.

(** The characters of a string as numbers, for [Texture::fileType] (SaveModel). *)
Fixpoint codes (s : string) : list N :=
  match s with EmptyString => [] | String c t => code c :: codes t end.

(** The C string at [c_str()]: everything before the first NUL. *)
Fixpoint c_str (s : string) : string :=
  match s with
  | EmptyString => EmptyString
  | String c t => if code c =? 0 then EmptyString else String c (c_str t)
  end.

(** tolower and strcasecmp(a, b) == 0 in the C locale. *)
Definition lower (c : ascii) : ascii :=
  if (65 <=? code c) && (code c <=? 90) then ascii_of_N (code c + 32) else c.

Fixpoint lowers (s : string) : string :=
  match s with EmptyString => EmptyString | String c t => String (lower c) (lowers t) end.

Definition caseeq (a b : string) : bool := String.eqb (lowers (c_str a)) (lowers (c_str b)).

(** isspace in the C locale. *)
Definition isspace (c : ascii) : bool := ((9 <=? code c) && (code c <=? 13)) || (code c =? 32).

Definition isdigit (c : ascii) : bool := (48 <=? code c) && (code c <=? 57).

Fixpoint skip_space (s : string) : string :=
  match s with
  | String c t => if isspace c then skip_space t else s
  | EmptyString => s
  end.

(** The number written by the leading digits and what follows them. *)
Fixpoint read_digits (s : string) (acc : N) : N * string :=
  match s with
  | String c t => if isdigit c then read_digits t (10 * acc + (code c - 48)) else (acc, s)
  | EmptyString => (acc, s)
  end.

(** Sign and rest of a number. *)
Definition read_sign (s : string) : bool * string :=
  match s with
  | String c t => if code c =? 45 then (true, t) else if code c =? 43 then (false, t) else (false, s)
  | EmptyString => (false, s)
  end.

Definition starts_digit (s : string) : bool :=
  match s with String c _ => isdigit c | EmptyString => false end.

Definition is_empty (s : string) : bool := match s with EmptyString => true | _ => false end.

(** std::strtoul(s, &endPtr, 10) with a 64-bit unsigned long: the value, and whether endPtr is
    the end of [s].  Without digits nothing is converted and endPtr is the start of [s]; a
    value that does not fit gives ULONG_MAX; a minus sign negates modulo 2^64. *)
Definition strtoul (s : string) : N * bool :=
  let (neg, r) := read_sign (skip_space s) in
  if starts_digit r then
    let (v, e) := read_digits r 0 in
    ((if 2 ^ 64 <=? v then 2 ^ 64 - 1 else if neg then (2 ^ 64 - v) mod 2 ^ 64 else v), is_empty e)
  else (0, is_empty s).

(** std::strtol(s, &endPtr, 10) with a 64-bit long, which saturates. *)
Definition strtol (s : string) : Z * bool :=
  let (neg, r) := read_sign (skip_space s) in
  if starts_digit r then
    let (v, e) := read_digits r 0 in
    ((if neg then Z.max (- 2 ^ 63) (- Z.of_N v) else Z.min (2 ^ 63 - 1) (Z.of_N v))%Z, is_empty e)
  else (0%Z, is_empty s).

(** Conversion of an unsigned long to int (implementation-defined before C++20, modulo 2^32 in
    every compiler in use). *)
Definition to_int (v : Z) : Z := ((v + 2 ^ 31) mod 2 ^ 32 - 2 ^ 31)%Z.

(** * The configuration, tool/CommandLine.h 22-110 *)

(** CommandLine::ImageType, CommandLine.h 26-32. *)
Inductive imagetype := IT_Image | IT_Array | IT_Cube | IT_CubeArray.

(** CommandLine::Log, CommandLine.h 34-39. *)
Inductive logmode := Log_Normal | Log_Quiet | Log_Verbose.

(** Image::RotateAngle, lib/include/cuttlefish/Image.h 91-99. *)
Inductive angle := CW90 | CW180 | CW270 | CCW90 | CCW180 | CCW270.

(** Image::Channel, lib/include/cuttlefish/Image.h 104-111. *)
Inductive channel := Ch_Red | Ch_Green | Ch_Blue | Ch_Alpha | Ch_None.

(** Texture::Quality, lib/include/cuttlefish/Texture.h 181-188. *)
Inductive qualitylevel := Q_Lowest | Q_Low | Q_Normal | Q_High | Q_Highest.

(** Texture::ImageIndex, lib/include/cuttlefish/Texture.h 242-300: face (0..5), level, depth. *)
Record index := Index { x_face : N; x_level : N; x_depth : N }.

(** operator==, Texture.h 271-274. *)
Definition index_eqb (a b : index) : bool :=
  (x_face a =? x_face b) && (x_level a =? x_level b) && (x_depth a =? x_depth b).

(** struct CommandLine, CommandLine.h 63-110, with the locals [success] and [alphaSet] of
    parse (CommandLine.cpp 816-819).  The custom mips are kept as a list of pairs in the order
    of insertion; the order in which the unordered_map visits them is a parameter of
    [validate].  [normalHeight] is the text of the number given, [None] for the default 1.0. *)
Record cl := CL {
  c_jobs : N;
  c_log : logmode;
  c_imageType : imagetype;
  c_images : list string;
  c_width : Z;
  c_height : Z;
  c_resizeFilter : rfilter;
  c_mipLevels : N;
  c_mipFilter : rfilter;
  c_customMips : list (index * (string * replacement));
  c_flipX : bool;
  c_flipY : bool;
  c_rotate : bool;
  c_rotateAngle : angle;
  c_normalMap : bool;
  c_normalOptions : N;
  c_normalHeight : option string;
  c_grayscale : bool;
  c_swizzle : bool;
  c_redSwzl : channel;
  c_greenSwzl : channel;
  c_blueSwzl : channel;
  c_alphaSwzl : channel;
  c_maskR : bool;
  c_maskG : bool;
  c_maskB : bool;
  c_maskA : bool;
  c_imageCS : colorspace;
  c_textureCS : colorspace;
  c_preMultiply : bool;
  c_dim : dimension;
  c_fmt : format;
  c_ttyp : ttype;
  c_alph : alpha;
  c_quality : qualitylevel;
  c_output : option string;
  c_ftype : filetype;
  c_createOutputDir : bool;
  c_success : bool;
  c_alphaSet : bool }.

Definition set_jobs (v : N) (c : cl) : cl :=
    CL v (c_log c) (c_imageType c) (c_images c) (c_width c) (c_height c) (c_resizeFilter c)
    (c_mipLevels c) (c_mipFilter c) (c_customMips c) (c_flipX c) (c_flipY c) (c_rotate c)
    (c_rotateAngle c) (c_normalMap c) (c_normalOptions c) (c_normalHeight c) (c_grayscale c)
    (c_swizzle c) (c_redSwzl c) (c_greenSwzl c) (c_blueSwzl c) (c_alphaSwzl c) (c_maskR c)
    (c_maskG c) (c_maskB c) (c_maskA c) (c_imageCS c) (c_textureCS c) (c_preMultiply c) (c_dim c)
    (c_fmt c) (c_ttyp c) (c_alph c) (c_quality c) (c_output c) (c_ftype c) (c_createOutputDir c)
    (c_success c) (c_alphaSet c).
Definition set_log (v : logmode) (c : cl) : cl :=
    CL (c_jobs c) v (c_imageType c) (c_images c) (c_width c) (c_height c) (c_resizeFilter c)
    (c_mipLevels c) (c_mipFilter c) (c_customMips c) (c_flipX c) (c_flipY c) (c_rotate c)
    (c_rotateAngle c) (c_normalMap c) (c_normalOptions c) (c_normalHeight c) (c_grayscale c)
    (c_swizzle c) (c_redSwzl c) (c_greenSwzl c) (c_blueSwzl c) (c_alphaSwzl c) (c_maskR c)
    (c_maskG c) (c_maskB c) (c_maskA c) (c_imageCS c) (c_textureCS c) (c_preMultiply c) (c_dim c)
    (c_fmt c) (c_ttyp c) (c_alph c) (c_quality c) (c_output c) (c_ftype c) (c_createOutputDir c)
    (c_success c) (c_alphaSet c).
Definition set_imageType (v : imagetype) (c : cl) : cl :=
    CL (c_jobs c) (c_log c) v (c_images c) (c_width c) (c_height c) (c_resizeFilter c)
    (c_mipLevels c) (c_mipFilter c) (c_customMips c) (c_flipX c) (c_flipY c) (c_rotate c)
    (c_rotateAngle c) (c_normalMap c) (c_normalOptions c) (c_normalHeight c) (c_grayscale c)
    (c_swizzle c) (c_redSwzl c) (c_greenSwzl c) (c_blueSwzl c) (c_alphaSwzl c) (c_maskR c)
    (c_maskG c) (c_maskB c) (c_maskA c) (c_imageCS c) (c_textureCS c) (c_preMultiply c) (c_dim c)
    (c_fmt c) (c_ttyp c) (c_alph c) (c_quality c) (c_output c) (c_ftype c) (c_createOutputDir c)
    (c_success c) (c_alphaSet c).
Definition set_images (v : list string) (c : cl) : cl :=
    CL (c_jobs c) (c_log c) (c_imageType c) v (c_width c) (c_height c) (c_resizeFilter c)
    (c_mipLevels c) (c_mipFilter c) (c_customMips c) (c_flipX c) (c_flipY c) (c_rotate c)
    (c_rotateAngle c) (c_normalMap c) (c_normalOptions c) (c_normalHeight c) (c_grayscale c)
    (c_swizzle c) (c_redSwzl c) (c_greenSwzl c) (c_blueSwzl c) (c_alphaSwzl c) (c_maskR c)
    (c_maskG c) (c_maskB c) (c_maskA c) (c_imageCS c) (c_textureCS c) (c_preMultiply c) (c_dim c)
    (c_fmt c) (c_ttyp c) (c_alph c) (c_quality c) (c_output c) (c_ftype c) (c_createOutputDir c)
    (c_success c) (c_alphaSet c).
Definition set_width (v : Z) (c : cl) : cl :=
    CL (c_jobs c) (c_log c) (c_imageType c) (c_images c) v (c_height c) (c_resizeFilter c)
    (c_mipLevels c) (c_mipFilter c) (c_customMips c) (c_flipX c) (c_flipY c) (c_rotate c)
    (c_rotateAngle c) (c_normalMap c) (c_normalOptions c) (c_normalHeight c) (c_grayscale c)
    (c_swizzle c) (c_redSwzl c) (c_greenSwzl c) (c_blueSwzl c) (c_alphaSwzl c) (c_maskR c)
    (c_maskG c) (c_maskB c) (c_maskA c) (c_imageCS c) (c_textureCS c) (c_preMultiply c) (c_dim c)
    (c_fmt c) (c_ttyp c) (c_alph c) (c_quality c) (c_output c) (c_ftype c) (c_createOutputDir c)
    (c_success c) (c_alphaSet c).
Definition set_height (v : Z) (c : cl) : cl :=
    CL (c_jobs c) (c_log c) (c_imageType c) (c_images c) (c_width c) v (c_resizeFilter c)
    (c_mipLevels c) (c_mipFilter c) (c_customMips c) (c_flipX c) (c_flipY c) (c_rotate c)
    (c_rotateAngle c) (c_normalMap c) (c_normalOptions c) (c_normalHeight c) (c_grayscale c)
    (c_swizzle c) (c_redSwzl c) (c_greenSwzl c) (c_blueSwzl c) (c_alphaSwzl c) (c_maskR c)
    (c_maskG c) (c_maskB c) (c_maskA c) (c_imageCS c) (c_textureCS c) (c_preMultiply c) (c_dim c)
    (c_fmt c) (c_ttyp c) (c_alph c) (c_quality c) (c_output c) (c_ftype c) (c_createOutputDir c)
    (c_success c) (c_alphaSet c).
Definition set_resizeFilter (v : rfilter) (c : cl) : cl :=
    CL (c_jobs c) (c_log c) (c_imageType c) (c_images c) (c_width c) (c_height c) v (c_mipLevels
    c) (c_mipFilter c) (c_customMips c) (c_flipX c) (c_flipY c) (c_rotate c) (c_rotateAngle c)
    (c_normalMap c) (c_normalOptions c) (c_normalHeight c) (c_grayscale c) (c_swizzle c)
    (c_redSwzl c) (c_greenSwzl c) (c_blueSwzl c) (c_alphaSwzl c) (c_maskR c) (c_maskG c) (c_maskB
    c) (c_maskA c) (c_imageCS c) (c_textureCS c) (c_preMultiply c) (c_dim c) (c_fmt c) (c_ttyp c)
    (c_alph c) (c_quality c) (c_output c) (c_ftype c) (c_createOutputDir c) (c_success c)
    (c_alphaSet c).
Definition set_mipLevels (v : N) (c : cl) : cl :=
    CL (c_jobs c) (c_log c) (c_imageType c) (c_images c) (c_width c) (c_height c) (c_resizeFilter
    c) v (c_mipFilter c) (c_customMips c) (c_flipX c) (c_flipY c) (c_rotate c) (c_rotateAngle c)
    (c_normalMap c) (c_normalOptions c) (c_normalHeight c) (c_grayscale c) (c_swizzle c)
    (c_redSwzl c) (c_greenSwzl c) (c_blueSwzl c) (c_alphaSwzl c) (c_maskR c) (c_maskG c) (c_maskB
    c) (c_maskA c) (c_imageCS c) (c_textureCS c) (c_preMultiply c) (c_dim c) (c_fmt c) (c_ttyp c)
    (c_alph c) (c_quality c) (c_output c) (c_ftype c) (c_createOutputDir c) (c_success c)
    (c_alphaSet c).
Definition set_mipFilter (v : rfilter) (c : cl) : cl :=
    CL (c_jobs c) (c_log c) (c_imageType c) (c_images c) (c_width c) (c_height c) (c_resizeFilter
    c) (c_mipLevels c) v (c_customMips c) (c_flipX c) (c_flipY c) (c_rotate c) (c_rotateAngle c)
    (c_normalMap c) (c_normalOptions c) (c_normalHeight c) (c_grayscale c) (c_swizzle c)
    (c_redSwzl c) (c_greenSwzl c) (c_blueSwzl c) (c_alphaSwzl c) (c_maskR c) (c_maskG c) (c_maskB
    c) (c_maskA c) (c_imageCS c) (c_textureCS c) (c_preMultiply c) (c_dim c) (c_fmt c) (c_ttyp c)
    (c_alph c) (c_quality c) (c_output c) (c_ftype c) (c_createOutputDir c) (c_success c)
    (c_alphaSet c).
Definition set_customMips (v : list (index * (string * replacement))) (c : cl) : cl :=
    CL (c_jobs c) (c_log c) (c_imageType c) (c_images c) (c_width c) (c_height c) (c_resizeFilter
    c) (c_mipLevels c) (c_mipFilter c) v (c_flipX c) (c_flipY c) (c_rotate c) (c_rotateAngle c)
    (c_normalMap c) (c_normalOptions c) (c_normalHeight c) (c_grayscale c) (c_swizzle c)
    (c_redSwzl c) (c_greenSwzl c) (c_blueSwzl c) (c_alphaSwzl c) (c_maskR c) (c_maskG c) (c_maskB
    c) (c_maskA c) (c_imageCS c) (c_textureCS c) (c_preMultiply c) (c_dim c) (c_fmt c) (c_ttyp c)
    (c_alph c) (c_quality c) (c_output c) (c_ftype c) (c_createOutputDir c) (c_success c)
    (c_alphaSet c).
Definition set_flipX (v : bool) (c : cl) : cl :=
    CL (c_jobs c) (c_log c) (c_imageType c) (c_images c) (c_width c) (c_height c) (c_resizeFilter
    c) (c_mipLevels c) (c_mipFilter c) (c_customMips c) v (c_flipY c) (c_rotate c) (c_rotateAngle
    c) (c_normalMap c) (c_normalOptions c) (c_normalHeight c) (c_grayscale c) (c_swizzle c)
    (c_redSwzl c) (c_greenSwzl c) (c_blueSwzl c) (c_alphaSwzl c) (c_maskR c) (c_maskG c) (c_maskB
    c) (c_maskA c) (c_imageCS c) (c_textureCS c) (c_preMultiply c) (c_dim c) (c_fmt c) (c_ttyp c)
    (c_alph c) (c_quality c) (c_output c) (c_ftype c) (c_createOutputDir c) (c_success c)
    (c_alphaSet c).
Definition set_flipY (v : bool) (c : cl) : cl :=
    CL (c_jobs c) (c_log c) (c_imageType c) (c_images c) (c_width c) (c_height c) (c_resizeFilter
    c) (c_mipLevels c) (c_mipFilter c) (c_customMips c) (c_flipX c) v (c_rotate c) (c_rotateAngle
    c) (c_normalMap c) (c_normalOptions c) (c_normalHeight c) (c_grayscale c) (c_swizzle c)
    (c_redSwzl c) (c_greenSwzl c) (c_blueSwzl c) (c_alphaSwzl c) (c_maskR c) (c_maskG c) (c_maskB
    c) (c_maskA c) (c_imageCS c) (c_textureCS c) (c_preMultiply c) (c_dim c) (c_fmt c) (c_ttyp c)
    (c_alph c) (c_quality c) (c_output c) (c_ftype c) (c_createOutputDir c) (c_success c)
    (c_alphaSet c).
Definition set_rotate (v : bool) (c : cl) : cl :=
    CL (c_jobs c) (c_log c) (c_imageType c) (c_images c) (c_width c) (c_height c) (c_resizeFilter
    c) (c_mipLevels c) (c_mipFilter c) (c_customMips c) (c_flipX c) (c_flipY c) v (c_rotateAngle
    c) (c_normalMap c) (c_normalOptions c) (c_normalHeight c) (c_grayscale c) (c_swizzle c)
    (c_redSwzl c) (c_greenSwzl c) (c_blueSwzl c) (c_alphaSwzl c) (c_maskR c) (c_maskG c) (c_maskB
    c) (c_maskA c) (c_imageCS c) (c_textureCS c) (c_preMultiply c) (c_dim c) (c_fmt c) (c_ttyp c)
    (c_alph c) (c_quality c) (c_output c) (c_ftype c) (c_createOutputDir c) (c_success c)
    (c_alphaSet c).
Definition set_rotateAngle (v : angle) (c : cl) : cl :=
    CL (c_jobs c) (c_log c) (c_imageType c) (c_images c) (c_width c) (c_height c) (c_resizeFilter
    c) (c_mipLevels c) (c_mipFilter c) (c_customMips c) (c_flipX c) (c_flipY c) (c_rotate c) v
    (c_normalMap c) (c_normalOptions c) (c_normalHeight c) (c_grayscale c) (c_swizzle c)
    (c_redSwzl c) (c_greenSwzl c) (c_blueSwzl c) (c_alphaSwzl c) (c_maskR c) (c_maskG c) (c_maskB
    c) (c_maskA c) (c_imageCS c) (c_textureCS c) (c_preMultiply c) (c_dim c) (c_fmt c) (c_ttyp c)
    (c_alph c) (c_quality c) (c_output c) (c_ftype c) (c_createOutputDir c) (c_success c)
    (c_alphaSet c).
Definition set_normalMap (v : bool) (c : cl) : cl :=
    CL (c_jobs c) (c_log c) (c_imageType c) (c_images c) (c_width c) (c_height c) (c_resizeFilter
    c) (c_mipLevels c) (c_mipFilter c) (c_customMips c) (c_flipX c) (c_flipY c) (c_rotate c)
    (c_rotateAngle c) v (c_normalOptions c) (c_normalHeight c) (c_grayscale c) (c_swizzle c)
    (c_redSwzl c) (c_greenSwzl c) (c_blueSwzl c) (c_alphaSwzl c) (c_maskR c) (c_maskG c) (c_maskB
    c) (c_maskA c) (c_imageCS c) (c_textureCS c) (c_preMultiply c) (c_dim c) (c_fmt c) (c_ttyp c)
    (c_alph c) (c_quality c) (c_output c) (c_ftype c) (c_createOutputDir c) (c_success c)
    (c_alphaSet c).
Definition set_normalOptions (v : N) (c : cl) : cl :=
    CL (c_jobs c) (c_log c) (c_imageType c) (c_images c) (c_width c) (c_height c) (c_resizeFilter
    c) (c_mipLevels c) (c_mipFilter c) (c_customMips c) (c_flipX c) (c_flipY c) (c_rotate c)
    (c_rotateAngle c) (c_normalMap c) v (c_normalHeight c) (c_grayscale c) (c_swizzle c)
    (c_redSwzl c) (c_greenSwzl c) (c_blueSwzl c) (c_alphaSwzl c) (c_maskR c) (c_maskG c) (c_maskB
    c) (c_maskA c) (c_imageCS c) (c_textureCS c) (c_preMultiply c) (c_dim c) (c_fmt c) (c_ttyp c)
    (c_alph c) (c_quality c) (c_output c) (c_ftype c) (c_createOutputDir c) (c_success c)
    (c_alphaSet c).
Definition set_normalHeight (v : option string) (c : cl) : cl :=
    CL (c_jobs c) (c_log c) (c_imageType c) (c_images c) (c_width c) (c_height c) (c_resizeFilter
    c) (c_mipLevels c) (c_mipFilter c) (c_customMips c) (c_flipX c) (c_flipY c) (c_rotate c)
    (c_rotateAngle c) (c_normalMap c) (c_normalOptions c) v (c_grayscale c) (c_swizzle c)
    (c_redSwzl c) (c_greenSwzl c) (c_blueSwzl c) (c_alphaSwzl c) (c_maskR c) (c_maskG c) (c_maskB
    c) (c_maskA c) (c_imageCS c) (c_textureCS c) (c_preMultiply c) (c_dim c) (c_fmt c) (c_ttyp c)
    (c_alph c) (c_quality c) (c_output c) (c_ftype c) (c_createOutputDir c) (c_success c)
    (c_alphaSet c).
Definition set_grayscale (v : bool) (c : cl) : cl :=
    CL (c_jobs c) (c_log c) (c_imageType c) (c_images c) (c_width c) (c_height c) (c_resizeFilter
    c) (c_mipLevels c) (c_mipFilter c) (c_customMips c) (c_flipX c) (c_flipY c) (c_rotate c)
    (c_rotateAngle c) (c_normalMap c) (c_normalOptions c) (c_normalHeight c) v (c_swizzle c)
    (c_redSwzl c) (c_greenSwzl c) (c_blueSwzl c) (c_alphaSwzl c) (c_maskR c) (c_maskG c) (c_maskB
    c) (c_maskA c) (c_imageCS c) (c_textureCS c) (c_preMultiply c) (c_dim c) (c_fmt c) (c_ttyp c)
    (c_alph c) (c_quality c) (c_output c) (c_ftype c) (c_createOutputDir c) (c_success c)
    (c_alphaSet c).
Definition set_swizzle (v : bool) (c : cl) : cl :=
    CL (c_jobs c) (c_log c) (c_imageType c) (c_images c) (c_width c) (c_height c) (c_resizeFilter
    c) (c_mipLevels c) (c_mipFilter c) (c_customMips c) (c_flipX c) (c_flipY c) (c_rotate c)
    (c_rotateAngle c) (c_normalMap c) (c_normalOptions c) (c_normalHeight c) (c_grayscale c) v
    (c_redSwzl c) (c_greenSwzl c) (c_blueSwzl c) (c_alphaSwzl c) (c_maskR c) (c_maskG c) (c_maskB
    c) (c_maskA c) (c_imageCS c) (c_textureCS c) (c_preMultiply c) (c_dim c) (c_fmt c) (c_ttyp c)
    (c_alph c) (c_quality c) (c_output c) (c_ftype c) (c_createOutputDir c) (c_success c)
    (c_alphaSet c).
Definition set_redSwzl (v : channel) (c : cl) : cl :=
    CL (c_jobs c) (c_log c) (c_imageType c) (c_images c) (c_width c) (c_height c) (c_resizeFilter
    c) (c_mipLevels c) (c_mipFilter c) (c_customMips c) (c_flipX c) (c_flipY c) (c_rotate c)
    (c_rotateAngle c) (c_normalMap c) (c_normalOptions c) (c_normalHeight c) (c_grayscale c)
    (c_swizzle c) v (c_greenSwzl c) (c_blueSwzl c) (c_alphaSwzl c) (c_maskR c) (c_maskG c)
    (c_maskB c) (c_maskA c) (c_imageCS c) (c_textureCS c) (c_preMultiply c) (c_dim c) (c_fmt c)
    (c_ttyp c) (c_alph c) (c_quality c) (c_output c) (c_ftype c) (c_createOutputDir c) (c_success
    c) (c_alphaSet c).
Definition set_greenSwzl (v : channel) (c : cl) : cl :=
    CL (c_jobs c) (c_log c) (c_imageType c) (c_images c) (c_width c) (c_height c) (c_resizeFilter
    c) (c_mipLevels c) (c_mipFilter c) (c_customMips c) (c_flipX c) (c_flipY c) (c_rotate c)
    (c_rotateAngle c) (c_normalMap c) (c_normalOptions c) (c_normalHeight c) (c_grayscale c)
    (c_swizzle c) (c_redSwzl c) v (c_blueSwzl c) (c_alphaSwzl c) (c_maskR c) (c_maskG c) (c_maskB
    c) (c_maskA c) (c_imageCS c) (c_textureCS c) (c_preMultiply c) (c_dim c) (c_fmt c) (c_ttyp c)
    (c_alph c) (c_quality c) (c_output c) (c_ftype c) (c_createOutputDir c) (c_success c)
    (c_alphaSet c).
Definition set_blueSwzl (v : channel) (c : cl) : cl :=
    CL (c_jobs c) (c_log c) (c_imageType c) (c_images c) (c_width c) (c_height c) (c_resizeFilter
    c) (c_mipLevels c) (c_mipFilter c) (c_customMips c) (c_flipX c) (c_flipY c) (c_rotate c)
    (c_rotateAngle c) (c_normalMap c) (c_normalOptions c) (c_normalHeight c) (c_grayscale c)
    (c_swizzle c) (c_redSwzl c) (c_greenSwzl c) v (c_alphaSwzl c) (c_maskR c) (c_maskG c) (c_maskB
    c) (c_maskA c) (c_imageCS c) (c_textureCS c) (c_preMultiply c) (c_dim c) (c_fmt c) (c_ttyp c)
    (c_alph c) (c_quality c) (c_output c) (c_ftype c) (c_createOutputDir c) (c_success c)
    (c_alphaSet c).
Definition set_alphaSwzl (v : channel) (c : cl) : cl :=
    CL (c_jobs c) (c_log c) (c_imageType c) (c_images c) (c_width c) (c_height c) (c_resizeFilter
    c) (c_mipLevels c) (c_mipFilter c) (c_customMips c) (c_flipX c) (c_flipY c) (c_rotate c)
    (c_rotateAngle c) (c_normalMap c) (c_normalOptions c) (c_normalHeight c) (c_grayscale c)
    (c_swizzle c) (c_redSwzl c) (c_greenSwzl c) (c_blueSwzl c) v (c_maskR c) (c_maskG c) (c_maskB
    c) (c_maskA c) (c_imageCS c) (c_textureCS c) (c_preMultiply c) (c_dim c) (c_fmt c) (c_ttyp c)
    (c_alph c) (c_quality c) (c_output c) (c_ftype c) (c_createOutputDir c) (c_success c)
    (c_alphaSet c).
Definition set_maskR (v : bool) (c : cl) : cl :=
    CL (c_jobs c) (c_log c) (c_imageType c) (c_images c) (c_width c) (c_height c) (c_resizeFilter
    c) (c_mipLevels c) (c_mipFilter c) (c_customMips c) (c_flipX c) (c_flipY c) (c_rotate c)
    (c_rotateAngle c) (c_normalMap c) (c_normalOptions c) (c_normalHeight c) (c_grayscale c)
    (c_swizzle c) (c_redSwzl c) (c_greenSwzl c) (c_blueSwzl c) (c_alphaSwzl c) v (c_maskG c)
    (c_maskB c) (c_maskA c) (c_imageCS c) (c_textureCS c) (c_preMultiply c) (c_dim c) (c_fmt c)
    (c_ttyp c) (c_alph c) (c_quality c) (c_output c) (c_ftype c) (c_createOutputDir c) (c_success
    c) (c_alphaSet c).
Definition set_maskG (v : bool) (c : cl) : cl :=
    CL (c_jobs c) (c_log c) (c_imageType c) (c_images c) (c_width c) (c_height c) (c_resizeFilter
    c) (c_mipLevels c) (c_mipFilter c) (c_customMips c) (c_flipX c) (c_flipY c) (c_rotate c)
    (c_rotateAngle c) (c_normalMap c) (c_normalOptions c) (c_normalHeight c) (c_grayscale c)
    (c_swizzle c) (c_redSwzl c) (c_greenSwzl c) (c_blueSwzl c) (c_alphaSwzl c) (c_maskR c) v
    (c_maskB c) (c_maskA c) (c_imageCS c) (c_textureCS c) (c_preMultiply c) (c_dim c) (c_fmt c)
    (c_ttyp c) (c_alph c) (c_quality c) (c_output c) (c_ftype c) (c_createOutputDir c) (c_success
    c) (c_alphaSet c).
Definition set_maskB (v : bool) (c : cl) : cl :=
    CL (c_jobs c) (c_log c) (c_imageType c) (c_images c) (c_width c) (c_height c) (c_resizeFilter
    c) (c_mipLevels c) (c_mipFilter c) (c_customMips c) (c_flipX c) (c_flipY c) (c_rotate c)
    (c_rotateAngle c) (c_normalMap c) (c_normalOptions c) (c_normalHeight c) (c_grayscale c)
    (c_swizzle c) (c_redSwzl c) (c_greenSwzl c) (c_blueSwzl c) (c_alphaSwzl c) (c_maskR c)
    (c_maskG c) v (c_maskA c) (c_imageCS c) (c_textureCS c) (c_preMultiply c) (c_dim c) (c_fmt c)
    (c_ttyp c) (c_alph c) (c_quality c) (c_output c) (c_ftype c) (c_createOutputDir c) (c_success
    c) (c_alphaSet c).
Definition set_maskA (v : bool) (c : cl) : cl :=
    CL (c_jobs c) (c_log c) (c_imageType c) (c_images c) (c_width c) (c_height c) (c_resizeFilter
    c) (c_mipLevels c) (c_mipFilter c) (c_customMips c) (c_flipX c) (c_flipY c) (c_rotate c)
    (c_rotateAngle c) (c_normalMap c) (c_normalOptions c) (c_normalHeight c) (c_grayscale c)
    (c_swizzle c) (c_redSwzl c) (c_greenSwzl c) (c_blueSwzl c) (c_alphaSwzl c) (c_maskR c)
    (c_maskG c) (c_maskB c) v (c_imageCS c) (c_textureCS c) (c_preMultiply c) (c_dim c) (c_fmt c)
    (c_ttyp c) (c_alph c) (c_quality c) (c_output c) (c_ftype c) (c_createOutputDir c) (c_success
    c) (c_alphaSet c).
Definition set_imageCS (v : colorspace) (c : cl) : cl :=
    CL (c_jobs c) (c_log c) (c_imageType c) (c_images c) (c_width c) (c_height c) (c_resizeFilter
    c) (c_mipLevels c) (c_mipFilter c) (c_customMips c) (c_flipX c) (c_flipY c) (c_rotate c)
    (c_rotateAngle c) (c_normalMap c) (c_normalOptions c) (c_normalHeight c) (c_grayscale c)
    (c_swizzle c) (c_redSwzl c) (c_greenSwzl c) (c_blueSwzl c) (c_alphaSwzl c) (c_maskR c)
    (c_maskG c) (c_maskB c) (c_maskA c) v (c_textureCS c) (c_preMultiply c) (c_dim c) (c_fmt c)
    (c_ttyp c) (c_alph c) (c_quality c) (c_output c) (c_ftype c) (c_createOutputDir c) (c_success
    c) (c_alphaSet c).
Definition set_textureCS (v : colorspace) (c : cl) : cl :=
    CL (c_jobs c) (c_log c) (c_imageType c) (c_images c) (c_width c) (c_height c) (c_resizeFilter
    c) (c_mipLevels c) (c_mipFilter c) (c_customMips c) (c_flipX c) (c_flipY c) (c_rotate c)
    (c_rotateAngle c) (c_normalMap c) (c_normalOptions c) (c_normalHeight c) (c_grayscale c)
    (c_swizzle c) (c_redSwzl c) (c_greenSwzl c) (c_blueSwzl c) (c_alphaSwzl c) (c_maskR c)
    (c_maskG c) (c_maskB c) (c_maskA c) (c_imageCS c) v (c_preMultiply c) (c_dim c) (c_fmt c)
    (c_ttyp c) (c_alph c) (c_quality c) (c_output c) (c_ftype c) (c_createOutputDir c) (c_success
    c) (c_alphaSet c).
Definition set_preMultiply (v : bool) (c : cl) : cl :=
    CL (c_jobs c) (c_log c) (c_imageType c) (c_images c) (c_width c) (c_height c) (c_resizeFilter
    c) (c_mipLevels c) (c_mipFilter c) (c_customMips c) (c_flipX c) (c_flipY c) (c_rotate c)
    (c_rotateAngle c) (c_normalMap c) (c_normalOptions c) (c_normalHeight c) (c_grayscale c)
    (c_swizzle c) (c_redSwzl c) (c_greenSwzl c) (c_blueSwzl c) (c_alphaSwzl c) (c_maskR c)
    (c_maskG c) (c_maskB c) (c_maskA c) (c_imageCS c) (c_textureCS c) v (c_dim c) (c_fmt c)
    (c_ttyp c) (c_alph c) (c_quality c) (c_output c) (c_ftype c) (c_createOutputDir c) (c_success
    c) (c_alphaSet c).
Definition set_dim (v : dimension) (c : cl) : cl :=
    CL (c_jobs c) (c_log c) (c_imageType c) (c_images c) (c_width c) (c_height c) (c_resizeFilter
    c) (c_mipLevels c) (c_mipFilter c) (c_customMips c) (c_flipX c) (c_flipY c) (c_rotate c)
    (c_rotateAngle c) (c_normalMap c) (c_normalOptions c) (c_normalHeight c) (c_grayscale c)
    (c_swizzle c) (c_redSwzl c) (c_greenSwzl c) (c_blueSwzl c) (c_alphaSwzl c) (c_maskR c)
    (c_maskG c) (c_maskB c) (c_maskA c) (c_imageCS c) (c_textureCS c) (c_preMultiply c) v (c_fmt
    c) (c_ttyp c) (c_alph c) (c_quality c) (c_output c) (c_ftype c) (c_createOutputDir c)
    (c_success c) (c_alphaSet c).
Definition set_fmt (v : format) (c : cl) : cl :=
    CL (c_jobs c) (c_log c) (c_imageType c) (c_images c) (c_width c) (c_height c) (c_resizeFilter
    c) (c_mipLevels c) (c_mipFilter c) (c_customMips c) (c_flipX c) (c_flipY c) (c_rotate c)
    (c_rotateAngle c) (c_normalMap c) (c_normalOptions c) (c_normalHeight c) (c_grayscale c)
    (c_swizzle c) (c_redSwzl c) (c_greenSwzl c) (c_blueSwzl c) (c_alphaSwzl c) (c_maskR c)
    (c_maskG c) (c_maskB c) (c_maskA c) (c_imageCS c) (c_textureCS c) (c_preMultiply c) (c_dim c)
    v (c_ttyp c) (c_alph c) (c_quality c) (c_output c) (c_ftype c) (c_createOutputDir c)
    (c_success c) (c_alphaSet c).
Definition set_ttyp (v : ttype) (c : cl) : cl :=
    CL (c_jobs c) (c_log c) (c_imageType c) (c_images c) (c_width c) (c_height c) (c_resizeFilter
    c) (c_mipLevels c) (c_mipFilter c) (c_customMips c) (c_flipX c) (c_flipY c) (c_rotate c)
    (c_rotateAngle c) (c_normalMap c) (c_normalOptions c) (c_normalHeight c) (c_grayscale c)
    (c_swizzle c) (c_redSwzl c) (c_greenSwzl c) (c_blueSwzl c) (c_alphaSwzl c) (c_maskR c)
    (c_maskG c) (c_maskB c) (c_maskA c) (c_imageCS c) (c_textureCS c) (c_preMultiply c) (c_dim c)
    (c_fmt c) v (c_alph c) (c_quality c) (c_output c) (c_ftype c) (c_createOutputDir c) (c_success
    c) (c_alphaSet c).
Definition set_alph (v : alpha) (c : cl) : cl :=
    CL (c_jobs c) (c_log c) (c_imageType c) (c_images c) (c_width c) (c_height c) (c_resizeFilter
    c) (c_mipLevels c) (c_mipFilter c) (c_customMips c) (c_flipX c) (c_flipY c) (c_rotate c)
    (c_rotateAngle c) (c_normalMap c) (c_normalOptions c) (c_normalHeight c) (c_grayscale c)
    (c_swizzle c) (c_redSwzl c) (c_greenSwzl c) (c_blueSwzl c) (c_alphaSwzl c) (c_maskR c)
    (c_maskG c) (c_maskB c) (c_maskA c) (c_imageCS c) (c_textureCS c) (c_preMultiply c) (c_dim c)
    (c_fmt c) (c_ttyp c) v (c_quality c) (c_output c) (c_ftype c) (c_createOutputDir c) (c_success
    c) (c_alphaSet c).
Definition set_quality (v : qualitylevel) (c : cl) : cl :=
    CL (c_jobs c) (c_log c) (c_imageType c) (c_images c) (c_width c) (c_height c) (c_resizeFilter
    c) (c_mipLevels c) (c_mipFilter c) (c_customMips c) (c_flipX c) (c_flipY c) (c_rotate c)
    (c_rotateAngle c) (c_normalMap c) (c_normalOptions c) (c_normalHeight c) (c_grayscale c)
    (c_swizzle c) (c_redSwzl c) (c_greenSwzl c) (c_blueSwzl c) (c_alphaSwzl c) (c_maskR c)
    (c_maskG c) (c_maskB c) (c_maskA c) (c_imageCS c) (c_textureCS c) (c_preMultiply c) (c_dim c)
    (c_fmt c) (c_ttyp c) (c_alph c) v (c_output c) (c_ftype c) (c_createOutputDir c) (c_success c)
    (c_alphaSet c).
Definition set_output (v : option string) (c : cl) : cl :=
    CL (c_jobs c) (c_log c) (c_imageType c) (c_images c) (c_width c) (c_height c) (c_resizeFilter
    c) (c_mipLevels c) (c_mipFilter c) (c_customMips c) (c_flipX c) (c_flipY c) (c_rotate c)
    (c_rotateAngle c) (c_normalMap c) (c_normalOptions c) (c_normalHeight c) (c_grayscale c)
    (c_swizzle c) (c_redSwzl c) (c_greenSwzl c) (c_blueSwzl c) (c_alphaSwzl c) (c_maskR c)
    (c_maskG c) (c_maskB c) (c_maskA c) (c_imageCS c) (c_textureCS c) (c_preMultiply c) (c_dim c)
    (c_fmt c) (c_ttyp c) (c_alph c) (c_quality c) v (c_ftype c) (c_createOutputDir c) (c_success
    c) (c_alphaSet c).
Definition set_ftype (v : filetype) (c : cl) : cl :=
    CL (c_jobs c) (c_log c) (c_imageType c) (c_images c) (c_width c) (c_height c) (c_resizeFilter
    c) (c_mipLevels c) (c_mipFilter c) (c_customMips c) (c_flipX c) (c_flipY c) (c_rotate c)
    (c_rotateAngle c) (c_normalMap c) (c_normalOptions c) (c_normalHeight c) (c_grayscale c)
    (c_swizzle c) (c_redSwzl c) (c_greenSwzl c) (c_blueSwzl c) (c_alphaSwzl c) (c_maskR c)
    (c_maskG c) (c_maskB c) (c_maskA c) (c_imageCS c) (c_textureCS c) (c_preMultiply c) (c_dim c)
    (c_fmt c) (c_ttyp c) (c_alph c) (c_quality c) (c_output c) v (c_createOutputDir c) (c_success
    c) (c_alphaSet c).
Definition set_createOutputDir (v : bool) (c : cl) : cl :=
    CL (c_jobs c) (c_log c) (c_imageType c) (c_images c) (c_width c) (c_height c) (c_resizeFilter
    c) (c_mipLevels c) (c_mipFilter c) (c_customMips c) (c_flipX c) (c_flipY c) (c_rotate c)
    (c_rotateAngle c) (c_normalMap c) (c_normalOptions c) (c_normalHeight c) (c_grayscale c)
    (c_swizzle c) (c_redSwzl c) (c_greenSwzl c) (c_blueSwzl c) (c_alphaSwzl c) (c_maskR c)
    (c_maskG c) (c_maskB c) (c_maskA c) (c_imageCS c) (c_textureCS c) (c_preMultiply c) (c_dim c)
    (c_fmt c) (c_ttyp c) (c_alph c) (c_quality c) (c_output c) (c_ftype c) v (c_success c)
    (c_alphaSet c).
Definition set_success (v : bool) (c : cl) : cl :=
    CL (c_jobs c) (c_log c) (c_imageType c) (c_images c) (c_width c) (c_height c) (c_resizeFilter
    c) (c_mipLevels c) (c_mipFilter c) (c_customMips c) (c_flipX c) (c_flipY c) (c_rotate c)
    (c_rotateAngle c) (c_normalMap c) (c_normalOptions c) (c_normalHeight c) (c_grayscale c)
    (c_swizzle c) (c_redSwzl c) (c_greenSwzl c) (c_blueSwzl c) (c_alphaSwzl c) (c_maskR c)
    (c_maskG c) (c_maskB c) (c_maskA c) (c_imageCS c) (c_textureCS c) (c_preMultiply c) (c_dim c)
    (c_fmt c) (c_ttyp c) (c_alph c) (c_quality c) (c_output c) (c_ftype c) (c_createOutputDir c) v
    (c_alphaSet c).
Definition set_alphaSet (v : bool) (c : cl) : cl :=
    CL (c_jobs c) (c_log c) (c_imageType c) (c_images c) (c_width c) (c_height c) (c_resizeFilter
    c) (c_mipLevels c) (c_mipFilter c) (c_customMips c) (c_flipX c) (c_flipY c) (c_rotate c)
    (c_rotateAngle c) (c_normalMap c) (c_normalOptions c) (c_normalHeight c) (c_grayscale c)
    (c_swizzle c) (c_redSwzl c) (c_greenSwzl c) (c_blueSwzl c) (c_alphaSwzl c) (c_maskR c)
    (c_maskG c) (c_maskB c) (c_maskA c) (c_imageCS c) (c_textureCS c) (c_preMultiply c) (c_dim c)
    (c_fmt c) (c_ttyp c) (c_alph c) (c_quality c) (c_output c) (c_ftype c) (c_createOutputDir c)
    (c_success c) v.

Definition allOnes : N := 4294967295. (* Texture::allMipLevels, allCores, Texture.h 405, 410 *)

(** The member initialisers, CommandLine.h 73-110, and parse's locals, CommandLine.cpp 816-819. *)
Definition cl0 : cl :=
  CL 1 Log_Normal IT_Image [] (-1)%Z (-1)%Z RF_CatmullRom 1 RF_CatmullRom [] false false false CW90
     false 0 None false false Ch_Red Ch_Green Ch_Blue Ch_Alpha true true true true CS_Linear
     CS_Linear false Dim2D F_Unknown T_UNorm AlphaStandard Q_Normal None FT_Auto false true false.

(** The locals imageFile and typeSet of parse, CommandLine.cpp 817-818: initialised to false and
    never assigned again. *)
Definition imageFile : bool := false.
Definition typeSet : bool := false.

(** formatMap, CommandLine.cpp 37-111. *)
Definition formatMap (fl : flags) : list (format * string) :=
    [(F_R4G4, "R4G4"); (F_R4G4B4A4, "R4G4B4A4"); (F_B4G4R4A4, "B4G4R4A4");
    (F_A4R4G4B4, "A4R4G4B4"); (F_R5G6B5, "R5G6B5"); (F_B5G6R5, "B5G6R5");
    (F_R5G5B5A1, "R5G5B5A1"); (F_B5G5R5A1, "B5G5R5A1"); (F_A1R5G5B5,
    "A1R5G5B5"); (F_R8, "R8"); (F_R8G8, "R8G8"); (F_R8G8B8,
    "R8G8B8"); (F_B8G8R8, "B8G8R8"); (F_R8G8B8A8, "R8G8B8A8"); (F_B8G8R8A8,
    "B8G8R8A8"); (F_A8B8G8R8, "A8B8G8R8"); (F_A2R10G10B10, "A2R10G10B10");
    (F_A2B10G10R10, "A2B10G10R10"); (F_R16, "R16"); (F_R16G16, "R16G16");
    (F_R16G16B16, "R16G16B16"); (F_R16G16B16A16, "R16G16B16A16"); (F_R32,
    "R32"); (F_R32G32, "R32G32"); (F_R32G32B32, "R32G32B32");
    (F_R32G32B32A32, "R32G32B32A32"); (F_B10G11R11_UFloat, "B10G11R11_UFloat");
    (F_E5B9G9R9_UFloat, "E5B9G9R9_UFloat")]
  ++ (if has_s3tc fl then
    [(F_BC1_RGB, "BC1_RGB"); (F_BC1_RGBA, "BC1_RGBA"); (F_BC2, "BC2");
    (F_BC3, "BC3"); (F_BC4, "BC4"); (F_BC5, "BC5"); (F_BC6H,
    "BC6H"); (F_BC7, "BC7")]
  else [])
  ++ (if has_etc fl then
    [(F_ETC1, "ETC1"); (F_ETC2_R8G8B8, "ETC2_R8G8B8"); (F_ETC2_R8G8B8A1,
    "ETC2_R8G8B8A1"); (F_ETC2_R8G8B8A8, "ETC2_R8G8B8A8"); (F_EAC_R11,
    "EAC_R11"); (F_EAC_R11G11, "EAC_R11G11")]
  else [])
  ++ (if has_astc fl then
    [(F_ASTC_4x4, "ASTC_4x4"); (F_ASTC_5x4, "ASTC_5x4"); (F_ASTC_5x5,
    "ASTC_5x5"); (F_ASTC_6x5, "ASTC_6x5"); (F_ASTC_6x6, "ASTC_6x6");
    (F_ASTC_8x5, "ASTC_8x5"); (F_ASTC_8x6, "ASTC_8x6"); (F_ASTC_8x8,
    "ASTC_8x8"); (F_ASTC_10x5, "ASTC_10x5"); (F_ASTC_10x6, "ASTC_10x6");
    (F_ASTC_10x8, "ASTC_10x8"); (F_ASTC_10x10, "ASTC_10x10"); (F_ASTC_12x10,
    "ASTC_12x10"); (F_ASTC_12x12, "ASTC_12x12")]
  else [])
  ++ (if has_pvrtc fl then
    [(F_PVRTC1_RGB_2BPP, "PVRTC1_RGB_2BPP"); (F_PVRTC1_RGBA_2BPP,
    "PVRTC1_RGBA_2BPP"); (F_PVRTC1_RGB_4BPP, "PVRTC1_RGB_4BPP");
    (F_PVRTC1_RGBA_4BPP, "PVRTC1_RGBA_4BPP"); (F_PVRTC2_RGBA_2BPP,
    "PVRTC2_RGBA_2BPP"); (F_PVRTC2_RGBA_4BPP, "PVRTC2_RGBA_4BPP")]
  else []).

(** * Helpers *)

(** strToCubeFace, CommandLine.cpp 295-312. *)
Definition strToCubeFace (s : string) : option N :=
  if caseeq s "+x" then Some 0
  else if caseeq s "-x" then Some 1
  else if caseeq s "+y" then Some 2
  else if caseeq s "-y" then Some 3
  else if caseeq s "+z" then Some 4
  else if caseeq s "-z" then Some 5
  else None.

(** strToMipReplace, CommandLine.cpp 329-338. *)
Definition strToMipReplace (s : string) : option replacement :=
  if caseeq s "once" then Some Once
  else if caseeq s "continue" then Some Continue
  else None.

(** readIndex, CommandLine.cpp 279-293.  The readers take the arguments after argv[i] and
    return the value and the arguments still unread, or [None] when they return false. *)
Definition readIndex (tl : list string) : option (N * list string) :=
  match tl with
  | [] => None
  | a :: r => let (v, e) := strtoul a in if e then Some (v, r) else None
  end.

(** readCubeFace, CommandLine.cpp 314-327. *)
Definition readCubeFace (tl : list string) : option (N * list string) :=
  match tl with
  | [] => None
  | a :: r => match strToCubeFace a with Some f => Some (f, r) | None => None end
  end.

(** readMipReplace, CommandLine.cpp 340-349. *)
Definition readMipReplace (tl : list string) : option (replacement * list string) :=
  match tl with
  | [] => None
  | a :: r => match strToMipReplace a with Some f => Some (f, r) | None => None end
  end.

(** readSize, CommandLine.cpp 430-478; the values are those of CommandLine::Size. *)
Definition readSize (tl : list string) : option (Z * list string) :=
  match tl with
  | [] => None
  | a :: r =>
      if caseeq a "nextpo2" then Some ((-2)%Z, r)
      else if caseeq a "nearestpo2" then Some ((-3)%Z, r)
      else if caseeq a "width" then Some ((-4)%Z, r)
      else if caseeq a "width-nextpo2" then Some ((-5)%Z, r)
      else if caseeq a "width-nearestpo2" then Some ((-6)%Z, r)
      else if caseeq a "height" then Some ((-7)%Z, r)
      else if caseeq a "height-nextpo2" then Some ((-8)%Z, r)
      else if caseeq a "height-nearestpo2" then Some ((-9)%Z, r)
      else if caseeq a "min" then Some ((-10)%Z, r)
      else if caseeq a "min-nextpo2" then Some ((-11)%Z, r)
      else if caseeq a "min-nearestpo2" then Some ((-12)%Z, r)
      else if caseeq a "max" then Some ((-13)%Z, r)
      else if caseeq a "max-nextpo2" then Some ((-14)%Z, r)
      else if caseeq a "max-nearestpo2" then Some ((-15)%Z, r)
      else let (v, e) := strtol a in if e then Some (to_int v, r) else None
  end.

(** readChannel, CommandLine.cpp 480-507. *)
Definition readChannel (c : ascii) : option channel :=
  let n := code c in
  if (n =? 114) || (n =? 82) then Some Ch_Red
  else if (n =? 103) || (n =? 71) then Some Ch_Green
  else if (n =? 98) || (n =? 66) then Some Ch_Blue
  else if (n =? 97) || (n =? 65) then Some Ch_Alpha
  else if (n =? 120) || (n =? 88) then Some Ch_None
  else None.

(** readFilter, CommandLine.cpp 509-529: the filter if one is named (the caller ignores the
    return value), and the arguments still unread. *)
Definition readFilter (old : rfilter) (tl : list string) : rfilter * list string :=
  match tl with
  | [] => (old, tl)
  | a :: r =>
      if caseeq a "box" then (RF_Box, r)
      else if caseeq a "linear" then (RF_Linear, r)
      else if caseeq a "cubic" then (RF_Cubic, r)
      else if caseeq a "catmull-rom" then (RF_CatmullRom, r)
      else if caseeq a "b-spline" then (RF_BSpline, r)
      else (old, tl)
  end.

(** * Reading list files *)

(** An input stream: what is left, and good(). *)
Record stream := Stream { s_rest : string; s_good : bool }.

(** A delimiter set is given by its character codes; isCharInStr, CommandLine.cpp 382-390. *)
Definition in_set (c : ascii) (d : list N) : bool := existsb (N.eqb (code c)) d.

Definition whitespace : list N := [9; 10; 11; 12; 13; 32].
Definition newline : list N := [10; 13].

(** readUntilChar, CommandLine.cpp 392-402: the characters appended, the delimiter ([None]: a
    negative value, end of file) and the stream.  get() at the end sets eofbit and failbit. *)
Fixpoint readUntil (s : string) (d : list N) : string * option ascii * stream :=
  match s with
  | EmptyString => (EmptyString, None, Stream EmptyString false)
  | String c t =>
      if in_set c d then (EmptyString, Some c, Stream t true)
      else let '(a, l, st) := readUntil t d in (String c a, l, st)
  end.

(** The loop of readNextToken, CommandLine.cpp 419-425. *)
Fixpoint nextToken_loop (fuel : nat) (out : string) (st : stream) (delims terms : list N)
  (last : option ascii) : option (string * option ascii * stream) :=
  match fuel with
  | O => None
  | S fuel =>
      match last with
      | None => Some (out, last, st)
      | Some l =>
          if s_good st && negb (in_set l terms) then
            let '(a, l', st') := readUntil (s_rest st) delims in
            let out := String.append out a in
            if negb (is_empty out) then Some (out, l', st')
            else nextToken_loop fuel out st' delims terms l'
          else Some (out, last, st)
      end
  end.

(** readNextToken, CommandLine.cpp 404-428.  [last = None] is a negative delimiter. *)
Definition readNextToken (fuel : nat) (out : string) (st : stream) (delims terms : list N)
  (last : option ascii) (append : bool) : option (string * option ascii * stream) :=
  let out :=
    if append then
      match last with
      | Some l => if negb (is_empty out) && negb (in_set l delims) then String.append out (String l EmptyString)
                  else out
      | None => out
      end
    else EmptyString in
  nextToken_loop fuel out st delims terms last.

(** readImageList, CommandLine.cpp 531-550, after the file has been opened: the lines that are
    not empty are appended to the images. *)
Fixpoint imageList_loop (fuel : nat) (st : stream) (images : list string) : option (list string) :=
  match fuel with
  | O => None
  | S fuel =>
      if s_good st then
        let '(a, _, st') := readUntil (s_rest st) newline in
        imageList_loop fuel st' (if negb (is_empty a) then images ++ [a] else images)
      else Some images
  end.

(** emplace on the map of custom mips: [None] when the index is present. *)
Definition emplace (k : index) (v : string * replacement) (m : list (index * (string * replacement)))
  : option (list (index * (string * replacement))) :=
  if existsb (fun e => index_eqb (fst e) k) m then None else Some (m ++ [(k, v)]).

(** static_cast<unsigned int>. *)
Definition to_uint (n : N) : N := n mod 2 ^ 32.

(** The body of the loop of readCustomMipList after a non-empty first token, CommandLine.cpp
    572-618: [None]: out of fuel; [Some None]: returns false. *)
Definition customMip_line (fuel : nat) (cur : string) (delim : option ascii) (st : stream)
  (m : list (index * (string * replacement)))
  : option (option (stream * list (index * (string * replacement)))) :=
  let (level, e) := strtoul cur in
  if negb e then Some None
  else
    obind (readNextToken fuel cur st whitespace newline delim false) (fun '(cur, delim, st) =>
    let (value, e) := strtoul cur in
    obind (if e then obind (readNextToken fuel cur st whitespace newline delim false)
                           (fun '(cur, delim, st) => Some (value, cur, delim, st))
           else Some (0, cur, delim, st)) (fun '(depth, cur, delim, st) =>
    obind (match strToCubeFace cur with
           | Some f => obind (readNextToken fuel cur st whitespace newline delim false)
                             (fun '(cur, delim, st) => Some (f, cur, delim, st))
           | None => Some (0, cur, delim, st)
           end) (fun '(face, cur, delim, st) =>
    obind (match strToMipReplace cur with
           | Some r => obind (readNextToken fuel cur st whitespace newline delim false)
                             (fun '(cur, delim, st) => Some (r, cur, delim, st))
           | None => Some (Continue, cur, delim, st)
           end) (fun '(repl, cur, delim, st) =>
    obind (readNextToken fuel cur st newline newline delim true) (fun '(cur, _, st) =>
    if is_empty cur then Some None
    else match emplace (Index face (to_uint level) (to_uint depth)) (cur, repl) m with
         | None => Some None
         | Some m => Some (Some (st, m))
         end))))).

(** readCustomMipList, CommandLine.cpp 552-622, after the file has been opened. *)
Fixpoint customMipList_loop (fuel : nat) (st : stream) (m : list (index * (string * replacement)))
  : option (option (list (index * (string * replacement)))) :=
  match fuel with
  | O => None
  | S fuel' =>
      if s_good st then
        obind (readNextToken fuel EmptyString st whitespace newline (Some zero) false)
              (fun '(cur, delim, st) =>
        if is_empty cur then customMipList_loop fuel' st m
        else obind (customMip_line fuel cur delim st m) (fun r =>
             match r with
             | None => Some None
             | Some (st, m) => customMipList_loop fuel' st m
             end))
      else Some (Some m)
  end.

(** * Options *)

(** Kinds of undefined behaviour: an access outside the image list, a shift by 32 or more. *)
Inductive ub := UB_images | UB_shift.

(** What one iteration of the loop of parse does: go on with the rest of the arguments, set
    success to false and break, or leave the defined behaviour or throw. *)
Inductive outcome := Go (c : cl) (rest : list string) | Stop | Undefined (u : ub) | Throw.

Inductive opt :=
| O_jobs | O_quiet | O_verbose | O_input | O_array | O_cube | O_cubearray | O_inputlist | O_resize
| O_mipmap | O_custommip | O_custommiplist | O_flipx | O_flipy | O_rotate | O_normalmap
| O_grayscale | O_swizzle | O_srgb | O_premultiply | O_dimension | O_format | O_type | O_alpha
| O_quality | O_output | O_fileformat | O_createdir.

(** matches, CommandLine.cpp 274-277. *)
Definition matches (command short long : string) : bool :=
  String.eqb command short || String.eqb command long.

(** The conditions of the if-else chain of parse, CommandLine.cpp 823-1437, in order.  They
    only look at argv[i], so the chain is modelled as this test followed by a case distinction. *)
Definition classify (h : string) : option opt :=
  if matches h "-j" "--jobs" then Some O_jobs
  else if matches h "-q" "--quiet" then Some O_quiet
  else if matches h "-v" "--verbose" then Some O_verbose
  else if matches h "-i" "--input" then Some O_input
  else if matches h "-a" "--array" then Some O_array
  else if matches h "-c" "--cube" then Some O_cube
  else if matches h "-C" "--cube-array" then Some O_cubearray
  else if matches h "-I" "--input-list" then Some O_inputlist
  else if matches h "-r" "--resize" then Some O_resize
  else if matches h "-m" "--mipmap" then Some O_mipmap
  else if matches h "-M" "--custom-mip" then Some O_custommip
  else if String.eqb h "--custom-mip-list" then Some O_custommiplist
  else if String.eqb h "--flipx" then Some O_flipx
  else if String.eqb h "--flipy" then Some O_flipy
  else if String.eqb h "--rotate" then Some O_rotate
  else if matches h "-n" "--normalmap" then Some O_normalmap
  else if matches h "-g" "--grayscale" then Some O_grayscale
  else if matches h "-s" "--swizzle" then Some O_swizzle
  else if String.eqb h "--srgb" then Some O_srgb
  else if String.eqb h "--pre-multiply" then Some O_premultiply
  else if matches h "-d" "--dimension" then Some O_dimension
  else if matches h "-f" "--format" then Some O_format
  else if matches h "-t" "--type" then Some O_type
  else if String.eqb h "--alpha" then Some O_alpha
  else if matches h "-Q" "--quality" then Some O_quality
  else if matches h "-o" "--output" then Some O_output
  else if String.eqb h "--file-format" then Some O_fileformat
  else if String.eqb h "--create-dir" then Some O_createdir
  else None.

(** std::vector<std::string>::resize to [n] elements; [None] when it throws. *)
Definition resize (cap : N) (l : list string) (n : N) : option (list string) :=
  let len := N.of_nat (length l) in
  if n <=? len then Some (firstn (N.to_nat n) l)
  else if n <=? cap then Some (l ++ repeat EmptyString (N.to_nat (n - len)))
  else None.

(** images[index], checked to be empty and then assigned (CommandLine.cpp 884-891, 923-930,
    971-978). *)
Definition put_image (c : cl) (idx : N) (v : string) (rest : list string) : outcome :=
  if idx <? N.of_nat (length (c_images c)) then
    if negb (is_empty (nth (N.to_nat idx) (c_images c) EmptyString)) then Stop
    else Go (set_images (upd (N.to_nat idx) v (c_images c)) c) rest
  else Undefined UB_images.

Definition imagetype_eqb (a b : imagetype) : bool :=
  match a, b with
  | IT_Image, IT_Image | IT_Array, IT_Array | IT_Cube, IT_Cube | IT_CubeArray, IT_CubeArray => true
  | _, _ => false
  end.

(** std::size_t arithmetic wraps. *)
Definition u64 (n : N) : N := n mod 2 ^ 64.

Section Parse.
Variable fl : flags.
Variable file : string -> option string.
Variable isnum : string -> bool.
Variable cap : N.

(** -j, CommandLine.cpp 823-836. *)
Definition do_jobs (c : cl) (tl : list string) : outcome :=
  match tl with
  | [] => Go (set_jobs allOnes c) tl
  | a :: r => let (v, e) := strtol a in
              if e then Go (set_jobs (Z.to_N (v mod 2 ^ 32)) c) r else Go (set_jobs allOnes c) tl
  end.

(** -i, CommandLine.cpp 841-858. *)
Definition do_input (c : cl) (tl : list string) : outcome :=
  match c_images c, tl with
  | [], a :: r => Go (set_images [a] c) r
  | _, _ => Stop
  end.

(** -a, CommandLine.cpp 859-892. *)
Definition do_array (c : cl) (tl : list string) : outcome :=
  let c' := match c_images c with [] => Some (set_imageType IT_Array c)
            | _ => if negb (imagetype_eqb (c_imageType c) IT_Array) || imageFile then None else Some c
            end in
  match c', tl with
  | None, _ | _, [] => Stop
  | Some c, _ =>
      let size := N.of_nat (length (c_images c)) in
      let '(idx, tl) := match tl with
                        | _ :: _ :: _ => match readIndex tl with Some p => p | None => (size, tl) end
                        | _ => (size, tl)
                        end in
      match (if size <=? idx then resize cap (c_images c) (u64 (idx + 1)) else Some (c_images c)), tl with
      | Some im, a :: r => put_image (set_images im c) idx a r
      | None, _ => Throw
      | _, [] => Stop (* not reached: readIndex leaves an argument *)
      end
  end.

(** -c, CommandLine.cpp 893-931. *)
Definition do_cube (c : cl) (tl : list string) : outcome :=
  match (match c_images c with
         | [] => obind (resize cap [] 6) (fun im => Some (Some (set_images im (set_imageType IT_Cube c))))
         | _ => Some (if negb (imagetype_eqb (c_imageType c) IT_Cube) || imageFile then None else Some c)
         end), tl with
  | None, _ => Throw
  | Some None, _ => Stop
  | Some (Some c), _ :: _ :: _ =>
      match readCubeFace tl with
      | Some (face, a :: r) => put_image c face a r
      | _ => Stop
      end
  | _, _ => Stop
  end.

(** -C, CommandLine.cpp 932-979. *)
Definition do_cubearray (c : cl) (tl : list string) : outcome :=
  match (match c_images c with
         | [] => Some (set_imageType IT_CubeArray c)
         | _ => if negb (imagetype_eqb (c_imageType c) IT_CubeArray) || imageFile then None else Some c
         end), tl with
  | Some c, _ :: _ :: _ :: _ =>
      match readIndex tl with
      | None => Stop
      | Some (ci, tl) =>
          match readCubeFace tl with
          | Some (face, a :: r) =>
              let size := N.of_nat (length (c_images c)) in
              match (if size <=? u64 (ci * 6) then resize cap (c_images c) (u64 (u64 (ci + 1) * 6))
                     else Some (c_images c)) with
              | None => Throw
              | Some im => put_image (set_images im c) (u64 (u64 (ci * 6) + face)) a r
              end
          | _ => Stop
          end
      end
  | _, _ => Stop
  end.

(** -I, CommandLine.cpp 980-1017. *)
Definition do_inputlist (c : cl) (tl : list string) : outcome :=
  match c_images c, tl with
  | [], t :: f :: r =>
      match (if caseeq t "image" then Some IT_Image
             else if caseeq t "array" then Some IT_Array
             else if caseeq t "cube" then Some IT_Cube
             else if caseeq t "cube-array" then Some IT_CubeArray
             else None) with
      | None => Stop
      | Some it =>
          match file f with
          | None => Stop
          | Some content =>
              match imageList_loop (S (S (String.length content))) (Stream content true) [] with
              | None => Stop (* not reached: the fuel suffices *)
              | Some im => Go (set_images im (set_imageType it c)) r
              end
          end
      end
  | _, _ => Stop
  end.

(** -r, CommandLine.cpp 1018-1035. *)
Definition do_resize (c : cl) (tl : list string) : outcome :=
  match tl with
  | _ :: _ :: _ =>
      match readSize tl with
      | None => Stop
      | Some (w, tl) =>
          match readSize tl with
          | None => Stop
          | Some (h, tl) =>
              let '(f, r) := readFilter (c_resizeFilter c) tl in
              Go (set_resizeFilter f (set_height h (set_width w c))) r
          end
      end
  | _ => Stop
  end.

(** -m, CommandLine.cpp 1036-1044. *)
Definition do_mipmap (c : cl) (tl : list string) : outcome :=
  let '(n, tl) := match readIndex tl with
                  | Some (v, tl) => (to_uint v, tl)
                  | None => (allOnes, tl)
                  end in
  let '(f, r) := readFilter (c_mipFilter c) tl in
  Go (set_mipFilter f (set_mipLevels n c)) r.

(** -M, CommandLine.cpp 1045-1092. *)
Definition do_custommip (c : cl) (tl : list string) : outcome :=
  match tl with
  | _ :: _ :: _ =>
      match readIndex tl with
      | None => Stop
      | Some (level, tl) =>
          let '(depth, tl) := match readIndex tl with Some p => p | None => (0, tl) end in
          let '(face, tl) := match readCubeFace tl with Some p => p | None => (0, tl) end in
          let '(repl, tl) := match readMipReplace tl with Some p => p | None => (Continue, tl) end in
          match tl with
          | [] => Stop
          | a :: r =>
              match emplace (Index face (to_uint level) (to_uint depth)) (a, repl) (c_customMips c) with
              | None => Stop
              | Some m => Go (set_customMips m c) r
              end
          end
      end
  | _ => Stop
  end.

(** --custom-mip-list, CommandLine.cpp 1093-1108. *)
Definition do_custommiplist (c : cl) (tl : list string) : outcome :=
  match tl with
  | [] => Stop
  | f :: r =>
      match file f with
      | None => Stop
      | Some content =>
          match customMipList_loop (S (S (String.length content))) (Stream content true)
                                   (c_customMips c) with
          | None => Stop (* not reached: the fuel suffices *)
          | Some None => Stop
          | Some (Some m) => Go (set_customMips m c) r
          end
      end
  end.

(** --rotate, CommandLine.cpp 1113-1164; C++ division and remainder truncate. *)
Definition do_rotate (c : cl) (tl : list string) : outcome :=
  match tl with
  | [] => Stop
  | a :: r =>
      let (v, e) := strtol a in
      if negb e || negb (Z.rem v 90 =? 0)%Z then Stop
      else match Z.rem (Z.quot v 90) 4 with
           | (-3)%Z => Go (set_rotateAngle CCW270 (set_rotate true c)) r
           | (-2)%Z => Go (set_rotateAngle CCW180 (set_rotate true c)) r
           | (-1)%Z => Go (set_rotateAngle CCW90 (set_rotate true c)) r
           | 0%Z => Go (set_rotate false c) r
           | 1%Z => Go (set_rotateAngle CW90 (set_rotate true c)) r
           | 2%Z => Go (set_rotateAngle CW180 (set_rotate true c)) r
           | 3%Z => Go (set_rotateAngle CW270 (set_rotate true c)) r
           | _ => Go c r
           end
  end.

(** -n, CommandLine.cpp 1165-1197. *)
Definition do_normalmap (c : cl) (tl : list string) : outcome :=
  let c := set_normalMap true c in
  let '(c, tl) :=
    match tl with
    | [] => (c, tl)
    | a :: r => if caseeq a "wrap" then (set_normalOptions 6 c, r)
                else if caseeq a "wrapx" then (set_normalOptions 2 c, r)
                else if caseeq a "wrapy" then (set_normalOptions 4 c, r)
                else (c, tl)
    end in
  match tl with
  | [] => Go c tl
  | a :: r => if isnum a then Go (set_normalHeight (Some a) c) r else Go c tl
  end.

(** -s, CommandLine.cpp 1200-1242. *)
Definition do_swizzle (c : cl) (tl : list string) : outcome :=
  match tl with
  | [] => Stop
  | String c0 (String c1 (String c2 (String c3 EmptyString))) :: rest =>
      match readChannel c0, readChannel c1, readChannel c2, readChannel c3 with
      | Some r, Some g, Some b, Some a =>
          let c := set_redSwzl r (set_greenSwzl g (set_blueSwzl b (set_alphaSwzl a
                     (set_swizzle true c)))) in
          let c := match r with Ch_None => set_maskR false c | _ => c end in
          let c := match g with Ch_None => set_maskG false c | _ => c end in
          let c := match b with Ch_None => set_maskB false c | _ => c end in
          let c := match a with Ch_None => set_maskA false c | _ => c end in
          Go (if negb (c_alphaSet c) && negb (c_maskA c) then set_alph AlphaNone c else c) rest
      | _, _, _, _ => Stop
      end
  | _ => Stop
  end.

(** --pre-multiply, CommandLine.cpp 1245-1250. *)
Definition do_premultiply (c : cl) (tl : list string) : outcome :=
  let c := set_preMultiply true c in
  Go (if negb (c_alphaSet c) && c_maskA c then set_alph AlphaPreMultiplied c else c) tl.

(** -d, CommandLine.cpp 1251-1273. *)
Definition do_dimension (c : cl) (tl : list string) : outcome :=
  match tl with
  | [] => Stop
  | a :: r => if String.eqb a "1" then Go (set_dim Dim1D c) r
              else if String.eqb a "2" then Go (set_dim Dim2D c) r
              else if String.eqb a "3" then Go (set_dim Dim3D c) r
              else Stop
  end.

(** The search for a format name, CommandLine.cpp 1285-1292. *)
Fixpoint find_format (m : list (format * string)) (a : string) : option format :=
  match m with
  | [] => None
  | (f, n) :: t => if caseeq n a then Some f else find_format t a
  end.

(** -f, CommandLine.cpp 1274-1310. *)
Definition do_format (c : cl) (tl : list string) : outcome :=
  match tl with
  | [] => Stop
  | a :: r =>
      let c := match find_format (formatMap fl) a with Some f => set_fmt f c | None => c end in
      match c_fmt c with
      | F_Unknown => Stop
      | f => Go (if negb typeSet then
                   match f with
                   | F_B10G11R11_UFloat | F_E5B9G9R9_UFloat | F_BC6H => set_ttyp T_UFloat c
                   | _ => c
                   end
                 else c) r
      end
  end.

(** -t, CommandLine.cpp 1311-1339. *)
Definition do_type (c : cl) (tl : list string) : outcome :=
  match tl with
  | [] => Stop
  | a :: r => if caseeq a "unorm" then Go (set_ttyp T_UNorm c) r
              else if caseeq a "snorm" then Go (set_ttyp T_SNorm c) r
              else if caseeq a "uint" then Go (set_ttyp T_UInt c) r
              else if caseeq a "int" then Go (set_ttyp T_Int c) r
              else if caseeq a "ufloat" then Go (set_ttyp T_UFloat c) r
              else if caseeq a "float" then Go (set_ttyp T_Float c) r
              else Stop
  end.

(** --alpha, CommandLine.cpp 1340-1365. *)
Definition do_alpha (c : cl) (tl : list string) : outcome :=
  match tl with
  | [] => Stop
  | a :: r =>
      let c := set_alphaSet true c in
      if caseeq a "none" then Go (set_alph AlphaNone c) r
      else if caseeq a "standard" then Go (set_alph AlphaStandard c) r
      else if caseeq a "pre-multiplied" then Go (set_alph AlphaPreMultiplied c) r
      else if caseeq a "encoded" then Go (set_alph AlphaEncoded c) r
      else Stop
  end.

(** -Q, CommandLine.cpp 1366-1392. *)
Definition do_quality (c : cl) (tl : list string) : outcome :=
  match tl with
  | [] => Stop
  | a :: r => if caseeq a "lowest" then Go (set_quality Q_Lowest c) r
              else if caseeq a "low" then Go (set_quality Q_Low c) r
              else if caseeq a "normal" then Go (set_quality Q_Normal c) r
              else if caseeq a "high" then Go (set_quality Q_High c) r
              else if caseeq a "highest" then Go (set_quality Q_Highest c) r
              else Stop
  end.

(** -o, CommandLine.cpp 1393-1410. *)
Definition do_output (c : cl) (tl : list string) : outcome :=
  match tl with
  | [] => Stop
  | a :: r => match c_output c with
              | Some _ => Stop
              | None => Go (set_output (Some a) c) r
              end
  end.

(** --file-format, CommandLine.cpp 1411-1433. *)
Definition do_fileformat (c : cl) (tl : list string) : outcome :=
  match tl with
  | [] => Stop
  | a :: r => if caseeq a "dds" then Go (set_ftype FT_DDS c) r
              else if caseeq a "ktx" then Go (set_ftype FT_KTX c) r
              else if caseeq a "pvr" then Go (set_ftype FT_PVR c) r
              else Stop
  end.

(** One iteration of the loop of parse, CommandLine.cpp 821-1441. *)
Definition step (c : cl) (h : string) (tl : list string) : outcome :=
  match classify h with
  | None => Go (set_success false c) tl          (* 1436-1440: unknown option, no break *)
  | Some O_jobs => do_jobs c tl
  | Some O_quiet => Go (set_log Log_Quiet c) tl
  | Some O_verbose => Go (set_log Log_Verbose c) tl
  | Some O_input => do_input c tl
  | Some O_array => do_array c tl
  | Some O_cube => do_cube c tl
  | Some O_cubearray => do_cubearray c tl
  | Some O_inputlist => do_inputlist c tl
  | Some O_resize => do_resize c tl
  | Some O_mipmap => do_mipmap c tl
  | Some O_custommip => do_custommip c tl
  | Some O_custommiplist => do_custommiplist c tl
  | Some O_flipx => Go (set_flipX true c) tl
  | Some O_flipy => Go (set_flipY true c) tl
  | Some O_rotate => do_rotate c tl
  | Some O_normalmap => do_normalmap c tl
  | Some O_grayscale => Go (set_grayscale true c) tl
  | Some O_swizzle => do_swizzle c tl
  | Some O_srgb => Go (set_imageCS CS_sRGB (set_textureCS CS_sRGB c)) tl
  | Some O_premultiply => do_premultiply c tl
  | Some O_dimension => do_dimension c tl
  | Some O_format => do_format c tl
  | Some O_type => do_type c tl
  | Some O_alpha => do_alpha c tl
  | Some O_quality => do_quality c tl
  | Some O_output => do_output c tl
  | Some O_fileformat => do_fileformat c tl
  | Some O_createdir => Go (set_createOutputDir true c) tl
  end.

(** The result of parse: the configuration (returns true), false, undefined behaviour, an
    exception, or the model ran out of fuel. *)
Inductive presult := POk (c : cl) | PFalse | PUndef (u : ub) | PThrow | PFuel.

(** The loop over the arguments, CommandLine.cpp 821-1441: [inl] the configuration at its
    end, [inr] when it was left by a break or otherwise. *)
Fixpoint loop (fuel : nat) (c : cl) (args : list string) : cl + presult :=
  match fuel with
  | O => inr PFuel
  | S fuel =>
      match args with
      | [] => inl c
      | h :: tl =>
          match step c h tl with
          | Go c rest => loop fuel c rest
          | Stop => inr PFalse
          | Undefined u => inr (PUndef u)
          | Throw => inr PThrow
          end
      end
  end.

(** * Validation *)

(** The order in which the unordered_map visits its elements. *)
Variable visit : list (index * (string * replacement)) -> list (index * (string * replacement)).

(** Assigning to a growing vector of counters: ++levelDepthCounts[level]. *)
Definition count_up (level : N) (counts : list N) : list N :=
  let counts := counts ++ repeat 0 (S (N.to_nat level) - length counts) in
  upd (N.to_nat level) (nth (N.to_nat level) counts 0 + 1) counts.

(** The loop over the custom mips, CommandLine.cpp 749-774: [inl] the counters. *)
Fixpoint check_mips (dim3 : bool) (depth : N) (l : list (index * (string * replacement)))
  (counts : list N) : list N + presult :=
  match l with
  | [] => inl counts
  | (k, _) :: t =>
      if x_level k =? 0 then inr PFalse
      else if dim3 then
        if 32 <=? x_level k then inr (PUndef UB_shift)
        else
          let thisDepth := N.max (N.shiftr depth (x_level k)) 1 in
          let counts := count_up (x_level k) counts in
          if thisDepth <=? x_depth k then inr PFalse else check_mips dim3 depth t counts
      else if depth <=? x_depth k then inr PFalse else check_mips dim3 depth t counts
  end.

(** The last loop of validate, CommandLine.cpp 777-788; level [i] is at the head of [counts]. *)
Fixpoint check_counts (depth : N) (i : N) (counts : list N) : bool :=
  match counts with
  | [] => true
  | n :: t =>
      let thisDepth := N.max (N.shiftr depth i) 1 in
      if (0 <? n) && negb (n =? thisDepth) then false else check_counts depth (i + 1) t
  end.

(** The switch on the kind of input, CommandLine.cpp 632-677. *)
Definition check_kind (c : cl) : option cl :=
  let n := N.of_nat (length (c_images c)) in
  match c_imageType c with
  | IT_Image => if negb (n =? 1) then None else Some c
  | IT_Array => Some c
  | IT_Cube => if negb (n =? 6) then None
               else match c_dim c with Dim2D => Some (set_dim Cube c) | _ => None end
  | IT_CubeArray => if negb (n mod 6 =? 0) then None
                    else match c_dim c with Dim2D => Some (set_dim Cube c) | _ => None end
  end.

(** validate, CommandLine.cpp 624-793; the warning at 720-742 is in MessagesModel.v. *)
Definition validate (c : cl) : presult :=
  match c_images c with
  | [] => PFalse
  | _ =>
  match check_kind c with
  | None => PFalse
  | Some c =>
  if existsb is_empty (c_images c) then PFalse
  else match c_fmt c with
  | F_Unknown => PFalse
  | _ =>
  match c_output c with
  | None => PFalse
  | Some out =>
  let c := match c_ftype c with FT_Auto => set_ftype (fileType (codes out)) c | _ => c end in
  match c_ftype c with
  | FT_Auto => PFalse
  | _ =>
  if negb (isFormatValidFile fl (c_fmt c) (c_ttyp c) (c_ftype c)) then PFalse
  else
  let c := match c_textureCS c with
           | CS_sRGB => if negb (hasNativeSRGB (c_fmt c) (c_ttyp c)) then set_textureCS CS_Linear c
                        else c
           | CS_Linear => c
           end in
  if (c_mipLevels c <=? 1) && (match c_customMips c with [] => false | _ => true end) then PFalse
  else
  let depth := to_uint (N.of_nat (length (c_images c))) in
  match check_mips (is_dim3d (c_dim c)) depth (visit (c_customMips c)) [] with
  | inr r => r
  | inl counts => if check_counts depth 0 counts then POk c else PFalse
  end
  end end end end end.

(** CommandLine::parse, CommandLine.cpp 797-1449; [args] are argv[1], argv[2], ... *)
Definition parse (args : list string) : presult :=
  match args with
  | [] => PFalse                                             (* 799-803 *)
  | _ =>
      if existsb (fun a => matches a "-h" "--help") args then PFalse   (* 806-813 *)
      else match loop (S (length args)) cl0 args with
           | inl c => if c_success c then validate c else PFalse
           | inr r => r
           end
  end.
End Parse.

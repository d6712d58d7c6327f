(** How each uncompressed converter turns one RGBA pixel (four [float]s) into bytes.
    Hosts are little-endian: a [std::uint16_t] or [std::uint32_t] is stored low byte first. *)

From Coq Require Import NArith ZArith List Bool.
From Flocq Require Import IEEE754.Binary IEEE754.Bits.
From Verif Require Import Base FormatModel FloatModel.
Import ListNotations.
Local Open Scope Z_scope.

(** [ColorRGBAf], lib/include/cuttlefish/Color.h. *)
Record rgba := Rgba { pr : float; pg : float; pb : float; pa : float }.

(** Third-party or hardware conversions to small floats: [glm::packHalf] /
    [_mm_cvtps_ph] (lib/src/HalfFloat.h:60-150), [glm::packF2x11_1x10],
    [glm::packF3x9_E1x5].  Arguments are the [float]s, results the packed words. *)
Record packers := Packers
  { pack_half : float -> N;
    pack_111110 : float -> float -> float -> N;
    pack_9995 : float -> float -> float -> N }.

(** [static_cast<T>(std::round(clamp(v, 0.0f, 1.0f)*maxVal))] with [T] an unsigned type of
    [tbits] bits: lib/src/StandardConverter.h:101-102 ([maxVal] is the largest [T]) and the
    channel expressions of lib/src/StandardConverter.cpp ([maxVal] a literal). *)
Definition unorm (tbits : N) (maxVal : Z) (v : float) : option Z :=
  cast_int 0 (2 ^ Z.of_N tbits - 1)
    (roundZ (fmul (clampf v (float_of_Z 0) (float_of_Z 1)) (float_of_Z maxVal))).

(** [static_cast<T>(std::round(clamp(v, 0.0f, 1.0f)))], the one-bit alpha of
    lib/src/StandardConverter.cpp:188, 213, 238. *)
Definition unorm1 (tbits : N) (v : float) : option Z :=
  cast_int 0 (2 ^ Z.of_N tbits - 1) (roundZ (clampf v (float_of_Z 0) (float_of_Z 1))).

(** [static_cast<T>(std::round(clamp(v, -1.0f, 1.0f)*maxVal))] with [T] a signed type of
    [tbits] bits, lib/src/StandardConverter.h:142-143. *)
Definition snorm (tbits : N) (v : float) : option Z :=
  let maxVal := 2 ^ (Z.of_N tbits - 1) - 1 in
  cast_int (- 2 ^ (Z.of_N tbits - 1)) maxVal
    (roundZ (fmul (clampf v (float_of_Z (-1)) (float_of_Z 1)) (float_of_Z maxVal))).

(** Range of the integer type of a channel. *)
Definition int_min (signed : bool) (tbits : N) : Z := if signed then - 2 ^ (Z.of_N tbits - 1) else 0.
Definition int_max (signed : bool) (tbits : N) : Z :=
  if signed then 2 ^ (Z.of_N tbits - 1) - 1 else 2 ^ Z.of_N tbits - 1.

(** [static_cast<T>(std::round(clamp(v, minVal, maxVal)))] with [minVal] and [maxVal] the
    range of [T] converted to [float], lib/src/StandardConverter.h:166-167 and 185-186. *)
Definition intconv (signed : bool) (tbits : N) (v : float) : option Z :=
  cast_int (int_min signed tbits) (int_max signed tbits)
    (roundZ (clampf v (float_of_Z (int_min signed tbits)) (float_of_Z (int_max signed tbits)))).

(** [static_cast<std::uint32_t>(std::round(clamp(v, 0, maxVal)))],
    lib/src/StandardConverter.cpp:367-370 and 417-420. *)
Definition uint_to (maxVal : Z) (v : float) : option Z :=
  cast_int 0 (2 ^ 32 - 1) (roundZ (clampf v (float_of_Z 0) (float_of_Z maxVal))).

(** The bytes of an integer of a type with [n] bytes (two's complement). *)
Definition int_bytes (n : nat) (z : Z) : list N :=
  le_bytes n (Z.to_N (z mod 2 ^ (8 * Z.of_nat n))).

(** The first [n] channels in memory order ([scanline[col*4 + c]], [c < C]). *)
Definition channels (n : N) (p : rgba) : list float :=
  firstn (N.to_nat n) [pr p; pg p; pb p; pa p].

(** One integer per channel, each stored with [tbits] bits. *)
Definition each (tbits : N) (f : float -> option Z) (n : N) (p : rgba) : option (list N) :=
  obind (omap f (channels n p)) (fun zs =>
    Some (concat (map (int_bytes (N.to_nat (tbits / 8))) zs))).

(** A masked channel of a packed word: [static_cast<T>(...) & mask]. *)
Definition un (tbits : N) (mask : Z) (v : float) : option Z :=
  obind (unorm tbits mask v) (fun k => Some (Z.land k mask)).

(** The word is stored through a [std::uint8_t*], [std::uint16_t*] or [std::uint32_t*]:
    [static_cast<T>(word)]. *)
Definition word (n : nat) (z : Z) : option (list N) := Some (int_bytes n z).

Local Notation "x <- e ;; f" := (obind e (fun x => f)) (at level 60, right associativity).
Local Infix "||" := Z.lor.
Local Infix "<<" := Z.shiftl (at level 30).

(** The body of the loop of [process] of each converter: lib/src/StandardConverter.h
    101-102 (UNorm), 142-143 (SNorm), 185-186 (Int), 224-225 (Float), 262-263 and 290-306
    (Half), and the ranges of lib/src/StandardConverter.cpp given at each case. *)
Definition enc_px (pk : packers) (c : converter) (p : rgba) : option (list N) :=
  let '(Rgba R G B A) := p in
  match c with
  | CvUNorm bits n => each bits (unorm bits (2 ^ Z.of_N bits - 1)) n p
  | CvSNorm bits n => each bits (snorm bits) n p
  | CvInt s bits n => each bits (intconv s bits) n p
  | CvFloat n => Some (concat (map (fun v => int_bytes 4 (bits_of_b32 v)) (channels n p)))
  | CvHalf n => Some (concat (map (fun v => int_bytes 2 (Z.of_N (pack_half pk v))) (channels n p)))
  | CvR4G4 =>                                                             (* cpp:39-41 *)
      r <- un 8 15 R ;; g <- un 8 15 G ;;
      word 1 (g || (r << 4))
  | CvR4G4B4A4 =>                                                         (* cpp:62-66 *)
      r <- un 16 15 R ;; g <- un 16 15 G ;; b <- un 16 15 B ;; a <- un 16 15 A ;;
      word 2 (a || (b << 4) || (g << 8) || (r << 12))
  | CvB4G4R4A4 =>                                                         (* cpp:87-91 *)
      r <- un 16 15 R ;; g <- un 16 15 G ;; b <- un 16 15 B ;; a <- un 16 15 A ;;
      word 2 (a || (r << 4) || (g << 8) || (b << 12))
  | CvA4R4G4B4 =>                                                         (* cpp:112-116 *)
      r <- un 16 15 R ;; g <- un 16 15 G ;; b <- un 16 15 B ;; a <- un 16 15 A ;;
      word 2 (b || (g << 4) || (r << 8) || (a << 12))
  | CvR5G6B5 =>                                                           (* cpp:137-140 *)
      r <- un 16 31 R ;; g <- un 16 63 G ;; b <- un 16 31 B ;;
      word 2 (b || (g << 5) || (r << 11))
  | CvB5G6R5 =>                                                           (* cpp:161-164 *)
      r <- un 16 31 R ;; g <- un 16 63 G ;; b <- un 16 31 B ;;
      word 2 (r || (g << 5) || (b << 11))
  | CvR5G5B5A1 =>                                                         (* cpp:185-189 *)
      r <- un 16 31 R ;; g <- un 16 31 G ;; b <- un 16 31 B ;; a <- unorm1 16 A ;;
      word 2 (a || (b << 1) || (g << 6) || (r << 11))
  | CvB5G5R5A1 =>                                                         (* cpp:210-214 *)
      r <- un 16 31 R ;; g <- un 16 31 G ;; b <- un 16 31 B ;; a <- unorm1 16 A ;;
      word 2 (a || (r << 1) || (g << 6) || (b << 11))
  | CvA1R5G5B5 =>                                                         (* cpp:235-239 *)
      r <- un 16 31 R ;; g <- un 16 31 G ;; b <- un 16 31 B ;; a <- unorm1 16 A ;;
      word 2 (b || (g << 5) || (r << 10) || (a << 15))
  | CvB8G8R8 =>                                                           (* cpp:260-265 *)
      b <- unorm 8 255 B ;; g <- unorm 8 255 G ;; r <- unorm 8 255 R ;;
      Some (int_bytes 1 b ++ int_bytes 1 g ++ int_bytes 1 r)
  | CvB8G8R8A8 =>                                                         (* cpp:286-293 *)
      b <- unorm 8 255 B ;; g <- unorm 8 255 G ;; r <- unorm 8 255 R ;; a <- unorm 8 255 A ;;
      Some (int_bytes 1 b ++ int_bytes 1 g ++ int_bytes 1 r ++ int_bytes 1 a)
  | CvA8B8G8R8 =>                                                         (* cpp:314-321 *)
      a <- unorm 8 255 A ;; b <- unorm 8 255 B ;; g <- unorm 8 255 G ;; r <- unorm 8 255 R ;;
      Some (int_bytes 1 a ++ int_bytes 1 b ++ int_bytes 1 g ++ int_bytes 1 r)
  | CvA2R10G10B10UNorm =>                                                 (* cpp:342-346 *)
      r <- un 32 1023 R ;; g <- un 32 1023 G ;; b <- un 32 1023 B ;; a <- un 32 3 A ;;
      word 4 (b || (g << 10) || (r << 20) || (a << 30))
  | CvA2R10G10B10UInt =>                                                  (* cpp:367-371 *)
      r <- uint_to 1023 R ;; g <- uint_to 1023 G ;; b <- uint_to 1023 B ;; a <- uint_to 3 A ;;
      word 4 (b || (g << 10) || (r << 20) || (a << 30))
  | CvA2B10G10R10UNorm =>                                                 (* cpp:392-396 *)
      r <- un 32 1023 R ;; g <- un 32 1023 G ;; b <- un 32 1023 B ;; a <- un 32 3 A ;;
      word 4 (r || (g << 10) || (b << 20) || (a << 30))
  | CvA2B10G10R10UInt =>                                                  (* cpp:417-421 *)
      r <- uint_to 1023 R ;; g <- uint_to 1023 G ;; b <- uint_to 1023 B ;; a <- uint_to 3 A ;;
      word 4 (r || (g << 10) || (b << 20) || (a << 30))
  | CvB10R11R11UFloat => word 4 (Z.of_N (pack_111110 pk R G B))           (* cpp:442 *)
  | CvE5B9G9R9UFloat => word 4 (Z.of_N (pack_9995 pk R G B))              (* cpp:463 *)
  | _ => None                                     (* not an uncompressed converter *)
  end.

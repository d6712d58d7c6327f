(** Independent readers for the three containers, written from their public documentation
    (the DDS header with its DX10 extension, KTX 1.1, PVR v3), and what an output stream
    may do.  Nothing here refers to the writers. *)
From Coq Require Import NArith List Bool.
From Verif Require Import Base FormatModel FormatSpec ContainerSpec TextureModel TextureSpec.
Import ListNotations.
Local Open Scope N_scope.

(** * Output streams *)

(** What the writers may assume about a stream.  [out] is what has reached its destination,
    [acc] what the stream has accepted so far (more than [out] if it buffers).  A write
    either leaves the stream good, and then it has been accepted in full, or leaves it not
    good, and then some prefix of everything sent has been delivered.  A stream that is not
    good ignores writes. *)
Record stream_ok {S} (put : S -> list N -> S) (good : S -> bool) (acc out : S -> list N) : Prop := {
  st_prefix : forall s, good s = true -> exists q, acc s = out s ++ q;
  st_write : forall s bs, good s = true ->
    (good (put s bs) = true /\ acc (put s bs) = acc s ++ bs) \/
    (good (put s bs) = false /\ exists q, acc s ++ bs = out (put s bs) ++ q);
  st_dead : forall s bs, good s = false -> good (put s bs) = false /\ out (put s bs) = out s
}.

(** A stream that takes [room] more bytes and then fails, possibly in the middle of a write. *)
Record sink := Sink { k_out : list N; k_room : N; k_good : bool }.
Definition sink_put (s : sink) (bs : list N) : sink :=
  if k_good s then
    if N.of_nat (length bs) <=? k_room s
    then Sink (k_out s ++ bs) (k_room s - N.of_nat (length bs)) true
    else Sink (k_out s ++ firstn (N.to_nat (k_room s)) bs) 0 false
  else s.

(** * Parsing *)

Definition parser (A : Type) : Type := list N -> option (A * list N).
Definition pret {A} (a : A) : parser A := fun bs => Some (a, bs).
Definition pbind {A B} (p : parser A) (f : A -> parser B) : parser B :=
  fun bs => match p bs with Some (a, r) => f a r | None => None end.
Notation "x <- p ; q" := (pbind p (fun x => q)) (at level 61, p at next level, right associativity).
Definition guard (b : bool) : parser unit := fun bs => if b then Some (tt, bs) else None.
(** The next [n] bytes. *)
Definition ptake (n : N) : parser (list N) := fun bs =>
  if n <=? N.of_nat (length bs)
  then Some (firstn (N.to_nat n) bs, skipn (N.to_nat n) bs) else None.
(** Little-endian words. *)
Definition pu32 : parser N := b <- ptake 4 ; pret (le_val b).
Definition pu64 : parser N := b <- ptake 8 ; pret (le_val b).
Fixpoint plist {A} (ps : list (parser A)) : parser (list A) :=
  match ps with
  | [] => pret []
  | p :: r => a <- p ; l <- plist r ; pret (a :: l)
  end.
Definition pfor {A} (n : N) (body : N -> parser A) : parser (list A) :=
  plist (map body (Nrange n)).
Definition peof : parser unit := fun bs => match bs with [] => Some (tt, []) | _ => None end.

Fixpoint list_eqN (a b : list N) : bool :=
  match a, b with
  | [], [] => true
  | x :: a', y :: b' => (x =? y) && list_eqN a' b'
  | _, _ => false
  end.

Definition flag (v mask : N) : bool := N.land v mask =? mask.

(** Extent of a mip level. *)
Definition mip (n m : N) : N := N.max 1 (n / 2 ^ m).

(** * Surface sizes *)

Definition pvrtc_format (f : format) : bool :=
  existsb (format_eqb f)
    [F_PVRTC1_RGB_2BPP; F_PVRTC1_RGBA_2BPP; F_PVRTC1_RGB_4BPP; F_PVRTC1_RGBA_4BPP;
     F_PVRTC2_RGBA_2BPP; F_PVRTC2_RGBA_4BPP].

(** Bytes of one [w] x [h] surface.  The size of PVRTC data is the external encoder's
    business and is given by [psize]. *)
Definition surface_bytes (psize : format -> N -> N -> N) (f : format) (w h : N) : N :=
  if pvrtc_format f then psize f w h
  else let '(bw, bh, bs) := spec_block f in cdiv w bw * cdiv h bh * bs.

(** Every surface of a texture has the size its format demands (C02). *)
Definition sized {C} (psize : format -> N -> N -> N) (t : texture C) : Prop :=
  forall f m d b, in_range t f m d -> dataF t f m d = Some (Some b) ->
    exists g, formatOf t = Some g /\
      N.of_nat (length b) = surface_bytes psize g (width t m) (height t m).

(** An encoder that produces surfaces of that size. *)
Definition enc_sized {C} (psize : format -> N -> N -> N)
  (enc : converter -> convargs -> image C -> list N) : Prop :=
  forall fl a cv img, createConverter fl (ca_format a) (ca_type a) = Some cv ->
    isValid img = true ->
    N.of_nat (length (enc cv a img)) = surface_bytes psize (ca_format a) (iwidth img) (iheight img).

(** * DDS *)

(** Pixels per block and bytes per block. *)
Definition desc_block (d : pixdesc) : option (N * N * N) :=
  match d with
  | LsbFirst l => Some (1, 1, layout_bits l / 8)
  | OneOf (f :: _) => Some (spec_block f)
  | OneOf [] => None
  end.

Record dds_file := DdsFile {
  dd_dim : dimension; dd_width : N; dd_height : N; dd_depth : N; dd_levels : N; dd_array : N;
  dd_pitch : option N;   (* bytes from one row (of blocks) of the first level to the next *)
  dd_complex : bool;   (* "must be set on any file that contains more than one surface" *)
  dd_mipmap : bool;
  dd_alpha : N; dd_pixels : pixdesc; dd_type : ttype; dd_space : colorspace;
  dd_surfaces : list (list (list (list (list N))))   (* element, face, level, slice *)
}.

Definition read_dds : parser dds_file :=
  magic <- pu32 ; _ <- guard (magic =? 0x20534444) ;              (* "DDS " *)
  size <- pu32 ; _ <- guard (size =? 124) ;
  flags <- pu32 ; _ <- guard (flag flags 0x1007) ;                (* caps, height, width, format *)
  height <- pu32 ; width <- pu32 ; pitch <- pu32 ;
  depth <- pu32 ; mips <- pu32 ; _ <- ptake 44 ;
  psz <- pu32 ; _ <- guard (psz =? 32) ;
  pflags <- pu32 ; _ <- guard (flag pflags 0x4) ;                 (* FourCC is valid *)
  fourcc <- ptake 4 ; _ <- guard (le_val fourcc =? 0x30315844) ;  (* "DX10" *)
  _ <- ptake 20 ;
  caps <- pu32 ; _ <- guard (flag caps 0x1000) ;                  (* texture *)
  caps2 <- pu32 ; _ <- ptake 12 ;
  code <- pu32 ; resource <- pu32 ; misc <- pu32 ; array <- pu32 ; misc2 <- pu32 ;
  let cube := flag misc 0x4 in
  let volume := resource =? 4 in
  _ <- guard ((2 <=? resource) && (resource <=? 4)) ;
  _ <- guard (implb cube ((resource =? 3) && flag caps2 0xFE00)) ;
  _ <- guard (implb volume (flag flags 0x800000 && flag caps2 0x200000 && (array =? 1))) ;
  let levels := if flag flags 0x20000 then mips else 1 in
  let depth := if volume then depth else 1 in
  match lookup code dxgi_table with
  | None => fun _ => None
  | Some (desc, ty, space) =>
      match desc_block desc with
      | None => fun _ => None
      | Some (bw, bh, bs) =>
          surfaces <- pfor array (fun _ =>
            pfor (if cube then 6 else 1) (fun _ =>
            pfor levels (fun m =>
            pfor (if volume then mip depth m else 1) (fun _ =>
            ptake (cdiv (mip width m) bw * cdiv (mip height m) bh * bs))))) ;
          _ <- peof ;
          pret (DdsFile (if resource =? 2 then Dim1D else if resource =? 3
                         then (if cube then Cube else Dim2D) else Dim3D)
                        width height depth levels array
                        (if flag flags 0x8 then Some pitch else None)
                        (flag caps 0x8) (flag caps 0x400000) misc2 desc ty space surfaces)
      end
  end.

Definition nth4 {A} (l : list (list (list (list A)))) (a b c d : N) : option A :=
  obind (nthN l a) (fun l => obind (nthN l b) (fun l => obind (nthN l c) (fun l => nthN l d))).

(** DXGI alpha modes: straight, pre-multiplied, opaque, custom. *)
Definition dds_alpha_mode (has_alpha : bool) (a : alpha) : N :=
  if has_alpha then match a with
                    | AlphaNone => 3 | AlphaStandard => 1 | AlphaPreMultiplied => 2
                    | AlphaEncoded => 4 end
  else 3.

(** * KTX *)

Definition round4 (n : N) : N := cdiv n 4 * 4.

(** Bytes per texel of an uncompressed (glType, glFormat) pair. *)
Definition gl_texel_bytes (glType glFormat : N) : option N :=
  obind (lookup glType gl_types) (fun ty =>
  obind (lookup glFormat gl_formats) (fun cs =>
  Some (layout_bits (gl_lsb (fst cs) ty) / 8))).

(** Bytes one surface takes in a KTX file, and a whole level: rows of uncompressed formats are
    padded. *)
Definition ktx_surface (psize : format -> N -> N -> N) (f : format) (w h : N) : N :=
  let '(bw, _, bs) := spec_block f in
  if bw =? 1 then round4 (w * bs) * h else surface_bytes psize f w h.
Definition ktx_level_bytes {C} (psize : format -> N -> N -> N) (t : texture C) (m : N) : N :=
  match formatOf t with
  | Some f => depth t m * faceCount t * ktx_surface psize f (width t m) (height t m)
  | None => 0
  end.

Record ktx_file := KtxFile {
  kx_type : N; kx_type_size : N; kx_format : N; kx_internal : N; kx_base : N;
  kx_width : N; kx_height : N; kx_depth : N; kx_array : N; kx_faces : N; kx_levels : N;
  kx_kv : list N;
  kx_surfaces : list (list (list (list (list N))))   (* level, element, face, slice *)
}.

(** One level: its size, then elements, faces and slices.  Rows of uncompressed data are
    padded to four bytes; so is each face of a non-array cube map, and each level. *)
Definition read_ktx_level (texel : option N) (w h slices elements faces : N) (array : bool)
  : parser (list (list (list (list N)))) :=
  size <- pu32 ;
  let lone_cube := negb array && (faces =? 6) in
  let total := if lone_cube then 6 * size else size in
  let count := elements * faces * slices in
  _ <- guard (match texel with
              | Some b => total =? count * (round4 (w * b) * h)
              | None => total mod count =? 0
              end) ;
  l <- pfor elements (fun _ =>
    pfor faces (fun _ =>
      surfaces <- pfor slices (fun _ =>
        match texel with
        | Some b =>
            rows <- pfor h (fun _ =>
              row <- ptake (w * b) ; _ <- ptake (round4 (w * b) - w * b) ; pret row) ;
            pret (concat rows)
        | None => ptake (total / count)
        end) ;
      _ <- ptake (if lone_cube then round4 size - size else 0) ;
      pret surfaces)) ;
  _ <- ptake (round4 size - size) ;
  pret l.

Definition read_ktx : parser ktx_file :=
  ident <- ptake 12 ;
  _ <- guard (list_eqN ident [171; 75; 84; 88; 32; 49; 49; 187; 13; 10; 26; 10]) ;
  endian <- pu32 ; _ <- guard (endian =? 0x04030201) ;
  glType <- pu32 ; glTypeSize <- pu32 ; glFormat <- pu32 ; glInternal <- pu32 ; glBase <- pu32 ;
  w <- pu32 ; h <- pu32 ; d <- pu32 ; array <- pu32 ; faces <- pu32 ; levels <- pu32 ;
  kvsize <- pu32 ; kv <- ptake kvsize ;
  _ <- guard ((faces =? 1) || (faces =? 6)) ;
  match (if glType =? 0 then Some None
         else match gl_texel_bytes glType glFormat with Some b => Some (Some b) | None => None end) with
  | None => fun _ => None
  | Some texel =>
      surfaces <- pfor levels (fun m =>
        read_ktx_level texel (mip w m) (mip (N.max 1 h) m) (mip (N.max 1 d) m)
                       (N.max 1 array) faces (negb (array =? 0))) ;
      _ <- peof ;
      pret (KtxFile glType glTypeSize glFormat glInternal glBase w h d array faces levels kv surfaces)
  end.

(** * PVR *)

Record pvr_file := PvrFile {
  pv_flags : N; pv_format : N; pv_space : N; pv_chan : N;
  pv_height : N; pv_width : N; pv_depth : N; pv_array : N; pv_faces : N; pv_levels : N;
  pv_meta : list (list N * list N * list N);         (* creator, key, data *)
  pv_surfaces : list (list (list (list (list N))))   (* level, element, face, slice *)
}.

(** Bytes of a surface, from the pixel format word: enumerated formats, or the sum of the
    channel bit counts in the high word. *)
Definition pvr_surface (psize : format -> N -> N -> N) (code w h : N) : option N :=
  if code / 2 ^ 32 =? 0 then
    match lookup code pvr_special with
    | Some (f :: _) => Some (surface_bytes psize f w h)
    | _ => None
    end
  else Some (w * h * ((code / 2^32 mod 256 + code / 2^40 mod 256 + code / 2^48 mod 256
                       + code / 2^56 mod 256) / 8)).

(** Metadata blocks: creator, key, size, data; they fill the metadata area. *)
Fixpoint read_meta (fuel : nat) (bs : list N) : option (list (list N * list N * list N)) :=
  match bs, fuel with
  | [], _ => Some []
  | _, O => None
  | _, S fuel' =>
      match (creator <- ptake 4 ; key <- ptake 4 ; n <- pu32 ; data <- ptake n ;
             pret (creator, key, data)) bs with
      | Some (b, r) => obind (read_meta fuel' r) (fun l => Some (b :: l))
      | None => None
      end
  end.

Definition read_pvr (psize : format -> N -> N -> N) : parser pvr_file :=
  version <- ptake 4 ; _ <- guard (list_eqN version [80; 86; 82; 3]) ;   (* "PVR\3" *)
  flags <- pu32 ; code <- pu64 ; space <- pu32 ; chan <- pu32 ;
  h <- pu32 ; w <- pu32 ; d <- pu32 ; array <- pu32 ; faces <- pu32 ; levels <- pu32 ;
  msize <- pu32 ; mbytes <- ptake msize ;
  match read_meta (length mbytes) mbytes with
  | None => fun _ => None
  | Some meta =>
      surfaces <- pfor levels (fun m =>
        pfor array (fun _ => pfor faces (fun _ => pfor (mip d m) (fun _ =>
        match pvr_surface psize code (mip w m) (mip h m) with
        | Some n => ptake n
        | None => fun _ => None
        end)))) ;
      _ <- peof ;
      pret (PvrFile flags code space chan h w d array faces levels meta surfaces)
  end.

(** "CTFS" *)
Definition ctfs : list N := [67; 84; 70; 83].

(** * File names *)

(** Same letters, ignoring case. *)
Definition same_letter (a b : N) : Prop :=
  a = b \/ (65 <= a <= 90 /\ b = a + 32) \/ (65 <= b <= 90 /\ a = b + 32).
Definition has_extension (name ext : list N) : Prop :=
  exists stem suffix, name = stem ++ suffix /\ Forall2 same_letter suffix ext.

(** What a run of the command line tool should produce, stated with the operations on single
    images (Image::convert, resize, ...) and with the contents of the resulting texture. *)
From Coq Require Import List NArith ZArith Bool String.
From Verif Require Import Base FormatModel TextureModel TextureSpec SaveModel ToolSpec CommandLineModel ToolModel
  PipelineModel.
Import ListNotations.
Local Open Scope list_scope.
Local Open Scope N_scope.
Local Notation length := List.length.

Section Spec.
Context {C : Type}.
Variable O : ops C.
Notation L := (o_lib O).

(** The image library does not run out of memory, and loaded images have sides between 1 and
    2^31 - 1 (FreeImage stores them as positive ints). *)
Record ops_ok : Prop := OpsOk {
  k_lib : lib_ok L;
  k_load : forall p f w h c, o_load O p = Some (f, w, h, c) -> 1 <= w < 2 ^ 31 /\ 1 <= h < 2 ^ 31;
  k_rotate : forall a f w h c, o_rotate O a f w h c <> None;
  k_normal : forall o ht f w h c, o_normal O o ht f w h c <> None
}.

(** The size asked for with --resize, for a first image of [w] x [h] (see C40 for the meaning of
    the numbers). *)
Definition asked (a : cl) (w h : N) : N * N :=
  (getDimension w w h (c_width a), getDimension h w h (c_height a)).

(** One side of a mip level. *)
Definition side (n level : N) : N := N.max 1 (n / 2 ^ level).

(** A quarter turn swaps the sides. *)
Definition quarter_turn (a : cl) : bool :=
  c_rotate a && match c_rotateAngle a with
                | CW90 | CW270 | CCW90 | CCW270 => true
                | CW180 | CCW180 => false
                end.
Definition turned (a : cl) (w h : N) : N * N := if quarter_turn a then (h, w) else (w, h).

(** A job in order; a step that was not asked for is skipped. *)
Definition carry_out (l : list (bool * (image C -> image C))) (i : image C) : image C :=
  fold_left (fun (i : image C) (s : bool * (image C -> image C)) => if fst s then snd s i else i) l i.

(** The normal map options of a job: the sign is kept for signed types. *)
Definition normal_bits (a : cl) : N :=
  match c_ttyp a with
  | T_SNorm | T_Int | T_Float => N.lor (c_normalOptions a) 1
  | T_UNorm | T_UInt | T_UFloat => c_normalOptions a
  end.

(** The steps by which the tool processes an input of format [f] for level [level] of a texture
    of the asked size [W] x [H].  A normal map is made at full size and then reduced. *)
Definition steps (a : cl) (f : imgfmt) (W H level : N) : list (bool * (image C -> image C)) :=
  let w := side W level in
  let h := side H level in
  let reduced := negb ((w =? W) && (h =? H)) in
  [(true, fun i => iconvert L i I_RGBAF);
   (true, fun i => ichange L i (c_textureCS a));
   (negb (c_normalMap a), fun i => iresize L i w h (c_resizeFilter a));
   (c_normalMap a, fun i => iresize L i W H (c_resizeFilter a));
   (c_rotate a, irotate O (c_rotateAngle a));
   (c_grayscale a, in_place (o_gray O));
   (c_normalMap a, inormal O (normal_bits a) (c_normalHeight a));
   (c_normalMap a && reduced, fun i => iresize L i w h (c_resizeFilter a));
   (c_flipX a, in_place (fun _ => o_flipx O));
   (c_flipY a, in_place (fun _ => o_flipy O));
   (c_swizzle a, in_place (fun _ => o_swizzle O (c_redSwzl a) (c_greenSwzl a) (c_blueSwzl a) (c_alphaSwzl a)));
   (c_preMultiply a, in_place (o_premul O));
   (true, iadjust O (c_ttyp a) (if c_normalMap a then I_RGBF else f))].

(** The processed image of a file; [None] if the file cannot be loaded. *)
Definition product (a : cl) (W H level : N) (path : string) : option (image C) :=
  match o_load O path with
  | None => None
  | Some (f, w, h, c) => Some (carry_out (steps a f W H level) (Img f w h (c_imageCS a) c))
  end.

(** Where the [k]-th input goes: its face and its layer (or slice). *)
Definition place (kind : imagetype) (k : N) : N * N :=
  match kind with
  | IT_Image => (0, 0)
  | IT_Array => (0, k)
  | IT_Cube => (k, 0)
  | IT_CubeArray => (k mod 6, k / 6)
  end.

(** The number of layers (slices for a volume). *)
Definition layers (a : cl) : N :=
  match c_imageType a with
  | IT_Image | IT_Cube => 1
  | IT_Array => N.of_nat (length (c_images a))
  | IT_CubeArray => N.of_nat (length (c_images a)) / 6
  end.

(** The custom images of a level of a volume all use the same replacement. *)
Definition single_mode (a : cl) : Prop :=
  c_dim a = Dim3D -> forall k p r k' p' r',
    In (k, (p, r)) (c_customMips a) -> In (k', (p', r')) (c_customMips a) ->
    x_level k = x_level k' -> r = r'.

(** The number of levels a texture of the asked size can have. *)
Definition most_levels (a : cl) (W H : N) : N :=
  maxMipmapLevels (c_dim a) W H (N.of_nat (length (c_images a))).

(** All files can be loaded, and the custom mips are for levels and faces that exist. *)
Definition inputs_ok (a : cl) : Prop :=
  (forall p, In p (c_images a) -> o_load O p <> None) /\
  forall p0 f w h c, nth_error (c_images a) 0 = Some p0 -> o_load O p0 = Some (f, w, h, c) ->
  forall k p r, In (k, (p, r)) (c_customMips a) ->
    o_load O p <> None /\
    x_level k < N.min (c_mipLevels a) (most_levels a (fst (asked a w h)) (snd (asked a w h))) /\
    (x_face k <> 0 -> c_dim a = Cube).

(** The processed images have pixels: a size of 0 is only taken as 1 if no normal map is made;
    and a volume needs slices. *)
Definition has_extent (a : cl) (W H : N) : Prop :=
  (c_normalMap a = true -> 1 <= W /\ 1 <= H) /\ (c_dim a = Dim3D -> c_imageType a = IT_Array).

(** The size of the texture. *)
Definition base_size (a : cl) (W H : N) : N * N := turned a (N.max 1 W) (N.max 1 H).

(** The custom mip given for an image of the texture. *)
Definition find_mip (l : list (index * (string * replacement))) (f m d : N)
  : option (index * (string * replacement)) :=
  find (fun e => (x_face (fst e) =? f) && (x_level (fst e) =? m) && (x_depth (fst e) =? d)) l.

(** The custom content of level [m] of layer [d] of face [f]: the processed file, brought to the
    size of the level. *)
Definition custom_content (a : cl) (W H : N) (t : texture C) (f d m : N)
  : option (image C * replacement) :=
  match find_mip (c_customMips a) f m d with
  | None => None
  | Some (_, (p, r)) =>
      match product a W H m p with
      | None => None
      | Some i => Some (iconvert L (iresize L i (width t m) (height t m) (c_mipFilter a)) I_RGBAF, r)
      end
  end.

(** The custom slices of level [m] of a volume. *)
Definition custom_volume (a : cl) (W H : N) (t : texture C) (m : N)
  : option (list (image C) * replacement) :=
  match custom_content a W H t 0 0 m with
  | None => None
  | Some (_, r) =>
      Some (map (fun d => match custom_content a W H t 0 d m with Some (i, _) => i | None => NoImage end)
                (Nrange (depth t m)), r)
  end.

(** No image of the last level is replaced "once" (see C13 for what happens otherwise). *)
Definition no_once_at_end (a : cl) (t : texture C) : Prop :=
  forall k p, In (k, (p, Once)) (c_customMips a) -> x_level k + 1 <> mipLevelCount t.

(** The texture that a command line asks for, when its first image makes the size [W] x [H].
    [encode] gives the bytes of one image in the format. *)
Record wanted (fl : flags) (encode : converter -> convargs -> image C -> list N)
  (a : cl) (W H : N) (t : texture C) : Prop := Wanted {
  w_dim : dimensionOf t = c_dim a;
  w_space : colorSpaceOf t = c_textureCS a;
  w_format : formatOf t = Some (c_fmt a);
  w_type : typeOf t = c_ttyp a;
  w_alpha : alphaOf t = c_alph a;
  w_mask : maskOf t = Mask (c_maskR a) (c_maskG a) (c_maskB a) (c_maskA a);
  w_array : isArray t = true <->
    c_dim a <> Dim3D /\ (c_imageType a = IT_Array \/ c_imageType a = IT_CubeArray);
  w_faces : faceCount t = match c_dim a with Cube => 6 | _ => 1 end;
  w_size : (width t 0, height t 0) = base_size a W H;
  w_depth : depth t 0 = layers a;
  w_levels : mipLevelCount t =
    N.min (N.max (c_mipLevels a) 1)
          (maxMipmapLevels (c_dim a) (N.max 1 W) (N.max 1 H) (layers a));
  w_extents : forall m, m < mipLevelCount t ->
    width t m = side (width t 0) m /\ height t m = side (height t 0) m /\
    depth t m = match c_dim a with Dim3D => side (layers a) m | _ => layers a end;
  w_data : exists cv, createConverter fl (c_fmt a) (c_ttyp a) = Some cv /\
    (* every input is the first level of its face and layer *)
    (forall k p i, nth_error (c_images a) k = Some p -> product a W H 0 p = Some i ->
       let '(f, d) := place (c_imageType a) (N.of_nat k) in
       f < faceCount t /\ d < depth t 0 /\
       dataF t f 0 d = Some (Some (encode cv (convert_args a) (iconvert L i I_RGBAF)))) /\
    (* a custom mip is the level it was given for *)
    (forall f m d i r, in_range t f m d -> custom_content a W H t f d m = Some (i, r) ->
       dataF t f m d = Some (Some (encode cv (convert_args a) i))) /\
    (* the other levels are made by resizing the previous one; after a level that was replaced
       "once", from what would have been there *)
    (c_dim a <> Dim3D -> no_once_at_end a t ->
     forall k p i, nth_error (c_images a) k = Some p -> product a W H 0 p = Some i ->
     forall m, m < mipLevelCount t ->
       let '(f, d) := place (c_imageType a) (N.of_nat k) in
       let base := iconvert L i I_RGBAF in
       dataF t f m d = Some (Some (encode cv (convert_args a)
         (fst (chain (fun n src => iresize L src (width t n) (height t n) (c_mipFilter a))
                     (custom_content a W H t f d) base base (N.to_nat m)))))) /\
    (* likewise for the slices of a volume *)
    (c_dim a = Dim3D ->
     forall bases, Forall2 (fun p b => exists i, product a W H 0 p = Some i /\ b = iconvert L i I_RGBAF)
                           (c_images a) bases ->
     forall m d, m < mipLevelCount t -> d < depth t m ->
       exists i, nthN (fst (chain (gen_slices L t (c_mipFilter a)) (custom_volume a W H t)
                                  bases bases (N.to_nat m))) d = Some i /\
       dataF t 0 m d = Some (Some (encode cv (convert_args a) i)))
}.

(** The [n]-th attempt to save texture [t] answers [r] and leaves [content] in the output file
    ([None]: untouched).  [room] is the space there is, [None] if the file cannot be opened.  An
    answer of Success is not enough to be sure of the whole file (C28), but what there is, is the
    beginning of the file that a save to memory makes. *)
Definition attempt (a : cl) (t : texture C) (room : option N) (r : saveresult)
  (content : option (list N)) : Prop :=
  exists file, save mem_put mem_good t (c_ftype a) [] = Some (SR_Success, file) /\
  match room with
  | None => r = SR_WriteError /\ content = None
  | Some n => content = Some (firstn (N.to_nat n) file) /\ (r = SR_Success \/ r = SR_WriteError) /\
              (N.of_nat (length file) <= n -> r = SR_Success)
  end.

(** What saving texture [t] leads to: an exit status and events. *)
Inductive saving (Y : sys) (a : cl) (path : list N) (t : texture C) : N -> list (tevent C) -> Prop :=
| saved c : attempt a t (y_room Y 0) SR_Success c -> saving Y a path t 0 [TvSave t SR_Success c]
| not_saved c : attempt a t (y_room Y 0) SR_WriteError c -> c_createOutputDir a = false ->
    saving Y a path t 3 [TvSave t SR_WriteError c]
| no_directory c pre p rest : attempt a t (y_room Y 0) SR_WriteError c -> c_createOutputDir a = true ->
    parents path = pre ++ p :: rest -> y_mkdir Y (N.of_nat (length pre)) p = MkError ->
    (forall i q, nth_error pre i = Some q -> y_mkdir Y (N.of_nat i) q <> MkError) ->
    saving Y a path t 3 (TvSave t SR_WriteError c :: map TvMkdir (pre ++ [p]))
| saved_again c r c' : attempt a t (y_room Y 0) SR_WriteError c -> c_createOutputDir a = true ->
    (forall i q, nth_error (parents path) i = Some q -> y_mkdir Y (N.of_nat i) q <> MkError) ->
    attempt a t (y_room Y 1) r c' ->
    saving Y a path t (match r with SR_Success => 0 | _ => 3 end)
      (TvSave t SR_WriteError c :: map TvMkdir (parents path) ++ [TvSave t r c']).

End Spec.

(** Specification vocabulary for the Texture properties, independent of the code:
    mip extents by repeated halving, ranges of indices, mip chains with custom
    images, API histories and the contract of the numerical library. *)
From Coq Require Import NArith List Bool.
From Verif Require Import Base FormatModel TextureModel.
Import ListNotations.
Local Open Scope N_scope.

(** Halving, never below one. *)
Definition halve (n : N) : N := N.max 1 (n / 2).

(** Extent after [k] halvings. *)
Fixpoint halvings (k : nat) (n : N) : N :=
  match k with O => n | S k' => halve (halvings k' n) end.

(** The extents of a level, by repeated halving; the depth is halved for volume
    textures only, and counts as at least one slice. *)
Definition extents_at (dim : dimension) (w h d : N) (level : N) : N * N * N :=
  (halvings (N.to_nat level) w, halvings (N.to_nat level) h,
   match dim with Dim3D => halvings (N.to_nat level) d | _ => N.max d 1 end).

(** All mipmapped extents have reached one. *)
Definition all_one (dim : dimension) (e : N * N * N) : Prop :=
  let '(w, h, d) := e in w = 1 /\ h = 1 /\ match dim with Dim3D => d = 1 | _ => True end.

Definition fits32 (n : N) : Prop := n < 2^32.

(** A library call never fails and produces the requested number of slices. *)
Record lib_ok {C} (L : lib C) : Prop := LibOk {
  ok_rescale : forall f w h c w' h' rf,
    ~ In f [I_Int16; I_Int32; I_UInt32; I_Double; I_Complex] ->
    l_rescale L f w h c w' h' rf <> None;
  ok_fallback : forall f w h c w' h' rf, rf = RF_Box \/ rf = RF_Linear ->
    l_fallback L f w h c w' h' rf <> None;
  ok_convert : forall f w h c dst, l_convert L f w h c dst <> None;
  ok_mips3d : forall w h d cs rf slices, slices <> [] ->
    exists out, l_mips3d L w h d cs rf slices = Some out /\ N.of_nat (length out) = d
}.

(** Images that Image::resize can handle with this filter. *)
Definition resizable {C} (rf : rfilter) (i : image C) : Prop :=
  match i with
  | NoImage => True
  | Img f _ _ _ _ =>
      rf = RF_Box \/ rf = RF_Linear \/ ~ In f [I_Int16; I_Int32; I_UInt32; I_Double; I_Complex]
  end.

Section Spec.
Context {C : Type}.
Variable L : lib C.

(** The indices a user of a texture can name. *)
Definition in_range (t : texture C) (f m d : N) : Prop :=
  m < mipLevelCount t /\ d < depth t m /\ f < faceCount t.

(** The size of a level. *)
Definition has_level_size (t : texture C) (m : N) (i : image C) : Prop :=
  iwidth i = width t m /\ iheight i = height t m.

(** The image as a texture stores it: RGBAF, in the texture's colour space. *)
Definition as_stored (t : texture C) (i : image C) : image C :=
  ichange L (iconvert L i I_RGBAF) (colorSpaceOf t).

(** A mip chain over any kind of level content (one image, or the slices of a
    volume): [gen k src] makes level [k] from [src]; [cust k] is the custom
    content of level [k], if any.  The result is the content of level [k] and
    the source from which level [k+1] is generated: the level itself, except
    that a level replaced [Once] passes on what would have been generated. *)
Fixpoint chain {A} (gen : N -> A -> A) (cust : N -> option (A * replacement))
  (level0 source0 : A) (k : nat) : A * A :=
  match k with
  | O => (level0, source0)
  | S k' =>
      let src := snd (chain gen cust level0 source0 k') in
      let m := N.of_nat k in
      match cust m with
      | None => (gen m src, gen m src)
      | Some (c, Continue) => (c, c)
      | Some (c, Once) => (c, gen m src)
      end
  end.

(** A custom image as its level holds it: resized to the level, as RGBAF. *)
Definition fitted (t : texture C) (rf : rfilter) (m : N) (i : image C) : image C :=
  iconvert L (iresize L i (width t m) (height t m) rf) I_RGBAF.

(** Generation and custom content of a single image's chain. *)
Definition gen_image (t : texture C) (rf : rfilter) (m : N) (src : image C) : image C :=
  iresize L src (width t m) (height t m) rf.
Definition custom_at (t : texture C) (rf : rfilter) (cm : customs C) (f d m : N)
  : option (image C * replacement) :=
  match cfind cm f m d with
  | Some (i, r) => Some (fitted t rf m i, r)
  | None => None
  end.

(** The order in which generateMipmaps visits the images of a texture. *)
Definition visit_order (layers faces : N) : list (N * N) :=
  flat_map (fun d => map (fun f => (d, f)) (Nrange faces)) (Nrange layers).

Definition once_at (cm : customs C) (f m d : N) : bool :=
  match cfind cm f m d with Some (_, Once) => true | _ => false end.

(** The image from which level 1 of each (layer, face) is generated, in visit
    order.  It should be the image's own level 0; but when the previously
    visited image has a [Once] replacement on its last level, what would have
    been generated there is used instead. *)
Fixpoint level1_sources (t : texture C) (rf : rfilter) (cm : customs C)
  (level0 : N -> N -> image C) (order : list (N * N)) (carry : option (image C))
  : list (image C) :=
  match order with
  | [] => []
  | (d, f) :: r =>
      let s := match carry with Some x => x | None => level0 d f end in
      let last := mipLevelCount t - 1 in
      s :: level1_sources t rf cm level0 r
             (if (1 <=? last) && once_at cm f last d
              then Some (snd (chain (gen_image t rf) (custom_at t rf cm f d) (level0 d f) s
                                (N.to_nat last)))
              else None)
  end.

(** Generation and custom content of a volume's chain: all slices of a level. *)
Definition gen_slices (t : texture C) (rf : rfilter) (m : N) (src : list (image C))
  : list (image C) :=
  match generateMips3d L (map (gen_image t rf m) src) (width t m) (height t m) (depth t m)
          (colorSpaceOf t) rf with
  | Some l => l
  | None => []
  end.
Definition custom_slices (t : texture C) (rf : rfilter) (cm : customs C) (m : N)
  : option (list (image C) * replacement) :=
  match cfind cm 0 m 0 with
  | None => None
  | Some (_, r) =>
      Some (map (fun d => match cfind cm 0 m d with
                          | Some (i, _) => fitted t rf m i
                          | None => NoImage
                          end) (Nrange (depth t m)), r)
  end.

(** Custom images of a volume are consistent: every level has them for all of
    its slices, with one replacement mode, or for none. *)
Definition consistent3 (levels : N) (dep : N -> N) (cm : customs C) : Prop :=
  forall m, 1 <= m -> m < levels ->
    (forall d, d < dep m -> cfind cm 0 m d = None) \/
    (exists r, forall d, d < dep m -> exists i, cfind cm 0 m d = Some (i, r)).

(** The level count a request is clamped to. *)
Definition clamped_levels (t : texture C) (request : N) : N :=
  N.min (N.max request 1)
        (maxMipmapLevels (dimensionOf t) (width t 0) (height t 0) (depth t 0)).

(** Extents of the levels a texture will have after generateMipmaps: the ones
    obtained by halving the base. *)
Definition slices_at (t : texture C) (m : N) : N :=
  match dimensionOf t with Dim3D => halvings (N.to_nat m) (depth t 0) | _ => depth t 0 end.

(** Every image of level 0 has been set. *)
Definition base_set (t : texture C) : Prop :=
  t <> None /\
  forall f d, in_range t f 0 d -> exists x, getImageF t f 0 d = Some x /\ isValid x = true.

(** The image of level 0, as a total function. *)
Definition level0 (t : texture C) (d f : N) : image C :=
  match getImageF t f 0 d with Some x => x | None => NoImage end.

(** All slices of level 0 of a volume. *)
Definition slices0 (t : texture C) : list (image C) :=
  map (fun d => level0 t d 0) (Nrange (depth t 0)).

Definition customs_valid (cm : customs C) : Prop :=
  forall k i r, In (k, (i, r)) cm -> isValid i = true.
Definition customs_resizable (rf : rfilter) (cm : customs C) : Prop :=
  forall k i r, In (k, (i, r)) cm -> resizable rf i.

(** Arguments a C++ caller can write down: 32-bit sizes, one of six faces, and
    custom images that the filter can resize. *)
Definition call_ok (c : call C) : Prop :=
  match c with
  | CInit _ w h d m _ => fits32 w /\ fits32 h /\ fits32 d
  | CSetF _ f _ _ => f < 6
  | CMips rf _ cm => forall k i r, In (k, (i, r)) cm -> resizable rf i
  | _ => True
  end.

(** Calls that keep a texture in a sane state: generateMipmaps must be given
    consistent custom images on volumes, and must not add levels to a texture
    that has already been converted. *)
Definition allowed (t : texture C) (c : call C) : Prop :=
  call_ok c /\
  match c with
  | CMips rf l cm =>
      (dimensionOf t = Dim3D -> consistent3 (clamped_levels t l) (slices_at t) cm) /\
      (converted t = true -> clamped_levels t l <= mipLevelCount t)
  | _ => True
  end.

Variable encode : converter -> convargs -> image C -> list N.

(** Textures reachable by API histories made of allowed calls. *)
Inductive reachable : texture C -> Prop :=
| R_new : reachable None
| R_call t c b t' : reachable t -> allowed t c -> step L encode t c = Some (b, t') ->
    reachable t'.

(** Histories with no side condition: any sequence of calls, stopping at
    undefined behaviour. *)
Fixpoint run (t : texture C) (cs : list (call C)) : option (texture C) :=
  match cs with
  | [] => Some t
  | c :: r => obind (step L encode t c) (fun bt => run (snd bt) r)
  end.

End Spec.

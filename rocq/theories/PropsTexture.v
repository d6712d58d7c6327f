(** Properties of the Texture object. *)
From Coq Require Import NArith List Bool Lia ZArith.
From Coq Require Import ZifyBool ZifyNat ZifyN.
From Verif Require Import Base FormatModel FormatProofs TextureModel TextureSpec TextureProofs.
Import ListNotations.
Local Open Scope N_scope.

(** ** An instance of the library contract, used by the examples. *)

(** Contents are a number; resizing adds the new width, so results are visible. *)
Definition L0 : lib N :=
  Lib (fun _ _ _ c w' _ _ => Some (c * 100 + w')) (fun _ _ _ c w' _ _ => Some (c * 100 + w'))
      (fun _ _ _ c _ => Some c) (fun _ _ _ c => c) (fun _ _ _ c => c)
      (fun _ _ d _ _ l => Some (repeat (fold_left N.add l 0) (N.to_nat d))).

Lemma L0_ok : lib_ok L0.
Proof.
  constructor; simpl; try discriminate.
  intros; eexists; split; [reflexivity|]; rewrite repeat_length; lia.
Qed.

Definition enc0 (c : converter) (a : convargs) (i : image N) : list N := [iwidth i; iheight i].
Definition flags_all := Flags true true true true.
Definition args0 := ConvArgs F_R8G8B8A8 T_UNorm AlphaStandard (Mask true true true true) 0 1.

Definition px (f : imgfmt) (w h : N) (c : N) : image N := Img f w h CS_Linear c.

(** ** C06 *)

Theorem C06_mip_count : forall dim w h d,
  0 < w -> 0 < h -> (dim = Dim3D -> 0 < d) -> fits32 w -> fits32 h -> fits32 d ->
  maxMipmapLevels dim w h d
  = N.log2 (match dim with Dim3D => N.max (N.max w h) d | _ => N.max w h end) + 1.
Proof. exact maxMip_log2. Qed.
Print Assumptions C06_mip_count.

(** The last level is 1x1(x1) and no earlier one is. *)
Theorem C06_last_level : forall dim w h d k,
  0 < w -> 0 < h -> (dim = Dim3D -> 0 < d) -> fits32 w -> fits32 h -> fits32 d ->
  (all_one dim (extents_at dim w h d k) <-> maxMipmapLevels dim w h d <= k + 1).
Proof.
  intros dim w h d k Hw Hh Hd Fw Fh Fd.
  rewrite all_one_iff by assumption; rewrite maxMip_log2 by assumption.
  assert (B : 0 < biggest dim w h d) by (unfold biggest; destruct dim; lia).
  split; intros H.
  - apply N.log2_lt_pow2 in H; lia.
  - apply N.log2_lt_pow2; lia.
Qed.
Print Assumptions C06_last_level.

Example C06_example :
  maxMipmapLevels Dim3D 5 3 17 = 5 /\ maxMipmapLevels Dim2D 5 3 17 = 3 /\
  all_one Dim3D (extents_at Dim3D 5 3 17 4) /\ ~ all_one Dim3D (extents_at Dim3D 5 3 17 3).
Proof. repeat split; try (vm_compute; intuition discriminate). Qed.

(** ** C07 *)

Theorem C07_extents : forall C (L : lib C) enc t, lib_ok L -> reachable L enc t ->
  forall m,
  (m < mipLevelCount t ->
     width t m = halvings (N.to_nat m) (width t 0) /\
     height t m = halvings (N.to_nat m) (height t 0) /\
     depth t m = (match dimensionOf t with
                  | Dim3D => halvings (N.to_nat m) (depth t 0) | _ => depth t 0 end) /\
     0 < width t m /\ 0 < height t m /\ 0 < depth t m) /\
  (mipLevelCount t <= m -> width t m = 0 /\ height t m = 0 /\ depth t m = 0).
Proof.
  intros C L enc t OK R m; apply reachable_wf in R; auto.
  destruct t as [i|]; [|simpl; split; intros; repeat split; lia].
  simpl in R; split; intros Hm; cbn [mipLevelCount] in Hm.
  - rewrite wf_width0, wf_height0, wf_depth0 by assumption.
    pose proof (wf_w _ R); pose proof (wf_h _ R); pose proof (wf_d _ R) as [_ D].
    rewrite !halvings_shiftr, Nnat.N2Nat.id by lia.
    repeat split; try apply width_pos; try apply height_pos; try apply depth_pos; auto;
      unfold width, height, depth; destruct (N.leb_spec (t_mips i) m); try lia; try reflexivity.
    cbn [dimensionOf]; destruct (t_dim i) eqn:E; try reflexivity.
    specialize (D eq_refl); rewrite (N.max_l (t_depth i)) by lia; reflexivity.
  - unfold width, height, depth; destruct (N.leb_spec (t_mips i) m); [auto|lia].
Qed.
Print Assumptions C07_extents.

(** In closed form. *)
Theorem C07_floor : forall C (L : lib C) enc t, lib_ok L -> reachable L enc t ->
  forall m, m < mipLevelCount t ->
    width t m = N.max 1 (width t 0 / 2 ^ m) /\
    height t m = N.max 1 (height t 0 / 2 ^ m) /\
    (dimensionOf t = Dim3D -> depth t m = N.max 1 (depth t 0 / 2 ^ m)) /\
    (dimensionOf t <> Dim3D -> depth t m = depth t 0).
Proof.
  intros C L enc t OK R m Hm; destruct (C07_extents C L enc t OK R m) as [H _].
  destruct (C07_extents C L enc t OK R 0) as [H0 _].
  destruct (H Hm) as (E1 & E2 & E3 & _); destruct (H0 ltac:(lia)) as (_ & _ & _ & P1 & P2 & P3).
  rewrite E1, E2, E3.
  rewrite !halvings_shiftr, Nnat.N2Nat.id, !N.shiftr_div_pow2 by assumption.
  repeat split; try lia.
  - intros ->; lia.
  - destruct (dimensionOf t); congruence.
Qed.
Print Assumptions C07_floor.

Example C07_example :
  let t := snd (initialize (C:=N) Dim3D 5 3 17 9 CS_Linear) in
  map (fun m => (width t m, height t m, depth t m)) (Nrange 6)
  = [(5, 3, 17); (2, 1, 8); (1, 1, 4); (1, 1, 2); (1, 1, 1); (0, 0, 0)] /\
  reachable L0 enc0 t.
Proof.
  split; [reflexivity|].
  eapply (R_call L0 enc0 None (CInit Dim3D 5 3 17 9 CS_Linear)); [constructor| |reflexivity].
  vm_compute; auto.
Qed.

(** ** C08 *)

Theorem C08_initialize : forall C (L : lib C) enc t dim w h d levels cs,
  fits32 w -> fits32 h -> fits32 d ->
  exists b t', step L enc t (CInit dim w h d levels cs) = Some (b, t') /\
    (b = true <-> 0 < w /\ 0 < h /\ (dim = Dim3D -> 0 < d)) /\
    (b = false -> t' = None /\ mipLevelCount t' = 0) /\
    (b = true ->
       dimensionOf t' = dim /\ colorSpaceOf t' = cs /\
       width t' 0 = w /\ height t' 0 = h /\ depth t' 0 = N.max d 1 /\
       mipLevelCount t' = N.min (N.max levels 1) (maxMipmapLevels dim w h d) /\
       faceCount t' = (match dim with Cube => 6 | _ => 1 end) /\
       converted t' = false /\ formatOf t' = None /\
       (isArray t' = true <-> dim <> Dim3D /\ 0 < d) /\
       (forall f m k, f < 6 -> getImageF t' f m k = Some NoImage) /\
       (forall m k, getImage t' m k = Some NoImage)).
Proof.
  intros C L enc t dim w h d levels cs Fw Fh Fd; cbn [step].
  destruct (initialize (C:=C) dim w h d levels cs) as [b t'] eqn:E.
  exists b, t'; split; [reflexivity|].
  pose proof (initialize_wf dim w h d levels cs b t' Fw Fh Fd E) as W.
  unfold initialize in E.
  destruct ((w =? 0) || (h =? 0) || match dim with Dim3D => d =? 0 | _ => false end) eqn:G;
    injection E as <- <-.
  - split; [|split; [auto|discriminate]].
    split; [discriminate|]; intros (H1 & H2 & H3).
    destruct dim; try specialize (H3 eq_refl); lia.
  - split; [|split; [discriminate|]].
    { split; auto; intros _; repeat split; try lia. intros ->; lia. }
    intros _.
    match goal with |- context [Some ?x] => set (i := x) in * end.
    simpl in W.
    rewrite (wf_width0 i), (wf_height0 i), (wf_depth0 i) by exact W.
    repeat (split; [reflexivity|]).
    assert (GF : forall f m k, f < 6 -> getImageF (Some i) f m k = Some NoImage).
    { intros f m k Hf.
      destruct (N.ltb_spec m (mipLevelCount (Some i))) as [Hm|Hm];
      [destruct (N.ltb_spec k (depth (Some i) m)) as [Hk|Hk];
      [destruct (N.ltb_spec f (faceCount (Some i))) as [Hc|Hc]|]|].
      2,3,4: apply getImageF_out; auto; unfold in_range; lia.
      assert (R : in_range (Some i) f m k) by (repeat split; auto).
      destruct (getImageF_in (Some i) f m k W R) as (? & [= <-] & ->).
      destruct (wf_get3 _ W _ _ _ R) as [x Hx]; rewrite Hx; f_equal.
      unfold get3, i in Hx; cbn [t_images] in Hx.
      destruct (nthN (repeat _ _) m) as [x1|] eqn:E1; simpl in Hx; [|discriminate].
      apply nthN_In, repeat_spec in E1; subst x1.
      destruct (nthN (repeat _ _) k) as [x1|] eqn:E1; simpl in Hx; [|discriminate].
      apply nthN_In, repeat_spec in E1; subst x1.
      apply nthN_In, repeat_spec in Hx; exact Hx. }
    split; [|split; [exact GF|]].
    + unfold isArray, i; cbn [t_dim t_depth]; destruct dim; cbn [andb];
        rewrite ?N.ltb_lt; split; try discriminate; try tauto; intros H; try (split; auto; discriminate).
    + intros m k; destruct (N.eq_dec (faceCount (Some i)) 6) as [E6|E6].
      * unfold getImage; destruct (depth (Some i) m <=? k); auto.
        cbn [faceCount] in E6; rewrite E6; reflexivity.
      * rewrite getImage_F by assumption; apply GF; lia.
Qed.
Print Assumptions C08_initialize.

Example C08_example :
  fst (initialize (C:=N) Cube 4 4 0 100 CS_sRGB) = true /\
  mipLevelCount (snd (initialize (C:=N) Cube 4 4 0 100 CS_sRGB)) = 3 /\
  fst (initialize (C:=N) Dim3D 4 4 0 1 CS_sRGB) = false.
Proof. repeat split. Qed.

(** ** C09 *)

(** setImage with a face: what it answers and what every later getImage sees. *)
Theorem C09_setImage : forall C (L : lib C) enc t, lib_ok L -> reachable L enc t ->
  forall img f m d, f < 6 ->
  exists b t', setImageF L t img f m d = Some (b, t') /\
    (b = true <-> in_range t f m d /\ has_level_size t m img) /\
    (b = false -> t' = t) /\
    (b = true ->
       getImageF t' f m d = Some (as_stored L t img) /\
       (forall f' m' d', f' < 6 -> (f', m', d') <> (f, m, d) ->
          getImageF t' f' m' d' = getImageF t f' m' d') /\
       (forall k, width t' k = width t k /\ height t' k = height t k /\ depth t' k = depth t k) /\
       mipLevelCount t' = mipLevelCount t /\ faceCount t' = faceCount t /\
       formatOf t' = formatOf t /\ converted t' = converted t /\
       dimensionOf t' = dimensionOf t /\ colorSpaceOf t' = colorSpaceOf t /\ isArray t' = isArray t).
Proof.
  intros C L enc t OK R img f m d Hf; apply reachable_wf in R as W; auto.
  destruct (setImageF_spec L t img f m d W Hf) as [(IR & HL & i & im & -> & E & S & W' & G)|[N E]].
  2: { exists false, t; split; [exact E|]; split; [|split; [reflexivity|discriminate]].
       split; [discriminate|tauto]. }
  exists (isValid (as_stored L (Some i) img)), (Some (with_images i im)).
  assert (V : isValid (as_stored L (Some i) img) = true).
  { destruct HL as [Hw Hh].
    assert (0 < iwidth img) by (rewrite Hw; apply width_pos; apply IR).
    destruct img as [|g w h cs c]; [simpl in *; lia|].
    unfold as_stored; destruct (iconvert_valid L OK g w h cs c) as [c' ->].
    destruct (ichange_spec L I_RGBAF w h cs c' (colorSpaceOf (Some i))) as [c'' ->]; reflexivity. }
  rewrite V in *; split; [exact E|]; split; [tauto|]; split; [discriminate|]; intros _.
  assert (IR' : forall f' m' d', in_range (Some (with_images i im)) f' m' d' <->
                                 in_range (Some i) f' m' d') by (intros; reflexivity).
  split; [|split; [|repeat split]].
  - destruct (getImageF_in (Some (with_images i im)) f m d W' IR) as (? & [= <-] & ->).
    simpl t_images; rewrite G; unfold eqb3; rewrite !N.eqb_refl; reflexivity.
  - intros f' m' d' Hf' NE.
    destruct (N.ltb_spec m' (mipLevelCount (Some i))) as [Hm|Hm];
    [destruct (N.ltb_spec d' (depth (Some i) m')) as [Hk|Hk];
    [destruct (N.ltb_spec f' (faceCount (Some i))) as [Hc|Hc]|]|].
    2,3,4: rewrite !getImageF_out; auto; rewrite ?IR'; unfold in_range; lia.
    assert (R1 : in_range (Some i) f' m' d') by (repeat split; auto).
    destruct (getImageF_in (Some (with_images i im)) f' m' d' W' R1) as (? & [= <-] & ->).
    destruct (getImageF_in (Some i) f' m' d' W R1) as (? & [= <-] & ->).
    simpl t_images; rewrite G; unfold eqb3.
    destruct ((m' =? m) && (d' =? d) && (f' =? f)) eqn:EE; auto.
    exfalso; apply NE; f_equal; [f_equal|]; lia.
Qed.
Print Assumptions C09_setImage.

(** The stored image is RGBAF, has the image's size and the texture's colour space; an image
    that already is in that form is stored as it is. *)
Theorem C09_stored_form : forall C (L : lib C) t f w h cs c, lib_ok L ->
  (exists c', as_stored L t (Img f w h cs c) = Img I_RGBAF w h (colorSpaceOf t) c') /\
  (f = I_RGBAF -> cs = colorSpaceOf t -> as_stored L t (Img f w h cs c) = Img f w h cs c).
Proof.
  intros C L t f w h cs c OK; unfold as_stored; split.
  - destruct (iconvert_valid L OK f w h cs c) as [c' ->]; apply ichange_spec.
  - intros -> ->; simpl; destruct (colorSpaceOf t); reflexivity.
Qed.
Print Assumptions C09_stored_form.

(** The overload without a face is the same call on face 0, except that cubes reject it. *)
Theorem C09_no_face : forall C (L : lib C) enc t, lib_ok L -> reachable L enc t ->
  forall img m d,
  setImage L t img m d
  = (if faceCount t =? 6 then Some (false, t) else setImageF L t img 0 m d) /\
  getImage t m d = (if faceCount t =? 6 then Some NoImage else getImageF t 0 m d).
Proof.
  intros C L enc t OK R img m d; apply reachable_wf in R as W; auto.
  destruct (N.eqb_spec (faceCount t) 6) as [E|E].
  - split; [apply setImage_cube; exact E|].
    unfold getImage; destruct (depth t m <=? d); auto.
    destruct t as [i|]; [|discriminate]; cbn [faceCount] in E; rewrite E; reflexivity.
  - split; [apply setImage_F|apply getImage_F]; auto.
Qed.
Print Assumptions C09_no_face.

Definition cube0 := snd (initialize (C:=N) Cube 4 2 2 2 CS_sRGB).
Example C09_example :
  reachable L0 enc0 cube0 /\
  in_range cube0 5 1 1 /\ has_level_size cube0 1 (px I_RGB8 2 1 7) /\
  exists t', setImageF L0 cube0 (px I_RGB8 2 1 7) 5 1 1 = Some (true, t') /\
    getImageF t' 5 1 1 = Some (Img I_RGBAF 2 1 CS_sRGB 7) /\
    getImageF t' 4 1 1 = Some NoImage.
Proof.
  split; [|split; [|split]].
  - eapply (R_call L0 enc0 None (CInit Cube 4 2 2 2 CS_sRGB)); [constructor| |reflexivity].
    vm_compute; auto.
  - vm_compute; auto.
  - vm_compute; auto.
  - eexists; split; [reflexivity|]; split; reflexivity.
Qed.

(** ** C10 *)

Theorem C10_accessors_defined : forall C (L : lib C) enc t, lib_ok L -> reachable L enc t ->
  (forall m d, getImage t m d <> None) /\
  (forall f m d, f < 6 -> getImageF t f m d <> None) /\
  (forall m d, data t m d <> None) /\
  (forall f m d, f < 6 -> dataF t f m d <> None) /\
  (forall c, allowed t c -> step L enc t c <> None).
Proof.
  intros C L enc t OK R; apply reachable_wf in R as W; auto.
  assert (GF : forall f m d, f < 6 -> getImageF t f m d <> None).
  { intros f m d Hf.
    destruct (N.ltb_spec m (mipLevelCount t)) as [Hm|Hm];
    [destruct (N.ltb_spec d (depth t m)) as [Hk|Hk];
    [destruct (N.ltb_spec f (faceCount t)) as [Hc|Hc]|]|].
    2,3,4: rewrite getImageF_out; auto; [discriminate|unfold in_range; lia].
    assert (R1 : in_range t f m d) by (repeat split; auto).
    destruct (getImageF_in t f m d W R1) as (i & -> & ->).
    destruct (wf_get3 _ W _ _ _ R1) as [x ->]; discriminate. }
  assert (DF : forall f m d, f < 6 -> dataF t f m d <> None).
  { intros f m d Hf; unfold dataF.
    destruct (converted t) eqn:CV; cbn [negb orb]; [|discriminate].
    destruct (N.leb_spec (depth t m) d) as [Hd|Hd]; cbn [orb]; [discriminate|].
    destruct t as [i|]; [|discriminate]; simpl in W; cbn [faceCount].
    destruct (negb (t_faces i =? 6) && negb (f =? 0)) eqn:EF; [discriminate|].
    assert (R1 : in_range (Some i) f m d).
    { split; [eapply depth_mips; exact Hd|]; split; [exact Hd|]; simpl.
      destruct (wf_faces_cases _ W) as [[_ Fc]|[_ Fc]]; rewrite Fc in *; lia. }
    assert (NE : t_textures i <> []) by (simpl in CV; destruct (t_textures i); congruence).
    destruct (wf_tex3 _ W NE _ _ _ R1) as [x ->]; discriminate. }
  split; [|split; [exact GF|split; [|split; [exact DF|]]]].
  - intros m d; destruct (C09_no_face C L enc t OK R NoImage m d) as [_ ->].
    destruct (faceCount t =? 6); [discriminate|apply GF; lia].
  - intros m d; unfold data; specialize (DF 0 m d ltac:(lia)); unfold dataF in DF.
    destruct (N.eqb_spec (faceCount t) 1) as [E|E]; cbn [negb]; rewrite ?orb_true_r; [|discriminate].
    rewrite orb_false_r; replace (negb (faceCount t =? 6) && negb (0 =? 0)) with false in DF
      by (rewrite E; reflexivity).
    rewrite orb_false_r in DF; destruct (negb (converted t) || (depth t m <=? d)); auto.
  - intros c A; destruct (step_wf L enc OK t c W A) as (b & t' & -> & _); discriminate.
Qed.
Print Assumptions C10_accessors_defined.

(** Both side conditions are needed.  A volume whose custom mips are inconsistent makes
    generateMipmaps return false after it has grown the level list, and getImage on the new
    level then indexes an empty list. *)
Theorem C10_failed_volume_mips_refuted : exists (cs : list (call N)) t m d,
  Forall call_ok cs /\ run L0 enc0 None cs = Some t /\
  m < mipLevelCount t /\ d < depth t m /\ getImage t m d = None.
Proof.
  exists [CInit Dim3D 4 4 2 1 CS_Linear; CSet (px I_RGBAF 4 4 1) 0 0; CSet (px I_RGBAF 4 4 1) 0 1;
          CMips RF_Box 3 [((0, 2, 0), (px I_RGBAF 1 1 5, Once)); ((0, 1, 0), (px I_RGBAF 2 2 5, Once));
                          ((0, 1, 1), (px I_RGBAF 2 2 5, Continue))];
          CMips RF_Box 3 []; CReset;
          CInit Dim3D 4 4 4 1 CS_Linear;
          CSet (px I_RGBAF 4 4 1) 0 0; CSet (px I_RGBAF 4 4 1) 0 1;
          CSet (px I_RGBAF 4 4 1) 0 2; CSet (px I_RGBAF 4 4 1) 0 3;
          CMips RF_Box 3 [((0, 1, 1), (px I_RGBAF 2 2 5, Continue))]].
  eexists; exists 1, 0.
  split; [|split; [vm_compute; reflexivity|vm_compute; auto]].
  repeat constructor; simpl; intros; intuition (try congruence);
    repeat match goal with H : _ = _ |- _ => injection H as <- <- <- end; simpl; auto.
Qed.
Print Assumptions C10_failed_volume_mips_refuted.

(** Adding levels to a converted texture leaves the old data in place, and data() on a new
    level indexes past its end. *)
Theorem C10_mips_after_convert_refuted : exists (cs : list (call N)) t m,
  Forall call_ok cs /\ run L0 enc0 None cs = Some t /\
  m < mipLevelCount t /\ 0 < depth t m /\ converted t = true /\ data t m 0 = None.
Proof.
  exists [CInit Dim2D 4 4 0 1 CS_Linear; CSet (px I_RGBAF 4 4 1) 0 0;
          CConvert flags_all args0;
          CSet (px I_RGBAF 4 4 1) 0 0; CMips RF_Box 3 []].
  eexists; exists 1.
  split; [|split; [vm_compute; reflexivity|vm_compute; auto]].
  repeat constructor; simpl; intros; intuition.
Qed.
Print Assumptions C10_mips_after_convert_refuted.

(** ** C11 *)

Theorem C11_complete_iff_all_set : forall C (L : lib C) enc t, lib_ok L -> reachable L enc t ->
  dimensionOf t <> Dim3D ->
  (imagesComplete t = true <->
   t <> None /\ forall f m d, in_range t f m d ->
     exists x, getImageF t f m d = Some x /\ isValid x = true).
Proof.
  intros C L enc t OK R ND; apply reachable_wf in R as W; auto.
  destruct t as [i|].
  - rewrite (complete_iff i W ND); split; [intros H; split; [discriminate|exact H]|tauto].
  - simpl; split; [discriminate|tauto].
Qed.
Print Assumptions C11_complete_iff_all_set.

(** For every kind of texture, complete implies that all visible images are set. *)
Theorem C11_complete_all_set : forall C (L : lib C) enc t, lib_ok L -> reachable L enc t ->
  imagesComplete t = true ->
  forall f m d, in_range t f m d -> exists x, getImageF t f m d = Some x /\ isValid x = true.
Proof.
  intros C L enc t OK R; apply reachable_wf in R as W; auto.
  destruct t as [i|]; [apply complete_visible; exact W|discriminate].
Qed.
Print Assumptions C11_complete_all_set.

(** Volumes: no sequence of setImage calls completes a texture one of whose levels is
    shallower than the base. *)
Theorem C11_volume_never_complete : forall C (L : lib C) enc w h d levels cs sets t m,
  lib_ok L -> fits32 w -> fits32 h -> fits32 d ->
  Forall (fun c => match c with CSet _ _ _ => True | CSetF _ f _ _ => f < 6 | _ => False end) sets ->
  run L enc None (CInit Dim3D w h d levels cs :: sets) = Some t ->
  m < mipLevelCount t -> depth t m < depth t 0 ->
  imagesComplete t = false.
Proof.
  intros C L enc w h d levels cs sets t m OK Fw Fh Fd HS.
  cbn [run step obind].
  destruct (initialize (C:=C) Dim3D w h d levels cs) as [b t0] eqn:E0; cbn [obind snd].
  pose proof (initialize_wf _ _ _ _ _ _ _ _ Fw Fh Fd E0) as W0.
  intros R Hm Hd.
  (* the invariant: the slot past the visible range of level m is never written *)
  set (P := fun t : texture C => wft t /\ (t <> None -> dimensionOf t = Dim3D) /\
     mipLevelCount t = mipLevelCount t0 /\ (forall k, depth t k = depth t0 k) /\
     (m < mipLevelCount t0 -> depth t0 m < depth t0 0 ->
      exists i, t = Some i /\ get3 (t_images i) m (depth t0 0 - 1) 0 = Some NoImage)).
  assert (PS : forall sets t1, P t1 ->
     Forall (fun c => match c with CSet _ _ _ => True | CSetF _ f _ _ => f < 6 | _ => False end) sets ->
     forall t2, run L enc t1 sets = Some t2 -> P t2).
  { clear R Hm Hd HS sets t.
    induction sets as [|c sets IH]; intros t1 P1 HS t2 R.
    - injection R as <-; exact P1.
    - inversion HS as [|? ? Hc HS']; subst; cbn [run] in R.
      destruct (step L enc t1 c) as [[b' t1']|] eqn:ES; [|discriminate]; cbn [obind snd] in R.
      apply (IH t1'); auto.
      destruct P1 as (W1 & D1 & M1 & Dp1 & X1).
      assert (KEY : forall img f m' d', f < 6 -> setImageF L t1 img f m' d' = Some (b', t1') -> P t1').
      { intros img f m' d' Hf EF.
        destruct (setImageF_spec L t1 img f m' d' W1 Hf) as
          [(IR & HL & i & im & -> & E & S & W' & G)|[N E]].
        2: { rewrite E in EF; injection EF as <- <-; repeat split; auto. }
        rewrite E in EF; injection EF as <- <-.
        split; [exact W'|]; split; [intros _; apply D1; discriminate|].
        split; [exact M1|]; split; [exact Dp1|].
        intros Hm Hd; destruct (X1 Hm Hd) as (i' & [= <-] & HX).
        eexists; split; [reflexivity|]; simpl t_images; rewrite G.
        replace (eqb3 m (depth t0 0 - 1) 0 m' d' f) with false; [exact HX|].
        symmetry; unfold eqb3; destruct (N.eqb_spec m m') as [<-|]; [|reflexivity].
        destruct (N.eqb_spec (depth t0 0 - 1) d') as [<-|]; [|reflexivity].
        exfalso; destruct IR as (_ & Q & _); rewrite Dp1 in Q; lia. }
      destruct c; try contradiction; cbn [step] in ES.
      + apply (KEY img 0 mip d0); [lia|].
        rewrite <- setImage_F; auto.
        intros F6; destruct t1 as [i|]; [|discriminate]; simpl in W1.
        destruct (wf_faces_cases _ W1) as [[Dc _]|[_ Fc]].
        * cbn in D1; rewrite D1 in Dc by discriminate; discriminate.
        * cbn [faceCount] in F6; lia.
      + eapply KEY; eauto. }
  assert (P0 : P t0).
  { split; [exact W0|].
    unfold initialize in E0.
    destruct ((w =? 0) || (h =? 0) || (d =? 0)) eqn:G; injection E0 as <- <-.
    - split; [congruence|]; split; [reflexivity|]; split; [reflexivity|]; simpl; lia.
    - split; [reflexivity|]; split; [reflexivity|]; split; [reflexivity|].
      match goal with |- context [Some ?x] => set (i := x) in * end.
      intros Hm' Hd'; exists i; split; [reflexivity|].
      rewrite wf_depth0 in * by exact W0.
      unfold get3, i; cbn [t_images t_depth].
      rewrite nthN_repeat by (cbn [mipLevelCount i t_mips] in Hm'; lia); cbn [obind].
      rewrite nthN_repeat by lia; cbn [obind].
      reflexivity. }
  destruct (PS sets t0 P0 HS t R) as (W & D & M & Dp & X).
  rewrite !Dp in Hd; rewrite M in Hm.
  destruct (X Hm Hd) as (i & -> & HX); simpl.
  apply not_true_iff_false; intros F; unfold get3 in HX.
  destruct (nthN (t_images i) m) as [l1|] eqn:E1; simpl in HX; [|discriminate].
  destruct (nthN l1 (depth t0 0 - 1)) as [l2|] eqn:E2; simpl in HX; [|discriminate].
  rewrite forallb_forall in F; specialize (F _ (nthN_In _ _ _ E1)).
  rewrite forallb_forall in F; specialize (F _ (nthN_In _ _ _ E2)).
  rewrite forallb_forall in F; specialize (F _ (nthN_In _ _ _ HX)); discriminate.
Qed.
Print Assumptions C11_volume_never_complete.

Example C11_example : exists t,
  run L0 enc0 None [CInit Dim3D 2 2 2 2 CS_Linear; CSet (px I_RGBAF 2 2 1) 0 0;
                    CSet (px I_RGBAF 2 2 1) 0 1; CSet (px I_RGBAF 1 1 1) 1 0] = Some t /\
  (forallb (fun md => match getImage t (fst md) (snd md) with Some i => isValid i | None => false end)
     [(0, 0); (0, 1); (1, 0)] = true) /\ depth t 1 = 1 /\ imagesComplete t = false.
Proof. eexists; split; [vm_compute; reflexivity|]; repeat split. Qed.

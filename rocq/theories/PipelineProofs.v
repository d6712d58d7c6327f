(** Proofs about the tool's pipeline. *)
From Coq Require Import List NArith ZArith Bool String Lia Permutation.
From Coq Require Import ZifyBool ZifyNat ZifyN.
From Verif Require Import Base FormatModel TextureModel TextureSpec TextureProofs CommandLineModel ToolModel PropsTool
  PipelineModel PipelineSpec.
Import ListNotations.
Local Open Scope list_scope.
Local Open Scope N_scope.
Local Notation length := List.length.

Section P.
Context {C : Type}.
Variable O : ops C.
Notation L := (o_lib O).

Lemma side_shift n m : N.max (N.shiftr n m) 1 = side n m.
Proof. unfold side. rewrite N.shiftr_div_pow2. lia. Qed.

Lemma side0 n : side n 0 = N.max 1 n.
Proof. unfold side. change (2 ^ 0) with 1. rewrite N.div_1_r. reflexivity. Qed.

(** The size the references hold after an image has been loaded. *)
Definition used (a : cl) (wh : N * N) (w h : N) : N * N :=
  if (fst wh =? unset) && (snd wh =? unset) then asked a w h else wh.

Lemma iconvert_same f w h cs c : iconvert L (Img f w h cs c) f = Img f w h cs c.
Proof. simpl. destruct f; reflexivity. Qed.

Lemma ichange_same f w h cs c : ichange L (Img f w h cs c) cs = Img f w h cs c.
Proof. destruct cs; reflexivity. Qed.

Lemma iresize_same i w h rf : w <> 0 -> h <> 0 -> iwidth i = w -> iheight i = h -> iresize L i w h rf = i.
Proof.
  destruct i as [|f w0 h0 cs c]; [reflexivity|]. cbn [iwidth iheight iresize]. intros Nw Nh -> ->.
  destruct (N.eqb_spec w 0); [contradiction|]. destruct (N.eqb_spec h 0); [contradiction|].
  rewrite !N.eqb_refl. reflexivity.
Qed.

Lemma iresize_skip i w h rf : isValid i = false \/ (1 <= iwidth i /\ 1 <= iheight i) ->
  (if negb (w =? iwidth i) || negb (h =? iheight i) then iresize L i w h rf else i) = iresize L i w h rf.
Proof.
  intros V. destruct (N.eqb_spec w (iwidth i)) as [Ew|]; [|reflexivity].
  destruct (N.eqb_spec h (iheight i)) as [Eh|]; [|reflexivity]. cbn [negb orb].
  destruct V as [V|[Vw Vh]]; [destruct i; [reflexivity|discriminate]|].
  symmetry. apply iresize_same; lia.
Qed.

Lemma iconvert_sides i f : isValid (iconvert L i f) = false \/
  (iwidth (iconvert L i f) = iwidth i /\ iheight (iconvert L i f) = iheight i).
Proof.
  destruct i as [|g w h cs c]; [left; reflexivity|]. simpl. destruct (imgfmt_eqb g f); [right; auto|].
  destruct (l_convert _ _ _ _ _ _); [right|left]; auto.
Qed.

Lemma ichange_sides i cs : isValid (ichange L i cs) = isValid i /\
  iwidth (ichange L i cs) = iwidth i /\ iheight (ichange L i cs) = iheight i.
Proof. destruct i as [|g w h c0 c]; [auto|]. destruct c0, cs; simpl; auto. Qed.

(** The model of loadAndProcessImage carries out the steps. *)
Lemma process_steps a path wh m : m < 32 ->
  (forall f w h c, o_load O path = Some (f, w, h, c) -> 1 <= w /\ 1 <= h) ->
  loadAndProcessImage O a path wh m =
  Some (match o_load O path with
        | None => None
        | Some (f, w, h, c) =>
            let W := fst (used a wh w h) in
            let H := snd (used a wh w h) in
            Some (carry_out (steps O a f W H m) (Img f w h (c_imageCS a) c), (W, H))
        end).
Proof.
  intros Hm LD. unfold loadAndProcessImage. destruct (o_load O path) as [[[[f w] h] c]|] eqn:EL; [|reflexivity].
  destruct (LD _ _ _ _ eq_refl) as [Lw Lh].
  change (if (fst wh =? unset) && (snd wh =? unset)
          then (getDimension w w h (c_width a), getDimension h w h (c_height a)) else wh) with (used a wh w h).
  destruct (used a wh w h) as [W H]. cbn [fst snd].
  destruct (N.leb_spec 32 m); [lia|].
  rewrite !side_shift. cbv zeta. do 2 f_equal.
  unfold carry_out, steps. cbv zeta. cbn [fold_left fst snd].
  (* conversion and colour space *)
  assert (E1 : (if imgfmt_eqb f I_RGBAF then Img f w h (c_imageCS a) c
                else iconvert L (Img f w h (c_imageCS a) c) I_RGBAF) =
               iconvert L (Img f w h (c_imageCS a) c) I_RGBAF).
  { simpl. destruct (imgfmt_eqb f I_RGBAF); reflexivity. }
  rewrite E1. clear E1.
  assert (V1 : isValid (iconvert L (Img f w h (c_imageCS a) c) I_RGBAF) = false \/
     exists c', iconvert L (Img f w h (c_imageCS a) c) I_RGBAF = Img I_RGBAF w h (c_imageCS a) c').
  { simpl. destruct (imgfmt_eqb f I_RGBAF) eqn:E.
    - right. exists c. destruct f; try discriminate E. reflexivity.
    - destruct (l_convert _ _ _ _ _ _) as [c'|]; [right; eauto|left; reflexivity]. }
  set (i1 := iconvert L (Img f w h (c_imageCS a) c) I_RGBAF) in *. clearbody i1.
  assert (E2 : (if cs_eqb (c_textureCS a) (c_imageCS a) then i1 else ichange L i1 (c_textureCS a)) =
               ichange L i1 (c_textureCS a)).
  { destruct V1 as [V1|[c' ->]]; [destruct i1; [|discriminate]; destruct (cs_eqb _ _); reflexivity|].
    destruct (c_textureCS a), (c_imageCS a); reflexivity. }
  rewrite E2. clear E2.
  assert (V2 : isValid (ichange L i1 (c_textureCS a)) = false \/
     (1 <= iwidth (ichange L i1 (c_textureCS a)) /\ 1 <= iheight (ichange L i1 (c_textureCS a)))).
  { destruct (ichange_sides i1 (c_textureCS a)) as (Q1 & Q2 & Q3). rewrite Q1, Q2, Q3.
    destruct V1 as [V1|[c' ->]]; [left; exact V1|right; simpl; lia]. }
  set (i2 := ichange L i1 (c_textureCS a)) in *. clearbody i2. clear V1 i1.
  destruct (c_normalMap a) eqn:EN; cbn [negb].
  - rewrite iresize_skip by exact V2.
    set (i3 := iresize L i2 W H (c_resizeFilter a)).
    set (i4 := if c_rotate a then irotate O (c_rotateAngle a) i3 else i3).
    set (i5 := if c_grayscale a then in_place (o_gray O) i4 else i4).
    assert (EO : (if isSigned (c_ttyp a) then N.lor (c_normalOptions a) 1 else c_normalOptions a) = normal_bits a).
    { unfold normal_bits. destruct (c_ttyp a); reflexivity. }
    rewrite EO. cbn [andb].
    set (i6 := inormal O (normal_bits a) (c_normalHeight a) i5).
    rewrite negb_andb.
    rewrite (N.eqb_sym W), (N.eqb_sym H).
    set (i7 := if negb (side W m =? W) || negb (side H m =? H) then _ else i6).
    set (i8 := if c_flipX a then _ i7 else i7).
    set (i9 := if c_flipY a then _ i8 else i8).
    set (i10 := if c_swizzle a then _ i9 else i9).
    set (i11 := if c_preMultiply a then _ i10 else i10).
    assert (F7 : i7 = NoImage \/ exists w7 h7 cs7 c7, i7 = Img I_RGBF w7 h7 cs7 c7).
    { assert (F6 : i6 = NoImage \/ exists w7 h7 cs7 c7, i6 = Img I_RGBF w7 h7 cs7 c7).
      { unfold i6. destruct i5; [left; reflexivity|]. simpl. destruct (o_normal _ _ _ _ _ _ _); [right|left]; eauto 6. }
      unfold i7. destruct (_ || _); [|exact F6].
      destruct F6 as [->|(w7 & h7 & cs7 & c7 & ->)]; [left; reflexivity|].
      unfold iresize. destruct (_ || _); [left; reflexivity|]. destruct (_ && _); [right; eauto 6|].
      destruct cs7; destruct (resize_content _ _ _ _ _ _ _ _); eauto 7. }
    assert (E11 : i7 = NoImage -> i11 = NoImage).
    { intros E. unfold i11, i10, i9, i8. rewrite E. destruct (c_flipX a), (c_flipY a), (c_swizzle a), (c_preMultiply a); reflexivity. }
    clearbody i11. destruct F7 as [F7|(w7 & h7 & cs7 & c7 & F7)]; rewrite F7; [|reflexivity].
    rewrite (E11 F7). reflexivity.
  - rewrite iresize_skip by exact V2. cbn [andb]. reflexivity.
Qed.

(** Validity, format and extents of a processed image. *)
Definition is_img (f : imgfmt) (w h : N) (cs : colorspace) (i : image C) : Prop :=
  exists c, i = Img f w h cs c.

Lemma in_place_img (b : bool) g f w h cs i : is_img f w h cs i -> is_img f w h cs (if b then in_place g i else i).
Proof. intros [c ->]. destruct b; [eexists; reflexivity|eexists; reflexivity]. Qed.

Lemma irotate_img (OK : ops_ok O) a f w h cs i : is_img f w h cs i ->
  is_img f (fst (turned a w h)) (snd (turned a w h)) cs (if c_rotate a then irotate O (c_rotateAngle a) i else i).
Proof.
  intros [c ->]. unfold turned, quarter_turn. destruct (c_rotate a); [|exists c; reflexivity].
  unfold irotate. pose proof (k_rotate _ OK (c_rotateAngle a) f w h c).
  destruct (o_rotate _ _ _ _ _ _) as [c'|]; [|congruence].
  exists c'. destruct (c_rotateAngle a); reflexivity.
Qed.

Lemma iresize_img (OK : ops_ok O) f w h cs w' h' rf i : is_img f w h cs i -> f = I_RGBF \/ f = I_RGBAF ->
  0 < w' -> 0 < h' -> is_img f w' h' cs (iresize L i w' h' rf).
Proof.
  intros [c ->] Hf Hw Hh. destruct (iresize_valid L (k_lib _ OK) f w h cs c w' h' rf) as [c' ->]; auto.
  - right. right. intros I. destruct Hf as [-> | ->]; simpl in I; intuition discriminate.
  - exists c'. reflexivity.
Qed.

Lemma iadjust_img ty orig f w h cs i : is_img f w h cs i -> f = I_RGBF \/ f = I_RGBAF ->
  is_img f w h cs (iadjust O ty orig i).
Proof.
  intros [c ->] Hf. unfold iadjust.
  assert (K : is_img f w h cs (in_place (fun _ => o_range O ty orig) (iconvert L (Img f w h cs c) f))).
  { rewrite iconvert_same. eexists. reflexivity. }
  assert (E : float_format f = Some f) by (destruct Hf as [-> | ->]; reflexivity). rewrite E.
  destruct ty; try (eexists; reflexivity); destruct (remapped_format orig); auto; eexists; reflexivity.
Qed.

(** The extents of the image made for a level. *)
Definition product_size (a : cl) (W H m : N) : N * N :=
  if c_normalMap a && negb ((side W m =? W) && (side H m =? H)) then (side W m, side H m)
  else turned a (side W m) (side H m).

Lemma side_pos n m : 0 < side n m.
Proof. unfold side. lia. Qed.

Lemma product_img (OK : ops_ok O) a f w h c W H m :
  (c_normalMap a = true -> 1 <= W /\ 1 <= H) ->
  is_img (if c_normalMap a then I_RGBF else I_RGBAF) (fst (product_size a W H m)) (snd (product_size a W H m))
    (c_textureCS a) (carry_out (steps O a f W H m) (Img f w h (c_imageCS a) c)).
Proof.
  intros Pos. unfold carry_out, steps. cbv zeta. cbn [fold_left fst snd].
  destruct (iconvert_valid L (k_lib _ OK) f w h (c_imageCS a) c) as [c1 ->].
  destruct (ichange_spec L I_RGBAF w h (c_imageCS a) c1 (c_textureCS a)) as [c2 ->].
  assert (I2 : is_img I_RGBAF w h (c_textureCS a) (Img I_RGBAF w h (c_textureCS a) c2)) by (exists c2; reflexivity).
  set (i2 := Img _ _ _ _ c2) in *. clearbody i2.
  pose proof (side_pos W m). pose proof (side_pos H m).
  set (F := if c_normalMap a then I_RGBF else I_RGBAF).
  apply iadjust_img; [|unfold F; destruct (c_normalMap a); auto].
  apply in_place_img. apply in_place_img. apply in_place_img. apply in_place_img.
  unfold F, product_size. clear F. destruct (c_normalMap a) eqn:EN; cbn [andb negb].
  - destruct (Pos eq_refl) as [P1 P2].
    assert (I3 : is_img I_RGBAF W H (c_textureCS a) (iresize L i2 W H (c_resizeFilter a))).
    { eapply iresize_img; eauto; lia. }
    apply (irotate_img OK a) in I3. apply (in_place_img (c_grayscale a) (o_gray O)) in I3.
    set (i5 := if c_grayscale a then _ else _) in *. clearbody i5.
    assert (I6 : is_img I_RGBF (fst (turned a W H)) (snd (turned a W H)) (c_textureCS a)
                  (inormal O (normal_bits a) (c_normalHeight a) i5)).
    { destruct I3 as [c5 ->]. unfold inormal.
      pose proof (k_normal _ OK (normal_bits a) (c_normalHeight a) I_RGBAF (fst (turned a W H)) (snd (turned a W H)) c5).
      destruct (o_normal _ _ _ _ _ _ _) as [c6|]; [exists c6; reflexivity|congruence]. }
    destruct (N.eqb_spec (side W m) W) as [Ew|]; cbn [negb andb];
      [destruct (N.eqb_spec (side H m) H) as [Eh|]; cbn [negb andb fst snd]|cbn [negb andb fst snd]].
    + rewrite Ew, Eh. exact I6.
    + eapply iresize_img; eauto.
    + eapply iresize_img; eauto.
  - apply in_place_img. apply irotate_img; auto. eapply iresize_img; eauto.
Qed.

(** With a size of 0 a normal map has no pixels. *)
Lemma product_none a f w h c W H m : c_normalMap a = true -> W = 0 \/ H = 0 ->
  carry_out (steps O a f W H m) (Img f w h (c_imageCS a) c) = NoImage.
Proof.
  intros EN Z. unfold carry_out, steps. cbv zeta. cbn [fold_left fst snd]. rewrite EN. cbn [negb].
  set (i2 := ichange L _ _). assert (E : iresize L i2 W H (c_resizeFilter a) = NoImage).
  { destruct i2; [reflexivity|]. unfold iresize.
    destruct (N.eqb_spec W 0); [reflexivity|]. destruct (N.eqb_spec H 0); [reflexivity|]. lia. }
  rewrite E. clear E i2.
  destruct (c_rotate a), (c_grayscale a), (true && _), (c_flipX a), (c_flipY a), (c_swizzle a), (c_preMultiply a);
    reflexivity.
Qed.

(** ** Loading *)

Notation unsets := (unset, unset).

Definition int_size (z : Z) : Prop := (- 2 ^ 31 <= z < 2 ^ 31)%Z.

Lemma getDimension_range cur w h z : 1 <= cur < 2 ^ 31 -> 1 <= w < 2 ^ 31 -> 1 <= h < 2 ^ 31 -> int_size z ->
  getDimension cur w h z < unset.
Proof.
  intros Hc Hw Hh Hz. unfold int_size, unset in *.
  destruct (Z_le_dec (-15) z) as [Z1|Z1]; [destruct (Z_le_dec z (-1)) as [Z2|Z2]|].
  - destruct (C40_dimension cur w h z) as [_ B]; [lia..|]. specialize (B ltac:(lia)). lia.
  - assert (E : getDimension cur w h z = Z.to_N (z mod 4294967296)).
    { unfold getDimension. destruct z as [|p|p]; [reflexivity|reflexivity|lia]. }
    rewrite E. rewrite Z.mod_small by lia. lia.
  - assert (E : getDimension cur w h z = Z.to_N (z mod 4294967296)).
    { unfold getDimension. destruct z as [|p|p]; [reflexivity|reflexivity|].
      repeat (destruct p as [p|p|]; try reflexivity); lia. }
    rewrite E. replace (z mod 4294967296)%Z with (z + 4294967296)%Z; [lia|].
    symmetry. rewrite <- (Z.mod_add z 1) by lia. rewrite Z.mod_small; lia.
Qed.

(** The sizes asked for in an accepted command line. *)
Definition sizes_ok (a : cl) : Prop := int_size (c_width a) /\ int_size (c_height a).

Lemma asked_range (OK : ops_ok O) a p f w h c : sizes_ok a -> o_load O p = Some (f, w, h, c) ->
  fst (asked a w h) < unset /\ snd (asked a w h) < unset.
Proof.
  intros [Sw Sh] E. destruct (k_load _ OK _ _ _ _ _ E). cbn [asked fst snd].
  split; apply getDimension_range; auto.
Qed.

Lemma used_first a w h : used a unsets w h = asked a w h.
Proof. reflexivity. Qed.

Lemma used_later a W H w h : W < unset -> used a (W, H) w h = (W, H).
Proof. intros L1. unfold used. cbn [fst snd]. destruct (N.eqb_spec W unset); [lia|]. reflexivity. Qed.

Lemma process_product (OK : ops_ok O) a path W H m : m < 32 -> W < unset ->
  loadAndProcessImage O a path (W, H) m =
  Some (match product O a W H m path with None => None | Some i => Some (i, (W, H)) end).
Proof.
  intros Hm HW. rewrite process_steps; [|exact Hm|].
  2:{ intros f w h c E. destruct (k_load _ OK _ _ _ _ _ E). lia. }
  unfold product. destruct (o_load O path) as [[[[f w] h] c]|]; [|reflexivity].
  rewrite used_later by exact HW. reflexivity.
Qed.

Fixpoint products (a : cl) (W H : N) (paths : list string) : option (list (image C)) :=
  match paths with
  | [] => Some []
  | p :: r => match product O a W H 0 p, products a W H r with
              | Some i, Some is => Some (i :: is)
              | _, _ => None
              end
  end.

Lemma load_later (OK : ops_ok O) a W H paths : W < unset ->
  load_inputs O a paths (W, H) =
  Some (match products a W H paths with None => None | Some is => Some (is, (W, H)) end).
Proof.
  intros HW. induction paths as [|p r IH]; [reflexivity|]. cbn [load_inputs products].
  rewrite process_product by (auto; lia). cbn [obind].
  destruct (product O a W H 0 p); [|reflexivity]. rewrite IH. cbn [obind].
  destruct (products a W H r); reflexivity.
Qed.

Lemma load_first (OK : ops_ok O) a p r : sizes_ok a ->
  load_inputs O a (p :: r) unsets =
  Some (match o_load O p with
        | None => None
        | Some (f, w, h, c) =>
            match products a (fst (asked a w h)) (snd (asked a w h)) (p :: r) with
            | None => None
            | Some is => Some (is, asked a w h)
            end
        end).
Proof.
  intros SZ. cbn [load_inputs]. rewrite process_steps; [|lia|].
  2:{ intros f w h c E. destruct (k_load _ OK _ _ _ _ _ E). lia. }
  cbn [obind]. destruct (o_load O p) as [[[[f w] h] c]|] eqn:E; [|reflexivity].
  rewrite used_first. destruct (asked_range OK a p f w h c SZ E) as [A1 A2].
  destruct (asked a w h) as [W H] eqn:EA. cbn [fst snd] in *. cbv zeta.
  rewrite (load_later OK a W H r A1). cbn [obind products].
  unfold product at 1. rewrite E. destruct (products a W H r); reflexivity.
Qed.

Lemma products_some a W H paths : (forall p, In p paths -> o_load O p <> None) <->
  exists is, products a W H paths = Some is.
Proof.
  induction paths as [|p r IH]; [split; [exists []; reflexivity|intros _ p []]|].
  cbn [products]. unfold product. split.
  - intros A. destruct (o_load O p) as [[[[f w] h] c]|] eqn:E; [|exfalso; apply (A p); [left; reflexivity|exact E]].
    destruct (proj1 IH) as [is ->]; [intros q I; apply A; right; exact I|]. eauto.
  - intros [is E]. destruct (o_load O p) as [[[[f w] h] c]|] eqn:E1; [|discriminate].
    destruct (products a W H r) as [is'|] eqn:E2; [|discriminate].
    intros q [<-|I]; [congruence|]. apply (proj2 IH); eauto.
Qed.

Lemma products_nth a W H paths is : products a W H paths = Some is ->
  length is = length paths /\
  forall k p, nth_error paths k = Some p -> exists i, nth_error is k = Some i /\ product O a W H 0 p = Some i.
Proof.
  revert is. induction paths as [|p r IH]; cbn [products]; intros is E.
  - injection E as <-. split; [reflexivity|]. intros [|k] q Hq; discriminate.
  - destruct (product O a W H 0 p) as [i|] eqn:E1; [|discriminate].
    destruct (products a W H r) as [is'|] eqn:E2; [|discriminate]. injection E as <-.
    destruct (IH is' eq_refl) as [EL EN]. split; [simpl; lia|].
    intros [|k] q Hq; [injection Hq as <-; exists i; auto|]. apply EN. exact Hq.
Qed.

(** The custom mips. *)
Definition mip_ok (a : cl) (levels : N) (e : index * (string * replacement)) : bool :=
  negb (levels <=? x_level (fst e)) &&
  negb (negb (x_face (fst e) =? 0) && negb (match c_dim a with Cube => true | _ => false end)) &&
  match o_load O (fst (snd e)) with None => false | _ => true end.

Definition mip_of (a : cl) (W H : N) (e : index * (string * replacement))
  : (N * N * N) * (image C * replacement) :=
  let '(k, (p, r)) := e in
  ((x_face k, x_level k, x_depth k),
   (match product O a W H (x_level k) p with Some i => i | None => NoImage end, r)).

Lemma load_mips_map (OK : ops_ok O) a levels W H l : W < unset -> levels <= 32 ->
  load_mips O a levels l (W, H) =
  Some (if forallb (mip_ok a levels) l then Some (map (mip_of a W H) l) else None).
Proof.
  intros HW HL. induction l as [|[k [p r]] l IH]; [reflexivity|]. cbn [load_mips forallb map].
  unfold mip_ok at 1. cbn [fst snd].
  destruct (N.leb_spec levels (x_level k)) as [Hk|Hk]; cbn [negb andb]; [reflexivity|].
  destruct (negb (x_face k =? 0) && _); cbn [negb andb]; [reflexivity|].
  rewrite process_product by (auto; lia). cbn [obind mip_of].
  unfold product. destruct (o_load O p) as [[[[f w] h] c]|] eqn:E; [|reflexivity].
  rewrite IH. cbn [obind andb]. destruct (forallb (mip_ok a levels) l); reflexivity.
Qed.

Lemma maxMip_le dim w h d : maxMipmapLevels dim w h d <= 32.
Proof.
  unfold maxMipmapLevels, clz. destruct dim; destruct (w =? 0), (h =? 0), (d =? 0); lia.
Qed.

Variable visit : list (index * (string * replacement)) -> list (index * (string * replacement)).

Definition load_levels (a : cl) (W H : N) : N :=
  N.min (c_mipLevels a) (maxMipmapLevels (c_dim a) W H (to_uint (N.of_nat (length (c_images a))))).

Lemma loadImages_form (OK : ops_ok O) a p0 : sizes_ok a -> nth_error (c_images a) 0 = Some p0 ->
  loadImages O visit a =
  Some (match o_load O p0 with
        | None => None
        | Some (f, w, h, c) =>
            let W := fst (asked a w h) in
            let H := snd (asked a w h) in
            match products a W H (c_images a) with
            | None => None
            | Some is => if forallb (mip_ok a (load_levels a W H)) (visit (c_customMips a))
                         then Some (is, map (mip_of a W H) (visit (c_customMips a))) else None
            end
        end).
Proof.
  intros SZ E0. unfold loadImages, load_levels. destruct (c_images a) as [|q r] eqn:EI; [discriminate|].
  injection E0 as ->. rewrite (load_first OK a p0 r SZ).
  destruct (o_load O p0) as [[[[f w] h] c]|] eqn:E; [|reflexivity]. cbv zeta. cbn [obind].
  destruct (asked_range OK a p0 f w h c SZ E) as [A1 A2].
  destruct (asked a w h) as [W H] eqn:EA. cbn [fst snd] in *.
  destruct (products a W H (p0 :: r)) as [is|] eqn:EP; [|reflexivity].
  apply products_nth in EP. destruct EP as [-> _]. cbn [fst snd].
  rewrite load_mips_map; auto.
  2:{ pose proof (maxMip_le (c_dim a) W H (to_uint (N.of_nat (length (p0 :: r))))). lia. }
  cbn [obind]. destruct (forallb _ _); reflexivity.
Qed.

End P.

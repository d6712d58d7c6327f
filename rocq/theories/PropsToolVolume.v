(** C70, for volumes: what the mip levels of the file the tool writes are. *)

From Coq Require Import NArith ZArith List Bool String Lia Permutation Reals Lra.
From Coq Require Import ZifyBool ZifyNat ZifyN.
From Flocq Require Import Core IEEE754.BinarySingleNaN IEEE754.Binary IEEE754.Bits.
From Verif Require Import Base FormatModel FormatSpec ContainerSpec FloatModel FloatSpec ArithModel
  FormatProofs TextureSpec TextureProofs SaveModel SaveSpec SaveRead SaveReadDds SaveReadPvr PropsSave ImageSpec ImageLoops ImageApiProofs
  ImageValueProofs FloatProofs.
From Verif Require Import ImageConvertSpec ToolModel ToolSpec PropsPixel.
From Verif Require Import ConverterModel BlockSpec CompressSpec EncodeModel EncodeSpec PropsEncode.
From Verif Require Import PixelModel PixelSpec PixelProofs TextureModel ImageModel PipelineModel PipelineSpec PipelineProofs PropsPipeline
  CommandLineModel CommandLineSpec ToolImageModel ToolImageSpec ToolImageProofs PropsToolImage ToolBlockSpec PropsToolBlock
  ToolLevelsSpec ToolLevelsProofs ToolResizedProofs PropsToolLevels ToolVolumeProofs.
From Verif Require Import SrgbSpec.
From Verif Require ImageConvertModel ResizeModel NormalModel PropsCommandLine SrgbPow.
Import ListNotations.
Local Open Scope list_scope.
Local Open Scope N_scope.
Local Notation length := List.length.
Local Notation height := TextureModel.height.

Lemma choose_all A B (P : A -> B -> Prop) l : (forall q, In q l -> exists i, P q i) -> exists is, Forall2 P l is.
Proof.
  induction l as [|q l IH]; intros H.
  - exists []. constructor.
  - destruct (H q (or_introl eq_refl)) as (i & Hi). destruct IH as (is & His). { intros; apply H; right; assumption. }
    exists (i :: is). constructor; assumption.
Qed.

Lemma forall2_len A B (P : A -> B -> Prop) l k : Forall2 P l k -> length l = length k.
Proof. induction 1; cbn; congruence. Qed.

Lemma side_third n m : side n m / side n (m + 1) <= 3.
Proof.
  unfold side. rewrite N.pow_add_r, N.pow_1_r, <- N.div_div by (try lia; apply N.pow_nonzero; lia).
  set (q := n / 2 ^ m). clearbody q.
  apply N.lt_succ_r, N.div_lt_upper_bound; lia.
Qed.

(** The levels made of images in the range. *)
Lemma volume_levels pw W F enc fl a B t cv w h p0 f l lo hi m d : freeimage_ok pw F ->
  computes W (c_textureCS a) enc -> (forall e, N.of_nat (length (wo_enc W e)) = answer_bytes e) ->
  createConverter fl (c_fmt a) (c_ttyp a) = Some cv ->
  space_ok pw (c_textureCS a) (c_ttyp a) -> c_dim a = Dim3D -> c_imageType a = IT_Array -> c_ttyp a <> T_UFloat ->
  lsb_layout (c_fmt a) = Some l -> averages pw F (c_mipFilter a) -> start_ok B (c_textureCS a) ->
  wanted (image_ops pw F (c_imageCS a)) fl (fun c v i => enc c v (view pw i)) a w h t ->
  nth_error (c_images a) 0 = Some p0 -> N.of_nat (length (c_images a)) < 2 ^ 31 -> w < 2 ^ 31 -> h < 2 ^ 31 ->
  (forall q, In q (c_images a) -> exists b,
    ((exists i, product (image_ops pw F (c_imageCS a)) a w h 0 q = Some i /\ b = iconvert (image_lib pw F) i I_RGBAF) /\
     ranged pw (c_textureCS a) (fun c => c <> ChE) (fun c => (IZR (least (c_ttyp a) f) - level_error B 2 (c_textureCS a) (c_ttyp a) f c 0)%R)
       (fun c => (IZR (greatest (c_ttyp a) f) + level_error B 2 (c_textureCS a) (c_ttyp a) f c 0)%R) b (width t 0) (height t 0)) /\
     ranged pw (c_textureCS a) (fun c => exists bt, In (c, bt) l)
       (fun c => (Rmax (lo c) (IZR (least (c_ttyp a) f)) - level_error B 2 (c_textureCS a) (c_ttyp a) f c 0)%R)
       (fun c => (Rmin (hi c) (IZR (greatest (c_ttyp a) f)) + level_error B 2 (c_textureCS a) (c_ttyp a) f c 0)%R) b (width t 0) (height t 0) /\
     (forall c bt, In (c, bt) l -> (Rmax (lo c) (IZR (least (c_ttyp a) f)) <= Rmin (hi c) (IZR (greatest (c_ttyp a) f)))%R)) ->
  let '(wm, hm) := turned a (side w m) (side h m) in
  m < mipLevelCount t -> d < side (N.of_nat (length (c_images a))) m ->
  (forall j, 1 <= j <= m -> find_mip (c_customMips a) 0 j 0 = None) -> fits (c_fmt a) wm hm ->
  in_range t 0 m d /\ exists b, dataF t 0 m d = Some (Some b) /\ level_ranged (wo_pack W) a B f wm hm m lo hi b.
Proof.
  intros FK CP Enc CV0 SO D3 IA TU EL AV SB WT X1 LN UB VB PR.
  pose proof (w_data _ _ _ _ _ _ _ WT) as (cv' & CV & _ & _ & _ & VO).
  assert (cv' = cv) by congruence. subst cv'.
  destruct (turned a (side w m) (side h m)) as [wm hm] eqn:TM.
  intros Hm Hd NC Ft.
  assert (P2 : passes (c_dim a) = 2%Z) by (rewrite D3; reflexivity).
  assert (M31 : m <= 31).
  { pose proof (w_levels _ _ _ _ _ _ _ WT) as WL. pose proof (maxMip_le (c_dim a) (N.max 1 w) (N.max 1 h) (layers a)). lia. }
  assert (LY' : layers a = N.of_nat (length (c_images a))) by (unfold layers; rewrite IA; reflexivity).
  assert (DP : forall j, j < mipLevelCount t -> depth t j = side (layers a) j).
  { intros j Hj. destruct (w_extents _ _ _ _ _ _ _ WT j Hj) as (_ & _ & ->). rewrite D3. reflexivity. }
  assert (IM0 : 0 < N.of_nat (length (c_images a))).
  { destruct (c_images a); [discriminate X1|]. cbn [length]. lia. }
  assert (IR : in_range t 0 m d).
  { split; [exact Hm|]. split; [rewrite (DP m Hm), LY'; exact Hd|].
    rewrite (w_faces _ _ _ _ _ _ _ WT), D3. lia. }
  destruct (field_bits fl _ _ _ _ CV EL TU) as (_ & _ & FB).
  pose proof (level_size _ _ _ _ _ _ _ _ m WT Hm) as LS. rewrite TM in LS. injection LS as LW LHt.
  set (lo' := fun c => Rmax (lo c) (IZR (least (c_ttyp a) f))) in *. set (hi' := fun c => Rmin (hi c) (IZR (greatest (c_ttyp a) f))) in *.
  destruct (choose_all _ _ _ _ PR) as (bases & FB2).
  assert (LB : N.of_nat (length bases) = depth t 0).
  { rewrite (DP 0 ltac:(lia)), LY'. rewrite <- (forall2_len _ _ _ _ _ FB2).
    unfold side. rewrite N.div_1_r. lia. }
  assert (QB : forall b, In b bases ->
     ranged pw (c_textureCS a) (fun c => c <> ChE) (fun c => (IZR (least (c_ttyp a) f) - level_error B 2 (c_textureCS a) (c_ttyp a) f c 0)%R)
       (fun c => (IZR (greatest (c_ttyp a) f) + level_error B 2 (c_textureCS a) (c_ttyp a) f c 0)%R) b (width t 0) (height t 0) /\
     ranged pw (c_textureCS a) (fun c => exists bt, In (c, bt) l) (fun c => (lo' c - level_error B 2 (c_textureCS a) (c_ttyp a) f c 0)%R)
       (fun c => (hi' c + level_error B 2 (c_textureCS a) (c_ttyp a) f c 0)%R) b (width t 0) (height t 0) /\
     (forall c bt, In (c, bt) l -> (lo' c <= hi' c)%R)).
  { intros b Hb. clear -FB2 Hb. induction FB2 as [|q b' ls lb (H1 & H2 & H3) _ IH]; [destruct Hb|].
    destruct Hb as [<- | Hb]; [split; [apply H1|split; assumption]|apply IH, Hb]. }
  destruct (VO D3 bases) with (m := m) (d := d) as (i & Ni & DA).
  { clear -FB2. induction FB2 as [|q b ls lb ((HQ & _) & _) _ IH]; constructor; assumption. }
  { exact Hm. } { rewrite (DP m Hm), LY'. exact Hd. }
  split; [exact IR|]. eexists. split; [exact DA|].
  pose proof (volume_ranged pw F FK B (c_textureCS a) (fun c => exists bt, In (c, bt) l) lo' hi' (c_ttyp a) f bases t (c_mipFilter a)
    (custom_volume (image_ops pw F (c_imageCS a)) a w h t) (N.to_nat m) SB AV SO) as CR.
  rewrite N2Nat.id in CR. cbv zeta in CR.
  destruct CR as [(_ & _ & CR) _].
  { exact M31. }
  { exact (w_space _ _ _ _ _ _ _ WT). }
  { intros c (bt & I). apply (FB c bt I). }
  { intros c _. split; [apply Rmax_r|apply Rmin_r]. }
  { intros j Hj. pose proof (level_size _ _ _ _ _ _ _ _ j WT ltac:(lia)) as LJ. rewrite (DP j ltac:(lia)), LY'.
    assert (SD : forall n, n < 2 ^ 31 -> 1 <= side n j < 2 ^ 31).
    { intros n0 Hn. unfold side. assert (n0 / 2 ^ j <= n0) by (apply N.div_le_upper_bound; [apply N.pow_nonzero; lia|]; assert (2 ^ j <> 0) by (apply N.pow_nonzero; lia); nia). lia. }
    unfold turned in LJ. destruct (quarter_turn a); injection LJ as -> ->; (split; [|split]); apply SD; assumption. }
  { intros j Hj. rewrite (DP j ltac:(lia)), (DP (j + 1) ltac:(lia)). apply side_third. }
  { intros j Hj. unfold custom_volume, custom_content. rewrite (NC j) by lia. reflexivity. }
  { exact LB. }
  { apply Forall_forall. intros b Hb. apply (QB b Hb). }
  { apply Forall_forall. intros b Hb. apply (QB b Hb). }
  rewrite LW, LHt, <- P2 in CR. rewrite Forall_forall in CR.
  assert (IN : In i (fst (chain (gen_slices (image_lib pw F) t (c_mipFilter a)) (custom_volume (image_ops pw F (c_imageCS a)) a w h t)
     bases bases (N.to_nat m)))) by (eapply nth_error_In; exact Ni).
  eapply (ranged_encoded pw W enc fl a B cv f wm hm _ l m lo hi lo' hi'); try eassumption; [|exact (CR i IN)].
  intros c bt I. unfold lo', hi'. split; [apply Rmax_r|]. split; [apply Rmax_l|]. split; [|split; [apply Rmin_l|apply Rmin_r]].
  destruct (PR p0 (nth_error_In _ _ X1)) as (b & _ & _ & Q). apply (Q c bt I).
Qed.

(** Without custom levels in between, every channel of every pixel of every slice of a level stands
    for a number within the range of that channel of the processed pictures. *)
Theorem C70_volume : forall pw W F enc psize fl file isnum cap visit visit' args a Y path fuel evs,
  freeimage_ok pw F -> enc_sized psize enc -> computes W (c_textureCS a) enc ->
  (forall e, N.of_nat (length (wo_enc W e)) = answer_bytes e) ->
  (forall m, Permutation (visit m) m) -> (forall m, Permutation (visit' m) m) ->
  parse fl file isnum cap visit args = POk a ->
  N.of_nat (length (c_images a)) < 2 ^ 31 -> single_mode a ->
  c_output a = Some path -> ~ In 0 (codes path) -> (length (codes path) < fuel)%nat ->
  run_tool (image_ops pw F (c_imageCS a)) visit' fl (fun c v i => enc c v (view pw i)) Y fuel a = Some (0, evs) ->
  (c_ftype a = FT_KTX -> ktx_fits psize a evs) -> plain_job pw a ->
  (c_textureCS a = CS_sRGB -> c_ttyp a = T_UNorm /\ pow_ok pw) ->
  c_dim a = Dim3D -> c_imageType a = IT_Array -> c_ttyp a <> T_UFloat -> lsb_layout (c_fmt a) <> None ->
  averages pw F (c_mipFilter a) ->
  exists p0 f0 w0 h0 px0 t bytes n room before,
    nth_error (c_images a) 0 = Some p0 /\ fi_load pw F p0 = Some (f0, w0, h0, px0) /\
    y_room Y n = Some room /\
    evs = before ++ [TvSave t SR_Success (Some (firstn (N.to_nat room) bytes))] /\
    forall f w h m d lo hi, asked a w0 h0 = (w, h) ->
      (forall q, In q (c_images a) -> exists px, fi_load pw F q = Some (f, w, h, px) /\
         let s := Bitmap f w h (c_imageCS a) px in plain_input pw s /\
         forall l c b, lsb_layout (c_fmt a) = Some l -> In (c, b) l -> spans pw a s c (lo c) (hi c)) ->
      let '(wm, hm) := turned a (side w m) (side h m) in
      m < mipLevelCount t -> d < side (N.of_nat (length (c_images a))) m ->
      (forall j, 1 <= j <= m -> find_mip (c_customMips a) 0 j 0 = None) ->
      fits (c_fmt a) wm hm ->
      exists b, surface psize (c_ftype a) (c_dim a) bytes 0 m d = Some b /\
        level_ranged (wo_pack W) a (first_error a) f wm hm m lo hi b.
Proof.
  intros pw W F enc psize fl file isnum cap visit visit' args a Y path fuel evs FK ES CP Enc PV PV' E LN SM EO NZ HF ER KF PJ SO D3 IA TU LY AV.
  destruct (lsb_layout (c_fmt a)) as [l|] eqn:EL; [|congruence].
  destruct (file_surfaces _ _ _ psize fl file isnum cap visit visit' args a Y path fuel evs (image_ops_ok pw F (c_imageCS a) FK)
      (viewed_sized pw psize enc ES) PV PV' E ltac:(lia) SM EO NZ HF ER KF)
    as (p0 & f & w & h & c & t & bytes & n & room & before & X1 & X2 & X3 & X4 & WT & X).
  cbn [image_ops o_load] in X2. destruct (fi_load pw F p0) as [[[[f0 w0] h0] px0]|] eqn:L0; [|discriminate].
  injection X2 as E1 E2 E3 E4. subst f w h c.
  exists p0, f0, w0, h0, px0, t, bytes, n, room, before. repeat (split; [assumption|]).
  intros f w h m d lo hi AS ALL.
  pose proof (w_data _ _ _ _ _ _ _ WT) as (cv & CV & _).
  rewrite AS in *. cbn [fst snd] in *.
  destruct (field_bits fl _ _ _ _ CV EL TU) as (_ & _ & FB).
  set (all4 := [(ChR, 1); (ChG, 1); (ChB, 1); (ChA, 1)]).
  assert (I4 : forall c, c <> ChE -> exists bt, In (c, bt) all4).
  { intros c C. exists 1. destruct c; try congruence; cbn; auto. }
  assert (P2 : passes (c_dim a) = 2%Z) by (rewrite D3; reflexivity).
  assert (WB : 1 <= w < 2 ^ 31 /\ 1 <= h < 2 ^ 31).
  { destruct (ALL p0 (nth_error_In _ _ X1)) as (px & LD & PI & SP).
    destruct (fk_load pw F FK p0 f w h px (c_imageCS a) LD) as (W1 & H1 & (G1 & G2 & _)).
    cbn [b_w b_h] in G1, G2. lia. }
  pose proof (volume_levels pw W F enc fl a (first_error a) t cv w h p0 f l lo hi m d FK CP Enc CV SO D3 IA TU EL AV (first_start a) WT X1 LN
    (proj2 (proj1 WB)) (proj2 (proj2 WB))) as VL.
  destruct (turned a (side w m) (side h m)) as [wm hm].
  intros Hm Hd NC Ft.
  pose proof (first_size _ _ _ _ _ _ _ _ WT ltac:(lia)) as Z0.
  replace (side w 0) with w in Z0 by (unfold side; rewrite N.div_1_r; lia). replace (side h 0) with h in Z0 by (unfold side; rewrite N.div_1_r; lia).
  injection Z0 as Z1 Z2.
  destruct VL as (IR & b & DA & LV); try assumption.
  { intros q Hq.
    destruct (ALL q Hq) as (px & LD & PI & SP).
    destruct (fk_load pw F FK q f w h px (c_imageCS a) LD) as (W1 & H1 & G).
    destruct (product_ready pw F FK a q f w h px PJ (spaces_proper a (parsed_spaces _ _ _ _ _ _ _ E)) LD PI) as (i & Pi & IC & RDY).
    destruct (product_ranged pw a f w h px l i lo hi (parsed_spaces _ _ _ _ _ _ _ E) G W1 H1 PI (fun c bt I => proj1 (FB c bt I)) (fun c bt I => SP l c bt eq_refl I) RDY) as [LH RG].
    destruct (product_ranged pw a f w h px all4 i (fun _ => IZR (least (c_ttyp a) f)) (fun _ => IZR (greatest (c_ttyp a) f)) (parsed_spaces _ _ _ _ _ _ _ E) G W1 H1 PI) as [_ RA].
    { intros c bt I ->. cbn in I. intuition congruence. }
    { intros c bt _. split; [|intros _; eauto]. intros x y IN. apply number_within, chan_unit, processed_unit.
      apply (meaning_unit pw _ x y G IN PI). }
    { exact RDY. }
    rewrite P2, <- Z1, <- Z2 in RG, RA.
    exists i. split; [|split; [exact RG|exact LH]].
    split; [exists i; split; [exact Pi|symmetry; exact IC]|].
    destruct RA as (b & Eb & B1 & B2 & B3 & B4 & B5 & R). exists b. do 6 (split; [eassumption|]).
    intros c C x y XX YY. specialize (R c (I4 c C) x y XX YY). rewrite Rmax_left, Rmin_left in R by lra. exact R. }
  exists b. split; [exact (X 0 m d b IR DA)|exact LV].
Qed.
Print Assumptions C70_volume.

(** The same for pictures that are resized, for a box of the colours of the pictures. *)
Theorem C70_volume_resized : forall pw W F enc psize fl file isnum cap visit visit' args a Y path fuel evs,
  freeimage_ok pw F -> enc_sized psize enc -> computes W (c_textureCS a) enc ->
  (forall e, N.of_nat (length (wo_enc W e)) = answer_bytes e) ->
  (forall m, Permutation (visit m) m) -> (forall m, Permutation (visit' m) m) ->
  parse fl file isnum cap visit args = POk a ->
  N.of_nat (length (c_images a)) < 2 ^ 31 -> single_mode a ->
  c_output a = Some path -> ~ In 0 (codes path) -> (length (codes path) < fuel)%nat ->
  run_tool (image_ops pw F (c_imageCS a)) visit' fl (fun c v i => enc c v (view pw i)) Y fuel a = Some (0, evs) ->
  (c_ftype a = FT_KTX -> ktx_fits psize a evs) -> plain_job pw a ->
  (c_textureCS a = CS_sRGB -> c_ttyp a = T_UNorm /\ pow_ok pw) ->
  c_dim a = Dim3D -> c_imageType a = IT_Array -> c_ttyp a <> T_UFloat -> lsb_layout (c_fmt a) <> None ->
  averages pw F (c_mipFilter a) -> averages pw F (c_resizeFilter a) ->
  exists p0 f0 w0 h0 px0 t bytes n room before,
    nth_error (c_images a) 0 = Some p0 /\ fi_load pw F p0 = Some (f0, w0, h0, px0) /\
    y_room Y n = Some room /\
    evs = before ++ [TvSave t SR_Success (Some (firstn (N.to_nat room) bytes))] /\
    forall f u v m d blo bhi lo hi, asked a w0 h0 = (u, v) -> u < 2 ^ 31 -> v < 2 ^ 31 ->
      (forall q, In q (c_images a) -> exists w h px, fi_load pw F q = Some (f, w, h, px) /\
         let s := Bitmap f w h (c_imageCS a) px in plain_input pw s /\
         forall l c b, lsb_layout (c_fmt a) = Some l -> In (c, b) l -> box_spans pw a s blo bhi c (lo c) (hi c)) ->
      let '(wm, hm) := turned a (side u m) (side v m) in
      m < mipLevelCount t -> d < side (N.of_nat (length (c_images a))) m ->
      (forall j, 1 <= j <= m -> find_mip (c_customMips a) 0 j 0 = None) ->
      fits (c_fmt a) wm hm ->
      exists b, surface psize (c_ftype a) (c_dim a) bytes 0 m d = Some b /\
        level_ranged (wo_pack W) a (resized_error a) f wm hm m lo hi b.
Proof.
  intros pw W F enc psize fl file isnum cap visit visit' args a Y path fuel evs FK ES CP Enc PV PV' E LN SM EO NZ HF ER KF PJ SO D3 IA TU LY AV AVR.
  destruct (lsb_layout (c_fmt a)) as [l|] eqn:EL; [|congruence].
  destruct (file_surfaces _ _ _ psize fl file isnum cap visit visit' args a Y path fuel evs (image_ops_ok pw F (c_imageCS a) FK)
      (viewed_sized pw psize enc ES) PV PV' E ltac:(lia) SM EO NZ HF ER KF)
    as (p0 & f & w & h & c & t & bytes & n & room & before & X1 & X2 & X3 & X4 & WT & X).
  cbn [image_ops o_load] in X2. destruct (fi_load pw F p0) as [[[[f0 w0] h0] px0]|] eqn:L0; [|discriminate].
  injection X2 as E1 E2 E3 E4. subst f w h c.
  exists p0, f0, w0, h0, px0, t, bytes, n, room, before. repeat (split; [assumption|]).
  intros f w h m d blo bhi lo hi AS UB VB ALL.
  pose proof (w_data _ _ _ _ _ _ _ WT) as (cv & CV & _).
  rewrite AS in *. cbn [fst snd] in *.
  destruct (field_bits fl _ _ _ _ CV EL TU) as (_ & _ & FB).
  set (all4 := [(ChR, 1); (ChG, 1); (ChB, 1); (ChA, 1)]).
  assert (I4 : forall c, c <> ChE -> exists bt, In (c, bt) all4).
  { intros c C. exists 1. destruct c; try congruence; cbn; auto. }
  assert (P2 : passes (c_dim a) = 2%Z) by (rewrite D3; reflexivity).
  pose proof (volume_levels pw W F enc fl a (resized_error a) t cv w h p0 f l lo hi m d FK CP Enc CV SO D3 IA TU EL AV (resized_start a) WT X1 LN
    UB VB) as VL.
  destruct (turned a (side w m) (side h m)) as [wm hm].
  intros Hm Hd NC Ft.
  pose proof (first_size _ _ _ _ _ _ _ _ WT ltac:(lia)) as Z0.
  injection Z0 as Z1 Z2.
  destruct VL as (IR & b & DA & LV); try assumption.
  { intros q Hq.
    destruct (ALL q Hq) as (wq & hq & px & LD & PI & SP).
    assert (D0 : forall n, n < 2 ^ 31 -> 1 <= side n 0 < 2 ^ 31) by (intros n0 Hn; unfold side; rewrite N.div_1_r; lia).
    destruct (layout_some _ _ EL) as (c0 & bt0 & I0).
    destruct (fk_load pw F FK q f wq hq px (c_imageCS a) LD) as (W1 & H1 & G).
    set (s := Bitmap f wq hq (c_imageCS a) px) in *.
    assert (BX := proj1 (SP l c0 bt0 eq_refl I0)).
    destruct (product_resized pw F FK a q f w h 0 wq hq px blo bhi PJ (spaces_proper a (parsed_spaces _ _ _ _ _ _ _ E)) LD
      (proj2 (D0 w UB)) (proj2 (D0 h VB)) PI AVR SO BX) as (i & T & Pi & IC & BT & RDY).
    destruct (resized_ranged pw a f (side w 0) (side h 0) wq hq l i px T blo bhi lo hi (parsed_spaces _ _ _ _ _ _ _ E) (proj1 (D0 w UB)) (proj1 (D0 h VB))
      (fun c bt I => proj1 (FB c bt I)) (fun c bt I => SP l c bt eq_refl I) BT RDY) as [LH RG].
    destruct (resized_ranged pw a f (side w 0) (side h 0) wq hq all4 i px T blo bhi (fun _ => IZR (least (c_ttyp a) f)) (fun _ => IZR (greatest (c_ttyp a) f))
      (parsed_spaces _ _ _ _ _ _ _ E) (proj1 (D0 w UB)) (proj1 (D0 h VB))) as [_ RA].
    { intros c bt I ->. cbn in I. intuition congruence. }
    { intros c bt _. split; [exact BX|]. split; [|intros _; eauto]. intros k Bk. apply number_within, chan_unit, finished_unit.
      exact (boxed_unit _ _ _ Bk). }
    { exact BT. }
    { exact RDY. }
    rewrite P2, <- Z1, <- Z2 in RG, RA.
    exists i. split; [|split; [exact RG|exact LH]].
    split; [exists i; split; [exact Pi|symmetry; exact IC]|].
    destruct RA as (b & Eb & B1 & B2 & B3 & B4 & B5 & R). exists b. do 6 (split; [eassumption|]).
    intros c C x y XX YY. specialize (R c (I4 c C) x y XX YY). rewrite Rmax_left, Rmin_left in R by lra. exact R. }
  exists b. split; [exact (X 0 m d b IR DA)|exact LV].
Qed.
Print Assumptions C70_volume_resized.

(** ** The conditions can be met *)

(** A library with two pictures of 4 x 2 pixels that picks pixels when it resizes. *)
Definition ex_two : freeimage pw0 := FreeImage pw0
  (fun p => if String.eqb p "aa" then Some (I_RGBA8, 4, 2, ex_picture)
            else if String.eqb p "bb" then Some (I_RGBA8, 4, 2, ex_other) else None)
  (fi_conv pw0 ex_library) (fi_rescale pw0 ex_library)
  (fi_rotate pw0 ex_library) (fi_fliph pw0 ex_library) (fi_flipv pw0 ex_library)
  (fi_alloc pw0 ex_library) (fi_number pw0 ex_library).

Lemma ex_two_ok : freeimage_ok pw0 ex_two.
Proof.
  destruct ex_library_ok. constructor; try assumption.
  intros p f w h px cs H. cbn [ex_two fi_load] in H.
  destruct (String.eqb p "aa"); [|destruct (String.eqb p "bb"); [|discriminate]]; injection H as <- <- <- <-;
    (split; [lia|]); (split; [lia|]); (split; [reflexivity|]); (split; [reflexivity|]); intros x y [X Y];
    cbn [b_w b_h] in X, Y; unfold at_, ex_picture, ex_other; cbn [b_px b_h b_fmt stored]; unfold u8, range; lia.
Qed.

Lemma ex_two_averages rf : averages pw0 ex_two rf.
Proof. exact (ex_averages rf). Qed.

Definition args9 : list string := ["-a"; "aa"; "-a"; "bb"; "-d"; "3"; "-m"; "-f"; "r8g8b8a8"; "-o"; "o.pvr"]%string.
Definition level9 (m d : N) : option (list N) :=
  match run_tool (image_ops pw0 ex_two (c_imageCS (parsed args9))) PropsCommandLine.asis PropsCommandLine.fl1
    (fun c v i => serial Wp (c_textureCS (parsed args9)) psize0 c v (view pw0 i)) Y1 100 (parsed args9) with
  | Some (0, [TvSave _ SR_Success (Some b)]) => surface psize0 (c_ftype (parsed args9)) Dim3D b 0 m d
  | _ => None
  end.
(* level 1 has one slice, made of the two pictures *)
Example C70_volume_case : PropsCommandLine.parse1 args9 = POk (parsed args9) /\ plain_job pw0 (parsed args9) /\
  c_textureCS (parsed args9) = CS_Linear /\ c_dim (parsed args9) = Dim3D /\ c_imageType (parsed args9) = IT_Array /\
  c_customMips (parsed args9) = [] /\ asked (parsed args9) 4 2 = (4, 2) /\ (side 4 1, side 2 1, side 2 1) = (2, 1, 1) /\
  fits (c_fmt (parsed args9)) 2 1 /\ level9 0 1 = Some [1; 2; 3; 255; 2; 2; 3; 255; 3; 2; 3; 255; 4; 2; 3; 255; 1; 2; 3; 255; 2; 2; 3; 255; 3; 2; 3; 255; 4; 2; 3; 255] /\ level9 1 0 = Some [1; 5; 129; 192; 12; 25; 129; 193].
Proof.
  split; [vm_compute; reflexivity|].
  split. { split; [vm_compute; reflexivity|]. intros H. vm_compute in H. discriminate. }
  do 6 (split; [vm_compute; reflexivity|]).
  split. { change (fits F_R8G8B8A8 2 1). unfold fits, spec_block. cbn. lia. }
  split; vm_compute; reflexivity.
Qed.

(** An sRGB job. *)
Definition args10 : list string := ["-a"; "aa"; "-a"; "bb"; "-d"; "3"; "--srgb"; "-m"; "-f"; "r8g8b8a8"; "-o"; "o.pvr"]%string.
Definition args11 : list string := ["-a"; "aa"; "-a"; "bb"; "-d"; "3"; "--srgb"; "--pre-multiply"; "-m"; "-f"; "r8g8b8a8"; "-o"; "o.pvr"]%string.
Example C70_srgb_case : PropsCommandLine.parse1 args10 = POk (parsed args10) /\ plain_job SrgbPow.good_pow (parsed args10) /\
  c_textureCS (parsed args10) = CS_sRGB /\ c_ttyp (parsed args10) = T_UNorm /\ pow_ok SrgbPow.good_pow /\
  coarse (parsed args10) = false /\
  level_error (first_error (parsed args10)) (passes (c_dim (parsed args10))) CS_sRGB T_UNorm I_RGBA8 ChG 5 = (253 / 4194304)%R /\
  (* premultiplied in linear light *)
  PropsCommandLine.parse1 args11 = POk (parsed args11) /\ plain_job SrgbPow.good_pow (parsed args11) /\ coarse (parsed args11) = true /\
  level_error (first_error (parsed args11)) (passes (c_dim (parsed args11))) CS_sRGB T_UNorm I_RGBA8 ChG 5 = (1660 / 4194304)%R.
Proof.
  split; [vm_compute; reflexivity|].
  split. { split; [vm_compute; reflexivity|]. intros _ _. exact SrgbPow.good_pow_ok. }
  do 2 (split; [vm_compute; reflexivity|]). split; [exact SrgbPow.good_pow_ok|]. split; [vm_compute; reflexivity|].
  split.
  { assert (CO : first_error (parsed args10) = 13%R) by (unfold first_error; replace (coarse (parsed args10)) with false by (vm_compute; reflexivity); reflexivity).
    rewrite CO. unfold level_error. change (IZR (2 ^ 22)) with 4194304%R. change (passes (c_dim (parsed args10))) with 2%Z. cbn [loss]. simpl (IZR (Z.of_N 5)). lra. }
  split; [vm_compute; reflexivity|].
  split. { split; [vm_compute; reflexivity|]. intros _ _. exact SrgbPow.good_pow_ok. }
  split; [vm_compute; reflexivity|].
  assert (CO : first_error (parsed args11) = 1420%R) by (unfold first_error; replace (coarse (parsed args11)) with true by (vm_compute; reflexivity); reflexivity).
  rewrite CO. unfold level_error. change (IZR (2 ^ 22)) with 4194304%R. change (passes (c_dim (parsed args11))) with 2%Z. cbn [loss]. simpl (IZR (Z.of_N 5)). lra.
Qed.

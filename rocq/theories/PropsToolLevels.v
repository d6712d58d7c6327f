(** C70: what the mip levels of the file the tool writes are. *)

From Coq Require Import NArith ZArith List Bool String Lia Permutation Reals Lra.
From Coq Require Import ZifyBool ZifyNat ZifyN.
From Flocq Require Import Core IEEE754.BinarySingleNaN IEEE754.Binary IEEE754.Bits.
From Verif Require Import Base FormatModel FormatSpec ContainerSpec FloatModel FloatSpec ArithModel
  FormatProofs TextureSpec TextureProofs SaveModel SaveSpec SaveRead SaveReadDds SaveReadPvr PropsSave ImageSpec ImageLoops ImageApiProofs
  ImageValueProofs FloatProofs.
From Verif Require Import ImageConvertSpec ToolModel ToolSpec PropsPixel.
From Verif Require Import ConverterModel BlockSpec CompressSpec EncodeModel EncodeSpec PropsEncode.
From Verif Require Import PixelModel PixelSpec PixelProofs TextureModel ImageModel PipelineModel PipelineSpec PipelineProofs PropsPipeline
  CommandLineModel CommandLineSpec ToolImageModel ToolImageSpec ToolImageProofs PropsToolImage ToolBlockSpec PropsToolBlock
  ToolLevelsSpec ToolLevelsProofs ToolResizedProofs.
From Verif Require Import SrgbSpec.
From Verif Require ImageConvertModel ResizeModel NormalModel PropsCommandLine.
Import ListNotations.
Local Open Scope list_scope.
Local Open Scope N_scope.
Local Notation length := List.length.
Local Notation height := TextureModel.height.
Local Notation place := PipelineSpec.place.

(** ** The surfaces of the file *)

Lemma file_surfaces C (O : ops C) enc psize fl file isnum cap visit visit' args a Y path fuel evs :
  ops_ok O -> enc_sized psize enc ->
  (forall m, Permutation (visit m) m) -> (forall m, Permutation (visit' m) m) ->
  parse fl file isnum cap visit args = POk a ->
  N.of_nat (length (c_images a)) < 2 ^ 32 -> single_mode a ->
  c_output a = Some path -> ~ In 0 (codes path) -> (length (codes path) < fuel)%nat ->
  run_tool O visit' fl enc Y fuel a = Some (0, evs) ->
  (c_ftype a = FT_KTX -> ktx_fits psize a evs) ->
  exists p0 f w h c t bytes n room before,
    nth_error (c_images a) 0 = Some p0 /\ o_load O p0 = Some (f, w, h, c) /\
    y_room Y n = Some room /\
    evs = before ++ [TvSave t SR_Success (Some (firstn (N.to_nat room) bytes))] /\
    wanted O fl enc a (fst (asked a w h)) (snd (asked a w h)) t /\
    forall face m d b, in_range t face m d -> dataF t face m d = Some (Some b) ->
      surface psize (c_ftype a) (c_dim a) bytes face m d = Some b.
Proof.
  intros OK ES PV PV' E LN SM EO NZ HF ER KF.
  destruct (C54_file C O enc psize fl file isnum cap visit visit' args a Y path fuel evs OK ES PV PV' E LN SM EO NZ HF ER)
    as (p0 & f & w & h & c & t & bytes & n & room & before & E0 & EL & WT & R & SV & EY & EE & _).
  exists p0, f, w, h, c, t, bytes, n, room, before. do 4 (split; [assumption|]). split; [exact WT|].
  pose proof (w_dim _ _ _ _ _ _ _ WT) as WD.
  intros face m d b IR DB. unfold surface.
  assert (EE' : element_of t d = match c_dim a with Dim3D => 0 | _ => d end /\ slice_of t d = match c_dim a with Dim3D => d | _ => 0 end).
  { unfold element_of, slice_of. rewrite WD. split; destruct (c_dim a); reflexivity. }
  destruct EE' as [<- <-].
  destruct (c_ftype a) eqn:FT.
  - destruct (PropsCommandLine.C41_consistent _ _ _ _ _ _ _ E) as (_ & _ & _ & _ & _ & NA & _). congruence.
  - destruct (C25_dds_reads_back C (o_lib O) enc psize t bytes (k_lib _ OK) ES R SV)
      as (p & g & RD & _ & _ & _ & _ & _ & _ & _ & _ & _ & _ & _ & _ & XS).
    rewrite RD. destruct (XS face m d IR) as (b' & Db & Nb). congruence.
  - destruct (KF eq_refl) as [P4 FIT].
    destruct (FIT t SR_Success (Some (firstn (N.to_nat room) bytes))) as [F1 F2].
    { rewrite EE. apply in_or_app. right. left. reflexivity. }
    rewrite <- WD in F1.
    destruct (C26_ktx_reads_back C (o_lib O) enc psize t bytes (k_lib _ OK) ES P4 R F1 F2 SV)
      as (p & g & RD & _ & _ & _ & _ & _ & _ & _ & _ & _ & _ & _ & XS).
    rewrite RD. destruct (XS face m d IR) as (b' & Db & Nb). congruence.
  - destruct (C27_pvr_reads_back C (o_lib O) enc psize t bytes (k_lib _ OK) ES R SV)
      as (p & g & RD & _ & _ & _ & _ & _ & _ & _ & _ & _ & _ & _ & _ & _ & XS).
    rewrite RD. destruct (XS face m d IR) as (b' & Db & Nb). congruence.
Qed.

(** ** Custom levels *)

Lemma side_max n m : side (N.max 1 n) m = side n m.
Proof.
  unfold side. destruct (N.eq_dec n 0) as [->|N0].
  - change (N.max 1 0) with 1. assert (P : 2 ^ m <> 0) by (apply N.pow_nonzero; lia).
    rewrite (N.div_0_l _ P). assert (1 / 2 ^ m <= 1) by (apply N.div_le_upper_bound; [exact P|]; nia). lia.
  - replace (N.max 1 n) with n by lia. reflexivity.
Qed.

(** The size of a level is that of the asked size, turned. *)
Lemma level_size C (O : ops C) fl enc a U V t m : wanted O fl enc a U V t -> m < mipLevelCount t ->
  (width t m, height t m) = turned a (side U m) (side V m).
Proof.
  intros WT Hm. destruct (w_extents _ _ _ _ _ _ _ WT m Hm) as (-> & -> & _).
  pose proof (w_size _ _ _ _ _ _ _ WT) as WS. unfold base_size, turned in *.
  destruct (quarter_turn a); injection WS as -> ->; rewrite !side_max; reflexivity.
Qed.

(** A custom picture that has the size of its level is not resized. *)
Lemma custom_kept C (O : ops C) fl enc a U V t face m d k q r i : wanted O fl enc a U V t -> in_range t face m d ->
  find_mip (c_customMips a) face m d = Some (k, (q, r)) -> product O a U V m q = Some i ->
  isValid i = true -> (iwidth i, iheight i) = turned a (side U m) (side V m) ->
  exists cv, createConverter fl (c_fmt a) (c_ttyp a) = Some cv /\
    dataF t face m d = Some (Some (enc cv (convert_args a) (iconvert (o_lib O) i I_RGBAF))).
Proof.
  intros WT IR FM PI VI SI. rewrite <- (level_size C O fl enc a U V t m WT ltac:(apply IR)) in SI.
  pose proof (w_data _ _ _ _ _ _ _ WT) as (cv & CV & _ & CM & _). exists cv. split; [exact CV|].
  apply (CM face m d _ r IR). unfold custom_content. rewrite FM, PI. do 3 f_equal.
  destruct i as [|f w h cs c]; [discriminate|]. cbn [iwidth iheight] in SI. injection SI as -> ->.
  cbn [iresize]. destruct (w_extents _ _ _ _ _ _ _ WT m ltac:(apply IR)) as (E1 & E2 & _).
  assert (W1 : (width t m =? 0) = false) by (rewrite E1; apply N.eqb_neq; unfold side; lia).
  assert (H1 : (height t m =? 0) = false) by (rewrite E2; apply N.eqb_neq; unfold side; lia).
  rewrite W1, H1, !N.eqb_refl. reflexivity.
Qed.

(** A picture given for a level, of the size of the level, is what the file shows there. *)
Theorem C70_custom : forall pw W F enc psize fl file isnum cap visit visit' args a Y path fuel evs,
  freeimage_ok pw F -> enc_sized psize enc -> computes W (c_textureCS a) enc ->
  (forall e, N.of_nat (length (wo_enc W e)) = answer_bytes e) ->
  (forall m, Permutation (visit m) m) -> (forall m, Permutation (visit' m) m) ->
  parse fl file isnum cap visit args = POk a ->
  N.of_nat (length (c_images a)) < 2 ^ 32 -> single_mode a ->
  c_output a = Some path -> ~ In 0 (codes path) -> (length (codes path) < fuel)%nat ->
  run_tool (image_ops pw F (c_imageCS a)) visit' fl (fun c v i => enc c v (view pw i)) Y fuel a = Some (0, evs) ->
  (c_ftype a = FT_KTX -> ktx_fits psize a evs) -> plain_job pw a ->
  exists p0 f0 w0 h0 px0 t bytes n room before cv,
    nth_error (c_images a) 0 = Some p0 /\ fi_load pw F p0 = Some (f0, w0, h0, px0) /\
    y_room Y n = Some room /\
    evs = before ++ [TvSave t SR_Success (Some (firstn (N.to_nat room) bytes))] /\
    createConverter fl (c_fmt a) (c_ttyp a) = Some cv /\
    forall face m d k q r f w h px, in_range t face m d ->
      find_mip (c_customMips a) face m d = Some (k, (q, r)) -> fi_load pw F q = Some (f, w, h, px) ->
      w = side (fst (asked a w0 h0)) m -> h = side (snd (asked a w0 h0)) m ->
      fits (c_fmt a) (fst (turned a w h)) (snd (turned a w h)) ->
      let s := Bitmap f w h (c_imageCS a) px in plain_input pw s -> exists b,
      surface psize (c_ftype a) (c_dim a) bytes face m d = Some b /\
      (c_ttyp a <> T_UFloat -> lsb_layout (c_fmt a) <> None -> shows (wo_pack W) a s b) /\
      (family_of (c_fmt a) <> Fam_None -> family_of (c_fmt a) <> Fam_Pvrtc ->
       (family_of (c_fmt a) = Fam_Etc -> c_ttyp a = T_SNorm ->
        fst (turned a w h) mod 4 = 0 /\ snd (turned a w h) mod 4 = 0) -> block_shows W cv a s b).
Proof.
  intros pw W F enc psize fl file isnum cap visit visit' args a Y path fuel evs FK ES CP Enc PV PV' E LN SM EO NZ HF ER KF PJ.
  destruct (file_surfaces _ _ _ psize fl file isnum cap visit visit' args a Y path fuel evs (image_ops_ok pw F (c_imageCS a) FK)
      (viewed_sized pw psize enc ES) PV PV' E LN SM EO NZ HF ER KF)
    as (p0 & f & w & h & c & t & bytes & n & room & before & X1 & X2 & X3 & X4 & WT & X).
  cbn [image_ops o_load] in X2. destruct (fi_load pw F p0) as [[[[f0 w0] h0] px0]|] eqn:L0; [|discriminate].
  injection X2 as E1 E2 E3 E4. subst f w h c.
  pose proof (w_data _ _ _ _ _ _ _ WT) as (cv & CV & _).
  exists p0, f0, w0, h0, px0, t, bytes, n, room, before, cv. repeat (split; [assumption|]).
  intros face m d k q r f w h px IR FM LD Ew Eh Ft s PI.
  destruct (product_level pw F FK a q f _ _ m w h px PJ (spaces_proper a (parsed_spaces _ _ _ _ _ _ _ E)) LD (eq_sym Ew) (eq_sym Eh) PI) as (i & Pi & IC & (b & Ei & _)).
  assert (ET : turned a w h = result_size a w h).
  { unfold turned, quarter_turn, result_size. destruct (c_rotate a), (c_rotateAngle a); reflexivity. }
  destruct (custom_kept _ _ _ _ _ _ _ _ face m d k q r i WT IR FM Pi) as (cv' & CV' & DA).
  { rewrite Ei. reflexivity. }
  { rewrite <- Ew, <- Eh, ET, Ei. cbn [iwidth iheight]. destruct (result_size a w h); reflexivity. }
  assert (cv' = cv) by congruence. subst cv'.
  eexists. split; [exact (X face m d _ IR DA)|]. split.
  - intros TU LY. destruct (lsb_layout (c_fmt a)) as [l|] eqn:EL; [|congruence].
    destruct (shown_level pw W F enc fl a cv q f _ _ m w h px l FK CP Enc PJ (parsed_spaces _ _ _ _ _ _ _ E) LD (eq_sym Ew) (eq_sym Eh) PI CV TU EL Ft)
      as (i' & Pi' & _ & _ & SH).
    assert (i' = i) by congruence. subst i'. exact SH.
  - intros NN NP WH.
    destruct (block_shown_level pw W F enc fl a cv q f _ _ m w h px FK CP Enc PJ (parsed_spaces _ _ _ _ _ _ _ E) LD (eq_sym Ew) (eq_sym Eh) PI CV NN NP WH Ft)
      as (i' & Pi' & _ & _ & SH).
    assert (i' = i) by congruence. subst i'. exact SH.
Qed.
Print Assumptions C70_custom.

(** ** Generated levels *)

Section Ranges.
Context (pw : double -> double -> double).
Local Notation D := (double_arith pw).

Lemma coarse_srgb a : coarse a = true -> c_textureCS a = CS_sRGB.
Proof. unfold coarse. destruct (c_textureCS a); [discriminate|reflexivity]. Qed.

Lemma first_start a : start_ok (first_error a) (c_textureCS a).
Proof.
  unfold start_ok, first_error. pose proof (coarse_srgb a) as C. destruct (c_textureCS a); destruct (coarse a); try lra.
  discriminate (C eq_refl).
Qed.

Lemma resized_start a : start_ok (resized_error a) (c_textureCS a).
Proof.
  unfold start_ok, resized_error. pose proof (coarse_srgb a) as C. destruct (c_textureCS a); destruct (coarse a);
    try (discriminate (C eq_refl)); destruct (c_grayscale a && c_preMultiply a); lra.
Qed.

(** An image that is ready is in the range. *)
Lemma ready_ranged e B a f w h (l : list (chan * N)) i lo hi T : 1 <= w -> 1 <= h ->
  (0 <= e <= B * / 4194304)%R -> (e <= 12 * / 4194304 /\ 2 * e + / 16777216 <= B * / 4194304 \/ c_ttyp a = T_UNorm)%R ->
  (forall c bt, In (c, bt) l -> c <> ChE) ->
  (forall x y, x < w -> y < h -> unit_colour (T x y)) ->
  (forall c bt, In (c, bt) l ->
     (forall x y, x < w -> y < h -> (lo c <= number_for (c_ttyp a) f (of_channel c (T x y)) <= hi c)%R) /\
     (c_ttyp a = T_UInt \/ c_ttyp a = T_Int -> exists i j, lo c = IZR i /\ hi c = IZR j)) ->
  ready pw e (c_ttyp a) f i w h (c_textureCS a) T ->
  (forall c bt, In (c, bt) l -> (Rmax (lo c) (IZR (least (c_ttyp a) f)) <= Rmin (hi c) (IZR (greatest (c_ttyp a) f)))%R) /\
  ranged pw (c_textureCS a) (fun c => exists bt, In (c, bt) l)
    (fun c => (Rmax (lo c) (IZR (least (c_ttyp a) f)) - level_error B (passes (c_dim a)) (c_textureCS a) (c_ttyp a) f c 0)%R)
    (fun c => (Rmin (hi c) (IZR (greatest (c_ttyp a) f)) + level_error B (passes (c_dim a)) (c_textureCS a) (c_ttyp a) f c 0)%R)
    i w h.
Proof.
  intros W1 H1 EB EB2 NE UT SP (b & Ei & Bw & Bh & (Bf & Bc & Bg) & RD).
  assert (NB : forall c bt, In (c, bt) l -> forall x0 y0, x0 < w -> y0 < h ->
    (Rmax (lo c) (IZR (least (c_ttyp a) f)) <= number_for (c_ttyp a) f (of_channel c (T x0 y0))
      <= Rmin (hi c) (IZR (greatest (c_ttyp a) f)))%R /\ (0 <= of_channel c (T x0 y0) <= 1)%R).
  { intros c bt I x0 y0 X Y. destruct (SP c bt I) as [S _]. specialize (S x0 y0 X Y).
    pose proof (chan_unit c _ (UT x0 y0 X Y)) as U.
    split; [|exact U]. pose proof (number_within (c_ttyp a) f _ U).
    split; [apply Rmax_lub; lra|apply Rmin_glb; lra]. }
  split.
  - intros c bt I. destruct (NB c bt I 0 0 ltac:(lia) ltac:(lia)) as [N _]. lra.
  - exists b. do 6 (split; [assumption|]).
    intros c (bt & I) x y X Y. destruct (RD x y X Y) as (v1 & v2 & v3 & v4 & A0 & A1 & A2 & A3 & A4).
    destruct (NB c bt I x y X Y) as [N U]. destruct (SP c bt I) as [_ IN]. specialize (NE c bt I).
    assert (IN' : c_ttyp a = T_UInt \/ c_ttyp a = T_Int -> exists i j, Rmax (lo c) (IZR (least (c_ttyp a) f)) = IZR i /\
      Rmin (hi c) (IZR (greatest (c_ttyp a) f)) = IZR j).
    { intros TY. destruct (IN TY) as (p & q & -> & ->).
      exists (Z.max p (least (c_ttyp a) f)), (Z.min q (greatest (c_ttyp a) f)). split.
      - unfold Rmax. destruct (Rle_dec _ _) as [L|L]; f_equal; [apply le_IZR in L; lia|].
        assert (IZR (least (c_ttyp a) f) < IZR p)%R as L' by lra. apply lt_IZR in L'. lia.
      - unfold Rmin. destruct (Rle_dec _ _) as [L|L]; f_equal; [apply le_IZR in L; lia|].
        assert (IZR (greatest (c_ttyp a) f) < IZR q)%R as L' by lra. apply lt_IZR in L'. lia. }
    unfold lies. rewrite A0.
    destruct c; try congruence; cbn [float_of of_channel] in *; eexists; (split; [reflexivity|]);
      (eapply adjusted_range; [exact EB|exact EB2|exact U| |exact N|exact IN']); assumption.
Qed.

Lemma result_pos a w h : 1 <= w -> 1 <= h -> 1 <= fst (result_size a w h) /\ 1 <= snd (result_size a w h).
Proof. intros W1 H1. unfold result_size. destruct (_ && _); cbn [fst snd]; auto. Qed.

(** The processed picture is in the range. *)
Lemma product_ranged a f w h px (l : list (chan * N)) i lo hi :
  let s := Bitmap f w h (c_imageCS a) px in
  spaces a -> good pw s -> 1 <= w -> 1 <= h -> plain_input pw s ->
  (forall c bt, In (c, bt) l -> c <> ChE) ->
  (forall c bt, In (c, bt) l -> spans pw a s c (lo c) (hi c)) ->
  ready pw (job_error a) (c_ttyp a) f i (fst (result_size a w h)) (snd (result_size a w h)) (c_textureCS a)
      (fun x y => let '(x0, y0) := origin a w h x y in processed a (meaning pw f (at_ pw s x0 y0))) ->
  (forall c bt, In (c, bt) l -> (Rmax (lo c) (IZR (least (c_ttyp a) f)) <= Rmin (hi c) (IZR (greatest (c_ttyp a) f)))%R) /\
  ranged pw (c_textureCS a) (fun c => exists bt, In (c, bt) l)
    (fun c => (Rmax (lo c) (IZR (least (c_ttyp a) f)) - level_error (first_error a) (passes (c_dim a)) (c_textureCS a) (c_ttyp a) f c 0)%R)
    (fun c => (Rmin (hi c) (IZR (greatest (c_ttyp a) f)) + level_error (first_error a) (passes (c_dim a)) (c_textureCS a) (c_ttyp a) f c 0)%R)
    i (fst (result_size a w h)) (snd (result_size a w h)).
Proof.
  intros s SS G W1 H1 PI NE SP RDY.
  pose proof (fun x y => origin_within a w h x y W1 H1) as OW.
  destruct (result_pos a w h W1 H1) as [P1 P2].
  eapply ready_ranged; [exact P1|exact P2| | |exact NE| | |exact RDY].
  - unfold job_error, first_error, E2. destruct (coarse a); lra.
  - unfold job_error, first_error, E2. destruct (coarse a) eqn:C; [right|left; lra].
    apply coarse_srgb in C. destruct (SS C) as [_ NS]. apply (native_bits _ _ NS).
  - intros x y X Y. cbv beta. specialize (OW x y X Y). destruct (origin a w h x y) as [x0 y0]. cbn [fst snd] in OW.
    apply processed_unit, (meaning_unit pw s x0 y0 G OW PI).
  - intros c bt I. destruct (SP c bt I) as [S IN]. split; [|exact IN].
    intros x y X Y. cbv beta. specialize (OW x y X Y). destruct (origin a w h x y) as [x0 y0]. cbn [fst snd] in OW.
    exact (S x0 y0 OW).
Qed.

(** A resized picture that is processed is in the range. *)
Lemma resized_ranged a f w h w0 h0 (l : list (chan * N)) i px T blo bhi lo hi :
  let s := Bitmap f w0 h0 (c_imageCS a) px in
  spaces a -> 1 <= w -> 1 <= h ->
  (forall c bt, In (c, bt) l -> c <> ChE) ->
  (forall c bt, In (c, bt) l -> box_spans pw a s blo bhi c (lo c) (hi c)) ->
  (forall x y, x < w -> y < h -> boxed blo bhi (T x y)) ->
  ready pw (steps_error a (resized_start_error (c_textureCS a))) (c_ttyp a) f i (fst (result_size a w h)) (snd (result_size a w h)) (c_textureCS a)
      (fun x y => let '(x0, y0) := origin a w h x y in finished a (T x0 y0)) ->
  (forall c bt, In (c, bt) l -> (Rmax (lo c) (IZR (least (c_ttyp a) f)) <= Rmin (hi c) (IZR (greatest (c_ttyp a) f)))%R) /\
  ranged pw (c_textureCS a) (fun c => exists bt, In (c, bt) l)
    (fun c => (Rmax (lo c) (IZR (least (c_ttyp a) f)) - level_error (resized_error a) (passes (c_dim a)) (c_textureCS a) (c_ttyp a) f c 0)%R)
    (fun c => (Rmin (hi c) (IZR (greatest (c_ttyp a) f)) + level_error (resized_error a) (passes (c_dim a)) (c_textureCS a) (c_ttyp a) f c 0)%R)
    i (fst (result_size a w h)) (snd (result_size a w h)).
Proof.
  intros s SS W1 H1 NE SP BT RDY.
  pose proof (fun x y => origin_within a w h x y W1 H1) as OW.
  destruct (result_pos a w h W1 H1) as [P1 P2].
  eapply ready_ranged; [exact P1|exact P2| | |exact NE| | |exact RDY].
  - unfold steps_error, resized_start_error, resized_error, coarse, gray_error, premul_error.
    destruct (c_textureCS a), (c_grayscale a), (c_preMultiply a); cbn [orb andb]; lra.
  - destruct (c_textureCS a) eqn:C; [left|right; destruct (SS C) as [_ NS]; apply (native_bits _ _ NS)].
    unfold steps_error, resized_start_error, resized_error, coarse, gray_error, premul_error. rewrite C.
    destruct (c_grayscale a), (c_preMultiply a); lra.
  - intros x y X Y. cbv beta. specialize (OW x y X Y). destruct (origin a w h x y) as [x0 y0]. cbn [fst snd] in OW.
    apply finished_unit. exact (boxed_unit _ _ _ (BT x0 y0 (proj1 OW) (proj2 OW))).
  - intros c bt I. destruct (SP c bt I) as (_ & S & IN). split; [|exact IN].
    intros x y X Y. cbv beta. specialize (OW x y X Y). destruct (origin a w h x y) as [x0 y0]. cbn [fst snd] in OW.
    exact (S _ (BT x0 y0 (proj1 OW) (proj2 OW))).
Qed.

(** What the encoder makes of an image in the range. *)
Lemma ranged_encoded W enc fl a B cv f w h i l m lo hi lo' hi' : start_ok B (c_textureCS a) ->
  computes W (c_textureCS a) enc -> (forall e, N.of_nat (length (wo_enc W e)) = answer_bytes e) ->
  createConverter fl (c_fmt a) (c_ttyp a) = Some cv -> c_ttyp a <> T_UFloat -> space_ok pw (c_textureCS a) (c_ttyp a) ->
  lsb_layout (c_fmt a) = Some l -> fits (c_fmt a) w h -> m <= 31 ->
  (forall c bt, In (c, bt) l -> (IZR (least (c_ttyp a) f) <= lo' c /\ lo c <= lo' c /\ lo' c <= hi' c /\
     hi' c <= hi c /\ hi' c <= IZR (greatest (c_ttyp a) f))%R) ->
  ranged pw (c_textureCS a) (fun c => exists bt, In (c, bt) l)
    (fun c => (lo' c - level_error B (passes (c_dim a)) (c_textureCS a) (c_ttyp a) f c m)%R) (fun c => (hi' c + level_error B (passes (c_dim a)) (c_textureCS a) (c_ttyp a) f c m)%R) i w h ->
  level_ranged (wo_pack W) a B f w h m lo hi (enc cv (convert_args a) (view pw i)).
Proof.
  intros SB CP Enc C TU SO LY FT M LH (b & -> & Bw & Bh & Bf & Bc & (Gw & Gh & G) & RD).
  destruct (field_bits fl _ _ _ _ C LY TU) as (_ & _ & FB).
  exists l. split; [exact LY|]. cbv zeta.
  destruct (encoded_fields pw W enc fl a cv w h b l (fun x y c bt r => exists v,
      (lo c - level_error B (passes (c_dim a)) (c_textureCS a) (c_ttyp a) f c m <= v <= hi c + level_error B (passes (c_dim a)) (c_textureCS a) (c_ttyp a) f c m)%R /\ kept (wo_pack W) (c_ttyp a) bt v r)
      CP Enc C TU LY FT) as [HL HS].
  2:{ split; [exact HL|]. intros x y c bt X Y I. destruct (HS x y c bt X Y I) as (r & FR & v & K1 & K2).
      exists r, v. auto. }
  intros x y X Y c bt I. destruct (RD c (ex_intro _ bt I) x y X Y) as (v & V & FV & RB).
  destruct (FB c bt I) as (NE & F1 & F2 & F3). destruct (LH c bt I) as (L1 & L2 & L3 & L4 & L5).
  destruct (error_small B (passes (c_dim a)) (c_textureCS a) (c_ttyp a) f c m SB (fun E => proj1 (SO E)) ltac:(destruct (c_dim a); cbn; lia) M) as ([E0' E1'] & E2' & E3' & _).
  assert (VF : chan_val (floats pw b y x) c = Some v).
  { specialize (G x y ltac:(split; lia)). rewrite Bf in G. destruct (at_ pw b x y) as [p|p|p] eqn:EA; cbn [stored] in G; try contradiction.
    destruct p as [|v1 [|v2 [|v3 [|v4 [|? ?]]]]]; try contradiction.
    rewrite (at_floats pw b w h x y v1 v2 v3 v4 Bw Bh ltac:(lia) X Y EA).
    destruct c; cbn [float_of] in V; try congruence; cbn [chan_val pr pg pb pa]; congruence. }
  exists v.
  assert (BND : (real v < 100000)%R).
  { pose proof (magnitude_bounds (c_ttyp a) f) as MB. 
    assert (magnitude (c_ttyp a) f <= 65536)%R; [|lra]. unfold magnitude.
    destruct (channel_bits f) as [n0|] eqn:CB; [|lra]. destruct (bits_cases _ _ CB) as [-> | ->]; destruct (c_ttyp a); cbn; lra. }
  destruct (quantum_range (wo_pack W) (c_ttyp a) bt v TU F1 F2 F3 FV BND) as (r & Q & K).
  exists r. split; [exact VF|]. split; [exact Q|]. exists (clamped (c_ttyp a) (real v)). split; [|exact K].
  pose proof (clamped_range (c_ttyp a) f (lo' c) (hi' c) _ (real v) L1 L5 L3 E0' RB). lra.
Qed.

End Ranges.

(** The levels made of an image in the range. *)
Lemma levels_ranged pw W F enc fl a B t cv U V k q i f l lo hi lo' hi' m :
  computes W (c_textureCS a) enc -> (forall e, N.of_nat (length (wo_enc W e)) = answer_bytes e) ->
  createConverter fl (c_fmt a) (c_ttyp a) = Some cv ->
  space_ok pw (c_textureCS a) (c_ttyp a) -> c_dim a <> Dim3D -> c_ttyp a <> T_UFloat -> lsb_layout (c_fmt a) = Some l ->
  averages pw F (c_mipFilter a) -> start_ok B (c_textureCS a) ->
  wanted (image_ops pw F (c_imageCS a)) fl (fun c v i => enc c v (view pw i)) a U V t ->
  nth_error (c_images a) k = Some q -> product (image_ops pw F (c_imageCS a)) a U V 0 q = Some i ->
  iconvert (image_lib pw F) i I_RGBAF = i -> U < 2 ^ 31 -> V < 2 ^ 31 ->
  (forall c bt, In (c, bt) l -> (IZR (least (c_ttyp a) f) <= lo' c /\ lo c <= lo' c /\ lo' c <= hi' c /\
     hi' c <= hi c /\ hi' c <= IZR (greatest (c_ttyp a) f))%R) ->
  ranged pw (c_textureCS a) (fun c => exists bt, In (c, bt) l)
    (fun c => (lo' c - level_error B (passes (c_dim a)) (c_textureCS a) (c_ttyp a) f c 0)%R)
    (fun c => (hi' c + level_error B (passes (c_dim a)) (c_textureCS a) (c_ttyp a) f c 0)%R) i (width t 0) (height t 0) ->
  let '(face, d) := place (c_imageType a) (N.of_nat k) in
  let '(wm, hm) := turned a (side U m) (side V m) in
  m < mipLevelCount t -> no_once_at_end a t ->
  (forall j, 1 <= j <= m -> find_mip (c_customMips a) face j d = None) -> fits (c_fmt a) wm hm ->
  in_range t face m d /\ exists b, dataF t face m d = Some (Some b) /\ level_ranged (wo_pack W) a B f wm hm m lo hi b.
Proof.
  intros CP Enc CV0 SO N3 TU EL AV SB WT Hk Pi IC UB VB LH RG.
  assert (P1 : passes (c_dim a) = 1%Z) by (unfold passes; destruct (c_dim a); congruence).
  pose proof (w_data _ _ _ _ _ _ _ WT) as (cv' & CV & FD & _ & CH & _).
  assert (cv' = cv) by congruence. subst cv'.
  specialize (FD k q i Hk Pi).
  pose proof (fun m Hm NO => CH N3 NO k q i Hk Pi m Hm) as CH'. clear CH.
  destruct (place (c_imageType a) (N.of_nat k)) as [face d]. destruct FD as (I1 & I2 & _).
  destruct (turned a (side U m) (side V m)) as [wm hm] eqn:TM.
  intros Hm NO NC Ft.
  specialize (CH' m Hm NO). cbv zeta in CH'. cbn [image_ops o_lib] in CH'. rewrite IC in CH'.
  assert (M31 : m <= 31).
  { pose proof (w_levels _ _ _ _ _ _ _ WT) as WL. pose proof (maxMip_le (c_dim a) (N.max 1 U) (N.max 1 V) (layers a)). lia. }
  assert (IR : in_range t face m d).
  { split; [exact Hm|]. split; [|exact I1].
    destruct (w_extents _ _ _ _ _ _ _ WT m Hm) as (_ & _ & ->). destruct (w_extents _ _ _ _ _ _ _ WT 0 ltac:(lia)) as (_ & _ & D0).
    rewrite D0 in I2. destruct (c_dim a); try exact I2. congruence. }
  split; [exact IR|]. eexists. split; [exact CH'|].
  pose proof (level_size _ _ _ _ _ _ _ _ m WT Hm) as LS. rewrite TM in LS. injection LS as LW LHt.
  assert (SZ : forall m, m < mipLevelCount t -> 1 <= width t m < 2 ^ 31 /\ 1 <= height t m < 2 ^ 31).
  { intros j Hj. pose proof (level_size _ _ _ _ _ _ _ _ j WT Hj) as LJ.
    assert (SD : forall n, n < 2 ^ 31 -> 1 <= side n j < 2 ^ 31).
    { intros n0 Hn. unfold side. assert (n0 / 2 ^ j <= n0) by (apply N.div_le_upper_bound; [apply N.pow_nonzero; lia|]; assert (2 ^ j <> 0) by (apply N.pow_nonzero; lia); nia). lia. }
    unfold turned in LJ. destruct (quarter_turn a); injection LJ as -> ->; auto. }
  pose proof (chain_ranged pw F B (c_textureCS a) (fun c => exists bt, In (c, bt) l) lo' hi' (c_ttyp a) f i (width t) (height t) (c_mipFilter a)
    (custom_content (image_ops pw F (c_imageCS a)) a U V t face d) (N.to_nat m) SB AV SO) as CR.
  rewrite N2Nat.id in CR. cbv zeta in CR.
  destruct CR as [CR _].
  { exact M31. }
  { intros c (bt & I). destruct (LH c bt I) as (L1 & _ & _ & _ & L5). auto. }
  { intros j Hj. apply SZ. lia. }
  { intros j Hj. unfold custom_content. rewrite (NC j) by lia. reflexivity. }
  { rewrite <- P1. exact RG. }
  rewrite LW, LHt, <- P1 in CR.
  eapply (ranged_encoded pw W enc fl a B cv f wm hm _ l m lo hi lo' hi'); eassumption.
Qed.

Lemma first_size C (O : ops C) fl enc a U V t : wanted O fl enc a U V t -> 0 < mipLevelCount t ->
  (width t 0, height t 0) = (fst (result_size a (side U 0) (side V 0)), snd (result_size a (side U 0) (side V 0))).
Proof.
  intros WT M. rewrite (level_size _ _ _ _ _ _ _ _ 0 WT M).
  unfold turned, quarter_turn, result_size. destruct (c_rotate a), (c_rotateAngle a); reflexivity.
Qed.

(** Without custom levels in between, every channel of every pixel of a level stands for a number
    within the range of that channel of the processed picture. *)
Theorem C70_range : forall pw W F enc psize fl file isnum cap visit visit' args a Y path fuel evs,
  freeimage_ok pw F -> enc_sized psize enc -> computes W (c_textureCS a) enc ->
  (forall e, N.of_nat (length (wo_enc W e)) = answer_bytes e) ->
  (forall m, Permutation (visit m) m) -> (forall m, Permutation (visit' m) m) ->
  parse fl file isnum cap visit args = POk a ->
  N.of_nat (length (c_images a)) < 2 ^ 32 ->
  c_output a = Some path -> ~ In 0 (codes path) -> (length (codes path) < fuel)%nat ->
  run_tool (image_ops pw F (c_imageCS a)) visit' fl (fun c v i => enc c v (view pw i)) Y fuel a = Some (0, evs) ->
  (c_ftype a = FT_KTX -> ktx_fits psize a evs) -> plain_job pw a ->
  (c_textureCS a = CS_sRGB -> c_ttyp a = T_UNorm /\ pow_ok pw) ->
  c_dim a <> Dim3D -> c_ttyp a <> T_UFloat -> lsb_layout (c_fmt a) <> None ->
  averages pw F (c_mipFilter a) ->
  exists p0 f0 w0 h0 px0 t bytes n room before,
    nth_error (c_images a) 0 = Some p0 /\ fi_load pw F p0 = Some (f0, w0, h0, px0) /\
    y_room Y n = Some room /\
    evs = before ++ [TvSave t SR_Success (Some (firstn (N.to_nat room) bytes))] /\
    forall k q f w h px m lo hi, nth_error (c_images a) k = Some q -> fi_load pw F q = Some (f, w, h, px) ->
      asked a w0 h0 = (w, h) ->
      let s := Bitmap f w h (c_imageCS a) px in plain_input pw s ->
      let '(face, d) := place (c_imageType a) (N.of_nat k) in
      let '(wm, hm) := turned a (side w m) (side h m) in
      m < mipLevelCount t -> no_once_at_end a t ->
      (forall j, 1 <= j <= m -> find_mip (c_customMips a) face j d = None) ->
      fits (c_fmt a) wm hm ->
      (forall l c b, lsb_layout (c_fmt a) = Some l -> In (c, b) l -> spans pw a s c (lo c) (hi c)) ->
      exists b, surface psize (c_ftype a) (c_dim a) bytes face m d = Some b /\
        level_ranged (wo_pack W) a (first_error a) f wm hm m lo hi b.
Proof.
  intros pw W F enc psize fl file isnum cap visit visit' args a Y path fuel evs FK ES CP Enc PV PV' E LN EO NZ HF ER KF PJ SO N3 TU LY AV.
  destruct (lsb_layout (c_fmt a)) as [l|] eqn:EL; [|congruence].
  assert (SM : single_mode a) by (intros X; congruence).
  destruct (file_surfaces _ _ _ psize fl file isnum cap visit visit' args a Y path fuel evs (image_ops_ok pw F (c_imageCS a) FK)
      (viewed_sized pw psize enc ES) PV PV' E LN SM EO NZ HF ER KF)
    as (p0 & f & w & h & c & t & bytes & n & room & before & X1 & X2 & X3 & X4 & WT & X).
  cbn [image_ops o_load] in X2. destruct (fi_load pw F p0) as [[[[f0 w0] h0] px0]|] eqn:L0; [|discriminate].
  injection X2 as E1 E2 E3 E4. subst f w h c.
  exists p0, f0, w0, h0, px0, t, bytes, n, room, before. repeat (split; [assumption|]).
  intros k q f w h px m lo hi Hk LD AS s PI.
  pose proof (w_data _ _ _ _ _ _ _ WT) as (cv & CV & _).
  rewrite AS in *. cbn [fst snd] in *.
  destruct (fk_load pw F FK q f w h px (c_imageCS a) LD) as (W1 & H1 & G). fold s in G.
  destruct (product_ready pw F FK a q f w h px PJ (spaces_proper a (parsed_spaces _ _ _ _ _ _ _ E)) LD PI) as (i & Pi & IC & RDY). fold s in RDY.
  pose proof (levels_ranged pw W F enc fl a (first_error a) t cv w h k q i f l lo hi (fun c => Rmax (lo c) (IZR (least (c_ttyp a) f)))
    (fun c => Rmin (hi c) (IZR (greatest (c_ttyp a) f))) m CP Enc CV SO N3 TU EL AV (first_start a) WT Hk Pi IC
    (proj1 G) (proj1 (proj2 G))) as LR.
  destruct (place (c_imageType a) (N.of_nat k)) as [face d].
  destruct (turned a (side w m) (side h m)) as [wm hm].
  intros Hm NO NC Ft SP.
  destruct (field_bits fl _ _ _ _ CV EL TU) as (_ & _ & FB).
  destruct (product_ranged pw a f w h px l i lo hi (parsed_spaces _ _ _ _ _ _ _ E) G W1 H1 PI (fun c bt I => proj1 (FB c bt I)) (fun c bt I => SP l c bt eq_refl I) RDY) as [LH RG].
  pose proof (first_size _ _ _ _ _ _ _ _ WT ltac:(lia)) as Z0.
  replace (side w 0) with w in Z0 by (unfold side; rewrite N.div_1_r; lia). replace (side h 0) with h in Z0 by (unfold side; rewrite N.div_1_r; lia).
  injection Z0 as Z1 Z2. rewrite <- Z1, <- Z2 in RG.
  destruct LR as (IR & b & DA & LV); try assumption.
  { intros c bt I. cbv beta. split; [apply Rmax_r|]. split; [apply Rmax_l|]. split; [apply (LH c bt I)|]. split; [apply Rmin_l|apply Rmin_r]. }
  exists b. split; [exact (X face m d b IR DA)|exact LV].
Qed.
Print Assumptions C70_range.

Lemma layout_some f l : lsb_layout f = Some l -> exists c bt, In (c, bt) l.
Proof.
  intros L.
  assert (X : forall (fl : flags) f (t : ttype), match lsb_layout f with Some [] => false | _ => true end = true)
    by (apply forall_fft; vm_compute; reflexivity).
  specialize (X (Flags true true true true) f T_UNorm). rewrite L in X. destruct l as [|[c bt] l]; [discriminate|].
  exists c, bt. left. reflexivity.
Qed.

(** The same for pictures that are resized, for the box of the colours of the picture. *)
Theorem C70_resized : forall pw W F enc psize fl file isnum cap visit visit' args a Y path fuel evs,
  freeimage_ok pw F -> enc_sized psize enc -> computes W (c_textureCS a) enc ->
  (forall e, N.of_nat (length (wo_enc W e)) = answer_bytes e) ->
  (forall m, Permutation (visit m) m) -> (forall m, Permutation (visit' m) m) ->
  parse fl file isnum cap visit args = POk a ->
  N.of_nat (length (c_images a)) < 2 ^ 32 ->
  c_output a = Some path -> ~ In 0 (codes path) -> (length (codes path) < fuel)%nat ->
  run_tool (image_ops pw F (c_imageCS a)) visit' fl (fun c v i => enc c v (view pw i)) Y fuel a = Some (0, evs) ->
  (c_ftype a = FT_KTX -> ktx_fits psize a evs) -> plain_job pw a ->
  (c_textureCS a = CS_sRGB -> c_ttyp a = T_UNorm /\ pow_ok pw) ->
  c_dim a <> Dim3D -> c_ttyp a <> T_UFloat -> lsb_layout (c_fmt a) <> None ->
  averages pw F (c_mipFilter a) -> averages pw F (c_resizeFilter a) ->
  exists p0 f0 w0 h0 px0 t bytes n room before,
    nth_error (c_images a) 0 = Some p0 /\ fi_load pw F p0 = Some (f0, w0, h0, px0) /\
    y_room Y n = Some room /\
    evs = before ++ [TvSave t SR_Success (Some (firstn (N.to_nat room) bytes))] /\
    forall k q f w h px u v m blo bhi lo hi, nth_error (c_images a) k = Some q -> fi_load pw F q = Some (f, w, h, px) ->
      asked a w0 h0 = (u, v) -> u < 2 ^ 31 -> v < 2 ^ 31 ->
      let s := Bitmap f w h (c_imageCS a) px in plain_input pw s ->
      let '(face, d) := place (c_imageType a) (N.of_nat k) in
      let '(wm, hm) := turned a (side u m) (side v m) in
      m < mipLevelCount t -> no_once_at_end a t ->
      (forall j, 1 <= j <= m -> find_mip (c_customMips a) face j d = None) ->
      fits (c_fmt a) wm hm ->
      (forall l c b, lsb_layout (c_fmt a) = Some l -> In (c, b) l -> box_spans pw a s blo bhi c (lo c) (hi c)) ->
      exists b, surface psize (c_ftype a) (c_dim a) bytes face m d = Some b /\
        level_ranged (wo_pack W) a (resized_error a) f wm hm m lo hi b.
Proof.
  intros pw W F enc psize fl file isnum cap visit visit' args a Y path fuel evs FK ES CP Enc PV PV' E LN EO NZ HF ER KF PJ SO N3 TU LY AV AVR.
  destruct (lsb_layout (c_fmt a)) as [l|] eqn:EL; [|congruence].
  assert (SM : single_mode a) by (intros X; congruence).
  destruct (file_surfaces _ _ _ psize fl file isnum cap visit visit' args a Y path fuel evs (image_ops_ok pw F (c_imageCS a) FK)
      (viewed_sized pw psize enc ES) PV PV' E LN SM EO NZ HF ER KF)
    as (p0 & f & w & h & c & t & bytes & n & room & before & X1 & X2 & X3 & X4 & WT & X).
  cbn [image_ops o_load] in X2. destruct (fi_load pw F p0) as [[[[f0 w0] h0] px0]|] eqn:L0; [|discriminate].
  injection X2 as E1 E2 E3 E4. subst f w h c.
  exists p0, f0, w0, h0, px0, t, bytes, n, room, before. repeat (split; [assumption|]).
  intros k q f w h px u v m blo bhi lo hi Hk LD AS UB VB s PI.
  pose proof (w_data _ _ _ _ _ _ _ WT) as (cv & CV & _).
  rewrite AS in *. cbn [fst snd] in *.
  destruct (fk_load pw F FK q f w h px (c_imageCS a) LD) as (W1 & H1 & G). fold s in G.
  assert (D0 : forall n, n < 2 ^ 31 -> 1 <= side n 0 < 2 ^ 31) by (intros n0 Hn; unfold side; rewrite N.div_1_r; lia).
  destruct (place (c_imageType a) (N.of_nat k)) as [face d] eqn:PL.
  destruct (turned a (side u m) (side v m)) as [wm hm] eqn:TM.
  intros Hm NO NC Ft SP.
  destruct (field_bits fl _ _ _ _ CV EL TU) as (_ & _ & FB).
  destruct (layout_some _ _ EL) as (c0 & bt0 & I0).
  destruct (product_resized pw F FK a q f u v 0 w h px blo bhi PJ (spaces_proper a (parsed_spaces _ _ _ _ _ _ _ E)) LD
    (proj2 (D0 u UB)) (proj2 (D0 v VB)) PI AVR SO (proj1 (SP l c0 bt0 eq_refl I0))) as (i & T & Pi & IC & BT & RDY).
  pose proof (levels_ranged pw W F enc fl a (resized_error a) t cv u v k q i f l lo hi (fun c => Rmax (lo c) (IZR (least (c_ttyp a) f)))
    (fun c => Rmin (hi c) (IZR (greatest (c_ttyp a) f))) m CP Enc CV SO N3 TU EL AV (resized_start a) WT Hk Pi IC UB VB) as LR.
  rewrite PL, TM in LR.
  destruct (resized_ranged pw a f (side u 0) (side v 0) w h l i px T blo bhi lo hi (parsed_spaces _ _ _ _ _ _ _ E) (proj1 (D0 u UB)) (proj1 (D0 v VB))
    (fun c bt I => proj1 (FB c bt I)) (fun c bt I => SP l c bt eq_refl I) BT RDY) as [LH RG].
  pose proof (first_size _ _ _ _ _ _ _ _ WT ltac:(lia)) as Z0.
  injection Z0 as Z1 Z2. rewrite <- Z1, <- Z2 in RG.
  destruct LR as (IR & b & DA & LV); try assumption.
  { intros c bt I. cbv beta. split; [apply Rmax_r|]. split; [apply Rmax_l|]. split; [apply (LH c bt I)|]. split; [apply Rmin_l|apply Rmin_r]. }
  exists b. split; [exact (X face m d b IR DA)|exact LV].
Qed.
Print Assumptions C70_resized.

(** A picture given for a level is made the size of the level, whatever size it has. *)
Theorem C70_custom_resized : forall pw W F enc psize fl file isnum cap visit visit' args a Y path fuel evs,
  freeimage_ok pw F -> enc_sized psize enc -> computes W (c_textureCS a) enc ->
  (forall e, N.of_nat (length (wo_enc W e)) = answer_bytes e) ->
  (forall m, Permutation (visit m) m) -> (forall m, Permutation (visit' m) m) ->
  parse fl file isnum cap visit args = POk a ->
  N.of_nat (length (c_images a)) < 2 ^ 32 -> single_mode a ->
  c_output a = Some path -> ~ In 0 (codes path) -> (length (codes path) < fuel)%nat ->
  run_tool (image_ops pw F (c_imageCS a)) visit' fl (fun c v i => enc c v (view pw i)) Y fuel a = Some (0, evs) ->
  (c_ftype a = FT_KTX -> ktx_fits psize a evs) -> plain_job pw a ->
  (c_textureCS a = CS_sRGB -> c_ttyp a = T_UNorm /\ pow_ok pw) ->
  c_ttyp a <> T_UFloat -> lsb_layout (c_fmt a) <> None -> averages pw F (c_resizeFilter a) ->
  exists p0 f0 w0 h0 px0 t bytes n room before,
    nth_error (c_images a) 0 = Some p0 /\ fi_load pw F p0 = Some (f0, w0, h0, px0) /\
    y_room Y n = Some room /\
    evs = before ++ [TvSave t SR_Success (Some (firstn (N.to_nat room) bytes))] /\
    forall face m d k q r f w h px u v blo bhi lo hi, in_range t face m d ->
      find_mip (c_customMips a) face m d = Some (k, (q, r)) -> fi_load pw F q = Some (f, w, h, px) ->
      u = side (fst (asked a w0 h0)) m -> v = side (snd (asked a w0 h0)) m -> u < 2 ^ 31 -> v < 2 ^ 31 ->
      fits (c_fmt a) (fst (turned a u v)) (snd (turned a u v)) ->
      let s := Bitmap f w h (c_imageCS a) px in plain_input pw s ->
      (forall l c b, lsb_layout (c_fmt a) = Some l -> In (c, b) l -> box_spans pw a s blo bhi c (lo c) (hi c)) ->
      exists b, surface psize (c_ftype a) (c_dim a) bytes face m d = Some b /\
        level_ranged (wo_pack W) a (resized_error a) f (fst (turned a u v)) (snd (turned a u v)) 0 lo hi b.
Proof.
  intros pw W F enc psize fl file isnum cap visit visit' args a Y path fuel evs FK ES CP Enc PV PV' E LN SM EO NZ HF ER KF PJ SO TU LY AVR.
  destruct (lsb_layout (c_fmt a)) as [l|] eqn:EL; [|congruence].
  destruct (file_surfaces _ _ _ psize fl file isnum cap visit visit' args a Y path fuel evs (image_ops_ok pw F (c_imageCS a) FK)
      (viewed_sized pw psize enc ES) PV PV' E LN SM EO NZ HF ER KF)
    as (p0 & f & w & h & c & t & bytes & n & room & before & X1 & X2 & X3 & X4 & WT & X).
  cbn [image_ops o_load] in X2. destruct (fi_load pw F p0) as [[[[f0 w0] h0] px0]|] eqn:L0; [|discriminate].
  injection X2 as E1 E2 E3 E4. subst f w h c.
  exists p0, f0, w0, h0, px0, t, bytes, n, room, before. repeat (split; [assumption|]).
  intros face m d k q r f w h px u v blo bhi lo hi IR FM LD Eu Ev UB VB Ft s PI SP.
  pose proof (w_data _ _ _ _ _ _ _ WT) as (cv & CV & _).
  destruct (field_bits fl _ _ _ _ CV EL TU) as (_ & _ & FB).
  destruct (layout_some _ _ EL) as (c0 & bt0 & I0).
  set (U := fst (asked a w0 h0)) in *. set (V := snd (asked a w0 h0)) in *.
  rewrite Eu in UB. rewrite Ev in VB.
  destruct (product_resized pw F FK a q f U V m w h px blo bhi PJ (spaces_proper a (parsed_spaces _ _ _ _ _ _ _ E)) LD
    UB VB PI AVR SO (proj1 (SP l c0 bt0 eq_refl I0))) as (i & T & Pi & IC & BT & RDY).
  rewrite <- Eu, <- Ev in *.
  assert (U1 : 1 <= u /\ 1 <= v) by (subst u v; unfold side; lia).
  destruct (resized_ranged pw a f u v w h l i px T blo bhi lo hi (parsed_spaces _ _ _ _ _ _ _ E) (proj1 U1) (proj2 U1)
    (fun c bt I => proj1 (FB c bt I)) (fun c bt I => SP l c bt eq_refl I) BT RDY) as [LH RG].
  assert (ET : turned a u v = result_size a u v).
  { unfold turned, quarter_turn, result_size. destruct (c_rotate a), (c_rotateAngle a); reflexivity. }
  destruct (custom_kept _ _ _ _ _ _ _ _ face m d k q r i WT IR FM Pi) as (cv' & CV' & DA).
  { destruct RG as (b & -> & _). reflexivity. }
  { rewrite <- Eu, <- Ev, ET. destruct RG as (b & -> & _). cbn [iwidth iheight]. destruct (result_size a u v); reflexivity. }
  assert (cv' = cv) by congruence. subst cv'.
  eexists. split; [exact (X face m d _ IR DA)|].
  cbn [image_ops o_lib]. rewrite IC. rewrite ET in *.
  eapply (ranged_encoded pw W enc fl a (resized_error a) cv f _ _ i l 0 lo hi (fun c => Rmax (lo c) (IZR (least (c_ttyp a) f)))
    (fun c => Rmin (hi c) (IZR (greatest (c_ttyp a) f)))); try eassumption; [apply resized_start|lia|].
  intros c bt I. cbv beta. split; [apply Rmax_r|]. split; [apply Rmax_l|]. split; [apply (LH c bt I)|]. split; [apply Rmin_l|apply Rmin_r].
Qed.
Print Assumptions C70_custom_resized.

(** Consequence: a channel that is the same in the whole picture, and that the format has a value for,
    keeps that value at every level. *)
Theorem C70_flat : forall pk a first f w h m lo hi data l c bt v,
  level_ranged pk a first f w h m lo hi data ->
  (0 <= first <= 25)%R \/ (0 <= first <= 1420)%R /\ bt <= 8 -> m <= 31 -> lsb_layout (c_fmt a) = Some l -> In (c, bt) l ->
  (c_ttyp a = T_UNorm /\ 1 <= bt <= 12 /\ (c_textureCS a = CS_sRGB -> bt <= 8) /\ lo c = (IZR v / IZR (2 ^ Z.of_N bt - 1))%R \/
   c_ttyp a = T_UInt /\ c_textureCS a = CS_Linear /\ channel_bits f = Some 8%Z /\ (v < 2 ^ Z.of_N bt)%Z /\ lo c = IZR v) -> hi c = lo c ->
  forall x y, x < w -> y < h ->
    PixelSpec.field l c (le_val (bytes_at data ((y * w + x) * (layout_bits l / 8)) (layout_bits l / 8)))
    = Some (Z.to_N v).
Proof.
  intros pk a first f w h m lo hi data l c bt v (l' & EL & _ & R) FE M LY I CA HL x y X Y.
  assert (l' = l) by congruence. subst l'. destruct (R x y c bt X Y I) as (r & u & -> & B & K). f_equal.
  rewrite HL in B.
  assert (MR : (0 <= IZR (Z.of_N m) <= 31)%R) by (split; apply IZR_le; lia).
  assert (PS : (1 <= IZR (passes (c_dim a)) <= 2)%R) by (destruct (c_dim a); cbn; lra).
  assert (PM : (0 <= IZR (passes (c_dim a)) * IZR (Z.of_N m) <= 62)%R) by nra.
  unfold level_error in B. change (IZR (2 ^ 22)) with 4194304%R in B.
  destruct CA as [(T & BT & SB & LO)|(T & LIN & CB & V & LO)]; rewrite LO, T in *; cbn [kept] in K.
  - assert (P : (2 ^ 1 <= 2 ^ Z.of_N bt <= 2 ^ 12)%Z) by (split; apply Z.pow_le_mono_r; lia).
    assert (PR : (1 <= IZR (2 ^ Z.of_N bt - 1) <= 4095)%R) by (split; apply IZR_le; lia).
    assert (M2 : magnitude T_UNorm f = 2%R) by (unfold magnitude; destruct (channel_bits f); reflexivity).
    assert (LS : exists e, (loss (c_textureCS a) T_UNorm f c <= e)%R /\ ((first + 62 * e) * IZR (2 ^ Z.of_N bt - 1) <= 3 / 8 * 4194304 - 1)%R /\ (0 <= e)%R).
    { assert (P8 : bt <= 8 -> (IZR (2 ^ Z.of_N bt - 1) <= 255)%R).
      { intros B8. apply IZR_le. assert (2 ^ Z.of_N bt <= 2 ^ 8)%Z by (apply Z.pow_le_mono_r; lia). lia. }
      set (g := IZR (2 ^ Z.of_N bt - 1)) in *. clearbody g.
      assert (PB : forall e k, (0 <= e)%R -> (first + 62 * e <= k)%R -> forall G, (0 <= g <= G)%R -> ((first + 62 * e) * g <= k * G)%R).
      { intros e k E1 E2 G E3. assert (0 <= first)%R by (destruct FE as [FE|[FE _]]; lra). apply Rmult_le_compat; lra. }
      destruct (c_textureCS a) eqn:CS.
      - exists 2%R. unfold loss. rewrite M2. split; [lra|]. split; [|lra]. destruct FE as [FE|[FE F8]].
        + pose proof (PB 2%R 149%R ltac:(lra) ltac:(lra) 4095%R ltac:(lra)). lra.
        + pose proof (PB 2%R 1544%R ltac:(lra) ltac:(lra) 255%R ltac:(specialize (P8 F8); lra)). lra.
      - exists 24%R. split; [unfold loss; rewrite M2; destruct c; lra|]. split; [|lra].
        pose proof (PB 24%R 2908%R ltac:(lra) ltac:(destruct FE as [FE|[FE _]]; lra) 255%R ltac:(specialize (P8 (SB eq_refl)); lra)). lra. }
    assert (BP : (0 <= first)%R) by (destruct FE as [FE|[FE _]]; lra).
    set (bs := first) in *. clearbody bs.
    destruct LS as (e & L1 & L2 & L3).
    pose proof (loss_pos (c_textureCS a) T_UNorm f c) as LP.
    set (g := IZR (2 ^ Z.of_N bt - 1)) in *. set (ls := loss _ _ _ _) in *. clearbody ls g.
    assert (PE : (0 <= IZR (passes (c_dim a)) * IZR (Z.of_N m) * ls <= 62 * e)%R).
    { split; [apply Rmult_le_pos; lra|]. apply Rmult_le_compat; lra. }
    set (q := (IZR (passes (c_dim a)) * IZR (Z.of_N m) * ls)%R) in *. clearbody q.
    set (d := ((bs + 62 * e) / 4194304)%R).
    assert (DP : (0 <= d)%R) by (unfold d; lra).
    assert (DG : (d * g < 3 / 8)%R) by (unfold d; lra).
    assert (B' : (- d <= u - IZR v / g <= d)%R) by (unfold d; lra).
    assert (U : (IZR v - d * g <= u * g <= IZR v + d * g)%R).
    { replace (u * g)%R with (IZR v + (u - IZR v / g) * g)%R by (field; lra).
      assert (- d * g <= (u - IZR v / g) * g <= d * g)%R by (split; apply Rmult_le_compat_r; lra). lra. }
    apply Rabs_le_inv in K.
    assert (Z.of_N r < v + 1)%Z by (apply lt_IZR; rewrite plus_IZR; lra).
    assert (v < Z.of_N r + 1)%Z by (apply lt_IZR; rewrite plus_IZR; lra). lia.
  - assert (F1 : (0 <= first <= 1420)%R) by (destruct FE as [FE|[FE _]]; lra). rewrite LIN in B. unfold loss, magnitude in B. rewrite CB in B. change (IZR (2 ^ 8)) with 256%R in B.
    assert (B' : (IZR v - / 4 <= u <= IZR v + / 4)%R) by (destruct c; lra). clear B.
    destruct K as (k & K & Er). apply Rabs_le_inv in K.
    assert (k < v + 1)%Z by (apply lt_IZR; rewrite plus_IZR; lra).
    assert (v < k + 1)%Z by (apply lt_IZR; rewrite plus_IZR; lra). lia.
Qed.
Print Assumptions C70_flat.

(** ** The conditions can be met *)

(** A library with a picture of 4 x 2 and one of 2 x 1 pixels that picks pixels when it resizes. *)
Definition ex_other (x y : N) : pix (double_arith pw0) := PZ [Z.of_N (1 + x); 2; 3; 255]%Z.
Definition ex_library : freeimage pw0 := FreeImage pw0
  (fun p => if String.eqb p "aa" then Some (I_RGBA8, 4, 2, ex_picture)
            else if String.eqb p "bb" then Some (I_RGBA8, 2, 1, ex_other) else None)
  (fi_conv pw0 ex_freeimage)
  (fun b w h _ => Some (w, h, fun x y => b_px b (x * b_w b / w) (y * b_h b / h)))
  (fi_rotate pw0 ex_freeimage) (fi_fliph pw0 ex_freeimage) (fi_flipv pw0 ex_freeimage)
  (fi_alloc pw0 ex_freeimage) (fi_number pw0 ex_freeimage).

Lemma ex_library_ok : freeimage_ok pw0 ex_library.
Proof.
  destruct ex_freeimage_ok. constructor; try assumption.
  - intros p f w h px cs H. cbn [ex_library fi_load] in H.
    destruct (String.eqb p "aa"); [|destruct (String.eqb p "bb"); [|discriminate]]; injection H as <- <- <- <-;
      (split; [lia|]); (split; [lia|]); (split; [reflexivity|]); (split; [reflexivity|]); intros x y [X Y];
      cbn [b_w b_h] in X, Y; unfold at_, ex_picture, ex_other; cbn [b_px b_h b_fmt stored]; unfold u8, range; lia.
  - intros b w h rf. discriminate.
Qed.

Lemma ex_averages rf : averages pw0 ex_library rf.
Proof.
  intros b w h G BF W1 H1 W H. eexists. split; [reflexivity|].
  assert (IX : forall x y, x < w -> y < h -> x * b_w b / w < b_w b /\ y * b_h b / h < b_h b).
  { intros x y X Y. split; apply N.div_lt_upper_bound; nia. }
  assert (PX : forall x y, x < w -> y < h -> exists x0 y0, within pw0 b x0 y0 /\
    b_px b (x * b_w b / w) (y * b_h b / h) = at_ pw0 b x0 y0).
  { intros x y X Y. destruct (IX x y X Y) as [I1 I2].
    set (u := x * b_w b / w) in *. set (v := y * b_h b / h) in *. clearbody u v. exists u, (b_h b - 1 - v).
    split; [split; lia|]. unfold at_. f_equal. lia. }
  split.
  - split; [cbn [b_w]; lia|]. split; [cbn [b_h]; lia|]. intros x y [X Y]. cbn [b_w b_h] in X, Y.
    unfold at_. cbn [b_px b_h b_fmt]. destruct (PX x (h - 1 - y) X ltac:(lia)) as (x0 & y0 & I0 & ->).
    rewrite <- BF. apply G, I0.
  - intros c lo hi K KB L1 L2 B x y X Y. destruct (PX x y X Y) as (x0 & y0 & I0 & ->).
    eapply lies_wider; [| |exact (B x0 y0 I0)]; change (IZR (2 ^ 22)) with 4194304%R; lra.
Qed.

Definition args7 : list string :=
  ["-i"; "aa"; "-m"; "-M"; "1"; "bb"; "-f"; "r8g8b8a8"; "-o"; "o.ktx"]%string.
Definition args8 : list string := ["-i"; "aa"; "-m"; "-f"; "r8g8b8a8"; "-o"; "o.pvr"]%string.
Definition ran78 (args : list string) : option (N * list (@tevent (bitmap (double_arith pw0)))) :=
  run_tool (image_ops pw0 ex_library (c_imageCS (parsed args))) PropsCommandLine.asis PropsCommandLine.fl1
    (fun c v i => serial Wp (c_textureCS (parsed args)) psize0 c v (view pw0 i)) Y1 100 (parsed args).
Definition level78 (args : list string) (m : N) : option (list N) :=
  match ran78 args with
  | Some (0, [TvSave _ SR_Success (Some b)]) => surface psize0 (c_ftype (parsed args)) Dim2D b 0 m 0
  | _ => None
  end.
(* level 1 is the custom picture; without it, it is made from the first level *)
Example C70_case : PropsCommandLine.parse1 args7 = POk (parsed args7) /\ plain_job pw0 (parsed args7) /\
  (exists k r, find_mip (c_customMips (parsed args7)) 0 1 0 = Some (k, ("bb"%string, r))) /\
  asked (parsed args7) 4 2 = (4, 2) /\ (side 4 1, side 2 1) = (2, 1) /\ fits (c_fmt (parsed args7)) 2 1 /\
  level78 args7 1 = Some [1; 2; 3; 255; 2; 2; 3; 255] /\
  c_textureCS (parsed args8) = CS_Linear /\ c_dim (parsed args8) = Dim2D /\ c_customMips (parsed args8) = [] /\
  level78 args8 1 = Some [0; 7; 255; 128; 20; 47; 255; 130].
Proof.
  split; [vm_compute; reflexivity|].
  split. { split; [vm_compute; reflexivity|]. intros H. vm_compute in H. discriminate. }
  split. { do 2 eexists. vm_compute. reflexivity. }
  split; [vm_compute; reflexivity|]. split; [vm_compute; reflexivity|].
  split. { change (fits F_R8G8B8A8 2 1). unfold fits, spec_block. cbn. lia. }
  split; [vm_compute; reflexivity|]. split; [vm_compute; reflexivity|]. split; [vm_compute; reflexivity|].
  split; [vm_compute; reflexivity|]. vm_compute. reflexivity.
Qed.
(* a range for each channel *)
Example C70_spans : spans pw0 (parsed args8) (Bitmap I_RGBA8 4 2 (c_imageCS (parsed args8)) ex_picture) ChA (128 / 255) (131 / 255).
Proof.
  split.
  - intros x y [X Y]. cbn [b_w b_h] in X, Y.
    change (128 / 255 <= IZR (Z.of_N (128 + x)) / 255 <= 131 / 255)%R.
    assert (128 <= IZR (Z.of_N (128 + x)) <= 131)%R by (split; apply IZR_le; lia). lra.
  - vm_compute. intros [?|?]; discriminate.
Qed.

(** A picture made larger, and a picture given for a level that has another size. *)
Definition args12 : list string :=
  ["-i"; "aa"; "-r"; "8"; "1"; "-m"; "-M"; "1"; "bb"; "-f"; "r8g8b8a8"; "-o"; "o.pvr"]%string.
Definition box_lo (c : chan) : R := match c with ChA => 128 / 255 | _ => 0 end%R.
Definition box_hi (c : chan) : R := match c with ChA => 131 / 255 | _ => 1 end%R.
Example C70_resized_case : PropsCommandLine.parse1 args12 = POk (parsed args12) /\ plain_job pw0 (parsed args12) /\
  asked (parsed args12) 4 2 = (8, 1) /\ (exists k r, find_mip (c_customMips (parsed args12)) 0 1 0 = Some (k, ("bb"%string, r))) /\
  fits (c_fmt (parsed args12)) 8 1 /\ fits (c_fmt (parsed args12)) 4 1 /\
  level78 args12 0 = Some [0; 7; 255; 128; 0; 7; 255; 128; 10; 27; 255; 129; 10; 27; 255; 129; 20; 47; 255; 130; 20; 47; 255; 130;
    30; 67; 255; 131; 30; 67; 255; 131] /\
  level78 args12 1 = Some [1; 2; 3; 255; 1; 2; 3; 255; 2; 2; 3; 255; 2; 2; 3; 255] /\
  resized_error (parsed args12) = 25%R /\
  box_spans pw0 (parsed args12) (Bitmap I_RGBA8 4 2 (c_imageCS (parsed args12)) ex_picture) box_lo box_hi ChA (128 / 255) (131 / 255).
Proof.
  split; [vm_compute; reflexivity|].
  split. { split; [vm_compute; reflexivity|]. intros H. vm_compute in H. discriminate. }
  split; [vm_compute; reflexivity|].
  split. { do 2 eexists. vm_compute. reflexivity. }
  split. { change (fits F_R8G8B8A8 8 1). unfold fits, spec_block. cbn. lia. }
  split. { change (fits F_R8G8B8A8 4 1). unfold fits, spec_block. cbn. lia. }
  split; [vm_compute; reflexivity|]. split; [vm_compute; reflexivity|].
  split. { unfold resized_error. replace (coarse (parsed args12)) with false by (vm_compute; reflexivity). reflexivity. }
  split; [|split].
  - intros x y [X Y] d Hd. cbn [b_w b_h] in X, Y.
    assert (Q : exists n, (0 <= n <= 255)%Z /\ (d = ChA -> 128 <= n <= 131)%Z /\
      of_channel d (in_space (parsed args12) (meaning pw0 I_RGBA8 (at_ pw0 (Bitmap I_RGBA8 4 2 (c_imageCS (parsed args12)) ex_picture) x y)))
      = (IZR n / 255)%R).
    { destruct Hd as [-> | [-> | [-> | ->]]].
      - exists (Z.of_N (10 * x + 100 * (2 - 1 - y))). split; [lia|]. split; [discriminate|reflexivity].
      - exists (Z.of_N (20 * x + 7)). split; [lia|]. split; [discriminate|reflexivity].
      - exists (255 - Z.of_N (30 * (2 - 1 - y)))%Z. split; [lia|]. split; [discriminate|reflexivity].
      - exists (Z.of_N (128 + x)). split; [lia|]. split; [lia|reflexivity]. }
    destruct Q as (n & N1 & N2 & Q). cbn [b_fmt]. rewrite Q.
    assert (0 <= IZR n <= 255)%R by (split; apply IZR_le; lia). split; [lra|].
    destruct Hd as [-> | [-> | [-> | ->]]]; cbn [box_lo box_hi]; try lra.
    specialize (N2 eq_refl). assert (128 <= IZR n <= 131)%R by (split; apply IZR_le; lia). lra.
  - intros k B. destruct (B ChA ltac:(auto)) as [_ Q].
    change (128 / 255 <= of_channel ChA k <= 131 / 255)%R. exact Q.
  - vm_compute. intros [?|?]; discriminate.
Qed.

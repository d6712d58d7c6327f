(** C68: what the pixels of the file the tool writes are, for inputs of plain formats that keep
    their size. *)

From Coq Require Import NArith ZArith List Bool String Lia Permutation Reals Lra.
From Coq Require Import ZifyBool ZifyNat ZifyN.
From Flocq Require Import Core IEEE754.BinarySingleNaN IEEE754.Binary IEEE754.Bits.
From Verif Require Import Base FormatModel FormatSpec ContainerSpec FloatModel FloatSpec ArithModel
  FormatProofs TextureSpec TextureProofs SaveModel SaveSpec PropsSave ImageSpec ImageLoops ImageApiProofs.
From Verif Require Import ImageConvertSpec ToolModel ToolSpec PropsPixel.
From Verif Require Import ConverterModel BlockSpec CompressSpec EncodeModel EncodeSpec PropsEncode.
From Verif Require Import PixelModel PixelSpec PixelProofs TextureModel ImageModel PipelineModel PipelineSpec PropsPipeline
  CommandLineModel CommandLineSpec ToolImageModel ToolImageSpec ToolImageProofs.
From Verif Require ImageConvertModel ResizeModel NormalModel PropsCommandLine PropsSrgb SrgbPow.
Import ListNotations.
Local Open Scope list_scope.
Local Open Scope N_scope.
Local Notation length := List.length.
Local Notation height := TextureModel.height.
Local Notation place := PipelineSpec.place.

Section Tool.
Context (pw : double -> double -> double).
Local Notation D := (double_arith pw).

(** The library record of the tool is a good one. *)
Lemma image_ops_ok F cs : freeimage_ok pw F -> ops_ok (image_ops pw F cs).
Proof.
  intros FK. constructor.
  - constructor; cbn [image_ops o_lib image_lib l_rescale l_fallback l_convert l_mips3d].
    + intros f w h c w' h' rf _. pose proof (fk_rescale pw F FK c w' h' rf).
      destruct (fi_rescale pw F c w' h' rf) as [[[? ?] ?]|]; congruence.
    + intros f w h c w' h' rf R. unfold ResizeModel.resizeFallback, initialize.
      pose proof (fk_alloc pw F FK (b_fmt c) w' h').
      destruct R as [-> | ->]; destruct (fi_alloc pw F (b_fmt c) w' h') as [px|]; try congruence;
        destruct (ResizeModel.fillPixels _ _ _ _); cbn [obind made]; discriminate.
    + intros f w h c dst. unfold ImageConvertModel.convert, initialize.
      pose proof (fk_alloc pw F FK dst (b_w c) (b_h c)).
      destruct (imgfmt_eqb (b_fmt c) dst); [cbn [made]; discriminate|]. cbv zeta.
      destruct (obind _ _) as [[[? ?] ?]|]; [cbn [made]; discriminate|].
      destruct (fi_alloc pw F dst (b_w c) (b_h c)); [|congruence].
      destruct (ImageConvertModel.convertLoop _ _ _); cbn [obind made]; discriminate.
    + intros w h n c rf sl _.
      destruct (ResizeModel.mips3d (fi_alloc pw F) sl w h n c rf) as [l|] eqn:E.
      * exists l. split; [reflexivity|]. unfold ResizeModel.mips3d in E. apply omap_length in E.
        rewrite E, Nrange_length. lia.
      * eexists. split; [reflexivity|]. rewrite map_length, Nrange_length. lia.
  - intros p f w h c L. cbn [image_ops o_load] in L. destruct (fi_load pw F p) as [[[[f' w'] h'] px]|] eqn:E; [|discriminate].
    injection L as <- <- <- <-. destruct (fk_load pw F FK p _ _ _ _ cs E) as (A & B & G1 & G2 & _). cbn [b_w b_h] in G1, G2. lia.
  - intros an f w h c. cbn [image_ops o_rotate]. unfold rotate, initialize.
    destruct (fi_rotate pw F c (degrees (to_angle an))) as [[[? ?] ?]|]; [discriminate|].
    pose proof (fk_alloc pw F FK (b_fmt c) (b_h c) (b_w c)). pose proof (fk_alloc pw F FK (b_fmt c) (b_w c) (b_h c)).
    destruct (fi_alloc pw F (b_fmt c) (b_h c) (b_w c)) as [p1|]; [|congruence].
    destruct (fi_alloc pw F (b_fmt c) (b_w c) (b_h c)) as [p2|]; [|congruence].
    destruct (to_angle an); match goal with |- context [obind ?l _] => destruct l end; cbn [obind made]; discriminate.
  - intros o ht f w h c. cbn [image_ops o_normal]. unfold NormalModel.createNormalMap, initialize.
    pose proof (fk_alloc pw F FK I_RGBF (b_w c) (b_h c)).
    destruct (fi_alloc pw F I_RGBF (b_w c) (b_h c)) as [p1|]; [|congruence].
    match goal with |- context [obind ?l _] => destruct l end; cbn [obind made]; discriminate.
Qed.


(** The channels of the types other than unsigned floats. *)
Lemma field_bits fl f t c l : createConverter fl f t = Some c -> lsb_layout f = Some l -> t <> T_UFloat ->
  family_of f <> Fam_Pvrtc /\ (exists l', layout_of f = Channels l' /\ layout_bits l' = layout_bits l) /\
  forall ch b, In (ch, b) l -> ch <> ChE /\ (t = T_UNorm -> 1 <= b <= 16) /\ (t = T_SNorm -> 2 <= b <= 16) /\ (2 <= b \/ t = T_UNorm).
Proof.
  intros C L T.
  pose (ok := fun (t : ttype) (cb : chan * N) =>
    match fst cb with ChE => false | _ => true end && (1 <=? snd cb) &&
    match t with T_UNorm => snd cb <=? 16 | T_SNorm => (2 <=? snd cb) && (snd cb <=? 16) | _ => 2 <=? snd cb end).
  assert (X : forall (fl : flags) f (t : ttype), match createConverter fl f t, lsb_layout f with
    | Some _, Some l => type_eqb t T_UFloat ||
        (match family_of f with Fam_Pvrtc => false | _ => true end &&
         match layout_of f with Channels l' => layout_bits l' =? layout_bits l | _ => false end && forallb (ok t) l)
    | _, _ => true end = true) by (apply forall_fft; vm_compute; reflexivity).
  specialize (X fl f t). rewrite C, L in X.
  assert (TF : type_eqb t T_UFloat = false) by (destruct t; congruence || reflexivity).
  rewrite TF in X. cbn [orb] in X. apply andb_true_iff in X. destruct X as [X X3]. apply andb_true_iff in X. destruct X as [X1 X2].
  split; [destruct (family_of f); congruence|]. split.
  - destruct (layout_of f) as [|l'|]; try discriminate. exists l'. split; [reflexivity|]. apply N.eqb_eq, X2.
  - intros ch b I. rewrite forallb_forall in X3. specialize (X3 _ I). unfold ok in X3. cbn [fst snd] in X3.
    destruct ch; try discriminate; (split; [discriminate|]); cbn [andb] in X3; destruct t;
      (split; [intros; try discriminate; lia|]); (split; [intros; try discriminate; lia|]); first [right; reflexivity|left; lia|congruence].
Qed.

Lemma at_floats (b : bitmap D) w h x y v1 v2 v3 v4 : b_w b = w -> b_h b = h -> h < 2 ^ 31 -> x < w -> y < h ->
  at_ pw b x y = @PF D [v1; v2; v3; v4] -> floats pw b y x = Rgba v1 v2 v3 v4.
Proof.
  intros Hw Hh B X Y E. unfold floats. rewrite Hh. rewrite scanlineOf_small by lia.
  unfold at_ in E. rewrite Hh in E. rewrite E. reflexivity.
Qed.

Lemma chan_unit ch c : unit_colour c -> (0 <= of_channel ch c <= 1)%R.
Proof. intros (U1 & U2 & U3 & U4). destruct ch; cbn [of_channel]; auto; lra. Qed.

Lemma finished_unit a c : unit_colour c -> unit_colour (finished a c).
Proof.
  intros U0. unfold finished. set (cs := c_textureCS a). set (c1 := if c_grayscale a then _ else c).
  assert (U1 : unit_colour c1) by (unfold c1; destruct (c_grayscale a); [exact (gray_unit cs c U0)|exact U0]).
  clearbody c1. set (c2 := if c_swizzle a then _ else c1).
  assert (U2 : unit_colour c2).
  { unfold c2. destruct (c_swizzle a); [|exact U1]. unfold unit_colour. cbn [red green blue alpha].
    do 3 (split; [apply selected_unit; [lra|exact U1]|]). apply selected_unit; [lra|exact U1]. }
  clearbody c2. destruct (c_preMultiply a); [exact (multiplied_unit cs c2 U2)|exact U2].
Qed.

Lemma processed_unit a c : unit_colour c -> unit_colour (processed a c).
Proof.
  intros U. apply finished_unit. unfold in_space. destruct (c_imageCS a), (c_textureCS a); try exact U. exact (lit_unit c U).
Qed.

(** Formats with sRGB versions have unsigned normalised channels of at most 8 bits. *)
Lemma native_bits f t : hasNativeSRGB f t = true ->
  t = T_UNorm /\ forall l ch b, lsb_layout f = Some l -> In (ch, b) l -> 1 <= b <= 8.
Proof.
  intros H.
  assert (X : forall (fl : flags) f (t : ttype), negb (hasNativeSRGB f t) || (type_eqb t T_UNorm &&
    match lsb_layout f with Some l => forallb (fun cb => (1 <=? snd cb) && (snd cb <=? 8)) l | None => true end) = true)
    by (apply forall_fft; vm_compute; reflexivity).
  specialize (X (Flags true true true true) f t). rewrite H in X. cbn [negb orb] in X. apply andb_true_iff in X. destruct X as [X1 X2].
  split; [destruct t; try discriminate; reflexivity|]. intros l ch b L I. rewrite L in X2. rewrite forallb_forall in X2.
  specialize (X2 _ I). cbn [snd] in X2. lia.
Qed.

(** The spaces of the images and of the texture of a job. *)
Definition spaces (a : cl) : Prop :=
  c_textureCS a = CS_sRGB -> c_imageCS a = CS_sRGB /\ hasNativeSRGB (c_fmt a) (c_ttyp a) = true.

Lemma parsed_spaces fl file isnum cap visit args a : parse fl file isnum cap visit args = POk a -> spaces a.
Proof.
  intros H. destruct (PropsCommandLine.C42_options _ _ _ _ _ _ _ H) as (segs & o & X).
  unfold spaces. intros T. decompose [and] X. clear X.
  match goal with E : c_textureCS a = (if ?h && ?n then _ else _), E' : c_imageCS a = _ |- _ =>
    rewrite T in E; rewrite E'; destruct h, n; cbn [andb] in E; try discriminate; auto end.
Qed.

Lemma spaces_proper a : spaces a -> proper_spaces a.
Proof. intros S T. destruct (S T) as [A B]. split; [exact A|]. exact (proj1 (native_bits _ _ B)). Qed.

Lemma error_borne a l ch b : spaces a -> lsb_layout (c_fmt a) = Some l -> In (ch, b) l ->
  borne (job_error a) (c_ttyp a) b.
Proof.
  intros S L I. unfold borne, job_error. destruct (coarse a) eqn:C; [right|left; unfold E2; lra].
  unfold coarse in C. destruct (c_textureCS a) eqn:T; [discriminate|]. destruct (S T) as [_ NS].
  destruct (native_bits _ _ NS) as [TY NB]. split; [exact TY|]. specialize (NB l ch b L I).
  assert (M : (1 <= 2 ^ Z.of_N b - 1 <= 255)%Z).
  { assert (2 ^ 1 <= 2 ^ Z.of_N b <= 2 ^ 8)%Z by (split; apply Z.pow_le_mono_r; lia). lia. }
  destruct M as [M1 M2]. apply IZR_le in M1, M2. lra.
Qed.

Lemma origin_within a w h x y : 1 <= w -> 1 <= h ->
  x < fst (result_size a w h) -> y < snd (result_size a w h) ->
  fst (origin a w h x y) < w /\ snd (origin a w h x y) < h.
Proof.
  intros W H. unfold result_size, origin.
  destruct (c_rotate a), (c_rotateAngle a), (c_flipX a), (c_flipY a); cbn [andb fst snd]; lia.
Qed.

(** What the encoder makes of the floats of an image whose channels it can store. *)
Lemma encoded_fields W enc fl a cv w h (b : bitmap D) l (P : N -> N -> chan -> N -> N -> Prop) :
  computes W (c_textureCS a) enc -> (forall e, N.of_nat (length (wo_enc W e)) = answer_bytes e) ->
  createConverter fl (c_fmt a) (c_ttyp a) = Some cv -> c_ttyp a <> T_UFloat ->
  lsb_layout (c_fmt a) = Some l -> fits (c_fmt a) w h ->
  (forall x y, x < w -> y < h -> forall ch bt, In (ch, bt) l ->
    exists v r, chan_val (floats pw b y x) ch = Some v /\ quantum (wo_pack W) (c_ttyp a) bt v = Some r /\ P x y ch bt r) ->
  let data := enc cv (convert_args a) (view pw (Img I_RGBAF w h (c_textureCS a) b)) in
  let size := (layout_bits l / 8)%N in
  N.of_nat (length data) = (w * h * size)%N /\
  forall x y c bt, (x < w)%N -> (y < h)%N -> In (c, bt) l ->
    exists r, PixelSpec.field l c (le_val (bytes_at data ((y * w + x) * size) size)) = Some r /\ P x y c bt r.
Proof.
  intros CP Enc C TU LY FT CH data size. unfold data. cbn [view]. clear data.
  destruct (field_bits fl _ _ _ _ C LY TU) as (NP & (l' & LO & LB) & FB).
  assert (DF : defined W (c_textureCS a) cv (convert_args a) (Img I_RGBAF w h (c_textureCS a) (floats pw b))).
  { cbn [defined]. change (ca_format (convert_args a)) with (c_fmt a). rewrite LO. intros r0 q0 Hr Hq NN.
    destruct (proj1 (C22_undefined (wo_pack W) fl _ _ cv l (floats pw b r0 q0) C LY TU) NN) as (ch & bt & v & I & V & Z0).
    destruct (CH q0 r0 Hq Hr ch bt I) as (v' & r & V' & Z' & _). congruence. }
  set (im := Img I_RGBAF w h (c_textureCS a) (floats pw b)) in *.
  destruct (surface_all W (c_textureCS a) fl cv (convert_args a) im C NP Enc FT DF) as [[EQ _] HD].
  rewrite (proj1 (EQ _) (CP fl (convert_args a) cv im C NP FT DF)). unfold im in HD |- *.
  cbn [holds] in HD. change (ca_format (convert_args a)) with (c_fmt a) in HD. change (ca_type (convert_args a)) with (c_ttyp a) in HD.
  rewrite LO, LB in HD. destruct HD as [HL HS].
  split; [exact HL|].
  intros x y c bt X Y I. specialize (HS y x Y X).
  destruct (C22_fields _ _ _ _ _ _ HS LY TU) as (_ & _ & FS).
  destruct (FS c bt I) as (v & r & (l2 & L2 & _ & V & FV) & Q & _).
  assert (l2 = l) by congruence. subst l2. exists r. split; [exact FV|].
  destruct (CH x y X Y c bt I) as (v' & r' & V' & Q' & K).
  assert (v' = v) by congruence. subst v'. assert (r' = r) by congruence. subst r'. exact K.
Qed.

(** What the encoder gets for an input, and what it makes of it. *)
Lemma shown_level W F enc fl a cv q f U V m w h px l : freeimage_ok pw F -> computes W (c_textureCS a) enc ->
  (forall e, N.of_nat (length (wo_enc W e)) = answer_bytes e) ->
  plain_job pw a -> spaces a -> fi_load pw F q = Some (f, w, h, px) -> side U m = w -> side V m = h ->
  let s := Bitmap f w h (c_imageCS a) px in
  plain_input pw s -> createConverter fl (c_fmt a) (c_ttyp a) = Some cv -> c_ttyp a <> T_UFloat ->
  lsb_layout (c_fmt a) = Some l ->
  fits (c_fmt a) (fst (turned a w h)) (snd (turned a w h)) ->
  let O := image_ops pw F (c_imageCS a) in
  exists i, product O a U V m q = Some i /\
    iwidth i = fst (turned a w h) /\ iheight i = snd (turned a w h) /\
    shows (wo_pack W) a s (enc cv (convert_args a) (view pw (iconvert (o_lib O) i I_RGBAF))).
Proof.
  intros FK CP Enc PJ SP LD SU SV s PI C TU LY FT O.
  destruct (product_level pw F FK a q f U V m w h px PJ (spaces_proper a SP) LD SU SV PI) as (i & Pi & IC & (b & Ei & Bw & Bh & (_ & _ & _ & B31 & _) & RD)). fold s in RD.
  exists i. split; [exact Pi|]. fold O in IC. rewrite IC. clear IC.
  destruct (fk_load pw F FK q f w h px (c_imageCS a) LD) as (W1 & H1 & G). fold s in G.
  assert (ET : turned a w h = result_size a w h).
  { unfold turned, quarter_turn, result_size. destruct (c_rotate a), (c_rotateAngle a); reflexivity. }
  rewrite ET in *.
  assert (ES : (if c_rotate a && match c_rotateAngle a with CW180 | CCW180 => false | _ => true end
     then (b_h s, b_w s) else (b_w s, b_h s)) = result_size a w h) by reflexivity.
  pose proof (fun x y => origin_within a w h x y W1 H1) as OW.
  destruct (result_size a w h) as [W' H'] eqn:RZ. cbn [fst snd] in *.
  subst i. split; [reflexivity|]. split; [reflexivity|].
  destruct (field_bits fl _ _ _ _ C LY TU) as (NP & (l' & LO & LB) & FB).
  (* every channel of every pixel *)
  assert (CH : forall x y, x < W' -> y < H' -> forall ch bt, In (ch, bt) l ->
    exists v r, chan_val (floats pw b y x) ch = Some v /\ quantum (wo_pack W) (c_ttyp a) bt v = Some r /\
      kept (wo_pack W) (c_ttyp a) bt (number_for (c_ttyp a) f (of_channel ch
        (let '(x0, y0) := origin a w h x y in processed a (meaning pw f (at_ pw s x0 y0))))) r).
  { intros x y X Y ch bt I. destruct (RD x y X Y) as (v1 & v2 & v3 & v4 & A0 & A1 & A2 & A3 & A4).
    destruct (FB ch bt I) as (NE & F1 & F2 & F3).
    set (col := let '(x0, y0) := origin a w h x y in processed a (meaning pw f (at_ pw s x0 y0))) in *.
    assert (UC : unit_colour col).
    { unfold col. destruct (OW x y X Y) as [O1 O2]. destruct (origin a w h x y) as [x0 y0]. cbn [fst snd] in O1, O2.
      apply processed_unit. apply (meaning_unit pw s x0 y0 G); [split; assumption|exact PI]. }
    clearbody col.
    assert (EF : floats pw b y x = Rgba v1 v2 v3 v4) by (eapply at_floats; eauto; lia).
    rewrite EF.
    assert (Q : forall v, adjusted (job_error a) (c_ttyp a) f (of_channel ch col) v -> exists r, quantum (wo_pack W) (c_ttyp a) bt v = Some r /\
      kept (wo_pack W) (c_ttyp a) bt (number_for (c_ttyp a) f (of_channel ch col)) r).
    { intros v A. apply (quantum_kept (wo_pack W) (job_error a) (c_ttyp a) f bt (of_channel ch col) v TU (error_borne a l ch bt SP LY I) (chan_unit ch col UC) F1 F2 F3 A). }
    destruct ch; try congruence; cbn [of_channel] in *;
      [destruct (Q _ A1) as (r & R1 & R2)|destruct (Q _ A2) as (r & R1 & R2)|destruct (Q _ A3) as (r & R1 & R2)|destruct (Q _ A4) as (r & R1 & R2)];
      eexists _, r; (split; [reflexivity|split; assumption]). }
  destruct (encoded_fields W enc fl a cv W' H' b l _ CP Enc C TU LY FT CH) as [HL HS].
  unfold shows. rewrite ES. exists l. split; [exact LY|]. cbv zeta. split; [exact HL|].
  intros x y c bt X Y I. destruct (HS x y c bt X Y I) as (r & FV & K). exists r. split; [exact FV|].
  change (b_w s) with w. change (b_h s) with h. change (b_fmt s) with f.
  destruct (origin a w h x y) as [x0 y0]. exact K.
Qed.

Lemma shown W F enc fl a cv q f w h px l : freeimage_ok pw F -> computes W (c_textureCS a) enc ->
  (forall e, N.of_nat (length (wo_enc W e)) = answer_bytes e) ->
  plain_job pw a -> spaces a -> fi_load pw F q = Some (f, w, h, px) ->
  let s := Bitmap f w h (c_imageCS a) px in
  plain_input pw s -> createConverter fl (c_fmt a) (c_ttyp a) = Some cv -> c_ttyp a <> T_UFloat ->
  lsb_layout (c_fmt a) = Some l ->
  fits (c_fmt a) (fst (turned a w h)) (snd (turned a w h)) ->
  let O := image_ops pw F (c_imageCS a) in
  exists i, product O a w h 0 q = Some i /\
    shows (wo_pack W) a s (enc cv (convert_args a) (view pw (iconvert (o_lib O) i I_RGBAF))).
Proof.
  intros FK CP Enc PJ SP LD s PI C TU LY FT O.
  destruct (fk_load pw F FK q f w h px (c_imageCS a) LD) as (W1 & H1 & _).
  assert (SD : forall n, 1 <= n -> side n 0 = n) by (intros n Hn; unfold side; rewrite N.div_1_r; lia).
  destruct (shown_level W F enc fl a cv q f w h 0 w h px l FK CP Enc PJ SP LD (SD w W1) (SD h H1) PI C TU LY FT)
    as (i & Pi & _ & _ & SH).
  exists i. split; [exact Pi|exact SH].
Qed.

Lemma viewed_sized psize enc : enc_sized psize enc -> enc_sized psize (fun c v (i : TextureModel.image (bitmap D)) => enc c v (view pw i)).
Proof.
  intros ES fl a cv i C V. destruct i as [|f w h cs b]; [discriminate|]. exact (ES fl a cv (view pw (Img f w h cs b)) C eq_refl).
Qed.

End Tool.

(** The file read back as DDS: every surface shows its input. *)
Theorem C68_dds : forall pw W F enc psize fl file isnum cap visit visit' args a Y path fuel evs,
  freeimage_ok pw F -> enc_sized psize enc -> computes W (c_textureCS a) enc ->
  (forall e, N.of_nat (length (wo_enc W e)) = answer_bytes e) ->
  (forall m, Permutation (visit m) m) -> (forall m, Permutation (visit' m) m) ->
  parse fl file isnum cap visit args = POk a ->
  N.of_nat (length (c_images a)) < 2 ^ 32 -> single_mode a ->
  c_output a = Some path -> ~ In 0 (codes path) -> (length (codes path) < fuel)%nat ->
  c_ftype a = FT_DDS ->
  run_tool (image_ops pw F (c_imageCS a)) visit' fl (fun c v i => enc c v (view pw i)) Y fuel a = Some (0, evs) ->
  plain_job pw a -> c_ttyp a <> T_UFloat -> lsb_layout (c_fmt a) <> None ->
  exists p0 f0 w0 h0 px0 t bytes n room before p,
    nth_error (c_images a) 0 = Some p0 /\ fi_load pw F p0 = Some (f0, w0, h0, px0) /\
    y_room Y n = Some room /\
    evs = before ++ [TvSave t SR_Success (Some (firstn (N.to_nat room) bytes))] /\
    read_dds bytes = Some (p, []) /\
    forall k q f w h px, nth_error (c_images a) k = Some q -> fi_load pw F q = Some (f, w, h, px) ->
      asked a w0 h0 = (w, h) -> fits (c_fmt a) (fst (turned a w h)) (snd (turned a w h)) ->
      let s := Bitmap f w h (c_imageCS a) px in plain_input pw s ->
      let '(face, d) := place (c_imageType a) (N.of_nat k) in exists b,
      nth4 (dd_surfaces p) (match c_dim a with Dim3D => 0 | _ => d end) face 0
        (match c_dim a with Dim3D => d | _ => 0 end) = Some b /\ shows (wo_pack W) a s b.
Proof.
  intros pw W F enc psize fl file isnum cap visit visit' args a Y path fuel evs FK ES CP Enc PV PV' E LN SM EO NZ HF FT ER PJ TU LY.
  destruct (lsb_layout (c_fmt a)) as [l|] eqn:EL; [|congruence].
  destruct (C54_dds_contents _ _ _ psize fl file isnum cap visit visit' args a Y path fuel evs (image_ops_ok pw F (c_imageCS a) FK)
      (viewed_sized pw psize enc ES) PV PV' E LN SM EO NZ HF FT ER)
    as (p0 & f & w & h & c & t & bytes & n & room & before & p & cv & X1 & X2 & X3 & X4 & X5 & X6 & _ & _ & _ & _ & _ & X).
  cbn [image_ops o_load] in X2. destruct (fi_load pw F p0) as [[[[f0 w0] h0] px0]|] eqn:L0; [|discriminate].
  injection X2 as E1 E2 E3 E4. subst f w h c.
  exists p0, f0, w0, h0, px0, t, bytes, n, room, before, p. repeat (split; [assumption|]).
  intros k q f w h px Hk LD AS Ft s PI.
  destruct (shown pw W F enc fl a cv q f w h px l FK CP Enc PJ (parsed_spaces _ _ _ _ _ _ _ E) LD PI X6 TU EL Ft) as (i & Pi & SH).
  rewrite AS in X. cbn [fst snd] in X. specialize (X k q i Hk Pi).
  destruct (place (c_imageType a) (N.of_nat k)) as [face d]. eexists. split; [exact X|exact SH].
Qed.
Print Assumptions C68_dds.

Theorem C68_ktx : forall pw W F enc psize fl file isnum cap visit visit' args a Y path fuel evs,
  freeimage_ok pw F -> enc_sized psize enc -> computes W (c_textureCS a) enc ->
  (forall e, N.of_nat (length (wo_enc W e)) = answer_bytes e) ->
  (forall m, Permutation (visit m) m) -> (forall m, Permutation (visit' m) m) ->
  parse fl file isnum cap visit args = POk a ->
  N.of_nat (length (c_images a)) < 2 ^ 32 -> single_mode a ->
  c_output a = Some path -> ~ In 0 (codes path) -> (length (codes path) < fuel)%nat ->
  c_ftype a = FT_KTX ->
  run_tool (image_ops pw F (c_imageCS a)) visit' fl (fun c v i => enc c v (view pw i)) Y fuel a = Some (0, evs) ->
  (forall f w h, psize f w h mod 4 = 0) ->
  (forall t r x, In (TvSave t r x) evs ->
     (c_dim a = Dim1D -> height t 0 = 1) /\
     forall m, m < mipLevelCount t -> ktx_level_bytes psize t m < 2 ^ 32) ->
  plain_job pw a -> c_ttyp a <> T_UFloat -> lsb_layout (c_fmt a) <> None ->
  exists p0 f0 w0 h0 px0 t bytes n room before p,
    nth_error (c_images a) 0 = Some p0 /\ fi_load pw F p0 = Some (f0, w0, h0, px0) /\
    y_room Y n = Some room /\
    evs = before ++ [TvSave t SR_Success (Some (firstn (N.to_nat room) bytes))] /\
    read_ktx bytes = Some (p, []) /\
    forall k q f w h px, nth_error (c_images a) k = Some q -> fi_load pw F q = Some (f, w, h, px) ->
      asked a w0 h0 = (w, h) -> fits (c_fmt a) (fst (turned a w h)) (snd (turned a w h)) ->
      let s := Bitmap f w h (c_imageCS a) px in plain_input pw s ->
      let '(face, d) := place (c_imageType a) (N.of_nat k) in exists b,
      nth4 (kx_surfaces p) 0 (match c_dim a with Dim3D => 0 | _ => d end) face
        (match c_dim a with Dim3D => d | _ => 0 end) = Some b /\ shows (wo_pack W) a s b.
Proof.
  intros pw W F enc psize fl file isnum cap visit visit' args a Y path fuel evs FK ES CP Enc PV PV' E LN SM EO NZ HF FT ER P4 FIT PJ TU LY.
  destruct (lsb_layout (c_fmt a)) as [l|] eqn:EL; [|congruence].
  destruct (C54_ktx_contents _ _ _ psize fl file isnum cap visit visit' args a Y path fuel evs (image_ops_ok pw F (c_imageCS a) FK)
      (viewed_sized pw psize enc ES) P4 PV PV' E LN SM EO NZ HF FT ER FIT)
    as (p0 & f & w & h & c & t & bytes & n & room & before & p & cv & X1 & X2 & X3 & X4 & X5 & X6 & _ & _ & _ & _ & _ & X).
  cbn [image_ops o_load] in X2. destruct (fi_load pw F p0) as [[[[f0 w0] h0] px0]|] eqn:L0; [|discriminate].
  injection X2 as E1 E2 E3 E4. subst f w h c.
  exists p0, f0, w0, h0, px0, t, bytes, n, room, before, p. repeat (split; [assumption|]).
  intros k q f w h px Hk LD AS Ft s PI.
  destruct (shown pw W F enc fl a cv q f w h px l FK CP Enc PJ (parsed_spaces _ _ _ _ _ _ _ E) LD PI X6 TU EL Ft) as (i & Pi & SH).
  rewrite AS in X. cbn [fst snd] in X. specialize (X k q i Hk Pi).
  destruct (place (c_imageType a) (N.of_nat k)) as [face d]. eexists. split; [exact X|exact SH].
Qed.
Print Assumptions C68_ktx.

Theorem C68_pvr : forall pw W F enc psize fl file isnum cap visit visit' args a Y path fuel evs,
  freeimage_ok pw F -> enc_sized psize enc -> computes W (c_textureCS a) enc ->
  (forall e, N.of_nat (length (wo_enc W e)) = answer_bytes e) ->
  (forall m, Permutation (visit m) m) -> (forall m, Permutation (visit' m) m) ->
  parse fl file isnum cap visit args = POk a ->
  N.of_nat (length (c_images a)) < 2 ^ 32 -> single_mode a ->
  c_output a = Some path -> ~ In 0 (codes path) -> (length (codes path) < fuel)%nat ->
  c_ftype a = FT_PVR ->
  run_tool (image_ops pw F (c_imageCS a)) visit' fl (fun c v i => enc c v (view pw i)) Y fuel a = Some (0, evs) ->
  plain_job pw a -> c_ttyp a <> T_UFloat -> lsb_layout (c_fmt a) <> None ->
  exists p0 f0 w0 h0 px0 t bytes n room before p,
    nth_error (c_images a) 0 = Some p0 /\ fi_load pw F p0 = Some (f0, w0, h0, px0) /\
    y_room Y n = Some room /\
    evs = before ++ [TvSave t SR_Success (Some (firstn (N.to_nat room) bytes))] /\
    read_pvr psize bytes = Some (p, []) /\
    forall k q f w h px, nth_error (c_images a) k = Some q -> fi_load pw F q = Some (f, w, h, px) ->
      asked a w0 h0 = (w, h) -> fits (c_fmt a) (fst (turned a w h)) (snd (turned a w h)) ->
      let s := Bitmap f w h (c_imageCS a) px in plain_input pw s ->
      let '(face, d) := place (c_imageType a) (N.of_nat k) in exists b,
      nth4 (pv_surfaces p) 0 (match c_dim a with Dim3D => 0 | _ => d end) face
        (match c_dim a with Dim3D => d | _ => 0 end) = Some b /\ shows (wo_pack W) a s b.
Proof.
  intros pw W F enc psize fl file isnum cap visit visit' args a Y path fuel evs FK ES CP Enc PV PV' E LN SM EO NZ HF FT ER PJ TU LY.
  destruct (lsb_layout (c_fmt a)) as [l|] eqn:EL; [|congruence].
  destruct (C54_pvr_contents _ _ _ psize fl file isnum cap visit visit' args a Y path fuel evs (image_ops_ok pw F (c_imageCS a) FK)
      (viewed_sized pw psize enc ES) PV PV' E LN SM EO NZ HF FT ER)
    as (p0 & f & w & h & c & t & bytes & n & room & before & p & cv & X1 & X2 & X3 & X4 & X5 & X6 & _ & _ & _ & _ & _ & X).
  cbn [image_ops o_load] in X2. destruct (fi_load pw F p0) as [[[[f0 w0] h0] px0]|] eqn:L0; [|discriminate].
  injection X2 as E1 E2 E3 E4. subst f w h c.
  exists p0, f0, w0, h0, px0, t, bytes, n, room, before, p. repeat (split; [assumption|]).
  intros k q f w h px Hk LD AS Ft s PI.
  destruct (shown pw W F enc fl a cv q f w h px l FK CP Enc PJ (parsed_spaces _ _ _ _ _ _ _ E) LD PI X6 TU EL Ft) as (i & Pi & SH).
  rewrite AS in X. cbn [fst snd] in X. specialize (X k q i Hk Pi).
  destruct (place (c_imageType a) (N.of_nat k)) as [face d]. eexists. split; [exact X|exact SH].
Qed.
Print Assumptions C68_pvr.

(** Consequence: without gray, conversion of the colour space and premultiplication nothing is lost of inputs with 8 or 16 bits per
    channel.  The level [v] of the input becomes [v] as an integer, [v - 2^(n-1)] as a signed
    integer; as a normalised value it becomes [m v] where the range of the format is [m] times that of the
    input. *)
Section Levels.
Context (pw : double -> double -> double).
Local Notation D := (double_arith pw).

Lemma norm_level f n (p : pix D) ch (none : bool) : channel_bits f = Some n -> stored pw f p ->
  let v := level n p ch (if none then 2 ^ n - 1 else 0)%Z in
  (0 <= v <= 2 ^ n - 1)%Z /\ selected ch (if none then 1 else 0)%R (meaning pw f p) = (IZR v / IZR (2 ^ n - 1))%R.
Proof.
  intros CB S. assert (NZ : forall z, z = 255%Z \/ z = 65535%Z -> (1 = IZR z / IZR z)%R).
  { intros z [-> | ->]; field. }
  assert (ZZ : forall z, (0 = 0 / IZR z)%R) by (intros z; unfold Rdiv; ring).
  destruct p as [l|l|l]; destruct f; cbn [channel_bits] in CB; try discriminate; cbn [stored] in S; try contradiction;
    injection CB as <-; destruct l as [|v1 [|v2 [|v3 [|v4 [|? ?]]]]]; try contradiction; unfold u8, u16, range in S;
    change (2 ^ 8 - 1)%Z with 255%Z; change (2 ^ 16 - 1)%Z with 65535%Z; cbn [meaning]; unfold gray_rgba, norm;
    destruct ch; cbn [level selected red green blue alpha]; (split; [first [destruct none; lia|lia]|]);
    first [reflexivity|apply NZ; auto|destruct none; [apply NZ; auto|apply ZZ]].
Qed.

Lemma close_int (r v : Z) : (Rabs (IZR r - IZR v) <= 5 / 8)%R -> r = v.
Proof.
  rewrite <- minus_IZR. intros H. apply Rabs_le_inv in H.
  assert (-1 < r - v)%Z by (apply lt_IZR; lra). assert (r - v < 1)%Z by (apply lt_IZR; lra). lia.
Qed.

Theorem C68_levels : forall pk a (s : bitmap D) data n l x y c b,
  good pw s -> shows pk a s data -> c_imageCS a = c_textureCS a ->
  c_grayscale a = false -> c_preMultiply a = false ->
  channel_bits (b_fmt s) = Some n -> lsb_layout (c_fmt a) = Some l -> In (c, b) l ->
  let '(W, H) := turned a (b_w s) (b_h s) in x < W -> y < H ->
  let size := layout_bits l / 8 in
  let '(x0, y0) := origin a (b_w s) (b_h s) x y in
  let v := level n (at_ pw s x0 y0) (taken a c) (match c with ChA => 2 ^ n - 1 | _ => 0 end)%Z in
  exists r, PixelSpec.field l c (le_val (bytes_at data ((y * W + x) * size) size)) = Some r /\
    match c_ttyp a with
    | T_UNorm => forall m, (2 ^ Z.of_N b - 1 = m * (2 ^ n - 1))%Z -> Z.of_N r = (m * v)%Z
    | T_UInt => (n <= Z.of_N b)%Z -> Z.of_N r = v
    | T_Int => (n <= Z.of_N b)%Z -> sext b r = (v - 2 ^ (n - 1))%Z
    | _ => True
    end.
Proof.
  intros pk a s data n l x y c b G SH ECS NG NP CB LY I.
  assert (ET : (if c_rotate a && match c_rotateAngle a with CW180 | CCW180 => false | _ => true end
    then (b_h s, b_w s) else (b_w s, b_h s)) = turned a (b_w s) (b_h s))
    by (unfold turned, quarter_turn; destruct (c_rotate a), (c_rotateAngle a); reflexivity).
  unfold shows in SH. rewrite ET in SH.
  destruct (turned a (b_w s) (b_h s)) as [W H] eqn:TN. intros X Y. cbv zeta.
  destruct SH as (l' & LY' & _ & SH). assert (l' = l) by congruence. subst l'.
  specialize (SH x y c b X Y I). destruct SH as (r & FR & K).
  pose proof (origin_within a (b_w s) (b_h s) x y) as OW.
  assert (RS : result_size a (b_w s) (b_h s) = (W, H)) by (unfold result_size; rewrite ET; reflexivity).
  rewrite RS in OW. cbn [fst snd] in OW.
  assert (W1 : 1 <= b_w s /\ 1 <= b_h s).
  { unfold turned in TN. destruct (quarter_turn a); injection TN as <- <-; lia. }
  specialize (OW ltac:(apply W1) ltac:(apply W1) X Y).
  destruct (origin a (b_w s) (b_h s) x y) as [x0 y0]. cbn [fst snd] in OW.
  exists r. split; [exact FR|].
  pose proof (proj2 (proj2 G) x0 y0 OW) as ST.
  set (none := match c with ChA => true | _ => false end).
  replace (match c with ChA => 2 ^ n - 1 | _ => 0 end)%Z with (if none then 2 ^ n - 1 else 0)%Z by (destruct c; reflexivity).
  destruct (norm_level (b_fmt s) n _ (taken a c) none CB ST) as [VB VE].
  set (v := level n (at_ pw s x0 y0) (taken a c) (if none then 2 ^ n - 1 else 0)%Z) in *.
  assert (CE : c = ChE \/ of_channel c (processed a (meaning pw (b_fmt s) (at_ pw s x0 y0))) = (IZR v / IZR (2 ^ n - 1))%R).
  { destruct c; auto; right; rewrite <- VE; unfold processed, finished, in_space; rewrite ECS, NG, NP; unfold none, taken;
      destruct (c_textureCS a), (c_swizzle a); reflexivity. }
  assert (P0 : (0 < IZR (2 ^ n - 1))%R).
  { apply IZR_lt. destruct (bits_cases _ _ CB) as [-> | ->]; reflexivity. }
  assert (OC : of_channel c (processed a (meaning pw (b_fmt s) (at_ pw s x0 y0))) = (IZR v / IZR (2 ^ n - 1))%R).
  { destruct CE as [-> | CE]; [|exact CE]. cbn [of_channel]. unfold v, none. cbn [taken level]. unfold Rdiv. ring. }
  rewrite OC in K. clear CE OC VE. clearbody v.
  assert (XM : (IZR v / IZR (2 ^ n - 1) * IZR (2 ^ n - 1) = IZR v)%R) by (field; lra).
  unfold number_for in K. rewrite CB in K.
  assert (PW : (n <= Z.of_N b)%Z -> (2 ^ n <= 2 ^ Z.of_N b)%Z) by (intros; apply Z.pow_le_mono_r; lia).
  assert (PW' : (n <= Z.of_N b)%Z -> (2 ^ (n - 1) <= 2 ^ (Z.of_N b - 1))%Z) by (intros; apply Z.pow_le_mono_r; lia).
  assert (P2 : (2 ^ n = 2 * 2 ^ (n - 1))%Z) by (destruct (bits_cases _ _ CB) as [-> | ->]; reflexivity).
  destruct (c_ttyp a); try exact Logic.I; cbn [kept] in K.
  - intros m EM. apply close_int. rewrite EM in K. rewrite mult_IZR in K. rewrite mult_IZR.
    replace (IZR v / IZR (2 ^ n - 1) * (IZR m * IZR (2 ^ n - 1)))%R with (IZR m * IZR v)%R in K by (field; lra). exact K.
  - intros BN. destruct K as (m & KM & ->). rewrite XM in KM. apply close_int in KM. subst m. specialize (PW BN). lia.
  - intros BN. destruct K as (m & KM & ->). rewrite XM in KM. rewrite <- minus_IZR in KM. apply close_int in KM. subst m.
    specialize (PW' BN). lia.
Qed.

End Levels.
Print Assumptions C68_levels.


(** ** The conditions can be met *)

(** A library that converts with the arithmetic of the code, leaves rotating to Image::rotate, and
    has one picture of 2 x 3 pixels. *)
Definition pw0 (x y : double) : double := x.
Definition ex_picture (x y : N) : pix (double_arith pw0) :=
  PZ [Z.of_N (10 * x + 100 * y); Z.of_N (20 * x + 7); 255 - Z.of_N (30 * y); Z.of_N (128 + x)]%Z.
Definition ex_freeimage : freeimage pw0 := FreeImage pw0
  (fun p => if String.eqb p "aa" then Some (I_RGBA8, 2, 3, ex_picture) else None)
  (fun c b => match c with
              | ImageConvertModel.FI_ToRGBAF =>
                  Some (b_w b, b_h b, fun x y =>
                    match obind (getPixelImpl (b_fmt b) (b_px b x y)) (setPixelNoGrayscaleImpl I_RGBAF) with
                    | Some q => q
                    | None => b_px b x y
                    end)
              | _ => None
              end)
  (fun b w h _ => Some (w, h, b_px b))
  (fun _ _ => None)
  (fun b x y => b_px b (b_w b - 1 - x) y)
  (fun b x y => b_px b x (b_h b - 1 - y))
  (fun f w h => Some (fun _ _ => PF []))
  (fun _ => double_of_Z 1).

Lemma ex_freeimage_ok : freeimage_ok pw0 ex_freeimage.
Proof.
  constructor; cbn [ex_freeimage fi_load fi_conv fi_rescale fi_rotate fi_fliph fi_flipv fi_alloc].
  - intros p f w h px cs H. destruct (String.eqb p "aa"); [|discriminate]. injection H as <- <- <- <-.
    split; [lia|]. split; [lia|]. split; [reflexivity|]. split; [reflexivity|].
    intros x y [X Y]. cbn [b_w b_h] in X, Y. unfold at_, ex_picture. cbn [b_px b_h b_fmt stored]. unfold u8, range. lia.
  - intros f w h. discriminate.
  - intros b w h rf. discriminate.
  - intros b G CB. eexists. split; [reflexivity|]. intros x y W. cbv beta. fold (at_ pw0 b x y).
    assert (FP : finite_pix pw0 (at_ pw0 b x y)).
    { pose proof (proj2 (proj2 G) x y W) as S. destruct (at_ pw0 b x y) as [l|l|l]; [exact I| |];
        destruct (b_fmt b); cbn [channel_bits] in CB; try congruence; destruct l; contradiction S. }
    assert (U : unit_colour (meaning pw0 (b_fmt b) (at_ pw0 b x y))) by (apply meaning_unit; auto; left; exact CB).
    destruct (ImageConvertProofs.read_meaning pw0 _ _ (proj2 (proj2 G) x y W) FP) as (c & -> & R). cbn [obind].
    destruct (ImageConvertProofs.store_color pw0 I_RGBAF c _ R I) as (q & -> & Sq & Hq).
    destruct q as [l|l|l]; cbn [ImageConvertSpec.holds] in Hq; try contradiction.
    destruct l as [|v1 [|v2 [|v3 [|v4 [|? ?]]]]]; try contradiction.
    destruct Hq as (D1 & D2 & D3 & D4). destruct U as (U1 & U2 & U3 & U4).
    assert (K : forall v z, (0 <= z <= 1)%R -> float_near v z -> within_error float_error v z).
    { intros v z Z1 N. destruct N as [Nf Nn].
      { apply Rle_trans with (bpow radix2 0); [change (bpow radix2 0) with 1%R; rewrite Rabs_pos_eq; lra|apply bpow_le; lia]. }
      split; [exact Nf|]. eapply Rle_trans; [exact Nn|]. rewrite (Rabs_pos_eq z) by lra. unfold float_error.
      change (IZR (2 ^ 24)) with 16777216%R. change (IZR (2 ^ 52)) with 4503599627370496%R. change (IZR (2 ^ 22)) with 4194304%R. lra. }
    cbn [near_colour]. split; [apply K; auto|]. split; [apply K; auto|]. split; [apply K; auto|]. apply K; auto.
  - intros b G d w h px H. discriminate H.
  - reflexivity.
  - reflexivity.
Qed.

(** The picture turned clockwise, mirrored, with red and blue exchanged. *)
Definition args6 : list string :=
  ["-i"; "aa"; "-f"; "r8g8b8a8"; "--rotate"; "90"; "--flipx"; "-s"; "bgra"; "-o"; "o.dds"]%string.
Definition ran6 : option (N * list (@tevent (bitmap (double_arith pw0)))) :=
  run_tool (image_ops pw0 ex_freeimage (c_imageCS (parsed args6))) PropsCommandLine.asis PropsCommandLine.fl1
    (fun c v i => serial Wp (c_textureCS (parsed args6)) psize0 c v (view pw0 i)) Y1 100 (parsed args6).
Definition bytes6 : list N :=
  match ran6 with
  | Some (0, [TvSave _ SR_Success (Some b)]) => skipn (length b - 24) b
  | _ => []
  end.
Example C68_case : PropsCommandLine.parse1 args6 = POk (parsed args6) /\ c_ftype (parsed args6) = FT_DDS /\
  plain_job pw0 (parsed args6) /\ c_ttyp (parsed args6) = T_UNorm /\
  fi_load pw0 ex_freeimage "aa" = Some (I_RGBA8, 2, 3, ex_picture) /\ asked (parsed args6) 2 3 = (2, 3) /\
  fits (c_fmt (parsed args6)) 3 2 /\
  plain_input pw0 (Bitmap I_RGBA8 2 3 (c_imageCS (parsed args6)) ex_picture) /\
  bytes6 = [195; 7; 200; 128; 225; 7; 100; 128; 255; 7; 0; 128;
            195; 27; 210; 129; 225; 27; 110; 129; 255; 27; 10; 129].
Proof.
  split; [vm_compute; reflexivity|]. split; [vm_compute; reflexivity|].
  split. { split; [vm_compute; reflexivity|]. intros H. vm_compute in H. discriminate. }
  split; [vm_compute; reflexivity|]. split; [reflexivity|]. split; [vm_compute; reflexivity|].
  split. { change (fits F_R8G8B8A8 3 2). unfold fits, spec_block. cbn. lia. }
  split. { left. discriminate. }
  vm_compute. reflexivity.
Qed.

(** Jobs whose colours are converted: with --srgb a format without an sRGB version gets linear light;
    one with an sRGB version keeps sRGB, and gray and the products are computed of the light. *)
Definition args8 : list string := ["-i"; "aa"; "-f"; "r16g16b16a16"; "--srgb"; "-o"; "o.dds"]%string.
Definition args9 : list string := ["-i"; "aa"; "-f"; "r8g8b8a8"; "--srgb"; "-g"; "--pre-multiply"; "-o"; "o.dds"]%string.
Example C68_srgb_case :
  PropsCommandLine.parse1 args8 = POk (parsed args8) /\ c_imageCS (parsed args8) = CS_sRGB /\ c_textureCS (parsed args8) = CS_Linear /\
  PropsCommandLine.parse1 args9 = POk (parsed args9) /\ c_imageCS (parsed args9) = CS_sRGB /\ c_textureCS (parsed args9) = CS_sRGB /\
  coarse (parsed args8) = false /\ coarse (parsed args9) = true /\
  plain_job SrgbPow.good_pow (parsed args8) /\ plain_job SrgbPow.good_pow (parsed args9) /\
  (forall x, processed (parsed args8) (RGBA x x x 1) = RGBA (PropsSrgb.decode x) (PropsSrgb.decode x) (PropsSrgb.decode x) 1).
Proof.
  do 8 (split; [vm_compute; reflexivity|]).
  split. { split; [vm_compute; reflexivity|]. intros _ _. exact SrgbPow.good_pow_ok. }
  split. { split; [vm_compute; reflexivity|]. intros _ _. exact SrgbPow.good_pow_ok. }
  assert (E1 : c_imageCS (parsed args8) = CS_sRGB) by (vm_compute; reflexivity).
  assert (E2 : c_textureCS (parsed args8) = CS_Linear) by (vm_compute; reflexivity).
  assert (E3 : c_grayscale (parsed args8) = false) by (vm_compute; reflexivity).
  assert (E4 : c_swizzle (parsed args8) = false) by (vm_compute; reflexivity).
  assert (E5 : c_preMultiply (parsed args8) = false) by (vm_compute; reflexivity).
  intros x. unfold processed, finished, in_space. rewrite E1, E2, E3, E4, E5. reflexivity.
Qed.

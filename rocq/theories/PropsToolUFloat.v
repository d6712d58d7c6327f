(** C68: what the file holds for the two formats of unsigned floats, whose pixels are words that
    glm packs. *)

From Coq Require Import NArith ZArith List Bool String Lia Permutation Reals Lra.
From Coq Require Import ZifyBool ZifyNat ZifyN.
From Flocq Require Import Core IEEE754.BinarySingleNaN IEEE754.Binary IEEE754.Bits.
From Verif Require Import Base FormatModel FormatSpec ContainerSpec FloatModel FloatSpec ArithModel
  FormatProofs TextureSpec TextureProofs SaveModel SaveSpec PropsSave ImageSpec ImageLoops ImageApiProofs.
From Verif Require Import ImageConvertSpec ToolModel ToolSpec PropsPixel.
From Verif Require Import ConverterModel BlockSpec CompressSpec EncodeModel EncodeSpec PropsEncode.
From Verif Require Import PixelModel PixelSpec PixelProofs TextureModel ImageModel PipelineModel PipelineSpec PropsPipeline
  CommandLineModel CommandLineSpec ToolImageModel ToolImageSpec ToolImageProofs ToolUFloatSpec PropsToolImage.
From Verif Require ImageConvertModel ResizeModel NormalModel PropsCommandLine PropsSrgb SrgbPow.
Import ListNotations.
Local Open Scope list_scope.
Local Open Scope N_scope.
Local Notation length := List.length.
Local Notation height := TextureModel.height.
Local Notation place := PipelineSpec.place.

Section Tool.
Context (pw : double -> double -> double).
Local Notation D := (double_arith pw).

(** The formats that have this type and whose layout is one of channels. *)
Lemma packed_formats fl f cv l : createConverter fl f T_UFloat = Some cv -> lsb_layout f = Some l ->
  family_of f <> Fam_Pvrtc /\
  (exists l', layout_of f = Channels l' /\ layout_bits l' / 8 = 4) /\
  (forall pk p, enc_px pk cv p <> None).
Proof.
  intros C L. pose proof (ufloat_b fl f T_UFloat) as X. rewrite C, L in X. cbn [type_eqb negb orb] in X.
  destruct cv; try discriminate X; apply format_eqb_eq in X; subst f;
    (split; [discriminate|]); (split; [eexists; split; reflexivity|]); intros pk [R G B A]; discriminate.
Qed.

Lemma packed_level W F enc fl a cv q f U V m w h px l : freeimage_ok pw F -> computes W (c_textureCS a) enc ->
  (forall e, N.of_nat (length (wo_enc W e)) = answer_bytes e) ->
  plain_job pw a -> spaces a -> fi_load pw F q = Some (f, w, h, px) -> side U m = w -> side V m = h ->
  let s := Bitmap f w h (c_imageCS a) px in
  plain_input pw s -> createConverter fl (c_fmt a) (c_ttyp a) = Some cv -> c_ttyp a = T_UFloat ->
  lsb_layout (c_fmt a) = Some l ->
  fits (c_fmt a) (fst (turned a w h)) (snd (turned a w h)) ->
  let O := image_ops pw F (c_imageCS a) in
  exists i, product O a U V m q = Some i /\
    iwidth i = fst (turned a w h) /\ iheight i = snd (turned a w h) /\
    shows_packed (wo_pack W) a s (enc cv (convert_args a) (view pw (iconvert (o_lib O) i I_RGBAF))).
Proof.
  intros FK CP Enc PJ SP LD SU SV s PI C TU LY FT O.
  destruct (product_level pw F FK a q f U V m w h px PJ (spaces_proper a SP) LD SU SV PI) as (i & Pi & IC & (b & Ei & Bw & Bh & (_ & _ & _ & B31 & _) & RD)). fold s in RD.
  exists i. split; [exact Pi|]. fold O in IC. rewrite IC. clear IC.
  assert (ET : turned a w h = result_size a w h).
  { unfold turned, quarter_turn, result_size. destruct (c_rotate a), (c_rotateAngle a); reflexivity. }
  rewrite ET in *.
  assert (ES : (if c_rotate a && match c_rotateAngle a with CW180 | CCW180 => false | _ => true end
     then (b_h s, b_w s) else (b_w s, b_h s)) = result_size a w h) by reflexivity.
  destruct (result_size a w h) as [W' H'] eqn:RZ. cbn [fst snd] in *.
  subst i. split; [reflexivity|]. split; [reflexivity|].
  pose proof C as C'. rewrite TU in C'. destruct (packed_formats fl _ _ _ C' LY) as (NP & (l' & LO & LB) & ND).
  assert (JE : (job_error a <= / IZR (2 ^ 19))%R).
  { unfold job_error, coarse. destruct (c_textureCS a) eqn:TC; [unfold E2; change (2 ^ 19)%Z with 524288%Z; lra|].
    destruct (SP TC) as [_ NS]. apply native_bits in NS. destruct NS as [NS _]. congruence. }
  assert (AD : forall x v, adjusted (job_error a) (c_ttyp a) f x v -> within_error (/ IZR (2 ^ 19)) v x).
  { intros x v A. rewrite TU in A. unfold adjusted in A. assert (B : within_error (job_error a) v x) by (destruct (channel_bits f); exact A).
    destruct B as [B1 B2]. split; [exact B1|]. lra. }
  cbn [view]. set (im := Img I_RGBAF W' H' (c_textureCS a) (floats pw b)).
  assert (DF : defined W (c_textureCS a) cv (convert_args a) im).
  { unfold im. cbn [defined]. change (ca_format (convert_args a)) with (c_fmt a). rewrite LO. intros r0 q0 _ _. apply ND. }
  destruct (surface_all W (c_textureCS a) fl cv (convert_args a) im C NP Enc FT DF) as [[EQ _] HD].
  rewrite (proj1 (EQ _) (CP fl (convert_args a) cv im C NP FT DF)). unfold im in HD |- *.
  cbn [EncodeSpec.holds] in HD. change (ca_format (convert_args a)) with (c_fmt a) in HD. change (ca_type (convert_args a)) with (c_ttyp a) in HD.
  rewrite LO, LB in HD. destruct HD as [HL HS].
  unfold shows_packed. rewrite ES. split; [exact HL|].
  intros x y X Y. specialize (HS y x Y X). destruct (RD x y X Y) as (v1 & v2 & v3 & v4 & A0 & A1 & A2 & A3 & A4).
  assert (EF : floats pw b y x = Rgba v1 v2 v3 v4) by (eapply at_floats; eauto; lia).
  rewrite EF, TU in HS. change (b_w s) with w. change (b_h s) with h. change (b_fmt s) with f.
  apply AD in A1, A2, A3. clear A0 A4. destruct (origin a w h x y) as [x0 y0].
  exists v1, v2, v3. do 3 (split; [assumption|]).
  exact (C22_small_floats _ _ _ _ HS (ex_intro _ l LY)).
Qed.

Lemma packed W F enc fl a cv q f w h px l : freeimage_ok pw F -> computes W (c_textureCS a) enc ->
  (forall e, N.of_nat (length (wo_enc W e)) = answer_bytes e) ->
  plain_job pw a -> spaces a -> fi_load pw F q = Some (f, w, h, px) ->
  let s := Bitmap f w h (c_imageCS a) px in
  plain_input pw s -> createConverter fl (c_fmt a) (c_ttyp a) = Some cv -> c_ttyp a = T_UFloat ->
  lsb_layout (c_fmt a) = Some l ->
  fits (c_fmt a) (fst (turned a w h)) (snd (turned a w h)) ->
  let O := image_ops pw F (c_imageCS a) in
  exists i, product O a w h 0 q = Some i /\
    shows_packed (wo_pack W) a s (enc cv (convert_args a) (view pw (iconvert (o_lib O) i I_RGBAF))).
Proof.
  intros FK CP Enc PJ SP LD s PI C TU LY FT O.
  destruct (fk_load pw F FK q f w h px (c_imageCS a) LD) as (W1 & H1 & _).
  assert (SD : forall n, 1 <= n -> side n 0 = n) by (intros n Hn; unfold side; rewrite N.div_1_r; lia).
  destruct (packed_level W F enc fl a cv q f w h 0 w h px l FK CP Enc PJ SP LD (SD w W1) (SD h H1) PI C TU LY FT)
    as (i & Pi & _ & _ & SH).
  exists i. split; [exact Pi|exact SH].
Qed.

End Tool.

(** The file read back as DDS: every surface shows its input, packed. *)
Theorem C68_packed_dds : forall pw W F enc psize fl file isnum cap visit visit' args a Y path fuel evs,
  freeimage_ok pw F -> enc_sized psize enc -> computes W (c_textureCS a) enc ->
  (forall e, N.of_nat (length (wo_enc W e)) = answer_bytes e) ->
  (forall m, Permutation (visit m) m) -> (forall m, Permutation (visit' m) m) ->
  parse fl file isnum cap visit args = POk a ->
  N.of_nat (length (c_images a)) < 2 ^ 32 -> single_mode a ->
  c_output a = Some path -> ~ In 0 (codes path) -> (length (codes path) < fuel)%nat ->
  c_ftype a = FT_DDS ->
  run_tool (image_ops pw F (c_imageCS a)) visit' fl (fun c v i => enc c v (view pw i)) Y fuel a = Some (0, evs) ->
  plain_job pw a -> c_ttyp a = T_UFloat -> lsb_layout (c_fmt a) <> None ->
  exists p0 f0 w0 h0 px0 t bytes n room before p,
    nth_error (c_images a) 0 = Some p0 /\ fi_load pw F p0 = Some (f0, w0, h0, px0) /\
    y_room Y n = Some room /\
    evs = before ++ [TvSave t SR_Success (Some (firstn (N.to_nat room) bytes))] /\
    read_dds bytes = Some (p, []) /\
    forall k q f w h px, nth_error (c_images a) k = Some q -> fi_load pw F q = Some (f, w, h, px) ->
      asked a w0 h0 = (w, h) -> fits (c_fmt a) (fst (turned a w h)) (snd (turned a w h)) ->
      let s := Bitmap f w h (c_imageCS a) px in plain_input pw s ->
      let '(face, d) := place (c_imageType a) (N.of_nat k) in exists b,
      nth4 (dd_surfaces p) (match c_dim a with Dim3D => 0 | _ => d end) face 0
        (match c_dim a with Dim3D => d | _ => 0 end) = Some b /\ shows_packed (wo_pack W) a s b.
Proof.
  intros pw W F enc psize fl file isnum cap visit visit' args a Y path fuel evs FK ES CP Enc PV PV' E LN SM EO NZ HF FT ER PJ TU LY.
  destruct (lsb_layout (c_fmt a)) as [l|] eqn:EL; [|congruence].
  destruct (C54_dds_contents _ _ _ psize fl file isnum cap visit visit' args a Y path fuel evs (image_ops_ok pw F (c_imageCS a) FK)
      (viewed_sized pw psize enc ES) PV PV' E LN SM EO NZ HF FT ER)
    as (p0 & f & w & h & c & t & bytes & n & room & before & p & cv & X1 & X2 & X3 & X4 & X5 & X6 & _ & _ & _ & _ & _ & X).
  cbn [image_ops o_load] in X2. destruct (fi_load pw F p0) as [[[[f0 w0] h0] px0]|] eqn:L0; [|discriminate].
  injection X2 as E1 E2 E3 E4. subst f w h c.
  exists p0, f0, w0, h0, px0, t, bytes, n, room, before, p. repeat (split; [assumption|]).
  intros k q f w h px Hk LD AS Ft s PI.
  destruct (packed pw W F enc fl a cv q f w h px l FK CP Enc PJ (parsed_spaces _ _ _ _ _ _ _ E) LD PI X6 TU EL Ft) as (i & Pi & SH).
  rewrite AS in X. cbn [fst snd] in X. specialize (X k q i Hk Pi).
  destruct (place (c_imageType a) (N.of_nat k)) as [face d]. eexists. split; [exact X|exact SH].
Qed.
Print Assumptions C68_packed_dds.

Theorem C68_packed_ktx : forall pw W F enc psize fl file isnum cap visit visit' args a Y path fuel evs,
  freeimage_ok pw F -> enc_sized psize enc -> computes W (c_textureCS a) enc ->
  (forall e, N.of_nat (length (wo_enc W e)) = answer_bytes e) ->
  (forall m, Permutation (visit m) m) -> (forall m, Permutation (visit' m) m) ->
  parse fl file isnum cap visit args = POk a ->
  N.of_nat (length (c_images a)) < 2 ^ 32 -> single_mode a ->
  c_output a = Some path -> ~ In 0 (codes path) -> (length (codes path) < fuel)%nat ->
  c_ftype a = FT_KTX ->
  run_tool (image_ops pw F (c_imageCS a)) visit' fl (fun c v i => enc c v (view pw i)) Y fuel a = Some (0, evs) ->
  (forall f w h, psize f w h mod 4 = 0) ->
  (forall t r x, In (TvSave t r x) evs ->
     (c_dim a = Dim1D -> height t 0 = 1) /\
     forall m, m < mipLevelCount t -> ktx_level_bytes psize t m < 2 ^ 32) ->
  plain_job pw a -> c_ttyp a = T_UFloat -> lsb_layout (c_fmt a) <> None ->
  exists p0 f0 w0 h0 px0 t bytes n room before p,
    nth_error (c_images a) 0 = Some p0 /\ fi_load pw F p0 = Some (f0, w0, h0, px0) /\
    y_room Y n = Some room /\
    evs = before ++ [TvSave t SR_Success (Some (firstn (N.to_nat room) bytes))] /\
    read_ktx bytes = Some (p, []) /\
    forall k q f w h px, nth_error (c_images a) k = Some q -> fi_load pw F q = Some (f, w, h, px) ->
      asked a w0 h0 = (w, h) -> fits (c_fmt a) (fst (turned a w h)) (snd (turned a w h)) ->
      let s := Bitmap f w h (c_imageCS a) px in plain_input pw s ->
      let '(face, d) := place (c_imageType a) (N.of_nat k) in exists b,
      nth4 (kx_surfaces p) 0 (match c_dim a with Dim3D => 0 | _ => d end) face
        (match c_dim a with Dim3D => d | _ => 0 end) = Some b /\ shows_packed (wo_pack W) a s b.
Proof.
  intros pw W F enc psize fl file isnum cap visit visit' args a Y path fuel evs FK ES CP Enc PV PV' E LN SM EO NZ HF FT ER P4 FIT PJ TU LY.
  destruct (lsb_layout (c_fmt a)) as [l|] eqn:EL; [|congruence].
  destruct (C54_ktx_contents _ _ _ psize fl file isnum cap visit visit' args a Y path fuel evs (image_ops_ok pw F (c_imageCS a) FK)
      (viewed_sized pw psize enc ES) P4 PV PV' E LN SM EO NZ HF FT ER FIT)
    as (p0 & f & w & h & c & t & bytes & n & room & before & p & cv & X1 & X2 & X3 & X4 & X5 & X6 & _ & _ & _ & _ & _ & X).
  cbn [image_ops o_load] in X2. destruct (fi_load pw F p0) as [[[[f0 w0] h0] px0]|] eqn:L0; [|discriminate].
  injection X2 as E1 E2 E3 E4. subst f w h c.
  exists p0, f0, w0, h0, px0, t, bytes, n, room, before, p. repeat (split; [assumption|]).
  intros k q f w h px Hk LD AS Ft s PI.
  destruct (packed pw W F enc fl a cv q f w h px l FK CP Enc PJ (parsed_spaces _ _ _ _ _ _ _ E) LD PI X6 TU EL Ft) as (i & Pi & SH).
  rewrite AS in X. cbn [fst snd] in X. specialize (X k q i Hk Pi).
  destruct (place (c_imageType a) (N.of_nat k)) as [face d]. eexists. split; [exact X|exact SH].
Qed.
Print Assumptions C68_packed_ktx.

Theorem C68_packed_pvr : forall pw W F enc psize fl file isnum cap visit visit' args a Y path fuel evs,
  freeimage_ok pw F -> enc_sized psize enc -> computes W (c_textureCS a) enc ->
  (forall e, N.of_nat (length (wo_enc W e)) = answer_bytes e) ->
  (forall m, Permutation (visit m) m) -> (forall m, Permutation (visit' m) m) ->
  parse fl file isnum cap visit args = POk a ->
  N.of_nat (length (c_images a)) < 2 ^ 32 -> single_mode a ->
  c_output a = Some path -> ~ In 0 (codes path) -> (length (codes path) < fuel)%nat ->
  c_ftype a = FT_PVR ->
  run_tool (image_ops pw F (c_imageCS a)) visit' fl (fun c v i => enc c v (view pw i)) Y fuel a = Some (0, evs) ->
  plain_job pw a -> c_ttyp a = T_UFloat -> lsb_layout (c_fmt a) <> None ->
  exists p0 f0 w0 h0 px0 t bytes n room before p,
    nth_error (c_images a) 0 = Some p0 /\ fi_load pw F p0 = Some (f0, w0, h0, px0) /\
    y_room Y n = Some room /\
    evs = before ++ [TvSave t SR_Success (Some (firstn (N.to_nat room) bytes))] /\
    read_pvr psize bytes = Some (p, []) /\
    forall k q f w h px, nth_error (c_images a) k = Some q -> fi_load pw F q = Some (f, w, h, px) ->
      asked a w0 h0 = (w, h) -> fits (c_fmt a) (fst (turned a w h)) (snd (turned a w h)) ->
      let s := Bitmap f w h (c_imageCS a) px in plain_input pw s ->
      let '(face, d) := place (c_imageType a) (N.of_nat k) in exists b,
      nth4 (pv_surfaces p) 0 (match c_dim a with Dim3D => 0 | _ => d end) face
        (match c_dim a with Dim3D => d | _ => 0 end) = Some b /\ shows_packed (wo_pack W) a s b.
Proof.
  intros pw W F enc psize fl file isnum cap visit visit' args a Y path fuel evs FK ES CP Enc PV PV' E LN SM EO NZ HF FT ER PJ TU LY.
  destruct (lsb_layout (c_fmt a)) as [l|] eqn:EL; [|congruence].
  destruct (C54_pvr_contents _ _ _ psize fl file isnum cap visit visit' args a Y path fuel evs (image_ops_ok pw F (c_imageCS a) FK)
      (viewed_sized pw psize enc ES) PV PV' E LN SM EO NZ HF FT ER)
    as (p0 & f & w & h & c & t & bytes & n & room & before & p & cv & X1 & X2 & X3 & X4 & X5 & X6 & _ & _ & _ & _ & _ & X).
  cbn [image_ops o_load] in X2. destruct (fi_load pw F p0) as [[[[f0 w0] h0] px0]|] eqn:L0; [|discriminate].
  injection X2 as E1 E2 E3 E4. subst f w h c.
  exists p0, f0, w0, h0, px0, t, bytes, n, room, before, p. repeat (split; [assumption|]).
  intros k q f w h px Hk LD AS Ft s PI.
  destruct (packed pw W F enc fl a cv q f w h px l FK CP Enc PJ (parsed_spaces _ _ _ _ _ _ _ E) LD PI X6 TU EL Ft) as (i & Pi & SH).
  rewrite AS in X. cbn [fst snd] in X. specialize (X k q i Hk Pi).
  destruct (place (c_imageType a) (N.of_nat k)) as [face d]. eexists. split; [exact X|exact SH].
Qed.
Print Assumptions C68_packed_pvr.

(** ** The conditions can be met *)

Definition args_u : list string :=
  ["-i"; "aa"; "-f"; "e5b9g9r9_ufloat"; "--rotate"; "90"; "-o"; "o.dds"]%string.
Definition ran_u : option (N * list (@tevent (bitmap (double_arith pw0)))) :=
  run_tool (image_ops pw0 ex_freeimage (c_imageCS (parsed args_u))) PropsCommandLine.asis PropsCommandLine.fl1
    (fun c v i => serial Wp (c_textureCS (parsed args_u)) psize0 c v (view pw0 i)) Y1 100 (parsed args_u).
Example C68_packed_case : PropsCommandLine.parse1 args_u = POk (parsed args_u) /\ c_ftype (parsed args_u) = FT_DDS /\
  plain_job pw0 (parsed args_u) /\ c_ttyp (parsed args_u) = T_UFloat /\ lsb_layout (c_fmt (parsed args_u)) <> None /\
  fi_load pw0 ex_freeimage "aa" = Some (I_RGBA8, 2, 3, ex_picture) /\ asked (parsed args_u) 2 3 = (2, 3) /\
  fits (c_fmt (parsed args_u)) 3 2 /\
  plain_input pw0 (Bitmap I_RGBA8 2 3 (c_imageCS (parsed args_u)) ex_picture) /\
  option_map fst ran_u = Some 0.
Proof.
  split; [vm_compute; reflexivity|]. split; [vm_compute; reflexivity|].
  split. { split; [vm_compute; reflexivity|]. intros H. vm_compute in H. discriminate. }
  split; [vm_compute; reflexivity|]. split; [vm_compute; discriminate|].
  split; [reflexivity|]. split; [vm_compute; reflexivity|].
  split. { change (fits F_E5B9G9R9_UFloat 3 2). unfold fits, spec_block. cbn. lia. }
  split. { left. discriminate. }
  vm_compute. reflexivity.
Qed.

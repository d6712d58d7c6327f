(** C67: the data of a texture, and of the file it is saved to, is its images. *)

From Coq Require Import NArith ZArith List Bool Lia.
From Coq Require Import ZifyBool ZifyNat ZifyN.
From Verif Require Import Base FormatModel FormatSpec ContainerSpec TextureModel TextureSpec TextureProofs PropsTexture
  PropsMips SaveModel SaveSpec PropsSave.
From Verif Require Import FloatModel ConverterModel ConverterSpec PixelModel PixelSpec PixelProofs PackProofs FormatProofs
  SchedProofs TilingProofs PropsConvert PropsPixel BlockModel BlockSpec PropsBlock CompressModel CompressSpec PropsCompress
  EncodeModel EncodeSpec.
Import ListNotations.
Ltac Zify.zify_post_hook ::= Z.div_mod_to_equations.
Local Open Scope N_scope.

(** * Runs *)

(** Some run ends. *)
Lemma a_run_ends {J} (process : J -> option (list (N * N))) jobs buf threads m :
  jobs_ok process jobs buf -> N.of_nat (length jobs) + N.of_nat threads < 2 ^ 32 ->
  reach process jobs buf threads m -> exists m', reach process jobs buf threads m' /\ mfinal m'.
Proof.
  intros OK B R. destruct (C16_terminates J process jobs buf threads m OK B R) as [A _].
  revert R. induction A as [m _ IH]. intros R.
  destruct (C16_terminates J process jobs buf threads m OK B R) as [_ [F|[m' S]]].
  - exists m. split; assumption.
  - apply (IH m' S). eapply reach_step; eauto.
Qed.

(** Jobs that tile the buffer with [data]: whatever the number of threads and their schedule, the
    result is [data]. *)
Lemma tiled {J} (process : J -> option (list (N * N))) jobs buf data n :
  (forall j, In j jobs -> process j <> None) -> flat_map (writes process) jobs = place 0 data ->
  length buf = length data -> N.of_nat (length jobs) + n < 2 ^ 32 ->
  (forall b,
   (if n <=? 1 then run_serial process jobs buf = Some b
    else exists m, reach process jobs buf (N.to_nat n) m /\ mfinal m /\ m_buf m = b) <-> b = data) /\
  run_serial process jobs buf = Some data.
Proof.
  intros T Wr LB Bn.
  assert (S : run_serial process jobs buf = Some data) by (apply tiling_serial; auto).
  split; [|exact S]. intros b.
  assert (OK : jobs_ok process jobs buf) by (apply (tiling_jobs_ok _ _ _ data); auto).
  destruct (N.leb_spec n 1) as [H|H].
  - rewrite S. split; [intros E; injection E; auto|intros ->; reflexivity].
  - assert (Bn' : N.of_nat (length jobs) + N.of_nat (N.to_nat n) < 2 ^ 32) by lia.
    split.
    + intros (m & R & F & <-).
      destruct (C16_schedule_independent J process jobs buf (N.to_nat n) m OK Bn' ltac:(lia) R F) as [E _].
      congruence.
    + intros ->. destruct (a_run_ends process jobs buf (N.to_nat n) _ OK Bn' (reach_init _ _ _ _)) as (m & R & F).
      exists m. split; [exact R|]. split; [exact F|].
      destruct (C16_schedule_independent J process jobs buf (N.to_nat n) m OK Bn' ltac:(lia) R F) as [E _].
      congruence.
Qed.

(** * One surface *)

Lemma kind_std fl f t c : createConverter fl f t = Some c -> family_of f <> Fam_Pvrtc ->
  match layout_of f with
  | NoLayout => False
  | Channels l => exists sz ch, std_params c = Some (sz, ch) /\ layout_bits l / 8 = sz * ch /\ 0 < sz
  | Blocks bx by_ bs _ => std_params c = None /\ block_params c = Some (bx, by_, bs) /\
      0 < bx <= 16 /\ 0 < by_ <= 16 /\ 0 < bs /\ 8 <= bs
  end.
Proof.
  intros C NP.
  assert (X : forall (fl : flags) f (t : ttype), match createConverter fl f t with
    | Some c => match family_of f with Fam_Pvrtc => true | _ =>
        match layout_of f with
        | NoLayout => false
        | Channels l => match std_params c with Some (sz, ch) => (layout_bits l / 8 =? sz * ch) && (0 <? sz) | None => false end
        | Blocks bx by_ bs _ => match std_params c, block_params c with
            | None, Some (x, y, s) => (x =? bx) && (y =? by_) && (s =? bs) && (0 <? bx) && (bx <=? 16)
                && (0 <? by_) && (by_ <=? 16) && (8 <=? bs)
            | _, _ => false end
        end end
    | None => true end = true) by (apply forall_fft; vm_compute; reflexivity).
  specialize (X fl f t). rewrite C in X.
  destruct (family_of f); try (now elim NP);
  (destruct (layout_of f); [discriminate X| |];
   destruct (std_params c) as [[sz ch]|]; try discriminate X;
   [exists sz, ch; split; [reflexivity|]; lia|
    destruct (block_params c) as [[[x y] s]|]; [|discriminate X]; split; [reflexivity|];
    assert (x = w /\ y = h /\ s = bytes) as (-> & -> & ->) by lia; split; [reflexivity|lia]]).
Qed.

Lemma enc_px_length pk fl f t c sz ch p bs : createConverter fl f t = Some c -> std_params c = Some (sz, ch) ->
  enc_px pk c p = Some bs -> N.of_nat (length bs) = sz * ch.
Proof.
  intros C SP E. pose proof (std_size_b fl f t) as Z. rewrite C, SP in Z.
  destruct (lsb_layout f) as [l|] eqn:LF; [|discriminate]. apply N.eqb_eq in Z.
  destruct (type_eqb t T_UFloat) eqn:TU.
  - apply type_eqb_eq in TU; subst t.
    pose proof (ufloat_b fl f T_UFloat) as X. rewrite C, LF in X. cbn [type_eqb negb orb] in X.
    destruct p. destruct c; try discriminate X; cbn in E, SP; inversion E; inversion SP; subst; reflexivity.
  - assert (TN : t <> T_UFloat) by (intros ->; discriminate).
    destruct (created_ref pk fl f t c l p C LF TN) as [R' _]. rewrite R' in E. unfold ref_enc in E.
    destruct (quanta _ _ _ _); [|discriminate]. inversion E; subst. rewrite le_bytes_length. lia.
Qed.

Lemma job_row n : job_list n 1 = map (fun x => (x, 0)) (Nrange n).
Proof. unfold job_list. change (Nrange 1) with [0]. cbn [flat_map]. apply app_nil_r. Qed.

(** The data an image should become. *)
Definition expected (W : world) (texCS : colorspace) (c : converter) (a : convargs) (i : image pixels) : list N :=
  match i with
  | NoImage => []
  | Img _ w h cs px =>
      match layout_of (ca_format a) with
      | NoLayout => []
      | Channels _ =>
          std_data w h px (fun p => match enc_px (wo_pack W) c p with Some bs => bs | None => [] end)
      | Blocks bx by_ _ _ =>
          block_data (cdiv w bx) (cdiv h by_) (fun x y =>
            match block_request W texCS c a cs w h px x y with
            | Some r => map Z.to_N (r_own r) ++ wo_enc W (r_call r) | None => [] end)
      end
  end.

(** The result with one thread. *)
Definition serial_run (W : world) (texCS : colorspace) (c : converter) (a : convargs) (i : image pixels) : option (list N) :=
  match i with
  | NoImage => None
  | Img _ w h cs px =>
      obind (converter_data_size c w h) (fun size =>
      run_serial (surface_process W texCS c a cs w h px) (job_list (fst (jobs_xy c w h)) (snd (jobs_xy c w h)))
        (repeat 0 (N.to_nat size)))
  end.

Lemma cdiv_le n b : 0 < b -> cdiv n b <= n.
Proof. intros H. unfold cdiv. destruct (N.eq_dec n 0) as [->|]; [|nia]. rewrite N.div_small; lia. Qed.

Lemma surface_all W texCS fl c a i :
  createConverter fl (ca_format a) (ca_type a) = Some c -> family_of (ca_format a) <> Fam_Pvrtc ->
  (forall e, N.of_nat (length (wo_enc W e)) = answer_bytes e) ->
  fits (ca_format a) (iwidth i) (iheight i) -> defined W texCS c a i ->
  ((forall b, surface_result W texCS c a i b <-> b = expected W texCS c a i) /\
   serial_run W texCS c a i = Some (expected W texCS c a i)) /\
  holds W texCS c a i (expected W texCS c a i).
Proof.
  intros C NP Enc Ft D. destruct i as [|g w h cs px]; [contradiction|]. cbn [iwidth iheight] in Ft.
  pose proof (kind_std fl _ _ c C NP) as K. destruct Ft as (Hw & Hh & Hn & Bw & Bh & Sz).
  cbn [defined expected holds surface_result serial_run] in *. unfold spec_block in Sz.
  destruct (layout_of (ca_format a)) as [|l|bx by_ bs al] eqn:LY; [contradiction| |].
  - destruct K as (sz & ch & SP & Ln & Hz). rewrite Ln in *. unfold converter_data_size. rewrite SP.
    unfold jobs_xy. rewrite SP. cbn [obind fst snd].
    set (bytes := fun p => match enc_px (wo_pack W) c p with Some bs => bs | None => [] end).
    assert (EO : enc_ok (enc_px (wo_pack W) c) sz ch w h px bytes).
    { intros r q Hr Hq. unfold bytes. specialize (D r q Hr Hq).
      destruct (enc_px (wo_pack W) c (px r q)) as [x|] eqn:E; [|congruence]. split; auto.
      eapply enc_px_length; eauto. }
    assert (Hc : w * h * ch <= 2 ^ 32).
    { unfold cdiv in Sz. rewrite N.add_sub, N.div_1_r in Sz. rewrite N.add_sub, N.div_1_r in Sz. nia. }
    pose proof (std_data_length (enc_px (wo_pack W) c) sz ch w h px bytes Hw Hh Hn Hc EO) as LD.
    assert (JX : std_jobsX w h = cdiv (w * h) 32).
    { apply (std_jobsX_cdiv ch); auto. }
    assert (JL : std_jobsX w h <= 2 ^ 27) by (rewrite JX; unfold cdiv; lia).
    split.
    + rewrite N.mul_1_r, (u32_small (std_jobsX w h)) by lia. rewrite job_row.
      set (process := surface_process W texCS c a cs w h px).
      assert (PE : forall x, process (x, 0) = std_process (enc_px (wo_pack W) c) sz ch (img w h px) x).
      { intros x. unfold process, surface_process. rewrite SP. reflexivity. }
      apply tiled.
      * intros j I. apply in_map_iff in I. destruct I as (x & <- & I). rewrite PE.
        apply (std_jobs_total (enc_px (wo_pack W) c) sz ch w h px bytes); auto.
      * rewrite flat_map_map, <- (std_writes (enc_px (wo_pack W) c) sz ch w h px bytes) by auto.
        apply flat_map_ext. intros x. unfold writes. rewrite PE. reflexivity.
      * rewrite repeat_length. lia.
      * rewrite map_length, Nrange_length. unfold cur_threads. lia.
    + split.
      * rewrite LD. unfold std_data_size. rewrite u32_small by lia. lia.
      * intros r q Hr Hq. unfold bytes_at.
        rewrite (C17_pixel_position _ (enc_px (wo_pack W) c) sz ch w h px bytes r q); auto.
        exists fl, c. split; auto. apply EO; auto.
  - destruct K as (SP & BP & Hbx & Hby & Hbs & Hb8).
    unfold converter_data_size. rewrite SP, BP. unfold jobs_xy. rewrite SP, BP. cbn [obind fst snd].
    set (out := fun x y => match block_request W texCS c a cs w h px x y with
            | Some r => map Z.to_N (r_own r) ++ wo_enc W (r_call r) | None => [] end).
    set (process := surface_process W texCS c a cs w h px).
    assert (Hproc : forall x y, x < cdiv w bx -> y < cdiv h by_ ->
      process (x, y) = Some (place ((y * cdiv w bx + x) * bs) (out x y))).
    { intros x y Hx Hy. unfold process, surface_process. rewrite SP. unfold blockProcess, out. rewrite BP. cbn [obind].
      specialize (D x y Hx Hy).
      change (jobRequest _ _ _ _ _ _ x y) with (block_request W texCS c a cs w h px x y).
      destruct (block_request W texCS c a cs w h px x y) eqn:J; [|congruence].
      cbn [obind img sf_w]. rewrite block_jobs_cdiv by lia.
      destruct (block_offset_bound x y (cdiv w bx) (cdiv h by_) bs Hx Hy Hbs Sz) as [O1 O2].
      rewrite (u32_small (y * cdiv w bx)), (u32_small (y * cdiv w bx + x)), u32_small by lia.
      reflexivity. }
    assert (Hout : forall x y, x < cdiv w bx -> y < cdiv h by_ -> N.of_nat (length (out x y)) = bs).
    { intros x y Hx Hy. unfold out. specialize (D x y Hx Hy).
      destruct (block_request W texCS c a cs w h px x y) as [r|] eqn:J; [|congruence].
      rewrite app_length, map_length, Nat2N.inj_add, Enc. eapply fills; eauto. }
    pose proof (block_data_length w h bx by_ bs px Hw Hh ltac:(lia) ltac:(lia) Hbs ltac:(lia) ltac:(lia) Sz process out Hproc Hout) as LD.
    assert (LE : cdiv w bx * cdiv h by_ <= 2 ^ 29) by nia.
    split.
    + rewrite !block_jobs_cdiv by lia. rewrite (u32_small (cdiv w bx * cdiv h by_)) by lia.
      apply tiled.
      * rewrite <- (block_jobs_cdiv w bx), <- (block_jobs_cdiv h by_) by lia.
        apply (block_jobs_total w h bx by_ bs px) with (out := out); auto; lia.
      * pose proof (block_writes w h bx by_ bs px Hw Hh ltac:(lia) ltac:(lia) Hbs ltac:(lia) ltac:(lia) Sz
                      process out Hproc Hout) as BW.
        unfold block_job_list in BW. rewrite !block_jobs_cdiv in BW by lia. exact BW.
      * rewrite repeat_length. rewrite <- LD. lia.
      * rewrite job_list_length. unfold cur_threads. lia.
    + split.
      * rewrite LD. unfold block_data_size. rewrite !block_jobs_cdiv by lia.
        rewrite (u32_small (cdiv w bx * cdiv h by_)), u32_small by lia. reflexivity.
      * intros x y Hx Hy. pose proof (block_position (cdiv w bx) (cdiv h by_) bs out x y Hout Hx Hy) as P.
        unfold bytes_at. rewrite P. unfold out. specialize (D x y Hx Hy).
        destruct (block_request W texCS c a cs w h px x y) as [r|] eqn:J; [|congruence].
        exists r. split; reflexivity.
Qed.

(** ** C67 *)

(** For every image of an uncompressed or block-compressed format that has a defined result, and
    for every number of threads, some run ends, all that end have the same bytes, and these are
    the image. *)
Theorem C67_surface : forall W texCS fl c a i,
  createConverter fl (ca_format a) (ca_type a) = Some c -> family_of (ca_format a) <> Fam_Pvrtc ->
  (forall e, N.of_nat (length (wo_enc W e)) = answer_bytes e) ->
  fits (ca_format a) (iwidth i) (iheight i) -> defined W texCS c a i ->
  exists b, surface_result W texCS c a i b /\ (forall b', surface_result W texCS c a i b' -> b' = b) /\
  holds W texCS c a i b.
Proof.
  intros W texCS fl c a i C NP Enc Ft D. destruct (surface_all W texCS fl c a i C NP Enc Ft D) as [[E _] H].
  exists (expected W texCS c a i). split; [apply E; reflexivity|]. split; [|exact H]. intros b' R. apply E, R.
Qed.
Print Assumptions C67_surface.

Lemma fits_le f w h w' h' : fits f w h -> 0 < w' <= w -> 0 < h' <= h -> fits f w' h'.
Proof.
  intros (Hw & Hh & Hn & Bw & Bh & Sz) [W1 W2] [H1 H2]. unfold fits.
  destruct (spec_block f) as [[bw bh] bs].
  assert (w' * h' <= w * h) by (apply N.mul_le_mono; assumption).
  assert (M : forall n n' b, n' <= n -> cdiv n' b <= cdiv n b).
  { intros n n' b L. unfold cdiv. destruct (N.eq_dec b 0) as [->|]; [destruct (n' + 0 - 1), (n + 0 - 1); cbn; lia|].
    apply N.div_le_mono; lia. }
  pose proof (M w w' bw W2). pose proof (M h h' bh H2).
  assert (cdiv w' bw * cdiv h' bh * bs <= cdiv w bw * cdiv h bh * bs) by (repeat apply N.mul_le_mono; lia).
  repeat split; lia.
Qed.

Lemma level_fits L (enc : converter -> convargs -> image pixels -> list N) t f m : lib_ok L -> reachable L enc t ->
  fits f (width t 0) (height t 0) -> m < mipLevelCount t -> fits f (width t m) (height t m).
Proof.
  intros OK R F Hm. pose proof F as (Hw & Hh & _).
  destruct (C07_floor _ L enc t OK R m Hm) as (E1 & E2 & _).
  assert (2 ^ m <> 0) by (apply N.pow_nonzero; lia).
  assert (D1 : width t 0 / 2 ^ m <= width t 0) by (apply N.div_le_upper_bound; nia).
  assert (D2 : height t 0 / 2 ^ m <= height t 0) by (apply N.div_le_upper_bound; nia).
  apply (fits_le f _ _ _ _ F); rewrite ?E1, ?E2; lia.
Qed.

Lemma image_size L (enc : converter -> convargs -> image pixels -> list N) t f m d i : lib_ok L -> reachable L enc t ->
  in_range t f m d -> getImageF t f m d = Some i -> isValid i = true ->
  exists cs px, i = Img I_RGBAF (width t m) (height t m) cs px.
Proof.
  intros OK R (Hm & Hd & Hf) G V. apply reachable_wf in R; [|exact OK].
  unfold getImageF in G. destruct (N.leb_spec (depth t m) d); [lia|]. destruct t as [x|]; [|discriminate].
  destruct (negb (t_faces x =? 6) && negb (f =? 0)); [injection G as <-; discriminate|].
  pose proof (wf_good _ R _ _ _ _ G) as GI. destruct i as [|g w h cs px]; [discriminate|].
  destruct GI as (-> & -> & ->). eauto.
Qed.

(** What Texture::convert leaves in the texture. *)
Theorem C67_texture : forall W L enc t fl a t',
  lib_ok L -> reachable L enc t -> computes W (colorSpaceOf t) enc ->
  (forall e, N.of_nat (length (wo_enc W e)) = answer_bytes e) ->
  family_of (ca_format a) <> Fam_Pvrtc -> fits (ca_format a) (width t 0) (height t 0) ->
  (forall c f m d i, createConverter fl (ca_format a) (ca_type a) = Some c -> in_range t f m d ->
     getImageF t f m d = Some i -> defined W (colorSpaceOf t) c a i) ->
  step L enc t (CConvert fl a) = Some (true, t') ->
  exists c, createConverter fl (ca_format a) (ca_type a) = Some c /\
  forall f m d, in_range t f m d -> exists cs px b,
    getImageF t f m d = Some (Img I_RGBAF (width t m) (height t m) cs px) /\
    dataF t' f m d = Some (Some b) /\
    holds W (colorSpaceOf t) c a (Img I_RGBAF (width t m) (height t m) cs px) b.
Proof.
  intros W L enc t fl a t' OK R CP Enc NP Ft D S.
  destruct (C15_convert _ L enc t OK R fl a) as (b0 & t0 & E & _ & _ & T). rewrite S in E. injection E as <- <-.
  destruct (T eq_refl) as (_ & _ & _ & _ & _ & _ & _ & _ & _ & _ & _ & _ & c & C & X).
  exists c. split; [exact C|]. intros f m d IR. destruct (X f m d IR) as (_ & i & G & V & DT).
  destruct (image_size L enc t f m d i OK R IR G V) as (cs & px & ->).
  set (i := Img I_RGBAF (width t m) (height t m) cs px) in *.
  exists cs, px, (enc c a i). split; [exact G|]. split; [exact DT|].
  assert (F' : fits (ca_format a) (width t m) (height t m)) by (eapply level_fits; eauto; apply IR).
  pose proof (D c f m d _ C IR G) as DF.
  destruct (surface_all W (colorSpaceOf t) fl c a i C NP Enc F' DF) as [[EQ _] H].
  rewrite (proj1 (EQ _) (CP fl a c i C NP F' DF)). exact H.
Qed.
Print Assumptions C67_texture.

Lemma after_convert L (enc : converter -> convargs -> image pixels -> list N) t fl a t' : lib_ok L -> reachable L enc t ->
  step L enc t (CConvert fl a) = Some (true, t') ->
  reachable L enc t' /\ dimensionOf t' = dimensionOf t /\
  forall f m d, in_range t f m d <-> in_range t' f m d.
Proof.
  intros OK R S. split; [apply (R_call _ _ t (CConvert fl a) true t' R); [split; exact I|exact S]|].
  destruct (C15_convert _ L enc t OK R fl a) as (b0 & t0 & E & _ & _ & T). rewrite S in E. injection E as <- <-.
  destruct (T eq_refl) as (_ & _ & _ & _ & _ & _ & E1 & E2 & _ & _ & E3 & E4 & _).
  split; [exact E1|]. intros f m d. unfold in_range. rewrite E2, E3. destruct (E4 m) as (_ & _ & ->). reflexivity.
Qed.

(** What a DDS, KTX or PVR file contains after that. *)
Theorem C67_dds : forall W L enc psize t fl a t' file,
  lib_ok L -> reachable L enc t -> enc_sized psize enc -> computes W (colorSpaceOf t) enc ->
  (forall e, N.of_nat (length (wo_enc W e)) = answer_bytes e) ->
  family_of (ca_format a) <> Fam_Pvrtc -> fits (ca_format a) (width t 0) (height t 0) ->
  (forall c f m d i, createConverter fl (ca_format a) (ca_type a) = Some c -> in_range t f m d ->
     getImageF t f m d = Some i -> defined W (colorSpaceOf t) c a i) ->
  step L enc t (CConvert fl a) = Some (true, t') ->
  save mem_put mem_good t' FT_DDS [] = Some (SR_Success, file) ->
  exists c p, createConverter fl (ca_format a) (ca_type a) = Some c /\ read_dds file = Some (p, []) /\
  forall f m d, in_range t f m d -> exists cs px b,
    getImageF t f m d = Some (Img I_RGBAF (width t m) (height t m) cs px) /\
    nth4 (dd_surfaces p) (match dimensionOf t with Dim3D => 0 | _ => d end) f m (match dimensionOf t with Dim3D => d | _ => 0 end) = Some b /\
    holds W (colorSpaceOf t) c a (Img I_RGBAF (width t m) (height t m) cs px) b.
Proof.
  intros W L enc psize t fl a t' file OK R ES CP Enc NP Ft D S SV.
  destruct (C67_texture W L enc t fl a t' OK R CP Enc NP Ft D S) as (c & C & X).
  destruct (after_convert L enc t fl a t' OK R S) as (R' & ED & SAME).
  destruct (C25_dds_reads_back _ L enc psize t' file OK ES R' SV) as (p & g & RD & _ & _ & _ & _ & _ & _ & _ & _ & _ & _ & _ & _ & XS).
  exists c, p. split; [exact C|]. split; [exact RD|]. intros f m d IR.
  destruct (X f m d IR) as (cs & px & b & G & DT & H).
  destruct (XS f m d ltac:(apply SAME, IR)) as (b' & Db & Nb). rewrite DT in Db. injection Db as <-.
  exists cs, px, b. split; [exact G|]. split; [|exact H].
  unfold element_of, slice_of in Nb. rewrite ED in Nb. destruct (dimensionOf t); exact Nb.
Qed.
Print Assumptions C67_dds.

Theorem C67_ktx : forall W L enc psize t fl a t' file,
  lib_ok L -> reachable L enc t -> enc_sized psize enc -> computes W (colorSpaceOf t) enc ->
  (forall e, N.of_nat (length (wo_enc W e)) = answer_bytes e) ->
  family_of (ca_format a) <> Fam_Pvrtc -> fits (ca_format a) (width t 0) (height t 0) ->
  (forall c f m d i, createConverter fl (ca_format a) (ca_type a) = Some c -> in_range t f m d ->
     getImageF t f m d = Some i -> defined W (colorSpaceOf t) c a i) ->
  step L enc t (CConvert fl a) = Some (true, t') ->
  (dimensionOf t = Dim1D -> height t' 0 = 1) -> (forall f w h, psize f w h mod 4 = 0) ->
  (forall m, m < mipLevelCount t' -> ktx_level_bytes psize t' m < 2 ^ 32) ->
  save mem_put mem_good t' FT_KTX [] = Some (SR_Success, file) ->
  exists c p, createConverter fl (ca_format a) (ca_type a) = Some c /\ read_ktx file = Some (p, []) /\
  forall f m d, in_range t f m d -> exists cs px b,
    getImageF t f m d = Some (Img I_RGBAF (width t m) (height t m) cs px) /\
    nth4 (kx_surfaces p) m (match dimensionOf t with Dim3D => 0 | _ => d end) f (match dimensionOf t with Dim3D => d | _ => 0 end) = Some b /\
    holds W (colorSpaceOf t) c a (Img I_RGBAF (width t m) (height t m) cs px) b.
Proof.
  intros W L enc psize t fl a t' file OK R ES CP Enc NP Ft D S H1 P4 FT SV.
  destruct (C67_texture W L enc t fl a t' OK R CP Enc NP Ft D S) as (c & C & X).
  destruct (after_convert L enc t fl a t' OK R S) as (R' & ED & SAME).
  rewrite <- ED in H1.
  destruct (C26_ktx_reads_back _ L enc psize t' file OK ES P4 R' H1 FT SV) as (p & g & RD & _ & _ & _ & _ & _ & _ & _ & _ & _ & _ & _ & XS).
  exists c, p. split; [exact C|]. split; [exact RD|]. intros f m d IR.
  destruct (X f m d IR) as (cs & px & b & G & DT & H).
  destruct (XS f m d ltac:(apply SAME, IR)) as (b' & Db & Nb). rewrite DT in Db. injection Db as <-.
  exists cs, px, b. split; [exact G|]. split; [|exact H].
  unfold element_of, slice_of in Nb. rewrite ED in Nb. destruct (dimensionOf t); exact Nb.
Qed.
Print Assumptions C67_ktx.

Theorem C67_pvr : forall W L enc psize t fl a t' file,
  lib_ok L -> reachable L enc t -> enc_sized psize enc -> computes W (colorSpaceOf t) enc ->
  (forall e, N.of_nat (length (wo_enc W e)) = answer_bytes e) ->
  family_of (ca_format a) <> Fam_Pvrtc -> fits (ca_format a) (width t 0) (height t 0) ->
  (forall c f m d i, createConverter fl (ca_format a) (ca_type a) = Some c -> in_range t f m d ->
     getImageF t f m d = Some i -> defined W (colorSpaceOf t) c a i) ->
  step L enc t (CConvert fl a) = Some (true, t') ->
  save mem_put mem_good t' FT_PVR [] = Some (SR_Success, file) ->
  exists c p, createConverter fl (ca_format a) (ca_type a) = Some c /\ read_pvr psize file = Some (p, []) /\
  forall f m d, in_range t f m d -> exists cs px b,
    getImageF t f m d = Some (Img I_RGBAF (width t m) (height t m) cs px) /\
    nth4 (pv_surfaces p) m (match dimensionOf t with Dim3D => 0 | _ => d end) f (match dimensionOf t with Dim3D => d | _ => 0 end) = Some b /\
    holds W (colorSpaceOf t) c a (Img I_RGBAF (width t m) (height t m) cs px) b.
Proof.
  intros W L enc psize t fl a t' file OK R ES CP Enc NP Ft D S SV.
  destruct (C67_texture W L enc t fl a t' OK R CP Enc NP Ft D S) as (c & C & X).
  destruct (after_convert L enc t fl a t' OK R S) as (R' & ED & SAME).
  destruct (C27_pvr_reads_back _ L enc psize t' file OK ES R' SV) as (p & g & RD & _ & _ & _ & _ & _ & _ & _ & _ & _ & _ & _ & _ & _ & XS).
  exists c, p. split; [exact C|]. split; [exact RD|]. intros f m d IR.
  destruct (X f m d IR) as (cs & px & b & G & DT & H).
  destruct (XS f m d ltac:(apply SAME, IR)) as (b' & Db & Nb). rewrite DT in Db. injection Db as <-.
  exists cs, px, b. split; [exact G|]. split; [|exact H].
  unfold element_of, slice_of in Nb. rewrite ED in Nb. destruct (dimensionOf t); exact Nb.
Qed.
Print Assumptions C67_pvr.

(** * The conditions can be met *)

(** The single-threaded run; where nothing is claimed, zeroes. *)
Definition serial (W : world) (texCS : colorspace) (psize : format -> N -> N -> N)
    (c : converter) (a : convargs) (i : image pixels) : list N :=
  let n := surface_bytes psize (ca_format a) (iwidth i) (iheight i) in
  match serial_run W texCS c a i with
  | Some b => if N.of_nat (length b) =? n then b else repeat 0 (N.to_nat n)
  | None => repeat 0 (N.to_nat n)
  end.

Lemma serial_sized W texCS psize : enc_sized psize (serial W texCS psize).
Proof.
  intros fl a c i _ _. unfold serial.
  destruct (serial_run W texCS c a i) as [b|]; [|rewrite repeat_length; lia].
  destruct (N.eqb_spec (N.of_nat (length b)) (surface_bytes psize (ca_format a) (iwidth i) (iheight i))) as [E|_];
    [exact E|]. rewrite repeat_length; lia.
Qed.

Lemma serial_computes W texCS psize : (forall e, N.of_nat (length (wo_enc W e)) = answer_bytes e) ->
  computes W texCS (serial W texCS psize).
Proof.
  intros Enc fl a c i C NP Ft D.
  destruct (surface_all W texCS fl c a i C NP Enc Ft D) as [[E S] H].
  apply E. unfold serial. rewrite S.
  destruct (N.eqb_spec (N.of_nat (length (expected W texCS c a i)))
              (surface_bytes psize (ca_format a) (iwidth i) (iheight i))) as [_|X]; [reflexivity|].
  exfalso. apply X. unfold surface_bytes, spec_block.
  destruct i as [|g w h cs px]; [contradiction|]. cbn [iwidth iheight]. cbn [holds] in H.
  assert (PV : pvrtc_format (ca_format a) = false) by (destruct (ca_format a); try reflexivity; now elim NP).
  rewrite PV. destruct (layout_of (ca_format a)) as [|l|bx by_ bs al]; [contradiction| |]; destruct H as [-> _].
  - assert (K : forall n, cdiv n 1 = n) by (intros n; unfold cdiv; rewrite N.add_sub; apply N.div_1_r).
    rewrite !K. reflexivity.
  - reflexivity.
Qed.

Definition Lp : lib pixels :=
  Lib (fun _ _ _ c _ _ _ => Some c) (fun _ _ _ c _ _ _ => Some c) (fun _ _ _ c _ => Some c)
      (fun _ _ _ c => c) (fun _ _ _ c => c)
      (fun _ _ d _ _ l => match l with [] => None | c :: _ => Some (repeat c (N.to_nat d)) end).
Lemma Lp_ok : lib_ok Lp.
Proof.
  constructor; simpl; try discriminate.
  intros w h d cs rf [|c l] H; [congruence|]. eexists; split; [reflexivity|]; rewrite repeat_length; lia.
Qed.

Definition Wp : world := World ex_packers ex_build ex_enc 4.
Definition ex_sized : forall e, N.of_nat (length (wo_enc Wp e)) = answer_bytes e := proj1 C66_case.
Definition ex_args := ConvArgs F_R5G6B5 T_UNorm AlphaStandard (Mask true true true true) 2 (2 ^ 32 - 1).
Definition ex_image : image pixels := Img I_RGBAF 3 2 CS_Linear ex_px.
Definition ex_calls := [CInit Dim2D 3 2 0 1 CS_Linear; CSet ex_image 0 0].
Definition ex_encode := serial Wp CS_Linear psize0.
Definition ex_run (l : list (call pixels)) : texture pixels :=
  match TextureSpec.run Lp ex_encode None l with Some t => t | None => None end.
Definition ex_converted : option (bool * texture pixels) := step Lp ex_encode (ex_run ex_calls) (CConvert flags_all ex_args).
Example C67_case : let t := ex_run ex_calls in
  reachable Lp ex_encode t /\ colorSpaceOf t = CS_Linear /\ computes Wp (colorSpaceOf t) ex_encode /\
  enc_sized psize0 ex_encode /\ fits (ca_format ex_args) (width t 0) (height t 0) /\
  (forall c f m d i, createConverter flags_all (ca_format ex_args) (ca_type ex_args) = Some c -> in_range t f m d ->
     getImageF t f m d = Some i -> defined Wp (colorSpaceOf t) c ex_args i) /\
  exists t' file, step Lp ex_encode t (CConvert flags_all ex_args) = Some (true, t') /\
    save mem_put mem_good t' FT_DDS [] = Some (SR_Success, file) /\
    skipn (length file - 12) file = [0; 0; 0; 32; 0; 64; 0; 2; 0; 34; 0; 66].
Proof.
  cbv zeta. split.
  { apply (R_call _ _ (ex_run [CInit Dim2D 3 2 0 1 CS_Linear]) (CSet ex_image 0 0) true).
    - apply (R_call _ _ None (CInit Dim2D 3 2 0 1 CS_Linear) true); [constructor| |reflexivity].
      split; [|exact I]. cbn [call_ok]. unfold fits32. repeat split; reflexivity.
    - split; exact I.
    - reflexivity. }
  split; [reflexivity|]. split; [apply serial_computes, ex_sized|]. split; [apply serial_sized|].
  split; [change (fits F_R5G6B5 3 2); repeat split; vm_compute; try reflexivity; discriminate|]. split.
  { intros c f m d i C (Hm & Hd & Hf) G. change (m < 1) in Hm. change (f < 1) in Hf.
    assert (m = 0) by lia. subst m. change (d < 1) in Hd.
    assert (d = 0 /\ f = 0) as (-> & ->) by lia.
    assert (i = ex_image) by (assert (X : getImageF (ex_run ex_calls) 0 0 0 = Some ex_image) by reflexivity; congruence).
    subst i. injection C as <-.
    change (forall r q, r < 2 -> q < 3 -> enc_px ex_packers CvR5G6B5 (ex_px r q) <> None). intros r q Hr Hq.
    assert (X : (r = 0 \/ r = 1) /\ (q = 0 \/ q = 1 \/ q = 2)) by lia.
    destruct X as [[-> | ->] [-> | [-> | ->]]]; vm_compute; discriminate. }
  change (step Lp ex_encode (ex_run ex_calls) (CConvert flags_all ex_args)) with ex_converted.
  assert (X : match ex_converted with
              | Some (true, t') => match save mem_put mem_good t' FT_DDS [] with
                  | Some (SR_Success, file) => skipn (length file - 12) file
                  | _ => [] end
              | _ => [] end = [0; 0; 0; 32; 0; 64; 0; 2; 0; 34; 0; 66]) by (vm_compute; reflexivity).
  destruct ex_converted as [[[|] t']|]; try discriminate X. exists t'.
  destruct (save mem_put mem_good t' FT_DDS []) as [[r file]|]; [|discriminate X].
  destruct r; try discriminate X. exists file. auto.
Qed.

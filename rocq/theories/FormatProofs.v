(** Proofs about the format tables: exhaustive computation over the finite domains. *)

From Coq Require Import NArith List Bool Lia ZArith.
From Verif Require Import Base FormatModel SaveFormats FormatSpec ContainerSpec FormatLayoutSpec
  ConverterModel.
Import ListNotations.
Local Open Scope N_scope.

Definition all_flags : list flags :=
  flat_map (fun a => flat_map (fun b => flat_map (fun c => map (Flags a b c)
    [false; true]) [false; true]) [false; true]) [false; true].

Lemma all_flags_complete fl : In fl all_flags.
Proof. destruct fl as [[] [] [] []]; cbn; tauto. Qed.

Lemma all_formats_complete f : In f all_formats.
Proof. destruct f; cbn; tauto. Qed.

Lemma all_types_complete t : In t all_types.
Proof. destruct t; cbn; tauto. Qed.

Definition all_cs := [CS_Linear; CS_sRGB].
Lemma all_cs_complete c : In c all_cs.
Proof. destruct c; cbn; tauto. Qed.

Lemma format_index_inj f g : format_index f = format_index g -> f = g.
Proof.
  intros H.
  assert (E : forall f, nth (format_index f) all_formats F_Unknown = f)
    by (intros []; reflexivity).
  rewrite <- (E f), <- (E g), H; reflexivity.
Qed.

Lemma format_eqb_eq f g : format_eqb f g = true <-> f = g.
Proof.
  unfold format_eqb; rewrite Nat.eqb_eq; split; [apply format_index_inj|intros ->; reflexivity].
Qed.

Lemma type_eqb_eq a b : type_eqb a b = true <-> a = b.
Proof. destruct a, b; cbn; split; congruence. Qed.

Lemma cs_eqb_eq a b : cs_eqb a b = true <-> a = b.
Proof. destruct a, b; cbn; split; congruence. Qed.

Lemma chan_code_inj a b : chan_code a = chan_code b -> a = b.
Proof. destruct a, b; cbn; congruence. Qed.

Lemma chlist_eqb_eq a b : chlist_eqb a b = true <-> a = b.
Proof.
  revert b; induction a as [|[c n] a IH]; destruct b as [|[d m] b]; cbn; split; try congruence.
  - unfold chbits_eqb; cbn; rewrite !andb_true_iff, !N.eqb_eq, IH.
    intros [[H1 H2] H3]; apply chan_code_inj in H1; congruence.
  - intros H; inversion H; subst; unfold chbits_eqb; cbn.
    rewrite !N.eqb_refl; cbn; apply IH; reflexivity.
Qed.

Lemma layout_eqb_eq a b : layout_eqb a b = true <-> a = b.
Proof.
  destruct a, b; cbn; split; try congruence; intros H.
  - apply chlist_eqb_eq in H; congruence.
  - inversion H; subst; apply chlist_eqb_eq; reflexivity.
  - rewrite !andb_true_iff, !N.eqb_eq, Bool.eqb_true_iff in H; intuition congruence.
  - inversion H; subst; rewrite !N.eqb_refl, Bool.eqb_reflx; reflexivity.
Qed.

(** Lifting a computation over all configurations. *)
Lemma forall_fft (P : flags -> format -> ttype -> bool) :
  forallb (fun fl => forallb (fun f => forallb (fun t => P fl f t) all_types) all_formats)
    all_flags = true ->
  forall fl f t, P fl f t = true.
Proof.
  intros H fl f t.
  rewrite forallb_forall in H; specialize (H fl (all_flags_complete fl)).
  rewrite forallb_forall in H; specialize (H f (all_formats_complete f)).
  rewrite forallb_forall in H; exact (H t (all_types_complete t)).
Qed.

Lemma forall_f (P : format -> bool) :
  forallb P all_formats = true -> forall f, P f = true.
Proof. intros H f; rewrite forallb_forall in H; exact (H f (all_formats_complete f)). Qed.

Lemma forall_ftc (P : format -> ttype -> colorspace -> bool) :
  forallb (fun f => forallb (fun t => forallb (P f t) all_cs) all_types) all_formats = true ->
  forall f t c, P f t c = true.
Proof.
  intros H f t c.
  rewrite forallb_forall in H; specialize (H f (all_formats_complete f)).
  rewrite forallb_forall in H; specialize (H t (all_types_complete t)).
  rewrite forallb_forall in H; exact (H c (all_cs_complete c)).
Qed.

(** * C01 *)
Definition is_some {A} (o : option A) : bool := match o with Some _ => true | None => false end.

Lemma valid_has_converter : forall fl f t,
  Bool.eqb (isFormatValid fl f t) (is_some (createConverter fl f t)) = true.
Proof. apply forall_fft; vm_compute; reflexivity. Qed.

Lemma valid_iff_converter fl f t :
  isFormatValid fl f t = true <-> exists c, createConverter fl f t = Some c.
Proof.
  pose proof (valid_has_converter fl f t) as H; apply Bool.eqb_prop in H; rewrite H.
  destruct (createConverter fl f t); cbn; split; try congruence; eauto.
  intros [? ?]; congruence.
Qed.

Definition converter_for_b (c : converter) f t : bool :=
  layout_eqb (converter_layout c) (layout_of f) && type_eqb (converter_type c) t &&
  match converter_format c with Some g => format_eqb g f | None => true end.

Lemma created_converter_matches_b : forall fl f t,
  match createConverter fl f t with Some c => converter_for_b c f t | None => true end = true.
Proof. apply forall_fft; vm_compute; reflexivity. Qed.

Lemma created_converter_matches fl f t c :
  createConverter fl f t = Some c -> converter_for c f t.
Proof.
  intros H; pose proof (created_converter_matches_b fl f t) as E; rewrite H in E.
  unfold converter_for_b in E; rewrite !andb_true_iff in E; destruct E as [[E1 E2] E3].
  apply layout_eqb_eq in E1; apply type_eqb_eq in E2.
  split; [|split]; auto.
  intros g Hg; rewrite Hg in E3; apply format_eqb_eq; exact E3.
Qed.

Lemma valid_codec_b : forall fl f t,
  implb (isFormatValid fl f t) (codec_enabled fl f) = true.
Proof. apply forall_fft; vm_compute; reflexivity. Qed.

Lemma valid_codec fl f t : isFormatValid fl f t = true -> codec_enabled fl f = true.
Proof. pose proof (valid_codec_b fl f t) as H; intros E; rewrite E in H; exact H. Qed.

Lemma codec_valid_b : forall fl f (t : ttype),
  implb (codec_enabled fl f) (existsb (isFormatValid fl f) all_types) = true.
Proof. apply forall_fft; vm_compute; reflexivity. Qed.

Lemma codec_valid fl f : codec_enabled fl f = true -> exists t, isFormatValid fl f t = true.
Proof.
  pose proof (codec_valid_b fl f T_UNorm) as H; intros E; rewrite E in H; cbn [implb] in H.
  apply existsb_exists in H; destruct H as (t & _ & H); eauto.
Qed.

(** Validity of a pair depends only on its own codec. *)
Lemma valid_config_b : forall fl f t,
  Bool.eqb (isFormatValid fl f t)
           (isFormatValid (Flags true true true true) f t && codec_enabled fl f) = true.
Proof. apply forall_fft; vm_compute; reflexivity. Qed.

Lemma valid_config fl f t :
  isFormatValid fl f t = isFormatValid (Flags true true true true) f t && codec_enabled fl f.
Proof. apply Bool.eqb_prop, valid_config_b. Qed.

(** * C02 *)
Lemma block_table_b : forall f,
  (let '(w, h, b) := spec_block f in
   (blockWidth f =? w) && (blockHeight f =? h) && (blockSize f =? b)) = true.
Proof. apply forall_f; vm_compute; reflexivity. Qed.

Lemma block_table f : (blockWidth f, blockHeight f, blockSize f) = spec_block f.
Proof.
  pose proof (block_table_b f) as H; destruct (spec_block f) as [[w h] b].
  rewrite !andb_true_iff, !N.eqb_eq in H; intuition congruence.
Qed.

Definition is_pvrtc (f : format) : bool :=
  match f with
  | F_PVRTC1_RGB_2BPP | F_PVRTC1_RGBA_2BPP | F_PVRTC1_RGB_4BPP | F_PVRTC1_RGBA_4BPP
  | F_PVRTC2_RGBA_2BPP | F_PVRTC2_RGBA_4BPP => true
  | _ => false
  end.

(** The converter's own parameters agree with the block table. *)
Definition params_agree (c : converter) (f : format) : bool :=
  match std_params c with
  | Some (sz, ch) =>
      (blockWidth f =? 1) && (blockHeight f =? 1) && (blockSize f =? sz * ch) && (0 <? sz * ch)
  | None =>
      match block_params c with
      | Some (bx, by_, bs) =>
          (blockWidth f =? bx) && (blockHeight f =? by_) && (blockSize f =? bs) &&
          (0 <? bx) && (bx <? 16) && (0 <? by_) && (by_ <? 16) && (0 <? bs)
      | None => is_pvrtc f
      end
  end.

Lemma converter_params_b : forall fl f t,
  match createConverter fl f t with Some c => params_agree c f | None => true end = true.
Proof. apply forall_fft; vm_compute; reflexivity. Qed.

Lemma cdiv_1 w : cdiv w 1 = w.
Proof. unfold cdiv; rewrite N.div_1_r; lia. Qed.

Lemma block_jobs_cdiv w b : 0 < w -> 0 < b -> w + b <= 2^32 -> block_jobs w b = cdiv w b.
Proof. intros; unfold block_jobs, cdiv; rewrite u32_small by lia; reflexivity. Qed.

Lemma cdiv_pos w b : 0 < w -> 0 < b -> 0 < cdiv w b.
Proof. intros; unfold cdiv; apply N.div_str_pos; lia. Qed.

Lemma cdiv_le w b : 0 < w -> 0 < b -> cdiv w b <= w.
Proof.
  intros; unfold cdiv.
  replace (w + b - 1) with ((w - 1) + 1 * b) by lia.
  rewrite N.div_add by lia.
  assert ((w - 1) / b <= w - 1) by (apply N.div_le_upper_bound; nia). lia.
Qed.

Lemma converted_size fl f t c w h :
  createConverter fl f t = Some c ->
  is_pvrtc f = false ->
  0 < w -> 0 < h -> w + 16 <= 2^32 -> h + 16 <= 2^32 ->
  w * h < 2^32 ->
  cdiv w (blockWidth f) * cdiv h (blockHeight f) * blockSize f < 2^32 ->
  converter_data_size c w h
  = Some (cdiv w (blockWidth f) * cdiv h (blockHeight f) * blockSize f).
Proof.
  intros Hc Hp Hw Hh Hw' Hh' Hwh Hsz.
  pose proof (converter_params_b fl f t) as E; rewrite Hc in E.
  unfold params_agree in E; unfold converter_data_size.
  destruct (std_params c) as [[sz ch]|].
  - rewrite !andb_true_iff, !N.eqb_eq, N.ltb_lt in E; destruct E as [[[E1 E2] E3] E4].
    rewrite E1, E2, E3, !cdiv_1.
    unfold std_data_size; rewrite u32_small by assumption.
    f_equal; lia.
  - destruct (block_params c) as [[[bx by_] bs]|]; [|congruence].
    rewrite !andb_true_iff, !N.eqb_eq, !N.ltb_lt in E.
    destruct E as [[[[[[[E1 E2] E3] E4] E5] E6] E7] E8].
    rewrite E1, E2, E3 in *.
    unfold block_data_size.
    rewrite !block_jobs_cdiv by lia.
    assert (cdiv w bx * cdiv h by_ <= cdiv w bx * cdiv h by_ * bs) by nia.
    rewrite (u32_small (cdiv w bx * cdiv h by_)) by lia.
    rewrite u32_small by lia. reflexivity.
Qed.

(** * C03: every supported pair has header fields *)
Definition accepted_cs (f : format) (t : ttype) (c : colorspace) : bool :=
  negb (cs_is_srgb c) || hasNativeSRGB f t.

Definition all_on := Flags true true true true.

Definition ktx_complete (k : ktxinfo) : bool :=
  is_some (ki_type k) && is_some (ki_typeSize k) && is_some (ki_format k) &&
  is_some (ki_internalFormat k) && is_some (ki_baseInternalFormat k).

Lemma dds_supported_b : forall f t c,
  implb (isFormatValid all_on f t && isValidForDds f t && accepted_cs f t c)
        (negb (getDdsFormat f t c =? 0)) = true.
Proof. apply forall_ftc; vm_compute; reflexivity. Qed.

Lemma dds_unsupported_b : forall f t c,
  implb (isFormatValid all_on f t && negb (isValidForDds f t))
        (getDdsFormat f t c =? 0) = true.
Proof. apply forall_ftc; vm_compute; reflexivity. Qed.

Lemma ktx_supported_b : forall f t c,
  implb (isFormatValid all_on f t && isValidForKtx f t && accepted_cs f t c)
        (match getFormatInfo f t c with Some k => ktx_complete k | None => false end) = true.
Proof. apply forall_ftc; vm_compute; reflexivity. Qed.

Lemma pvr_supported_b : forall f t (c : colorspace),
  implb (isFormatValid all_on f t && isValidForPvr f t)
        (is_some (getPixelFormat f AlphaStandard) && is_some (getPixelFormat f AlphaNone)
         && is_some (getPixelFormat f AlphaPreMultiplied)
         && is_some (getPixelFormat f AlphaEncoded)) = true.
Proof. apply forall_ftc; vm_compute; reflexivity. Qed.

(** * C04 *)
Lemma hasAlpha_b : forall f,
  (Bool.eqb (hasAlpha f) (stores_alpha f) || format_eqb f F_A4R4G4B4) = true.
Proof. apply forall_f; vm_compute; reflexivity. Qed.

Lemma hasAlpha_correct f : f <> F_A4R4G4B4 -> hasAlpha f = stores_alpha f.
Proof.
  intros N; pose proof (hasAlpha_b f) as H; apply orb_prop in H; destruct H as [H|H].
  - apply Bool.eqb_prop; exact H.
  - apply format_eqb_eq in H; congruence.
Qed.

(** * C05: the header codes mean the format *)
Definition dds_ok f t c : bool :=
  match lookup (getDdsFormat f t c) dxgi_table with
  | Some (d, t', c') => describes d f && type_eqb t' t && cs_eqb c' c
  | None => false
  end.

Lemma dds_meaning_b : forall f t c,
  implb (isFormatValid all_on f t && accepted_cs f t c && negb (getDdsFormat f t c =? 0))
        (dds_ok f t c) = true.
Proof. apply forall_ftc; vm_compute; reflexivity. Qed.

Definition ktx_check (g : format -> ttype -> colorspace -> N -> N -> N -> N -> bool) f t c : bool :=
  match getFormatInfo f t c with
  | Some (KtxInfo (Some ty) (Some ts) (Some fo) (Some i) (Some _)) => g f t c ty ts fo i
  | _ => false
  end.

Definition ktx_pre f t c := isFormatValid all_on f t && accepted_cs f t c && isValidForKtx f t.

Lemma ktx_internal_b : forall f t c,
  implb (ktx_pre f t c) (ktx_check (fun f t c ty ts fo i => gl_internal_ok f t c i) f t c) = true.
Proof. apply forall_ftc; vm_compute; reflexivity. Qed.

Definition ktx_reversed (f : format) : bool :=
  format_eqb f F_B8G8R8A8 || format_eqb f F_A8B8G8R8.

Lemma ktx_order_b : forall f t c,
  implb (ktx_pre f t c)
    (Bool.eqb (ktx_check (fun f t c ty ts fo i => gl_order_ok f ty fo) f t c)
              (negb (ktx_reversed f))) = true.
Proof. apply forall_ftc; vm_compute; reflexivity. Qed.

Definition ktx_sign_wrong (f : format) (t : ttype) : bool :=
  format_eqb f F_R8G8 && (type_eqb t T_SNorm || type_eqb t T_Int).

Lemma ktx_sign_b : forall f t c,
  implb (ktx_pre f t c)
    (Bool.eqb (ktx_check (fun f t c ty ts fo i => gl_sign_ok f t ty) f t c)
              (negb (ktx_sign_wrong f t))) = true.
Proof. apply forall_ftc; vm_compute; reflexivity. Qed.

Lemma ktx_typesize_b : forall f t c,
  implb (ktx_pre f t c) (ktx_check (fun f t c ty ts fo i => ts =? gl_type_size ty) f t c) = true.
Proof. apply forall_ftc; vm_compute; reflexivity. Qed.

(** Integer textures use a non-integer [glFormat] except for the formats listed. *)
Definition ktx_integer_right (f : format) (t : ttype) : bool :=
  negb (type_eqb t T_UInt || type_eqb t T_Int) ||
  existsb (format_eqb f) [F_R8G8B8A8; F_A2R10G10B10; F_A2B10G10R10].

Lemma ktx_integer_b : forall f t c,
  implb (ktx_pre f t c)
    (Bool.eqb (ktx_check (fun f t c ty ts fo i => gl_integer_ok f t fo) f t c)
              (ktx_integer_right f t)) = true.
Proof. apply forall_ftc; vm_compute; reflexivity. Qed.

Definition all_alpha := [AlphaNone; AlphaStandard; AlphaPreMultiplied; AlphaEncoded].

Definition pvr_ok f t : bool :=
  pvr_channel_type_ok t (getChannelType f t) &&
  forallb (fun a => match getPixelFormat f a with
                    | Some code => pvr_format_ok f code &&
                        (match pvr_premultiplied code with
                         | Some b => Bool.eqb b (alpha_is_premultiplied a)
                         | None => true
                         end)
                    | None => false
                    end) all_alpha.

Lemma pvr_meaning_b : forall f t (c : colorspace),
  implb (isFormatValid all_on f t) (pvr_ok f t) = true.
Proof. apply forall_ftc; vm_compute; reflexivity. Qed.

Lemma valid_all_on fl f t : isFormatValid fl f t = true -> isFormatValid all_on f t = true.
Proof. rewrite valid_config; intros H; apply andb_prop in H; exact (proj1 H). Qed.

Lemma implb_use a b : implb a b = true -> a = true -> b = true.
Proof. destruct a; cbn; congruence. Qed.

(** * C05: two requests with the same header fields *)
Lemma forall_ftc2 (P : format -> ttype -> colorspace -> bool)
    (Q : format -> ttype -> colorspace -> format -> ttype -> colorspace -> bool) :
  (let l := flat_map (fun f => flat_map (fun t => flat_map (fun c =>
              if P f t c then [(f, t, c)] else []) all_cs) all_types) all_formats in
   forallb (fun x => forallb (fun y =>
     let '(f, t, c) := x in let '(f', t', c') := y in Q f t c f' t' c') l) l) = true ->
  forall f t c f' t' c', P f t c = true -> P f' t' c' = true -> Q f t c f' t' c' = true.
Proof.
  intros H f t c f' t' c' H1 H2.
  assert (M : forall f t c, P f t c = true ->
    In (f, t, c) (flat_map (fun f => flat_map (fun t => flat_map (fun c =>
              if P f t c then [(f, t, c)] else []) all_cs) all_types) all_formats)).
  { intros g u d E; apply in_flat_map; exists g; split; [apply all_formats_complete|].
    apply in_flat_map; exists u; split; [apply all_types_complete|].
    apply in_flat_map; exists d; split; [apply all_cs_complete|].
    rewrite E; left; reflexivity. }
  cbv zeta in H.
  rewrite forallb_forall in H; specialize (H _ (M _ _ _ H1)).
  rewrite forallb_forall in H; exact (H _ (M _ _ _ H2)).
Qed.

Definition same_req f t c f' t' c' : bool := format_eqb f f' && type_eqb t t' && cs_eqb c c'.
Definition is_bc1 f := format_eqb f F_BC1_RGB || format_eqb f F_BC1_RGBA.
Definition astc_formats := [F_ASTC_4x4; F_ASTC_5x4; F_ASTC_5x5; F_ASTC_6x5; F_ASTC_6x6;
  F_ASTC_8x5; F_ASTC_8x6; F_ASTC_8x8; F_ASTC_10x5; F_ASTC_10x6; F_ASTC_10x8;
  F_ASTC_10x10; F_ASTC_12x10; F_ASTC_12x12].
Definition is_astc f : bool := existsb (format_eqb f) astc_formats.

Definition dds_pre f t c := isFormatValid all_on f t && accepted_cs f t c && isValidForDds f t.

Lemma dds_distinct_b : forall f t c f' t' c',
  dds_pre f t c = true -> dds_pre f' t' c' = true ->
  implb (getDdsFormat f t c =? getDdsFormat f' t' c')
        ((format_eqb f f' || is_bc1 f && is_bc1 f') && type_eqb t t' && cs_eqb c c') = true.
Proof. apply forall_ftc2; vm_compute; reflexivity. Qed.

Definition on_eqb (a b : option N) : bool :=
  match a, b with Some x, Some y => x =? y | None, None => true | _, _ => false end.

Definition ktx_same (a b : option ktxinfo) : bool :=
  match a, b with
  | Some x, Some y =>
      on_eqb (ki_type x) (ki_type y) && on_eqb (ki_typeSize x) (ki_typeSize y) &&
      on_eqb (ki_format x) (ki_format y) && on_eqb (ki_internalFormat x) (ki_internalFormat y) &&
      on_eqb (ki_baseInternalFormat x) (ki_baseInternalFormat y)
  | _, _ => false
  end.

Lemma ktx_distinct_b : forall f t c f' t' c',
  ktx_pre f t c = true -> ktx_pre f' t' c' = true ->
  implb (ktx_same (getFormatInfo f t c) (getFormatInfo f' t' c'))
        (format_eqb f f' && cs_eqb c c' && (type_eqb t t' || is_astc f)) = true.
Proof. apply forall_ftc2; vm_compute; reflexivity. Qed.

Definition pvr_pre f t c := isFormatValid all_on f t && accepted_cs f t c && isValidForPvr f t.

Lemma pvr_distinct_b : forall f t c f' t' c',
  pvr_pre f t c = true -> pvr_pre f' t' c' = true ->
  forallb (fun a => forallb (fun a' =>
    implb (on_eqb (getPixelFormat f a) (getPixelFormat f' a') &&
           (getChannelType f t =? getChannelType f' t') && cs_eqb c c')
          ((format_eqb f f' || is_bc1 f && is_bc1 f') && type_eqb t t')) all_alpha) all_alpha
  = true.
Proof. apply forall_ftc2; vm_compute; reflexivity. Qed.

Lemma on_eqb_refl a : on_eqb a a = true.
Proof. destruct a; cbn; auto using N.eqb_refl. Qed.

Lemma bc1_cases f : is_bc1 f = true -> In f [F_BC1_RGB; F_BC1_RGBA].
Proof.
  unfold is_bc1; intros H; apply orb_prop in H; destruct H as [H|H];
  apply format_eqb_eq in H; subst; cbn; tauto.
Qed.

Lemma astc_cases f : is_astc f = true -> In f astc_formats.
Proof.
  unfold is_astc; intros E.
  apply existsb_exists in E; destruct E as (g & Hg & E); apply format_eqb_eq in E; subst; exact Hg.
Qed.

Lemma valid_file fl f t ft :
  isFormatValidFile fl f t ft = true ->
  isFormatValid all_on f t = true /\
  match ft with FT_DDS => isValidForDds f t | FT_KTX => isValidForKtx f t
              | FT_PVR => isValidForPvr f t | FT_Auto => false end = true.
Proof.
  unfold isFormatValidFile; destruct (isFormatValid fl f t) eqn:V; [|discriminate].
  apply valid_all_on in V; intros H; split; [exact V|exact H].
Qed.

Lemma dds_distinct fl f t c f' t' c' :
  isFormatValidFile fl f t FT_DDS = true -> accepted_cs f t c = true ->
  isFormatValidFile fl f' t' FT_DDS = true -> accepted_cs f' t' c' = true ->
  getDdsFormat f t c = getDdsFormat f' t' c' ->
  (f = f' \/ (In f [F_BC1_RGB; F_BC1_RGBA] /\ In f' [F_BC1_RGB; F_BC1_RGBA])) /\ t = t' /\ c = c'.
Proof.
  intros D A D' A' E.
  apply valid_file in D; destruct D as [V D]; apply valid_file in D'; destruct D' as [V' D'].
  pose proof (dds_distinct_b f t c f' t' c') as H.
  unfold dds_pre in H; rewrite V, A, D, V', A', D' in H.
  specialize (H eq_refl eq_refl); rewrite E, N.eqb_refl in H; cbn [implb] in H.
  rewrite !andb_true_iff in H; destruct H as [[H1 H2] H3].
  apply type_eqb_eq in H2; apply cs_eqb_eq in H3; repeat split; auto.
  apply orb_prop in H1; destruct H1 as [H1|H1].
  - left; apply format_eqb_eq; exact H1.
  - right; apply andb_prop in H1; split; apply bc1_cases; tauto.
Qed.

Lemma ktx_distinct fl f t c f' t' c' :
  isFormatValidFile fl f t FT_KTX = true -> accepted_cs f t c = true ->
  isFormatValidFile fl f' t' FT_KTX = true -> accepted_cs f' t' c' = true ->
  getFormatInfo f t c = getFormatInfo f' t' c' ->
  f = f' /\ c = c' /\ (t = t' \/ In f astc_formats).
Proof.
  intros D A D' A' E.
  apply valid_file in D; destruct D as [V D]; apply valid_file in D'; destruct D' as [V' D'].
  assert (S : ktx_same (getFormatInfo f t c) (getFormatInfo f' t' c') = true).
  { rewrite <- E.
    pose proof (ktx_supported_b f t c) as H; rewrite V, D, A in H; cbn [implb andb] in H.
    destruct (getFormatInfo f t c); [|discriminate]; cbn; rewrite !on_eqb_refl; reflexivity. }
  pose proof (ktx_distinct_b f t c f' t' c') as H.
  unfold ktx_pre in H; rewrite V, A, D, V', A', D' in H.
  specialize (H eq_refl eq_refl); rewrite S in H; cbn [implb] in H.
  rewrite !andb_true_iff in H; destruct H as [[H1 H2] H3].
  apply format_eqb_eq in H1; apply cs_eqb_eq in H2; repeat split; auto.
  apply orb_prop in H3; destruct H3 as [H3|H3].
  - left; apply type_eqb_eq; exact H3.
  - right; apply astc_cases; exact H3.
Qed.

Lemma pvr_distinct fl f t c a f' t' c' a' :
  isFormatValidFile fl f t FT_PVR = true -> accepted_cs f t c = true ->
  isFormatValidFile fl f' t' FT_PVR = true -> accepted_cs f' t' c' = true ->
  getPixelFormat f a = getPixelFormat f' a' ->
  getChannelType f t = getChannelType f' t' -> c = c' ->
  (f = f' \/ (In f [F_BC1_RGB; F_BC1_RGBA] /\ In f' [F_BC1_RGB; F_BC1_RGBA])) /\ t = t'.
Proof.
  intros D A D' A' E E2 E3.
  apply valid_file in D; destruct D as [V D]; apply valid_file in D'; destruct D' as [V' D'].
  pose proof (pvr_distinct_b f t c f' t' c') as H.
  unfold pvr_pre in H; rewrite V, A, D, V', A', D' in H.
  specialize (H eq_refl eq_refl).
  rewrite forallb_forall in H; specialize (H a); 
  assert (Ha : forall a, In a all_alpha) by (intros []; cbn; tauto).
  specialize (H (Ha a)); rewrite forallb_forall in H; specialize (H a' (Ha a')).
  rewrite E, E2, on_eqb_refl, N.eqb_refl in H; subst c'.
  replace (cs_eqb c c) with true in H by (destruct c; reflexivity); cbn [implb andb] in H.
  apply andb_prop in H; destruct H as [H1 H2]; apply type_eqb_eq in H2; split; auto.
  apply orb_prop in H1; destruct H1 as [H1|H1].
  - left; apply format_eqb_eq; exact H1.
  - right; apply andb_prop in H1; split; apply bc1_cases; tauto.
Qed.

(** * C03/C05 at the level of [isFormatValid] with a file type *)
Lemma dds_has_code fl f t c :
  isFormatValidFile fl f t FT_DDS = true -> accepted_cs f t c = true ->
  exists d, lookup (getDdsFormat f t c) dxgi_table = Some (d, t, c) /\ describes d f = true
            /\ getDdsFormat f t c <> 0.
Proof.
  intros D A; apply valid_file in D; destruct D as [V D].
  pose proof (dds_supported_b f t c) as H1; rewrite V, D, A in H1; cbn [implb andb] in H1.
  pose proof (dds_meaning_b f t c) as H2; rewrite V, A, H1 in H2; cbn [implb andb] in H2.
  unfold dds_ok in H2.
  destruct (lookup (getDdsFormat f t c) dxgi_table) as [[[d t'] c']|]; [|discriminate].
  rewrite !andb_true_iff in H2; destruct H2 as [[H3 H4] H5].
  apply type_eqb_eq in H4; apply cs_eqb_eq in H5; subst.
  exists d; repeat split; auto.
  intros Z; rewrite Z in H1; discriminate.
Qed.

Lemma dds_no_code fl f t c :
  isFormatValid fl f t = true -> isFormatValidFile fl f t FT_DDS = false ->
  getDdsFormat f t c = 0.
Proof.
  unfold isFormatValidFile; intros V; rewrite V; cbn; intros D; apply valid_all_on in V.
  pose proof (dds_unsupported_b f t c) as H; rewrite V, D in H; cbn [implb andb negb] in H.
  apply N.eqb_eq; exact H.
Qed.

Lemma ktx_unsupported_b : forall f t c,
  implb (isFormatValid all_on f t && negb (isValidForKtx f t))
        (negb (is_some (getFormatInfo f t c))) = true.
Proof. apply forall_ftc; vm_compute; reflexivity. Qed.

Lemma ktx_no_info fl f t c :
  isFormatValid fl f t = true -> isFormatValidFile fl f t FT_KTX = false ->
  getFormatInfo f t c = None.
Proof.
  unfold isFormatValidFile; intros V; rewrite V; cbn; intros D; apply valid_all_on in V.
  pose proof (ktx_unsupported_b f t c) as H; rewrite V, D in H; cbn [implb andb negb] in H.
  destruct (getFormatInfo f t c); [discriminate|reflexivity].
Qed.

Lemma ktx_has_info fl f t c :
  isFormatValidFile fl f t FT_KTX = true -> accepted_cs f t c = true ->
  exists ty ts fo i b,
    getFormatInfo f t c = Some (KtxInfo (Some ty) (Some ts) (Some fo) (Some i) (Some b)) /\
    gl_internal_ok f t c i = true /\
    gl_order_ok f ty fo = negb (ktx_reversed f) /\
    gl_sign_ok f t ty = negb (ktx_sign_wrong f t) /\
    gl_integer_ok f t fo = ktx_integer_right f t /\
    ts = gl_type_size ty.
Proof.
  intros D A; apply valid_file in D; destruct D as [V D].
  pose proof (ktx_internal_b f t c) as H1.
  pose proof (ktx_order_b f t c) as H2.
  pose proof (ktx_sign_b f t c) as H3.
  pose proof (ktx_integer_b f t c) as H4.
  pose proof (ktx_typesize_b f t c) as H5.
  unfold ktx_pre in *; rewrite V, A, D in *; cbn [implb andb] in *.
  unfold ktx_check in *.
  destruct (getFormatInfo f t c) as [[[ty|] [ts|] [fo|] [i|] [b|]]|]; try discriminate.
  exists ty, ts, fo, i, b.
  apply Bool.eqb_prop in H2; apply Bool.eqb_prop in H3; apply Bool.eqb_prop in H4.
  apply N.eqb_eq in H5; repeat split; assumption.
Qed.

Lemma pvr_has_format fl f t a :
  isFormatValid fl f t = true ->
  exists code, getPixelFormat f a = Some code /\ pvr_format_ok f code = true /\
    (forall b, pvr_premultiplied code = Some b -> b = alpha_is_premultiplied a) /\
    pvr_channel_type_ok t (getChannelType f t) = true.
Proof.
  intros V; apply valid_all_on in V.
  pose proof (pvr_meaning_b f t CS_Linear) as H; rewrite V in H; cbn [implb andb] in H.
  unfold pvr_ok in H; apply andb_prop in H; destruct H as [H1 H2].
  rewrite forallb_forall in H2; specialize (H2 a).
  assert (Ha : In a all_alpha) by (destruct a; cbn; tauto); specialize (H2 Ha).
  destruct (getPixelFormat f a) as [code|]; [|discriminate].
  exists code; apply andb_prop in H2; destruct H2 as [H2 H3]; repeat split; auto.
  intros b Hb; rewrite Hb in H3; apply Bool.eqb_prop; exact H3.
Qed.

Lemma ktx_reversed_false f : f <> F_B8G8R8A8 -> f <> F_A8B8G8R8 -> ktx_reversed f = false.
Proof.
  intros A B; unfold ktx_reversed.
  destruct (format_eqb f F_B8G8R8A8) eqn:E; [apply format_eqb_eq in E; congruence|].
  destruct (format_eqb f F_A8B8G8R8) eqn:E2; [apply format_eqb_eq in E2; congruence|].
  reflexivity.
Qed.

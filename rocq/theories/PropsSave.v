(** C03, C25-C31: saving. *)
From Coq Require Import NArith List Bool Lia ZArith.
From Coq Require Import ZifyBool ZifyNat ZifyN.
From Verif Require Import Base FormatModel FormatSpec ContainerSpec SaveFormats FormatProofs
  PropsFormats TextureModel TextureSpec TextureProofs PropsTexture SaveModel SaveSpec SaveProofs SaveSized
  SaveRead SaveReadDds SaveReadKtx SaveReadPvr.
Import ListNotations.
Local Open Scope N_scope.

Section Aux.
Context {C : Type} (L : lib C) (enc : converter -> convargs -> image C -> list N).
Context (psize : format -> N -> N -> N).
Implicit Types (t : texture C).

Lemma unknown_invalid fl ty : isFormatValid fl F_Unknown ty = false.
Proof. destruct ty, fl as [[] [] [] []]; reflexivity. Qed.

Lemma conv_facts t : lib_ok L -> enc_sized psize enc -> reachable L enc t -> converted t = true ->
  wft t /\ t <> None /\ has_data t /\ sized psize t /\ formatOf t = Some (fmt t) /\ fmt t <> F_Unknown /\
  exists fl, isFormatValid fl (fmt t) (typeOf t) = true /\
    (colorSpaceOf t = CS_sRGB -> hasNativeSRGB (fmt t) (typeOf t) = true).
Proof.
  intros OK ES R CV.
  pose proof (reachable_wf L enc OK t R) as W.
  assert (NN : t <> None) by (intros ->; discriminate).
  pose proof (has_data_of t W CV) as HD.
  pose proof (reachable_sized L enc psize t OK ES R) as SZ.
  destruct t as [i|]; [|contradiction]; simpl in W.
  assert (NE : t_textures i <> []) by (simpl in CV; destruct (t_textures i); congruence).
  destruct (wf_conv _ W NE) as (f & fl & Ef & V & SR).
  assert (EF : fmt (Some i) = f) by (unfold fmt; cbn [formatOf]; rewrite Ef; reflexivity).
  rewrite EF; repeat (split; auto).
  - intros ->; rewrite unknown_invalid in V; discriminate.
  - exists fl; auto.
Qed.

(** Saving is either refused before anything is written, or a fixed sequence of writes. *)
Definition refused t ft : Prop := forall S (put : S -> list N -> S) good s,
  save put good t ft s = Some (SR_Unsupported, s).
Definition writes t ft (cs : list (list (list N))) : Prop :=
  cs <> [] /\ forall S (put : S -> list N -> S) good s, save put good t ft s = run_chunks put good cs s.

Lemma save_form t ft fl : lib_ok L -> enc_sized psize enc -> reachable L enc t -> converted t = true ->
  isFormatValid fl (fmt t) (typeOf t) = true -> ft <> FT_Auto ->
  (isFormatValidFile fl (fmt t) (typeOf t) ft = false /\ refused t ft) \/
  (isFormatValidFile fl (fmt t) (typeOf t) ft = true /\ exists cs, writes t ft cs /\
    match ft with
    | FT_DDS => cs = dds_chunks t /\ getDdsFormat (fmt t) (typeOf t) (colorSpaceOf t) <> 0
    | FT_KTX => exists info ws, getFormatInfo (fmt t) (typeOf t) (colorSpaceOf t) = Some info /\
        ktx_info_words info = Some ws /\ cs = ktx_chunks t ws (ktx_sizes t)
    | _ => exists code, getPixelFormat (fmt t) (alphaOf t) = Some code /\ cs = pvr_chunks t code
    end).
Proof.
  intros OK ES R CV V NA.
  destruct (conv_facts t OK ES R CV) as (W & NN & HD & SZ & EF & NU & fl' & V' & SR).
  destruct (isFormatValidFile fl (fmt t) (typeOf t) ft) eqn:VF; [right|left]; split; auto.
  - destruct ft; [congruence| | |].
    + destruct (C05_dds_code_describes fl _ _ _ VF SR) as (d & _ & _ & NZ).
      exists (dds_chunks t); repeat split; auto; [discriminate|].
      intros S put good s; unfold save; rewrite CV; cbn [negb].
      apply dds_emits; auto.
    + destruct (C05_ktx_fields_describe fl _ _ _ VF SR) as (a & b & c & d & e & E & _).
      exists (ktx_chunks t [a; b; c; d; e] (ktx_sizes t)); split; [|do 2 eexists; split; [exact E|split; reflexivity]].
      split; [discriminate|]; intros S put good s; unfold save; rewrite CV; cbn [negb].
      eapply ktx_emits; eauto.
    + destruct (C05_pvr_fields_describe fl _ _ (alphaOf t) V) as (code & E & _).
      exists (pvr_chunks t code); split; eauto.
      split; [discriminate|]; intros S put good s; unfold save; rewrite CV; cbn [negb].
      apply pvr_emits; auto.
  - intros S put good s; unfold save; rewrite CV; cbn [negb]; destruct ft; [congruence| | |].
    + unfold saveDds; rewrite (C05_dds_unsupported_has_no_code fl) by auto; reflexivity.
    + unfold saveKtx; rewrite (C05_ktx_unsupported_has_no_fields fl) by auto; reflexivity.
    + unfold isFormatValidFile in VF; rewrite V in VF; cbn [negb] in VF.
      exfalso; clear - VF V; destruct (fmt t); cbn in VF; try discriminate; rewrite unknown_invalid in V; discriminate.
Qed.

(** The same, from the outcome of a save to memory. *)
Lemma success_form t ft file : lib_ok L -> enc_sized psize enc -> reachable L enc t ->
  save mem_put mem_good t ft [] = Some (SR_Success, file) ->
  converted t = true /\ ft <> FT_Auto /\ exists fl cs,
    isFormatValid fl (fmt t) (typeOf t) = true /\
    isFormatValidFile fl (fmt t) (typeOf t) ft = true /\ writes t ft cs /\ file = bytes_of cs /\
    match ft with
    | FT_DDS => cs = dds_chunks t /\ getDdsFormat (fmt t) (typeOf t) (colorSpaceOf t) <> 0
    | FT_KTX => exists info ws, getFormatInfo (fmt t) (typeOf t) (colorSpaceOf t) = Some info /\
        ktx_info_words info = Some ws /\ cs = ktx_chunks t ws (ktx_sizes t)
    | _ => exists code, getPixelFormat (fmt t) (alphaOf t) = Some code /\ cs = pvr_chunks t code
    end.
Proof.
  intros OK ES R E.
  assert (CV : converted t = true).
  { unfold save in E; destruct (converted t); [reflexivity|discriminate]. }
  assert (NA : ft <> FT_Auto).
  { intros ->; unfold save in E; rewrite CV in E; discriminate. }
  split; auto; split; auto.
  destruct (conv_facts t OK ES R CV) as (W & NN & HD & SZ & EF & NU & fl & V & SR).
  destruct (save_form t ft fl OK ES R CV V NA) as [(_ & RF)|(VF & cs & WR & M)].
  - rewrite RF in E; discriminate.
  - exists fl, cs; repeat (split; auto).
    rewrite (proj2 WR), run_mem in E; injection E as <-; reflexivity.
Qed.
End Aux.

(** * C03 *)

(** A texture converted by a build [fl] is accepted by exactly the containers that
    [isFormatValid] announces: the answer is Unsupported for the others, with the stream
    untouched, and Success or WriteError (a property of the stream alone, see C28) for these. *)
Theorem C03_supported_iff : forall C (L : lib C) enc psize fl t f ft,
  lib_ok L -> enc_sized psize enc -> reachable L enc t -> converted t = true ->
  formatOf t = Some f -> isFormatValid fl f (typeOf t) = true -> ft <> FT_Auto ->
  forall S (put : S -> list N -> S) good s,
  exists r s', save put good t ft s = Some (r, s') /\
    (isFormatValidFile fl f (typeOf t) ft = true -> r = SR_Success \/ r = SR_WriteError) /\
    (isFormatValidFile fl f (typeOf t) ft = false -> r = SR_Unsupported /\ s' = s).
Proof.
  intros C L enc psize fl t f ft OK ES R CV EF V NA S put good s.
  assert (E : fmt t = f) by (unfold fmt; rewrite EF; reflexivity); rewrite <- E in *.
  destruct (save_form L enc psize t ft fl OK ES R CV V NA) as [(VF & RF)|(VF & cs & [_ WR] & _)]; rewrite VF.
  - do 2 eexists; split; [apply RF|]; split; [discriminate|auto].
  - rewrite WR.
    assert (H : exists r s', run_chunks put good cs s = Some (r, s') /\ (r = SR_Success \/ r = SR_WriteError)).
    { clear; revert s; induction cs as [|g cs IH]; intros s; cbn [run_chunks]; [eauto|].
      destruct (good (fold_left put g s)); eauto. }
    destruct H as (r & s' & -> & H); do 2 eexists; split; [reflexivity|]; split; [auto|discriminate].
Qed.
Print Assumptions C03_supported_iff.

(** * C25 *)

(** The position of a surface in a file: elements of an array come from the depth index of an
    array texture, slices from that of a volume. *)
Definition element_of {C} (t : texture C) (d : N) : N := match dimensionOf t with Dim3D => 0 | _ => d end.
Definition slice_of {C} (t : texture C) (d : N) : N := match dimensionOf t with Dim3D => d | _ => 0 end.

Lemma position {C} (t : texture C) f m d : wft t -> in_range t f m d ->
  element_of t d < dds_elements t /\ slice_of t d < slices t m /\ slice_of t d + element_of t d = d.
Proof.
  intros W (Hm & Hd & Hf).
  assert (NN : t <> None) by (intros ->; simpl in Hm; lia).
  unfold element_of, slice_of, slices, is3D.
  destruct (dims_cases t W NN) as [(E3 & _ & _ & _ & E)|[E3 E]]; rewrite E; unfold is3D in E3.
  - destruct (dimensionOf t); try discriminate; lia.
  - assert (NE : dimensionOf t <> Dim3D) by (intros K; rewrite K in E3; discriminate).
    rewrite (depth_flat t m) in Hd by auto.
    destruct (dimensionOf t); try discriminate; lia.
Qed.

Theorem C25_dds_reads_back : forall C (L : lib C) enc psize t file,
  lib_ok L -> enc_sized psize enc -> reachable L enc t ->
  save mem_put mem_good t FT_DDS [] = Some (SR_Success, file) ->
  exists p f, read_dds file = Some (p, []) /\ formatOf t = Some f /\
    dd_dim p = dimensionOf t /\ dd_width p = width t 0 /\ dd_height p = height t 0 /\
    dd_depth p = (match dimensionOf t with Dim3D => depth t 0 | _ => 1 end) /\
    dd_array p = (match dimensionOf t with Dim3D => 1 | _ => depth t 0 end) /\
    dd_levels p = mipLevelCount t /\
    describes (dd_pixels p) f = true /\ dd_type p = typeOf t /\ dd_space p = colorSpaceOf t /\
    (f <> F_A4R4G4B4 -> dd_alpha p = dds_alpha_mode (stores_alpha f) (alphaOf t)) /\
    (dd_complex p = true <-> 1 < mipLevelCount t \/ dimensionOf t = Dim3D \/ isArray t = true) /\
    forall face m d, in_range t face m d -> exists b, dataF t face m d = Some (Some b) /\
      nth4 (dd_surfaces p) (element_of t d) face m (slice_of t d) = Some b.
Proof.
  intros C L enc psize t file OK ES R E.
  destruct (success_form L enc psize t FT_DDS file OK ES R E) as (CV & _ & fl & cs & V & VF & _ & -> & -> & NZ).
  destruct (conv_facts L enc psize t OK ES R CV) as (W & NN & HD & SZ & EF & NU & fl' & V' & SR).
  destruct (C05_dds_code_describes fl _ _ _ VF SR) as (d & LK & DE & _).
  exists (dds_result t d), (fmt t).
  split; [apply (dds_reads t psize d); auto|]; split; [exact EF|].
  cbn [dds_result dd_dim dd_width dd_height dd_depth dd_array dd_levels dd_pixels dd_type dd_space dd_alpha dd_complex dd_pitch dd_mipmap dd_surfaces].
  repeat (split; [auto; fail|]).
  split; [unfold is3D; destruct (dimensionOf t); reflexivity|].
  split.
  { destruct (dims_cases t W NN) as [(E3 & _ & _ & _ & ->)|[E3 ->]]; unfold is3D in E3;
      destruct (dimensionOf t); try discriminate; reflexivity. }
  repeat (split; [auto; fail|]).
  split; [intros NA; rewrite C04_hasAlpha by auto; reflexivity|].
  split.
  { rewrite !orb_true_iff, N.ltb_lt, is3D_iff; tauto. }
  intros face m k IR; exists (surf t face m k); split; [apply HD; auto|].
  destruct (position t face m k W IR) as (P1 & P2 & P3).
  destruct IR as (Hm & Hd & Hf).
  rewrite (nth4_maps (fun e f m v => surf t f m (v + e)) (dds_elements t) (faceCount t) (mipLevelCount t)
             (fun m => if is3D t then depth t m else 1)) by auto.
  rewrite P3; reflexivity.
Qed.
Print Assumptions C25_dds_reads_back.

(** What the header says about the first level and the others. *)
Theorem C25_dds_header : forall C (L : lib C) enc psize t file p f,
  lib_ok L -> enc_sized psize enc -> reachable L enc t ->
  save mem_put mem_good t FT_DDS [] = Some (SR_Success, file) ->
  read_dds file = Some (p, []) -> formatOf t = Some f ->
  (dd_mipmap p = true <-> 1 < mipLevelCount t) /\
  let '(bw, _, bs) := spec_block f in
  cdiv (width t 0) bw * bs < 2 ^ 32 -> dd_pitch p = Some (cdiv (width t 0) bw * bs).
Proof.
  intros C L enc psize t file p f OK ES R E RD EF0.
  destruct (success_form L enc psize t FT_DDS file OK ES R E) as (CV & _ & fl & cs & V & VF & _ & -> & -> & NZ).
  destruct (conv_facts L enc psize t OK ES R CV) as (W & NN & HD & SZ & EF & NU & fl' & V' & SR).
  destruct (C05_dds_code_describes fl _ _ _ VF SR) as (d & LK & DE & _).
  assert (P : pall read_dds (bytes_of (dds_chunks t)) (dds_result t d)) by (apply (dds_reads t psize d); auto).
  unfold pall in P. assert (p = dds_result t d) by congruence. subst p.
  assert (f = fmt t) by congruence. subst f. cbn [dds_result dd_mipmap dd_pitch]. split; [apply N.ltb_lt|].
  pose proof (pitch_exact t W NN NU NZ) as Q. destruct (spec_block (fmt t)) as [[bw bh] bs]. intros S. f_equal. exact (Q S).
Qed.
Print Assumptions C25_dds_header.

(** * C26 *)

Theorem C26_ktx_reads_back : forall C (L : lib C) enc psize t file,
  lib_ok L -> enc_sized psize enc -> (forall f w h, psize f w h mod 4 = 0) -> reachable L enc t ->
  (dimensionOf t = Dim1D -> height t 0 = 1) ->
  (forall m, m < mipLevelCount t -> ktx_level_bytes psize t m < 2^32) ->
  save mem_put mem_good t FT_KTX [] = Some (SR_Success, file) ->
  exists p f, read_ktx file = Some (p, []) /\ formatOf t = Some f /\
    gl_internal_ok f (typeOf t) (colorSpaceOf t) (kx_internal p) = true /\
    (gl_order_ok f (kx_type p) (kx_format p) = true <-> ~ In f [F_B8G8R8A8; F_A8B8G8R8]) /\
    kx_type_size p = gl_type_size (kx_type p) /\
    kx_width p = width t 0 /\
    kx_height p = (match dimensionOf t with Dim1D => 0 | _ => height t 0 end) /\
    kx_depth p = (match dimensionOf t with Dim3D => depth t 0 | _ => 0 end) /\
    kx_array p = (if isArray t then depth t 0 else 0) /\
    kx_faces p = (match dimensionOf t with Cube => 6 | _ => 1 end) /\
    kx_levels p = mipLevelCount t /\ kx_kv p = [] /\
    forall face m d, in_range t face m d -> exists b, dataF t face m d = Some (Some b) /\
      nth4 (kx_surfaces p) m (element_of t d) face (slice_of t d) = Some b.
Proof.
  intros C L enc psize t file OK ES P4 R H1D FT E.
  destruct (success_form L enc psize t FT_KTX file OK ES R E)
    as (CV & _ & fl & cs & V & VF & _ & -> & info & ws & E1 & E2 & ->).
  destruct (conv_facts L enc psize t OK ES R CV) as (W & NN & HD & SZ & EF & NU & fl' & V' & SR).
  destruct (C05_ktx_fields_describe fl _ _ _ VF SR) as (a & b & c & d & e & E1' & G1 & G2 & _ & _ & G3).
  rewrite E1 in E1'; injection E1' as ->; injection E2 as <-.
  assert (FT' : ktx_fits psize t).
  { intros m Hm; specialize (FT m Hm); unfold ktx_level_bytes in FT; rewrite EF in FT; exact FT. }
  assert (H1 : is1D t = true -> height t 0 = 1).
  { unfold is1D; destruct (dimensionOf t); auto; discriminate. }
  destruct (ktx_reads t psize _ [a; b; c; d; e] (ktx_sizes t) W NN HD SZ NU FT' P4 H1 E1 eq_refl)
    as (p & EP & RD).
  { intros m Hm; apply ktx_sizes_ok; auto. }
  injection EP as <-.
  eexists; exists (fmt t); split; [exact RD|]; split; [exact EF|].
  cbn [kx_type kx_type_size kx_format kx_internal kx_base kx_width kx_height kx_depth kx_array kx_faces
       kx_levels kx_kv kx_surfaces].
  split; [exact G1|]; split; [exact G2|]; split; [exact G3|]; split; [reflexivity|].
  split; [unfold is1D; destruct (dimensionOf t); reflexivity|].
  split; [unfold is3D; destruct (dimensionOf t); reflexivity|].
  split; [reflexivity|].
  split; [rewrite (b_f _ (wf_bounded t W NN)); unfold isCube; destruct (dimensionOf t); reflexivity|].
  split; [reflexivity|]; split; [reflexivity|].
  intros face m k IR; exists (surf t face m k); split; [apply HD; auto|].
  destruct (position t face m k W IR) as (P1 & P2 & P3).
  destruct IR as (Hm & Hd & Hf).
  unfold nth4; rewrite !nthN_maprange by auto; cbn [obind].
  rewrite nthN_maprange by auto; cbn [obind].
  rewrite nthN_maprange by auto; cbn [obind].
  rewrite nthN_maprange by auto; rewrite P3; reflexivity.
Qed.
Print Assumptions C26_ktx_reads_back.

(** * C27 *)

(** The metadata a reader needs: which BC1 variant, that it is an array, that it is 1D. *)
Definition pvr_metadata (f : format) (array : bool) (dim : dimension) : list (list N * list N * list N) :=
  (match f with
   | F_BC1_RGBA => [(ctfs, [66; 67; 49; 65], [0; 0; 0; 0])]    (* "BC1A" *)
   | F_BC1_RGB => [(ctfs, [66; 67; 49; 0], [0; 0; 0; 0])]      (* "BC1\0" *)
   | _ => []
   end)
  ++ (if array then [(ctfs, [65; 82; 82; 89], [0; 0; 0; 0])] else [])    (* "ARRY" *)
  ++ (match dim with Dim1D => [(ctfs, [68; 73; 77; 49], [0; 0; 0; 0])] | _ => [] end).   (* "DIM1" *)

Theorem C27_pvr_reads_back : forall C (L : lib C) enc psize t file,
  lib_ok L -> enc_sized psize enc -> reachable L enc t ->
  save mem_put mem_good t FT_PVR [] = Some (SR_Success, file) ->
  exists p f, read_pvr psize file = Some (p, []) /\ formatOf t = Some f /\
    pvr_format_ok f (pv_format p) = true /\ pvr_channel_type_ok (typeOf t) (pv_chan p) = true /\
    (pv_space p = 1 <-> colorSpaceOf t = CS_sRGB) /\ pv_space p <= 1 /\
    (pv_flags p = 2 <-> alphaOf t = AlphaPreMultiplied) /\
    pv_width p = width t 0 /\ pv_height p = height t 0 /\
    pv_depth p = (match dimensionOf t with Dim3D => depth t 0 | _ => 1 end) /\
    pv_array p = (match dimensionOf t with Dim3D => 1 | _ => depth t 0 end) /\
    pv_faces p = (match dimensionOf t with Cube => 6 | _ => 1 end) /\
    pv_levels p = mipLevelCount t /\
    pv_meta p = pvr_metadata f (isArray t) (dimensionOf t) /\
    forall face m d, in_range t face m d -> exists b, dataF t face m d = Some (Some b) /\
      nth4 (pv_surfaces p) m (element_of t d) face (slice_of t d) = Some b.
Proof.
  intros C L enc psize t file OK ES R E.
  destruct (success_form L enc psize t FT_PVR file OK ES R E)
    as (CV & _ & fl & cs & V & VF & _ & -> & code & E1 & ->).
  destruct (conv_facts L enc psize t OK ES R CV) as (W & NN & HD & SZ & EF & NU & fl' & V' & SR).
  destruct (C05_pvr_fields_describe fl _ _ (alphaOf t) V) as (code' & E1' & G1 & _ & G2).
  rewrite E1 in E1'; injection E1' as <-.
  exists (pvr_result t code), (fmt t).
  split; [apply pvr_reads; auto|]; split; [exact EF|].
  cbn [pvr_result pv_flags pv_format pv_space pv_chan pv_height pv_width pv_depth pv_array pv_faces pv_levels
       pv_meta pv_surfaces].
  split; [exact G1|]; split; [exact G2|].
  split; [destruct (colorSpaceOf t); cbn; split; congruence|].
  split; [destruct (colorSpaceOf t); cbn; lia|].
  split; [destruct (alphaOf t); split; congruence|].
  split; [reflexivity|]; split; [reflexivity|].
  split; [unfold is3D; destruct (dimensionOf t); reflexivity|].
  split.
  { destruct (dims_cases t W NN) as [(E3 & _ & _ & _ & ->)|[E3 ->]]; unfold is3D in E3;
      destruct (dimensionOf t); try discriminate; reflexivity. }
  split; [rewrite (b_f _ (wf_bounded t W NN)); unfold isCube; destruct (dimensionOf t); reflexivity|].
  split; [reflexivity|].
  split; [unfold pvr_meta, pvr_metadata, is1D; destruct (dimensionOf t); reflexivity|].
  intros face m k IR; exists (surf t face m k); split; [apply HD; auto|].
  destruct (position t face m k W IR) as (P1 & P2 & P3).
  destruct IR as (Hm & Hd & Hf).
  unfold nth4; rewrite !nthN_maprange by auto; cbn [obind].
  rewrite nthN_maprange by auto; cbn [obind].
  rewrite nthN_maprange by auto; cbn [obind].
  rewrite nthN_maprange by auto; rewrite P3; reflexivity.
Qed.
Print Assumptions C27_pvr_reads_back.

(** * C28 *)

(** On any stream: what a healthy in-memory stream would receive is accepted in full, or the
    error is reported and what reached the destination is a prefix of it. *)
Theorem C28_stream_failures : forall C (L : lib C) enc psize t ft file,
  lib_ok L -> enc_sized psize enc -> reachable L enc t ->
  save mem_put mem_good t ft [] = Some (SR_Success, file) ->
  forall S (put : S -> list N -> S) good acc out s, stream_ok put good acc out -> good s = true ->
  exists r s', save put good t ft s = Some (r, s') /\
    ((r = SR_Success /\ good s' = true /\ acc s' = acc s ++ file) \/
     (r = SR_WriteError /\ good s' = false /\ exists rest, acc s ++ file = out s' ++ rest)).
Proof.
  intros C L enc psize t ft file OK ES R E S put good acc out s SO G.
  destruct (success_form L enc psize t ft file OK ES R E) as (_ & _ & fl & cs & _ & _ & [_ WR] & -> & _).
  rewrite WR; apply (run_contract put good acc out SO cs s G).
Qed.
Print Assumptions C28_stream_failures.

(** A stream that had failed before gets WriteError and no byte. *)
Theorem C28_already_failed : forall C (L : lib C) enc psize t ft file,
  lib_ok L -> enc_sized psize enc -> reachable L enc t ->
  save mem_put mem_good t ft [] = Some (SR_Success, file) ->
  forall S (put : S -> list N -> S) good acc out s, stream_ok put good acc out -> good s = false ->
  exists s', save put good t ft s = Some (SR_WriteError, s') /\ good s' = false /\ out s' = out s.
Proof.
  intros C L enc psize t ft file OK ES R E S put good acc out s SO G.
  destruct (success_form L enc psize t ft file OK ES R E) as (_ & _ & fl & cs & _ & _ & [NE WR] & -> & _).
  rewrite WR; destruct cs as [|c cs]; [congruence|].
  apply (run_dead put good acc out SO); exact G.
Qed.
Print Assumptions C28_already_failed.

(** For a destination that fails after [room] bytes, at every point including the middle of a
    field: Success exactly when the file fits. *)
Theorem C28_every_failure_point : forall C (L : lib C) enc psize t ft file,
  lib_ok L -> enc_sized psize enc -> reachable L enc t ->
  save mem_put mem_good t ft [] = Some (SR_Success, file) ->
  forall room, exists r s', save sink_put k_good t ft (Sink [] room true) = Some (r, s') /\
    k_out s' = firstn (N.to_nat room) file /\
    (r = SR_Success <-> N.of_nat (length file) <= room) /\
    (r = SR_WriteError <-> room < N.of_nat (length file)).
Proof.
  intros C L enc psize t ft file OK ES R E room.
  destruct (success_form L enc psize t ft file OK ES R E) as (_ & _ & fl & cs & _ & _ & [_ WR] & -> & _).
  rewrite WR, run_sink.
  destruct (N.leb_spec (N.of_nat (length (bytes_of cs))) room); do 2 eexists; (split; [reflexivity|]);
    cbn [k_out app].
  - split; [rewrite firstn_all2 by lia; reflexivity|]; split; split; try congruence; try lia.
  - split; [reflexivity|]; split; split; try congruence; lia.
Qed.
Print Assumptions C28_every_failure_point.

(** Saving to a file: the device receives what fits; a file that fits is reported as Success
    and WriteError is only reported when it does not fit.  With no buffer the converse holds. *)
Theorem C28_file : forall C (L : lib C) enc psize t ft file,
  lib_ok L -> enc_sized psize enc -> reachable L enc t ->
  save mem_put mem_good t ft [] = Some (SR_Success, file) ->
  forall bufsize room name, exists r content,
    saveFile bufsize (Some room) t (Some name) ft = Some (r, Some content) /\
    content = firstn (N.to_nat room) file /\
    (N.of_nat (length file) <= room -> r = SR_Success /\ content = file) /\
    (r = SR_Success \/ r = SR_WriteError).
Proof.
  intros C L enc psize t ft file OK ES R E bufsize room name.
  destruct (success_form L enc psize t ft file OK ES R E) as (CV & NA & fl & cs & _ & _ & [_ WR] & -> & _).
  unfold saveFile; rewrite CV; cbn [negb].
  replace (match ft with FT_Auto => fileType name | _ => ft end) with ft by (destruct ft; congruence).
  rewrite WR.
  destruct (run_of_inv bufsize room cs [] (OFile [] [] room true) eq_refl) as (c & s' & -> & H1 & H2 & H3).
  { left; cbn; auto. }
  cbn [obind app] in *; do 2 eexists; split; [reflexivity|]; split; [exact H3|].
  split; [|destruct H1 as [->|[-> _]]; auto].
  intros FIT; destruct H1 as [->|[-> K]]; [|lia].
  split; auto; rewrite H3, firstn_all2 by lia; reflexivity.
Qed.
Print Assumptions C28_file.

(** A concrete library, encoder and texture. *)
Definition psize0 (f : format) (w h : N) : N := 32.
Definition enc1 (c : converter) (a : convargs) (i : image N) : list N :=
  map (fun k => (iwidth i * 16 + k) mod 256)
      (Nrange (surface_bytes psize0 (ca_format a) (iwidth i) (iheight i))).
Lemma enc1_sized : enc_sized psize0 enc1.
Proof.
  intros fl a cv img _ _; unfold enc1; rewrite map_length, Nrange_length, Nnat.N2Nat.id; reflexivity.
Qed.

Definition build (cs : list (call N)) : texture N :=
  match run L0 enc1 None cs with Some t => t | None => None end.

Fixpoint allowed_run (t : texture N) (cs : list (call N)) : Prop :=
  match cs with
  | [] => True
  | c :: r => allowed t c /\ match step L0 enc1 t c with Some (_, t1) => allowed_run t1 r | None => False end
  end.

Lemma run_reachable cs : forall t t', reachable L0 enc1 t -> allowed_run t cs ->
  run L0 enc1 t cs = Some t' -> reachable L0 enc1 t'.
Proof.
  induction cs as [|c cs IH]; intros t t' R H E; cbn [run] in E; [injection E as <-; exact R|].
  destruct H as [A H]; destruct (step L0 enc1 t c) as [[b t1]|] eqn:ES; [|contradiction].
  cbn [obind snd] in E; eapply IH; [|exact H|exact E]; eapply R_call; eauto.
Qed.

(** A 5x3 array of two elements, one level, R8G8B8 (rows are padded in KTX). *)
Definition history (f : format) : list (call N) :=
  [CInit Dim2D 5 3 2 1 CS_Linear; CSet (px I_RGB8 5 3 1) 0 0; CSet (px I_RGB8 5 3 2) 0 1;
   CConvert flags_all (ConvArgs f T_UNorm AlphaStandard (Mask true true true true) 0 1)].
Definition arr f := build (history f).

Ltac reach h :=
  apply run_reachable with (cs := h) (t := None); [constructor| |vm_compute; reflexivity];
  let l := eval vm_compute in h in change h with l;
  repeat match goal with
         | |- True => exact I
         | |- allowed_run _ (_ :: _) => cbn [allowed_run]
         | |- allowed_run _ [] => exact I
         | |- _ /\ _ => split
         | |- match step ?a ?b ?c ?d with _ => _ end =>
             let r := eval vm_compute in (step a b c d) in
             change (step a b c d) with r; cbv iota
         | |- allowed _ _ => vm_compute; repeat split; intros; congruence
         end.

Lemma arr_reachable : reachable L0 enc1 (arr F_R8G8B8).
Proof. reach (history F_R8G8B8). Qed.

(** Not vacuous, for all of C03 and C25-C28. *)
Example C25_C28_example :
  lib_ok L0 /\ enc_sized psize0 enc1 /\ reachable L0 enc1 (arr F_R8G8B8) /\
  converted (arr F_R8G8B8) = true /\ ktx_level_bytes psize0 (arr F_R8G8B8) 0 = 96 /\
  (exists file, save mem_put mem_good (arr F_R8G8B8) FT_KTX [] = Some (SR_Success, file) /\
     length file = 164%nat) /\
  (exists file, save mem_put mem_good (arr F_R8G8B8) FT_PVR [] = Some (SR_Success, file) /\
     length file = 158%nat) /\
  save mem_put mem_good (arr F_R8G8B8) FT_DDS [] = Some (SR_Unsupported, []) /\
  (exists file, save mem_put mem_good (arr F_R8G8B8A8) FT_DDS [] = Some (SR_Success, file) /\
     length file = 268%nat).
Proof.
  split; [exact L0_ok|]; split; [exact enc1_sized|]; split; [exact arr_reachable|].
  split; [reflexivity|]; split; [reflexivity|].
  split; [eexists; split; vm_compute; reflexivity|].
  split; [eexists; split; vm_compute; reflexivity|].
  split; [vm_compute; reflexivity|].
  eexists; split; vm_compute; reflexivity.
Qed.

(** The flag that DDS requires on files with several surfaces is missing from cube maps with
    one level. *)
Definition lone_cube : list (call N) :=
  CInit Cube 4 4 0 1 CS_Linear :: map (fun f => CSetF (px I_RGB8 4 4 f) f 0 0) (Nrange 6)
  ++ [CConvert flags_all (ConvArgs F_R8G8B8A8 T_UNorm AlphaStandard (Mask true true true true) 0 1)].
Theorem C25_complex_flag_refuted : exists t file p,
  reachable L0 enc1 t /\ faceCount t = 6 /\
  save mem_put mem_good t FT_DDS [] = Some (SR_Success, file) /\
  read_dds file = Some (p, []) /\ dd_complex p = false.
Proof.
  exists (build lone_cube); do 2 eexists; split.
  { reach lone_cube. }
  split; [reflexivity|]; split; [vm_compute; reflexivity|]; split; vm_compute; reflexivity.
Qed.
Print Assumptions C25_complex_flag_refuted.

(** Without the condition on the height of 1D textures the KTX file cannot be read: the header
    announces one row and the data has three. *)
Definition tall_1d : list (call N) :=
  [CInit Dim1D 2 3 0 1 CS_Linear; CSet (px I_RGB8 2 3 1) 0 0;
   CConvert flags_all (ConvArgs F_R8G8B8A8 T_UNorm AlphaStandard (Mask true true true true) 0 1)].
Theorem C26_tall_1d_refuted : exists t file,
  reachable L0 enc1 t /\ dimensionOf t = Dim1D /\
  save mem_put mem_good t FT_KTX [] = Some (SR_Success, file) /\ read_ktx file = None.
Proof.
  exists (build tall_1d); eexists; split.
  { reach tall_1d. }
  split; [reflexivity|]; split; vm_compute; reflexivity.
Qed.
Print Assumptions C26_tall_1d_refuted.

(** Saving to a file may report Success although the device lost bytes: they were still in the
    buffer when the result was decided. *)
Theorem C28_file_flush_refuted : exists t file content,
  reachable L0 enc1 t /\ save mem_put mem_good t FT_PVR [] = Some (SR_Success, file) /\
  saveFile 4096 (Some 20) t (Some [97]) FT_PVR = Some (SR_Success, Some content) /\
  content <> file.
Proof.
  exists (arr F_R8G8B8); do 2 eexists; split; [exact arr_reachable|].
  split; [vm_compute; reflexivity|]; split; [vm_compute; reflexivity|discriminate].
Qed.
Print Assumptions C28_file_flush_refuted.

(** * C29 *)

Lemma read_loop_all fuel chunk : (0 < chunk)%nat -> forall out rest, (length rest < fuel)%nat ->
  read_loop fuel chunk out (rest, true) = Some (out ++ rest).
Proof.
  intros CP; induction fuel as [|fuel IH]; intros out rest H; [lia|].
  cbn [read_loop iread].
  destruct rest as [|b rest]; [rewrite firstn_nil, app_nil_r; reflexivity|].
  destruct chunk as [|chunk]; [lia|].
  cbn [firstn].
  destruct (Nat.leb_spec (S chunk) (length (b :: rest))) as [Hc|Hc].
  - rewrite IH; [|rewrite skipn_length; cbn [length] in *; lia].
    rewrite <- app_assoc; cbn [skipn app]; rewrite firstn_skipn; reflexivity.
  - cbn [length] in Hc; rewrite firstn_all2 by lia.
    destruct fuel as [|fuel]; [cbn in H; lia|]; reflexivity.
Qed.

(** Whatever the loop returns is everything. *)
Lemma read_loop_dead fuel chunk out rest o : read_loop fuel chunk out (rest, false) = Some o -> o = out.
Proof. destruct fuel; cbn [read_loop iread]; congruence. Qed.
Lemma read_loop_some chunk : (0 < chunk)%nat -> forall fuel out rest o,
  read_loop fuel chunk out (rest, true) = Some o -> o = out ++ rest.
Proof.
  intros CP; induction fuel as [|fuel IH]; intros out rest o H; [discriminate|].
  cbn [read_loop iread] in H.
  destruct rest as [|b rest]; [rewrite firstn_nil in H; rewrite app_nil_r; congruence|].
  destruct chunk as [|chunk]; [lia|].
  cbn [firstn] in H.
  destruct (Nat.leb_spec (S chunk) (length (b :: rest))) as [Hc|Hc].
  - apply IH in H; rewrite H, <- app_assoc; cbn [skipn app]; rewrite firstn_skipn; reflexivity.
  - apply read_loop_dead in H; rewrite H; cbn [length] in Hc; rewrite firstn_all2 by lia; reflexivity.
Qed.

(** save to a vector: the same result as a save to an in-memory stream, the same bytes on
    success and an untouched vector otherwise, on both ways of reading the stream back. *)
Theorem C29_vector_equals_stream : forall C (t : texture C) ft r file old seekable fuel,
  save mem_put mem_good t ft [] = Some (r, file) -> (length file < fuel)%nat ->
  saveVec fuel seekable t ft old
  = Some (r, match r with SR_Success => file | _ => old end).
Proof.
  intros C t ft r file old seekable fuel E HF; unfold saveVec; rewrite E; cbn [obind].
  destruct r; try reflexivity.
  destruct seekable; cbn [readStreamData].
  - rewrite Nnat.Nat2N.id, firstn_all, skipn_all2 by (rewrite repeat_length; lia).
    rewrite app_nil_r; reflexivity.
  - rewrite read_loop_all by lia; reflexivity.
Qed.
Print Assumptions C29_vector_equals_stream.

(** And the bytes are those any other healthy stream would have received. *)
Theorem C29_any_stream : forall C (L : lib C) enc psize t ft file old seekable fuel,
  lib_ok L -> enc_sized psize enc -> reachable L enc t ->
  saveVec fuel seekable t ft old = Some (SR_Success, file) ->
  forall S (put : S -> list N -> S) good acc out s r s',
  stream_ok put good acc out -> good s = true ->
  save put good t ft s = Some (r, s') -> r = SR_Success -> acc s' = acc s ++ file.
Proof.
  intros C L enc psize t ft file old seekable fuel OK ES R EV S put good acc out s r s' SO G E ->.
  destruct (save mem_put mem_good t ft []) as [[r0 f0]|] eqn:E0.
  2: { unfold saveVec in EV; rewrite E0 in EV; discriminate. }
  assert (r0 = SR_Success) as ->.
  { unfold saveVec in EV; rewrite E0 in EV; cbn [obind] in EV; destruct r0; try discriminate EV; reflexivity. }
  destruct (C28_stream_failures C L enc psize t ft f0 OK ES R E0 S put good acc out s SO G)
    as (r1 & s1 & E1 & [(_ & _ & A)|(-> & _)]); rewrite E in E1; [|discriminate].
  injection E1 as <- <-; rewrite A; f_equal.
  unfold saveVec in EV; rewrite E0 in EV; cbn [obind] in EV; destruct seekable; cbn [readStreamData] in EV.
  - rewrite Nnat.Nat2N.id, firstn_all, skipn_all2, app_nil_r in EV by (rewrite repeat_length; lia).
    injection EV; auto.
  - destruct (read_loop fuel 4096 [] (f0, true)) as [o|] eqn:EL; [|discriminate].
    cbn [obind] in EV; injection EV as ->.
    apply read_loop_some in EL; [exact (eq_sym EL)|lia].
Qed.
Print Assumptions C29_any_stream.

Example C29_example : exists file,
  saveVec 200 false (arr F_R8G8B8) FT_KTX [1] = Some (SR_Success, file) /\
  saveVec 200 true (arr F_R8G8B8) FT_KTX [1] = Some (SR_Success, file) /\ length file = 164%nat /\
  saveVec 200 true (arr F_R8G8B8) FT_DDS [1] = Some (SR_Unsupported, [1]).
Proof. eexists; split; [vm_compute; reflexivity|]; repeat split. Qed.

(** * C30 *)

Lemma tolower_iff a b : tolower a = tolower b <-> same_letter a b.
Proof.
  unfold tolower, same_letter.
  destruct (N.leb_spec 65 a), (N.leb_spec a 90), (N.leb_spec 65 b), (N.leb_spec b 90); cbn [andb]; lia.
Qed.

Lemma strcaseeq_iff a b : strcaseeq a b = true <-> Forall2 same_letter a b.
Proof.
  revert b; induction a as [|x a IH]; intros [|y b]; cbn [strcaseeq]; split; intros H;
    try discriminate; try constructor; try (inversion H; fail).
  - apply andb_true_iff in H; apply tolower_iff, N.eqb_eq, H.
  - apply IH; apply andb_true_iff in H; apply H.
  - inversion H; subst; apply andb_true_iff; split; [apply N.eqb_eq, tolower_iff; auto|apply IH; auto].
Qed.

Lemma ends_iff name ext :
  Nat.leb (length ext) (length name) && strcaseeq (skipn (length name - length ext) name) ext = true
  <-> has_extension name ext.
Proof.
  rewrite andb_true_iff, strcaseeq_iff; unfold has_extension; split.
  - intros [_ H]; exists (firstn (length name - length ext) name), (skipn (length name - length ext) name).
    rewrite firstn_skipn; auto.
  - intros (stem & suffix & -> & H).
    assert (E : length suffix = length ext) by (clear -H; induction H; cbn; congruence).
    rewrite app_length, E; split; [apply Nat.leb_le; lia|].
    replace (length stem + length ext - length ext)%nat with (length stem) by lia.
    rewrite skipn_app, skipn_all, Nat.sub_diag; exact H.
Qed.

Definition ext_dds : list N := [46; 100; 100; 115].
Definition ext_ktx : list N := [46; 107; 116; 120].
Definition ext_pvr : list N := [46; 112; 118; 114].

(** Two of the extensions cannot both fit. *)
Lemma ext_excl name e1 e2 : length e1 = length e2 -> has_extension name e1 -> has_extension name e2 ->
  exists s, Forall2 same_letter s e1 /\ Forall2 same_letter s e2.
Proof.
  intros EL (a & s & -> & H1) (b & s' & E & H2).
  assert (F2L : forall (x y : list N), Forall2 same_letter x y -> length x = length y)
    by (clear; induction 1; cbn; congruence).
  pose proof (F2L _ _ H1); pose proof (F2L _ _ H2).
  assert (length a = length b) by (pose proof (f_equal (@length N) E) as K; rewrite !app_length in K; lia).
  assert (s = s').
  { pose proof (f_equal (skipn (length a)) E) as K.
    rewrite skipn_app, skipn_all, Nat.sub_diag in K; cbn [skipn app] in K.
    rewrite H3, skipn_app, skipn_all, Nat.sub_diag in K; exact K. }
  subst s'; eauto.
Qed.

Theorem C30_file_type : forall name,
  (fileType name = FT_DDS <-> has_extension name ext_dds) /\
  (fileType name = FT_KTX <-> has_extension name ext_ktx) /\
  (fileType name = FT_PVR <-> has_extension name ext_pvr) /\
  (fileType name = FT_Auto <-> ~ has_extension name ext_dds /\ ~ has_extension name ext_ktx /\
                              ~ has_extension name ext_pvr).
Proof.
  intros name; unfold fileType; fold ext_dds ext_ktx ext_pvr.
  pose proof (ends_iff name ext_dds) as H1; pose proof (ends_iff name ext_ktx) as H2.
  pose proof (ends_iff name ext_pvr) as H3.
  assert (X : forall e1 e2 a b, nth_error e1 1 = Some a -> nth_error e2 1 = Some b ->
    length e1 = length e2 -> 97 <= a -> 97 <= b -> a <> b ->
    has_extension name e1 -> has_extension name e2 -> False).
  { intros e1 e2 a b N1 N2 EL La Lb Hab X1 X2.
    destruct (ext_excl name e1 e2 EL X1 X2) as (s & F1 & F2).
    destruct e1 as [|u1 [|u2 e1]]; try discriminate; destruct e2 as [|v1 [|v2 e2]]; try discriminate.
    cbn in N1, N2; injection N1 as ->; injection N2 as ->.
    inversion F1 as [|? ? ? ? _ K1]; subst; inversion K1 as [|? ? ? ? S1 _]; subst.
    inversion F2 as [|? ? ? ? _ K2]; subst; inversion K2 as [|? ? ? ? S2 _]; subst.
    apply tolower_iff in S1; apply tolower_iff in S2; rewrite S1 in S2; apply tolower_iff in S2.
    unfold same_letter in S2; lia. }
  assert (X12 := X ext_dds ext_ktx 100 107 eq_refl eq_refl eq_refl ltac:(lia) ltac:(lia) ltac:(lia)).
  assert (X13 := X ext_dds ext_pvr 100 112 eq_refl eq_refl eq_refl ltac:(lia) ltac:(lia) ltac:(lia)).
  assert (X23 := X ext_ktx ext_pvr 107 112 eq_refl eq_refl eq_refl ltac:(lia) ltac:(lia) ltac:(lia)).
  clear X.
  destruct (Nat.leb (length ext_dds) (length name) && _);
  destruct (Nat.leb (length ext_ktx) (length name) && _);
  destruct (Nat.leb (length ext_pvr) (length name) && _);
    repeat split; intros; try discriminate; try reflexivity; try tauto; exfalso;
    intuition discriminate.
Qed.
Print Assumptions C30_file_type.

Example C30_example :
  fileType [97; 46; 68; 100; 83] = FT_DDS /\ fileType [46; 75; 84; 88] = FT_KTX /\
  fileType [112; 118; 114] = FT_Auto /\ fileType [46; 112; 118; 114; 46] = FT_Auto.
Proof. repeat split. Qed.

(** * C31 *)

Section Settled.
Context {C S : Type} (put : S -> list N -> S) (good : S -> bool).

(** Once something is written the result is Success or WriteError. *)
Definition settled (k : S -> result (S:=S)) : Prop :=
  forall s r s', k s = Some (r, s') -> r = SR_Success \/ r = SR_WriteError.

Lemma settled_done : settled done.
Proof. intros ? ? ? [= <- <-]; auto. Qed.
Lemma settled_wr bs k : settled k -> settled (wr put good bs k).
Proof. intros H s r s'; unfold wr; destruct (good _); [apply H|intros [= <- <-]; auto]. Qed.
Lemma settled_loop n body k : (forall i k, settled k -> settled (body i k)) -> settled k ->
  settled (floop n body k).
Proof. intros HB HK; unfold floop; induction (Nrange n) as [|i l IH]; cbn [fold_right]; auto. Qed.
Lemma settled_data (t : texture C) f m d k : settled k -> settled (wr_data put good t f m d k).
Proof.
  intros HK s r s'; unfold wr_data; destruct (dataF t f m d); [|discriminate]; cbn [obind].
  apply settled_wr; exact HK.
Qed.
Lemma settled_row b rs pd y k : settled k -> settled (wr_row put good b rs pd y k).
Proof.
  intros HK s r s'; unfold wr_row.
  match goal with |- obind ?x _ = _ -> _ => destruct x; [|discriminate] end; cbn [obind].
  match goal with |- (if ?c then _ else _) = _ -> _ => destruct c; [apply HK|intros [= <- <-]; auto] end.
Qed.
Lemma settled_rows (t : texture C) f m d k : settled k -> settled (wr_rows put good t f m d k).
Proof.
  intros HK s r s'; unfold wr_rows; destruct (dataF t f m d); [|discriminate]; cbn [obind].
  apply settled_loop; [|exact HK]; intros; apply settled_row; auto.
Qed.

Lemma settled_save (t : texture C) ft s r s' : converted t = true -> save put good t ft s = Some (r, s') ->
  (r = SR_Success \/ r = SR_WriteError) \/ (r = SR_Unsupported /\ ft <> FT_Auto /\ s' = s) \/
  (ft = FT_Auto /\ r = SR_UnknownFormat /\ s' = s).
Proof.
  intros CV; unfold save; rewrite CV; cbn [negb]; destruct ft.
  - intros [= <- <-]; auto.
  - unfold saveDds; destruct (_ =? _); [intros [= <- <-]; right; left; repeat split; auto; discriminate|].
    intros E; left; revert E; do 3 apply settled_wr.
    repeat (apply settled_loop; [intros|]); auto using settled_data, settled_done.
  - unfold saveKtx; destruct (getFormatInfo _ _ _) as [k|];
      [|intros [= <- <-]; right; left; repeat split; auto; discriminate].
    destruct (ktx_info_words k); [|discriminate]; cbn [obind].
    intros E; left; revert E; do 10 apply settled_wr.
    apply settled_loop; [|apply settled_done]; intros m k0 HK s2 r2 s2'.
    destruct (ktx_image_size t m); [|discriminate]; cbn [obind].
    apply settled_wr, settled_loop; [|exact HK]; intros d k1 HK1.
    apply settled_loop; [|exact HK1]; intros f k2 HK2.
    destruct (1 <? _); auto using settled_data, settled_rows.
  - unfold savePvr; destruct (getPixelFormat _ _);
      [|intros [= <- <-]; right; left; repeat split; auto; discriminate].
    intros E; left; revert E.
    assert (SU : settled (floop (mipLevelCount t) (fun level =>
        floop (depth t level) (fun d => floop (faceCount t) (fun face =>
        wr_data put good t face level d))) done)).
    { repeat (apply settled_loop; [intros|]); auto using settled_data, settled_done. }
    do 11 apply settled_wr.
    destruct (match fmt t with F_BC1_RGB | F_BC1_RGBA => true | _ => false end), (isArray t), (is1D t);
      cbn [orb]; cbv iota; repeat apply settled_wr; exact SU.
Qed.
End Settled.

Theorem C31_misuse_writes_nothing : forall C (t : texture C) ft S (put : S -> list N -> S) good s,
  (converted t = false -> save put good t ft s = Some (SR_Invalid, s)) /\
  (converted t = true -> ft = FT_Auto -> save put good t ft s = Some (SR_UnknownFormat, s)) /\
  (forall r s', save put good t ft s = Some (r, s') ->
     (r = SR_Invalid -> converted t = false /\ s' = s) /\
     (r = SR_UnknownFormat -> ft = FT_Auto /\ s' = s) /\
     (r = SR_Unsupported -> s' = s)).
Proof.
  intros C t ft S put good s; split; [|split].
  - intros H; unfold save; rewrite H; reflexivity.
  - intros H ->; unfold save; rewrite H; reflexivity.
  - intros r s' E; destruct (converted t) eqn:CV.
    + destruct (settled_save put good t ft s r s' CV E) as [[->| ->]|[(-> & _ & ->)|(-> & -> & ->)]];
        repeat split; try discriminate; auto.
    + unfold save in E; rewrite CV in E; injection E as <- <-; repeat split; try discriminate; auto.
Qed.
Print Assumptions C31_misuse_writes_nothing.

(** Saving to a file: a null name or an unconverted texture leaves the file alone; an
    undecidable type or an unsupported format leaves it empty. *)
Theorem C31_file_untouched : forall C (t : texture C) bufsize room name ft,
  name = None \/ converted t = false ->
  saveFile bufsize room t name ft = Some (SR_Invalid, None).
Proof.
  intros C t bufsize room name ft [->|H]; [reflexivity|].
  unfold saveFile; destruct name; [rewrite H|]; reflexivity.
Qed.
Print Assumptions C31_file_untouched.

Theorem C31_file_emptied : forall C (t : texture C) bufsize room name,
  converted t = true -> fileType name = FT_Auto ->
  saveFile bufsize (Some room) t (Some name) FT_Auto = Some (SR_UnknownFormat, Some []).
Proof.
  intros C t bufsize room name CV E; unfold saveFile; rewrite CV; cbn [negb]; rewrite E.
  unfold save; rewrite CV; cbn [negb obind of_good of_flush of_disk of_pending app].
  rewrite firstn_nil; reflexivity.
Qed.
Print Assumptions C31_file_emptied.

Theorem C31_file_untouched_refuted : exists t name content,
  reachable L0 enc1 t /\ saveFile 4096 (Some 1000) t (Some name) FT_DDS = Some (SR_Unsupported, Some content).
Proof.
  exists (arr F_R8G8B8), [97], []; split; [exact arr_reachable|vm_compute; reflexivity].
Qed.
Print Assumptions C31_file_untouched_refuted.

Example C31_example :
  converted (build [CInit Dim2D 5 3 2 1 CS_Linear]) = false /\
  save mem_put mem_good (arr F_R8G8B8) FT_Auto [9] = Some (SR_UnknownFormat, [9]) /\
  fileType [97; 46; 112; 110; 103] = FT_Auto.
Proof. repeat split. Qed.

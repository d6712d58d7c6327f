(** C67, continued: the data of the file the tool writes is the processed input images. *)

From Coq Require Import NArith ZArith List Bool String Lia Permutation.
From Verif Require Import Base FormatModel FormatSpec ContainerSpec TextureModel TextureSpec TextureProofs SaveModel SaveSpec
  PropsSave CommandLineModel CommandLineSpec ToolModel ToolSpec PipelineModel PipelineSpec PropsPipeline.
From Verif Require Import ConverterModel BlockSpec CompressSpec EncodeModel EncodeSpec PropsEncode.
From Verif Require Import PropsCommandLine CommandGrammar.
Import ListNotations.
Local Open Scope list_scope.
Local Open Scope N_scope.
Local Notation length := List.length.
Local Notation height := TextureModel.height.
Local Notation place := PipelineSpec.place.

Lemma encoded W (O : ops pixels) enc fl a i cv : ops_ok O -> computes W (c_textureCS a) enc ->
  (forall e, N.of_nat (length (wo_enc W e)) = answer_bytes e) -> family_of (c_fmt a) <> Fam_Pvrtc ->
  createConverter fl (c_fmt a) (c_ttyp a) = Some cv -> fits (c_fmt a) (iwidth i) (iheight i) ->
  defined W (c_textureCS a) cv (convert_args a) (iconvert (o_lib O) i I_RGBAF) ->
  holds W (c_textureCS a) cv (convert_args a) (iconvert (o_lib O) i I_RGBAF)
    (enc cv (convert_args a) (iconvert (o_lib O) i I_RGBAF)).
Proof.
  intros OK CP Enc NP C Ft D.
  assert (V : isValid (iconvert (o_lib O) i I_RGBAF) = true)
    by (destruct (iconvert (o_lib O) i I_RGBAF); [contradiction D|reflexivity]).
  destruct (iconvert_wh (o_lib O) i V) as [EW EH]. rewrite <- EW, <- EH in Ft.
  change (c_fmt a) with (ca_format (convert_args a)) in C, NP, Ft.
  change (c_ttyp a) with (ca_type (convert_args a)) in C.
  destruct (surface_all W (c_textureCS a) fl cv (convert_args a) _ C NP Enc Ft D) as [[EQ _] H].
  rewrite (proj1 (EQ _) (CP fl (convert_args a) cv _ C NP Ft D)). exact H.
Qed.

Theorem C67_tool_dds : forall W (O : ops pixels) enc psize fl file isnum cap visit visit' args a Y path fuel evs,
  ops_ok O -> enc_sized psize enc -> computes W (c_textureCS a) enc ->
  (forall e, N.of_nat (length (wo_enc W e)) = answer_bytes e) -> family_of (c_fmt a) <> Fam_Pvrtc ->
  (forall m, Permutation (visit m) m) -> (forall m, Permutation (visit' m) m) ->
  parse fl file isnum cap visit args = POk a ->
  N.of_nat (length (c_images a)) < 2 ^ 32 -> single_mode a ->
  c_output a = Some path -> ~ In 0 (codes path) -> (length (codes path) < fuel)%nat ->
  c_ftype a = FT_DDS -> run_tool O visit' fl enc Y fuel a = Some (0, evs) ->
  exists p0 f w h c t bytes n room before p cv,
    nth_error (c_images a) 0 = Some p0 /\ o_load O p0 = Some (f, w, h, c) /\
    y_room Y n = Some room /\
    evs = before ++ [TvSave t SR_Success (Some (firstn (N.to_nat room) bytes))] /\
    read_dds bytes = Some (p, []) /\
    createConverter fl (c_fmt a) (c_ttyp a) = Some cv /\
    forall k q i, nth_error (c_images a) k = Some q ->
      product O a (fst (asked a w h)) (snd (asked a w h)) 0 q = Some i ->
      fits (c_fmt a) (iwidth i) (iheight i) ->
      defined W (c_textureCS a) cv (convert_args a) (iconvert (o_lib O) i I_RGBAF) ->
      let '(face, d) := place (c_imageType a) (N.of_nat k) in exists b,
      nth4 (dd_surfaces p) (match c_dim a with Dim3D => 0 | _ => d end) face 0
        (match c_dim a with Dim3D => d | _ => 0 end) = Some b /\
      holds W (c_textureCS a) cv (convert_args a) (iconvert (o_lib O) i I_RGBAF) b.
Proof.
  intros W O enc psize fl file isnum cap visit visit' args a Y path fuel evs OK ES CP Enc NP PV PV' E LN SM EO NZ HF FT ER.
  destruct (C54_dds_contents pixels O enc psize fl file isnum cap visit visit' args a Y path fuel evs OK ES PV PV' E LN SM EO NZ HF FT ER)
    as (p0 & f & w & h & c & t & bytes & n & room & before & p & cv & X1 & X2 & X3 & X4 & X5 & X6 & _ & _ & _ & _ & _ & X).
  exists p0, f, w, h, c, t, bytes, n, room, before, p, cv. repeat (split; [assumption|]).
  intros k q i Hk Pi Ft D. specialize (X k q i Hk Pi).
  destruct (place (c_imageType a) (N.of_nat k)) as [face d].
  exists (enc cv (convert_args a) (iconvert (o_lib O) i I_RGBAF)). split; [exact X|].
  eapply encoded; eauto.
Qed.
Print Assumptions C67_tool_dds.

Theorem C67_tool_ktx : forall W (O : ops pixels) enc psize fl file isnum cap visit visit' args a Y path fuel evs,
  ops_ok O -> enc_sized psize enc -> computes W (c_textureCS a) enc ->
  (forall e, N.of_nat (length (wo_enc W e)) = answer_bytes e) -> family_of (c_fmt a) <> Fam_Pvrtc ->
  (forall m, Permutation (visit m) m) -> (forall m, Permutation (visit' m) m) ->
  parse fl file isnum cap visit args = POk a ->
  N.of_nat (length (c_images a)) < 2 ^ 32 -> single_mode a ->
  c_output a = Some path -> ~ In 0 (codes path) -> (length (codes path) < fuel)%nat ->
  c_ftype a = FT_KTX -> run_tool O visit' fl enc Y fuel a = Some (0, evs) ->
  (forall f w h, psize f w h mod 4 = 0) ->
  (forall t r x, In (TvSave t r x) evs ->
     (c_dim a = Dim1D -> height t 0 = 1) /\
     forall m, m < mipLevelCount t -> ktx_level_bytes psize t m < 2 ^ 32) ->
  exists p0 f w h c t bytes n room before p cv,
    nth_error (c_images a) 0 = Some p0 /\ o_load O p0 = Some (f, w, h, c) /\
    y_room Y n = Some room /\
    evs = before ++ [TvSave t SR_Success (Some (firstn (N.to_nat room) bytes))] /\
    read_ktx bytes = Some (p, []) /\
    createConverter fl (c_fmt a) (c_ttyp a) = Some cv /\
    forall k q i, nth_error (c_images a) k = Some q ->
      product O a (fst (asked a w h)) (snd (asked a w h)) 0 q = Some i ->
      fits (c_fmt a) (iwidth i) (iheight i) ->
      defined W (c_textureCS a) cv (convert_args a) (iconvert (o_lib O) i I_RGBAF) ->
      let '(face, d) := place (c_imageType a) (N.of_nat k) in exists b,
      nth4 (kx_surfaces p) 0 (match c_dim a with Dim3D => 0 | _ => d end) face
        (match c_dim a with Dim3D => d | _ => 0 end) = Some b /\
      holds W (c_textureCS a) cv (convert_args a) (iconvert (o_lib O) i I_RGBAF) b.
Proof.
  intros W O enc psize fl file isnum cap visit visit' args a Y path fuel evs OK ES CP Enc NP PV PV' E LN SM EO NZ HF FT ER P4 FIT.
  destruct (C54_ktx_contents pixels O enc psize fl file isnum cap visit visit' args a Y path fuel evs OK ES P4 PV PV' E LN SM EO NZ HF FT ER FIT)
    as (p0 & f & w & h & c & t & bytes & n & room & before & p & cv & X1 & X2 & X3 & X4 & X5 & X6 & _ & _ & _ & _ & _ & X).
  exists p0, f, w, h, c, t, bytes, n, room, before, p, cv. repeat (split; [assumption|]).
  intros k q i Hk Pi Ft D. specialize (X k q i Hk Pi).
  destruct (place (c_imageType a) (N.of_nat k)) as [face d].
  exists (enc cv (convert_args a) (iconvert (o_lib O) i I_RGBAF)). split; [exact X|].
  eapply encoded; eauto.
Qed.
Print Assumptions C67_tool_ktx.

Theorem C67_tool_pvr : forall W (O : ops pixels) enc psize fl file isnum cap visit visit' args a Y path fuel evs,
  ops_ok O -> enc_sized psize enc -> computes W (c_textureCS a) enc ->
  (forall e, N.of_nat (length (wo_enc W e)) = answer_bytes e) -> family_of (c_fmt a) <> Fam_Pvrtc ->
  (forall m, Permutation (visit m) m) -> (forall m, Permutation (visit' m) m) ->
  parse fl file isnum cap visit args = POk a ->
  N.of_nat (length (c_images a)) < 2 ^ 32 -> single_mode a ->
  c_output a = Some path -> ~ In 0 (codes path) -> (length (codes path) < fuel)%nat ->
  c_ftype a = FT_PVR -> run_tool O visit' fl enc Y fuel a = Some (0, evs) ->
  exists p0 f w h c t bytes n room before p cv,
    nth_error (c_images a) 0 = Some p0 /\ o_load O p0 = Some (f, w, h, c) /\
    y_room Y n = Some room /\
    evs = before ++ [TvSave t SR_Success (Some (firstn (N.to_nat room) bytes))] /\
    read_pvr psize bytes = Some (p, []) /\
    createConverter fl (c_fmt a) (c_ttyp a) = Some cv /\
    forall k q i, nth_error (c_images a) k = Some q ->
      product O a (fst (asked a w h)) (snd (asked a w h)) 0 q = Some i ->
      fits (c_fmt a) (iwidth i) (iheight i) ->
      defined W (c_textureCS a) cv (convert_args a) (iconvert (o_lib O) i I_RGBAF) ->
      let '(face, d) := place (c_imageType a) (N.of_nat k) in exists b,
      nth4 (pv_surfaces p) 0 (match c_dim a with Dim3D => 0 | _ => d end) face
        (match c_dim a with Dim3D => d | _ => 0 end) = Some b /\
      holds W (c_textureCS a) cv (convert_args a) (iconvert (o_lib O) i I_RGBAF) b.
Proof.
  intros W O enc psize fl file isnum cap visit visit' args a Y path fuel evs OK ES CP Enc NP PV PV' E LN SM EO NZ HF FT ER.
  destruct (C54_pvr_contents pixels O enc psize fl file isnum cap visit visit' args a Y path fuel evs OK ES PV PV' E LN SM EO NZ HF FT ER)
    as (p0 & f & w & h & c & t & bytes & n & room & before & p & cv & X1 & X2 & X3 & X4 & X5 & X6 & _ & _ & _ & _ & _ & X).
  exists p0, f, w, h, c, t, bytes, n, room, before, p, cv. repeat (split; [assumption|]).
  intros k q i Hk Pi Ft D. specialize (X k q i Hk Pi).
  destruct (place (c_imageType a) (N.of_nat k)) as [face d].
  exists (enc cv (convert_args a) (iconvert (o_lib O) i I_RGBAF)). split; [exact X|].
  eapply encoded; eauto.
Qed.
Print Assumptions C67_tool_pvr.

(** A run that meets the conditions: a 3 x 2 image to R5G6B5 with three threads. *)
Definition Op : ops pixels :=
  Ops Lp (fun _ => Some (I_RGBAF, 3, 2, PropsBlock.ex_px)) (fun _ _ _ _ c => Some c) (fun _ _ _ _ c => c)
    (fun _ _ _ _ _ c => Some c) (fun _ _ _ c => c) (fun _ _ _ c => c) (fun _ _ _ _ _ _ _ c => c)
    (fun _ _ _ _ c => c) (fun _ _ _ _ _ c => c).
Lemma Op_ok : ops_ok Op.
Proof. constructor; [exact Lp_ok| | |]; try discriminate. intros p f w h c X. injection X as <- <- <- <-. lia. Qed.
Definition args5 : list string := ["-i"; "aa"; "-f"; "r5g6b5"; "-j"; "3"; "-o"; "o.dds"]%string.
Definition ran5 : option (N * list (@tevent pixels)) :=
  run_tool Op asis fl1 (serial Wp (c_textureCS (parsed args5)) psize0) Y1 100 (parsed args5).
Example C67_tool_case : parse1 args5 = POk (parsed args5) /\ c_ftype (parsed args5) = FT_DDS /\
  c_fmt (parsed args5) = F_R5G6B5 /\ computes Wp (c_textureCS (parsed args5)) (serial Wp (c_textureCS (parsed args5)) psize0) /\
  match ran5 with
  | Some (0, [TvSave t SR_Success (Some b)]) =>
      skipn (length b - 12) b = [0; 0; 0; 32; 0; 64; 0; 2; 0; 34; 0; 66]
  | _ => False
  end.
Proof.
  split; [vm_compute; reflexivity|]. split; [vm_compute; reflexivity|]. split; [vm_compute; reflexivity|].
  split; [apply serial_computes, ex_sized|]. vm_compute. reflexivity.
Qed.

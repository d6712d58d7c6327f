(** C54, C55: a whole run of the command line tool, from the arguments to the file. *)
From Coq Require Import List NArith ZArith Bool String Ascii Lia Permutation.
From Coq Require Import ZifyBool ZifyNat ZifyN.
From Verif Require Import Base FormatModel SaveFormats ContainerSpec TextureModel TextureSpec TextureProofs
  PropsTexture SaveModel SaveSpec SaveRead SaveReadDds SaveReadPvr PropsSave CommandLineModel CommandLineSpec
  PropsCommandLine CommandGrammar
  ToolModel ToolSpec PropsTool PipelineModel PipelineSpec PipelineProofs PipelineBuild PipelineRun.
Import ListNotations.
Local Open Scope string_scope.
Local Open Scope list_scope.
Local Open Scope N_scope.
Local Notation length := List.length.
Local Notation height := TextureModel.height.

(** ** C55 *)

(** Every run on an accepted command line ends, and ends as described. *)
Theorem C55_outcome : forall C (O : ops C) enc psize fl file isnum cap visit visit' args a Y path fuel,
  ops_ok O -> enc_sized psize enc ->
  (forall m, Permutation (visit m) m) -> (forall m, Permutation (visit' m) m) ->
  parse fl file isnum cap visit args = POk a ->
  N.of_nat (length (c_images a)) < 2 ^ 32 -> single_mode a ->
  c_output a = Some path -> ~ In 0 (codes path) -> (length (codes path) < fuel)%nat ->
  exists st evs, run_tool O visit' fl enc Y fuel a = Some (st, evs) /\
  (~ inputs_ok O a -> st = 2 /\ evs = []) /\
  (inputs_ok O a -> exists p0 f w h c,
     nth_error (c_images a) 0 = Some p0 /\ o_load O p0 = Some (f, w, h, c) /\
     let W := fst (asked a w h) in
     let H := snd (asked a w h) in
     (~ has_extent a W H -> st = 3 /\ evs = []) /\
     (has_extent a W H -> exists t, wanted O fl enc a W H t /\ saving Y a (codes path) t st evs)).
Proof.
  intros C O enc psize fl file isnum cap visit visit' args a Y path fuel OK ES PV PV' E LN SM EO NZ HF.
  pose proof (parse_facts _ _ _ _ _ _ _ PV E LN) as F.
  destruct (C41_consistent _ _ _ _ _ _ _ E) as (_ & _ & _ & _ & _ & NA & V & _).
  destruct (run_cases O enc psize OK ES visit' PV' Y fl a path fuel F SM EO NZ HF NA V) as (st & evs & ER & D).
  exists st, evs. split; [exact ER|]. destruct D as [(-> & -> & NI)|(IN & p0 & f & w & h & c & E0 & EL & D)].
  - split; [auto|]. intros I. contradiction.
  - split; [intros NI; contradiction|]. intros _. exists p0, f, w, h, c. split; [exact E0|]. split; [exact EL|].
    cbv zeta in *. destruct D as [(NX & -> & ->)|(EX & t & WT & _ & _ & SV)].
    + split; [auto|]. intros X. contradiction.
    + split; [intros X; contradiction|]. intros _. exists t. auto.
Qed.
Print Assumptions C55_outcome.

(** ** C54 *)

(** A run that ends with status 0 has saved the texture that was asked for, and the output file
    holds the beginning of its file, as much as there was room for. *)
Theorem C54_file : forall C (O : ops C) enc psize fl file isnum cap visit visit' args a Y path fuel evs,
  ops_ok O -> enc_sized psize enc ->
  (forall m, Permutation (visit m) m) -> (forall m, Permutation (visit' m) m) ->
  parse fl file isnum cap visit args = POk a ->
  N.of_nat (length (c_images a)) < 2 ^ 32 -> single_mode a ->
  c_output a = Some path -> ~ In 0 (codes path) -> (length (codes path) < fuel)%nat ->
  run_tool O visit' fl enc Y fuel a = Some (0, evs) ->
  exists p0 f w h c t bytes n room before,
    nth_error (c_images a) 0 = Some p0 /\ o_load O p0 = Some (f, w, h, c) /\
    wanted O fl enc a (fst (asked a w h)) (snd (asked a w h)) t /\ reachable (o_lib O) enc t /\
    save mem_put mem_good t (c_ftype a) [] = Some (SR_Success, bytes) /\
    y_room Y n = Some room /\
    evs = before ++ [TvSave t SR_Success (Some (firstn (N.to_nat room) bytes))] /\
    forall t' r x, In (TvSave t' r x) evs -> t' = t.
Proof.
  intros C O enc psize fl file isnum cap visit visit' args a Y path fuel evs OK ES PV PV' E LN SM EO NZ HF ER0.
  pose proof (parse_facts _ _ _ _ _ _ _ PV E LN) as F.
  destruct (C41_consistent _ _ _ _ _ _ _ E) as (_ & _ & _ & _ & _ & NA & V & _).
  destruct (run_cases O enc psize OK ES visit' PV' Y fl a path fuel F SM EO NZ HF NA V) as (st & evs' & ER & D).
  rewrite ER0 in ER. injection ER as <- <-.
  destruct D as [(X & _ & _)|(IN & p0 & f & w & h & c & E0 & EL & D)]; [discriminate|]. cbv zeta in D.
  destruct D as [(_ & X & _)|(EX & t & WT & R & CV & SV)]; [discriminate|].
  assert (NM : forall t' r x l, ~ In (@TvSave C t' r x) (map TvMkdir l)).
  { intros t' r x l I. apply in_map_iff in I. destruct I as (y & Ey & _). discriminate. }
  exists p0, f, w, h, c, t. remember 0 as st eqn:EST. destruct SV as [x AT|x AT|x pre q rest AT|x r x' AT CD MK AT'].
  - destruct AT as (bytes & SB & AT). destruct (y_room Y 0) as [n|] eqn:EY; [|destruct AT; discriminate].
    destruct AT as (-> & _ & _). exists bytes, 0%nat, n, []. repeat (split; [assumption|]). split; [reflexivity|].
    intros t' r' x [I|[]]. congruence.
  - discriminate.
  - discriminate.
  - destruct r; try discriminate. destruct AT' as (bytes & SB & AT').
    destruct (y_room Y 1) as [n|] eqn:EY; [|destruct AT'; discriminate].
    destruct AT' as (-> & _ & _).
    exists bytes, 1%nat, n, (TvSave t SR_WriteError x :: map TvMkdir (parents (codes path))).
    repeat (split; [assumption|]). split; [reflexivity|].
    intros t' r' y I. destruct I as [I|I]; [congruence|]. apply in_app_or in I.
    destruct I as [I|[I|[]]]; [exfalso; exact (NM _ _ _ _ I)|congruence].
Qed.
Print Assumptions C54_file.

(** With C25: a DDS file made by the tool can be read back, and the first level of every image is
    the processed input. *)
Theorem C54_dds_contents : forall C (O : ops C) enc psize fl file isnum cap visit visit' args a Y path fuel evs,
  ops_ok O -> enc_sized psize enc ->
  (forall m, Permutation (visit m) m) -> (forall m, Permutation (visit' m) m) ->
  parse fl file isnum cap visit args = POk a ->
  N.of_nat (length (c_images a)) < 2 ^ 32 -> single_mode a ->
  c_output a = Some path -> ~ In 0 (codes path) -> (length (codes path) < fuel)%nat ->
  c_ftype a = FT_DDS -> run_tool O visit' fl enc Y fuel a = Some (0, evs) ->
  exists p0 f w h c t bytes n room before p cv,
    nth_error (c_images a) 0 = Some p0 /\ o_load O p0 = Some (f, w, h, c) /\
    y_room Y n = Some room /\
    evs = before ++ [TvSave t SR_Success (Some (firstn (N.to_nat room) bytes))] /\
    read_dds bytes = Some (p, []) /\
    createConverter fl (c_fmt a) (c_ttyp a) = Some cv /\
    dd_dim p = c_dim a /\ (dd_width p, dd_height p) = base_size a (fst (asked a w h)) (snd (asked a w h)) /\
    describes (dd_pixels p) (c_fmt a) = true /\ dd_type p = c_ttyp a /\ dd_space p = c_textureCS a /\
    forall k q i, nth_error (c_images a) k = Some q ->
      product O a (fst (asked a w h)) (snd (asked a w h)) 0 q = Some i ->
      let '(face, d) := place (c_imageType a) (N.of_nat k) in
      nth4 (dd_surfaces p) (match c_dim a with Dim3D => 0 | _ => d end) face 0
           (match c_dim a with Dim3D => d | _ => 0 end)
      = Some (enc cv (convert_args a) (iconvert (o_lib O) i I_RGBAF)).
Proof.
  intros C O enc psize fl file isnum cap visit visit' args a Y path fuel evs OK ES PV PV' E LN SM EO NZ HF FT ER.
  destruct (C54_file C O enc psize fl file isnum cap visit visit' args a Y path fuel evs OK ES PV PV' E LN SM EO NZ HF ER)
    as (p0 & f & w & h & c & t & bytes & n & room & before & E0 & EL & WT & R & SV & EY & EE & _).
  rewrite FT in SV.
  destruct (C25_dds_reads_back C (o_lib O) enc psize t bytes (k_lib _ OK) ES R SV)
    as (p & g & RD & FG & X1 & X2 & X3 & _ & _ & _ & X4 & X5 & X6 & _ & _ & XS).
  destruct WT. destruct w_data as (cv & CV & FD & _).
  assert (g = c_fmt a) by congruence. subst g.
  exists p0, f, w, h, c, t, bytes, n, room, before, p, cv. repeat (split; [assumption || congruence|]).
  intros k q i Hk Pi. specialize (FD k q i Hk Pi).
  destruct (place (c_imageType a) (N.of_nat k)) as [face d]. destruct FD as (I1 & I2 & I3).
  assert (IR : in_range t face 0 d).
  { split; [|split; assumption]. eapply depth_mips. exact I2. }
  destruct (XS face 0 d IR) as (b & Db & Nb). unfold element_of, slice_of in Nb. rewrite w_dim in Nb.
  rewrite I3 in Db. injection Db as <-. destruct (c_dim a); exact Nb.
Qed.
Print Assumptions C54_dds_contents.

(** Likewise for PVR, with C27. *)
Theorem C54_pvr_contents : forall C (O : ops C) enc psize fl file isnum cap visit visit' args a Y path fuel evs,
  ops_ok O -> enc_sized psize enc ->
  (forall m, Permutation (visit m) m) -> (forall m, Permutation (visit' m) m) ->
  parse fl file isnum cap visit args = POk a ->
  N.of_nat (length (c_images a)) < 2 ^ 32 -> single_mode a ->
  c_output a = Some path -> ~ In 0 (codes path) -> (length (codes path) < fuel)%nat ->
  c_ftype a = FT_PVR -> run_tool O visit' fl enc Y fuel a = Some (0, evs) ->
  exists p0 f w h c t bytes n room before p cv,
    nth_error (c_images a) 0 = Some p0 /\ o_load O p0 = Some (f, w, h, c) /\
    y_room Y n = Some room /\
    evs = before ++ [TvSave t SR_Success (Some (firstn (N.to_nat room) bytes))] /\
    read_pvr psize bytes = Some (p, []) /\
    createConverter fl (c_fmt a) (c_ttyp a) = Some cv /\
    (pv_width p, pv_height p) = base_size a (fst (asked a w h)) (snd (asked a w h)) /\
    pv_faces p = (match c_dim a with Cube => 6 | _ => 1 end) /\
    pvr_format_ok (c_fmt a) (pv_format p) = true /\ pvr_channel_type_ok (c_ttyp a) (pv_chan p) = true /\
    (pv_space p = 1 <-> c_textureCS a = CS_sRGB) /\
    forall k q i, nth_error (c_images a) k = Some q ->
      product O a (fst (asked a w h)) (snd (asked a w h)) 0 q = Some i ->
      let '(face, d) := place (c_imageType a) (N.of_nat k) in
      nth4 (pv_surfaces p) 0 (match c_dim a with Dim3D => 0 | _ => d end) face
           (match c_dim a with Dim3D => d | _ => 0 end)
      = Some (enc cv (convert_args a) (iconvert (o_lib O) i I_RGBAF)).
Proof.
  intros C O enc psize fl file isnum cap visit visit' args a Y path fuel evs OK ES PV PV' E LN SM EO NZ HF FT ER.
  destruct (C54_file C O enc psize fl file isnum cap visit visit' args a Y path fuel evs OK ES PV PV' E LN SM EO NZ HF ER)
    as (p0 & f & w & h & c & t & bytes & n & room & before & E0 & EL & WT & R & SV & EY & EE & _).
  rewrite FT in SV.
  destruct (C27_pvr_reads_back C (o_lib O) enc psize t bytes (k_lib _ OK) ES R SV)
    as (p & g & RD & FG & X1 & X2 & X3 & _ & _ & X4 & X5 & _ & _ & X6 & _ & _ & XS).
  destruct WT. destruct w_data as (cv & CV & FD & _).
  assert (g = c_fmt a) by congruence. subst g.
  rewrite w_space in X3. rewrite w_type in X2. rewrite w_dim in X6.
  exists p0, f, w, h, c, t, bytes, n, room, before, p, cv. repeat (split; [assumption || congruence|]).
  intros k q i Hk Pi. specialize (FD k q i Hk Pi).
  destruct (place (c_imageType a) (N.of_nat k)) as [face d]. destruct FD as (I1 & I2 & I3).
  assert (IR : in_range t face 0 d).
  { split; [|split; assumption]. eapply depth_mips. exact I2. }
  destruct (XS face 0 d IR) as (b & Db & Nb). unfold element_of, slice_of in Nb. rewrite w_dim in Nb.
  rewrite I3 in Db. injection Db as <-. destruct (c_dim a); exact Nb.
Qed.
Print Assumptions C54_pvr_contents.

(** Likewise for KTX, with C26 and its conditions: a 1D texture has one row, and the size of a
    level fits the 32-bit field that announces it. *)
Theorem C54_ktx_contents : forall C (O : ops C) enc psize fl file isnum cap visit visit' args a Y path fuel evs,
  ops_ok O -> enc_sized psize enc -> (forall f w h, psize f w h mod 4 = 0) ->
  (forall m, Permutation (visit m) m) -> (forall m, Permutation (visit' m) m) ->
  parse fl file isnum cap visit args = POk a ->
  N.of_nat (length (c_images a)) < 2 ^ 32 -> single_mode a ->
  c_output a = Some path -> ~ In 0 (codes path) -> (length (codes path) < fuel)%nat ->
  c_ftype a = FT_KTX -> run_tool O visit' fl enc Y fuel a = Some (0, evs) ->
  (forall t r x, In (TvSave t r x) evs ->
     (c_dim a = Dim1D -> height t 0 = 1) /\
     forall m, m < mipLevelCount t -> ktx_level_bytes psize t m < 2 ^ 32) ->
  exists p0 f w h c t bytes n room before p cv,
    nth_error (c_images a) 0 = Some p0 /\ o_load O p0 = Some (f, w, h, c) /\
    y_room Y n = Some room /\
    evs = before ++ [TvSave t SR_Success (Some (firstn (N.to_nat room) bytes))] /\
    read_ktx bytes = Some (p, []) /\
    createConverter fl (c_fmt a) (c_ttyp a) = Some cv /\
    let W := fst (base_size a (fst (asked a w h)) (snd (asked a w h))) in
    let H := snd (base_size a (fst (asked a w h)) (snd (asked a w h))) in
    kx_width p = W /\ kx_height p = (match c_dim a with Dim1D => 0 | _ => H end) /\
    kx_depth p = (match c_dim a with Dim3D => layers a | _ => 0 end) /\
    kx_faces p = (match c_dim a with Cube => 6 | _ => 1 end) /\
    gl_internal_ok (c_fmt a) (c_ttyp a) (c_textureCS a) (kx_internal p) = true /\
    forall k q i, nth_error (c_images a) k = Some q ->
      product O a (fst (asked a w h)) (snd (asked a w h)) 0 q = Some i ->
      let '(face, d) := place (c_imageType a) (N.of_nat k) in
      nth4 (kx_surfaces p) 0 (match c_dim a with Dim3D => 0 | _ => d end) face
           (match c_dim a with Dim3D => d | _ => 0 end)
      = Some (enc cv (convert_args a) (iconvert (o_lib O) i I_RGBAF)).
Proof.
  intros C O enc psize fl file isnum cap visit visit' args a Y path fuel evs OK ES P4 PV PV' E LN SM EO NZ HF FT ER FIT.
  destruct (C54_file C O enc psize fl file isnum cap visit visit' args a Y path fuel evs OK ES PV PV' E LN SM EO NZ HF ER)
    as (p0 & f & w & h & c & t & bytes & n & room & before & E0 & EL & WT & R & SV & EY & EE & _).
  rewrite FT in SV.
  destruct (FIT t SR_Success (Some (firstn (N.to_nat room) bytes))) as [F1 F2].
  { rewrite EE. apply in_or_app. right. left. reflexivity. }
  destruct WT. rewrite <- w_dim in F1.
  destruct (C26_ktx_reads_back C (o_lib O) enc psize t bytes (k_lib _ OK) ES P4 R F1 F2 SV)
    as (p & g & RD & FG & X1 & _ & _ & X2 & X3 & X4 & _ & X5 & _ & _ & XS).
  destruct w_data as (cv & CV & FD & _).
  assert (g = c_fmt a) by congruence. subst g.
  rewrite w_type, w_space in X1. rewrite w_dim in X3, X4, X5.
  exists p0, f, w, h, c, t, bytes, n, room, before, p, cv. cbv zeta. rewrite <- w_size. cbn [fst snd].
  rewrite w_depth in X4.
  repeat (split; [assumption || congruence|]).
  intros k q i Hk Pi. specialize (FD k q i Hk Pi).
  destruct (place (c_imageType a) (N.of_nat k)) as [face d]. destruct FD as (I1 & I2 & I3).
  assert (IR : in_range t face 0 d).
  { split; [|split; assumption]. eapply depth_mips. exact I2. }
  destruct (XS face 0 d IR) as (b & Db & Nb). unfold element_of, slice_of in Nb. rewrite w_dim in Nb.
  rewrite I3 in Db. injection Db as <-. destruct (c_dim a); exact Nb.
Qed.
Print Assumptions C54_ktx_contents.

(** The form and the size of the processed image for a level: it fits that level of the texture,
    except for a custom mip that is both turned and made a normal map. *)
Theorem C54_product : forall C (O : ops C) a W H m p i, ops_ok O ->
  (c_normalMap a = true -> 1 <= W /\ 1 <= H) -> product O a W H m p = Some i ->
  exists c, i = Img (if c_normalMap a then I_RGBF else I_RGBAF) (iwidth i) (iheight i) (c_textureCS a) c /\
  (iwidth i = side (fst (base_size a W H)) m /\ iheight i = side (snd (base_size a W H)) m <->
   m = 0 \/ c_normalMap a = false \/ quarter_turn a = false \/ side W m = side H m).
Proof.
  intros C O a W H m p i OK P E. destruct (product_is O OK a W H m p i P E) as [c ->]. cbn [iwidth iheight].
  exists c. split; [reflexivity|].
  assert (Z1 : 2 ^ m <> 0) by (apply N.pow_nonzero; lia).
  assert (S : forall n, side (N.max 1 n) m = side n m).
  { intros n. unfold side. destruct (N.eq_dec n 0) as [->|]; [|rewrite (N.max_r 1 n) by lia; reflexivity].
    change (N.max 1 0) with 1. rewrite N.div_0_l by exact Z1.
    revert Z1. generalize (2 ^ m). clear. intros q Z1.
    destruct (N.eq_dec q 1) as [->|]; [reflexivity|]. rewrite N.div_small by lia. reflexivity. }
  assert (SM : m <> 0 -> forall n, 1 <= n -> side n m = n -> n = 1).
  { intros NM n Hn En. unfold side in En. destruct (N.eq_dec n 1); [assumption|]. exfalso.
    assert (n / 2 ^ m < n); [|lia]. apply N.div_lt; [lia|]. apply N.pow_gt_1; lia. }
  assert (S0 : forall n, side n 0 = N.max 1 n) by (intros n; unfold side; rewrite N.pow_0_r, N.div_1_r; reflexivity).
  unfold product_size, base_size, turned. destruct (c_normalMap a), (quarter_turn a); cbn [andb fst snd];
    [|destruct (negb _); cbn [fst snd]; rewrite ?S; tauto|rewrite ?S; tauto|rewrite ?S; tauto].
  specialize (P eq_refl).
  destruct (N.eqb_spec (side W m) W) as [EW|NW], (N.eqb_spec (side H m) H) as [EH|NH]; cbn [andb negb fst snd];
    rewrite ?S.
  - split; [|auto]. intros _. destruct (N.eq_dec m 0) as [->|NM]; [left; reflexivity|]. right; right; right.
    rewrite EW, EH. rewrite (SM NM W), (SM NM H) by (assumption || lia). reflexivity.
  - split; [intros [X _]; auto|]. intros [->|[X|[X|X]]]; try discriminate; [|auto]. exfalso. rewrite S0 in NH. lia.
  - split; [intros [X _]; auto|]. intros [->|[X|[X|X]]]; try discriminate; [|auto]. exfalso. rewrite S0 in NW. lia.
  - split; [intros [X _]; auto|]. intros [->|[X|[X|X]]]; try discriminate; [|auto]. exfalso. rewrite S0 in NW. lia.
Qed.
Print Assumptions C54_product.

(** ** Cases *)

(** A library whose contents are numbers; every file holds an image of 8 x 4, except [gone]. *)
Definition load0 (p : string) : option (imgfmt * N * N * N) :=
  if String.eqb p "gone" then None else Some (I_RGB8, 8, 4, N.of_nat (length (codes p))).
Definition O0 : ops N :=
  Ops L0 load0 (fun _ _ _ _ c => Some (c * 10 + 1)) (fun _ _ _ _ c => c * 10 + 2) (fun _ _ _ _ _ c => Some (c * 10 + 3))
    (fun _ _ _ c => c * 10 + 4) (fun _ _ _ c => c * 10 + 5) (fun _ _ _ _ _ _ _ c => c * 10 + 6)
    (fun _ _ _ _ c => c * 10 + 7) (fun _ _ _ _ _ c => c * 10 + 8).
Lemma O0_ok : ops_ok O0.
Proof.
  constructor; [exact L0_ok| | |]; try discriminate.
  intros p f w h c. cbn. unfold load0. destruct (String.eqb p "gone"); [discriminate|]. intros X. injection X as <- <- <- <-. lia.
Qed.

Definition parsed (args : list string) : cl := match parse1 args with POk a => a | _ => cl0 end.
(** The first attempt to open the output file fails, the second has room for [n] bytes. *)
Definition Y0 (n : N) : sys := Sys 4096 (fun k => match k with O => None | _ => Some n end) (fun _ _ => MkOk).
(** A system where everything succeeds. *)
Definition Y1 : sys := Sys 4096 (fun _ => Some 100000) (fun _ _ => MkOk).
Definition run0 (Y : sys) (args : list string) := run_tool O0 asis fl1 enc1 Y 100 (parsed args).

(** What happened, in short. *)
Definition short (e : @tevent N) : N * N * N * N :=
  match e with
  | TvMkdir p => (9, N.of_nat (length p), 0, 0)
  | TvSave t r x => (match r with SR_Success => 0 | SR_WriteError => 1 | _ => 2 end, width t 0, height t 0,
                     match x with Some b => N.of_nat (length b) | None => 0 end)
  end.
Definition story (o : option (N * list (@tevent N))) : option (N * list (N * N * N * N)) :=
  match o with Some (st, evs) => Some (st, map short evs) | None => None end.

Definition args1 : list string :=
  ["-i"; "aa"; "-f"; "r8g8b8a8"; "--rotate"; "90"; "-r"; "16"; "8"; "-m"; "-M"; "1"; "m"; "--create-dir"; "-o"; "dir/o.dds"].

Example C55_example_saved : parse1 args1 = POk (parsed args1) /\ c_output (parsed args1) = Some "dir/o.dds" /\
  single_mode (parsed args1) /\
  story (run0 (Y0 100000) args1) = Some (0, [(1, 8, 16, 0); (9, 3, 0, 0); (0, 8, 16, 832)]).
Proof.
  split; [vm_compute; reflexivity|]. split; [vm_compute; reflexivity|].
  split; [intros X; vm_compute in X; discriminate|]. vm_compute. reflexivity.
Qed.

(** The same with a full disk: the tool does not notice. *)
Example C55_example_full : story (run0 (Y0 100) args1) = Some (0, [(1, 8, 16, 0); (9, 3, 0, 0); (0, 8, 16, 100)]).
Proof. vm_compute. reflexivity. Qed.

Example C55_example_missing : story (run0 (Y0 100000) ["-i"; "gone"; "-f"; "r8g8b8a8"; "-o"; "o.dds"]) = Some (2, []).
Proof. vm_compute. reflexivity. Qed.

Example C55_example_no_slices :
  story (run0 (Y0 100000) ["-d"; "3"; "-i"; "a"; "-f"; "r8g8b8a8"; "-o"; "o.dds"]) = Some (3, []).
Proof. vm_compute. reflexivity. Qed.

Example C54_example_product : match product O0 (parsed args1) 16 8 1 "m" with
  | Some i => (iwidth i, iheight i) = (4, 8)
  | None => False
  end.
Proof. vm_compute. reflexivity. Qed.

(** A run that meets the conditions of [C54_ktx_contents]. *)
Definition args4 : list string := ["-i"; "aa"; "-f"; "r8g8b8a8"; "-r"; "16"; "8"; "-m"; "-o"; "o.ktx"].
Definition fits1 (t : texture N) : bool :=
  forallb (fun m => ktx_level_bytes psize0 t m <? 2 ^ 32) (map N.of_nat (seq 0 (N.to_nat (mipLevelCount t)))).
Example C54_example_ktx : parse1 args4 = POk (parsed args4) /\ c_ftype (parsed args4) = FT_KTX /\
  c_dim (parsed args4) = Dim2D /\ (forall f w h, psize0 f w h mod 4 = 0) /\
  match run0 Y1 args4 with
  | Some (0, [TvSave t SR_Success (Some b)]) =>
      fits1 t = true /\ width t 0 = 16 /\ mipLevelCount t = 5 /\
      match read_ktx b with Some (p, []) => kx_width p = 16 /\ kx_height p = 8 /\ kx_levels p = 5 | _ => False end
  | _ => False
  end.
Proof.
  split; [vm_compute; reflexivity|]. split; [vm_compute; reflexivity|]. split; [vm_compute; reflexivity|].
  split; [reflexivity|]. vm_compute. repeat (split; [reflexivity|]). reflexivity.
Qed.

(** Turned and made a normal map: the processed custom mip is 8 x 4 for a level of 4 x 8. *)
Definition args2 : list string :=
  ["-i"; "aa"; "-f"; "r8g8b8a8"; "--rotate"; "90"; "-n"; "-r"; "16"; "8"; "-m"; "-M"; "1"; "m"; "-o"; "o.dds"].
Theorem C54_turned_normal_refuted : exists fl file isnum cap visit args a (O : ops N) i,
  ops_ok O /\ parse fl file isnum cap visit args = POk a /\
  find_mip (c_customMips a) 0 1 0 = Some (Index 0 1 0, ("m", Continue)) /\
  base_size a 16 8 = (8, 16) /\ product O a 16 8 1 "m" = Some i /\ (iwidth i, iheight i) = (8, 4).
Proof.
  exists fl1, nofile, nonum, 1000, asis, args2, (parsed args2), O0,
    (match product O0 (parsed args2) 16 8 1 "m" with Some i => i | None => NoImage end).
  split; [exact O0_ok|]. do 4 (split; [vm_compute; reflexivity|]). vm_compute; reflexivity.
Qed.

(** Slices of one level of a volume with different replacement modes: undefined behaviour. *)
Definition args3 : list string :=
  ["-d"; "3"; "-a"; "0"; "a"; "-a"; "1"; "b"; "-a"; "2"; "c"; "-a"; "3"; "d"; "-f"; "r8g8b8a8"; "-m";
   "-M"; "1"; "0"; "once"; "m"; "-M"; "1"; "1"; "continue"; "n"; "-o"; "o.dds"].
Theorem C55_mixed_modes_refuted : exists fl file isnum cap visit args a (O : ops N) enc psize Y,
  ops_ok O /\ enc_sized psize enc /\ parse fl file isnum cap visit args = POk a /\ inputs_ok O a /\
  has_extent a 8 4 /\ run_tool O visit fl enc Y 100 a = None.
Proof.
  exists fl1, nofile, nonum, 1000, asis, args3, (parsed args3), O0, enc1, psize0, Y1.
  split; [exact O0_ok|]. split; [exact enc1_sized|]. split; [vm_compute; reflexivity|].
  split; [|split].
  - split.
    + intros p I. cbn in I. vm_compute in I. repeat destruct I as [<-|I]; try contradiction; discriminate.
    + intros p0 f w h c E0 EL k p r I. vm_compute in E0. injection E0 as <-. vm_compute in EL.
      injection EL as <- <- <- <-. vm_compute in I.
      repeat destruct I as [I|I]; try contradiction; injection I as <- <- <-;
        (split; [discriminate|split; [vm_compute; reflexivity|intros X; exfalso; apply X; reflexivity]]).
  - split; [intros X; vm_compute in X; discriminate|intros _; vm_compute; reflexivity].
  - vm_compute. reflexivity.
Qed.

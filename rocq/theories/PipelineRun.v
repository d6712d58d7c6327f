(** Proofs about a whole run of the tool. *)
From Coq Require Import List NArith ZArith Bool String Lia Permutation.
From Coq Require Import ZifyBool ZifyNat ZifyN.
From Verif Require Import Base FormatModel SaveFormats TextureModel TextureSpec TextureProofs PropsTexture PropsMips
  SaveModel SaveSpec SaveProofs PropsSave CommandLineModel CommandLineSpec PropsCommandLine CommandGrammar
  PropsCommandGrammar ToolModel ToolSpec PropsTool PipelineModel PipelineSpec PipelineProofs PipelineBuild.
Import ListNotations.
Local Open Scope list_scope.
Local Open Scope N_scope.
Local Notation length := List.length.
Local Notation build := PipelineModel.build.
Local Notation height := TextureModel.height.

(** ** Facts about an accepted command line *)

Lemma as_int_range z : int_size (as_int z).
Proof. unfold int_size, as_int. lia. Qed.

Lemma size_range s z : size s = Some z -> int_size z.
Proof.
  unfold size. destruct (named size_names s) as [v|] eqn:E.
  - intros H. injection H as <-. apply named_in in E. unfold int_size. cbn in E.
    repeat (destruct E as [<-|E]; [lia|]). contradiction.
  - destruct (integer s); [|discriminate]. intros H. injection H as <-. apply as_int_range.
Qed.

Lemma spelled_sizes fl isnum args ds : spelled fl isnum args ds ->
  forall v v', int_size v -> int_size v' ->
  int_size (last_of (fun d => match d with D_resize w _ _ => Some w | _ => None end) v ds) /\
  int_size (last_of (fun d => match d with D_resize _ h _ => Some h | _ => None end) v' ds).
Proof.
  induction 1 as [|o h ops rest d ds W P S IH]; intros v v' Hv Hv'; [split; assumption|].
  unfold last_of in *. cbn [fold_left]. apply IH.
  - destruct P; try exact Hv. eapply size_range; eauto.
  - destruct P; try exact Hv'. eapply size_range; eauto.
Qed.

Lemma parse_facts fl file isnum cap visit args a : (forall m, Permutation (visit m) m) ->
  parse fl file isnum cap visit args = POk a -> N.of_nat (length (c_images a)) < 2 ^ 32 -> facts fl a.
Proof.
  intros PV E LN. destruct (C41_consistent _ _ _ _ _ _ _ E) as (_ & _ & K & _ & _ & _ & V & S).
  destruct (C41_custom_mips _ _ _ _ _ _ _ PV E LN) as (M1 & M2 & M3 & M4).
  constructor; auto.
  - destruct (C52_settings _ _ _ _ _ _ _ E) as (ds & Sp & ST). unfold sizes_ok.
    rewrite (m_width _ _ ST), (m_height _ _ ST). apply (spelled_sizes _ _ _ _ Sp); unfold int_size; lia.
  - unfold isFormatValidFile in V. destruct (isFormatValid _ _ _); [reflexivity|discriminate].
  - intros k v I. apply (M3 k v I).
Qed.

Section P.
Context {C : Type}.
Variable O : ops C.
Notation L := (o_lib O).
Variable enc : converter -> convargs -> image C -> list N.
Variable psize : format -> N -> N -> N.
Hypothesis OK : ops_ok O.
Hypothesis ES : enc_sized psize enc.
Let OKL : lib_ok L := k_lib _ OK.

Lemma convert_ok fl a W H t1 : facts fl a -> pictured O enc a W H t1 ->
  exists t, convert fl enc t1 (convert_args a) = (true, t) /\ wanted O fl enc a W H t /\
    reachable L enc t /\ converted t = true.
Proof.
  intros F Q. destruct (C15_convert C L enc t1 OKL (q_reach _ _ _ _ _ _ Q) fl (convert_args a)) as (b & t & E & B1 & _ & B2).
  assert (b = true) as ->.
  { apply B1. split; [apply Q|]. split; [apply F|]. rewrite (q_space _ _ _ _ _ _ Q). apply F. }
  destruct (B2 eq_refl) as (X1 & X2 & X3 & X4 & X5 & _ & X6 & X7 & X8 & X9 & X10 & X11 & cv & CV & DT).
  assert (R : reachable L enc t).
  { apply (R_call L enc t1 (CConvert fl (convert_args a)) true t (q_reach _ _ _ _ _ _ Q)); [split; exact I|exact E]. }
  cbn [step] in E. injection E as E. exists t. split; [exact E|]. split; [|auto].
  pose proof (a_kind _ _ F) as K.
  assert (EW : forall m, width t m = width t1 m) by (intros; apply X11).
  assert (EH : forall m, height t m = height t1 m) by (intros; apply X11).
  assert (ED : forall m, depth t m = depth t1 m) by (intros; apply X11).
  assert (IRE : forall f m d, in_range t f m d -> in_range t1 f m d).
  { intros f m d (I1 & I2 & I3). split; [rewrite <- X10; exact I1|]. split; [rewrite <- ED; exact I2|rewrite <- X7; exact I3]. }
  assert (CC : forall f d m, custom_content O a W H t f d m = custom_content O a W H t1 f d m).
  { intros f d m. unfold custom_content. rewrite EW, EH. reflexivity. }
  assert (DA : forall f m d i, in_range t1 f m d -> getImageF t1 f m d = Some i ->
    dataF t f m d = Some (Some (enc cv (convert_args a) i))).
  { intros f m d i IR G. destruct (DT f m d IR) as (_ & j & Gj & _ & D). congruence. }
  assert (PR : forall k p, nth_error (c_images a) k = Some p -> forall m, m < mipLevelCount t1 -> c_dim a <> Dim3D \/ m = 0 ->
    in_range t1 (fst (place (c_imageType a) (N.of_nat k))) m (snd (place (c_imageType a) (N.of_nat k)))).
  { intros k p Hk m Hm D. assert (LK : (k < length (c_images a))%nat) by (apply nth_error_Some; congruence).
    destruct (place_range a k K LK) as [P1 P2]. split; [exact Hm|]. split.
    - destruct D as [D| ->]; [|rewrite (q_depth _ _ _ _ _ _ Q); exact P2].
      destruct (q_extents _ _ _ _ _ _ Q m Hm) as (_ & _ & ->). destruct (c_dim a); try exact P2. congruence.
    - rewrite (q_faces _ _ _ _ _ _ Q). destruct (kind_cube a K) as [K1 K2]. destruct (is_cube (c_imageType a)).
      + rewrite K2 by reflexivity. exact P1.
      + destruct (c_dim a); lia. }
  assert (L0 : 0 < mipLevelCount t1).
  { assert (D0 : depth t1 0 <> 0).
    { rewrite (q_depth _ _ _ _ _ _ Q), (layers_depth a K). lia. }
    destruct t1 as [i|]; [|cbn in D0; congruence]. cbn [depth mipLevelCount] in *.
    destruct (N.leb_spec (t_mips i) 0); lia. }
  cbn [convert_args ca_format ca_type ca_alpha ca_mask] in X1, X2, X3, X4, CV.
  destruct Q. constructor; try congruence.
  - intros m Hm. rewrite !EW, !EH, ED. apply q_extents. congruence.
  - exists cv. split; [exact CV|]. split; [|split; [|split]].
    + intros k p i Hk Pi. specialize (q_first k p i Hk Pi). pose proof (PR k p Hk 0 L0 (or_intror eq_refl)) as IR.
      destruct (place (c_imageType a) (N.of_nat k)) as [f d]. cbn [fst snd] in *.
      rewrite X7, ED. split; [apply IR|]. split; [apply IR|]. apply DA; assumption.
    + intros f m d i r IR E1. rewrite CC in E1. apply DA; [exact (IRE _ _ _ IR)|]. eapply q_custom; eauto.
    + intros ND NO k p i Hk Pi m Hm. rewrite X10 in Hm.
      assert (NO' : no_once_at_end a t1). { intros k' p' I. rewrite <- X10. exact (NO k' p' I). }
      specialize (q_chain ND NO' k p i Hk Pi m Hm). pose proof (PR k p Hk m Hm (or_introl ND)) as IR.
      destruct (place (c_imageType a) (N.of_nat k)) as [f d]. cbn [fst snd] in *. cbv zeta in *.
      apply DA; [exact IR|]. rewrite q_chain. f_equal. f_equal. apply chain_ext.
      * intros n x. rewrite EW, EH. reflexivity.
      * intros n _. symmetry. apply CC.
    + intros D bases F2 m d Hm Hd. rewrite X10 in Hm. rewrite ED in Hd.
      destruct (q_volume D bases F2 m d Hm Hd) as (i & N1 & G1). exists i. split.
      * rewrite <- N1. f_equal. f_equal. apply chain_ext.
        -- intros n x. unfold gen_slices, gen_image. rewrite EW, EH, ED, X8. reflexivity.
        -- intros n _. unfold custom_volume. rewrite CC. destruct (custom_content O a W H t1 0 0 n) as [[x r]|]; [|reflexivity].
           rewrite ED. f_equal. f_equal. apply map_ext. intros e. rewrite CC. reflexivity.
      * apply DA; [|exact G1]. split; [exact Hm|]. split; [exact Hd|]. rewrite q_faces, D. lia.
Qed.

Lemma attempts fl a W H t path bufsize room : facts fl a ->
  c_ftype a <> FT_Auto -> isFormatValidFile fl (c_fmt a) (c_ttyp a) (c_ftype a) = true ->
  wanted O fl enc a W H t -> reachable L enc t -> converted t = true ->
  exists r c, saveFile bufsize room t (Some path) (c_ftype a) = Some (r, c) /\ attempt a t room r c /\
    (r = SR_Success \/ r = SR_WriteError).
Proof.
  intros F NA V WT R CV.
  assert (FV : isFormatValid fl (c_fmt a) (typeOf t) = true) by (rewrite (w_type _ _ _ _ _ _ _ WT); apply F).
  destruct (C03_supported_iff C L enc psize fl t (c_fmt a) (c_ftype a) OKL ES R CV (w_format _ _ _ _ _ _ _ WT) FV NA
              _ mem_put mem_good []) as (r & file & E & S & _).
  rewrite (w_type _ _ _ _ _ _ _ WT) in S. specialize (S V).
  assert (r = SR_Success) as ->.
  { destruct S as [S|S]; [exact S|]. exfalso. subst r.
    destruct (save_form L enc psize t (c_ftype a) fl OKL ES R CV) as [(VF & RF)|(VF & cs & [_ WR] & _)]; auto.
    - unfold fmt. rewrite (w_format _ _ _ _ _ _ _ WT). exact FV.
    - rewrite RF in E. discriminate.
    - rewrite WR, run_mem in E. discriminate. }
  destruct room as [n|].
  - destruct (C28_file C L enc psize t (c_ftype a) file OKL ES R E bufsize n path) as (r & c & E1 & E2 & E3 & E4).
    exists r, (Some c). split; [exact E1|]. split; [|exact E4]. exists file. split; [exact E|].
    split; [congruence|]. split; [exact E4|]. intros LE. apply (E3 LE).
  - exists SR_WriteError, None. split; [|split; [|auto]].
    + unfold saveFile. rewrite CV. reflexivity.
    + exists file. auto.
Qed.

Variable visit : list (index * (string * replacement)) -> list (index * (string * replacement)).
Hypothesis PV : forall m, Permutation (visit m) m.
Variable Y : sys.

Lemma levels_same a W H : facts fl1 a \/ N.of_nat (length (c_images a)) < 2 ^ 32 ->
  load_levels a W H = N.min (c_mipLevels a) (most_levels a W H).
Proof.
  intros H0. assert (LN : N.of_nat (length (c_images a)) < 2 ^ 32) by (destruct H0 as [[]|]; assumption).
  unfold load_levels, most_levels, to_uint. rewrite N.mod_small by exact LN. reflexivity.
Qed.

(** The tool decides about its inputs. *)
Lemma load_decides fl a : facts fl a -> exists x, loadImages O visit a = Some x /\
  (x = None <-> ~ inputs_ok O a) /\
  (forall is cm, x = Some (is, cm) -> exists p0 f w h c,
     nth_error (c_images a) 0 = Some p0 /\ o_load O p0 = Some (f, w, h, c) /\
     products O a (fst (asked a w h)) (snd (asked a w h)) (c_images a) = Some is /\
     cm = map (mip_of O a (fst (asked a w h)) (snd (asked a w h))) (visit (c_customMips a)) /\
     forallb (mip_ok O a (load_levels a (fst (asked a w h)) (snd (asked a w h)))) (visit (c_customMips a)) = true /\
     fst (asked a w h) < unset /\ snd (asked a w h) < unset).
Proof.
  intros F. pose proof (a_kind _ _ F) as K. pose proof (kind_count _ K) as KC.
  destruct (nth_error (c_images a) 0) as [p0|] eqn:E0; [|apply nth_error_None in E0; lia].
  rewrite (loadImages_form O visit OK a p0 (a_sizes _ _ F) E0).
  destruct (o_load O p0) as [[[[f w] h] c]|] eqn:EL.
  2:{ exists None. split; [reflexivity|]. split; [|discriminate]. split; [|reflexivity].
      intros _ [I _]. apply (I p0); [eapply nth_error_In; eauto|exact EL]. }
  cbv zeta. destruct (asked_range O OK a p0 f w h c (a_sizes _ _ F) EL) as [A1 A2].
  set (W := fst (asked a w h)) in *. set (H := snd (asked a w h)) in *.
  destruct (products O a W H (c_images a)) as [is|] eqn:EP.
  2:{ exists None. split; [reflexivity|]. split; [|discriminate]. split; [|reflexivity].
      intros _ [I _]. apply (products_some O a W H) in I. destruct I as [is I]. congruence. }
  destruct (forallb _ _) eqn:EB.
  - exists (Some (is, map (mip_of O a W H) (visit (c_customMips a)))). split; [reflexivity|]. split.
    + split; [discriminate|]. intros NI. exfalso. apply NI. split.
      * apply (products_some O a W H). eauto.
      * intros q f' w' h' c' E1 E2 k p r I.
        assert (q = p0) by congruence. subst q. rewrite EL in E2. injection E2 as <- <- <- <-. fold W H.
        rewrite forallb_forall in EB.
        assert (I' : In (k, (p, r)) (visit (c_customMips a))) by (eapply Permutation_in; [symmetry; apply PV|exact I]).
        specialize (EB _ I'). unfold mip_ok in EB. cbn [fst snd] in EB.
        rewrite levels_same in EB by (right; apply F).
        destruct (o_load O p); [|rewrite andb_false_r in EB; discriminate]. split; [discriminate|]. split; [lia|].
        intros NF. destruct (N.eqb_spec (x_face k) 0); [contradiction|].
        destruct (c_dim a); try reflexivity; rewrite andb_false_r in EB; discriminate.
    + intros is' cm' E. injection E as <- <-. exists p0, f, w, h, c. repeat split; auto.
  - exists None. split; [reflexivity|]. split; [|discriminate]. split; [|reflexivity].
    intros _ [_ I]. specialize (I p0 f w h c E0 EL).
    assert (X : forallb (mip_ok O a (load_levels a W H)) (visit (c_customMips a)) = true).
    { apply forallb_forall. intros [k [p r]] I'.
      assert (I'' : In (k, (p, r)) (c_customMips a)) by (eapply Permutation_in; [apply PV|exact I']).
      destruct (I k p r I'') as (J1 & J2 & J3). unfold mip_ok. cbn [fst snd].
      rewrite levels_same by (right; apply F). unfold W, H in *.
      destruct (o_load O p); [|congruence].
      destruct (N.leb_spec (N.min (c_mipLevels a) (most_levels a (fst (asked a w h)) (snd (asked a w h)))) (x_level k)); [lia|].
      destruct (N.eqb_spec (x_face k) 0) as [|NF]; [reflexivity|]. rewrite (J3 NF). reflexivity. }
    congruence.
Qed.

(** Without pixels there is no texture. *)
Lemma build_none fl a W H is cm : facts fl a -> ~ has_extent a W H ->
  products O a W H (c_images a) = Some is -> build O a is cm = Some None.
Proof.
  intros F NE EP. pose proof (a_kind _ _ F) as K. pose proof (kind_count _ K) as KC.
  destruct (products_nth O a W H _ _ EP) as [EL EN].
  destruct is as [|i0 rest]; [cbn in EL; lia|]. unfold build.
  assert (EI : snd (initialize (C:=C) (c_dim a) (iwidth i0) (iheight i0)
     (match c_imageType a with IT_Array => to_uint (N.of_nat (length (i0 :: rest)))
      | IT_CubeArray => to_uint (N.of_nat (length (i0 :: rest)) / 6) | _ => 0 end) 1 (c_textureCS a)) = None).
  { unfold initialize.
    assert (D : (c_normalMap a = true /\ (W = 0 \/ H = 0)) \/ (c_dim a = Dim3D /\ c_imageType a <> IT_Array)).
    { unfold has_extent in NE. destruct (c_normalMap a); destruct (N.eq_dec W 0); destruct (N.eq_dec H 0); auto;
        right; destruct (c_dim a); try (exfalso; apply NE; split; intros; (lia || congruence));
        (split; [reflexivity|intros E; apply NE; split; intros; (lia || congruence)]). }
    destruct D as [[N1 Z]|[D1 D2]].
    - destruct (nth_error (c_images a) 0) as [p0|] eqn:E0; [|apply nth_error_None in E0; lia].
      destruct (EN 0%nat p0 E0) as (x & Ex & Px). injection Ex as <-. unfold product in Px.
      destruct (o_load O p0) as [[[[f w] h] c]|]; [|discriminate].
      rewrite (product_none O a f w h c W H 0 N1 Z) in Px. injection Px as <-. reflexivity.
    - rewrite D1. unfold kind_ok in K. destruct (c_imageType a); try congruence; try (destruct K; congruence).
      cbn. rewrite orb_true_r. reflexivity. }
  rewrite EI, fill_none. cbn [obind]. destruct (1 <? c_mipLevels a); reflexivity.
Qed.

(** A whole run. *)
Lemma run_cases fl a path fuel : facts fl a -> single_mode a ->
  c_output a = Some path -> ~ In 0 (codes path) -> (length (codes path) < fuel)%nat ->
  c_ftype a <> FT_Auto -> isFormatValidFile fl (c_fmt a) (c_ttyp a) (c_ftype a) = true ->
  exists st evs, run_tool O visit fl enc Y fuel a = Some (st, evs) /\
  ((st = 2 /\ evs = [] /\ ~ inputs_ok O a) \/
   (inputs_ok O a /\ exists p0 f w h c, nth_error (c_images a) 0 = Some p0 /\ o_load O p0 = Some (f, w, h, c) /\
    let W := fst (asked a w h) in let H := snd (asked a w h) in
    ((~ has_extent a W H /\ st = 3 /\ evs = []) \/
     (has_extent a W H /\ exists t, wanted O fl enc a W H t /\ reachable L enc t /\ converted t = true /\
        saving Y a (codes path) t st evs)))).
Proof.
  intros F SM EO NZ HF NA V.
  destruct (load_decides fl a F) as (x & LD & X1 & X2).
  destruct x as [[is cm]|].
  2:{ exists 2, []. split; [unfold run_tool; rewrite LD; reflexivity|]. left. split; [reflexivity|]. split; [reflexivity|]. apply X1. reflexivity. }
  destruct (X2 is cm eq_refl) as (p0 & f & w & h & c & E0 & EL & EP & EC & EM & A1 & A2).
  set (W := fst (asked a w h)) in *. set (H := snd (asked a w h)) in *.
  assert (IN : inputs_ok O a).
  { split.
    - apply (products_some O a W H). eauto.
    - intros q f' w' h' c' E1 E2 k p r I.
      assert (q = p0) by congruence. subst q. rewrite EL in E2. injection E2 as <- <- <- <-. fold W H.
      rewrite forallb_forall in EM.
      assert (I' : In (k, (p, r)) (visit (c_customMips a))) by (eapply Permutation_in; [symmetry; apply PV|exact I]).
      specialize (EM _ I'). unfold mip_ok in EM. cbn [fst snd] in EM.
      rewrite levels_same in EM by (right; apply F).
      destruct (o_load O p); [|rewrite andb_false_r in EM; discriminate]. split; [discriminate|]. split; [lia|].
      intros NF. destruct (N.eqb_spec (x_face k) 0); [contradiction|].
      destruct (c_dim a); try reflexivity; rewrite andb_false_r in EM; discriminate. }
  clear X1 X2.
  assert (DX : has_extent a W H \/ ~ has_extent a W H).
  { unfold has_extent. destruct (c_normalMap a), (c_dim a), (c_imageType a); destruct (N.eq_dec W 0), (N.eq_dec H 0);
      try (left; split; intros; (lia || congruence));
      right; intros [Z1 Z2]; try (specialize (Z1 eq_refl); lia); specialize (Z2 eq_refl); discriminate. }
  destruct DX as [EX|NX].
  - destruct (build_ok O enc OK fl a W H is (visit (c_customMips a)) (load_levels a W H) F SM EX A1 A2 (PV _) EM EP)
      as (t1 & B1 & Q1 & _).
    destruct (convert_ok fl a W H t1 F Q1) as (t & T1 & WT & R & CV).
    destruct (attempts fl a W H t (codes path) (y_bufsize Y) (y_room Y 0) F NA V WT R CV) as (r0 & c0 & S0 & AT0 & D0).
    assert (FIN : forall st evs, run_tool O visit fl enc Y fuel a = Some (st, evs) -> saving Y a (codes path) t st evs ->
      exists st evs, run_tool O visit fl enc Y fuel a = Some (st, evs) /\
      ((st = 2 /\ evs = [] /\ ~ inputs_ok O a) \/
       (inputs_ok O a /\ exists p0 f w h c, nth_error (c_images a) 0 = Some p0 /\ o_load O p0 = Some (f, w, h, c) /\
        let W := fst (asked a w h) in let H := snd (asked a w h) in
        ((~ has_extent a W H /\ st = 3 /\ evs = []) \/
         (has_extent a W H /\ exists t, wanted O fl enc a W H t /\ reachable L enc t /\ converted t = true /\
        saving Y a (codes path) t st evs))))).
    { intros st evs E1 E2. exists st, evs. split; [exact E1|]. right. split; [exact IN|].
      exists p0, f, w, h, c. split; [exact E0|]. split; [exact EL|]. cbv zeta. fold W H. right.
      split; [exact EX|]. exists t. auto. }
    assert (RT : run_tool O visit fl enc Y fuel a = obind (save_texture O fl enc Y fuel a is cm)
                   (fun r => Some ((if fst r then 0 else 3), snd r))).
    { unfold run_tool. rewrite LD. reflexivity. }
    assert (SV : save_texture O fl enc Y fuel a is cm =
      match r0 with
      | SR_Success => Some (true, [TvSave t r0 c0])
      | SR_WriteError =>
          if c_createOutputDir a then
            obind (createParentDir fuel (y_mkdir Y) (codes path)) (fun d =>
            if negb (fst d) then Some (false, TvSave t r0 c0 :: map TvMkdir (snd d))
            else obind (saveFile (y_bufsize Y) (y_room Y 1) t (Some (codes path)) (c_ftype a)) (fun rc' =>
                 Some (match fst rc' with SR_Success => true | _ => false end,
                       (TvSave t r0 c0 :: map TvMkdir (snd d)) ++ [TvSave t (fst rc') (snd rc')])))
          else Some (false, [TvSave t r0 c0])
      | _ => Some (false, [TvSave t r0 c0])
      end).
    { unfold save_texture. rewrite EC, B1. cbn [obind]. rewrite T1. cbn [negb]. rewrite EO, S0. reflexivity. }
    destruct D0 as [-> | ->].
    + apply (FIN 0 [TvSave t SR_Success c0]); [rewrite RT, SV; reflexivity|]. apply saved. exact AT0.
    + destruct (c_createOutputDir a) eqn:ECD.
      2:{ apply (FIN 3 [TvSave t SR_WriteError c0]); [rewrite RT, SV; reflexivity|]. apply not_saved; assumption. }
      destruct (C45_calls (y_mkdir Y) (codes path) fuel NZ HF) as (ok & calls & EPD & CS).
      rewrite EPD in SV. cbn [obind fst snd] in SV.
      destruct CS as [(-> & -> & CS)|(-> & pre & p & rest & CP & -> & CE & CS)].
      * destruct (attempts fl a W H t (codes path) (y_bufsize Y) (y_room Y 1) F NA V WT R CV) as (r1 & c1 & S1 & AT1 & D1).
        cbn [negb] in SV. rewrite S1 in SV. cbn [obind fst snd] in SV.
        apply (FIN (match r1 with SR_Success => 0 | _ => 3 end)
                   (TvSave t SR_WriteError c0 :: map TvMkdir (parents (codes path)) ++ [TvSave t r1 c1])).
        -- rewrite RT, SV. cbn [obind fst snd]. f_equal. f_equal. destruct D1 as [-> | ->]; reflexivity.
        -- apply (saved_again Y a (codes path) t c0 r1 c1); assumption.
      * cbn [negb] in SV. apply (FIN 3 (TvSave t SR_WriteError c0 :: map TvMkdir (pre ++ [p]))).
        -- rewrite RT, SV. reflexivity.
        -- apply (no_directory Y a (codes path) t c0 pre p rest); assumption.
  - exists 3, []. split.
    + unfold run_tool. rewrite LD. cbn [obind]. unfold save_texture. rewrite (build_none fl a W H is cm F NX EP). reflexivity.
    + right. split; [exact IN|]. exists p0, f, w, h, c. split; [exact E0|]. split; [exact EL|]. cbv zeta. fold W H. auto.
Qed.

End P.

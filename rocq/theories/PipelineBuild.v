(** Proofs about the texture the tool builds. *)
From Coq Require Import List NArith ZArith Bool String Lia Permutation.
From Coq Require Import ZifyBool ZifyNat ZifyN.
From Verif Require Import Base FormatModel TextureModel TextureSpec TextureProofs PropsTexture PropsMips
  CommandLineModel CommandLineSpec ToolModel PipelineModel PipelineSpec PipelineProofs.
Import ListNotations.
Local Open Scope list_scope.
Local Open Scope N_scope.
Local Notation length := List.length.

Section P.
Context {C : Type}.
Variable O : ops C.
Notation L := (o_lib O).
Variable enc : converter -> convargs -> image C -> list N.
Hypothesis OK : ops_ok O.
Let OKL : lib_ok L := k_lib _ OK.

(** ** Filling the first level *)

(** What setImage does not change. *)
Record same (t t' : texture C) : Prop := Same {
  e_dim : dimensionOf t' = dimensionOf t;
  e_cs : colorSpaceOf t' = colorSpaceOf t;
  e_faces : faceCount t' = faceCount t;
  e_mips : mipLevelCount t' = mipLevelCount t;
  e_array : isArray t' = isArray t;
  e_conv : converted t' = converted t;
  e_ext : forall k, width t' k = width t k /\ height t' k = height t k /\ depth t' k = depth t k
}.

Lemma same_refl t : same t t.
Proof. constructor; auto. Qed.

Lemma same_trans t1 t2 t3 : same t1 t2 -> same t2 t3 -> same t1 t3.
Proof.
  intros [] []. constructor; try congruence.
  intros k. destruct (e_ext0 k) as (? & ? & ?), (e_ext1 k) as (? & ? & ?). repeat split; congruence.
Qed.

Lemma same_range t t' f m d : same t t' -> in_range t' f m d <-> in_range t f m d.
Proof. intros [? ? EF EM ? ? EE]. unfold in_range. destruct (EE m) as (_ & _ & ->). rewrite EF, EM. tauto. Qed.

Lemma same_size t t' m i : same t t' -> has_level_size t' m i <-> has_level_size t m i.
Proof. intros [? ? ? ? ? ? EE]. unfold has_level_size. destruct (EE m) as (-> & -> & _). tauto. Qed.

(** Where the loops of the tool put the image number [k]. *)
Definition pos (kind : imagetype) (k : N) : N * N :=
  match kind with IT_Image => (0, k) | _ => place kind k end.

Lemma pos_inj kind k k' : pos kind k = pos kind k' -> k = k'.
Proof. destruct kind; cbn; intros E; injection E; lia. Qed.

Definition is_cube (kind : imagetype) : bool :=
  match kind with IT_Cube | IT_CubeArray => true | _ => false end.

Lemma fill_ok kind : forall images t i, reachable L enc t ->
  faceCount t = (if is_cube kind then 6 else 1) ->
  (forall j im, nth_error images j = Some im ->
     in_range t (fst (pos kind (i + N.of_nat j))) 0 (snd (pos kind (i + N.of_nat j))) /\ has_level_size t 0 im) ->
  exists t', fill O kind t i images = Some t' /\ reachable L enc t' /\ same t t' /\
    (forall j im, nth_error images j = Some im ->
       getImageF t' (fst (pos kind (i + N.of_nat j))) 0 (snd (pos kind (i + N.of_nat j)))
       = Some (as_stored L t im)) /\
    (forall f d, f < 6 -> (forall j, (j < length images)%nat -> (f, d) <> pos kind (i + N.of_nat j)) ->
       getImageF t' f 0 d = getImageF t f 0 d).
Proof.
  induction images as [|im r IH]; intros t i R FC HI; cbn [fill].
  - exists t. split; [reflexivity|]. split; [exact R|]. split; [apply same_refl|]. split; [|auto].
    intros [|j] im; discriminate.
  - destruct (HI 0%nat im eq_refl) as [IR HS]. rewrite N.add_0_r in IR.
    destruct (pos kind i) as [f d] eqn:EP. cbn [fst snd] in IR.
    assert (F6 : f < 6) by (destruct IR as (_ & _ & IF); destruct (is_cube kind); lia).
    destruct (C09_setImage C L enc t OKL R im f 0 d F6) as (b & t1 & E1 & B1 & _ & B2).
    assert (b = true) as -> by (apply B1; auto). destruct (B2 eq_refl) as (G1 & G2 & X1 & X2 & X3 & X4 & X5 & X6 & X7 & X8).
    assert (S1 : same t t1) by (constructor; auto).
    assert (R1 : reachable L enc t1).
    { apply (R_call L enc t (CSetF im f 0 d) true t1 R); [split; [exact F6|exact I]|exact E1]. }
    assert (ES : match kind with
                 | IT_Image | IT_Array => setImage L t im 0 i
                 | IT_Cube => setImageF L t im i 0 0
                 | IT_CubeArray => setImageF L t im (i mod 6) 0 (i / 6)
                 end = Some (true, t1)).
    { destruct kind; cbn [pos place] in EP; injection EP as <- <-; cbn [is_cube] in FC; try exact E1;
        destruct (C09_no_face C L enc t OKL R im 0 i) as [-> _]; rewrite FC; exact E1. }
    rewrite ES. cbn [obind snd].
    assert (AS : forall x, as_stored L t1 x = as_stored L t x) by (intros x; unfold as_stored; rewrite (e_cs _ _ S1); reflexivity).
    destruct (IH t1 (i + 1) R1) as (t' & E' & R' & S' & P1 & P2).
    + rewrite (e_faces _ _ S1). exact FC.
    + intros j x Hj. replace (i + 1 + N.of_nat j) with (i + N.of_nat (S j)) by lia.
      rewrite (same_range _ _ _ _ _ S1), (same_size _ _ _ _ S1). apply HI. exact Hj.
    + exists t'. split; [exact E'|]. split; [exact R'|]. split; [exact (same_trans _ _ _ S1 S')|]. split.
      * intros [|j] x Hj.
        -- injection Hj as <-. rewrite N.add_0_r, EP. cbn [fst snd]. rewrite P2; [exact G1|exact F6|].
           intros j _ E. rewrite <- EP in E. apply pos_inj in E. lia.
        -- replace (i + N.of_nat (S j)) with (i + 1 + N.of_nat j) by lia. rewrite (P1 j x Hj), AS. reflexivity.
      * intros f' d' Hf' NE. rewrite P2; [|exact Hf'|].
        -- apply G2; [exact Hf'|]. intros E. injection E as -> ->. apply (NE 0%nat); [cbn; lia|].
           rewrite N.add_0_r. symmetry. exact EP.
        -- intros j Hj. replace (i + 1 + N.of_nat j) with (i + N.of_nat (S j)) by lia. apply NE. cbn. lia.
Qed.

Lemma fill_none kind : forall images i, fill O kind None i images = Some None.
Proof.
  induction images as [|im r IH]; intros i; [reflexivity|]. cbn [fill].
  assert (E : match kind with
              | IT_Image | IT_Array => setImage L None im 0 i
              | IT_Cube => setImageF L None im i 0 0
              | IT_CubeArray => setImageF L None im (i mod 6) 0 (i / 6)
              end = Some (false, None)).
  { assert (D : forall d, depth (@None (impl C)) 0 <=? d = true) by (intros d; apply N.leb_le; cbn; lia).
    destruct kind; unfold setImage, setImageF; rewrite D; reflexivity. }
  rewrite E. cbn [obind snd]. apply IH.
Qed.

(** ** Custom mips *)

Lemma find_mip_in l f m d e : find_mip l f m d = Some e ->
  In e l /\ x_face (fst e) = f /\ x_level (fst e) = m /\ x_depth (fst e) = d.
Proof.
  intros E. apply find_some in E. destruct E as [I E]. split; [exact I|]. lia.
Qed.

Lemma find_mip_none l f m d : find_mip l f m d = None ->
  forall v, ~ In (Index f m d, v) l.
Proof.
  intros E v I. apply (find_none _ _ E) in I. cbn in I. lia.
Qed.

Lemma nodup_unique {A B} (l : list (A * B)) k v v' : NoDup (map fst l) -> In (k, v) l -> In (k, v') l -> v = v'.
Proof.
  induction l as [|[a b] l IH]; cbn; intros ND H1 H2; [contradiction|]. inversion ND as [|x y N1 N2]; subst.
  destruct H1 as [H1|H1], H2 as [H2|H2].
  - congruence.
  - injection H1 as -> ->. exfalso. apply N1. apply (in_map fst) in H2. exact H2.
  - injection H2 as -> ->. exfalso. apply N1. apply (in_map fst) in H1. exact H1.
  - apply IH; auto.
Qed.

Lemma find_mip_found l f m d v : NoDup (map fst l) -> In (Index f m d, v) l ->
  find_mip l f m d = Some (Index f m d, v).
Proof.
  intros ND I. destruct (find_mip l f m d) as [[k v']|] eqn:E.
  - apply find_mip_in in E. destruct E as (I' & E1 & E2 & E3). destruct k as [f' m' d'].
    cbn in E1, E2, E3. subst. f_equal. f_equal. eapply nodup_unique; eauto.
  - exfalso. exact (find_mip_none _ _ _ _ E v I).
Qed.

Lemma find_mip_perm l l' f m d : Permutation l' l -> NoDup (map fst l) -> find_mip l' f m d = find_mip l f m d.
Proof.
  intros P ND. assert (ND' : NoDup (map fst l')).
  { eapply Permutation_NoDup; [|exact ND]. apply Permutation_map. symmetry. exact P. }
  destruct (find_mip l f m d) as [[k v]|] eqn:E.
  - apply find_mip_in in E. destruct E as (I & E1 & E2 & E3). destruct k as [f' m' d'].
    cbn in E1, E2, E3. subst. apply find_mip_found; [exact ND'|]. eapply Permutation_in; [symmetry; exact P|exact I].
  - destruct (find_mip l' f m d) as [[k v]|] eqn:E'; [|reflexivity].
    apply find_mip_in in E'. destruct E' as (I & E1 & E2 & E3). destruct k as [f' m' d'].
    cbn in E1, E2, E3. subst. exfalso. apply (find_mip_none _ _ _ _ E v). eapply Permutation_in; eauto.
Qed.

Lemma cfind_mips a W H l f m d :
  cfind (map (mip_of O a W H) l) f m d =
  match find_mip l f m d with Some e => Some (snd (mip_of O a W H e)) | None => None end.
Proof.
  induction l as [|[[xf xm xd] [p r]] l IH]; [reflexivity|]. cbn [map cfind mip_of x_face x_level x_depth].
  unfold find_mip in *. cbn [find fst x_face x_level x_depth key_eqb].
  destruct ((xf =? f) && (xm =? m) && (xd =? d)); [reflexivity|exact IH].
Qed.

(** ** What is known of an accepted command line *)

Record facts (fl : flags) (a : cl) : Prop := Facts {
  a_kind : kind_ok a;
  a_count : N.of_nat (length (c_images a)) < 2 ^ 32;
  a_sizes : sizes_ok a;
  a_valid : isFormatValid fl (c_fmt a) (c_ttyp a) = true;
  a_srgb : c_textureCS a = CS_sRGB -> hasNativeSRGB (c_fmt a) (c_ttyp a) = true;
  a_mips : c_customMips a <> [] -> 1 < c_mipLevels a;
  a_nodup : NoDup (map fst (c_customMips a));
  a_levels : forall k v, In (k, v) (c_customMips a) -> x_level k <> 0;
  a_cover : c_dim a = Dim3D -> (forall k v, In (k, v) (c_customMips a) -> x_face k = 0) ->
    forall k v d, In (k, v) (c_customMips a) ->
    d < level_depth (N.of_nat (length (c_images a))) (x_level k) ->
    exists v', In (Index 0 (x_level k) d, v') (c_customMips a)
}.

Lemma kind_count a : kind_ok a -> (0 < length (c_images a))%nat.
Proof.
  unfold kind_ok. destruct (c_imageType a); intros [H _].
  - lia.
  - destruct (c_images a); [congruence|cbn; lia].
  - lia.
  - destruct H as (n & N1 & N2). lia.
Qed.

Lemma kind_cube a : kind_ok a -> (c_dim a = Cube <-> is_cube (c_imageType a) = true).
Proof.
  unfold kind_ok. destruct (c_imageType a); cbn [is_cube]; intros [_ H]; split; congruence.
Qed.

Definition made_depth (a : cl) : N :=
  match c_imageType a with
  | IT_Array => N.of_nat (length (c_images a))
  | IT_CubeArray => N.of_nat (length (c_images a)) / 6
  | _ => 0
  end.

Lemma layers_depth a : kind_ok a -> layers a = N.max (made_depth a) 1.
Proof.
  intros K. pose proof (kind_count _ K). unfold kind_ok in K. unfold layers, made_depth.
  destruct (c_imageType a); try lia. destruct K as [(n & N1 & N2) _]. lia.
Qed.

Lemma pos_place a k : kind_ok a -> (k < length (c_images a))%nat ->
  pos (c_imageType a) (N.of_nat k) = place (c_imageType a) (N.of_nat k).
Proof.
  unfold kind_ok. destruct (c_imageType a); auto. intros [E _] Hk. cbn. f_equal. lia.
Qed.

Lemma place_range a k : kind_ok a -> (k < length (c_images a))%nat ->
  fst (place (c_imageType a) (N.of_nat k)) < (if is_cube (c_imageType a) then 6 else 1) /\
  snd (place (c_imageType a) (N.of_nat k)) < layers a.
Proof.
  unfold kind_ok, layers. destruct (c_imageType a); cbn [place fst snd is_cube]; intros [H _] Hk; try lia.
  destruct H as (n & N1 & N2). lia.
Qed.

Lemma place_onto a f d : kind_ok a -> f < (if is_cube (c_imageType a) then 6 else 1) -> d < layers a ->
  exists k, (k < length (c_images a))%nat /\ place (c_imageType a) (N.of_nat k) = (f, d).
Proof.
  unfold kind_ok, layers. destruct (c_imageType a); cbn [place is_cube]; intros [H _] Hf Hd.
  - exists 0%nat. split; [lia|]. f_equal; lia.
  - exists (N.to_nat d). split; [lia|]. f_equal; lia.
  - exists (N.to_nat f). split; [lia|]. f_equal; lia.
  - destruct H as (n & N1 & N2). exists (N.to_nat (6 * d + f)). split; [lia|]. f_equal; lia.
Qed.

Lemma maxMip_sym dim w h d : maxMipmapLevels dim w h d = maxMipmapLevels dim h w d.
Proof. unfold maxMipmapLevels. cbv zeta. rewrite (N.max_comm (32 - clz w)). reflexivity. Qed.

Lemma maxMip_turned dim a w h d : maxMipmapLevels dim (fst (turned a w h)) (snd (turned a w h)) d = maxMipmapLevels dim w h d.
Proof. unfold turned. destruct (quarter_turn a); cbn [fst snd]; [apply maxMip_sym|reflexivity]. Qed.

Lemma product_base a W H : (c_normalMap a = true -> 1 <= W /\ 1 <= H) -> product_size a W H 0 = base_size a W H.
Proof.
  intros P. unfold product_size, base_size. rewrite !side0. destruct (c_normalMap a); [|reflexivity].
  destruct P as [P1 P2]; [reflexivity|]. rewrite !N.max_r by lia. rewrite !N.eqb_refl. reflexivity.
Qed.

Lemma product_is a W H m p i : (c_normalMap a = true -> 1 <= W /\ 1 <= H) -> product O a W H m p = Some i ->
  exists c, i = Img (if c_normalMap a then I_RGBF else I_RGBAF) (fst (product_size a W H m))
                    (snd (product_size a W H m)) (c_textureCS a) c.
Proof.
  unfold product. destruct (o_load O p) as [[[[f w] h] c]|]; [|discriminate]. intros P E.
  destruct (product_img O OK a f w h c W H m P) as [c' E']. rewrite E' in E. exists c'. congruence.
Qed.

Lemma stored_is t f w h c : as_stored L t (Img f w h (colorSpaceOf t) c) = iconvert L (Img f w h (colorSpaceOf t) c) I_RGBAF.
Proof.
  unfold as_stored. destruct (iconvert_valid L OKL f w h (colorSpaceOf t) c) as [c' ->].
  apply ichange_same.
Qed.

(** ** The first level *)

Lemma base_ok fl a W H is : facts fl a -> has_extent a W H -> W < unset -> H < unset ->
  products O a W H (c_images a) = Some is ->
  exists i0 rest t, is = i0 :: rest /\
    fill O (c_imageType a)
      (snd (initialize (c_dim a) (iwidth i0) (iheight i0) (made_depth a) 1 (c_textureCS a))) 0
      (match c_imageType a with IT_Image => [i0] | _ => is end) = Some t /\
    reachable L enc t /\ dimensionOf t = c_dim a /\ colorSpaceOf t = c_textureCS a /\
    (isArray t = true <-> c_dim a <> Dim3D /\ (c_imageType a = IT_Array \/ c_imageType a = IT_CubeArray)) /\
    faceCount t = (match c_dim a with Cube => 6 | _ => 1 end) /\
    (width t 0, height t 0) = base_size a W H /\ depth t 0 = layers a /\ mipLevelCount t = 1 /\
    converted t = false /\
    (forall k p i, nth_error (c_images a) k = Some p -> product O a W H 0 p = Some i ->
       getImageF t (fst (place (c_imageType a) (N.of_nat k))) 0 (snd (place (c_imageType a) (N.of_nat k)))
       = Some (iconvert L i I_RGBAF)) /\
    base_set t.
Proof.
  intros F [HN H3] HW HH EP. destruct (products_nth O a W H _ _ EP) as [EL EN].
  pose proof (a_kind _ _ F) as K. pose proof (kind_count _ K) as KC.
  destruct is as [|i0 rest]; [cbn in EL; lia|]. exists i0, rest.
  destruct (nth_error (c_images a) 0) as [p0|] eqn:E0; [|apply nth_error_None in E0; lia].
  destruct (EN 0%nat p0 E0) as (x & Ex & Px). injection Ex as <-.
  destruct (product_is a W H 0 p0 i0 HN Px) as [c0 I0]. rewrite product_base in I0 by exact HN.
  assert (BW : 0 < fst (base_size a W H) /\ fits32 (fst (base_size a W H)) /\
               0 < snd (base_size a W H) /\ fits32 (snd (base_size a W H))).
  { unfold base_size, turned, fits32, unset in *. destruct (quarter_turn a); cbn [fst snd]; lia. }
  destruct BW as (B1 & B2 & B3 & B4).
  assert (MD : fits32 (made_depth a)).
  { pose proof (a_count _ _ F). unfold made_depth, fits32. destruct (c_imageType a); lia. }
  destruct (C08_initialize C L enc None (c_dim a) (fst (base_size a W H)) (snd (base_size a W H)) (made_depth a) 1
              (c_textureCS a) B2 B4 MD) as (b & t0 & E1 & X1 & _ & X2).
  assert (D3 : c_dim a = Dim3D -> 0 < made_depth a).
  { intros D. specialize (H3 D). unfold made_depth. rewrite H3. lia. }
  assert (b = true) as -> by (apply X1; auto).
  destruct (X2 eq_refl) as (Y1 & Y2 & Y3 & Y4 & Y5 & Y6 & Y7 & Y8 & Y9 & Y10 & Y11 & Y12).
  assert (R0 : reachable L enc t0).
  { apply (R_call L enc None (CInit (c_dim a) (fst (base_size a W H)) (snd (base_size a W H)) (made_depth a) 1
              (c_textureCS a)) true t0); [apply R_new| |exact E1]. split; [repeat split; assumption|exact I]. }
  cbn [step] in E1. injection E1 as E1.
  assert (EI : snd (initialize (c_dim a) (iwidth i0) (iheight i0) (made_depth a) 1 (c_textureCS a)) = t0).
  { rewrite I0. cbn [iwidth iheight]. rewrite E1. reflexivity. }
  rewrite EI.
  assert (M1 : mipLevelCount t0 = 1).
  { rewrite Y6. pose proof (maxMip_bounds (c_dim a) _ _ (made_depth a) B1 B3 D3 B2 B4 MD). lia. }
  rewrite <- (layers_depth a K) in Y5.
  assert (FC : faceCount t0 = if is_cube (c_imageType a) then 6 else 1).
  { rewrite Y7. destruct (kind_cube a K) as [K1 K2]. destruct (is_cube (c_imageType a)).
    - rewrite K2; reflexivity.
    - destruct (c_dim a); try reflexivity. specialize (K1 eq_refl). discriminate. }
  set (ims := match c_imageType a with IT_Image => [i0] | _ => i0 :: rest end).
  assert (EIM : ims = i0 :: rest).
  { unfold ims. unfold kind_ok in K. destruct (c_imageType a); auto. destruct K as [K _].
    rewrite K in EL. destruct rest; [reflexivity|discriminate]. }
  rewrite EIM.
  assert (PR : forall j im, nth_error (i0 :: rest) j = Some im ->
    exists p, nth_error (c_images a) j = Some p /\ product O a W H 0 p = Some im).
  { intros j im Hj. destruct (nth_error (c_images a) j) as [p|] eqn:Ej.
    - destruct (EN j p Ej) as (y & Hy & Py). exists p. split; [reflexivity|]. congruence.
    - apply nth_error_None in Ej. assert (nth_error (i0 :: rest) j <> None) by congruence.
      apply nth_error_Some in H0. lia. }
  destruct (fill_ok (c_imageType a) (i0 :: rest) t0 0 R0 FC) as (t & E2 & R2 & S2 & G1 & _).
  { intros j im Hj. destruct (PR j im Hj) as (p & Hp & Pp). rewrite N.add_0_l.
    assert (LJ : (j < length (c_images a))%nat) by (apply nth_error_Some; congruence).
    rewrite (pos_place a j K LJ). destruct (place_range a j K LJ) as [Q1 Q2]. split.
    - split; [lia|]. rewrite Y5, FC. auto.
    - destruct (product_is a W H 0 p im HN Pp) as [c ->]. rewrite product_base by exact HN.
      split; cbn [iwidth iheight]; congruence. }
  exists t. split; [reflexivity|]. split; [exact E2|]. split; [exact R2|].
  assert (G : forall k p i, nth_error (c_images a) k = Some p -> product O a W H 0 p = Some i ->
       getImageF t (fst (place (c_imageType a) (N.of_nat k))) 0 (snd (place (c_imageType a) (N.of_nat k)))
       = Some (iconvert L i I_RGBAF)).
  { intros k p i Hk Pi. assert (LK : (k < length (c_images a))%nat) by (apply nth_error_Some; congruence).
    destruct (EN k p Hk) as (y & Hy & Py). assert (y = i) by congruence. subst y.
    specialize (G1 k i Hy). rewrite N.add_0_l, (pos_place a k K LK) in G1. rewrite G1. f_equal.
    destruct (product_is a W H 0 p i HN Pi) as [c ->]. rewrite <- Y2. apply stored_is. }
  destruct S2 as [S1 S2 S3 S4 S5 S6 S7]. destruct (S7 0) as (S8 & S9 & S10).
  rewrite S1, S2, S3, S4, S5, S6, S8, S9, S10, Y10, Y1, Y2, Y3, Y4, Y5, Y7, Y8, M1.
  split; [reflexivity|]. split; [reflexivity|]. split.
  { unfold made_depth. unfold kind_ok in K. destruct (c_imageType a).
    - split; intros [? Z]; [lia|destruct Z; discriminate].
    - split; intros [? Z]; (split; [assumption|]); [auto|lia].
    - split; intros [? Z]; [lia|destruct Z; discriminate].
    - destruct K as [(n & N1 & N2) _]. split; intros [? Z]; (split; [assumption|]); [auto|lia]. }
  split; [reflexivity|]. split; [symmetry; apply surjective_pairing|]. split; [reflexivity|]. split; [reflexivity|].
  split; [reflexivity|]. split; [exact G|]. split.
  - intros ->. cbn in S4. lia.
  - intros f d IR. destruct IR as (_ & Id & If). rewrite S10, Y5 in Id. rewrite S3, FC in If.
    destruct (place_onto a f d K If Id) as (k & Lk & Ek).
    destruct (nth_error (c_images a) k) as [p|] eqn:Hk; [|apply nth_error_None in Hk; lia].
    destruct (EN k p Hk) as (y & Hy & Py). specialize (G k p y Hk Py). rewrite Ek in G. cbn [fst snd] in G.
    exists (iconvert L y I_RGBAF). split; [exact G|].
    destruct (product_is a W H 0 p y HN Py) as [c ->].
    destruct (iconvert_valid L OKL (if c_normalMap a then I_RGBF else I_RGBAF) (fst (product_size a W H 0))
      (snd (product_size a W H 0)) (c_textureCS a) c) as [c' ->]. reflexivity.
Qed.

(** ** The other levels *)

Lemma chain_ext {A} (g g' : N -> A -> A) (q q' : N -> option (A * replacement)) b s k :
  (forall m x, g m x = g' m x) -> (forall m, m <= N.of_nat k -> q m = q' m) ->
  chain g q b s k = chain g' q' b s k.
Proof.
  intros EG. induction k as [|k IH]; intros EQ; [reflexivity|]. cbn [chain].
  rewrite IH by (intros; apply EQ; lia). rewrite EQ by lia. rewrite EG. reflexivity.
Qed.

Lemma list_ext {A} (l l' : list A) : length l = length l' ->
  (forall k x, nth_error l k = Some x -> nth_error l' k = Some x) -> l = l'.
Proof.
  revert l'. induction l as [|x l IH]; intros [|y l'] EL EN; try discriminate; [reflexivity|]. f_equal.
  - specialize (EN 0%nat x eq_refl). injection EN as ->. reflexivity.
  - apply IH; [cbn in EL; lia|]. intros k z Hk. exact (EN (S k) z Hk).
Qed.

Lemma halvings_side m n : 0 < n -> halvings (N.to_nat m) n = side n m.
Proof. intros Hn. rewrite halvings_shiftr, Nnat.N2Nat.id by exact Hn. apply side_shift. Qed.

Lemma one_level_complete (i : impl C) : wf i -> t_mips i = 1 ->
  (forall f d, in_range (Some i) f 0 d -> exists x, getImageF (Some i) f 0 d = Some x /\ isValid x = true) ->
  imagesComplete (Some i) = true.
Proof.
  intros W M H. apply forallb_forall; intros l1 H1; apply forallb_forall; intros l2 H2.
  apply forallb_forall; intros x H3.
  destruct (In_nthN _ _ H1) as [m Hm]; destruct (In_nthN _ _ H2) as [d Hd]; destruct (In_nthN _ _ H3) as [f Hf].
  assert (m = 0) as ->. { apply nthN_lt in Hm. rewrite (wf_len _ W) in Hm. lia. }
  assert (S1 : nthN (shape (t_images i)) 0 = Some (map (@List.length _) l1))
    by (unfold shape; rewrite nthN_map, Hm; reflexivity).
  destruct (wf_shape _ W _ _ S1) as (_ & Q1 & Q2); rewrite map_length in Q1.
  specialize (Q1 (or_introl eq_refl)).
  assert (R : in_range (Some i) f 0 d).
  { apply nthN_lt in Hd; apply nthN_lt in Hf. split; [cbn; lia|]. split; [lia|].
    cbn; rewrite <- (Q2 (length l2)) by (apply in_map; exact H2); exact Hf. }
  destruct (H f d R) as (y & Hy & V).
  destruct (getImageF_in (Some i) f 0 d W R) as (? & Ei & E). injection Ei as <-. rewrite E in Hy.
  unfold get3 in Hy; rewrite Hm in Hy; cbn in Hy; rewrite Hd in Hy; cbn in Hy. congruence.
Qed.

(** The images of the texture before it is converted. *)
Record pictured (a : cl) (W H : N) (t : texture C) : Prop := Pictured {
  q_reach : reachable L enc t;
  q_complete : imagesComplete t = true;
  q_dim : dimensionOf t = c_dim a;
  q_space : colorSpaceOf t = c_textureCS a;
  q_array : isArray t = true <->
    c_dim a <> Dim3D /\ (c_imageType a = IT_Array \/ c_imageType a = IT_CubeArray);
  q_faces : faceCount t = match c_dim a with Cube => 6 | _ => 1 end;
  q_size : (width t 0, height t 0) = base_size a W H;
  q_depth : depth t 0 = layers a;
  q_levels : mipLevelCount t =
    N.min (N.max (c_mipLevels a) 1)
          (maxMipmapLevels (c_dim a) (N.max 1 W) (N.max 1 H) (layers a));
  q_extents : forall m, m < mipLevelCount t ->
    width t m = side (width t 0) m /\ height t m = side (height t 0) m /\
    depth t m = match c_dim a with Dim3D => side (layers a) m | _ => layers a end;
  q_first : forall k p i, nth_error (c_images a) k = Some p -> product O a W H 0 p = Some i ->
    getImageF t (fst (place (c_imageType a) (N.of_nat k))) 0 (snd (place (c_imageType a) (N.of_nat k)))
    = Some (iconvert L i I_RGBAF);
  q_custom : forall f m d i r, in_range t f m d -> custom_content O a W H t f d m = Some (i, r) ->
    getImageF t f m d = Some i;
  q_chain : c_dim a <> Dim3D -> no_once_at_end a t ->
    forall k p i, nth_error (c_images a) k = Some p -> product O a W H 0 p = Some i ->
    forall m, m < mipLevelCount t ->
      let '(f, d) := place (c_imageType a) (N.of_nat k) in
      let base := iconvert L i I_RGBAF in
      getImageF t f m d = Some
        (fst (chain (fun n src => iresize L src (width t n) (height t n) (c_mipFilter a))
                    (custom_content O a W H t f d) base base (N.to_nat m)));
  q_volume : c_dim a = Dim3D ->
    forall bases, Forall2 (fun p b => exists i, product O a W H 0 p = Some i /\ b = iconvert L i I_RGBAF)
                          (c_images a) bases ->
    forall m d, m < mipLevelCount t -> d < depth t m ->
      exists i, nthN (fst (chain (gen_slices L t (c_mipFilter a)) (custom_volume O a W H t)
                                 bases bases (N.to_nat m))) d = Some i /\
      getImageF t 0 m d = Some i
}.

Lemma custom_zero fl a W H (t : texture C) f d : facts fl a -> custom_content O a W H t f d 0 = None.
Proof.
  intros F. unfold custom_content. destruct (find_mip _ _ _ _) as [[k [p r]]|] eqn:E; [|reflexivity].
  apply find_mip_in in E. destruct E as (I & _ & E & _). exfalso. exact (a_levels _ _ F _ _ I E).
Qed.

Section Mips.
Variables (fl : flags) (a : cl) (W H : N).
Hypothesis F : facts fl a.
Hypothesis SM : single_mode a.
Hypothesis EX : has_extent a W H.
Variable visited : list (index * (string * replacement)).
Hypothesis PV : Permutation visited (c_customMips a).
Variable levels : N.
Hypothesis MO : forallb (mip_ok O a levels) visited = true.

Notation cm := (map (mip_of O a W H) visited).

Lemma mip_loads k p r : In (k, (p, r)) (c_customMips a) ->
  (exists i, product O a W H (x_level k) p = Some i) /\ (c_dim a <> Cube -> x_face k = 0).
Proof.
  intros I. rewrite forallb_forall in MO. assert (I' : In (k, (p, r)) visited).
  { eapply Permutation_in; [symmetry; exact PV|exact I]. }
  specialize (MO _ I'). unfold mip_ok in MO. cbn [fst snd] in MO. unfold product.
  destruct (o_load O p) as [[[[f w] h] c]|]; [|rewrite andb_false_r in MO; discriminate]. split; [eauto|].
  intros ND. destruct (N.eqb_spec (x_face k) 0) as [E|E]; [exact E|].
  destruct (c_dim a); try congruence; rewrite andb_false_r in MO; discriminate.
Qed.

Lemma cfind_custom f m d : cfind cm f m d =
  match find_mip (c_customMips a) f m d with Some e => Some (snd (mip_of O a W H e)) | None => None end.
Proof. rewrite cfind_mips, (find_mip_perm _ _ _ _ _ PV (a_nodup _ _ F)). reflexivity. Qed.

Lemma custom_at_content (t : texture C) f d m :
  custom_at L t (c_mipFilter a) cm f d m = custom_content O a W H t f d m.
Proof.
  unfold custom_at, custom_content. rewrite cfind_custom.
  destruct (find_mip _ _ _ _) as [[k [p r]]|] eqn:E; [|reflexivity].
  apply find_mip_in in E. destruct E as (I & E1 & E2 & E3). cbn [fst] in *.
  destruct (mip_loads k p r I) as [[i Pi] _]. cbn [mip_of snd]. rewrite Pi. rewrite E2 in Pi. rewrite Pi. reflexivity.
Qed.

Lemma mips_in k i r : In (k, (i, r)) cm -> isValid i = true /\ resizable (c_mipFilter a) i.
Proof.
  intros I. apply in_map_iff in I. destruct I as ([x [p r']] & E & I). cbn [mip_of] in E.
  assert (I' : In (x, (p, r')) (c_customMips a)) by (eapply Permutation_in; [exact PV|exact I]).
  destruct (mip_loads x p r' I') as [[j Pj] _]. rewrite Pj in E.
  destruct EX as [HN _]. destruct (product_is a W H (x_level x) p j HN Pj) as [c Ej].
  injection E as _ <- _. rewrite Ej. split; [reflexivity|]. cbn [resizable]. right. right.
  destruct (c_normalMap a); cbn [In]; intuition discriminate.
Qed.

Lemma mips_consistent (t : texture C) lv : dimensionOf t = Dim3D -> c_dim a = Dim3D -> depth t 0 = N.of_nat (length (c_images a)) ->
  0 < depth t 0 -> consistent3 lv (slices_at t) cm.
Proof.
  intros D DA ED DP m M1 M2. unfold slices_at. rewrite D, halvings_side, ED by exact DP.
  destruct (existsb (fun e => x_level (fst e) =? m) (c_customMips a)) eqn:EE.
  - right. apply existsb_exists in EE. destruct EE as ([k [p r]] & I & E). cbn [fst] in E.
    assert (x_level k = m) as EK by lia. clear E. exists r. intros d Hd.
    destruct (a_cover _ _ F DA) with (k := k) (v := (p, r)) (d := d) as [[p' r'] I']; auto.
    { intros k' [p' r'] I'. apply (mip_loads k' p' r' I'). congruence. }
    { rewrite EK. unfold level_depth. unfold side in Hd. lia. }
    rewrite EK in I'. rewrite cfind_custom, (find_mip_found _ _ _ _ _ (a_nodup _ _ F) I').
    cbn [mip_of snd]. assert (r' = r) as ->. { eapply (SM DA); [exact I'|exact I|]. cbn. congruence. }
    eauto.
  - left. intros d Hd. rewrite cfind_custom. destruct (find_mip _ _ _ _) as [e|] eqn:E; [|reflexivity].
    exfalso. apply find_mip_in in E. destruct E as (I & _ & E & _).
    assert (X : existsb (fun e => x_level (fst e) =? m) (c_customMips a) = true).
    { apply existsb_exists. exists e. split; [exact I|]. lia. }
    congruence.
Qed.

Lemma once_free (t : texture C) lv f d : no_once_at_end a t -> mipLevelCount t = lv -> 1 <= lv ->
  once_at cm f (lv - 1) d = false.
Proof.
  intros NO EL L1. unfold once_at. rewrite cfind_custom. destruct (find_mip _ _ _ _) as [[k [p r]]|] eqn:E; [|reflexivity].
  apply find_mip_in in E. destruct E as (I & _ & E & _). cbn [mip_of snd fst] in *. destruct r; [|reflexivity].
  exfalso. apply (NO k p I). lia.
Qed.

Lemma slices_bases (t : texture C) bases :
  (forall k p i, nth_error (c_images a) k = Some p -> product O a W H 0 p = Some i ->
    getImageF t (fst (place (c_imageType a) (N.of_nat k))) 0 (snd (place (c_imageType a) (N.of_nat k)))
    = Some (iconvert L i I_RGBAF)) ->
  c_imageType a = IT_Array -> depth t 0 = N.of_nat (length (c_images a)) ->
  Forall2 (fun p b => exists i, product O a W H 0 p = Some i /\ b = iconvert L i I_RGBAF) (c_images a) bases ->
  slices0 t = bases.
Proof.
  intros G KA ED F2. rewrite KA in G. cbn [place fst snd] in G. symmetry. apply list_ext.
  - unfold slices0. rewrite map_length, Nrange_length, ED.
    assert (X : forall {A B} (R : A -> B -> Prop) l l', Forall2 R l l' -> length l' = length l).
    { intros A B R l l' Y. induction Y; cbn; congruence. }
    rewrite (X _ _ _ _ _ F2). lia.
  - intros k x Hk.
    assert (Y : exists p i, nth_error (c_images a) k = Some p /\ product O a W H 0 p = Some i /\ x = iconvert L i I_RGBAF).
    { clear - F2 Hk. revert k Hk. induction F2 as [|p b l l' (i & P1 & P2) F2 IH]; intros [|k] Hk; try discriminate.
      - injection Hk as <-. exists p, i. auto.
      - exact (IH k Hk). }
    destruct Y as (p & i & Hp & Pi & ->).
    assert (LK : (k < length (c_images a))%nat) by (apply nth_error_Some; congruence).
    unfold slices0. rewrite nth_error_map, nth_error_Nrange by (rewrite ED; lia). cbn [option_map].
    unfold level0. rewrite (G k p i Hp Pi). reflexivity.
Qed.

End Mips.

Lemma build_ok fl a W H is visited levels : facts fl a -> single_mode a -> has_extent a W H ->
  W < unset -> H < unset -> Permutation visited (c_customMips a) ->
  forallb (mip_ok O a levels) visited = true ->
  products O a W H (c_images a) = Some is ->
  exists t, build O a is (map (mip_of O a W H) visited) = Some t /\ pictured a W H t /\ converted t = false.
Proof.
  intros F SM EX HW HH PV MO EP.
  pose proof (a_kind _ _ F) as K. pose proof (kind_count _ K) as KC.
  destruct (base_ok fl a W H is F EX HW HH EP) as
    (i0 & rest & t0 & EI & EF & R0 & D0 & CS0 & AR0 & FC0 & WH0 & DE0 & M0 & CV0 & G0 & BS0).
  destruct (products_nth O a W H _ _ EP) as [EL _].
  assert (BD : build O a is (map (mip_of O a W H) visited) =
    if 1 <? c_mipLevels a
    then obind (generateMipmaps L t0 (c_mipFilter a) (c_mipLevels a) (map (mip_of O a W H) visited))
           (fun bt => Some (snd bt))
    else Some t0).
  { unfold build. rewrite EI in *. rewrite EL.
    assert (MD : match c_imageType a with
                 | IT_Array => to_uint (N.of_nat (length (c_images a)))
                 | IT_CubeArray => to_uint (N.of_nat (length (c_images a)) / 6)
                 | _ => 0 end = made_depth a).
    { unfold made_depth, to_uint. pose proof (a_count _ _ F).
      destruct (c_imageType a); try reflexivity; apply N.mod_small; lia. }
    rewrite MD, EF. reflexivity. }
  rewrite BD. clear BD.
  assert (BP : 0 < width t0 0 /\ 0 < height t0 0).
  { unfold base_size, turned in WH0. destruct (quarter_turn a); injection WH0 as -> ->; lia. }
  destruct BP as [BP1 BP2].
  assert (DP : 0 < depth t0 0). { rewrite DE0, (layers_depth a K). lia. }
  assert (MX : maxMipmapLevels (c_dim a) (width t0 0) (height t0 0) (layers a) =
               maxMipmapLevels (c_dim a) (N.max 1 W) (N.max 1 H) (layers a)).
  { rewrite <- (maxMip_turned (c_dim a) a (N.max 1 W) (N.max 1 H)). unfold base_size in WH0. rewrite <- WH0. reflexivity. }
  assert (MB : 1 <= maxMipmapLevels (c_dim a) (N.max 1 W) (N.max 1 H) (layers a)).
  { pose proof (layers_depth a K). pose proof (a_count _ _ F). unfold unset in *.
    apply maxMip_bounds; unfold fits32; try lia. unfold layers. destruct (c_imageType a); lia. }
  assert (D3 : c_dim a = Dim3D -> c_imageType a = IT_Array) by apply EX.
  assert (DN : c_dim a = Dim3D -> depth t0 0 = N.of_nat (length (c_images a))).
  { intros D. rewrite DE0. unfold layers. rewrite (D3 D). reflexivity. }
  destruct (N.ltb_spec 1 (c_mipLevels a)) as [ML|ML].
  - (* mipmaps *)
    set (cm := map (mip_of O a W H) visited).
    assert (CR : customs_resizable (c_mipFilter a) cm).
    { intros k i r I. eapply mips_in; eauto. }
    assert (CO : dimensionOf t0 = Dim3D -> consistent3 (clamped_levels t0 (c_mipLevels a)) (slices_at t0) cm).
    { intros D. rewrite D0 in D. eapply mips_consistent; eauto. congruence. }
    destruct (C14_success_iff C L enc t0 OKL R0 (c_mipFilter a) (c_mipLevels a) cm CR) as (b & t & EG & SB & _).
    assert (b = true) as ->.
    { apply SB. split; [exact BS0|]. split; [|exact CO]. intros k i r I. eapply mips_in; eauto. }
    rewrite EG. cbn [obind snd]. exists t. split; [reflexivity|].
    assert (R : reachable L enc t).
    { apply (R_call L enc t0 (CMips (c_mipFilter a) (c_mipLevels a) cm) true t R0); [|exact EG].
      split; [exact CR|]. split; [exact CO|congruence]. }
    destruct (C12_levels_filled C L enc t0 OKL R0 _ _ _ _ CR EG) as (X1 & X2 & X3 & X4 & X5 & X6 & X7 & X8 & X9).
    assert (LV : mipLevelCount t = N.min (N.max (c_mipLevels a) 1)
          (maxMipmapLevels (c_dim a) (N.max 1 W) (N.max 1 H) (layers a))).
    { rewrite X1. unfold clamped_levels. rewrite D0, DE0, MX. reflexivity. }
    assert (L0 : 0 < mipLevelCount t) by lia.
    destruct (X6 0 L0) as (Z1 & Z2 & Z3). change (N.to_nat 0) with 0%nat in *. cbn [halvings] in Z1, Z2.
    assert (Z4 : depth t 0 = layers a).
    { rewrite Z3. unfold slices_at. rewrite D0, DE0. destruct (c_dim a); reflexivity. }
    assert (FS : forall k p i, nth_error (c_images a) k = Some p -> product O a W H 0 p = Some i ->
      in_range t0 (fst (place (c_imageType a) (N.of_nat k))) 0 (snd (place (c_imageType a) (N.of_nat k)))).
    { intros k p i Hk _. assert (LK : (k < length (c_images a))%nat) by (apply nth_error_Some; congruence).
      destruct (place_range a k K LK) as [P1 P2]. split; [lia|]. split; [rewrite DE0; exact P2|]. rewrite FC0.
      destruct (kind_cube a K) as [K1 K2]. destruct (is_cube (c_imageType a)).
      - rewrite K2 by reflexivity. exact P1.
      - destruct (c_dim a); lia. }
    split.
    2:{ assert (Y : converted t = converted t0); [|congruence].
        unfold generateMipmaps in EG. destruct t0 as [i|]; [|discriminate].
        destruct (nthN (t_images i) 0) as [base|]; [|discriminate]. cbn [obind] in EG.
        destruct (negb (forallb (forallb isValid) base)); [discriminate|].
        destruct (negb (forallb _ cm)); [discriminate|]. cbv zeta in EG.
        destruct (t_dim i); match type of EG with
          | obind ?x _ = _ => destruct x; cbn [obind] in EG; [|discriminate]; injection EG as <-; reflexivity
          | match ?x with _ => _ end = _ => destruct x as [[im|im]|]; try discriminate; injection EG as <-; reflexivity
          end. }
    constructor; try assumption; try congruence.
    + intros m Hm. destruct (X6 m Hm) as (Y1 & Y2 & Y3).
      rewrite Y1, Y2, Y3, Z1, Z2, !halvings_side by assumption. split; [reflexivity|]. split; [reflexivity|].
      unfold slices_at. rewrite D0. destruct (c_dim a); try exact DE0. rewrite halvings_side, DE0 by exact DP. reflexivity.
    + intros k p i Hk Pi. rewrite X7; [eapply G0; eauto|]. eapply FS; eauto.
    + intros f m d i r IR CC. rewrite <- (custom_at_content fl a W H F visited PV levels MO) in CC.
      unfold custom_at in CC. destruct (cfind _ f m d) as [[j r']|] eqn:EC; [|discriminate].
      assert (M1 : 1 <= m).
      { destruct (N.eq_dec m 0) as [->|]; [|lia]. exfalso.
        rewrite (cfind_custom fl a W H F visited PV) in EC.
        destruct (find_mip _ f 0 d) as [[k v]|] eqn:EM; [|discriminate]. apply find_mip_in in EM.
        destruct EM as (I & _ & E & _). exact (a_levels _ _ F _ _ I E). }
      rewrite (C13_custom_used C L enc t0 OKL R0 _ _ _ _ f m d j r' CR EG IR M1 EC). congruence.
    + intros ND NO k p i Hk Pi m Hm.
      pose proof (FS k p i Hk Pi) as IR0. pose proof (G0 k p i Hk Pi) as G.
      destruct (place (c_imageType a) (N.of_nat k)) as [f d]. cbn [fst snd] in *. cbv zeta.
      assert (ND' : dimensionOf t0 <> Dim3D) by congruence.
      rewrite (C13_own_chain C L enc t0 OKL R0 _ _ _ _ CR ND' EG).
      * unfold level0. rewrite G. f_equal. f_equal. apply chain_ext; [reflexivity|].
        intros n _. apply (custom_at_content fl a W H F visited PV levels MO).
      * intros f' d' _ _. right. apply (once_free fl a W H F visited PV levels t); auto. lia.
      * destruct IR0 as (_ & I1 & I2). split; [exact Hm|]. split; [|rewrite X3; exact I2].
        destruct (X6 m Hm) as (_ & _ & ->). unfold slices_at. destruct (dimensionOf t0); try congruence; exact I1.
    + intros D bases F2 m d Hm Hd.
      assert (D' : dimensionOf t0 = Dim3D) by congruence.
      destruct (C13_volume_contents C L enc t0 OKL R0 _ _ _ _ CR D' EG m d Hm Hd) as [Y1 Y2].
      rewrite (slices_bases a W H visited levels t0 bases G0 (D3 D) (DN D) F2) in Y1.
      rewrite (chain_ext _ (gen_slices L t (c_mipFilter a)) _ (custom_volume O a W H t)) in Y1; [|reflexivity|].
      2:{ intros n _. unfold custom_slices, custom_volume.
          pose proof (custom_at_content fl a W H F visited PV levels MO t 0) as CA. fold cm in CA.
          rewrite <- (CA 0 n). unfold custom_at at 1.
          destruct (cfind cm 0 n 0) as [[x r]|]; [|reflexivity]. f_equal. f_equal. apply map_ext. intros e.
          rewrite <- (CA e n). unfold custom_at. destruct (cfind cm 0 n e) as [[y r2]|]; reflexivity. }
      rewrite Y1 in *. destruct (nthN _ d) as [y|]; [|congruence]. exists y. auto.
  - (* a single level *)
    exists t0. split; [reflexivity|]. split; [|exact CV0].
    assert (LV : mipLevelCount t0 = N.min (N.max (c_mipLevels a) 1)
          (maxMipmapLevels (c_dim a) (N.max 1 W) (N.max 1 H) (layers a))) by lia.
    assert (NC : c_customMips a = []).
    { destruct (c_customMips a) eqn:E; [reflexivity|]. exfalso.
      assert (X : c_customMips a <> []) by (rewrite E; discriminate). pose proof (a_mips _ _ F X). lia. }
    constructor; try assumption.
    + pose proof (reachable_wf L enc OKL t0 R0) as W0. destruct BS0 as [NN BS].
      destruct t0 as [i|]; [|congruence]. apply one_level_complete; [exact W0|exact M0|exact BS].
    + intros m Hm. assert (m = 0) as -> by lia. rewrite !side0, DE0.
      pose proof (layers_depth a K). split; [lia|]. split; [lia|]. destruct (c_dim a); lia.
    + intros f m d i r IR CC. exfalso. unfold custom_content in CC. rewrite NC in CC. discriminate.
    + intros ND NO k p i Hk Pi m Hm. assert (m = 0) as -> by lia. pose proof (G0 k p i Hk Pi) as G.
      destruct (place (c_imageType a) (N.of_nat k)) as [f d]. exact G.
    + intros D bases F2 m d Hm Hd. assert (m = 0) as -> by lia. cbn [N.to_nat chain fst].
      rewrite <- (slices_bases a W H visited levels t0 bases G0 (D3 D) (DN D) F2).
      unfold slices0. rewrite nthN_map, nthN_Nrange by exact Hd. cbn [obind option_map].
      destruct BS0 as [_ BS]. destruct (BS 0 d) as (x & Hx & _).
      { split; [lia|]. split; [exact Hd|]. rewrite FC0. destruct (c_dim a); lia. }
      exists x. unfold level0. rewrite Hx. auto.
Qed.

End P.

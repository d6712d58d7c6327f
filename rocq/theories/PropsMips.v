(** Properties of mipmap generation and conversion. *)
From Coq Require Import NArith List Bool Lia ZArith.
From Coq Require Import ZifyBool ZifyNat ZifyN.
From Verif Require Import Base FormatModel FormatProofs TextureModel TextureSpec TextureProofs
  CustomMipModel PropsTexture.
Import ListNotations.
Local Open Scope N_scope.

Section Aux.
Context {C : Type} (L : lib C).

Lemma customs_valid_iff (cm : customs C) :
  forallb (fun kv => isValid (fst (snd kv))) cm = true <-> customs_valid cm.
Proof.
  rewrite forallb_forall; unfold customs_valid; split.
  - intros H k i r Hi; apply (H _ Hi).
  - intros H [k [i r]] Hi; apply (H _ _ _ Hi).
Qed.

Lemma base_set_iff (i : impl C) : wf i -> (base_set (Some i) <-> base_ok i).
Proof.
  intros W; unfold base_set, base_ok; split.
  - intros [_ H] f d R; destruct (H f d R) as (x & Hx & V).
    destruct (getImageF_in (Some i) f 0 d W R) as (? & [= <-] & E); rewrite E in Hx; eauto.
  - intros H; split; [discriminate|]; intros f d R; destruct (H f d R) as (x & Hx & V).
    destruct (getImageF_in (Some i) f 0 d W R) as (? & [= <-] & ->); eauto.
Qed.

(** generateMipmaps on a reachable texture, all cases. *)
Lemma gm_cases (OK : lib_ok L) t rf l cm : wft t -> customs_resizable rf cm ->
  (base_set t /\ customs_valid cm /\
   (dimensionOf t = Dim3D -> consistent3 (clamped_levels t l) (slices_at t) cm) /\
   exists i im, t = Some i /\ base_ok i /\ customs_ok rf cm /\
     forallb (fun kv => isValid (fst (snd kv))) cm = true /\
     generateMipmaps L t rf l cm
     = Some (true, Some (with_levels i (clamped_levels t l) im)))
  \/ (~ (base_set t /\ customs_valid cm /\
      (dimensionOf t = Dim3D -> consistent3 (clamped_levels t l) (slices_at t) cm)) /\
      exists t', generateMipmaps L t rf l cm = Some (false, t') /\
        (dimensionOf t <> Dim3D -> t' = t) /\
        (~ base_set t \/ ~ customs_valid cm -> t' = t) /\
        (t' = t \/ exists i im, t = Some i /\ t' = Some (with_levels i (clamped_levels t l) im))).
Proof.
  intros W CR; destruct t as [i|].
  2: { right; split; [intros ([H _] & _); congruence|]; simpl; eexists; split; [reflexivity|]; auto. }
  simpl in W.
  destruct (forallb (fun kv => isValid (fst (snd kv))) cm) eqn:CV.
  2: { right; split.
       - intros (_ & H & _); apply customs_valid_iff in H; congruence.
       - rewrite gm_reject by auto; eexists; split; [reflexivity|]; auto. }
  destruct (wf_base _ W) as [base HB].
  destruct (forallb (forallb isValid) base) eqn:BV.
  2: { assert (NB : ~ base_ok i) by (intros B; apply (base_ok_iff _ W base HB) in B; congruence).
       right; split.
       - intros (H & _); apply base_set_iff in H; auto.
       - rewrite gm_reject by auto; eexists; split; [reflexivity|]; auto. }
  apply (base_ok_iff _ W base HB) in BV.
  pose proof (customs_ok_intro rf cm CV CR) as COK.
  destruct (t_dim i) eqn:ED.
  1,2,4: left; split; [apply base_set_iff; auto|]; split; [apply customs_valid_iff; auto|];
    split; [cbn; congruence|];
    destruct (gm2d L OK i rf l cm W ltac:(congruence) BV CV COK) as (im & E & _);
    exists i, im; auto.
  destruct (gm3d L OK i rf l cm W ED BV CV COK) as [(Hc & im & E & _)|(Hc & im & E)].
  - left; split; [apply base_set_iff; auto|]; split; [apply customs_valid_iff; auto|];
    split; [auto|]; exists i, im; auto.
  - right; split; [intros (_ & _ & H); apply Hc, H, ED|].
    eexists; split; [exact E|]; split; [cbn; congruence|].
    split; [intros [H|H]; exfalso; apply H; [apply base_set_iff|apply customs_valid_iff]; auto|].
    right; eauto.
Qed.

(** Whatever it answers, generateMipmaps changes nothing but the level count and the images. *)
Lemma gm_shape (OK : lib_ok L) t rf l cm b t' : wft t -> customs_resizable rf cm ->
  generateMipmaps L t rf l cm = Some (b, t') ->
  t' = t \/ exists i im, t = Some i /\ t' = Some (with_levels i (clamped_levels t l) im).
Proof.
  intros W CR E.
  destruct (gm_cases OK t rf l cm W CR) as [(_ & _ & _ & i & im & -> & _ & _ & _ & E')|(_ & x & E' & _ & _ & S)];
    rewrite E in E'; injection E' as -> ->; eauto.
Qed.

Lemma true_inv (OK : lib_ok L) t rf l cm t' : wft t -> customs_resizable rf cm ->
  generateMipmaps L t rf l cm = Some (true, t') ->
  exists i im, t = Some i /\ wf i /\ base_ok i /\ customs_ok rf cm /\
    forallb (fun kv => isValid (fst (snd kv))) cm = true /\
    t' = Some (with_levels i (clamped_levels t l) im).
Proof.
  intros W CR E.
  destruct (gm_cases OK t rf l cm W CR) as [(_ & _ & _ & i & im & -> & B & CO & CV & E')|(_ & x & E' & _)].
  - rewrite E in E'; injection E' as ->; exists i, im; repeat (split; [solve [auto]|]); reflexivity.
  - congruence.
Qed.

Lemma faces61 (i : impl C) : wf i -> t_faces i = 6 \/ t_faces i = 1.
Proof. intros W; destruct (wf_faces_cases _ W) as [[_ H]|[_ H]]; auto. Qed.

Lemma range0 (i : impl C) mips im f d : wf i -> 1 <= mips ->
  (in_range (Some i) f 0 d <-> in_range (Some (with_levels i mips im)) f 0 d).
Proof.
  intros W Hm; unfold in_range; rewrite (wf_depth0 i W).
  unfold depth; cbn [mipLevelCount with_levels t_mips t_dim t_depth faceCount t_faces].
  destruct (N.leb_spec mips 0); [lia|]; rewrite N.shiftr_0_r.
  pose proof (wf_mips _ W); destruct (t_dim i); lia.
Qed.

Lemma depth_levels (i : impl C) mips im m : m < mips -> t_dim i <> Dim3D ->
  depth (Some (with_levels i mips im)) m = N.max (t_depth i) 1.
Proof.
  intros Hm D; unfold depth; cbn [with_levels t_mips t_dim t_depth].
  destruct (N.leb_spec mips m); [lia|]; destruct (t_dim i); congruence.
Qed.

Lemma sources_length t rf cm b ps : forall c,
  length (level1_sources L t rf cm b ps c) = length ps.
Proof. induction ps as [|[d f] ps IH]; intros c; simpl; auto. Qed.

(** Without a [Once] image on the last level every chain starts at its own level 0. *)
Lemma sources_own t rf cm b ps :
  (forall d f, In (d, f) ps ->
     mipLevelCount t <= 1 \/ once_at cm f (mipLevelCount t - 1) d = false) ->
  level1_sources L t rf cm b ps None = map (fun p => b (fst p) (snd p)) ps.
Proof.
  induction ps as [|[d f] ps IH]; intros H; [reflexivity|].
  cbn [level1_sources map fst snd]; f_equal.
  replace ((1 <=? mipLevelCount t - 1) && once_at cm f (mipLevelCount t - 1) d) with false.
  - apply IH; intros; apply H; right; auto.
  - symmetry; destruct (H d f (or_introl eq_refl)) as [H0|H0].
    + destruct (N.leb_spec 1 (mipLevelCount t - 1)); [lia|reflexivity].
    + rewrite H0; apply andb_false_r.
Qed.

(** Removing a [Once] level from a chain changes that level only. *)
Lemma chain_once {A} (gen : N -> A -> A) cust cust' b s m0 :
  (exists c, cust m0 = Some (c, Once)) -> cust' m0 = None ->
  (forall m, m <> m0 -> cust' m = cust m) ->
  forall k, snd (chain gen cust b s k) = snd (chain gen cust' b s k) /\
            (N.of_nat k <> m0 -> fst (chain gen cust b s k) = fst (chain gen cust' b s k)).
Proof.
  intros [c Hc] Hn Ho; induction k as [|k [IH _]]; [split; reflexivity|].
  cbn [chain]; rewrite <- IH.
  destruct (N.eq_dec (N.of_nat (S k)) m0) as [E|E].
  - rewrite E, Hc, Hn; simpl; split; [reflexivity|congruence].
  - rewrite (Ho _ E); destruct (cust (N.of_nat (S k))) as [[x [|]]|]; simpl; auto.
Qed.
End Aux.

(** ** C12 *)

Theorem C12_levels_filled : forall C (L : lib C) enc t, lib_ok L -> reachable L enc t ->
  forall rf levels cm t', customs_resizable rf cm ->
  generateMipmaps L t rf levels cm = Some (true, t') ->
  mipLevelCount t' = clamped_levels t levels /\
  dimensionOf t' = dimensionOf t /\ faceCount t' = faceCount t /\ colorSpaceOf t' = colorSpaceOf t /\
  isArray t' = isArray t /\
  (forall m, m < mipLevelCount t' ->
     width t' m = halvings (N.to_nat m) (width t 0) /\
     height t' m = halvings (N.to_nat m) (height t 0) /\ depth t' m = slices_at t m) /\
  (forall f d, in_range t f 0 d -> getImageF t' f 0 d = getImageF t f 0 d) /\
  (forall f m d, in_range t' f m d ->
     exists cs c, getImageF t' f m d = Some (Img I_RGBAF (width t' m) (height t' m) cs c)) /\
  imagesComplete t' = true.
Proof.
  intros C L enc t OK R rf l cm t' CR E; apply reachable_wf in R as W0; auto.
  destruct (true_inv L OK t rf l cm t' W0 CR E) as (i & im & -> & W & B & CO & CV & ->).
  pose proof (clamped_levels_bounds i l W) as HM.
  set (mips := clamped_levels (Some i) l) in *.
  repeat (split; [reflexivity|]).
  assert (G0 : forall f d, in_range (Some i) f 0 d -> get3 im 0 d f = get3 (t_images i) 0 d f /\ True).
  { intros f d IR. split; auto.
    destruct (t_dim i) eqn:D.
    3: { destruct (gm3d L OK i rf l cm W D B CV CO) as [(_ & im' & E' & _ & _ & SP)|(_ & im' & E')];
           rewrite E in E'; [|discriminate]; injection E' as <-.
         destruct (SP 0 ltac:(fold mips; lia)) as (Q1 & _).
         change (N.to_nat 0) with 0%nat in Q1; cbn [chain3 chain fst] in Q1.
         destruct (wf_base _ W) as [base HB].
         rewrite (base_sing i base W D HB) in HB.
         unfold get3; rewrite Q1, HB; reflexivity. }
    all: destruct (gm2d L OK i rf l cm W ltac:(congruence) B CV CO) as (im' & E' & _ & _ & Q & _);
      rewrite E in E'; injection E' as <-; apply Q;
      destruct IR as (_ & H1 & H2); [rewrite wf_depth0 in H1 by exact W; exact H1|exact H2]. }
  split; [|split; [|split]].
  - intros m Hm; cbn [mipLevelCount with_levels t_mips] in Hm.
    rewrite wf_width0, wf_height0 by assumption.
    pose proof (wf_w _ W); pose proof (wf_h _ W).
    rewrite (slices_at_eq i mips im m) by assumption.
    rewrite !halvings_shiftr, Nnat.N2Nat.id by lia.
    unfold width, height; cbn [with_levels t_mips t_width t_height].
    destruct (N.leb_spec mips m); [lia|]; auto.
  - intros f d IR.
    rewrite (getImageF_in' (with_levels i mips im)) by
      (first [exact (faces61 i W)|apply (range0 i); auto; lia]).
    rewrite (getImageF_in' i) by (first [exact (faces61 i W)|exact IR]).
    apply (G0 f d IR).
  - intros f m d IR.
    rewrite (getImageF_in' (with_levels i mips im)) by (first [exact (faces61 i W)|exact IR]).
    cbn [with_levels t_images].
    destruct IR as (Hm & Hd & Hf); cbn [mipLevelCount faceCount with_levels t_mips t_faces] in Hm, Hf.
    destruct (t_dim i) eqn:D.
    3: { destruct (gm3d L OK i rf l cm W D B CV CO) as [(_ & im' & E' & _ & _ & SP)|(_ & im' & E')];
           rewrite E in E'; [|discriminate]; injection E' as <-.
         destruct (SP m Hm) as (Q1 & Q2 & Q3).
         assert (f = 0) as -> by (rewrite (wf_faces _ W), D in Hf; lia).
         set (lv := fst (chain3 _ _ _ _ _ _)) in *.
         destruct (nthN_some lv d) as [x Hx]; [fold mips in Q2; lia|].
         unfold get3; rewrite Q1; cbn [obind]; rewrite nthN_map, Hx; cbn [obind].
         rewrite Forall_forall in Q3; destruct (Q3 x (nthN_In _ _ _ Hx)) as (cs & c & ->).
         exists cs, c; reflexivity. }
    all: rewrite depth_levels in Hd by (first [exact Hm|congruence]);
      destruct (gm2d L OK i rf l cm W ltac:(congruence) B CV CO) as (im' & E' & _ & _ & _ & GG);
      rewrite E in E'; injection E' as <-;
      assert (IN : In (d, f) (visit_order (N.max (t_depth i) 1) (t_faces i)))
        by (apply in_visit_order; auto);
      apply In_nth_error in IN as [j Hj];
      match type of GG with
      | forall j d f s, _ -> nth_error ?src j = Some s -> _ =>
          destruct (nth_error src j) as [s|] eqn:Es;
          [|apply nth_error_None in Es; rewrite sources_length in Es;
            assert (nth_error (visit_order (N.max (t_depth i) 1) (t_faces i)) j <> None) as Q by congruence;
            apply nth_error_Some in Q; lia]
      end;
      destruct (GG j d f s Hj Es m Hm) as [Q1 (cs & c & Q2)];
      exists cs, c; rewrite Q1, Q2; reflexivity.
  - destruct (t_dim i) eqn:D.
    3: { destruct (gm3d L OK i rf l cm W D B CV CO) as [(_ & im' & E' & IC & _)|(_ & im' & E')];
           rewrite E in E'; [|discriminate]; injection E' as <-; exact IC. }
    all: destruct (gm2d L OK i rf l cm W ltac:(congruence) B CV CO) as (im' & E' & IC & _);
      rewrite E in E'; injection E' as <-; exact IC.
Qed.
Print Assumptions C12_levels_filled.

(** The condition on custom images is needed: FreeImage cannot resize every format, and for
    the cubic filters there is no fallback; generateMipmaps still answers true. *)
Theorem C12_unresizable_refuted : exists (cs : list (call N)) t t',
  run L0 enc0 None cs = Some t /\
  generateMipmaps L0 t RF_Cubic 2 [((0, 1, 0), (px I_Int16 9 9 5, Once))] = Some (true, t') /\
  getImage t' 1 0 = Some NoImage /\ imagesComplete t' = false.
Proof.
  exists [CInit Dim2D 4 4 0 1 CS_Linear; CSet (px I_RGBAF 4 4 1) 0 0].
  do 2 eexists; split; [vm_compute; reflexivity|]; repeat split; vm_compute; reflexivity.
Qed.
Print Assumptions C12_unresizable_refuted.

(** A reachable 2x(5x4) array, completed by generateMipmaps. *)
Definition arr1 := snd (initialize (C:=N) Dim2D 5 4 2 1 CS_Linear).
Definition arr2 := match setImageF L0 arr1 (px I_RGB8 5 4 1) 0 0 0 with Some (_, t) => t | None => None end.
Definition arr3 := match setImageF L0 arr2 (px I_RGB8 5 4 2) 0 0 1 with Some (_, t) => t | None => None end.
Lemma arr3_reachable : reachable L0 enc0 arr3.
Proof.
  eapply (R_call L0 enc0 arr2 (CSetF (px I_RGB8 5 4 2) 0 0 1)); [| |vm_compute; reflexivity].
  - eapply (R_call L0 enc0 arr1 (CSetF (px I_RGB8 5 4 1) 0 0 0)); [| |vm_compute; reflexivity].
    + eapply (R_call L0 enc0 None (CInit Dim2D 5 4 2 1 CS_Linear)); [constructor| |vm_compute; reflexivity].
      vm_compute; auto.
    + vm_compute; auto.
  - vm_compute; auto.
Qed.
Example C12_example : reachable L0 enc0 arr3 /\
  exists t', generateMipmaps L0 arr3 RF_Cubic 9 [((0, 2, 1), (px I_RGB8 7 7 5, Continue))] = Some (true, t') /\
  mipLevelCount t' = 3 /\ getImageF t' 0 1 0 = Some (px I_RGBAF 2 2 102) /\
  getImageF t' 0 2 1 = Some (px I_RGBAF 1 1 501).
Proof.
  split; [exact arr3_reachable|].
  eexists; split; [vm_compute; reflexivity|]; repeat split.
Qed.

(** ** C13 *)

(** A custom image with an index in range is what its level holds. *)
Theorem C13_custom_used : forall C (L : lib C) enc t, lib_ok L -> reachable L enc t ->
  forall rf levels cm t' f m d i r, customs_resizable rf cm ->
  generateMipmaps L t rf levels cm = Some (true, t') ->
  in_range t' f m d -> 1 <= m -> cfind cm f m d = Some (i, r) ->
  getImageF t' f m d = Some (fitted L t' rf m i).
Proof.
  intros C L enc t OK R rf l cm t' f m d ci r CR E IR Hm1 HF; apply reachable_wf in R as W0; auto.
  destruct (true_inv L OK t rf l cm t' W0 CR E) as (i & im & -> & W & B & CO & CV & ->).
  rewrite (getImageF_in' (with_levels i _ im)) by (first [exact (faces61 i W)|exact IR]).
  destruct IR as (Hm & Hd & Hf); cbn [mipLevelCount faceCount with_levels t_mips t_faces] in Hm, Hf.
  assert (SM : exists k, N.to_nat m = S k /\ N.of_nat (S k) = m) by (exists (N.to_nat m - 1)%nat; lia).
  destruct SM as (k & Ek & Ek').
  destruct (t_dim i) eqn:D.
  3: { destruct (gm3d L OK i rf l cm W D B CV CO) as [(Hc & im' & E' & _ & _ & SP)|(_ & im' & E')];
         rewrite E in E'; [|discriminate]; injection E' as <-.
       destruct (SP m Hm) as (Q1 & Q2 & Q3).
       assert (f = 0) as -> by (rewrite (wf_faces _ W), D in Hf; lia).
       unfold get3; cbn [with_levels t_images]; rewrite Q1; cbn [obind]; rewrite nthN_map.
       rewrite Ek; unfold chain3; cbn [chain]; rewrite Ek'.
       pose proof (proj1 (consistent3_iff i (clamped_levels (Some i) l) im cm W) Hc) as Hc'.
       destruct (Hc' m ltac:(lia) Hm) as [Hn|[r0 Hr]].
       { rewrite Hn in HF by exact Hd; discriminate. }
       assert (Pd : 0 < depth (Some (with_levels i (clamped_levels (Some i) l) im)) m) by lia.
       unfold custom_slices; destruct (Hr 0 Pd) as [x0 ->].
       assert (RES : nthN (map (fun d0 => match cfind cm 0 m d0 with
            | Some (i0, _) => fitted L (Some (with_levels i (clamped_levels (Some i) l) im)) rf m i0
            | None => NoImage end)
            (Nrange (depth (Some (with_levels i (clamped_levels (Some i) l) im)) m))) d
          = Some (fitted L (Some (with_levels i (clamped_levels (Some i) l) im)) rf m ci)).
       { rewrite nthN_map, nthN_Nrange by exact Hd; rewrite HF; reflexivity. }
       destruct r0; cbn [fst]; rewrite RES; reflexivity. }
  all: rewrite depth_levels in Hd by (first [exact Hm|congruence]);
    destruct (gm2d L OK i rf l cm W ltac:(congruence) B CV CO) as (im' & E' & _ & _ & _ & GG);
    rewrite E in E'; injection E' as <-;
    assert (IN : In (d, f) (visit_order (N.max (t_depth i) 1) (t_faces i)))
      by (apply in_visit_order; auto);
    apply In_nth_error in IN as [j Hj];
    match type of GG with
    | forall j d f s, _ -> nth_error ?src j = Some s -> _ =>
        destruct (nth_error src j) as [s|] eqn:Es;
        [|apply nth_error_None in Es; rewrite sources_length in Es;
          assert (nth_error (visit_order (N.max (t_depth i) 1) (t_faces i)) j <> None) as Q by congruence;
          apply nth_error_Some in Q; lia]
    end;
    destruct (GG j d f s Hj Es m Hm) as [Q1 _];
    cbn [with_levels t_images]; rewrite Q1, Ek; cbn [chain]; rewrite Ek';
    unfold custom_at; rewrite HF; destruct r; reflexivity.
Qed.
Print Assumptions C13_custom_used.

(** 1D, 2D and cube textures: the exact content of every level of every layer and face.  The
    chain of an image starts from [level1_sources], which is its own level 0 unless the image
    visited before it has a [Once] custom image on the last level. *)
Theorem C13_level_contents : forall C (L : lib C) enc t, lib_ok L -> reachable L enc t ->
  forall rf levels cm t', customs_resizable rf cm -> dimensionOf t <> Dim3D ->
  generateMipmaps L t rf levels cm = Some (true, t') ->
  forall j d f s m,
  nth_error (visit_order (depth t 0) (faceCount t)) j = Some (d, f) ->
  nth_error (level1_sources L t' rf cm (level0 t) (visit_order (depth t 0) (faceCount t)) None) j
    = Some s ->
  m < mipLevelCount t' ->
  getImageF t' f m d
  = Some (fst (chain (gen_image L t' rf) (custom_at L t' rf cm f d) (level0 t d f) s (N.to_nat m))).
Proof.
  intros C L enc t OK R rf l cm t' CR D E j d f s m Hj Hs Hm; apply reachable_wf in R as W0; auto.
  destruct (true_inv L OK t rf l cm t' W0 CR E) as (i & im & -> & W & B & CO & CV & ->).
  rewrite wf_depth0 in Hj, Hs by exact W; cbn [faceCount] in Hj, Hs.
  cbn [mipLevelCount with_levels t_mips] in Hm.
  rewrite (getImageF_in' (with_levels i _ im)).
  - destruct (gm2d L OK i rf l cm W D B CV CO) as (im' & E' & _ & _ & _ & GG).
    rewrite E in E'; injection E' as <-.
    apply (GG j d f s Hj Hs m Hm).
  - exact (faces61 i W).
  - apply nth_error_In, in_visit_order in Hj.
    split; [exact Hm|]; split; [rewrite depth_levels by auto; apply Hj|apply Hj].
Qed.
Print Assumptions C13_level_contents.

(** In particular, without [Once] images on the last level every chain is built from its own
    level 0, with [Continue] images as the source of the following levels. *)
Theorem C13_own_chain : forall C (L : lib C) enc t, lib_ok L -> reachable L enc t ->
  forall rf levels cm t', customs_resizable rf cm -> dimensionOf t <> Dim3D ->
  generateMipmaps L t rf levels cm = Some (true, t') ->
  (forall f d, d < depth t 0 -> f < faceCount t ->
     mipLevelCount t' <= 1 \/ once_at cm f (mipLevelCount t' - 1) d = false) ->
  forall f m d, in_range t' f m d ->
  getImageF t' f m d
  = Some (fst (chain (gen_image L t' rf) (custom_at L t' rf cm f d) (level0 t d f) (level0 t d f)
                     (N.to_nat m))).
Proof.
  intros C L enc t OK R rf l cm t' CR D E HO f m d IR; apply reachable_wf in R as W0; auto.
  assert (VO : exists j, nth_error (visit_order (depth t 0) (faceCount t)) j = Some (d, f)).
  { apply In_nth_error, in_visit_order.
    destruct (C12_levels_filled C L enc t OK R rf l cm t' CR E) as (_ & _ & Fc & _ & _ & Ex & _).
    destruct IR as (Hm & Hd & Hf); destruct (Ex m Hm) as (_ & _ & Dm).
    rewrite Dm in Hd; rewrite Fc in Hf; unfold slices_at in Hd; split; [|exact Hf].
    destruct (dimensionOf t); congruence. }
  destruct VO as [j Hj].
  eapply (C13_level_contents C L enc t OK R rf l cm t' CR D E j); [exact Hj| |apply IR].
  rewrite sources_own.
  - rewrite nth_error_map, Hj; reflexivity.
  - intros d' f' Hin; apply in_visit_order in Hin; apply HO; tauto.
Qed.
Print Assumptions C13_own_chain.

(** Volumes: the slices of every level, from the chain of whole levels. *)
Theorem C13_volume_contents : forall C (L : lib C) enc t, lib_ok L -> reachable L enc t ->
  forall rf levels cm t', customs_resizable rf cm -> dimensionOf t = Dim3D ->
  generateMipmaps L t rf levels cm = Some (true, t') ->
  forall m d, m < mipLevelCount t' -> d < depth t' m ->
  getImageF t' 0 m d
  = nthN (fst (chain (gen_slices L t' rf) (custom_slices L t' rf cm) (slices0 t) (slices0 t)
                     (N.to_nat m))) d /\
  getImageF t' 0 m d <> None.
Proof.
  intros C L enc t OK R rf l cm t' CR D E m d Hm Hd; apply reachable_wf in R as W0; auto.
  destruct (true_inv L OK t rf l cm t' W0 CR E) as (i & im & -> & W & B & CO & CV & ->).
  cbn [mipLevelCount with_levels t_mips] in Hm; cbn [dimensionOf] in D.
  assert (IR : in_range (Some (with_levels i (clamped_levels (Some i) l) im)) 0 m d).
  { split; [exact Hm|]; split; [exact Hd|]; simpl; rewrite (wf_faces _ W), D; lia. }
  rewrite (getImageF_in' (with_levels i _ im)) by (first [exact (faces61 i W)|exact IR]).
  destruct (gm3d L OK i rf l cm W D B CV CO) as [(Hc & im' & E' & _ & _ & SP)|(_ & im' & E')];
         rewrite E in E'; [|discriminate]; injection E' as <-.
  destruct (SP m Hm) as (Q1 & Q2 & _).
  unfold get3; cbn [with_levels t_images]; rewrite Q1; cbn [obind]; rewrite nthN_map.
  unfold chain3 in *.
  destruct (nthN_some (fst (chain (gen_slices L (Some (with_levels i (clamped_levels (Some i) l) im)) rf)
     (custom_slices L (Some (with_levels i (clamped_levels (Some i) l) im)) rf cm)
     (slices0 (Some i)) (slices0 (Some i)) (N.to_nat m))) d) as [x Hx]; [lia|].
  rewrite Hx; split; [reflexivity|discriminate].
Qed.
Print Assumptions C13_volume_contents.

(** A [Once] image influences no other level: dropping it changes nothing else. *)
Theorem C13_once_isolated : forall C (L : lib C) enc t, lib_ok L -> reachable L enc t ->
  forall rf levels cm cm' t1 t2 f0 m0 d0 i0, customs_resizable rf cm -> customs_resizable rf cm' ->
  dimensionOf t <> Dim3D ->
  cfind cm f0 m0 d0 = Some (i0, Once) -> cfind cm' f0 m0 d0 = None ->
  (forall f m d, (f, m, d) <> (f0, m0, d0) -> cfind cm' f m d = cfind cm f m d) ->
  (forall f d, once_at cm f (clamped_levels t levels - 1) d = false) ->
  generateMipmaps L t rf levels cm = Some (true, t1) ->
  generateMipmaps L t rf levels cm' = Some (true, t2) ->
  forall f m d, in_range t1 f m d -> (f, m, d) <> (f0, m0, d0) ->
  getImageF t1 f m d = getImageF t2 f m d.
Proof.
  intros C L enc t OK R rf l cm cm' t1 t2 f0 m0 d0 i0 CR CR' D H1 H2 H3 H4 E1 E2 f m d IR NE.
  destruct (C12_levels_filled C L enc t OK R rf l cm t1 CR E1) as (M1 & _).
  destruct (C12_levels_filled C L enc t OK R rf l cm' t2 CR' E2) as (M2 & _).
  apply reachable_wf in R as W0; auto.
  destruct (true_inv L OK t rf l cm t1 W0 CR E1) as (i & im & Et & W & _ & _ & _ & Et1).
  destruct (true_inv L OK t rf l cm' t2 W0 CR' E2) as (i' & im' & Et' & _ & _ & _ & _ & Et2).
  assert (i' = i) as -> by congruence.
  assert (NL : forall f d, once_at cm' f (clamped_levels t l - 1) d = false).
  { intros f' d'; specialize (H4 f' d'); unfold once_at in *.
    destruct (N.eq_dec f' f0) as [->|]; [destruct (N.eq_dec d' d0) as [->|];
      [destruct (N.eq_dec (clamped_levels t l - 1) m0) as [->|]|]|].
    1: rewrite H2; reflexivity.
    all: rewrite H3 by congruence; exact H4. }
  rewrite (C13_own_chain C L enc t OK R rf l cm t1 CR D E1); auto.
  2: { intros; right; rewrite M1; apply H4. }
  assert (IR2 : in_range t2 f m d) by (subst t1 t2; exact IR).
  rewrite (C13_own_chain C L enc t OK R rf l cm' t2 CR' D E2); auto.
  2: { intros; right; rewrite M2; apply NL. }
  f_equal.
  assert (EG : gen_image L t2 rf = gen_image L t1 rf) by (subst t1 t2; reflexivity).
  assert (EC : forall cm0 f d, custom_at L t2 rf cm0 f d = custom_at L t1 rf cm0 f d)
    by (subst t1 t2; reflexivity).
  rewrite EG, EC.
  destruct (N.eq_dec f f0) as [->|Hf]; [destruct (N.eq_dec d d0) as [->|Hd]|].
  - destruct (chain_once (gen_image L t1 rf) (custom_at L t1 rf cm f0 d0) (custom_at L t1 rf cm' f0 d0)
                (level0 t d0 f0) (level0 t d0 f0) m0) with (k := N.to_nat m) as [_ Q].
    + unfold custom_at; rewrite H1; eauto.
    + unfold custom_at; rewrite H2; reflexivity.
    + intros k Hk; unfold custom_at; rewrite H3 by congruence; reflexivity.
    + apply Q; rewrite Nnat.N2Nat.id; congruence.
  - assert (EQ : forall k, custom_at L t1 rf cm' f0 d k = custom_at L t1 rf cm f0 d k)
      by (intros k; unfold custom_at; rewrite H3 by congruence; reflexivity).
    generalize (N.to_nat m) as k; intros k; f_equal; clear - EQ.
    induction k as [|k IH]; [reflexivity|]; cbn [chain]; rewrite IH, EQ; reflexivity.
  - assert (EQ : forall k, custom_at L t1 rf cm' f d k = custom_at L t1 rf cm f d k)
      by (intros k; unfold custom_at; rewrite H3 by congruence; reflexivity).
    generalize (N.to_nat m) as k; intros k; f_equal; clear - EQ.
    induction k as [|k IH]; [reflexivity|]; cbn [chain]; rewrite IH, EQ; reflexivity.
Qed.
Print Assumptions C13_once_isolated.

(** On the last level a [Once] image does leak: here it is given for layer 0 only, and changes
    level 1 of layer 1. *)
Theorem C13_once_last_refuted : exists t1 t2,
  generateMipmaps L0 arr3 RF_Box 3 [((0, 2, 0), (px I_RGBAF 1 1 9, Once))] = Some (true, t1) /\
  generateMipmaps L0 arr3 RF_Box 3 [] = Some (true, t2) /\
  getImageF t1 0 1 1 = Some (px I_RGBAF 2 2 1020102) /\
  getImageF t2 0 1 1 = Some (px I_RGBAF 2 2 202).
Proof. do 2 eexists; repeat split; vm_compute; reflexivity. Qed.
Print Assumptions C13_once_last_refuted.

(** A custom image keeps its own colour space: the level may differ from the texture's. *)
Theorem C13_colour_space_refuted : exists t',
  generateMipmaps L0 arr3 RF_Box 2 [((0, 1, 0), (Img I_RGB8 9 9 CS_sRGB 9, Continue))]
    = Some (true, t') /\
  colorSpaceOf t' = CS_Linear /\ getImageF t' 0 1 0 = Some (Img I_RGBAF 2 2 CS_sRGB 902).
Proof. eexists; repeat split; vm_compute; reflexivity. Qed.
Print Assumptions C13_colour_space_refuted.

Example C13_example :
  exists t1 t2,
  generateMipmaps L0 arr3 RF_Box 3 [((0, 1, 0), (px I_RGBAF 2 2 9, Once))] = Some (true, t1) /\
  generateMipmaps L0 arr3 RF_Box 3 [((0, 1, 0), (px I_RGBAF 2 2 9, Continue))] = Some (true, t2) /\
  map (fun m => getImageF t1 0 m 0) [0; 1; 2]
    = [Some (px I_RGBAF 5 4 1); Some (px I_RGBAF 2 2 9); Some (px I_RGBAF 1 1 10201)] /\
  map (fun m => getImageF t2 0 m 0) [0; 1; 2]
    = [Some (px I_RGBAF 5 4 1); Some (px I_RGBAF 2 2 9); Some (px I_RGBAF 1 1 901)].
Proof. do 2 eexists; repeat split; vm_compute; reflexivity. Qed.

(** ** C14 *)

(** generateMipmaps never hits undefined behaviour on a reachable texture, and answers true
    exactly when level 0 is set, the custom images are valid and, for volumes, consistent. *)
Theorem C14_success_iff : forall C (L : lib C) enc t, lib_ok L -> reachable L enc t ->
  forall rf levels cm, customs_resizable rf cm ->
  exists b t', generateMipmaps L t rf levels cm = Some (b, t') /\
    (b = true <-> base_set t /\ customs_valid cm /\
       (dimensionOf t = Dim3D -> consistent3 (clamped_levels t levels) (slices_at t) cm)) /\
    (b = false -> (dimensionOf t <> Dim3D \/ ~ base_set t \/ ~ customs_valid cm) -> t' = t).
Proof.
  intros C L enc t OK R rf l cm CR; apply reachable_wf in R as W; auto.
  destruct (gm_cases L OK t rf l cm W CR) as [(B & V & Hc & i & im & -> & _ & _ & _ & E)|(N & t' & E & U1 & U2 & _)].
  - do 2 eexists; split; [exact E|]; split; [tauto|discriminate].
  - exists false, t'; split; [exact E|]; split; [split; [discriminate|tauto]|].
    intros _ [H|H]; auto.
Qed.
Print Assumptions C14_success_iff.

(** An inconsistent set on a volume answers false but has already changed the level count. *)
Definition vol (d : N) : list (call N) :=
  CInit Dim3D 4 4 d 1 CS_Linear :: map (fun k => CSet (px I_RGBAF 4 4 k) 0 k) (Nrange d).
Theorem C14_failure_changes_levels_refuted : exists t1 t2,
  run L0 enc0 None (vol 4) = Some t1 /\
  generateMipmaps L0 t1 RF_Box 3 [((0, 1, 0), (px I_RGBAF 2 2 5, Once))] = Some (false, t2) /\
  mipLevelCount t1 = 1 /\ mipLevelCount t2 = 3.
Proof. do 2 eexists; repeat split; vm_compute; reflexivity. Qed.
Print Assumptions C14_failure_changes_levels_refuted.

Example C14_example : exists t t',
  run L0 enc0 None (vol 4) = Some t /\
  generateMipmaps L0 t RF_Box 3 [((0, 1, 0), (px I_RGBAF 1 1 5, Once));
    ((0, 1, 1), (px I_RGBAF 1 1 6, Once)); ((0, 2, 0), (px I_RGBAF 1 1 7, Continue))] = Some (true, t').
Proof. do 2 eexists; split; vm_compute; reflexivity. Qed.

(** ** C15 *)

Theorem C15_convert : forall C (L : lib C) enc t, lib_ok L -> reachable L enc t ->
  forall fl a, exists b t', step L enc t (CConvert fl a) = Some (b, t') /\
  (b = true <-> imagesComplete t = true /\ isFormatValid fl (ca_format a) (ca_type a) = true /\
     (colorSpaceOf t = CS_sRGB -> hasNativeSRGB (ca_format a) (ca_type a) = true)) /\
  (b = false -> t' = t) /\
  (b = true ->
     formatOf t' = Some (ca_format a) /\ typeOf t' = ca_type a /\ alphaOf t' = ca_alpha a /\
     maskOf t' = ca_mask a /\ converted t' = true /\ imagesComplete t' = false /\
     dimensionOf t' = dimensionOf t /\ faceCount t' = faceCount t /\
     colorSpaceOf t' = colorSpaceOf t /\ isArray t' = isArray t /\
     mipLevelCount t' = mipLevelCount t /\
     (forall m, width t' m = width t m /\ height t' m = height t m /\ depth t' m = depth t m) /\
     exists cv, createConverter fl (ca_format a) (ca_type a) = Some cv /\
     forall f m d, in_range t f m d ->
       getImageF t' f m d = Some NoImage /\
       exists img, getImageF t f m d = Some img /\ isValid img = true /\
         dataF t' f m d = Some (Some (enc cv a img))).
Proof.
  intros C L enc t OK R fl a; apply reachable_wf in R as W; auto; cbn [step].
  destruct (convert_spec enc fl t a W) as [(IC & FV & SR & i & cv & -> & CC & E & W' & NE)|[N E]].
  2: { exists false, t; rewrite E; split; [reflexivity|]; split; [split; [discriminate|tauto]|].
       split; [reflexivity|discriminate]. }
  rewrite E; eexists; eexists; split; [reflexivity|].
  split; [tauto|]; split; [discriminate|]; intros _.
  simpl in W.
  pose proof (wf_mips _ W) as HM.
  match type of W' with wf ?x => set (i' := x) in * end.
  assert (R0 : in_range (Some i) 0 0 0).
  { split; [simpl; lia|]; split; [apply depth_pos; lia|].
    destruct (faces61 i W) as [H|H]; simpl; lia. }
  assert (GI : forall f m d, in_range (Some i) f m d -> get3 (t_images i') m d f = Some NoImage).
  { intros f m d IR; destruct (wf_get3 _ W _ _ _ IR) as [x Hx].
    unfold i'; cbn [t_images]; rewrite get3_map3, Hx; reflexivity. }
  assert (CVD : converted (Some i') = true).
  { unfold converted; destruct (t_textures i'); [congruence|reflexivity]. }
  repeat (split; [first [reflexivity|exact CVD]|]).
  split.
  { apply not_true_iff_false; intros IC'.
    destruct (complete_visible i' W' IC' 0 0 0 R0) as (x & Hx & V).
    destruct (getImageF_in (Some i') 0 0 0 W' R0) as (? & [= <-] & Q).
    rewrite Q, (GI _ _ _ R0) in Hx; injection Hx as <-; discriminate. }
  repeat (split; [first [reflexivity|intros m; auto]|]).
  exists cv; split; [exact CC|]; intros f m d IR.
  split.
  { destruct (getImageF_in (Some i') f m d W' IR) as (? & [= <-] & ->); apply GI, IR. }
  destruct (complete_visible i W IC f m d IR) as (x & Hx & V).
  exists x; split; [exact Hx|]; split; [exact V|].
  destruct (getImageF_in (Some i) f m d W IR) as (? & [= <-] & Q); rewrite Q in Hx.
  unfold dataF; rewrite CVD; cbn [negb orb].
  destruct IR as (Hm & Hd & Hf).
  change (depth (Some i') m) with (depth (Some i) m).
  destruct (N.leb_spec (depth (Some i) m) d); [lia|]; cbn [orb].
  change (faceCount (Some i')) with (t_faces i); cbn [faceCount] in Hf.
  replace (negb (t_faces i =? 6) && negb (f =? 0)) with false
    by (destruct (faces61 i W) as [F|F]; rewrite F in *; lia).
  unfold i'; cbn [t_textures]; rewrite get3_map3, Hx; reflexivity.
Qed.
Print Assumptions C15_convert.

(** Data exists exactly for indices in range of a converted texture. *)
Theorem C15_data_range : forall C (L : lib C) enc t, lib_ok L -> reachable L enc t ->
  forall f m d, f < 6 ->
  ((exists b, dataF t f m d = Some (Some b)) <-> converted t = true /\ in_range t f m d).
Proof.
  intros C L enc t OK R f m d Hf; apply reachable_wf in R as W; auto.
  unfold dataF; destruct (converted t) eqn:CV; cbn [negb orb].
  2: { split; [intros [b H]; discriminate|intros [H _]; discriminate]. }
  destruct (N.leb_spec (depth t m) d) as [Hd|Hd]; cbn [orb].
  { split; [intros [b H]; discriminate|intros [_ (_ & H & _)]; lia]. }
  destruct t as [i|]; [|discriminate]; simpl in W; cbn [faceCount].
  assert (NE : t_textures i <> []) by (simpl in CV; destruct (t_textures i); congruence).
  destruct (negb (t_faces i =? 6) && negb (f =? 0)) eqn:EF.
  - split; [intros [b H]; discriminate|]. intros [_ (_ & _ & H)]; cbn [faceCount] in H.
    destruct (faces61 i W); lia.
  - assert (R1 : in_range (Some i) f m d).
    { split; [eapply depth_mips; exact Hd|]; split; [exact Hd|]; simpl.
      destruct (faces61 i W) as [Fc|Fc]; rewrite Fc in *; lia. }
    destruct (wf_tex3 _ W NE _ _ _ R1) as [x Hx]; rewrite Hx; cbn [obind].
    split; [auto|intros _; eauto].
Qed.
Print Assumptions C15_data_range.

Example C15_example : exists t',
  step L0 enc0 arr3 (CConvert flags_all args0) = Some (true, t') /\
  dataF t' 0 0 1 = Some (Some [5; 4]) /\
  step L0 enc0 arr2 (CConvert flags_all args0) = Some (false, arr2).
Proof. eexists; repeat split; vm_compute; reflexivity. Qed.

(** ** C47 *)

Section CustomMipAux.
Context {C : Type}.
Implicit Types (m : mem C).

Definition own_or_ext m : Prop := forall a o, m_obj m a = Some o ->
  c_image o = PStorage a \/ exists k, c_image o = PExternal k.

Lemma setobj_eq m a o : m_obj (setobj m a o) a = Some o.
Proof. simpl; rewrite N.eqb_refl; reflexivity. Qed.
Lemma setobj_ne m a b o : b <> a -> m_obj (setobj m a o) b = m_obj m b.
Proof. intros H; simpl; destruct (N.eqb_spec b a); congruence. Qed.

Lemma own_setobj m a o : own_or_ext m ->
  (c_image o = PStorage a \/ exists k, c_image o = PExternal k) -> own_or_ext (setobj m a o).
Proof.
  intros W H b o'; destruct (N.eq_dec b a) as [->|Hb].
  - rewrite setobj_eq; intros [= <-]; auto.
  - rewrite setobj_ne by auto; apply W.
Qed.

Lemma own_ptr m b o : own_or_ext m -> m_obj m b = Some o ->
  (ptr_eqb (c_image o) (PStorage b) = true /\ c_image o = PStorage b) \/
  (ptr_eqb (c_image o) (PStorage b) = false /\ exists k, c_image o = PExternal k).
Proof.
  intros W H; destruct (W _ _ H) as [->|[k ->]]; [left|right]; simpl; eauto.
  rewrite N.eqb_refl; auto.
Qed.

Lemma exec_own m o m' : own_or_ext m -> exec m o = Some m' -> own_or_ext m'.
Proof.
  intros W; destruct o; simpl; unfold ctor_copy, ctor_move, assign_copy, assign_move.
  - intros [= <-]; apply own_setobj; simpl; eauto.
  - intros [= <-]; apply own_setobj; simpl; eauto.
  - destruct (m_obj m b) as [o|] eqn:E; [|discriminate]; simpl.
    destruct (own_ptr m b o W E) as [[-> Q]|[-> [k Q]]]; intros [= <-]; apply own_setobj; simpl; eauto.
  - destruct (m_obj m b) as [o|] eqn:E; [|discriminate]; simpl.
    destruct (own_ptr m b o W E) as [[-> Q]|[-> [k Q]]]; intros [= <-];
      repeat apply own_setobj; simpl; eauto.
  - destruct (a =? b); [intros [= <-]; auto|].
    destruct (m_obj m a) as [o1|] eqn:E1; [|discriminate]; simpl.
    destruct (m_obj m b) as [o|] eqn:E; [|discriminate]; simpl.
    destruct (own_ptr m b o W E) as [[-> Q]|[-> [k Q]]]; intros [= <-]; apply own_setobj; simpl; eauto.
  - destruct (a =? b); [intros [= <-]; auto|].
    destruct (m_obj m a) as [o1|] eqn:E1; [|discriminate]; simpl.
    destruct (m_obj m b) as [o|] eqn:E; [|discriminate]; simpl.
    destruct (own_ptr m b o W E) as [[-> Q]|[-> [k Q]]]; intros [= <-];
      repeat apply own_setobj; simpl; eauto.
  - intros [= <-] b o; simpl; destruct (b =? a); [discriminate|apply W].
Qed.

Lemma mreach_own ext m : mreach ext m -> own_or_ext m /\ m_ext m = ext.
Proof.
  induction 1 as [|m o m' R [IH1 IH2] _ E]; [split; [discriminate|reflexivity]|].
  split; [eapply exec_own; eauto|]. rewrite <- IH2.
  destruct o; simpl in E; unfold ctor_copy, ctor_move, assign_copy, assign_move in E;
    repeat (match type of E with
            | context [if ?c then _ else _] => destruct c
            | context [obind (m_obj ?m ?x) _] => destruct (m_obj m x); simpl in E
            end; try discriminate); injection E as <-; reflexivity.
Qed.

(** The object an operation writes, and the one it moves from. *)
Definition touches (o : op C) (x : N) : Prop :=
  match o with
  | OBorrow a _ _ | OOwn a _ _ | OCopy a _ | OAssignCopy a _ | ODestroy a => x = a
  | OMove a b | OAssignMove a b => x = a \/ x = b
  end.

Lemma exec_frame m o m' x : own_or_ext m -> exec m o = Some m' -> ~ touches o x ->
  m_obj m' x = m_obj m x /\ m_ext m' = m_ext m.
Proof.
  intros W E NT; destruct o; simpl in E, NT;
    unfold ctor_copy, ctor_move, assign_copy, assign_move, ctor_borrow, ctor_own, destroy in E;
    repeat (match type of E with
            | context [if ?c then _ else _] => destruct c
            | context [obind (m_obj ?m ?x) _] => destruct (m_obj m x); simpl in E
            end; try discriminate); injection E as <-; split; try reflexivity;
    try (rewrite !setobj_ne by tauto; reflexivity).
  simpl; destruct (N.eqb_spec x a); tauto.
Qed.

Lemma deref_local m x : own_or_ext m -> deref m x =
  obind (m_obj m x) (fun o => match c_image o with PExternal k => Some (m_ext m k)
                              | PStorage _ => Some (c_storage o) end).
Proof.
  intros W; unfold deref; destruct (m_obj m x) as [o|] eqn:E; [|reflexivity]; simpl.
  destruct (W _ _ E) as [->|[k ->]]; [rewrite E|]; reflexivity.
Qed.
End CustomMipAux.

(** In every state reachable by constructing, copying, moving, assigning and destroying, the
    pointer of a live object designates its own storage or an image supplied by the caller:
    never another object's storage, so it never dangles. *)
Theorem C47_never_aliases : forall C (ext : N -> image C) m, mreach ext m ->
  forall a o, m_obj m a = Some o ->
  (c_image o = PStorage a \/ exists k, c_image o = PExternal k) /\ deref m a <> None.
Proof.
  intros C ext m R a o E; destruct (mreach_own ext m R) as [W _]; split; [eapply W; eauto|].
  rewrite deref_local, E by auto; simpl; destruct (c_image o); discriminate.
Qed.
Print Assumptions C47_never_aliases.

(** Operations on other objects do not change what an object shows. *)
Theorem C47_independent : forall C (ext : N -> image C) m o m' x, mreach ext m -> op_ok m o ->
  exec m o = Some m' -> ~ touches o x ->
  deref m' x = deref m x /\ repl_of m' x = repl_of m x.
Proof.
  intros C ext m o m' x R K E NT; destruct (mreach_own ext m R) as [W _].
  pose proof (exec_own m o m' W E) as W'.
  destruct (exec_frame m o m' x W E NT) as [F1 F2].
  rewrite !deref_local by auto; unfold repl_of; rewrite F1, F2; auto.
Qed.
Print Assumptions C47_independent.

(** An object built from a borrowed image shows that image, wherever it lives; one built from an
    image it takes over shows the image it was given. *)
Theorem C47_built : forall C (ext : N -> image C) m m', mreach ext m ->
  (forall a k r, op_ok m (OBorrow a k r) -> exec m (OBorrow a k r) = Some m' ->
     deref m' a = Some (ext k) /\ repl_of m' a = Some r) /\
  (forall a i r, op_ok m (OOwn a i r) -> exec m (OOwn a i r) = Some m' ->
     deref m' a = Some i /\ repl_of m' a = Some r).
Proof.
  intros C ext m m' R; destruct (mreach_own ext m R) as [W X]; split; intros a x r K E;
    pose proof (exec_own m _ m' W E) as W'; rewrite deref_local by auto; unfold repl_of;
    cbn [exec] in E; injection E as <-; unfold ctor_borrow, ctor_own;
    rewrite setobj_eq; cbn [obind c_image c_repl c_storage]; auto.
  cbn [setobj m_ext]. rewrite X. auto.
Qed.
Print Assumptions C47_built.

(** Construction preserves image and mode; copying leaves the source as it was. *)
Theorem C47_construct : forall C (ext : N -> image C) m a b m', mreach ext m ->
  (op_ok m (OCopy a b) -> exec m (OCopy a b) = Some m' ->
     deref m' a = deref m b /\ repl_of m' a = repl_of m b /\
     deref m' b = deref m b /\ repl_of m' b = repl_of m b) /\
  (op_ok m (OMove a b) -> exec m (OMove a b) = Some m' ->
     deref m' a = deref m b /\ repl_of m' a = repl_of m b /\ repl_of m' b = repl_of m b).
Proof.
  intros C ext m a b m' R; destruct (mreach_own ext m R) as [W _]; split; intros [K1 K2] E;
    pose proof (exec_own m _ m' W E) as W'; rewrite !deref_local by auto; unfold repl_of;
    cbn [exec] in E; unfold ctor_copy, ctor_move in E;
    destruct (m_obj m b) as [o|] eqn:Eb; try congruence;
    assert (b <> a) by congruence; cbn [obind] in E;
    destruct (own_ptr m b o W Eb) as [[Q1 Q2]|[Q1 [k Q2]]]; rewrite Q1 in E; injection E as <-;
    rewrite ?setobj_eq, !(setobj_ne _ a b) by auto; rewrite ?setobj_eq, ?Eb; cbn [obind c_image c_repl c_storage];
    rewrite ?Q2; auto.
Qed.
Print Assumptions C47_construct.

(** Assignment preserves the image; the destination keeps its own mode. *)
Theorem C47_assign : forall C (ext : N -> image C) m a b m', mreach ext m ->
  (op_ok m (OAssignCopy a b) -> exec m (OAssignCopy a b) = Some m' ->
     deref m' a = deref m b /\ deref m' b = deref m b /\
     repl_of m' a = repl_of m a /\ repl_of m' b = repl_of m b) /\
  (op_ok m (OAssignMove a b) -> exec m (OAssignMove a b) = Some m' ->
     deref m' a = deref m b /\ repl_of m' a = repl_of m a).
Proof.
  intros C ext m a b m' R; destruct (mreach_own ext m R) as [W _]; split; intros [K1 K2] E;
    pose proof (exec_own m _ m' W E) as W'; rewrite !deref_local by auto; unfold repl_of;
    cbn [exec] in E; unfold assign_copy, assign_move in E;
    (destruct (N.eqb_spec a b) as [->|Hab]; [injection E as <-; auto|]);
    destruct (m_obj m b) as [o|] eqn:Eb; try congruence;
    destruct (m_obj m a) as [o1|] eqn:Ea; try congruence;
    cbn [obind] in E;
    destruct (own_ptr m b o W Eb) as [[Q1 Q2]|[Q1 [k Q2]]]; rewrite Q1 in E; injection E as <-;
    rewrite ?setobj_eq, ?(setobj_ne _ a b) by auto; rewrite ?setobj_eq, ?Eb; cbn [obind c_image c_repl c_storage];
    rewrite ?Q2; auto.
Qed.
Print Assumptions C47_assign.

(** So assignment does not preserve the replacement mode. *)
Theorem C47_assign_mode_refuted : exists m m', mreach (fun _ => px I_RGB8 2 2 1) m /\
  op_ok m (OAssignCopy 1 2) /\ exec m (OAssignCopy 1 2) = Some m' /\
  repl_of m 2 = Some Continue /\ repl_of m' 1 = Some Once.
Proof.
  exists (ctor_own (ctor_borrow (Mem (fun _ => None) (fun _ => px I_RGB8 2 2 1)) 1 0 Once) 2
            (px I_RGB8 4 4 7) Continue).
  eexists; split.
  - eapply (MR_op _ (ctor_borrow (Mem (fun _ => None) (fun _ => px I_RGB8 2 2 1)) 1 0 Once)
              (OOwn 2 (px I_RGB8 4 4 7) Continue)); [|reflexivity|reflexivity].
    eapply (MR_op _ (Mem (fun _ => None) (fun _ => px I_RGB8 2 2 1)) (OBorrow 1 0 Once));
      [constructor|reflexivity|reflexivity].
  - split; [split; discriminate|]; repeat split.
Qed.
Print Assumptions C47_assign_mode_refuted.

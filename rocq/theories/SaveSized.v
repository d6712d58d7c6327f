(** Every surface of a reachable texture exists and has the size its format demands. *)
From Coq Require Import NArith List Bool Lia ZArith.
From Coq Require Import ZifyBool ZifyNat ZifyN.
From Verif Require Import Base FormatModel FormatSpec ContainerSpec SaveFormats FormatProofs
  TextureModel TextureSpec TextureProofs PropsMips SaveModel SaveSpec SaveProofs.
Import ListNotations.
Local Open Scope N_scope.

Lemma has_data_of {C} (t : texture C) : wft t -> converted t = true -> has_data t.
Proof.
  intros W CV f m d IR.
  assert (E : exists b, dataF t f m d = Some (Some b)).
  { unfold dataF; rewrite CV; cbn [negb orb].
    destruct t as [i|]; [|discriminate]; simpl in W.
    destruct IR as (Hm & Hd & Hf).
    destruct (N.leb_spec (depth (Some i) m) d); [lia|]; cbn [orb].
    replace (negb (faceCount (Some i) =? 6) && negb (f =? 0)) with false
      by (cbn [faceCount] in *; destruct (faces61 i W) as [F|F]; rewrite F in *; lia).
    assert (NE : t_textures i <> []) by (simpl in CV; destruct (t_textures i); congruence).
    destruct (wf_tex3 _ W NE f m d) as [x Hx]; [repeat split; auto|].
    rewrite Hx; cbn [obind]; eauto. }
  destruct E as [b E]; unfold surf; rewrite E; reflexivity.
Qed.

Section Sized.
Context {C : Type} (L : lib C) (enc : converter -> convargs -> image C -> list N).
Context (psize : format -> N -> N -> N).
Implicit Types (t : texture C).

Lemma sized_unconverted t : converted t = false -> sized psize t.
Proof. intros H f m d b _; unfold dataF; rewrite H; cbn [negb orb]; discriminate. Qed.

Lemma sized_with_images (i : impl C) im : sized psize (Some i) -> sized psize (Some (with_images i im)).
Proof. intros H f m d b IR E; exact (H f m d b IR E). Qed.

Lemma store_shape (i : impl C) img f m d b t' : store_image L i img f m d = Some (b, t') ->
  exists im, t' = Some (with_images i im).
Proof.
  unfold store_image; destruct (set3 _ _ _ _ _) as [im|]; [|discriminate].
  cbn [obind]; intros [= <- <-]; eauto.
Qed.

Lemma step_sized t c b t' : lib_ok L -> enc_sized psize enc -> wft t -> allowed t c ->
  step L enc t c = Some (b, t') -> sized psize t -> sized psize t'.
Proof.
  intros OK ES W [K A] E SZ; destruct c; cbn [step] in E.
  - injection E as E; unfold initialize in E.
    match type of E with (if ?c then _ else _) = _ => destruct c end; injection E as <- <-;
      apply sized_unconverted; reflexivity.
  - injection E as <- <-; apply sized_unconverted; reflexivity.
  - unfold setImage in E.
    match type of E with (if ?c then _ else _) = _ => destruct c end; [injection E as <- <-; auto|].
    destruct t as [i|]; [|discriminate].
    match type of E with (if ?c then _ else _) = _ => destruct c end; [injection E as <- <-; auto|].
    destruct (store_shape _ _ _ _ _ _ _ E) as [im ->]; apply sized_with_images; auto.
  - unfold setImageF in E.
    match type of E with (if ?c then _ else _) = _ => destruct c end; [injection E as <- <-; auto|].
    destruct t as [i|]; [|discriminate].
    match type of E with (if ?c then _ else _) = _ => destruct c end; [injection E as <- <-; auto|].
    destruct (store_shape _ _ _ _ _ _ _ E) as [im ->]; apply sized_with_images; auto.
  - destruct (gm_shape L OK t rf levels cm b t' W K E) as [->|(i & im & -> & ->)]; [auto|].
    destruct A as [_ A]; simpl in W.
    destruct (converted (Some i)) eqn:CV.
    + specialize (A eq_refl); cbn [mipLevelCount] in A.
      set (mips := clamped_levels (Some i) levels) in *.
      intros f m d bs (Hm & Hd & Hf) D; cbn [mipLevelCount faceCount with_levels t_mips t_faces] in Hm, Hf.
      assert (EW : width (Some (with_levels i mips im)) m = width (Some i) m /\
                   height (Some (with_levels i mips im)) m = height (Some i) m /\
                   depth (Some (with_levels i mips im)) m = depth (Some i) m).
      { unfold width, height, depth; cbn [with_levels t_mips t_width t_height t_dim t_depth].
        destruct (N.leb_spec mips m); [lia|]; destruct (N.leb_spec (t_mips i) m); [lia|]; auto. }
      destruct EW as (-> & -> & ED).
      apply (SZ f m d bs); [split; [cbn [mipLevelCount]; lia|]; split; [rewrite <- ED; exact Hd|exact Hf]|].
      rewrite <- D; unfold dataF; rewrite ED; reflexivity.
    + apply sized_unconverted; exact CV.
  - injection E as E.
    destruct (convert_spec enc fl t a W) as [(IC & FV & SR & i & cv & -> & CC & E' & W' & NE)|[_ E']];
      rewrite E in E'; injection E' as -> ->; [|auto].
    simpl in W.
    match type of W' with wf ?x => set (i' := x) in * end.
    intros f m d bs IR D.
    exists (ca_format a); split; [reflexivity|].
    destruct (complete_visible i W IC f m d IR) as (x & Hx & V).
    destruct (getImageF_in (Some i) f m d W IR) as (? & [= <-] & Q); rewrite Q in Hx.
    pose proof (wf_good _ W _ _ _ _ Hx) as G.
    assert (Db : bs = enc cv a x).
    { unfold dataF in D; destruct (converted (Some i')) eqn:CV'.
      2: { cbn [negb orb] in D; discriminate. }
      cbn [negb orb] in D; destruct IR as (Hm & Hd & Hf).
      change (depth (Some i') m) with (depth (Some i) m) in D, Hd.
      destruct (N.leb_spec (depth (Some i) m) d); [lia|]; cbn [orb] in D.
      match type of D with (if ?c then _ else _) = _ => destruct c; [discriminate|] end.
      unfold i' in D; cbn [t_textures] in D; rewrite get3_map3, Hx in D; cbn [omap obind option_map] in D.
      injection D as <-; reflexivity. }
    rewrite Db, (ES fl a cv x CC V).
    destruct x as [|xf xw xh xcs xc]; [discriminate|]; destruct G as (_ & -> & ->); reflexivity.
Qed.

Lemma reachable_sized t : lib_ok L -> enc_sized psize enc -> reachable L enc t -> sized psize t.
Proof.
  intros OK ES; induction 1 as [|t c b t' R IH A E]; [apply sized_unconverted; reflexivity|].
  eapply step_sized; eauto; eapply reachable_wf; eauto.
Qed.
End Sized.

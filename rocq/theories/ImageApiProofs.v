(** The pixel operations in the coordinates of the API. *)

From Coq Require Import ZArith NArith List Bool Lia.
From Coq Require Import ZifyBool ZifyNat ZifyN.
From Verif Require Import Base FormatModel FloatModel FloatSpec ArithModel TextureModel ImageModel
  ImageLoops ImageSpec ImageStoreProofs ImageGrayProofs ImageOpsProofs.
Import ListNotations.
Local Open Scope N_scope.

Lemma usub_small a b : a < 2 ^ 32 -> b <= a -> usub a b = a - b.
Proof.
  intros. unfold usub, u32. replace (a + 2 ^ 32 - b) with (a - b + 1 * 2 ^ 32) by lia.
  rewrite N.mod_add by discriminate. apply N.mod_small. lia.
Qed.

Lemma scanlineOf_small h y : h < 2 ^ 32 -> y < h -> scanlineOf h y = h - 1 - y.
Proof. intros. unfold scanlineOf. rewrite (usub_small h y) by lia. rewrite usub_small; lia. Qed.

Section Api.
Context (pw : double -> double -> double).
Local Notation D := (double_arith pw).

Lemma good_scan (b : bitmap D) x y : good pw b -> inside b x y -> stored pw (b_fmt b) (b_px b x y).
Proof.
  intros (_ & _ & G) [Hx Hy]. specialize (G x (b_h b - 1 - y)).
  unfold at_, within in G. replace (b_h b - 1 - (b_h b - 1 - y)) with y in G by lia.
  apply G. lia.
Qed.

Lemma good_intro (b : bitmap D) : b_w b < 2 ^ 31 -> b_h b < 2 ^ 31 ->
  (forall x y, inside b x y -> stored pw (b_fmt b) (b_px b x y)) -> good pw b.
Proof.
  intros H1 H2 H3. split; auto. split; auto. intros x y [Hx Hy]. unfold at_. apply H3.
  split; lia.
Qed.

Lemma within_inside (b : bitmap D) x y : within pw b x y -> inside b x (b_h b - 1 - y).
Proof. unfold within, inside. lia. Qed.

Lemma api_get (b : bitmap D) x y : good pw b -> within pw b x y ->
  exists c, getPixel (Some b) x y = Some (Some c) /\
    getPixelImpl (b_fmt b) (at_ pw b x y) = Some c.
Proof.
  intros G W. pose proof G as (Hw & Hh & S). specialize (S x y W).
  destruct (read_stored pw _ _ S) as [c E]. exists c. split; [|exact E].
  unfold getPixel. destruct W as [Wx Wy].
  destruct (N.leb_spec (b_w b) x), (N.leb_spec (b_h b) y); try lia. cbn [orb].
  rewrite scanlineOf_small by lia. unfold getAt. rewrite read_inside by (unfold inside; lia).
  cbn [obind]. unfold at_ in E. rewrite E. reflexivity.
Qed.

Lemma api_get_out (b : bitmap D) x y : ~ within pw b x y -> getPixel (Some b) x y = Some None.
Proof.
  intros W. unfold getPixel, within in *.
  destruct (N.leb_spec (b_w b) x), (N.leb_spec (b_h b) y); try lia; reflexivity.
Qed.

(** What a colour operation on all pixels does, seen through getPixel. *)
Lemma mapPixels_api (g : color D -> color D) (b : bitmap D) (P : color D -> color D -> Prop) :
  good pw b ->
  (forall p c, stored pw (b_fmt b) p -> getPixelImpl (b_fmt b) p = Some c ->
     exists q c', setPixelNoGrayscaleImpl (b_fmt b) (g c) = Some q /\ stored pw (b_fmt b) q /\
       getPixelImpl (b_fmt b) q = Some c' /\ P c c') ->
  exists b', mapPixels g b = Some b' /\ good pw b' /\ same_shape b b' /\
    forall x y, within pw b x y -> exists c c',
      getPixel (Some b) x y = Some (Some c) /\ getPixel (Some b') x y = Some (Some c') /\ P c c'.
Proof.
  intros G H.
  destruct (mapPixels_total g b) as [b' E].
  { intros x y I. pose proof (good_scan b x y G I) as S.
    destruct (read_stored pw _ _ S) as [c Ec].
    destruct (H _ _ S Ec) as (q & c' & Eq & _).
    unfold mapStored. rewrite Ec. cbn [obind]. rewrite Eq. discriminate. }
  exists b'. split; [exact E|].
  destruct (mapPixels_result g b b' E) as [SS R].
  assert (Px : forall x y, inside b x y -> exists c c',
     getPixelImpl (b_fmt b) (b_px b x y) = Some c /\ stored pw (b_fmt b) (b_px b' x y) /\
     getPixelImpl (b_fmt b) (b_px b' x y) = Some c' /\ P c c').
  { intros x y I. pose proof (good_scan b x y G I) as S.
    destruct (read_stored pw _ _ S) as [c Ec].
    destruct (H _ _ S Ec) as (q & c' & Eq & Sq & Gq & Pq).
    specialize (R x y I). unfold mapStored in R. rewrite Ec in R. cbn [obind] in R.
    rewrite Eq in R. inversion R; subst q. exists c, c'. auto. }
  pose proof SS as (e1 & e2 & e3 & e4).
  destruct G as (Hw & Hh & G0).
  assert (G' : good pw b').
  { apply good_intro; try lia. intros x y I. rewrite <- e1.
    destruct (Px x y) as (c & c' & _ & S & _); auto. unfold inside in *. rewrite e2, e3; auto. }
  split; [exact G'|]. split; [exact SS|].
  intros x y W.
  assert (Gb : good pw b) by (split; auto).
  destruct (api_get b x y Gb W) as (c & E1 & E2).
  assert (W' : within pw b' x y) by (unfold within in *; rewrite <- e2, <- e3; auto).
  destruct (api_get b' x y G' W') as (c' & E1' & E2').
  exists c, c'. split; auto. split; auto.
  destruct (Px x (b_h b - 1 - y) (within_inside b x y W)) as (d & d' & F1 & _ & F2 & F3).
  unfold at_ in E2, E2'. rewrite <- e1, <- e3 in E2'. congruence.
Qed.

(** The same on the stored pixels. *)
Lemma mapPixels_pix (g : color D -> color D) (b : bitmap D) (P : pix D -> pix D -> Prop) :
  good pw b ->
  (forall p, stored pw (b_fmt b) p ->
     exists q, mapStored (b_fmt b) g p = Some q /\ stored pw (b_fmt b) q /\ P p q) ->
  exists b', mapPixels g b = Some b' /\ good pw b' /\ same_shape b b' /\
    forall x y, within pw b x y -> P (at_ pw b x y) (at_ pw b' x y).
Proof.
  intros G H.
  destruct (mapPixels_total g b) as [b' E].
  { intros x y I. destruct (H _ (good_scan b x y G I)) as (q & -> & _). discriminate. }
  exists b'. split; [exact E|].
  destruct (mapPixels_result g b b' E) as [SS R].
  assert (Px : forall x y, inside b x y ->
     stored pw (b_fmt b) (b_px b' x y) /\ P (b_px b x y) (b_px b' x y)).
  { intros x y I. destruct (H _ (good_scan b x y G I)) as (q & Eq & Sq & Pq).
    rewrite (R x y I) in Eq. inversion Eq; subst q. auto. }
  pose proof SS as (e1 & e2 & e3 & e4). destruct G as (Hw & Hh & G0).
  split; [|split; [exact SS|]].
  - apply good_intro; try lia. intros x y I. rewrite <- e1. apply Px.
    unfold inside in *. rewrite e2, e3; auto.
  - intros x y W. unfold at_. rewrite <- e3. apply Px. apply within_inside; auto.
Qed.

(** setPixel on a good image. *)
Lemma write_back (b : bitmap D) x y p : good pw b -> within pw b x y ->
  stored pw (b_fmt b) p -> same_pix pw (b_fmt b) p (at_ pw b x y) ->
  exists b', write b x (b_h b - 1 - y) p = Some b' /\ good pw b' /\ same_image pw b' b.
Proof.
  intros G W S SP.
  destruct (write_inside b x (b_h b - 1 - y) p (within_inside b x y W)) as (b' & E & SS & P1 & P2).
  exists b'. split; auto. pose proof SS as (e1 & e2 & e3 & e4).
  pose proof G as (Hw & Hh & G0). split.
  - apply good_intro; try lia. intros x' y' I. rewrite <- e1.
    assert (I0 : inside b x' y') by (unfold inside in *; rewrite e2, e3; auto).
    destruct (N.eq_dec x' x), (N.eq_dec y' (b_h b - 1 - y)).
    + subst x' y'. rewrite P1. auto.
    + rewrite P2 by congruence. apply good_scan; auto.
    + rewrite P2 by congruence. apply good_scan; auto.
    + rewrite P2 by congruence. apply good_scan; auto.
  - split; [congruence|]. split; [congruence|]. split; [congruence|]. split; [congruence|].
    intros x' y' W'. unfold at_. rewrite <- e3, <- e1.
    assert (y' < b_h b) by (destruct W' as [_ Wy]; rewrite <- e3 in Wy; exact Wy).
    destruct (N.eq_dec x' x), (N.eq_dec y' y).
    + subst x' y'. rewrite P1. exact SP.
    + rewrite P2 by (destruct W; intros C; inversion C; lia). apply same_pix_refl.
    + rewrite P2 by congruence. apply same_pix_refl.
    + rewrite P2 by congruence. apply same_pix_refl.
Qed.

(** The grayscale variant of storing back. *)
Lemma store_read_gray f (p : pix D) : stored pw f p -> f <> I_Double ->
  (f = I_UInt16 -> forall v, p = PZ [v] -> (v < 32768)%Z) ->
  exists c q, getPixelImpl f p = Some c /\ setPixelImpl f c = Some q /\
    stored pw f q /\ same_pix pw f q p.
Proof.
  intros S ND NU.
  destruct f; try (destruct (store_read pw _ p S) as (c & q & E1 & E2 & E3 & E4);
                   exists c, q; auto; fail).
  - destruct p as [l|l|l]; destruct l as [|v [|? ?]]; try contradiction.
    cbn [stored] in S. unfold u8, range in S. cbn [getPixelImpl].
    eexists; eexists; split; [reflexivity|]. cbn [setPixelImpl c_r c_g c_b gray].
    pose proof (gray_norm pw 255 255 v ltac:(lia) ltac:(lia) ltac:(lia)) as E. cbv zeta in E.
    unfold from8. rewrite E. split; [reflexivity|]. split; [exact S|reflexivity].
  - destruct p as [l|l|l]; destruct l as [|v [|? ?]]; try contradiction.
    cbn [stored] in S. unfold u16, range in S. cbn [getPixelImpl].
    eexists; eexists; split; [reflexivity|]. cbn [setPixelImpl c_r c_g c_b gray].
    pose proof (gray_norm pw 65535 65535 v ltac:(lia) ltac:(lia) ltac:(lia)) as E. cbv zeta in E.
    unfold from16. rewrite E. split; [reflexivity|]. split; [exact S|reflexivity].
  - destruct p as [l|l|l]; destruct l as [|v [|? ?]]; try contradiction.
    cbn [stored] in S. unfold u16, range in S. cbn [getPixelImpl].
    specialize (NU eq_refl v eq_refl).
    eexists; eexists; split; [reflexivity|]. cbn [setPixelImpl c_r c_g c_b gray].
    rewrite int_roundtrip by (simpl; lia). cbn [obind oPZ1].
    rewrite Z.mod_small by (simpl; lia).
    split; [reflexivity|]. split; [exact S|reflexivity].
  - destruct p as [l|l|l]; destruct l as [|v [|? ?]]; try contradiction.
    cbn [getPixelImpl].
    eexists; eexists; split; [reflexivity|]. cbn [setPixelImpl c_r c_g c_b gray].
    split; [reflexivity|]. split; [exact I|].
    cbn [same_pix]. apply Forall2_cons; [|apply Forall2_nil]. apply gray_float.
  - congruence.
Qed.

End Api.

(** C33, C34, C35: pixels read and written back, rotations, channel selection. *)

From Coq Require Import ZArith NArith List Bool Lia.
From Coq Require Import ZifyBool ZifyNat ZifyN.
From Flocq Require Import IEEE754.Binary.
From Verif Require Import Base FormatModel FloatModel FloatSpec ArithModel TextureModel ImageModel
  ImageLoops ImageSpec ImageStoreProofs ImageGrayProofs ImageOpsProofs ImageApiProofs.
Import ListNotations.
Local Open Scope N_scope.

(* ------------------------------------------------------------------ *)
(** * C35: reading and writing pixels *)

(** Inside the image getPixel returns a colour, outside it returns false. *)
Theorem C35_read_defined pw (b : bitmap (double_arith pw)) x y : good pw b ->
  exists o, getPixel (Some b) x y = Some o /\ (o <> None <-> within pw b x y).
Proof.
  intros G. destruct (N.ltb_spec x (b_w b)), (N.ltb_spec y (b_h b)).
  1: { destruct (api_get pw b x y G (conj H H0)) as (c & E & _). exists (Some c). split; auto.
       split; [intros _; split; auto|discriminate]. }
  all: exists None; split; [apply api_get_out; unfold within; lia|].
  all: split; [congruence|unfold within; lia].
Qed.

(** Writing back what was read changes nothing. *)
Theorem C35_write_back pw (b : bitmap (double_arith pw)) x y c : good pw b ->
  getPixel (Some b) x y = Some (Some c) ->
  exists b', setPixel (Some b) x y c false = Some (Some b', true) /\ good pw b' /\
    same_image pw b' b.
Proof.
  intros G E.
  assert (W : within pw b x y).
  { destruct (C35_read_defined pw b x y G) as (o & Eo & Ho). rewrite E in Eo. inversion Eo; subst.
    apply Ho; discriminate. }
  destruct (api_get pw b x y G W) as (c0 & E0 & E1). rewrite E in E0. inversion E0; subst c0.
  pose proof G as (Hw & Hh & S). specialize (S x y W).
  destruct (store_read pw _ _ S) as (c1 & q & F1 & F2 & F3 & F4).
  rewrite E1 in F1. inversion F1; subst c1.
  destruct (write_back pw b x y q G W F3 F4) as (b' & Wr & G' & SI).
  exists b'. split; auto. unfold setPixel, setAt. destruct W as [Wx Wy].
  destruct (N.leb_spec (b_w b) x), (N.leb_spec (b_h b) y); try lia. cbn [orb].
  rewrite scanlineOf_small by lia. rewrite F2. cbn [obind]. rewrite Wr. reflexivity.
Qed.

(** Also when asking for the conversion to grayscale, unless the image is gray and sRGB, holds
    doubles, or holds 16-bit unsigned integers above 32767. *)
Theorem C35_write_back_gray pw (b : bitmap (double_arith pw)) x y c : good pw b ->
  getPixel (Some b) x y = Some (Some c) ->
  (b_cs b = CS_Linear \/ isGrayscaleFormat (b_fmt b) = false) ->
  b_fmt b <> I_Double ->
  (b_fmt b = I_UInt16 -> forall v, at_ pw b x y = PZ [v] -> (v < 32768)%Z) ->
  exists b', setPixel (Some b) x y c true = Some (Some b', true) /\ good pw b' /\
    same_image pw b' b.
Proof.
  intros G E L ND NU.
  assert (W : within pw b x y).
  { destruct (C35_read_defined pw b x y G) as (o & Eo & Ho). rewrite E in Eo. inversion Eo; subst.
    apply Ho; discriminate. }
  destruct (api_get pw b x y G W) as (c0 & E0 & E1). rewrite E in E0. inversion E0; subst c0.
  pose proof G as (Hw & Hh & S). specialize (S x y W).
  destruct (store_read_gray pw _ _ S ND NU) as (c1 & q & F1 & F2 & F3 & F4).
  rewrite E1 in F1. inversion F1; subst c1.
  destruct (write_back pw b x y q G W F3 F4) as (b' & Wr & G' & SI).
  exists b'. split; auto. unfold setPixel. destruct W as [Wx Wy].
  destruct (N.leb_spec (b_w b) x), (N.leb_spec (b_h b) y); try lia. cbn [orb].
  rewrite scanlineOf_small by lia.
  replace (cs_is_srgb (b_cs b) && isGrayscaleFormat (b_fmt b))%bool with false.
  2: { destruct L as [->| ->]; [reflexivity|]. rewrite andb_false_r. reflexivity. }
  cbn [obind]. rewrite F2. cbn [obind]. rewrite Wr. reflexivity.
Qed.

(** Whatever is stored, no other pixel and nothing else of the image changes; outside the image
    nothing at all. *)
Theorem C35_only_that_pixel pw (b : bitmap (double_arith pw)) x y c cg im r :
  b_w b < 2 ^ 31 -> b_h b < 2 ^ 31 ->
  setPixel (Some b) x y c cg = Some (im, r) ->
  (r = true /\ within pw b x y \/ r = false /\ ~ within pw b x y /\ im = Some b) /\
  exists b', im = Some b' /\ b_fmt b' = b_fmt b /\ b_w b' = b_w b /\ b_h b' = b_h b /\
    b_cs b' = b_cs b /\
    forall x' y', within pw b x' y' -> (x', y') <> (x, y) -> at_ pw b' x' y' = at_ pw b x' y'.
Proof.
  intros Hw Hh. unfold setPixel, within.
  destruct (N.leb_spec (b_w b) x) as [Hx|Hx]; cbn [orb].
  { intros E; inversion E; subst. split; [right; split; auto; split; auto; lia|].
    exists b. auto 10. }
  destruct (N.leb_spec (b_h b) y) as [Hy|Hy]; cbn [orb].
  { intros E; inversion E; subst. split; [right; split; auto; split; auto; lia|].
    exists b. auto 10. }
  rewrite scanlineOf_small by lia.
  assert (WR : forall (d d' : bitmap (double_arith pw)) p, write d x (b_h b - 1 - y) p = Some d' ->
     same_shape d d' /\ forall x' y', (x', y') <> (x, b_h b - 1 - y) -> b_px d' x' y' = b_px d x' y').
  { intros d d' p E. pose proof (write_some _ _ _ _ _ E) as I.
    destruct (write_inside d _ _ p I) as (d2 & E2 & SS & _ & O). rewrite E in E2.
    inversion E2; subst. auto. }
  assert (FIN : forall d : bitmap (double_arith pw), same_shape b d ->
    (forall x' y', (x', y') <> (x, b_h b - 1 - y) -> b_px d x' y' = b_px b x' y') ->
    exists b', Some d = Some b' /\ b_fmt b' = b_fmt b /\ b_w b' = b_w b /\ b_h b' = b_h b /\
    b_cs b' = b_cs b /\
    forall x' y', x' < b_w b /\ y' < b_h b -> (x', y') <> (x, y) -> at_ pw b' x' y' = at_ pw b x' y').
  { intros d (e1 & e2 & e3 & e4) O. exists d. repeat (split; [congruence|]).
    intros x' y' [? ?] N. unfold at_. rewrite <- e3. apply O. intros C; inversion C; subst.
    apply N. f_equal. lia. }
  destruct cg.
  - set (first := if (cs_is_srgb (b_cs b) && isGrayscaleFormat (b_fmt b))%bool then _ else _).
    destruct first as [d1|] eqn:E1; [|discriminate]. cbn [obind].
    assert (S1 : same_shape b d1 /\
      forall x' y', (x', y') <> (x, b_h b - 1 - y) -> b_px d1 x' y' = b_px b x' y').
    { unfold first in E1. destruct (cs_is_srgb _ && _)%bool.
      - unfold setAt in E1. destruct (setPixelNoGrayscaleImpl _ _); [|discriminate].
        cbn [obind] in E1. apply WR in E1. exact E1.
      - inversion E1; subst. split; [apply same_shape_refl|auto]. }
    destruct S1 as [S1 O1].
    destruct (setPixelImpl (b_fmt d1) c) as [p|]; [|discriminate]. cbn [obind].
    destruct (write d1 x _ p) as [d2|] eqn:E2; [|discriminate]. cbn [obind].
    intros E; inversion E; subst. split; [left; auto|].
    apply WR in E2. destruct E2 as [S2 O2].
    apply FIN; [eapply same_shape_trans; eauto|].
    intros x' y' N. rewrite O2, O1; auto.
  - unfold setAt. destruct (setPixelNoGrayscaleImpl _ _) as [p|]; [|discriminate]. cbn [obind].
    destruct (write b x _ p) as [d2|] eqn:E2; [|discriminate]. cbn [obind].
    intros E; inversion E; subst. split; [left; auto|].
    apply WR in E2. destruct E2 as [S2 O2]. apply FIN; auto.
Qed.

Lemma is_none {T} (o : option T) : match o with None => true | Some _ => false end = true -> o = None.
Proof. destruct o; [discriminate|reflexivity]. Qed.

(** A 16-bit unsigned image cannot take back its own values above 32767 with the grayscale
    conversion requested: the value is converted to a signed 16-bit integer. *)
Theorem C35_uint16_refuted pw : exists (b : bitmap (double_arith pw)) c,
  good pw b /\ b_fmt b = I_UInt16 /\ b_cs b = CS_Linear /\
  getPixel (Some b) 0 0 = Some (Some c) /\ setPixel (Some b) 0 0 c true = None.
Proof.
  exists (Bitmap I_UInt16 1 1 CS_Linear (fun _ _ => PZ [40000%Z])). eexists.
  split. { split; [reflexivity|]. split; [reflexivity|]. intros x y _. split; cbn; discriminate. }
  split; [reflexivity|]. split; [reflexivity|].
  split; [reflexivity|]. apply is_none. vm_compute. reflexivity.
Qed.

(** A gray image of doubles changes when its own values are written back with the grayscale
    conversion: 5 becomes 5 minus one unit in the last place. *)
Theorem C35_double_refuted pw : exists (b b' : bitmap (double_arith pw)) c,
  good pw b /\ b_fmt b = I_Double /\ b_cs b = CS_Linear /\
  getPixel (Some b) 0 0 = Some (Some c) /\ setPixel (Some b) 0 0 c true = Some (Some b', true) /\
  ~ same_image pw b' b.
Proof.
  exists (Bitmap I_Double 1 1 CS_Linear (fun _ _ => @PN (double_arith pw) [double_of_Z 5])).
  eexists. eexists.
  split. { split; [reflexivity|]. split; [reflexivity|]. intros x y _. exact I. }
  split; [reflexivity|]. split; [reflexivity|].
  split; [reflexivity|]. split; [reflexivity|].
  intros (_ & _ & _ & _ & H). specialize (H 0 0 ltac:(split; reflexivity)).
  assert (K : forall p q : pix (double_arith pw), same_pix pw I_Double p q ->
    match p, q with PN (u :: _), PN (v :: _) => B2FF 53 1024 u = B2FF 53 1024 v | _, _ => True end).
  { intros [|l|[|u l]] [|l'|[|v l']]; auto. intros E. inversion E; auto. }
  apply K in H. vm_compute in H. discriminate.
Qed.

(** Case: a 2 x 1 RGB5 image; the first pixel has the unused bit set. *)
Example C35_case pw :
  let b : bitmap (double_arith pw) := Bitmap I_RGB5 2 1 CS_sRGB
    (fun x _ => if x =? 0 then PZ [65535%Z] else PZ [12345%Z]) in
  good pw b /\ (exists c, getPixel (Some b) 1 0 = Some (Some c)) /\
  getPixel (Some b) 1 1 = Some None /\
  same_pix pw I_RGB5 (PZ [32767%Z]) (at_ pw b 0 0).
Proof.
  cbv zeta. split.
  { split; [reflexivity|]. split; [reflexivity|]. intros x y _. unfold at_. cbn [b_px b_fmt].
    destruct (x =? 0); split; cbn; discriminate. }
  split; [eexists; reflexivity|]. split; reflexivity.
Qed.

(* ------------------------------------------------------------------ *)
(** * C33: rotation *)

(** What FreeImage_Rotate promises for the image [s]: when it returns a bitmap for an angle
    (degrees counter-clockwise) it is the image turned by that angle. *)
Definition freeimage_rotates pw (s : bitmap (double_arith pw))
  (fi : N -> option (N * N * (N -> N -> pix (double_arith pw)))) : Prop :=
  forall d w h px, fi d = Some (w, h, px) -> In d [90; 180; 270] ->
    let r := Bitmap (b_fmt s) w h (b_cs s) px in
    good pw r /\ (d = 90 -> turned90 pw s r) /\ (d = 180 -> turned180 pw s r) /\ (d = 270 -> turned270 pw s r).

Lemma moved_ok pw (s : bitmap (double_arith pw)) x y : good pw s -> inside s x y ->
  exists c q, getAt s x y = Some c /\ setPixelNoGrayscaleImpl (b_fmt s) c = Some q /\
    stored pw (b_fmt s) q /\ same_pix pw (b_fmt s) q (b_px s x y).
Proof.
  intros G I. pose proof (good_scan pw s x y G I) as S.
  destruct (store_read pw _ _ S) as (c & q & F1 & F2 & F3 & F4).
  exists c, q. split; [|auto]. unfold getAt. rewrite read_inside by auto. exact F1.
Qed.

Definition turn_ok pw (s : bitmap (double_arith pw)) (a : angle) (r : option (image (double_arith pw)))
  : Prop := exists t, r = Some (Some t) /\ good pw t /\ turned pw a s t.

(** The copying loops: scanline position (x, y) of [s] goes to (fx x y, fy x y) of [d]. *)
Lemma copied pw (s d : bitmap (double_arith pw)) fx fy sx sy :
  good pw s -> b_fmt d = b_fmt s ->
  (forall x y, x < b_w s -> y < b_h s -> inside s (sx x y) (sy x y)) ->
  (forall x y, x < b_w s -> y < b_h s -> inside d (fx x y) (fy x y)) ->
  (forall x y x' y', x < b_w s -> y < b_h s -> x' < b_w s -> y' < b_h s ->
     fx x y = fx x' y' -> fy x y = fy x' y' -> x = x' /\ y = y') ->
  exists d', loop 0 (b_h s) (fun y => loop 0 (b_w s) (fun x d =>
      obind (getAt s (sx x y) (sy x y)) (fun c => setAt d (fx x y) (fy x y) c))) d = Some d' /\
    same_shape d d' /\
    forall x y, x < b_w s -> y < b_h s ->
      stored pw (b_fmt s) (b_px d' (fx x y) (fy x y)) /\
      same_pix pw (b_fmt s) (b_px d' (fx x y) (fy x y)) (b_px s (sx x y) (sy x y)).
Proof.
  intros G F HS HI INJ.
  set (V := fun x y => obind (getAt s (sx x y) (sy x y)) (setPixelNoGrayscaleImpl (b_fmt s))).
  assert (L := scatter_loop (b_w s) (b_h s)
    (fun x y d => obind (getAt s (sx x y) (sy x y)) (fun c => setAt d (fx x y) (fy x y) c))
    fx fy V d).
  cbv beta in L. rewrite L; clear L; auto.
  2: { intros x y t Hx Hy (e1 & _). unfold V, setAt. destruct (getAt s _ _); [|reflexivity].
       cbn [obind]. rewrite <- e1, F. reflexivity. }
  assert (HV : forall x y, x < b_w s -> y < b_h s -> exists q, V x y = Some q /\
     stored pw (b_fmt s) q /\ same_pix pw (b_fmt s) q (b_px s (sx x y) (sy x y))).
  { intros x y Hx Hy. destruct (moved_ok pw s _ _ G (HS x y Hx Hy)) as (c & q & E1 & E2 & E3).
    exists q. unfold V. rewrite E1. cbn [obind]. auto. }
  destruct (scatter_ok (b_w s) (b_h s) fx fy V d HI INJ) as (d' & E & SS & R).
  { intros x y Hx Hy. destruct (HV x y Hx Hy) as (q & -> & _). discriminate. }
  exists d'. split; auto. split; auto. intros x y Hx Hy.
  destruct (HV x y Hx Hy) as (q & E1 & E2). rewrite R in E1 by auto. inversion E1; subst. exact E2.
Qed.

(** Rotation gives no image (when no memory can be had) or the turned image. *)
Theorem C33_rotate pw fi alloc (s : bitmap (double_arith pw)) a : good pw s ->
  freeimage_rotates pw s fi ->
  exists r, rotate fi alloc (Some s) a = Some r /\
    match r with
    | None => fi (degrees a) = None /\ exists f w h, alloc f w h = None
    | Some t => good pw t /\ turned pw a s t
    end.
Proof.
  intros G FI. unfold rotate. destruct (fi (degrees a)) as [[[w h] px]|] eqn:Ef.
  { eexists; split; [reflexivity|]. cbn. destruct (FI _ w h px Ef) as (Gr & T90 & T180 & T270).
    { destruct a; cbn; auto. }
    split; [exact Gr|]. destruct a; cbn [turned]; auto. }
  pose proof G as (Hw & Hh & _).
  assert (Q90 : forall d : bitmap (double_arith pw), b_fmt d = b_fmt s -> b_w d = b_h s ->
    b_h d = b_w s -> b_cs d = b_cs s ->
    exists t, loop 0 (b_h s) (fun y => loop 0 (b_w s) (fun x d =>
       obind (getAt s x y) (fun c => setAt d (usub (usub (b_w d) y) 1) x c))) d = Some t /\
      good pw t /\ turned90 pw s t).
  { intros d e1 e2 e3 e4.
    assert (L : loop 0 (b_h s) (fun y => loop 0 (b_w s) (fun x d =>
       obind (getAt s x y) (fun c => setAt d (usub (usub (b_w d) y) 1) x c))) d =
       loop 0 (b_h s) (fun y => loop 0 (b_w s) (fun x d =>
       obind (getAt s x y) (fun c => setAt d (b_h s - 1 - y) x c))) d).
    { rewrite (loop2_cells (b_w s) (b_h s) (fun x y d =>
        obind (getAt s x y) (fun c => setAt d (usub (usub (b_w d) y) 1) x c))).
      rewrite (loop2_cells (b_w s) (b_h s) (fun x y d =>
        obind (getAt s x y) (fun c => setAt d (b_h s - 1 - y) x c))).
      apply (fold_inv (fun d => b_w d = b_h s)); auto.
      - intros [x y] t I Ht. apply in_cells in I. cbn [fst snd].
        destruct (getAt s x y); [|reflexivity]. cbn [obind]. rewrite Ht.
        fold (scanlineOf (b_h s) y). rewrite scanlineOf_small by lia. reflexivity.
      - intros [x y] t t' I Ht. cbn [fst snd]. destruct (getAt s x y); [|discriminate].
        cbn [obind]. unfold setAt. destruct (setPixelNoGrayscaleImpl _ _) as [p|]; [|discriminate].
        cbn [obind]. intros E. pose proof (write_some _ _ _ _ _ E) as W.
        destruct (write_inside t _ _ p W) as (t2 & E2 & (_ & SS & _) & _). rewrite E in E2.
        inversion E2; subst. congruence. }
    rewrite L.
    destruct (copied pw s d (fun x y => b_h s - 1 - y) (fun x _ => x) (fun x _ => x) (fun _ y => y)
      G e1) as (t & E & (f1 & f2 & f3 & f4) & P); unfold inside; try lia.
    exists t. split; [exact E|]. split.
    - apply good_intro; try lia. intros x y [Ix Iy].
      destruct (P y (b_h s - 1 - x)) as [St _]; try lia.
      replace (b_h s - 1 - (b_h s - 1 - x)) with x in St by lia.
      rewrite <- f1, e1. exact St.
    - unfold turned90. repeat (split; [congruence|]).
      intros x y [Wx Wy]. destruct (P x (b_h s - 1 - y)) as [_ Sp]; try lia.
      unfold at_. replace (b_h t - 1 - (b_w s - 1 - x)) with x by lia.
      replace (b_h s - 1 - (b_h s - 1 - y)) with y in Sp by lia. exact Sp. }
  assert (Q180 : forall d : bitmap (double_arith pw), b_fmt d = b_fmt s -> b_w d = b_w s ->
    b_h d = b_h s -> b_cs d = b_cs s ->
    exists t, loop 0 (b_h s) (fun y => loop 0 (b_w s) (fun x d =>
       obind (getAt s x y) (fun c =>
       setAt d (usub (usub (b_w s) x) 1) (usub (usub (b_h s) y) 1) c))) d = Some t /\
      good pw t /\ turned180 pw s t).
  { intros d e1 e2 e3 e4.
    destruct (copied pw s d (fun x y => usub (usub (b_w s) x) 1) (fun x y => usub (usub (b_h s) y) 1)
      (fun x _ => x) (fun _ y => y) G e1) as (t & E & (f1 & f2 & f3 & f4) & P).
    { unfold inside; lia. }
    { intros x y Hx Hy. fold (scanlineOf (b_w s) x) (scanlineOf (b_h s) y).
      rewrite !scanlineOf_small by lia. unfold inside; lia. }
    { intros x y x' y' Hx Hy Hx' Hy'.
      fold (scanlineOf (b_w s) x) (scanlineOf (b_h s) y) (scanlineOf (b_w s) x') (scanlineOf (b_h s) y').
      rewrite !scanlineOf_small by lia. lia. }
    assert (P' : forall x y, x < b_w s -> y < b_h s ->
      stored pw (b_fmt s) (b_px t (b_w s - 1 - x) (b_h s - 1 - y)) /\
      same_pix pw (b_fmt s) (b_px t (b_w s - 1 - x) (b_h s - 1 - y)) (b_px s x y)).
    { intros x y Hx Hy. specialize (P x y Hx Hy). cbv beta in P.
      fold (scanlineOf (b_w s) x) (scanlineOf (b_h s) y) in P.
      rewrite !scanlineOf_small in P by lia. exact P. }
    exists t. split; [exact E|]. split.
    - apply good_intro; try lia. intros x y [Ix Iy].
      destruct (P' (b_w s - 1 - x) (b_h s - 1 - y)) as [St _]; try lia.
      replace (b_w s - 1 - (b_w s - 1 - x)) with x in St by lia.
      replace (b_h s - 1 - (b_h s - 1 - y)) with y in St by lia.
      rewrite <- f1, e1. exact St.
    - unfold turned180. repeat (split; [congruence|]).
      intros x y [Wx Wy]. destruct (P' x (b_h s - 1 - y)) as [_ Sp]; try lia.
      unfold at_. replace (b_h t - 1 - (b_h s - 1 - y)) with (b_h s - 1 - (b_h s - 1 - y)) by lia.
      exact Sp. }
  assert (Q270 : forall d : bitmap (double_arith pw), b_fmt d = b_fmt s -> b_w d = b_h s ->
    b_h d = b_w s -> b_cs d = b_cs s ->
    exists t, loop 0 (b_h s) (fun y => loop 0 (b_w s) (fun x d =>
       obind (getAt s (usub (usub (b_w s) x) 1) y) (fun c => setAt d y x c))) d = Some t /\
      good pw t /\ turned270 pw s t).
  { intros d e1 e2 e3 e4.
    destruct (copied pw s d (fun x y => y) (fun x y => x)
      (fun x _ => usub (usub (b_w s) x) 1) (fun _ y => y) G e1) as (t & E & (f1 & f2 & f3 & f4) & P).
    { intros x y Hx Hy. fold (scanlineOf (b_w s) x).
      rewrite !scanlineOf_small by lia. unfold inside; lia. }
    { unfold inside; lia. }
    { lia. }
    assert (P' : forall x y, x < b_w s -> y < b_h s ->
      stored pw (b_fmt s) (b_px t y x) /\
      same_pix pw (b_fmt s) (b_px t y x) (b_px s (b_w s - 1 - x) y)).
    { intros x y Hx Hy. specialize (P x y Hx Hy). cbv beta in P.
      fold (scanlineOf (b_w s) x) in P.
      rewrite !scanlineOf_small in P by lia. exact P. }
    exists t. split; [exact E|]. split.
    - apply good_intro; try lia. intros x y [Ix Iy].
      destruct (P' y x) as [St _]; try lia.
      rewrite <- f1, e1. exact St.
    - unfold turned270. repeat (split; [congruence|]).
      intros x y [Wx Wy]. destruct (P' (b_w s - 1 - x) (b_h s - 1 - y)) as [_ Sp]; try lia.
      replace (b_w s - 1 - (b_w s - 1 - x)) with x in Sp by lia.
      unfold at_. replace (b_h t - 1 - x) with (b_w s - 1 - x) by lia.
      exact Sp. }
  unfold initialize.
  destruct a; cbn [turned].
  1, 6: destruct (alloc (b_fmt s) (b_h s) (b_w s)) as [px|] eqn:Ea;
    [destruct (Q270 (Bitmap (b_fmt s) (b_h s) (b_w s) (b_cs s) px)) as (t & Et & Pt); try reflexivity;
     rewrite Et; cbn [obind]; eexists; split; [reflexivity|exact Pt]
    |exists None; eauto 10].
  1, 4: destruct (alloc (b_fmt s) (b_w s) (b_h s)) as [px|] eqn:Ea;
    [destruct (Q180 (Bitmap (b_fmt s) (b_w s) (b_h s) (b_cs s) px)) as (t & Et & Pt); try reflexivity;
     rewrite Et; cbn [obind]; eexists; split; [reflexivity|exact Pt]
    |exists None; eauto 10].
  all: destruct (alloc (b_fmt s) (b_h s) (b_w s)) as [px|] eqn:Ea;
    [destruct (Q90 (Bitmap (b_fmt s) (b_h s) (b_w s) (b_cs s) px)) as (t & Et & Pt); try reflexivity;
     rewrite Et; cbn [obind]; eexists; split; [reflexivity|exact Pt]
    |exists None; eauto 10].
Qed.

(** Turns add up. *)
Lemma turned_90_90 pw (s t u : bitmap (double_arith pw)) :
  turned90 pw s t -> turned90 pw t u -> turned180 pw s u.
Proof.
  intros (e1 & e2 & e3 & e4 & P) (f1 & f2 & f3 & f4 & Q). unfold turned180.
  repeat (split; [congruence|]). intros x y [Wx Wy].
  specialize (P x y (conj Wx Wy)). specialize (Q y (b_w s - 1 - x) ltac:(unfold within; lia)).
  rewrite e1 in Q. rewrite e3 in Q. eapply same_pix_trans; eauto.
Qed.

Lemma turned_180_180 pw (s t u : bitmap (double_arith pw)) :
  turned180 pw s t -> turned180 pw t u -> same_image pw u s.
Proof.
  intros (e1 & e2 & e3 & e4 & P) (f1 & f2 & f3 & f4 & Q). unfold same_image.
  repeat (split; [congruence|]). intros x y [Wx Wy].
  assert (Wx' : x < b_w s) by lia. assert (Wy' : y < b_h s) by lia.
  specialize (P x y (conj Wx' Wy')).
  specialize (Q (b_w s - 1 - x) (b_h s - 1 - y) ltac:(unfold within; lia)).
  rewrite e1, e3, e4 in Q. rewrite f1, e1.
  replace (b_w s - 1 - (b_w s - 1 - x)) with x in Q by lia.
  replace (b_h s - 1 - (b_h s - 1 - y)) with y in Q by lia.
  eapply same_pix_trans; eauto.
Qed.

Lemma turned_90_270 pw (s t u : bitmap (double_arith pw)) :
  turned90 pw s t -> turned270 pw t u -> same_image pw u s.
Proof.
  intros (e1 & e2 & e3 & e4 & P) (f1 & f2 & f3 & f4 & Q). unfold same_image.
  repeat (split; [congruence|]). intros x y [Wx Wy].
  assert (Wx' : x < b_w s) by lia. assert (Wy' : y < b_h s) by lia.
  specialize (P x y (conj Wx' Wy')).
  specialize (Q y (b_w s - 1 - x) ltac:(unfold within; lia)).
  rewrite e1, e4 in Q. rewrite f1, e1.
  replace (b_w s - 1 - (b_w s - 1 - x)) with x in Q by lia.
  eapply same_pix_trans; eauto.
Qed.

Lemma turned_270_90 pw (s t u : bitmap (double_arith pw)) :
  turned270 pw s t -> turned90 pw t u -> same_image pw u s.
Proof.
  intros (e1 & e2 & e3 & e4 & P) (f1 & f2 & f3 & f4 & Q). unfold same_image.
  repeat (split; [congruence|]). intros x y [Wx Wy].
  assert (Wx' : x < b_w s) by lia. assert (Wy' : y < b_h s) by lia.
  specialize (P x y (conj Wx' Wy')).
  specialize (Q (b_h s - 1 - y) x ltac:(unfold within; lia)).
  rewrite e1, e3 in Q. rewrite f1, e1.
  replace (b_h s - 1 - (b_h s - 1 - y)) with y in Q by lia.
  eapply same_pix_trans; eauto.
Qed.

(** Rotating by an angle and back by it is the identity. *)
Theorem C33_inverse pw fi fi' alloc alloc' (s t u : bitmap (double_arith pw)) a : good pw s ->
  freeimage_rotates pw s fi -> freeimage_rotates pw t fi' ->
  rotate fi alloc (Some s) a = Some (Some t) ->
  rotate fi' alloc' (Some t) (inverse a) = Some (Some u) ->
  same_image pw u s.
Proof.
  intros G F1 F2 R1 R2.
  destruct (C33_rotate pw fi alloc s a G F1) as (r & E & P). rewrite R1 in E. inversion E; subst r.
  destruct P as [Gt Tt].
  destruct (C33_rotate pw fi' alloc' t (inverse a) Gt F2) as (r & E' & P). rewrite R2 in E'.
  inversion E'; subst r. destruct P as [Gu Tu].
  destruct a; cbn [turned inverse] in Tt, Tu;
    eauto using turned_90_270, turned_270_90, turned_180_180.
Qed.

(** So is rotating four times by a quarter turn. *)
Theorem C33_four pw fi1 fi2 fi3 fi4 alloc (s t u v w : bitmap (double_arith pw)) : good pw s ->
  freeimage_rotates pw s fi1 -> freeimage_rotates pw t fi2 ->
  freeimage_rotates pw u fi3 -> freeimage_rotates pw v fi4 ->
  rotate fi1 alloc (Some s) CCW90 = Some (Some t) ->
  rotate fi2 alloc (Some t) CCW90 = Some (Some u) ->
  rotate fi3 alloc (Some u) CCW90 = Some (Some v) ->
  rotate fi4 alloc (Some v) CCW90 = Some (Some w) ->
  same_image pw w s.
Proof.
  intros G F1 F2 F3 F4 R1 R2 R3 R4.
  destruct (C33_rotate pw fi1 alloc s CCW90 G F1) as (r & E & P). rewrite R1 in E.
  inversion E; subst r. destruct P as [Gt T1].
  destruct (C33_rotate pw fi2 alloc t CCW90 Gt F2) as (r & E2 & P). rewrite R2 in E2.
  inversion E2; subst r. destruct P as [Gu T2].
  destruct (C33_rotate pw fi3 alloc u CCW90 Gu F3) as (r & E3 & P). rewrite R3 in E3.
  inversion E3; subst r. destruct P as [Gv T3].
  destruct (C33_rotate pw fi4 alloc v CCW90 Gv F4) as (r & E4 & P). rewrite R4 in E4.
  inversion E4; subst r. destruct P as [Gw T4].
  cbn [turned] in *.
  eapply turned_180_180; eapply turned_90_90; eauto.
Qed.

(** An angle and the opposite angle of the other name are the same turn, and two quarter turns
    are a half turn. *)
Theorem C33_two_quarters pw fi1 fi2 fi3 alloc (s t u v : bitmap (double_arith pw)) : good pw s ->
  freeimage_rotates pw s fi1 -> freeimage_rotates pw t fi2 -> freeimage_rotates pw s fi3 ->
  rotate fi1 alloc (Some s) CCW90 = Some (Some t) ->
  rotate fi2 alloc (Some t) CW270 = Some (Some u) ->
  rotate fi3 alloc (Some s) CW180 = Some (Some v) ->
  same_image pw u v.
Proof.
  intros G F1 F2 F3 R1 R2 R3.
  destruct (C33_rotate pw fi1 alloc s CCW90 G F1) as (r & E & P). rewrite R1 in E.
  inversion E; subst r. destruct P as [Gt T1].
  destruct (C33_rotate pw fi2 alloc t CW270 Gt F2) as (r & E2 & P). rewrite R2 in E2.
  inversion E2; subst r. destruct P as [Gu T2].
  destruct (C33_rotate pw fi3 alloc s CW180 G F3) as (r & E3 & P). rewrite R3 in E3.
  inversion E3; subst r. destruct P as [Gv T3].
  cbn [turned] in *. pose proof (turned_90_90 _ _ _ _ T1 T2) as T.
  destruct T as (e1 & e2 & e3 & e4 & P). destruct T3 as (f1 & f2 & f3 & f4 & Q).
  unfold same_image. repeat (split; [congruence|]). intros x y [Wx Wy].
  specialize (P (b_w s - 1 - x) (b_h s - 1 - y) ltac:(unfold within; lia)).
  specialize (Q (b_w s - 1 - x) (b_h s - 1 - y) ltac:(unfold within; lia)).
  replace (b_w s - 1 - (b_w s - 1 - x)) with x in * by lia.
  replace (b_h s - 1 - (b_h s - 1 - y)) with y in * by lia.
  rewrite e1. eapply same_pix_trans; [exact P|]. apply same_pix_sym. exact Q.
Qed.

(** Case: a 3 x 2 image of 32-bit integers (FreeImage returns nothing) rotated: the top row
    1 2 3 over 4 5 6 becomes the left column 3 2 1. *)
Example C33_case pw :
  let s : bitmap (double_arith pw) := Bitmap I_Int32 3 2 CS_Linear
    (fun x y => PZ [Z.of_N (if y =? 1 then x + 1 else x + 4)]) in
  let none := fun _ : N => @None (N * N * (N -> N -> pix (double_arith pw))) in
  let alloc : allocator (double_arith pw) := fun _ _ _ => Some (fun _ _ => PZ [0%Z]) in
  let zs := fun p : pix (double_arith pw) => match p with PZ l => l | _ => [] end in
  good pw s /\ freeimage_rotates pw s none /\
  match rotate none alloc (Some s) CCW90 with
  | Some (Some t) =>
      (b_w t, b_h t, map (fun y => (zs (at_ pw t 0 y), zs (at_ pw t 1 y))) [0; 1; 2])
  | _ => (0, 0, [])
  end = (2, 3, [([3], [6]); ([2], [5]); ([1], [4])]%Z).
Proof.
  cbv zeta. split.
  { split; [reflexivity|]. split; [reflexivity|]. intros x y [Wx Wy]. cbn in Wx, Wy.
    unfold at_. cbn [b_px b_fmt b_h stored]. unfold range.
    destruct (_ =? 1); lia. }
  split; [discriminate|]. vm_compute. reflexivity.
Qed.

Print Assumptions C35_write_back.
Print Assumptions C35_write_back_gray.
Print Assumptions C35_only_that_pixel.
Print Assumptions C33_rotate.
Print Assumptions C33_inverse.
Print Assumptions C33_four.
Print Assumptions C33_two_quarters.

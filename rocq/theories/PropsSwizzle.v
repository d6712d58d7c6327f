(** C34: channel selection. *)

From Coq Require Import ZArith NArith List Bool Lia.
From Coq Require Import ZifyBool ZifyNat ZifyN.
From Flocq Require Import IEEE754.Binary.
From Verif Require Import Base FormatModel FloatModel FloatSpec ArithModel TextureModel ImageModel
  ImageLoops ImageSpec ImageStoreProofs ImageGrayProofs ImageOpsProofs ImageApiProofs.
Import ListNotations.
Local Open Scope N_scope.

Definition same_format_and_size {pw} (b b' : bitmap (double_arith pw)) : Prop :=
  b_fmt b' = b_fmt b /\ b_w b' = b_w b /\ b_h b' = b_h b /\ b_cs b' = b_cs b.

Lemma swizzle_api pw (b : bitmap (double_arith pw)) r g bl a P : good pw b ->
  (forall p c, stored pw (b_fmt b) p -> getPixelImpl (b_fmt b) p = Some c ->
     exists q c', setPixelNoGrayscaleImpl (b_fmt b) (swizzleColor r g bl a c) = Some q /\
       stored pw (b_fmt b) q /\ getPixelImpl (b_fmt b) q = Some c' /\ P c c') ->
  exists b', swizzle (Some b) r g bl a = Some (Some b', true) /\ good pw b' /\
    same_format_and_size b b' /\
    forall x y, within pw b x y -> exists c c',
      getPixel (Some b) x y = Some (Some c) /\ getPixel (Some b') x y = Some (Some c') /\ P c c'.
Proof.
  intros G H. destruct (mapPixels_api pw (swizzleColor r g bl a) b P G H) as (b' & E & G' & SS & R).
  exists b'. unfold swizzle. rewrite E. split; [reflexivity|]. split; [exact G'|]. split; [|exact R].
  destruct SS as (? & ? & ? & ?). unfold same_format_and_size. auto.
Qed.

(** Every channel of every pixel becomes the selected channel of the original pixel, as far as
    the format stores that channel.  In RGB565 this is for selections that do not move green to
    another channel or another channel to green. *)
Theorem C34_swizzle pw (b : bitmap (double_arith pw)) r g bl a : good pw b ->
  ~ mixes_precision (b_fmt b) r g bl ->
  exists b', swizzle (Some b) r g bl a = Some (Some b', true) /\ good pw b' /\
    same_format_and_size b b' /\
    forall x y, within pw b x y -> exists c c',
      getPixel (Some b) x y = Some (Some c) /\ getPixel (Some b') x y = Some (Some c') /\
      same_color pw c' (hold pw (b_fmt b) (picked pw c r g bl a)).
Proof.
  intros G NM. apply (swizzle_api pw b r g bl a
    (fun c c' => same_color pw c' (hold pw (b_fmt b) (picked pw c r g bl a))) G).
  intros p c S E. destruct (read_rep pw _ _ _ S E) as (Hr & Hg & Hb & Ha & Hn & Hh).
  change (swizzleColor r g bl a c) with (picked pw c r g bl a).
  remember (b_fmt b) as f eqn:Ef. clear Ef.
  destruct (imgfmt_eqb f I_RGB565) eqn:E5.
  - assert (f = I_RGB565) by (destruct f; try discriminate; reflexivity). subst f.
    destruct c as [c1 c2 c3 c4]. cbn [c_r c_g c_b c_a] in *.
    assert (c4 = double_of_Z 1) by exact (f_equal c_a Hh). subst c4.
    assert (N' : r <> Ch_Green /\ bl <> Ch_Green /\ g <> Ch_Red /\ g <> Ch_Blue).
    { repeat split; intros ->; apply NM; unfold mixes_precision; auto. }
    destruct N' as (N1 & N2 & N3 & N4).
    destruct (store_rep pw I_RGB565 (@C4 (double_arith pw)
      (pick pw (@C4 (double_arith pw) c1 c2 c3 (double_of_Z 1)) r 0)
      (pick pw (@C4 (double_arith pw) c1 c2 c3 (double_of_Z 1)) g 0)
      (pick pw (@C4 (double_arith pw) c1 c2 c3 (double_of_Z 1)) bl 0) (double_of_Z 1)))
      as (q & c' & F1 & F2 & F3 & F4); cbn [c_r c_g c_b c_a].
    + destruct r; cbn [pick c_r c_g c_b c_a]; auto using rep_one, rep_zero; congruence.
    + destruct g; cbn [pick c_r c_g c_b c_a]; auto using rep_one, rep_zero; congruence.
    + destruct bl; cbn [pick c_r c_g c_b c_a]; auto using rep_one, rep_zero; congruence.
    + apply rep_one.
    + exists q, c'. split; [exact F1|]. split; [exact F2|]. split; [exact F3|exact F4].
  - assert (f <> I_RGB565) by (intros ->; discriminate).
    assert (RP : forall ch z, z = 0%Z \/ z = 1%Z -> rep pw f false (pick pw c ch z)).
    { intros ch z [->| ->]; destruct ch; cbn [pick]; auto using rep_zero, rep_one. }
    assert (RG : forall ch z, z = 0%Z \/ z = 1%Z -> rep pw f true (pick pw c ch z)).
    { intros ch z Hz. specialize (RP ch z Hz). destruct f; auto. congruence. }
    destruct (store_rep pw f (picked pw c r g bl a)) as (q & c' & F); unfold picked; cbn [c_r c_g c_b c_a]; auto.
    exists q, c'. exact F.
Qed.

(* ------------------------------------------------------------------ *)
(** RGB565 in full: value and maximum of a channel of the word, and the closest value with
    another maximum. *)
Definition chan565 (w : Z) (ch : channel) : Z * Z :=
  match ch with
  | Ch_Red => (w / 2048, 31)
  | Ch_Green => (w / 32 mod 64, 63)
  | Ch_Blue => (w mod 32, 31)
  | Ch_Alpha => (1, 1)
  | Ch_None => (0, 1)
  end%Z.
Definition closest (m' : Z) (vm : Z * Z) : Z :=
  ((2 * fst vm * m' + snd vm) / (2 * snd vm))%Z.

Section Quantize.
Context (pw : double -> double -> double).
Local Notation D := (double_arith pw).

Definition quant_ok (m' m v : Z) : bool :=
  match @fromNorm D 255 m' (@toNorm D m v) with
  | Some z => (z =? closest m' (v, m))%Z && (0 <=? z)%Z && (z <=? m')%Z
  | None => false
  end.

Lemma quant_all :
  forallb (fun k => quant_ok 31 31 (Z.of_N k) && quant_ok 63 31 (Z.of_N k)) (Nrange 32) &&
  forallb (fun k => quant_ok 31 63 (Z.of_N k) && quant_ok 63 63 (Z.of_N k)) (Nrange 64) = true.
Proof. vm_compute. reflexivity. Qed.

Lemma quant m' m v : (m' = 31 \/ m' = 63)%Z -> (m = 31 \/ m = 63)%Z -> (0 <= v <= m)%Z ->
  @fromNorm D 255 m' (@toNorm D m v) = Some (closest m' (v, m)) /\
  (0 <= closest m' (v, m) <= m')%Z.
Proof.
  intros Hm' Hm Hv. pose proof quant_all as Q. apply andb_prop in Q. destruct Q as [Q1 Q2].
  assert (Q : quant_ok m' m v = true).
  { destruct Hm as [-> | ->].
    - rewrite forallb_forall in Q1. specialize (Q1 (Z.to_N v)).
      rewrite Z2N.id in Q1 by lia. rewrite andb_true_iff in Q1.
      destruct Q1 as [? ?]; [apply in_Nrange; lia|]. destruct Hm' as [-> | ->]; auto.
    - rewrite forallb_forall in Q2. specialize (Q2 (Z.to_N v)).
      rewrite Z2N.id in Q2 by lia. rewrite andb_true_iff in Q2.
      destruct Q2 as [? ?]; [apply in_Nrange; lia|]. destruct Hm' as [-> | ->]; auto. }
  unfold quant_ok in Q. destruct (@fromNorm D 255 m' _) as [z|]; [|discriminate].
  apply andb_prop in Q. destruct Q as [Q Q4]. apply andb_prop in Q. destruct Q as [Q Q3].
  apply Z.eqb_eq in Q. subst z. split; [reflexivity|]. lia.
Qed.

Lemma quant_pick w m' ch : (0 <= w < 65536)%Z -> (m' = 31 \/ m' = 63)%Z ->
  @fromNorm D 255 m' (pick pw (@C4 D (@toNorm D 31 (w / 2048)%Z) (@toNorm D 63 (w / 32 mod 64)%Z)
     (@toNorm D 31 (w mod 32)%Z) (double_of_Z 1)) ch 0) = Some (closest m' (chan565 w ch)) /\
  (0 <= closest m' (chan565 w ch) <= m')%Z.
Proof.
  intros Hw Hm. destruct ch; cbn [pick chan565 c_r c_g c_b c_a].
  - apply quant; auto; lia.
  - apply quant; auto; lia.
  - apply quant; auto; lia.
  - rewrite <- (one_norm5 pw). destruct (quant m' 31 31 Hm ltac:(auto) ltac:(lia)) as [-> Hq].
    destruct Hm as [-> | ->]; vm_compute; split; auto; split; discriminate.
  - rewrite <- (zero_norm5 pw). destruct (quant m' 31 0 Hm ltac:(auto) ltac:(lia)) as [-> Hq].
    destruct Hm as [-> | ->]; vm_compute; split; auto; split; discriminate.
Qed.

End Quantize.

(** The fields of a 565 word. *)
Lemma fields565 w : (0 <= w < 65536)%Z ->
  field w M565r 11 = (w / 2048)%Z /\ field w M565g 5 = (w / 32 mod 64)%Z /\
  field w M565b 0 = (w mod 32)%Z.
Proof.
  intros H. pose proof (pack565_all w H) as P. unfold pack565_ok in P.
  rewrite !andb_true_iff in P. destruct P as [[[P1 P2] P3] P4].
  apply Z.eqb_eq in P1. rewrite P1 in *. lia.
Qed.

(** In RGB565 any selection stores, in each channel, the value closest to the selected one. *)
Theorem C34_swizzle_565 pw (b : bitmap (double_arith pw)) r g bl a : good pw b ->
  b_fmt b = I_RGB565 ->
  exists b', swizzle (Some b) r g bl a = Some (Some b', true) /\ good pw b' /\
    same_format_and_size b b' /\
    forall x y, within pw b x y -> exists w w',
      at_ pw b x y = PZ [w] /\ at_ pw b' x y = PZ [w'] /\
      (w' / 2048 = closest 31 (chan565 w r))%Z /\
      (w' / 32 mod 64 = closest 63 (chan565 w g))%Z /\
      (w' mod 32 = closest 31 (chan565 w bl))%Z.
Proof.
  intros G F.
  assert (ONE : forall p c, stored pw (b_fmt b) p -> getPixelImpl (b_fmt b) p = Some c ->
    exists w w', p = PZ [w] /\ setPixelNoGrayscaleImpl (b_fmt b) (swizzleColor r g bl a c) = Some (PZ [w']) /\
      stored pw (b_fmt b) (PZ [w']) /\
      (w' / 2048 = closest 31 (chan565 w r))%Z /\
      (w' / 32 mod 64 = closest 63 (chan565 w g))%Z /\
      (w' mod 32 = closest 31 (chan565 w bl))%Z).
  { rewrite F. intros p c S E.
    destruct p as [l|l|l]; destruct l as [|w [|? ?]]; try contradiction.
    cbn [stored] in S. unfold u16, range in S. cbn [getPixelImpl] in E. inversion E; subst c.
    destruct (fields565 w ltac:(lia)) as (E1 & E2 & E3).
    exists w.
    change (swizzleColor r g bl a ?c) with (picked pw c r g bl a).
    cbn [setPixelNoGrayscaleImpl setCommon]. unfold picked, from5, from6. cbn [c_r c_g c_b].
    rewrite E1, E2, E3.
    destruct (quant_pick pw w 31 r ltac:(lia) ltac:(auto)) as [R1 R2].
    destruct (quant_pick pw w 63 g ltac:(lia) ltac:(auto)) as [G1 G2].
    destruct (quant_pick pw w 31 bl ltac:(lia) ltac:(auto)) as [B1 B2].
    change (@lit (double_arith pw) 1) with (double_of_Z 1).
    match goal with |- exists w', _ /\ oPack 11 5 ?x ?y ?z = _ /\ _ =>
      replace x with (Some (closest 31 (chan565 w r))) by (symmetry; exact R1);
      replace y with (Some (closest 63 (chan565 w g))) by (symmetry; exact G1);
      replace z with (Some (closest 31 (chan565 w bl))) by (symmetry; exact B1) end.
    cbn [oPack obind].
    pose proof (pack565 _ _ _ R2 G2 B2) as PK. cbv zeta in PK. destruct PK as (P0 & P1 & P2 & P3).
    eexists. split; [reflexivity|]. split; [reflexivity|].
    split; [cbn [stored]; unfold u16, range; lia|].
    destruct (fields565 _ P0) as (Q1 & Q2 & Q3). rewrite <- Q1, <- Q2, <- Q3. auto. }
  destruct (mapPixels_api pw (swizzleColor r g bl a) b (fun _ _ => True) G) as (b' & E & G' & SS & _).
  { intros p c S Ec. destruct (ONE p c S Ec) as (w & w' & -> & E1 & E2 & _).
    exists (PZ [w']). destruct (read_stored pw _ _ E2) as [c' Ec']. exists c'. auto. }
  exists b'. unfold swizzle. rewrite E. split; [reflexivity|]. split; [exact G'|].
  destruct (mapPixels_result _ _ _ E) as [_ R]. destruct SS as (s1 & s2 & s3 & s4).
  split; [unfold same_format_and_size; auto|].
  intros x y W. pose proof (within_inside pw b x y W) as I.
  pose proof (good_scan pw b _ _ G I) as S. destruct (read_stored pw _ _ S) as [c Ec].
  specialize (R _ _ I). unfold mapStored in R. rewrite Ec in R. cbn [obind] in R.
  destruct (ONE _ _ S Ec) as (w & w' & Ew & E1 & _ & P). rewrite E1 in R. inversion R as [Rw].
  exists w, w'. unfold at_. rewrite <- s3. auto.
Qed.

(* ------------------------------------------------------------------ *)
(** Composition. *)
Lemma same_double_trans a b c : same_double a b -> same_double b c -> same_double a c.
Proof. unfold same_double. intros [->|[? ?]] [->|[? ?]]; auto. Qed.
Lemma same_double_sym a b : same_double a b -> same_double b a.
Proof. unfold same_double. intros [->|[? ?]]; auto. Qed.
Lemma same_color_trans pw (a b c : color (double_arith pw)) :
  same_color pw a b -> same_color pw b c -> same_color pw a c.
Proof. unfold same_color. intuition eauto using same_double_trans. Qed.
Lemma picked_same pw (c d : color (double_arith pw)) r g b a : same_color pw c d ->
  same_color pw (picked pw c r g b a) (picked pw d r g b a).
Proof.
  intros (H1 & H2 & H3 & H4).
  assert (P : forall ch z, same_double (pick pw c ch z) (pick pw d ch z)).
  { intros ch z; destruct ch; cbn [pick]; auto using same_double_refl. }
  unfold same_color, picked. cbn [c_r c_g c_b c_a]. auto.
Qed.

Definition four_channels (f : imgfmt) : Prop := f = I_RGBA8 \/ f = I_RGBA16 \/ f = I_RGBAF.

Lemma hold_four pw f (c : color (double_arith pw)) : four_channels f -> hold pw f c = c.
Proof. intros [->|[->| ->]]; reflexivity. Qed.

(** In formats with four channels two selections act one after the other on the values. *)
Theorem C34_compose pw (b : bitmap (double_arith pw)) r g bl a r' g' bl' a' : good pw b ->
  four_channels (b_fmt b) ->
  exists b1 b2, swizzle (Some b) r g bl a = Some (Some b1, true) /\
    swizzle (Some b1) r' g' bl' a' = Some (Some b2, true) /\
    same_format_and_size b b2 /\
    forall x y, within pw b x y -> exists c c',
      getPixel (Some b) x y = Some (Some c) /\ getPixel (Some b2) x y = Some (Some c') /\
      same_color pw c' (picked pw (picked pw c r g bl a) r' g' bl' a').
Proof.
  intros G F.
  assert (NM : forall r g bl, ~ mixes_precision (b_fmt b) r g bl).
  { intros ? ? ? [E _]. destruct F as [F|[F|F]]; rewrite F in E; discriminate. }
  destruct (C34_swizzle pw b r g bl a G (NM _ _ _)) as (b1 & E1 & G1 & (f1 & f2 & f3 & f4) & R1).
  rewrite <- f1 in F, NM.
  destruct (C34_swizzle pw b1 r' g' bl' a' G1 (NM _ _ _)) as (b2 & E2 & G2 & (h1 & h2 & h3 & h4) & R2).
  exists b1, b2. split; auto. split; auto. split.
  { unfold same_format_and_size; repeat split; congruence. }
  intros x y W. destruct (R1 x y W) as (c & c1 & A1 & A2 & A3).
  destruct (R2 x y) as (d & c2 & B1 & B2 & B3); [unfold within in *; rewrite f2, f3; auto|].
  rewrite A2 in B1. inversion B1; subst d. exists c, c2. split; auto. split; auto.
  rewrite <- f1 in A3. rewrite hold_four in A3, B3 by auto.
  eapply same_color_trans; [exact B3|]. apply picked_same; auto.
Qed.

(** Exchanging red and blue uses the original values: twice is the identity. *)
Theorem C34_exchange_twice pw (b : bitmap (double_arith pw)) : good pw b ->
  four_channels (b_fmt b) ->
  exists b1 b2,
    swizzle (Some b) Ch_Blue Ch_Green Ch_Red Ch_Alpha = Some (Some b1, true) /\
    swizzle (Some b1) Ch_Blue Ch_Green Ch_Red Ch_Alpha = Some (Some b2, true) /\
    same_format_and_size b b2 /\
    forall x y, within pw b x y -> exists c c',
      getPixel (Some b) x y = Some (Some c) /\ getPixel (Some b2) x y = Some (Some c') /\
      same_color pw c' c.
Proof.
  intros G F.
  destruct (C34_compose pw b Ch_Blue Ch_Green Ch_Red Ch_Alpha Ch_Blue Ch_Green Ch_Red Ch_Alpha G F)
    as (b1 & b2 & E1 & E2 & E3 & R).
  exists b1, b2. split; [exact E1|]. split; [exact E2|]. split; [exact E3|].
  intros x y W. destruct (R x y W) as (c & c' & A & B & H). exists c, c'. split; auto.
Qed.

(** Without an image nothing happens and the result is false. *)
Theorem C34_no_image pw r g b a : swizzle (A := double_arith pw) None r g b a = Some (None, false).
Proof. reflexivity. Qed.

(** In RGB565 moving green to red and back loses information, so RGB565 does not compose. *)
Theorem C34_565_compose_refuted pw : exists (b b1 b2 : bitmap (double_arith pw)),
  good pw b /\ b_fmt b = I_RGB565 /\
  swizzle (Some b) Ch_Green Ch_Red Ch_Blue Ch_Alpha = Some (Some b1, true) /\
  swizzle (Some b1) Ch_Green Ch_Red Ch_Blue Ch_Alpha = Some (Some b2, true) /\
  ~ same_image pw b2 b.
Proof.
  set (b := Bitmap I_RGB565 1 1 CS_Linear (fun _ _ => @PZ (double_arith pw) [32%Z])).
  assert (G : good pw b).
  { split; [reflexivity|]. split; [reflexivity|]. intros x y _. split; cbn; discriminate. }
  destruct (C34_swizzle_565 pw b Ch_Green Ch_Red Ch_Blue Ch_Alpha G eq_refl)
    as (b1 & E1 & G1 & (f1 & f2 & f3 & f4) & R1).
  destruct (C34_swizzle_565 pw b1 Ch_Green Ch_Red Ch_Blue Ch_Alpha G1 f1)
    as (b2 & E2 & G2 & (h1 & h2 & h3 & h4) & R2).
  exists b, b1, b2. split; auto. split; auto. split; auto. split; auto.
  intros (_ & _ & _ & _ & H).
  assert (W2 : within pw b2 0 0) by (unfold within; rewrite h2, h3, f2, f3; split; reflexivity).
  specialize (H 0 0 W2).
  destruct (R1 0 0 ltac:(split; reflexivity)) as (w & w1 & A1 & A2 & A3 & A4 & A5).
  destruct (R2 0 0) as (w1' & w2 & B1 & B2 & B3 & B4 & B5).
  { unfold within; rewrite f2, f3; split; reflexivity. }
  rewrite A2 in B1. inversion B1; subst w1'.
  change (at_ pw b 0 0) with (@PZ (double_arith pw) [32%Z]) in A1, H.
  inversion A1; subst w. rewrite B2 in H. cbn [same_pix] in H.
  rewrite h1, f1 in H. cbn in H. inversion H; subst w2.
  cbn [chan565] in *. unfold closest in *. cbn [fst snd] in *.
  change (32 / 2048)%Z with 0%Z in *. change (32 / 32 mod 64)%Z with 1%Z in *.
  rewrite A3 in B4. vm_compute in B4. discriminate.
Qed.

(** Case: a pixel (255, 128, 0, 64) turned into (alpha, 0, red, 1). *)
Example C34_case pw :
  let b : bitmap (double_arith pw) := Bitmap I_RGBA8 1 1 CS_sRGB (fun _ _ => PZ [255; 128; 0; 64]%Z) in
  good pw b /\ ~ mixes_precision I_RGBA8 Ch_Alpha Ch_None Ch_Red /\
  match swizzle (Some b) Ch_Alpha Ch_None Ch_Red Ch_None with
  | Some (Some b', true) => match at_ pw b' 0 0 with PZ l => l | _ => [] end
  | _ => []
  end = [64; 0; 255; 255]%Z.
Proof.
  cbv zeta. split.
  { split; [reflexivity|]. split; [reflexivity|]. intros x y _. cbn. unfold u8, range. lia. }
  split; [intros [E _]; discriminate|]. vm_compute. reflexivity.
Qed.

Print Assumptions C34_swizzle.
Print Assumptions C34_swizzle_565.
Print Assumptions C34_compose.
Print Assumptions C34_exchange_twice.
Print Assumptions C34_565_compose_refuted.

(** C48: pre-multiplication and grayscale of sRGB images, in binary64, for any [std::pow] with the
    accuracy of SrgbSpec.v.  C36: resizing sRGB images. *)

From Coq Require Import ZArith NArith List Bool Lia Reals Lra.
From Coq Require Import ZifyBool ZifyNat ZifyN.
From Flocq Require Import Core Relative IEEE754.BinarySingleNaN IEEE754.Binary IEEE754.Bits.
From Verif Require Import Base FormatModel FloatModel FloatSpec FloatProofs ArithModel ArithSpec ArithReal
  DoubleProofs TextureModel ImageModel ImageLoops ImageSpec ImageStoreProofs ImageGrayProofs
  ImageOpsProofs ImageApiProofs ImageValueProofs PropsColor PropsSrgb SrgbSpec Srgb64 SrgbChannel
  SrgbMap SrgbPow PropsSrgb64 ResizeModel ResizeSpec ResizeRealProofs PropsResize.
Import ListNotations.
Local Open Scope R_scope.

Section Ops.
Context (pw : double -> double -> double) (PW : pow_ok pw).
Local Notation D := (double_arith pw).

Lemma product_unit x y : 0 <= x <= 1 -> 0 <= y <= 1 -> 0 <= x * y <= 1.
Proof.
  intros X Y. split; [apply Rmult_le_pos; lra|].
  apply Rle_trans with (1 * 1); [apply Rmult_le_compat; lra|lra].
Qed.

(** One channel times alpha. *)
Lemma times_close (d a : double) y af : dfinite d = true -> dfinite a = true -> 0 <= y <= 1 ->
  0 <= dreal a <= 1 -> 0 <= af <= 1 -> Rabs (dreal d - y) <= / IZR (2 ^ 43) ->
  Rabs (dreal a - af) <= / IZR (2 ^ 53) ->
  dfinite (b64_mult mode_NE d a) = true /\
  Rabs (dreal (b64_mult mode_NE d a) - y * af) <= / IZR (2 ^ 42).
Proof.
  intros Fd Fa Y A AF Nd Na.
  change (IZR (2 ^ 43)) with 8796093022208 in Nd. change (IZR (2 ^ 53)) with 9007199254740992 in Na.
  assert (B : Rabs (dreal d) <= 2) by (apply Rabs_le_inv in Nd; apply Rabs_le; lra).
  destruct (mul_two d a Fd Fa B) as [F E]; [rewrite Rabs_pos_eq; lra|].
  split; [exact F|].
  assert (X : Rabs (dreal d * dreal a - y * af) <= / 8796093022208 + / 9007199254740992).
  { replace (dreal d * dreal a - y * af) with (dreal a * (dreal d - y) + y * (dreal a - af)) by ring.
    eapply Rle_trans; [apply Rabs_triang|]. rewrite !Rabs_mult, (Rabs_pos_eq (dreal a)), (Rabs_pos_eq y) by lra.
    pose proof (Rabs_pos (dreal d - y)). pose proof (Rabs_pos (dreal a - af)).
    assert (dreal a * Rabs (dreal d - y) <= 1 * Rabs (dreal d - y)) by (apply Rmult_le_compat_r; lra).
    assert (y * Rabs (dreal a - af) <= 1 * Rabs (dreal a - af)) by (apply Rmult_le_compat_r; lra). lra. }
  change (IZR (2 ^ 52)) with 4503599627370496 in E. change (IZR (2 ^ 42)) with 4398046511104.
  apply Rabs_le_inv in E, X. apply Rabs_le. lra.
Qed.

Definition srgb_tolerance (m : Z) : R := IZR m * 0.00000004.

Lemma tolerance_ok f l m : In m (map snd (rgb_of f l)) ->
  IZR m * 0.000000031 + / IZR (2 ^ 28) <= srgb_tolerance m.
Proof.
  intros Hm. apply snd_maxima in Hm. unfold srgb_tolerance. change (IZR (2 ^ 28)) with 268435456. lra.
Qed.

(** sRGB images with alpha: the colour channels are multiplied with alpha in linear space; alpha
    stays; opaque pixels stay. *)
Theorem C48_premultiply_srgb (b : bitmap D) : good pw b -> b_cs b = CS_sRGB ->
  b_fmt b = I_RGBA8 \/ b_fmt b = I_RGBA16 ->
  exists b', preMultiplyAlpha (Some b) = Some (Some b', true) /\ good pw b' /\
    same_format_and_size b b' /\
    forall x y, within pw b x y -> exists r g bl a r' g' bl',
      at_ pw b x y = PZ [r; g; bl; a] /\ at_ pw b' x y = PZ [r'; g'; bl'; a] /\
      let m := match b_fmt b with I_RGBA8 => 255 | _ => 65535 end%Z in
      (forall v v', In (v, v') [(r, r'); (g, g'); (bl, bl')] ->
         Rabs (IZR v' - encode (decode (IZR v / IZR m) * (IZR a / IZR m)) * IZR m) <= / 2 + srgb_tolerance m) /\
      (a = m -> [r'; g'; bl'] = [r; g; bl]).
Proof.
  intros G CS FM.
  assert (N : normalised (b_fmt b)) by (destruct FM as [->| ->]; cbn; auto 10).
  destruct (norm_map pw (preMultiplyColor (b_cs b)) (fun fs a => map (fun v => encode (decode v * a)) fs)
      0.000000031 False) with (b := b) as (b' & E & G' & SS & P); auto.
  - intros r gr bl mr mg mb a af Mr Mg Mb Hr Hg Hb Fa Ba Af Na. rewrite CS.
    cbn [preMultiplyColor onRGB c_r c_g c_b c_a map nmul double_arith]. split; [|reflexivity].
    apply maxima_bound in Mr, Mg, Mb.
    assert (K : forall m v, (0 < m <= 65535)%Z -> (0 <= v <= m)%Z ->
      chan 0.000000031 (@linearToSRGB D (b64_mult mode_NE (@sRGBToLinear D (@toNorm D m v)) a)) (encode (decode (IZR v / IZR m) * af))).
    { intros m v Hm Hv. destruct (decode_norm pw PW m v Hm Hv) as [F1 N1].
      pose proof (decode_unit _ (unit_frac v m ltac:(lia) Hv)) as U.
      destruct (times_close _ a _ af F1 Fa U Ba Af N1 Na) as [F2 N2].
      destruct (encode_close pw PW _ _ F2 (product_unit _ _ U Af) N2) as [F3 N3].
      split; [exact F3|]. split; [apply encode_unit, product_unit; assumption|exact N3]. }
    constructor; [apply K; assumption|]. constructor; [apply K; assumption|]. constructor; [apply K; assumption|]. constructor.
  - intros x a. eexists. reflexivity.
  - intros [].
  - exists b'. split; [unfold preMultiplyAlpha; destruct FM as [FM|FM]; rewrite FM, E; reflexivity|].
    split; [exact G'|]. split; [apply shape_spec, SS|].
    intros x y W. destruct (P x y W) as (l & l' & E1 & E2 & M1 & M2 & _ & M4).
    destruct SS as (S1 & S2 & S3 & S4).
    assert (SL : stored pw (b_fmt b) (PZ l)) by (rewrite <- E1; apply G, W).
    assert (SL' : stored pw (b_fmt b) (PZ l')).
    { rewrite <- E2, S1. apply G'. unfold within in *. rewrite <- S2, <- S3. exact W. }
    assert (ONE : forall m v v', (0 < m <= 65535)%Z -> (0 <= v <= m)%Z ->
      Rabs (IZR v' - encode (decode (IZR v / IZR m) * (IZR m / IZR m)) * IZR m) <= / 2 + srgb_tolerance m -> v' = v).
    { intros m v v' Hm Hv H. assert (M : 1 <= IZR m <= 65535) by (split; apply IZR_le; lia).
      replace (IZR m / IZR m) with 1 in H by (field; lra). rewrite Rmult_1_r in H.
      pose proof (unit_frac v m ltac:(lia) Hv) as U.
      pose proof (C38_gap_error _ (proj1 U)) as Q. rewrite toSRGB_is, toLinear_is in Q.
      assert (Q2 : Rabs (encode (decode (IZR v / IZR m)) * IZR m - IZR v) <= 0.0000001 * IZR m).
      { rewrite <- (frac_times v m) at 2 by lia. rewrite <- Rmult_minus_distr_r, Rabs_mult, (Rabs_pos_eq (IZR m)) by lra.
        apply Rmult_le_compat_r; lra. }
      assert (Z.abs (v' - v) <= 0)%Z; [|lia]. apply abs_le_int. rewrite minus_IZR. unfold srgb_tolerance in H.
      apply Rabs_le_inv in H, Q2. apply Rabs_def1; lra. }
    destruct FM as [FM|FM]; rewrite FM in *; cbv zeta;
      destruct l as [|r [|gr [|bl [|a [|? ?]]]]]; try contradiction;
      destruct l' as [|r' [|gr' [|bl' [|a' [|? ?]]]]]; try contradiction;
      cbn [alpha_of] in M4; injection M4 as ->; exists r, gr, bl, a, r', gr', bl';
      (split; [exact E1|]); (split; [exact E2|]);
      cbn [rgb_of map alpha_frac alpha_of] in M2; unfold fraction in M2; cbn [fst snd] in M2;
      inversion_clear M2 as [|? ? ? ? N1 M2']; inversion_clear M2' as [|? ? ? ? N2 M2'']; inversion_clear M2'' as [|? ? ? ? N3 _];
      unfold near_step in N1, N2, N3; cbn [fst snd] in N1, N2, N3;
      cbn [stored] in SL; unfold u8, u16, range in SL.
    + assert (T : 255 * 0.000000031 + / IZR (2 ^ 28) <= srgb_tolerance 255).
      { apply (tolerance_ok I_RGBA8 [r; gr; bl; a]). left; reflexivity. }
      assert (K : forall v v', In (v, v') [(r, r'); (gr, gr'); (bl, bl')] ->
         Rabs (IZR v' - encode (decode (IZR v / 255) * (IZR a / 255)) * 255) <= / 2 + srgb_tolerance 255).
      { intros v v' [[= <- <-]|[[= <- <-]|[[= <- <-]|[]]]]; lra. }
      split; [exact K|]. intros ->.
      rewrite (ONE 255%Z r r'), (ONE 255%Z gr gr'), (ONE 255%Z bl bl'); auto; try lia; apply K; cbn; auto.
    + assert (T : 65535 * 0.000000031 + / IZR (2 ^ 28) <= srgb_tolerance 65535).
      { apply (tolerance_ok I_RGBA16 [r; gr; bl; a]). left; reflexivity. }
      assert (K : forall v v', In (v, v') [(r, r'); (gr, gr'); (bl, bl')] ->
         Rabs (IZR v' - encode (decode (IZR v / 65535) * (IZR a / 65535)) * 65535) <= / 2 + srgb_tolerance 65535).
      { intros v v' [[= <- <-]|[[= <- <-]|[[= <- <-]|[]]]]; lra. }
      split; [exact K|]. intros ->.
      rewrite (ONE 65535%Z r r'), (ONE 65535%Z gr gr'), (ONE 65535%Z bl bl'); auto; try lia; apply K; cbn; auto.
Qed.

(** The luminance of sRGB channels, computed in linear space. *)
Definition srgb_gray (fs : list R) : R :=
  match fs with [r; g; b] => encode (luminance (decode r) (decode g) (decode b)) | _ => 0 end.

(** [new] are the channels [old] replaced by their luminance; gray pixels stay. *)
Definition gray_of_srgb (old new : list (Z * Z)) : Prop :=
  Forall2 (fun c c' => snd c' = snd c /\
    Rabs (IZR (fst c') - srgb_gray (map fraction old) * IZR (snd c')) <= / 2 + srgb_tolerance (snd c')) old new /\
  (forall c c', In c new -> In c' new -> snd c = snd c' -> fst c = fst c') /\
  ((forall c c', In c old -> In c' old -> fraction c = fraction c') -> new = old).

Theorem C48_grayscale_srgb (b : bitmap D) : good pw b -> b_cs b = CS_sRGB -> normalised (b_fmt b) ->
  exists b', grayscale (Some b) = Some (Some b', true) /\ good pw b' /\ same_format_and_size b b' /\
    forall x y, within pw b x y -> exists l l',
      at_ pw b x y = PZ l /\ at_ pw b' x y = PZ l' /\
      gray_of_srgb (rgb_of (b_fmt b) l) (rgb_of (b_fmt b) l') /\
      alpha_of (b_fmt b) l' = alpha_of (b_fmt b) l.
Proof.
  intros G CS N.
  destruct (norm_map pw (grayscaleColor (b_cs b)) (fun fs _ => map (fun _ => srgb_gray fs) fs)
      0.000000031 True) with (b := b) as (b' & E & G' & SS & P); auto.
  - intros r gr bl mr mg mb a af Mr Mg Mb Hr Hg Hb Fa Ba Af Na. rewrite CS.
    cbn [grayscaleColor onRGB c_r c_g c_b c_a map srgb_gray]. split; [|reflexivity].
    apply maxima_bound in Mr, Mg, Mb.
    destruct (decode_norm pw PW mr r Mr Hr) as [F1 N1]. destruct (decode_norm pw PW mg gr Mg Hg) as [F2 N2].
    destruct (decode_norm pw PW mb bl Mb Hb) as [F3 N3].
    pose proof (decode_unit _ (unit_frac r mr ltac:(lia) Hr)) as U1.
    pose proof (decode_unit _ (unit_frac gr mg ltac:(lia) Hg)) as U2.
    pose proof (decode_unit _ (unit_frac bl mb ltac:(lia) Hb)) as U3.
    assert (TWO : forall (d : double) y, 0 <= y <= 1 -> Rabs (dreal d - y) <= / IZR (2 ^ 43) -> Rabs (dreal d) <= 2).
    { intros d y Y H. change (IZR (2 ^ 43)) with 8796093022208 in H. apply Rabs_le_inv in H. apply Rabs_le. lra. }
    destruct (toGrayscale_two pw _ _ _ F1 F2 F3 (TWO _ _ U1 N1) (TWO _ _ U2 N2) (TWO _ _ U3 N3)) as [F4 N4].
    pose proof (luminance_near _ _ _ _ _ _ _ N1 N2 N3) as NL.
    assert (C : chan 0.000000031 (@linearToSRGB D (@toGrayscale D (@sRGBToLinear D (@toNorm D mr r))
        (@sRGBToLinear D (@toNorm D mg gr)) (@sRGBToLinear D (@toNorm D mb bl))))
      (encode (luminance (decode (IZR r / IZR mr)) (decode (IZR gr / IZR mg)) (decode (IZR bl / IZR mb))))).
    { destruct (encode_close pw PW (@toGrayscale D (@sRGBToLinear D (@toNorm D mr r))
        (@sRGBToLinear D (@toNorm D mg gr)) (@sRGBToLinear D (@toNorm D mb bl)))
        (luminance (decode (IZR r / IZR mr)) (decode (IZR gr / IZR mg)) (decode (IZR bl / IZR mb)))) as [F5 N5]; auto.
      - apply luminance_unit; assumption.
      - change (IZR (2 ^ 43)) with 8796093022208 in NL. change (IZR (2 ^ 48)) with 281474976710656 in N4.
        change (IZR (2 ^ 42)) with 4398046511104. apply Rabs_le_inv in NL, N4. apply Rabs_le. lra.
      - split; [exact F5|]. split; [apply encode_unit, luminance_unit; assumption|exact N5]. }
    do 3 (constructor; [exact C|]). constructor.
  - intros x a. eexists. reflexivity.
  - exists b'. split; [unfold grayscale; rewrite E; reflexivity|].
    split; [exact G'|]. split; [apply shape_spec, SS|].
    intros x y W. destruct (P x y W) as (l & l' & E1 & E2 & M1 & M2 & M3 & M4).
    exists l, l'. split; [exact E1|]. split; [exact E2|]. split; [|exact M4].
    specialize (M3 I).
    assert (SL : Forall in_steps (rgb_of (b_fmt b) l)) by (apply (rgb_steps pw); rewrite <- E1; apply G, W).
    pose proof (tolerance_ok (b_fmt b) l) as T.
    destruct (rgb_of (b_fmt b) l) as [|c1 [|c2 [|c3 [|? ?]]]] eqn:RO; cbn [map] in M1, M2;
      destruct (rgb_of (b_fmt b) l') as [|d1 [|d2 [|d3 [|? ?]]]]; try contradiction; try discriminate.
    injection M1 as S1 S2 S3. cbn [map] in *.
    set (z := srgb_gray [fraction c1; fraction c2; fraction c3]) in *.
    inversion_clear M2 as [|? ? ? ? N1 M2']. inversion_clear M2' as [|? ? ? ? N2 M2''].
    inversion_clear M2'' as [|? ? ? ? N3 _]. unfold near_step in *.
    assert (T1 := T _ (or_introl eq_refl)). assert (T2 := T _ (or_intror (or_introl eq_refl))).
    assert (T3 := T _ (or_intror (or_intror (or_introl eq_refl)))).
    assert (B : forall c d : Z * Z, snd d = snd c ->
      Rabs (IZR (fst d) - z * IZR (snd d)) <= / 2 + IZR (snd d) * 0.000000031 + / IZR (2 ^ 28) ->
      IZR (snd c) * 0.000000031 + / IZR (2 ^ 28) <= srgb_tolerance (snd c) ->
      snd d = snd c /\ Rabs (IZR (fst d) - z * IZR (snd d)) <= / 2 + srgb_tolerance (snd d)).
    { intros c d S H TT. split; [exact S|]. rewrite S in *. lra. }
    assert (B1 := B c1 d1 S1 N1 T1). assert (B2 := B c2 d2 S2 N2 T2). assert (B3 := B c3 d3 S3 N3 T3).
    split; [|split].
    + constructor; [exact B1|]. constructor; [exact B2|]. constructor; [exact B3|]. constructor.
    + destruct M3 as [Q1 Q2].
      assert (Q3 : snd d2 = snd d3 -> fst d2 = fst d3).
      { intros SQ. clear -N2 N3 SQ B2 B3 M4 E2 G' SS W E1 P RO G CS N Q1 Q2 S1 S2 S3.
        (* the middle channel has another maximum only in RGB565, where the last has the first's *)
        assert (snd c1 = snd c2 \/ snd c1 = snd c3).
        { destruct (b_fmt b); destruct l as [|? [|? [|? [|? [|? ?]]]]]; cbn [rgb_of] in RO; try discriminate;
            injection RO as <- <- <-; cbn [snd]; auto. }
        destruct H as [H|H].
        - rewrite <- Q1, <- Q2 by congruence. reflexivity.
        - rewrite <- Q1, <- Q2 by congruence. reflexivity. }
      intros c c' [<-|[<-|[<-|[]]]] [<-|[<-|[<-|[]]]] SQ; auto; symmetry; auto.
    + intros EQ.
      assert (E12 : fraction c1 = fraction c2) by (apply EQ; cbn; auto).
      assert (E13 : fraction c1 = fraction c3) by (apply EQ; cbn; auto).
      inversion_clear SL as [|? ? [X1 R1] SL1]. inversion_clear SL1 as [|? ? [X2 R2] SL2]. inversion_clear SL2 as [|? ? [X3 R3] _].
      assert (ZE : z = encode (decode (fraction c1))).
      { unfold z. cbn [srgb_gray]. rewrite <- E12, <- E13. rewrite luminance_gray. reflexivity. }
      assert (ONE : forall c d : Z * Z, maxima (snd c) -> (0 <= fst c <= snd c)%Z -> fraction c = fraction c1 ->
        snd d = snd c /\ Rabs (IZR (fst d) - z * IZR (snd d)) <= / 2 + srgb_tolerance (snd d) -> d = c).
      { intros c d Mx Hv FE [S H]. apply maxima_bound in Mx. rewrite S in H.
        rewrite ZE, <- FE in H.
        assert (M : 1 <= IZR (snd c) <= 65535) by (split; apply IZR_le; lia).
        pose proof (unit_frac (fst c) (snd c) ltac:(lia) Hv) as U.
        pose proof (C38_gap_error _ (proj1 U)) as Q. rewrite toSRGB_is, toLinear_is in Q.
        change (IZR (fst c) / IZR (snd c)) with (fraction c) in Q.
        assert (Q2 : Rabs (encode (decode (fraction c)) * IZR (snd c) - IZR (fst c)) <= 0.0000001 * IZR (snd c)).
        { rewrite <- (frac_times (fst c) (snd c)) by lia. fold (fraction c).
          rewrite <- Rmult_minus_distr_r, Rabs_mult, (Rabs_pos_eq (IZR (snd c))) by lra.
          apply Rmult_le_compat_r; lra. }
        assert (Z.abs (fst d - fst c) <= 0)%Z.
        { apply abs_le_int. rewrite minus_IZR. unfold srgb_tolerance in H.
          apply Rabs_le_inv in H, Q2. apply Rabs_def1; lra. }
        destruct c, d; cbn [fst snd] in *. f_equal; lia. }
      rewrite (ONE c1 d1), (ONE c2 d2), (ONE c3 d3); auto.
Qed.

End Ops.
Print Assumptions C48_premultiply_srgb.
Print Assumptions C48_grayscale_srgb.

(** ** C36: resizing sRGB images *)

(** Whatever the format and the resampler, an sRGB image is resized in linear space: changing the
    colour space, resizing the linear image and changing back give the same image. *)
Theorem C36_srgb_steps : forall (A : arith) fi alloc (s : bitmap A) w h rf,
  b_cs s = CS_sRGB -> w <> 0%N -> h <> 0%N -> (w, h) <> (b_w s, b_h s) ->
  (forall l ok, changeColorSpace (Some s) CS_Linear = Some (l, ok) ->
     (exists l', l = Some l' /\ b_cs l' = CS_Linear /\ b_w l' = b_w s /\ b_h l' = b_h s /\ b_fmt l' = b_fmt s) /\
     resize fi alloc (Some s) w h rf =
       match resize fi alloc l w h rf with
       | Some d => match changeColorSpace d CS_sRGB with Some (d', _) => Some d' | None => None end
       | None => None
       end) /\
  (changeColorSpace (Some s) CS_Linear = None -> resize fi alloc (Some s) w h rf = None).
Proof.
  intros A fi alloc s w h rf CS W H NE.
  assert (E1 : ((w =? 0) || (h =? 0))%N = false) by lia.
  assert (E2 : ((w =? b_w s) && (h =? b_h s))%N = false).
  { destruct (N.eqb_spec w (b_w s)), (N.eqb_spec h (b_h s)); auto. exfalso. apply NE. congruence. }
  unfold resize at 1 3. rewrite E1, E2, CS. split.
  - intros l ok E. rewrite E. cbn [obind fst].
    assert (L : exists l', l = Some l' /\ b_cs l' = CS_Linear /\ b_w l' = b_w s /\ b_h l' = b_h s /\ b_fmt l' = b_fmt s).
    { unfold changeColorSpace in E. rewrite CS in E. destruct (mapPixels (onRGB sRGBToLinear) s) as [b'|] eqn:MP; [|discriminate].
      cbn [obind] in E. injection E as <- <-. destruct (mapPixels_result _ _ _ MP) as [(S1 & S2 & S3 & _) _].
      eexists. split; [reflexivity|]. cbn. auto. }
    split; [exact L|]. destruct L as (l' & -> & C1 & C2 & C3 & _).
    unfold resize. rewrite E1, C1, C2, C3, E2.
    destruct (resizeLinear fi alloc l' w h rf) as [d|]; cbn [obind]; [|reflexivity].
    destruct (changeColorSpace d CS_sRGB) as [[d' ok']|]; reflexivity.
  - intros E. rewrite E. reflexivity.
Qed.
Print Assumptions C36_srgb_steps.

Local Notation RA := real_arith.

Lemma mapPixels_double (g : R -> R) (b : bitmap RA) : b_fmt b = I_Double ->
  (forall x y, (x < b_w b)%N -> (y < b_h b)%N -> shaped I_Double (b_px b x y)) ->
  exists b', mapPixels (@onRGB RA g) b = Some b' /\ same_shape b b' /\
    forall x y, (x < b_w b)%N -> (y < b_h b)%N -> b_px b' x y = @PN RA [g (value 0 (b_px b x y))].
Proof.
  intros F SH.
  assert (K : forall x y, inside b x y -> mapStored (b_fmt b) (@onRGB RA g) (b_px b x y) = Some (@PN RA [g (value 0 (b_px b x y))])).
  { intros x y [I1 I2]. specialize (SH x y I1 I2). rewrite F.
    destruct (b_px b x y) as [l|l|[|v [|? ?]]]; try contradiction. reflexivity. }
  destruct (mapPixels_total (@onRGB RA g) b) as [b' E].
  { intros x y I. rewrite (K x y I). discriminate. }
  exists b'. split; [exact E|]. destruct (mapPixels_result _ _ _ E) as [SS R]. split; [exact SS|].
  intros x y I1 I2. specialize (R x y (conj I1 I2)). rewrite (K x y (conj I1 I2)) in R. congruence.
Qed.

(** Over the reals, every pixel of an sRGB image of doubles is the average of the decoded source
    pixels, encoded again. *)
Theorem C36_srgb_formula : forall fi alloc (b : bitmap RA) w h rf px,
  b_fmt b = I_Double -> b_cs b = CS_sRGB -> (rf = RF_Box \/ rf = RF_Linear) ->
  (0 < b_w b < 2 ^ 31)%N -> (0 < b_h b < 2 ^ 31)%N -> (b_w b * b_h b < 2 ^ 32)%N ->
  (0 < w < 2 ^ 31)%N -> (0 < h < 2 ^ 31)%N -> (w, h) <> (b_w b, b_h b) ->
  (forall x y, (x < b_w b)%N -> (y < b_h b)%N -> exists v, b_px b x y = @PN RA [v]) ->
  alloc I_Double w h = Some px ->
  exists d, resize fi alloc (Some b) w h rf = Some (Some d) /\
    b_fmt d = I_Double /\ b_w d = w /\ b_h d = h /\ b_cs d = CS_sRGB /\
    forall x y, (x < w)%N -> (y < h)%N ->
      b_px d x y = @PN RA [encode (resampled rf (b_w b) (b_h b) w h x y (fun j i => decode (value 0 (b_px b j i))))].
Proof.
  intros fi alloc b w h rf px F CS RF Hbw Hbh Hs Hw Hh NE SH AL.
  destruct (C36_srgb_steps RA fi alloc b w h rf CS ltac:(lia) ltac:(lia) NE) as [ST _].
  destruct (mapPixels_double (@sRGBToLinear RA) b F) as (l & El & (L1 & L2 & L3 & L4) & Lp).
  { intros x y I1 I2. destruct (SH x y I1 I2) as [v ->]. exact Logic.I. }
  destruct (ST (Some (setColorSpace CS_Linear l)) true) as [_ ->].
  { unfold changeColorSpace. rewrite CS, El. reflexivity. }
  destruct (C36_formula fi alloc (setColorSpace CS_Linear l) w h rf px) as (d & Ed & D1 & D2 & D3 & D4 & Dp);
    cbn [setColorSpace b_fmt b_w b_h b_cs b_px]; auto; try (rewrite <- ?L2, <- ?L3; assumption).
  { rewrite <- L1, F. unfold own_format. cbn. auto 10. }
  { rewrite <- L1, <- L2, <- L3, F. intros x y I1 I2. rewrite Lp by assumption. exact Logic.I. }
  { rewrite <- L1, F. exact AL. }
  rewrite Ed. cbn [setColorSpace b_fmt b_w b_h b_cs b_px] in *. rewrite <- L1, F in *.
  cbn [channels seq map store] in Dp.
  destruct (mapPixels_double (@linearToSRGB RA) d) as (r & Er & (R1 & R2 & R3 & R4) & Rp); [congruence| |].
  { rewrite D2, D3. intros x y I1 I2. apply (Dp x y I1 I2). }
  unfold changeColorSpace. rewrite D4, Er. cbn [obind].
  exists (setColorSpace CS_sRGB r). split; [reflexivity|]. cbn [setColorSpace b_fmt b_w b_h b_cs b_px].
  split; [congruence|]. split; [congruence|]. split; [congruence|]. split; [reflexivity|].
  intros x y I1 I2. rewrite Rp by congruence. destruct (Dp x y I1 I2) as [_ ->]. cbn [value nth].
  rewrite toSRGB_is, <- L2, <- L3. do 3 f_equal. unfold resampled, average2.
  apply average_ext; auto. intros i Hi. apply average_ext; auto. intros j Hj. rewrite Lp by assumption.
  cbn [value nth]. apply toLinear_is.
Qed.
Print Assumptions C36_srgb_formula.

(** Cases.  A half transparent sRGB pixel, for a power function that meets the contract. *)
Example C48_srgb_case :
  let b : bitmap (double_arith good_pow) := Bitmap I_RGBA8 1 1 CS_sRGB (fun _ _ => PZ [200; 100; 7; 128]%Z) in
  pow_ok good_pow /\ good good_pow b /\ b_cs b = CS_sRGB /\ normalised (b_fmt b) /\ within good_pow b 0 0.
Proof.
  cbv zeta. split; [exact good_pow_ok|]. split.
  { split; [reflexivity|]. split; [reflexivity|]. intros x y _. cbn. unfold u8, range. lia. }
  split; [reflexivity|]. split; [cbn; auto 10|]. split; reflexivity.
Qed.

(** Black with any alpha stays black, white becomes the encoding of alpha. *)
Example C48_srgb_white : encode (decode 1 * (128 / 255)) = encode (128 / 255) /\ encode (decode 0 * (128 / 255)) = 0.
Proof.
  assert (D1 : decode 1 = 1).
  { unfold decode. destruct (Rle_dec 1 0.04045); [lra|]. replace ((1 + 0.055) / 1.055) with 1 by lra. apply Rpower_one. }
  assert (D0 : decode 0 = 0) by (unfold decode; destruct (Rle_dec 0 0.04045); lra).
  rewrite D1, D0. split; [f_equal; lra|]. unfold encode. destruct (Rle_dec (0 * (128 / 255)) 0.0031308); lra.
Qed.

(** Two black and two white samples: the mean is taken in linear space. *)
Example C36_srgb_case :
  let b : bitmap RA := @Bitmap RA I_Double 2 2 CS_sRGB (fun x _ => @PN RA [if (x =? 0)%N then 0 else 1]) in
  exists d, resize (fun _ _ _ _ => None) (fun _ _ _ => Some (fun _ _ => @PN RA [0])) (Some b) 1 1 RF_Box = Some (Some d) /\
    b_px d 0%N 0%N = @PN RA [encode (/ 2)].
Proof.
  cbv zeta. destruct (C36_srgb_formula (fun _ _ _ _ => None) (fun _ _ _ => Some (fun _ _ => @PN RA [0]))
    (@Bitmap RA I_Double 2 2 CS_sRGB (fun x _ => @PN RA [if (x =? 0)%N then 0 else 1])) 1 1 RF_Box
    (fun _ _ => @PN RA [0])) as (d & E & _ & _ & _ & _ & P); cbn [b_fmt b_w b_h b_cs b_px]; auto; try lia; try discriminate.
  { intros; eexists; reflexivity. }
  exists d. split; [exact E|]. rewrite P by lia. cbn [b_w b_h b_px value nth]. do 3 f_equal.
  assert (D1 : decode 1 = 1).
  { unfold decode. destruct (Rle_dec 1 0.04045); [lra|]. replace ((1 + 0.055) / 1.055) with 1 by lra. apply Rpower_one. }
  assert (D0 : decode 0 = 0) by (unfold decode; destruct (Rle_dec 0 0.04045); lra).
  unfold resampled, average2, average, total, weights. change (Nrange 2) with [0; 1]%N.
  cbn [Nrange N.to_nat Pos.to_nat Pos.iter_op Nat.add seq map fold_right].
  rewrite !box_1. simpl. rewrite D0, D1. lra.
Qed.

(** The steps of the tool on images of floats that stand for colours. *)

From Coq Require Import ZArith NArith List Bool Lia Reals Lra String.
From Coq Require Import ZifyBool ZifyNat ZifyN.
From Flocq Require Import Core IEEE754.BinarySingleNaN IEEE754.Binary IEEE754.Bits.
From Verif Require Import Base FormatModel FormatSpec ContainerSpec FloatModel FloatSpec FloatProofs ArithModel ArithSpec
  DoubleProofs TextureModel ImageModel ImageLoops ImageSpec ImageStoreProofs ImageOpsProofs
  ImageApiProofs ImageConvertSpec ImageValueProofs ImageConvertProofs PropsConvertImage AdjustModel AdjustProofs AdjustSpec PropsAdjust.
From Verif Require Import PropsSwizzle PropsColor PropsImage PropsSrgb SrgbSpec Srgb64 SrgbChannel SrgbMap.
From Verif Require CommandLineModel.
From Verif Require Import PixelModel PixelSpec PixelProofs PipelineModel PipelineSpec ToolImageModel ToolImageSpec.
Import ListNotations.
Local Open Scope N_scope.
Local Notation length := List.length.

Local Notation colour := ImageConvertSpec.rgba.

Section Pixels.
Context (pw : double -> double -> double).
Local Notation D := (double_arith pw).

Lemma near_weaker e e' (p : pix D) c : (e <= e')%R -> near_colour e p c -> near_colour e' p c.
Proof.
  intros H. unfold near_colour, within_error.
  destruct p as [l|l|l]; auto; destruct l as [|r [|g [|b [|a [|? ?]]]]]; auto.
  intros ([? ?] & [? ?] & [? ?] & ? & ?). repeat (split; [split; [assumption|lra]|]). split; [assumption|lra].
Qed.

Lemma near_stored e (p : pix D) c : near_colour e p c -> stored pw I_RGBAF p.
Proof.
  destruct p as [l|l|l]; cbn [near_colour stored]; try contradiction; destruct l as [|r [|g [|b [|a [|? ?]]]]]; auto.
Qed.

Lemma same_finite (v w : float) : same_float v w -> finite w = true -> v = w.
Proof. intros [H|[_ H]] F; [exact H|]. destruct w; discriminate. Qed.

Lemma near_same e (p q : pix D) c : same_pix pw I_RGBAF p q -> near_colour e q c -> near_colour e p c.
Proof.
  intros S N. destruct q as [l|l|l]; cbn [near_colour] in N; try contradiction.
  destruct l as [|r [|g [|b [|a [|? ?]]]]]; try contradiction.
  destruct N as ([Fr Nr] & [Fg Ng] & [Fb Nb] & Fa & Na).
  destruct p as [l|l|l]; cbn [same_pix] in S; try contradiction.
  inversion S as [|? r' ? l1 S1 S']; subst. inversion S' as [|? g' ? l2 S2 S'']; subst.
  inversion S'' as [|? b' ? l3 S3 S4]; subst. inversion S4 as [|? a' ? l4 S5 S6]; subst. inversion S6; subst.
  apply same_finite in S1; auto. apply same_finite in S2; auto. apply same_finite in S3; auto. apply same_finite in S5; auto.
  subst. cbn [near_colour]. unfold within_error. auto 10.
Qed.

(** ** Single pixels *)

Lemma scaled d y e k : (0 <= k)%R -> (- e <= d <= e)%R -> (0 <= y <= k)%R -> (- (e * k) <= d * y <= e * k)%R.
Proof.
  intros K D Y. assert (H : (Rabs (d * y) <= e * k)%R).
  { rewrite Rabs_mult. apply Rmult_le_compat; try apply Rabs_pos; [apply Rabs_le; lra|rewrite Rabs_pos_eq; lra]. }
  apply Rabs_le_inv in H. exact H.
Qed.

Lemma rnd32_half x : (Rabs x < 2)%R -> (Rabs (rnd32 x - x) <= / 16777216)%R.
Proof.
  intros H. unfold rnd32. assert (Hp : Prec_gt_0 24) by reflexivity.
  eapply Rle_trans; [apply (@error_le_half_ulp radix2 (FLT_exp (-149) 24) (FLT_exp_valid (-149) 24))|].
  assert (U : (ulp radix2 (FLT_exp (-149) 24) x <= bpow radix2 (-23))%R).
  { destruct (Req_dec x 0) as [-> |N].
    - rewrite ulp_FLT_0 by reflexivity. apply bpow_le. lia.
    - rewrite ulp_neq_0 by exact N. apply bpow_le. unfold cexp, FLT_exp.
      assert (mag radix2 x <= 1)%Z by (apply mag_le_bpow; [exact N|exact H]). lia. }
  change (bpow radix2 (-23)) with (/ 8388608)%R in U. lra.
Qed.

Lemma narrow_near (d : double) x e : dfinite d = true -> (0 <= x <= 1)%R -> (Rabs (dreal d - x) <= e)%R ->
  (0 <= e <= / 8)%R -> within_error (e + / 16777216) (dnarrow d) x.
Proof.
  intros F X H E.
  assert (B : (Rabs (dreal d) < 2)%R).
  { apply Rabs_le_inv in H. apply Rabs_def1; lra. }
  assert (R : (Rabs (rnd32 (dreal d) - dreal d) <= / 16777216)%R) by (apply rnd32_half; exact B).
  destruct (dnarrow_ok d F) as [Fn En].
  { apply Rle_lt_trans with (bpow radix2 1); [apply rnd32_bound; [lia|change (bpow radix2 1) with 2%R; lra]|apply bpow_lt; lia]. }
  split; [exact Fn|]. rewrite En.
  apply Rabs_le_inv in R, H. apply Rabs_le. lra.
Qed.

Lemma widen_back (v : float) : finite v = true -> dnarrow (dwiden v) = v.
Proof. intros F. apply narrow_widen. destruct v; try discriminate; reflexivity. Qed.

Lemma near_one e : (0 <= e)%R -> within_error e (dnarrow (double_of_Z 1)) 1.
Proof.
  intros E. assert (H : finite (dnarrow (double_of_Z 1)) = true /\ real (dnarrow (double_of_Z 1)) = 1%R).
  { destruct (double_of_Z_ok 1 ltac:(simpl; lia)) as [E1 F1].
    destruct (dnarrow_ok (double_of_Z 1) F1) as [Fn En].
    - rewrite E1. apply Rle_lt_trans with (bpow radix2 0); [apply rnd32_bound; [lia|]|apply bpow_lt; lia].
      change (bpow radix2 0) with 1%R. rewrite Rabs_pos_eq; lra.
    - split; [exact Fn|]. rewrite En, E1. exact (rnd32_bpow 0 ltac:(lia)). }
  destruct H as [F R]. split; [exact F|]. rewrite R. rewrite Rminus_diag_eq, Rabs_R0 by reflexivity. exact E.
Qed.
Lemma near_zero e : (0 <= e)%R -> within_error e (dnarrow (double_of_Z 0)) 0.
Proof.
  intros E. split; [reflexivity|]. change (real (dnarrow (double_of_Z 0))) with 0%R.
  rewrite Rminus_diag_eq, Rabs_R0 by reflexivity. exact E.
Qed.

Lemma swizzle_near e r g b a (p : pix D) (c : colour) : (0 <= e)%R -> near_colour e p c ->
  exists q, mapStored I_RGBAF (swizzleColor (to_channel r) (to_channel g) (to_channel b) (to_channel a)) p = Some q /\
    near_colour e q (RGBA (selected r 0 c) (selected g 0 c) (selected b 0 c) (selected a 1 c)).
Proof.
  intros E N. destruct p as [l|l|l]; cbn [near_colour] in N; try contradiction.
  destruct l as [|v1 [|v2 [|v3 [|v4 [|? ?]]]]]; try contradiction.
  destruct N as (N1 & N2 & N3 & N4).
  eexists. split; [reflexivity|]. cbn [near_colour red green blue alpha].
  assert (S : forall ch d none, within_error e (dnarrow (double_of_Z d)) none ->
    within_error e (dnarrow (select (A := D) (@C4 D (dwiden v1) (dwiden v2) (dwiden v3) (dwiden v4)) (to_channel ch) (double_of_Z d)))
      (selected ch none c)).
  { intros ch d none H. destruct ch; cbn [to_channel select selected c_r c_g c_b c_a]; auto;
      rewrite widen_back; auto; first [apply N1|apply N2|apply N3|apply N4]. }
  split; [apply S, near_zero; exact E|]. split; [apply S, near_zero; exact E|].
  split; [apply S, near_zero; exact E|]. apply S, near_one; exact E.
Qed.

Lemma lum_unit c : unit_colour c ->
  (0 <= 2126 / 10000 * red c + 7152 / 10000 * green c + 722 / 10000 * blue c <= 1)%R.
Proof. unfold unit_colour. lra. Qed.

(** The errors of the steps: after the change of space, after gray, after the product. *)
Definition E0 (cs : colorspace) : R := match cs with CS_Linear => 67 / 25 * / 4194304 | CS_sRGB => / 4194304 end.
Definition E1 (cs : colorspace) : R := match cs with CS_Linear => 147 / 50 * / 4194304 | CS_sRGB => 32 * / 4194304 end.
Definition E2 : R := / 680000.
Definition E2' (cs : colorspace) : R := match cs with CS_Linear => E2 | CS_sRGB => 1420 * / 4194304 end.

Lemma decode_near_any x y : (x <= 1.01)%R -> (y <= 1.01)%R ->
  (Rabs (decode x - decode y) <= 2.4 * Rabs (x - y) + 0.000000004)%R.
Proof.
  intros Bx By.
  assert (P : forall x y, (x <= y)%R -> (y <= 1.01)%R -> (0 <= decode y - decode x <= 2.4 * (y - x) + 0.000000004)%R).
  { clear. intros x y L B. unfold decode. destruct (Rle_dec x 0.04045) as [X|X], (Rle_dec y 0.04045) as [Y|Y]; try lra.
    - pose proof decode_above. pose proof decode_jump.
      pose proof (decode_slope ((0.04045 + 0.055) / 1.055) ((y + 0.055) / 1.055) ltac:(lra) ltac:(lra)). lra.
    - destruct L as [L | ->]; [|lra].
      pose proof (decode_slope ((x + 0.055) / 1.055) ((y + 0.055) / 1.055) ltac:(lra) ltac:(lra)). lra. }
  destruct (Rle_dec x y) as [L|L].
  - pose proof (P x y L By). rewrite (Rabs_left1 (x - y)) by lra. apply Rabs_le. lra.
  - pose proof (P y x ltac:(lra) Bx). rewrite (Rabs_pos_eq (x - y)) by lra. apply Rabs_le. lra.
Qed.

Section Light.
Context (PW : pow_ok pw).

Lemma small_eta : (eta <= / 1152921504606846976)%R.
Proof. unfold eta. change (/ 1152921504606846976)%R with (bpow radix2 (-60)). apply bpow_le. lia. Qed.

Lemma decode_within (v : float) x e : (0 <= x <= 1)%R -> within_error e v x -> (0 <= e <= / 200)%R ->
  dfinite (@sRGBToLinear D (dwiden v)) = true /\
  (Rabs (dreal (@sRGBToLinear D (dwiden v)) - decode x) <= 2.4 * e + 5 / 1000000000)%R.
Proof.
  intros X [F N] E. destruct (dwiden_ok v F) as [G W]. apply Rabs_le_inv in N.
  destruct (decode64 pw PW (dwiden v)) as [F2 E2'].
  { split; [exact G|]. rewrite W. apply Rle_trans with 2%R; [apply Rabs_le; lra|]. change 2%R with (bpow radix2 1). apply bpow_le. lia. }
  split; [exact F2|]. rewrite W in E2'. pose proof (decode_near_any (real v) x ltac:(lra) ltac:(lra)) as P.
  assert (A : (Rabs (real v - x) <= e)%R) by (apply Rabs_le; lra).
  pose proof (decode_unit x X) as U. pose proof small_eta as ET. change (IZR (2 ^ 44)) with 17592186044416%R in E2'.
  assert (B : (Rabs (decode (real v)) <= 2)%R) by (apply Rabs_le_inv in P; apply Rabs_le; lra).
  pose proof (Rabs_pos (decode (real v))). apply Rabs_le_inv in P, E2'. apply Rabs_le. lra.
Qed.

Lemma encode_within (d : double) y e : dfinite d = true -> (0 <= y <= 1)%R ->
  (Rabs (dreal d - y) <= e)%R -> (0 <= e <= / 100)%R ->
  dfinite (@linearToSRGB D d) = true /\ (Rabs (dreal (@linearToSRGB D d) - encode y) <= 12.92 * e + 4 / 100000000)%R.
Proof.
  intros F Y H E. destruct (encode64 pw PW d) as [F2 E2'].
  { split; [exact F|]. apply Rle_trans with 2%R; [apply Rabs_le_inv in H; apply Rabs_le; lra|]. change 2%R with (bpow radix2 1). apply bpow_le. lia. }
  split; [exact F2|]. pose proof (encode_unit _ Y) as U.
  pose proof (encode_any (dreal d) y) as P. pose proof (Rabs_pos (dreal d - y)). pose proof small_eta as ET.
  assert (A : (Rabs (encode (dreal d)) <= 2)%R) by (apply Rabs_le_inv in P; apply Rabs_le; lra).
  change (IZR (2 ^ 45)) with 35184372088832%R in E2'.
  apply Rabs_le_inv in E2', P. apply Rabs_le. lra.
Qed.

(** The change to linear light. *)
Lemma light_near (p : pix D) (c : colour) : unit_colour c -> near_colour (E0 CS_sRGB) p c ->
  exists q, mapStored I_RGBAF (onRGB (@sRGBToLinear D)) p = Some q /\
    near_colour (E0 CS_Linear) q (RGBA (decode (red c)) (decode (green c)) (decode (blue c)) (alpha c)).
Proof.
  intros U N. destruct p as [l|l|l]; cbn [near_colour] in N; try contradiction.
  destruct l as [|v1 [|v2 [|v3 [|v4 [|? ?]]]]]; try contradiction.
  destruct N as (N1 & N2 & N3 & F4 & N4). destruct U as (U1 & U2 & U3 & U4).
  eexists. split; [reflexivity|]. cbn [near_colour red green blue alpha E0] in *.
  assert (K : forall v x, (0 <= x <= 1)%R -> within_error (/ 4194304) v x ->
    within_error (67 / 25 * / 4194304) (dnarrow (@sRGBToLinear D (dwiden v))) (decode x)).
  { intros v x X V. destruct (decode_within v x (/ 4194304) X V ltac:(lra)) as [F A].
    destruct (narrow_near _ (decode x) (2.4 * / 4194304 + 5 / 1000000000)%R F (decode_unit x X) A ltac:(lra)) as [Fn Nn].
    split; [exact Fn|]. lra. }
  split; [exact (K v1 _ U1 N1)|]. split; [exact (K v2 _ U2 N2)|]. split; [exact (K v3 _ U3 N3)|].
  change (within_error (67 / 25 * / 4194304) (dnarrow (dwiden v4)) (alpha c)). rewrite widen_back by exact F4.
  split; [exact F4|]. lra.
Qed.

End Light.

(** The luminance, of doubles. *)
Lemma lum_near (d1 d2 d3 : double) x1 x2 x3 e : dfinite d1 = true -> dfinite d2 = true -> dfinite d3 = true ->
  (0 <= x1 <= 1)%R -> (0 <= x2 <= 1)%R -> (0 <= x3 <= 1)%R ->
  (Rabs (dreal d1 - x1) <= e)%R -> (Rabs (dreal d2 - x2) <= e)%R -> (Rabs (dreal d3 - x3) <= e)%R -> (0 <= e <= / 8)%R ->
  dfinite (@toGrayscale D d1 d2 d3) = true /\
  (Rabs (dreal (@toGrayscale D d1 d2 d3) - (2126 / 10000 * x1 + 7152 / 10000 * x2 + 722 / 10000 * x3)) <= e + / 100000000000)%R.
Proof.
  intros G1 G2 G3 X1 X2 X3 N1 N2 N3 E. apply Rabs_le_inv in N1, N2, N3.
  destruct (toGrayscale_any pw d1 d2 d3 2 G1 G2 G3) as [FG NG].
  { change 2%R with (bpow radix2 1). apply bpow_le; lia. }
  { apply Rabs_le. lra. }
  { apply Rabs_le. lra. }
  { apply Rabs_le. lra. }
  split; [exact FG|].
  assert (T : (0 < bpow radix2 (-1070) <= bpow radix2 (-40))%R) by (split; [apply bpow_gt_0|apply bpow_le; lia]).
  change (bpow radix2 (-40)) with (/ 1099511627776)%R in T.
  change (IZR (2 ^ 51)) with 2251799813685248%R in NG. unfold luminance in NG.
  set (t := bpow radix2 (-1070)) in *. clearbody t. apply Rabs_le_inv in NG. apply Rabs_le. lra.
Qed.

(** What becomes of an error in the steps. *)
Definition gray_error (cs : colorspace) (e : R) : R :=
  match cs with CS_Linear => e + 13 / 50 * / 4194304 | CS_sRGB => 31.01 * e + 9 / 10 * / 4194304 end%R.
Definition premul_error (cs : colorspace) (e : R) : R :=
  match cs with CS_Linear => 2.001 * e + 27 / 100 * / 4194304 | CS_sRGB => 43.95 * e + 9 / 10 * / 4194304 end%R.

Lemma gray_near cs e (p : pix D) (c : colour) : (cs = CS_sRGB -> pow_ok pw) -> unit_colour c -> (0 <= e <= / 4000)%R -> near_colour e p c ->
  exists q, mapStored I_RGBAF (grayscaleColor cs) p = Some q /\
    near_colour (gray_error cs e) q (let l := from_light cs (2126 / 10000 * to_light cs (red c) + 7152 / 10000 * to_light cs (green c) +
                                                   722 / 10000 * to_light cs (blue c)) in
                           RGBA l l l (alpha c)).
Proof.
  intros PW U EB N. destruct p as [l|l|l]; cbn [near_colour] in N; try contradiction.
  destruct l as [|v1 [|v2 [|v3 [|v4 [|? ?]]]]]; try contradiction.
  destruct N as (N1 & N2 & N3 & F4 & N4).
  pose proof (lum_unit c U) as LU. destruct U as (U1 & U2 & U3 & U4).
  eexists. split; [reflexivity|]. cbv zeta. cbn [near_colour red green blue alpha].
  assert (A : within_error (gray_error cs e) (dnarrow (dwiden v4)) (alpha c)).
  { rewrite widen_back by exact F4. split; [exact F4|]. destruct cs; unfold gray_error; lra. }
  destruct cs; cbn [from_light to_light gray_error] in *.
  - destruct N1 as [F1 N1], N2 as [F2 N2], N3 as [F3 N3].
    destruct (dwiden_ok v1 F1) as [G1 W1'], (dwiden_ok v2 F2) as [G2 W2'], (dwiden_ok v3 F3) as [G3 W3'].
    rewrite <- W1' in N1. rewrite <- W2' in N2. rewrite <- W3' in N3.
    destruct (lum_near _ _ _ _ _ _ e G1 G2 G3 U1 U2 U3 N1 N2 N3 ltac:(lra)) as [FG NG].
    destruct (narrow_near _ _ _ FG LU NG ltac:(lra)) as [Fn Nn].
    assert (Q : within_error (e + 13 / 50 * / 4194304) (dnarrow (@toGrayscale D (dwiden v1) (dwiden v2) (dwiden v3)))
      (2126 / 10000 * red c + 7152 / 10000 * green c + 722 / 10000 * blue c)) by (split; [exact Fn|lra]).
    split; [exact Q|]. split; [exact Q|]. split; [exact Q|exact A].
  - specialize (PW eq_refl).
    destruct (decode_within PW v1 _ e U1 N1 ltac:(lra)) as [G1 D1].
    destruct (decode_within PW v2 _ e U2 N2 ltac:(lra)) as [G2 D2].
    destruct (decode_within PW v3 _ e U3 N3 ltac:(lra)) as [G3 D3].
    apply decode_unit in U1, U2, U3.
    destruct (lum_near _ _ _ _ _ _ _ G1 G2 G3 U1 U2 U3 D1 D2 D3 ltac:(lra)) as [FG NG].
    assert (LU' : (0 <= 2126 / 10000 * decode (red c) + 7152 / 10000 * decode (green c) + 722 / 10000 * decode (blue c) <= 1)%R) by lra.
    destruct (encode_within PW _ _ _ FG LU' NG ltac:(lra)) as [FE NE].
    destruct (narrow_near _ _ _ FE (encode_unit _ LU') NE ltac:(lra)) as [Fn Nn].
    assert (Q : within_error (31.01 * e + 9 / 10 * / 4194304) (dnarrow (@linearToSRGB D (@toGrayscale D (@sRGBToLinear D (dwiden v1))
        (@sRGBToLinear D (dwiden v2)) (@sRGBToLinear D (dwiden v3)))))
      (encode (2126 / 10000 * decode (red c) + 7152 / 10000 * decode (green c) + 722 / 10000 * decode (blue c))))
      by (split; [exact Fn|lra]).
    split; [exact Q|]. split; [exact Q|]. split; [exact Q|exact A].
Qed.

(** A product of numbers near numbers from 0 to 1. *)
Lemma product_near x y x' y' e e' : (0 <= x <= 1)%R -> (0 <= y <= 1)%R -> (0 <= e <= / 1000)%R -> (0 <= e' <= / 1000)%R ->
  (Rabs (x' - x) <= e)%R -> (Rabs (y' - y) <= e')%R -> (Rabs (x' * y' - x * y) <= e + e' * (1001 / 1000))%R.
Proof.
  intros X Y E E' N N'.
  replace (x' * y' - x * y)%R with ((x' - x) * y + x' * (y' - y))%R by ring.
  eapply Rle_trans; [apply Rabs_triang|]. rewrite !Rabs_mult, (Rabs_pos_eq y) by lra.
  assert (A : (Rabs x' <= 1001 / 1000)%R) by (apply Rabs_le_inv in N; apply Rabs_le; lra).
  apply Rplus_le_compat.
  - pose proof (Rabs_pos (x' - x)). apply Rle_trans with (Rabs (x' - x) * 1)%R; [apply Rmult_le_compat_l; lra|lra].
  - rewrite (Rmult_comm e'). apply Rmult_le_compat; try apply Rabs_pos; assumption.
Qed.

Lemma mul_four (x y : double) : dfinite x = true -> dfinite y = true ->
  (Rabs (dreal x) <= 2)%R -> (Rabs (dreal y) <= 2)%R ->
  dfinite (b64_mult mode_NE x y) = true /\
  (Rabs (dreal (b64_mult mode_NE x y) - dreal x * dreal y) <= / IZR (2 ^ 51))%R.
Proof.
  intros Fx Fy Bx By.
  assert (B : (Rabs (dreal x * dreal y) <= bpow radix2 2)%R).
  { rewrite Rabs_mult. change (bpow radix2 2) with (4)%R. apply Rle_trans with (2 * 2)%R; [|lra].
    apply Rmult_le_compat; try apply Rabs_pos; lra. }
  destruct (dmul_ok x y Fx Fy) as [F E].
  { eapply Rle_trans; [exact B|]. apply bpow_le; lia. }
  split; [exact F|]. rewrite E. exact (rnd64_err _ 2 ltac:(lia) B).
Qed.

Lemma premul_near cs e0 (p : pix D) (c : colour) : (cs = CS_sRGB -> pow_ok pw) -> unit_colour c -> (0 <= e0 <= / 4000)%R -> near_colour e0 p c ->
  exists q, mapStored I_RGBAF (preMultiplyColor cs) p = Some q /\
    near_colour (premul_error cs e0) q (let times x := from_light cs (to_light cs x * alpha c) in
                            RGBA (times (red c)) (times (green c)) (times (blue c)) (alpha c)).
Proof.
  intros PW U EB N. destruct p as [l|l|l]; cbn [near_colour] in N; try contradiction.
  destruct l as [|v1 [|v2 [|v3 [|v4 [|? ?]]]]]; try contradiction.
  destruct N as (N1 & N2 & N3 & [F4 N4]). destruct U as (U1 & U2 & U3 & U4).
  eexists. split; [reflexivity|]. cbv zeta. cbn [near_colour red green blue alpha].
  assert (A : within_error (premul_error cs e0) (dnarrow (dwiden v4)) (alpha c)).
  { rewrite widen_back by exact F4. split; [exact F4|]. destruct cs; unfold premul_error; lra. }
  destruct (dwiden_ok v4 F4) as [G4 W4]. rewrite <- W4 in N4.
  assert (PU : forall x, (0 <= x <= 1)%R -> (0 <= x * alpha c <= 1)%R).
  { intros x X. split; [apply Rmult_le_pos; lra|]. pose proof (scaled x (alpha c) 1 1 ltac:(lra) ltac:(lra) U4). lra. }
  assert (MU : forall d x e, dfinite d = true -> (0 <= x <= 1)%R -> (Rabs (dreal d - x) <= e)%R -> (0 <= e <= / 1000)%R ->
    dfinite (b64_mult mode_NE d (dwiden v4)) = true /\
    (Rabs (dreal (b64_mult mode_NE d (dwiden v4)) - x * alpha c) <= e + e0 * (1001 / 1000) + / 1000000000000)%R).
  { intros d x e F X H E.
    assert (E1b : (0 <= e0 <= / 1000)%R) by lra.
    pose proof (product_near x (alpha c) _ _ e e0 X U4 E E1b H N4) as P.
    assert (B1 : (Rabs (dreal d) <= 2)%R) by (apply Rabs_le_inv in H; apply Rabs_le; lra).
    assert (B2 : (Rabs (dreal (dwiden v4)) <= 2)%R) by (apply Rabs_le_inv in N4; apply Rabs_le; lra).
    destruct (mul_four d (dwiden v4) F G4 B1 B2) as [Fm Em]. split; [exact Fm|].
    change (IZR (2 ^ 51)) with 2251799813685248%R in Em.
    apply Rabs_le_inv in Em, P. apply Rabs_le. lra. }
  destruct cs; cbn [from_light to_light premul_error] in *.
  - assert (P : forall v x, (0 <= x <= 1)%R -> within_error e0 v x ->
      within_error (2.001 * e0 + 27 / 100 * / 4194304) (dnarrow (b64_mult mode_NE (dwiden v) (dwiden v4))) (x * alpha c)).
    { intros v x X [F N]. destruct (dwiden_ok v F) as [G W]. rewrite <- W in N.
      destruct (MU _ _ _ G X N ltac:(lra)) as [Fm Nm].
      destruct (narrow_near _ _ _ Fm (PU x X) Nm ltac:(lra)) as [Fn Nn]. split; [exact Fn|]. lra. }
    split; [exact (P v1 _ U1 N1)|]. split; [exact (P v2 _ U2 N2)|]. split; [exact (P v3 _ U3 N3)|exact A].
  - specialize (PW eq_refl).
    assert (P : forall v x, (0 <= x <= 1)%R -> within_error e0 v x ->
      within_error (43.95 * e0 + 9 / 10 * / 4194304) (dnarrow (@linearToSRGB D (b64_mult mode_NE (@sRGBToLinear D (dwiden v)) (dwiden v4))))
        (encode (decode x * alpha c))).
    { intros v x X V. destruct (decode_within PW v x _ X V ltac:(lra)) as [G Nd].
      pose proof (decode_unit x X) as DU.
      destruct (MU _ _ _ G DU Nd ltac:(lra)) as [Fm Nm].
      destruct (encode_within PW _ _ _ Fm (PU _ DU) Nm ltac:(lra)) as [FE NE].
      destruct (narrow_near _ _ _ FE (encode_unit _ (PU _ DU)) NE ltac:(lra)) as [Fn Nn]. split; [exact Fn|]. lra. }
    split; [exact (P v1 _ U1 N1)|]. split; [exact (P v2 _ U2 N2)|]. split; [exact (P v3 _ U3 N3)|exact A].
Qed.

(** ** The value range *)

Lemma int_near e (m o : Z) (v : float) x : (0 < m <= 65535)%Z -> (-32768 <= o <= 0)%Z -> (0 <= x <= 1)%R ->
  (e <= 12 * / 4194304)%R -> within_error e v x -> exists k : Z, (Rabs (IZR k - x * IZR m) <= 31 / 60 + e * 65535)%R /\ (0 <= k <= m)%Z /\
    finite (intValue m o v) = true /\ real (intValue m o v) = IZR (k + o).
Proof.
  intros Hm Ho X EB [F N]. assert (E0' : (0 <= e)%R) by (pose proof (Rabs_pos (real v - x)); lra).
  destruct (float_of_Z_ok m ltac:(simpl; lia)) as [Em Fm].
  destruct (float_of_Z_ok o ltac:(simpl; lia)) as [Eo Fo].
  assert (M : (1 <= IZR m <= 65535)%R) by (split; apply IZR_le; lia).
  assert (O : (-32768 <= IZR o <= 0)%R) by (split; apply IZR_le; lia).
  apply Rabs_le_inv in N.
  assert (P : (- (e * 65535) <= real v * IZR m - x * IZR m <= e * 65535)%R).
  { replace (real v * IZR m - x * IZR m)%R with ((real v - x) * IZR m)%R by ring.
    pose proof (scaled (real v - x) (IZR m) e 65535 ltac:(lra) N ltac:(lra)). lra. }
  assert (XM : (0 <= x * IZR m <= IZR m)%R).
  { split; [apply Rmult_le_pos; lra|]. rewrite <- (Rmult_1_l (IZR m)) at 2. apply Rmult_le_compat_r; lra. }
  unfold intValue.
  destruct (fmul_ok v (float_of_Z m) F Fm) as [F1 P1].
  { rewrite Em. change (IZR (2 ^ 24)) with 16777216%R. apply Rabs_le. lra. }
  rewrite Em in P1.
  assert (R1 : (Rabs (rnd32 (real v * IZR m) - real v * IZR m) <= / 128)%R).
  { change (/ 128)%R with (bpow radix2 (17 - 24)). apply rnd32_err; [lia|].
    change (bpow radix2 17) with 131072%R. apply Rabs_le. lra. }
  rewrite <- P1 in R1. set (d := real (fmul v (float_of_Z m))) in *. apply Rabs_le_inv in R1.
  destruct (fadd_ok (fmul v (float_of_Z m)) (float_of_Z o) F1 Fo) as [F2 P2].
  { fold d. rewrite Eo. change (IZR (2 ^ 24)) with 16777216%R. apply Rabs_le. lra. }
  fold d in P2. rewrite Eo in P2.
  assert (R2 : (Rabs (rnd32 (d + IZR o) - (d + IZR o)) <= / 128)%R).
  { change (/ 128)%R with (bpow radix2 (17 - 24)). apply rnd32_err; [lia|].
    change (bpow radix2 17) with 131072%R. apply Rabs_le. lra. }
  rewrite <- P2 in R2. set (s := fadd (fmul v (float_of_Z m)) (float_of_Z o)) in *.
  apply Rabs_le_inv in R2.
  pose proof (Znearest_half (Zle_bool 0) (real s)) as NH. fold (nearest (real s)) in NH.
  change (Znearest (Zle_bool 0) (real s)) with (nearest (real s)) in NH.
  set (k := (nearest (real s) - o)%Z). assert (Ek : nearest (real s) = (k + o)%Z) by lia.
  assert (Q : (Rabs (IZR k - x * IZR m) <= 31 / 60 + e * 65535)%R).
  { rewrite Ek, plus_IZR in NH. apply Rabs_le_inv in NH. apply Rabs_le. lra. }
  assert (K : (0 <= k <= m)%Z).
  { apply Rabs_le_inv in Q.
    assert (-1 < k)%Z by (apply lt_IZR; lra).
    assert (k < m + 1)%Z by (apply lt_IZR; rewrite plus_IZR; lra). lia. }
  destruct (fround_ok s F2) as [F3 P3]; [rewrite Ek; simpl; lia|].
  exists k. rewrite P3, Ek. auto.
Qed.

Lemma snorm_near e (v : float) x : (0 <= x <= 1)%R -> (e <= 12 * / 4194304)%R -> within_error e v x ->
  within_error (2 * e + / 16777216) (snormValue v) (2 * x - 1).
Proof.
  intros X EB [F N]. apply Rabs_le_inv in N.
  destruct (snormValue_ok v F) as [F1 R1]; [apply Rabs_le; lra|].
  assert (R : (Rabs (rnd32 (2 * real v - 1) - (2 * real v - 1)) <= / 16777216)%R) by (apply rnd32_half, Rabs_def1; lra).
  split; [exact F1|]. rewrite R1. apply Rabs_le_inv in R. apply Rabs_le. lra.
Qed.

(** ** What is stored *)

Lemma limit_real lo hi v : finite v = true -> limit lo hi v = Rmax lo (Rmin hi (real v)).
Proof. destruct v; try discriminate; reflexivity. Qed.

Lemma finite_not_nan v : finite v = true -> nan v = false.
Proof. destruct v; try discriminate; reflexivity. Qed.

Lemma nearest_limit lo hi v : (lo <= hi)%Z -> finite v = true ->
  nearest (limit (IZR lo) (IZR hi) v) = Z.max lo (Z.min (nearest (real v)) hi).
Proof.
  intros H F. rewrite limit_real by exact F.
  destruct (Rle_dec (real v) (IZR hi)) as [A|A].
  - rewrite Rmin_right by exact A. pose proof (nearest_le _ _ A) as A'. rewrite nearest_int in A'.
    destruct (Rle_dec (IZR lo) (real v)) as [B|B].
    + rewrite Rmax_right by exact B. pose proof (nearest_le _ _ B) as B'. rewrite nearest_int in B'. lia.
    + rewrite Rmax_left by lra. rewrite nearest_int.
      assert (B' : (real v <= IZR lo)%R) by lra. apply nearest_le in B'. rewrite nearest_int in B'. lia.
  - assert (A' : (IZR hi <= real v)%R) by lra. rewrite Rmin_left by exact A'.
    rewrite Rmax_right by (apply IZR_le; lia). rewrite nearest_int. apply nearest_le in A'. rewrite nearest_int in A'. lia.
Qed.

Lemma sext_twos b z : (1 <= b)%N -> (- 2 ^ (Z.of_N b - 1) <= z < 2 ^ (Z.of_N b - 1))%Z -> sext b (twos b z) = z.
Proof.
  intros B H. unfold sext, twos.
  assert (P : (2 ^ Z.of_N b = 2 * 2 ^ (Z.of_N b - 1))%Z).
  { replace (Z.of_N b) with (1 + (Z.of_N b - 1))%Z at 1 by lia. rewrite Z.pow_add_r by lia. reflexivity. }
  assert (P0 : (0 < 2 ^ (Z.of_N b - 1))%Z) by (apply Z.pow_pos_nonneg; lia).
  assert (PN : Z.of_N (2 ^ (b - 1)) = (2 ^ (Z.of_N b - 1))%Z).
  { rewrite N2Z.inj_pow, N2Z.inj_sub by lia. reflexivity. }
  set (h := (2 ^ (Z.of_N b - 1))%Z) in *. rewrite P.
  pose proof (Z.mod_pos_bound z (2 * h) ltac:(lia)).
  destruct (Z.to_N (z mod (2 * h)) <? 2 ^ (b - 1))%N eqn:C.
  - rewrite Z2N.id by lia. apply N.ltb_lt in C.
    assert (z mod (2 * h) < h)%Z by lia.
    assert (Q : (0 <= z)%Z \/ (z < 0)%Z) by lia. destruct Q as [Q|Q].
    + apply Z.mod_small. lia.
    + exfalso. assert (E : (z mod (2 * h) = z + 2 * h)%Z)
        by (symmetry; apply Z.mod_unique with (-1)%Z; lia). lia.
  - rewrite Z2N.id by lia. apply N.ltb_ge in C.
    assert (h <= z mod (2 * h))%Z by lia.
    assert (Q : (0 <= z)%Z \/ (z < 0)%Z) by lia. destruct Q as [Q|Q].
    + exfalso. rewrite Z.mod_small in * by lia. lia.
    + assert (E : (z mod (2 * h) = z + 2 * h)%Z) by (symmetry; apply Z.mod_unique with (-1)%Z; lia). lia.
Qed.


Definition adjusted (e : R) (ty : ttype) (f : imgfmt) (x : R) (v : float) : Prop :=
  match channel_bits f, ty with
  | Some n, T_UInt => exists k, (Rabs (IZR k - x * IZR (2 ^ n - 1)) <= 31 / 60 + e * 65535)%R /\ (0 <= k <= 2 ^ n - 1)%Z /\
      finite v = true /\ real v = IZR k
  | Some n, T_Int => exists k, (Rabs (IZR k - x * IZR (2 ^ n - 1)) <= 31 / 60 + e * 65535)%R /\ (0 <= k <= 2 ^ n - 1)%Z /\
      finite v = true /\ real v = IZR (k - 2 ^ (n - 1))
  | Some n, T_SNorm => within_error (2 * e + / 16777216) v (2 * x - 1)
  | _, _ => within_error e v x
  end.

Lemma adjusted_finite e ty f x v : adjusted e ty f x v -> finite v = true.
Proof.
  unfold adjusted, within_error. destruct (channel_bits f), ty; intros H; try apply H; destruct H as (k & _ & _ & H & _); exact H.
Qed.

Lemma bits_cases f n : channel_bits f = Some n -> n = 8%Z \/ n = 16%Z.
Proof. destruct f; cbn; intros H; inversion H; auto. Qed.

(** The stored number is defined and stands for the colour. *)
Lemma norm_kept m y v e lo : (1 <= m <= 65535)%Z -> (lo = 0 \/ lo = -1)%R -> (lo <= y <= 1)%R -> (0 <= e * IZR m <= / 10)%R ->
  within_error e v y -> (Rabs (IZR (nearest (rnd32 (limit lo 1 v * IZR m))) - y * IZR m) <= 5 / 8)%R.
Proof.
  intros Hm L Y E [F N]. rewrite limit_real by exact F.
  assert (M : (1 <= IZR m <= 65535)%R) by (split; apply IZR_le; lia).
  assert (E' : (0 <= e)%R) by (pose proof (Rabs_pos (real v - y)); lra).
  set (z := Rmax lo (Rmin 1 (real v))).
  assert (Z1 : (lo <= z <= 1)%R).
  { unfold z. split; [apply Rmax_l|]. apply Rmax_lub; [lra|apply Rmin_l]. }
  assert (Z2 : (Rabs (z - y) <= e)%R).
  { unfold z. apply Rabs_le_inv in N. apply Rabs_le. unfold Rmax, Rmin.
    destruct (Rle_dec 1 (real v)); destruct (Rle_dec lo _); lra. }
  assert (P : (Rabs (z * IZR m - y * IZR m) <= / 10)%R).
  { replace (z * IZR m - y * IZR m)%R with ((z - y) * IZR m)%R by ring.
    rewrite Rabs_mult, (Rabs_pos_eq (IZR m)) by lra. apply Rle_trans with (e * IZR m)%R; [|lra].
    apply Rmult_le_compat_r; lra. }
  assert (B : (Rabs (z * IZR m) <= bpow radix2 16)%R).
  { change (bpow radix2 16) with 65536%R. rewrite Rabs_mult, (Rabs_pos_eq (IZR m)) by lra.
    apply Rle_trans with (1 * 65535)%R; [|lra]. apply Rmult_le_compat; try apply Rabs_pos; try lra.
    apply Rabs_le. destruct L as [-> | ->]; lra. }
  pose proof (rnd32_err _ 16 ltac:(lia) B) as R. change (bpow radix2 (16 - 24)) with (/ 256)%R in R.
  pose proof (nearest_half (rnd32 (z * IZR m))) as NH.
  apply Rabs_le_inv in NH, R, P. apply Rabs_le. lra.
Qed.

Lemma nearest_low z x : (Z.abs z <= 2 ^ 24)%Z -> (IZR z <= x)%R -> (z <= nearest (rnd32 x))%Z.
Proof.
  intros A H. assert (Q : (IZR z <= rnd32 x)%R).
  { rewrite <- (rnd32_int z A). unfold rnd32. apply round_le; [apply FLT_exp_valid; reflexivity|apply valid_rnd_N|exact H]. }
  apply nearest_le in Q. rewrite nearest_int in Q. exact Q.
Qed.

Lemma nearest_high z x : (Z.abs z <= 2 ^ 24)%Z -> (x <= IZR z)%R -> (nearest (rnd32 x) <= z)%Z.
Proof.
  intros A H. assert (Q : (rnd32 x <= IZR z)%R).
  { rewrite <- (rnd32_int z A). unfold rnd32. apply round_le; [apply FLT_exp_valid; reflexivity|apply valid_rnd_N|exact H]. }
  apply nearest_le in Q. rewrite nearest_int in Q. exact Q.
Qed.

Lemma unorm_ok e b v x : (1 <= b <= 16)%N -> (0 <= x <= 1)%R -> (0 <= e * IZR (2 ^ Z.of_N b - 1) <= / 10)%R -> within_error e v x ->
  let r := Z.to_N (nearest (rnd32 (limit 0 1 v * IZR (umax b)))) in
  (Rabs (IZR (Z.of_N r) - x * IZR (2 ^ Z.of_N b - 1)) <= 5 / 8)%R.
Proof.
  intros B X E N r. unfold umax in r.
  assert (M : (1 <= 2 ^ Z.of_N b - 1 <= 65535)%Z).
  { assert (2 ^ 1 <= 2 ^ Z.of_N b <= 2 ^ 16)%Z by (split; apply Z.pow_le_mono_r; lia). lia. }
  assert (IM : (1 <= IZR (2 ^ Z.of_N b - 1) <= 65535)%R) by (split; apply IZR_le; lia).
  set (m := (2 ^ Z.of_N b - 1)%Z) in *. clearbody m.
  pose proof (norm_kept m x v e 0 M ltac:(auto) X E N) as K.
  assert (NN : (0 <= nearest (rnd32 (limit 0 1 v * IZR m)))%Z).
  { apply nearest_low; [simpl; lia|]. apply Rmult_le_pos; [|lra]. rewrite limit_real by apply N. apply Rmax_l. }
  unfold r. rewrite Z2N.id by exact NN. exact K.
Qed.

Lemma snorm_ok b v y : (2 <= b <= 16)%N -> (-1 <= y <= 1)%R -> within_error (/ 330000) v y ->
  let r := twos b (nearest (rnd32 (limit (-1) 1 v * IZR (smax b)))) in
  (Rabs (IZR (sext b r) - y * IZR (2 ^ (Z.of_N b - 1) - 1)) <= 5 / 8)%R.
Proof.
  intros B X N r. unfold smax in r.
  assert (M : (1 <= 2 ^ (Z.of_N b - 1) - 1 <= 32767)%Z).
  { assert (2 ^ 1 <= 2 ^ (Z.of_N b - 1) <= 2 ^ 15)%Z by (split; apply Z.pow_le_mono_r; lia). lia. }
  assert (IM : (1 <= IZR (2 ^ (Z.of_N b - 1) - 1) <= 32767)%R) by (split; apply IZR_le; lia).
  pose proof (norm_kept (2 ^ (Z.of_N b - 1) - 1) y v (/ 330000) (-1) ltac:(lia) ltac:(auto) X ltac:(lra) N) as K.
  unfold r. rewrite sext_twos; [exact K|lia|].
  set (m := (2 ^ (Z.of_N b - 1) - 1)%Z) in *.
  assert (Q : (- m <= nearest (rnd32 (limit (-1) 1 v * IZR m)) <= m)%Z).
  { assert (LB : (-1 <= limit (-1) 1 v <= 1)%R).
    { rewrite limit_real by apply N. split; [apply Rmax_l|]. apply Rmax_lub; [lra|apply Rmin_l]. }
    split.
    - apply nearest_low; [simpl; lia|]. rewrite opp_IZR.
      pose proof (scaled (limit (-1) 1 v) (IZR m) 1 (IZR m) ltac:(lra) LB ltac:(lra)). lra.
    - apply nearest_high; [simpl; lia|].
      pose proof (scaled (limit (-1) 1 v) (IZR m) 1 (IZR m) ltac:(lra) LB ltac:(lra)). lra. }
  lia.
Qed.

Lemma not_too_big t b v : finite v = true -> (real v < 100000)%R -> too_big t b v = false.
Proof.
  intros F H. unfold too_big. destruct (b =? 32)%N; [|reflexivity]. cbn [andb].
  replace (match v with B754_infinity _ _ s => negb s | _ => Rle_bool (IZR (match t with T_Int => 2 ^ 31 | _ => 2 ^ 32 end)) (real v) end)
    with (Rle_bool (IZR (match t with T_Int => 2 ^ 31 | _ => 2 ^ 32 end)) (real v)) by (destruct v; try discriminate; reflexivity).
  apply Rle_bool_false. destruct t;
    match goal with |- (_ < IZR ?z)%R => apply Rlt_le_trans with 100000%R; [exact H|apply IZR_le; vm_compute; discriminate] end.
Qed.

(** The errors that a channel of [b] bits of a texture of this type bears. *)
Definition borne (e : R) (ty : ttype) (b : N) : Prop := (0 <= e <= E2)%R \/ ty = T_UNorm /\ (0 <= e * IZR (2 ^ Z.of_N b - 1) <= / 10)%R.

Lemma quantum_kept pk e ty f b x v : ty <> T_UFloat -> borne e ty b -> (0 <= x <= 1)%R ->
  (ty = T_UNorm -> 1 <= b <= 16)%N -> (ty = T_SNorm -> 2 <= b <= 16)%N -> (2 <= b)%N \/ ty = T_UNorm ->
  adjusted e ty f x v ->
  exists r, quantum pk ty b v = Some r /\ kept pk ty b (number_for ty f x) r.
Proof.
  intros TU BR X BU BS B2 A. pose proof (adjusted_finite _ _ _ _ _ A) as F. pose proof (finite_not_nan v F) as NN.
  destruct ty; try congruence; cbn [quantum kept]; try rewrite NN.
  - (* UNorm *)
    assert (A' : within_error e v x) by (unfold adjusted in A; destruct (channel_bits f); exact A).
    eexists. split; [reflexivity|].
    replace (number_for T_UNorm f x) with x by (unfold number_for; destruct (channel_bits f); reflexivity).
    apply unorm_ok with e; auto. destruct BR as [BR|[_ BR]]; [|exact BR]. specialize (BU eq_refl).
    assert (M : (1 <= 2 ^ Z.of_N b - 1 <= 65535)%Z).
    { assert (2 ^ 1 <= 2 ^ Z.of_N b <= 2 ^ 16)%Z by (split; apply Z.pow_le_mono_r; lia). lia. }
    destruct M as [M1 M2]. apply IZR_le in M1, M2. unfold E2 in BR.
    split; [apply Rmult_le_pos; lra|]. apply Rle_trans with (/ 680000 * 65535)%R; [apply Rmult_le_compat; lra|lra].
  - (* SNorm *)
    destruct BR as [BR|[? _]]; [|congruence].
    eexists. split; [reflexivity|]. apply snorm_ok; auto; unfold adjusted in A; unfold number_for; destruct (channel_bits f); auto; try lra;
    destruct A as [FA NA]; (split; [exact FA|]); unfold E2 in BR; lra.
  - (* UInt *)
    destruct BR as [BR|[? _]]; [|congruence]. unfold E2 in BR.
    assert (W : exists m, (Rabs (IZR m - number_for T_UInt f x) <= 5 / 8)%R /\ nearest (real v) = m /\ (0 <= m <= 65535)%Z /\ (real v < 100000)%R).
    { unfold adjusted in A; unfold number_for; destruct (channel_bits f) as [n|] eqn:CB.
      - destruct A as (k & K1 & K2 & _ & K3). exists k. rewrite K3, nearest_int.
        assert (0 <= k <= 65535)%Z by (destruct (bits_cases _ _ CB) as [-> | ->]; simpl in K2; lia).
        split; [lra|]. split; [reflexivity|]. split; [lia|]. apply IZR_lt. lia.
      - destruct A as [_ NA]. exists (nearest (real v)). pose proof (nearest_half (real v)) as NH.
        apply Rabs_le_inv in NH, NA. split; [apply Rabs_le; lra|]. split; [reflexivity|]. split; [|lra].
        assert (-1 < nearest (real v))%Z by (apply lt_IZR; lra).
        assert (nearest (real v) < 3)%Z by (apply lt_IZR; lra). lia. }
    destruct W as (m & W1 & W2 & W3 & W4). rewrite (not_too_big T_UInt b v F W4). cbn [orb].
    eexists. split; [reflexivity|]. exists m. split; [exact W1|].
    assert (P : (2 ^ 2 <= 2 ^ Z.of_N b)%Z) by (apply Z.pow_le_mono_r; destruct B2; try congruence; lia).
    unfold umax. change 0%R with (IZR 0). rewrite nearest_limit by (try exact F; lia). rewrite W2. lia.
  - (* Int *)
    destruct BR as [BR|[? _]]; [|congruence]. unfold E2 in BR.
    assert (W : exists m, (Rabs (IZR m - number_for T_Int f x) <= 5 / 8)%R /\ nearest (real v) = m /\ (real v < 100000)%R).
    { unfold adjusted in A; unfold number_for; destruct (channel_bits f) as [n|] eqn:CB.
      - destruct A as (k & K1 & K2 & _ & K3). exists (k - 2 ^ (n - 1))%Z. rewrite K3, nearest_int.
        assert (0 <= k <= 65535)%Z by (destruct (bits_cases _ _ CB) as [-> | ->]; simpl in K2; lia).
        assert (0 <= 2 ^ (n - 1))%Z by (destruct (bits_cases _ _ CB) as [-> | ->]; simpl; lia).
        split; [|split; [reflexivity|apply IZR_lt; lia]].
        rewrite minus_IZR.
        replace (IZR k - IZR (2 ^ (n - 1)) - (x * IZR (2 ^ n - 1) - IZR (2 ^ (n - 1))))%R
          with (IZR k - x * IZR (2 ^ n - 1))%R by ring. lra.
      - destruct A as [_ NA]. exists (nearest (real v)). pose proof (nearest_half (real v)) as NH.
        apply Rabs_le_inv in NH, NA. split; [apply Rabs_le; lra|]. split; [reflexivity|]. lra. }
    destruct W as (m & W1 & W2 & W4). rewrite (not_too_big T_Int b v F W4). cbn [orb].
    eexists. split; [reflexivity|]. exists m. split; [exact W1|].
    assert (P : (2 ^ 1 <= 2 ^ (Z.of_N b - 1))%Z) by (apply Z.pow_le_mono_r; destruct B2; try congruence; lia).
    assert (B1 : (1 <= b)%N) by (destruct B2; [lia|congruence]).
    unfold smax. rewrite nearest_limit by (try exact F; lia). rewrite W2.
    rewrite sext_twos by lia. f_equal. lia.
  - (* Float *)
    destruct BR as [BR|[? _]]; [|congruence]. unfold E2 in BR.
    assert (A' : within_error e v x) by (unfold adjusted in A; destruct (channel_bits f); exact A).
    assert (K : within_error (/ IZR (2 ^ 19)) v (number_for T_Float f x)).
    { replace (number_for T_Float f x) with x by (unfold number_for; destruct (channel_bits f); reflexivity).
      destruct A' as [FA NA]. split; [exact FA|]. change (IZR (2 ^ 19)) with 524288%R. lra. }
    destruct (b =? 32)%N eqn:B; eexists; (split; [reflexivity|]); exists v; rewrite ?B; auto.
Qed.


(** ** Whole images *)

Local Notation timage := (TextureModel.image (bitmap D)).

(** [i] is an image of floats whose pixels stand for the colours [T]. *)
Definition tones (e : R) (i : timage) (w h : N) (cs : colorspace) (T : N -> N -> colour) : Prop :=
  exists b, i = Img I_RGBAF w h cs b /\ b_fmt b = I_RGBAF /\ b_w b = w /\ b_h b = h /\ b_cs b = cs /\ good pw b /\
    forall x y, x < w -> y < h -> near_colour e (at_ pw b x y) (T x y) /\ unit_colour (T x y).

Lemma tones_weaker e e' i w h cs T : (e <= e')%R -> tones e i w h cs T -> tones e' i w h cs T.
Proof.
  intros E (b & -> & H1 & H2 & H3 & H4 & H5 & H6). exists b. split; [reflexivity|]. do 5 (split; [assumption|]).
  intros x y X Y. destruct (H6 x y X Y) as [N U]. split; [|exact U]. eapply near_weaker; eauto.
Qed.

Lemma tones_ext e i w h cs T T' : (forall x y, x < w -> y < h -> T x y = T' x y) -> tones e i w h cs T -> tones e i w h cs T'.
Proof.
  intros E (b & -> & H1 & H2 & H3 & H4 & H5 & H6). exists b. split; [reflexivity|]. do 5 (split; [assumption|]).
  intros x y X Y. rewrite <- E by assumption. auto.
Qed.

Lemma any_stored (g : color D -> color D) (p : pix D) : stored pw I_RGBAF p ->
  exists q, mapStored I_RGBAF g p = Some q /\ stored pw I_RGBAF q.
Proof.
  destruct p as [l|l|l]; cbn [stored]; try contradiction.
  destruct l as [|v1 [|v2 [|v3 [|v4 [|? ?]]]]]; try contradiction.
  intros _. eexists. split; [reflexivity|exact I].
Qed.

Lemma map_tones (g : color D -> color D) e e' (K : colour -> colour) (b : bitmap D) w h T :
  b_fmt b = I_RGBAF -> b_w b = w -> b_h b = h -> good pw b ->
  (forall p c, unit_colour c -> near_colour e p c ->
     unit_colour (K c) /\ exists q, mapStored I_RGBAF g p = Some q /\ near_colour e' q (K c)) ->
  (forall x y, x < w -> y < h -> near_colour e (at_ pw b x y) (T x y) /\ unit_colour (T x y)) ->
  exists b', mapPixels g b = Some b' /\ tones e' (Img I_RGBAF w h (b_cs b) b') w h (b_cs b) (fun x y => K (T x y)).
Proof.
  intros Hf Hw Hh G S N.
  destruct (mapPixels_pix pw g b (fun p q => forall c, unit_colour c -> near_colour e p c -> unit_colour (K c) /\ near_colour e' q (K c)) G)
    as (b' & E & G' & SS & P).
  { rewrite Hf. intros p ST. destruct (any_stored g p ST) as (q & Eq & Sq). exists q. split; [exact Eq|]. split; [exact Sq|].
    intros c U Nc. destruct (S p c U Nc) as (U' & q' & Eq' & N'). rewrite Eq in Eq'. injection Eq' as <-. auto. }
  exists b'. split; [exact E|]. destruct SS as (S1 & S2 & S3 & S4).
  exists b'. split; [reflexivity|]. split; [congruence|]. split; [congruence|]. split; [congruence|]. split; [congruence|].
  split; [exact G'|]. intros x y X Y. destruct (N x y X Y) as [Nb U].
  destruct (P x y ltac:(split; congruence) _ U Nb). auto.
Qed.

Lemma nth_repeat_lt' {X} (v d : X) n k : (k < n)%nat -> nth k (repeat v n) d = v.
Proof.
  revert k. induction n as [|n IH]; intros k H; [lia|]. destruct k as [|k]; [reflexivity|]. cbn [repeat nth]. apply IH. lia.
Qed.

Section Steps.
Variable F : freeimage pw.
Hypothesis FK : freeimage_ok pw F.
Variable a : CommandLineModel.cl.
Local Notation O := (image_ops pw F (CommandLineModel.c_imageCS a)).

Lemma meaning_unit (b : bitmap D) x y : good pw b -> within pw b x y -> plain_input pw b ->
  unit_colour (meaning pw (b_fmt b) (at_ pw b x y)).
Proof.
  intros G W [C|[_ U]]; [|apply U, W].
  pose proof (proj2 (proj2 G) x y W) as S. destruct (at_ pw b x y) as [l|l|l];
  destruct (b_fmt b); cbn [channel_bits] in C; try congruence; cbn [stored] in S; try contradiction;
  destruct l as [|v1 [|v2 [|v3 [|v4 [|? ?]]]]]; try contradiction; cbn [meaning]; unfold unit_colour, gray_rgba; cbn [red green blue alpha];
  unfold u8, u16, range in S; unfold norm;
  assert (Q : forall (m v : Z), (0 < m)%Z -> (0 <= v <= m)%Z -> (0 <= IZR v / IZR m <= 1)%R)
    by (intros m v Hm Hv; assert (0 < IZR m)%R by (apply IZR_lt; lia);
        assert (0 <= IZR v)%R by (apply IZR_le; lia); assert (IZR v <= IZR m)%R by (apply IZR_le; lia);
        split; [apply Rmult_le_pos; [assumption|left; apply Rinv_0_lt_compat; assumption]|
          apply Rmult_le_reg_r with (IZR m); [assumption|]; unfold Rdiv; rewrite Rmult_assoc, Rinv_l, Rmult_1_l, Rmult_1_r by lra; assumption]);
  repeat (split; [first [apply Q; lia|lra]|]); first [apply Q; lia|lra].
Qed.

Lemma start_tones f w h c : b_fmt c = f -> b_w c = w -> b_h c = h -> good pw c -> plain_input pw c ->
  tones float_error (iconvert (image_lib pw F) (Img f w h (b_cs c) c) I_RGBAF) w h (b_cs c)
    (fun x y => meaning pw f (at_ pw c x y)).
Proof.
  intros Hf Hw Hh G PI.
  assert (U : forall x y, x < w -> y < h -> unit_colour (meaning pw f (at_ pw c x y))).
  { intros x y X Y. rewrite <- Hf. apply meaning_unit; auto. split; congruence. }
  cbn [iconvert]. destruct (imgfmt_eqb f I_RGBAF) eqn:EF.
  - assert (f = I_RGBAF) by (destruct f; try discriminate; reflexivity). subst f.
    exists c. rewrite H in *. split; [reflexivity|]. do 5 (split; [auto|]).
    intros x y X Y. split; [|apply U; assumption].
    destruct PI as [PI|[_ PI]]; [rewrite H in PI; cbn in PI; congruence|].
    destruct (PI x y ltac:(split; congruence)) as [FP _].
    pose proof (proj2 (proj2 G) x y ltac:(split; congruence)) as S. rewrite H in S.
    destruct (at_ pw c x y) as [l|l|l]; cbn [stored] in S; try contradiction.
    destruct l as [|v1 [|v2 [|v3 [|v4 [|? ?]]]]]; try contradiction.
    cbn [finite_pix] in FP. inversion FP as [|? ? A1 FP1]; subst. inversion FP1 as [|? ? A2 FP2]; subst.
    inversion FP2 as [|? ? A3 FP3]; subst. inversion FP3 as [|? ? A4 _]; subst.
    cbn [near_colour meaning red green blue alpha]. unfold within_error, float_error. change (IZR (2 ^ 22)) with 4194304%R.
    repeat (split; [split; [assumption|rewrite Rminus_diag_eq, Rabs_R0 by reflexivity; lra]|]).
    split; [assumption|rewrite Rminus_diag_eq, Rabs_R0 by reflexivity; lra].
  - cbn [image_lib l_convert].
    assert (Q : exists d, ImageConvertModel.convert (fi_conv pw F) (fi_alloc pw F) (Some c) I_RGBAF true = Some (Some d) /\
      b_fmt d = I_RGBAF /\ b_w d = w /\ b_h d = h /\ b_cs d = b_cs c /\ good pw d /\
      forall x y, x < w -> y < h -> near_colour float_error (at_ pw d x y) (meaning pw f (at_ pw c x y))).
    { destruct PI as [PI|[PI UI]].
      - destruct (fk_floats pw F FK c G PI) as (px & Ec & Nx).
        exists (Bitmap I_RGBAF w h (b_cs c) px). unfold ImageConvertModel.convert. rewrite Hf, EF.
        assert (Fc : forall lin, ImageConvertModel.fiCall f I_RGBAF lin = Some ImageConvertModel.FI_ToRGBAF)
          by (rewrite Hf in PI; intros lin; destruct f; cbn [channel_bits] in PI; try congruence; destruct lin; reflexivity).
        rewrite Fc. cbn [obind]. rewrite Ec, Hw, Hh. split; [reflexivity|].
        cbn [b_fmt b_w b_h b_cs]. do 4 (split; [reflexivity|]).
        assert (NN : forall x y, x < w -> y < h ->
          near_colour float_error (at_ pw (Bitmap I_RGBAF w h (b_cs c) px) x y) (meaning pw f (at_ pw c x y))).
        { intros x y X Y. unfold at_ at 1. cbn [b_px b_h]. rewrite <- Hh, <- Hf.
          apply Nx. split; congruence. }
        split; [|exact NN]. destruct G as (G1 & G2 & _). split; [cbn [b_w]; congruence|]. split; [cbn [b_h]; congruence|].
        intros x y [X Y]. cbn [b_fmt b_w b_h] in *. eapply near_stored, NN; assumption.
      - destruct (fi_alloc pw F I_RGBAF (b_w c) (b_h c)) as [px|] eqn:AL; [|destruct (fk_alloc pw F FK _ _ _ AL)].
        destruct (C57_pixels pw (fi_conv pw F) (fi_alloc pw F) c I_RGBAF true px G) as (d & Ed & Gd & (C1 & C2 & C3 & C4) & Hd).
        { unfold by_hand. split; [rewrite Hf; intros ->; discriminate|]. left. unfold own_conversion, float_format.
          right. right. right. left. split; [exact PI|]. left. right. left. reflexivity. }
        { right. left. unfold gray_format. cbn [In]. intuition discriminate. }
        { exact AL. }
        { intros x y Wxy. split; [apply UI, Wxy|]. exact I. }
        exists d. split; [exact Ed|]. split; [congruence|]. split; [congruence|]. split; [congruence|]. split; [congruence|].
        split; [exact Gd|]. intros x y X Y. specialize (Hd x y ltac:(split; congruence)). rewrite Hf in Hd.
        specialize (U x y X Y). unfold ImageConvertSpec.holds in Hd.
        destruct (at_ pw d x y) as [l|l|l]; try contradiction.
        destruct l as [|v1 [|v2 [|v3 [|v4 [|? ?]]]]]; try contradiction.
        destruct Hd as (D1 & D2 & D3 & D4). destruct U as (U1 & U2 & U3 & U4).
        assert (K : forall v z, (0 <= z <= 1)%R -> float_near v z -> within_error float_error v z).
        { intros v z Z1 N. destruct N as [Nf Nn].
          { apply Rle_trans with (bpow radix2 0); [change (bpow radix2 0) with 1%R; rewrite Rabs_pos_eq; lra|apply bpow_le; lia]. }
          split; [exact Nf|]. eapply Rle_trans; [exact Nn|]. rewrite (Rabs_pos_eq z) by lra. unfold float_error. change (IZR (2 ^ 22)) with 4194304%R.
          change (IZR (2 ^ 24)) with 16777216%R. change (IZR (2 ^ 52)) with 4503599627370496%R. lra. }
        cbn [near_colour]. split; [apply K; auto|]. split; [apply K; auto|]. split; [apply K; auto|]. apply K; auto. }
    destruct Q as (d & -> & D1 & D2 & D3 & D4 & D5 & D6). cbn [made].
    exists d. split; [reflexivity|]. do 5 (split; [assumption|]). intros x y X Y. split; [auto|apply U; assumption].
Qed.

Lemma rotate_tones e i w h cs T an : tones e i w h cs T ->
  let '(w', h') := match an with CommandLineModel.CW180 | CommandLineModel.CCW180 => (w, h) | _ => (h, w) end in
  tones e (irotate O an i) w' h' cs (fun x y =>
    let '(x0, y0) := match an with
      | CommandLineModel.CCW90 | CommandLineModel.CW270 => (w - 1 - y, x)
      | CommandLineModel.CW180 | CommandLineModel.CCW180 => (w - 1 - x, h - 1 - y)
      | CommandLineModel.CW90 | CommandLineModel.CCW270 => (y, h - 1 - x) end in T x0 y0).
Proof.
  intros (b & -> & H1 & H2 & H3 & H4 & G & N).
  destruct (C33_rotate pw (fi_rotate pw F b) (fi_alloc pw F) b (to_angle an) G (fk_rotate pw F FK b G)) as (r & Er & Hr).
  destruct r as [r|]; [|destruct Hr as [_ (f' & w' & h' & A)]; destruct (fk_alloc pw F FK _ _ _ A)].
  destruct Hr as [Gr Tr]. cbn [irotate image_ops o_rotate]. rewrite Er. cbn [made].
  destruct an; cbn [to_angle ImageSpec.turned] in Tr; destruct Tr as (R1 & R2 & R3 & R4 & R5);
    (exists r; split; [reflexivity|]; do 4 (split; [congruence|]); split; [exact Gr|]; intros x y X Y).
  - specialize (R5 y (h - 1 - x) ltac:(split; lia)). rewrite H1 in R5.
    replace (b_h b - 1 - (h - 1 - x)) with x in R5 by lia.
    destruct (N y (h - 1 - x) ltac:(lia) ltac:(lia)). split; [|assumption]. eapply near_same; eauto.
  - specialize (R5 (w - 1 - x) (h - 1 - y) ltac:(split; lia)). rewrite H1 in R5.
    replace (b_h b - 1 - (h - 1 - y)) with y in R5 by lia. replace (b_w b - 1 - (w - 1 - x)) with x in R5 by lia.
    destruct (N (w - 1 - x) (h - 1 - y) ltac:(lia) ltac:(lia)). split; [|assumption]. eapply near_same; eauto.
  - specialize (R5 (w - 1 - y) x ltac:(split; lia)). rewrite H1 in R5.
    replace (b_w b - 1 - (w - 1 - y)) with y in R5 by lia.
    destruct (N (w - 1 - y) x ltac:(lia) ltac:(lia)). split; [|assumption]. eapply near_same; eauto.
  - specialize (R5 (w - 1 - y) x ltac:(split; lia)). rewrite H1 in R5.
    replace (b_w b - 1 - (w - 1 - y)) with y in R5 by lia.
    destruct (N (w - 1 - y) x ltac:(lia) ltac:(lia)). split; [|assumption]. eapply near_same; eauto.
  - specialize (R5 (w - 1 - x) (h - 1 - y) ltac:(split; lia)). rewrite H1 in R5.
    replace (b_h b - 1 - (h - 1 - y)) with y in R5 by lia. replace (b_w b - 1 - (w - 1 - x)) with x in R5 by lia.
    destruct (N (w - 1 - x) (h - 1 - y) ltac:(lia) ltac:(lia)). split; [|assumption]. eapply near_same; eauto.
  - specialize (R5 y (h - 1 - x) ltac:(split; lia)). rewrite H1 in R5.
    replace (b_h b - 1 - (h - 1 - x)) with x in R5 by lia.
    destruct (N y (h - 1 - x) ltac:(lia) ltac:(lia)). split; [|assumption]. eapply near_same; eauto.
Qed.

Lemma flipx_tones e i w h cs T : tones e i w h cs T ->
  tones e (in_place (fun _ => o_flipx O) i) w h cs (fun x y => T (w - 1 - x) y).
Proof.
  intros (b & -> & H1 & H2 & H3 & H4 & G & N). cbn [in_place image_ops o_flipx].
  assert (AT : forall x y, x < w -> y < h ->
    at_ pw (Bitmap (b_fmt b) (b_w b) (b_h b) (b_cs b) (fi_fliph pw F b)) x y = at_ pw b (w - 1 - x) y).
  { intros x y X Y. unfold at_. cbn [b_px b_h]. rewrite (fk_fliph pw F FK) by (auto; lia). rewrite H2. reflexivity. }
  eexists. split; [reflexivity|]. cbn [b_fmt b_w b_h b_cs]. do 4 (split; [assumption|]). split.
  - destruct G as (G1 & G2 & G3). split; [exact G1|]. split; [exact G2|]. cbn [b_fmt]. intros x y [X Y]. cbn [b_w b_h] in X, Y.
    rewrite AT by lia. apply G3. split; lia.
  - intros x y X Y. rewrite AT by lia. apply N; lia.
Qed.

Lemma flipy_tones e i w h cs T : tones e i w h cs T ->
  tones e (in_place (fun _ => o_flipy O) i) w h cs (fun x y => T x (h - 1 - y)).
Proof.
  intros (b & -> & H1 & H2 & H3 & H4 & G & N). cbn [in_place image_ops o_flipy].
  assert (AT : forall x y, x < w -> y < h ->
    at_ pw (Bitmap (b_fmt b) (b_w b) (b_h b) (b_cs b) (fi_flipv pw F b)) x y = at_ pw b x (h - 1 - y)).
  { intros x y X Y. unfold at_. cbn [b_px b_h]. rewrite (fk_flipv pw F FK) by (auto; lia). rewrite H3. reflexivity. }
  eexists. split; [reflexivity|]. cbn [b_fmt b_w b_h b_cs]. do 4 (split; [assumption|]). split.
  - destruct G as (G1 & G2 & G3). split; [exact G1|]. split; [exact G2|]. cbn [b_fmt]. intros x y [X Y]. cbn [b_w b_h] in X, Y.
    rewrite AT by lia. apply G3. split; lia.
  - intros x y X Y. rewrite AT by lia. apply N; lia.
Qed.

Definition lit (c : colour) : colour := RGBA (decode (red c)) (decode (green c)) (decode (blue c)) (alpha c).
Definition gray_colour (cs : colorspace) (c : colour) : colour :=
  let l := from_light cs (2126 / 10000 * to_light cs (red c) + 7152 / 10000 * to_light cs (green c) +
                          722 / 10000 * to_light cs (blue c)) in RGBA l l l (alpha c).
Definition swizzled (r g b al : CommandLineModel.channel) (c : colour) : colour :=
  RGBA (selected r 0 c) (selected g 0 c) (selected b 0 c) (selected al 1 c).
Definition multiplied (cs : colorspace) (c : colour) : colour :=
  let times x := from_light cs (to_light cs x * alpha c) in
  RGBA (times (red c)) (times (green c)) (times (blue c)) (alpha c).

Lemma to_light_unit cs x : (0 <= x <= 1)%R -> (0 <= to_light cs x <= 1)%R.
Proof. destruct cs; [auto|apply decode_unit]. Qed.
Lemma from_light_unit cs x : (0 <= x <= 1)%R -> (0 <= from_light cs x <= 1)%R.
Proof. destruct cs; [auto|apply encode_unit]. Qed.

Lemma lit_unit c : unit_colour c -> unit_colour (lit c).
Proof. intros (U1 & U2 & U3 & U4). unfold unit_colour, lit. cbn [red green blue alpha]. auto using decode_unit. Qed.

Lemma gray_unit cs c : unit_colour c -> unit_colour (gray_colour cs c).
Proof.
  intros (U1 & U2 & U3 & U4). apply (to_light_unit cs) in U1, U2, U3.
  assert (L : (0 <= from_light cs (2126 / 10000 * to_light cs (red c) + 7152 / 10000 * to_light cs (green c) +
                          722 / 10000 * to_light cs (blue c)) <= 1)%R) by (apply from_light_unit; lra).
  unfold unit_colour, gray_colour. cbn [red green blue alpha]. auto.
Qed.

Lemma multiplied_unit cs c : unit_colour c -> unit_colour (multiplied cs c).
Proof.
  intros (U1 & U2 & U3 & U4).
  assert (M : forall x, (0 <= x <= 1)%R -> (0 <= from_light cs (to_light cs x * alpha c) <= 1)%R).
  { intros x X. apply from_light_unit. apply (to_light_unit cs) in X.
    split; [apply Rmult_le_pos; lra|]. pose proof (scaled (to_light cs x) (alpha c) 1 1 ltac:(lra) ltac:(lra) U4). lra. }
  unfold unit_colour, multiplied. cbn [red green blue alpha]. auto.
Qed.

Lemma light_tones i w h T : pow_ok pw -> tones (E0 CS_sRGB) i w h CS_sRGB T ->
  tones (E0 CS_Linear) (ichange (o_lib O) i CS_Linear) w h CS_Linear (fun x y => lit (T x y)).
Proof.
  intros PW (b & -> & H1 & H2 & H3 & H4 & G & N). cbn [ichange image_ops o_lib image_lib l_tolinear].
  destruct (map_tones (onRGB (@sRGBToLinear D)) (E0 CS_sRGB) (E0 CS_Linear) lit b w h T H1 H2 H3 G) as (b' & E & T'); auto.
  { intros p c U Np. split; [apply lit_unit; exact U|exact (light_near PW p c U Np)]. }
  unfold changeColorSpace. rewrite H4, E. cbn [obind changed].
  destruct T' as (b1 & B0 & B1 & B2 & B3 & B4 & B5 & B6). injection B0 as <-.
  exists (setColorSpace CS_Linear b'). split; [reflexivity|]. cbn [setColorSpace b_fmt b_w b_h b_cs].
  do 3 (split; [assumption|]). split; [reflexivity|]. split; [|exact B6]. exact B5.
Qed.

Lemma gray_tones cs e i w h T : (cs = CS_sRGB -> pow_ok pw) -> (0 <= e <= / 4000)%R -> tones e i w h cs T ->
  tones (gray_error cs e) (in_place (o_gray O) i) w h cs (fun x y => gray_colour cs (T x y)).
Proof.
  intros PW EB (b & -> & H1 & H2 & H3 & H4 & G & N). cbn [in_place image_ops o_gray].
  destruct (map_tones (grayscaleColor cs) e (gray_error cs e) (gray_colour cs) b w h T H1 H2 H3 G) as (b' & E & T'); auto.
  { intros p c U Np. split; [apply gray_unit; exact U|exact (gray_near cs e p c PW U EB Np)]. }
  unfold grayscale. rewrite H4, E. cbn [obind changed]. rewrite H4 in T'. exact T'.
Qed.

Lemma selected_unit ch none c : (0 <= none <= 1)%R -> unit_colour c -> (0 <= selected ch none c <= 1)%R.
Proof. intros H (U1 & U2 & U3 & U4). destruct ch; cbn [selected]; auto. Qed.

Lemma swizzle_tones e r g bl al i w h cs T : (0 <= e)%R -> tones e i w h cs T ->
  tones e (in_place (fun _ => o_swizzle O r g bl al) i) w h cs (fun x y => swizzled r g bl al (T x y)).
Proof.
  intros E0' (b & -> & H1 & H2 & H3 & H4 & G & N). cbn [in_place image_ops o_swizzle].
  destruct (map_tones (swizzleColor (to_channel r) (to_channel g) (to_channel bl) (to_channel al)) e e (swizzled r g bl al) b w h T H1 H2 H3 G)
    as (b' & E & T'); auto.
  { intros p c U Np. split.
    - unfold unit_colour, swizzled. cbn [red green blue alpha].
      do 3 (split; [apply selected_unit; [lra|exact U]|]). apply selected_unit; [lra|exact U].
    - apply swizzle_near; [exact E0'|exact Np]. }
  unfold swizzle. rewrite E. cbn [obind changed]. rewrite H4 in T'. exact T'.
Qed.

Lemma premul_tones cs e i w h T : (cs = CS_sRGB -> pow_ok pw) -> (0 <= e <= / 4000)%R -> tones e i w h cs T ->
  tones (premul_error cs e) (in_place (o_premul O) i) w h cs (fun x y => multiplied cs (T x y)).
Proof.
  intros PW EB (b & -> & H1 & H2 & H3 & H4 & G & N). cbn [in_place image_ops o_premul].
  destruct (map_tones (preMultiplyColor cs) e (premul_error cs e) (multiplied cs) b w h T H1 H2 H3 G) as (b' & E & T'); auto.
  { intros p c U Np. split; [apply multiplied_unit; exact U|exact (premul_near cs e p c PW U EB Np)]. }
  unfold preMultiplyAlpha. rewrite H1, H4, E. cbn [obind changed]. rewrite H4 in T'. exact T'.
Qed.

(** The image after the adjustment of the value range. *)
Definition ready (e : R) (ty : ttype) (f : imgfmt) (i : timage) (w h : N) (cs : colorspace) (T : N -> N -> colour) : Prop :=
  exists b, i = Img I_RGBAF w h cs b /\ b_w b = w /\ b_h b = h /\ (b_fmt b = I_RGBAF /\ b_cs b = cs /\ good pw b) /\
    forall x y, x < w -> y < h -> exists v1 v2 v3 v4, at_ pw b x y = @PF D [v1; v2; v3; v4] /\
      adjusted e ty f (red (T x y)) v1 /\ adjusted e ty f (green (T x y)) v2 /\
      adjusted e ty f (blue (T x y)) v3 /\ adjusted e ty f (alpha (T x y)) v4.

Lemma adjust_ready e ty f i w h cs T : ~ In f [I_RGB5; I_RGB565] -> (e <= 12 * / 4194304)%R \/ ty = T_UNorm -> tones e i w h cs T ->
  ready e ty f (iadjust O ty f i) w h cs T.
Proof.
  intros NF EE (b & -> & H1 & H2 & H3 & H4 & G & N).
  assert (HH : b_h b < 2 ^ 31) by apply G.
  assert (PL : forall x y, x < w -> y < h -> exists v1 v2 v3 v4, at_ pw b x y = @PF D [v1; v2; v3; v4] /\
     within_error e v1 (red (T x y)) /\ within_error e v2 (green (T x y)) /\
     within_error e v3 (blue (T x y)) /\ within_error e v4 (alpha (T x y))).
  { intros x y X Y. destruct (N x y X Y) as [Np _]. destruct (at_ pw b x y) as [l|l|l]; cbn [near_colour] in Np; try contradiction.
    destruct l as [|v1 [|v2 [|v3 [|v4 [|? ?]]]]]; try contradiction. exists v1, v2, v3, v4. split; [reflexivity|exact Np]. }
  destruct (match ty with T_SNorm | T_UInt | T_Int => remapped_format f | _ => false end) eqn:RM.
  2:{ assert (E : iadjust O ty f (Img I_RGBAF w h cs b) = Img I_RGBAF w h cs b).
      { cbn [iadjust]. destruct ty; try reflexivity; rewrite RM; reflexivity. }
      rewrite E. exists b. split; [reflexivity|]. do 2 (split; [assumption|]). split; [auto|]. intros x y X Y.
      destruct (PL x y X Y) as (v1 & v2 & v3 & v4 & A0 & A1 & A2 & A3 & A4). exists v1, v2, v3, v4. split; [exact A0|].
      assert (Q : forall z v, within_error e v z -> adjusted e ty f z v).
      { intros z v Q. unfold adjusted. destruct (channel_bits f) eqn:CB; [|exact Q].
        destruct ty; try exact Q; destruct f; cbn in RM, CB; congruence. }
      auto. }
  assert (CB : exists n, channel_bits f = Some n).
  { destruct ty; try discriminate; destruct f; cbn in RM; try discriminate; try (exfalso; apply NF; cbn; auto; fail); eexists; reflexivity. }
  destruct CB as (n & CB). pose proof (bits_cases _ _ CB) as NB.
  assert (RF : remapped_format f = true) by (destruct ty; try discriminate; exact RM).
  assert (NMz : AdjustSpec.normalised f) by (unfold AdjustSpec.normalised; destruct f; cbn in CB; try discriminate; cbn; discriminate).
  assert (E : iadjust O ty f (Img I_RGBAF w h cs b) = Img I_RGBAF w h cs (o_range O ty f I_RGBAF w h b)).
  { cbn [iadjust]. destruct ty; try discriminate; rewrite RF; reflexivity. }
  rewrite E. clear E.
  assert (IM : exists g, ((ty = T_SNorm /\ (g = fun _ => snormValue)) \/
    ((ty = T_UInt \/ ty = T_Int) /\ exists mt, multiplyTable f = Some mt /\
     g = (fun c => intValue (nth (N.to_nat c) mt 0%Z) (nth (N.to_nat c) (offsetTable ty f) 0%Z)))) /\
    forall c v z, (c < 4)%N -> (0 <= z <= 1)%R -> within_error e v z -> adjusted e ty f z (g c v)).
  { assert (EE' : (e <= 12 * / 4194304)%R) by (destruct EE as [EE|EE]; [exact EE|subst ty; discriminate]).
    destruct ty; try discriminate.
    - exists (fun _ => snormValue). split; [auto|]. intros c v z _ Z1 V. unfold adjusted. rewrite CB. apply snorm_near; auto.
    - assert (M : multiplyTable f = Some (repeat (2 ^ n - 1)%Z 4) /\ offsetTable T_UInt f = repeat 0%Z 4)
        by (destruct f; cbn in CB; try discriminate; injection CB as <-; split; reflexivity).
      destruct M as [M1 M2]. rewrite M1, M2. eexists. split; [right; split; [auto|]; eexists; split; reflexivity|].
      intros c v z C Z1 V. cbv beta. unfold adjusted. rewrite CB.
      replace (nth (N.to_nat c) (repeat (2 ^ n - 1)%Z 4) 0%Z) with (2 ^ n - 1)%Z
        by (symmetry; apply nth_repeat_lt'; lia).
      replace (nth (N.to_nat c) (repeat 0%Z 4) 0%Z) with 0%Z by (symmetry; apply nth_repeat_lt'; lia).
      destruct (int_near e (2 ^ n - 1) 0 v z) as (k & K1 & K2 & K3 & K4); auto; try (destruct NB as [-> | ->]; simpl; lia).
      exists k. rewrite Z.add_0_r in K4. auto.
    - assert (M : multiplyTable f = Some (repeat (2 ^ n - 1)%Z 4) /\ offsetTable T_Int f = repeat (- 2 ^ (n - 1))%Z 4)
        by (destruct f; cbn in CB; try discriminate; injection CB as <-; split; reflexivity).
      destruct M as [M1 M2]. rewrite M1, M2. eexists. split; [right; split; [auto|]; eexists; split; reflexivity|].
      intros c v z C Z1 V. cbv beta. unfold adjusted. rewrite CB.
      replace (nth (N.to_nat c) (repeat (2 ^ n - 1)%Z 4) 0%Z) with (2 ^ n - 1)%Z
        by (symmetry; apply nth_repeat_lt'; lia).
      replace (nth (N.to_nat c) (repeat (- 2 ^ (n - 1))%Z 4) 0%Z) with (- 2 ^ (n - 1))%Z by (symmetry; apply nth_repeat_lt'; lia).
      destruct (int_near e (2 ^ n - 1) (- 2 ^ (n - 1)) v z) as (k & K1 & K2 & K3 & K4); auto; try (destruct NB as [-> | ->]; simpl; lia).
      exists k. rewrite Z.add_opp_r in K4. auto. }
  destruct IM as (g & Hg & Ag).
  destruct (float_adjust pw None (fi_alloc pw F) b f ty g G ltac:(right; right; exact H1) NMz Hg) as (b' & Eb & (S1 & S2 & S3 & S4) & Pb).
  cbn [image_ops o_range]. rewrite Eb. exists b'. split; [reflexivity|]. split; [congruence|]. split; [congruence|].
  assert (RP : forall x y, x < w -> y < h -> exists v1 v2 v3 v4, at_ pw b' x y = @PF D [v1; v2; v3; v4] /\
      adjusted e ty f (red (T x y)) v1 /\ adjusted e ty f (green (T x y)) v2 /\
      adjusted e ty f (blue (T x y)) v3 /\ adjusted e ty f (alpha (T x y)) v4).
  2:{ split; [|exact RP]. split; [congruence|]. split; [congruence|]. destruct G as (G1 & G2 & _).
      split; [congruence|]. split; [congruence|]. intros x y [X Y].
      destruct (RP x y ltac:(congruence) ltac:(congruence)) as (v1 & v2 & v3 & v4 & A0 & _).
      rewrite A0. replace (b_fmt b') with I_RGBAF by congruence. exact I. }
  intros x y X Y. destruct (Pb x y ltac:(split; congruence)) as (l & L1 & l' & L2 & L3 & L4).
  destruct (PL x y X Y) as (v1 & v2 & v3 & v4 & A0 & A1 & A2 & A3 & A4).
  destruct (N x y X Y) as [_ (U1 & U2 & U3 & U4)].
  rewrite A0 in L1. assert (L1' : l = [v1; v2; v3; v4]) by exact (f_equal (fun p : pix D => match p with PF l => l | _ => [] end) (eq_sym L1)).
  subst l. cbn [List.length] in L3.
  destruct l' as [|w1 [|w2 [|w3 [|w4 [|? ?]]]]]; try discriminate.
  pose proof (L4 0%nat v1 eq_refl) as B1. pose proof (L4 1%nat v2 eq_refl) as B2.
  pose proof (L4 2%nat v3 eq_refl) as B3. pose proof (L4 3%nat v4 eq_refl) as B4.
  cbn [nth_error] in B1, B2, B3, B4. injection B1 as ->. injection B2 as ->. injection B3 as ->. injection B4 as ->.
  eexists _, _, _, _. split; [exact L2|].
  split; [apply Ag; auto; lia|]. split; [apply Ag; auto; lia|]. split; [apply Ag; auto; lia|]. apply Ag; auto; lia.
Qed.


Lemma adjusted_weaker e e' ty f x v : (e <= e')%R -> adjusted e ty f x v -> adjusted e' ty f x v.
Proof.
  intros E A. unfold adjusted, within_error in *. destruct (channel_bits f); destruct ty; try (destruct A as [A1 A2]; split; [exact A1|lra]);
    destruct A as (k & K1 & K2); exists k; (split; [lra|exact K2]).
Qed.

Lemma ready_weaker e e' ty f i w h cs T : (e <= e')%R -> ready e ty f i w h cs T -> ready e' ty f i w h cs T.
Proof.
  intros E (b & B0 & B1 & B2 & B3 & P). exists b. do 4 (split; [assumption|]). intros x y X Y.
  destruct (P x y X Y) as (v1 & v2 & v3 & v4 & A0 & A1 & A2 & A3 & A4). exists v1, v2, v3, v4. split; [exact A0|].
  split; [eapply adjusted_weaker; eassumption|]. split; [eapply adjusted_weaker; eassumption|].
  split; [eapply adjusted_weaker; eassumption|]. eapply adjusted_weaker; eassumption.
Qed.

Definition result_size (w h : N) : N * N :=
  if CommandLineModel.c_rotate a &&
     match CommandLineModel.c_rotateAngle a with CommandLineModel.CW180 | CommandLineModel.CCW180 => false | _ => true end
  then (h, w) else (w, h).

(** The error of the colours of a job. *)
Definition job_error : R := if coarse a then (1420 * / 4194304)%R else E2.

(** sRGB textures are made from sRGB images and have unsigned normalised channels. *)
Definition proper_spaces : Prop :=
  CommandLineModel.c_textureCS a = CS_sRGB -> CommandLineModel.c_imageCS a = CS_sRGB /\ CommandLineModel.c_ttyp a = T_UNorm.

(** The error of the colours of a job that begins with the error [e]. *)
Definition steps_error (e : R) : R :=
  let cs := CommandLineModel.c_textureCS a in
  let e := if CommandLineModel.c_grayscale a then gray_error cs e else e in
  if CommandLineModel.c_preMultiply a then premul_error cs e else e.

(** The steps after the resize. *)
Definition later_steps (f : imgfmt) (i : timage) : timage :=
  let i := if CommandLineModel.c_rotate a then irotate O (CommandLineModel.c_rotateAngle a) i else i in
  let i := if CommandLineModel.c_grayscale a then in_place (o_gray O) i else i in
  let i := if CommandLineModel.c_flipX a then in_place (fun _ => o_flipx O) i else i in
  let i := if CommandLineModel.c_flipY a then in_place (fun _ => o_flipy O) i else i in
  let i := if CommandLineModel.c_swizzle a then in_place (fun _ => o_swizzle O (CommandLineModel.c_redSwzl a)
        (CommandLineModel.c_greenSwzl a) (CommandLineModel.c_blueSwzl a) (CommandLineModel.c_alphaSwzl a)) i else i in
  let i := if CommandLineModel.c_preMultiply a then in_place (o_premul O) i else i in
  iadjust O (CommandLineModel.c_ttyp a) f i.

Lemma later_ready e f i0 w h T : ~ In f [I_RGB5; I_RGB565] ->
  (CommandLineModel.c_textureCS a = CS_sRGB -> CommandLineModel.c_grayscale a = true \/ CommandLineModel.c_preMultiply a = true -> pow_ok pw) ->
  (0 <= e <= 30 * / 4194304)%R -> (steps_error e <= 12 * / 4194304)%R \/ CommandLineModel.c_ttyp a = T_UNorm ->
  tones e i0 w h (CommandLineModel.c_textureCS a) T ->
  ready (steps_error e) (CommandLineModel.c_ttyp a) f (later_steps f i0) (fst (result_size w h)) (snd (result_size w h))
    (CommandLineModel.c_textureCS a) (fun x y => let '(x0, y0) := origin a w h x y in finished a (T x0 y0)).
Proof.
  intros NF PWS EB EE T0. unfold later_steps, steps_error in *. remember (CommandLineModel.c_textureCS a) as cs eqn:CSE.
  (* rotation *)
  set (i1 := if CommandLineModel.c_rotate a then irotate O (CommandLineModel.c_rotateAngle a) i0 else i0).
  set (T1 := fun x y => let '(x0, y0) := if CommandLineModel.c_rotate a then
      match CommandLineModel.c_rotateAngle a with
      | CommandLineModel.CCW90 | CommandLineModel.CW270 => (w - 1 - y, x)
      | CommandLineModel.CW180 | CommandLineModel.CCW180 => (w - 1 - x, h - 1 - y)
      | CommandLineModel.CW90 | CommandLineModel.CCW270 => (y, h - 1 - x) end else (x, y) in T x0 y0).
  destruct (result_size w h) as [W H] eqn:RZ. cbn [fst snd].
  assert (X1 : tones e i1 W H cs T1).
  { unfold i1, T1. unfold result_size in RZ. destruct (CommandLineModel.c_rotate a); cbn [andb] in RZ.
    - pose proof (rotate_tones _ _ _ _ _ _ (CommandLineModel.c_rotateAngle a) T0) as R.
      destruct (CommandLineModel.c_rotateAngle a); injection RZ as <- <-; exact R.
    - injection RZ as <- <-. exact T0. }
  clearbody i1.
  (* gray *)
  set (i2 := if CommandLineModel.c_grayscale a then in_place (o_gray O) i1 else i1).
  set (T2 := fun x y => if CommandLineModel.c_grayscale a then gray_colour cs (T1 x y) else T1 x y).
  set (e2 := if CommandLineModel.c_grayscale a then gray_error cs e else e).
  assert (E2L : (0 <= e2 <= / 4000)%R) by (unfold e2; destruct (CommandLineModel.c_grayscale a), cs; unfold gray_error; lra).
  assert (X2 : tones e2 i2 W H cs T2).
  { unfold i2, T2, e2. destruct (CommandLineModel.c_grayscale a) eqn:CG; [|exact X1]. apply gray_tones; [auto|lra|exact X1]. }
  clearbody i2.
  (* flips *)
  set (i3 := if CommandLineModel.c_flipX a then in_place (fun _ => o_flipx O) i2 else i2).
  set (T3 := fun x y => T2 (if CommandLineModel.c_flipX a then W - 1 - x else x) y).
  assert (X3 : tones e2 i3 W H cs T3).
  { unfold i3, T3. destruct (CommandLineModel.c_flipX a); [apply flipx_tones|]; exact X2. }
  clearbody i3.
  set (i4 := if CommandLineModel.c_flipY a then in_place (fun _ => o_flipy O) i3 else i3).
  set (T4 := fun x y => T3 x (if CommandLineModel.c_flipY a then H - 1 - y else y)).
  assert (X4 : tones e2 i4 W H cs T4).
  { unfold i4, T4. destruct (CommandLineModel.c_flipY a); [apply flipy_tones|]; exact X3. }
  clearbody i4.
  (* swizzle *)
  set (i5 := if CommandLineModel.c_swizzle a then in_place (fun _ => o_swizzle O (CommandLineModel.c_redSwzl a)
        (CommandLineModel.c_greenSwzl a) (CommandLineModel.c_blueSwzl a) (CommandLineModel.c_alphaSwzl a)) i4 else i4).
  set (T5 := fun x y => if CommandLineModel.c_swizzle a then swizzled (CommandLineModel.c_redSwzl a)
        (CommandLineModel.c_greenSwzl a) (CommandLineModel.c_blueSwzl a) (CommandLineModel.c_alphaSwzl a) (T4 x y) else T4 x y).
  assert (X5 : tones e2 i5 W H cs T5).
  { unfold i5, T5. destruct (CommandLineModel.c_swizzle a); [apply swizzle_tones; [lra|]|]; exact X4. }
  clearbody i5.
  set (i6 := if CommandLineModel.c_preMultiply a then in_place (o_premul O) i5 else i5).
  set (T6 := fun x y => if CommandLineModel.c_preMultiply a then multiplied cs (T5 x y) else T5 x y).
  set (e6 := if CommandLineModel.c_preMultiply a then premul_error cs e2 else e2).
  assert (X6 : tones e6 i6 W H cs T6).
  { unfold i6, T6, e6. destruct (CommandLineModel.c_preMultiply a) eqn:CP; [|exact X5]. apply premul_tones; [auto|lra|exact X5]. }
  clearbody i6.
  apply adjust_ready; [exact NF|exact EE|].
  eapply tones_ext; [|exact X6].
  intros x y _ _. unfold T6, T5, T4, T3, T2, T1, origin, finished. rewrite <- CSE.
  replace (if CommandLineModel.c_rotate a && match CommandLineModel.c_rotateAngle a with
      CommandLineModel.CW180 | CommandLineModel.CCW180 => false | _ => true end then (h, w) else (w, h)) with (W, H)
    by (rewrite <- RZ; reflexivity).
  cbv beta iota zeta.
  destruct (CommandLineModel.c_rotate a), (CommandLineModel.c_rotateAngle a), (CommandLineModel.c_grayscale a),
    (CommandLineModel.c_swizzle a), (CommandLineModel.c_preMultiply a); reflexivity.
Qed.

(** A loaded picture, in the colour space of the texture. *)
Lemma loaded_tones q f w h px : plain_job pw a -> proper_spaces -> fi_load pw F q = Some (f, w, h, px) ->
  let s := Bitmap f w h (CommandLineModel.c_imageCS a) px in plain_input pw s ->
  tones (E0 (CommandLineModel.c_textureCS a))
    (ichange (o_lib O) (iconvert (o_lib O) (Img f w h (CommandLineModel.c_imageCS a) s) I_RGBAF) (CommandLineModel.c_textureCS a)) w h
    (CommandLineModel.c_textureCS a) (fun x y => in_space a (meaning pw f (at_ pw s x y))).
Proof.
  intros (ENM & LIN) PS LD s PI.
  destruct (fk_load pw F FK q f w h px (CommandLineModel.c_imageCS a) LD) as (W1 & H1 & G). fold s in G.
  pose proof (start_tones f w h s eq_refl eq_refl eq_refl G PI) as T0. cbn [b_cs s] in T0. fold s in T0.
  set (i0 := iconvert (image_lib pw F) (Img f w h (CommandLineModel.c_imageCS a) s) I_RGBAF) in *.
  change (iconvert (o_lib O) (Img f w h (CommandLineModel.c_imageCS a) s) I_RGBAF) with i0.
  clearbody i0. unfold proper_spaces in PS. unfold in_space. remember (CommandLineModel.c_textureCS a) as cs eqn:CSE.
  assert (FE : float_error = E0 CS_sRGB) by (unfold float_error, E0; change (IZR (2 ^ 22)) with 4194304%R; reflexivity).
    rewrite FE in T0.
    assert (ID : CommandLineModel.c_imageCS a = cs -> ichange (o_lib O) i0 cs = i0).
    { intros IC. rewrite IC in T0. destruct T0 as (b & -> & _). destruct cs; reflexivity. }
    assert (IC : CommandLineModel.c_imageCS a = CS_Linear \/ CommandLineModel.c_imageCS a = CS_sRGB)
      by (destruct (CommandLineModel.c_imageCS a); auto).
    destruct cs.
    - destruct IC as [IC|IC]; rewrite IC in T0.
      + rewrite ID by exact IC. eapply tones_ext; [|eapply tones_weaker; [|exact T0]]; [|unfold E0; lra].
        intros x y _ _. rewrite IC. reflexivity.
      + eapply tones_ext; [|apply light_tones; [|exact T0]]; [|apply LIN; auto].
        intros x y _ _. rewrite IC. reflexivity.
    - destruct (PS eq_refl) as [IC' _]. rewrite ID by exact IC'. rewrite IC' in T0. eapply tones_ext; [|exact T0].
      intros x y _ _. rewrite IC'. reflexivity.
Qed.

(** The picture of an input that has the size of the level it is for. *)
Lemma product_level q f U V m w h px : plain_job pw a -> proper_spaces -> fi_load pw F q = Some (f, w, h, px) ->
  side U m = w -> side V m = h ->
  let s := Bitmap f w h (CommandLineModel.c_imageCS a) px in plain_input pw s ->
  exists i, product O a U V m q = Some i /\ iconvert (o_lib O) i I_RGBAF = i /\
    ready job_error (CommandLineModel.c_ttyp a) f i (fst (result_size w h)) (snd (result_size w h)) (CommandLineModel.c_textureCS a)
      (fun x y => let '(x0, y0) := origin a w h x y in processed a (meaning pw f (at_ pw s x0 y0))).
Proof.
  intros PJ PS LD SU SV s PI. pose proof (loaded_tones q f w h px PJ PS LD PI) as T0. fold s in T0.
  destruct PJ as (ENM & LIN).
  destruct (fk_load pw F FK q f w h px (CommandLineModel.c_imageCS a) LD) as (W1 & H1 & G). fold s in G.
  unfold product. cbn [image_ops o_load]. rewrite LD. fold s.
  eexists. split; [reflexivity|].
  unfold carry_out, steps. rewrite ENM. cbn [negb andb fold_left fst snd].
  rewrite SU, SV.
  set (i0 := ichange (o_lib O) _ _) in T0. fold i0.
  assert (RS : iresize (o_lib O) i0 w h (CommandLineModel.c_resizeFilter a) = i0).
  { destruct T0 as (b & -> & _). cbn [iresize].
    replace (w =? 0) with false by (symmetry; apply N.eqb_neq; lia). replace (h =? 0) with false by (symmetry; apply N.eqb_neq; lia).
    rewrite !N.eqb_refl. reflexivity. }
  rewrite RS. clear RS. clearbody i0.
  assert (NF : ~ In f [I_RGB5; I_RGB565]).
  { intros [<-|[<-|[]]]; destruct PI as [PI|[PI _]]; cbn in PI; try congruence; intuition discriminate. }
  assert (SE : (steps_error (E0 (CommandLineModel.c_textureCS a)) <= job_error)%R).
  { unfold steps_error, job_error, coarse, E0, E2, gray_error, premul_error.
    destruct (CommandLineModel.c_textureCS a), (CommandLineModel.c_grayscale a), (CommandLineModel.c_preMultiply a); cbn [orb]; lra. }
  pose proof (later_ready (E0 (CommandLineModel.c_textureCS a)) f i0 w h (fun x y => in_space a (meaning pw f (at_ pw s x y))) NF) as RD.
  assert (RD' : ready job_error (CommandLineModel.c_ttyp a) f (later_steps f i0) (fst (result_size w h)) (snd (result_size w h))
     (CommandLineModel.c_textureCS a) (fun x y => let '(x0, y0) := origin a w h x y in processed a (meaning pw f (at_ pw s x0 y0)))).
  { eapply ready_weaker; [exact SE|]. apply RD; [|unfold E0; destruct (CommandLineModel.c_textureCS a); lra| |exact T0].
    - intros C1 C2. destruct (PS C1) as [IC _]. apply LIN; [exact IC|right; exact C2].
    - destruct (CommandLineModel.c_textureCS a) eqn:CS; [left|right; exact (proj2 (PS CS))].
      revert SE. unfold job_error, coarse, E2. rewrite CS. lra. }
  split; [|exact RD'].
  destruct RD' as (b & Eb & _). unfold later_steps in Eb. rewrite Eb. reflexivity.
Qed.

Lemma product_ready q f w h px : plain_job pw a -> proper_spaces -> fi_load pw F q = Some (f, w, h, px) ->
  let s := Bitmap f w h (CommandLineModel.c_imageCS a) px in plain_input pw s ->
  exists i, product O a w h 0 q = Some i /\ iconvert (o_lib O) i I_RGBAF = i /\
    ready job_error (CommandLineModel.c_ttyp a) f i (fst (result_size w h)) (snd (result_size w h)) (CommandLineModel.c_textureCS a)
      (fun x y => let '(x0, y0) := origin a w h x y in processed a (meaning pw f (at_ pw s x0 y0))).
Proof.
  intros PJ PS LD. destruct (fk_load pw F FK q f w h px (CommandLineModel.c_imageCS a) LD) as (W1 & H1 & _).
  apply product_level; try assumption; unfold side; rewrite N.div_1_r; lia.
Qed.

End Steps.

End Pixels.

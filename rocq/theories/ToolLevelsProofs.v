(** Ranges of numbers through the generation of mip levels, and what the format keeps of them. *)

From Coq Require Import NArith ZArith List Bool String Lia Permutation Reals Lra.
From Coq Require Import ZifyBool ZifyNat ZifyN.
From Flocq Require Import Core IEEE754.BinarySingleNaN IEEE754.Binary IEEE754.Bits.
From Verif Require Import Base FormatModel FormatSpec ContainerSpec FloatModel FloatSpec ArithModel
  TextureSpec ImageSpec ImageLoops ImageApiProofs ImageValueProofs AdjustProofs FloatProofs PackProofs.
From Verif Require Import PropsSrgb SrgbSpec PropsSrgb64 PropsMipsSrgb.
From Verif Require Import ImageConvertSpec ToolModel ToolSpec.
From Verif Require Import PixelModel PixelSpec PixelProofs TextureModel ImageModel PipelineModel PipelineSpec
  CommandLineModel CommandLineSpec ToolImageModel ToolImageSpec ToolImageProofs ToolLevelsSpec.
From Verif Require ImageConvertModel ResizeModel NormalModel.
Import ListNotations.
Local Open Scope list_scope.
Local Open Scope N_scope.
Local Notation length := List.length.
Local Notation height := TextureModel.height.

(** ** What is stored for a number *)

(** The number the format keeps: the normalised types clamp. *)
Definition clamped (ty : ttype) (x : R) : R :=
  match ty with
  | T_UNorm => Rmax 0 (Rmin 1 x)
  | T_SNorm => Rmax (-1) (Rmin 1 x)
  | T_UInt => Rmax 0 x
  | _ => x
  end.

Lemma near_scaled m z : (1 <= m <= 65535)%Z -> (-1 <= z <= 1)%R ->
  (Rabs (IZR (nearest (rnd32 (z * IZR m))) - z * IZR m) <= 5 / 8)%R.
Proof.
  intros Hm Z1. assert (M : (1 <= IZR m <= 65535)%R) by (split; apply IZR_le; lia).
  assert (B : (Rabs (z * IZR m) <= bpow radix2 16)%R).
  { change (bpow radix2 16) with 65536%R. rewrite Rabs_mult, (Rabs_pos_eq (IZR m)) by lra.
    apply Rle_trans with (1 * 65535)%R; [|lra]. apply Rmult_le_compat; try apply Rabs_pos; try lra.
    apply Rabs_le. lra. }
  pose proof (rnd32_err _ 16 ltac:(lia) B) as R. change (bpow radix2 (16 - 24)) with (/ 256)%R in R.
  pose proof (nearest_half (rnd32 (z * IZR m))) as NH.
  apply Rabs_le_inv in NH, R. apply Rabs_le. lra.
Qed.

Lemma quantum_range pk ty b v : ty <> T_UFloat ->
  (ty = T_UNorm -> 1 <= b <= 16)%N -> (ty = T_SNorm -> 2 <= b <= 16)%N -> (2 <= b)%N \/ ty = T_UNorm ->
  finite v = true -> (real v < 100000)%R ->
  exists r, quantum pk ty b v = Some r /\ kept pk ty b (clamped ty (real v)) r.
Proof.
  intros TU BU BS B2 F V. pose proof (finite_not_nan v F) as NN.
  destruct ty; try congruence; cbn [quantum kept clamped]; try rewrite NN.
  - (* UNorm *)
    eexists. split; [reflexivity|]. rewrite limit_real by exact F. unfold umax.
    assert (M : (1 <= 2 ^ Z.of_N b - 1 <= 65535)%Z).
    { specialize (BU eq_refl). assert (2 ^ 1 <= 2 ^ Z.of_N b <= 2 ^ 16)%Z by (split; apply Z.pow_le_mono_r; lia). lia. }
    assert (IM : (1 <= IZR (2 ^ Z.of_N b - 1) <= 65535)%R) by (split; apply IZR_le; lia).
    set (m := (2 ^ Z.of_N b - 1)%Z) in *. clearbody m.
    set (z := Rmax 0 (Rmin 1 (real v))).
    assert (Z1 : (0 <= z <= 1)%R).
    { unfold z. split; [apply Rmax_l|]. apply Rmax_lub; [lra|apply Rmin_l]. }
    clearbody z.
    rewrite Z2N.id; [apply near_scaled; [lia|lra]|].
    apply nearest_low; [simpl; lia|]. apply Rmult_le_pos; lra.
  - (* SNorm *)
    eexists. split; [reflexivity|]. rewrite limit_real by exact F. unfold smax.
    specialize (BS eq_refl).
    assert (M : (1 <= 2 ^ (Z.of_N b - 1) - 1 <= 32767)%Z).
    { assert (2 ^ 1 <= 2 ^ (Z.of_N b - 1) <= 2 ^ 15)%Z by (split; apply Z.pow_le_mono_r; lia). lia. }
    assert (IM : (1 <= IZR (2 ^ (Z.of_N b - 1) - 1) <= 32767)%R) by (split; apply IZR_le; lia).
    set (z := Rmax (-1) (Rmin 1 (real v))).
    assert (LB : (-1 <= z <= 1)%R).
    { unfold z. split; [apply Rmax_l|]. apply Rmax_lub; [lra|apply Rmin_l]. }
    clearbody z.
    rewrite sext_twos; [apply near_scaled; [lia|lra]|lia|].
    set (m := (2 ^ (Z.of_N b - 1) - 1)%Z) in *.
    assert (Q : (- m <= nearest (rnd32 (z * IZR m)) <= m)%Z).
    { split.
      - apply nearest_low; [simpl; lia|]. rewrite opp_IZR.
        pose proof (scaled z (IZR m) 1 (IZR m) ltac:(lra) LB ltac:(lra)). lra.
      - apply nearest_high; [simpl; lia|].
        pose proof (scaled z (IZR m) 1 (IZR m) ltac:(lra) LB ltac:(lra)). lra. }
    lia.
  - (* UInt *)
    rewrite (not_too_big T_UInt b v F V). cbn [orb].
    eexists. split; [reflexivity|]. exists (nearest (Rmax 0 (real v))).
    pose proof (nearest_half (Rmax 0 (real v))) as NH.
    split; [lra|].
    assert (P : (2 ^ 2 <= 2 ^ Z.of_N b)%Z) by (apply Z.pow_le_mono_r; destruct B2; try congruence; lia).
    unfold umax. change 0%R with (IZR 0). rewrite nearest_limit by (try exact F; lia).
    pose proof (nearest_int 0) as N0. unfold Rmax. destruct (Rle_dec 0 (real v)) as [L|L].
    + apply nearest_le in L. lia.
    + assert (real v <= 0)%R as L' by lra. apply nearest_le in L'. lia.
  - (* Int *)
    rewrite (not_too_big T_Int b v F V). cbn [orb].
    eexists. split; [reflexivity|]. exists (nearest (real v)).
    pose proof (nearest_half (real v)) as NH. split; [lra|].
    assert (P : (2 ^ 1 <= 2 ^ (Z.of_N b - 1))%Z) by (apply Z.pow_le_mono_r; destruct B2; try congruence; lia).
    assert (B1 : (1 <= b)%N) by (destruct B2; [lia|congruence]).
    unfold smax. rewrite nearest_limit by (try exact F; lia).
    rewrite sext_twos by lia. f_equal. lia.
  - (* Float *)
    assert (K : within_error (/ IZR (2 ^ 19)) v (real v)).
    { split; [exact F|]. unfold Rminus. rewrite Rplus_opp_r, Rabs_R0. change (IZR (2 ^ 19)) with 524288%R. lra. }
    destruct (b =? 32)%N eqn:B; eexists; (split; [reflexivity|]); exists v; rewrite ?B; auto.
Qed.

(** ** Ranges *)

(** The numbers a type has. *)
Definition least (ty : ttype) (f : imgfmt) : Z :=
  match channel_bits f, ty with
  | Some _, T_SNorm => -1
  | Some n, T_Int => - 2 ^ (n - 1)
  | _, _ => 0
  end.
Definition greatest (ty : ttype) (f : imgfmt) : Z :=
  match channel_bits f, ty with
  | Some n, T_UInt => 2 ^ n - 1
  | Some n, T_Int => 2 ^ (n - 1) - 1
  | _, _ => 1
  end.

Lemma number_within ty f x : (0 <= x <= 1)%R ->
  (IZR (least ty f) <= number_for ty f x <= IZR (greatest ty f))%R.
Proof.
  intros X. unfold least, greatest, number_for.
  destruct (channel_bits f) as [n|] eqn:CB; [|cbn; lra].
  destruct ty; try (cbn; lra); destruct (bits_cases _ _ CB) as [-> | ->]; cbn; lra.
Qed.

(** The errors of the processing. *)
Definition start_ok (co : R) (cs : colorspace) : Prop := (0 <= co <= match cs with CS_Linear => 25 | CS_sRGB => 36000 end)%R.

Lemma error_small co n cs ty f c m : start_ok co cs -> (cs = CS_sRGB -> ty = T_UNorm) -> (1 <= n <= 2)%Z -> (m <= 31)%N ->
  (0 <= level_error co n cs ty f c m < 1)%R /\
  (IZR (greatest ty f) + level_error co n cs ty f c m <= magnitude ty f)%R /\
  (- magnitude ty f <= IZR (least ty f) - level_error co n cs ty f c m)%R /\
  (cs = CS_sRGB -> least ty f = 0%Z /\ greatest ty f = 1%Z /\ magnitude ty f = 2 /\ level_error co n cs ty f c m <= / 100)%R.
Proof.
  intros CO SU NP M. assert (MR : (0 <= IZR (Z.of_N m) <= 31)%R) by (split; apply IZR_le; lia).
  destruct cs.
  - (* linear *)
    unfold start_ok in CO.
    unfold level_error, magnitude, least, greatest, loss. change (IZR (2 ^ 22)) with 4194304%R.
    match goal with |- ?A /\ ?B /\ ?C /\ _ => assert (A /\ B /\ C); [|repeat split; try tauto; congruence] end.
    assert (n = 1 \/ n = 2)%Z as [-> | ->] by lia;
    (unfold magnitude; destruct (channel_bits f) as [k|] eqn:CB; [|cbn; lra];
     destruct (bits_cases _ _ CB) as [-> | ->]; destruct ty; cbn; lra).
  - rewrite (SU eq_refl). unfold level_error. change (IZR (2 ^ 22)) with 4194304%R.
    assert (LG : least T_UNorm f = 0%Z /\ greatest T_UNorm f = 1%Z /\ magnitude T_UNorm f = 2%R).
    { unfold least, greatest, magnitude. destruct (channel_bits f); auto. }
    destruct LG as (-> & -> & MG). rewrite MG.
    assert (LO : (loss CS_sRGB T_UNorm f c = 24 \/ loss CS_sRGB T_UNorm f c = 2)%R) by (unfold loss; rewrite MG; destruct c; auto).
    assert (n = 1 \/ n = 2)%Z as [-> | ->] by lia; destruct LO as [-> | ->]; unfold start_ok in CO; repeat split; try reflexivity; lra.
Qed.

Lemma magnitude_bounds ty f : (1 <= magnitude ty f <= IZR (2 ^ 17))%R.
Proof.
  unfold magnitude. change (IZR (2 ^ 17)) with 131072%R.
  destruct (channel_bits f) as [n|] eqn:CB; [|cbn; lra].
  destruct (bits_cases _ _ CB) as [-> | ->]; destruct ty; cbn; lra.
Qed.

Lemma loss_pos cs ty f c : (1 <= loss cs ty f c)%R.
Proof. pose proof (magnitude_bounds ty f). unfold loss. destruct cs, c; lra. Qed.

Lemma error_next co n cs ty f c m : level_error co n cs ty f c (m + 1) = (level_error co n cs ty f c m + IZR n * loss cs ty f c / IZR (2 ^ 22))%R.
Proof.
  unfold level_error. rewrite N2Z.inj_add, plus_IZR. change (IZR (2 ^ 22)) with 4194304%R. change (Z.of_N 1) with 1%Z. field.
Qed.

Lemma int_close (k : Z) x lo hi : (Rabs (IZR k - x) <= 3 / 4)%R -> (IZR lo <= x <= IZR hi)%R -> (lo <= k <= hi)%Z.
Proof.
  intros H X. apply Rabs_le_inv in H.
  assert (lo < k + 1)%Z by (apply lt_IZR; rewrite plus_IZR; lra).
  assert (k < hi + 1)%Z by (apply lt_IZR; rewrite plus_IZR; lra). lia.
Qed.

(** The floats of the processed image are in the range. *)
Lemma adjusted_range e co p cs c ty f x v lo hi : (0 <= e <= co * / 4194304)%R ->
  (e <= 12 * / 4194304 /\ 2 * e + / 16777216 <= co * / 4194304 \/ ty = T_UNorm)%R -> (0 <= x <= 1)%R -> adjusted e ty f x v ->
  (lo <= number_for ty f x <= hi)%R -> (ty = T_UInt \/ ty = T_Int -> exists i j, lo = IZR i /\ hi = IZR j) ->
  finite v = true /\ (lo - level_error co p cs ty f c 0 <= real v <= hi + level_error co p cs ty f c 0)%R.
Proof.
  intros EC EC2 X A N I. pose proof (adjusted_finite _ _ _ _ _ A) as FV. split; [exact FV|].
  assert (EE : level_error co p cs ty f c 0 = (co * / 4194304)%R).
  { unfold level_error. change (IZR (Z.of_N 0)) with 0%R. change (IZR (2 ^ 22)) with 4194304%R. field. }
  rewrite EE. clear EE.
  unfold adjusted, number_for, within_error in *.
  destruct (channel_bits f) as [n|] eqn:CB.
  2:{ destruct ty; destruct A as [_ A]; apply Rabs_le_inv in A; lra. }
  destruct ty; try (destruct EC2 as [[EC2 EC3]|?]; [|discriminate]); try (destruct A as [_ A]; apply Rabs_le_inv in A; lra).
  - destruct (I ltac:(auto)) as (i & j & -> & ->). destruct A as (k & K1 & _ & _ & ->).
    assert (K1' : (Rabs (IZR k - x * IZR (2 ^ n - 1)) <= 3 / 4)%R) by lra. destruct (int_close _ _ _ _ K1' N) as [L1 L2]. apply IZR_le in L1, L2. lra.
  - destruct (I ltac:(auto)) as (i & j & -> & ->). destruct A as (k & K1 & _ & _ & ->).
    assert (L : (i <= k - 2 ^ (n - 1) <= j)%Z).
    { apply (int_close _ (x * IZR (2 ^ n - 1) - IZR (2 ^ (n - 1)))); [|exact N]. rewrite minus_IZR.
      replace (IZR k - IZR (2 ^ (n - 1)) - (x * IZR (2 ^ n - 1) - IZR (2 ^ (n - 1))))%R
        with (IZR k - x * IZR (2 ^ n - 1))%R by ring. lra. }
    destruct L as [L1 L2]. apply IZR_le in L1, L2. lra.
Qed.

(** The number kept of a number in a range is in the range. *)
Lemma clamped_range ty f lo hi e x : (IZR (least ty f) <= lo)%R -> (hi <= IZR (greatest ty f))%R -> (lo <= hi)%R -> (0 <= e)%R ->
  (lo - e <= x <= hi + e)%R -> (lo - e <= clamped ty x <= hi + e)%R.
Proof.
  intros L G LH E X. unfold clamped. unfold least, greatest in *.
  assert (M : forall p, (p = 0 \/ p = -1)%R -> (p <= lo)%R -> (hi <= 1)%R -> (lo - e <= Rmax p (Rmin 1 x) <= hi + e)%R).
  { intros p _ P Q. unfold Rmax, Rmin. destruct (Rle_dec 1 x); destruct (Rle_dec p _); lra. }
  destruct ty; try exact X; try (apply M; auto; destruct (channel_bits f); cbn in L, G; lra).
  assert (0 <= lo)%R by (destruct (channel_bits f); exact L). unfold Rmax. destruct (Rle_dec 0 x); lra.
Qed.

(** ** The levels *)

Section Levels.
Context (pw : double -> double -> double).
Local Notation D := (double_arith pw).
Variable F : freeimage pw.

(** An image whose channels are in their ranges. *)
Definition ranged (cs : colorspace) (ch : chan -> Prop) (lo hi : chan -> R) (i : TextureModel.image (bitmap D)) (w h : N) : Prop :=
  exists b, i = Img I_RGBAF w h cs b /\ b_w b = w /\ b_h b = h /\ b_fmt b = I_RGBAF /\ b_cs b = cs /\ good pw b /\
    forall c, ch c -> forall x y, x < w -> y < h -> lies pw (lo c) (hi c) c (at_ pw b x y).

Lemma lies_wider lo hi lo' hi' c (p : pix D) : (lo' <= lo)%R -> (hi <= hi')%R -> lies pw lo hi c p -> lies pw lo' hi' c p.
Proof. intros A B (v & V & FV & L). exists v. split; [exact V|]. split; [exact FV|lra]. Qed.

Lemma ranged_wider cs (ch : chan -> Prop) lo hi lo' hi' i w h : (forall c, ch c -> (lo' c <= lo c /\ hi c <= hi' c)%R) ->
  ranged cs ch lo hi i w h -> ranged cs ch lo' hi' i w h.
Proof.
  intros H (b & E & A1 & A2 & A3 & A4 & G & R). exists b. do 6 (split; [assumption|]).
  intros c C x y X Y. destruct (H c C). eapply lies_wider; [| |apply R]; assumption.
Qed.

(** sRGB textures are of unsigned normalised numbers, and need an accurate [std::pow]. *)
Definition space_ok (cs : colorspace) (ty : ttype) : Prop := cs = CS_sRGB -> ty = T_UNorm /\ pow_ok pw.

Definition coloured (c : chan) : Prop := c = ChR \/ c = ChG \/ c = ChB.

Lemma small_powers : (0 < bpow radix2 (-149) <= / IZR (2 ^ 60))%R /\ (4 <= bpow radix2 127)%R.
Proof.
  split.
  - split; [apply bpow_gt_0|]. change (/ IZR (2 ^ 60))%R with (bpow radix2 (-60)). apply bpow_le; lia.
  - change 4%R with (bpow radix2 2). apply bpow_le; lia.
Qed.

(** A channel through the transfer functions. *)
Lemma to_linear_lies l l' lo hi c : float_pixel decode l l' -> (- / 100 <= lo)%R -> (hi <= 1 + / 100)%R ->
  lies pw lo hi c (@PF D l) ->
  (coloured c -> lies pw (decode lo - 0.52 / IZR (2 ^ 22)) (decode hi + 0.52 / IZR (2 ^ 22)) c (@PF D l')) /\
  (~ coloured c -> lies pw lo hi c (@PF D l')).
Proof.
  intros FP L H (v & V & FV & B). destruct small_powers as [P149 P127]. change (IZR (2 ^ 60)) with 1152921504606846976%R in P149.
  assert (CH : forall x', PropsSrgb64.float_of decode v x' -> finite x' = true /\
    (decode lo - 0.52 / IZR (2 ^ 22) <= real x' <= decode hi + 0.52 / IZR (2 ^ 22))%R).
  { intros x' FX. assert (AU : about_unit (real v)) by (unfold about_unit; lra). pose proof (decode_about _ AU) as DA.
    destruct (FX FV) as [F1 E1]. { apply Rabs_le. lra. }
    split; [exact F1|]. pose proof (decode_grows lo (real v) ltac:(lra)). pose proof (decode_grows (real v) hi ltac:(lra)).
    assert (AB : (Rabs (decode (real v)) <= 1.03)%R) by (apply Rabs_le; lra).
    change (IZR (2 ^ 23)) with 8388608%R in E1. change (IZR (2 ^ 22)) with 4194304%R. apply Rabs_le_inv in E1. lra. }
  destruct l as [|v1 [|v2 [|v3 [|v4 [|? ?]]]]]; try (destruct c; discriminate).
  destruct l' as [|w1 [|w2 [|w3 [|w4 [|? ?]]]]]; cbn [float_pixel] in FP; try contradiction.
  destruct FP as (F1 & F2 & F3 & F4).
  split.
  - intros [-> | [-> | ->]]; cbn [float_of] in V; injection V as ->;
      [destruct (CH _ F1)|destruct (CH _ F2)|destruct (CH _ F3)]; eexists; (split; [reflexivity|]); auto.
  - intros NC. destruct c; try (exfalso; apply NC; unfold coloured; tauto); try discriminate.
    cbn [float_of] in V. injection V as ->. exists w4. split; [reflexivity|].
    destruct F4 as [-> | [_ NN]]; [auto|]. apply finite_not_nan in FV. congruence.
Qed.

Lemma to_srgb_lies l l' lo hi c d : float_pixel encode l l' ->
  (coloured c -> (0 <= d <= / 10000)%R -> (- / 100 <= lo)%R -> (hi <= 1 + / 100)%R -> lies pw (decode lo - d) (decode hi + d) c (@PF D l) ->
     lies pw (lo - (12.92 * d + 2 / IZR (2 ^ 22))) (hi + (12.92 * d + 2 / IZR (2 ^ 22))) c (@PF D l')) /\
  (~ coloured c -> lies pw lo hi c (@PF D l) -> lies pw lo hi c (@PF D l')).
Proof.
  intros FP. destruct small_powers as [P149 P127]. change (IZR (2 ^ 60)) with 1152921504606846976%R in P149.
  assert (CH : forall v x', (0 <= d <= / 10000)%R -> (- / 100 <= lo)%R -> (hi <= 1 + / 100)%R -> finite v = true -> (decode lo - d <= real v <= decode hi + d)%R -> PropsSrgb64.float_of encode v x' -> finite x' = true /\
    (lo - (12.92 * d + 2 / IZR (2 ^ 22)) <= real x' <= hi + (12.92 * d + 2 / IZR (2 ^ 22)))%R).
  { intros v x' DB L H FV B FX.
    pose proof (back_low lo (real v) d ltac:(lra) ltac:(lra)) as BL. pose proof (back_high hi (real v) d ltac:(lra) ltac:(lra)) as BH.
    assert (AB : (Rabs (encode (real v)) <= 1.1)%R) by (apply Rabs_le; lra).
    destruct (FX FV) as [F1 E1]. { lra. }
    split; [exact F1|].
    change (IZR (2 ^ 23)) with 8388608%R in E1. change (IZR (2 ^ 22)) with 4194304%R. apply Rabs_le_inv in E1. lra. }
  split; intros CC; [intros DB L H|]; intros (v & V & FV & B);
    (destruct l as [|v1 [|v2 [|v3 [|v4 [|? ?]]]]]; try (destruct c; discriminate));
    (destruct l' as [|w1 [|w2 [|w3 [|w4 [|? ?]]]]]; cbn [float_pixel] in FP; try contradiction);
    destruct FP as (F1 & F2 & F3 & F4).
  - destruct CC as [-> | [-> | ->]]; cbn [float_of] in V; injection V as ->;
      [destruct (CH _ _ DB L H FV B F1)|destruct (CH _ _ DB L H FV B F2)|destruct (CH _ _ DB L H FV B F3)]; eexists; (split; [reflexivity|]); auto.
  - destruct c; try (exfalso; apply CC; unfold coloured; tauto); try discriminate.
    cbn [float_of] in V. injection V as ->. exists w4. split; [reflexivity|].
    destruct F4 as [-> | [_ NN]]; [auto|]. apply finite_not_nan in FV. congruence.
Qed.

Lemma coloured_dec c : {coloured c} + {~ coloured c}.
Proof. unfold coloured. destruct c; (left; tauto) || (right; intuition discriminate). Qed.

Lemma coloured_loss c ty f : loss CS_sRGB ty f c = if coloured_dec c then 24%R else magnitude ty f.
Proof. destruct (coloured_dec c) as [C|C]; unfold coloured in C; destruct c; try reflexivity; tauto || (exfalso; intuition discriminate). Qed.

Lemma resize_ranged cs (ch : chan -> Prop) lo hi i w h w' h' rf ty f : averages pw F rf -> space_ok cs ty ->
  (forall c, ch c -> (- magnitude ty f <= lo c /\ hi c <= magnitude ty f)%R /\
     (cs = CS_sRGB -> magnitude ty f = 2 /\ - / 100 <= lo c /\ hi c <= 1 + / 100)%R) ->
  1 <= w -> 1 <= h -> 1 <= w' < 2 ^ 31 -> 1 <= h' < 2 ^ 31 -> ranged cs ch lo hi i w h ->
  ranged cs ch (fun c => (lo c - loss cs ty f c / IZR (2 ^ 22))%R) (fun c => (hi c + loss cs ty f c / IZR (2 ^ 22))%R)
    (iresize (image_lib pw F) i w' h' rf) w' h'.
Proof.
  intros AV SO KR W H W' H' (b & -> & A1 & A2 & A3 & A4 & G & R). cbn [iresize].
  replace (w' =? 0) with false by (symmetry; apply N.eqb_neq; lia). replace (h' =? 0) with false by (symmetry; apply N.eqb_neq; lia).
  cbn [orb].
  assert (KP : forall c, (0 <= loss cs ty f c / IZR (2 ^ 22))%R).
  { intros c. pose proof (loss_pos cs ty f c). change (IZR (2 ^ 22)) with 4194304%R. lra. }
  pose proof (magnitude_bounds ty f) as KB.
  destruct ((w =? w') && (h =? h')) eqn:Same.
  - apply andb_true_iff in Same. destruct Same as [Ew Eh]. apply N.eqb_eq in Ew, Eh. subst w' h'.
    apply (ranged_wider cs ch lo hi); [intros c _; specialize (KP c); lra|]. exists b. repeat (split; [assumption || reflexivity|]). exact R.
  - destruct cs; unfold resize_content; cbn [no_freeimage_resize image_lib l_rescale l_tolinear l_tosrgb].
    + destruct (AV b w' h' G A3 ltac:(lia) ltac:(lia) W' H') as (px & -> & G' & P).
      rewrite A3, A4 in *. eexists. split; [reflexivity|].
      do 4 (split; [reflexivity|]). split; [exact G'|].
      intros c C x y X Y. destruct (KR c C) as [[K1 K2] _]. unfold at_. cbn [b_px b_h].
      replace (loss CS_Linear ty f c) with (magnitude ty f) by (destruct c; reflexivity).
      apply (P c (lo c) (hi c) _ KB K1 K2); [|exact X|lia].
      intros x0 y0 [X0 Y0]. apply R; [exact C|lia|lia].
    + destruct (SO eq_refl) as [TY PW].
      destruct (C56_to_linear_float pw PW b G ltac:(rewrite A3; cbn; tauto) A4) as (b1 & E1 & G1 & (F1 & W1 & H1 & C1) & P1).
      rewrite E1. cbn [changed]. rewrite A3 in F1.
      destruct (AV b1 w' h' G1 F1 ltac:(lia) ltac:(lia) W' H') as (px & -> & G' & P).
      rewrite F1, C1 in *.
      set (b2 := Bitmap I_RGBAF w' h' CS_Linear px) in *.
      destruct (C56_to_srgb_float pw PW b2 G' ltac:(cbn; tauto) eq_refl) as (b3 & E3 & G3 & (F3 & W3 & H3 & C3) & P3).
      rewrite E3. cbn [changed]. exists b3. split; [reflexivity|].
      split; [exact W3|]. split; [exact H3|]. split; [exact F3|]. split; [exact C3|]. split; [exact G3|].
      intros c C x y X Y. destruct (KR c C) as [_ K]. destruct (K eq_refl) as (M2 & KL & KH). clear K.
      assert (IN1 : forall x0 y0, within pw b1 x0 y0 -> exists l l', at_ pw b x0 y0 = @PF D l /\ at_ pw b1 x0 y0 = @PF D l' /\
        float_pixel decode l l' /\ lies pw (lo c) (hi c) c (@PF D l)).
      { intros x0 y0 [X0 Y0]. rewrite W1 in X0. rewrite H1 in Y0. destruct (P1 x0 y0 (conj X0 Y0)) as (l & l' & L1 & L2 & L3).
        exists l, l'. do 3 (split; [assumption|]). rewrite <- L1. apply R; [exact C|lia|lia]. }
      destruct (P3 x y (conj X Y)) as (l & l' & L1 & L2 & L3). rewrite L2.
      assert (L0 : px x (h' - 1 - y) = @PF D l) by exact L1.
      pose proof (decode_low _ KL) as DL. pose proof (decode_high _ KH) as DH.
      rewrite coloured_loss. destruct (coloured_dec c) as [CC|CC].
      * assert (Q := P c (decode (lo c) - 0.52 / IZR (2 ^ 22))%R (decode (hi c) + 0.52 / IZR (2 ^ 22))%R 1.1%R).
        change (IZR (2 ^ 22)) with 4194304%R in *. change (IZR (2 ^ 17)) with 131072%R in Q.
        specialize (Q ltac:(lra) ltac:(lra) ltac:(lra)).
        assert (Q' : lies pw (decode (lo c) - 1.62 / 4194304) (decode (hi c) + 1.62 / 4194304) c (@PF D l)).
        { rewrite <- L0. eapply lies_wider; [| |apply Q; [|exact X|lia]]; [lra|lra|].
          intros x0 y0 I0. destruct (IN1 x0 y0 I0) as (k & k' & K1 & K2 & K3 & K4). rewrite K2.
          destruct (to_linear_lies k k' (lo c) (hi c) c K3 KL KH K4) as [T _]. apply T, CC. }
        destruct (to_srgb_lies l l' (lo c) (hi c) c (1.62 / 4194304) L3) as [T _].
        eapply lies_wider; [| |exact (T CC ltac:(lra) KL KH Q')]; change (IZR (2 ^ 22)) with 4194304%R; lra.
      * destruct (to_srgb_lies l l' (lo c - magnitude ty f / IZR (2 ^ 22)) (hi c + magnitude ty f / IZR (2 ^ 22)) c 0 L3) as [_ T].
        apply (T CC). rewrite <- L0. destruct (KR c C) as [[K1 K2] _].
        apply (P c (lo c) (hi c) _ KB K1 K2); [|exact X|lia].
        intros x0 y0 I0. destruct (IN1 x0 y0 I0) as (k & k' & K1' & K2' & K3 & K4). rewrite K2'.
        destruct (to_linear_lies k k' (lo c) (hi c) c K3 KL KH K4) as [_ T']. apply T', CC.
Qed.

(** Every level, if there are no custom ones. *)
Lemma chain_ranged co cs (ch : chan -> Prop) lo hi ty f base (ws hs : N -> N) rf (cust : N -> option (TextureModel.image (bitmap D) * replacement)) n :
  start_ok co cs -> averages pw F rf -> space_ok cs ty -> (N.of_nat n <= 31)%N ->
  (forall c, ch c -> (IZR (least ty f) <= lo c /\ hi c <= IZR (greatest ty f))%R) ->
  (forall m, m <= N.of_nat n -> 1 <= ws m < 2 ^ 31 /\ 1 <= hs m < 2 ^ 31) ->
  (forall m, 1 <= m <= N.of_nat n -> cust m = None) ->
  ranged cs ch (fun c => (lo c - level_error co 1 cs ty f c 0)%R) (fun c => (hi c + level_error co 1 cs ty f c 0)%R) base (ws 0) (hs 0) ->
  let i := chain (fun m src => iresize (image_lib pw F) src (ws m) (hs m) rf) cust base base n in
  let out := fun i => ranged cs ch (fun c => (lo c - level_error co 1 cs ty f c (N.of_nat n))%R)
                (fun c => (hi c + level_error co 1 cs ty f c (N.of_nat n))%R) i (ws (N.of_nat n)) (hs (N.of_nat n)) in
  out (fst i) /\ out (snd i).
Proof.
  intros CO AV SO. induction n as [|n IH]; intros N31 LG WH CU B.
  - split; exact B.
  - cbv zeta in *. destruct (IH ltac:(lia) LG ltac:(intros; apply WH; lia) ltac:(intros; apply CU; lia) B) as [_ S].
    cbn [chain]. rewrite (CU (N.of_nat (Datatypes.S n))) by lia.
    destruct (WH (N.of_nat n) ltac:(lia)) as [W1 H1]. destruct (WH (N.of_nat (Datatypes.S n)) ltac:(lia)) as [W2 H2].
    assert (KR : forall c, ch c -> (- magnitude ty f <= lo c - level_error co 1 cs ty f c (N.of_nat n) /\
      hi c + level_error co 1 cs ty f c (N.of_nat n) <= magnitude ty f)%R /\
      (cs = CS_sRGB -> magnitude ty f = 2 /\ - / 100 <= lo c - level_error co 1 cs ty f c (N.of_nat n) /\
       hi c + level_error co 1 cs ty f c (N.of_nat n) <= 1 + / 100)%R).
    { intros c C. pose proof (LG c C). pose proof (error_small co 1 cs ty f c (N.of_nat n) CO (fun E => proj1 (SO E)) ltac:(lia) ltac:(lia)) as (E1 & E2 & E3 & E4).
      split; [lra|]. intros S0. destruct (E4 S0) as (Z1 & Z2 & Z3 & Z4). rewrite Z1, Z2 in *. lra. }
    assert (Q := resize_ranged cs ch (fun c => (lo c - level_error co 1 cs ty f c (N.of_nat n))%R) (fun c => (hi c + level_error co 1 cs ty f c (N.of_nat n))%R)
      _ _ _ _ _ rf ty f AV SO KR (proj1 W1) (proj1 H1) W2 H2 S).
    assert (Q' : ranged cs ch (fun c => (lo c - level_error co 1 cs ty f c (N.of_nat (Datatypes.S n)))%R)
      (fun c => (hi c + level_error co 1 cs ty f c (N.of_nat (Datatypes.S n)))%R)
      (iresize (image_lib pw F) (snd (chain (fun m src => iresize (image_lib pw F) src (ws m) (hs m) rf) cust base base n))
         (ws (N.of_nat (Datatypes.S n))) (hs (N.of_nat (Datatypes.S n))) rf)
      (ws (N.of_nat (Datatypes.S n))) (hs (N.of_nat (Datatypes.S n)))).
    { eapply ranged_wider; [|exact Q]. intros c _.
      replace (N.of_nat (Datatypes.S n)) with (N.of_nat n + 1)%N by lia. rewrite error_next. lra. }
    split; exact Q'.
Qed.

End Levels.

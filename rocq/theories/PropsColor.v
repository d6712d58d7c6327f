(** C48: pre-multiplication and grayscale of linear images (sRGB images: PropsSrgb.v). *)

From Coq Require Import ZArith NArith List Bool Lia Reals Lra.
From Coq Require Import ZifyBool ZifyNat ZifyN.
From Flocq Require Import Core IEEE754.BinarySingleNaN IEEE754.Binary IEEE754.Bits.
From Verif Require Import Base FormatModel FloatModel FloatSpec FloatProofs ArithModel ArithSpec
  DoubleProofs TextureModel ImageModel ImageLoops ImageSpec ImageStoreProofs ImageGrayProofs
  ImageOpsProofs ImageApiProofs ImageValueProofs.
Import ListNotations.
Local Open Scope N_scope.

Definition same_format_and_size {pw} (b b' : bitmap (double_arith pw)) : Prop :=
  b_fmt b' = b_fmt b /\ b_w b' = b_w b /\ b_h b' = b_h b /\ b_cs b' = b_cs b.

Lemma shape_spec {pw} (b b' : bitmap (double_arith pw)) : same_shape b b' -> same_format_and_size b b'.
Proof. intros (? & ? & ? & ?). unfold same_format_and_size; auto. Qed.

(** The integer closest to r * a / m. *)
Definition times (m r a : Z) : Z := ((2 * (r * a) + m) / (2 * m))%Z.

Lemma times_opaque m r : (0 < m)%Z -> times m r m = r.
Proof.
  intros. unfold times. symmetry. apply Z.div_unique with m; lia.
Qed.

Definition has_alpha (f : imgfmt) : Prop := f = I_RGBA8 \/ f = I_RGBA16 \/ f = I_RGBAF.

(** Images without alpha stay as they are; no image gives false. *)
Theorem C48_premultiply_no_alpha pw (b : bitmap (double_arith pw)) : ~ has_alpha (b_fmt b) ->
  preMultiplyAlpha (Some b) = Some (Some b, true) /\
  preMultiplyAlpha (A := double_arith pw) None = Some (None, false).
Proof.
  unfold has_alpha, preMultiplyAlpha. intros H. split; [|reflexivity].
  destruct (b_fmt b); auto; exfalso; auto.
Qed.

Section Mul.
Context (pw : double -> double -> double).
Local Notation D := (double_arith pw).
Local Open Scope R_scope.

Lemma times_ok hi m r a : (0 < m <= 65535)%Z -> Z.odd m = true -> (m <= hi)%Z ->
  (0 <= r <= m)%Z -> (0 <= a <= m)%Z ->
  @fromNorm D hi m (b64_mult mode_NE (@toNorm D m r) (@toNorm D m a)) = Some (times m r a) /\
  (0 <= times m r a <= m)%Z.
Proof.
  intros Hm Ho Hh Hr Ha.
  destruct (toNorm_ok pw m r Hm Hr) as (F1 & _ & B1 & E1).
  destruct (toNorm_ok pw m a Hm Ha) as (F2 & _ & B2 & E2).
  destruct (mul_unit pw _ _ F1 F2 B1 B2) as (F & B & E).
  assert (M : 0 < IZR m) by (apply IZR_lt; lia).
  assert (U : forall k, (0 <= k <= m)%Z -> 0 <= IZR k / IZR m <= 1).
  { intros k Hk. assert (0 <= IZR k <= IZR m) by (split; apply IZR_le; lia).
    split; [apply Rmult_le_pos; [lra|left; apply Rinv_0_lt_compat; lra]|].
    apply Rmult_le_reg_r with (IZR m); [lra|]. unfold Rdiv. rewrite Rmult_assoc, Rinv_l by lra. lra. }
  pose proof (U r Hr) as Ur. pose proof (U a Ha) as Ua.
  destruct (fromNorm_within pw hi m (b64_mult mode_NE (@toNorm D m r) (@toNorm D m a))
    (IZR r / IZR m * (IZR a / IZR m)) Hm Hh F) as (v & Ev & Bv & Nv).
  { split; [apply Rmult_le_pos; lra|].
    apply Rle_trans with (1 * 1); [apply Rmult_le_compat; lra|lra]. }
  { set (x := dreal (@toNorm D m r)) in *. set (y := dreal (@toNorm D m a)) in *.
    set (p := IZR r / IZR m) in *. set (q := IZR a / IZR m) in *.
    assert (X : Rabs (x * y - p * q) <= 2 * / IZR (2 ^ 53)).
    { replace (x * y - p * q) with (x * (y - q) + q * (x - p)) by ring.
      eapply Rle_trans; [apply Rabs_triang|]. rewrite !Rabs_mult.
      rewrite (Rabs_pos_eq x), (Rabs_pos_eq q) by lra.
      pose proof (Rabs_pos (y - q)). pose proof (Rabs_pos (x - p)).
      assert (x * Rabs (y - q) <= 1 * Rabs (y - q)) by (apply Rmult_le_compat_r; lra).
      assert (q * Rabs (x - p) <= 1 * Rabs (x - p)) by (apply Rmult_le_compat_r; lra). lra. }
    change (IZR (2^53)) with 9007199254740992 in *. change (IZR (2^45)) with 35184372088832.
    apply Rabs_le_inv in X, E. apply Rabs_le. lra. }
  assert (v = times m r a).
  { unfold times. apply closest_int; auto. { lia. }
    replace (IZR (r * a) / IZR m) with (IZR r / IZR m * (IZR a / IZR m) * IZR m); [exact Nv|].
    rewrite mult_IZR. field. lra. }
  subst v. auto.
Qed.

(** Products of floats are computed exactly in double precision. *)
Lemma float_product (x y : float) : generic_format radix2 (FLT_exp (-1074) 53) (real x * real y).
Proof.
  pose proof (real_format x) as Gx. pose proof (real_format y) as Gy.
  apply FLT_format_generic in Gx; [|reflexivity]. apply FLT_format_generic in Gy; [|reflexivity].
  destruct Gx as [fx Ex Mx Hx], Gy as [fy Ey My Hy].
  apply generic_format_FLT. exists (Float radix2 (Fnum fx * Fnum fy) (Fexp fx + Fexp fy)).
  - rewrite Ex, Ey. unfold F2R. cbn [Fnum Fexp]. rewrite mult_IZR, bpow_plus. ring.
  - cbn [Fnum]. rewrite Z.abs_mul. change (radix2 ^ 53)%Z with (2^53)%Z.
    change (radix2 ^ 24)%Z with (2^24)%Z in *.
    apply Z.le_lt_trans with (2^24 * 2^24)%Z; [|reflexivity].
    apply Z.mul_le_mono_nonneg; lia.
  - cbn [Fexp]. lia.
Qed.

Lemma times_float (x y : float) : finite x = true -> finite y = true ->
  Rabs (rnd32 (real x * real y)) < bpow radix2 128 ->
  real (dnarrow (b64_mult mode_NE (dwiden x) (dwiden y))) = rnd32 (real x * real y) /\
  finite (dnarrow (b64_mult mode_NE (dwiden x) (dwiden y))) = true.
Proof.
  intros Fx Fy H. destruct (dwiden_ok x Fx) as [F1 E1], (dwiden_ok y Fy) as [F2 E2].
  destruct (dmul_ok (dwiden x) (dwiden y) F1 F2) as [F E].
  { rewrite E1, E2, Rabs_mult. apply Rle_trans with (bpow radix2 128 * bpow radix2 128).
    - apply Rmult_le_compat; try apply Rabs_pos; left; apply abs_B2R_lt_emax.
    - rewrite <- bpow_plus. apply bpow_le; lia. }
  rewrite E1, E2, rnd64_format in E by apply float_product.
  destruct (dnarrow_ok (b64_mult mode_NE (dwiden x) (dwiden y)) F) as [Fn En].
  { rewrite E. exact H. }
  rewrite En, E. auto.
Qed.

Lemma times_one (x : float) :
  same_float (dnarrow (b64_mult mode_NE (dwiden x) (dwiden (float_of_Z 1)))) x.
Proof.
  rewrite one_float. destruct x as [s|s|s pl B|s m e B] eqn:Ex.
  - left. destruct s; vm_compute; reflexivity.
  - left. destruct s; vm_compute; reflexivity.
  - right. split; reflexivity.
  - left. destruct (dwiden_ok x) as [F1 E1]; [subst; reflexivity|].
    assert (NZ : real x <> 0).
    { subst x. unfold real. intros C. apply B2R_inj with (y := B754_zero 24 128 false) in C.
      all: try discriminate. 
      all: try reflexivity. revert C. unfold B2R, F2R. cbn [Fnum Fexp].
      intros C. apply Rmult_integral in C. destruct C as [C|C].
      - apply eq_IZR in C. destruct s; discriminate.
      - pose proof (bpow_gt_0 radix2 e). lra. }
    destruct (double_of_Z_ok 1 ltac:(simpl; lia)) as [O FO].
    destruct (dmul_ok (dwiden x) (double_of_Z 1) F1 FO) as [F E].
    { rewrite O, E1, Rmult_1_r.
      apply Rle_trans with (bpow radix2 128); [left; apply abs_B2R_lt_emax|apply bpow_le; lia]. }
    rewrite O, Rmult_1_r, rnd64_dreal, E1 in E.
    rewrite <- Ex. apply narrow_near; auto.
    + subst; reflexivity.
    + rewrite E. replace (real x - real x) with 0 by ring. rewrite Rabs_R0.
      apply Rmult_le_pos; [|apply Rabs_pos]. left. apply Rinv_0_lt_compat, IZR_lt. reflexivity.
Qed.

End Mul.

(** Linear images with integer channels: every colour channel becomes the integer closest to
    channel times alpha over the maximum; alpha stays. *)
Theorem C48_premultiply_integer pw (b : bitmap (double_arith pw)) m : good pw b ->
  b_cs b = CS_Linear ->
  (b_fmt b = I_RGBA8 /\ m = 255%Z) \/ (b_fmt b = I_RGBA16 /\ m = 65535%Z) ->
  exists b', preMultiplyAlpha (Some b) = Some (Some b', true) /\ good pw b' /\
    same_format_and_size b b' /\
    forall x y, within pw b x y -> exists r g bl a,
      at_ pw b x y = PZ [r; g; bl; a] /\
      at_ pw b' x y = PZ [times m r a; times m g a; times m bl a; a].
Proof.
  intros G L F.
  destruct (mapPixels_pix pw (preMultiplyColor (b_cs b)) b (fun p q => exists r g bl a,
      p = PZ [r; g; bl; a] /\ q = PZ [times m r a; times m g a; times m bl a; a]) G)
    as (b' & E & G' & SS & P).
  { intros p S. rewrite L.
    destruct F as [[F ->]|[F ->]]; rewrite F in *;
      destruct p as [l|l|l]; destruct l as [|r [|g [|bl [|a [|? ?]]]]]; try contradiction;
      cbn [stored] in S; unfold u8, u16, range in S; destruct S as (Sr & Sg & Sb & Sa);
      unfold mapStored; cbn [getPixelImpl obind preMultiplyColor onRGB setPixelNoGrayscaleImpl setCommon
        c_r c_g c_b c_a nmul double_arith]; unfold from8, from16.
    - destruct (times_ok pw 255 255 r a) as [Er Br]; try lia; try reflexivity.
      destruct (times_ok pw 255 255 g a) as [Eg Bg]; try lia; try reflexivity.
      destruct (times_ok pw 255 255 bl a) as [Eb Bb]; try lia; try reflexivity.
      rewrite Er, Eg, Eb, norm_roundtrip by lia. cbn [oPZ4 obind].
      eexists. split; [reflexivity|]. split; [cbn [stored]; unfold u8, range; lia|].
      exists r, g, bl, a. auto.
    - destruct (times_ok pw 65535 65535 r a) as [Er Br]; try lia; try reflexivity.
      destruct (times_ok pw 65535 65535 g a) as [Eg Bg]; try lia; try reflexivity.
      destruct (times_ok pw 65535 65535 bl a) as [Eb Bb]; try lia; try reflexivity.
      rewrite Er, Eg, Eb, norm_roundtrip by lia. cbn [oPZ4 obind].
      eexists. split; [reflexivity|]. split; [cbn [stored]; unfold u16, range; lia|].
      exists r, g, bl, a. auto. }
  exists b'. split; [|split; [exact G'|split; [apply shape_spec, SS|exact P]]].
  unfold preMultiplyAlpha. destruct F as [[F ->]|[F ->]]; rewrite F, E; reflexivity.
Qed.

(** Opaque pixels stay as they are. *)
Theorem C48_premultiply_integer_opaque pw (b : bitmap (double_arith pw)) m : good pw b ->
  b_cs b = CS_Linear ->
  (b_fmt b = I_RGBA8 /\ m = 255%Z) \/ (b_fmt b = I_RGBA16 /\ m = 65535%Z) ->
  exists b', preMultiplyAlpha (Some b) = Some (Some b', true) /\
    forall x y, within pw b x y -> forall r g bl,
      at_ pw b x y = PZ [r; g; bl; m] -> at_ pw b' x y = at_ pw b x y.
Proof.
  intros G L F. destruct (C48_premultiply_integer pw b m G L F) as (b' & E & _ & _ & P).
  exists b'. split; auto. intros x y W r g bl Ep.
  destruct (P x y W) as (r0 & g0 & b0 & a0 & E1 & E2). rewrite Ep in E1. inversion E1; subst.
  rewrite E2, Ep. rewrite !times_opaque; auto; destruct F as [[_ ->]|[_ ->]]; lia.
Qed.

(** Linear images of floats: every colour channel becomes the correctly rounded product with
    alpha (where that is a finite float); alpha stays; opaque pixels stay. *)
Definition product_float (r a r' : float) : Prop :=
  (finite r = true -> finite a = true ->
   (Rabs (rnd32 (real r * real a)) < bpow radix2 128)%R ->
   finite r' = true /\ real r' = rnd32 (real r * real a)) /\
  (a = float_of_Z 1 -> same_float r' r).

Theorem C48_premultiply_float pw (b : bitmap (double_arith pw)) : good pw b ->
  b_cs b = CS_Linear -> b_fmt b = I_RGBAF ->
  exists b', preMultiplyAlpha (Some b) = Some (Some b', true) /\ good pw b' /\
    same_format_and_size b b' /\
    forall x y, within pw b x y -> exists r g bl a r' g' bl' a',
      at_ pw b x y = @PF (double_arith pw) [r; g; bl; a] /\
      at_ pw b' x y = @PF (double_arith pw) [r'; g'; bl'; a'] /\
      product_float r a r' /\ product_float g a g' /\ product_float bl a bl' /\ same_float a' a.
Proof.
  intros G L F.
  destruct (mapPixels_pix pw (preMultiplyColor (b_cs b)) b (fun p q => exists r g bl a r' g' bl' a',
      p = @PF (double_arith pw) [r; g; bl; a] /\
      q = @PF (double_arith pw) [r'; g'; bl'; a'] /\
      product_float r a r' /\ product_float g a g' /\ product_float bl a bl' /\ same_float a' a) G)
    as (b' & E & G' & SS & P).
  { intros p S. rewrite L. rewrite F in *.
    destruct p as [l|l|l]; destruct l as [|r [|g [|bl [|a [|? ?]]]]]; try contradiction.
    unfold mapStored. eexists. split; [reflexivity|]. split; [exact I|].
    exists r, g, bl, a. do 4 eexists. split; [reflexivity|]. split; [reflexivity|].
    assert (PF : forall x, product_float x a (dnarrow (b64_mult mode_NE (dwiden x) (dwiden a)))).
    { intros x. split.
      - intros Fx Fa H. destruct (times_float x a Fx Fa H); auto.
      - intros ->. apply times_one. }
    split; [apply PF|]. split; [apply PF|]. split; [apply PF|].
    destruct (nan a) eqn:N.
    - right. split; [apply (narrow_widen_nan a N)|exact N].
    - left. apply (narrow_widen a N). }
  exists b'. split; [|split; [exact G'|split; [apply shape_spec, SS|exact P]]].
  unfold preMultiplyAlpha. rewrite F, E; reflexivity.
Qed.

(* ------------------------------------------------------------------ *)
(** * Grayscale *)

(** The red, green and blue channel of a stored pixel of a normalised format, each as value and
    maximum, and the alpha channel where there is one. *)
Definition rgb_of (f : imgfmt) (l : list Z) : list (Z * Z) :=
  match f, l with
  | I_Gray8, [v] => [(v, 255); (v, 255); (v, 255)]
  | I_Gray16, [v] => [(v, 65535); (v, 65535); (v, 65535)]
  | I_RGB5, [w] => [(w / 1024 mod 32, 31); (w / 32 mod 32, 31); (w mod 32, 31)]
  | I_RGB565, [w] => [(w / 2048, 31); (w / 32 mod 64, 63); (w mod 32, 31)]
  | I_RGB8, [r; g; b] | I_RGBA8, [r; g; b; _] => [(r, 255); (g, 255); (b, 255)]
  | I_RGB16, [r; g; b] | I_RGBA16, [r; g; b; _] => [(r, 65535); (g, 65535); (b, 65535)]
  | _, _ => []
  end%Z.
Definition alpha_of (f : imgfmt) (l : list Z) : option Z :=
  match f, l with
  | I_RGBA8, [_; _; _; a] | I_RGBA16, [_; _; _; a] => Some a
  | _, _ => None
  end.
Definition normalised (f : imgfmt) : Prop :=
  In f [I_Gray8; I_Gray16; I_RGB5; I_RGB565; I_RGB8; I_RGB16; I_RGBA8; I_RGBA16].

Definition fraction (vm : Z * Z) : R := (IZR (fst vm) / IZR (snd vm))%R.

(** [new] are the channels [old] replaced by the luminance of [old], rounded to the nearest step
    (with 2^-28 of a step for the rounding errors of the computation). *)
Definition gray_of (old new : list (Z * Z)) : Prop :=
  match old, new with
  | [r; g; b], [r'; g'; b'] =>
      let y := luminance (fraction r) (fraction g) (fraction b) in
      (forall c', In c' new -> Rabs (IZR (fst c') - y * IZR (snd c')) <= / 2 + / IZR (2 ^ 28))%R /\
      snd r' = snd r /\ snd g' = snd g /\ snd b' = snd b /\
      (snd r' = snd g' -> fst r' = fst g') /\ (snd r' = snd b' -> fst r' = fst b') /\
      (fraction r = fraction g -> fraction g = fraction b -> new = old)
  | _, _ => False
  end.

Section GrayNorm.
Context (pw : double -> double -> double).
Local Notation D := (double_arith pw).
Local Open Scope R_scope.

Lemma unit_frac v m : (0 < m)%Z -> (0 <= v <= m)%Z -> 0 <= IZR v / IZR m <= 1.
Proof.
  intros Hm Hk. assert (M : 0 < IZR m) by (apply IZR_lt; lia).
  assert (0 <= IZR v <= IZR m) by (split; apply IZR_le; lia).
  split; [apply Rmult_le_pos; [lra|left; apply Rinv_0_lt_compat; lra]|].
  apply Rmult_le_reg_r with (IZR m); [lra|]. unfold Rdiv. rewrite Rmult_assoc, Rinv_l by lra. lra.
Qed.

Lemma close_eq v w : Rabs (IZR v - IZR w) <= / 2 + / IZR (2 ^ 28) -> v = w.
Proof.
  intros H. rewrite <- minus_IZR, <- abs_IZR in H. change (IZR (2^28)) with 268435456 in H.
  assert (IZR (Z.abs (v - w)) < 1) by lra. apply lt_IZR in H0. lia.
Qed.

Lemma gray_value r g b mr mg mb hi m : (0 < mr <= 65535)%Z -> (0 < mg <= 65535)%Z -> (0 < mb <= 65535)%Z ->
  (0 <= r <= mr)%Z -> (0 <= g <= mg)%Z -> (0 <= b <= mb)%Z -> (0 < m <= 65535)%Z -> (m <= hi)%Z ->
  exists v, @fromNorm D hi m (@toGrayscale D (@toNorm D mr r) (@toNorm D mg g) (@toNorm D mb b)) = Some v /\
    (0 <= v <= m)%Z /\
    Rabs (IZR v - luminance (IZR r / IZR mr) (IZR g / IZR mg) (IZR b / IZR mb) * IZR m) <= / 2 + / IZR (2 ^ 28).
Proof.
  intros Hmr Hmg Hmb Hr Hg Hb Hm Hh.
  destruct (toNorm_ok pw mr r Hmr Hr) as (F1 & _ & B1 & E1).
  destruct (toNorm_ok pw mg g Hmg Hg) as (F2 & _ & B2 & E2).
  destruct (toNorm_ok pw mb b Hmb Hb) as (F3 & _ & B3 & E3).
  destruct (toGrayscale_unit pw _ _ _ F1 F2 F3 B1 B2 B3) as [F E].
  apply fromNorm_within; auto.
  - apply luminance_unit; apply unit_frac; lia.
  - pose proof (luminance_near _ _ _ _ _ _ _ E1 E2 E3) as N.
    change (IZR (2^53)) with 9007199254740992 in *. change (IZR (2^45)) with 35184372088832.
    change (IZR (2^49)) with 562949953421312 in *.
    apply Rabs_le_inv in E, N. apply Rabs_le. lra.
Qed.

(** Three equal fractions have that luminance. *)
Lemma luminance_gray x : luminance x x x = x.
Proof. unfold luminance. field. Qed.

Lemma gray_of_intro r g b mr mg mb vr vg vb :
  (0 < mr)%Z -> (0 < mg)%Z -> (0 < mb)%Z ->
  let y := luminance (IZR r / IZR mr) (IZR g / IZR mg) (IZR b / IZR mb) in
  Rabs (IZR vr - y * IZR mr) <= / 2 + / IZR (2 ^ 28) ->
  Rabs (IZR vg - y * IZR mg) <= / 2 + / IZR (2 ^ 28) ->
  Rabs (IZR vb - y * IZR mb) <= / 2 + / IZR (2 ^ 28) ->
  (mr = mg -> vr = vg) -> (mr = mb -> vr = vb) ->
  gray_of [(r, mr); (g, mg); (b, mb)] [(vr, mr); (vg, mg); (vb, mb)].
Proof.
  intros Hr Hg Hb y Nr Ng Nb E1 E2. unfold gray_of, fraction. cbn [fst snd]. fold y.
  split.
  { intros c' [<-|[<-|[<-|[]]]]; cbn [fst snd]; assumption. }
  repeat (split; [reflexivity|]). split; [exact E1|]. split; [exact E2|].
  intros H1 H2.
  assert (Mr : 0 < IZR mr) by (apply IZR_lt; lia).
  assert (Mg : 0 < IZR mg) by (apply IZR_lt; lia).
  assert (Mb : 0 < IZR mb) by (apply IZR_lt; lia).
  assert (Y : y = IZR r / IZR mr) by (unfold y; rewrite <- H2, <- H1; apply luminance_gray).
  f_equal; [|f_equal; [|f_equal]]; f_equal; apply close_eq.
  - replace (IZR r) with (y * IZR mr); [exact Nr|]. rewrite Y. field. lra.
  - replace (IZR g) with (y * IZR mg); [exact Ng|]. rewrite Y, H1. field. lra.
  - replace (IZR b) with (y * IZR mb); [exact Nb|]. rewrite Y, H1, H2. field. lra.
Qed.

End GrayNorm.

Lemma fields555 w : (0 <= w < 65536)%Z ->
  field w M555r 10 = (w / 1024 mod 32)%Z /\ field w M555g 5 = (w / 32 mod 32)%Z /\
  field w M555b 0 = (w mod 32)%Z.
Proof.
  intros H.
  assert (C : ((field w M555r 10 =? w / 1024 mod 32) && (field w M555g 5 =? w / 32 mod 32) &&
     (field w M555b 0 =? w mod 32))%Z = true).
  { apply (all16_spec (fun w => (field w M555r 10 =? w / 1024 mod 32) &&
      (field w M555g 5 =? w / 32 mod 32) && (field w M555b 0 =? w mod 32))%Z);
      [vm_compute; reflexivity|lia]. }
  rewrite !andb_true_iff, !Z.eqb_eq in C. tauto.
Qed.

Lemma fields565' w : (0 <= w < 65536)%Z ->
  field w M565r 11 = (w / 2048)%Z /\ field w M565g 5 = (w / 32 mod 64)%Z /\
  field w M565b 0 = (w mod 32)%Z.
Proof.
  intros H. pose proof (pack565_all w H) as P. unfold pack565_ok in P.
  rewrite !andb_true_iff in P. destruct P as [[[P1 P2] P3] P4].
  apply Z.eqb_eq in P1. rewrite P1 in *. lia.
Qed.

(** Linear images with normalised integer channels: the colour channels become the luminance,
    gray pixels stay as they are, and so does alpha. *)
Theorem C48_grayscale_normalised pw (b : bitmap (double_arith pw)) : good pw b ->
  b_cs b = CS_Linear -> normalised (b_fmt b) ->
  exists b', grayscale (Some b) = Some (Some b', true) /\ good pw b' /\
    same_format_and_size b b' /\
    forall x y, within pw b x y -> exists l l',
      at_ pw b x y = PZ l /\ at_ pw b' x y = PZ l' /\
      gray_of (rgb_of (b_fmt b) l) (rgb_of (b_fmt b) l') /\
      alpha_of (b_fmt b) l' = alpha_of (b_fmt b) l.
Proof.
  intros G L F.
  destruct (mapPixels_pix pw (grayscaleColor (b_cs b)) b (fun p q => exists l l',
      p = PZ l /\ q = PZ l' /\
      gray_of (rgb_of (b_fmt b) l) (rgb_of (b_fmt b) l') /\
      alpha_of (b_fmt b) l' = alpha_of (b_fmt b) l) G)
    as (b' & E & G' & SS & P).
  { intros p S. rewrite L.
    destruct F as [F|[F|[F|[F|[F|[F|[F|[F|[]]]]]]]]]; rewrite <- F in *;
      destruct p as [l|l|l]; destruct l as [|z1 [|z2 [|z3 [|z4 [|? ?]]]]]; try contradiction;
      cbn [stored] in S; unfold u8, u16, range in S;
      unfold mapStored; cbn [getPixelImpl obind grayscaleColor gray setPixelNoGrayscaleImpl setCommon
        c_r c_g c_b c_a]; unfold from8, from16, from5, from6.
    - destruct (gray_value pw z1 z1 z1 255 255 255 255 255) as (v & Ev & Bv & Nv); try lia.
      rewrite Ev. cbn [oPZ1 obind]. eexists. split; [reflexivity|].
      split; [cbn [stored]; unfold u8, range; lia|].
      exists [z1], [v]. repeat (split; [reflexivity|]). split; [|reflexivity].
      cbn [rgb_of]. apply gray_of_intro; auto; lia.
    - destruct (gray_value pw z1 z1 z1 65535 65535 65535 65535 65535) as (v & Ev & Bv & Nv); try lia.
      rewrite Ev. cbn [oPZ1 obind]. eexists. split; [reflexivity|].
      split; [cbn [stored]; unfold u16, range; lia|].
      exists [z1], [v]. repeat (split; [reflexivity|]). split; [|reflexivity].
      cbn [rgb_of]. apply gray_of_intro; auto; lia.
    - destruct (fields555 z1 ltac:(lia)) as (E1 & E2 & E3). rewrite E1, E2, E3.
      destruct (gray_value pw (z1 / 1024 mod 32) (z1 / 32 mod 32) (z1 mod 32) 31 31 31 255 31)
        as (v & Ev & Bv & Nv); try lia.
      rewrite Ev. cbn [oPack obind]. eexists. split; [reflexivity|].
      pose proof (pack555 v v v Bv Bv Bv) as PK. cbv zeta in PK.
      set (w' := (Z.lor (Z.lor (Z.shiftl v 10) (Z.shiftl v 5)) v mod 2 ^ 16)%Z) in *.
      destruct PK as (P0 & P1 & P2 & P3).
      split; [cbn [stored]; unfold u16, range; lia|].
      exists [z1], [w']. repeat (split; [reflexivity|]). split; [|reflexivity].
      cbn [rgb_of]. destruct (fields555 w' ltac:(lia)) as (Q1 & Q2 & Q3).
      rewrite <- Q1, <- Q2, <- Q3, P1, P2, P3. apply gray_of_intro; auto; lia.
    - destruct (fields565' z1 ltac:(lia)) as (E1 & E2 & E3). rewrite E1, E2, E3.
      destruct (gray_value pw (z1 / 2048) (z1 / 32 mod 64) (z1 mod 32) 31 63 31 255 31)
        as (v & Ev & Bv & Nv); try lia.
      destruct (gray_value pw (z1 / 2048) (z1 / 32 mod 64) (z1 mod 32) 31 63 31 255 63)
        as (u & Eu & Bu & Nu); try lia.
      rewrite Ev, Eu. cbn [oPack obind]. eexists. split; [reflexivity|].
      pose proof (pack565 v u v Bv Bu Bv) as PK. cbv zeta in PK.
      set (w' := (Z.lor (Z.lor (Z.shiftl v 11) (Z.shiftl u 5)) v mod 2 ^ 16)%Z) in *.
      destruct PK as (P0 & P1 & P2 & P3).
      split; [cbn [stored]; unfold u16, range; lia|].
      exists [z1], [w']. repeat (split; [reflexivity|]). split; [|reflexivity].
      cbn [rgb_of]. destruct (fields565' w' ltac:(lia)) as (Q1 & Q2 & Q3).
      rewrite <- Q1, <- Q2, <- Q3, P1, P2, P3. apply gray_of_intro; auto; lia.
    - destruct (gray_value pw z1 z2 z3 255 255 255 255 255) as (v & Ev & Bv & Nv); try lia.
      rewrite Ev. cbn [oPZ3 obind]. eexists. split; [reflexivity|].
      split; [cbn [stored]; unfold u8, range; lia|].
      exists [z1; z2; z3], [v; v; v]. repeat (split; [reflexivity|]). split; [|reflexivity].
      cbn [rgb_of]. apply gray_of_intro; auto; lia.
    - destruct (gray_value pw z1 z2 z3 65535 65535 65535 65535 65535) as (v & Ev & Bv & Nv); try lia.
      rewrite Ev. cbn [oPZ3 obind]. eexists. split; [reflexivity|].
      split; [cbn [stored]; unfold u16, range; lia|].
      exists [z1; z2; z3], [v; v; v]. repeat (split; [reflexivity|]). split; [|reflexivity].
      cbn [rgb_of]. apply gray_of_intro; auto; lia.
    - destruct (gray_value pw z1 z2 z3 255 255 255 255 255) as (v & Ev & Bv & Nv); try lia.
      rewrite Ev, norm_roundtrip by lia. cbn [oPZ4 obind]. eexists. split; [reflexivity|].
      split; [cbn [stored]; unfold u8, range; lia|].
      exists [z1; z2; z3; z4], [v; v; v; z4]. repeat (split; [reflexivity|]). split; [|reflexivity].
      cbn [rgb_of]. apply gray_of_intro; auto; lia.
    - destruct (gray_value pw z1 z2 z3 65535 65535 65535 65535 65535) as (v & Ev & Bv & Nv); try lia.
      rewrite Ev, norm_roundtrip by lia. cbn [oPZ4 obind]. eexists. split; [reflexivity|].
      split; [cbn [stored]; unfold u16, range; lia|].
      exists [z1; z2; z3; z4], [v; v; v; z4]. repeat (split; [reflexivity|]). split; [|reflexivity].
      cbn [rgb_of]. apply gray_of_intro; auto; lia. }
  exists b'. split; [|split; [exact G'|split; [apply shape_spec, SS|exact P]]].
  unfold grayscale. rewrite E; reflexivity.
Qed.

(** Linear images of floats: equal channels, gray pixels and alpha stay. *)
Definition gray_floats (l l' : list float) : Prop :=
  match l, l' with
  | [v], [v'] => same_float v' v
  | [r; g; b], [r'; g'; b'] =>
      r' = g' /\ g' = b' /\ (r = g -> g = b -> same_float r' r)
  | [r; g; b; a], [r'; g'; b'; a'] =>
      r' = g' /\ g' = b' /\ (r = g -> g = b -> same_float r' r) /\ same_float a' a
  | _, _ => False
  end.

Theorem C48_grayscale_float pw (b : bitmap (double_arith pw)) : good pw b ->
  b_cs b = CS_Linear -> In (b_fmt b) [I_RGBF; I_RGBAF; I_Float] ->
  exists b', grayscale (Some b) = Some (Some b', true) /\ good pw b' /\
    same_format_and_size b b' /\
    forall x y, within pw b x y -> exists l l',
      at_ pw b x y = @PF (double_arith pw) l /\ at_ pw b' x y = @PF (double_arith pw) l' /\
      gray_floats l l'.
Proof.
  intros G L F.
  destruct (mapPixels_pix pw (grayscaleColor (b_cs b)) b (fun p q => exists l l',
      p = @PF (double_arith pw) l /\ q = @PF (double_arith pw) l' /\ gray_floats l l') G)
    as (b' & E & G' & SS & P).
  { intros p S. rewrite L.
    destruct F as [F|[F|[F|[]]]]; rewrite <- F in *;
      destruct p as [l|l|l]; destruct l as [|z1 [|z2 [|z3 [|z4 [|? ?]]]]]; try contradiction;
      unfold mapStored; (eexists; split; [reflexivity|]); (split; [exact I|]);
      eexists; eexists; (split; [reflexivity|]); (split; [reflexivity|]).
    - cbn [gray_floats]. split; [reflexivity|]. split; [reflexivity|].
      intros <- <-. apply (gray_float pw z1).
    - cbn [gray_floats]. split; [reflexivity|]. split; [reflexivity|]. split.
      + intros <- <-. apply (gray_float pw z1).
      + destruct (nan z4) eqn:N.
        * right. split; [apply (narrow_widen_nan z4 N)|exact N].
        * left. apply (narrow_widen z4 N).
    - cbn [gray_floats]. apply (gray_float pw z1). }
  exists b'. split; [|split; [exact G'|split; [apply shape_spec, SS|exact P]]].
  unfold grayscale. rewrite E; reflexivity.
Qed.

(** Images of plain integers: values move by at most one towards zero. *)
Theorem C48_grayscale_integer pw (b : bitmap (double_arith pw)) : good pw b ->
  b_cs b = CS_Linear -> In (b_fmt b) [I_Int16; I_UInt16; I_Int32; I_UInt32] ->
  exists b', grayscale (Some b) = Some (Some b', true) /\ good pw b' /\
    same_format_and_size b b' /\
    forall x y, within pw b x y -> exists v v',
      at_ pw b x y = PZ [v] /\ at_ pw b' x y = PZ [v'] /\
      (0 <= v -> v - 1 <= v' <= v /\ 0 <= v')%Z /\ (v <= 0 -> v <= v' <= v + 1 /\ v' <= 0)%Z.
Proof.
  intros G L F.
  assert (ONE : forall lo hi v, (- 2 ^ 31 <= lo <= 0)%Z -> (0 <= hi < 2 ^ 32)%Z -> (lo <= v <= hi)%Z ->
    exists v', @toInt (double_arith pw) lo hi
        (@toGrayscale (double_arith pw) (double_of_Z v) (double_of_Z v) (double_of_Z v)) = Some v' /\
      (lo <= v' <= hi)%Z /\
      (0 <= v -> v - 1 <= v' <= v /\ 0 <= v')%Z /\ (v <= 0 -> v <= v' <= v + 1 /\ v' <= 0)%Z).
  { intros lo hi v Hlo Hhi Hv. unfold toInt. cbn [ntrunc double_arith].
    destruct (Z.eq_dec v 0) as [->|NZ].
    { exists 0%Z. split; [|lia].
      replace (dtrunc _) with (Some 0%Z) by (vm_compute; reflexivity).
      unfold cast_int. destruct (Z.leb_spec lo 0), (Z.leb_spec 0 hi); try lia; reflexivity. }
    destruct (double_of_Z_ok v) as [R Fv]; [lia|].
    assert (AB : (1 <= Rabs (IZR v) <= 4294967296)%R).
    { rewrite <- abs_IZR. split; apply IZR_le; lia. }
    destruct (toGrayscale_near pw (double_of_Z v) Fv) as [Fg Ng].
    { rewrite R. split.
      - apply Rle_trans with (bpow radix2 0); [apply bpow_le; lia|simpl; lra].
      - apply Rle_trans with (bpow radix2 32); [change (bpow radix2 32) with 4294967296%R; lra|apply bpow_le; lia]. }
    rewrite R in Ng. rewrite (dtrunc_ok _ Fg).
    clear R; set (t := dreal _) in *. clearbody t.
    assert (Nt : (Rabs (t - IZR v) < / 1000)%R).
    { change (IZR (2^50)) with 1125899906842624%R in Ng. lra. }
    apply Rabs_lt_inv in Nt.
    assert (K : (0 <= v -> v - 1 <= Ztrunc t <= v /\ 0 <= Ztrunc t)%Z /\
                (v <= 0 -> v <= Ztrunc t <= v + 1 /\ Ztrunc t <= 0)%Z).
    { split; intros V.
      - assert (1 <= v)%Z by lia. assert (1 <= IZR v)%R by (apply IZR_le; lia).
        rewrite Ztrunc_floor by lra.
        pose proof (Zfloor_lb t). pose proof (Zfloor_ub t).
        assert (IZR (Zfloor t) < IZR (v + 1))%R by (rewrite plus_IZR; lra).
        assert (IZR (v - 1) < IZR (Zfloor t + 1))%R by (rewrite minus_IZR, plus_IZR; lra).
        apply lt_IZR in H3, H4. lia.
      - assert (v <= -1)%Z by lia. assert (IZR v <= -1)%R by (apply IZR_le; lia).
        rewrite Ztrunc_ceil by lra.
        pose proof (Zceil_ub t). pose proof (Zceil_lb t).
        assert (IZR (v - 1) < IZR (Zceil t))%R by (rewrite minus_IZR; lra).
        assert (IZR (Zceil t) - 1 < IZR (v + 1))%R by (rewrite plus_IZR; lra).
        rewrite <- minus_IZR in H4. apply lt_IZR in H3, H4. lia. }
    exists (Ztrunc t). cbn [cast_int].
    assert (lo <= Ztrunc t <= hi)%Z by (destruct (Z.le_ge_cases 0 v); lia).
    split; [|auto]. unfold cast_int.
    destruct (Z.leb_spec lo (Ztrunc t)), (Z.leb_spec (Ztrunc t) hi); try lia; reflexivity. }
  destruct (mapPixels_pix pw (grayscaleColor (b_cs b)) b (fun p q => exists v v',
      p = PZ [v] /\ q = PZ [v'] /\
      (0 <= v -> v - 1 <= v' <= v /\ 0 <= v')%Z /\ (v <= 0 -> v <= v' <= v + 1 /\ v' <= 0)%Z) G)
    as (b' & E & G' & SS & P).
  { intros p S. rewrite L.
    destruct F as [F|[F|[F|[F|[]]]]]; rewrite <- F in *;
      destruct p as [l|l|l]; destruct l as [|v [|? ?]]; try contradiction;
      cbn [stored] in S; unfold u16, range in S;
      unfold mapStored; cbn [getPixelImpl obind grayscaleColor gray setPixelNoGrayscaleImpl setCommon
        c_r c_g c_b c_a]; change (@lit (double_arith pw) v) with (double_of_Z v).
    - destruct (ONE (- 2 ^ 15)%Z (2 ^ 15 - 1)%Z v) as (v' & E1 & B1 & P1); try lia.
      rewrite E1. cbn [oPZ1 obind]. eexists. split; [reflexivity|].
      split; [cbn [stored]; unfold range; lia|]. exists v, v'. auto.
    - destruct (ONE 0%Z (2 ^ 16 - 1)%Z v) as (v' & E1 & B1 & P1); try lia.
      rewrite E1. cbn [oPZ1 obind]. eexists. split; [reflexivity|].
      split; [cbn [stored]; unfold u16, range; lia|]. exists v, v'. auto.
    - destruct (ONE (- 2 ^ 31)%Z (2 ^ 31 - 1)%Z v) as (v' & E1 & B1 & P1); try lia.
      rewrite E1. cbn [oPZ1 obind]. eexists. split; [reflexivity|].
      split; [cbn [stored]; unfold range; lia|]. exists v, v'. auto.
    - destruct (ONE 0%Z (2 ^ 32 - 1)%Z v) as (v' & E1 & B1 & P1); try lia.
      rewrite E1. cbn [oPZ1 obind]. eexists. split; [reflexivity|].
      split; [cbn [stored]; unfold range; lia|]. exists v, v'. auto. }
  exists b'. split; [|split; [exact G'|split; [apply shape_spec, SS|exact P]]].
  unfold grayscale. rewrite E; reflexivity.
Qed.

(** An image of integers is gray already, yet grayscale changes it: 5 becomes 4. *)
Theorem C48_grayscale_integer_refuted pw : exists b : bitmap (double_arith pw),
  good pw b /\ b_fmt b = I_Int16 /\ b_cs b = CS_Linear /\ at_ pw b 0 0 = PZ [5%Z] /\
  match grayscale (Some b) with
  | Some (Some b', true) => match at_ pw b' 0 0 with PZ [v] => v | _ => 0%Z end
  | _ => 0%Z
  end = 4%Z.
Proof.
  exists (Bitmap I_Int16 1 1 CS_Linear (fun _ _ => PZ [5%Z])).
  split. { split; [reflexivity|]. split; [reflexivity|]. intros x y _. split; cbn; discriminate. }
  split; [reflexivity|]. split; [reflexivity|]. split; [reflexivity|]. vm_compute. reflexivity.
Qed.

(** Cases: a half transparent pixel and its grayscale. *)
Example C48_case pw :
  let b : bitmap (double_arith pw) := Bitmap I_RGBA8 1 1 CS_Linear (fun _ _ => PZ [200; 100; 7; 128]%Z) in
  let show := fun o : option (image (double_arith pw) * bool) => match o with
     | Some (Some b', true) => match at_ pw b' 0 0 with PZ l => l | _ => [] end | _ => [] end in
  good pw b /\ show (preMultiplyAlpha (Some b)) = [100; 50; 4; 128]%Z /\
  show (grayscale (Some b)) = [115; 115; 115; 128]%Z.
Proof.
  cbv zeta. split.
  { split; [reflexivity|]. split; [reflexivity|]. intros x y _. cbn. unfold u8, range. lia. }
  split; vm_compute; reflexivity.
Qed.

Print Assumptions C48_premultiply_no_alpha.
Print Assumptions C48_premultiply_integer.
Print Assumptions C48_premultiply_integer_opaque.
Print Assumptions C48_premultiply_float.
Print Assumptions C48_grayscale_normalised.
Print Assumptions C48_grayscale_float.
Print Assumptions C48_grayscale_integer.

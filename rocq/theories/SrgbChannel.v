(** The sRGB transfer functions applied to the channels of stored pixels. *)

From Coq Require Import ZArith NArith List Bool Lia Reals Lra.
From Flocq Require Import Core IEEE754.BinarySingleNaN IEEE754.Binary IEEE754.Bits.
From Verif Require Import Base FormatModel FloatModel FloatSpec FloatProofs ArithModel ArithSpec
  DoubleProofs TextureModel ImageModel ImageLoops ImageSpec ImageStoreProofs ImageGrayProofs
  ImageOpsProofs ImageApiProofs ImageValueProofs PropsColor PropsSrgb SrgbSpec Srgb64.
Import ListNotations.
Local Open Scope R_scope.

(** ** How much the two functions stretch *)

Lemma Rpower_slope p L a b : 0 < a < b -> (forall c, a < c < b -> 0 <= p * Rpower c (p - 1) <= L) ->
  0 <= Rpower b p - Rpower a p <= L * (b - a).
Proof.
  intros [A B] H.
  destruct (MVT_cor2 (fun x => Rpower x p) (fun x => p * Rpower x (p - 1)) a b B) as (c & E & C).
  { intros c Hc. apply derivable_pt_lim_power. lra. }
  cbv beta in E. rewrite E. specialize (H c C). split.
  - apply Rmult_le_pos; lra.
  - apply Rmult_le_compat_r; lra.
Qed.

Lemma Rpower_gt0 c p : 0 < Rpower c p.
Proof. apply exp_pos. Qed.

Definition lowE (c : R) : Prop := c <= 0.0031308.
Definition lowD (c : R) : Prop := c <= 0.04045.

Lemma encode_slope a b : 0.0031308 <= a < b ->
  0 <= Rpower b (1 / 2.4) - Rpower a (1 / 2.4) <= 12.1 * (b - a).
Proof.
  intros H. apply Rpower_slope; [lra|]. intros c Hc. split.
  - apply Rmult_le_pos; [lra|left; apply Rpower_gt0].
  - apply Rle_trans with (1 / 2.4 * 29); [|lra]. apply Rmult_le_compat_l; [lra|].
    assert (Rpower c (1 / 2.4 - 1) < 29); [|lra].
    apply pow_lt_inv with 12%nat; [lra|].
    replace (1 / 2.4 - 1) with (- (7 / 12)) by lra. rewrite Rpower_Ropp.
    rewrite pow_inv by (pose proof (Rpower_gt0 c (7 / 12)); lra).
    assert (E : Rpower c (7 / 12) ^ 12 = c ^ 7).
    { rewrite <- Rpower_pow by apply Rpower_gt0. rewrite Rpower_mult, <- Rpower_pow by lra.
      f_equal. simpl. lra. }
    rewrite E. assert (0.0031308 ^ 7 <= c ^ 7) by (apply pow_incr; lra).
    apply Rle_lt_trans with (/ 0.0031308 ^ 7); [apply Rinv_le; [simpl; lra|exact H0]|]. simpl. lra.
Qed.

Lemma decode_slope a b : 0 < a < b -> b <= 1.01 ->
  0 <= Rpower b 2.4 - Rpower a 2.4 <= 2.5 * (b - a).
Proof.
  intros H Hb. apply Rpower_slope; [lra|]. intros c Hc. split.
  - apply Rmult_le_pos; [lra|left; apply Rpower_gt0].
  - apply Rle_trans with (2.4 * 1.03); [|lra]. apply Rmult_le_compat_l; [lra|].
    assert (Rpower c (2.4 - 1) < 1.03); [|lra].
    apply pow_lt_inv with 5%nat; [lra|].
    assert (E : Rpower c (2.4 - 1) ^ 5 = c ^ 7).
    { rewrite <- Rpower_pow by apply Rpower_gt0. rewrite Rpower_mult, <- Rpower_pow by lra.
      f_equal. simpl. lra. }
    rewrite E. apply Rle_lt_trans with (1.01 ^ 7); [apply pow_incr; lra|]. simpl. lra.
Qed.

(** Differences of the two functions: on one piece, and anywhere. *)
Lemma encode_piece x y : (lowE x <-> lowE y) -> Rabs (encode x - encode y) <= 12.92 * Rabs (x - y).
Proof.
  unfold lowE, encode. intros H. destruct (Rle_dec x 0.0031308), (Rle_dec y 0.0031308); try tauto.
  - replace (x * 12.92 - y * 12.92) with (12.92 * (x - y)) by ring.
    rewrite Rabs_mult, (Rabs_pos_eq 12.92) by lra. lra.
  - destruct (Rtotal_order x y) as [L|[->|L]].
    + pose proof (encode_slope x y ltac:(lra)). rewrite !Rabs_left1 by lra. lra.
    + rewrite !Rminus_diag_eq by reflexivity. rewrite Rabs_R0. lra.
    + pose proof (encode_slope y x ltac:(lra)). rewrite !Rabs_pos_eq by lra. lra.
Qed.

Lemma encode_step x y : lowE x -> ~ lowE y ->
  - 0.00000003 < encode y - encode x <= 12.92 * (y - x).
Proof.
  unfold lowE, encode. intros X Y. destruct (Rle_dec x 0.0031308), (Rle_dec y 0.0031308); try lra.
  pose proof encode_drop. pose proof (encode_slope 0.0031308 y ltac:(lra)). split; lra.
Qed.

Lemma encode_any x y : Rabs (encode x - encode y) <= 12.92 * Rabs (x - y) + 0.00000003.
Proof.
  destruct (Rle_dec x 0.0031308) as [X|X], (Rle_dec y 0.0031308) as [Y|Y].
  - pose proof (encode_piece x y ltac:(unfold lowE; tauto)). lra.
  - pose proof (encode_step x y X Y). rewrite (Rabs_left1 (x - y)) by lra. apply Rabs_le. lra.
  - pose proof (encode_step y x Y X). rewrite (Rabs_pos_eq (x - y)) by lra. apply Rabs_le. lra.
  - pose proof (encode_piece x y ltac:(unfold lowE; tauto)). lra.
Qed.

Lemma decode_piece x y : x <= 1 -> y <= 1 -> (lowD x <-> lowD y) ->
  Rabs (decode x - decode y) <= 2.4 * Rabs (x - y).
Proof.
  unfold lowD, decode. intros X Y H. destruct (Rle_dec x 0.04045), (Rle_dec y 0.04045); try tauto.
  - replace (x / 12.92 - y / 12.92) with (/ 12.92 * (x - y)) by lra.
    rewrite Rabs_mult, (Rabs_pos_eq (/ 12.92)) by lra. pose proof (Rabs_pos (x - y)). lra.
  - destruct (Rtotal_order x y) as [L|[->|L]].
    + pose proof (decode_slope ((x + 0.055) / 1.055) ((y + 0.055) / 1.055) ltac:(lra) ltac:(lra)).
      rewrite !Rabs_left1 by lra. lra.
    + rewrite !Rminus_diag_eq by reflexivity. rewrite Rabs_R0. lra.
    + pose proof (decode_slope ((y + 0.055) / 1.055) ((x + 0.055) / 1.055) ltac:(lra) ltac:(lra)).
      rewrite !Rabs_pos_eq by lra. lra.
Qed.

Lemma decode_step x y : lowD x -> ~ lowD y -> y <= 1 ->
  0 < decode y - decode x <= 2.4 * (y - x) + 0.000000004.
Proof.
  unfold lowD, decode. intros X Y B. destruct (Rle_dec x 0.04045), (Rle_dec y 0.04045); try lra.
  pose proof decode_above. pose proof decode_jump.
  pose proof (decode_slope ((0.04045 + 0.055) / 1.055) ((y + 0.055) / 1.055) ltac:(lra) ltac:(lra)). split; lra.
Qed.

Lemma decode_any x y : x <= 1 -> y <= 1 ->
  Rabs (decode x - decode y) <= 2.4 * Rabs (x - y) + 0.000000004.
Proof.
  intros Bx By. destruct (Rle_dec x 0.04045) as [X|X], (Rle_dec y 0.04045) as [Y|Y].
  - pose proof (decode_piece x y Bx By ltac:(unfold lowD; tauto)). lra.
  - pose proof (decode_step x y X Y By). rewrite (Rabs_left1 (x - y)) by lra. apply Rabs_le. lra.
  - pose proof (decode_step y x Y X Bx). rewrite (Rabs_pos_eq (x - y)) by lra. apply Rabs_le. lra.
  - pose proof (decode_piece x y Bx By ltac:(unfold lowD; tauto)). lra.
Qed.

Lemma decode_unit c : 0 <= c <= 1 -> 0 <= decode c <= 1.
Proof. intros H. rewrite <- toLinear_is. apply C38_unit_interval, H. Qed.
Lemma encode_unit c : 0 <= c <= 1 -> 0 <= encode c <= 1.
Proof. intros H. rewrite <- toSRGB_is. apply C38_unit_interval, H. Qed.

(** A channel is not close to a threshold unless it is the threshold. *)
Lemma frac_gap v m p q d : (0 < m <= 65535)%Z -> (0 < q <= 2500000)%Z ->
  Rabs (d - IZR v / IZR m) <= / IZR (2 ^ 53) ->
  IZR p / IZR q < IZR v / IZR m -> IZR p / IZR q < d.
Proof.
  intros Hm Hq H L. change (IZR (2 ^ 53)) with 9007199254740992 in H. apply Rabs_le_inv in H.
  assert (M : 1 <= IZR m <= 65535) by (split; apply IZR_le; lia).
  assert (Q : 1 <= IZR q <= 2500000) by (split; apply IZR_le; lia).
  assert (G : / (65535 * 2500000) <= IZR v / IZR m - IZR p / IZR q).
  { replace (IZR v / IZR m - IZR p / IZR q) with ((IZR v * IZR q - IZR p * IZR m) * / (IZR m * IZR q)) by (field; lra).
    assert (Z1 : 1 <= IZR v * IZR q - IZR p * IZR m).
    { rewrite <- !mult_IZR, <- minus_IZR. apply IZR_le.
      assert (0 < v * q - p * m)%Z; [|lia]. apply lt_IZR. rewrite minus_IZR, !mult_IZR.
      apply Rmult_lt_reg_r with (/ (IZR m * IZR q)); [apply Rinv_0_lt_compat; nra|].
      replace ((IZR v * IZR q - IZR p * IZR m) * / (IZR m * IZR q)) with (IZR v / IZR m - IZR p / IZR q) by (field; lra).
      lra. }
    assert (Z2 : / (65535 * 2500000) <= / (IZR m * IZR q)).
    { apply Rinv_le; [nra|]. apply Rmult_le_compat; lra. }
    assert (0 < / (65535 * 2500000)) by (apply Rinv_0_lt_compat; lra). nra. }
  lra.
Qed.

Section Channel.
Context (pw : double -> double -> double) (PW : pow_ok pw).
Local Notation D := (double_arith pw).

Lemma norm_wide (d : double) : dfinite d = true -> Rabs (dreal d) <= 2 -> wide d.
Proof.
  intros F H. split; [exact F|]. apply Rle_trans with (bpow radix2 1); [exact H|apply bpow_le; lia].
Qed.

Lemma same_low v m T p q : (0 < m <= 65535)%Z -> (0 <= v <= m)%Z -> (0 < q <= 2500000)%Z ->
  T = IZR p / IZR q -> rnd64 T <= T ->
  dreal (@toNorm D m v) <= T <-> IZR v / IZR m <= T.
Proof.
  intros Hm Hv Hq -> RT. destruct (toNorm_ok pw m v Hm Hv) as (F & E & B & N).
  destruct (Rle_dec (IZR v / IZR m) (IZR p / IZR q)) as [L|L].
  - split; [auto|]. intros _. rewrite E. eapply Rle_trans; [apply rnd64_le, L|exact RT].
  - pose proof (frac_gap v m p q _ Hm Hq N ltac:(lra)). split; intros; lra.
Qed.

Lemma low1 : rnd64 0.04045 <= 0.04045.
Proof.
  replace (rnd64 0.04045) with (dreal (@dec D 4045 5)).
  - rewrite (proj2 (k1 pw)). consts. lra.
  - rewrite dec_rounded by (simpl; lia). reflexivity.
Qed.
Lemma low2 : rnd64 0.0031308 <= 0.0031308.
Proof.
  replace (rnd64 0.0031308) with (dreal (@dec D 31308 7)).
  - rewrite (proj2 (k2 pw)). consts. lra.
  - rewrite dec_rounded by (simpl; lia). reflexivity.
Qed.

(** The linear value of a normalised channel, and the other way round. *)
Lemma decode_norm m v : (0 < m <= 65535)%Z -> (0 <= v <= m)%Z ->
  dfinite (@sRGBToLinear D (@toNorm D m v)) = true /\
  Rabs (dreal (@sRGBToLinear D (@toNorm D m v)) - decode (IZR v / IZR m)) <= / IZR (2 ^ 43).
Proof.
  intros Hm Hv. destruct (toNorm_ok pw m v Hm Hv) as (F & E & B & N).
  set (d := @toNorm D m v) in *.
  destruct (decode64 pw PW d) as [F2 E2].
  { apply norm_wide; auto. rewrite Rabs_pos_eq; lra. }
  split; [exact F2|]. pose proof (decode_unit _ B) as U.
  pose proof (unit_frac v m ltac:(lia) Hv) as UF.
  assert (P : Rabs (decode (dreal d) - decode (IZR v / IZR m)) <= 2.4 * Rabs (dreal d - IZR v / IZR m)).
  { apply decode_piece; try lra. unfold lowD. apply (same_low v m 0.04045 809 20000); try lia.
    - lra.
    - apply low1. }
  rewrite (Rabs_pos_eq (decode _)) in E2 by lra.
  assert (ET : eta <= / IZR (2 ^ 60)) by (unfold eta; change (/ IZR (2 ^ 60)) with (bpow radix2 (-60)); apply bpow_le; lia).
  change (IZR (2 ^ 60)) with 1152921504606846976 in ET. change (IZR (2 ^ 43)) with 8796093022208.
  change (IZR (2 ^ 44)) with 17592186044416 in E2. change (IZR (2 ^ 53)) with 9007199254740992 in N.
  apply Rabs_le_inv in E2. pose proof (Rabs_pos (dreal d - IZR v / IZR m)).
  apply Rabs_le_inv in P. apply Rabs_le. lra.
Qed.

Lemma encode_norm m v : (0 < m <= 65535)%Z -> (0 <= v <= m)%Z ->
  dfinite (@linearToSRGB D (@toNorm D m v)) = true /\
  Rabs (dreal (@linearToSRGB D (@toNorm D m v)) - encode (IZR v / IZR m)) <= / IZR (2 ^ 43).
Proof.
  intros Hm Hv. destruct (toNorm_ok pw m v Hm Hv) as (F & E & B & N).
  set (d := @toNorm D m v) in *.
  destruct (encode64 pw PW d) as [F2 E2].
  { apply norm_wide; auto. rewrite Rabs_pos_eq; lra. }
  split; [exact F2|]. pose proof (encode_unit _ B) as U.
  assert (P : Rabs (encode (dreal d) - encode (IZR v / IZR m)) <= 12.92 * Rabs (dreal d - IZR v / IZR m)).
  { apply encode_piece. unfold lowE. apply (same_low v m 0.0031308 7827 2500000); try lia.
    - lra.
    - apply low2. }
  rewrite (Rabs_pos_eq (encode _)) in E2 by lra.
  assert (ET : eta <= / IZR (2 ^ 60)) by (unfold eta; change (/ IZR (2 ^ 60)) with (bpow radix2 (-60)); apply bpow_le; lia).
  change (IZR (2 ^ 60)) with 1152921504606846976 in ET. change (IZR (2 ^ 43)) with 8796093022208.
  change (IZR (2 ^ 45)) with 35184372088832 in E2. change (IZR (2 ^ 53)) with 9007199254740992 in N.
  apply Rabs_le_inv in E2. pose proof (Rabs_pos (dreal d - IZR v / IZR m)).
  apply Rabs_le_inv in P. apply Rabs_le. lra.
Qed.

(** The sRGB value of a number close to [y] in [0, 1]. *)
Lemma encode_close (d : double) y : dfinite d = true -> 0 <= y <= 1 ->
  Rabs (dreal d - y) <= / IZR (2 ^ 42) ->
  dfinite (@linearToSRGB D d) = true /\
  Rabs (dreal (@linearToSRGB D d) - encode y) <= 0.000000031.
Proof.
  intros F Y H. change (IZR (2 ^ 42)) with 4398046511104 in H.
  destruct (encode64 pw PW d) as [F2 E2].
  { apply norm_wide; auto. apply Rabs_le_inv in H. apply Rabs_le. lra. }
  split; [exact F2|]. pose proof (encode_unit _ Y) as U.
  pose proof (encode_any (dreal d) y) as P. pose proof (Rabs_pos (dreal d - y)).
  assert (A : Rabs (encode (dreal d)) <= 2).
  { apply Rabs_le_inv in P. apply Rabs_le. lra. }
  assert (ET : eta <= / IZR (2 ^ 60)) by (unfold eta; change (/ IZR (2 ^ 60)) with (bpow radix2 (-60)); apply bpow_le; lia).
  change (IZR (2 ^ 60)) with 1152921504606846976 in ET.
  change (IZR (2 ^ 45)) with 35184372088832 in E2.
  apply Rabs_le_inv in E2, P. apply Rabs_le. lra.
Qed.

(** ** Storing *)

(** A value within [t] of [x] in [0, 1] is stored within half a step, t steps' worth and 2^-29 of [x]. *)
Lemma fromNorm_tol hi m (d : double) x t : (0 < m <= 65535)%Z -> (m <= hi)%Z ->
  dfinite d = true -> 0 <= x <= 1 -> Rabs (dreal d - x) <= t ->
  exists v, @fromNorm D hi m d = Some v /\ (0 <= v <= m)%Z /\
    Rabs (IZR v - x * IZR m) <= / 2 + IZR m * t + / IZR (2 ^ 28).
Proof.
  intros Hm Hh F X H. destruct (fromNorm_value pw hi m d Hm Hh F) as [E R].
  eexists. split; [exact E|]. split; [exact R|].
  assert (M1 : 1 <= IZR m <= 65535) by (split; apply IZR_le; lia).
  set (z := Rmax 0 (Rmin 1 (dreal d))) in *.
  assert (Z1 : Rabs (z - x) <= t).
  { unfold z. revert H. unfold Rabs, Rmax, Rmin.
    repeat destruct Rle_dec; repeat destruct Rcase_abs; lra. }
  assert (ZR : 0 <= z <= 1).
  { unfold z; split; [apply Rmax_l|apply Rmax_lub; [lra|apply Rmin_l]]. }
  assert (B : Rabs (z * IZR m) <= bpow radix2 16).
  { rewrite Rabs_pos_eq by (apply Rmult_le_pos; lra). change (bpow radix2 16) with 65536.
    apply Rle_trans with (1 * IZR m); [apply Rmult_le_compat_r; lra|lra]. }
  pose proof (rnd64_err (z * IZR m) 16 ltac:(lia) B) as Er.
  change (bpow radix2 (16 - 53)) with (/ IZR (2 ^ 37)) in Er.
  pose proof (nearest_half (rnd64 (z * IZR m))) as Nh.
  assert (Em : Rabs (z * IZR m - x * IZR m) <= IZR m * t).
  { replace (z * IZR m - x * IZR m) with (IZR m * (z - x)) by ring.
    rewrite Rabs_mult, (Rabs_pos_eq (IZR m)) by lra. apply Rmult_le_compat_l; lra. }
  change (IZR (2^37)) with 137438953472 in *.
  change (IZR (2^28)) with 268435456 in *.
  apply Rabs_le_inv in Er, Nh, Em. apply Rabs_le. lra.
Qed.

(** [toGrayscale] of numbers up to 2. *)
Lemma toGrayscale_two (r g b : double) :
  dfinite r = true -> dfinite g = true -> dfinite b = true ->
  Rabs (dreal r) <= 2 -> Rabs (dreal g) <= 2 -> Rabs (dreal b) <= 2 ->
  dfinite (@toGrayscale D r g b) = true /\
  Rabs (dreal (@toGrayscale D r g b) - luminance (dreal r) (dreal g) (dreal b)) <= / IZR (2 ^ 48).
Proof.
  intros Fr Fg Fb Br Bg Bb. unfold toGrayscale. cbn [nadd nmul double_arith].
  destruct (w1 pw) as [F1 E1], (w2 pw) as [F2 E2], (w3 pw) as [F3 E3].
  assert (S : forall x k, (0 <= k <= 2)%Z -> Rabs x <= bpow radix2 k -> Rabs x <= bpow radix2 900 /\ Rabs (rnd64 x - x) <= / IZR (2 ^ 51)).
  { intros x k Hk H. split.
    - eapply Rle_trans; [exact H|]. apply bpow_le; lia.
    - eapply Rle_trans; [apply (rnd64_err x k); [lia|exact H]|].
      change (/ IZR (2 ^ 51)) with (bpow radix2 (-51)). apply bpow_le; lia. }
  assert (Sm : forall x w, Rabs x <= 2 -> 0 < w < 1 -> Rabs (x * w) <= bpow radix2 1).
  { intros x w Hx Hw. rewrite Rabs_mult, (Rabs_pos_eq w) by lra. change (bpow radix2 1) with 2.
    apply Rle_trans with (2 * 1); [apply Rmult_le_compat; try lra; apply Rabs_pos|lra]. }
  destruct Wvals as (V1 & V2 & V3 & _).
  destruct (S _ 1%Z ltac:(lia) (Sm (dreal r) W1 Br ltac:(lra))) as [O1 e1].
  destruct (S _ 1%Z ltac:(lia) (Sm (dreal g) W2 Bg ltac:(lra))) as [O2 e2].
  destruct (S _ 1%Z ltac:(lia) (Sm (dreal b) W3 Bb ltac:(lra))) as [O3 e3].
  destruct (dmul_ok r (@dec D 2126 4) Fr F1 ltac:(rewrite E1; exact O1)) as [Fp1 P1].
  destruct (dmul_ok g (@dec D 7152 4) Fg F2 ltac:(rewrite E2; exact O2)) as [Fp2 P2].
  destruct (dmul_ok b (@dec D 722 4) Fb F3 ltac:(rewrite E3; exact O3)) as [Fp3 P3].
  rewrite E1 in P1. rewrite E2 in P2. rewrite E3 in P3. rewrite <- P1 in e1. rewrite <- P2 in e2. rewrite <- P3 in e3.
  set (p1 := b64_mult mode_NE r _) in *. set (p2 := b64_mult mode_NE g _) in *.
  set (p3 := b64_mult mode_NE b _) in *. clearbody p1 p2 p3.
  clear P1 P2 P3 O1 O2 O3. unfold W1, W2, W3 in *.
  change (IZR (2 ^ 55)) with 36028797018963968 in *. change (IZR (2 ^ 53)) with 9007199254740992 in *.
  change (IZR (2 ^ 56)) with 72057594037927936 in *. change (IZR (2 ^ 51)) with 2251799813685248 in *.
  change (IZR (2 ^ 48)) with 281474976710656.
  apply Rabs_le_inv in e1, e2, e3, Br, Bg, Bb.
  destruct (S (dreal p1 + dreal p2) 2%Z ltac:(lia)) as [O4 e4].
  { change (bpow radix2 2) with 4. apply Rabs_le. lra. }
  destruct (dadd_ok p1 p2 Fp1 Fp2 O4) as [Fs Es]. rewrite <- Es in e4.
  set (s := b64_plus mode_NE p1 p2) in *. clearbody s. apply Rabs_le_inv in e4.
  destruct (S (dreal s + dreal p3) 2%Z ltac:(lia)) as [O5 e5].
  { change (bpow radix2 2) with 4. apply Rabs_le. lra. }
  destruct (dadd_ok s p3 Fs Fp3 O5) as [Ft Et]. split; [exact Ft|]. rewrite Et.
  apply Rabs_le_inv in e5. unfold luminance. apply Rabs_le. lra.
Qed.

(** Products of numbers up to 2. *)
Lemma mul_two (x y : double) : dfinite x = true -> dfinite y = true ->
  Rabs (dreal x) <= 2 -> Rabs (dreal y) <= 1 ->
  dfinite (b64_mult mode_NE x y) = true /\
  Rabs (dreal (b64_mult mode_NE x y) - dreal x * dreal y) <= / IZR (2 ^ 52).
Proof.
  intros Fx Fy Bx By.
  assert (B : Rabs (dreal x * dreal y) <= bpow radix2 1).
  { rewrite Rabs_mult. change (bpow radix2 1) with (2). apply Rle_trans with (2 * 1); [|lra].
    apply Rmult_le_compat; try apply Rabs_pos; lra. }
  destruct (dmul_ok x y Fx Fy) as [F E].
  { eapply Rle_trans; [exact B|]. apply bpow_le; lia. }
  split; [exact F|]. rewrite E. exact (rnd64_err _ 1 ltac:(lia) B).
Qed.

End Channel.

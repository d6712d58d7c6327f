(** Stored values of computed channels: how far rounding takes them from the exact result. *)

From Coq Require Import ZArith NArith List Bool Lia Reals Lra.
From Flocq Require Import Core Relative IEEE754.BinarySingleNaN IEEE754.Binary IEEE754.Bits.
From Verif Require Import Base FormatModel FloatModel FloatSpec FloatProofs ArithModel ArithSpec
  DoubleProofs TextureModel ImageModel ImageSpec ImageStoreProofs ImageGrayProofs.
Import ListNotations.
Local Open Scope R_scope.

Lemma nearest_half x : Rabs (IZR (nearest x) - x) <= / 2.
Proof.
  unfold nearest. pose proof (Znearest_half (fun z => Z.leb 0 z) x) as H.
  rewrite Rabs_minus_sym. exact H.
Qed.

Section Value.
Context (pw : double -> double -> double).
Local Notation D := (double_arith pw).

(** A value within 2^-45 of [x] in [0, 1] is stored within half a step (and 2^-28) of [x]. *)
Lemma fromNorm_within hi m (d : double) x : (0 < m <= 65535)%Z -> (m <= hi)%Z ->
  dfinite d = true -> 0 <= x <= 1 -> Rabs (dreal d - x) <= / IZR (2 ^ 45) ->
  exists v, @fromNorm D hi m d = Some v /\ (0 <= v <= m)%Z /\
    Rabs (IZR v - x * IZR m) <= / 2 + / IZR (2 ^ 28).
Proof.
  intros Hm Hh F X H. destruct (fromNorm_value pw hi m d Hm Hh F) as [E R].
  eexists. split; [exact E|]. split; [exact R|].
  assert (M1 : 1 <= IZR m <= 65535) by (split; apply IZR_le; lia).
  set (z := Rmax 0 (Rmin 1 (dreal d))) in *.
  assert (Z1 : Rabs (z - x) <= / IZR (2 ^ 45)).
  { unfold z. revert H. unfold Rabs, Rmax, Rmin.
    repeat destruct Rle_dec; repeat destruct Rcase_abs; lra. }
  assert (ZR : 0 <= z <= 1).
  { unfold z; split; [apply Rmax_l|apply Rmax_lub; [lra|apply Rmin_l]]. }
  assert (B : Rabs (z * IZR m) <= bpow radix2 16).
  { rewrite Rabs_pos_eq by (apply Rmult_le_pos; lra). change (bpow radix2 16) with 65536.
    apply Rle_trans with (1 * IZR m); [apply Rmult_le_compat_r; lra|lra]. }
  pose proof (rnd64_err (z * IZR m) 16 ltac:(lia) B) as Er.
  change (bpow radix2 (16 - 53)) with (/ IZR (2 ^ 37)) in Er.
  pose proof (nearest_half (rnd64 (z * IZR m))) as Nh.
  assert (Em : Rabs (z * IZR m - x * IZR m) <= / IZR (2 ^ 45) * 65535).
  { replace (z * IZR m - x * IZR m) with ((z - x) * IZR m) by ring.
    rewrite Rabs_mult, (Rabs_pos_eq (IZR m)) by lra.
    apply Rmult_le_compat; try lra; apply Rabs_pos. }
  change (IZR (2^45)) with 35184372088832 in *. change (IZR (2^37)) with 137438953472 in *.
  change (IZR (2^28)) with 268435456 in *.
  apply Rabs_le_inv in Er, Nh, Em. apply Rabs_le. lra.
Qed.

(** When [x] is a quotient that no half step is near, the stored value is the closest. *)
Lemma closest_int m n v : (0 < m <= 65535)%Z -> Z.odd m = true -> (0 <= n)%Z ->
  Rabs (IZR v - IZR n / IZR m) <= / 2 + / IZR (2 ^ 28) ->
  v = ((2 * n + m) / (2 * m))%Z.
Proof.
  intros Hm Ho Hn H.
  assert (M1 : 1 <= IZR m <= 65535) by (split; apply IZR_le; lia).
  assert (Z1 : (Z.abs (2 * m * v - 2 * n) <= m)%Z).
  { apply Z.lt_succ_r. apply lt_IZR. rewrite succ_IZR, abs_IZR, minus_IZR, !mult_IZR.
    replace (IZR 2 * IZR m * IZR v - IZR 2 * IZR n) with
      (2 * IZR m * (IZR v - IZR n / IZR m)) by (field; lra).
    rewrite Rabs_mult, (Rabs_pos_eq (2 * IZR m)) by lra.
    apply Rle_lt_trans with (2 * IZR m * (/ 2 + / IZR (2 ^ 28))).
    - apply Rmult_le_compat_l; lra.
    - change (IZR (2^28)) with 268435456. lra. }
  assert (Z2 : (2 * m * v - 2 * n <> m /\ 2 * m * v - 2 * n <> - m)%Z).
  { pose proof (Zdiv2_odd_eqn m) as Om. rewrite Ho in Om. set (k := Z.div2 m) in *. clearbody k.
    split; intros C; lia. }
  apply Z.div_unique with (2 * n + m - 2 * m * v)%Z; lia.
Qed.

(** Products in [0, 1]. *)
Lemma mul_unit (x y : double) : dfinite x = true -> dfinite y = true ->
  0 <= dreal x <= 1 -> 0 <= dreal y <= 1 ->
  dfinite (b64_mult mode_NE x y) = true /\
  0 <= dreal (b64_mult mode_NE x y) <= 1 /\
  Rabs (dreal (b64_mult mode_NE x y) - dreal x * dreal y) <= / IZR (2 ^ 53).
Proof.
  intros Fx Fy Bx By.
  assert (P : 0 <= dreal x * dreal y <= 1).
  { split; [apply Rmult_le_pos; lra|].
    apply Rle_trans with (1 * 1); [apply Rmult_le_compat; lra|lra]. }
  assert (Q : Rabs (dreal x * dreal y) <= bpow radix2 0).
  { rewrite Rabs_pos_eq by lra. simpl. lra. }
  destruct (dmul_ok x y Fx Fy) as [F E].
  { eapply Rle_trans; [exact Q|]. apply bpow_le; lia. }
  split; auto. rewrite E. split.
  - split; [rewrite <- rnd64_0; apply rnd64_le; lra|].
    rewrite <- (rnd64_int 1) by (simpl; lia). apply rnd64_le; lra.
  - pose proof (rnd64_err _ 0 ltac:(lia) Q) as Er.
    change (bpow radix2 (0 - 53)) with (/ IZR (2 ^ 53)) in Er. exact Er.
Qed.

(** The luminance of a colour in [0, 1]. *)
Definition luminance (r g b : R) : R := 2126 / 10000 * r + 7152 / 10000 * g + 722 / 10000 * b.

Lemma W_near : Rabs (W1 - 2126 / 10000) <= / IZR (2 ^ 55) /\ Rabs (W2 - 7152 / 10000) <= / IZR (2 ^ 54) /\
  Rabs (W3 - 722 / 10000) <= / IZR (2 ^ 56).
Proof.
  unfold W1, W2, W3. change (IZR (2^55)) with 36028797018963968.
  change (IZR (2^53)) with 9007199254740992. change (IZR (2^56)) with 72057594037927936.
  change (IZR (2^54)) with 18014398509481984.
  split; [|split]; apply Rabs_le; lra.
Qed.

Lemma toGrayscale_unit (r g b : double) :
  dfinite r = true -> dfinite g = true -> dfinite b = true ->
  0 <= dreal r <= 1 -> 0 <= dreal g <= 1 -> 0 <= dreal b <= 1 ->
  dfinite (@toGrayscale D r g b) = true /\
  Rabs (dreal (@toGrayscale D r g b) - luminance (dreal r) (dreal g) (dreal b)) <= / IZR (2 ^ 49).
Proof.
  intros Fr Fg Fb Br Bg Bb. unfold toGrayscale. cbn [nadd nmul double_arith].
  destruct (w1 pw) as [F1 E1], (w2 pw) as [F2 E2], (w3 pw) as [F3 E3].
  destruct Wvals as (B1 & B2 & B3 & _). destruct W_near as (N1 & N2 & N3).
  destruct (mul_unit r (@dec D 2126 4) Fr F1 Br ltac:(rewrite E1; lra)) as (Fp1 & P1 & e1).
  destruct (mul_unit g (@dec D 7152 4) Fg F2 Bg ltac:(rewrite E2; lra)) as (Fp2 & P2 & e2).
  destruct (mul_unit b (@dec D 722 4) Fb F3 Bb ltac:(rewrite E3; lra)) as (Fp3 & P3 & e3).
  rewrite E1 in e1. rewrite E2 in e2. rewrite E3 in e3.
  set (p1 := b64_mult mode_NE r _) in *. set (p2 := b64_mult mode_NE g _) in *.
  set (p3 := b64_mult mode_NE b _) in *. clearbody p1 p2 p3.
  assert (A1 : Rabs (dreal p1 + dreal p2) <= bpow radix2 1).
  { rewrite Rabs_pos_eq by lra. simpl. lra. }
  destruct (dadd_ok p1 p2 Fp1 Fp2) as [Fs Es].
  { eapply Rle_trans; [exact A1|]. apply bpow_le; lia. }
  pose proof (rnd64_err _ 1 ltac:(lia) A1) as es. rewrite <- Es in es.
  change (bpow radix2 (1 - 53)) with (/ IZR (2 ^ 52)) in es.
  set (s := b64_plus mode_NE p1 p2) in *. clearbody s.
  change (IZR (2^52)) with 4503599627370496 in es.
  assert (A2 : Rabs (dreal s + dreal p3) <= bpow radix2 2).
  { change (bpow radix2 2) with 4. apply Rabs_le_inv in es. apply Rabs_le. lra. }
  destruct (dadd_ok s p3 Fs Fp3) as [Ft Et].
  { eapply Rle_trans; [exact A2|]. apply bpow_le; lia. }
  split; [exact Ft|].
  pose proof (rnd64_err _ 2 ltac:(lia) A2) as et. rewrite <- Et in et.
  change (bpow radix2 (2 - 53)) with (/ IZR (2 ^ 51)) in et.
  set (t := b64_plus mode_NE s p3) in *. clearbody t.
  assert (M : forall x w w' e, 0 <= x <= 1 -> Rabs (w - w') <= e -> Rabs (x * w - w' * x) <= e).
  { intros x w w' e Hx Hw. replace (x * w - w' * x) with (x * (w - w')) by ring.
    rewrite Rabs_mult, (Rabs_pos_eq x) by lra. pose proof (Rabs_pos (w - w')).
    apply Rle_trans with (1 * Rabs (w - w')); [apply Rmult_le_compat_r; lra|lra]. }
  pose proof (M _ _ _ _ Br N1) as m1. pose proof (M _ _ _ _ Bg N2) as m2.
  pose proof (M _ _ _ _ Bb N3) as m3. unfold luminance.
  change (IZR (2^49)) with 562949953421312. change (IZR (2^51)) with 2251799813685248 in *.
  change (IZR (2^53)) with 9007199254740992 in *. change (IZR (2^54)) with 18014398509481984 in *.
  change (IZR (2^55)) with 36028797018963968 in *. change (IZR (2^56)) with 72057594037927936 in *.
  apply Rabs_le_inv in e1, e2, e3, es, et, m1, m2, m3. apply Rabs_le. lra.
Qed.

Lemma luminance_unit r g b : 0 <= r <= 1 -> 0 <= g <= 1 -> 0 <= b <= 1 -> 0 <= luminance r g b <= 1.
Proof. unfold luminance. lra. Qed.

(** Lipschitz. *)
Lemma luminance_near r g b r' g' b' e : Rabs (r - r') <= e -> Rabs (g - g') <= e -> Rabs (b - b') <= e ->
  Rabs (luminance r g b - luminance r' g' b') <= e.
Proof.
  unfold luminance. intros H1 H2 H3. apply Rabs_le_inv in H1, H2, H3. apply Rabs_le. lra.
Qed.

End Value.

(** C38: the sRGB transfer functions over the real numbers. *)

From Coq Require Import ZArith Reals Lra Lia.
From Flocq Require Import Core.
From Verif Require Import FloatSpec ArithModel ArithReal ImageModel.
Local Open Scope R_scope.

(** The formulas of Color.h over the reals. *)
Definition toLinear : R -> R := @sRGBToLinear real_arith.
Definition toSRGB : R -> R := @linearToSRGB real_arith.

(** What they are. *)
Definition decode (c : R) : R := if Rle_dec c 0.04045 then c / 12.92 else Rpower ((c + 0.055) / 1.055) 2.4.
Definition encode (c : R) : R := if Rle_dec c 0.0031308 then c * 12.92 else 1.055 * Rpower c (1 / 2.4) - 0.055.

Lemma dec_real n k : @dec real_arith n k = IZR n / IZR (10 ^ k).
Proof. reflexivity. Qed.

Lemma toLinear_is c : toLinear c = decode c.
Proof.
  unfold toLinear, sRGBToLinear, decode. cbn [nleb ndiv nadd npow real_arith].
  rewrite !dec_real.
  change (IZR (10 ^ 5)) with 100000. change (IZR (10 ^ 2)) with 100.
  change (IZR (10 ^ 3)) with 1000. change (IZR (10 ^ 1)) with 10.
  replace (4045 / 100000) with 0.04045 by lra. replace (1292 / 100) with 12.92 by lra.
  replace (55 / 1000) with 0.055 by lra. replace (1055 / 1000) with 1.055 by lra.
  replace (24 / 10) with 2.4 by lra.
  destruct (Rle_bool_spec c 0.04045); destruct (Rle_dec c 0.04045); try lra; reflexivity.
Qed.

Lemma toSRGB_is c : toSRGB c = encode c.
Proof.
  unfold toSRGB, linearToSRGB, encode, lit. cbn [nleb ndiv nmul nsub npow ofZ real_arith].
  rewrite !dec_real.
  change (IZR (10 ^ 7)) with 10000000. change (IZR (10 ^ 2)) with 100.
  change (IZR (10 ^ 3)) with 1000. change (IZR (10 ^ 1)) with 10.
  replace (31308 / 10000000) with 0.0031308 by lra. replace (1292 / 100) with 12.92 by lra.
  replace (55 / 1000) with 0.055 by lra. replace (1055 / 1000) with 1.055 by lra.
  replace (24 / 10) with 2.4 by lra.
  destruct (Rle_bool_spec c 0.0031308); destruct (Rle_dec c 0.0031308); try lra; reflexivity.
Qed.

(** Powers with the exponents 12/5 and 5/12. *)
Lemma pow5_24 a : 0 < a -> Rpower a 2.4 ^ 5 = a ^ 12.
Proof.
  intros H. rewrite <- Rpower_pow by apply exp_pos. rewrite Rpower_mult.
  rewrite <- Rpower_pow by auto. f_equal. simpl. lra.
Qed.
Lemma pow12_24 c : 0 < c -> Rpower c (1 / 2.4) ^ 12 = c ^ 5.
Proof.
  intros H. rewrite <- Rpower_pow by apply exp_pos. rewrite Rpower_mult.
  rewrite <- Rpower_pow by auto. f_equal. simpl. lra.
Qed.
Lemma pow_lt_inv n x y : 0 <= y -> x ^ n < y ^ n -> x < y.
Proof.
  intros Hy H. destruct (Rlt_le_dec x y); auto. exfalso.
  pose proof (pow_incr y x n ltac:(lra)). lra.
Qed.

Lemma inv_24 x : 0 < x -> Rpower (Rpower x 2.4) (1 / 2.4) = x.
Proof. intros H. rewrite Rpower_mult. replace (2.4 * (1 / 2.4)) with 1 by lra. apply Rpower_1; auto. Qed.
Lemma inv_24' x : 0 < x -> Rpower (Rpower x (1 / 2.4)) 2.4 = x.
Proof. intros H. rewrite Rpower_mult. replace (1 / 2.4 * 2.4) with 1 by lra. apply Rpower_1; auto. Qed.

Lemma Rpower_lt_base x y e : 0 < e -> 0 < x < y -> Rpower x e < Rpower y e.
Proof.
  intros He [Hx Hy]. unfold Rpower. apply exp_increasing.
  apply Rmult_lt_compat_l; auto. apply ln_increasing; auto.
Qed.

Lemma Rpower_one e : Rpower 1 e = 1.
Proof. unfold Rpower. rewrite ln_1, Rmult_0_r. apply exp_0. Qed.

(** The two thresholds. *)
Lemma decode_jump : 0.04045 / 12.92 < Rpower ((0.04045 + 0.055) / 1.055) 2.4.
Proof.
  apply pow_lt_inv with 5%nat; [left; apply exp_pos|]. rewrite pow5_24 by lra. simpl. lra.
Qed.
Lemma decode_above : 0.0031308 < Rpower ((0.04045 + 0.055) / 1.055) 2.4 < 0.003130808.
Proof.
  split.
  - apply pow_lt_inv with 5%nat; [left; apply exp_pos|]. rewrite pow5_24 by lra. simpl. lra.
  - apply pow_lt_inv with 5%nat; [lra|]. rewrite pow5_24 by lra. simpl. lra.
Qed.
Lemma encode_drop : 1.055 * Rpower 0.0031308 (1 / 2.4) - 0.055 < 0.0031308 * 12.92 /\
  0.0031308 * 12.92 < 1.055 * Rpower 0.0031308 (1 / 2.4) - 0.055 + 0.00000003.
Proof.
  assert (A : Rpower 0.0031308 (1 / 2.4) < (0.0031308 * 12.92 + 0.055) / 1.055).
  { apply pow_lt_inv with 12%nat; [lra|]. rewrite pow12_24 by lra. simpl. lra. }
  assert (B : (0.0031308 * 12.92 + 0.055 - 0.00000003) / 1.055 < Rpower 0.0031308 (1 / 2.4)).
  { apply pow_lt_inv with 12%nat; [left; apply exp_pos|]. rewrite pow12_24 by lra. simpl. lra. }
  split; lra.
Qed.

(** Zero and one are fixed. *)
Theorem C38_endpoints : toLinear 0 = 0 /\ toLinear 1 = 1 /\ toSRGB 0 = 0 /\ toSRGB 1 = 1.
Proof.
  rewrite !toLinear_is, !toSRGB_is. unfold decode, encode.
  destruct (Rle_dec 0 0.04045); [|lra]. destruct (Rle_dec 1 0.04045); [lra|].
  destruct (Rle_dec 0 0.0031308); [|lra]. destruct (Rle_dec 1 0.0031308); [lra|].
  replace ((1 + 0.055) / 1.055) with 1 by lra. rewrite !Rpower_one. repeat split; lra.
Qed.

(** sRGB to linear is strictly increasing on the non-negative numbers. *)
Theorem C38_decode_monotone x y : 0 <= x < y -> toLinear x < toLinear y.
Proof.
  intros H. rewrite !toLinear_is. unfold decode.
  destruct (Rle_dec x 0.04045) as [X|X], (Rle_dec y 0.04045) as [Y|Y]; try lra.
  - pose proof decode_jump.
    assert (Rpower ((0.04045 + 0.055) / 1.055) 2.4 < Rpower ((y + 0.055) / 1.055) 2.4)
      by (apply Rpower_lt_base; lra). lra.
  - apply Rpower_lt_base; lra.
Qed.

(** Linear to sRGB is strictly increasing below and above the threshold, and decreases by less
    than 0.00000003 where the two pieces meet. *)
Theorem C38_encode_monotone_pieces x y : 0 <= x < y -> y <= 0.0031308 \/ 0.0031308 < x ->
  toSRGB x < toSRGB y.
Proof.
  intros H P. rewrite !toSRGB_is. unfold encode.
  destruct (Rle_dec x 0.0031308) as [X|X], (Rle_dec y 0.0031308) as [Y|Y]; try lra.
  assert (Rpower x (1 / 2.4) < Rpower y (1 / 2.4)) by (apply Rpower_lt_base; lra). lra.
Qed.
Theorem C38_encode_almost_monotone x y : 0 <= x < y -> toSRGB x < toSRGB y + 0.00000003.
Proof.
  intros H. rewrite !toSRGB_is. unfold encode.
  destruct (Rle_dec x 0.0031308) as [X|X], (Rle_dec y 0.0031308) as [Y|Y]; try lra.
  - pose proof encode_drop.
    assert (Rpower 0.0031308 (1 / 2.4) < Rpower y (1 / 2.4)) by (apply Rpower_lt_base; lra). lra.
  - assert (Rpower x (1 / 2.4) < Rpower y (1 / 2.4)) by (apply Rpower_lt_base; lra). lra.
Qed.

(** So it is not increasing on [0, 1]. *)
Theorem C38_encode_monotone_refuted : exists x y, 0 <= x < y /\ y <= 1 /\ toSRGB y < toSRGB x.
Proof.
  (* just above the threshold: the power is continuous, take y with y^5 below the gap *)
  exists 0.0031308, 0.00313080001. split; [lra|]. split; [lra|].
  rewrite !toSRGB_is. unfold encode.
  destruct (Rle_dec 0.0031308 0.0031308); [|lra].
  destruct (Rle_dec 0.00313080001 0.0031308); [lra|].
  assert (A : Rpower 0.00313080001 (1 / 2.4) < (0.0031308 * 12.92 + 0.055) / 1.055).
  { apply pow_lt_inv with 12%nat; [lra|]. rewrite pow12_24 by lra. simpl. lra. }
  lra.
Qed.

(** Both map [0, 1] into [0, 1]. *)
Theorem C38_unit_interval c : 0 <= c <= 1 -> 0 <= toLinear c <= 1 /\ 0 <= toSRGB c <= 1.
Proof.
  intros H. destruct C38_endpoints as (L0 & L1 & S0 & S1). split.
  - split.
    + destruct (Req_dec c 0) as [->|N]; [lra|].
      pose proof (C38_decode_monotone 0 c ltac:(lra)). lra.
    + destruct (Req_dec c 1) as [->|N]; [lra|].
      pose proof (C38_decode_monotone c 1 ltac:(lra)). lra.
  - rewrite toSRGB_is. unfold encode. destruct (Rle_dec c 0.0031308); [lra|].
    pose proof encode_drop.
    assert (Rpower 0.0031308 (1 / 2.4) < Rpower c (1 / 2.4)) by (apply Rpower_lt_base; lra).
    assert (Rpower c (1 / 2.4) <= 1).
    { destruct (Req_dec c 1) as [->|N]; [rewrite Rpower_one; lra|].
      pose proof (Rpower_lt_base c 1 (1 / 2.4) ltac:(lra) ltac:(lra)) as Q.
      rewrite Rpower_one in Q. lra. }
    lra.
Qed.

(** There and back is the identity, outside the gap between the two published thresholds. *)
Theorem C38_encode_decode c : c <= 0.040449936 \/ 0.04045 < c -> toSRGB (toLinear c) = c.
Proof.
  intros H. rewrite toSRGB_is, toLinear_is. unfold decode, encode.
  destruct (Rle_dec c 0.04045) as [X|X].
  - destruct (Rle_dec (c / 12.92) 0.0031308); [|lra]. lra.
  - set (p := Rpower ((c + 0.055) / 1.055) 2.4).
    assert (P : 0.0031308 < p).
    { pose proof decode_above. unfold p.
      assert (Rpower ((0.04045 + 0.055) / 1.055) 2.4 < Rpower ((c + 0.055) / 1.055) 2.4)
        by (apply Rpower_lt_base; lra). lra. }
    destruct (Rle_dec p 0.0031308); [lra|]. unfold p. rewrite inv_24 by lra. lra.
Qed.
Theorem C38_decode_encode c : c <= 0.0031308 \/ 0.003130808 <= c -> toLinear (toSRGB c) = c.
Proof.
  intros H. rewrite toSRGB_is, toLinear_is. unfold decode, encode.
  destruct (Rle_dec c 0.0031308) as [X|X].
  - destruct (Rle_dec (c * 12.92) 0.04045); [|lra]. lra.
  - set (p := Rpower c (1 / 2.4)).
    assert (P : (0.04045 + 0.055) / 1.055 < p).
    { unfold p. apply pow_lt_inv with 12%nat; [left; apply exp_pos|]. rewrite pow12_24 by lra.
      apply Rlt_le_trans with (0.003130808 ^ 5); [simpl; lra|].
      apply pow_incr. lra. }
    destruct (Rle_dec (1.055 * p - 0.055) 0.04045); [lra|].
    replace ((1.055 * p - 0.055 + 0.055) / 1.055) with p by (field; lra).
    unfold p. apply inv_24'. lra.
Qed.

(** Inside the gap the error is below 0.0000001. *)
Theorem C38_gap_error c : 0 <= c -> Rabs (toSRGB (toLinear c) - c) < 0.0000001.
Proof.
  intros H0. destruct (Rlt_le_dec 0.040449936 c) as [A|A].
  2: { rewrite C38_encode_decode by auto. replace (c - c) with 0 by ring. rewrite Rabs_R0. lra. }
  destruct (Rlt_le_dec 0.04045 c) as [B|B].
  { rewrite C38_encode_decode by auto. replace (c - c) with 0 by ring. rewrite Rabs_R0. lra. }
  rewrite toSRGB_is, toLinear_is. unfold decode, encode.
  destruct (Rle_dec c 0.04045); [|lra].
  destruct (Rle_dec (c / 12.92) 0.0031308); [lra|].
  assert (L : Rpower 0.0031308 (1 / 2.4) < Rpower (c / 12.92) (1 / 2.4)) by (apply Rpower_lt_base; lra).
  pose proof encode_drop.
  assert (U : Rpower (c / 12.92) (1 / 2.4) < (0.04045 + 0.055) / 1.055).
  { apply pow_lt_inv with 12%nat; [lra|]. rewrite pow12_24 by lra.
    apply Rle_lt_trans with ((0.04045 / 12.92) ^ 5); [apply pow_incr; lra|]. simpl. lra. }
  apply Rabs_def1; lra.
Qed.

(** The gap is not empty: there the round trip is not the identity. *)
Theorem C38_inverse_refuted : exists c, 0 <= c <= 1 /\ toSRGB (toLinear c) <> c.
Proof.
  exists 0.04045. split; [lra|]. rewrite toSRGB_is, toLinear_is. unfold decode, encode.
  destruct (Rle_dec 0.04045 0.04045); [|lra].
  destruct (Rle_dec (0.04045 / 12.92) 0.0031308); [lra|].
  assert (A : Rpower (0.04045 / 12.92) (1 / 2.4) < (0.04045 + 0.055) / 1.055).
  { apply pow_lt_inv with 12%nat; [lra|]. rewrite pow12_24 by lra. simpl. lra. }
  lra.
Qed.

Print Assumptions C38_decode_monotone.
Print Assumptions C38_encode_almost_monotone.
Print Assumptions C38_encode_decode.
Print Assumptions C38_decode_encode.
Print Assumptions C38_gap_error.

(** A power function that meets the contract: correctly rounded. *)

From Coq Require Import ZArith Lia Reals Lra.
From Flocq Require Import Core IEEE754.BinarySingleNaN IEEE754.Binary IEEE754.Bits.
From Verif Require Import FloatModel FloatSpec ArithModel ArithSpec DoubleProofs ImageGrayProofs
  SrgbSpec Srgb64.
Local Open Scope R_scope.

(** The [double] nearest to a real number. *)
Definition nearest_double (r : R) : double :=
  binary_normalize 53 1024 eq_refl eq_refl mode_NE
    (ZnearestE (scaled_mantissa radix2 (FLT_exp (-1074) 53) r)) (cexp radix2 (FLT_exp (-1074) 53) r) false.

Lemma nearest_double_ok r : Rabs r <= bpow radix2 900 ->
  dfinite (nearest_double r) = true /\ dreal (nearest_double r) = rnd64 r.
Proof.
  intros H. unfold nearest_double, dfinite, dreal.
  pose proof (binary_normalize_correct 53 1024 eq_refl eq_refl mode_NE
    (ZnearestE (scaled_mantissa radix2 (FLT_exp (-1074) 53) r)) (cexp radix2 (FLT_exp (-1074) 53) r) false) as C.
  assert (E : F2R (Float radix2 (ZnearestE (scaled_mantissa radix2 (FLT_exp (-1074) 53) r))
                     (cexp radix2 (FLT_exp (-1074) 53) r)) = rnd64 r) by reflexivity.
  rewrite E in C. cbn [round_mode] in C.
  change (SpecFloat.fexp 53 1024) with (FLT_exp (-1074) 53) in C.
  assert (G : generic_format radix2 (FLT_exp (-1074) 53) (rnd64 r)).
  { apply generic_format_round; [apply FLT_exp_valid; reflexivity|apply valid_rnd_N]. }
  rewrite (round_generic radix2 (FLT_exp (-1074) 53) _ _ G) in C.
  assert (B : Rabs (rnd64 r) < bpow radix2 1024).
  { pose proof (rnd64_any r) as N. pose proof eta_pos.
    assert (ET : eta <= 1) by (unfold eta; change 1 with (bpow radix2 0); apply bpow_le; lia).
    assert (Q : 1 <= bpow radix2 900) by (change 1 with (bpow radix2 0); apply bpow_le; lia).
    assert (P : Rabs (rnd64 r) <= Rabs r + (/ IZR (2 ^ 53) * Rabs r + eta)).
    { replace (rnd64 r) with (r + (rnd64 r - r)) by ring. eapply Rle_trans; [apply Rabs_triang|]. lra. }
    change (IZR (2 ^ 53)) with 9007199254740992 in P.
    apply Rle_lt_trans with (4 * bpow radix2 900); [lra|].
    change 4 with (bpow radix2 2). rewrite <- bpow_plus. apply bpow_lt. lia. }
  rewrite Rlt_bool_true in C by exact B.
  destruct C as (R1 & F1 & _). auto.
Qed.

Definition good_pow (x y : double) : double := nearest_double (Rpower (dreal x) (dreal y)).

Lemma exp_range t : Rabs t <= 390 -> bpow radix2 (-780) <= exp t <= bpow radix2 780.
Proof.
  intros H. apply Rabs_le_inv in H.
  assert (U : exp 390 <= bpow radix2 780).
  { replace 390 with (INR 390 * 1) by (rewrite INR_IZR_INZ; simpl; lra).
    rewrite <- (ln_exp 1) at 1. change (exp (INR 390 * ln (exp 1))) with (Rpower (exp 1) (INR 390)).
    rewrite Rpower_pow by apply exp_pos. pose proof exp_le_3. pose proof (exp_pos 1).
    apply Rle_trans with (4 ^ 390); [apply pow_incr; lra|].
    change 4 with (bpow radix2 2).
    assert (P : forall n, bpow radix2 2 ^ n = bpow radix2 (2 * Z.of_nat n)).
    { induction n as [|n IH]; [reflexivity|]. rewrite <- tech_pow_Rmult, IH, <- bpow_plus. f_equal. lia. }
    rewrite P. apply bpow_le. lia. }
  assert (M : forall a b, a <= b -> exp a <= exp b).
  { intros a b [L|E]; [left; apply exp_increasing, L|rewrite E; lra]. }
  split.
  - apply Rle_trans with (exp (Ropp 390)); [|apply M; lra].
    rewrite exp_Ropp. change (-780)%Z with (- (780))%Z. rewrite bpow_opp. apply Rinv_le; [apply exp_pos|exact U].
  - apply Rle_trans with (exp 390); [apply M; lra|exact U].
Qed.

Lemma good_pow_ok : pow_ok good_pow.
Proof.
  intros x y Fx Fy Bx By. unfold good_pow.
  assert (L : Rabs (dreal y * ln (dreal x)) <= 390).
  { rewrite Rabs_mult, (Rabs_pos_eq (dreal y)) by lra. pose proof (ln_range _ Bx).
    apply Rle_trans with (3 * 130); [apply Rmult_le_compat; try lra; apply Rabs_pos|lra]. }
  pose proof (exp_range _ L) as R. fold (Rpower (dreal x) (dreal y)) in R.
  set (r := Rpower (dreal x) (dreal y)) in *. clearbody r.
  pose proof (bpow_gt_0 radix2 (-780)).
  destruct (nearest_double_ok r) as [F E].
  { rewrite Rabs_pos_eq by lra. eapply Rle_trans; [apply R|]. apply bpow_le. lia. }
  split; [exact F|]. rewrite E.
  eapply Rle_trans; [apply rnd64_rel|].
  - rewrite Rabs_pos_eq by lra. eapply Rle_trans; [|apply R]. apply bpow_le. lia.
  - rewrite Rabs_pos_eq by lra. apply Rmult_le_compat_r; [lra|]. consts. lra.
Qed.

(** Correctness of the float primitives. *)

From Coq Require Import ZArith Reals Lra Lia Bool.
From Flocq Require Import Core Relative IEEE754.BinarySingleNaN IEEE754.Binary IEEE754.Bits.
From Verif Require Import FloatModel FloatSpec.
Local Open Scope R_scope.

Lemma fexp32 : SpecFloat.fexp 24 128 = FLT_exp (-149) 24.
Proof. reflexivity. Qed.

Local Instance valid32 : Valid_exp (FLT_exp (-149) 24).
Proof. apply FLT_exp_valid. reflexivity. Qed.

Lemma rnd32_le x y : x <= y -> rnd32 x <= rnd32 y.
Proof. intros; unfold rnd32; apply round_le; auto; typeclasses eauto. Qed.

Lemma int_format z : (Z.abs z <= 2 ^ 24)%Z -> generic_format radix2 (FLT_exp (-149) 24) (IZR z).
Proof.
  intros H.
  destruct (Z.eq_dec (Z.abs z) (2^24)) as [E|E].
  - apply generic_format_FLT. exists (Float radix2 (Z.sgn z * 2^23) 1).
    + unfold F2R; cbn [Fnum Fexp]. rewrite mult_IZR.
      change (bpow radix2 1) with 2.
      replace (IZR z) with (IZR (Z.sgn z * 2 ^ 24)) by (f_equal; rewrite <- E; rewrite Z.mul_comm; apply Z.abs_sgn).
      rewrite mult_IZR. change (IZR (2^24)) with 16777216. change (IZR (2^23)) with 8388608. lra.
    + cbn [Fnum]. change (radix2 ^ 24)%Z with 16777216%Z. change (2^23)%Z with 8388608%Z.
      destruct z; simpl; lia.
    + cbn; lia.
  - apply generic_format_FLT. exists (Float radix2 z 0).
    + unfold F2R; cbn [Fnum Fexp]. change (bpow radix2 0) with 1. lra.
    + cbn [Fnum]. change (radix2 ^ 24)%Z with (2^24)%Z. lia.
    + cbn; lia.
Qed.

Lemma rnd32_int z : (Z.abs z <= 2 ^ 24)%Z -> rnd32 (IZR z) = IZR z.
Proof. intros; unfold rnd32; apply round_generic; [typeclasses eauto|apply int_format; auto]. Qed.

Lemma bpow128 : bpow radix2 128 = IZR (2 ^ 128).
Proof. reflexivity. Qed.

Lemma float_of_Z_exact z : generic_format radix2 (FLT_exp (-149) 24) (IZR z) -> (Z.abs z < 2 ^ 128)%Z ->
  real (float_of_Z z) = IZR z /\ finite (float_of_Z z) = true.
Proof.
  intros G H; unfold real, finite, float_of_Z.
  pose proof (binary_normalize_correct 24 128 eq_refl eq_refl mode_NE z 0 false) as C.
  rewrite fexp32 in C. cbn [round_mode] in C.
  assert (E : F2R (Float radix2 z 0) = IZR z).
  { unfold F2R; cbn [Fnum Fexp]; change (bpow radix2 0) with 1; lra. }
  rewrite E in C.
  rewrite (round_generic radix2 (FLT_exp (-149) 24) ZnearestE (IZR z) G) in C.
  rewrite Rlt_bool_true in C.
  - tauto.
  - rewrite <- abs_IZR, bpow128. apply IZR_lt. exact H.
Qed.

Lemma float_of_Z_ok z : (Z.abs z <= 2 ^ 24)%Z ->
  real (float_of_Z z) = IZR z /\ finite (float_of_Z z) = true.
Proof. intros H; apply float_of_Z_exact; [apply int_format; auto|lia]. Qed.

(** Comparison. *)
Lemma fltb_finite x y : finite x = true -> finite y = true ->
  fltb x y = Rlt_bool (real x) (real y).
Proof.
  intros; unfold fltb, b32_compare, real.
  rewrite Bcompare_correct by assumption.
  unfold Rlt_bool. destruct (Rcompare _ _); reflexivity.
Qed.

Lemma fltb_inf_r s x : finite x = true -> fltb x (B754_infinity 24 128 s) = negb s.
Proof. destruct x; try discriminate; destruct s; reflexivity. Qed.
Lemma fltb_inf_l s x : finite x = true -> fltb (B754_infinity 24 128 s) x = s.
Proof. destruct x; try discriminate; destruct s; reflexivity. Qed.

Lemma clampf_ok v lo hi : nan v = false -> finite lo = true -> finite hi = true ->
  real lo <= real hi ->
  finite (clampf v lo hi) = true /\ real (clampf v lo hi) = limit (real lo) (real hi) v.
Proof.
  intros Nv Fl Fh L; unfold clampf.
  destruct (finite v) eqn:Fv.
  - rewrite !fltb_finite by assumption.
    assert (E : limit (real lo) (real hi) v = Rmax (real lo) (Rmin (real hi) (real v)))
      by (destruct v; try discriminate; reflexivity).
    rewrite E; clear E.
    destruct (Rlt_bool_spec (real v) (real lo)).
    + split; auto. rewrite Rmin_right by lra. rewrite Rmax_left by lra. reflexivity.
    + destruct (Rlt_bool_spec (real hi) (real v)).
      * split; auto. rewrite Rmin_left by lra. rewrite Rmax_right by lra. reflexivity.
      * split; auto. rewrite Rmin_right by lra. rewrite Rmax_right by lra. reflexivity.
  - destruct v as [|s| |]; try discriminate.
    rewrite fltb_inf_l, fltb_inf_r by assumption.
    destruct s; simpl; auto.
Qed.

Lemma clampf_nan v lo hi : nan v = true -> clampf v lo hi = v.
Proof.
  intros; destruct v; try discriminate.
  unfold clampf, fltb, b32_compare. destruct lo, hi; reflexivity.
Qed.

Lemma limit_range lo hi v : lo <= hi -> lo <= limit lo hi v <= hi.
Proof.
  intros H. assert (lo <= Rmax lo (Rmin hi (real v)) <= hi).
  { split; [apply Rmax_l|apply Rmax_lub; [auto|apply Rmin_l]]. }
  destruct v as [|s| |]; cbn [limit]; auto. destruct s; lra.
Qed.

(** Multiplication of small numbers does not overflow. *)
Lemma fmul_ok x y : finite x = true -> finite y = true -> Rabs (real x * real y) <= IZR (2 ^ 24) ->
  finite (fmul x y) = true /\ real (fmul x y) = rnd32 (real x * real y).
Proof.
  intros Fx Fy H; unfold fmul, b32_mult.
  match goal with |- context [Bmult 24 128 ?a ?b ?n mode_NE x y] =>
    pose proof (Bmult_correct 24 128 a b n mode_NE x y) as C end.
  rewrite fexp32 in C. cbn [round_mode] in C.
  change (round radix2 (FLT_exp (-149) 24) ZnearestE (B2R 24 128 x * B2R 24 128 y)) with
         (rnd32 (real x * real y)) in C.
  rewrite Rlt_bool_true in C.
  - destruct C as (C1 & C2 & _).
    unfold finite in *; rewrite C2, Fx, Fy; split; [reflexivity|exact C1].
  - apply Rle_lt_trans with (IZR (2^24)).
    + unfold rnd32. rewrite <- round_NE_abs by typeclasses eauto.
      change (round radix2 (FLT_exp (-149) 24) ZnearestE (Rabs (real x * real y)))
        with (rnd32 (Rabs (real x * real y))).
      rewrite <- (rnd32_int (2^24)) by (vm_compute; discriminate).
      apply rnd32_le; exact H.
    + rewrite bpow128; apply IZR_lt; reflexivity.
Qed.

Lemma fmul_nan x y : nan x = true -> nan (fmul x y) = true.
Proof. destruct x; try discriminate; destruct y; reflexivity. Qed.

(** [roundZ] is the nearest integer, ties away from zero. *)
Lemma nearest_nonneg x : 0 <= x -> nearest x = Zfloor (x + / 2).
Proof.
  intros Hx; unfold nearest.
  assert (F : (0 <= Zfloor x)%Z) by (apply Zfloor_lub; simpl; lra).
  pose proof (Zfloor_lb x); pose proof (Zfloor_ub x).
  assert (Ch : Zfloor x <> Zceil x -> (Zceil x = Zfloor x + 1)%Z).
  { intros N. apply Zceil_floor_neq. intros E. apply N.
    rewrite <- E, Zceil_IZR. rewrite Zfloor_IZR. reflexivity. }
  unfold Znearest.
  replace (0 <=? Zfloor x)%Z with true by (symmetry; apply Z.leb_le; auto).
  destruct (Rcompare_spec (x - IZR (Zfloor x)) (/ 2)).
  - symmetry; apply Zfloor_imp. rewrite plus_IZR. lra.
  - assert (Zfloor x <> Zceil x).
    { intros E. pose proof (Zceil_ub x). rewrite <- E in *. lra. }
    rewrite Ch by auto. symmetry; apply Zfloor_imp. rewrite !plus_IZR. lra.
  - assert (Zfloor x <> Zceil x).
    { intros E. pose proof (Zceil_ub x). rewrite <- E in *. lra. }
    rewrite Ch by auto. symmetry; apply Zfloor_imp. rewrite !plus_IZR. lra.
Qed.

Lemma nearest_opp x : nearest (- x) = (- nearest x)%Z.
Proof.
  unfold nearest. rewrite Znearest_opp. f_equal.
  unfold Znearest. destruct (Rcompare_spec (x - IZR (Zfloor x)) (/ 2)); auto.
  replace (negb (0 <=? - (Zfloor x + 1))%Z) with (0 <=? Zfloor x)%Z; auto.
  destruct (Z.leb_spec 0 (Zfloor x)), (Z.leb_spec 0 (- (Zfloor x + 1))); simpl; auto; lia.
Qed.

Lemma nearest_le x y : x <= y -> (nearest x <= nearest y)%Z.
Proof. intros; unfold nearest; apply Zrnd_le; auto. typeclasses eauto. Qed.

Lemma nearest_int z : nearest (IZR z) = z.
Proof. unfold nearest; apply Zrnd_IZR. typeclasses eauto. Qed.

Lemma roundZ_ok x : finite x = true -> roundZ x = Some (nearest (real x)).
Proof.
  intros F; destruct x as [s| | |s m e B]; try discriminate.
  - simpl. f_equal. unfold real; simpl. symmetry; apply (nearest_int 0).
  - assert (P : (match e with
               | Zneg p => (2 * Zpos m + 2 ^ Zpos p) / (2 * 2 ^ Zpos p)
               | _ => Zpos m * 2 ^ e
               end)%Z = nearest (IZR (Zpos m) * bpow radix2 e)).
    { destruct e as [|p|p].
      - change (bpow radix2 0) with 1. rewrite Rmult_1_r, nearest_int. lia.
      - rewrite <- IZR_Zpower by lia. rewrite <- mult_IZR, nearest_int. reflexivity.
      - set (d := (2 ^ Zpos p)%Z).
        assert (D : (0 < d)%Z) by (apply Z.pow_pos_nonneg; lia).
        assert (Db : bpow radix2 (Zneg p) = / IZR d).
        { change (Zneg p) with (- Zpos p)%Z. rewrite bpow_opp, <- IZR_Zpower by lia. reflexivity. }
        rewrite Db.
        assert (Dr : 0 < IZR d) by (apply IZR_lt; auto).
        rewrite nearest_nonneg.
        + symmetry.
          replace (IZR (Zpos m) * / IZR d + / 2) with (IZR (2 * Zpos m + d) / IZR (2 * d)).
          * apply Zfloor_div. lia.
          * rewrite plus_IZR, !mult_IZR. field. lra.
        + apply Rmult_le_pos; [apply IZR_le; lia|]. left; apply Rinv_0_lt_compat; auto. }
    unfold roundZ. cbv zeta. rewrite P.
    unfold real, B2R. unfold F2R; cbn [Fnum Fexp].
    destruct s; cbn [SpecFloat.cond_Zopp].
    + rewrite opp_IZR, Ropp_mult_distr_l_reverse, nearest_opp. reflexivity.
    + reflexivity.
Qed.

Lemma roundZ_nan x : nan x = true -> roundZ x = None.
Proof. destruct x; try discriminate; reflexivity. Qed.

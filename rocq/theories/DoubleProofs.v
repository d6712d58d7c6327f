(** Correctness of the double precision primitives. *)

From Coq Require Import ZArith Reals Lra Lia Bool.
From Flocq Require Import Core Relative IEEE754.BinarySingleNaN IEEE754.Binary IEEE754.Bits.
From Verif Require Import FloatModel FloatSpec FloatProofs ArithModel ArithSpec.
Local Open Scope R_scope.

Lemma fexp64 : SpecFloat.fexp 53 1024 = FLT_exp (-1074) 53.
Proof. reflexivity. Qed.

Global Instance valid64 : Valid_exp (FLT_exp (-1074) 53).
Proof. apply FLT_exp_valid. reflexivity. Qed.
Global Instance mono64 : Monotone_exp (FLT_exp (-1074) 53).
Proof. apply FLT_exp_monotone. Qed.

Lemma rnd64_le x y : x <= y -> rnd64 x <= rnd64 y.
Proof. intros; unfold rnd64; apply round_le; auto; typeclasses eauto. Qed.

Lemma rnd64_format x : generic_format radix2 (FLT_exp (-1074) 53) x -> rnd64 x = x.
Proof. intros; unfold rnd64; apply round_generic; auto; typeclasses eauto. Qed.

(** m * 2^e with a 53-bit m and an exponent in range is a double. *)
Lemma float_format m e : (Z.abs m <= 2 ^ 53)%Z -> (-1074 <= e <= 900)%Z ->
  generic_format radix2 (FLT_exp (-1074) 53) (IZR m * bpow radix2 e).
Proof.
  intros H He.
  destruct (Z.eq_dec (Z.abs m) (2^53)) as [E|E].
  - apply generic_format_FLT. exists (Float radix2 (Z.sgn m * 2^52) (e + 1)).
    + unfold F2R; cbn [Fnum Fexp]. rewrite bpow_plus. change (bpow radix2 1) with 2.
      replace (IZR m) with (IZR (Z.sgn m * 2 ^ 53))
        by (f_equal; rewrite <- E; rewrite Z.mul_comm; apply Z.abs_sgn).
      rewrite !mult_IZR. change (IZR (2^53)) with 9007199254740992.
      change (IZR (2^52)) with 4503599627370496. lra.
    + cbn [Fnum]. change (radix2 ^ 53)%Z with 9007199254740992%Z.
      change (2^52)%Z with 4503599627370496%Z. destruct m; simpl; lia.
    + cbn [Fexp]; lia.
  - apply generic_format_FLT. exists (Float radix2 m e).
    + reflexivity.
    + cbn [Fnum]. change (radix2 ^ 53)%Z with (2^53)%Z. lia.
    + cbn; lia.
Qed.

Lemma int_format64 z : (Z.abs z <= 2 ^ 53)%Z ->
  generic_format radix2 (FLT_exp (-1074) 53) (IZR z).
Proof.
  intros H. replace (IZR z) with (IZR z * bpow radix2 0) by (simpl; lra).
  apply float_format; auto; lia.
Qed.

Lemma rnd64_int z : (Z.abs z <= 2 ^ 53)%Z -> rnd64 (IZR z) = IZR z.
Proof. intros; apply rnd64_format, int_format64; auto. Qed.

Lemma rnd64_bpow e : (-1074 <= e <= 900)%Z -> rnd64 (bpow radix2 e) = bpow radix2 e.
Proof.
  intros. apply rnd64_format. replace (bpow radix2 e) with (IZR 1 * bpow radix2 e) by lra.
  apply float_format; auto. simpl; lia.
Qed.

Lemma rnd64_abs x : rnd64 (Rabs x) = Rabs (rnd64 x).
Proof. unfold rnd64. apply round_NE_abs. typeclasses eauto. Qed.

Lemma rnd64_opp x : rnd64 (- x) = - rnd64 x.
Proof. unfold rnd64. apply round_NE_opp. Qed.

Lemma rnd64_0 : rnd64 0 = 0.
Proof. apply (rnd64_int 0). simpl; lia. Qed.

(** Rounding keeps a bound that is a power of two. *)
Lemma rnd64_bound x e : (-1074 <= e <= 900)%Z -> Rabs x <= bpow radix2 e ->
  Rabs (rnd64 x) <= bpow radix2 e.
Proof. intros He H. rewrite <- rnd64_abs, <- (rnd64_bpow e He). apply rnd64_le; auto. Qed.

(** Absolute error for results bounded by a power of two. *)
Lemma rnd64_err x e : (-1021 <= e <= 900)%Z -> Rabs x <= bpow radix2 e ->
  Rabs (rnd64 x - x) <= bpow radix2 (e - 53).
Proof.
  intros He H.
  eapply Rle_trans; [apply (error_le_half_ulp radix2 (FLT_exp (-1074) 53))|].
  apply Rle_trans with (/ 2 * ulp radix2 (FLT_exp (-1074) 53) (bpow radix2 e)).
  - apply Rmult_le_compat_l; [lra|]. rewrite <- ulp_abs. 
    apply ulp_le_pos; auto; try typeclasses eauto; apply Rabs_pos.
  - rewrite ulp_bpow. unfold FLT_exp. rewrite Z.max_l by lia.
    replace (e + 1 - 53)%Z with (e - 53 + 1)%Z by lia. rewrite bpow_plus.
    change (bpow radix2 1) with 2. lra.
Qed.

Lemma bpow_le_1024 e : (e <= 900)%Z -> bpow radix2 e < bpow radix2 1024.
Proof. intros; apply bpow_lt; lia. Qed.

Lemma double_of_Z_ok z : (Z.abs z <= 2 ^ 53)%Z ->
  dreal (double_of_Z z) = IZR z /\ dfinite (double_of_Z z) = true.
Proof.
  intros H; unfold dreal, dfinite, double_of_Z.
  pose proof (binary_normalize_correct 53 1024 eq_refl eq_refl mode_NE z 0 false) as C.
  rewrite fexp64 in C. cbn [round_mode] in C.
  assert (E : F2R (Float radix2 z 0) = IZR z).
  { unfold F2R; cbn [Fnum Fexp]; change (bpow radix2 0) with 1; lra. }
  rewrite E in C.
  rewrite (round_generic radix2 (FLT_exp (-1074) 53) ZnearestE (IZR z) (int_format64 z H)) in C.
  rewrite Rlt_bool_true in C.
  - tauto.
  - apply Rle_lt_trans with (bpow radix2 53); [|apply bpow_lt; lia].
    rewrite <- abs_IZR. change (bpow radix2 53) with (IZR (2^53)). apply IZR_le; auto.
Qed.

(** Comparison. *)
Lemma dltb_ok x y : dfinite x = true -> dfinite y = true ->
  dltb x y = Rlt_bool (dreal x) (dreal y).
Proof.
  intros; unfold dltb, b64_compare, dreal.
  rewrite Bcompare_correct by assumption.
  unfold Rlt_bool. destruct (Rcompare _ _); reflexivity.
Qed.

Lemma dleb_ok x y : dfinite x = true -> dfinite y = true ->
  dleb x y = Rle_bool (dreal x) (dreal y).
Proof.
  intros; unfold dleb, b64_compare, dreal.
  rewrite Bcompare_correct by assumption.
  unfold Rle_bool. destruct (Rcompare _ _); reflexivity.
Qed.

(** The four operations and square root, when the exact result is not huge. *)
Lemma dadd_ok x y : dfinite x = true -> dfinite y = true ->
  Rabs (dreal x + dreal y) <= bpow radix2 900 ->
  dfinite (b64_plus mode_NE x y) = true /\
  dreal (b64_plus mode_NE x y) = rnd64 (dreal x + dreal y).
Proof.
  intros Fx Fy H; unfold b64_plus.
  match goal with |- context [Bplus 53 1024 ?a ?b ?n mode_NE x y] =>
    pose proof (Bplus_correct 53 1024 a b n mode_NE x y Fx Fy) as C end.
  rewrite fexp64 in C. cbn [round_mode] in C.
  change (round radix2 (FLT_exp (-1074) 53) ZnearestE (B2R 53 1024 x + B2R 53 1024 y)) with
         (rnd64 (dreal x + dreal y)) in C.
  rewrite Rlt_bool_true in C; [split; apply C|].
  eapply Rle_lt_trans; [apply rnd64_bound with (e := 900%Z); [lia|exact H]|apply bpow_le_1024; lia].
Qed.

Lemma dsub_ok x y : dfinite x = true -> dfinite y = true ->
  Rabs (dreal x - dreal y) <= bpow radix2 900 ->
  dfinite (b64_minus mode_NE x y) = true /\
  dreal (b64_minus mode_NE x y) = rnd64 (dreal x - dreal y).
Proof.
  intros Fx Fy H; unfold b64_minus.
  match goal with |- context [Bminus 53 1024 ?a ?b ?n mode_NE x y] =>
    pose proof (Bminus_correct 53 1024 a b n mode_NE x y Fx Fy) as C end.
  rewrite fexp64 in C. cbn [round_mode] in C.
  change (round radix2 (FLT_exp (-1074) 53) ZnearestE (B2R 53 1024 x - B2R 53 1024 y)) with
         (rnd64 (dreal x - dreal y)) in C.
  rewrite Rlt_bool_true in C; [split; apply C|].
  eapply Rle_lt_trans; [apply rnd64_bound with (e := 900%Z); [lia|exact H]|apply bpow_le_1024; lia].
Qed.

Lemma dmul_ok x y : dfinite x = true -> dfinite y = true ->
  Rabs (dreal x * dreal y) <= bpow radix2 900 ->
  dfinite (b64_mult mode_NE x y) = true /\
  dreal (b64_mult mode_NE x y) = rnd64 (dreal x * dreal y).
Proof.
  intros Fx Fy H; unfold b64_mult.
  match goal with |- context [Bmult 53 1024 ?a ?b ?n mode_NE x y] =>
    pose proof (Bmult_correct 53 1024 a b n mode_NE x y) as C end.
  rewrite fexp64 in C. cbn [round_mode] in C.
  change (round radix2 (FLT_exp (-1074) 53) ZnearestE (B2R 53 1024 x * B2R 53 1024 y)) with
         (rnd64 (dreal x * dreal y)) in C.
  rewrite Rlt_bool_true in C.
  - destruct C as (C1 & C2 & _). unfold dfinite in *; rewrite C2, Fx, Fy; split; auto.
  - eapply Rle_lt_trans; [apply rnd64_bound with (e := 900%Z); [lia|exact H]|apply bpow_le_1024; lia].
Qed.

Lemma ddiv_ok x y : dfinite x = true -> dreal y <> 0 ->
  Rabs (dreal x / dreal y) <= bpow radix2 900 ->
  dfinite (b64_div mode_NE x y) = true /\
  dreal (b64_div mode_NE x y) = rnd64 (dreal x / dreal y).
Proof.
  intros Fx Hy H; unfold b64_div.
  match goal with |- context [Bdiv 53 1024 ?a ?b ?n mode_NE x y] =>
    pose proof (Bdiv_correct 53 1024 a b n mode_NE x y Hy) as C end.
  rewrite fexp64 in C. cbn [round_mode] in C.
  change (round radix2 (FLT_exp (-1074) 53) ZnearestE (B2R 53 1024 x / B2R 53 1024 y)) with
         (rnd64 (dreal x / dreal y)) in C.
  rewrite Rlt_bool_true in C.
  - destruct C as (C1 & C2 & _). unfold dfinite in *; rewrite C2, Fx; split; auto.
  - eapply Rle_lt_trans; [apply rnd64_bound with (e := 900%Z); [lia|exact H]|apply bpow_le_1024; lia].
Qed.

Lemma dabs_ok x : dfinite x = true -> dfinite (b64_abs x) = true /\ dreal (b64_abs x) = Rabs (dreal x).
Proof.
  intros F. unfold b64_abs, dreal, dfinite in *. rewrite is_finite_Babs, B2R_Babs. auto.
Qed.

Lemma dsqrt_ok x : dfinite x = true -> 0 <= dreal x ->
  dfinite (b64_sqrt mode_NE x) = true /\
  dreal (b64_sqrt mode_NE x) = rnd64 (sqrt (dreal x)).
Proof.
  intros Fx H; unfold b64_sqrt.
  match goal with |- context [Bsqrt 53 1024 ?a ?b ?n mode_NE x] =>
    pose proof (Bsqrt_correct 53 1024 a b n mode_NE x) as C end.
  rewrite fexp64 in C. cbn [round_mode] in C. destruct C as (C1 & C2 & _).
  split; [|exact C1]. unfold dfinite; rewrite C2.
  destruct x as [s|s|s pl e|s m e B]; try discriminate; auto.
  destruct s; auto. exfalso. unfold dreal, B2R in H.
  assert (F2R (Float radix2 (SpecFloat.cond_Zopp true (Zpos m)) e) < 0).
  { apply F2R_lt_0. simpl. reflexivity. }
  lra.
Qed.

(** The integer conversions. *)
Lemma dround_ok x : dfinite x = true -> dround x = Some (nearest (dreal x)).
Proof.
  intros F; destruct x as [s| | |s m e B]; try discriminate.
  - simpl. f_equal. unfold dreal; simpl. symmetry; apply (nearest_int 0).
  - assert (P : (match e with
               | Zneg p => (2 * Zpos m + 2 ^ Zpos p) / (2 * 2 ^ Zpos p)
               | _ => Zpos m * 2 ^ e
               end)%Z = nearest (IZR (Zpos m) * bpow radix2 e)).
    { destruct e as [|p|p].
      - change (bpow radix2 0) with 1. rewrite Rmult_1_r, nearest_int. lia.
      - rewrite <- IZR_Zpower by lia. rewrite <- mult_IZR, nearest_int. reflexivity.
      - set (d := (2 ^ Zpos p)%Z).
        assert (D : (0 < d)%Z) by (apply Z.pow_pos_nonneg; lia).
        assert (Db : bpow radix2 (Zneg p) = / IZR d).
        { change (Zneg p) with (- Zpos p)%Z. rewrite bpow_opp, <- IZR_Zpower by lia. reflexivity. }
        rewrite Db.
        assert (Dr : 0 < IZR d) by (apply IZR_lt; auto).
        rewrite nearest_nonneg.
        + symmetry.
          replace (IZR (Zpos m) * / IZR d + / 2) with (IZR (2 * Zpos m + d) / IZR (2 * d)).
          * apply Zfloor_div. lia.
          * rewrite plus_IZR, !mult_IZR. field. lra.
        + apply Rmult_le_pos; [apply IZR_le; lia|]. left; apply Rinv_0_lt_compat; auto. }
    unfold dround. cbv zeta. rewrite P.
    unfold dreal, B2R. unfold F2R; cbn [Fnum Fexp].
    destruct s; cbn [SpecFloat.cond_Zopp].
    + rewrite opp_IZR, Ropp_mult_distr_l_reverse, nearest_opp. reflexivity.
    + reflexivity.
Qed.

Lemma dtrunc_ok x : dfinite x = true -> dtrunc x = Some (Ztrunc (dreal x)).
Proof.
  intros F; destruct x as [s| | |s m e B]; try discriminate.
  - simpl. f_equal. unfold dreal; simpl. symmetry; apply (Ztrunc_IZR 0).
  - assert (P : (match e with
               | Zneg p => Zpos m / 2 ^ Zpos p
               | _ => Zpos m * 2 ^ e
               end)%Z = Ztrunc (IZR (Zpos m) * bpow radix2 e)).
    { destruct e as [|p|p].
      - change (bpow radix2 0) with 1. rewrite Rmult_1_r, Ztrunc_IZR. lia.
      - rewrite <- IZR_Zpower by lia. rewrite <- mult_IZR, Ztrunc_IZR. reflexivity.
      - set (d := (2 ^ Zpos p)%Z).
        assert (D : (0 < d)%Z) by (apply Z.pow_pos_nonneg; lia).
        assert (Db : bpow radix2 (Zneg p) = / IZR d).
        { change (Zneg p) with (- Zpos p)%Z. rewrite bpow_opp, <- IZR_Zpower by lia. reflexivity. }
        rewrite Db.
        assert (Dr : 0 < IZR d) by (apply IZR_lt; auto).
        rewrite Ztrunc_floor.
        + symmetry. apply Zfloor_div. lia.
        + apply Rmult_le_pos; [apply IZR_le; lia|]. left; apply Rinv_0_lt_compat; auto. }
    unfold dtrunc. cbv zeta. rewrite P.
    unfold dreal, B2R. unfold F2R; cbn [Fnum Fexp].
    destruct s; cbn [SpecFloat.cond_Zopp].
    + rewrite opp_IZR, Ropp_mult_distr_l_reverse, Ztrunc_opp. reflexivity.
    + reflexivity.
Qed.

(** [float] to [double] is exact, and back it is the identity. *)
Lemma format_32_64 x : generic_format radix2 (FLT_exp (-149) 24) x ->
  generic_format radix2 (FLT_exp (-1074) 53) x.
Proof.
  intros G. apply FLT_format_generic in G; [|reflexivity]. destruct G as [f E Hm He].
  apply generic_format_FLT. exists f; auto.
  - eapply Z.lt_trans; [exact Hm|]. change (radix2 ^ 24)%Z with 16777216%Z.
    change (radix2 ^ 53)%Z with 9007199254740992%Z. lia.
  - lia.
Qed.

Lemma real_format x : generic_format radix2 (FLT_exp (-149) 24) (real x).
Proof. unfold real. rewrite <- fexp32. apply generic_format_B2R. Qed.
Lemma dreal_format x : generic_format radix2 (FLT_exp (-1074) 53) (dreal x).
Proof. unfold dreal. rewrite <- fexp64. apply generic_format_B2R. Qed.

Lemma rnd64_dreal x : rnd64 (dreal x) = dreal x.
Proof. apply rnd64_format, dreal_format. Qed.

Lemma dwiden_sign s m e B : finite (B754_finite 24 128 s m e B) = true ->
  let x := B754_finite 24 128 s m e B in
  dfinite (dwiden x) = true /\ dreal (dwiden x) = real x /\
  Bsign 53 1024 (dwiden x) = s.
Proof.
  intros F x. unfold dwiden, x.
  pose proof (binary_normalize_correct 53 1024 eq_refl eq_refl mode_NE
    (SpecFloat.cond_Zopp s (Zpos m)) e s) as C.
  rewrite fexp64 in C. cbn [round_mode] in C.
  assert (E : F2R (Float radix2 (SpecFloat.cond_Zopp s (Zpos m)) e) = real x) by reflexivity.
  rewrite E in C.
  rewrite (round_generic radix2 (FLT_exp (-1074) 53) ZnearestE (real x)
    (format_32_64 _ (real_format x))) in C.
  rewrite Rlt_bool_true in C.
  - destruct C as (C1 & C2 & C3). split; [exact C2|]. split; [exact C1|]. rewrite C3.
    unfold real, x, B2R. destruct s.
    + rewrite Rcompare_Lt; auto. apply F2R_lt_0. reflexivity.
    + rewrite Rcompare_Gt; auto. apply F2R_gt_0. reflexivity.
  - eapply Rlt_trans; [apply abs_B2R_lt_emax|]. apply bpow_lt. lia.
Qed.

Lemma dwiden_ok x : finite x = true -> dfinite (dwiden x) = true /\ dreal (dwiden x) = real x.
Proof.
  intros F. destruct x as [s|s|s pl B|s m e B]; try discriminate.
  - split; reflexivity.
  - destruct (dwiden_sign s m e B F) as (? & ? & _). auto.
Qed.

Lemma dnarrow_ok x : dfinite x = true -> Rabs (rnd32 (dreal x)) < bpow radix2 128 ->
  finite (dnarrow x) = true /\ real (dnarrow x) = rnd32 (dreal x).
Proof.
  intros F H. destruct x as [s|s|s pl B|s m e B]; try discriminate.
  - split; [reflexivity|]. unfold dreal, real; simpl. symmetry. apply (rnd32_int 0). simpl; lia.
  - unfold dnarrow.
    pose proof (binary_normalize_correct 24 128 eq_refl eq_refl mode_NE
      (SpecFloat.cond_Zopp s (Zpos m)) e s) as C.
    rewrite fexp32 in C. cbn [round_mode] in C.
    set (x := B754_finite 53 1024 s m e B) in *.
    assert (E : F2R (Float radix2 (SpecFloat.cond_Zopp s (Zpos m)) e) = dreal x) by reflexivity.
    rewrite E in C.
    change (round radix2 (FLT_exp (-149) 24) ZnearestE (dreal x)) with (rnd32 (dreal x)) in C.
    rewrite Rlt_bool_true in C by exact H. tauto.
Qed.

Lemma rnd32_real x : rnd32 (real x) = real x.
Proof. unfold rnd32. apply round_generic; [typeclasses eauto|apply real_format]. Qed.

Lemma narrow_widen x : nan x = false -> dnarrow (dwiden x) = x.
Proof.
  intros N. destruct x as [s|s|s pl B|s m e B]; try discriminate; try reflexivity.
  destruct (dwiden_sign s m e B eq_refl) as (F & R & S).
  set (x := B754_finite 24 128 s m e B) in *.
  destruct (dwiden x) as [s'|s'|s' pl' B'|s' m' e' B'] eqn:D; try discriminate.
  - exfalso. assert (real x <> 0).
    { unfold real, x, B2R. destruct s.
      - apply Rlt_not_eq. apply F2R_lt_0. reflexivity.
      - apply Rgt_not_eq. apply F2R_gt_0. reflexivity. }
    apply H. rewrite <- R. reflexivity.
  - assert (S' : s' = s) by exact S. subst s'. clear S.
    rewrite <- D in *.
    assert (L : Rabs (rnd32 (dreal (dwiden x))) < bpow radix2 128).
    { rewrite R, rnd32_real. apply abs_B2R_lt_emax. }
    pose proof (dnarrow_ok (dwiden x) F L) as [F2 R2].
    assert (SG : Bsign 24 128 (dnarrow (dwiden x)) = s).
    { rewrite D. unfold dnarrow.
      pose proof (binary_normalize_correct 24 128 eq_refl eq_refl mode_NE
        (SpecFloat.cond_Zopp s (Zpos m')) e' s) as C.
      rewrite fexp32 in C. cbn [round_mode] in C.
      assert (E : F2R (Float radix2 (SpecFloat.cond_Zopp s (Zpos m')) e')
                  = dreal (dwiden x)) by (rewrite D; reflexivity).
      rewrite E in C.
      change (round radix2 (FLT_exp (-149) 24) ZnearestE (dreal (dwiden x)))
        with (rnd32 (dreal (dwiden x))) in C.
      rewrite Rlt_bool_true in C by exact L. destruct C as (_ & _ & C). rewrite C.
      rewrite R. unfold real, x, B2R. destruct s.
      - rewrite Rcompare_Lt; auto. apply F2R_lt_0. reflexivity.
      - rewrite Rcompare_Gt; auto. apply F2R_gt_0. reflexivity. }
    apply B2R_Bsign_inj; auto.
    change (real (dnarrow (dwiden x)) = real x).
    rewrite R2, R, rnd32_real. reflexivity.
Qed.

Lemma narrow_widen_nan x : nan x = true -> nan (dnarrow (dwiden x)) = true.
Proof. destruct x; try discriminate. reflexivity. Qed.

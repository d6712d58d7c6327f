(** The sRGB transfer functions in binary64. *)

From Coq Require Import ZArith NArith Lia Reals Lra Psatz.
From Flocq Require Import Core Relative IEEE754.BinarySingleNaN IEEE754.Binary IEEE754.Bits.
From Verif Require Import FloatModel FloatSpec FloatProofs ArithModel ArithSpec DoubleProofs
  ImageModel ImageGrayProofs PropsSrgb SrgbSpec.
Local Open Scope R_scope.

(** ** Powers of nearby numbers *)

Lemma ln_small e : Rabs e <= / 4 -> Rabs (ln (1 + e)) <= 2 * Rabs e.
Proof.
  intros H. apply Rabs_le_inv in H.
  assert (U : ln (1 + e) <= e).
  { destruct (Req_dec e 0) as [->|N]; [rewrite Rplus_0_r, ln_1; lra|].
    pose proof (exp_ineq1 e N). rewrite <- (ln_exp e) at 2.
    destruct (Rle_lt_or_eq_dec (1 + e) (exp e)) as [L|L]; [lra| |lra].
    left. apply ln_increasing; lra. }
  assert (D : - (e / (1 + e)) <= 0 \/ True) by auto. clear D.
  assert (V : e / (1 + e) <= ln (1 + e)).
  { assert (I : ln (/ (1 + e)) <= / (1 + e) - 1).
    { destruct (Req_dec (/ (1 + e) - 1) 0) as [Z|N].
      - replace (/ (1 + e)) with 1 by lra. rewrite ln_1. lra.
      - pose proof (exp_ineq1 (/ (1 + e) - 1) N) as X.
        assert (0 < / (1 + e)) by (apply Rinv_0_lt_compat; lra).
        rewrite <- (ln_exp (/ (1 + e) - 1)). left. apply ln_increasing; lra. }
    rewrite ln_Rinv in I by lra.
    replace (e / (1 + e)) with (1 - / (1 + e)) by (field; lra). lra. }
  assert (W : - (2 * Rabs e) <= e / (1 + e)).
  { unfold Rabs. destruct (Rcase_abs e).
    - apply Rmult_le_reg_r with (1 + e); [lra|]. unfold Rdiv. rewrite Rmult_assoc, Rinv_l by lra. nra.
    - apply Rle_trans with 0; [lra|]. apply Rmult_le_pos; [lra|]. left. apply Rinv_0_lt_compat. lra. }
  apply Rabs_le. split; [lra|]. pose proof (Rle_abs e). pose proof (Rabs_pos e). lra.
Qed.

Lemma exp_small t : Rabs t <= / 2 -> Rabs (exp t - 1) <= 2 * Rabs t.
Proof.
  intros H. apply Rabs_le_inv in H.
  assert (L : forall s, 1 + s <= exp s).
  { intros s. destruct (Req_dec s 0) as [->|N]; [rewrite exp_0; lra|]. left. apply exp_ineq1; auto. }
  pose proof (L t) as L1. pose proof (L (- t)) as L2. pose proof (exp_pos t) as P.
  rewrite exp_Ropp in L2.
  assert (U : (1 - t) * exp t <= 1).
  { apply Rmult_le_reg_r with (/ exp t); [apply Rinv_0_lt_compat; lra|].
    rewrite Rmult_assoc, Rinv_r by lra. lra. }
  pose proof (Rle_abs t). pose proof (Rle_abs (- t)) as A2. rewrite Rabs_Ropp in A2.
  apply Rabs_le. split; [lra|]. nra.
Qed.

Lemma Rpower_near x x' p p' e d M : 0 < x -> 0 < x' -> 0 <= p' <= 3 ->
  Rabs (x' - x) <= e * x -> 0 <= e <= / 4 -> Rabs (p' - p) <= d -> Rabs (ln x) <= M ->
  6 * e + d * M <= / 2 ->
  Rabs (Rpower x' p' - Rpower x p) <= 2 * (6 * e + d * M) * Rpower x p.
Proof.
  intros Hx Hx' Hp' Ex He Ep Hl Hs.
  set (t := p' * ln x' - p * ln x).
  assert (T : Rabs t <= 6 * e + d * M).
  { unfold t. replace (p' * ln x' - p * ln x) with (p' * (ln x' - ln x) + (p' - p) * ln x) by ring.
    eapply Rle_trans; [apply Rabs_triang|]. rewrite !Rabs_mult.
    assert (Q : Rabs (ln x' - ln x) <= 2 * e).
    { assert (Y : Rabs ((x' - x) / x) <= e).
      { unfold Rdiv. rewrite Rabs_mult, (Rabs_pos_eq (/ x)) by (left; apply Rinv_0_lt_compat; lra).
        apply Rmult_le_reg_r with x; [lra|]. rewrite Rmult_assoc, Rinv_l by lra. lra. }
      replace (ln x' - ln x) with (ln (1 + (x' - x) / x)).
      - eapply Rle_trans; [apply ln_small; lra|lra].
      - replace (1 + (x' - x) / x) with (x' * / x) by (field; lra).
        rewrite ln_mult by (auto; apply Rinv_0_lt_compat; lra). rewrite ln_Rinv by lra. ring. }
    rewrite (Rabs_pos_eq p') by lra.
    pose proof (Rabs_pos (ln x' - ln x)). pose proof (Rabs_pos (p' - p)). pose proof (Rabs_pos (ln x)).
    assert (p' * Rabs (ln x' - ln x) <= 3 * (2 * e)) by (apply Rmult_le_compat; lra).
    assert (Rabs (p' - p) * Rabs (ln x) <= d * M) by (apply Rmult_le_compat; lra). lra. }
  assert (E : Rpower x' p' - Rpower x p = (exp t - 1) * Rpower x p).
  { unfold Rpower. replace (p' * ln x') with (t + p * ln x) by (unfold t; ring). rewrite exp_plus. ring. }
  pose proof (exp_pos (p * ln x)) as P. fold (Rpower x p) in P.
  rewrite E, Rabs_mult, (Rabs_pos_eq (Rpower x p)) by lra.
  apply Rmult_le_compat_r; [lra|]. eapply Rle_trans; [apply exp_small; lra|lra].
Qed.

Lemma ln2_le : ln 2 <= 1.
Proof. rewrite <- (ln_exp 1). pose proof (exp_ineq1 1 ltac:(lra)). left. apply ln_increasing; lra. Qed.

Lemma ln_bpow e : ln (bpow radix2 e) = IZR e * ln 2.
Proof.
  rewrite bpow_exp. rewrite ln_exp. reflexivity.
Qed.

Lemma ln_range x : / 512 <= x <= bpow radix2 130 -> Rabs (ln x) <= 130.
Proof.
  intros [H1 H2]. pose proof ln2_le. assert (0 < ln 2) by (pose proof ln_lt_2; lra).
  assert (A : ln x <= 130 * ln 2).
  { rewrite <- (ln_bpow 130). destruct (Rle_lt_or_eq_dec _ _ H2) as [L|L]; [|subst; lra].
    left. apply ln_increasing; lra. }
  assert (B : - 9 * ln 2 <= ln x).
  { change (- 9) with (IZR (- 9)). rewrite <- (ln_bpow (- 9)).
    replace (bpow radix2 (- 9)) with (/ 512) by (simpl; lra).
    destruct (Rle_lt_or_eq_dec _ _ H1) as [L|L]; [|subst; lra].
    left. apply ln_increasing; lra. }
  apply Rabs_le. lra.
Qed.

(** ** Constants *)

Definition K1 : R := 5829459357668370 / IZR (2 ^ 57).
Definition K2 : R := 7219133293246233 / IZR (2 ^ 61).
Definition K3 : R := 7926335344172073 / IZR (2 ^ 57).
Definition K4 : R := 4751297606875873 / IZR (2 ^ 52).
Definition K5 : R := 7273313398203351 / IZR (2 ^ 49).
Definition K6 : R := 5404319552844595 / IZR (2 ^ 51).
Definition K7 : R := 7505999378950827 / IZR (2 ^ 54).

Ltac consts := unfold K1, K2, K3, K4, K5, K6, K7 in *;
  change (IZR (2 ^ 56)) with 72057594037927936 in *; change (IZR (2 ^ 61)) with 2305843009213693952 in *;
  change (IZR (2 ^ 57)) with 144115188075855872 in *; change (IZR (2 ^ 52)) with 4503599627370496 in *;
  change (IZR (2 ^ 49)) with 562949953421312 in *; change (IZR (2 ^ 51)) with 2251799813685248 in *;
  change (IZR (2 ^ 54)) with 18014398509481984 in *; change (IZR (2 ^ 53)) with 9007199254740992 in *;
  change (IZR (2 ^ 50)) with 1125899906842624 in *; change (IZR (2 ^ 44)) with 17592186044416 in *;
  change (IZR (2 ^ 45)) with 35184372088832 in *.

(** Rounding of any number that does not overflow. *)
Definition eta : R := bpow radix2 (-1075).
Lemma eta_pos : 0 < eta.
Proof. apply bpow_gt_0. Qed.

Lemma rnd64_any x : Rabs (rnd64 x - x) <= / IZR (2 ^ 53) * Rabs x + eta.
Proof.
  destruct (error_N_FLT radix2 (-1074) 53 eq_refl (fun z => negb (Z.even z)) x) as (e & h & He & Hh & _ & E).
  unfold rnd64. rewrite E. replace (x * (1 + e) + h - x) with (x * e + h) by ring.
  eapply Rle_trans; [apply Rabs_triang|]. rewrite Rabs_mult.
  apply Rplus_le_compat.
  - rewrite Rmult_comm. apply Rmult_le_compat_r; [apply Rabs_pos|].
    eapply Rle_trans; [exact He|]. change (bpow radix2 (- (53) + 1)) with (/ IZR (2 ^ 52)). consts. lra.
  - eapply Rle_trans; [exact Hh|]. unfold eta. replace (-1074)%Z with (-1075 + 1)%Z by reflexivity.
    rewrite bpow_plus. change (bpow radix2 1) with 2. lra.
Qed.

Lemma rnd64_pos x : / 1000 <= x -> Rabs (rnd64 x - x) <= / IZR (2 ^ 53) * x.
Proof.
  intros H. rewrite <- (Rabs_pos_eq x) at 3 by lra. apply rnd64_rel.
  rewrite Rabs_pos_eq by lra. apply Rle_trans with (bpow radix2 (-10)); [apply bpow_le; lia|].
  change (bpow radix2 (-10)) with (/ 1024). lra.
Qed.

Section Srgb.
Context (pw : double -> double -> double).
Local Notation D := (double_arith pw).

Lemma value_of (d : double) m e : B2FF 53 1024 d = F754_finite false m (Zneg e) ->
  dfinite d = true /\ dreal d = IZR (Zpos m) / IZR (2 ^ Zpos e).
Proof.
  intros H. unfold dfinite, dreal. split.
  { destruct d; try discriminate H; reflexivity. }
  rewrite <- FF2R_B2FF, H.
  unfold FF2R, F2R; cbn [Fnum Fexp SpecFloat.cond_Zopp].
  change (Zneg e) with (- Zpos e)%Z. rewrite bpow_opp, <- IZR_Zpower by lia. reflexivity.
Qed.

Lemma k1 : dfinite (@dec D 4045 5) = true /\ dreal (@dec D 4045 5) = K1.
Proof. apply (value_of _ _ 57). vm_compute. reflexivity. Qed.
Lemma k2 : dfinite (@dec D 31308 7) = true /\ dreal (@dec D 31308 7) = K2.
Proof. apply (value_of _ _ 61). vm_compute. reflexivity. Qed.
Lemma k3 : dfinite (@dec D 55 3) = true /\ dreal (@dec D 55 3) = K3.
Proof. apply (value_of _ _ 57). vm_compute. reflexivity. Qed.
Lemma k4 : dfinite (@dec D 1055 3) = true /\ dreal (@dec D 1055 3) = K4.
Proof. apply (value_of _ _ 52). vm_compute. reflexivity. Qed.
Lemma k5 : dfinite (@dec D 1292 2) = true /\ dreal (@dec D 1292 2) = K5.
Proof. apply (value_of _ _ 49). vm_compute. reflexivity. Qed.
Lemma k6 : dfinite (@dec D 24 1) = true /\ dreal (@dec D 24 1) = K6.
Proof. apply (value_of _ _ 51). vm_compute. reflexivity. Qed.
Lemma k7 : dfinite (b64_div mode_NE (@lit D 1) (@dec D 24 1)) = true /\
  dreal (b64_div mode_NE (@lit D 1) (@dec D 24 1)) = K7.
Proof. apply (value_of _ _ 54). vm_compute. reflexivity. Qed.

(** The program takes the same branch as the formula: no [double] lies between the threshold and
    the nearest [double]. *)
Lemma branch (c t : double) T z : dfinite c = true -> dfinite t = true -> dreal t = rnd64 T -> z = dreal t ->
  z <= T -> dleb c t = (if Rle_dec (dreal c) T then true else false).
Proof.
  intros Fc Ft E -> L. rewrite (dleb_ok c t Fc Ft).
  destruct (Rle_dec (dreal c) T) as [H|H].
  - apply Rle_bool_true. rewrite <- (rnd64_dreal c), E. apply rnd64_le. exact H.
  - apply Rle_bool_false. lra.
Qed.

Lemma dec_rounded n k : (Z.abs n <= 2 ^ 53)%Z -> (0 < 10 ^ k <= 2 ^ 53)%Z ->
  dreal (@dec D n k) = rnd64 (IZR n / IZR (10 ^ k)).
Proof.
  intros Hn Hk. unfold dec. cbn [ndiv ofZ double_arith].
  destruct (double_of_Z_ok n Hn) as [R1 F1]. destruct (double_of_Z_ok (10 ^ k) ltac:(lia)) as [R2 F2].
  assert (P : 1 <= IZR (10 ^ k)) by (apply IZR_le; lia).
  destruct (ddiv_ok (double_of_Z n) (double_of_Z (10 ^ k)) F1) as [F E].
  - rewrite R2. lra.
  - rewrite R1, R2. apply Rle_trans with (Rabs (IZR n)).
    + unfold Rdiv. rewrite Rabs_mult, (Rabs_pos_eq (/ _)) by (left; apply Rinv_0_lt_compat; lra).
      rewrite <- (Rmult_1_r (Rabs (IZR n))) at 2. apply Rmult_le_compat_l; [apply Rabs_pos|].
      rewrite <- Rinv_1. apply Rinv_le; lra.
    + rewrite <- abs_IZR. apply Rle_trans with (IZR (2 ^ 53)); [apply IZR_le; lia|].
      change (IZR (2 ^ 53)) with (bpow radix2 53). apply bpow_le; lia.
  - rewrite E, R1, R2. reflexivity.
Qed.

Context (PW : pow_ok pw).

Definition wide (c : double) : Prop := dfinite c = true /\ Rabs (dreal c) <= bpow radix2 128.

Lemma big_ok (x : R) k : (0 <= k <= 800)%Z -> Rabs x <= 100 * bpow radix2 k -> Rabs x <= bpow radix2 900.
Proof.
  intros Hk H. eapply Rle_trans; [exact H|]. apply Rle_trans with (bpow radix2 7 * bpow radix2 k).
  - apply Rmult_le_compat_r; [apply bpow_ge_0|]. simpl. lra.
  - rewrite <- bpow_plus. apply bpow_le; lia.
Qed.

(** sRGB to linear. *)
Lemma decode64 c : wide c -> dfinite (@sRGBToLinear D c) = true /\
  Rabs (dreal (@sRGBToLinear D c) - decode (dreal c)) <= / IZR (2 ^ 44) * Rabs (decode (dreal c)) + eta.
Proof.
  intros [Fc Bc]. unfold sRGBToLinear. cbn [nleb ndiv nadd npow double_arith].
  destruct k1 as [F1 E1]. 
  assert (ET : dreal (@dec D 4045 5) = rnd64 0.04045).
  { rewrite dec_rounded by (simpl; lia). reflexivity. }
  rewrite (branch c (@dec D 4045 5) 0.04045 K1 Fc F1 ET (eq_sym E1)) by (consts; lra).
  unfold decode. pose proof eta_pos as EP.
  assert (B128 : 1 <= bpow radix2 128) by (change 1 with (bpow radix2 0); apply bpow_le; lia).
  destruct (Rle_dec (dreal c) 0.04045) as [L|L].
  - destruct k5 as [F5 E5].
    destruct (ddiv_ok c (@dec D 1292 2) Fc) as [F E].
    + rewrite E5. consts. lra.
    + rewrite E5. apply big_ok with 128%Z; [lia|]. unfold Rdiv. rewrite Rabs_mult.
      rewrite (Rabs_pos_eq (/ K5)) by (left; apply Rinv_0_lt_compat; consts; lra).
      apply Rle_trans with (Rabs (dreal c) * 1); [|lra].
      apply Rmult_le_compat_l; [apply Rabs_pos|]. rewrite <- Rinv_1. apply Rinv_le; consts; lra.
    + split; [exact F|]. rewrite E, E5. clear E F. set (x := dreal c) in *.
      set (t := x / K5). set (y := x / 12.92).
      assert (Ht : t * K5 = x) by (unfold t; field; consts; lra).
      assert (Hy : y * 12.92 = x) by (unfold y, Rdiv; rewrite Rmult_assoc, Rinv_l; lra).
      pose proof (rnd64_any t) as R. clearbody t y. consts.
      apply Rabs_le_inv in R. apply Rabs_le. revert R.
      unfold Rabs. destruct (Rcase_abs t), (Rcase_abs y); lra.
  - destruct k3 as [F3 E3], k4 as [F4 E4], k6 as [F6 E6].
    set (x := dreal c) in *. assert (Bx : 0.04045 < x <= bpow radix2 128).
    { split; [lra|]. rewrite Rabs_pos_eq in Bc by lra. exact Bc. }
    destruct (dadd_ok c (@dec D 55 3) Fc F3) as [Fs Es].
    { fold x. rewrite E3. rewrite Rabs_pos_eq by (consts; lra). apply Rle_trans with (bpow radix2 129).
      - replace (bpow radix2 129) with (2 * bpow radix2 128); [consts; lra|].
        change 2 with (bpow radix2 1). rewrite <- bpow_plus. reflexivity.
      - apply bpow_le; lia. }
    fold x in Es. rewrite E3 in Es. set (s := b64_plus mode_NE c _) in *. clearbody s.
    assert (Rs : Rabs (dreal s - (x + K3)) <= / IZR (2 ^ 53) * (x + K3)).
    { rewrite Es. apply rnd64_pos. consts. lra. }
    destruct (ddiv_ok s (@dec D 1055 3) Fs) as [Fq Eq].
    { rewrite E4. consts. lra. }
    { rewrite E4. apply big_ok with 128%Z; [lia|]. apply Rabs_le_inv in Rs.
      assert (0 < dreal s <= 2 * bpow radix2 128) by (consts; lra).
      rewrite Rabs_pos_eq.
      - apply Rmult_le_reg_r with K4; [consts; lra|]. unfold Rdiv. rewrite Rmult_assoc, Rinv_l by (consts; lra).
        consts. lra.
      - apply Rmult_le_pos; [lra|]. left. apply Rinv_0_lt_compat. consts. lra. }
    rewrite E4 in Eq. set (q := b64_div mode_NE s _) in *. clearbody q.
    set (t := dreal s / K4) in *. assert (Ht : t * K4 = dreal s) by (unfold t; field; consts; lra).
    assert (Rq : Rabs (dreal q - t) <= / IZR (2 ^ 53) * t).
    { rewrite Eq. apply rnd64_pos. clearbody t. apply Rabs_le_inv in Rs. consts. lra. }
    clearbody t. set (y := (x + 0.055) / 1.055). assert (Hy : y * 1.055 = x + 0.055) by (unfold y, Rdiv; rewrite Rmult_assoc, Rinv_l; lra).
    clearbody y.
    assert (N : Rabs (dreal q - y) <= / IZR (2 ^ 50) * y).
    { apply Rabs_le_inv in Rs, Rq. apply Rabs_le. consts. lra. }
    assert (Ry : 0.09 <= y <= 2 * bpow radix2 128) by lra.
    assert (B130 : bpow radix2 130 = 4 * bpow radix2 128).
    { change 4 with (bpow radix2 2). rewrite <- bpow_plus. reflexivity. }
    assert (Rq2 : / 512 <= dreal q <= bpow radix2 130).
    { apply Rabs_le_inv in N. rewrite B130. consts. lra. }
    destruct (PW q (@dec D 24 1) Fq F6 Rq2) as [F E].
    { rewrite E6. consts. lra. }
    split; [exact F|]. rewrite E6 in E. set (v := pw q _) in *. clearbody v.
    assert (P : Rabs (Rpower (dreal q) K6 - Rpower y 2.4) <= 356 / IZR (2 ^ 53) * Rpower y 2.4).
    { eapply Rle_trans; [apply (Rpower_near y (dreal q) 2.4 K6 (/ IZR (2 ^ 50)) (/ IZR (2 ^ 53)) 130)|];
        try (consts; lra); try exact N.
      - apply Rabs_le. consts. lra.
      - apply ln_range. lra. }
    pose proof (exp_pos (2.4 * ln y)) as RP. fold (Rpower y 2.4) in RP.
    set (r := Rpower y 2.4) in *. set (w := Rpower (dreal q) K6) in *. clearbody r w.
    rewrite (Rabs_pos_eq r) by lra. apply Rabs_le_inv in P, E. apply Rabs_le. consts. lra.
Qed.

Lemma Rpower_max c p : 0 < c -> 0 <= p <= 1 -> Rpower c p <= Rmax 1 c.
Proof.
  intros Hc Hp. destruct (Rle_dec 1 c) as [H|H].
  - rewrite Rmax_right by lra. rewrite <- (Rpower_1 c Hc) at 2.
    destruct (Req_dec c 1) as [->|N]; [rewrite !Rpower_one; lra|].
    apply Rle_Rpower; lra.
  - rewrite Rmax_left by lra. rewrite <- (Rpower_one p). unfold Rpower.
    assert (ln c <= ln 1) by (left; apply ln_increasing; lra).
    assert (p * ln c <= p * ln 1) by (apply Rmult_le_compat_l; lra).
    destruct (Rle_lt_or_eq_dec _ _ H1) as [L|L]; [left; apply exp_increasing; exact L|rewrite L; lra].
Qed.

Lemma encode_base : 0.09 < Rpower 0.0031308 (1 / 2.4).
Proof.
  apply pow_lt_inv with 12%nat; [left; apply exp_pos|]. rewrite pow12_24 by lra. simpl. lra.
Qed.

(** Linear to sRGB. *)
Lemma encode64 c : wide c -> dfinite (@linearToSRGB D c) = true /\
  Rabs (dreal (@linearToSRGB D c) - encode (dreal c)) <= / IZR (2 ^ 45) * Rabs (encode (dreal c)) + eta.
Proof.
  intros [Fc Bc]. unfold linearToSRGB. cbn [nleb nmul nsub npow ndiv double_arith].
  destruct k2 as [F2 E2].
  assert (ET : dreal (@dec D 31308 7) = rnd64 0.0031308).
  { rewrite dec_rounded by (simpl; lia). reflexivity. }
  rewrite (branch c (@dec D 31308 7) 0.0031308 K2 Fc F2 ET (eq_sym E2)) by (consts; lra).
  unfold encode. pose proof eta_pos as EP.
  assert (B128 : 1 <= bpow radix2 128) by (change 1 with (bpow radix2 0); apply bpow_le; lia).
  destruct (Rle_dec (dreal c) 0.0031308) as [L|L].
  - destruct k5 as [F5 E5]. destruct (dmul_ok c (@dec D 1292 2) Fc F5) as [F E].
    + rewrite E5. apply big_ok with 128%Z; [lia|]. rewrite Rabs_mult, (Rabs_pos_eq K5) by (consts; lra).
      rewrite Rmult_comm. apply Rmult_le_compat; try apply Rabs_pos; consts; lra.
    + split; [exact F|]. rewrite E, E5. clear E F. set (x := dreal c) in *.
      pose proof (rnd64_any (x * K5)) as R. consts.
      apply Rabs_le_inv in R. apply Rabs_le. revert R.
      unfold Rabs. destruct (Rcase_abs (x * _)), (Rcase_abs (x * 12.92)); lra.
  - destruct k3 as [F3 E3], k4 as [F4 E4], k7 as [F7 E7].
    set (x := dreal c) in *. assert (Bx : 0.0031308 < x <= bpow radix2 128).
    { split; [lra|]. rewrite Rabs_pos_eq in Bc by lra. exact Bc. }
    assert (B130 : bpow radix2 130 = 4 * bpow radix2 128).
    { change 4 with (bpow radix2 2). rewrite <- bpow_plus. reflexivity. }
    assert (Rx : / 512 <= x <= bpow radix2 130) by (rewrite B130; lra).
    destruct (PW c (b64_div mode_NE (@lit D 1) (@dec D 24 1)) Fc F7) as [Fv Ev].
    { fold x. exact Rx. }
    { rewrite E7. consts. lra. }
    fold x in Ev. rewrite E7 in Ev. set (v := pw c _) in *. clearbody v.
    assert (P : Rabs (Rpower x K7 - Rpower x (1 / 2.4)) <= 66 / IZR (2 ^ 53) * Rpower x (1 / 2.4)).
    { pose proof (exp_pos (1 / 2.4 * ln x)) as RP. fold (Rpower x (1 / 2.4)) in RP. eapply Rle_trans; [apply (Rpower_near x x (1 / 2.4) K7 0 (/ (4 * IZR (2 ^ 53))) 130)|];
        try (consts; lra); try (unfold Rminus; rewrite Rplus_opp_r, Rabs_R0; lra).
      - apply Rabs_le. consts. lra.
      - apply ln_range. exact Rx. }
    assert (RL : 0.09 < Rpower x (1 / 2.4)).
    { pose proof encode_base. assert (Rpower 0.0031308 (1 / 2.4) < Rpower x (1 / 2.4)) by (apply Rpower_lt_base; lra). lra. }
    assert (RU : Rpower x (1 / 2.4) <= bpow radix2 128).
    { eapply Rle_trans; [apply Rpower_max; lra|]. apply Rmax_lub; lra. }
    set (r := Rpower x (1 / 2.4)) in *. set (w := Rpower x K7) in *. clearbody r w.
    assert (RV : Rabs (dreal v - r) <= 75 / IZR (2 ^ 53) * r).
    { apply Rabs_le_inv in P, Ev. apply Rabs_le. consts. lra. }
    clear P Ev w. apply Rabs_le_inv in RV.
    destruct (dmul_ok (@dec D 1055 3) v F4 Fv) as [Fm Em].
    { rewrite E4. apply big_ok with 128%Z; [lia|]. rewrite Rabs_pos_eq by (consts; nra). consts. nra. }
    rewrite E4 in Em. set (m := b64_mult mode_NE _ v) in *. clearbody m.
    assert (RM : Rabs (dreal m - K4 * dreal v) <= / IZR (2 ^ 53) * (K4 * dreal v)).
    { rewrite Em. apply rnd64_pos. consts. lra. }
    apply Rabs_le_inv in RM.
    destruct (dsub_ok m (@dec D 55 3) Fm F3) as [F E].
    { rewrite E3. apply big_ok with 128%Z; [lia|]. rewrite Rabs_pos_eq by (consts; lra). consts. lra. }
    split; [exact F|]. rewrite E, E3.
    assert (RR : Rabs (rnd64 (dreal m - K3) - (dreal m - K3)) <= / IZR (2 ^ 53) * (dreal m - K3)).
    { apply rnd64_pos. consts. lra. }
    apply Rabs_le_inv in RR. rewrite (Rabs_pos_eq (_ - 0.055)) by lra. apply Rabs_le. consts. lra.
Qed.

End Srgb.

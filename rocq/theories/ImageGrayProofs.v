(** The grayscale of a gray colour is the colour, up to rounding. *)

From Coq Require Import ZArith NArith List Bool Lia Reals Lra.
From Flocq Require Import Core Relative IEEE754.BinarySingleNaN IEEE754.Binary IEEE754.Bits.
From Verif Require Import Base FormatModel FloatModel FloatSpec FloatProofs ArithModel ArithSpec
  DoubleProofs TextureModel ImageModel ImageSpec ImageStoreProofs.
Import ListNotations.
Local Open Scope R_scope.

Lemma rnd64_rel x : bpow radix2 (-1022) <= Rabs x ->
  Rabs (rnd64 x - x) <= / IZR (2 ^ 53) * Rabs x.
Proof.
  intros H. unfold rnd64.
  pose proof (relative_error_N_FLT radix2 (-1074) 53 eq_refl (fun z => negb (Z.even z)) x H) as E.
  change (bpow radix2 (- (53) + 1)) with (/ IZR (2 ^ 52)) in E.
  change (IZR (2^53)) with 9007199254740992. change (IZR (2^52)) with 4503599627370496 in E.
  eapply Rle_trans; [exact E|]. pose proof (Rabs_pos x). lra.
Qed.

Definition W1 : R := 7659722246231740 / IZR (2 ^ 55).
Definition W2 : R := 6441948906990757 / IZR (2 ^ 53).
Definition W3 : R := 5202558289538397 / IZR (2 ^ 56).

Section Gray.
Context (pw : double -> double -> double).
Local Notation D := (double_arith pw).

Lemma dec_value n k m e : B2FF 53 1024 (@dec D n k) = F754_finite false m (Zneg e) ->
  dfinite (@dec D n k) = true /\ dreal (@dec D n k) = IZR (Zpos m) / IZR (2 ^ Zpos e).
Proof.
  intros H. unfold dfinite, dreal. split.
  { destruct (@dec D n k); try discriminate H; reflexivity. }
  rewrite <- FF2R_B2FF, H.
  unfold FF2R, F2R; cbn [Fnum Fexp SpecFloat.cond_Zopp].
  change (Zneg e) with (- Zpos e)%Z. rewrite bpow_opp, <- IZR_Zpower by lia. reflexivity.
Qed.

Lemma w1 : dfinite (@dec D 2126 4) = true /\ dreal (@dec D 2126 4) = W1.
Proof. apply (dec_value 2126 4 _ 55). vm_compute. reflexivity. Qed.
Lemma w2 : dfinite (@dec D 7152 4) = true /\ dreal (@dec D 7152 4) = W2.
Proof. apply (dec_value 7152 4 _ 53). vm_compute. reflexivity. Qed.
Lemma w3 : dfinite (@dec D 722 4) = true /\ dreal (@dec D 722 4) = W3.
Proof. apply (dec_value 722 4 _ 56). vm_compute. reflexivity. Qed.

Lemma Wvals : 0.2125 < W1 < 0.2127 /\ 0.7151 < W2 < 0.7153 /\ 0.0721 < W3 < 0.0723 /\
  Rabs (W1 + W2 + W3 - 1) <= / IZR (2 ^ 54).
Proof.
  unfold W1, W2, W3. change (IZR (2^55)) with 36028797018963968.
  change (IZR (2^53)) with 9007199254740992. change (IZR (2^56)) with 72057594037927936.
  change (IZR (2^54)) with 18014398509481984.
  split; [lra|]. split; [lra|]. split; [lra|]. apply Rabs_le. lra.
Qed.

Lemma bp200 : bpow radix2 200 = IZR (2 ^ 200).
Proof. reflexivity. Qed.

Lemma Rabs_le_inv2 a b : Rabs a <= b -> - b <= a <= b.
Proof. apply Rabs_le_inv. Qed.

Lemma toGrayscale_near (v : double) : dfinite v = true ->
  bpow radix2 (-200) <= Rabs (dreal v) <= bpow radix2 200 ->
  dfinite (@toGrayscale D v v v) = true /\
  Rabs (dreal (@toGrayscale D v v v) - dreal v) <= / IZR (2 ^ 50) * Rabs (dreal v).
Proof.
  intros F [Lo Hi]. unfold toGrayscale. cbn [nadd nmul double_arith].
  destruct w1 as [F1 E1], w2 as [F2 E2], w3 as [F3 E3].
  destruct Wvals as (B1 & B2 & B3 & BS).
  set (x := dreal v) in *.
  assert (L1 : bpow radix2 (-1022) <= bpow radix2 (-200) * 0.01).
  { apply Rle_trans with (bpow radix2 (-207)); [apply bpow_le; lia|].
    replace (-207)%Z with (-200 + -7)%Z by lia. rewrite bpow_plus.
    apply Rmult_le_compat_l; [apply bpow_ge_0|]. simpl. lra. }
  assert (H1 : bpow radix2 200 * 2 <= bpow radix2 900).
  { replace (bpow radix2 200 * 2) with (bpow radix2 (200 + 1)) by (rewrite bpow_plus; reflexivity).
    apply bpow_le; lia. }
  pose proof (bpow_gt_0 radix2 (-200)) as P.
  assert (PM : forall w, 0.01 < w < 1 ->
     bpow radix2 (-1022) <= Rabs (x * w) /\ Rabs (x * w) <= bpow radix2 900 /\
     Rabs (x * w) = w * Rabs x).
  { intros w Hw. rewrite Rabs_mult, (Rabs_pos_eq w) by lra.
    split; [|split]; [| |ring].
    - eapply Rle_trans; [exact L1|]. apply Rmult_le_compat; lra.
    - apply Rle_trans with (bpow radix2 200 * 1); [|lra].
      apply Rmult_le_compat; lra. }
  destruct (PM W1 ltac:(lra)) as (a1 & a2 & a3).
  destruct (PM W2 ltac:(lra)) as (b1 & b2 & b3).
  destruct (PM W3 ltac:(lra)) as (c1 & c2 & c3).
  destruct (dmul_ok v (@dec D 2126 4) F F1) as [Fp1 Rp1]; [rewrite E1; exact a2|].
  destruct (dmul_ok v (@dec D 7152 4) F F2) as [Fp2 Rp2]; [rewrite E2; exact b2|].
  destruct (dmul_ok v (@dec D 722 4) F F3) as [Fp3 Rp3]; [rewrite E3; exact c2|].
  rewrite E1 in Rp1; rewrite E2 in Rp2; rewrite E3 in Rp3. fold x in Rp1, Rp2, Rp3.
  pose proof (rnd64_rel _ a1) as e1. pose proof (rnd64_rel _ b1) as e2.
  pose proof (rnd64_rel _ c1) as e3.
  rewrite a3 in e1. rewrite b3 in e2. rewrite c3 in e3.
  rewrite <- Rp1 in e1; rewrite <- Rp2 in e2; rewrite <- Rp3 in e3.
  set (p1 := b64_mult mode_NE v (@dec D 2126 4)) in *.
  set (p2 := b64_mult mode_NE v (@dec D 7152 4)) in *.
  set (p3 := b64_mult mode_NE v (@dec D 722 4)) in *.
  clearbody p1 p2 p3.
  assert (X : Rabs x > 0) by lra.
  change (IZR (2^53)) with 9007199254740992 in *. change (IZR (2^54)) with 18014398509481984 in *.
  change (IZR (2^50)) with 1125899906842624.
  apply Rabs_le_inv2 in e1, e2, e3, BS.
  unfold W1, W2, W3 in e1, e2, e3. change (IZR (2^55)) with 36028797018963968 in *.
  change (IZR (2^53)) with 9007199254740992 in *. change (IZR (2^56)) with 72057594037927936 in *.
  clear BS B1 B2 B3 a1 a2 a3 b1 b2 b3 c1 c2 c3 PM Rp1 Rp2 Rp3 E1 E2 E3.
  (* signs *)
  assert (S : (0 < x /\ Rabs x = x) \/ (x < 0 /\ Rabs x = - x)).
  { unfold Rabs in *. destruct (Rcase_abs x); [right|left]; lra. }
  assert (T1 : Rabs (dreal p1 + dreal p2) <= bpow radix2 900 /\
               bpow radix2 (-1022) <= Rabs (dreal p1 + dreal p2)).
  { destruct S as [[S1 S2]|[S1 S2]]; rewrite S2 in *.
    - rewrite Rabs_pos_eq by lra. split; lra.
    - rewrite Rabs_left1 by lra. split; lra. }
  destruct (dadd_ok p1 p2 Fp1 Fp2 (proj1 T1)) as [Fs Rs].
  pose proof (rnd64_rel _ (proj2 T1)) as es. rewrite <- Rs in es.
  set (s := b64_plus mode_NE p1 p2) in *. clearbody s.
  assert (T2 : Rabs (dreal s + dreal p3) <= bpow radix2 900 /\
               bpow radix2 (-1022) <= Rabs (dreal s + dreal p3) /\
               Rabs (dreal s + dreal p3 - x) <= / 2251799813685248 * Rabs x).
  { destruct S as [[S1 S2]|[S1 S2]]; rewrite S2 in *.
    - rewrite (Rabs_pos_eq (dreal p1 + dreal p2)) in es by lra. apply Rabs_le_inv2 in es.
      assert (0 <= dreal s + dreal p3) by lra.
      rewrite Rabs_pos_eq by lra. split; [lra|]. split; [lra|]. apply Rabs_le. lra.
    - rewrite (Rabs_left1 (dreal p1 + dreal p2)) in es by lra. apply Rabs_le_inv2 in es.
      rewrite Rabs_left1 by lra. split; [lra|]. split; [lra|]. apply Rabs_le. lra. }
  destruct T2 as (T2a & T2b & T2c).
  destruct (dadd_ok s p3 Fs Fp3 T2a) as [Ft Rt].
  split; [exact Ft|]. rewrite Rt.
  pose proof (rnd64_rel _ T2b) as et.
  replace (rnd64 (dreal s + dreal p3) - x) with
    ((rnd64 (dreal s + dreal p3) - (dreal s + dreal p3)) + (dreal s + dreal p3 - x)) by ring.
  eapply Rle_trans; [apply Rabs_triang|].
  assert (Rabs (dreal s + dreal p3) <= 2 * Rabs x).
  { replace (dreal s + dreal p3) with ((dreal s + dreal p3 - x) + x) by ring.
    eapply Rle_trans; [apply Rabs_triang|]. lra. }
  change (IZR (2^53)) with 9007199254740992 in et. lra.
Qed.

Lemma rnd32_near_pos x g : generic_format radix2 (FLT_exp (-149) 24) x -> 0 < x ->
  Rabs (g - x) <= / IZR (2 ^ 50) * x -> rnd32 g = x.
Proof.
  intros G X H. change (IZR (2^50)) with 1125899906842624 in H. apply Rabs_le_inv2 in H.
  assert (V : Valid_exp (FLT_exp (-149) 24)) by (apply FLT_exp_valid; reflexivity).
  assert (Hp : Prec_gt_0 24) by reflexivity.
  pose proof (ulp_FLT_gt radix2 (-149) 24 x) as U. rewrite (Rabs_pos_eq x) in U by lra.
  change (bpow radix2 (- (24))) with (/ 16777216) in U.
  unfold rnd32. apply Rle_antisym.
  - apply round_N_le_midp; auto. rewrite succ_eq_pos by lra. lra.
  - apply round_N_ge_midp; auto.
    pose proof (pred_plus_ulp radix2 (FLT_exp (-149) 24) x X G) as P.
    destruct (ulp_FLT_pred_pos radix2 (-149) 24 x G (Rlt_le _ _ X)) as [E|[_ E]];
      rewrite E in P.
    + lra.
    + change (IZR radix2) with 2 in P. lra.
Qed.

Lemma rnd32_near x g : generic_format radix2 (FLT_exp (-149) 24) x -> x <> 0 ->
  Rabs (g - x) <= / IZR (2 ^ 50) * Rabs x -> rnd32 g = x.
Proof.
  intros G X H. destruct (Rlt_dec 0 x).
  - apply rnd32_near_pos; auto. rewrite (Rabs_pos_eq x) in H; lra.
  - assert (E : rnd32 (- g) = - x).
    { apply rnd32_near_pos; [apply generic_format_opp; auto|lra|].
      rewrite (Rabs_left1 x) in H by lra.
      replace (- g - - x) with (- (g - x)) by ring. rewrite Rabs_Ropp. exact H. }
    unfold rnd32 in *. rewrite round_NE_opp in E. lra.
Qed.

Lemma narrow_near (x : float) (g : double) : finite x = true -> real x <> 0 -> dfinite g = true ->
  Rabs (dreal g - real x) <= / IZR (2 ^ 50) * Rabs (real x) -> dnarrow g = x.
Proof.
  intros F N Fg H.
  pose proof (rnd32_near _ _ (real_format x) N H) as E.
  destruct (dnarrow_ok g Fg) as [F2 R2].
  { rewrite E. apply abs_B2R_lt_emax. }
  rewrite E in R2. unfold real in *. apply B2R_inj; auto.
  - destruct (dnarrow g); try discriminate; auto; exfalso; apply N; rewrite <- R2; reflexivity.
  - destruct x; try discriminate; auto; exfalso; apply N; reflexivity.
Qed.

(** Gray floats keep their value (NaN stays NaN). *)
Lemma gray_float (x : float) : let v := dwiden x in
  same_float (dnarrow (@toGrayscale D v v v)) x.
Proof.
  cbv zeta. destruct x as [s|s|s pl B|s m e B] eqn:Ex.
  - left. destruct s; vm_compute; reflexivity.
  - left. destruct s; vm_compute; reflexivity.
  - right. split; vm_compute; reflexivity.
  - left. rewrite <- Ex in *. set (v := dwiden x). assert (F : finite x = true) by (rewrite Ex; reflexivity).
    destruct (dwiden_ok x F) as [Fw Rw].
    assert (Fs : is_finite_strict 24 128 x = true) by (rewrite Ex; reflexivity).
    pose proof (abs_B2R_ge_emin 24 128 x Fs) as Lo.
    pose proof (abs_B2R_lt_emax 24 128 x) as Hi.
    destruct (toGrayscale_near v Fw) as [Fg Rg].
    { unfold v. rewrite Rw. unfold real. split.
      - eapply Rle_trans; [|exact Lo]. apply bpow_le. vm_compute. discriminate.
      - apply Rlt_le. eapply Rlt_le_trans; [exact Hi|]. apply bpow_le. lia. }
    apply narrow_near; auto.
    + intros C. unfold real in C. rewrite C, Rabs_R0 in Lo.
      pose proof (bpow_gt_0 radix2 (SpecFloat.emin 24 128)). lra.
    + unfold v in *. rewrite Rw in Rg. exact Rg.
Qed.

(** Gray normalised integers keep their value. *)
Lemma gray_norm hi m k : (0 < m <= 65535)%Z -> (m <= hi)%Z -> (0 <= k <= m)%Z ->
  let v := @toNorm D m k in @fromNorm D hi m (@toGrayscale D v v v) = Some k.
Proof.
  intros Hm Hh Hk v.
  destruct (toNorm_ok pw m k Hm Hk) as (F & R & B & E).
  destruct (Z.eq_dec k 0) as [->|K].
  - assert (V0 : v = B754_zero 53 1024 false).
    { unfold v in *. replace (IZR 0 / IZR m) with 0 in R by (unfold Rdiv; ring).
      rewrite rnd64_0 in R. unfold toNorm in *. cbn [ndiv double_arith] in *.
      unfold lit, double_arith, ofZ. change (double_of_Z 0) with (B754_zero 53 1024 false).
      destruct (lit_ok pw m) as [Lm Fm]; [lia|].
      unfold lit, double_arith, ofZ in Lm, Fm.
      destruct (double_of_Z m) as [s|s|s pl H|s mm e H] eqn:Dm; try discriminate Fm.
      - unfold dreal, B2R in Lm. assert (0 < IZR m) by (apply IZR_lt; lia). lra.
      - destruct s; [exfalso|reflexivity].
        unfold dreal, B2R in Lm. assert (0 < IZR m) by (apply IZR_lt; lia).
        assert (F2R (Float radix2 (SpecFloat.cond_Zopp true (Zpos mm)) e) < 0)
          by (apply F2R_lt_0; reflexivity). lra. }
    rewrite V0.
    replace (@toGrayscale D (B754_zero 53 1024 false) (B754_zero 53 1024 false) (B754_zero 53 1024 false))
      with (B754_zero 53 1024 false) by (vm_compute; reflexivity).
    apply fromNorm_near; auto; try lia.
    replace (IZR 0 / IZR m) with 0 by (unfold Rdiv; ring).
    unfold dreal, B2R. rewrite Rminus_0_r, Rabs_R0.
    left; apply Rinv_0_lt_compat. apply IZR_lt. reflexivity.
  - assert (M1 : 1 <= IZR m <= 65535) by (split; apply IZR_le; lia).
    assert (K1 : 1 <= IZR k) by (apply IZR_le; lia).
    assert (Q : / 65535 <= IZR k / IZR m).
    { unfold Rdiv. apply Rle_trans with (1 * / IZR m).
      - rewrite Rmult_1_l. apply Rinv_le_contravar; lra.
      - apply Rmult_le_compat_r; [left; apply Rinv_0_lt_compat; lra|lra]. }
    assert (Ea : Rabs (dreal v - IZR k / IZR m) <= / 9007199254740992) by exact E.
    pose proof (Rabs_le_inv2 _ _ Ea) as E'.
    destruct (toGrayscale_near v F) as [Fg Rg].
    { fold v in B. rewrite Rabs_pos_eq by lra. split.
      - apply Rle_trans with (bpow radix2 (-20)); [apply bpow_le; lia|].
        change (bpow radix2 (-20)) with (/ 1048576). lra.
      - apply Rle_trans with (bpow radix2 0); [simpl; lra|apply bpow_le; lia]. }
    apply fromNorm_near; auto.
    fold v in B. rewrite (Rabs_pos_eq (dreal v)) in Rg by lra. apply Rabs_le_inv2 in Rg.
    apply Rabs_le. change (IZR (2^50)) with 1125899906842624 in Rg.
    change (IZR (2^40)) with 1099511627776. lra.
Qed.

End Gray.

(** Rounding errors of weighted sums and averages in binary64. *)

From Coq Require Import ZArith NArith List Bool Lia Reals Lra Psatz.
From Coq Require Import ZifyBool ZifyNat ZifyN.
From Flocq Require Import Core Relative IEEE754.BinarySingleNaN IEEE754.Binary IEEE754.Bits.
From Verif Require Import Base FormatModel FloatModel FloatSpec FloatProofs ArithModel ArithSpec DoubleProofs
  TextureModel ImageModel ImageLoops ResizeModel ResizeSpec ResizeLoops ResizeRealProofs ResizeAxis64.
Import ListNotations.
Local Open Scope R_scope.

Lemma INR_NR k : INR k = NR (N.of_nat k).
Proof. unfold NR. rewrite INR_IZR_INZ. f_equal. lia. Qed.

Section Pow.
Variable pw : double -> double -> double.
Local Notation D := (double_arith pw).

Section Sum.
Context {K : Type}.
Variables (p : K -> num D) (P x w : K -> R) (B : R).
Hypothesis HB : bpow radix2 (-900) <= B <= bpow radix2 800.

Lemma fold_err l : forall a A X W k,
  (forall i, In i l -> is pw (p i) (P i) /\ Rabs (P i - x i * w i) <= u * (B * w i) /\
                       Rabs (x i) <= B /\ bpow radix2 (-106) <= w i <= 1) ->
  is pw a A -> Rabs (A - X) <= 2 * u * (INR k + 1) * (B * W) -> Rabs X <= B * W -> 0 <= W <= INR k ->
  INR (k + length l) + 1 <= 2251799813685248 ->
  exists A', is pw (fold_left (fun a i => nadd D a (p i)) l a) A' /\
    Rabs (A' - (X + sum (fun i => x i * w i) l))
      <= 2 * u * (INR (k + length l) + 1) * (B * (W + sum w l)) .
Proof.
  pose proof u_pos as U. pose proof (bpow_gt_0 radix2 (-900)) as BP.
  induction l as [|i l IH]; intros a A X W k H HA HE HX HW HK.
  - exists A. split; [exact HA|]. unfold sum. simpl. rewrite Nat.add_0_r, !Rplus_0_r. exact HE.
  - destruct (H i (or_introl eq_refl)) as (Hp & HP & Hx & Hw).
    pose proof (bpow_gt_0 radix2 (-106)) as WP.
    cbn [fold_left length] in *. rewrite <- Nat.add_succ_comm in HK |- *.
    assert (K0 : 0 <= INR k) by apply pos_INR.
    assert (KK : INR k + 1 <= 2251799813685248).
    { eapply Rle_trans; [|exact HK]. rewrite plus_INR, S_INR. pose proof (pos_INR (length l)). lra. }
    set (g := 2 * u * (INR k + 1)) in *.
    assert (G : u <= g <= / 2).
    { unfold g. split; [nra|]. rewrite u_val. lra. }
    set (W1 := W + w i).
    assert (W1B : bpow radix2 (-1022) <= B * W1).
    { apply Rle_trans with (bpow radix2 (-900) * bpow radix2 (-106)).
      - rewrite <- bpow_plus. apply bpow_le. lia.
      - apply Rmult_le_compat; unfold W1; lra. }
    assert (BW : 0 <= B * W) by (apply Rmult_le_pos; lra).
    assert (Bw : 0 <= B * w i) by (apply Rmult_le_pos; lra).
    assert (EW : B * W1 = B * W + B * w i) by (unfold W1; ring).
    assert (XW : Rabs (x i * w i) <= B * w i).
    { rewrite Rabs_mult, (Rabs_pos_eq (w i)) by lra. apply Rmult_le_compat_r; lra. }
    assert (E1 : Rabs ((A + P i) - (X + x i * w i)) <= g * (B * W) + u * (B * w i)).
    { replace ((A + P i) - (X + x i * w i)) with ((A - X) + (P i - x i * w i)) by ring.
      eapply Rle_trans; [apply Rabs_triang|]. lra. }
    assert (E2 : g * (B * W) + u * (B * w i) <= g * (B * W1)) by (rewrite EW; nra).
    assert (X1 : Rabs (X + x i * w i) <= B * W1).
    { eapply Rle_trans; [apply Rabs_triang|]. lra. }
    assert (E3 : Rabs (A + P i) <= 2 * (B * W1)).
    { replace (A + P i) with (((A + P i) - (X + x i * w i)) + (X + x i * w i)) by ring.
      eapply Rle_trans; [apply Rabs_triang|].
      assert (g * (B * W1) <= / 2 * (B * W1)) by (apply Rmult_le_compat_r; lra). lra. }
    assert (R1 : Rabs (rnd64 (A + P i) - (A + P i)) <= u * (2 * (B * W1))).
    { apply rnd64_rel; [exact E3|]. assert (0 < bpow radix2 (-1022)) by apply bpow_gt_0. lra. }
    assert (FIN : Rabs (A + P i) <= bpow radix2 900).
    { eapply Rle_trans; [exact E3|].
      apply Rle_trans with (2 * (bpow radix2 800 * bpow radix2 51)).
      - apply Rmult_le_compat_l; [lra|]. apply Rmult_le_compat; try lra; [unfold W1; lra|].
        unfold W1. simpl (bpow radix2 51). lra.
      - change 2 with (bpow radix2 1). rewrite <- !bpow_plus. apply bpow_le. lia. }
    destruct (IH (nadd D a (p i)) (rnd64 (A + P i)) (X + x i * w i) W1 (S k)) as (A' & F & E).
    + intros j Hj. apply H. right; auto.
    + apply add_is; auto.
    + rewrite S_INR.
      replace (rnd64 (A + P i) - (X + x i * w i))
        with ((rnd64 (A + P i) - (A + P i)) + ((A + P i) - (X + x i * w i))) by ring.
      eapply Rle_trans; [apply Rabs_triang|].
      replace (2 * u * (INR k + 1 + 1) * (B * W1)) with (u * (2 * (B * W1)) + g * (B * W1)) by (unfold g; ring).
      lra.
    + exact X1.
    + rewrite S_INR. unfold W1. lra.
    + exact HK.
    + exists A'. split; [exact F|]. unfold W1 in E. unfold sum in *. cbn [map fold_right].
      replace (X + (x i * w i + fold_right Rplus 0 (map (fun i => x i * w i) l)))
        with (X + x i * w i + fold_right Rplus 0 (map (fun i => x i * w i) l)) by ring.
      replace (W + (w i + fold_right Rplus 0 (map w l))) with (W + w i + fold_right Rplus 0 (map w l)) by ring.
      exact E.
Qed.

Lemma sum_err l :
  (forall i, In i l -> is pw (p i) (P i) /\ Rabs (P i - x i * w i) <= u * (B * w i) /\
                       Rabs (x i) <= B /\ bpow radix2 (-106) <= w i <= 1) ->
  INR (length l) + 1 <= 2251799813685248 ->
  exists A', is pw (@acc_sum D K p l) A' /\
    Rabs (A' - sum (fun i => x i * w i) l) <= 2 * u * (INR (length l) + 1) * (B * sum w l).
Proof.
  intros H L. destruct (fold_err l (@lit D 0) 0 0 0 0 H) as (A' & F & E).
  - apply (lit_is pw 0). lia.
  - rewrite Rminus_diag_eq, Rabs_R0 by reflexivity. rewrite Rmult_0_r, Rmult_0_r. lra.
  - rewrite Rabs_R0. lra.
  - simpl. lra.
  - exact L.
  - exists A'. split; [exact F|]. rewrite !Rplus_0_l in E. exact E.
Qed.

Lemma sum_bound l : (forall i, In i l -> Rabs (x i) <= B /\ 0 <= w i) ->
  Rabs (sum (fun i => x i * w i) l) <= B * sum w l.
Proof.
  unfold sum. induction l as [|i l IH]; intros H; simpl.
  - rewrite Rabs_R0. lra.
  - destruct (H i (or_introl eq_refl)) as [Hx Hw]. eapply Rle_trans; [apply Rabs_triang|].
    specialize (IH (fun j Hj => H j (or_intror Hj))).
    rewrite Rabs_mult, (Rabs_pos_eq (w i)) by lra.
    assert (Rabs (x i) * w i <= B * w i) by (apply Rmult_le_compat_r; lra). lra.
Qed.

End Sum.

(** A ratio whose parts have relative errors. *)
Lemma ratio_err X W X' W' a B : 0 < W -> 0 <= a <= / 2 -> 0 <= B ->
  Rabs X <= B * W -> Rabs (X' - X) <= a * (B * W) -> Rabs (W' - W) <= a * W ->
  / 2 * W <= W' /\ Rabs (X' / W' - X / W) <= 4 * a * B.
Proof.
  intros HW Ha HB HX HE HE'. apply Rabs_le_inv in HE'.
  assert (WL : / 2 * W <= W') by nra. split; [exact WL|].
  replace (X' / W' - X / W) with (((X' - X) * W - X * (W' - W)) / (W * W')) by (field; lra).
  unfold Rdiv. rewrite Rabs_mult, (Rabs_pos_eq (/ (W * W'))) by (left; apply Rinv_0_lt_compat; nra).
  apply Rmult_le_reg_r with (W * W'); [nra|]. rewrite Rmult_assoc, Rinv_l by nra. rewrite Rmult_1_r.
  assert (N : Rabs ((X' - X) * W - X * (W' - W)) <= 2 * a * B * (W * W)).
  { unfold Rminus at 1. eapply Rle_trans; [apply Rabs_triang|]. rewrite Rabs_Ropp, !Rabs_mult.
    rewrite (Rabs_pos_eq W) by lra.
    assert (Rabs (X' - X) * W <= a * (B * W) * W) by (apply Rmult_le_compat_r; lra).
    assert (Rabs X * Rabs (W' - W) <= B * W * (a * W)).
    { apply Rmult_le_compat; try apply Rabs_pos; [lra|]. apply Rabs_le. lra. }
    nra. }
  eapply Rle_trans; [exact N|].
  assert (0 <= a * B) by (apply Rmult_le_pos; lra).
  assert (W * W <= 2 * (W * W')) by nra.
  replace (4 * a * B * (W * W')) with (2 * (a * B) * (2 * (W * W'))) by ring.
  replace (2 * a * B * (W * W)) with (2 * (a * B) * (W * W)) by ring.
  apply Rmult_le_compat_l; lra.
Qed.

(** Dividing the two sums. *)
Lemma average_err X W xs ws xr wr m B : 0 < W -> 0 <= m -> m + 1 <= 281474976710656 ->
  bpow radix2 (-900) <= B <= bpow radix2 800 ->
  Rabs X <= B * W -> is pw xs xr -> is pw ws wr ->
  Rabs (xr - X) <= 2 * u * (m + 1) * (B * W) -> Rabs (wr - W) <= 2 * u * (m + 1) * W ->
  exists r, is pw (ndiv D xs ws) r /\ Rabs (r - X / W) <= (8 * (m + 1) + 2) * u * B.
Proof.
  intros HW Hm Hm' HB HX Ix Iw Ex Ew. pose proof u_pos as U. pose proof (bpow_gt_0 radix2 (-900)) as BP.
  set (a := 2 * u * (m + 1)) in *.
  assert (A : 0 <= a <= / 4).
  { unfold a. split; [nra|]. rewrite u_val. lra. }
  destruct (ratio_err X W xr wr a B HW ltac:(lra) ltac:(lra) HX Ex Ew) as [WL E].
  assert (Q : Rabs (X / W) <= B).
  { unfold Rdiv. rewrite Rabs_mult, (Rabs_pos_eq (/ W)) by (left; apply Rinv_0_lt_compat; lra).
    apply Rmult_le_reg_r with W; auto. rewrite Rmult_assoc, Rinv_l by lra. lra. }
  assert (Q' : Rabs (xr / wr) <= 2 * B).
  { replace (xr / wr) with ((xr / wr - X / W) + X / W) by ring.
    eapply Rle_trans; [apply Rabs_triang|]. assert (4 * a * B <= 1 * B) by (apply Rmult_le_compat_r; lra). lra. }
  exists (rnd64 (xr / wr)). split.
  - apply div_is; auto; [lra|]. eapply Rle_trans; [exact Q'|].
    apply Rle_trans with (bpow radix2 1 * bpow radix2 800); [simpl (bpow radix2 1); lra|].
    rewrite <- bpow_plus. apply bpow_le. lia.
  - assert (R1 : Rabs (rnd64 (xr / wr) - xr / wr) <= u * (2 * B)).
    { apply rnd64_rel; [exact Q'|]. apply Rle_trans with (bpow radix2 (-900)); [apply bpow_le; lia|lra]. }
    replace (rnd64 (xr / wr) - X / W) with ((rnd64 (xr / wr) - xr / wr) + (xr / wr - X / W)) by ring.
    eapply Rle_trans; [apply Rabs_triang|].
    replace ((8 * (m + 1) + 2) * u * B) with (u * (2 * B) + 4 * a * B) by (unfold a; ring). lra.
Qed.

(** Weighted averages with unit weights: the box filter. *)
Lemma box_average {K} (p : K -> num D) (x : K -> R) B l :
  bpow radix2 (-900) <= B <= bpow radix2 800 -> l <> [] -> INR (length l) + 1 <= 281474976710656 ->
  (forall i, In i l -> is pw (p i) (x i) /\ Rabs (x i) <= B) ->
  exists r, is pw (ndiv D (@acc_sum D K p l) (@ofN D (N.of_nat (length l)))) r /\
    Rabs (r - sum (fun i => x i * 1) l / sum (fun _ => 1) l) <= 8 * (INR (length l) + 2) * u * B.
Proof.
  intros HB NE L H. pose proof u_pos as U.
  assert (M : 1 <= INR (length l)).
  { destruct l; [congruence|]. simpl length. rewrite S_INR. pose proof (pos_INR (length l)). lra. }
  destruct (sum_err p x x (fun _ => 1) B HB l) as (A & IA & EA).
  - intros i I. destruct (H i I) as [H1 H2]. split; auto. split.
    + rewrite Rmult_1_r, Rminus_diag_eq, Rabs_R0 by reflexivity.
      apply Rmult_le_pos; [lra|]. pose proof (bpow_gt_0 radix2 (-900)). lra.
    + split; auto. split; [|lra]. change 1 with (bpow radix2 0). apply bpow_le. lia.
  - lra.
  - assert (ES : sum (fun _ : K => 1) l = INR (length l)) by (rewrite sum_one, INR_NR; reflexivity).
    destruct (average_err (sum (fun i => x i * 1) l) (sum (fun _ => 1) l) (@acc_sum D K p l)
      (@ofN D (N.of_nat (length l))) A (INR (length l)) (INR (length l)) B) as (r & Ir & Er); auto.
    + rewrite ES. lra.
    + lra.
    + apply sum_bound. intros i I. destruct (H i I). split; auto. lra.
    + rewrite INR_NR. apply ofN_is. rewrite INR_NR in L. unfold NR in L.
      assert (IZR (Z.of_N (N.of_nat (length l)) + 1) <= IZR 281474976710656) by (rewrite plus_IZR; exact L).
      apply le_IZR in H0. lia.
    + rewrite ES, Rminus_diag_eq, Rabs_R0 by reflexivity.
      apply Rmult_le_pos; [|lra]. apply Rmult_le_pos; lra.
    + exists r. split; auto. eapply Rle_trans; [exact Er|].
      pose proof (bpow_gt_0 radix2 (-900)).
      apply Rmult_le_compat_r; [lra|]. apply Rmult_le_compat_r; lra.
Qed.

(** Weighted averages of the linear filter: [w] is the exact weight, [s] the one computed. *)
Lemma linear_average {K} (p q : K -> num D) (x w s : K -> R) B l :
  bpow radix2 (-900) <= B <= bpow radix2 800 -> INR (length l) + 1 <= 281474976710656 ->
  0 < sum w l ->
  (forall i, In i l -> is pw (p i) (x i) /\ Rabs (x i) <= B /\ is pw (q i) (s i) /\
     Rabs (s i - w i) <= u * w i /\ bpow radix2 (-106) <= s i <= 1 /\ 0 <= w i) ->
  exists r, is pw (ndiv D (@acc_sum D K (fun i => nmul D (p i) (q i)) l) (@acc_sum D K q l)) r /\
    Rabs (r - sum (fun i => x i * w i) l / sum w l) <= 8 * (INR (length l) + 2) * u * B.
Proof.
  intros HB L WP H. pose proof u_pos as U. pose proof (bpow_gt_0 radix2 (-900)) as BP.
  assert (M : 0 <= INR (length l)) by apply pos_INR.
  (* the computed weights *)
  assert (SW : Rabs (sum s l - sum w l) <= u * sum w l).
  { clear -H U. unfold sum. induction l as [|i l IH]; simpl; [rewrite Rminus_0_r, Rabs_R0; lra|].
    specialize (IH (fun j Hj => H j (or_intror Hj))).
    destruct (H i (or_introl eq_refl)) as (_ & _ & _ & E & _).
    match goal with |- Rabs (?a + ?b - (?c + ?d)) <= _ =>
      replace (a + b - (c + d)) with ((a - c) + (b - d)) by ring end.
    eapply Rle_trans; [apply Rabs_triang|]. lra. }
  assert (SX : Rabs (sum (fun i => x i * s i) l - sum (fun i => x i * w i) l) <= u * (B * sum w l)).
  { clear -H U BP HB. unfold sum. induction l as [|i l IH]; simpl; [rewrite Rminus_0_r, Rabs_R0; nra|].
    specialize (IH (fun j Hj => H j (or_intror Hj))).
    destruct (H i (or_introl eq_refl)) as (_ & Hx & _ & E & _).
    match goal with |- Rabs (?a * ?a' + ?b - (?c * ?c' + ?d)) <= _ =>
      replace (a * a' + b - (c * c' + d)) with (a * (a' - c') + (b - d)) by ring end.
    eapply Rle_trans; [apply Rabs_triang|]. rewrite Rabs_mult.
    assert (Rabs (x i) * Rabs (s i - w i) <= B * (u * w i))
      by (apply Rmult_le_compat; try apply Rabs_pos; auto).
    nra. }
  assert (SB : Rabs (sum (fun i => x i * w i) l) <= B * sum w l).
  { apply sum_bound. intros i I. destruct (H i I) as (_ & ? & _ & _ & _ & ?). auto. }
  destruct (ratio_err _ _ _ _ u B WP ltac:(lra) ltac:(lra) SB SX SW) as [SL RE].
  (* the sums *)
  destruct (sum_err (fun i => nmul D (p i) (q i)) (fun i => rnd64 (x i * s i)) x s B HB l) as (A & IA & EA).
  - intros i I. destruct (H i I) as (H1 & H2 & H3 & H4 & H5 & H6).
    pose proof (bpow_gt_0 radix2 (-106)).
    assert (XB : Rabs (x i * s i) <= B * s i).
    { rewrite Rabs_mult, (Rabs_pos_eq (s i)) by lra. apply Rmult_le_compat_r; lra. }
    split; [|split; [|auto]].
    + apply mul_is; auto. eapply Rle_trans; [exact XB|].
      apply Rle_trans with (bpow radix2 800 * 1); [apply Rmult_le_compat; lra|].
      rewrite Rmult_1_r. apply bpow_le. lia.
    + apply rnd64_rel; [exact XB|].
      apply Rle_trans with (bpow radix2 (-900) * bpow radix2 (-106)).
      * rewrite <- bpow_plus. apply bpow_le. lia.
      * apply Rmult_le_compat; lra.
  - lra.
  - assert (H1 : bpow radix2 (-900) <= 1 <= bpow radix2 800).
    { change 1 with (bpow radix2 0). split; apply bpow_le; lia. }
    destruct (sum_err q s (fun _ => 1) s 1 H1 l) as (Wr & IW & EW).
    + intros i I. destruct (H i I) as (_ & _ & H3 & _ & H5 & _).
      pose proof (bpow_gt_0 radix2 (-106)). split; auto. split.
      * rewrite Rmult_1_l, Rminus_diag_eq, Rabs_R0 by reflexivity. apply Rmult_le_pos; lra.
      * split; auto. rewrite Rabs_R1. lra.
    + lra.
    + assert (S1 : sum (fun i => 1 * s i) l = sum s l) by (apply sum_ext; intros; ring).
      rewrite S1, Rmult_1_l in EW.
      destruct (average_err (sum (fun i => x i * s i) l) (sum s l)
        (@acc_sum D K (fun i => nmul D (p i) (q i)) l) (@acc_sum D K q l) A Wr (INR (length l)) B
        ltac:(lra) M L HB) as (r & Ir & Er); auto.
      { apply sum_bound. intros i I. destruct (H i I) as (_ & ? & _ & _ & ? & _).
        pose proof (bpow_gt_0 radix2 (-106)). split; auto. lra. }
      exists r. split; [exact Ir|].
      match goal with |- Rabs (r - ?t) <= _ =>
        replace (r - t) with ((r - sum (fun i => x i * s i) l / sum s l) + (sum (fun i => x i * s i) l / sum s l - t)) by ring end.
      eapply Rle_trans; [apply Rabs_triang|].
      replace (8 * (INR (length l) + 2) * u * B) with ((8 * (INR (length l) + 1) + 2) * u * B + 4 * u * B + 2 * u * B) by ring.
      assert (0 <= u * B) by (apply Rmult_le_pos; lra). lra.
Qed.

End Pow.

(** The quotient of a sum of integers by a count, truncated, is exact. *)
Lemma trunc_quotient S m : (0 < m <= 2 ^ 17)%Z -> (Z.abs S <= m * 2 ^ 32)%Z ->
  Ztrunc (rnd64 (IZR S / IZR m)) = Ztrunc (IZR S / IZR m).
Proof.
  assert (POS : forall S m, (0 < m <= 2 ^ 17)%Z -> (0 <= S <= m * 2 ^ 32)%Z ->
    Ztrunc (rnd64 (IZR S / IZR m)) = Ztrunc (IZR S / IZR m)).
  { clear S m. intros S m Hm HS.
    assert (MP : 1 <= IZR m <= 131072) by (split; apply IZR_le; lia).
    set (t := IZR S / IZR m).
    assert (T0 : 0 <= t).
    { apply Rmult_le_pos; [apply IZR_le; lia|]. left; apply Rinv_0_lt_compat; lra. }
    assert (TM : t * IZR m = IZR S) by (unfold t; field; lra).
    assert (T1 : t <= 4294967296).
    { apply Rmult_le_reg_r with (IZR m); [lra|]. rewrite TM. rewrite <- mult_IZR. apply IZR_le. lia. }
    pose proof (Zfloor_lb t) as L. pose proof (Zfloor_ub t) as U.
    set (q := Zfloor t) in *.
    assert (Q0 : (0 <= q <= 2 ^ 32)%Z).
    { split; [apply Zfloor_lub; simpl; lra|]. apply le_IZR. change (IZR (2 ^ 32)) with 4294967296. lra. }
    assert (G : t <= IZR q + 1 - / IZR m).
    { apply Rmult_le_reg_r with (IZR m); [lra|]. rewrite TM.
      rewrite Rmult_minus_distr_r, Rinv_l by lra.
      assert (X : (S < (q + 1) * m)%Z).
      { apply lt_IZR. rewrite mult_IZR, plus_IZR, <- TM. apply Rmult_lt_compat_r; lra. }
      assert (Y : (S <= (q + 1) * m - 1)%Z) by lia. apply IZR_le in Y.
      rewrite minus_IZR, mult_IZR, plus_IZR in Y. lra. }
    assert (IM : / 131072 <= / IZR m) by (apply Rinv_le; lra).
    assert (E : Rabs (rnd64 t - t) <= / 2097152).
    { apply Rle_trans with (bpow radix2 (32 - 53)); [apply rnd64_err; [lia|]|simpl; lra].
      rewrite Rabs_pos_eq by lra. simpl. lra. }
    apply Rabs_le_inv in E.
    assert (RL : IZR q <= rnd64 t) by (apply rnd64_ge_fmt; [apply int_format64; lia|lra]).
    assert (RP : 0 <= rnd64 t) by (apply rnd64_pos; lra).
    rewrite !Ztrunc_floor by lra. fold q. apply Zfloor_imp. rewrite plus_IZR. lra. }
  intros Hm HS. destruct (Z.le_ge_cases 0 S) as [P|N].
  - apply POS; lia.
  - replace (IZR S / IZR m) with (- (IZR (- S) / IZR m)).
    + rewrite rnd64_opp, !Ztrunc_opp. f_equal. apply POS; lia.
    + rewrite opp_IZR. field. apply not_0_IZR. lia.
Qed.

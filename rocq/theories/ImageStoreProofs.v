(** Reading a pixel and storing it again. *)

From Coq Require Import ZArith NArith List Bool Lia Reals Lra.
From Flocq Require Import Core IEEE754.BinarySingleNaN IEEE754.Binary IEEE754.Bits.
From Verif Require Import Base FormatModel FloatModel FloatSpec FloatProofs ArithModel ArithSpec
  DoubleProofs TextureModel ImageModel ImageSpec.
Import ListNotations.
Local Open Scope Z_scope.

Lemma cast_int_ok lo hi k : lo <= k <= hi -> cast_int lo hi (Some k) = Some k.
Proof.
  intros H. unfold cast_int. destruct (Z.leb_spec lo k), (Z.leb_spec k hi); try lia. reflexivity.
Qed.

Section Store.
Context (pw : double -> double -> double).
Local Notation D := (double_arith pw).

Lemma lit_ok z : Z.abs z <= 2 ^ 53 ->
  dreal (@lit D z) = IZR z /\ dfinite (@lit D z) = true.
Proof. apply double_of_Z_ok. Qed.

Local Open Scope R_scope.

Lemma clamp01_ok (d : double) : dfinite d = true ->
  dfinite (@clamp01 D d) = true /\ dreal (@clamp01 D d) = Rmax 0 (Rmin 1 (dreal d)).
Proof.
  intros F. unfold clamp01, nmax, nmin. cbn [nltb double_arith].
  destruct (lit_ok 1) as [L1 F1]; [simpl; lia|]. destruct (lit_ok 0) as [L0 F0]; [simpl; lia|].
  rewrite (dltb_ok (@lit D 1) d) by auto. rewrite L1.
  destruct (Rlt_bool_spec 1 (dreal d)).
  - rewrite dltb_ok by auto. rewrite L1, L0. rewrite Rlt_bool_false by lra.
    split; auto. rewrite L1. rewrite Rmin_left by lra. rewrite Rmax_right by lra. reflexivity.
  - rewrite dltb_ok by auto. rewrite L0.
    rewrite Rmin_right by lra.
    destruct (Rlt_bool_spec (dreal d) 0).
    + split; auto. rewrite L0. rewrite Rmax_left by lra. reflexivity.
    + split; auto. rewrite Rmax_right by lra. reflexivity.
Qed.

Lemma bpow_m n : (0 < n)%Z -> bpow radix2 (- n) = / IZR (2 ^ n).
Proof. intros. rewrite bpow_opp. rewrite <- IZR_Zpower by lia. reflexivity. Qed.

(** Every double in [0,1]-range times the maximum rounds to an integer between 0 and it; a
    double close to v/m rounds to v. *)
Lemma fromNorm_value hi m (d : double) : (0 < m <= 65535)%Z -> (m <= hi)%Z -> dfinite d = true ->
  @fromNorm D hi m d = Some (nearest (rnd64 (Rmax 0 (Rmin 1 (dreal d)) * IZR m))) /\
  (0 <= nearest (rnd64 (Rmax 0 (Rmin 1 (dreal d)) * IZR m)) <= m)%Z.
Proof.
  intros Hm Hh F. unfold fromNorm. cbn [nround nmul double_arith].
  destruct (clamp01_ok d F) as [Fc Rc].
  destruct (lit_ok m) as [Lm Fm]; [lia|].
  set (x := Rmax 0 (Rmin 1 (dreal d))) in *.
  assert (X : 0 <= x <= 1).
  { unfold x; split; [apply Rmax_l|apply Rmax_lub; [lra|apply Rmin_l]]. }
  assert (M1 : 1 <= IZR m <= 65535) by (split; apply IZR_le; lia).
  assert (B : 0 <= x * IZR m <= IZR m) by nra.
  destruct (dmul_ok (@clamp01 D d) (@lit D m) Fc Fm) as [Fp Rp].
  { rewrite Rc, Lm. fold x. rewrite Rabs_pos_eq by lra.
    apply Rle_trans with (bpow radix2 16); [|apply bpow_le; lia].
    change (bpow radix2 16) with 65536. lra. }
  rewrite dround_ok by exact Fp. rewrite Rp, Rc, Lm.
  assert (N : (0 <= nearest (rnd64 (x * IZR m)) <= m)%Z).
  { split.
    - rewrite <- (nearest_int 0). apply nearest_le. rewrite <- rnd64_0. apply rnd64_le; lra.
    - rewrite <- (nearest_int m) at 2. apply nearest_le.
      apply Rle_trans with (rnd64 (IZR m)); [apply rnd64_le; lra|].
      rewrite rnd64_int by lia. lra. }
  split; [|exact N]. apply cast_int_ok. lia.
Qed.

Lemma nearest_near x v : Rabs (x - IZR v) < / 2 -> nearest x = v.
Proof. intros H. unfold nearest. apply Znearest_imp. exact H. Qed.

Lemma fromNorm_near hi m v (d : double) : (0 < m <= 65535)%Z -> (m <= hi)%Z -> (0 <= v <= m)%Z ->
  dfinite d = true -> Rabs (dreal d - IZR v / IZR m) <= / IZR (2 ^ 40) ->
  @fromNorm D hi m d = Some v.
Proof.
  intros Hm Hh Hv F H. destruct (fromNorm_value hi m d Hm Hh F) as [-> _].
  f_equal. apply nearest_near.
  assert (M1 : 1 <= IZR m <= 65535) by (split; apply IZR_le; lia).
  assert (V : 0 <= IZR v <= IZR m) by (split; apply IZR_le; lia).
  assert (Q : 0 <= IZR v / IZR m <= 1).
  { split; [apply Rmult_le_pos; [lra|left; apply Rinv_0_lt_compat; lra]|].
    apply Rmult_le_reg_r with (IZR m); [lra|]. unfold Rdiv. rewrite Rmult_assoc, Rinv_l by lra. lra. }
  set (q := IZR v / IZR m) in *.
  assert (E : q * IZR m = IZR v) by (unfold q; field; lra).
  set (x := Rmax 0 (Rmin 1 (dreal d))).
  assert (X : Rabs (x - q) <= / IZR (2 ^ 40)).
  { unfold x. revert H. unfold Rabs, Rmax, Rmin.
    repeat destruct Rle_dec; repeat destruct Rcase_abs; lra. }
  assert (XR : 0 <= x <= 1).
  { unfold x; split; [apply Rmax_l|apply Rmax_lub; [lra|apply Rmin_l]]. }
  assert (B : Rabs (x * IZR m) <= bpow radix2 16).
  { rewrite Rabs_pos_eq by nra. change (bpow radix2 16) with 65536. nra. }
  pose proof (rnd64_err (x * IZR m) 16 ltac:(lia) B) as Er.
  change (bpow radix2 (16 - 53)) with (/ IZR (2 ^ 37)) in Er.
  assert (Em : Rabs (x * IZR m - IZR v) <= / IZR (2 ^ 24)).
  { rewrite <- E. replace (x * IZR m - q * IZR m) with ((x - q) * IZR m) by ring.
    rewrite Rabs_mult, (Rabs_pos_eq (IZR m)) by lra.
    apply Rle_trans with (/ IZR (2 ^ 40) * 65535).
    - apply Rmult_le_compat; try lra; apply Rabs_pos.
    - change (IZR (2^40)) with 1099511627776. change (IZR (2^24)) with 16777216. lra. }
  replace (rnd64 (x * IZR m) - IZR v) with ((rnd64 (x * IZR m) - x * IZR m) + (x * IZR m - IZR v)) by ring.
  eapply Rle_lt_trans; [apply Rabs_triang|].
  change (IZR (2^37)) with 137438953472 in Er. change (IZR (2^24)) with 16777216 in Em. lra.
Qed.

Lemma toNorm_ok m v : (0 < m <= 65535)%Z -> (0 <= v <= m)%Z ->
  dfinite (@toNorm D m v) = true /\ dreal (@toNorm D m v) = rnd64 (IZR v / IZR m) /\
  0 <= dreal (@toNorm D m v) <= 1 /\
  Rabs (dreal (@toNorm D m v) - IZR v / IZR m) <= / IZR (2 ^ 53).
Proof.
  intros Hm Hv. unfold toNorm. cbn [ndiv double_arith].
  destruct (lit_ok m) as [Lm Fm]; [lia|]. destruct (lit_ok v) as [Lv Fv]; [lia|].
  assert (M1 : 1 <= IZR m <= 65535) by (split; apply IZR_le; lia).
  assert (V : 0 <= IZR v <= IZR m) by (split; apply IZR_le; lia).
  assert (Q : 0 <= IZR v / IZR m <= 1).
  { split; [apply Rmult_le_pos; [lra|left; apply Rinv_0_lt_compat; lra]|].
    apply Rmult_le_reg_r with (IZR m); [lra|]. unfold Rdiv. rewrite Rmult_assoc, Rinv_l by lra. lra. }
  destruct (ddiv_ok (@lit D v) (@lit D m) Fv) as [Fd Rd].
  - rewrite Lm. lra.
  - rewrite Lv, Lm, Rabs_pos_eq by lra.
    apply Rle_trans with (bpow radix2 0); [simpl; lra|apply bpow_le; lia].
  - rewrite Lv, Lm in Rd. split; [exact Fd|]. split; [exact Rd|]. rewrite Rd. split.
    + split.
      * rewrite <- rnd64_0. apply rnd64_le; lra.
      * rewrite <- (rnd64_int 1) by (simpl; lia). apply rnd64_le; lra.
    + eapply Rle_trans; [apply (rnd64_err _ 0); [lia|]|].
      * rewrite Rabs_pos_eq by lra. simpl. lra.
      * change (bpow radix2 (0 - 53)) with (/ IZR (2 ^ 53)). lra.
Qed.

Lemma norm_roundtrip hi m v : (0 < m <= 65535)%Z -> (m <= hi)%Z -> (0 <= v <= m)%Z ->
  @fromNorm D hi m (@toNorm D m v) = Some v.
Proof.
  intros Hm Hh Hv. destruct (toNorm_ok m v Hm Hv) as (F & _ & _ & E).
  apply fromNorm_near; auto. eapply Rle_trans; [exact E|].
  change (IZR (2^53)) with 9007199254740992. change (IZR (2^40)) with 1099511627776. lra.
Qed.

Lemma int_roundtrip lo hi v : (lo <= v <= hi)%Z -> (Z.abs v <= 2 ^ 53)%Z ->
  @toInt D lo hi (@lit D v) = Some v.
Proof.
  intros H B. unfold toInt. cbn [ntrunc double_arith].
  destruct (lit_ok v B) as [L F]. rewrite dtrunc_ok by exact F. rewrite L, Ztrunc_IZR.
  apply cast_int_ok; auto.
Qed.

End Store.

Local Open Scope Z_scope.

(** The packed formats: every channel value and every word. *)
Definition all16 (P : Z -> bool) : bool :=
  let r := map Z.of_N (Nrange 256) in forallb (fun a => forallb (fun b => P (256 * a + b)) r) r.

Lemma all16_spec P : all16 P = true -> forall z, 0 <= z <= 65535 -> P z = true.
Proof.
  unfold all16; cbv zeta. intros H z Hz. rewrite forallb_forall in H.
  assert (I : forall k, 0 <= k < 256 -> In k (map Z.of_N (Nrange 256))).
  { intros k Hk. apply in_map_iff. exists (Z.to_N k). split; [lia|]. apply in_Nrange. lia. }
  pose proof (Z.div_mod z 256 ltac:(lia)) as E.
  pose proof (Z.mod_pos_bound z 256 ltac:(lia)) as M.
  assert (Q : 0 <= z / 256 < 256)
    by (split; [apply Z.div_pos; lia|apply Z.div_lt_upper_bound; lia]).
  specialize (H (z / 256) (I _ Q)).
  rewrite forallb_forall in H. specialize (H (z mod 256) (I _ M)).
  rewrite <- E in H. exact H.
Qed.

Definition check555 (w : Z) : bool :=
  let r := field w M555r 10 in let g := field w M555g 5 in let b := field w M555b 0 in
  (0 <=? r) && (r <=? 31) && (0 <=? g) && (g <=? 31) && (0 <=? b) && (b <=? 31)
  && (Z.lor (Z.lor (Z.shiftl r 10) (Z.shiftl g 5)) b mod 2 ^ 16 =? w mod 2 ^ 15).
Definition check565 (w : Z) : bool :=
  let r := field w M565r 11 in let g := field w M565g 5 in let b := field w M565b 0 in
  (0 <=? r) && (r <=? 31) && (0 <=? g) && (g <=? 63) && (0 <=? b) && (b <=? 31)
  && (Z.lor (Z.lor (Z.shiftl r 11) (Z.shiftl g 5)) b mod 2 ^ 16 =? w).

Lemma check555_all w : 0 <= w <= 65535 -> check555 w = true.
Proof. intros H. apply (all16_spec check555); [vm_compute; reflexivity|lia]. Qed.
Lemma check565_all w : 0 <= w <= 65535 -> check565 w = true.
Proof. intros H. apply (all16_spec check565); [vm_compute; reflexivity|lia]. Qed.

Section Roundtrip.
Context (pw : double -> double -> double).
Local Notation D := (double_arith pw).

Lemma rt8 v : u8 v -> @from8 D (toNorm 255 v) = Some v.
Proof. intros H. apply norm_roundtrip; unfold u8, range in *; lia. Qed.
Lemma rt16 v : u16 v -> @from16 D (toNorm 65535 v) = Some v.
Proof. intros H. apply norm_roundtrip; unfold u16, range in *; lia. Qed.
Lemma rt5 v : 0 <= v <= 31 -> @from5 D (toNorm 31 v) = Some v.
Proof. intros H. apply norm_roundtrip; lia. Qed.
Lemma rt6 v : 0 <= v <= 63 -> @from6 D (toNorm 63 v) = Some v.
Proof. intros H. apply norm_roundtrip; lia. Qed.

Lemma same_narrow (x : float) : same_float (dnarrow (dwiden x)) x.
Proof.
  destruct (nan x) eqn:N; [right|left].
  - split; auto. apply narrow_widen_nan; auto.
  - apply narrow_widen; auto.
Qed.

(** The main fact: storing the colour that was read keeps the channels. *)
Theorem store_read f (p : pix D) : stored pw f p ->
  exists c q, getPixelImpl f p = Some c /\ setPixelNoGrayscaleImpl f c = Some q /\
    stored pw f q /\ same_pix pw f q p.
Proof.
  intros S.
  destruct f; destruct p as [l|l|l];
    destruct l as [|x1 [|x2 [|x3 [|x4 [|x5 l]]]]]; try contradiction;
    cbn [stored] in S; cbn [getPixelImpl];
    eexists; eexists; (split; [reflexivity|]); cbn [setPixelNoGrayscaleImpl setCommon c_r c_g c_b c_a gray].
  (* normalised single channel *)
  - rewrite (rt8 _ S). cbn. split; [reflexivity|]. split; [exact S|reflexivity].
  - rewrite (rt16 _ S). cbn. split; [reflexivity|]. split; [exact S|reflexivity].
  (* 555 *)
  - unfold u16, range in S. pose proof (check555_all x1 S) as C. unfold check555 in C.
    rewrite !andb_true_iff, !Z.leb_le, Z.eqb_eq in C. destruct C as [[[[[[C1 C2] C3] C4] C5] C6] C7].
    rewrite !rt5 by lia. cbn [oPack obind]. split; [reflexivity|].
    rewrite C7. split.
    + cbn. unfold u16, range. pose proof (Z.mod_pos_bound x1 (2^15)). change (2^15) with 32768 in *. lia.
    + cbn [same_pix map]. rewrite Z.mod_mod by (vm_compute; discriminate). reflexivity.
  (* 565 *)
  - unfold u16, range in S. pose proof (check565_all x1 S) as C. unfold check565 in C.
    rewrite !andb_true_iff, !Z.leb_le, Z.eqb_eq in C. destruct C as [[[[[[C1 C2] C3] C4] C5] C6] C7].
    rewrite !rt5, rt6 by lia. cbn [oPack obind]. split; [reflexivity|].
    rewrite C7. split; [exact S|reflexivity].
  - destruct S as (S1 & S2 & S3). rewrite !rt8 by assumption. cbn.
    split; [reflexivity|]. split; [tauto|reflexivity].
  - destruct S as (S1 & S2 & S3). rewrite !rt16 by assumption. cbn.
    split; [reflexivity|]. split; [tauto|reflexivity].
  - split; [reflexivity|]. split; [exact I|].
    cbn [same_pix]. repeat (apply Forall2_cons; [apply same_narrow|]). apply Forall2_nil.
  - destruct S as (S1 & S2 & S3 & S4). rewrite !rt8 by assumption. cbn.
    split; [reflexivity|]. split; [tauto|reflexivity].
  - destruct S as (S1 & S2 & S3 & S4). rewrite !rt16 by assumption. cbn.
    split; [reflexivity|]. split; [tauto|reflexivity].
  - split; [reflexivity|]. split; [exact I|].
    cbn [same_pix]. repeat (apply Forall2_cons; [apply same_narrow|]). apply Forall2_nil.
  - unfold range in S. rewrite int_roundtrip by (simpl; lia). cbn.
    split; [reflexivity|]. split; [exact S|reflexivity].
  - unfold u16, range in S. rewrite int_roundtrip by (simpl; lia). cbn.
    split; [reflexivity|]. split; [exact S|reflexivity].
  - unfold range in S. rewrite int_roundtrip by (simpl; lia). cbn.
    split; [reflexivity|]. split; [exact S|reflexivity].
  - unfold range in S. rewrite int_roundtrip by (simpl; lia). cbn.
    split; [reflexivity|]. split; [exact S|reflexivity].
  - split; [reflexivity|]. split; [exact I|].
    cbn [same_pix]. repeat (apply Forall2_cons; [apply same_narrow|]). apply Forall2_nil.
  - split; [reflexivity|]. split; [exact I|reflexivity].
  - split; [reflexivity|]. split; [exact I|reflexivity].
Qed.

Lemma same_float_refl a : same_float a a. Proof. left; auto. Qed.
Lemma same_float_sym a b : same_float a b -> same_float b a.
Proof. intros [->|[? ?]]; [left|right]; auto. Qed.
Lemma same_float_trans a b c : same_float a b -> same_float b c -> same_float a c.
Proof. intros [->|[? ?]] [->|[? ?]]; unfold same_float; auto. Qed.

Lemma same_pix_refl f p : same_pix pw f p p.
Proof.
  destruct p; cbn.
  - destruct f; reflexivity.
  - induction l; constructor; auto using same_float_refl.
  - reflexivity.
Qed.

Lemma same_pix_trans f p q r : same_pix pw f p q -> same_pix pw f q r -> same_pix pw f p r.
Proof.
  destruct p as [a|a|a], q as [b|b|b], r as [c|c|c]; cbn; try contradiction.
  - destruct f; congruence.
  - intros H; revert c. induction H; intros c H2; inversion H2; subst; constructor; eauto using same_float_trans.
  - congruence.
Qed.

Lemma same_pix_sym f p q : same_pix pw f p q -> same_pix pw f q p.
Proof.
  destruct p as [a|a|a], q as [b|b|b]; cbn; try contradiction.
  - destruct f; congruence.
  - induction 1; constructor; auto using same_float_sym.
  - congruence.
Qed.

End Roundtrip.

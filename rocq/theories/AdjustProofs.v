(** The float arithmetic and the loops of adjustImageValueRange. *)

From Coq Require Import ZArith NArith List Bool Lia Reals Lra.
From Coq Require Import ZifyBool ZifyNat ZifyN.
From Flocq Require Import Core Relative IEEE754.BinarySingleNaN IEEE754.Binary IEEE754.Bits.
From Verif Require Import Base FormatModel FloatModel FloatSpec FloatProofs ArithModel ArithSpec
  DoubleProofs TextureModel ImageModel ImageLoops ImageSpec ImageStoreProofs ImageApiProofs
  AdjustModel.
Import ListNotations.
Local Open Scope R_scope.

Local Instance valid32' : Valid_exp (FLT_exp (-149) 24).
Proof. apply FLT_exp_valid. reflexivity. Qed.
Local Instance mono32' : Monotone_exp (FLT_exp (-149) 24).
Proof. apply FLT_exp_monotone. Qed.

Lemma rnd32_bpow e : (-149 <= e <= 127)%Z -> rnd32 (bpow radix2 e) = bpow radix2 e.
Proof.
  intros H. unfold rnd32. apply round_generic; [typeclasses eauto|].
  apply generic_format_bpow. unfold FLT_exp. lia.
Qed.

Lemma rnd32_bound x e : (-149 <= e <= 127)%Z -> Rabs x <= bpow radix2 e ->
  Rabs (rnd32 x) <= bpow radix2 e.
Proof.
  intros He H. unfold rnd32. rewrite <- round_NE_abs by typeclasses eauto.
  rewrite <- (rnd32_bpow e He). apply rnd32_le; auto.
Qed.

Lemma rnd32_err x e : (-100 <= e <= 127)%Z -> Rabs x <= bpow radix2 e ->
  Rabs (rnd32 x - x) <= bpow radix2 (e - 24).
Proof.
  intros He H. unfold rnd32.
  eapply Rle_trans; [apply (error_le_half_ulp radix2 (FLT_exp (-149) 24))|].
  destruct (Req_dec x 0) as [->|N].
  { rewrite ulp_FLT_0 by reflexivity.
    apply Rle_trans with (1 * bpow radix2 (-149)).
    - apply Rmult_le_compat_r; [apply bpow_ge_0|lra].
    - rewrite Rmult_1_l. apply bpow_le. lia. }
  apply Rle_trans with (/ 2 * ulp radix2 (FLT_exp (-149) 24) (bpow radix2 e)).
  - apply Rmult_le_compat_l; [lra|]. rewrite <- ulp_abs.
    apply ulp_le_pos; try typeclasses eauto; [apply Rabs_pos|auto].
  - rewrite ulp_bpow. unfold FLT_exp. rewrite Z.max_l by lia.
    change (/ 2) with (bpow radix2 (-1)). rewrite <- bpow_plus. apply bpow_le. lia.
Qed.

Lemma b24 x : Rabs x <= IZR (2 ^ 24) -> Rabs (rnd32 x) < bpow radix2 128.
Proof.
  intros H. apply Rle_lt_trans with (bpow radix2 24); [|apply bpow_lt; lia].
  apply rnd32_bound; [lia|]. exact H.
Qed.

Lemma fadd_ok x y : finite x = true -> finite y = true -> Rabs (real x + real y) <= IZR (2 ^ 24) ->
  finite (fadd x y) = true /\ real (fadd x y) = rnd32 (real x + real y).
Proof.
  intros Fx Fy H; unfold fadd, b32_plus.
  match goal with |- context [Bplus 24 128 ?a ?b ?n mode_NE x y] =>
    pose proof (Bplus_correct 24 128 a b n mode_NE x y Fx Fy) as C end.
  rewrite fexp32 in C. cbn [round_mode] in C.
  rewrite Rlt_bool_true in C; [|exact (b24 _ H)].
  destruct C as (C1 & C2 & _). unfold real, finite. rewrite C1, C2. auto.
Qed.

Lemma fsub_ok x y : finite x = true -> finite y = true -> Rabs (real x - real y) <= IZR (2 ^ 24) ->
  finite (fsub x y) = true /\ real (fsub x y) = rnd32 (real x - real y).
Proof.
  intros Fx Fy H; unfold fsub, b32_minus.
  match goal with |- context [Bminus 24 128 ?a ?b ?n mode_NE x y] =>
    pose proof (Bminus_correct 24 128 a b n mode_NE x y Fx Fy) as C end.
  rewrite fexp32 in C. cbn [round_mode] in C.
  rewrite Rlt_bool_true in C; [|exact (b24 _ H)].
  destruct C as (C1 & C2 & _). unfold real, finite. rewrite C1, C2. auto.
Qed.

Lemma fround_ok x : finite x = true -> (Z.abs (nearest (real x)) <= 2 ^ 24)%Z ->
  finite (fround x) = true /\ real (fround x) = IZR (nearest (real x)).
Proof.
  intros F H. unfold fround. rewrite roundZ_ok by auto.
  set (z := nearest (real x)) in *.
  pose proof (binary_normalize_correct 24 128 eq_refl eq_refl mode_NE z 0 (Bsign 24 128 x)) as C.
  rewrite fexp32 in C. cbn [round_mode] in C.
  assert (E : F2R (Float radix2 z 0) = IZR z) by (unfold F2R; cbn [Fnum Fexp bpow]; lra).
  rewrite E in C. pose proof (rnd32_int z H) as R. unfold rnd32 in R. rewrite R in C.
  rewrite Rlt_bool_true in C.
  - destruct C as (C1 & C2 & _). unfold real, finite. auto.
  - apply Rle_lt_trans with (bpow radix2 24); [|apply bpow_lt; lia].
    rewrite <- abs_IZR. change (bpow radix2 24) with (IZR (2 ^ 24)). apply IZR_le. exact H.
Qed.

Lemma nearest_near z x : Rabs (x - IZR z) < / 2 -> nearest x = z.
Proof.
  intros H. unfold nearest. apply Znearest_imp. exact H.
Qed.

(** Scaling a normalised value back to its integer. *)
Lemma intValue_ok (m k o : Z) (v : float) : (0 < m <= 65535)%Z -> (0 <= k <= m)%Z ->
  (-32768 <= o <= 0)%Z -> finite v = true -> Rabs (real v - IZR k / IZR m) <= / IZR (2 ^ 22) ->
  finite (intValue m o v) = true /\ real (intValue m o v) = IZR (k + o).
Proof.
  intros Hm Hk Ho F N. unfold intValue.
  destruct (float_of_Z_ok m ltac:(simpl; lia)) as [Em Fm].
  destruct (float_of_Z_ok o ltac:(simpl; lia)) as [Eo Fo].
  assert (M : 1 <= IZR m <= 65535) by (split; apply IZR_le; lia).
  assert (K : 0 <= IZR k <= IZR m) by (split; apply IZR_le; lia).
  assert (O : -32768 <= IZR o <= 0) by (split; apply IZR_le; lia).
  assert (P : Rabs (real v * IZR m - IZR k) <= / 64).
  { replace (real v * IZR m - IZR k) with ((real v - IZR k / IZR m) * IZR m) by (field; lra).
    rewrite Rabs_mult, (Rabs_pos_eq (IZR m)) by lra.
    apply Rle_trans with (/ IZR (2 ^ 22) * 65535).
    - apply Rmult_le_compat; try lra. apply Rabs_pos.
    - change (IZR (2 ^ 22)) with 4194304. lra. }
  destruct (fmul_ok v (float_of_Z m) F Fm) as [F1 E1].
  { rewrite Em. apply Rabs_le_inv in P. change (IZR (2 ^ 24)) with 16777216. apply Rabs_le. lra. }
  rewrite Em in E1.
  assert (R1 : Rabs (rnd32 (real v * IZR m) - real v * IZR m) <= / 128).
  { change (/ 128) with (bpow radix2 (17 - 24)). apply rnd32_err; [lia|].
    change (bpow radix2 17) with 131072. apply Rabs_le_inv in P. apply Rabs_le. lra. }
  rewrite <- E1 in R1. set (a := real (fmul v (float_of_Z m))) in *.
  apply Rabs_le_inv in P, R1.
  destruct (fadd_ok (fmul v (float_of_Z m)) (float_of_Z o) F1 Fo) as [F2 E2].
  { fold a. rewrite Eo. change (IZR (2 ^ 24)) with 16777216. apply Rabs_le. lra. }
  fold a in E2. rewrite Eo in E2.
  assert (R2 : Rabs (rnd32 (a + IZR o) - (a + IZR o)) <= / 128).
  { change (/ 128) with (bpow radix2 (17 - 24)). apply rnd32_err; [lia|].
    change (bpow radix2 17) with 131072. apply Rabs_le. lra. }
  rewrite <- E2 in R2.
  assert (NN : nearest (real (fadd (fmul v (float_of_Z m)) (float_of_Z o))) = (k + o)%Z).
  { apply nearest_near. rewrite plus_IZR. apply Rabs_le_inv in R2. apply Rabs_lt. lra. }
  destruct (fround_ok _ F2) as [F3 E3].
  { rewrite NN. simpl. lia. }
  rewrite NN in E3. auto.
Qed.

(** Twice a float is computed exactly. *)
Lemma snormValue_ok (v : float) : finite v = true -> Rabs (real v) <= 4194304 ->
  finite (snormValue v) = true /\ real (snormValue v) = rnd32 (2 * real v - 1).
Proof.
  intros F H. unfold snormValue.
  destruct (float_of_Z_ok 2 ltac:(simpl; lia)) as [E2 F2].
  destruct (float_of_Z_ok 1 ltac:(simpl; lia)) as [E1 F1].
  apply Rabs_le_inv in H.
  destruct (fmul_ok v (float_of_Z 2) F F2) as [Fm Em].
  { rewrite E2. change (IZR (2 ^ 24)) with 16777216. apply Rabs_le. lra. }
  rewrite E2 in Em.
  assert (G : rnd32 (real v * 2) = real v * 2).
  { unfold rnd32. apply round_generic; [typeclasses eauto|].
    pose proof (real_format v) as Gv. apply FLT_format_generic in Gv; [|reflexivity].
    destruct Gv as [f Ef Hm He]. apply generic_format_FLT.
    exists (Float radix2 (Fnum f) (Fexp f + 1)); cbn [Fnum Fexp]; [|auto|lia].
    rewrite Ef. unfold F2R; cbn [Fnum Fexp]. rewrite bpow_plus. change (bpow radix2 1) with 2. ring. }
  rewrite G in Em.
  destruct (fsub_ok (fmul v (float_of_Z 2)) (float_of_Z 1) Fm F1) as [Fs Es].
  { rewrite Em, E1. change (IZR (2 ^ 24)) with 16777216. apply Rabs_le. lra. }
  rewrite Em, E1 in Es. split; [exact Fs|]. rewrite Es. f_equal. ring.
Qed.

Lemma snormValue_near (v : float) x : finite v = true -> 0 <= x <= 1 ->
  Rabs (real v - x) <= / IZR (2 ^ 22) ->
  finite (snormValue v) = true /\ Rabs (real (snormValue v) - (2 * x - 1)) <= / IZR (2 ^ 20).
Proof.
  intros F X H. change (IZR (2 ^ 22)) with 4194304 in H. apply Rabs_le_inv in H.
  destruct (snormValue_ok v F) as [F1 E1]; [apply Rabs_le; lra|]. split; [exact F1|].
  assert (R : Rabs (rnd32 (2 * real v - 1) - (2 * real v - 1)) <= / 8388608).
  { change (/ 8388608) with (bpow radix2 (1 - 24)). apply rnd32_err; [lia|].
    change (bpow radix2 1) with 2. apply Rabs_le. lra. }
  rewrite <- E1 in R. change (IZR (2 ^ 20)) with 1048576. apply Rabs_le_inv in R. apply Rabs_le. lra.
Qed.

(** Narrowing a normalised double. *)
Lemma narrow_norm pw m k : (0 < m <= 65535)%Z -> (0 <= k <= m)%Z ->
  finite (dnarrow (@toNorm (double_arith pw) m k)) = true /\
  Rabs (real (dnarrow (@toNorm (double_arith pw) m k)) - IZR k / IZR m) <= / IZR (2 ^ 22).
Proof.
  intros Hm Hk. destruct (toNorm_ok pw m k Hm Hk) as (F & _ & B & E).
  set (d := @toNorm (double_arith pw) m k) in *.
  assert (Rb : Rabs (dreal d) <= bpow radix2 0) by (change (bpow radix2 0) with 1; apply Rabs_le; lra).
  destruct (dnarrow_ok d F) as [F1 E1].
  { apply Rle_lt_trans with (bpow radix2 0); [apply rnd32_bound; [lia|exact Rb]|apply bpow_lt; lia]. }
  split; [exact F1|]. rewrite E1.
  pose proof (rnd32_err (dreal d) 0 ltac:(lia) Rb) as R.
  change (bpow radix2 (0 - 24)) with (/ 16777216) in R.
  change (IZR (2 ^ 53)) with 9007199254740992 in E. change (IZR (2 ^ 22)) with 4194304.
  apply Rabs_le_inv in R, E. apply Rabs_le. lra.
Qed.

(** * The loops *)
Local Open Scope N_scope.

Section Loops.
Context (pw : double -> double -> double).
Local Notation D := (double_arith pw).

Lemma mapFloats_ok cc f (b : bitmap D) : b_h b < 2 ^ 32 ->
  (forall x y, within pw b x y -> onChannels pw cc f (at_ pw b x y) <> None) ->
  exists b', mapFloats pw cc f b = Some b' /\ same_shape b b' /\
    forall x y, within pw b x y -> onChannels pw cc f (at_ pw b x y) = Some (at_ pw b' x y).
Proof.
  intros Hh H.
  set (ty := fun k : N * N => b_h b - 1 - snd k).
  assert (ND : NoDup (map (fun k => (fst k, ty k)) (cells (b_w b) (b_h b)))).
  { apply NoDup_map_in; [apply NoDup_cells|].
    intros [x y] [x' y'] I1 I2 E. apply in_cells in I1, I2. cbn [fst] in E. unfold ty in E.
    cbn [snd] in E. inversion E. f_equal. lia. }
  assert (V : mapFloats pw cc f b = visit fst ty (fun _ => onChannels pw cc f) (cells (b_w b) (b_h b)) b).
  { unfold mapFloats. rewrite (loop2_cells (b_w b) (b_h b)
      (fun x y b' => obind (read b' x (scanlineOf (b_h b') y)) (fun p =>
         obind (onChannels pw cc f p) (write b' x (scanlineOf (b_h b') y))))).
    unfold visit. apply (fold_inv (same_shape b)).
    - intros [x y] s I (_ & _ & E & _). apply in_cells in I. cbn [fst snd]. unfold ty. cbn [snd].
      rewrite <- E, scanlineOf_small by lia.
      destruct (read s x (b_h b - 1 - y)); reflexivity.
    - intros k s s' _ SS.
      destruct (obind (read s (fst k) (ty k)) _) as [p|]; cbn [obind]; [|discriminate].
      intros W. pose proof (write_some _ _ _ _ _ W) as I.
      destruct (write_inside s _ _ p I) as (s2 & W2 & SS2 & _). rewrite W in W2. inversion W2; subst.
      eapply same_shape_trans; eauto.
    - apply same_shape_refl. }
  assert (T : exists b', visit fst ty (fun _ => onChannels pw cc f) (cells (b_w b) (b_h b)) b = Some b').
  { apply visit_total; auto.
    - intros [x y] I. apply in_cells in I. unfold inside, ty; cbn [fst snd]. lia.
    - intros [x y] I. apply in_cells in I. apply (H x y). exact I. }
  destruct T as [b' T]. exists b'. rewrite V. split; [exact T|].
  apply visit_result in T; auto. destruct T as (SS & R & _). split; [exact SS|].
  intros x y W. destruct (R (x, y)) as [_ E]; [apply in_cells; exact W|].
  cbn [fst] in E. unfold ty in E. cbn [snd] in E. unfold at_.
  destruct SS as (_ & _ & <- & _). exact E.
Qed.

End Loops.

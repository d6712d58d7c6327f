(** The pixels and settings handed to the encoders. *)

From Coq Require Import NArith ZArith Reals List Bool Lia Lra.
From Coq Require Import ZifyBool ZifyNat ZifyN.
From Flocq Require Import Core Relative IEEE754.BinarySingleNaN IEEE754.Binary IEEE754.Bits.
From Verif Require Import Base FormatModel FloatModel FloatSpec FloatProofs ConverterModel
  ConverterSpec TilingProofs PixelModel PixelProofs TextureModel AdjustModel AdjustProofs
  FormatSpec BlockModel BlockSpec.
From Verif Require CommandLineModel.
Import ListNotations.
Local Open Scope Z_scope.

Lemma omap_all {A B} (f : A -> option B) (g : A -> B) (bad : A -> bool) l :
  (forall a, f a = if bad a then None else Some (g a)) ->
  omap f l = if existsb bad l then None else Some (map g l).
Proof.
  intros H. induction l as [|a l IH]; cbn [omap existsb map]; auto.
  rewrite (H a), IH. destruct (bad a); cbn [obind orb]; auto.
  destruct (existsb bad l); reflexivity.
Qed.

Lemma unorm8 v : unorm 8 255 v = if nan v then None else Some (byte8 v).
Proof.
  destruct (nan v) eqn:N.
  - apply unorm_nan; auto.
  - apply (unorm_ok 8 255 v); [lia|reflexivity|auto].
Qed.
Lemma byte8_range v : 0 <= byte8 v <= 255.
Proof.
  unfold byte8. apply rnd_nearest_range; try lia. apply (limit01_prod 255 v); lia.
Qed.

Lemma sbyte_ok v : sbyte v = if nan v then None else Some (sbyte8 v mod 256).
Proof.
  unfold sbyte. destruct (nan v) eqn:N.
  - rewrite snorm_nan by auto. reflexivity.
  - destruct (snorm_ok 8 v (or_introl eq_refl) N) as [-> _]. reflexivity.
Qed.
Lemma sbyte8_range v : -127 <= sbyte8 v <= 127.
Proof.
  unfold sbyte8. apply rnd_nearest_range; try lia. apply (limit11_prod 127 v); lia.
Qed.

Definition bytes4 (p : rgba) : list Z := map byte8 (four p).
Definition nan4 (p : rgba) : bool := existsb nan (four p).

Lemma toColorBlock_ok px :
  toColorBlock px = if existsb nan4 px then None else Some (map bytes4 px).
Proof.
  apply omap_all. intros p. apply (omap_all _ byte8 nan). apply unorm8.
Qed.

(** ** BC2 *)

Definition nibbles_ok : bool :=
  forallb (fun n => match bc2Alpha (Z.of_nat n) with
                    | Some c => c =? (2 * Z.of_nat n + 17) / 34 | None => false end) (seq 0 256).
Lemma bc2Alpha_ok a : 0 <= a <= 255 -> bc2Alpha a = Some ((2 * a + 17) / 34).
Proof.
  intros H. assert (T : nibbles_ok = true) by (vm_compute; reflexivity).
  unfold nibbles_ok in T. rewrite forallb_forall in T.
  specialize (T (Z.to_nat a)). rewrite Z2Nat.id in T by lia.
  assert (I : In (Z.to_nat a) (seq 0 256)) by (apply in_seq; lia).
  specialize (T I). destruct (bc2Alpha a); [|discriminate]. apply Z.eqb_eq in T. congruence.
Qed.

Lemma nearest_17 a : 0 <= a -> nearest (IZR a / 17) = (2 * a + 17) / 34.
Proof.
  intros H. rewrite nearest_nonneg.
  2:{ apply Rmult_le_pos; [apply IZR_le; auto|lra]. }
  apply Zfloor_imp.
  pose proof (Z.div_mod (2 * a + 17) 34 ltac:(lia)) as E.
  pose proof (Z.mod_pos_bound (2 * a + 17) 34 ltac:(lia)) as B.
  set (k := (2 * a + 17) / 34) in *. set (r := (2 * a + 17) mod 34) in *.
  assert (E' : (2 * IZR a + 17 = 34 * IZR k + IZR r)%R).
  { rewrite <- mult_IZR, <- plus_IZR, <- mult_IZR, <- plus_IZR. f_equal. exact E. }
  assert (B' : (0 <= IZR r < 34)%R) by (split; [apply IZR_le; lia|apply IZR_lt; lia]).
  rewrite plus_IZR. unfold Rdiv. lra.
Qed.

Definition nib (p : rgba) : Z := (2 * byte8 (pa p) + 17) / 34.
Lemma nib_range p : 0 <= nib p <= 15.
Proof. unfold nib. pose proof (byte8_range (pa p)). lia. Qed.

Lemma packBc2Alpha_ok px : length px = 16%nat ->
  exists l, packBc2Alpha (map bytes4 px) = Some l /\ length l = 8%nat /\
    forall i p, nth_error px i = Some p ->
    exists b, nth_error l (i / 2) = Some b /\ 0 <= b <= 255 /\
      b / (if Nat.even i then 1 else 16) mod 16 = nib p.
Proof.
  intros L.
  assert (A : forall i p, nth_error px i = Some p ->
                          obind (alphaAt (map bytes4 px) i) bc2Alpha = Some (nib p)).
  { intros i p H. unfold alphaAt. rewrite (map_nth_error _ _ _ H). cbn [obind bytes4 four map nth_error].
    apply bc2Alpha_ok. apply byte8_range. }
  destruct px as [|d px0] eqn:Epx; [discriminate|]. rewrite <- Epx in *. clear Epx px0.
  assert (G : forall i, (i < 16)%nat -> obind (alphaAt (map bytes4 px) i) bc2Alpha = Some (nib (nth i px d))).
  { intros i Hi. apply A. apply nth_error_nth'. lia. }
  assert (P : packBc2Alpha (map bytes4 px) =
              Some (map (fun i => nib (nth (i * 2) px d) + 16 * nib (nth (i * 2 + 1) px d)) (seq 0 8))).
  { apply omap_some. intros i Hi. apply in_seq in Hi.
    pose proof (G (i * 2)%nat ltac:(lia)) as G0. pose proof (G (i * 2 + 1)%nat ltac:(lia)) as G1.
    destruct (alphaAt (map bytes4 px) (i * 2)) as [a0|]; [|discriminate].
    destruct (alphaAt (map bytes4 px) (i * 2 + 1)) as [a1|]; [|discriminate].
    cbn [obind] in *. rewrite G0, G1. cbn [obind]. f_equal.
    pose proof (nib_range (nth (i * 2) px d)) as R0. pose proof (nib_range (nth (i * 2 + 1) px d)) as R1.
    set (x := nib (nth (i * 2) px d)) in *. set (z := nib (nth (i * 2 + 1) px d)) in *.
    rewrite Z.shiftl_mul_pow2 by lia. change (2 ^ 4) with 16.
    assert (O : Z.lor x (z * 16) = x + z * 16).
    { rewrite <- Z.lxor_lor, <- Z.add_nocarry_lxor; auto;
      (apply Z.bits_inj'; intros n Hn; rewrite Z.land_spec, Z.bits_0;
       destruct (Z.ltb_spec n 4);
       [change 16 with (2 ^ 4); rewrite <- Z.shiftl_mul_pow2 by lia;
        rewrite Z.shiftl_spec_low by lia; apply andb_false_r
       |replace (Z.testbit x n) with false; [reflexivity|];
        symmetry; apply Z.bits_above_log2; [lia|];
        destruct (Z.eq_dec x 0) as [->|]; [cbn; lia|];
        apply Z.log2_lt_pow2; [lia|]; apply Z.lt_le_trans with (2 ^ 4); [change (2 ^ 4) with 16; lia|];
        apply Z.pow_le_mono_r; lia]). }
    rewrite O. rewrite Z.mod_small by lia. lia. }
  eexists; split; [exact P|]. split; [rewrite map_length, seq_length; reflexivity|].
  intros i p H.
  assert (Hi : (i < 16)%nat) by (rewrite <- L; apply nth_error_Some; congruence).
  assert (E : p = nth i px d) by (symmetry; apply nth_error_nth; auto). subst p.
  exists (nib (nth (i / 2 * 2) px d) + 16 * nib (nth (i / 2 * 2 + 1) px d)).
  split.
  { apply (map_nth_error (fun i => nib (nth (i * 2) px d) + 16 * nib (nth (i * 2 + 1) px d))).
    rewrite nth_error_nth' with (d := O) by (rewrite seq_length; apply Nat.div_lt_upper_bound; lia).
    rewrite seq_nth by (apply Nat.div_lt_upper_bound; lia). reflexivity. }
  pose proof (nib_range (nth (i / 2 * 2) px d)). pose proof (nib_range (nth (i / 2 * 2 + 1) px d)).
  split; [lia|].
  destruct (Nat.even i) eqn:Ev.
  - apply Nat.even_spec in Ev. destruct Ev as (k & ->).
    replace (2 * k / 2)%nat with k in * by (rewrite Nat.mul_comm, Nat.div_mul; lia).
    replace (k * 2)%nat with (2 * k)%nat in * by lia.
    rewrite Z.div_1_r. lia.
  - assert (Od : Nat.odd i = true) by (rewrite <- Nat.negb_even, Ev; reflexivity).
    apply Nat.odd_spec in Od. destruct Od as (k & ->).
    replace ((2 * k + 1) / 2)%nat with k in *.
    2:{ apply Nat.div_unique with 1%nat; lia. }
    replace (k * 2 + 1)%nat with (2 * k + 1)%nat in * by lia. lia.
Qed.

(** ** Error of a byte *)

Local Open Scope R_scope.


Lemma near_err x : Rabs (IZR (nearest x) - x) <= / 2.
Proof.
  pose proof (Znearest_half (Z.leb 0) x) as E.
  change (Znearest (Z.leb 0) x) with (nearest x) in E.
  rewrite Rabs_minus_sym. exact E.
Qed.

Lemma byte8_error v : Rabs (IZR (byte8 v) / 255 - limit 0 1 v) <= / 510 + bpow radix2 (-23).
Proof.
  pose proof (limit_range 0 1 v ltac:(lra)) as L. unfold byte8.
  set (x := limit 0 1 v * 255). assert (X : 0 <= x <= 255) by (unfold x; lra).
  assert (B : Rabs x <= bpow radix2 8).
  { rewrite Rabs_right by lra. change (bpow radix2 8) with 256. lra. }
  pose proof (rnd32_err x 8 ltac:(lia) B) as E1. pose proof (near_err (rnd32 x)) as E2.
  change (bpow radix2 (8 - 24)) with (/ 65536) in E1. change (bpow radix2 (-23)) with (/ 8388608).
  replace (IZR (nearest (rnd32 x)) / 255 - limit 0 1 v)
    with ((IZR (nearest (rnd32 x)) - rnd32 x + (rnd32 x - x)) / 255) by (unfold x; field).
  unfold Rdiv. rewrite Rabs_mult, (Rabs_right (/ 255)) by lra.
  pose proof (Rabs_triang (IZR (nearest (rnd32 x)) - rnd32 x) (rnd32 x - x)). lra.
Qed.

Lemma sbyte8_error v : Rabs (IZR (sbyte8 v) / 127 - limit (-1) 1 v) <= / 254 + bpow radix2 (-23).
Proof.
  pose proof (limit_range (-1) 1 v ltac:(lra)) as L. unfold sbyte8.
  set (x := limit (-1) 1 v * 127). assert (X : -127 <= x <= 127) by (unfold x; lra).
  assert (B : Rabs x <= bpow radix2 7).
  { apply Rabs_le. change (bpow radix2 7) with 128. lra. }
  pose proof (rnd32_err x 7 ltac:(lia) B) as E1. pose proof (near_err (rnd32 x)) as E2.
  change (bpow radix2 (7 - 24)) with (/ 131072) in E1. change (bpow radix2 (-23)) with (/ 8388608).
  replace (IZR (nearest (rnd32 x)) / 127 - limit (-1) 1 v)
    with ((IZR (nearest (rnd32 x)) - rnd32 x + (rnd32 x - x)) / 127) by (unfold x; field).
  unfold Rdiv. rewrite Rabs_mult, (Rabs_right (/ 127)) by lra.
  pose proof (Rabs_triang (IZR (nearest (rnd32 x)) - rnd32 x) (rnd32 x - x)). lra.
Qed.

(** The nearest float of k/255 goes back to k. *)
Lemma byte8_exact k v : (0 <= k <= 255)%Z -> finite v = true -> real v = rnd32 (IZR k / 255) ->
  byte8 v = k.
Proof.
  intros Hk Fv Hv.
  assert (K : 0 <= IZR k <= 255) by (split; apply IZR_le; lia).
  assert (B : Rabs (IZR k / 255) <= bpow radix2 0).
  { change (bpow radix2 0) with 1. rewrite Rabs_right; unfold Rdiv; lra. }
  pose proof (rnd32_err _ 0 ltac:(lia) B) as E. rewrite <- Hv in E.
  assert (V : 0 <= real v <= 1).
  { rewrite Hv. pose proof (rnd32_int 0 ltac:(lia)) as I0. pose proof (rnd32_int 1 ltac:(lia)) as I1.
    assert (0 <= IZR k / 255) as P0 by (unfold Rdiv; lra). assert (IZR k / 255 <= 1) as P1 by (unfold Rdiv; lra).
    pose proof (rnd32_le _ _ P0). pose proof (rnd32_le _ _ P1). lra. }
  assert (L : limit 0 1 v = real v).
  { destruct v; try discriminate; cbn [limit]; rewrite Rmin_right by lra; apply Rmax_right; lra. }
  unfold byte8. rewrite L. unfold nearest. apply Znearest_imp.
  assert (B2 : Rabs (real v * 255) <= bpow radix2 8).
  { rewrite Rabs_right by lra. change (bpow radix2 8) with 256. lra. }
  pose proof (rnd32_err _ 8 ltac:(lia) B2) as E2.
  change (bpow radix2 (0 - 24)) with (/ 16777216) in E. change (bpow radix2 (8 - 24)) with (/ 65536) in E2.
  replace (rnd32 (real v * 255) - IZR k) with
    (rnd32 (real v * 255) - real v * 255 + (real v - IZR k / 255) * 255) by field.
  eapply Rle_lt_trans; [apply Rabs_triang|]. rewrite Rabs_mult, (Rabs_right 255) by lra. lra.
Qed.

(** ** The threshold of BC1 with alpha *)

Lemma rnd32_half x b : (-100 <= b)%Z -> Rabs x < bpow radix2 b ->
  Rabs (rnd32 x - x) <= bpow radix2 (b - 25).
Proof.
  intros Hb H. unfold rnd32.
  destruct (Req_dec x 0) as [->|Nz].
  - rewrite round_0 by typeclasses eauto. rewrite Rminus_0_r, Rabs_R0. apply bpow_ge_0.
  - eapply Rle_trans; [apply error_le_half_ulp; apply FLT_exp_valid; reflexivity|].
    rewrite ulp_neq_0 by auto. unfold cexp, FLT_exp.
    assert (M : (mag radix2 x <= b)%Z) by (apply mag_le_bpow; auto).
    apply Rle_trans with (/ 2 * bpow radix2 (b - 24))%R.
    + apply Rmult_le_compat_l; [lra|]. apply bpow_le. lia.
    + replace (b - 24)%Z with (1 + (b - 25))%Z by lia. rewrite bpow_plus.
      change (bpow radix2 1) with 2%R. lra.
Qed.

Lemma fdiv_ok x y : finite x = true -> finite y = true -> real y <> 0 ->
  Rabs (real x / real y) <= IZR (2 ^ 24) ->
  finite (fdiv x y) = true /\ real (fdiv x y) = rnd32 (real x / real y).
Proof.
  intros Fx Fy Ny H; unfold fdiv, b32_div.
  match goal with |- context [Bdiv 24 128 ?a ?b ?n mode_NE x y] =>
    pose proof (Bdiv_correct 24 128 a b n mode_NE x y Ny) as C end.
  rewrite fexp32 in C. cbn [round_mode] in C.
  rewrite Rlt_bool_true in C; [|exact (b24 _ H)].
  destruct C as (C1 & C2 & _). unfold finite in *. rewrite C2. split; auto.
Qed.

Lemma half_ok : finite (flit 1 2) = true /\ real (flit 1 2) = / 2.
Proof.
  destruct (float_of_Z_ok 1 ltac:(lia)) as [R1 F1]. destruct (float_of_Z_ok 2 ltac:(lia)) as [R2 F2].
  destruct (fdiv_ok (float_of_Z 1) (float_of_Z 2) F1 F2) as [F E].
  - rewrite R2. lra.
  - rewrite R1, R2. rewrite Rabs_right by lra. change (IZR (2 ^ 24)) with 16777216. lra.
  - split; [exact F|]. unfold flit. rewrite E, R1, R2.
    replace (1 / 2) with (bpow radix2 (-1)) by (change (bpow radix2 (-1)) with (/ 2); lra).
    rewrite rnd32_bpow by lia. reflexivity.
Qed.

Lemma real_format v : generic_format radix2 (FLT_exp (-149) 24) (real v).
Proof. rewrite <- fexp32. apply generic_format_B2R. Qed.

Lemma below_half v : real v < / 2 -> real v <= / 2 - / 33554432.
Proof.
  intros H.
  assert (V : Valid_exp (FLT_exp (-149) 24)) by (apply FLT_exp_valid; reflexivity).
  assert (P : real v <= pred radix2 (FLT_exp (-149) 24) (bpow radix2 (-1))).
  { apply pred_ge_gt; auto; [apply real_format|apply generic_format_bpow; vm_compute; discriminate]. }
  rewrite pred_bpow in P. change (bpow radix2 (-1)) with (/ 2) in P.
  change (FLT_exp (-149) 24 (-1)) with (-25)%Z in P.
  change (bpow radix2 (-25)) with (/ 33554432) in P. exact P.
Qed.

Lemma byte8_half v : nan v = false -> fltb v (flit 1 2) = (byte8 v <? 128)%Z.
Proof.
  intros N. destruct half_ok as [Fh Rh].
  assert (Hi : / 2 <= limit 0 1 v -> (128 <= byte8 v)%Z).
  { intros H. unfold byte8.
    assert (R : rnd32 (255 / 2) <= rnd32 (limit 0 1 v * 255)) by (apply rnd32_le; lra).
    assert (E : rnd32 (255 / 2) = 255 / 2).
    { unfold rnd32. apply round_generic; [typeclasses eauto|].
      replace (255 / 2) with (F2R (Float radix2 255 (-1))) by (unfold F2R; cbn [Fnum Fexp]; change (bpow radix2 (-1)) with (/ 2); lra).
      apply generic_format_FLT. exists (Float radix2 255 (-1)); auto; cbn; lia. }
    rewrite E in R. rewrite nearest_nonneg by lra. apply Zfloor_lub. change (IZR 128) with 128. lra. }
  assert (Lo : limit 0 1 v <= / 2 - / 33554432 -> (byte8 v < 128)%Z).
  { intros H. unfold byte8. pose proof (limit_range 0 1 v ltac:(lra)) as L.
    assert (X : Rabs (limit 0 1 v * 255) < bpow radix2 7).
    { rewrite Rabs_right by lra. change (bpow radix2 7) with 128. lra. }
    pose proof (rnd32_half _ 7 ltac:(lia) X) as E. change (bpow radix2 (7 - 25)) with (/ 262144) in E.
    apply Rabs_le_inv in E.
    assert (P : 0 <= rnd32 (limit 0 1 v * 255)).
    { pose proof (rnd32_int 0 ltac:(lia)) as I0. assert (Y : 0 <= limit 0 1 v * 255) by lra.
      pose proof (rnd32_le _ _ Y). lra. }
    rewrite nearest_nonneg by auto. apply lt_IZR.
    eapply Rle_lt_trans; [apply Zfloor_lb|]. lra. }
  destruct (finite v) eqn:F.
  - pose proof (fltb_finite v (flit 1 2) F Fh) as T. rewrite Rh in T.
    assert (LE : limit 0 1 v = Rmax 0 (Rmin 1 (real v))) by (destruct v; try discriminate; reflexivity).
    destruct (Rlt_dec (real v) (/ 2)) as [C|C].
    + pose proof (below_half v C) as B.
      assert (W : limit 0 1 v <= / 2 - / 33554432).
      { rewrite LE. apply Rmax_lub; [lra|]. eapply Rle_trans; [apply Rmin_r|exact B]. }
      specialize (Lo W).
      replace (byte8 v <? 128)%Z with true by (symmetry; apply Z.ltb_lt; auto).
      rewrite T. apply Rlt_bool_true. exact C.
    + assert (W : / 2 <= limit 0 1 v).
      { rewrite LE. eapply Rle_trans; [|apply Rmax_r]. apply Rmin_glb; lra. }
      specialize (Hi W).
      replace (byte8 v <? 128)%Z with false by (symmetry; apply Z.ltb_ge; auto).
      rewrite T. apply Rlt_bool_false. lra.
  - destruct v as [s|s|s pl e|s m e w]; try discriminate. cbn [limit] in *.
    unfold flit in *. rewrite fltb_inf_l by exact Fh.
    destruct s.
    + symmetry. apply Z.ltb_lt. apply Lo. cbn [limit]. lra.
    + symmetry. apply Z.ltb_ge. apply Hi. cbn [limit]. lra.
Qed.

(** ** ETC *)

Lemma remap_ok v : finite v = true -> -1 <= real v <= 1 ->
  finite (remap v) = true /\ 0 <= real (remap v) <= 1 /\
  Rabs (real (remap v) - (real v + 1) / 2) <= bpow radix2 (-23) /\
  real (remap v) = rnd32 (rnd32 (real v * / 2) + / 2).
Proof.
  intros F R. destruct half_ok as [Fh Rh]. unfold remap.
  destruct (fmul_ok v (flit 1 2) F Fh) as [Fm Em].
  { rewrite Rh. apply Rle_trans with 1; [apply Rabs_le; lra|change (IZR (2 ^ 24)) with 16777216; lra]. }
  rewrite Rh in Em.
  assert (Q : Rabs (real v * / 2) <= bpow radix2 (-1)).
  { change (bpow radix2 (-1)) with (/ 2). apply Rabs_le. lra. }
  pose proof (rnd32_bound _ (-1) ltac:(lia) Q) as B. pose proof (rnd32_err _ (-1) ltac:(lia) Q) as E.
  rewrite <- Em in B, E. change (bpow radix2 (-1)) with (/ 2) in B. apply Rabs_le_inv in B.
  destruct (fadd_ok (fmul v (flit 1 2)) (flit 1 2) Fm Fh) as [Fa Ea].
  { rewrite Rh. apply Rle_trans with 1; [apply Rabs_le; lra|change (IZR (2 ^ 24)) with 16777216; lra]. }
  rewrite Rh in Ea. rewrite Ea.
  split; [exact Fa|]. split.
  { pose proof (rnd32_int 0 ltac:(lia)) as I0. pose proof (rnd32_int 1 ltac:(lia)) as I1.
    assert (P0 : 0 <= real (fmul v (flit 1 2)) + / 2) by lra.
    assert (P1 : real (fmul v (flit 1 2)) + / 2 <= 1) by lra.
    pose proof (rnd32_le _ _ P0). pose proof (rnd32_le _ _ P1). lra. }
  split.
  - assert (Q2 : Rabs (real (fmul v (flit 1 2)) + / 2) <= bpow radix2 0).
    { change (bpow radix2 0) with 1. apply Rabs_le. lra. }
    pose proof (rnd32_err _ 0 ltac:(lia) Q2) as E2.
    change (bpow radix2 (0 - 24)) with (/ 16777216) in E2. change (bpow radix2 (-1 - 24)) with (/ 33554432) in E.
    change (bpow radix2 (-23)) with (/ 8388608).
    replace (rnd32 (real (fmul v (flit 1 2)) + / 2) - (real v + 1) / 2) with
      (rnd32 (real (fmul v (flit 1 2)) + / 2) - (real (fmul v (flit 1 2)) + / 2)
       + (real (fmul v (flit 1 2)) - real v * / 2)) by lra.
    eapply Rle_trans; [apply Rabs_triang|]. lra.
  - rewrite Em. reflexivity.
Qed.

Lemma remap_mono u v : finite u = true -> finite v = true -> -1 <= real u -> real u <= real v -> real v <= 1 ->
  real (remap u) <= real (remap v).
Proof.
  intros Fu Fv H1 H2 H3.
  destruct (remap_ok u Fu ltac:(lra)) as (_ & _ & _ & ->). destruct (remap_ok v Fv ltac:(lra)) as (_ & _ & _ & ->).
  apply rnd32_le. apply Rplus_le_compat_r. apply rnd32_le. lra.
Qed.
Lemma remap_ends v : finite v = true ->
  (real v = -1 -> real (remap v) = 0) /\ (real v = 0 -> real (remap v) = / 2) /\
  (real v = 1 -> real (remap v) = 1).
Proof.
  intros F.
  assert (H2 : rnd32 (/ 2) = / 2) by (exact (rnd32_bpow (-1) ltac:(lia))).
  assert (H3 : rnd32 (- / 2) = - / 2).
  { unfold rnd32. rewrite round_NE_opp. fold (rnd32 (/ 2)). rewrite H2. reflexivity. }
  pose proof (rnd32_int 0 ltac:(lia)) as I0. pose proof (rnd32_int 1 ltac:(lia)) as I1.
  repeat split; intros E; destruct (remap_ok v F ltac:(lra)) as (_ & _ & _ & ->); rewrite E.
  - replace (-1 * / 2) with (- / 2) by lra. rewrite H3. replace (- / 2 + / 2) with 0 by lra. exact I0.
  - rewrite Rmult_0_l, I0, Rplus_0_l. exact H2.
  - rewrite Rmult_1_l, H2. replace (/ 2 + / 2) with 1 by lra. exact I1.
Qed.

Local Close Scope R_scope.

Lemma omap_id {A} (l : list A) : omap (fun o : option A => o) (map Some l) = Some l.
Proof. induction l as [|a l IH]; cbn [map omap obind]; [reflexivity|rewrite IH; reflexivity]. Qed.
Lemma firstn_array16 (px : list rgba) n : length px = n -> firstn n (array16 px) = map Some px.
Proof.
  intros <-. unfold array16. rewrite firstn_app, map_length, Nat.sub_diag, firstn_O, app_nil_r.
  rewrite <- (map_length Some px). apply firstn_all.
Qed.
Lemma remapAll_full px : length px = 16%nat -> remapAll (array16 px) = Some (map Some (map remapPixel px)).
Proof.
  intros L. unfold array16. rewrite L. cbn [Nat.sub repeat]. rewrite app_nil_r. clear L.
  unfold remapAll. induction px as [|p px IH]; cbn [map omap obind]; [reflexivity|].
  rewrite IH. reflexivity.
Qed.
Lemma remapAll_part px : (length px < 16)%nat -> remapAll (array16 px) = None.
Proof.
  intros L. unfold array16. replace (16 - length px)%nat with (S (15 - length px)) by lia.
  cbn [repeat]. unfold remapAll. clear L. generalize (15 - length px)%nat. intros n.
  induction px as [|p px IH]; cbn [map omap app obind]; [reflexivity|]. rewrite IH. reflexivity.
Qed.

Lemma flat_const {A} (f : N -> list A) (k : nat) l : (forall i, In i l -> length (f i) = k) ->
  length (flat_map f l) = (length l * k)%nat.
Proof.
  intros H. induction l as [|a l IH]; [reflexivity|]. cbn [flat_map length].
  rewrite app_length, H by (left; auto). rewrite IH by (intros; apply H; right; auto). reflexivity.
Qed.
Lemma inner_length {P} w h (px : N -> N -> P) x y :
  length (inner w h px x y) = N.to_nat (N.min 4 (w - x * 4) * N.min 4 (h - y * 4)).
Proof.
  unfold inner. rewrite (flat_const _ (N.to_nat (N.min 4 (w - x * 4)))).
  - rewrite Nrange_length. lia.
  - intros i _. rewrite map_length, Nrange_length. reflexivity.
Qed.
Lemma footprint_length {P} w h bx by_ (px : N -> N -> P) x y :
  length (footprint w h bx by_ px x y) = N.to_nat (bx * by_).
Proof.
  unfold footprint. rewrite (flat_const _ (N.to_nat bx)).
  - rewrite Nrange_length. lia.
  - intros i _. rewrite map_length, Nrange_length. reflexivity.
Qed.

Section Gather.
Context {P : Type} (w h : N) (px : N -> N -> P).
Hypothesis (Hw : (0 < w)%N) (Hh : (0 < h)%N).

Lemma clamp_gather bx by_ x y : (0 < bx)%N -> (0 < by_)%N -> (w + bx <= 2 ^ 32)%N -> (h + by_ <= 2 ^ 32)%N ->
  (x < cdiv w bx)%N -> (y < cdiv h by_)%N ->
  clamp_block (img w h px) bx by_ x y = Some (footprint w h bx by_ px x y).
Proof.
  intros Bx By Lx Ly Hx Hy; unfold clamp_block, footprint.
  pose proof (cdiv_bound x bx w Bx Hx); pose proof (cdiv_bound y by_ h By Hy).
  rewrite (omap_some _ (fun j => map (fun i =>
      px (N.min (y * by_ + j) (h - 1)) (N.min (x * bx + i) (w - 1))) (Nrange bx))%N).
  - cbn [obind]; rewrite flat_map_concat_map; reflexivity.
  - intros j Hj; apply in_Nrange in Hj.
    apply omap_some; intros i Hi; apply in_Nrange in Hi. cbn [img sf_px sf_h sf_w].
    rewrite (u32_small (y * by_)), (u32_small (x * bx)), !u32_small by lia.
    destruct (N.ltb_spec (N.min (y * by_ + j) (h - 1)) h); [|lia].
    destruct (N.ltb_spec (N.min (x * bx + i) (w - 1)) w); [|lia]. reflexivity.
Qed.

Lemma etc_gather x y : (w + 4 <= 2 ^ 32)%N -> (h + 4 <= 2 ^ 32)%N -> (x < cdiv w 4)%N -> (y < cdiv h 4)%N ->
  etc_block (img w h px) x y = Some (inner w h px x y) /\
  (N.min (u32 ((x + 1) * 4)) w - u32 (x * 4) = N.min 4 (w - x * 4))%N /\
  (N.min (u32 ((y + 1) * 4)) h - u32 (y * 4) = N.min 4 (h - y * 4))%N.
Proof.
  intros Lx Ly Hx Hy.
  pose proof (cdiv_bound x 4 w ltac:(lia) Hx); pose proof (cdiv_bound y 4 h ltac:(lia) Hy).
  assert (LX : (N.min (u32 ((x + 1) * 4)) w - x * 4 = N.min 4 (w - x * 4))%N).
  { destruct (N.ltb_spec ((x + 1) * 4) (2^32)); [rewrite u32_small by lia; lia|lia]. }
  assert (LY : (N.min (u32 ((y + 1) * 4)) h - y * 4 = N.min 4 (h - y * 4))%N).
  { destruct (N.ltb_spec ((y + 1) * 4) (2^32)); [rewrite u32_small by lia; lia|lia]. }
  rewrite (u32_small (x * 4)), (u32_small (y * 4)) by lia.
  split; [|auto]. unfold etc_block; cbn [img sf_w sf_h].
  rewrite (u32_small (x * 4)), (u32_small (y * 4)), LX, LY by lia.
  rewrite (omap_some _ (fun j => map (fun i => px (y * 4 + j) (x * 4 + i))%N
    (Nrange (N.min 4 (w - x * 4))))).
  - cbn [obind]. rewrite <- flat_map_concat_map. reflexivity.
  - intros j Hj; apply in_Nrange in Hj; apply omap_some; intros i Hi; apply in_Nrange in Hi.
    cbn [img sf_px].
    destruct (N.ltb_spec (y * 4 + j) h); [|lia].
    destruct (N.ltb_spec (x * 4 + i) w); [|lia]. reflexivity.
Qed.

End Gather.

Lemma pvrtcPixels_ok w h px : (w * h * 4 <= 2 ^ 32)%N ->
  pvrtcPixels (img w h px) = Some (flat_map (fun y => map (px y) (Nrange w)) (Nrange h)).
Proof.
  intros H. unfold pvrtcPixels. cbn [img sf_w sf_h sf_px].
  destruct (N.leb_spec (w * h * 4) (2 ^ 32)); [|lia].
  rewrite (omap_some _ (fun y => map (px y) (Nrange w))).
  - cbn [obind]. rewrite flat_map_concat_map. reflexivity.
  - intros y Hy; apply in_Nrange in Hy; apply omap_some; intros x Hx; apply in_Nrange in Hx.
    destruct (N.ltb_spec y h); [|lia]. destruct (N.ltb_spec x w); [|lia]. reflexivity.
Qed.

Lemma cdiv_lt x b n : (0 < b)%N -> (x * b < n)%N -> (x < cdiv n b)%N.
Proof.
  intros B H. unfold cdiv.
  apply N.lt_le_trans with (x + 1)%N; [lia|]. apply N.div_le_lower_bound; lia.
Qed.

Lemma source_s3tc f w h px x y : family_of f = Fam_S3tc -> block_at f w h x y ->
  source f w h px x y = footprint w h 4 4 px x y /\
  clamp_block (img w h px) 4 4 x y = Some (footprint w h 4 4 px x y) /\
  length (footprint w h 4 4 px x y) = 16%nat.
Proof.
  intros F (Hw & Hh & B). split; [|split; [|exact (footprint_length w h 4 4 px x y)]].
  - destruct f; try discriminate F; reflexivity.
  - destruct f; try discriminate F; cbn [family_of layout_of] in B; destruct B as (B1 & B2 & B3 & B4);
      (apply clamp_gather; try apply cdiv_lt; lia).
Qed.

Lemma existsb_in {A} (b : A -> bool) l : existsb b l = true <-> exists a, In a l /\ b a = true.
Proof. apply existsb_exists. Qed.

Lemma exists_nan (ch : rgba -> list float) l :
  existsb (fun p => existsb nan (ch p)) l = true <-> exists p v, In p l /\ In v (ch p) /\ nan v = true.
Proof.
  rewrite existsb_in. split.
  - intros (p & I & E). apply existsb_in in E. destruct E as (v & J & E). eauto.
  - intros (p & v & I & J & E). exists p. split; auto. apply existsb_in. eauto.
Qed.

Lemma existsb_ext' {A} (a b : A -> bool) l : (forall x, a x = b x) -> existsb a l = existsb b l.
Proof. intros H. induction l; cbn; [reflexivity|rewrite H, IHl; reflexivity]. Qed.

(** C20 and C21: signed normalised and integer formats, for every binary32 value. *)

From Coq Require Import NArith ZArith Reals List Bool Lia Lra.
From Coq Require Import ZifyBool ZifyNat ZifyN.
From Flocq Require Import Core Relative IEEE754.BinarySingleNaN IEEE754.Binary IEEE754.Bits.
From Verif Require Import Base FormatModel FormatSpec ContainerSpec FormatProofs FloatModel FloatSpec
  FloatProofs PixelModel PixelSpec PixelProofs PackProofs PropsPixel.
Import ListNotations.
Local Open Scope N_scope.

Lemma sext_twos b z : (0 < b) -> (- 2 ^ (Z.of_N b - 1) <= z < 2 ^ (Z.of_N b - 1))%Z ->
  sext b (twos b z) = z.
Proof.
  intros Hb H.
  assert (P : (2 ^ Z.of_N b = 2 * 2 ^ (Z.of_N b - 1))%Z).
  { rewrite <- Z.pow_succ_r by lia. f_equal. lia. }
  assert (Q : Z.of_N (2 ^ (b - 1)) = (2 ^ (Z.of_N b - 1))%Z).
  { rewrite N2Z.inj_pow. f_equal. lia. }
  unfold sext, twos. set (m := (2 ^ (Z.of_N b - 1))%Z) in *. rewrite P.
  assert (E : (z mod (2 * m) = if z <? 0 then z + 2 * m else z)%Z).
  { destruct (Z.ltb_spec z 0).
    - rewrite <- (Z_mod_plus_full z 1), Z.mul_1_l. apply Z.mod_small. lia.
    - apply Z.mod_small. lia. }
  rewrite E. destruct (Z.ltb_spec z 0).
  - destruct (N.ltb_spec (Z.to_N (z + 2 * m)) (2 ^ (b - 1))); lia.
  - destruct (N.ltb_spec (Z.to_N z) (2 ^ (b - 1))); lia.
Qed.

Lemma smax_ok b : In b [8; 16] -> (1 <= smax b <= 32767)%Z.
Proof. intros [<-|[<-|[]]]; vm_compute; split; discriminate. Qed.

(** The stored field, as a two's complement number, is the binary32 product of the clamped
    value with 2^(b-1)-1 rounded to the nearest integer; the most negative code is never
    used, and the result is within half a step (plus the rounding of the product) of the
    exact product. *)
Theorem C20_stored : forall pk f p bs c b v r,
  stores pk f T_SNorm p bs -> channel f p bs c b v r ->
  nan v = false /\ r < 2 ^ b /\
  sext b r = nearest (rnd32 (limit (-1) 1 v * (IZR (2 ^ (Z.of_N b - 1)) - 1))) /\
  (Z.abs (sext b r) <= 2 ^ (Z.of_N b - 1) - 1)%Z /\
  (Rabs (IZR (sext b r) - limit (-1) 1 v * (IZR (2 ^ (Z.of_N b - 1)) - 1))
     <= / 2 + bpow radix2 (Z.of_N b - 26))%R.
Proof.
  intros pk f p bs c b v r S H.
  destruct (channel_quantum pk f T_SNorm p bs c b v r S ltac:(nuf) H) as [Q W].
  cbn [width_ok] in W. pose proof (smax_ok b W) as U.
  unfold quantum in Q. destruct (nan v) eqn:Nv; [discriminate|]. inversion Q as [E]; clear Q.
  assert (M1 : (IZR (2 ^ (Z.of_N b - 1)) - 1 = IZR (smax b))%R) by (unfold smax; rewrite minus_IZR; reflexivity).
  rewrite M1.
  pose proof (limit11_prod (smax b) v ltac:(lia)) as P.
  pose proof (rnd_nearest_range _ (- smax b) (smax b) ltac:(lia) ltac:(lia) P) as R.
  set (x := (limit (-1) 1 v * IZR (smax b))%R) in *.
  assert (SX : sext b (twos b (nearest (rnd32 x))) = nearest (rnd32 x)).
  { apply sext_twos; [destruct W as [<-|[<-|[]]]; lia|]. unfold smax in *. lia. }
  rewrite SX. split; [reflexivity|]. split; [apply twos_lt|]. split; [reflexivity|].
  split; [unfold smax in *; lia|].
  assert (X : (Rabs x < bpow radix2 (Z.of_N b - 1))%R).
  { rewrite opp_IZR in P.
    assert (IZR (smax b) < bpow radix2 (Z.of_N b - 1))%R.
    { rewrite <- IZR_Zpower by (destruct W as [<-|[<-|[]]]; lia). apply IZR_lt. unfold smax.
      change (Z.pow (radix_val radix2) (Z.of_N b - 1)) with (2 ^ (Z.of_N b - 1))%Z. lia. }
    apply Rabs_def1; lra. }
  pose proof (rnd32_error x (Z.of_N b - 1) ltac:(destruct W as [<-|[<-|[]]]; lia) X) as E1.
  replace (Z.of_N b - 1 - 25)%Z with (Z.of_N b - 26)%Z in E1 by lia.
  pose proof (Znearest_half (Z.leb 0) (rnd32 x)) as E2.
  change (Znearest (Z.leb 0) (rnd32 x)) with (nearest (rnd32 x)) in E2.
  replace (IZR (nearest (rnd32 x)) - x)%R with
    (- (rnd32 x - IZR (nearest (rnd32 x))) + (rnd32 x - x))%R by lra.
  eapply Rle_trans; [apply Rabs_triang|]. rewrite Rabs_Ropp. lra.
Qed.
Print Assumptions C20_stored.

Lemma smaxR b : (IZR (2 ^ (Z.of_N b - 1)) - 1 = IZR (smax b))%R.
Proof. unfold smax; rewrite minus_IZR; reflexivity. Qed.

Lemma limit_at_lo lo hi z v : (lo <= hi)%R -> (Z.abs z <= 2 ^ 24)%Z -> IZR z = lo ->
  nan v = false -> fle v (float_of_Z z) -> limit lo hi v = lo.
Proof.
  intros L Hz Z1 Nv F. destruct (float_of_Z_ok z Hz) as [R0 F0].
  unfold fle, b32_compare in F. destruct (finite v) eqn:Fv.
  - rewrite Bcompare_correct in F by assumption.
    fold (real v) in F. fold (real (float_of_Z z)) in F. rewrite R0 in F.
    assert (K : (real v <= lo)%R) by (rewrite <- Z1; destruct (Rcompare_spec (real v) (IZR z)); try lra; destruct F).
    destruct v; try discriminate; cbn [limit]; rewrite Rmin_right by lra; apply Rmax_left; lra.
  - destruct v as [|s| |]; try discriminate. destruct s; [reflexivity|].
    destruct (float_of_Z z); try discriminate F0; destruct F.
Qed.

Lemma limit_at_hi lo hi z v : (lo <= hi)%R -> (Z.abs z <= 2 ^ 24)%Z -> IZR z = hi ->
  nan v = false -> fle (float_of_Z z) v -> limit lo hi v = hi.
Proof.
  intros L Hz Z1 Nv F. destruct (float_of_Z_ok z Hz) as [R0 F0].
  unfold fle, b32_compare in F. destruct (finite v) eqn:Fv.
  - rewrite Bcompare_correct in F by assumption.
    fold (real v) in F. fold (real (float_of_Z z)) in F. rewrite R0 in F.
    assert (K : (hi <= real v)%R) by (rewrite <- Z1; destruct (Rcompare_spec (IZR z) (real v)); try lra; destruct F).
    destruct v; try discriminate; cbn [limit]; rewrite Rmin_left by lra; apply Rmax_right; lra.
  - destruct v as [|s| |]; try discriminate. destruct s; [|reflexivity].
    destruct (float_of_Z z) as [| | |[]]; try discriminate F0; destruct F.
Qed.

(** Exact at the ends and at zero. *)
Theorem C20_endpoints : forall pk f p bs c b v r,
  stores pk f T_SNorm p bs -> channel f p bs c b v r ->
  (fle v (float_of_Z (-1)) -> sext b r = (- (2 ^ (Z.of_N b - 1) - 1))%Z) /\
  (fle (float_of_Z 1) v -> sext b r = (2 ^ (Z.of_N b - 1) - 1)%Z) /\
  (finite v = true -> real v = 0%R -> r = 0).
Proof.
  intros pk f p bs c b v r S H.
  destruct (channel_quantum pk f T_SNorm p bs c b v r S ltac:(nuf) H) as [_ W].
  cbn [width_ok] in W. pose proof (smax_ok b W) as U.
  destruct (C20_stored _ _ _ _ _ _ _ _ S H) as (Nv & Lr & E & _ & _).
  rewrite smaxR in E. fold (smax b). split; [|split].
  - intros F. rewrite (limit_at_lo _ _ (-1) v) in E; auto; try lra; [|lia].
    replace (-1 * IZR (smax b))%R with (IZR (- smax b)) in E by (rewrite opp_IZR; lra).
    rewrite rnd32_int in E by lia. rewrite nearest_int in E. exact E.
  - intros F. rewrite (limit_at_hi _ _ 1 v) in E; auto; try lra; [|lia].
    rewrite Rmult_1_l, rnd32_int, nearest_int in E by lia. exact E.
  - intros F Z0.
    assert (L : limit (-1) 1 v = 0%R).
    { destruct v; try discriminate; cbn [limit]; rewrite Z0, Rmin_right by lra; apply Rmax_right; lra. }
    rewrite L, Rmult_0_l in E. rewrite (rnd32_int 0) in E by lia. rewrite nearest_int in E.
    unfold sext in E. destruct (N.ltb_spec r (2 ^ (b - 1))); [lia|].
    pose proof (two_pow_Z b). lia.
Qed.
Print Assumptions C20_endpoints.

Lemma limit_opp v : nan v = false -> limit (-1) 1 (b32_opp v) = (- limit (-1) 1 v)%R.
Proof.
  intros Nv.
  assert (K : forall x, Rmax (-1) (Rmin 1 (- x)) = (- Rmax (-1) (Rmin 1 x))%R).
  { intros x. unfold Rmax, Rmin. repeat destruct Rle_dec; lra. }
  destruct v as [s|s| |s m e h]; try discriminate.
  - cbn. rewrite <- K, Ropp_0. reflexivity.
  - destruct s; cbn; lra.
  - pose proof (B2R_Bopp 24 128 unop_nan_pl32 (B754_finite 24 128 s m e h)) as O.
    change (Rmax (-1) (Rmin 1 (B2R 24 128 (Bopp 24 128 unop_nan_pl32 (B754_finite 24 128 s m e h)))) =
            - Rmax (-1) (Rmin 1 (B2R 24 128 (B754_finite 24 128 s m e h))))%R.
    rewrite O. apply K.
Qed.

(** Negating the value negates the stored number. *)
Theorem C20_odd : forall pk f p q bs bs' c b v r s,
  stores pk f T_SNorm p bs -> channel f p bs c b v r ->
  stores pk f T_SNorm q bs' -> channel f q bs' c b (b32_opp v) s ->
  sext b s = (- sext b r)%Z.
Proof.
  intros pk f p q bs bs' c b v r s S H S' H'.
  destruct (C20_stored _ _ _ _ _ _ _ _ S H) as (Nv & _ & E & _).
  destruct (C20_stored _ _ _ _ _ _ _ _ S' H') as (_ & _ & E' & _).
  rewrite E, E', limit_opp by auto. rewrite Ropp_mult_distr_l_reverse.
  unfold rnd32 at 1. rewrite round_NE_opp. apply nearest_opp.
Qed.
Print Assumptions C20_odd.

Theorem C20_monotone : forall pk f p q bs bs' c b v w r s,
  stores pk f T_SNorm p bs -> channel f p bs c b v r ->
  stores pk f T_SNorm q bs' -> channel f q bs' c b w s ->
  fle v w -> (sext b r <= sext b s)%Z.
Proof.
  intros pk f p q bs bs' c b v w r s S H S' H' F.
  destruct (channel_quantum pk f T_SNorm p bs c b v r S ltac:(nuf) H) as [_ W].
  cbn [width_ok] in W. pose proof (smax_ok b W) as U.
  destruct (C20_stored _ _ _ _ _ _ _ _ S H) as (_ & _ & E & _).
  destruct (C20_stored _ _ _ _ _ _ _ _ S' H') as (_ & _ & E' & _).
  rewrite E, E', smaxR. apply nearest_le, rnd32_le, Rmult_le_compat_r; [|apply limit_mono; auto; lra].
  apply IZR_le; lia.
Qed.
Print Assumptions C20_monotone.

(** Re-encoding the value a reader decodes for [k] gives [k] back. *)
Theorem C20_round_trip : forall pk f p bs c b v r k,
  stores pk f T_SNorm p bs -> channel f p bs c b v r ->
  (Z.abs k <= 2 ^ (Z.of_N b - 1) - 1)%Z -> finite v = true ->
  real v = rnd32 (IZR k / (IZR (2 ^ (Z.of_N b - 1)) - 1)) -> sext b r = k.
Proof.
  intros pk f p bs c b v r k S H Hk Fv Hv.
  destruct (channel_quantum pk f T_SNorm p bs c b v r S ltac:(nuf) H) as [_ W].
  cbn [width_ok] in W. pose proof (smax_ok b W) as U.
  destruct (C20_stored _ _ _ _ _ _ _ _ S H) as (_ & _ & E & _).
  fold (smax b) in Hk. rewrite smaxR in *.
  assert (UR : (1 <= IZR (smax b) <= 32767)%R) by (split; apply IZR_le; lia).
  assert (KR : (Rabs (IZR k) <= IZR (smax b))%R) by (rewrite <- abs_IZR; apply IZR_le; lia).
  set (M := IZR (smax b)) in *.
  assert (AQ : (Rabs (IZR k / M) = Rabs (IZR k) / M)%R).
  { unfold Rdiv. rewrite Rabs_mult, (Rabs_right (/ M)); [reflexivity|].
    left. apply Rinv_0_lt_compat; lra. }
  assert (Q01 : (-1 <= IZR k / M <= 1)%R).
  { assert (Rabs (IZR k / M) <= 1)%R.
    { rewrite AQ. apply Rmult_le_reg_r with M; [lra|]. unfold Rdiv. rewrite Rmult_assoc, Rinv_l by lra. lra. }
    revert H0. generalize (IZR k / M)%R. intros x Hx. unfold Rabs in Hx. destruct (Rcase_abs x); lra. }
  assert (V01 : (-1 <= real v <= 1)%R).
  { rewrite Hv. pose proof (rnd32_int (-1) ltac:(lia)) as I0. pose proof (rnd32_int 1 ltac:(lia)) as I1.
    pose proof (rnd32_le _ _ (proj1 Q01)). pose proof (rnd32_le _ _ (proj2 Q01)). lra. }
  assert (Lv : limit (-1) 1 v = real v).
  { destruct v; try discriminate; cbn [limit]; rewrite Rmin_right by lra; apply Rmax_right; lra. }
  rewrite Lv in E.
  assert (X : (Rabs (real v * M - IZR k) <= bpow radix2 (-8))%R).
  { destruct (Z.eq_dec k 0) as [K0|K0].
    - rewrite Hv, K0. unfold Rdiv. rewrite Rmult_0_l. rewrite (rnd32_int 0) by lia.
      rewrite Rmult_0_l, Rminus_0_r, Rabs_R0. apply bpow_ge_0.
    - assert (K1 : (1 <= Rabs (IZR k))%R) by (rewrite <- abs_IZR; apply IZR_le; lia).
      assert (Q1 : (bpow radix2 (-149 + 24 - 1) <= Rabs (IZR k / M))%R).
      { rewrite AQ.
        apply Rle_trans with (bpow radix2 (-16)); [apply bpow_le; lia|].
        change (bpow radix2 (-16)) with (/ 65536)%R.
        apply Rmult_le_reg_r with M; [lra|]. unfold Rdiv. rewrite Rmult_assoc, Rinv_l by lra. lra. }
      pose proof (relative_error_N_FLT radix2 (-149) 24 ltac:(reflexivity) (fun x => negb (Z.even x)) (IZR k / M) Q1) as RE.
      change (round radix2 (FLT_exp (-149) 24) (Znearest (fun x => negb (Z.even x))) (IZR k / M)) with (rnd32 (IZR k / M)) in RE.
      rewrite <- Hv in RE.
      replace (real v * M - IZR k)%R with ((real v - IZR k / M) * M)%R by (field; lra).
      rewrite Rabs_mult, (Rabs_right M) by lra.
      apply Rle_trans with (/ 2 * bpow radix2 (- (24) + 1) * Rabs (IZR k / M) * M)%R.
      + apply Rmult_le_compat_r; [lra|exact RE].
      + rewrite AQ.
        replace (/ 2 * bpow radix2 (- (24) + 1) * (Rabs (IZR k) / M) * M)%R
          with (/ 2 * bpow radix2 (- (24) + 1) * Rabs (IZR k))%R by (field; lra).
        change (bpow radix2 (- (24) + 1)) with (/ 8388608)%R. change (bpow radix2 (-8)) with (/ 256)%R. lra. }
  assert (Y : (Rabs (real v * M) < bpow radix2 16)%R).
  { rewrite Rabs_mult, (Rabs_right M) by lra.
    change (bpow radix2 16) with 65536%R.
    assert (Rabs (real v) <= 1)%R by (apply Rabs_le; lra).
    apply Rle_lt_trans with (1 * M)%R; [apply Rmult_le_compat_r; lra|lra]. }
  pose proof (rnd32_error (real v * M) 16 ltac:(lia) Y) as RE.
  rewrite E. unfold nearest. apply Znearest_imp.
  replace (rnd32 (real v * M) - IZR k)%R with ((rnd32 (real v * M) - real v * M) + (real v * M - IZR k))%R by lra.
  eapply Rle_lt_trans; [apply Rabs_triang|].
  change (bpow radix2 (16 - 25)) with (/ 512)%R in RE. change (bpow radix2 (-8)) with (/ 256)%R in X. lra.
Qed.
Print Assumptions C20_round_trip.

Theorem C20_undefined : forall pk fl f c l p,
  createConverter fl f T_SNorm = Some c -> lsb_layout f = Some l ->
  (enc_px pk c p = None <->
   exists ch b v, In (ch, b) l /\ chan_val p ch = Some v /\ nan v = true).
Proof.
  intros pk fl f c l p C L. rewrite (C22_undefined pk fl f T_SNorm c l p C L) by nuf.
  split; intros (ch & b & v & I & V & Q); exists ch, b, v; repeat split; auto.
  - unfold quantum in Q. destruct (nan v); [reflexivity|discriminate].
  - unfold quantum. rewrite Q. reflexivity.
Qed.
Print Assumptions C20_undefined.

(** * C21: integer formats *)

(** Range of a [b]-bit integer channel. *)
Definition ilo (t : ttype) (b : N) : Z := match t with T_Int => (- 2 ^ (Z.of_N b - 1))%Z | _ => 0%Z end.
Definition ihi (t : ttype) (b : N) : Z := match t with T_Int => (2 ^ (Z.of_N b - 1) - 1)%Z | _ => (2 ^ Z.of_N b - 1)%Z end.
(** Value of a stored integer field. *)
Definition ival (t : ttype) (b r : N) : Z := match t with T_Int => sext b r | _ => Z.of_N r end.

(** Whenever the conversion is defined, the stored integer is the nearest integer of the value
    limited to the range of the channel. *)
Theorem C21_stored : forall pk f t p bs c b v r,
  t = T_Int \/ t = T_UInt ->
  stores pk f t p bs -> channel f p bs c b v r ->
  nan v = false /\ r < 2 ^ b /\
  ival t b r = nearest (limit (IZR (ilo t b)) (IZR (ihi t b)) v) /\
  (ilo t b <= ival t b r <= ihi t b)%Z.
Proof.
  intros pk f t p bs c b v r T S H.
  assert (NU : t <> T_UFloat) by (destruct T as [->| ->]; discriminate).
  destruct (channel_quantum pk f t p bs c b v r S NU H) as [Q W].
  assert (B : 2 <= b <= 32).
  { destruct T as [->| ->]; cbn [width_ok] in W; repeat destruct W as [<-|W]; try destruct W; lia. }
  assert (P : (0 < 2 ^ (Z.of_N b - 1))%Z) by (apply Z.pow_pos_nonneg; lia).
  assert (P' : (2 ^ Z.of_N b = 2 * 2 ^ (Z.of_N b - 1))%Z).
  { rewrite <- Z.pow_succ_r by lia. f_equal. lia. }
  assert (R : (ilo t b <= nearest (limit (IZR (ilo t b)) (IZR (ihi t b)) v) <= ihi t b)%Z).
  { apply nearest_range, limit_range, IZR_le. destruct T as [->| ->]; cbn [ilo ihi]; lia. }
  destruct T as [->| ->]; unfold quantum in Q; destruct (nan v); try discriminate;
    match type of Q with context [too_big ?t ?b ?v] => destruct (too_big t b v) end; try discriminate;
    cbn [orb] in Q; inversion Q as [E]; clear Q; split; try reflexivity; cbn [ival ilo ihi] in *.
  - unfold smax in E |- *. replace (- (2 ^ (Z.of_N b - 1) - 1) - 1)%Z with (- 2 ^ (Z.of_N b - 1))%Z in * by lia.
    rewrite sext_twos by lia. split; [apply twos_lt|]. split; [reflexivity|lia].
  - unfold umax in E |- *. pose proof (two_pow_Z b) as TP.
    split; [lia|]. split; lia.
Qed.
Print Assumptions C21_stored.

(** In-range integers are stored exactly. *)
Theorem C21_exact : forall pk f t p bs c b v r z,
  t = T_Int \/ t = T_UInt ->
  stores pk f t p bs -> channel f p bs c b v r ->
  finite v = true -> real v = IZR z -> (ilo t b <= z <= ihi t b)%Z -> ival t b r = z.
Proof.
  intros pk f t p bs c b v r z T S H F Z1 B.
  destruct (C21_stored _ _ _ _ _ _ _ _ _ T S H) as (_ & _ & E & _). rewrite E.
  assert (BR : (IZR (ilo t b) <= IZR z <= IZR (ihi t b))%R) by (split; apply IZR_le; lia).
  assert (L : limit (IZR (ilo t b)) (IZR (ihi t b)) v = IZR z).
  { destruct v; try discriminate; cbn [limit]; rewrite Z1, Rmin_right by lra; apply Rmax_right; lra. }
  rewrite L. apply nearest_int.
Qed.
Print Assumptions C21_exact.

Theorem C21_monotone : forall pk f t p q bs bs' c b v w r s,
  t = T_Int \/ t = T_UInt ->
  stores pk f t p bs -> channel f p bs c b v r ->
  stores pk f t q bs' -> channel f q bs' c b w s ->
  fle v w -> (ival t b r <= ival t b s)%Z.
Proof.
  intros pk f t p q bs bs' c b v w r s T S H S' H' F.
  destruct (C21_stored _ _ _ _ _ _ _ _ _ T S H) as (_ & _ & E & B).
  destruct (C21_stored _ _ _ _ _ _ _ _ _ T S' H') as (_ & _ & E' & B').
  rewrite E, E'. apply nearest_le, limit_mono; auto. apply IZR_le. lia.
Qed.
Print Assumptions C21_monotone.

(** The undefined cases: NaN, and (only for 32-bit channels) values at or above 2^31, resp.
    2^32, including infinity. *)
Theorem C21_undefined : forall pk fl f t c l p,
  t = T_Int \/ t = T_UInt ->
  createConverter fl f t = Some c -> lsb_layout f = Some l ->
  (enc_px pk c p = None <->
   exists ch b v, In (ch, b) l /\ chan_val p ch = Some v /\
     (nan v = true \/
      b = 32 /\ (v = B754_infinity 24 128 false \/
                 finite v = true /\ (IZR (ihi t 32 + 1) <= real v)%R))).
Proof.
  intros pk fl f t c l p T C L.
  assert (NU : t <> T_UFloat) by (destruct T as [->| ->]; discriminate).
  rewrite (C22_undefined pk fl f t c l p C L NU).
  assert (K : forall b v, (quantum pk t b v = None) <->
    (nan v = true \/ b = 32 /\ (v = B754_infinity 24 128 false \/
       finite v = true /\ (IZR (ihi t 32 + 1) <= real v)%R))).
  { intros b v.
    assert (QN : quantum pk t b v = None <-> nan v || too_big t b v = true).
    { destruct T as [->| ->]; unfold quantum; destruct (nan v || too_big _ b v);
        split; intros X; auto; discriminate. }
    rewrite QN, orb_true_iff. unfold too_big. rewrite andb_true_iff, N.eqb_eq.
    assert (BB : (match t with T_Int => 2 ^ 31 | _ => 2 ^ 32 end = ihi t 32 + 1)%Z)
      by (destruct T as [->| ->]; reflexivity).
    rewrite BB.
    split; (intros [X|[X Y]]; [left; exact X|]).
    - destruct v as [s|s| s pl h|s m e h].
      + right. split; auto. right. split; auto. destruct (Rle_bool_spec (IZR (ihi t 32 + 1)) (real (B754_zero 24 128 s))); [auto|discriminate].
      + right. split; auto. left. destruct s; [discriminate|reflexivity].
      + left; reflexivity.
      + right. split; auto. right. split; auto. destruct (Rle_bool_spec (IZR (ihi t 32 + 1)) (real (B754_finite 24 128 s m e h))); [auto|discriminate].
    - right. split; auto. destruct Y as [->|[F G]]; [reflexivity|].
      destruct v; try discriminate; apply Rle_bool_true; exact G. }
  split; intros (ch & b & v & I & V & Q); exists ch, b, v; repeat split; auto; apply K; auto.
Qed.
Print Assumptions C21_undefined.

(** In particular 8, 10 and 16 bit channels saturate for every value that is not NaN. *)
Theorem C21_saturates : forall pk fl f t c l p,
  t = T_Int \/ t = T_UInt ->
  createConverter fl f t = Some c -> lsb_layout f = Some l ->
  (forall ch b, In (ch, b) l -> b <> 32) ->
  (forall ch v, chan_val p ch = Some v -> nan v = false) ->
  exists bs, enc_px pk c p = Some bs.
Proof.
  intros pk fl f t c l p T C L B NN.
  destruct (enc_px pk c p) as [bs|] eqn:E; [eauto|].
  apply (C21_undefined pk fl f t c l p T C L) in E.
  destruct E as (ch & b & v & I & V & [X|[X _]]).
  - rewrite (NN _ _ V) in X. discriminate.
  - destruct (B _ _ I X).
Qed.
Print Assumptions C21_saturates.

(** Saturation fails for 32-bit channels: 2^32 has no defined conversion to R32 UInt. *)
Theorem C21_saturates_refuted : exists pk fl c p,
  createConverter fl F_R32 T_UInt = Some c /\
  (forall ch v, chan_val p ch = Some v -> finite v = true) /\
  enc_px pk c p = None.
Proof.
  pose (pk := {| pack_half := fun _ => 0; pack_111110 := fun _ _ _ => 0; pack_9995 := fun _ _ _ => 0 |}).
  pose (z := float_of_Z 4294967296). pose (p := Rgba z z z z).
  destruct (createConverter (Flags true true true true) F_R32 T_UInt) as [c|] eqn:C.
  2:{ vm_compute in C. discriminate. }
  exists pk, (Flags true true true true), c, p.
  assert (F : finite z = true) by (vm_compute; reflexivity).
  split; [exact C|]. split.
  - intros ch v H; destruct ch; inversion H; subst; exact F.
  - apply (C21_undefined pk (Flags true true true true) F_R32 T_UInt c [(ChR, 32)] p (or_intror eq_refl) C eq_refl).
    exists ChR, 32, z. split; [left; reflexivity|]. split; [reflexivity|]. right. split; [reflexivity|].
    right. split; [exact F|]. unfold z, real. rewrite <- FF2R_B2FF.
    replace (B2FF 24 128 (float_of_Z 4294967296)) with (F754_finite false 8388608 9) by (vm_compute; reflexivity).
    unfold FF2R, F2R; cbn [cond_Zopp Fnum Fexp ihi]. change (bpow radix2 9) with (IZR 512).
    rewrite <- mult_IZR. apply IZR_le. vm_compute. discriminate.
Qed.
Print Assumptions C21_saturates_refuted.

(** * The hypotheses are met by concrete pixels *)

Definition pk0 : packers :=
  {| pack_half := fun _ => 0; pack_111110 := fun _ _ _ => 0; pack_9995 := fun _ _ _ => 0 |}.
(** (0.5, 1, 0.25, -1) *)
Definition px0 : rgba := Rgba (b32_of_bits 0x3f000000) (b32_of_bits 0x3f800000)
                              (b32_of_bits 0x3e800000) (b32_of_bits 0xbf800000).

Ltac stored c := exists (Flags true true true true), c; split; vm_compute; reflexivity.
Ltac chan l := exists l; split; [vm_compute; reflexivity|]; split; [simpl; auto|]; split; reflexivity.

(** R5G6B5 UNorm: 0.5 -> 16 (in the top five bits), 1 -> 63, 0.25 -> 8. *)
Example C19_example :
  stores pk0 F_R5G6B5 T_UNorm px0 [0xe8; 0x87] /\
  channel F_R5G6B5 px0 [0xe8; 0x87] ChR 5 (pr px0) 16 /\
  channel F_R5G6B5 px0 [0xe8; 0x87] ChG 6 (pg px0) 63 /\
  channel F_R5G6B5 px0 [0xe8; 0x87] ChB 5 (pb px0) 8.
Proof.
  split; [stored CvR5G6B5|].
  split; [|split]; chan [(ChB, 5); (ChG, 6); (ChR, 5)].
Qed.

(** R8G8B8A8 SNorm: -1 -> -127, stored as 0x81. *)
Example C20_example :
  stores pk0 F_R8G8B8A8 T_SNorm px0 [64; 127; 32; 0x81] /\
  channel F_R8G8B8A8 px0 [64; 127; 32; 0x81] ChA 8 (pa px0) 0x81 /\ sext 8 0x81 = (-127)%Z.
Proof.
  split; [stored (CvSNorm 8 4)|].
  split; [chan [(ChR, 8); (ChG, 8); (ChB, 8); (ChA, 8)]|reflexivity].
Qed.

(** R8G8B8A8 Int: 0.5 rounds away from zero, -1 is stored as 0xff. *)
Example C21_example :
  stores pk0 F_R8G8B8A8 T_Int px0 [1; 1; 0; 0xff] /\
  channel F_R8G8B8A8 px0 [1; 1; 0; 0xff] ChA 8 (pa px0) 0xff /\ ival T_Int 8 0xff = (-1)%Z.
Proof.
  split; [stored (CvInt true 8 4)|].
  split; [chan [(ChR, 8); (ChG, 8); (ChB, 8); (ChA, 8)]|reflexivity].
Qed.

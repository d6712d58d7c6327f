(** C37: normal maps. *)

From Coq Require Import ZArith NArith List Bool Lia Reals Lra Psatz.
From Coq Require Import ZifyBool ZifyNat ZifyN.
From Flocq Require Import Core IEEE754.BinarySingleNaN IEEE754.Binary IEEE754.Bits.
From Verif Require Import Base FormatModel FloatModel FloatSpec FloatProofs ArithModel ArithSpec DoubleProofs
  TextureModel ImageModel ImageLoops ImageStoreProofs ImageApiProofs ImageValueProofs ResizeAxis64
  NormalModel NormalSpec NormalProofs.
Import ListNotations.
Local Open Scope R_scope.

(** Neighbours in scanline order and in API order. *)
Lemma prev_before wrap n i : (i < n < 2 ^ 31)%N -> prevIndex wrap n i = before wrap n i.
Proof.
  intros H. unfold prevIndex, before. destruct (N.eqb_spec i 0) as [->|Hi].
  - destruct wrap; [|reflexivity]. rewrite usub_small by lia. rewrite N.mod_small; lia.
  - rewrite usub_small by lia. destruct wrap; auto.
    replace (i + n - 1)%N with (i - 1 + 1 * n)%N by lia. rewrite N.mod_add by lia. rewrite N.mod_small; lia.
Qed.
Lemma next_after wrap n i : (i < n < 2 ^ 31)%N -> nextIndex wrap n i = after wrap n i.
Proof.
  intros H. unfold nextIndex, after. rewrite usub_small by lia. destruct (N.eqb_spec i (n - 1)) as [->|Hi].
  - destruct wrap; [|lia]. replace (n - 1 + 1)%N with n by lia. rewrite N.mod_same; lia.
  - unfold u32. rewrite N.mod_small by lia. destruct wrap; [|lia]. rewrite N.mod_small; lia.
Qed.
Lemma before_lt wrap n i : (i < n)%N -> (before wrap n i < n)%N.
Proof. intros. unfold before. destruct wrap; [apply N.mod_lt|]; lia. Qed.
Lemma after_lt wrap n i : (i < n)%N -> (after wrap n i < n)%N.
Proof. intros. unfold after. destruct wrap; [apply N.mod_lt|]; lia. Qed.
Lemma before_flip wrap n i : (i < n)%N -> before wrap n (n - 1 - i) = (n - 1 - after wrap n i)%N.
Proof.
  intros. unfold before, after. destruct wrap; [|lia].
  destruct (N.eq_dec i (n - 1)) as [->|].
  - replace (n - 1 - (n - 1) + n - 1)%N with (n - 1)%N by lia. replace (n - 1 + 1)%N with n by lia.
    rewrite N.mod_same, N.mod_small; lia.
  - rewrite (N.mod_small (i + 1)) by lia. replace (n - 1 - i + n - 1)%N with (n - 1 - (i + 1) + 1 * n)%N by lia.
    rewrite N.mod_add, N.mod_small; lia.
Qed.
Lemma after_flip wrap n i : (i < n)%N -> after wrap n (n - 1 - i) = (n - 1 - before wrap n i)%N.
Proof.
  intros. unfold before, after. destruct wrap; [|lia].
  destruct (N.eq_dec i 0) as [->|].
  - replace (n - 1 - 0 + 1)%N with n by lia. rewrite N.mod_same, N.mod_small; lia.
  - rewrite N.mod_small by lia. replace (i + n - 1)%N with (i - 1 + 1 * n)%N by lia.
    rewrite N.mod_add, N.mod_small; lia.
Qed.
Lemma gap_flip wrap n i : (i < n)%N -> gap wrap n (n - 1 - i) = gap wrap n i.
Proof.
  intros. unfold gap. destruct wrap; auto.
  replace (n - 1 - i =? 0)%N with (i =? n - 1)%N by lia.
  replace (n - 1 - i =? n - 1)%N with (i =? 0)%N by lia.
  rewrite orb_comm. reflexivity.
Qed.
Lemma gap_12 wrap n i : gap wrap n i = 1 \/ gap wrap n i = 2.
Proof. unfold gap. destruct wrap; auto. destruct (_ || _)%bool; auto. Qed.

Section Pow.
Variable pw : double -> double -> double.
Local Notation D := (double_arith pw).
Local Notation is := (is pw).

Lemma distance_is wrap n i : (i < n < 2 ^ 31)%N -> is (@distance D wrap n i) (gap wrap n i).
Proof.
  intros H. unfold distance, gap. rewrite usub_small by lia.
  destruct (i =? n - 1)%N, (i =? 0)%N, wrap; cbn [andb orb negb]; apply lit_is; lia.
Qed.

(** The formats with three or four colour channels and no packing. *)
Definition colour_format (f : imgfmt) : Prop :=
  In f [I_RGB8; I_RGBA8; I_RGB16; I_RGBA16; I_RGBF; I_RGBAF].
Definition is_float (f : imgfmt) : bool := match f with I_RGBF | I_RGBAF => true | _ => false end.
(** Formats of unsigned integers have no negative values: they show 0 instead. *)
Definition shown (f : imgfmt) (v : R) : R := if is_float f then v else Rmax 0 v.
(** Half a step of the format and a little for rounding. *)
Definition precision (f : imgfmt) : R :=
  match f with
  | I_RGB8 | I_RGBA8 => / 510 + / 2 ^ 30
  | I_RGB16 | I_RGBA16 => / 131070 + / 2 ^ 30
  | _ => / 2 ^ 23
  end.
Definition lowest (f : imgfmt) (keep : bool) : R := if is_float f && keep then -1 else 0.

(** What a channel must satisfy: [v] is a finite number close to [x] and between [lo] and 1. *)
Definition channel_is (f : imgfmt) (v : double) (x lo : R) : Prop :=
  dfinite v = true /\ Rabs (dreal v - shown f x) <= precision f /\ lo <= dreal v <= 1.

Lemma int_channel hi m (d : double) (r x : R) : (0 < m <= 65535)%Z -> (m <= hi)%Z -> is d r -> r <= 1 -> x <= 1 ->
  Rabs (r - x) <= 90 * u ->
  exists v, @fromNorm D hi m d = Some v /\ dfinite (@toNorm D m v) = true /\
    Rabs (dreal (@toNorm D m v) - Rmax 0 x) <= / (2 * IZR m) + / 2 ^ 30 /\ 0 <= dreal (@toNorm D m v) <= 1 /\
    (r = 1 -> dreal (@toNorm D m v) = 1).
Proof.
  intros Hm Hh [F <-] R1 X1 E.
  destruct (fromNorm_value pw hi m d Hm Hh F) as [EV RV].
  eexists. split; [exact EV|].
  set (v := nearest _) in *.
  destruct (toNorm_ok pw m v Hm RV) as (FT & DT & BT & ET).
  split; [exact FT|].
  assert (M1 : 1 <= IZR m <= 65535) by (split; apply IZR_le; lia).
  set (z := Rmax 0 (Rmin 1 (dreal d))) in *.
  assert (ZR : 0 <= z <= 1).
  { unfold z; split; [apply Rmax_l|apply Rmax_lub; [lra|apply Rmin_l]]. }
  assert (ZX : Rabs (z - Rmax 0 x) <= 90 * u).
  { unfold z. revert E. pose proof u_pos. unfold Rabs, Rmax, Rmin.
    repeat destruct Rle_dec; repeat destruct Rcase_abs; lra. }
  split; [|split; [exact BT|]].
  - assert (B : Rabs (z * IZR m) <= bpow radix2 16).
    { rewrite Rabs_pos_eq by (apply Rmult_le_pos; lra). change (bpow radix2 16) with 65536.
      apply Rle_trans with (1 * IZR m); [apply Rmult_le_compat_r; lra|lra]. }
    pose proof (rnd64_err (z * IZR m) 16 ltac:(lia) B) as Er.
    change (bpow radix2 (16 - 53)) with (/ IZR (2 ^ 37)) in Er.
    pose proof (nearest_half (rnd64 (z * IZR m))) as Nh. fold v in Nh.
    assert (Q : Rabs (IZR v / IZR m - z) <= / (2 * IZR m) + / IZR (2 ^ 37)).
    { replace (IZR v / IZR m - z) with ((IZR v - z * IZR m) / IZR m) by (field; lra).
      unfold Rdiv. rewrite Rabs_mult, (Rabs_pos_eq (/ IZR m)) by (left; apply Rinv_0_lt_compat; lra).
      apply Rle_trans with ((/ 2 + / IZR (2 ^ 37)) * / IZR m).
      - apply Rmult_le_compat_r; [left; apply Rinv_0_lt_compat; lra|].
        apply Rabs_le_inv in Er, Nh. apply Rabs_le. lra.
      - rewrite Rinv_mult by lra. rewrite Rmult_plus_distr_r. apply Rplus_le_compat_l.
        rewrite <- (Rmult_1_r (/ IZR (2 ^ 37))) at 2. apply Rmult_le_compat_l.
        + left. apply Rinv_0_lt_compat. apply IZR_lt. lia.
        + rewrite <- Rinv_1. apply Rinv_le; lra. }
    change (IZR (2^37)) with 137438953472 in *. change (IZR (2 ^ 53)) with 9007199254740992 in *.
    rewrite u_val in ZX. replace (2 ^ 30) with 1073741824 by lra.
    set (k := / (2 * IZR m)) in *. clearbody k.
    apply Rabs_le_inv in ET, ZX, Q. apply Rabs_le. lra.
  - intros R. assert (Z : z = 1) by (unfold z; rewrite R; unfold Rmax, Rmin; repeat destruct Rle_dec; lra).
    assert (V : v = m).
    { unfold v. rewrite Z, Rmult_1_l, rnd64_int by lia. apply nearest_int. }
    rewrite DT, V. unfold Rdiv. rewrite Rinv_r by lra. apply (rnd64_int 1). lia.
Qed.

Lemma rnd32_err x : Rabs x <= 1 -> Rabs (rnd32 x - x) <= / 2 ^ 24.
Proof.
  intros H. assert (V : Valid_exp (FLT_exp (-149) 24)) by (apply FLT_exp_valid; reflexivity).
  assert (M : Monotone_exp (FLT_exp (-149) 24)) by apply FLT_exp_monotone.
  eapply Rle_trans; [apply (error_le_half_ulp radix2 (FLT_exp (-149) 24))|].
  apply Rle_trans with (/ 2 * bpow radix2 (-23)).
  - apply Rmult_le_compat_l; [lra|].
    change (bpow radix2 (-23)) with (bpow radix2 (FLT_exp (-149) 24 (0 + 1))). rewrite <- ulp_bpow.
    rewrite <- (ulp_abs _ _ x). apply ulp_le_pos; auto. apply Rabs_pos.
  - change (bpow radix2 (-23)) with (/ 8388608). replace (2 ^ 24) with 16777216 by lra. lra.
Qed.

Lemma float_channel (d : double) (r x : R) : is d r -> -1 <= r <= 1 -> Rabs (r - x) <= 90 * u ->
  dfinite (dwiden (dnarrow d)) = true /\ Rabs (dreal (dwiden (dnarrow d)) - x) <= / 2 ^ 23 /\
  dreal (dwiden (dnarrow d)) = rnd32 r.
Proof.
  intros [F <-] R E.
  assert (B : -1 <= rnd32 (dreal d) <= 1).
  { split.
    - rewrite <- (rnd32_int (-1)) by lia. apply rnd32_le. lra.
    - rewrite <- (rnd32_int 1) by lia. apply rnd32_le. lra. }
  destruct (dnarrow_ok d F) as [FN RN].
  { apply Rle_lt_trans with 1; [apply Rabs_le; lra|]. change 1 with (bpow radix2 0). apply bpow_lt. lia. }
  destruct (dwiden_ok _ FN) as [FW RW]. split; [exact FW|]. rewrite RW, RN. split; [|reflexivity].
  pose proof (rnd32_err (dreal d) ltac:(apply Rabs_le; lra)) as E2.
  replace (2 ^ 24) with 16777216 in E2 by lra. replace (2 ^ 23) with 8388608 by lra.
  rewrite u_val in E. apply Rabs_le_inv in E, E2. apply Rabs_le. lra.
Qed.

(** What storing a colour and reading it back gives. *)
Lemma store_read dst (keep : bool) (c : color D) (r g b x y z : R) :
  colour_format dst -> is (c_r c) r -> is (c_g c) g -> is (c_b c) b -> is (c_a c) 1 ->
  Rabs (r - x) <= 90 * u -> Rabs (g - y) <= 90 * u -> Rabs (b - z) <= 90 * u ->
  x <= 1 -> y <= 1 -> z <= 1 ->
  (if keep then -1 else 0) <= r <= 1 -> (if keep then -1 else 0) <= g <= 1 -> 0 <= b <= 1 ->
  exists p c', setPixelImpl dst c = Some p /\ getPixelImpl dst p = Some c' /\
    channel_is dst (c_r c') x (lowest dst keep) /\ channel_is dst (c_g c') y (lowest dst keep) /\
    channel_is dst (c_b c') z 0 /\ dfinite (c_a c') = true /\ dreal (c_a c') = 1.
Proof.
  intros CF IR IG IB IA ER EG EB X1 Y1 Z1 BR BG BB.
  assert (LOW : -1 <= (if keep then -1 else 0) <= 0) by (destruct keep; lra).
  assert (U := u_pos).
  assert (ONE : is (@lit D 1) 1) by (apply (lit_is pw 1); lia).
  assert (L8 : precision I_RGB8 = / (2 * IZR 255) + / 2 ^ 30 /\ precision I_RGB16 = / (2 * IZR 65535) + / 2 ^ 30).
  { unfold precision. split; f_equal; f_equal; lra. }
  destruct L8 as [L8 L16].
  assert (INT : forall hi m f, (0 < m <= 65535)%Z -> (m <= hi)%Z -> is_float f = false ->
     precision f = / (2 * IZR m) + / 2 ^ 30 ->
     forall d r x lo, is d r -> r <= 1 -> x <= 1 -> Rabs (r - x) <= 90 * u -> lo <= 0 ->
     exists v, @fromNorm D hi m d = Some v /\ channel_is f (@toNorm D m v) x lo /\ (r = 1 -> dreal (@toNorm D m v) = 1)).
  { intros hi m f Hm Hh NF PF d r0 x0 lo I0 R0 X0 E0 LO.
    destruct (int_channel hi m d r0 x0 Hm Hh I0 R0 X0 E0) as (v & EV & FV & AV & BV & OV).
    exists v. split; [exact EV|]. split; [|exact OV]. split; [exact FV|]. unfold shown. rewrite NF, PF.
    split; [exact AV|]. lra. }
  assert (FLO : forall f, is_float f = true -> precision f = / 2 ^ 23 ->
     forall d r x lo, is d r -> lo <= r <= 1 -> (lo = -1 \/ lo = 0) -> Rabs (r - x) <= 90 * u ->
     channel_is f (dwiden (dnarrow d)) x lo).
  { intros f FF PF d r0 x0 lo I0 B0 LO E0.
    destruct (float_channel d r0 x0 I0) as (F0 & A0 & V0); auto; [destruct LO; lra|].
    split; [exact F0|]. unfold shown. rewrite FF, PF. split; [exact A0|]. rewrite V0. split.
    - replace lo with (rnd32 lo); [apply rnd32_le; lra|]. destruct LO as [-> | ->]; apply (rnd32_int); lia.
    - rewrite <- (rnd32_int 1) by lia. apply rnd32_le. lra. }
  assert (LL : lowest dst keep = (if is_float dst then (if keep then -1 else 0) else 0)) by (unfold lowest; destruct (is_float dst), keep; reflexivity).
  assert (KK : (if keep then -1 else 0) = -1 \/ (if keep then -1 else 0) = 0) by (destruct keep; auto).
  assert (E1 : Rabs (1 - 1) <= 90 * u) by (replace (1 - 1) with 0 by ring; rewrite Rabs_R0; lra).
  destruct CF as [E|[E|[E|[E|[E|[E|[]]]]]]]; subst dst; rewrite LL; cbn [is_float] in *; unfold setPixelImpl, setCommon, from8, from16.
  - destruct (INT 255%Z 255%Z I_RGB8 ltac:(lia) ltac:(lia) eq_refl L8 (c_r c) r x 0 IR) as (v1 & -> & C1 & _); try lra; auto.
    destruct (INT 255%Z 255%Z I_RGB8 ltac:(lia) ltac:(lia) eq_refl L8 (c_g c) g y 0 IG) as (v2 & -> & C2 & _); try lra; auto.
    destruct (INT 255%Z 255%Z I_RGB8 ltac:(lia) ltac:(lia) eq_refl L8 (c_b c) b z 0 IB) as (v3 & -> & C3 & _); try lra; auto.
    eexists _, _. split; [reflexivity|]. split; [reflexivity|]. cbn [c_r c_g c_b c_a]. exact (conj C1 (conj C2 (conj C3 ONE))).
  - destruct (INT 255%Z 255%Z I_RGBA8 ltac:(lia) ltac:(lia) eq_refl L8 (c_r c) r x 0 IR) as (v1 & -> & C1 & _); try lra; auto.
    destruct (INT 255%Z 255%Z I_RGBA8 ltac:(lia) ltac:(lia) eq_refl L8 (c_g c) g y 0 IG) as (v2 & -> & C2 & _); try lra; auto.
    destruct (INT 255%Z 255%Z I_RGBA8 ltac:(lia) ltac:(lia) eq_refl L8 (c_b c) b z 0 IB) as (v3 & -> & C3 & _); try lra; auto.
    destruct (INT 255%Z 255%Z I_RGBA8 ltac:(lia) ltac:(lia) eq_refl L8 (c_a c) 1 1 0 IA) as (v4 & -> & C4' & O4); try lra; auto.
    eexists _, _. split; [reflexivity|]. split; [reflexivity|]. cbn [c_r c_g c_b c_a].
    exact (conj C1 (conj C2 (conj C3 (conj (proj1 C4') (O4 eq_refl))))).
  - destruct (INT 65535%Z 65535%Z I_RGB16 ltac:(lia) ltac:(lia) eq_refl L16 (c_r c) r x 0 IR) as (v1 & -> & C1 & _); try lra; auto.
    destruct (INT 65535%Z 65535%Z I_RGB16 ltac:(lia) ltac:(lia) eq_refl L16 (c_g c) g y 0 IG) as (v2 & -> & C2 & _); try lra; auto.
    destruct (INT 65535%Z 65535%Z I_RGB16 ltac:(lia) ltac:(lia) eq_refl L16 (c_b c) b z 0 IB) as (v3 & -> & C3 & _); try lra; auto.
    eexists _, _. split; [reflexivity|]. split; [reflexivity|]. cbn [c_r c_g c_b c_a]. exact (conj C1 (conj C2 (conj C3 ONE))).
  - destruct (INT 65535%Z 65535%Z I_RGBA16 ltac:(lia) ltac:(lia) eq_refl L16 (c_r c) r x 0 IR) as (v1 & -> & C1 & _); try lra; auto.
    destruct (INT 65535%Z 65535%Z I_RGBA16 ltac:(lia) ltac:(lia) eq_refl L16 (c_g c) g y 0 IG) as (v2 & -> & C2 & _); try lra; auto.
    destruct (INT 65535%Z 65535%Z I_RGBA16 ltac:(lia) ltac:(lia) eq_refl L16 (c_b c) b z 0 IB) as (v3 & -> & C3 & _); try lra; auto.
    destruct (INT 65535%Z 65535%Z I_RGBA16 ltac:(lia) ltac:(lia) eq_refl L16 (c_a c) 1 1 0 IA) as (v4 & -> & C4' & O4); try lra; auto.
    eexists _, _. split; [reflexivity|]. split; [reflexivity|]. cbn [c_r c_g c_b c_a].
    exact (conj C1 (conj C2 (conj C3 (conj (proj1 C4') (O4 eq_refl))))).
  - eexists _, _. split; [reflexivity|]. split; [reflexivity|]. cbn [c_r c_g c_b c_a].
    split; [|split; [|split; [|exact ONE]]].
    + eapply (FLO I_RGBF eq_refl eq_refl); eauto.
    + eapply (FLO I_RGBF eq_refl eq_refl); eauto.
    + eapply (FLO I_RGBF eq_refl eq_refl); eauto.
  - eexists _, _. split; [reflexivity|]. split; [reflexivity|]. cbn [c_r c_g c_b c_a].
    split; [|split; [|split]].
    + eapply (FLO I_RGBAF eq_refl eq_refl); eauto.
    + eapply (FLO I_RGBAF eq_refl eq_refl); eauto.
    + eapply (FLO I_RGBAF eq_refl eq_refl); eauto.
    + destruct (float_channel (c_a c) 1 1 IA ltac:(lra) E1) as (F0 & _ & V0). split; [exact F0|].
      etransitivity; [exact V0|]. apply (rnd32_int 1). lia.
Qed.

(** A source image whose red channel holds the heights [height], at most [B] in magnitude. *)
Definition heights (b : bitmap D) (height : N -> N -> R) (B : R) : Prop :=
  forall x y, (x < b_w b)%N -> (y < b_h b)%N -> exists c,
    getPixel (Some b) x y = Some (Some c) /\ dfinite (c_r c) = true /\ dreal (c_r c) = height x y /\
    Rabs (height x y) <= B.

(** The slopes the program computes. *)
Lemma slopes_ok b o (scale : double) height B x y :
  (0 < b_w b < 2 ^ 31)%N -> (0 < b_h b < 2 ^ 31)%N -> heights b height B ->
  dfinite scale = true -> B <= bpow radix2 799 -> B * Rabs (dreal scale) <= bpow radix2 399 ->
  (x < b_w b)%N -> (y < b_h b)%N ->
  exists dx dy X Y, slopes b o scale x (b_h b - 1 - y) = Some (dx, dy) /\ is dx X /\ is dy Y /\
    Rabs X <= bpow radix2 401 /\ Rabs Y <= bpow radix2 401 /\
    let X0 := fall_right (wrapX o) (b_w b) height (dreal scale) x y in
    let Y0 := fall_up (wrapY o) (b_h b) height (dreal scale) x y in
    Rabs (X - X0) <= 5 * u * len2 X0 Y0 /\ Rabs (Y - Y0) <= 5 * u * len2 X0 Y0.
Proof.
  intros Hw Hh HT FS HB HS Hx Hy.
  assert (GET : forall i j, (i < b_w b)%N -> (j < b_h b)%N -> exists c,
    getAt b i (b_h b - 1 - j) = Some c /\ is (c_r c) (height i j) /\ Rabs (height i j) <= B).
  { intros i j Hi Hj. destruct (HT i j Hi Hj) as (c & G & F & V & BB). exists c.
    unfold getPixel in G.
    replace (b_w b <=? i)%N with false in G by lia. replace (b_h b <=? j)%N with false in G by lia.
    cbn [orb] in G. rewrite scanlineOf_small in G by lia.
    destruct (getAt b i (b_h b - 1 - j)) as [c'|]; [|discriminate]. cbn [obind] in G.
    inversion G; subst. split; [reflexivity|]. split; [split|]; auto. }
  assert (SL : forall v0 v1 c0 c1 dd dist, is c0 v0 -> is c1 v1 -> Rabs v0 <= B -> Rabs v1 <= B -> is dd dist ->
     (dist = 1 \/ dist = 2) ->
     exists X, is (ndiv D (nmul D (nsub D c0 c1) scale) dd) X /\ Rabs X <= bpow radix2 401 /\
       Rabs (X - (v0 - v1) * dreal scale / dist) <= 4 * u * Rabs ((v0 - v1) * dreal scale / dist) + u * u).
  { intros v0 v1 c0 c1 dd dist I0 I1 B0 B1 ID HD.
    assert (AD : Rabs (v0 - v1) <= 2 * B).
    { unfold Rminus. eapply Rle_trans; [apply Rabs_triang|]. rewrite Rabs_Ropp. lra. }
    apply slope_is; auto.
    - split; auto.
    - change 800%Z with (1 + 799)%Z. rewrite bpow_plus. change (bpow radix2 1) with 2. lra.
    - change 400%Z with (1 + 399)%Z. rewrite bpow_plus. change (bpow radix2 1) with 2.
      rewrite Rabs_mult. apply Rle_trans with (2 * B * Rabs (dreal scale)); [|lra].
      apply Rmult_le_compat_r; [apply Rabs_pos|auto]. }
  unfold slopes.
  rewrite prev_before, next_after by lia. rewrite before_flip, after_flip by auto.
  rewrite prev_before, next_after by lia.
  destruct (GET x (after (wrapY o) (b_h b) y) Hx (after_lt _ _ _ Hy)) as (ca & -> & IA & BA).
  destruct (GET x (before (wrapY o) (b_h b) y) Hx (before_lt _ _ _ Hy)) as (cb & -> & IB & BB).
  destruct (GET (before (wrapX o) (b_w b) x) y (before_lt _ _ _ Hx) Hy) as (cc & -> & IC & BC).
  destruct (GET (after (wrapX o) (b_w b) x) y (after_lt _ _ _ Hx) Hy) as (cd & -> & ID & BD).
  cbn [obind].
  assert (DY : is (@distance D (wrapY o) (b_h b) (b_h b - 1 - y)) (gap (wrapY o) (b_h b) y)).
  { rewrite <- gap_flip by auto. apply distance_is. lia. }
  assert (DX : is (@distance D (wrapX o) (b_w b) x) (gap (wrapX o) (b_w b) x)) by (apply distance_is; lia).
  destruct (SL _ _ _ _ _ _ IC ID BC BD DX (gap_12 _ _ _)) as (X & IX & BX & EX).
  destruct (SL _ _ _ _ _ _ IA IB BA BB DY (gap_12 _ _ _)) as (Y & IY & BY & EY).
  eexists _, _, X, Y. split; [reflexivity|]. split; [exact IX|]. split; [exact IY|]. split; [exact BX|]. split; [exact BY|].
  fold (fall_right (wrapX o) (b_w b) height (dreal scale) x y) in EX.
  fold (fall_up (wrapY o) (b_h b) height (dreal scale) x y) in EY.
  set (X0 := fall_right _ _ _ _ _ _) in *. set (Y0 := fall_up _ _ _ _ _ _) in *.
  destruct (len2_ge X0 Y0) as (L1 & LX & LY & _). pose proof u_pos as U.
  assert (UU : u * u <= u * len2 X0 Y0) by (apply Rmult_le_compat_l; lra).
  assert (u * Rabs X0 <= u * len2 X0 Y0) by (apply Rmult_le_compat_l; lra).
  assert (u * Rabs Y0 <= u * len2 X0 Y0) by (apply Rmult_le_compat_l; lra).
  split; lra.
Qed.

(** The whole image, for any destination format that can hold the normals. *)
Lemma normal_map_ok alloc b o (scale : double) height B dst px (P : N -> N -> pix D -> Prop) :
  (0 < b_w b < 2 ^ 31)%N -> (0 < b_h b < 2 ^ 31)%N -> alloc dst (b_w b) (b_h b) = Some px ->
  heights b height B ->
  dfinite scale = true -> B <= bpow radix2 799 -> B * Rabs (dreal scale) <= bpow radix2 399 ->
  (forall x y (c : color D) r g bl, (x < b_w b)%N -> (y < b_h b)%N ->
    let X0 := fall_right (wrapX o) (b_w b) height (dreal scale) x y in
    let Y0 := fall_up (wrapY o) (b_h b) height (dreal scale) x y in
    is (c_r c) r -> is (c_g c) g -> is (c_b c) bl -> is (c_a c) 1 ->
    Rabs (r - enc (keepSign o) (unit_x X0 Y0)) <= 90 * u -> Rabs (g - enc (keepSign o) (unit_y X0 Y0)) <= 90 * u ->
    Rabs (bl - enc (keepSign o) (unit_z X0 Y0)) <= 90 * u ->
    (if keepSign o then -1 else 0) <= r <= 1 -> (if keepSign o then -1 else 0) <= g <= 1 ->
    (if keepSign o then 0 else / 2) <= bl <= 1 ->
    exists p, setPixelImpl dst c = Some p /\ P x y p) ->
  exists d, createNormalMap alloc (Some b) o scale dst = Some (Some d) /\
    b_fmt d = dst /\ b_w d = b_w b /\ b_h d = b_h b /\ b_cs d = b_cs b /\
    forall x y, (x < b_w b)%N -> (y < b_h b)%N -> P x y (b_px d x (b_h b - 1 - y)).
Proof.
  intros Hw Hh AL HT FS HB HS ST. unfold createNormalMap, initialize. rewrite AL.
  set (d0 := @Bitmap D dst (b_w b) (b_h b) (b_cs b) px).
  set (V := fun x y => obind (slopes b o scale x y) (fun s => setPixelImpl dst (normalColor (A := D) (keepSign o) (fst s) (snd s)))).
  assert (PIX : forall x y, (x < b_w b)%N -> (y < b_h b)%N -> exists p, V x (b_h b - 1 - y)%N = Some p /\ P x y p).
  { intros x y Hx Hy.
    destruct (slopes_ok b o scale height B x y Hw Hh HT FS HB HS Hx Hy) as (dx & dy & X & Y & E & IX & IY & BX & BY & EX & EY).
    destruct (normal_is pw (keepSign o) dx dy X Y _ _ IX IY BX BY EX EY)
      as (r & g & bl & I1 & I2 & I3 & I4 & E1 & E2 & E3 & B1 & B2 & B3 & _).
    unfold V. rewrite E. cbn [obind fst snd]. eapply ST; eauto. }
  assert (PIX' : forall x y, (x < b_w b)%N -> (y < b_h b)%N -> V x y <> None).
  { intros x y Hx Hy. destruct (PIX x (b_h b - 1 - y)%N Hx ltac:(lia)) as (p & E & _).
    replace (b_h b - 1 - (b_h b - 1 - y))%N with y in E by lia. congruence. }
  assert (IN : forall x y, (x < b_w b)%N -> (y < b_h b)%N -> inside d0 x y) by (intros; split; auto).
  rewrite (scatter_loop (b_w b) (b_h b) _ (fun x y => x) (fun x y => y) V d0); auto.
  - destruct (scatter_ok (b_w b) (b_h b) (fun x y => x) (fun x y => y) V d0) as (d & E & SS & PX); auto.
    rewrite E. cbn [obind]. exists d. split; [reflexivity|].
    destruct SS as (S1 & S2 & S3 & S4). cbn [b_fmt b_w b_h b_cs d0] in *.
    split; [congruence|]. split; [congruence|]. split; [congruence|]. split; [congruence|].
    intros x y Hx Hy. destruct (PIX x y Hx Hy) as (p & EP & PP).
    rewrite PX in EP by lia. congruence.
  - intros x y s Hx Hy _. unfold V. destruct (slopes b o scale x y); reflexivity.
Qed.

(** Every size, all options: nothing outside the image is read, wrapping takes the opposite edge,
    and every pixel of the result is the encoded unit normal of the surface, within the
    precision of the format and inside its range. *)
Theorem C37_normal : forall alloc b o (scale : double) height B dst px,
  (0 < b_w b < 2 ^ 31)%N -> (0 < b_h b < 2 ^ 31)%N -> alloc dst (b_w b) (b_h b) = Some px ->
  heights b height B ->
  dfinite scale = true -> B <= bpow radix2 799 -> B * Rabs (dreal scale) <= bpow radix2 399 ->
  colour_format dst ->
  exists d, createNormalMap alloc (Some b) o scale dst = Some (Some d) /\
    b_fmt d = dst /\ b_w d = b_w b /\ b_h d = b_h b /\ b_cs d = b_cs b /\
    forall x y, (x < b_w b)%N -> (y < b_h b)%N ->
      let a := fall_right (wrapX o) (b_w b) height (dreal scale) x y in
      let e := fall_up (wrapY o) (b_h b) height (dreal scale) x y in
      exists c, getPixel (Some d) x y = Some (Some c) /\
        channel_is dst (c_r c) (encoded (keepSign o) (unit_x a e)) (lowest dst (keepSign o)) /\
        channel_is dst (c_g c) (encoded (keepSign o) (unit_y a e)) (lowest dst (keepSign o)) /\
        channel_is dst (c_b c) (encoded (keepSign o) (unit_z a e)) 0 /\
        dfinite (c_a c) = true /\ dreal (c_a c) = 1.
Proof.
  intros alloc b o scale height B dst px Hw Hh AL HT FS HB HS CF.
  destruct (normal_map_ok alloc b o scale height B dst px (fun x y p => exists c', getPixelImpl dst p = Some c' /\
      let a := fall_right (wrapX o) (b_w b) height (dreal scale) x y in
      let e := fall_up (wrapY o) (b_h b) height (dreal scale) x y in
      channel_is dst (c_r c') (encoded (keepSign o) (unit_x a e)) (lowest dst (keepSign o)) /\
        channel_is dst (c_g c') (encoded (keepSign o) (unit_y a e)) (lowest dst (keepSign o)) /\
        channel_is dst (c_b c') (encoded (keepSign o) (unit_z a e)) 0 /\
        dfinite (c_a c') = true /\ dreal (c_a c') = 1) Hw Hh AL HT FS HB HS)
    as (d & E & F1 & F2 & F3 & F4 & PX).
  - intros x y c r g bl Hx Hy X0 Y0 I1 I2 I3 I4 E1 E2 E3 B1 B2 B3.
    destruct (len2_ge X0 Y0) as (L1 & LX & LY & _). unfold len2 in L1, LX, LY.
    assert (LE : forall v, Rabs v <= sqrt (X0 * X0 + Y0 * Y0 + 1) -> encoded (keepSign o) (v / sqrt (X0 * X0 + Y0 * Y0 + 1)) <= 1).
    { intros v Hv. assert (v / sqrt (X0 * X0 + Y0 * Y0 + 1) <= 1).
      { apply Rmult_le_reg_r with (sqrt (X0 * X0 + Y0 * Y0 + 1)); [lra|]. unfold Rdiv. rewrite Rmult_assoc, Rinv_l by lra.
        apply Rabs_le_inv in Hv. lra. }
      unfold encoded. destruct (keepSign o); lra. }
    destruct (store_read dst (keepSign o) c r g bl _ _ _ CF I1 I2 I3 I4 E1 E2 E3) as (p & c' & S1 & S2 & S3); auto.
    + apply LE; auto.
    + apply LE; auto.
    + apply LE. rewrite Rabs_R1. lra.
    + split; [|lra]. destruct (keepSign o); lra.
    + exists p. split; [exact S1|]. exists c'. split; [exact S2|]. exact S3.
  - exists d. split; [exact E|]. split; [exact F1|]. split; [exact F2|]. split; [exact F3|]. split; [exact F4|].
    intros x y Hx Hy a e. destruct (PX x y Hx Hy) as (c & G & C). exists c. split; [|exact C].
    unfold getPixel. rewrite F2, F3.
    replace (b_w b <=? x)%N with false by lia. replace (b_h b <=? y)%N with false by lia. cbn [orb].
    rewrite scanlineOf_small by lia. unfold getAt. rewrite read_inside by (split; lia). cbn [obind].
    rewrite F1, G. reflexivity.
Qed.

(** The other destination formats (grayscale ones hold the luminance of the encoded normal,
    integer ones its truncated red channel) are filled as well: the only undefined conversion is
    that of a negative red channel to UInt32. *)
Theorem C37_defined : forall alloc b o (scale : double) height B dst px,
  (0 < b_w b < 2 ^ 31)%N -> (0 < b_h b < 2 ^ 31)%N -> alloc dst (b_w b) (b_h b) = Some px ->
  heights b height B ->
  dfinite scale = true -> B <= bpow radix2 799 -> B * Rabs (dreal scale) <= bpow radix2 399 ->
  (dst = I_UInt32 -> keepSign o = false) ->
  exists d, createNormalMap alloc (Some b) o scale dst = Some (Some d) /\
    b_fmt d = dst /\ b_w d = b_w b /\ b_h d = b_h b /\ b_cs d = b_cs b.
Proof.
  intros alloc b o scale height B dst px Hw Hh AL HT FS HB HS UI.
  destruct (normal_map_ok alloc b o scale height B dst px (fun _ _ _ => True) Hw Hh AL HT FS HB HS)
    as (d & E & F1 & F2 & F3 & F4 & _); [|exists d; auto].
  intros x y c r g bl _ _ X0 Y0 I1 I2 I3 I4 _ _ _ B1 B2 B3.
  assert (K : -1 <= (if keepSign o then -1 else 0)) by (destruct (keepSign o); lra).
  assert (K' : 0 <= (if keepSign o then 0 else / 2)) by (destruct (keepSign o); lra).
  assert (M1 : 1 <= bpow radix2 900) by (change 1 with (bpow radix2 0); apply bpow_le; lia).
  assert (W : forall n k, (0 <= n <= 10000)%Z -> (k = 4)%Z -> exists w, is (@dec D n k) w /\ 0 <= w <= 1).
  { intros n k Hn ->. unfold dec. exists (rnd64 (IZR n / IZR (10 ^ 4))).
    assert (Q : 0 <= IZR n / IZR (10 ^ 4) <= 1).
    { change (IZR (10 ^ 4)) with 10000. assert (0 <= IZR n <= 10000) by (split; apply IZR_le; lia). lra. }
    split.
    - apply (div_is pw _ _ _ _ (lit_is pw n ltac:(lia)) (lit_is pw (10 ^ 4) ltac:(lia))).
      + change (IZR (10 ^ 4)) with 10000. lra.
      + rewrite Rabs_pos_eq by lra. lra.
    - split; [apply rnd64_ge_fmt; [apply zero_format|lra]|apply rnd64_le_fmt; [apply one_format|lra]]. }
  assert (MU : forall z v n, is z v -> -1 <= v <= 1 -> (0 <= n <= 10000)%Z ->
     exists w, is (nmul D z (@dec D n 4)) w /\ Rabs w <= bpow radix2 0).
  { intros z v n Iz Bz Hn. destruct (W n 4%Z Hn eq_refl) as (w & Iw & Bw).
    assert (A : Rabs (v * w) <= bpow radix2 0) by (change (bpow radix2 0) with 1; apply Rabs_le; nra).
    exists (rnd64 (v * w)). split; [|apply rnd64_bound; [lia|exact A]].
    apply mul_is; auto. eapply Rle_trans; [exact A|]. apply bpow_le; lia. }
  assert (GR : exists w, is (@toGrayscale D (c_r c) (c_g c) (c_b c)) w).
  { unfold toGrayscale.
    destruct (MU _ _ 2126%Z I1 ltac:(lra) ltac:(lia)) as (w1 & J1 & A1).
    destruct (MU _ _ 7152%Z I2 ltac:(lra) ltac:(lia)) as (w2 & J2 & A2).
    destruct (MU _ _ 722%Z I3 ltac:(lra) ltac:(lia)) as (w3 & J3 & A3).
    change (bpow radix2 0) with 1 in A1, A2, A3. apply Rabs_le_inv in A1, A2, A3.
    assert (A12 : Rabs (w1 + w2) <= bpow radix2 1) by (change (bpow radix2 1) with 2; apply Rabs_le; lra).
    pose proof (rnd64_bound _ 1 ltac:(lia) A12) as A12'. change (bpow radix2 1) with 2 in A12'. apply Rabs_le_inv in A12'.
    eexists. apply add_is; [apply add_is; [exact J1|exact J2|]|exact J3|].
    - eapply Rle_trans; [exact A12|]. apply bpow_le; lia.
    - apply Rle_trans with (bpow radix2 2); [|apply bpow_le; lia]. change (bpow radix2 2) with 4. apply Rabs_le. lra. }
  destruct GR as (gv & [GF _]).
  assert (FN : forall hi m (d : double), (0 < m <= 65535)%Z -> (m <= hi)%Z -> dfinite d = true ->
     exists v, @fromNorm D hi m d = Some v) by (intros hi m d Hm Hh' F; eexists; apply (fromNorm_value pw hi m d Hm Hh' F)).
  assert (TI : forall lo hi, (lo <= -1)%Z -> (1 <= hi)%Z -> exists v, @toInt D lo hi (c_r c) = Some v).
  { intros lo hi Hl Hi. unfold toInt. rewrite (trunc_is pw _ _ I1).
    exists (Ztrunc r). unfold cast_int.
    assert (-1 <= Ztrunc r <= 1)%Z.
    { split; [rewrite <- (Ztrunc_IZR (-1))|rewrite <- (Ztrunc_IZR 1)]; apply Ztrunc_le; lra. }
    replace ((lo <=? Ztrunc r) && (Ztrunc r <=? hi))%Z with true by lia. reflexivity. }
  destruct I1 as [N1 V1]. destruct I2 as [N2 V2]. destruct I3 as [N3 V3]. destruct I4 as [N4 V4].
  destruct (FN 255 255 (c_r c))%Z as [q1 Q1]; auto; try lia.
  destruct (FN 255 255 (c_g c))%Z as [q2 Q2]; auto; try lia.
  destruct (FN 255 255 (c_b c))%Z as [q3 Q3]; auto; try lia.
  destruct (FN 255 255 (c_a c))%Z as [q4 Q4]; auto; try lia.
  destruct (FN 65535 65535 (c_r c))%Z as [s1 S1]; auto; try lia.
  destruct (FN 65535 65535 (c_g c))%Z as [s2 S2]; auto; try lia.
  destruct (FN 65535 65535 (c_b c))%Z as [s3 S3]; auto; try lia.
  destruct (FN 65535 65535 (c_a c))%Z as [s4 S4]; auto; try lia.
  destruct (FN 255 31 (c_r c))%Z as [f1 T1]; auto; try lia.
  destruct (FN 255 31 (c_g c))%Z as [f2 T2]; auto; try lia.
  destruct (FN 255 31 (c_b c))%Z as [f3 T3]; auto; try lia.
  destruct (FN 255 63 (c_g c))%Z as [f4 T4]; auto; try lia.
  destruct (FN 255 255 (toGrayscale (c_r c) (c_g c) (c_b c)))%Z as [g1 G1]; auto; try lia.
  destruct (FN 65535 65535 (toGrayscale (c_r c) (c_g c) (c_b c)))%Z as [g2 G2]; auto; try lia.
  destruct (TI (- 2 ^ 15) (2 ^ 15 - 1))%Z as [i1 J1]; try lia.
  destruct (TI (- 2 ^ 31) (2 ^ 31 - 1))%Z as [i2 J2]; try lia.
  destruct dst; unfold setPixelImpl, setCommon, from8, from16, from5, from6; rewrite ?Q1, ?Q2, ?Q3, ?Q4, ?S1, ?S2, ?S3, ?S4,
    ?T1, ?T2, ?T3, ?T4, ?G1, ?G2, ?J1, ?J2; cbn [oPZ1 oPZ3 oPZ4 oPack obind]; try (eexists; split; [reflexivity|exact I]).
  rewrite (UI eq_refl) in B1. unfold toInt. rewrite (trunc_is pw _ _ (conj N1 V1)).
  assert (0 <= Ztrunc r <= 1)%Z.
  { split; [rewrite <- (Ztrunc_IZR 0)|rewrite <- (Ztrunc_IZR 1)]; apply Ztrunc_le; lra. }
  unfold cast_int. replace ((0 <=? Ztrunc r) && (Ztrunc r <=? 2 ^ 32 - 1))%Z with true by lia.
  eexists; split; [reflexivity|exact I].
Qed.

End Pow.
Print Assumptions C37_normal.
Print Assumptions C37_defined.

(** The vectors of the specification have length one and point away from the surface. *)
Theorem C37_unit : forall a e,
  unit_x a e * unit_x a e + unit_y a e * unit_y a e + unit_z a e * unit_z a e = 1 /\ 0 < unit_z a e <= 1 /\
  (unit_x a e = a * unit_z a e) /\ (unit_y a e = e * unit_z a e).
Proof.
  intros a e. unfold unit_x, unit_y, unit_z. destruct (len2_ge a e) as (L1 & _ & _ & LL). unfold len2 in *.
  set (l := sqrt (a * a + e * e + 1)) in *. split; [|split; [|split]].
  - replace (a / l * (a / l) + e / l * (e / l) + 1 / l * (1 / l)) with ((a * a + e * e + 1) / (l * l)) by (field; lra).
    rewrite LL. apply Rinv_r. nra.
  - split; unfold Rdiv; rewrite Rmult_1_l; [apply Rinv_0_lt_compat; lra|]. rewrite <- Rinv_1. apply Rinv_le; lra.
  - field; lra.
  - field; lra.
Qed.
Print Assumptions C37_unit.

(** No image, or no memory: an invalid image. *)
Theorem C37_invalid : forall pw alloc (im : image (double_arith pw)) o scale dst,
  match im with None => True | Some b => alloc dst (b_w b) (b_h b) = None end ->
  createNormalMap alloc im o scale dst = Some None.
Proof.
  intros pw alloc im o scale dst H. destruct im as [b|]; [|reflexivity].
  unfold createNormalMap, initialize. rewrite H. reflexivity.
Qed.
Print Assumptions C37_invalid.

(** Two pixels side by side. *)
Definition step pw (v : Z) : bitmap (double_arith pw) :=
  @Bitmap (double_arith pw) I_Int32 2 1 CS_Linear (fun x _ => @PZ (double_arith pw) [if (x =? 0)%N then 0%Z else v]).
Definition blank pw : allocator (double_arith pw) := fun _ _ _ => Some (fun _ _ => @PZ (double_arith pw) [0%Z]).

(** With KeepSign a steep slope gives the red channel -1, whose conversion to UInt32 is
    undefined behaviour. *)
Definition undefined pw (im : option (image (double_arith pw))) : bool :=
  match im with None => true | Some _ => false end.
Theorem C37_uint32_refuted : forall pw,
  undefined pw (createNormalMap (blank pw) (Some (step pw (2 ^ 30))) (NormalOptions true false false) (double_of_Z 1) I_UInt32)
  = true.
Proof. intros. vm_compute. reflexivity. Qed.
Print Assumptions C37_uint32_refuted.

(** The squares of finite slopes can overflow: here the stored normal is the zero vector. *)
Definition huge : double := b64_of_bits (1623 * 2 ^ 52).
Definition floats pw (im : option (image (double_arith pw))) : list Z :=
  match im with
  | Some (Some d) => match b_px d 0 0 with PF l => map bits_of_b32 l | _ => [] end
  | _ => []
  end.
Theorem C37_overflow_refuted : forall pw, dfinite huge = true /\
  floats pw (createNormalMap (blank pw) (Some (step pw (-1))) (NormalOptions true false false) huge I_RGBF) = [0; 0; 0]%Z.
Proof. intros. split; vm_compute; reflexivity. Qed.
Print Assumptions C37_overflow_refuted.

(** The hypotheses are met: a step of height 4, where the surface falls by 4 to the left. *)
Lemma step_heights pw v : (Z.abs v <= 2 ^ 53)%Z ->
  heights pw (step pw v) (fun x _ => if (x =? 0)%N then 0 else IZR v) (Rabs (IZR v)).
Proof.
  intros Hv x y Hx Hy. cbn [b_w b_h step] in Hx, Hy.
  exists (@gray (double_arith pw) (@lit (double_arith pw) (if (x =? 0)%N then 0%Z else v))).
  split; [|split; [|split]].
  - unfold getPixel. cbn [b_w b_h step b_fmt b_px]. replace (2 <=? x)%N with false by lia. replace (1 <=? y)%N with false by lia.
    cbn [orb]. rewrite scanlineOf_small by lia. unfold getAt, read. cbn [b_w b_h b_fmt b_px step].
    replace (x <? 2)%N with true by lia. replace (1 - 1 - y <? 1)%N with true by lia. reflexivity.
  - cbn [c_r gray]. destruct (double_of_Z_ok (if (x =? 0)%N then 0%Z else v)) as [_ F]; [destruct (x =? 0)%N; lia|exact F].
  - cbn [c_r gray]. destruct (double_of_Z_ok (if (x =? 0)%N then 0%Z else v)) as [R _]; [destruct (x =? 0)%N; lia|].
    unfold lit. cbn [ofZ double_arith]. etransitivity; [exact R|]. destruct (x =? 0)%N; reflexivity.
  - destruct (x =? 0)%N; [rewrite Rabs_R0; apply Rabs_pos|lra].
Qed.
Example C37_normal_case : forall pw, exists d c,
  createNormalMap (blank pw) (Some (step pw 4)) (NormalOptions true false false) (double_of_Z 1) I_RGBF = Some (Some d) /\
  getPixel (Some d) 0 0 = Some (Some c) /\ Rabs (dreal (c_r c) - (- 4) / sqrt 17) <= / 2 ^ 23.
Proof.
  intros pw.
  destruct (double_of_Z_ok 1 ltac:(lia)) as [R1 F1].
  destruct (C37_normal pw (blank pw) (step pw 4) (NormalOptions true false false) (double_of_Z 1) _ _ I_RGBF _
    ltac:(cbn [b_w step]; lia) ltac:(cbn [b_h step]; lia) eq_refl (step_heights pw 4 ltac:(lia)) F1)
    as (d & E & _ & _ & _ & _ & P).
  - rewrite Rabs_pos_eq by lra. apply Rle_trans with (bpow radix2 2); [simpl; lra|apply bpow_le; lia].
  - rewrite R1, Rabs_R1, Rabs_pos_eq by lra. apply Rle_trans with (bpow radix2 2); [simpl; lra|apply bpow_le; lia].
  - right; right; right; right; left; reflexivity.
  - destruct (P 0%N 0%N) as (c & G & C & _); [cbn [b_w step]; lia|cbn [b_h step]; lia|].
    exists d, c. split; [exact E|]. split; [exact G|]. destruct C as (_ & C & _).
    cbn [wrapX wrapY keepSign encoded shown is_float precision] in C.
    replace (unit_x _ _) with ((- 4) / sqrt 17) in C; [exact C|].
    rewrite R1. unfold unit_x, fall_right, fall_up, before, after, gap. cbn [b_w b_h step].
    change (0 - 1 =? 0)%N with true. change (N.min (0 + 1) (2 - 1) =? 0)%N with false.
    change ((0 =? 0)%N || (0 =? 2 - 1)%N)%bool with true. change ((0 =? 0)%N || (0 =? 1 - 1)%N)%bool with true.
    change (0 =? 0)%N with true. cbv iota.
    replace ((0 - 4) * 1 / 1) with (- 4) by lra. replace ((0 - 0) * 1 / 1) with 0 by lra.
    f_equal. f_equal. lra.
Qed.

(** Rounding errors of the normal computed by Image::createNormalMap. *)

From Coq Require Import ZArith NArith List Bool Lia Reals Lra Psatz.
From Flocq Require Import Core Plus_error Relative IEEE754.BinarySingleNaN IEEE754.Binary IEEE754.Bits.
From Verif Require Import Base FormatModel FloatModel FloatSpec FloatProofs ArithModel ArithSpec DoubleProofs
  TextureModel ImageModel ResizeAxis64 NormalModel.
Import ListNotations.
Local Open Scope R_scope.

Local Notation fmt := (generic_format radix2 (FLT_exp (-1074) 53)).

(** Rounding the square and its root loses nothing. *)
Lemma sqrt_square_ge x : fmt x -> 1 <= x -> x <= bpow radix2 401 ->
  x <= rnd64 (sqrt (rnd64 (x * x))).
Proof.
  intros F H1 H2.
  destruct (mag radix2 x) as [e He]. specialize (He ltac:(lra)). rewrite Rabs_pos_eq in He by lra.
  assert (E0 : (0 < e)%Z).
  { apply (lt_bpow radix2). change (bpow radix2 0) with 1. lra. }
  assert (E1 : (e <= 402)%Z).
  { assert (e - 1 < 402)%Z by (apply (lt_bpow radix2); apply Rle_lt_trans with (bpow radix2 401); [lra|apply bpow_lt; lia]). lia. }
  destruct (Req_dec x (bpow radix2 (e - 1))) as [E|E].
  - rewrite E at 2 3. rewrite <- bpow_plus. rewrite rnd64_bpow by lia.
    replace (bpow radix2 (e - 1 + (e - 1))) with (bpow radix2 (e - 1) * bpow radix2 (e - 1)) by (rewrite bpow_plus; reflexivity).
    rewrite sqrt_square by (apply bpow_ge_0). rewrite <- E. rewrite rnd64_format; auto; lra.
  - assert (UX : ulp radix2 (FLT_exp (-1074) 53) x = bpow radix2 (e - 53)).
    { rewrite ulp_neq_0 by lra. unfold cexp. f_equal.
      rewrite (mag_unique_pos radix2 x e) by lra. unfold FLT_exp. lia. }
    assert (G : bpow radix2 (e - 1) + bpow radix2 (e - 53) <= x).
    { assert (S : succ radix2 (FLT_exp (-1074) 53) (bpow radix2 (e - 1)) <= x).
      { apply succ_le_lt; auto; [typeclasses eauto| |lra].
        apply generic_format_bpow. unfold FLT_exp. lia. }
      rewrite succ_eq_pos in S by apply bpow_ge_0.
      rewrite ulp_bpow in S. replace (FLT_exp (-1074) 53 (e - 1 + 1)) with (e - 53)%Z in S by (unfold FLT_exp; lia). exact S. }
    set (r := rnd64 (x * x)).
    assert (ER : Rabs (r - x * x) <= bpow radix2 (2 * e - 54)).
    { eapply Rle_trans; [apply (error_le_half_ulp radix2 (FLT_exp (-1074) 53))|].
      assert (P : 0 < x * x) by nra.
      rewrite ulp_neq_0 by lra. unfold cexp.
      destruct (mag radix2 (x * x)) as [e2 He2]; cbn [mag_val]. specialize (He2 ltac:(lra)). rewrite Rabs_pos_eq in He2 by lra.
      assert (e2 <= 2 * e)%Z.
      { assert (e2 - 1 < 2 * e)%Z; [|lia]. apply (lt_bpow radix2).
        replace (2 * e)%Z with (e + e)%Z by lia. rewrite bpow_plus. nra. }
      assert (0 < e2)%Z.
      { apply (lt_bpow radix2). change (bpow radix2 0) with 1. nra. }
      replace (FLT_exp (-1074) 53 e2) with (e2 - 53)%Z by (unfold FLT_exp; lia).
      apply Rle_trans with (/ 2 * bpow radix2 (2 * e - 53)).
      - apply Rmult_le_compat_l; [lra|]. apply bpow_le. lia.
      - replace (2 * e - 53)%Z with (1 + (2 * e - 54))%Z by lia. rewrite (bpow_plus radix2 1 (2 * e - 54)). change (bpow radix2 1) with 2. lra. }
    assert (P : pred radix2 (FLT_exp (-1074) 53) x = x - bpow radix2 (e - 53)).
    { rewrite pred_eq_pos by lra. unfold pred_pos.
      replace (mag radix2 x : Z) with e by (symmetry; apply mag_unique_pos; lra).
      case Req_bool_spec; [contradiction|]. intros _. rewrite UX. reflexivity. }
    unfold rnd64. apply round_N_ge_midp; auto; [typeclasses eauto|].
    rewrite P.
    set (h := bpow radix2 (e - 54)).
    assert (H53 : bpow radix2 (e - 53) = 2 * h).
    { unfold h. replace (e - 53)%Z with (1 + (e - 54))%Z by lia. rewrite bpow_plus. reflexivity. }
    assert (HH : bpow radix2 (2 * e - 54) = bpow radix2 e * h) by (unfold h; rewrite <- bpow_plus; f_equal; lia).
    assert (H1e : bpow radix2 (e - 1) = bpow radix2 e / 2).
    { replace e with (1 + (e - 1))%Z at 2 by lia. rewrite bpow_plus. change (bpow radix2 1) with 2. lra. }
    assert (HP : 0 < h) by apply bpow_gt_0.
    assert (HX : h < x).
    { apply Rlt_le_trans with (bpow radix2 (e - 1)); [apply bpow_lt; lia|lra]. }
    apply Rle_lt_trans with (x - h); [rewrite H53; lra|].
    fold r. apply Rle_lt_trans with (sqrt ((x - h) * (x - h))); [rewrite sqrt_square by lra; lra|].
    apply sqrt_lt_1_alt. split; [nra|].
    apply Rlt_le_trans with (x * x - bpow radix2 (2 * e - 54)).
    + rewrite HH. rewrite H1e, H53 in G. set (t := bpow radix2 e) in *. nra.
    + apply Rabs_le_inv in ER. lra.
Qed.

Definition tiny : R := bpow radix2 (-1022).
Lemma tiny_small : 0 < tiny <= u / 1000.
Proof.
  unfold tiny. split; [apply bpow_gt_0|]. unfold u.
  apply Rle_trans with (bpow radix2 (-100)); [apply bpow_le; lia|]. simpl. lra.
Qed.

Lemma rnd_err x : Rabs (rnd64 x - x) <= u * (Rabs x + tiny).
Proof.
  pose proof tiny_small. pose proof (Rabs_pos x).
  apply rnd64_rel; [lra|]. unfold tiny in *. lra.
Qed.

(** Subtraction has no underflow. *)
Lemma rnd_sub x y : fmt x -> fmt y -> Rabs (rnd64 (x - y) - (x - y)) <= u * Rabs (x - y).
Proof.
  intros Fx Fy. assert (P53 : Prec_gt_0 53) by reflexivity.
  destruct (FLT_plus_error_N_ex radix2 (-1074) 53 (fun n => negb (Z.even n)) x (- y) Fx (generic_format_opp _ _ _ Fy)) as (eps & HE & R).
  change (x + - y) with (x - y) in R. unfold rnd64. change ZnearestE with (Znearest (fun n => negb (Z.even n))). rewrite R.
  replace ((x - y) * (1 + eps) - (x - y)) with (eps * (x - y)) by ring.
  rewrite Rabs_mult. apply Rmult_le_compat_r; [apply Rabs_pos|].
  eapply Rle_trans; [exact HE|]. change (u_ro radix2 53) with (/ 2 * bpow radix2 (-53 + 1)).
  unfold u. rewrite bpow_plus. change (bpow radix2 1) with 2.
  assert (0 < bpow radix2 (-53)) by apply bpow_gt_0.
  replace (/ 2 * (bpow radix2 (-53) * 2)) with (bpow radix2 (-53)) by field.
  apply Rle_trans with (bpow radix2 (-53) / 1); [|lra].
  apply Rmult_le_compat_l; [lra|]. apply Rinv_le; lra.
Qed.

Section Pow.
Variable pw : double -> double -> double.
Local Notation D := (double_arith pw).
Local Notation is := (is pw).

Definition len2 (X Y : R) : R := sqrt (X * X + Y * Y + 1).

Lemma len2_ge X Y : 1 <= len2 X Y /\ Rabs X <= len2 X Y /\ Rabs Y <= len2 X Y /\
  len2 X Y * len2 X Y = X * X + Y * Y + 1.
Proof.
  unfold len2. assert (0 <= X * X) by nra. assert (0 <= Y * Y) by nra.
  split; [|split; [|split]].
  - rewrite <- sqrt_1 at 1. apply sqrt_le_1_alt. lra.
  - rewrite <- sqrt_Rsqr_abs. apply sqrt_le_1_alt. unfold Rsqr. lra.
  - rewrite <- sqrt_Rsqr_abs. apply sqrt_le_1_alt. unfold Rsqr. lra.
  - apply sqrt_sqrt. lra.
Qed.

Lemma sqrt_is x a : is x a -> 0 <= a -> is (nsqrt D x) (rnd64 (sqrt a)).
Proof. intros [F <-] H. destruct (dsqrt_ok x F H). split; auto. Qed.

(** A slope from two samples, a height and a distance of 1 or 2. *)
Lemma slope_is c0 c1 hh dd v0 v1 H dist :
  is c0 v0 -> is c1 v1 -> is hh H -> is dd dist -> (dist = 1 \/ dist = 2) ->
  Rabs (v0 - v1) <= bpow radix2 800 -> Rabs ((v0 - v1) * H) <= bpow radix2 400 ->
  exists X, is (ndiv D (nmul D (nsub D c0 c1) hh) dd) X /\
    Rabs X <= bpow radix2 401 /\
    let X0 := (v0 - v1) * H / dist in Rabs (X - X0) <= 4 * u * Rabs X0 + u * u.
Proof.
  intros I0 I1 IH ID HD B1 B2.
  pose proof u_pos as U. pose proof tiny_small as T.
  set (d := v0 - v1) in *.
  assert (I2 : is (nsub D c0 c1) (rnd64 d)).
  { apply sub_is; auto. eapply Rle_trans; [exact B1|]. apply bpow_le; lia. }
  assert (E1 : Rabs (rnd64 d - d) <= u * Rabs d).
  { apply rnd_sub; eapply is_format; eauto. }
  set (d' := rnd64 d) in *.
  assert (E2 : Rabs (d' * H - d * H) <= u * Rabs (d * H)).
  { replace (d' * H - d * H) with ((d' - d) * H) by ring. rewrite !Rabs_mult, <- Rmult_assoc.
    apply Rmult_le_compat_r; auto. apply Rabs_pos. }
  set (p := d * H) in *. set (p' := d' * H) in *.
  assert (PP : 0 <= Rabs p) by apply Rabs_pos.
  assert (A2 : Rabs p' <= Rabs p + u * Rabs p).
  { replace p' with (p + (p' - p)) by ring. eapply Rle_trans; [apply Rabs_triang|]. lra. }
  assert (B3 : Rabs p + u * Rabs p <= bpow radix2 401).
  { change 401%Z with (1 + 400)%Z. rewrite bpow_plus. change (bpow radix2 1) with 2.
    assert (u * Rabs p <= 1 * Rabs p) by (apply Rmult_le_compat_r; lra). lra. }
  assert (I3 : is (nmul D (nsub D c0 c1) hh) (rnd64 p')).
  { apply mul_is; auto. fold d' p'. apply Rle_trans with (bpow radix2 401); [lra|]. apply bpow_le; lia. }
  pose proof (rnd_err p') as E3.
  assert (B4 : Rabs (rnd64 p') <= bpow radix2 401).
  { apply rnd64_bound; [lia|]. lra. }
  set (q := rnd64 p') in *.
  assert (DN : dist <> 0) by (destruct HD; lra).
  assert (QD : Rabs (q / dist) <= Rabs q).
  { destruct HD as [-> | ->].
    - unfold Rdiv; rewrite Rinv_1, !Rmult_1_r. lra.
    - unfold Rdiv. rewrite Rabs_mult, (Rabs_pos_eq (/ 2)) by lra. pose proof (Rabs_pos q). lra. }
  assert (I4 : is (ndiv D (nmul D (nsub D c0 c1) hh) dd) (rnd64 (q / dist))).
  { apply div_is; auto. apply Rle_trans with (bpow radix2 401); [lra|]. apply bpow_le; lia. }
  exists (rnd64 (q / dist)). split; [exact I4|]. split.
  { apply rnd64_bound; [lia|]. lra. }
  intros X0.
  assert (EX : Rabs (q / dist - p / dist) <= Rabs (q - p) / dist).
  { replace (q / dist - p / dist) with ((q - p) / dist) by (field; auto).
    unfold Rdiv. rewrite Rabs_mult, (Rabs_pos_eq (/ dist)); [lra|]. destruct HD as [-> | ->]; lra. }
  assert (QP : Rabs (q - p) <= (u + u * (1 + u)) * Rabs p + u * tiny).
  { replace (q - p) with ((q - p') + (p' - p)) by ring. eapply Rle_trans; [apply Rabs_triang|].
    assert (u * Rabs p' <= u * (Rabs p + u * Rabs p)) by (apply Rmult_le_compat_l; lra). lra. }
  assert (AX0 : Rabs X0 = Rabs p / dist).
  { unfold X0, Rdiv. fold d. fold p. rewrite Rabs_mult, (Rabs_pos_eq (/ dist)); auto. destruct HD as [-> | ->]; lra. }
  assert (EQ : Rabs (q / dist - X0) <= (u + u * (1 + u)) * Rabs X0 + u * tiny).
  { eapply Rle_trans; [exact EX|]. rewrite AX0.
    assert (0 <= u * tiny) by (apply Rmult_le_pos; lra).
    destruct HD as [-> | ->]; [|lra]. unfold Rdiv; rewrite Rinv_1, !Rmult_1_r. exact QP. }
  pose proof (rnd_err (q / dist)) as E4.
  assert (0 <= Rabs X0) by apply Rabs_pos.
  set (z := q / dist) in *.
  assert (AZ : Rabs z <= Rabs X0 + (u + u * (1 + u)) * Rabs X0 + u * tiny).
  { replace z with (X0 + (z - X0)) by ring. eapply Rle_trans; [apply Rabs_triang|]. lra. }
  replace (rnd64 z - X0) with ((rnd64 z - z) + (z - X0)) by ring.
  eapply Rle_trans; [apply Rabs_triang|].
  assert (K : u * (Rabs z + tiny) <= u * (Rabs X0 + (u + u * (1 + u)) * Rabs X0 + u * tiny + tiny)) by (apply Rmult_le_compat_l; lra).
  set (a := Rabs X0) in *. clearbody a z. clear - U T EQ E4 K H0.
  assert (u * tiny <= u * (u / 1000)) by (apply Rmult_le_compat_l; lra).
  assert (UA : u * u * a <= u * a / 1000).
  { assert (u * u <= u / 1000) by nra. assert (u * u * a <= u / 1000 * a) by (apply Rmult_le_compat_r; lra). lra. }
  assert (UUA : u * u * u * a <= u * u * a).
  { assert (u * u * u <= u * u) by nra. apply Rmult_le_compat_r; lra. }
  assert (u * (u * tiny) <= u * tiny) by (apply Rmult_le_compat_l; nra).
  assert (0 <= u * a) by nra.
  nra.
Qed.

(** The stored encoding of a component. *)
Definition enc (keep : bool) (v : R) : R := if keep then v else (v + 1) / 2.

Lemma enc_is (keep : bool) c (v0 v : R) : is c v -> -1 <= v <= 1 -> Rabs (v - v0) <= 90 * u ->
  exists w, is (if keep then c else nadd D (nmul D c (@half D)) (@half D)) w /\
    Rabs (w - enc keep v0) <= 90 * u /\ (if keep then -1 else 0) <= w <= 1 /\
    (0 <= v -> (if keep then 0 else / 2) <= w) /\ (keep = true -> w = v).
Proof.
  intros I V E. pose proof u_pos as U. destruct keep; cbn [enc].
  - exists v. split; [exact I|]. split; [exact E|]. split; [lra|]. split; auto.
  - pose proof (half_is pw) as IH.
    assert (AV : Rabs (v * / 2) <= bpow radix2 (-1)).
    { change (bpow radix2 (-1)) with (/ 2). apply Rabs_le. lra. }
    assert (I1 : is (nmul D c (@half D)) (rnd64 (v * / 2))).
    { apply mul_is; auto. eapply Rle_trans; [exact AV|]. apply bpow_le; lia. }
    pose proof (rnd64_err _ (-1) ltac:(lia) AV) as E1.
    change (bpow radix2 (-1 - 53)) with (/ 18014398509481984) in E1.
    assert (B1 : - / 2 <= rnd64 (v * / 2) <= / 2).
    { pose proof (rnd64_bound _ (-1) ltac:(lia) AV) as B. change (bpow radix2 (-1)) with (/ 2) in B.
      apply Rabs_le_inv in B. lra. }
    set (m := rnd64 (v * / 2)) in *.
    assert (AM : Rabs (m + / 2) <= bpow radix2 0).
    { change (bpow radix2 0) with 1. apply Rabs_le. lra. }
    assert (I2 : is (nadd D (nmul D c (@half D)) (@half D)) (rnd64 (m + / 2))).
    { apply add_is; auto. eapply Rle_trans; [exact AM|]. apply bpow_le; lia. }
    pose proof (rnd64_err _ 0 ltac:(lia) AM) as E2. change (bpow radix2 (0 - 53)) with (/ 9007199254740992) in E2.
    exists (rnd64 (m + / 2)). split; [exact I2|].
    split.
    + rewrite u_val in *. apply Rabs_le_inv in E, E1, E2. apply Rabs_le. lra.
    + split; [|split; [|discriminate]].
      * split; [apply rnd64_ge_fmt; [apply zero_format|lra]|apply rnd64_le_fmt; [apply one_format|lra]].
      * intros P. apply rnd64_ge_fmt; [apply half_format|].
        assert (0 <= m) by (apply rnd64_ge_fmt; [apply zero_format|lra]). lra.
Qed.

Lemma normal_is (keep : bool) dx dy (X Y X0 Y0 : R) :
  let L := len2 X0 Y0 in
  is dx X -> is dy Y -> Rabs X <= bpow radix2 401 -> Rabs Y <= bpow radix2 401 ->
  Rabs (X - X0) <= 5 * u * L -> Rabs (Y - Y0) <= 5 * u * L ->
  let c := normalColor (A := D) keep dx dy in
  exists r g b,
    is (c_r c) r /\ is (c_g c) g /\ is (c_b c) b /\ is (c_a c) 1 /\
    Rabs (r - enc keep (X0 / L)) <= 90 * u /\ Rabs (g - enc keep (Y0 / L)) <= 90 * u /\
    Rabs (b - enc keep (1 / L)) <= 90 * u /\
    (if keep then -1 else 0) <= r <= 1 /\ (if keep then -1 else 0) <= g <= 1 /\
    (if keep then 0 else / 2) <= b <= 1 /\ (keep = true -> 0 < b).
Proof.
  intros L IX IY BX BY EX EY.
  pose proof u_pos as U. pose proof tiny_small as T.
  destruct (len2_ge X0 Y0) as (L1 & LX & LY & LL). fold L in L1, LX, LY, LL.
  set (q := L * L) in *. assert (Q1 : L <= q) by (unfold q; nra).
  (* squares *)
  assert (SQ : forall Z Z0 z, is z Z -> Rabs Z <= bpow radix2 401 -> Rabs (Z - Z0) <= 5 * u * L -> Rabs Z0 <= L ->
    Rabs Z <= 2 * L /\
    is (nmul D z z) (rnd64 (Z * Z)) /\ Rabs (rnd64 (Z * Z) - Z0 * Z0) <= 14 * u * q /\
    0 <= rnd64 (Z * Z) <= bpow radix2 802).
  { intros Z Z0 z IZ BZ EZ LZ.
    assert (P : 0 <= Z * Z <= bpow radix2 802).
    { split; [nra|]. replace (Z * Z) with (Rabs Z * Rabs Z) by (rewrite <- Rabs_mult; apply Rabs_pos_eq; nra).
      change 802%Z with (401 + 401)%Z. rewrite bpow_plus. apply Rmult_le_compat; auto; apply Rabs_pos. }
    assert (A : Rabs (Z + Z0) <= 3 * L).
    { replace (Z + Z0) with (2 * Z0 + (Z - Z0)) by ring. eapply Rle_trans; [apply Rabs_triang|].
      rewrite Rabs_mult, (Rabs_pos_eq 2) by lra. nra. }
    assert (A2 : Rabs Z <= 2 * L).
    { replace Z with (Z0 + (Z - Z0)) by ring. eapply Rle_trans; [apply Rabs_triang|]. nra. }
    assert (A3 : Rabs (Z + Z0) <= 2 * L + 5 * u * L).
    { replace (Z + Z0) with (2 * Z0 + (Z - Z0)) by ring. eapply Rle_trans; [apply Rabs_triang|].
      rewrite Rabs_mult, (Rabs_pos_eq 2) by lra. lra. }
    assert (S : Rabs (Z * Z - Z0 * Z0) <= 11 * u * q).
    { replace (Z * Z - Z0 * Z0) with ((Z - Z0) * (Z + Z0)) by ring. rewrite Rabs_mult.
      apply Rle_trans with ((5 * u * L) * (2 * L + 5 * u * L)).
      - apply Rmult_le_compat; auto; apply Rabs_pos.
      - replace ((5 * u * L) * (2 * L + 5 * u * L)) with ((10 * u + 25 * u * u) * q) by (unfold q; ring).
        apply Rmult_le_compat_r; [unfold q; nra|]. nra. }
    assert (ZZ : Rabs (Z * Z) <= (1 + 11 * u) * q).
    { replace (Z * Z) with (Z0 * Z0 + (Z * Z - Z0 * Z0)) by ring. eapply Rle_trans; [apply Rabs_triang|].
      assert (Rabs (Z0 * Z0) <= q).
      { rewrite Rabs_mult. unfold q. apply Rmult_le_compat; auto; apply Rabs_pos. }
      lra. }
    assert (I : is (nmul D z z) (rnd64 (Z * Z))).
    { apply mul_is; auto. rewrite Rabs_pos_eq by lra. apply Rle_trans with (bpow radix2 802); [lra|]. apply bpow_le; lia. }
    pose proof (rnd_err (Z * Z)) as E.
    split; [exact A2|]. split; [exact I|]. split.
    - replace (rnd64 (Z * Z) - Z0 * Z0) with ((rnd64 (Z * Z) - Z * Z) + (Z * Z - Z0 * Z0)) by ring.
      eapply Rle_trans; [apply Rabs_triang|].
      assert (u * (Rabs (Z * Z) + tiny) <= u * (2 * q + q)) by (apply Rmult_le_compat_l; [lra|]; nra).
      lra.
    - split; [apply rnd64_pos; lra|]. apply rnd64_le_fmt; [|lra]. apply generic_format_bpow. unfold FLT_exp. lia. }
  destruct (SQ X X0 dx IX BX EX LX) as (AX & I1 & E1 & R1).
  destruct (SQ Y Y0 dy IY BY EY LY) as (AY & I2 & E2 & R2).
  set (s1 := rnd64 (X * X)) in *. set (s2 := rnd64 (Y * Y)) in *.
  assert (Q0 : q = X0 * X0 + Y0 * Y0 + 1) by exact LL.
  assert (U2 : 0 <= u * q) by (unfold q; nra).
  assert (UQ : u * q <= q / 1000) by nra.
  (* sum *)
  assert (B803 : bpow radix2 802 + bpow radix2 802 = bpow radix2 803).
  { change 803%Z with (1 + 802)%Z. rewrite bpow_plus. change (bpow radix2 1) with 2. ring. }
  assert (B804 : bpow radix2 803 + bpow radix2 803 = bpow radix2 804).
  { change 804%Z with (1 + 803)%Z. rewrite bpow_plus. change (bpow radix2 1) with 2. ring. }
  assert (B1 : 1 <= bpow radix2 803) by (change 1 with (bpow radix2 0); apply bpow_le; lia).
  assert (I3 : is (nadd D (nmul D dx dx) (nmul D dy dy)) (rnd64 (s1 + s2))).
  { apply add_is; auto. rewrite Rabs_pos_eq by lra. apply Rle_trans with (bpow radix2 803); [lra|]. apply bpow_le; lia. }
  pose proof (rnd_err (s1 + s2)) as E3.
  assert (S12 : Rabs (s1 + s2) <= 2 * q).
  { apply Rabs_le_inv in E1, E2. apply Rabs_le. lra. }
  assert (E3' : Rabs (rnd64 (s1 + s2) - (X0 * X0 + Y0 * Y0)) <= 31 * u * q).
  { assert (u * (Rabs (s1 + s2) + tiny) <= u * (3 * q)) by (apply Rmult_le_compat_l; lra).
    apply Rabs_le_inv in E1, E2, E3. apply Rabs_le. lra. }
  assert (R3 : s1 <= rnd64 (s1 + s2) /\ s2 <= rnd64 (s1 + s2) /\ rnd64 (s1 + s2) <= bpow radix2 803).
  { split; [|split].
    - apply rnd64_ge_fmt; [eapply is_format; exact I1|lra].
    - apply rnd64_ge_fmt; [eapply is_format; exact I2|lra].
    - apply rnd64_le_fmt; [|lra]. apply generic_format_bpow. unfold FLT_exp. lia. }
  set (s3 := rnd64 (s1 + s2)) in *.
  assert (I4 : is (nadd D (nadd D (nmul D dx dx) (nmul D dy dy)) (@lit D 1)) (rnd64 (s3 + 1))).
  { apply add_is; auto; [apply (lit_is pw 1); lia|]. rewrite Rabs_pos_eq by lra.
    apply Rle_trans with (bpow radix2 804); [lra|]. apply bpow_le; lia. }
  pose proof (rnd_err (s3 + 1)) as E4.
  assert (S3 : Rabs (s3 + 1) <= 2 * q).
  { apply Rabs_le_inv in E3'. apply Rabs_le. lra. }
  assert (E4' : Rabs (rnd64 (s3 + 1) - q) <= 34 * u * q).
  { assert (u * (Rabs (s3 + 1) + tiny) <= u * (3 * q)) by (apply Rmult_le_compat_l; lra).
    apply Rabs_le_inv in E4, E3'. apply Rabs_le. lra. }
  assert (R4 : s1 <= rnd64 (s3 + 1) /\ s2 <= rnd64 (s3 + 1) /\ 1 <= rnd64 (s3 + 1) <= bpow radix2 804).
  { split; [|split; [|split]].
    - apply rnd64_ge_fmt; [eapply is_format; exact I1|lra].
    - apply rnd64_ge_fmt; [eapply is_format; exact I2|lra].
    - apply rnd64_ge_fmt; [apply one_format|lra].
    - apply rnd64_le_fmt; [|lra]. apply generic_format_bpow. unfold FLT_exp. lia. }
  set (s4 := rnd64 (s3 + 1)) in *.
  (* length *)
  assert (I5 : is (nsqrt D (nadd D (nadd D (nmul D dx dx) (nmul D dy dy)) (@lit D 1))) (rnd64 (sqrt s4))).
  { apply sqrt_is; auto. lra. }
  assert (SG : 1 <= sqrt s4) by (rewrite <- sqrt_1 at 1; apply sqrt_le_1_alt; lra).
  assert (ES : Rabs (sqrt s4 - L) <= 34 * u * L).
  { assert (M : (sqrt s4 - L) * (sqrt s4 + L) = s4 - q).
    { replace ((sqrt s4 - L) * (sqrt s4 + L)) with (sqrt s4 * sqrt s4 - q) by (unfold q; ring).
      rewrite sqrt_sqrt by lra. reflexivity. }
    assert (Rabs (sqrt s4 - L) * L <= 34 * u * L * L).
    { apply Rle_trans with (Rabs ((sqrt s4 - L) * (sqrt s4 + L))).
      - rewrite Rabs_mult. apply Rmult_le_compat_l; [apply Rabs_pos|]. rewrite Rabs_pos_eq; lra.
      - rewrite M. replace (34 * u * L * L) with (34 * u * q) by (unfold q; ring). exact E4'. }
    apply Rmult_le_reg_r with L; lra. }
  pose proof (rnd_err (sqrt s4)) as E5.
  set (L' := rnd64 (sqrt s4)) in *.
  assert (UL : u * L <= L / 1000) by nra.
  assert (EL : Rabs (L' - L) <= 37 * u * L).
  { assert (Rabs (sqrt s4) <= 2 * L) by (apply Rabs_le_inv in ES; apply Rabs_le; lra).
    assert (u * (Rabs (sqrt s4) + tiny) <= u * (3 * L)) by (apply Rmult_le_compat_l; lra).
    apply Rabs_le_inv in E5, ES. apply Rabs_le. lra. }
  assert (GL : 1 <= L') by (apply rnd64_ge_fmt; [apply one_format|auto]).
  assert (UBL : L' <= bpow radix2 402).
  { apply rnd64_le_fmt; [apply generic_format_bpow; unfold FLT_exp; lia|].
    rewrite <- (sqrt_square (bpow radix2 402)) by apply bpow_ge_0. apply sqrt_le_1_alt.
    rewrite <- bpow_plus. change (402 + 402)%Z with 804%Z. lra. }
  assert (GE : forall Z z, is z Z -> Rabs Z <= bpow radix2 401 -> rnd64 (Z * Z) <= s4 -> Rabs Z <= L').
  { intros Z z IZ BZ HZ. destruct (Rle_lt_dec 1 (Rabs Z)) as [H|H]; [|lra].
    eapply Rle_trans; [apply (sqrt_square_ge (Rabs Z)); auto|].
    - apply generic_format_abs. eapply is_format; exact IZ.
    - apply rnd64_le, sqrt_le_1_alt. rewrite <- Rabs_mult, rnd64_abs.
      rewrite Rabs_pos_eq; auto. apply rnd64_pos. nra. }
  assert (GX : Rabs X <= L') by (apply (GE X dx); auto; apply R4).
  assert (GY : Rabs Y <= L') by (apply (GE Y dy); auto; apply R4).
  (* quotients *)
  assert (LH : L / 2 <= L') by (apply Rabs_le_inv in EL; lra).
  assert (QT : forall Z Z0 z, is z Z -> Rabs Z <= L' -> Rabs (Z - Z0) <= 5 * u * L -> Rabs Z0 <= L ->
    exists v, is (ndiv D z (nsqrt D (nadd D (nadd D (nmul D dx dx) (nmul D dy dy)) (@lit D 1)))) v /\
      -1 <= v <= 1 /\ Rabs (v - Z0 / L) <= 90 * u /\ v = rnd64 (Z / L')).
  { intros Z Z0 z IZ BZ EZ LZ.
    assert (AZ : Rabs (Z / L') <= bpow radix2 0).
    { change (bpow radix2 0) with 1. unfold Rdiv. rewrite Rabs_mult, (Rabs_pos_eq (/ L')).
      - apply Rmult_le_reg_r with L'; [lra|]. rewrite Rmult_assoc, Rinv_l by lra. lra.
      - left. apply Rinv_0_lt_compat. lra. }
    exists (rnd64 (Z / L')). split; [|split; [|split]].
    - apply div_is; auto; [lra|]. eapply Rle_trans; [exact AZ|]. apply bpow_le; lia.
    - pose proof (rnd64_bound _ 0 ltac:(lia) AZ) as B. change (bpow radix2 0) with 1 in B. apply Rabs_le_inv in B. lra.
    - assert (E : Rabs (Z / L' - Z0 / L) <= 84 * u).
      { replace (Z / L' - Z0 / L) with (((Z - Z0) * L - Z0 * (L' - L)) / (L * L')) by (field; lra).
        unfold Rdiv. rewrite Rabs_mult. rewrite (Rabs_pos_eq (/ (L * L'))) by (left; apply Rinv_0_lt_compat; nra).
        apply Rmult_le_reg_r with (L * L'); [nra|]. rewrite Rmult_assoc, Rinv_l by nra. rewrite Rmult_1_r.
        apply Rle_trans with (42 * u * q).
        - eapply Rle_trans; [apply Rabs_triang|]. rewrite Rabs_Ropp, !Rabs_mult, (Rabs_pos_eq L) by lra.
          assert (Rabs (Z - Z0) * L <= 5 * u * L * L) by (apply Rmult_le_compat_r; lra).
          assert (Rabs Z0 * Rabs (L' - L) <= L * (37 * u * L)) by (apply Rmult_le_compat; auto; apply Rabs_pos).
          unfold q. lra.
        - assert (q / 2 <= L * L') by (unfold q; nra).
          assert (42 * u * q <= 84 * u * (L * L')) by nra. lra. }
      pose proof (rnd64_err _ 0 ltac:(lia) AZ) as E0. change (bpow radix2 (0 - 53)) with u in E0.
      apply Rabs_le_inv in E, E0. apply Rabs_le. lra.
    - reflexivity. }
  destruct (QT X X0 dx IX GX EX LX) as (r & IR & BR & ER & _).
  destruct (QT Y Y0 dy IY GY EY LY) as (g & IG & BG & EG & _).
  assert (E11 : Rabs (1 - 1) <= 5 * u * L) by (replace (1 - 1) with 0 by ring; rewrite Rabs_R0; nra).
  destruct (QT 1 1 (@lit D 1) (lit_is pw 1 ltac:(lia)) ltac:(rewrite Rabs_R1; lra) E11 ltac:(rewrite Rabs_R1; lra))
    as (b & IB & BB & EB & FB).
  assert (PB : 0 < b).
  { rewrite FB. apply Rlt_le_trans with (bpow radix2 (-402)); [apply bpow_gt_0|].
    apply rnd64_ge_fmt; [apply generic_format_bpow; unfold FLT_exp; lia|].
    unfold Rdiv. rewrite Rmult_1_l. change (-402)%Z with (- (402))%Z. rewrite bpow_opp. apply Rinv_le; lra. }
  destruct (enc_is keep _ _ _ IR BR ER) as (r' & IR' & ER' & BR' & _).
  destruct (enc_is keep _ _ _ IG BG EG) as (g' & IG' & EG' & BG' & _).
  destruct (enc_is keep _ _ _ IB BB EB) as (b' & IB' & EB' & BB' & PB' & KB').
  exists r', g', b'. unfold normalColor.
  assert (I1' : is (@lit D 1) 1) by (apply (lit_is pw 1); lia).
  destruct keep; cbn [c_r c_g c_b c_a].
  - split; [exact IR'|]. split; [exact IG'|]. split; [exact IB'|]. split; [exact I1'|].
    split; [exact ER'|]. split; [exact EG'|]. split; [exact EB'|]. split; [exact BR'|]. split; [exact BG'|].
    split; [|intros _; rewrite KB' by reflexivity; exact PB]. split; [apply PB'; lra|lra].
  - split; [exact IR'|]. split; [exact IG'|]. split; [exact IB'|]. split; [exact I1'|].
    split; [exact ER'|]. split; [exact EG'|]. split; [exact EB'|]. split; [exact BR'|]. split; [exact BG'|].
    split; [|discriminate]. split; [apply PB'; lra|lra].
Qed.

End Pow.

(** The windows and weights of the resampling code in binary64: rounding moves them by less than
    2^-18 of a sample, and the sample under the centre is always visited. *)

From Coq Require Import ZArith NArith List Bool Lia Reals Lra Psatz.
From Coq Require Import ZifyBool ZifyNat ZifyN.
From Flocq Require Import Core Relative IEEE754.BinarySingleNaN IEEE754.Binary IEEE754.Bits.
From Verif Require Import Base FormatModel FloatModel FloatSpec FloatProofs ArithModel ArithSpec DoubleProofs TextureModel
  ImageModel ImageLoops ResizeModel ResizeSpec ResizeLoops ResizeRealProofs.
Import ListNotations.
Local Open Scope R_scope.
Set Default Proof Using "All".

(** * Rounding *)

Definition u : R := bpow radix2 (-53).

Lemma u_val : u = / 9007199254740992.
Proof. unfold u. simpl. reflexivity. Qed.
Lemma u_pos : 0 < u <= / 9007199254740992.
Proof. rewrite u_val. lra. Qed.

(** The rounding error is at most [u] times any normal bound. *)
Lemma rnd64_rel x b : Rabs x <= b -> bpow radix2 (-1022) <= b -> Rabs (rnd64 x - x) <= u * b.
Proof.
  intros H Hb.
  eapply Rle_trans; [apply (error_le_half_ulp radix2 (FLT_exp (-1074) 53))|].
  assert (L : ulp radix2 (FLT_exp (-1074) 53) x <= ulp radix2 (FLT_exp (-1074) 53) b).
  { rewrite <- (ulp_abs _ _ x). apply ulp_le_pos; auto; [typeclasses eauto|typeclasses eauto|apply Rabs_pos]. }
  assert (U : ulp radix2 (FLT_exp (-1074) 53) b <= b * bpow radix2 (1 - 53)).
  { assert (0 < bpow radix2 (-1022)) by apply bpow_gt_0.
    replace (b * bpow radix2 (1 - 53)) with (Rabs b * bpow radix2 (1 - 53)) by (rewrite Rabs_pos_eq; lra).
    apply ulp_FLT_le. rewrite Rabs_pos_eq by lra. exact Hb. }
  replace u with (/ 2 * bpow radix2 (1 - 53)).
  - assert (0 <= / 2) by lra. nra.
  - unfold u. change (1 - 53)%Z with (-52)%Z. simpl. lra.
Qed.

Lemma rnd64_pos x : 0 <= x -> 0 <= rnd64 x.
Proof. intros. rewrite <- rnd64_0. apply rnd64_le; auto. Qed.

Lemma rnd64_le_fmt x y : generic_format radix2 (FLT_exp (-1074) 53) y -> x <= y -> rnd64 x <= y.
Proof. intros G H. rewrite <- (rnd64_format y G). apply rnd64_le; auto. Qed.
Lemma rnd64_ge_fmt x y : generic_format radix2 (FLT_exp (-1074) 53) y -> y <= x -> y <= rnd64 x.
Proof. intros G H. rewrite <- (rnd64_format y G). apply rnd64_le; auto. Qed.
Lemma one_format : generic_format radix2 (FLT_exp (-1074) 53) 1.
Proof. apply (int_format64 1). lia. Qed.
Lemma zero_format : generic_format radix2 (FLT_exp (-1074) 53) 0.
Proof. apply generic_format_0. Qed.

Lemma half_format : generic_format radix2 (FLT_exp (-1074) 53) (/ 2).
Proof.
  replace (/ 2) with (IZR 1 * bpow radix2 (-1)) by (simpl; lra). apply float_format; lia.
Qed.

(** A number of halves up to 2^32 is exact. *)
Lemma halves_format z : (Z.abs z <= 2 ^ 53)%Z -> generic_format radix2 (FLT_exp (-1074) 53) (IZR z / 2).
Proof.
  intros. replace (IZR z / 2) with (IZR z * bpow radix2 (-1)) by (simpl; lra). apply float_format; lia.
Qed.

Lemma mid_format i : (i < 2 ^ 32)%N -> generic_format radix2 (FLT_exp (-1074) 53) (mid i).
Proof.
  intros. unfold mid, NR. replace (IZR (Z.of_N i) + / 2) with (IZR (2 * Z.of_N i + 1) / 2).
  - apply halves_format. lia.
  - rewrite plus_IZR, mult_IZR. lra.
Qed.

(** Below a power of two, numbers of this format are multiples of a unit. *)
Lemma format_grid x e : generic_format radix2 (FLT_exp (-1074) 53) x -> (-1074 <= e)%Z ->
  bpow radix2 (e + 52) <= Rabs x -> exists z, x = IZR z * bpow radix2 e.
Proof.
  intros G He B. unfold generic_format in G. unfold F2R in G. simpl in G.
  set (m := Ztrunc _) in G. set (k := cexp _ _ x) in G.
  assert (K : (e <= k)%Z).
  { unfold k, cexp, FLT_exp. assert (e + 52 < mag radix2 x)%Z by (apply mag_gt_bpow; auto). lia. }
  exists (m * 2 ^ (k - e))%Z. rewrite G at 1. rewrite mult_IZR.
  rewrite (IZR_Zpower radix2) by lia. rewrite Rmult_assoc, <- bpow_plus.
  f_equal. f_equal. lia.
Qed.

(** [x - 1/2] is exact from [1/2] up. *)
Lemma minus_half_format x : generic_format radix2 (FLT_exp (-1074) 53) x ->
  / 2 <= x < 4294967296 -> generic_format radix2 (FLT_exp (-1074) 53) (x - / 2).
Proof.
  intros G [L U].
  unfold generic_format, F2R in G. simpl in G.
  set (m := Ztrunc _) in G. set (k := cexp _ _ x) in G.
  assert (A : Rabs x = x) by (apply Rabs_pos_eq; lra).
  assert (K1 : (-53 <= k)%Z).
  { unfold k, cexp, FLT_exp. assert (-1 < mag radix2 x)%Z.
    { apply mag_gt_bpow. rewrite A. simpl. lra. } lia. }
  assert (K2 : (k <= -21)%Z).
  { unfold k, cexp, FLT_exp. assert (mag radix2 x <= 32)%Z.
    { apply mag_le_bpow; [lra|]. rewrite A. simpl. lra. } lia. }
  assert (P : bpow radix2 k > 0) by apply bpow_gt_0.
  assert (M : (Z.abs m <= 2 ^ 53)%Z).
  { apply le_IZR. rewrite abs_IZR.
    assert (X : Rabs (IZR m) * bpow radix2 k <= IZR (2 ^ 53) * bpow radix2 k).
    { rewrite <- (Rabs_pos_eq (bpow radix2 k)) at 1 by lra. rewrite <- Rabs_mult, <- G.
      change (2 ^ 53)%Z with (Zpower radix2 53). rewrite (IZR_Zpower radix2) by lia. rewrite <- bpow_plus.
      unfold k, cexp, FLT_exp.
      assert (X : Rabs x < bpow radix2 (mag radix2 x)) by apply bpow_mag_gt.
      left. eapply Rlt_le_trans; [exact X|]. apply bpow_le. lia. }
    apply Rmult_le_reg_r in X; auto. }
  assert (Q : x - / 2 = IZR (m - 2 ^ (-1 - k)) * bpow radix2 k).
  { rewrite minus_IZR, Rmult_minus_distr_r, <- G. f_equal.
    rewrite (IZR_Zpower radix2) by lia. rewrite <- bpow_plus.
    replace (-1 - k + k)%Z with (-1)%Z by lia. reflexivity. }
  rewrite Q. apply float_format; [|lia].
  assert (0 <= m - 2 ^ (-1 - k))%Z.
  { apply le_IZR. apply Rmult_le_reg_r with (bpow radix2 k); auto. rewrite <- Q. lra. }
  assert (0 <= 2 ^ (-1 - k))%Z by (apply Z.pow_nonneg; lia). lia.
Qed.

Lemma NR_below x : (x < 2 ^ 31)%N -> NR x <= 2147483647.
Proof. intros. unfold NR. apply IZR_le. lia. Qed.

(** * The operations *)

Section Pow.
Variable pw : double -> double -> double.
Local Notation D := (double_arith pw).

Definition is (x : num D) (r : R) : Prop := dfinite x = true /\ dreal x = r.

Lemma lit_is z : (Z.abs z <= 2 ^ 53)%Z -> is (@lit D z) (IZR z).
Proof. intros H. destruct (double_of_Z_ok z H). split; auto. Qed.

Lemma ofN_is n : (n < 2 ^ 53)%N -> is (@ofN D n) (NR n).
Proof. intros H. apply lit_is. lia. Qed.

Lemma half_is : is (@half D) (/ 2).
Proof.
  unfold is, half, dec. cbn [ofZ ndiv double_arith].
  destruct (double_of_Z_ok 5 ltac:(lia)) as [R5 F5].
  destruct (double_of_Z_ok (10 ^ 1) ltac:(lia)) as [R10 F10].
  assert (Q : dreal (double_of_Z 5) / dreal (double_of_Z (10 ^ 1)) = / 2).
  { rewrite R5, R10. change (IZR (10 ^ 1)) with 10. lra. }
  destruct (ddiv_ok (double_of_Z 5) (double_of_Z (10 ^ 1)) F5) as [F R].
  - rewrite R10. change (IZR (10 ^ 1)) with 10. lra.
  - rewrite Q. rewrite Rabs_pos_eq by lra. apply Rle_trans with (bpow radix2 0); [simpl; lra|].
    apply bpow_le. lia.
  - split; auto. rewrite R, Q. apply rnd64_format, half_format.
Qed.

Lemma big : 4294967296 * 4294967296 <= bpow radix2 900.
Proof.
  apply Rle_trans with (bpow radix2 64); [|apply bpow_le; lia]. simpl. lra.
Qed.

Lemma add_is x y a b : is x a -> is y b -> Rabs (a + b) <= bpow radix2 900 ->
  is (nadd D x y) (rnd64 (a + b)).
Proof. intros [Fx <-] [Fy <-] H. destruct (dadd_ok x y Fx Fy H). split; auto. Qed.
Lemma sub_is x y a b : is x a -> is y b -> Rabs (a - b) <= bpow radix2 900 ->
  is (nsub D x y) (rnd64 (a - b)).
Proof. intros [Fx <-] [Fy <-] H. destruct (dsub_ok x y Fx Fy H). split; auto. Qed.
Lemma mul_is x y a b : is x a -> is y b -> Rabs (a * b) <= bpow radix2 900 ->
  is (nmul D x y) (rnd64 (a * b)).
Proof. intros [Fx <-] [Fy <-] H. destruct (dmul_ok x y Fx Fy H). split; auto. Qed.
Lemma div_is x y a b : is x a -> is y b -> b <> 0 -> Rabs (a / b) <= bpow radix2 900 ->
  is (ndiv D x y) (rnd64 (a / b)).
Proof. intros [Fx <-] [Fy <-] N H. destruct (ddiv_ok x y Fx N H). split; auto. Qed.
Lemma abs_is x a : is x a -> is (nabs D x) (Rabs a).
Proof. intros [Fx <-]. destruct (dabs_ok x Fx). split; auto. Qed.
Lemma ltb_is x y a b : is x a -> is y b -> nltb D x y = Rlt_bool a b.
Proof. intros [Fx <-] [Fy <-]. apply dltb_ok; auto. Qed.
Lemma leb_is x y a b : is x a -> is y b -> nleb D x y = Rle_bool a b.
Proof. intros [Fx <-] [Fy <-]. apply dleb_ok; auto. Qed.
Lemma max_is x y a b : is x a -> is y b -> is (@nmax D x y) (Rmax a b).
Proof.
  intros Hx Hy. unfold nmax. rewrite (ltb_is x y a b Hx Hy). unfold Rmax.
  destruct (Rlt_bool_spec a b), Rle_dec; auto; try lra.
  destruct (Req_dec a b) as [->|]; [exact Hx|exfalso; lra].
Qed.
Lemma trunc_is x a : is x a -> ntrunc D x = Some (Ztrunc a).
Proof. intros [Fx <-]. apply dtrunc_ok; auto. Qed.
Lemma is_format x a : is x a -> generic_format radix2 (FLT_exp (-1074) 53) a.
Proof. intros [_ <-]. apply dreal_format. Qed.
Lemma is_zero x a : is x a -> @isZero D x = true <-> a = 0.
Proof.
  intros H. unfold isZero. rewrite (leb_is _ _ a 0 H (lit_is 0 ltac:(lia))).
  rewrite (leb_is _ _ 0 a (lit_is 0 ltac:(lia)) H).
  destruct (Rle_bool_spec a 0), (Rle_bool_spec 0 a); simpl; split; intros; try discriminate; lra.
Qed.

(** * One axis *)

Section Axis.
Variables s n o : N.
Hypothesis Hs : (0 < s < 2 ^ 31)%N.
Hypothesis Hn : (0 < n < 2 ^ 31)%N.
Hypothesis Ho : (o < n)%N.

Let c := centre s n o.
Let e := extent s n.

Definition I' : R := rnd64 (NR s / NR n).
Definition E' : R := Rmax I' 1.
Definition F' : R := rnd64 (1 / E').
Definition C' : R := rnd64 (mid o * I').

Let S1 : 1 <= NR s <= 2147483647.
Proof. split; [apply NR_pos; lia|apply NR_below; lia]. Qed.
Let N1 : 1 <= NR n <= 2147483647.
Proof. split; [apply NR_pos; lia|apply NR_below; lia]. Qed.
Let O1 : / 2 <= mid o <= NR n - / 2.
Proof. unfold mid. pose proof (NR_lt o n Ho). pose proof (NR_nonneg o). lra. Qed.

Lemma tiny x : / 4294967296 <= x -> bpow radix2 (-1022) <= x.
Proof.
  intros H. eapply Rle_trans; [|exact H]. apply Rle_trans with (bpow radix2 (-32)); [apply bpow_le; lia|].
  simpl. lra.
Qed.

Lemma ratio_low : / 2147483648 <= NR s / NR n.
Proof.
  apply Rmult_le_reg_r with (NR n); [lra|]. unfold Rdiv. rewrite Rmult_assoc, Rinv_l by lra. lra.
Qed.

Lemma I_err : Rabs (I' - NR s / NR n) <= u * (NR s / NR n).
Proof.
  apply rnd64_rel; [|apply tiny; pose proof ratio_low; lra].
  rewrite Rabs_pos_eq; [lra|]. pose proof ratio_low; lra.
Qed.

Lemma I_low : / 4294967296 <= I'.
Proof.
  pose proof I_err as H. apply Rabs_le_inv in H. pose proof ratio_low. pose proof u_pos.
  assert (u * (NR s / NR n) <= / 2 * (NR s / NR n)) by (apply Rmult_le_compat_r; lra). lra.
Qed.

Lemma I_high : I' <= NR s.
Proof.
  unfold I'. apply Rle_trans with (rnd64 (NR s)).
  - apply rnd64_le. apply Rmult_le_reg_r with (NR n); [lra|].
    unfold Rdiv. rewrite Rmult_assoc, Rinv_l by lra. apply Rmult_le_compat_l; lra.
  - right. apply rnd64_format, int_format64. lia.
Qed.

Lemma invScale_is : is (@invScale D s n) I'.
Proof.
  unfold invScale. apply div_is; try (apply ofN_is; lia); [lra|].
  pose proof ratio_low. rewrite Rabs_pos_eq by lra.
  eapply Rle_trans; [|apply big]. apply Rle_trans with (NR s); [|lra].
  apply Rmult_le_reg_r with (NR n); [lra|]. unfold Rdiv. rewrite Rmult_assoc, Rinv_l by lra.
  apply Rmult_le_compat_l; lra.
Qed.

Lemma offset_is : is (@offset D s n) E'.
Proof. unfold offset. apply max_is; [apply invScale_is|]. apply (lit_is 1). lia. Qed.

Lemma E_bounds : 1 <= E' <= NR s.
Proof. unfold E'. split; [apply Rmax_r|]. apply Rmax_lub; [apply I_high|lra]. Qed.

Lemma e_bounds : 1 <= e <= NR s.
Proof. split; [apply extent_ge|apply (extent_le s n o); auto]. Qed.

Lemma E_err : Rabs (E' - e) <= u * e.
Proof.
  pose proof I_err as H. pose proof e_bounds as B. pose proof u_pos. unfold E', e, extent in *.
  set (q := NR s / NR n) in *. apply Rabs_le_inv in H. apply Rabs_le.
  assert (P : 0 < q) by (pose proof ratio_low; unfold q; lra).
  assert (X : u * q <= u * Rmax q 1) by (apply Rmult_le_compat_l; [lra|apply Rmax_l]).
  assert (Y : 0 <= u * Rmax q 1) by (apply Rmult_le_pos; lra).
  revert X Y. unfold Rmax. destruct (Rle_dec I' 1), (Rle_dec q 1); lra.
Qed.

Lemma filterScale_is : is (@filterScale D s n) F'.
Proof.
  unfold filterScale. pose proof E_bounds. apply div_is; [apply (lit_is 1); lia|apply offset_is|lra|].
  rewrite Rabs_pos_eq.
  - eapply Rle_trans; [|apply big]. apply Rle_trans with 1; [|lra].
    apply Rmult_le_reg_r with E'; [lra|]. unfold Rdiv. rewrite Rmult_assoc, Rinv_l by lra. lra.
  - apply Rmult_le_pos; [lra|]. left; apply Rinv_0_lt_compat; lra.
Qed.

Lemma F_range : 0 <= F' <= 1.
Proof.
  pose proof E_bounds. unfold F'. split.
  - apply rnd64_pos. apply Rmult_le_pos; [lra|]. left; apply Rinv_0_lt_compat; lra.
  - apply rnd64_le_fmt; [apply one_format|].
    apply Rmult_le_reg_r with E'; [lra|]. unfold Rdiv. rewrite Rmult_assoc, Rinv_l by lra. lra.
Qed.

(** [F'] is nearly the inverse of the extent. *)
Lemma F_err : Rabs (F' * e - 1) <= 4 * u.
Proof.
  pose proof E_bounds as EB. pose proof e_bounds as B. pose proof u_pos as U.
  assert (X : / 2147483648 <= 1 / E' <= 1).
  { split; apply Rmult_le_reg_r with E'; try lra; unfold Rdiv; rewrite Rmult_assoc, Rinv_l by lra; lra. }
  assert (Y : Rabs (F' - 1 / E') <= u * (1 / E')).
  { apply rnd64_rel; [|apply tiny; lra]. rewrite Rabs_pos_eq; lra. }
  pose proof E_err as Z. apply Rabs_le_inv in Y. apply Rabs_le_inv in Z.
  assert (Q : 1 / E' * E' = 1) by (field; lra).
  set (q := 1 / E') in *.
  assert (G : Rabs (q * e - 1) <= 2 * u).
  { replace (q * e - 1) with (q * (e - E')) by lra. rewrite Rabs_mult, (Rabs_pos_eq q) by lra.
    assert (A : Rabs (e - E') <= 2 * u * E').
    { apply Rabs_le. assert (e <= E' + u * e) by lra. assert (e * (1 - u) <= E') by lra.
      assert (e <= 2 * E') by nra. nra. }
    apply Rle_trans with (q * (2 * u * E')); [apply Rmult_le_compat_l; lra|]. nra. }
  apply Rabs_le_inv in G. apply Rabs_le.
  assert (H : q * e <= 2) by lra. assert (H0 : 0 <= q * e) by nra.
  assert (u * (q * e) <= u * 2) by (apply Rmult_le_compat_l; lra).
  assert (F' * e <= (q + u * q) * e) by (apply Rmult_le_compat_r; lra).
  assert ((q - u * q) * e <= F' * e) by (apply Rmult_le_compat_r; lra).
  nra.
Qed.

Lemma c_bounds : 0 < c < NR s.
Proof. apply centre_bounds; auto. Qed.

Lemma C_err : Rabs (C' - c) <= 3 * u * c.
Proof.
  pose proof I_err as H. pose proof u_pos as U. pose proof c_bounds as CB.
  assert (L : / 4294967296 <= c).
  { unfold c, centre. pose proof ratio_low. nra. }
  assert (A : Rabs (mid o * I' - c) <= u * c).
  { unfold c, centre. rewrite <- Rmult_minus_distr_l, Rabs_mult, (Rabs_pos_eq (mid o)) by lra.
    apply Rle_trans with (mid o * (u * (NR s / NR n))); [apply Rmult_le_compat_l; lra|lra]. }
  assert (B : Rabs (C' - mid o * I') <= u * (2 * c)).
  { apply rnd64_rel; [|apply tiny; lra]. apply Rabs_le_inv in A. apply Rabs_le.
    assert (u * c <= / 2 * c) by (apply Rmult_le_compat_r; lra). lra. }
  apply Rabs_le_inv in A. apply Rabs_le_inv in B. apply Rabs_le. lra.
Qed.

(** Rounding moves the centre by less than 2^-20 of a sample. *)
Lemma C_near : Rabs (C' - c) <= / 1048576.
Proof.
  eapply Rle_trans; [apply C_err|]. pose proof c_bounds. pose proof u_val as ->.
  assert (c <= 2147483647) by lra. lra.
Qed.

Lemma center_is : is (@center D s n o) C'.
Proof.
  unfold center. apply mul_is.
  - replace (mid o) with (rnd64 (NR o + / 2)).
    + apply add_is; [apply ofN_is; lia|apply half_is|].
      eapply Rle_trans; [|apply big]. unfold mid in O1. rewrite Rabs_pos_eq; lra.
    + apply rnd64_format. apply (mid_format o). lia.
  - apply invScale_is.
  - eapply Rle_trans; [|apply big]. pose proof I_low. pose proof I_high.
    rewrite Rabs_pos_eq by nra. apply Rmult_le_compat; lra.
Qed.

(** The centre is inside the axis. *)
Lemma C_bounds : 0 < C' < NR s.
Proof.
  pose proof C_err as H. pose proof c_bounds as CB. pose proof u_val as UV. apply Rabs_le_inv in H. split.
  - rewrite UV in H. nra.
  - assert (X : c <= NR s - / 2 * (NR s / NR n)).
    { unfold c, centre. apply Rle_trans with ((NR n - / 2) * (NR s / NR n)).
      - apply Rmult_le_compat_r; [pose proof ratio_low; lra|lra].
      - right. field. lra. }
    assert (Y : 3 * u * c < / 2 * (NR s / NR n)).
    { apply Rlt_le_trans with (/ 4294967298 * NR s).
      - rewrite UV. nra.
      - unfold Rdiv. rewrite (Rmult_comm (NR s)), <- Rmult_assoc.
        apply Rmult_le_compat_r; [lra|]. 
        rewrite <- Rinv_mult. apply Rinv_le; nra. }
    lra.
Qed.

Lemma C_format : generic_format radix2 (FLT_exp (-1074) 53) C'.
Proof. apply (is_format _ _ center_is). Qed.

(** The sample that contains the centre. *)
Definition under : N := Z.to_N (Zfloor C').
Lemma under_ok : (under < s)%N /\ NR under <= C' < NR under + 1.
Proof.
  pose proof C_bounds as C. pose proof (Zfloor_lb C') as L. pose proof (Zfloor_ub C') as U.
  assert (F : (0 <= Zfloor C')%Z) by (apply Zfloor_lub; simpl; lra).
  assert (G : (Zfloor C' < Z.of_N s)%Z).
  { apply lt_IZR. fold (NR s). lra. }
  unfold under, NR. rewrite Z2N.id by auto. split; [lia|]. lra.
Qed.

(** ** The window.  [r] is the extent, or half of it. *)

Variables (rd : num D) (r' r : R).
Hypothesis Hrd : is rd r'.
Hypothesis Hr' : / 2 <= r' <= E'.
Hypothesis Hr : Rabs (r' - r) <= u * e.

Definition Z1 : R := rnd64 (rnd64 (C' - r') + / 2).
Definition Z2 : R := rnd64 (rnd64 (C' + r') + / 2).

Lemma r_near : Rabs (r' - r) <= / 4194304.
Proof. eapply Rle_trans; [exact Hr|]. pose proof e_bounds. rewrite u_val. lra. Qed.

Lemma Z1_near : Rabs (Z1 - (c - r + / 2)) <= / 262144.
Proof.
  pose proof C_near as A. pose proof r_near as B. pose proof C_bounds. pose proof E_bounds.
  apply Rabs_le_inv in A. apply Rabs_le_inv in B.
  assert (X : Rabs (rnd64 (C' - r') - (C' - r')) <= / 4194304).
  { apply Rle_trans with (bpow radix2 (31 - 53)); [apply rnd64_err; [lia|]|simpl; lra].
    simpl (bpow radix2 31). apply Rabs_le. lra. }
  apply Rabs_le_inv in X.
  assert (Y : Rabs (Z1 - (rnd64 (C' - r') + / 2)) <= / 2097152).
  { apply Rle_trans with (bpow radix2 (32 - 53)); [apply rnd64_err; [lia|]|simpl; lra].
    simpl (bpow radix2 32). apply Rabs_le. lra. }
  apply Rabs_le_inv in Y. apply Rabs_le. lra.
Qed.

Lemma Z2_near : Rabs (Z2 - (c + r + / 2)) <= / 262144.
Proof.
  pose proof C_near as A. pose proof r_near as B. pose proof C_bounds. pose proof E_bounds.
  apply Rabs_le_inv in A. apply Rabs_le_inv in B.
  assert (X : Rabs (rnd64 (C' + r') - (C' + r')) <= / 2097152).
  { apply Rle_trans with (bpow radix2 (32 - 53)); [apply rnd64_err; [lia|]|simpl; lra].
    simpl (bpow radix2 32). apply Rabs_le. lra. }
  apply Rabs_le_inv in X.
  assert (Y : Rabs (Z2 - (rnd64 (C' + r') + / 2)) <= / 1048576).
  { apply Rle_trans with (bpow radix2 (33 - 53)); [apply rnd64_err; [lia|]|simpl; lra].
    simpl (bpow radix2 33). apply Rabs_le. lra. }
  apply Rabs_le_inv in Y. apply Rabs_le. lra.
Qed.

Lemma Z1_is : is (nadd D (nsub D (@center D s n o) rd) (@half D)) Z1.
Proof.
  pose proof C_bounds. pose proof E_bounds.
  assert (S : is (nsub D (@center D s n o) rd) (rnd64 (C' - r'))).
  { apply sub_is; [apply center_is|exact Hrd|].
    eapply Rle_trans; [|apply big]. apply Rabs_le. lra. }
  apply add_is; [exact S|apply half_is|].
  assert (Rabs (rnd64 (C' - r')) <= bpow radix2 31).
  { apply rnd64_bound; [lia|]. simpl. apply Rabs_le. lra. }
  eapply Rle_trans; [|apply big]. simpl in H1. apply Rabs_le_inv in H1. apply Rabs_le. lra.
Qed.

Lemma Z2_is : is (nadd D (nadd D (@center D s n o) rd) (@half D)) Z2.
Proof.
  pose proof C_bounds. pose proof E_bounds.
  assert (S : is (nadd D (@center D s n o) rd) (rnd64 (C' + r'))).
  { apply add_is; [apply center_is|exact Hrd|].
    eapply Rle_trans; [|apply big]. apply Rabs_le. lra. }
  apply add_is; [exact S|apply half_is|].
  assert (Rabs (rnd64 (C' + r')) <= bpow radix2 32).
  { apply rnd64_bound; [lia|]. simpl. apply Rabs_le. lra. }
  eapply Rle_trans; [|apply big]. simpl in H1. apply Rabs_le_inv in H1. apply Rabs_le. lra.
Qed.

Lemma r_bounds : 0 < r <= 2147483648.
Proof.
  pose proof r_near as B. apply Rabs_le_inv in B. pose proof E_bounds. lra.
Qed.

Lemma Z1_under : Z1 < NR under + 1 /\ (Z1 <= / 2 \/ Z1 <= C').
Proof.
  pose proof C_bounds as C. destruct under_ok as [_ [U1 U2]].
  destruct (Rle_dec (/ 2) C') as [L|L].
  - assert (X : Z1 <= C').
    { unfold Z1. apply rnd64_le_fmt; [apply C_format|].
      assert (rnd64 (C' - r') <= C' - / 2); [|lra].
      apply rnd64_le_fmt; [apply minus_half_format; [apply C_format|lra]|lra]. }
    split; [lra|auto].
  - assert (X : Z1 <= / 2).
    { unfold Z1. apply rnd64_le_fmt; [apply half_format|].
      assert (rnd64 (C' - r') <= 0); [|lra].
      apply rnd64_le_fmt; [apply zero_format|lra]. }
    split; [pose proof (NR_nonneg under); lra|auto].
Qed.

Lemma Z2_under : NR under + 1 <= Z2.
Proof.
  destruct under_ok as [U0 [U1 U2]].
  replace (NR under + 1) with (rnd64 (NR under + 1)).
  - unfold Z2. apply rnd64_le.
    assert (mid under <= rnd64 (C' + r')); [|unfold mid in *; lra].
    apply rnd64_ge_fmt; [apply mid_format; lia|]. unfold mid. lra.
  - unfold NR. rewrite <- plus_IZR. apply rnd64_int. lia.
Qed.

(** The window: it holds the sample under the centre, and differs from the exact one by samples
    at most 2^-18 from its ends. *)
Lemma window_is : exists a b,
  @firstSample D (@center D s n o) rd = Some a /\ @lastSample D (@center D s n o) rd s = Some b /\
  (a <= under < b)%N /\ (b <= s)%N /\ NR (b - a) <= 2 * r + 1 + / 131072 /\
  (forall i, (i < s)%N -> (i < a \/ b <= i)%N -> r - / 262144 <= Rabs (mid i - c)).
Proof.
  pose proof Z1_near as A1. pose proof Z2_near as A2. pose proof c_bounds as CB. pose proof r_bounds as RB.
  apply Rabs_le_inv in A1. apply Rabs_le_inv in A2.
  destruct under_ok as [U0 [U1 U2]]. destruct Z1_under as [X1 _]. pose proof Z2_under as X2.
  unfold firstSample, lastSample, toInt. rewrite (trunc_is _ _ Z1_is), (trunc_is _ _ Z2_is).
  unfold cast_int.
  assert (T1 : (- 2 ^ 31 <= Ztrunc Z1 <= 2 ^ 31 - 1)%Z).
  { split.
    - change (- 2 ^ 31)%Z with (-2147483648)%Z. rewrite <- (Ztrunc_IZR (-2147483648)). apply Ztrunc_le.
      pose proof E_bounds. pose proof r_near as B. apply Rabs_le_inv in B. lra.
    - apply Z.le_trans with (Z.of_N under); [|lia].
      destruct (Rle_dec 0 Z1) as [P|P].
      + rewrite Ztrunc_floor by lra. apply Zlt_succ_le. apply lt_IZR. unfold Z.succ. rewrite plus_IZR.
        eapply Rle_lt_trans; [apply Zfloor_lb|exact X1].
      + rewrite Ztrunc_ceil by lra. apply Z.le_trans with 0%Z; [|lia]. apply Zceil_glb. simpl. lra. }
  assert (P2 : 0 <= Z2) by (pose proof (NR_nonneg under); lra).
  assert (T2 : (0 <= Ztrunc Z2 <= 2 ^ 32 - 1)%Z).
  { rewrite Ztrunc_floor by lra. split; [apply Zfloor_lub; simpl; lra|].
    apply Zlt_succ_le. change (Z.succ (2 ^ 32 - 1)) with 4294967296%Z.
    apply lt_IZR. eapply Rle_lt_trans; [apply Zfloor_lb|].
    pose proof E_bounds. pose proof r_near as B. apply Rabs_le_inv in B. lra. }
  replace ((- 2 ^ 31 <=? Ztrunc Z1) && (Ztrunc Z1 <=? 2 ^ 31 - 1))%Z with true by lia.
  replace ((0 <=? Ztrunc Z2) && (Ztrunc Z2 <=? 2 ^ 32 - 1))%Z with true by lia.
  cbn [obind]. rewrite (Ztrunc_floor Z2) in T2 |- * by lra.
  set (a := Z.to_N (Z.max (Ztrunc Z1) 0)). set (b := N.min (Z.to_N (Zfloor Z2)) s).
  (* facts about a *)
  assert (HA : (a <= under)%N /\ NR a <= Rmax Z1 0 /\ Z1 < NR a + 1).
  { unfold a. destruct (Rle_dec 0 Z1) as [P|P].
    - rewrite Ztrunc_floor by lra. pose proof (Zfloor_lb Z1) as L. pose proof (Zfloor_ub Z1) as U.
      assert (Z0 : (0 <= Zfloor Z1)%Z) by (apply Zfloor_lub; simpl; lra).
      rewrite Z.max_l by lia. unfold NR. rewrite Z2N.id by lia. split; [|split].
      + assert (Zfloor Z1 <= Z.of_N under)%Z; [|lia]. apply Zlt_succ_le. apply lt_IZR. unfold Z.succ.
        rewrite plus_IZR. eapply Rle_lt_trans; [exact L|exact X1].
      + eapply Rle_trans; [exact L|apply Rmax_l].
      + lra.
    - rewrite Ztrunc_ceil by lra.
      assert (Z0 : (Zceil Z1 <= 0)%Z) by (apply Zceil_glb; simpl; lra).
      rewrite Z.max_r by lia. change (Z.to_N 0) with 0%N. split; [lia|]. split; [apply Rmax_r|].
      unfold NR. simpl. lra. }
  destruct HA as (HA1 & HA2 & HA3).
  pose proof (Zfloor_lb Z2) as L2. pose proof (Zfloor_ub Z2) as B2.
  assert (F2 : (0 <= Zfloor Z2)%Z) by (apply Zfloor_lub; simpl; lra).
  assert (UB : (under < b)%N).
  { unfold b. apply N.min_glb_lt; [|exact U0].
    assert (Z.of_N under + 1 <= Zfloor Z2)%Z; [|lia]. apply Zfloor_lub. rewrite plus_IZR. exact X2. }
  assert (BZ : NR b <= Z2).
  { eapply Rle_trans; [|exact L2]. unfold NR. apply IZR_le. unfold b. lia. }
  exists a, b. split; [reflexivity|]. split; [reflexivity|]. split; [lia|]. split; [unfold b; lia|]. split.
  - assert (NR (b - a) = NR b - NR a).
    { unfold NR. rewrite N2Z.inj_sub by lia. apply minus_IZR. }
    rewrite H. lra.
  - intros i Hi [H|H].
    + assert (Q : NR i + 1 <= NR a) by (apply NR_lt; auto).
      assert (Z0 : NR i + 1 <= Z1).
      { revert HA2. unfold Rmax. destruct (Rle_dec Z1 0); pose proof (NR_nonneg i); lra. }
      rewrite <- Rabs_Ropp. eapply Rle_trans; [|apply Rle_abs]. unfold mid. lra.
    + assert (Q : Z2 < NR i + 1).
      { assert (G : (Zfloor Z2 <= Z.of_N i)%Z) by (unfold b in H; lia). apply IZR_le in G. unfold NR. lra. }
      eapply Rle_trans; [|apply Rle_abs]. unfold mid. lra.
Qed.

End Axis.

(** ** Distances and weights *)

Section Weights.
Variables s n o : N.
Hypothesis Hs : (0 < s < 2 ^ 31)%N.
Hypothesis Hn : (0 < n < 2 ^ 31)%N.
Hypothesis Ho : (o < n)%N.

Let c := centre s n o.
Let e := extent s n.

Definition D' (i : N) : R := rnd64 (Rabs (rnd64 (mid i - C' s n o)) * F' s n).

Lemma distance_is i : (i < s)%N ->
  is (@distance D (@center D s n o) (@filterScale D s n) i) (D' i).
Proof.
  intros Hi. pose proof (C_bounds s n o Hs Hn Ho) as C. pose proof (F_range s n o Hs Hn Ho) as F.
  pose proof (NR_below s ltac:(lia)). pose proof (NR_lt i s Hi). pose proof (NR_nonneg i).
  assert (B : Rabs (mid i - C' s n o) <= bpow radix2 31).
  { simpl. unfold mid. apply Rabs_le. lra. }
  unfold distance. apply mul_is; [apply abs_is|apply (filterScale_is s n o); auto|].
  - apply sub_is; [|apply center_is; auto|].
    + replace (mid i) with (rnd64 (NR i + / 2)).
      * apply add_is; [apply ofN_is; lia|apply half_is|].
        eapply Rle_trans; [|apply big]. apply Rabs_le. lra.
      * apply rnd64_format. apply (mid_format i). lia.
    + eapply Rle_trans; [exact B|]. apply bpow_le. lia.
  - apply rnd64_bound in B; [|lia]. simpl in B. rewrite Rabs_mult, Rabs_Rabsolu, (Rabs_pos_eq (F' s n)) by lra.
    eapply Rle_trans; [|apply big]. pose proof (Rabs_pos (rnd64 (mid i - C' s n o))). nra.
Qed.

(** The computed distance, in extents, is within 2^-18 samples of the exact one. *)
Lemma D_near i : (i < s)%N -> 0 <= D' i /\ Rabs (D' i * e - Rabs (mid i - c)) <= / 349525.
Proof.
  intros Hi. pose proof (C_bounds s n o Hs Hn Ho) as C. pose proof (F_range s n o Hs Hn Ho) as F.
  pose proof (NR_below s ltac:(lia)). pose proof (NR_lt i s Hi). pose proof (NR_nonneg i).
  pose proof (e_bounds s n o Hs Hn Ho) as EB. fold e in EB.
  split. { apply rnd64_pos. apply Rmult_le_pos; [apply Rabs_pos|lra]. }
  set (x := Rabs (rnd64 (mid i - C' s n o))) in *. set (t := Rabs (mid i - c)).
  assert (X : Rabs (x - t) <= / 838860).
  { assert (A : Rabs (rnd64 (mid i - C' s n o) - (mid i - C' s n o)) <= / 4194304).
    { apply Rle_trans with (bpow radix2 (31 - 53)); [apply rnd64_err; [lia|]|simpl; lra].
      simpl (bpow radix2 31). unfold mid. apply Rabs_le. lra. }
    pose proof (C_near s n o Hs Hn Ho) as B. fold c in B.
    eapply Rle_trans; [apply Rabs_triang_inv2|].
    replace (rnd64 (mid i - C' s n o) - (mid i - c))
      with ((rnd64 (mid i - C' s n o) - (mid i - C' s n o)) + - (C' s n o - c)) by lra.
    eapply Rle_trans; [apply Rabs_triang|]. rewrite Rabs_Ropp. lra. }
  assert (XB : 0 <= x <= 2147483648).
  { split; [apply Rabs_pos|]. replace 2147483648 with (bpow radix2 31) by reflexivity.
    apply rnd64_bound; [lia|]. simpl. unfold mid. apply Rabs_le. lra. }
  pose proof (F_err s n o Hs Hn Ho) as FE. fold e in FE. rewrite u_val in FE.
  (* product *)
  assert (P : Rabs (D' i * e - x * F' s n * e) <= / 2000000).
  { assert (FX : F' s n * e <= 2) by (apply Rabs_le_inv in FE; lra).
    rewrite <- Rmult_minus_distr_r, Rabs_mult, (Rabs_pos_eq e) by lra.
    assert (E2 : Rabs (D' i - x * F' s n) <= u * (x * F' s n + / 1024)).
    { apply rnd64_rel.
      - rewrite Rabs_pos_eq by (apply Rmult_le_pos; lra). lra.
      - apply (tiny s n o Hs Hn Ho). assert (0 <= x * F' s n) by (apply Rmult_le_pos; lra). lra. }
    rewrite u_val in E2.
    apply Rle_trans with (/ 9007199254740992 * (x * F' s n + / 1024) * e).
    + apply Rmult_le_compat_r; [lra|exact E2].
    + replace (/ 9007199254740992 * (x * F' s n + / 1024) * e)
        with (/ 9007199254740992 * (x * (F' s n * e) + / 1024 * e)) by ring.
      assert (x * (F' s n * e) <= 2147483648 * 2).
      { apply Rmult_le_compat; try lra. apply Rmult_le_pos; lra. }
      assert (e <= 2147483648) by lra. lra. }
  assert (Q : Rabs (x * F' s n * e - x) <= / 1048576).
  { replace (x * F' s n * e - x) with (x * (F' s n * e - 1)) by ring.
    rewrite Rabs_mult, (Rabs_pos_eq x) by lra.
    apply Rle_trans with (2147483648 * (4 * / 9007199254740992)).
    - apply Rmult_le_compat; try lra. apply Rabs_pos.
    - lra. }
  apply Rabs_le_inv in X. apply Rabs_le_inv in P. apply Rabs_le_inv in Q. apply Rabs_le. lra.
Qed.

Lemma outside_is i : (i < s)%N ->
  @outsideBox D (@center D s n o) (@filterScale D s n) i = Rlt_bool (/ 2) (D' i).
Proof. intros Hi. unfold outsideBox. apply ltb_is; [apply half_is|apply distance_is; auto]. Qed.

Lemma outside_far i : (i < s)%N ->
  @outsideBox D (@center D s n o) (@filterScale D s n) i = true ->
  e / 2 - / 262144 <= Rabs (mid i - c).
Proof.
  intros Hi H. rewrite outside_is in H by auto. destruct (Rlt_bool_spec (/ 2) (D' i)) as [L|]; [|discriminate].
  destruct (D_near i Hi) as [_ N]. apply Rabs_le_inv in N.
  pose proof (e_bounds s n o Hs Hn Ho) as EB. fold e in EB.
  assert (/ 2 * e <= D' i * e) by (apply Rmult_le_compat_r; lra). lra.
Qed.

Lemma inside_near i : (i < s)%N ->
  @outsideBox D (@center D s n o) (@filterScale D s n) i = false ->
  Rabs (mid i - c) <= e / 2 + / 262144.
Proof.
  intros Hi H. rewrite outside_is in H by auto. destruct (Rlt_bool_spec (/ 2) (D' i)) as [|L]; [discriminate|].
  destruct (D_near i Hi) as [_ N]. apply Rabs_le_inv in N.
  pose proof (e_bounds s n o Hs Hn Ho) as EB. fold e in EB.
  assert (D' i * e <= / 2 * e) by (apply Rmult_le_compat_r; lra). lra.
Qed.

Lemma under_inside : D' (under s n o) <= / 2.
Proof.
  destruct (under_ok s n o Hs Hn Ho) as [U0 [U1 U2]]. pose proof (F_range s n o Hs Hn Ho) as F.
  unfold D'. apply rnd64_le_fmt; [apply half_format|].
  assert (A : Rabs (rnd64 (mid (under s n o) - C' s n o)) <= bpow radix2 (-1)).
  { apply rnd64_bound; [lia|]. simpl. unfold mid. apply Rabs_le. lra. }
  simpl in A. pose proof (Rabs_pos (rnd64 (mid (under s n o) - C' s n o))).
  apply Rle_trans with (/ 2 * 1); [apply Rmult_le_compat; lra|lra].
Qed.

Lemma under_not_outside : @outsideBox D (@center D s n o) (@filterScale D s n) (under s n o) = false.
Proof.
  destruct (under_ok s n o Hs Hn Ho) as [U0 _]. rewrite outside_is by auto.
  apply Rlt_bool_false. apply under_inside.
Qed.

Definition W' (i : N) : R := Rmax (rnd64 (1 - D' i)) 0.

Lemma linearScale_is i : (i < s)%N ->
  is (@linearScale D (@center D s n o) (@filterScale D s n) i) (W' i).
Proof.
  intros Hi. unfold linearScale. apply max_is; [|apply (lit_is 0); lia].
  apply sub_is; [apply (lit_is 1); lia|apply distance_is; auto|].
  destruct (D_near i Hi) as [P N]. apply Rabs_le_inv in N. pose proof (e_bounds s n o Hs Hn Ho) as EB. fold e in EB.
  pose proof (NR_below s ltac:(lia)). pose proof (NR_lt i s Hi). pose proof (NR_nonneg i).
  pose proof (c_bounds s n o Hs Hn Ho) as CB. fold c in CB.
  assert (T : Rabs (mid i - c) <= 2147483648) by (unfold mid; apply Rabs_le; lra).
  assert (D' i <= D' i * e) by nra.
  eapply Rle_trans; [|apply big]. apply Rabs_le. lra.
Qed.

Lemma W_range i : 0 <= W' i <= 1.
Proof.
  unfold W'. split; [apply Rmax_r|]. apply Rmax_lub; [|lra]. apply rnd64_le_fmt; [apply one_format|].
  assert (0 <= D' i); [|lra]. pose proof (F_range s n o Hs Hn Ho).
  apply rnd64_pos. apply Rmult_le_pos; [apply Rabs_pos|lra].
Qed.

(** The computed weight is within 2^-18 of the exact one. *)
Lemma W_near i : (i < s)%N -> Rabs (W' i - tent s n o i) <= / 262144.
Proof.
  intros Hi. destruct (D_near i Hi) as [P N]. pose proof (e_bounds s n o Hs Hn Ho) as EB. fold e in EB.
  set (t := Rabs (mid i - c)) in *.
  assert (Q : Rabs (D' i - t / e) <= / 349525).
  { replace (D' i - t / e) with ((D' i * e - t) / e) by (field; lra).
    unfold Rdiv. rewrite Rabs_mult, (Rabs_pos_eq (/ e)) by (left; apply Rinv_0_lt_compat; lra).
    apply Rle_trans with (/ 349525 * 1); [|lra]. apply Rmult_le_compat; try lra.
    - apply Rabs_pos.
    - left; apply Rinv_0_lt_compat; lra.
    - rewrite <- Rinv_1. apply Rinv_le; lra. }
  apply Rabs_le_inv in Q. unfold W', tent. fold c e. fold t.
  destruct (Rle_dec (D' i) 1) as [L|L].
  - assert (R : Rabs (rnd64 (1 - D' i) - (1 - D' i)) <= / 9007199254740992).
    { apply Rle_trans with (bpow radix2 (0 - 53)); [apply rnd64_err; [lia|]|simpl; lra].
      simpl. apply Rabs_le. lra. }
    apply Rabs_le_inv in R. apply Rabs_le. unfold Rmax. repeat destruct Rle_dec; lra.
  - rewrite Rmax_right.
    + apply Rabs_le. unfold Rmax. destruct Rle_dec; lra.
    + apply rnd64_le_fmt; [apply zero_format|lra].
Qed.

Lemma W_under : / 2 <= W' (under s n o).
Proof.
  unfold W'. eapply Rle_trans; [|apply Rmax_l]. apply rnd64_ge_fmt; [apply half_format|]. pose proof under_inside. lra.
Qed.

(** A weight that is not zero is at least 2^-53. *)
Lemma W_low i : (i < s)%N -> W' i <> 0 -> u <= W' i.
Proof.
  intros Hi NZ. pose proof (W_range i) as WR.
  assert (L : D' i < 1).
  { destruct (Rlt_dec (D' i) 1); auto. exfalso. apply NZ. unfold W'. apply Rmax_right.
    apply rnd64_le_fmt; [apply zero_format|lra]. }
  unfold W'. eapply Rle_trans; [|apply Rmax_l].
  unfold u. rewrite <- (rnd64_bpow (-53)) by lia. apply rnd64_le.
  destruct (D_near i Hi) as [P _].
  destruct (Rle_dec (/ 2) (D' i)) as [H|H].
  - pose proof (is_format _ _ (distance_is i Hi)) as G.
    destruct (format_grid (D' i) (-53) G ltac:(lia)) as (z & E).
    { rewrite Rabs_pos_eq by lra. simpl. lra. }
    rewrite E in L |- *. simpl in L |- *.
    assert (Z1 : (z < 9007199254740992)%Z) by (apply lt_IZR; lra).
    assert (Z2 : IZR z <= IZR 9007199254740991) by (apply IZR_le; lia). lra.
  - simpl. lra.
Qed.

End Weights.

End Pow.

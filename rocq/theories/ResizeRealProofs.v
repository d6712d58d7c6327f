(** The resampling formulas over the real numbers: the samples the loops visit are those of the
    specification, and the results are the weighted averages. *)

From Coq Require Import ZArith NArith List Bool Lia Reals Lra Permutation.
From Coq Require Import ZifyBool ZifyNat ZifyN.
From Flocq Require Import Core.
From Verif Require Import Base FormatModel FloatModel FloatSpec ArithModel ArithReal TextureModel
  ImageModel ImageLoops ResizeModel ResizeSpec ResizeLoops.
Import ListNotations.
Local Open Scope R_scope.

Local Notation RA := real_arith.

(** * Sums *)

Definition sum {K} (f : K -> R) (l : list K) : R := fold_right Rplus 0 (map f l).

Lemma total_sum n f : total n f = sum f (Nrange n).
Proof. reflexivity. Qed.

Lemma acc_sum_real {K} (v : K -> R) (l : list K) : @acc_sum RA K v l = sum v l.
Proof.
  unfold acc_sum, sum. cbn [nadd real_arith]. unfold lit. cbn [ofZ real_arith].
  assert (G : forall a, fold_left (fun a k => a + v k) l a = a + fold_right Rplus 0 (map v l)).
  { induction l as [|k l IH]; intros a; simpl; [lra|]. rewrite IH. lra. }
  rewrite G. lra.
Qed.

Lemma sum_ext {K} (f g : K -> R) l : (forall k, In k l -> f k = g k) -> sum f l = sum g l.
Proof.
  induction l as [|k l IH]; intros H; simpl; [reflexivity|]. unfold sum in *. simpl.
  rewrite H by (left; auto). rewrite IH by (intros; apply H; right; auto). reflexivity.
Qed.

Lemma sum_app {K} (f : K -> R) l l' : sum f (l ++ l') = sum f l + sum f l'.
Proof. unfold sum. induction l; simpl; lra. Qed.

Lemma sum_scale {K} (f : K -> R) c l : sum (fun k => f k * c) l = sum f l * c.
Proof. unfold sum. induction l; simpl; lra. Qed.

Lemma sum_scale_l {K} (f : K -> R) c l : sum (fun k => c * f k) l = c * sum f l.
Proof. unfold sum. induction l; simpl; lra. Qed.

Lemma sum_le {K} (f g : K -> R) l : (forall k, In k l -> f k <= g k) -> sum f l <= sum g l.
Proof.
  unfold sum. induction l as [|k l IH]; intros H; simpl; [lra|].
  pose proof (H k (or_introl eq_refl)). specialize (IH (fun k I => H k (or_intror I))). lra.
Qed.

Lemma sum_nonneg {K} (f : K -> R) l : (forall k, In k l -> 0 <= f k) -> 0 <= sum f l.
Proof.
  unfold sum. induction l as [|k l IH]; intros H; simpl; [lra|].
  pose proof (H k (or_introl eq_refl)). specialize (IH (fun k I => H k (or_intror I))). lra.
Qed.

Lemma sum_member {K} (f : K -> R) l k : (forall k, In k l -> 0 <= f k) -> In k l -> f k <= sum f l.
Proof.
  induction l as [|a l IH]; intros H I; [destruct I|]. unfold sum in *. simpl.
  destruct I as [->|I].
  - pose proof (sum_nonneg f l (fun k I => H k (or_intror I))). unfold sum in *. lra.
  - pose proof (H a (or_introl eq_refl)). specialize (IH (fun k I => H k (or_intror I)) I). lra.
Qed.

Lemma sum_one {K} (l : list K) : sum (fun _ => 1) l = NR (N.of_nat (length l)).
Proof.
  unfold sum, NR. induction l as [|k l IH]; simpl length; [reflexivity|]. simpl map. simpl fold_right.
  rewrite IH. replace (Z.of_N (N.of_nat (S (length l)))) with (1 + Z.of_N (N.of_nat (length l)))%Z by lia.
  rewrite plus_IZR. reflexivity.
Qed.

Lemma sum_perm {K} (f : K -> R) l l' : Permutation l l' -> sum f l = sum f l'.
Proof. unfold sum. induction 1; simpl; lra. Qed.

Lemma sum_filter {K} (f : K -> R) p l :
  sum f (filter p l) = sum (fun k => if p k then f k else 0) l.
Proof. unfold sum. induction l as [|k l IH]; simpl; [reflexivity|]. destruct (p k); simpl; lra. Qed.

(** A sum over some of the first [s] numbers, as a sum over all of them. *)
Lemma sum_some (f g : N -> R) s l :
  NoDup l -> (forall i, In i l -> (i < s)%N /\ g i = f i) ->
  (forall i, (i < s)%N -> ~ In i l -> g i = 0) ->
  sum f l = total s g.
Proof.
  intros ND H1 H2. rewrite total_sum.
  set (p := fun i => existsb (N.eqb i) l).
  assert (P : forall i, p i = true <-> In i l).
  { intros i. unfold p. rewrite existsb_exists. split.
    - intros (j & I & E). apply N.eqb_eq in E. subst; auto.
    - intros I. exists i. split; auto. apply N.eqb_refl. }
  assert (PM : Permutation l (filter p (Nrange s))).
  { apply NoDup_Permutation; auto. { apply NoDup_filter, NoDup_Nrange. }
    intros i. rewrite filter_In, in_Nrange, P. split; [|tauto].
    intros I. split; auto. apply H1; auto. }
  rewrite (sum_perm f _ _ PM), sum_filter. apply sum_ext. intros i I. apply in_Nrange in I.
  destruct (p i) eqn:E.
  - symmetry. apply H1. apply P; auto.
  - symmetry. apply H2; auto. rewrite <- P, E. discriminate.
Qed.

(** Sums over pairs. *)
Lemma sum_window2 (f : N -> N -> R) p q a b c d :
  sum (fun k => f (fst k) (snd k)) (window2 p q a b c d)
  = sum (fun i => sum (fun j => f i j) (keep q c d)) (keep p a b).
Proof.
  unfold window2. induction (keep p a b) as [|i l IH]; [reflexivity|].
  cbn [flat_map]. rewrite sum_app, IH. unfold sum at 3. cbn [map fold_right].
  f_equal. unfold sum. rewrite map_map. reflexivity.
Qed.

(** * Windows *)

Lemma NR_lt a b : (a < b)%N -> NR a + 1 <= NR b.
Proof.
  intros. unfold NR. change 1 with (IZR 1). rewrite <- plus_IZR. apply IZR_le. lia.
Qed.

Lemma NR_pos n : (0 < n)%N -> 1 <= NR n.
Proof. intros. unfold NR. change 1 with (IZR 1). apply IZR_le. lia. Qed.

Lemma NR_nonneg n : 0 <= NR n.
Proof. unfold NR. apply IZR_le. lia. Qed.

Lemma half_real : @half RA = / 2.
Proof.
  unfold half, dec. cbn [ofZ ndiv real_arith].
  change (IZR (10 ^ 1)) with 10. lra.
Qed.

Lemma invScale_real s n : @invScale RA s n = NR s / NR n.
Proof. reflexivity. Qed.

Lemma center_real s n o : @center RA s n o = centre s n o.
Proof. unfold center. rewrite half_real. reflexivity. Qed.

Lemma offset_real s n : @offset RA s n = extent s n.
Proof.
  unfold offset, nmax, extent. rewrite invScale_real. unfold lit.
  cbn [nltb ofZ real_arith]. unfold Rmax.
  destruct (Rlt_bool_spec (NR s / NR n) 1), Rle_dec; lra.
Qed.

Lemma extent_ge s n : 1 <= extent s n.
Proof. apply Rmax_r. Qed.

Lemma distance_real c s n i :
  @distance RA c (@filterScale RA s n) i = Rabs (mid i - c) / extent s n.
Proof.
  unfold distance, filterScale. rewrite half_real, offset_real. unfold ofN, lit.
  cbn [nabs nmul nsub nadd ndiv ofZ real_arith]. unfold mid, NR. lra.
Qed.

Lemma linearScale_real c s n i :
  @linearScale RA c (@filterScale RA s n) i = Rmax 0 (1 - Rabs (mid i - c) / extent s n).
Proof.
  unfold linearScale, nmax. rewrite distance_real. unfold lit. cbn [nltb nsub ofZ real_arith].
  unfold Rmax.
  destruct (Rlt_bool_spec (1 - Rabs (mid i - c) / extent s n) 0), Rle_dec; lra.
Qed.

Lemma isZero_real x : @isZero RA x = true <-> x = 0.
Proof.
  unfold isZero, lit. cbn [nleb ofZ real_arith].
  destruct (Rle_bool_spec x 0), (Rle_bool_spec 0 x); simpl; split; intros; try discriminate; lra.
Qed.

Lemma outsideBox_real c s n i :
  @outsideBox RA c (@filterScale RA s n) i = true <-> extent s n / 2 < Rabs (mid i - c).
Proof.
  unfold outsideBox. rewrite distance_real, half_real. cbn [nltb real_arith].
  pose proof (extent_ge s n) as E. set (e := extent s n) in *. set (d := Rabs _).
  assert (Q : d / e * e = d) by (field; lra).
  destruct (Rlt_bool_spec (/ 2) (d / e)) as [H|H]; split; intros G; try discriminate; auto.
  - apply Rmult_lt_compat_r with (r := e) in H; lra.
  - apply Rmult_le_compat_r with (r := e) in H; lra.
Qed.

Section Axis.
Variables s n o : N.
Hypothesis Hs : (0 < s < 2 ^ 31)%N.
Hypothesis Hn : (0 < n < 2 ^ 31)%N.
Hypothesis Ho : (o < n)%N.

Let c := centre s n o.
Let e := extent s n.

Lemma ratio_bounds : 0 < NR s / NR n <= NR s.
Proof.
  pose proof (NR_pos s ltac:(lia)). pose proof (NR_pos n ltac:(lia)). split.
  - apply Rdiv_lt_0_compat; lra.
  - apply Rmult_le_reg_r with (NR n); [lra|]. unfold Rdiv. rewrite Rmult_assoc, Rinv_l by lra.
    apply Rmult_le_compat_l; lra.
Qed.

Lemma extent_le : e <= NR s.
Proof.
  pose proof ratio_bounds. pose proof (NR_pos s ltac:(lia)). unfold e, extent. apply Rmax_lub; lra.
Qed.

Lemma centre_bounds : 0 < c < NR s.
Proof.
  pose proof ratio_bounds as [P _]. pose proof (NR_pos n ltac:(lia)) as N1.
  pose proof (NR_lt o n Ho). pose proof (NR_nonneg o).
  unfold c, centre, mid. split.
  - apply Rmult_lt_0_compat; lra.
  - apply Rlt_le_trans with (NR n * (NR s / NR n)).
    + apply Rmult_lt_compat_r; lra.
    + right. field. lra.
Qed.

Lemma NR_max x : (x < 2 ^ 31)%N -> NR x <= 2147483647.
Proof. intros. unfold NR. apply IZR_le. lia. Qed.

(** The window begins after every sample whose centre is at most [c - r]. *)
Lemma first_real r : / 2 <= r <= e ->
  exists a, @firstSample RA c r = Some a /\
    forall i, (i < a)%N <-> mid i <= c - r.
Proof.
  intros Hr. pose proof centre_bounds as C. pose proof extent_le as E. pose proof (NR_max s ltac:(lia)) as M.
  unfold firstSample, toInt, cast_int. rewrite half_real. cbn [nadd nsub ntrunc real_arith].
  set (z := c - r + / 2).
  assert (Z1 : -2147483647 <= z < 2147483648) by (unfold z; lra).
  assert (T : (- 2 ^ 31 <= Ztrunc z <= 2 ^ 31 - 1)%Z).
  { split.
    - change (- 2 ^ 31)%Z with (-2147483648)%Z. rewrite <- (Ztrunc_IZR (-2147483648)). apply Ztrunc_le. lra.
    - apply Zlt_succ_le. change (Z.succ (2 ^ 31 - 1)) with 2147483648%Z.
      destruct (Rle_dec 0 z) as [P|P].
      + rewrite Ztrunc_floor by lra. apply lt_IZR. eapply Rle_lt_trans; [apply Zfloor_lb|]. lra.
      + rewrite Ztrunc_ceil by lra. apply Z.le_lt_trans with 0%Z; [|lia].
        apply Zceil_glb. simpl. lra. }
  replace ((- 2 ^ 31 <=? Ztrunc z) && (Ztrunc z <=? 2 ^ 31 - 1))%Z with true by lia.
  cbn [obind]. eexists; split; [reflexivity|]. intros i.
  unfold mid, NR. destruct (Rle_dec 0 z) as [P|P].
  - rewrite Ztrunc_floor by lra. pose proof (Zfloor_lb z) as L. pose proof (Zfloor_ub z) as U.
    split; intros H.
    + assert (Q : (Z.of_N i + 1 <= Zfloor z)%Z) by lia. apply IZR_le in Q. rewrite plus_IZR in Q.
      unfold z in *. lra.
    + assert (Q : (Z.of_N i < Zfloor z)%Z).
      { apply Z.lt_le_trans with (Z.of_N i + 1)%Z; [lia|]. apply Zfloor_lub. rewrite plus_IZR.
        unfold z. lra. }
      lia.
  - rewrite Ztrunc_ceil by lra.
    assert (Q : (Zceil z <= 0)%Z) by (apply Zceil_glb; simpl; lra).
    split; intros H; [lia|]. exfalso. assert (0 <= IZR (Z.of_N i)) by (apply IZR_le; lia).
    unfold z in P. lra.
Qed.

(** It ends before the first existing sample whose centre is beyond [c + r]. *)
Lemma last_real r : / 2 <= r <= e ->
  exists b, @lastSample RA c r s = Some b /\ (b <= s)%N /\
    forall i, (i < b)%N <-> (i < s)%N /\ mid i <= c + r.
Proof.
  intros Hr. pose proof centre_bounds as C. pose proof extent_le as E. pose proof (NR_max s ltac:(lia)) as M.
  unfold lastSample, toInt, cast_int. rewrite half_real. cbn [nadd nsub ntrunc real_arith].
  set (z := c + r + / 2).
  assert (Z1 : 0 <= z < 4294967296) by (unfold z; lra).
  rewrite Ztrunc_floor by lra.
  assert (T : (0 <= Zfloor z <= 2 ^ 32 - 1)%Z).
  { split; [apply Zfloor_lub; simpl; lra|]. apply Zlt_succ_le. change (Z.succ (2 ^ 32 - 1)) with 4294967296%Z.
    apply lt_IZR. eapply Rle_lt_trans; [apply Zfloor_lb|]. lra. }
  replace ((0 <=? Zfloor z) && (Zfloor z <=? 2 ^ 32 - 1))%Z with true by lia.
  cbn [obind]. eexists; split; [reflexivity|]. split; [lia|]. intros i.
  pose proof (Zfloor_lb z) as L. pose proof (Zfloor_ub z) as U. unfold mid, NR.
  rewrite N.min_glb_lt_iff. split; intros [H1 H2].
  - split; auto. assert (Q : (Z.of_N i + 1 <= Zfloor z)%Z) by lia. apply IZR_le in Q.
    rewrite plus_IZR in Q. unfold z in *. lra.
  - split; auto. assert (Q : (Z.of_N i < Zfloor z)%Z).
    { apply Z.lt_le_trans with (Z.of_N i + 1)%Z; [lia|]. apply Zfloor_lub. rewrite plus_IZR.
      unfold z. lra. }
    lia.
Qed.

(** The sample that contains the centre. *)
Definition nearest_sample : N := Z.to_N (Zfloor c).
Lemma nearest_sample_ok : (nearest_sample < s)%N /\ - / 2 < mid nearest_sample - c <= / 2.
Proof.
  pose proof centre_bounds as C. pose proof (Zfloor_lb c) as L. pose proof (Zfloor_ub c) as U.
  assert (F : (0 <= Zfloor c)%Z) by (apply Zfloor_lub; simpl; lra).
  assert (G : (Zfloor c < Z.of_N s)%Z).
  { apply lt_IZR. fold (NR s). lra. }
  unfold nearest_sample, mid, NR. rewrite Z2N.id by auto. split; [lia|]. lra.
Qed.

Lemma box_at_nearest : box s n o nearest_sample = 1.
Proof.
  destruct nearest_sample_ok as [_ H]. pose proof (extent_ge s n) as E. fold e in E.
  unfold box. fold c e. destruct (Rlt_dec (c - e / 2) (mid nearest_sample)); [|lra].
  destruct (Rle_dec (mid nearest_sample) (c + e / 2)); lra.
Qed.

Lemma tent_at_nearest : / 2 <= tent s n o nearest_sample.
Proof.
  destruct nearest_sample_ok as [_ H]. pose proof (extent_ge s n) as E. fold e in E.
  unfold tent. fold c e. eapply Rle_trans; [|apply Rmax_r].
  assert (A : Rabs (mid nearest_sample - c) <= / 2) by (apply Rabs_le; lra).
  assert (Q : Rabs (mid nearest_sample - c) / e <= / 2); [|lra].
  apply Rmult_le_reg_r with e; [lra|]. unfold Rdiv. rewrite Rmult_assoc, Rinv_l by lra.
  pose proof (Rabs_pos (mid nearest_sample - c)). lra.
Qed.

Lemma box_range i : 0 <= box s n o i <= 1.
Proof. unfold box. destruct Rlt_dec; [destruct Rle_dec|]; lra. Qed.

Lemma tent_range i : 0 <= tent s n o i <= 1.
Proof.
  unfold tent. split; [apply Rmax_l|]. apply Rmax_lub; [lra|].
  assert (0 <= Rabs (mid i - centre s n o) / extent s n); [|lra].
  pose proof (extent_ge s n).
  apply Rmult_le_pos; [apply Rabs_pos|]. left; apply Rinv_0_lt_compat; lra.
Qed.

Lemma box_total : 1 <= total s (box s n o).
Proof.
  rewrite total_sum, <- box_at_nearest. apply (sum_member (box s n o)).
  - intros; apply box_range.
  - apply in_Nrange. apply nearest_sample_ok.
Qed.

Lemma tent_total : / 2 <= total s (tent s n o).
Proof.
  eapply Rle_trans; [apply tent_at_nearest|]. rewrite total_sum. apply (sum_member (tent s n o)).
  - intros; apply tent_range.
  - apply in_Nrange. apply nearest_sample_ok.
Qed.

(** The samples visited by the box filter of Image::resize. *)
Lemma box_window : exists a b,
  @firstSample RA c (e * / 2) = Some a /\ @lastSample RA c (e * / 2) s = Some b /\ (b <= s)%N /\
  let l := keep (@outsideBox RA c (@filterScale RA s n)) a b in
  (forall i, In i l -> (i < s)%N /\ box s n o i = 1) /\
  (forall i, (i < s)%N -> ~ In i l -> box s n o i = 0).
Proof.
  pose proof (extent_ge s n) as E. fold e in E.
  destruct (first_real (e * / 2) ltac:(lra)) as (a & Ea & Ha).
  destruct (last_real (e * / 2) ltac:(lra)) as (b & Eb & Bs & Hb).
  exists a, b. repeat split; auto.
  - apply in_keep in H. destruct H as [H _]. apply Hb. lia.
  - apply in_keep in H. destruct H as [[H1 H2] _].
    apply Hb in H2. destruct H2 as [H2 H3].
    assert (H4 : ~ mid i <= c - e * / 2) by (rewrite <- Ha; lia).
    unfold box. fold c e. destruct Rlt_dec; [destruct Rle_dec|]; lra.
  - intros i Hi H. unfold box. fold c e.
    destruct (Rlt_dec (c - e / 2) (mid i)) as [L|]; auto.
    destruct (Rle_dec (mid i) (c + e / 2)) as [U|]; auto.
    exfalso. apply H. apply in_keep. split.
    + split.
      * apply N.nlt_ge. rewrite Ha. lra.
      * apply Hb. split; auto; lra.
    + destruct (@outsideBox RA c (@filterScale RA s n) i) eqn:O; auto. exfalso.
      apply outsideBox_real in O. fold e in O. revert O. apply Rle_not_lt. apply Rabs_le. lra.
Qed.

(** The samples visited by the linear filter. *)
Lemma tent_window : exists a b,
  @firstSample RA c e = Some a /\ @lastSample RA c e s = Some b /\ (b <= s)%N /\
  let l := keep (fun i => @isZero RA (@linearScale RA c (@filterScale RA s n) i)) a b in
  (forall i, In i l -> (i < s)%N) /\
  (forall i, (i < s)%N -> ~ In i l -> tent s n o i = 0).
Proof.
  pose proof (extent_ge s n) as E. fold e in E.
  destruct (first_real e ltac:(lra)) as (a & Ea & Ha).
  destruct (last_real e ltac:(lra)) as (b & Eb & Bs & Hb).
  exists a, b. split; [exact Ea|]. split; [exact Eb|]. split; [exact Bs|]. split.
  - intros i H. apply in_keep in H. destruct H as [H _]. apply Hb. lia.
  - intros i Hi H.
    destruct (Rle_dec (e) (Rabs (mid i - c))) as [F|F].
    + unfold tent. fold c e. apply Rmax_left.
      assert (1 <= Rabs (mid i - c) / e); [|lra].
      apply Rmult_le_reg_r with e; [lra|]. unfold Rdiv. rewrite Rmult_assoc, Rinv_l by lra. lra.
    + assert (Q : Rabs (mid i - c) < e) by lra. apply Rabs_def2 in Q.
      destruct (@isZero RA (@linearScale RA c (@filterScale RA s n) i)) eqn:Z.
      * apply isZero_real in Z. rewrite linearScale_real in Z. exact Z.
      * exfalso. apply H. apply in_keep. split; auto. split.
        -- apply N.nlt_ge. rewrite Ha. lra.
        -- apply Hb. split; auto; lra.
Qed.

(** The samples visited by the box filter of generateMips3d. *)
Lemma closed_window : exists a b,
  @firstSample RA c e = Some a /\ @lastSample RA c e s = Some b /\ (b <= s)%N /\
  let l := keep (@outsideBox RA c (@filterScale RA s n)) a b in
  (forall i, In i l -> (i < s)%N /\ closed_box s n o i = 1) /\
  (forall i, (i < s)%N -> ~ In i l -> closed_box s n o i = 0).
Proof.
  pose proof (extent_ge s n) as E. fold e in E.
  destruct (first_real e ltac:(lra)) as (a & Ea & Ha).
  destruct (last_real e ltac:(lra)) as (b & Eb & Bs & Hb).
  exists a, b. repeat split; auto.
  - apply in_keep in H. destruct H as [H _]. apply Hb. lia.
  - apply in_keep in H. destruct H as [_ H]. unfold closed_box. fold c e.
    destruct Rle_dec; auto. exfalso.
    assert (O : @outsideBox RA c (@filterScale RA s n) i = true) by (apply outsideBox_real; fold e; lra).
    congruence.
  - intros i Hi H. unfold closed_box. fold c e.
    destruct (Rle_dec (Rabs (mid i - c)) (e / 2)) as [L|]; auto.
    exfalso. apply H. apply in_keep. apply Rabs_le_inv in L. split.
    + split.
      * apply N.nlt_ge. rewrite Ha. lra.
      * apply Hb. split; auto; lra.
    + destruct (@outsideBox RA c (@filterScale RA s n) i) eqn:O; auto. exfalso.
      apply outsideBox_real in O. fold e in O. revert O. apply Rle_not_lt. apply Rabs_le. lra.
Qed.

Lemma closed_range i : 0 <= closed_box s n o i <= 1.
Proof. unfold closed_box. destruct Rle_dec; lra. Qed.

Lemma closed_total : 1 <= total s (closed_box s n o).
Proof.
  assert (P : closed_box s n o nearest_sample = 1).
  { destruct nearest_sample_ok as [_ H]. pose proof (extent_ge s n) as E. fold e in E.
    unfold closed_box. fold c e. destruct Rle_dec as [|F]; auto. exfalso. apply F.
    apply Rabs_le. lra. }
  rewrite total_sum, <- P. apply (sum_member (closed_box s n o)).
  - intros; apply closed_range.
  - apply in_Nrange. apply nearest_sample_ok.
Qed.

End Axis.

(** * Averages *)

Lemma total_le n f g : (forall i, (i < n)%N -> f i <= g i) -> total n f <= total n g.
Proof. intros H. rewrite !total_sum. apply sum_le. intros k I. apply H. apply in_Nrange; auto. Qed.

Lemma total_scale n f k : total n (fun i => f i * k) = total n f * k.
Proof. rewrite !total_sum. apply sum_scale. Qed.

Lemma total_ext n f g : (forall i, (i < n)%N -> f i = g i) -> total n f = total n g.
Proof. intros H. rewrite !total_sum. apply sum_ext. intros k I. apply H. apply in_Nrange; auto. Qed.

(** An average lies between bounds of the values. *)
Lemma average_between weight s v lo hi :
  (forall i, (i < s)%N -> 0 <= weight i) -> 0 < total s weight ->
  (forall i, (i < s)%N -> weight i <> 0 -> lo <= v i <= hi) ->
  lo <= average weight s v <= hi.
Proof.
  intros W T V. unfold average.
  assert (L : total s weight * lo <= total s (fun i => weight i * v i)).
  { rewrite <- total_scale. apply total_le. intros i Hi. specialize (W i Hi).
    destruct (Req_dec (weight i) 0) as [E|E]; [rewrite E; lra|].
    apply Rmult_le_compat_l; auto. apply V; auto. }
  assert (U : total s (fun i => weight i * v i) <= total s weight * hi).
  { rewrite <- total_scale. apply total_le. intros i Hi. specialize (W i Hi).
    destruct (Req_dec (weight i) 0) as [E|E]; [rewrite E; lra|].
    apply Rmult_le_compat_l; auto. apply V; auto. }
  split; apply Rmult_le_reg_r with (total s weight); auto; unfold Rdiv; rewrite Rmult_assoc, Rinv_l; lra.
Qed.

Lemma average_ext w1 w2 s v1 v2 : (forall i, (i < s)%N -> w1 i = w2 i) ->
  (forall i, (i < s)%N -> v1 i = v2 i) -> average w1 s v1 = average w2 s v2.
Proof.
  intros Hw Hv. unfold average. rewrite (total_ext s w1 w2) by auto. f_equal.
  apply total_ext. intros i Hi. rewrite Hw, Hv by auto. reflexivity.
Qed.

(** The quotient of sums over visited samples is the average. *)
Lemma visited_average2 (wx wy gx gy : N -> R) (w h : N) (v : N -> N -> R) p q a b c d :
  (forall i, In i (keep p a b) -> (i < h)%N /\ gy i = wy i) ->
  (forall i, (i < h)%N -> ~ In i (keep p a b) -> wy i = 0) ->
  (forall j, In j (keep q c d) -> (j < w)%N /\ gx j = wx j) ->
  (forall j, (j < w)%N -> ~ In j (keep q c d) -> wx j = 0) ->
  0 < total h wy -> 0 < total w wx ->
  sum (fun k => v (snd k) (fst k) * (gx (snd k) * gy (fst k))) (window2 p q a b c d)
  / sum (fun k => gx (snd k) * gy (fst k)) (window2 p q a b c d)
  = average2 wx wy w h v.
Proof.
  intros Y1 Y2 X1 X2 Ty Tx.
  assert (SX : forall f, sum (fun j => f j * gx j) (keep q c d) = total w (fun j => wx j * f j)).
  { intros f. apply sum_some; [apply NoDup_keep| |].
    - intros i I. destruct (X1 i I) as [L E]. split; auto. rewrite E. ring.
    - intros i Hi NI. rewrite X2 by auto. ring. }
  assert (SY : forall f, sum (fun i => f i * gy i) (keep p a b) = total h (fun i => wy i * f i)).
  { intros f. apply sum_some; [apply NoDup_keep| |].
    - intros i I. destruct (Y1 i I) as [L E]. split; auto. rewrite E. ring.
    - intros i Hi NI. rewrite Y2 by auto. ring. }
  rewrite (sum_window2 (fun i j => v j i * (gx j * gy i))).
  rewrite (sum_window2 (fun i j => gx j * gy i)).
  rewrite (sum_ext _ (fun i => total w (fun j => wx j * v j i) * gy i)).
  2:{ intros i _. rewrite <- SX, <- sum_scale. apply sum_ext. intros; ring. }
  rewrite SY.
  rewrite (sum_ext (fun i => sum (fun j => gx j * gy i) _) (fun i => total w wx * gy i)).
  2:{ intros i _. rewrite (total_ext w wx (fun j => wx j * 1)) by (intros; ring).
      rewrite <- SX, <- sum_scale. apply sum_ext. intros; ring. }
  rewrite SY. unfold average2, average at 1.
  rewrite total_scale.
  rewrite (total_ext h (fun i => wy i * average wx w (fun x => v x i))
             (fun i => (wy i * total w (fun j => wx j * v j i)) * / total w wx)).
  2:{ intros i Hi. unfold average. unfold Rdiv. ring. }
  rewrite total_scale. field. split; apply Rgt_not_eq; auto.
Qed.

Lemma visited_average (wt g : N -> R) (s : N) (v : N -> R) p a b :
  (forall i, In i (keep p a b) -> (i < s)%N /\ g i = wt i) ->
  (forall i, (i < s)%N -> ~ In i (keep p a b) -> wt i = 0) ->
  sum (fun k => v k * g k) (keep p a b) / sum g (keep p a b) = average wt s v.
Proof.
  intros H1 H2. unfold average. f_equal.
  - apply sum_some; [apply NoDup_keep| |].
    + intros i I. destruct (H1 i I) as [L E]. split; auto. rewrite E. ring.
    + intros i Hi NI. rewrite H2 by auto. ring.
  - f_equal. apply sum_some; [apply NoDup_keep| |].
    + intros i I. destruct (H1 i I) as [L E]. split; auto.
    + intros i Hi NI. auto.
Qed.

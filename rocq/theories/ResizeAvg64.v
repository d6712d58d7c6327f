(** The pixels of the two filters in binary64. *)

From Coq Require Import ZArith NArith List Bool Lia Reals Lra Psatz.
From Coq Require Import ZifyBool ZifyNat ZifyN.
From Flocq Require Import Core Relative Mult_error IEEE754.BinarySingleNaN IEEE754.Binary IEEE754.Bits.
From Verif Require Import Base FormatModel FloatModel FloatSpec FloatProofs ArithModel ArithSpec DoubleProofs
  TextureModel ImageModel ImageLoops ResizeModel ResizeSpec ResizeLoops ResizeRealProofs ResizeAxis64
  ResizeSum64.
Import ListNotations.
Local Open Scope R_scope.

(** The number of source samples along an axis a filter can reach. *)
Definition box_reach (s n : N) : N := (s / n + 2)%N.
Definition tent_reach (s n : N) : N := (2 * (s / n) + 3)%N.

Lemma NR_le a b : (a <= b)%N -> NR a <= NR b.
Proof. intros. unfold NR. apply IZR_le. lia. Qed.

Lemma extent_floor s n : (0 < n)%N -> extent s n <= NR (s / n) + 1.
Proof.
  intros H. pose proof (NR_pos n H). unfold extent. apply Rmax_lub.
  - apply Rmult_le_reg_r with (NR n); [lra|]. unfold Rdiv. rewrite Rmult_assoc, Rinv_l by lra.
    rewrite Rmult_1_r. change 1 with (IZR 1). unfold NR. rewrite <- plus_IZR, <- mult_IZR. apply IZR_le. nia.
  - pose proof (NR_nonneg (s / n)). lra.
Qed.

Lemma NR_int a b : NR a < NR b + 1 -> (a <= b)%N.
Proof.
  unfold NR. rewrite <- plus_IZR. intros H. apply lt_IZR in H. lia.
Qed.

Definition member (l : list N) (i : N) : bool := if in_dec N.eq_dec i l then true else false.

Section Pow.
Variable pw : double -> double -> double.
Local Notation D := (double_arith pw).
Local Notation is := (is pw).

Lemma is_unique x a b : is x a -> is x b -> a = b.
Proof. intros [_ <-] [_ <-]. reflexivity. Qed.

Section Axis.
Variables s n o : N.
Hypothesis Hs : (0 < s < 2 ^ 31)%N.
Hypothesis Hn : (0 < n < 2 ^ 31)%N.
Hypothesis Ho : (o < n)%N.

Local Notation C := (@center D s n o).
Local Notation F := (@filterScale D s n).

Lemma half_offset_is : is (nmul D (@offset D s n) (@half D)) (E' s n * / 2).
Proof.
  pose proof (E_bounds pw s n o Hs Hn Ho) as EB. pose proof (NR_below s ltac:(lia)).
  pose proof (offset_is pw s n o Hs Hn Ho) as OI.
  replace (E' s n * / 2) with (rnd64 (E' s n * / 2)).
  - apply mul_is; [exact OI|apply half_is|].
    eapply Rle_trans; [|apply (big pw)]. rewrite Rabs_pos_eq; lra.
  - apply rnd64_format. change (/ 2) with (bpow radix2 (-1)).
    apply mult_bpow_exact_FLT; [apply (is_format pw _ _ OI)|].
    assert (1 <= mag radix2 (E' s n))%Z; [|lia]. apply mag_ge_bpow. simpl. rewrite Rabs_pos_eq; lra.
Qed.

Lemma box_axis rd r' r : is rd r' -> / 2 <= r' <= E' s n -> Rabs (r' - r) <= u * extent s n ->
  extent s n / 2 <= r ->
  exists a b wt,
    firstSample C rd = Some a /\ lastSample C rd s = Some b /\ (b <= s)%N /\ near_box s n o wt /\
    NR (b - a) <= 2 * r + 1 + / 131072 /\
    let l := keep (@outsideBox D C F) a b in
    (forall i, In i l -> (i < s)%N /\ 1 = wt i) /\
    (forall i, (i < s)%N -> ~ In i l -> wt i = 0) /\ l <> [].
Proof.
  intros H1 H2 H3 H4.
  destruct (window_is pw s n o Hs Hn Ho rd r' r H1 H2 H3) as (a & b & E1 & E2 & W1 & W2 & W3 & W4).
  set (l := keep (@outsideBox D C F) a b).
  destruct (under_ok pw s n o Hs Hn Ho) as [U0 _].
  assert (UL : In (under s n o) l).
  { apply in_keep. split; [exact W1|]. apply (under_not_outside pw); auto. }
  exists a, b, (fun i => if member l i then 1 else 0). unfold member.
  split; [exact E1|]. split; [exact E2|]. split; [exact W2|]. split; [|split; [exact W3|]].
  - split; [|split].
    + intros i. destruct in_dec; auto.
    + exists (under s n o). split; auto. destruct in_dec; [reflexivity|contradiction].
    + intros i Hi. destruct in_dec as [I|I]; split; intros G; try reflexivity; exfalso.
      * apply in_keep in I. pose proof (inside_near pw s n o Hs Hn Ho i Hi (proj2 I)). lra.
      * assert (X : (i < a \/ b <= i)%N \/ @outsideBox D C F i = true).
        { destruct (@outsideBox D C F i) eqn:OB; [right; reflexivity|left].
          destruct (N.lt_ge_cases i a); [left; auto|]. right. destruct (N.le_gt_cases b i); auto.
          exfalso. apply I. apply in_keep. auto. }
        destruct X as [X|X].
        -- pose proof (W4 i Hi X). lra.
        -- pose proof (outside_far pw s n o Hs Hn Ho i Hi X). lra.
  - split; [|split].
    + intros i I. destruct in_dec; [|contradiction]. split; auto. apply in_keep in I. lia.
    + intros i Hi I. destruct in_dec; [contradiction|reflexivity].
    + intros Z. fold l in Z. rewrite Z in UL. exact UL.
Qed.

Lemma tent_axis :
  exists a b wt,
    firstSample C (@offset D s n) = Some a /\ lastSample C (@offset D s n) s = Some b /\ (b <= s)%N /\
    near_tent s n o wt /\ NR (b - a) <= 2 * extent s n + 1 + / 131072 /\
    let l := keep (fun i => @isZero D (@linearScale D C F i)) a b in
    (forall i, In i l -> (i < s)%N /\ W' s n o i = wt i /\ u <= wt i <= 1) /\
    (forall i, (i < s)%N -> ~ In i l -> wt i = 0).
Proof.
  pose proof (E_bounds pw s n o Hs Hn Ho) as EB. pose proof (e_bounds pw s n o Hs Hn Ho) as eB.
  destruct (window_is pw s n o Hs Hn Ho (@offset D s n) (E' s n) (extent s n)
    (offset_is pw s n o Hs Hn Ho) ltac:(lra) (E_err pw s n o Hs Hn Ho)) as (a & b & E1 & E2 & W1 & W2 & W3 & W4).
  set (l := keep (fun i => @isZero D (@linearScale D C F i)) a b).
  destruct (under_ok pw s n o Hs Hn Ho) as [U0 _].
  assert (IL : forall i, (i < s)%N -> In i l <-> (a <= i < b)%N /\ W' s n o i <> 0).
  { intros i Hi. unfold l. rewrite in_keep. pose proof (is_zero pw _ _ (linearScale_is pw s n o Hs Hn Ho i Hi)) as Z.
    destruct (@isZero D (@linearScale D C F i)) eqn:ZE; split; intros [G1 G2]; split; auto.
    - discriminate.
    - exfalso. apply G2. apply Z. reflexivity.
    - intros Q. apply Z in Q. discriminate. }
  assert (UL : In (under s n o) l).
  { apply IL; auto. split; [exact W1|]. pose proof (W_under pw s n o Hs Hn Ho). lra. }
  exists a, b, (fun i => if member l i then W' s n o i else 0). unfold member.
  split; [exact E1|]. split; [exact E2|]. split; [exact W2|]. split; [|split; [exact W3|]].
  - split.
    + exists (under s n o). split; auto. destruct in_dec; [|contradiction]. apply (W_under pw s n o Hs Hn Ho).
    + intros i Hi. pose proof (W_range pw s n o Hs Hn Ho i) as WR. destruct in_dec as [I|I].
      * split; [exact WR|]. apply (W_near pw s n o Hs Hn Ho i Hi).
      * split; [lra|].
        assert (X : (i < a \/ b <= i)%N \/ W' s n o i = 0).
        { destruct (Req_EM_T (W' s n o i) 0) as [Z|Z]; [right; auto|left].
          destruct (N.lt_ge_cases i a); [left; auto|]. right. destruct (N.le_gt_cases b i); auto.
          exfalso. apply I. apply IL; auto. }
        destruct X as [X|X].
        -- pose proof (W4 i Hi X) as Y. unfold Rminus. rewrite Rplus_0_l, Rabs_Ropp.
           pose proof (tent_range s n o i). rewrite Rabs_pos_eq by lra.
           unfold tent. apply Rmax_lub; [lra|].
           set (t := Rabs (mid i - centre s n o)) in *. set (e := extent s n) in *.
           assert (Q : 1 - / 262144 <= t / e); [|lra].
           apply Rmult_le_reg_r with e; [lra|]. unfold Rdiv. rewrite Rmult_assoc, Rinv_l by lra.
           assert (/ 262144 * 1 <= / 262144 * e) by (apply Rmult_le_compat_l; lra). lra.
        -- pose proof (W_near pw s n o Hs Hn Ho i Hi) as Y. rewrite X in Y. exact Y.
  - split.
    + intros i I. destruct in_dec; [|contradiction].
      assert (Hi : (i < s)%N) by (unfold l in I; apply in_keep in I; lia).
      split; auto. split; auto. split; [|apply (W_range pw s n o Hs Hn Ho)].
      apply (W_low pw s n o Hs Hn Ho i Hi). apply IL in I; auto. tauto.
    + intros i Hi I. destruct in_dec; [contradiction|reflexivity].
Qed.

End Axis.

(** Sums of integers are exact. *)
Lemma int_sum {K} (p : K -> num D) (z : K -> Z) l : (length l <= Z.to_nat (2 ^ 17))%nat ->
  (forall k, In k l -> is (p k) (IZR (z k)) /\ (Z.abs (z k) <= 2 ^ 32)%Z) ->
  exists S, is (@acc_sum D K p l) (IZR S) /\ IZR S = sum (fun k => IZR (z k)) l /\
    (Z.abs S <= Z.of_nat (length l) * 2 ^ 32)%Z.
Proof.
  intros L H. unfold acc_sum, sum.
  assert (G : forall a A m, is a (IZR A) -> (Z.abs A <= Z.of_nat m * 2 ^ 32)%Z ->
    (m + length l <= Z.to_nat (2 ^ 17))%nat ->
    exists S, is (fold_left (fun a k => nadd D a (p k)) l a) (IZR S) /\
      IZR S = IZR A + fold_right Rplus 0 (map (fun k => IZR (z k)) l) /\
      (Z.abs S <= Z.of_nat (m + length l) * 2 ^ 32)%Z).
  { clear L. induction l as [|k l IH]; intros a A m HA HB HL.
    - exists A. simpl. rewrite Rplus_0_r. repeat split; auto; try apply HA. lia.
    - cbn [fold_left map fold_right length] in *. destruct (H k (or_introl eq_refl)) as [H1 H2].
      assert (X : (Z.abs (A + z k) <= 2 ^ 50)%Z).
      { assert (Z.of_nat m <= 2 ^ 17)%Z by lia. lia. }
      destruct (IH (fun k I => H k (or_intror I)) (nadd D a (p k)) (A + z k)%Z (Datatypes.S m)) as (S & S1 & S2 & S3).
      + rewrite <- (rnd64_int (A + z k)) by lia. rewrite plus_IZR. apply add_is; auto.
        rewrite <- plus_IZR, <- abs_IZR. eapply Rle_trans; [|apply (big pw)].
        apply IZR_le in X. change (IZR (2 ^ 50)) with 1125899906842624 in X. 
        simpl. lra.
      + lia.
      + lia.
      + exists S. split; [exact S1|]. split; [rewrite S2, plus_IZR; ring|lia]. }
  destruct (G (@lit D 0) 0%Z 0%nat) as (S & S1 & S2 & S3).
  - apply (lit_is pw 0). lia.
  - lia.
  - simpl. exact L.
  - exists S. split; [exact S1|]. split; [rewrite S2; ring|exact S3].
Qed.

Section Pixel.
Variables (b : bitmap D) (w h x y : N) (col : N -> N -> color D).
Hypothesis Hbw : (0 < b_w b < 2 ^ 31)%N.
Hypothesis Hbh : (0 < b_h b < 2 ^ 31)%N.
Hypothesis Hw : (0 < w < 2 ^ 31)%N.
Hypothesis Hh : (0 < h < 2 ^ 31)%N.
Hypothesis Hx : (x < w)%N.
Hypothesis Hy : (y < h)%N.
Hypothesis Hsize : (b_w b * b_h b < 2 ^ 32)%N.
Hypothesis Hcol : forall j i, (j < b_w b)%N -> (i < b_h b)%N -> getAt b j i = Some (col j i).

Definition chan_ok (p : color D -> num D) (v : N -> N -> R) (B : R) : Prop :=
  forall j i, (j < b_w b)%N -> (i < b_h b)%N -> is (p (col j i)) (v j i) /\ Rabs (v j i) <= B.

Lemma total_pos1 s wt k c : (forall i, (i < s)%N -> 0 <= wt i) -> (k < s)%N -> 0 < c -> c <= wt k -> 0 < total s wt.
Proof.
  intros H Hk Hc Hw'. apply Rlt_le_trans with (wt k); [lra|]. rewrite total_sum. apply sum_member.
  - intros i I. apply H. apply in_Nrange; auto.
  - apply in_Nrange; auto.
Qed.

Lemma near_box_total s n o wt : near_box s n o wt -> 0 < total s wt.
Proof.
  intros (A & (k & Hk & E) & _). apply (total_pos1 s wt k 1); auto; [|lra|lra].
  intros i _. destruct (A i); lra.
Qed.
Lemma near_tent_total s n o wt : near_tent s n o wt -> 0 < total s wt.
Proof.
  intros ((k & Hk & E) & A). apply (total_pos1 s wt k (/ 2)); auto; [|lra].
  intros i Hi. destruct (A i Hi); lra.
Qed.

Lemma boxPixel64 : exists (val : (color D -> num D) -> num D) wx wy,
  boxPixel b w h x y = Some (C4 (val c_r) (val c_g) (val c_b) (val c_a)) /\
  near_box (b_w b) w x wx /\ near_box (b_h b) h y wy /\
  let m := (box_reach (b_w b) w * box_reach (b_h b) h)%N in
  (forall p v B, chan_ok p v B -> bpow radix2 (-900) <= B <= bpow radix2 800 ->
     exists r, is (val p) r /\
       Rabs (r - average2 wx wy (b_w b) (b_h b) v) <= 8 * (NR m + 2) * u * B) /\
  (forall p (z : N -> N -> Z) r, chan_ok p (fun j i => IZR (z j i)) (IZR (2 ^ 32)) ->
     (m <= 2 ^ 17)%N -> is (val p) r ->
     Ztrunc r = Ztrunc (average2 wx wy (b_w b) (b_h b) (fun j i => IZR (z j i)))).
Proof.
  assert (AX : forall s n o, (0 < s < 2 ^ 31)%N -> (0 < n < 2 ^ 31)%N -> (o < n)%N ->
    exists a b wt,
    firstSample (@center D s n o) (nmul D (@offset D s n) half) = Some a /\
    lastSample (@center D s n o) (nmul D (@offset D s n) half) s = Some b /\ (b <= s)%N /\
    near_box s n o wt /\ (b - a <= box_reach s n)%N /\
    let l := keep (@outsideBox D (@center D s n o) (@filterScale D s n)) a b in
    (forall i, In i l -> (i < s)%N /\ 1 = wt i) /\
    (forall i, (i < s)%N -> ~ In i l -> wt i = 0) /\ l <> []).
  { intros s n o Hs Hn Ho. pose proof (E_bounds pw s n o Hs Hn Ho) as EB.
    pose proof (e_bounds pw s n o Hs Hn Ho) as eB. pose proof (E_err pw s n o Hs Hn Ho) as EE.
    destruct (box_axis s n o Hs Hn Ho _ (E' s n * / 2) (extent s n / 2)
      (half_offset_is s n o Hs Hn Ho)) as (a & b0 & wt & A1 & A2 & A3 & A4 & A5 & A6).
    - lra.
    - replace (E' s n * / 2 - extent s n / 2) with ((E' s n - extent s n) * / 2) by field.
      rewrite Rabs_mult, (Rabs_pos_eq (/ 2)) by lra.
      pose proof (Rabs_pos (E' s n - extent s n)). lra.
    - lra.
    - exists a, b0, wt. repeat (split; [assumption|]). split; [|exact A6].
      apply NR_int. pose proof (extent_floor s n ltac:(lia)).
      unfold box_reach. replace (NR (s / n + 2)) with (NR (s / n) + 2).
      + lra.
      + unfold NR. rewrite N2Z.inj_add, plus_IZR. reflexivity. }
  destruct (AX (b_h b) h y Hbh Hh Hy) as (t & bt & wy & E1 & E2 & B1 & NY & CY & Y1 & Y2 & Y3).
  destruct (AX (b_w b) w x Hbw Hw Hx) as (l & r & wx & E3 & E4 & B2 & NX & CX & X1 & X2 & X3).
  clear AX.
  set (P := outsideBox (@center D (b_h b) h y) (@filterScale D (b_h b) h)) in *.
  set (Q := outsideBox (@center D (b_w b) w x) (@filterScale D (b_w b) w)) in *.
  set (L := window2 P Q t bt l r).
  assert (LEN : (N.of_nat (length L) <= box_reach (b_w b) w * box_reach (b_h b) h)%N /\
                (N.of_nat (length L) < 2 ^ 32)%N).
  { unfold L. rewrite length_window2. pose proof (length_keep P t bt). pose proof (length_keep Q l r).
    rewrite Nat2N.inj_mul. split.
    - rewrite N.mul_comm. apply N.mul_le_mono; lia.
    - apply N.le_lt_trans with (b_h b * b_w b)%N; [apply N.mul_le_mono; lia|lia]. }
  assert (NE : L <> []).
  { unfold L. intros Z. apply (f_equal (@length _)) in Z. rewrite length_window2 in Z. simpl in Z.
    destruct (keep P t bt); [congruence|]. destruct (keep Q l r); [congruence|]. simpl in Z. lia. }
  assert (INL : forall k, In k L -> (snd k < b_w b)%N /\ (fst k < b_h b)%N).
  { intros [i j] I. apply in_window2 in I. destruct I as [I J]. simpl.
    split; [apply (X1 j J)|apply (Y1 i I)]. }
  assert (AV : forall v, sum (fun k => v (snd k) (fst k) * 1) L / sum (fun _ => 1) L
                         = average2 wx wy (b_w b) (b_h b) v).
  { intros v. unfold L. rewrite <- (visited_average2 wx wy (fun _ => 1) (fun _ => 1) (b_w b) (b_h b) v P Q t bt l r).
    - apply (f_equal2 Rdiv); apply sum_ext; intros; ring.
    - exact Y1.
    - exact Y2.
    - exact X1.
    - exact X2.
    - apply (near_box_total _ _ _ _ NY).
    - apply (near_box_total _ _ _ _ NX). }
  exists (fun p => ndiv D (@acc_sum D _ (fun k => p (col (snd k) (fst k))) L) (@ofN D (N.of_nat (length L)))),
    wx, wy.
  split; [|split; [exact NX|split; [exact NY|split]]].
  - apply (boxPixel_sum b w h x y t bt l r col E1 E2 E3 E4).
    + intros i j I. apply INL in I. simpl in I. apply Hcol; tauto.
    + apply LEN.
  - intros p v B HP HB. rewrite <- AV.
    destruct (box_average pw (fun k => p (col (snd k) (fst k))) (fun k => v (snd k) (fst k)) B L HB NE) as (r0 & R1 & R2).
    + rewrite INR_NR. assert (NR (N.of_nat (length L)) <= 4294967296) by (apply (NR_le _ 4294967296); lia). lra.
    + intros k I. apply HP; apply INL in I; tauto.
    + exists r0. split; [exact R1|]. eapply Rle_trans; [exact R2|].
      pose proof (bpow_gt_0 radix2 (-900)). pose proof u_pos. rewrite INR_NR.
      pose proof (NR_le _ _ (proj1 LEN)).
      apply Rmult_le_compat_r; [lra|]. apply Rmult_le_compat_r; lra.
  - intros p z r0 HP HM R0. rewrite <- (AV (fun j i => IZR (z j i))).
    destruct (int_sum (fun k => p (col (snd k) (fst k))) (fun k => z (snd k) (fst k)) L) as (S & S1 & S2 & S3).
    + lia.
    + intros k I. apply INL in I. destruct (HP (snd k) (fst k)) as [H1 H2]; try tauto. split; auto.
      rewrite <- abs_IZR in H2. apply le_IZR in H2. exact H2.
    + assert (LP : (0 < length L)%nat) by (destruct L; [congruence|simpl; lia]).
      replace (sum (fun k : N * N => IZR (z (snd k) (fst k)) * 1) L) with (IZR S).
      2:{ rewrite S2. apply sum_ext. intros; ring. }
      rewrite sum_one. unfold NR. rewrite nat_N_Z.
      rewrite <- (trunc_quotient S (Z.of_nat (length L))) by lia. f_equal.
      apply (is_unique _ _ _ R0). rewrite <- nat_N_Z. apply div_is.
      * exact S1.
      * apply ofN_is. lia.
      * apply not_0_IZR. lia.
      * assert (1 <= IZR (Z.of_N (N.of_nat (length L)))) by (apply IZR_le; lia).
        assert (Rabs (IZR S) <= bpow radix2 50).
        { rewrite <- abs_IZR. apply Rle_trans with (IZR (2 ^ 50)); [apply IZR_le; lia|].
          right. reflexivity. }
        eapply Rle_trans; [|apply Rle_trans with (1 := H0); apply bpow_le; lia].
        unfold Rdiv. rewrite Rabs_mult. rewrite (Rabs_pos_eq (/ _)) by (left; apply Rinv_0_lt_compat; lra).
        apply Rle_trans with (Rabs (IZR S) * 1); [|lra]. apply Rmult_le_compat_l; [apply Rabs_pos|].
        rewrite <- Rinv_1. apply Rinv_le; lra.
Qed.

Lemma linearPixel64 : exists (val : (color D -> num D) -> num D) wx wy,
  linearPixel b w h x y = Some (C4 (val c_r) (val c_g) (val c_b) (val c_a)) /\
  near_tent (b_w b) w x wx /\ near_tent (b_h b) h y wy /\
  let m := (tent_reach (b_w b) w * tent_reach (b_h b) h)%N in
  (forall p v B, chan_ok p v B -> bpow radix2 (-900) <= B <= bpow radix2 800 ->
     exists r, is (val p) r /\
       Rabs (r - average2 wx wy (b_w b) (b_h b) v) <= 8 * (NR m + 2) * u * B).
Proof.
  assert (AX : forall s n o, (0 < s < 2 ^ 31)%N -> (0 < n < 2 ^ 31)%N -> (o < n)%N ->
    exists a b wt,
    firstSample (@center D s n o) (@offset D s n) = Some a /\
    lastSample (@center D s n o) (@offset D s n) s = Some b /\ (b <= s)%N /\
    near_tent s n o wt /\ (b - a <= tent_reach s n)%N /\
    let l := keep (fun i => @isZero D (@linearScale D (@center D s n o) (@filterScale D s n) i)) a b in
    (forall i, In i l -> (i < s)%N /\ W' s n o i = wt i /\ u <= wt i <= 1) /\
    (forall i, (i < s)%N -> ~ In i l -> wt i = 0)).
  { intros s n o Hs Hn Ho.
    destruct (tent_axis s n o Hs Hn Ho) as (a & b0 & wt & A1 & A2 & A3 & A4 & A5 & A6).
    exists a, b0, wt. repeat (split; [assumption|]). split; [|exact A6].
    apply NR_int. pose proof (extent_floor s n ltac:(lia)).
    unfold tent_reach. replace (NR (2 * (s / n) + 3)) with (2 * NR (s / n) + 3).
    + lra.
    + unfold NR. rewrite N2Z.inj_add, N2Z.inj_mul, plus_IZR, mult_IZR. reflexivity. }
  destruct (AX (b_h b) h y Hbh Hh Hy) as (t & bt & wy & E1 & E2 & B1 & NY & CY & Y1 & Y2).
  destruct (AX (b_w b) w x Hbw Hw Hx) as (l & r & wx & E3 & E4 & B2 & NX & CX & X1 & X2).
  clear AX.
  set (gy := linearScale (@center D (b_h b) h y) (@filterScale D (b_h b) h)) in *.
  set (gx := linearScale (@center D (b_w b) w x) (@filterScale D (b_w b) w)) in *.
  set (P := fun i => @isZero D (gy i)) in *.
  set (Q := fun i => @isZero D (gx i)) in *.
  set (L := window2 P Q t bt l r).
  assert (LEN : (N.of_nat (length L) <= tent_reach (b_w b) w * tent_reach (b_h b) h)%N /\
                (N.of_nat (length L) < 2 ^ 32)%N).
  { unfold L. rewrite length_window2. pose proof (length_keep P t bt). pose proof (length_keep Q l r).
    rewrite Nat2N.inj_mul. split.
    - rewrite N.mul_comm. apply N.mul_le_mono; lia.
    - apply N.le_lt_trans with (b_h b * b_w b)%N; [apply N.mul_le_mono; lia|lia]. }
  assert (INL : forall k, In k L -> In (snd k) (keep Q l r) /\ In (fst k) (keep P t bt)).
  { intros [i j] I. apply in_window2 in I. simpl. tauto. }
  assert (AV : forall v, sum (fun k => v (snd k) (fst k) * (wx (snd k) * wy (fst k))) L
                         / sum (fun k => wx (snd k) * wy (fst k)) L
                         = average2 wx wy (b_w b) (b_h b) v).
  { intros v. unfold L. apply (visited_average2 wx wy wx wy (b_w b) (b_h b) v P Q t bt l r).
    - intros i I. split; [apply (Y1 i I)|reflexivity].
    - exact Y2.
    - intros i I. split; [apply (X1 i I)|reflexivity].
    - exact X2.
    - apply (near_tent_total _ _ _ _ NY).
    - apply (near_tent_total _ _ _ _ NX). }
  pose proof u_pos as U.
  assert (WP : forall k, In k L -> u <= wx (snd k) <= 1 /\ u <= wy (fst k) <= 1 /\
                                   u * u <= wx (snd k) * wy (fst k) <= 1).
  { intros k I. apply INL in I. destruct I as [I J].
    destruct (X1 _ I) as (_ & _ & G1). destruct (Y1 _ J) as (_ & _ & G2).
    split; [exact G1|]. split; [exact G2|]. split; [apply Rmult_le_compat; lra|].
    apply Rle_trans with (1 * 1); [apply Rmult_le_compat; lra|lra]. }
  assert (SP : 0 < sum (fun k => wx (snd k) * wy (fst k)) L).
  { pose proof NY as [(i & Hi & Wi) _]. pose proof NX as [(j & Hj & Wj) _].
    assert (Ii : In i (keep P t bt)).
    { destruct (in_dec N.eq_dec i (keep P t bt)); auto. rewrite (Y2 i) in Wi by auto. lra. }
    assert (Ij : In j (keep Q l r)).
    { destruct (in_dec N.eq_dec j (keep Q l r)); auto. rewrite (X2 j) in Wj by auto. lra. }
    assert (IN : In (i, j) L) by (apply in_window2; auto).
    apply Rlt_le_trans with (wx (snd (i, j)) * wy (fst (i, j))).
    + destruct (WP _ IN) as (_ & _ & G). nra.
    + apply (sum_member (fun k => wx (snd k) * wy (fst k))); [|exact IN].
      intros k' I. destruct (WP k' I) as (_ & _ & G). nra. }
  exists (fun p => ndiv D (@acc_sum D _ (fun k => nmul D (p (col (snd k) (fst k))) (nmul D (gx (snd k)) (gy (fst k)))) L)
                          (@acc_sum D _ (fun k => nmul D (gx (snd k)) (gy (fst k))) L)),
    wx, wy.
  split; [|split; [exact NX|split; [exact NY|]]].
  - apply (linearPixel_sum b w h x y t bt l r col E1 E2 E3 E4).
    intros i j I. destruct (INL (i, j) I) as [J1 J2]. apply Hcol; [apply (X1 _ J1)|apply (Y1 _ J2)].
  - intros m p v B HP HB. rewrite <- AV.
    destruct (linear_average pw (fun k => p (col (snd k) (fst k))) (fun k => nmul D (gx (snd k)) (gy (fst k)))
      (fun k => v (snd k) (fst k)) (fun k => wx (snd k) * wy (fst k))
      (fun k => rnd64 (wx (snd k) * wy (fst k))) B L HB) as (r0 & R1 & R2).
    + rewrite INR_NR. assert (NR (N.of_nat (length L)) <= 4294967296) by (apply (NR_le _ 4294967296); lia). lra.
    + exact SP.
    + intros k I. destruct (WP k I) as (G1 & G2 & G3). apply INL in I. destruct I as [I J].
      destruct (X1 _ I) as (L1 & EX & _). destruct (Y1 _ J) as (L2 & EY & _).
      destruct (HP (snd k) (fst k) L1 L2) as [H1 H2].
      split; [exact H1|]. split; [exact H2|].
      assert (P0 : Rabs (wx (snd k) * wy (fst k)) <= 1) by (rewrite Rabs_pos_eq; [lra|nra]).
      split; [|split; [|split; [split|]]].
      * apply mul_is.
        -- rewrite <- EX. apply linearScale_is; auto.
        -- rewrite <- EY. apply linearScale_is; auto.
        -- eapply Rle_trans; [exact P0|]. change 1 with (bpow radix2 0). apply bpow_le. lia.
      * apply rnd64_rel; [rewrite Rabs_pos_eq; [lra|nra]|].
        eapply Rle_trans; [|apply (proj1 G3)]. unfold u. rewrite <- bpow_plus. apply bpow_le. lia.
      * rewrite <- (rnd64_bpow (-106)) by lia. apply rnd64_le.
        eapply Rle_trans; [|apply (proj1 G3)]. unfold u. rewrite <- bpow_plus. apply bpow_le. lia.
      * apply rnd64_le_fmt; [apply one_format|lra].
      * nra.
    + exists r0. split; [exact R1|]. eapply Rle_trans; [exact R2|].
      pose proof (bpow_gt_0 radix2 (-900)). rewrite INR_NR.
      pose proof (NR_le _ _ (proj1 LEN)) as LL. fold m in LL.
      apply Rmult_le_compat_r; [lra|]. apply Rmult_le_compat_r; lra.
Qed.

End Pixel.
End Pow.

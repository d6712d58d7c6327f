(** C36, part 3: generateMips3d in linear space in the program's binary64 arithmetic. *)

From Coq Require Import ZArith NArith List Bool Lia Reals Lra Psatz.
From Coq Require Import ZifyBool ZifyNat ZifyN.
From Flocq Require Import Core IEEE754.BinarySingleNaN IEEE754.Binary IEEE754.Bits.
From Verif Require Import Base FormatModel FloatModel FloatSpec FloatProofs ArithModel ArithReal ArithSpec DoubleProofs
  TextureModel ImageModel ImageLoops ResizeModel ResizeSpec ResizeLoops ResizeRealProofs ResizeAxis64
  ResizeSum64 ResizeAvg64 PropsResize PropsResize64.
Import ListNotations.
Local Open Scope R_scope.

Section Pow.
Variable pw : double -> double -> double.
Local Notation D := (double_arith pw).

(** Channel [k] (red, green, blue, alpha) of a pixel of four floats, [None] unless finite. *)
Definition channel (k : nat) (p : pix D) : option R :=
  match p with
  | PF [r; g; b; a] =>
      match nth_error [r; g; b; a] k with
      | Some v => if finite v then Some (real v) else None
      | None => None
      end
  | _ => None
  end.
(** Pixel (x, y), y downwards, of layer [i]. *)
Definition layer64 (prev : list (bitmap D)) (i x y : N) (k : nat) : R :=
  match nth_error prev (N.to_nat i) with
  | Some b => match channel k (b_px b x (b_h b - 1 - y)) with Some v => v | None => 0 end
  | None => 0
  end.

Section Layer.
Variables (prev : list (bitmap D)) (n d x y : N) (col : N -> color D).
Let s := N.of_nat (length prev).
Hypothesis Hs : (0 < s < 2 ^ 31)%N.
Hypothesis Hn : (0 < n < 2 ^ 31)%N.
Hypothesis Hd : (d < n)%N.
Hypothesis Hcol : forall i, (i < s)%N -> sourceColor CS_Linear prev i x y = Some (col i).

Definition chan1 (p : color D -> num D) (v : N -> R) (B : R) : Prop :=
  forall i, (i < s)%N -> is pw (p (col i)) (v i) /\ Rabs (v i) <= B.

Lemma tent_count a b : NR (b - a) <= 2 * extent s n + 1 + / 131072 -> (b - a <= tent_reach s n)%N.
Proof.
  intros H. apply NR_int. pose proof (extent_floor s n ltac:(lia)).
  unfold tent_reach. replace (NR (2 * (s / n) + 3)) with (2 * NR (s / n) + 3); [lra|].
  unfold NR. rewrite N2Z.inj_add, N2Z.inj_mul, plus_IZR, mult_IZR. reflexivity.
Qed.

Lemma count_ok a b (l : list N) : (b <= s)%N -> (N.of_nat (length l) <= b - a)%N ->
  INR (length l) + 1 <= 281474976710656.
Proof.
  intros Hb Hl. rewrite INR_NR. assert (NR (N.of_nat (length l)) <= 2147483648); [|lra].
  apply (NR_le _ 2147483648). lia.
Qed.

Lemma boxLayer64 : exists (val : (color D -> num D) -> num D) wt,
  boxLayer CS_Linear prev n d x y = Some (C4 (val c_r) (val c_g) (val c_b) (val c_a)) /\
  near_box s n d wt /\
  (forall p v B, chan1 p v B -> bpow radix2 (-900) <= B <= bpow radix2 800 ->
     exists r, is pw (val p) r /\ Rabs (r - average wt s v) <= 8 * (NR (tent_reach s n) + 2) * u * B).
Proof.
  pose proof (E_bounds pw s n d Hs Hn Hd) as EB. pose proof (e_bounds pw s n d Hs Hn Hd) as eB.
  destruct (box_axis pw s n d Hs Hn Hd (@offset D s n) (E' s n) (extent s n)
    (offset_is pw s n d Hs Hn Hd) ltac:(lra) (E_err pw s n d Hs Hn Hd) ltac:(lra))
    as (a & b & wt & E1 & E2 & B1 & NB & CT & K1 & K2 & K3).
  set (L := keep (@outsideBox D (@center D s n d) (@filterScale D s n)) a b) in *.
  pose proof (length_keep (@outsideBox D (@center D s n d) (@filterScale D s n)) a b) as LK. fold L in LK.
  apply tent_count in CT. pose proof (count_ok a b L B1 LK) as LC.
  exists (fun p => ndiv D (@acc_sum D _ (fun k => p (col k)) L) (@ofN D (N.of_nat (length L)))), wt.
  split; [|split; [exact NB|]].
  - apply (boxLayer_sum CS_Linear prev n d x y a b col).
    + exact E1.
    + fold s. rewrite u32_small by lia. exact E2.
    + intros i I. apply Hcol. apply (K1 i I).
    + fold s. fold L. lia.
  - intros p v B HP HB.
    destruct (box_average pw (fun k => p (col k)) v B L HB K3 LC) as (r & R1 & R2).
    + intros i I. apply HP. apply (K1 i I).
    + exists r. split; [exact R1|].
      replace (average wt s v) with (sum (fun i => v i * 1) L / sum (fun _ => 1) L).
      * eapply Rle_trans; [exact R2|]. pose proof (bpow_gt_0 radix2 (-900)). pose proof u_pos. rewrite INR_NR.
        assert (NR (N.of_nat (length L)) <= NR (tent_reach s n)) by (apply NR_le; lia).
        apply Rmult_le_compat_r; [lra|]. apply Rmult_le_compat_r; lra.
      * apply (visited_average wt (fun _ => 1) s v (@outsideBox D (@center D s n d) (@filterScale D s n)) a b);
          [exact K1|exact K2].
Qed.

Lemma linearLayer64 : exists (val : (color D -> num D) -> num D) wt,
  linearLayer CS_Linear prev n d x y = Some (C4 (val c_r) (val c_g) (val c_b) (val c_a)) /\
  near_tent s n d wt /\
  (forall p v B, chan1 p v B -> bpow radix2 (-900) <= B <= bpow radix2 800 ->
     exists r, is pw (val p) r /\ Rabs (r - average wt s v) <= 8 * (NR (tent_reach s n) + 2) * u * B).
Proof.
  destruct (tent_axis pw s n d Hs Hn Hd) as (a & b & wt & E1 & E2 & B1 & NT & CT & K1 & K2).
  set (g := @linearScale D (@center D s n d) (@filterScale D s n)) in *.
  set (L := keep (fun i => @isZero D (g i)) a b) in *.
  pose proof (length_keep (fun i => @isZero D (g i)) a b) as LK. fold L in LK.
  apply tent_count in CT. pose proof (count_ok a b L B1 LK) as LC.
  pose proof u_pos as U.
  exists (fun p => ndiv D (@acc_sum D _ (fun k => nmul D (p (col k)) (g k)) L) (@acc_sum D _ g L)), wt.
  split; [|split; [exact NT|]].
  - apply (linearLayer_sum CS_Linear prev n d x y a b col).
    + exact E1.
    + fold s. rewrite u32_small by lia. exact E2.
    + intros i I. apply Hcol. apply (K1 i I).
  - intros p v B HP HB.
    assert (UL : bpow radix2 (-106) <= u) by (unfold u; apply bpow_le; lia).
    destruct (linear_average pw (fun k => p (col k)) g v wt wt B L HB LC) as (r & R1 & R2).
    + destruct NT as [(i & Hi & Wi) _].
      assert (Ii : In i L).
      { destruct (in_dec N.eq_dec i L); auto. rewrite (K2 i) in Wi by auto. lra. }
      apply Rlt_le_trans with (wt i); [lra|]. apply (sum_member wt); auto.
      intros k I. destruct (K1 k I) as (_ & _ & G). lra.
    + intros i I. destruct (K1 i I) as (Hi & EW & G). destruct (HP i Hi) as [H1 H2].
      split; [exact H1|]. split; [exact H2|]. split.
      { rewrite <- EW. apply linearScale_is; auto. }
      split; [rewrite Rminus_diag_eq, Rabs_R0 by reflexivity; nra|]. lra.
    + exists r. split; [exact R1|].
      replace (average wt s v) with (sum (fun i => v i * wt i) L / sum wt L).
      * eapply Rle_trans; [exact R2|]. pose proof (bpow_gt_0 radix2 (-900)). rewrite INR_NR.
        assert (NR (N.of_nat (length L)) <= NR (tent_reach s n)) by (apply NR_le; lia).
        apply Rmult_le_compat_r; [lra|]. apply Rmult_le_compat_r; lra.
      * apply (visited_average wt wt s v (fun i => @isZero D (g i)) a b); [|exact K2].
        intros i I. split; [apply (K1 i I)|reflexivity].
Qed.

End Layer.

(** Every channel of every layer is the float nearest to the weighted average of the source
    layers, with weights and average off by rounding errors only. *)
Theorem C36_mips3d_rounding : forall alloc (prev : list (bitmap D)) w h n rf B,
  (0 < N.of_nat (length prev) < 2 ^ 31)%N -> (0 < n < 2 ^ 31)%N -> (0 < h < 2 ^ 31)%N ->
  bpow radix2 (-900) <= B <= bpow radix2 126 ->
  Forall (fun b => b_w b = w /\ b_h b = h /\
    forall x y k, (x < w)%N -> (y < h)%N -> (k < 4)%nat ->
      exists v, channel k (b_px b x y) = Some v /\ Rabs v <= B) prev ->
  alloc I_RGBAF w h <> None ->
  let s := N.of_nat (length prev) in
  exists out, mips3d alloc prev w h n CS_Linear rf = Some out /\ N.of_nat (length out) = n /\
    forall d, (d < n)%N -> exists im, nth_error out (N.to_nat d) = Some im /\
      b_fmt im = I_RGBAF /\ b_w im = w /\ b_h im = h /\ b_cs im = CS_Linear /\
      forall x y, (x < w)%N -> (y < h)%N -> exists wt, near_weights rf s n d wt /\
        forall k, (k < 4)%nat -> exists r,
          Rabs (r - average wt s (fun i => layer64 prev i x y k)) <= slack (2 * (s / n) + 3) B /\
          channel k (b_px im x (h - 1 - y)) = Some (rnd32 r).
Proof.
  intros alloc prev w h n rf B Hs Hn Hh HB HP AL s.
  assert (SL : forall y, (y < h)%N -> scanlineOf h y = (h - 1 - y)%N).
  { intros y Hy. unfold scanlineOf, usub, u32.
    replace (h + 2 ^ 32 - y)%N with (h - y + 1 * 2 ^ 32)%N by lia.
    rewrite N.mod_add, (N.mod_small (h - y)) by lia.
    replace (h - y + 2 ^ 32 - 1)%N with (h - y - 1 + 1 * 2 ^ 32)%N by lia.
    rewrite N.mod_add, N.mod_small by lia. lia. }
  assert (HB8 : bpow radix2 (-900) <= B <= bpow radix2 800).
  { split; [apply HB|]. eapply Rle_trans; [apply HB|]. apply bpow_le. lia. }
  assert (SRC : forall i x y, (i < s)%N -> (x < w)%N -> (y < h)%N -> exists c,
    sourceColor CS_Linear prev i x y = Some c /\
    is pw (c_r c) (layer64 prev i x y 0) /\ is pw (c_g c) (layer64 prev i x y 1) /\
    is pw (c_b c) (layer64 prev i x y 2) /\ is pw (c_a c) (layer64 prev i x y 3) /\
    forall k, (k < 4)%nat -> Rabs (layer64 prev i x y k) <= B).
  { intros i x y Hi Hx Hy. unfold sourceColor, layer64.
    destruct (nth_error prev (N.to_nat i)) as [b|] eqn:E.
    2:{ apply nth_error_None in E. lia. }
    pose proof (proj1 (Forall_forall _ _) HP b (nth_error_In _ _ E)) as (E1 & E2 & PB).
    cbn [obind]. unfold floatPixel. rewrite E2, SL by auto.
    rewrite read_inside by (split; lia). cbn [obind].
    assert (C : forall k, (k < 4)%nat -> exists v, channel k (b_px b x (h - 1 - y)) = Some v /\ Rabs v <= B).
    { intros k Hk. apply PB; auto. lia. }
    clear PB. destruct (b_px b x (h - 1 - y)) as [l|l|l].
    1,3: destruct (C 0%nat ltac:(lia)) as (v & V & _); discriminate.
    destruct l as [|r [|g [|b' [|a [|]]]]]; try (destruct (C 0%nat ltac:(lia)) as (v & V & _); discriminate).
    cbn [obind]. eexists. split; [reflexivity|]. unfold linearColor. cbn [c_r c_g c_b c_a widen double_arith].
    assert (W : forall k v, (k < 4)%nat -> nth_error [r; g; b'; a] k = Some v ->
      channel k (@PF D [r; g; b'; a]) = Some (real v) /\ is pw (dwiden v) (real v) /\ Rabs (real v) <= B).
    { intros k v Hk Hv. destruct (C k Hk) as (q & Q & QB). 
      assert (FV : finite v = true /\ q = real v /\ channel k (@PF D [r; g; b'; a]) = Some (real v)).
      { clear -Q Hv. destruct k as [|[|[|[|k]]]]; cbn [nth_error] in Hv; try (destruct k; discriminate);
          injection Hv as <-; unfold channel in *; cbn [nth_error] in *;
          match type of Q with (if ?c then _ else _) = _ => destruct c; [|discriminate] end;
          (split; [reflexivity|]); split; congruence. }
      destruct FV as (FV & -> & ->). split; [reflexivity|].
      destruct (dwiden_ok v FV) as [W1 W2]. split; [|exact QB]. split; assumption. }
    destruct (W 0%nat r ltac:(lia) eq_refl) as (X0 & Y0 & Z0).
    destruct (W 1%nat g ltac:(lia) eq_refl) as (X1 & Y1 & Z1).
    destruct (W 2%nat b' ltac:(lia) eq_refl) as (X2 & Y2 & Z2).
    destruct (W 3%nat a ltac:(lia) eq_refl) as (X3 & Y3 & Z3).
    rewrite X0, X1, X2, X3.
    split; [exact Y0|]. split; [exact Y1|]. split; [exact Y2|]. split; [exact Y3|].
    intros k Hk. destruct k as [|[|[|[|k]]]]; [rewrite X0|rewrite X1|rewrite X2|rewrite X3|lia]; assumption. }
  set (col := fun x y i => match sourceColor CS_Linear prev i x y with Some c => c | None => black end).
  assert (CC : forall x y, (x < w)%N -> (y < h)%N ->
    forall i, (i < s)%N -> sourceColor CS_Linear prev i x y = Some (col x y i)).
  { intros x y Hx Hy i Hi. unfold col. destruct (SRC i x y Hi Hx Hy) as (c & -> & _). reflexivity. }
  assert (CH : forall x y, (x < w)%N -> (y < h)%N ->
    chan1 prev (col x y) c_r (fun i => layer64 prev i x y 0) B /\
    chan1 prev (col x y) c_g (fun i => layer64 prev i x y 1) B /\
    chan1 prev (col x y) c_b (fun i => layer64 prev i x y 2) B /\
    chan1 prev (col x y) c_a (fun i => layer64 prev i x y 3) B).
  { intros x y Hx Hy.
    assert (Q : forall i, (i < s)%N -> is pw (c_r (col x y i)) (layer64 prev i x y 0) /\
      is pw (c_g (col x y i)) (layer64 prev i x y 1) /\ is pw (c_b (col x y i)) (layer64 prev i x y 2) /\
      is pw (c_a (col x y i)) (layer64 prev i x y 3) /\ forall k, (k < 4)%nat -> Rabs (layer64 prev i x y k) <= B).
    { intros i Hi. unfold col. destruct (SRC i x y Hi Hx Hy) as (c & -> & Q). exact Q. }
    split; [|split; [|split]]; intros i Hi; destruct (Q i Hi) as (H0 & H1 & H2 & H3 & H4);
      (split; [assumption|apply H4; lia]). }
  set (bound := slack (2 * (s / n) + 3) B).
  assert (RES : forall d x y, (d < n)%N -> (x < w)%N -> (y < h)%N -> exists c wt,
    (match rf with RF_Box => boxLayer CS_Linear prev n d x y | _ => linearLayer CS_Linear prev n d x y end) = Some c /\
    near_weights rf s n d wt /\
    exists r0 r1 r2 r3, is pw (c_r c) r0 /\ is pw (c_g c) r1 /\ is pw (c_b c) r2 /\ is pw (c_a c) r3 /\
    forall k, (k < 4)%nat ->
      Rabs (nth k [r0; r1; r2; r3] 0 - average wt s (fun i => layer64 prev i x y k)) <= bound).
  { intros d x y Hd Hx Hy. destruct (CH x y Hx Hy) as (H0 & H1 & H2 & H3).
    assert (FIN : forall (val : (color D -> num D) -> num D) wt,
      (forall p v B, chan1 prev (col x y) p v B -> bpow radix2 (-900) <= B <= bpow radix2 800 ->
         exists r, is pw (val p) r /\ Rabs (r - average wt s v) <= 8 * (NR (tent_reach s n) + 2) * u * B) ->
      exists r0 r1 r2 r3, is pw (val c_r) r0 /\ is pw (val c_g) r1 /\ is pw (val c_b) r2 /\ is pw (val c_a) r3 /\
      forall k, (k < 4)%nat ->
      Rabs (nth k [r0; r1; r2; r3] 0 - average wt s (fun i => layer64 prev i x y k)) <= bound).
    { intros val wt V.
      destruct (V c_r _ B H0 HB8) as (r0 & I0 & J0). destruct (V c_g _ B H1 HB8) as (r1 & I1 & J1).
      destruct (V c_b _ B H2 HB8) as (r2 & I2 & J2). destruct (V c_a _ B H3 HB8) as (r3 & I3 & J3).
      rewrite slack_u in *. exists r0, r1, r2, r3. repeat (split; [assumption|]).
      intros k Hk. destruct k as [|[|[|[|k]]]]; [exact J0|exact J1|exact J2|exact J3|lia]. }
    assert (LIN : exists c wt, linearLayer CS_Linear prev n d x y = Some c /\ near_tent s n d wt /\
      exists r0 r1 r2 r3, is pw (c_r c) r0 /\ is pw (c_g c) r1 /\ is pw (c_b c) r2 /\ is pw (c_a c) r3 /\
      forall k, (k < 4)%nat ->
      Rabs (nth k [r0; r1; r2; r3] 0 - average wt s (fun i => layer64 prev i x y k)) <= bound).
    { destruct (linearLayer64 prev n d x y (col x y) Hs Hn Hd (CC x y Hx Hy)) as (val & wt & E & NT & V).
      exists (C4 (val c_r) (val c_g) (val c_b) (val c_a)), wt. split; [exact E|]. split; [exact NT|].
      exact (FIN val wt V). }
    destruct rf; try exact LIN.
    destruct (boxLayer64 prev n d x y (col x y) Hs Hn Hd (CC x y Hx Hy)) as (val & wt & E & NT & V).
    exists (C4 (val c_r) (val c_g) (val c_b) (val c_a)), wt. split; [exact E|]. split; [exact NT|].
    exact (FIN val wt V). }
  (* narrowing does not overflow *)
  assert (BS : bound <= B).
  { unfold bound, slack.
    assert (X : (2 * (s / n) + 3 <= 2 ^ 33)%N).
    { assert (s / n <= s)%N by (apply N.div_le_upper_bound; [lia|nia]). lia. }
    assert (NR (2 * (s / n) + 3) <= 8589934592) by (apply (NR_le _ 8589934592); lia).
    pose proof (bpow_gt_0 radix2 (-900)).
    apply Rle_trans with (1 * B); [|lra]. apply Rmult_le_compat_r; [lra|].
    replace (bpow radix2 (-50)) with (/ 1125899906842624) by (simpl; lra). lra. }
  assert (NAR : forall v r q, is pw v r -> Rabs q <= B -> Rabs (r - q) <= bound ->
    finite (dnarrow v) = true /\ real (dnarrow v) = rnd32 r).
  { intros v r q [V1 V2] HQ HR. rewrite <- V2. apply dnarrow_ok; [exact V1|]. rewrite V2.
    assert (Q : Rabs r <= bpow radix2 127).
    { replace r with ((r - q) + q) by ring. eapply Rle_trans; [apply Rabs_triang|].
      change 127%Z with (1 + 126)%Z. rewrite bpow_plus. simpl (bpow radix2 1). lra. }
    apply Rle_lt_trans with (bpow radix2 127); [|apply bpow_lt; lia].
    unfold rnd32. apply abs_round_le_generic; auto; try (apply FLT_exp_valid; unfold Prec_gt_0; lia);
      try apply valid_rnd_N.
    apply generic_format_bpow. unfold FLT_exp. lia. }
  assert (COL : forall d x y, (d < n)%N -> (x < w)%N -> (y < h)%N -> exists c p,
    (match rf with RF_Box => boxLayer CS_Linear prev n d x y | _ => linearLayer CS_Linear prev n d x y end) = Some c /\
    storeLinear CS_Linear c = p /\
    exists wt, near_weights rf s n d wt /\
    forall k, (k < 4)%nat -> exists r,
      Rabs (r - average wt s (fun i => layer64 prev i x y k)) <= bound /\ channel k p = Some (rnd32 r)).
  { intros d x y Hd Hx Hy.
    destruct (RES d x y Hd Hx Hy) as (c & wt & E & NW & r0 & r1 & r2 & r3 & I0 & I1 & I2 & I3 & BD).
    exists c, (storeLinear CS_Linear c). split; [exact E|]. split; [reflexivity|].
    exists wt. split; [exact NW|]. intros k Hk. exists (nth k [r0; r1; r2; r3] 0). split; [apply BD; auto|].
    assert (AVB : forall k, (k < 4)%nat -> Rabs (average wt s (fun i => layer64 prev i x y k)) <= B).
    { intros k' Hk'. destruct (near_total _ _ _ _ _ NW) as [T P]. apply Rabs_le.
      apply average_between; auto. intros i Hi _. apply Rabs_le_inv.
      destruct (SRC i x y Hi Hx Hy) as (c' & _ & _ & _ & _ & _ & Q). apply Q; auto. }
    unfold storeLinear, channel. cbn [narrow double_arith].
    destruct k as [|[|[|[|k]]]]; [| | | |lia]; cbn [nth_error nth].
    - destruct (NAR _ _ _ I0 (AVB 0%nat Hk) (BD 0%nat Hk)) as [-> ->]. reflexivity.
    - destruct (NAR _ _ _ I1 (AVB 1%nat Hk) (BD 1%nat Hk)) as [-> ->]. reflexivity.
    - destruct (NAR _ _ _ I2 (AVB 2%nat Hk) (BD 2%nat Hk)) as [-> ->]. reflexivity.
    - destruct (NAR _ _ _ I3 (AVB 3%nat Hk) (BD 3%nat Hk)) as [-> ->]. reflexivity. }
  unfold mips3d.
  assert (LAY : forall d, (d < n)%N -> exists im, mipLayer alloc CS_Linear prev w h n rf d = Some im /\
    b_fmt im = I_RGBAF /\ b_w im = w /\ b_h im = h /\ b_cs im = CS_Linear /\
    forall x y, (x < w)%N -> (y < h)%N -> exists wt, near_weights rf s n d wt /\
      forall k, (k < 4)%nat -> exists r,
        Rabs (r - average wt s (fun i => layer64 prev i x y k)) <= bound /\
        channel k (b_px im x (h - 1 - y)) = Some (rnd32 r)).
  { intros d Hd. unfold mipLayer, initialize.
    destruct (alloc I_RGBAF w h) as [px|] eqn:EA; [|congruence]. cbn [obind].
    set (d0 := Bitmap I_RGBAF w h CS_Linear px).
    set (V := fun x y => obind (match rf with RF_Box => boxLayer CS_Linear prev n d x y
                                | _ => linearLayer CS_Linear prev n d x y end)
                               (fun c => Some (storeLinear CS_Linear c))).
    assert (IN : forall x y, (x < w)%N -> (y < h)%N -> inside d0 x (scanlineOf h y)).
    { intros x y Hx Hy. rewrite SL by auto. split; cbn [b_w b_h d0]; lia. }
    rewrite (scatter_loop w h _ (fun x y => x) (fun x y => scanlineOf h y) V d0); auto.
    - destruct (scatter_ok w h (fun x y => x) (fun x y => scanlineOf h y) V d0) as (im & E & SS & P); auto.
      { intros x y x' y' Hx Hy Hx' Hy'. rewrite !SL by auto. lia. }
      { intros x y Hx Hy. destruct (COL d x y Hd Hx Hy) as (c & p & E & _). unfold V. rewrite E. discriminate. }
      exists im. split; [exact E|]. destruct SS as (S1 & S2 & S3 & S4). cbn [b_fmt b_w b_h b_cs d0] in *.
      split; [congruence|]. split; [congruence|]. split; [congruence|]. split; [congruence|].
      intros x y Hx Hy. specialize (P x y Hx Hy). rewrite SL in P by auto. unfold V in P.
      destruct (COL d x y Hd Hx Hy) as (c & p & E' & SE & RR). rewrite E' in P. cbn [obind] in P.
      rewrite SE in P. assert (PE : p = b_px im x (h - 1 - y)) by congruence. rewrite <- PE. exact RR.
    - intros x y im Hx Hy (S1 & S2 & S3 & S4). cbn [b_h d0] in S3. rewrite <- S3. unfold V.
      destruct (match rf with RF_Box => boxLayer CS_Linear prev n d x y
                | _ => linearLayer CS_Linear prev n d x y end); reflexivity. }
  destruct (omap_total (mipLayer alloc CS_Linear prev w h n rf) (Nrange n)) as (out & EO).
  { intros d I. apply in_Nrange in I. destruct (LAY d I) as (im & E & _). eauto. }
  exists out. split; [exact EO|]. split.
  { apply omap_length in EO. rewrite EO, Nrange_length. lia. }
  intros d Hd. destruct (LAY d Hd) as (im & E & P).
  destruct (omap_nth _ _ _ (N.to_nat d) d EO) as (im' & N1 & N2).
  { rewrite nth_error_Nrange by lia. f_equal. lia. }
  exists im. rewrite E in N2. assert (im' = im) by congruence. subst im'. split; [exact N1|]. exact P.
Qed.

End Pow.
Print Assumptions C36_mips3d_rounding.

(** The hypotheses are met. *)
Definition layer64_of pw (v : float) : bitmap (double_arith pw) :=
  @Bitmap (double_arith pw) I_RGBAF 1 1 CS_Linear (fun _ _ => @PF (double_arith pw) [v; v; v; v]).
Definition falloc pw : allocator (double_arith pw) := fun _ _ _ => Some (fun _ _ => @PF (double_arith pw) []).
Example C36_mips3d_rounding_case : forall pw, exists im wt r,
  mips3d (falloc pw) [layer64_of pw (float_of_Z 1); layer64_of pw (float_of_Z 3)] 1 1 1 CS_Linear RF_Linear
    = Some [im] /\ near_tent 2 1 0 wt /\ channel pw 0 (b_px im 0 0) = Some (rnd32 r).
Proof.
  intros pw.
  assert (C : forall z, (Z.abs z <= 4)%Z -> forall k, (k < 4)%nat ->
    exists v, channel pw k (@PF (double_arith pw) [float_of_Z z; float_of_Z z; float_of_Z z; float_of_Z z]) = Some v /\
      Rabs v <= bpow radix2 2).
  { intros z Hz k Hk. destruct (float_of_Z_ok z ltac:(lia)) as [R F].
    exists (IZR z). split; [|rewrite <- abs_IZR; change (bpow radix2 2) with (IZR 4); apply IZR_le; lia].
    unfold channel. destruct k as [|[|[|[|k]]]]; [| | | |lia]; cbn [nth_error]; rewrite F, R; reflexivity. }
  destruct (C36_mips3d_rounding pw (falloc pw) [layer64_of pw (float_of_Z 1); layer64_of pw (float_of_Z 3)]
    1 1 1 RF_Linear (bpow radix2 2)) as (out & E & L & P).
  - cbn [length]. lia.
  - lia.
  - lia.
  - split; apply bpow_le; lia.
  - repeat constructor; intros x y k _ _ Hk; apply C; auto; lia.
  - discriminate.
  - destruct (P 0%N ltac:(lia)) as (im & N0 & _ & _ & _ & _ & PX).
    destruct out as [|im' [|]]; [discriminate| |cbn in L; lia].
    cbn [nth_error N.to_nat] in N0. assert (im' = im) by congruence. subst im'.
    destruct (PX 0%N 0%N ltac:(lia) ltac:(lia)) as (wt & NW & Q). destruct (Q 0%nat ltac:(lia)) as (r & _ & R).
    exists im, wt, r. split; [exact E|]. split; [exact NW|exact R].
Qed.

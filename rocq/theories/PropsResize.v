(** C36: the resampling formulas of Image::resize and generateMips3d over the real numbers
    (the program's binary64 arithmetic: PropsResize64.v). *)

From Coq Require Import ZArith NArith List Bool Lia Reals Lra.
From Coq Require Import ZifyBool ZifyNat ZifyN.
From Flocq Require Import Core.
From Verif Require Import Base FormatModel FloatModel FloatSpec ArithModel ArithReal TextureModel
  ImageModel ImageLoops ResizeModel ResizeSpec ResizeLoops ResizeRealProofs PropsSrgb.
Import ListNotations.
Local Open Scope R_scope.

Local Notation RA := real_arith.

(** The formats Image::resize always resamples itself. *)
Definition own_format (f : imgfmt) : Prop :=
  In f [I_Int16; I_Int32; I_UInt32; I_Double; I_Complex].
Definition channels (f : imgfmt) : nat := match f with I_Complex => 2 | _ => 1 end.

(** The pixels of these formats, and the numbers they hold. *)
Definition shaped (f : imgfmt) (p : pix RA) : Prop :=
  match f, p with
  | I_Int16, PZ [v] => (- 2 ^ 15 <= v <= 2 ^ 15 - 1)%Z
  | I_Int32, PZ [v] => (- 2 ^ 31 <= v <= 2 ^ 31 - 1)%Z
  | I_UInt32, PZ [v] => (0 <= v <= 2 ^ 32 - 1)%Z
  | I_Double, PN [_] => True
  | I_Complex, PN [_; _] => True
  | _, _ => False
  end.
Definition value (k : nat) (p : pix RA) : R :=
  match p with
  | PZ l => nth k (map IZR l) 0
  | PN l => nth k l 0
  | PF l => nth k l 0
  end.
(** Storing numbers: the integer formats drop the fraction. *)
Definition store (f : imgfmt) (l : list R) : pix RA :=
  match f with
  | I_Double | I_Complex => @PN RA l
  | _ => @PZ RA (map Ztrunc l)
  end.

(** The filters of the fallback and their weights. *)
Definition weights (rf : rfilter) : N -> N -> N -> N -> R :=
  match rf with RF_Box => box | _ => tent end.

Lemma weights_range rf s n o i : 0 <= weights rf s n o i <= 1.
Proof. destruct rf; try apply tent_range; apply box_range. Qed.

(** The weights of every output sample have a positive sum. *)
Theorem C36_weights : forall rf s n o, (0 < s < 2 ^ 31)%N -> (0 < n < 2 ^ 31)%N -> (o < n)%N ->
  (forall i, 0 <= weights rf s n o i <= 1) /\ 0 < total s (weights rf s n o) /\
  (exists i, (i < s)%N /\ 0 < weights rf s n o i).
Proof.
  intros rf s n o Hs Hn Ho. split; [intros; apply weights_range|]. split.
  - destruct rf; cbn [weights];
      try (pose proof (tent_total s n o Hs Hn Ho); lra).
    pose proof (box_total s n o Hs Hn Ho). lra.
  - exists (nearest_sample s n o). split; [apply (nearest_sample_ok s n o Hs Hn Ho)|].
    destruct rf; cbn [weights];
      try (pose proof (tent_at_nearest s n o Hs Hn Ho); lra).
    rewrite (box_at_nearest s n o Hs Hn Ho). lra.
Qed.
Print Assumptions C36_weights.

Section Pixel.
Variables (b : bitmap RA) (w h x y : N) (col : N -> N -> color RA).
Hypothesis Hbw : (0 < b_w b < 2 ^ 31)%N.
Hypothesis Hbh : (0 < b_h b < 2 ^ 31)%N.
Hypothesis Hw : (0 < w < 2 ^ 31)%N.
Hypothesis Hh : (0 < h < 2 ^ 31)%N.
Hypothesis Hx : (x < w)%N.
Hypothesis Hy : (y < h)%N.
Hypothesis Hsize : (b_w b * b_h b < 2 ^ 32)%N.
Hypothesis Hcol : forall j i, (j < b_w b)%N -> (i < b_h b)%N -> getAt b j i = Some (col j i).

Let avg wt (f : color RA -> R) :=
  average2 (wt (b_w b) w x) (wt (b_h b) h y) (b_w b) (b_h b) (fun j i => f (col j i)).

Lemma boxPixel_real : boxPixel b w h x y =
  Some (@C4 RA (avg box c_r) (avg box c_g) (avg box c_b) (avg box c_a)).
Proof.
  destruct (box_window (b_h b) h y Hbh Hh Hy) as (t & bt & E1 & E2 & B1 & Y1 & Y2).
  destruct (box_window (b_w b) w x Hbw Hw Hx) as (l & r & E3 & E4 & B2 & X1 & X2).
  set (ky := keep _ t bt) in *. set (kx := keep _ l r) in *.
  rewrite (boxPixel_sum b w h x y t bt l r col).
  - assert (G : forall f : color RA -> R,
      ndiv RA (@acc_sum RA _ (fun k => f (col (snd k) (fst k)))
        (window2 (outsideBox (@center RA (b_h b) h y) (@filterScale RA (b_h b) h))
                 (outsideBox (@center RA (b_w b) w x) (@filterScale RA (b_w b) w)) t bt l r))
        (ofN (N.of_nat (length
        (window2 (outsideBox (@center RA (b_h b) h y) (@filterScale RA (b_h b) h))
                 (outsideBox (@center RA (b_w b) w x) (@filterScale RA (b_w b) w)) t bt l r))))
      = avg box f).
    { intros f. rewrite !center_real. rewrite acc_sum_real.
      match goal with |- context [window2 ?p ?q t bt l r] => set (L := window2 p q t bt l r) end.
      change (ofN (N.of_nat (length L))) with (NR (N.of_nat (length L))).
      rewrite <- (sum_one L). unfold avg. cbn [ndiv real_arith].
      rewrite <- (visited_average2 (box (b_w b) w x) (box (b_h b) h y) (fun _ => 1) (fun _ => 1)
        (b_w b) (b_h b) (fun j i => f (col j i))
        (@outsideBox RA (centre (b_h b) h y) (@filterScale RA (b_h b) h))
        (@outsideBox RA (centre (b_w b) w x) (@filterScale RA (b_w b) w)) t bt l r).
      - fold L. apply (f_equal2 Rdiv); apply sum_ext; intros; ring.
      - intros i I. destruct (Y1 i I). auto.
      - auto.
      - intros i I. destruct (X1 i I). auto.
      - auto.
      - pose proof (box_total (b_h b) h y Hbh Hh Hy). lra.
      - pose proof (box_total (b_w b) w x Hbw Hw Hx). lra. }
    rewrite !G. reflexivity.
  - rewrite center_real, offset_real, half_real. exact E1.
  - rewrite center_real, offset_real, half_real. exact E2.
  - rewrite center_real, offset_real, half_real. exact E3.
  - rewrite center_real, offset_real, half_real. exact E4.
  - intros i j I. rewrite !center_real in I. apply in_window2 in I. destruct I as [I J].
    apply Hcol; [apply (X1 j J)|apply (Y1 i I)].
  - rewrite length_window2.
    match goal with |- context [(length (keep ?p t bt) * length (keep ?q l r))%nat] =>
      pose proof (length_keep p t bt); pose proof (length_keep q l r) end.
    assert (N.of_nat (length (keep (outsideBox (center (A := RA) (b_h b) h y) (filterScale (A := RA) (b_h b) h)) t bt)) *
            N.of_nat (length (keep (outsideBox (center (A := RA) (b_w b) w x) (filterScale (A := RA) (b_w b) w)) l r))
            <= b_h b * b_w b)%N by (apply N.mul_le_mono; lia).
    lia.
Qed.

Lemma linearPixel_real : linearPixel b w h x y =
  Some (@C4 RA (avg tent c_r) (avg tent c_g) (avg tent c_b) (avg tent c_a)).
Proof.
  destruct (tent_window (b_h b) h y Hbh Hh Hy) as (t & bt & E1 & E2 & B1 & Y1 & Y2).
  destruct (tent_window (b_w b) w x Hbw Hw Hx) as (l & r & E3 & E4 & B2 & X1 & X2).
  rewrite (linearPixel_sum b w h x y t bt l r col).
  - rewrite !center_real. rewrite !acc_sum_real. cbn [nmul ndiv real_arith].
    match goal with |- context [window2 ?p ?q t bt l r] => set (L := window2 p q t bt l r) end.
    assert (G : forall f : color RA -> R,
      sum (fun k => f (col (snd k) (fst k)) *
        (@linearScale RA (centre (b_w b) w x) (@filterScale RA (b_w b) w) (snd k) *
         @linearScale RA (centre (b_h b) h y) (@filterScale RA (b_h b) h) (fst k))) L /
      sum (fun k => 
        (@linearScale RA (centre (b_w b) w x) (@filterScale RA (b_w b) w) (snd k) *
         @linearScale RA (centre (b_h b) h y) (@filterScale RA (b_h b) h) (fst k))) L = avg tent f).
    { intros f. unfold avg, L.
      apply (visited_average2 (tent (b_w b) w x) (tent (b_h b) h y)
        (@linearScale RA (centre (b_w b) w x) (@filterScale RA (b_w b) w))
        (@linearScale RA (centre (b_h b) h y) (@filterScale RA (b_h b) h))
        (b_w b) (b_h b) (fun j i => f (col j i))).
      - intros i I. split; [auto|]. apply linearScale_real.
      - auto.
      - intros i I. split; [auto|]. apply linearScale_real.
      - auto.
      - pose proof (tent_total (b_h b) h y Hbh Hh Hy). lra.
      - pose proof (tent_total (b_w b) w x Hbw Hw Hx). lra. }
    rewrite <- !G. reflexivity.
  - rewrite center_real, offset_real. exact E1.
  - rewrite center_real, offset_real. exact E2.
  - rewrite center_real, offset_real. exact E3.
  - rewrite center_real, offset_real. exact E4.
  - intros i j I. rewrite !center_real in I. apply in_window2 in I. destruct I as [I J].
    apply Hcol; auto.
Qed.

End Pixel.

(** The average of [v] over the source, for pixel (x, y) of a w x h result. *)
Definition resampled (rf : rfilter) (sw sh w h x y : N) (v : N -> N -> R) : R :=
  average2 (weights rf sw w x) (weights rf sh h y) sw sh v.

Lemma average2_between wx wy w h v lo hi :
  (forall j, (j < w)%N -> 0 <= wx j) -> (forall i, (i < h)%N -> 0 <= wy i) ->
  0 < total w wx -> 0 < total h wy ->
  (forall j i, (j < w)%N -> (i < h)%N -> wx j <> 0 -> wy i <> 0 -> lo <= v j i <= hi) ->
  lo <= average2 wx wy w h v <= hi.
Proof.
  intros X Y TX TY V. unfold average2. apply average_between; auto.
  intros i Hi Wi. apply average_between; auto.
Qed.

Lemma resampled_between rf sw sh w h x y v lo hi :
  (0 < sw < 2 ^ 31)%N -> (0 < sh < 2 ^ 31)%N -> (0 < w < 2 ^ 31)%N -> (0 < h < 2 ^ 31)%N ->
  (x < w)%N -> (y < h)%N ->
  (forall j i, (j < sw)%N -> (i < sh)%N ->
     weights rf sw w x j <> 0 -> weights rf sh h y i <> 0 -> lo <= v j i <= hi) ->
  lo <= resampled rf sw sh w h x y v <= hi.
Proof.
  intros. apply average2_between; auto; try (intros; apply weights_range).
  - apply C36_weights; auto.
  - apply C36_weights; auto.
Qed.

Lemma trunc_range lo hi z : IZR lo <= z <= IZR hi -> (lo <= Ztrunc z <= hi)%Z.
Proof.
  intros [L U]. apply Ztrunc_le in L, U. rewrite Ztrunc_IZR in L, U. auto.
Qed.

(** Every pixel of the result is the weighted average of the source pixels, channel by
    channel. *)
Theorem C36_formula : forall fi alloc (b : bitmap RA) w h rf px,
  own_format (b_fmt b) -> b_cs b = CS_Linear -> (rf = RF_Box \/ rf = RF_Linear) ->
  (0 < b_w b < 2 ^ 31)%N -> (0 < b_h b < 2 ^ 31)%N -> (b_w b * b_h b < 2 ^ 32)%N ->
  (0 < w < 2 ^ 31)%N -> (0 < h < 2 ^ 31)%N -> (w, h) <> (b_w b, b_h b) ->
  (forall x y, (x < b_w b)%N -> (y < b_h b)%N -> shaped (b_fmt b) (b_px b x y)) ->
  alloc (b_fmt b) w h = Some px ->
  exists d, resize fi alloc (Some b) w h rf = Some (Some d) /\
    b_fmt d = b_fmt b /\ b_w d = w /\ b_h d = h /\ b_cs d = CS_Linear /\
    forall x y, (x < w)%N -> (y < h)%N ->
      shaped (b_fmt b) (b_px d x y) /\
      b_px d x y = store (b_fmt b)
        (map (fun k => resampled rf (b_w b) (b_h b) w h x y (fun j i => value k (b_px b j i)))
             (seq 0 (channels (b_fmt b)))).
Proof.
  intros fi alloc b w h rf px OF LIN RF Hbw Hbh Hsize Hw Hh NE SH AL.
  set (f := b_fmt b) in *.
  set (col := fun j i => match getPixelImpl f (b_px b j i) with Some c => c | None => black end).
  assert (HC : forall j i, (j < b_w b)%N -> (i < b_h b)%N ->
    getAt b j i = Some (col j i) /\ c_r (col j i) = value 0 (b_px b j i) /\
    (f = I_Complex -> c_g (col j i) = value 1 (b_px b j i))).
  { intros j i Hj Hi. specialize (SH j i Hj Hi). unfold getAt.
    rewrite read_inside by (split; auto). cbn [obind]. fold f. unfold col.
    clear -SH OF. unfold own_format in OF. simpl in OF.
    destruct OF as [E|[E|[E|[E|[E|[]]]]]]; rewrite <- E in *;
      destruct (b_px b j i) as [[|? [|? ?]]|l|[|? [|? [|? ?]]]]; simpl in SH; try contradiction;
      simpl; repeat split; auto; try discriminate. }
  assert (Hcol : forall j i, (j < b_w b)%N -> (i < b_h b)%N -> getAt b j i = Some (col j i))
    by (intros; apply HC; auto).
  set (pixel := match rf with RF_Box => boxPixel b w h | _ => linearPixel b w h end).
  assert (PX : forall x y, (x < w)%N -> (y < h)%N -> exists g' b' a',
    pixel x y = Some (@C4 RA
      (resampled rf (b_w b) (b_h b) w h x y (fun j i => value 0 (b_px b j i))) g' b' a') /\
    (f = I_Complex -> g' = resampled rf (b_w b) (b_h b) w h x y (fun j i => value 1 (b_px b j i)))).
  { intros x y Hx Hy.
    assert (AV : forall wx wy k (p : color RA -> R),
      (forall j i, (j < b_w b)%N -> (i < b_h b)%N -> p (col j i) = value k (b_px b j i)) ->
      average2 wx wy (b_w b) (b_h b) (fun j i => p (col j i)) =
      average2 wx wy (b_w b) (b_h b) (fun j i => value k (b_px b j i))).
    { intros wx wy k p E. unfold average2. apply average_ext; auto. intros i Hi.
      apply average_ext; auto. }
    destruct RF as [-> | ->]; unfold pixel.
    - rewrite (boxPixel_real b w h x y col) by auto. do 3 eexists. split.
      + rewrite (AV _ _ 0%nat c_r) by (intros; apply HC; auto). reflexivity.
      + intros E. apply AV. intros; apply HC; auto.
    - rewrite (linearPixel_real b w h x y col) by auto. do 3 eexists. split.
      + rewrite (AV _ _ 0%nat c_r) by (intros; apply HC; auto). reflexivity.
      + intros E. apply AV. intros; apply HC; auto. }
  assert (RNG : forall lo hi x y, (x < w)%N -> (y < h)%N ->
    (forall j i, (j < b_w b)%N -> (i < b_h b)%N -> exists v, b_px b j i = @PZ RA [v] /\ (lo <= v <= hi)%Z) ->
    (lo <= Ztrunc (resampled rf (b_w b) (b_h b) w h x y (fun j i => value 0 (b_px b j i))) <= hi)%Z).
  { intros lo hi x y Hx Hy HV. apply trunc_range. apply resampled_between; auto.
    intros j i Hj Hi _ _. destruct (HV j i Hj Hi) as (v & -> & R1). simpl.
    split; apply IZR_le; lia. }
  assert (ST : forall x y, (x < w)%N -> (y < h)%N ->
    let p := store f (map (fun k => resampled rf (b_w b) (b_h b) w h x y
                                      (fun j i => value k (b_px b j i))) (seq 0 (channels f))) in
    shaped f p /\ obind (pixel x y) (setPixelNoGrayscaleImpl f) = Some p).
  { intros x y Hx Hy. destruct (PX x y Hx Hy) as (g' & b' & a' & -> & EG). cbn [obind].
    assert (CI : forall lo hi z, (lo <= z <= hi)%Z -> cast_int lo hi (Some z) = Some z).
    { intros lo hi z Hz. unfold cast_int. replace ((lo <=? z) && (z <=? hi))%Z with true by lia. auto. }
    unfold own_format in OF. simpl in OF.
    destruct OF as [E|[E|[E|[E|[E|[]]]]]]; rewrite <- E in *; cbn [channels seq map store];
      cbn [setPixelNoGrayscaleImpl setCommon c_r c_g].
    - assert (R1 : (- 2 ^ 15 <= Ztrunc (resampled rf (b_w b) (b_h b) w h x y
                     (fun j i => value 0 (b_px b j i))) <= 2 ^ 15 - 1)%Z).
      { apply RNG; auto. intros j i Hj Hi. specialize (SH j i Hj Hi). clear -SH.
        destruct (b_px b j i) as [[|? [|? ?]]|l|l]; simpl in SH; try contradiction. eauto. }
      split; [exact R1|]. unfold toInt. cbn [ntrunc real_arith]. rewrite CI by exact R1. reflexivity.
    - assert (R1 : (- 2 ^ 31 <= Ztrunc (resampled rf (b_w b) (b_h b) w h x y
                     (fun j i => value 0 (b_px b j i))) <= 2 ^ 31 - 1)%Z).
      { apply RNG; auto. intros j i Hj Hi. specialize (SH j i Hj Hi). clear -SH.
        destruct (b_px b j i) as [[|? [|? ?]]|l|l]; simpl in SH; try contradiction. eauto. }
      split; [exact R1|]. unfold toInt. cbn [ntrunc real_arith]. rewrite CI by exact R1. reflexivity.
    - assert (R1 : (0 <= Ztrunc (resampled rf (b_w b) (b_h b) w h x y
                     (fun j i => value 0 (b_px b j i))) <= 2 ^ 32 - 1)%Z).
      { apply RNG; auto. intros j i Hj Hi. specialize (SH j i Hj Hi). clear -SH.
        destruct (b_px b j i) as [[|? [|? ?]]|l|l]; simpl in SH; try contradiction. eauto. }
      split; [exact R1|]. unfold toInt. cbn [ntrunc real_arith]. rewrite CI by exact R1. reflexivity.
    - split; [exact Logic.I|]. reflexivity.
    - split; [exact Logic.I|]. rewrite EG by auto. reflexivity. }
  unfold resize.
  replace ((w =? 0) || (h =? 0))%N with false by lia.
  replace ((w =? b_w b) && (h =? b_h b))%N with false.
  2:{ symmetry. destruct (N.eqb_spec w (b_w b)), (N.eqb_spec h (b_h b)); auto.
      exfalso. apply NE. congruence. }
  rewrite LIN. unfold resizeLinear. fold f.
  assert (RB : rescaleFallback f = true).
  { clear -OF. unfold own_format in OF. simpl in OF.
    destruct OF as [E|[E|[E|[E|[E|[]]]]]]; rewrite <- E; reflexivity. }
  rewrite RB. unfold resizeFallback. fold f. unfold initialize. rewrite AL. fold pixel.
  set (d0 := Bitmap f w h (b_cs b) px).
  destruct (fillPixels_ok pixel w h d0 eq_refl eq_refl) as (d & Ed & SS & Hd).
  { intros x y Hx Hy. cbn [b_fmt d0]. destruct (ST x y Hx Hy) as [_ ->]. discriminate. }
  exists d. split.
  { destruct RF as [-> | ->]; unfold pixel in Ed; cbv beta iota; rewrite Ed; reflexivity. }
  destruct SS as (S1 & S2 & S3 & S4). cbn [b_fmt b_w b_h b_cs d0] in *.
  split; [congruence|]. split; [congruence|]. split; [congruence|]. split; [congruence|].
  intros x y Hx Hy. specialize (Hd x y Hx Hy). destruct (ST x y Hx Hy) as [S' E'].
  rewrite E' in Hd. inversion Hd as [Hd']. split; [exact S'|reflexivity].
Qed.
Print Assumptions C36_formula.

(** Every result lies between the smallest and the largest source value under its filter. *)
Theorem C36_between : forall fi alloc (b : bitmap RA) w h rf px x y k lo hi,
  own_format (b_fmt b) -> b_cs b = CS_Linear -> (rf = RF_Box \/ rf = RF_Linear) ->
  (0 < b_w b < 2 ^ 31)%N -> (0 < b_h b < 2 ^ 31)%N -> (b_w b * b_h b < 2 ^ 32)%N ->
  (0 < w < 2 ^ 31)%N -> (0 < h < 2 ^ 31)%N -> (w, h) <> (b_w b, b_h b) ->
  (forall x y, (x < b_w b)%N -> (y < b_h b)%N -> shaped (b_fmt b) (b_px b x y)) ->
  alloc (b_fmt b) w h = Some px ->
  (x < w)%N -> (y < h)%N -> (k < channels (b_fmt b))%nat ->
  (forall j i, (j < b_w b)%N -> (i < b_h b)%N ->
     weights rf (b_w b) w x j <> 0 -> weights rf (b_h b) h y i <> 0 ->
     IZR lo <= value k (b_px b j i) <= IZR hi) ->
  exists d, resize fi alloc (Some b) w h rf = Some (Some d) /\
    IZR lo <= value k (b_px d x y) <= IZR hi.
Proof.
  intros fi alloc b w h rf px x y k lo hi OF LIN RF Hbw Hbh Hsz Hw Hh NE SH AL Hx Hy Hk V.
  destruct (C36_formula fi alloc b w h rf px OF LIN RF Hbw Hbh Hsz Hw Hh NE SH AL)
    as (d & E & _ & _ & _ & _ & P).
  exists d. split; [exact E|]. destruct (P x y Hx Hy) as [_ ->].
  pose proof (resampled_between rf (b_w b) (b_h b) w h x y (fun j i => value k (b_px b j i))
    (IZR lo) (IZR hi) Hbw Hbh Hw Hh Hx Hy V) as B.
  assert (T : IZR lo <= IZR (Ztrunc (resampled rf (b_w b) (b_h b) w h x y
                (fun j i => value k (b_px b j i)))) <= IZR hi).
  { destruct (trunc_range _ _ _ B). split; apply IZR_le; auto. }
  unfold own_format in OF. simpl in OF.
  destruct OF as [F|[F|[F|[F|[F|[]]]]]]; rewrite <- F in Hk |- *; cbn [channels] in *;
    cbn [seq map store]; unfold value at 1; cbn [map nth].
  - destruct k; [|lia]. exact T.
  - destruct k; [|lia]. exact T.
  - destruct k; [|lia]. exact T.
  - destruct k; [|lia]. exact B.
  - destruct k as [|[|k]]; [exact B|exact B|lia].
Qed.
Print Assumptions C36_between.

(** A constant image stays constant. *)
Theorem C36_constant : forall fi alloc (b : bitmap RA) w h rf px p,
  own_format (b_fmt b) -> b_cs b = CS_Linear -> (rf = RF_Box \/ rf = RF_Linear) ->
  (0 < b_w b < 2 ^ 31)%N -> (0 < b_h b < 2 ^ 31)%N -> (b_w b * b_h b < 2 ^ 32)%N ->
  (0 < w < 2 ^ 31)%N -> (0 < h < 2 ^ 31)%N -> (w, h) <> (b_w b, b_h b) ->
  shaped (b_fmt b) p ->
  (forall x y, (x < b_w b)%N -> (y < b_h b)%N -> b_px b x y = p) ->
  alloc (b_fmt b) w h = Some px ->
  exists d, resize fi alloc (Some b) w h rf = Some (Some d) /\ b_w d = w /\ b_h d = h /\
    forall x y, (x < w)%N -> (y < h)%N -> b_px d x y = p.
Proof.
  intros fi alloc b w h rf px p OF LIN RF Hbw Hbh Hsz Hw Hh NE SP CP AL.
  destruct (C36_formula fi alloc b w h rf px OF LIN RF Hbw Hbh Hsz Hw Hh NE) as (d & E & _ & D1 & D2 & _ & P);
    auto.
  { intros x y Hx Hy. rewrite CP by auto. exact SP. }
  exists d. split; [exact E|]. split; [exact D1|]. split; [exact D2|].
  intros x y Hx Hy. destruct (P x y Hx Hy) as [_ ->].
  assert (C : forall k, resampled rf (b_w b) (b_h b) w h x y (fun j i => value k (b_px b j i)) = value k p).
  { intros k. apply Rle_antisym;
      apply (resampled_between rf (b_w b) (b_h b) w h x y (fun j i => value k (b_px b j i))
        (value k p) (value k p)); auto; intros j i Hj Hi _ _; rewrite CP by auto; lra. }
  rewrite (map_ext _ (fun k => value k p) C). clear -OF SP.
  unfold own_format in OF. simpl in OF.
  destruct OF as [F|[F|[F|[F|[F|[]]]]]]; rewrite <- F in *; 
    destruct p as [[|? [|? ?]]|l|[|? [|? [|? ?]]]]; simpl in SP; try contradiction;
    cbn [channels seq map store value nth]; rewrite ?Ztrunc_IZR; reflexivity.
Qed.
Print Assumptions C36_constant.

(** The hypotheses are met: halving a 4 x 2 image of 16-bit integers with the box filter
    averages blocks of four pixels and drops the fraction. *)
Definition ramp : bitmap RA := @Bitmap RA I_Int16 4 2 CS_Linear (fun x y => @PZ RA [Z.of_N (3 * x + 10 * y)]).
Definition any_alloc : allocator RA := fun _ _ _ => Some (fun _ _ => @PZ RA [0%Z]).

Lemma box_2 i : box 4 2 0 i = if (i <? 2)%N then 1 else 0.
Proof.
  unfold box, centre, extent, mid, NR. simpl (IZR (Z.of_N 4)). simpl (IZR (Z.of_N 2)). simpl (IZR (Z.of_N 0)).
  assert (P : 0 <= IZR (Z.of_N i)) by (apply IZR_le; lia).
  replace (4 / 2) with 2 by lra.
  rewrite (Rmax_left 2 1) by lra.
  destruct (N.ltb_spec i 2) as [L|L].
  - assert (IZR (Z.of_N i) <= 1) by (apply IZR_le; lia).
    destruct Rlt_dec; [destruct Rle_dec|]; lra.
  - assert (2 <= IZR (Z.of_N i)) by (apply IZR_le; lia).
    destruct Rlt_dec; [destruct Rle_dec|]; lra.
Qed.
Lemma box_1 i : box 2 1 0 i = if (i <? 2)%N then 1 else 0.
Proof.
  unfold box, centre, extent, mid, NR. simpl (IZR (Z.of_N 1)). simpl (IZR (Z.of_N 2)). simpl (IZR (Z.of_N 0)).
  assert (P : 0 <= IZR (Z.of_N i)) by (apply IZR_le; lia).
  replace (2 / 1) with 2 by lra.
  rewrite (Rmax_left 2 1) by lra.
  destruct (N.ltb_spec i 2) as [L|L].
  - assert (IZR (Z.of_N i) <= 1) by (apply IZR_le; lia).
    destruct Rlt_dec; [destruct Rle_dec|]; lra.
  - assert (2 <= IZR (Z.of_N i)) by (apply IZR_le; lia).
    destruct Rlt_dec; [destruct Rle_dec|]; lra.
Qed.

Example C36_formula_case : exists d,
  resize (fun _ _ _ _ => None) any_alloc (Some ramp) 2 1 RF_Box = Some (Some d) /\
  b_px d 0 0 = @PZ RA [6%Z].
Proof.
  destruct (C36_formula (fun _ _ _ _ => None) any_alloc ramp 2 1 RF_Box (fun _ _ => @PZ RA [0%Z]))
    as (d & E & _ & _ & _ & _ & P); try (cbn; lia); try reflexivity; auto.
  - left; reflexivity.
  - discriminate.
  - intros x y Hx Hy. change (x < 4)%N in Hx. change (y < 2)%N in Hy. unfold shaped, ramp. cbn [b_fmt b_px]. lia.
  - exists d. split; [exact E|]. destruct (P 0%N 0%N ltac:(lia) ltac:(lia)) as [_ ->].
    cbn [ramp b_fmt b_w b_h b_px channels seq map store value nth].
    replace (resampled _ _ _ _ _ _ _ _) with (26 / 4).
    + f_equal. f_equal. rewrite Ztrunc_floor by lra. apply Zfloor_imp. simpl. lra.
    + unfold resampled, average2, average, total, weights.
      change (Nrange 4) with [0; 1; 2; 3]%N. change (Nrange 2) with [0; 1]%N.
      cbn [Nrange N.to_nat Pos.to_nat Pos.iter_op Nat.add seq map fold_right].
      rewrite !box_1, !box_2. simpl. lra.
Qed.

(** * 3D mip levels *)

Definition weights3 (rf : rfilter) : N -> N -> N -> N -> R :=
  match rf with RF_Box => closed_box | _ => tent end.

(** The colour channels are averaged in linear space, alpha as it is. *)
Definition to_linear (cs : colorspace) (v : R) : R := match cs with CS_sRGB => decode v | CS_Linear => v end.
Definition from_linear (cs : colorspace) (v : R) : R := match cs with CS_sRGB => encode v | CS_Linear => v end.

(** Channel [k] (red, green, blue, alpha) of pixel (x, y), y downwards, of an RGBAF image. *)
Definition float_at (b : bitmap RA) (x y : N) (k : nat) : R := value k (b_px b x (b_h b - 1 - y)).

Definition layer (prev : list (bitmap RA)) (i : N) (x y : N) (k : nat) : R :=
  match nth_error prev (N.to_nat i) with Some b => float_at b x y k | None => 0 end.

Definition mip_value (rf : rfilter) (cs : colorspace) (prev : list (bitmap RA)) (n d x y : N)
  (k : nat) : R :=
  let s := N.of_nat (length prev) in
  match k with
  | 3%nat => average (weights3 rf s n d) s (fun i => layer prev i x y k)
  | _ => from_linear cs (average (weights3 rf s n d) s (fun i => to_linear cs (layer prev i x y k)))
  end.

Lemma omap_total {X Y} (f : X -> option Y) l : (forall x, In x l -> exists y, f x = Some y) ->
  exists r, omap f l = Some r.
Proof.
  induction l as [|x l IH]; intros H; [exists []; reflexivity|].
  destruct (H x (or_introl eq_refl)) as (y & E). destruct IH as (r & E').
  { intros x' I. apply H. right; auto. }
  exists (y :: r). simpl. rewrite E. cbn [obind]. rewrite E'. reflexivity.
Qed.

Lemma omap_nth {X Y} (f : X -> option Y) l r i x : omap f l = Some r -> nth_error l i = Some x ->
  exists y, nth_error r i = Some y /\ f x = Some y.
Proof.
  revert r i. induction l as [|a l IH]; intros r i E N; [destruct i; discriminate|].
  simpl in E. destruct (f a) as [y|] eqn:F; [|discriminate]. cbn [obind] in E.
  destruct (omap f l) as [r'|] eqn:O; [|discriminate]. cbn [obind] in E. inversion E; subst.
  destruct i; simpl in *; [inversion N; subst; eauto|eauto].
Qed.

Theorem C36_mips3d_formula : forall alloc (prev : list (bitmap RA)) w h n cs rf,
  (0 < N.of_nat (length prev) < 2 ^ 31)%N -> (0 < n < 2 ^ 31)%N -> (0 < h < 2 ^ 31)%N ->
  Forall (fun b => b_w b = w /\ b_h b = h /\
    forall x y, (x < w)%N -> (y < h)%N -> exists r g b' a, b_px b x y = @PF RA [r; g; b'; a]) prev ->
  alloc I_RGBAF w h <> None ->
  exists out, mips3d alloc prev w h n cs rf = Some out /\ N.of_nat (length out) = n /\
    forall d, (d < n)%N -> exists im, nth_error out (N.to_nat d) = Some im /\
      b_fmt im = I_RGBAF /\ b_w im = w /\ b_h im = h /\ b_cs im = cs /\
      forall x y, (x < w)%N -> (y < h)%N ->
        b_px im x (h - 1 - y) = @PF RA (map (mip_value rf cs prev n d x y) [0; 1; 2; 3]%nat).
Proof.
  intros alloc prev w h n cs rf Hs Hn Hh HP AL.
  set (s := N.of_nat (length prev)) in *.
  assert (SL : forall y, (y < h)%N -> scanlineOf h y = (h - 1 - y)%N).
  { intros y Hy. unfold scanlineOf, usub, u32.
    replace (h + 2 ^ 32 - y)%N with (h - y + 1 * 2 ^ 32)%N by lia.
    rewrite N.mod_add, (N.mod_small (h - y)) by lia.
    replace (h - y + 2 ^ 32 - 1)%N with (h - y - 1 + 1 * 2 ^ 32)%N by lia.
    rewrite N.mod_add, N.mod_small by lia. lia. }
  assert (SRC : forall i x y, (i < s)%N -> (x < w)%N -> (y < h)%N -> exists c,
    sourceColor cs prev i x y = Some c /\
    c_r c = to_linear cs (layer prev i x y 0) /\ c_g c = to_linear cs (layer prev i x y 1) /\
    c_b c = to_linear cs (layer prev i x y 2) /\ c_a c = layer prev i x y 3).
  { intros i x y Hi Hx Hy. unfold sourceColor, layer.
    destruct (nth_error prev (N.to_nat i)) as [b|] eqn:E.
    2:{ apply nth_error_None in E. lia. }
    pose proof (proj1 (Forall_forall _ _) HP b (nth_error_In _ _ E)) as (E1 & E2 & PB).
    cbn [obind]. unfold floatPixel, float_at. rewrite E2, SL by auto.
    rewrite read_inside by (split; lia). cbn [obind].
    destruct (PB x (h - 1 - y)%N Hx ltac:(lia)) as (r & g & b' & a & ->). cbn [obind].
    eexists. split; [reflexivity|]. unfold linearColor, to_linear. cbn [widen narrow real_arith].
    cbn [c_r c_g c_b c_a value nth]. destruct cs; repeat split; try reflexivity; apply toLinear_is. }
  set (col := fun x y i => match sourceColor cs prev i x y with Some c => c | None => black end).
  assert (COL : forall d x y, (d < n)%N -> (x < w)%N -> (y < h)%N ->
    exists c, (match rf with RF_Box => boxLayer cs prev n d x y | _ => linearLayer cs prev n d x y end)
      = Some c /\ storeLinear cs c = @PF RA (map (mip_value rf cs prev n d x y) [0; 1; 2; 3]%nat)).
  { intros d x y Hd Hx Hy.
    assert (AV : forall wt, 
      average wt s (fun i => c_r (col x y i)) = average wt s (fun i => to_linear cs (layer prev i x y 0)) /\
      average wt s (fun i => c_g (col x y i)) = average wt s (fun i => to_linear cs (layer prev i x y 1)) /\
      average wt s (fun i => c_b (col x y i)) = average wt s (fun i => to_linear cs (layer prev i x y 2)) /\
      average wt s (fun i => c_a (col x y i)) = average wt s (fun i => layer prev i x y 3)).
    { intros wt. repeat split; apply average_ext; auto; intros i Hi; unfold col;
        destruct (SRC i x y Hi Hx Hy) as (c & -> & ? & ? & ? & ?); auto. }
    assert (CC : forall i, (i < s)%N -> sourceColor cs prev i x y = Some (col x y i)).
    { intros i Hi. unfold col. destruct (SRC i x y Hi Hx Hy) as (c & -> & _). reflexivity. }
    assert (U : u32 s = s) by (apply u32_small; lia).
    assert (RES : exists c, (match rf with RF_Box => boxLayer cs prev n d x y | _ => linearLayer cs prev n d x y end)
      = Some c /\ c_r c = average (weights3 rf s n d) s (fun i => c_r (col x y i))
      /\ c_g c = average (weights3 rf s n d) s (fun i => c_g (col x y i))
      /\ c_b c = average (weights3 rf s n d) s (fun i => c_b (col x y i))
      /\ c_a c = average (weights3 rf s n d) s (fun i => c_a (col x y i))).
    { assert (BOX : exists c, boxLayer cs prev n d x y = Some c /\
        c_r c = average (closed_box s n d) s (fun i => c_r (col x y i)) /\
        c_g c = average (closed_box s n d) s (fun i => c_g (col x y i)) /\
        c_b c = average (closed_box s n d) s (fun i => c_b (col x y i)) /\
        c_a c = average (closed_box s n d) s (fun i => c_a (col x y i))).
      { destruct (closed_window s n d Hs Hn Hd) as (a & b & E1 & E2 & B & K1 & K2).
        eexists. split.
        { apply (boxLayer_sum cs prev n d x y a b (col x y)).
          - rewrite center_real, offset_real. exact E1.
          - fold s. rewrite U, center_real, offset_real. exact E2.
          - fold s. intros i I. rewrite center_real in I. apply CC. apply (K1 i I).
          - match goal with |- context [keep ?p a b] => pose proof (length_keep p a b) end. lia. }
        fold s. rewrite center_real.
        match goal with |- context [keep ?p a b] => set (K := keep p a b) in * end.
        assert (G : forall f : color RA -> R,
          ndiv RA (@acc_sum RA _ (fun k => f (col x y k)) K) (ofN (N.of_nat (length K)))
          = average (closed_box s n d) s (fun i => f (col x y i))).
        { intros f. rewrite acc_sum_real.
          change (ofN (N.of_nat (length K))) with (NR (N.of_nat (length K))).
          rewrite <- (sum_one K). cbn [ndiv real_arith].
          rewrite <- (visited_average (closed_box s n d) (fun _ => 1) s (fun i => f (col x y i))
            (@outsideBox RA (centre s n d) (@filterScale RA s n)) a b).
          - fold K. apply (f_equal2 Rdiv); apply sum_ext; intros; ring.
          - intros i I. destruct (K1 i I). auto.
          - auto. }
        cbn [c_r c_g c_b c_a]. rewrite !G. auto. }
      assert (LIN : exists c, linearLayer cs prev n d x y = Some c /\
        c_r c = average (tent s n d) s (fun i => c_r (col x y i)) /\
        c_g c = average (tent s n d) s (fun i => c_g (col x y i)) /\
        c_b c = average (tent s n d) s (fun i => c_b (col x y i)) /\
        c_a c = average (tent s n d) s (fun i => c_a (col x y i))).
      { destruct (tent_window s n d Hs Hn Hd) as (a & b & E1 & E2 & B & K1 & K2).
        eexists. split.
        { apply (linearLayer_sum cs prev n d x y a b (col x y)).
          - rewrite center_real, offset_real. exact E1.
          - fold s. rewrite U, center_real, offset_real. exact E2.
          - fold s. intros i I. rewrite center_real in I. apply CC. apply (K1 i I). }
        fold s. rewrite center_real.
        assert (G : forall f : color RA -> R,
          ndiv RA (@acc_sum RA _ (fun k => nmul RA (f (col x y k)) (@linearScale RA (centre s n d) (@filterScale RA s n) k))
             (keep (fun i => isZero (@linearScale RA (centre s n d) (@filterScale RA s n) i)) a b))
           (@acc_sum RA _ (@linearScale RA (centre s n d) (@filterScale RA s n))
             (keep (fun i => isZero (@linearScale RA (centre s n d) (@filterScale RA s n) i)) a b))
          = average (tent s n d) s (fun i => f (col x y i))).
        { intros f. rewrite !acc_sum_real. cbn [ndiv nmul real_arith].
          apply (visited_average (tent s n d) (@linearScale RA (centre s n d) (@filterScale RA s n)) s
            (fun i => f (col x y i))).
          - intros i I. split; [auto|]. apply linearScale_real.
          - auto. }
        cbn [c_r c_g c_b c_a]. rewrite !G. auto. }
      destruct rf; auto. }
    destruct RES as (c & E & R1 & R2 & R3 & R4). exists c. split; [exact E|].
    destruct (AV (weights3 rf s n d)) as (A1 & A2 & A3 & A4).
    unfold storeLinear. cbn [narrow widen real_arith map].
    unfold mip_value. fold s. rewrite R1, R2, R3, R4, A1, A2, A3, A4. unfold from_linear.
    destruct cs; [reflexivity|]. rewrite <- !toSRGB_is. reflexivity. }
  unfold mips3d.
  assert (LAY : forall d, (d < n)%N -> exists im, mipLayer alloc cs prev w h n rf d = Some im /\
    b_fmt im = I_RGBAF /\ b_w im = w /\ b_h im = h /\ b_cs im = cs /\
    forall x y, (x < w)%N -> (y < h)%N ->
        b_px im x (h - 1 - y) = @PF RA (map (mip_value rf cs prev n d x y) [0; 1; 2; 3]%nat)).
  { intros d Hd. unfold mipLayer, initialize.
    destruct (alloc I_RGBAF w h) as [px|] eqn:EA; [|congruence]. cbn [obind].
    set (d0 := Bitmap I_RGBAF w h cs px).
    set (V := fun x y => Some (@PF RA (map (mip_value rf cs prev n d x y) [0; 1; 2; 3]%nat))).
    assert (IN : forall x y, (x < w)%N -> (y < h)%N -> inside d0 x (scanlineOf h y)).
    { intros x y Hx Hy. rewrite SL by auto. split; cbn [b_w b_h d0]; lia. }
    rewrite (scatter_loop w h _ (fun x y => x) (fun x y => scanlineOf h y) V d0); auto.
    - destruct (scatter_ok w h (fun x y => x) (fun x y => scanlineOf h y) V d0) as (im & E & SS & P); auto.
      { intros x y x' y' Hx Hy Hx' Hy'. rewrite !SL by auto. lia. }
      { intros; discriminate. }
      exists im. split; [exact E|]. destruct SS as (S1 & S2 & S3 & S4). cbn [b_fmt b_w b_h b_cs d0] in *.
      split; [congruence|]. split; [congruence|]. split; [congruence|]. split; [congruence|].
      intros x y Hx Hy. specialize (P x y Hx Hy). rewrite SL in P by auto. unfold V in P.
      inversion P. reflexivity.
    - intros x y im Hx Hy (S1 & S2 & S3 & S4). cbn [b_h d0] in S3. rewrite <- S3.
      destruct (COL d x y Hd Hx Hy) as (c & E & ST).
      match goal with |- obind ?o _ = _ => replace o with (Some c) by (symmetry; exact E) end.
      cbn [obind V]. rewrite <- ST. reflexivity. }
  destruct (omap_total (mipLayer alloc cs prev w h n rf) (Nrange n)) as (out & EO).
  { intros d I. apply in_Nrange in I. destruct (LAY d I) as (im & E & _). eauto. }
  exists out. split; [exact EO|]. split.
  { apply omap_length in EO. rewrite EO, Nrange_length. lia. }
  intros d Hd. destruct (LAY d Hd) as (im & E & P).
  destruct (omap_nth _ _ _ (N.to_nat d) d EO) as (im' & N1 & N2).
  { rewrite nth_error_Nrange by lia. f_equal. lia. }
  exists im. rewrite E in N2. inversion N2; subst. split; [exact N1|]. exact P.
Qed.
Print Assumptions C36_mips3d_formula.

(** The hypotheses are met: two layers averaged into one. *)
Definition layer_of (v : R) : bitmap RA := @Bitmap RA I_RGBAF 1 1 CS_Linear (fun _ _ => @PF RA [v; 0; 0; 1]).
Definition any_float : allocator RA := fun _ _ _ => Some (fun _ _ => @PF RA [0; 0; 0; 0]).

Example C36_mips3d_case : exists im,
  mips3d any_float [layer_of 1; layer_of 3] 1 1 1 CS_Linear RF_Box = Some [im] /\
  value 0 (b_px im 0 0) = 2.
Proof.
  destruct (C36_mips3d_formula any_float [layer_of 1; layer_of 3] 1 1 1 CS_Linear RF_Box)
    as (out & E & L & P); try (cbn; lia); try discriminate.
  - repeat constructor; intros; repeat eexists.
  - destruct (P 0%N ltac:(lia)) as (im & N0 & _ & _ & _ & _ & PX).
    destruct out as [|im' [|]]; [discriminate| |cbn in L; lia]. cbn in N0. inversion N0; subst im'.
    exists im. split; [exact E|].
    change (b_px im 0 0) with (b_px im 0 (1 - 1 - 0)). rewrite PX by lia. cbn [map value nth].
    unfold mip_value, average, total, weights3, from_linear, to_linear.
    change (N.of_nat (length [layer_of 1; layer_of 3])) with 2%N.
    change (Nrange 2) with [0; 1]%N. cbn [map fold_right].
    assert (B : forall i, (i < 2)%N -> closed_box 2 1 0 i = 1).
    { intros i Hi. unfold closed_box, centre, extent, mid, NR.
      simpl (IZR (Z.of_N 1)). simpl (IZR (Z.of_N 2)). simpl (IZR (Z.of_N 0)).
      replace (2 / 1) with 2 by lra. rewrite (Rmax_left 2 1) by lra.
      assert (0 <= IZR (Z.of_N i)) by (apply IZR_le; lia).
      assert (IZR (Z.of_N i) <= 1) by (apply IZR_le; lia).
      destruct Rle_dec as [|C]; auto. exfalso. apply C. apply Rabs_le. lra. }
    rewrite !B by lia.
    change (layer [layer_of 1; layer_of 3] 0 0 0 0) with 1.
    change (layer [layer_of 1; layer_of 3] 1 0 0 0) with 3. lra.
Qed.

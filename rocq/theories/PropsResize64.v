(** C36, part 2: Image::resize in the program's binary64 arithmetic. *)

From Coq Require Import ZArith NArith List Bool Lia Reals Lra Psatz.
From Coq Require Import ZifyBool ZifyNat ZifyN.
From Flocq Require Import Core IEEE754.BinarySingleNaN IEEE754.Binary IEEE754.Bits.
From Verif Require Import Base FormatModel FloatModel FloatSpec FloatProofs ArithModel ArithReal ArithSpec DoubleProofs
  TextureModel ImageModel ImageLoops ResizeModel ResizeSpec ResizeLoops ResizeRealProofs ResizeAxis64
  ResizeSum64 ResizeAvg64 PropsResize.
Import ListNotations.
Local Open Scope R_scope.

Section Pow.
(** [std::pow]: not used by resize in linear space. *)
Variable pw : double -> double -> double.
Local Notation D := (double_arith pw).

(** Pixels of the formats Image::resize resamples itself: numbers finite and at most [B] in
    magnitude. *)
Definition dnum (B : R) (v : double) : Prop := dfinite v = true /\ Rabs (dreal v) <= B.
Definition dpixel (B : R) (f : imgfmt) (p : pix D) : Prop :=
  match f, p with
  | I_Int16, PZ [v] => (- 2 ^ 15 <= v <= 2 ^ 15 - 1)%Z
  | I_Int32, PZ [v] => (- 2 ^ 31 <= v <= 2 ^ 31 - 1)%Z
  | I_UInt32, PZ [v] => (0 <= v <= 2 ^ 32 - 1)%Z
  | I_Double, PN [v] => dnum B v
  | I_Complex, PN [r; i] => dnum B r /\ dnum B i
  | _, _ => False
  end.
(** Channel [k] of a pixel. *)
Definition dvalue (k : nat) (p : pix D) : R :=
  match p with
  | PZ l => nth k (map IZR l) 0
  | PN l => nth k (map dreal l) 0
  | PF _ => 0
  end.
Definition integer_format (f : imgfmt) : Prop := In f [I_Int16; I_Int32; I_UInt32].
(** The weights along one axis, up to rounding, and how many of them can be positive. *)
Definition near_weights (rf : rfilter) : N -> N -> N -> (N -> R) -> Prop :=
  match rf with RF_Box => near_box | _ => near_tent end.
Definition reach (rf : rfilter) (s n : N) : N :=
  match rf with RF_Box => (s / n + 2)%N | _ => (2 * (s / n) + 3)%N end.
(** How far a result may be from the average of [m] samples of magnitude at most [B]. *)
Definition slack (m : N) (B : R) : R := (NR m + 2) * bpow radix2 (-50) * B.

Lemma slack_u m B : 8 * (NR m + 2) * u * B = slack m B.
Proof.
  unfold slack, u. change 8 with (bpow radix2 3).
  replace (bpow radix2 (-50)) with (bpow radix2 3 * bpow radix2 (-53)) by (rewrite <- bpow_plus; reflexivity). ring.
Qed.

Lemma near_total rf s n o wt : near_weights rf s n o wt -> 0 < total s wt /\ forall i, (i < s)%N -> 0 <= wt i.
Proof.
  intros H. split.
  - destruct rf; try apply (near_tent_total _ _ _ _ H). apply (near_box_total _ _ _ _ H).
  - intros i Hi. assert (T : near_tent s n o wt -> 0 <= wt i) by (intros [_ G]; apply (G i Hi)).
    destruct rf; auto. destruct H as (G & _). destruct (G i); lra.
Qed.

(** Every result is the weighted average of source pixels, with weights and result off by
    rounding errors only; nothing is read outside the image and no conversion overflows. *)
Theorem C36_rounding : forall fi alloc (b : bitmap D) w h rf px B,
  own_format (b_fmt b) -> b_cs b = CS_Linear -> (rf = RF_Box \/ rf = RF_Linear) ->
  (0 < b_w b < 2 ^ 31)%N -> (0 < b_h b < 2 ^ 31)%N -> (b_w b * b_h b < 2 ^ 32)%N ->
  (0 < w < 2 ^ 31)%N -> (0 < h < 2 ^ 31)%N -> (w, h) <> (b_w b, b_h b) ->
  bpow radix2 (-900) <= B <= bpow radix2 800 ->
  (integer_format (b_fmt b) -> B = IZR (2 ^ 32) /\ (reach rf (b_w b) w * reach rf (b_h b) h <= 2 ^ 17)%N) ->
  (forall x y, (x < b_w b)%N -> (y < b_h b)%N -> dpixel B (b_fmt b) (b_px b x y)) ->
  alloc (b_fmt b) w h = Some px ->
  exists d, resize fi alloc (Some b) w h rf = Some (Some d) /\
    b_fmt d = b_fmt b /\ b_w d = w /\ b_h d = h /\ b_cs d = CS_Linear /\
    forall x y, (x < w)%N -> (y < h)%N -> exists wx wy,
      near_weights rf (b_w b) w x wx /\ near_weights rf (b_h b) h y wy /\
      forall k, (k < channels (b_fmt b))%nat ->
        let avg := average2 wx wy (b_w b) (b_h b) (fun j i => dvalue k (b_px b j i)) in
        exists r, Rabs (r - avg) <= slack (reach rf (b_w b) w * reach rf (b_h b) h) B /\
          match b_fmt b with
          | I_Double | I_Complex => dvalue k (b_px d x y) = r
          | _ => dvalue k (b_px d x y) = IZR (Ztrunc r) /\ (rf = RF_Box -> Ztrunc r = Ztrunc avg)
          end.
Proof.
  intros fi alloc b w h rf px B OF LIN RF Hbw Hbh Hsize Hw Hh NE HB HI SH AL.
  set (f := b_fmt b) in *.
  set (col := fun j i => match getPixelImpl f (b_px b j i) with Some c => c | None => black end).
  assert (HC : forall j i, (j < b_w b)%N -> (i < b_h b)%N ->
    getAt b j i = Some (col j i) /\
    is pw (c_r (col j i)) (dvalue 0 (b_px b j i)) /\ Rabs (dvalue 0 (b_px b j i)) <= B /\
    (f = I_Complex -> is pw (c_g (col j i)) (dvalue 1 (b_px b j i)) /\ Rabs (dvalue 1 (b_px b j i)) <= B)).
  { intros j i Hj Hi. specialize (SH j i Hj Hi). unfold getAt.
    rewrite read_inside by (split; auto). cbn [obind]. fold f. unfold col.
    assert (INT : forall v, (- 2 ^ 32 <= v <= 2 ^ 32)%Z -> B = IZR (2 ^ 32) ->
      is pw (@lit D v) (IZR v) /\ Rabs (IZR v) <= B).
    { intros v Hv ->. split; [apply lit_is; lia|]. rewrite <- abs_IZR. apply IZR_le. lia. }
    clear -SH OF HI INT. unfold own_format in OF. simpl in OF.
    destruct OF as [E|[E|[E|[E|[E|[]]]]]]; rewrite <- E in *;
      destruct (b_px b j i) as [[|v [|? ?]]|l|[|v [|v' [|? ?]]]]; cbn [dpixel] in SH; try contradiction;
      cbn [getPixelImpl]; split; try reflexivity; cbn [dvalue map nth].
    - destruct (INT v ltac:(lia)) as [I1 I2]; [apply HI; left; auto|]. cbn [c_r gray]. repeat split; try apply I1; auto; discriminate.
    - destruct (INT v ltac:(lia)) as [I1 I2]; [apply HI; right; left; auto|]. cbn [c_r gray]. repeat split; try apply I1; auto; discriminate.
    - destruct (INT v ltac:(lia)) as [I1 I2]; [apply HI; right; right; left; auto|]. cbn [c_r gray]. repeat split; try apply I1; auto; discriminate.
    - destruct SH as [S1 S2]. cbn [c_r gray]. repeat split; auto; discriminate.
    - destruct SH as [[S1 S2] [S3 S4]]. cbn [c_r c_g]. repeat split; auto. }
  assert (Hcol : forall j i, (j < b_w b)%N -> (i < b_h b)%N -> getAt b j i = Some (col j i))
    by (intros; apply HC; auto).
  set (M := (reach rf (b_w b) w * reach rf (b_h b) h)%N) in *.
  set (pixel := match rf with RF_Box => boxPixel b w h | _ => linearPixel b w h end).
  (* the value of a pixel before it is stored *)
  assert (PX : forall x y, (x < w)%N -> (y < h)%N -> exists wx wy c,
    near_weights rf (b_w b) w x wx /\ near_weights rf (b_h b) h y wy /\ pixel x y = Some c /\
    (exists r, is pw (c_r c) r /\
      Rabs (r - average2 wx wy (b_w b) (b_h b) (fun j i => dvalue 0 (b_px b j i))) <= slack M B /\
      (integer_format f -> rf = RF_Box ->
       Ztrunc r = Ztrunc (average2 wx wy (b_w b) (b_h b) (fun j i => dvalue 0 (b_px b j i))))) /\
    (f = I_Complex -> exists r, is pw (c_g c) r /\
      Rabs (r - average2 wx wy (b_w b) (b_h b) (fun j i => dvalue 1 (b_px b j i))) <= slack M B)).
  { intros x y Hx Hy.
    assert (CR : chan_ok pw b col c_r (fun j i => dvalue 0 (b_px b j i)) B).
    { intros j i Hj Hi. destruct (HC j i Hj Hi) as (_ & H1 & H2 & _). auto. }
    assert (CG : f = I_Complex -> chan_ok pw b col c_g (fun j i => dvalue 1 (b_px b j i)) B).
    { intros EF j i Hj Hi. destruct (HC j i Hj Hi) as (_ & _ & _ & H1). auto. }
    destruct RF as [-> | ->]; unfold pixel.
    - destruct (boxPixel64 pw b w h x y col Hbw Hbh Hw Hh Hx Hy Hsize Hcol)
        as (val & wx & wy & E & NX & NY & V & VI).
      exists wx, wy, (C4 (val c_r) (val c_g) (val c_b) (val c_a)).
      split; [exact NX|]. split; [exact NY|]. split; [exact E|]. cbn [c_r c_g]. split.
      + destruct (V c_r _ B CR HB) as (r & R1 & R2). exists r. split; [exact R1|].
        rewrite slack_u in R2. split; [exact R2|]. intros IF _.
        destruct (HI IF) as [EB MM].
        assert (Z : exists z, forall j i, (j < b_w b)%N -> (i < b_h b)%N -> dvalue 0 (b_px b j i) = IZR (z j i)).
        { exists (fun j i => Ztrunc (dvalue 0 (b_px b j i))). intros j i Hj Hi. specialize (SH j i Hj Hi).
          clear -SH IF. unfold integer_format in IF. simpl in IF.
          destruct IF as [E|[E|[E|[]]]]; rewrite <- E in SH;
          destruct (b_px b j i) as [[|v [|? ?]]|l|[|v [|v' [|? ?]]]]; cbn [dpixel] in SH; try contradiction;
          cbn [dvalue map nth]; rewrite Ztrunc_IZR; reflexivity. }
        destruct Z as [z Z].
        rewrite (VI c_r z r); auto.
        * f_equal. unfold average2. apply average_ext; auto. intros i Hi. apply average_ext; auto.
          intros j Hj. symmetry. auto.
        * intros j i Hj Hi. destruct (CR j i Hj Hi) as [C1 C2]. rewrite <- Z by auto. split; auto. rewrite <- EB. exact C2.
      + intros EF. destruct (V c_g _ B (CG EF) HB) as (r & R1 & R2). exists r. split; [exact R1|].
        rewrite slack_u in R2. exact R2.
    - destruct (linearPixel64 pw b w h x y col Hbw Hbh Hw Hh Hx Hy Hsize Hcol)
        as (val & wx & wy & E & NX & NY & V).
      exists wx, wy, (C4 (val c_r) (val c_g) (val c_b) (val c_a)).
      split; [exact NX|]. split; [exact NY|]. split; [exact E|]. cbn [c_r c_g]. split.
      + destruct (V c_r _ B CR HB) as (r & R1 & R2). exists r. split; [exact R1|].
        rewrite slack_u in R2. split; [exact R2|]. discriminate.
      + intros EF. destruct (V c_g _ B (CG EF) HB) as (r & R1 & R2). exists r. split; [exact R1|].
        rewrite slack_u in R2. exact R2. }
  (* integers stay in range *)
  assert (SM : integer_format f -> slack M B < 1).
  { intros IF. destruct (HI IF) as [-> MM]. unfold slack.
    assert (NR M <= 131072) by (apply (NR_le _ 131072); lia).
    replace (bpow radix2 (-50)) with (/ 1125899906842624) by (simpl; lra).
    change (IZR (2 ^ 32)) with 4294967296. lra. }
  assert (RNG : forall lo hi wx wy x y r, near_weights rf (b_w b) w x wx -> near_weights rf (b_h b) h y wy ->
    integer_format f ->
    (forall j i, (j < b_w b)%N -> (i < b_h b)%N -> exists v, b_px b j i = @PZ D [v] /\ (lo <= v <= hi)%Z) ->
    Rabs (r - average2 wx wy (b_w b) (b_h b) (fun j i => dvalue 0 (b_px b j i))) <= slack M B ->
    (lo <= 0 <= hi)%Z -> (lo <= Ztrunc r <= hi)%Z).
  { intros lo hi wx wy x y r NX NY IF HV HR H0. specialize (SM IF).
    assert (A : IZR lo <= average2 wx wy (b_w b) (b_h b) (fun j i => dvalue 0 (b_px b j i)) <= IZR hi).
    { apply average2_between; try (apply (near_total _ _ _ _ _ NX)); try (apply (near_total _ _ _ _ _ NY)).
      intros j i Hj Hi _ _. destruct (HV j i Hj Hi) as (v & -> & R1). cbn [dvalue map nth].
      split; apply IZR_le; lia. }
    set (g := average2 _ _ _ _ _) in *. apply Rabs_le_inv in HR.
    assert (L : IZR (lo - 1) < r < IZR (hi + 1)) by (rewrite minus_IZR, plus_IZR; lra).
    destruct (Rle_dec 0 r) as [P|P].
    - rewrite Ztrunc_floor by lra. split.
      + apply Z.le_trans with 0%Z; [lia|]. apply Zfloor_lub. simpl. lra.
      + apply Z.lt_succ_r. apply lt_IZR. eapply Rle_lt_trans; [apply Zfloor_lb|]. unfold Z.succ. lra.
    - rewrite Ztrunc_ceil by lra. split.
      + pose proof (Zceil_ub r) as U. assert (X : IZR (lo - 1) < IZR (Zceil r)) by lra. apply lt_IZR in X. lia.
      + apply Z.le_trans with 0%Z; [|lia]. apply Zceil_glb. simpl. lra. }
  (* storing it *)
  assert (ST : forall x y, (x < w)%N -> (y < h)%N -> exists wx wy p,
    obind (pixel x y) (setPixelNoGrayscaleImpl f) = Some p /\
    near_weights rf (b_w b) w x wx /\ near_weights rf (b_h b) h y wy /\
    forall k, (k < channels f)%nat ->
      let avg := average2 wx wy (b_w b) (b_h b) (fun j i => dvalue k (b_px b j i)) in
      exists r, Rabs (r - avg) <= slack M B /\
        match f with
        | I_Double | I_Complex => dvalue k p = r
        | _ => dvalue k p = IZR (Ztrunc r) /\ (rf = RF_Box -> Ztrunc r = Ztrunc avg)
        end).
  { intros x y Hx Hy. destruct (PX x y Hx Hy) as (wx & wy & c & NX & NY & -> & (r & R1 & R2 & R3) & G).
    exists wx, wy. cbn [obind].
    assert (CI : forall lo hi z, (lo <= z <= hi)%Z -> cast_int lo hi (Some z) = Some z).
    { intros lo hi z Hz. unfold cast_int. replace ((lo <=? z) && (z <=? hi))%Z with true by lia. auto. }
    specialize (RNG) . 
    unfold own_format in OF. simpl in OF.
    assert (IC : forall lo hi, integer_format f -> (lo <= 0 <= hi)%Z -> channels f = 1%nat ->
      setPixelNoGrayscaleImpl f c = oPZ1 (toInt lo hi (c_r c)) ->
      (forall j i, (j < b_w b)%N -> (i < b_h b)%N -> exists v, b_px b j i = @PZ D [v] /\ (lo <= v <= hi)%Z) ->
      exists p, setPixelNoGrayscaleImpl f c = Some p /\
        near_weights rf (b_w b) w x wx /\ near_weights rf (b_h b) h y wy /\
        forall k, (k < 1)%nat ->
          let avg := average2 wx wy (b_w b) (b_h b) (fun j i => dvalue k (b_px b j i)) in
          exists r, Rabs (r - avg) <= slack M B /\
            dvalue k p = IZR (Ztrunc r) /\ (rf = RF_Box -> Ztrunc r = Ztrunc avg)).
    { intros lo hi IF H0 HCh SE HV.
      pose proof (RNG lo hi wx wy x y r NX NY IF HV R2 H0) as RR.
      exists (@PZ D [Ztrunc r]). split.
      { rewrite SE. unfold toInt. rewrite (trunc_is pw _ _ R1). rewrite CI by exact RR. reflexivity. }
      split; [exact NX|]. split; [exact NY|]. intros k Hk. destruct k; [|lia].
      exists r. split; [exact R2|]. split; [reflexivity|]. intros RB. apply R3; auto. }
    assert (HV : forall (Q : Z -> Prop), (forall j i, (j < b_w b)%N -> (i < b_h b)%N ->
        match b_px b j i with PZ [v] => Q v | _ => False end) ->
        forall j i, (j < b_w b)%N -> (i < b_h b)%N -> exists v, b_px b j i = @PZ D [v] /\ Q v).
    { intros Q HQ j i Hj Hi. specialize (HQ j i Hj Hi).
      destruct (b_px b j i) as [[|v [|? ?]]|l|l]; try contradiction. eauto. }
    destruct OF as [E|[E|[E|[E|[E|[]]]]]]; rewrite <- E in *; cbn [channels] in *.
    - apply (IC (- 2 ^ 15) (2 ^ 15 - 1))%Z; [left; auto|lia|reflexivity|reflexivity|]. apply HV. exact SH.
    - apply (IC (- 2 ^ 31) (2 ^ 31 - 1))%Z; [right; left; auto|lia|reflexivity|reflexivity|]. apply HV. exact SH.
    - apply (IC 0 (2 ^ 32 - 1))%Z; [right; right; left; auto|lia|reflexivity|reflexivity|]. apply HV. exact SH.
    - exists (@PN D [c_r c]). split; [reflexivity|]. split; [exact NX|]. split; [exact NY|].
      intros k Hk. destruct k; [|lia]. exists r. split; [exact R2|]. cbn [dvalue map nth]. apply R1.
    - destruct (G eq_refl) as (r' & G1 & G2).
      exists (@PN D [c_r c; c_g c]). split; [reflexivity|]. split; [exact NX|]. split; [exact NY|].
      intros k Hk. destruct k as [|[|k]]; [| |lia].
      + exists r. split; [exact R2|]. cbn [dvalue map nth]. apply R1.
      + exists r'. split; [exact G2|]. cbn [dvalue map nth]. apply G1. }
  unfold resize.
  replace ((w =? 0) || (h =? 0))%N with false by lia.
  replace ((w =? b_w b) && (h =? b_h b))%N with false.
  2:{ symmetry. destruct (N.eqb_spec w (b_w b)), (N.eqb_spec h (b_h b)); auto.
      exfalso. apply NE. congruence. }
  rewrite LIN. unfold resizeLinear. fold f.
  assert (RB : rescaleFallback f = true).
  { clear -OF. unfold own_format in OF. simpl in OF.
    destruct OF as [E|[E|[E|[E|[E|[]]]]]]; rewrite <- E; reflexivity. }
  rewrite RB. unfold resizeFallback. fold f. unfold initialize. rewrite AL. fold pixel.
  set (d0 := Bitmap f w h (b_cs b) px).
  destruct (fillPixels_ok pixel w h d0 eq_refl eq_refl) as (d & Ed & SS & Hd).
  { intros x y Hx Hy. cbn [b_fmt d0]. destruct (ST x y Hx Hy) as (wx & wy & p & -> & _). discriminate. }
  exists d. split.
  { destruct RF as [-> | ->]; unfold pixel in Ed; cbv beta iota; rewrite Ed; reflexivity. }
  destruct SS as (S1 & S2 & S3 & S4). cbn [b_fmt b_w b_h b_cs d0] in *.
  split; [congruence|]. split; [congruence|]. split; [congruence|]. split; [congruence|].
  intros x y Hx Hy. specialize (Hd x y Hx Hy).
  destruct (ST x y Hx Hy) as (wx & wy & p & E1 & NX & NY & P).
  rewrite E1 in Hd. assert (Hd' : p = b_px d x y) by congruence. subst p.
  exists wx, wy. split; [exact NX|]. split; [exact NY|]. exact P.
Qed.

(** With the box filter the integer formats keep to the range of the source, and a constant
    image stays constant. *)
Theorem C36_box_integers : forall fi alloc (b : bitmap D) w h px lo hi,
  integer_format (b_fmt b) -> b_cs b = CS_Linear ->
  (0 < b_w b < 2 ^ 31)%N -> (0 < b_h b < 2 ^ 31)%N -> (b_w b * b_h b < 2 ^ 32)%N ->
  (0 < w < 2 ^ 31)%N -> (0 < h < 2 ^ 31)%N -> (w, h) <> (b_w b, b_h b) ->
  ((b_w b / w + 2) * (b_h b / h + 2) <= 2 ^ 17)%N ->
  (forall x y, (x < b_w b)%N -> (y < b_h b)%N -> dpixel (IZR (2 ^ 32)) (b_fmt b) (b_px b x y)) ->
  (forall x y, (x < b_w b)%N -> (y < b_h b)%N -> IZR lo <= dvalue 0 (b_px b x y) <= IZR hi) ->
  alloc (b_fmt b) w h = Some px ->
  exists d, resize fi alloc (Some b) w h RF_Box = Some (Some d) /\ b_w d = w /\ b_h d = h /\
    forall x y, (x < w)%N -> (y < h)%N -> IZR lo <= dvalue 0 (b_px d x y) <= IZR hi.
Proof.
  intros fi alloc b w h px lo hi IF LIN Hbw Hbh Hsize Hw Hh NE HM SH HV AL.
  assert (OF : own_format (b_fmt b)).
  { unfold integer_format in IF. unfold own_format. simpl in *. tauto. }
  destruct (C36_rounding fi alloc b w h RF_Box px (IZR (2 ^ 32))) as (d & E & F1 & D1 & D2 & _ & P); auto.
  { change (IZR (2 ^ 32)) with (bpow radix2 32). split; apply bpow_le; lia. }
  exists d. split; [exact E|]. split; [exact D1|]. split; [exact D2|].
  intros x y Hx Hy. destruct (P x y Hx Hy) as (wx & wy & NX & NY & V). clear P.
  assert (CH : (0 < channels (b_fmt b))%nat) by (destruct (b_fmt b); simpl; lia).
  destruct (V 0%nat CH) as (r & _ & R). clear V.
  assert (T : dvalue 0 (b_px d x y) = IZR (Ztrunc (average2 wx wy (b_w b) (b_h b) (fun j i => dvalue 0 (b_px b j i))))).
  { unfold integer_format in IF. simpl in IF. clear -R IF.
    destruct IF as [E|[E|[E|[]]]]; rewrite <- E in R; destruct R as [-> R]; rewrite R; auto. }
  rewrite T. assert (A : IZR lo <= average2 wx wy (b_w b) (b_h b) (fun j i => dvalue 0 (b_px b j i)) <= IZR hi).
  { apply average2_between; try (apply (near_total _ _ _ _ _ NX)); try (apply (near_total _ _ _ _ _ NY)).
    intros j i Hj Hi _ _. auto. }
  destruct (trunc_range _ _ _ A). split; apply IZR_le; auto.
Qed.

(** The other three filters give an invalid image for these formats. *)
Theorem C36_other_filters : forall fi alloc (b : bitmap D) w h rf,
  own_format (b_fmt b) -> b_cs b = CS_Linear -> rf <> RF_Box -> rf <> RF_Linear ->
  (w, h) <> (b_w b, b_h b) -> resize fi alloc (Some b) w h rf = Some None.
Proof.
  intros fi alloc b w h rf OF LIN R1 R2 NE. unfold resize.
  destruct ((w =? 0) || (h =? 0))%N; [reflexivity|].
  replace ((w =? b_w b) && (h =? b_h b))%N with false.
  2:{ symmetry. destruct (N.eqb_spec w (b_w b)), (N.eqb_spec h (b_h b)); auto.
      exfalso. apply NE. congruence. }
  rewrite LIN. unfold resizeLinear.
  assert (RB : rescaleFallback (b_fmt b) = true).
  { unfold own_format in OF. simpl in OF.
    destruct OF as [E|[E|[E|[E|[E|[]]]]]]; rewrite <- E; reflexivity. }
  rewrite RB. unfold resizeFallback. destruct rf; congruence.
Qed.

(** With the linear filter a constant integer image does not stay constant: enlarging a single
    pixel 3 to three pixels gives 3, 3, 2. *)
Definition dot : bitmap D := @Bitmap D I_Int32 1 1 CS_Linear (fun _ _ => @PZ D [3%Z]).
Definition dalloc : allocator D := fun _ _ _ => Some (fun _ _ => @PZ D [0%Z]).
Definition ints (im : option (image D)) (n : N) : list (list Z) :=
  match im with
  | Some (Some d) => map (fun x => match b_px d x 0 with PZ l => l | _ => [] end) (Nrange n)
  | _ => []
  end.

End Pow.

Print Assumptions C36_rounding.
Print Assumptions C36_box_integers.
Print Assumptions C36_other_filters.

Theorem C36_linear_constant_refuted : forall pw,
  ints pw (resize (fun _ _ _ _ => None) (dalloc pw) (Some (dot pw)) 3 1 RF_Linear) 3 = [[3]; [3]; [2]]%Z.
Proof. intros. vm_compute. reflexivity. Qed.
Print Assumptions C36_linear_constant_refuted.

(** The hypotheses of the theorems are met by the same image, and by a larger one. *)
Definition ramp64 pw : bitmap (double_arith pw) :=
  @Bitmap (double_arith pw) I_Int32 7 5 CS_Linear (fun x y => @PZ (double_arith pw) [Z.of_N (1000 * x + y)]).
Example C36_rounding_case : forall pw rf, rf = RF_Box \/ rf = RF_Linear ->
  exists d, resize (fun _ _ _ _ => None) (dalloc pw) (Some (ramp64 pw)) 3 4 rf = Some (Some d) /\ b_w d = 3%N /\ b_h d = 4%N.
Proof.
  intros pw rf RF.
  destruct (C36_rounding pw (fun _ _ _ _ => None) (dalloc pw) (ramp64 pw) 3 4 rf (fun _ _ => @PZ _ [0%Z]) (IZR (2 ^ 32)))
    as (d & E & _ & D1 & D2 & _); auto; cbn [ramp64 b_fmt b_w b_h b_cs]; try lia.
  - right; left; reflexivity.
  - discriminate.
  - change (IZR (2 ^ 32)) with (bpow radix2 32). split; apply bpow_le; lia.
  - intros _. split; [reflexivity|]. destruct RF as [-> | ->]; vm_compute; discriminate.
  - intros x y Hx Hy. unfold dpixel, ramp64; cbn [b_px]. lia.
  - exists d. auto.
Qed.
Example C36_box_case : forall pw, exists d,
  resize (fun _ _ _ _ => None) (dalloc pw) (Some (ramp64 pw)) 3 4 RF_Box = Some (Some d) /\
  0 <= dvalue pw 0 (b_px d 2 3) <= 6004.
Proof.
  intros pw.
  destruct (C36_box_integers pw (fun _ _ _ _ => None) (dalloc pw) (ramp64 pw) 3 4 (fun _ _ => @PZ _ [0%Z]) 0 6004)
    as (d & E & _ & _ & V); auto; cbn [ramp64 b_fmt b_w b_h b_cs]; try lia.
  - right; left; reflexivity.
  - discriminate.
  - vm_compute; discriminate.
  - intros x y Hx Hy. unfold dpixel, ramp64; cbn [b_px]. lia.
  - intros x y Hx Hy. unfold ramp64; cbn [b_px dvalue map nth]. split; apply IZR_le; lia.
  - exists d. split; auto. apply V; lia.
Qed.

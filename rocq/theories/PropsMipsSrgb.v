(** C36, part 4: generateMips3d on sRGB volumes, in the program's binary64 arithmetic, for any
    [std::pow] with the accuracy of SrgbSpec.v. *)

From Coq Require Import ZArith NArith List Bool Lia Reals Lra Psatz FunctionalExtensionality.
From Coq Require Import ZifyBool ZifyNat ZifyN.
From Flocq Require Import Core IEEE754.BinarySingleNaN IEEE754.Binary IEEE754.Bits.
From Verif Require Import Base FormatModel FloatModel FloatSpec FloatProofs ArithModel ArithReal ArithSpec DoubleProofs
  TextureModel ImageModel ImageLoops ResizeModel ResizeSpec ResizeLoops ResizeRealProofs ResizeAxis64
  ResizeSum64 ResizeAvg64 PropsResize PropsResize64 PropsMips64.
From Verif Require Import PropsSrgb SrgbSpec Srgb64 SrgbChannel SrgbPow PropsSrgb64.
Import ListNotations.
Local Open Scope R_scope.

(** ** The two functions *)

Lemma decode_grows x y : x <= y -> decode x <= decode y.
Proof.
  intros [H | ->]; [|lra]. destruct (Rle_dec 0 x) as [P|P].
  - left. rewrite <- !toLinear_is. apply C38_decode_monotone. lra.
  - assert (DX : decode x = x / 12.92) by (unfold decode; destruct (Rle_dec x 0.04045); [reflexivity|lra]).
    rewrite DX. destruct (Rle_dec 0 y) as [Q|Q].
    + assert (0 <= decode y); [|lra].
      unfold decode. destruct (Rle_dec y 0.04045); [lra|]. left. apply exp_pos.
    + unfold decode. destruct (Rle_dec y 0.04045); lra.
Qed.

Lemma encode_almost x y : x <= y -> encode x <= encode y + 0.00000003.
Proof.
  intros H. destruct (Rle_dec x 0.0031308) as [X|X], (Rle_dec y 0.0031308) as [Y|Y]; try lra.
  - unfold encode. destruct (Rle_dec x _), (Rle_dec y _); lra.
  - pose proof (encode_step x y X Y). lra.
  - destruct H as [H | ->]; [|lra]. rewrite <- !toSRGB_is. left. apply C38_encode_almost_monotone. lra.
Qed.

Lemma there_and_back c : Rabs (encode (decode c) - c) <= 0.0000001.
Proof.
  destruct (Rle_dec 0 c) as [P|P].
  - left. rewrite <- toSRGB_is, <- toLinear_is. apply C38_gap_error, P.
  - assert (DX : decode c = c / 12.92) by (unfold decode; destruct (Rle_dec c 0.04045); [reflexivity|lra]).
    rewrite DX. unfold encode. destruct (Rle_dec (c / 12.92) 0.0031308); [|lra].
    replace (c / 12.92 * 12.92 - c) with 0 by lra. rewrite Rabs_R0. lra.
Qed.

(** Numbers of sRGB images, with room for rounding errors. *)
Definition about_unit (v : R) : Prop := - / 100 <= v <= 1 + / 100.

Lemma decode_low v : - / 100 <= v -> - / 100 <= decode v.
Proof. intros A. eapply Rle_trans; [|apply decode_grows, A]. unfold decode. destruct (Rle_dec _ _); lra. Qed.
Lemma decode_high v : v <= 1 + / 100 -> decode v <= 1.03.
Proof.
  intros B. eapply Rle_trans; [apply decode_grows, B|]. unfold decode. destruct (Rle_dec (1 + / 100) 0.04045); [lra|].
  pose proof (decode_slope 1 ((1 + / 100 + 0.055) / 1.055) ltac:(lra) ltac:(lra)) as S. rewrite Rpower_one in S. lra.
Qed.
Lemma decode_about v : about_unit v -> - / 100 <= decode v <= 1.03.
Proof. intros [A B]. split; [apply decode_low, A|apply decode_high, B]. Qed.

(** Numbers beside a linear number, as sRGB numbers. *)
Lemma back_low lo u d : 0 <= d -> decode lo - d <= u -> lo - (12.92 * d + 0.00000016) <= encode u.
Proof.
  intros D H. pose proof (encode_almost _ _ H) as A. pose proof (there_and_back lo) as B.
  pose proof (encode_any (decode lo - d) (decode lo)) as E.
  replace (decode lo - d - decode lo) with (- d) in E by ring. rewrite Rabs_Ropp, (Rabs_pos_eq d) in E by lra.
  apply Rabs_le_inv in B, E. lra.
Qed.
Lemma back_high hi u d : 0 <= d -> u <= decode hi + d -> encode u <= hi + (12.92 * d + 0.00000016).
Proof.
  intros D H. pose proof (encode_almost _ _ H) as A. pose proof (there_and_back hi) as B.
  pose proof (encode_any (decode hi + d) (decode hi)) as E.
  replace (decode hi + d - decode hi) with d in E by ring. rewrite (Rabs_pos_eq d) in E by lra.
  apply Rabs_le_inv in B, E. lra.
Qed.

Lemma encode_about v : - / 100 <= v <= 1.03 -> - 0.13 <= encode v <= 1.4.
Proof.
  intros [A B]. pose proof (encode_almost _ _ A) as L. pose proof (encode_almost _ _ B) as U.
  assert (E1 : encode (- / 100) = - / 100 * 12.92) by (unfold encode; destruct (Rle_dec _ _); [reflexivity|lra]).
  pose proof (encode_any 1.03 1) as Q. rewrite (Rabs_pos_eq (1.03 - 1)) in Q by lra. apply Rabs_le_inv in Q.
  assert (encode 1 = 1) by (rewrite <- toSRGB_is; apply C38_endpoints). lra.
Qed.

Lemma sum_minus {K} (f g : K -> R) l : sum (fun k => f k - g k) l = sum f l - sum g l.
Proof. unfold sum. induction l; simpl; lra. Qed.

Section Pow.
Context (pw : double -> double -> double) (PW : pow_ok pw).
Local Notation D := (double_arith pw).
Local Notation channel := (PropsMips64.channel pw).
Local Notation layer64 := (PropsMips64.layer64 pw).

(** One float to linear space and back, as the code does it. *)
Definition lin (v : float) : float := dnarrow (@sRGBToLinear D (dwiden v)).
Definition unlin (v : float) : float := dnarrow (@linearToSRGB D (dwiden v)).

Definition on_colours (f : float -> float) (p : pix D) : pix D :=
  match p with PF [r; g; b; a] => @PF D [f r; f g; f b; a] | p => p end.
Definition linearised (b : bitmap D) : bitmap D :=
  Bitmap (b_fmt b) (b_w b) (b_h b) CS_Linear (fun x y => on_colours lin (b_px b x y)).

Lemma source_linear prev : sourceColor (A := D) CS_sRGB prev = sourceColor CS_Linear (map linearised prev).
Proof.
  extensionality i. extensionality x. extensionality y. unfold sourceColor.
  rewrite nth_error_map. destruct (nth_error prev (N.to_nat i)) as [b|]; [|reflexivity]. cbn [option_map obind].
  unfold floatPixel, read. cbn [linearised b_h b_w b_px].
  destruct ((x <? b_w b)%N && (scanlineOf (b_h b) y <? b_h b)%N)%bool; [|reflexivity]. cbn [obind].
  destruct (b_px b x (scanlineOf (b_h b) y)) as [l|l|l]; try reflexivity.
  destruct l as [|v1 [|v2 [|v3 [|v4 [|? ?]]]]]; reflexivity.
Qed.

Lemma box_linear prev : boxLayer (A := D) CS_sRGB prev = boxLayer CS_Linear (map linearised prev).
Proof. extensionality n. extensionality d. extensionality x. extensionality y. unfold boxLayer. rewrite source_linear, map_length. reflexivity. Qed.
Lemma tent_linear prev : linearLayer (A := D) CS_sRGB prev = linearLayer CS_Linear (map linearised prev).
Proof. extensionality n. extensionality d. extensionality x. extensionality y. unfold linearLayer. rewrite source_linear, map_length. reflexivity. Qed.
Lemma store_linear c : storeLinear (A := D) CS_sRGB c = on_colours unlin (storeLinear CS_Linear c).
Proof. reflexivity. Qed.

(** The pixels of a layer, in any colour space, when the colours are defined. *)
Definition layerColor (rf : rfilter) cs (prev : list (bitmap D)) n d x y : option (color D) :=
  match rf with RF_Box => boxLayer cs prev n d x y | _ => linearLayer cs prev n d x y end.

Lemma layer_pixels alloc cs prev w h n rf d : (0 < h < 2 ^ 31)%N ->
  alloc I_RGBAF w h <> None -> (forall x y, (x < w)%N -> (y < h)%N -> layerColor rf cs prev n d x y <> None) ->
  exists im : bitmap D, mipLayer alloc cs prev w h n rf d = Some im /\
    b_fmt im = I_RGBAF /\ b_w im = w /\ b_h im = h /\ b_cs im = cs /\
    forall x y, (x < w)%N -> (y < h)%N -> exists c, layerColor rf cs prev n d x y = Some c /\
      b_px im x (h - 1 - y) = storeLinear cs c.
Proof.
  intros Hh AL DEF.
  assert (SL : forall y, (y < h)%N -> scanlineOf h y = (h - 1 - y)%N).
  { intros y Hy. unfold scanlineOf, usub, u32.
    replace (h + 2 ^ 32 - y)%N with (h - y + 1 * 2 ^ 32)%N by lia.
    rewrite N.mod_add, (N.mod_small (h - y)) by lia.
    replace (h - y + 2 ^ 32 - 1)%N with (h - y - 1 + 1 * 2 ^ 32)%N by lia.
    rewrite N.mod_add, N.mod_small by lia. lia. }
  unfold mipLayer, initialize.
  destruct (alloc I_RGBAF w h) as [px|] eqn:EA; [|congruence]. cbn [obind].
  set (d0 := Bitmap I_RGBAF w h cs px).
  set (V := fun x y => obind (layerColor rf cs prev n d x y) (fun c => Some (storeLinear cs c))).
  assert (IN : forall x y, (x < w)%N -> (y < h)%N -> inside d0 x (scanlineOf h y)).
  { intros x y Hx Hy. rewrite SL by auto. split; cbn [b_w b_h d0]; lia. }
  rewrite (scatter_loop w h _ (fun x y => x) (fun x y => scanlineOf h y) V d0); auto.
  - destruct (scatter_ok w h (fun x y => x) (fun x y => scanlineOf h y) V d0) as (im & E & SS & P); auto.
    { intros x y x' y' Hx Hy Hx' Hy'. rewrite !SL by auto. lia. }
    { intros x y Hx Hy. unfold V. specialize (DEF x y Hx Hy). destruct (layerColor rf cs prev n d x y); [discriminate|congruence]. }
    exists im. split; [exact E|]. destruct SS as (S1 & S2 & S3 & S4). cbn [b_fmt b_w b_h b_cs d0] in *.
    split; [congruence|]. split; [congruence|]. split; [congruence|]. split; [congruence|].
    intros x y Hx Hy. specialize (P x y Hx Hy). rewrite SL in P by auto. unfold V in P.
    specialize (DEF x y Hx Hy). destruct (layerColor rf cs prev n d x y) as [c|]; [|congruence]. cbn [obind] in P.
    exists c. split; [reflexivity|]. congruence.
  - intros x y im Hx Hy (S1 & S2 & S3 & S4). cbn [b_h d0] in S3. rewrite <- S3. unfold V, layerColor.
    destruct rf; match goal with |- obind ?a _ = _ => destruct a; reflexivity end.
Qed.

Lemma layer_defined prev n rf d x y : (0 < N.of_nat (length prev) < 2 ^ 31)%N -> (0 < n < 2 ^ 31)%N -> (d < n)%N ->
  (forall i, (i < N.of_nat (length prev))%N -> sourceColor CS_Linear prev i x y <> None) ->
  layerColor rf CS_Linear prev n d x y <> None.
Proof.
  intros Hs Hn Hd DEF.
  set (col := fun i => match sourceColor CS_Linear prev i x y with Some c => c | None => black end).
  assert (CC : forall i, (i < N.of_nat (length prev))%N -> sourceColor CS_Linear prev i x y = Some (col i)).
  { intros i Hi. unfold col. specialize (DEF i Hi). destruct (sourceColor CS_Linear prev i x y); [reflexivity|congruence]. }
  destruct (linearLayer64 pw prev n d x y col Hs Hn Hd CC) as (v1 & w1 & E1 & _).
  destruct (boxLayer64 pw prev n d x y col Hs Hn Hd CC) as (v2 & w2 & E2 & _).
  unfold layerColor. destruct rf; rewrite ?E1, ?E2; discriminate.
Qed.

(** What the linear numbers of the source layers are. *)
Definition decoded (k : nat) (v : R) : R := match k with 3%nat => v | _ => decode v end.

(** Every channel of every layer is the sRGB number of the weighted average of the linear numbers of
    the source layers (the average itself for alpha). *)
Theorem C36_mips3d_srgb : forall alloc (prev : list (bitmap D)) w h n rf,
  (0 < N.of_nat (length prev) < 2 ^ 31)%N -> (0 < n < 2 ^ 31)%N -> (0 < h < 2 ^ 31)%N ->
  Forall (fun b => b_w b = w /\ b_h b = h /\
    forall x y k, (x < w)%N -> (y < h)%N -> (k < 4)%nat ->
      exists v, channel k (b_px b x y) = Some v /\ about_unit v) prev ->
  alloc I_RGBAF w h <> None ->
  let s := N.of_nat (length prev) in
  exists out, mips3d alloc prev w h n CS_sRGB rf = Some out /\ N.of_nat (length out) = n /\
    forall d, (d < n)%N -> exists im, nth_error out (N.to_nat d) = Some im /\
      b_fmt im = I_RGBAF /\ b_w im = w /\ b_h im = h /\ b_cs im = CS_sRGB /\
      forall x y, (x < w)%N -> (y < h)%N -> exists wt, near_weights rf s n d wt /\
        forall k, (k < 4)%nat ->
        let avg := average wt s (fun i => decoded k (layer64 prev i x y k)) in
        exists v, channel k (b_px im x (h - 1 - y)) = Some v /\
          if (k =? 3)%nat
          then Rabs (v - avg) <= 1 / IZR (2 ^ 22) + 14 * slack (2 * (s / n) + 3) 2
          else Rabs (v - encode avg) <= 12 / IZR (2 ^ 22) + 14 * slack (2 * (s / n) + 3) 2.
Proof.
  intros alloc prev w h n rf Hs Hn Hh HP AL s.
  set (prevL := map linearised prev).
  assert (LEN : length prevL = length prev) by apply map_length.
  assert (P127 : 4 <= bpow radix2 127) by (change 4 with (bpow radix2 2); apply bpow_le; lia).
  assert (P149 : 0 < bpow radix2 (-149) <= / IZR (2 ^ 60)).
  { split; [apply bpow_gt_0|]. change (/ IZR (2 ^ 60)) with (bpow radix2 (-60)). apply bpow_le; lia. }
  change (IZR (2 ^ 60)) with 1152921504606846976 in P149.
  assert (LIN : forall v, finite v = true -> about_unit (real v) -> finite (lin v) = true /\
    Rabs (real (lin v) - decode (real v)) <= 0.52 / IZR (2 ^ 22)).
  { intros v FV AB. pose proof (decode_about _ AB) as DA.
    destruct (float_of_intro pw (@sRGBToLinear D) decode v (decode64 pw PW) FV) as [F1 E1].
    { apply Rabs_le. lra. }
    split; [exact F1|]. eapply Rle_trans; [exact E1|].
    assert (Rabs (decode (real v)) <= 1.03) by (apply Rabs_le; lra).
    change (IZR (2 ^ 22)) with 4194304. change (IZR (2 ^ 23)) with 8388608. lra. }
  (* the channels in linear space *)
  assert (CH : forall l k v, channel k (@PF D l) = Some v -> about_unit v -> (k < 4)%nat ->
    exists v', channel k (on_colours lin (@PF D l)) = Some v' /\ Rabs (v' - decoded k v) <= 0.52 / IZR (2 ^ 22)).
  { intros l k v C AB K.
    destruct l as [|v1 [|v2 [|v3 [|v4 [|? ?]]]]]; try discriminate.
    assert (SELF : Rabs (v - v) <= 0.52 / IZR (2 ^ 22)).
    { rewrite Rminus_diag_eq, Rabs_R0 by reflexivity. change (IZR (2 ^ 22)) with 4194304. lra. }
    destruct k as [|[|[|[|k]]]]; [| | | |lia]; unfold PropsMips64.channel in *; cbn [on_colours nth_error] in *;
      match type of C with (if finite ?x then _ else _) = _ => destruct (finite x) eqn:FV; [|discriminate]; injection C as <- end;
      try (exists (real v4); split; [reflexivity|exact SELF]);
      match type of FV with finite ?x = true => destruct (LIN x FV AB) as [F1 E1]; rewrite F1; exists (real (lin x)); split; [reflexivity|exact E1] end. }
  assert (CHB : forall b x y k, In b prev -> (x < w)%N -> (y < h)%N -> (k < 4)%nat ->
    exists v v', channel k (b_px b x y) = Some v /\ about_unit v /\
      channel k (b_px (linearised b) x y) = Some v' /\ Rabs (v' - decoded k v) <= 0.52 / IZR (2 ^ 22)).
  { intros b x y k Ib X Y K. rewrite Forall_forall in HP. destruct (HP b Ib) as (_ & _ & Q).
    destruct (Q x y k X Y K) as (v & C & AB). cbn [linearised b_px].
    destruct (b_px b x y) as [l|l|l] eqn:EP; try discriminate.
    destruct (CH l k v C AB K) as (v' & C' & E). eauto 8. }
  assert (DB : forall k v, about_unit v -> - / 100 <= decoded k v <= 1.03).
  { intros k v AB. pose proof (decode_about v AB). unfold decoded. destruct AB.
    destruct k as [|[|[|[|?]]]]; lra. }
  destruct (C36_mips3d_rounding pw alloc prevL w h n rf 2) as (outL & EL & LL & PL); auto.
  { rewrite LEN. exact Hs. }
  { change 2 with (bpow radix2 1). split; apply bpow_le; lia. }
  { apply Forall_forall. intros bl Ib. apply in_map_iff in Ib. destruct Ib as (b & <- & Ib).
    pose proof (proj1 (Forall_forall _ _) HP b Ib) as (W1 & H1 & _). split; [exact W1|]. split; [exact H1|].
    intros x y k X Y K. destruct (CHB b x y k Ib X Y K) as (v & v' & _ & AB & C' & E).
    exists v'. split; [exact C'|]. pose proof (DB k v AB). apply Rabs_le_inv in E.
    change (IZR (2 ^ 22)) with 4194304 in E. apply Rabs_le. lra. }
  rewrite LEN in PL. fold s in PL.
  (* the source colours are defined *)
  assert (SC : forall x y i, (x < w)%N -> (y < h)%N -> (i < N.of_nat (length prevL))%N -> sourceColor CS_Linear prevL i x y <> None).
  { intros x y i X Y Hi. unfold sourceColor, prevL. rewrite nth_error_map. rewrite LEN in Hi.
    destruct (nth_error prev (N.to_nat i)) as [b|] eqn:Eb.
    2:{ apply nth_error_None in Eb. lia. }
    cbn [option_map obind]. unfold floatPixel.
    pose proof (nth_error_In _ _ Eb) as Ib.
    pose proof (proj1 (Forall_forall _ _) HP b Ib) as (W1 & H1 & _).
    assert (SL : scanlineOf (b_h (linearised b)) y = (h - 1 - y)%N).
    { cbn [linearised b_h]. rewrite H1. unfold scanlineOf, usub, u32.
      replace (h + 2 ^ 32 - y)%N with (h - y + 1 * 2 ^ 32)%N by lia.
      rewrite N.mod_add, (N.mod_small (h - y)) by lia.
      replace (h - y + 2 ^ 32 - 1)%N with (h - y - 1 + 1 * 2 ^ 32)%N by lia.
      rewrite N.mod_add, N.mod_small by lia. lia. }
    rewrite SL, read_inside by (split; cbn [linearised b_w b_h]; lia). cbn [obind].
    destruct (CHB b x (h - 1 - y)%N 0%nat Ib X ltac:(lia) ltac:(lia)) as (v & v' & _ & _ & C' & _).
    destruct (b_px (linearised b) x (h - 1 - y)) as [l|l|l]; try discriminate.
    destruct l as [|v1 [|v2 [|v3 [|v4 [|? ?]]]]]; try discriminate. }
  assert (DEF : forall d x y, (d < n)%N -> (x < w)%N -> (y < h)%N -> layerColor rf CS_Linear prevL n d x y <> None).
  { intros d x y Hd X Y. apply layer_defined; auto. rewrite LEN. exact Hs. }
  assert (EQ : forall d x y, layerColor rf CS_sRGB prev n d x y = layerColor rf CS_Linear prevL n d x y).
  { intros d x y. unfold layerColor. rewrite box_linear, tent_linear. reflexivity. }
  (* every layer *)
  assert (SMALL : 0 <= slack (2 * (s / n) + 3) 2).
  { unfold slack. apply Rmult_le_pos; [|lra]. apply Rmult_le_pos; [|apply bpow_ge_0].
    unfold NR. assert (0 <= IZR (Z.of_N (2 * (s / n) + 3))) by (apply IZR_le; set (q := (s / n)%N); clearbody q; lia). lra. }
  assert (BOUND : slack (2 * (s / n) + 3) 2 <= / 32).
  { unfold slack.
    assert (X : (2 * (s / n) + 3 <= 2 ^ 33)%N).
    { assert (s / n <= s)%N by (apply N.div_le_upper_bound; [lia|nia]). set (q := (s / n)%N) in *; clearbody q. lia. }
    assert (NR (2 * (s / n) + 3) <= 8589934592) by (apply (NR_le _ 8589934592); lia).
    replace (bpow radix2 (-50)) with (/ 1125899906842624) by (simpl; lra). lra. }
  set (sl := slack (2 * (s / n) + 3) 2) in *. clearbody sl.
  assert (LAY : forall d, (d < n)%N -> exists im, mipLayer alloc CS_sRGB prev w h n rf d = Some im /\
    b_fmt im = I_RGBAF /\ b_w im = w /\ b_h im = h /\ b_cs im = CS_sRGB /\
    forall x y, (x < w)%N -> (y < h)%N -> exists wt, near_weights rf s n d wt /\
      forall k, (k < 4)%nat ->
      let avg := average wt s (fun i => decoded k (layer64 prev i x y k)) in
      exists v, channel k (b_px im x (h - 1 - y)) = Some v /\
        if (k =? 3)%nat then Rabs (v - avg) <= 1 / IZR (2 ^ 22) + 14 * sl
        else Rabs (v - encode avg) <= 12 / IZR (2 ^ 22) + 14 * sl).
  { intros d Hd.
    destruct (layer_pixels alloc CS_sRGB prev w h n rf d Hh AL) as (im & E & I1 & I2 & I3 & I4 & PX).
    { intros x y X Y. rewrite EQ. apply DEF; assumption. }
    exists im. do 5 (split; [assumption|]). intros x y X Y.
    destruct (PX x y X Y) as (c & EC & ->).
    destruct (PL d Hd) as (iml & NL & _ & _ & _ & _ & QL). destruct (QL x y X Y) as (wt & NW & CHL).
    destruct (layer_pixels alloc CS_Linear prevL w h n rf d Hh AL) as (iml' & El & _ & _ & _ & _ & PXL).
    { intros x0 y0 X0 Y0. apply DEF; assumption. }
    assert (iml' = iml).
    { unfold mips3d in EL. destruct (omap_nth _ _ _ (N.to_nat d) d EL) as (q & N1 & N2).
      { rewrite nth_error_Nrange by lia. f_equal. lia. }
      congruence. }
    subst iml'. destruct (PXL x y X Y) as (c' & EC' & Epx). rewrite EQ in EC. assert (c' = c) by congruence. subst c'.
    rewrite Epx in CHL. rewrite store_linear.
    exists wt. split; [exact NW|]. intros k K avg.
    destruct (CHL k K) as (r & RB & CR).
    destruct (near_total _ _ _ _ _ NW) as [TW PWt].
    (* the two averages *)
    assert (VAL : forall i, (i < s)%N -> Rabs (layer64 prevL i x y k - decoded k (layer64 prev i x y k)) <= 0.52 / IZR (2 ^ 22) /\
      about_unit (layer64 prev i x y k)).
    { intros i Hi. unfold PropsMips64.layer64, prevL. rewrite nth_error_map.
      destruct (nth_error prev (N.to_nat i)) as [b|] eqn:Eb.
      2:{ apply nth_error_None in Eb. lia. }
      cbn [option_map]. pose proof (nth_error_In _ _ Eb) as Ib.
      pose proof (proj1 (Forall_forall _ _) HP b Ib) as (_ & H1 & _).
      change (b_h (linearised b)) with (b_h b). rewrite H1.
      destruct (CHB b x (h - 1 - y)%N k Ib X ltac:(lia) K) as (v & v' & C & AB & C' & Ev). rewrite C, C'. auto. }
    assert (AVG : Rabs (average wt s (fun i => layer64 prevL i x y k) - avg) <= 0.52 / IZR (2 ^ 22)).
    { unfold avg. assert (Q : average wt s (fun i => layer64 prevL i x y k) - average wt s (fun i => decoded k (layer64 prev i x y k))
        = average wt s (fun i => layer64 prevL i x y k - decoded k (layer64 prev i x y k))).
      { unfold average. unfold Rdiv at 1 2 3. rewrite <- Rmult_minus_distr_r. f_equal.
        rewrite !total_sum. rewrite <- sum_minus. apply sum_ext. intros i _. ring. }
      rewrite Q. apply Rabs_le. apply average_between; auto. intros i Hi _. apply Rabs_le_inv. apply (VAL i Hi). }
    assert (AB : - / 100 <= avg <= 1.03).
    { unfold avg. apply average_between; auto. intros i Hi _. apply DB. apply (VAL i Hi). }
    change (IZR (2 ^ 22)) with 4194304 in *.
    assert (RR : Rabs (r - avg) <= 0.52 / 4194304 + sl).
    { replace (r - avg) with ((r - average wt s (fun i => layer64 prevL i x y k)) + (average wt s (fun i => layer64 prevL i x y k) - avg)) by ring.
      eapply Rle_trans; [apply Rabs_triang|]. lra. }
    assert (R2 : Rabs (rnd32 r - avg) <= 0.79 / 4194304 + sl + sl / 1000).
    { pose proof (rnd32_any r) as RE.
      assert (Rabs r <= 1.04 + sl). { apply Rabs_le_inv in RR. apply Rabs_le. lra. }
      assert (P150 : bpow radix2 (-150) <= bpow radix2 (-149)) by (apply bpow_le; lia).
      replace (rnd32 r - avg) with ((rnd32 r - r) + (r - avg)) by ring.
      eapply Rle_trans; [apply Rabs_triang|]. change (IZR (2 ^ 24)) with 16777216 in RE. lra. }
    destruct (storeLinear CS_Linear c) as [l|l|l] eqn:ES; try discriminate.
    destruct l as [|v1 [|v2 [|v3 [|v4 [|? ?]]]]]; try discriminate.
    assert (COLOUR : forall v, (if finite v then Some (real v) else None) = Some (rnd32 r) ->
      exists v', (if finite (unlin v) then Some (real (unlin v)) else None) = Some v' /\
        Rabs (v' - encode avg) <= 12 / 4194304 + 14 * sl).
    { intros v CV. destruct (finite v) eqn:FV; [|discriminate]. injection CV as CV.
      pose proof (encode_any (real v) avg) as EA. rewrite CV in EA.
      pose proof (encode_about avg AB) as EB.
      assert (A1 : Rabs (encode (rnd32 r) - encode avg) <= 10.34 / 4194304 + 13 * sl) by lra.
      destruct (float_of_intro pw (@linearToSRGB D) encode v (encode64' pw PW) FV) as [F1 E1].
      { rewrite CV. apply Rabs_le_inv in A1. apply Rabs_le. lra. }
      rewrite CV in E1. change (dnarrow (@linearToSRGB D (dwiden v))) with (unlin v) in *. rewrite F1. exists (real (unlin v)). split; [reflexivity|].
      assert (A2 : Rabs (encode (rnd32 r)) <= 1.41 + 13 * sl) by (apply Rabs_le_inv in A1; apply Rabs_le; lra).
      replace (real (unlin v) - encode avg) with ((real (unlin v) - encode (rnd32 r)) + (encode (rnd32 r) - encode avg)) by ring.
      eapply Rle_trans; [apply Rabs_triang|]. change (IZR (2 ^ 23)) with 8388608 in E1. lra. }
    unfold PropsMips64.channel in *. cbn [on_colours].
    destruct k as [|[|[|[|k]]]]; [| | | |lia]; cbn [nth_error Nat.eqb] in *.
    1-3: exact (COLOUR _ CR).
    exists (rnd32 r). split; [exact CR|]. lra. }
  unfold mips3d.
  destruct (omap_total (mipLayer alloc CS_sRGB prev w h n rf) (Nrange n)) as (out & EO).
  { intros d I. apply in_Nrange in I. destruct (LAY d I) as (im & E & _). eauto. }
  exists out. split; [exact EO|]. split.
  { apply omap_length in EO. rewrite EO, Nrange_length. lia. }
  intros d Hd. destruct (LAY d Hd) as (im & E & P).
  destruct (omap_nth _ _ _ (N.to_nat d) d EO) as (im' & N1 & N2).
  { rewrite nth_error_Nrange by lia. f_equal. lia. }
  exists im. rewrite E in N2. assert (im' = im) by congruence. subst im'. split; [exact N1|]. exact P.
Qed.

End Pow.
Print Assumptions C36_mips3d_srgb.

(** The hypotheses are met: an opaque white layer and an opaque black one. *)
Example C36_mips3d_srgb_case :
  let D := double_arith good_pow in
  let layer (z : Z) : bitmap D := @Bitmap D I_RGBAF 1 1 CS_sRGB
    (fun _ _ => @PF D [float_of_Z z; float_of_Z z; float_of_Z z; float_of_Z 1]) in
  pow_ok good_pow /\ exists im wt v, (mips3d (falloc good_pow) [layer 1%Z; layer 0%Z] 1 1 1 CS_sRGB RF_Box = Some [im]) /\
    near_box 2 1 0 wt /\ (PropsMips64.channel good_pow 0 (b_px im 0 0) = Some v).
Proof.
  cbv zeta. split; [exact good_pow_ok|].
  set (layer := fun z : Z => @Bitmap (double_arith good_pow) I_RGBAF 1 1 CS_sRGB
    (fun _ _ => @PF (double_arith good_pow) [float_of_Z z; float_of_Z z; float_of_Z z; float_of_Z 1])).
  assert (C : forall z, (0 <= z <= 1)%Z -> forall k, (k < 4)%nat ->
    exists v, PropsMips64.channel good_pow k (@PF (double_arith good_pow) [float_of_Z z; float_of_Z z; float_of_Z z; float_of_Z 1]) = Some v /\
      about_unit v).
  { intros z Hz k Hk. destruct (float_of_Z_ok z ltac:(lia)) as [R F]. destruct (float_of_Z_ok 1 ltac:(lia)) as [R1 F1].
    unfold PropsMips64.channel. assert (0 <= IZR z <= 1) by (split; apply IZR_le; lia).
    destruct k as [|[|[|[|k]]]]; [| | | |lia]; cbn [nth_error]; rewrite ?F, ?R, ?F1, ?R1; eexists; (split; [reflexivity|]); unfold about_unit; lra. }
  destruct (C36_mips3d_srgb good_pow good_pow_ok (falloc good_pow) [layer 1%Z; layer 0%Z] 1 1 1 RF_Box) as (out & E & L & P).
  - cbn [length]. lia.
  - lia.
  - lia.
  - constructor; [|constructor; [|constructor]]; (split; [reflexivity|]); (split; [reflexivity|]);
      intros x y k _ _ Hk; apply C; auto; lia.
  - discriminate.
  - destruct (P 0%N ltac:(lia)) as (im & N0 & _ & _ & _ & _ & PX).
    destruct out as [|im' [|]]; [discriminate| |cbn in L; lia].
    cbn [nth_error N.to_nat] in N0. assert (im' = im) by congruence. subst im'.
    destruct (PX 0%N 0%N ltac:(lia) ltac:(lia)) as (wt & NW & Q). destruct (Q 0%nat ltac:(lia)) as (v & R & _).
    exists im, wt, v. split; [exact E|]. split; [exact NW|exact R].
Qed.

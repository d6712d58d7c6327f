(** Ranges of numbers through the generation of the levels of a volume. *)

From Coq Require Import NArith ZArith List Bool String Lia Permutation Reals Lra.
From Coq Require Import ZifyBool ZifyNat ZifyN.
From Flocq Require Import Core IEEE754.BinarySingleNaN IEEE754.Binary IEEE754.Bits.
From Verif Require Import Base FormatModel FormatSpec FloatModel FloatSpec ArithModel ArithReal DoubleProofs
  TextureSpec ImageSpec ImageApiProofs AdjustProofs FloatProofs ResizeSpec ResizeRealProofs PropsResize64 PropsMips64.
From Verif Require Import PropsSrgb SrgbSpec PropsSrgb64 PropsMipsSrgb.
From Verif Require Import TextureModel ImageModel PipelineModel PipelineSpec
  ToolImageModel ToolImageSpec ToolImageProofs ToolLevelsSpec ToolLevelsProofs.
From Verif Require ResizeModel ResizeAvg64.
Import ListNotations.
Local Open Scope list_scope.
Local Open Scope N_scope.
Local Notation length := List.length.
Local Notation height := TextureModel.height.

Lemma magnitude_power ty f : exists k, (1 <= k <= 16)%Z /\ magnitude ty f = bpow radix2 k.
Proof.
  unfold magnitude. destruct (channel_bits f) as [n|] eqn:CB.
  2:{ exists 1%Z. split; [lia|]. destruct ty; reflexivity. }
  destruct (bits_cases _ _ CB) as [-> | ->]; destruct ty;
    first [exists 1%Z; split; [lia|]; reflexivity | exists 8%Z; split; [lia|]; reflexivity | exists 16%Z; split; [lia|]; reflexivity].
Qed.

Section Volume.
Context (pw : double -> double -> double).
Local Notation D := (double_arith pw).
Variable F : freeimage pw.
Hypothesis FK : freeimage_ok pw F.

Definition chan_index (c : chan) : nat := match c with ChR => 0 | ChG => 1 | ChB => 2 | _ => 3 end.

Lemma lies_channel lo hi c p : c <> ChE -> lies pw lo hi c p ->
  exists v, PropsMips64.channel pw (chan_index c) p = Some v /\ (lo <= v <= hi)%R.
Proof.
  intros NE (v & V & FV & B). destruct p as [l|l|l]; try (destruct c; discriminate).
  destruct l as [|v1 [|v2 [|v3 [|v4 [|? ?]]]]]; try (destruct c; discriminate).
  destruct c; try congruence; cbn [float_of] in V; injection V as ->; cbn [PropsMips64.channel chan_index nth_error]; rewrite FV; eauto.
Qed.

Lemma channel_lies lo hi c p v : c <> ChE -> PropsMips64.channel pw (chan_index c) p = Some v -> (lo <= v <= hi)%R -> lies pw lo hi c p.
Proof.
  intros NE V B. destruct p as [l|l|l]; try discriminate.
  destruct l as [|v1 [|v2 [|v3 [|v4 [|? ?]]]]]; try discriminate.
  destruct c; try congruence; cbn [PropsMips64.channel chan_index nth_error] in V;
    match type of V with (if finite ?x then _ else _) = _ => destruct (finite x) eqn:FV; [|discriminate]; injection V as <-; exists x end;
    (split; [reflexivity|]); auto.
Qed.

Lemma index_chan k : (k < 4)%nat -> exists c, c <> ChE /\ chan_index c = k.
Proof.
  intros K. destruct k as [|[|[|[|?]]]]; try lia; [exists ChR|exists ChG|exists ChB|exists ChA]; (split; [discriminate|reflexivity]).
Qed.

(** The slices of a level from those of the previous one, brought to the size of the level. *)
Lemma slices_linear imgs w h n rf k LO HI :
  (1 <= k <= 16)%Z -> 1 <= w < 2 ^ 31 -> 1 <= h < 2 ^ 31 -> 0 < n < 2 ^ 31 ->
  0 < N.of_nat (length imgs) < 2 ^ 31 -> N.of_nat (length imgs) / n <= 3 ->
  (forall c, c <> ChE -> (- bpow radix2 k <= LO c /\ HI c <= bpow radix2 k)%R) ->
  Forall (fun i => ranged pw CS_Linear (fun c => c <> ChE) LO HI i w h) imgs ->
  exists out, generateMips3d (image_lib pw F) imgs w h n CS_Linear rf = Some out /\ N.of_nat (length out) = n /\
  forall (ch : chan -> Prop) lo hi, (forall c, ch c -> c <> ChE) ->
    (forall c, ch c -> (- bpow radix2 k <= lo c /\ hi c <= bpow radix2 k)%R) ->
    Forall (fun i => ranged pw CS_Linear ch lo hi i w h) imgs ->
    Forall (fun i => ranged pw CS_Linear ch (fun c => (lo c - bpow radix2 k / IZR (2 ^ 22))%R)
                       (fun c => (hi c + bpow radix2 k / IZR (2 ^ 22))%R) i w h) out.
Proof.
  intros HK HW HH Hn Hs H3 BND ALL.
  set (K := bpow radix2 k) in *.
  assert (KB : (2 <= K <= 65536)%R).
  { unfold K. split; [change 2%R with (bpow radix2 1)|change 65536%R with (bpow radix2 16)]; apply bpow_le; lia. }
  assert (EC : exists prev, omap (slice_content w h) imgs = Some prev /\ map (Img I_RGBAF w h CS_Linear) prev = imgs).
  { clear -ALL. induction ALL as [|i l (b & -> & _) _ (prev & E & M)].
    - exists []. split; reflexivity.
    - exists (b :: prev). cbn [omap slice_content]. rewrite !N.eqb_refl, E. cbn. split; [reflexivity|]. now rewrite M. }
  destruct EC as (prev & EC & MP).
  assert (LEN : length prev = length imgs) by (rewrite <- MP; now rewrite map_length).
  assert (IMG : forall (ch : chan -> Prop) lo hi, Forall (fun i => ranged pw CS_Linear ch lo hi i w h) imgs ->
    Forall (fun b => b_w b = w /\ b_h b = h /\ b_fmt b = I_RGBAF /\ b_cs b = CS_Linear /\ good pw b /\
      forall c, ch c -> forall x y, x < w -> y < h -> lies pw (lo c) (hi c) c (at_ pw b x y)) prev).
  { intros ch lo hi. rewrite <- MP. rewrite Forall_map. apply Forall_impl. intros b (b' & E & R).
    injection E as ->. exact R. }
  pose proof (IMG _ _ _ ALL) as PA.
  destruct (C36_mips3d_rounding pw (fi_alloc pw F) prev w h n rf K) as (out & EO & LO' & PO).
  { rewrite LEN. exact Hs. } { exact Hn. } { lia. }
  { split; [|apply Rle_trans with (1 := proj2 KB); change 65536%R with (bpow radix2 16)]; unfold K; apply bpow_le; lia. }
  { eapply Forall_impl; [|exact PA]. intros b (E1 & E2 & _ & _ & _ & R). split; [exact E1|]. split; [exact E2|].
    intros x y kk X Y KK. destruct (index_chan kk KK) as (c & NE & <-).
    specialize (R c NE x (h - 1 - y) X ltac:(lia)). unfold at_ in R. rewrite E2 in R.
    replace (h - 1 - (h - 1 - y)) with y in R by lia.
    destruct (lies_channel _ _ _ _ NE R) as (v & V & B). exists v. split; [exact V|].
    destruct (BND c NE). apply Rabs_le. lra. }
  { apply (fk_alloc pw F FK). }
  exists (map (Img I_RGBAF w h CS_Linear) out). split.
  { unfold generateMips3d. rewrite EC. cbn [obind image_lib l_mips3d]. rewrite EO. cbn [obind].
    rewrite LO', N.eqb_refl. reflexivity. }
  split; [rewrite map_length; exact LO'|].
  intros ch lo hi NE CB RG. pose proof (IMG ch lo hi RG) as PR. rewrite Forall_map, Forall_forall. intros im Him.
  destruct (In_nth_error _ _ Him) as (j & Ej).
  assert (Hj : (N.of_nat j < n)%N).
  { rewrite <- LO'. assert (j < length out)%nat by (apply nth_error_Some; congruence). lia. }
  destruct (PO (N.of_nat j) Hj) as (im' & Ej' & I1 & I2 & I3 & I4 & PX). rewrite Nat2N.id in Ej'.
  assert (im' = im) by congruence. subst im'.
  exists im. split; [reflexivity|]. do 4 (split; [assumption|]).
  assert (AT : forall x y, at_ pw im x y = b_px im x (h - 1 - y)) by (intros; unfold at_; now rewrite I3).
  split.
  { split; [lia|]. split; [lia|]. intros x y [X Y]. rewrite I2 in X. rewrite I3 in Y. rewrite AT, I1.
    destruct (PX x y X Y) as (wt & _ & Q). destruct (Q 0%nat ltac:(lia)) as (r & _ & C0).
    destruct (b_px im x (h - 1 - y)) as [l|l|l]; try discriminate.
    destruct l as [|v1 [|v2 [|v3 [|v4 [|? ?]]]]]; try discriminate. exact I. }
  intros c C x y X Y. rewrite AT. destruct (PX x y X Y) as (wt & NW & Q).
  assert (KI : (chan_index c < 4)%nat) by (destruct c; cbn; lia).
  destruct (Q (chan_index c) KI) as (r & RA & CV).
  apply (channel_lies _ _ _ _ _ (NE c C) CV).
  destruct (near_total _ _ _ _ _ NW) as [TW PW].
  assert (AV : (lo c <= average wt (N.of_nat (length prev)) (fun i => layer64 pw prev i x y (chan_index c)) <= hi c)%R).
  { apply average_between; auto. intros i Hi _. unfold layer64.
    destruct (nth_error prev (N.to_nat i)) as [b|] eqn:Eb.
    2:{ apply nth_error_None in Eb. lia. }
    rewrite Forall_forall in PR. destruct (PR b (nth_error_In _ _ Eb)) as (E1 & E2 & _ & _ & _ & R).
    destruct (lies_channel _ _ _ _ (NE c C) (R c C x y X Y)) as (v & V & B). unfold at_ in V. rewrite V. exact B. }
  set (g := average _ _ _) in *. clearbody g.
  rewrite LEN in RA.
  assert (SL : (slack (2 * (N.of_nat (length imgs) / n) + 3) K <= 11 * bpow radix2 (-50) * K)%R).
  { unfold slack. apply Rmult_le_compat_r; [lra|]. apply Rmult_le_compat_r; [apply bpow_ge_0|].
    assert (NR (2 * (N.of_nat (length imgs) / n) + 3) <= NR 9)%R.
    { apply ResizeAvg64.NR_le. set (q := N.of_nat (length imgs) / n) in *. clearbody q. lia. }
    unfold NR in *. simpl (IZR (Z.of_N 9)) in *. lra. }
  assert (B50 : (bpow radix2 (-50) <= / 1073741824)%R).
  { change (/ 1073741824)%R with (bpow radix2 (-30)). apply bpow_le. lia. }
  destruct (CB c C) as [CB1 CB2].
  assert (RB : (Rabs (r - g) <= K / 33554432)%R).
  { eapply Rle_trans; [exact RA|]. eapply Rle_trans; [exact SL|].
    assert (11 * bpow radix2 (-50) * K <= 11 * / 1073741824 * K)%R by (apply Rmult_le_compat_r; lra). lra. }
  apply Rabs_le_inv in RB.
  assert (RM : (Rabs r <= bpow radix2 (k + 1))%R).
  { rewrite bpow_plus. change (bpow radix2 1) with 2%R. fold K. apply Rabs_le. lra. }
  pose proof (rnd32_err r (k + 1) ltac:(lia) RM) as RE.
  replace (k + 1 - 24)%Z with (k + -23)%Z in RE by lia. rewrite bpow_plus in RE. fold K in RE.
  change (bpow radix2 (-23)) with (/ 8388608)%R in RE. apply Rabs_le_inv in RE.
  change (IZR (2 ^ 22)) with 4194304%R. lra.
Qed.

(** The same in sRGB. *)
Lemma slices_srgb imgs w h n rf LO HI : pow_ok pw ->
  1 <= w < 2 ^ 31 -> 1 <= h < 2 ^ 31 -> 0 < n < 2 ^ 31 ->
  0 < N.of_nat (length imgs) < 2 ^ 31 -> N.of_nat (length imgs) / n <= 3 ->
  (forall c, c <> ChE -> (- / 100 <= LO c /\ HI c <= 1 + / 100)%R) ->
  Forall (fun i => ranged pw CS_sRGB (fun c => c <> ChE) LO HI i w h) imgs ->
  exists out, generateMips3d (image_lib pw F) imgs w h n CS_sRGB rf = Some out /\ N.of_nat (length out) = n /\
  forall (ch : chan -> Prop) lo hi ty f, (forall c, ch c -> c <> ChE) -> magnitude ty f = 2%R ->
    Forall (fun i => ranged pw CS_sRGB ch lo hi i w h) imgs ->
    Forall (fun i => ranged pw CS_sRGB ch (fun c => (lo c - loss CS_sRGB ty f c / IZR (2 ^ 22))%R)
                       (fun c => (hi c + loss CS_sRGB ty f c / IZR (2 ^ 22))%R) i w h) out.
Proof.
  intros PW HW HH Hn Hs H3 BND ALL.
  assert (EC : exists prev, omap (slice_content w h) imgs = Some prev /\ map (Img I_RGBAF w h CS_sRGB) prev = imgs).
  { clear -ALL. induction ALL as [|i l (b & -> & _) _ (prev & E & M)].
    - exists []. split; reflexivity.
    - exists (b :: prev). cbn [omap slice_content]. rewrite !N.eqb_refl, E. cbn. split; [reflexivity|]. now rewrite M. }
  destruct EC as (prev & EC & MP).
  assert (LEN : length prev = length imgs) by (rewrite <- MP; now rewrite map_length).
  assert (IMG : forall (ch : chan -> Prop) lo hi, Forall (fun i => ranged pw CS_sRGB ch lo hi i w h) imgs ->
    Forall (fun b => b_w b = w /\ b_h b = h /\ b_fmt b = I_RGBAF /\ b_cs b = CS_sRGB /\ good pw b /\
      forall c, ch c -> forall x y, x < w -> y < h -> lies pw (lo c) (hi c) c (at_ pw b x y)) prev).
  { intros ch lo hi. rewrite <- MP. rewrite Forall_map. apply Forall_impl. intros b (b' & E & R).
    injection E as ->. exact R. }
  pose proof (IMG _ _ _ ALL) as PA.
  destruct (C36_mips3d_srgb pw PW (fi_alloc pw F) prev w h n rf) as (out & EO & LO' & PO).
  { rewrite LEN. exact Hs. } { exact Hn. } { lia. }
  { eapply Forall_impl; [|exact PA]. intros b (E1 & E2 & _ & _ & _ & R). split; [exact E1|]. split; [exact E2|].
    intros x y kk X Y KK. destruct (index_chan kk KK) as (c & NE & <-).
    specialize (R c NE x (h - 1 - y) X ltac:(lia)). unfold at_ in R. rewrite E2 in R.
    replace (h - 1 - (h - 1 - y)) with y in R by lia.
    destruct (lies_channel _ _ _ _ NE R) as (v & V & B). exists v. split; [exact V|].
    destruct (BND c NE). unfold about_unit. lra. }
  { apply (fk_alloc pw F FK). }
  exists (map (Img I_RGBAF w h CS_sRGB) out). split.
  { unfold generateMips3d. rewrite EC. cbn [obind image_lib l_mips3d]. rewrite EO. cbn [obind].
    rewrite LO', N.eqb_refl. reflexivity. }
  split; [rewrite map_length; exact LO'|].
  intros ch lo hi ty f NE M2 RG. pose proof (IMG ch lo hi RG) as PR. rewrite Forall_map, Forall_forall. intros im Him.
  destruct (In_nth_error _ _ Him) as (j & Ej).
  assert (Hj : (N.of_nat j < n)%N).
  { rewrite <- LO'. assert (j < length out)%nat by (apply nth_error_Some; congruence). lia. }
  destruct (PO (N.of_nat j) Hj) as (im' & Ej' & I1 & I2 & I3 & I4 & PX). rewrite Nat2N.id in Ej'.
  assert (im' = im) by congruence. subst im'.
  exists im. split; [reflexivity|]. do 4 (split; [assumption|]).
  assert (AT : forall x y, at_ pw im x y = b_px im x (h - 1 - y)) by (intros; unfold at_; now rewrite I3).
  split.
  { split; [lia|]. split; [lia|]. intros x y [X Y]. rewrite I2 in X. rewrite I3 in Y. rewrite AT, I1.
    destruct (PX x y X Y) as (wt & _ & Q). destruct (Q 0%nat ltac:(lia)) as (r & C0 & _).
    destruct (b_px im x (h - 1 - y)) as [l|l|l]; try discriminate.
    destruct l as [|v1 [|v2 [|v3 [|v4 [|? ?]]]]]; try discriminate. exact I. }
  intros c C x y X Y. rewrite AT. destruct (PX x y X Y) as (wt & NW & Q).
  assert (KI : (chan_index c < 4)%nat) by (destruct c; cbn; lia).
  destruct (Q (chan_index c) KI) as (r & CV & RA).
  apply (channel_lies _ _ _ _ _ (NE c C) CV).
  destruct (near_total _ _ _ _ _ NW) as [TW PWt].
  assert (LV : forall i, i < N.of_nat (length prev) -> (lo c <= layer64 pw prev i x y (chan_index c) <= hi c)%R).
  { intros i Hi. unfold layer64.
    destruct (nth_error prev (N.to_nat i)) as [b|] eqn:Eb.
    2:{ apply nth_error_None in Eb. lia. }
    rewrite Forall_forall in PR. destruct (PR b (nth_error_In _ _ Eb)) as (E1 & E2 & _ & _ & _ & R).
    destruct (lies_channel _ _ _ _ (NE c C) (R c C x y X Y)) as (v & V & B). unfold at_ in V. rewrite V. exact B. }
  assert (SL : (slack (2 * (N.of_nat (length imgs) / n) + 3) 2 <= 22 * bpow radix2 (-50))%R).
  { unfold slack. replace (22 * bpow radix2 (-50))%R with (11 * bpow radix2 (-50) * 2)%R by ring.
    apply Rmult_le_compat_r; [lra|]. apply Rmult_le_compat_r; [apply bpow_ge_0|].
    assert (NR (2 * (N.of_nat (length imgs) / n) + 3) <= NR 9)%R.
    { apply ResizeAvg64.NR_le. set (q := N.of_nat (length imgs) / n) in *. clearbody q. lia. }
    unfold NR in *. simpl (IZR (Z.of_N 9)) in *. lra. }
  assert (B50 : (bpow radix2 (-50) <= / 1099511627776)%R).
  { change (/ 1099511627776)%R with (bpow radix2 (-40)). apply bpow_le. lia. }
  rewrite LEN in RA, LV. rewrite coloured_loss. change (IZR (2 ^ 22)) with 4194304%R in *.
  set (sl := slack _ _) in *. clearbody sl.
  destruct (coloured_dec c) as [CC|CC].
  - assert (K3 : (chan_index c =? 3)%nat = false) by (destruct CC as [-> | [-> | ->]]; reflexivity).
    assert (DC : forall v, decoded (chan_index c) v = decode v) by (intros v; destruct CC as [-> | [-> | ->]]; reflexivity).
    rewrite K3 in RA.
    assert (AV : (decode (lo c) <= average wt (N.of_nat (length imgs)) (fun i => decoded (chan_index c) (layer64 pw prev i x y (chan_index c))) <= decode (hi c))%R).
    { rewrite LEN in TW, PWt. apply average_between; auto. intros i Hi _. rewrite DC. specialize (LV i Hi). split; apply decode_grows; lra. }
    set (g := average _ _ _) in *. clearbody g.
    pose proof (back_low (lo c) g 0 ltac:(lra) ltac:(lra)). pose proof (back_high (hi c) g 0 ltac:(lra) ltac:(lra)).
    apply Rabs_le_inv in RA. lra.
  - assert (CA : c = ChA) by (specialize (NE c C); unfold coloured in CC; destruct c; intuition congruence).
    subst c. cbn [chan_index Nat.eqb decoded] in *.
    assert (AV : (lo ChA <= average wt (N.of_nat (length imgs)) (fun i => layer64 pw prev i x y 3) <= hi ChA)%R).
    { rewrite LEN in TW, PWt. apply average_between; auto. }
    set (g := average _ _ _) in *. clearbody g. apply Rabs_le_inv in RA. lra.
Qed.

(** In either space. *)
Lemma slices_ranged cs ty f imgs w h n rf LO HI : space_ok pw cs ty ->
  1 <= w < 2 ^ 31 -> 1 <= h < 2 ^ 31 -> 0 < n < 2 ^ 31 ->
  0 < N.of_nat (length imgs) < 2 ^ 31 -> N.of_nat (length imgs) / n <= 3 ->
  (forall c, c <> ChE -> (- magnitude ty f <= LO c /\ HI c <= magnitude ty f)%R /\
    (cs = CS_sRGB -> magnitude ty f = 2 /\ - / 100 <= LO c /\ HI c <= 1 + / 100)%R) ->
  Forall (fun i => ranged pw cs (fun c => c <> ChE) LO HI i w h) imgs ->
  exists out, generateMips3d (image_lib pw F) imgs w h n cs rf = Some out /\ N.of_nat (length out) = n /\
  forall (ch : chan -> Prop) lo hi, (forall c, ch c -> c <> ChE) ->
    (forall c, ch c -> (- magnitude ty f <= lo c /\ hi c <= magnitude ty f)%R) ->
    Forall (fun i => ranged pw cs ch lo hi i w h) imgs ->
    Forall (fun i => ranged pw cs ch (fun c => (lo c - loss cs ty f c / IZR (2 ^ 22))%R)
                       (fun c => (hi c + loss cs ty f c / IZR (2 ^ 22))%R) i w h) out.
Proof.
  intros SO HW HH Hn Hs H3 BND ALL. destruct cs.
  - destruct (magnitude_power ty f) as (k & Hk & MK). rewrite MK in BND.
    destruct (slices_linear imgs w h n rf k LO HI Hk HW HH Hn Hs H3 (fun c C => proj1 (BND c C)) ALL) as (out & E & L & P).
    exists out. split; [exact E|]. split; [exact L|]. intros ch lo hi NE B R. rewrite MK in B.
    eapply Forall_impl; [|exact (P ch lo hi NE B R)]. intros i. apply ranged_wider. intros c _.
    replace (loss CS_Linear ty f c) with (bpow radix2 k) by (rewrite <- MK; destruct c; reflexivity). lra.
  - destruct (SO eq_refl) as [_ PW].
    destruct (slices_srgb imgs w h n rf LO HI PW HW HH Hn Hs H3 (fun c C => proj2 (proj2 (BND c C) eq_refl)) ALL) as (out & E & L & P).
    exists out. split; [exact E|]. split; [exact L|]. intros ch lo hi NE B R.
    apply P; auto. apply (proj2 (BND ChR ltac:(discriminate)) eq_refl).
Qed.

(** All slices of every level, if there are no custom ones. *)
Lemma volume_ranged co cs (ch : chan -> Prop) lo hi ty f bases (t : texture (bitmap D)) rf (cust : N -> option (list (TextureModel.image (bitmap D)) * replacement)) n :
  start_ok co cs -> averages pw F rf -> space_ok pw cs ty -> (N.of_nat n <= 31)%N -> colorSpaceOf t = cs ->
  (forall c, ch c -> c <> ChE) ->
  (forall c, ch c -> (IZR (least ty f) <= lo c /\ hi c <= IZR (greatest ty f))%R) ->
  (forall m, m <= N.of_nat n -> 1 <= width t m < 2 ^ 31 /\ 1 <= height t m < 2 ^ 31 /\ 1 <= depth t m < 2 ^ 31) ->
  (forall m, m < N.of_nat n -> depth t m / depth t (m + 1) <= 3) ->
  (forall m, 1 <= m <= N.of_nat n -> cust m = None) ->
  N.of_nat (length bases) = depth t 0 ->
  let within_types m l := Forall (fun b => ranged pw cs (fun c => c <> ChE) (fun c => (IZR (least ty f) - level_error co 2 cs ty f c m)%R)
    (fun c => (IZR (greatest ty f) + level_error co 2 cs ty f c m)%R) b (width t m) (height t m)) l in
  let within_ranges m l := Forall (fun b => ranged pw cs ch (fun c => (lo c - level_error co 2 cs ty f c m)%R)
    (fun c => (hi c + level_error co 2 cs ty f c m)%R) b (width t m) (height t m)) l in
  within_types 0 bases -> within_ranges 0 bases ->
  let l := chain (gen_slices (image_lib pw F) t rf) cust bases bases n in
  let out := fun l => N.of_nat (length l) = depth t (N.of_nat n) /\ within_types (N.of_nat n) l /\ within_ranges (N.of_nat n) l in
  out (fst l) /\ out (snd l).
Proof.
  intros CO AV SO. induction n as [|n IH]; intros N31 CS NE LG WH HV CU LB WT WR BA BC.
  - cbv zeta. cbn [chain fst snd]. auto.
  - cbv zeta in *.
    destruct (IH ltac:(lia) CS NE LG ltac:(intros; apply WH; lia) ltac:(intros; apply HV; lia)
      ltac:(intros; apply CU; lia) LB BA BC) as [_ (SL & SA & SC)].
    cbn [chain]. rewrite (CU (N.of_nat (Datatypes.S n))) by lia.
    set (src := snd (chain (gen_slices (image_lib pw F) t rf) cust bases bases n)) in *. clearbody src.
    replace (N.of_nat (Datatypes.S n)) with (N.of_nat n + 1)%N in * by lia.
    set (m := N.of_nat n) in *. clearbody m.
    destruct (WH m ltac:(lia)) as (W1 & H1 & D1). destruct (WH (m + 1) ltac:(lia)) as (W2 & H2 & D2).
    specialize (HV m ltac:(lia)).
    assert (ES := fun c => error_small co 2 cs ty f c m CO (fun E => proj1 (SO E)) ltac:(lia) ltac:(lia)).
    assert (ES' := fun c => error_small co 2 cs ty f c (m + 1) CO (fun E => proj1 (SO E)) ltac:(lia) ltac:(lia)).
    assert (EN := fun c => error_next co 2 cs ty f c m). change (IZR 2) with 2%R in EN.
    assert (LP := fun c => loss_pos cs ty f c).
    unfold WT, WR in *. clear WT WR.
    set (e := fun c => level_error co 2 cs ty f c m). set (e' := fun c => level_error co 2 cs ty f c (m + 1)).
    set (ls := fun c => (loss cs ty f c / IZR (2 ^ 22))%R).
    assert (EE : forall c, (e' c = e c + 2 * ls c /\ 0 <= ls c)%R).
    { intros c. unfold e, e', ls. rewrite EN. specialize (LP c). change (IZR (2 ^ 22)) with 4194304%R. lra. }
    assert (BD : forall c L H, (IZR (least ty f) <= L)%R -> (H <= IZR (greatest ty f))%R -> forall d, (d = e c \/ d = e c + ls c)%R ->
      (- magnitude ty f <= L - d /\ H + d <= magnitude ty f)%R /\
      (cs = CS_sRGB -> magnitude ty f = 2 /\ - / 100 <= L - d /\ H + d <= 1 + / 100)%R).
    { intros c L H HL HH d Dd. destruct (EE c) as [X1 X2]. destruct (ES' c) as (Y1 & Y2 & Y3 & Y4). fold (e' c) in Y1, Y2, Y3, Y4.
      assert (d <= e' c)%R by lra. split; [lra|]. intros S0. destruct (Y4 S0) as (Z1 & Z2 & Z3 & Z4). rewrite Z1, Z2 in *. lra. }
    clear ES ES' EN LP.
    assert (ST : forall (q : chan -> Prop) lo hi, (forall c, q c -> (IZR (least ty f) <= lo c /\ hi c <= IZR (greatest ty f))%R) ->
      Forall (fun b => ranged pw cs q (fun c => (lo c - e c)%R) (fun c => (hi c + e c)%R) b (width t m) (height t m)) src ->
      Forall (fun b => ranged pw cs q (fun c => (lo c - e c - ls c)%R) (fun c => (hi c + e c + ls c)%R) b
        (width t (m + 1)) (height t (m + 1))) (map (gen_image (image_lib pw F) t rf (m + 1)) src)).
    { intros q lo0 hi0 Hq. rewrite Forall_map. apply Forall_impl. intros b Rb. unfold gen_image.
      apply (resize_ranged pw F cs q (fun c => (lo0 c - e c)%R) (fun c => (hi0 c + e c)%R) b (width t m) (height t m)
        (width t (m + 1)) (height t (m + 1)) rf ty f AV SO); try tauto; try lia.
      intros c C. destruct (Hq c C). apply (BD c); auto. }
    assert (LG' : forall c : chan, c <> ChE -> (IZR (least ty f) <= IZR (least ty f) /\ IZR (greatest ty f) <= IZR (greatest ty f))%R)
      by (intros; lra).
    pose proof (ST _ _ _ LG' SA) as RA. pose proof (ST _ _ _ LG SC) as RC.
    destruct (slices_ranged cs ty f (map (gen_image (image_lib pw F) t rf (m + 1)) src) (width t (m + 1)) (height t (m + 1)) (depth t (m + 1)) rf
      (fun c => (IZR (least ty f) - e c - ls c)%R) (fun c => (IZR (greatest ty f) + e c + ls c)%R) SO) as (out & EO & LO & PO).
    { lia. } { lia. } { lia. }
    { rewrite map_length, SL. lia. } { rewrite map_length, SL. exact HV. }
    { intros c _. pose proof (BD c _ _ (Rle_refl _) (Rle_refl _) _ (or_intror eq_refl)) as Q.
      split; [lra|]. intros S0. destruct (proj2 Q S0) as (Q1 & Q2 & Q3). lra. }
    { exact RA. }
    assert (G : gen_slices (image_lib pw F) t rf (m + 1) src = out) by (unfold gen_slices; now rewrite CS, EO).
    rewrite G.
    assert (Q : N.of_nat (length out) = depth t (m + 1) /\
      Forall (fun b => ranged pw cs (fun c => c <> ChE) (fun c => (IZR (least ty f) - e' c)%R)
        (fun c => (IZR (greatest ty f) + e' c)%R) b (width t (m + 1)) (height t (m + 1))) out /\
      Forall (fun b => ranged pw cs ch (fun c => (lo c - e' c)%R)
        (fun c => (hi c + e' c)%R) b (width t (m + 1)) (height t (m + 1))) out).
    { assert (BQ : forall (q : chan -> Prop) lo0 hi0, (forall c, q c -> (IZR (least ty f) <= lo0 c /\ hi0 c <= IZR (greatest ty f))%R) ->
        forall c, q c -> (- magnitude ty f <= lo0 c - e c - ls c /\ hi0 c + e c + ls c <= magnitude ty f)%R).
      { intros q lo0 hi0 Hq c C. destruct (Hq c C) as [Q1 Q2]. pose proof (BD c _ _ Q1 Q2 _ (or_intror eq_refl)). lra. }
      split; [exact LO|]. split.
      - eapply Forall_impl; [|apply (PO (fun c => c <> ChE) _ _ (fun c C => C) (BQ _ _ _ LG') RA)].
        intros b. apply ranged_wider. intros c _. destruct (EE c). unfold ls in *. lra.
      - eapply Forall_impl; [|apply (PO ch _ _ NE (BQ _ _ _ LG) RC)].
        intros b. apply ranged_wider. intros c _. destruct (EE c). unfold ls in *. lra. }
    split; exact Q.
Qed.

End Volume.

(** C39: adjustImageValueRange maps stored integers to themselves. *)

From Coq Require Import ZArith NArith List Bool Lia Reals Lra.
From Coq Require Import ZifyBool ZifyNat ZifyN.
From Flocq Require Import Core IEEE754.BinarySingleNaN IEEE754.Binary IEEE754.Bits.
From Verif Require Import Base FormatModel FloatModel FloatSpec FloatProofs ArithModel ArithSpec
  DoubleProofs TextureModel ImageModel ImageLoops ImageSpec ImageStoreProofs ImageOpsProofs
  ImageApiProofs AdjustModel AdjustProofs AdjustSpec.
Import ListNotations.
Local Open Scope N_scope.

Section Adjust.
Context (pw : double -> double -> double).
Local Notation D := (double_arith pw).

(** What is assumed of FreeImage's conversion of [b] to floats: it succeeds, keeps the extents,
    and every float is close to the fraction the integer channel stands for.  The two 16-bit
    packed formats are not converted by FreeImage; for them the allocation has to succeed. *)
Definition freeimage_floats (fi : option (N * N * (N -> N -> pix D))) (alloc : allocator D)
  (b : bitmap D) : Prop :=
  ((b_fmt b = I_RGB5 \/ b_fmt b = I_RGB565) -> alloc I_RGBF (b_w b) (b_h b) <> None) /\
  (~ (b_fmt b = I_RGB5 \/ b_fmt b = I_RGB565) ->
   exists px, fi = Some (b_w b, b_h b, px) /\
     forall x y, within pw b x y -> exists l, px x (b_h b - 1 - y) = @PF D l /\
       Forall2 (fun nk v => close (fst nk) (snd nk) v)
         (combine (bits (b_fmt b)) (levels (b_fmt b) (at_ pw b x y))) l).

(** The float format of an adjusted image. *)
Definition float_format (f : imgfmt) : imgfmt :=
  match bits f with [_] => I_Float | [_; _; _] => I_RGBF | _ => I_RGBAF end.

(** * The conversion *)

Lemma field_555 w : (0 <= w <= 65535)%Z ->
  field w M555r 10 = (w / 1024 mod 32)%Z /\ field w M555g 5 = (w / 32 mod 32)%Z /\
  field w M555b 0 = (w mod 32)%Z.
Proof.
  intros H. 
  assert (A : all16 (fun w => Z.eqb (field w M555r 10) (w / 1024 mod 32)
     && Z.eqb (field w M555g 5) (w / 32 mod 32) && Z.eqb (field w M555b 0) (w mod 32))%Z = true)
    by (vm_compute; reflexivity).
  pose proof (all16_spec _ A w ltac:(lia)) as B. cbv beta in B.
  apply andb_prop in B. destruct B as [B B3]. apply andb_prop in B. destruct B as [B1 B2].
  apply Z.eqb_eq in B1, B2, B3. auto.
Qed.

Lemma field_565 w : (0 <= w <= 65535)%Z ->
  field w M565r 11 = (w / 2048 mod 32)%Z /\ field w M565g 5 = (w / 32 mod 64)%Z /\
  field w M565b 0 = (w mod 32)%Z.
Proof.
  intros H. 
  assert (A : all16 (fun w => Z.eqb (field w M565r 11) (w / 2048 mod 32)
     && Z.eqb (field w M565g 5) (w / 32 mod 64) && Z.eqb (field w M565b 0) (w mod 32))%Z = true)
    by (vm_compute; reflexivity).
  pose proof (all16_spec _ A w ltac:(lia)) as B. cbv beta in B.
  apply andb_prop in B. destruct B as [B B3]. apply andb_prop in B. destruct B as [B1 B2].
  apply Z.eqb_eq in B1, B2, B3. auto.
Qed.

Lemma close_norm n m k : (m = 2 ^ n - 1)%Z -> (0 < m <= 65535)%Z -> (0 <= k <= m)%Z ->
  close n k (dnarrow (@toNorm D m k)).
Proof. intros -> H1 H2. apply narrow_norm; auto. Qed.

Lemma convert_floats fi alloc (b : bitmap D) : good pw b -> normalised (b_fmt b) ->
  freeimage_floats fi alloc b ->
  exists b', convert fi alloc (Some b) (float_format (b_fmt b)) true = Some (Some b') /\
    b_fmt b' = float_format (b_fmt b) /\ b_w b' = b_w b /\ b_h b' = b_h b /\ b_cs b' = b_cs b /\
    forall x y, within pw b x y -> exists l, at_ pw b' x y = @PF D l /\
      Forall2 (fun nk v => close (fst nk) (snd nk) v)
        (combine (bits (b_fmt b)) (levels (b_fmt b) (at_ pw b x y))) l.
Proof.
  intros G NM C. unfold normalised in NM. unfold freeimage_floats in C. unfold convert.
  pose proof (fun x y => good_scan pw b x y G) as GS. destruct G as (Hw & Hh & S).
  assert (P16 : (b_fmt b = I_RGB5 \/ b_fmt b = I_RGB565) ->
    exists b', (if imgfmt_eqb (b_fmt b) I_RGBF then Some (Some b) else
       match (if usesFreeImage (b_fmt b) I_RGBF true (b_cs b) then fi else None) with
       | Some (w, h, px) => Some (Some (@Bitmap D I_RGBF w h (b_cs b) px))
       | None =>
           match initialize alloc I_RGBF (b_w b) (b_h b) (b_cs b) with
           | None => Some None
           | Some d =>
               obind (loop 0 (b_h b) (fun y => loop 0 (b_w b) (fun x d =>
                   obind (getAt b x y) (fun c =>
                   obind (convertColor (b_fmt b) I_RGBF true (b_cs b) c) (write d x y)))) d)
                 (fun d => Some (Some d))
           end
       end) = Some (Some b') /\
    b_fmt b' = I_RGBF /\ b_w b' = b_w b /\ b_h b' = b_h b /\ b_cs b' = b_cs b /\
    forall x y, within pw b x y -> exists l, at_ pw b' x y = @PF D l /\
      Forall2 (fun nk v => close (fst nk) (snd nk) v)
        (combine (bits (b_fmt b)) (levels (b_fmt b) (at_ pw b x y))) l).
  { intros F.
    pose proof (proj1 C F) as A.
    destruct (alloc I_RGBF (b_w b) (b_h b)) as [px0|] eqn:E0; [|congruence].
    replace (imgfmt_eqb (b_fmt b) I_RGBF) with false by (destruct F as [-> | ->]; reflexivity).
    replace (usesFreeImage (b_fmt b) I_RGBF true (b_cs b)) with false
      by (destruct F as [-> | ->]; reflexivity).
    unfold initialize. rewrite E0. set (d := @Bitmap D I_RGBF (b_w b) (b_h b) (b_cs b) px0).
    set (V := fun x y : N => obind (getAt b x y) (convertColor (b_fmt b) I_RGBF true (b_cs b))).
    rewrite (scatter_loop (b_w b) (b_h b) (fun x y d => obind (getAt b x y) (fun c =>
                   obind (convertColor (b_fmt b) I_RGBF true (b_cs b) c) (write d x y)))
       (fun x _ => x) (fun _ y => y) V d).
    2: { intros x y s _ _ _. unfold V. destruct (getAt b x y); reflexivity. }
    2: { intros x y Hx Hy. split; assumption. }
    assert (PX : forall x y, x < b_w b -> y < b_h b -> exists l, V x y = Some (@PF D l) /\
      Forall2 (fun nk v => close (fst nk) (snd nk) v)
        (combine (bits (b_fmt b)) (levels (b_fmt b) (b_px b x y))) l).
    { intros x y Hx Hy. unfold V, getAt. rewrite read_inside by (split; auto). cbn [obind].
      assert (SP : stored pw (b_fmt b) (b_px b x y)) by (apply GS; split; auto).
      destruct F as [F|F]; clear C; rewrite F in *; destruct (b_px b x y) as [l|l|l];
        destruct l as [|w [|? ?]]; try contradiction; cbn [stored] in SP; unfold u16, range in SP;
        cbn [getPixelImpl obind convertColor isGrayscaleFormat andb setPixelNoGrayscaleImpl setCommon
             c_r c_g c_b bits levels combine]; eexists; (split; [reflexivity|]).
      - destruct (field_555 w SP) as (-> & -> & ->).
        repeat (apply Forall2_cons); try apply Forall2_nil; cbn [fst snd];
          apply close_norm; try reflexivity; try lia.
      - destruct (field_565 w SP) as (-> & -> & ->).
        repeat (apply Forall2_cons); try apply Forall2_nil; cbn [fst snd];
          apply close_norm; try reflexivity; try lia. }
    destruct (scatter_ok (b_w b) (b_h b) (fun x _ => x) (fun _ y => y) V d) as (d' & E & SS & R).
    { intros; split; assumption. }
    { auto. }
    { intros x y Hx Hy. destruct (PX x y Hx Hy) as (l & -> & _). discriminate. }
    rewrite E. cbn [obind]. exists d'. destruct SS as (e1 & e2 & e3 & e4).
    split; [reflexivity|]. split; [symmetry; exact e1|]. split; [symmetry; exact e2|].
    split; [symmetry; exact e3|]. split; [symmetry; exact e4|].
    intros x y [Wx Wy]. unfold at_. rewrite <- e3. cbn [b_h d].
    destruct (PX x (b_h b - 1 - y) Wx ltac:(lia)) as (l & EV & FA).
    exists l. split; [|exact FA]. rewrite (R x (b_h b - 1 - y)) in EV by lia. congruence. }
  destruct (b_fmt b) eqn:F; cbn [bits] in NM; try congruence;
    unfold float_format; cbn [bits]; cbn [imgfmt_eqb usesFreeImage isGrayscaleFormat
      needFloatConvertFallback isRGB16BPPFormat andb negb orb].
  all: try (apply P16; auto; fail).
  all: try rewrite orb_true_r; cbn [andb].
  all: destruct (proj2 C) as (px & -> & C'); [intros [?|?]; discriminate|]; eexists; (split; [reflexivity|]); cbn [b_fmt b_w b_h b_cs];
    repeat (split; [reflexivity|]); intros x y W; unfold at_; cbn [b_px b_h]; apply C'; exact W.
Qed.

(** * The adjusted levels *)

Lemma nth_some_lt {X} (l : list X) c v : nth_error l c = Some v -> (c < length l)%nat.
Proof. intros H. apply nth_error_Some. rewrite H. discriminate. Qed.

Lemma Forall2_length {X Y} (P : X -> Y -> Prop) l l' : Forall2 P l l' -> length l = length l'.
Proof. induction 1; simpl; auto. Qed.

Lemma onChannels_ok cc f (l : list float) : N.of_nat (length l) = cc ->
  onChannels pw cc f (@PF D l)
  = Some (@PF D (map (fun ci => f (fst ci) (snd ci)) (combine (Nrange cc) l))).
Proof.
  intros H. unfold onChannels.
  match goal with |- context [N.eqb ?a cc] => replace (N.eqb a cc) with true end; [reflexivity|].
  symmetry. apply N.eqb_eq. exact H.
Qed.

Lemma levels_range (b : bitmap D) x y : good pw b -> normalised (b_fmt b) -> within pw b x y ->
  Forall2 (fun n k => (0 <= k < 2 ^ n)%Z) (bits (b_fmt b)) (levels (b_fmt b) (at_ pw b x y)).
Proof.
  intros G NM W. destruct G as (_ & _ & S). specialize (S x y W). unfold normalised in NM.
  destruct (b_fmt b); cbn [bits] in NM |- *; try congruence;
    destruct (at_ pw b x y) as [l|l|l]; try contradiction;
    destruct l as [|a1 [|a2 [|a3 [|a4 [|a5 l]]]]]; try contradiction;
    cbn [stored levels] in S |- *; unfold u8, u16, range in S;
    repeat (apply Forall2_cons || apply Forall2_nil);
    try (change (2 ^ 8)%Z with 256%Z; lia); try (change (2 ^ 16)%Z with 65536%Z; lia);
    try (apply Z.mod_pos_bound; reflexivity).
Qed.

(** Integer targets: an n-bit level k becomes k (UInt) or k - 2^(n-1) (Int). *)
Theorem C39_levels fi alloc (b : bitmap D) orig ty : good pw b -> normalised (b_fmt b) ->
  (orig = None \/ orig = Some (b_fmt b)) -> (ty = T_UInt \/ ty = T_Int) ->
  freeimage_floats fi alloc b ->
  exists b', adjustImageValueRange pw fi alloc (Some b) ty orig = Some (Some b') /\
    b_fmt b' = float_format (b_fmt b) /\ b_w b' = b_w b /\ b_h b' = b_h b /\ b_cs b' = b_cs b /\
    forall x y, within pw b x y ->
      Forall2 (fun nk v => denotes v (IZR (target ty (fst nk) (snd nk))))
        (combine (bits (b_fmt b)) (levels (b_fmt b) (at_ pw b x y))) (channels (at_ pw b' x y)).
Proof.
  intros G NM O T C.
  destruct (convert_floats fi alloc b G NM C) as (b1 & E1 & f1 & w1 & h1 & c1 & P1).
  assert (LV : forall x y, within pw b x y ->
     Forall2 (fun n k => (0 <= k < 2 ^ n)%Z) (bits (b_fmt b)) (levels (b_fmt b) (at_ pw b x y)))
    by (intros; apply levels_range; auto).
  unfold adjustImageValueRange.
  assert (Eo : match orig with Some o => o | None => b_fmt b end = b_fmt b)
    by (destruct O as [-> | ->]; reflexivity).
  rewrite Eo.
  assert (Rm : remapped (b_fmt b) = true)
    by (unfold normalised in NM; destruct (b_fmt b); cbn [bits] in NM; try congruence; reflexivity).
  assert (Ff : exists cc, floatFormat (b_fmt b) = Some (float_format (b_fmt b), cc) /\
     cc = N.of_nat (length (bits (b_fmt b))))
    by (unfold normalised in NM; destruct (b_fmt b); cbn [bits] in NM; try congruence; eexists; split; reflexivity).
  destruct Ff as (cc & Ff & Ec).
  assert (Mt : exists mt, multiplyTable (b_fmt b) = Some mt)
    by (unfold normalised in NM; destruct (b_fmt b); cbn [bits] in NM; try congruence; eexists; reflexivity).
  destruct Mt as (mt & Mt).
  assert (Tab : forall c n, nth_error (bits (b_fmt b)) c = Some n ->
     (0 < nth c mt 0 <= 65535)%Z /\ (nth c mt 0 = 2 ^ n - 1)%Z /\
     (nth c (offsetTable ty (b_fmt b)) 0 = target ty n 0)%Z /\
     (-32768 <= target ty n 0 <= 0)%Z).
  { intros c n. unfold normalised in NM. 
    destruct (b_fmt b); cbn [bits] in NM |- *; try congruence; cbn [multiplyTable] in Mt;
      inversion Mt; subst mt; destruct T as [-> | ->]; cbn [offsetTable target];
      do 5 (destruct c as [|c]; cbn [nth_error nth]; try (intros E; inversion E; subst; simpl; lia));
      discriminate. }
  set (f := fun c : N => intValue (nth (N.to_nat c) mt 0%Z) (nth (N.to_nat c) (offsetTable ty (b_fmt b)) 0%Z)).
  assert (LEN : forall x y l, within pw b x y -> 
     Forall2 (fun nk v => close (fst nk) (snd nk) v)
        (combine (bits (b_fmt b)) (levels (b_fmt b) (at_ pw b x y))) l -> N.of_nat (length l) = cc).
  { intros x y l W FA. apply Forall2_length in FA. rewrite combine_length in FA.
    pose proof (Forall2_length _ _ _ (LV x y W)). lia. }
  assert (W1 : forall x y, within pw b1 x y -> within pw b x y)
    by (unfold within; intros x y; rewrite w1, h1; auto).
  destruct (mapFloats_ok pw cc f b1) as (b2 & E2 & SS & R2).
  { destruct G as (_ & Hh & _). lia. }
  { intros x y W. destruct (P1 x y (W1 x y W)) as (l & -> & FA).
    rewrite onChannels_ok; [discriminate|]. eapply LEN; eauto. }
  exists b2. destruct SS as (s1 & s2 & s3 & s4).
  split.
  { assert (M : (if remapped (b_fmt b) then
            match floatFormat (b_fmt b) with
            | None => Some (Some b)
            | Some (f, cc) =>
                obind (convert fi alloc (Some b) f true) (fun im' =>
                match im' with
                | None => Some im'
                | Some b' =>
                        match multiplyTable (b_fmt b) with
                        | None => Some im'
                        | Some mt =>
                            obind (mapFloats pw cc (fun c =>
                              intValue (nth (N.to_nat c) mt 0%Z)
                                       (nth (N.to_nat c) (offsetTable ty (b_fmt b)) 0%Z)) b')
                              (fun b'' => Some (Some b''))
                        end
                end)
            end
          else Some (Some b)) = Some (Some b2)).
    { rewrite Rm, Ff. rewrite E1. cbn [obind]. rewrite Mt. fold f. rewrite E2. reflexivity. }
    destruct T as [-> | ->]; exact M. }
  split; [rewrite <- f1; symmetry; exact s1|]. split; [rewrite <- w1; symmetry; exact s2|].
  split; [rewrite <- h1; symmetry; exact s3|]. split; [rewrite <- c1; symmetry; exact s4|].
  intros x y W. destruct (P1 x y W) as (l & E & FA).
  assert (W' : within pw b1 x y) by (unfold within in *; rewrite w1, h1; exact W).
  specialize (R2 x y W'). pose proof (LEN x y l W FA) as EL.
  rewrite E, onChannels_ok in R2 by exact EL.
  assert (E3 : at_ pw b2 x y
    = @PF D (map (fun ci => f (fst ci) (snd ci)) (combine (Nrange cc) l)))
    by (inversion R2; auto).
  rewrite E3. cbn [channels].
  specialize (LV x y W). revert FA LV. generalize (levels (b_fmt b) (at_ pw b x y)). intros ks FA LV.
  (* index by index *)
  assert (K : forall start bs ks l, 
     (forall c n, nth_error bs c = Some n -> (0 < nth (start + c) mt 0 <= 65535)%Z /\
        (nth (start + c) mt 0 = 2 ^ n - 1)%Z /\
        (nth (start + c) (offsetTable ty (b_fmt b)) 0 = target ty n 0)%Z /\
        (-32768 <= target ty n 0 <= 0)%Z) ->
     Forall2 (fun n k => (0 <= k < 2 ^ n)%Z) bs ks ->
     Forall2 (fun nk v => close (fst nk) (snd nk) v) (combine bs ks) l ->
     Forall2 (fun nk v => denotes v (IZR (target ty (fst nk) (snd nk)))) (combine bs ks)
       (map (fun ci => f (fst ci) (snd ci)) (combine (map N.of_nat (seq start (length l))) l))).
  { clear. intros start bs. revert start. induction bs as [|n bs IH]; intros start ks l HT HL HC.
    - inversion HL; subst. cbn [combine] in *. inversion HC; subst. constructor.
    - inversion HL as [|? k ? ks' Hk HL']; subst. cbn [combine] in *.
      inversion HC as [|? v ? l' Hv HC']; subst. cbn [length seq map combine].
      constructor.
      + cbn [fst snd] in *. destruct (HT 0%nat n eq_refl) as (A1 & A2 & A3 & A4).
        rewrite Nat.add_0_r in *. unfold f. rewrite Nat2N.id.
        destruct Hv as [Fv Nv]. unfold denotes.
        destruct (intValue_ok (nth start mt 0%Z) k (nth start (offsetTable ty (b_fmt b)) 0%Z) v)
          as [Q1 Q2]; try lia; auto.
        { rewrite A2. exact Nv. }
        split; [exact Q1|]. rewrite Q2, A3. f_equal. destruct ty; cbn [target]; lia.
      + apply IH; auto. intros c n' Hn. specialize (HT (S c) n' Hn).
        rewrite Nat.add_succ_r in HT. exact HT. }
  replace (Nrange cc) with (map N.of_nat (seq 0 (length l))).
  - apply K; auto.
  - rewrite <- EL. unfold Nrange. rewrite Nat2N.id. reflexivity.
Qed.

(** Signed normalised targets: the levels become 2k/(2^n-1) - 1, up to float rounding. *)
Theorem C39_snorm_levels fi alloc (b : bitmap D) orig : good pw b -> normalised (b_fmt b) ->
  (orig = None \/ orig = Some (b_fmt b)) -> freeimage_floats fi alloc b ->
  exists b', adjustImageValueRange pw fi alloc (Some b) T_SNorm orig = Some (Some b') /\
    b_fmt b' = float_format (b_fmt b) /\ b_w b' = b_w b /\ b_h b' = b_h b /\ b_cs b' = b_cs b /\
    forall x y, within pw b x y ->
      Forall2 (fun nk v => finite v = true /\
          Rabs (real v - (2 * fraction (fst nk) (snd nk) - 1)) <= / IZR (2 ^ 20))%R
        (combine (bits (b_fmt b)) (levels (b_fmt b) (at_ pw b x y))) (channels (at_ pw b' x y)).
Proof.
  intros G NM O C.
  destruct (convert_floats fi alloc b G NM C) as (b1 & E1 & f1 & w1 & h1 & c1 & P1).
  assert (LV : forall x y, within pw b x y ->
     Forall2 (fun n k => (0 <= k < 2 ^ n)%Z) (bits (b_fmt b)) (levels (b_fmt b) (at_ pw b x y)))
    by (intros; apply levels_range; auto).
  unfold adjustImageValueRange.
  assert (Eo : match orig with Some o => o | None => b_fmt b end = b_fmt b)
    by (destruct O as [-> | ->]; reflexivity).
  rewrite Eo.
  assert (Rm : remapped (b_fmt b) = true)
    by (unfold normalised in NM; destruct (b_fmt b); cbn [bits] in NM; try congruence; reflexivity).
  assert (Ff : exists cc, floatFormat (b_fmt b) = Some (float_format (b_fmt b), cc) /\
     cc = N.of_nat (length (bits (b_fmt b))))
    by (unfold normalised in NM; destruct (b_fmt b); cbn [bits] in NM; try congruence; eexists; split; reflexivity).
  destruct Ff as (cc & Ff & Ec).
  assert (LEN : forall x y l, within pw b x y -> 
     Forall2 (fun nk v => close (fst nk) (snd nk) v)
        (combine (bits (b_fmt b)) (levels (b_fmt b) (at_ pw b x y))) l -> N.of_nat (length l) = cc).
  { intros x y l W FA. apply Forall2_length in FA. rewrite combine_length in FA.
    pose proof (Forall2_length _ _ _ (LV x y W)). lia. }
  assert (W1 : forall x y, within pw b1 x y -> within pw b x y)
    by (unfold within; intros x y; rewrite w1, h1; auto).
  destruct (mapFloats_ok pw cc (fun _ => snormValue) b1) as (b2 & E2 & SS & R2).
  { destruct G as (_ & Hh & _). lia. }
  { intros x y W. destruct (P1 x y (W1 x y W)) as (l & -> & FA).
    rewrite onChannels_ok; [discriminate|]. eapply LEN; eauto. }
  exists b2. destruct SS as (s1 & s2 & s3 & s4).
  split.
  { rewrite Rm, Ff. rewrite E1. cbn [obind]. rewrite E2. reflexivity. }
  split; [rewrite <- f1; symmetry; exact s1|]. split; [rewrite <- w1; symmetry; exact s2|].
  split; [rewrite <- h1; symmetry; exact s3|]. split; [rewrite <- c1; symmetry; exact s4|].
  intros x y W. destruct (P1 x y W) as (l & E & FA).
  assert (W' : within pw b1 x y) by (unfold within in *; rewrite w1, h1; exact W).
  specialize (R2 x y W'). pose proof (LEN x y l W FA) as EL.
  rewrite E, onChannels_ok in R2 by exact EL.
  assert (E3 : at_ pw b2 x y
    = @PF D (map (fun ci => snormValue (snd ci)) (combine (Nrange cc) l)))
    by (inversion R2; auto).
  rewrite E3. cbn [channels].
  assert (E4 : map (fun ci : N * float => snormValue (snd ci)) (combine (Nrange cc) l) = map snormValue l).
  { rewrite <- map_map with (f := snd) (g := snormValue). f_equal.
    assert (LL : length (Nrange cc) = length l)
      by (rewrite Nrange_length, <- EL, Nat2N.id; reflexivity).
    clear - LL. revert LL. generalize (Nrange cc). induction l as [|v l IH]; intros r LL; destruct r; simpl in *; try lia; auto.
    f_equal. apply IH. lia. }
  match goal with |- Forall2 _ _ ?m => change m with
    (map (fun ci : N * float => snormValue (snd ci)) (combine (Nrange cc) l)) end.
  rewrite E4. specialize (LV x y W). clear - FA LV NM.
  assert (NB : Forall (fun n => (0 < n <= 16)%Z) (bits (b_fmt b)))
    by (destruct (b_fmt b); cbn [bits]; repeat constructor; lia).
  revert FA LV NB. generalize (bits (b_fmt b)). intros bs. generalize (levels (b_fmt b) (at_ pw b x y)).
  intros ks. revert ks l. induction bs as [|n bs IH]; intros ks l FA LV NB.
  - cbn [combine] in *. inversion FA; subst. constructor.
  - inversion LV as [|? y0 ? ks' Hk LV']; subst. cbn [combine] in *.
    inversion FA as [|? v ? l' [Fv Nv] FA']; subst. inversion NB; subst.
    cbn [map]. constructor; [|apply IH; auto]. cbn [fst snd] in *.
    apply snormValue_near; auto.
    unfold fraction. 
    assert (0 <= IZR y0 <= IZR (2 ^ n - 1))%R by (split; apply IZR_le; lia).
    assert (0 < IZR (2 ^ n - 1))%R by (apply IZR_lt; assert (2 ^ 1 <= 2 ^ n)%Z by (apply Z.pow_le_mono_r; lia); lia).
    split; [apply Rmult_le_pos; [lra|left; apply Rinv_0_lt_compat; lra]|].
    apply Rmult_le_reg_r with (IZR (2 ^ n - 1)); [lra|].
    unfold Rdiv. rewrite Rmult_assoc, Rinv_l by lra. lra.
Qed.

(** * Images that are floats already, as in the command line tool *)

(** The bits of channel [c] of the original format, when a colour was read from it. *)
Definition depth (f : imgfmt) (c : nat) : option Z :=
  match f with
  | I_Gray8 | I_RGB8 | I_RGBA8 => Some 8%Z
  | I_Gray16 | I_RGB16 | I_RGBA16 => Some 16%Z
  | I_RGB5 => match c with 0%nat | 1%nat | 2%nat => Some 5%Z | _ => None end
  | I_RGB565 => match c with 0%nat | 2%nat => Some 5%Z | 1%nat => Some 6%Z | _ => None end
  | _ => None
  end.

Definition float_image (b : bitmap D) : Prop :=
  b_fmt b = I_Float \/ b_fmt b = I_RGBF \/ b_fmt b = I_RGBAF.

Lemma float_adjust fi alloc (b : bitmap D) f ty g : good pw b -> float_image b -> normalised f ->
  (ty = T_SNorm /\ (g = fun _ => snormValue)) \/
  ((ty = T_UInt \/ ty = T_Int) /\ exists mt, multiplyTable f = Some mt /\
     g = (fun c => intValue (nth (N.to_nat c) mt 0%Z) (nth (N.to_nat c) (offsetTable ty f) 0%Z))) ->
  exists b', adjustImageValueRange pw fi alloc (Some b) ty (Some f) = Some (Some b') /\
    same_shape b b' /\
    forall x y, within pw b x y -> exists l, at_ pw b x y = @PF D l /\
      exists l', at_ pw b' x y = @PF D l' /\ length l' = length l /\
      forall c v, nth_error l c = Some v -> nth_error l' c = Some (g (N.of_nat c) v).
Proof.
  intros G F NM T.
  assert (Rm : remapped f = true)
    by (unfold normalised in NM; destruct f; cbn [bits] in NM; try congruence; reflexivity).
  assert (Ff : exists cc, floatFormat (b_fmt b) = Some (b_fmt b, cc) /\
     (forall x y, within pw b x y -> exists l : list float, at_ pw b x y = @PF D l /\ N.of_nat (length l) = cc)).
  { destruct G as (_ & _ & S). destruct F as [F|[F|F]]; rewrite F in *; eexists; (split; [reflexivity|]);
      intros x y W; specialize (S x y W); destruct (at_ pw b x y) as [l|l|l]; try contradiction;
      destruct l as [|a1 [|a2 [|a3 [|a4 [|a5 l]]]]]; try contradiction; eexists; split; reflexivity. }
  destruct Ff as (cc & Ff & LEN).
  assert (CV : convert fi alloc (Some b) (b_fmt b) true = Some (Some b))
    by (destruct F as [F|[F|F]]; unfold convert; rewrite F; reflexivity).
  destruct (mapFloats_ok pw cc g b) as (b2 & E2 & SS & R2).
  { destruct G as (_ & Hh & _). lia. }
  { intros x y W. destruct (LEN x y W) as (l & -> & EL). rewrite onChannels_ok; [discriminate|exact EL]. }
  exists b2. split; [|split; [exact SS|]].
  - unfold adjustImageValueRange. rewrite Rm, Ff, CV. cbn [obind].
    destruct T as [[-> ->]|[T (mt & Mt & ->)]].
    + rewrite E2. reflexivity.
    + destruct T as [-> | ->]; rewrite Mt, E2; reflexivity.
  - intros x y W. destruct (LEN x y W) as (l & E & EL). exists l. split; [exact E|].
    specialize (R2 x y W). rewrite E, onChannels_ok in R2 by exact EL.
    eexists. split; [inversion R2; reflexivity|]. split.
    + rewrite map_length, combine_length, Nrange_length.
      change (@length (flt D) l) with (@length float l) in *. lia.
    + intros c v Hv.
      assert (c < length l)%nat by exact (nth_some_lt _ _ _ Hv).
      rewrite nth_error_map.
      assert (EC : nth_error (combine (Nrange cc) l) c = Some (N.of_nat c, v)).
      { assert (A : nth_error (Nrange cc) c = Some (N.of_nat c)) by (apply nth_error_Nrange; lia).
        clear - A Hv. revert l c A Hv. induction (Nrange cc) as [|r rs IH]; intros l c A Hv;
          destruct c; destruct l; simpl in *; try discriminate; [congruence|]. 
        assert (G : forall (rs : list N) (l : list float) c i v, nth_error rs c = Some i -> nth_error l c = Some v ->
           nth_error (combine rs l) c = Some (i, v)).
        { clear. induction rs as [|r rs IH]; intros l c i v A B; destruct c, l; simpl in *; try discriminate; [congruence|auto]. }
        apply G; auto. }
      match goal with |- option_map _ ?n = _ => change n with (nth_error (combine (Nrange cc) l) c) end.
      rewrite EC. reflexivity.
Qed.

(** Every channel that holds a level of the original format becomes that level. *)
Theorem C39_float_levels fi alloc (b : bitmap D) f ty : good pw b -> float_image b ->
  normalised f -> (ty = T_UInt \/ ty = T_Int) ->
  exists b', adjustImageValueRange pw fi alloc (Some b) ty (Some f) = Some (Some b') /\
    b_fmt b' = b_fmt b /\ b_w b' = b_w b /\ b_h b' = b_h b /\ b_cs b' = b_cs b /\
    forall x y c v n k, within pw b x y -> nth_error (channels (at_ pw b x y)) c = Some v ->
      depth f c = Some n -> (0 <= k < 2 ^ n)%Z -> close n k v ->
      exists v', nth_error (channels (at_ pw b' x y)) c = Some v' /\ denotes v' (IZR (target ty n k)).
Proof.
  intros G F NM T.
  assert (Mt : exists mt, multiplyTable f = Some mt)
    by (unfold normalised in NM; destruct f; cbn [bits] in NM; try congruence; eexists; reflexivity).
  destruct Mt as (mt & Mt).
  destruct (float_adjust fi alloc b f ty _ G F NM (or_intror (conj T (ex_intro _ mt (conj Mt eq_refl)))))
    as (b' & E & (s1 & s2 & s3 & s4) & P).
  exists b'. split; [exact E|]. split; [symmetry; exact s1|]. split; [symmetry; exact s2|].
  split; [symmetry; exact s3|]. split; [symmetry; exact s4|].
  intros x y c v n k W Hv Dn Hk [Fv Nv].
  destruct (P x y W) as (l & El & l' & El' & LL & N'). rewrite El in Hv. cbn [channels] in Hv.
  rewrite El'. cbn [channels]. specialize (N' c v Hv). rewrite Nat2N.id in N'.
  eexists. split; [exact N'|].
  assert (Tab : (0 < nth c mt 0 <= 65535)%Z /\ (nth c mt 0 = 2 ^ n - 1)%Z /\
     (nth c (offsetTable ty f) 0 = target ty n 0)%Z /\ (-32768 <= target ty n 0 <= 0)%Z).
  { assert (C4 : (c < 4)%nat).
    { assert (length l <= 4)%nat.
      { destruct G as (_ & _ & S). specialize (S x y W). rewrite El in S.
        destruct F as [F|[F|F]]; rewrite F in S; destruct l as [|a1 [|a2 [|a3 [|a4 [|a5 l]]]]]; try contradiction; simpl; lia. }
      assert (c < length l)%nat by exact (nth_some_lt _ _ _ Hv). lia. }
    unfold normalised in NM.
    destruct f; cbn [bits] in NM; try congruence; cbn [multiplyTable depth] in Mt, Dn;
      inversion Mt; subst mt; destruct T as [-> | ->]; cbn [offsetTable target];
      do 4 (destruct c as [|c]; cbn [nth]; try discriminate; try (inversion Dn; subst; simpl; lia)); lia. }
  destruct Tab as (A1 & A2 & A3 & A4).
  destruct (intValue_ok (nth c mt 0%Z) k (nth c (offsetTable ty f) 0%Z) v) as [Q1 Q2]; try lia; auto.
  { rewrite A2. exact Nv. }
  split; [exact Q1|]. rewrite Q2, A3. f_equal. destruct T as [-> | ->]; cbn [target]; lia.
Qed.

(** Signed normalised targets: every channel v becomes 2v - 1, correctly rounded. *)
Theorem C39_float_snorm fi alloc (b : bitmap D) f : good pw b -> float_image b -> normalised f ->
  exists b', adjustImageValueRange pw fi alloc (Some b) T_SNorm (Some f) = Some (Some b') /\
    b_fmt b' = b_fmt b /\ b_w b' = b_w b /\ b_h b' = b_h b /\ b_cs b' = b_cs b /\
    forall x y c v, within pw b x y -> nth_error (channels (at_ pw b x y)) c = Some v ->
      finite v = true -> (Rabs (real v) <= 4194304)%R ->
      exists v', nth_error (channels (at_ pw b' x y)) c = Some v' /\
        denotes v' (rnd32 (2 * real v - 1)).
Proof.
  intros G F NM.
  destruct (float_adjust fi alloc b f T_SNorm _ G F NM (or_introl (conj eq_refl eq_refl)))
    as (b' & E & (s1 & s2 & s3 & s4) & P).
  exists b'. split; [exact E|]. split; [symmetry; exact s1|]. split; [symmetry; exact s2|].
  split; [symmetry; exact s3|]. split; [symmetry; exact s4|].
  intros x y c v W Hv Fv Bv.
  destruct (P x y W) as (l & El & l' & El' & LL & N'). rewrite El in Hv. cbn [channels] in Hv.
  rewrite El'. cbn [channels]. eexists. split; [exact (N' c v Hv)|].
  apply snormValue_ok; auto.
Qed.

(** Nothing happens for the other targets, for originals that are not normalised, for images of
    the integer formats and without an image. *)
Theorem C39_unchanged fi alloc (im : image D) ty orig :
  (ty = T_UNorm \/ ty = T_UFloat \/ ty = T_Float) \/
  (exists b, im = Some b /\ ~ normalised (match orig with Some f => f | None => b_fmt b end)) \/
  (exists b, im = Some b /\ In (b_fmt b) [I_Int16; I_UInt16; I_Int32; I_UInt32]) \/
  im = None ->
  adjustImageValueRange pw fi alloc im ty orig = Some im.
Proof.
  unfold adjustImageValueRange. destruct im as [b|]; [|reflexivity].
  intros [T|[(b' & E & NN)|[(b' & E & I)|C]]].
  - destruct T as [->|[-> | ->]]; reflexivity.
  - assert (b' = b) by (inversion E; auto). subst b'. clear E.
    set (o := match orig with Some o => o | None => b_fmt b end) in *.
    assert (R : remapped o = false)
      by (unfold normalised in NN; destruct o; cbn [bits] in NN; auto; exfalso; apply NN; discriminate).
    rewrite R. destruct ty; reflexivity.
  - assert (b' = b) by (inversion E; auto). subst b'. clear E.
    set (o := match orig with Some o => o | None => b_fmt b end).
    destruct I as [I|[I|[I|[I|[]]]]]; rewrite <- I; cbn [floatFormat];
      destruct (remapped o), ty; reflexivity.
  - discriminate.
Qed.

End Adjust.

(** * Alpha of images that come from the packed formats *)

(** An opaque RGBAF pixel whose original was RGB5 or RGB565 (which have no alpha) ends up with
    alpha 0 for integer targets.  The command line tool converts to RGBAF first, so this is
    what happens to such files. *)
Theorem C39_packed_alpha_refuted : exists (pw : double -> double -> double) fi alloc
    (b : bitmap (double_arith pw)),
  good pw b /\ b_fmt b = I_RGBAF /\ (b_w b = 1 /\ b_h b = 1) /\
  forall f ty, (f = I_RGB5 \/ f = I_RGB565) -> (ty = T_UInt \/ ty = T_Int) ->
  exists b', adjustImageValueRange pw fi alloc (Some b) ty (Some f) = Some (Some b') /\
    exists v v', nth_error (channels (at_ pw b 0 0)) 3 = Some v /\ denotes v 1 /\
      nth_error (channels (at_ pw b' 0 0)) 3 = Some v' /\ denotes v' 0.
Proof.
  set (pw := fun x _ : double => x).
  exists pw, None, (fun _ _ _ => None).
  set (one := float_of_Z 1).
  set (b := @Bitmap (double_arith pw) I_RGBAF 1 1 CS_Linear (fun _ _ => @PF (double_arith pw) [one; one; one; one])).
  exists b.
  assert (G : good pw b) by (split; [|split]; [cbn; lia|cbn; lia|intros; exact I]).
  split; [exact G|]. split; [reflexivity|]. split; [split; reflexivity|].
  intros f ty Hf T.
  assert (NM : normalised f) by (destruct Hf as [-> | ->]; discriminate).
  assert (Mt : exists mt, multiplyTable f = Some mt /\ nth 3 mt 0%Z = 0%Z)
    by (destruct Hf as [-> | ->]; eexists; split; reflexivity).
  destruct Mt as (mt & Mt & M3).
  destruct (float_adjust pw None (fun _ _ _ => None) b f ty _ G
     (or_intror (or_intror eq_refl)) NM (or_intror (conj T (ex_intro _ mt (conj Mt eq_refl)))))
    as (b' & E & _ & P).
  exists b'. split; [exact E|]. exists one.
  destruct (P 0 0) as (l & El & l' & El' & LL & N'). { split; reflexivity. }
  eexists. split; [reflexivity|].
  destruct (float_of_Z_ok 1 ltac:(simpl; lia)) as [E1 F1].
  split; [split; auto|]. rewrite El'. cbn [channels].
  assert (L3 : nth_error l 3 = Some one).
  { change (at_ pw b 0 0) with (@PF (double_arith pw) [one; one; one; one]) in El.
    inversion El. reflexivity. }
  split; [exact (N' 3%nat one L3)|].
  change (N.to_nat (N.of_nat 3)) with 3%nat. rewrite M3.
  assert (O3 : nth 3 (offsetTable ty f) 0%Z = 0%Z)
    by (destruct Hf as [-> | ->], T as [-> | ->]; reflexivity).
  rewrite O3. unfold denotes. split.
  - vm_compute. reflexivity.
  - unfold real. replace (intValue 0 0 one) with (B754_zero 24 128 false) by (vm_compute; reflexivity).
    reflexivity.
Qed.

(** * The hypotheses can be met *)

(** An RGBA8 image and a FreeImage that divides by 255. *)
Section Case.
Let pw : double -> double -> double := fun x _ => x.
Let D := double_arith pw.
Let b : bitmap D := @Bitmap D I_RGBA8 3 2 CS_Linear
  (fun x y => @PZ D [Z.of_N x; Z.of_N y; 200; 255]%Z).
Let px (x y : N) : pix D := @PF D (map (fun k => dnarrow (@toNorm D 255 k))
  [Z.of_N x; Z.of_N y; 200; 255]%Z).

Example C39_levels_case :
  good pw b /\ normalised (b_fmt b) /\ freeimage_floats pw (Some (3, 2, px)) (fun _ _ _ => None) b /\
  levels (b_fmt b) (at_ pw b 1 0) = [1; 1; 200; 255]%Z /\ target T_Int 8 200 = 72%Z.
Proof.
  assert (G : good pw b).
  { split; [reflexivity|]. split; [reflexivity|]. intros x y [Wx Wy].
    change (b_w b) with 3 in Wx. change (b_h b) with 2 in Wy.
    unfold at_. cbn [b_fmt b b_px b_h stored]. unfold u8, range. lia. }
  split; [exact G|]. split; [discriminate|]. split; [|split; reflexivity].
  split; [intros [C|C]; discriminate|]. intros _. exists px. split; [reflexivity|].
  intros x y [Wx Wy]. change (b_w b) with 3 in Wx. change (b_h b) with 2 in *.
  eexists. split; [reflexivity|].
  unfold at_. cbn [b_fmt b b_px b_h bits levels combine map].
  repeat (apply Forall2_cons || apply Forall2_nil); cbn [fst snd];
    (apply (close_norm pw 8 255); [reflexivity|lia|lia]).
Qed.

Let bf : bitmap D := @Bitmap D I_RGBAF 1 1 CS_Linear (fun x y => px 1 1).
Example C39_float_case : good pw bf /\ float_image pw bf /\ normalised I_RGB8 /\
  depth I_RGB8 2 = Some 8%Z /\
  exists v, nth_error (channels (at_ pw bf 0 0)) 2 = Some v /\ close 8 200 v.
Proof.
  split; [split; [reflexivity|split; [reflexivity|intros; exact I]]|].
  split; [right; right; reflexivity|]. split; [discriminate|]. split; [reflexivity|].
  eexists. split; [reflexivity|]. apply (close_norm pw 8 255); [reflexivity|lia|lia].
Qed.
End Case.

Print Assumptions C39_levels.
Print Assumptions C39_snorm_levels.
Print Assumptions C39_float_levels.
Print Assumptions C39_float_snorm.
Print Assumptions C39_unchanged.
Print Assumptions C39_packed_alpha_refuted.

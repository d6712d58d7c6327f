(** C57: converting an image to another format. *)

From Coq Require Import ZArith NArith List Bool Lia Reals Lra.
From Coq Require Import ZifyBool ZifyNat ZifyN.
From Flocq Require Import Core Relative IEEE754.BinarySingleNaN IEEE754.Binary IEEE754.Bits.
From Verif Require Import Base FormatModel FloatModel FloatSpec FloatProofs ArithModel ArithSpec
  DoubleProofs TextureModel ImageModel ImageLoops ImageSpec ImageStoreProofs ImageGrayProofs
  ImageOpsProofs ImageApiProofs ImageValueProofs PropsColor PropsSrgb SrgbSpec Srgb64 SrgbChannel
  SrgbMap SrgbPow PropsSrgb64 ImageConvertModel ImageConvertSpec ImageConvertProofs.
Import ListNotations.
Local Open Scope N_scope.

(** No image gives no image; the image's own format gives the image. *)
Theorem C57_copy (A : arith) (fi : fi_convert A) alloc (s : bitmap A) dst gray :
  convert fi alloc None dst gray = Some None /\ convert fi alloc (Some s) (b_fmt s) gray = Some (Some s).
Proof.
  split; [reflexivity|]. unfold convert. replace (imgfmt_eqb (b_fmt s) (b_fmt s)) with true; [reflexivity|].
  destruct (b_fmt s); reflexivity.
Qed.
Print Assumptions C57_copy.

(** The FreeImage function for a destination format. *)
Definition library_function (dst : imgfmt) : fi_call :=
  match dst with
  | I_Gray8 => FI_To8Bits | I_Gray16 => FI_ToUInt16 | I_RGB5 => FI_To555 | I_RGB565 => FI_To565
  | I_RGB8 => FI_To24Bits | I_RGB16 => FI_ToRGB16 | I_RGBF => FI_ToRGBF | I_RGBA8 => FI_To32Bits
  | I_RGBA16 => FI_ToRGBA16 | I_RGBAF => FI_ToRGBAF | I_Int16 => FI_ToInt16 | I_Int32 => FI_ToInt32
  | I_UInt32 => FI_ToUInt32 | I_Float => FI_ToFloat | I_Double => FI_ToDouble
  | I_UInt16 | I_Complex => FI_To8Bits (* never asked *)
  end.

Lemma eqb_of f g : f <> g -> imgfmt_eqb f g = false.
Proof. destruct f, g; intros H; try reflexivity; exfalso; apply H; reflexivity. Qed.

Definition fiAsked (src dst : imgfmt) (gray : bool) (cs : colorspace) : option fi_call :=
  fiCall src dst ((gray && isGrayscaleFormat dst) && negb (cs_is_srgb cs)).

Lemma fiAsked_spec src dst gray cs : src <> dst ->
  (own_conversion src dst gray cs -> fiAsked src dst gray cs = None) /\
  (~ own_conversion src dst gray cs -> fiAsked src dst gray cs = Some (library_function dst)).
Proof.
  intros NE. unfold own_conversion, gray_format, float_format. split.
  - intros H. destruct src; try (exfalso; apply NE; reflexivity); destruct dst; try reflexivity;
      try (exfalso; apply NE; reflexivity); destruct gray, cs; try reflexivity; exfalso; cbn [In] in H;
      repeat match goal with
        | H : _ \/ _ |- _ => destruct H
        | H : _ /\ _ |- _ => destruct H
        | H : _ = _ |- _ => discriminate H
        | H : False |- _ => exact H
        | H : ~ _ |- _ => apply H; auto 10; fail
        end.
  - intros H. destruct src; destruct dst; try (exfalso; apply NE; reflexivity); try reflexivity;
      try (destruct gray, cs; reflexivity); destruct gray, cs; try reflexivity; exfalso; apply H; clear H NE; cbn [In];
      first [left; reflexivity | right; left; reflexivity | right; right; left; reflexivity
        | right; right; right; left; split; [|]; auto 10; fail
        | right; right; right; right; left; split; [|]; auto 10; fail
        | right; right; right; right; right; left; split; [|]; auto 10; fail
        | right; right; right; right; right; right; split; [auto 10|split; [intuition discriminate|auto]]; fail].
Qed.

(** For these pairs FreeImage is not asked at all; for the others its answer is the result, under
    the destination format and the source's colour space. *)
Theorem C57_own_conversion (A : arith) fi fi' alloc (s : bitmap A) dst gray :
  b_fmt s <> dst -> own_conversion (b_fmt s) dst gray (b_cs s) ->
  convert fi alloc (Some s) dst gray = convert fi' alloc (Some s) dst gray.
Proof.
  intros NE OWN. unfold convert. rewrite (eqb_of _ _ NE).
  pose proof (proj1 (fiAsked_spec _ _ gray (b_cs s) NE) OWN) as E. unfold fiAsked in E. rewrite E. reflexivity.
Qed.
Print Assumptions C57_own_conversion.

Theorem C57_library (A : arith) fi alloc (s : bitmap A) dst gray w h px :
  b_fmt s <> dst -> ~ own_conversion (b_fmt s) dst gray (b_cs s) ->
  fi (library_function dst) s = Some (w, h, px) ->
  convert fi alloc (Some s) dst gray = Some (Some (Bitmap dst w h (b_cs s) px)).
Proof.
  intros NE OWN F. unfold convert. rewrite (eqb_of _ _ NE).
  pose proof (proj2 (fiAsked_spec _ _ gray (b_cs s) NE) OWN) as E. unfold fiAsked in E. rewrite E.
  cbn [obind]. rewrite F. reflexivity.
Qed.
Print Assumptions C57_library.

(** ** The library's own loops *)

Section Loop.
Context {A : arith}.

Lemma convertLoop_scatter (s d : bitmap A) g : b_w d = b_w s -> b_h d = b_h s ->
  convertLoop s g d = scatter (b_w s) (b_h s) (fun x _ => x) (fun _ y => y)
    (fun x y => convertPixel (b_fmt s) (b_fmt d) (b_cs s) g (b_px s x y)) d.
Proof.
  intros W H. unfold convertLoop.
  rewrite (scatter_loop (b_w s) (b_h s) (fun x y d' => obind (read s x y) (fun p =>
    obind (convertPixel (b_fmt s) (b_fmt d) (b_cs s) g p) (write d' x y)))
    (fun x _ => x) (fun _ y => y) (fun x y => convertPixel (b_fmt s) (b_fmt d) (b_cs s) g (b_px s x y)) d); auto.
  - intros x y d' Hx Hy _. rewrite read_inside by (split; auto). reflexivity.
  - intros. unfold inside. rewrite W, H. auto.
Qed.

(** The library's own conversion is used: FreeImage is not asked, or declines. *)
Definition by_hand (fi : fi_convert A) (s : bitmap A) (dst : imgfmt) (gray : bool) : Prop :=
  b_fmt s <> dst /\ (own_conversion (b_fmt s) dst gray (b_cs s) \/ forall call, fi call s = None).

Lemma convert_by_hand fi alloc (s : bitmap A) dst gray px : by_hand fi s dst gray ->
  alloc dst (b_w s) (b_h s) = Some px ->
  convert fi alloc (Some s) dst gray =
    obind (convertLoop s (gray && isGrayscaleFormat dst) (Bitmap dst (b_w s) (b_h s) (b_cs s) px))
      (fun d => Some (Some d)).
Proof.
  intros [NE H] AL. unfold convert. rewrite (eqb_of _ _ NE). unfold initialize. rewrite AL.
  assert (E : obind (fiAsked (b_fmt s) dst gray (b_cs s)) (fun call => fi call s) = None).
  { destruct H as [H|H].
    - rewrite (proj1 (fiAsked_spec _ _ gray (b_cs s) NE) H). reflexivity.
    - destruct (fiAsked (b_fmt s) dst gray (b_cs s)); cbn [obind]; auto. }
  unfold fiAsked in E. rewrite E. reflexivity.
Qed.

End Loop.

Section Values.
Context (pw : double -> double -> double).
Local Notation D := (double_arith pw).

Definition converted (dst : imgfmt) (s d : bitmap D) : Prop :=
  b_fmt d = dst /\ b_w d = b_w s /\ b_h d = b_h s /\ b_cs d = b_cs s.

Lemma by_hand_pixels fi alloc (s : bitmap D) dst gray px (P : pix D -> pix D -> Prop) :
  good pw s -> by_hand fi s dst gray -> alloc dst (b_w s) (b_h s) = Some px ->
  (forall x y, within pw s x y -> exists q,
     convertPixel (b_fmt s) dst (b_cs s) (gray && isGrayscaleFormat dst) (at_ pw s x y) = Some q /\
     stored pw dst q /\ P (at_ pw s x y) q) ->
  exists d, convert fi alloc (Some s) dst gray = Some (Some d) /\ good pw d /\ converted dst s d /\
    forall x y, within pw s x y -> P (at_ pw s x y) (at_ pw d x y).
Proof.
  intros (GW & GH & GS) BH AL HP. rewrite (convert_by_hand fi alloc s dst gray px BH AL).
  rewrite convertLoop_scatter by reflexivity. cbn [b_fmt].
  set (V := fun x y => convertPixel (b_fmt s) dst (b_cs s) (gray && isGrayscaleFormat dst) (b_px s x y)).
  assert (HV : forall x y, x < b_w s -> y < b_h s -> exists q, V x y = Some q /\ stored pw dst q /\ P (b_px s x y) q).
  { intros x y Hx Hy. destruct (HP x (b_h s - 1 - y)) as (q & E & R); [split; lia|].
    unfold at_ in E, R. replace (b_h s - 1 - (b_h s - 1 - y)) with y in E, R by lia. exists q. auto. }
  destruct (scatter_ok (b_w s) (b_h s) (fun x _ => x) (fun _ y => y) V (Bitmap dst (b_w s) (b_h s) (b_cs s) px))
    as (d & Ed & (S1 & S2 & S3 & S4) & R); auto.
  { intros; split; cbn; auto. }
  { intros x y Hx Hy. destruct (HV x y Hx Hy) as (q & -> & _). discriminate. }
  rewrite Ed. cbn [obind]. cbn [b_fmt b_w b_h b_cs] in S1, S2, S3, S4.
  exists d. split; [reflexivity|].
  assert (Q : forall x y, within pw s x y -> stored pw dst (at_ pw d x y) /\ P (at_ pw s x y) (at_ pw d x y)).
  { intros x y [Hx Hy]. unfold at_. rewrite <- S3. destruct (HV x (b_h s - 1 - y)) as (q & E & S & PQ); auto; [lia|].
    specialize (R x (b_h s - 1 - y) Hx ltac:(lia)). rewrite E in R. injection R as R. rewrite <- R. auto. }
  split; [|split].
  - split; [congruence|]. split; [congruence|]. intros x y W. rewrite <- S1. apply Q. unfold within in *. rewrite S2, S3. exact W.
  - unfold converted. auto.
  - intros x y W. apply Q, W.
Qed.

Lemma by_hand_undefined fi alloc (s : bitmap D) dst gray px x y :
  by_hand fi s dst gray -> alloc dst (b_w s) (b_h s) = Some px -> within pw s x y ->
  convertPixel (b_fmt s) dst (b_cs s) (gray && isGrayscaleFormat dst) (at_ pw s x y) = None ->
  convert fi alloc (Some s) dst gray = None.
Proof.
  intros BH AL [Hx Hy] HN. rewrite (convert_by_hand fi alloc s dst gray px BH AL).
  rewrite convertLoop_scatter by reflexivity.
  destruct (scatter _ _ _ _ _ _) as [d|] eqn:E; [|reflexivity]. exfalso.
  destruct (scatter_result _ _ _ _ _ _ _ (fun x y x' y' _ _ _ _ e1 e2 => conj e1 e2) E) as [_ R].
  specialize (R x (b_h s - 1 - y) Hx ltac:(lia)). cbn [b_fmt] in R. unfold at_ in HN. congruence.
Qed.

Lemma plain_pixel src dst cs g p : g = false \/ src = I_Complex ->
  convertPixel src dst cs g p = obind (getPixelImpl src p) (@setPixelNoGrayscaleImpl D dst).
Proof.
  unfold convertPixel. intros H. replace (g && negb (imgfmt_eqb src I_Complex)) with false; [reflexivity|].
  destruct H as [->| ->]; [reflexivity|]. destruct g; reflexivity.
Qed.

(** Without a conversion to gray every pixel of the result holds the colour of the source pixel,
    to the precision of the new format; plain integers keep the whole part and must fit. *)
Theorem C57_pixels fi alloc (s : bitmap D) dst gray px : good pw s -> by_hand fi s dst gray ->
  gray = false \/ ~ gray_format dst \/ b_fmt s = I_Complex -> alloc dst (b_w s) (b_h s) = Some px ->
  (forall x y, within pw s x y -> finite_pix pw (at_ pw s x y) /\
     fits_format dst (red (meaning pw (b_fmt s) (at_ pw s x y)))) ->
  exists d, convert fi alloc (Some s) dst gray = Some (Some d) /\ good pw d /\ converted dst s d /\
    forall x y, within pw s x y -> holds pw dst (at_ pw d x y) (meaning pw (b_fmt s) (at_ pw s x y)).
Proof.
  intros G BH NG AL H.
  apply (by_hand_pixels fi alloc s dst gray px (fun p q => holds pw dst q (meaning pw (b_fmt s) p))); auto.
  intros x y W. destruct (H x y W) as [F FT]. rewrite plain_pixel.
  - destruct (read_meaning pw _ _ (proj2 (proj2 G) x y W) F) as (c & -> & R). cbn [obind].
    apply store_color; assumption.
  - destruct NG as [->|[NG|NG]]; [left; reflexivity| |right; exact NG].
    left. destruct (isGrayscaleFormat dst) eqn:E; [|destruct gray; reflexivity].
    exfalso. apply NG. unfold gray_format. cbn [In]. destruct dst; try discriminate; auto.
Qed.

(** A value that does not fit a plain integer format is undefined behaviour. *)
Theorem C57_undefined fi alloc (s : bitmap D) dst gray px x y lo hi : good pw s -> by_hand fi s dst gray ->
  alloc dst (b_w s) (b_h s) = Some px -> limits dst = Some (lo, hi) -> within pw s x y ->
  finite_pix pw (at_ pw s x y) -> ~ (lo <= Ztrunc (red (meaning pw (b_fmt s) (at_ pw s x y))) <= hi)%Z ->
  convert fi alloc (Some s) dst gray = None.
Proof.
  intros G BH AL L W F NF. apply (by_hand_undefined fi alloc s dst gray px x y BH AL W).
  assert (NG : isGrayscaleFormat dst = false) by (destruct dst; try discriminate; reflexivity).
  rewrite NG, andb_false_r, plain_pixel by auto.
  destruct (read_meaning pw _ _ (proj2 (proj2 G) x y W) F) as (c & -> & R). cbn [obind].
  apply (store_color_bad pw dst c _ R). unfold fits_format. rewrite L. exact NF.
Qed.

(** The number of a float channel survives any conversion between float formats: nothing is
    clamped, infinities and NaNs included. *)
Definition is_one (a : float) : Prop := finite a = true /\ real a = 1%R.
Definition kept_floats (l l' : list float) : Prop :=
  match l, l' with
  | [v], [v'] => same_float v' v
  | [v], [r; g; b] => same_float r v /\ same_float g v /\ same_float b v
  | [v], [r; g; b; a] => same_float r v /\ same_float g v /\ same_float b v /\ is_one a
  | [r; _; _], [v] | [r; _; _; _], [v] => same_float v r
  | [r; g; b], [r'; g'; b'; a] => same_float r' r /\ same_float g' g /\ same_float b' b /\ is_one a
  | [r; g; b; _], [r'; g'; b'] => same_float r' r /\ same_float g' g /\ same_float b' b
  | _, _ => False
  end.

Theorem C57_floats_kept fi alloc (s : bitmap D) dst gray px : good pw s ->
  float_format (b_fmt s) -> float_format dst -> b_fmt s <> dst -> gray = false \/ dst <> I_Float ->
  alloc dst (b_w s) (b_h s) = Some px ->
  exists d, convert fi alloc (Some s) dst gray = Some (Some d) /\ good pw d /\ converted dst s d /\
    forall x y, within pw s x y -> exists l l',
      at_ pw s x y = @PF D l /\ at_ pw d x y = @PF D l' /\ kept_floats l l'.
Proof.
  intros G FS FD NE NG AL.
  apply (by_hand_pixels fi alloc s dst gray px (fun p q => exists l l', p = @PF D l /\ q = @PF D l' /\ kept_floats l l')); auto.
  { split; [exact NE|]. left. right; right; right; left. auto. }
  intros x y W. pose proof (proj2 (proj2 G) x y W) as S. rewrite plain_pixel.
  - assert (ONE : is_one (dnarrow (@lit D 1))).
    { destruct (lit_ok pw 1 ltac:(simpl; lia)) as [E1 F1].
      assert (R1 : rnd32 (dreal (@lit D 1)) = 1%R) by (rewrite E1; apply (rnd32_int 1); simpl; lia).
      destruct (dnarrow_ok _ F1) as [F2 E2].
      { rewrite R1, Rabs_R1. apply Rlt_le_trans with (bpow radix2 1); [simpl; lra|apply bpow_le; lia]. }
      split; [exact F2|]. rewrite E2. exact R1. }
    unfold float_format in FS, FD. cbn [In] in FS, FD.
    destruct FS as [FS|[FS|[FS|[]]]]; destruct FD as [FD|[FD|[FD|[]]]]; rewrite <- FS, <- FD in *;
      try (exfalso; apply NE; reflexivity); destruct (at_ pw s x y) as [l|l|l];
      destruct l as [|z1 [|z2 [|z3 [|z4 [|? ?]]]]]; try contradiction;
      cbn [getPixelImpl obind setPixelNoGrayscaleImpl setCommon ImageModel.gray c_r c_g c_b c_a widen narrow double_arith];
      (eexists; split; [reflexivity|]); (split; [exact I|]); eexists; eexists; (split; [reflexivity|]);
      (split; [reflexivity|]); cbn [kept_floats]; auto 10 using same_narrow.
  - left. destruct NG as [->|NG]; [reflexivity|]. unfold float_format in FD. cbn [In] in FD.
    destruct FD as [FD|[FD|[FD|[]]]]; rewrite <- FD in *; try (destruct gray; reflexivity). exfalso; apply NG; reflexivity.
Qed.

(** Plain integers, floats and doubles become doubles exactly. *)
Theorem C57_exact_double fi alloc (s : bitmap D) px : good pw s ->
  In (b_fmt s) [I_Int16; I_UInt16; I_Int32; I_UInt32; I_RGBF; I_RGBAF; I_Float] ->
  alloc I_Double (b_w s) (b_h s) = Some px ->
  (forall x y, within pw s x y -> finite_pix pw (at_ pw s x y)) ->
  exists d, convert fi alloc (Some s) I_Double false = Some (Some d) /\ good pw d /\ converted I_Double s d /\
    forall x y, within pw s x y -> exists v, at_ pw d x y = @PN D [v] /\ dfinite v = true /\
      dreal v = red (meaning pw (b_fmt s) (at_ pw s x y)).
Proof.
  intros G FS AL FIN.
  apply (by_hand_pixels fi alloc s I_Double false px (fun p q => exists v, q = @PN D [v] /\ dfinite v = true /\
      dreal v = red (meaning pw (b_fmt s) p))); auto.
  { split.
    - cbn [In] in FS. repeat destruct FS as [FS|FS]; try contradiction; rewrite <- FS; discriminate.
    - left. unfold own_conversion, gray_format, float_format. cbn [In] in *.
      destruct FS as [FS|[FS|[FS|[FS|[FS|[FS|[FS|[]]]]]]]]; rewrite <- FS; auto 10;
        repeat right; (split; [auto|]); (split; [intuition discriminate|auto]). }
  intros x y W. pose proof (proj2 (proj2 G) x y W) as S. specialize (FIN x y W). rewrite plain_pixel by auto.
  cbn [In] in FS.
  destruct FS as [FS|[FS|[FS|[FS|[FS|[FS|[FS|[]]]]]]]]; rewrite <- FS in *;
    destruct (at_ pw s x y) as [l|l|l]; destruct l as [|z1 [|z2 [|z3 [|z4 [|? ?]]]]]; try contradiction;
    cbn [finite_pix] in FIN; repeat match goal with H : Forall _ (_ :: _) |- _ => inversion_clear H end;
    cbn [stored] in S; unfold u16, range in S;
    cbn [getPixelImpl obind setPixelNoGrayscaleImpl setCommon ImageModel.gray c_r c_g c_b c_a widen narrow double_arith meaning red gray_rgba];
    (eexists; split; [reflexivity|]); (split; [exact I|]); eexists; (split; [reflexivity|]);
    first [apply dwiden_ok; assumption | apply and_comm, lit_ok; simpl; lia].
Qed.

(** ** Conversions to gray *)

(** The pixel of a gray format holds [x] up to an error of [e] in the number stored. *)
Definition near_gray (f : imgfmt) (q : pix D) (x e : R) : Prop :=
  match f, q with
  | I_Gray8, PZ [v] => (0 <= v <= 255)%Z /\ (Rabs (IZR v - clip x * 255) <= / 2 + 255 * e + / IZR (2 ^ 28))%R
  | I_Gray16, PZ [v] => (0 <= v <= 65535)%Z /\ (Rabs (IZR v - clip x * 65535) <= / 2 + 65535 * e + / IZR (2 ^ 28))%R
  | I_Float, PF [v] => (Rabs x + e <= bpow radix2 127 ->
      finite v = true /\ Rabs (real v - x) <= e + / IZR (2 ^ 24) * (Rabs x + e) + bpow radix2 (-150))%R
  | I_Double, PN [v] => dfinite v = true /\ (Rabs (dreal v - x) <= e)%R
  | _, _ => False
  end.

Lemma store_gray f (d : double) x e : gray_format f -> dfinite d = true -> (0 <= e)%R -> (Rabs (dreal d - x) <= e)%R ->
  exists q, match f with I_Gray8 => oPZ1 (@from8 D d) | I_Gray16 => oPZ1 (@from16 D d)
     | I_Float => Some (@PF D [dnarrow d]) | _ => Some (@PN D [d]) end = Some q /\ stored pw f q /\ near_gray f q x e.
Proof.
  intros GF F He H. unfold gray_format in GF. cbn [In] in GF. destruct GF as [<-|[<-|[<-|[<-|[]]]]].
  - destruct (fromNorm_clip pw 255 255 d x e ltac:(lia) ltac:(lia) F H) as (v & E & B & Q). unfold from8. rewrite E.
    exists (PZ [v]). split; [reflexivity|]. split; [exact B|]. split; assumption.
  - destruct (fromNorm_clip pw 65535 65535 d x e ltac:(lia) ltac:(lia) F H) as (v & E & B & Q). unfold from16. rewrite E.
    exists (PZ [v]). split; [reflexivity|]. split; [exact B|]. split; assumption.
  - eexists. split; [reflexivity|]. split; [exact I|]. cbn [near_gray]. intros B.
    apply narrow_close; auto. pose proof (bpow_gt_0 radix2 127). lra.
  - eexists. split; [reflexivity|]. split; [exact I|]. split; assumption.
Qed.

Lemma gray_pixel src dst cs p : gray_format dst -> src <> I_Complex ->
  convertPixel src dst cs true p = obind (@getPixelImpl D src p) (fun c =>
    let d := match cs with CS_Linear => @toGrayscale D (c_r c) (c_g c) (c_b c)
      | CS_sRGB => @linearToSRGB D (@toGrayscale D (@sRGBToLinear D (c_r c)) (@sRGBToLinear D (c_g c)) (@sRGBToLinear D (c_b c))) end in
    match dst with I_Gray8 => oPZ1 (@from8 D d) | I_Gray16 => oPZ1 (@from16 D d)
     | I_Float => Some (@PF D [dnarrow d]) | _ => Some (@PN D [d]) end).
Proof.
  intros GF NC. unfold convertPixel. destruct (getPixelImpl src p) as [c|]; [|reflexivity]. cbn [obind].
  rewrite (eqb_of _ _ NC). cbn [negb andb]. unfold gray_format in GF. cbn [In] in GF.
  destruct GF as [<-|[<-|[<-|[<-|[]]]]]; destruct cs; reflexivity.
Qed.

Lemma reads_bound d x (M : R) : reads pw d x -> (1 <= M)%R -> (Rabs x <= M)%R ->
  dfinite d = true /\ (Rabs (dreal d - x) <= / IZR (2 ^ 53))%R /\ (Rabs (dreal d) <= 2 * M)%R.
Proof.
  intros R HM B. destruct (reads_near _ _ _ R) as (F & _ & N & _). split; [exact F|]. split; [exact N|].
  replace (dreal d) with (x + (dreal d - x))%R by ring. eapply Rle_trans; [apply Rabs_triang|].
  change (IZR (2 ^ 53)) with 9007199254740992%R in N. lra.
Qed.

(** A linear colour becomes its luminance. *)
Theorem C57_gray_linear fi alloc (s : bitmap D) dst px (M : R) : good pw s -> by_hand fi s dst true ->
  gray_format dst -> b_cs s = CS_Linear -> b_fmt s <> I_Complex ->
  alloc dst (b_w s) (b_h s) = Some px -> (1 <= M <= bpow radix2 700)%R ->
  (forall x y, within pw s x y -> let c := meaning pw (b_fmt s) (at_ pw s x y) in
     finite_pix pw (at_ pw s x y) /\ (Rabs (red c) <= M /\ Rabs (green c) <= M /\ Rabs (blue c) <= M)%R) ->
  exists d, convert fi alloc (Some s) dst true = Some (Some d) /\ good pw d /\ converted dst s d /\
    forall x y, within pw s x y -> let c := meaning pw (b_fmt s) (at_ pw s x y) in
      near_gray dst (at_ pw d x y) (luminance (red c) (green c) (blue c)) (M / IZR (2 ^ 49)).
Proof.
  intros G BH GF CS NC AL HM H.
  apply (by_hand_pixels fi alloc s dst true px (fun p q => let c := meaning pw (b_fmt s) p in
      near_gray dst q (luminance (red c) (green c) (blue c)) (M / IZR (2 ^ 49)))); auto.
  intros x y W. destruct (H x y W) as (F & B1 & B2 & B3).
  replace (isGrayscaleFormat dst) with true
    by (unfold gray_format in GF; cbn [In] in GF; destruct GF as [<-|[<-|[<-|[<-|[]]]]]; reflexivity).
  cbn [andb]. rewrite gray_pixel, CS by assumption.
  destruct (read_meaning pw _ _ (proj2 (proj2 G) x y W) F) as (c & -> & (R1 & R2 & R3 & _)). cbn [obind].
  set (k := meaning pw (b_fmt s) (at_ pw s x y)) in *.
  destruct (reads_bound _ _ M R1 (proj1 HM) B1) as (F1 & N1 & L1).
  destruct (reads_bound _ _ M R2 (proj1 HM) B2) as (F2 & N2 & L2).
  destruct (reads_bound _ _ M R3 (proj1 HM) B3) as (F3 & N3 & L3).
  destruct (toGrayscale_any pw (c_r c) (c_g c) (c_b c) (2 * M) F1 F2 F3) as [FT NT]; auto.
  { apply Rle_trans with (bpow radix2 1 * bpow radix2 700)%R.
    - change (bpow radix2 1) with 2%R. lra.
    - rewrite <- bpow_plus. apply bpow_le. lia. }
  pose proof (luminance_near _ _ _ _ _ _ _ N1 N2 N3) as NL.
  assert (T : (bpow radix2 (-1070) <= / IZR (2 ^ 60))%R).
  { change (/ IZR (2 ^ 60))%R with (bpow radix2 (-60)). apply bpow_le; lia. }
  apply store_gray; auto.
  - change (IZR (2 ^ 49)) with 562949953421312%R. lra.
  - change (IZR (2 ^ 49)) with 562949953421312%R. change (IZR (2 ^ 51)) with 2251799813685248%R in NT.
    change (IZR (2 ^ 53)) with 9007199254740992%R in NL. change (IZR (2 ^ 60)) with 1152921504606846976%R in T.
    apply Rabs_le_inv in NT, NL. apply Rabs_le. lra.
Qed.

(** A colour in sRGB becomes the encoding of the luminance of the decoded channels. *)
Context (PW : pow_ok pw).

Lemma decode_reads d x : reads pw d x -> (0 <= x <= 1)%R ->
  dfinite (@sRGBToLinear D d) = true /\ (Rabs (dreal (@sRGBToLinear D d) - decode x) <= / IZR (2 ^ 43))%R.
Proof.
  intros [F [<-|(m & v & Mm & Hv & -> & ->)]] U.
  - destruct (decode64 pw PW d) as [F2 E2].
    { apply norm_wide; auto. rewrite Rabs_pos_eq; lra. }
    split; [exact F2|]. pose proof (decode_unit _ U) as V. rewrite (Rabs_pos_eq (decode _)) in E2 by lra.
    assert (ET : (eta <= / IZR (2 ^ 60))%R) by (unfold eta; change (/ IZR (2 ^ 60))%R with (bpow radix2 (-60)); apply bpow_le; lia).
    change (IZR (2 ^ 60)) with 1152921504606846976%R in ET. change (IZR (2 ^ 43)) with 8796093022208%R.
    change (IZR (2 ^ 44)) with 17592186044416%R in E2. lra.
  - apply decode_norm; auto. apply maxima_bound, Mm.
Qed.

Theorem C57_gray_srgb fi alloc (s : bitmap D) dst px : good pw s -> by_hand fi s dst true ->
  gray_format dst -> b_cs s = CS_sRGB -> b_fmt s <> I_Complex ->
  alloc dst (b_w s) (b_h s) = Some px ->
  (forall x y, within pw s x y -> let c := meaning pw (b_fmt s) (at_ pw s x y) in
     finite_pix pw (at_ pw s x y) /\ (0 <= red c <= 1 /\ 0 <= green c <= 1 /\ 0 <= blue c <= 1)%R) ->
  exists d, convert fi alloc (Some s) dst true = Some (Some d) /\ good pw d /\ converted dst s d /\
    forall x y, within pw s x y -> let c := meaning pw (b_fmt s) (at_ pw s x y) in
      near_gray dst (at_ pw d x y)
        (encode (luminance (decode (red c)) (decode (green c)) (decode (blue c)))) 0.000000031.
Proof.
  intros G BH GF CS NC AL H.
  apply (by_hand_pixels fi alloc s dst true px (fun p q => let c := meaning pw (b_fmt s) p in
      near_gray dst q (encode (luminance (decode (red c)) (decode (green c)) (decode (blue c)))) 0.000000031)); auto.
  intros x y W. destruct (H x y W) as (F & B1 & B2 & B3).
  replace (isGrayscaleFormat dst) with true
    by (unfold gray_format in GF; cbn [In] in GF; destruct GF as [<-|[<-|[<-|[<-|[]]]]]; reflexivity).
  cbn [andb]. rewrite gray_pixel, CS by assumption.
  destruct (read_meaning pw _ _ (proj2 (proj2 G) x y W) F) as (c & -> & (R1 & R2 & R3 & _)). cbn [obind].
  set (k := meaning pw (b_fmt s) (at_ pw s x y)) in *.
  destruct (decode_reads _ _ R1 B1) as [F1 N1]. destruct (decode_reads _ _ R2 B2) as [F2 N2].
  destruct (decode_reads _ _ R3 B3) as [F3 N3].
  pose proof (decode_unit _ B1) as U1. pose proof (decode_unit _ B2) as U2. pose proof (decode_unit _ B3) as U3.
  assert (TWO : forall (d : double) y, (0 <= y <= 1)%R -> (Rabs (dreal d - y) <= / IZR (2 ^ 43))%R -> (Rabs (dreal d) <= 2)%R).
  { intros d z Y HH. change (IZR (2 ^ 43)) with 8796093022208%R in HH. apply Rabs_le_inv in HH. apply Rabs_le. lra. }
  destruct (toGrayscale_two pw _ _ _ F1 F2 F3 (TWO _ _ U1 N1) (TWO _ _ U2 N2) (TWO _ _ U3 N3)) as [F4 N4].
  pose proof (luminance_near _ _ _ _ _ _ _ N1 N2 N3) as NL.
  edestruct (encode_close pw PW) as [F5 N5]; [exact F4|apply (luminance_unit _ _ _ U1 U2 U3)| |].
  { change (IZR (2 ^ 43)) with 8796093022208%R in NL. change (IZR (2 ^ 48)) with 281474976710656%R in N4.
    change (IZR (2 ^ 42)) with 4398046511104%R. apply Rabs_le_inv in NL, N4. apply Rabs_le. lra. }
  apply store_gray; auto. lra.
Qed.

End Values.
Print Assumptions C57_pixels.
Print Assumptions C57_undefined.
Print Assumptions C57_floats_kept.
Print Assumptions C57_exact_double.
Print Assumptions C57_gray_linear.
Print Assumptions C57_gray_srgb.

(** Without memory for the new image the result is no image. *)
Theorem C57_no_memory (A : arith) fi alloc (s : bitmap A) dst gray : by_hand fi s dst gray ->
  alloc dst (b_w s) (b_h s) = None -> convert fi alloc (Some s) dst gray = Some None.
Proof.
  intros [NE H] AL. unfold convert. rewrite (eqb_of _ _ NE). unfold initialize. rewrite AL.
  assert (E : obind (fiAsked (b_fmt s) dst gray (b_cs s)) (fun call => fi call s) = None).
  { destruct H as [H|H].
    - rewrite (proj1 (fiAsked_spec _ _ gray (b_cs s) NE) H). reflexivity.
    - destruct (fiAsked (b_fmt s) dst gray (b_cs s)); cbn [obind]; auto. }
  unfold fiAsked in E. rewrite E. reflexivity.
Qed.
Print Assumptions C57_no_memory.

(** A NaN that is to become a normalised integer is undefined behaviour: it survives the clamp. *)
Lemma clamp_nan pw hi m (d : double) : (0 <= m <= 65535)%Z -> is_nan 53 1024 d = true -> @fromNorm (double_arith pw) hi m d = None.
Proof.
  intros Hm H. destruct d as [|?|sg pl Hpl|]; try discriminate H. reflexivity.
Qed.

Lemma widen_nan (v : float) : nan v = true -> is_nan 53 1024 (dwiden v) = true.
Proof. destruct v; try discriminate. reflexivity. Qed.

Theorem C57_nan_undefined pw fi alloc (s : bitmap (double_arith pw)) dst px x y r l :
  In (b_fmt s) [I_RGBF; I_RGBAF] -> In dst [I_Gray8; I_Gray16] -> good pw s ->
  alloc dst (b_w s) (b_h s) = Some px -> within pw s x y ->
  at_ pw s x y = @PF (double_arith pw) (r :: l) -> nan r = true ->
  convert fi alloc (Some s) dst false = None.
Proof.
  intros FS FD G AL W E N. pose proof (proj2 (proj2 G) x y W) as S.
  apply (by_hand_undefined pw fi alloc s dst false px x y); auto.
  { cbn [In] in FS, FD. split.
    - destruct FS as [<-|[<-|[]]], FD as [<-|[<-|[]]]; discriminate.
    - left. unfold own_conversion, gray_format, float_format. repeat right.
      destruct FS as [<-|[<-|[]]], FD as [<-|[<-|[]]]; (split; [cbn; auto|]); (split; [cbn; intuition discriminate|auto]). }
  rewrite plain_pixel by auto. rewrite E in *. pose proof (widen_nan r N) as N'.
  cbn [In] in FS, FD. destruct FS as [FS|[FS|[]]], FD as [<-|[<-|[]]]; rewrite <- FS in *;
    destruct l as [|z2 [|z3 [|z4 [|? ?]]]]; try contradiction;
    cbn [getPixelImpl obind setPixelNoGrayscaleImpl c_r widen double_arith]; unfold from8, from16;
    rewrite clamp_nan by (auto; lia); reflexivity.
Qed.
Print Assumptions C57_nan_undefined.

(** ** Cases *)

Section Cases.
Let pw := good_pow.
Let one (f : imgfmt) (cs : colorspace) (p : pix (double_arith pw)) : bitmap (double_arith pw) := Bitmap f 1 1 cs (fun _ _ => p).
Let alloc : allocator (double_arith pw) := fun _ _ _ => Some (fun _ _ => PZ [0%Z]).
Let none : fi_convert (double_arith pw) := fun _ _ => None.

(** Formats read by the library's own loops, and one asked of FreeImage. *)
Example C57_case_pairs :
  own_conversion I_RGB565 I_RGBF false CS_Linear /\ own_conversion I_RGBA8 I_Gray8 false CS_Linear /\
  own_conversion I_RGBAF I_RGBF true CS_sRGB /\ own_conversion I_RGBA8 I_Gray16 true CS_sRGB /\
  ~ own_conversion I_RGBA8 I_Gray8 true CS_Linear /\ ~ own_conversion I_RGB5 I_RGBAF false CS_Linear /\
  ~ own_conversion I_Gray8 I_Gray16 false CS_sRGB.
Proof.
  unfold own_conversion, gray_format, float_format. cbn [In].
  repeat (split; [intuition discriminate|]). intuition discriminate.
Qed.

(** The hypotheses of the theorems about pixels hold of an image of one pixel. *)
Example C57_case_pixels :
  let s := one I_RGBA8 CS_sRGB (PZ [200; 100; 7; 128]%Z) in
  pow_ok pw /\ good pw s /\ by_hand none s I_Gray8 false /\ by_hand none s I_Gray8 true /\ by_hand none s I_Int32 false /\
  within pw s 0 0 /\ finite_pix pw (at_ pw s 0 0) /\
  meaning pw (b_fmt s) (at_ pw s 0 0) = RGBA (norm 255 200) (norm 255 100) (norm 255 7) (norm 255 128) /\
  fits_format I_Int32 (norm 255 200) /\ alloc I_Gray8 (b_w s) (b_h s) <> None.
Proof.
  cbv zeta. split; [exact good_pow_ok|]. split.
  { split; [reflexivity|]. split; [reflexivity|]. intros x y _. cbn. unfold u8, range. lia. }
  split; [split; [discriminate|right; reflexivity]|]. split; [split; [discriminate|right; reflexivity]|].
  split; [split; [discriminate|right; reflexivity]|]. split; [split; reflexivity|]. split; [exact I|].
  split; [reflexivity|]. split; [|discriminate]. unfold fits_format. cbn [limits].
  rewrite Ztrunc_floor by (unfold norm; lra). rewrite (Zfloor_imp 0); [lia|]. unfold norm. simpl. lra.
Qed.

(** 16-bit values become 32-bit values; 40000 does not fit Int16. *)
Example C57_case_integers :
  let s := one I_UInt16 CS_Linear (PZ [40000%Z]) in
  (exists d, convert none alloc (Some s) I_Int32 false = Some (Some d) /\ at_ pw d 0 0 = PZ [40000%Z]) /\
  convert none alloc (Some s) I_Int16 false = None.
Proof.
  cbv zeta. set (s := one I_UInt16 CS_Linear (PZ [40000%Z])).
  assert (G : good pw s).
  { split; [reflexivity|]. split; [reflexivity|]. intros x y _. cbn. unfold u16, range. lia. }
  assert (T : Ztrunc (IZR 40000) = 40000%Z) by apply Ztrunc_IZR. split.
  - destruct (C57_pixels pw none alloc s I_Int32 false (fun _ _ => PZ [0%Z])) as (d & E & _ & _ & P); auto.
    + split; [discriminate|right; reflexivity].
    + intros x y _. split; [exact I|]. cbn. unfold fits_format. cbn [limits]. rewrite T. lia.
    + exists d. split; [exact E|]. specialize (P 0 0 ltac:(split; reflexivity)).
      destruct (at_ pw d 0 0) as [l|l|l]; destruct l as [|v [|? ?]]; try contradiction.
      destruct P as [_ P]. cbn [meaning s one b_fmt at_ b_px red gray_rgba] in P. unfold at_ in P. cbn in P.
      rewrite T in P. rewrite P. reflexivity.
  - apply (C57_undefined pw none alloc s I_Int16 false (fun _ _ => PZ [0%Z]) 0 0 (- 2 ^ 15) (2 ^ 15 - 1)); auto.
    + split; [discriminate|right; reflexivity].
    + split; reflexivity.
    + exact I.
    + unfold at_. cbn. rewrite T. lia.
Qed.

(** Floats outside [0, 1], infinities and NaNs are inputs of [C57_floats_kept]. *)
Example C57_case_floats :
  let s := one I_RGBAF CS_sRGB (@PF (double_arith pw) [B754_infinity 24 128 false; float_of_Z (-7); float_of_Z 70000; float_of_Z 0]) in
  good pw s /\ float_format (b_fmt s) /\ float_format I_RGBF /\ b_fmt s <> I_RGBF.
Proof.
  cbv zeta. split; [split; [reflexivity|split; [reflexivity|intros x y _; exact I]]|].
  split; [cbn; auto|]. split; [cbn; auto|discriminate].
Qed.

End Cases.

(** Pictures the tool resizes before it processes them. *)

From Coq Require Import NArith ZArith List Bool String Lia Permutation Reals Lra.
From Coq Require Import ZifyBool ZifyNat ZifyN.
From Flocq Require Import Core IEEE754.BinarySingleNaN IEEE754.Binary IEEE754.Bits.
From Verif Require Import Base FormatModel FormatSpec ContainerSpec FloatModel FloatSpec ArithModel
  FormatProofs TextureSpec TextureProofs SaveModel SaveSpec SaveRead SaveReadDds SaveReadPvr PropsSave ImageSpec ImageLoops ImageApiProofs
  ImageValueProofs FloatProofs.
From Verif Require Import ImageConvertSpec ToolModel ToolSpec PropsPixel.
From Verif Require Import ConverterModel BlockSpec CompressSpec EncodeModel EncodeSpec PropsEncode.
From Verif Require Import PixelModel PixelSpec PixelProofs TextureModel ImageModel PipelineModel PipelineSpec PipelineProofs PropsPipeline
  CommandLineModel CommandLineSpec ToolImageModel ToolImageSpec ToolImageProofs PropsToolImage
  ToolLevelsSpec ToolLevelsProofs.
From Verif Require Import SrgbSpec.
From Verif Require ImageConvertModel ResizeModel NormalModel PropsCommandLine.
Import ListNotations.
Local Open Scope list_scope.
Local Open Scope N_scope.

Lemma boxed_unit blo bhi k : boxed blo bhi k -> unit_colour k.
Proof.
  intros B. unfold unit_colour.
  destruct (B ChR ltac:(auto)) as [B1 _], (B ChG ltac:(auto)) as [B2 _], (B ChB ltac:(auto)) as [B3 _], (B ChA ltac:(auto)) as [B4 _].
  cbn [of_channel] in *. auto.
Qed.

(** The error of the colours of a resized picture. *)
Definition resized_start_error (cs : colorspace) : R :=
  match cs with CS_Linear => 117 / 25 * / 4194304 | CS_sRGB => 25 * / 4194304 end%R.

Section Resized.
Context (pw : double -> double -> double).
Local Notation D := (double_arith pw).
Variable F : freeimage pw.
Hypothesis FK : freeimage_ok pw F.

(** A resized image stands for colours of the box. *)
Lemma resize_tones cs i w h w' h' rf T blo bhi : averages pw F rf -> (cs = CS_sRGB -> pow_ok pw) ->
  1 <= w -> 1 <= h -> 1 <= w' < 2 ^ 31 -> 1 <= h' < 2 ^ 31 -> tones pw (E0 cs) i w h cs T ->
  (forall x y, x < w -> y < h -> boxed blo bhi (T x y)) ->
  exists T', tones pw (resized_start_error cs) (iresize (image_lib pw F) i w' h' rf) w' h' cs T' /\
    forall x y, boxed blo bhi (T' x y).
Proof.
  intros AV PW W1 H1 W' H' (b & -> & B1 & B2 & B3 & B4 & G & N) BX.
  set (lo := fun c => Rmax 0 (blo c)). set (hi := fun c => Rmin 1 (bhi c)).
  assert (LH : forall c, c <> ChE -> (0 <= lo c /\ lo c <= hi c /\ hi c <= 1 /\ blo c <= lo c /\ hi c <= bhi c)%R).
  { intros c C. destruct (BX 0 0 ltac:(lia) ltac:(lia) c) as [Q1 Q2]. { destruct c; auto; congruence. }
    unfold lo, hi. pose proof (Rmax_l 0 (blo c)). pose proof (Rmax_r 0 (blo c)). pose proof (Rmin_l 1 (bhi c)). pose proof (Rmin_r 1 (bhi c)).
    assert (Rmax 0 (blo c) <= of_channel c (T 0%N 0%N))%R by (apply Rmax_lub; lra).
    assert (of_channel c (T 0%N 0%N) <= Rmin 1 (bhi c))%R by (apply Rmin_glb; lra). lra. }
  assert (EB : (0 <= E0 cs <= / 1000)%R) by (unfold E0; destruct cs; lra).
  assert (M2 : magnitude T_UNorm I_RGBAF = 2%R) by reflexivity.
  assert (RG : ranged pw cs (fun c => c <> ChE) (fun c => lo c - E0 cs)%R (fun c => hi c + E0 cs)%R (Img I_RGBAF w h cs b) w h).
  { exists b. split; [reflexivity|]. do 5 (split; [assumption|]). intros c C x y X Y.
    destruct (N x y X Y) as [NC U]. destruct (BX x y X Y c) as [Q1 Q2]. { destruct c; auto; congruence. }
    assert (QL : (lo c <= of_channel c (T x y) <= hi c)%R) by (unfold lo, hi; split; [apply Rmax_lub; lra|apply Rmin_glb; lra]).
    unfold lies. destruct (at_ pw b x y) as [p|p|p]; cbn [near_colour] in NC; try contradiction.
    destruct p as [|v1 [|v2 [|v3 [|v4 [|? ?]]]]]; try contradiction. destruct NC as ([F1 N1] & [F2 N2] & [F3 N3] & [F4 N4]).
    apply Rabs_le_inv in N1, N2, N3, N4.
    destruct c; try congruence; cbn [float_of of_channel] in *; eexists; (split; [reflexivity|]); (split; [assumption|lra]). }
  destruct (resize_ranged pw F cs (fun c => c <> ChE) (fun c => lo c - E0 cs)%R (fun c => hi c + E0 cs)%R (Img I_RGBAF w h cs b) w h w' h' rf T_UNorm I_RGBAF AV)
    as (b' & Eb & C1 & C2 & C3 & C4 & G' & R); try assumption.
  { intros S. split; [reflexivity|auto]. }
  { intros c C. rewrite M2. pose proof (LH c C). split; [lra|]. intros S. subst cs. unfold E0 in *. split; [reflexivity|]. lra. }
  set (cl := fun c x => Rmax (lo c) (Rmin (hi c) x)).
  assert (CL : forall c x, c <> ChE -> (lo c <= cl c x <= hi c)%R).
  { intros c x C. pose proof (LH c C). unfold cl. split; [apply Rmax_l|]. apply Rmax_lub; [lra|apply Rmin_l]. }
  set (T' := fun x y => match at_ pw b' x y with
     | PF [v1; v2; v3; v4] => RGBA (cl ChR (real v1)) (cl ChG (real v2)) (cl ChB (real v3)) (cl ChA (real v4))
     | _ => RGBA (lo ChR) (lo ChG) (lo ChB) (lo ChA) end).
  assert (BX' : forall x y, boxed blo bhi (T' x y)).
  { intros x y c C. assert (CE : c <> ChE) by (intros ->; intuition discriminate).
    pose proof (LH c CE) as L. assert (Q : (lo c <= of_channel c (T' x y) <= hi c)%R).
    { unfold T'. destruct (at_ pw b' x y) as [p|p|p]; try (destruct c; cbn [of_channel red green blue alpha]; try congruence; lra).
      destruct p as [|v1 [|v2 [|v3 [|v4 [|? ?]]]]]; destruct c; cbn [of_channel red green blue alpha]; try congruence; try lra; apply CL; discriminate. }
    lra. }
  exists T'. split; [|exact BX'].
  exists b'. split; [exact Eb|]. do 5 (split; [assumption|]). intros x y X Y. split; [|exact (boxed_unit _ _ _ (BX' x y))].
  pose proof (fun c C => R c C x y X Y) as Q. unfold T', lies in *.
  destruct (Q ChR ltac:(discriminate)) as (v1 & V1 & F1 & L1). destruct (Q ChG ltac:(discriminate)) as (v2 & V2 & F2 & L2).
  destruct (Q ChB ltac:(discriminate)) as (v3 & V3 & F3 & L3). destruct (Q ChA ltac:(discriminate)) as (v4 & V4 & F4 & L4).
  destruct (at_ pw b' x y) as [p|p|p]; try discriminate.
  destruct p as [|u1 [|u2 [|u3 [|u4 [|? ?]]]]]; try discriminate. cbn [float_of] in V1, V2, V3, V4.
  injection V1 as ->. injection V2 as ->. injection V3 as ->. injection V4 as ->.
  assert (K : forall c v, c <> ChE -> finite v = true ->
    (lo c - E0 cs - loss cs T_UNorm I_RGBAF c / IZR (2 ^ 22) <= real v <= hi c + E0 cs + loss cs T_UNorm I_RGBAF c / IZR (2 ^ 22))%R ->
    within_error (resized_start_error cs) v (cl c (real v))).
  { intros c v C FV L. split; [exact FV|]. pose proof (LH c C) as LC.
    assert (LE : (E0 cs + loss cs T_UNorm I_RGBAF c / IZR (2 ^ 22) <= resized_start_error cs)%R).
    { change (IZR (2 ^ 22)) with 4194304%R. unfold E0, resized_start_error, loss. rewrite M2. destruct cs, c; lra. }
    assert (P0 : (0 <= resized_start_error cs)%R) by (unfold resized_start_error; destruct cs; lra).
    apply Rabs_le. unfold cl, Rmax, Rmin. destruct (Rle_dec (hi c) (real v)); destruct (Rle_dec (lo c) _); lra. }
  cbn [near_colour red green blue alpha].
  split; [apply K; [discriminate|assumption|exact L1]|]. split; [apply K; [discriminate|assumption|exact L2]|].
  split; [apply K; [discriminate|assumption|exact L3]|]. apply K; [discriminate|assumption|exact L4].
Qed.

Variable a : cl.

(** The picture of an input of any size. *)
Lemma product_resized q f U V m w h px blo bhi : plain_job pw a -> proper_spaces a -> fi_load pw F q = Some (f, w, h, px) ->
  side U m < 2 ^ 31 -> side V m < 2 ^ 31 ->
  let s := Bitmap f w h (c_imageCS a) px in plain_input pw s ->
  averages pw F (c_resizeFilter a) -> space_ok pw (c_textureCS a) (c_ttyp a) ->
  (forall x y, within pw s x y -> boxed blo bhi (in_space a (meaning pw f (at_ pw s x y)))) ->
  exists i T, product (image_ops pw F (c_imageCS a)) a U V m q = Some i /\ iconvert (image_lib pw F) i I_RGBAF = i /\
    (forall x y, x < side U m -> y < side V m -> boxed blo bhi (T x y)) /\
    ready pw (steps_error a (resized_start_error (c_textureCS a))) (c_ttyp a) f i
      (fst (result_size a (side U m) (side V m))) (snd (result_size a (side U m) (side V m))) (c_textureCS a)
      (fun x y => let '(x0, y0) := origin a (side U m) (side V m) x y in finished a (T x0 y0)).
Proof.
  intros PJ PS LD SU SV s PI AV SO BX. pose proof (loaded_tones pw F FK a q f w h px PJ PS LD PI) as T0. fold s in T0.
  pose proof PJ as (ENM & LIN).
  destruct (fk_load pw F FK q f w h px (c_imageCS a) LD) as (W1 & H1 & G). fold s in G.
  assert (S1 : 1 <= side U m /\ 1 <= side V m) by (unfold side; lia).
  unfold product. cbn [image_ops o_load]. rewrite LD. fold s.
  unfold carry_out, steps. rewrite ENM. cbn [negb andb fold_left fst snd].
  set (w' := side U m) in *. set (h' := side V m) in *.
  set (i0 := ichange _ _ _) in T0. 
  destruct (resize_tones (c_textureCS a) i0 w h w' h' (c_resizeFilter a) _ blo bhi AV (fun S => proj2 (SO S)) W1 H1 (conj (proj1 S1) SU) (conj (proj2 S1) SV) T0)
    as (T & T1 & BT).
  { intros x y X Y. apply BX. split; assumption. }
  assert (NF : ~ In f [I_RGB5; I_RGB565]).
  { intros [<-|[<-|[]]]; destruct PI as [PI|[PI _]]; cbn in PI; try congruence; intuition discriminate. }
  pose proof (later_ready pw F FK a (resized_start_error (c_textureCS a)) f (iresize (image_lib pw F) i0 w' h' (c_resizeFilter a)) w' h' T NF) as RD.
  eexists. exists T. split; [reflexivity|].
  assert (RD' := RD ltac:(intros C1 C2; destruct (PS C1) as [IC _]; apply LIN; [exact IC|right; exact C2])
     ltac:(unfold resized_start_error; destruct (c_textureCS a); lra)). clear RD.
  assert (RD : ready pw (steps_error a (resized_start_error (c_textureCS a))) (c_ttyp a) f
      (later_steps pw F a f (iresize (image_lib pw F) i0 w' h' (c_resizeFilter a)))
      (fst (result_size a w' h')) (snd (result_size a w' h')) (c_textureCS a) (fun x y => let '(x0, y0) := origin a w' h' x y in finished a (T x0 y0))).
  { apply RD'; [|exact T1].
    destruct (c_textureCS a) eqn:CS; [left|right; exact (proj2 (PS CS))].
    unfold steps_error, resized_start_error, gray_error, premul_error. rewrite CS. destruct (c_grayscale a), (c_preMultiply a); lra. }
  clear RD'. split; [|split; [intros; apply BT|exact RD]].
  destruct RD as (b & Eb & _). 
  change (iconvert (image_lib pw F) (later_steps pw F a f (iresize (image_lib pw F) i0 w' h' (c_resizeFilter a))) I_RGBAF =
    later_steps pw F a f (iresize (image_lib pw F) i0 w' h' (c_resizeFilter a))). rewrite Eb. reflexivity.
Qed.

End Resized.

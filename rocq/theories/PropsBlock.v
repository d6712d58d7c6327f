(** C60: the pixels handed to the encoders of compressed formats; C61: the settings. *)

From Coq Require Import NArith ZArith Reals List Bool Lia Lra.
From Coq Require Import ZifyBool ZifyNat ZifyN.
From Flocq Require Import Core IEEE754.BinarySingleNaN IEEE754.Binary IEEE754.Bits.
From Verif Require Import Base FormatModel FormatSpec FloatModel FloatSpec FloatProofs ConverterModel
  ConverterSpec TilingProofs PixelModel TextureModel AdjustModel BlockModel BlockSpec BlockProofs.
From Verif Require CommandLineModel AdjustProofs.
Import ListNotations.
Local Open Scope N_scope.

(** * C60 *)

(** An encoder with 8-bit input is given one byte per channel it reads: the value limited to
    [0, 1] times 255, to the nearest.  The conversion is undefined exactly if one of these values
    is NaN. *)
Theorem C60_bytes : forall pk bd st threads fl f c ch w h px x y,
  createConverter fl f T_UNorm = Some c -> inputs f = Some ch -> block_at f w h x y ->
  (jobRequest pk bd st threads c (img w h px) x y = None <->
   exists p v, In p (source f w h px x y) /\ In v (ch p) /\ nan v = true) /\
  (forall r, jobRequest pk bd st threads c (img w h px) x y = Some r ->
   given (r_call r) = Some (map (fun p => map byte8 (ch p)) (source f w h px x y))).
Proof.
  intros pk bd st th fl f c ch w h px x y C I B. rewrite <- exists_nan.
  destruct (family_of f) eqn:Fam; try (destruct f; discriminate).
  - destruct (source_s3tc f w h px x y Fam B) as (S & G & L). rewrite S.
    set (F := footprint w h 4 4 px x y) in *. clearbody F.
    destruct f; try discriminate I; try discriminate Fam; cbn [createConverter] in C;
      (destruct (has_s3tc fl); [|discriminate C]); cbn in C; inversion C; subst c; clear C;
      inversion I; subst ch; clear I; cbn [jobRequest]; rewrite G; cbn [obind s3tcRequest];
      rewrite ?toColorBlock_ok.
    1,2,4,7: change (fun p => existsb nan (four p)) with nan4; fold bytes4;
      destruct (existsb nan4 F); cbn [obind];
      (split; [split; intros; congruence|]); intros r R; try discriminate R; inversion R; subst r; cbn [r_call];
      repeat match goal with |- context [if ?b then _ else _] => destruct b end; reflexivity.
    + change (fun p => existsb nan (four p)) with nan4.
      destruct (packBc2Alpha_ok F L) as (l & P & _).
      destruct (existsb nan4 F); cbn [obind]; rewrite ?P; cbn [obind];
      (split; [split; intros; congruence|]); intros r R; try discriminate R; inversion R; subst r; reflexivity.
    + rewrite (omap_all _ (fun p => byte8 (pr p)) (fun p => nan (pr p))) by (intros; apply unorm8).
      rewrite (existsb_ext' (fun p => existsb nan [pr p]) (fun p => nan (pr p))) by (intros; apply orb_false_r).
      destruct (existsb (fun p => nan (pr p)) F); cbn [obind];
      (split; [split; intros; congruence|]); intros r R; try discriminate R; inversion R; subst r; cbn [r_call];
      destruct (lowQuality (s_quality st)); cbn [given]; rewrite map_map; reflexivity.
    + rewrite (omap_all _ (fun p => map byte8 [pr p; pg p]) (fun p => existsb nan [pr p; pg p])).
      2:{ intros p. apply (omap_all _ byte8 nan). apply unorm8. }
      destruct (existsb (fun p => existsb nan [pr p; pg p]) F); cbn [obind];
      (split; [split; intros; congruence|]); intros r R; try discriminate R; inversion R; subst r; cbn [r_call];
      destruct (lowQuality (s_quality st)); reflexivity.
  - destruct B as (Hw & Hh & B). rewrite Fam in B.
    assert (S : source f w h px x y = flat_map (fun r => map (px r) (Nrange w)) (Nrange h))
      by (unfold source; rewrite Fam; reflexivity).
    rewrite S. set (F := flat_map (fun r => map (px r) (Nrange w)) (Nrange h)) in *.
    assert (Cf : c = CvPvrtc f /\ ch = four).
    { destruct f; try discriminate Fam; cbn [createConverter] in C;
      (destruct (has_pvrtc fl); [|discriminate C]); cbn in C; inversion C; inversion I; auto. }
    destruct Cf as [-> ->]. cbn [jobRequest]. rewrite pvrtcPixels_ok by auto. cbn [obind].
    unfold pvrtcRequest. fold F. clearbody F. rewrite toColorBlock_ok.
    change (fun p => existsb nan (four p)) with nan4.
    destruct (existsb nan4 F); cbn [obind].
    + split; [split; reflexivity|discriminate].
    + destruct f; try discriminate Fam;
        (split; [split; intros; discriminate|]); intros r R; inversion R; subst r; reflexivity.
Qed.
Print Assumptions C60_bytes.

(** These bytes are within half a step of the value limited to [0, 1] (up to single precision),
    and the float nearest to k/255 gives k. *)
Theorem C60_byte_error : forall v,
  (0 <= byte8 v <= 255)%Z /\
  (Rabs (IZR (byte8 v) / 255 - limit 0 1 v) <= / 510 + bpow radix2 (-23))%R.
Proof. intros v. split; [apply byte8_range|apply byte8_error]. Qed.
Print Assumptions C60_byte_error.

Theorem C60_byte_exact : forall k v, (0 <= k <= 255)%Z -> finite v = true ->
  real v = rnd32 (IZR k / 255) -> byte8 v = k.
Proof. exact byte8_exact. Qed.
Print Assumptions C60_byte_exact.

(** BC2 stores the alpha of its sixteen pixels itself, before the block of the encoder: four bits
    each, even pixels in the low half, the byte of the alpha divided by 17 to the nearest. *)
Theorem C60_bc2_alpha : forall pk bd st threads fl t c w h px x y r,
  createConverter fl F_BC2 t = Some c -> block_at F_BC2 w h x y ->
  jobRequest pk bd st threads c (img w h px) x y = Some r ->
  length (r_own r) = 8%nat /\
  forall i p, nth_error (source F_BC2 w h px x y) i = Some p ->
  exists b, nth_error (r_own r) (i / 2) = Some b /\ (0 <= b <= 255)%Z /\
    let nibble := ((if Nat.even i then b else b / 16) mod 16)%Z in
    nibble = nearest (IZR (byte8 (pa p)) / 17) /\
    (Rabs (IZR nibble / 15 - limit 0 1 (pa p)) <= / 30 + / 510 + bpow radix2 (-23))%R.
Proof.
  intros pk bd st th fl t c w h px x y r C B R.
  destruct (source_s3tc F_BC2 w h px x y eq_refl B) as (S & G & L). rewrite S.
  set (F := footprint w h 4 4 px x y) in *. clearbody F.
  cbn [createConverter] in C. destruct (has_s3tc fl); [|discriminate C].
  destruct (type_eqb t T_UNorm); [|discriminate C]. inversion C; subst c; clear C.
  cbn [jobRequest] in R. rewrite G in R. cbn [obind s3tcRequest] in R. rewrite toColorBlock_ok in R.
  destruct (existsb nan4 F); [discriminate R|]. cbn [obind] in R.
  destruct (packBc2Alpha_ok F L) as (l & P & Ll & A). rewrite P in R. cbn [obind] in R.
  inversion R; subst r; clear R. cbn [r_own]. split; [exact Ll|].
  intros i p H. destruct (A i p H) as (b & N1 & Rb & E). exists b. split; [exact N1|]. split; [exact Rb|].
  cbv zeta.
  assert (E' : ((if Nat.even i then b else b / 16) mod 16)%Z = nib p).
  { rewrite <- E. destruct (Nat.even i); [rewrite Z.div_1_r|]; reflexivity. }
  rewrite E'. pose proof (byte8_range (pa p)) as Rg.
  assert (Q : nearest (IZR (byte8 (pa p)) / 17) = nib p) by (apply nearest_17; lia).
  split; [symmetry; exact Q|]. rewrite <- Q.
  pose proof (near_err (IZR (byte8 (pa p)) / 17)) as E1. pose proof (byte8_error (pa p)) as E2.
  set (k := IZR (byte8 (pa p))) in *. set (n := IZR (nearest (k / 17))) in *.
  replace (n / 15 - limit 0 1 (pa p))%R with ((n - k / 17) / 15 + (k / 255 - limit 0 1 (pa p)))%R by field.
  eapply Rle_trans; [apply Rabs_triang|].
  unfold Rdiv at 1. rewrite Rabs_mult, (Rabs_right (/ 15)) by lra. lra.
Qed.
Print Assumptions C60_bc2_alpha.

(** BC1 with alpha: a block goes to the encoder that writes transparent pixels exactly if some
    alpha is below one half, which is the same as a byte below 128. *)
Theorem C60_bc1a_transparent : forall pk bd st threads fl t c w h px x y r,
  createConverter fl F_BC1_RGBA t = Some c -> block_at F_BC1_RGBA w h x y ->
  jobRequest pk bd st threads c (img w h px) x y = Some r ->
  let transparent := exists p, In p (source F_BC1_RGBA w h px x y) /\ (byte8 (pa p) < 128)%Z in
  (forall v, nan v = false -> ((byte8 v < 128)%Z <-> (limit 0 1 v < / 2)%R)) /\
  ((exists fit weights pixels, r_call r = E_Squish fit weights pixels) <-> transparent) /\
  (~ transparent -> exists level pixels, r_call r = E_Bc1 level pixels true false).
Proof.
  intros pk bd st th fl t c w h px x y r C B R tr. subst tr. split.
  { intros v N. pose proof (byte8_half v N) as H. destruct half_ok as [Fh Rh].
    destruct (finite v) eqn:F.
    - rewrite fltb_finite, Rh in H by auto.
      assert (LE : limit 0 1 v = Rmax 0 (Rmin 1 (real v))) by (destruct v; try discriminate; reflexivity).
      rewrite LE.
      split.
      + intros Q. apply Z.ltb_lt in Q. rewrite Q in H.
        destruct (Rlt_bool_spec (real v) (/ 2)); [|discriminate].
        apply Rmax_lub_lt; [lra|]. eapply Rle_lt_trans; [apply Rmin_r|auto].
      + intros Q. apply Z.ltb_lt. rewrite <- H. apply Rlt_bool_true.
        pose proof (Rmax_r 0 (Rmin 1 (real v))). unfold Rmin in *. destruct (Rle_dec 1 (real v)); lra.
    - destruct v as [s|s|s pl e|s m e w']; try discriminate. cbn [limit].
      unfold flit in H, Fh. rewrite fltb_inf_l in H by exact Fh.
      destruct s; [split; [lra|intros _; apply Z.ltb_lt; auto]|].
      split; [|lra]. intros Q. apply Z.ltb_lt in Q. congruence. }
  destruct (source_s3tc F_BC1_RGBA w h px x y eq_refl B) as (S & G & L). rewrite S.
  set (F := footprint w h 4 4 px x y) in *. clearbody F.
  cbn [createConverter] in C. destruct (has_s3tc fl); [|discriminate C].
  destruct (type_eqb t T_UNorm); [|discriminate C]. inversion C; subst c; clear C.
  cbn [jobRequest] in R. rewrite G in R. cbn [obind s3tcRequest] in R. rewrite toColorBlock_ok in R.
  destruct (existsb nan4 F) eqn:N4; [discriminate R|]. cbn [obind] in R. inversion R; subst r; clear R.
  cbn [r_call].
  assert (E : existsb (fun p => fltb (pa p) (flit 1 2)) F = true <->
              exists p, In p F /\ (byte8 (pa p) < 128)%Z).
  { rewrite existsb_in.
    assert (Np : forall p, In p F -> nan (pa p) = false).
    { intros p I. destruct (nan (pa p)) eqn:Q; auto. exfalso.
      assert (existsb nan4 F = true); [|congruence]. apply existsb_in. exists p. split; auto.
      unfold nan4, four. cbn [existsb]. rewrite Q, !orb_true_r. reflexivity. }
    split; intros (p & I & Q); exists p; split; auto.
    - rewrite byte8_half in Q by auto. lia.
    - rewrite byte8_half by auto. lia. }
  destruct (existsb (fun p => fltb (pa p) (flit 1 2)) F) eqn:X.
  - split; [split; intros; [apply E; reflexivity|eauto]|]. intros K. exfalso. apply K, E. reflexivity.
  - split; [split|eauto].
    + intros (? & ? & ? & Q). discriminate Q.
    + intros Q. apply E in Q. discriminate Q.
Qed.
Print Assumptions C60_bc1a_transparent.

(** Signed BC4 and BC5: bytes in two's complement of the value limited to [-1, 1] times 127. *)
Theorem C60_signed_bytes : forall pk bd st threads fl f c ch w h px x y,
  createConverter fl f T_SNorm = Some c ->
  (f = F_BC4 /\ ch = (fun p => [pr p]) \/ f = F_BC5 /\ ch = (fun p => [pr p; pg p])) ->
  block_at f w h x y ->
  (jobRequest pk bd st threads c (img w h px) x y = None <->
   exists p v, In p (source f w h px x y) /\ In v (ch p) /\ nan v = true) /\
  (forall r, jobRequest pk bd st threads c (img w h px) x y = Some r ->
   given_signed (r_call r)
   = Some (map (fun p => map (fun v => (sbyte8 v mod 256)%Z) (ch p)) (source f w h px x y))).
Proof.
  intros pk bd st th fl f c ch w h px x y C Fm B. rewrite <- exists_nan.
  assert (Fam : family_of f = Fam_S3tc) by (destruct Fm as [[-> _]|[-> _]]; reflexivity).
  destruct (source_s3tc f w h px x y Fam B) as (S & G & L). rewrite S.
  set (F := footprint w h 4 4 px x y) in *. clearbody F. clear S L B Fam.
  destruct Fm as [[-> ->]|[-> ->]]; cbn [createConverter] in C; (destruct (has_s3tc fl); [|discriminate C]);
    inversion C; subst c; clear C; cbn [jobRequest]; rewrite G; cbn [obind s3tcRequest]; clear G.
  - rewrite (omap_all _ (fun p => (sbyte8 (pr p) mod 256)%Z) (fun p => nan (pr p))) by (intros; apply sbyte_ok).
    rewrite (existsb_ext' (fun p => existsb nan [pr p]) (fun p => nan (pr p))) by (intros; apply orb_false_r).
    destruct (existsb (fun p => nan (pr p)) F); cbn [obind];
      (split; [split; intros; congruence|]); intros r R; try discriminate R; inversion R; subst r.
    cbn [r_call given_signed]. rewrite map_map. reflexivity.
  - rewrite (omap_all _ (fun p => (sbyte8 (pr p) mod 256)%Z) (fun p => nan (pr p))) by (intros; apply sbyte_ok).
    rewrite (omap_all (fun p => sbyte (pg p)) (fun p => (sbyte8 (pg p) mod 256)%Z) (fun p => nan (pg p))) by (intros; apply sbyte_ok).
    assert (X : existsb (fun p => existsb nan [pr p; pg p]) F
                = existsb (fun p => nan (pr p)) F || existsb (fun p => nan (pg p)) F).
    { clear. induction F as [|p F IH]; [reflexivity|]. cbn [existsb] in *. rewrite IH.
      destruct (nan (pr p)), (nan (pg p)); cbn; rewrite ?orb_true_r; auto. }
    rewrite X. destruct (existsb (fun p => nan (pr p)) F); cbn [obind orb].
    { split; [split; intros; congruence|]. intros r R. discriminate R. }
    destruct (existsb (fun p => nan (pg p)) F); cbn [obind];
      (split; [split; intros; congruence|]); intros r R; try discriminate R; inversion R; subst r.
    cbn [r_call given_signed]. f_equal. clear. induction F as [|p F IH]; [reflexivity|].
    cbn [map combine fst snd] in *. rewrite IH. reflexivity.
Qed.
Print Assumptions C60_signed_bytes.

Theorem C60_signed_error : forall v,
  (-127 <= sbyte8 v <= 127)%Z /\
  (Rabs (IZR (sbyte8 v) / 127 - limit (-1) 1 v) <= / 254 + bpow radix2 (-23))%R.
Proof. intros v. split; [apply sbyte8_range|apply sbyte8_error]. Qed.
Print Assumptions C60_signed_error.

(** BC6H: the half floats of red, green and blue (and of alpha for the encoder of unsigned
    blocks), without limits; never undefined. *)
Theorem C60_halves : forall pk bd st threads fl t c w h px x y,
  createConverter fl F_BC6H t = Some c -> block_at F_BC6H w h x y ->
  exists r l, jobRequest pk bd st threads c (img w h px) x y = Some r /\ r_own r = [] /\
    given_half (r_call r) = Some l /\
    Forall2 (fun p hs => exists rest, hs = pack_half pk (pr p) :: pack_half pk (pg p) :: pack_half pk (pb p) :: rest)
      (source F_BC6H w h px x y) l.
Proof.
  intros pk bd st th fl t c w h px x y C B.
  destruct (source_s3tc F_BC6H w h px x y eq_refl B) as (S & G & L). rewrite S.
  set (F := footprint w h 4 4 px x y) in *. clearbody F.
  cbn [createConverter] in C. destruct (has_s3tc fl); [|discriminate C].
  assert (Cc : exists sgn, c = CvBc6H sgn) by (destruct t; try discriminate C; inversion C; eauto).
  destruct Cc as (sgn & ->). cbn [jobRequest]. rewrite G. cbn [obind s3tcRequest].
  destruct (bd_ispc bd && negb sgn); (do 2 eexists; split; [reflexivity|]; split; [reflexivity|];
    split; [reflexivity|]); unfold halves; clear; (induction F as [|p F IH]; constructor;
    [eexists; reflexivity|exact IH]).
Qed.
Print Assumptions C60_halves.

(** ASTC and unsigned ETC and EAC: the encoder gets the floats of the block unchanged, with its
    size (that of the part inside the image for ETC). *)
Theorem C60_floats : forall pk bd st threads fl f t c w h px x y,
  createConverter fl f t = Some c -> block_at f w h x y ->
  (family_of f = Fam_Astc \/ family_of f = Fam_Etc /\ t = T_UNorm) ->
  exists r bw bh, jobRequest pk bd st threads c (img w h px) x y = Some r /\ r_own r = [] /\
    payload_of (r_call r) = PFloat bw bh (source f w h px x y) /\
    match layout_of f with
    | Blocks bx by_ _ _ =>
        match family_of f with
        | Fam_Etc => bw = N.min bx (w - x * bx) /\ bh = N.min by_ (h - y * by_)
        | _ => bw = bx /\ bh = by_
        end
    | _ => False
    end.
Proof.
  intros pk bd st th fl f t c w h px x y C B Fam.
  destruct B as (Hw & Hh & B). unfold source.
  destruct Fam as [Fam|[Fam ->]]; rewrite Fam in *.
  - destruct (layout_of f) as [| |bx by_ bs al] eqn:Ly; [destruct f; discriminate| destruct f; discriminate|].
    destruct B as (B1 & B2 & B3 & B4).
    assert (Pb : 0 < bx /\ 0 < by_) by (destruct f; try discriminate Fam; inversion Ly; lia).
    assert (Cc : c = CvAstc f t bx by_).
    { destruct f; try discriminate Fam; cbn [createConverter] in C; (destruct (has_astc fl); [|discriminate C]);
      match type of C with (if ?b then _ else _) = _ => destruct b end; try discriminate C;
      inversion C; inversion Ly; reflexivity. }
    subst c. cbn [jobRequest]. rewrite clamp_gather by (try apply cdiv_lt; lia). cbn [obind].
    do 3 eexists. split; [reflexivity|]. split; [reflexivity|]. split; [reflexivity|]. auto.
  - assert (Ly : exists bs al, layout_of f = Blocks 4 4 bs al) by (destruct f; try discriminate Fam; cbn; eauto).
    destruct Ly as (bs & al & Ly). rewrite Ly in *. destruct B as (B1 & B2 & B3 & B4).
    assert (Cc : c = CvEtc f T_UNorm).
    { destruct f; try discriminate Fam; cbn [createConverter] in C; (destruct (has_etc fl); [|discriminate C]);
      inversion C; reflexivity. }
    subst c. cbn [jobRequest].
    destruct (etc_gather w h px Hw Hh x y B1 B2 ltac:(apply cdiv_lt; lia) ltac:(apply cdiv_lt; lia)) as (G & Ex & Ey).
    rewrite G. cbn [obind img sf_w sf_h]. rewrite Ex, Ey.
    pose proof (inner_length w h px x y) as L. set (F := inner w h px x y) in *. clearbody F.
    assert (K : exists k, etcKind st f T_UNorm = Some k /\ fst k <> EtcSR11 /\ fst k <> EtcSRG11).
    { destruct f; try discriminate Fam; (eexists; split; [reflexivity|]; split; discriminate). }
    destruct K as (k & Ek & K1 & K2). unfold etcRequest. rewrite Ek. cbn [obind].
    assert (M : match fst k with EtcSR11 | EtcSRG11 => remapAll (array16 F) | _ => Some (array16 F) end
                = Some (array16 F)) by (destruct (fst k); congruence).
    rewrite M. cbn [obind]. rewrite firstn_array16 by (symmetry; rewrite <- L; reflexivity).
    rewrite omap_id. cbn [obind].
    do 3 eexists. split; [reflexivity|]. split; [reflexivity|]. split; [reflexivity|]. auto.
Qed.
Print Assumptions C60_floats.

(** Signed EAC: red and green are mapped from [-1, 1] to [0, 1]; defined exactly for blocks that
    are completely inside the image. *)
Theorem C60_eac_signed : forall pk bd st threads fl f c w h px x y,
  createConverter fl f T_SNorm = Some c -> family_of f = Fam_Etc -> block_at f w h x y ->
  (jobRequest pk bd st threads c (img w h px) x y <> None <-> x * 4 + 4 <= w /\ y * 4 + 4 <= h) /\
  (forall r, jobRequest pk bd st threads c (img w h px) x y = Some r ->
   exists l, payload_of (r_call r) = PFloat 4 4 l /\ r_own r = [] /\
   Forall2 (fun p o => pb o = pb p /\ pa o = pa p /\ halfway (pr p) (pr o) /\ halfway (pg p) (pg o))
     (source f w h px x y) l).
Proof.
  intros pk bd st th fl f c w h px x y C Fam (Hw & Hh & B). unfold source. rewrite Fam in *.
  assert (Ly : exists bs al, layout_of f = Blocks 4 4 bs al) by (destruct f; try discriminate Fam; cbn; eauto).
  destruct Ly as (bs & al & Ly). rewrite Ly in *. destruct B as (B1 & B2 & B3 & B4).
  assert (Cc : c = CvEtc f T_SNorm).
  { destruct f; try discriminate Fam; cbn [createConverter] in C; (destruct (has_etc fl); [|discriminate C]);
    inversion C; reflexivity. }
  assert (K : exists k, etcKind st f T_SNorm = Some k /\ (fst k = EtcSR11 \/ fst k = EtcSRG11)).
  { subst c. destruct f; try discriminate Fam; cbn [createConverter] in C;
      (destruct (has_etc fl); [|discriminate C]); try discriminate C;
      (eexists; split; [reflexivity|]; cbn; auto). }
  destruct K as (k & Ek & Kk). subst c. cbn [jobRequest].
  destruct (etc_gather w h px Hw Hh x y B1 B2 ltac:(apply cdiv_lt; lia) ltac:(apply cdiv_lt; lia)) as (G & Ex & Ey).
  rewrite G. cbn [obind img sf_w sf_h]. rewrite Ex, Ey.
  pose proof (inner_length w h px x y) as L. set (F := inner w h px x y) in *. clearbody F.
  unfold etcRequest. rewrite Ek. cbn [obind].
  assert (M : match fst k with EtcSR11 | EtcSRG11 => remapAll (array16 F) | _ => Some (array16 F) end
              = remapAll (array16 F)) by (destruct Kk as [-> | ->]; reflexivity).
  rewrite M.
  destruct (N.eq_dec (N.min 4 (w - x * 4) * N.min 4 (h - y * 4)) 16) as [E16|E16].
  - assert (W : N.min 4 (w - x * 4) = 4 /\ N.min 4 (h - y * 4) = 4) by nia.
    destruct W as [Wx Wy]. rewrite Wx, Wy in L |- *. change (N.to_nat (4 * 4)) with 16%nat in L. rewrite remapAll_full by (rewrite L; reflexivity). cbn [obind].
    replace (map Some (map remapPixel F)) with (array16 (map remapPixel F)).
    2:{ unfold array16. rewrite map_length, L. cbn. apply app_nil_r. }
    rewrite firstn_array16 by (rewrite map_length, L; reflexivity). rewrite omap_id. cbn [obind].
    split; [split; [lia|discriminate]|].
    intros r R. inversion R; subst r. eexists. split; [reflexivity|]. split; [reflexivity|].
    clear. induction F as [|p F IH]; constructor; [|exact IH].
    assert (W : forall v, halfway v (remap v)).
    { intros v Fv Rv. destruct (remap_ok v Fv Rv) as (A1 & A2 & A3 & _).
      destruct (remap_ends v Fv) as (E1 & E2 & E3). auto 10. }
    cbn. auto.
  - rewrite remapAll_part.
    2:{ rewrite L. nia. }
    cbn [obind]. split; [split; [congruence|nia]|discriminate].
Qed.
Print Assumptions C60_eac_signed.

(** The mapping keeps the order of values. *)
Theorem C60_eac_increasing : forall u v, finite u = true -> finite v = true ->
  (-1 <= real u)%R -> (real u <= real v)%R -> (real v <= 1)%R -> (real (remap u) <= real (remap v))%R.
Proof. exact remap_mono. Qed.
Print Assumptions C60_eac_increasing.

(** It is not true that every signed EAC texture can be made: a 5 by 4 image reads pixels of its
    second block that were never written. *)
Theorem C60_eac_refuted : exists fl c w h x y, createConverter fl F_EAC_R11 T_SNorm = Some c /\
  block_at F_EAC_R11 w h x y /\
  forall pk bd st threads px, jobRequest pk bd st threads c (img w h px) x y = None.
Proof.
  exists (Flags true true true true), (CvEtc F_EAC_R11 T_SNorm), 5, 4, 1, 0.
  split; [reflexivity|].
  assert (B : block_at F_EAC_R11 5 4 1 0) by (unfold block_at; cbn; lia).
  split; [exact B|]. intros pk bd st th px.
  destruct (C60_eac_signed pk bd st th (Flags true true true true) F_EAC_R11 _ 5 4 px 1 0 eq_refl eq_refl B) as [H _].
  destruct (jobRequest pk bd st th (CvEtc F_EAC_R11 T_SNorm) (img 5 4 px) 1 0) as [r|]; auto.
  exfalso. destruct (proj1 H ltac:(discriminate)). lia.
Qed.
Print Assumptions C60_eac_refuted.

Definition ex_build := Build false 0 18 0 40 100.
Definition ex_settings := Settings CommandLineModel.Q_Normal AlphaStandard (Mask true false true true) CS_sRGB CS_sRGB.
Definition ex_packers : packers := Packers (fun _ => 0) (fun _ _ _ => 0) (fun _ _ _ => 0).
Definition ex_px (r c : N) : rgba :=
  Rgba (flit (Z.of_N c) 8) (flit (Z.of_N r) 4) (float_of_Z (-3)) (flit (Z.of_N (r + c)) 8).

(** A 5 by 3 image of BC2: the second block repeats column 4 and row 2. *)
Example C60_case :
  block_at F_BC2 5 3 1 0 /\ block_at F_EAC_R11 5 4 0 0 /\ block_at F_PVRTC1_RGBA_4BPP 8 8 0 0 /\
  option_map (fun r => (r_own r, given (r_call r)))
    (jobRequest ex_packers ex_build ex_settings 1 CvBc2 (img 5 3 ex_px) 1 0)
  = Some ([136; 136; 153; 153; 187; 187; 187; 187]%Z,
      Some (let row g a := repeat [128; g; 0; a]%Z 4 in row 0 128 ++ row 64 159 ++ row 128 191 ++ row 128 191)%Z).
Proof.
  split; [unfold block_at; cbn; lia|]. split; [unfold block_at; cbn; lia|]. split; [unfold block_at; cbn; lia|].
  vm_compute. reflexivity.
Qed.

(** * C61 *)

(** No setting changes the pixels handed over, the bytes the converter writes itself or whether
    the conversion is defined. *)
Theorem C61_same_pixels : forall pk bd st st' threads threads' c im x y,
  match jobRequest pk bd st threads c im x y, jobRequest pk bd st' threads' c im x y with
  | Some r, Some r' => r_own r = r_own r' /\ payload_of (r_call r) = payload_of (r_call r')
  | None, None => True
  | _, _ => False
  end.
Proof.
  intros pk bd st st' th th' c im x y.
  assert (Etc : forall f t, match etcKind st f t, etcKind st' f t with
                            | Some k, Some k' => fst k = fst k' | None, None => True | _, _ => False end).
  { intros f t; destruct f; cbn; auto; destruct t; reflexivity. }
  destruct c; cbn [jobRequest]; try (destruct (clamp_block im 4 4 x y); cbn [obind s3tcRequest]; exact Logic.I).
  1-8: destruct (clamp_block im 4 4 x y) as [px|]; cbn [obind]; [|exact Logic.I]; unfold s3tcRequest;
    try (destruct signed);
    try (destruct (toColorBlock px) as [b|]; cbn [obind]; [|exact Logic.I]);
    repeat match goal with
      | |- context [obind ?e _] => destruct e; cbn [obind]; [|exact Logic.I]
      | |- context [if ?b then _ else _] => destruct b
      end; split; reflexivity.
  - destruct (etc_block im x y) as [px|]; cbn [obind]; [|exact Logic.I]. unfold etcRequest.
    specialize (Etc f t). destruct (etcKind st f t) as [k|], (etcKind st' f t) as [k'|]; cbn [obind]; try contradiction; auto.
    rewrite <- Etc. match goal with |- context [obind ?e _] => destruct e as [a|] end; cbn [obind]; auto.
    match goal with |- context [obind ?e _] => destruct e end; cbn [obind]; [split; reflexivity|exact Logic.I].
  - destruct (clamp_block im bx by_ x y); cbn [obind]; [|exact Logic.I]. split; reflexivity.
  - destruct (pvrtcPixels im); cbn [obind]; [|exact Logic.I]. unfold pvrtcRequest.
    destruct (toColorBlock l); cbn [obind]; [|exact Logic.I]. destruct f; auto; split; reflexivity.
Qed.
Print Assumptions C61_same_pixels.

(** Levels: between the encoder's least and greatest, which the lowest and highest quality use,
    and never less for a better quality. *)
Theorem C61_levels : forall pk bd st threads c im x y r l,
  bd_minLevel bd <= bd_maxLevel bd < 2 ^ 30 ->
  jobRequest pk bd st threads c im x y = Some r -> level_of (r_call r) = Some l ->
  bd_minLevel bd <= l <= bd_maxLevel bd /\
  (s_quality st = CommandLineModel.Q_Lowest -> l = bd_minLevel bd) /\
  (s_quality st = CommandLineModel.Q_Highest -> l = bd_maxLevel bd) /\
  forall q r' l', (rank (s_quality st) <= rank q)%nat ->
    jobRequest pk bd (with_quality q st) threads c im x y = Some r' -> level_of (r_call r') = Some l' -> l <= l'.
Proof.
  intros pk bd st th c im x y r l H R E.
  assert (G : forall st r l, jobRequest pk bd st th c im x y = Some r -> level_of (r_call r) = Some l ->
                             l = rgbcxLevel bd (s_quality st)).
  { clear. intros st r l R E.
    destruct c; cbn [jobRequest] in R;
      try (destruct (clamp_block im 4 4 x y) as [px|]; cbn [obind s3tcRequest] in R; discriminate R);
      try (destruct (clamp_block im 4 4 x y) as [px|]; cbn [obind] in R; [|discriminate R];
           unfold s3tcRequest in R; try (destruct signed);
           repeat match goal with
             | R : obind ?e _ = Some _ |- _ => destruct e; cbn [obind] in R; [|discriminate R]
             end; inversion R; subst r; cbn [r_call] in E;
           repeat match type of E with context [if ?b then _ else _] => destruct b end;
           cbn [level_of] in E; congruence).
    - destruct (etc_block im x y); cbn [obind] in R; [|discriminate R]. unfold etcRequest in R.
      repeat match goal with
             | R : obind ?e _ = Some _ |- _ => destruct e; cbn [obind] in R; [|discriminate R]
             end. inversion R; subst r. discriminate E.
    - destruct (clamp_block im bx by_ x y); cbn [obind] in R; [|discriminate R]. inversion R; subst r. discriminate E.
    - destruct (pvrtcPixels im); cbn [obind] in R; [|discriminate R]. unfold pvrtcRequest in R.
      destruct (toColorBlock l0); cbn [obind] in R; [|discriminate R].
      destruct f; try discriminate R; inversion R; subst r; discriminate E. }
  assert (V : forall q, rgbcxLevel bd q = bd_minLevel bd + (bd_maxLevel bd - bd_minLevel bd) * quality_value q / 4).
  { intros q. assert (Q : quality_value q <= 4) by (destruct q; cbn; lia).
    unfold rgbcxLevel. rewrite (u32_small (bd_maxLevel bd - bd_minLevel bd)) by lia.
    set (d := bd_maxLevel bd - bd_minLevel bd) in *.
    assert (D : d * quality_value q <= d * 4) by (apply N.mul_le_mono_l; auto).
    rewrite (u32_small (d * quality_value q)) by (unfold d in *; lia).
    rewrite u32_small; [reflexivity|]. unfold d in *. lia. }
  rewrite (G _ _ _ R E). rewrite V.
  set (d := bd_maxLevel bd - bd_minLevel bd) in *.
  split.
  { assert (Q : quality_value (s_quality st) <= 4) by (destruct (s_quality st); cbn; lia).
    assert (D : d * quality_value (s_quality st) <= d * 4) by (apply N.mul_le_mono_l; auto).
    assert (d * quality_value (s_quality st) / 4 <= d) by (apply N.div_le_upper_bound; lia).
    unfold d in *; lia. }
  split; [intros ->; cbn [quality_value]; rewrite N.mul_0_r; cbn; lia|].
  split; [intros ->; cbn [quality_value]; rewrite N.div_mul by lia; unfold d; lia|].
  intros q r' l' K R' E'. rewrite (G _ _ _ R' E'). cbn [with_quality s_quality]. rewrite V. fold d.
  apply N.add_le_mono_l. apply N.div_le_mono; [lia|]. apply N.mul_le_mono_l.
  destruct (s_quality st), q; cbn in K |- *; lia.
Qed.
Print Assumptions C61_levels.

(** Search radius and effort also never shrink with quality; the effort is between the least and
    the greatest of the encoder (0 and 1 for the signed encoders). *)
Theorem C61_effort : forall pk bd st threads c im x y r,
  (0 <= bd_minEffort bd <= bd_defEffort bd)%Z -> (bd_defEffort bd <= bd_maxEffort bd <= 2 ^ 20)%Z ->
  jobRequest pk bd st threads c im x y = Some r ->
  (forall e, effort_of (r_call r) = Some e -> finite e = true /\
     match family_of match c with CvEtc f _ => f | _ => F_BC4 end with
     | Fam_Etc => IZR (bd_minEffort bd) <= real e <= IZR (bd_maxEffort bd)
     | _ => 0 <= real e <= 1
     end)%R /\
  forall q r', (rank (s_quality st) <= rank q)%nat ->
    jobRequest pk bd (with_quality q st) threads c im x y = Some r' ->
    (forall a b, radius_of (r_call r) = Some a -> radius_of (r_call r') = Some b -> a <= b <= 32) /\
    (radius_of (r_call r) <> None -> radius_of (r_call r') <> None) /\
    (forall a b, effort_of (r_call r) = Some a -> effort_of (r_call r') = Some b -> (real a <= real b)%R).
Proof.
  intros pk bd st th c im x y r H1 H2 R.
  assert (G : forall st r, jobRequest pk bd st th c im x y = Some r ->
     (radius_of (r_call r) = None /\ match c with CvBc3 | CvBc4 false | CvBc5 false => lowQuality (s_quality st) = true | _ => True end \/
      radius_of (r_call r) = Some (searchRadius (s_quality st)) /\ lowQuality (s_quality st) = false) /\
     (effort_of (r_call r) = None \/ effort_of (r_call r) = Some (match c with CvEtc _ _ => etcEffort bd st | _ => compQuality (s_quality st) end))).
  { clear. intros st r R.
    destruct c; cbn [jobRequest] in R;
      try (destruct (clamp_block im 4 4 x y) as [px|]; cbn [obind s3tcRequest] in R; discriminate R);
      try (destruct (clamp_block im 4 4 x y) as [px|]; cbn [obind] in R; [|discriminate R];
           unfold s3tcRequest in R; try (destruct signed);
           repeat match goal with
             | R : obind ?e _ = Some _ |- _ => destruct e; cbn [obind] in R; [|discriminate R]
             end; inversion R; subst r; cbn [r_call];
           repeat match goal with |- context [if ?b then _ else _] => destruct b eqn:? end;
           cbn [radius_of effort_of]; auto).
    - destruct (etc_block im x y); cbn [obind] in R; [|discriminate R]. unfold etcRequest in R.
      repeat match goal with
             | R : obind ?e _ = Some _ |- _ => destruct e; cbn [obind] in R; [|discriminate R]
             end. inversion R; subst r. cbn; auto.
    - destruct (clamp_block im bx by_ x y); cbn [obind] in R; [|discriminate R]. inversion R; subst r. cbn; auto.
    - destruct (pvrtcPixels im); cbn [obind] in R; [|discriminate R]. unfold pvrtcRequest in R.
      destruct (toColorBlock l); cbn [obind] in R; [|discriminate R].
      destruct f; try discriminate R; inversion R; subst r; cbn; auto. }
  assert (S : forall q q', (rank q <= rank q')%nat -> searchRadius q <= searchRadius q' <= 32).
  { intros q q'; destruct q, q'; cbn; lia. }
  destruct H2 as [H2 H3]. change (2 ^ 20)%Z with 1048576%Z in H3.
  assert (Bz : forall z, (0 <= z <= 2097152)%Z -> finite (float_of_Z z) = true /\ real (float_of_Z z) = IZR z).
  { intros z Hz. destruct (float_of_Z_ok z ltac:(lia)). auto. }
  assert (C : forall q, finite (compQuality q) = true /\ real (compQuality q) = (IZR (Z.of_N (quality_value q)) / 4)%R).
  { intros q. assert (Q : (0 <= Z.of_N (quality_value q) <= 4)%Z) by (destruct q; cbn; lia).
    destruct (Bz (Z.of_N (quality_value q)) ltac:(lia)) as [F1 R1]. destruct (Bz 4%Z ltac:(lia)) as [F2 R2].
    unfold compQuality. destruct (fdiv_ok _ _ F1 F2) as [F E].
    - rewrite R2. lra.
    - rewrite R1, R2. assert (0 <= IZR (Z.of_N (quality_value q)) <= 4)%R by (split; apply IZR_le; lia).
      rewrite Rabs_right by lra. change (IZR (2 ^ 24)) with 16777216%R. lra.
    - split; [exact F|]. rewrite E, R1, R2. unfold rnd32. apply round_generic; [typeclasses eauto|].
      apply generic_format_FLT. exists (Float radix2 (Z.of_N (quality_value q)) (-2)).
      + unfold F2R; cbn [Fnum Fexp]. change (bpow radix2 (-2)) with (/ 4)%R. reflexivity.
      + cbn. lia.
      + cbn. lia. }
  assert (Mid : forall a b, (0 <= a <= b)%Z -> (b <= 1048576)%Z ->
    finite (fdiv (fadd (float_of_Z a) (float_of_Z b)) (float_of_Z 2)) = true /\
    real (fdiv (fadd (float_of_Z a) (float_of_Z b)) (float_of_Z 2)) = ((IZR a + IZR b) / 2)%R).
  { intros a b Ha Hb. destruct (Bz a ltac:(lia)) as [F1 R1]. destruct (Bz b ltac:(lia)) as [F2 R2].
    destruct (Bz 2%Z ltac:(lia)) as [F3 R3].
    assert (I : (IZR a + IZR b = IZR (a + b))%R) by (symmetry; apply plus_IZR).
    assert (J : (0 <= IZR (a + b) <= 2097152)%R) by (split; apply IZR_le; lia).
    destruct (AdjustProofs.fadd_ok _ _ F1 F2) as [F4 R4].
    { rewrite R1, R2, I. rewrite Rabs_right by lra. change (IZR (2 ^ 24)) with 16777216%R. lra. }
    rewrite R1, R2, I, rnd32_int in R4 by lia.
    destruct (fdiv_ok _ _ F4 F3) as [F E].
    - rewrite R3. lra.
    - rewrite R4, R3. rewrite Rabs_right by lra. change (IZR (2 ^ 24)) with 16777216%R. lra.
    - split; [exact F|]. rewrite E, R4, R3, I. unfold rnd32. apply round_generic; [typeclasses eauto|].
      apply generic_format_FLT. exists (Float radix2 (a + b) (-1)).
      + unfold F2R; cbn [Fnum Fexp]. change (bpow radix2 (-1)) with (/ 2)%R. reflexivity.
      + cbn. lia.
      + cbn. lia. }
  assert (Ord : (IZR (bd_minEffort bd) <= IZR (bd_defEffort bd) <= IZR (bd_maxEffort bd))%R) by (split; apply IZR_le; lia).
  assert (Ef : forall st, finite (etcEffort bd st) = true /\
     real (etcEffort bd st) = match s_quality st with
       | CommandLineModel.Q_Lowest => IZR (bd_minEffort bd)
       | CommandLineModel.Q_Low => ((IZR (bd_minEffort bd) + IZR (bd_defEffort bd)) / 2)%R
       | CommandLineModel.Q_Normal => IZR (bd_defEffort bd)
       | CommandLineModel.Q_High => ((IZR (bd_defEffort bd) + IZR (bd_maxEffort bd)) / 2)%R
       | CommandLineModel.Q_Highest => IZR (bd_maxEffort bd) end).
  { intros s. unfold etcEffort. destruct (s_quality s); first [apply Bz; lia|apply Mid; lia]. }
  split.
  - intros e E. destruct (proj2 (G _ _ R)) as [X|X]; [congruence|]. rewrite E in X. inversion X; subst e; clear X.
    assert (D : (exists f t, c = CvEtc f t) \/ match c with CvEtc _ _ => etcEffort bd st | _ => compQuality (s_quality st) end
                = compQuality (s_quality st) /\ match c with CvEtc f _ => f | _ => F_BC4 end = F_BC4).
    { destruct c; eauto. }
    destruct D as [(f & t & ->)|[D1 D2]].
    + assert (Fam : family_of f = Fam_Etc).
      { cbn [jobRequest] in R. destruct (etc_block im x y); cbn [obind] in R; [|discriminate R].
        unfold etcRequest in R. destruct f; cbn [etcKind obind] in R; try discriminate R; reflexivity. }
      rewrite Fam. destruct (Ef st) as [F Rl]. split; [exact F|]. rewrite Rl. destruct (s_quality st); lra.
    + rewrite D1, D2. cbn [family_of]. destruct (C (s_quality st)) as [F Rl]. split; [exact F|]. rewrite Rl.
      destruct (s_quality st); cbn [quality_value Z.of_N]; lra.
  - intros q r' K R'. destruct (G _ _ R) as [A1 A2]. destruct (G _ _ R') as [B1 B2].
    cbn [with_quality s_quality] in B1, B2. split; [|split].
    + intros a b Ea Eb. destruct A1 as [[A1 _]|[A1 _]]; [congruence|]. destruct B1 as [[B1 _]|[B1 _]]; [congruence|].
      rewrite Ea in A1; rewrite Eb in B1. inversion A1; inversion B1; subst. apply S; exact K.
    + intros N. destruct A1 as [[A1 _]|[A1 L1]]; [congruence|].
      destruct B1 as [[B1 L2]|[B1 L2]]; [|congruence].
      assert (Lq : lowQuality q = false) by (destruct (s_quality st), q; cbn in K, L1 |- *; congruence || lia).
      exfalso. clear - R A1 L2 Lq.
      assert (D : match c with CvBc3 | CvBc4 false | CvBc5 false => True | _ => radius_of (r_call r) = None end).
      { destruct c; auto; cbn [jobRequest] in R;
        try (destruct (clamp_block im 4 4 x y) as [px|]; cbn [obind s3tcRequest] in R; discriminate R);
        try (destruct (clamp_block im 4 4 x y) as [px|]; cbn [obind] in R; [|discriminate R];
           unfold s3tcRequest in R; try (destruct signed); auto;
           repeat match goal with
             | R : obind ?e _ = Some _ |- _ => destruct e; cbn [obind] in R; [|discriminate R]
             end; inversion R; subst r; cbn [r_call];
           repeat match goal with |- context [if ?b then _ else _] => destruct b eqn:? end;
           reflexivity).
        - destruct (etc_block im x y); cbn [obind] in R; [|discriminate R]. unfold etcRequest in R.
          repeat match goal with
             | R : obind ?e _ = Some _ |- _ => destruct e; cbn [obind] in R; [|discriminate R]
             end. inversion R; subst r. reflexivity.
        - destruct (clamp_block im bx by_ x y); cbn [obind] in R; [|discriminate R]. inversion R; subst r. reflexivity.
        - destruct (pvrtcPixels im); cbn [obind] in R; [|discriminate R]. unfold pvrtcRequest in R.
          destruct (toColorBlock l); cbn [obind] in R; [|discriminate R].
          destruct f; try discriminate R; inversion R; subst r; reflexivity. }
      destruct c; try congruence; destruct signed; congruence.
    + intros a b Ea Eb. destruct A2 as [A2|A2]; [congruence|]. destruct B2 as [B2|B2]; [congruence|].
      rewrite Ea in A2; rewrite Eb in B2. inversion A2; inversion B2; subst; clear A2 B2.
      assert (CC : (real (compQuality (s_quality st)) <= real (compQuality q))%R).
      { rewrite !(proj2 (C _)). destruct (s_quality st), q; cbn in K |- *; lra || lia. }
      destruct c; try exact CC.
      rewrite !(proj2 (Ef _)). cbn [with_quality s_quality]. destruct (s_quality st), q; cbn in K |- *; lra || lia.
Qed.
Print Assumptions C61_effort.

(** The colour mask matters only to BC1 with alpha, to BC7 without ISPC and to ASTC; the alpha
    type only to ASTC and PVRTC; the colour space of the texture only to ETC1 and ETC2; that of
    the image only to BC1 with alpha, BC7 and ASTC. *)
Theorem C61_ignored : forall pk bd st threads fl f t c im x y,
  createConverter fl f t = Some c -> family_of f <> Fam_None ->
  (forall m, sees_mask (bd_ispc bd) f = false ->
    jobRequest pk bd (with_mask m st) threads c im x y = jobRequest pk bd st threads c im x y) /\
  (forall a, sees_alpha f = false ->
    jobRequest pk bd (with_alpha a st) threads c im x y = jobRequest pk bd st threads c im x y) /\
  (forall s, sees_texCS f = false ->
    jobRequest pk bd (with_texCS s st) threads c im x y = jobRequest pk bd st threads c im x y) /\
  (forall s, sees_imgCS f = false ->
    jobRequest pk bd (with_imgCS s st) threads c im x y = jobRequest pk bd st threads c im x y).
Proof.
  intros pk bd st th fl f t c im x y C Fam.
  assert (K : (exists t, c = CvEtc f t) \/ (exists t bx by_, c = CvAstc f t bx by_ /\ family_of f = Fam_Astc) \/
              c = CvPvrtc f \/ match c with CvBc1 => f = F_BC1_RGB | CvBc1A => f = F_BC1_RGBA | CvBc2 => f = F_BC2
                | CvBc3 => f = F_BC3 | CvBc4 _ => f = F_BC4 | CvBc5 _ => f = F_BC5 | CvBc6H _ => f = F_BC6H
                | CvBc7 => f = F_BC7 | _ => False end).
  { destruct f; try (exfalso; apply Fam; reflexivity); cbn [createConverter] in C;
    repeat match type of C with (if ?b then _ else _) = _ => destruct b; try discriminate C
                              | match ?b with _ => _ end = _ => destruct b; try discriminate C end;
    inversion C; subst c; cbn; eauto 10. }
  destruct K as [(t' & ->)|[(t' & bx & by_ & -> & Fa)|[->|K]]].
  - cbn [jobRequest]. repeat split; intros z Z; (destruct (etc_block im x y); cbn [obind]; [|reflexivity]);
      destruct f; try discriminate Z; try (exfalso; apply Fam; reflexivity); reflexivity.
  - cbn [jobRequest]. unfold sees_mask, sees_alpha, sees_imgCS. repeat split; intros z Z;
      (destruct (clamp_block im bx by_ x y); cbn [obind]; [|reflexivity]);
      try reflexivity; rewrite Fa in Z; destruct f; discriminate.
  - cbn [jobRequest]. repeat split; intros z Z; (destruct (pvrtcPixels im); cbn [obind]; [|reflexivity]);
      try reflexivity. unfold sees_alpha in Z.
    destruct f; try discriminate Z; try (exfalso; apply Fam; reflexivity); reflexivity.
  - destruct c; try contradiction K; subst f; cbn [jobRequest];
      (repeat split; intros z Z; try discriminate Z;
       (destruct (clamp_block im 4 4 x y) as [px|]; cbn [obind]; [|reflexivity])); try reflexivity.
    cbn in Z. apply negb_false_iff in Z. unfold s3tcRequest. rewrite Z. reflexivity.
Qed.
Print Assumptions C61_ignored.

(** Where the mask matters, a channel that is masked out has weight 0 or is read as 0, and the
    others keep a positive weight or are read as they are (alpha as 1 without alpha). *)
Theorem C61_masked : forall pk bd st threads c im x y r,
  jobRequest pk bd st threads c im x y = Some r ->
  let m := s_mask st in
  match r_call r with
  | E_Squish _ weights _ => Forall2 (fun (on : bool) v => finite v = true /\
      if on then (0 < real v <= 1)%R else real v = 0%R) [m_r m; m_g m; m_b m] weights
  | E_Bc7 params _ => b7_zeroed params = [negb (m_r m); negb (m_g m); negb (m_b m); negb (m_a m)]
  | E_Astc _ _ _ _ _ _ swizzle _ =>
      swizzle = [if m_r m then SwzR else Swz0; if m_g m then SwzG else Swz0; if m_b m then SwzB else Swz0;
                 match m_a m, s_alpha st with false, _ => Swz0 | true, AlphaNone => Swz1 | true, _ => SwzA end]
  | _ => True
  end.
Proof.
  intros pk bd st th c im x y r R m.
  assert (W : Forall2 (fun (on : bool) v => finite v = true /\
      if on then (0 < real v <= 1)%R else real v = 0%R) [m_r m; m_g m; m_b m] (bc1aWeights st)).
  { destruct (float_of_Z_ok 0 ltac:(lia)) as [R0 F0]. destruct (float_of_Z_ok 1 ltac:(lia)) as [R1 F1].
    assert (L : forall n, (0 < n <= 10000)%Z -> finite (flit n 10000) = true /\ (0 < real (flit n 10000) <= 1)%R).
    { intros n Hn. destruct (float_of_Z_ok n ltac:(lia)) as [Rn Fn]. destruct (float_of_Z_ok 10000 ltac:(lia)) as [Rd Fd].
      assert (B : (1 <= IZR n <= 10000)%R) by (split; apply IZR_le; lia).
      destruct (fdiv_ok _ _ Fn Fd) as [F E].
      - rewrite Rd. lra.
      - rewrite Rn, Rd. rewrite Rabs_right by lra. change (IZR (2 ^ 24)) with 16777216%R. lra.
      - split; [exact F|]. unfold flit. rewrite E, Rn, Rd. split.
        + assert (P : (bpow radix2 (-14) <= IZR n / 10000)%R) by (change (bpow radix2 (-14)) with (/ 16384)%R; lra).
          apply rnd32_le in P. rewrite AdjustProofs.rnd32_bpow in P by lia.
          eapply Rlt_le_trans; [|exact P]. apply bpow_gt_0.
        + assert (P : (IZR n / 10000 <= 1)%R) by lra. apply rnd32_le in P.
          rewrite (rnd32_int 1) in P by lia. exact P. }
    unfold bc1aWeights, m. repeat constructor;
      (match goal with |- context [if ?b then _ else _] => destruct b end);
      try (destruct (s_imgCS st)); rewrite ?R0, ?R1; auto; try (apply L; lia); try lra. }
  destruct c; cbn [jobRequest] in R;
    try (destruct (clamp_block im 4 4 x y) as [px|]; cbn [obind s3tcRequest] in R; discriminate R);
    try (destruct (clamp_block im 4 4 x y) as [px|]; cbn [obind] in R; [|discriminate R];
         unfold s3tcRequest in R; try (destruct signed);
         repeat match goal with
           | R : obind ?e _ = Some _ |- _ => destruct e; cbn [obind] in R; [|discriminate R]
           end; inversion R; subst r; cbn [r_call];
         repeat match goal with |- match (if ?b then _ else _) with _ => _ end => destruct b eqn:? end; auto).
  - unfold bc7Params. destruct (s_quality st); reflexivity.
  - destruct (etc_block im x y); cbn [obind] in R; [|discriminate R]. unfold etcRequest in R.
    repeat match goal with
           | R : obind ?e _ = Some _ |- _ => destruct e; cbn [obind] in R; [|discriminate R]
           end. inversion R; subst r. exact Logic.I.
  - destruct (clamp_block im bx by_ x y); cbn [obind] in R; [|discriminate R]. inversion R; subst r. cbn.
    fold m. destruct (m_a m), (s_alpha st); reflexivity.
  - destruct (pvrtcPixels im); cbn [obind] in R; [|discriminate R]. unfold pvrtcRequest in R.
    destruct (toColorBlock l); cbn [obind] in R; [|discriminate R].
    destruct f; try discriminate R; inversion R; subst r; exact Logic.I.
Qed.
Print Assumptions C61_masked.

(** The encoder matches the format and type of the texture: three-colour blocks are allowed in
    BC1 only and black stands for transparent in none but opaque BC1; the signed flag and the
    HDR profile follow the type; ETC formats and PVRTC formats are the texture's. *)
Theorem C61_mode : forall pk bd st threads fl f t c im x y r,
  createConverter fl f t = Some c -> family_of f <> Fam_None ->
  jobRequest pk bd st threads c im x y = Some r ->
  match r_call r with
  | E_Bc1 _ _ allow3 black3 =>
      (f = F_BC1_RGB \/ f = F_BC1_RGBA \/ f = F_BC2) /\
      (allow3 = true <-> f <> F_BC2) /\ (black3 = true <-> f = F_BC1_RGB)
  | E_Squish _ _ _ => f = F_BC1_RGBA
  | E_Bc3 _ _ | E_Bc3hq _ _ _ => f = F_BC3
  | E_Bc4 _ | E_Bc4hq _ _ => f = F_BC4 /\ t = T_UNorm
  | E_Bc4s _ _ => f = F_BC4 /\ t = T_SNorm
  | E_Bc5 _ | E_Bc5hq _ _ => f = F_BC5 /\ t = T_UNorm
  | E_Bc5s _ _ _ => f = F_BC5 /\ t = T_SNorm
  | E_Bc6ispc _ _ => f = F_BC6H /\ t = T_UFloat /\ bd_ispc bd = true
  | E_Bc6 _ sgn _ => f = F_BC6H /\ (sgn = true <-> t = T_Float) /\ (t = T_UFloat -> bd_ispc bd = false)
  | E_Bc7ispc _ perceptual _ => f = F_BC7 /\ bd_ispc bd = true /\ (perceptual = true <-> s_imgCS st = CS_sRGB)
  | E_Bc7 p _ => f = F_BC7 /\ bd_ispc bd = false /\ (b7_perceptual p = true -> s_imgCS st = CS_sRGB)
  | E_Etc e m _ _ _ _ => etc_name f t = Some e /\ (m = MetricNumeric <-> sees_texCS f = false) /\
      (m = MetricREC709 <-> sees_texCS f = true /\ s_texCS st = CS_sRGB) /\
      (m = MetricRGBA -> stores_alpha f = true)
  | E_Astc p bx by_ _ weighted perceptual _ _ =>
      layout_of f = Blocks bx by_ 16 true /\ (p = ProfileLDR <-> t = T_UNorm) /\
      (p = ProfileHDR <-> t = T_UFloat /\ (s_alpha st = AlphaStandard \/ s_alpha st = AlphaEncoded)) /\
      (weighted = true <-> s_alpha st = AlphaStandard \/ s_alpha st = AlphaPreMultiplied) /\
      (perceptual = true <-> s_imgCS st = CS_sRGB)
  | E_Pvrtc g q pre n w h _ => g = f /\ q = s_quality st /\ (pre = true <-> s_alpha st = AlphaPreMultiplied) /\
      n = threads /\ w = sf_w im /\ h = sf_h im
  end.
Proof.
  intros pk bd st th fl f t c im x y r C Fam R.
  destruct (family_of f) eqn:Fm; [| | | |congruence]; clear Fam.
  - assert (K : match c with CvBc1 => f = F_BC1_RGB | CvBc1A => f = F_BC1_RGBA | CvBc2 => f = F_BC2
                | CvBc3 => f = F_BC3 | CvBc4 s => f = F_BC4 /\ t = (if s then T_SNorm else T_UNorm)
                | CvBc5 s => f = F_BC5 /\ t = (if s then T_SNorm else T_UNorm)
                | CvBc6H s => f = F_BC6H /\ t = (if s then T_Float else T_UFloat)
                | CvBc7 => f = F_BC7 | _ => False end).
    { destruct f; try discriminate Fm; cbn [createConverter] in C; destruct (has_s3tc fl); try discriminate C;
      destruct t; try discriminate C; inversion C; auto. }
    clear C Fm. destruct c; try contradiction K; (lazymatch type of K with _ /\ _ => destruct K as [K ->] | _ => idtac end); subst f; cbn [jobRequest] in R;
      (destruct (clamp_block im 4 4 x y) as [px|]; cbn [obind] in R; [|discriminate R]); unfold s3tcRequest in R;
      try (destruct signed);
      repeat match type of R with obind ?e _ = Some _ => destruct e; cbn [obind] in R; [|discriminate R] end;
      inversion R; subst r; clear R; cbn [r_call];
      repeat match goal with |- match (if ?b then _ else _) with _ => _ end => destruct b eqn:? end.
    all: try (split; [reflexivity|reflexivity]); try reflexivity.
    + split; [auto|]. split; split; intros ?; try reflexivity; try discriminate; try congruence.
    + split; [auto|]. split; split; intros ?; try reflexivity; try discriminate; try congruence.
    + split; [auto|]. split; split; intros ?; try reflexivity; try discriminate; try congruence.
    + split; [reflexivity|]. rewrite andb_false_r in *. discriminate.
    + split; [reflexivity|]. split; [split; reflexivity|discriminate].
    + split; [reflexivity|]. split; [reflexivity|]. rewrite andb_true_r in *. auto.
    + split; [reflexivity|]. split; [split; discriminate|]. rewrite andb_true_r in *. auto.
    + split; [reflexivity|]. split; [auto|]. destruct (s_imgCS st); cbn; split; congruence.
    + split; [reflexivity|]. split; [auto|].
      unfold bc7Params. destruct (s_quality st), (s_imgCS st); cbn; congruence.
  - assert (K : c = CvEtc f t /\ exists e, etc_name f t = Some e).
    { destruct f; try discriminate Fm; cbn [createConverter] in C; destruct (has_etc fl); try discriminate C;
      destruct t; try discriminate C; inversion C; cbn; eauto. }
    clear C. destruct K as [-> (e & K)]. cbn [jobRequest] in R.
    destruct (etc_block im x y) as [px|]; cbn [obind] in R; [|discriminate R]. unfold etcRequest in R.
    destruct (etcKind st f t) as [[e' m]|] eqn:Ek; cbn [obind fst snd] in R; [|discriminate R].
    repeat match type of R with obind ?e _ = Some _ => destruct e; cbn [obind] in R; [|discriminate R] end.
    inversion R; subst r; clear R; cbn [r_call].
    destruct f; try discriminate Fm; destruct t; try discriminate K; cbn in Ek;
      destruct (s_texCS st); inversion Ek; subst; cbn;
      (split; [reflexivity|]; split; [split; congruence|]; split; [|congruence]; split; [|intros [? ?]]; try split; congruence).
  - assert (K : exists bx by_, c = CvAstc f t bx by_ /\ layout_of f = Blocks bx by_ 16 true /\ (t = T_UNorm \/ t = T_UFloat)).
    { destruct f; try discriminate Fm; cbn [createConverter] in C; destruct (has_astc fl); try discriminate C;
      destruct t; try discriminate C; inversion C; cbn; eauto 10. }
    clear C. destruct K as (bx & by_ & -> & Ly & T). cbn [jobRequest] in R.
    destruct (clamp_block im bx by_ x y) as [px|]; cbn [obind] in R; [|discriminate R].
    inversion R; subst r; clear R; cbn [r_call astcRequest].
    split; [exact Ly|]. clear - T.
    destruct T as [-> | ->]; destruct (s_alpha st), (s_imgCS st); cbn; intuition congruence.
  - assert (K : c = CvPvrtc f).
    { destruct f; try discriminate Fm; cbn [createConverter] in C; destruct (has_pvrtc fl); try discriminate C;
      destruct t; try discriminate C; inversion C; reflexivity. }
    clear C. subst c. cbn [jobRequest] in R.
    destruct (pvrtcPixels im) as [px|]; cbn [obind] in R; [|discriminate R]. unfold pvrtcRequest in R.
    destruct (toColorBlock px); cbn [obind] in R; [|discriminate R].
    assert (E : r = Request [] (E_Pvrtc f (s_quality st) (match s_alpha st with AlphaPreMultiplied => true | _ => false end)
                        th (sf_w im) (sf_h im) l)) by (destruct f; try discriminate Fm; congruence).
    subst r. clear. cbn. split; [reflexivity|]. split; [reflexivity|]. split; [|auto].
    destruct (s_alpha st); split; congruence.
Qed.
Print Assumptions C61_mode.

Example C61_case :
  (option_map (fun r => (level_of (r_call r),
       match r_call r with E_Squish _ w _ => map (fun v => fltb (float_of_Z 0) v) w | _ => [] end))
     (jobRequest ex_packers ex_build ex_settings 1 CvBc1A (img 5 3 ex_px) 0 0)
   = Some (None, [true; false; true])) /\
  (option_map (fun r => (level_of (r_call r), radius_of (r_call r)))
     (jobRequest ex_packers ex_build ex_settings 1 CvBc3 (img 5 3 ex_px) 0 0)
   = Some (Some 9, Some 5)) /\
  (bd_minLevel ex_build <= bd_maxLevel ex_build < 2 ^ 30) /\
  sees_mask (bd_ispc ex_build) F_BC7 = true /\ sees_mask (bd_ispc ex_build) F_BC3 = false /\
  createConverter (Flags true true true true) F_BC3 T_UNorm = Some CvBc3.
Proof.
  split; [vm_compute; reflexivity|]. split; [vm_compute; reflexivity|]. split; [cbn; lia|].
  repeat split.
Qed.

(** Reading and storing one pixel of Image::convert in binary64. *)

From Coq Require Import ZArith NArith List Bool Lia Reals Lra.
From Coq Require Import ZifyBool ZifyNat ZifyN.
From Flocq Require Import Core Relative IEEE754.BinarySingleNaN IEEE754.Binary IEEE754.Bits.
From Verif Require Import Base FormatModel FloatModel FloatSpec FloatProofs ArithModel ArithSpec
  DoubleProofs TextureModel ImageModel ImageLoops ImageSpec ImageStoreProofs ImageGrayProofs
  ImageOpsProofs ImageApiProofs ImageValueProofs PropsColor PropsSrgb SrgbSpec Srgb64 SrgbChannel
  SrgbMap PropsSrgb64 ImageConvertModel ImageConvertSpec.
Import ListNotations.
Local Open Scope R_scope.

Lemma clip_range x : 0 <= clip x <= 1.
Proof. unfold clip. split; [apply Rmax_l|]. apply Rmax_lub; [lra|apply Rmin_l]. Qed.
Lemma clip_lip x y : Rabs (clip x - clip y) <= Rabs (x - y).
Proof.
  unfold clip, Rmax, Rmin. apply Rabs_le.
  pose proof (Rle_abs (x - y)). pose proof (Rle_abs (- (x - y))). rewrite Rabs_Ropp in *.
  repeat destruct Rle_dec; lra.
Qed.
Lemma clip_id x : 0 <= x <= 1 -> clip x = x.
Proof. intros. unfold clip. rewrite Rmin_right, Rmax_right by lra. reflexivity. Qed.

Section Pixel.
Context (pw : double -> double -> double).
Local Notation D := (double_arith pw).

Lemma fromNorm_clip hi m (d : double) x t : (0 < m <= 65535)%Z -> (m <= hi)%Z ->
  dfinite d = true -> Rabs (dreal d - x) <= t ->
  exists v, @fromNorm D hi m d = Some v /\ (0 <= v <= m)%Z /\
    Rabs (IZR v - clip x * IZR m) <= / 2 + IZR m * t + / IZR (2 ^ 28).
Proof.
  intros Hm Hh F H.
  destruct (fromNorm_value pw hi m d Hm Hh F) as [E B]. fold (clip (dreal d)) in E, B.
  eexists. split; [exact E|]. split; [exact B|].
  set (c := clip (dreal d)) in *. pose proof (clip_range (dreal d)) as R1. fold c in R1.
  pose proof (clip_lip (dreal d) x) as L. fold c in L.
  assert (M : 1 <= IZR m <= 65535) by (split; apply IZR_le; lia).
  pose proof (nearest_half (rnd64 (c * IZR m))) as N.
  assert (P : 0 <= c * IZR m <= 65536).
  { split; [apply Rmult_le_pos; lra|]. apply Rle_trans with (1 * 65536); [|lra]. apply Rmult_le_compat; lra. }
  pose proof (rnd64_err (c * IZR m) 16%Z ltac:(lia)) as Q.
  assert (Q' : Rabs (rnd64 (c * IZR m) - c * IZR m) <= / IZR (2 ^ 28)).
  { eapply Rle_trans; [apply Q|].
    - rewrite Rabs_pos_eq by lra. change (bpow radix2 16) with 65536. lra.
    - change (/ IZR (2 ^ 28)) with (bpow radix2 (-28)). apply bpow_le; lia. }
  assert (S : Rabs (c * IZR m - clip x * IZR m) <= IZR m * t).
  { rewrite <- Rmult_minus_distr_r, Rabs_mult, (Rabs_pos_eq (IZR m)), Rmult_comm by lra.
    apply Rmult_le_compat_l; lra. }
  apply Rabs_le_inv in N, Q', S. apply Rabs_le. lra.
Qed.

(** A channel read from a pixel: exactly [x], or the double nearest to a fraction. *)
Definition reads (d : double) (x : R) : Prop :=
  dfinite d = true /\
  (dreal d = x \/ exists m v, maxima m /\ (0 <= v <= m)%Z /\ x = norm m v /\ d = @toNorm D m v).

Lemma reads_near d x : reads d x ->
  dfinite d = true /\ Rabs (dreal d - x) <= / IZR (2 ^ 53) * Rabs x /\
  Rabs (dreal d - x) <= / IZR (2 ^ 53) /\ Ztrunc (dreal d) = Ztrunc x.
Proof.
  change (IZR (2 ^ 53)) with 9007199254740992.
  intros [F [E|(m & v & M & V & -> & ->)]].
  - split; [exact F|]. rewrite E. replace (x - x) with 0 by ring. rewrite Rabs_R0.
    pose proof (Rabs_pos x). split; [|split]; [lra|lra|reflexivity].
  - split; [exact F|]. apply maxima_bound in M.
    destruct (toNorm_ok pw m v M V) as (_ & E & U & N).
    fold (norm m v) in *. pose proof (unit_frac v m ltac:(lia) V) as X. fold (norm m v) in X.
    change (IZR (2 ^ 53)) with 9007199254740992 in N.
    split; [|split; [exact N|]].
    + rewrite E. destruct (Z.eq_dec v 0) as [->|NZ].
      * assert (Z0 : norm m 0 = 0) by (unfold norm, Rdiv; ring). rewrite Z0. unfold rnd64. rewrite round_0 by apply valid_rnd_N.
        replace (0 - 0) with 0 by ring. rewrite Rabs_R0. lra.
      * change 9007199254740992 with (IZR (2 ^ 53)). apply rnd64_rel. rewrite Rabs_pos_eq by lra.
        apply Rle_trans with (/ 65535).
        -- apply Rle_trans with (bpow radix2 (-16)); [apply bpow_le; lia|]. change (bpow radix2 (-16)) with (/ 65536). lra.
        -- unfold norm. assert (1 <= IZR m <= 65535) by (split; apply IZR_le; lia).
           assert (1 <= IZR v) by (apply IZR_le; lia).
           apply Rle_trans with (1 * / IZR m).
           ++ rewrite Rmult_1_l. apply Rinv_le; lra.
           ++ apply Rmult_le_compat_r; [left; apply Rinv_0_lt_compat; lra|lra].
    + destruct (Z.eq_dec v m) as [->|NM].
      * assert (E1 : norm m m = 1) by (unfold norm; field; apply not_0_IZR; lia).
        rewrite E, E1. f_equal. apply rnd64_format.
        change 1 with (bpow radix2 0). apply generic_format_bpow. cbv. discriminate.
      * assert (norm m v <= 1 - / 65535).
        { unfold norm. assert (1 <= IZR m <= 65535) by (split; apply IZR_le; lia).
          assert (IZR v <= IZR m - 1) by (rewrite <- minus_IZR; apply IZR_le; lia).
          apply Rmult_le_reg_r with (IZR m); [lra|]. unfold Rdiv. rewrite Rmult_assoc, Rinv_l by lra.
          assert (IZR m * / 65535 <= 1) by lra. lra. }
        apply Rabs_le_inv in N.
        rewrite !Ztrunc_floor by lra. transitivity 0%Z; [|symmetry]; apply Zfloor_imp; change (IZR (0 + 1)) with 1; lra.
Qed.

Lemma reads_exact d x : dfinite d = true -> dreal d = x -> reads d x.
Proof. intros F E. split; auto. Qed.
Lemma reads_norm m v : maxima m -> (0 <= v <= m)%Z -> reads (@toNorm D m v) (norm m v).
Proof.
  intros M V. split; [apply (toNorm_ok pw m v); auto; apply maxima_bound, M|]. right. exists m, v. auto.
Qed.
Lemma reads_float v : finite v = true -> reads (dwiden v) (real v).
Proof. intros F. destruct (dwiden_ok v F). apply reads_exact; auto. Qed.
Lemma reads_int z : (Z.abs z <= 2 ^ 53)%Z -> reads (@lit D z) (IZR z).
Proof. intros H. destruct (lit_ok pw z H). apply reads_exact; auto. Qed.

Definition reads_color (c : color D) (k : rgba) : Prop :=
  reads (c_r c) (red k) /\ reads (c_g c) (green k) /\ reads (c_b c) (blue k) /\ reads (c_a c) (alpha k).

Lemma maxima_255 : maxima 255. Proof. cbn; auto. Qed.
Lemma maxima_65535 : maxima 65535. Proof. cbn; auto. Qed.
Lemma maxima_31 : maxima 31. Proof. cbn; auto. Qed.
Lemma maxima_63 : maxima 63. Proof. cbn; auto. Qed.

Lemma read_meaning f p : stored pw f p -> finite_pix pw p ->
  exists c, getPixelImpl f p = Some c /\ reads_color c (meaning pw f p).
Proof.
  intros S F. pose proof (reads_int 1 ltac:(simpl; lia)) as ONE. pose proof (reads_int 0 ltac:(simpl; lia)) as ZERO.
  destruct f; destruct p as [l|l|l]; destruct l as [|v1 [|v2 [|v3 [|v4 [|? ?]]]]]; try contradiction;
    cbn [stored] in S; unfold u8, u16, range in S; cbn [finite_pix] in F;
    repeat match goal with H : Forall _ (_ :: _) |- _ => inversion_clear H end;
    cbn [getPixelImpl meaning]; (eexists; split; [reflexivity|]); unfold reads_color, gray, gray_rgba;
    cbn [c_r c_g c_b c_a red green blue alpha widen double_arith];
    try (destruct (fields555 v1 ltac:(lia)) as (-> & -> & ->));
    try (destruct (fields565' v1 ltac:(lia)) as (-> & -> & ->));
    (split; [|split; [|split]]);
    first [exact ONE | exact ZERO | apply reads_float; assumption
      | apply reads_norm; [first [exact maxima_255|exact maxima_65535|exact maxima_31|exact maxima_63]|lia]
      | apply reads_int; simpl; lia | apply reads_exact; [assumption|reflexivity]].
Qed.

(** Storing one channel. *)
Lemma store_norm hi m d x : (0 < m <= 65535)%Z -> (m <= hi)%Z -> reads d x ->
  exists v, @fromNorm D hi m d = Some v /\ step_of m v x.
Proof.
  intros Hm Hh R. destruct (reads_near _ _ R) as (F & _ & N & _).
  destruct (fromNorm_clip hi m d x _ Hm Hh F N) as (v & E & B & Q). exists v. split; [exact E|].
  split; [exact B|]. assert (1 <= IZR m <= 65535) by (split; apply IZR_le; lia).
  change (IZR (2 ^ 53)) with 9007199254740992 in Q. change (IZR (2 ^ 28)) with 268435456 in Q.
  change (IZR (2 ^ 26)) with 67108864. lra.
Qed.

Lemma store_float d x : reads d x -> float_near (dnarrow d) x.
Proof.
  intros R B. destruct (reads_near _ _ R) as (F & _ & N & _).
  assert (P : 4 <= bpow radix2 127) by (change 4 with (bpow radix2 2); apply bpow_le; lia).
  change (IZR (2 ^ 53)) with 9007199254740992 in N.
  destruct (narrow_close d x (/ 9007199254740992) F ltac:(lra) N ltac:(lra)) as [F' N'].
  split; [exact F'|].
  assert (Q : bpow radix2 (-150) <= / 18014398509481984).
  { change (/ 18014398509481984) with (bpow radix2 (-54)). apply bpow_le; lia. }
  change (IZR (2 ^ 24)) with 16777216 in *. change (IZR (2 ^ 52)) with 4503599627370496. lra.
Qed.

Lemma store_double d x : reads d x -> double_near d x.
Proof. intros R. destruct (reads_near _ _ R) as (F & N & _). split; auto. Qed.

Lemma store_int lo hi d x : reads d x ->
  (lo <= Ztrunc x <= hi)%Z -> exists v, @toInt D lo hi d = Some v /\ whole lo hi v x.
Proof.
  intros R H. destruct (reads_near _ _ R) as (F & _ & _ & T). exists (Ztrunc x).
  unfold toInt. cbn [ntrunc double_arith]. rewrite (dtrunc_ok _ F), T. rewrite cast_int_ok by exact H.
  split; [reflexivity|]. split; [exact H|reflexivity].
Qed.
Lemma store_int_bad lo hi d x : reads d x -> ~ (lo <= Ztrunc x <= hi)%Z -> @toInt D lo hi d = None.
Proof.
  intros R H. destruct (reads_near _ _ R) as (F & _ & _ & T).
  unfold toInt. cbn [ntrunc double_arith]. rewrite (dtrunc_ok _ F), T. unfold cast_int.
  destruct (Z.leb_spec lo (Ztrunc x)), (Z.leb_spec (Ztrunc x) hi); try reflexivity. exfalso; apply H; lia.
Qed.

(** Storing a pixel. *)
Lemma store_color f c k : reads_color c k -> fits_format f (red k) ->
  exists q, setPixelNoGrayscaleImpl f c = Some q /\ stored pw f q /\ holds pw f q k.
Proof.
  intros (R & G & B & A) FT.
  assert (N8 : forall d x, reads d x -> exists v, @from8 D d = Some v /\ step_of 255 v x)
    by (intros; apply store_norm; auto; lia).
  assert (N16 : forall d x, reads d x -> exists v, @from16 D d = Some v /\ step_of 65535 v x)
    by (intros; apply store_norm; auto; lia).
  assert (N5 : forall d x, reads d x -> exists v, @from5 D d = Some v /\ step_of 31 v x)
    by (intros; apply store_norm; auto; lia).
  assert (N6 : forall d x, reads d x -> exists v, @from6 D d = Some v /\ step_of 63 v x)
    by (intros; apply store_norm; auto; lia).
  assert (SR : forall m v x, step_of m v x -> range 0 m v) by (intros m v x H; apply H).
  destruct f; cbn [setPixelNoGrayscaleImpl setCommon]; unfold fits_format in FT; cbn [limits] in FT;
    cbn [narrow double_arith].
  - destruct (N8 _ _ R) as (v & -> & H). cbn [oPZ1 obind]. eexists; split; [reflexivity|]. split; [exact (SR _ _ _ H)|exact H].
  - destruct (N16 _ _ R) as (v & -> & H). cbn [oPZ1 obind]. eexists; split; [reflexivity|]. split; [exact (SR _ _ _ H)|exact H].
  - destruct (N5 _ _ R) as (r & -> & Hr), (N5 _ _ G) as (g & -> & Hg), (N5 _ _ B) as (b & -> & Hb).
    cbn [oPack obind]. eexists; split; [reflexivity|].
    pose proof (pack555 r g b (proj1 Hr) (proj1 Hg) (proj1 Hb)) as PK. cbv zeta in PK.
    set (w := (Z.lor (Z.lor (Z.shiftl r 10) (Z.shiftl g 5)) b mod 2 ^ 16)%Z) in *.
    destruct PK as (P0 & P1 & P2 & P3). destruct (fields555 w ltac:(lia)) as (Q1 & Q2 & Q3).
    split; [cbn [stored]; unfold u16, range; lia|]. cbn [holds]. rewrite <- Q1, <- Q2, <- Q3, P1, P2, P3.
    split; [lia|]. auto.
  - destruct (N5 _ _ R) as (r & -> & Hr), (N6 _ _ G) as (g & -> & Hg), (N5 _ _ B) as (b & -> & Hb).
    cbn [oPack obind]. eexists; split; [reflexivity|].
    pose proof (pack565 r g b (proj1 Hr) (proj1 Hg) (proj1 Hb)) as PK. cbv zeta in PK.
    set (w := (Z.lor (Z.lor (Z.shiftl r 11) (Z.shiftl g 5)) b mod 2 ^ 16)%Z) in *.
    destruct PK as (P0 & P1 & P2 & P3). destruct (fields565' w ltac:(lia)) as (Q1 & Q2 & Q3).
    split; [cbn [stored]; unfold u16, range; lia|]. cbn [holds]. rewrite <- Q1, <- Q2, <- Q3, P1, P2, P3.
    split; [lia|]. auto.
  - destruct (N8 _ _ R) as (r & -> & Hr), (N8 _ _ G) as (g & -> & Hg), (N8 _ _ B) as (b & -> & Hb).
    cbn [oPZ3 obind]. eexists; split; [reflexivity|]. split; [cbn [stored]; unfold u8; eauto 10|cbn [holds]; auto].
  - destruct (N16 _ _ R) as (r & -> & Hr), (N16 _ _ G) as (g & -> & Hg), (N16 _ _ B) as (b & -> & Hb).
    cbn [oPZ3 obind]. eexists; split; [reflexivity|]. split; [cbn [stored]; unfold u16; eauto 10|cbn [holds]; auto].
  - eexists; split; [reflexivity|]. split; [exact I|]. cbn [holds]. auto using store_float.
  - destruct (N8 _ _ R) as (r & -> & Hr), (N8 _ _ G) as (g & -> & Hg), (N8 _ _ B) as (b & -> & Hb), (N8 _ _ A) as (a & -> & Ha).
    cbn [oPZ4 obind]. eexists; split; [reflexivity|]. split; [cbn [stored]; unfold u8; eauto 10|cbn [holds]; auto].
  - destruct (N16 _ _ R) as (r & -> & Hr), (N16 _ _ G) as (g & -> & Hg), (N16 _ _ B) as (b & -> & Hb), (N16 _ _ A) as (a & -> & Ha).
    cbn [oPZ4 obind]. eexists; split; [reflexivity|]. split; [cbn [stored]; unfold u16; eauto 10|cbn [holds]; auto].
  - eexists; split; [reflexivity|]. split; [exact I|]. cbn [holds]. auto using store_float.
  - destruct (store_int _ _ _ _ R FT) as (v & -> & H). cbn [oPZ1 obind]. eexists; split; [reflexivity|]. split; [exact (proj1 H)|exact H].
  - destruct (store_int _ _ _ _ R FT) as (v & -> & H). cbn [oPZ1 obind]. eexists; split; [reflexivity|]. split; [exact (proj1 H)|exact H].
  - destruct (store_int _ _ _ _ R FT) as (v & -> & H). cbn [oPZ1 obind]. eexists; split; [reflexivity|]. split; [exact (proj1 H)|exact H].
  - destruct (store_int _ _ _ _ R FT) as (v & -> & H). cbn [oPZ1 obind]. eexists; split; [reflexivity|]. split; [exact (proj1 H)|exact H].
  - eexists; split; [reflexivity|]. split; [exact I|]. cbn [holds]. auto using store_float.
  - eexists; split; [reflexivity|]. split; [exact I|]. cbn [holds]. auto using store_double.
  - eexists; split; [reflexivity|]. split; [exact I|]. cbn [holds]. auto using store_double.
Qed.

Lemma store_color_bad f c k : reads_color c k -> ~ fits_format f (red k) -> setPixelNoGrayscaleImpl f c = None.
Proof.
  intros (R & _) NF. unfold fits_format in NF.
  destruct f; cbn [limits] in NF; try (exfalso; apply NF; exact I);
    cbn [setPixelNoGrayscaleImpl setCommon]; rewrite (store_int_bad _ _ _ _ R NF); reflexivity.
Qed.

(** The luminance of channels of any size. *)
Lemma toGrayscale_any (r g b : double) M : dfinite r = true -> dfinite g = true -> dfinite b = true ->
  M <= bpow radix2 800 -> Rabs (dreal r) <= M -> Rabs (dreal g) <= M -> Rabs (dreal b) <= M ->
  dfinite (@toGrayscale D r g b) = true /\
  Rabs (dreal (@toGrayscale D r g b) - luminance (dreal r) (dreal g) (dreal b)) <= / IZR (2 ^ 51) * M + bpow radix2 (-1070).
Proof.
  intros Fr Fg Fb HM Br Bg Bb. unfold toGrayscale. cbn [nadd nmul double_arith].
  destruct (w1 pw) as [F1 E1], (w2 pw) as [F2 E2], (w3 pw) as [F3 E3].
  destruct Wvals as (V1 & V2 & V3 & _).
  assert (M0 : 0 <= M) by (pose proof (Rabs_pos (dreal r)); lra).
  assert (ET : eta <= / 16 * bpow radix2 (-1070)).
  { unfold eta. change (/ 16) with (bpow radix2 (-4)). rewrite <- bpow_plus. apply bpow_le; lia. }
  assert (E0 : 0 < bpow radix2 (-1070) <= 1).
  { split; [apply bpow_gt_0|]. change 1 with (bpow radix2 0). apply bpow_le; lia. }
  assert (BIG : 4 * (bpow radix2 800 + 1) <= bpow radix2 900).
  { assert (1 <= bpow radix2 800) by (change 1 with (bpow radix2 0); apply bpow_le; lia).
    apply Rle_trans with (8 * bpow radix2 800); [lra|]. change 8 with (bpow radix2 3). rewrite <- bpow_plus. apply bpow_le; lia. }
  set (T := bpow radix2 (-1070)) in *. set (H := bpow radix2 800) in *. set (L := bpow radix2 900) in *. clearbody T H.
  assert (S : forall x k, Rabs x <= k -> k <= 4 * (H + 1) -> Rabs x <= L /\ Rabs (rnd64 x - x) <= / 9007199254740992 * k + / 16 * T).
  { intros x k Hk K. split; [lra|]. pose proof (rnd64_any x) as N. change (IZR (2 ^ 53)) with 9007199254740992 in N. lra. }
  assert (Sm : forall x w, Rabs x <= M -> 0 < w < 1 -> Rabs (x * w) <= M * w).
  { intros x w Hx Hw. rewrite Rabs_mult, (Rabs_pos_eq w) by lra. apply Rmult_le_compat_r; lra. }
  assert (Sw : forall w, 0 < w < 1 -> M * w <= 4 * (H + 1)).
  { intros w Hw. apply Rle_trans with (M * 1); [apply Rmult_le_compat_l; lra|lra]. }
  destruct (S _ _ (Sm (dreal r) W1 Br ltac:(lra)) (Sw W1 ltac:(lra))) as [O1 e1].
  destruct (S _ _ (Sm (dreal g) W2 Bg ltac:(lra)) (Sw W2 ltac:(lra))) as [O2 e2].
  destruct (S _ _ (Sm (dreal b) W3 Bb ltac:(lra)) (Sw W3 ltac:(lra))) as [O3 e3].
  destruct (dmul_ok r (@dec D 2126 4) Fr F1 ltac:(rewrite E1; exact O1)) as [Fp1 P1].
  destruct (dmul_ok g (@dec D 7152 4) Fg F2 ltac:(rewrite E2; exact O2)) as [Fp2 P2].
  destruct (dmul_ok b (@dec D 722 4) Fb F3 ltac:(rewrite E3; exact O3)) as [Fp3 P3].
  rewrite E1 in P1. rewrite E2 in P2. rewrite E3 in P3. rewrite <- P1 in e1. rewrite <- P2 in e2. rewrite <- P3 in e3.
  set (p1 := b64_mult mode_NE r _) in *. set (p2 := b64_mult mode_NE g _) in *.
  set (p3 := b64_mult mode_NE b _) in *. clearbody p1 p2 p3.
  clear P1 P2 P3 O1 O2 O3. unfold W1, W2, W3 in *.
  change (IZR (2 ^ 55)) with 36028797018963968 in *. change (IZR (2 ^ 53)) with 9007199254740992 in *.
  change (IZR (2 ^ 56)) with 72057594037927936 in *. change (IZR (2 ^ 51)) with 2251799813685248 in *.
  apply Rabs_le_inv in e1, e2, e3, Br, Bg, Bb.
  destruct (S (dreal p1 + dreal p2) (0.93 * M + T)) as [O4 e4]; [apply Rabs_le; lra|lra|].
  destruct (dadd_ok p1 p2 Fp1 Fp2 O4) as [Fs Es]. rewrite <- Es in e4.
  set (s := b64_plus mode_NE p1 p2) in *. clearbody s. apply Rabs_le_inv in e4.
  destruct (S (dreal s + dreal p3) (1.01 * M + T)) as [O5 e5]; [apply Rabs_le; lra|lra|].
  destruct (dadd_ok s p3 Fs Fp3 O5) as [Ft Et]. split; [exact Ft|]. rewrite Et.
  apply Rabs_le_inv in e5. unfold luminance. apply Rabs_le. lra.
Qed.

End Pixel.

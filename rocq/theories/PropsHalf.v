(** C65: half floats on hardware that converts them. *)

From Coq Require Import NArith ZArith Reals List Bool Lia Lra.
From Coq Require Import ZifyBool ZifyNat ZifyN.
From Flocq Require Import Core IEEE754.BinarySingleNaN IEEE754.Binary IEEE754.Bits.
From Verif Require Import Base FormatModel FloatModel FloatSpec FloatProofs PixelModel ConverterModel
  ConverterSpec TilingProofs PropsConvert HalfModel HalfSpec HalfProofs.
Import ListNotations.
Ltac Zify.zify_post_hook ::= Z.div_mod_to_equations.
Local Open Scope N_scope.

(** The formats that store half floats. *)
Theorem C65_formats : forall fl f t n,
  createConverter fl f t = Some (CvHalf n) <-> t = T_Float /\ half_channels f = Some n.
Proof.
  intros fl f t n. destruct fl as [a b c d].
  split.
  - destruct f, t; cbn; intros H; try discriminate H;
      try (inversion H; subst; split; reflexivity);
      destruct a, b, c, d; cbn in H; discriminate H.
  - intros [-> H]. destruct f; try discriminate H; inversion H; reflexivity.
Qed.
Print Assumptions C65_formats.

(** With hardware support the four functions store, for 1 to 4 channels, what the loop with the
    conversion of one number stores. *)
Theorem C65_lanes : forall pk n p, 1 <= n <= 4 ->
  half_px true pk n p = enc_px (hardware_packers pk) (CvHalf n) p /\
  N.of_nat (length (hardware_px n p)) = 2 * n /\
  forall k v, k < n -> nth_error [pr p; pg p; pb p; pa p] (N.to_nat k) = Some v ->
  word16 (hardware_px n p) k = cvt v.
Proof.
  intros pk n p H.
  destruct (cvtps_lanes p) as (P1 & P2 & P3 & P4). cbn [nth] in *.
  destruct p as [R G B A]. cbn [pr pg pb pa] in *.
  pose proof (proj2 (proj2 (cvt_ok R))) as LR. pose proof (proj2 (proj2 (cvt_ok G))) as LG.
  pose proof (proj2 (proj2 (cvt_ok B))) as LB. pose proof (proj2 (proj2 (cvt_ok A))) as LA.
  assert (IB : forall v, cvt v < 65536 -> int_bytes 2 (Z.of_N (cvt v)) = le_bytes 2 (cvt v)).
  { intros v L. unfold int_bytes. f_equal. change (2 ^ (8 * Z.of_nat 2))%Z with 65536%Z.
    rewrite Z.mod_small by lia. apply N2Z.id. }
  assert (W : forall v, cvt v < 65536 -> cvt v mod 256 + 256 * (cvt v / 256 mod 256) = cvt v) by (intros; lia).
  assert (C : n = 1 \/ n = 2 \/ n = 3 \/ n = 4) by lia.
  unfold half_px, enc_px, hardware_px, hardware_packers. cbn [pack_half].
  destruct C as [-> | [-> | [-> | ->]]]; cbn [N.eqb Pos.eqb];
    unfold channels; change (N.to_nat 1) with 1%nat; change (N.to_nat 2) with 2%nat;
    change (N.to_nat 3) with 3%nat; change (N.to_nat 4) with 4%nat;
    cbn [firstn map concat pr pg pb pa];
    rewrite ?P1, ?P2, ?P3, ?P4, ?IB by assumption; cbn [app];
    (split; [reflexivity|split; [reflexivity|]]); intros k v K E.
  - assert (k = 0) by lia. subst k. cbn in E. inversion E; subst. unfold word16. cbn. apply W; auto.
  - assert (C : k = 0 \/ k = 1) by lia.
    destruct C as [->| ->]; cbn in E; inversion E; subst; unfold word16; cbn; apply W; auto.
  - assert (C : k = 0 \/ k = 1 \/ k = 2) by lia.
    destruct C as [->|[->| ->]]; cbn in E; inversion E; subst; unfold word16; cbn; apply W; auto.
  - assert (C : k = 0 \/ k = 1 \/ k = 2 \/ k = 3) by lia.
    destruct C as [->|[->|[->| ->]]]; cbn in E; inversion E; subst; unfold word16; cbn; apply W; auto.
Qed.
Print Assumptions C65_lanes.

Lemma nth_firstn_skipn : forall (l : list N) (a n i : nat) d, (i < n)%nat ->
  nth i (firstn n (skipn a l)) d = nth (a + i) l d.
Proof.
  intros l a n i d H.
  transitivity (nth i (skipn a l) d).
  - generalize (skipn a l) as m. clear a l. revert i H. induction n; intros i H m; [lia|].
    destruct m; [destruct i; reflexivity|]. destruct i; [reflexivity|]. cbn. apply IHn. lia.
  - revert l. induction a; intros l; [reflexivity|]. destruct l; [destruct i; reflexivity|]. cbn. apply IHa.
Qed.

(** Any number of threads in any order leave, for every pixel and channel, the number that should
    be stored, with the sign of the value; nothing outside the buffer is touched. *)
Theorem C65_surface : forall pk f n w h (px : N -> N -> rgba) buf threads m,
  half_channels f = Some n ->
  0 < w -> 0 < h -> w * h + 31 < 2 ^ 32 -> w * h * n <= 2 ^ 32 ->
  N.of_nat (length buf) = 2 * n * (w * h) ->
  (0 < threads)%nat -> std_jobsX w h + N.of_nat threads < 2 ^ 32 ->
  let process := std_process (half_px true pk n) 2 n (img w h px) in
  let jobs := Nrange (std_jobsX w h) in
  reach process jobs buf threads m ->
  ~ mbad process jobs m /\ ~ mrace m /\
  (mfinal m ->
   N.of_nat (length (m_buf m)) = 2 * n * (w * h) /\
   forall row col k v, row < h -> col < w -> k < n ->
   nth_error [pr (px row col); pg (px row col); pb (px row col); pa (px row col)] (N.to_nat k) = Some v ->
   half_value (word16 (m_buf m) ((row * w + col) * n + k)) = half_expected v /\
   ((32768 <=? word16 (m_buf m) ((row * w + col) * n + k)) = negative v)).
Proof.
  intros pk f n w h px buf threads m Hf Hw Hh B1 B2 Lb T B3 process jobs R.
  assert (Hn : 1 <= n <= 4) by (destruct f; cbn in Hf; inversion Hf; lia).
  assert (EO : enc_ok (half_px true pk n) 2 n w h px (hardware_px n)).
  { intros r c _ _. split; [reflexivity|]. apply (C65_lanes pk n (px r c) Hn). }
  assert (LD : N.of_nat (length buf) = std_data_size 2 n w h).
  { unfold std_data_size, u32. rewrite N.mod_small by lia. lia. }
  destruct (C17_any_schedule rgba (half_px true pk n) 2 n w h px (hardware_px n) buf threads m
    Hw Hh B1 B2 EO LD T B3 R) as (NB & NR & F).
  split; [exact NB|]. split; [exact NR|]. intros Fin. rewrite (F Fin).
  split.
  - pose proof (std_data_length (half_px true pk n) 2 n w h px (hardware_px n) Hw Hh B1 B2 EO) as L.
    rewrite <- LD, Lb in L. exact L.
  - intros row col k v Hr Hc Hk Ev.
    pose proof (C17_pixel_position rgba (half_px true pk n) 2 n w h px (hardware_px n) row col
      Hw Hh B1 B2 EO Hr Hc) as P.
    destruct (C65_lanes pk n (px row col) Hn) as (_ & _ & Wd).
    specialize (Wd k v Hk Ev).
    assert (E : word16 (std_data w h px (hardware_px n)) ((row * w + col) * n + k) = cvt v).
    { rewrite <- Wd, <- P. unfold word16.
      rewrite !nth_firstn_skipn by lia.
      f_equal; [f_equal; lia|f_equal; f_equal; lia]. }
    rewrite E. destruct (cvt_ok v) as (V & S & _). auto.
Qed.
Print Assumptions C65_surface.

(** * What [rnd16] is *)

Local Open Scope R_scope.

Lemma half_number_format w y : half_value w = HNumber y ->
  generic_format radix2 (FLT_exp (-24) 11) y /\ Rabs y <= 65504.
Proof.
  unfold half_value. set (s := if (32768 <=? w)%N then -1 else 1).
  assert (Hs : s = -1 \/ s = 1) by (unfold s; destruct (32768 <=? w)%N; auto).
  assert (Hf : (w mod 1024 < 1024)%N) by (apply N.mod_lt; lia).
  assert (He : ((w / 1024) mod 32 < 32)%N) by (apply N.mod_lt; lia).
  set (fr := (w mod 1024)%N) in *. set (ex := ((w / 1024) mod 32)%N) in *. clearbody s fr ex.
  destruct (N.eqb_spec ex 31) as [->|N31]; [destruct (fr =? 0)%N; discriminate|].
  assert (Fr : 0 <= IZR (Z.of_N fr) <= 1023) by (split; apply IZR_le; lia).
  destruct (N.eqb_spec ex 0) as [->|N0]; intros E; inversion E; subst y; clear E.
  - split.
    + replace (s * (IZR (Z.of_N fr) * / 16777216))
        with (IZR ((if Rle_dec 0 s then 1 else -1) * Z.of_N fr) * bpow radix2 (-24)).
      * apply format16; [|lia]. destruct (Rle_dec 0 s); lia.
      * rewrite mult_IZR. replace (bpow radix2 (-24)) with (/ 16777216) by (cbn; lra).
        destruct Hs as [->| ->]; destruct (Rle_dec 0 _); cbn; lra.
    + rewrite Rabs_mult, (Rabs_pos_eq (_ * _)) by (apply Rmult_le_pos; lra).
      replace (Rabs s) with 1 by (destruct Hs as [->| ->]; [rewrite Rabs_left|rewrite Rabs_right]; lra).
      lra.
  - assert (G : 0 < bpow radix2 (Z.of_N ex - 25)) by apply bpow_gt_0.
    split.
    + replace (s * ((1024 + IZR (Z.of_N fr)) * bpow radix2 (Z.of_N ex - 25)))
        with (IZR ((if Rle_dec 0 s then 1 else -1) * (1024 + Z.of_N fr)) * bpow radix2 (Z.of_N ex - 25)).
      * apply format16; [|lia]. destruct (Rle_dec 0 s); lia.
      * rewrite mult_IZR, plus_IZR.
        destruct Hs as [->| ->]; destruct (Rle_dec 0 _); cbn; lra.
    + rewrite Rabs_mult, (Rabs_pos_eq (_ * _)) by (apply Rmult_le_pos; lra).
      replace (Rabs s) with 1 by (destruct Hs as [->| ->]; [rewrite Rabs_left|rewrite Rabs_right]; lra).
      rewrite Rmult_1_l.
      apply Rle_trans with (2047 * bpow radix2 5); [|cbn; lra].
      apply Rmult_le_compat; try lra. apply bpow_le. lia.
Qed.

Lemma rnd16_word x : Rabs x < 65520 -> exists w, (w < 65536)%N /\ half_value w = HNumber (rnd16 x).
Proof.
  intros H. pose proof (rnd16_below x H) as B.
  assert (F : generic_format radix2 (FLT_exp (-24) 11) (rnd16 x))
    by (apply generic_format_round; typeclasses eauto).
  set (y := rnd16 x) in *. clearbody y.
  pose proof F as F'. apply FLT_format_generic in F'; [|reflexivity].
  destruct F' as [[m e] E M X]. cbn [Fnum Fexp] in *.
  pose proof (binary_normalize_correct 11 16 eq_refl eq_refl mode_NE m e false) as C.
  rewrite fexp16 in C. cbn [round_mode] in C. rewrite <- E in C.
  rewrite round_generic in C; [|typeclasses eauto|exact F].
  rewrite Rlt_bool_true in C by (change (bpow radix2 16) with 65536; lra).
  destruct C as (C1 & C2 & _).
  destruct (half_bits_value _ C2) as (V & _ & L).
  exists (half_bits (binary_normalize 11 16 eq_refl eq_refl mode_NE m e false)).
  split; [exact L|]. rewrite V. unfold hreal. rewrite C1. reflexivity.
Qed.

(** It is a half float, and none is nearer; half floats are stored exactly; the greatest is 65504,
    and numbers from 65520 on are infinite. *)
Theorem C65_nearest : forall v, finite v = true -> Rabs (real v) < 65520 ->
  exists w x, (w < 65536)%N /\ half_value w = HNumber x /\ half_expected v = HNumber x /\
  Rabs x <= 65504 /\
  (forall w' y, half_value w' = HNumber y -> Rabs (x - real v) <= Rabs (y - real v)).
Proof.
  intros v F H. destruct (rnd16_word (real v) H) as (w & Lw & V).
  exists w, (rnd16 (real v)). split; [exact Lw|]. split; [exact V|]. split.
  - destruct v as [s|s|s pl B|s m e B]; try discriminate F; unfold half_expected;
      rewrite Rle_bool_false by exact H; reflexivity.
  - split; [apply rnd16_below; exact H|].
    intros w' y Hy. destruct (half_number_format w' y Hy) as [Fy _].
    destruct (round_N_pt radix2 (FLT_exp (-24) 11) (fun x => negb (Z.even x)) (real v)) as [_ Q].
    apply Q. exact Fy.
Qed.
Print Assumptions C65_nearest.

Theorem C65_exact : forall w v y, half_value w = HNumber y -> finite v = true -> real v = y ->
  half_expected v = HNumber y.
Proof.
  intros w v y Hw F E. destruct (half_number_format w y Hw) as [Fy By]. rewrite <- E in Fy, By.
  destruct v as [s|s|s pl B|s m e B]; try discriminate F; unfold half_expected;
    rewrite Rle_bool_false by lra; rewrite <- E; f_equal; apply round_generic; auto; typeclasses eauto.
Qed.
Print Assumptions C65_exact.

(** A tie goes to the half float whose last bit is 0. *)
Theorem C65_ties_even : forall v w' y, finite v = true -> Rabs (real v) < 65520 ->
  half_value w' = HNumber y -> HNumber y <> half_expected v ->
  (forall x, half_expected v = HNumber x -> Rabs (y - real v) = Rabs (x - real v)) ->
  (cvt v mod 2 = 0)%N.
Proof.
  intros v w' y F H Hy Ne Eq.
  assert (He : half_expected v = HNumber (rnd16 (real v))).
  { destruct v as [s|s|s pl B|s m e B]; try discriminate F; unfold half_expected;
      rewrite Rle_bool_false by exact H; reflexivity. }
  specialize (Eq _ He). rewrite He in Ne.
  destruct (cvt_ok v) as (V & _ & L). rewrite He in V.
  destruct (half_number_format w' y Hy) as [Fy _].
  assert (XN : Exists_NE radix2 (FLT_exp (-24) 11)) by (apply exists_NE_FLT; right; reflexivity).
  pose proof (round_NE_pt radix2 (FLT_exp (-24) 11) (real v)) as [NP [(g & Cg & Eg & Hg)|U]].
  - change (rnd16 (real v) = F2R g) in Cg.
    (* the canonical representation of the result is even *)
    assert (Dec : exists s a b, cvt v = (sign_bit s + (a * 1024 + b))%N /\ (a < 32)%N /\ (b < 1024)%N).
    { exists (32768 <=? cvt v)%N, ((cvt v / 1024) mod 32)%N, (cvt v mod 1024)%N.
      split; [|split; apply N.mod_lt; lia].
      destruct (N.leb_spec 32768 (cvt v)); cbn [sign_bit]; lia. }
    destruct Dec as (s & a & b & Ec & La & Lb).
    rewrite Ec in V |- *. rewrite half_value_split in V by auto. cbv zeta in V.
    destruct (N.eqb_spec a 31); [destruct (b =? 0)%N; discriminate V|].
    assert (Ev : Z.even (Fnum g) = true) by exact Hg.
    assert (X : exists M E, (Z.abs M = Z.of_N (if (a =? 0)%N then b else 1024 + b))%Z /\
              rnd16 (real v) = F2R (Float radix2 M E) /\
              (M <> 0%Z -> canonical radix2 (FLT_exp (-24) 11) (Float radix2 M E))).
    { destruct (N.eqb_spec a 0) as [->|A0]; inversion V as [V']; clear V.
      - exists ((if s then -1 else 1) * Z.of_N b)%Z, (-24)%Z. split; [destruct s; lia|]. split.
        + unfold F2R. cbn [Fnum Fexp]. rewrite mult_IZR.
          replace (bpow radix2 (-24)) with (/ 16777216) by (cbn; lra). destruct s; cbn; lra.
        + intros M0. unfold canonical. cbn [Fexp]. unfold cexp, FLT_exp.
          rewrite mag_F2R_Zdigits by exact M0. cbn [Fnum Fexp] in *.
          assert (Dg : (Digits.Zdigits radix2 ((if s then -1 else 1) * Z.of_N b) <= 10)%Z).
          { apply Digits.Zdigits_le_Zpower. change (Zpower radix2 10) with 1024%Z. destruct s; lia. }
          lia.
      - exists ((if s then -1 else 1) * (1024 + Z.of_N b))%Z, (Z.of_N a - 25)%Z. split; [destruct s; lia|]. split.
        + unfold F2R. cbn [Fnum Fexp]. rewrite mult_IZR, plus_IZR. destruct s; cbn; lra.
        + intros M0. unfold canonical. cbn [Fexp]. unfold cexp, FLT_exp.
          rewrite mag_F2R_Zdigits by exact M0. cbn [Fnum Fexp] in *.
          assert (Dg : (Digits.Zdigits radix2 ((if s then -1 else 1) * (1024 + Z.of_N b)) = 11)%Z).
          { apply Digits.Zdigits_unique. change (Zpower radix2 (11 - 1)) with 1024%Z.
            change (Zpower radix2 11) with 2048%Z. destruct s; lia. }
          lia. }
    destruct X as (M & E & Ab & Er & Can).
    assert (Me : Z.even M = true).
    { destruct (Z.eq_dec M 0) as [->|M0]; [reflexivity|].
      assert (G : g = Float radix2 M E).
      { apply (canonical_unique radix2 (FLT_exp (-24) 11)); [exact Eg|apply Can; exact M0|].
        rewrite <- Er. symmetry. exact Cg. }
      rewrite G in Ev. exact Ev. }
    assert (P2 : (b mod 2 = 0)%N).
    { rewrite Zeven_mod in Me. apply Zeq_bool_eq in Me.
      destruct (a =? 0)%N; lia. }
    destruct s; cbn [sign_bit]; lia.
  - exfalso. apply Ne. f_equal. apply U.
    destruct NP as [Fr Q]. split; [exact Fy|]. intros z Fz. rewrite Eq. apply Q. exact Fz.
Qed.
Print Assumptions C65_ties_even.

(** Its distance is at most 2^-11 of the value, or 2^-25. *)
Theorem C65_error : forall x, Rabs (rnd16 x - x) <= Rmax (Rabs x / 2048) (/ 33554432).
Proof.
  intros x.
  pose proof (error_le_half_ulp radix2 (FLT_exp (-24) 11) (fun x => negb (Z.even x)) x) as U.
  fold (rnd16 x) in U. eapply Rle_trans; [exact U|].
  destruct (Rle_lt_dec (bpow radix2 (-14)) (Rabs x)) as [L|L].
  - eapply Rle_trans; [|apply Rmax_l].
    pose proof (ulp_FLT_le radix2 (-24) 11 x) as Q. specialize (Q L). change (bpow radix2 (1 - 11)) with (/ 1024) in Q. lra.
  - eapply Rle_trans; [|apply Rmax_r].
    assert (P : Prec_gt_0 11) by reflexivity.
    rewrite (ulp_FLT_small radix2 (-24) 11) by (eapply Rlt_le_trans; [exact L|apply bpow_le; lia]).
    cbn. lra.
Qed.
Print Assumptions C65_error.

(** Greater values are not stored as smaller ones, and -v is stored as the opposite of v. *)
Theorem C65_monotone : forall v1 v2, fle v1 v2 -> hle (half_expected v1) (half_expected v2).
Proof.
  intros v1 v2 H.
  assert (Cases : forall v, match half_expected v with
     | HNaN => nan v = true
     | HInfinity s => (v = B754_infinity 24 128 s) \/ (finite v = true /\ 65520 <= Rabs (real v) /\
           (if s then real v < 0 else 0 < real v))
     | HNumber x => finite v = true /\ Rabs (real v) < 65520 /\ x = rnd16 (real v) end).
  { intros v. destruct v as [s|s|s pl B|s m e B].
    - cbn. unfold real, B2R. rewrite Rabs_R0. rewrite Rle_bool_false by lra. repeat split; lra.
    - cbn. left. reflexivity.
    - reflexivity.
    - set (v := B754_finite 24 128 s m e B).
      assert (He : half_expected v = if Rle_bool 65520 (Rabs (real v)) then HInfinity s else HNumber (rnd16 (real v))) by reflexivity.
      rewrite He. destruct (Rle_bool_spec 65520 (Rabs (real v))) as [Q|Q].
      + right. split; [reflexivity|]. split; [exact Q|].
        unfold real, v, B2R. destruct s; [apply F2R_lt_0|apply F2R_gt_0]; reflexivity.
      + split; [reflexivity|]. split; [exact Q|reflexivity]. }
  assert (Fin : finite v1 = true -> finite v2 = true -> real v1 <= real v2).
  { intros F1 F2. unfold fle, b32_compare in H.
    rewrite Bcompare_correct in H by auto.
    fold (real v1) in H. fold (real v2) in H.
    destruct (Rcompare_spec (real v1) (real v2)); [lra|lra|contradiction]. }
  pose proof (Cases v1) as C1. pose proof (Cases v2) as C2.
  assert (N1 : nan v1 = false) by (destruct v1; try reflexivity; destruct v2; contradiction).
  assert (N2 : nan v2 = false) by (destruct v2; try reflexivity; destruct v1; contradiction).
  destruct (half_expected v1) as [x|s1|], (half_expected v2) as [y|s2|]; try congruence.
  - destruct C1 as (F1 & _ & ->). destruct C2 as (F2 & _ & ->). cbn. apply rnd16_mono. auto.
  - cbn. destruct s2; [|exact I]. destruct C1 as (F1 & B1 & _). apply Rabs_lt_inv in B1.
    destruct C2 as [->|(F2 & B2 & S2)].
    + destruct v1 as [[]|[]|[]|[]]; try discriminate F1; contradiction.
    + specialize (Fin F1 F2). rewrite Rabs_left in B2 by auto. lra.
  - cbn. destruct s1; [exact I|]. destruct C2 as (F2 & B2 & _). apply Rabs_lt_inv in B2.
    destruct C1 as [->|(F1 & B1 & S1)].
    + destruct v2 as [[]|[]|[]|[]]; try discriminate F2; contradiction.
    + specialize (Fin F1 F2). rewrite Rabs_right in B1 by lra. lra.
  - cbn. destruct s1; [exact I|]. destruct s2; [|exact I].
    destruct C1 as [->|(F1 & B1 & S1)]; destruct C2 as [->|(F2 & B2 & S2)].
    + contradiction.
    + destruct v2 as [[]|[]|[]|[]]; try discriminate F2; contradiction.
    + destruct v1 as [[]|[]|[]|[]]; try discriminate F1; contradiction.
    + specialize (Fin F1 F2). lra.
Qed.
Print Assumptions C65_monotone.

Local Open Scope N_scope.

(** One pixel: 1, -2.5, 70000 (too large) and a third. *)
Definition ex_pixel : rgba :=
  Rgba (b32_of_bits 0x3F800000) (b32_of_bits 0xC0200000) (b32_of_bits 0x4788B800)
       (b32_of_bits 0x3EAAAAAB).
Example C65_case :
  half_channels F_R16G16B16A16 = Some 4 /\
  hardware_px 4 ex_pixel = [0x00; 0x3C; 0x00; 0xC1; 0x00; 0x7C; 0x55; 0x35] /\
  hardware_px 3 ex_pixel = [0x00; 0x3C; 0x00; 0xC1; 0x00; 0x7C] /\
  half_value 0x3C00 = HNumber (1 * ((1024 + 0) * bpow radix2 (15 - 25))) /\
  half_value 0x7C00 = HInfinity false /\ half_value 0xFE00 = HNaN.
Proof.
  split; [reflexivity|]. split; [vm_compute; reflexivity|]. split; [vm_compute; reflexivity|].
  split; [reflexivity|]. split; reflexivity.
Qed.

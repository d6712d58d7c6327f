(** Proofs about the conversion to half floats. *)

From Coq Require Import NArith ZArith Reals List Bool Lia Lra.
From Coq Require Import ZifyBool ZifyNat ZifyN.
From Flocq Require Import Core IEEE754.BinarySingleNaN IEEE754.Binary IEEE754.Bits.
From Verif Require Import Base FormatModel FloatModel FloatSpec FloatProofs PixelModel ConverterModel
  HalfModel HalfSpec.
Import ListNotations.
Ltac Zify.zify_post_hook ::= Z.div_mod_to_equations.
Local Open Scope R_scope.

(** * Reading a word *)

Lemma half_value_split s a b : (a < 32)%N -> (b < 1024)%N ->
  half_value (sign_bit s + (a * 1024 + b)) =
  let sign := if s then -1 else 1 in
  if (a =? 31)%N then if (b =? 0)%N then HInfinity s else HNaN
  else if (a =? 0)%N then HNumber (sign * (IZR (Z.of_N b) * / 16777216))
  else HNumber (sign * ((1024 + IZR (Z.of_N b)) * bpow radix2 (Z.of_N a - 25))).
Proof.
  intros A B. unfold half_value.
  assert (E1 : (((sign_bit s + (a * 1024 + b)) / 1024) mod 32 = a)%N) by (destruct s; cbn [sign_bit]; lia).
  assert (E2 : ((sign_bit s + (a * 1024 + b)) mod 1024 = b)%N) by (destruct s; cbn [sign_bit]; lia).
  assert (E3 : ((32768 <=? sign_bit s + (a * 1024 + b)) = s)%N)
    by (destruct s; cbn [sign_bit]; [apply N.leb_le|apply N.leb_gt]; lia).
  cbv zeta. rewrite E1, E2, E3. reflexivity.
Qed.

(** The number a binary16 denotes. *)
Definition hreal (x : binary16) : R := B2R 11 16 x.

Lemma bounded16 m e : SpecFloat.bounded 11 16 m e = true ->
  (Zpos m < 2048)%Z /\ (-24 <= e <= 5)%Z /\ ((1024 <= Zpos m)%Z \/ e = (-24)%Z).
Proof.
  unfold SpecFloat.bounded, SpecFloat.canonical_mantissa, SpecFloat.fexp, SpecFloat.emin.
  intros H. apply andb_prop in H as [H1 H2]. apply Zeq_bool_eq in H1. apply Zle_bool_imp_le in H2.
  rewrite Zpos_digits2_pos in H1.
  pose proof (Digits.Zdigits_correct radix2 (Zpos m)) as [L U]. cbn [Z.abs] in *.
  set (d := Digits.Zdigits radix2 (Zpos m)) in *. clearbody d.
  assert (D : (d <= 11)%Z) by lia.
  assert (U' : (Z.pos m < 2048)%Z).
  { eapply Z.lt_le_trans; [exact U|]. change 2048%Z with (Zpower radix2 11).
    apply Zpower_le. exact D. }
  split; [exact U'|]. split; [lia|].
  destruct (Z.eq_dec e (-24)); [right; auto|left].
  assert (d = 11)%Z by lia. subst d.
  change (Zpower radix2 (11 - 1)) with 1024%Z in L. exact L.
Qed.

Lemma half_bits_value x : is_finite 11 16 x = true ->
  half_value (half_bits x) = HNumber (hreal x) /\
  ((32768 <=? half_bits x) = Bsign 11 16 x)%N /\ (half_bits x < 65536)%N.
Proof.
  destruct x as [s|s|s pl B|s m e B]; try discriminate; intros _; cbn [half_bits Bsign].
  - split.
    + replace (sign_bit s) with (sign_bit s + (0 * 1024 + 0))%N by lia.
      rewrite half_value_split by lia. cbn [N.eqb]. unfold hreal, B2R. f_equal.
      change (IZR (Z.of_N 0)) with 0. ring.
    + destruct s; cbn; split; reflexivity.
  - destruct (bounded16 m e B) as (U & E & C).
    unfold hreal, B2R, F2R. cbn [Fnum Fexp].
    destruct (N.leb_spec 1024 (Npos m)) as [L|L].
    + split.
      * rewrite half_value_split by lia. cbv zeta.
        destruct (N.eqb_spec (Z.to_N (e + 25)) 31); [lia|].
        destruct (N.eqb_spec (Z.to_N (e + 25)) 0); [lia|].
        f_equal. rewrite Z2N.id by lia. replace (e + 25 - 25)%Z with e by lia.
        rewrite N2Z.inj_sub by lia. rewrite minus_IZR.
        change (Z.of_N (Npos m)) with (Zpos m). change (Z.of_N 1024) with 1024%Z.
        destruct s; cbn [cond_Zopp SpecFloat.cond_Zopp]; rewrite ?opp_IZR; ring.
      * split; [|destruct s; cbn [sign_bit]; lia].
        destruct s; cbn [sign_bit]; [apply N.leb_le|apply N.leb_gt]; lia.
    + assert (Ee : e = (-24)%Z) by lia. subst e. split.
      * replace (Npos m) with (0 * 1024 + Npos m)%N at 1 by lia.
        rewrite half_value_split by lia. cbv zeta. cbn [N.eqb]. f_equal.
        change (Z.of_N (Npos m)) with (Zpos m).
        replace (bpow radix2 (-24)) with (/ 16777216) by (cbn; lra).
        destruct s; cbn [cond_Zopp SpecFloat.cond_Zopp].
        -- rewrite <- (opp_IZR (Zpos m)) || rewrite ?opp_IZR. change (Z.neg m) with (- Z.pos m)%Z. rewrite ?opp_IZR. ring.
        -- ring.
      * split; [|destruct s; cbn [sign_bit]; lia].
        destruct s; cbn [sign_bit]; [apply N.leb_le|apply N.leb_gt]; lia.
Qed.

(** * Rounding *)

Lemma fexp16 : SpecFloat.fexp 11 16 = FLT_exp (-24) 11.
Proof. reflexivity. Qed.

Global Instance valid16 : Valid_exp (FLT_exp (-24) 11).
Proof. apply FLT_exp_valid. reflexivity. Qed.

Lemma format16 m e : (Z.abs m < 2048)%Z -> (-24 <= e)%Z ->
  generic_format radix2 (FLT_exp (-24) 11) (IZR m * bpow radix2 e).
Proof.
  intros M E. apply generic_format_FLT. exists (Float radix2 m e); [reflexivity| |exact E].
  exact M.
Qed.

Lemma rnd16_mono x y : x <= y -> rnd16 x <= rnd16 y.
Proof. apply round_le; typeclasses eauto. Qed.

Lemma rnd16_opp x : rnd16 (- x) = - rnd16 x.
Proof. unfold rnd16. apply round_NE_opp. Qed.

Lemma rnd16_abs x : Rabs (rnd16 x) = rnd16 (Rabs x).
Proof.
  destruct (Rle_lt_dec 0 x) as [H|H].
  - rewrite (Rabs_pos_eq x) by auto. apply Rabs_pos_eq.
    rewrite <- (round_0 radix2 (FLT_exp (-24) 11) ZnearestE). apply rnd16_mono; auto.
  - rewrite (Rabs_left x) by auto. rewrite rnd16_opp. apply Rabs_left1.
    rewrite <- (round_0 radix2 (FLT_exp (-24) 11) ZnearestE). apply rnd16_mono; lra.
Qed.

Lemma rnd16_exact m e : (Z.abs m < 2048)%Z -> (-24 <= e)%Z ->
  rnd16 (IZR m * bpow radix2 e) = IZR m * bpow radix2 e.
Proof. intros. apply round_generic; [typeclasses eauto|apply format16; auto]. Qed.

Lemma rnd16_65520 : rnd16 65520 = 65536.
Proof.
  unfold rnd16, round, scaled_mantissa, cexp, F2R. cbn [Fnum Fexp].
  assert (M : mag radix2 65520 = 16%Z :> Z).
  { apply mag_unique. rewrite Rabs_pos_eq by lra. cbn. lra. }
  rewrite M. change (FLT_exp (-24) 11 16) with 5%Z.
  assert (E : 65520 * bpow radix2 (- (5)) = 4095 / 2).
  { cbn. lra. }
  rewrite E.
  assert (Zn : ZnearestE (4095 / 2) = 2048%Z).
  { unfold Znearest.
    assert (Fl : Zfloor (4095 / 2) = 2047%Z) by (apply Zfloor_imp; cbn; lra).
    assert (Ce : Zceil (4095 / 2) = 2048%Z) by (apply Zceil_imp; cbn; lra).
    rewrite Fl, Ce. rewrite Rcompare_Eq by lra. reflexivity. }
  rewrite Zn. cbn. lra.
Qed.

Lemma rnd16_below x : Rabs x < 65520 -> Rabs (rnd16 x) <= 65504.
Proof.
  intros H. rewrite rnd16_abs. set (a := Rabs x) in *.
  assert (Ha : 0 <= a) by apply Rabs_pos. clearbody a.
  assert (F : generic_format radix2 (FLT_exp (-24) 11) 65504).
  { replace 65504 with (IZR 2047 * bpow radix2 5) by (cbn; lra). apply format16; cbn; lia. }
  assert (S : forall y, generic_format radix2 (FLT_exp (-24) 11) y -> 0 <= y < 65536 -> y <= 65504).
  { intros y Fy [Y0 Y1].
    assert (Sc : succ radix2 (FLT_exp (-24) 11) 65504 = 65536).
    { rewrite succ_eq_pos by lra. rewrite ulp_neq_0 by lra. unfold cexp.
      assert (M : mag radix2 65504 = 16%Z :> Z)
        by (apply mag_unique; rewrite Rabs_pos_eq by lra; cbn; lra).
      rewrite M. change (FLT_exp (-24) 11 16) with 5%Z. cbn. lra. }
    destruct (Rle_lt_dec y 65504) as [|G]; auto.
    pose proof (succ_le_lt radix2 (FLT_exp (-24) 11) 65504 y F Fy G). lra. }
  apply S.
  - apply generic_format_round; typeclasses eauto.
  - split.
    + rewrite <- (round_0 radix2 (FLT_exp (-24) 11) ZnearestE). apply rnd16_mono; auto.
    + destruct (Rle_lt_dec a 65504) as [L|L].
      * eapply Rle_lt_trans; [apply rnd16_mono; exact L|].
        unfold rnd16. rewrite round_generic; [lra|typeclasses eauto|exact F].
      * pose proof (error_le_half_ulp radix2 (FLT_exp (-24) 11) (fun x => negb (Z.even x)) a) as U.
        rewrite ulp_neq_0 in U by lra. unfold cexp in U.
        assert (M : mag radix2 a = 16%Z :> Z)
          by (apply mag_unique; rewrite Rabs_pos_eq by lra; cbn; lra).
        rewrite M in U. change (FLT_exp (-24) 11 16) with 5%Z in U.
        fold (rnd16 a) in U. apply Rabs_le_inv in U. cbn in U. lra.
Qed.

Lemma rnd16_above x : 65520 <= Rabs x -> 65536 <= Rabs (rnd16 x).
Proof. intros H. rewrite rnd16_abs, <- rnd16_65520. apply rnd16_mono; auto. Qed.

(** * The conversion *)

Lemma cvt_ok v : half_value (cvt v) = half_expected v /\
  ((32768 <=? cvt v) = negative v)%N /\ (cvt v < 65536)%N.
Proof.
  destruct v as [s|s|s pl B|s m e B].
  - cbn [cvt half_of half_expected negative Bsign].
    destruct (half_bits_value (B754_zero 11 16 s) eq_refl) as (V & S & L).
    split; [|split; auto]. rewrite V. unfold real, hreal, B2R. rewrite Rabs_R0.
    rewrite Rle_bool_false by lra. f_equal. unfold rnd16. symmetry. apply round_0. typeclasses eauto.
  - cbn [cvt half_of half_expected negative Bsign half_bits].
    split.
    + replace 31744%N with (31 * 1024 + 0)%N by reflexivity. rewrite half_value_split by lia. reflexivity.
    + destruct s; cbn; split; reflexivity.
  - cbn [cvt half_expected negative Bsign].
    assert (Q : (512 <= N.lor 512 (Npos pl / 8192 mod 1024) < 1024)%N).
    { set (r := (Npos pl / 8192 mod 1024)%N). assert (R : (r < 1024)%N) by (apply N.mod_lt; lia).
      clearbody r. split.
      - destruct (N.lt_ge_cases (N.lor 512 r) 512) as [G|G]; [exfalso|auto].
        assert (T : N.testbit (N.lor 512 r) 9 = true) by (rewrite N.lor_spec; reflexivity).
        assert (Z0 : (N.lor 512 r / 2 ^ 9 = 0)%N) by (apply N.div_small; exact G).
        rewrite <- N.shiftr_div_pow2 in Z0.
        assert (N.testbit (N.shiftr (N.lor 512 r) 9) 0 = true)
          by (rewrite N.shiftr_spec by lia; exact T).
        rewrite Z0 in H. discriminate H.
      - destruct (N.eq_dec r 0) as [->|Nz]; [reflexivity|].
        apply N.log2_lt_pow2 with (b := 10%N); [|].
        + destruct (N.lor 512 r) eqn:E; [|lia]. apply N.lor_eq_0_iff in E. lia.
        + rewrite N.log2_lor. apply N.max_lub_lt; [reflexivity|].
          apply N.log2_lt_pow2; [lia|exact R]. }
    set (q := N.lor 512 (Npos pl / 8192 mod 1024)) in *. clearbody q.
    split.
    + rewrite <- N.add_assoc. change 31744%N with (31 * 1024)%N. rewrite half_value_split by lia.
      cbv zeta. cbn [N.eqb]. destruct (N.eqb_spec q 0); [lia|]. reflexivity.
    + destruct s; cbn [sign_bit]; (split; [|lia]); [apply N.leb_le|apply N.leb_gt]; lia.
  - set (v := B754_finite 24 128 s m e B).
    assert (Hc : cvt v = half_bits (half_of v)) by reflexivity. rewrite Hc.
    assert (He : half_expected v
      = if Rle_bool 65520 (Rabs (real v)) then HInfinity s else HNumber (rnd16 (real v))) by reflexivity.
    rewrite He. change (negative v) with s.
    pose proof (binary_normalize_correct 11 16 eq_refl eq_refl mode_NE
      (SpecFloat.cond_Zopp s (Zpos m)) e s) as C.
    rewrite fexp16 in C. cbn [round_mode] in C.
    change (binary_normalize 11 16 eq_refl eq_refl mode_NE (SpecFloat.cond_Zopp s (Zpos m)) e s)
      with (half_of v) in C.
    assert (E : F2R (Float radix2 (SpecFloat.cond_Zopp s (Zpos m)) e) = real v) by reflexivity.
    rewrite E in C.
    change (round radix2 (FLT_exp (-24) 11) ZnearestE (real v)) with (rnd16 (real v)) in C.
    assert (Sg : Rcompare (real v) 0 = if s then Lt else Gt).
    { unfold real, v, B2R. destruct s.
      - apply Rcompare_Lt. apply F2R_lt_0. reflexivity.
      - apply Rcompare_Gt. apply F2R_gt_0. reflexivity. }
    destruct (Rle_bool_spec 65520 (Rabs (real v))) as [H|H].
    + rewrite Rlt_bool_false in C.
      2:{ change (bpow radix2 16) with 65536. apply rnd16_above; auto. }
      assert (Ls : Rlt_bool (real v) 0 = s).
      { destruct s; [apply Rlt_bool_true|apply Rlt_bool_false];
          [apply Rcompare_Lt_inv in Sg; auto|apply Rcompare_Gt_inv in Sg; lra]. }
      rewrite Ls in C. cbn [binary_overflow overflow_to_inf] in C.
      assert (Hi : half_of v = B754_infinity 11 16 s).
      { destruct (half_of v); try discriminate C. cbn in C. inversion C. reflexivity. }
      rewrite Hi. cbn [half_bits]. split.
      * replace 31744%N with (31 * 1024 + 0)%N by reflexivity. rewrite half_value_split by lia. reflexivity.
      * destruct s; cbn; split; reflexivity.
    + rewrite Rlt_bool_true in C.
      2:{ pose proof (rnd16_below _ H). change (bpow radix2 16) with 65536. lra. }
      destruct C as (C1 & C2 & C3).
      destruct (half_bits_value (half_of v) C2) as (V & S & L).
      rewrite V. unfold hreal. rewrite C1, S, C3, Sg. destruct s; auto.
Qed.

(** * The stores *)

Lemma cvtps_lanes p : let c i := nth i [cvt (pr p); cvt (pg p); cvt (pb p); cvt (pa p)] 0%N in
  pack1 (cvtps p) = le_bytes 2 (c 0%nat) /\
  pack2 (cvtps p) = le_bytes 2 (c 0%nat) ++ le_bytes 2 (c 1%nat) /\
  pack3 (cvtps p) = le_bytes 2 (c 0%nat) ++ le_bytes 2 (c 1%nat) ++ le_bytes 2 (c 2%nat) /\
  pack4 (cvtps p) = le_bytes 2 (c 0%nat) ++ le_bytes 2 (c 1%nat) ++ le_bytes 2 (c 2%nat) ++ le_bytes 2 (c 3%nat).
Proof.
  destruct (cvt_ok (pr p)) as (_ & _ & L0). destruct (cvt_ok (pg p)) as (_ & _ & L1).
  destruct (cvt_ok (pb p)) as (_ & _ & L2). destruct (cvt_ok (pa p)) as (_ & _ & L3).
  cbn [nth]. unfold cvtps.
  set (a := cvt (pr p)) in *. set (b := cvt (pg p)) in *. set (c := cvt (pb p)) in *. set (d := cvt (pa p)) in *.
  clearbody a b c d.
  unfold pack1, pack2, pack3, pack4.
  change (2 ^ 32)%N with 4294967296%N. change (2 ^ 16)%N with 65536%N.
  change (2 ^ 64)%N with 18446744073709551616%N.
  change (2 ^ (16 * 0))%N with 1%N. change (2 ^ (16 * 1))%N with 65536%N.
  change (2 ^ (16 * 2))%N with 4294967296%N.
  cbn [le_bytes app]. repeat split; repeat (f_equal; []); try (f_equal; lia).
  all: repeat match goal with |- _ :: _ = _ :: _ => apply f_equal2; [lia|] end; reflexivity.
Qed.

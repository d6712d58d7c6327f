(** The converters store, in every channel of the documented layout, the specified number. *)

From Coq Require Import NArith ZArith Reals List Bool Lia Lra.
From Coq Require Import ZifyBool ZifyNat ZifyN.
From Flocq Require Import Core IEEE754.BinarySingleNaN IEEE754.Binary IEEE754.Bits.
From Verif Require Import Base FormatModel FormatSpec ContainerSpec FormatLayoutSpec FormatProofs
  ConverterModel FloatModel FloatSpec FloatProofs PixelModel PixelSpec.
Import ListNotations.
Local Open Scope Z_scope.

(** * Quantisation *)

Lemma limit01_prod M v : 0 <= M <= 2 ^ 24 -> (0 <= limit 0 1 v * IZR M <= IZR M)%R.
Proof.
  intros [H _]; pose proof (limit_range 0 1 v ltac:(lra)) as L.
  apply IZR_le in H. split; [apply Rmult_le_pos; lra|].
  rewrite <- (Rmult_1_l (IZR M)) at 2. apply Rmult_le_compat_r; lra.
Qed.

Lemma limit11_prod M v : 0 <= M <= 2 ^ 24 -> (IZR (- M) <= limit (-1) 1 v * IZR M <= IZR M)%R.
Proof.
  intros [H _]; pose proof (limit_range (-1) 1 v ltac:(lra)) as L.
  apply IZR_le in H. rewrite opp_IZR. split.
  - replace (- IZR M)%R with (-1 * IZR M)%R by lra. apply Rmult_le_compat_r; lra.
  - rewrite <- (Rmult_1_l (IZR M)) at 2. apply Rmult_le_compat_r; lra.
Qed.

Lemma rnd_nearest_range x a b : Z.abs a <= 2 ^ 24 -> Z.abs b <= 2 ^ 24 ->
  (IZR a <= x <= IZR b)%R -> a <= nearest (rnd32 x) <= b.
Proof.
  intros Ha Hb [H1 H2]. apply rnd32_le in H1, H2. rewrite rnd32_int in H1, H2 by auto.
  apply nearest_le in H1, H2. rewrite nearest_int in H1, H2. lia.
Qed.

Lemma nearest_range x a b : (IZR a <= x <= IZR b)%R -> a <= nearest x <= b.
Proof.
  intros [H1 H2]. apply nearest_le in H1, H2. rewrite nearest_int in H1, H2. lia.
Qed.

Lemma unorm_ok tb M v : 0 <= M <= 2 ^ 24 -> M < 2 ^ Z.of_N tb -> nan v = false ->
  unorm tb M v = Some (nearest (rnd32 (limit 0 1 v * IZR M))) /\
  0 <= nearest (rnd32 (limit 0 1 v * IZR M)) <= M.
Proof.
  intros HM Ht Nv.
  assert (R : 0 <= nearest (rnd32 (limit 0 1 v * IZR M)) <= M).
  { apply rnd_nearest_range; try lia. apply limit01_prod; auto. }
  split; auto. unfold unorm.
  destruct (float_of_Z_ok 0 ltac:(lia)) as [R0 F0].
  destruct (float_of_Z_ok 1 ltac:(lia)) as [R1 F1].
  destruct (float_of_Z_ok M ltac:(lia)) as [RM FM].
  destruct (clampf_ok v (float_of_Z 0) (float_of_Z 1) Nv F0 F1 ltac:(rewrite R0, R1; lra)) as [Fc Rc].
  rewrite R0, R1 in Rc.
  destruct (fmul_ok (clampf v (float_of_Z 0) (float_of_Z 1)) (float_of_Z M) Fc FM) as [Ff Rf].
  { rewrite Rc, RM. pose proof (limit01_prod M v HM). rewrite Rabs_right by lra.
    apply Rle_trans with (IZR M); [lra|apply IZR_le; lia]. }
  rewrite roundZ_ok by exact Ff. rewrite Rf, Rc, RM.
  unfold cast_int.
  destruct (Z.leb_spec 0 (nearest (rnd32 (limit 0 1 v * IZR M)))); [|lia].
  destruct (Z.leb_spec (nearest (rnd32 (limit 0 1 v * IZR M))) (2 ^ Z.of_N tb - 1)); [|lia].
  reflexivity.
Qed.

Lemma unorm_nan tb M v : nan v = true -> unorm tb M v = None.
Proof.
  intros H; unfold unorm. rewrite clampf_nan by auto.
  rewrite roundZ_nan by (apply fmul_nan; auto). reflexivity.
Qed.

Lemma unorm1_ok tb v : (0 < tb)%N -> nan v = false ->
  unorm1 tb v = Some (nearest (rnd32 (limit 0 1 v * IZR 1))) /\
  0 <= nearest (rnd32 (limit 0 1 v * IZR 1)) <= 1.
Proof.
  intros Ht Nv.
  assert (R : 0 <= nearest (rnd32 (limit 0 1 v * IZR 1)) <= 1).
  { apply rnd_nearest_range; try lia. apply limit01_prod; lia. }
  split; auto. unfold unorm1.
  destruct (float_of_Z_ok 0 ltac:(lia)) as [R0 F0].
  destruct (float_of_Z_ok 1 ltac:(lia)) as [R1 F1].
  destruct (clampf_ok v (float_of_Z 0) (float_of_Z 1) Nv F0 F1 ltac:(rewrite R0, R1; lra)) as [Fc Rc].
  rewrite R0, R1 in Rc.
  rewrite roundZ_ok by exact Fc. rewrite Rc.
  assert (G : rnd32 (limit 0 1 v * IZR 1) = limit 0 1 v).
  { rewrite Rmult_1_r. rewrite <- Rc. unfold rnd32.
    apply round_generic; [typeclasses eauto|]. unfold real.
    apply (generic_format_B2R 24 128). }
  rewrite G in *.
  unfold cast_int.
  destruct (Z.leb_spec 0 (nearest (limit 0 1 v))); [|lia].
  destruct (Z.leb_spec (nearest (limit 0 1 v)) (2 ^ Z.of_N tb - 1)); [reflexivity|].
  assert (2 ^ 1 <= 2 ^ Z.of_N tb) by (apply Z.pow_le_mono_r; lia).
  lia.
Qed.

Lemma unorm1_nan tb v : nan v = true -> unorm1 tb v = None.
Proof. intros H; unfold unorm1. rewrite clampf_nan, roundZ_nan by auto. reflexivity. Qed.

Lemma snorm_ok tb v : In tb [8%N; 16%N] -> nan v = false ->
  snorm tb v = Some (nearest (rnd32 (limit (-1) 1 v * IZR (smax tb)))) /\
  - smax tb <= nearest (rnd32 (limit (-1) 1 v * IZR (smax tb))) <= smax tb.
Proof.
  intros Ht Nv.
  assert (HM : 0 <= smax tb <= 2 ^ 24).
  { destruct Ht as [<-|[<-|[]]]; vm_compute; split; discriminate. }
  assert (R : - smax tb <= nearest (rnd32 (limit (-1) 1 v * IZR (smax tb))) <= smax tb).
  { apply rnd_nearest_range; try lia. apply limit11_prod; auto. }
  split; auto. unfold snorm. fold (smax tb).
  destruct (float_of_Z_ok (-1) ltac:(lia)) as [R0 F0].
  destruct (float_of_Z_ok 1 ltac:(lia)) as [R1 F1].
  destruct (float_of_Z_ok (smax tb) ltac:(lia)) as [RM FM].
  destruct (clampf_ok v (float_of_Z (-1)) (float_of_Z 1) Nv F0 F1 ltac:(rewrite R0, R1; lra)) as [Fc Rc].
  rewrite R0, R1 in Rc.
  destruct (fmul_ok (clampf v (float_of_Z (-1)) (float_of_Z 1)) (float_of_Z (smax tb)) Fc FM) as [Ff Rf].
  { rewrite Rc, RM. pose proof (limit11_prod (smax tb) v HM) as L. rewrite opp_IZR in L.
    apply Rle_trans with (IZR (smax tb)); [apply Rabs_le; lra|apply IZR_le; lia]. }
  rewrite roundZ_ok by exact Ff. rewrite Rf, Rc, RM.
  unfold cast_int.
  match goal with |- context [?a <=? ?b] => destruct (Z.leb_spec a b) as [L|L] end.
  - match goal with |- context [?a <=? ?b] => destruct (Z.leb_spec a b) as [L'|L'] end; [reflexivity|lia].
  - unfold smax in *; lia.
Qed.

Lemma snorm_nan tb v : nan v = true -> snorm tb v = None.
Proof.
  intros H; unfold snorm. cbv zeta. rewrite clampf_nan by auto.
  rewrite roundZ_nan by (apply fmul_nan; auto). reflexivity.
Qed.

(** Integer channels whose bounds are exact in binary32. *)
Lemma clamp_round_ok lo hi v : Z.abs lo <= 2 ^ 24 -> Z.abs hi <= 2 ^ 24 -> lo <= hi -> nan v = false ->
  roundZ (clampf v (float_of_Z lo) (float_of_Z hi)) = Some (nearest (limit (IZR lo) (IZR hi) v)) /\
  lo <= nearest (limit (IZR lo) (IZR hi) v) <= hi.
Proof.
  intros Hl Hh L Nv.
  destruct (float_of_Z_ok lo Hl) as [R0 F0].
  destruct (float_of_Z_ok hi Hh) as [R1 F1].
  destruct (clampf_ok v (float_of_Z lo) (float_of_Z hi) Nv F0 F1
    ltac:(rewrite R0, R1; apply IZR_le; lia)) as [Fc Rc].
  rewrite R0, R1 in Rc. rewrite roundZ_ok, Rc by exact Fc. split; auto.
  apply nearest_range. apply limit_range. apply IZR_le; lia.
Qed.

Lemma cast_in lo hi k : lo <= k <= hi -> cast_int lo hi (Some k) = Some k.
Proof.
  intros H; unfold cast_int. destruct (Z.leb_spec lo k), (Z.leb_spec k hi); simpl; auto; lia.
Qed.

Lemma intconv_small s tb v : In tb [8%N; 16%N] -> nan v = false ->
  intconv s tb v = Some (nearest (limit (IZR (int_min s tb)) (IZR (int_max s tb)) v)) /\
  int_min s tb <= nearest (limit (IZR (int_min s tb)) (IZR (int_max s tb)) v) <= int_max s tb.
Proof.
  intros Ht Nv.
  assert (B : Z.abs (int_min s tb) <= 2 ^ 24 /\ Z.abs (int_max s tb) <= 2 ^ 24 /\
              int_min s tb <= int_max s tb).
  { destruct Ht as [<-|[<-|[]]]; destruct s; vm_compute; repeat split; discriminate. }
  destruct B as (B1 & B2 & B3).
  destruct (clamp_round_ok _ _ v B1 B2 B3 Nv) as [E R].
  unfold intconv. rewrite E, cast_in; auto.
Qed.

Lemma intconv_nan s tb v : nan v = true -> intconv s tb v = None.
Proof. intros H; unfold intconv. rewrite clampf_nan, roundZ_nan by auto. reflexivity. Qed.

Lemma uint_to_ok M v : 0 <= M <= 2 ^ 24 -> nan v = false ->
  uint_to M v = Some (nearest (limit 0 (IZR M) v)) /\ 0 <= nearest (limit 0 (IZR M) v) <= M.
Proof.
  intros HM Nv. destruct (clamp_round_ok 0 M v ltac:(lia) ltac:(lia) ltac:(lia) Nv) as [E R].
  unfold uint_to. rewrite E, cast_in; [auto|lia].
Qed.

Lemma uint_to_nan M v : nan v = true -> uint_to M v = None.
Proof. intros H; unfold uint_to. rewrite clampf_nan, roundZ_nan by auto. reflexivity. Qed.

(** 32-bit channels: the upper bound becomes 2^32 (2^31) in binary32. *)
Definition hi32 (s : bool) : Z := if s then 2 ^ 31 else 2 ^ 32.

Lemma bounds32 s :
  real (float_of_Z (int_max s 32)) = IZR (hi32 s) /\ finite (float_of_Z (int_max s 32)) = true /\
  real (float_of_Z (int_min s 32)) = IZR (int_min s 32) /\ finite (float_of_Z (int_min s 32)) = true.
Proof.
  assert (Hmax : real (float_of_Z (int_max s 32)) = IZR (hi32 s) /\
                 finite (float_of_Z (int_max s 32)) = true).
  { unfold real. rewrite <- FF2R_B2FF. destruct s.
    - assert (E : B2FF 24 128 (float_of_Z (int_max true 32)) = F754_finite false 8388608 8)
        by (vm_compute; reflexivity).
      rewrite E. split; [|vm_compute; reflexivity].
      unfold FF2R, F2R. cbn [Fnum Fexp SpecFloat.cond_Zopp].
      change (bpow radix2 8) with 256%R. change (hi32 true) with (8388608 * 256).
      rewrite mult_IZR. reflexivity.
    - assert (E : B2FF 24 128 (float_of_Z (int_max false 32)) = F754_finite false 8388608 9)
        by (vm_compute; reflexivity).
      rewrite E. split; [|vm_compute; reflexivity].
      unfold FF2R, F2R. cbn [Fnum Fexp SpecFloat.cond_Zopp].
      change (bpow radix2 9) with 512%R. change (hi32 false) with (8388608 * 512).
      rewrite mult_IZR. reflexivity. }
  assert (Hmin : real (float_of_Z (int_min s 32)) = IZR (int_min s 32) /\
                 finite (float_of_Z (int_min s 32)) = true).
  { destruct s.
    - apply float_of_Z_exact; [|reflexivity].
      apply generic_format_FLT. exists (Float radix2 (-8388608) 8).
      + unfold F2R; cbn [Fnum Fexp]. change (bpow radix2 8) with 256%R.
        change (int_min true 32) with (-8388608 * 256). rewrite mult_IZR. reflexivity.
      + reflexivity.
      + cbn; lia.
    - apply float_of_Z_ok. vm_compute; discriminate. }
  tauto.
Qed.

(** A float below 2^k that is large is well below it: there is no float between 2^32 - 1 and
    2^32, nor between 2^31 - 1 and 2^31. *)
Lemma below_hi s v : finite v = true -> (real v < IZR (hi32 s))%R -> (real v <= IZR (hi32 s - 1))%R.
Proof.
  intros F H.
  destruct (Rle_lt_dec (real v) (IZR (hi32 s - 1))) as [L|L]; auto. exfalso.
  pose proof (generic_format_B2R 24 128 v) as G. fold (real v) in G. rewrite fexp32 in G.
  set (e := match s with true => 31 | false => 32 end).
  assert (M : mag radix2 (real v) = e :> Z).
  { apply mag_unique_pos. unfold e. destruct s.
    - change (bpow radix2 (31 - 1)) with (IZR (2^30)). change (bpow radix2 31) with (IZR (2^31)).
      split; auto. apply Rlt_le, Rle_lt_trans with (2:=L). apply IZR_le. vm_compute; discriminate.
    - change (bpow radix2 (32 - 1)) with (IZR (2^31)). change (bpow radix2 32) with (IZR (2^32)).
      split; auto. apply Rlt_le, Rle_lt_trans with (2:=L). apply IZR_le. vm_compute; discriminate. }
  unfold generic_format, scaled_mantissa, cexp in G. rewrite M in G.
  assert (X : FLT_exp (-149) 24 e = match s with true => 7 | false => 8 end) by (unfold e; destruct s; reflexivity).
  rewrite X in G. set (k := Ztrunc _) in G.
  unfold F2R in G; cbn [Fnum Fexp] in G.
  destruct s.
  - change (bpow radix2 7) with 128%R in G. rewrite <- (mult_IZR k 128) in G. rewrite G in H, L.
    apply lt_IZR in H, L. change (hi32 true) with 2147483648 in *. lia.
  - change (bpow radix2 8) with 256%R in G. rewrite <- (mult_IZR k 256) in G. rewrite G in H, L.
    apply lt_IZR in H, L. change (hi32 false) with 4294967296 in *. lia.
Qed.

Definition ttype_of_sign (s : bool) : ttype := if s then T_Int else T_UInt.

Lemma int_max32 s : int_max s 32 = hi32 s - 1.
Proof. destruct s; reflexivity. Qed.

Lemma intconv32_ok s v : nan v = false -> too_big (ttype_of_sign s) 32 v = false ->
  intconv s 32 v = Some (nearest (limit (IZR (int_min s 32)) (IZR (int_max s 32)) v)) /\
  int_min s 32 <= nearest (limit (IZR (int_min s 32)) (IZR (int_max s 32)) v) <= int_max s 32.
Proof.
  intros Nv TB.
  assert (R : int_min s 32 <= nearest (limit (IZR (int_min s 32)) (IZR (int_max s 32)) v) <= int_max s 32).
  { apply nearest_range, limit_range, IZR_le. destruct s; vm_compute; discriminate. }
  split; auto.
  destruct (bounds32 s) as (Rh & Fh & Rl & Fl).
  assert (L : (IZR (int_min s 32) <= IZR (hi32 s))%R)
    by (apply IZR_le; destruct s; vm_compute; discriminate).
  destruct (clampf_ok v _ _ Nv Fl Fh ltac:(rewrite Rh, Rl; exact L)) as [Fc Rc].
  rewrite Rh, Rl in Rc.
  assert (E : limit (IZR (int_min s 32)) (IZR (hi32 s)) v = limit (IZR (int_min s 32)) (IZR (int_max s 32)) v).
  { destruct (finite v) eqn:Fv.
    - assert (H : (real v < IZR (hi32 s))%R).
      { unfold too_big in TB. rewrite N.eqb_refl in TB. cbn [andb] in TB.
        destruct (Rlt_le_dec (real v) (IZR (hi32 s))) as [|K]; auto. exfalso.
        assert (T : Rle_bool (IZR match ttype_of_sign s with T_Int => 2 ^ 31 | _ => 2 ^ 32 end) (real v) = true).
        { apply Rle_bool_true. destruct s; exact K. }
        destruct v; try discriminate; rewrite T in TB; discriminate. }
      pose proof (below_hi s v Fv H) as H'. rewrite <- int_max32 in H'.
      assert (X : forall a b, limit a b v = Rmax a (Rmin b (real v))) by (destruct v; try discriminate; reflexivity).
      rewrite !X. rewrite !Rmin_right by lra. reflexivity.
    - destruct v as [|i| |]; try discriminate. cbn in TB. destruct i; try discriminate. reflexivity. }
  unfold intconv. rewrite roundZ_ok by exact Fc. rewrite Rc, E, cast_in; auto.
Qed.

Lemma intconv32_bad s v : nan v = false -> too_big (ttype_of_sign s) 32 v = true ->
  intconv s 32 v = None.
Proof.
  intros Nv TB.
  destruct (bounds32 s) as (Rh & Fh & Rl & Fl).
  assert (L : (IZR (int_min s 32) <= IZR (hi32 s))%R)
    by (apply IZR_le; destruct s; vm_compute; discriminate).
  destruct (clampf_ok v _ _ Nv Fl Fh ltac:(rewrite Rh, Rl; exact L)) as [Fc Rc].
  rewrite Rh, Rl in Rc.
  assert (E : limit (IZR (int_min s 32)) (IZR (hi32 s)) v = IZR (hi32 s)).
  { unfold too_big in TB. rewrite N.eqb_refl in TB. cbn [andb] in TB.
    destruct v as [z|i| |x m e B]; try discriminate.
    - apply Rle_bool_true in TB || idtac. exfalso. unfold Rle_bool in TB.
      revert TB. unfold real; cbn [B2R]. destruct s; cbn [ttype_of_sign];
      match goal with |- context [Rcompare ?a ?b] => destruct (Rcompare_spec a b) as [K|K|K] end;
      intros TB; try discriminate.
      all: apply lt_IZR in K || apply eq_IZR in K; vm_compute in K; discriminate.
    - destruct i; [discriminate|reflexivity].
    - assert (K : (IZR (hi32 s) <= real (B754_finite 24 128 x m e B))%R).
      { revert TB. unfold Rle_bool.
        match goal with |- context [Rcompare ?a ?b] => destruct (Rcompare_spec a b) as [K|K|K] end;
        intros TB; try discriminate; destruct s; cbn in K |- *; lra. }
      cbn [limit]. rewrite Rmin_left by exact K. apply Rmax_right; exact L. }
  unfold intconv. rewrite roundZ_ok by exact Fc. rewrite Rc, E, nearest_int.
  unfold cast_int. rewrite int_max32.
  destruct (Z.leb_spec (hi32 s) (hi32 s - 1)); [lia|]. rewrite andb_false_r. reflexivity.
Qed.

(** C19-C22: what the uncompressed formats store. *)

From Coq Require Import NArith ZArith Reals List Bool Lia Lra.
From Coq Require Import ZifyBool ZifyNat ZifyN.
From Flocq Require Import Core Relative IEEE754.BinarySingleNaN IEEE754.Binary IEEE754.Bits.
From Verif Require Import Base FormatModel FormatSpec ContainerSpec FormatLayoutSpec FormatProofs
  ConverterModel ConverterSpec SchedProofs TilingProofs FloatModel FloatSpec FloatProofs PixelModel
  PixelSpec PixelProofs PackProofs PropsConvert.
Import ListNotations.
Local Open Scope N_scope.

(** * C22: bit fields *)

Lemma stored_ref pk f t p bs l : stores pk f t p bs -> lsb_layout f = Some l -> t <> T_UFloat ->
  layout_ok t l /\ exists fs, quanta pk t l p = Some fs /\
    bs = le_bytes (N.to_nat (layout_bits l / 8)) (pack fs) /\ pack fs < 2 ^ layout_bits l.
Proof.
  intros (fl & c & C & E) L T.
  destruct (created_ref pk fl f t c l p C L T) as [R OK]. split; auto.
  rewrite R in E. unfold ref_enc in E.
  destruct (quanta pk t l p) as [fs|] eqn:Q; [|discriminate].
  inversion E; subst. exists fs. repeat split.
  apply (quanta_ok pk t l p fs); auto. apply OK.
Qed.

Lemma bits_whole_b : forall (fl : flags) f (t : ttype),
  match lsb_layout f with Some l => (layout_bits l mod 8 =? 0) && (8 <=? layout_bits l) | None => true end = true.
Proof. apply forall_fft; vm_compute; reflexivity. Qed.

Lemma bits_whole f l : lsb_layout f = Some l -> 8 * (layout_bits l / 8) = layout_bits l.
Proof.
  intros H. pose proof (bits_whole_b (Flags true true true true) f T_UNorm) as B. rewrite H in B.
  apply andb_prop in B; destruct B as [B _]. apply N.eqb_eq in B. lia.
Qed.

Lemma stored_word pk f t p bs l : stores pk f t p bs -> lsb_layout f = Some l -> t <> T_UFloat ->
  exists fs, quanta pk t l p = Some fs /\ le_val bs = pack fs.
Proof.
  intros S L T. destruct (stored_ref _ _ _ _ _ _ S L T) as (_ & fs & Q & -> & B).
  exists fs; split; auto. apply le_val_bytes. rewrite pow256.
  rewrite N2Nat.id. rewrite (bits_whole f l L). exact B.
Qed.

(** Reading the stored bytes by the documented layout gives, for every channel, exactly the
    number that channel's value is quantised to: channels never disturb each other.  The
    bytes are as many as the format says. *)
Theorem C22_fields : forall pk f t p bs l,
  stores pk f t p bs -> lsb_layout f = Some l -> t <> T_UFloat ->
  N.of_nat (length bs) = layout_bits l / 8 /\ Forall (fun b => b < 256) bs /\
  forall c b, In (c, b) l -> exists v r,
    channel f p bs c b v r /\ quantum pk t b v = Some r /\ r < 2 ^ b.
Proof.
  intros pk f t p bs l S L T.
  destruct (stored_ref _ _ _ _ _ _ S L T) as ([W ND] & fs & Q & E & B).
  destruct (stored_word _ _ _ _ _ _ S L T) as (fs' & Q' & V).
  assert (fs' = fs) by congruence; subst fs'.
  split; [rewrite E, le_bytes_length; lia|]. split.
  { rewrite E. apply Forall_forall. intros x I. eapply le_bytes_byte; eauto. }
  intros c b I.
  destruct (field_pack pk t l p fs c b W ND Q I) as (v & r & A1 & A2 & A3).
  exists v, r. split; [|split; auto].
  - exists l. repeat split; auto. rewrite V. exact A3.
  - eapply quantum_lt; eauto. rewrite Forall_forall in W. apply (W (c, b) I).
Qed.
Print Assumptions C22_fields.

(** Storing a pixel is undefined exactly when one of the channels the format keeps has no
    defined quantum. *)
Theorem C22_undefined : forall pk fl f t c l p,
  createConverter fl f t = Some c -> lsb_layout f = Some l -> t <> T_UFloat ->
  (enc_px pk c p = None <->
   exists ch b v, In (ch, b) l /\ chan_val p ch = Some v /\ quantum pk t b v = None).
Proof.
  intros pk fl f t c l p C L T.
  destruct (created_ref pk fl f t c l p C L T) as [R OK]. rewrite R. unfold ref_enc.
  destruct (quanta pk t l p) as [fs|] eqn:Q; cbn [obind]; split.
  - discriminate.
  - intros (ch & b & v & I & V & Z).
    destruct (quanta_some _ _ _ _ _ _ _ Q I) as (v' & r & V' & Z'). congruence.
  - intros _. destruct (quanta_none _ _ _ _ Q) as (ch & b & I & Z).
    assert (ch <> ChE).
    { intros ->. pose proof (bits_whole f l L).
      assert (X : forall (fl : flags) f (t : ttype), match createConverter fl f t, lsb_layout f with
        | Some _, Some l => type_eqb t T_UFloat || forallb (fun cb => negb (chan_code (fst cb) =? 4)) l
        | _, _ => true end = true) by (apply forall_fft; vm_compute; reflexivity).
      specialize (X fl f t). rewrite C, L in X. apply orb_prop in X. destruct X as [X|X].
      - apply type_eqb_eq in X. congruence.
      - rewrite forallb_forall in X. specialize (X _ I). discriminate. }
    destruct (chan_val p ch) as [v|] eqn:V; [|destruct ch; try discriminate; congruence].
    exists ch, b, v. auto.
  - reflexivity.
Qed.
Print Assumptions C22_undefined.

Lemma ufloat_b : forall (fl : flags) f (t : ttype), match createConverter fl f t, lsb_layout f with
  | Some c, Some _ => negb (type_eqb t T_UFloat) ||
      match c with CvB10R11R11UFloat => format_eqb f F_B10G11R11_UFloat
                 | CvE5B9G9R9UFloat => format_eqb f F_E5B9G9R9_UFloat | _ => false end
  | _, _ => true end = true.
Proof. apply forall_fft; vm_compute; reflexivity. Qed.

Lemma std_size_b : forall (fl : flags) f (t : ttype), match createConverter fl f t with
  | Some c => match std_params c with
              | Some (sz, ch) => match lsb_layout f with Some l => layout_bits l / 8 =? sz * ch | None => false end
              | None => true
              end
  | None => true end = true.
Proof. apply forall_fft; vm_compute; reflexivity. Qed.

(** The two shared-exponent and small-float formats store the word their packer returns. *)
Theorem C22_small_floats : forall pk f p bs,
  stores pk f T_UFloat p bs -> (exists l, lsb_layout f = Some l) ->
  (f = F_B10G11R11_UFloat /\ le_val bs = pack_111110 pk (pr p) (pg p) (pb p) mod 2 ^ 32) \/
  (f = F_E5B9G9R9_UFloat /\ le_val bs = pack_9995 pk (pr p) (pg p) (pb p) mod 2 ^ 32).
Proof.
  intros pk f p bs (fl & c & C & E) [l L].
  pose proof (ufloat_b fl f T_UFloat) as X. rewrite C, L in X. cbn [type_eqb negb orb] in X.
  assert (W : forall w, le_val (int_bytes 4 (Z.of_N w)) = w mod 2 ^ 32).
  { intros w. rewrite int_bytes_twos, le_val_bytes.
    - unfold twos. change (8 * N.of_nat 4) with 32.
      change (2 ^ Z.of_N 32)%Z with (Z.of_N (2 ^ 32)). rewrite <- N2Z.inj_mod. apply N2Z.id.
    - rewrite pow256. apply twos_lt. }
  destruct p as [R G B A].
  destruct c; try discriminate X; apply format_eqb_eq in X; subst f;
    cbn [enc_px] in E; inversion E; subst; rewrite W; auto.
Qed.
Print Assumptions C22_small_floats.

(** Whole surfaces: for every schedule of any number of threads, the finished buffer of an
    uncompressed format holds the stored bytes of every pixel in row-major order. *)
Theorem C22_surface : forall pk fl f t c sz ch w h px buf threads m,
  createConverter fl f t = Some c -> std_params c = Some (sz, ch) ->
  0 < w -> 0 < h -> w * h + 31 < 2^32 -> w * h * ch <= 2^32 ->
  (forall r q, r < h -> q < w -> enc_px pk c (px r q) <> None) ->
  N.of_nat (length buf) = std_data_size sz ch w h ->
  (0 < threads)%nat -> std_jobsX w h + N.of_nat threads < 2^32 ->
  reach (std_process (enc_px pk c) sz ch (img w h px)) (Nrange (std_jobsX w h)) buf threads m ->
  mfinal m ->
  forall r q, r < h -> q < w ->
    stores pk f t (px r q)
      (firstn (N.to_nat (sz * ch)) (skipn (N.to_nat ((r * w + q) * (sz * ch))) (m_buf m))).
Proof.
  intros pk fl f t c sz ch w h px buf threads m C SP Hw Hh Hn Hc D L T B R F r q Hr Hq.
  pose (bytes := fun p => match enc_px pk c p with Some bs => bs | None => [] end).
  assert (LEN : forall p bs, enc_px pk c p = Some bs -> N.of_nat (length bs) = sz * ch).
  { intros p bs E.
    pose proof (std_size_b fl f t) as Z. rewrite C, SP in Z.
    destruct (lsb_layout f) as [l|] eqn:LF; [|discriminate]. apply N.eqb_eq in Z.
    destruct (type_eqb t T_UFloat) eqn:TU.
    - apply type_eqb_eq in TU; subst t.
      pose proof (ufloat_b fl f T_UFloat) as X. rewrite C, LF in X. cbn [type_eqb negb orb] in X.
      destruct p. destruct c; try discriminate X; cbn in E, SP; inversion E; inversion SP; subst; reflexivity.
    - assert (TN : t <> T_UFloat) by (intros ->; discriminate).
      destruct (created_ref pk fl f t c l p C LF TN) as [R' _]. rewrite R' in E. unfold ref_enc in E.
      destruct (quanta _ _ _ _); [|discriminate]. inversion E; subst. rewrite le_bytes_length. lia. }
  assert (EO : enc_ok (enc_px pk c) sz ch w h px bytes).
  { intros r' q' Hr' Hq'. unfold bytes. specialize (D r' q' Hr' Hq').
    destruct (enc_px pk c (px r' q')) as [bs|] eqn:E; [|congruence]. split; auto.
    eapply LEN; eauto. }
  destruct (C17_any_schedule _ (enc_px pk c) sz ch w h px bytes buf threads m) as (_ & _ & K); auto.
  rewrite (K F).
  rewrite (C17_pixel_position _ (enc_px pk c) sz ch w h px bytes r q); auto.
  exists fl, c. split; auto. apply EO; auto.
Qed.
Print Assumptions C22_surface.

(** * C19: unsigned normalised formats *)

Lemma channel_fun f p bs c b v r v' r' :
  channel f p bs c b v r -> channel f p bs c b v' r' -> v = v' /\ r = r'.
Proof.
  intros (l & A1 & A2 & A3 & A4) (l' & B1 & B2 & B3 & B4). split; congruence.
Qed.

Lemma channel_quantum pk f t p bs c b v r :
  stores pk f t p bs -> t <> T_UFloat -> channel f p bs c b v r ->
  quantum pk t b v = Some r /\ width_ok t b.
Proof.
  intros S T H. pose proof H as (l & A1 & A2 & A3 & A4).
  destruct (C22_fields pk f t p bs l S A1 T) as (_ & _ & K).
  destruct (K c b A2) as (v' & r' & H' & Q & _).
  destruct (channel_fun _ _ _ _ _ _ _ _ _ H H') as [-> ->]. split; auto.
  destruct (stored_ref _ _ _ _ _ _ S A1 T) as ([W _] & _).
  rewrite Forall_forall in W. apply (W (c, b) A2).
Qed.

Definition not_ufloat (t : ttype) : bool := negb (type_eqb t T_UFloat).
Ltac nuf := intros X; discriminate X.

(** Rounding error of a binary32 result below 2^b. *)
Lemma rnd32_error x b : (0 <= b)%Z -> (Rabs x < bpow radix2 b)%R ->
  (Rabs (rnd32 x - x) <= bpow radix2 (b - 25))%R.
Proof.
  intros Hb H. unfold rnd32.
  destruct (Req_dec x 0) as [->|Nz].
  - rewrite round_0 by typeclasses eauto. rewrite Rminus_0_r, Rabs_R0. apply bpow_ge_0.
  - eapply Rle_trans; [apply error_le_half_ulp; apply FLT_exp_valid; reflexivity|].
    rewrite ulp_neq_0 by auto. unfold cexp, FLT_exp.
    assert (M : (mag radix2 x <= b)%Z) by (apply mag_le_bpow; auto).
    apply Rle_trans with (/ 2 * bpow radix2 (b - 24))%R.
    + apply Rmult_le_compat_l; [lra|]. apply bpow_le. lia.
    + replace (b - 24)%Z with (1 + (b - 25))%Z by lia. rewrite bpow_plus.
      change (bpow radix2 1) with 2%R. lra.
Qed.

Lemma umax_bpow b : IZR (umax b) = (bpow radix2 (Z.of_N b) - 1)%R.
Proof.
  unfold umax. rewrite minus_IZR. rewrite <- (IZR_Zpower radix2) by lia. reflexivity.
Qed.

(** The stored number is the binary32 product of the clamped value with the largest channel
    value, rounded to the nearest integer; it is in range, and within half a step (plus
    the rounding error of the product) of the exact real product. *)
Theorem C19_stored : forall pk f p bs c b v r,
  stores pk f T_UNorm p bs -> channel f p bs c b v r ->
  nan v = false /\
  Z.of_N r = nearest (rnd32 (limit 0 1 v * (IZR (2 ^ Z.of_N b) - 1))) /\
  r <= 2 ^ b - 1 /\
  (Rabs (IZR (Z.of_N r) - limit 0 1 v * (IZR (2 ^ Z.of_N b) - 1)) <= / 2 + bpow radix2 (Z.of_N b - 25))%R.
Proof.
  intros pk f p bs c b v r S H.
  destruct (channel_quantum pk f T_UNorm p bs c b v r S ltac:(nuf) H) as [Q W].
  cbn [width_ok] in W. pose proof (quantum_lt _ _ _ _ _ (W : width_ok T_UNorm b) Q) as L.
  unfold quantum in Q. destruct (nan v) eqn:Nv; [discriminate|]. inversion Q as [E]; clear Q.
  assert (M1 : (IZR (2 ^ Z.of_N b) - 1 = IZR (umax b))%R) by (unfold umax; rewrite minus_IZR; reflexivity).
  rewrite M1.
  pose proof (umax_small b ltac:(lia)) as U.
  pose proof (limit01_prod (umax b) v U) as P.
  assert (R : (0 <= nearest (rnd32 (limit 0 1 v * IZR (umax b))) <= umax b)%Z).
  { apply rnd_nearest_range; try lia. exact P. }
  split; [reflexivity|]. rewrite E in *. 
  assert (ZR : Z.of_N r = nearest (rnd32 (limit 0 1 v * IZR (umax b)))) by (rewrite <- E; lia).
  split; [exact ZR|]. split; [lia|].
  rewrite ZR.
  set (x := (limit 0 1 v * IZR (umax b))%R) in *.
  assert (X : (Rabs x < bpow radix2 (Z.of_N b))%R).
  { rewrite Rabs_right by lra. pose proof (umax_bpow b). lra. }
  pose proof (rnd32_error x (Z.of_N b) ltac:(lia) X) as E1.
  pose proof (Znearest_half (Z.leb 0) (rnd32 x)) as E2.
  change (Znearest (Z.leb 0) (rnd32 x)) with (nearest (rnd32 x)) in E2.
  replace (IZR (nearest (rnd32 x)) - x)%R with
    (- (rnd32 x - IZR (nearest (rnd32 x))) + (rnd32 x - x))%R by lra.
  eapply Rle_trans; [apply Rabs_triang|]. rewrite Rabs_Ropp. lra.
Qed.
Print Assumptions C19_stored.

(** Values at or below 0 (including minus infinity) give 0, values at or above 1 (including
    infinity) give the largest channel value. *)
Theorem C19_endpoints : forall pk f p bs c b v r,
  stores pk f T_UNorm p bs -> channel f p bs c b v r ->
  (fle v (float_of_Z 0) -> r = 0) /\ (fle (float_of_Z 1) v -> r = 2 ^ b - 1).
Proof.
  intros pk f p bs c b v r S H.
  destruct (channel_quantum pk f T_UNorm p bs c b v r S ltac:(nuf) H) as [_ W].
  cbn [width_ok] in W.
  destruct (C19_stored _ _ _ _ _ _ _ _ S H) as (Nv & E & _ & _).
  assert (M1 : (IZR (2 ^ Z.of_N b) - 1 = IZR (umax b))%R) by (unfold umax; rewrite minus_IZR; reflexivity).
  rewrite M1 in E. pose proof (umax_small b ltac:(lia)) as U.
  destruct (float_of_Z_ok 0 ltac:(lia)) as [R0 F0].
  destruct (float_of_Z_ok 1 ltac:(lia)) as [R1 F1].
  split; intros F.
  - assert (Z0 : limit 0 1 v = 0%R).
    { unfold fle, b32_compare in F. destruct (finite v) eqn:Fv.
      - rewrite Bcompare_correct in F by assumption.
        fold (real v) in F. fold (real (float_of_Z 0)) in F. rewrite R0 in F.
        assert (K : (real v <= 0)%R) by (destruct (Rcompare_spec (real v) 0); try lra; destruct F).
        destruct v; try discriminate; cbn [limit]; rewrite Rmin_right by lra; apply Rmax_left; lra.
      - destruct v as [|s| |]; try discriminate. destruct s; [reflexivity|]. destruct F. }
    rewrite Z0, Rmult_0_l in E. rewrite (rnd32_int 0) in E by lia. rewrite nearest_int in E. lia.
  - assert (Z0 : limit 0 1 v = 1%R).
    { unfold fle, b32_compare in F. destruct (finite v) eqn:Fv.
      - rewrite Bcompare_correct in F by assumption.
        fold (real v) in F. fold (real (float_of_Z 1)) in F. rewrite R1 in F.
        assert (K : (1 <= real v)%R) by (destruct (Rcompare_spec 1 (real v)); try lra; destruct F).
        destruct v; try discriminate; cbn [limit]; rewrite Rmin_left by lra; apply Rmax_right; lra.
      - destruct v as [|s| |]; try discriminate. destruct s; [destruct F|reflexivity]. }
    rewrite Z0, Rmult_1_l in E. rewrite rnd32_int in E by lia. rewrite nearest_int in E.
    pose proof (two_pow_Z b). unfold umax in E. lia.
Qed.
Print Assumptions C19_endpoints.

Lemma limit_mono lo hi v w : (lo <= hi)%R -> fle v w -> (limit lo hi v <= limit lo hi w)%R.
Proof.
  intros L F. unfold fle, b32_compare in F.
  destruct (finite v) eqn:Fv, (finite w) eqn:Fw.
  - rewrite Bcompare_correct in F by assumption. fold (real v) (real w) in F.
    assert (K : (real v <= real w)%R) by (destruct (Rcompare_spec (real v) (real w)); try lra; destruct F).
    assert (forall u, finite u = true -> limit lo hi u = Rmax lo (Rmin hi (real u)))
      by (intros u Fu; destruct u; try discriminate; reflexivity).
    rewrite !H by assumption. apply Rle_max_compat_l, Rle_min_compat_l; auto.
  - destruct w as [|s| |]; try discriminate; [|destruct v; destruct F].
    destruct s; [destruct v as [| | |[]]; try discriminate; destruct F|].
    apply (limit_range lo hi v L).
  - destruct v as [|s| |]; try discriminate; [|destruct w; destruct F].
    destruct s; [|destruct w as [| | |[]]; try discriminate; destruct F].
    apply (limit_range lo hi w L).
  - destruct v as [|s| |]; try discriminate; [|destruct w; destruct F].
    destruct w as [|s'| |]; try discriminate; [|destruct s; destruct F].
    destruct s, s'; cbn [limit]; try lra. destruct F.
Qed.

(** A larger value never gives a smaller number. *)
Theorem C19_monotone : forall pk f p q bs bs' c b v w r s,
  stores pk f T_UNorm p bs -> channel f p bs c b v r ->
  stores pk f T_UNorm q bs' -> channel f q bs' c b w s ->
  fle v w -> r <= s.
Proof.
  intros pk f p q bs bs' c b v w r s S H S' H' F.
  destruct (channel_quantum pk f T_UNorm p bs c b v r S ltac:(nuf) H) as [_ W].
  cbn [width_ok] in W.
  destruct (C19_stored _ _ _ _ _ _ _ _ S H) as (_ & E & _).
  destruct (C19_stored _ _ _ _ _ _ _ _ S' H') as (_ & E' & _).
  assert (K : (nearest (rnd32 (limit 0 1 v * (IZR (2 ^ Z.of_N b) - 1)))
               <= nearest (rnd32 (limit 0 1 w * (IZR (2 ^ Z.of_N b) - 1))))%Z).
  { apply nearest_le, rnd32_le, Rmult_le_compat_r; [|apply limit_mono; auto; lra].
    rewrite <- minus_IZR. apply IZR_le. fold (umax b). apply umax_small; lia. }
  lia.
Qed.
Print Assumptions C19_monotone.

(** Re-encoding the value a reader decodes for [k] (the binary32 number nearest to
    k / (2^b - 1)) gives [k] back. *)
Theorem C19_round_trip : forall pk f p bs c b v r k,
  stores pk f T_UNorm p bs -> channel f p bs c b v r ->
  k <= 2 ^ b - 1 -> finite v = true ->
  real v = rnd32 (IZR (Z.of_N k) / (IZR (2 ^ Z.of_N b) - 1)) -> r = k.
Proof.
  intros pk f p bs c b v r k S H Hk Fv Hv.
  destruct (channel_quantum pk f T_UNorm p bs c b v r S ltac:(nuf) H) as [_ W].
  cbn [width_ok] in W.
  destruct (C19_stored _ _ _ _ _ _ _ _ S H) as (_ & E & _).
  assert (M1 : (IZR (2 ^ Z.of_N b) - 1 = IZR (umax b))%R) by (unfold umax; rewrite minus_IZR; reflexivity).
  rewrite M1 in *. pose proof (umax_small b ltac:(lia)) as U.
  assert (KM : (Z.of_N k <= umax b)%Z) by (pose proof (two_pow_Z b); unfold umax; lia).
  assert (M0 : (1 <= umax b <= 65535)%Z).
  { unfold umax. assert (2 ^ 1 <= 2 ^ Z.of_N b)%Z by (apply Z.pow_le_mono_r; lia).
    assert (2 ^ Z.of_N b <= 2 ^ 16)%Z by (apply Z.pow_le_mono_r; lia). lia. }
  assert (M0R : (1 <= IZR (umax b) <= 65535)%R) by (split; apply IZR_le; lia).
  assert (KR : (0 <= IZR (Z.of_N k) <= IZR (umax b))%R) by (split; apply IZR_le; lia).
  set (M := IZR (umax b)) in *. set (K := IZR (Z.of_N k)) in *.
  assert (Q01 : (0 <= K / M <= 1)%R).
  { split; [apply Rmult_le_pos; [lra|left; apply Rinv_0_lt_compat; lra]|].
    apply Rmult_le_reg_r with M; [lra|]. unfold Rdiv. rewrite Rmult_assoc, Rinv_l by lra. lra. }
  assert (V01 : (0 <= real v <= 1)%R).
  { rewrite Hv. pose proof (rnd32_int 0 ltac:(lia)) as I0. pose proof (rnd32_int 1 ltac:(lia)) as I1.
    pose proof (rnd32_le _ _ (proj1 Q01)). pose proof (rnd32_le _ _ (proj2 Q01)). lra. }
  assert (Lv : limit 0 1 v = real v).
  { destruct v; try discriminate; cbn [limit]; rewrite Rmin_right by lra; apply Rmax_right; lra. }
  rewrite Lv in E.
  assert (X : (Rabs (real v * M - K) <= bpow radix2 (-8))%R).
  { destruct (Req_dec K 0) as [K0|K0].
    - rewrite Hv, K0. unfold Rdiv. rewrite Rmult_0_l. rewrite (rnd32_int 0) by lia.
      rewrite Rmult_0_l, Rminus_0_r, Rabs_R0. apply bpow_ge_0.
    - assert (K1 : (1 <= K)%R).
      { unfold K in *. apply IZR_le. assert (Z.of_N k <> 0)%Z by (intros Z0; apply K0; rewrite Z0; reflexivity). lia. }
      assert (Q1 : (bpow radix2 (-149 + 24 - 1) <= Rabs (K / M))%R).
      { rewrite Rabs_right by lra.
        apply Rle_trans with (bpow radix2 (-16)); [apply bpow_le; lia|].
        change (bpow radix2 (-16)) with (/ 65536)%R.
        apply Rmult_le_reg_r with M; [lra|]. unfold Rdiv. rewrite Rmult_assoc, Rinv_l by lra. lra. }
      pose proof (relative_error_N_FLT radix2 (-149) 24 ltac:(reflexivity) (fun x => negb (Z.even x)) (K / M) Q1) as RE.
      change (round radix2 (FLT_exp (-149) 24) (Znearest (fun x => negb (Z.even x))) (K / M)) with (rnd32 (K / M)) in RE.
      rewrite <- Hv in RE.
      replace (real v * M - K)%R with ((real v - K / M) * M)%R by (field; lra).
      rewrite Rabs_mult, (Rabs_right M) by lra.
      apply Rle_trans with (/ 2 * bpow radix2 (- (24) + 1) * Rabs (K / M) * M)%R.
      + apply Rmult_le_compat_r; [lra|exact RE].
      + rewrite (Rabs_right (K / M)) by lra.
        replace (/ 2 * bpow radix2 (- (24) + 1) * (K / M) * M)%R with (/ 2 * bpow radix2 (- (24) + 1) * K)%R by (field; lra).
        change (bpow radix2 (- (24) + 1)) with (/ 8388608)%R. change (bpow radix2 (-8)) with (/ 256)%R. lra. }
  assert (Y : (Rabs (real v * M) < bpow radix2 16)%R).
  { rewrite Rabs_right.
    - change (bpow radix2 16) with 65536%R. apply Rle_lt_trans with (1 * M)%R; [apply Rmult_le_compat_r; lra|lra].
    - apply Rle_ge, Rmult_le_pos; lra. }
  pose proof (rnd32_error (real v * M) 16 ltac:(lia) Y) as RE.
  assert (NK : nearest (rnd32 (real v * M)) = Z.of_N k).
  { unfold nearest. apply Znearest_imp.
    fold K.
    replace (rnd32 (real v * M) - K)%R with ((rnd32 (real v * M) - real v * M) + (real v * M - K))%R by lra.
    eapply Rle_lt_trans; [apply Rabs_triang|].
    change (bpow radix2 (16 - 25)) with (/ 512)%R in RE. change (bpow radix2 (-8)) with (/ 256)%R in X. lra. }
  lia.
Qed.
Print Assumptions C19_round_trip.

(** The conversion is undefined exactly when a stored channel is NaN. *)
Theorem C19_undefined : forall pk fl f c l p,
  createConverter fl f T_UNorm = Some c -> lsb_layout f = Some l ->
  (enc_px pk c p = None <->
   exists ch b v, In (ch, b) l /\ chan_val p ch = Some v /\ nan v = true).
Proof.
  intros pk fl f c l p C L. rewrite (C22_undefined pk fl f T_UNorm c l p C L) by nuf.
  split; intros (ch & b & v & I & V & Q); exists ch, b, v; repeat split; auto.
  - unfold quantum in Q. destruct (nan v); [reflexivity|discriminate].
  - unfold quantum. rewrite Q. reflexivity.
Qed.
Print Assumptions C19_undefined.

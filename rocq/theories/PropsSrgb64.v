(** C56: changing the colour space of an image, in binary64, for any [std::pow] with the accuracy
    of SrgbSpec.v. *)

From Coq Require Import ZArith NArith List Bool Lia Reals Lra.
From Coq Require Import ZifyBool ZifyNat ZifyN.
From Flocq Require Import Core Relative IEEE754.BinarySingleNaN IEEE754.Binary IEEE754.Bits.
From Verif Require Import Base FormatModel FloatModel FloatSpec FloatProofs ArithModel ArithSpec
  DoubleProofs TextureModel ImageModel ImageLoops ImageSpec ImageStoreProofs ImageGrayProofs
  ImageOpsProofs ImageApiProofs ImageValueProofs PropsColor PropsSrgb SrgbSpec Srgb64 SrgbChannel
  SrgbMap SrgbPow.
Import ListNotations.
Local Open Scope R_scope.

(** The channel [c] (value and maximum) is [y] in steps, rounded to the nearest up to [tol]. *)
Definition stored_as (tol y : R) (c : Z * Z) : Prop :=
  Rabs (IZR (fst c) - y * IZR (snd c)) <= / 2 + tol.

(** Every channel of [old] has become [h] of it. *)
Definition became (tol : Z -> R) (h : R -> R) (old new : list (Z * Z)) : Prop :=
  Forall2 (fun c c' => snd c' = snd c /\ stored_as (tol (snd c)) (h (fraction c)) c') old new.

Definition changed_to {pw} (cs : colorspace) (b b' : bitmap (double_arith pw)) : Prop :=
  b_fmt b' = b_fmt b /\ b_w b' = b_w b /\ b_h b' = b_h b /\ b_cs b' = cs.

(** The colour space is the one asked for already, or there is no image. *)
Theorem C56_same (A : arith) (b : bitmap A) :
  changeColorSpace (Some b) (b_cs b) = Some (Some b, true) /\
  changeColorSpace (A := A) None CS_Linear = Some (None, false) /\
  changeColorSpace (A := A) None CS_sRGB = Some (None, false).
Proof. split; [|split; reflexivity]. unfold changeColorSpace. destruct (b_cs b); reflexivity. Qed.

Lemma became_of t (T : Z -> R) h old new :
  (forall m, In m (map snd old) -> IZR m * t + / IZR (2 ^ 28) <= T m) ->
  map snd new = map snd old -> Forall2 (near_step t) new (map h (map fraction old)) ->
  became T h old new.
Proof.
  revert new. induction old as [|c old IH]; intros [|c' new] HT E F; try discriminate; constructor.
  - cbn [map] in *. injection E as E1 E2. inversion_clear F as [|? ? ? ? N F'].
    split; [exact E1|]. unfold stored_as. unfold near_step in N. specialize (HT (snd c) (or_introl eq_refl)).
    rewrite E1 in *. lra.
  - cbn [map] in *. injection E as E1 E2. inversion_clear F as [|? ? ? ? N F'].
    apply IH; auto. intros m Hm. apply HT. right; exact Hm.
Qed.

Lemma snd_maxima f l m : In m (map snd (rgb_of f l)) -> 1 <= IZR m <= 65535.
Proof.
  intros H.
  assert (1 <= m <= 65535)%Z.
  { destruct f; destruct l as [|? [|? [|? [|? [|? ?]]]]]; cbn [rgb_of map In snd] in H; intuition lia. }
  split; apply IZR_le; lia.
Qed.

Lemma maxima_bound m : maxima m -> (0 < m <= 65535)%Z.
Proof. unfold maxima. cbn [In]. lia. Qed.

Section Change.
Context (pw : double -> double -> double) (PW : pow_ok pw).
Local Notation D := (double_arith pw).

Lemma change_norm (b : bitmap D) (f : num D -> num D) (h : R -> R) cs :
  (forall m v, (0 < m <= 65535)%Z -> (0 <= v <= m)%Z ->
     dfinite (f (@toNorm D m v)) = true /\ 0 <= h (IZR v / IZR m) <= 1 /\
     Rabs (dreal (f (@toNorm D m v)) - h (IZR v / IZR m)) <= / IZR (2 ^ 43)) ->
  good pw b -> normalised (b_fmt b) ->
  exists b', mapPixels (onRGB f) b = Some b' /\ good pw (setColorSpace cs b') /\
    changed_to cs b (setColorSpace cs b') /\
    forall x y, within pw b x y -> exists l l',
      at_ pw b x y = PZ l /\ at_ pw (setColorSpace cs b') x y = PZ l' /\
      became (fun _ => / IZR (2 ^ 26)) h (rgb_of (b_fmt b) l) (rgb_of (b_fmt b) l') /\
      alpha_of (b_fmt b) l' = alpha_of (b_fmt b) l.
Proof.
  intros Hf G N.
  destruct (norm_map pw (onRGB f) (fun fs _ => map h fs) (/ IZR (2 ^ 43)) False) with (b := b)
    as (b' & E & G' & (S1 & S2 & S3 & S4) & P); auto.
  - intros r gr bl mr mg mb a af Mr Mg Mb Hr Hg Hb _ _ _ _. cbn [onRGB c_r c_g c_b c_a map].
    split; [|reflexivity].
    apply maxima_bound in Mr, Mg, Mb.
    constructor; [apply (Hf mr r Mr Hr)|]. constructor; [apply (Hf mg gr Mg Hg)|].
    constructor; [apply (Hf mb bl Mb Hb)|]. constructor.
  - intros x _. exists (h x). reflexivity.
  - intros [].
  - exists b'. split; [exact E|]. split; [exact G'|]. split; [unfold changed_to; cbn; auto|].
    intros x y W. destruct (P x y W) as (l & l' & E1 & E2 & M1 & M2 & _ & M4).
    exists l, l'. split; [exact E1|]. split; [exact E2|]. split; [|exact M4].
    apply became_of with (/ IZR (2 ^ 43)); auto.
    intros m Hm. apply snd_maxima in Hm. change (IZR (2 ^ 43)) with 8796093022208.
    change (IZR (2 ^ 28)) with 268435456. change (IZR (2 ^ 26)) with 67108864. lra.
Qed.

(** sRGB images with normalised channels become linear: every colour channel is the linear value
    of what it was, to the nearest step. *)
Theorem C56_to_linear (b : bitmap D) : good pw b -> normalised (b_fmt b) -> b_cs b = CS_sRGB ->
  exists b', changeColorSpace (Some b) CS_Linear = Some (Some b', true) /\ good pw b' /\
    changed_to CS_Linear b b' /\
    forall x y, within pw b x y -> exists l l',
      at_ pw b x y = PZ l /\ at_ pw b' x y = PZ l' /\
      became (fun _ => / IZR (2 ^ 26)) decode (rgb_of (b_fmt b) l) (rgb_of (b_fmt b) l') /\
      alpha_of (b_fmt b) l' = alpha_of (b_fmt b) l.
Proof.
  intros G N CS.
  destruct (change_norm b (@sRGBToLinear D) decode CS_Linear) as (b' & E & R); auto.
  - intros m v Hm Hv. destruct (decode_norm pw PW m v Hm Hv). split; [assumption|].
    split; [apply decode_unit, unit_frac; lia|assumption].
  - exists (setColorSpace CS_Linear b'). split; [|exact R]. unfold changeColorSpace. rewrite CS, E. reflexivity.
Qed.

(** And back. *)
Theorem C56_to_srgb (b : bitmap D) : good pw b -> normalised (b_fmt b) -> b_cs b = CS_Linear ->
  exists b', changeColorSpace (Some b) CS_sRGB = Some (Some b', true) /\ good pw b' /\
    changed_to CS_sRGB b b' /\
    forall x y, within pw b x y -> exists l l',
      at_ pw b x y = PZ l /\ at_ pw b' x y = PZ l' /\
      became (fun _ => / IZR (2 ^ 26)) encode (rgb_of (b_fmt b) l) (rgb_of (b_fmt b) l') /\
      alpha_of (b_fmt b) l' = alpha_of (b_fmt b) l.
Proof.
  intros G N CS.
  destruct (change_norm b (@linearToSRGB D) encode CS_sRGB) as (b' & E & R); auto.
  - intros m v Hm Hv. destruct (encode_norm pw PW m v Hm Hv). split; [assumption|].
    split; [apply encode_unit, unit_frac; lia|assumption].
  - exists (setColorSpace CS_sRGB b'). split; [|exact R]. unfold changeColorSpace. rewrite CS, E. reflexivity.
Qed.

(** ** There and back *)

(** Corresponding channels differ by at most [n] steps. *)
Definition moved (n : Z) (old new : list (Z * Z)) : Prop :=
  Forall2 (fun c c' => snd c' = snd c /\ (Z.abs (fst c' - fst c) <= n)%Z) old new.

Lemma abs_le_int x n : Rabs (IZR x) < IZR n + 1 -> (Z.abs x <= n)%Z.
Proof. intros H. rewrite <- abs_IZR, <- (plus_IZR n 1) in H. apply lt_IZR in H. lia. Qed.

Definition in_steps (c : Z * Z) : Prop := maxima (snd c) /\ (0 <= fst c <= snd c)%Z.

Lemma rgb_steps f l : stored pw f (PZ l) -> Forall in_steps (rgb_of f l).
Proof.
  intros S.
  assert (K : forall v m, maxima m -> (0 <= v <= m)%Z -> in_steps (v, m)) by (intros; split; assumption).
  assert (M31 : maxima 31) by (cbn; auto). assert (M63 : maxima 63) by (cbn; auto).
  assert (M255 : maxima 255) by (cbn; auto). assert (M65535 : maxima 65535) by (cbn; auto 6).
  destruct f; destruct l as [|a [|bb [|c [|d [|? ?]]]]]; cbn [rgb_of]; try (apply Forall_nil);
    cbn [stored] in S; unfold u8, u16, range in S;
    (apply Forall_cons; [apply K; [assumption|lia]|]); (apply Forall_cons; [apply K; [assumption|lia]|]);
    (apply Forall_cons; [apply K; [assumption|lia]|]); apply Forall_nil.
Qed.

Lemma compose_moved n f g old mid new :
  (forall m v w z, maxima m -> (0 <= v <= m)%Z -> (0 <= w <= m)%Z ->
     Rabs (IZR w - f (IZR v / IZR m) * IZR m) <= / 2 + / IZR (2 ^ 26) ->
     Rabs (IZR z - g (IZR w / IZR m) * IZR m) <= / 2 + / IZR (2 ^ 26) -> (Z.abs (z - v) <= n)%Z) ->
  Forall in_steps old -> Forall in_steps mid ->
  became (fun _ => / IZR (2 ^ 26)) f old mid -> became (fun _ => / IZR (2 ^ 26)) g mid new ->
  moved n old new.
Proof.
  intros H S1 S2 B1. revert new S1 S2. unfold moved.
  induction B1 as [|c d old mid [E1 N1] B1 IH]; intros new S1 S2 B2; inversion_clear B2 as [|? e ? new' [E2 N2] B2']; constructor.
  - inversion_clear S1 as [|? ? [M1 R1] S1']. inversion_clear S2 as [|? ? [M2 R2] S2'].
    split; [congruence|]. unfold stored_as, fraction in *. rewrite E1 in *. rewrite E2 in *.
    apply (H (snd c) (fst c) (fst d) (fst e)); auto.
  - inversion_clear S1; inversion_clear S2. apply IH; auto.
Qed.

Lemma scale_back m v w y : maxima m -> Rabs (IZR w - y * IZR m) <= / 2 + / IZR (2 ^ 26) ->
  v = IZR w / IZR m -> Rabs (v - y) <= (/ 2 + / IZR (2 ^ 26)) * / IZR m.
Proof.
  intros Mm H ->. apply maxima_bound in Mm. assert (0 < IZR m) by (apply IZR_lt; lia).
  replace (IZR w / IZR m - y) with ((IZR w - y * IZR m) * / IZR m) by (field; lra).
  rewrite Rabs_mult, (Rabs_pos_eq (/ IZR m)) by (left; apply Rinv_0_lt_compat; lra).
  apply Rmult_le_compat_r; [left; apply Rinv_0_lt_compat; lra|exact H].
Qed.

Lemma frac_times v m : (0 < m)%Z -> IZR v / IZR m * IZR m = IZR v.
Proof. intros H. assert (0 < IZR m) by (apply IZR_lt; lia). field. lra. Qed.

Lemma decode_encode_near c : 0 <= c <= 1 -> Rabs (decode (encode c) - c) <= 0.00000012.
Proof.
  intros H. destruct (Rle_dec c 0.0031308) as [L|L].
  { rewrite <- toSRGB_is, <- toLinear_is, C38_decode_encode by auto. rewrite Rminus_diag_eq, Rabs_R0 by reflexivity. lra. }
  destruct (Rle_dec 0.003130808 c) as [U|U].
  { rewrite <- toSRGB_is, <- toLinear_is, C38_decode_encode by auto. rewrite Rminus_diag_eq, Rabs_R0 by reflexivity. lra. }
  pose proof (encode_step 0.0031308 c ltac:(unfold lowE; lra) L) as S. pose proof encode_drop as ED.
  assert (E0 : encode 0.0031308 = 0.0031308 * 12.92) by (unfold encode; destruct (Rle_dec 0.0031308 0.0031308); lra).
  rewrite E0 in S.
  pose proof decode_above as DA. pose proof decode_jump.
  assert (P : decode 0.04045 = 0.04045 / 12.92) by (unfold decode; destruct (Rle_dec 0.04045 0.04045); lra).
  destruct (Rle_dec (encode c) 0.04045) as [Q|Q].
  - assert (E : decode (encode c) = encode c / 12.92) by (unfold decode; destruct (Rle_dec (encode c) 0.04045); lra).
    rewrite E. apply Rabs_le. lra.
  - pose proof (decode_step 0.04045 (encode c) ltac:(unfold lowD; lra) Q ltac:(apply encode_unit; lra)) as T.
    rewrite P in T. apply Rabs_le. lra.
Qed.

(** Linear to sRGB and back: no channel moves by more than one step. *)
Theorem C56_linear_roundtrip (b : bitmap D) : good pw b -> normalised (b_fmt b) -> b_cs b = CS_Linear ->
  exists b' b'', changeColorSpace (Some b) CS_sRGB = Some (Some b', true) /\
    changeColorSpace (Some b') CS_Linear = Some (Some b'', true) /\ changed_to CS_Linear b b'' /\
    forall x y, within pw b x y -> exists l l'',
      at_ pw b x y = PZ l /\ at_ pw b'' x y = PZ l'' /\
      moved 1 (rgb_of (b_fmt b) l) (rgb_of (b_fmt b) l'') /\
      alpha_of (b_fmt b) l'' = alpha_of (b_fmt b) l.
Proof.
  intros G N CS.
  destruct (C56_to_srgb b G N CS) as (b' & E1 & G1 & (F1 & W1 & H1 & C1) & P1).
  destruct (C56_to_linear b' G1) as (b'' & E2 & G2 & (F2 & W2 & H2 & C2) & P2).
  { rewrite F1; exact N. } { exact C1. }
  exists b', b''. split; [exact E1|]. split; [exact E2|].
  split; [unfold changed_to; rewrite F2, W2, H2, C2; auto|].
  intros x y W. destruct (P1 x y W) as (l & l' & A1 & A2 & B1 & AL1).
  assert (W' : within pw b' x y) by (unfold within in *; rewrite W1, H1; exact W).
  destruct (P2 x y W') as (k & l'' & A3 & A4 & B2 & AL2). rewrite F1 in *.
  rewrite A2 in A3. injection A3 as <-.
  exists l, l''. split; [exact A1|]. split; [exact A4|]. split; [|congruence].
  destruct G as (_ & _ & GS). specialize (GS x y W). rewrite A1 in GS.
  destruct G1 as (_ & _ & GS1). specialize (GS1 x y W'). rewrite A2, F1 in GS1.
  apply (compose_moved 1 encode decode) with (mid := rgb_of (b_fmt b) l'); auto.
  - intros m v w z Mm Hv Hw Nw Nz. pose proof (maxima_bound m Mm) as Bm.
    assert (M : 1 <= IZR m <= 65535) by (split; apply IZR_le; lia).
    pose proof (unit_frac v m ltac:(lia) Hv) as Uv. pose proof (unit_frac w m ltac:(lia) Hw) as Uw.
    pose proof (scale_back m _ w _ Mm Nw eq_refl) as S.
    pose proof (encode_unit _ Uv) as Ue.
    pose proof (decode_any (IZR w / IZR m) (encode (IZR v / IZR m)) ltac:(lra) ltac:(lra)) as L.
    pose proof (decode_encode_near _ Uv) as Q.
    set (q := IZR v / IZR m) in *. assert (Eq : q * IZR m = IZR v) by (apply frac_times; lia).
    set (p := decode (IZR w / IZR m)) in *. set (r := decode (encode q)) in *.
    apply abs_le_int. rewrite minus_IZR.
    assert (L2 : Rabs ((p - q) * IZR m) <= 2.4 * (/ 2 + / IZR (2 ^ 26)) + 65535 * 0.000000124).
    { rewrite Rabs_mult, (Rabs_pos_eq (IZR m)) by lra.
      assert (Rabs (p - q) <= 2.4 * ((/ 2 + / IZR (2 ^ 26)) * / IZR m) + 0.000000124).
      { apply Rabs_le_inv in L, Q. apply Rabs_le. lra. }
      apply Rle_trans with ((2.4 * ((/ 2 + / IZR (2 ^ 26)) * / IZR m) + 0.000000124) * IZR m).
      - apply Rmult_le_compat_r; lra.
      - rewrite Rmult_plus_distr_r. apply Rplus_le_compat; [rewrite !Rmult_assoc, Rinv_l by lra; lra|lra]. }
    change (IZR (2 ^ 26)) with 67108864 in *.
    replace ((p - q) * IZR m) with (p * IZR m - IZR v) in L2 by (rewrite <- Eq; ring).
    apply Rabs_le_inv in L2, Nz. apply Rabs_def1; lra.
  - apply rgb_steps, GS.
  - apply rgb_steps, GS1.
Qed.

(** sRGB to linear and back: no channel moves by more than six steps. *)
Theorem C56_srgb_roundtrip (b : bitmap D) : good pw b -> normalised (b_fmt b) -> b_cs b = CS_sRGB ->
  exists b' b'', changeColorSpace (Some b) CS_Linear = Some (Some b', true) /\
    changeColorSpace (Some b') CS_sRGB = Some (Some b'', true) /\ changed_to CS_sRGB b b'' /\
    forall x y, within pw b x y -> exists l l'',
      at_ pw b x y = PZ l /\ at_ pw b'' x y = PZ l'' /\
      moved 6 (rgb_of (b_fmt b) l) (rgb_of (b_fmt b) l'') /\
      alpha_of (b_fmt b) l'' = alpha_of (b_fmt b) l.
Proof.
  intros G N CS.
  destruct (C56_to_linear b G N CS) as (b' & E1 & G1 & (F1 & W1 & H1 & C1) & P1).
  destruct (C56_to_srgb b' G1) as (b'' & E2 & G2 & (F2 & W2 & H2 & C2) & P2).
  { rewrite F1; exact N. } { exact C1. }
  exists b', b''. split; [exact E1|]. split; [exact E2|].
  split; [unfold changed_to; rewrite F2, W2, H2, C2; auto|].
  intros x y W. destruct (P1 x y W) as (l & l' & A1 & A2 & B1 & AL1).
  assert (W' : within pw b' x y) by (unfold within in *; rewrite W1, H1; exact W).
  destruct (P2 x y W') as (k & l'' & A3 & A4 & B2 & AL2). rewrite F1 in *.
  rewrite A2 in A3. injection A3 as <-.
  exists l, l''. split; [exact A1|]. split; [exact A4|]. split; [|congruence].
  destruct G as (_ & _ & GS). specialize (GS x y W). rewrite A1 in GS.
  destruct G1 as (_ & _ & GS1). specialize (GS1 x y W'). rewrite A2, F1 in GS1.
  apply (compose_moved 6 decode encode) with (mid := rgb_of (b_fmt b) l'); auto.
  - intros m v w z Mm Hv Hw Nw Nz. pose proof (maxima_bound m Mm) as Bm.
    assert (M : 1 <= IZR m <= 65535) by (split; apply IZR_le; lia).
    pose proof (unit_frac v m ltac:(lia) Hv) as Uv. pose proof (unit_frac w m ltac:(lia) Hw) as Uw.
    pose proof (scale_back m _ w _ Mm Nw eq_refl) as S.
    pose proof (encode_any (IZR w / IZR m) (decode (IZR v / IZR m))) as L.
    pose proof (C38_gap_error _ (proj1 Uv)) as Q. rewrite toSRGB_is, toLinear_is in Q.
    set (q := IZR v / IZR m) in *. assert (Eq : q * IZR m = IZR v) by (apply frac_times; lia).
    set (p := encode (IZR w / IZR m)) in *. set (r := encode (decode q)) in *.
    apply abs_le_int. rewrite minus_IZR.
    assert (L2 : Rabs ((p - q) * IZR m) <= 12.92 * (/ 2 + / IZR (2 ^ 26)) + 65535 * 0.00000013).
    { rewrite Rabs_mult, (Rabs_pos_eq (IZR m)) by lra.
      assert (Rabs (p - q) <= 12.92 * ((/ 2 + / IZR (2 ^ 26)) * / IZR m) + 0.00000013).
      { apply Rabs_le_inv in L. apply Rabs_def2 in Q. apply Rabs_le. lra. }
      apply Rle_trans with ((12.92 * ((/ 2 + / IZR (2 ^ 26)) * / IZR m) + 0.00000013) * IZR m).
      - apply Rmult_le_compat_r; lra.
      - rewrite Rmult_plus_distr_r. apply Rplus_le_compat; [rewrite !Rmult_assoc, Rinv_l by lra; lra|lra]. }
    change (IZR (2 ^ 26)) with 67108864 in *.
    replace ((p - q) * IZR m) with (p * IZR m - IZR v) in L2 by (rewrite <- Eq; ring).
    apply Rabs_le_inv in L2, Nz. apply Rabs_def1; lra.
  - apply rgb_steps, GS.
  - apply rgb_steps, GS1.
Qed.


(** ** Images of floats and doubles *)

(** [x'] is [h x], up to the precision of [float]. *)
Definition float_of (h : R -> R) (x x' : float) : Prop :=
  finite x = true -> Rabs (h (real x)) <= bpow radix2 127 ->
  finite x' = true /\ Rabs (real x' - h (real x)) <= / IZR (2 ^ 23) * Rabs (h (real x)) + bpow radix2 (-149).

Lemma rnd32_any x : Rabs (rnd32 x - x) <= / IZR (2 ^ 24) * Rabs x + bpow radix2 (-150).
Proof.
  destruct (error_N_FLT radix2 (-149) 24 eq_refl (fun z => negb (Z.even z)) x) as (e & h & He & Hh & _ & E).
  unfold rnd32. rewrite E. replace (x * (1 + e) + h - x) with (x * e + h) by ring.
  eapply Rle_trans; [apply Rabs_triang|]. rewrite Rabs_mult.
  apply Rplus_le_compat.
  - rewrite Rmult_comm. apply Rmult_le_compat_r; [apply Rabs_pos|].
    eapply Rle_trans; [exact He|]. change (bpow radix2 (- (24) + 1)) with (/ IZR (2 ^ 23)).
    change (IZR (2 ^ 23)) with 8388608. change (IZR (2 ^ 24)) with 16777216. lra.
  - eapply Rle_trans; [exact Hh|]. replace (-149)%Z with (-150 + 1)%Z by reflexivity.
    rewrite bpow_plus. change (bpow radix2 1) with 2. lra.
Qed.

(** A [double] close to [y], stored as a [float]. *)
Lemma narrow_close (d : double) y e : dfinite d = true -> 0 <= e -> Rabs (dreal d - y) <= e -> Rabs y + e <= 1.5 * bpow radix2 127 ->
  finite (dnarrow d) = true /\
  Rabs (real (dnarrow d) - y) <= e + / IZR (2 ^ 24) * (Rabs y + e) + bpow radix2 (-150).
Proof.
  intros F He H B.
  assert (A : Rabs (dreal d) <= Rabs y + e).
  { replace (dreal d) with (y + (dreal d - y)) by ring. eapply Rle_trans; [apply Rabs_triang|]. lra. }
  pose proof (rnd32_any (dreal d)) as N.
  change (IZR (2 ^ 24)) with 16777216 in *.
  assert (P150 : 0 < bpow radix2 (-150) <= 1).
  { split; [apply bpow_gt_0|]. change 1 with (bpow radix2 0). apply bpow_le; lia. }
  assert (P127 : 4 <= bpow radix2 127) by (change 4 with (bpow radix2 2); apply bpow_le; lia).
  assert (P128 : bpow radix2 128 = 2 * bpow radix2 127).
  { change 2 with (bpow radix2 1). rewrite <- bpow_plus. reflexivity. }
  destruct (dnarrow_ok d F) as [F2 E2].
  { rewrite P128. apply Rle_lt_trans with (Rabs (dreal d) + (/ 16777216 * Rabs (dreal d) + bpow radix2 (-150))); [|lra].
    replace (rnd32 (dreal d)) with (dreal d + (rnd32 (dreal d) - dreal d)) by ring.
    eapply Rle_trans; [apply Rabs_triang|]. lra. }
  split; [exact F2|]. rewrite E2.
  apply Rabs_le_inv in N, H. apply Rabs_le. lra.
Qed.

Lemma float_wide (x : float) : finite x = true -> wide (dwiden x) /\ dreal (dwiden x) = real x.
Proof.
  intros F. destruct (dwiden_ok x F) as [F2 E2]. split; [|exact E2]. split; [exact F2|].
  rewrite E2. left. apply abs_B2R_lt_emax.
Qed.

Lemma float_of_intro (f : num D -> num D) h (x : float) :
  (forall c : double, wide c -> dfinite (f c) = true /\
     Rabs (dreal (f c) - h (dreal c)) <= / IZR (2 ^ 44) * Rabs (h (dreal c)) + eta) ->
  float_of h x (dnarrow (f (dwiden x))).
Proof.
  intros Hf F B. destruct (float_wide x F) as [W E]. destruct (Hf _ W) as [F2 N]. rewrite E in N.
  pose proof eta_pos as EP. pose proof (Rabs_pos (h (real x))) as AP.
  assert (ET : eta <= / 1000 * bpow radix2 (-150)).
  { unfold eta. apply Rle_trans with (bpow radix2 (-10 + -150)); [apply bpow_le; lia|].
    rewrite bpow_plus. apply Rmult_le_compat_r; [apply bpow_ge_0|].
    change (bpow radix2 (-10)) with (/ 1024). lra. }
  assert (P150 : 0 < bpow radix2 (-150) <= 1).
  { split; [apply bpow_gt_0|]. change 1 with (bpow radix2 0). apply bpow_le; lia. }
  assert (P127 : 4 <= bpow radix2 127) by (change 4 with (bpow radix2 2); apply bpow_le; lia).
  assert (P149 : bpow radix2 (-149) = 2 * bpow radix2 (-150)).
  { change 2 with (bpow radix2 1). rewrite <- bpow_plus. reflexivity. }
  change (IZR (2 ^ 44)) with 17592186044416 in N.
  destruct (narrow_close (f (dwiden x)) (h (real x)) (/ 17592186044416 * Rabs (h (real x)) + eta) F2 ltac:(lra) N) as [F3 N3]; [lra|].
  split; [exact F3|]. change (IZR (2 ^ 23)) with 8388608. change (IZR (2 ^ 24)) with 16777216 in N3. lra.
Qed.

(** The colour channels of a pixel of floats become [h] of themselves; alpha stays. *)
Definition float_pixel (h : R -> R) (l l' : list float) : Prop :=
  match l, l' with
  | [v], [v'] => float_of h v v'
  | [r; g; b], [r'; g'; b'] => float_of h r r' /\ float_of h g g' /\ float_of h b b'
  | [r; g; b; a], [r'; g'; b'; a'] =>
      float_of h r r' /\ float_of h g g' /\ float_of h b b' /\ same_float a' a
  | _, _ => False
  end.

Lemma alpha_same (a : float) : same_float (dnarrow (dwiden a)) a.
Proof.
  destruct (nan a) eqn:N.
  - right. split; [apply (narrow_widen_nan a N)|exact N].
  - left. apply (narrow_widen a N).
Qed.

Lemma change_float (f : num D -> num D) h (b : bitmap D) cs :
  (forall c : double, wide c -> dfinite (f c) = true /\
     Rabs (dreal (f c) - h (dreal c)) <= / IZR (2 ^ 44) * Rabs (h (dreal c)) + eta) ->
  good pw b -> In (b_fmt b) [I_RGBF; I_RGBAF; I_Float] ->
  exists b', mapPixels (onRGB f) b = Some b' /\ good pw (setColorSpace cs b') /\
    changed_to cs b (setColorSpace cs b') /\
    forall x y, within pw b x y -> exists l l',
      at_ pw b x y = @PF D l /\ at_ pw (setColorSpace cs b') x y = @PF D l' /\ float_pixel h l l'.
Proof.
  intros Hf G F.
  destruct (mapPixels_pix pw (onRGB f) b (fun p q => exists l l',
      p = @PF D l /\ q = @PF D l' /\ float_pixel h l l') G) as (b' & E & G' & (S1 & S2 & S3 & S4) & P).
  { intros p S.
    destruct F as [F|[F|[F|[]]]]; rewrite <- F in *;
      destruct p as [l|l|l]; destruct l as [|z1 [|z2 [|z3 [|z4 [|? ?]]]]]; try contradiction;
      unfold mapStored; (eexists; split; [reflexivity|]); (split; [exact I|]);
      eexists; eexists; (split; [reflexivity|]); (split; [reflexivity|]); cbn [float_pixel].
    - split; [|split]; apply float_of_intro, Hf.
    - split; [|split; [|split]]; try (apply float_of_intro, Hf). apply alpha_same.
    - apply float_of_intro, Hf. }
  exists b'. split; [exact E|]. split; [exact G'|]. split; [unfold changed_to; cbn; auto|]. exact P.
Qed.

Lemma encode64' c : wide c -> dfinite (@linearToSRGB D c) = true /\
  Rabs (dreal (@linearToSRGB D c) - encode (dreal c)) <= / IZR (2 ^ 44) * Rabs (encode (dreal c)) + eta.
Proof.
  intros W. destruct (encode64 pw PW c W) as [F E]. split; [exact F|].
  pose proof (Rabs_pos (encode (dreal c))).
  change (IZR (2 ^ 45)) with 35184372088832 in E. change (IZR (2 ^ 44)) with 17592186044416. lra.
Qed.

Theorem C56_to_linear_float (b : bitmap D) : good pw b -> In (b_fmt b) [I_RGBF; I_RGBAF; I_Float] ->
  b_cs b = CS_sRGB ->
  exists b', changeColorSpace (Some b) CS_Linear = Some (Some b', true) /\ good pw b' /\
    changed_to CS_Linear b b' /\
    forall x y, within pw b x y -> exists l l',
      at_ pw b x y = @PF D l /\ at_ pw b' x y = @PF D l' /\ float_pixel decode l l'.
Proof.
  intros G F CS. destruct (change_float (@sRGBToLinear D) decode b CS_Linear (decode64 pw PW) G F) as (b' & E & R).
  exists (setColorSpace CS_Linear b'). split; [|exact R]. unfold changeColorSpace. rewrite CS, E. reflexivity.
Qed.

Theorem C56_to_srgb_float (b : bitmap D) : good pw b -> In (b_fmt b) [I_RGBF; I_RGBAF; I_Float] ->
  b_cs b = CS_Linear ->
  exists b', changeColorSpace (Some b) CS_sRGB = Some (Some b', true) /\ good pw b' /\
    changed_to CS_sRGB b b' /\
    forall x y, within pw b x y -> exists l l',
      at_ pw b x y = @PF D l /\ at_ pw b' x y = @PF D l' /\ float_pixel encode l l'.
Proof.
  intros G F CS. destruct (change_float (@linearToSRGB D) encode b CS_sRGB encode64' G F) as (b' & E & R).
  exists (setColorSpace CS_sRGB b'). split; [|exact R]. unfold changeColorSpace. rewrite CS, E. reflexivity.
Qed.

(** There and back: floats in [0, 1] come back within 0.000002. *)
Definition unit_float (x : float) : Prop := finite x = true /\ 0 <= real x <= 1.
Definition close_floats (l l' : list float) : Prop :=
  length l = length l' /\
  forall k x x', (k < 3)%nat -> nth_error l k = Some x -> nth_error l' k = Some x' -> unit_float x ->
    finite x' = true /\ Rabs (real x' - real x) <= 0.000002.

Lemma float_roundtrip x x' x'' : float_of decode x x' -> float_of encode x' x'' -> unit_float x ->
  finite x'' = true /\ Rabs (real x'' - real x) <= 0.000002.
Proof.
  intros D1 D2 [F U]. pose proof (decode_unit _ U) as Ud.
  assert (P127 : 4 <= bpow radix2 127) by (change 4 with (bpow radix2 2); apply bpow_le; lia).
  assert (P149 : bpow radix2 (-149) <= / IZR (2 ^ 60)).
  { change (/ IZR (2 ^ 60)) with (bpow radix2 (-60)). apply bpow_le; lia. }
  change (IZR (2 ^ 60)) with 1152921504606846976 in P149.
  destruct (D1 F) as [F1 N1]; [rewrite Rabs_pos_eq; lra|]. rewrite (Rabs_pos_eq (decode _)) in N1 by lra.
  change (IZR (2 ^ 23)) with 8388608 in N1.
  pose proof (encode_any (real x') (decode (real x))) as L.
  pose proof (C38_gap_error _ (proj1 U)) as Q. rewrite toSRGB_is, toLinear_is in Q.
  apply Rabs_le_inv in L. apply Rabs_def2 in Q.
  assert (A : Rabs (encode (real x')) <= 2) by (apply Rabs_le; lra).
  destruct (D2 F1) as [F2 N2]; [lra|]. split; [exact F2|].
  change (IZR (2 ^ 23)) with 8388608 in N2. apply Rabs_le_inv in N2. apply Rabs_le. lra.
Qed.

Theorem C56_float_roundtrip (b : bitmap D) : good pw b -> In (b_fmt b) [I_RGBF; I_RGBAF; I_Float] ->
  b_cs b = CS_sRGB ->
  exists b' b'', changeColorSpace (Some b) CS_Linear = Some (Some b', true) /\
    changeColorSpace (Some b') CS_sRGB = Some (Some b'', true) /\ changed_to CS_sRGB b b'' /\
    forall x y, within pw b x y -> exists l l'',
      at_ pw b x y = @PF D l /\ at_ pw b'' x y = @PF D l'' /\ close_floats l l''.
Proof.
  intros G F CS.
  destruct (C56_to_linear_float b G F CS) as (b' & E1 & G1 & (F1 & W1 & H1 & C1) & P1).
  destruct (C56_to_srgb_float b' G1) as (b'' & E2 & G2 & (F2 & W2 & H2 & C2) & P2).
  { rewrite F1; exact F. } { exact C1. }
  exists b', b''. split; [exact E1|]. split; [exact E2|].
  split; [unfold changed_to; rewrite F2, W2, H2, C2; auto|].
  intros x y W. destruct (P1 x y W) as (l & l' & A1 & A2 & B1).
  assert (W' : within pw b' x y) by (unfold within in *; rewrite W1, H1; exact W).
  destruct (P2 x y W') as (k & l'' & A3 & A4 & B2).
  rewrite A2 in A3. injection A3 as <-.
  exists l, l''. split; [exact A1|]. split; [exact A4|].
  destruct l as [|r [|gr [|bl [|a [|? ?]]]]], l' as [|r' [|g' [|b0' [|a' [|? ?]]]]]; cbn [float_pixel] in B1; try contradiction;
    destruct l'' as [|r'' [|g'' [|b0'' [|a'' [|? ?]]]]]; cbn [float_pixel] in B2; try contradiction;
    (split; [reflexivity|]); intros [|[|[|k]]] u u' Hk X X' U; try lia; cbn [nth_error] in X, X'; try discriminate;
    injection X as <-; injection X' as <-; eapply float_roundtrip; try exact U; try apply B1; apply B2.
Qed.

(** Images of doubles. *)
Definition double_of (h : R -> R) (v v' : double) : Prop :=
  wide v -> dfinite v' = true /\
  Rabs (dreal v' - h (dreal v)) <= / IZR (2 ^ 44) * Rabs (h (dreal v)) + bpow radix2 (-1075).

Lemma change_double (f : num D -> num D) h (b : bitmap D) cs :
  (forall c : double, wide c -> dfinite (f c) = true /\
     Rabs (dreal (f c) - h (dreal c)) <= / IZR (2 ^ 44) * Rabs (h (dreal c)) + eta) ->
  good pw b -> b_fmt b = I_Double ->
  exists b', mapPixels (onRGB f) b = Some b' /\ good pw (setColorSpace cs b') /\
    changed_to cs b (setColorSpace cs b') /\
    forall x y, within pw b x y -> exists v v',
      at_ pw b x y = @PN D [v] /\ at_ pw (setColorSpace cs b') x y = @PN D [v'] /\ double_of h v v'.
Proof.
  intros Hf G F.
  destruct (mapPixels_pix pw (onRGB f) b (fun p q => exists v v',
      p = @PN D [v] /\ q = @PN D [v'] /\ double_of h v v') G) as (b' & E & G' & (S1 & S2 & S3 & S4) & P).
  { intros p S. rewrite F in *.
    destruct p as [l|l|l]; destruct l as [|z1 [|? ?]]; try contradiction;
      unfold mapStored; (eexists; split; [reflexivity|]); (split; [exact I|]);
      eexists; eexists; (split; [reflexivity|]); (split; [reflexivity|]). intros W. apply Hf, W. }
  exists b'. split; [exact E|]. split; [exact G'|]. split; [unfold changed_to; cbn; auto|]. exact P.
Qed.

Theorem C56_double (b : bitmap D) : good pw b -> b_fmt b = I_Double ->
  (b_cs b = CS_sRGB -> exists b', changeColorSpace (Some b) CS_Linear = Some (Some b', true) /\ good pw b' /\
    changed_to CS_Linear b b' /\
    forall x y, within pw b x y -> exists v v',
      at_ pw b x y = @PN D [v] /\ at_ pw b' x y = @PN D [v'] /\ double_of decode v v') /\
  (b_cs b = CS_Linear -> exists b', changeColorSpace (Some b) CS_sRGB = Some (Some b', true) /\ good pw b' /\
    changed_to CS_sRGB b b' /\
    forall x y, within pw b x y -> exists v v',
      at_ pw b x y = @PN D [v] /\ at_ pw b' x y = @PN D [v'] /\ double_of encode v v').
Proof.
  intros G F. split; intros CS.
  - destruct (change_double (@sRGBToLinear D) decode b CS_Linear (decode64 pw PW) G F) as (b' & E & R).
    exists (setColorSpace CS_Linear b'). split; [|exact R]. unfold changeColorSpace. rewrite CS, E. reflexivity.
  - destruct (change_double (@linearToSRGB D) encode b CS_sRGB encode64' G F) as (b' & E & R).
    exists (setColorSpace CS_sRGB b'). split; [|exact R]. unfold changeColorSpace. rewrite CS, E. reflexivity.
Qed.

(** ** Images of plain integers *)

Definition int_limits (f : imgfmt) : option (Z * Z) :=
  match f with
  | I_Int16 => Some (- 2 ^ 15, 2 ^ 15 - 1) | I_UInt16 => Some (0, 2 ^ 16 - 1)
  | I_Int32 => Some (- 2 ^ 31, 2 ^ 31 - 1) | I_UInt32 => Some (0, 2 ^ 32 - 1)
  | _ => None
  end%Z.

Lemma toInt_close lo hi (d : double) y : (- 2 ^ 31 <= lo <= 0)%Z -> (0 < hi < 2 ^ 32)%Z -> dfinite d = true ->
  Rabs (dreal d - y) <= / IZR (2 ^ 44) * Rabs y + eta ->
  (IZR lo - 1 < y - / 1000 -> y + / 1000 < IZR hi + 1 ->
     exists v, @toInt D lo hi d = Some v /\ (lo <= v <= hi)%Z /\ Rabs (IZR v - y) < 1 + / 1000) /\
  (IZR hi + 1 <= y - / 1000 \/ y + / 1000 <= IZR lo - 1 -> @toInt D lo hi d = None).
Proof.
  intros Hlo Hhi F N.
  assert (ET : eta <= / IZR (2 ^ 60)) by (unfold eta; change (/ IZR (2 ^ 60)) with (bpow radix2 (-60)); apply bpow_le; lia).
  change (IZR (2 ^ 60)) with 1152921504606846976 in ET. change (IZR (2 ^ 44)) with 17592186044416 in N.
  assert (L1 : -2147483648 <= IZR lo <= 0) by (split; apply IZR_le; lia).
  assert (L2 : 0 <= IZR hi <= 4294967296) by (split; apply IZR_le; lia).
  unfold toInt. cbn [ntrunc double_arith]. rewrite (dtrunc_ok _ F). unfold cast_int.
  set (t := dreal d) in *. clearbody t.
  split.
  - intros A B. assert (AB : Rabs y <= 4294967300) by (apply Rabs_le; lra).
    apply Rabs_le_inv in N.
    assert (T : (lo <= Ztrunc t <= hi)%Z).
    { split.
      - destruct (Rle_dec t 0) as [T0|T0].
        + rewrite Ztrunc_ceil by lra. apply Z.lt_pred_le, lt_IZR. rewrite <- Z.sub_1_r, minus_IZR.
          pose proof (Zceil_ub t). lra.
        + rewrite Ztrunc_floor by lra. assert (0 <= Zfloor t)%Z; [|lia]. apply Zfloor_lub. lra.
      - destruct (Rle_dec 0 t) as [T0|T0].
        + rewrite Ztrunc_floor by lra. apply Z.lt_succ_r, lt_IZR. rewrite succ_IZR.
          pose proof (Zfloor_lb t). lra.
        + rewrite Ztrunc_ceil by lra. assert (Zceil t <= 0)%Z; [|lia]. apply Zceil_glb. lra. }
    exists (Ztrunc t). split.
    { destruct (Z.leb_spec lo (Ztrunc t)), (Z.leb_spec (Ztrunc t) hi); try lia; reflexivity. }
    split; [exact T|].
    assert (R : Rabs (IZR (Ztrunc t) - t) < 1).
    { destruct (Rle_dec 0 t).
      - rewrite Ztrunc_floor by lra. pose proof (Zfloor_lb t). pose proof (Zfloor_ub t). apply Rabs_def1; lra.
      - rewrite Ztrunc_ceil by lra. pose proof (Zceil_ub t). pose proof (Zceil_lb t). apply Rabs_def1; lra. }
    apply Rabs_def2 in R. apply Rabs_def1; lra.
  - intros [A|A].
    + assert (Y : 0 < y) by lra. rewrite (Rabs_pos_eq y) in N by lra. apply Rabs_le_inv in N.
      assert (hi + 1 <= Ztrunc t)%Z.
      { rewrite Ztrunc_floor by lra. apply Zfloor_lub. rewrite plus_IZR. lra. }
      destruct (Z.leb_spec (Ztrunc t) hi); [lia|]. apply andb_false_r || (destruct (lo <=? Ztrunc t)%Z; reflexivity).
    + assert (Y : y < 0) by lra. rewrite (Rabs_left y) in N by lra. apply Rabs_le_inv in N.
      assert (Ztrunc t <= lo - 1)%Z.
      { rewrite Ztrunc_ceil by lra. apply Zceil_glb. rewrite minus_IZR. lra. }
      destruct (Z.leb_spec lo (Ztrunc t)); [lia|]. reflexivity.
Qed.

(** The number [h v] can be stored (its fraction is dropped), or it cannot. *)
Definition fits (lo hi : Z) (y : R) : Prop := IZR lo - 1 < y - / 1000 /\ y + / 1000 < IZR hi + 1.
Definition misfits (lo hi : Z) (y : R) : Prop := IZR hi + 1 <= y - / 1000 \/ y + / 1000 <= IZR lo - 1.

Lemma int_limits_range f lo hi : int_limits f = Some (lo, hi) -> (- 2 ^ 31 <= lo <= 0)%Z /\ (0 < hi < 2 ^ 32)%Z.
Proof. destruct f; cbn [int_limits]; intros [= <- <-] || discriminate; lia. Qed.

Lemma int_stored f lo hi (p : pix D) : int_limits f = Some (lo, hi) -> stored pw f p ->
  exists v, p = PZ [v] /\ (lo <= v <= hi)%Z.
Proof.
  destruct f; cbn [int_limits]; intros [= <- <-] S || discriminate;
    destruct p as [l|l|l]; destruct l as [|v [|? ?]]; try contradiction; exists v; cbn [stored] in S;
    unfold u16, range in S; split; auto; lia.
Qed.

Lemma int_pixel f lo hi (g : num D -> num D) v : int_limits f = Some (lo, hi) ->
  mapStored f (onRGB g) (@PZ D [v]) = @oPZ1 D (@toInt D lo hi (g (double_of_Z v))).
Proof. destruct f; cbn [int_limits]; intros [= <- <-] || discriminate; reflexivity. Qed.

Lemma int_wide lo hi v : (- 2 ^ 31 <= lo <= 0)%Z -> (0 < hi < 2 ^ 32)%Z -> (lo <= v <= hi)%Z ->
  wide (double_of_Z v) /\ dreal (double_of_Z v) = IZR v.
Proof.
  intros Hlo Hhi Hv. destruct (double_of_Z_ok v) as [R F]; [lia|]. split; [split; [exact F|]|exact R].
  rewrite R, <- abs_IZR. apply Rle_trans with (IZR (2 ^ 32)); [apply IZR_le; lia|].
  change (IZR (2 ^ 32)) with (bpow radix2 32). apply bpow_le; lia.
Qed.

Lemma change_int (f : num D -> num D) h (b : bitmap D) cs lo hi :
  (forall c : double, wide c -> dfinite (f c) = true /\
     Rabs (dreal (f c) - h (dreal c)) <= / IZR (2 ^ 44) * Rabs (h (dreal c)) + eta) ->
  good pw b -> int_limits (b_fmt b) = Some (lo, hi) ->
  ((forall x y v, within pw b x y -> at_ pw b x y = PZ [v] -> fits lo hi (h (IZR v))) ->
   exists b', mapPixels (onRGB f) b = Some b' /\ good pw (setColorSpace cs b') /\
    changed_to cs b (setColorSpace cs b') /\
    forall x y, within pw b x y -> exists v v',
      at_ pw b x y = @PZ D [v] /\ at_ pw (setColorSpace cs b') x y = @PZ D [v'] /\
      Rabs (IZR v' - h (IZR v)) < 1 + / 1000) /\
  ((exists x y v, within pw b x y /\ at_ pw b x y = PZ [v] /\ misfits lo hi (h (IZR v))) ->
   mapPixels (onRGB f) b = None).
Proof.
  intros Hf G L. destruct (int_limits_range _ _ _ L) as [Hlo Hhi].
  assert (K : forall v, (lo <= v <= hi)%Z ->
    (fits lo hi (h (IZR v)) -> exists v', mapStored (b_fmt b) (onRGB f) (@PZ D [v]) = Some (PZ [v']) /\
       (lo <= v' <= hi)%Z /\ Rabs (IZR v' - h (IZR v)) < 1 + / 1000) /\
    (misfits lo hi (h (IZR v)) -> mapStored (b_fmt b) (onRGB f) (@PZ D [v]) = None)).
  { intros v Hv. rewrite (int_pixel _ _ _ _ _ L). destruct (int_wide lo hi v Hlo Hhi Hv) as [W R].
    destruct (Hf _ W) as [F N]. rewrite R in N.
    destruct (toInt_close lo hi _ (h (IZR v)) Hlo Hhi F N) as [T1 T2]. split.
    - intros [A B]. destruct (T1 A B) as (v' & E & Bv & Nv). exists v'. rewrite E. auto.
    - intros M. rewrite T2 by exact M. reflexivity. }
  split.
  - intros FIT.
    assert (Q : forall x y, inside b x y -> exists v v', b_px b x y = PZ [v] /\
      mapStored (b_fmt b) (onRGB f) (b_px b x y) = Some (PZ [v']) /\ (lo <= v' <= hi)%Z /\
      Rabs (IZR v' - h (IZR v)) < 1 + / 1000).
    { intros x y I. pose proof (good_scan pw b x y G I) as S.
      destruct (int_stored _ _ _ _ L S) as (v & E & Bv).
      assert (W : within pw b x (b_h b - 1 - y) /\ at_ pw b x (b_h b - 1 - y) = PZ [v]).
      { destruct I as [I1 I2]. unfold within, at_. split; [lia|].
        replace (b_h b - 1 - (b_h b - 1 - y))%N with y by lia. exact E. }
      destruct (proj1 (K v Bv) (FIT _ _ v (proj1 W) (proj2 W))) as (v' & E' & B' & N').
      exists v, v'. rewrite E. auto. }
    destruct (mapPixels_total (onRGB f) b) as [b' E].
    { intros x y I. destruct (Q x y I) as (v & v' & _ & -> & _). discriminate. }
    exists b'. split; [exact E|].
    destruct (mapPixels_result (onRGB f) b b' E) as [(S1 & S2 & S3 & S4) R].
    assert (PX : forall x y, within pw b x y -> exists v v',
      at_ pw b x y = @PZ D [v] /\ at_ pw b' x y = @PZ D [v'] /\ (lo <= v' <= hi)%Z /\
      Rabs (IZR v' - h (IZR v)) < 1 + / 1000).
    { intros x y W. assert (I : inside b x (b_h b - 1 - y)) by (unfold within, inside in *; lia).
      destruct (Q _ _ I) as (v & v' & E1 & E2 & B2 & N2). rewrite (R _ _ I) in E2. injection E2 as E2.
      exists v, v'. unfold at_. rewrite <- S3. auto. }
    split.
    { destruct G as (G1 & G2 & G3). split; [cbn [b_w setColorSpace]; rewrite <- S2; exact G1|]. split; [cbn [b_h setColorSpace]; rewrite <- S3; exact G2|].
      intros x y W. change (within pw b' x y) in W. assert (W' : within pw b x y) by (unfold within in *; rewrite S2, S3; exact W).
      destruct (PX x y W') as (v & v' & E1 & E2 & B2 & _). change (stored pw (b_fmt b') (at_ pw b' x y)).
      rewrite E2, <- S1. clear -L B2. destruct (b_fmt b); cbn [int_limits] in L; try discriminate; injection L as <- <-;
        cbn [stored]; unfold u16, range; lia. }
    split; [unfold changed_to; cbn; auto|].
    intros x y W. destruct (PX x y W) as (v & v' & E1 & E2 & B2 & N2). exists v, v'. auto.
  - intros (x & y & v & W & E & M).
    destruct (mapPixels (onRGB f) b) as [b'|] eqn:MP; [|reflexivity]. exfalso.
    destruct (mapPixels_result (onRGB f) b b' MP) as [_ R].
    assert (I : inside b x (b_h b - 1 - y)) by (unfold within, inside in *; lia).
    specialize (R _ _ I). change (b_px b x (b_h b - 1 - y)) with (at_ pw b x y) in R.
    destruct (int_stored _ _ _ _ L (good_scan pw b _ _ G I)) as (v0 & E0 & B0).
    change (b_px b x (b_h b - 1 - y)) with (at_ pw b x y) in E0. rewrite E in E0. injection E0 as <-.
    rewrite E, (proj2 (K v B0) M) in R. discriminate.
Qed.

(** Every value fits: the fraction of the linear (sRGB) value is dropped.  Some value does not fit:
    the conversion is undefined behaviour. *)
Theorem C56_integer_to_linear (b : bitmap D) lo hi : good pw b -> int_limits (b_fmt b) = Some (lo, hi) ->
  b_cs b = CS_sRGB ->
  ((forall x y v, within pw b x y -> at_ pw b x y = PZ [v] -> fits lo hi (decode (IZR v))) ->
   exists b', changeColorSpace (Some b) CS_Linear = Some (Some b', true) /\ good pw b' /\
    changed_to CS_Linear b b' /\
    forall x y, within pw b x y -> exists v v',
      at_ pw b x y = @PZ D [v] /\ at_ pw b' x y = @PZ D [v'] /\ Rabs (IZR v' - decode (IZR v)) < 1 + / 1000) /\
  ((exists x y v, within pw b x y /\ at_ pw b x y = PZ [v] /\ misfits lo hi (decode (IZR v))) ->
   changeColorSpace (Some b) CS_Linear = None).
Proof.
  intros G L CS. destruct (change_int (@sRGBToLinear D) decode b CS_Linear lo hi (decode64 pw PW) G L) as [T1 T2].
  unfold changeColorSpace. rewrite CS. split.
  - intros FIT. destruct (T1 FIT) as (b' & E & R). exists (setColorSpace CS_Linear b'). split; [|exact R].
    rewrite E. reflexivity.
  - intros M. rewrite (T2 M). reflexivity.
Qed.
Theorem C56_integer_to_srgb (b : bitmap D) lo hi : good pw b -> int_limits (b_fmt b) = Some (lo, hi) ->
  b_cs b = CS_Linear ->
  ((forall x y v, within pw b x y -> at_ pw b x y = PZ [v] -> fits lo hi (encode (IZR v))) ->
   exists b', changeColorSpace (Some b) CS_sRGB = Some (Some b', true) /\ good pw b' /\
    changed_to CS_sRGB b b' /\
    forall x y, within pw b x y -> exists v v',
      at_ pw b x y = @PZ D [v] /\ at_ pw b' x y = @PZ D [v'] /\ Rabs (IZR v' - encode (IZR v)) < 1 + / 1000) /\
  ((exists x y v, within pw b x y /\ at_ pw b x y = PZ [v] /\ misfits lo hi (encode (IZR v))) ->
   changeColorSpace (Some b) CS_sRGB = None).
Proof.
  intros G L CS. destruct (change_int (@linearToSRGB D) encode b CS_sRGB lo hi encode64' G L) as [T1 T2].
  unfold changeColorSpace. rewrite CS. split.
  - intros FIT. destruct (T1 FIT) as (b' & E & R). exists (setColorSpace CS_sRGB b'). split; [|exact R].
    rewrite E. reflexivity.
  - intros M. rewrite (T2 M). reflexivity.
Qed.

(** So an ordinary value is enough for undefined behaviour. *)
Theorem C56_defined_refuted : exists b : bitmap D, good pw b /\ b_fmt b = I_Int16 /\ b_cs b = CS_sRGB /\
  at_ pw b 0 0 = PZ [1000%Z] /\ changeColorSpace (Some b) CS_Linear = None.
Proof.
  exists (Bitmap I_Int16 1 1 CS_sRGB (fun _ _ => PZ [1000%Z])).
  assert (G : good pw (Bitmap I_Int16 1 1 CS_sRGB (fun _ _ => PZ [1000%Z]))).
  { split; [reflexivity|]. split; [reflexivity|]. intros x y _. split; cbn; discriminate. }
  split; [exact G|]. split; [reflexivity|]. split; [reflexivity|]. split; [reflexivity|].
  apply (proj2 (C56_integer_to_linear _ (- 2 ^ 15) (2 ^ 15 - 1) G eq_refl eq_refl)).
  exists 0%N, 0%N, 1000%Z. split; [split; reflexivity|]. split; [reflexivity|]. left.
  change (IZR (2 ^ 15 - 1)) with 32767. unfold decode. destruct (Rle_dec 1000 0.04045); [lra|].
  assert (P : 100000 < Rpower ((1000 + 0.055) / 1.055) 2.4); [|lra].
  apply pow_lt_inv with 5%nat; [left; apply exp_pos|]. rewrite pow5_24 by lra. simpl. lra.
Qed.

(** Eight bits are not enough for the round trip from sRGB: 5 becomes 0. *)
Theorem C56_srgb_roundtrip_refuted : exists b b' b'' : bitmap D, good pw b /\ b_fmt b = I_Gray8 /\
  b_cs b = CS_sRGB /\ at_ pw b 0 0 = PZ [5%Z] /\
  changeColorSpace (Some b) CS_Linear = Some (Some b', true) /\
  changeColorSpace (Some b') CS_sRGB = Some (Some b'', true) /\ at_ pw b'' 0 0 = PZ [0%Z].
Proof.
  set (b := @Bitmap D I_Gray8 1 1 CS_sRGB (fun _ _ => PZ [5%Z])).
  assert (G : good pw b).
  { split; [reflexivity|]. split; [reflexivity|]. intros x y _. cbn. unfold u8, range. lia. }
  assert (W : within pw b 0 0) by (split; reflexivity).
  destruct (C56_to_linear b G) as (b' & E1 & G1 & (F1 & W1 & H1 & C1) & P1); [left; reflexivity|reflexivity|].
  destruct (C56_to_srgb b' G1) as (b'' & E2 & G2 & (F2 & W2 & H2 & C2) & P2).
  { rewrite F1. left; reflexivity. } { exact C1. }
  assert (W' : within pw b' 0 0) by (unfold within in *; rewrite W1, H1; exact W).
  exists b, b', b''. split; [exact G|]. split; [reflexivity|]. split; [reflexivity|]. split; [reflexivity|].
  split; [exact E1|]. split; [exact E2|].
  destruct (P1 0%N 0%N W) as (l & l' & A1 & A2 & B1 & _). destruct (P2 0%N 0%N W') as (k & l'' & A3 & A4 & B2 & _).
  rewrite A2 in A3. injection A3 as <-. rewrite F1 in B2. change (b_fmt b) with I_Gray8 in *.
  change (at_ pw b 0 0) with (@PZ D [5%Z]) in A1. injection A1 as <-.
  assert (X1 : l' = [0%Z]).
  { destruct G1 as (_ & _ & S). specialize (S 0%N 0%N W'). rewrite A2, F1 in S. change (b_fmt b) with I_Gray8 in S.
    destruct l' as [|v [|? ?]]; try contradiction. f_equal. cbn [rgb_of] in B1.
    inversion_clear B1 as [|? ? ? ? [_ N] _]. unfold stored_as, fraction in N. cbn [fst snd] in N.
    assert (E : decode (5 / 255) = 5 / 255 / 12.92) by (unfold decode; destruct (Rle_dec (5 / 255) 0.04045); lra).
    rewrite E in N. change (IZR (2 ^ 26)) with 67108864 in N. apply Rabs_le_inv in N.
    cbn [stored] in S. unfold u8, range in S. assert (IZR v < 1) by lra. apply lt_IZR in H. lia. }
  subst l'.
  destruct G2 as (_ & _ & S). specialize (S 0%N 0%N). rewrite A4, F2, F1 in S. change (b_fmt b) with I_Gray8 in S.
  specialize (S ltac:(unfold within in *; rewrite W2, H2; exact W')).
  destruct l'' as [|v [|? ?]]; try contradiction. rewrite A4. do 2 f_equal.
  inversion_clear B2 as [|? ? ? ? [_ N] _]. unfold stored_as, fraction in N. cbn [fst snd] in N.
  assert (E : encode (0 / 255) = 0) by (unfold encode; destruct (Rle_dec (0 / 255) 0.0031308); lra).
  rewrite E in N. change (IZR (2 ^ 26)) with 67108864 in N. apply Rabs_le_inv in N.
  cbn [stored] in S. unfold u8, range in S. assert (IZR v < 1) by lra. apply lt_IZR in H. lia.
Qed.

End Change.

(** Cases.  A power function meets the contract, and images of every kind are covered. *)
Example C56_case :
  let b f p : bitmap (double_arith good_pow) := Bitmap f 3 2 CS_sRGB (fun _ _ => p) in
  pow_ok good_pow /\ good good_pow (b I_RGBA8 (PZ [200; 100; 7; 128]%Z)) /\
  good good_pow (b I_RGB565 (PZ [40000]%Z)) /\ good good_pow (b I_Gray16 (PZ [40000]%Z)) /\
  good good_pow (b I_UInt32 (PZ [1]%Z)) /\ within good_pow (b I_UInt32 (PZ [1]%Z)) 2 1.
Proof.
  cbv zeta. split; [exact good_pow_ok|].
  assert (K : forall f p, stored good_pow f p ->
    good good_pow (@Bitmap (double_arith good_pow) f 3 2 CS_sRGB (fun _ _ => p))).
  { intros f p S. split; [reflexivity|]. split; [reflexivity|]. intros x y _. exact S. }
  split; [apply K; cbn; unfold u8, range; lia|]. split; [apply K; cbn; unfold u16, range; lia|].
  split; [apply K; cbn; unfold u16, range; lia|].
  split; [apply K; cbn; unfold range; lia|]. split; reflexivity.
Qed.

Print Assumptions C56_defined_refuted.
Print Assumptions C56_double.
Print Assumptions C56_float_roundtrip.
Print Assumptions C56_integer_to_linear.
Print Assumptions C56_integer_to_srgb.
Print Assumptions C56_linear_roundtrip.
Print Assumptions C56_same.
Print Assumptions C56_srgb_roundtrip.
Print Assumptions C56_srgb_roundtrip_refuted.
Print Assumptions C56_to_linear.
Print Assumptions C56_to_linear_float.
Print Assumptions C56_to_srgb.
Print Assumptions C56_to_srgb_float.

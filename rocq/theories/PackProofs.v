(** Bit fields: every converter is "quantise each channel of the documented layout, then pack
    from the least significant bit". *)

From Coq Require Import NArith ZArith Reals List Bool Lia Lra.
From Coq Require Import ZifyBool ZifyNat ZifyN.
From Flocq Require Import Core IEEE754.BinarySingleNaN IEEE754.Binary IEEE754.Bits.
From Verif Require Import Base FormatModel FormatSpec ContainerSpec FormatLayoutSpec FormatProofs
  ConverterModel FloatModel FloatSpec FloatProofs PixelModel PixelSpec PixelProofs.
Import ListNotations.
Local Open Scope N_scope.

(** * Packing *)

Fixpoint pack (fs : list (N * N)) : N :=
  match fs with [] => 0 | (b, r) :: t => r + 2 ^ b * pack t end.

Definition quanta (pk : packers) (t : ttype) (l : list (chan * N)) (p : rgba) : option (list (N * N)) :=
  omap (fun cb => obind (chan_val p (fst cb)) (fun v =>
                  obind (quantum pk t (snd cb) v) (fun r => Some (snd cb, r)))) l.

Definition ref_enc (pk : packers) (t : ttype) (l : list (chan * N)) (p : rgba) : option (list N) :=
  obind (quanta pk t l p) (fun fs => Some (le_bytes (N.to_nat (layout_bits l / 8)) (pack fs))).

Lemma quanta_cons pk t cb l p :
  quanta pk t (cb :: l) p
  = obind (obind (chan_val p (fst cb)) (fun v =>
           obind (quantum pk t (snd cb) v) (fun r => Some (snd cb, r)))) (fun x =>
    obind (quanta pk t l p) (fun xs => Some (x :: xs))).
Proof. reflexivity. Qed.

(** Field sizes for which the quantisation lemmas hold. *)
Definition width_ok (t : ttype) (b : N) : Prop :=
  match t with
  | T_UNorm => 0 < b <= 16
  | T_SNorm => In b [8; 16]
  | T_UInt => In b [2; 8; 10; 16; 32]
  | T_Int => In b [8; 16; 32]
  | T_Float => In b [16; 32]
  | T_UFloat => False
  end.

Lemma umax_small b : b <= 24 -> (0 <= umax b <= 2 ^ 24)%Z.
Proof.
  intros H; unfold umax.
  assert (2 ^ Z.of_N b <= 2 ^ 24)%Z by (apply Z.pow_le_mono_r; lia).
  assert (0 < 2 ^ Z.of_N b)%Z by (apply Z.pow_pos_nonneg; lia). lia.
Qed.

Lemma two_pow_Z b : Z.of_N (2 ^ b) = (2 ^ Z.of_N b)%Z.
Proof. rewrite N2Z.inj_pow. reflexivity. Qed.

Lemma twos_lt b z : twos b z < 2 ^ b.
Proof.
  unfold twos.
  assert (0 < 2 ^ Z.of_N b)%Z by (apply Z.pow_pos_nonneg; lia).
  pose proof (Z.mod_pos_bound z (2 ^ Z.of_N b) ltac:(lia)).
  pose proof (two_pow_Z b). lia.
Qed.

Lemma bits32_range v : (0 <= bits_of_b32 v < 2 ^ 32)%Z.
Proof. unfold bits_of_b32. apply (bits_of_binary_float_range 23 8); reflexivity. Qed.

Lemma quantum_lt pk t b v r : width_ok t b -> quantum pk t b v = Some r -> r < 2 ^ b.
Proof.
  intros W H; unfold quantum in H; destruct t; cbn [width_ok] in W.
  - destruct (nan v); [discriminate|]. inversion H; subst.
    pose proof (rnd_nearest_range (limit 0 1 v * IZR (umax b)) 0 (umax b)) as R.
    pose proof (umax_small b ltac:(lia)) as U.
    specialize (R ltac:(lia) ltac:(lia) (limit01_prod _ v U)).
    pose proof (two_pow_Z b). unfold umax in *. lia.
  - destruct (nan v); [discriminate|]. inversion H; subst. apply twos_lt.
  - destruct (nan v || too_big T_UInt b v); [discriminate|]. inversion H; subst.
    assert (U : (0 <= umax b)%Z) by (repeat destruct W as [<-|W]; try destruct W; vm_compute; discriminate).
    pose proof (nearest_range (limit 0 (IZR (umax b)) v) 0 (umax b)) as R.
    specialize (R (limit_range 0 (IZR (umax b)) v (IZR_le _ _ U))).
    pose proof (two_pow_Z b). unfold umax in *. lia.
  - destruct (nan v || too_big T_Int b v); [discriminate|]. inversion H; subst. apply twos_lt.
  - contradiction.
  - destruct (N.eqb_spec b 32) as [->|].
    + inversion H; subst. pose proof (bits32_range v). lia.
    + inversion H; subst. apply N.mod_lt. apply N.pow_nonzero; discriminate.
Qed.

Lemma quanta_ok pk t l p fs : Forall (fun cb => width_ok t (snd cb)) l ->
  quanta pk t l p = Some fs -> pack fs < 2 ^ layout_bits l /\ map fst fs = map snd l /\
  Forall (fun br => snd br < 2 ^ fst br) fs.
Proof.
  revert fs; induction l as [|[c b] l IH]; intros fs W H.
  - inversion H; subst. cbn. split; [reflexivity|]. auto.
  - inversion W; subst. rewrite quanta_cons in H. cbn [fst snd] in H.
    destruct (chan_val p c) as [v|]; [|discriminate]. cbn [obind] in H.
    destruct (quantum pk t b v) as [r|] eqn:Q; [|discriminate]. cbn [obind] in H.
    destruct (quanta pk t l p) as [fs'|]; [|discriminate]. cbn [obind] in H.
    inversion H; subst. destruct (IH fs' H3 eq_refl) as (A & B & C).
    pose proof (quantum_lt _ _ _ _ _ H2 Q) as L.
    split; [|split].
    + cbn [pack]. change (layout_bits ((c, b) :: l)) with (b + layout_bits l).
      rewrite N.pow_add_r.
      cbn [snd] in L. revert L A. generalize (2 ^ b) (2 ^ layout_bits l) (pack fs'). clear.
      intros B L P H1 H2. apply N.lt_le_trans with (B * (P + 1)); [lia|].
      apply N.mul_le_mono_l; lia.
    + cbn. f_equal; auto.
    + constructor; auto.
Qed.

(** Reading a channel of the packed word gives its quantum. *)
Lemma field_pack pk t l p fs ch b : Forall (fun cb => width_ok t (snd cb)) l ->
  NoDup (map (fun cb => chan_code (fst cb)) l) -> quanta pk t l p = Some fs -> In (ch, b) l ->
  exists v r, chan_val p ch = Some v /\ quantum pk t b v = Some r /\ field l ch (pack fs) = Some r.
Proof.
  revert fs; induction l as [|[c b'] l IH]; intros fs W ND H I; [destruct I|].
  inversion W; subst. rewrite quanta_cons in H. cbn [fst snd] in H.
  destruct (chan_val p c) as [v|] eqn:V; [|discriminate]. cbn [obind] in H.
  destruct (quantum pk t b' v) as [r|] eqn:Q; [|discriminate]. cbn [obind] in H.
  destruct (quanta pk t l p) as [fs'|] eqn:QS; [|discriminate]. cbn [obind] in H.
  inversion H; subst. pose proof (quantum_lt _ _ _ _ _ H2 Q) as L.
  assert (P0 : 2 ^ b' <> 0) by (apply N.pow_nonzero; discriminate).
  cbn [field pack map] in *. inversion ND; subst.
  destruct I as [I|I].
  - inversion I; subst. rewrite N.eqb_refl. exists v, r. repeat split; auto. f_equal.
    rewrite (N.mul_comm (2 ^ b)), N.mod_add by auto. apply N.mod_small; auto.
  - destruct (N.eqb_spec (chan_code ch) (chan_code c)) as [E|E].
    + exfalso. apply H4. change (In (chan_code c) (map (fun cb : chan * N => chan_code (fst cb)) l)).
      rewrite <- E. change (chan_code ch) with ((fun cb : chan * N => chan_code (fst cb)) (ch, b)).
      apply in_map; exact I.
    + replace ((r + 2 ^ b' * pack fs') / 2 ^ b') with (pack fs').
      * apply IH; auto.
      * rewrite (N.mul_comm (2 ^ b')), N.div_add by auto. rewrite N.div_small by auto. lia.
Qed.

Lemma quanta_none pk t l p : quanta pk t l p = None ->
  exists ch b, In (ch, b) l /\ forall v, chan_val p ch = Some v -> quantum pk t b v = None.
Proof.
  induction l as [|[c b] l IH]; intros H; [discriminate|].
  rewrite quanta_cons in H. cbn [fst snd] in H.
  destruct (chan_val p c) as [v|] eqn:V; cbn [obind] in H.
  - destruct (quantum pk t b v) as [r|] eqn:Q; cbn [obind] in H.
    + destruct (quanta pk t l p); [discriminate|].
      destruct IH as (ch & b' & I & Z); auto. exists ch, b'; split; [right|]; auto.
    + exists c, b; split; [left; auto|]. congruence.
  - exists c, b; split; [left; auto|]. congruence.
Qed.

Lemma quanta_some pk t l p fs ch b : quanta pk t l p = Some fs -> In (ch, b) l ->
  exists v r, chan_val p ch = Some v /\ quantum pk t b v = Some r.
Proof.
  revert fs; induction l as [|[c b'] l IH]; intros fs H I; [destruct I|].
  rewrite quanta_cons in H. cbn [fst snd] in H.
  destruct (chan_val p c) as [v|] eqn:V; [|discriminate]. cbn [obind] in H.
  destruct (quantum pk t b' v) as [r|] eqn:Q; [|discriminate]. cbn [obind] in H.
  destruct (quanta pk t l p) as [fs'|]; [|discriminate].
  destruct I as [I|I]; [inversion I; subst; eauto|eauto].
Qed.

(** * Bytes *)

Lemma le_bytes_app a b x y : x < 256 ^ N.of_nat a ->
  le_bytes (a + b) (x + 256 ^ N.of_nat a * y) = le_bytes a x ++ le_bytes b y.
Proof.
  revert x; induction a as [|a IH]; intros x H.
  - cbn in H. replace x with 0 by lia. cbn [N.of_nat le_bytes plus app].
    change (256 ^ 0) with 1. f_equal; lia.
  - cbn [plus le_bytes app].
    rewrite Nnat.Nat2N.inj_succ, N.pow_succ_r' in *.
    f_equal.
    + rewrite <- N.mul_assoc, (N.mul_comm 256), N.mod_add by discriminate. reflexivity.
    + rewrite <- N.mul_assoc, (N.mul_comm 256), N.div_add by discriminate.
      apply IH. apply N.div_lt_upper_bound; [discriminate|lia].
Qed.

Lemma int_bytes_twos k z : int_bytes k z = le_bytes k (twos (8 * N.of_nat k) z).
Proof. unfold int_bytes, twos. do 4 f_equal. lia. Qed.

Lemma pow256 k : 256 ^ N.of_nat k = 2 ^ (8 * N.of_nat k).
Proof. change 256 with (2 ^ 8). rewrite <- N.pow_mul_r. reflexivity. Qed.

(** The converters with one integer per channel. *)
Lemma each_bytes k (fs : list (N * N)) (zs : list Z) :
  Forall2 (fun z br => fst br = 8 * N.of_nat k /\ snd br = twos (8 * N.of_nat k) z) zs fs ->
  concat (map (int_bytes k) zs) = le_bytes (length zs * k) (pack fs).
Proof.
  induction 1 as [|z [b r] zs fs [E1 E2] F IH]; [reflexivity|].
  cbn [fst snd] in *; subst.
  cbn [map concat length pack Nat.mul]. rewrite IH.
  rewrite <- pow256. rewrite le_bytes_app.
  - rewrite <- int_bytes_twos. reflexivity.
  - rewrite pow256. apply twos_lt.
Qed.

(** A per-channel integer function that agrees with the specification. *)
Definition agrees (pk : packers) (t : ttype) (b : N) (f : float -> option Z) : Prop :=
  forall v, quantum pk t b v = match f v with Some z => Some (twos b z) | None => None end.

Lemma twos_small b z : (0 <= z < 2 ^ Z.of_N b)%Z -> twos b z = Z.to_N z.
Proof. intros H; unfold twos. rewrite Z.mod_small by auto. reflexivity. Qed.

Lemma agrees_unorm pk b tb M : 0 < b <= 24 -> (M = umax b)%Z -> (M < 2 ^ Z.of_N tb)%Z ->
  agrees pk T_UNorm b (unorm tb M).
Proof.
  intros Hb -> Ht v; unfold quantum. destruct (nan v) eqn:Nv.
  - rewrite unorm_nan; auto.
  - destruct (unorm_ok tb (umax b) v (umax_small b ltac:(lia)) Ht Nv) as [E R].
    rewrite E. rewrite twos_small; auto. unfold umax in *; lia.
Qed.

Lemma agrees_unorm1 pk tb : 0 < tb -> agrees pk T_UNorm 1 (unorm1 tb).
Proof.
  intros Ht v; unfold quantum. destruct (nan v) eqn:Nv.
  - rewrite unorm1_nan; auto.
  - destruct (unorm1_ok tb v Ht Nv) as [E R].
    rewrite E. change (umax 1) with 1%Z. rewrite twos_small; auto. simpl; lia.
Qed.

Lemma agrees_snorm pk b : In b [8; 16] -> agrees pk T_SNorm b (snorm b).
Proof.
  intros Hb v; unfold quantum. destruct (nan v) eqn:Nv.
  - rewrite snorm_nan; auto.
  - destruct (snorm_ok b v Hb Nv) as [E R]. rewrite E. reflexivity.
Qed.

Lemma agrees_int pk s b : In b [8; 16; 32] -> agrees pk (ttype_of_sign s) b (intconv s b).
Proof.
  intros Hb v. destruct (nan v) eqn:Nv.
  - rewrite intconv_nan by auto. destruct s; cbn [ttype_of_sign quantum]; rewrite Nv; reflexivity.
  - assert (K : (too_big (ttype_of_sign s) b v = true /\ intconv s b v = None) \/
                (too_big (ttype_of_sign s) b v = false /\
                 intconv s b v = Some (nearest (limit (IZR (int_min s b)) (IZR (int_max s b)) v)) /\
                 (int_min s b <= nearest (limit (IZR (int_min s b)) (IZR (int_max s b)) v) <= int_max s b)%Z)).
    { destruct (N.eq_dec b 32) as [->|N].
      - destruct (too_big (ttype_of_sign s) 32 v) eqn:T.
        + left; split; auto. apply intconv32_bad; auto.
        + right; split; auto. apply intconv32_ok; auto.
      - right. split.
        + unfold too_big. destruct (N.eqb_spec b 32); [contradiction|reflexivity].
        + apply intconv_small; auto. destruct Hb as [|[|[|[]]]]; subst; cbn; auto. }
    destruct K as [[T E]|(T & E & R)]; rewrite E; destruct s; cbn [ttype_of_sign] in *; unfold quantum;
      rewrite Nv, T; cbn [orb]; auto.
    + f_equal. f_equal. unfold int_min, int_max, smax. replace (- 2 ^ (Z.of_N b - 1))%Z with
        (- (2 ^ (Z.of_N b - 1) - 1) - 1)%Z by lia. reflexivity.
    + rewrite twos_small; [reflexivity|]. change (int_min false b) with 0%Z in *; change (int_max false b) with (2 ^ Z.of_N b - 1)%Z in *. lia.
Qed.

Lemma agrees_uint pk b : In b [2; 10] -> agrees pk T_UInt b (uint_to (umax b)).
Proof.
  intros Hb v; unfold quantum.
  assert (T : too_big T_UInt b v = false).
  { unfold too_big. destruct Hb as [<-|[<-|[]]]; reflexivity. }
  rewrite T, orb_false_r. destruct (nan v) eqn:Nv.
  - rewrite uint_to_nan; auto.
  - assert (U : (0 <= umax b <= 2 ^ 24)%Z) by (destruct Hb as [<-|[<-|[]]]; vm_compute; split; discriminate).
    destruct (uint_to_ok (umax b) v U Nv) as [E R].
    rewrite E. rewrite twos_small; auto. unfold umax in *; lia.
Qed.

Definition rgba_chans : list chan := [ChR; ChG; ChB; ChA].

Lemma first_channels_lsb n b : b mod 8 = 0 ->
  whole_bytes (map (fun c => (c, b)) (firstn (N.to_nat n) rgba_chans)) = true.
Proof.
  intros H; unfold whole_bytes; apply forallb_forall; intros x I.
  apply in_map_iff in I; destruct I as (c & <- & _). cbn. apply N.eqb_eq; auto.
Qed.

Lemma each_ref pk t b f n p : agrees pk t b f -> In b [8; 16; 32] -> 1 <= n <= 4 ->
  each b f n p = ref_enc pk t (map (fun c => (c, b)) (firstn (N.to_nat n) rgba_chans)) p.
Proof.
  intros A Hb Hn.
  assert (K : forall cs, quanta pk t (map (fun c => (c, b)) cs) p =
    obind (omap (fun c => obind (chan_val p c) f) cs) (fun zs => Some (map (fun z => (b, twos b z)) zs))).
  { induction cs as [|c cs IH]; [reflexivity|].
    cbn [map]. rewrite quanta_cons. cbn [fst snd omap]. rewrite IH.
    destruct (chan_val p c) as [v|]; [|reflexivity]. cbn [obind]. rewrite A.
    destruct (f v); [|reflexivity]. cbn [obind].
    destruct (omap _ cs); reflexivity. }
  unfold each, ref_enc. rewrite K.
  assert (C : omap (fun c => obind (chan_val p c) f) (firstn (N.to_nat n) rgba_chans)
            = omap f (channels n p)).
  { assert (D : n = 1 \/ n = 2 \/ n = 3 \/ n = 4) by lia.
    destruct D as [->|[->|[->| ->]]]; reflexivity. }
  rewrite C.
  destruct (omap f (channels n p)) as [zs|] eqn:O; [|reflexivity]. cbn [obind].
  f_equal.
  assert (B8 : 8 * N.of_nat (N.to_nat (b / 8)) = b)
    by (destruct Hb as [<-|[<-|[<-|[]]]]; reflexivity).
  rewrite (each_bytes (N.to_nat (b / 8)) (map (fun z => (b, twos b z)) zs)).
  - f_equal. apply omap_length in O. rewrite O.
    assert (D : n = 1 \/ n = 2 \/ n = 3 \/ n = 4) by lia.
    destruct D as [->|[->|[->| ->]]]; destruct Hb as [<-|[<-|[<-|[]]]]; reflexivity.
  - clear O C. induction zs as [|z zs IH]; [constructor|].
    cbn [map]. constructor; [|exact IH]. cbn [fst snd]. rewrite B8. auto.
Qed.

(** Single- and half-precision channels. *)
Lemma float_ref pk n p : 1 <= n <= 4 ->
  Some (concat (map (fun v => int_bytes 4 (bits_of_b32 v)) (channels n p)))
  = ref_enc pk T_Float (map (fun c => (c, 32)) (firstn (N.to_nat n) rgba_chans)) p.
Proof.
  intros Hn.
  rewrite <- (each_ref pk T_Float 32 (fun v => Some (bits_of_b32 v))).
  - unfold each.
    assert (O : forall l : list float, omap (fun v => Some (bits_of_b32 v)) l = Some (map bits_of_b32 l))
      by (induction l as [|a l IH]; [reflexivity|cbn; rewrite IH; reflexivity]).
    rewrite O. cbn [obind]. rewrite map_map. reflexivity.
  - intros v. cbn. rewrite twos_small; [reflexivity|]. apply bits32_range.
  - cbn; auto.
  - auto.
Qed.

Lemma half_ref pk n p : 1 <= n <= 4 ->
  Some (concat (map (fun v => int_bytes 2 (Z.of_N (pack_half pk v))) (channels n p)))
  = ref_enc pk T_Float (map (fun c => (c, 16)) (firstn (N.to_nat n) rgba_chans)) p.
Proof.
  intros Hn.
  rewrite <- (each_ref pk T_Float 16 (fun v => Some (Z.of_N (pack_half pk v)))).
  - unfold each.
    assert (O : forall l : list float, omap (fun v => Some (Z.of_N (pack_half pk v))) l
              = Some (map (fun v => Z.of_N (pack_half pk v)) l))
      by (induction l as [|a l IH]; [reflexivity|cbn; rewrite IH; reflexivity]).
    rewrite O. cbn [obind]. rewrite map_map. reflexivity.
  - intros v. cbn [quantum N.eqb Pos.eqb]. unfold twos. do 2 f_equal.
    change (2 ^ Z.of_N 16)%Z with (Z.of_N (2 ^ 16)). rewrite <- N2Z.inj_mod. apply eq_sym, N2Z.id.
  - cbn; auto.
  - auto.
Qed.

(** * Packed words *)

Lemma small_bits a k n : (0 <= a < 2 ^ k -> 0 <= k <= n -> Z.testbit a n = false)%Z.
Proof.
  intros Ha Hn. apply Z.testbit_false; [lia|].
  rewrite Z.div_small; [reflexivity|]. split; [lia|].
  apply Z.lt_le_trans with (2 ^ k)%Z; [lia|]. apply Z.pow_le_mono_r; lia.
Qed.

Lemma lor_shift a b k : (0 <= k -> 0 <= a < 2 ^ k -> Z.lor a (Z.shiftl b k) = a + b * 2 ^ k)%Z.
Proof.
  intros Hk Ha. rewrite Z.shiftl_mul_pow2 by auto.
  assert (D : Z.land a (b * 2 ^ k) = 0%Z).
  { apply Z.bits_inj'; intros n Hn. rewrite Z.land_spec, Z.bits_0.
    destruct (Z.lt_ge_cases n k).
    - rewrite Z.mul_pow2_bits_low by auto. apply andb_false_r.
    - rewrite (small_bits a k n) by lia. reflexivity. }
  rewrite <- Z.lxor_lor, <- Z.add_nocarry_lxor; auto.
Qed.

(** A masked channel is its quantum. *)
Lemma un_q pk tb b v : 0 < b <= 24 -> b <= tb ->
  un tb (umax b) v = match quantum pk T_UNorm b v with Some r => Some (Z.of_N r) | None => None end.
Proof.
  intros Hb Ht.
  assert (P : (2 ^ Z.of_N b <= 2 ^ Z.of_N tb)%Z) by (apply Z.pow_le_mono_r; lia).
  pose proof (umax_small b ltac:(lia)) as U.
  unfold un, quantum. destruct (nan v) eqn:Nv.
  - rewrite unorm_nan; auto.
  - destruct (unorm_ok tb (umax b) v U ltac:(unfold umax in *; lia) Nv) as [E R].
    rewrite E. cbn [obind]. rewrite Z2N.id by lia. f_equal.
    set (k := nearest _) in *. clearbody k. unfold umax in *. rewrite Z.sub_1_r, <- Z.ones_equiv, Z.land_ones by lia.
    apply Z.mod_small. lia.
Qed.

Lemma agrees_inv pk t b f v : agrees pk t b f -> width_ok t b -> (t = T_UNorm \/ t = T_UInt) ->
  (forall z, f v = Some z -> (0 <= z < 2 ^ Z.of_N b)%Z) ->
  f v = match quantum pk t b v with Some r => Some (Z.of_N r) | None => None end.
Proof.
  intros A _ _ R. rewrite A. destruct (f v) as [z|]; auto.
  rewrite twos_small by auto. rewrite Z2N.id; auto. specialize (R z eq_refl). lia.
Qed.

Lemma unorm_q pk b v : 0 < b <= 24 ->
  unorm b (umax b) v = match quantum pk T_UNorm b v with Some r => Some (Z.of_N r) | None => None end.
Proof.
  intros Hb. pose proof (umax_small b ltac:(lia)) as U.
  unfold quantum. destruct (nan v) eqn:Nv.
  - rewrite unorm_nan; auto.
  - destruct (unorm_ok b (umax b) v U ltac:(unfold umax in *; lia) Nv) as [E R].
    rewrite E, Z2N.id by lia. reflexivity.
Qed.

Lemma unorm1_q pk tb v : 0 < tb ->
  unorm1 tb v = match quantum pk T_UNorm 1 v with Some r => Some (Z.of_N r) | None => None end.
Proof.
  intros Ht. unfold quantum. destruct (nan v) eqn:Nv.
  - rewrite unorm1_nan; auto.
  - destruct (unorm1_ok tb v Ht Nv) as [E R]. change (umax 1) with 1%Z.
    rewrite E, Z2N.id by lia. reflexivity.
Qed.

Lemma uint_q pk b v : In b [2; 10] ->
  uint_to (umax b) v = match quantum pk T_UInt b v with Some r => Some (Z.of_N r) | None => None end.
Proof.
  intros Hb. unfold quantum.
  assert (T : too_big T_UInt b v = false).
  { unfold too_big. destruct Hb as [<-|[<-|[]]]; reflexivity. }
  rewrite T, orb_false_r. destruct (nan v) eqn:Nv.
  - rewrite uint_to_nan; auto.
  - assert (U : (0 <= umax b <= 2 ^ 24)%Z) by (destruct Hb as [<-|[<-|[]]]; vm_compute; split; discriminate).
    destruct (uint_to_ok (umax b) v U Nv) as [E R].
    rewrite E, Z2N.id by lia. reflexivity.
Qed.

(** * All converters *)

(** Converters of uncompressed formats with separate channels. *)
Definition std_conv (c : converter) : bool :=
  match c with
  | CvUNorm b n | CvSNorm b n => ((b =? 8) || (b =? 16)) && (1 <=? n) && (n <=? 4)
  | CvInt _ b n => ((b =? 8) || (b =? 16) || (b =? 32)) && (1 <=? n) && (n <=? 4)
  | CvFloat n | CvHalf n => (1 <=? n) && (n <=? 4)
  | CvR4G4 | CvR4G4B4A4 | CvB4G4R4A4 | CvA4R4G4B4 | CvR5G6B5 | CvB5G6R5
  | CvR5G5B5A1 | CvB5G5R5A1 | CvA1R5G5B5 | CvB8G8R8 | CvB8G8R8A8 | CvA8B8G8R8
  | CvA2R10G10B10UNorm | CvA2R10G10B10UInt | CvA2B10G10R10UNorm | CvA2B10G10R10UInt => true
  | _ => false
  end.

Definition lsb (l : list (chan * N)) : list (chan * N) := if whole_bytes l then l else rev l.

Lemma un4 pk tb v : 4 <= tb ->
  un tb 15 v = match quantum pk T_UNorm 4 v with Some r => Some (Z.of_N r) | None => None end.
Proof. intros; apply (un_q pk tb 4 v); lia. Qed.
Lemma un5 pk tb v : 5 <= tb ->
  un tb 31 v = match quantum pk T_UNorm 5 v with Some r => Some (Z.of_N r) | None => None end.
Proof. intros; apply (un_q pk tb 5 v); lia. Qed.
Lemma un6 pk tb v : 6 <= tb ->
  un tb 63 v = match quantum pk T_UNorm 6 v with Some r => Some (Z.of_N r) | None => None end.
Proof. intros; apply (un_q pk tb 6 v); lia. Qed.
Lemma un10 pk tb v : 10 <= tb ->
  un tb 1023 v = match quantum pk T_UNorm 10 v with Some r => Some (Z.of_N r) | None => None end.
Proof. intros; apply (un_q pk tb 10 v); lia. Qed.
Lemma un2 pk tb v : 2 <= tb ->
  un tb 3 v = match quantum pk T_UNorm 2 v with Some r => Some (Z.of_N r) | None => None end.
Proof. intros; apply (un_q pk tb 2 v); lia. Qed.
Lemma unorm8 pk v :
  unorm 8 255 v = match quantum pk T_UNorm 8 v with Some r => Some (Z.of_N r) | None => None end.
Proof. apply (unorm_q pk 8 v); lia. Qed.
Lemma uint10 pk v :
  uint_to 1023 v = match quantum pk T_UInt 10 v with Some r => Some (Z.of_N r) | None => None end.
Proof. apply (uint_q pk 10 v); cbn; auto. Qed.
Lemma uint2 pk v :
  uint_to 3 v = match quantum pk T_UInt 2 v with Some r => Some (Z.of_N r) | None => None end.
Proof. apply (uint_q pk 2 v); cbn; auto. Qed.

Ltac split_quanta pk :=
  unfold ref_enc, quanta; cbn [fst snd obind omap chan_val pr pg pb pa];
  repeat match goal with
  | |- context [quantum pk ?t ?b ?v] =>
      let Q := fresh "Q" in let r := fresh "r" in
      destruct (quantum pk t b v) as [r|] eqn:Q; cbn [obind];
      [apply quantum_lt in Q; [|cbn; auto 6; lia]|try reflexivity]
  end; cbn [obind]; try reflexivity.

Ltac words pk :=
  intros; cbn [enc_px converter_type];
  rewrite ?(un4 pk), ?(un5 pk), ?(un6 pk), ?(un10 pk), ?(un2 pk), ?(unorm1_q pk), ?(uint10 pk),
    ?(uint2 pk) by lia;
  split_quanta pk.

Ltac finish :=
  repeat match goal with H : ?r < 2 ^ ?b |- _ =>
    let x := eval vm_compute in (2 ^ b) in change (2 ^ b) with x in H end;
  unfold word, int_bytes; f_equal;
  repeat match goal with |- context [Z.lor ?a (Z.shiftl ?b ?k)] =>
    lazymatch a with context [Z.lor] => fail | _ => rewrite (lor_shift a b k) by lia end end;
  match goal with |- le_bytes _ (Z.to_N (?z mod ?m)) = le_bytes ?k ?w =>
    let k' := eval vm_compute in k in change k with k';
    let m' := eval vm_compute in m in change m with m';
    f_equal; cbn [pack];
    repeat match goal with |- context [2 ^ ?b] =>
      let x := eval vm_compute in (2 ^ b) in change (2 ^ b) with x end;
    repeat match goal with |- context [(2 ^ ?b)%Z] =>
      let x := eval vm_compute in (2 ^ b)%Z in change (2 ^ b)%Z with x end;
    rewrite Z.mod_small by lia; lia
  end.

Lemma ref_r4g4 pk p : enc_px pk CvR4G4 p = ref_enc pk T_UNorm [(ChG,4);(ChR,4)] p.
Proof. destruct p; words pk. finish. Qed.
Lemma ref_r4g4b4a4 pk p : enc_px pk CvR4G4B4A4 p = ref_enc pk T_UNorm [(ChA,4);(ChB,4);(ChG,4);(ChR,4)] p.
Proof. destruct p; words pk; finish. Qed.
Lemma ref_b4g4r4a4 pk p : enc_px pk CvB4G4R4A4 p = ref_enc pk T_UNorm [(ChA,4);(ChR,4);(ChG,4);(ChB,4)] p.
Proof. destruct p; words pk; finish. Qed.
Lemma ref_a4r4g4b4 pk p : enc_px pk CvA4R4G4B4 p = ref_enc pk T_UNorm [(ChB,4);(ChG,4);(ChR,4);(ChA,4)] p.
Proof. destruct p; words pk; finish. Qed.
Lemma ref_r5g6b5 pk p : enc_px pk CvR5G6B5 p = ref_enc pk T_UNorm [(ChB,5);(ChG,6);(ChR,5)] p.
Proof. destruct p; words pk; finish. Qed.
Lemma ref_b5g6r5 pk p : enc_px pk CvB5G6R5 p = ref_enc pk T_UNorm [(ChR,5);(ChG,6);(ChB,5)] p.
Proof. destruct p; words pk; finish. Qed.
Lemma ref_r5g5b5a1 pk p : enc_px pk CvR5G5B5A1 p = ref_enc pk T_UNorm [(ChA,1);(ChB,5);(ChG,5);(ChR,5)] p.
Proof. destruct p; words pk; finish. Qed.
Lemma ref_b5g5r5a1 pk p : enc_px pk CvB5G5R5A1 p = ref_enc pk T_UNorm [(ChA,1);(ChR,5);(ChG,5);(ChB,5)] p.
Proof. destruct p; words pk; finish. Qed.
Lemma ref_a1r5g5b5 pk p : enc_px pk CvA1R5G5B5 p = ref_enc pk T_UNorm [(ChB,5);(ChG,5);(ChR,5);(ChA,1)] p.
Proof. destruct p; words pk; finish. Qed.
Lemma ref_a2r10un pk p : enc_px pk CvA2R10G10B10UNorm p = ref_enc pk T_UNorm [(ChB,10);(ChG,10);(ChR,10);(ChA,2)] p.
Proof. destruct p; words pk; finish. Qed.
Lemma ref_a2r10ui pk p : enc_px pk CvA2R10G10B10UInt p = ref_enc pk T_UInt [(ChB,10);(ChG,10);(ChR,10);(ChA,2)] p.
Proof. destruct p; words pk; finish. Qed.
Lemma ref_a2b10un pk p : enc_px pk CvA2B10G10R10UNorm p = ref_enc pk T_UNorm [(ChR,10);(ChG,10);(ChB,10);(ChA,2)] p.
Proof. destruct p; words pk; finish. Qed.
Lemma ref_a2b10ui pk p : enc_px pk CvA2B10G10R10UInt p = ref_enc pk T_UInt [(ChR,10);(ChG,10);(ChB,10);(ChA,2)] p.
Proof. destruct p; words pk; finish. Qed.

Lemma byte_bytes r : r < 2 ^ 8 -> int_bytes 1 (Z.of_N r) = [r].
Proof.
  intros H. change (2 ^ 8) with 256 in H. unfold int_bytes. cbn [le_bytes].
  change (2 ^ (8 * Z.of_nat 1))%Z with 256%Z. rewrite Z.mod_small by lia.
  rewrite N2Z.id. rewrite N.mod_small by lia. reflexivity.
Qed.

Lemma le_bytes_step k a x : a < 2 ^ 8 -> le_bytes (S k) (a + 2 ^ 8 * x) = a :: le_bytes k x.
Proof. change (2 ^ 8) with 256. intros H. cbn [le_bytes]. f_equal; [lia|]. f_equal. lia. Qed.

Lemma bytes3 a b c : a < 2 ^ 8 -> b < 2 ^ 8 -> c < 2 ^ 8 ->
  le_bytes 3 (pack [(8, a); (8, b); (8, c)]) = [a; b; c].
Proof. intros. cbn [pack]. rewrite !le_bytes_step by assumption. reflexivity. Qed.

Lemma bytes4 a b c d : a < 2 ^ 8 -> b < 2 ^ 8 -> c < 2 ^ 8 -> d < 2 ^ 8 ->
  le_bytes 4 (pack [(8, a); (8, b); (8, c); (8, d)]) = [a; b; c; d].
Proof. intros. cbn [pack]. rewrite !le_bytes_step by assumption. reflexivity. Qed.

Ltac bytes pk :=
  intros; cbn [enc_px converter_type]; rewrite ?(unorm8 pk); split_quanta pk;
  f_equal; rewrite !byte_bytes by assumption; cbn [app];
  match goal with |- _ = le_bytes ?k _ => let k' := eval vm_compute in k in change k with k' end;
  symmetry; (apply bytes3 || apply bytes4); assumption.

Lemma ref_b8g8r8 pk p : enc_px pk CvB8G8R8 p = ref_enc pk T_UNorm [(ChB,8);(ChG,8);(ChR,8)] p.
Proof. destruct p; bytes pk. Qed.
Lemma ref_b8g8r8a8 pk p : enc_px pk CvB8G8R8A8 p = ref_enc pk T_UNorm [(ChB,8);(ChG,8);(ChR,8);(ChA,8)] p.
Proof. destruct p; bytes pk. Qed.
Lemma ref_a8b8g8r8 pk p : enc_px pk CvA8B8G8R8 p = ref_enc pk T_UNorm [(ChA,8);(ChB,8);(ChG,8);(ChR,8)] p.
Proof. destruct p; bytes pk. Qed.

Definition layout_ok (t : ttype) (l : list (chan * N)) : Prop :=
  Forall (fun cb => width_ok t (snd cb)) l /\ NoDup (map (fun cb => chan_code (fst cb)) l).

Lemma first_channels_ok t b n : width_ok t b -> layout_ok t (map (fun c => (c, b)) (firstn (N.to_nat n) rgba_chans)).
Proof.
  intros W. split.
  - apply Forall_forall; intros x I. apply in_map_iff in I; destruct I as (c & <- & _); auto.
  - rewrite map_map. cbn [fst].
    assert (ND : NoDup (map chan_code rgba_chans))
      by (cbn; repeat constructor; cbn; intuition discriminate).
    rewrite <- (firstn_skipn (N.to_nat n) rgba_chans), map_app in ND.
    revert ND. generalize (map chan_code (skipn (N.to_nat n) rgba_chans)).
    induction (map chan_code (firstn (N.to_nat n) rgba_chans)) as [|x xs IH]; intros ys ND; constructor.
    + inversion ND; subst. rewrite in_app_iff in H1. tauto.
    + inversion ND; subst. eapply IH; eauto.
Qed.

Ltac concrete_layout :=
  split; [repeat constructor; cbn; auto 8; lia
         |cbn; repeat constructor; cbn; intuition discriminate].

Lemma enc_ref pk c p : std_conv c = true ->
  exists l, converter_layout c = Channels l /\ layout_ok (converter_type c) (lsb l) /\
            enc_px pk c p = ref_enc pk (converter_type c) (lsb l) p.
Proof.
  intros H; destruct c; try discriminate; cbn [std_conv] in H.
  - exists (map (fun c => (c, bits)) (firstn (N.to_nat ch) rgba_chans)). split; [reflexivity|].
    assert (Hb : In bits [8; 16]) by (cbn; lia). assert (Hn : 1 <= ch <= 4) by lia.
    unfold lsb. rewrite first_channels_lsb by (destruct Hb as [<-|[<-|[]]]; reflexivity).
    split; [apply first_channels_ok; cbn; destruct Hb as [<-|[<-|[]]]; lia|].
    destruct p as [R G B A]. apply each_ref; auto.
    + apply agrees_unorm; [destruct Hb as [<-|[<-|[]]]; lia|reflexivity|lia].
    + cbn in *; tauto.
  - exists (map (fun c => (c, bits)) (firstn (N.to_nat ch) rgba_chans)). split; [reflexivity|].
    assert (Hb : In bits [8; 16]) by (cbn; lia). assert (Hn : 1 <= ch <= 4) by lia.
    unfold lsb. rewrite first_channels_lsb by (destruct Hb as [<-|[<-|[]]]; reflexivity).
    split; [apply first_channels_ok; exact Hb|].
    destruct p as [R G B A]. apply each_ref; auto.
    + apply agrees_snorm; auto.
    + cbn in *; tauto.
  - exists (map (fun c => (c, bits)) (firstn (N.to_nat ch) rgba_chans)). split; [reflexivity|].
    assert (Hb : In bits [8; 16; 32]) by (cbn; lia). assert (Hn : 1 <= ch <= 4) by lia.
    unfold lsb. rewrite first_channels_lsb by (destruct Hb as [<-|[<-|[<-|[]]]]; reflexivity).
    replace (converter_type (CvInt signed bits ch)) with (ttype_of_sign signed) by (destruct signed; reflexivity).
    split; [apply first_channels_ok; destruct signed; cbn in *; tauto|].
    destruct p as [R G B A]. apply each_ref; auto. apply agrees_int; auto.
  - exists (map (fun c => (c, 32)) (firstn (N.to_nat ch) rgba_chans)). split; [reflexivity|].
    unfold lsb. rewrite first_channels_lsb by reflexivity.
    split; [apply first_channels_ok; cbn; auto|]. destruct p. apply float_ref. lia.
  - exists (map (fun c => (c, 16)) (firstn (N.to_nat ch) rgba_chans)). split; [reflexivity|].
    unfold lsb. rewrite first_channels_lsb by reflexivity.
    split; [apply first_channels_ok; cbn; auto|]. destruct p. apply half_ref. lia.
  - eexists; split; [reflexivity|]. split; [concrete_layout|apply ref_r4g4].
  - eexists; split; [reflexivity|]. split; [concrete_layout|apply ref_r4g4b4a4].
  - eexists; split; [reflexivity|]. split; [concrete_layout|apply ref_b4g4r4a4].
  - eexists; split; [reflexivity|]. split; [concrete_layout|apply ref_a4r4g4b4].
  - eexists; split; [reflexivity|]. split; [concrete_layout|apply ref_r5g6b5].
  - eexists; split; [reflexivity|]. split; [concrete_layout|apply ref_b5g6r5].
  - eexists; split; [reflexivity|]. split; [concrete_layout|apply ref_r5g5b5a1].
  - eexists; split; [reflexivity|]. split; [concrete_layout|apply ref_b5g5r5a1].
  - eexists; split; [reflexivity|]. split; [concrete_layout|apply ref_a1r5g5b5].
  - eexists; split; [reflexivity|]. split; [concrete_layout|apply ref_b8g8r8].
  - eexists; split; [reflexivity|]. split; [concrete_layout|apply ref_b8g8r8a8].
  - eexists; split; [reflexivity|]. split; [concrete_layout|apply ref_a8b8g8r8].
  - eexists; split; [reflexivity|]. split; [concrete_layout|apply ref_a2r10un].
  - eexists; split; [reflexivity|]. split; [concrete_layout|apply ref_a2r10ui].
  - eexists; split; [reflexivity|]. split; [concrete_layout|apply ref_a2b10un].
  - eexists; split; [reflexivity|]. split; [concrete_layout|apply ref_a2b10ui].
Qed.

(** Every uncompressed converter is one of the above or one of the two shared-exponent ones. *)
Lemma created_std_b : forall fl f t,
  match createConverter fl f t, layout_of f with
  | Some c, Channels _ => std_conv c || type_eqb t T_UFloat
  | _, _ => true
  end = true.
Proof. apply forall_fft; vm_compute; reflexivity. Qed.

Lemma created_ref pk fl f t c l p : createConverter fl f t = Some c -> lsb_layout f = Some l ->
  t <> T_UFloat ->
  enc_px pk c p = ref_enc pk t l p /\ layout_ok t l.
Proof.
  intros C L T.
  destruct (created_converter_matches _ _ _ _ C) as (EL & ET & _).
  pose proof (created_std_b fl f t) as S. rewrite C in S.
  unfold lsb_layout in L. destruct (layout_of f) as [|l0|] eqn:LF; try discriminate.
  inversion L; subst l; clear L.
  apply orb_prop in S; destruct S as [S|S].
  - destruct (enc_ref pk c p S) as (l & E1 & E2 & E3).
    rewrite EL in E1. inversion E1; subst l. rewrite ET in *. split; auto.
  - apply type_eqb_eq in S. congruence.
Qed.

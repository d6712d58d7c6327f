(** A saved KTX file reads back. *)
From Coq Require Import NArith List Bool Lia ZArith.
From Coq Require Import ZifyBool ZifyNat ZifyN.
From Verif Require Import Base FormatModel FormatSpec ContainerSpec SaveFormats FormatProofs
  TextureModel TextureSpec TextureProofs SaveModel SaveSpec SaveProofs SaveRead SaveReadDds.
Import ListNotations.
Local Open Scope N_scope.

Definition ktx_words_ok (f : format) (ws : list N) : bool :=
  match ws with
  | [ty; ts; fo; i; b] =>
      forallb (fun w => w <? 2^32) ws &&
      (if blockWidth f =? 1
       then negb (ty =? 0) && match gl_texel_bytes ty fo with Some n => n =? blockSize f | None => false end
       else ty =? 0)
  | _ => false
  end.

Lemma ktx_words_b : forall f t c,
  match getFormatInfo f t c with
  | Some info => match ktx_info_words info with Some ws => ktx_words_ok f ws | None => true end
  | None => true
  end = true.
Proof. apply forall_ftc; vm_compute; reflexivity. Qed.

Lemma ktx_blocks_b : forall f, negb (format_eqb f F_Unknown) = true ->
  (if blockWidth f =? 1 then negb (pvrtc_format f) && (blockHeight f =? 1)
   else (1 <? blockWidth f) && (pvrtc_format f || (blockSize f mod 4 =? 0))) = true.
Proof. intros []; vm_compute; congruence. Qed.

Section Ktx.
Context {C : Type}.
Implicit Types (t : texture C).

Lemma skipn_add {A} a b (l : list A) : skipn a (skipn b l) = skipn (a + b) l.
Proof.
  revert l; induction b as [|b IH]; intros l; [rewrite Nat.add_0_r; reflexivity|].
  rewrite Nat.add_succ_r; destruct l; [rewrite skipn_nil; reflexivity|apply IH].
Qed.

Lemma concat_rows (s : list N) (r : N) n : N.of_nat (length s) = n * r ->
  concat (map (fun y => firstn (N.to_nat r) (skipn (N.to_nat (y * r)) s)) (Nrange n)) = s.
Proof.
  unfold Nrange; rewrite map_map.
  assert (G : forall k start, (N.of_nat (length s) = N.of_nat (start + k) * r) ->
    concat (map (fun x => firstn (N.to_nat r) (skipn (N.to_nat (N.of_nat x * r)) s)) (seq start k))
    = skipn (N.to_nat (N.of_nat start * r)) s).
  { induction k as [|k IH]; intros start HL; cbn [seq map concat].
    - rewrite skipn_all2; [reflexivity|]; rewrite Nat.add_0_r in HL; lia.
    - rewrite IH by (rewrite HL; f_equal; lia).
      replace (N.to_nat (N.of_nat (S start) * r)) with (N.to_nat r + N.to_nat (N.of_nat start * r))%nat by lia.
      rewrite <- skipn_add; apply firstn_skipn. }
  intros HL; rewrite G; [reflexivity|].
  rewrite HL; f_equal; lia.
Qed.

(** Elements and slices, as the readers see them. *)
Definition slices t (m : N) : N := if is3D t then depth t m else 1.

Lemma flat_map_nil_r {A B} (g : A -> list B) l : flat_map (fun x => g x ++ []) l = flat_map g l.
Proof. induction l; simpl; auto; rewrite app_nil_r; congruence. Qed.

Lemma dims_cases t : wft t -> t <> None ->
  (is3D t = true /\ isArray t = false /\ isCube t = false /\ faceCount t = 1 /\ dds_elements t = 1) \/
  (is3D t = false /\ dds_elements t = depth t 0).
Proof.
  intros W NN; pose proof (is3D_iff t) as I3.
  pose proof (b_f _ (wf_bounded t W NN)) as BF.
  destruct (is3D t) eqn:E3.
  - left; assert (D : dimensionOf t = Dim3D) by (apply I3; auto).
    assert (A : isArray t = false) by (destruct (isArray t) eqn:A; auto; apply array_not_3d in A; contradiction).
    assert (Q : isCube t = false) by (unfold isCube; rewrite D; reflexivity).
    unfold dds_elements; rewrite A, Q in *; auto.
  - right; split; auto; unfold dds_elements; destruct (isArray t) eqn:A; auto.
    symmetry; apply not_array_depth; auto; intros D; apply I3 in D; discriminate.
Qed.

Lemma reshape {A} t (G : N -> N -> list A) m : wft t -> m < mipLevelCount t ->
  flat_map (fun d => flat_map (fun f => G f d) (Nrange (faceCount t))) (Nrange (depth t m))
  = flat_map (fun e => flat_map (fun f => flat_map (fun s => G f (s + e)) (Nrange (slices t m)))
      (Nrange (faceCount t))) (Nrange (dds_elements t)).
Proof.
  intros W Hm; assert (NN : t <> None) by (intros ->; simpl in Hm; lia).
  unfold slices; destruct (dims_cases t W NN) as [(E3 & _ & _ & F & E)|[E3 E]]; rewrite E3, E.
  - rewrite F; change (Nrange 1) with [0]; cbn [flat_map]; rewrite !app_nil_r, flat_map_nil_r.
    apply flat_map_ext; intros d; rewrite N.add_0_r; reflexivity.
  - rewrite depth_flat; auto.
    2: { intros D; apply is3D_iff in D; congruence. }
    change (Nrange 1) with [0]; cbn [flat_map].
    apply flat_map_ext; intros d; apply flat_map_ext; intros f; rewrite app_nil_r; reflexivity.
Qed.

Lemma fold_u32 x l acc : acc + N.of_nat (length l) * x < 2^32 ->
  fold_left (fun acc (_ : N) => u32 (acc + u32 x)) l acc = acc + N.of_nat (length l) * x.
Proof.
  revert acc; induction l as [|a l IH]; intros acc H; cbn [fold_left length] in *; [lia|].
  assert (u32 (acc + u32 x) = acc + x) as -> by (rewrite (u32_small x), u32_small; lia).
  rewrite IH; lia.
Qed.

(** Bytes of a surface in the file. *)
Definition ksurf psize t m := ktx_surface psize (fmt t) (width t m) (height t m).
Definition ktx_fits psize t := forall m, m < mipLevelCount t ->
  depth t m * faceCount t * ksurf psize t m < 2^32.

Lemma image_size t psize m : wft t -> has_data t -> sized psize t -> fmt t <> F_Unknown ->
  ktx_fits psize t -> m < mipLevelCount t ->
  ktx_image_size t m = Some (depth t m * ksurf psize t m * (if isArray t then faceCount t else 1)).
Proof.
  intros W H SZ NU FT Hm; specialize (FT m Hm).
  assert (NN : t <> None) by (intros ->; simpl in Hm; lia).
  destruct (wf_bounded t W NN) as [[Bw1 Bw2] [Bh1 Bh2] [Bd1 Bd2] [Bm1 Bm2] Bf].
  assert (Dm : 0 < depth t m) by (destruct t as [i|]; [apply depth_pos; exact Hm|simpl in Hm; lia]).
  assert (Hh : 0 < height t m) by (destruct t as [i|]; [apply height_pos; exact Hm|simpl in Hm; lia]).
  assert (F1 : 1 <= faceCount t) by (rewrite Bf; destruct (isCube t); lia).
  pose proof (ktx_blocks_b (fmt t)) as KB.
  destruct (format_eqb (fmt t) F_Unknown) eqn:EU; [apply format_eqb_eq in EU; contradiction|].
  specialize (KB eq_refl).
  assert (S1 : depth t m * ksurf psize t m < 2^32) by nia.
  assert (CORE : forall x, x = ksurf psize t m ->
     fold_left (fun acc (_ : N) => u32 (acc + u32 x)) (Nrange (depth t m)) 0 = depth t m * ksurf psize t m).
  { intros x ->; rewrite fold_u32; rewrite Nrange_length; [|]; rewrite Nnat.N2Nat.id; lia. }
  unfold ktx_image_size.
  assert (E : (if 1 <? blockWidth (fmt t)
         then obind (dataSizeF t 0 m 0) (fun sz =>
              Some (fold_left (fun acc (_ : N) => u32 (acc + u32 sz)) (Nrange (depth t m)) 0))
         else Some (fold_left (fun acc (_ : N) =>
                u32 (acc + u32 (u32 (u32 (u32 (width t m * blockSize (fmt t)) + 3) / 4 * 4) * height t m)))
                (Nrange (depth t m)) 0)) = Some (depth t m * ksurf psize t m)).
  { unfold ksurf, ktx_surface in *; pose proof (block_table (fmt t)) as BT.
    destruct (spec_block (fmt t)) as [[bw bh] bs] eqn:SB; injection BT as E1 E2 E3.
    rewrite E1 in KB |- *.
    destruct (N.eqb_spec bw 1) as [B1|B1].
    - rewrite B1; cbn [N.ltb]; change (1 <? 1) with false; cbv iota.
      f_equal; rewrite E3.
      assert (R : round4 (width t m * bs) < 2^32) by nia.
      assert (u32 (width t m * bs) = width t m * bs) as -> by (apply u32_small; unfold round4, cdiv in R; lia).
      assert (u32 (u32 (width t m * bs + 3) / 4 * 4) = round4 (width t m * bs)) as ->.
      { unfold round4, cdiv in *; rewrite (u32_small (_ + 3)) by lia.
        replace (width t m * bs + 4 - 1) with (width t m * bs + 3) in * by lia.
        apply u32_small; exact R. }
      apply CORE; reflexivity.
    - apply andb_true_iff in KB; destruct KB as [KB _]; rewrite KB.
      assert (IR : in_range t 0 m 0) by (repeat split; lia).
      unfold dataSizeF; rewrite (H _ _ _ IR); cbn [obind]; f_equal.
      apply CORE; destruct (SZ _ _ _ _ IR (H _ _ _ IR)) as (g & Eg & ->).
      unfold fmt; rewrite Eg; reflexivity. }
  rewrite E; cbn [obind]; f_equal.
  destruct (isArray t); [rewrite u32_small by lia; lia|lia].
Qed.

Lemma ktx_row_size t psize m : wft t -> ktx_fits psize t ->
  blockWidth (fmt t) = 1 -> m < mipLevelCount t -> row_size t m = width t m * blockSize (fmt t).
Proof.
  intros W FT B1 Hm; specialize (FT m Hm); apply u32_small.
  assert (NN : t <> None) by (intros ->; simpl in Hm; lia).
  destruct (wf_bounded t W NN) as [[Bw1 Bw2] [Bh1 Bh2] [Bd1 Bd2] [Bm1 Bm2] Bf].
  assert (Dm : 0 < depth t m) by (destruct t as [i|]; [apply depth_pos; exact Hm|simpl in Hm; lia]).
  assert (Hh : 0 < height t m) by (destruct t as [i|]; [apply height_pos; exact Hm|simpl in Hm; lia]).
  assert (F1 : 1 <= faceCount t) by (rewrite Bf; destruct (isCube t); lia).
  unfold ksurf, ktx_surface in FT; pose proof (block_table (fmt t)) as BT.
  destruct (spec_block (fmt t)) as [[bw bh] bs] eqn:SB; injection BT as E1 E2 E3.
  rewrite <- E1, B1 in FT; change (1 =? 1) with true in FT; cbv iota in FT; rewrite E3.
  assert (round4 (width t m * bs) < 2^32) by nia.
  unfold round4, cdiv in *; lia.
Qed.

Definition ktx_result t (ws : list N) : option ktx_file :=
  match ws with
  | [ty; ts; fo; i; b] =>
      Some (KtxFile ty ts fo i b (width t 0) (if is1D t then 0 else height t 0)
        (if is3D t then depth t 0 else 0) (if isArray t then depth t 0 else 0) (faceCount t)
        (mipLevelCount t) []
        (map (fun m => map (fun e => map (fun f => map (fun s => surf t f m (s + e))
           (Nrange (slices t m))) (Nrange (faceCount t))) (Nrange (dds_elements t)))
           (Nrange (mipLevelCount t))))
  | _ => None
  end.

Lemma concat_singles (n : nat) : concat (repeat [0] n) = repeat 0 n.
Proof. induction n; simpl; congruence. Qed.

Lemma ktx_level_reads t psize m (B : N) texel : wft t -> has_data t -> sized psize t -> fmt t <> F_Unknown ->
  ktx_fits psize t -> (forall f w h, psize f w h mod 4 = 0) -> m < mipLevelCount t ->
  texel = (if blockWidth (fmt t) =? 1 then Some (blockSize (fmt t)) else None) ->
  parses (read_ktx_level texel (width t m) (height t m) (slices t m) (dds_elements t) (faceCount t) (isArray t))
    (le4 (depth t m * ksurf psize t m * (if isArray t then faceCount t else 1)) ++
     bytes_of (flat_map (fun d => flat_map (fun f =>
         if 1 <? blockWidth (fmt t) then [[surf t f m d]] else ktx_rows t f m d)
         (Nrange (faceCount t))) (Nrange (depth t m))))
    (map (fun e => map (fun f => map (fun s => surf t f m (s + e))
           (Nrange (slices t m))) (Nrange (faceCount t))) (Nrange (dds_elements t))).
Proof.
  intros W H SZ NU FT P4 Hm TX.
  assert (NN : t <> None) by (intros ->; simpl in Hm; lia).
  destruct (wf_bounded t W NN) as [[Bw1 Bw2] [Bh1 Bh2] [Bd1 Bd2] [Bm1 Bm2] Bf].
  assert (Dm : 0 < depth t m) by (destruct t as [i|]; [apply depth_pos; exact Hm|simpl in Hm; lia]).
  assert (Hh : 0 < height t m) by (destruct t as [i|]; [apply height_pos; exact Hm|simpl in Hm; lia]).
  assert (F1 : 1 <= faceCount t) by (rewrite Bf; destruct (isCube t); lia).
  pose proof (FT m Hm) as FTm.
  pose proof (ktx_blocks_b (fmt t)) as KB.
  destruct (format_eqb (fmt t) F_Unknown) eqn:EU; [apply format_eqb_eq in EU; contradiction|].
  specialize (KB eq_refl).
  (* sizes *)
  set (K := ksurf psize t m) in *.
  assert (K4 : K mod 4 = 0).
  { unfold K, ksurf, ktx_surface, surface_bytes; pose proof (block_table (fmt t)) as BT.
    destruct (spec_block (fmt t)) as [[bw bh] bs] eqn:SB; injection BT as E1 E2 E3.
    rewrite E1, E3 in KB.
    destruct (bw =? 1).
    - unfold round4; rewrite <- N.mul_assoc, (N.mul_comm 4), N.mul_assoc; apply N.mod_mul; lia.
    - apply andb_true_iff in KB; destruct KB as [_ KB].
      destruct (pvrtc_format (fmt t)); [apply P4|]; cbn [orb] in KB.
      rewrite N.mul_mod, (proj1 (N.eqb_eq _ _) KB), N.mul_0_r by lia; reflexivity. }
  set (size := depth t m * K * (if isArray t then faceCount t else 1)).
  assert (size < 2^32) as SL by (unfold size; destruct (isArray t); nia).
  assert (S4 : round4 size - size = 0).
  { assert (size mod 4 = 0).
    { unfold size; rewrite (N.mul_comm (depth t m)), <- N.mul_assoc, N.mul_mod, K4 by lia; reflexivity. }
    unfold round4, cdiv; lia. }
  set (lone := negb (isArray t) && (faceCount t =? 6)).
  assert (CNT : dds_elements t * slices t m = depth t m).
  { unfold slices; destruct (dims_cases t W NN) as [(E3 & _ & _ & F & E)|[E3 E]]; rewrite E3, E; [lia|].
    rewrite (depth_flat t m); auto; [lia|]. intros D; apply is3D_iff in D; congruence. }
  assert (TOT : (if lone then 6 * size else size) = dds_elements t * faceCount t * slices t m * K).
  { transitivity (depth t m * K * faceCount t); [|rewrite <- CNT; lia].
    unfold lone, size; destruct (isArray t); cbn [negb andb]; auto.
    rewrite Bf; destruct (isCube t); cbn [N.eqb Pos.eqb]; lia. }
  assert (CP : 0 < dds_elements t * faceCount t * slices t m) by nia.
  unfold read_ktx_level.
  eapply parses_bind; [apply parses_u32; exact SL|].
  fold lone; rewrite TOT, S4.
  rewrite bytes_flat_map.
  rewrite (flat_map_ext _ (fun d => flat_map (fun f => bytes_of (if 1 <? blockWidth (fmt t)
      then [[surf t f m d]] else ktx_rows t f m d)) (Nrange (faceCount t))))
    by (intros d; apply bytes_flat_map).
  rewrite (reshape t (fun f d => bytes_of (if 1 <? blockWidth (fmt t)
      then [[surf t f m d]] else ktx_rows t f m d)) m W Hm).
  assert (IRs : forall e f s, e < dds_elements t -> f < faceCount t -> s < slices t m -> in_range t f m (s + e))
    by (intros; apply dds_in_range; auto).
  eapply parses_bind_nil; [apply parses_guard|].
  { rewrite TX; destruct (N.eqb_spec (blockWidth (fmt t)) 1) as [B1|B1].
    - apply N.eqb_eq; f_equal; unfold K, ksurf, ktx_surface; pose proof (block_table (fmt t)) as BT.
      destruct (spec_block (fmt t)) as [[bw bh] bs] eqn:SB; injection BT as E1 E2 E3.
      rewrite <- E1, B1, E3; reflexivity.
    - apply N.eqb_eq; rewrite N.mul_comm; apply N.mod_mul; lia. }
  eapply parses_bind_end.
  2: { eapply parses_bind_nil; [apply (parses_take 0 []); reflexivity|]; apply parses_ret. }
  apply parses_for; intros e He; apply parses_for; intros f Hf.
  eapply parses_bind_end.
  2: { eapply parses_bind_nil; [|apply parses_ret].
       destruct lone; apply (parses_take 0 []); reflexivity. }
  apply parses_for; intros s Hs; rewrite TX.
  specialize (IRs e f s He Hf Hs).
  destruct (SZ _ _ _ _ IRs (H _ _ _ IRs)) as (g & Eg & Hl).
  assert (Ef : fmt t = g) by (unfold fmt; rewrite Eg; reflexivity).
  rewrite <- Ef in Hl.
  destruct (N.eqb_spec (blockWidth (fmt t)) 1) as [B1|B1].
  - rewrite B1; change (1 <? 1) with false; cbv iota.
    assert (Len : N.of_nat (length (surf t f m (s + e))) = height t m * (width t m * blockSize (fmt t))).
    { rewrite Hl; unfold surface_bytes; pose proof (block_table (fmt t)) as BT.
      destruct (spec_block (fmt t)) as [[bw bh] bs] eqn:SB; injection BT as E1 E2 E3.
      apply andb_true_iff in KB; destruct KB as [KB1 KB2].
      destruct (pvrtc_format (fmt t)); [discriminate|].
      rewrite <- E1, <- E2, <- E3, B1, (proj1 (N.eqb_eq _ _) KB2); unfold cdiv; rewrite !N.div_1_r; lia. }
    pose proof (ktx_row_size t psize m W FT B1 Hm) as RS.
    set (r := width t m * blockSize (fmt t)) in *.
    eapply parses_bind_end.
    + unfold ktx_rows; rewrite RS.
      instantiate (1 := map (fun y => firstn (N.to_nat r) (skipn (N.to_nat (y * r)) (surf t f m (s + e))))
         (Nrange (height t m))).
      assert (BR : bytes_of (map (fun y => firstn (N.to_nat r) (skipn (N.to_nat (y * r)) (surf t f m (s + e)))
                :: repeat [0] (N.to_nat (row_pad t m))) (Nrange (height t m)))
         = flat_map (fun y => firstn (N.to_nat r) (skipn (N.to_nat (y * r)) (surf t f m (s + e)))
               ++ repeat 0 (N.to_nat (row_pad t m))) (Nrange (height t m))).
      { clear; induction (Nrange (height t m)); [reflexivity|].
        cbn [map flat_map]; rewrite bytes_cons; cbn [concat]; rewrite concat_singles, IHl; reflexivity. }
      rewrite BR; apply parses_for; intros y Hy.
      eapply parses_bind; [apply parses_take|eapply parses_bind_end; [apply parses_take|apply parses_ret]].
      * rewrite firstn_length, skipn_length; nia.
      * rewrite repeat_length; unfold row_pad; rewrite RS; lia.
    + rewrite concat_rows by exact Len; apply parses_ret.
  - apply andb_true_iff in KB; destruct KB as [KB _]; rewrite KB.
    unfold bytes_of; cbn [concat app]; rewrite app_nil_r.
    apply parses_take; rewrite Hl.
    rewrite N.mul_comm, N.div_mul by lia.
    unfold K, ksurf, ktx_surface; pose proof (block_table (fmt t)) as BT.
    destruct (spec_block (fmt t)) as [[bw bh] bs] eqn:SB; injection BT as E1 E2 E3.
    rewrite <- E1; destruct (N.eqb_spec (blockWidth (fmt t)) 1); [contradiction|reflexivity].
Qed.

Lemma ktx_reads t psize info ws sizes : wft t -> t <> None -> has_data t -> sized psize t ->
  fmt t <> F_Unknown -> ktx_fits psize t -> (forall f w h, psize f w h mod 4 = 0) ->
  (is1D t = true -> height t 0 = 1) ->
  getFormatInfo (fmt t) (typeOf t) (colorSpaceOf t) = Some info -> ktx_info_words info = Some ws ->
  (forall m, m < mipLevelCount t -> ktx_image_size t m = Some (sizes m)) ->
  exists r, ktx_result t ws = Some r /\ pall read_ktx (bytes_of (ktx_chunks t ws sizes)) r.
Proof.
  intros W NN H SZ NU FT P4 H1D E1 E2 IS.
  destruct (wf_bounded t W NN) as [[Bw1 Bw2] [Bh1 Bh2] [Bd1 Bd2] [Bm1 Bm2] Bf].
  pose proof (ktx_words_b (fmt t) (typeOf t) (colorSpaceOf t)) as KW; rewrite E1, E2 in KW.
  destruct ws as [|ty [|ts [|fo [|i [|b [|]]]]]]; try discriminate KW.
  unfold ktx_words_ok in KW; apply andb_true_iff in KW; destruct KW as [KW TX].
  cbn [forallb] in KW.
  eexists; split; [reflexivity|].
  unfold ktx_chunks; rewrite !bytes_cons; cbn [concat]; rewrite !app_nil_r.
  cbn [flat_map]; rewrite !app_nil_r, <- !app_assoc.
  unfold read_ktx.
  eapply pall_bind; [apply parses_take; reflexivity|]; apply pall_guard; [reflexivity|].
  eapply pall_bind; [apply parses_u32; reflexivity|]; apply pall_guard; [reflexivity|].
  do 5 (eapply pall_bind; [apply parses_u32; lia|]).
  eapply pall_bind; [apply parses_u32; exact Bw2|].
  eapply pall_bind; [apply parses_u32; destruct (is1D t); [reflexivity|exact Bh2]|].
  eapply pall_bind; [apply parses_u32; destruct (is3D t); [exact Bd2|reflexivity]|].
  eapply pall_bind; [apply parses_u32; destruct (isArray t); [exact Bd2|reflexivity]|].
  eapply pall_bind; [apply parses_u32; rewrite Bf; destruct (isCube t); reflexivity|].
  eapply pall_bind; [apply parses_u32; lia|].
  eapply pall_bind; [apply parses_u32; reflexivity|].
  apply pall_bind_nil with (a := []); [apply (parses_take 0 []); reflexivity|].
  apply pall_guard; [rewrite Bf; destruct (isCube t); reflexivity|].
  assert (TX' : (if ty =? 0 then Some None
         else match gl_texel_bytes ty fo with Some b => Some (Some b) | None => None end)
     = Some (if blockWidth (fmt t) =? 1 then Some (blockSize (fmt t)) else None)).
  { destruct (blockWidth (fmt t) =? 1); [|rewrite TX; reflexivity].
    destruct (ty =? 0); [discriminate|]; cbn [negb andb] in TX.
    destruct (gl_texel_bytes ty fo); [|discriminate]; apply N.eqb_eq in TX; rewrite TX; reflexivity. }
  rewrite TX'.
  rewrite bytes_flat_map.
  eapply pall_bind_end; [|apply pall_eof].
  apply parses_for; intros m Hm.
  rewrite bytes_cons; cbn [concat]; rewrite app_nil_r.
  pose proof (IS m Hm) as ISm; rewrite (image_size t psize m) in ISm by auto.
  injection ISm as <-.
  assert (EW : mip (width t 0) m = width t m) by (symmetry; apply width_mip; auto).
  assert (EH : mip (N.max 1 (if is1D t then 0 else height t 0)) m = height t m).
  { rewrite (height_mip t m) by auto; f_equal; destruct (is1D t) eqn:E; [rewrite H1D by auto; reflexivity|lia]. }
  assert (ED : mip (N.max 1 (if is3D t then depth t 0 else 0)) m = slices t m).
  { unfold slices; pose proof (is3D_iff t) as I3; destruct (is3D t).
    - rewrite (depth_mip t m) by (auto; apply I3; auto); f_equal; lia.
    - unfold mip; change (N.max 1 0) with 1.
      assert (1 / 2 ^ m <= 1) by (apply N.div_le_upper_bound; [apply N.pow_nonzero; lia|]; pose proof (N.pow_nonzero 2 m); lia).
      lia. }
  assert (EE : N.max 1 (if isArray t then depth t 0 else 0) = dds_elements t)
    by (unfold dds_elements; destruct (isArray t); lia).
  assert (EA : negb ((if isArray t then depth t 0 else 0) =? 0) = isArray t)
    by (destruct (isArray t); [destruct (N.eqb_spec (depth t 0) 0); [lia|reflexivity]|reflexivity]).
  rewrite EW, EH, ED, EE, EA.
  apply (ktx_level_reads t psize m 0); auto.
Qed.
End Ktx.

(** A saved DDS file reads back. *)
From Coq Require Import NArith List Bool Lia ZArith.
From Coq Require Import ZifyBool ZifyNat ZifyN.
From Verif Require Import Base FormatModel FormatSpec ContainerSpec SaveFormats FormatProofs
  TextureModel TextureSpec TextureProofs SaveModel SaveSpec SaveProofs SaveRead.
Import ListNotations.
Local Open Scope N_scope.

Lemma dds_code_b : forall f t c,
  (let code := getDdsFormat f t c in
   (code <? 2^32) &&
   implb (negb (code =? 0) && negb (format_eqb f F_Unknown))
     (negb (pvrtc_format f) &&
      match lookup code dxgi_table with
      | Some (d, _, _) =>
          implb (describes d f)
            match desc_block d with
            | Some (bw, bh, bs) =>
                let '(w, h, b) := spec_block f in (bw =? w) && (bh =? h) && (bs =? b)
            | None => false
            end
      | None => true
      end)) = true.
Proof. apply forall_ftc; vm_compute; reflexivity. Qed.

Lemma dds_code_small f t c : getDdsFormat f t c < 2^32.
Proof. pose proof (dds_code_b f t c) as H; cbv zeta in H; apply andb_true_iff in H; lia. Qed.

Lemma dds_block f t c d ty cs : f <> F_Unknown -> getDdsFormat f t c <> 0 ->
  lookup (getDdsFormat f t c) dxgi_table = Some (d, ty, cs) -> describes d f = true ->
  pvrtc_format f = false /\ desc_block d = Some (spec_block f).
Proof.
  intros NU NZ E D; pose proof (dds_code_b f t c) as H; cbv zeta in H.
  apply andb_true_iff in H; destruct H as [_ H]; rewrite E, D in H; cbn [implb] in H.
  destruct (N.eqb_spec (getDdsFormat f t c) 0); [contradiction|]; cbn [negb andb] in H.
  destruct (format_eqb f F_Unknown) eqn:EU; [apply format_eqb_eq in EU; contradiction|].
  cbn [negb implb] in H; apply andb_true_iff in H; destruct H as [H1 H2].
  split; [destruct (pvrtc_format f); [discriminate|reflexivity]|].
  destruct (desc_block d) as [[[bw bh] bs]|]; [|discriminate].
  destruct (spec_block f) as [[w h] b]; repeat f_equal; lia.
Qed.

Lemma dds_wide_b : forall f t c,
  implb (negb (getDdsFormat f t c =? 0) && negb (format_eqb f F_Unknown))
    (((blockWidth f =? 1) || (blockWidth f =? 4)) && (blockWidth f <=? blockSize f)) = true.
Proof. apply forall_ftc; vm_compute; reflexivity. Qed.

Section Dds.
Context {C : Type}.
Implicit Types (t : texture C).

Definition zeros (k : nat) : list N := flat_map le4 (repeat 0 k).

Definition dds_flags t := if is3D t then N.lor 0x2100F 0x800000 else 0x2100F.
Definition dds_caps t :=
  let caps := if 1 <? mipLevelCount t then 0x401000 else 0x1000 in
  if (1 <? mipLevelCount t) || is3D t || is3D t || isArray t then N.lor caps 8 else caps.
Definition dds_caps2 t := if isCube t then 0xFE00 else if is3D t then 0x200000 else 0.

Lemma dds_header_bytes t : flat_map le4 (dds_header t)
  = le4 124 ++ le4 (dds_flags t) ++ le4 (height t 0) ++ le4 (width t 0) ++ le4 (computePitch t)
    ++ le4 (if is3D t then depth t 0 else 0) ++ le4 (mipLevelCount t) ++ zeros 11
    ++ le4 32 ++ le4 4 ++ le4 0x30315844 ++ zeros 5 ++ le4 (dds_caps t) ++ le4 (dds_caps2 t)
    ++ zeros 3.
Proof. reflexivity. Qed.

Definition dds_elements t : N := if isArray t then depth t 0 else 1.

Definition dds_result t (d : pixdesc) : dds_file :=
  DdsFile (dimensionOf t) (width t 0) (height t 0) (if is3D t then depth t 0 else 1)
    (mipLevelCount t) (dds_elements t) (Some (computePitch t)) ((1 <? mipLevelCount t) || is3D t || isArray t)
    (1 <? mipLevelCount t)
    (dds_alpha_mode (hasAlpha (fmt t)) (alphaOf t)) d (typeOf t) (colorSpaceOf t)
    (map (fun e => map (fun f => map (fun m => map (fun v => surf t f m (v + e))
       (Nrange (if is3D t then depth t m else 1))) (Nrange (mipLevelCount t)))
       (Nrange (faceCount t))) (Nrange (dds_elements t))).

Lemma surf_sized t psize f m d : has_data t -> sized psize t -> in_range t f m d ->
  pvrtc_format (fmt t) = false ->
  N.of_nat (length (surf t f m d))
  = let '(bw, bh, bs) := spec_block (fmt t) in cdiv (width t m) bw * cdiv (height t m) bh * bs.
Proof.
  intros H SZ IR P; destruct (SZ _ _ _ _ IR (H _ _ _ IR)) as (g & Eg & ->).
  assert (Ef : fmt t = g) by (unfold fmt; rewrite Eg; reflexivity).
  rewrite <- Ef; unfold surface_bytes; rewrite P; reflexivity.
Qed.

Lemma dds_in_range t f m v e : wft t -> e < dds_elements t -> f < faceCount t -> m < mipLevelCount t ->
  v < (if is3D t then depth t m else 1) -> in_range t f m (v + e).
Proof.
  intros W He Hf Hm Hv; split; [exact Hm|]; split; [|exact Hf].
  assert (NN : t <> None) by (intros ->; simpl in Hm; lia).
  unfold dds_elements in He; pose proof (is3D_iff t) as I3.
  pose proof (b_d _ (wf_bounded t W NN)).
  destruct (is3D t).
  - assert (D : dimensionOf t = Dim3D) by (apply I3; reflexivity).
    destruct (isArray t) eqn:A; [apply array_not_3d in A; contradiction|]; lia.
  - assert (D : dimensionOf t <> Dim3D) by (intros D; apply I3 in D; discriminate).
    rewrite depth_flat by auto.
    destruct (isArray t) eqn:A; lia.
Qed.

Lemma dds_reads t psize d : wft t -> t <> None -> has_data t -> sized psize t -> fmt t <> F_Unknown ->
  let code := getDdsFormat (fmt t) (typeOf t) (colorSpaceOf t) in
  code <> 0 -> lookup code dxgi_table = Some (d, typeOf t, colorSpaceOf t) ->
  describes d (fmt t) = true ->
  pall read_dds (bytes_of (dds_chunks t)) (dds_result t d).
Proof.
  intros W NN H SZ NU code NZ LK DE.
  destruct (wf_bounded t W NN) as [[Bw1 Bw2] [Bh1 Bh2] [Bd1 Bd2] [Bm1 Bm2] Bf].
  destruct (dds_block _ _ _ _ _ _ NU NZ LK DE) as [NP DB].
  unfold dds_chunks; fold code; rewrite !bytes_cons; cbn [concat]; rewrite !app_nil_r.
  rewrite dds_header_bytes; unfold dds_header10; cbn [flat_map]; rewrite app_nil_r, <- !app_assoc.
  unfold read_dds.
  assert (FL : dds_flags t < 2^32 /\ flag (dds_flags t) 0x1007 = true /\ flag (dds_flags t) 0x20000 = true
               /\ (is3D t = true -> flag (dds_flags t) 0x800000 = true) /\ flag (dds_flags t) 8 = true).
  { unfold dds_flags; destruct (is3D t); vm_compute; intuition congruence. }
  destruct FL as (F1 & F2 & F3 & F4 & F5).
  assert (FC : dds_caps t < 2^32 /\ flag (dds_caps t) 0x1000 = true /\
    flag (dds_caps t) 0x8 = ((1 <? mipLevelCount t) || is3D t || isArray t) /\
    flag (dds_caps t) 0x400000 = (1 <? mipLevelCount t)).
  { unfold dds_caps; destruct (1 <? mipLevelCount t), (is3D t), (isArray t); vm_compute; auto. }
  destruct FC as (C1 & C2 & C3 & C4).
  assert (FD : dds_caps2 t < 2^32 /\ (isCube t = true -> flag (dds_caps2 t) 0xFE00 = true) /\
     (is3D t = true -> flag (dds_caps2 t) 0x200000 = true)).
  { unfold dds_caps2, isCube, is3D; destruct (dimensionOf t); vm_compute; intuition congruence. }
  destruct FD as (D1 & D2 & D3).
  eapply pall_bind; [apply parses_u32; reflexivity|]; apply pall_guard; [reflexivity|].
  eapply pall_bind; [apply parses_u32; reflexivity|]; apply pall_guard; [reflexivity|].
  eapply pall_bind; [apply parses_u32; exact F1|]; apply pall_guard; [exact F2|].
  eapply pall_bind; [apply parses_u32; exact Bh2|].
  eapply pall_bind; [apply parses_u32; exact Bw2|].
  eapply pall_bind; [apply parses_u32; apply u32_lt|].
  eapply pall_bind; [apply parses_u32; destruct (is3D t); [exact Bd2|reflexivity]|].
  eapply pall_bind; [apply parses_u32; lia|].
  eapply pall_bind; [apply parses_take; reflexivity|].
  eapply pall_bind; [apply parses_u32; reflexivity|]; apply pall_guard; [reflexivity|].
  eapply pall_bind; [apply parses_u32; reflexivity|]; apply pall_guard; [reflexivity|].
  eapply pall_bind; [apply parses_take; reflexivity|]; apply pall_guard; [reflexivity|].
  eapply pall_bind; [apply parses_take; reflexivity|].
  eapply pall_bind; [apply parses_u32; exact C1|]; apply pall_guard; [exact C2|].
  eapply pall_bind; [apply parses_u32; exact D1|].
  eapply pall_bind; [apply parses_take; reflexivity|].
  eapply pall_bind; [apply parses_u32; apply dds_code_small|].
  eapply pall_bind; [apply parses_u32; destruct (dimensionOf t); reflexivity|].
  eapply pall_bind; [apply parses_u32; destruct (isCube t); reflexivity|].
  eapply pall_bind; [apply parses_u32; destruct (is3D t); [reflexivity|exact Bd2]|].
  eapply pall_bind; [apply parses_u32; destruct (hasAlpha (fmt t)), (alphaOf t); reflexivity|].
  cbv zeta.
  assert (AR : (if is3D t then 1 else depth t 0) = dds_elements t).
  { unfold dds_elements; pose proof (is3D_iff t) as I3; destruct (is3D t).
    - destruct (isArray t) eqn:A; [|reflexivity]; apply array_not_3d in A; exfalso; apply A, I3; reflexivity.
    - destruct (isArray t) eqn:A; [reflexivity|]; apply not_array_depth; auto.
      intros D; apply I3 in D; discriminate. }
  rewrite AR.
  apply pall_guard; [destruct (dimensionOf t); reflexivity|].
  apply pall_guard.
  { revert D2; unfold isCube; destruct (dimensionOf t); cbn; auto; intros ->; auto. }
  apply pall_guard.
  { revert F4 D3 AR; unfold is3D; destruct (dimensionOf t); cbn [N.eqb Pos.eqb implb]; auto.
    intros F4 D3 <-; rewrite F4, D3 by reflexivity; reflexivity. }
  rewrite LK, DB.
  pose proof (surf_sized t psize) as SS.
  destruct (spec_block (fmt t)) as [[bw bh] bs].
  rewrite F3.
  assert (RD : (match dimensionOf t with Dim1D => 2 | Dim2D => 3 | Dim3D => 4 | Cube => 3 end =? 4) = is3D t)
    by (unfold is3D; destruct (dimensionOf t); reflexivity).
  rewrite RD.
  assert (RC : flag (if isCube t then 4 else 0) 4 = isCube t) by (destruct (isCube t); reflexivity).
  rewrite RC, <- Bf.
  rewrite bytes_flat_map.
  eapply pall_bind_end.
  { apply parses_for with (res := fun e => map (fun f => map (fun m => map (fun v => surf t f m (v + e))
       (Nrange (if is3D t then depth t m else 1))) (Nrange (mipLevelCount t)))
       (Nrange (faceCount t))); intros e He.
    rewrite bytes_flat_map; apply parses_for; intros f Hf.
    rewrite bytes_flat_map; apply parses_for; intros m Hm.
    assert (ES : (if is3D t then mip (if is3D t then depth t 0 else 0) m else 1)
                 = (if is3D t then depth t m else 1)).
    { pose proof (is3D_iff t) as I3; destruct (is3D t); auto; rewrite <- depth_mip; auto; apply I3; auto. }
    assert (ES' : (if is3D t then mip (if is3D t then if is3D t then depth t 0 else 0 else 1) m else 1)
                 = (if is3D t then depth t m else 1)) by (rewrite <- ES; destruct (is3D t); reflexivity).
    rewrite ES'.
    rewrite bytes_flat_map; apply parses_for; intros v Hv.
    cbn [bytes_of concat app]; unfold bytes_of; cbn [concat app]; rewrite app_nil_r.
    apply parses_take. rewrite SS; auto; [|apply dds_in_range; auto].
    rewrite <- !width_mip, <- !height_mip by auto; reflexivity. }
  unfold dds_result; rewrite app_nil_r || idtac.
  replace (if hasAlpha (fmt t) then _ else 3) with (dds_alpha_mode (hasAlpha (fmt t)) (alphaOf t))
    by reflexivity.
  rewrite C3, C4, F5; unfold pall, pbind, peof, pret; do 2 f_equal.
  unfold is3D, isCube; destruct (dimensionOf t); reflexivity.
Qed.

Lemma pitch_exact t : wft t -> t <> None -> fmt t <> F_Unknown -> getDdsFormat (fmt t) (typeOf t) (colorSpaceOf t) <> 0 ->
  let '(bw, _, bs) := spec_block (fmt t) in cdiv (width t 0) bw * bs < 2 ^ 32 -> computePitch t = cdiv (width t 0) bw * bs.
Proof.
  intros W NN NU NZ. pose proof (dds_wide_b (fmt t) (typeOf t) (colorSpaceOf t)) as H.
  rewrite <- block_table. intros S.
  destruct (N.eqb_spec (getDdsFormat (fmt t) (typeOf t) (colorSpaceOf t)) 0); [contradiction|].
  destruct (format_eqb (fmt t) F_Unknown) eqn:EU; [apply format_eqb_eq in EU; contradiction|]. cbn [negb andb implb] in H.
  unfold computePitch, u32, cdiv in *. set (w := width t 0) in *. set (s := blockSize (fmt t)) in *. clearbody w s.
  assert (B : blockWidth (fmt t) = 1 \/ blockWidth (fmt t) = 4) by lia. assert (L : blockWidth (fmt t) <= s) by lia. clear H.
  destruct B as [B|B]; rewrite B in *.
  - rewrite N.div_1_r in *. replace (w + 1 - 1) with w in * by lia.
    assert (w < 2 ^ 32) by nia. rewrite N.div_1_r, !N.mod_small; auto. rewrite N.mod_small; auto.
  - assert (w + 4 - 1 < 2 ^ 32).
    { assert ((w + 4 - 1) / 4 * 4 <= (w + 4 - 1) / 4 * s) by (apply N.mul_le_mono_l; lia). lia. }
    rewrite (N.mod_small (w + 4 - 1)) by assumption. apply N.mod_small. exact S.
Qed.
End Dds.

(** A saved PVR file reads back. *)
From Coq Require Import NArith List Bool Lia ZArith.
From Coq Require Import ZifyBool ZifyNat ZifyN.
From Verif Require Import Base FormatModel FormatSpec ContainerSpec SaveFormats FormatProofs
  TextureModel TextureSpec TextureProofs SaveModel SaveSpec SaveProofs SaveRead SaveReadDds
  SaveReadKtx.
Import ListNotations.
Local Open Scope N_scope.

Definition all_alphas := [AlphaNone; AlphaStandard; AlphaPreMultiplied; AlphaEncoded].
Lemma all_alphas_complete a : In a all_alphas.
Proof. destruct a; cbn; tauto. Qed.

Definition pvr_code_ok (f : format) (code : N) : bool :=
  (code <? 2^64) &&
  (if code / 2^32 =? 0 then
     match lookup code pvr_special with
     | Some (g :: _) =>
         Bool.eqb (pvrtc_format f) (pvrtc_format g) && implb (pvrtc_format f) (format_eqb f g) &&
         (let '(a, b, c) := spec_block f in let '(a', b', c') := spec_block g in
          (a =? a') && (b =? b') && (c =? c'))
     | _ => false
     end
   else negb (pvrtc_format f) &&
        let '(a, b, c) := spec_block f in
        (a =? 1) && (b =? 1) &&
        (c =? (code / 2^32 mod 256 + code / 2^40 mod 256 + code / 2^48 mod 256
                       + code / 2^56 mod 256) / 8)).

Lemma pvr_code_b : forall f a, f <> F_Unknown ->
  match getPixelFormat f a with Some code => pvr_code_ok f code | None => true end = true.
Proof. intros f a; destruct f; try congruence; intros _; destruct a; vm_compute; reflexivity. Qed.

Lemma pvr_channel_small f t : getChannelType f t < 2^32.
Proof.
  assert (H : (getChannelType f t <? 2^32) = true).
  { apply (forall_ftc (fun f t _ => getChannelType f t <? 2^32)); [vm_compute; reflexivity|exact CS_Linear]. }
  lia.
Qed.

Lemma pvr_surface_size psize f a code w h : f <> F_Unknown -> getPixelFormat f a = Some code ->
  code < 2^64 /\ pvr_surface psize code w h = Some (surface_bytes psize f w h).
Proof.
  intros NU E; pose proof (pvr_code_b f a NU) as H; rewrite E in H.
  unfold pvr_code_ok in H; apply andb_true_iff in H; destruct H as [H1 H].
  split; [lia|].
  unfold pvr_surface; destruct (code / 2^32 =? 0).
  - destruct (lookup code pvr_special) as [[|g l]|]; try discriminate.
    rewrite !andb_true_iff in H; destruct H as [[H2 H3] H4]; apply Bool.eqb_prop in H2.
    f_equal; unfold surface_bytes; rewrite <- H2; destruct (pvrtc_format f).
    + cbn [implb] in H3; apply format_eqb_eq in H3; subst; reflexivity.
    + destruct (spec_block f) as [[x y] z], (spec_block g) as [[x' y'] z'].
      assert (x = x' /\ y = y' /\ z = z') as (-> & -> & ->) by lia; reflexivity.
  - apply andb_true_iff in H; destruct H as [H2 H3].
    unfold surface_bytes; destruct (pvrtc_format f); [discriminate|].
    destruct (spec_block f) as [[x y] z].
    rewrite !andb_true_iff, !N.eqb_eq in H3; destruct H3 as [[-> ->] <-].
    rewrite !cdiv_1; reflexivity.
Qed.

Section Pvr.
Context {C : Type}.
Implicit Types (t : texture C).

(** "BC1A", "BC1\0", "ARRY", "DIM1" with four zero bytes. *)
Definition pvr_meta t : list (list N * list N * list N) :=
  (match fmt t with
   | F_BC1_RGBA => [(ctfs, [66; 67; 49; 65], [0; 0; 0; 0])]
   | F_BC1_RGB => [(ctfs, [66; 67; 49; 0], [0; 0; 0; 0])]
   | _ => []
   end)
  ++ (if isArray t then [(ctfs, [65; 82; 82; 89], [0; 0; 0; 0])] else [])
  ++ (if is1D t then [(ctfs, [68; 73; 77; 49], [0; 0; 0; 0])] else []).

Definition pvr_result t code : pvr_file :=
  PvrFile (match alphaOf t with AlphaPreMultiplied => 2 | _ => 0 end) code
    (if cs_is_srgb (colorSpaceOf t) then 1 else 0) (getChannelType (fmt t) (typeOf t))
    (height t 0) (width t 0) (if is3D t then depth t 0 else 1) (dds_elements t) (faceCount t)
    (mipLevelCount t) (pvr_meta t)
    (map (fun m => map (fun e => map (fun f => map (fun s => surf t f m (s + e))
           (Nrange (slices t m))) (Nrange (faceCount t))) (Nrange (dds_elements t)))
           (Nrange (mipLevelCount t))).

Definition meta_bytes (key : N) : list N := le4 (FOURCC 67 84 70 83) ++ le4 key ++ le4 4 ++ le4 0.

Lemma bytes_meta key : bytes_of (meta_chunks key) = meta_bytes key.
Proof. unfold meta_chunks, meta_bytes, bytes_of; cbn [concat app]; rewrite !app_nil_r; reflexivity. Qed.

Lemma pvr_reads t psize code : wft t -> t <> None -> has_data t -> sized psize t -> fmt t <> F_Unknown ->
  getPixelFormat (fmt t) (alphaOf t) = Some code ->
  pall (read_pvr psize) (bytes_of (pvr_chunks t code)) (pvr_result t code).
Proof.
  intros W NN H SZ NU E.
  destruct (wf_bounded t W NN) as [[Bw1 Bw2] [Bh1 Bh2] [Bd1 Bd2] [Bm1 Bm2] Bf].
  unfold pvr_chunks; rewrite !bytes_cons, !bytes_app; cbn [concat]; rewrite !app_nil_r.
  unfold read_pvr.
  eapply pall_bind; [apply parses_take; reflexivity|]; apply pall_guard; [reflexivity|].
  eapply pall_bind; [apply parses_u32; destruct (alphaOf t); reflexivity|].
  eapply pall_bind; [apply parses_u64; apply (pvr_surface_size psize _ _ _ 1 1 NU E)|].
  eapply pall_bind; [apply parses_u32; destruct (colorSpaceOf t); reflexivity|].
  eapply pall_bind; [apply parses_u32; apply pvr_channel_small|].
  eapply pall_bind; [apply parses_u32; exact Bh2|].
  eapply pall_bind; [apply parses_u32; exact Bw2|].
  eapply pall_bind; [apply parses_u32; destruct (is3D t); [exact Bd2|reflexivity]|].
  change (if isArray t then depth t 0 else 1) with (dds_elements t).
  eapply pall_bind; [apply parses_u32; unfold dds_elements; destruct (isArray t); [exact Bd2|reflexivity]|].
  eapply pall_bind; [apply parses_u32; rewrite Bf; destruct (isCube t); reflexivity|].
  eapply pall_bind; [apply parses_u32; lia|].
  eapply pall_bind; [apply parses_u32; destruct (is_bc1 (fmt t)), (isArray t), (is1D t); reflexivity|].
  set (mb := bytes_of (if is_bc1 (fmt t)
      then meta_chunks (match fmt t with F_BC1_RGBA => FOURCC 66 67 49 65 | _ => FOURCC 66 67 49 0 end)
      else []) ++ bytes_of (if isArray t then meta_chunks (FOURCC 65 82 82 89) else [])
      ++ bytes_of (if is1D t then meta_chunks (FOURCC 68 73 77 49) else [])).
  rewrite !app_assoc.
  assert (ML : N.of_nat (length mb) = (if is_bc1 (fmt t) then 16 else 0) + (if isArray t then 16 else 0)
           + (if is1D t then 16 else 0)).
  { unfold mb; rewrite !app_length; destruct (is_bc1 (fmt t)), (isArray t), (is1D t); reflexivity. }
  assert (MR : read_meta (length mb) mb = Some (pvr_meta t)).
  { unfold mb, pvr_meta, is_bc1; destruct (fmt t), (isArray t), (is1D t); vm_compute; reflexivity. }
  match goal with |- pall _ (?x ++ ?r) _ => replace x with mb by (unfold mb; rewrite !app_assoc; reflexivity) end.
  eapply pall_bind; [apply parses_take; exact ML|].
  rewrite MR.
  rewrite bytes_flat_map.
  eapply pall_bind_end; [|apply pall_eof].
  apply parses_for; intros m Hm.
  rewrite bytes_flat_map.
  rewrite (flat_map_ext _ (fun d => flat_map (fun f => bytes_of [[surf t f m d]]) (Nrange (faceCount t))))
    by (intros d; apply bytes_flat_map).
  rewrite (reshape t (fun f d => bytes_of [[surf t f m d]]) m W Hm).
  assert (ED : mip (if is3D t then depth t 0 else 1) m = slices t m).
  { unfold slices; pose proof (is3D_iff t) as I3; destruct (is3D t).
    - rewrite (depth_mip t m) by (auto; apply I3; auto); reflexivity.
    - unfold mip.
      assert (1 / 2 ^ m <= 1) by (apply N.div_le_upper_bound; [apply N.pow_nonzero; lia|]; pose proof (N.pow_nonzero 2 m); lia).
      lia. }
  rewrite ED.
  apply parses_for; intros e He; apply parses_for; intros f Hf; apply parses_for; intros s Hs.
  rewrite (proj2 (pvr_surface_size psize _ _ _ _ _ NU E)).
  unfold bytes_of; cbn [concat app]; rewrite app_nil_r.
  assert (IR : in_range t f m (s + e)) by (apply dds_in_range; auto).
  destruct (SZ _ _ _ _ IR (H _ _ _ IR)) as (g & Eg & Hl).
  apply parses_take; rewrite Hl, <- width_mip, <- height_mip by auto.
  unfold fmt; rewrite Eg; reflexivity.
Qed.
End Pvr.

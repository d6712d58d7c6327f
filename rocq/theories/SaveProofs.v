(** Proofs about the writers. *)
From Coq Require Import NArith List Bool Lia ZArith.
From Coq Require Import ZifyBool ZifyNat ZifyN.
From Verif Require Import Base FormatModel FormatSpec ContainerSpec SaveFormats FormatProofs
  TextureModel TextureSpec TextureProofs SaveModel SaveSpec.
Import ListNotations.
Local Open Scope N_scope.

(** * A writer is a sequence of checked groups of writes *)

Section Emit.
Context {S : Type} (put : S -> list N -> S) (good : S -> bool).

Fixpoint run_chunks (cs : list (list (list N))) (s : S) : result (S:=S) :=
  match cs with
  | [] => Some (SR_Success, s)
  | g :: r => let s' := fold_left put g s in
              if good s' then run_chunks r s' else Some (SR_WriteError, s')
  end.

Definition emits (k : S -> result (S:=S)) (cs : list (list (list N))) : Prop :=
  forall s, k s = run_chunks cs s.

Lemma emits_done : emits done [].
Proof. intros s; reflexivity. Qed.

Lemma emits_wr bs k cs : emits k cs -> emits (wr put good bs k) ([bs] :: cs).
Proof. intros H s; unfold wr; cbn [run_chunks fold_left]; destruct (good (put s bs)); auto. Qed.

Lemma emits_fold (body : N -> (S -> result) -> S -> result) g k cs l :
  (forall i k cs, In i l -> emits k cs -> emits (body i k) (g i ++ cs)) ->
  emits k cs -> emits (fold_right body k l) (flat_map g l ++ cs).
Proof.
  intros H K; induction l as [|i l IH]; [exact K|].
  cbn [fold_right flat_map]; rewrite <- app_assoc; apply H; [left; auto|].
  apply IH; intros; apply H; [right|]; auto.
Qed.

Lemma emits_floop n (body : N -> (S -> result) -> S -> result) g k cs :
  (forall i k cs, i < n -> emits k cs -> emits (body i k) (g i ++ cs)) ->
  emits k cs -> emits (floop n body k) (flat_map g (Nrange n) ++ cs).
Proof.
  intros H K; apply emits_fold; auto.
  intros i k0 cs0 Hi; apply H; apply in_Nrange; exact Hi.
Qed.
End Emit.

(** All bytes of a chunk list. *)
Definition bytes_of (cs : list (list (list N))) : list N := concat (concat cs).

Lemma bytes_app a b : bytes_of (a ++ b) = bytes_of a ++ bytes_of b.
Proof. unfold bytes_of; rewrite !concat_app; reflexivity. Qed.
Lemma bytes_cons g r : bytes_of (g :: r) = concat g ++ bytes_of r.
Proof. unfold bytes_of; simpl; rewrite concat_app; reflexivity. Qed.
Lemma bytes_flat_map {A} (g : A -> list (list (list N))) l :
  bytes_of (flat_map g l) = flat_map (fun i => bytes_of (g i)) l.
Proof. induction l; simpl; auto; rewrite bytes_app; f_equal; auto. Qed.

(** On a healthy stream. *)
Lemma run_mem cs s : run_chunks mem_put mem_good cs s = Some (SR_Success, s ++ bytes_of cs).
Proof.
  revert s; induction cs as [|g r IH]; intros s; cbn [run_chunks].
  - unfold bytes_of; simpl; rewrite app_nil_r; reflexivity.
  - unfold mem_good at 1; rewrite IH, bytes_cons, app_assoc; do 3 f_equal.
    clear; revert s; induction g as [|b g IH]; intros s; simpl; [rewrite app_nil_r; auto|].
    rewrite IH; unfold mem_put; rewrite <- app_assoc; reflexivity.
Qed.

(** On any stream that satisfies the contract. *)
Section Contract.
Context {S : Type} (put : S -> list N -> S) (good : S -> bool) (acc out : S -> list N).
Hypothesis OK : stream_ok put good acc out.

Lemma fold_dead g s : good s = false ->
  good (fold_left put g s) = false /\ out (fold_left put g s) = out s.
Proof.
  revert s; induction g as [|b g IH]; intros s H; simpl; auto.
  destruct (st_dead _ _ _ _ OK s b H) as [H1 H2].
  destruct (IH _ H1) as [H3 H4]; rewrite H3, H4, H2; auto.
Qed.

Lemma fold_ok g s : good s = true ->
  (good (fold_left put g s) = true /\ acc (fold_left put g s) = acc s ++ concat g) \/
  (good (fold_left put g s) = false /\ exists q, acc s ++ concat g = out (fold_left put g s) ++ q).
Proof.
  revert s; induction g as [|b g IH]; intros s H; simpl.
  - left; rewrite app_nil_r; auto.
  - destruct (st_write _ _ _ _ OK s b H) as [[H1 H2]|[H1 (q & H2)]].
    + destruct (IH _ H1) as [[H3 H4]|[H3 (q & E)]].
      * left; rewrite H4, H2, app_assoc; auto.
      * right; split; auto; exists q; rewrite <- E, H2, app_assoc; auto.
    + destruct (fold_dead g _ H1) as [H3 H4].
      right; split; auto; exists (q ++ concat g); rewrite H4, !app_assoc, H2; auto.
Qed.

Lemma run_contract cs : forall s, good s = true ->
  exists r s', run_chunks put good cs s = Some (r, s') /\
  ((r = SR_Success /\ good s' = true /\ acc s' = acc s ++ bytes_of cs) \/
   (r = SR_WriteError /\ good s' = false /\ exists q, acc s ++ bytes_of cs = out s' ++ q)).
Proof.
  induction cs as [|g r IH]; intros s H; cbn [run_chunks].
  - do 2 eexists; split; [reflexivity|]; left; unfold bytes_of; simpl; rewrite app_nil_r; auto.
  - destruct (fold_ok g s H) as [[H1 H2]|[H1 (q & E)]]; rewrite H1.
    + destruct (IH _ H1) as (r' & s' & -> & [(-> & G & O)|(-> & G & q & E)]);
        do 2 eexists; (split; [reflexivity|]).
      * left; rewrite O, H2, bytes_cons, app_assoc; auto.
      * right; split; auto; split; auto; exists q.
        rewrite <- E, H2, bytes_cons, !app_assoc; auto.
    + do 2 eexists; split; [reflexivity|]; right; split; auto; split; auto.
      exists (q ++ bytes_of r); rewrite bytes_cons, !app_assoc, E; auto.
Qed.

(** A stream that is already bad is reported at once. *)
Lemma run_dead g r s : good s = false ->
  exists s', run_chunks put good (g :: r) s = Some (SR_WriteError, s') /\ good s' = false /\ out s' = out s.
Proof.
  intros H; destruct (fold_dead g s H) as [H1 H2]; cbn [run_chunks]; rewrite H1; eauto.
Qed.
End Contract.

(** The limited sink is such a stream, and succeeds exactly when the bytes fit. *)
Lemma sink_ok : stream_ok sink_put k_good k_out k_out.
Proof.
  split; [intros s _; exists []; rewrite app_nil_r; reflexivity| |];
    intros [o r g] bs; cbn [k_good k_out k_room sink_put]; intros ->; unfold sink_put;
    cbn [k_good k_out k_room]; auto.
  destruct (N.leb_spec (N.of_nat (length bs)) r); cbn; auto.
  right; split; auto; exists (skipn (N.to_nat r) bs).
  rewrite <- app_assoc, firstn_skipn; auto.
Qed.

(** So is a buffered file. *)
Lemma ofile_ok bufsize : stream_ok (of_put bufsize) of_good (fun s => of_disk s ++ of_pending s) of_disk.
Proof.
  split; [eauto| |]; intros [p d r g] bs; cbn [of_good]; intros ->; unfold of_put; cbn [of_good]; auto.
  cbn [of_pending of_disk of_room].
  destruct (_ <? bufsize); [left; cbn; rewrite app_assoc; auto|].
  unfold of_flush; cbn [of_pending of_disk of_room of_good].
  destruct (N.leb_spec (N.of_nat (length (p ++ bs))) r).
  - left; split; auto; rewrite app_nil_r, firstn_all2 by lia; rewrite app_assoc; auto.
  - right; split; auto; exists (skipn (N.to_nat r) (p ++ bs)).
    rewrite <- !app_assoc, firstn_skipn; auto.
Qed.

Lemma firstn_skip_app {A} (a b : list A) r : N.of_nat (length a) <= r ->
  firstn (N.to_nat r) (a ++ b) = a ++ firstn (N.to_nat (r - N.of_nat (length a))) b.
Proof.
  intros H; rewrite firstn_app, firstn_all2 by lia.
  replace (N.to_nat r - length a)%nat with (N.to_nat (r - N.of_nat (length a))) by lia; reflexivity.
Qed.

Lemma fold_sink g : forall o r,
  fold_left sink_put g (Sink o r true)
  = if N.of_nat (length (concat g)) <=? r
    then Sink (o ++ concat g) (r - N.of_nat (length (concat g))) true
    else Sink (o ++ firstn (N.to_nat r) (concat g)) 0 false.
Proof.
  assert (D : forall g o, fold_left sink_put g (Sink o 0 false) = Sink o 0 false)
    by (clear; induction g; simpl; auto).
  induction g as [|b g IH]; intros o r; cbn [fold_left concat].
  - cbn [length]; destruct (N.leb_spec (N.of_nat 0) r); [|lia].
    rewrite app_nil_r; f_equal; lia.
  - unfold sink_put at 2; cbn [k_good k_out k_room]; rewrite app_length.
    destruct (N.leb_spec (N.of_nat (length b)) r).
    + rewrite IH.
      destruct (N.leb_spec (N.of_nat (length (concat g))) (r - N.of_nat (length b)));
      destruct (N.leb_spec (N.of_nat (length b + length (concat g))) r); try lia.
      * rewrite <- app_assoc; f_equal; lia.
      * rewrite <- app_assoc, firstn_skip_app by assumption; reflexivity.
    + rewrite D. destruct (N.leb_spec (N.of_nat (length b + length (concat g))) r); [lia|].
      f_equal; f_equal; rewrite firstn_app; replace (N.to_nat r - length b)%nat with O by lia.
      simpl; rewrite app_nil_r; auto.
Qed.

Lemma run_sink cs : forall o r,
  run_chunks sink_put k_good cs (Sink o r true)
  = Some (if N.of_nat (length (bytes_of cs)) <=? r
          then (SR_Success, Sink (o ++ bytes_of cs) (r - N.of_nat (length (bytes_of cs))) true)
          else (SR_WriteError, Sink (o ++ firstn (N.to_nat r) (bytes_of cs)) 0 false)).
Proof.
  induction cs as [|g cs IH]; intros o r; cbn [run_chunks].
  - unfold bytes_of; cbn [concat length]; destruct (N.leb_spec (N.of_nat 0) r); [|lia].
    rewrite app_nil_r; do 3 f_equal; lia.
  - rewrite fold_sink, bytes_cons, app_length.
    destruct (N.leb_spec (N.of_nat (length (concat g))) r); cbn [k_good].
    + rewrite IH.
      destruct (N.leb_spec (N.of_nat (length (bytes_of cs))) (r - N.of_nat (length (concat g))));
      destruct (N.leb_spec (N.of_nat (length (concat g) + length (bytes_of cs))) r); try lia;
        rewrite <- app_assoc.
      * do 3 f_equal; lia.
      * rewrite firstn_skip_app by assumption; reflexivity.
    + destruct (N.leb_spec (N.of_nat (length (concat g) + length (bytes_of cs))) r); [lia|].
      do 4 f_equal; rewrite firstn_app; replace (N.to_nat r - length (concat g))%nat with O by lia.
      simpl; rewrite app_nil_r; auto.
Qed.

(** A buffered file starting empty on a device with room [R]: what ends up on the device. *)
Definition of_inv (R : N) (A : list N) (s : ofile) : Prop :=
  (of_good s = true /\ of_disk s ++ of_pending s = A /\
   N.of_nat (length (of_disk s)) + of_room s = R) \/
  (of_good s = false /\ of_disk s = firstn (N.to_nat R) A /\ R < N.of_nat (length A)).

Lemma of_flush_inv R A s : of_good s = true -> of_inv R A s -> of_inv R A (of_flush s) /\
  of_disk (of_flush s) = firstn (N.to_nat R) A.
Proof.
  intros G [(_ & <- & HR)|(G' & _)]; [|congruence].
  assert (E : of_disk s ++ firstn (N.to_nat (of_room s)) (of_pending s)
              = firstn (N.to_nat R) (of_disk s ++ of_pending s)).
  { rewrite firstn_skip_app by lia; do 2 f_equal; lia. }
  split; [|exact E].
  unfold of_inv, of_flush; cbn [of_good of_disk of_pending of_room].
  destruct (N.leb_spec (N.of_nat (length (of_pending s))) (of_room s)).
  - left; split; auto; rewrite app_nil_r, firstn_all2 by lia; split; auto.
    rewrite app_length; lia.
  - right; split; auto; split; auto; rewrite app_length; lia.
Qed.

Lemma of_put_inv bufsize R A s bs : of_inv R A s -> of_inv R (A ++ bs) (of_put bufsize s bs).
Proof.
  intros H; unfold of_put; destruct (of_good s) eqn:G.
  - destruct H as [(_ & <- & HR)|(G' & _)]; [|congruence].
    set (s' := OFile (of_pending s ++ bs) (of_disk s) (of_room s) true).
    assert (I : of_inv R ((of_disk s ++ of_pending s) ++ bs) s').
    { left; cbn; rewrite app_assoc; auto. }
    destruct (_ <? bufsize); [exact I|apply of_flush_inv; auto].
  - destruct H as [(G' & _)|(_ & E & L)]; [congruence|].
    right; split; auto; rewrite app_length; split; [|lia].
    rewrite E, firstn_app; replace (N.to_nat R - length A)%nat with O by lia; simpl; rewrite app_nil_r; auto.
Qed.

Lemma fold_of_inv bufsize R g : forall A s, of_inv R A s ->
  of_inv R (A ++ concat g) (fold_left (of_put bufsize) g s).
Proof.
  induction g as [|b g IH]; intros A s H; simpl; [rewrite app_nil_r; auto|].
  rewrite app_assoc; apply IH, of_put_inv, H.
Qed.

Lemma run_of_inv bufsize R cs : forall A s, of_good s = true -> of_inv R A s ->
  exists c s', run_chunks (of_put bufsize) of_good cs s = Some (c, s') /\
    (c = SR_Success \/ c = SR_WriteError /\ R < N.of_nat (length (A ++ bytes_of cs))) /\
    (c = SR_Success -> of_good s' = true) /\
    of_disk (if of_good s' then of_flush s' else s') = firstn (N.to_nat R) (A ++ bytes_of cs).
Proof.
  induction cs as [|g cs IH]; intros A s G H; cbn [run_chunks].
  - exists SR_Success, s; split; auto; split; auto; split; auto.
    rewrite G; unfold bytes_of; cbn [concat]; rewrite app_nil_r; apply of_flush_inv; auto.
  - pose proof (fold_of_inv bufsize R g A s H) as H'; rewrite bytes_cons, app_assoc.
    destruct (of_good (fold_left (of_put bufsize) g s)) eqn:G'; [apply IH; auto|].
    destruct H' as [(G'' & _)|(_ & E & L)]; [congruence|].
    do 2 eexists; split; [reflexivity|]; split; [right; split; auto; rewrite app_length; lia|].
    split; [discriminate|]; rewrite G', E, (firstn_app _ (A ++ concat g)).
    replace (N.to_nat R - length (A ++ concat g))%nat with O by lia; simpl; rewrite app_nil_r; auto.
Qed.

(** * The chunks of each writer *)

Section Chunks.
Context {C : Type}.
Implicit Types (t : texture C).

(** Data of a surface, as a total function. *)
Definition surf t (f m d : N) : list N :=
  match dataF t f m d with Some (Some b) => b | _ => [] end.

Definition dds_chunks t : list (list (list N)) :=
  [le4 0x20534444] :: [flat_map le4 (dds_header t)]
  :: [flat_map le4 (dds_header10 t (getDdsFormat (fmt t) (typeOf t) (colorSpaceOf t)))]
  :: flat_map (fun e => flat_map (fun f => flat_map (fun m => flat_map (fun v =>
        [[surf t f m (v + e)]]) (Nrange (if is3D t then depth t m else 1)))
        (Nrange (mipLevelCount t))) (Nrange (faceCount t)))
        (Nrange (if isArray t then depth t 0 else 1)).

Definition row_size t (m : N) : N := u32 (width t m * blockSize (fmt t)).
Definition row_pad t (m : N) : N := round4 (row_size t m) - row_size t m.

Definition ktx_rows t (f m d : N) : list (list (list N)) :=
  let r := row_size t m in
  map (fun y => firstn (N.to_nat r) (skipn (N.to_nat (y * r)) (surf t f m d))
                :: repeat [0] (N.to_nat (row_pad t m))) (Nrange (height t m)).

Definition ktx_chunks t (words : list N) (sizes : N -> N) : list (list (list N)) :=
  [ktx_identifier] :: [le4 0x04030201] :: [flat_map le4 words]
  :: [le4 (width t 0)] :: [le4 (if is1D t then 0 else height t 0)]
  :: [le4 (if is3D t then depth t 0 else 0)] :: [le4 (if isArray t then depth t 0 else 0)]
  :: [le4 (faceCount t)] :: [le4 (mipLevelCount t)] :: [le4 0]
  :: flat_map (fun m => [le4 (sizes m)] ::
       flat_map (fun d => flat_map (fun f =>
         if 1 <? blockWidth (fmt t) then [[surf t f m d]] else ktx_rows t f m d)
         (Nrange (faceCount t))) (Nrange (depth t m))) (Nrange (mipLevelCount t)).

Definition meta_chunks (key : N) : list (list (list N)) :=
  [[le4 (FOURCC 67 84 70 83)]; [le4 key]; [le4 4]; [le4 0]].

Definition is_bc1 (f : format) : bool := match f with F_BC1_RGB | F_BC1_RGBA => true | _ => false end.

Definition pvr_chunks t (code : N) : list (list (list N)) :=
  [le4 (FOURCC 80 86 82 3)]
  :: [le4 (match alphaOf t with AlphaPreMultiplied => 0x2 | _ => 0 end)]
  :: [le8 code] :: [le4 (if cs_is_srgb (colorSpaceOf t) then 1 else 0)]
  :: [le4 (getChannelType (fmt t) (typeOf t))]
  :: [le4 (height t 0)] :: [le4 (width t 0)] :: [le4 (if is3D t then depth t 0 else 1)]
  :: [le4 (if isArray t then depth t 0 else 1)] :: [le4 (faceCount t)] :: [le4 (mipLevelCount t)]
  :: [le4 ((if is_bc1 (fmt t) then 16 else 0) + (if isArray t then 16 else 0)
           + (if is1D t then 16 else 0))]
  :: (if is_bc1 (fmt t)
      then meta_chunks (match fmt t with F_BC1_RGBA => FOURCC 66 67 49 65 | _ => FOURCC 66 67 49 0 end)
      else [])
  ++ (if isArray t then meta_chunks (FOURCC 65 82 82 89) else [])
  ++ (if is1D t then meta_chunks (FOURCC 68 73 77 49) else [])
  ++ flat_map (fun m => flat_map (fun d => flat_map (fun f =>
       [[surf t f m d]]) (Nrange (faceCount t))) (Nrange (depth t m))) (Nrange (mipLevelCount t)).

Definition ktx_sizes t (m : N) : N := match ktx_image_size t m with Some n => n | None => 0 end.

(** Every surface exists. *)
Definition has_data t : Prop := forall f m d, in_range t f m d -> dataF t f m d = Some (Some (surf t f m d)).

Lemma ktx_sizes_ok t m : wft t -> has_data t -> m < mipLevelCount t ->
  ktx_image_size t m = Some (ktx_sizes t m).
Proof.
  intros W H Hm; unfold ktx_sizes, ktx_image_size.
  destruct (1 <? blockWidth (fmt t)); [|cbn [obind]; reflexivity].
  destruct t as [i|]; [|simpl in Hm; lia]; simpl in W; cbn [mipLevelCount] in Hm.
  assert (IR : in_range (Some i) 0 m 0).
  { split; [exact Hm|]; split; [apply depth_pos; exact Hm|].
    destruct (wf_faces_cases _ W) as [[_ F]|[_ F]]; cbn [faceCount]; lia. }
  unfold dataSizeF; rewrite (H _ _ _ IR); reflexivity.
Qed.

Section Generic.
Context {S : Type} (put : S -> list N -> S) (good : S -> bool).

Lemma emits_data t f m d k cs : has_data t -> in_range t f m d ->
  emits put good k cs -> emits put good (wr_data put good t f m d k) ([[surf t f m d]] ++ cs).
Proof.
  intros H IR K s; unfold wr_data; rewrite (H _ _ _ IR); cbn [obind app].
  apply (emits_wr put good); exact K.
Qed.

Lemma is3D_iff t : is3D t = true <-> dimensionOf t = Dim3D.
Proof. unfold is3D; destruct (dimensionOf t); split; congruence. Qed.

Lemma dds_emits t : wft t -> has_data t ->
  getDdsFormat (fmt t) (typeOf t) (colorSpaceOf t) <> 0 ->
  emits put good (saveDds put good t) (dds_chunks t).
Proof.
  intros W H NZ s; unfold saveDds, dds_chunks.
  destruct (N.eqb_spec (getDdsFormat (fmt t) (typeOf t) (colorSpaceOf t)) DdsDxt10Format_UNKNOWN);
    [contradiction|].
  apply emits_wr, emits_wr, emits_wr.
  rewrite <- (app_nil_r (flat_map _ _)).
  apply emits_floop; [|apply emits_done]; intros e k cs He K.
  apply emits_floop; [|exact K]; intros f k1 cs1 Hf K1.
  apply emits_floop; [|exact K1]; intros m k2 cs2 Hm K2.
  apply emits_floop; [|exact K2]; intros v k3 cs3 Hv K3.
  apply emits_data; auto.
  split; [exact Hm|]; split; [|exact Hf].
  destruct t as [i|]; [|simpl in Hm; lia]; simpl in W.
  cbn [isArray] in He; cbn [mipLevelCount] in Hm.
  unfold is3D in Hv; cbn [dimensionOf] in Hv.
  rewrite wf_depth0 in He by exact W.
  unfold depth in *; destruct (N.leb_spec (t_mips i) m); [lia|].
  destruct (t_dim i); cbn [andb] in He;
    try (destruct (N.ltb_spec 0 (t_depth i)); lia); lia.
Qed.

Lemma pvr_emits t code : wft t -> has_data t -> getPixelFormat (fmt t) (alphaOf t) = Some code ->
  emits put good (savePvr put good t) (pvr_chunks t code).
Proof.
  intros W H E s; unfold savePvr, pvr_chunks; rewrite E.
  assert (SU : emits put good (floop (mipLevelCount t) (fun level =>
        floop (depth t level) (fun d =>
        floop (faceCount t) (fun face =>
        wr_data put good t face level d))) done)
     (flat_map (fun m => flat_map (fun d => flat_map (fun f =>
       [[surf t f m d]]) (Nrange (faceCount t))) (Nrange (depth t m))) (Nrange (mipLevelCount t)))).
  { rewrite <- (app_nil_r (flat_map _ _)).
    apply emits_floop; [|apply emits_done]; intros m k cs Hm K.
    apply emits_floop; [|exact K]; intros d k1 cs1 Hd K1.
    apply emits_floop; [|exact K1]; intros f k2 cs2 Hf K2.
    apply emits_data; auto; split; auto. }
  assert (MB : forall key k cs, emits put good k cs ->
    emits put good (wr put good (le4 (FOURCC 67 84 70 83)) (wr put good (le4 key)
       (wr put good (le4 4) (wr put good (le4 0) k)))) (meta_chunks key ++ cs)).
  { intros key k cs K; unfold meta_chunks; cbn [app]; do 4 apply emits_wr; exact K. }
  do 11 apply emits_wr.
  change (match fmt t with F_BC1_RGB | F_BC1_RGBA => true | _ => false end) with (is_bc1 (fmt t)).
  destruct (is_bc1 (fmt t)), (isArray t), (is1D t); cbn [orb]; apply emits_wr; cbn [app];
    repeat (first [exact SU | apply MB]).
Qed.

Lemma emits_rows t psize f m d k cs : has_data t -> sized psize t ->
  in_range t f m d -> blockWidth (fmt t) <= 1 -> fmt t <> F_Unknown ->
  emits put good k cs -> emits put good (wr_rows put good t f m d k) (ktx_rows t f m d ++ cs).
Proof.
  intros H SZ IR BW NU K s; unfold wr_rows; rewrite (H _ _ _ IR); cbn [obind].
  destruct (SZ _ _ _ _ IR (H _ _ _ IR)) as (g & Eg & Hl).
  assert (Ef : fmt t = g) by (unfold fmt; rewrite Eg; reflexivity).
  fold (row_size t m); set (r := row_size t m) in *.
  assert (RL : r <= width t m * blockSize (fmt t)) by (apply N.mod_le; discriminate).
  unfold ktx_rows; fold r.
  replace (map _ _) with (flat_map (fun y =>
     [firstn (N.to_nat r) (skipn (N.to_nat (y * r)) (surf t f m d))
      :: repeat [0] (N.to_nat (row_pad t m))]) (Nrange (height t m)))
    by (clear; induction (Nrange (height t m)); simpl; congruence).
  apply emits_floop; [|exact K]; intros y k' cs' Hy K' s'.
  unfold wr_row, slice.
  assert (Len : N.of_nat (length (surf t f m d)) = height t m * (width t m * blockSize (fmt t))).
  { rewrite Hl, <- Ef; unfold surface_bytes.
    pose proof (block_table (fmt t)) as BT.
    assert (L1 : pvrtc_format (fmt t) = false /\ blockWidth (fmt t) = 1 /\ blockHeight (fmt t) = 1).
    { clear - BW NU; destruct (fmt t); try congruence; try (repeat split; reflexivity);
        exfalso; vm_compute in BW; congruence. }
    destruct L1 as (-> & W1 & H1).
    destruct (spec_block (fmt t)) as [[bw bh] bs].
    injection BT as E1 E2 E3. rewrite <- E1, <- E2, <- E3, W1, H1.
    unfold cdiv; rewrite !N.div_1_r; lia. }
  destruct (N.leb_spec (y * r + r) (N.of_nat (length (surf t f m d)))) as [_|Hc]; [|nia].
  cbn [obind app run_chunks fold_left].
  replace (Nrange (if negb (r mod 4 =? 0) then 4 - r mod 4 else r mod 4))
    with (Nrange (row_pad t m)).
  2: { f_equal; unfold row_pad, round4, cdiv; fold r.
       destruct (N.eqb_spec (r mod 4) 0); cbn [negb]; lia. }
  assert (FR : forall n s0, fold_left (fun s _ => put s [0]) (Nrange n) s0
             = fold_left put (repeat [0] (N.to_nat n)) s0).
  { clear; intros n s0; unfold Nrange.
    rewrite <- (seq_length (N.to_nat n) 0) at 2.
    generalize (seq 0 (N.to_nat n)) as l; intros l; revert s0; induction l; simpl; auto. }
  rewrite FR.
  match goal with |- (if good ?x then _ else _) = _ => destruct (good x) end; auto.
Qed.

Lemma ktx_emits t psize info words : wft t -> has_data t -> sized psize t ->
  fmt t <> F_Unknown ->
  getFormatInfo (fmt t) (typeOf t) (colorSpaceOf t) = Some info ->
  ktx_info_words info = Some words ->
  emits put good (saveKtx put good t) (ktx_chunks t words (ktx_sizes t)).
Proof.
  intros W H SZ NU E1 E2.
  assert (IS : forall m, m < mipLevelCount t -> ktx_image_size t m = Some (ktx_sizes t m))
    by (intros; apply ktx_sizes_ok; auto).
  intros s; unfold saveKtx, ktx_chunks.
  rewrite E1, E2; cbn [obind].
  do 10 apply emits_wr.
  rewrite <- (app_nil_r (flat_map _ _)).
  apply emits_floop; [|apply emits_done]; intros m k cs Hm K s'.
  rewrite (IS m Hm) at 1; cbn [obind app].
  apply emits_wr.
  apply emits_floop; [|exact K]; intros d k1 cs1 Hd K1.
  apply emits_floop; [|exact K1]; intros f k2 cs2 Hf K2.
  assert (IR : in_range t f m d) by (repeat split; auto).
  destruct (N.ltb_spec 1 (blockWidth (fmt t))).
  - apply emits_data; auto.
  - eapply emits_rows; eauto.
Qed.
End Generic.
End Chunks.

(** Reading back what the writers produce. *)
From Coq Require Import NArith List Bool Lia ZArith.
From Coq Require Import ZifyBool ZifyNat ZifyN.
From Verif Require Import Base FormatModel FormatSpec ContainerSpec SaveFormats FormatProofs
  TextureModel TextureSpec TextureProofs SaveModel SaveSpec SaveProofs.
Import ListNotations.
Local Open Scope N_scope.

(** * Parsers *)

Definition parses {A} (p : parser A) (bs : list N) (a : A) : Prop :=
  forall r, p (bs ++ r) = Some (a, r).
(** Reads the whole input. *)
Definition pall {A} (p : parser A) (bs : list N) (a : A) : Prop := p bs = Some (a, []).

Lemma parses_ret {A} (a : A) : parses (pret a) [] a.
Proof. intros r; reflexivity. Qed.

Lemma parses_bind {A B} (p : parser A) (f : A -> parser B) b1 b2 a b :
  parses p b1 a -> parses (f a) b2 b -> parses (pbind p f) (b1 ++ b2) b.
Proof. intros H1 H2 r; unfold pbind; rewrite <- app_assoc, H1; apply H2. Qed.

Lemma parses_bind_nil {A B} (p : parser A) (f : A -> parser B) bs a b :
  parses p [] a -> parses (f a) bs b -> parses (pbind p f) bs b.
Proof. intros H1 H2; apply (parses_bind p f [] bs a b H1 H2). Qed.

Lemma parses_bind_end {A B} (p : parser A) (f : A -> parser B) bs a b :
  parses p bs a -> parses (f a) [] b -> parses (pbind p f) bs b.
Proof. intros H1 H2; rewrite <- (app_nil_r bs); eapply parses_bind; eauto. Qed.

Lemma pall_bind {A B} (p : parser A) (f : A -> parser B) b1 b2 a b :
  parses p b1 a -> pall (f a) b2 b -> pall (pbind p f) (b1 ++ b2) b.
Proof. intros H1 H2; unfold pall, pbind; rewrite H1; exact H2. Qed.

Lemma pall_bind_end {A B} (p : parser A) (f : A -> parser B) bs a b :
  parses p bs a -> pall (f a) [] b -> pall (pbind p f) bs b.
Proof. intros H1 H2; rewrite <- (app_nil_r bs); eapply pall_bind; eauto. Qed.

Lemma pall_bind_nil {A B} (p : parser A) (f : A -> parser B) bs a b :
  parses p [] a -> pall (f a) bs b -> pall (pbind p f) bs b.
Proof. intros H1 H2; apply (pall_bind p f [] bs a b H1 H2). Qed.

Lemma pall_guard {B} b (f : unit -> parser B) bs c :
  b = true -> pall (f tt) bs c -> pall (pbind (guard b) f) bs c.
Proof. intros -> H; exact H. Qed.

Lemma parses_guard b : b = true -> parses (guard b) [] tt.
Proof. intros -> r; reflexivity. Qed.

Lemma pall_eof {A} (a : A) : pall (_ <- peof ; pret a) [] a.
Proof. reflexivity. Qed.

Lemma parses_take n bs : N.of_nat (length bs) = n -> parses (ptake n) bs bs.
Proof.
  intros <- r; unfold ptake; rewrite app_length.
  destruct (N.leb_spec (N.of_nat (length bs)) (N.of_nat (length bs + length r))); [|lia].
  rewrite Nnat.Nat2N.id, firstn_app, skipn_app, Nat.sub_diag, firstn_all, skipn_all; simpl.
  rewrite app_nil_r; reflexivity.
Qed.

Lemma parses_u32 n : n < 2^32 -> parses pu32 (le4 n) n.
Proof.
  intros H; unfold pu32; rewrite <- (app_nil_r (le4 n)).
  eapply parses_bind; [apply parses_take; unfold le4; rewrite le_bytes_length; reflexivity|].
  unfold le4; rewrite le_val_bytes by exact H; apply parses_ret.
Qed.

Lemma parses_u64 n : n < 2^64 -> parses pu64 (le8 n) n.
Proof.
  intros H; unfold pu64; rewrite <- (app_nil_r (le8 n)).
  eapply parses_bind; [apply parses_take; unfold le8; rewrite le_bytes_length; reflexivity|].
  unfold le8; rewrite le_val_bytes by exact H; apply parses_ret.
Qed.

Lemma parses_for {A} n (body : N -> parser A) g res :
  (forall i, i < n -> parses (body i) (g i) (res i)) ->
  parses (pfor n body) (flat_map g (Nrange n)) (map res (Nrange n)).
Proof.
  intros H; unfold pfor.
  assert (H' : forall i, In i (Nrange n) -> parses (body i) (g i) (res i))
    by (intros i Hi; apply H, in_Nrange, Hi).
  clear H; induction (Nrange n) as [|i l IH]; cbn [map plist flat_map]; [apply parses_ret|].
  eapply parses_bind; [apply H'; left; reflexivity|].
  eapply parses_bind_end; [apply IH; intros; apply H'; right; auto|apply parses_ret].
Qed.

Lemma parses_one {A} (body : N -> parser A) bs a : parses (body 0) bs a ->
  parses (pfor 1 body) bs [a].
Proof.
  intros H; cbn [pfor Nrange N.to_nat]; unfold pfor; change (Nrange 1) with [0]; cbn [map plist].
  eapply parses_bind_end; [exact H|]. rewrite <- (app_nil_r []).
  eapply parses_bind_nil; apply parses_ret.
Qed.

Lemma nthN_maprange {A} (g : N -> A) n i : i < n -> nthN (map g (Nrange n)) i = Some (g i).
Proof. intros H; rewrite nthN_map, nthN_Nrange by exact H; reflexivity. Qed.

Lemma nth4_maps {A} (g : N -> N -> N -> N -> A) na nb nc (nd : N -> N) a b c d :
  a < na -> b < nb -> c < nc -> d < nd c ->
  nth4 (map (fun a => map (fun b => map (fun c => map (fun d => g a b c d) (Nrange (nd c)))
       (Nrange nc)) (Nrange nb)) (Nrange na)) a b c d = Some (g a b c d).
Proof.
  intros; unfold nth4.
  rewrite nthN_maprange by assumption; cbn [obind].
  rewrite nthN_maprange by assumption; cbn [obind].
  rewrite nthN_maprange by assumption; cbn [obind].
  apply nthN_maprange; assumption.
Qed.

(** * Sizes *)

Section Sizes.
Context {C : Type}.
Implicit Types (t : texture C).

Lemma mip_shift n m : N.max (N.shiftr n m) 1 = mip n m.
Proof. unfold mip; rewrite N.shiftr_div_pow2; lia. Qed.

Lemma width_mip t m : wft t -> m < mipLevelCount t -> width t m = mip (width t 0) m.
Proof.
  destruct t as [i|]; simpl; intros W H; [|lia].
  pose proof (wf_mips _ W); pose proof (wf_w _ W) as [P _].
  destruct (N.leb_spec (t_mips i) m); [lia|]; destruct (N.leb_spec (t_mips i) 0); [lia|].
  rewrite mip_shift; f_equal; lia.
Qed.

Lemma height_mip t m : wft t -> m < mipLevelCount t -> height t m = mip (height t 0) m.
Proof.
  destruct t as [i|]; simpl; intros W H; [|lia].
  pose proof (wf_mips _ W); pose proof (wf_h _ W) as [P _].
  destruct (N.leb_spec (t_mips i) m); [lia|]; destruct (N.leb_spec (t_mips i) 0); [lia|].
  rewrite mip_shift; f_equal; lia.
Qed.

Lemma depth_mip t m : wft t -> m < mipLevelCount t -> dimensionOf t = Dim3D ->
  depth t m = mip (depth t 0) m.
Proof.
  destruct t as [i|]; simpl; intros W H D; [|lia].
  pose proof (wf_mips _ W); pose proof (wf_d _ W) as [_ P]; specialize (P D); rewrite D.
  destruct (N.leb_spec (t_mips i) m); [lia|]; destruct (N.leb_spec (t_mips i) 0); [lia|].
  rewrite mip_shift; f_equal; lia.
Qed.

Lemma depth_flat t m : wft t -> m < mipLevelCount t -> dimensionOf t <> Dim3D ->
  depth t m = depth t 0.
Proof.
  destruct t as [i|]; simpl; intros W H D; [|lia].
  pose proof (wf_mips _ W).
  destruct (N.leb_spec (t_mips i) m); [lia|]; destruct (N.leb_spec (t_mips i) 0); [lia|].
  destruct (t_dim i); congruence.
Qed.

Lemma not_array_depth t : wft t -> t <> None -> dimensionOf t <> Dim3D -> isArray t = false -> depth t 0 = 1.
Proof.
  destruct t as [i|]; intros W NN D A; [|congruence]; simpl in W; rewrite wf_depth0 by exact W.
  cbn [isArray dimensionOf] in *; destruct (t_dim i); try congruence; cbn [andb] in A; lia.
Qed.

Lemma array_not_3d t : isArray t = true -> dimensionOf t <> Dim3D.
Proof. destruct t as [i|]; cbn [isArray dimensionOf]; [|discriminate]; destruct (t_dim i); cbn; congruence. Qed.

Record bounded t : Prop := {
  b_w : 0 < width t 0 /\ width t 0 < 2^32;
  b_h : 0 < height t 0 /\ height t 0 < 2^32;
  b_d : 0 < depth t 0 /\ depth t 0 < 2^32;
  b_m : 0 < mipLevelCount t /\ mipLevelCount t <= 32;
  b_f : faceCount t = if isCube t then 6 else 1
}.

Lemma wf_bounded t : wft t -> t <> None -> bounded t.
Proof.
  destruct t as [i|]; [|congruence]; intros W _; simpl in W.
  pose proof (wf_w _ W) as [W1 W2]; pose proof (wf_h _ W) as [H1 H2]; pose proof (wf_d _ W) as [D1 D2].
  pose proof (wf_mips _ W) as M; unfold fits32 in *.
  split.
  - rewrite wf_width0 by exact W; lia.
  - rewrite wf_height0 by exact W; lia.
  - rewrite wf_depth0 by exact W; lia.
  - cbn [mipLevelCount]; pose proof (maxMip_bounds (t_dim i) (t_width i) (t_height i) (t_depth i) W1 H1 D2 W2 H2 D1); lia.
  - cbn [faceCount]; rewrite (wf_faces _ W); unfold isCube; cbn [dimensionOf]; destruct (t_dim i); reflexivity.
Qed.
End Sizes.

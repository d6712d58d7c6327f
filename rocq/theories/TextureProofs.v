(** Lemmas about the Texture model. *)
From Coq Require Import NArith List Bool Lia ZArith.
From Coq Require Import ZifyBool ZifyNat ZifyN.
From Verif Require Import Base FormatModel FormatProofs TilingProofs TextureModel TextureSpec.
Import ListNotations.
Local Open Scope N_scope.

(** ** Nested lists *)

Lemma nthN_some {A} (l : list A) i : i < N.of_nat (length l) -> exists a, nthN l i = Some a.
Proof.
  intros H; unfold nthN; destruct (nth_error l (N.to_nat i)) eqn:E; eauto.
  apply nth_error_None in E; lia.
Qed.

Lemma nthN_lt {A} (l : list A) i a : nthN l i = Some a -> i < N.of_nat (length l).
Proof.
  intros H; assert (nth_error l (N.to_nat i) <> None) by (unfold nthN in H; congruence).
  apply nth_error_Some in H0; lia.
Qed.

Lemma nthN_In {A} (l : list A) i a : nthN l i = Some a -> In a l.
Proof. apply nth_error_In. Qed.

Lemma In_nthN {A} (l : list A) a : In a l -> exists i, nthN l i = Some a.
Proof.
  intros H; apply In_nth_error in H as [n H]; exists (N.of_nat n).
  unfold nthN; rewrite Nnat.Nat2N.id; exact H.
Qed.

Lemma nthN_map {A B} (f : A -> B) l i :
  nthN (map f l) i = match nthN l i with Some a => Some (f a) | None => None end.
Proof. unfold nthN; rewrite nth_error_map; destruct (nth_error l _); reflexivity. Qed.

Lemma nthN_repeat {A} (a : A) n i : i < N.of_nat n -> nthN (repeat a n) i = Some a.
Proof.
  intros H; unfold nthN; rewrite nth_error_repeat; auto; lia.
Qed.

Lemma nthN_Nrange n i : i < n -> nthN (Nrange n) i = Some i.
Proof. intros H; unfold nthN; rewrite nth_error_Nrange by lia; f_equal; lia. Qed.

Lemma updN_some {A} (l : list A) i a b : nthN l i = Some b ->
  exists l', updN l i a = Some l' /\ length l' = length l /\
             (forall j, nthN l' j = if j =? i then Some a else nthN l j).
Proof.
  intros H; pose proof (nthN_lt _ _ _ H) as H'; unfold updN.
  destruct (N.ltb_spec i (N.of_nat (length l))); [|lia].
  eexists; split; [reflexivity|]; split; [apply upd_length|].
  intros j; unfold nthN; rewrite nth_error_upd.
  destruct (N.eqb_spec j i) as [->|].
  - rewrite Nat.eqb_refl; destruct (Nat.ltb_spec (N.to_nat i) (length l)); [reflexivity|lia].
  - destruct (Nat.eqb_spec (N.to_nat i) (N.to_nat j)); [lia|reflexivity].
Qed.

Lemma updN_inv {A} (l l' : list A) i a : updN l i a = Some l' -> exists b, nthN l i = Some b.
Proof.
  unfold updN; destruct (N.ltb_spec i (N.of_nat (length l))); [|discriminate].
  intros _; apply nthN_some; auto.
Qed.

Definition eqb3 (i j k i' j' k' : N) : bool := (i =? i') && (j =? j') && (k =? k').

(** The lengths of all inner lists. *)
Definition shape {A} (l : list (list (list A))) : list (list nat) := map (map (@length A)) l.

Lemma nth_error_ext_eq {A} (l l' : list A) :
  (forall n, nth_error l n = nth_error l' n) -> l = l'.
Proof.
  revert l'; induction l as [|a l IH]; intros [|b l'] H; auto.
  - specialize (H 0%nat); discriminate.
  - specialize (H 0%nat); discriminate.
  - f_equal; [specialize (H 0%nat); simpl in H; congruence|].
    apply IH; intros n; apply (H (S n)).
Qed.

Lemma nthN_ext {A} (l l' : list A) : (forall i, nthN l i = nthN l' i) -> l = l'.
Proof.
  intros H; apply nth_error_ext_eq.
  intros n; specialize (H (N.of_nat n)); unfold nthN in H; rewrite Nnat.Nat2N.id in H; exact H.
Qed.

Lemma set3_some {A} (l : list (list (list A))) i j k a b : get3 l i j k = Some b ->
  exists l', set3 l i j k a = Some l' /\ shape l' = shape l /\
    (forall i' j' k', get3 l' i' j' k' = if eqb3 i' j' k' i j k then Some a else get3 l i' j' k').
Proof.
  unfold get3, set3; intros H.
  destruct (nthN l i) as [l1|] eqn:E1; simpl in *; [|discriminate].
  destruct (nthN l1 j) as [l2|] eqn:E2; simpl in *; [|discriminate].
  destruct (updN_some l2 k a b H) as (l2' & U2 & Len2 & N2).
  destruct (updN_some l1 j l2' l2 E2) as (l1' & U1 & Len1 & N1).
  destruct (updN_some l i l1' l1 E1) as (l' & U0 & Len0 & N0).
  exists l'; rewrite U2; simpl; rewrite U1; simpl; split; [exact U0|].
  split.
  - unfold shape; apply nthN_ext; intros n; rewrite !nthN_map, N0.
    destruct (N.eqb_spec n i) as [->|]; [|reflexivity].
    rewrite E1; f_equal; apply nthN_ext; intros n; rewrite !nthN_map, N1.
    destruct (N.eqb_spec n j) as [->|]; [|reflexivity].
    rewrite E2; congruence.
  - intros i' j' k'; rewrite N0; unfold eqb3.
    destruct (N.eqb_spec i' i) as [->|]; simpl; [|reflexivity].
    rewrite N1, E1; simpl.
    destruct (N.eqb_spec j' j) as [->|]; simpl; [|reflexivity].
    rewrite N2, E2; simpl; destruct (N.eqb_spec k' k); reflexivity.
Qed.

Lemma set3_inv {A} (l l' : list (list (list A))) i j k a : set3 l i j k a = Some l' ->
  exists b, get3 l i j k = Some b.
Proof.
  unfold get3, set3; destruct (nthN l i) as [l1|]; simpl; [|discriminate].
  destruct (nthN l1 j) as [l2|]; simpl; [|discriminate].
  destruct (updN l2 k a) as [l2'|] eqn:E; simpl; [|discriminate].
  intros _; eapply updN_inv; exact E.
Qed.

(** Whether an index exists depends on the shape only. *)
Lemma shape_get3 {A B} (l : list (list (list A))) (l' : list (list (list B))) i j k a :
  shape l = shape l' -> get3 l i j k = Some a -> exists b, get3 l' i j k = Some b.
Proof.
  intros S H; unfold get3 in *.
  destruct (nthN l i) as [l1|] eqn:E1; simpl in *; [|discriminate].
  destruct (nthN l1 j) as [l2|] eqn:E2; simpl in *; [|discriminate].
  assert (H1 : nthN (shape l') i = Some (map (@length _) l1))
    by (rewrite <- S; unfold shape; rewrite nthN_map, E1; reflexivity).
  unfold shape in H1; rewrite nthN_map in H1.
  destruct (nthN l' i) as [l1'|]; [|discriminate]; simpl.
  injection H1 as H1.
  assert (H2 : nthN (map (@length _) l1') j = Some (length l2))
    by (rewrite H1, nthN_map, E2; reflexivity).
  rewrite nthN_map in H2; destruct (nthN l1' j) as [l2'|]; [|discriminate]; simpl.
  injection H2 as H2; apply nthN_some; apply nthN_lt in H; lia.
Qed.

Lemma get3_map3 {A B} (f : A -> B) l i j k :
  get3 (map (map (map f)) l) i j k = match get3 l i j k with Some a => Some (f a) | None => None end.
Proof.
  unfold get3; rewrite nthN_map; destruct (nthN l i) as [l1|]; simpl; [|reflexivity].
  rewrite nthN_map; destruct (nthN l1 j) as [l2|]; simpl; [|reflexivity].
  apply nthN_map.
Qed.

Lemma shape_map3 {A B} (f : A -> B) l : shape (map (map (map f)) l) = shape l.
Proof.
  unfold shape; rewrite map_map; apply map_ext; intros l1.
  rewrite map_map; apply map_ext; intros l2; apply map_length.
Qed.

(** ** Extents *)

Lemma halvings_shiftr k n : 0 < n -> halvings k n = N.max (N.shiftr n (N.of_nat k)) 1.
Proof.
  intros Hn; induction k as [|k IH].
  - cbn [halvings]; change (N.of_nat 0) with 0; rewrite N.shiftr_0_r; lia.
  - cbn [halvings]; rewrite IH; unfold halve.
    rewrite !N.shiftr_div_pow2, Nnat.Nat2N.inj_succ, N.pow_succ_r'.
    rewrite (N.mul_comm 2), <- N.div_div by (try apply N.pow_nonzero; discriminate).
    set (x := n / 2 ^ N.of_nat k).
    destruct (N.max_spec x 1) as [[? ->]|[? ->]]; [|lia].
    assert (x = 0) as -> by lia; reflexivity.
Qed.

Lemma halvings_pos k n : 0 < n -> 0 < halvings k n.
Proof. intros; rewrite halvings_shiftr by assumption; lia. Qed.

Lemma shiftr_lt n k : N.shiftr n k < 2 <-> n < 2 ^ (k + 1).
Proof.
  rewrite N.shiftr_div_pow2.
  pose proof (N.pow_nonzero 2 k ltac:(discriminate)).
  replace (2 ^ (k+1)) with (2 ^ k * 2) by (rewrite N.add_1_r, N.pow_succ_r'; lia).
  split; intros H1.
  - apply N.lt_nge; intros H2.
    apply N.div_le_mono with (c := 2^k) in H2; [|assumption].
    rewrite N.mul_comm, N.div_mul in H2 by assumption; lia.
  - apply N.div_lt_upper_bound; assumption.
Qed.

Lemma halvings_one k n : 0 < n -> (halvings (N.to_nat k) n = 1 <-> n < 2 ^ (k + 1)).
Proof.
  intros Hn; rewrite halvings_shiftr by assumption; rewrite Nnat.N2Nat.id.
  rewrite <- shiftr_lt; lia.
Qed.

Lemma clz_size x : 0 < x -> fits32 x -> 32 - clz x = N.log2 x + 1.
Proof.
  intros H1 H2; unfold clz; destruct (N.eqb_spec x 0); [lia|].
  assert (N.log2 x < 32) by (apply N.log2_lt_pow2; assumption); lia.
Qed.

Lemma log2_max a b : N.log2 (N.max a b) = N.max (N.log2 a) (N.log2 b).
Proof.
  destruct (N.max_spec a b) as [[H ->]|[H ->]].
  - assert (N.log2 a <= N.log2 b) by (apply N.log2_le_mono; lia); lia.
  - assert (N.log2 b <= N.log2 a) by (apply N.log2_le_mono; lia); lia.
Qed.

(** The largest of the mipmapped extents. *)
Definition biggest (dim : dimension) (w h d : N) : N :=
  match dim with Dim3D => N.max (N.max w h) d | _ => N.max w h end.

Lemma maxMip_log2 dim w h d : 0 < w -> 0 < h -> (dim = Dim3D -> 0 < d) ->
  fits32 w -> fits32 h -> fits32 d ->
  maxMipmapLevels dim w h d = N.log2 (biggest dim w h d) + 1.
Proof.
  intros; unfold maxMipmapLevels, biggest; rewrite !(clz_size w), !(clz_size h) by assumption.
  destruct dim; try (rewrite log2_max; lia).
  rewrite (clz_size d) by auto; rewrite !log2_max; lia.
Qed.

Lemma maxMip_bounds dim w h d : 0 < w -> 0 < h -> (dim = Dim3D -> 0 < d) ->
  fits32 w -> fits32 h -> fits32 d ->
  1 <= maxMipmapLevels dim w h d <= 32.
Proof.
  intros; rewrite maxMip_log2 by assumption.
  assert (N.log2 (biggest dim w h d) < 32); [|lia].
  apply N.log2_lt_pow2.
  - unfold biggest; destruct dim; lia.
  - unfold biggest, fits32 in *; destruct dim; lia.
Qed.

Lemma all_one_iff dim w h d k : 0 < w -> 0 < h -> (dim = Dim3D -> 0 < d) ->
  all_one dim (extents_at dim w h d k) <-> biggest dim w h d < 2 ^ (k + 1).
Proof.
  intros Hw Hh Hd; unfold all_one, extents_at, biggest.
  rewrite !halvings_one by assumption.
  destruct dim; try (split; intros; repeat split; lia).
  rewrite halvings_one by auto; split; intros; repeat split; lia.
Qed.

Section T.
Context {C : Type}.
Variable L : lib C.
Notation image := (image C).
Notation texture := (texture C).
Notation impl := (impl C).

(** ** Images *)

Definition good_img (w h : N) (i : image) : Prop :=
  match i with NoImage => True | Img f w' h' _ _ => f = I_RGBAF /\ w' = w /\ h' = h end.

Definition full_img (w h : N) (i : image) : Prop :=
  exists cs c, i = Img I_RGBAF w h cs c.

Lemma imgfmt_eqb_eq a b : imgfmt_eqb a b = true <-> a = b.
Proof. split; [destruct a, b; simpl; congruence | intros ->; destruct b; reflexivity]. Qed.

Lemma full_good w h i : full_img w h i -> good_img w h i.
Proof. intros (cs & c & ->); simpl; auto. Qed.

Lemma full_valid w h i : full_img w h i -> isValid i = true.
Proof. intros (cs & c & ->); reflexivity. Qed.

Lemma good_valid_full w h i : good_img w h i -> isValid i = true -> full_img w h i.
Proof. destruct i; simpl; [discriminate|]; intros (-> & -> & ->) _; do 2 eexists; reflexivity. Qed.

Lemma no_fi_in f : no_freeimage_resize f = false ->
  ~ In f [I_Int16; I_Int32; I_UInt32; I_Double; I_Complex].
Proof. destruct f; simpl; intros; intuition discriminate. Qed.

Lemma not_in_no_fi f : ~ In f [I_Int16; I_Int32; I_UInt32; I_Double; I_Complex] ->
  no_freeimage_resize f = false.
Proof. destruct f; simpl; intros; auto; exfalso; intuition. Qed.

Lemma resize_content_ok : lib_ok L -> forall f w h c w' h' rf,
  rf = RF_Box \/ rf = RF_Linear \/ ~ In f [I_Int16; I_Int32; I_UInt32; I_Double; I_Complex] ->
  exists c', resize_content L f w h c w' h' rf = Some c'.
Proof.
  intros OK f w h c w' h' rf H; unfold resize_content.
  destruct (no_freeimage_resize f) eqn:E.
  - assert (rf = RF_Box \/ rf = RF_Linear) as H'.
    { destruct H as [|[|H]]; auto. apply not_in_no_fi in H; congruence. }
    pose proof (ok_fallback _ OK f w h c w' h' rf H') as H0.
    destruct (l_fallback L f w h c w' h' rf) eqn:E1; [|congruence].
    exists c0; destruct H' as [->| ->]; reflexivity.
  - pose proof (ok_rescale _ OK f w h c w' h' rf (no_fi_in _ E)) as H0.
    destruct (l_rescale L f w h c w' h' rf); [eauto|congruence].
Qed.

Lemma iresize_valid : lib_ok L -> forall f w h cs c w' h' rf,
  resizable rf (Img f w h cs c) -> 0 < w' -> 0 < h' ->
  exists c', iresize L (Img f w h cs c) w' h' rf = Img f w' h' cs c'.
Proof.
  intros OK f w h cs c w' h' rf R Hw Hh; unfold iresize.
  destruct (N.eqb_spec w' 0); [lia|]; destruct (N.eqb_spec h' 0); [lia|]; cbn [orb].
  destruct ((w =? w') && (h =? h')) eqn:E.
  - assert (w = w') as -> by lia; assert (h = h') as -> by lia; eauto.
  - destruct cs.
    + destruct (resize_content_ok OK f w h c w' h' rf R) as [x Hx]; rewrite Hx; eauto.
    + destruct (resize_content_ok OK f w h (l_tolinear L f w h c) w' h' rf R) as [x Hx];
        rewrite Hx; eauto.
Qed.

Lemma iresize_good i w h w' h' rf : good_img w h i -> good_img w' h' (iresize L i w' h' rf).
Proof.
  destruct i; simpl; auto; intros (-> & -> & ->).
  destruct ((w' =? 0) || (h' =? 0)); simpl; auto.
  destruct (N.eqb_spec w w'); [destruct (N.eqb_spec h h')|]; cbn [andb]; subst; simpl; auto.
  all: destruct cs; destruct (resize_content _ _ _ _ _ _ _ _); simpl; auto.
Qed.

Lemma iresize_full : lib_ok L -> forall i w h w' h' rf, full_img w h i -> 0 < w' -> 0 < h' ->
  full_img w' h' (iresize L i w' h' rf).
Proof.
  intros OK i w h w' h' rf (cs & c & ->) Hw Hh.
  destruct (iresize_valid OK I_RGBAF w h cs c w' h' rf) as [c' ->]; auto.
  - simpl; right; right; intuition discriminate.
  - do 2 eexists; reflexivity.
Qed.

Lemma custom_level_fitted i w h rf :
  custom_level L i w h rf = iconvert L (iresize L i w h rf) I_RGBAF.
Proof.
  unfold custom_level; destruct (iresize L i w h rf) as [|f a b cs c]; simpl; auto.
  destruct (imgfmt_eqb f I_RGBAF) eqn:E; auto.
Qed.

Lemma iconvert_valid : lib_ok L -> forall f w h cs c,
  exists c', iconvert L (Img f w h cs c) I_RGBAF = Img I_RGBAF w h cs c'.
Proof.
  intros OK f w h cs c; simpl; destruct (imgfmt_eqb f I_RGBAF) eqn:E.
  - apply imgfmt_eqb_eq in E as ->; eauto.
  - pose proof (ok_convert _ OK f w h c I_RGBAF); destruct (l_convert _ _ _ _ _ _); eauto; congruence.
Qed.

Lemma ichange_spec f w h cs c cs' :
  exists c', ichange L (Img f w h cs c) cs' = Img f w h cs' c'.
Proof. destruct cs, cs'; simpl; eauto. Qed.

Lemma fitted_full : lib_ok L -> forall i t rf m, isValid i = true -> resizable rf i ->
  0 < width t m -> 0 < height t m -> full_img (width t m) (height t m) (fitted L t rf m i).
Proof.
  intros OK [|f w h cs c] t rf m V R Hw Hh; [discriminate|].
  unfold fitted; destruct (iresize_valid OK f w h cs c _ _ rf R Hw Hh) as [c' ->].
  destruct (iconvert_valid OK f (width t m) (height t m) cs c') as [c'' ->].
  do 2 eexists; reflexivity.
Qed.

Lemma iconvert_wh i : isValid (iconvert L i I_RGBAF) = true ->
  iwidth (iconvert L i I_RGBAF) = iwidth i /\ iheight (iconvert L i I_RGBAF) = iheight i.
Proof.
  destruct i as [|f w h cs c]; simpl; [discriminate|].
  destruct (imgfmt_eqb f I_RGBAF); simpl; auto; destruct (l_convert _ _ _ _ _ _); simpl; auto; discriminate.
Qed.

Lemma stored_good i cs w h : iwidth i = w -> iheight i = h ->
  good_img w h (ichange L (iconvert L i I_RGBAF) cs).
Proof.
  destruct i as [|f w' h' cs' c]; simpl; auto.
  intros -> ->.
  destruct (imgfmt_eqb f I_RGBAF) eqn:E.
  - apply imgfmt_eqb_eq in E as ->; destruct cs', cs; simpl; auto.
  - destruct (l_convert _ _ _ _ _ _); destruct cs', cs; simpl; auto.
Qed.

(** ** Well-formed textures *)

Record wf (i : impl) : Prop := Wf {
  wf_w : 0 < t_width i /\ fits32 (t_width i);
  wf_h : 0 < t_height i /\ fits32 (t_height i);
  wf_d : fits32 (t_depth i) /\ (t_dim i = Dim3D -> 0 < t_depth i);
  wf_mips : 1 <= t_mips i <= maxMipmapLevels (t_dim i) (t_width i) (t_height i) (t_depth i);
  wf_faces : t_faces i = match t_dim i with Cube => 6 | _ => 1 end;
  wf_len : N.of_nat (length (t_images i)) = t_mips i;
  wf_shape : forall m sl, nthN (shape (t_images i)) m = Some sl ->
    depth (Some i) m <= N.of_nat (length sl) /\
    (m = 0 \/ t_dim i <> Dim3D -> N.of_nat (length sl) = depth (Some i) m) /\
    (forall n, In n sl -> N.of_nat n = t_faces i);
  wf_good : forall m d f x, get3 (t_images i) m d f = Some x ->
    good_img (width (Some i) m) (height (Some i) m) x;
  wf_tex : t_textures i = [] \/
    (t_mips i <= N.of_nat (length (t_textures i)) /\
     forall m sl, m < t_mips i -> nthN (shape (t_textures i)) m = Some sl ->
       depth (Some i) m <= N.of_nat (length sl) /\ (forall n, In n sl -> N.of_nat n = t_faces i));
  wf_conv : t_textures i <> [] -> exists f fl, t_format i = Some f /\
    isFormatValid fl f (t_type i) = true /\
    (t_cs i = CS_sRGB -> hasNativeSRGB f (t_type i) = true)
}.

Definition wft (t : texture) : Prop := match t with None => True | Some i => wf i end.

Lemma width_pos (i : impl) m : m < t_mips i -> 0 < width (Some i) m.
Proof. intros H; simpl; destruct (N.leb_spec (t_mips i) m); lia. Qed.
Lemma height_pos (i : impl) m : m < t_mips i -> 0 < height (Some i) m.
Proof. intros H; simpl; destruct (N.leb_spec (t_mips i) m); lia. Qed.
Lemma depth_pos (i : impl) m : m < t_mips i -> 0 < depth (Some i) m.
Proof. intros H; simpl; destruct (N.leb_spec (t_mips i) m); [lia|]; destruct (t_dim i); lia. Qed.
Lemma depth_mips (t : texture) m d : d < depth t m -> m < mipLevelCount t.
Proof. destruct t as [i|]; simpl; [|lia]; destruct (N.leb_spec (t_mips i) m); lia. Qed.

Lemma wf_get3 i : wf i -> forall f m d, in_range (Some i) f m d ->
  exists x, get3 (t_images i) m d f = Some x.
Proof.
  intros W f m d (Hm & Hd & Hf); simpl in Hm, Hf.
  destruct (nthN_some (t_images i) m) as [l1 E1]; [rewrite (wf_len _ W); exact Hm|].
  assert (S1 : nthN (shape (t_images i)) m = Some (map (@length _) l1))
    by (unfold shape; rewrite nthN_map, E1; reflexivity).
  destruct (wf_shape _ W _ _ S1) as (H1 & _ & H3); rewrite map_length in H1.
  destruct (nthN_some l1 d) as [l2 E2]; [lia|].
  assert (N.of_nat (length l2) = t_faces i) by (apply H3, in_map, (nthN_In _ d); exact E2).
  destruct (nthN_some l2 f) as [x E3]; [lia|].
  exists x; unfold get3; rewrite E1; simpl; rewrite E2; exact E3.
Qed.

Lemma wf_tex3 i : wf i -> t_textures i <> [] -> forall f m d, in_range (Some i) f m d ->
  exists x, get3 (t_textures i) m d f = Some x.
Proof.
  intros W NE f m d (Hm & Hd & Hf); simpl in Hm, Hf.
  destruct (wf_tex _ W) as [|[TL TS]]; [contradiction|].
  destruct (nthN_some (t_textures i) m) as [l1 E1]; [lia|].
  assert (S1 : nthN (shape (t_textures i)) m = Some (map (@length _) l1))
    by (unfold shape; rewrite nthN_map, E1; reflexivity).
  destruct (TS _ _ Hm S1) as (H1 & H3); rewrite map_length in H1.
  destruct (nthN_some l1 d) as [l2 E2]; [lia|].
  assert (N.of_nat (length l2) = t_faces i) by (apply H3, in_map, (nthN_In _ d); exact E2).
  destruct (nthN_some l2 f) as [x E3]; [lia|].
  exists x; unfold get3; rewrite E1; simpl; rewrite E2; exact E3.
Qed.

Lemma wf_faces_cases i : wf i ->
  (t_dim i = Cube /\ t_faces i = 6) \/ (t_dim i <> Cube /\ t_faces i = 1).
Proof. intros W; rewrite (wf_faces _ W); destruct (t_dim i); auto; right; split; auto; discriminate. Qed.

(** Changing stored images without changing the shape. *)
Lemma wf_with_images i im : wf i -> shape im = shape (t_images i) ->
  (forall m d f x, get3 im m d f = Some x -> good_img (width (Some i) m) (height (Some i) m) x) ->
  wf (with_images i im).
Proof.
  intros W S G; constructor; simpl; try apply W.
  - rewrite <- (wf_len _ W).
    assert (H : length (shape im) = length (shape (t_images i))) by (rewrite S; auto).
    unfold shape in H; rewrite !map_length in H; lia.
  - intros m sl H; rewrite S in H; apply (wf_shape _ W _ _ H).
  - intros m d f x H; apply (G _ _ _ _ H).
Qed.

(** ** initialize *)

Lemma initialize_wf dim w h d m cs b t : fits32 w -> fits32 h -> fits32 d ->
  initialize (C:=C) dim w h d m cs = (b, t) -> wft t.
Proof.
  intros Fw Fh Fd; unfold initialize.
  destruct ((w =? 0) || (h =? 0) || _) eqn:E; [intros [= <- <-]; exact I|].
  intros [= <- <-].
  assert (Hw : 0 < w) by lia; assert (Hh : 0 < h) by lia.
  assert (Hd : dim = Dim3D -> 0 < d) by (intros ->; lia).
  pose proof (maxMip_bounds dim w h d Hw Hh Hd Fw Fh Fd) as MB.
  set (mips := N.min (N.max m 1) (maxMipmapLevels dim w h d)).
  assert (Hm : 1 <= mips <= maxMipmapLevels dim w h d) by lia.
  clearbody mips.
  constructor; simpl; auto.
  - rewrite repeat_length; lia.
  - intros k sl H; unfold shape in H; rewrite nthN_map in H.
    destruct (nthN (repeat _ _) k) as [x|] eqn:Ex; [|discriminate].
    pose proof (nthN_lt _ _ _ Ex) as Lk; rewrite repeat_length in Lk.
    pose proof (nthN_In _ _ _ Ex) as Hx; apply repeat_spec in Hx; subst x.
    injection H as <-; rewrite map_length, repeat_length.
    destruct (N.leb_spec mips k); [lia|].
    split; [|split].
    + destruct dim; try lia.
      assert (N.shiftr d k <= d) by
        (rewrite N.shiftr_div_pow2; apply N.div_le_upper_bound;
         [apply N.pow_nonzero; discriminate|];
         pose proof (N.pow_nonzero 2 k ltac:(discriminate)); nia).
      lia.
    + intros [->|ND].
      * destruct dim; try lia; try (rewrite N.shiftr_0_r; lia).
      * destruct dim; try lia; congruence.
    + intros n Hn; apply in_map_iff in Hn as (y & <- & Hy); apply repeat_spec in Hy; subst y.
      rewrite repeat_length; destruct dim; lia.
  - intros k dd f x H; unfold get3 in H.
    destruct (nthN (repeat _ _) k) as [x1|] eqn:E1; simpl in H; [|discriminate].
    apply nthN_In, repeat_spec in E1; subst x1.
    destruct (nthN (repeat _ _) dd) as [x1|] eqn:E1; simpl in H; [|discriminate].
    apply nthN_In, repeat_spec in E1; subst x1.
    apply nthN_In, repeat_spec in H; subst x; simpl; auto.
  - intros H; congruence.
Qed.

(** ** setImage *)

Lemma store_image_spec i img f m d : wf i -> in_range (Some i) f m d ->
  iwidth img = width (Some i) m -> iheight img = height (Some i) m ->
  exists im, store_image L i img f m d
             = Some (isValid (as_stored L (Some i) img), Some (with_images i im)) /\
    shape im = shape (t_images i) /\ wf (with_images i im) /\
    (forall m' d' f', get3 im m' d' f' =
       if eqb3 m' d' f' m d f then Some (as_stored L (Some i) img) else get3 (t_images i) m' d' f').
Proof.
  intros W R Ew Eh; unfold store_image.
  destruct (wf_get3 _ W _ _ _ R) as [x Hx].
  destruct (set3_some (t_images i) m d f (ichange L (iconvert L img I_RGBAF) (t_cs i)) x Hx)
    as (im & HS & Sh & G).
  exists im; rewrite HS; simpl; split; [reflexivity|]; split; [exact Sh|]; split; [|exact G].
  apply wf_with_images; auto.
  intros m' d' f' y H; rewrite G in H.
  destruct (eqb3 m' d' f' m d f) eqn:E.
  - unfold eqb3 in E; assert (m' = m) as -> by lia.
    injection H as <-; apply stored_good; assumption.
  - apply (wf_good _ W _ _ _ _ H).
Qed.

Lemma setImageF_spec t img f m d : wft t -> f < 6 ->
  (in_range t f m d /\ has_level_size t m img /\
   exists i im, t = Some i /\
     setImageF L t img f m d = Some (isValid (as_stored L t img), Some (with_images i im)) /\
     shape im = shape (t_images i) /\ wf (with_images i im) /\
     (forall m' d' f', get3 im m' d' f' =
       if eqb3 m' d' f' m d f then Some (as_stored L t img) else get3 (t_images i) m' d' f'))
  \/ (~ (in_range t f m d /\ has_level_size t m img) /\ setImageF L t img f m d = Some (false, t)).
Proof.
  intros W F; unfold setImageF, in_range, has_level_size.
  destruct (N.leb_spec (depth t m) d) as [Hd|Hd]; cbn [orb].
  { right; split; [lia|reflexivity]. }
  destruct (N.eqb_spec (iwidth img) (width t m)) as [Hw|Hw]; cbn [negb orb];
    [|right; split; [tauto|reflexivity]].
  destruct (N.eqb_spec (iheight img) (height t m)) as [Hh|Hh]; cbn [negb orb];
    [|right; split; [tauto|reflexivity]].
  pose proof (depth_mips _ _ _ Hd) as Hm.
  destruct t as [i|]; [|simpl in Hm; lia].
  simpl in W.
  destruct (wf_faces_cases _ W) as [[D Fc]|[D Fc]].
  - left. assert (R : in_range (Some i) f m d) by (split; [exact Hm|split;[exact Hd|simpl; lia]]).
    split; [exact R|]; split; [auto|].
    destruct (store_image_spec i img f m d W R Hw Hh) as (im & H1 & H2 & H3 & H4).
    exists i, im; split; [reflexivity|].
    rewrite Fc; cbn [N.eqb Pos.eqb negb andb]; auto.
  - destruct (N.eqb_spec f 0) as [->|Hf].
    + left. assert (R : in_range (Some i) 0 m d) by (split; [exact Hm|split;[exact Hd|simpl; lia]]).
      split; [exact R|]; split; [auto|].
      destruct (store_image_spec i img 0 m d W R Hw Hh) as (im & H1 & H2 & H3 & H4).
      exists i, im; split; [reflexivity|].
      rewrite andb_false_r; auto.
    + right; split; [simpl; lia|]. rewrite Fc; reflexivity.
Qed.

Lemma setImage_F t img m d : wft t -> faceCount t <> 6 ->
  setImage L t img m d = setImageF L t img 0 m d.
Proof.
  intros W F; unfold setImage, setImageF; destruct (_ || _ || _); auto.
  destruct t as [i|]; auto; simpl in W, F.
  destruct (wf_faces_cases _ W) as [[D Fc]|[D Fc]]; [congruence|].
  rewrite Fc; reflexivity.
Qed.

Lemma setImage_cube t img m d : faceCount t = 6 ->
  setImage L t img m d = Some (false, t).
Proof.
  intros F; unfold setImage; destruct (_ || _ || _); auto.
  destruct t as [i|]; [|discriminate]; simpl in F; rewrite F; reflexivity.
Qed.

Lemma getImage_F t m d : wft t -> faceCount t <> 6 -> getImage t m d = getImageF t 0 m d.
Proof.
  intros W F; unfold getImage, getImageF; destruct (_ <=? _); auto.
  destruct t as [i|]; auto; simpl in W, F.
  destruct (wf_faces_cases _ W) as [[D Fc]|[D Fc]]; [congruence|].
  rewrite Fc; reflexivity.
Qed.

Lemma getImageF_in t f m d : wft t -> in_range t f m d ->
  exists i, t = Some i /\ getImageF t f m d = get3 (t_images i) m d f.
Proof.
  intros W (Hm & Hd & Hf); destruct t as [i|]; [|simpl in Hm; lia].
  exists i; split; auto; unfold getImageF.
  destruct (N.leb_spec (depth (Some i) m) d); [lia|].
  simpl in W, Hf; destruct (wf_faces_cases _ W) as [[D Fc]|[D Fc]]; rewrite Fc in *.
  - reflexivity.
  - assert (f = 0) as -> by lia; reflexivity.
Qed.

Lemma getImageF_in' (i : impl) f m d : (t_faces i = 6 \/ t_faces i = 1) ->
  in_range (Some i) f m d -> getImageF (Some i) f m d = get3 (t_images i) m d f.
Proof.
  intros Fc (Hm & Hd & Hf); unfold getImageF.
  destruct (N.leb_spec (depth (Some i) m) d); [lia|].
  simpl in Hf; destruct Fc as [Fc|Fc]; rewrite Fc in *; [reflexivity|].
  assert (f = 0) as -> by lia; reflexivity.
Qed.

Lemma getImageF_out t f m d : wft t -> f < 6 -> ~ in_range t f m d ->
  getImageF t f m d = Some NoImage.
Proof.
  intros W Hf R; unfold getImageF, in_range in *.
  destruct (N.leb_spec (depth t m) d); auto.
  pose proof (depth_mips _ _ _ H) as Hm.
  destruct t as [i|]; [|simpl in Hm; lia].
  simpl in W, R, Hm; destruct (wf_faces_cases _ W) as [[D Fc]|[D Fc]]; rewrite Fc in *.
  - exfalso; apply R; simpl in H; repeat split; auto; lia.
  - destruct (N.eqb_spec f 0) as [->|]; auto.
    exfalso; apply R; repeat split; auto; lia.
Qed.

(** ** Mip chains *)

Lemma Nrange_succ n : Nrange (N.of_nat (S n)) = Nrange (N.of_nat n) ++ [N.of_nat n].
Proof.
  rewrite Nnat.Nat2N.inj_succ, <- N.add_1_r, Nrange_app.
  change (Nrange 1) with [0]; simpl; rewrite N.add_0_r; reflexivity.
Qed.

Lemma gm_loop_app t rf cm a b st :
  gm_loop L t rf cm (a ++ b) st = obind (gm_loop L t rf cm a st) (gm_loop L t rf cm b).
Proof.
  revert st; induction a as [|j a IH]; intros st; simpl; auto.
  destruct (gm_step L t rf cm st j); simpl; auto.
Qed.

(** Every custom image is valid and can be resized. *)
Definition customs_ok (rf : rfilter) (cm : customs C) : Prop :=
  forall f m d i r, cfind cm f m d = Some (i, r) -> isValid i = true /\ resizable rf i.

Lemma cfind_In cm f m d v : cfind (C:=C) cm f m d = Some v -> In ((f, m, d), v) cm.
Proof.
  induction cm as [|[[[f' m'] d'] v'] r IH]; simpl; [discriminate|].
  destruct ((f' =? f) && (m' =? m) && (d' =? d)) eqn:E.
  - intros [= ->]; left; f_equal; f_equal; [f_equal|]; lia.
  - intros H; right; auto.
Qed.

Lemma customs_ok_intro rf cm :
  forallb (fun kv => isValid (fst (snd kv))) cm = true ->
  (forall k i r, In (k, (i, r)) cm -> resizable rf i) -> customs_ok rf cm.
Proof.
  intros H1 H2 f m d i r H; apply cfind_In in H.
  rewrite forallb_forall in H1; split; [apply (H1 _ H)|eapply H2; eauto].
Qed.

(** The images of a chain, and the sources it passes on, all have their level's size. *)
Lemma chain_full (OK : lib_ok L) t rf cm f d base src k : wft t ->
  customs_ok rf cm -> N.of_nat k < mipLevelCount t ->
  full_img (width t 0) (height t 0) base -> (exists w h, full_img w h src) ->
  let ch := chain (gen_image L t rf) (custom_at L t rf cm f d) base src k in
  full_img (width t (N.of_nat k)) (height t (N.of_nat k)) (fst ch) /\
  (exists w h, full_img w h (snd ch)) /\
  (k <> 0%nat -> full_img (width t (N.of_nat k)) (height t (N.of_nat k)) (snd ch)).
Proof.
  intros W CO Hk HB (w0 & h0 & HS); cbv zeta.
  assert (P : forall m, m < mipLevelCount t -> 0 < width t m /\ 0 < height t m).
  { intros m Hm; destruct t as [i|]; [|simpl in Hm; lia].
    split; [apply width_pos | apply height_pos]; exact Hm. }
  induction k as [|k IH].
  - simpl; split; [exact HB|]; split; [eauto|congruence].
  - destruct (P _ Hk) as [Pw Ph].
    destruct IH as (_ & (w1 & h1 & IH) & _); [lia|].
    cbn [chain]; set (src' := snd (chain _ _ _ _ k)) in *.
    assert (G : full_img (width t (N.of_nat (S k))) (height t (N.of_nat (S k)))
                  (gen_image L t rf (N.of_nat (S k)) src'))
      by (unfold gen_image; eapply iresize_full; eauto).
    unfold custom_at; destruct (cfind cm f (N.of_nat (S k)) d) as [[ci r]|] eqn:E.
    + destruct (CO _ _ _ _ _ E) as [V Rz].
      pose proof (fitted_full OK ci t rf (N.of_nat (S k)) V Rz Pw Ph) as F.
      destruct r; simpl; split; [exact F| |exact F|]; split; eauto.
    + simpl; split; [exact G|]; split; eauto.
Qed.

(** The loop over the levels of one image. *)
Lemma gm_face (OK : lib_ok L) i rf cm f d im prev base k :
  (forall m, m < t_mips i -> 0 < width (Some i) m /\ 0 < height (Some i) m) ->
  customs_ok rf cm -> N.of_nat k < t_mips i ->
  get3 im 0 d f = Some base -> full_img (width (Some i) 0) (height (Some i) 0) base ->
  (isValid prev = true -> exists w h, full_img w h prev) ->
  (forall m, m <= N.of_nat k -> exists x, get3 im m d f = Some x) ->
  let src := if isValid prev then prev else base in
  let ch := chain (gen_image L (Some i) rf) (custom_at L (Some i) rf cm f d) base src in
  exists im' prev',
    gm_loop L i rf cm (map (fun m => (d, f, m + 1)) (Nrange (N.of_nat k))) (im, prev)
      = Some (im', prev') /\
    shape im' = shape im /\
    (forall m' d' f', get3 im' m' d' f' =
       if (d' =? d) && (f' =? f) && (0 <? m') && (m' <=? N.of_nat k)
       then Some (fst (ch (N.to_nat m'))) else get3 im m' d' f') /\
    prev' = match k with
            | O => prev
            | _ => if once_at cm f (N.of_nat k) d then snd (ch k) else NoImage
            end /\
    (if isValid prev' then prev' else fst (ch k)) = snd (ch k) /\
    (full_img (width (Some i) (N.of_nat k)) (height (Some i) (N.of_nat k)) (fst (ch k)) /\
     exists w h, full_img w h (snd (ch k))).
Proof.
  intros P CO Hk HB HF HP HX src ch.
  assert (HS : exists w h, full_img w h src).
  { unfold src; destruct (isValid prev); [auto|]; eauto. }
  induction k as [|k IH].
  - exists im, prev; split; [reflexivity|]; split; [reflexivity|]; split; [|split; [reflexivity|]].
    + intros m' d' f'; destruct (0 <? m') eqn:E1, (m' <=? N.of_nat 0) eqn:E2; try lia;
        rewrite ?andb_false_r; reflexivity.
    + unfold ch; simpl; split; [|split; [exact HF|exact HS]].
      unfold src; destruct (isValid prev); reflexivity.
  - destruct IH as (im1 & prev1 & E1 & S1 & G1 & P1 & V1 & F1 & (w1 & h1 & F1')); [lia| |].
    { intros m Hm; apply HX; lia. }
    rewrite Nrange_succ, map_app, gm_loop_app, E1; cbn [obind map gm_loop].
    replace (N.of_nat k + 1) with (N.of_nat (S k)) by lia.
    set (mm := N.of_nat (S k)) in *.
    destruct (P mm Hk) as [Pw Ph].
    assert (SRC : (if isValid prev1 then Some (iresize L prev1 (width (Some i) mm) (height (Some i) mm) rf)
       else obind (get3 im1 (mm - 1) d f)
              (fun p => Some (iresize L p (width (Some i) mm) (height (Some i) mm) rf)))
       = Some (gen_image L (Some i) rf mm (snd (ch k)))).
    { destruct (isValid prev1) eqn:EV.
      - rewrite <- V1; reflexivity.
      - rewrite G1; replace (mm - 1) with (N.of_nat k) by lia.
        assert (G2 : (if (d =? d) && (f =? f) && (0 <? N.of_nat k) && (N.of_nat k <=? N.of_nat k)
              then Some (fst (ch (N.to_nat (N.of_nat k)))) else get3 im (N.of_nat k) d f)
              = Some (fst (ch k))).
        { rewrite Nnat.Nat2N.id; destruct k as [|k'].
          - replace ((d =? d) && (f =? f) && (0 <? N.of_nat 0) && (N.of_nat 0 <=? N.of_nat 0))
              with false by (cbn; rewrite !andb_false_r; reflexivity).
            simpl; exact HB.
          - rewrite !N.eqb_refl; cbn [andb].
            destruct (0 <? N.of_nat (S k')) eqn:?, (N.of_nat (S k') <=? N.of_nat (S k')) eqn:?;
              try lia; reflexivity. }
        rewrite G2; cbn [obind]; rewrite V1; reflexivity. }
    assert (GF : full_img (width (Some i) mm) (height (Some i) mm)
                   (gen_image L (Some i) rf mm (snd (ch k))))
      by (unfold gen_image; eapply iresize_full; eauto).
    assert (X1 : exists x, get3 im1 mm d f = Some x).
    { destruct (HX mm ltac:(lia)) as [x Hx].
      eapply shape_get3; [symmetry; exact S1|exact Hx]. }
    assert (Unf : ch (S k) = match custom_at L (Some i) rf cm f d mm with
        | None => (gen_image L (Some i) rf mm (snd (ch k)), gen_image L (Some i) rf mm (snd (ch k)))
        | Some (c, Continue) => (c, c)
        | Some (c, Once) => (c, gen_image L (Some i) rf mm (snd (ch k)))
        end) by reflexivity.
    assert (STEP : gm_step L i rf cm (im1, prev1) (d, f, mm) =
      obind (set3 im1 mm d f (fst (ch (S k)))) (fun im' =>
        Some (im', if once_at cm f mm d then snd (ch (S k)) else NoImage))).
    { unfold gm_step; rewrite Unf; unfold custom_at, once_at.
      destruct (cfind cm f mm d) as [[ci [|]]|]; cbn [negb orb andb].
      - rewrite SRC; cbn [obind fst snd]; rewrite custom_level_fitted; reflexivity.
      - cbn [obind fst snd]; rewrite custom_level_fitted; reflexivity.
      - rewrite SRC; reflexivity. }
    rewrite STEP.
    destruct X1 as [x Hx].
    destruct (set3_some im1 mm d f (fst (ch (S k))) x Hx) as (im2 & E2 & S2 & G2).
    rewrite E2; cbn [obind].
    eexists; eexists; split; [reflexivity|]; split; [congruence|]; split; [|split; [reflexivity|]].
    + intros m' d' f'; rewrite G2; unfold eqb3.
      destruct ((m' =? mm) && (d' =? d) && (f' =? f)) eqn:E.
      * replace ((d' =? d) && (f' =? f) && (0 <? m') && (m' <=? mm)) with true by lia.
        replace (N.to_nat m') with (S k) by lia; reflexivity.
      * rewrite G1.
        replace ((d' =? d) && (f' =? f) && (0 <? m') && (m' <=? mm))
          with ((d' =? d) && (f' =? f) && (0 <? m') && (m' <=? N.of_nat k)) by lia.
        reflexivity.
    + assert (Fst : full_img (width (Some i) mm) (height (Some i) mm) (fst (ch (S k))) /\
                    full_img (width (Some i) mm) (height (Some i) mm) (snd (ch (S k)))).
      { rewrite Unf; unfold custom_at; destruct (cfind cm f mm d) as [[ci r]|] eqn:EC.
        - destruct (CO _ _ _ _ _ EC) as [V Rz].
          pose proof (fitted_full OK ci (Some i) rf mm V Rz Pw Ph).
          destruct r; simpl; auto.
        - simpl; auto. }
      split; [|split; [apply Fst|do 2 eexists; apply Fst]].
      unfold once_at; destruct (cfind cm f mm d) as [[ci [|]]|] eqn:EC.
      * rewrite (full_valid _ _ _ (proj2 Fst)); reflexivity.
      * cbn [isValid]; rewrite Unf; unfold custom_at; rewrite EC; reflexivity.
      * cbn [isValid]; rewrite Unf; unfold custom_at; rewrite EC; reflexivity.
Qed.

Definition carry_of (prev : image) : option image := if isValid prev then Some prev else None.

Lemma gm_faces (OK : lib_ok L) i rf cm base k ps : forall im prev,
  (forall m, m < t_mips i -> 0 < width (Some i) m /\ 0 < height (Some i) m) ->
  customs_ok rf cm -> N.of_nat k + 1 = t_mips i ->
  NoDup ps ->
  (forall d f, In (d, f) ps -> get3 im 0 d f = Some (base d f) /\
     full_img (width (Some i) 0) (height (Some i) 0) (base d f) /\
     (forall m, m <= N.of_nat k -> exists x, get3 im m d f = Some x)) ->
  (isValid prev = true -> k <> 0%nat /\ exists w h, full_img w h prev) ->
  exists im' prev',
    gm_loop L i rf cm (flat_map (fun p => map (fun m => (fst p, snd p, m + 1))
                                   (Nrange (N.of_nat k))) ps) (im, prev) = Some (im', prev') /\
    shape im' = shape im /\
    (forall m d f, (m = 0 \/ ~ In (d, f) ps \/ N.of_nat k < m) ->
       get3 im' m d f = get3 im m d f) /\
    (forall j d f s, nth_error ps j = Some (d, f) ->
       nth_error (level1_sources L (Some i) rf cm base ps (carry_of prev)) j = Some s ->
       forall m, m <= N.of_nat k ->
       let ch := chain (gen_image L (Some i) rf) (custom_at L (Some i) rf cm f d)
                       (base d f) s (N.to_nat m) in
       get3 im' m d f = Some (fst ch) /\
       full_img (width (Some i) m) (height (Some i) m) (fst ch)).
Proof.
  induction ps as [|[d0 f0] ps IH]; intros im prev P CO Hk ND HB HP.
  { exists im, prev; split; [reflexivity|]; split; [reflexivity|]; split; [auto|].
    intros [|j] d f s H; discriminate. }
  inversion ND as [|? ? NI ND']; subst.
  destruct (HB d0 f0 (or_introl eq_refl)) as (B0 & BF & BX).
  assert (FACE : forall k', (k' <= k)%nat -> _) by
    (intros k' Hk'; refine (gm_face OK i rf cm f0 d0 im prev (base d0 f0) k' P CO _ B0 BF
       (fun V => proj2 (HP V)) _); [lia | intros m Hm; apply BX; lia]).
  cbv zeta in FACE.
  set (src := if isValid prev then prev else base d0 f0) in *.
  destruct (FACE k ltac:(lia)) as (im1 & prev1 & E1 & S1 & G1 & P1 & V1 & F1 & F1').
  assert (SRC : (match carry_of prev with Some x => x | None => base d0 f0 end) = src)
    by (unfold carry_of, src; destruct (isValid prev); reflexivity).
  assert (CARRY : carry_of prev1 =
    (if (1 <=? mipLevelCount (Some i) - 1) && once_at cm f0 (mipLevelCount (Some i) - 1) d0
     then Some (snd (chain (gen_image L (Some i) rf) (custom_at L (Some i) rf cm f0 d0)
                  (base d0 f0) src (N.to_nat (mipLevelCount (Some i) - 1)))) else None)).
  { cbn [mipLevelCount]; replace (t_mips i - 1) with (N.of_nat k) by lia.
    rewrite Nnat.Nat2N.id.
    destruct k as [|k'].
    - cbn [andb]. replace (1 <=? N.of_nat 0) with false by reflexivity; cbn [andb].
      rewrite P1; unfold carry_of; destruct (isValid prev) eqn:V; [|reflexivity].
      exfalso; apply (proj1 (HP eq_refl)); reflexivity.
    - replace (1 <=? N.of_nat (S k')) with true by lia; cbn [andb].
      rewrite P1; unfold carry_of.
      destruct (once_at cm f0 (N.of_nat (S k')) d0); [|reflexivity].
      destruct F1' as (w & h & F1'); rewrite (full_valid _ _ _ F1'); reflexivity. }
  destruct (IH im1 prev1) as (im2 & prev2 & E2 & S2 & U2 & G2); auto.
  { intros d f Hin.
    assert (Hne : (d =? d0) && (f =? f0) = false).
    { destruct ((d =? d0) && (f =? f0)) eqn:E; auto.
      assert (d = d0) by lia; assert (f = f0) by lia; subst; contradiction. }
    destruct (HB d f (or_intror Hin)) as (B1 & B2 & B3).
    split; [|split; [exact B2|]].
    - rewrite G1, Hne; exact B1.
    - intros m Hm; rewrite G1, Hne; cbn [andb]; auto. }
  { intros V; split.
    - intros ->; rewrite P1 in V; apply (proj1 (HP V)); reflexivity.
    - rewrite V in V1; rewrite V1; exact F1'. }
  exists im2, prev2; cbn [flat_map fst snd]; rewrite gm_loop_app, E1; cbn [obind].
  split; [exact E2|]; split; [congruence|]; split.
  - intros m d f H; rewrite U2 by (destruct H as [|[H|H]]; auto; right; left; simpl in H; tauto).
    rewrite G1.
    destruct ((d =? d0) && (f =? f0) && (0 <? m) && (m <=? N.of_nat k)) eqn:E; auto.
    destruct H as [->|[H|H]]; try lia.
    exfalso; apply H; left; f_equal; lia.
  - intros [|j] d f s Hj Hs m Hm; cbn [nth_error] in Hj.
    + injection Hj as <- <-; cbn [level1_sources nth_error] in Hs; injection Hs as <-.
      rewrite SRC.
      rewrite U2 by auto; rewrite G1, !N.eqb_refl; cbn [andb].
      destruct (FACE (N.to_nat m) ltac:(lia)) as (_ & _ & _ & _ & _ & _ & _ & F2 & _).
      rewrite Nnat.N2Nat.id in F2; cbv zeta; split; [|exact F2].
      destruct (N.ltb_spec 0 m); cbn [andb].
      * destruct (N.leb_spec m (N.of_nat k)); [reflexivity|lia].
      * assert (m = 0) as -> by lia; exact B0.
    + cbn [level1_sources nth_error] in Hs; cbv zeta in Hs; rewrite SRC in Hs.
      rewrite <- CARRY in Hs.
      apply (G2 j d f s Hj Hs m Hm).
Qed.

Lemma flat_map_flat_map {A B D} (g : A -> list B) (f : B -> list D) l :
  flat_map f (flat_map g l) = flat_map (fun a => flat_map f (g a)) l.
Proof.
  induction l as [|a l IH]; simpl; auto.
  rewrite flat_map_app, IH; reflexivity.
Qed.

Lemma NoDup_app_intro {A} (a b : list A) :
  NoDup a -> NoDup b -> (forall x, In x a -> In x b -> False) -> NoDup (a ++ b).
Proof.
  induction a as [|x a IH]; simpl; intros Ha Hb D; auto.
  inversion Ha; subst; constructor.
  - rewrite in_app_iff; intros [|]; [contradiction|eauto].
  - apply IH; eauto.
Qed.

Lemma gm_jobs_order dep faces mips :
  gm_jobs dep faces mips =
  flat_map (fun p => map (fun m => (fst p, snd p, m + 1)) (Nrange (mips - 1)))
           (visit_order dep faces).
Proof.
  unfold gm_jobs, visit_order; rewrite flat_map_flat_map.
  apply flat_map_ext; intros d; rewrite flat_map_map; reflexivity.
Qed.

Lemma in_visit_order dep faces d f : In (d, f) (visit_order dep faces) <-> d < dep /\ f < faces.
Proof.
  unfold visit_order; rewrite in_flat_map; split.
  - intros (d' & H1 & H2); apply in_map_iff in H2 as (f' & [= -> ->] & H2).
    rewrite in_Nrange in *; auto.
  - intros [H1 H2]; exists d; rewrite in_Nrange; split; auto.
    apply in_map_iff; exists f; rewrite in_Nrange; auto.
Qed.

Lemma NoDup_visit_order dep faces : NoDup (visit_order dep faces).
Proof.
  unfold visit_order.
  assert (G : forall l : list N, NoDup l ->
    NoDup (flat_map (fun d => map (fun f => (d, f)) (Nrange faces)) l)).
  { induction l as [|d l IH]; intros H; simpl; [constructor|].
    inversion H; subst; apply NoDup_app_intro.
    - apply FinFun.Injective_map_NoDup; [intros a b [= ->]; auto|apply NoDup_Nrange].
    - auto.
    - intros [d' f'] H1 H4; apply in_map_iff in H1 as (? & [= <- <-] & _).
      apply in_flat_map in H4 as (d'' & H5 & H6); apply in_map_iff in H6 as (? & [= <- <-] & _).
      contradiction. }
  apply G, NoDup_Nrange.
Qed.

Lemma vresize_length {A} (a : A) n l : length (vresize a n l) = N.to_nat n.
Proof.
  unfold vresize; rewrite app_length, firstn_length, repeat_length; lia.
Qed.

Lemma vresize_nth0 {A} (a x : A) n l : 0 < n -> nthN l 0 = Some x -> nthN (vresize a n l) 0 = Some x.
Proof.
  intros Hn; destruct l as [|y l]; [discriminate|].
  unfold vresize, nthN; destruct (N.to_nat n) eqn:E; [lia|]; simpl; auto.
Qed.

Lemma in_map_length_vresize {A} (a : A) faces (l : list (list A)) n :
  In n (map (@length A) (map (vresize a faces) l)) -> N.of_nat n = faces.
Proof.
  rewrite map_map; intros H; apply in_map_iff in H as (x & <- & _).
  rewrite vresize_length; lia.
Qed.

Definition with_levels (i : impl) (mips : N) (im : list (list (list image))) : impl :=
  Impl (t_dim i) (t_cs i) (t_width i) (t_height i) (t_depth i) mips (t_faces i) im
       (t_format i) (t_type i) (t_alpha i) (t_mask i) (t_textures i).

Lemma wf_width0 i : wf i -> width (Some i) 0 = t_width i.
Proof.
  intros W; pose proof (wf_mips _ W); pose proof (wf_w _ W); unfold width.
  destruct (N.leb_spec (t_mips i) 0); [lia|]; rewrite N.shiftr_0_r; lia.
Qed.
Lemma wf_height0 i : wf i -> height (Some i) 0 = t_height i.
Proof.
  intros W; pose proof (wf_mips _ W); pose proof (wf_h _ W); unfold height.
  destruct (N.leb_spec (t_mips i) 0); [lia|]; rewrite N.shiftr_0_r; lia.
Qed.
Lemma wf_depth0 i : wf i -> depth (Some i) 0 = N.max (t_depth i) 1.
Proof.
  intros W; pose proof (wf_mips _ W); unfold depth.
  destruct (N.leb_spec (t_mips i) 0); [lia|]; rewrite N.shiftr_0_r; destruct (t_dim i); lia.
Qed.

Lemma clamped_levels_eq i l : wf i -> clamped_levels (Some i) l =
  N.min (N.max l 1) (maxMipmapLevels (t_dim i) (t_width i) (t_height i) (t_depth i)).
Proof.
  intros W; unfold clamped_levels; rewrite wf_width0, wf_height0, wf_depth0 by assumption.
  simpl; pose proof (wf_d _ W) as [_ D].
  unfold maxMipmapLevels; destruct (t_dim i) eqn:E; auto.
  rewrite (N.max_l (t_depth i)) by (specialize (D eq_refl); lia); reflexivity.
Qed.

Lemma clamped_levels_bounds i l : wf i ->
  1 <= clamped_levels (Some i) l
    <= maxMipmapLevels (t_dim i) (t_width i) (t_height i) (t_depth i).
Proof.
  intros W; rewrite clamped_levels_eq by assumption.
  pose proof (maxMip_bounds (t_dim i) (t_width i) (t_height i) (t_depth i)
    (proj1 (wf_w _ W)) (proj1 (wf_h _ W)) (proj2 (wf_d _ W))
    (proj2 (wf_w _ W)) (proj2 (wf_h _ W)) (proj1 (wf_d _ W))); lia.
Qed.

(** Rebuilding a well-formed texture with other levels. *)
Lemma wf_with_levels i mips im : wf i ->
  1 <= mips <= maxMipmapLevels (t_dim i) (t_width i) (t_height i) (t_depth i) ->
  (t_textures i = [] \/ mips <= t_mips i) ->
  N.of_nat (length im) = mips ->
  (forall m sl, nthN (shape im) m = Some sl ->
    N.of_nat (length sl) = depth (Some (with_levels i mips im)) m /\
    (forall n, In n sl -> N.of_nat n = t_faces i)) ->
  (forall m d f x, get3 im m d f = Some x ->
    good_img (width (Some (with_levels i mips im)) m) (height (Some (with_levels i mips im)) m) x) ->
  wf (with_levels i mips im).
Proof.
  intros W HM HT HL HS HG; constructor; try apply W; auto.
  - simpl in *; intros m sl H; specialize (HS _ _ H); cbv zeta in *; split; [lia|]; tauto.
  - destruct HT as [HT|HT]; [left; exact HT|].
    destruct (wf_tex _ W) as [T|[TL TS]]; [left; exact T|right].
    simpl; split; [lia|].
    intros m sl Hm H; specialize (TS m sl ltac:(lia) H); simpl in TS.
    destruct (N.leb_spec (t_mips i) m); [lia|].
    destruct (N.leb_spec mips m); [lia|]; exact TS.
Qed.

(** The guards at the top of generateMipmaps. *)
Definition base_ok (i : impl) : Prop :=
  forall f d, in_range (Some i) f 0 d -> exists x, get3 (t_images i) 0 d f = Some x /\ isValid x = true.

Lemma base_ok_iff i : wf i -> forall base, nthN (t_images i) 0 = Some base ->
  (forallb (forallb isValid) base = true <-> base_ok i).
Proof.
  intros W base HB.
  assert (S0 : nthN (shape (t_images i)) 0 = Some (map (@length _) base))
    by (unfold shape; rewrite nthN_map, HB; reflexivity).
  destruct (wf_shape _ W _ _ S0) as (_ & HL & HF); rewrite map_length in HL.
  specialize (HL (or_introl eq_refl)).
  pose proof (wf_mips _ W) as HM.
  split; intros H.
  - intros f d R; destruct (wf_get3 _ W _ _ _ R) as [x Hx]; exists x; split; auto.
    unfold get3 in Hx; rewrite HB in Hx; simpl in Hx.
    destruct (nthN base d) as [fl|] eqn:E; [|discriminate].
    rewrite forallb_forall in H; specialize (H fl (nthN_In _ _ _ E)).
    rewrite forallb_forall in H; apply H; eapply nthN_In; exact Hx.
  - apply forallb_forall; intros fl Hfl; apply forallb_forall; intros x Hx.
    destruct (In_nthN _ _ Hfl) as [d Hd]; destruct (In_nthN _ _ Hx) as [f Hf].
    destruct (H f d) as (y & Hy & V).
    + split; [simpl; lia|]; split.
      * apply nthN_lt in Hd; lia.
      * simpl; rewrite <- (HF (length fl)) by (apply in_map; exact Hfl).
        apply (nthN_lt _ _ _ Hf).
    + unfold get3 in Hy; rewrite HB in Hy; simpl in Hy; rewrite Hd in Hy; simpl in Hy.
      congruence.
Qed.

Lemma wf_base i : wf i -> exists base, nthN (t_images i) 0 = Some base.
Proof.
  intros W; apply nthN_some; rewrite (wf_len _ W); pose proof (wf_mips _ W); lia.
Qed.

Lemma base_full i : wf i -> base_ok i -> forall f d, in_range (Some i) f 0 d ->
  exists x, get3 (t_images i) 0 d f = Some x /\ full_img (t_width i) (t_height i) x.
Proof.
  intros W B f d R; destruct (B f d R) as (x & H1 & H2); exists x; split; auto.
  pose proof (wf_good _ W _ _ _ _ H1) as G; rewrite wf_width0, wf_height0 in G by assumption.
  apply good_valid_full; auto.
Qed.

Lemma level0_get3 i f d : wf i -> in_range (Some i) f 0 d ->
  get3 (t_images i) 0 d f = Some (level0 (Some i) d f).
Proof.
  intros W R; unfold level0; destruct (getImageF_in (Some i) f 0 d W R) as (i' & [= <-] & ->).
  destruct (wf_get3 _ W _ _ _ R) as [x ->]; reflexivity.
Qed.

Lemma storage_spec dep faces mips (im : list (list (list image))) base : 0 < mips ->
  nthN im 0 = Some base -> N.of_nat (length base) = dep ->
  (forall fl, In fl base -> N.of_nat (length fl) = faces) ->
  let st := gm_storage dep faces (vresize [] mips im) in
  nthN st 0 = Some base /\ N.of_nat (length st) = mips /\
  (forall m sl, nthN (shape st) m = Some sl ->
     N.of_nat (length sl) = dep /\ (forall n, In n sl -> N.of_nat n = faces)).
Proof.
  intros Hm HB HL HF st.
  pose proof (vresize_nth0 [] base mips im Hm HB) as H0.
  pose proof (vresize_length [] mips im) as HLen.
  subst st; destruct (vresize [] mips im) as [|b0 r]; [discriminate|].
  injection H0 as ->; cbn [gm_storage].
  split; [reflexivity|]; split; [simpl in *; rewrite map_length; lia|].
  intros m sl H; unfold shape in H; rewrite nthN_map in H.
  destruct (N.eqb_spec m 0) as [->|Hm0].
  - cbn in H; injection H as <-; rewrite map_length; split; auto.
    intros n Hn; apply in_map_iff in Hn as (fl & <- & Hfl); auto.
  - unfold nthN in H; destruct (N.to_nat m) as [|m'] eqn:E; [lia|]; cbn [nth_error] in H.
    rewrite nth_error_map in H; destruct (nth_error r m') as [dl|]; [|discriminate].
    simpl in H; injection H as <-; rewrite !map_length, vresize_length; split; [lia|].
    intros n Hn; eapply in_map_length_vresize; exact Hn.
Qed.

Lemma level1_sources_levels i mips im im' rf cm b ps c :
  level1_sources L (Some (with_levels i mips im)) rf cm b ps c
  = level1_sources L (Some (with_levels i mips im')) rf cm b ps c.
Proof.
  revert c; induction ps as [|[d f] ps IH]; intros c; [reflexivity|].
  cbn [level1_sources]; f_equal; rewrite IH; reflexivity.
Qed.

Lemma all_valid_get3 (im : list (list (list image))) :
  (forall m d f x, get3 im m d f = Some x -> isValid x = true) ->
  forallb (forallb (forallb isValid)) im = true.
Proof.
  intros H; apply forallb_forall; intros l1 H1; apply forallb_forall; intros l2 H2.
  apply forallb_forall; intros x H3.
  destruct (In_nthN _ _ H1) as [m Hm]; destruct (In_nthN _ _ H2) as [d Hd];
    destruct (In_nthN _ _ H3) as [f Hf].
  apply (H m d f); unfold get3; rewrite Hm; simpl; rewrite Hd; exact Hf.
Qed.

(** generateMipmaps on 1D, 2D and cube textures. *)
Lemma gm2d (OK : lib_ok L) i rf l cm : wf i -> t_dim i <> Dim3D -> base_ok i ->
  forallb (fun kv => isValid (fst (snd kv))) cm = true -> customs_ok rf cm ->
  exists im, let mips := clamped_levels (Some i) l in
    let t' := Some (with_levels i mips im) in
    generateMipmaps L (Some i) rf l cm = Some (true, t') /\
    imagesComplete t' = true /\
    ((t_textures i = [] \/ mips <= t_mips i) -> wf (with_levels i mips im)) /\
    (forall d f, d < N.max (t_depth i) 1 -> f < t_faces i ->
       get3 im 0 d f = get3 (t_images i) 0 d f) /\
    (forall j d f s, nth_error (visit_order (N.max (t_depth i) 1) (t_faces i)) j = Some (d, f) ->
       nth_error (level1_sources L t' rf cm (level0 (Some i))
         (visit_order (N.max (t_depth i) 1) (t_faces i)) None) j = Some s ->
       forall m, m < mips ->
       let ch := chain (gen_image L t' rf) (custom_at L t' rf cm f d) (level0 (Some i) d f) s
                       (N.to_nat m) in
       get3 im m d f = Some (fst ch) /\ full_img (width t' m) (height t' m) (fst ch)).
Proof.
  intros W ND BO CV CO.
  destruct (wf_base _ W) as [base HB].
  pose proof (proj2 (base_ok_iff _ W base HB) BO) as BV.
  pose proof (clamped_levels_bounds i l W) as HM.
  set (mips := clamped_levels (Some i) l) in *.
  set (dep := N.max (t_depth i) 1) in *.
  assert (Dep : forall im m, m < mips -> depth (Some (with_levels i mips im)) m = dep).
  { intros im m Hm; simpl; destruct (N.leb_spec mips m); [lia|]; destruct (t_dim i); try reflexivity; congruence. }
  assert (Dep0 : depth (Some i) 0 = dep) by (apply wf_depth0; exact W).
  assert (S0 : nthN (shape (t_images i)) 0 = Some (map (@length _) base))
    by (unfold shape; rewrite nthN_map, HB; reflexivity).
  destruct (wf_shape _ W _ _ S0) as (_ & HL & HF); rewrite map_length in HL.
  specialize (HL (or_introl eq_refl)); rewrite Dep0 in HL.
  destruct (storage_spec dep (t_faces i) mips (t_images i) base) as (St0 & StL & StS); auto; [lia| |].
  { intros fl Hfl; apply HF, in_map, Hfl. }
  set (st := gm_storage dep (t_faces i) (vresize [] mips (t_images i))) in *.
  set (i1 := with_levels i mips (vresize [] mips (t_images i))).
  assert (R0 : forall d f, d < dep -> f < t_faces i -> in_range (Some i) f 0 d).
  { intros d f Hd Hf; split; [simpl; pose proof (wf_mips _ W); lia|]; split; [lia|exact Hf]. }
  assert (X : forall m d f, m < mips -> d < dep -> f < t_faces i -> exists x, get3 st m d f = Some x).
  { intros m d f Hm Hd Hf.
    destruct (nthN_some st m) as [l1 E1]; [lia|].
    assert (S1 : nthN (shape st) m = Some (map (@length _) l1))
      by (unfold shape; rewrite nthN_map, E1; reflexivity).
    destruct (StS _ _ S1) as [Q1 Q2]; rewrite map_length in Q1.
    destruct (nthN_some l1 d) as [l2 E2]; [lia|].
    destruct (nthN_some l2 f) as [x E3];
      [rewrite (Q2 (length l2)) by (apply in_map; eapply nthN_In; exact E2); exact Hf|].
    exists x; unfold get3; rewrite E1; simpl; rewrite E2; exact E3. }
  assert (B0 : forall d f, get3 st 0 d f = get3 (t_images i) 0 d f)
    by (intros; unfold get3; rewrite St0, HB; reflexivity).
  assert (WH : forall im, width (Some (with_levels i mips im)) 0 = t_width i /\
                          height (Some (with_levels i mips im)) 0 = t_height i).
  { intros im; pose proof (wf_w _ W); pose proof (wf_h _ W); unfold width, height;
    cbn [t_mips t_width t_height with_levels].
    destruct (N.leb_spec mips 0); [lia|]; rewrite !N.shiftr_0_r; lia. }
  destruct (gm_faces OK i1 rf cm (level0 (Some i)) (N.to_nat (mips - 1))
              (visit_order dep (t_faces i)) st NoImage) as (im & prev & E & Sh & U & G).
  - intros m Hm; simpl in Hm; split; [apply width_pos|apply height_pos]; exact Hm.
  - exact CO.
  - simpl; lia.
  - apply NoDup_visit_order.
  - intros d f Hin; apply in_visit_order in Hin as [Hd Hf].
    rewrite B0; destruct (base_full _ W BO f d (R0 d f Hd Hf)) as (x & Hx & Fx).
    pose proof (level0_get3 i f d W (R0 d f Hd Hf)) as H0.
    split; [exact H0|]; split.
    + unfold i1; rewrite (proj1 (WH _)), (proj2 (WH _)); congruence.
    + intros m Hm; apply X; auto; lia.
  - intros H; discriminate.
  - exists im; cbv zeta.
    assert (GE : generateMipmaps L (Some i) rf l cm = Some (true, Some (with_levels i mips im))).
    { unfold generateMipmaps; rewrite HB; cbn [obind]; rewrite BV, CV; cbn [negb].
      fold (clamped_levels (Some i) l); fold mips; fold dep.
      change (Impl (t_dim i) (t_cs i) (t_width i) (t_height i) (t_depth i) mips (t_faces i)
        (vresize [] mips (t_images i)) (t_format i) (t_type i) (t_alpha i) (t_mask i)
        (t_textures i)) with i1.
      change (t_images i1) with (vresize [] mips (t_images i)); fold st.
      rewrite gm_jobs_order; replace (Nrange (mips - 1)) with (Nrange (N.of_nat (N.to_nat (mips - 1))))
        by (f_equal; lia).
      rewrite E; cbn [obind fst].
      destruct (t_dim i) eqn:ED; try congruence; unfold i1, with_images, with_levels; cbn;
        rewrite ED; reflexivity. }
    assert (GG : forall j d f s,
       nth_error (visit_order dep (t_faces i)) j = Some (d, f) ->
       nth_error (level1_sources L (Some (with_levels i mips im)) rf cm (level0 (Some i))
         (visit_order dep (t_faces i)) None) j = Some s ->
       forall m, m < mips ->
       let ch := chain (gen_image L (Some (with_levels i mips im)) rf)
          (custom_at L (Some (with_levels i mips im)) rf cm f d) (level0 (Some i) d f) s (N.to_nat m) in
       get3 im m d f = Some (fst ch) /\
       full_img (width (Some (with_levels i mips im)) m) (height (Some (with_levels i mips im)) m) (fst ch)).
    { intros j d f s H1 H2 m Hm.
      rewrite (level1_sources_levels i mips im (vresize [] mips (t_images i))) in H2.
      apply (G j d f s H1 H2 m); lia. }
    assert (ALL : forall m d f x, get3 im m d f = Some x ->
      full_img (width (Some (with_levels i mips im)) m) (height (Some (with_levels i mips im)) m) x).
    { intros m d f x H.
      assert (RR : m < mips /\ d < dep /\ f < t_faces i).
      { destruct (shape_get3 _ st m d f x Sh H) as [y Hy]; unfold get3 in Hy.
        destruct (nthN st m) as [l1|] eqn:E1; simpl in Hy; [|discriminate].
        destruct (nthN l1 d) as [l2|] eqn:E2; simpl in Hy; [|discriminate].
        assert (S1 : nthN (shape st) m = Some (map (@length _) l1))
          by (unfold shape; rewrite nthN_map, E1; reflexivity).
        destruct (StS _ _ S1) as [Q1 Q2]; rewrite map_length in Q1.
        apply nthN_lt in E1 as L1; apply nthN_lt in E2 as L2; apply nthN_lt in Hy.
        rewrite (Q2 (length l2)) in Hy by (apply in_map; eapply nthN_In; exact E2); lia. }
      destruct RR as (Rm & Rd & Rf).
      assert (IN : In (d, f) (visit_order dep (t_faces i))) by (apply in_visit_order; auto).
      apply In_nth_error in IN as [j Hj].
      assert (LS : forall ps c, length (level1_sources L (Some (with_levels i mips im)) rf cm
                     (level0 (Some i)) ps c) = length ps).
      { induction ps as [|[a b] ps IH]; intros c; simpl; auto. }
      destruct (nth_error (level1_sources L (Some (with_levels i mips im)) rf cm
                     (level0 (Some i)) (visit_order dep (t_faces i)) None) j) as [s|] eqn:Es.
      2: { apply nth_error_None in Es; rewrite LS in Es.
           assert (nth_error (visit_order dep (t_faces i)) j <> None) as Q by congruence.
           apply nth_error_Some in Q; lia. }
      destruct (GG j d f s Hj Es m Rm) as [Q1 Q2].
      rewrite Q1 in H; injection H as <-; exact Q2. }
    split; [exact GE|]; split; [|split; [|split; [|exact GG]]].
    + simpl; apply all_valid_get3; intros m d f x H; eapply full_valid; apply (ALL _ _ _ _ H).
    + intros HT; apply wf_with_levels; auto.
      * assert (length (shape im) = length (shape st)) as HSL by (rewrite Sh; auto).
        unfold shape in HSL; rewrite !map_length in HSL; lia.
      * intros m sl H; rewrite Sh in H; destruct (StS _ _ H) as [Q1 Q2]; split; auto.
        rewrite Dep; auto. apply nthN_lt in H; unfold shape in H; rewrite map_length in H; lia.
      * intros m d f x H; apply full_good; apply (ALL _ _ _ _ H).
    + intros d f Hd Hf; rewrite U by auto; apply B0.
Qed.

(** ** Volumes *)

Definition cons_at (cm : customs C) (m dep : N) : Prop :=
  (forall d, d < dep -> cfind cm 0 m d = None) \/
  (exists r, forall d, d < dep -> exists i, cfind cm 0 m d = Some (i, r)).

Lemma cm3_check_none (cm : customs C) m ds r : ~ In 0 ds ->
  cm3_check cm m ds (false, r) =
  if forallb (fun d => match cfind cm 0 m d with None => true | _ => false end) ds
  then Some (false, r) else None.
Proof.
  induction ds as [|d ds IH]; simpl; intros H; auto.
  destruct (cfind cm 0 m d) as [[ci r']|]; simpl.
  - destruct (N.eqb_spec d 0); [exfalso; apply H; auto|reflexivity].
  - apply IH; tauto.
Qed.

Lemma cm3_check_some (cm : customs C) m ds r : ~ In 0 ds ->
  cm3_check cm m ds (true, r) =
  if forallb (fun d => match cfind cm 0 m d with Some (_, r') => repl_eqb r r' | _ => false end) ds
  then Some (true, r) else None.
Proof.
  induction ds as [|d ds IH]; simpl; intros H; auto.
  destruct (cfind cm 0 m d) as [[ci r']|]; simpl; auto.
  destruct (N.eqb_spec d 0); [exfalso; apply H; auto|].
  destruct (repl_eqb r r'); simpl; [apply IH; tauto|reflexivity].
Qed.

Lemma repl_eqb_eq a b : repl_eqb a b = true <-> a = b.
Proof. destruct a, b; simpl; split; congruence. Qed.

Lemma Nrange_cons d : 0 < d -> exists tl, Nrange d = 0 :: tl /\ ~ In 0 tl /\
  (forall k, In k tl <-> 0 < k < d).
Proof.
  intros H; exists (map (fun i => 1 + i) (Nrange (d - 1))); split.
  { transitivity (Nrange (1 + (d - 1))); [f_equal; lia|]; rewrite Nrange_app; reflexivity. }
  assert (Q : forall k, In k (map (fun i => 1 + i) (Nrange (d - 1))) <-> 0 < k < d).
  { intros k; rewrite in_map_iff; split.
    - intros (x & <- & Hx); apply in_Nrange in Hx; lia.
    - intros Hk; exists (k - 1); rewrite in_Nrange; lia. }
  split; [|exact Q]. rewrite Q; lia.
Qed.

Lemma cm3_check_spec (cm : customs C) m dep : 0 < dep ->
  match cm3_check cm m (Nrange dep) (false, Once) with
  | None => ~ cons_at cm m dep
  | Some (false, _) => forall d, d < dep -> cfind cm 0 m d = None
  | Some (true, r) => forall d, d < dep -> exists i, cfind cm 0 m d = Some (i, r)
  end.
Proof.
  intros H; destruct (Nrange_cons dep H) as (tl & -> & N0 & Q); cbn [cm3_check].
  destruct (cfind cm 0 m 0) as [[c0 r0]|] eqn:E0; simpl.
  - rewrite cm3_check_some by assumption.
    destruct (forallb _ tl) eqn:F.
    + rewrite forallb_forall in F; intros d Hd; destruct (N.eqb_spec d 0) as [->|]; [eauto|].
      specialize (F d (proj2 (Q d) ltac:(lia))).
      destruct (cfind cm 0 m d) as [[ci r']|]; [|discriminate].
      apply repl_eqb_eq in F as ->; eauto.
    + intros [Hn|[r Hr]].
      * rewrite Hn in E0 by assumption; discriminate.
      * destruct (Hr 0 H) as [x Hx]; rewrite E0 in Hx; injection Hx as <- <-.
        rewrite <- not_true_iff_false in F; apply F, forallb_forall; intros d Hd.
        apply Q in Hd; destruct (Hr d ltac:(lia)) as [y ->]; apply repl_eqb_eq; reflexivity.
  - rewrite cm3_check_none by assumption.
    destruct (forallb _ tl) eqn:F.
    + rewrite forallb_forall in F; intros d Hd; destruct (N.eqb_spec d 0) as [->|]; [auto|].
      specialize (F d (proj2 (Q d) ltac:(lia))); destruct (cfind cm 0 m d); [discriminate|auto].
    + intros [Hn|[r Hr]].
      * rewrite <- not_true_iff_false in F; apply F, forallb_forall; intros d Hd.
        apply Q in Hd; rewrite Hn by lia; reflexivity.
      * destruct (Hr 0 H) as [x Hx]; congruence.
Qed.

Lemma omap_map {A B D} (g : A -> B) (f : B -> option D) l : omap f (map g l) = omap (fun a => f (g a)) l.
Proof. induction l as [|a l IH]; simpl; auto; destruct (f (g a)); simpl; auto; rewrite IH; auto. Qed.

Lemma generateMips3d_ok (OK : lib_ok L) w h d cs rf imgs : imgs <> [] ->
  Forall (full_img w h) imgs ->
  exists out, generateMips3d L imgs w h d cs rf = Some out /\ N.of_nat (length out) = d /\
              Forall (full_img w h) out.
Proof.
  intros NE F; unfold generateMips3d.
  assert (E : exists cts, omap (slice_content w h) imgs = Some cts /\ length cts = length imgs).
  { clear NE; induction F as [|x l (cs' & c & ->) F IH]; simpl; [eauto|].
    rewrite !N.eqb_refl; simpl; destruct IH as (cts & -> & Hl); simpl; eexists; split; [reflexivity|].
    simpl; lia. }
  destruct E as (cts & -> & Hl); cbn [obind].
  destruct (ok_mips3d _ OK w h d cs rf cts) as (out & -> & HL).
  { destruct cts, imgs; simpl in Hl; congruence. }
  cbn [obind]; rewrite HL, N.eqb_refl; eexists; split; [reflexivity|].
  rewrite map_length; split; auto.
  apply Forall_forall; intros x Hx; apply in_map_iff in Hx as (c & <- & _); do 2 eexists; reflexivity.
Qed.

Definition sing (x : image) : list image := [x].

Definition chain3 (t : texture) rf cm base (k : nat) :=
  chain (gen_slices L t rf) (custom_slices L t rf cm) base base k.

(** What the 3D loop knows after finishing level [k]. *)
Definition inv3 (i : impl) rf cm base (k : nat) (im : list (list (list image))) : Prop :=
  N.of_nat (length im) = t_mips i /\
  forall m, m <= N.of_nat k ->
    nthN im m = Some (map sing (fst (chain3 (Some i) rf cm base (N.to_nat m)))) /\
    N.of_nat (length (fst (chain3 (Some i) rf cm base (N.to_nat m)))) = depth (Some i) m /\
    Forall (full_img (width (Some i) m) (height (Some i) m))
           (fst (chain3 (Some i) rf cm base (N.to_nat m))).

Lemma gm3_loop_spec (OK : lib_ok L) i rf cm base : customs_ok rf cm -> base <> [] ->
  forall n k im (input : list image), N.of_nat k + N.of_nat n + 1 = t_mips i ->
  inv3 i rf cm base k im ->
  (n <> 0%nat ->
     (if input then fst (chain3 (Some i) rf cm base k) else input)
       = snd (chain3 (Some i) rf cm base k) /\
     snd (chain3 (Some i) rf cm base k) <> [] /\
     Forall (fun x => exists w h, full_img w h x) (snd (chain3 (Some i) rf cm base k))) ->
  (exists im', gm3_loop L i rf cm (t_mips i) (map (fun x => N.of_nat k + 1 + x) (Nrange (N.of_nat n)))
                 im input = Some (L3_ok im') /\
     inv3 i rf cm base (k + n) im' /\
     (forall m, N.of_nat k < m -> m < t_mips i -> cons_at cm m (depth (Some i) m)))
  \/ (exists im', gm3_loop L i rf cm (t_mips i) (map (fun x => N.of_nat k + 1 + x) (Nrange (N.of_nat n)))
                 im input = Some (L3_fail im') /\
     ~ (forall m, N.of_nat k < m -> m < t_mips i -> cons_at cm m (depth (Some i) m))).
Proof.
  intros CO NB; induction n as [|n IH]; intros k im input HK HI HS.
  { left; exists im; split; [reflexivity|]; split; [rewrite Nat.add_0_r; exact HI|]; lia. }
  specialize (HS ltac:(discriminate)); destruct HS as (HSrc & HNE & HFull).
  replace (Nrange (N.of_nat (S n))) with (0 :: map (fun x => 1 + x) (Nrange (N.of_nat n))).
  2: { replace (N.of_nat (S n)) with (1 + N.of_nat n) by lia; rewrite Nrange_app; reflexivity. }
  rewrite map_cons, map_map, N.add_0_r.
  replace (map (fun x => N.of_nat k + 1 + (1 + x)) (Nrange (N.of_nat n)))
    with (map (fun x => N.of_nat (S k) + 1 + x) (Nrange (N.of_nat n)))
    by (apply map_ext; intros; lia).
  set (mm := N.of_nat k + 1) in *.
  assert (Hmm : mm < t_mips i) by lia.
  pose proof (width_pos i mm Hmm) as Pw; pose proof (height_pos i mm Hmm) as Ph;
    pose proof (depth_pos i mm Hmm) as Pd.
  cbn [gm3_loop]; unfold gm3_step.
  pose proof (cm3_check_spec cm mm (depth (Some i) mm) Pd) as CK.
  destruct (cm3_check cm mm (Nrange (depth (Some i) mm)) (false, Once)) as [[cust rp]|] eqn:ECK.
  2: { right; exists im; split; [reflexivity|]; intros Hc; apply CK, Hc; lia. }
  set (ch := chain3 (Some i) rf cm base) in *.
  set (w := width (Some i) mm) in *; set (h := height (Some i) mm) in *;
    set (dd := depth (Some i) mm) in *.
  (* generation from the source *)
  assert (GEN : exists out,
     generateMips3d L (map (gen_image L (Some i) rf mm) (snd (ch k))) w h dd (t_cs i) rf = Some out /\
     gen_slices L (Some i) rf mm (snd (ch k)) = out /\
     N.of_nat (length out) = dd /\ Forall (full_img w h) out).
  { destruct (generateMips3d_ok OK w h dd (t_cs i) rf (map (gen_image L (Some i) rf mm) (snd (ch k))))
      as (out & H1 & H2 & H3).
    - destruct (snd (ch k)); simpl; congruence.
    - apply Forall_forall; intros x Hx; apply in_map_iff in Hx as (y & <- & Hy).
      rewrite Forall_forall in HFull; destruct (HFull y Hy) as (w1 & h1 & Fy).
      unfold gen_image; eapply iresize_full; eauto.
    - exists out; split; [exact H1|]; split; [|auto].
      unfold gen_slices; fold w h dd; cbn [colorSpaceOf]; rewrite H1; reflexivity. }
  destruct GEN as (out & GE & GS & GL & GF).
  assert (INP : (match input with
     | [] => obind (nthN im (mm - 1)) (fun prev =>
          omap (fun fl => obind (nthN fl 0) (fun x => Some (iresize L x w h rf))) prev)
     | _ :: _ => Some (map (fun x => iresize L x w h rf) input)
     end) = Some (map (gen_image L (Some i) rf mm) (snd (ch k)))).
  { rewrite <- HSrc; destruct input as [|x0 inp]; [|reflexivity].
    replace (mm - 1) with (N.of_nat k) by lia.
    destruct HI as [_ HI]; destruct (HI (N.of_nat k) ltac:(lia)) as [-> _].
    rewrite Nnat.Nat2N.id; cbn [obind]; fold ch.
    rewrite omap_map; apply (omap_some _ (gen_image L (Some i) rf mm)).
    intros x Hx; reflexivity. }
  assert (Unf : ch (S k) = match custom_slices L (Some i) rf cm mm with
        | None => (gen_slices L (Some i) rf mm (snd (ch k)), gen_slices L (Some i) rf mm (snd (ch k)))
        | Some (c, Continue) => (c, c)
        | Some (c, Once) => (c, gen_slices L (Some i) rf mm (snd (ch k)))
        end).
  { unfold ch, chain3; cbn [chain].
    replace (N.of_nat (S k)) with mm by lia; reflexivity. }
  assert (CUS : cust = true -> exists lv,
     custom_slices L (Some i) rf cm mm = Some (lv, rp) /\
     omap (fun k0 => match cfind cm 0 mm k0 with
                     | Some (ci, _) => Some (custom_level L ci w h rf) | None => None end) (Nrange dd)
       = Some lv /\ N.of_nat (length lv) = dd /\ Forall (full_img w h) lv).
  { intros ->.
    exists (map (fun d => match cfind cm 0 mm d with
                          | Some (x, _) => fitted L (Some i) rf mm x | None => NoImage end) (Nrange dd)).
    split; [|split; [|split]].
    - unfold custom_slices; destruct (CK 0 Pd) as [x0 ->]; reflexivity.
    - apply omap_some; intros x Hx; apply in_Nrange in Hx.
      destruct (CK x Hx) as [c ->]; rewrite custom_level_fitted; reflexivity.
    - rewrite map_length, Nrange_length; lia.
    - apply Forall_forall; intros x Hx; apply in_map_iff in Hx as (d & <- & Hd).
      apply in_Nrange in Hd; destruct (CK d Hd) as [c Ec]; rewrite Ec.
      destruct (CO _ _ _ _ _ Ec); apply fitted_full; auto. }
  (* the level's content and the carried input *)
  assert (STEP : exists input', gm3_step L i rf cm (t_mips i) mm im input
      = obind (updN im mm (map sing (fst (ch (S k))))) (fun im' => Some (L3_ok im', input')) /\
      N.of_nat (length (fst (ch (S k)))) = dd /\ Forall (full_img w h) (fst (ch (S k))) /\
      (n <> 0%nat -> (if input' then fst (ch (S k)) else input') = snd (ch (S k)) /\
         snd (ch (S k)) <> [] /\
         Forall (fun x => exists w h, full_img w h x) (snd (ch (S k))))).
  { unfold gm3_step; fold w h dd; rewrite ECK, INP; cbn [obind]; rewrite GE.
    assert (NEout : out <> []) by (destruct out; [simpl in GL; lia|discriminate]).
    assert (FX : forall l, Forall (full_img w h) l -> Forall (fun x => exists w h, full_img w h x) l)
      by (intros l; apply Forall_impl; intros; eauto).
    destruct cust.
    - destruct (CUS eq_refl) as (lv & C1 & C2 & C3 & C4).
      assert (NElv : lv <> []) by (destruct lv; [simpl in C3; lia|discriminate]).
      rewrite C2, Unf, C1, GS.
      destruct rp; cbn [negb orb andb repl_eqb].
      + destruct (N.ltb_spec mm (t_mips i - 1)).
        * exists out; cbn [obind fst snd]; split; [reflexivity|]; repeat split; auto.
          destruct out; [congruence|reflexivity].
        * exists []; cbn [obind fst snd]; split; [reflexivity|]; repeat split; auto; lia.
      + exists []; cbn [obind fst snd]; split; [reflexivity|]; repeat split; auto.
    - assert (C1 : custom_slices L (Some i) rf cm mm = None).
      { unfold custom_slices; rewrite CK by exact Pd; reflexivity. }
      rewrite Unf, C1, GS; cbn [negb orb andb obind fst snd].
      exists []; split; [reflexivity|]; repeat split; auto. }
  destruct STEP as (input' & ST & LN & FL & NX).
  unfold gm3_step in ST; fold w h dd in ST; rewrite ECK in ST; rewrite ST.
  destruct HI as [HLen HI].
  destruct (nthN_some im mm) as [old Hold]; [lia|].
  destruct (updN_some im mm (map sing (fst (ch (S k)))) old Hold) as (im1 & U1 & UL & UN).
  rewrite U1; cbn [obind].
  assert (HI1 : inv3 i rf cm base (S k) im1).
  { split; [lia|]; intros m Hm; rewrite UN; fold ch.
    destruct (N.eqb_spec m mm) as [->|].
    - replace (N.to_nat mm) with (S k) by lia; auto.
    - apply HI; lia. }
  assert (CM : cons_at cm mm dd).
  { destruct cust; [right; exists rp; exact CK|left; exact CK]. }
  destruct (IH (S k) im1 input') as [(im' & E1 & E2 & E3)|(im' & E1 & E2)]; auto; [lia| |].
  - left; exists im'; split; [exact E1|]; split; [replace (k + S n)%nat with (S k + n)%nat by lia; exact E2|].
    intros m H1 H2; destruct (N.eqb_spec m mm) as [->|]; [exact CM|apply E3; lia].
  - right; exists im'; split; [exact E1|]; intros Hc; apply E2; intros m H1 H2; apply Hc; lia.
Qed.

Lemma slices_at_eq i mips im m : wf i -> m < mips ->
  slices_at (Some i) m = depth (Some (with_levels i mips im)) m.
Proof.
  intros W Hm; unfold slices_at; rewrite wf_depth0 by assumption.
  pose proof (wf_d _ W) as [_ D]; unfold depth; cbn [dimensionOf t_mips t_dim t_depth with_levels].
  destruct (N.leb_spec mips m); [lia|].
  destruct (t_dim i) eqn:E; try reflexivity.
  specialize (D eq_refl); rewrite halvings_shiftr, Nnat.N2Nat.id by lia.
  rewrite (N.max_l (t_depth i)) by lia; reflexivity.
Qed.

Lemma consistent3_iff i mips im cm : wf i ->
  consistent3 mips (slices_at (Some i)) cm <->
  (forall m, 0 < m -> m < mips -> cons_at cm m (depth (Some (with_levels i mips im)) m)).
Proof.
  intros W; unfold consistent3, cons_at; split; intros H m H1 H2.
  - rewrite <- (slices_at_eq i mips im m) by assumption; apply H; lia.
  - rewrite (slices_at_eq i mips im m) by assumption; apply H; lia.
Qed.

Lemma base_sing i base : wf i -> t_dim i = Dim3D -> nthN (t_images i) 0 = Some base ->
  base = map sing (slices0 (Some i)).
Proof.
  intros W D HB.
  assert (S0 : nthN (shape (t_images i)) 0 = Some (map (@length _) base))
    by (unfold shape; rewrite nthN_map, HB; reflexivity).
  destruct (wf_shape _ W _ _ S0) as (_ & HL & HF); rewrite map_length in HL.
  specialize (HL (or_introl eq_refl)).
  pose proof (wf_mips _ W) as HM.
  assert (Fc : t_faces i = 1) by (rewrite (wf_faces _ W), D; reflexivity).
  apply nthN_ext; intros d; unfold slices0; rewrite !nthN_map.
  destruct (N.ltb_spec d (depth (Some i) 0)).
  - rewrite nthN_Nrange by assumption.
    destruct (nthN_some base d) as [fl Hfl]; [lia|]; rewrite Hfl.
    assert (R : in_range (Some i) 0 0 d) by (split; [simpl; lia|split; [auto|simpl; lia]]).
    pose proof (level0_get3 i 0 d W R) as G; unfold get3 in G; rewrite HB in G; simpl in G.
    rewrite Hfl in G; simpl in G.
    assert (N.of_nat (length fl) = 1) by (rewrite <- Fc; apply HF, in_map; eapply nthN_In; eauto).
    destruct fl as [|x [|y fl]]; simpl in *; try lia.
    unfold nthN in G; simpl in G; unfold sing; congruence.
  - replace (nthN (Nrange (depth (Some i) 0)) d) with (@None N).
    2: { symmetry; unfold nthN; apply nth_error_None; rewrite Nrange_length; lia. }
    unfold nthN; apply nth_error_None; lia.
Qed.

Lemma gm3d (OK : lib_ok L) i rf l cm : wf i -> t_dim i = Dim3D -> base_ok i ->
  forallb (fun kv => isValid (fst (snd kv))) cm = true -> customs_ok rf cm ->
  let mips := clamped_levels (Some i) l in
  (consistent3 mips (slices_at (Some i)) cm /\
   exists im, let t' := Some (with_levels i mips im) in
     generateMipmaps L (Some i) rf l cm = Some (true, t') /\
     imagesComplete t' = true /\
     ((t_textures i = [] \/ mips <= t_mips i) -> wf (with_levels i mips im)) /\
     (forall m, m < mips ->
        nthN im m = Some (map sing (fst (chain3 t' rf cm (slices0 (Some i)) (N.to_nat m)))) /\
        N.of_nat (length (fst (chain3 t' rf cm (slices0 (Some i)) (N.to_nat m)))) = depth t' m /\
        Forall (full_img (width t' m) (height t' m))
               (fst (chain3 t' rf cm (slices0 (Some i)) (N.to_nat m)))))
  \/ (~ consistent3 mips (slices_at (Some i)) cm /\
      exists im, generateMipmaps L (Some i) rf l cm = Some (false, Some (with_levels i mips im))).
Proof.
  intros W D BO CV CO mips.
  destruct (wf_base _ W) as [base HB].
  pose proof (proj2 (base_ok_iff _ W base HB) BO) as BV.
  pose proof (clamped_levels_bounds i l W) as HM; fold mips in HM.
  pose proof (base_sing i base W D HB) as HS.
  set (im0 := vresize [] mips (t_images i)).
  set (i1 := with_levels i mips im0).
  assert (Dp0 : depth (Some i1) 0 = depth (Some i) 0).
  { rewrite (wf_depth0 i) by assumption; unfold depth, i1; cbn [t_mips t_dim t_depth with_levels].
    destruct (N.leb_spec mips 0); [lia|]; rewrite N.shiftr_0_r; destruct (t_dim i); lia. }
  assert (WH : width (Some i1) 0 = t_width i /\ height (Some i1) 0 = t_height i).
  { pose proof (wf_w _ W); pose proof (wf_h _ W); unfold width, height;
    cbn [i1 t_mips t_width t_height with_levels].
    destruct (N.leb_spec mips 0); [lia|]; rewrite !N.shiftr_0_r; lia. }
  assert (Pd0 : 0 < depth (Some i) 0) by (apply depth_pos; pose proof (wf_mips _ W); lia).
  assert (LS : N.of_nat (length (slices0 (Some i))) = depth (Some i) 0)
    by (unfold slices0; rewrite map_length, Nrange_length; lia).
  assert (NS : slices0 (Some i) <> []) by (intros E; rewrite E in LS; cbn [length] in LS; lia).
  assert (GE0 : forall r, gm3_loop L i1 rf cm mips (map (fun m => m + 1) (Nrange (mips - 1))) im0 [] = Some r ->
     generateMipmaps L (Some i) rf l cm =
     match r with L3_ok im => Some (true, Some (with_levels i mips im))
                | L3_fail im => Some (false, Some (with_levels i mips im)) end).
  { intros r Hr; unfold generateMipmaps; rewrite HB; cbn [obind]; rewrite BV, CV; cbn [negb].
    fold (clamped_levels (Some i) l); fold mips.
    change (Impl (t_dim i) (t_cs i) (t_width i) (t_height i) (t_depth i) mips (t_faces i)
        (vresize [] mips (t_images i)) (t_format i) (t_type i) (t_alpha i) (t_mask i)
        (t_textures i)) with i1.
    rewrite D; change (t_images i1) with im0; rewrite Hr.
    destruct r; unfold with_images, i1, with_levels; reflexivity. }
  destruct (gm3_loop_spec OK i1 rf cm (slices0 (Some i)) CO
     NS
     (N.to_nat (mips - 1)) 0 im0 []) as [(im & E1 & [E2 E2'] & E3)|(im & E1 & E2)].
  - simpl; lia.
  - split; [unfold im0; rewrite vresize_length; simpl; lia|].
    intros m Hm; assert (m = 0) as -> by lia.
    change (N.to_nat 0) with 0%nat; cbn [chain3 chain fst].
    split; [|split].
    + unfold im0; apply vresize_nth0; [lia|]; rewrite HB, HS; reflexivity.
    + rewrite Dp0; exact LS.
    + rewrite (proj1 WH), (proj2 WH).
      apply Forall_forall; intros x Hx; apply in_map_iff in Hx as (d & <- & Hd).
      apply in_Nrange in Hd.
      assert (R : in_range (Some i) 0 0 d).
      { split; [simpl; pose proof (wf_mips _ W); lia|]; split; [exact Hd|].
        simpl; rewrite (wf_faces _ W), D; lia. }
      destruct (base_full _ W BO 0 d R) as (x & Hx & Fx).
      rewrite (level0_get3 i 0 d W R) in Hx; congruence.
  - intros _; cbn [chain3 chain fst snd]; split; [reflexivity|]; split.
    + exact NS.
    + apply Forall_forall; intros x Hx; apply in_map_iff in Hx as (d & <- & Hd).
      apply in_Nrange in Hd.
      assert (R : in_range (Some i) 0 0 d).
      { split; [simpl; pose proof (wf_mips _ W); lia|]; split; [exact Hd|].
        simpl; rewrite (wf_faces _ W), D; lia. }
      destruct (base_full _ W BO 0 d R) as (x & Hx & Fx).
      rewrite (level0_get3 i 0 d W R) in Hx; injection Hx as ->; eauto.
  - left.
    assert (JOBS : map (fun x => N.of_nat 0 + 1 + x) (Nrange (N.of_nat (N.to_nat (mips - 1))))
                   = map (fun m => m + 1) (Nrange (mips - 1))).
    { rewrite Nnat.N2Nat.id; apply map_ext; intros; lia. }
    rewrite JOBS in E1; change (t_mips i1) with mips in E1.
    split; [apply (consistent3_iff i mips im0); auto; intros m H1 H2; apply E3; auto|].
    exists im; cbv zeta; rewrite (GE0 _ E1); split; [reflexivity|].
    assert (SP : forall m, m < mips ->
        nthN im m = Some (map sing (fst (chain3 (Some (with_levels i mips im)) rf cm (slices0 (Some i)) (N.to_nat m)))) /\
        N.of_nat (length (fst (chain3 (Some (with_levels i mips im)) rf cm (slices0 (Some i)) (N.to_nat m)))) = depth (Some (with_levels i mips im)) m /\
        Forall (full_img (width (Some (with_levels i mips im)) m) (height (Some (with_levels i mips im)) m))
               (fst (chain3 (Some (with_levels i mips im)) rf cm (slices0 (Some i)) (N.to_nat m)))).
    { intros m Hm; apply (E2' m); lia. }
    assert (ALL : forall m d f x, get3 im m d f = Some x ->
      full_img (width (Some (with_levels i mips im)) m) (height (Some (with_levels i mips im)) m) x).
    { intros m d f x H; unfold get3 in H.
      destruct (nthN im m) as [dl|] eqn:Em; simpl in H; [|discriminate].
      apply nthN_lt in Em as Lm; change (t_mips i1) with mips in E2.
      destruct (SP m ltac:(lia)) as (Q1 & _ & Q3).
      rewrite Em in Q1; injection Q1 as ->.
      rewrite nthN_map in H.
      destruct (nthN (fst (chain3 _ _ _ _ _)) d) as [y|] eqn:Ey; simpl in H; [|discriminate].
      apply nthN_In in Ey; rewrite Forall_forall in Q3.
      apply nthN_In in H; destruct H as [<-|[]]; auto. }
    split; [|split; [|exact SP]].
    { simpl; apply all_valid_get3; intros m d f x H; eapply full_valid; apply (ALL _ _ _ _ H). }
    intros HT; apply wf_with_levels; auto.
    + intros m sl H; unfold shape in H; rewrite nthN_map in H.
      destruct (nthN im m) as [dl|] eqn:Em; [|discriminate]; injection H as <-.
      apply nthN_lt in Em as Lm; change (t_mips i1) with mips in E2.
      destruct (SP m ltac:(lia)) as (Q1 & Q2 & _).
      rewrite Em in Q1; injection Q1 as ->.
      rewrite !map_length; split; [exact Q2|].
      intros n Hn; rewrite map_map in Hn; apply in_map_iff in Hn as (x & <- & _).
      rewrite (wf_faces _ W), D; reflexivity.
    + intros m d f x H; apply full_good; apply (ALL _ _ _ _ H).
  - right.
    assert (JOBS : map (fun x => N.of_nat 0 + 1 + x) (Nrange (N.of_nat (N.to_nat (mips - 1))))
                   = map (fun m => m + 1) (Nrange (mips - 1))).
    { rewrite Nnat.N2Nat.id; apply map_ext; intros; lia. }
    rewrite JOBS in E1; change (t_mips i1) with mips in E1.
    split.
    + intros Hc; apply E2; intros m H1 H2.
      apply (proj1 (consistent3_iff i mips im0 cm W) Hc m); auto.
    + exists im; rewrite (GE0 _ E1); reflexivity.
Qed.

(** The two early rejections leave the texture alone. *)
Lemma gm_reject i rf l cm : wf i ->
  (~ base_ok i \/ forallb (fun kv => isValid (fst (snd kv))) cm = false) ->
  generateMipmaps L (Some i) rf l cm = Some (false, Some i).
Proof.
  intros W H; unfold generateMipmaps.
  destruct (wf_base _ W) as [base HB]; rewrite HB; cbn [obind].
  destruct (forallb (forallb isValid) base) eqn:BV; cbn [negb]; [|reflexivity].
  destruct H as [H|H]; [|rewrite H; reflexivity].
  exfalso; apply H, (base_ok_iff _ W base HB), BV.
Qed.

(** ** convert *)

Variable encode : converter -> convargs -> image -> list N.

Lemma complete_iff i : wf i -> t_dim i <> Dim3D ->
  (imagesComplete (Some i) = true <->
   forall f m d, in_range (Some i) f m d ->
     exists x, getImageF (Some i) f m d = Some x /\ isValid x = true).
Proof.
  intros W ND; simpl; split.
  - intros H f m d R; destruct (getImageF_in (Some i) f m d W R) as (? & [= <-] & ->).
    destruct (wf_get3 _ W _ _ _ R) as [x Hx]; exists x; split; auto.
    unfold get3 in Hx.
    destruct (nthN (t_images i) m) as [l1|] eqn:E1; simpl in Hx; [|discriminate].
    destruct (nthN l1 d) as [l2|] eqn:E2; simpl in Hx; [|discriminate].
    rewrite forallb_forall in H; specialize (H _ (nthN_In _ _ _ E1)).
    rewrite forallb_forall in H; specialize (H _ (nthN_In _ _ _ E2)).
    rewrite forallb_forall in H; apply H; eapply nthN_In; eauto.
  - intros H; apply forallb_forall; intros l1 H1; apply forallb_forall; intros l2 H2.
    apply forallb_forall; intros x H3.
    destruct (In_nthN _ _ H1) as [m Hm]; destruct (In_nthN _ _ H2) as [d Hd];
      destruct (In_nthN _ _ H3) as [f Hf].
    assert (S1 : nthN (shape (t_images i)) m = Some (map (@length _) l1))
      by (unfold shape; rewrite nthN_map, Hm; reflexivity).
    destruct (wf_shape _ W _ _ S1) as (_ & Q1 & Q2); rewrite map_length in Q1.
    specialize (Q1 (or_intror ND)).
    assert (R : in_range (Some i) f m d).
    { apply nthN_lt in Hm; apply nthN_lt in Hd; apply nthN_lt in Hf.
      rewrite (wf_len _ W) in Hm; split; [exact Hm|]; split; [lia|].
      simpl; rewrite <- (Q2 (length l2)) by (apply in_map; exact H2); exact Hf. }
    destruct (H f m d R) as (y & Hy & V).
    destruct (getImageF_in (Some i) f m d W R) as (? & [= <-] & E); rewrite E in Hy.
    unfold get3 in Hy; rewrite Hm in Hy; simpl in Hy; rewrite Hd in Hy; simpl in Hy.
    congruence.
Qed.

Lemma complete_visible i : wf i -> imagesComplete (Some i) = true ->
  forall f m d, in_range (Some i) f m d ->
     exists x, getImageF (Some i) f m d = Some x /\ isValid x = true.
Proof.
  intros W H f m d R; destruct (getImageF_in (Some i) f m d W R) as (? & [= <-] & ->).
  destruct (wf_get3 _ W _ _ _ R) as [x Hx]; exists x; split; auto.
  unfold get3 in Hx; simpl in H.
  destruct (nthN (t_images i) m) as [l1|] eqn:E1; simpl in Hx; [|discriminate].
  destruct (nthN l1 d) as [l2|] eqn:E2; simpl in Hx; [|discriminate].
  rewrite forallb_forall in H; specialize (H _ (nthN_In _ _ _ E1)).
  rewrite forallb_forall in H; specialize (H _ (nthN_In _ _ _ E2)).
  rewrite forallb_forall in H; apply H; eapply nthN_In; eauto.
Qed.

Lemma convert_spec fl t a : wft t ->
  (imagesComplete t = true /\ isFormatValid fl (ca_format a) (ca_type a) = true /\
   (colorSpaceOf t = CS_sRGB -> hasNativeSRGB (ca_format a) (ca_type a) = true) /\
   exists i cv, t = Some i /\ createConverter fl (ca_format a) (ca_type a) = Some cv /\
    let i' := Impl (t_dim i) (t_cs i) (t_width i) (t_height i) (t_depth i)
                   (t_mips i) (t_faces i) (map (map (map (fun _ => NoImage))) (t_images i))
                   (Some (ca_format a)) (ca_type a) (ca_alpha a) (ca_mask a)
                   (map (map (map (encode cv a))) (t_images i)) in
    convert fl encode t a = (true, Some i') /\ wf i' /\ t_textures i' <> [])
  \/ (~ (imagesComplete t = true /\ isFormatValid fl (ca_format a) (ca_type a) = true /\
         (colorSpaceOf t = CS_sRGB -> hasNativeSRGB (ca_format a) (ca_type a) = true)) /\
      convert fl encode t a = (false, t)).
Proof.
  intros W; unfold convert.
  destruct (imagesComplete t) eqn:IC; cbn [negb orb]; [|right; split; [intuition discriminate|reflexivity]].
  destruct (isFormatValid fl (ca_format a) (ca_type a)) eqn:FV; cbn [negb];
    [|right; split; [intuition discriminate|reflexivity]].
  destruct t as [i|]; [|discriminate]; simpl in W.
  destruct (cs_is_srgb (t_cs i) && negb (hasNativeSRGB (ca_format a) (ca_type a))) eqn:SR.
  { right; split; [|reflexivity]; intros (_ & _ & H); simpl in H.
    destruct (t_cs i); simpl in SR; [discriminate|]; rewrite H in SR by reflexivity; discriminate. }
  assert (SR' : colorSpaceOf (Some i) = CS_sRGB -> hasNativeSRGB (ca_format a) (ca_type a) = true).
  { simpl; intros E; rewrite E in SR; simpl in SR; destruct (hasNativeSRGB _ _); auto. }
  destruct (createConverter fl (ca_format a) (ca_type a)) as [cv|] eqn:CC.
  2: { exfalso; apply valid_iff_converter in FV as [c Hc]; congruence. }
  left; split; [reflexivity|]; split; [reflexivity|]; split; [exact SR'|].
  exists i, cv; split; [reflexivity|]; split; [reflexivity|]; cbv zeta; split; [reflexivity|].
  assert (NE : map (map (map (encode cv a))) (t_images i) <> []).
  { pose proof (wf_len _ W); pose proof (wf_mips _ W); destruct (t_images i); simpl in *; [lia|discriminate]. }
  split; [|exact NE].
  constructor; try apply W; cbn [t_images t_textures t_mips t_faces t_dim t_format t_type t_cs].
  - rewrite map_length; apply (wf_len _ W).
  - intros m sl H; rewrite shape_map3 in H; apply (wf_shape _ W _ _ H).
  - intros m d f x H; rewrite get3_map3 in H.
    destruct (get3 (t_images i) m d f); [|discriminate]; injection H as <-; exact I.
  - right; rewrite map_length, (wf_len _ W); split; [lia|].
    intros m sl Hm H; rewrite shape_map3 in H.
    destruct (wf_shape _ W _ _ H) as (Q1 & _ & Q3); auto.
  - intros _; exists (ca_format a), fl; auto.
Qed.

(** ** Every allowed history *)

Lemma step_wf (OK : lib_ok L) t c : wft t -> allowed t c ->
  exists b t', step L encode t c = Some (b, t') /\ wft t'.
Proof.
  intros W [CO AL]; destruct c as [dim w h d m cs| |img m d|img f m d|rf l cm|fl a]; cbn [step].
  - destruct CO as (F1 & F2 & F3).
    destruct (initialize dim w h d m cs) as [b t'] eqn:E; exists b, t'; split; [reflexivity|].
    eapply initialize_wf; [exact F1|exact F2|exact F3|exact E].
  - exists true, None; split; [reflexivity|exact I].
  - destruct (N.eq_dec (faceCount t) 6) as [E|E].
    + rewrite setImage_cube by exact E; eauto.
    + rewrite setImage_F by assumption.
      destruct (setImageF_spec t img 0 m d W ltac:(lia)) as [(_ & _ & i & im & -> & -> & _ & W' & _)|[_ ->]]; eauto.
  - destruct (setImageF_spec t img f m d W CO) as [(_ & _ & i & im & -> & -> & _ & W' & _)|[_ ->]]; eauto.
  - destruct t as [i|]; [|simpl; eauto]; simpl in W.
    destruct AL as [AL1 AL2].
    destruct (forallb (fun kv => isValid (fst (snd kv))) cm) eqn:CV.
    2: { rewrite gm_reject by auto; eauto. }
    destruct (wf_base _ W) as [base HB].
    destruct (forallb (forallb isValid) base) eqn:BV.
    2: { rewrite gm_reject; eauto. left; intros B; apply (base_ok_iff _ W base HB) in B; congruence. }
    apply (base_ok_iff _ W base HB) in BV.
    pose proof (customs_ok_intro rf cm CV CO) as COK.
    assert (HT : t_textures i = [] \/ clamped_levels (Some i) l <= t_mips i).
    { simpl in AL2; destruct (t_textures i); auto. }
    destruct (t_dim i) eqn:ED.
    1,2,4: destruct (gm2d OK i rf l cm W ltac:(congruence) BV CV COK) as (im & E & _ & W' & _);
      cbv zeta in E; rewrite E; do 2 eexists; split; [reflexivity|]; apply W', HT.
    destruct (gm3d OK i rf l cm W ED BV CV COK) as [(Hc & im & E & _ & W' & _)|(Hc & _)].
    + cbv zeta in E; rewrite E; do 2 eexists; split; [reflexivity|]; apply W', HT.
    + exfalso; apply Hc, AL1; simpl; exact ED.
  - destruct (convert_spec fl t a W) as [(_ & _ & _ & i & cv & -> & _ & E & W' & _)|[_ E]];
      rewrite E; eauto.
Qed.

Lemma reachable_wf (OK : lib_ok L) t : reachable L encode t -> wft t.
Proof.
  induction 1; [exact I|].
  destruct (step_wf OK t c IHreachable H0) as (b' & t'' & E & W'); rewrite E in H1.
  injection H1 as <- <-; exact W'.
Qed.

End T.

(** The pixel loops: what a nested loop that writes each target pixel once computes. *)

From Coq Require Import ZArith NArith List Bool Lia.
From Coq Require Import ZifyBool ZifyNat ZifyN.
From Verif Require Import Base FormatModel FloatModel ArithModel TextureModel ImageModel.
Import ListNotations.
Local Open Scope N_scope.

Lemma in_upto a b i : In i (upto a b) <-> a <= i < b.
Proof.
  unfold upto; rewrite in_map_iff; split.
  - intros (k & <- & H). apply in_Nrange in H. lia.
  - intros H. exists (i - a). split; [lia|]. apply in_Nrange; lia.
Qed.

Lemma upto0 b : upto 0 b = Nrange b.
Proof. unfold upto. rewrite N.sub_0_r. rewrite <- (map_id (Nrange b)) at 2. apply map_ext. lia. Qed.

Lemma NoDup_upto a b : NoDup (upto a b).
Proof.
  unfold upto. apply FinFun.Injective_map_NoDup; [|apply NoDup_Nrange]. intros u v H. lia.
Qed.

Lemma fold_none {S K} (f : K -> S -> option S) l :
  fold_left (fun acc i => obind acc (f i)) l None = None.
Proof. induction l; simpl; auto. Qed.

(** The pairs (x, y) in the order the loops visit them. *)
Definition cells (w h : N) : list (N * N) :=
  flat_map (fun y => map (fun x => (x, y)) (Nrange w)) (Nrange h).

Lemma in_cells w h x y : In (x, y) (cells w h) <-> x < w /\ y < h.
Proof.
  unfold cells. rewrite in_flat_map. split.
  - intros (y' & Hy & Hx). apply in_map_iff in Hx. destruct Hx as (x' & E & Hx).
    inversion E; subst. apply in_Nrange in Hy, Hx. auto.
  - intros [Hx Hy]. exists y. split; [apply in_Nrange; auto|].
    apply in_map_iff. exists x. split; auto. apply in_Nrange; auto.
Qed.

Lemma NoDup_app_intro {K} (a b : list K) :
  NoDup a -> NoDup b -> (forall x, In x a -> ~ In x b) -> NoDup (a ++ b).
Proof.
  induction a; simpl; intros Ha Hb D; auto.
  inversion Ha; subst. constructor.
  - rewrite in_app_iff. intros [H|H]; [auto|]. apply (D a); auto.
  - apply IHa; auto.
Qed.

Lemma NoDup_cells w h : NoDup (cells w h).
Proof.
  unfold cells. pose proof (NoDup_Nrange h) as Hh. induction (Nrange h) as [|y l IH]; simpl; [constructor|].
  inversion Hh; subst. apply NoDup_app_intro; auto.
  - apply FinFun.Injective_map_NoDup; [|apply NoDup_Nrange]. intros u v E. congruence.
  - intros [x y'] H C. apply in_map_iff in H. destruct H as (x' & E & _). inversion E; subst.
    apply in_flat_map in C. destruct C as (y2 & Hy2 & C). apply in_map_iff in C.
    destruct C as (x2 & Ex2 & _). inversion Ex2; subst. auto.
Qed.

Lemma loop2_cells {S} w h (body : N -> N -> S -> option S) s :
  loop 0 h (fun y => loop 0 w (fun x => body x y)) s
  = fold_left (fun acc k => obind acc (body (fst k) (snd k))) (cells w h) (Some s).
Proof.
  unfold loop. rewrite !upto0. unfold cells.
  generalize (Nrange h); intros l. revert s.
  assert (G : forall acc : option S,
    fold_left (fun a i => obind a (fun s0 => fold_left (fun a0 i0 => obind a0 (body i0 i))
                                               (Nrange w) (Some s0))) l acc
    = fold_left (fun a k => obind a (body (fst k) (snd k)))
        (flat_map (fun y => map (fun x => (x, y)) (Nrange w)) l) acc).
  { induction l as [|y l IH]; intros acc; [reflexivity|].
    cbn [fold_left flat_map]. rewrite fold_left_app, IH. f_equal.
    destruct acc as [s|]; cbn [obind].
    - generalize (Some s). generalize (Nrange w). intros lw. clear.
      induction lw; intros o; simpl; auto.
    - generalize (Nrange w). intros lw. clear.
      induction lw; simpl; auto. }
  intros s. rewrite <- G. reflexivity.
Qed.

Section Writes.
Context {A : arith}.

Definition inside (b : bitmap A) (x y : N) : Prop := x < b_w b /\ y < b_h b.

Definition same_shape (a b : bitmap A) : Prop :=
  b_fmt a = b_fmt b /\ b_w a = b_w b /\ b_h a = b_h b /\ b_cs a = b_cs b.

Lemma same_shape_refl a : same_shape a a.
Proof. repeat split. Qed.
Lemma same_shape_trans a b c : same_shape a b -> same_shape b c -> same_shape a c.
Proof. unfold same_shape; intuition congruence. Qed.
Lemma same_shape_sym a b : same_shape a b -> same_shape b a.
Proof. unfold same_shape; intuition congruence. Qed.

Lemma read_inside (b : bitmap A) x y : inside b x y -> read b x y = Some (b_px b x y).
Proof.
  intros [? ?]. unfold read.
  destruct (N.ltb_spec x (b_w b)), (N.ltb_spec y (b_h b)); try lia. reflexivity.
Qed.

Lemma read_some (b : bitmap A) x y p : read b x y = Some p -> inside b x y /\ p = b_px b x y.
Proof.
  unfold read, inside. destruct (N.ltb_spec x (b_w b)), (N.ltb_spec y (b_h b)); simpl; try discriminate.
  intros E; inversion E; auto.
Qed.

Lemma write_inside (b : bitmap A) x y p : inside b x y ->
  exists b', write b x y p = Some b' /\ same_shape b b' /\ b_px b' x y = p /\
    (forall x' y', (x', y') <> (x, y) -> b_px b' x' y' = b_px b x' y').
Proof.
  intros [? ?]. unfold write.
  destruct (N.ltb_spec x (b_w b)), (N.ltb_spec y (b_h b)); try lia. simpl.
  eexists; split; [reflexivity|]. split; [repeat split|]. split.
  - cbn [b_px]. rewrite !N.eqb_refl. reflexivity.
  - intros x' y' Hne. cbn [b_px].
    destruct (N.eqb_spec x' x), (N.eqb_spec y' y); simpl; auto. subst; congruence.
Qed.

Lemma write_some (b b' : bitmap A) x y p : write b x y p = Some b' -> inside b x y.
Proof.
  unfold write, inside. destruct (N.ltb_spec x (b_w b)), (N.ltb_spec y (b_h b)); simpl; try discriminate; auto.
Qed.

(** Visit the keys [l] in order; key [k] writes the pixel at (tx k, ty k), computed from the
    key and from the pixel that is there. *)
Definition visit {K} (tx ty : K -> N) (F : K -> pix A -> option (pix A)) (l : list K)
  (d : bitmap A) : option (bitmap A) :=
  fold_left (fun acc k => obind acc (fun d =>
    obind (obind (read d (tx k) (ty k)) (F k)) (write d (tx k) (ty k)))) l (Some d).

Lemma visit_cons {K} tx ty F (k : K) l d :
  visit tx ty F (k :: l) d
  = obind (obind (obind (read d (tx k) (ty k)) (F k)) (write d (tx k) (ty k))) (visit tx ty F l).
Proof.
  unfold visit; cbn [fold_left obind].
  destruct (obind _ _); cbn [obind]; [reflexivity|apply fold_none].
Qed.

Lemma visit_total {K} (tx ty : K -> N) F l : forall d,
  NoDup (map (fun k => (tx k, ty k)) l) ->
  (forall k, In k l -> inside d (tx k) (ty k)) ->
  (forall k, In k l -> F k (b_px d (tx k) (ty k)) <> None) ->
  exists d', visit tx ty F l d = Some d'.
Proof.
  induction l as [|k l IH]; intros d ND IN HF.
  - exists d; reflexivity.
  - rewrite visit_cons. rewrite (read_inside d) by (apply IN; left; auto). cbn [obind].
    destruct (F k (b_px d (tx k) (ty k))) as [p|] eqn:E; [|exfalso; eapply HF; [left; eauto|eauto]].
    cbn [obind].
    destruct (write_inside d (tx k) (ty k) p (IN k (or_introl eq_refl))) as (d1 & -> & SS & P1 & P2).
    cbn [obind]. simpl in ND. inversion ND; subst.
    apply IH; auto.
    + intros k' H. destruct SS as (_ & e1 & e2 & _). specialize (IN k' (or_intror H)).
      unfold inside in *; rewrite <- e1, <- e2; auto.
    + intros k' H. rewrite P2.
      * apply HF; right; auto.
      * intros C. apply H1. apply in_map_iff. exists k'; auto.
Qed.

Lemma visit_result {K} (tx ty : K -> N) F l : forall d d',
  NoDup (map (fun k => (tx k, ty k)) l) ->
  visit tx ty F l d = Some d' ->
  same_shape d d' /\
  (forall k, In k l -> inside d (tx k) (ty k) /\
     F k (b_px d (tx k) (ty k)) = Some (b_px d' (tx k) (ty k))) /\
  (forall x y, (forall k, In k l -> (tx k, ty k) <> (x, y)) -> b_px d' x y = b_px d x y).
Proof.
  induction l as [|k l IH]; intros d d' ND V.
  - inversion V; subst. split; [apply same_shape_refl|]. split; [intros k []|auto].
  - rewrite visit_cons in V. simpl in ND. inversion ND as [|? ? NI ND']; subst.
    destruct (read d (tx k) (ty k)) as [p0|] eqn:R; cbn [obind] in V; [|discriminate].
    apply read_some in R. destruct R as [IN ->].
    destruct (F k (b_px d (tx k) (ty k))) as [p|] eqn:E; cbn [obind] in V; [|discriminate].
    destruct (write_inside d (tx k) (ty k) p IN) as (d1 & W & SS & P1 & P2).
    rewrite W in V; cbn [obind] in V.
    destruct (IH d1 d' ND' V) as (SS' & H1 & H2).
    assert (Hk : b_px d' (tx k) (ty k) = p).
    { rewrite H2; auto. intros k' H C. apply NI. apply in_map_iff. exists k'; auto. }
    split; [eapply same_shape_trans; eauto|]. split.
    + intros k' [<-|H]; [rewrite Hk; auto|].
      destruct (H1 k' H) as [I' E']. split.
      * destruct SS as (_ & e1 & e2 & _). unfold inside in *; rewrite e1, e2; auto.
      * rewrite P2 in E'; auto. intros C. apply NI. apply in_map_iff. exists k'; auto.
    + intros x y H. rewrite H2, P2; auto.
      * intros C. apply (H k); auto. left; auto.
      * intros k' H'. apply H. right; auto.
Qed.

Lemma fold_ext_in {S K} (f g : K -> S -> option S) l : 
  (forall k s, In k l -> f k s = g k s) ->
  forall acc, fold_left (fun a k => obind a (f k)) l acc = fold_left (fun a k => obind a (g k)) l acc.
Proof.
  induction l as [|k l IH]; intros H acc; [reflexivity|]. cbn [fold_left].
  replace (obind acc (f k)) with (obind acc (g k)).
  - apply IH. intros; apply H; right; auto.
  - destruct acc; cbn [obind]; auto. symmetry; apply H; left; auto.
Qed.

Lemma map_fst_snd {X Y} (l : list (X * Y)) : map (fun k => (fst k, snd k)) l = l.
Proof. rewrite <- (map_id l) at 2. apply map_ext. intros []; reflexivity. Qed.

(** Shape preserved along a visit, for loop bodies that mention the format of the image. *)
Lemma fold_inv {S K} (I : S -> Prop) (f g : K -> S -> option S) l : 
  (forall k s, In k l -> I s -> f k s = g k s) ->
  (forall k s s', In k l -> I s -> g k s = Some s' -> I s') ->
  forall s, I s -> fold_left (fun a k => obind a (f k)) l (Some s)
                 = fold_left (fun a k => obind a (g k)) l (Some s).
Proof.
  induction l as [|k l IH]; intros E P s Hs; [reflexivity|]. cbn [fold_left obind].
  rewrite (E k s) by (auto; left; auto).
  destruct (g k s) eqn:G.
  - apply IH; [intros; apply E; auto; right; auto | intros; eapply P; eauto; right; auto|].
    eapply P; eauto. left; auto.
  - rewrite !fold_none; reflexivity.
Qed.

(** [mapPixels] in terms of stored pixels. *)
Definition mapStored (f : imgfmt) (g : color A -> color A) (p : pix A) : option (pix A) :=
  obind (getPixelImpl f p) (fun c => setPixelNoGrayscaleImpl f (g c)).

Lemma mapPixels_visit (g : color A -> color A) b :
  mapPixels g b = visit fst snd (fun _ => mapStored (b_fmt b) g) (cells (b_w b) (b_h b)) b.
Proof.
  unfold mapPixels. rewrite (loop2_cells (b_w b) (b_h b)
    (fun x y b' => obind (getAt b' x y) (fun c => setAt b' x y (g c)))).
  unfold visit. apply (fold_inv (same_shape b)).
  - intros k s _ (E & _). unfold getAt, setAt, mapStored. rewrite <- E.
    destruct (read s (fst k) (snd k)); cbn [obind]; [|reflexivity].
    destruct (getPixelImpl (b_fmt b) p); reflexivity.
  - intros k s s' _ SS.
    destruct (obind (read s (fst k) (snd k)) _) as [p|]; cbn [obind]; [|discriminate].
    intros W. pose proof (write_some _ _ _ _ _ W) as I.
    destruct (write_inside s _ _ p I) as (s2 & W2 & SS2 & _). rewrite W in W2. inversion W2; subst.
    eapply same_shape_trans; eauto.
  - apply same_shape_refl.
Qed.

Theorem mapPixels_result (g : color A -> color A) b b' : mapPixels g b = Some b' ->
  same_shape b b' /\
  (forall x y, inside b x y -> mapStored (b_fmt b) g (b_px b x y) = Some (b_px b' x y)).
Proof.
  rewrite mapPixels_visit. intros V. apply visit_result in V.
  - destruct V as (SS & H & _). split; auto.
    intros x y [Hx Hy]. apply (H (x, y)). apply in_cells; auto.
  - rewrite map_fst_snd. apply NoDup_cells.
Qed.

Theorem mapPixels_total (g : color A -> color A) b :
  (forall x y, inside b x y -> mapStored (b_fmt b) g (b_px b x y) <> None) ->
  exists b', mapPixels g b = Some b'.
Proof.
  intros H. rewrite mapPixels_visit. apply visit_total.
  - rewrite map_fst_snd. apply NoDup_cells.
  - intros [x y] I. apply in_cells in I. exact I.
  - intros [x y] I. apply in_cells in I. apply H. exact I.
Qed.

(** A loop over the pixels of a [w] x [h] source that stores [V x y] at (fx x y, fy x y) of a
    new image. *)
Definition scatter (w h : N) (fx fy : N -> N -> N) (V : N -> N -> option (pix A))
  (d : bitmap A) : option (bitmap A) :=
  visit (fun k => fx (fst k) (snd k)) (fun k => fy (fst k) (snd k))
    (fun k _ => V (fst k) (snd k)) (cells w h) d.

Lemma scatter_loop w h (body : N -> N -> bitmap A -> option (bitmap A)) fx fy V d :
  (forall x y s, x < w -> y < h -> same_shape d s ->
     body x y s = obind (V x y) (write s (fx x y) (fy x y))) ->
  (forall x y, x < w -> y < h -> inside d (fx x y) (fy x y)) ->
  loop 0 h (fun y => loop 0 w (fun x => body x y)) d = scatter w h fx fy V d.
Proof.
  intros HB HI. rewrite loop2_cells. unfold scatter, visit. apply (fold_inv (same_shape d)).
  - intros [x y] s I SS. apply in_cells in I. destruct I as [Ix Iy]. cbn [fst snd].
    rewrite HB by auto. rewrite read_inside; [cbn [obind]; reflexivity|].
    destruct SS as (_ & e1 & e2 & _). specialize (HI x y Ix Iy).
    unfold inside in *. rewrite <- e1, <- e2; auto.
  - intros k s s' _ SS.
    destruct (obind (read s _ _) _) as [p|]; cbn [obind]; [|discriminate].
    intros W. pose proof (write_some _ _ _ _ _ W) as I.
    destruct (write_inside s _ _ p I) as (s2 & W2 & SS2 & _). rewrite W in W2. inversion W2; subst.
    eapply same_shape_trans; eauto.
  - apply same_shape_refl.
Qed.

Lemma NoDup_map_in {X Y} (f : X -> Y) l :
  NoDup l -> (forall a b, In a l -> In b l -> f a = f b -> a = b) -> NoDup (map f l).
Proof.
  induction l as [|a l IH]; intros H J; simpl; constructor; inversion H; subst.
  - intros C. apply in_map_iff in C. destruct C as (b & E & I).
    assert (b = a) by (apply J; simpl; auto). subst; auto.
  - apply IH; auto. intros; apply J; simpl; auto.
Qed.

Lemma scatter_ok w h fx fy V d :
  (forall x y, x < w -> y < h -> inside d (fx x y) (fy x y)) ->
  (forall x y x' y', x < w -> y < h -> x' < w -> y' < h ->
     fx x y = fx x' y' -> fy x y = fy x' y' -> x = x' /\ y = y') ->
  (forall x y, x < w -> y < h -> V x y <> None) ->
  exists d', scatter w h fx fy V d = Some d' /\ same_shape d d' /\
    (forall x y, x < w -> y < h -> V x y = Some (b_px d' (fx x y) (fy x y))).
Proof.
  intros HI INJ HV.
  assert (ND : NoDup (map (fun k => (fx (fst k) (snd k), fy (fst k) (snd k))) (cells w h))).
  { apply NoDup_map_in; [apply NoDup_cells|].
    intros [x y] [x' y'] I1 I2 E. apply in_cells in I1, I2. cbn [fst snd] in E. inversion E.
    destruct (INJ x y x' y'); try tauto. subst; auto. }
  destruct (visit_total (fun k => fx (fst k) (snd k)) (fun k => fy (fst k) (snd k))
    (fun k _ => V (fst k) (snd k)) (cells w h) d ND) as [d' E].
  - intros [x y] I. apply in_cells in I. apply HI; tauto.
  - intros [x y] I. apply in_cells in I. apply HV; tauto.
  - exists d'. split; [exact E|].
    apply visit_result in E; auto. destruct E as (SS & H & _). split; auto.
    intros x y Hx Hy. apply (H (x, y)). apply in_cells; auto.
Qed.

Lemma scatter_result w h fx fy V d d' :
  (forall x y x' y', x < w -> y < h -> x' < w -> y' < h ->
     fx x y = fx x' y' -> fy x y = fy x' y' -> x = x' /\ y = y') ->
  scatter w h fx fy V d = Some d' -> same_shape d d' /\
    (forall x y, x < w -> y < h -> V x y = Some (b_px d' (fx x y) (fy x y))).
Proof.
  intros INJ E.
  assert (ND : NoDup (map (fun k => (fx (fst k) (snd k), fy (fst k) (snd k))) (cells w h))).
  { apply NoDup_map_in; [apply NoDup_cells|].
    intros [x y] [x' y'] I1 I2 E'. apply in_cells in I1, I2. cbn [fst snd] in E'. inversion E'.
    destruct (INJ x y x' y'); try tauto. subst; auto. }
  apply visit_result in E; auto. destruct E as (SS & H & _). split; auto.
  intros x y Hx Hy. apply (H (x, y)). apply in_cells; auto.
Qed.

End Writes.

(** The sampling loops as folds over the list of samples that are not skipped. *)

From Coq Require Import ZArith NArith List Bool Lia Permutation.
From Coq Require Import ZifyBool ZifyNat ZifyN.
From Verif Require Import Base FormatModel FloatModel ArithModel TextureModel ImageModel ImageLoops
  ResizeModel.
Import ListNotations.
Local Open Scope N_scope.

Definition keep (p : N -> bool) (a b : N) : list N := filter (fun i => negb (p i)) (upto a b).
Definition window2 (p q : N -> bool) (a b c d : N) : list (N * N) :=
  flat_map (fun i => map (fun j => (i, j)) (keep q c d)) (keep p a b).

Lemma in_keep p a b i : In i (keep p a b) <-> a <= i < b /\ p i = false.
Proof. unfold keep. rewrite filter_In, in_upto. destruct (p i); simpl; intuition congruence. Qed.

Lemma NoDup_keep p a b : NoDup (keep p a b).
Proof. apply NoDup_filter, NoDup_upto. Qed.

Lemma length_keep p a b : N.of_nat (length (keep p a b)) <= b - a.
Proof.
  assert (L : forall l : list N, (length (filter (fun i => negb (p i)) l) <= length l)%nat).
  { induction l as [|x l IH]; simpl; [lia|]. destruct (negb (p x)); simpl; lia. }
  unfold keep. specialize (L (upto a b)). unfold upto in L at 2.
  rewrite map_length, Nrange_length in L. lia.
Qed.

Lemma in_window2 p q a b c d i j :
  In (i, j) (window2 p q a b c d) <-> In i (keep p a b) /\ In j (keep q c d).
Proof.
  unfold window2. rewrite in_flat_map. split.
  - intros (i' & Hi & H). apply in_map_iff in H. destruct H as (j' & E & Hj).
    inversion E; subst; auto.
  - intros [Hi Hj]. exists i. split; auto. apply in_map_iff. eauto.
Qed.

Lemma length_window2 p q a b c d :
  length (window2 p q a b c d) = (length (keep p a b) * length (keep q c d))%nat.
Proof.
  unfold window2. induction (keep p a b) as [|i l IH]; simpl; auto.
  rewrite app_length, map_length, IH. auto.
Qed.

Lemma NoDup_window2 p q a b c d : NoDup (window2 p q a b c d).
Proof.
  unfold window2. pose proof (NoDup_keep p a b) as H. pose proof (NoDup_keep q c d) as G.
  induction (keep p a b) as [|y l IH]; simpl; [constructor|].
  inversion H; subst. apply NoDup_app_intro; auto.
  - apply FinFun.Injective_map_NoDup; auto. intros u v E. congruence.
  - intros [y' x] I C. apply in_map_iff in I. destruct I as (x' & E & _). inversion E; subst.
    apply in_flat_map in C. destruct C as (y2 & Hy2 & C). apply in_map_iff in C.
    destruct C as (x2 & Ex2 & _). inversion Ex2; subst. auto.
Qed.

Lemma loop_filter {S} a b (p : N -> bool) (step : N -> S -> option S) s :
  loop a b (fun i acc => if p i then Some acc else step i acc) s
  = fold_left (fun acc i => obind acc (step i)) (keep p a b) (Some s).
Proof.
  unfold loop, keep. generalize (Some s). induction (upto a b) as [|i l IH]; intros o; [reflexivity|].
  cbn [fold_left filter]. rewrite IH. destruct (p i); cbn [negb fold_left]; auto.
  destruct o; reflexivity.
Qed.

Lemma loop2_filter {S} a b c d (p q : N -> bool) (step : N -> N -> S -> option S) s :
  loop a b (fun i acc => if p i then Some acc else
    loop c d (fun j acc => if q j then Some acc else step i j acc) acc) s
  = fold_left (fun acc k => obind acc (step (fst k) (snd k))) (window2 p q a b c d) (Some s).
Proof.
  rewrite (loop_filter a b p (fun i acc =>
    loop c d (fun j acc => if q j then Some acc else step i j acc) acc)).
  unfold window2. generalize (Some s). induction (keep p a b) as [|i l IH]; intros o; [reflexivity|].
  cbn [fold_left flat_map]. rewrite fold_left_app, IH. f_equal.
  destruct o as [s0|]; cbn [obind].
  - rewrite (loop_filter c d q (step i)). generalize (Some s0). clear.
    induction (keep q c d) as [|j l IH]; intros o; [reflexivity|]. cbn [fold_left map]. apply IH.
  - clear. induction (keep q c d) as [|j l IH]; [reflexivity|]. cbn [fold_left map obind]. apply IH.
Qed.

Lemma fold_some {S K} (step : K -> S -> option S) (f : S -> K -> S) l : forall s,
  (forall k s, In k l -> step k s = Some (f s k)) ->
  fold_left (fun acc k => obind acc (step k)) l (Some s) = Some (fold_left f l s).
Proof.
  induction l as [|k l IH]; intros s H; [reflexivity|]. cbn [fold_left obind].
  rewrite H by (left; auto). apply IH. intros; apply H; right; auto.
Qed.

Section Sums.
Context {A : arith}.

(** The sum a loop accumulates. *)
Definition acc_sum {K} (v : K -> num A) (l : list K) : num A :=
  fold_left (fun a k => nadd A a (v k)) l (lit 0).

Lemma fold_box {K} (col : K -> color A) l :
  N.of_nat (length l) < 2 ^ 32 ->
  fold_left (fun acc k => (addColor (fst acc) (col k), u32 (snd acc + 1))) l (black, 0)
  = (C4 (acc_sum (fun k => c_r (col k)) l) (acc_sum (fun k => c_g (col k)) l)
        (acc_sum (fun k => c_b (col k)) l) (acc_sum (fun k => c_a (col k)) l),
     N.of_nat (length l)).
Proof.
  intros H. unfold acc_sum, black.
  assert (G : forall (r g b a : num A) t, t + N.of_nat (length l) < 2 ^ 32 ->
    fold_left (fun acc k => (addColor (fst acc) (col k), u32 (snd acc + 1))) l (C4 r g b a, t)
    = (C4 (fold_left (fun a k => nadd A a (c_r (col k))) l r)
          (fold_left (fun a k => nadd A a (c_g (col k))) l g)
          (fold_left (fun a k => nadd A a (c_b (col k))) l b)
          (fold_left (fun a k => nadd A a (c_a (col k))) l a), t + N.of_nat (length l))).
  { clear H. induction l as [|k l IH]; intros r g b a t Ht; simpl length in *.
    - simpl. rewrite N.add_0_r. reflexivity.
    - cbn [fold_left fst snd]. rewrite u32_small by lia.
      change (addColor (C4 r g b a) (col k)) with
        (C4 (nadd A r (c_r (col k))) (nadd A g (c_g (col k))) (nadd A b (c_b (col k)))
            (nadd A a (c_a (col k)))).
      rewrite IH by lia. f_equal. lia. }
  rewrite G by (simpl; lia). f_equal.
Qed.

Lemma fold_linear {K} (w : K -> num A) (col : K -> color A) l :
  fold_left (fun acc k => (addScaled (w k) (fst acc) (col k), nadd A (snd acc) (w k))) l
    (black, lit 0)
  = (C4 (acc_sum (fun k => nmul A (c_r (col k)) (w k)) l)
        (acc_sum (fun k => nmul A (c_g (col k)) (w k)) l)
        (acc_sum (fun k => nmul A (c_b (col k)) (w k)) l)
        (acc_sum (fun k => nmul A (c_a (col k)) (w k)) l), acc_sum w l).
Proof.
  unfold acc_sum, black.
  assert (G : forall r g b a t : num A,
    fold_left (fun acc k => (addScaled (w k) (fst acc) (col k), nadd A (snd acc) (w k))) l
      (C4 r g b a, t)
    = (C4 (fold_left (fun a k => nadd A a (nmul A (c_r (col k)) (w k))) l r)
          (fold_left (fun a k => nadd A a (nmul A (c_g (col k)) (w k))) l g)
          (fold_left (fun a k => nadd A a (nmul A (c_b (col k)) (w k))) l b)
          (fold_left (fun a k => nadd A a (nmul A (c_a (col k)) (w k))) l a),
       fold_left (fun a k => nadd A a (w k)) l t)).
  { induction l as [|k l IH]; intros r g b a t; [reflexivity|]. cbn [fold_left fst snd].
    apply IH. }
  apply G.
Qed.

(** One pixel of each filter, in terms of the samples visited. *)
Lemma boxPixel_sum (s : bitmap A) w h x y top bottom left right (col : N -> N -> color A) :
  firstSample (@center A (b_h s) h y) (nmul A (@offset A (b_h s) h) half) = Some top ->
  lastSample (@center A (b_h s) h y) (nmul A (@offset A (b_h s) h) half) (b_h s) = Some bottom ->
  firstSample (@center A (b_w s) w x) (nmul A (@offset A (b_w s) w) half) = Some left ->
  lastSample (@center A (b_w s) w x) (nmul A (@offset A (b_w s) w) half) (b_w s) = Some right ->
  let l := window2 (outsideBox (@center A (b_h s) h y) (@filterScale A (b_h s) h))
                   (outsideBox (@center A (b_w s) w x) (@filterScale A (b_w s) w)) top bottom left right in
  (forall i j, In (i, j) l -> getAt s j i = Some (col j i)) ->
  N.of_nat (length l) < 2 ^ 32 ->
  let val f := ndiv A (acc_sum (fun k => f (col (snd k) (fst k))) l) (ofN (N.of_nat (length l))) in
  boxPixel s w h x y = Some (C4 (val c_r) (val c_g) (val c_b) (val c_a)).
Proof.
  intros E1 E2 E3 E4 l HC HL val. unfold boxPixel. rewrite E1, E2, E3, E4. cbn [obind].
  rewrite (loop2_filter top bottom left right
    (outsideBox (@center A (b_h s) h y) (@filterScale A (b_h s) h))
    (outsideBox (@center A (b_w s) w x) (@filterScale A (b_w s) w))
    (fun i j acc => obind (getAt s j i) (fun cur =>
       Some (addColor (fst acc) cur, u32 (snd acc + 1))))).
  fold l. rewrite (fold_some _ (fun acc k => (addColor (fst acc) (col (snd k) (fst k)), u32 (snd acc + 1)))).
  - cbn [obind]. rewrite (fold_box (fun k => col (snd k) (fst k))) by exact HL. reflexivity.
  - intros [i j] acc I. cbn [fst snd]. rewrite HC by exact I. reflexivity.
Qed.

Lemma linearPixel_sum (s : bitmap A) w h x y top bottom left right (col : N -> N -> color A) :
  firstSample (@center A (b_h s) h y) (@offset A (b_h s) h) = Some top ->
  lastSample (@center A (b_h s) h y) (@offset A (b_h s) h) (b_h s) = Some bottom ->
  firstSample (@center A (b_w s) w x) (@offset A (b_w s) w) = Some left ->
  lastSample (@center A (b_w s) w x) (@offset A (b_w s) w) (b_w s) = Some right ->
  let wy := linearScale (@center A (b_h s) h y) (@filterScale A (b_h s) h) in
  let wx := linearScale (@center A (b_w s) w x) (@filterScale A (b_w s) w) in
  let l := window2 (fun i => isZero (wy i)) (fun j => isZero (wx j)) top bottom left right in
  (forall i j, In (i, j) l -> getAt s j i = Some (col j i)) ->
  let wt k := nmul A (wx (snd k)) (wy (fst k)) in
  let val f := ndiv A (acc_sum (fun k => nmul A (f (col (snd k) (fst k))) (wt k)) l)
                 (acc_sum wt l) in
  linearPixel s w h x y = Some (C4 (val c_r) (val c_g) (val c_b) (val c_a)).
Proof.
  intros E1 E2 E3 E4 wy wx l HC wt val. unfold linearPixel. rewrite E1, E2, E3, E4. cbn [obind].
  rewrite (loop2_filter top bottom left right
    (fun i => isZero (linearScale (@center A (b_h s) h y) (@filterScale A (b_h s) h) i))
    (fun j => isZero (linearScale (@center A (b_w s) w x) (@filterScale A (b_w s) w) j))
    (fun i j acc => obind (getAt s j i) (fun cur =>
       Some (addScaled (nmul A (linearScale (@center A (b_w s) w x) (@filterScale A (b_w s) w) j)
                (linearScale (@center A (b_h s) h y) (@filterScale A (b_h s) h) i)) (fst acc) cur,
             nadd A (snd acc) (nmul A (linearScale (@center A (b_w s) w x) (@filterScale A (b_w s) w) j)
                (linearScale (@center A (b_h s) h y) (@filterScale A (b_h s) h) i)))))).
  fold wy wx. fold l.
  rewrite (fold_some _ (fun acc k => (addScaled (wt k) (fst acc) (col (snd k) (fst k)),
                                      nadd A (snd acc) (wt k)))).
  - cbn [obind]. rewrite (fold_linear wt (fun k => col (snd k) (fst k))). reflexivity.
  - intros [i j] acc I. cbn [fst snd]. rewrite HC by exact I. reflexivity.
Qed.

(** One pixel of a layer of a 3D mip level. *)
Lemma boxLayer_sum cs (prev : list (bitmap A)) n d x y start stop (col : N -> color A) :
  let s := N.of_nat (length prev) in
  firstSample (@center A s n d) (@offset A s n) = Some start ->
  lastSample (@center A s n d) (@offset A s n) (u32 s) = Some stop ->
  let l := keep (outsideBox (@center A s n d) (@filterScale A s n)) start stop in
  (forall i, In i l -> sourceColor cs prev i x y = Some (col i)) ->
  N.of_nat (length l) < 2 ^ 32 ->
  let val f := ndiv A (acc_sum (fun k => f (col k)) l) (ofN (N.of_nat (length l))) in
  boxLayer cs prev n d x y = Some (C4 (val c_r) (val c_g) (val c_b) (val c_a)).
Proof.
  intros s E1 E2 l HC HL val. unfold boxLayer. fold s. rewrite E1, E2. cbn [obind].
  rewrite (loop_filter start stop (outsideBox (@center A s n d) (@filterScale A s n))
    (fun i acc => obind (sourceColor cs prev i x y) (fun cur =>
       Some (addColor (fst acc) cur, u32 (snd acc + 1))))).
  fold l. rewrite (fold_some _ (fun acc k => (addColor (fst acc) (col k), u32 (snd acc + 1)))).
  - cbn [obind]. rewrite (fold_box col) by exact HL. reflexivity.
  - intros i acc I. rewrite HC by exact I. reflexivity.
Qed.

Lemma linearLayer_sum cs (prev : list (bitmap A)) n d x y start stop (col : N -> color A) :
  let s := N.of_nat (length prev) in
  firstSample (@center A s n d) (@offset A s n) = Some start ->
  lastSample (@center A s n d) (@offset A s n) (u32 s) = Some stop ->
  let wt := linearScale (@center A s n d) (@filterScale A s n) in
  let l := keep (fun i => isZero (wt i)) start stop in
  (forall i, In i l -> sourceColor cs prev i x y = Some (col i)) ->
  let val f := ndiv A (acc_sum (fun k => nmul A (f (col k)) (wt k)) l) (acc_sum wt l) in
  linearLayer cs prev n d x y = Some (C4 (val c_r) (val c_g) (val c_b) (val c_a)).
Proof.
  intros s E1 E2 wt l HC val. unfold linearLayer. fold s. rewrite E1, E2. cbn [obind].
  rewrite (loop_filter start stop
    (fun i => isZero (linearScale (@center A s n d) (@filterScale A s n) i))
    (fun i acc => obind (sourceColor cs prev i x y) (fun cur =>
       Some (addScaled (linearScale (@center A s n d) (@filterScale A s n) i) (fst acc) cur,
             nadd A (snd acc) (linearScale (@center A s n d) (@filterScale A s n) i))))).
  fold wt. fold l. rewrite (fold_some _ (fun acc k => (addScaled (wt k) (fst acc) (col k), nadd A (snd acc) (wt k)))).
  - cbn [obind]. rewrite (fold_linear wt col). reflexivity.
  - intros i acc I. rewrite HC by exact I. reflexivity.
Qed.

(** Filling an image pixel by pixel. *)
Lemma fillPixels_ok pixel w h (d : bitmap A) : b_w d = w -> b_h d = h ->
  (forall x y, x < w -> y < h -> obind (pixel x y) (setPixelNoGrayscaleImpl (b_fmt d)) <> None) ->
  exists d', fillPixels pixel w h d = Some d' /\ same_shape d d' /\
    forall x y, x < w -> y < h ->
      obind (pixel x y) (setPixelNoGrayscaleImpl (b_fmt d)) = Some (b_px d' x y).
Proof.
  intros Hw Hh HP. unfold fillPixels.
  set (V := fun x y => obind (pixel x y) (setPixelNoGrayscaleImpl (b_fmt d))).
  assert (I : forall x y, x < w -> y < h -> inside d x y).
  { intros. unfold inside. rewrite Hw, Hh; auto. }
  rewrite (scatter_loop w h (fun x y d => obind (pixel x y) (setAt d x y))
    (fun x y => x) (fun x y => y) V d); auto.
  - apply (scatter_ok w h (fun x y => x) (fun x y => y) V d); auto.
  - intros x y s _ _ (E & _). unfold V, setAt. rewrite <- E.
    destruct (pixel x y); reflexivity.
Qed.

End Sums.

(** Proofs about the ownership of FreeImage's bitmaps. *)

From Coq Require Import NArith List Bool Lia Arith.
From Verif Require Import Base FormatModel TextureModel ImageModel ImageConvertModel ImageObjectModel
  ImageObjectSpec.
Import ListNotations.

Section Proofs.
Context {P S : Type} (W : world P S).
Local Notation heap := (heap P).
Local Notation M := (@M P).

Definition wf (h : heap) : Prop := forall i, h_at h i <> None -> i < h_next h.
Definition splits (h : heap) (F : nat -> Prop) (X : list nat) : Prop :=
  (forall i, h_at h i <> None <-> F i \/ In i X) /\ (forall i, In i X -> ~ F i).
Definition same (F : nat -> Prop) (h h' : heap) : Prop := forall i, F i -> h_at h' i = h_at h i.
Definition bitmapAt (h : heap) (a : nat) (b : fib P) : Prop := h_at h a = Some (TBitmap b).

(** [m] turns ownership of [X] into ownership of [Y], whatever else there is. *)
Definition triple {R} (X : list nat) (Pre : heap -> Prop) (m : M R) (Y : R -> list nat)
  (Q : R -> heap -> Prop) : Prop :=
  forall F h, wf h -> splits h F X -> Pre h ->
    exists h' r, m h = Some (h', r) /\ wf h' /\ splits h' F (Y r) /\ same F h h' /\ Q r h'.

Definition owned (o : img) : list nat := match o with Some im => [p_bitmap im] | None => [] end.
Definition ids (o : option nat) : list nat := match o with Some a => [a] | None => [] end.

(** An image agrees with its bitmap. *)
Definition sound (o : img) (h : heap) : Prop :=
  match o with
  | None => True
  | Some im => exists b, bitmapAt h (p_bitmap im) b /\
      p_info im = mkInfo b (i_format (p_info im)) (i_cs (p_info im)) /\
      (unpalette_ok W -> f_palette b = false)
  end.

Lemma same_refl F h : same F h h. Proof. intros i _; reflexivity. Qed.
Lemma same_trans F h1 h2 h3 : same F h1 h2 -> same F h2 h3 -> same F h1 h3.
Proof. intros A B i Fi. rewrite (B i Fi). apply A, Fi. Qed.

Lemma live_bitmap h a b : bitmapAt h a b -> h_at h a <> None.
Proof. unfold bitmapAt. intros ->. discriminate. Qed.

Lemma bind_some {X Y} (m : M X) (k : X -> M Y) h h' x : m h = Some (h', x) -> bind m k h = k x h'.
Proof. unfold bind. intros ->. reflexivity. Qed.
Lemma look_some h a b : bitmapAt h a b -> look a h = Some (h, b).
Proof. unfold look, bitmapAt. intros ->. reflexivity. Qed.

Lemma make_triple r : triple [] (fun _ => True) (make W r) ids
  (fun o h' => match o with Some a => exists b n, bitmapAt h' a b /\ w_make W n r = Some b | None => True end).
Proof.
  intros F h WF [L _] _. unfold make. destruct (w_make W (h_next h) r) as [b|] eqn:E.
  - eexists. eexists. split; [reflexivity|].
    assert (NF : ~ F (h_next h)).
    { intros Fi. assert (h_next h < h_next h); [|lia]. apply WF, L. auto. }
    split; [|split; [|split]].
    + intros i. cbn [h_at h_next]. unfold setAt. destruct (Nat.eqb_spec i (h_next h)); [lia|]. intros H. specialize (WF i H). lia.
    + split; cbn [h_at ids In].
      * intros i. unfold setAt. destruct (Nat.eqb_spec i (h_next h)) as [->|].
        -- split; intros; [auto|discriminate].
        -- rewrite L. cbn [In]. split; intros [?|?]; auto; try contradiction. destruct H; [congruence|contradiction].
      * intros i [<-|[]]. exact NF.
    + intros i Fi. cbn [h_at]. unfold setAt. destruct (Nat.eqb_spec i (h_next h)) as [->|]; [contradiction|reflexivity].
    + exists b, (h_next h). split; [|exact E]. unfold bitmapAt. cbn [h_at]. unfold setAt. rewrite Nat.eqb_refl. reflexivity.
  - eexists. eexists. split; [reflexivity|]. split; [|split; [|split]].
    + intros i H. specialize (WF i H). cbn [h_next]. lia.
    + split; [exact L|intros i []].
    + intros i _. reflexivity.
    + exact I.
Qed.

Lemma unload_triple a : triple [a] (fun h => exists b, bitmapAt h a b) (unload a) (fun _ => []) (fun _ _ => True).
Proof.
  intros F h WF [L D] [b B]. unfold unload. rewrite B. eexists. eexists. split; [reflexivity|].
  split; [|split; [|split]]; auto.
  - intros i. cbn [h_at h_next]. unfold setAt. destruct (Nat.eqb_spec i a); [congruence|apply WF].
  - split; [|intros i []]. intros i. cbn [h_at]. unfold setAt. destruct (Nat.eqb_spec i a) as [->|NE].
    + split; [congruence|]. intros [Fi|[]]. exfalso. apply (D a); [left; reflexivity|exact Fi].
    + rewrite L. cbn [In]. split; intros [?|?]; auto. destruct H; [congruence|contradiction].
  - intros i Fi. cbn [h_at]. unfold setAt. destruct (Nat.eqb_spec i a) as [->|]; [|reflexivity].
    exfalso. apply (D a); [left; reflexivity|exact Fi].
Qed.

Lemma store_triple a b d : triple [a] (fun h => bitmapAt h a b) (store a d) (fun _ => [a])
  (fun _ h' => bitmapAt h' a (withData b d)).
Proof.
  intros F h WF [L D] B. unfold store. rewrite B. eexists. eexists. split; [reflexivity|].
  split; [|split; [|split]].
  - intros i. cbn [h_at h_next]. unfold setAt. destruct (Nat.eqb_spec i a) as [->|]; [|apply WF].
    intros _. apply WF, L. right; left; reflexivity.
  - split; [|exact D]. intros i. cbn [h_at]. unfold setAt. destruct (Nat.eqb_spec i a) as [->|NE]; [|apply L].
    split; [|discriminate]. intros _. right; left; reflexivity.
  - intros i Fi. cbn [h_at]. unfold setAt. destruct (Nat.eqb_spec i a) as [->|]; [|reflexivity].
    exfalso. apply (D a); [left; reflexivity|exact Fi].
  - unfold bitmapAt. cbn [h_at]. unfold setAt. rewrite Nat.eqb_refl. reflexivity.
Qed.

Lemma known_triple src : triple [] (fun _ => True) (known W src) (fun _ => []) (fun _ _ => True).
Proof.
  intros F h WF [L D] _. eexists. eexists. split; [reflexivity|].
  split; [|split; [|split]]; auto.
  - intros i H. specialize (WF i H). cbn [h_next]. lia.
  - split; auto.
  - intros i _. reflexivity.
Qed.

(** Moving part of what is owned into the frame and back. *)
Lemma splits_frame h (F : nat -> Prop) X Y : splits h F (X ++ Y) -> (forall i, In i X -> ~ In i Y) ->
  splits h (fun i => F i \/ In i X) Y.
Proof.
  intros [L D] DJ. split.
  - intros i. rewrite L, in_app_iff. tauto.
  - intros i Hi [Fi|Xi]; [apply (D i); auto; apply in_app_iff; auto|apply (DJ i); auto].
Qed.
Lemma splits_unframe h (F : nat -> Prop) X Y : splits h (fun i => F i \/ In i X) Y -> (forall i, In i X -> ~ F i) ->
  splits h F (X ++ Y).
Proof.
  intros [L D] DJ. split.
  - intros i. rewrite L, in_app_iff. tauto.
  - intros i Hi Fi. apply in_app_iff in Hi. destruct Hi as [Hi|Hi]; [apply (DJ i); auto|apply (D i); auto].
Qed.
Lemma splits_equiv h F X Y : (forall i, In i X <-> In i Y) -> splits h F X -> splits h F Y.
Proof. intros E [L D]. split; intros i; [rewrite L, E; tauto|rewrite <- E; apply D]. Qed.

(** A computation that owns nothing at first may run while [X] is kept. *)
Lemma triple_keep {R} X Pre (m : M R) Y Q : triple [] Pre m Y Q ->
  triple X Pre m (fun r => X ++ Y r) Q.
Proof.
  intros T F h WF SP PR.
  destruct (T (fun i => F i \/ In i X) h WF) as (h' & r & E & WF' & SP' & SM & HQ); auto.
  { apply (splits_frame h F X []); [rewrite app_nil_r; exact SP|intros i _ []]. }
  exists h', r. split; [exact E|]. split; [exact WF'|]. split.
  { apply splits_unframe; [exact SP'|exact (proj2 SP)]. }
  split; [|exact HQ]. intros i Fi. apply SM. auto.
Qed.

Definition made (g : option imgfmt) cs (b : fib P) (o : img) (h' : heap) : Prop :=
  match o with
  | None => True
  | Some im => exists b', bitmapAt h' (p_bitmap im) b' /\
      (f_palette b = false /\ b' = b \/
       exists n, f_palette b = true /\ w_make W n (if f_transparent b then RTo32 b else RTo24 b) = Some b') /\
      (match g with Some f => Some f | None => getFormat b' end) = Some (i_format (p_info im)) /\
      p_info im = mkInfo b' (i_format (p_info im)) cs
  end.

Lemma create_triple a cs g b : triple [a] (fun h => bitmapAt h a b) (create W (Some a) cs g) owned (made g cs b).
Proof.
  intros F h WF SP B. unfold create.
  rewrite (bind_some _ _ _ _ _ (look_some _ _ _ B)). cbv beta.
  assert (TAIL : forall h' a' b', wf h' -> splits h' F [a'] -> same F h h' -> bitmapAt h' a' b' ->
    (f_palette b = false /\ b' = b \/
       exists n, f_palette b = true /\ w_make W n (if f_transparent b then RTo32 b else RTo24 b) = Some b') ->
    exists h'' r, bind (look a') (fun b' => match (match g with Some g => Some g | None => getFormat b' end) with
       | None => bind (unload a') (fun _ => ret None)
       | Some g => ret (Some (Impl a' (mkInfo b' g cs))) end) h' = Some (h'', r) /\ wf h'' /\ splits h'' F (owned r) /\
     same F h h'' /\ made g cs b r h'').
  { intros h' a' b' WF' SP' SM' B' FROM. rewrite (bind_some _ _ _ _ _ (look_some _ _ _ B')). cbv beta.
    destruct (match g with Some g => Some g | None => getFormat b' end) as [f|] eqn:EF.
    - exists h'. eexists. split; [reflexivity|]. split; [exact WF'|]. split; [exact SP'|]. split; [exact SM'|].
      exists b'. split; [exact B'|]. split; [exact FROM|]. split; [exact EF|reflexivity].
    - destruct (unload_triple a' F h' WF' SP') as (h2 & u & E2 & WF2 & SP2 & SM2 & _); [eauto|].
      rewrite (bind_some _ _ _ _ _ E2). exists h2. eexists. split; [reflexivity|]. split; [exact WF2|]. split; [exact SP2|].
      split; [eapply same_trans; eassumption|exact I]. }
  destruct (f_palette b) eqn:PB.
  - destruct (triple_keep [a] _ _ _ _ (make_triple (if f_transparent b then RTo32 b else RTo24 b)) F h WF SP I)
      as (h1 & n & E1 & WF1 & SP1 & SM1 & Q1).
    assert (NA : ~ In a (ids n)).
    { destruct (make_triple (if f_transparent b then RTo32 b else RTo24 b) (fun i => F i \/ In i [a]) h WF) as
        (h1' & n' & E1' & _ & SP1' & _); auto.
      - apply (splits_frame h F [a] []); [exact SP|intros i _ []].
      - rewrite E1 in E1'. injection E1' as <- <-. intros H. apply (proj2 SP1' a H). right; left; reflexivity. }
    assert (B1 : bitmapAt h1 a b).
    { destruct (make_triple (if f_transparent b then RTo32 b else RTo24 b) (fun i => F i \/ In i [a]) h WF) as
        (h1' & n' & E1' & _ & _ & SM1' & _); auto.
      - apply (splits_frame h F [a] []); [exact SP|intros i _ []].
      - rewrite E1 in E1'. injection E1' as <- <-. unfold bitmapAt. rewrite SM1'; [exact B|right; left; reflexivity]. }
    assert (SP1' : splits h1 (fun i => F i \/ In i (ids n)) [a]).
    { apply (splits_frame h1 F (ids n) [a]).
      - revert SP1. apply splits_equiv. intros i. rewrite !in_app_iff. tauto.
      - intros i Hi [<-|[]]. contradiction. }
    destruct (unload_triple a _ h1 WF1 SP1') as (h2 & u & E2 & WF2 & SP2 & SM2 & _); [eauto|].
    assert (SPF : splits h2 F (ids n)).
    { rewrite <- (app_nil_r (ids n)). apply splits_unframe; [exact SP2|].
      intros i Hi. apply (proj2 SP1). apply in_app_iff. auto. }
    assert (SMF : same F h h2).
    { eapply same_trans; [exact SM1|]. intros i Fi. apply SM2. auto. }
    erewrite bind_some; [|erewrite bind_some; [|exact E1]; cbv beta; erewrite bind_some; [|exact E2]; reflexivity].
    destruct n as [a'|].
    + destruct Q1 as (b' & k & B' & MK). apply (TAIL h2 a' b'); auto.
      * unfold bitmapAt. rewrite SM2; [exact B'|right; left; reflexivity].
      * right. exists k. auto.
    + exists h2. eexists. split; [reflexivity|]. split; [exact WF2|]. split; [exact SPF|]. split; [exact SMF|exact I].
  - erewrite bind_some; [|reflexivity]. cbv beta iota. apply (TAIL h a b); auto. apply same_refl.
Qed.

Lemma made_sound g cs b o h : made g cs b o h -> sound o h.
Proof.
  destruct o as [im|]; [|exact (fun _ => I)]. intros (b' & B & FROM & _ & E). exists b'. split; [exact B|].
  split; [rewrite E at 1; rewrite E; reflexivity|]. intros U.
  destruct FROM as [[PF ->]|(n & _ & MK)]; [exact PF|].
  destruct (f_transparent b); [destruct (proj2 (U n b b') MK) as ((_ & _ & _ & _ & _ & PF) & _)
    |destruct (proj1 (U n b b') MK) as ((_ & _ & _ & _ & _ & PF) & _)]; exact PF.
Qed.

(** make and then create. *)
Definition madeOf (r : request P S) (g : option imgfmt) cs (o : img) (h' : heap) : Prop :=
  o = None \/ exists b n, w_make W n r = Some b /\ made g cs b o h'.
Lemma made_create r cs g : triple [] (fun _ => True) (bind (make W r) (fun a => create W a cs g)) owned (madeOf r g cs).
Proof.
  intros F h WF SP _. destruct (make_triple r F h WF SP I) as (h1 & n & E1 & WF1 & SP1 & SM1 & Q1).
  rewrite (bind_some _ _ _ _ _ E1). destruct n as [a|].
  - destruct Q1 as (b & k & B & MK).
    destruct (create_triple a cs g b F h1 WF1 SP1 B) as (h2 & r2 & E2 & WF2 & SP2 & SM2 & Q2).
    exists h2, r2. split; [exact E2|]. split; [exact WF2|]. split; [exact SP2|].
    split; [eapply same_trans; eassumption|]. right. eauto.
  - exists h1, None. split; [reflexivity|]. split; [exact WF1|]. split; [exact SP1|]. split; [exact SM1|]. left; reflexivity.
Qed.

Lemma release_triple o : triple (owned o) (sound o) (release o) (fun _ => []) (fun _ _ => True).
Proof.
  destruct o as [im|]; cbn [release owned sound].
  - intros F h WF SP (b & B & _). apply unload_triple; auto. exists b. exact B.
  - intros F h WF SP _. exists h, tt. split; [reflexivity|]. split; [exact WF|]. split; [exact SP|]. split; [apply same_refl|exact I].
Qed.

Lemma madeOf_sound r g cs o h : madeOf r g cs o h -> sound o h.
Proof. intros [->|(b & n & _ & H)]; [exact I|eapply made_sound, H]. Qed.

Lemma made_size g cs b o h d : sizes_ok W -> o = Some d -> made g cs b o h -> i_w (p_info d) = f_w b /\ i_h (p_info d) = f_h b.
Proof.
  intros Z -> (b' & B & FROM & _ & E). rewrite E. cbn [mkInfo i_w i_h].
  destruct FROM as [[_ ->]|(n & _ & MK)]; [auto|].
  destruct Z as (_ & _ & Z24 & Z32 & _). destruct (f_transparent b); eauto.
Qed.

(** What an allocation for a format asks for. *)
Definition allocReq (g : imgfmt) (w h : N) : request P S :=
  let '(t, bpp, (r, gr, bl)) := getFreeImageFormat g in RAlloc t w h bpp r gr bl.

Lemma initImage_triple o f w h cs : triple (owned o) (sound o) (initImage W o f w h cs) owned
  (fun r h' => match f with Some g => madeOf (allocReq g w h) (Some g) cs r h' | None => r = None end).
Proof.
  intros F h0 WF SP SO. destruct (release_triple o F h0 WF SP SO) as (h1 & u & E1 & WF1 & SP1 & SM1 & _).
  unfold initImage. rewrite (bind_some _ _ _ _ _ E1). destruct f as [g|].
  - unfold allocReq. destruct (getFreeImageFormat g) as [[t bpp] [[r gr] bl]] eqn:EG.
    destruct (made_create (RAlloc t w h bpp r gr bl) cs (Some g) F h1 WF1 SP1 I) as (h2 & x & E2 & WF2 & SP2 & SM2 & Q2).
    exists h2, x. split; [exact E2|]. split; [exact WF2|]. split; [exact SP2|].
    split; [eapply same_trans; eassumption|exact Q2].
  - exists h1, None. split; [reflexivity|]. split; [exact WF1|]. split; [exact SP1|]. split; [exact SM1|reflexivity].
Qed.

(** An image in the frame. *)
Definition inFrame (F : nat -> Prop) (im : impl) : Prop := F (p_bitmap im).

(** Computations that read the image [im] in the frame and make a new one. *)
Definition reads_and_makes (im : impl) (m : M img) (Q : fib P -> img -> heap -> Prop) : Prop :=
  forall F h b, wf h -> splits h F [] -> F (p_bitmap im) -> bitmapAt h (p_bitmap im) b ->
    exists h' r, m h = Some (h', r) /\ wf h' /\ splits h' F (owned r) /\ same F h h' /\ sound r h' /\ Q b r h'.

Lemma copyOf_ok im : reads_and_makes im (copyOf W (Some im))
  (fun b => madeOf (RClone b) (Some (i_format (p_info im))) (i_cs (p_info im))).
Proof.
  intros F h b WF SP FI B. unfold copyOf. rewrite (bind_some _ _ _ _ _ (look_some _ _ _ B)). cbv beta.
  destruct (made_create (RClone b) (i_cs (p_info im)) (Some (i_format (p_info im))) F h WF SP I)
    as (h2 & x & E2 & WF2 & SP2 & SM2 & Q2).
  exists h2, x. split.
  - revert E2. unfold bind. destruct (make W (RClone b) h) as [[h1 [a|]]|]; auto.
  - split; [exact WF2|]. split; [exact SP2|]. split; [exact SM2|]. split; [eapply madeOf_sound, Q2|exact Q2].
Qed.

Lemma withData_info (b : fib P) d f cs : mkInfo (withData b d) f cs = mkInfo b f cs.
Proof. reflexivity. Qed.

Lemma fresh_ok im f w h wk : reads_and_makes im (fresh W im f w h wk)
  (fun b r h' => match r with
     | None => True
     | Some d => exists g b0 n b1, f = Some g /\ w_make W n (allocReq g w h) = Some b0 /\ i_format (p_info d) = g /\
         i_cs (p_info d) = i_cs (p_info im) /\ (f_palette b0 = false -> b1 = b0) /\ (sizes_ok W -> i_w (p_info d) = w /\ i_h (p_info d) = h) /\
         bitmapAt h' (p_bitmap d) (withData b1 (w_work W wk b (i_format (p_info im)) b1)) end).
Proof.
  intros F h0 b WF SP FI B. unfold fresh.
  destruct (initImage_triple None f w h (i_cs (p_info im)) F h0 WF SP I) as (h1 & r & E1 & WF1 & SP1 & SM1 & Q1).
  rewrite (bind_some _ _ _ _ _ E1). destruct r as [d|].
  - assert (SO : sound (Some d) h1) by (destruct f; [eapply madeOf_sound, Q1|discriminate]).
    destruct SO as (bd & BD & ED & PD).
    assert (B1 : bitmapAt h1 (p_bitmap im) b) by (unfold bitmapAt; rewrite SM1; auto).
    unfold fill.
    destruct (store_triple (p_bitmap d) bd (w_work W wk b (i_format (p_info im)) bd) F h1 WF1 SP1 BD)
      as (h2 & u & E2 & WF2 & SP2 & SM2 & Q2).
    erewrite bind_some; [|erewrite bind_some; [|exact (look_some _ _ _ B1)]; cbv beta; erewrite bind_some; [|exact (look_some _ _ _ BD)]; exact E2].
    exists h2. eexists. split; [reflexivity|]. split; [exact WF2|]. split; [exact SP2|].
    split; [eapply same_trans; eassumption|]. split.
    + exists (withData bd (w_work W wk b (i_format (p_info im)) bd)). split; [exact Q2|]. rewrite withData_info. split; [exact ED|exact PD].
    + destruct f as [g|]; [|discriminate]. destruct Q1 as [Q1|(b0 & n & MK & b1 & BB & FROM & FM & IN)]; [discriminate|].
      assert (b1 = bd) by (unfold bitmapAt in *; congruence). subst b1.
      exists g, b0, n, bd. split; [reflexivity|]. split; [exact MK|]. split; [injection FM; auto|].
      split; [rewrite IN; reflexivity|]. split; [|split; [|exact Q2]].
      * intros PF. destruct FROM as [[_ ->]|(k & PT & _)]; [reflexivity|congruence].
      * intros Z. destruct (made_size (Some g) (i_cs (p_info im)) b0 (Some d) h1 d Z eq_refl) as [-> ->]; [exists bd; auto|].
        unfold allocReq in MK. destruct (getFreeImageFormat g) as [[t bpp] [[r gr] bl]]. exact (proj1 Z _ _ _ _ _ _ _ _ _ MK).
  - exists h1, None. split; [reflexivity|]. split; [exact WF1|]. split; [exact SP1|]. split; [exact SM1|]. split; exact I.
Qed.

Lemma reads_weaken im m (Q Q' : fib P -> img -> heap -> Prop) : reads_and_makes im m Q ->
  (forall b r h, Q b r h -> Q' b r h) -> reads_and_makes im m Q'.
Proof.
  intros T H F h b WF SP FI B. destruct (T F h b WF SP FI B) as (h' & r & R1 & R2 & R3 & R4 & R5 & R6).
  exists h', r. auto 10.
Qed.

(** The result, if any, has this format, colour space and size. *)
Definition shaped (im : impl) (f : option imgfmt) (cs : colorspace) (w h : N) : fib P -> img -> heap -> Prop :=
  fun b r _ => match r with
  | None => True
  | Some d => f = Some (i_format (p_info d)) /\ i_cs (p_info d) = cs /\
      (sizes_ok W -> i_w (p_info im) = f_w b -> i_h (p_info im) = f_h b -> i_w (p_info d) = w /\ i_h (p_info d) = h)
  end.

Lemma none_ok im (Q : fib P -> img -> heap -> Prop) : (forall b h, Q b None h) -> reads_and_makes im (ret None) Q.
Proof.
  intros HQ F h b WF SP FI B. exists h, None. split; [reflexivity|]. split; [exact WF|]. split; [exact SP|].
  split; [apply same_refl|]. split; [exact I|apply HQ].
Qed.

Lemma fresh_shaped im f w h wk : reads_and_makes im (fresh W im f w h wk) (shaped im f (i_cs (p_info im)) w h).
Proof.
  eapply reads_weaken; [apply fresh_ok|]. intros b [d|] h'; [|exact (fun _ => I)].
  intros (g & b0 & n & b1 & -> & MK & <- & EC & _ & Z & _). split; [reflexivity|]. split; [exact EC|]. auto.
Qed.
Lemma madeOf_shaped im (req : fib P -> request P S) g cs w h b r h' :
  (sizes_ok W -> i_w (p_info im) = f_w b -> i_h (p_info im) = f_h b ->
     forall n b', w_make W n (req b) = Some b' -> f_w b' = w /\ f_h b' = h) ->
  madeOf (req b) (Some g) cs r h' -> shaped im (Some g) cs w h b r h'.
Proof.
  intros HZ [->|(b0 & n & MK & MD)]; [exact I|]. destruct r as [d|]; [|exact I].
  split; [destruct MD as (b' & _ & _ & FM & _); exact FM|]. split; [destruct MD as (b' & _ & _ & _ & ->); reflexivity|].
  intros Z EW EH. destruct (made_size _ _ _ _ _ d Z eq_refl MD) as [-> ->]. eauto.
Qed.
Lemma copyOf_shaped im : reads_and_makes im (copyOf W (Some im))
  (shaped im (Some (i_format (p_info im))) (i_cs (p_info im)) (i_w (p_info im)) (i_h (p_info im))).
Proof.
  eapply reads_weaken; [apply copyOf_ok|]. intros b r h. apply (madeOf_shaped im RClone).
  intros (_ & Z & _) EW EH n b' MK. rewrite EW, EH. eauto.
Qed.

(** Try one way and then another. *)
Lemma orElse_ok im (m n : M img) Q : reads_and_makes im m Q -> reads_and_makes im n Q ->
  reads_and_makes im (bind m (fun r => match r with Some d => ret (Some d) | None => n end)) Q.
Proof.
  intros T1 T2 F h b WF SP FI B. destruct (T1 F h b WF SP FI B) as (h1 & r & E1 & WF1 & SP1 & SM1 & SO1 & Q1).
  rewrite (bind_some _ _ _ _ _ E1). destruct r as [d|].
  - exists h1, (Some d). split; [reflexivity|]. split; [exact WF1|]. split; [exact SP1|]. split; [exact SM1|]. split; [exact SO1|exact Q1].
  - destruct (T2 F h1 b WF1 SP1 FI) as (h2 & r2 & E2 & WF2 & SP2 & SM2 & SO2 & Q2).
    { unfold bitmapAt. rewrite SM1; auto. }
    exists h2, r2. split; [exact E2|]. split; [exact WF2|]. split; [exact SP2|].
    split; [eapply same_trans; eassumption|]. split; [exact SO2|exact Q2].
Qed.

Lemma lookMake_ok im (req : fib P -> request P S) cs g :
  reads_and_makes im (bind (look (p_bitmap im)) (fun b => bind (make W (req b)) (fun a => create W a cs g)))
    (fun b => madeOf (req b) g cs).
Proof.
  intros F h b WF SP FI B. rewrite (bind_some _ _ _ _ _ (look_some _ _ _ B)). cbv beta.
  destruct (made_create (req b) cs g F h WF SP I) as (h2 & x & E2 & WF2 & SP2 & SM2 & Q2).
  exists h2, x. split; [exact E2|]. split; [exact WF2|]. split; [exact SP2|]. split; [exact SM2|].
  split; [eapply madeOf_sound, Q2|exact Q2].
Qed.

Lemma convertImage_ok im f gray : reads_and_makes im (convertImage W (Some im) f gray)
  (shaped im f (i_cs (p_info im)) (i_w (p_info im)) (i_h (p_info im))).
Proof.
  unfold convertImage. destruct f as [g|]; [|apply none_ok; intros; exact I].
  destruct (imgfmt_eqb (i_format (p_info im)) g) eqn:EF; [assert (i_format (p_info im) = g) as <- by (revert EF; clear; destruct (i_format (p_info im)), g; reflexivity || discriminate); apply copyOf_shaped|].
  apply orElse_ok; [|apply fresh_shaped].
  destruct (fiCall _ _ _) as [c|]; [|apply none_ok; intros; exact I].
  eapply reads_weaken; [apply (lookMake_ok im (RConvert c))|]. intros b r h. apply (madeOf_shaped im (RConvert c)).
  intros (_ & _ & _ & _ & Z & _) EW EH n b' MK. rewrite EW, EH. eauto.
Qed.

Lemma resizeLinear_ok im w h f : reads_and_makes im (resizeLinear W im w h f)
  (shaped im (Some (i_format (p_info im))) (i_cs (p_info im)) w h).
Proof.
  unfold resizeLinear. apply orElse_ok.
  - destruct (rescales _); [|apply none_ok; intros; exact I].
    eapply reads_weaken; [apply (lookMake_ok im (fun b => RRescale b w h f))|]. intros b r h'.
    apply (madeOf_shaped im (fun b => RRescale b w h f)).
    intros (_ & _ & _ & _ & _ & Z & _) EW EH n b' MK. eauto.
  - destruct f; try (apply none_ok; intros; exact I); apply fresh_shaped.
Qed.

Lemma changeImage_triple o c : triple (owned o) (sound o) (changeImage W o c) owned
  (fun r h' => sound r h' /\ (o = None <-> r = None) /\
     (forall im im', o = Some im -> r = Some im' -> p_bitmap im' = p_bitmap im /\
        i_format (p_info im') = i_format (p_info im) /\ i_w (p_info im') = i_w (p_info im) /\ i_h (p_info im') = i_h (p_info im) /\
        i_cs (p_info im') = match c with ChSpace cs => cs | _ => i_cs (p_info im) end)).
Proof.
  intros F h WF SP SO. destruct o as [im|].
  - destruct SO as (b & B & EI & PB). unfold changeImage.
    destruct (store_triple (p_bitmap im) b (w_change W c (i_format (p_info im)) (i_cs (p_info im)) b) F h WF SP B)
      as (h1 & u & E1 & WF1 & SP1 & SM1 & Q1).
    rewrite (bind_some _ _ _ _ _ (look_some _ _ _ B)). cbv beta. rewrite (bind_some _ _ _ _ _ E1).
    exists h1. eexists. split; [reflexivity|]. split; [exact WF1|]. split; [destruct c; exact SP1|].
    split; [exact SM1|]. split.
    + destruct c; (eexists; split; [exact Q1|]); rewrite withData_info; (split; [|exact PB]); try exact EI.
      cbn [p_info i_format i_cs]. rewrite EI. reflexivity.
    + split; [split; discriminate|]. intros im0 im' H1 H2. injection H1 as <-. injection H2 as <-. destruct c; auto 10.
  - exists h, None. split; [reflexivity|]. split; [exact WF|]. split; [exact SP|]. split; [apply same_refl|].
    split; [exact I|]. split; [tauto|discriminate].
Qed.

Lemma resizeImage_ok im w h f : reads_and_makes im (resizeImage W (Some im) w h f)
  (shaped im (Some (i_format (p_info im))) (i_cs (p_info im)) w h).
Proof.
  unfold resizeImage. destruct (_ || _)%bool; [apply none_ok; intros; exact I|].
  destruct (_ && _)%bool eqn:SAME.
  { apply Bool.andb_true_iff in SAME. destruct SAME as [-> %N.eqb_eq -> %N.eqb_eq]. apply copyOf_shaped. }
  pose proof (resizeLinear_ok im w h f) as LIN. destruct (i_cs (p_info im)) eqn:CS; [exact LIN|]. clear LIN.
  intros F h0 b WF SP FI B.
  destruct (copyOf_shaped im F h0 b WF SP FI B) as (h1 & c & E1 & WF1 & SP1 & SM1 & SO1 & QC).
  rewrite (bind_some _ _ _ _ _ E1).
  destruct (changeImage_triple c (ChSpace CS_Linear) F h1 WF1 SP1 SO1) as (h2 & c' & E2 & WF2 & SP2 & SM2 & SO2 & NN & KEEP).
  rewrite (bind_some _ _ _ _ _ E2).
  set (F' := fun i => F i \/ In i (owned c')).
  assert (SPF : splits h2 F' []).
  { apply (splits_frame h2 F (owned c') []); [rewrite app_nil_r; exact SP2|intros i _ []]. }
  assert (exists h3 r, (match c' with None => ret None | Some im' => resizeLinear W im' w h f end) h2 = Some (h3, r) /\
    wf h3 /\ splits h3 F' (owned r) /\ same F' h2 h3 /\ sound r h3 /\ shaped im (Some (i_format (p_info im))) CS_Linear w h b r h3)
    as (h3 & r & E3 & WF3 & SP3 & SM3 & SO3 & QR).
  { destruct c' as [im'|].
    - destruct SO2 as (b' & B' & EI & _).
      destruct (resizeLinear_ok im' w h f F' h2 b' WF2 SPF) as (h3 & r & R1 & R2 & R3 & R4 & R5 & R6); auto.
      { right; left; reflexivity. }
      exists h3, r. split; [exact R1|]. split; [exact R2|]. split; [exact R3|]. split; [exact R4|]. split; [exact R5|].
      destruct c as [imc|]; [|destruct NN as [NN _]; discriminate (NN eq_refl)].
      destruct (KEEP imc im' eq_refl eq_refl) as (_ & KF & _ & _ & KC). destruct QC as (QF & _).
      destruct r as [d|]; [|exact I]. destruct R6 as (RF & RC & RZ). split; [congruence|]. split; [congruence|].
      intros Z _ _. apply RZ; [exact Z|rewrite EI; reflexivity|rewrite EI; reflexivity].
    - exists h2, None. split; [reflexivity|]. split; [exact WF2|]. split; [exact SPF|]. split; [apply same_refl|]. split; exact I. }
  rewrite (bind_some _ _ _ _ _ E3).
  set (F2 := fun i => F i \/ In i (owned r)).
  assert (SP3' : splits h3 F2 (owned c')).
  { split.
    - intros i. rewrite (proj1 SP3). unfold F', F2. tauto.
    - intros i Hi [Fi|Ri].
      + apply (proj2 SP2 i Hi Fi).
      + apply (proj2 SP3 i Ri). right. exact Hi. }
  assert (SOC : sound c' h3).
  { destruct c' as [im'|]; [|exact I]. destruct SO2 as (b' & B' & EI). exists b'. split; [|exact EI].
    unfold bitmapAt. rewrite SM3; [exact B'|right; left; reflexivity]. }
  destruct (release_triple c' F2 h3 WF3 SP3' SOC) as (h4 & u & E4 & WF4 & SP4 & SM4 & _).
  rewrite (bind_some _ _ _ _ _ E4).
  assert (SP4' : splits h4 F (owned r)).
  { rewrite <- (app_nil_r (owned r)). apply splits_unframe; [exact SP4|]. intros i Hi Fi. apply (proj2 SP3 i Hi). left; exact Fi. }
  assert (SO4 : sound r h4).
  { destruct r as [im'|]; [|exact I]. destruct SO3 as (b' & B' & EI). exists b'. split; [|exact EI].
    unfold bitmapAt. rewrite SM4; [exact B'|right; left; reflexivity]. }
  destruct (changeImage_triple r (ChSpace CS_sRGB) F h4 WF4 SP4' SO4) as (h5 & r5 & E5 & WF5 & SP5 & SM5 & SO5 & N5 & K5).
  exists h5, r5. split; [exact E5|]. split; [exact WF5|]. split; [exact SP5|]. split; [|split; [exact SO5|]].
  - intros i Fi. rewrite (SM5 i Fi), (SM4 i (or_introl Fi)), (SM3 i (or_introl Fi)), (SM2 i Fi). apply SM1, Fi.
  - destruct r5 as [d|]; [|exact I]. destruct r as [d0|]; [|destruct N5 as [N5 _]; discriminate (N5 eq_refl)].
    destruct (K5 d0 d eq_refl eq_refl) as (_ & KF & KW & KH & KC). destruct QR as (RF & _ & RZ).
    split; [congruence|]. split; [exact KC|]. rewrite KW, KH. exact RZ.
Qed.

Lemma rotateImage_ok im d : reads_and_makes im (rotateImage W (Some im) d)
  (shaped im (Some (i_format (p_info im))) (i_cs (p_info im))
     (if N.eqb d 180 then i_w (p_info im) else i_h (p_info im)) (if N.eqb d 180 then i_h (p_info im) else i_w (p_info im))).
Proof.
  intros F h b WF SP FI B. unfold rotateImage. rewrite (bind_some _ _ _ _ _ (look_some _ _ _ B)). cbv beta.
  destruct (made_create (RRotate b d) (i_cs (p_info im)) (Some (i_format (p_info im))) F h WF SP I)
    as (h1 & r & E1 & WF1 & SP1 & SM1 & Q1).
  assert (E : forall k : img -> M img, bind (make W (RRotate b d)) (fun a => bind (create W a (i_cs (p_info im)) (Some (i_format (p_info im)))) k) h = k r h1).
  { intros k. revert E1. unfold bind. destruct (make W (RRotate b d) h) as [[h' a]|]; [|discriminate]. intros ->. reflexivity. }
  rewrite E. destruct r as [x|].
  - exists h1, (Some x). split; [reflexivity|]. split; [exact WF1|]. split; [exact SP1|]. split; [exact SM1|].
    split; [eapply madeOf_sound, Q1|]. revert Q1. apply (madeOf_shaped im (fun b => RRotate b d)).
    intros (_ & _ & _ & _ & _ & _ & Z1 & Z2) EW EH n b' MK. rewrite EW, EH.
    destruct (N.eqb_spec d 180) as [->|NE]; eauto.
  - assert (B1 : bitmapAt h1 (p_bitmap im) b) by (unfold bitmapAt; rewrite SM1; auto).
    destruct (N.eqb d 180);
      [destruct (fresh_shaped im (Some (i_format (p_info im))) (i_w (p_info im)) (i_h (p_info im)) (WRotate d) F h1 b WF1 SP1 FI B1)
         as (h2 & r2 & E2 & WF2 & SP2 & SM2 & SO2 & Q2)
      |destruct (fresh_shaped im (Some (i_format (p_info im))) (i_h (p_info im)) (i_w (p_info im)) (WRotate d) F h1 b WF1 SP1 FI B1)
         as (h2 & r2 & E2 & WF2 & SP2 & SM2 & SO2 & Q2)];
      exists h2, r2; (split; [exact E2|]); (split; [exact WF2|]); (split; [exact SP2|]);
      (split; [eapply same_trans; eassumption|]); (split; [exact SO2|exact Q2]).
Qed.

Lemma normalImage_ok im k f : reads_and_makes im (normalImage W (Some im) k f)
  (shaped im f (i_cs (p_info im)) (i_w (p_info im)) (i_h (p_info im))).
Proof. apply fresh_shaped. Qed.

Lemma loadHandle_triple o src cs : triple (owned o) (sound o) (loadHandle W o src cs) owned
  (fun r h' => madeOf (RLoad src) None cs r h').
Proof.
  intros F h WF SP SO. destruct (release_triple o F h WF SP SO) as (h1 & u & E1 & WF1 & SP1 & SM1 & _).
  unfold loadHandle. rewrite (bind_some _ _ _ _ _ E1).
  destruct (known_triple src F h1 WF1 SP1 I) as (h2 & k & E2 & WF2 & SP2 & SM2 & _).
  rewrite (bind_some _ _ _ _ _ E2). destruct k.
  - destruct (made_create (RLoad src) cs None F h2 WF2 SP2 I) as (h3 & r & E3 & WF3 & SP3 & SM3 & Q3).
    exists h3, r. split; [exact E3|]. split; [exact WF3|]. split; [exact SP3|]. split; [|exact Q3].
    eapply same_trans; [exact SM1|]. eapply same_trans; eassumption.
  - exists h2, None. split; [reflexivity|]. split; [exact WF2|]. split; [exact SP2|].
    split; [eapply same_trans; eassumption|left; reflexivity].
Qed.

Lemma closeMemory_triple a : triple [a] (fun h => h_at h a = Some TMemory) (closeMemory a) (fun _ => []) (fun _ _ => True).
Proof.
  intros F h WF [L D] B. unfold closeMemory. rewrite B. eexists. eexists. split; [reflexivity|].
  split; [|split; [|split]]; auto.
  - intros i. cbn [h_at h_next]. unfold setAt. destruct (Nat.eqb_spec i a); [congruence|apply WF].
  - split; [|intros i []]. intros i. cbn [h_at]. unfold setAt. destruct (Nat.eqb_spec i a) as [->|NE].
    + split; [congruence|]. intros [Fi|[]]. exfalso. apply (D a); [left; reflexivity|exact Fi].
    + rewrite L. cbn [In]. split; intros [?|?]; auto. destruct H; [congruence|contradiction].
  - intros i Fi. cbn [h_at]. unfold setAt. destruct (Nat.eqb_spec i a) as [->|]; [|reflexivity].
    exfalso. apply (D a); [left; reflexivity|exact Fi].
Qed.

Lemma openMemory_triple : triple [] (fun _ => True) (openMemory W) ids
  (fun o h' => match o with Some a => h_at h' a = Some TMemory | None => True end).
Proof.
  intros F h WF [L _] _. unfold openMemory. destruct (w_open W (h_next h)).
  - eexists. eexists. split; [reflexivity|].
    assert (NF : ~ F (h_next h)).
    { intros Fi. assert (h_next h < h_next h); [|lia]. apply WF, L. auto. }
    split; [|split; [|split]].
    + intros i. cbn [h_at h_next]. unfold setAt. destruct (Nat.eqb_spec i (h_next h)); [lia|]. intros H. specialize (WF i H). lia.
    + split; cbn [h_at ids In].
      * intros i. unfold setAt. destruct (Nat.eqb_spec i (h_next h)) as [->|].
        -- split; intros; [auto|discriminate].
        -- rewrite L. cbn [In]. split; intros [?|?]; auto; try contradiction. destruct H; [congruence|contradiction].
      * intros i [<-|[]]. exact NF.
    + intros i Fi. cbn [h_at]. unfold setAt. destruct (Nat.eqb_spec i (h_next h)) as [->|]; [contradiction|reflexivity].
    + cbn [h_at]. unfold setAt. rewrite Nat.eqb_refl. reflexivity.
  - eexists. eexists. split; [reflexivity|]. split; [|split; [|split]].
    + intros i H. specialize (WF i H). cbn [h_next]. lia.
    + split; [exact L|intros i []].
    + intros i _. reflexivity.
    + exact I.
Qed.

Lemma loadMemory_triple o src cs : triple (owned o) (sound o) (loadMemory W o src cs) owned
  (fun r h' => madeOf (RLoad src) None cs r h').
Proof.
  intros F h WF SP SO. destruct (release_triple o F h WF SP SO) as (h1 & u & E1 & WF1 & SP1 & SM1 & _).
  unfold loadMemory. rewrite (bind_some _ _ _ _ _ E1).
  destruct (openMemory_triple F h1 WF1 SP1 I) as (h2 & m & E2 & WF2 & SP2 & SM2 & Q2).
  rewrite (bind_some _ _ _ _ _ E2). destruct m as [m|].
  2: { exists h2, None. split; [reflexivity|]. split; [exact WF2|]. split; [exact SP2|].
       split; [eapply same_trans; eassumption|left; reflexivity]. }
  set (F' := fun i => F i \/ In i [m]).
  assert (SPF : splits h2 F' []).
  { apply (splits_frame h2 F [m] []); [exact SP2|intros i _ []]. }
  destruct (known_triple src F' h2 WF2 SPF I) as (h3 & k & E3 & WF3 & SP3 & SM3 & _).
  rewrite (bind_some _ _ _ _ _ E3). destruct k.
  - destruct (made_create (RLoad src) cs None F' h3 WF3 SP3 I) as (h4 & r & E4 & WF4 & SP4 & SM4 & Q4).
    assert (E : forall j : img -> M img, bind (make W (RLoad src)) (fun a => bind (create W a cs None) j) h3 = j r h4).
    { intros j. revert E4. unfold bind. destruct (make W (RLoad src) h3) as [[h' a]|]; [|discriminate]. intros ->. reflexivity. }
    rewrite E.
    assert (SP4' : splits h4 (fun i => F i \/ In i (owned r)) [m]).
    { split.
      - intros i. rewrite (proj1 SP4). unfold F'. tauto.
      - intros i Hi [Fi|Ri].
        + apply (proj2 SP2 i Hi Fi).
        + apply (proj2 SP4 i Ri). right. exact Hi. }
    destruct (closeMemory_triple m _ h4 WF4 SP4') as (h5 & u5 & E5 & WF5 & SP5 & SM5 & _).
    { rewrite SM4, SM3; [exact Q2|right; left; reflexivity|right; left; reflexivity]. }
    rewrite (bind_some _ _ _ _ _ E5). exists h5, r. split; [reflexivity|]. split; [exact WF5|]. split.
    { rewrite <- (app_nil_r (owned r)). apply splits_unframe; [exact SP5|]. intros i Hi Fi. apply (proj2 SP4 i Hi). left; exact Fi. }
    split.
    { intros i Fi. rewrite (SM5 i (or_introl Fi)), (SM4 i (or_introl Fi)), (SM3 i (or_introl Fi)), (SM2 i Fi). apply SM1, Fi. }
    destruct Q4 as [->|(b & n & MK & MD)]; [left; reflexivity|]. right. exists b, n. split; [exact MK|].
    destruct r as [im|]; [|exact I]. destruct MD as (b' & B' & R). exists b'. split; [|exact R].
    unfold bitmapAt. rewrite SM5; [exact B'|right; left; reflexivity].
  - assert (SP3' : splits h3 F [m]).
    { apply (splits_unframe h3 F [m] []); [exact SP3|exact (proj2 SP2)]. }
    destruct (closeMemory_triple m F h3 WF3 SP3') as (h5 & u5 & E5 & WF5 & SP5 & SM5 & _).
    { rewrite SM3; [exact Q2|right; left; reflexivity]. }
    rewrite (bind_some _ _ _ _ _ E5). exists h5, None. split; [reflexivity|]. split; [exact WF5|]. split; [exact SP5|].
    split; [|left; reflexivity].
    intros i Fi. rewrite (SM5 i Fi), (SM3 i (or_introl Fi)), (SM2 i Fi). apply SM1, Fi.
Qed.

Lemma loadImage_triple o k src cs : triple (owned o) (sound o) (loadImage W o k src cs) owned
  (fun r h' => madeOf (RLoad src) None cs r h').
Proof.
  destruct k as [|[|]|]; cbn [loadImage]; auto using loadHandle_triple, loadMemory_triple.
Qed.

End Proofs.

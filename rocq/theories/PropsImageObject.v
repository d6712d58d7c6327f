(** C58 and C59: Image objects, their descriptors and the bitmaps they own. *)

From Coq Require Import NArith ZArith List Bool Lia Arith.
From Coq Require Import ZifyBool ZifyNat ZifyN.
From Verif Require Import Base FormatModel TextureModel ImageModel ImageConvertModel ImageObjectModel
  ImageObjectSpec ImageObjectProofs.
Import ListNotations.

Section Programs.
Context {P S : Type} (W : world P S).

Definition inv (s : pstate P) : Prop :=
  wf (ps_heap s) /\ (forall i, h_at (ps_heap s) i <> None <-> exists v, holds_at s v i) /\
  no_sharing s /\ (forall v o, ps_vars s v = Some o -> sound W o (ps_heap s)).

Definition others (s : pstate P) (v : nat) (i : nat) : Prop := exists w, w <> v /\ holds_at s w i.
Definition ownedBy (s : pstate P) (v : nat) : list nat :=
  match ps_vars s v with Some o => owned o | None => [] end.

Lemma holds_owned s v i : holds_at s v i <-> In i (ownedBy s v).
Proof.
  unfold holds_at, ownedBy. destruct (ps_vars s v) as [[im|]|]; cbn [owned In].
  - split; [intros (x & E & <-); injection E as <-; auto|intros [<-|[]]; eauto].
  - split; [intros (x & E & _); discriminate|intros []].
  - split; [intros (x & E & _); discriminate|intros []].
Qed.

Lemma split_var s v : inv s -> splits (ps_heap s) (others s v) (ownedBy s v).
Proof.
  intros (_ & L & NS & _). split.
  - intros i. rewrite L. split.
    + intros [w H]. destruct (Nat.eq_dec w v) as [->|NE]; [right; apply holds_owned, H|left; exists w; auto].
    + intros [(w & _ & H)|H]; [exists w; exact H|exists v; apply holds_owned, H].
  - intros i H (w & NE & HW). apply holds_owned in H. apply NE, (NS w v i HW H).
Qed.

Lemma setVar_same m v x : setVar m v x v = x.
Proof. unfold setVar. rewrite Nat.eqb_refl. reflexivity. Qed.
Lemma setVar_other m v x w : w <> v -> setVar m v x w = m w.
Proof. unfold setVar. intros H. destruct (Nat.eqb_spec w v); [contradiction|reflexivity]. Qed.

Lemma sees_eq (s s' : pstate P) w : ps_vars s' w = ps_vars s w ->
  (forall i, holds_at s w i -> h_at (ps_heap s') i = h_at (ps_heap s) i) -> sees s' w = sees s w.
Proof.
  intros E H. unfold sees. rewrite E. destruct (ps_vars s w) as [[im|]|] eqn:V; auto.
  rewrite H; auto. exists im. auto.
Qed.

(** Replacing the contents of one variable. *)
Lemma replace_var s v h' (x : option img) : inv s ->
  wf h' -> splits h' (others s v) (match x with Some o => owned o | None => [] end) ->
  same (others s v) (ps_heap s) h' -> (forall o, x = Some o -> sound W o h') ->
  let s' := PState (setVar (ps_vars s) v x) h' in
  inv s' /\ forall w, w <> v -> sees s' w = sees s w.
Proof.
  intros (_ & L & NS & SO) WF [L' D'] SM SX s'.
  assert (HO : forall w i, w <> v -> (holds_at s' w i <-> holds_at s w i)).
  { intros w i NE. unfold holds_at, s'. cbn [ps_vars]. rewrite setVar_other by auto. tauto. }
  assert (HV : forall i, holds_at s' v i <-> In i (match x with Some o => owned o | None => [] end)).
  { intros i. rewrite holds_owned. unfold ownedBy, s'. cbn [ps_vars]. rewrite setVar_same. tauto. }
  split.
  - split; [exact WF|]. split; [|split].
    + intros i. cbn [ps_heap s']. rewrite L'. split.
      * intros [(w & NE & H)|H]; [exists w; apply HO; auto|exists v; apply HV, H].
      * intros [w H]. destruct (Nat.eq_dec w v) as [->|NE]; [right; apply HV, H|left; exists w; split; [exact NE|apply HO; auto]].
    + intros a b i Ha Hb. destruct (Nat.eq_dec a v) as [->|Na], (Nat.eq_dec b v) as [->|Nb]; auto.
      * exfalso. apply (D' i); [apply HV, Ha|]. exists b. split; [exact Nb|]. apply HO; auto.
      * exfalso. apply (D' i); [apply HV, Hb|]. exists a. split; [exact Na|]. apply HO; auto.
      * apply (NS a b i); apply HO; auto.
    + intros w o. unfold s'; cbn [ps_vars ps_heap]. destruct (Nat.eq_dec w v) as [->|NE].
      * rewrite setVar_same. apply SX.
      * rewrite setVar_other by auto. intros E. specialize (SO w o E). destruct o as [im|]; [|exact I].
        destruct SO as (b & B & R). exists b. split; [|exact R]. unfold bitmapAt in *. rewrite SM; [exact B|].
        exists w. split; [exact NE|]. exists im. auto.
  - intros w NE. apply sees_eq.
    + unfold s'; cbn [ps_vars]. apply setVar_other, NE.
    + intros i H. apply SM. exists w. auto.
Qed.

Lemma inv_ext (s s' : pstate P) : (forall w, ps_vars s w = ps_vars s' w) -> ps_heap s = ps_heap s' -> inv s -> inv s'.
Proof.
  intros V H (A1 & A2 & A3 & A4). rewrite H in *.
  assert (HO : forall w i, holds_at s' w i <-> holds_at s w i) by (intros w i; unfold holds_at; rewrite V; tauto).
  split; [exact A1|]. split; [|split].
  - intros i. rewrite A2. split; intros [w K]; exists w; apply HO, K.
  - intros a b i Ha Hb. apply HO in Ha, Hb. apply (A3 a b i Ha Hb).
  - intros w x. rewrite <- V. apply A4.
Qed.

Definition fine (v : list nat) (s : pstate P) (o : outcome P) : Prop :=
  match o with
  | Done s' => inv s' /\ forall w, ~ In w v -> sees s' w = sees s w
  | Misuse => True
  | Undefined => False
  end.

Lemma run1_fine v s m Q : inv s -> (exists x, ps_vars s v = x) ->
  triple (ownedBy s v) (fun h => forall o, ps_vars s v = Some o -> sound W o h) m owned Q ->
  (forall r h, Q r h -> sound W r h) ->
  fine [v] s (run1 v s m) /\ (forall s', run1 v s m = Done s' -> exists r, ps_vars s' v = Some r /\ Q r (ps_heap s')).
Proof.
  intros I _ T QS. destruct (T (others s v) (ps_heap s)) as (h' & r & E & WF & SP & SM & HQ).
  - apply I.
  - apply split_var, I.
  - intros o H. apply (proj2 (proj2 (proj2 I)) v o H).
  - unfold run1. rewrite E. split.
    + destruct (replace_var s v h' (Some r) I WF SP SM) as [I' FR].
      { intros o H. injection H as <-. apply QS, HQ. }
      split; [exact I'|]. intros w NW. apply FR. intros ->. apply NW. left; reflexivity.
    + intros s' H. injection H as <-. exists r. cbn [ps_vars ps_heap]. rewrite setVar_same. auto.
Qed.

(** From an image that stays. *)
Lemma newFrom_fine v u s (m : img -> M img) (Q : impl -> fib P -> img -> heap P -> Prop) : inv s ->
  (m None = ret None) -> (forall im, reads_and_makes W im (m (Some im)) (Q im)) ->
  fine [v] s (newFrom v u s m) /\
  (forall s', newFrom v u s m = Done s' ->
     (ps_vars s v = None /\ exists o, ps_vars s u = Some o /\
      match o with
      | None => ps_vars s' v = Some None
      | Some im => exists b r, bitmapAt (ps_heap s) (p_bitmap im) b /\ ps_vars s' v = Some r /\ Q im b r (ps_heap s')
      end)).
Proof.
  intros I MN MO. unfold newFrom. destruct (ps_vars s v) as [x|] eqn:EV; [split; [exact Logic.I|discriminate]|].
  destruct (ps_vars s u) as [o|] eqn:EU; [|split; [exact Logic.I|discriminate]].
  destruct o as [im|].
  - destruct (proj2 (proj2 (proj2 I)) u _ EU) as (b & B & _).
    assert (NE : u <> v) by congruence.
    pose proof (split_var s v I) as SP. unfold ownedBy in SP. rewrite EV in SP.
    destruct (MO im (others s v) (ps_heap s) b) as (h' & r & E & WF & SP' & SM & SO & HQ); auto.
    { apply I. } { exists u. split; [exact NE|]. exists im. auto. }
    unfold run1. rewrite E. split.
    + destruct (replace_var s v h' (Some r) I WF SP' SM) as [I' FR].
      { intros o H. injection H as <-. exact SO. }
      split; [exact I'|]. intros w NW. apply FR. intros ->. apply NW. left; reflexivity.
    + intros s' H. injection H as <-. split; [reflexivity|]. exists (Some im). split; [reflexivity|].
      exists b, r. cbn [ps_vars ps_heap]. rewrite setVar_same. auto.
  - rewrite MN. unfold run1, ret. split.
    + pose proof (split_var s v I) as SP. unfold ownedBy in SP. rewrite EV in SP.
      destruct (replace_var s v (ps_heap s) (Some None) I) as [I' FR]; auto.
      { apply I. } { apply same_refl. } { intros o H. injection H as <-. exact Logic.I. }
      split; [exact I'|]. intros w NW. apply FR. intros ->. apply NW. left; reflexivity.
    + intros s' H. injection H as <-. split; [reflexivity|]. exists None. split; [reflexivity|]. cbn [ps_vars]. apply setVar_same.
Qed.

Definition copyQ (im : impl) (b : fib P) (r : img) (h : heap P) : Prop :=
  madeOf W (RClone b) (Some (i_format (p_info im))) (i_cs (p_info im)) r h.

Lemma onVar_fine v s (m : img -> M img) Q : inv s ->
  (forall o, triple (owned o) (sound W o) (m o) owned (Q o)) -> (forall o r h, Q o r h -> sound W r h) ->
  fine [v] s (onVar v s m) /\
  (forall s', onVar v s m = Done s' -> exists o r, ps_vars s v = Some o /\ ps_vars s' v = Some r /\ Q o r (ps_heap s')).
Proof.
  intros I T QS. unfold onVar. destruct (ps_vars s v) as [o|] eqn:E; [|split; [exact Logic.I|discriminate]].
  destruct (run1_fine v s (m o) (Q o) I) as [F R]; eauto.
  - unfold ownedBy. rewrite E. intros F h WF SP PRE. apply T; auto.
  - split; [exact F|]. intros s' H. destruct (R s' H) as (r & R1 & R2). eauto.
Qed.

Lemma release_then o (m : M img) Q : triple [] (fun _ => True) m owned Q ->
  triple (owned o) (sound W o) (bind (release o) (fun _ => m)) owned Q.
Proof.
  intros T F h WF SP SO. destruct (release_triple W o F h WF SP SO) as (h1 & u & E1 & WF1 & SP1 & SM1 & _).
  rewrite (bind_some _ _ _ _ _ E1). destruct (T F h1 WF1 SP1 I) as (h2 & r & E2 & WF2 & SP2 & SM2 & Q2).
  exists h2, r. split; [exact E2|]. split; [exact WF2|]. split; [exact SP2|]. split; [eapply same_trans; eassumption|exact Q2].
Qed.

(** Taking over what [u] holds. *)
Lemma take_over s v u o h' : inv s -> u <> v -> ps_vars s u = Some o ->
  wf h' -> splits h' (others s v) [] -> same (others s v) (ps_heap s) h' ->
  let s' := PState (setVar (setVar (ps_vars s) u (Some None)) v (Some o)) h' in
  inv s' /\ (forall w, w <> v -> w <> u -> sees s' w = sees s w) /\ sees s' v = sees s u /\ sees s' u = Empty.
Proof.
  intros I NE EU WF SP SM s'.
  destruct (replace_var s v h' None I WF SP SM ltac:(discriminate)) as [I1 FR1].
  set (s1 := PState (setVar (ps_vars s) v None) h') in *.
  assert (EU1 : ps_vars s1 u = Some o) by (unfold s1; cbn [ps_vars]; rewrite setVar_other by auto; exact EU).
  assert (V : forall w, ps_vars s' w = if Nat.eqb w v then Some o else if Nat.eqb w u then Some None else ps_vars s1 w).
  { intros w. unfold s', s1. cbn [ps_vars]. unfold setVar. destruct (Nat.eqb w v), (Nat.eqb w u); reflexivity. }
  assert (V1 : ps_vars s1 v = None) by (unfold s1; cbn [ps_vars]; apply setVar_same).
  assert (HO : forall w i, holds_at s' w i <-> (w = v /\ holds_at s1 u i) \/ (w <> v /\ w <> u /\ holds_at s1 w i)).
  { intros w i. unfold holds_at. rewrite V, EU1. destruct (Nat.eqb_spec w v) as [W1|N1]; [|destruct (Nat.eqb_spec w u) as [W2|N2]].
    - split; [auto|]. intros [[_ H]|(N & _)]; [exact H|contradiction].
    - split; [intros (im & H & _); discriminate|]. intros [[H _]|(_ & H & _)]; contradiction.
    - split; [auto|]. intros [[H _]|(_ & _ & H)]; [contradiction|exact H]. }
  assert (HV1 : forall i, ~ holds_at s1 v i) by (intros i (im & H & _); congruence).
  assert (I' : inv s').
  { destruct I1 as (W1 & L1 & NS1 & SO1). split; [exact W1|]. split; [|split].
    - intros i. change (ps_heap s') with (ps_heap s1). rewrite L1. split.
      + intros [w H]. destruct (Nat.eq_dec w u) as [->|N1]; [exists v; apply HO; auto|].
        destruct (Nat.eq_dec w v) as [->|N2]; [destruct (HV1 i H)|]. exists w. apply HO. auto.
      + intros [w H]. apply HO in H. destruct H as [[_ H]|(_ & _ & H)]; eauto.
    - intros a b i Ha Hb. apply HO in Ha, Hb.
      destruct Ha as [[-> Ha]|(A1 & A2 & Ha)], Hb as [[-> Hb]|(B1 & B2 & Hb)]; auto.
      + exfalso. apply B2, (NS1 b u i Hb Ha).
      + exfalso. apply A2, (NS1 a u i Ha Hb).
      + apply (NS1 a b i Ha Hb).
    - intros w x. rewrite V. change (ps_heap s') with (ps_heap s1).
      destruct (Nat.eqb_spec w v) as [->|N1]; [intros H; injection H as <-; apply (SO1 u), EU1|].
      destruct (Nat.eqb_spec w u) as [->|N2]; [intros H; injection H as <-; exact Logic.I|apply SO1]. }
  split; [exact I'|]. split; [|split].
  - intros w N1 N2. rewrite <- (FR1 w N1). apply sees_eq.
    + rewrite V. destruct (Nat.eqb_spec w v); [contradiction|]. destruct (Nat.eqb_spec w u); [contradiction|]. reflexivity.
    + reflexivity.
  - rewrite <- (FR1 u NE). unfold sees. rewrite V, Nat.eqb_refl, EU1. reflexivity.
  - unfold sees. rewrite V. destruct (Nat.eqb_spec u v); [contradiction|]. rewrite Nat.eqb_refl. reflexivity.
Qed.

Lemma ret_none_triple : triple [] (fun _ => True) (@ret P img None) owned (fun r _ => r = None).
Proof. intros F h WF SP _. exists h, None. split; [reflexivity|]. split; [exact WF|]. split; [exact SP|]. split; [apply same_refl|reflexivity]. Qed.

Lemma step_fine c s : inv s -> fine (changed_by c) s (step W c s).
Proof.
  intros I. destruct c as [v|v u|v u|v u|v u|v|v k src cs|v f w h cs|v|v ch|v u f g|v u w h f|v u d|v u k f]; cbn [step changed_by].
  - destruct (ps_vars s v) as [x|] eqn:EV; [exact Logic.I|].
    pose proof (split_var s v I) as SP. unfold ownedBy in SP. rewrite EV in SP.
    destruct (replace_var s v (ps_heap s) (Some None) I) as [I' FR]; auto.
    { apply I. } { apply same_refl. } { intros o H. injection H as <-. exact Logic.I. }
    split; [exact I'|]. intros w NW. apply FR. intros ->. apply NW. left; reflexivity.
  - apply (newFrom_fine v u s (copyOf W) copyQ I); [reflexivity|intros im; apply copyOf_ok].
  - destruct (ps_vars s v) as [x|] eqn:EV; [exact Logic.I|]. destruct (ps_vars s u) as [o|] eqn:EU; [|exact Logic.I].
    assert (NE : u <> v) by congruence.
    pose proof (split_var s v I) as SP. unfold ownedBy in SP. rewrite EV in SP.
    destruct (take_over s v u o (ps_heap s) I NE EU (proj1 I) SP (same_refl _ _)) as (I' & FR & _).
    split; [exact I'|]. intros w NW. apply FR; intros ->; apply NW; cbn; auto.
  - destruct (ps_vars s v) as [old|] eqn:EV; [|exact Logic.I]. destruct (ps_vars s u) as [o|] eqn:EU; [|exact Logic.I].
    destruct (Nat.eqb_spec v u) as [->|NE]; [split; auto|].
    destruct (release_triple W old (others s v) (ps_heap s)) as (h1 & x & E1 & WF1 & SP1 & SM1 & _).
    { apply I. } { pose proof (split_var s v I) as SP. unfold ownedBy in SP. rewrite EV in SP. exact SP. }
    { apply (proj2 (proj2 (proj2 I)) v), EV. }
    unfold run1. rewrite (bind_some _ _ _ _ _ E1).
    destruct (replace_var s v h1 None I WF1 SP1 SM1 ltac:(discriminate)) as [I1 FR1].
    set (s1 := PState (setVar (ps_vars s) v None) h1) in *.
    pose proof (proj1 (newFrom_fine v u s1 (copyOf W) copyQ I1 eq_refl (copyOf_ok W))) as F.
    unfold newFrom, s1 in F. cbn [ps_vars] in F. rewrite setVar_same, setVar_other, EU in F by auto.
    unfold run1 in F. cbn [ps_heap ps_vars] in F. destruct (copyOf W o h1) as [[h2 r]|]; [|exact F].
    destruct F as [I2 FR2].
    assert (EQ : forall w, setVar (setVar (ps_vars s) v None) v (Some r) w = setVar (ps_vars s) v (Some r) w).
    { intros w. unfold setVar. destruct (Nat.eqb w v); reflexivity. }
    split.
    + revert I2. apply inv_ext; [intros w; apply EQ|reflexivity].
    + intros w NW. assert (N1 : w <> v) by (intros ->; apply NW; left; reflexivity).
      transitivity (sees s1 w); [|apply FR1, N1]. refine (eq_trans _ (FR2 w NW)).
      unfold sees. cbn [ps_vars ps_heap]. rewrite EQ. reflexivity.
  - destruct (ps_vars s v) as [old|] eqn:EV; [|exact Logic.I]. destruct (ps_vars s u) as [o|] eqn:EU; [|exact Logic.I].
    destruct (Nat.eqb_spec v u) as [->|NE]; [split; auto|].
    destruct (release_triple W old (others s v) (ps_heap s)) as (h1 & x & E1 & WF1 & SP1 & SM1 & _).
    { apply I. } { pose proof (split_var s v I) as SP. unfold ownedBy in SP. rewrite EV in SP. exact SP. }
    { apply (proj2 (proj2 (proj2 I)) v), EV. }
    rewrite E1. destruct (take_over s v u o h1 I (not_eq_sym NE) EU WF1 SP1 SM1) as (I' & FR & _).
    split; [exact I'|]. intros w NW. apply FR; intros ->; apply NW; cbn; auto.
  - destruct (ps_vars s v) as [old|] eqn:EV; [|exact Logic.I].
    destruct (release_triple W old (others s v) (ps_heap s)) as (h1 & x & E1 & WF1 & SP1 & SM1 & _).
    { apply I. } { pose proof (split_var s v I) as SP. unfold ownedBy in SP. rewrite EV in SP. exact SP. }
    { apply (proj2 (proj2 (proj2 I)) v), EV. }
    rewrite E1. destruct (replace_var s v h1 None I WF1 SP1 SM1 ltac:(discriminate)) as [I1 FR1].
    split; [exact I1|]. intros w NW. apply FR1. intros ->. apply NW. left; reflexivity.
  - apply (onVar_fine v s _ (fun _ => madeOf W (RLoad src) None cs) I).
    + intros o. apply loadImage_triple.
    + intros o r h. apply madeOf_sound.
  - apply (onVar_fine v s _ (fun _ r h' => match f with Some g => madeOf W (allocReq g w h) (Some g) cs r h' | None => r = None end) I).
    + intros o. apply initImage_triple.
    + intros o r h'. destruct f; [apply madeOf_sound|intros ->; exact Logic.I].
  - apply (onVar_fine v s _ (fun _ r _ => r = None) I).
    + intros o. apply release_then, ret_none_triple.
    + intros o r h ->. exact Logic.I.
  - apply (onVar_fine v s _ (fun o r h' => sound W r h' /\ (o = None <-> r = None) /\
       (forall im im', o = Some im -> r = Some im' -> p_bitmap im' = p_bitmap im /\
        i_format (p_info im') = i_format (p_info im) /\ i_w (p_info im') = i_w (p_info im) /\ i_h (p_info im') = i_h (p_info im) /\
        i_cs (p_info im') = match ch with ChSpace cs => cs | _ => i_cs (p_info im) end)) I).
    + intros o. apply changeImage_triple.
    + intros o r h (H & _). exact H.
  - eapply (newFrom_fine v u s _ (fun im => shaped W im _ _ _ _) I); [reflexivity|intros im; apply convertImage_ok].
  - eapply (newFrom_fine v u s _ (fun im => shaped W im _ _ _ _) I); [reflexivity|intros im; apply resizeImage_ok].
  - eapply (newFrom_fine v u s _ (fun im => shaped W im _ _ _ _) I); [reflexivity|intros im; apply rotateImage_ok].
  - eapply (newFrom_fine v u s _ (fun im => shaped W im _ _ _ _) I); [reflexivity|intros im; apply normalImage_ok].
Qed.

Lemma inv_start : inv start.
Proof.
  split; [|split; [|split]].
  - intros i H. exfalso. apply H. reflexivity.
  - intros i. split; [intros H; exfalso; apply H; reflexivity|intros (v & im & H & _); discriminate].
  - intros v w a (im & H & _). discriminate.
  - intros v o H. discriminate.
Qed.

Lemma exec_fine cs : forall s, inv s -> match exec W cs s with Done s' => inv s' | Misuse => True | Undefined => False end.
Proof.
  induction cs as [|c cs IH]; intros s I; cbn [exec]; [exact I|].
  pose proof (step_fine c s I) as F. destruct (step W c s) as [s'| |]; cbn [fine] in F; auto. apply IH, F.
Qed.

(** ** Programs never misuse FreeImage's heap *)

(** Whatever the program does, and whatever FreeImage answers, no released or foreign address is
    used or released. *)
Theorem C59_safe (p : list (stmt S)) : exec W p start <> Undefined.
Proof. pose proof (exec_fine p start inv_start) as H. intros E. rewrite E in H. exact H. Qed.

(** At every point every bitmap and stream in FreeImage's heap is a bitmap held by exactly one
    image. *)
Theorem C59_ownership (p : list (stmt S)) s : exec W p start = Done s ->
  no_leak s /\ no_sharing s /\ no_dangling s.
Proof.
  intros E. pose proof (exec_fine p start inv_start) as H. rewrite E in H. destruct H as (_ & L & NS & SO).
  split; [|split; [exact NS|]].
  - intros a Ha. apply L, Ha.
  - intros v a (im & EV & <-). destruct (SO v _ EV) as (b & B & _). exists b. exact B.
Qed.

(** When all images are gone so are all bitmaps. *)
Theorem C59_all_released (p : list (stmt S)) s : exec W p start = Done s ->
  (forall v, sees s v = Unborn \/ sees s v = Empty) -> forall a, h_at (ps_heap s) a = None.
Proof.
  intros E N a. destruct (C59_ownership p s E) as (L & _). destruct (h_at (ps_heap s) a) eqn:H; [|reflexivity].
  destruct (L a) as (v & im & EV & EA); [congruence|]. specialize (N v). unfold sees in N. rewrite EV, EA, H in N.
  destruct t, N; discriminate.
Qed.

(** A statement changes only the variables it assigns: images never share pixels. *)
Theorem C59_frame (p : list (stmt S)) c s s' : exec W p start = Done s -> step W c s = Done s' ->
  forall w, ~ In w (changed_by c) -> sees s' w = sees s w.
Proof.
  intros E ST w NW. pose proof (exec_fine p start inv_start) as H. rewrite E in H.
  pose proof (step_fine c s H) as F. rewrite ST in F. apply F, NW.
Qed.

(** A copy is equal to the original, or empty if FreeImage could not make it. *)
Lemma made_copy (b : fib P) im r h : clones_ok W -> unpalette_ok W -> f_palette b = false ->
  p_info im = mkInfo b (i_format (p_info im)) (i_cs (p_info im)) ->
  madeOf W (RClone b) (Some (i_format (p_info im))) (i_cs (p_info im)) r h ->
  r = None \/ exists im', r = Some im' /\ bitmapAt h (p_bitmap im') b /\ p_info im' = p_info im.
Proof.
  intros C U PF EI [->|(b0 & n & MK & MD)]; [auto|]. apply C in MK. subst b0. destruct r as [im'|]; [|auto].
  right. exists im'. split; [reflexivity|]. destruct MD as (b' & B & FROM & FM & IN).
  destruct FROM as [[_ ->]|(k & PT & _)]; [|congruence]. split; [exact B|].
  cbn in FM. injection FM as FM. rewrite IN, <- FM. symmetry. exact EI.
Qed.

Theorem C59_copy (p : list (stmt S)) v u s s' : clones_ok W -> unpalette_ok W ->
  exec W p start = Done s -> step W (SCopy v u) s = Done s' ->
  (sees s' v = Empty \/ sees s' v = sees s u) /\ sees s' u = sees s u.
Proof.
  intros C U E ST. pose proof (exec_fine p start inv_start) as I. rewrite E in I. cbn [step] in ST.
  destruct (proj2 (newFrom_fine v u s (copyOf W) copyQ I eq_refl (copyOf_ok W)) s' ST) as (NV & o & EU & R).
  assert (NE : u <> v) by congruence. split.
  - destruct o as [im|]; [|left; unfold sees; rewrite R; reflexivity].
    destruct R as (b & r & B & EV & Q). destruct (proj2 (proj2 (proj2 I)) u _ EU) as (b1 & B1 & EI & PF).
    assert (b1 = b) by (unfold bitmapAt in *; congruence). subst b1.
    destruct (made_copy b im r _ C U (PF U) EI Q) as [->|(im' & -> & B' & EI')].
    + left. unfold sees. rewrite EV. reflexivity.
    + right. unfold sees. rewrite EV, EU, B, B', EI'. reflexivity.
  - pose proof (step_fine (SCopy v u) s I) as F. cbn [step changed_by] in F. rewrite ST in F. apply F. intros [H|[]]; congruence.
Qed.

Theorem C59_assign (p : list (stmt S)) v u s s' : clones_ok W -> unpalette_ok W ->
  exec W p start = Done s -> step W (SAssign v u) s = Done s' ->
  (sees s' v = sees s u \/ v <> u /\ sees s' v = Empty) /\ sees s' u = sees s u.
Proof.
  intros C U E ST. pose proof (exec_fine p start inv_start) as I. rewrite E in I. pose proof (step_fine (SAssign v u) s I) as F.
  rewrite ST in F. destruct F as [I' FR]. cbn [step] in ST.
  destruct (ps_vars s v) as [old|] eqn:EV; [|discriminate]. destruct (ps_vars s u) as [o|] eqn:EU; [|discriminate].
  destruct (Nat.eqb_spec v u) as [->|NE]; [injection ST as <-; auto|].
  assert (SU : sees s' u = sees s u) by (apply FR; intros [H|[]]; congruence). split; [|exact SU].
  destruct (release_triple W old (others s v) (ps_heap s)) as (h1 & x & E1 & WF1 & SP1 & SM1 & _).
  { apply I. } { pose proof (split_var s v I) as SP. unfold ownedBy in SP. rewrite EV in SP. exact SP. }
  { apply (proj2 (proj2 (proj2 I)) v), EV. }
  unfold run1 in ST. rewrite (bind_some _ _ _ _ _ E1) in ST. destruct o as [im|].
  - destruct (proj2 (proj2 (proj2 I)) u _ EU) as (b & B & EI & PF).
    assert (OT : others s v (p_bitmap im)) by (exists u; split; [auto|exists im; auto]).
    destruct (copyOf_ok W im (others s v) h1 b WF1 SP1 OT) as (h2 & r & E2 & WF2 & SP2 & SM2 & SO2 & Q2).
    { unfold bitmapAt. rewrite SM1; auto. }
    rewrite E2 in ST. injection ST as <-.
    destruct (made_copy b im r _ C U (PF U) EI Q2) as [->|(im' & -> & B' & EI')].
    + right. split; [exact NE|]. unfold sees. cbn [ps_vars]. rewrite setVar_same. reflexivity.
    + left. unfold sees. cbn [ps_vars ps_heap]. rewrite setVar_same, EU, B, B', EI'. reflexivity.
  - cbn [copyOf ret] in ST. injection ST as <-. left. unfold sees. cbn [ps_vars]. rewrite setVar_same, EU. reflexivity.
Qed.

(** A move hands the image over and leaves an empty one; moving an image to itself keeps it. *)
Theorem C59_move (p : list (stmt S)) v u s s' :
  exec W p start = Done s -> step W (SMove v u) s = Done s' \/ step W (SMoveAssign v u) s = Done s' ->
  sees s' v = sees s u /\ (v <> u -> sees s' u = Empty).
Proof.
  intros E ST. pose proof (exec_fine p start inv_start) as I. rewrite E in I. destruct ST as [ST|ST]; cbn [step] in ST.
  - destruct (ps_vars s v) as [x|] eqn:EV; [discriminate|]. destruct (ps_vars s u) as [o|] eqn:EU; [|discriminate].
    assert (NE : u <> v) by congruence. injection ST as <-.
    pose proof (split_var s v I) as SP. unfold ownedBy in SP. rewrite EV in SP.
    destruct (take_over s v u o (ps_heap s) I NE EU (proj1 I) SP (same_refl _ _)) as (I' & FR & R1 & R2). auto.
  - destruct (ps_vars s v) as [old|] eqn:EV; [|discriminate]. destruct (ps_vars s u) as [o|] eqn:EU; [|discriminate].
    destruct (Nat.eqb_spec v u) as [->|NE]; [injection ST as <-; split; [reflexivity|intros H; contradiction]|].
    destruct (release_triple W old (others s v) (ps_heap s)) as (h1 & x & E1 & WF1 & SP1 & SM1 & _).
    { apply I. } { pose proof (split_var s v I) as SP. unfold ownedBy in SP. rewrite EV in SP. exact SP. }
    { apply (proj2 (proj2 (proj2 I)) v), EV. }
    rewrite E1 in ST. injection ST as <-.
    destruct (take_over s v u o h1 I (not_eq_sym NE) EU WF1 SP1 SM1) as (I' & FR & R1 & R2). auto.
Qed.

End Programs.

Print Assumptions C59_safe.
Print Assumptions C59_ownership.
Print Assumptions C59_all_released.
Print Assumptions C59_frame.
Print Assumptions C59_copy.
Print Assumptions C59_assign.
Print Assumptions C59_move.

(** ** Descriptors *)

Section Descriptors.
Context {P S : Type} (W : world P S).

(** An initialised image has the format, size and colour space asked for, and these masks. *)
Theorem C58_initialized (p : list (stmt S)) v f w h cs s s' : allocates_ok W ->
  exec W p start = Done s -> step W (SInit v (Some f) w h cs) s = Done s' ->
  sees s' v = Empty \/
  exists i b, sees s' v = Full i b /\ i_format i = f /\ i_w i = w /\ i_h i = h /\ i_cs i = cs /\
    description i = described f /\ f_w b = w /\ f_h b = h.
Proof.
  intros A E ST. pose proof (exec_fine W p start (inv_start W)) as I. rewrite E in I. cbn [step] in ST.
  destruct (proj2 (onVar_fine W v s _ (fun _ r h' => madeOf W (allocReq f w h) (Some f) cs r h') I
    (fun o => initImage_triple W o (Some f) w h cs) (fun o r h' => madeOf_sound W _ _ _ r h')) s' ST)
    as (o & r & _ & EV & Q).
  destruct Q as [->|(b & n & MK & MD)]; [left; unfold sees; rewrite EV; reflexivity|].
  destruct r as [im|]; [|left; unfold sees; rewrite EV; reflexivity]. right.
  destruct MD as (b' & B & FROM & FM & IN). injection FM as FM.
  assert (K : f_palette b = false /\ f_w b = w /\ f_h b = h /\ description (mkInfo b f cs) = described f).
  { unfold allocReq in MK.
    destruct f; cbn [getFreeImageFormat] in MK; apply A in MK; destruct MK as (T & EW & EH & PF & BB & BO & MS);
      (split; [exact PF|]); (split; [exact EW|]); (split; [exact EH|]); unfold description, mkInfo;
      cbn [i_bpp i_redMask i_greenMask i_blueMask i_alphaMask i_redShift i_greenShift i_blueShift i_alphaShift];
      cbn in MS; injection MS as -> -> _;
      first [rewrite (BB eq_refl) | rewrite (BO ltac:(discriminate))]; reflexivity. }
  destruct K as (PF & EW & EH & DE). destruct FROM as [[_ ->]|(k & PT & _)]; [|congruence].
  exists (p_info im), b. split; [unfold sees; rewrite EV, B; reflexivity|]. split; [auto|].
  rewrite IN, <- FM. cbn [mkInfo i_w i_h i_cs]. auto 10.
Qed.

(** An invalid format gives an empty image. *)
Theorem C58_invalid_format (p : list (stmt S)) v w h cs s s' :
  exec W p start = Done s -> step W (SInit v None w h cs) s = Done s' -> sees s' v = Empty.
Proof.
  intros E ST. pose proof (exec_fine W p start (inv_start W)) as I. rewrite E in I. cbn [step] in ST.
  destruct (proj2 (onVar_fine W v s _ (fun _ r h' => r = None) I
    (fun o => initImage_triple W o None w h cs) (fun o r h' H => eq_ind_r (fun x => sound W x h') (Logic.I : sound W None h') H)) s' ST)
    as (o & r & _ & EV & ->). unfold sees. rewrite EV. reflexivity.
Qed.

(** The results of convert, resize, rotate and createNormalMap: empty, or of the format, colour
    space and size one expects. *)
Theorem C58_results (p : list (stmt S)) c s s' : sizes_ok W ->
  exec W p start = Done s -> step W c s = Done s' ->
  match c with
  | SConvert v u f _ | SNormal v u _ f =>
      sees s' v = Empty \/ exists g i b, f = Some g /\ sees s u = Full i b /\ shows (sees s' v) g (i_cs i) (i_w i) (i_h i)
  | SResize v u w h _ =>
      sees s' v = Empty \/ exists i b, sees s u = Full i b /\ shows (sees s' v) (i_format i) (i_cs i) w h
  | SRotate v u d =>
      sees s' v = Empty \/ exists i b, sees s u = Full i b /\
        ((d = 180%N /\ shows (sees s' v) (i_format i) (i_cs i) (i_w i) (i_h i)) \/
         (d <> 180%N /\ shows (sees s' v) (i_format i) (i_cs i) (i_h i) (i_w i)))
  | SChange v ch =>
      sees s v = Empty /\ sees s' v = Empty \/ exists i b, sees s v = Full i b /\
        shows (sees s' v) (i_format i) (match ch with ChSpace cs => cs | _ => i_cs i end) (i_w i) (i_h i)
  | _ => True
  end.
Proof.
  intros Z E ST. pose proof (exec_fine W p start (inv_start W)) as I. rewrite E in I.
  pose proof (step_fine W c s I) as FI. rewrite ST in FI. destruct FI as [I' _].
  assert (K : forall v u m (F : impl -> option imgfmt) C WW HH, m None = ret None ->
    (forall im, reads_and_makes W im (m (Some im)) (shaped W im (F im) (C im) (WW im) (HH im))) ->
    newFrom v u s m = Done s' ->
    sees s' v = Empty \/ exists im g b, F im = Some g /\ sees s u = Full (p_info im) b /\ shows (sees s' v) g (C im) (WW im) (HH im)).
  { intros v u m F C WW HH MN MO EQ.
    destruct (proj2 (newFrom_fine W v u s m (fun im => shaped W im (F im) (C im) (WW im) (HH im)) I MN MO) s' EQ)
      as (_ & o & EU & R).
    destruct o as [im|]; [|left; unfold sees; rewrite R; reflexivity].
    destruct R as (b & r & B & EV & Q). destruct r as [d|]; [|left; unfold sees; rewrite EV; reflexivity]. right.
    destruct Q as (QF & QC & QZ).
    destruct (proj2 (proj2 (proj2 I)) u _ EU) as (b1 & B1 & EI & _).
    assert (b1 = b) by (unfold bitmapAt in *; congruence). subst b1.
    destruct (proj2 (proj2 (proj2 I')) v _ EV) as (bd & BD & ED & _).
    assert (DW : i_w (p_info d) = f_w bd) by (rewrite ED; reflexivity).
    assert (DH : i_h (p_info d) = f_h bd) by (rewrite ED; reflexivity).
    destruct (QZ Z) as [QW QH]; [rewrite EI; reflexivity|rewrite EI; reflexivity|].
    exists im, (i_format (p_info d)), b. split; [exact QF|]. split; [unfold sees; rewrite EU, B; reflexivity|].
    exists (p_info d), bd. split; [unfold sees; rewrite EV, BD; reflexivity|]. split; [reflexivity|]. split; [exact QC|].
    split; [exact QW|]. split; [exact QH|]. split; congruence. }
  destruct c; try exact Logic.I; cbn [step] in ST.
  - destruct (proj2 (onVar_fine W v s _ (fun o r h' => sound W r h' /\ (o = None <-> r = None) /\
       (forall im im', o = Some im -> r = Some im' -> p_bitmap im' = p_bitmap im /\
        i_format (p_info im') = i_format (p_info im) /\ i_w (p_info im') = i_w (p_info im) /\ i_h (p_info im') = i_h (p_info im) /\
        i_cs (p_info im') = match c with ChSpace cs => cs | _ => i_cs (p_info im) end)) I
      (fun o => changeImage_triple W o c) (fun o r h' H => proj1 H)) s' ST) as (o & r & EO & EV & SO & NN & KK).
    destruct o as [im|].
    + destruct r as [d|]; [|destruct NN as [_ NN]; discriminate (NN eq_refl)]. right.
      destruct (KK im d eq_refl eq_refl) as (_ & KF & KW & KH & KC).
      destruct (proj2 (proj2 (proj2 I)) v _ EO) as (b & B & _).
      destruct SO as (bd & BD & ED & _).
      assert (DW : i_w (p_info d) = f_w bd) by (rewrite ED; reflexivity).
      assert (DH : i_h (p_info d) = f_h bd) by (rewrite ED; reflexivity).
      exists (p_info im), b. split; [unfold sees; rewrite EO, B; reflexivity|].
      exists (p_info d), bd. split; [unfold sees; rewrite EV, BD; reflexivity|]. repeat (split; [congruence|]); congruence.
    + left. destruct NN as [NN _]. rewrite (NN eq_refl) in EV. unfold sees. rewrite EO, EV. split; reflexivity.
  - destruct (K _ _ (fun o => convertImage W o f gray) (fun _ => f) (fun im => i_cs (p_info im)) (fun im => i_w (p_info im)) (fun im => i_h (p_info im)) eq_refl (fun im => convertImage_ok W im f gray) ST) as [H|(im & g & b & H1 & H2 & H3)];
      [left; exact H|right; exists g, (p_info im), b; auto].
  - destruct (K _ _ (fun o => resizeImage W o w h f) (fun im => Some (i_format (p_info im))) (fun im => i_cs (p_info im)) (fun _ => w) (fun _ => h) eq_refl (fun im => resizeImage_ok W im w h f) ST) as [H|(im & g & b & H1 & H2 & H3)];
      [left; exact H|right; injection H1 as <-; exists (p_info im), b; auto].
  - destruct (K _ _ (fun o => rotateImage W o degrees) (fun im => Some (i_format (p_info im))) (fun im => i_cs (p_info im))
      (fun im => if N.eqb degrees 180 then i_w (p_info im) else i_h (p_info im)) (fun im => if N.eqb degrees 180 then i_h (p_info im) else i_w (p_info im))
      eq_refl (fun im => rotateImage_ok W im degrees) ST) as [H|(im & g & b & H1 & H2 & H3)];
      [left; exact H|right; injection H1 as <-; exists (p_info im), b; split; [exact H2|]].
    destruct (N.eqb_spec degrees 180); auto.
  - destruct (K _ _ (fun o => normalImage W o options f) (fun _ => f) (fun im => i_cs (p_info im)) (fun im => i_w (p_info im)) (fun im => i_h (p_info im)) eq_refl (fun im => normalImage_ok W im options f) ST) as [H|(im & g & b & H1 & H2 & H3)];
      [left; exact H|right; exists g, (p_info im), b; auto].
Qed.

Lemma getFormat_loads (b : fib P) f : getFormat b = Some f <-> loads_as b f.
Proof.
  unfold getFormat, loads_as, FI16_555_GREEN_MASK, FI16_565_GREEN_MASK.
  destruct (f_type b); try (destruct f; split; try discriminate; try reflexivity; intuition discriminate).
  destruct (N.eqb_spec (f_bpp b) 8); [destruct f; split; try discriminate; intuition congruence|].
  destruct (N.eqb_spec (f_bpp b) 16).
  { destruct (N.eqb_spec (f_green b) 0x3E0); [destruct f; split; try discriminate; intuition congruence|].
    destruct (N.eqb_spec (f_green b) 0x7E0); destruct f; split; try discriminate; intuition congruence. }
  destruct (N.eqb_spec (f_bpp b) 24); [destruct f; split; try discriminate; intuition congruence|].
  destruct (N.eqb_spec (f_bpp b) 32); destruct f; split; try discriminate; intuition congruence.
Qed.

(** A loaded image is empty or has the size of the bitmap FreeImage loaded: the bitmap itself, in
    the format of the table, or, if it has a palette, in true colour, with alpha if it is
    transparent. *)
Theorem C58_loaded (p : list (stmt S)) v k src cs s s' : unpalette_ok W ->
  exec W p start = Done s -> step W (SLoad v k src cs) s = Done s' ->
  sees s' v = Empty \/
  exists i b n b0, sees s' v = Full i b /\ w_make W n (RLoad src) = Some b0 /\
    i_cs i = cs /\ i_w i = f_w b0 /\ i_h i = f_h b0 /\ i_format i <> I_UInt16 /\
    (f_palette b0 = false -> b = b0 /\ loads_as b0 (i_format i)) /\
    (f_palette b0 = true -> i_format i = if f_transparent b0 then I_RGBA8 else I_RGB8).
Proof.
  intros U E ST. pose proof (exec_fine W p start (inv_start W)) as I. rewrite E in I. cbn [step] in ST.
  destruct (proj2 (onVar_fine W v s _ (fun _ => madeOf W (RLoad src) None cs) I
    (fun o => loadImage_triple W o k src cs) (fun o r h' => madeOf_sound W _ _ _ r h')) s' ST)
    as (o & r & _ & EV & Q).
  destruct Q as [->|(b0 & n & MK & MD)]; [left; unfold sees; rewrite EV; reflexivity|].
  destruct r as [im|]; [|left; unfold sees; rewrite EV; reflexivity]. right.
  destruct MD as (b & B & FROM & FM & IN). apply getFormat_loads in FM.
  exists (p_info im), b, n, b0. split; [unfold sees; rewrite EV, B; reflexivity|]. split; [exact MK|].
  assert (SZ : f_w b = f_w b0 /\ f_h b = f_h b0 /\ (f_palette b0 = true -> f_type b = FIT_BITMAP /\ f_bpp b = if f_transparent b0 then 32%N else 24%N)).
  { destruct FROM as [[PF ->]|(m & PT & CV)]; [split; [|split]; congruence|].
    destruct (f_transparent b0); [destruct (proj2 (U m b0 b) CV) as ((T1 & T2 & _) & -> & ->)
      |destruct (proj1 (U m b0 b) CV) as ((T1 & T2 & _) & -> & ->)]; auto. }
  destruct SZ as (SW & SH & SP).
  assert (IW : i_w (p_info im) = f_w b) by (rewrite IN; reflexivity).
  assert (IH : i_h (p_info im) = f_h b) by (rewrite IN; reflexivity).
  split; [rewrite IN; reflexivity|]. split; [congruence|]. split; [congruence|]. split.
  { intros H. rewrite H in FM. exact FM. }
  split.
  - intros PF. destruct FROM as [[_ ->]|(m & PT & _)]; [auto|congruence].
  - intros PT. destruct (SP PT) as [T1 T2].
    assert (G : getFormat b = Some (if f_transparent b0 then I_RGBA8 else I_RGB8)).
    { unfold getFormat. rewrite T1, T2. destruct (f_transparent b0); reflexivity. }
    apply getFormat_loads in FM. congruence.
Qed.

(** A file FreeImage can load is loaded. *)
Theorem C58_load_succeeds (p : list (stmt S)) v src cs s b f :
  exec W p start = Done s -> ps_vars s v <> None ->
  (forall n, w_known W n src = true) -> (forall n, w_make W n (RLoad src) = Some b) ->
  f_palette b = false -> loads_as b f ->
  exists s' i, step W (SLoad v LFile src cs) s = Done s' /\ sees s' v = Full i b /\ i_format i = f.
Proof.
  intros E NV HK HM PF LA. pose proof (exec_fine W p start (inv_start W)) as I. rewrite E in I.
  cbn [step]. unfold onVar. destruct (ps_vars s v) as [o|] eqn:EV; [|congruence].
  destruct (release_triple W o (others s v) (ps_heap s)) as (h1 & x & E1 & _).
  { apply I. } { pose proof (split_var W s v I) as SP. unfold ownedBy in SP. rewrite EV in SP. exact SP. }
  { apply (proj2 (proj2 (proj2 I)) v), EV. }
  unfold run1, loadImage, loadHandle. rewrite (bind_some _ _ _ _ _ E1).
  assert (K : forall (m : nat -> option (thing P)) k t, setAt m k t k = t) by (intros; unfold setAt; rewrite Nat.eqb_refl; reflexivity).
  apply getFormat_loads in LA.
  unfold known, bind, make, create, look, ret. cbn [h_next h_at]. rewrite HK, HM. cbn [h_at h_next].
  unfold bind at 1. cbn [h_at]. rewrite K. unfold bind at 1. rewrite PF. unfold bind at 1. cbn [h_at]. rewrite K, LA.
  eexists. eexists. split; [reflexivity|]. unfold sees. cbn [ps_vars ps_heap]. rewrite setVar_same. cbn [p_bitmap h_at p_info].
  rewrite K. split; reflexivity.
Qed.

End Descriptors.
Print Assumptions C58_initialized.
Print Assumptions C58_invalid_format.
Print Assumptions C58_results.
Print Assumptions C58_loaded.
Print Assumptions C58_load_succeeds.

(** The masks and shifts read red and green of the 16-bit formats and alpha of RGBA8. *)
Theorem C58_masks :
  (forall w : N, (w < 2 ^ 16)%N ->
    extract 0x7C00 10 w = (w / 1024 mod 32)%N /\ extract 0x3E0 5 w = (w / 32 mod 32)%N /\
    extract 0xF800 11 w = (w / 2048)%N /\ extract 0x7E0 5 w = (w / 32 mod 64)%N) /\
  (forall w : N, (w < 2 ^ 32)%N -> extract 0xFF000000 24 w = (w / 2 ^ 24)%N).
Proof.
  assert (K : forall w m s k, N.shiftr m s = N.ones k -> extract m s w = ((w / 2 ^ s) mod 2 ^ k)%N).
  { intros w m s k H. unfold extract. rewrite N.shiftr_land, H, N.land_ones, N.shiftr_div_pow2. reflexivity. }
  split; intros w Hw.
  - rewrite (K w 0x7C00%N 10%N 5%N), (K w 0x3E0%N 5%N 5%N), (K w 0xF800%N 11%N 5%N), (K w 0x7E0%N 5%N 6%N) by reflexivity.
    split; [reflexivity|]. split; [reflexivity|]. split; [|reflexivity].
    change (2 ^ 11)%N with 2048%N. apply N.mod_small. change (2 ^ 5)%N with 32%N. apply N.div_lt_upper_bound; lia.
  - rewrite (K w 0xFF000000%N 24%N 8%N) by reflexivity. apply N.mod_small. apply N.div_lt_upper_bound; [lia|]. exact Hw.
Qed.
Print Assumptions C58_masks.

(** They do not read blue, nor any colour channel of RGB8 and RGBA8: the blue mask is the green
    one and the shifts of 8-bit channels are 0. *)
Theorem C58_masks_refuted :
  (exists w, (w < 2 ^ 16)%N /\ extract 0x3E0 0 w <> (w mod 32)%N) /\
  (exists w, (w < 2 ^ 16)%N /\ extract 0x7E0 0 w <> (w mod 32)%N) /\
  (exists w, (w < 2 ^ 32)%N /\ extract 0xFF0000 0 w <> (w / 2 ^ 16 mod 256)%N /\
     extract 0xFF00 0 w <> (w / 2 ^ 8 mod 256)%N /\ extract 0xFF00 0 w <> (w mod 256)%N).
Proof.
  split; [|split].
  - exists 31%N. split; [reflexivity|]. vm_compute. discriminate.
  - exists 31%N. split; [reflexivity|]. vm_compute. discriminate.
  - exists 0x10203%N. split; [reflexivity|]. split; [|split]; vm_compute; discriminate.
Qed.
Print Assumptions C58_masks_refuted.

(** ** A program *)

Section Case.
Open Scope N_scope.
Let pic (palette : bool) : fib N := Fib FIT_BITMAP 8 0 0 0 palette false 4 4 7.
(** FreeImage that keeps its promises: file 0 is gray, file 1 has a palette, no other loads. *)
Let honest : world N N := World
  (fun _ r => match r with
   | RClone b => Some b
   | RTo24 b => Some (Fib FIT_BITMAP 24 0xFF0000 0xFF00 0xFF false false (f_w b) (f_h b) (f_data b))
   | RTo32 b => Some (Fib FIT_BITMAP 32 0xFF0000 0xFF00 0xFF false false (f_w b) (f_h b) (f_data b))
   | RAlloc t w h bpp r g bl =>
       Some (match t with
             | FIT_BITMAP =>
                 if bpp =? 16 then Fib t bpp r g bl false false w h 0
                 else if (bpp =? 24) || (bpp =? 32) then Fib t bpp 0xFF0000 0xFF00 0xFF false false w h 0
                 else Fib t bpp 0 0 0 false false w h 0
             | _ => Fib t (type_bits t) 0 0 0 false false w h 0
             end)
   | RRotate b d => if d =? 180 then Some b else Some (Fib (f_type b) (f_bpp b) (f_red b) (f_green b) (f_blue b) (f_palette b) (f_transparent b) (f_h b) (f_w b) (f_data b))
   | RLoad 0 => Some (pic false) | RLoad 1 => Some (pic true)
   | _ => None
   end) (fun _ src => src <? 9) (fun _ => true) (fun _ _ _ _ => 1) (fun _ _ _ b => f_data b + 1).

Example C59_case_promises : clones_ok honest /\ unpalette_ok honest /\ allocates_ok honest /\ sizes_ok honest.
Proof.
  split; [|split; [|split]].
  - intros n b b' H. injection H as <-. reflexivity.
  - intros n b b'. split; intros H; injection H as <-; (split; [|split; reflexivity]); repeat (split; [reflexivity|]); reflexivity.
  - intros n t w h bpp r g bl b H. cbn in H. injection H as <-.
    destruct t; cbn -[N.eqb]; try (repeat (split; [reflexivity|]); (split; [discriminate|]); (split; [reflexivity|]); reflexivity).
    destruct (bpp =? 16); [|destruct ((bpp =? 24) || (bpp =? 32))]; 
      (split; [reflexivity|]); (split; [reflexivity|]); (split; [reflexivity|]); (split; [reflexivity|]);
      (split; [reflexivity|]); (split; [congruence|]); reflexivity.
  - split; [|split; [|split; [|split; [|split; [|split; [|split]]]]]]; cbn; intros;
      try discriminate; try (injection H as <-; split; reflexivity).
    + injection H as <-. destruct t; try (split; reflexivity).
      destruct (bpp =? 16); [|destruct ((bpp =? 24) || (bpp =? 32))]; split; reflexivity.
    + destruct (N.eqb_spec d 180); [contradiction|]. injection H0 as <-. split; reflexivity.
Qed.

(** Load a picture with palette, copy it, change the copy, move it over the original, convert,
    and leave. *)
Let program : list (stmt N) :=
  [SNew 0%nat; SLoad 0%nat LMemory 1 CS_sRGB; SCopy 1%nat 0%nat; SChange 1%nat ChGrayscale; SMoveAssign 0%nat 1%nat;
   SResize 2%nat 0%nat 2 2 RF_Box; SConvert 3%nat 0%nat (Some I_Gray8) false; SLoad 1%nat LFile 5 CS_Linear; SRotate 4%nat 2%nat 90].
Example C59_case_program : exists s, exec honest program start = Done s /\
  (exists i b, sees s 0%nat = Full i b /\ f_data b = 8 /\ i_format i = I_RGB8) /\ sees s 1%nat = Empty /\
  (exists i b, sees s 2%nat = Full i b /\ f_w b = 2) /\ (exists i b, sees s 3%nat = Full i b /\ i_format i = I_Gray8) /\
  shows (sees s 4%nat) I_RGB8 CS_sRGB 2 2 /\
  exists s', exec honest (program ++ [SDelete 0%nat; SDelete 1%nat; SDelete 2%nat; SDelete 3%nat; SDelete 4%nat]) start = Done s' /\
    forall v, (v < 9)%nat -> sees s' v = Unborn.
Proof.
  eexists. split; [vm_compute; reflexivity|]. split; [eexists; eexists; split; [vm_compute; reflexivity|]; vm_compute; split; reflexivity|].
  split; [vm_compute; reflexivity|]. split; [eexists; eexists; split; [vm_compute; reflexivity|]; reflexivity|].
  split; [eexists; eexists; split; [vm_compute; reflexivity|]; reflexivity|].
  split; [eexists; eexists; split; [vm_compute; reflexivity|]; repeat (split; [reflexivity|]); reflexivity|].
  eexists. split; [vm_compute; reflexivity|]. intros v Hv.
  do 9 (destruct v as [|v]; [vm_compute; reflexivity|]). lia.
Qed.

Example C58_case : loads_as (pic false) I_Gray8 /\ w_known honest 3%nat 0 = true /\ w_make honest 3%nat (RLoad 0) = Some (pic false) /\
  described I_RGB565 = (16, [0xF800; 0x7E0; 0x7E0; 0], [11; 5; 0; 0]).
Proof. split; [split; reflexivity|]. split; [reflexivity|]. split; reflexivity. Qed.

End Case.

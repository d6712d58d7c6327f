(** Proofs about texture objects. *)

From Coq Require Import NArith List Bool Lia PeanoNat.
From Verif Require Import Base FormatModel TextureModel TextureObjectModel TextureObjectSpec.
Import ListNotations.

Section Proofs.
Context {C : Type}.
Variable L : lib C.
Variable encode : converter -> convargs -> image C -> list N.
Variable clones : nat -> bool.

Notation exec := (exec L encode clones).
Notation execs := (execs L encode clones).

Lemma set_same {A} (f : nat -> A) x a : set f x a x = a.
Proof. unfold set; rewrite Nat.eqb_refl; reflexivity. Qed.

Lemma set_other {A} (f : nat -> A) x a y : y <> x -> set f x a y = f y.
Proof. unfold set; intros H; apply Nat.eqb_neq in H; rewrite H; reflexivity. Qed.

(** Every pointer is live and has one owner; every live address is owned; new ones are free. *)
Record wf (st : state C) : Prop := Wf {
  wf_live : forall x a, objects st x = Some (Some a) -> cells (mem st) a <> None;
  wf_one : forall x y a, objects st x = Some (Some a) -> objects st y = Some (Some a) -> x = y;
  wf_owned : forall a, cells (mem st) a <> None -> exists x, objects st x = Some (Some a);
  wf_fresh : forall a, fresh (mem st) <= a -> cells (mem st) a = None }.

Lemma wf_start : wf start.
Proof. split; cbn; intros; try discriminate; try contradiction; reflexivity. Qed.

(** ** Copies *)

Lemma copy_list_spec {A} (P : A -> A -> Prop) (cp : nat -> A -> A * nat) :
  (forall k a, P a (fst (cp k a))) -> forall l k, Forall2 P l (fst (copy_list cp k l)).
Proof.
  intros H l; induction l as [|a l IH]; intros k; cbn [copy_list]; [constructor|].
  pose proof (H k a) as Ha; destruct (cp k a) as [a' k1].
  specialize (IH k1); destruct (copy_list cp k1 l) as [r k2]; constructor; assumption.
Qed.

Lemma copy_list_id {A} (cp : nat -> A -> A * nat) :
  (forall k a, fst (cp k a) = a) -> forall l k, fst (copy_list cp k l) = l.
Proof.
  intros H l; induction l as [|a l IH]; intros k; cbn [copy_list]; [reflexivity|].
  pose proof (H k a) as Ha; destruct (cp k a) as [a' k1]; cbn in Ha; subst.
  specialize (IH k1); destruct (copy_list cp k1 l) as [r k2]; cbn in *; subst; reflexivity.
Qed.

(** What a copy is: anything if clones may fail, the same if they never do. *)
Definition copies (t u : texture C) : Prop :=
  texture_copy t u /\ ((forall k, clones k = true) -> u = t).

Lemma copy_impl_spec m i i' m' : copy_impl clones m i = (i', m') ->
  copies (Some i) (Some i') /\ cells m' = cells m /\ fresh m' = fresh m.
Proof.
  unfold copy_impl.
  pose proof (copy_list_spec (Forall2 (Forall2 image_copy)) (copy_list (copy_list (copy_image clones)))
    (fun k a => copy_list_spec (Forall2 image_copy) (copy_list (copy_image clones))
      (fun k a => copy_list_spec image_copy (copy_image clones)
        (fun k a => ltac:(destruct a; cbn; [left; reflexivity|]; destruct (clones k);
                          [left|right]; reflexivity)) a k) a k) (t_images i) (cloned m)) as S.
  assert (E : (forall k, clones k = true) ->
              fst (copy_list (copy_list (copy_list (copy_image clones))) (cloned m) (t_images i)) = t_images i).
  { intros Q; apply copy_list_id; intros k1 a; apply copy_list_id; intros k2 b; apply copy_list_id.
    intros k3 c; destruct c; cbn; rewrite ?Q; reflexivity. }
  destruct (copy_list _ (cloned m) (t_images i)) as [im k]; cbn [fst] in *.
  intros [= <- <-]; split; [|split; reflexivity].
  split.
  - cbn; split; [exact S|repeat split].
  - intros Q; rewrite E by assumption; destruct i; reflexivity.
Qed.

(** ** Calls *)

Lemma step_none c : (forall dim w h d n cs, c <> CInit dim w h d n cs) -> c <> CReset ->
  match step L encode None c with Some (_, t) => t = None | None => False end.
Proof.
  intros N1 N2; destruct c as [dim w h d n cs| |img m d|img f m d|rf l cm|fl a]; cbn; try reflexivity.
  - destruct (N1 dim w h d n cs eq_refl).
  - unfold setImage; cbn [depth]; destruct d; reflexivity.
  - unfold setImageF; cbn [depth]; destruct d; reflexivity.
Qed.

Lemma step_some i c r : (forall dim w h d n cs, c <> CInit dim w h d n cs) -> c <> CReset ->
  step L encode (Some i) c = Some r -> snd r <> None.
Proof.
  intros N1 N2; destruct c as [dim w h d n cs| |img m d|img f m d|rf l cm|fl a]; cbn [step].
  - destruct (N1 dim w h d n cs eq_refl).
  - contradiction.
  - unfold setImage; destruct (_ || _); [intros [= <-]; discriminate|].
    destruct (negb _); [intros [= <-]; discriminate|].
    unfold store_image, obind; destruct (set3 _ _ _ _ _); [|discriminate]; intros [= <-]; discriminate.
  - unfold setImageF; destruct (_ || _); [intros [= <-]; discriminate|].
    destruct (_ && _); [intros [= <-]; discriminate|].
    unfold store_image, obind; destruct (set3 _ _ _ _ _); [|discriminate]; intros [= <-]; discriminate.
  - unfold generateMipmaps, obind; destruct (nthN _ _); [|discriminate].
    destruct (negb _); [intros [= <-]; discriminate|].
    destruct (negb _); [intros [= <-]; discriminate|]; cbv zeta.
    destruct (t_dim i);
      try (destruct (gm_loop _ _ _ _ _ _); [|discriminate]; intros [= <-]; discriminate).
    destruct (gm3_loop _ _ _ _ _ _ _ _) as [[]|]; [| |discriminate]; intros [= <-]; discriminate.
  - unfold convert; destruct (_ || _); [intros [= <-]; discriminate|].
    destruct (_ && _); [intros [= <-]; discriminate|].
    destruct (createConverter _ _ _); intros [= <-]; discriminate.
Qed.

(** ** Changes of memory *)

Lemma valuation_frame (st : state C) ob m z : objects st z = ob z ->
  (forall a, ob z = Some (Some a) -> cells m a = cells (mem st) a) ->
  valuation (State ob m) z = valuation st z.
Proof.
  intros E H; unfold valuation; cbn [objects mem]; rewrite E; destruct (ob z) as [[a|]|]; [|reflexivity|reflexivity].
  rewrite H by reflexivity; reflexivity.
Qed.

Lemma release_spec p (m m' : memory C) : release p m = Some m' ->
  fresh m' = fresh m /\ (forall a, p <> Some a -> cells m' a = cells m a) /\
  (forall a, p = Some a -> cells m' a = None /\ cells m a <> None).
Proof.
  destruct p as [b|]; cbn.
  - destruct (cells m b) eqn:E; cbn; [|discriminate]; intros [= <-]; cbn.
    split; [reflexivity|]; split; intros a H.
    + apply set_other; congruence.
    + injection H as <-; rewrite set_same; split; congruence.
  - intros [= <-]; split; [reflexivity|]; split; intros; congruence.
Qed.

Lemma write_spec a (i : impl C) m m' : write a i m = Some m' ->
  fresh m' = fresh m /\ cells m a <> None /\ cells m' a = Some i /\ (forall b, b <> a -> cells m' b = cells m b).
Proof.
  unfold write; destruct (cells m a) eqn:E; cbn; [|discriminate]; intros [= <-]; cbn.
  split; [reflexivity|]; split; [congruence|]; split; [apply set_same|intros; apply set_other; assumption].
Qed.

(** An object [x] whose pointer goes from [p] to [p'], while memory changes only there. *)
Record moved (st : state C) (p p' : option nat) (m : memory C) : Prop := Moved {
  mv_kept : forall a, p <> Some a -> p' <> Some a -> cells m a = cells (mem st) a;
  mv_gone : forall a, p = Some a -> p' <> Some a -> cells m a = None;
  mv_new : forall a, p' = Some a -> cells m a <> None;
  mv_mine : forall a, p' = Some a -> p = Some a \/ cells (mem st) a = None;
  mv_fresh : fresh (mem st) <= fresh m /\ forall a, p' = Some a -> a < fresh m }.

Lemma moved_wf st x o p p' m : wf st -> objects st x = o ->
  (o = Some p \/ o = None /\ p = None) ->
  moved st p p' m -> wf (State (set (objects st) x (Some p')) m) /\
  others_kept [x] (valuation st) (valuation (State (set (objects st) x (Some p')) m)).
Proof.
  intros [W1 W2 W3 W4] O OP [K G Nw Mn [F1 F2]].
  assert (OA : forall y a, y <> x -> objects st y = Some (Some a) -> p <> Some a /\ p' <> Some a).
  { intros y a Ne E; split; intros ->.
    - destruct OP as [->|[_ ?]]; [|discriminate]; apply Ne; eapply W2; eauto.
    - destruct (Mn a eq_refl) as [->|Z].
      + destruct OP as [->|[_ ?]]; [|discriminate]; apply Ne; eapply W2; eauto.
      + apply (W1 y a E Z). }
  split.
  - split; cbn [objects mem].
    + intros y a; destruct (Nat.eq_dec y x) as [->|Ne].
      * rewrite set_same; intros [= ->]; apply Nw; reflexivity.
      * rewrite set_other by assumption; intros E; destruct (OA y a Ne E).
        rewrite K by assumption; eapply W1; eauto.
    + intros y z a; destruct (Nat.eq_dec y x) as [->|Ny], (Nat.eq_dec z x) as [->|Nz];
        rewrite ?set_same, ?set_other by assumption; try reflexivity; intros E1 E2.
      * destruct (OA z a Nz E2); congruence.
      * destruct (OA y a Ny E1); congruence.
      * eapply W2; eauto.
    + intros a Ca; destruct p' as [b|].
      * destruct (Nat.eq_dec a b) as [->|Nb]; [exists x; apply set_same|].
        destruct (option_map (Nat.eqb a) p) as [[]|] eqn:EP.
        -- destruct p as [q|]; [|discriminate]; injection EP as EP; apply Nat.eqb_eq in EP; subst q.
           destruct Ca; apply G; congruence.
        -- assert (p <> Some a).
           { intros ->; cbn in EP; rewrite Nat.eqb_refl in EP; discriminate. }
           rewrite K in Ca by congruence; destruct (W3 a Ca) as (y & Ey); exists y.
           destruct (Nat.eq_dec y x) as [->|Ne]; [|rewrite set_other; assumption].
           destruct OP as [->|[-> _]]; congruence.
        -- assert (p <> Some a) by (destruct p; [discriminate|congruence]).
           rewrite K in Ca by congruence; destruct (W3 a Ca) as (y & Ey); exists y.
           destruct (Nat.eq_dec y x) as [->|Ne]; [|rewrite set_other; assumption].
           destruct OP as [->|[-> _]]; congruence.
      * destruct (option_map (Nat.eqb a) p) as [[]|] eqn:EP.
        -- destruct p as [q|]; [|discriminate]; injection EP as EP; apply Nat.eqb_eq in EP; subst q.
           destruct Ca; apply G; congruence.
        -- assert (p <> Some a).
           { intros ->; cbn in EP; rewrite Nat.eqb_refl in EP; discriminate. }
           rewrite K in Ca by congruence; destruct (W3 a Ca) as (y & Ey); exists y.
           destruct (Nat.eq_dec y x) as [->|Ne]; [|rewrite set_other; assumption].
           destruct OP as [->|[-> _]]; congruence.
        -- assert (p <> Some a) by (destruct p; [discriminate|congruence]).
           rewrite K in Ca by congruence; destruct (W3 a Ca) as (y & Ey); exists y.
           destruct (Nat.eq_dec y x) as [->|Ne]; [|rewrite set_other; assumption].
           destruct OP as [->|[-> _]]; congruence.
    + intros a Ha; destruct (option_map (Nat.eqb a) p') as [[]|] eqn:EP'.
      * destruct p' as [b|]; [|discriminate]; injection EP' as EP'; apply Nat.eqb_eq in EP'; subst b.
        specialize (F2 a eq_refl); lia.
      * assert (p' <> Some a) by (intros ->; cbn in EP'; rewrite Nat.eqb_refl in EP'; discriminate).
        destruct (option_map (Nat.eqb a) p) as [[]|] eqn:EP.
        -- destruct p as [q|]; [|discriminate]; injection EP as EP; apply Nat.eqb_eq in EP; subst q.
           apply G; congruence.
        -- assert (p <> Some a) by (intros ->; cbn in EP; rewrite Nat.eqb_refl in EP; discriminate).
           rewrite K by assumption; apply W4; lia.
        -- assert (p <> Some a) by (destruct p; [discriminate|congruence]).
           rewrite K by assumption; apply W4; lia.
      * assert (p' <> Some a) by (destruct p'; [discriminate|congruence]).
        destruct (option_map (Nat.eqb a) p) as [[]|] eqn:EP.
        -- destruct p as [q|]; [|discriminate]; injection EP as EP; apply Nat.eqb_eq in EP; subst q.
           apply G; congruence.
        -- assert (p <> Some a) by (intros ->; cbn in EP; rewrite Nat.eqb_refl in EP; discriminate).
           rewrite K by assumption; apply W4; lia.
        -- assert (p <> Some a) by (destruct p; [discriminate|congruence]).
           rewrite K by assumption; apply W4; lia.
  - intros z Hz; assert (z <> x) by (intros ->; apply Hz; left; reflexivity).
    apply valuation_frame; [symmetry; apply set_other; assumption|].
    rewrite set_other by assumption; intros a E; destruct (OA z a H E); apply K; assumption.
Qed.

Lemma value_of (st : state C) x a i : objects st x = Some (Some a) -> cells (mem st) a = Some i ->
  valuation st x = Some (Some i).
Proof. unfold valuation; intros -> ->; reflexivity. Qed.

Lemma value_live st x o : wf st -> objects st x = Some o ->
  exists t, valuation st x = Some t /\
    match o with None => t = None | Some a => exists i, cells (mem st) a = Some i /\ t = Some i end.
Proof.
  intros W E; unfold valuation; rewrite E; destruct o as [a|]; [|eauto].
  destruct (cells (mem st) a) as [i|] eqn:Q; [|destruct (wf_live st W x a E Q)].
  eexists; split; [reflexivity|]; eauto.
Qed.

Lemma value_none st x : wf st -> (valuation st x = None <-> objects st x = None).
Proof.
  intros W; split; intros E.
  - destruct (objects st x) as [o|] eqn:Q; [|reflexivity].
    destruct (value_live st x o W Q) as (t & E' & _); congruence.
  - unfold valuation; rewrite E; reflexivity.
Qed.

Lemma alloc_moved st p i m : wf st ->
  (forall a, p <> Some a -> cells m a = cells (mem st) a) ->
  (forall a, p = Some a -> cells m a = None) -> fresh m = fresh (mem st) ->
  (forall a, p = Some a -> cells (mem st) a <> None) ->
  moved st p (Some (fst (alloc i m))) (snd (alloc i m)).
Proof.
  intros W K G F Lv; cbn [alloc fst snd]; split; cbn [cells fresh].
  - intros a H1 H2; rewrite set_other by congruence; apply K; assumption.
  - intros a H1 H2; rewrite set_other by congruence; apply G; assumption.
  - intros a [= <-]; rewrite set_same; discriminate.
  - intros a [= <-]; right; apply (wf_fresh st W); lia.
  - split; [lia|]; intros a [= <-]; lia.
Qed.

Lemma release_moved st p m : release p (mem st) = Some m -> moved st p None m.
Proof.
  intros E; destruct (release_spec _ _ _ E) as (F & K & G); split; try discriminate; intros; auto.
  - apply G; assumption.
  - split; [lia|]; discriminate.
Qed.

(** ** Statements *)

Lemma exec_spec st s st' b : wf st -> exec st s = Some (st', b) ->
  wf st' /\ effect L encode copies s (valuation st) (valuation st') b.
Proof.
  intros W; destruct s as [x|x y|x y|x y|x y|x|x c]; cbn [TextureObjectModel.exec effect].
  - destruct (objects st x) eqn:O; [discriminate|]; intros [= <- <-].
    assert (M : moved st None None (mem st)) by (split; try discriminate; auto; split; [lia|discriminate]).
    destruct (moved_wf st x None None None (mem st) W O (or_intror (conj eq_refl eq_refl)) M) as [W' K].
    split; [exact W'|]; split; [apply value_none; assumption|]; split; [|exact K].
    unfold valuation; cbn [objects]; rewrite set_same; reflexivity.
  - destruct (objects st x) eqn:O; [discriminate|]; destruct (objects st y) as [q|] eqn:Oy; [|discriminate].
    destruct (value_live st y q W Oy) as (t & Vy & Q).
    destruct (copyNew clones q (mem st)) as [[p' m']|] eqn:CN; cbn [obind fst snd]; [|discriminate].
    intros [= <- <-].
    assert (M : moved st None p' m' /\ exists u, copies t u /\
                match p' with None => u = None | Some a => exists i, cells m' a = Some i /\ u = Some i end).
    { destruct q as [a|]; cbn [copyNew] in CN.
      - destruct Q as (i & Ci & ->); unfold load in CN; rewrite Ci in CN; cbn [obind] in CN.
        destruct (copy_impl clones (mem st) i) as [i' m1] eqn:CI.
        destruct (copy_impl_spec _ _ _ _ CI) as (CC & C1 & F1).
        destruct (alloc i' m1) as [a' m2] eqn:AL; injection CN as <- <-.
        pose proof (alloc_moved st None i' m1 W) as M.
        rewrite AL in M; cbn [fst snd] in M; split.
        + apply M; try discriminate; [intros; rewrite C1; reflexivity|assumption].
        + exists (Some i'); split; [assumption|]; exists i'; split; [|reflexivity].
          unfold alloc in AL; injection AL as <- <-; cbn [cells]; apply set_same.
      - injection CN as <- <-; subst t; split.
        + split; try discriminate; auto; split; [lia|discriminate].
        + exists None; split; [split; [exact I|reflexivity]|reflexivity]. }
    destruct M as (M & u & Cu & Pu).
    destruct (moved_wf st x None None p' m' W O (or_intror (conj eq_refl eq_refl)) M) as [W' K].
    split; [exact W'|]; split; [apply value_none; assumption|]; split; [exact K|].
    exists t, u; split; [assumption|]; split; [|assumption].
    unfold valuation; cbn [objects mem]; rewrite set_same.
    destruct p' as [a|]; [destruct Pu as (i & -> & ->); reflexivity|subst; reflexivity].
  - destruct (objects st x) eqn:O; [discriminate|]; destruct (objects st y) as [q|] eqn:Oy; [|discriminate].
    intros [= <- <-].
    assert (Nxy : y <> x) by congruence.
    destruct (value_live st y q W Oy) as (t & Vy & Q).
    destruct W as [W1 W2 W3 W4].
    assert (E : forall z, set (set (objects st) y (Some None)) x (Some q) z =
                          if Nat.eqb z x then Some q else if Nat.eqb z y then Some None else objects st z)
      by reflexivity.
    split.
    + split; cbn [objects mem].
      * intros z a; rewrite E; destruct (Nat.eqb_spec z x); [intros [= ->]; eapply W1; eauto|].
        destruct (Nat.eqb z y); [discriminate|apply W1].
      * intros z z' a; rewrite !E.
        destruct (Nat.eqb_spec z x) as [e1|n1], (Nat.eqb_spec z' x) as [e2|n2]; [congruence| | |].
        -- destruct (Nat.eqb_spec z' y) as [e3|n3]; [discriminate|]; intros [= ->] E2.
           destruct n3; exact (W2 z' y a E2 Oy).
        -- destruct (Nat.eqb_spec z y) as [e3|n3]; [discriminate|]; intros E2 [= ->].
           destruct n3; exact (W2 z y a E2 Oy).
        -- destruct (Nat.eqb_spec z y); [discriminate|]; destruct (Nat.eqb_spec z' y); [discriminate|].
           apply W2.
      * intros a Ca; destruct (W3 a Ca) as (z & Ez); destruct (Nat.eq_dec z y) as [->|Ny].
        -- exists x; rewrite E, Nat.eqb_refl; congruence.
        -- exists z; rewrite E; destruct (Nat.eqb_spec z x); [congruence|].
           destruct (Nat.eqb_spec z y); [contradiction|assumption].
      * assumption.
    + split; [unfold valuation; rewrite O; reflexivity|]; split.
      * intros z Hz; apply valuation_frame; [|reflexivity].
        rewrite E; destruct (Nat.eqb_spec z x); [subst; destruct Hz; left; reflexivity|].
        destruct (Nat.eqb_spec z y); [subst; destruct Hz; right; left; reflexivity|reflexivity].
      * exists t; split; [assumption|].
        unfold valuation in Vy |- *; cbn [objects mem]; rewrite !E, Nat.eqb_refl.
        rewrite Oy in Vy; split; [exact Vy|].
        destruct (Nat.eqb_spec y x); [contradiction|]; rewrite Nat.eqb_refl; reflexivity.
  - destruct (objects st x) as [p|] eqn:O; [|discriminate]; destruct (objects st y) as [q|] eqn:Oy; [|discriminate].
    destruct (value_live st y q W Oy) as (t & Vy & Q).
    assert (VX : valuation st x <> None) by (rewrite value_none by assumption; congruence).
    destruct (Nat.eqb_spec x y).
    { intros [= <- <-]; split; [assumption|]; split; [assumption|]; split; [intros z _; reflexivity|].
      exists t, t; subst y; auto. }
    destruct (copyAssign clones p q (mem st)) as [[p' m']|] eqn:CA; cbn [obind fst snd]; [|discriminate].
    intros [= <- <-].
    assert (M : moved st p p' m' /\ exists u, copies t u /\
                match p' with None => u = None | Some a => exists i, cells m' a = Some i /\ u = Some i end).
    { destruct q as [a|]; cbn [copyAssign] in CA.
      - destruct Q as (i & Ci & ->); unfold load in CA; rewrite Ci in CA; cbn [obind] in CA.
        destruct (copy_impl clones (mem st) i) as [i' m1] eqn:CI.
        destruct (copy_impl_spec _ _ _ _ CI) as (CC & C1 & F1).
        destruct p as [b|].
        + destruct (write b i' m1) as [m2|] eqn:WR; cbn [obind] in CA; [|discriminate].
          injection CA as <- <-; destruct (write_spec _ _ _ _ WR) as (F2 & Lv & Wb & Wo); split.
          * split.
            -- intros a' H1 _; rewrite Wo, C1 by congruence; reflexivity.
            -- intros a' H1 H2; congruence.
            -- intros a' [= <-]; rewrite Wb; discriminate.
            -- intros a' H1; left; assumption.
            -- rewrite F2, F1; split; [lia|]; intros a' [= <-].
               destruct (Nat.lt_ge_cases b (fresh (mem st))) as [|H]; [assumption|].
               rewrite C1 in Lv; destruct (Lv (wf_fresh st W b H)).
          * exists (Some i'); split; [assumption|]; eauto.
        + destruct (alloc i' m1) as [a' m2] eqn:AL; injection CA as <- <-.
          pose proof (alloc_moved st None i' m1 W) as M.
          rewrite AL in M; cbn [fst snd] in M; split.
          * apply M; try discriminate; [intros; rewrite C1; reflexivity|assumption].
          * exists (Some i'); split; [assumption|]; exists i'; split; [|reflexivity].
            unfold alloc in AL; injection AL as <- <-; cbn [cells]; apply set_same.
      - destruct (release p (mem st)) as [m1|] eqn:RL; cbn [obind] in CA; [|discriminate].
        injection CA as <- <-; subst t; split; [apply release_moved; assumption|].
        exists None; split; [split; [exact I|reflexivity]|reflexivity]. }
    destruct M as (M & u & Cu & Pu).
    destruct (moved_wf st x (Some p) p p' m' W O (or_introl eq_refl) M) as [W' K].
    split; [exact W'|]; split; [assumption|]; split; [exact K|].
    exists t, u; split; [assumption|]; split; [|assumption].
    unfold valuation; cbn [objects mem]; rewrite set_same.
    destruct p' as [a|]; [destruct Pu as (i & -> & ->); reflexivity|subst; reflexivity].
  - destruct (objects st x) as [p|] eqn:O; [|discriminate]; destruct (objects st y) as [q|] eqn:Oy; [|discriminate].
    destruct (value_live st y q W Oy) as (t & Vy & Q).
    assert (VX : valuation st x <> None) by (rewrite value_none by assumption; congruence).
    destruct (Nat.eqb_spec x y).
    { intros [= <- <-]; split; [assumption|]; split; [assumption|]; split; [intros z _; reflexivity|].
      exists t; subst y; auto. }
    destruct (release p (mem st)) as [m1|] eqn:RL; cbn [obind]; [|discriminate].
    intros [= <- <-].
    destruct (moved_wf st x (Some p) p None m1 W O (or_introl eq_refl) (release_moved st p m1 RL)) as [W' K].
    set (st1 := State (set (objects st) x (Some None)) m1) in *.
    assert (Oy1 : objects st1 y = Some q) by (cbn; rewrite set_other by congruence; assumption).
    assert (Ox1 : objects st1 x = Some None) by (cbn; apply set_same).
    assert (Vy1 : valuation st1 y = Some t) by (rewrite K; [assumption|intros [?|[]]; congruence]).
    destruct W' as [W1 W2 W3 W4].
    assert (E : forall z, set (set (objects st) y (Some None)) x (Some q) z =
                          if Nat.eqb z x then Some q else if Nat.eqb z y then Some None else objects st1 z).
    { intros z; unfold set at 1; destruct (Nat.eqb_spec z x); [reflexivity|].
      unfold set at 1; destruct (Nat.eqb_spec z y); [reflexivity|].
      cbn; rewrite set_other by assumption; reflexivity. }
    split.
    + split; cbn [objects mem].
      * intros z a; rewrite E; destruct (Nat.eqb_spec z x); [intros [= ->]; eapply (W1 y); eauto|].
        destruct (Nat.eqb z y); [discriminate|apply W1].
      * intros z z' a; rewrite !E.
        destruct (Nat.eqb_spec z x) as [e1|n1], (Nat.eqb_spec z' x) as [e2|n2]; [congruence| | |].
        -- destruct (Nat.eqb_spec z' y) as [e3|n3]; [discriminate|]; intros [= ->] E2.
           destruct n3; exact (W2 z' y a E2 Oy1).
        -- destruct (Nat.eqb_spec z y) as [e3|n3]; [discriminate|]; intros E2 [= ->].
           destruct n3; exact (W2 z y a E2 Oy1).
        -- destruct (Nat.eqb_spec z y); [discriminate|]; destruct (Nat.eqb_spec z' y); [discriminate|].
           apply W2.
      * intros a Ca; destruct (W3 a Ca) as (z & Ez); destruct (Nat.eq_dec z y) as [->|Ny].
        -- exists x; rewrite E, Nat.eqb_refl; congruence.
        -- exists z; rewrite E; destruct (Nat.eqb_spec z x); [congruence|].
           destruct (Nat.eqb_spec z y); [contradiction|assumption].
      * assumption.
    + split; [assumption|]; split.
      * intros z Hz.
        assert (z <> x) by (intros ->; apply Hz; left; reflexivity).
        assert (z <> y) by (intros ->; apply Hz; right; left; reflexivity).
        rewrite <- (K z) by (intros [?|[]]; congruence).
        apply (valuation_frame st1); [|reflexivity].
        rewrite E; destruct (Nat.eqb_spec z x); [contradiction|].
        destruct (Nat.eqb_spec z y); [contradiction|reflexivity].
      * exists t; split; [assumption|].
        unfold valuation in Vy1 |- *; cbn [objects mem]; rewrite !E, Nat.eqb_refl.
        rewrite Oy1 in Vy1; split; [exact Vy1|].
        destruct (Nat.eqb_spec y x); [congruence|]; rewrite Nat.eqb_refl; reflexivity.
  - destruct (objects st x) as [p|] eqn:O; [|discriminate].
    destruct (release p (mem st)) as [m1|] eqn:RL; cbn [obind]; [|discriminate].
    intros [= <- <-].
    assert (VX : valuation st x <> None) by (rewrite value_none by assumption; congruence).
    destruct (moved_wf st x (Some p) p None m1 W O (or_introl eq_refl) (release_moved st p m1 RL)) as [W' K].
    assert (E : forall z, z <> x -> set (objects st) x None z = set (objects st) x (Some None) z)
      by (intros z Hz; rewrite !set_other by assumption; reflexivity).
    split.
    + destruct W' as [W1 W2 W3 W4]; cbn [objects mem] in *; split; cbn [objects mem].
      * intros z a; destruct (Nat.eq_dec z x) as [->|Nz]; [rewrite set_same; discriminate|].
        rewrite E by assumption; apply W1.
      * intros z z' a; destruct (Nat.eq_dec z x) as [->|Nz]; [rewrite set_same; discriminate|].
        destruct (Nat.eq_dec z' x) as [->|Nz']; [rewrite set_same; discriminate|].
        rewrite !E by assumption; apply W2.
      * intros a Ca; destruct (W3 a Ca) as (z & Ez); exists z.
        destruct (Nat.eq_dec z x) as [->|Nz]; [rewrite set_same in Ez; discriminate|].
        rewrite E; assumption.
      * assumption.
    + split; [assumption|]; split; [unfold valuation; cbn [objects]; rewrite set_same; reflexivity|].
      intros z Hz; rewrite <- (K z Hz); unfold valuation; cbn [objects mem].
      rewrite E; [reflexivity|]; intros ->; apply Hz; left; reflexivity.
  - destruct (objects st x) as [p|] eqn:O; [|discriminate].
    destruct (value_live st x p W O) as (t & Vx & Q).
    destruct (callObject L encode c p (mem st)) as [[[b' p'] m']|] eqn:CO; cbn [obind]; [|discriminate].
    intros [= <- <-].
    assert (M : moved st p p' m' /\ exists u, step L encode t c = Some (b', u) /\
                match p' with None => u = None | Some a => exists i, cells m' a = Some i /\ u = Some i end).
    { assert (D : forall c', c = c' -> (forall dim w h d n cs, c' <> CInit dim w h d n cs) -> c' <> CReset ->
                  match p with
                  | None => obind (step L encode None c') (fun r => Some (fst r, None, mem st))
                  | Some a =>
                      obind (load a (mem st)) (fun i =>
                      obind (step L encode (Some i) c') (fun r =>
                      match r with
                      | (b, Some i') => obind (write a i' (mem st)) (fun m1 => Some (b, Some a, m1))
                      | (_, None) => None
                      end))
                  end = Some (b', p', m') ->
                  moved st p p' m' /\ exists u, step L encode t c' = Some (b', u) /\
                  match p' with None => u = None | Some a => exists i, cells m' a = Some i /\ u = Some i end).
      { intros c' _ N1 N2 E; destruct p as [a|].
        - destruct Q as (i & Ci & ->); unfold load in E; rewrite Ci in E; cbn [obind] in E.
          destruct (step L encode (Some i) c') as [[b0 [i'|]]|] eqn:S; cbn [obind] in E; try discriminate.
          destruct (write a i' (mem st)) as [m1|] eqn:WR; cbn [obind] in E; [|discriminate].
          injection E as <- <- <-; destruct (write_spec _ _ _ _ WR) as (F2 & Lv & Wb & Wo); split.
          + split.
            * intros a' H1 _; apply Wo; congruence.
            * intros a' H1 H2; congruence.
            * intros a' [= <-]; rewrite Wb; discriminate.
            * intros a' H1; left; assumption.
            * rewrite F2; split; [lia|]; intros a' [= <-].
              destruct (Nat.lt_ge_cases a (fresh (mem st))) as [|H]; [assumption|].
              destruct (Lv (wf_fresh st W a H)).
          + eexists; split; [reflexivity|]; eauto.
        - subst t; pose proof (step_none c' N1 N2) as SN.
          destruct (step L encode None c') as [[b0 u]|]; [|contradiction]; subst u.
          cbn [obind fst] in E; injection E as <- <- <-; split.
          + split; try discriminate; auto; split; [lia|discriminate].
          + eauto. }
      destruct c as [dim w h d n cs| |img m d|img f m d|rf l cm|fl a]; cbn [callObject] in CO;
        try (apply (D _ eq_refl); [congruence|congruence|exact CO]).
      - destruct (release p (mem st)) as [m1|] eqn:RL; cbn [obind] in CO; [|discriminate].
        cbn [step]; destruct (initialize dim w h d n cs) as [r [i|]] eqn:IN.
        + destruct (alloc i m1) as [a' m2] eqn:AL; injection CO as <- <- <-.
          destruct (release_spec _ _ _ RL) as (F & K & G).
          pose proof (alloc_moved st p i m1 W) as M.
          rewrite AL in M; cbn [fst snd] in M; split.
          * apply M; auto; intros a E; apply G; assumption.
          * eexists; split; [reflexivity|]; exists i; split; [|reflexivity].
            unfold alloc in AL; injection AL as <- <-; cbn [cells]; apply set_same.
        + injection CO as <- <- <-; split; [apply release_moved; assumption|]; eauto.
      - destruct (release p (mem st)) as [m1|] eqn:RL; cbn [obind] in CO; [|discriminate].
        injection CO as <- <- <-; cbn [step]; split; [apply release_moved; assumption|]; eauto. }
    destruct M as (M & u & Su & Pu).
    destruct (moved_wf st x (Some p) p p' m' W O (or_introl eq_refl) M) as [W' K].
    split; [exact W'|]; split; [exact K|].
    exists t, u; split; [assumption|]; split; [assumption|].
    unfold valuation; cbn [objects mem]; rewrite set_same.
    destruct p' as [a|]; [destruct Pu as (i & -> & ->); reflexivity|subst; reflexivity].
Qed.

Lemma release_defined st x p : wf st -> objects st x = Some p -> release p (mem st) <> None.
Proof.
  intros W O; destruct p as [a|]; [|discriminate]; cbn.
  pose proof (wf_live st W x a O); destruct (cells (mem st) a); [discriminate|contradiction].
Qed.

Lemma exec_defined st s : wf st -> allowed L encode s (valuation st) -> exec st s <> None.
Proof.
  intros W; destruct s as [x|x y|x y|x y|x y|x|x c]; cbn [TextureObjectModel.exec allowed].
  - rewrite value_none by assumption; intros ->; discriminate.
  - rewrite !value_none by assumption; intros [-> Hy]; destruct (objects st y) as [q|] eqn:Oy; [|contradiction].
    destruct q as [b|]; cbn; [|discriminate].
    pose proof (wf_live st W y b Oy); unfold load; destruct (cells (mem st) b) as [i|]; [|contradiction]; cbn.
    destruct (copy_impl clones (mem st) i); discriminate.
  - rewrite !value_none by assumption; intros [-> Hy]; destruct (objects st y) as [q|] eqn:Oy; [|contradiction].
    discriminate.
  - rewrite !value_none by assumption; intros [Hx Hy].
    destruct (objects st x) as [p|] eqn:O; [|contradiction]; destruct (objects st y) as [q|] eqn:Oy; [|contradiction].
    destruct (Nat.eqb x y); [discriminate|].
    destruct q as [b|]; cbn.
    + pose proof (wf_live st W y b Oy); unfold load; destruct (cells (mem st) b) as [i|]; [|contradiction]; cbn.
      destruct (copy_impl clones (mem st) i) as [i' m1] eqn:CI.
      destruct (copy_impl_spec _ _ _ _ CI) as (_ & C1 & _).
      destruct p as [a|]; [|discriminate]; unfold write; rewrite C1.
      pose proof (wf_live st W x a O); destruct (cells (mem st) a); [discriminate|contradiction].
    + pose proof (release_defined st x p W O); destruct (release p (mem st)); [discriminate|contradiction].
  - rewrite !value_none by assumption; intros [Hx Hy].
    destruct (objects st x) as [p|] eqn:O; [|contradiction]; destruct (objects st y) as [q|] eqn:Oy; [|contradiction].
    destruct (Nat.eqb x y); [discriminate|].
    pose proof (release_defined st x p W O); destruct (release p (mem st)); [discriminate|contradiction].
  - rewrite !value_none by assumption; intros Hx; destruct (objects st x) as [p|] eqn:O; [|contradiction].
    pose proof (release_defined st x p W O); destruct (release p (mem st)); [discriminate|contradiction].
  - intros (t & Vx & S).
    destruct (objects st x) as [p|] eqn:O; [|unfold valuation in Vx; rewrite O in Vx; discriminate].
    destruct (value_live st x p W O) as (t' & Vx' & Q); assert (t' = t) by congruence; subst t'.
    pose proof (release_defined st x p W O) as RD.
    assert (H : callObject L encode c p (mem st) <> None).
    { destruct c as [dim w h d n cs| |img m d|img f m d|rf l cm|fl a]; cbn [callObject];
        try (destruct p as [b|];
             [destruct Q as (i & Ci & ->); unfold load; rewrite Ci; cbn [obind];
              match goal with |- context [step L encode (Some i) ?c0] =>
                pose proof (step_some i c0) as SS;
                destruct (step L encode (Some i) c0) as [[b0 [i'|]]|]; cbn [obind];
                [|exfalso; apply (SS (b0, None)); [congruence|congruence|reflexivity|reflexivity]|contradiction]
              end;
              unfold write; rewrite Ci; discriminate
             |subst t; match goal with |- context [step L encode None ?c0] =>
                destruct (step L encode None c0); [discriminate|contradiction] end]).
      - destruct (release p (mem st)); cbn [obind]; [|contradiction].
        destruct (initialize dim w h d n cs) as [r [i|]]; discriminate.
      - destruct (release p (mem st)); [discriminate|contradiction]. }
    destruct (callObject L encode c p (mem st)) as [[[b' p'] m']|]; [discriminate|contradiction].
Qed.

Lemma execs_wf p : forall st st' bs, wf st -> execs st p = Some (st', bs) -> wf st'.
Proof.
  induction p as [|s p IH]; intros st st' bs W; cbn [TextureObjectModel.execs].
  - intros [= <- _]; assumption.
  - destruct (exec st s) as [[st1 b]|] eqn:E; cbn [obind]; [|discriminate].
    destruct (execs (fst (st1, b)) p) as [[st2 bs2]|] eqn:E2; cbn [obind]; [|discriminate].
    intros [= <- _]; eapply IH; [|exact E2]; eapply exec_spec; eauto.
Qed.

(** ** Copies with lost images *)

Lemma image_copies_complete l l' : Forall2 (Forall2 (Forall2 (@image_copy C))) l l' ->
  forallb (forallb (forallb isValid)) l' = true -> l' = l.
Proof.
  assert (H1 : forall a b : list (image C), Forall2 image_copy a b -> forallb isValid b = true -> b = a).
  { intros a b F; induction F as [|i j a b H F IH]; [reflexivity|]; cbn.
    rewrite andb_true_iff; intros [V Vs]; rewrite IH by assumption; destruct H as [->| ->]; [reflexivity|discriminate]. }
  assert (H2 : forall a b, Forall2 (Forall2 image_copy) a b -> forallb (forallb isValid) b = true -> b = a :> list (list (image C))).
  { intros a b F; induction F as [|i j a b H F IH]; [reflexivity|]; cbn.
    rewrite andb_true_iff; intros [V Vs]; rewrite IH, (H1 i j) by assumption; reflexivity. }
  intros F; induction F as [|i j a b H F IH]; [reflexivity|]; cbn [forallb].
  rewrite andb_true_iff; intros [V Vs]; rewrite IH, (H2 i j) by assumption; reflexivity.
Qed.

Lemma copy_complete (t u : texture C) : texture_copy t u -> imagesComplete u = true -> u = t.
Proof.
  destruct t as [i|], u as [j|]; try contradiction; [|discriminate].
  intros (F & E) V; cbn in V; pose proof (image_copies_complete _ _ F V) as EI.
  destruct i, j; cbn in *; intuition congruence.
Qed.

End Proofs.

(** C46: the cache of ASTC encoder contexts. *)

From Coq Require Import NArith List Bool Lia ZArith.
From Coq Require Import ZifyBool ZifyNat ZifyN.
From Verif Require Import Base AstcCacheModel AstcCacheSpec.
Import ListNotations.
Local Open Scope N_scope.

Lemma config_eqb_eq a b : config_eqb a b = true <-> a = b.
Proof.
  revert b. induction a as [|x a IH]; intros [|y b]; cbn; split; intros H; try discriminate; auto.
  - apply andb_true_iff in H. destruct H as [H1 H2]. apply N.eqb_eq in H1. apply IH in H2. congruence.
  - injection H as -> ->. rewrite N.eqb_refl. apply IH. reflexivity.
Qed.

Definition ctxs (l : list info) : list N :=
  flat_map (fun i => match fst i with Some c => [c] | None => [] end) l.

Lemma in_ctxs c l : In c (ctxs l) <-> exists cfg, In (Some c, cfg) l.
Proof.
  unfold ctxs. rewrite in_flat_map. split.
  - intros ([[c'|] cfg] & I & H); cbn in H; [|contradiction]. destruct H as [->|[]]. eauto.
  - intros (cfg & I). eexists; split; [exact I|]. left; reflexivity.
Qed.

Lemma ctxs_app a b : ctxs (a ++ b) = ctxs a ++ ctxs b.
Proof. unfold ctxs. apply flat_map_app. Qed.

Lemma life_app c a b : life_of c (a ++ b) = fold_left (live c) b (life_of c a).
Proof. unfold life_of. apply fold_left_app. Qed.

Record ok (cache : list info) (next : N) (held : list (N * info)) (acts : list action) : Prop := {
  k_life : forall c, match life_of c acts with
                     | Unborn => next <= c
                     | Idle cfg => In (Some c, cfg) cache
                     | InUse o cfg => In (o, (Some c, cfg)) held
                     | Dead => True
                     | Wrong => False
                     end;
  k_fresh : forall c, next <= c -> life_of c acts = Unborn;
  k_cache : forall c cfg, In (Some c, cfg) cache -> life_of c acts = Idle cfg;
  k_held : forall o c cfg, In (o, (Some c, cfg)) held -> life_of c acts = InUse o cfg;
  k_nodup : NoDup (ctxs cache);
  k_objs : NoDup (map fst held)
}.

Lemma NoDup_app_l {A} (a b : list A) : NoDup (a ++ b) -> NoDup a.
Proof. induction a as [|x a IH]; cbn; intros H; [constructor|]. inversion H; subst. constructor; auto. intros I. apply H2. apply in_or_app; auto. Qed.

Lemma NoDup_app_disj {A} (a b : list A) x : NoDup (a ++ b) -> In x a -> In x b -> False.
Proof.
  induction a as [|y a IH]; cbn; intros H I J; [contradiction|]. inversion H; subst. destruct I as [->|I]; auto.
  apply H2. apply in_or_app; auto.
Qed.

(** Dropping an entry that holds no context. *)
Lemma ok_null a cfg b n h acts : ok (a ++ (None, cfg) :: b) n h acts -> ok (a ++ b) n h acts.
Proof.
  intros K. destruct K as [K1 K2 K3 K4 K5 K6]. constructor; auto.
  - intros c. specialize (K1 c). destruct (life_of c acts); auto. apply in_app_iff in K1. apply in_app_iff.
    destruct K1 as [K1|[K1|K1]]; auto. discriminate.
  - intros c cfg' I. apply K3. apply in_app_iff in I. apply in_app_iff. cbn. tauto.
  - rewrite ctxs_app in *. exact K5.
Qed.

(** Freeing the last entry. *)
Lemma ok_free a i n h acts : ok (a ++ [i]) n h acts -> ok a n h (acts ++ destroy i).
Proof.
  intros K. destruct i as [[c0|] cfg0]; cbn [destroy fst].
  2:{ rewrite app_nil_r. apply ok_null in K. rewrite app_nil_r in K. exact K. }
  destruct K as [K1 K2 K3 K4 K5 K6].
  assert (L0 : life_of c0 acts = Idle cfg0) by (apply K3, in_or_app; right; left; reflexivity).
  rewrite ctxs_app in K5.
  constructor; auto.
  - intros c. rewrite life_app. cbn [fold_left live]. destruct (N.eqb_spec c c0) as [->|NE].
    + rewrite L0. exact I.
    + specialize (K1 c). destruct (life_of c acts); auto. apply in_app_iff in K1.
      destruct K1 as [K1|[K1|[]]]; auto. congruence.
  - intros c L. rewrite life_app. cbn [fold_left live]. destruct (N.eqb_spec c c0) as [->|NE]; [|auto].
    rewrite (K2 _ L) in L0. discriminate.
  - intros c cfg I. rewrite life_app. cbn [fold_left live]. destruct (N.eqb_spec c c0) as [->|NE].
    + exfalso. eapply (NoDup_app_disj _ _ c0 K5); [apply in_ctxs; eauto|left; reflexivity].
    + apply K3, in_or_app; auto.
  - intros o c cfg I. rewrite life_app. cbn [fold_left live]. destruct (N.eqb_spec c c0) as [->|NE]; [|eauto].
    rewrite (K4 _ _ _ I) in L0. discriminate.
  - apply NoDup_app_l in K5. exact K5.
Qed.

Lemma evict_ok n h cap fuel : forall cache acts cache' acts',
  ok cache n h acts -> evict fuel cap cache = Some (cache', acts') ->
  ok cache' n h (acts ++ acts') /\ N.of_nat (length cache') < cap /\ incl cache' cache.
Proof.
  induction fuel as [|fuel IH]; intros cache acts cache' acts' K H; cbn [evict] in H.
  - destruct (N.leb_spec cap (N.of_nat (length cache))); [discriminate|]. injection H as <- <-.
    rewrite app_nil_r. split; [auto|]. split; [auto|]. apply incl_refl.
  - destruct (N.leb_spec cap (N.of_nat (length cache))).
    + destruct (rev cache) as [|last front] eqn:E; [discriminate|].
      assert (E' : cache = rev front ++ [last]) by (rewrite <- (rev_involutive cache), E; reflexivity).
      destruct (evict fuel cap (rev front)) as [[c2 a2]|] eqn:EV; [|discriminate]. injection H as <- <-.
      rewrite E' in K. apply ok_free in K. destruct (IH _ _ _ _ K EV) as (A & B & C).
      rewrite <- app_assoc in A. split; [exact A|]. split; [exact B|].
      rewrite E'. intros x X. apply in_or_app. left. apply C; exact X.
    + injection H as <- <-. rewrite app_nil_r. split; [auto|]. split; [auto|]. apply incl_refl.
Qed.

Lemma evict_defined cap : 1 <= cap -> forall fuel cache, (length cache <= fuel)%nat -> evict fuel cap cache <> None.
Proof.
  intros C. induction fuel as [|fuel IH]; intros cache L; cbn [evict].
  - destruct (N.leb_spec cap (N.of_nat (length cache))); [lia|discriminate].
  - destruct (N.leb_spec cap (N.of_nat (length cache))); [|discriminate].
    pose proof (rev_length cache) as R.
    destruct (rev cache) as [|last front] eqn:E; [cbn in R; lia|].
    destruct (evict fuel cap (rev front)) as [[c2 a2]|] eqn:EV; [discriminate|].
    exfalso. revert EV. apply IH. rewrite rev_length. cbn in R. lia.
Qed.

Lemma take_split cfg cache c rest : take cfg cache = Some (c, rest) ->
  exists a b, cache = a ++ (c, cfg) :: b /\ rest = a ++ b.
Proof.
  revert c rest. induction cache as [|[c' cfg'] t IH]; intros c rest H; [discriminate|]. cbn [take] in H.
  destruct (config_eqb cfg cfg') eqn:E.
  - apply config_eqb_eq in E. subst cfg'. injection H as <- <-. exists [], t. split; reflexivity.
  - destruct (take cfg t) as [[c2 t2]|]; [|discriminate]. injection H as <- <-.
    destruct (IH _ _ eq_refl) as (a & b & -> & ->). exists ((c', cfg') :: a), b. split; reflexivity.
Qed.

Lemma take_none cfg cache c : take cfg cache = None -> ~ In (c, cfg) cache.
Proof.
  induction cache as [|[c' cfg'] t IH]; intros H; [auto|]. cbn [take] in H.
  destruct (config_eqb cfg cfg') eqn:E; [discriminate|].
  destruct (take cfg t) as [[c2 t2]|]; [discriminate|]. intros [X|X].
  - injection X as <- <-. rewrite (proj2 (config_eqb_eq cfg' cfg') eq_refl) in E. discriminate.
  - exact (IH eq_refl X).
Qed.

Lemma drop_split o held i rest : drop o held = Some (i, rest) ->
  exists a b, held = a ++ (o, i) :: b /\ rest = a ++ b.
Proof.
  revert i rest. induction held as [|[o' i'] t IH]; intros i rest H; [discriminate|]. cbn [drop] in H.
  destruct (N.eqb_spec o o') as [->|NE].
  - injection H as <- <-. exists [], t. split; reflexivity.
  - destruct (drop o t) as [[i2 t2]|]; [|discriminate]. injection H as <- <-.
    destruct (IH _ _ eq_refl) as (a & b & -> & ->). exists ((o', i') :: a), b. split; reflexivity.
Qed.

Lemma held_fresh o held : existsb (fun h : N * info => fst h =? o) held = false -> ~ In o (map fst held).
Proof.
  intros H I. apply in_map_iff in I. destruct I as (x & E & X). apply not_true_iff_false in H. apply H.
  apply existsb_exists. exists x. split; auto. apply N.eqb_eq; auto.
Qed.

(** Freeing the contexts of distinct entries, in any order. *)
Lemma frees_life c l : forall acts, NoDup (ctxs l) ->
  (forall cfg, In (Some c, cfg) l -> exists cfg', life_of c acts = Idle cfg') ->
  fold_left (live c) (flat_map destroy l) (life_of c acts) =
  if existsb (N.eqb c) (ctxs l) then Dead else life_of c acts.
Proof.
  induction l as [|[[c0|] cfg0] t IH]; intros acts ND H; cbn [flat_map destroy fst app ctxs].
  - reflexivity.
  - change (ctxs ((Some c0, cfg0) :: t)) with (c0 :: ctxs t) in ND. inversion ND as [|? ? NI ND']; subst.
    change (flat_map (fun i : info => match fst i with Some c1 => [c1] | None => [] end) t) with (ctxs t).
    cbn [fold_left live existsb]. destruct (N.eqb_spec c c0) as [->|NE]; cbn [orb].
    + destruct (H cfg0 (or_introl eq_refl)) as (cfg' & E). rewrite E.
      assert (G : forall l', ~ In c0 (ctxs l') -> fold_left (live c0) (flat_map destroy l') Dead = Dead).
      { clear. induction l' as [|[[c1|] cfg1] t IH]; cbn [flat_map destroy fst app]; intros N; auto.
        change (ctxs ((Some c1, cfg1) :: t)) with (c1 :: ctxs t) in N. cbn [fold_left live].
        destruct (N.eqb_spec c0 c1) as [->|]; [exfalso; apply N; left; reflexivity|]. apply IH. intros I; apply N; right; auto. }
      apply G; auto.
    + apply IH; auto. intros cfg I. apply (H cfg). right; exact I.
  - apply IH; auto. intros cfg I. apply (H cfg). right; exact I.
Qed.

Lemma step_ok cap s e acts s' acts' : ok (m_cache s) (m_next s) (m_held s) acts ->
  event_step cap s e = Done s' acts' -> ok (m_cache s') (m_next s') (m_held s') (acts ++ acts').
Proof.
  intros K H. destruct e as [o cfg sc|o|]; cbn [event_step] in H.
  - destruct (existsb _ _) eqn:NH; [discriminate|]. apply held_fresh in NH.
    unfold create in H. destruct (take cfg (m_cache s)) as [[c cache]|] eqn:T.
    + apply take_split in T. destruct T as (a & b & Ec & ->).
      destruct c as [c0|]; injection H as <- <-; cbn [m_cache m_next m_held].
      2:{ rewrite app_nil_r. rewrite Ec in K. apply ok_null in K. destruct K as [K1 K2 K3 K4 K5 K6].
          constructor; auto.
          - intros c. specialize (K1 c). destruct (life_of c acts); auto. right; exact K1.
          - intros o' c cfg' [X|X]; [discriminate|eauto].
          - cbn [map fst]. constructor; auto. }
      destruct K as [K1 K2 K3 K4 K5 K6]. rewrite Ec in *.
      assert (L0 : life_of c0 acts = Idle cfg) by (apply K3, in_or_app; right; left; reflexivity).
      rewrite ctxs_app in K5. change (ctxs ((Some c0, cfg) :: b)) with (c0 :: ctxs b) in K5.
      pose proof (NoDup_remove_1 _ _ _ K5) as K5'. pose proof (NoDup_remove_2 _ _ _ K5) as K5''.
      rewrite <- ctxs_app in K5', K5''.
      constructor; auto.
      * intros c. rewrite life_app. cbn [fold_left live]. destruct (N.eqb_spec c c0) as [->|NE].
        { rewrite L0, (proj2 (config_eqb_eq cfg cfg) eq_refl). left; reflexivity. }
        specialize (K1 c). destruct (life_of c acts); auto.
        { apply in_app_iff in K1. apply in_app_iff. destruct K1 as [K1|[K1|K1]]; auto. congruence. }
        { right; exact K1. }
      * intros c L. rewrite life_app. cbn [fold_left live]. destruct (N.eqb_spec c c0) as [->|NE]; [|auto].
        rewrite (K2 _ L) in L0. discriminate.
      * intros c cfg' I. rewrite life_app. cbn [fold_left live]. destruct (N.eqb_spec c c0) as [->|NE].
        { exfalso. apply K5''. apply in_ctxs. eauto. }
        apply K3. apply in_app_iff in I. apply in_app_iff. cbn. tauto.
      * intros o' c cfg' I. rewrite life_app. cbn [fold_left live]. destruct I as [I|I].
        { injection I as <- <- <-. rewrite N.eqb_refl, L0, (proj2 (config_eqb_eq cfg cfg) eq_refl). reflexivity. }
        destruct (N.eqb_spec c c0) as [->|NE]; [|eauto]. rewrite (K4 _ _ _ I) in L0. discriminate.
      * cbn [map fst]. constructor; auto.
    + destruct sc; injection H as <- <-; cbn [m_cache m_next m_held].
      2:{ rewrite app_nil_r. destruct K as [K1 K2 K3 K4 K5 K6]. constructor; auto.
          - intros c. specialize (K1 c). destruct (life_of c acts); auto. right; exact K1.
          - intros o' c cfg' [X|X]; [discriminate|eauto].
          - cbn [map fst]. constructor; auto. }
      destruct K as [K1 K2 K3 K4 K5 K6]. set (c0 := m_next s) in *.
      assert (L0 : life_of c0 acts = Unborn) by (apply K2; lia).
      assert (R : forall c, life_of c (acts ++ [Alloc c0 cfg; HandOut o c0 cfg]) =
        if c =? c0 then InUse o cfg else life_of c acts).
      { intros c. rewrite life_app. cbn [fold_left live]. destruct (N.eqb_spec c c0) as [->|NE]; auto.
        rewrite L0, (proj2 (config_eqb_eq cfg cfg) eq_refl). reflexivity. }
      constructor; auto.
      * intros c. rewrite R. destruct (N.eqb_spec c c0) as [->|NE]; [left; reflexivity|].
        specialize (K1 c). destruct (life_of c acts); auto; [lia|]. right; exact K1.
      * intros c L. rewrite R. destruct (N.eqb_spec c c0) as [->|NE]; [lia|]. apply K2; lia.
      * intros c cfg' I. rewrite R. destruct (N.eqb_spec c c0) as [->|NE]; auto.
        rewrite (K3 _ _ I) in L0. discriminate.
      * intros o' c cfg' [I|I]; rewrite R.
        { injection I as <- <- <-. rewrite N.eqb_refl. reflexivity. }
        destruct (N.eqb_spec c c0) as [->|NE]; [|eauto]. rewrite (K4 _ _ _ I) in L0. discriminate.
      * cbn [map fst]. constructor; auto.
  - destruct (drop o (m_held s)) as [[[c cfg] held]|] eqn:D; [|discriminate].
    destruct (evict _ cap (m_cache s)) as [[cache acts2]|] eqn:EV; [|discriminate].
    injection H as <- <-; cbn [m_cache m_next m_held].
    apply drop_split in D. destruct D as (a & b & Eh & ->).
    destruct (evict_ok _ _ _ _ _ _ _ _ K EV) as (K' & _ & _). clear K EV.
    rewrite app_assoc. set (acts1 := acts ++ acts2) in *. rewrite Eh in K'.
    destruct K' as [K1 K2 K3 K4 K5 K6].
    assert (KO : ~ In o (map fst (a ++ b)) /\ NoDup (map fst (a ++ b))).
    { rewrite map_app in *. cbn [map fst] in K6. split; [apply NoDup_remove_2 in K6|apply NoDup_remove_1 in K6]; auto. }
    destruct KO as [KO KN].
    destruct c as [c0|].
    + assert (L0 : life_of c0 acts1 = InUse o cfg) by (apply (K4 o), in_or_app; right; left; reflexivity).
      assert (R : forall c, life_of c (acts1 ++ [GiveBack o c0]) = if c =? c0 then Idle cfg else life_of c acts1).
      { intros c. rewrite life_app. cbn [fold_left live]. destruct (N.eqb_spec c c0) as [->|NE]; auto.
        rewrite L0, N.eqb_refl. reflexivity. }
      constructor; auto.
      * intros c. rewrite R. destruct (N.eqb_spec c c0) as [->|NE]; [left; reflexivity|].
        specialize (K1 c). destruct (life_of c acts1); auto; [right; exact K1|].
        apply in_app_iff in K1. apply in_app_iff. destruct K1 as [K1|[K1|K1]]; auto. congruence.
      * intros c L. rewrite R. destruct (N.eqb_spec c c0) as [->|NE]; auto. rewrite (K2 _ L) in L0. discriminate.
      * intros c cfg' [I|I]; rewrite R.
        { injection I as <- <-. rewrite N.eqb_refl. reflexivity. }
        destruct (N.eqb_spec c c0) as [->|NE]; auto. rewrite (K3 _ _ I) in L0. discriminate.
      * intros o' c cfg' I. rewrite R. destruct (N.eqb_spec c c0) as [->|NE].
        { assert (I' : In (o', (Some c0, cfg')) (a ++ (o, (Some c0, cfg)) :: b)) by (apply in_app_iff in I; apply in_app_iff; cbn; tauto).
          rewrite (K4 _ _ _ I') in L0. injection L0 as -> ->. exfalso. apply KO. apply in_map_iff. eexists; split; [|exact I]. reflexivity. }
        apply K4. apply in_app_iff in I. apply in_app_iff. cbn. tauto.
      * change (ctxs ((Some c0, cfg) :: cache)) with (c0 :: ctxs cache). constructor; auto.
        intros I. apply in_ctxs in I. destruct I as (cfg' & I). rewrite (K3 _ _ I) in L0. discriminate.
    + rewrite app_nil_r. constructor; auto.
      * intros c. specialize (K1 c). destruct (life_of c acts1); auto; [right; exact K1|].
        apply in_app_iff in K1. apply in_app_iff. destruct K1 as [K1|[K1|K1]]; auto. discriminate.
      * intros c cfg' [I|I]; [discriminate|auto].
      * intros o' c cfg' I. apply K4. apply in_app_iff in I. apply in_app_iff. cbn. tauto.
  - injection H as <- <-; cbn [m_cache m_next m_held]. destruct K as [K1 K2 K3 K4 K5 K6].
    assert (R : forall c, life_of c (acts ++ flat_map destroy (m_cache s)) =
      if existsb (N.eqb c) (ctxs (m_cache s)) then Dead else life_of c acts).
    { intros c. rewrite life_app. apply frees_life; auto. intros cfg I. exists cfg. apply K3; exact I. }
    assert (EX : forall c, existsb (N.eqb c) (ctxs (m_cache s)) = true <-> In c (ctxs (m_cache s))).
    { intros c. rewrite existsb_exists. split; [intros (x & X & E); apply N.eqb_eq in E; congruence|].
      intros X. exists c. split; auto. apply N.eqb_refl. }
    constructor; auto; try (constructor; fail).
    + intros c. rewrite R. destruct (existsb _ _) eqn:E; [exact I|].
      specialize (K1 c). destruct (life_of c acts) as [|cfg| | |]; auto.
      assert (X : In c (ctxs (m_cache s))) by (apply in_ctxs; eauto). apply EX in X. congruence.
    + intros c L. rewrite R. destruct (existsb _ _) eqn:E; auto. apply EX in E. apply in_ctxs in E.
      destruct E as (cfg & E). specialize (K3 c cfg E). rewrite (K2 _ L) in K3. discriminate.
    + intros c cfg [].
    + intros o c cfg I. rewrite R. destruct (existsb _ _) eqn:E; [|eauto]. apply EX in E. apply in_ctxs in E.
      destruct E as (cfg' & E). specialize (K3 c cfg' E). rewrite (K4 _ _ _ I) in K3. discriminate.
Qed.

Lemma ok0 : ok [] 0 [] [].
Proof.
  constructor; try (constructor; fail).
  - intros c. cbn. lia.
  - intros c cfg [].
  - intros o c cfg [].
Qed.

Lemma history_ok cap es : forall s acts s' acts', ok (m_cache s) (m_next s) (m_held s) acts ->
  history cap s es = Done s' acts' -> ok (m_cache s') (m_next s') (m_held s') (acts ++ acts').
Proof.
  induction es as [|e t IH]; intros s acts s' acts' K H; cbn [history] in H.
  - injection H as <- <-. rewrite app_nil_r. exact K.
  - destruct (event_step cap s e) as [s1 a1| |] eqn:E; try discriminate.
    destruct (history cap s1 t) as [s2 a2| |] eqn:E2; try discriminate. injection H as <- <-.
    rewrite app_assoc. eapply IH; [|exact E2]. eapply step_ok; eauto.
Qed.

Lemma history_app cap es : forall s s' acts' es2, history cap s es = Done s' acts' ->
  history cap s (es ++ es2) = match history cap s' es2 with Done s'' a => Done s'' (acts' ++ a) | r => r end.
Proof.
  induction es as [|e t IH]; intros s s' acts' es2 H; cbn [history app] in *.
  - injection H as <- <-. destruct (history cap s es2); reflexivity.
  - destruct (event_step cap s e) as [s1 a1| |] eqn:E; try discriminate.
    destruct (history cap s1 t) as [s2 a2| |] eqn:E2; try discriminate. injection H as <- <-.
    rewrite (IH _ _ _ es2 E2). destruct (history cap s2 es2); auto. rewrite app_assoc. reflexivity.
Qed.

Lemma history_cache cap es : forall s s' acts', N.of_nat (length (m_cache s)) <= cap ->
  history cap s es = Done s' acts' -> N.of_nat (length (m_cache s')) <= cap.
Proof.
  induction es as [|e t IH]; intros s s' acts' L H; cbn [history] in H.
  - injection H as <- <-. exact L.
  - destruct (event_step cap s e) as [s1 a1| |] eqn:E; try discriminate.
    destruct (history cap s1 t) as [s2 a2| |] eqn:E2; try discriminate. injection H as <- <-.
    eapply IH; [|exact E2]. clear IH E2. destruct e as [o cfg sc|o|]; cbn [event_step] in E.
    + destruct (existsb _ _); [discriminate|]. unfold create in E.
      destruct (take cfg (m_cache s)) as [[c cache]|] eqn:T.
      * injection E as <- <-. cbn [m_cache]. apply take_split in T. destruct T as (a & b & Ec & ->).
        rewrite Ec in L. rewrite app_length in *. cbn [length] in L. lia.
      * destruct sc; injection E as <- <-; exact L.
    + destruct (drop o (m_held s)) as [[[c cfg] held]|]; [|discriminate].
      destruct (evict _ cap (m_cache s)) as [[cache acts2]|] eqn:EV; [|discriminate].
      injection E as <- <-; cbn [m_cache length].
      assert (G : forall fuel cache0 cache1 a, evict fuel cap cache0 = Some (cache1, a) -> N.of_nat (length cache1) < cap).
      { clear. induction fuel as [|fuel IH]; intros cache0 cache1 a H; cbn [evict] in H;
          destruct (N.leb_spec cap (N.of_nat (length cache0))); try discriminate.
        - injection H as <- <-; auto.
        - destruct (rev cache0); [discriminate|]. destruct (evict fuel cap (rev l)) as [[? ?]|] eqn:X; [|discriminate].
          injection H as <- <-. eauto.
        - injection H as <- <-; auto. }
      specialize (G _ _ _ _ EV). lia.
    + injection E as <- <-. cbn. lia.
Qed.

(** In every history no context is allocated twice, handed out while it is in use, handed out
    for another configuration, given back by somebody else, freed while in use or freed twice. *)
Theorem C46_legal : forall cap es s acts, history cap manager0 es = Done s acts ->
  forall c, life_of c acts <> Wrong.
Proof.
  intros cap es s acts H c E. pose proof (history_ok _ _ manager0 [] _ _ ok0 H) as K.
  pose proof (k_life _ _ _ _ K c) as L. cbn [app] in L. rewrite E in L. exact L.
Qed.
Print Assumptions C46_legal.

(** The object that works with a context is its only user, and got it for its configuration. *)
Theorem C46_exclusive : forall cap es s acts, history cap manager0 es = Done s acts ->
  (forall o c cfg, In (o, (Some c, cfg)) (m_held s) <-> life_of c acts = InUse o cfg) /\
  (forall o1 o2 c cfg1 cfg2, In (o1, (Some c, cfg1)) (m_held s) -> In (o2, (Some c, cfg2)) (m_held s) -> o1 = o2).
Proof.
  intros cap es s acts H. pose proof (history_ok _ _ manager0 [] _ _ ok0 H) as K. cbn [app] in K.
  assert (A : forall o c cfg, In (o, (Some c, cfg)) (m_held s) <-> life_of c acts = InUse o cfg).
  { intros o c cfg. split; [apply (k_held _ _ _ _ K)|]. intros E.
    pose proof (k_life _ _ _ _ K c) as L. rewrite E in L. exact L. }
  split; [exact A|]. intros o1 o2 c cfg1 cfg2 H1 H2. apply A in H1. apply A in H2. congruence.
Qed.
Print Assumptions C46_exclusive.

(** At no time are more contexts kept unused than the capacity. *)
Theorem C46_bounded : forall cap es s acts, history cap manager0 es = Done s acts ->
  N.of_nat (length (idle (m_next s) acts)) <= cap /\
  forall c, life_of c acts <> Unborn -> c < m_next s.
Proof.
  intros cap es s acts H. pose proof (history_ok _ _ manager0 [] _ _ ok0 H) as K. cbn [app] in K.
  pose proof (history_cache _ _ manager0 _ _ (N.le_0_l _) H) as L. split.
  - assert (I : incl (idle (m_next s) acts) (ctxs (m_cache s))).
    { intros c I. apply filter_In in I. destruct I as [_ I]. pose proof (k_life _ _ _ _ K c) as J.
      destruct (life_of c acts); try discriminate. apply in_ctxs. eauto. }
    assert (D : NoDup (idle (m_next s) acts)) by (apply NoDup_filter, NoDup_Nrange).
    pose proof (NoDup_incl_length D I) as B.
    assert (C : (length (ctxs (m_cache s)) <= length (m_cache s))%nat).
    { generalize (m_cache s). clear. induction l as [|[[c|] cfg] t IH]; cbn; unfold ctxs in *; lia. }
    lia.
  - intros c N. destruct (N.ltb_spec c (m_next s)) as [|G]; auto. exfalso. apply N. apply (k_fresh _ _ _ _ K); auto.
Qed.
Print Assumptions C46_bounded.

(** When the program ends with all objects destroyed, every context ever allocated has been
    freed (exactly once, by [C46_legal]). *)
Theorem C46_no_leak : forall cap es s acts, history cap manager0 (es ++ [Exit]) = Done s acts ->
  m_held s = [] -> forall c, life_of c acts = Dead \/ life_of c acts = Unborn.
Proof.
  intros cap es s acts H E c. pose proof (history_ok _ _ manager0 [] _ _ ok0 H) as K. cbn [app] in K.
  assert (C : m_cache s = []).
  { destruct (history cap manager0 es) as [s1 a1| |] eqn:E1.
    - rewrite (history_app _ _ _ _ _ _ E1) in H. cbn [history event_step] in H. injection H as <- <-. reflexivity.
    - exfalso. revert H E1. clear. generalize manager0. intros m. revert m s acts.
      induction es as [|e t IH]; intros m s acts H E1; cbn [history app] in *; [discriminate|].
      destruct (event_step cap m e) as [s1 a1| |]; try discriminate.
      destruct (history cap s1 t) as [s2 a2| |] eqn:E2; try discriminate.
      destruct (history cap s1 (t ++ [Exit])) eqn:E3; try discriminate. eapply IH; eauto.
    - exfalso. revert H E1. clear. generalize manager0. intros m. revert m s acts.
      induction es as [|e t IH]; intros m s acts H E1; cbn [history app] in *; [discriminate|].
      destruct (event_step cap m e) as [s1 a1| |]; try discriminate.
      destruct (history cap s1 t) as [s2 a2| |] eqn:E2; try discriminate.
      destruct (history cap s1 (t ++ [Exit])) eqn:E3; try discriminate. eapply IH; eauto. }
  pose proof (k_life _ _ _ _ K c) as L. rewrite C, E in L.
  destruct (life_of c acts); cbn in L; auto; contradiction.
Qed.
Print Assumptions C46_no_leak.

(** An unused context of the right configuration is used again instead of a new one. *)
Theorem C46_reuse : forall cap es s acts o cfg c ok0 s' acts', history cap manager0 es = Done s acts ->
  life_of c acts = Idle cfg -> event_step cap s (Create o cfg ok0) = Done s' acts' ->
  forall c' cfg', ~ In (Alloc c' cfg') acts'.
Proof.
  intros cap es s acts o cfg c sc s' acts' H L E c' cfg' I.
  pose proof (history_ok _ _ manager0 [] _ _ PropsAstc.ok0 H) as K. cbn [app] in K.
  pose proof (k_life _ _ _ _ K c) as J. rewrite L in J.
  cbn [event_step] in E. destruct (existsb _ _); [discriminate|]. unfold create in E.
  destruct (take cfg (m_cache s)) as [[c1 cache]|] eqn:T.
  - injection E as <- <-. destruct c1; cbn in I; [|contradiction]. destruct I as [I|[]]; discriminate.
  - exact (take_none _ _ _ T J).
Qed.
Print Assumptions C46_reuse.

(** With a capacity of at least one every history is defined. *)
Theorem C46_defined : forall cap es s, 1 <= cap -> history cap s es <> UB.
Proof.
  intros cap es s C. revert s. induction es as [|e t IH]; intros s; cbn [history]; [discriminate|].
  destruct (event_step cap s e) as [s1 a1| |] eqn:E; [|discriminate|].
  - specialize (IH s1). destruct (history cap s1 t); congruence.
  - exfalso. destruct e as [o cfg sc|o|]; cbn [event_step] in E.
    + destruct (existsb _ _); [discriminate|]. destruct (create _ _ _ _); discriminate.
    + destruct (drop o (m_held s)) as [[[c cfg] held]|]; [|discriminate].
      destruct (evict _ cap (m_cache s)) as [[cache acts2]|] eqn:EV; [discriminate|].
      revert EV. apply evict_defined; auto.
    + discriminate.
Qed.
Print Assumptions C46_defined.

(** hardware_concurrency() may be 0; then giving back the first context is undefined. *)
Theorem C46_zero_refuted : forall o cfg ok, history 0 manager0 [Create o cfg ok; Destroy o] = UB.
Proof. intros o cfg ok. cbn. destruct ok; cbn; rewrite N.eqb_refl; reflexivity. Qed.
Print Assumptions C46_zero_refuted.

(** Two configurations, a capacity of one: object 2 reuses the context of object 0, the context
    of object 1 is freed when object 2 gives back its own. *)
Example C46_example : exists s,
  history 1 manager0 [Create 0 [7] true; Create 1 [8] true; Destroy 0; Create 2 [7] true; Destroy 1; Destroy 2; Exit] =
  Done s [Alloc 0 [7]; HandOut 0 0 [7]; Alloc 1 [8]; HandOut 1 1 [8]; GiveBack 0 0; HandOut 2 0 [7];
          GiveBack 1 1; Free 1; GiveBack 2 0; Free 0] /\ m_held s = [].
Proof. eexists. split; reflexivity. Qed.

(** The worker threads of [Converter::convert]: invariants over all reachable states. *)

From Coq Require Import NArith List Bool Lia ZArith Permutation.
From Coq Require Import ZifyBool ZifyNat ZifyN.
From Verif Require Import Base FormatModel ConverterModel ConverterSpec.
Import ListNotations.
Local Open Scope N_scope.

(** Unchecked stores. *)
Definition ustore (buf : list N) (w : N * N) := upd (N.to_nat (fst w)) (snd w) buf.
Definition ustores (ws : list (N * N)) (buf : list N) := fold_left ustore ws buf.

Lemma NoDup_app_remove_l {A} (a b : list A) : NoDup (a ++ b) -> NoDup b.
Proof. induction a; cbn; auto; intros H; inversion H; auto. Qed.

Lemma NoDup_app_remove_r {A} (a b : list A) : NoDup (a ++ b) -> NoDup a.
Proof.
  induction a as [|x a IH]; cbn; intros H; constructor; inversion H; subst; auto.
  intros K; apply H2; apply in_or_app; auto.
Qed.

Lemma ustore_length buf w : length (ustore buf w) = length buf.
Proof. apply upd_length. Qed.

Lemma ustores_length ws buf : length (ustores ws buf) = length buf.
Proof.
  revert buf; induction ws as [|w ws IH]; intros buf; cbn; auto.
  unfold ustores in IH; rewrite IH; apply ustore_length.
Qed.

Lemma store_some buf w : fst w < N.of_nat (length buf) -> store buf w = Some (ustore buf w).
Proof. intros H; unfold store; apply N.ltb_lt in H; rewrite H; reflexivity. Qed.

Lemma store_inv buf w b : store buf w = Some b -> b = ustore buf w.
Proof. unfold store, ustore; destruct (_ <? _); congruence. Qed.

Lemma stores_some ws buf : in_buf (length buf) ws -> stores buf ws = Some (ustores ws buf).
Proof.
  revert buf; induction ws as [|w ws IH]; intros buf H; cbn; auto.
  inversion H; subst; rewrite store_some by assumption; cbn.
  rewrite IH; [reflexivity|]. unfold in_buf; rewrite ustore_length; assumption.
Qed.

Lemma ustores_app a b buf : ustores (a ++ b) buf = ustores b (ustores a buf).
Proof. apply fold_left_app. Qed.

Lemma upd_comm {A} i j (a b : A) l : i <> j -> upd i a (upd j b l) = upd j b (upd i a l).
Proof.
  revert i j; induction l; intros [|i] [|j] H; cbn; auto; try congruence.
  f_equal; apply IHl; congruence.
Qed.

Lemma ustores_perm l l' buf :
  Permutation l l' -> NoDup (map fst l) -> ustores l buf = ustores l' buf.
Proof.
  intros P; revert buf; induction P; intros buf ND; cbn in *; auto.
  - inversion ND; subst; apply IHP; auto.
  - inversion ND as [|? ? H1 H2]; subst; cbn in H1.
    unfold ustores; cbn; f_equal; unfold ustore; apply upd_comm.
    intros E; apply H1; left; lia.
  - rewrite IHP1 by auto; apply IHP2.
    eapply Permutation_NoDup; [|exact ND]; apply Permutation_map; exact P1.
Qed.

Lemma upd_nth_perm (rem : thread -> list (N * N)) i t t' ts :
  nth_error ts i = Some t ->
  forall extra, Permutation (rem t) (extra ++ rem t') ->
  Permutation (flat_map rem ts) (extra ++ flat_map rem (upd i t' ts)).
Proof.
  revert i; induction ts as [|u ts IH]; intros [|i] H extra P; cbn in *; try discriminate.
  - inversion H; subst. rewrite app_assoc; apply Permutation_app_tail; exact P.
  - specialize (IH i H extra P).
    rewrite IH, !app_assoc; apply Permutation_app_tail, Permutation_app_comm.
Qed.

Definition rem (t : thread) : list (N * N) := match t with TRun ws => ws | _ => [] end.
Definition is_done (t : thread) : bool := match t with TDone => true | _ => false end.
Definition ndone (ts : list thread) : nat := length (filter is_done ts).

#[global] Arguments ndone : simpl never.

Lemma ndone_upd i t t' ts :
  nth_error ts i = Some t -> is_done t = false ->
  ndone (upd i t' ts) = (ndone ts + if is_done t' then 1 else 0)%nat.
Proof.
  unfold ndone; revert i; induction ts as [|u ts IH]; intros [|i] H D; cbn in *; try discriminate.
  - inversion H; subst; rewrite D; destruct (is_done t'); cbn; lia.
  - destruct (is_done u); cbn; rewrite IH; auto.
Qed.

Lemma ndone_le ts : (ndone ts <= length ts)%nat.
Proof. unfold ndone; induction ts as [|t ts IH]; cbn; [lia|destruct (is_done t); cbn; lia]. Qed.

Lemma ndone_lt i t ts : nth_error ts i = Some t -> is_done t = false -> (ndone ts < length ts)%nat.
Proof.
  intros H D; pose proof (ndone_upd i t TDone ts H D) as E; cbn in E.
  pose proof (ndone_le (upd i TDone ts)); rewrite upd_length in *; lia.
Qed.

Section Sched.
  Context {J : Type} (process : J -> option (list (N * N))) (jobs : list J) (buf0 : list N)
    (threads : nat).

  Local Notation writes := (ConverterSpec.writes process).
  Local Notation reach := (ConverterSpec.reach process jobs buf0 threads).

  Definition todo (c : N) : list (N * N) := flat_map writes (skipn (N.to_nat c) jobs).

  Record inv (m : machine) : Prop := Inv
    { inv_len : length (m_threads m) = threads;
      inv_count : m_counter m = N.of_nat (length (m_log m) + ndone (m_threads m));
      inv_log : m_log m = Nrange (N.of_nat (length (m_log m)));
      inv_log_le : (length (m_log m) <= length jobs)%nat;
      inv_log_all : (0 < ndone (m_threads m))%nat -> length (m_log m) = length jobs;
      inv_writes : exists done,
        m_buf m = ustores done buf0 /\
        Permutation (done ++ flat_map rem (m_threads m) ++ todo (N.of_nat (length (m_log m))))
                    (flat_map writes jobs) }.

  Hypothesis Hok : jobs_ok process jobs buf0.
  Hypothesis Hbound : N.of_nat (length jobs) + N.of_nat threads < 2^32.

  Lemma flat_rem_fetch n : flat_map rem (repeat TFetch n) = [].
  Proof. induction n; cbn; auto. Qed.

  Lemma ndone_fetch n : ndone (repeat TFetch n) = 0%nat.
  Proof. unfold ndone; induction n; cbn; auto. Qed.

  Lemma inv_init : inv (minit buf0 threads).
  Proof.
    constructor; cbn.
    - apply repeat_length.
    - rewrite ndone_fetch; reflexivity.
    - reflexivity.
    - lia.
    - rewrite ndone_fetch; lia.
    - exists []; split; [reflexivity|]. cbn; rewrite flat_rem_fetch; cbn; reflexivity.
  Qed.

  Lemma Nrange_snoc n : Nrange (n + 1) = Nrange n ++ [n].
  Proof.
    unfold Nrange. replace (N.to_nat (n + 1)) with (N.to_nat n + 1)%nat by lia.
    rewrite seq_app, map_app; cbn; rewrite Nnat.N2Nat.id; reflexivity.
  Qed.

  Lemma skipn_cons {A} n (l : list A) x : nth_error l n = Some x -> skipn n l = x :: skipn (S n) l.
  Proof.
    revert l; induction n; intros [|y l] H; cbn in *; try discriminate.
    - congruence.
    - rewrite (IHn l H); reflexivity.
  Qed.

  Lemma inv_step m m' : inv m -> mstep process jobs m m' -> inv m'.
  Proof.
    intros I S; destruct S; destruct I as [Il Ic Ig Ile Iall (done & Ib & Ip)]; cbn in *.
    - (* take *)
      assert (D0 : ndone ts = 0%nat).
      { destruct (ndone ts) eqn:E; auto.
        assert (length lg = length jobs) by (apply Iall; lia).
        assert (N.to_nat c < length jobs)%nat by (apply nth_error_Some; congruence). lia. }
      assert (Ec : N.to_nat c = length lg) by lia.
      assert (Hlt : (N.to_nat c < length jobs)%nat) by (apply nth_error_Some; congruence).
      constructor; cbn.
      + rewrite upd_length; auto.
      + rewrite app_length, (ndone_upd i TFetch) by auto; cbn.
        rewrite u32_small by lia. lia.
      + rewrite app_length; cbn. rewrite Nnat.Nat2N.inj_add; cbn.
        rewrite Nrange_snoc, <- Ig. f_equal; f_equal; lia.
      + rewrite app_length; cbn; lia.
      + rewrite (ndone_upd i TFetch) by auto; cbn; lia.
      + exists done; split; auto.
        rewrite <- Ip; apply Permutation_app_head.
        rewrite app_length; cbn.
        unfold todo. rewrite Nnat.Nat2N.id, Nnat.Nat2N.id.
        rewrite <- Ec, (skipn_cons _ _ _ H0); cbn [flat_map].
        replace (N.to_nat c + 1)%nat with (Datatypes.S (N.to_nat c)) by lia.
        assert (E : writes j = ws) by (unfold ConverterSpec.writes; rewrite H1; reflexivity). rewrite E.
        assert (Q : nth_error (upd i (TRun ws) ts) i = Some (TRun ws)).
        { apply nth_error_upd_same; apply nth_error_Some; congruence. }
        pose proof (upd_nth_perm rem i (TRun ws) TFetch _ Q ws) as R; cbn in R.
        rewrite app_nil_r in R; specialize (R (Permutation_refl _)).
        replace (upd i TFetch (upd i (TRun ws) ts)) with ts in R.
        * rewrite R, <- !app_assoc.
          rewrite !app_assoc; apply Permutation_app_tail, Permutation_app_comm.
        * clear - H; revert i H; induction ts as [|u ts IH]; intros [|i] H; cbn in *;
            try discriminate; [congruence| f_equal; apply IH; auto].
    - (* exit *)
      pose proof (ndone_lt _ _ _ H eq_refl) as Dlt.
      assert (El : length lg = length jobs).
      { destruct (ndone ts) eqn:E; [lia|apply Iall; lia]. }
      constructor; cbn.
      + rewrite upd_length; auto.
      + rewrite (ndone_upd i TFetch) by auto; cbn. rewrite u32_small by lia. lia.
      + auto.
      + auto.
      + auto.
      + exists done; split; auto.
        rewrite <- Ip; apply Permutation_app_head, Permutation_app_tail.
        symmetry. apply (upd_nth_perm rem i TFetch TDone ts H []); reflexivity.
    - (* store *)
      constructor; cbn.
      + rewrite upd_length; auto.
      + rewrite (ndone_upd i (TRun (w :: ws))) by auto; cbn; lia.
      + auto.
      + auto.
      + rewrite (ndone_upd i (TRun (w :: ws))) by auto; cbn; rewrite Nat.add_0_r; auto.
      + exists (done ++ [w]); split.
        * apply store_inv in H0; subst. rewrite ustores_app; reflexivity.
        * rewrite <- Ip, <- !app_assoc; apply Permutation_app_head.
          rewrite app_assoc; apply Permutation_app_tail.
          symmetry; apply (upd_nth_perm rem i (TRun (w :: ws)) (TRun ws) ts H [w]); reflexivity.
    - (* next *)
      constructor; cbn.
      + rewrite upd_length; auto.
      + rewrite (ndone_upd i (TRun [])) by auto; cbn; lia.
      + auto.
      + auto.
      + rewrite (ndone_upd i (TRun [])) by auto; cbn; rewrite Nat.add_0_r; auto.
      + exists done; split; auto.
        rewrite <- Ip; apply Permutation_app_head, Permutation_app_tail.
        symmetry; apply (upd_nth_perm rem i (TRun []) TFetch ts H []); reflexivity.
  Qed.

  Lemma reach_inv m : reach m -> inv m.
  Proof. induction 1; eauto using inv_init, inv_step. Qed.

  Lemma perm_nodup l : Permutation l (flat_map writes jobs) -> NoDup (map fst l).
  Proof.
    intros P; eapply Permutation_NoDup; [apply Permutation_map; symmetry; exact P|apply Hok].
  Qed.

  Lemma perm_in_buf l : Permutation l (flat_map writes jobs) -> in_buf (length buf0) l.
  Proof.
    intros P; unfold in_buf; rewrite Forall_forall; intros w Hw.
    destruct Hok as (_ & _ & F); unfold in_buf in F; rewrite Forall_forall in F; apply F.
    eapply Permutation_in; eassumption.
  Qed.

  Lemma reach_buf_length m : reach m -> length (m_buf m) = length buf0.
  Proof.
    intros R; apply reach_inv in R; destruct R as [_ _ _ _ _ (done & -> & _)].
    apply ustores_length.
  Qed.

  Lemma thread_write_in i w ws ts :
    nth_error ts i = Some (TRun (w :: ws)) -> In w (flat_map rem ts).
  Proof.
    intros H; apply in_flat_map; exists (TRun (w :: ws)); split; [eapply nth_error_In; eauto|].
    left; reflexivity.
  Qed.

  Lemma reach_not_bad m : reach m -> ~ mbad process jobs m.
  Proof.
    intros R B; pose proof (reach_buf_length _ R) as L; apply reach_inv in R.
    destruct B as [buf c ts lg i j H H0 H1|buf c ts lg i w ws H H0].
    - destruct Hok as (A & _); apply (A j); [eapply nth_error_In; eauto|exact H1].
    - destruct R as [_ _ _ _ _ (done & _ & P)]; cbn in *.
      apply perm_in_buf in P; unfold in_buf in P; rewrite Forall_forall in P.
      assert (I : In w (flat_map rem ts)) by (eapply thread_write_in; eauto).
      rewrite store_some in H0; [discriminate|]. rewrite L; apply P.
      apply in_or_app; right; apply in_or_app; left; exact I.
  Qed.

  Lemma two_threads_split (ts : list thread) i j a b :
    (i < j)%nat -> nth_error ts i = Some a -> nth_error ts j = Some b ->
    exists l1 l2 l3, ts = l1 ++ a :: l2 ++ b :: l3.
  Proof.
    intros L A B.
    apply nth_error_split in A; destruct A as (l1 & r & -> & E).
    rewrite nth_error_app2 in B by lia.
    destruct (j - length l1)%nat eqn:K; [lia|]; cbn in B.
    apply nth_error_split in B; destruct B as (l2 & l3 & -> & _).
    exists l1, l2, l3; reflexivity.
  Qed.

  Lemma reach_no_race m : reach m -> ~ mrace m.
  Proof.
    intros R; apply reach_inv in R; destruct R as [_ _ _ _ _ (done & _ & P)].
    apply perm_nodup in P.
    rewrite !map_app in P.
    assert (ND : NoDup (map fst (flat_map rem (m_threads m)))).
    { apply NoDup_app_remove_l in P. eapply NoDup_app_remove_r; exact P. }
    assert (W : forall i j a b o va vb, (i < j)%nat ->
      nth_error (m_threads m) i = Some (TRun ((o, va) :: a)) ->
      nth_error (m_threads m) j = Some (TRun ((o, vb) :: b)) -> False).
    { intros i j a b o va vb L A B.
      destruct (two_threads_split _ _ _ _ _ L A B) as (l1 & l2 & l3 & E).
      rewrite E in ND; rewrite flat_map_app in ND; cbn [flat_map rem] in ND.
      rewrite map_app in ND; apply NoDup_app_remove_l in ND.
      cbn in ND; inversion ND as [|? ? K1 K2]; subst; apply K1.
      rewrite map_app, flat_map_app, map_app; cbn.
      apply in_or_app; right; apply in_or_app; right; left; reflexivity. }
    intros (i & j & a & b & wa & wb & o & va & vb & N & A & B & -> & ->).
    destruct (Nat.lt_trichotomy i j) as [L|[L|L]]; [|congruence|]; eauto.
  Qed.

  Lemma all_done_ndone ts : (forall t, In t ts -> t = TDone) -> ndone ts = length ts.
  Proof.
    unfold ndone; induction ts as [|t ts IH]; intros H; cbn; auto.
    rewrite (H t (or_introl eq_refl)); cbn; f_equal; apply IH; intros; apply H; right; auto.
  Qed.

  Lemma all_done_rem ts : (forall t, In t ts -> t = TDone) -> flat_map rem ts = [].
  Proof.
    induction ts as [|t ts IH]; intros H; cbn; auto.
    rewrite (H t (or_introl eq_refl)); cbn; apply IH; intros; apply H; right; auto.
  Qed.

  Lemma run_serial_some js buf :
    (forall j, In j js -> process j <> None) ->
    in_buf (length buf) (flat_map writes js) ->
    run_serial process js buf = Some (ustores (flat_map writes js) buf).
  Proof.
    revert buf; induction js as [|j js IH]; intros buf A B; cbn; auto.
    cbn in B; unfold in_buf in B; apply Forall_app in B; destruct B as [B1 B2].
    unfold ConverterSpec.writes at 1; unfold ConverterSpec.writes in B1 at 1.
    destruct (process j) as [ws|] eqn:E; [|exfalso; apply (A j); [left; auto|exact E]].
    cbn; rewrite stores_some by exact B1; cbn.
    rewrite IH.
    - rewrite ustores_app; reflexivity.
    - intros; apply A; right; auto.
    - unfold in_buf; rewrite ustores_length; exact B2.
  Qed.

  Lemma reach_final m : (0 < threads)%nat -> reach m -> mfinal m ->
    run_serial process jobs buf0 = Some (m_buf m) /\
    m_log m = Nrange (N.of_nat (length jobs)).
  Proof.
    intros T R F; apply reach_inv in R; destruct R as [Il Ic Ig Ile Iall (done & Ib & Ip)].
    assert (El : length (m_log m) = length jobs).
    { apply Iall; rewrite all_done_ndone by exact F; lia. }
    split; [|rewrite <- El; exact Ig].
    rewrite run_serial_some by apply Hok.
    rewrite Ib; f_equal; symmetry; apply ustores_perm.
    - rewrite <- Ip, (all_done_rem _ F); cbn.
      unfold todo; rewrite El, Nnat.Nat2N.id, skipn_all; cbn; rewrite app_nil_r; reflexivity.
    - apply perm_nodup. rewrite <- Ip, (all_done_rem _ F); cbn.
      unfold todo; rewrite El, Nnat.Nat2N.id, skipn_all; cbn; rewrite app_nil_r; reflexivity.
  Qed.

  Lemma reach_progress m : reach m -> mfinal m \/ exists m', mstep process jobs m m'.
  Proof.
    intros R.
    pose proof (reach_not_bad m R) as NB.
    destruct m as [buf c ts lg].
    assert (D : (forall t, In t ts -> t = TDone) \/ exists t, In t ts /\ t <> TDone).
    { clear; induction ts as [|t ts IH]; [left; cbn; tauto|].
      destruct IH as [IH|(u & U & V)].
      - destruct t; [right; exists TFetch; split; [left; auto|discriminate]
                    |right; exists (TRun ws); split; [left; auto|discriminate]|].
        left; intros u [<-|H]; auto.
      - right; exists u; split; [right; auto|auto]. }
    destruct D as [D|(t & H & N)]; [left; exact D|right].
    apply In_nth_error in H; destruct H as (i & H).
    destruct t as [|[|w ws]|]; [| | |congruence].
    - destruct (nth_error jobs (N.to_nat c)) as [j|] eqn:E.
      + destruct (process j) as [ws|] eqn:P.
        * eexists; eapply step_take; eauto.
        * exfalso; apply NB; eapply bad_take; eauto.
      + apply nth_error_None in E. eexists; eapply step_exit; eauto. lia.
    - eexists; eapply step_next; eauto.
    - destruct (store buf w) eqn:P.
      + eexists; eapply step_store; eauto.
      + exfalso; apply NB; eapply bad_store; eauto.
  Qed.

  (** Termination: every step decreases this measure. *)
  Definition tcost (t : thread) : nat :=
    match t with TDone => 0 | TFetch => 1 | TRun ws => 2 + length ws end%nat.

  Definition cost (ts : list thread) : nat := fold_right (fun t a => tcost t + a)%nat 0%nat ts.

  Definition jcost (j : J) : nat := (2 + length (writes j))%nat.

  Definition measure (m : machine) : nat :=
    (cost (m_threads m) +
     fold_right (fun j a => jcost j + a) 0 (skipn (length (m_log m)) jobs))%nat.

  Lemma cost_upd i t t' ts : nth_error ts i = Some t ->
    (cost (upd i t' ts) + tcost t = cost ts + tcost t')%nat.
  Proof.
    revert i; induction ts as [|u ts IH]; intros [|i] H; cbn in *; try discriminate.
    - inversion H; subst; lia.
    - specialize (IH i H); unfold cost in *; lia.
  Qed.

  Lemma step_measure m m' : reach m -> mstep process jobs m m' -> (measure m' < measure m)%nat.
  Proof.
    intros R S; apply reach_inv in R; destruct S; destruct R as [Il Ic Ig Ile Iall _]; cbn in *;
      unfold measure; cbn [m_threads m_log].
    - assert (D0 : ndone ts = 0%nat).
      { destruct (ndone ts) eqn:E; auto.
        assert (length lg = length jobs) by (apply Iall; lia).
        assert (N.to_nat c < length jobs)%nat by (apply nth_error_Some; congruence). lia. }
      assert (Ec : N.to_nat c = length lg) by lia. rewrite Ec in H0.
      pose proof (cost_upd i TFetch (TRun ws) ts H) as C; cbn [tcost] in C.
      rewrite app_length; cbn [length]; rewrite Nat.add_1_r.
      rewrite (skipn_cons _ _ _ H0); cbn [fold_right].
      unfold cost in *; unfold jcost, ConverterSpec.writes; rewrite H1; lia.
    - pose proof (cost_upd i TFetch TDone ts H) as C; cbn [tcost] in C; unfold cost in *; lia.
    - pose proof (cost_upd i (TRun (w :: ws)) (TRun ws) ts H) as C; cbn [tcost length] in C; unfold cost in *; lia.
    - pose proof (cost_upd i (TRun []) TFetch ts H) as C; cbn [tcost length] in C; unfold cost in *; lia.
  Qed.

  (** Executions of length [n]. *)
  Inductive run : nat -> machine -> Prop :=
  | run_0 : run 0 (minit buf0 threads)
  | run_S : forall n m m', run n m -> mstep process jobs m m' -> run (S n) m'.

  Lemma run_reach n m : run n m -> reach m.
  Proof. induction 1; eauto using reach_init, reach_step. Qed.

  Lemma run_bound n m : run n m -> (n + measure m <= measure (minit buf0 threads))%nat.
  Proof.
    induction 1; [lia|].
    pose proof (step_measure _ _ (run_reach _ _ H) H0); lia.
  Qed.

  Lemma reach_terminates m : reach m -> Acc (fun a b => mstep process jobs b a) m.
  Proof.
    intros R; remember (measure m) as k eqn:E; revert m R E.
    induction k as [k IH] using lt_wf_ind; intros m R ->.
    constructor; intros m' S; eapply (IH (measure m')); [apply step_measure; auto| |reflexivity].
    eapply reach_step; eauto.
  Qed.
End Sched.

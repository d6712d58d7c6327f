(** C40, C44, C45: helpers and main program of the command line tool. *)

From Coq Require Import NArith List Bool Lia ZArith.
From Coq Require Import ZifyBool ZifyNat ZifyN.
From Verif Require Import Base FormatModel ToolModel ToolSpec.
Import ListNotations.
Local Open Scope N_scope.

(** * C40 *)

(** [spread k m]: bit i is set iff one of the bits i .. i+k-1 of [m] is. *)
Definition spread (k m r : N) : Prop :=
  forall i, N.testbit r i = true <-> exists j, i <= j < i + k /\ N.testbit m j = true.

Lemma spread_1 m : spread 1 m m.
Proof.
  intros i; split.
  - intros H; exists i; split; [lia|auto].
  - intros (j & L & H). replace i with j by lia. auto.
Qed.

Lemma spread_step k m r : spread k m r -> spread (2 * k) m (N.lor r (N.shiftr r k)).
Proof.
  intros S i. rewrite N.lor_spec, orb_true_iff, N.shiftr_spec by lia. rewrite (S i), (S (i + k)).
  split.
  - intros [(j & L & H)|(j & L & H)]; exists j; split; auto; lia.
  - intros (j & L & H). destruct (N.lt_ge_cases j (i + k)); [left|right]; exists j; split; auto; lia.
Qed.


Lemma ones_pred n : 2 ^ n - 1 = N.ones n.
Proof. rewrite N.ones_equiv. lia. Qed.

Lemma spread_ones m r : 0 < m -> m < 2 ^ 32 -> spread 32 m r -> r = 2 ^ (N.log2 m + 1) - 1.
Proof.
  intros P L S. rewrite ones_pred. apply N.bits_inj. intros i.
  assert (LL : N.log2 m < 32) by (apply N.log2_lt_pow2; auto).
  destruct (N.lt_ge_cases i (N.log2 m + 1)) as [I|I].
  - rewrite N.ones_spec_low by auto. apply S. exists (N.log2 m). split; [lia|].
    apply N.bit_log2. lia.
  - rewrite N.ones_spec_high by auto.
    destruct (N.testbit r i) eqn:T; auto. apply S in T. destruct T as (j & [J _] & H).
    rewrite N.bits_above_log2 in H by lia. discriminate.
Qed.

Definition smear (m : N) : N :=
  let m := N.lor m (N.shiftr m 1) in
  let m := N.lor m (N.shiftr m 2) in
  let m := N.lor m (N.shiftr m 4) in
  let m := N.lor m (N.shiftr m 8) in
  N.lor m (N.shiftr m 16).

Lemma smear_spec m : spread 32 m (smear m).
Proof.
  unfold smear. pose proof (spread_1 m) as S.
  apply spread_step in S. change (2 * 1) with 2 in S.
  apply spread_step in S. change (2 * 2) with 4 in S.
  apply spread_step in S. change (2 * 4) with 8 in S.
  apply spread_step in S. change (2 * 8) with 16 in S.
  apply spread_step in S. exact S.
Qed.

Lemma nextPO2_eq n : nextPO2 n = u32 (smear ((n + 4294967295) mod 4294967296) + 1).
Proof. reflexivity. Qed.

Lemma nextPO2_val n : 2 <= n <= 2 ^ 31 -> nextPO2 n = 2 ^ (N.log2 (n - 1) + 1).
Proof.
  intros H. rewrite nextPO2_eq.
  replace ((n + 4294967295) mod 4294967296) with (n - 1).
  2:{ replace (n + 4294967295) with (n - 1 + 1 * 4294967296) by lia.
      rewrite N.mod_add by lia. symmetry; apply N.mod_small. lia. }
  rewrite (spread_ones (n - 1) (smear (n - 1))) by (first [apply smear_spec|lia]).
  assert (N.log2 (n - 1) < 31) by (apply N.log2_lt_pow2; lia).
  assert (0 < 2 ^ (N.log2 (n - 1) + 1)) by (apply N.neq_0_lt_0, N.pow_nonzero; lia).
  assert (2 ^ (N.log2 (n - 1) + 1) <= 2 ^ 31) by (apply N.pow_le_mono_r; lia).
  rewrite u32_small; lia.
Qed.

(** [nextPO2 n] is the least power of two that is at least [n]. *)
Theorem C40_next : forall n, 1 <= n <= 2 ^ 31 ->
  pow2 (nextPO2 n) /\ n <= nextPO2 n /\ forall k, n <= 2 ^ k -> nextPO2 n <= 2 ^ k.
Proof.
  intros n H. destruct (N.eq_dec n 1) as [->|N1].
  - change (nextPO2 1) with (2 ^ 0). split; [exists 0; reflexivity|]. split; [lia|].
    intros k _. apply N.pow_le_mono_r; lia.
  - rewrite nextPO2_val by lia. split; [eexists; reflexivity|].
    pose proof (N.log2_spec (n - 1) ltac:(lia)) as [L1 L2].
    rewrite N.add_1_r in *. split; [lia|].
    intros k Hk. apply N.pow_le_mono_r; [lia|].
    apply N.le_succ_l. apply N.log2_lt_pow2; lia.
Qed.
Print Assumptions C40_next.

Theorem C40_next_out_of_range : forall n, n = 0 \/ 2 ^ 31 < n < 2 ^ 32 -> nextPO2 n = 0.
Proof.
  intros n [->|H]; [reflexivity|].
  rewrite nextPO2_eq.
  replace ((n + 4294967295) mod 4294967296) with (n - 1).
  2:{ replace (n + 4294967295) with (n - 1 + 1 * 4294967296) by lia.
      rewrite N.mod_add by lia. symmetry; apply N.mod_small. lia. }
  rewrite (spread_ones (n - 1) (smear (n - 1))) by (first [apply smear_spec|lia]).
  assert (E : N.log2 (n - 1) = 31) by (apply N.log2_unique; lia).
  rewrite E. reflexivity.
Qed.
Print Assumptions C40_next_out_of_range.

(** [nearestPO2 n] is a power of two at minimal distance; of two equally near ones it is the
    smaller. *)
Theorem C40_nearest : forall n, 1 <= n <= 2 ^ 31 ->
  pow2 (nearestPO2 n) /\
  forall k, dist n (nearestPO2 n) <= dist n (2 ^ k) /\
            (dist n (nearestPO2 n) = dist n (2 ^ k) -> nearestPO2 n <= 2 ^ k).
Proof.
  intros n H. destruct (N.eq_dec n 1) as [->|N1].
  { change (nearestPO2 1) with 1. split; [exists 0; reflexivity|]. intros k.
    assert (2 ^ 0 <= 2 ^ k) by (apply N.pow_le_mono_r; lia). unfold dist. simpl (2 ^ 0) in *. lia. }
  pose proof (nextPO2_val n ltac:(lia)) as E.
  pose proof (N.log2_spec (n - 1) ltac:(lia)) as [L1 L2].
  set (K := N.log2 (n - 1)) in *.
  assert (P : 2 ^ (K + 1) = 2 * 2 ^ K) by (rewrite N.add_1_r, N.pow_succ_r'; reflexivity).
  rewrite <- N.add_1_r in L2. rewrite P in *.
  assert (P0 : 0 < 2 ^ K) by (apply N.neq_0_lt_0, N.pow_nonzero; lia).
  assert (P1 : 2 ^ K < 2 ^ 31) by lia.
  unfold nearestPO2. rewrite E.
  replace (N.shiftr (2 * 2 ^ K) 1) with (2 ^ K).
  2:{ rewrite N.shiftr_div_pow2. change (2 ^ 1) with 2. rewrite N.mul_comm, N.div_mul; lia. }
  destruct (N.eqb_spec (2 ^ K) 0) as [Z|_]; [lia|].
  assert (A1 : (2 * 2 ^ K + 4294967296 - n) mod 4294967296 = 2 * 2 ^ K - n).
  { replace (2 * 2 ^ K + 4294967296 - n) with ((2 * 2 ^ K - n) + 1 * 4294967296) by lia.
    rewrite N.mod_add by lia. apply N.mod_small. lia. }
  assert (A2 : (n + 4294967296 - 2 ^ K) mod 4294967296 = n - 2 ^ K).
  { replace (n + 4294967296 - 2 ^ K) with ((n - 2 ^ K) + 1 * 4294967296) by lia.
    rewrite N.mod_add by lia. apply N.mod_small. lia. }
  rewrite A1, A2.
  assert (Q : forall k, 2 ^ k <= 2 ^ K \/ 2 * 2 ^ K <= 2 ^ k).
  { intros k. destruct (N.le_gt_cases k K).
    - left. apply N.pow_le_mono_r; lia.
    - right. rewrite <- P. apply N.pow_le_mono_r; lia. }
  destruct (N.ltb_spec (2 * 2 ^ K - n) (n - 2 ^ K)) as [C|C].
  - split; [exists (K + 1); lia|]. intros k. destruct (Q k); unfold dist; lia.
  - split; [exists K; lia|]. intros k. destruct (Q k); unfold dist; lia.
Qed.
Print Assumptions C40_nearest.

Theorem C40_nearest_out_of_range : forall n, n = 0 \/ 2 ^ 31 < n < 2 ^ 32 -> nearestPO2 n = 0.
Proof.
  intros n H. unfold nearestPO2. rewrite C40_next_out_of_range by auto. reflexivity.
Qed.
Print Assumptions C40_nearest_out_of_range.

(** Every positive size is taken literally and every named size of an image with sides
    between 1 and 2^31 gives a side between 1 and 2^31. *)
Theorem C40_dimension : forall cur w h size,
  1 <= cur <= 2 ^ 31 -> 1 <= w <= 2 ^ 31 -> 1 <= h <= 2 ^ 31 ->
  ((0 < size < 2 ^ 31)%Z -> getDimension cur w h size = Z.to_N size) /\
  ((-15 <= size <= -1)%Z -> 1 <= getDimension cur w h size <= 2 ^ 31).
Proof.
  intros cur w h size C W H.
  assert (B : forall n, 1 <= n <= 2 ^ 31 -> 1 <= nextPO2 n <= 2 ^ 31).
  { intros n L. destruct (C40_next n L) as ((k & E) & G & M). specialize (M 31). lia. }
  assert (B' : forall n, 1 <= n <= 2 ^ 31 -> 1 <= nearestPO2 n <= 2 ^ 31).
  { intros n L. destruct (C40_nearest n L) as ((k & E) & _). split.
    - rewrite E. assert (2 ^ k <> 0) by (apply N.pow_nonzero; lia). lia.
    - specialize (B n L). unfold nearestPO2. destruct (_ =? 0); [lia|].
      rewrite N.shiftr_div_pow2. change (2 ^ 1) with 2.
      destruct (_ <? _); lia. }
  assert (MIN : 1 <= N.min w h <= 2 ^ 31) by lia.
  assert (MAX : 1 <= N.max w h <= 2 ^ 31) by lia.
  split; intros S.
  - destruct size as [|p|p]; try lia. unfold getDimension. rewrite Z.mod_small by lia. reflexivity.
  - assert (I : In size [-15; -14; -13; -12; -11; -10; -9; -8; -7; -6; -5; -4; -3; -2; -1]%Z)
      by (simpl; lia).
    simpl in I. repeat (destruct I as [<-|I]; [unfold getDimension; auto|]). destruct I.
Qed.
Print Assumptions C40_dimension.

Example C40_example : nextPO2 600 = 1024 /\ nearestPO2 600 = 512 /\ nearestPO2 768 = 512 /\
  nearestPO2 769 = 1024 /\ nextPO2 2147483648 = 2147483648 /\ nearestPO2 3000000000 = 0.
Proof. vm_compute. repeat split. Qed.

(** * C45 *)

Lemma find_slash_spec path i pos :
  find_slash path i pos =
  match filter (fun k => match nth_error path k with Some c => (pos <=? i + N.of_nat k) && (c =? 47) | None => false end)
               (seq 0 (length path)) with
  | [] => None
  | k :: _ => Some (i + N.of_nat k)
  end.
Proof.
  revert i; induction path as [|c t IH]; intros i; [reflexivity|].
  cbn [find_slash length seq filter nth_error]. unfold slash.
  rewrite N.add_0_r. destruct ((pos <=? i) && (c =? 47)) eqn:E; [rewrite N.add_0_r; reflexivity|].
  rewrite IH. clear IH E.
  rewrite <- seq_shift, <- (map_id (seq 0 (length t))) at 1.
  assert (G : forall l, match filter (fun k => match nth_error t k with Some c0 => (pos <=? i + 1 + N.of_nat k) && (c0 =? 47) | None => false end) l with
    | [] => None | k :: _ => Some (i + 1 + N.of_nat k) end =
    match filter (fun k => match nth_error (c :: t) k with Some c0 => (pos <=? i + N.of_nat k) && (c0 =? 47) | None => false end) (map S l) with
    | [] => None | k :: _ => Some (i + N.of_nat k) end).
  { induction l as [|a l IHl]; [reflexivity|]. cbn [filter map nth_error].
    replace (i + N.of_nat (S a)) with (i + 1 + N.of_nat a) by lia.
    destruct (nth_error t a) as [x|]; [|exact IHl].
    destruct ((pos <=? i + 1 + N.of_nat a) && (x =? 47)); [f_equal; lia|exact IHl]. }
  rewrite map_id. apply G.
Qed.

(** The directories from position [p] on. *)
Definition parents_from (path : list N) (p : nat) : list (list N) :=
  map (fun i => firstn i path)
      (filter (fun i => match nth_error path i with Some c => c =? 47 | None => false end)
              (seq p (length path - p))).

Lemma find_slash_from path p : (p <= length path)%nat ->
  match find_slash path 0 (N.of_nat p) with
  | None => parents_from path p = []
  | Some n => (p <= N.to_nat n < length path)%nat /\
              parents_from path p = firstn (N.to_nat n) path :: parents_from path (S (N.to_nat n))
  end.
Proof.
  intros L. remember (length path - p)%nat as m eqn:M. revert p L M.
  assert (F : forall p, find_slash path 0 (N.of_nat p) =
    match filter (fun k => match nth_error path k with Some c => c =? 47 | None => false end)
               (seq p (length path - p)) with
    | [] => None | k :: _ => Some (N.of_nat k) end).
  { intros p. rewrite find_slash_spec.
    assert (E : seq 0 (length path) = seq 0 (Nat.min p (length path)) ++ seq p (length path - p)).
    { destruct (Nat.le_ge_cases p (length path)).
      - rewrite Nat.min_l by auto. rewrite <- seq_app. f_equal. lia.
      - rewrite Nat.min_r by auto. replace (length path - p)%nat with O by lia. rewrite app_nil_r. reflexivity. }
    rewrite E, filter_app.
    assert (Z : filter (fun k => match nth_error path k with Some c => (N.of_nat p <=? 0 + N.of_nat k) && (c =? 47) | None => false end)
                (seq 0 (Nat.min p (length path))) = []).
    { assert (A : forall k, In k (seq 0 (Nat.min p (length path))) -> (k < p)%nat) by (intros k I; apply in_seq in I; lia).
      revert A. generalize (seq 0 (Nat.min p (length path))) as l. induction l as [|a l IH]; intros A; [reflexivity|].
      cbn [filter]. rewrite IH by (intros; apply A; right; auto).
      pose proof (A a (or_introl eq_refl)).
      destruct (nth_error path a); auto. destruct (N.leb_spec (N.of_nat p) (0 + N.of_nat a)); [lia|reflexivity]. }
    rewrite Z. cbn [app].
    assert (Q : filter (fun k => match nth_error path k with Some c => (N.of_nat p <=? 0 + N.of_nat k) && (c =? 47) | None => false end)
                (seq p (length path - p)) =
                filter (fun k => match nth_error path k with Some c => c =? 47 | None => false end) (seq p (length path - p))).
    { apply filter_ext_in. intros k I. apply in_seq in I. destruct (nth_error path k); auto.
      destruct (N.leb_spec (N.of_nat p) (0 + N.of_nat k)); [reflexivity|lia]. }
    rewrite Q. reflexivity. }
  induction m as [|m IH]; intros p L M; rewrite F; unfold parents_from; rewrite <- M; cbn [seq filter].
  - reflexivity.
  - destruct (nth_error path p) as [c|] eqn:E.
    2:{ apply nth_error_None in E. lia. }
    destruct (c =? 47) eqn:C.
    + rewrite Nnat.Nat2N.id. split; [lia|]. cbn [map]. f_equal.
      unfold parents_from. replace (length path - S p)%nat with m by lia. reflexivity.
    + specialize (IH (S p) ltac:(lia) ltac:(lia)). rewrite F in IH. unfold parents_from in IH.
      replace (length path - S p)%nat with m in IH by lia.
      destruct (filter _ (seq (S p) m)) eqn:G; [exact IH|].
      destruct IH as [I1 I2]. split; [lia|exact I2].
Qed.

Lemma cstr_id s : ~ In 0 s -> cstr s = s.
Proof.
  induction s as [|c t IH]; intros H; [reflexivity|]. cbn [cstr].
  destruct (N.eqb_spec c 0) as [->|]; [destruct H; left; reflexivity|].
  rewrite IH; auto. intros I; apply H; right; auto.
Qed.

Lemma in_firstn {A} (x : A) n l : In x (firstn n l) -> In x l.
Proof. intros H. rewrite <- (firstn_skipn n l). apply in_or_app; auto. Qed.

(** What a run over the directories [ps], the first being call number [n], looks like. *)
Inductive run_ok (mk : N -> list N -> mkres) : N -> list (list N) -> bool -> list (list N) -> Prop :=
| run_done : forall n, run_ok mk n [] true []
| run_fail : forall n p r, mk n p = MkError -> run_ok mk n (p :: r) false [p]
| run_step : forall n p r b c, mk n p <> MkError -> run_ok mk (n + 1) r b c ->
    run_ok mk n (p :: r) b (p :: c).

Lemma cpd_run mk path : ~ In 0 path -> forall fuel prev n, (N.to_nat prev < length path \/ path = [])%nat ->
  (length path - N.to_nat prev < fuel)%nat ->
  exists b c, cpd_loop fuel mk path prev n = Some (b, c) /\
    run_ok mk n (parents_from path (S (N.to_nat prev))) b c.
Proof.
  intros NZ fuel; induction fuel as [|fuel IH]; intros prev n L F; [lia|].
  cbn [cpd_loop].
  destruct L as [L| ->].
  2:{ cbn [find_slash]. exists true, []. split; auto. constructor. }
  pose proof (find_slash_from path (S (N.to_nat prev)) L) as FS.
  replace (N.of_nat (S (N.to_nat prev))) with (prev + 1) in FS by lia.
  destruct (find_slash path 0 (prev + 1)) as [nx|].
  2:{ rewrite FS. exists true, []. split; auto. constructor. }
  destruct FS as [B E]. rewrite E.
  rewrite cstr_id by (intros I; apply NZ; eapply in_firstn; eauto).
  destruct (mk n (firstn (N.to_nat nx) path)) eqn:Mk.
  1,2: destruct (IH nx (n + 1) ltac:(lia) ltac:(lia)) as (b & c & Hc & R);
       rewrite Hc; cbn [obind fst snd]; exists b, (firstn (N.to_nat nx) path :: c);
       split; [reflexivity|]; constructor; [congruence|exact R].
  exists false, [firstn (N.to_nat nx) path]. split; auto. constructor; auto.
Qed.

Lemma run_ok_cases mk n ps b c : run_ok mk n ps b c ->
  (b = true /\ c = ps /\ (forall i p, nth_error ps i = Some p -> mk (n + N.of_nat i) p <> MkError)) \/
  (b = false /\ exists pre p rest, ps = pre ++ p :: rest /\ c = pre ++ [p] /\
     mk (n + N.of_nat (length pre)) p = MkError /\
     (forall i q, nth_error pre i = Some q -> mk (n + N.of_nat i) q <> MkError)).
Proof.
  induction 1 as [n|n p r E|n p r b c E R IH].
  - left. repeat split. intros i p H. destruct i; discriminate.
  - right. split; auto. exists [], p, r. cbn. rewrite N.add_0_r. repeat split; auto.
    intros i q H; destruct i; discriminate.
  - destruct IH as [(-> & -> & H)|(-> & pre & q & rest & -> & -> & Hq & H)].
    + left. repeat split. intros i q Hi. destruct i as [|i].
      * inversion Hi; subst. rewrite N.add_0_r. auto.
      * replace (n + N.of_nat (S i)) with (n + 1 + N.of_nat i) by lia. apply H; auto.
    + right. split; auto. exists (p :: pre), q, rest. repeat split; auto.
      * cbn [length]. replace (n + N.of_nat (S (length pre))) with (n + 1 + N.of_nat (length pre)) by lia. auto.
      * intros i x Hi. destruct i as [|i].
        { inversion Hi; subst. rewrite N.add_0_r. auto. }
        replace (n + N.of_nat (S i)) with (n + 1 + N.of_nat i) by lia. apply H; auto.
Qed.

(** For every path without NUL characters and every behaviour of mkdir, the loop ends, and
    either every parent directory was requested once, in order, without error and the answer is
    true, or the calls stop at the first real error and the answer is false. *)
Theorem C45_calls : forall mk path fuel, ~ In 0 path -> (length path < fuel)%nat ->
  exists ok calls, createParentDir fuel mk path = Some (ok, calls) /\
  ((ok = true /\ calls = parents path /\
    forall i p, nth_error calls i = Some p -> mk (N.of_nat i) p <> MkError) \/
   (ok = false /\ exists pre p rest, parents path = pre ++ p :: rest /\ calls = pre ++ [p] /\
      mk (N.of_nat (length pre)) p = MkError /\
      forall i q, nth_error pre i = Some q -> mk (N.of_nat i) q <> MkError)).
Proof.
  intros mk path fuel NZ F. unfold createParentDir.
  destruct (cpd_run mk path NZ fuel 0 0) as (b & c & E & R).
  - destruct path; [right; auto|left; simpl; lia].
  - lia.
  - exists b, c. split; [exact E|]. apply run_ok_cases in R.
    change (parents_from path (S (N.to_nat 0))) with (parents path) in R.
    destruct R as [(-> & -> & H)|(-> & pre & q & rest & P & -> & Hq & H)].
    + left. repeat split; auto.
    + right. split; auto. exists pre, q, rest. rewrite P. repeat split; auto.
Qed.
Print Assumptions C45_calls.

(** "/a/b/c.dds": mkdir("/a"), mkdir("/a/b"). *)
Example C45_example :
  let path := [47; 97; 47; 98; 47; 99; 46; 100; 100; 115] in
  parents path = [[47; 97]; [47; 97; 47; 98]] /\
  createParentDir 11 (fun n _ => if n =? 0 then MkExists else MkOk) path
    = Some (true, [[47; 97]; [47; 97; 47; 98]]) /\
  createParentDir 11 (fun n _ => MkError) path = Some (false, [[47; 97]]).
Proof. vm_compute. repeat split. Qed.

(** * C44 *)

Definition is_mkdir (ev : event) : bool := match ev with EvMkdir _ => true | _ => false end.

(** The status is 0 exactly when a call of save has succeeded; nothing is attempted after it
    and at most two saves are made.  mkdir is called only with --create-dir and after a save
    that could not write. *)
Theorem C44_status : forall fuel e createDir output st evs,
  main fuel e createDir output = Some (st, evs) ->
  st <= 3 /\
  (st = 0 <-> exists pre, evs = pre ++ [EvSave SR_Success]) /\
  (st = 0 -> e_parse e = true /\ e_load e = true /\ e_convert e = true) /\
  (length (filter (fun ev => negb (is_mkdir ev)) evs) <= 2)%nat /\
  (forall p, In (EvMkdir p) evs ->
     createDir = true /\ exists rest, evs = EvSave SR_WriteError :: rest) /\
  (forall pre post, evs = pre ++ EvSave SR_Success :: post -> post = []).
Proof.
  intros fuel e cd out st evs H. unfold main in H.
  assert (NE : forall P : Prop, st <> 0 -> evs = [] -> (st = 0 -> P) /\
    (st = 0 <-> exists pre, evs = pre ++ [EvSave SR_Success])).
  { intros P A ->. split; [congruence|]. split; [congruence|]. intros (pre & E). destruct pre; discriminate. }
  destruct (e_parse e); cbn [negb] in H.
  2:{ inversion H; subst. destruct (NE (false = true /\ e_load e = true /\ e_convert e = true)); auto; try lia.
      split; [lia|]. split; auto. split; auto. split; [simpl; lia|]. split; [intros p []|].
      intros pre post E. destruct pre; discriminate. }
  destruct (e_load e); cbn [negb] in H.
  2:{ inversion H; subst. destruct (NE (true = true /\ false = true /\ e_convert e = true)); auto; try lia.
      split; [lia|]. split; auto. split; auto. split; [simpl; lia|]. split; [intros p []|].
      intros pre post E. destruct pre; discriminate. }
  unfold saveTexture in H. destruct (e_convert e); cbn [negb obind fst snd] in H.
  2:{ inversion H; subst. destruct (NE (true = true /\ true = true /\ false = true)); auto; try lia.
      split; [lia|]. split; auto. split; auto. split; [simpl; lia|]. split; [intros p []|].
      intros pre post E. destruct pre; discriminate. }
  assert (ONE : forall r, Some (if match r with SR_Success => true | _ => false end then 0 else 3, [EvSave r]) = Some (st, evs) ->
    st <= 3 /\ (st = 0 <-> exists pre, evs = pre ++ [EvSave SR_Success]) /\
    (st = 0 -> true = true /\ true = true /\ true = true) /\
    (length (filter (fun ev => negb (is_mkdir ev)) evs) <= 2)%nat /\
    (forall p, In (EvMkdir p) evs -> cd = true /\ exists rest, evs = EvSave SR_WriteError :: rest) /\
    (forall pre post, evs = pre ++ EvSave SR_Success :: post -> post = [])).
  { intros r E. inversion E; subst. split; [destruct r; simpl; lia|]. split.
    { split.
      - intros X. destruct r; simpl in X; try discriminate X. exists []. reflexivity.
      - intros ([|a [|? ?]] & X); inversion X; subst; reflexivity. }
    split; auto. split; [simpl; lia|]. split; [intros p [X|[]]; discriminate|].
    intros [|a [|? ?]] post X; inversion X; auto. }
  destruct (e_save e 0) eqn:S0; cbn [obind fst snd] in H; try (match type of H with context [EvSave ?r] => apply (ONE r H) end).
  destruct cd; cbn [obind fst snd] in H; [|apply (ONE SR_WriteError H)].
  destruct (createParentDir fuel (e_mkdir e) out) as [[ok calls]|]; cbn [obind fst snd] in H; [|discriminate].
  assert (FM : filter (fun ev => negb (is_mkdir ev)) (map EvMkdir calls) = [])
    by (clear; induction calls; auto).
  assert (NS : forall x, ~ In (EvSave x) (map EvMkdir calls)).
  { intros x I. apply in_map_iff in I. destruct I as (? & E & _). discriminate. }
  destruct ok; cbn [negb] in H.
  - assert (K : exists x, evs = (EvSave SR_WriteError :: map EvMkdir calls) ++ [EvSave x] /\
                st = if match x with SR_Success => true | _ => false end then 0 else 3).
    { destruct (e_save e 1) eqn:S1; cbn [obind fst snd] in H; inversion H; subst; eexists; split; reflexivity. }
    clear H. destruct K as (x & -> & ->).
    split; [destruct x; simpl; lia|]. split.
    { split.
      - intros X. destruct x; simpl in X; try discriminate X. eexists; reflexivity.
      - intros (pre & X). apply app_inj_tail in X. destruct X as [_ X]. inversion X; subst. reflexivity. }
    split; auto. split.
    { rewrite filter_app. cbn [filter is_mkdir negb]. rewrite FM. simpl. lia. }
    split; [intros p _; split; auto; eexists; reflexivity|].
    intros pre post X.
    destruct post as [|a post _] using rev_ind; auto. exfalso.
    change (pre ++ EvSave SR_Success :: post ++ [a]) with (pre ++ (EvSave SR_Success :: post) ++ [a]) in X.
    rewrite app_assoc in X. apply app_inj_tail in X. destruct X as [X _].
    assert (I : In (EvSave SR_Success) (EvSave SR_WriteError :: map EvMkdir calls)) by (rewrite X; apply in_or_app; right; left; auto).
    destruct I as [I|I]; [discriminate|apply (NS _ I)].
  - inversion H; subst; clear H. split; [lia|]. split.
    { split; [discriminate|]. intros (pre & X). exfalso.
      assert (I : In (EvSave SR_Success) (EvSave SR_WriteError :: map EvMkdir calls)) by (rewrite X; apply in_or_app; right; left; auto).
      destruct I as [I|I]; [discriminate|apply (NS _ I)]. }
    split; [discriminate|]. split; [cbn [filter is_mkdir negb]; rewrite FM; simpl; lia|].
    split; [intros p _; split; auto; eexists; reflexivity|].
    intros pre post X. exfalso.
    assert (I : In (EvSave SR_Success) (EvSave SR_WriteError :: map EvMkdir calls)) by (rewrite X; apply in_or_app; right; left; auto).
    destruct I as [I|I]; [discriminate|apply (NS _ I)].
Qed.
Print Assumptions C44_status.

(** The run always ends with a status, for every path without NUL characters. *)
(** What each non-zero status says. *)
Theorem C44_meaning : forall fuel e createDir output st evs,
  main fuel e createDir output = Some (st, evs) ->
  (st = 1 <-> e_parse e = false) /\
  (st = 2 <-> e_parse e = true /\ e_load e = false) /\
  (st = 3 <-> e_parse e = true /\ e_load e = true /\ ~ exists pre, evs = pre ++ [EvSave SR_Success]).
Proof.
  intros fuel e cd out st evs H. pose proof (C44_status _ _ _ _ _ _ H) as (_ & S & _).
  unfold main in H. destruct (e_parse e); cbn [negb] in H.
  2:{ inversion H; subst. repeat split; intros; try lia; try intuition discriminate. }
  destruct (e_load e); cbn [negb] in H.
  2:{ inversion H; subst. repeat split; intros; try lia; try intuition discriminate. }
  destruct (saveTexture fuel e cd out) as [[ok evs']|]; cbn [obind] in H; [|discriminate].
  inversion H; subst; clear H. cbn [fst snd] in *.
  destruct ok; repeat split; intros; try lia; try intuition discriminate.
Qed.
Print Assumptions C44_meaning.

Theorem C44_terminates : forall fuel e createDir output,
  ~ In 0 output -> (length output < fuel)%nat ->
  exists st evs, main fuel e createDir output = Some (st, evs).
Proof.
  intros fuel e cd out NZ F. unfold main, saveTexture.
  destruct (e_parse e); cbn [negb]; [|eauto]. destruct (e_load e); cbn [negb]; [|eauto].
  destruct (e_convert e); cbn [negb obind]; [|eauto].
  destruct (e_save e 0); cbn [obind]; eauto; destruct cd; cbn [obind]; eauto.
  destruct (C45_calls (e_mkdir e) out fuel NZ F) as (ok & calls & -> & _). cbn [obind fst snd].
  destruct ok; cbn [negb]; eauto; destruct (e_save e 1); cbn [obind]; eauto. all: simpl; eauto.
Qed.
Print Assumptions C44_terminates.

(** The first save cannot write, the directories are created, the second save succeeds. *)
Example C44_example :
  let e := Env true true true (fun n => match n with O => SR_WriteError | _ => SR_Success end)
               (fun _ _ => MkOk) in
  main 9 e true [97; 47; 98; 46; 107; 116; 120]
    = Some (0, [EvSave SR_WriteError; EvMkdir [97]; EvSave SR_Success]) /\
  main 9 e false [97; 47; 98; 46; 107; 116; 120] = Some (3, [EvSave SR_WriteError]).
Proof. vm_compute. repeat split. Qed.

(** Proofs about streams and FreeImage's callbacks. *)

From Coq Require Import NArith ZArith List Bool Lia.
From Verif Require Import Base StreamModel StreamSpec.
Import ListNotations.

Lemma is_good_iff s : is_good s <-> good s = true.
Proof.
  unfold is_good, good; destruct (eofbit s), (failbit s), (badbit s); simpl; intuition discriminate.
Qed.

(** What a stream stands for as a file when read, and when written. *)
Definition gfile (s : stream) : file := File (content s) (gpos s).
Definition pfile (s : stream) : file := File (content s) (ppos s).

Lemma product_units size count : unit_items size count -> product size count = (size * count)%N.
Proof. intros [H _]; unfold product; apply u32_small; assumption. Qed.

Lemma sentry_good s : good s = true -> sentry s = (true, s).
Proof. unfold sentry; intros ->; reflexivity. Qed.

Lemma sentry_bad s : good s = false -> sentry s = (false, setfail s).
Proof. unfold sentry; intros ->; reflexivity. Qed.

Lemma good_fail s : good s = true -> fail s = false.
Proof. unfold good, fail; destruct (eofbit s), (failbit s), (badbit s); simpl; congruence. Qed.

Lemma fail_good s : fail s = true -> good s = false.
Proof. unfold good, fail; destruct (eofbit s), (failbit s), (badbit s); simpl; congruence. Qed.

Lemma fail_setfail s : fail (setfail s) = true.
Proof. reflexivity. Qed.

Lemma good_uneof s : good s = true -> with_bits false (failbit s) (badbit s) s = s.
Proof.
  destruct s as [c g p w e f b]; unfold good, with_bits; simpl.
  destruct e, f, b; simpl; congruence.
Qed.

Lemma good_with_gpos p s : good (with_gpos p s) = good s.
Proof. reflexivity. Qed.

Lemma good_with_ppos p s : good (with_ppos p s) = good s.
Proof. reflexivity. Qed.

(** ** Reading *)

Lemma istream_read_good n s : good s = true ->
  istream_read n s =
  (firstn n (skipn (gpos s) (content s)),
   let s2 := with_gpos (gpos s + length (firstn n (skipn (gpos s) (content s)))) s in
   if length (firstn n (skipn (gpos s) (content s))) <? n then with_bits true true (badbit s2) s2 else s2).
Proof. intros G; unfold istream_read; rewrite sentry_good by assumption; reflexivity. Qed.

Lemma got_full n (s : stream) :
  (n = 0 \/ gpos s + n <= length (content s)) ->
  length (firstn n (skipn (gpos s) (content s))) = n.
Proof. rewrite firstn_length, skipn_length; lia. Qed.

Lemma got_short n (s : stream) :
  length (firstn n (skipn (gpos s) (content s))) < n <->
  ~ (n = 0 \/ gpos s + n <= length (content s)).
Proof. rewrite firstn_length, skipn_length; lia. Qed.

Lemma read_units_file size count s : unit_items size count -> good s = true ->
  (size * count = 0 \/ N.of_nat (gpos s) + size * count <= N.of_nat (length (content s)))%N ->
  exists r got f', fread size count (gfile s) = (r, got, f') /\
    readIStream size count s = (r, got, with_gpos (at_ f') s) /\ bytes f' = content s.
Proof.
  intros U G I; unfold fread, readIStream; rewrite product_units by assumption.
  rewrite istream_read_good by assumption; cbn [gfile bytes at_].
  set (n := N.to_nat (size * count)) in *.
  assert (L : length (firstn n (skipn (gpos s) (content s))) = n) by (apply got_full; lia).
  cbv zeta; rewrite L, Nat.ltb_irrefl.
  do 3 eexists; split; [reflexivity|]; split; [|reflexivity]; cbn [at_].
  f_equal; f_equal; destruct U as [U1 U2].
  rewrite u32_small by lia; unfold n; rewrite N2Nat.id.
  destruct U2 as [-> | ->].
  - rewrite N.mul_1_l, N.div_1_r; reflexivity.
  - destruct size; reflexivity.
Qed.

Lemma origin_wanted off o s :
  wanted off o (gfile s) = option_map (target s (gpos s) off) (origin_dir o).
Proof.
  unfold wanted, origin_dir; cbn [gfile at_ bytes].
  destruct o as [|[[]|[]|]|]; reflexivity.
Qed.

Lemma origin_wanted_p off o s :
  wanted off o (pfile s) = option_map (target s (ppos s) off) (origin_dir o).
Proof.
  unfold wanted, origin_dir; cbn [pfile at_ bytes].
  destruct o as [|[[]|[]|]|]; reflexivity.
Qed.

Lemma with_gpos_same s : with_gpos (gpos s) s = s.
Proof. destruct s; reflexivity. Qed.

Lemma with_ppos_same s : with_ppos (ppos s) s = s.
Proof. destruct s; reflexivity. Qed.

Lemma seekg_good dv off d s : good s = true ->
  istream_seekg dv off d s =
  let t := target s (gpos s) off d in
  if reachable dv s t then with_gpos (Z.to_nat t) s else setfail s.
Proof.
  intros G; unfold istream_seekg; rewrite good_uneof by assumption; rewrite sentry_good by assumption.
  rewrite good_fail by assumption; reflexivity.
Qed.

Lemma seek_file dv off o s : good s = true -> seekable dv = true ->
  match wanted off o (gfile s) with
  | Some t => (0 <= t /\ (past_end dv = true \/ t <= Z.of_nat (length (content s))))%Z
  | None => True
  end ->
  exists r f', fseek off o (gfile s) = (r, f') /\
    seekIStream dv off o s = (r, with_gpos (at_ f') s) /\ bytes f' = content s.
Proof.
  intros G K I; unfold fseek, seekIStream.
  rewrite origin_wanted in *; destruct (origin_dir o) as [d|]; cbn [option_map] in *.
  - set (t := target s (gpos s) off d) in *.
    destruct (t <? 0)%Z eqn:E; [lia|].
    do 2 eexists; split; [reflexivity|]; cbn [at_ bytes gfile]; split; [|reflexivity].
    rewrite seekg_good by assumption; fold t; cbv zeta.
    assert (R : reachable dv s t = true).
    { unfold reachable; rewrite K; destruct (past_end dv); simpl; [lia|].
      destruct I as [I [J|J]]; [discriminate|lia]. }
    rewrite R, good_with_gpos, G; reflexivity.
  - do 2 eexists; split; [reflexivity|]; cbn [at_ bytes gfile]; rewrite with_gpos_same; auto.
Qed.

Lemma gfile_with_gpos f s : bytes f = content s -> gfile (with_gpos (at_ f) s) = f.
Proof. destruct f; cbn; intros ->; reflexivity. Qed.

Lemma with_gpos_twice p q s : with_gpos p (with_gpos q s) = with_gpos p s.
Proof. reflexivity. Qed.

Lemma tellg_good dv s : good s = true -> seekable dv = true ->
  istream_tellg dv s = (Z.of_nat (gpos s), s).
Proof.
  intros G K; unfold istream_tellg; rewrite sentry_good by assumption.
  rewrite good_fail by assumption; rewrite K; reflexivity.
Qed.

Lemma on_file_reads {A} (c : client A) f : reads_units c f -> bytes (snd (on_file c f)) = bytes f.
Proof.
  revert f; induction c as [a|size count k IH|b size count k IH|off o k IH|k IH]; intros f; cbn.
  - reflexivity.
  - intros [_ H]; unfold fread in *; rewrite IH by exact H; reflexivity.
  - contradiction.
  - unfold fseek; destruct (wanted off o f) as [t|]; [destruct (t <? 0)%Z|]; intros H;
      rewrite IH by exact H; reflexivity.
  - intros H; apply IH; exact H.
Qed.

(** Inside the file, the stream is the file. *)
Lemma istream_file {A} (c : client A) : forall dv s, good s = true -> seekable dv = true ->
  reads_units c (gfile s) -> stays_inside (past_end dv) c (gfile s) ->
  on_istream dv c s = (fst (on_file c (gfile s)), with_gpos (at_ (snd (on_file c (gfile s)))) s).
Proof.
  induction c as [a|size count k IH|b size count k IH|off o k IH|k IH]; intros dv s G K U I.
  - cbn; rewrite with_gpos_same; reflexivity.
  - cbn [reads_units stays_inside on_file on_istream] in *.
    destruct U as [U0 U], I as [I0 I].
    destruct (read_units_file size count s U0 G I0) as (r & got & f' & E1 & E2 & E3).
    rewrite E1 in *; rewrite E2.
    rewrite IH; rewrite ?good_with_gpos, ?gfile_with_gpos by assumption; try assumption.
    rewrite with_gpos_twice; reflexivity.
  - contradiction.
  - cbn [reads_units stays_inside on_file on_istream] in *.
    destruct I as [I0 I].
    destruct (seek_file dv off o s G K I0) as (r & f' & E1 & E2 & E3).
    rewrite E1 in *; rewrite E2.
    rewrite IH; rewrite ?good_with_gpos, ?gfile_with_gpos by assumption; try assumption.
    rewrite with_gpos_twice; reflexivity.
  - cbn [reads_units stays_inside on_file on_istream] in *.
    unfold tellIStream; rewrite tellg_good by assumption.
    rewrite IH; try assumption; reflexivity.
Qed.

(** A failed stream refuses everything, for good. *)
Lemma read_dead n s : fail s = true -> exists s', istream_read n s = ([], s') /\ fail s' = true /\
  content s' = content s /\ gpos s' = gpos s.
Proof.
  intros F; unfold istream_read; rewrite sentry_bad by (apply fail_good; assumption).
  eexists; split; [reflexivity|]; repeat split.
Qed.

Lemma seekg_dead dv off d s : fail s = true ->
  fail (istream_seekg dv off d s) = true /\ content (istream_seekg dv off d s) = content s /\
  gpos (istream_seekg dv off d s) = gpos s.
Proof.
  intros F; unfold istream_seekg.
  assert (F' : fail (with_bits false (failbit s) (badbit s) s) = true) by exact F.
  rewrite sentry_bad by (apply fail_good; assumption).
  rewrite fail_setfail; repeat split.
Qed.

Lemma tellg_dead dv s : fail s = true -> exists s', istream_tellg dv s = ((-1)%Z, s') /\
  fail s' = true /\ content s' = content s /\ gpos s' = gpos s.
Proof.
  intros F; unfold istream_tellg; rewrite sentry_bad by (apply fail_good; assumption).
  rewrite fail_setfail; eexists; split; [reflexivity|]; repeat split.
Qed.

Lemma istream_dead {A} (c : client A) : forall dv s, fail s = true ->
  fst (on_istream dv c s) = on_dead c /\ fail (snd (on_istream dv c s)) = true /\
  content (snd (on_istream dv c s)) = content s /\ gpos (snd (on_istream dv c s)) = gpos s.
Proof.
  induction c as [a|size count k IH|b size count k IH|off o k IH|k IH]; intros dv s F;
    cbn [on_istream on_dead].
  - auto.
  - unfold readIStream.
    destruct (read_dead (N.to_nat (product size count)) s F) as (s' & -> & F' & C & P).
    cbn [length]; change (u32 (N.of_nat 0)) with 0%N; rewrite <- C, <- P; apply IH; assumption.
  - apply IH; assumption.
  - unfold seekIStream; destruct (origin_dir o) as [d|]; [|apply IH; assumption].
    destruct (seekg_dead dv off d s F) as (F' & C & P).
    cbv zeta; rewrite (fail_good _ F'), <- C, <- P; apply IH; assumption.
  - unfold tellIStream; destruct (tellg_dead dv s F) as (s' & -> & F' & C & P).
    rewrite <- C, <- P; apply IH; assumption.
Qed.

(** Whoever ends good has stayed inside. *)
Lemma istream_good_inside {A} (c : client A) : forall dv s, good s = true -> seekable dv = true ->
  reads_units c (gfile s) -> good (snd (on_istream dv c s)) = true ->
  stays_inside (past_end dv) c (gfile s).
Proof.
  induction c as [a|size count k IH|b size count k IH|off o k IH|k IH]; intros dv s G K U E.
  - exact I.
  - cbn [reads_units stays_inside on_istream] in *.
    destruct U as [U0 U].
    assert (I0 : (size * count = 0 \/
                  N.of_nat (at_ (gfile s)) + size * count <= N.of_nat (length (bytes (gfile s))))%N).
    { cbn [gfile at_ bytes]. unfold readIStream in E; rewrite product_units in E by assumption.
      rewrite istream_read_good in E by assumption; cbv zeta in E.
      destruct (length _ <? N.to_nat (size * count)) eqn:L in E.
      - match type of E with good (snd (on_istream dv ?c0 ?s0)) = _ =>
          destruct (istream_dead c0 dv s0 eq_refl) as (_ & D & _) end.
        rewrite (fail_good _ D) in E; discriminate.
      - apply Nat.ltb_ge in L; rewrite firstn_length, skipn_length in L; lia. }
    split; [exact I0|].
    destruct (read_units_file size count s U0 G I0) as (r & got & f' & E1 & E2 & E3).
    rewrite E1 in *; rewrite E2 in E.
    specialize (IH r got dv (with_gpos (at_ f') s)); rewrite gfile_with_gpos in IH by assumption.
    apply IH; assumption.
  - contradiction.
  - cbn [reads_units stays_inside on_istream] in *.
    assert (I0 : match wanted off o (gfile s) with
                 | Some t => (0 <= t /\ (past_end dv = true \/ t <= Z.of_nat (length (content s))))%Z
                 | None => True
                 end).
    { rewrite origin_wanted; unfold seekIStream in E; destruct (origin_dir o) as [d|]; cbn [option_map]; [|exact I].
      rewrite seekg_good in E by assumption; cbv zeta in E.
      destruct (reachable dv s (target s (gpos s) off d)) eqn:R.
      - unfold reachable in R; rewrite K in R; cbn [andb] in R.
        apply andb_prop in R; destruct R as [R1 R2]; apply orb_prop in R2; split; [lia|].
        destruct R2; [left; assumption|right; lia].
      - match type of E with good (snd (on_istream dv ?c0 ?s0)) = _ =>
          destruct (istream_dead c0 dv s0 eq_refl) as (_ & D & _) end.
        rewrite (fail_good _ D) in E; discriminate. }
    split; [exact I0|].
    destruct (seek_file dv off o s G K I0) as (r & f' & E1 & E2 & E3).
    rewrite E1 in *; rewrite E2 in E.
    specialize (IH r dv (with_gpos (at_ f') s)); rewrite gfile_with_gpos in IH by assumption.
    apply IH; assumption.
  - cbn [reads_units stays_inside on_istream] in *.
    unfold tellIStream in E; rewrite tellg_good in E by assumption.
    apply IH; assumption.
Qed.

(** ** Reading everything *)

Lemma read_chunks_all fuel : forall out s,
  (good s = true \/ fail s = true) ->
  (length (skipn (gpos s) (content s)) < fuel \/ fail s = true /\ 0 < fuel) ->
  exists s', read_chunks fuel out s =
    Some (out ++ (if good s then skipn (gpos s) (content s) else []), s').
Proof.
  induction fuel as [|fuel IH]; intros out s D L; [lia|].
  cbn [read_chunks].
  destruct (good s) eqn:G.
  - rewrite istream_read_good by assumption.
    set (got := firstn 4096 (skipn (gpos s) (content s))).
    assert (EG : got = firstn 4096 (skipn (gpos s) (content s))) by reflexivity; clearbody got.
    assert (SK : skipn (gpos s) (content s) = got ++ skipn 4096 (skipn (gpos s) (content s))).
    { rewrite EG, firstn_skipn; reflexivity. }
    destruct got as [|x got'] eqn:EGot.
    + eexists; cbv zeta.
      assert (N0 : skipn (gpos s) (content s) = []).
      { destruct (skipn (gpos s) (content s)); [reflexivity|discriminate EG]. }
      rewrite N0, app_nil_r; reflexivity.
    + rewrite <- EGot in *; assert (NE : 0 < length got) by (rewrite EGot; cbn [length]; lia).
      clear EGot; cbv zeta.
      assert (F : fail s = false) by (apply good_fail; assumption).
      assert (Lg : length got <= length (skipn (gpos s) (content s)))
        by (rewrite EG, firstn_length; lia).
      destruct (length got <? 4096) eqn:E.
      * assert (RN : skipn 4096 (skipn (gpos s) (content s)) = []).
        { apply skipn_all2; apply Nat.ltb_lt in E; rewrite EG, firstn_length in E; lia. }
        match goal with |- context [read_chunks fuel _ ?s0] =>
          destruct (IH (out ++ got) s0) as (s' & E') end.
        -- right; reflexivity.
        -- right; split; [reflexivity|].
           rewrite F in L; destruct L as [L|[L _]]; [|discriminate].
           lia.
        -- exists s'; rewrite E'; cbn [good with_bits negb orb eofbit failbit badbit]; rewrite app_nil_r.
           rewrite SK, RN, app_nil_r; reflexivity.
      * apply Nat.ltb_ge in E.
        match goal with |- context [read_chunks fuel _ ?s0] =>
          destruct (IH (out ++ got) s0) as (s' & E') end.
        -- left; exact G.
        -- left; rewrite F in L; destruct L as [L|[L _]]; [|discriminate].
           cbn [gpos content with_gpos]; rewrite skipn_length in *; lia.
        -- exists s'; rewrite E', good_with_gpos, G; cbn [gpos content with_gpos].
           rewrite <- app_assoc; do 3 f_equal.
           assert (LG : length got = 4096) by (pose proof (firstn_le_length 4096 (skipn (gpos s) (content s))); rewrite <- EG in *; lia).
           rewrite LG, SK at 1.
           assert (SS : forall a (l : list N) b, skipn (b + a) l = skipn a (skipn b l)).
           { intros a l b; revert l; induction b as [|b IHb]; intros l; [reflexivity|].
             destruct l; [rewrite !skipn_nil; reflexivity|]; cbn; apply IHb. }
           rewrite SS; reflexivity.
  - assert (F : fail s = true) by (destruct D as [D|D]; [discriminate|assumption]).
    destruct (read_dead 4096 s F) as (s' & -> & _).
    eexists; rewrite app_nil_r; reflexivity.
Qed.

(** From a stream that cannot say where it is, readStreamData takes the rest. *)
Lemma readStreamData_rest dv s : (good s = false \/ seekable dv = false) ->
  fst (istream_tellg dv s) = (-1)%Z /\
  exists s', readStreamData dv (snd (istream_tellg dv s)) = Some (skipn (gpos s) (content s), s').
Proof.
  intros H.
  assert (T : fst (istream_tellg dv s) = (-1)%Z /\ content (snd (istream_tellg dv s)) = content s /\
              gpos (snd (istream_tellg dv s)) = gpos s /\
              (fail (snd (istream_tellg dv s)) = true \/
               good (snd (istream_tellg dv s)) = true /\ seekable dv = false)).
  { unfold istream_tellg; destruct (good s) eqn:G.
    - rewrite sentry_good by assumption; rewrite good_fail by assumption.
      destruct H as [H|H]; [discriminate|]; rewrite H; cbn; repeat split; right; auto.
    - rewrite sentry_bad by assumption; rewrite fail_setfail; repeat split; left; reflexivity. }
  destruct T as (T0 & TC & TP & TF); split; [exact T0|].
  set (s1 := snd (istream_tellg dv s)) in *; clearbody s1; rewrite <- TC, <- TP.
  assert (Q : fail (istream_seekg dv 0 dir_end s1) = true /\
              content (istream_seekg dv 0 dir_end s1) = content s1 /\
              gpos (istream_seekg dv 0 dir_end s1) = gpos s1).
  { destruct TF as [TF|[TF K]]; [apply seekg_dead; assumption|].
    rewrite seekg_good by assumption; unfold reachable; rewrite K; repeat split. }
  destruct Q as (QF & QC & QP).
  unfold readStreamData; cbv zeta.
  destruct (tellg_dead dv _ QF) as (s2 & -> & _ & C2 & P2); cbn [Z.ltb Z.compare].
  destruct (read_chunks_all (S (length (content s2))) [] (clear s2)) as (s' & E).
  - left; reflexivity.
  - left; cbn [clear with_bits content gpos]; rewrite skipn_length; lia.
  - exists s'; rewrite E; cbn [good clear with_bits eofbit failbit badbit negb orb app content gpos].
    rewrite C2, P2, QC, QP; reflexivity.
Qed.

(** From any other stream it takes everything. *)
Lemma readStreamData_all dv s : good s = true -> seekable dv = true ->
  exists s', readStreamData dv s = Some (content s, s').
Proof.
  intros G K; unfold readStreamData; cbv zeta.
  rewrite seekg_good by assumption; cbn [target]; cbv zeta.
  assert (R1 : reachable dv s (Z.of_nat (length (content s)) + 0) = true).
  { unfold reachable; rewrite K; cbn [andb]; destruct (past_end dv); cbn [orb]; lia. }
  rewrite R1.
  rewrite tellg_good by (rewrite ?good_with_gpos; assumption); cbn [gpos with_gpos].
  destruct (Z.of_nat _ <? 0)%Z eqn:E; [lia|].
  rewrite seekg_good by (rewrite ?good_with_gpos; assumption); cbn [target gpos with_gpos]; cbv zeta.
  set (s1 := with_gpos _ s).
  assert (R2 : reachable dv s1 0 = true).
  { unfold reachable; rewrite K; cbn [andb]; destruct (past_end dv); cbn [orb]; lia. }
  rewrite R2.
  rewrite istream_read_good by exact G; cbn [gpos content with_gpos s1 skipn].
  rewrite Z.add_0_r, !Nat2Z.id; change (Z.to_nat 0) with 0; cbn [skipn].
  rewrite firstn_all.
  eexists; f_equal; f_equal.
  rewrite skipn_all2 by (rewrite repeat_length; lia); apply app_nil_r.
Qed.

(** ** Writing *)

Lemma nth_skipn_ (l : list N) k i : nth i (skipn k l) 0%N = nth (k + i) l 0%N.
Proof.
  revert l; induction k as [|k IH]; intros l; [reflexivity|].
  destruct l; [cbn; destruct i; reflexivity|]; cbn; apply IH.
Qed.

Lemma nth_firstn_ (l : list N) k i : i < k -> nth i (firstn k l) 0%N = nth i l 0%N.
Proof.
  revert l i; induction k as [|k IH]; intros l i H; [lia|].
  destruct l; [destruct i; reflexivity|]; destruct i; [reflexivity|]; cbn; apply IH; lia.
Qed.

Lemma store_overwritten p b l : store_at p b l = overwritten p b l.
Proof.
  apply (nth_ext _ _ 0%N 0%N).
  - unfold overwritten; rewrite map_length, seq_length.
    destruct b as [|x b']; [reflexivity|]; unfold store_at; set (b := x :: b').
    rewrite !app_length, firstn_length, app_length, repeat_length, skipn_length; lia.
  - intros i Hi; unfold overwritten.
    assert (HL : i < match b with [] => length l | _ => Nat.max (length l) (p + length b) end).
    { destruct b as [|x b']; [exact Hi|]; unfold store_at in Hi; set (b := x :: b') in *.
      rewrite !app_length, firstn_length, app_length, repeat_length, skipn_length in Hi; lia. }
    set (n := match b with [] => length l | _ => Nat.max (length l) (p + length b) end) in *; clearbody n.
    set (fn := fun j => if (p <=? j) && (j <? p + length b) then nth (j - p) b 0%N else nth j l 0%N).
    rewrite (nth_indep (map fn (seq 0 n)) 0%N (fn 0)) by (rewrite map_length, seq_length; assumption).
    rewrite map_nth, seq_nth by assumption; cbn [Nat.add]; unfold fn; clear fn.
    destruct b as [|x b']; [cbn [store_at length]|].
    + destruct (p <=? i) eqn:E1, (i <? p + 0) eqn:E2; cbn [andb]; try reflexivity; lia.
    + unfold store_at; set (b := x :: b').
      assert (LF : length (firstn p (l ++ repeat 0%N (p - length l))) = p)
        by (rewrite firstn_length, app_length, repeat_length; lia).
      destruct (p <=? i) eqn:E1; cbn [andb].
      * rewrite app_nth2 by lia; rewrite LF.
        destruct (i <? p + length b) eqn:E2.
        -- rewrite app_nth1 by lia; reflexivity.
        -- rewrite app_nth2 by lia; rewrite nth_skipn_; f_equal; lia.
      * rewrite app_nth1 by lia; rewrite nth_firstn_ by lia.
        destruct (Nat.lt_ge_cases i (length l)) as [H|H].
        -- apply app_nth1; assumption.
        -- rewrite app_nth2 by assumption; rewrite nth_repeat, nth_overflow by assumption; reflexivity.
Qed.

(** A write that leaves the stream good stored everything. *)
Lemma write_good dv b s : good s = true -> good (ostream_write dv b s) = true ->
  ostream_write dv b s =
  Stream (store_at (ppos s) b (content s)) (gpos s) (ppos s + length b) (S (writes s))
         (eofbit s) (failbit s) (badbit s).
Proof.
  intros G; unfold ostream_write; rewrite sentry_good by assumption; cbv zeta.
  rewrite firstn_all.
  destruct (takes dv (writes s)) as [k|]; [|reflexivity].
  destruct (k <? length b); [|reflexivity].
  unfold good; cbn [eofbit failbit badbit]; rewrite orb_true_r; discriminate.
Qed.

Lemma write_taken dv b s : good s = true -> takes dv (writes s) = None ->
  good (ostream_write dv b s) = true.
Proof.
  intros G T; unfold ostream_write; rewrite sentry_good by assumption; cbv zeta; rewrite T; exact G.
Qed.

Lemma write_bad dv b s : good s = false -> good (ostream_write dv b s) = false.
Proof.
  intros G; unfold ostream_write; rewrite sentry_bad by assumption.
  unfold good; cbn; rewrite orb_true_r; reflexivity.
Qed.

Lemma seekp_bad dv off d s : good s = false -> good (ostream_seekp dv off d s) = false.
Proof.
  intros G; unfold ostream_seekp; destruct (fail s); [assumption|].
  cbv zeta; destruct (reachable _ _ _); [rewrite good_with_ppos; assumption|].
  unfold good; cbn; rewrite orb_true_r; reflexivity.
Qed.

Lemma ostream_bad {A} (c : client A) : forall dv s, good s = false ->
  good (snd (on_ostream dv c s)) = false.
Proof.
  induction c as [a|size count k IH|b size count k IH|off o k IH|k IH]; intros dv s G; cbn [on_ostream].
  - exact G.
  - apply IH; assumption.
  - unfold writeOStream; apply IH, write_bad; assumption.
  - unfold seekOStream; destruct (origin_dir o); [|apply IH; assumption].
    apply IH, seekp_bad; assumption.
  - apply IH; assumption.
Qed.

Lemma units_answer size count : unit_items size count ->
  product count size = (if size =? 0 then 0 else count)%N.
Proof.
  intros U; unfold product; rewrite N.mul_comm; fold (product size count).
  rewrite product_units by assumption; destruct U as [_ [-> | U]]; [apply N.mul_1_l|].
  rewrite U; destruct (N.eqb_spec size 0); [reflexivity|].
  apply N.mul_eq_0 in U; destruct U; congruence.
Qed.

Lemma good_seekp dv off d s : good s = true -> good (ostream_seekp dv off d s) = true ->
  seekable dv = true /\
  (0 <= target s (ppos s) off d /\
   (past_end dv = true \/ target s (ppos s) off d <= Z.of_nat (length (content s))))%Z /\
  ostream_seekp dv off d s = with_ppos (Z.to_nat (target s (ppos s) off d)) s.
Proof.
  intros G; unfold ostream_seekp; rewrite good_fail by assumption; cbv zeta.
  destruct (reachable dv s (target s (ppos s) off d)) eqn:R.
  - intros _; unfold reachable in R; apply andb_prop in R; destruct R as [R R3].
    apply andb_prop in R; destruct R as [R1 R2]; apply orb_prop in R3.
    split; [assumption|]; split; [|reflexivity]; split; [lia|].
    destruct R3; [left; assumption|right; lia].
  - unfold good; cbn; rewrite orb_true_r; discriminate.
Qed.

(** Whatever the device does: if the stream is good in the end, the file was written. *)
Lemma ostream_file {A} (c : client A) : forall dv s, good s = true -> seekable dv = true ->
  writes_units c (pfile s) -> good (snd (on_ostream dv c s)) = true ->
  fst (on_ostream dv c s) = fst (on_file c (pfile s)) /\
  pfile (snd (on_ostream dv c s)) = snd (on_file c (pfile s)) /\
  gpos (snd (on_ostream dv c s)) = gpos s.
Proof.
  induction c as [a|size count k IH|b size count k IH|off o k IH|k IH]; intros dv s G K U E.
  - cbn; auto.
  - contradiction.
  - cbn [writes_units on_file on_ostream] in *.
    destruct U as (U0 & UL & U); unfold writeOStream in *; rewrite units_answer in * by assumption.
    rewrite product_units in * by assumption.
    set (bs := firstn (N.to_nat (size * count)) b) in *.
    assert (G' : good (ostream_write dv bs s) = true).
    { destruct (good (ostream_write dv bs s)) eqn:W; [reflexivity|].
      match type of E with good (snd (on_ostream dv ?c0 ?s0)) = _ =>
        pose proof (ostream_bad c0 dv s0 W) end; congruence. }
    unfold fwrite in *; fold bs in U |- *.
    assert (EP : pfile (ostream_write dv bs s) =
                 File (overwritten (at_ (pfile s)) bs (bytes (pfile s))) (at_ (pfile s) + length bs)).
    { rewrite write_good by assumption; rewrite store_overwritten; reflexivity. }
    rewrite <- EP in *.
    assert (EG : gpos (ostream_write dv bs s) = gpos s) by (rewrite write_good by assumption; reflexivity).
    rewrite <- EG; apply IH; assumption.
  - cbn [writes_units on_file on_ostream] in *.
    unfold seekOStream, fseek in *; rewrite origin_wanted_p in *.
    destruct (origin_dir o) as [d|]; cbn [option_map] in *; [|apply IH; assumption].
    cbv zeta in *.
    assert (G' : good (ostream_seekp dv off d s) = true).
    { destruct (good (ostream_seekp dv off d s)) eqn:W; [reflexivity|].
      match type of E with good (snd (on_ostream dv ?c0 ?s0)) = _ =>
        pose proof (ostream_bad c0 dv s0 W) end; congruence. }
    rewrite G' in *.
    destruct (good_seekp dv off d s G G') as (_ & R & ES).
    destruct (_ <? 0)%Z eqn:Q; [lia|].
    rewrite ES in *.
    apply (IH 0%Z dv (with_ppos (Z.to_nat (target s (ppos s) off d)) s)); assumption.
  - cbn [writes_units on_file on_ostream] in *.
    unfold tellOStream, ostream_tellp in *; rewrite good_fail, K in * by assumption.
    apply IH; assumption.
Qed.

(** A device that takes everything, and a program that stays inside: the stream stays good. *)
Lemma ostream_stays_good {A} (c : client A) : forall dv s, good s = true -> seekable dv = true ->
  (forall i, takes dv i = None) ->
  writes_units c (pfile s) -> stays_inside (past_end dv) c (pfile s) ->
  good (snd (on_ostream dv c s)) = true.
Proof.
  induction c as [a|size count k IH|b size count k IH|off o k IH|k IH]; intros dv s G K T U I.
  - exact G.
  - contradiction.
  - cbn [writes_units stays_inside on_ostream] in *.
    destruct U as (U0 & UL & U); unfold writeOStream in *; rewrite units_answer in * by assumption.
    rewrite product_units in * by assumption.
    set (bs := firstn (N.to_nat (size * count)) b) in *.
    assert (G' : good (ostream_write dv bs s) = true) by (apply write_taken; auto).
    unfold fwrite in *; fold bs in U, I.
    assert (EP : pfile (ostream_write dv bs s) =
                 File (overwritten (at_ (pfile s)) bs (bytes (pfile s))) (at_ (pfile s) + length bs)).
    { rewrite write_good by assumption; rewrite store_overwritten; reflexivity. }
    rewrite <- EP in *; apply IH; assumption.
  - cbn [writes_units stays_inside on_ostream] in *.
    destruct I as [I0 I].
    unfold seekOStream, fseek in *; rewrite origin_wanted_p in *.
    destruct (origin_dir o) as [d|]; cbn [option_map] in *; [|apply IH; assumption].
    cbv zeta in *; cbn [pfile bytes] in I0.
    assert (ES : ostream_seekp dv off d s = with_ppos (Z.to_nat (target s (ppos s) off d)) s).
    { unfold ostream_seekp; rewrite good_fail by assumption; cbv zeta.
      assert (R : reachable dv s (target s (ppos s) off d) = true).
      { unfold reachable; rewrite K; destruct (past_end dv); simpl; [lia|].
        destruct I0 as [J0 [J|J]]; [discriminate|lia]. }
      rewrite R; reflexivity. }
    rewrite ES, good_with_ppos, G.
    destruct (_ <? 0)%Z eqn:Q; [lia|].
    apply IH; assumption.
  - cbn [writes_units stays_inside on_ostream] in *.
    unfold tellOStream, ostream_tellp in *; rewrite good_fail, K in * by assumption.
    apply IH; assumption.
Qed.

(** A program that only writes sees nothing of the stream. *)
Lemma only_writes_blind {A} (c : client A) : forall dv s dv' s', only_writes c ->
  fst (on_ostream dv c s) = fst (on_ostream dv' c s').
Proof.
  induction c as [a|size count k IH|b size count k IH|off o k IH|k IH]; intros dv s dv' s' O;
    cbn [only_writes on_ostream] in *; try contradiction; [reflexivity|].
  destruct O as [_ O]; unfold writeOStream; apply IH, O.
Qed.

(** readStreamData on the stream of saveVector takes all of it. *)
Lemma ostream_gpos {A} (c : client A) : forall dv s, gpos (snd (on_ostream dv c s)) = gpos s.
Proof.
  induction c as [a|size count k IH|b size count k IH|off o k IH|k IH]; intros dv s; cbn [on_ostream];
    try (rewrite IH); try reflexivity.
  - unfold writeOStream; rewrite IH; unfold ostream_write.
    destruct (sentry s) as [ok s1] eqn:E.
    assert (P : gpos s1 = gpos s) by (unfold sentry in E; destruct (good s); injection E; intros; subst; reflexivity).
    destruct ok; [|assumption].
    destruct (takes dv (writes s1)); [destruct (_ <? _)|]; exact P.
  - unfold seekOStream; destruct (origin_dir o); rewrite IH; [|reflexivity].
    unfold ostream_seekp; destruct (fail s); [reflexivity|]; cbv zeta.
    destruct (reachable _ _ _); reflexivity.
Qed.

Lemma readStreamData_string s : gpos s = 0 -> seekable string_device = true ->
  exists s', readStreamData string_device s = Some (content s, s').
Proof.
  intros P K; destruct (good s) eqn:G; [apply readStreamData_all; assumption|].
  unfold readStreamData; cbv zeta.
  destruct (fail s) eqn:F.
  - destruct (seekg_dead string_device 0 dir_end s F) as (QF & QC & QP).
    destruct (tellg_dead string_device _ QF) as (s2 & -> & _ & C2 & P2); cbn [Z.ltb Z.compare].
    destruct (read_chunks_all (S (length (content s2))) [] (clear s2)) as (s' & E).
    + left; reflexivity.
    + left; cbn [clear with_bits content gpos]; rewrite skipn_length; lia.
    + exists s'; rewrite E; cbn [good clear with_bits eofbit failbit badbit negb orb app content gpos].
      rewrite C2, P2, QC, QP, P; reflexivity.
  - (* only eofbit: seekg clears it *)
    set (s0 := with_bits false false false s).
    assert (B : failbit s = false /\ badbit s = false)
      by (unfold fail in F; destruct (failbit s), (badbit s); simpl in F; auto; discriminate).
    assert (ES : istream_seekg string_device 0 dir_end s = istream_seekg string_device 0 dir_end s0).
    { unfold istream_seekg; cbn [s0 with_bits failbit badbit]; destruct B as [-> ->]; reflexivity. }
    rewrite ES.
    destruct (readStreamData_all string_device s0 eq_refl K) as (s' & E).
    unfold readStreamData in E; cbv zeta in E; exists s'; exact E.
Qed.

(** ** One program after another *)

Lemma on_file_andthen {A B} (c : client A) (d : A -> client B) : forall f,
  on_file (andthen c d) f = let (a, f') := on_file c f in on_file (d a) f'.
Proof.
  induction c as [a|size count k IH|b size count k IH|off o k IH|k IH]; intros f; cbn [andthen on_file].
  - reflexivity.
  - destruct (fread size count f) as [[r got] f']; apply IH.
  - destruct (fwrite b size count f) as [r f']; apply IH.
  - destruct (fseek off o f) as [r f']; apply IH.
  - apply IH.
Qed.

Lemma on_istream_andthen {A B} dv (c : client A) (d : A -> client B) : forall s,
  on_istream dv (andthen c d) s = let (a, s') := on_istream dv c s in on_istream dv (d a) s'.
Proof.
  induction c as [a|size count k IH|b size count k IH|off o k IH|k IH]; intros s; cbn [andthen on_istream].
  - reflexivity.
  - destruct (readIStream size count s) as [[r got] s']; apply IH.
  - apply IH.
  - destruct (seekIStream dv off o s) as [r s']; apply IH.
  - destruct (tellIStream dv s) as [r s']; apply IH.
Qed.

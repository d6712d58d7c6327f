(** C62 and C63: images loaded from streams and saved to streams. *)

From Coq Require Import NArith ZArith List Bool Lia.
From Verif Require Import Base StreamModel StreamSpec StreamProofs.
Import ListNotations.

(** ** C62 *)

(** On a good stream that can be positioned, a program that reads single bytes and stays inside the
    content sees exactly what it would see in a file with that content and position, and leaves
    the stream as it found it but for the position, which is the file's. *)
Theorem C62_reads_as_file : forall A (c : client A) dv s a f',
  is_good s -> seekable dv = true ->
  on_file c (File (content s) (gpos s)) = (a, f') ->
  reads_units c (File (content s) (gpos s)) ->
  stays_inside (past_end dv) c (File (content s) (gpos s)) ->
  on_istream dv c s =
  (a, Stream (content s) (at_ f') (ppos s) (writes s) (eofbit s) (failbit s) (badbit s)).
Proof.
  intros A c dv s a f' G K E U I; apply is_good_iff in G.
  rewrite istream_file by assumption; unfold gfile; rewrite E; reflexivity.
Qed.
Print Assumptions C62_reads_as_file.

(** Whether it stayed inside shows in the stream: it is still good in the end exactly then. *)
Theorem C62_good_means_same : forall A (c : client A) dv s,
  is_good s -> seekable dv = true -> reads_units c (File (content s) (gpos s)) ->
  (is_good (snd (on_istream dv c s)) <-> stays_inside (past_end dv) c (File (content s) (gpos s))) /\
  (is_good (snd (on_istream dv c s)) ->
   fst (on_istream dv c s) = fst (on_file c (File (content s) (gpos s))) /\
   gpos (snd (on_istream dv c s)) = at_ (snd (on_file c (File (content s) (gpos s))))).
Proof.
  intros A c dv s G K U; rewrite is_good_iff in *.
  assert (H : stays_inside (past_end dv) c (File (content s) (gpos s)) ->
              good (snd (on_istream dv c s)) = true /\
              fst (on_istream dv c s) = fst (on_file c (File (content s) (gpos s))) /\
              gpos (snd (on_istream dv c s)) = at_ (snd (on_file c (File (content s) (gpos s))))).
  { intros I; rewrite istream_file by assumption; split; [exact G|split; reflexivity]. }
  split; [split|].
  - apply istream_good_inside; assumption.
  - intros I; apply H, I.
  - intros E; apply H; apply istream_good_inside; assumption.
Qed.
Print Assumptions C62_good_means_same.

(** A failed stream answers 0 to every read and -1 to every other request, whatever the program
    does, and stays failed: no callback repairs it. *)
Theorem C62_failed_stays_failed : forall A (c : client A) dv s,
  failbit s = true \/ badbit s = true ->
  fst (on_istream dv c s) = on_dead c /\
  (failbit (snd (on_istream dv c s)) = true \/ badbit (snd (on_istream dv c s)) = true) /\
  content (snd (on_istream dv c s)) = content s /\ gpos (snd (on_istream dv c s)) = gpos s.
Proof.
  intros A c dv s F.
  assert (F' : fail s = true) by (unfold fail; destruct F as [-> | ->]; [reflexivity|apply orb_true_r]).
  destruct (istream_dead c dv s F') as (E1 & E2 & E3 & E4).
  repeat split; try assumption; apply orb_prop, E2.
Qed.
Print Assumptions C62_failed_stays_failed.

(** That is what a read past the end leads to: it still delivers the bytes that are left, but
    every request after it is refused. *)
Theorem C62_past_end : forall A dv s count (k : N -> list N -> client A),
  is_good s -> (gpos s <= length (content s)) -> (count < 2 ^ 32)%N ->
  (N.of_nat (length (content s)) < N.of_nat (gpos s) + count)%N ->
  fst (on_istream dv (Read 1 count k) s) =
  on_dead (k (N.of_nat (length (content s) - gpos s)) (skipn (gpos s) (content s))).
Proof.
  intros A dv s count k G P C L; apply is_good_iff in G; cbn [on_istream].
  assert (U : unit_items 1 count) by (split; [rewrite N.mul_1_l; assumption|left; reflexivity]).
  unfold readIStream; rewrite product_units by assumption; rewrite N.mul_1_l.
  rewrite istream_read_good by assumption.
  rewrite firstn_all2 by (rewrite skipn_length; lia).
  rewrite skipn_length; cbv zeta.
  destruct (_ <? N.to_nat count) eqn:E; [|lia].
  rewrite u32_small by lia.
  match goal with |- fst (on_istream dv ?c0 ?s0) = _ =>
    destruct (istream_dead c0 dv s0 eq_refl) as (D & _) end; exact D.
Qed.
Print Assumptions C62_past_end.

(** Reads are answered in bytes: [size] times what a file answers, for items that are all there. *)
Theorem C62_items : forall dv A s size count (k : N -> list N -> client A) (j : N -> list N -> client A),
  is_good s -> (0 < size)%N -> (size * count < 2 ^ 32)%N ->
  (N.of_nat (gpos s) + size * count <= N.of_nat (length (content s)))%N ->
  exists got s' f',
    on_istream dv (Read size count k) s = on_istream dv (k (size * count)%N got) s' /\
    on_file (Read size count j) (File (content s) (gpos s)) = on_file (j count got) f' /\
    length got = N.to_nat (size * count).
Proof.
  intros dv A s size count k j G S0 C L; apply is_good_iff in G.
  cbn [on_istream on_file]; unfold readIStream, fread; cbn [bytes at_].
  assert (P : product size count = (size * count)%N) by (apply u32_small; assumption).
  rewrite P, istream_read_good by assumption.
  assert (F : length (firstn (N.to_nat (size * count)) (skipn (gpos s) (content s))) =
              N.to_nat (size * count)) by (apply got_full; lia).
  cbv zeta; rewrite !F, N2Nat.id, u32_small by assumption.
  do 3 eexists; split; [reflexivity|]; split; [|exact F].
  rewrite N.mul_comm, N.div_mul by lia; reflexivity.
Qed.
Print Assumptions C62_items.

(** Loading from memory is loading a file with those bytes - with the first [size mod 2^32] of
    them, since the size is passed on in 32 bits. *)
Theorem C62_load_memory : forall fmt bitmap memory (detect : client (option fmt))
    (decode : fmt -> client (option bitmap)) (openMemory : list N -> option memory) on_memory v data,
  memory_ok openMemory on_memory v -> (forall d, openMemory d <> None) ->
  let load := loadMemory fmt bitmap detect decode memory openMemory on_memory in
  let file_load d := fst (on_file (loader detect decode) (File d 0)) in
  load data = file_load (firstn (N.to_nat (N.of_nat (length data) mod 2 ^ 32)) data) /\
  ((N.of_nat (length data) < 2 ^ 32)%N -> load data = file_load data).
Proof.
  intros fmt bitmap memory detect decode openMemory on_memory v data [M1 M2] O load file_load.
  assert (H : load data = file_load (firstn (N.to_nat (N.of_nat (length data) mod 2 ^ 32)) data)).
  { unfold load, file_load, loadMemory; unfold u32.
    set (d := firstn _ data); clearbody d.
    destruct (openMemory d) as [m|] eqn:E; [|destruct (O d E)].
    apply M1 in E.
    destruct (M2 _ detect m) as [R V]; rewrite E in R, V.
    unfold loader; rewrite on_file_andthen.
    destruct (on_memory _ detect m) as [t m1]; cbn [fst snd] in R, V.
    destruct (on_file detect _) as [t' f1]; cbn [fst snd] in R, V; subst t f1.
    destruct t' as [t|]; [|reflexivity].
    destruct (M2 _ (decode t) m1) as [R2 _]; exact R2. }
  split; [exact H|].
  intros L; rewrite H, N.mod_small by assumption; rewrite Nat2N.id, firstn_all; reflexivity.
Qed.
Print Assumptions C62_load_memory.

Lemma loadStream_handle fmt bitmap memory detect decode openMemory on_memory dv s :
  good s = true -> seekable dv = true ->
  loadStream fmt bitmap detect decode memory openMemory on_memory dv s =
  Some (fst (on_istream dv (loader detect decode) s)).
Proof.
  intros G K; unfold loadStream; rewrite tellg_good by assumption.
  destruct (Z.of_nat (gpos s) <? 0)%Z eqn:E; [lia|].
  unfold loader; rewrite on_istream_andthen.
  destruct (on_istream dv detect s) as [t s1]; destruct t; reflexivity.
Qed.

(** Loading from a stream that can be positioned is loading the file it stands at, if FreeImage
    reads single bytes and stays inside; a whole stream is then loaded as its bytes in memory
    are. *)
Theorem C62_load_stream : forall fmt bitmap memory (detect : client (option fmt))
    (decode : fmt -> client (option bitmap)) (openMemory : list N -> option memory) on_memory v dv s,
  is_good s -> seekable dv = true ->
  reads_units (loader detect decode) (File (content s) (gpos s)) ->
  stays_inside (past_end dv) (loader detect decode) (File (content s) (gpos s)) ->
  let load := loadStream fmt bitmap detect decode memory openMemory on_memory dv s in
  load = Some (fst (on_file (loader detect decode) (File (content s) (gpos s)))) /\
  (gpos s = 0 -> (N.of_nat (length (content s)) < 2 ^ 32)%N ->
   memory_ok openMemory on_memory v -> (forall d, openMemory d <> None) ->
   load = Some (loadMemory fmt bitmap detect decode memory openMemory on_memory (content s))).
Proof.
  intros fmt bitmap memory detect decode openMemory on_memory v dv s G K U I load.
  apply is_good_iff in G.
  assert (H : load = Some (fst (on_file (loader detect decode) (File (content s) (gpos s))))).
  { unfold load; rewrite loadStream_handle by assumption.
    rewrite istream_file by assumption; reflexivity. }
  split; [exact H|].
  intros P L M O; rewrite H, P.
  destruct (C62_load_memory fmt bitmap memory detect decode openMemory on_memory v (content s) M O) as [_ E].
  rewrite E by assumption; reflexivity.
Qed.
Print Assumptions C62_load_stream.

(** Loading from a stream that cannot be positioned or is not good is loading the bytes that are
    left in it from memory, whatever FreeImage does. *)
Theorem C62_load_rest : forall fmt bitmap memory detect decode openMemory on_memory dv s,
  ~ is_good s \/ seekable dv = false ->
  loadStream fmt bitmap detect decode memory openMemory on_memory dv s =
  Some (loadMemory fmt bitmap detect decode memory openMemory on_memory (skipn (gpos s) (content s))).
Proof.
  intros fmt bitmap memory detect decode openMemory on_memory dv s H.
  destruct (readStreamData_rest dv s) as (T & s' & E).
  { destruct H as [H|H]; [left|right; assumption].
    rewrite is_good_iff in H; destruct (good s); [destruct H|]; reflexivity. }
  unfold loadStream; destruct (istream_tellg dv s) as [pos s1]; cbn [fst snd] in T, E; subst pos.
  cbn [Z.ltb Z.compare]; rewrite E; reflexivity.
Qed.
Print Assumptions C62_load_rest.

(** *** An example: a file type with a two-byte signature, tried after one with four bytes

    [probe n sig] is a validator as FreeImage has them: note the position, read a signature, go
    back.  [pick] tries two of them and [body] reads the byte after the signature. *)
Definition probe {A} (sig : list N) (yes no : client A) : client A :=
  Tell (fun p => Read 1 (N.of_nat (length sig)) (fun _ got => Seek p 0 (fun _ =>
  if list_eq_dec N.eq_dec got sig then yes else no))).
Definition pick (s1 s2 : list N) : client (option bool) :=
  probe s1 (Done (Some true)) (probe s2 (Done (Some false)) (Done None)).
Definition body (long : bool) : client (option N) :=
  Seek (if long then 4 else 2) 1 (fun _ => Read 1 1 (fun _ got => Done (hd_error got))).
Definition ex_detect : client (option bool) := pick [1; 2; 3; 4]%N [66; 77]%N.
Definition ex_on_memory (A : Type) (c : client A) (f : file) : A * file := on_file c f.
Definition ex_open (d : list N) : option file := Some (File d 0).
Definition ex_stream (d : list N) : stream := Stream d 0 0 0 false false false.

Example C62_case :
  memory_ok ex_open ex_on_memory (fun f => f) /\ (forall d, ex_open d <> None) /\
  is_good (ex_stream [66; 77; 9; 8]%N) /\
  reads_units (loader ex_detect body) (File [66; 77; 9; 8]%N 0) /\
  stays_inside false (loader ex_detect body) (File [66; 77; 9; 8]%N 0) /\
  loadStream _ _ ex_detect body _ ex_open ex_on_memory string_device (ex_stream [66; 77; 9; 8]%N)
  = Some (Some 9%N) /\
  loadStream _ _ ex_detect body _ ex_open ex_on_memory (Device false false (fun _ => None))
    (ex_stream [66; 77; 9]%N) = Some (Some 9%N) /\
  fst (on_istream string_device (Read 2 2 (fun r _ => Done r)) (ex_stream [66; 77; 9; 8]%N)) = 4%N /\
  fst (on_file (Read 2 2 (fun r _ => Done r)) (File [66; 77; 9; 8]%N 0)) = 2%N.
Proof.
  repeat match goal with |- _ /\ _ => split end; try (vm_compute; reflexivity).
  - split; [intros d m [= <-]; reflexivity|intros A c m; split; reflexivity].
  - discriminate.
  - repeat split.
  - vm_compute; repeat split; auto; discriminate.
  - vm_compute; repeat split; auto; try (right; discriminate); discriminate.
Qed.

(** The conditions cannot be dropped: a file of three bytes is loaded from memory and from a pipe,
    but not from a stream that can be positioned, where the longer signature is read past the end
    and makes the stream refuse the shorter one. *)
Theorem C62_short_file_refuted :
  exists (detect : client (option bool)) (decode : bool -> client (option N)) data,
    reads_units (loader detect decode) (File data 0) /\
    loadMemory _ _ detect decode _ ex_open ex_on_memory data = Some 9%N /\
    loadStream _ _ detect decode _ ex_open ex_on_memory (Device false false (fun _ => None))
      (ex_stream data) = Some (Some 9%N) /\
    forall beyond, loadStream _ _ detect decode _ ex_open ex_on_memory
      (Device true beyond (fun _ => None)) (ex_stream data) = Some None.
Proof.
  exists ex_detect, body, [66; 77; 9]%N.
  repeat match goal with |- _ /\ _ => split end; try (vm_compute; reflexivity).
  vm_compute; repeat split; auto; discriminate.
Qed.
Print Assumptions C62_short_file_refuted.

(** ** C63 *)

(** Whatever the device behind a stream does: if the stream is good after FreeImage has written to
    it, in single bytes, then FreeImage saw what it would have seen writing a file, and the stream
    holds the bytes of that file. *)
Theorem C63_good_means_stored : forall A (c : client A) dv s,
  is_good s -> seekable dv = true -> writes_units c (File (content s) (ppos s)) ->
  is_good (snd (on_ostream dv c s)) ->
  fst (on_ostream dv c s) = fst (on_file c (File (content s) (ppos s))) /\
  content (snd (on_ostream dv c s)) = bytes (snd (on_file c (File (content s) (ppos s)))) /\
  ppos (snd (on_ostream dv c s)) = at_ (snd (on_file c (File (content s) (ppos s)))).
Proof.
  intros A c dv s G K U E; rewrite is_good_iff in *.
  destruct (ostream_file c dv s G K U E) as (E1 & E2 & _).
  unfold pfile in *; rewrite <- E2; auto.
Qed.
Print Assumptions C63_good_means_stored.

(** It is good if the device takes every byte and the program positions the stream only inside
    what is written (or after it, where the stream can be). *)
Theorem C63_stays_good : forall A (c : client A) dv s,
  is_good s -> seekable dv = true -> (forall i, takes dv i = None) ->
  writes_units c (File (content s) (ppos s)) ->
  stays_inside (past_end dv) c (File (content s) (ppos s)) ->
  is_good (snd (on_ostream dv c s)).
Proof.
  intros A c dv s G K T U I; rewrite is_good_iff in *; apply ostream_stays_good; assumption.
Qed.
Print Assumptions C63_stays_good.

(** An empty image or a name without a known type: the answer is false, and the stream is left
    alone. *)
Theorem C63_rejected : forall fmt bitmap typeOf encode dv im name s old,
  im = None \/ typeOf name = None ->
  saveStream fmt bitmap typeOf encode dv im name s = (false, s) /\
  saveVector fmt bitmap typeOf encode im name old = Some (false, old).
Proof.
  intros fmt bitmap typeOf encode dv im name s old H.
  assert (E : forall dv s, saveStream fmt bitmap typeOf encode dv im name s = (false, s)).
  { intros dv' s'; unfold saveStream; destruct im; [|reflexivity].
    destruct H as [H|H]; [discriminate|]; rewrite H; reflexivity. }
  split; [apply E|]; unfold saveVector; rewrite E; reflexivity.
Qed.
Print Assumptions C63_rejected.

(** The answer of save says nothing about the stream if the encoder only writes: it is the same
    for every stream and device. *)
Theorem C63_failure_unseen : forall fmt bitmap typeOf encode dv s dv' s' im name,
  (forall f b, only_writes (encode f b)) ->
  fst (saveStream fmt bitmap typeOf encode dv im name s) =
  fst (saveStream fmt bitmap typeOf encode dv' im name s').
Proof.
  intros fmt bitmap typeOf encode dv s dv' s' im name O; unfold saveStream.
  destruct im as [b|]; [|reflexivity]; destruct (typeOf name) as [f|]; [|reflexivity].
  apply only_writes_blind, O.
Qed.
Print Assumptions C63_failure_unseen.

(** Saving to a vector always ends, leaves the vector alone when the answer is false, and else
    fills it with all that was written to a stream in memory - the bytes of the file, if FreeImage
    writes single bytes and positions the stream only inside what is written. *)
Theorem C63_vector : forall fmt bitmap typeOf encode im name old,
  let s := saveStream fmt bitmap typeOf encode string_device im name empty_stream in
  saveVector fmt bitmap typeOf encode im name old =
  Some (fst s, if fst s then content (snd s) else old) /\
  (forall f b, im = Some b -> typeOf name = Some f ->
   writes_units (encode f b) (File [] 0) -> stays_inside false (encode f b) (File [] 0) ->
   saveVector fmt bitmap typeOf encode im name old =
   Some (let (ok, r) := on_file (encode f b) (File [] 0) in (ok, if ok then bytes r else old))).
Proof.
  intros fmt bitmap typeOf encode im name old s.
  assert (H : saveVector fmt bitmap typeOf encode im name old =
              Some (fst s, if fst s then content (snd s) else old)).
  { unfold saveVector; fold s.
    assert (P : gpos (snd s) = 0).
    { unfold s, saveStream; destruct im as [b|]; [|reflexivity]; destruct (typeOf name) as [f|]; [|reflexivity].
      apply ostream_gpos. }
    destruct s as [ok s']; cbn [fst snd] in *; destruct ok; [|reflexivity].
    destruct (readStreamData_string s' P eq_refl) as (s2 & E); rewrite E; reflexivity. }
  split; [exact H|].
  intros f b Ei Ef U I; rewrite H.
  assert (Es : s = on_ostream string_device (encode f b) empty_stream)
    by (unfold s, saveStream; rewrite Ei, Ef; reflexivity).
  assert (G : good (snd (on_ostream string_device (encode f b) empty_stream)) = true).
  { apply ostream_stays_good; auto. }
  destruct (ostream_file (encode f b) string_device empty_stream eq_refl eq_refl U G) as (E1 & E2 & _).
  rewrite Es, E1.
  change (pfile empty_stream) with (File [] 0) in *.
  assert (C : content (snd (on_ostream string_device (encode f b) empty_stream)) =
              bytes (snd (on_file (encode f b) (File [] 0)))) by (rewrite <- E2; reflexivity).
  rewrite C; destruct (on_file (encode f b) (File [] 0)) as [ok r]; destruct ok; reflexivity.
Qed.
Print Assumptions C63_vector.

(** *** An example: a header with a length that is known only in the end *)
Definition ex_encode (_ : unit) (px : list N) : client bool :=
  Write [66; 77; 0]%N 1 3 (fun r => Write px 1 (N.of_nat (length px)) (fun r2 =>
  Tell (fun p => Seek 2 0 (fun q => Write [Z.to_N p] 1 1 (fun r3 =>
  Done ((r =? 3)%N && (q =? 0)%Z && (r3 =? 1)%N)))))).
Definition ex_plain (_ : unit) (px : list N) : client bool :=
  Write px 1 (N.of_nat (length px)) (fun r => Done (r =? N.of_nat (length px))%N).
Definition ex_type (n : list N) : option unit := match n with [] => None | _ => Some tt end.

Example C63_case :
  writes_units (ex_encode tt [7; 8]%N) (File [] 0) /\
  stays_inside false (ex_encode tt [7; 8]%N) (File [] 0) /\
  on_file (ex_encode tt [7; 8]%N) (File [] 0) = (true, File [66; 77; 5; 7; 8]%N 3) /\
  saveVector _ _ ex_type ex_encode (Some [7; 8]%N) [98]%N [1]%N = Some (true, [66; 77; 5; 7; 8]%N) /\
  saveVector _ _ ex_type ex_encode (Some [7; 8]%N) []%N [1]%N = Some (false, [1]%N) /\
  only_writes (ex_plain tt [7; 8]%N).
Proof.
  repeat match goal with |- _ /\ _ => split end; try (vm_compute; reflexivity).
  - vm_compute; repeat split; auto; discriminate.
  - vm_compute; repeat split; auto; try (right; discriminate); discriminate.
  - vm_compute; repeat split; auto.
Qed.

(** So a save that reports success may have stored nothing: the device is full, the answer true. *)
Theorem C63_full_disk_refuted :
  exists (encode : unit -> list N -> client bool) px dv,
    writes_units (encode tt px) (File [] 0) /\ px <> [] /\
    fst (saveStream _ _ (fun _ => Some tt) encode dv (Some px) [98%N] empty_stream) = true /\
    content (snd (saveStream _ _ (fun _ => Some tt) encode dv (Some px) [98%N] empty_stream)) = [] /\
    fst (on_file (encode tt px) (File [] 0)) = true /\
    bytes (snd (on_file (encode tt px) (File [] 0))) = px.
Proof.
  exists ex_plain, [7; 8]%N, (Device true true (fun _ => Some 0)).
  repeat match goal with |- _ /\ _ => split end; try (vm_compute; reflexivity); try discriminate.
  vm_compute; repeat split; auto; discriminate.
Qed.
Print Assumptions C63_full_disk_refuted.

(** And an encoder that writes items of several bytes and compares the answer with their number,
    as fwrite allows, fails on every stream. *)
Theorem C63_items_refuted : forall fmt bitmap typeOf dv (im : bitmap) f name s buf size count,
  typeOf name = Some f -> (1 < size)%N -> (0 < count)%N -> (size * count < 2 ^ 32)%N ->
  let c := Write buf size count (fun r => Done (r =? count)%N) in
  fst (saveStream fmt bitmap typeOf (fun _ _ => c) dv (Some im) name s) = false /\
  fst (on_file c (File (content s) (ppos s))) = true.
Proof.
  intros fmt bitmap typeOf dv im f name s buf size count T S1 C0 L c.
  unfold saveStream; rewrite T; unfold c; cbn [on_ostream on_file fst snd].
  unfold writeOStream, fwrite; cbn [fst snd].
  unfold product; rewrite N.mul_comm, u32_small by (rewrite N.mul_comm; rewrite N.mul_comm; assumption).
  split.
  - cbn; apply N.eqb_neq; nia.
  - destruct (N.eqb_spec size 0); [lia|]; cbn; apply N.eqb_refl.
Qed.
Print Assumptions C63_items_refuted.

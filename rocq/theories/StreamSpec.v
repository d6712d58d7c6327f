(** What FreeImage expects of the handles it reads and writes: files as in C's stdio. *)

From Coq Require Import NArith ZArith List Bool.
From Verif Require Import StreamModel.
Import ListNotations.

(** A file: its bytes and the current position. *)
Record file := File { bytes : list N; at_ : nat }.

(** fread of [count] items of [size] bytes: the number of complete items read, and the bytes. *)
Definition fread (size count : N) (f : file) : N * list N * file :=
  let got := firstn (N.to_nat (size * count)) (skipn (at_ f) (bytes f)) in
  (N.of_nat (length got) / size, got, File (bytes f) (at_ f + length got))%N.

(** The bytes of a file with [l] after [b] is written at position [p], one by one: those written,
    the old ones elsewhere, zeros in a gap. *)
Definition overwritten (p : nat) (b l : list N) : list N :=
  map (fun i => if (p <=? i) && (i <? p + length b) then nth (i - p) b 0%N else nth i l 0%N)
      (seq 0 (match b with [] => length l | _ => Nat.max (length l) (p + length b) end)).

(** fwrite of [count] items of [size] bytes from [buf]: the number of items. *)
Definition fwrite (buf : list N) (size count : N) (f : file) : N * file :=
  let b := firstn (N.to_nat (size * count)) buf in
  ((if size =? 0 then 0 else count)%N, File (overwritten (at_ f) b (bytes f)) (at_ f + length b)).

(** The position fseek asks for; [None] for an origin other than SEEK_SET, SEEK_CUR, SEEK_END. *)
Definition wanted (off origin : Z) (f : file) : option Z :=
  if Z.eqb origin 0 then Some off
  else if Z.eqb origin 1 then Some (Z.of_nat (at_ f) + off)%Z
  else if Z.eqb origin 2 then Some (Z.of_nat (length (bytes f)) + off)%Z
  else None.

(** fseek: any position from the start of the file on. *)
Definition fseek (off origin : Z) (f : file) : Z * file :=
  match wanted off origin f with
  | Some t => if (t <? 0)%Z then ((-1)%Z, f) else (0%Z, File (bytes f) (Z.to_nat t))
  | None => ((-1)%Z, f)
  end.

(** A program run on a file. *)
Fixpoint on_file {A} (c : client A) (f : file) : A * file :=
  match c with
  | Done a => (a, f)
  | Read size count k => let '(r, got, f') := fread size count f in on_file (k r got) f'
  | Write buf size count k => let (r, f') := fwrite buf size count f in on_file (k r) f'
  | Seek off o k => let (r, f') := fseek off o f in on_file (k r) f'
  | Tell k => on_file (k (Z.of_nat (at_ f))) f
  end.

(** A program run on a handle that refuses everything. *)
Fixpoint on_dead {A} (c : client A) : A :=
  match c with
  | Done a => a
  | Read _ _ k => on_dead (k 0%N [])
  | Write _ _ _ k => on_dead (k 0%N)
  | Seek _ _ k => on_dead (k (-1)%Z)
  | Tell k => on_dead (k (-1)%Z)
  end.

(** One program after another. *)
Fixpoint andthen {A B} (c : client A) (d : A -> client B) : client B :=
  match c with
  | Done a => d a
  | Read size count k => Read size count (fun r got => andthen (k r got) d)
  | Write buf size count k => Write buf size count (fun r => andthen (k r) d)
  | Seek off o k => Seek off o (fun r => andthen (k r) d)
  | Tell k => Tell (fun r => andthen (k r) d)
  end.

(** FreeImage loading from a handle: recognise the file type, then decode. *)
Definition loader {fmt bitmap} (detect : client (option fmt)) (decode : fmt -> client (option bitmap))
  : client (option bitmap) :=
  andthen detect (fun t => match t with None => Done None | Some t => decode t end).

(** Less than 2^32 bytes, asked for as items of one byte, or nothing at all. *)
Definition unit_items (size count : N) : Prop :=
  (size * count < 2 ^ 32 /\ (size = 1 \/ size * count = 0))%N.

(** The program, run on the file, only reads, and only items of one byte. *)
Fixpoint reads_units {A} (c : client A) (f : file) : Prop :=
  match c with
  | Done _ => True
  | Read size count k =>
      unit_items size count /\ let '(r, got, f') := fread size count f in reads_units (k r got) f'
  | Write _ _ _ _ => False
  | Seek off o k => let (r, f') := fseek off o f in reads_units (k r) f'
  | Tell k => reads_units (k (Z.of_nat (at_ f))) f
  end.

(** It only writes, items of one byte, from buffers that are long enough. *)
Fixpoint writes_units {A} (c : client A) (f : file) : Prop :=
  match c with
  | Done _ => True
  | Read _ _ _ => False
  | Write buf size count k =>
      unit_items size count /\ (size * count <= N.of_nat (length buf))%N /\
      let (r, f') := fwrite buf size count f in writes_units (k r) f'
  | Seek off o k => let (r, f') := fseek off o f in writes_units (k r) f'
  | Tell k => writes_units (k (Z.of_nat (at_ f))) f
  end.

(** It never reads past the end of the file, and positions it only from the start to the end (or
    after the end, where [beyond] allows it). *)
Fixpoint stays_inside {A} (beyond : bool) (c : client A) (f : file) : Prop :=
  match c with
  | Done _ => True
  | Read size count k =>
      (size * count = 0 \/ N.of_nat (at_ f) + size * count <= N.of_nat (length (bytes f)))%N /\
      let '(r, got, f') := fread size count f in stays_inside beyond (k r got) f'
  | Write buf size count k => let (r, f') := fwrite buf size count f in stays_inside beyond (k r) f'
  | Seek off o k =>
      match wanted off o f with
      | Some t => (0 <= t /\ (beyond = true \/ t <= Z.of_nat (length (bytes f))))%Z
      | None => True
      end /\
      let (r, f') := fseek off o f in stays_inside beyond (k r) f'
  | Tell k => stays_inside beyond (k (Z.of_nat (at_ f))) f
  end.

(** It does nothing but write. *)
Fixpoint only_writes {A} (c : client A) : Prop :=
  match c with
  | Done _ => True
  | Write _ size count k => unit_items size count /\ forall r, only_writes (k r)
  | _ => False
  end.

(** Nothing in the stream's state bits. *)
Definition is_good (s : stream) : Prop := eofbit s = false /\ failbit s = false /\ badbit s = false.

(** FreeImage's streams on memory behave as files: [v] is the file a memory stream stands for. *)
Definition memory_ok {memory} (openMemory : list N -> option memory)
    (on_memory : forall A, client A -> memory -> A * memory) (v : memory -> file) : Prop :=
  (forall d m, openMemory d = Some m -> v m = File d 0) /\
  (forall A (c : client A) m, fst (on_memory A c m) = fst (on_file c (v m)) /\
                              v (snd (on_memory A c m)) = snd (on_file c (v m))).

(** Streams given to Image::load and Image::save, and the callbacks through which FreeImage reads
    and writes them.  lib/src/Image.cpp 209-291, 882-958; lib/src/Shared.cpp 23-56.

    FreeImage is a [client]: a program that asks for reads, writes, seeks and positions, and may
    choose each request after seeing all earlier answers. *)

From Coq Require Import NArith ZArith List Bool Lia.
From Verif Require Import Base.
Import ListNotations.

(** ** std::istream and std::ostream

    The standard library's streams (not in /repo), as far as the code uses them.  [seekable]: the
    buffer can be positioned at all (a pipe cannot).  [past_end]: it can be positioned after the
    last byte (std::filebuf can, std::stringbuf cannot).  [takes i]: how many bytes the device
    accepts of the [i]-th write, [None] for all of them. *)
Record device := Device { seekable : bool; past_end : bool; takes : nat -> option nat }.

(** The content, the positions for reading and writing, the number of writes made so far and the
    state bits.  The two positions are those of a std::stringstream; a stream on a file has one,
    but no code here both reads and writes such a stream. *)
Record stream := Stream { content : list N; gpos : nat; ppos : nat; writes : nat;
                          eofbit : bool; failbit : bool; badbit : bool }.

Definition with_bits (e f b : bool) (s : stream) : stream :=
  Stream (content s) (gpos s) (ppos s) (writes s) e f b.
Definition with_gpos (p : nat) (s : stream) : stream :=
  Stream (content s) p (ppos s) (writes s) (eofbit s) (failbit s) (badbit s).
Definition with_ppos (p : nat) (s : stream) : stream :=
  Stream (content s) (gpos s) p (writes s) (eofbit s) (failbit s) (badbit s).
Definition good (s : stream) : bool := negb (eofbit s || failbit s || badbit s).
Definition fail (s : stream) : bool := failbit s || badbit s.
Definition setfail (s : stream) : stream := with_bits (eofbit s) true (badbit s) s.
Definition clear (s : stream) : stream := with_bits false false false s.

(** The sentry of an input or output function: on a stream that is not good it sets failbit. *)
Definition sentry (s : stream) : bool * stream := if good s then (true, s) else (false, setfail s).

(** istream::read; the bytes stored are those counted by gcount(). *)
Definition istream_read (n : nat) (s : stream) : list N * stream :=
  let (ok, s1) := sentry s in
  if ok then
    let got := firstn n (skipn (gpos s1) (content s1)) in
    let s2 := with_gpos (gpos s1 + length got) s1 in
    (got, if length got <? n then with_bits true true (badbit s2) s2 else s2)
  else ([], s1).

(** The origins beg, cur and end. *)
Inductive seekdir := dir_beg | dir_cur | dir_end.

(** The position a seek asks for. *)
Definition target (s : stream) (pos : nat) (off : Z) (d : seekdir) : Z :=
  match d with
  | dir_beg => off
  | dir_cur => Z.of_nat pos + off
  | dir_end => Z.of_nat (length (content s)) + off
  end.
Definition reachable (dv : device) (s : stream) (t : Z) : bool :=
  seekable dv && (0 <=? t)%Z && (past_end dv || (t <=? Z.of_nat (length (content s)))%Z).

(** istream::seekg (clears eofbit first, as since C++11) and istream::tellg. *)
Definition istream_seekg (dv : device) (off : Z) (d : seekdir) (s : stream) : stream :=
  let (_, s1) := sentry (with_bits false (failbit s) (badbit s) s) in
  if fail s1 then s1
  else let t := target s1 (gpos s1) off d in
       if reachable dv s1 t then with_gpos (Z.to_nat t) s1 else setfail s1.
Definition istream_tellg (dv : device) (s : stream) : Z * stream :=
  let (_, s1) := sentry s in
  (if fail s1 then (-1)%Z else if seekable dv then Z.of_nat (gpos s1) else (-1)%Z, s1).

(** The content after the bytes [b] are stored at position [p]; a gap is filled with zeros. *)
Definition store_at (p : nat) (b l : list N) : list N :=
  match b with
  | [] => l
  | _ => firstn p (l ++ repeat 0%N (p - length l)) ++ b ++ skipn (p + length b) l
  end.

(** ostream::write: a device that does not take all bytes makes the stream bad. *)
Definition ostream_write (dv : device) (b : list N) (s : stream) : stream :=
  let (ok, s1) := sentry s in
  if ok then
    let put k e := Stream (store_at (ppos s1) (firstn k b) (content s1)) (gpos s1)
                          (ppos s1 + length (firstn k b)) (S (writes s1))
                          (eofbit s1) (failbit s1) e in
    match takes dv (writes s1) with
    | None => put (length b) (badbit s1)
    | Some k => if k <? length b then put k true else put (length b) (badbit s1)
    end
  else s1.

(** ostream::seekp and ostream::tellp. *)
Definition ostream_seekp (dv : device) (off : Z) (d : seekdir) (s : stream) : stream :=
  if fail s then s
  else let t := target s (ppos s) off d in
       if reachable dv s t then with_ppos (Z.to_nat t) s else setfail s.
Definition ostream_tellp (dv : device) (s : stream) : Z :=
  if fail s then (-1)%Z else if seekable dv then Z.of_nat (ppos s) else (-1)%Z.

(** ** The callbacks *)

(** SEEK_SET, SEEK_CUR, SEEK_END are 0, 1, 2; the switches of Image.cpp 225-238 and 267-280. *)
Definition origin_dir (origin : Z) : option seekdir :=
  match origin with
  | 0%Z => Some dir_beg
  | 1%Z => Some dir_cur
  | 2%Z => Some dir_end
  | _ => None
  end.

(** size*count is a product of two values of type unsigned int. *)
Definition product (size count : N) : N := u32 (size * count).

(** readIStream, Image.cpp 209-214: the answer, and the bytes left in the buffer. *)
Definition readIStream (size count : N) (s : stream) : N * list N * stream :=
  let (got, s') := istream_read (N.to_nat (product size count)) s in
  (u32 (N.of_nat (length got)), got, s').

(** writeIStream, Image.cpp 216-219. *)
Definition writeIStream : N := 0%N.

(** seekIStream, Image.cpp 221-241. *)
Definition seekIStream (dv : device) (off origin : Z) (s : stream) : Z * stream :=
  match origin_dir origin with
  | None => ((-1)%Z, s)
  | Some d => let s' := istream_seekg dv off d s in ((if good s' then 0 else -1)%Z, s')
  end.

(** tellIStream, Image.cpp 243-247. *)
Definition tellIStream (dv : device) (s : stream) : Z * stream := istream_tellg dv s.

(** readOStream, Image.cpp 251-254: nothing is stored in the buffer. *)
Definition readOStream : N := 0%N.

(** writeOStream, Image.cpp 256-261: [buf] is the memory the pointer leads to. *)
Definition writeOStream (dv : device) (buf : list N) (size count : N) (s : stream) : N * stream :=
  (product count size, ostream_write dv (firstn (N.to_nat (product size count)) buf) s).

(** seekOStream, Image.cpp 263-283. *)
Definition seekOStream (dv : device) (off origin : Z) (s : stream) : Z * stream :=
  match origin_dir origin with
  | None => ((-1)%Z, s)
  | Some d => let s' := ostream_seekp dv off d s in ((if good s' then 0 else -1)%Z, s')
  end.

(** tellOStream, Image.cpp 285-289. *)
Definition tellOStream (dv : device) (s : stream) : Z := ostream_tellp dv s.

(** ** FreeImage *)

(** A program with result [A]: the requests of the four callbacks, in any order, each depending on
    the answers to the earlier ones.  A read is answered by a count and the bytes stored. *)
Inductive client (A : Type) : Type :=
  | Done (a : A)
  | Read (size count : N) (k : N -> list N -> client A)
  | Write (buf : list N) (size count : N) (k : N -> client A)
  | Seek (off origin : Z) (k : Z -> client A)
  | Tell (k : Z -> client A).
Arguments Done {A} _.
Arguments Read {A} _ _ _.
Arguments Write {A} _ _ _ _.
Arguments Seek {A} _ _ _.
Arguments Tell {A} _.

(** A program that uses istreamIO, Image.cpp 249. *)
Fixpoint on_istream {A} (dv : device) (c : client A) (s : stream) : A * stream :=
  match c with
  | Done a => (a, s)
  | Read size count k => let '(r, got, s') := readIStream size count s in on_istream dv (k r got) s'
  | Write _ _ _ k => on_istream dv (k writeIStream) s
  | Seek off o k => let (r, s') := seekIStream dv off o s in on_istream dv (k r) s'
  | Tell k => let (r, s') := tellIStream dv s in on_istream dv (k r) s'
  end.

(** A program that uses ostreamIO, Image.cpp 291. *)
Fixpoint on_ostream {A} (dv : device) (c : client A) (s : stream) : A * stream :=
  match c with
  | Done a => (a, s)
  | Read _ _ k => on_ostream dv (k readOStream []) s
  | Write buf size count k => let (r, s') := writeOStream dv buf size count s in on_ostream dv (k r) s'
  | Seek off o k => let (r, s') := seekOStream dv off o s in on_ostream dv (k r) s'
  | Tell k => on_ostream dv (k (tellOStream dv s)) s
  end.

(** ** Image::load and Image::save *)

(** The loop of readStreamData, Shared.cpp 37-45.  Every round but the last reads at least one
    byte, so one more round than there are bytes is always enough: [None] is never the answer
    (StreamProofs.v). *)
Fixpoint read_chunks (fuel : nat) (out : list N) (s : stream) : option (list N * stream) :=
  match fuel with
  | O => None
  | S fuel' =>
      let (got, s') := istream_read 4096 s in
      match got with
      | [] => Some (out, s')
      | _ => read_chunks fuel' (out ++ got) s'
      end
  end.

(** readStreamData, Shared.cpp 23-56. *)
Definition readStreamData (dv : device) (s : stream) : option (list N * stream) :=
  let s1 := istream_seekg dv 0 dir_end s in
  let (pos, s2) := istream_tellg dv s1 in
  if (pos <? 0)%Z then read_chunks (S (length (content s2))) [] (clear s2)
  else
    let s3 := istream_seekg dv 0 dir_beg s2 in
    let (got, s4) := istream_read (Z.to_nat pos) s3 in
    Some (got ++ skipn (length got) (repeat 0%N (Z.to_nat pos)), s4).

Section Load.

(** FreeImage's part: the programs that recognise a file type and decode a file, and its streams
    on memory ([OpenMemory] may fail; the programs run on memory by [on_memory]). *)
Variables fmt bitmap : Type.
Variable detect : client (option fmt).
Variable decode : fmt -> client (option bitmap).
Variable memory : Type.
Variable openMemory : list N -> option memory.
Variable on_memory : forall A, client A -> memory -> A * memory.

(** Image::load from memory, Image.cpp 903-922, up to what FreeImage hands to
    Impl::create (ImageObjectModel.v goes on from there).  [None] is a null pointer or a failure
    before.  The size is cast to a 32-bit DWORD. *)
Definition loadMemory (data : list N) : option bitmap :=
  match openMemory (firstn (N.to_nat (u32 (N.of_nat (length data)))) data) with
  | None => None
  | Some m =>
      let (f, m1) := on_memory _ detect m in
      match f with
      | None => None
      | Some f => fst (on_memory _ (decode f) m1)
      end
  end.

(** Image::load from a stream, Image.cpp 882-901.  The outer [option] is the fuel of
    readStreamData. *)
Definition loadStream (dv : device) (s : stream) : option (option bitmap) :=
  let (pos, s1) := istream_tellg dv s in
  if (pos <? 0)%Z then
    match readStreamData dv s1 with
    | None => None
    | Some (data, _) => Some (loadMemory data)
    end
  else
    let (f, s2) := on_istream dv detect s1 in
    match f with
    | None => Some None
    | Some f => Some (fst (on_istream dv (decode f) s2))
    end.

End Load.

Section Save.

(** FreeImage's part: the file type of a name, and the programs that encode a bitmap. *)
Variables fmt bitmap : Type.
Variable typeOf : list N -> option fmt.
Variable encode : fmt -> bitmap -> client bool.

(** Image::save to a stream, Image.cpp 936-946; [im] is [None] for an empty
    image. *)
Definition saveStream (dv : device) (im : option bitmap) (name : list N) (s : stream) : bool * stream :=
  match im with
  | None => (false, s)
  | Some b =>
      match typeOf name with
      | None => (false, s)
      | Some f => on_ostream dv (encode f b) s
      end
  end.

(** A new std::stringstream: it can be positioned up to its end and takes every byte. *)
Definition string_device : device := Device true false (fun _ => None).
Definition empty_stream : stream := Stream [] 0 0 0 false false false.

(** Image::save to a vector, Image.cpp 948-958; [old] is what the vector held. *)
Definition saveVector (im : option bitmap) (name old : list N) : option (bool * list N) :=
  let (ok, s) := saveStream string_device im name empty_stream in
  if ok then
    match readStreamData string_device s with
    | None => None
    | Some (out, _) => Some (true, out)
    end
  else Some (false, old).

End Save.

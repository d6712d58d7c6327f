(** The writers of the three containers, Texture::save and readStreamData.
    lib/src/SaveDds.cpp, SaveKtx.cpp, SavePvr.cpp, Shared.h, Shared.cpp and
    lib/src/Texture.cpp 939-957 and 1638-1683.  The format tables are in
    SaveFormats.v.

    Integers are written in host byte order; the host is assumed to be
    little-endian (the KTX and DDS magic numbers rely on it as well). *)
From Coq Require Import NArith List Bool.
From Verif Require Import Base FormatModel SaveFormats TextureModel.
Import ListNotations.
Local Open Scope N_scope.

(** FOURCC, lib/src/Shared.h 24-25. *)
Definition FOURCC (a b c d : N) : N := a + 256 * b + 65536 * c + 16777216 * d.

Definition le4 (n : N) : list N := le_bytes 4 n.
Definition le8 (n : N) : list N := le_bytes 8 n.

(** Texture::format() as the writers use it: Format::Unknown before a conversion. *)
Definition fmt {C} (t : texture C) : format :=
  match formatOf t with Some f => f | None => F_Unknown end.

(** [data + off .. data + off + n]; [None] reads outside the buffer. *)
Definition slice (b : list N) (off n : N) : option (list N) :=
  if off + n <=? N.of_nat (length b)
  then Some (firstn (N.to_nat n) (skipn (N.to_nat off) b)) else None.

Section Writers.
Context {C : Type}.
(** An output stream: its state, the effect of ostream::write / put, and
    ostream::good.  Arbitrary here. *)
Context {S : Type} (put : S -> list N -> S) (good : S -> bool).

(** What a writer returns, and the stream it leaves; [None] is undefined
    behaviour (an access outside an array, or reading an uninitialised field). *)
Definition result : Type := option (saveresult * S).

(** [if (!write(stream, value)) return WriteError;], lib/src/Shared.h 40-45; also
    the form [stream.write(...); if (!stream.good()) return WriteError;]. *)
Definition wr (bs : list N) (k : S -> result) (s : S) : result :=
  let s' := put s bs in if good s' then k s' else Some (SR_WriteError, s').

(** [for (i = 0; i < n; ++i) body], where the body may return early. *)
Definition floop (n : N) (body : N -> (S -> result) -> S -> result) (k : S -> result)
  : S -> result :=
  fold_right body k (Nrange n).

Definition done (s : S) : result := Some (SR_Success, s).

(** [stream.write(texture.data(face, level, d), texture.dataSize(face, level, d))]
    with its check.  A null pointer comes with size 0. *)
Definition wr_data (t : texture C) (f level d : N) (k : S -> result) (s : S) : result :=
  obind (dataF t f level d) (fun b =>
  wr (match b with Some bs => bs | None => [] end) k s).

(** computePitch, lib/src/SaveDds.cpp 553-558. *)
Definition computePitch (t : texture C) : N :=
  u32 (u32 (width t 0 + blockWidth (fmt t) - 1) / blockWidth (fmt t) * blockSize (fmt t)).

Definition is3D (t : texture C) : bool := match dimensionOf t with Dim3D => true | _ => false end.
Definition is1D (t : texture C) : bool := match dimensionOf t with Dim1D => true | _ => false end.
Definition isCube (t : texture C) : bool := match dimensionOf t with Cube => true | _ => false end.

(** The DdsHeader filled in lib/src/SaveDds.cpp 575-608, in the field order of
    220-239 (flag values 28-68).  31 words, no padding. *)
Definition dds_header (t : texture C) : list N :=
  let flags := N.lor (N.lor 0x1007 0x20000) 0x8 in
  let flags := if is3D t then N.lor flags 0x800000 else flags in
  let caps := 0x1000 in
  let caps := if 1 <? mipLevelCount t then N.lor caps 0x400000 else caps in
  let caps := if (1 <? mipLevelCount t) || is3D t || is3D t || isArray t
              then N.lor caps 0x8 else caps in
  let caps2 := if isCube t then 0xFE00 else if is3D t then 0x200000 else 0 in
  [124; flags; height t 0; width t 0; computePitch t;
   (if is3D t then depth t 0 else 0); mipLevelCount t]
  ++ repeat 0 11
  ++ [32; 0x4; FOURCC 68 88 49 48; 0; 0; 0; 0; 0]   (* "DX10" *)
  ++ [caps; caps2; 0; 0; 0].

(** The DdsHeaderDxt10 filled in lib/src/SaveDds.cpp 613-660. *)
Definition dds_header10 (t : texture C) (code : N) : list N :=
  let dim := match dimensionOf t with Dim1D => 2 | Dim2D => 3 | Dim3D => 4 | Cube => 3 end in
  let misc := if isCube t then 0x4 else 0 in
  let arraySize := if is3D t then 1 else depth t 0 in
  let misc2 := if hasAlpha (fmt t)
               then match alphaOf t with
                    | AlphaNone => 3
                    | AlphaStandard => 1
                    | AlphaPreMultiplied => 2
                    | AlphaEncoded => 4
                    end
               else 3 in
  [code; dim; misc; arraySize; misc2].

(** saveDds, lib/src/SaveDds.cpp 565-683. *)
Definition saveDds (t : texture C) (s : S) : result :=
  let code := getDdsFormat (fmt t) (typeOf t) (colorSpaceOf t) in
  if code =? DdsDxt10Format_UNKNOWN then Some (SR_Unsupported, s)
  else
  (wr (le4 0x20534444)
   (wr (flat_map le4 (dds_header t))
   (wr (flat_map le4 (dds_header10 t code))
   (floop (if isArray t then depth t 0 else 1) (fun element =>
    floop (faceCount t) (fun face =>
    floop (mipLevelCount t) (fun level =>
    floop (if is3D t then depth t level else 1) (fun volume =>
    wr_data t face level (volume + element)))))
    done)))) s.

(** The 12-byte identifier, lib/src/SaveKtx.cpp 191-194. *)
Definition ktx_identifier : list N := [0xAB; 75; 84; 88; 32; 49; 49; 0xBB; 13; 10; 26; 10].

(** The five words of FormatInfo as they are in memory; an unassigned field is
    undefined. *)
Definition ktx_info_words (i : ktxinfo) : option (list N) :=
  omap (fun x => x) [ki_type i; ki_typeSize i; ki_format i; ki_internalFormat i;
                     ki_baseInternalFormat i].

(** dataSize(face, level, d), Texture.cpp 1608-1617. *)
Definition dataSizeF (t : texture C) (f level d : N) : option N :=
  obind (dataF t f level d) (fun b =>
  Some (match b with Some bs => N.of_nat (length bs) | None => 0 end)).

(** imageSize of one level, lib/src/SaveKtx.cpp 1226-1246, in 32-bit arithmetic. *)
Definition ktx_image_size (t : texture C) (level : N) : option N :=
  let fs := blockSize (fmt t) in
  obind (if 1 <? blockWidth (fmt t)
         then obind (dataSizeF t 0 level 0) (fun sz =>
              Some (fold_left (fun acc _ => u32 (acc + u32 sz)) (Nrange (depth t level)) 0))
         else Some (fold_left (fun acc _ =>
                u32 (acc + u32 (u32 (u32 (u32 (width t level * fs) + 3) / 4 * 4) * height t level)))
                (Nrange (depth t level)) 0)) (fun n =>
  Some (if isArray t then u32 (n * faceCount t) else n)).

(** [stream.write(data, rowSize)] followed by [padding] times [stream.put(0)] and
    one check, lib/src/SaveKtx.cpp 1276-1283.  [b] is what data() returned. *)
Definition wr_row (b : option (list N)) (rowSize padding y : N) (k : S -> result) (s : S) : result :=
  obind (match b with
         | Some bs => slice bs (y * rowSize) rowSize
         | None => if rowSize =? 0 then Some [] else None
         end) (fun row =>
  let s := put s row in
  let s := fold_left (fun s _ => put s [0]) (Nrange padding) s in
  if good s then k s else Some (SR_WriteError, s)).

(** One surface of an uncompressed format, lib/src/SaveKtx.cpp 1268-1284. *)
Definition wr_rows (t : texture C) (f level d : N) (k : S -> result) (s : S) : result :=
  obind (dataF t f level d) (fun b =>
  let rowSize := u32 (width t level * blockSize (fmt t)) in
  let padding := rowSize mod 4 in
  let padding := if negb (padding =? 0) then 4 - padding else padding in
  floop (height t level) (wr_row b rowSize padding) k s).

(** saveKtx, lib/src/SaveKtx.cpp 1189-1290. *)
Definition saveKtx (t : texture C) (s : S) : result :=
  match getFormatInfo (fmt t) (typeOf t) (colorSpaceOf t) with
  | None => Some (SR_Unsupported, s)
  | Some info =>
      obind (ktx_info_words info) (fun words =>
      (wr ktx_identifier
      (wr (le4 0x04030201)
      (wr (flat_map le4 words)
      (wr (le4 (width t 0))
      (wr (le4 (if is1D t then 0 else height t 0))
      (wr (le4 (if is3D t then depth t 0 else 0))
      (wr (le4 (if isArray t then depth t 0 else 0))
      (wr (le4 (faceCount t))
      (wr (le4 (mipLevelCount t))
      (wr (le4 0)
      (floop (mipLevelCount t) (fun level k s =>
         obind (ktx_image_size t level) (fun imageSize =>
         (wr (le4 imageSize)
         (floop (depth t level) (fun d =>
          floop (faceCount t) (fun face =>
          if 1 <? blockWidth (fmt t) then wr_data t face level d else wr_rows t face level d)) k)) s))
       done))))))))))) s)
  end.

(** savePvr, lib/src/SavePvr.cpp 478-600. *)
Definition savePvr (t : texture C) (s : S) : result :=
  match getPixelFormat (fmt t) (alphaOf t) with
  | None => Some (SR_Unsupported, s)
  | Some pixelFormat =>
      let bc1 := match fmt t with F_BC1_RGB | F_BC1_RGBA => true | _ => false end in
      let code := match fmt t with
                  | F_BC1_RGBA => FOURCC 66 67 49 65   (* "BC1A" *)
                  | _ => FOURCC 66 67 49 0             (* "BC1\0" *)
                  end in
      let ctfs := FOURCC 67 84 70 83 in                (* "CTFS" *)
      let block key k := wr (le4 ctfs) (wr (le4 key) (wr (le4 4) (wr (le4 0) k))) in
      let metadataSize := (if bc1 then 16 else 0) + (if isArray t then 16 else 0)
                          + (if is1D t then 16 else 0) in
      let surfaces :=
        floop (mipLevelCount t) (fun level =>
        floop (depth t level) (fun d =>
        floop (faceCount t) (fun face =>
        wr_data t face level d))) done in
      (wr (le4 (FOURCC 80 86 82 3))                    (* "PVR\3" *)
      (wr (le4 (match alphaOf t with AlphaPreMultiplied => 0x2 | _ => 0 end))
      (wr (le8 pixelFormat)
      (wr (le4 (if cs_is_srgb (colorSpaceOf t) then 1 else 0))
      (wr (le4 (getChannelType (fmt t) (typeOf t)))
      (wr (le4 (height t 0))
      (wr (le4 (width t 0))
      (wr (le4 (if is3D t then depth t 0 else 1))
      (wr (le4 (if isArray t then depth t 0 else 1))
      (wr (le4 (faceCount t))
      (wr (le4 (mipLevelCount t))
      (if bc1 || isArray t || is1D t
       then wr (le4 metadataSize)
            ((if bc1 then block code else fun k => k)
            ((if isArray t then block (FOURCC 65 82 82 89) else fun k => k)   (* "ARRY" *)
            ((if is1D t then block (FOURCC 68 73 77 49) else fun k => k)      (* "DIM1" *)
             surfaces)))
       else wr (le4 0) surfaces)))))))))))) s
  end.

(** Texture::save(std::ostream&, FileType), Texture.cpp 1651-1667. *)
Definition save (t : texture C) (ft : filetype) (s : S) : result :=
  if negb (converted t) then Some (SR_Invalid, s)
  else match ft with
       | FT_DDS => saveDds t s
       | FT_KTX => saveKtx t s
       | FT_PVR => savePvr t s
       | FT_Auto => Some (SR_UnknownFormat, s)
       end.

End Writers.

(** A std::stringstream: writing never fails (allocation failure is not modelled). *)
Definition mem_put (s : list N) (bs : list N) : list N := s ++ bs.
Definition mem_good (_ : list N) : bool := true.

(** The read side of a stream in readStreamData: the bytes not yet read, and
    whether the stream is good.  istream::read(n) delivers [n] bytes, or all that
    is left and then sets eofbit and failbit; on a stream that is not good it
    delivers nothing (gcount() = 0). *)
Definition iread (n : nat) (s : list N * bool) : list N * (list N * bool) :=
  let '(rest, ok) := s in
  if ok then (firstn n rest, (skipn n rest, Nat.leb n (length rest))) else ([], s).

(** The loop of readStreamData, lib/src/Shared.cpp 34-44.  [fuel] bounds the number of
    iterations; [None] means it was not enough. *)
Fixpoint read_loop (fuel : nat) (chunk : nat) (out : list N) (s : list N * bool) : option (list N) :=
  match fuel with
  | O => None
  | S fuel' =>
      let '(got, s') := iread chunk s in
      match got with
      | [] => Some out
      | _ => read_loop fuel' chunk (out ++ got) s'
      end
  end.

(** readStreamData, lib/src/Shared.cpp 23-57, on a stream holding [content] with the read
    position at the start.  [tell] is what tellg() answers after seeking to the end:
    [None] when the stream cannot seek (the position then has not moved). *)
Definition readStreamData (fuel : nat) (content : list N) (tell : option N) : option (list N) :=
  match tell with
  | None => read_loop fuel 4096 [] (content, true)
  | Some size =>
      let out := repeat 0 (N.to_nat size) in
      let got := firstn (N.to_nat size) content in
      Some (got ++ skipn (length got) out)
  end.

(** Texture::save(std::vector&, FileType), Texture.cpp 1669-1683.  [old] is the previous
    content of the vector. *)
Definition saveVec {C} (fuel : nat) (seekable : bool) (t : texture C) (ft : filetype) (old : list N)
  : option (saveresult * list N) :=
  obind (save mem_put mem_good t ft []) (fun r =>
  match r with
  | (SR_Success, bytes) =>
      obind (readStreamData fuel bytes (if seekable then Some (N.of_nat (length bytes)) else None))
            (fun out => Some (SR_Success, out))
  | (other, _) => Some (other, old)
  end).

(** Lower-casing of one character in the C locale, as strcasecmp does. *)
Definition tolower (c : N) : N := if (65 <=? c) && (c <=? 90) then c + 32 else c.

(** strcasecmp(a, b) == 0. *)
Fixpoint strcaseeq (a b : list N) : bool :=
  match a, b with
  | [], [] => true
  | x :: a', y :: b' => (tolower x =? tolower y) && strcaseeq a' b'
  | _, _ => false
  end.

(** Texture::fileType, Texture.cpp 939-957.  A file name is the list of its characters,
    without the terminator. *)
Definition fileType (name : list N) : filetype :=
  let len := length name in
  let ends ext := Nat.leb (length ext) len && strcaseeq (skipn (len - length ext) name) ext in
  if ends [46; 100; 100; 115] then FT_DDS        (* ".dds" *)
  else if ends [46; 107; 116; 120] then FT_KTX   (* ".ktx" *)
  else if ends [46; 112; 118; 114] then FT_PVR   (* ".pvr" *)
  else FT_Auto.

(** A std::ofstream: bytes accepted by the stream but still in its buffer, the content of
    the file, the number of bytes the device still takes, and the state.  [bufsize] is the
    buffer size: a write that does not fit in the buffer sends everything to the device. *)
Record ofile := OFile { of_pending : list N; of_disk : list N; of_room : N; of_good : bool }.

Definition of_flush (s : ofile) : ofile :=
  let n := N.of_nat (length (of_pending s)) in
  OFile [] (of_disk s ++ firstn (N.to_nat (of_room s)) (of_pending s))
        (of_room s - n) (n <=? of_room s).

Definition of_put (bufsize : N) (s : ofile) (bs : list N) : ofile :=
  if of_good s then
    let s' := OFile (of_pending s ++ bs) (of_disk s) (of_room s) true in
    if N.of_nat (length (of_pending s')) <? bufsize then s' else of_flush s'
  else s.

(** Texture::save(const char*, FileType), Texture.cpp 1638-1649.  The file named [name] is
    opened for writing, which creates or truncates it; [room] is the space on the device
    ([None]: it cannot be opened).  The destructor of the stream flushes what is pending
    and ignores errors.  The answer is the result and the new content of the file, [None]
    when the file has not been touched. *)
Definition saveFile {C} (bufsize : N) (room : option N) (t : texture C)
  (name : option (list N)) (ft : filetype) : option (saveresult * option (list N)) :=
  match name with
  | None => Some (SR_Invalid, None)
  | Some nm =>
      if negb (converted t) then Some (SR_Invalid, None)
      else
        let ft := match ft with FT_Auto => fileType nm | _ => ft end in
        match room with
        | None => Some (SR_WriteError, None)
        | Some r =>
            obind (save (of_put bufsize) of_good t ft (OFile [] [] r true)) (fun res =>
            let '(c, s) := res in
            Some (c, Some (of_disk (if of_good s then of_flush s else s))))
        end
  end.

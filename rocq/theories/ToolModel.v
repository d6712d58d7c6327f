(** The helpers and the main program of the command line tool, tool/main.cpp.
    The library calls (loading, converting, saving) are parameters. *)

From Coq Require Import NArith ZArith List Bool.
From Verif Require Import Base FormatModel SaveFormats.
Import ListNotations.
Local Open Scope N_scope.

(** nextPO2, tool/main.cpp 41-51; unsigned int arithmetic wraps. *)
Definition nextPO2 (size : N) : N :=
  let size := (size + 4294967295) mod 4294967296 in          (* --size *)
  let size := N.lor size (N.shiftr size 1) in
  let size := N.lor size (N.shiftr size 2) in
  let size := N.lor size (N.shiftr size 4) in
  let size := N.lor size (N.shiftr size 8) in
  let size := N.lor size (N.shiftr size 16) in
  u32 (size + 1).

(** nearestPO2, tool/main.cpp 53-61. *)
Definition nearestPO2 (size : N) : N :=
  let next := nextPO2 size in
  let prev := N.shiftr next 1 in
  if prev =? 0 then next
  else if (next + 4294967296 - size) mod 4294967296 <? (size + 4294967296 - prev) mod 4294967296
       then next else prev.

(** getDimension, tool/main.cpp 108-145; the enumerators are those of
    tool/CommandLine.h 44-61.  [default: return size] converts an int to unsigned. *)
Definition getDimension (curDim width height : N) (size : Z) : N :=
  match size with
  | (-1)%Z => curDim
  | (-2)%Z => nextPO2 curDim
  | (-3)%Z => nearestPO2 curDim
  | (-4)%Z => width
  | (-5)%Z => nextPO2 width
  | (-6)%Z => nearestPO2 width
  | (-7)%Z => height
  | (-8)%Z => nextPO2 height
  | (-9)%Z => nearestPO2 height
  | (-10)%Z => N.min width height
  | (-11)%Z => nextPO2 (N.min width height)
  | (-12)%Z => nearestPO2 (N.min width height)
  | (-13)%Z => N.max width height
  | (-14)%Z => nextPO2 (N.max width height)
  | (-15)%Z => nearestPO2 (N.max width height)
  | _ => Z.to_N (size mod 4294967296)
  end.

(** * Creating the parent directory *)

(** A path is the list of its characters (no terminator); '/' is 47. *)
Definition slash : N := 47.

(** Answers of mkdir: success, failure with EEXIST, any other failure. *)
Inductive mkres := MkOk | MkExists | MkError.

(** std::string::find_first_of("/", pos): the first index >= pos holding a '/'. *)
Fixpoint find_slash (path : list N) (i : N) (pos : N) : option N :=
  match path with
  | [] => None
  | c :: t => if (pos <=? i) && (c =? slash) then Some i else find_slash t (i + 1) pos
  end.

(** c_str() of the path cut at [n]: the characters before the first NUL. *)
Fixpoint cstr (s : list N) : list N :=
  match s with [] => [] | c :: t => if c =? 0 then [] else c :: cstr t end.

(** The loop of createParentDir, tool/main.cpp 91-105 (POSIX branch).  [mk n p] is the answer of
    the [n]-th call of mkdir, with argument [p]; [n] is the number of calls made so far.  The
    result is the answer and the list of mkdir arguments; [fuel] bounds the iterations and
    [None] means that it was not enough. *)
Fixpoint cpd_loop (fuel : nat) (mk : N -> list N -> mkres) (path : list N) (prevPos n : N)
  : option (bool * list (list N)) :=
  match fuel with
  | O => None
  | S fuel' =>
      match find_slash path 0 (prevPos + 1) with
      | None => Some (true, [])
      | Some nextPos =>
          let arg := cstr (firstn (N.to_nat nextPos) path) in
          match mk n arg with
          | MkError => Some (false, [arg])
          | _ => obind (cpd_loop fuel' mk path nextPos (n + 1)) (fun r =>
                 Some (fst r, arg :: snd r))
          end
      end
  end.

(** createParentDir, tool/main.cpp 82-106. *)
Definition createParentDir (fuel : nat) (mk : N -> list N -> mkres) (path : list N)
  : option (bool * list (list N)) := cpd_loop fuel mk path 0 0.

(** * saveTexture and main *)

(** Observable effects of the tool on the file system, in order. *)
Inductive event :=
| EvSave (r : saveresult)          (* one call of Texture::save and its answer *)
| EvMkdir (path : list N).         (* one call of mkdir *)

(** What the library and the system answer during one run.  [e_parse], [e_load]: the answers of
    CommandLine::parse and loadImages; [e_convert]: Texture::convert; [e_save n]: the n-th call
    of Texture::save; [e_mkdir]: mkdir. *)
Record env := Env {
  e_parse : bool; e_load : bool; e_convert : bool;
  e_save : nat -> saveresult; e_mkdir : N -> list N -> mkres
}.

(** The end of saveTexture, tool/main.cpp 375-423: conversion, saving, and the second attempt after
    creating the parent directories.  (Lines 327-374 fill the texture and generate mipmaps; the
    answers of setImage and generateMipmaps are ignored there, see the note in DESIGN.md.) *)
Definition saveTexture (fuel : nat) (e : env) (createDir : bool) (output : list N)
  : option (bool * list event) :=
  if negb (e_convert e) then Some (false, [])
  else match e_save e 0 with
       | SR_Success => Some (true, [EvSave SR_Success])
       | SR_WriteError =>
           if createDir then
             obind (createParentDir fuel (e_mkdir e) output) (fun r =>
             let evs := EvSave SR_WriteError :: map EvMkdir (snd r) in
             if negb (fst r) then Some (false, evs)
             else match e_save e 1 with
                  | SR_Success => Some (true, evs ++ [EvSave SR_Success])
                  | x => Some (false, evs ++ [EvSave x])
                  end)
           else Some (false, [EvSave SR_WriteError])
       | x => Some (false, [EvSave x])
       end.

(** main, tool/main.cpp 427-442: the exit status and the events. *)
Definition main (fuel : nat) (e : env) (createDir : bool) (output : list N)
  : option (N * list event) :=
  if negb (e_parse e) then Some (1, [])
  else if negb (e_load e) then Some (2, [])
  else obind (saveTexture fuel e createDir output) (fun r =>
       Some ((if fst r then 0 else 3), snd r)).

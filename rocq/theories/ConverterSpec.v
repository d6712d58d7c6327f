(** What is claimed about the conversion of a surface: executions of the worker threads, and
    the expected contents of the output buffer. *)

From Coq Require Import NArith List Bool.
From Verif Require Import Base ConverterModel.
Import ListNotations.
Local Open Scope N_scope.

(** All writes go inside a buffer of [n] bytes. *)
Definition in_buf (n : nat) (ws : list (N * N)) := Forall (fun w => fst w < N.of_nat n) ws.

(** The byte writes of a job. *)
Definition writes {J} (process : J -> option (list (N * N))) (j : J) : list (N * N) :=
  match process j with Some ws => ws | None => [] end.

(** Every job can be processed, and together the jobs write every byte at most once and
    inside the buffer. *)
Definition jobs_ok {J} (process : J -> option (list (N * N))) (jobs : list J) (buf : list N)
  : Prop :=
  (forall j, In j jobs -> process j <> None) /\
  NoDup (map fst (flat_map (writes process) jobs)) /\
  in_buf (length buf) (flat_map (writes process) jobs).

(** States some schedule of [threads] workers leads to. *)
Inductive reach {J} (process : J -> option (list (N * N))) (jobs : list J) (buf0 : list N)
    (threads : nat) : machine -> Prop :=
| reach_init : reach process jobs buf0 threads (minit buf0 threads)
| reach_step : forall m m', reach process jobs buf0 threads m -> mstep process jobs m m' ->
    reach process jobs buf0 threads m'.

(** A total image of the given size. *)
Definition img {P} (w h : N) (px : N -> N -> P) : surface P :=
  Surface w h (fun r c => if (r <? h) && (c <? w) then Some (px r c) else None).

(** The encoder has a result of [sz]*[ch] bytes for every pixel of the image. *)
Definition enc_ok {P} (enc : P -> option (list N)) (sz ch w h : N) (px : N -> N -> P)
    (bytes : P -> list N) : Prop :=
  forall r c, r < h -> c < w ->
    enc (px r c) = Some (bytes (px r c)) /\ N.of_nat (length (bytes (px r c))) = sz * ch.

(** The expected file: the pixels' bytes, row by row. *)
Definition std_data {P} (w h : N) (px : N -> N -> P) (bytes : P -> list N) : list N :=
  flat_map (fun r => flat_map (fun c => bytes (px r c)) (Nrange w)) (Nrange h).

(** The footprint of block (x, y), row by row, with coordinates clamped to the image. *)
Definition footprint {P} (w h bx by_ : N) (px : N -> N -> P) (x y : N) : list P :=
  flat_map (fun j => map (fun i => px (N.min (y * by_ + j) (h - 1)) (N.min (x * bx + i) (w - 1)))
                         (Nrange bx)) (Nrange by_).

(** The part of 4x4 block (x, y) inside the image, row by row (ETC). *)
Definition inner {P} (w h : N) (px : N -> N -> P) (x y : N) : list P :=
  flat_map (fun j => map (fun i => px (y * 4 + j) (x * 4 + i)) (Nrange (N.min 4 (w - x * 4))))
           (Nrange (N.min 4 (h - y * 4))).

(** The expected file of a block format: the blocks' bytes, row of blocks by row of blocks. *)
Definition block_data (jx jy : N) (out : N -> N -> list N) : list N :=
  flat_map (fun y => flat_map (fun x => out x y) (Nrange jx)) (Nrange jy).

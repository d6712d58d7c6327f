(** What the helpers of the command line tool should do. *)

From Coq Require Import NArith List Bool.
Import ListNotations.
Local Open Scope N_scope.

Definition pow2 (p : N) : Prop := exists k, p = 2 ^ k.

(** Distance of two numbers. *)
Definition dist (a b : N) : N := N.max a b - N.min a b.

(** The directories that have to exist for a file: the prefixes of the path that end just
    before a '/', except an empty one, shortest first. *)
Definition parents (path : list N) : list (list N) :=
  map (fun i => firstn i path)
      (filter (fun i => match nth_error path i with Some c => c =? 47 | None => false end)
              (seq 1 (length path - 1))).

(** Independent vocabulary for C37: the normal of a height field.  Coordinates are those of the
    API, y counted downwards from the top row. *)

From Coq Require Import ZArith NArith Reals.
Local Open Scope R_scope.

(** The neighbours of position [i] of [n]: beyond an edge comes the opposite edge when the axis
    wraps, and the edge itself when it does not. *)
Definition before (wrap : bool) (n i : N) : N :=
  if wrap then ((i + n - 1) mod n)%N else (i - 1)%N.
Definition after (wrap : bool) (n i : N) : N :=
  if wrap then ((i + 1) mod n)%N else N.min (i + 1) (n - 1).
(** The distance over which the difference of the neighbours is taken: two samples, or one at
    the edge of an axis that does not wrap. *)
Definition gap (wrap : bool) (n i : N) : R :=
  if wrap then 2 else if ((i =? 0) || (i =? n - 1))%N%bool then 1 else 2.

(** The surface at ([x], [y]) of a [w] by [h] field of heights falls to the right by [fall_right]
    and upwards by [fall_up] per unit of distance, when heights are scaled by [s]. *)
Definition fall_right (wrap : bool) (w : N) (height : N -> N -> R) (s : R) (x y : N) : R :=
  (height (before wrap w x) y - height (after wrap w x) y) * s / gap wrap w x.
Definition fall_up (wrap : bool) (h : N) (height : N -> N -> R) (s : R) (x y : N) : R :=
  (height x (after wrap h y) - height x (before wrap h y)) * s / gap wrap h y.

(** The vector of length one along (a, b, 1). *)
Definition unit_x (a b : R) : R := a / sqrt (a * a + b * b + 1).
Definition unit_y (a b : R) : R := b / sqrt (a * a + b * b + 1).
Definition unit_z (a b : R) : R := 1 / sqrt (a * a + b * b + 1).

(** A component in [-1, 1] as it is to be stored: moved to [0, 1] unless the sign is kept. *)
Definition encoded (keep : bool) (v : R) : R := if keep then v else (v + 1) / 2.

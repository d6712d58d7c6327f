(** Resampling, written independently of the program: which source samples an output sample is
    an average of, over the real numbers.  [s] is the number of source samples along an axis,
    [n] the number of output samples, [o] the output sample, [i] a source sample. *)

From Coq Require Import ZArith NArith List Reals.
From Verif Require Import Base.
Import ListNotations.
Local Open Scope R_scope.

Definition NR (n : N) : R := IZR (Z.of_N n).

(** Sum of [f i] for i < n. *)
Definition total (n : N) (f : N -> R) : R := fold_right Rplus 0 (map f (Nrange n)).

(** Sample k covers [k, k+1) of its axis, so its centre is k + 1/2; the centre of output
    sample [o] in source coordinates. *)
Definition mid (i : N) : R := NR i + / 2.
Definition centre (s n o : N) : R := mid o * (NR s / NR n).
(** The extent of an output sample in source coordinates, at least one source sample. *)
Definition extent (s n : N) : R := Rmax (NR s / NR n) 1.

(** Box filter: the source samples whose centre lies in the extent of the output sample. *)
Definition box (s n o i : N) : R :=
  if Rlt_dec (centre s n o - extent s n / 2) (mid i) then
    if Rle_dec (mid i) (centre s n o + extent s n / 2) then 1 else 0
  else 0.
(** The same, with both ends included. *)
Definition closed_box (s n o i : N) : R :=
  if Rle_dec (Rabs (mid i - centre s n o)) (extent s n / 2) then 1 else 0.
(** Linear filter: the weight falls linearly to 0 at one extent from the centre. *)
Definition tent (s n o i : N) : R := Rmax 0 (1 - Rabs (mid i - centre s n o) / extent s n).

(** Weighted average along one axis. *)
Definition average (weight : N -> R) (s : N) (v : N -> R) : R :=
  total s (fun i => weight i * v i) / total s weight.

(** Weighted average over a w x h image whose value in column [x] of scanline [y] is [v x y]. *)
Definition average2 (wx wy : N -> R) (w h : N) (v : N -> N -> R) : R :=
  average wy h (fun y => average wx w (fun x => v x y)).

(** Weights a computation with rounding errors may use instead: a source sample whose centre is
    within 2^-18 of the edge of the extent may be counted either way, and a linear weight may be
    off by 2^-18. *)
Definition near_box (s n o : N) (weight : N -> R) : Prop :=
  (forall i, weight i = 0 \/ weight i = 1) /\
  (exists i, (i < s)%N /\ weight i = 1) /\
  forall i, (i < s)%N ->
    (Rabs (mid i - centre s n o) < extent s n / 2 - / 262144 -> weight i = 1) /\
    (extent s n / 2 + / 262144 < Rabs (mid i - centre s n o) -> weight i = 0).
Definition near_tent (s n o : N) (weight : N -> R) : Prop :=
  (exists i, (i < s)%N /\ / 2 <= weight i) /\
  forall i, (i < s)%N -> 0 <= weight i <= 1 /\ Rabs (weight i - tent s n o i) <= / 262144.

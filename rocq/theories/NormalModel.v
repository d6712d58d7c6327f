(** Model of Image::createNormalMap, lib/src/Image.cpp:1783-1880, over an arithmetic [A]. *)

From Coq Require Import ZArith NArith List Bool.
From Verif Require Import Base FormatModel FloatModel ArithModel TextureModel ImageModel.
Import ListNotations.
Local Open Scope N_scope.

(** Image::NormalOptions, lib/include/cuttlefish/Image.h:116-122: the three bits. *)
Record normal_options := NormalOptions { keepSign : bool; wrapX : bool; wrapY : bool }.

Section Normal.
Context {A : arith}.
Local Notation num := (num A).
Local Notation "x +! y" := (nadd A x y) (at level 50, left associativity).
Local Notation "x -! y" := (nsub A x y) (at level 50, left associativity).
Local Notation "x *! y" := (nmul A x y) (at level 40, left associativity).
Local Notation "x /! y" := (ndiv A x y) (at level 40, left associativity).

(** The choice of the neighbour before (Image.cpp:1799-1810 for scanlines, 1834-1845 for columns)
    and after (1812-1823, 1847-1858) position [i] of [n], and of the distance, which either
    choice may set to 1. *)
Definition prevIndex (wrap : bool) (n i : N) : N :=
  if i =? 0 then (if wrap then usub n 1 else i) else usub i 1.
Definition nextIndex (wrap : bool) (n i : N) : N :=
  if i =? usub n 1 then (if wrap then 0 else i) else u32 (i + 1).
Definition distance (wrap : bool) (n i : N) : num :=
  if (i =? usub n 1) && negb wrap then lit 1
  else if (i =? 0) && negb wrap then lit 1 else lit 2.

(** The colour of a pixel from the slopes, Image.cpp:1863-1874. *)
Definition normalColor (keep : bool) (dx dy : num) : color A :=
  let len := nsqrt A (dx *! dx +! dy *! dy +! lit 1) in
  let r := dx /! len in
  let g := dy /! len in
  let b := lit 1 /! len in
  if keep then C4 r g b (lit 1)
  else C4 (r *! half +! half) (g *! half +! half) (b *! half +! half) (lit 1).

(** The body of the loops, Image.cpp:1827-1860: the slopes at column [x] of scanline [y]. *)
Definition slopes (b : bitmap A) (o : normal_options) (height : num) (x y : N) : option (num * num) :=
  obind (getAt b x (prevIndex (wrapY o) (b_h b) y)) (fun c0 =>
  obind (getAt b x (nextIndex (wrapY o) (b_h b) y)) (fun c1 =>
  let dy := (c_r c0 -! c_r c1) *! height /! distance (wrapY o) (b_h b) y in
  obind (getAt b (prevIndex (wrapX o) (b_w b) x) y) (fun c0 =>
  obind (getAt b (nextIndex (wrapX o) (b_w b) x) y) (fun c1 =>
  let dx := (c_r c0 -! c_r c1) *! height /! distance (wrapX o) (b_w b) x in
  Some (dx, dy))))).

(** Image::createNormalMap, Image.cpp:1783-1880. *)
Definition createNormalMap (alloc : allocator A) (im : image A) (o : normal_options) (height : num)
    (dst : imgfmt) : option (image A) :=
  match im with
  | None => Some None
  | Some b =>
      match initialize alloc dst (b_w b) (b_h b) (b_cs b) with
      | None => Some None
      | Some d =>
          obind (loop 0 (b_h b) (fun y => loop 0 (b_w b) (fun x d' =>
            obind (slopes b o height x y) (fun s =>
            obind (setPixelImpl dst (normalColor (keepSign o) (fst s) (snd s))) (write d' x y)))) d)
          (fun d' => Some (Some d'))
      end
  end.

End Normal.

(** What a pixel of an uncompressed format should contain, in terms of the documented layout
    of the format (FormatSpec.v, ContainerSpec.v) and of real arithmetic (FloatSpec.v). *)

From Coq Require Import NArith ZArith Reals List Bool.
From Flocq Require Import Core IEEE754.Binary IEEE754.Bits.
From Verif Require Import Base FormatModel FormatSpec ContainerSpec FloatModel FloatSpec PixelModel.
Import ListNotations.

(** The colour channel a layout entry refers to. *)
Definition chan_val (p : rgba) (c : chan) : option float :=
  match c with
  | ChR => Some (pr p) | ChG => Some (pg p) | ChB => Some (pb p) | ChA => Some (pa p)
  | ChE => None
  end.

(** Read channel [c] of a word whose channels are laid out as [l] from the least significant
    bit upwards. *)
Fixpoint field (l : list (chan * N)) (c : chan) (w : N) : option N :=
  match l with
  | [] => None
  | (d, b) :: t =>
      if (chan_code c =? chan_code d)%N then Some (w mod 2 ^ b)%N
      else field t c (w / 2 ^ b)%N
  end.

(** Two's complement in [b] bits. *)
Definition twos (b : N) (z : Z) : N := Z.to_N (z mod 2 ^ Z.of_N b).

(** A 32-bit channel for which the value is past the end of the integer type. *)
Definition too_big (t : ttype) (b : N) (v : float) : bool :=
  (b =? 32)%N &&
  match v with
  | B754_infinity _ _ s => negb s
  | _ => Rle_bool (IZR (match t with T_Int => 2 ^ 31 | _ => 2 ^ 32 end)) (real v)
  end.

(** Largest value of a [b]-bit unsigned, resp. signed, channel. *)
Definition umax (b : N) : Z := (2 ^ Z.of_N b - 1)%Z.
Definition smax (b : N) : Z := (2 ^ (Z.of_N b - 1) - 1)%Z.

(** The number stored for [v] in a [b]-bit channel of type [t]; [None]: no defined result. *)
Definition quantum (pk : packers) (t : ttype) (b : N) (v : float) : option N :=
  match t with
  | T_UNorm =>
      if nan v then None
      else Some (Z.to_N (nearest (rnd32 (limit 0 1 v * IZR (umax b)))))
  | T_SNorm =>
      if nan v then None
      else Some (twos b (nearest (rnd32 (limit (-1) 1 v * IZR (smax b)))))
  | T_UInt =>
      if nan v || too_big t b v then None
      else Some (Z.to_N (nearest (limit 0 (IZR (umax b)) v)))
  | T_Int =>
      if nan v || too_big t b v then None
      else Some (twos b (nearest (limit (IZR (- smax b - 1)) (IZR (smax b)) v)))
  | T_Float =>
      if (b =? 32)%N then Some (Z.to_N (bits_of_b32 v))
      else Some (pack_half pk v mod 2 ^ b)%N
  | T_UFloat => None
  end.

(** Value of a two's complement field. *)
Definition sext (b : N) (r : N) : Z :=
  if (r <? 2 ^ (b - 1))%N then Z.of_N r else (Z.of_N r - 2 ^ Z.of_N b)%Z.

(** [bs] is what some build stores for pixel [p] in a texture of format [f] and type [t]. *)
Definition stores (pk : packers) (f : format) (t : ttype) (p : rgba) (bs : list N) : Prop :=
  exists fl c, createConverter fl f t = Some c /\ enc_px pk c p = Some bs.

(** Channel [c], [b] bits wide, of a stored pixel of format [f] contains [r]; it comes from
    the colour value [v] of pixel [p]. *)
Definition channel (f : format) (p : rgba) (bs : list N) (c : chan) (b : N) (v : float) (r : N) : Prop :=
  exists l, lsb_layout f = Some l /\ In (c, b) l /\ chan_val p c = Some v /\
            field l c (le_val bs) = Some r.

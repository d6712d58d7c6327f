(** What the encoders of compressed formats should be given by the tool, for a job that keeps the
    size of its inputs. *)

From Coq Require Import ZArith NArith List Bool Reals.
From Flocq Require Import Core IEEE754.Binary IEEE754.Bits.
From Verif Require Import Base FormatModel FormatSpec FloatModel FloatSpec ArithModel TextureModel
  ImageModel ImageSpec ImageConvertSpec.
From Verif Require Import PixelModel PixelSpec BlockModel BlockSpec CompressSpec EncodeModel EncodeSpec PropsImage CommandLineModel
  PipelineModel ToolImageModel ToolImageSpec.
Import ListNotations.
Local Open Scope R_scope.

(** Column and row of the pixels that block (x, y) of a picture of [w] x [h] is made of, row by row:
    past the edges the last column and row are repeated, but the encoder of ETC and EAC gets the part
    inside the picture only. *)
Definition positions (f : format) (w h bx by_ x y : N) : list (N * N) :=
  match family_of f with
  | Fam_Etc =>
      flat_map (fun j => map (fun i => (x * bx + i, y * by_ + j)%N) (Nrange (N.min bx (w - x * bx))))
        (Nrange (N.min by_ (h - y * by_)))
  | _ =>
      flat_map (fun j => map (fun i => (N.min (x * bx + i) (w - 1), N.min (y * by_ + j) (h - 1))%N) (Nrange bx))
        (Nrange by_)
  end.

(** The channels given to the encoder. *)
Definition encoded (f : format) : list (ImageConvertSpec.rgba -> R) :=
  match f with
  | F_BC4 => [red]
  | F_BC5 => [red; green]
  | _ => [red; green; blue; alpha]
  end.

(** What stands for the number [y]: a byte from 0 to 255 for [0, 1]; a byte in two's complement from
    -127 to 127 for [-1, 1]; a float within [e], as half a float or whole. *)
Definition byte_for (y : R) (z : Z) : Prop := (0 <= z <= 255)%Z /\ Rabs (IZR z - y * 255) <= 5 / 8.
Definition sbyte_for (y : R) (z : Z) : Prop :=
  (0 <= z <= 255)%Z /\ Rabs (IZR (sext 8 (Z.to_N z)) - y * 127) <= 5 / 8.
Definition float_for (e : R) (y : R) (v : float) : Prop := within_error e v y.
Definition half_for (pk : packers) (e : R) (y : R) (n : N) : Prop := exists v, float_for e y v /\ n = pack_half pk v.

(** What an encoder is given for pixels of the colours [cols], for a texture of type [t] of an input
    of format [inf]; [e] is the accuracy of floats.  The encoder of signed EAC wants [0, 1] for red
    and green. *)
Definition fed (e : R) (pk : packers) (f : format) (t : ttype) (inf : imgfmt) (p : payload)
    (cols : list ImageConvertSpec.rgba) : Prop :=
  let numbers (g : list (ImageConvertSpec.rgba -> R)) c := map (fun ch => number_for t inf (ch c)) g in
  match p with
  | PBytes l => t = T_UNorm /\ Forall2 (fun c => Forall2 byte_for (numbers (encoded f) c)) cols l
  | PSigned l => t = T_SNorm /\ Forall2 (fun c => Forall2 sbyte_for (numbers (encoded f) c)) cols l
  | PHalf l => Forall2 (fun c => Forall2 (half_for pk e) (numbers [red; green; blue] c)) cols l
  | PHalf4 l => Forall2 (fun c => Forall2 (half_for pk e) (numbers [red; green; blue; alpha] c)) cols l
  | PFloat _ _ l =>
      Forall2 (fun c v =>
        float_for e (number_for t inf (blue c)) (pb v) /\ float_for e (number_for t inf (alpha c)) (pa v) /\
        if type_eqb t T_SNorm then
          float_for e ((number_for t inf (red c) + 1) / 2) (pr v) /\
          float_for e ((number_for t inf (green c) + 1) / 2) (pg v)
        else float_for e (number_for t inf (red c)) (pr v) /\ float_for e (number_for t inf (green c)) (pg v)) cols l
  end.

(** The kind of payload of a format, and the size it is given as. *)
Definition suits (ispc : bool) (f : format) (t : ttype) (w h bx by_ x y : N) (p : payload) : Prop :=
  match family_of f, f, t, p with
  | Fam_Etc, _, _, PFloat bw bh _ => bw = N.min bx (w - x * bx) /\ bh = N.min by_ (h - y * by_)
  | Fam_Astc, _, _, PFloat bw bh _ => bw = bx /\ bh = by_
  | Fam_S3tc, F_BC6H, T_UFloat, PHalf4 _ => ispc = true
  | Fam_S3tc, F_BC6H, T_UFloat, PHalf _ => ispc = false
  | Fam_S3tc, F_BC6H, T_Float, PHalf _ => True
  | Fam_S3tc, _, T_UNorm, PBytes _ => True
  | Fam_S3tc, _, T_SNorm, PSigned _ => True
  | _, _, _, _ => False
  end%N.

(** The bytes the converter writes itself: for BC2 the sixteen alphas, four bits each, two per byte. *)
Definition own_bytes (f : format) (cols : list ImageConvertSpec.rgba) (own : list N) : Prop :=
  match f with
  | F_BC2 => length own = 8%nat /\
      forall i c, nth_error cols i = Some c ->
      exists b, nth_error own (i / 2) = Some b /\
        Rabs (IZR (Z.of_N ((if Nat.even i then b else b / 16) mod 16)) - alpha c * 15) <= 5 / 8
  | _ => own = []
  end.

(** [data] holds, row by row, the blocks of the processed image: each is what the encoder answers
    when it is given the colours of the pixels of the input the block shows.  The settings of the call
    are those of C61: the call is the request of the converter [cv] for some pixels. *)
Definition block_shows {pw} (W : world) (cv : converter) (a : cl) (s : bitmap (double_arith pw)) (data : list N) : Prop :=
  let '(w, h) := if c_rotate a && match c_rotateAngle a with CW180 | CCW180 => false | _ => true end
                 then (b_h s, b_w s) else (b_w s, b_h s) in
  match layout_of (c_fmt a) with
  | Blocks bx by_ bs _ =>
      N.of_nat (length data) = (cdiv w bx * cdiv h by_ * bs)%N /\
      forall x y, (x < cdiv w bx)%N -> (y < cdiv h by_)%N ->
      let cols := map (fun pos => let '(x0, y0) := origin a (b_w s) (b_h s) (fst pos) (snd pos) in
                                  processed a (meaning pw (b_fmt s) (at_ pw s x0 y0)))
                    (positions (c_fmt a) w h bx by_ x y) in
      exists own call px,
        bytes_at data ((y * cdiv w bx + x) * bs) bs = own ++ wo_enc W call /\
        option_map r_call (block_request W (c_textureCS a) cv (convert_args a) (c_textureCS a) w h px x y) = Some call /\
        own_bytes (c_fmt a) cols own /\
        suits (bd_ispc (wo_build W)) (c_fmt a) (c_ttyp a) w h bx by_ x y (payload_of call) /\
        fed (if coarse a then / IZR (2 ^ 11) else / IZR (2 ^ 18)) (wo_pack W) (c_fmt a) (c_ttyp a) (b_fmt s) (payload_of call) cols
  | _ => False
  end.

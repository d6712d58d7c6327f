(** What the file holds when the format packs three numbers into one word of 32 bits:
    B10G11R11_UFloat and E5B9G9R9_UFloat, whose words glm computes. *)

From Coq Require Import ZArith NArith List Bool Reals.
From Verif Require Import Base FormatModel ContainerSpec ArithModel ImageModel ImageSpec ImageConvertSpec.
From Verif Require Import FormatSpec BlockSpec CompressSpec.
From Verif Require Import PixelModel PixelSpec CommandLineModel ToolImageModel ToolImageSpec.
Import ListNotations.
Local Open Scope N_scope.

(** [data] holds, row by row, one little-endian word of 32 bits for each pixel: the packer's answer
    to floats within 2^-19 of the red, green and blue of the colour the input's pixel has become. *)
Definition shows_packed {pw} (pk : packers) (a : cl) (s : bitmap (double_arith pw)) (data : list N) : Prop :=
  let '(W, H) := if c_rotate a && match c_rotateAngle a with CW180 | CCW180 => false | _ => true end
                 then (b_h s, b_w s) else (b_w s, b_h s) in
  N.of_nat (length data) = W * H * 4 /\
  forall x y, x < W -> y < H ->
    let '(x0, y0) := origin a (b_w s) (b_h s) x y in
    let c := processed a (meaning pw (b_fmt s) (at_ pw s x0 y0)) in
    exists r g b, within_error (/ IZR (2 ^ 19)) r (red c) /\ within_error (/ IZR (2 ^ 19)) g (green c) /\
      within_error (/ IZR (2 ^ 19)) b (blue c) /\
      ((c_fmt a = F_B10G11R11_UFloat /\ le_val (bytes_at data ((y * W + x) * 4) 4) = pack_111110 pk r g b mod 2 ^ 32) \/
       (c_fmt a = F_E5B9G9R9_UFloat /\ le_val (bytes_at data ((y * W + x) * 4) 4) = pack_9995 pk r g b mod 2 ^ 32)).

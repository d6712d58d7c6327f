(** Texture::adjustImageValueRange, lib/src/Texture.cpp:959-1086. *)

From Coq Require Import ZArith NArith List Bool.
From Flocq Require Import IEEE754.BinarySingleNaN IEEE754.Binary IEEE754.Bits.
From Verif Require Import Base FormatModel FloatModel ArithModel TextureModel ImageModel.
Import ListNotations.
Local Open Scope N_scope.

(** [x + y] and [x - y] on [float]. *)
Definition fadd (x y : float) : float := b32_plus mode_NE x y.
Definition fsub (x y : float) : float := b32_minus mode_NE x y.

(** [std::round] on [float]: the nearest integer as a [float] (see [roundZ]), with the sign of
    the argument when it is zero; NaN and the infinities stay. *)
Definition fround (x : float) : float :=
  match roundZ x with
  | Some z => binary_normalize 24 128 eq_refl eq_refl mode_NE z 0 (Bsign 24 128 x)
  | None => x
  end.

Section Adjust.
Context (pw : double -> double -> double).
Local Notation D := (double_arith pw).

(** The formats whose values are remapped, 969-979. *)
Definition remapped (f : imgfmt) : bool :=
  match f with
  | I_Gray8 | I_Gray16 | I_RGB5 | I_RGB565 | I_RGB8 | I_RGB16 | I_RGBA8 | I_RGBA16 => true
  | _ => false
  end.

(** The float format and channel count chosen for the image, 981-1017; [None] is the
    [default: return]. *)
Definition floatFormat (f : imgfmt) : option (imgfmt * N) :=
  match f with
  | I_Gray8 | I_Gray16 | I_Double | I_Float => Some (I_Float, 1)
  | I_RGB5 | I_RGB565 | I_RGB8 | I_RGB16 | I_Complex | I_RGBF => Some (I_RGBF, 3)
  | I_RGBA8 | I_RGBA16 | I_RGBAF => Some (I_RGBAF, 4)
  | I_Int16 | I_UInt16 | I_Int32 | I_UInt32 => None
  end.

(** The tables [multiply] and [offset], 1030-1067; [None] is the [default: return]. *)
Definition multiplyTable (orig : imgfmt) : option (list Z) :=
  match orig with
  | I_Gray8 | I_RGB8 | I_RGBA8 => Some [255; 255; 255; 255]%Z
  | I_Gray16 | I_RGB16 | I_RGBA16 => Some [65535; 65535; 65535; 65535]%Z
  | I_RGB5 => Some [31; 31; 31; 0]%Z
  | I_RGB565 => Some [31; 63; 31; 0]%Z
  | _ => None
  end.
Definition offsetTable (ty : ttype) (orig : imgfmt) : list Z :=
  match ty with
  | T_Int =>
      match orig with
      | I_Gray8 | I_RGB8 | I_RGBA8 => [-128; -128; -128; -128]%Z
      | I_Gray16 | I_RGB16 | I_RGBA16 => [-32768; -32768; -32768; -32768]%Z
      | I_RGB5 => [-16; -16; -16; 0]%Z
      | I_RGB565 => [-16; -32; -16; 0]%Z
      | _ => [0; 0; 0; 0]%Z
      end
  | _ => [0; 0; 0; 0]%Z
  end.

(** [scanline[x]*2.0f - 1.0f], 1025. *)
Definition snormValue (v : float) : float := fsub (fmul v (float_of_Z 2)) (float_of_Z 1).

(** [std::round(scanline[...]*multiply[c] + offset[c])], 1076-1077. *)
Definition intValue (m o : Z) (v : float) : float :=
  fround (fadd (fmul v (float_of_Z m)) (float_of_Z o)).

(** One pixel of a float image with [cc] channels: channel [c] is replaced by [f c].
    Anything else in memory is not an array of floats of that shape. *)
Definition onChannels (cc : N) (f : N -> float -> float) (p : pix D) : option (pix D) :=
  match p with
  | PF l =>
      if N.of_nat (length l) =? cc
      then Some (@PF D (map (fun ci => f (fst ci) (snd ci)) (combine (Nrange cc) l)))
      else None
  | _ => None
  end.

(** The loops 1020-1026 and 1070-1080 over the rows from the top and over the floats of a row.
    Simplification: the first one runs over [width*channelCount] floats; here, as in the
    second, over the pixels and their channels (the same floats in the same order, as long as
    the product is below 2^32). *)
Definition mapFloats (cc : N) (f : N -> float -> float) (b : bitmap D) : option (bitmap D) :=
  loop 0 (b_h b) (fun y =>
    loop 0 (b_w b) (fun x b' =>
      let y' := scanlineOf (b_h b') y in
      obind (read b' x y') (fun p =>
      obind (onChannels cc f p) (write b' x y')))) b.

(** The whole function.  [orig] is origImageFormat ([None]: Invalid); [fi] is what FreeImage
    returns for the conversion, if it is asked. *)
Definition adjustImageValueRange (fi : option (N * N * (N -> N -> pix D)))
  (alloc : allocator D) (im : image D) (ty : ttype) (orig : option imgfmt)
  : option (image D) :=
  match im with
  | None => Some im
  | Some b =>
      let o := match orig with Some o => o | None => b_fmt b end in
      match ty with
      | T_SNorm | T_UInt | T_Int =>
          if remapped o then
            match floatFormat (b_fmt b) with
            | None => Some im
            | Some (f, cc) =>
                obind (convert fi alloc im f true) (fun im' =>
                match im' with
                | None => Some im'
                | Some b' =>
                    match ty with
                    | T_SNorm =>
                        obind (mapFloats cc (fun _ => snormValue) b') (fun b'' => Some (Some b''))
                    | _ =>
                        match multiplyTable o with
                        | None => Some im'
                        | Some mt =>
                            obind (mapFloats cc (fun c =>
                              intValue (nth (N.to_nat c) mt 0%Z)
                                       (nth (N.to_nat c) (offsetTable ty o) 0%Z)) b')
                              (fun b'' => Some (Some b''))
                        end
                    end
                end)
            end
          else Some im
      | _ => Some im
      end
  end.

End Adjust.

(** What a program sees of its images, and what FreeImage promises. *)

From Coq Require Import NArith List Bool.
From Verif Require Import Base FormatModel TextureModel ImageModel ImageConvertModel ImageObjectModel.
Import ListNotations.
Local Open Scope N_scope.

Section View.
Context {P S : Type}.

(** The address of the bitmap an image variable holds. *)
Definition holds_at (s : pstate P) (v : nat) (a : nat) : Prop :=
  exists im, ps_vars s v = Some (Some im) /\ p_bitmap im = a.

(** Everything in FreeImage's heap belongs to exactly one variable. *)
Definition no_leak (s : pstate P) : Prop :=
  forall a, h_at (ps_heap s) a <> None -> exists v, holds_at s v a.
Definition no_sharing (s : pstate P) : Prop :=
  forall v w a, holds_at s v a -> holds_at s w a -> v = w.
Definition no_dangling (s : pstate P) : Prop :=
  forall v a, holds_at s v a -> exists b, h_at (ps_heap s) a = Some (TBitmap b).

(** What can be learned about a variable: whether it is constructed, whether it holds an image,
    its descriptors and the whole bitmap. *)
Inductive seen := Unborn | Empty | Full (i : info) (b : fib P) | Broken.
Definition sees (s : pstate P) (v : nat) : seen :=
  match ps_vars s v with
  | None => Unborn
  | Some None => Empty
  | Some (Some im) =>
      match h_at (ps_heap s) (p_bitmap im) with
      | Some (TBitmap b) => Full (p_info im) b
      | _ => Broken
      end
  end.

(** The variables a statement changes. *)
Definition changed_by (c : stmt S) : list nat :=
  match c with
  | SNew v | SCopy v _ | SAssign v _ | SDelete v | SLoad v _ _ _ | SInit v _ _ _ _ | SReset v
  | SChange v _ | SConvert v _ _ _ | SResize v _ _ _ _ | SRotate v _ _ | SNormal v _ _ _ => [v]
  | SMove v u | SMoveAssign v u => [v; u]
  end.

(** FreeImage's promises.  A clone is equal to the original. *)
Definition clones_ok (W : world P S) : Prop :=
  forall n b b', w_make W n (RClone b) = Some b' -> b' = b.

(** Conversions to 24 and 32 bits make a bitmap without palette, of the same size. *)
Definition true_color (b : fib P) (bpp : N) : Prop :=
  f_type b = FIT_BITMAP /\ f_bpp b = bpp /\ f_red b = 0xFF0000 /\ f_green b = 0xFF00 /\ f_blue b = 0xFF /\
  f_palette b = false.
Definition unpalette_ok (W : world P S) : Prop :=
  forall n b b',
    (w_make W n (RTo24 b) = Some b' -> true_color b' 24 /\ f_w b' = f_w b /\ f_h b' = f_h b) /\
    (w_make W n (RTo32 b) = Some b' -> true_color b' 32 /\ f_w b' = f_w b /\ f_h b' = f_h b).

(** Bits of a pixel of each type. *)
Definition type_bits (t : fitype) : N :=
  match t with
  | FIT_UINT16 | FIT_INT16 => 16 | FIT_UINT32 | FIT_INT32 | FIT_FLOAT => 32 | FIT_DOUBLE => 64
  | FIT_COMPLEX => 128 | FIT_RGB16 => 48 | FIT_RGBA16 => 64 | FIT_RGBF => 96 | FIT_RGBAF => 128
  | FIT_BITMAP | FIT_OTHER => 0
  end.
(** A bitmap made by FreeImage_AllocateT: the size, type and depth asked for, no palette (8-bit
    bitmaps are gray), 16-bit masks as asked, the masks of true colour for 24 and 32 bits. *)
Definition allocates_ok (W : world P S) : Prop :=
  forall n t w h bpp r g bl b, w_make W n (RAlloc t w h bpp r g bl) = Some b ->
    f_type b = t /\ f_w b = w /\ f_h b = h /\ f_palette b = false /\
    (t = FIT_BITMAP -> f_bpp b = bpp) /\ (t <> FIT_BITMAP -> f_bpp b = type_bits t) /\
    ((f_red b, f_green b, f_blue b) =
       if match t with FIT_BITMAP => bpp =? 16 | _ => false end then (r, g, bl)
       else if match t with FIT_BITMAP => (bpp =? 24) || (bpp =? 32) | _ => false end
            then (0xFF0000, 0xFF00, 0xFF)
       else (0, 0, 0)).

(** FreeImage's copies and conversions keep the size, its rescaling makes the size asked for, its
    quarter turns swap width and height; 180 degrees keep them. *)
Definition sizes_ok (W : world P S) : Prop :=
  (forall n t w h bpp r g bl b, w_make W n (RAlloc t w h bpp r g bl) = Some b -> f_w b = w /\ f_h b = h) /\
  (forall n b b', w_make W n (RClone b) = Some b' -> f_w b' = f_w b /\ f_h b' = f_h b) /\
  (forall n b b', w_make W n (RTo24 b) = Some b' -> f_w b' = f_w b /\ f_h b' = f_h b) /\
  (forall n b b', w_make W n (RTo32 b) = Some b' -> f_w b' = f_w b /\ f_h b' = f_h b) /\
  (forall n c b b', w_make W n (RConvert c b) = Some b' -> f_w b' = f_w b /\ f_h b' = f_h b) /\
  (forall n b w h f b', w_make W n (RRescale b w h f) = Some b' -> f_w b' = w /\ f_h b' = h) /\
  (forall n b b', w_make W n (RRotate b 180) = Some b' -> f_w b' = f_w b /\ f_h b' = f_h b) /\
  (forall n b d b', d <> 180 -> w_make W n (RRotate b d) = Some b' -> f_w b' = f_h b /\ f_h b' = f_w b).

(** An image of this format, colour space and size. *)
Definition shows (x : seen) (f : imgfmt) (cs : colorspace) (w h : N) : Prop :=
  exists i b, x = Full i b /\ i_format i = f /\ i_cs i = cs /\ i_w i = w /\ i_h i = h /\ f_w b = w /\ f_h b = h.

End View.
Arguments seen : clear implicits.

(** ** Descriptors *)

(** Bits per pixel; masks of red, green, blue, alpha; shifts of red, green, blue, alpha. *)
Definition described (f : imgfmt) : N * list N * list N :=
  match f with
  | I_Gray8 => (8, [0; 0; 0; 0], [0; 0; 0; 0])
  | I_Gray16 | I_Int16 | I_UInt16 => (16, [0; 0; 0; 0], [0; 0; 0; 0])
  | I_RGB5 => (16, [0x7C00; 0x3E0; 0x3E0; 0], [10; 5; 0; 0])
  | I_RGB565 => (16, [0xF800; 0x7E0; 0x7E0; 0], [11; 5; 0; 0])
  | I_RGB8 => (24, [0xFF0000; 0xFF00; 0xFF00; 0], [0; 0; 0; 0])
  | I_RGBA8 => (32, [0xFF0000; 0xFF00; 0xFF00; 0xFF000000], [0; 0; 0; 24])
  | I_RGB16 => (48, [0; 0; 0; 0], [0; 0; 0; 0])
  | I_RGBA16 | I_Double => (64, [0; 0; 0; 0], [0; 0; 0; 0])
  | I_RGBF => (96, [0; 0; 0; 0], [0; 0; 0; 0])
  | I_RGBAF | I_Complex => (128, [0; 0; 0; 0], [0; 0; 0; 0])
  | I_Int32 | I_UInt32 | I_Float => (32, [0; 0; 0; 0], [0; 0; 0; 0])
  end.
Definition description (i : info) : N * list N * list N :=
  (i_bpp i, [i_redMask i; i_greenMask i; i_blueMask i; i_alphaMask i],
   [i_redShift i; i_greenShift i; i_blueShift i; i_alphaShift i]).

(** The format an image has after loading a bitmap without palette. *)
Definition loads_as {P} (b : fib P) (f : imgfmt) : Prop :=
  match f with
  | I_Gray8 => f_type b = FIT_BITMAP /\ f_bpp b = 8
  | I_RGB5 => f_type b = FIT_BITMAP /\ f_bpp b = 16 /\ f_green b = 0x3E0
  | I_RGB565 => f_type b = FIT_BITMAP /\ f_bpp b = 16 /\ f_green b = 0x7E0
  | I_RGB8 => f_type b = FIT_BITMAP /\ f_bpp b = 24
  | I_RGBA8 => f_type b = FIT_BITMAP /\ f_bpp b = 32
  | I_Gray16 => f_type b = FIT_UINT16
  | I_Int16 => f_type b = FIT_INT16
  | I_Int32 => f_type b = FIT_INT32
  | I_UInt32 => f_type b = FIT_UINT32
  | I_Float => f_type b = FIT_FLOAT
  | I_Double => f_type b = FIT_DOUBLE
  | I_Complex => f_type b = FIT_COMPLEX
  | I_RGB16 => f_type b = FIT_RGB16
  | I_RGBA16 => f_type b = FIT_RGBA16
  | I_RGBF => f_type b = FIT_RGBF
  | I_RGBAF => f_type b = FIT_RGBAF
  | I_UInt16 => False
  end.

(** Reading a channel of a word with a mask and a shift, as the documentation intends. *)
Definition extract (mask shift word : N) : N := N.shiftr (N.land word mask) shift.

(** Which format and type a converter produces, read off the converter's name and template
    arguments only. *)

From Coq Require Import NArith List Bool.
From Verif Require Import FormatModel FormatSpec ContainerSpec.
Import ListNotations.
Local Open Scope N_scope.

(** First [n] channels of R, G, B, A, each with [b] bits. *)
Definition first_channels (n b : N) : layout :=
  Channels (map (fun c => (c, b)) (firstn (N.to_nat n) [ChR; ChG; ChB; ChA])).

(** The layout a converter writes. *)
Definition converter_layout (c : converter) : layout :=
  match c with
  | CvUNorm b n => first_channels n b
  | CvSNorm b n => first_channels n b
  | CvInt _ b n => first_channels n b
  | CvFloat n => first_channels n 32
  | CvHalf n => first_channels n 16
  | CvR4G4 => layout_of F_R4G4
  | CvR4G4B4A4 => layout_of F_R4G4B4A4
  | CvB4G4R4A4 => layout_of F_B4G4R4A4
  | CvA4R4G4B4 => layout_of F_A4R4G4B4
  | CvR5G6B5 => layout_of F_R5G6B5
  | CvB5G6R5 => layout_of F_B5G6R5
  | CvR5G5B5A1 => layout_of F_R5G5B5A1
  | CvB5G5R5A1 => layout_of F_B5G5R5A1
  | CvA1R5G5B5 => layout_of F_A1R5G5B5
  | CvB8G8R8 => layout_of F_B8G8R8
  | CvB8G8R8A8 => layout_of F_B8G8R8A8
  | CvA8B8G8R8 => layout_of F_A8B8G8R8
  | CvA2R10G10B10UNorm | CvA2R10G10B10UInt => layout_of F_A2R10G10B10
  | CvA2B10G10R10UNorm | CvA2B10G10R10UInt => layout_of F_A2B10G10R10
  | CvB10R11R11UFloat => layout_of F_B10G11R11_UFloat
  | CvE5B9G9R9UFloat => layout_of F_E5B9G9R9_UFloat
  | CvBc1 => layout_of F_BC1_RGB
  | CvBc1A => layout_of F_BC1_RGBA
  | CvBc2 => layout_of F_BC2
  | CvBc3 => layout_of F_BC3
  | CvBc4 _ => layout_of F_BC4
  | CvBc5 _ => layout_of F_BC5
  | CvBc6H _ => layout_of F_BC6H
  | CvBc7 => layout_of F_BC7
  | CvEtc f _ => layout_of f
  | CvAstc _ _ bx by_ => Blocks bx by_ 16 true
  | CvPvrtc f => layout_of f
  end.

(** The value type a converter writes. *)
Definition converter_type (c : converter) : ttype :=
  match c with
  | CvUNorm _ _ => T_UNorm
  | CvSNorm _ _ => T_SNorm
  | CvInt true _ _ => T_Int
  | CvInt false _ _ => T_UInt
  | CvFloat _ | CvHalf _ => T_Float
  | CvA2R10G10B10UInt | CvA2B10G10R10UInt => T_UInt
  | CvB10R11R11UFloat | CvE5B9G9R9UFloat => T_UFloat
  | CvBc4 s | CvBc5 s => if s then T_SNorm else T_UNorm
  | CvBc6H s => if s then T_Float else T_UFloat
  | CvEtc _ t => t
  | CvAstc _ t _ _ => t
  | _ => T_UNorm
  end.

(** The compressed format a converter was told to produce, where it matters beyond the
    block geometry. *)
Definition converter_format (c : converter) : option format :=
  match c with
  | CvBc1 => Some F_BC1_RGB
  | CvBc1A => Some F_BC1_RGBA
  | CvBc2 => Some F_BC2
  | CvBc3 => Some F_BC3
  | CvBc4 _ => Some F_BC4
  | CvBc5 _ => Some F_BC5
  | CvBc6H _ => Some F_BC6H
  | CvBc7 => Some F_BC7
  | CvEtc f _ => Some f
  | CvAstc f _ _ _ => Some f
  | CvPvrtc f => Some f
  | _ => None
  end.

Definition layout_eqb (a b : layout) : bool :=
  match a, b with
  | NoLayout, NoLayout => true
  | Channels l, Channels m => chlist_eqb l m
  | Blocks w h s a, Blocks w' h' s' a' =>
      (w =? w') && (h =? h') && (s =? s') && Bool.eqb a a'
  | _, _ => false
  end.

(** The converter writes the format and type it was created for. *)
Definition converter_for (c : converter) (f : format) (t : ttype) : Prop :=
  converter_layout c = layout_of f /\ converter_type c = t /\
  (forall g, converter_format c = Some g -> g = f).

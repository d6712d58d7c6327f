(** Reading what the tool has printed. *)
From Coq Require Import NArith List Bool String Ascii.
From Verif Require Import Base FormatModel TextureModel CommandLineModel ToolModel PipelineModel PipelineSpec
  MessagesModel.
Import ListNotations.
Local Open Scope string_scope.
Local Open Scope list_scope.
Local Open Scope N_scope.
Local Infix "+++" := String.append (right associativity, at level 60).

(** The texts on the two streams, in order. *)
Definition outs (l : list write) : list string :=
  flat_map (fun w => match w with Out s => [s] | Err _ => [] end) l.
Definition errs (l : list write) : list string :=
  flat_map (fun w => match w with Err s => [s] | Out _ => [] end) l.

(** A report of an error; a line. *)
Definition is_error (s : string) : bool := String.prefix "error: " s.
Definition errors (l : list write) : list string := filter is_error (errs l).
Definition a_line (s : string) : string := s +++ String "010"%char "".

(** The user asks for help: no arguments, or -h or --help anywhere. *)
Definition help_wanted (args : list string) : Prop := args = [] \/ In "-h" args \/ In "--help" args.

(** The picture formats for which the tool warns that sRGB pictures lose quality. *)
Definition warned : list format :=
  [F_R4G4; F_R4G4B4A4; F_B4G4R4A4; F_A4R4G4B4; F_R5G6B5; F_B5G6R5; F_R5G5B5A1; F_A1R5G5B5; F_R8; F_R8G8; F_ETC1].
Definition the_warning : string :=
  a_line "warning: performing sRGB conversion for a low-precision texture format" +++
  a_line "         this may result in a noticeable loss of quality".

(** The lines a verbose run prints about the picture [path], which is [w] x [h] pixels of format [f] in its
    file, for level [level] of a texture of the asked size [W] x [H]: one for each thing done to it. *)
Definition picture_lines (a : cl) (f : imgfmt) (w h W H level : N) (path : string) : list string :=
  let p := "image '" +++ path +++ "'" in
  let '(w', h') := if c_normalMap a then (W, H) else (side W level, side H level) in
  map (fun s => a_line (snd s)) (filter fst
    [(true, "loading " +++ p);
     (negb (imgfmt_eqb f I_RGBAF), "converting " +++ p +++ " to RGBAF");
     (match c_imageCS a, c_textureCS a with CS_sRGB, CS_Linear | CS_Linear, CS_sRGB => true | _, _ => false end,
      "converting " +++ p +++ " from sRGB to linear");
     (negb ((w =? w') && (h =? h')), "resizing " +++ p +++ " to " +++ num w' +++ " x " +++ num h');
     (c_rotate a, "rotating " +++ p);
     (c_grayscale a, "converting " +++ p +++ " to grayscale");
     (c_normalMap a, "generating normalmap for " +++ p);
     (c_flipX a, "flipping " +++ p +++ " along the X axis");
     (c_flipY a, "flipping " +++ p +++ " along the Y axis");
     (c_swizzle a, "swizzling " +++ p);
     (c_preMultiply a, "pre-multiplying alpha for " +++ p)]).

Definition lines_of {C} (O : ops C) (a : cl) (W H level : N) (path : string) : list string :=
  match o_load O path with
  | Some (f, w, h, _) => picture_lines a f w h W H level path
  | None => []
  end.

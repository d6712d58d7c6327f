(** What a successful run of the command line parser should mean. *)

From Coq Require Import NArith ZArith List Bool String Ascii.
From Verif Require Import Base FormatModel SaveFormats TextureModel CommandLineModel.
Import ListNotations.
Local Open Scope string_scope.
Local Open Scope list_scope.
Local Open Scope N_scope.
Local Notation length := List.length.

(** * C41 *)

(** The number of images fits the kind of texture, and the dimension fits the kind. *)
Definition kind_ok (c : cl) : Prop :=
  match c_imageType c with
  | IT_Image => length (c_images c) = 1%nat /\ c_dim c <> Cube
  | IT_Array => c_images c <> [] /\ c_dim c <> Cube
  | IT_Cube => length (c_images c) = 6%nat /\ c_dim c = Cube
  | IT_CubeArray => (exists n, (0 < n)%nat /\ length (c_images c) = (6 * n)%nat) /\ c_dim c = Cube
  end.

(** Depth of a level of a volume with [d] slices. *)
Definition level_depth (d level : N) : N := N.max (d / 2 ^ level) 1.

(** * C42 *)

(** An argument vector is cut into segments, one per option: the option and its arguments. *)
Definition segment := list string.

(** A table of names, compared without case. *)
Fixpoint named {A} (table : list (string * A)) (s : string) : option A :=
  match table with
  | [] => None
  | (n, v) :: t => if String.eqb (lowers (c_str n)) (lowers (c_str s)) then Some v else named t s
  end.

(** The value set by the last segment [option value] with one of the two option names, where
    the values are named by [table]. *)
Definition last_value {A} (short long : string) (table : list (string * A)) (default : A)
  (segs : list segment) : A :=
  fold_left (fun v s =>
    match s with
    | [h; x] => if String.eqb h short || String.eqb h long then
                  match named table x with Some v' => v' | None => v end
                else v
    | _ => v
    end) segs default.

Definition quality_names : list (string * qualitylevel) :=
  [("lowest", Q_Lowest); ("low", Q_Low); ("normal", Q_Normal); ("high", Q_High); ("highest", Q_Highest)].
Definition filetype_names : list (string * filetype) :=
  [("dds", FT_DDS); ("ktx", FT_KTX); ("pvr", FT_PVR)].
Definition dimension_names : list (string * dimension) := [("1", Dim1D); ("2", Dim2D); ("3", Dim3D)].
Definition type_names : list (string * ttype) :=
  [("unorm", T_UNorm); ("snorm", T_SNorm); ("uint", T_UInt); ("int", T_Int); ("ufloat", T_UFloat);
   ("float", T_Float)].
Definition alpha_names : list (string * alpha) :=
  [("none", AlphaNone); ("standard", AlphaStandard); ("pre-multiplied", AlphaPreMultiplied);
   ("encoded", AlphaEncoded)].
Definition format_names (fl : flags) : list (string * format) :=
  map (fun p => (snd p, fst p)) (formatMap fl).

(** Does a segment begin with this option? *)
Definition is_option (short long : string) (s : segment) : bool :=
  match s with h :: _ => String.eqb h short || String.eqb h long | [] => false end.

(** Does one of the segments begin with this option? *)
Definition has_option (short long : string) (segs : list segment) : bool :=
  existsb (is_option short long) segs.

(** The argument of the first segment with this option. *)
Fixpoint first_arg (short long : string) (segs : list segment) : option string :=
  match segs with
  | [] => None
  | s :: r => if is_option short long s then nth_error s 1 else first_arg short long r
  end.

(** The type used, from the segments in reverse order: the last type given, unless a later
    format option leaves one of the three formats that are always unsigned floats. *)
Definition special_format (f : format) : bool :=
  match f with F_B10G11R11_UFloat | F_E5B9G9R9_UFloat | F_BC6H => true | _ => false end.

Fixpoint used_type (fl : flags) (rsegs : list segment) : ttype :=
  match rsegs with
  | [] => T_UNorm
  | s :: r =>
      let earlier := used_type fl r in
      if is_option "-t" "--type" s then
        match s with [_; x] => match named type_names x with Some t => t | None => earlier end
                   | _ => earlier end
      else if is_option "-f" "--format" s then
        if special_format (last_value "-f" "--format" (format_names fl) F_Unknown (rev rsegs))
        then T_UFloat else earlier
      else earlier
  end.

(** Does a segment -s .... drop the alpha channel? *)
Definition drops_alpha (s : segment) : bool :=
  is_option "-s" "--swizzle" s &&
  match s with
  | [_; x] => match String.get 3 x with Some c => (code c =? 120) || (code c =? 88) | None => false end
  | _ => false
  end.

(** The angle of the last --rotate, 0 without one. *)
Definition last_angle (segs : list segment) : Z :=
  fold_left (fun v s =>
    match s with
    | [h; x] => if String.eqb h "--rotate" then fst (strtol x) else v
    | _ => v
    end) segs 0%Z.

(** * Rotation: clockwise quarter turns of a configuration *)

Definition turns (c : cl) : Z :=
  if c_rotate c then
    match c_rotateAngle c with
    | CW90 => 1 | CW180 => 2 | CW270 => 3 | CCW90 => -1 | CCW180 => -2 | CCW270 => -3
    end%Z
  else 0%Z.

(** * Text *)

(** The lines of a text: the maximal runs of characters that are not line ends. *)
Fixpoint lines_from (acc : string) (s : string) : list string :=
  match s with
  | EmptyString => [acc]
  | String c t =>
      if (code c =? 10) || (code c =? 13) then acc :: lines_from EmptyString t
      else lines_from (String.append acc (String c EmptyString)) t
  end.

Definition nonempty_lines (s : string) : list string :=
  filter (fun l => negb (String.eqb l EmptyString)) (lines_from EmptyString s).

(** The decimal digits of a number, [n] < 10^fuel. *)
Fixpoint digits_fuel (fuel : nat) (n : N) : string :=
  match fuel with
  | O => EmptyString
  | S fuel => String.append (if n <? 10 then EmptyString else digits_fuel fuel (n / 10))
                            (String (ascii_of_N (48 + n mod 10)) EmptyString)
  end.

Definition decimal (n : N) : string := digits_fuel (S (N.to_nat (N.log2 n))) n.

(** A string of decimal digits and its value. *)
Inductive digits : string -> N -> Prop :=
| digits_one c : 48 <= N_of_ascii c <= 57 -> digits (String c EmptyString) (N_of_ascii c - 48)
| digits_more s v c : digits s v -> 48 <= N_of_ascii c <= 57 ->
    digits (String.append s (String c EmptyString)) (10 * v + (N_of_ascii c - 48)).

(** A number as the C library reads it: white space (tab, line feed, vertical tab, form feed, carriage
    return, space), a sign or none, and digits up to the end. *)
Definition written (s : string) (negative : bool) (n : N) : Prop :=
  exists blanks sign d, s = String.append blanks (String.append sign d) /\
    (forall c, In c (list_ascii_of_string blanks) -> In (N_of_ascii c) [9; 10; 11; 12; 13; 32]) /\
    (if negative then sign = "-"%string else sign = ""%string \/ sign = "+"%string) /\
    digits d n.

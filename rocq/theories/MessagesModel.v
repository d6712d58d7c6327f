(** What the tool prints: the writes to std::cout and std::cerr of tool/CommandLine.cpp and
    tool/main.cpp.

    The functions of CommandLineModel and PipelineModel say what the code computes; those of this
    file follow the same lines and say what it prints on the way, with its own tests.  std::endl
    is a line feed; numbers are printed in decimal.  The text of printHelp (CommandLine.cpp
    131-272) is a parameter: all of it goes to std::cout. *)

From Coq Require Import NArith ZArith List Bool String Ascii DecimalString.
From Verif Require Import Base FormatModel SaveFormats TextureModel SaveModel CommandLineModel
  ToolModel PipelineModel.
Import ListNotations.
Local Open Scope string_scope.
Local Open Scope list_scope.
Local Open Scope N_scope.
Local Notation length := List.length.
Local Infix "+++" := String.append (right associativity, at level 60).

(** A write to standard output or to standard error. *)
Inductive write := Out (s : string) | Err (s : string).

(** std::endl. *)
Definition endl : string := String (ascii_of_N 10) EmptyString.
(** operator<< of an unsigned number. *)
Definition num (n : N) : string := NilZero.string_of_uint (N.to_uint n).
(** programName, CommandLine.cpp 113-129, without the Windows separator: what follows the last slash. *)
Fixpoint programName (s : string) : string :=
  match s with
  | EmptyString => EmptyString
  | String c t => if existsb (fun x => x =? 47) (codes t) then programName t
                  else if code c =? 47 then t else s
  end.

(** faceName, CommandLine.cpp 351-356. *)
Definition faceName (f : N) : string :=
  nth (N.to_nat f) ["+x"; "-x"; "+y"; "-y"; "+z"; "-z"] "".
(** typeName, CommandLine.cpp 368-373. *)
Definition typeName (t : ttype) : string :=
  match t with
  | T_UNorm => "unorm" | T_SNorm => "snorm" | T_UInt => "uint"
  | T_Int => "int" | T_UFloat => "ufloat" | T_Float => "float"
  end.
(** fileTypeName, CommandLine.cpp 375-380. *)
Definition fileTypeName (t : filetype) : string :=
  match t with FT_Auto => "unknown" | FT_DDS => "DDS" | FT_KTX => "KTX" | FT_PVR => "PVR" end.

Section Parse.
Variable fl : flags.
Variable file : string -> option string.
Variable isnum : string -> bool.
Variable cap : N.

(** formatName, CommandLine.cpp 358-366. *)
Definition formatName (f : format) : string :=
  match find (fun p => format_eqb (fst p) f) (formatMap fl) with
  | Some p => snd p
  | None => "Unknown"
  end.

(** invalidInputsError, CommandLine.cpp 820. *)
Definition mixed : list write := [Err ("error: cannot mix different types of image inputs" +++ endl)].
(** The message about missing operands, at the start of most options; [h] is argv[i]. *)
Definition requires (h what : string) : list write :=
  [Err ("error: command " +++ h +++ " requires " +++ what +++ endl)].
(** A message about an operand that is not known. *)
Definition unknown (what a : string) : list write := [Err ("error: unknown " +++ what +++ " " +++ a +++ endl)].
(** readCubeFace, CommandLine.cpp 323-324: no end of line. *)
Definition unknownFace (a : string) : list write := [Err ("error: unknown cube face " +++ a)].
(** The end of -a, -c and -C: the image is already there. *)
Definition taken (c : cl) (idx : N) (what : string) : list write :=
  if idx <? N.of_nat (length (c_images c)) then
    if negb (is_empty (nth (N.to_nat idx) (c_images c) EmptyString))
    then [Err ("error: image for " +++ what +++ " already provided" +++ endl)] else []
  else [].

(** -i, CommandLine.cpp 843-856. *)
Definition say_input (c : cl) (h : string) (tl : list string) : list write :=
  match c_images c with
  | _ :: _ => mixed
  | [] => match tl with [] => requires h "1 argument" | _ => [] end
  end.

(** -a, CommandLine.cpp 861-891. *)
Definition say_array (c : cl) (h : string) (tl : list string) : list write :=
  if (match c_images c with [] => false
      | _ => negb (imagetype_eqb (c_imageType c) IT_Array) || imageFile end) then mixed
  else match tl with
  | [] => requires h "1 or 2 arguments"
  | _ =>
      let size := N.of_nat (length (c_images c)) in
      let idx := match tl with
                 | _ :: _ :: _ => match readIndex tl with Some (v, _) => v | None => size end
                 | _ => size
                 end in
      match (if size <=? idx then resize cap (c_images c) (u64 (idx + 1)) else Some (c_images c)) with
      | None => []
      | Some im => taken (set_images im c) idx ("index " +++ num idx)
      end
  end.

(** -c, CommandLine.cpp 895-930. *)
Definition say_cube (c : cl) (h : string) (tl : list string) : list write :=
  match c_images c with
  | _ :: _ =>
      if negb (imagetype_eqb (c_imageType c) IT_Cube) || imageFile then mixed
      else match tl with
           | a :: _ :: _ => match strToCubeFace a with
                            | None => unknownFace a
                            | Some f => taken c f ("face " +++ faceName f)
                            end
           | _ => requires h "2 arguments"
           end
  | [] =>
      match resize cap [] 6 with
      | None => []
      | Some im => match tl with
                   | a :: _ :: _ => match strToCubeFace a with
                                    | None => unknownFace a
                                    | Some f => taken (set_images im c) f ("face " +++ faceName f)
                                    end
                   | _ => requires h "2 arguments"
                   end
      end
  end.

(** -C, CommandLine.cpp 934-978.  The message at 953 prints argv[i], which is the option. *)
Definition say_cubearray (c : cl) (h : string) (tl : list string) : list write :=
  if (match c_images c with [] => false
      | _ => negb (imagetype_eqb (c_imageType c) IT_CubeArray) || imageFile end) then mixed
  else match tl with
  | n :: a :: _ :: _ =>
      match strtoul n with
      | (_, false) => [Err ("error: invalid index " +++ h +++ endl)]
      | (ci, true) =>
          match strToCubeFace a with
          | None => unknownFace a
          | Some f =>
              match (if N.of_nat (length (c_images c)) <=? u64 (ci * 6)
                     then resize cap (c_images c) (u64 (u64 (ci + 1) * 6)) else Some (c_images c)) with
              | None => []
              | Some im => taken (set_images im c) (u64 (u64 (ci * 6) + f))
                             ("index " +++ num ci +++ " and face " +++ faceName f)
              end
          end
      end
  | _ => requires h "3 arguments"
  end.

(** -I, CommandLine.cpp 982-1016, and readImageList, 533-538. *)
Definition say_inputlist (c : cl) (h : string) (tl : list string) : list write :=
  match c_images c with
  | _ :: _ => mixed
  | [] =>
      match tl with
      | t :: f :: _ =>
          if caseeq t "image" || caseeq t "array" || caseeq t "cube" || caseeq t "cube-array" then
            match file f with
            | None => [Err ("error: couldn't open image list file '" +++ f +++ "'" +++ endl)]
            | Some _ => []
            end
          else unknown "image type" t
      | _ => requires h "2 arguments"
      end
  end.

(** -r, CommandLine.cpp 1020-1032, and readSize, 468-472. *)
Definition say_resize (h : string) (tl : list string) : list write :=
  match tl with
  | w :: k :: _ =>
      let bad := fun a => [Err ("error: invalid size " +++ a +++ endl)] in
      match readSize [w] with
      | None => bad w
      | Some _ => match readSize [k] with None => bad k | Some _ => [] end
      end
  | _ => requires h "2 or 3 arguments"
  end.

(** The messages about an entry of the custom mips, CommandLine.cpp 604-606, 615-616, 1074-1076,
    1087-1088; the numbers are printed before they are narrowed. *)
Definition no_file (level depth face : N) : list write :=
  [Err ("error: no file provided for custom mip level " +++ num level +++ ", depth " +++ num depth +++
        ", face " +++ faceName face +++ " already provided" +++ endl)].
Definition mip_taken (level depth face : N) : list write :=
  [Err ("error: custom mip for level " +++ num level +++ ", depth " +++ num depth +++
        ", face " +++ faceName face +++ " already provided" +++ endl)].

(** -M, CommandLine.cpp 1047-1091.  The message at 1058 prints argv[i], which is the option. *)
Definition say_custommip (c : cl) (h : string) (tl : list string) : list write :=
  match tl with
  | _ :: _ :: _ =>
      match readIndex tl with
      | None => [Err ("error: invalid mip level " +++ h +++ endl)]
      | Some (level, tl) =>
          let '(depth, tl) := match readIndex tl with Some p => p | None => (0, tl) end in
          let '(face, tl) := match readCubeFace tl with Some p => p | None => (0, tl) end in
          let '(repl, tl) := match readMipReplace tl with Some p => p | None => (Continue, tl) end in
          match tl with
          | [] => no_file level depth face
          | a :: _ =>
              if existsb (fun e => index_eqb (fst e) (Index face (to_uint level) (to_uint depth)))
                         (c_customMips c)
              then mip_taken level depth face else []
          end
      end
  | _ => requires h "at least 2 arguments"
  end.

(** One line of a list of custom mips, readCustomMipList, CommandLine.cpp 570-618. *)
Definition say_line (fuel : nat) (cur : string) (delim : option ascii) (st : stream)
  (m : list (index * (string * replacement))) : list write :=
  let (level, e) := strtoul cur in
  if negb e then [Err ("error: invalid mip level " +++ cur +++ endl)]
  else match readNextToken fuel cur st whitespace newline delim false with
  | None => []
  | Some (cur, delim, st) =>
  let (value, e) := strtoul cur in
  match (if e then obind (readNextToken fuel cur st whitespace newline delim false)
                         (fun '(cur, delim, st) => Some (value, cur, delim, st))
         else Some (0, cur, delim, st)) with
  | None => []
  | Some (depth, cur, delim, st) =>
  match (match strToCubeFace cur with
         | Some f => obind (readNextToken fuel cur st whitespace newline delim false)
                           (fun '(cur, delim, st) => Some (f, cur, delim, st))
         | None => Some (0, cur, delim, st)
         end) with
  | None => []
  | Some (face, cur, delim, st) =>
  match (match strToMipReplace cur with
         | Some r => obind (readNextToken fuel cur st whitespace newline delim false)
                           (fun '(cur, delim, st) => Some (cur, delim, st))
         | None => Some (cur, delim, st)
         end) with
  | None => []
  | Some (cur, delim, st) =>
  match readNextToken fuel cur st newline newline delim true with
  | None => []
  | Some (cur, _, st) =>
  if is_empty cur then no_file level depth face
  else if existsb (fun e => index_eqb (fst e) (Index face (to_uint level) (to_uint depth))) m
  then mip_taken level depth face else []
  end end end end end.

(** readCustomMipList, CommandLine.cpp 564-620, after the file has been opened. *)
Fixpoint say_lines (fuel : nat) (st : stream) (m : list (index * (string * replacement))) : list write :=
  match fuel with
  | O => []
  | S fuel' =>
      if s_good st then
        match readNextToken fuel EmptyString st whitespace newline (Some Ascii.zero) false with
        | None => []
        | Some (cur, delim, st) =>
            if is_empty cur then say_lines fuel' st m
            else say_line fuel cur delim st m ++
                 match customMip_line fuel cur delim st m with
                 | Some (Some (st, m)) => say_lines fuel' st m
                 | _ => []
                 end
        end
      else []
  end.

(** --custom-mip-list, CommandLine.cpp 1095-1107, and readCustomMipList, 552-622. *)
Definition say_custommiplist (c : cl) (h : string) (tl : list string) : list write :=
  match tl with
  | [] => requires h "1 argument"
  | f :: _ =>
      match file f with
      | None => [Err ("error: couldn't open custom mip file '" +++ f +++ "'" +++ endl)]
      | Some content => say_lines (S (S (String.length content))) (Stream content true) (c_customMips c)
      end
  end.

(** --rotate, CommandLine.cpp 1115-1129. *)
Definition say_rotate (h : string) (tl : list string) : list write :=
  match tl with
  | [] => requires h "1 argument"
  | a :: _ =>
      let (v, e) := strtol a in
      if negb e || negb (Z.rem v 90 =? 0)%Z
      then [Err ("error: rotate angle must be a multiple of 90 degrees" +++ endl)] else []
  end.

(** -s, CommandLine.cpp 1202-1229. *)
Definition say_swizzle (h : string) (tl : list string) : list write :=
  match tl with
  | [] => requires h "1 argument"
  | a :: _ =>
      let ok := match a with
                | String c0 (String c1 (String c2 (String c3 EmptyString))) =>
                    forallb (fun c => match readChannel c with Some _ => true | None => false end) [c0; c1; c2; c3]
                | _ => false
                end in
      if ok then [] else [Err ("error: swizzle must contain 4 elements of r, g, b, a, or x" +++ endl)]
  end.

(** -d, -t, --alpha, -Q and --file-format: CommandLine.cpp 1253-1272, 1313-1338, 1342-1364,
    1368-1391, 1413-1432.  [cmp] compares the operand with a name. *)
Definition say_choice (cmp : string -> string -> bool) (names : list string) (what : string)
  (h : string) (tl : list string) : list write :=
  match tl with
  | [] => requires h "1 argument"
  | a :: _ => if existsb (cmp a) names then [] else unknown what a
  end.

(** -f, CommandLine.cpp 1276-1298: nothing is said when an earlier -f has set the format. *)
Definition say_format (c : cl) (h : string) (tl : list string) : list write :=
  match tl with
  | [] => requires h "1 argument"
  | a :: _ =>
      match find_format (formatMap fl) a with
      | Some _ => []
      | None => match c_fmt c with F_Unknown => unknown "format" a | _ => [] end
      end
  end.

(** -o, CommandLine.cpp 1395-1409. *)
Definition say_output (c : cl) (h : string) (tl : list string) : list write :=
  match tl with
  | [] => requires h "1 argument"
  | _ => match c_output c with
         | Some _ => [Err ("error: output path already provided" +++ endl)]
         | None => []
         end
  end.

(** One iteration of the loop of parse, CommandLine.cpp 821-1441. *)
Definition say_step (c : cl) (h : string) (tl : list string) : list write :=
  match classify h with
  | None => [Err ("error: unknown option: " +++ h +++ endl)]           (* 1438 *)
  | Some O_input => say_input c h tl
  | Some O_array => say_array c h tl
  | Some O_cube => say_cube c h tl
  | Some O_cubearray => say_cubearray c h tl
  | Some O_inputlist => say_inputlist c h tl
  | Some O_resize => say_resize h tl
  | Some O_custommip => say_custommip c h tl
  | Some O_custommiplist => say_custommiplist c h tl
  | Some O_rotate => say_rotate h tl
  | Some O_swizzle => say_swizzle h tl
  | Some O_dimension => say_choice String.eqb ["1"; "2"; "3"] "dimension" h tl
  | Some O_format => say_format c h tl
  | Some O_type => say_choice caseeq ["unorm"; "snorm"; "uint"; "int"; "ufloat"; "float"] "type" h tl
  | Some O_alpha => say_choice caseeq ["none"; "standard"; "pre-multiplied"; "encoded"] "alpha type" h tl
  | Some O_quality => say_choice caseeq ["lowest"; "low"; "normal"; "high"; "highest"] "quality" h tl
  | Some O_output => say_output c h tl
  | Some O_fileformat => say_choice caseeq ["dds"; "ktx"; "pvr"] "file format" h tl
  | Some _ => []
  end.

(** The loop, CommandLine.cpp 821-1441. *)
Fixpoint say_loop (fuel : nat) (c : cl) (args : list string) : list write :=
  match fuel with
  | O => []
  | S fuel =>
      match args with
      | [] => []
      | h :: tl =>
          say_step c h tl ++
          match step fl file isnum cap c h tl with
          | Go c rest => say_loop fuel c rest
          | _ => []
          end
      end
  end.

Variable visit : list (index * (string * replacement)) -> list (index * (string * replacement)).

(** The loop over the custom mips, CommandLine.cpp 755-778. *)
Fixpoint say_mips (dim3 : bool) (depth : N) (l : list (index * (string * replacement))) : list write :=
  match l with
  | [] => []
  | (k, _) :: t =>
      if x_level k =? 0 then [Err ("error: cannot provide custom mip for level 0" +++ endl)]
      else if dim3 && (32 <=? x_level k) then []                 (* undefined *)
      else
        let thisDepth := if dim3 then N.max (N.shiftr depth (x_level k)) 1 else depth in
        if thisDepth <=? x_depth k
        then [Err ("error: custom mip depth " +++ num (x_depth k) +++ " out of range for level " +++
                   num (x_level k) +++ endl)]
        else say_mips dim3 depth t
  end.

(** The last loop of validate, CommandLine.cpp 781-790. *)
Fixpoint say_counts (depth i : N) (counts : list N) : list write :=
  match counts with
  | [] => []
  | n :: t =>
      if (0 <? n) && negb (n =? N.max (N.shiftr depth i) 1)
      then [Err ("error: must provide custom mips for all depths in level " +++ num i +++ endl)]
      else say_counts depth (i + 1) t
  end.

(** The formats of the warning, CommandLine.cpp 724-734. *)
Definition low_precision (f : format) : bool :=
  existsb (format_eqb f) [F_R4G4; F_R4G4B4A4; F_B4G4R4A4; F_A4R4G4B4; F_R5G6B5; F_B5G6R5;
                          F_R5G5B5A1; F_A1R5G5B5; F_R8; F_R8G8; F_ETC1].

(** The warning, CommandLine.cpp 720-742. *)
Definition warning (c : cl) : list write :=
  match c_imageCS c, c_log c with
  | CS_sRGB, Log_Normal | CS_sRGB, Log_Verbose =>
      if low_precision (c_fmt c)
      then [Err ("warning: performing sRGB conversion for a low-precision texture format" +++ endl +++
                 "         this may result in a noticeable loss of quality" +++ endl)]
      else []
  | _, _ => []
  end.

(** The switch on the kind of input, CommandLine.cpp 632-673. *)
Definition say_kind (c : cl) : list write :=
  let n := N.of_nat (length (c_images c)) in
  let flat := match c_dim c with Dim2D => true | _ => false end in
  match c_imageType c with
  | IT_Image => if negb (n =? 1)
                then [Err ("error: only 1 input image may be provided for a standard texture" +++ endl)] else []
  | IT_Array => []
  | IT_Cube => if negb (n =? 6)
               then [Err ("error: 6 images must be provided for a cubemap texture" +++ endl)]
               else if negb flat then [Err ("error: cubemap texture must have a dimension of 2" +++ endl)] else []
  | IT_CubeArray => if negb (n mod 6 =? 0)
               then [Err ("error: a multiple of 6 images must be provided for a cubemap texture" +++ endl)]
               else if negb flat then [Err ("error: cubemap texture must have a dimension of 2" +++ endl)] else []
  end.

(** validate, CommandLine.cpp 624-794. *)
Definition say_validate (c : cl) : list write :=
  match c_images c with
  | [] => [Err ("error: an input image must be provided" +++ endl)]
  | _ =>
  match say_kind c with
  | (_ :: _) as l => l
  | [] =>
  if existsb is_empty (c_images c) then [Err ("error: not all images were provided" +++ endl)]
  else match c_fmt c with
  | F_Unknown => [Err ("error: texture file format cannot be determined" +++ endl)]
  | _ =>
  match c_output c with
  | None => [Err ("error: output file must be provided" +++ endl)]
  | Some out =>
  let ty := match c_ftype c with FT_Auto => fileType (codes out) | t => t end in
  match ty with
  | FT_Auto => [Err ("error: cannot deduce file type for '" +++ out +++ "'" +++ endl)]
  | _ =>
  if negb (isFormatValidFile fl (c_fmt c) (c_ttyp c) ty)
  then [Err ("error: file format " +++ fileTypeName ty +++ " doesn't support format " +++
             formatName (c_fmt c) +++ " with type " +++ typeName (c_ttyp c) +++ endl)]
  else
  warning c ++
  if (c_mipLevels c <=? 1) && (match c_customMips c with [] => false | _ => true end)
  then [Err ("error: cannot specify custom mip images without generating mipmaps" +++ endl)]
  else
  let dim3 := match c_imageType c with IT_Cube | IT_CubeArray => false | _ => is_dim3d (c_dim c) end in
  let depth := to_uint (N.of_nat (length (c_images c))) in
  say_mips dim3 depth (visit (c_customMips c)) ++
  match check_mips dim3 depth (visit (c_customMips c)) [] with
  | inl counts => say_counts depth 0 counts
  | inr _ => []
  end
  end end end end end.

(** The text of printHelp, CommandLine.cpp 131-272, for a program name. *)
Variable help : string -> string.

(** CommandLine::parse, CommandLine.cpp 797-1449; [argv0] is the path of the program. *)
Definition say_parse (argv0 : string) (args : list string) : list write :=
  match args with
  | [] => [Out (help (programName argv0))]                             (* 799-803 *)
  | _ =>
      if existsb (fun a => matches a "-h" "--help") args
      then [Out (help (programName argv0))]                            (* 806-813 *)
      else
        let usage := [Err ("Run " +++ programName argv0 +++ " -h for usage." +++ endl)] in
        say_loop (S (length args)) cl0 args ++
        match loop fl file isnum cap (S (length args)) cl0 args with
        | inl c =>
            if c_success c then
              say_validate c ++ match validate fl visit c with PFalse => usage | _ => [] end
            else usage
        | inr PFalse => usage
        | inr _ => []
        end
  end.

End Parse.

(** * main.cpp *)
Section Run.
Context {C : Type}.
Variable O : ops C.
Variable visit : list (index * (string * replacement)) -> list (index * (string * replacement)).

(** A line on standard output when the tool is verbose. *)
Definition verbose (a : cl) (s : string) : list write :=
  match c_log a with Log_Verbose => [Out (s +++ endl)] | _ => [] end.

(** loadAndProcessImage, main.cpp 147-277.  Every image that the body assigns is computed again,
    because the message about resizing depends on its size. *)
Definition say_load (a : cl) (path : string) (wh : N * N) (mipLevel : N) : list write :=
  let L := o_lib O in
  let image_ := "image '" +++ path +++ "'" in
  verbose a ("loading " +++ image_) ++                                  (* 150-151 *)
  match o_load O path with
  | None => [Err ("error: couldn't load " +++ image_ +++ endl)]         (* 154 *)
  | Some (f, w, h, c) =>
      let image := Img f w h (c_imageCS a) c in
      let '(width, height) :=
        if (fst wh =? unset) && (snd wh =? unset)
        then (getDimension w w h (c_width a), getDimension h w h (c_height a))
        else wh in
      (if imgfmt_eqb f I_RGBAF then []
       else verbose a ("converting " +++ image_ +++ " to RGBAF")) ++    (* 167-168 *)
      let image := if imgfmt_eqb f I_RGBAF then image else iconvert L image I_RGBAF in
      (if cs_eqb (c_textureCS a) (c_imageCS a) then []
       else verbose a ("converting " +++ image_ +++ " from sRGB to linear")) ++  (* 174-178 *)
      let image := if cs_eqb (c_textureCS a) (c_imageCS a) then image
                   else ichange L image (c_textureCS a) in
      if 32 <=? mipLevel then []                                        (* undefined *)
      else
      let thisWidth := N.max (N.shiftr width mipLevel) 1 in
      let thisHeight := N.max (N.shiftr height mipLevel) 1 in
      let normalWidth := if c_normalMap a then width else thisWidth in
      let normalHeight := if c_normalMap a then height else thisHeight in
      (if negb (normalWidth =? iwidth image) || negb (normalHeight =? iheight image)
       then verbose a ("resizing " +++ image_ +++ " to " +++ num normalWidth +++ " x " +++
                       num normalHeight)                                (* 194-198 *)
       else []) ++
      (if c_rotate a then verbose a ("rotating " +++ image_) else []) ++ (* 204-205 *)
      (if c_grayscale a then verbose a ("converting " +++ image_ +++ " to grayscale") else []) ++
      (if c_normalMap a then verbose a ("generating normalmap for " +++ image_) else []) ++
      (if c_flipX a then verbose a ("flipping " +++ image_ +++ " along the X axis") else []) ++
      (if c_flipY a then verbose a ("flipping " +++ image_ +++ " along the Y axis") else []) ++
      (if c_swizzle a then verbose a ("swizzling " +++ image_) else []) ++
      (if c_preMultiply a then verbose a ("pre-multiplying alpha for " +++ image_) else [])
  end.

(** The first loop of loadImages, main.cpp 284-288. *)
Fixpoint say_inputs (a : cl) (paths : list string) (wh : N * N) : list write :=
  match paths with
  | [] => []
  | p :: r => say_load a p wh 0 ++
              match loadAndProcessImage O a p wh 0 with
              | Some (Some (_, wh')) => say_inputs a r wh'
              | _ => []
              end
  end.

(** The second loop of loadImages, main.cpp 293-319. *)
Fixpoint say_customs (a : cl) (mipLevels : N) (l : list (index * (string * replacement)))
  (wh : N * N) : list write :=
  match l with
  | [] => []
  | (k, (path, _)) :: r =>
      if mipLevels <=? x_level k
      then [Err ("error: level " +++ num (x_level k) +++ " for custom mip out of range" +++ endl)]
      else if negb (x_face k =? 0) && negb (match c_dim a with Cube => true | _ => false end)
      then [Err ("error: custom mip cube face used for non-cubemap texture" +++ endl)]
      else say_load a path wh (x_level k) ++
           match loadAndProcessImage O a path wh (x_level k) with
           | Some (Some (_, wh')) => say_customs a mipLevels r wh'
           | _ => []
           end
  end.

(** loadImages, main.cpp 279-325. *)
Definition say_loadImages (a : cl) : list write :=
  say_inputs a (c_images a) (unset, unset) ++
  match load_inputs O a (c_images a) (unset, unset) with
  | Some (Some (images, wh)) =>
      say_customs a (N.min (c_mipLevels a)
        (maxMipmapLevels (c_dim a) (fst wh) (snd wh) (to_uint (N.of_nat (length images)))))
        (visit (c_customMips a)) wh
  | _ => []
  end.

Variable fl : flags.
Variable encode : converter -> convargs -> image C -> list N.
Variable Y : sys.
Variable fuel : nat.

(** saveTexture, main.cpp 327-423. *)
Definition say_save (a : cl) (images : list (image C)) (cm : customs C) : list write :=
  let name := match c_output a with Some o => o | None => EmptyString end in
  let failed := [Err ("error: couldn't write file '" +++ name +++ "'" +++ endl)] in      (* 417 *)
  (if 1 <? c_mipLevels a then verbose a "generating mipmaps" else []) ++  (* 371-372 *)
  match build O a images cm with
  | None => []
  | Some t =>
      verbose a "converting texture" ++                                   (* 377-378 *)
      let '(ok, t) := convert fl encode t (convert_args a) in
      if negb ok then [Err ("error: failed to convert texture" +++ endl)] (* 382 *)
      else
        (match c_log a with Log_Quiet => []
         | _ => [Out ("saving texture '" +++ name +++ "'" +++ endl)] end) ++   (* 386-387 *)
        let out := match c_output a with None => None | Some o => Some (codes o) end in
        match saveFile (y_bufsize Y) (y_room Y 0) t out (c_ftype a) with
        | None => []
        | Some (SR_Success, _) => []
        | Some (SR_Invalid, _) => [Err ("error: texture parameters were invalid" +++ endl)]
        | Some (SR_UnknownFormat, _) => [Err ("error: unknown texture file format" +++ endl)]
        | Some (SR_Unsupported, _) =>
            [Err ("error: texture format unsupported by target file format" +++ endl)]
        | Some (SR_WriteError, _) =>
            if c_createOutputDir a then
              match createParentDir fuel (y_mkdir Y) (match out with Some o => o | None => [] end) with
              | None => []
              | Some (false, _) =>
                  [Err ("error: couldn't create parent directory for '" +++ name +++ "'" +++ endl)]
              | Some (true, _) =>
                  match saveFile (y_bufsize Y) (y_room Y 1) t out (c_ftype a) with
                  | None => []
                  | Some (SR_Success, _) => []
                  | Some _ => failed
                  end
              end
            else failed
        end
  end.

(** main, main.cpp 427-442, after the command line has been parsed to [a]. *)
Definition say_run (a : cl) : list write :=
  say_loadImages a ++
  match loadImages O visit a with
  | Some (Some (images, cm)) => say_save a images cm
  | _ => []
  end.

(** main, main.cpp 427-442, from the program's path and arguments: the exit status and the
    writes.  [None]: undefined behaviour or an exception. *)
Definition session (file : string -> option string) (isnum : string -> bool) (cap : N)
  (help : string -> string) (argv0 : string) (args : list string) : option (N * list write) :=
  let said := say_parse fl file isnum cap visit help argv0 args in
  match parse fl file isnum cap visit args with
  | PFalse => Some (1, said)
  | POk a => match run_tool O visit fl encode Y fuel a with
             | Some (st, _) => Some (st, said ++ say_run a)
             | None => None
             end
  | _ => None
  end.
End Run.

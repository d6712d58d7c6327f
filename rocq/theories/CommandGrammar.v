(** The grammar of the command line and the meaning of its options, independently of the
    parser.

    A command line is a sequence of directives.  Each is spelled by the name of an option and
    its operands; an optional operand is there exactly when the next word can be read as one. *)

From Coq Require Import NArith ZArith List Bool String Ascii Permutation.
From Verif Require Import Base FormatModel SaveFormats TextureModel SaveModel CommandLineModel CommandLineSpec
  CommandFilesSpec.
Import ListNotations.
Local Open Scope string_scope.
Local Open Scope list_scope.
Local Open Scope N_scope.
Local Notation length := List.length.

(** * Directives *)

Inductive directive :=
| D_jobs (n : option Z)
| D_quiet
| D_verbose
| D_input (f : string)
| D_array (i : option N) (f : string)
| D_cube (face : N) (f : string)
| D_cubearray (i face : N) (f : string)
| D_inputlist (kind : imagetype) (f : string)
| D_resize (w h : Z) (flt : option rfilter)
| D_mipmap (n : option N) (flt : option rfilter)
| D_custommip (level : N) (depth face : option N) (r : option replacement) (f : string)
| D_custommiplist (f : string)
| D_flipx
| D_flipy
| D_rotate (degrees : Z)
| D_normalmap (wrap : option N) (height : option string)
| D_grayscale
| D_swizzle (r g b a : channel)
| D_srgb
| D_premultiply
| D_dimension (d : dimension)
| D_format (f : option format)   (* [None]: a word that names no format *)
| D_type (t : ttype)
| D_alpha (a : alpha)
| D_quality (q : qualitylevel)
| D_output (f : string)
| D_fileformat (t : filetype)
| D_createdir.

(** * Words *)

Definition option_words (o : opt) : list string :=
  match o with
  | O_jobs => ["-j"; "--jobs"]
  | O_quiet => ["-q"; "--quiet"]
  | O_verbose => ["-v"; "--verbose"]
  | O_input => ["-i"; "--input"]
  | O_array => ["-a"; "--array"]
  | O_cube => ["-c"; "--cube"]
  | O_cubearray => ["-C"; "--cube-array"]
  | O_inputlist => ["-I"; "--input-list"]
  | O_resize => ["-r"; "--resize"]
  | O_mipmap => ["-m"; "--mipmap"]
  | O_custommip => ["-M"; "--custom-mip"]
  | O_custommiplist => ["--custom-mip-list"]
  | O_flipx => ["--flipx"]
  | O_flipy => ["--flipy"]
  | O_rotate => ["--rotate"]
  | O_normalmap => ["-n"; "--normalmap"]
  | O_grayscale => ["-g"; "--grayscale"]
  | O_swizzle => ["-s"; "--swizzle"]
  | O_srgb => ["--srgb"]
  | O_premultiply => ["--pre-multiply"]
  | O_dimension => ["-d"; "--dimension"]
  | O_format => ["-f"; "--format"]
  | O_type => ["-t"; "--type"]
  | O_alpha => ["--alpha"]
  | O_quality => ["-Q"; "--quality"]
  | O_output => ["-o"; "--output"]
  | O_fileformat => ["--file-format"]
  | O_createdir => ["--create-dir"]
  end.

(** A whole word read as an unsigned or signed number (strtoul and strtol of the C library). *)
Definition number (s : string) : option N := if snd (strtoul s) then Some (fst (strtoul s)) else None.
Definition integer (s : string) : option Z := if snd (strtol s) then Some (fst (strtol s)) else None.

(** A long converted to int. *)
Definition as_int (z : Z) : Z := ((z + 2 ^ 31) mod 2 ^ 32 - 2 ^ 31)%Z.

(** The faces of a cube, in the order of Texture::CubeFace. *)
Definition face_names : list (string * N) :=
  [("+x", 0); ("-x", 1); ("+y", 2); ("-y", 3); ("+z", 4); ("-z", 5)].

Definition kind_names : list (string * imagetype) :=
  [("image", IT_Image); ("array", IT_Array); ("cube", IT_Cube); ("cube-array", IT_CubeArray)].

Definition filter_names : list (string * rfilter) :=
  [("box", RF_Box); ("linear", RF_Linear); ("cubic", RF_Cubic); ("catmull-rom", RF_CatmullRom);
   ("b-spline", RF_BSpline)].

Definition replace_names : list (string * replacement) := [("once", Once); ("continue", Continue)].

(** The sizes with a name, by their number in CommandLine::Size (C40 says what they mean). *)
Definition size_names : list (string * Z) :=
  [("nextpo2", -2); ("nearestpo2", -3); ("width", -4); ("width-nextpo2", -5);
   ("width-nearestpo2", -6); ("height", -7); ("height-nextpo2", -8); ("height-nearestpo2", -9);
   ("min", -10); ("min-nextpo2", -11); ("min-nearestpo2", -12); ("max", -13); ("max-nextpo2", -14);
   ("max-nearestpo2", -15)]%Z.

Definition size (s : string) : option Z :=
  match named size_names s with
  | Some v => Some v
  | None => match integer s with Some z => Some (as_int z) | None => None end
  end.

(** The bits of Image::NormalOptions: WrapX is 2, WrapY is 4. *)
Definition wrap_names : list (string * N) := [("wrap", 2 + 4); ("wrapx", 2); ("wrapy", 4)].

Definition channel_names : list (string * channel) :=
  [("r", Ch_Red); ("g", Ch_Green); ("b", Ch_Blue); ("a", Ch_Alpha); ("x", Ch_None)].

Definition letter (c : ascii) : option channel := named channel_names (String c EmptyString).

(** * Operands *)

(** [optional read rest ops o]: the words [ops], followed by the words [rest], are an optional
    operand with the value [o]. *)
Inductive optional {A} (read : string -> option A) (rest : list string) : list string -> option A -> Prop :=
| present a v : read a = Some v -> optional read rest [a] (Some v)
| omitted : match rest with [] => True | a :: _ => read a = None end -> optional read rest [] None.

Section Grammar.
Variable fl : flags.
Variable isnum : string -> bool. (* is the word a floating point number? *)

Definition height (s : string) : option string := if isnum s then Some s else None.

(** [operands o rest ops d]: after the name of option [o], the words [ops], followed by the
    words [rest], complete the directive [d]. *)
Inductive operands : opt -> list string -> list string -> directive -> Prop :=
| P_jobs rest ops n : optional integer rest ops n -> operands O_jobs rest ops (D_jobs n)
| P_quiet rest : operands O_quiet rest [] D_quiet
| P_verbose rest : operands O_verbose rest [] D_verbose
| P_input rest f : operands O_input rest [f] (D_input f)
| P_array_index rest i v f : number i = Some v -> operands O_array rest [i; f] (D_array (Some v) f)
| P_array rest f : number f = None \/ rest = [] -> operands O_array rest [f] (D_array None f)
| P_cube rest w face f : named face_names w = Some face -> operands O_cube rest [w; f] (D_cube face f)
| P_cubearray rest i v w face f : number i = Some v -> named face_names w = Some face ->
    operands O_cubearray rest [i; w; f] (D_cubearray v face f)
| P_inputlist rest w k f : named kind_names w = Some k -> operands O_inputlist rest [w; f] (D_inputlist k f)
| P_resize rest a w b h ops flt : size a = Some w -> size b = Some h ->
    optional (named filter_names) rest ops flt -> operands O_resize rest (a :: b :: ops) (D_resize w h flt)
| P_mipmap rest ops1 n ops2 flt : optional number (ops2 ++ rest) ops1 n ->
    optional (named filter_names) rest ops2 flt -> operands O_mipmap rest (ops1 ++ ops2) (D_mipmap n flt)
| P_custommip rest l level ops1 depth ops2 face ops3 r f : number l = Some level ->
    optional number (ops2 ++ ops3 ++ f :: rest) ops1 depth ->
    optional (named face_names) (ops3 ++ f :: rest) ops2 face ->
    optional (named replace_names) (f :: rest) ops3 r ->
    operands O_custommip rest (l :: ops1 ++ ops2 ++ ops3 ++ [f]) (D_custommip level depth face r f)
| P_custommiplist rest f : operands O_custommiplist rest [f] (D_custommiplist f)
| P_flipx rest : operands O_flipx rest [] D_flipx
| P_flipy rest : operands O_flipy rest [] D_flipy
| P_rotate rest a z : integer a = Some z -> (exists q, z = 90 * q)%Z -> operands O_rotate rest [a] (D_rotate z)
| P_normalmap rest ops1 w ops2 h : optional (named wrap_names) (ops2 ++ rest) ops1 w ->
    optional height rest ops2 h -> operands O_normalmap rest (ops1 ++ ops2) (D_normalmap w h)
| P_grayscale rest : operands O_grayscale rest [] D_grayscale
| P_swizzle rest c0 c1 c2 c3 r g b a :
    letter c0 = Some r -> letter c1 = Some g -> letter c2 = Some b -> letter c3 = Some a ->
    operands O_swizzle rest [String c0 (String c1 (String c2 (String c3 EmptyString)))] (D_swizzle r g b a)
| P_srgb rest : operands O_srgb rest [] D_srgb
| P_premultiply rest : operands O_premultiply rest [] D_premultiply
| P_dimension rest a d : In (a, d) dimension_names -> operands O_dimension rest [a] (D_dimension d)
| P_format rest a : operands O_format rest [a] (D_format (named (format_names fl) a))
| P_type rest a t : named type_names a = Some t -> operands O_type rest [a] (D_type t)
| P_alpha rest a v : named alpha_names a = Some v -> operands O_alpha rest [a] (D_alpha v)
| P_quality rest a q : named quality_names a = Some q -> operands O_quality rest [a] (D_quality q)
| P_output rest f : operands O_output rest [f] (D_output f)
| P_fileformat rest a t : named filetype_names a = Some t -> operands O_fileformat rest [a] (D_fileformat t)
| P_createdir rest : operands O_createdir rest [] D_createdir.

(** The words of a command line spell a sequence of directives. *)
Inductive spelled : list string -> list directive -> Prop :=
| spelled_nil : spelled [] []
| spelled_cons o h ops rest d ds : In h (option_words o) -> operands o rest ops d -> spelled rest ds ->
    spelled (h :: ops ++ rest) (d :: ds).

End Grammar.

(** * Meaning *)

(** The value given by the last directive that gives one. *)
Definition last_of {A} (sel : directive -> option A) (default : A) (ds : list directive) : A :=
  fold_left (fun v d => match sel d with Some x => x | None => v end) ds default.

Definition drops (pick : channel * channel * channel * channel -> channel) (d : directive) : bool :=
  match d with
  | D_swizzle r g b a => match pick (r, g, b, a) with Ch_None => true | _ => false end
  | _ => false
  end.
Definition ch_r (p : channel * channel * channel * channel) : channel := let '(r, _, _, _) := p in r.
Definition ch_g (p : channel * channel * channel * channel) : channel := let '(_, g, _, _) := p in g.
Definition ch_b (p : channel * channel * channel * channel) : channel := let '(_, _, b, _) := p in b.
Definition ch_a (p : channel * channel * channel * channel) : channel := let '(_, _, _, a) := p in a.
Definition chan (pick : channel * channel * channel * channel -> channel) (d : directive) : option channel :=
  match d with D_swizzle r g b a => Some (pick (r, g, b, a)) | _ => None end.

Definition is_flipx (d : directive) : bool := match d with D_flipx => true | _ => false end.
Definition is_flipy (d : directive) : bool := match d with D_flipy => true | _ => false end.
Definition is_normalmap (d : directive) : bool := match d with D_normalmap _ _ => true | _ => false end.
Definition is_grayscale (d : directive) : bool := match d with D_grayscale => true | _ => false end.
Definition is_swizzle (d : directive) : bool := match d with D_swizzle _ _ _ _ => true | _ => false end.
Definition is_srgb (d : directive) : bool := match d with D_srgb => true | _ => false end.
Definition is_premultiply (d : directive) : bool := match d with D_premultiply => true | _ => false end.
Definition is_alpha (d : directive) : bool := match d with D_alpha _ => true | _ => false end.
Definition is_createdir (d : directive) : bool := match d with D_createdir => true | _ => false end.

(** The format and the type: a format that is always an unsigned float sets the type, and so
    does every later word after -f. *)
Definition format_type (ds : list directive) : format * ttype :=
  fold_left (fun '(f, t) d =>
    match d with
    | D_type t' => (f, t')
    | D_format o => let f' := match o with Some f' => f' | None => f end in
                    (f', if special_format f' then T_UFloat else t)
    | _ => (f, t)
    end) ds (F_Unknown, T_UNorm).

(** The kind of input. *)
Definition kind_of (ds : list directive) : imagetype :=
  last_of (fun d => match d with D_array _ _ => Some IT_Array | D_cube _ _ => Some IT_Cube
                               | D_cubearray _ _ _ => Some IT_CubeArray | D_inputlist k _ => Some k
                               | _ => None end) IT_Image ds.

(** Every field of the configuration but the images and the custom mips. *)
Record settings (ds : list directive) (c : cl) : Prop := {
  m_jobs : c_jobs c = last_of (fun d => match d with
      | D_jobs None => Some allOnes | D_jobs (Some n) => Some (Z.to_N (n mod 2 ^ 32)) | _ => None end) 1 ds;
  m_log : c_log c = last_of (fun d => match d with
      | D_quiet => Some Log_Quiet | D_verbose => Some Log_Verbose | _ => None end) Log_Normal ds;
  m_kind : c_imageType c = kind_of ds;
  m_width : c_width c = last_of (fun d => match d with D_resize w _ _ => Some w | _ => None end) (-1)%Z ds;
  m_height : c_height c = last_of (fun d => match d with D_resize _ h _ => Some h | _ => None end) (-1)%Z ds;
  m_resizeFilter : c_resizeFilter c =
    last_of (fun d => match d with D_resize _ _ f => f | _ => None end) RF_CatmullRom ds;
  m_mipLevels : c_mipLevels c = last_of (fun d => match d with
      | D_mipmap None _ => Some allOnes | D_mipmap (Some n) _ => Some (n mod 2 ^ 32) | _ => None end) 1 ds;
  m_mipFilter : c_mipFilter c =
    last_of (fun d => match d with D_mipmap _ f => f | _ => None end) RF_CatmullRom ds;
  m_flipX : c_flipX c = existsb is_flipx ds;
  m_flipY : c_flipY c = existsb is_flipy ds;
  m_turns : turns c = Z.rem (Z.quot (last_of (fun d => match d with D_rotate z => Some z | _ => None end) 0%Z ds) 90) 4;
  m_normalMap : c_normalMap c = existsb is_normalmap ds;
  m_normalOptions : c_normalOptions c =
    last_of (fun d => match d with D_normalmap w _ => w | _ => None end) 0 ds;
  m_normalHeight : c_normalHeight c =
    last_of (fun d => match d with D_normalmap _ (Some h) => Some (Some h) | _ => None end) None ds;
  m_grayscale : c_grayscale c = existsb is_grayscale ds;
  m_swizzle : c_swizzle c = existsb is_swizzle ds;
  m_redSwzl : c_redSwzl c = last_of (chan ch_r) Ch_Red ds;
  m_greenSwzl : c_greenSwzl c = last_of (chan ch_g) Ch_Green ds;
  m_blueSwzl : c_blueSwzl c = last_of (chan ch_b) Ch_Blue ds;
  m_alphaSwzl : c_alphaSwzl c = last_of (chan ch_a) Ch_Alpha ds;
  m_maskR : c_maskR c = negb (existsb (drops ch_r) ds);
  m_maskG : c_maskG c = negb (existsb (drops ch_g) ds);
  m_maskB : c_maskB c = negb (existsb (drops ch_b) ds);
  m_maskA : c_maskA c = negb (existsb (drops ch_a) ds);
  m_imageCS : c_imageCS c = (if existsb is_srgb ds then CS_sRGB else CS_Linear);
  m_textureCS : c_textureCS c = (if existsb is_srgb ds && hasNativeSRGB (c_fmt c) (c_ttyp c)
                                 then CS_sRGB else CS_Linear);
  m_preMultiply : c_preMultiply c = existsb is_premultiply ds;
  m_dim : c_dim c = match kind_of ds with
                    | IT_Cube | IT_CubeArray => Cube
                    | _ => last_of (fun d => match d with D_dimension v => Some v | _ => None end) Dim2D ds
                    end;
  m_fmt : c_fmt c = fst (format_type ds);
  m_ttyp : c_ttyp c = snd (format_type ds);
  m_alph : c_alph c =
    if existsb is_alpha ds then last_of (fun d => match d with D_alpha a => Some a | _ => None end) AlphaStandard ds
    else if existsb (drops ch_a) ds then AlphaNone
    else if existsb is_premultiply ds then AlphaPreMultiplied
    else AlphaStandard;
  m_quality : c_quality c = last_of (fun d => match d with D_quality q => Some q | _ => None end) Q_Normal ds;
  m_output : exists o, c_output c = Some o /\
    flat_map (fun d => match d with D_output f => [f] | _ => [] end) ds = [o] /\
    c_ftype c = match last_of (fun d => match d with D_fileformat t => Some t | _ => None end) FT_Auto ds with
                | FT_Auto => fileType (codes o)
                | t => t
                end;
  m_createOutputDir : c_createOutputDir c = existsb is_createdir ds }.

(** * Images *)

(** The number the next image gets, and the place of each image. *)
Fixpoint number_from (k : N) (l : list string) : list (N * string) :=
  match l with [] => [] | s :: t => (k, s) :: number_from (k + 1) t end.

Definition list_lines (file : string -> option string) (f : string) : list string :=
  match file f with Some content => nonempty_lines content | None => [] end.

(** [next] is the number of places so far.  An image of an array without an index takes the
    next place; the first face of a cube makes six places; cube [i] of an array of cubes has
    the places 6 i to 6 i + 5. *)
Fixpoint placed (file : string -> option string) (next : N) (ds : list directive) : list (N * string) :=
  match ds with
  | [] => []
  | d :: r =>
      match d with
      | D_input f => (0, f) :: placed file 1 r
      | D_array i f => let k := match i with Some i => i | None => next end in
                       (k, f) :: placed file (N.max next (k + 1)) r
      | D_cube face f => (face, f) :: placed file (if next =? 0 then 6 else next) r
      | D_cubearray i face f => (6 * i + face, f) :: placed file (if next <=? 6 * i then 6 * i + 6 else next) r
      | D_inputlist _ f => number_from 0 (list_lines file f) ++ placed file (N.of_nat (length (list_lines file f))) r
      | _ => placed file next r
      end
  end.

(** The entries of the table of custom mips a directive adds.  A list file is described when
    it is written in the full form of C50. *)
Definition entries (file : string -> option string) (d : directive) (es : list (index * (string * replacement))) : Prop :=
  match d with
  | D_custommip level depth face r f =>
      es = [(Index (match face with Some x => x | None => 0 end) (level mod 2 ^ 32)
                   (match depth with Some x => x mod 2 ^ 32 | None => 0 end),
             (f, match r with Some x => x | None => Continue end))]
  | D_custommiplist f => exists content, file f = Some content /\
      forall l, content = String.concat "" (map mip_line l) -> Forall entry_ok l -> es = l
  | _ => es = []
  end.

(** * Acceptance *)

Definition is_image (d : directive) : bool :=
  match d with D_input _ | D_array _ _ | D_cube _ _ | D_cubearray _ _ _ | D_inputlist _ _ => true | _ => false end.

Definition is_custom (d : directive) : bool :=
  match d with D_custommip _ _ _ _ _ | D_custommiplist _ => true | _ => false end.

(** The usual ways to give images: one file, the elements of an array in order, or the six faces
    of a cube in any order. *)
Inductive usual_images (cap : N) : list directive -> imagetype -> Prop :=
| U_image f : f <> "" -> usual_images cap [D_input f] IT_Image
| U_array fs : fs <> [] -> Forall (fun f => f <> "") fs -> N.of_nat (length fs) <= cap ->
    N.of_nat (length fs) < 2 ^ 64 -> usual_images cap (map (D_array None) fs) IT_Array
| U_cube p : Permutation (map fst p) [0; 1; 2; 3; 4; 5] -> Forall (fun x => snd x <> "") p -> 6 <= cap ->
    usual_images cap (map (fun x => D_cube (fst x) (snd x)) p) IT_Cube.

(** A sequence of directives that makes a texture: the images in one of the usual ways, one
    output, formats that exist, no custom mips, and a combination of format, type and file
    type that can be written. *)
Record makes_texture (fl : flags) (cap : N) (ds : list directive) : Prop := {
  t_images : usual_images cap (filter is_image ds) (kind_of ds);
  t_dim : kind_of ds = IT_Cube ->
    last_of (fun d => match d with D_dimension v => Some v | _ => None end) Dim2D ds = Dim2D;
  t_custom : existsb is_custom ds = false;
  t_formats : forall o, In (D_format o) ds -> o <> None;
  t_output : exists o, flat_map (fun d => match d with D_output f => [f] | _ => [] end) ds = [o] /\
    let ft := match last_of (fun d => match d with D_fileformat t => Some t | _ => None end) FT_Auto ds with
              | FT_Auto => fileType (codes o)
              | t => t
              end in
    ft <> FT_Auto /\ isFormatValidFile fl (fst (format_type ds)) (snd (format_type ds)) ft = true }.

(** Model of the Image object around a FreeImage bitmap, lib/src/Image.cpp: which bitmaps are made,
    who holds them and when they are released, and the descriptors read from them.  The pixels
    are an abstract type; the loops over them are parameters here and modelled in the other
    files.  Running out of memory in `new Impl` (an exception) is not modelled. *)

From Coq Require Import NArith List Bool.
From Verif Require Import Base FormatModel TextureModel ImageModel ImageConvertModel.
Import ListNotations.
Local Open Scope N_scope.

(** FREE_IMAGE_TYPE of FreeImage.h, as far as Image.cpp names it; the rest is [FIT_OTHER]. *)
Inductive fitype :=
| FIT_BITMAP | FIT_UINT16 | FIT_INT16 | FIT_UINT32 | FIT_INT32 | FIT_FLOAT | FIT_DOUBLE
| FIT_COMPLEX | FIT_RGB16 | FIT_RGBA16 | FIT_RGBF | FIT_RGBAF | FIT_OTHER.

(** What FreeImage tells about a bitmap: FreeImage_GetImageType, GetBPP, Get*Mask,
    GetColorType == FIC_PALETTE, IsTransparent, GetWidth, GetHeight; and its pixels. *)
Record fib (P : Type) := Fib {
  f_type : fitype; f_bpp : N; f_red : N; f_green : N; f_blue : N;
  f_palette : bool; f_transparent : bool; f_w : N; f_h : N; f_data : P }.
Arguments Fib {P}. Arguments f_type {P}. Arguments f_bpp {P}. Arguments f_red {P}.
Arguments f_green {P}. Arguments f_blue {P}. Arguments f_palette {P}. Arguments f_transparent {P}.
Arguments f_w {P}. Arguments f_h {P}. Arguments f_data {P}.
Definition withData {P} (b : fib P) (d : P) : fib P :=
  Fib (f_type b) (f_bpp b) (f_red b) (f_green b) (f_blue b) (f_palette b) (f_transparent b)
    (f_w b) (f_h b) d.

(** The constants of FreeImage.h on a little endian machine.  FI_RGBA_RED, FI_RGBA_GREEN and
    FI_RGBA_BLUE are the positions of the bytes in a pixel, not masks. *)
Definition FI_RGBA_RED := 2. Definition FI_RGBA_GREEN := 1. Definition FI_RGBA_BLUE := 0.
Definition FI_RGBA_RED_SHIFT := 16. Definition FI_RGBA_GREEN_SHIFT := 8.
Definition FI_RGBA_BLUE_SHIFT := 0. Definition FI_RGBA_ALPHA_SHIFT := 24.
Definition FI_RGBA_ALPHA_MASK := 0xFF000000.
Definition FI16_555_RED_MASK := 0x7C00. Definition FI16_555_GREEN_MASK := 0x03E0.
Definition FI16_555_BLUE_MASK := 0x001F.
Definition FI16_555_RED_SHIFT := 10. Definition FI16_555_GREEN_SHIFT := 5.
Definition FI16_555_BLUE_SHIFT := 0.
Definition FI16_565_RED_MASK := 0xF800. Definition FI16_565_GREEN_MASK := 0x07E0.
Definition FI16_565_BLUE_MASK := 0x001F.
Definition FI16_565_RED_SHIFT := 11. Definition FI16_565_GREEN_SHIFT := 5.
Definition FI16_565_BLUE_SHIFT := 0.

(** getFormat, Image.cpp:56-107; [None] is Format::Invalid. *)
Definition getFormat {P} (b : fib P) : option imgfmt :=
  match f_type b with
  | FIT_BITMAP =>
      if f_bpp b =? 8 then Some I_Gray8
      else if f_bpp b =? 16 then
        if f_green b =? FI16_555_GREEN_MASK then Some I_RGB5
        else if f_green b =? FI16_565_GREEN_MASK then Some I_RGB565
        else None
      else if f_bpp b =? 24 then Some I_RGB8
      else if f_bpp b =? 32 then Some I_RGBA8
      else None
  | FIT_UINT16 => Some I_Gray16
  | FIT_INT16 => Some I_Int16
  | FIT_UINT32 => Some I_UInt32
  | FIT_INT32 => Some I_Int32
  | FIT_FLOAT => Some I_Float
  | FIT_DOUBLE => Some I_Double
  | FIT_COMPLEX => Some I_Complex
  | FIT_RGB16 => Some I_RGB16
  | FIT_RGBA16 => Some I_RGBA16
  | FIT_RGBF => Some I_RGBF
  | FIT_RGBAF => Some I_RGBAF
  | FIT_OTHER => None
  end.

(** getFreeImageFormat, Image.cpp:109-167, for a valid format: type, bpp and masks. *)
Definition getFreeImageFormat (f : imgfmt) : fitype * N * (N * N * N) :=
  match f with
  | I_Gray8 => (FIT_BITMAP, 8, (0, 0, 0))
  | I_Gray16 => (FIT_UINT16, 0, (0, 0, 0))
  | I_RGB5 => (FIT_BITMAP, 16, (FI16_555_RED_MASK, FI16_555_GREEN_MASK, FI16_555_BLUE_MASK))
  | I_RGB565 => (FIT_BITMAP, 16, (FI16_565_RED_MASK, FI16_565_GREEN_MASK, FI16_565_BLUE_MASK))
  | I_RGB8 => (FIT_BITMAP, 24, (0, 0, 0))
  | I_RGB16 => (FIT_RGB16, 0, (0, 0, 0))
  | I_RGBF => (FIT_RGBF, 0, (0, 0, 0))
  | I_RGBA8 => (FIT_BITMAP, 32, (0, 0, 0))
  | I_RGBA16 => (FIT_RGBA16, 0, (0, 0, 0))
  | I_RGBAF => (FIT_RGBAF, 0, (0, 0, 0))
  | I_Int16 => (FIT_INT16, 0, (0, 0, 0))
  | I_UInt16 => (FIT_UINT16, 0, (0, 0, 0))
  | I_Int32 => (FIT_INT32, 0, (0, 0, 0))
  | I_UInt32 => (FIT_UINT32, 0, (0, 0, 0))
  | I_Float => (FIT_FLOAT, 0, (0, 0, 0))
  | I_Double => (FIT_DOUBLE, 0, (0, 0, 0))
  | I_Complex => (FIT_COMPLEX, 0, (0, 0, 0))
  end.

(** The members of Image::Impl other than the pointer to the bitmap, Image.cpp:790-811. *)
Record info := Info {
  i_format : imgfmt; i_cs : colorspace; i_bpp : N; i_w : N; i_h : N;
  i_redMask : N; i_greenMask : N; i_blueMask : N; i_alphaMask : N;
  i_redShift : N; i_greenShift : N; i_blueShift : N; i_alphaShift : N }.

(** Image::Impl::Impl, Image.cpp:740-776.  The blue mask is read with FreeImage_GetGreenMask. *)
Definition mkInfo {P} (b : fib P) (f : imgfmt) (cs : colorspace) : info :=
  let redMask := f_red b in
  let greenMask := f_green b in
  let blueMask := f_green b in
  let alphaMask := if imgfmt_eqb f I_RGBA8 then FI_RGBA_ALPHA_MASK else 0 in
  Info f cs (f_bpp b) (f_w b) (f_h b) redMask greenMask blueMask alphaMask
    (if redMask =? FI_RGBA_RED then FI_RGBA_RED_SHIFT
     else if redMask =? FI16_555_RED_MASK then FI16_555_RED_SHIFT
     else if redMask =? FI16_565_RED_MASK then FI16_565_RED_SHIFT else 0)
    (if greenMask =? FI_RGBA_GREEN then FI_RGBA_GREEN_SHIFT
     else if greenMask =? FI16_555_GREEN_MASK then FI16_555_GREEN_SHIFT
     else if greenMask =? FI16_565_GREEN_MASK then FI16_565_GREEN_SHIFT else 0)
    (if blueMask =? FI_RGBA_BLUE then FI_RGBA_BLUE_SHIFT
     else if blueMask =? FI16_555_BLUE_MASK then FI16_555_BLUE_SHIFT
     else if blueMask =? FI16_565_BLUE_MASK then FI16_565_BLUE_SHIFT else 0)
    (if alphaMask =? FI_RGBA_ALPHA_MASK then FI_RGBA_ALPHA_SHIFT else 0).

Section Objects.
Context {P : Type}.  (* the pixels of a bitmap *)
Context {S : Type}.  (* files, streams and blocks of memory to load from *)

(** The FreeImage calls that make a bitmap. *)
Inductive request :=
| RClone (b : fib P)
| RTo24 (b : fib P) | RTo32 (b : fib P)
| RAlloc (t : fitype) (w h bpp r g bl : N)
| RLoad (src : S)
| RConvert (c : fi_call) (b : fib P)
| RRescale (b : fib P) (w h : N) (f : rfilter)
| RRotate (b : fib P) (degrees : N).

(** The loops that fill a bitmap from another (see ImageConvertModel, ResizeModel, ImageModel and
    NormalModel), and the operations that change the pixels of an image in place. *)
Inductive work :=
| WConvert (grayscale : bool) | WResize (f : rfilter) | WRotate (degrees : N) | WNormal (options : N).
Inductive change :=
| ChPixel (x y : N) | ChFlipHorizontal | ChFlipVertical | ChPreMultiply | ChSpace (cs : colorspace)
| ChGrayscale | ChSwizzle (k : N).

(** FreeImage and the loops: call number [n] may make a bitmap or fail; files and memory may be
    of an unknown type; opening memory may fail. *)
Record world := World {
  w_make : nat -> request -> option (fib P);
  w_known : nat -> S -> bool;
  w_open : nat -> bool;
  w_work : work -> fib P -> imgfmt -> fib P -> P;
  w_change : change -> imgfmt -> colorspace -> fib P -> P }.
Context (W : world).

(** FreeImage's heap: bitmaps and open memory streams by address; addresses are call numbers. *)
Inductive thing := TBitmap (b : fib P) | TMemory.
Record heap := Heap { h_at : nat -> option thing; h_next : nat }.
Definition setAt (m : nat -> option thing) (k : nat) (v : option thing) : nat -> option thing :=
  fun i => if Nat.eqb i k then v else m i.

(** A computation; [None] is undefined behaviour (a bad address is used or released). *)
Definition M (X : Type) := heap -> option (heap * X).
Definition ret {X} (x : X) : M X := fun h => Some (h, x).
Definition bind {X Y} (m : M X) (k : X -> M Y) : M Y :=
  fun h => match m h with Some (h', x) => k x h' | None => None end.

(** The bitmap at an address. *)
Definition look (a : nat) : M (fib P) :=
  fun h => match h_at h a with Some (TBitmap b) => Some (h, b) | _ => None end.
(** A FreeImage call that makes a bitmap: its address or a null pointer. *)
Definition make (r : request) : M (option nat) :=
  fun h => match w_make W (h_next h) r with
           | Some b => Some (Heap (setAt (h_at h) (h_next h) (Some (TBitmap b))) (Datatypes.S (h_next h)), Some (h_next h))
           | None => Some (Heap (h_at h) (Datatypes.S (h_next h)), None)
           end.
(** FreeImage_Unload. *)
Definition unload (a : nat) : M unit :=
  fun h => match h_at h a with
           | Some (TBitmap _) => Some (Heap (setAt (h_at h) a None) (h_next h), tt)
           | _ => None
           end.
(** Writing the pixels of the bitmap at an address. *)
Definition store (a : nat) (d : P) : M unit :=
  fun h => match h_at h a with
           | Some (TBitmap b) => Some (Heap (setAt (h_at h) a (Some (TBitmap (withData b d)))) (h_next h), tt)
           | _ => None
           end.
(** FreeImage_OpenMemory and FreeImage_CloseMemory. *)
Definition openMemory : M (option nat) :=
  fun h => if w_open W (h_next h)
           then Some (Heap (setAt (h_at h) (h_next h) (Some TMemory)) (Datatypes.S (h_next h)), Some (h_next h))
           else Some (Heap (h_at h) (Datatypes.S (h_next h)), None).
Definition closeMemory (a : nat) : M unit :=
  fun h => match h_at h a with
           | Some TMemory => Some (Heap (setAt (h_at h) a None) (h_next h), tt)
           | _ => None
           end.
(** FreeImage_GetFileType and its variants: whether the type is known. *)
Definition known (src : S) : M bool :=
  fun h => Some (Heap (h_at h) (Datatypes.S (h_next h)), w_known W (h_next h) src).

(** Image::Impl: the pointer to the bitmap and the other members.  An Image holds one or none
    (std::unique_ptr<Impl>). *)
Record impl := Impl { p_bitmap : nat; p_info : info }.
Definition img := option impl.

(** Image::Impl::create, Image.cpp:711-738; [f] is [None] for Format::Invalid. *)
Definition create (image : option nat) (cs : colorspace) (f : option imgfmt) : M img :=
  match image with
  | None => ret None
  | Some a =>
      bind (look a) (fun b =>
      bind (if f_palette b then
              bind (make (if f_transparent b then RTo32 b else RTo24 b)) (fun n =>
              bind (unload a) (fun _ => ret n))
            else ret (Some a)) (fun image' =>
      match image' with
      | None => ret None
      | Some a' =>
          bind (look a') (fun b' =>
          match (match f with Some g => Some g | None => getFormat b' end) with
          | None => bind (unload a') (fun _ => ret None)
          | Some g => ret (Some (Impl a' (mkInfo b' g cs)))
          end)
      end))
  end.

(** ~Impl, Image.cpp:778-782, through the destructor or reset() of the unique_ptr. *)
Definition release (o : img) : M unit :=
  match o with None => ret tt | Some im => unload (p_bitmap im) end.

(** The copy constructor, Image.cpp:831-839, and the second half of copy assignment. *)
Definition copyOf (o : img) : M img :=
  match o with
  | None => ret None
  | Some im =>
      bind (look (p_bitmap im)) (fun b =>
      bind (make (RClone b)) (fun a =>
      match a with
      | None => ret None
      | Some _ => create a (i_cs (p_info im)) (Some (i_format (p_info im)))
      end))
  end.

(** Image::initialize, Image.cpp:960-973, on an image that holds [o]; [f] is [None] for
    Format::Invalid, for which getFreeImageFormat gives FIT_UNKNOWN. *)
Definition initImage (o : img) (f : option imgfmt) (w h : N) (cs : colorspace) : M img :=
  bind (release o) (fun _ =>
  match f with
  | None => ret None
  | Some g =>
      let '(t, bpp, (r, gr, bl)) := getFreeImageFormat g in
      bind (make (RAlloc t w h bpp r gr bl)) (fun a => create a cs (Some g))
  end).

(** Image::load, Image.cpp:870-881 (file), 883-903 (stream), 905-926 (memory).  A stream that
    cannot seek is read into memory first (886-891). *)
Inductive loadkind := LFile | LStream (seekable : bool) | LMemory.
Definition loadMemory (o : img) (src : S) (cs : colorspace) : M img :=
  bind (release o) (fun _ =>
  bind openMemory (fun s =>
  match s with
  | None => ret None
  | Some m =>
      bind (known src) (fun k =>
      if k then
        bind (make (RLoad src)) (fun a =>
        bind (create a cs None) (fun r =>
        bind (closeMemory m) (fun _ => ret r)))
      else bind (closeMemory m) (fun _ => ret None))
  end)).
Definition loadHandle (o : img) (src : S) (cs : colorspace) : M img :=
  bind (release o) (fun _ =>
  bind (known src) (fun k =>
  if k then bind (make (RLoad src)) (fun a => create a cs None) else ret None)).
Definition loadImage (o : img) (k : loadkind) (src : S) (cs : colorspace) : M img :=
  match k with
  | LFile | LStream true => loadHandle o src cs
  | LStream false | LMemory => loadMemory o src cs
  end.

(** The loop that fills [dst] from [src]. *)
Definition fill (w : work) (src dst : impl) : M unit :=
  bind (look (p_bitmap src)) (fun b =>
  bind (look (p_bitmap dst)) (fun d =>
  store (p_bitmap dst) (w_work W w b (i_format (p_info src)) d))).

(** initialize on the empty local image, return if that fails, and fill the new one. *)
Definition fresh (src : impl) (f : option imgfmt) (w h : N) (wk : work) : M img :=
  bind (initImage None f w h (i_cs (p_info src))) (fun r =>
  match r with
  | None => ret None
  | Some d => bind (fill wk src d) (fun _ => ret (Some d))
  end).

(** Image::convert, Image.cpp:1130-1322. *)
Definition convertImage (o : img) (dst : option imgfmt) (gray : bool) : M img :=
  match o with
  | None => ret None
  | Some im =>
      match dst with
      | None => ret None
      | Some g =>
          if imgfmt_eqb (i_format (p_info im)) g then copyOf o
          else
            let grayscale := gray && isGrayscaleFormat g in
            let lin := grayscale && negb (cs_is_srgb (i_cs (p_info im))) in
            bind (match fiCall (i_format (p_info im)) g lin with
                  | None => ret None
                  | Some c =>
                      bind (look (p_bitmap im)) (fun b =>
                      bind (make (RConvert c b)) (fun a => create a (i_cs (p_info im)) (Some g)))
                  end) (fun r =>
            match r with
            | Some d => ret (Some d)
            | None => fresh im (Some g) (i_w (p_info im)) (i_h (p_info im)) (WConvert grayscale)
            end)
      end
  end.

(** An operation that changes an image in place; colour spaces are set by changeColorSpace,
    Image.cpp:1667-1712. *)
Definition changeImage (o : img) (c : change) : M img :=
  match o with
  | None => ret None
  | Some im =>
      let i := p_info im in
      bind (look (p_bitmap im)) (fun b =>
      bind (store (p_bitmap im) (w_change W c (i_format i) (i_cs i) b)) (fun _ =>
      ret (Some (match c with
                 | ChSpace cs => Impl (p_bitmap im) (Info (i_format i) cs (i_bpp i) (i_w i) (i_h i)
                     (i_redMask i) (i_greenMask i) (i_blueMask i) (i_alphaMask i)
                     (i_redShift i) (i_greenShift i) (i_blueShift i) (i_alphaShift i))
                 | _ => im
                 end))))
  end.

(** The formats Image::resize does not hand to FreeImage, Image.cpp:1366-1380. *)
Definition rescales (f : imgfmt) : bool :=
  match f with I_Int16 | I_Int32 | I_UInt32 | I_Double | I_Complex => false | _ => true end.

(** Image::resize, Image.cpp:1324-1511.  The part after 1345, for an image in linear space. *)
Definition resizeLinear (im : impl) (w h : N) (f : rfilter) : M img :=
  let i := p_info im in
  bind (if rescales (i_format i) then
          bind (look (p_bitmap im)) (fun b =>
          bind (make (RRescale b w h f)) (fun a => create a (i_cs i) (Some (i_format i))))
        else ret None) (fun r =>
  match r with
  | Some d => ret (Some d)
  | None =>
      match f with
      | RF_Box | RF_Linear => fresh im (Some (i_format i)) w h (WResize f)
      | _ => ret None
      end
  end).
(** In sRGB: `image = *this; image.changeColorSpace(..); image = image.resize(..);
    image.changeColorSpace(..)`, Image.cpp:1337-1343; the third releases the copy. *)
Definition resizeImage (o : img) (w h : N) (f : rfilter) : M img :=
  match o with
  | None => ret None
  | Some im =>
      let i := p_info im in
      if (w =? 0) || (h =? 0) then ret None
      else if (w =? i_w i) && (h =? i_h i) then copyOf o
      else
        match i_cs i with
        | CS_Linear => resizeLinear im w h f
        | CS_sRGB =>
            bind (copyOf o) (fun c =>
            bind (changeImage c (ChSpace CS_Linear)) (fun c' =>
            bind (match c' with
                  | None => ret None
                  | Some im' => resizeLinear im' w h f
                  end) (fun r =>
            bind (release c') (fun _ => changeImage r (ChSpace CS_sRGB)))))
        end
  end.

(** Image::rotate, Image.cpp:1513-1603; [degrees] is 90, 180 or 270. *)
Definition rotateImage (o : img) (degrees : N) : M img :=
  match o with
  | None => ret None
  | Some im =>
      let i := p_info im in
      bind (look (p_bitmap im)) (fun b =>
      bind (make (RRotate b degrees)) (fun a =>
      bind (create a (i_cs i) (Some (i_format i))) (fun r =>
      match r with
      | Some d => ret (Some d)
      | None =>
          if degrees =? 180 then fresh im (Some (i_format i)) (i_w i) (i_h i) (WRotate degrees)
          else fresh im (Some (i_format i)) (i_h i) (i_w i) (WRotate degrees)
      end)))
  end.

(** Image::createNormalMap, Image.cpp:1783-1880. *)
Definition normalImage (o : img) (options : N) (f : option imgfmt) : M img :=
  match o with
  | None => ret None
  | Some im => fresh im f (i_w (p_info im)) (i_h (p_info im)) (WNormal options)
  end.

(** ** Programs that use images *)

(** The statements of a program over image variables; [v] on the left of a construction is a
    variable not yet constructed. *)
Inductive stmt :=
| SNew (v : nat)                                     (* Image v;                   *)
| SCopy (v u : nat)                                  (* Image v(u);                *)
| SMove (v u : nat)                                  (* Image v(std::move(u));     *)
| SAssign (v u : nat)                                (* v = u;                     *)
| SMoveAssign (v u : nat)                            (* v = std::move(u);          *)
| SDelete (v : nat)                                  (* v goes out of scope        *)
| SLoad (v : nat) (k : loadkind) (src : S) (cs : colorspace)
| SInit (v : nat) (f : option imgfmt) (w h : N) (cs : colorspace)
| SReset (v : nat)
| SChange (v : nat) (c : change)
| SConvert (v u : nat) (f : option imgfmt) (gray : bool)   (* Image v = u.convert(..);  *)
| SResize (v u : nat) (w h : N) (f : rfilter)
| SRotate (v u : nat) (degrees : N)
| SNormal (v u : nat) (options : N) (f : option imgfmt).

(** The variables: not constructed, or constructed and holding an Impl or none. *)
Record pstate := PState { ps_vars : nat -> option img; ps_heap : heap }.
Definition setVar (m : nat -> option img) (v : nat) (x : option img) : nat -> option img :=
  fun i => if Nat.eqb i v then x else m i.

Inductive outcome := Done (s : pstate) | Misuse (* the program's fault *) | Undefined.

Definition run1 (v : nat) (s : pstate) (m : M img) : outcome :=
  match m (ps_heap s) with
  | None => Undefined
  | Some (h, r) => Done (PState (setVar (ps_vars s) v (Some r)) h)
  end.
(** A new variable made from an existing one. *)
Definition newFrom (v u : nat) (s : pstate) (m : img -> M img) : outcome :=
  match ps_vars s v, ps_vars s u with
  | None, Some o => run1 v s (m o)
  | _, _ => Misuse
  end.
(** An existing variable changed. *)
Definition onVar (v : nat) (s : pstate) (m : img -> M img) : outcome :=
  match ps_vars s v with Some o => run1 v s (m o) | None => Misuse end.

Definition step (c : stmt) (s : pstate) : outcome :=
  match c with
  | SNew v => match ps_vars s v with
              | None => Done (PState (setVar (ps_vars s) v (Some None)) (ps_heap s))
              | Some _ => Misuse
              end
  | SCopy v u => newFrom v u s copyOf
  | SMove v u =>
      match ps_vars s v, ps_vars s u with
      | None, Some o => Done (PState (setVar (setVar (ps_vars s) u (Some None)) v (Some o)) (ps_heap s))
      | _, _ => Misuse
      end
  | SAssign v u =>
      (* Image.cpp:843-855 *)
      match ps_vars s v, ps_vars s u with
      | Some old, Some o =>
          if Nat.eqb v u then Done s
          else run1 v s (bind (release old) (fun _ => copyOf o))
      | _, _ => Misuse
      end
  | SMoveAssign v u =>
      (* the default: m_impl = std::move(other.m_impl), that is reset(other.release()) *)
      match ps_vars s v, ps_vars s u with
      | Some old, Some o =>
          if Nat.eqb v u then Done s
          else match release old (ps_heap s) with
               | None => Undefined
               | Some (h, _) => Done (PState (setVar (setVar (ps_vars s) u (Some None)) v (Some o)) h)
               end
      | _, _ => Misuse
      end
  | SDelete v =>
      match ps_vars s v with
      | Some o => match release o (ps_heap s) with
                  | None => Undefined
                  | Some (h, _) => Done (PState (setVar (ps_vars s) v None) h)
                  end
      | None => Misuse
      end
  | SLoad v k src cs => onVar v s (fun o => loadImage o k src cs)
  | SInit v f w h cs => onVar v s (fun o => initImage o f w h cs)
  | SReset v => onVar v s (fun o => bind (release o) (fun _ => ret None))
  | SChange v c => onVar v s (fun o => changeImage o c)
  | SConvert v u f gray => newFrom v u s (fun o => convertImage o f gray)
  | SResize v u w h f => newFrom v u s (fun o => resizeImage o w h f)
  | SRotate v u d => newFrom v u s (fun o => rotateImage o d)
  | SNormal v u k f => newFrom v u s (fun o => normalImage o k f)
  end.

Definition start : pstate := PState (fun _ => None) (Heap (fun _ => None) 0).
Fixpoint exec (cs : list stmt) (s : pstate) : outcome :=
  match cs with
  | [] => Done s
  | c :: r => match step c s with Done s' => exec r s' | o => o end
  end.

End Objects.
Arguments request : clear implicits.
Arguments world : clear implicits.
Arguments heap : clear implicits.
Arguments pstate : clear implicits.
Arguments thing : clear implicits.
Arguments outcome : clear implicits.
Arguments stmt : clear implicits.

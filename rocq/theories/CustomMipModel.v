(** Texture::CustomMipImage: an object that either owns its image (its pointer
    designates its own storage) or borrows one.  lib/include/cuttlefish/Texture.h
    325-394 and lib/src/Texture.cpp 258-316. *)
From Coq Require Import NArith List Bool.
From Verif Require Import Base FormatModel TextureModel.
Import ListNotations.
Local Open Scope N_scope.

Section CustomMip.
Context {C : Type}.

(** Addresses of Image objects: the imageStorage member of the CustomMipImage at
    an address, or an Image living elsewhere. *)
Inductive ptr := PStorage (obj : N) | PExternal (k : N).

(** Texture.h 381-394: the three members. *)
Record cmi := Cmi { c_image : ptr; c_repl : replacement; c_storage : image C }.

(** Memory: the CustomMipImage objects by address, and the external images. *)
Record mem := Mem { m_obj : N -> option cmi; m_ext : N -> image C }.

Definition setobj (m : mem) (a : N) (o : cmi) : mem :=
  Mem (fun b => if b =? a then Some o else m_obj m b) (m_ext m).

Definition ptr_eqb (p q : ptr) : bool :=
  match p, q with
  | PStorage a, PStorage b => a =? b
  | PExternal a, PExternal b => a =? b
  | _, _ => false
  end.

(** CustomMipImage(const Image&, MipReplacement), Texture.h 337-340. *)
Definition ctor_borrow (m : mem) (a k : N) (r : replacement) : mem :=
  setobj m a (Cmi (PExternal k) r NoImage).

(** CustomMipImage(Image&&, MipReplacement), Texture.h 350-353. *)
Definition ctor_own (m : mem) (a : N) (i : image C) (r : replacement) : mem :=
  setobj m a (Cmi (PStorage a) r i).

(** Copy constructor, Texture.cpp 258-268: object [a] is built from object [b].
    Copying an Image is assumed to succeed (FreeImage_Clone). *)
Definition ctor_copy (m : mem) (a b : N) : option mem :=
  obind (m_obj m b) (fun o =>
  Some (if ptr_eqb (c_image o) (PStorage b)
        then setobj m a (Cmi (PStorage a) (c_repl o) (c_storage o))
        else setobj m a (Cmi (c_image o) (c_repl o) NoImage))).

(** Move constructor, Texture.cpp 270-280: the source's storage is left empty. *)
Definition ctor_move (m : mem) (a b : N) : option mem :=
  obind (m_obj m b) (fun o =>
  Some (if ptr_eqb (c_image o) (PStorage b)
        then setobj (setobj m b (Cmi (c_image o) (c_repl o) NoImage))
                    a (Cmi (PStorage a) (c_repl o) (c_storage o))
        else setobj m a (Cmi (c_image o) (c_repl o) NoImage))).

(** Copy assignment, Texture.cpp 282-298: [replacement] is not assigned. *)
Definition assign_copy (m : mem) (a b : N) : option mem :=
  if a =? b then Some m
  else obind (m_obj m a) (fun d => obind (m_obj m b) (fun o =>
  Some (if ptr_eqb (c_image o) (PStorage b)
        then setobj m a (Cmi (PStorage a) (c_repl d) (c_storage o))
        else setobj m a (Cmi (c_image o) (c_repl d) NoImage)))).

(** Move assignment, Texture.cpp 300-316: likewise. *)
Definition assign_move (m : mem) (a b : N) : option mem :=
  if a =? b then Some m
  else obind (m_obj m a) (fun d => obind (m_obj m b) (fun o =>
  Some (if ptr_eqb (c_image o) (PStorage b)
        then setobj (setobj m b (Cmi (c_image o) (c_repl o) NoImage))
                    a (Cmi (PStorage a) (c_repl d) (c_storage o))
        else setobj m a (Cmi (c_image o) (c_repl d) NoImage)))).

(** The implicit destructor. *)
Definition destroy (m : mem) (a : N) : mem :=
  Mem (fun b => if b =? a then None else m_obj m b) (m_ext m).

(** Reading the image of the object at [a]; a dangling pointer is [None]. *)
Definition deref (m : mem) (a : N) : option (image C) :=
  obind (m_obj m a) (fun o =>
  match c_image o with
  | PExternal k => Some (m_ext m k)
  | PStorage b => obind (m_obj m b) (fun o' => Some (c_storage o'))
  end).

(** The replacement mode of the object at [a]. *)
Definition repl_of (m : mem) (a : N) : option replacement :=
  obind (m_obj m a) (fun o => Some (c_repl o)).

(** Operations on CustomMipImage objects, and sequences of them. *)
Inductive op :=
| OBorrow (a k : N) (r : replacement) | OOwn (a : N) (i : image C) (r : replacement)
| OCopy (a b : N) | OMove (a b : N) | OAssignCopy (a b : N) | OAssignMove (a b : N)
| ODestroy (a : N).

Definition exec (m : mem) (o : op) : option mem :=
  match o with
  | OBorrow a k r => Some (ctor_borrow m a k r)
  | OOwn a i r => Some (ctor_own m a i r)
  | OCopy a b => ctor_copy m a b
  | OMove a b => ctor_move m a b
  | OAssignCopy a b => assign_copy m a b
  | OAssignMove a b => assign_move m a b
  | ODestroy a => Some (destroy m a)
  end.

(** A constructor runs on fresh storage; the other operations on live objects. *)
Definition op_ok (m : mem) (o : op) : Prop :=
  match o with
  | OBorrow a _ _ | OOwn a _ _ => m_obj m a = None
  | OCopy a b | OMove a b => m_obj m a = None /\ m_obj m b <> None
  | OAssignCopy a b | OAssignMove a b => m_obj m a <> None /\ m_obj m b <> None
  | ODestroy a => m_obj m a <> None
  end.

Inductive mreach (ext : N -> image C) : mem -> Prop :=
| MR_init : mreach ext (Mem (fun _ => None) ext)
| MR_op m o m' : mreach ext m -> op_ok m o -> exec m o = Some m' -> mreach ext m'.

End CustomMip.
Arguments mem : clear implicits.
Arguments cmi : clear implicits.
Arguments op : clear implicits.

(** Texture objects in memory: construction, copying, moving, assignment and destruction.
    lib/src/Texture.cpp 240-256, 1088-1168.

    A Texture holds a std::unique_ptr to its Impl.  What the other member functions do to an Impl
    is TextureModel.v; here are the pointers, and how many objects there are. *)

From Coq Require Import NArith List Bool.
From Verif Require Import Base FormatModel TextureModel.
Import ListNotations.

Section Objects.
Context {C : Type}.
Variable L : lib C.
Variable encode : converter -> convargs -> image C -> list N.

(** Copying an image clones its bitmap in FreeImage, which may run out of memory: [clones k] says
    whether the [k]-th clone succeeds.  Image.cpp 832-840 and 844-857; a failed clone leaves an
    empty image.  The other allocations throw, which ends the program. *)
Variable clones : nat -> bool.

(** The memory that holds Impl structures ([None] for a free address), the next address that was
    never used, and the number of clones made so far. *)
Record memory := Memory { cells : nat -> option (impl C); fresh : nat; cloned : nat }.

(** Objects by the number of their variable: [None] if there is none, else its m_impl. *)
Record state := State { objects : nat -> option (option nat); mem : memory }.

Definition set {A} (f : nat -> A) (x : nat) (a : A) : nat -> A :=
  fun y => if Nat.eqb y x then a else f y.

(** new Impl, delete, and reading and writing through a pointer; [None] is undefined behaviour
    (a released address). *)
Definition alloc (i : impl C) (m : memory) : nat * memory :=
  (fresh m, Memory (set (cells m) (fresh m) (Some i)) (S (fresh m)) (cloned m)).
Definition load (a : nat) (m : memory) : option (impl C) := cells m a.
Definition write (a : nat) (i : impl C) (m : memory) : option memory :=
  obind (cells m a) (fun _ => Some (Memory (set (cells m) a (Some i)) (fresh m) (cloned m))).
Definition release (p : option nat) (m : memory) : option memory :=
  match p with
  | None => Some m
  | Some a => obind (cells m a) (fun _ => Some (Memory (set (cells m) a None) (fresh m) (cloned m)))
  end.

(** Copies of images, one after another. *)
Definition copy_image (k : nat) (i : image C) : image C * nat :=
  match i with
  | NoImage => (NoImage, k)
  | Img _ _ _ _ _ => (if clones k then i else NoImage, S k)
  end.
Fixpoint copy_list {A} (cp : nat -> A -> A * nat) (k : nat) (l : list A) : list A * nat :=
  match l with
  | [] => ([], k)
  | a :: l' => let (a', k1) := cp k a in let (r, k2) := copy_list cp k1 l' in (a' :: r, k2)
  end.

(** The implicit copy constructor and copy assignment of Impl, Texture.cpp 240-256: every member,
    the images by Image's copy constructor or assignment. *)
Definition copy_impl (m : memory) (i : impl C) : impl C * memory :=
  let (im, k) := copy_list (copy_list (copy_list copy_image)) (cloned m) (t_images i) in
  (with_images i im, Memory (cells m) (fresh m) k).

(** Texture(const Texture&), Texture.cpp 1098-1102; [q] is the m_impl of the other object. *)
Definition copyNew (q : option nat) (m : memory) : option (option nat * memory) :=
  match q with
  | None => Some (None, m)
  | Some b =>
      obind (load b m) (fun i =>
      let (i', m1) := copy_impl m i in
      let (a, m2) := alloc i' m1 in Some (Some a, m2))
  end.

(** operator=(const Texture&), Texture.cpp 1106-1122, between two different objects. *)
Definition copyAssign (p q : option nat) (m : memory) : option (option nat * memory) :=
  match q with
  | Some b =>
      obind (load b m) (fun i =>
      match p with
      | Some a => let (i', m1) := copy_impl m i in
                  obind (write a i' m1) (fun m2 => Some (Some a, m2))
      | None => let (i', m1) := copy_impl m i in
                let (a, m2) := alloc i' m1 in Some (Some a, m2)
      end)
  | None => obind (release p m) (fun m1 => Some (None, m1))
  end.

(** A call of the public API on an object, Texture.cpp 1136-1168 for initialize and reset; the
    other functions change the Impl in place, and do nothing to an empty texture. *)
Definition callObject (c : call C) (p : option nat) (m : memory)
  : option (bool * option nat * memory) :=
  match c with
  | CInit dim w h d n cs =>
      obind (release p m) (fun m1 =>
      match initialize (C:=C) dim w h d n cs with
      | (r, None) => Some (r, None, m1)
      | (r, Some i) => let (a, m2) := alloc i m1 in Some (r, Some a, m2)
      end)
  | CReset => obind (release p m) (fun m1 => Some (true, None, m1))
  | _ =>
      match p with
      | None => obind (step L encode None c) (fun r => Some (fst r, None, m))
      | Some a =>
          obind (load a m) (fun i =>
          obind (step L encode (Some i) c) (fun r =>
          match r with
          | (b, Some i') => obind (write a i' m) (fun m1 => Some (b, Some a, m1))
          | (_, None) => None
          end))
      end
  end.

(** Statements of a program with Texture variables. *)
Inductive stmt :=
| New (x : nat)                     (* Texture x;                 Texture.cpp 1088 *)
| CopyNew (x y : nat)               (* Texture x(y);              1098-1102 *)
| MoveNew (x y : nat)               (* Texture x(std::move(y));   1104 *)
| Assign (x y : nat)                (* x = y;                     1106-1122 *)
| AssignMove (x y : nat)            (* x = std::move(y);          1124 *)
| Destroy (x : nat)                 (* end of x's life            1090 *)
| Call (x : nat) (c : call C).      (* x.c(...)                   *)

(** One statement: the state after it and the answer (true if there is none).  [None] is undefined
    behaviour, including the use of a variable outside its life.  The constructor with arguments,
    Texture.cpp 1092-1096, is [New] followed by a call of initialize. *)
Definition exec (st : state) (s : stmt) : option (state * bool) :=
  match s with
  | New x =>
      match objects st x with
      | Some _ => None
      | None => Some (State (set (objects st) x (Some None)) (mem st), true)
      end
  | CopyNew x y =>
      match objects st x, objects st y with
      | None, Some q =>
          obind (copyNew q (mem st)) (fun r =>
          Some (State (set (objects st) x (Some (fst r))) (snd r), true))
      | _, _ => None
      end
  | MoveNew x y =>
      match objects st x, objects st y with
      | None, Some q => Some (State (set (set (objects st) y (Some None)) x (Some q)) (mem st), true)
      | _, _ => None
      end
  | Assign x y =>
      match objects st x, objects st y with
      | Some p, Some q =>
          if Nat.eqb x y then Some (st, true)
          else obind (copyAssign p q (mem st)) (fun r =>
               Some (State (set (objects st) x (Some (fst r))) (snd r), true))
      | _, _ => None
      end
  | AssignMove x y =>
      (* unique_ptr: reset(other.release()), which a self-move survives *)
      match objects st x, objects st y with
      | Some p, Some q =>
          if Nat.eqb x y then Some (st, true)
          else obind (release p (mem st)) (fun m1 =>
               Some (State (set (set (objects st) y (Some None)) x (Some q)) m1, true))
      | _, _ => None
      end
  | Destroy x =>
      match objects st x with
      | Some p => obind (release p (mem st)) (fun m1 => Some (State (set (objects st) x None) m1, true))
      | None => None
      end
  | Call x c =>
      match objects st x with
      | Some p =>
          obind (callObject c p (mem st)) (fun r =>
          let '(b, p', m1) := r in Some (State (set (objects st) x (Some p')) m1, b))
      | None => None
      end
  end.

(** A program from the start, with the answers of its statements. *)
Definition start : state := State (fun _ => None) (Memory (fun _ => None) 0 0).
Fixpoint execs (st : state) (p : list stmt) : option (state * list bool) :=
  match p with
  | [] => Some (st, [])
  | s :: p' => obind (exec st s) (fun r => obind (execs (fst r) p') (fun r' =>
               Some (fst r', snd r :: snd r')))
  end.

End Objects.

Arguments memory : clear implicits.
Arguments state : clear implicits.
Arguments stmt : clear implicits.
Arguments start {C}.

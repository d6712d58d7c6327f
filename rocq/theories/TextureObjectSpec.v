(** Textures as values: what a program with any number of textures should do. *)

From Coq Require Import NArith List Bool.
From Verif Require Import Base FormatModel TextureModel TextureObjectModel.
Import ListNotations.

Section Spec.
Context {C : Type}.
Variable L : lib C.
Variable encode : converter -> convargs -> image C -> list N.

(** The variables of a program: no object, or an object with a value. *)
Definition values := nat -> option (texture C).

(** Copies of an image and of a texture: the same, but an image may have got lost when memory ran
    out. *)
Definition image_copy (i j : image C) : Prop := j = i \/ j = NoImage.
Definition texture_copy (t u : texture C) : Prop :=
  match t, u with
  | None, None => True
  | Some i, Some j =>
      Forall2 (Forall2 (Forall2 image_copy)) (t_images i) (t_images j) /\
      t_dim j = t_dim i /\ t_cs j = t_cs i /\ t_width j = t_width i /\ t_height j = t_height i /\
      t_depth j = t_depth i /\ t_mips j = t_mips i /\ t_faces j = t_faces i /\
      t_format j = t_format i /\ t_type j = t_type i /\ t_alpha j = t_alpha i /\
      t_mask j = t_mask i /\ t_textures j = t_textures i
  | _, _ => False
  end.

(** Everything but the variables in [xs] is as before. *)
Definition others_kept (xs : list nat) (v v' : values) : Prop :=
  forall z, ~ In z xs -> v' z = v z.

(** The effect of a statement on the values and its answer; [cp] is what a copy may be. *)
Definition effect (cp : texture C -> texture C -> Prop) (s : stmt C) (v v' : values) (b : bool) : Prop :=
  match s with
  | New x => v x = None /\ v' x = Some None /\ others_kept [x] v v'
  | CopyNew x y => v x = None /\ others_kept [x] v v' /\
      exists t u, v y = Some t /\ v' x = Some u /\ cp t u
  | MoveNew x y => v x = None /\ others_kept [x; y] v v' /\
      exists t, v y = Some t /\ v' x = Some t /\ v' y = Some None
  | Assign x y => v x <> None /\ others_kept [x] v v' /\
      exists t u, v y = Some t /\ v' x = Some u /\ if Nat.eqb x y then u = t else cp t u
  | AssignMove x y => v x <> None /\ others_kept [x; y] v v' /\
      exists t, v y = Some t /\ v' x = Some t /\ v' y = Some (if Nat.eqb x y then t else None)
  | Destroy x => v x <> None /\ v' x = None /\ others_kept [x] v v'
  | Call x c => others_kept [x] v v' /\
      exists t t', v x = Some t /\ step L encode t c = Some (b, t') /\ v' x = Some t'
  end.

(** The statement respects the lives of variables, and the call is defined. *)
Definition allowed (s : stmt C) (v : values) : Prop :=
  match s with
  | New x => v x = None
  | CopyNew x y | MoveNew x y => v x = None /\ v y <> None
  | Assign x y | AssignMove x y => v x <> None /\ v y <> None
  | Destroy x => v x <> None
  | Call x c => exists t, v x = Some t /\ step L encode t c <> None
  end.

(** The values of the objects in memory. *)
Definition valuation (st : state C) : values :=
  fun x => match objects st x with
           | None => None
           | Some None => Some None
           | Some (Some a) => match cells (mem st) a with Some i => Some (Some i) | None => None end
           end.

(** The reading functions of a texture. *)
Definition answers (t : texture C) :=
  (dimensionOf t, colorSpaceOf t, mipLevelCount t, faceCount t, imagesComplete t, converted t,
   (formatOf t, typeOf t, alphaOf t, maskOf t, isArray t)).

End Spec.

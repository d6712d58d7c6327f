(** The life of an encoder context, told from the actions of the whole program. *)

From Coq Require Import NArith List Bool.
From Verif Require Import Base AstcCacheModel.
Import ListNotations.
Local Open Scope N_scope.

Inductive life :=
| Unborn                                (* not allocated yet *)
| Idle (cfg : config)                   (* allocated for [cfg], nobody uses it *)
| InUse (o : N) (cfg : config)          (* allocated for [cfg], only [o] uses it *)
| Dead                                  (* freed *)
| Wrong.                                (* something happened that must not happen *)

(** What one action does to context [c]. *)
Definition live (c : N) (l : life) (a : action) : life :=
  match a with
  | Alloc c' cfg => if c =? c' then match l with Unborn => Idle cfg | _ => Wrong end else l
  | HandOut o c' cfg =>
      if c =? c' then
        match l with
        | Idle cfg' => if config_eqb cfg cfg' then InUse o cfg' else Wrong
        | _ => Wrong
        end
      else l
  | GiveBack o c' =>
      if c =? c' then
        match l with InUse o' cfg => if o =? o' then Idle cfg else Wrong | _ => Wrong end
      else l
  | Free c' => if c =? c' then match l with Idle _ => Dead | _ => Wrong end else l
  end.

Definition life_of (c : N) (acts : list action) : life := fold_left (live c) acts Unborn.

(** The contexts that are allocated and not used after [acts], given that all contexts are
    below [n]. *)
Definition idle (n : N) (acts : list action) : list N :=
  filter (fun c => match life_of c acts with Idle _ => true | _ => false end) (Nrange n).

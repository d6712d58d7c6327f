(** What a custom mip list file says, independently of the parser. *)

From Coq Require Import NArith List Bool String Ascii.
From Verif Require Import Base TextureModel CommandLineModel CommandLineSpec.
Import ListNotations.
Local Open Scope string_scope.
Local Open Scope list_scope.
Local Open Scope N_scope.
Local Notation length := List.length.

Definition face_name (f : N) : string :=
  match f with 0 => "+x" | 1 => "-x" | 2 => "+y" | 3 => "-y" | 4 => "+z" | _ => "-z" end.

Definition replace_name (r : replacement) : string :=
  match r with Once => "once" | Continue => "continue" end.

(** A line of the file with every field written out:
    "level depth face replacement filename". *)
Definition mip_line (e : index * (string * replacement)) : string :=
  let (k, v) := e in
  (decimal (x_level k) ++ " " ++ decimal (x_depth k) ++ " " ++ face_name (x_face k) ++ " " ++
  replace_name (snd v) ++ " " ++ fst v ++ String (ascii_of_N 10) "")%string.

(** White space and line ends. *)
Definition is_white (c : ascii) : bool := existsb (N.eqb (N_of_ascii c)) [9; 10; 11; 12; 13; 32].
Definition is_eol (c : ascii) : bool := existsb (N.eqb (N_of_ascii c)) [10; 13].

Fixpoint all_chars (p : ascii -> bool) (s : string) : bool :=
  match s with EmptyString => true | String c t => p c && all_chars p t end.

(** A file name that can be written in such a file: not empty, it does not start with white
    space and it stays on its line. *)
Definition writable (name : string) : Prop :=
  match name with EmptyString => False | String c _ => is_white c = false end /\
  all_chars (fun c => negb (is_eol c)) name = true.

Definition entry_ok (e : index * (string * replacement)) : Prop :=
  x_level (fst e) < 2 ^ 32 /\ x_depth (fst e) < 2 ^ 32 /\ x_face (fst e) < 6 /\ writable (fst (snd e)).

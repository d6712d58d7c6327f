(** The bytes an encoder answers with. *)

From Coq Require Import NArith List.
From Verif Require Import BlockModel.
Local Open Scope N_scope.

(** The size of a block, by format: 8 bytes for colour alone or one channel, 16 for colour with
    alpha or two channels, and for BC6H, BC7 and ASTC. *)
Definition answer_bytes (e : ecall) : N :=
  match e with
  | E_Bc1 _ _ _ _ | E_Squish _ _ _ | E_Bc4 _ | E_Bc4hq _ _ | E_Bc4s _ _ => 8
  | E_Bc3 _ _ | E_Bc3hq _ _ _ | E_Bc5 _ | E_Bc5hq _ _ | E_Bc5s _ _ _ => 16
  | E_Bc6ispc _ _ | E_Bc6 _ _ _ | E_Bc7ispc _ _ _ | E_Bc7 _ _ => 16
  | E_Etc f _ _ _ _ _ =>
      match f with EtcRGBA8 | EtcRG11 | EtcSRG11 => 16 | _ => 8 end
  | E_Astc _ _ _ _ _ _ _ _ => 16
  | E_Pvrtc _ _ _ _ _ _ _ => 0
  end.

(** [n] bytes from position [p]. *)
Definition bytes_at (buf : list N) (p n : N) : list N := firstn (N.to_nat n) (skipn (N.to_nat p) buf).

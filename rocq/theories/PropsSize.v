(** C40, continued: the sizes accepted by the resize option of the command line tool, from the
    word on the command line to the side of the resized image. *)

From Coq Require Import NArith List Bool Lia ZArith String Ascii.
From Coq Require Import ZifyBool ZifyNat ZifyN.
From Verif Require Import Base FormatModel SaveFormats ToolModel ToolSpec CommandLineModel CommandLineSpec
  PropsTool.
Import ListNotations.
Local Open Scope string_scope.
Local Open Scope list_scope.
Local Open Scope N_scope.

(** The side a named size starts from, and how it is rounded. *)
Inductive side := Same | Width | Height | Smaller | Larger.
Inductive rounding := Keep | Next | Nearest.

Definition size_names : list (string * (side * rounding)) :=
  [("nextpo2", (Same, Next)); ("nearestpo2", (Same, Nearest));
   ("width", (Width, Keep)); ("width-nextpo2", (Width, Next)); ("width-nearestpo2", (Width, Nearest));
   ("height", (Height, Keep)); ("height-nextpo2", (Height, Next)); ("height-nearestpo2", (Height, Nearest));
   ("min", (Smaller, Keep)); ("min-nextpo2", (Smaller, Next)); ("min-nearestpo2", (Smaller, Nearest));
   ("max", (Larger, Keep)); ("max-nextpo2", (Larger, Next)); ("max-nearestpo2", (Larger, Nearest))].

(** [cur] is the side being resized of an image of [w] x [h] pixels. *)
Definition side_of (s : side) (cur w h : N) : N :=
  match s with
  | Same => cur
  | Width => w
  | Height => h
  | Smaller => if w <=? h then w else h
  | Larger => if w <=? h then h else w
  end.

Definition rounds (r : rounding) (n out : N) : Prop :=
  match r with
  | Keep => out = n
  | Next => pow2 out /\ n <= out /\ forall k, n <= 2 ^ k -> out <= 2 ^ k
  | Nearest => pow2 out /\ forall k, dist n out <= dist n (2 ^ k) /\
                 (dist n out = dist n (2 ^ k) -> out <= 2 ^ k)
  end.

Lemma rounds_next n : 1 <= n <= 2 ^ 31 -> rounds Next n (nextPO2 n).
Proof. intros H. exact (C40_next n H). Qed.
Lemma rounds_nearest n : 1 <= n <= 2 ^ 31 -> rounds Nearest n (nearestPO2 n).
Proof. intros H. exact (C40_nearest n H). Qed.

Lemma smaller w h : (if w <=? h then w else h) = N.min w h.
Proof. destruct (N.leb_spec w h); lia. Qed.
Lemma larger w h : (if w <=? h then h else w) = N.max w h.
Proof. destruct (N.leb_spec w h); lia. Qed.

(** A named size, whatever the case of its letters, gives the side it names. *)
Theorem C40_named : forall a rest s r,
  named size_names a = Some (s, r) ->
  exists code, readSize (a :: rest) = Some (code, rest) /\
    forall cur w h, 1 <= cur <= 2 ^ 31 -> 1 <= w <= 2 ^ 31 -> 1 <= h <= 2 ^ 31 ->
    rounds r (side_of s cur w h) (getDimension cur w h code).
Proof.
  intros a rest s r. unfold readSize.
  assert (S : forall n, caseeq a n = String.eqb (lowers (c_str n)) (lowers (c_str a))).
  { intros n. unfold caseeq. apply String.eqb_sym. }
  rewrite !S. unfold size_names. cbn [named]. clear S.
  repeat match goal with
  | |- context [String.eqb ?u ?v] => destruct (String.eqb u v)
  end; intros E; inversion E; subst; eexists; (split; [reflexivity|]); intros cur w h Hc Hw Hh;
    cbn [getDimension side_of rounds]; rewrite ?smaller, ?larger; try reflexivity;
    first [apply rounds_next|apply rounds_nearest]; lia.
Qed.
Print Assumptions C40_named.

(** Anything else must be a number, which is taken as it is if it is a positive int. *)
Theorem C40_number : forall a rest z rest',
  named size_names a = None -> readSize (a :: rest) = Some (z, rest') ->
  rest' = rest /\ exists v, strtol a = (v, true) /\
  ((0 < v < 2 ^ 31)%Z -> forall cur w h, getDimension cur w h z = Z.to_N v).
Proof.
  intros a rest z rest'. unfold readSize.
  assert (S : forall n, caseeq a n = String.eqb (lowers (c_str n)) (lowers (c_str a))).
  { intros n. unfold caseeq. apply String.eqb_sym. }
  rewrite !S. unfold size_names. cbn [named]. clear S.
  repeat match goal with
  | |- context [String.eqb ?u ?v] => destruct (String.eqb u v)
  end; intros E; try discriminate E.
  destruct (strtol a) as [v e]. destruct e; [|discriminate]. intros H; inversion H; subst.
  split; [reflexivity|]. exists v. split; [reflexivity|]. intros L cur w h.
  assert (T : to_int v = v).
  { unfold to_int. cbv zeta. rewrite Z.mod_small by lia. lia. }
  rewrite T. unfold getDimension. destruct v as [|p|p]; lia.
Qed.
Print Assumptions C40_number.

(** Without the option the side is kept: the default code is that of the original size. *)
Theorem C40_default : forall cur w h,
  getDimension cur w h (c_width cl0) = cur /\ getDimension cur w h (c_height cl0) = cur.
Proof. intros; split; reflexivity. Qed.
Print Assumptions C40_default.

(** A negative number is not refused: -5 means the next power of two of the width; and 0 asks
    for an image without pixels. *)
Theorem C40_negative_refuted :
  readSize ["-5"] = readSize ["width-nextpo2"] /\ readSize ["-5"] <> None /\
  readSize ["0"] = Some (0%Z, []) /\ forall cur w h, getDimension cur w h 0 = 0.
Proof. repeat split. vm_compute. discriminate. Qed.
Print Assumptions C40_negative_refuted.

Example C40_named_example : exists code, readSize ["Min-NearestPO2"; "box"] = Some (code, ["box"]) /\
  getDimension 300 300 200 code = 256.
Proof. exists (-12)%Z. split; vm_compute; reflexivity. Qed.
Example C40_number_example : readSize ["640"] = Some (640%Z, []) /\ named size_names "640" = None.
Proof. split; vm_compute; reflexivity. Qed.

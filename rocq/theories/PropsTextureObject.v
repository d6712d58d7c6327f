(** C64: textures are values. *)

From Coq Require Import NArith List Bool.
From Verif Require Import Base FormatModel TextureModel TextureObjectModel TextureObjectSpec TextureObjectProofs.
Import ListNotations.

(** In every program, every statement has exactly its effect on the values: it changes only the
    variables it assigns, a copy equals the original up to images lost for want of memory, a move
    hands the value over and leaves an empty texture, self-assignment changes nothing, and a call
    does to its own texture what TextureModel.v says, with its answer. *)
Theorem C64_values : forall C (L : lib C) encode clones p st bs s st' b,
  execs L encode clones start p = Some (st, bs) ->
  exec L encode clones st s = Some (st', b) ->
  effect L encode texture_copy s (valuation st) (valuation st') b.
Proof.
  intros C L encode clones p st bs s st' b E1 E2.
  pose proof (execs_wf L encode clones p start st bs wf_start E1) as W.
  destruct (exec_spec L encode clones st s st' b W E2) as [_ H].
  destruct s; cbn [effect] in *; try exact H.
  - destruct H as (H1 & H2 & t & u & H3 & H4 & H5 & _); eauto 8.
  - destruct H as (H1 & H2 & t & u & H3 & H4 & H5).
    split; [assumption|]; split; [assumption|]; exists t, u; split; [assumption|]; split; [assumption|].
    destruct (Nat.eqb x y); [assumption|apply H5].
Qed.
Print Assumptions C64_values.

(** If FreeImage never runs out of memory, a copy is equal to the original. *)
Theorem C64_copies_equal : forall C (L : lib C) encode clones p st bs s st' b,
  (forall k, clones k = true) ->
  execs L encode clones start p = Some (st, bs) ->
  exec L encode clones st s = Some (st', b) ->
  effect L encode (fun t u => u = t) s (valuation st) (valuation st') b.
Proof.
  intros C L encode clones p st bs s st' b Q E1 E2.
  pose proof (execs_wf L encode clones p start st bs wf_start E1) as W.
  destruct (exec_spec L encode clones st s st' b W E2) as [_ H].
  destruct s; cbn [effect] in *; try exact H.
  - destruct H as (H1 & H2 & t & u & H3 & H4 & _ & H5); eauto 8.
  - destruct H as (H1 & H2 & t & u & H3 & H4 & H5).
    split; [assumption|]; split; [assumption|]; exists t, u; split; [assumption|]; split; [assumption|].
    destruct (Nat.eqb x y); [assumption|apply H5, Q].
Qed.
Print Assumptions C64_copies_equal.

(** No program that keeps to the lives of its variables, and calls only what is defined on the
    values, touches memory that is not its own. *)
Theorem C64_safe : forall C (L : lib C) encode clones p st bs s,
  execs L encode clones start p = Some (st, bs) ->
  allowed L encode s (valuation st) -> exec L encode clones st s <> None.
Proof.
  intros C L encode clones p st bs s E A.
  apply exec_defined; [|assumption]; eapply execs_wf; [apply wf_start|exact E].
Qed.
Print Assumptions C64_safe.

(** At every point every Impl in memory belongs to exactly one texture, so nothing is left when
    all textures are destroyed or empty. *)
Theorem C64_ownership : forall C (L : lib C) encode clones p st bs,
  execs L encode clones start p = Some (st, bs) ->
  (forall a, cells (mem st) a <> None <->
             exists x, objects st x = Some (Some a) /\
                       forall y, objects st y = Some (Some a) -> y = x) /\
  ((forall x, valuation st x = None \/ valuation st x = Some None) -> forall a, cells (mem st) a = None).
Proof.
  intros C L encode clones p st bs E.
  pose proof (execs_wf L encode clones p start st bs wf_start E) as W.
  assert (H : forall a, cells (mem st) a <> None <->
             exists x, objects st x = Some (Some a) /\
                       forall y, objects st y = Some (Some a) -> y = x).
  { intros a; split.
    - intros Ca; destruct (wf_owned st W a Ca) as (x & Ex); exists x; split; [assumption|].
      intros y Ey; eapply wf_one; eauto.
    - intros (x & Ex & _); eapply wf_live; eauto. }
  split; [exact H|].
  intros V a; destruct (cells (mem st) a) as [i|] eqn:Ca; [|reflexivity].
  destruct (wf_owned st W a) as (x & Ex); [congruence|].
  pose proof (value_of st x a i Ex Ca) as Vx; destruct (V x); congruence.
Qed.
Print Assumptions C64_ownership.

(** A copy that lost an image is not complete, and refuses to be converted: every copy converts
    exactly as the original, or not at all. *)
Theorem C64_copy_converts : forall C (encode : converter -> convargs -> image C -> list N) fl a t u,
  texture_copy t u ->
  (imagesComplete u = true -> u = t) /\
  (convert fl encode u a = convert fl encode t a \/ convert fl encode u a = (false, u)).
Proof.
  intros C encode fl a t u H; pose proof (copy_complete t u H) as E; split; [exact E|].
  destruct (imagesComplete u) eqn:V; [rewrite E by reflexivity; left; reflexivity|right].
  unfold convert; rewrite V; reflexivity.
Qed.
Print Assumptions C64_copy_converts.

(** What an empty texture answers: a new one, a moved-from one, one after reset. *)
Theorem C64_empty : forall C (L : lib C) encode m d f,
  answers (None : texture C) =
    (Dim2D, CS_Linear, 0, 0, false, false, (None, T_UNorm, AlphaNone, Mask true true true true, false))%N /\
  width (None : texture C) m = 0%N /\ height (None : texture C) m = 0%N /\
  depth (None : texture C) m = 0%N /\
  getImage (None : texture C) m d = Some NoImage /\ getImageF (None : texture C) f m d = Some NoImage /\
  data (None : texture C) m d = Some None /\ dataF (None : texture C) f m d = Some None /\
  forall c, match c with CInit _ _ _ _ _ _ | CReset => True
            | _ => step L encode None c = Some (false, None) end.
Proof.
  intros C L encode m d f; repeat split; try reflexivity.
  - unfold getImage; cbn; destruct d; reflexivity.
  - unfold getImageF; cbn; destruct d; reflexivity.
  - intros c; destruct c as [dim w h d' n cs| |img m' d'|img f' m' d'|rf l cm|fl a]; try exact I;
      try reflexivity; cbn.
    + unfold setImage; cbn; destruct d'; reflexivity.
    + unfold setImageF; cbn; destruct d'; reflexivity.
Qed.
Print Assumptions C64_empty.

(** *** A program: fill a texture, copy it, convert and move the original, refill the copy

    The contents of images are numbers and the converter writes that number. *)
Definition ex_lib : lib N :=
  Lib (fun _ _ _ c _ _ _ => Some c) (fun _ _ _ c _ _ _ => Some c) (fun _ _ _ c _ => Some c)
    (fun _ _ _ c => c) (fun _ _ _ c => c) (fun _ _ d _ _ _ => Some (repeat 0%N (N.to_nat d))).
Definition ex_encode (_ : converter) (_ : convargs) (i : image N) : list N :=
  match i with NoImage => [] | Img _ _ _ _ c => [c] end.
Definition ex_convert : call N :=
  CConvert (Flags true true true true)
    (ConvArgs F_R8G8B8A8 T_UNorm AlphaStandard (Mask true true true true) 2 1)%N.
Definition ex_program : list (stmt N) :=
  [New 0; Call 0 (CInit Dim2D 4 2 0 1 CS_Linear)%N; Call 0 (CSet (Img I_RGBAF 4 2 CS_Linear 7) 0 0)%N;
   CopyNew 1 0; New 2; Call 0 ex_convert; AssignMove 2 0;
   Call 1 (CSet (Img I_RGBAF 4 2 CS_Linear 9) 0 0)%N; Assign 0 1; Call 1 ex_convert; Assign 1 1;
   Destroy 2].
Definition summary (r : option (state N * list bool)) :=
  option_map (fun r => (map (fun x => option_map (fun t => (imagesComplete t, converted t, data t 0 0)%N)
                                       (valuation (fst r) x)) [0; 1; 2],
                        snd r)) r.

Example C64_case :
  summary (execs ex_lib ex_encode (fun _ => true) start ex_program) =
  Some ([Some (true, false, Some None); Some (false, true, Some (Some [9%N])); None],
        [true; true; true; true; true; true; true; true; true; true; true; true]) /\
  summary (execs ex_lib ex_encode (fun _ => true) start (firstn 8 ex_program)) =
  Some ([Some (false, false, Some None); Some (true, false, Some None);
         Some (false, true, Some (Some [7%N]))],
        [true; true; true; true; true; true; true; true]) /\
  summary (execs ex_lib ex_encode (fun k => Nat.ltb 0 k) start
             (firstn 4 ex_program ++ [Call 1 ex_convert; Call 0 ex_convert])) =
  Some ([Some (false, true, Some (Some [7%N])); Some (false, false, Some None); None],
        [true; true; true; true; false; true]).
Proof. repeat split; vm_compute; reflexivity. Qed.

(** Lemmas about the command line parser. *)

From Coq Require Import NArith ZArith List Bool String Ascii Lia Permutation.
From Coq Require Import ZifyBool ZifyNat ZifyN.
From Verif Require Import Base FormatModel SaveFormats TextureModel SaveModel CommandLineModel CommandLineSpec.
Import ListNotations.
Local Open Scope string_scope.
Local Open Scope list_scope.
Local Open Scope N_scope.
Local Notation length := List.length.

(** * Which option an argument is *)

Definition is_opt (o : opt) (h : string) : bool :=
  match classify h with
  | Some o' => match o, o' with
    | O_jobs, O_jobs | O_quiet, O_quiet | O_verbose, O_verbose | O_input, O_input
    | O_array, O_array | O_cube, O_cube | O_cubearray, O_cubearray | O_inputlist, O_inputlist
    | O_resize, O_resize | O_mipmap, O_mipmap | O_custommip, O_custommip
    | O_custommiplist, O_custommiplist | O_flipx, O_flipx | O_flipy, O_flipy | O_rotate, O_rotate
    | O_normalmap, O_normalmap | O_grayscale, O_grayscale | O_swizzle, O_swizzle | O_srgb, O_srgb
    | O_premultiply, O_premultiply | O_dimension, O_dimension | O_format, O_format
    | O_type, O_type | O_alpha, O_alpha | O_quality, O_quality | O_output, O_output
    | O_fileformat, O_fileformat | O_createdir, O_createdir => true
    | _, _ => false
    end
  | None => false
  end.

(** The names of an option. *)
Definition names (o : opt) : string * string :=
  match o with
  | O_jobs => ("-j", "--jobs")
  | O_quiet => ("-q", "--quiet")
  | O_verbose => ("-v", "--verbose")
  | O_input => ("-i", "--input")
  | O_array => ("-a", "--array")
  | O_cube => ("-c", "--cube")
  | O_cubearray => ("-C", "--cube-array")
  | O_inputlist => ("-I", "--input-list")
  | O_resize => ("-r", "--resize")
  | O_mipmap => ("-m", "--mipmap")
  | O_custommip => ("-M", "--custom-mip")
  | O_normalmap => ("-n", "--normalmap")
  | O_grayscale => ("-g", "--grayscale")
  | O_swizzle => ("-s", "--swizzle")
  | O_dimension => ("-d", "--dimension")
  | O_format => ("-f", "--format")
  | O_type => ("-t", "--type")
  | O_quality => ("-Q", "--quality")
  | O_output => ("-o", "--output")
  | O_alpha => ("--alpha", "--alpha")
  | O_fileformat => ("--file-format", "--file-format")
  | O_premultiply => ("--pre-multiply", "--pre-multiply")
  | O_rotate => ("--rotate", "--rotate")
  | O_custommiplist => ("--custom-mip-list", "--custom-mip-list")
  | O_flipx => ("--flipx", "--flipx")
  | O_flipy => ("--flipy", "--flipy")
  | O_srgb => ("--srgb", "--srgb")
  | O_createdir => ("--create-dir", "--create-dir")
  end.

Lemma matches_cases h s l : matches h s l = true -> h = s \/ h = l.
Proof. unfold matches. rewrite orb_true_iff, !String.eqb_eq. auto. Qed.

Lemma classify_names h o : classify h = Some o -> h = fst (names o) \/ h = snd (names o).
Proof.
  unfold classify.
  repeat match goal with
  | |- (if matches ?h ?s ?l then _ else _) = _ -> _ =>
      let E := fresh in
      destruct (matches h s l) eqn:E;
      [apply matches_cases in E; intros X; injection X as <-; exact E|clear E]
  | |- (if String.eqb ?h ?s then _ else _) = _ -> _ =>
      let E := fresh in
      destruct (String.eqb h s) eqn:E;
      [apply String.eqb_eq in E; intros X; injection X as <-; left; exact E|clear E]
  end.
  discriminate.
Qed.

Lemma is_opt_true o h : is_opt o h = true <-> classify h = Some o.
Proof.
  unfold is_opt. split.
  - destruct (classify h) as [o'|]; [|discriminate]. destruct o, o'; intros H; try discriminate H; reflexivity.
  - intros ->. destruct o; reflexivity.
Qed.

Lemma is_names o h : String.eqb h (fst (names o)) || String.eqb h (snd (names o)) = is_opt o h.
Proof.
  apply eq_iff_eq_true. rewrite is_opt_true, orb_true_iff, !String.eqb_eq. split.
  - intros [->| ->]; destruct o; reflexivity.
  - apply classify_names.
Qed.

(** * What a step consumes and changes *)

Lemma readIndex_inv tl v r : readIndex tl = Some (v, r) -> exists x, tl = x :: r /\ strtoul x = (v, true).
Proof.
  destruct tl as [|a t]; [discriminate|]. unfold readIndex. destruct (strtoul a) as [v' e] eqn:E.
  destruct e; intros H; inversion H; subst; eauto.
Qed.

Lemma readCubeFace_inv tl v r : readCubeFace tl = Some (v, r) -> exists x, tl = x :: r /\ strToCubeFace x = Some v.
Proof.
  destruct tl as [|a t]; [discriminate|]. cbn. destruct (strToCubeFace a) eqn:E; intros H; inversion H; subst; eauto.
Qed.

Lemma readMipReplace_inv tl v r : readMipReplace tl = Some (v, r) -> exists x, tl = x :: r /\ strToMipReplace x = Some v.
Proof.
  destruct tl as [|a t]; [discriminate|]. cbn. destruct (strToMipReplace a) eqn:E; intros H; inversion H; subst; eauto.
Qed.

Lemma readSize_inv tl v r : readSize tl = Some (v, r) -> exists x, tl = x :: r.
Proof.
  destruct tl as [|a t]; [discriminate|]. unfold readSize.
  repeat match goal with |- (if ?b then _ else _) = _ -> _ => destruct b; [intros H; inversion H; subst; eauto|] end.
  destruct (strtol a) as [z e]. destruct e; intros H; inversion H; subst; eauto.
Qed.

Lemma readFilter_inv o tl v r : readFilter o tl = (v, r) -> exists a, tl = a ++ r /\ (length a <= 1)%nat.
Proof.
  destruct tl as [|x t]; unfold readFilter.
  - intros H; inversion H; subst. exists []; auto.
  - repeat match goal with |- (if ?b then _ else _) = _ -> _ =>
      destruct b; [intros H; inversion H; subst; exists [x]; split; [reflexivity|simpl; lia]|] end.
    intros H; inversion H; subst. exists []; split; [reflexivity|simpl; lia].
Qed.

Lemma strToCubeFace_lt s f : strToCubeFace s = Some f -> f < 6.
Proof.
  unfold strToCubeFace.
  repeat match goal with |- (if ?b then _ else _) = _ -> _ => destruct b; [intros H; inversion H; subst; lia|] end.
  discriminate.
Qed.

Lemma put_image_inv c idx v rest c' r : put_image c idx v rest = Go c' r ->
  r = rest /\ idx < N.of_nat (length (c_images c)) /\
  nth (N.to_nat idx) (c_images c) EmptyString = EmptyString /\
  c' = set_images (upd (N.to_nat idx) v (c_images c)) c.
Proof.
  unfold put_image. destruct (N.ltb_spec idx (N.of_nat (length (c_images c)))) as [L|L]; [|discriminate].
  destruct (nth _ _ _) eqn:E; cbn [is_empty negb]; [|discriminate].
  intros H; inversion H; subst. auto.
Qed.

Lemma do_array_inv cap c tl c' rest : do_array cap c tl = Go c' rest ->
  exists a x im idx, tl = a ++ x :: rest /\ (length a <= 1)%nat /\
    (c_images c = [] \/ c_imageType c = IT_Array) /\
    (forall y, In y a -> strtoul y = (idx, true)) /\
    (a = [] -> idx = N.of_nat (length (c_images c))) /\
    (if N.of_nat (length (c_images c)) <=? idx then resize cap (c_images c) (u64 (idx + 1))
     else Some (c_images c)) = Some im /\
    idx < N.of_nat (length im) /\
    c' = set_images (upd (N.to_nat idx) x im)
           (match c_images c with [] => set_imageType IT_Array c | _ => c end).
Proof.
  unfold do_array. intros H.
  set (c1 := match c_images c with [] => _ | _ => _ end) in H.
  destruct c1 as [c2|] eqn:E1; [|discriminate].
  assert (S : c2 = match c_images c with [] => set_imageType IT_Array c | _ => c end /\
              (c_images c = [] \/ c_imageType c = IT_Array)).
  { subst c1. destruct (c_images c) eqn:EI.
    - inversion E1; subst. auto.
    - destruct (c_imageType c); cbn in E1; inversion E1; subst; auto. }
  destruct S as [S K].
  assert (SI : c_images c2 = c_images c) by (rewrite S; destruct (c_images c) eqn:EI; cbn; auto).
  rewrite SI in H.
  destruct tl as [|x t]; [discriminate|].
  assert (exists a idx y r, x :: t = a ++ y :: r /\ (length a <= 1)%nat /\
    (forall y, In y a -> strtoul y = (idx, true)) /\ (a = [] -> idx = N.of_nat (length (c_images c))) /\
    (match x :: t with
     | _ :: _ :: _ => match readIndex (x :: t) with Some p => p | None => (N.of_nat (length (c_images c)), x :: t) end
     | _ => (N.of_nat (length (c_images c)), x :: t)
     end) = (idx, y :: r)) as (a & idx & y & r & T & L & A1 & A2 & Q).
  { destruct t as [|y t].
    - exists [], (N.of_nat (length (c_images c))), x, []. repeat split; auto. intros ? [].
    - destruct (readIndex (x :: y :: t)) as [[v r]|] eqn:RI.
      + apply readIndex_inv in RI. destruct RI as (z & Z & W). inversion Z; subst.
        exists [z], v, y, t. repeat split; auto. intros ? [<-|[]]; auto. discriminate.
      + exists [], (N.of_nat (length (c_images c))), x, (y :: t). repeat split; auto. intros ? []. }
  rewrite Q in H.
  destruct (if N.of_nat (length (c_images c)) <=? idx then _ else _) as [im|] eqn:EI; [|discriminate].
  apply put_image_inv in H. destruct H as (-> & B & _ & ->).
  exists a, y, im, idx. repeat split; auto.
  cbn [c_images set_images]. rewrite <- S. reflexivity.
Qed.

Lemma do_cube_inv cap c tl c' rest : do_cube cap c tl = Go c' rest ->
  exists f x face im, tl = f :: x :: rest /\ strToCubeFace f = Some face /\
    (c_images c = [] /\ im = repeat EmptyString 6 \/ c_imageType c = IT_Cube /\ im = c_images c) /\
    face < N.of_nat (length im) /\
    c' = set_images (upd (N.to_nat face) x im)
           (match c_images c with [] => set_imageType IT_Cube c | _ => c end).
Proof.
  unfold do_cube. intros H.
  set (c1 := match c_images c with [] => _ | _ => _ end) in H.
  destruct c1 as [[c2|]|] eqn:E1; try discriminate.
  destruct tl as [|f [|x t]]; try discriminate.
  destruct (readCubeFace (f :: x :: t)) as [[face [|y r]]|] eqn:RC; try discriminate.
  apply readCubeFace_inv in RC. destruct RC as (z & Z & W). inversion Z; subst.
  apply put_image_inv in H. destruct H as (-> & B & _ & ->).
  subst c1. destruct (c_images c) eqn:EI.
  - destruct (resize cap [] 6) as [im|] eqn:ER; [|discriminate]. cbn in E1. inversion E1; subst.
    assert (im = repeat EmptyString 6).
    { revert ER. unfold resize. cbn [length]. change (N.of_nat 0) with 0. change (6 <=? 0) with false. cbv iota.
      destruct (6 <=? cap); [|discriminate]. intros X; inversion X. reflexivity. }
    subst im. exists z, y, face, (repeat EmptyString 6). repeat split; auto.
  - destruct (c_imageType c) eqn:ET; cbn in E1; inversion E1; subst.
    exists z, y, face, (c_images c2). rewrite EI in *. repeat split; auto.
Qed.

Lemma do_cubearray_inv cap c tl c' rest : do_cubearray cap c tl = Go c' rest ->
  exists i f x ci face im, tl = i :: f :: x :: rest /\ strtoul i = (ci, true) /\ strToCubeFace f = Some face /\
    (c_images c = [] \/ c_imageType c = IT_CubeArray) /\
    (if N.of_nat (length (c_images c)) <=? u64 (ci * 6) then resize cap (c_images c) (u64 (u64 (ci + 1) * 6))
     else Some (c_images c)) = Some im /\
    u64 (u64 (ci * 6) + face) < N.of_nat (length im) /\
    c' = set_images (upd (N.to_nat (u64 (u64 (ci * 6) + face))) x im)
           (match c_images c with [] => set_imageType IT_CubeArray c | _ => c end).
Proof.
  unfold do_cubearray. intros H.
  set (c1 := match c_images c with [] => _ | _ => _ end) in H.
  destruct c1 as [c2|] eqn:E1; [|discriminate].
  assert (S : c2 = match c_images c with [] => set_imageType IT_CubeArray c | _ => c end /\
              (c_images c = [] \/ c_imageType c = IT_CubeArray)).
  { subst c1. destruct (c_images c) eqn:EI.
    - inversion E1; subst. auto.
    - destruct (c_imageType c); cbn in E1; inversion E1; subst; auto. }
  destruct S as [S K].
  assert (SI : c_images c2 = c_images c) by (rewrite S; destruct (c_images c) eqn:EI; cbn; auto).
  rewrite SI in H.
  destruct tl as [|i [|f [|x t]]]; try discriminate.
  destruct (readIndex (i :: f :: x :: t)) as [[ci r]|] eqn:RI; [|discriminate].
  apply readIndex_inv in RI. destruct RI as (z & Z & W). inversion Z; subst r z. clear Z.
  destruct (readCubeFace (f :: x :: t)) as [[face [|y r]]|] eqn:RC; try discriminate.
  apply readCubeFace_inv in RC. destruct RC as (z & Z & V). inversion Z; subst. clear Z.
  destruct (if N.of_nat (length (c_images c)) <=? u64 (ci * 6) then _ else _) as [im|] eqn:EI; [|discriminate].
  apply put_image_inv in H. destruct H as (-> & B & _ & ->).
  exists i, z, y, ci, face, im. repeat split; auto.
Qed.

Lemma do_inputlist_inv file c tl c' rest : do_inputlist file c tl = Go c' rest ->
  exists t f it im, tl = t :: f :: rest /\ c_images c = [] /\ c' = set_images im (set_imageType it c).
Proof.
  unfold do_inputlist. destruct (c_images c); [|discriminate].
  destruct tl as [|t [|f r]]; try discriminate.
  destruct (if caseeq t "image" then _ else _) as [it|]; [|discriminate].
  destruct (file f); [|discriminate]. destruct (imageList_loop _ _ _) as [im|]; [|discriminate].
  intros H; inversion H; subst. exists t, f, it, im. auto.
Qed.

Lemma do_resize_inv c tl c' rest : do_resize c tl = Go c' rest ->
  exists a w h f, tl = a ++ rest /\ (2 <= length a <= 3)%nat /\
    c' = set_resizeFilter f (set_height h (set_width w c)).
Proof.
  unfold do_resize. destruct tl as [|x [|y t]]; try discriminate.
  destruct (readSize (x :: y :: t)) as [[w r]|] eqn:R1; [|discriminate].
  apply readSize_inv in R1. destruct R1 as (z & Z). inversion Z; subst.
  destruct (readSize (y :: t)) as [[h r]|] eqn:R2; [|discriminate].
  apply readSize_inv in R2. destruct R2 as (z' & Z'). inversion Z'; subst.
  destruct (readFilter _ r) as [f q] eqn:R3. apply readFilter_inv in R3. destruct R3 as (a & -> & L).
  intros H; inversion H; subst. exists (z :: z' :: a), w, h, f. repeat split; auto; simpl; lia.
Qed.

Lemma do_mipmap_inv c tl c' rest : do_mipmap c tl = Go c' rest ->
  exists a n f, tl = a ++ rest /\ (length a <= 2)%nat /\ c' = set_mipFilter f (set_mipLevels n c).
Proof.
  unfold do_mipmap. destruct (readIndex tl) as [[v r]|] eqn:R.
  - apply readIndex_inv in R. destruct R as (z & -> & _).
    destruct (readFilter _ r) as [f q] eqn:R3. apply readFilter_inv in R3. destruct R3 as (a & -> & L).
    intros H; inversion H; subst. exists (z :: a), (to_uint v), f. repeat split; auto. simpl; lia.
  - destruct (readFilter _ tl) as [f q] eqn:R3. apply readFilter_inv in R3. destruct R3 as (a & -> & L).
    intros H; inversion H; subst. exists a, allOnes, f. repeat split; auto.
Qed.

Lemma do_custommip_inv c tl c' rest : do_custommip c tl = Go c' rest ->
  exists a m k v, tl = a ++ rest /\ (2 <= length a)%nat /\ emplace k v (c_customMips c) = Some m /\
    x_face k < 6 /\ x_level k < 2 ^ 32 /\ x_depth k < 2 ^ 32 /\
    c' = set_customMips m c.
Proof.
  unfold do_custommip. destruct tl as [|x [|y t]]; try discriminate.
  destruct (readIndex (x :: y :: t)) as [[level r]|] eqn:R1; [|discriminate].
  apply readIndex_inv in R1. destruct R1 as (z & Z & _). inversion Z; subst. clear Z.
  assert (D : exists a1 depth r1, y :: t = a1 ++ r1 /\
    (match readIndex (y :: t) with Some p => p | None => (0, y :: t) end) = (depth, r1)).
  { destruct (readIndex (y :: t)) as [[d r]|] eqn:R.
    - apply readIndex_inv in R. destruct R as (w & -> & _). exists [w], d, r. auto.
    - exists [], 0, (y :: t). auto. }
  destruct D as (a1 & depth & r1 & E1 & ->).
  assert (D : exists a2 face r2, r1 = a2 ++ r2 /\ face < 6 /\
    (match readCubeFace r1 with Some p => p | None => (0, r1) end) = (face, r2)).
  { destruct (readCubeFace r1) as [[d r]|] eqn:R.
    - apply readCubeFace_inv in R. destruct R as (w & -> & F). exists [w], d, r.
      apply strToCubeFace_lt in F. auto.
    - exists [], 0, r1. repeat split; auto. }
  destruct D as (a2 & face & r2 & E2 & F6 & ->).
  assert (D : exists a3 repl r3, r2 = a3 ++ r3 /\
    (match readMipReplace r2 with Some p => p | None => (Continue, r2) end) = (repl, r3)).
  { destruct (readMipReplace r2) as [[d r]|] eqn:R.
    - apply readMipReplace_inv in R. destruct R as (w & -> & F). exists [w], d, r. auto.
    - exists [], Continue, r2. repeat split; auto. }
  destruct D as (a3 & repl & r3 & E3 & ->).
  destruct r3 as [|x r]; [discriminate|].
  destruct (emplace _ _ _) as [m|] eqn:EM; [|discriminate].
  intros H; inversion H; subst.
  exists (z :: (a1 ++ a2 ++ a3 ++ [x])), m, (Index face (to_uint level) (to_uint depth)), (x, repl).
  repeat split; auto.
  - cbn [app]. f_equal. rewrite E1. rewrite <- !app_assoc. reflexivity.
  - cbn [length]. rewrite !app_length. simpl. lia.
  - cbn. unfold to_uint. apply N.mod_lt. discriminate.
  - cbn. unfold to_uint. apply N.mod_lt. discriminate.
Qed.

Lemma do_custommiplist_inv file c tl c' rest : do_custommiplist file c tl = Go c' rest ->
  exists f content m, tl = f :: rest /\
    customMipList_loop (S (S (String.length content))) (Stream content true) (c_customMips c) = Some (Some m) /\
    c' = set_customMips m c.
Proof.
  unfold do_custommiplist. destruct tl as [|f r]; [discriminate|].
  destruct (file f) as [content|]; [|discriminate].
  destruct (customMipList_loop _ _ _) as [[m|]|] eqn:E; try discriminate.
  intros H; inversion H; subst. exists f, content, m. auto.
Qed.

Lemma do_rotate_inv c tl c' rest : do_rotate c tl = Go c' rest ->
  exists x v, tl = x :: rest /\ strtol x = (v, true) /\ Z.rem v 90 = 0%Z /\
    (exists b an, c' = set_rotateAngle an (set_rotate b c)) /\
    ((turns c' - Z.quot v 90) mod 4 = 0)%Z.
Proof.
  unfold do_rotate. destruct tl as [|x r]; [discriminate|].
  destruct (strtol x) as [v e] eqn:E. destruct e; [|discriminate].
  destruct (Z.eqb_spec (Z.rem v 90) 0) as [R|]; [|discriminate]. cbn [negb orb].
  set (q := Z.quot v 90).
  pose proof (Z.quot_rem' q 4) as QR.
  assert (RB : (-4 < Z.rem q 4 < 4)%Z) by (pose proof (Z.rem_bound_abs q 4); lia).
  intros H.
  assert (G : rest = r /\ (exists b an, c' = set_rotateAngle an (set_rotate b c)) /\ turns c' = Z.rem q 4).
  { destruct (Z.rem q 4) as [|p|p].
    - inversion H; subst. split; auto. split; [exists false, (c_rotateAngle c); destruct c; reflexivity|reflexivity].
    - destruct p as [[p|p|]|[p|p|]|]; try (exfalso; lia); inversion H; subst; repeat split; eauto.
    - destruct p as [[p|p|]|[p|p|]|]; try (exfalso; lia); inversion H; subst; repeat split; eauto. }
  destruct G as (-> & G1 & G2).
  exists x, v. repeat split; auto. rewrite G2.
  apply Z.mod_divide; [lia|]. exists (- Z.quot q 4)%Z. lia.
Qed.

Lemma do_normalmap_inv isnum c tl c' rest : do_normalmap isnum c tl = Go c' rest ->
  exists a o h, tl = a ++ rest /\ c' = set_normalHeight h (set_normalOptions o (set_normalMap true c)).
Proof.
  unfold do_normalmap.
  assert (D : exists a o r, tl = a ++ r /\
    (match tl with
     | [] => (set_normalMap true c, tl)
     | a :: r => if caseeq a "wrap" then (set_normalOptions 6 (set_normalMap true c), r)
                else if caseeq a "wrapx" then (set_normalOptions 2 (set_normalMap true c), r)
                else if caseeq a "wrapy" then (set_normalOptions 4 (set_normalMap true c), r)
                else (set_normalMap true c, tl)
     end) = (set_normalOptions o (set_normalMap true c), r)).
  { assert (I : set_normalMap true c = set_normalOptions (c_normalOptions c) (set_normalMap true c))
      by (destruct c; reflexivity).
    destruct tl as [|x t]; [exists [], (c_normalOptions c), []; rewrite <- I; auto|].
    destruct (caseeq x "wrap"); [exists [x], 6, t; auto|].
    destruct (caseeq x "wrapx"); [exists [x], 2, t; auto|].
    destruct (caseeq x "wrapy"); [exists [x], 4, t; auto|].
    exists [], (c_normalOptions c), (x :: t). rewrite <- I. auto. }
  destruct D as (a & o & r & -> & ->). cbv zeta.
  assert (I : set_normalOptions o (set_normalMap true c) =
    set_normalHeight (c_normalHeight c) (set_normalOptions o (set_normalMap true c))) by (destruct c; reflexivity).
  destruct r as [|x r].
  - intros H; inversion H; subst. exists a, o, (c_normalHeight c). rewrite <- I. auto.
  - destruct (isnum x); intros H; inversion H; subst.
    + exists (a ++ [x]), o, (Some x). rewrite <- app_assoc. auto.
    + exists a, o, (c_normalHeight c). rewrite <- I. auto.
Qed.

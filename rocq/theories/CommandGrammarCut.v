(** The grammar as a function, and one step of the parser in terms of it. *)

From Coq Require Import NArith ZArith List Bool String Ascii Lia.
From Coq Require Import ZifyBool ZifyNat ZifyN.
From Verif Require Import Base FormatModel SaveFormats TextureModel SaveModel CommandLineModel CommandLineSpec
  CommandFilesSpec CommandLineProofs CommandLineInv CommandGrammar.
Import ListNotations.
Local Open Scope string_scope.
Local Open Scope list_scope.
Local Open Scope N_scope.
Local Notation length := List.length.

(** * Options *)

Lemma words_names o h : In h (option_words o) <-> h = fst (names o) \/ h = snd (names o).
Proof. destruct o; cbn; intuition congruence. Qed.

Lemma words_classify o h : In h (option_words o) <-> classify h = Some o.
Proof.
  rewrite words_names, <- is_opt_true, <- is_names, orb_true_iff, !String.eqb_eq. tauto.
Qed.

(** * Optional operands *)

Definition take {A} (read : string -> option A) (tl : list string) : option A * list string :=
  match tl with
  | [] => (None, [])
  | a :: r => match read a with Some v => (Some v, r) | None => (None, tl) end
  end.

Lemma take_optional {A} (read : string -> option A) tl o r : take read tl = (o, r) ->
  exists ops, tl = ops ++ r /\ optional read r ops o.
Proof.
  destruct tl as [|a t]; cbn [take].
  - intros H; injection H as <- <-. exists []. split; [reflexivity|]. constructor. exact Logic.I.
  - destruct (read a) as [v|] eqn:E; intros H; injection H as <- <-.
    + exists [a]. split; [reflexivity|]. constructor. exact E.
    + exists []. split; [reflexivity|]. constructor. exact E.
Qed.

Lemma take_none {A} (read : string -> option A) tl r : take read tl = (None, r) -> r = tl.
Proof.
  destruct tl as [|a t]; cbn [take]; [intros H; injection H as <-; reflexivity|].
  destruct (read a); intros H; inversion H; reflexivity.
Qed.

Lemma optional_take {A} (read : string -> option A) ops o r : optional read r ops o ->
  take read (ops ++ r) = (o, r).
Proof.
  intros H. destruct H as [a v E|E]; cbn.
  - rewrite E. reflexivity.
  - destruct r as [|a t]; [reflexivity|]. cbn. rewrite E. reflexivity.
Qed.

(** * Readers *)

Lemma readIndex_take tl : readIndex tl = match take number tl with (Some v, r) => Some (v, r) | _ => None end.
Proof.
  destruct tl as [|a t]; [reflexivity|]. unfold readIndex, take, number. destruct (strtoul a) as [v e].
  cbn [fst snd]. destruct e; reflexivity.
Qed.

Lemma named_nil {A} s : named (@nil (string * A)) s = None.
Proof. reflexivity. Qed.

Lemma strToCubeFace_named s : strToCubeFace s = named face_names s.
Proof. unfold strToCubeFace, face_names. rewrite !named_cons, named_nil. reflexivity. Qed.

Lemma strToMipReplace_named s : strToMipReplace s = named replace_names s.
Proof. unfold strToMipReplace, replace_names. rewrite !named_cons, named_nil. reflexivity. Qed.

Lemma readCubeFace_take tl : readCubeFace tl = match take (named face_names) tl with (Some v, r) => Some (v, r) | _ => None end.
Proof.
  destruct tl as [|a t]; [reflexivity|]. unfold readCubeFace, take. rewrite strToCubeFace_named.
  destruct (named face_names a); reflexivity.
Qed.

Lemma readMipReplace_take tl : readMipReplace tl = match take (named replace_names) tl with (Some v, r) => Some (v, r) | _ => None end.
Proof.
  destruct tl as [|a t]; [reflexivity|]. unfold readMipReplace, take. rewrite strToMipReplace_named.
  destruct (named replace_names a); reflexivity.
Qed.

Lemma readSize_take tl : readSize tl = match take size tl with (Some v, r) => Some (v, r) | _ => None end.
Proof.
  destruct tl as [|a t]; [reflexivity|]. unfold readSize, take, size, size_names, integer.
  rewrite !named_cons, named_nil.
  repeat match goal with |- context [if caseeq a ?n then _ else _] => destruct (caseeq a n); [reflexivity|] end.
  destruct (strtol a) as [z e]. cbn [fst snd]. destruct e; reflexivity.
Qed.

Lemma readFilter_take old tl : readFilter old tl =
  let (o, r) := take (named filter_names) tl in (match o with Some f => f | None => old end, r).
Proof.
  destruct tl as [|a t]; [reflexivity|]. unfold readFilter, take, filter_names. rewrite !named_cons, named_nil.
  repeat match goal with |- context [if caseeq a ?n then _ else _] => destruct (caseeq a n); [reflexivity|] end.
  reflexivity.
Qed.

Lemma readChannel_letter c : readChannel c = letter c.
Proof. destruct c as [[] [] [] [] [] [] [] []]; vm_compute; reflexivity. Qed.

(** * The grammar as a function *)

Section Cut.
Variable fl : flags.
Variable isnum : string -> bool.

Definition cut (o : opt) (tl : list string) : option (directive * list string) :=
  match o with
  | O_jobs => let (n, r) := take integer tl in Some (D_jobs n, r)
  | O_quiet => Some (D_quiet, tl)
  | O_verbose => Some (D_verbose, tl)
  | O_input => match tl with f :: r => Some (D_input f, r) | _ => None end
  | O_array =>
      match tl with
      | [] => None
      | [f] => Some (D_array None f, [])
      | a :: f :: r => match number a with
                       | Some v => Some (D_array (Some v) f, r)
                       | None => Some (D_array None a, f :: r)
                       end
      end
  | O_cube => match tl with
              | w :: f :: r => match named face_names w with Some x => Some (D_cube x f, r) | None => None end
              | _ => None
              end
  | O_cubearray =>
      match tl with
      | i :: w :: f :: r =>
          match number i, named face_names w with
          | Some v, Some x => Some (D_cubearray v x f, r)
          | _, _ => None
          end
      | _ => None
      end
  | O_inputlist => match tl with
                   | w :: f :: r => match named kind_names w with Some k => Some (D_inputlist k f, r) | None => None end
                   | _ => None
                   end
  | O_resize =>
      match tl with
      | a :: b :: r =>
          match size a, size b with
          | Some w, Some h => let (flt, r) := take (named filter_names) r in Some (D_resize w h flt, r)
          | _, _ => None
          end
      | _ => None
      end
  | O_mipmap => let (n, r) := take number tl in
                let (flt, r) := take (named filter_names) r in Some (D_mipmap n flt, r)
  | O_custommip =>
      match tl with
      | l :: r =>
          match number l with
          | None => None
          | Some level =>
              let (depth, r) := take number r in
              let (face, r) := take (named face_names) r in
              let (rp, r) := take (named replace_names) r in
              match r with f :: r => Some (D_custommip level depth face rp f, r) | [] => None end
          end
      | [] => None
      end
  | O_custommiplist => match tl with f :: r => Some (D_custommiplist f, r) | _ => None end
  | O_flipx => Some (D_flipx, tl)
  | O_flipy => Some (D_flipy, tl)
  | O_rotate =>
      match tl with
      | a :: r => match integer a with
                  | Some z => if (Z.rem z 90 =? 0)%Z then Some (D_rotate z, r) else None
                  | None => None
                  end
      | _ => None
      end
  | O_normalmap => let (w, r) := take (named wrap_names) tl in
                   let (h, r) := take (height isnum) r in Some (D_normalmap w h, r)
  | O_grayscale => Some (D_grayscale, tl)
  | O_swizzle =>
      match tl with
      | String c0 (String c1 (String c2 (String c3 EmptyString))) :: rest =>
          match letter c0, letter c1, letter c2, letter c3 with
          | Some r, Some g, Some b, Some a => Some (D_swizzle r g b a, rest)
          | _, _, _, _ => None
          end
      | _ => None
      end
  | O_srgb => Some (D_srgb, tl)
  | O_premultiply => Some (D_premultiply, tl)
  | O_dimension =>
      match tl with
      | a :: r => if String.eqb a "1" then Some (D_dimension Dim1D, r)
                  else if String.eqb a "2" then Some (D_dimension Dim2D, r)
                  else if String.eqb a "3" then Some (D_dimension Dim3D, r) else None
      | _ => None
      end
  | O_format => match tl with a :: r => Some (D_format (named (format_names fl) a), r) | _ => None end
  | O_type => match tl with
              | a :: r => match named type_names a with Some t => Some (D_type t, r) | None => None end
              | _ => None
              end
  | O_alpha => match tl with
               | a :: r => match named alpha_names a with Some t => Some (D_alpha t, r) | None => None end
               | _ => None
               end
  | O_quality => match tl with
                 | a :: r => match named quality_names a with Some t => Some (D_quality t, r) | None => None end
                 | _ => None
                 end
  | O_output => match tl with f :: r => Some (D_output f, r) | _ => None end
  | O_fileformat => match tl with
                    | a :: r => match named filetype_names a with Some t => Some (D_fileformat t, r) | None => None end
                    | _ => None
                    end
  | O_createdir => Some (D_createdir, tl)
  end.

Lemma multiple_rem z : Z.rem z 90 = 0%Z <-> exists q, z = (90 * q)%Z.
Proof.
  split.
  - intros H. exists (Z.quot z 90). pose proof (Z.quot_rem' z 90). lia.
  - intros (q & ->). rewrite Z.mul_comm. apply Z.rem_mul. lia.
Qed.

Lemma cut_sound o tl d rest : cut o tl = Some (d, rest) ->
  exists ops, tl = ops ++ rest /\ operands fl isnum o rest ops d.
Proof.
  destruct o; cbn [cut]; intros H;
    try (injection H as <- <-; exists []; split; [reflexivity|constructor]; fail);
    try (destruct tl as [|a t]; [discriminate|]; injection H as <- <-; exists [a]; split; [reflexivity|constructor]; fail);
    try (destruct tl as [|a t]; [discriminate|];
         match type of H with match ?x with _ => _ end = _ => destruct x eqn:E; [|discriminate] end;
         injection H as <- <-; exists [a]; split; [reflexivity|constructor; exact E]; fail).
  - destruct (take integer tl) as [n r] eqn:T. injection H as <- <-.
    apply take_optional in T. destruct T as (ops & -> & T). exists ops. split; [reflexivity|]. constructor. exact T.
  - destruct tl as [|a [|f r]]; [discriminate| |].
    + injection H as <- <-. exists [a]. split; [reflexivity|]. constructor. right; reflexivity.
    + destruct (number a) as [v|] eqn:E; injection H as <- <-.
      * exists [a; f]. split; [reflexivity|]. constructor. exact E.
      * exists [a]. split; [reflexivity|]. constructor. left; exact E.
  - destruct tl as [|w [|f r]]; try discriminate. destruct (named face_names w) eqn:E; [|discriminate].
    injection H as <- <-. exists [w; f]. split; [reflexivity|]. constructor. exact E.
  - destruct tl as [|i [|w [|f r]]]; try discriminate. destruct (number i) eqn:E1; [|discriminate].
    destruct (named face_names w) eqn:E2; [|discriminate].
    injection H as <- <-. exists [i; w; f]. split; [reflexivity|]. constructor; assumption.
  - destruct tl as [|w [|f r]]; try discriminate. destruct (named kind_names w) eqn:E; [|discriminate].
    injection H as <- <-. exists [w; f]. split; [reflexivity|]. constructor. exact E.
  - destruct tl as [|a [|b r]]; try discriminate. destruct (size a) eqn:E1; [|discriminate].
    destruct (size b) eqn:E2; [|discriminate]. destruct (take (named filter_names) r) as [flt r'] eqn:T.
    injection H as <- <-. apply take_optional in T. destruct T as (ops & -> & T).
    exists (a :: b :: ops). split; [reflexivity|]. constructor; assumption.
  - destruct (take number tl) as [n r] eqn:T1. destruct (take (named filter_names) r) as [flt r'] eqn:T2.
    injection H as <- <-. apply take_optional in T1, T2. destruct T1 as (ops1 & -> & T1).
    destruct T2 as (ops2 & -> & T2). exists (ops1 ++ ops2). split; [apply app_assoc|]. constructor; assumption.
  - destruct tl as [|l r]; [discriminate|]. destruct (number l) as [level|] eqn:E; [|discriminate].
    destruct (take number r) as [depth r1] eqn:T1. destruct (take (named face_names) r1) as [face r2] eqn:T2.
    destruct (take (named replace_names) r2) as [rp r3] eqn:T3. destruct r3 as [|f r4]; [discriminate|].
    injection H as <- <-. apply take_optional in T1, T2, T3. destruct T1 as (ops1 & -> & T1).
    destruct T2 as (ops2 & -> & T2). destruct T3 as (ops3 & -> & T3).
    exists (l :: ops1 ++ ops2 ++ ops3 ++ [f]). split.
    + cbn [app]. rewrite <- !app_assoc. reflexivity.
    + constructor; assumption.
  - destruct tl as [|a t]; [discriminate|]. destruct (integer a) as [z|] eqn:E; [|discriminate].
    destruct (Z.eqb_spec (Z.rem z 90) 0) as [R|]; [|discriminate]. injection H as <- <-.
    exists [a]. split; [reflexivity|]. constructor; [exact E|]. apply multiple_rem. exact R.
  - destruct (take (named wrap_names) tl) as [n r] eqn:T1. destruct (take (height isnum) r) as [h r'] eqn:T2.
    injection H as <- <-. apply take_optional in T1, T2. destruct T1 as (ops1 & -> & T1).
    destruct T2 as (ops2 & -> & T2). exists (ops1 ++ ops2). split; [apply app_assoc|]. constructor; assumption.
  - destruct tl as [|s t]; [discriminate|]. destruct s as [|c0 [|c1 [|c2 [|c3 [|]]]]]; try discriminate.
    destruct (letter c0) eqn:E0; [|discriminate]. destruct (letter c1) eqn:E1; [|discriminate].
    destruct (letter c2) eqn:E2; [|discriminate]. destruct (letter c3) eqn:E3; [|discriminate].
    injection H as <- <-. eexists [_]. split; [reflexivity|]. constructor; assumption.
  - destruct tl as [|a t]; [discriminate|].
    destruct (String.eqb_spec a "1") as [->|_]; [injection H as <- <-; exists ["1"]; split; [reflexivity|constructor; cbn; auto]|].
    destruct (String.eqb_spec a "2") as [->|_]; [injection H as <- <-; exists ["2"]; split; [reflexivity|constructor; cbn; auto]|].
    destruct (String.eqb_spec a "3") as [->|_]; [injection H as <- <-; exists ["3"]; split; [reflexivity|constructor; cbn; auto]|].
    discriminate.
Qed.

Lemma cut_complete o rest ops d : operands fl isnum o rest ops d -> cut o (ops ++ rest) = Some (d, rest).
Proof.
  intros H. destruct H; cbn [cut app];
    repeat match goal with
    | E : ?x = Some _ |- context [?x] => rewrite E
    | O : optional _ _ _ _ |- _ => apply optional_take in O
    end; try reflexivity.
  - rewrite H. reflexivity.
  - destruct rest as [|b r]; [reflexivity|]. destruct H as [-> |]; [reflexivity|discriminate].
  - rewrite H1. reflexivity.
  - rewrite <- app_assoc, H, H0. reflexivity.
  - rewrite <- !app_assoc. cbn [app]. rewrite H0, H1, H2. reflexivity.
  - apply multiple_rem in H0. rewrite H0. reflexivity.
  - rewrite <- app_assoc, H, H0. reflexivity.
  - destruct H as [H|[H|[H|[]]]]; injection H as <- <-; reflexivity.
Qed.

(** Directives are determined by the words. *)
Lemma spelled_unique args ds : spelled fl isnum args ds -> forall ds', spelled fl isnum args ds' -> ds = ds'.
Proof.
  intros H. induction H as [|o h ops rest d ds W O S IH]; intros ds' H'.
  - inversion H'. reflexivity.
  - remember (h :: ops ++ rest) as args eqn:A. destruct H' as [|o' h' ops' rest' d' ds'' W' O' S']; [discriminate|].
    injection A as -> A. apply words_classify in W, W'. rewrite W in W'. injection W' as <-.
    apply cut_complete in O, O'. rewrite A, O in O'. injection O' as <- <-.
    f_equal. apply IH. exact S'.
Qed.

(** * What a directive does to the state *)

Variable file : string -> option string.
Variable cap : N.

Definition put (c : cl) (idx : N) (v : string) : option cl :=
  if idx <? N.of_nat (length (c_images c)) then
    if is_empty (nth (N.to_nat idx) (c_images c) EmptyString)
    then Some (set_images (upd (N.to_nat idx) v (c_images c)) c) else None
  else None.

Definition kinded (k : imagetype) (c : cl) : option cl :=
  match c_images c with
  | [] => Some (set_imageType k c)
  | _ => if imagetype_eqb (c_imageType c) k then Some c else None
  end.

Definition rotated (z : Z) (c : cl) : cl :=
  match Z.rem (Z.quot z 90) 4 with
  | (-3)%Z => set_rotateAngle CCW270 (set_rotate true c)
  | (-2)%Z => set_rotateAngle CCW180 (set_rotate true c)
  | (-1)%Z => set_rotateAngle CCW90 (set_rotate true c)
  | 0%Z => set_rotate false c
  | 1%Z => set_rotateAngle CW90 (set_rotate true c)
  | 2%Z => set_rotateAngle CW180 (set_rotate true c)
  | 3%Z => set_rotateAngle CW270 (set_rotate true c)
  | _ => c
  end.

Definition effect (d : directive) (c : cl) : option cl :=
  match d with
  | D_jobs None => Some (set_jobs allOnes c)
  | D_jobs (Some z) => Some (set_jobs (Z.to_N (z mod 2 ^ 32)) c)
  | D_quiet => Some (set_log Log_Quiet c)
  | D_verbose => Some (set_log Log_Verbose c)
  | D_input f => match c_images c with [] => Some (set_images [f] c) | _ => None end
  | D_array i f =>
      obind (kinded IT_Array c) (fun c =>
      let size := N.of_nat (length (c_images c)) in
      let idx := match i with Some i => i | None => size end in
      obind (if size <=? idx then resize cap (c_images c) (u64 (idx + 1)) else Some (c_images c)) (fun im =>
      put (set_images im c) idx f))
  | D_cube face f =>
      obind (match c_images c with
             | [] => obind (resize cap [] 6) (fun im => Some (set_images im (set_imageType IT_Cube c)))
             | _ => kinded IT_Cube c
             end) (fun c => put c face f)
  | D_cubearray ci face f =>
      obind (kinded IT_CubeArray c) (fun c =>
      let size := N.of_nat (length (c_images c)) in
      obind (if size <=? u64 (ci * 6) then resize cap (c_images c) (u64 (u64 (ci + 1) * 6))
             else Some (c_images c)) (fun im =>
      put (set_images im c) (u64 (u64 (ci * 6) + face)) f))
  | D_inputlist k f =>
      match c_images c, file f with
      | [], Some content =>
          obind (imageList_loop (S (S (String.length content))) (Stream content true) []) (fun im =>
          Some (set_images im (set_imageType k c)))
      | _, _ => None
      end
  | D_resize w h flt =>
      Some (set_resizeFilter (match flt with Some f => f | None => c_resizeFilter c end) (set_height h (set_width w c)))
  | D_mipmap n flt =>
      Some (set_mipFilter (match flt with Some f => f | None => c_mipFilter c end)
             (set_mipLevels (match n with Some n => to_uint n | None => allOnes end) c))
  | D_custommip level depth face r f =>
      obind (emplace (Index (match face with Some x => x | None => 0 end) (to_uint level)
                            (to_uint (match depth with Some x => x | None => 0 end)))
                     (f, match r with Some x => x | None => Continue end) (c_customMips c)) (fun m =>
      Some (set_customMips m c))
  | D_custommiplist f =>
      obind (file f) (fun content =>
      match customMipList_loop (S (S (String.length content))) (Stream content true) (c_customMips c) with
      | Some (Some m) => Some (set_customMips m c)
      | _ => None
      end)
  | D_flipx => Some (set_flipX true c)
  | D_flipy => Some (set_flipY true c)
  | D_rotate z => Some (rotated z c)
  | D_normalmap w h =>
      let c := set_normalMap true c in
      let c := match w with Some w => set_normalOptions w c | None => c end in
      Some (match h with Some h => set_normalHeight (Some h) c | None => c end)
  | D_grayscale => Some (set_grayscale true c)
  | D_swizzle r g b a =>
      let c := set_redSwzl r (set_greenSwzl g (set_blueSwzl b (set_alphaSwzl a (set_swizzle true c)))) in
      let c := match r with Ch_None => set_maskR false c | _ => c end in
      let c := match g with Ch_None => set_maskG false c | _ => c end in
      let c := match b with Ch_None => set_maskB false c | _ => c end in
      let c := match a with Ch_None => set_maskA false c | _ => c end in
      Some (if negb (c_alphaSet c) && negb (c_maskA c) then set_alph AlphaNone c else c)
  | D_srgb => Some (set_imageCS CS_sRGB (set_textureCS CS_sRGB c))
  | D_premultiply =>
      let c := set_preMultiply true c in
      Some (if negb (c_alphaSet c) && c_maskA c then set_alph AlphaPreMultiplied c else c)
  | D_dimension d => Some (set_dim d c)
  | D_format o =>
      let c := match o with Some f => set_fmt f c | None => c end in
      match c_fmt c with
      | F_Unknown => None
      | f => Some (if special_format f then set_ttyp T_UFloat c else c)
      end
  | D_type t => Some (set_ttyp t c)
  | D_alpha a => Some (set_alph a (set_alphaSet true c))
  | D_quality q => Some (set_quality q c)
  | D_output f => match c_output c with Some _ => None | None => Some (set_output (Some f) c) end
  | D_fileformat t => Some (set_ftype t c)
  | D_createdir => Some (set_createOutputDir true c)
  end.

Definition went (x : outcome) : option (cl * list string) :=
  match x with Go c r => Some (c, r) | _ => None end.

Lemma put_went c idx v r : went (put_image c idx v r) = obind (put c idx v) (fun c => Some (c, r)).
Proof.
  unfold put_image, put. destruct (_ <? _); [|reflexivity]. destruct (is_empty _); reflexivity.
Qed.

Lemma kinded_do k c : (match c_images c with [] => Some (set_imageType k c)
            | _ => if negb (imagetype_eqb (c_imageType c) k) || imageFile then None else Some c
            end) = kinded k c.
Proof.
  unfold kinded, imageFile. destruct (c_images c); [reflexivity|]. rewrite orb_false_r.
  destruct (imagetype_eqb _ _); reflexivity.
Qed.

Lemma step_went c h tl o : classify h = Some o ->
  went (step fl file isnum cap c h tl) =
  obind (cut o tl) (fun p => obind (effect (fst p) c) (fun c' => Some (c', snd p))).
Proof.
  intros H. unfold step. rewrite H. destruct o; try reflexivity; cbn [cut].
  - (* jobs *)
    unfold do_jobs. destruct tl as [|a r]; [reflexivity|]. unfold take, integer.
    destruct (strtol a) as [v e]. cbn [fst snd]. destruct e; reflexivity.
  - (* input *)
    unfold do_input. destruct tl as [|a r]; destruct (c_images c) eqn:E; try reflexivity;
      cbn [obind fst snd effect]; rewrite E; reflexivity.
  - (* array *)
    unfold do_array. rewrite kinded_do. destruct tl as [|a t].
    { destruct (kinded IT_Array c); reflexivity. }
    assert (G : forall i f r, (let size := N.of_nat (length (c_images c)) in
              let idx := match i with Some i => i | None => size end in
              True) ->
              obind (effect (D_array i f) c) (fun c' => Some (c', r)) =
              match kinded IT_Array c with
              | None => None
              | Some c =>
                  let size := N.of_nat (length (c_images c)) in
                  let idx := match i with Some i => i | None => size end in
                  went (match (if size <=? idx then resize cap (c_images c) (u64 (idx + 1)) else Some (c_images c)) with
                  | Some im => put_image (set_images im c) idx f r
                  | None => Throw
                  end)
              end).
    { intros i f r _. cbn [effect]. destruct (kinded IT_Array c) as [c1|]; [|reflexivity]. cbn [obind].
      destruct (if _ <=? _ then _ else _) as [im|]; [|reflexivity]. cbn [obind]. rewrite put_went. reflexivity. }
    destruct t as [|f r].
    + cbn [obind fst snd]. rewrite G by exact Logic.I. destruct (kinded IT_Array c) as [c1|]; [|reflexivity].
      cbn zeta. destruct (if _ <=? _ then _ else _); reflexivity.
    + rewrite readIndex_take. unfold take. destruct (number a) as [v|]; cbn [obind fst snd]; rewrite G by exact Logic.I;
        destruct (kinded IT_Array c) as [c1|]; try reflexivity; cbn zeta; destruct (if _ <=? _ then _ else _); reflexivity.
  - (* cube *)
    unfold do_cube. destruct tl as [|w [|f r]].
    { destruct (match c_images c with [] => _ | _ => _ end) as [[]|]; reflexivity. }
    { destruct (match c_images c with [] => _ | _ => _ end) as [[]|]; reflexivity. }
    rewrite readCubeFace_take. unfold take. cbn [effect].
    assert (K : match c_images c with
         | [] => obind (resize cap [] 6) (fun im => Some (Some (set_images im (set_imageType IT_Cube c))))
         | _ => Some (if negb (imagetype_eqb (c_imageType c) IT_Cube) || imageFile then None else Some c)
         end = match c_images c with
         | [] => match resize cap [] 6 with None => None | Some im => Some (Some (set_images im (set_imageType IT_Cube c))) end
         | _ => Some (kinded IT_Cube c)
         end).
    { unfold kinded, imageFile. destruct (c_images c); [reflexivity|]. rewrite orb_false_r.
      destruct (imagetype_eqb _ _); reflexivity. }
    rewrite K. clear K. destruct (named face_names w) as [x|]; cbn [obind fst snd effect].
    + destruct (c_images c).
      * destruct (resize cap [] 6) as [im|]; [|reflexivity]. cbn [obind]. rewrite put_went. reflexivity.
      * destruct (kinded IT_Cube c) as [c1|]; [|reflexivity]. cbn [obind]. rewrite put_went. reflexivity.
    + destruct (match c_images c with [] => _ | _ => _ end) as [[]|]; reflexivity.
  - (* cube array *)
    unfold do_cubearray. rewrite kinded_do. destruct tl as [|i [|w [|f r]]]; try (destruct (kinded IT_CubeArray c); reflexivity).
    rewrite readIndex_take. unfold take at 1. destruct (number i) as [v|].
    2:{ destruct (kinded IT_CubeArray c); reflexivity. }
    rewrite readCubeFace_take. unfold take. destruct (named face_names w) as [x|]; cbn [obind fst snd effect].
    2:{ destruct (kinded IT_CubeArray c); reflexivity. }
    destruct (kinded IT_CubeArray c) as [c1|]; [|reflexivity]. cbn [obind]. cbv zeta.
    destruct (if _ <=? _ then _ else _) as [im|]; [|reflexivity]. cbn [obind]. apply put_went.
  - (* input list *)
    unfold do_inputlist. destruct tl as [|w [|f r]]; try (destruct (c_images c); reflexivity).
    unfold kind_names. rewrite !named_cons, named_nil.
    destruct (if caseeq w "image" then _ else _) as [k|]; [|destruct (c_images c); reflexivity].
    cbn [obind fst snd effect]. destruct (c_images c); [|reflexivity]. destruct (file f) as [content|]; [|reflexivity].
    destruct (imageList_loop _ _ _); reflexivity.
  - (* resize *)
    unfold do_resize. destruct tl as [|a [|b r]]; try reflexivity.
    rewrite readSize_take. cbn [take]. destruct (size a) as [w|]; [|reflexivity].
    rewrite readSize_take. cbn [take]. destruct (size b) as [h0|]; [|reflexivity].
    rewrite readFilter_take. destruct (take (named filter_names) r) as [flt r']. reflexivity.
  - (* mipmap *)
    unfold do_mipmap. rewrite readIndex_take. destruct (take number tl) as [n r] eqn:T.
    destruct n as [n|]; rewrite readFilter_take.
    + destruct (take (named filter_names) r) as [flt r']. reflexivity.
    + apply take_none in T. subst r. destruct (take (named filter_names) tl) as [flt r']. reflexivity.
  - (* custom mip *)
    unfold do_custommip. destruct tl as [|l r]; [reflexivity|].
    rewrite (readIndex_take (l :: r)). cbn [take]. destruct (number l) as [level|]; [|destruct r; reflexivity].
    destruct (list_eq_dec string_dec r []) as [->|NE]; [reflexivity|].
    assert (M : forall X, match r with [] => Stop | _ :: _ => X end = X) by (destruct r; [contradiction|reflexivity]).
    rewrite M. clear M NE. rename r into tl1.
    rewrite readIndex_take. destruct (take number tl1) as [depth r1] eqn:T1.
    assert (E1 : (match match depth with Some v => Some (v, r1) | None => None end with
             | Some p => p | None => (0, tl1) end) = (match depth with Some x => x | None => 0 end, r1)).
    { destruct depth; [reflexivity|]. apply take_none in T1. subst; reflexivity. }
    rewrite E1. clear E1 T1 tl1.
    rewrite readCubeFace_take. destruct (take (named face_names) r1) as [face r2] eqn:T1.
    assert (E1 : (match match face with Some v => Some (v, r2) | None => None end with
             | Some p => p | None => (0, r1) end) = (match face with Some x => x | None => 0 end, r2)).
    { destruct face; [reflexivity|]. apply take_none in T1. subst; reflexivity. }
    rewrite E1. clear E1 T1 r1.
    rewrite readMipReplace_take. destruct (take (named replace_names) r2) as [rp r3] eqn:T1.
    assert (E1 : (match match rp with Some v => Some (v, r3) | None => None end with
             | Some p => p | None => (Continue, r2) end) = (match rp with Some x => x | None => Continue end, r3)).
    { destruct rp; [reflexivity|]. apply take_none in T1. subst; reflexivity. }
    rewrite E1. destruct r3 as [|f r4]; [reflexivity|]. cbn [obind fst snd effect].
    destruct (emplace _ _ _); reflexivity.
  - (* custom mip list *)
    unfold do_custommiplist. destruct tl as [|f r]; [reflexivity|]. cbn [obind fst snd effect].
    destruct (file f) as [content|]; [|reflexivity]. cbn [obind]. destruct (customMipList_loop _ _ _) as [[m|]|]; reflexivity.
  - (* rotate *)
    unfold do_rotate. destruct tl as [|a r]; [reflexivity|]. unfold integer. destruct (strtol a) as [v e]. cbn [fst snd].
    destruct e; [|reflexivity]. cbn [negb orb]. destruct (Z.rem v 90 =? 0)%Z; [|reflexivity].
    cbn [negb obind fst snd effect]. unfold rotated.
    destruct (Z.rem (Z.quot v 90) 4) as [|p|p]; try reflexivity;
      destruct p as [[]|[]|]; reflexivity.
  - (* normal map *)
    unfold do_normalmap. destruct tl as [|a r]; [reflexivity|]. cbn [take]. unfold wrap_names. rewrite !named_cons, named_nil.
    destruct (caseeq a "wrap"); [|destruct (caseeq a "wrapx"); [|destruct (caseeq a "wrapy")]].
    1,2,3: destruct r as [|b t]; [reflexivity|]; cbn [take]; unfold height; destruct (isnum b); reflexivity.
    cbn [take]. unfold height. destruct (isnum a); reflexivity.
  - (* swizzle *)
    unfold do_swizzle. destruct tl as [|s t]; [reflexivity|]. destruct s as [|c0 [|c1 [|c2 [|c3 [|]]]]]; try reflexivity.
    rewrite !readChannel_letter. destruct (letter c0); [|reflexivity]. destruct (letter c1); [|reflexivity].
    destruct (letter c2); [|reflexivity]. destruct (letter c3); reflexivity.
  - (* dimension *)
    unfold do_dimension. destruct tl as [|a r]; [reflexivity|]. destruct (String.eqb a "1"); [reflexivity|].
    destruct (String.eqb a "2"); [reflexivity|]. destruct (String.eqb a "3"); reflexivity.
  - (* format *)
    unfold do_format. destruct tl as [|a r]; [reflexivity|]. rewrite find_format_named.
    fold (format_names fl). cbn [obind fst snd effect]. unfold typeSet. cbn [negb].
    destruct (c_fmt (match named (format_names fl) a with Some f => set_fmt f c | None => c end)); reflexivity.
  - unfold do_type. destruct tl as [|a r]; [reflexivity|]. unfold type_names. rewrite !named_cons, named_nil.
    repeat match goal with |- context [if caseeq a ?n then _ else _] => destruct (caseeq a n); [reflexivity|] end. reflexivity.
  - unfold do_alpha. destruct tl as [|a r]; [reflexivity|]. unfold alpha_names. rewrite !named_cons, named_nil.
    repeat match goal with |- context [if caseeq a ?n then _ else _] => destruct (caseeq a n); [reflexivity|] end. reflexivity.
  - unfold do_quality. destruct tl as [|a r]; [reflexivity|]. unfold quality_names. rewrite !named_cons, named_nil.
    repeat match goal with |- context [if caseeq a ?n then _ else _] => destruct (caseeq a n); [reflexivity|] end. reflexivity.
  - unfold do_output. destruct tl as [|a r]; [reflexivity|]. cbn [obind fst snd effect]. destruct (c_output c); reflexivity.
  - unfold do_fileformat. destruct tl as [|a r]; [reflexivity|]. unfold filetype_names. rewrite !named_cons, named_nil.
    repeat match goal with |- context [if caseeq a ?n then _ else _] => destruct (caseeq a n); [reflexivity|] end. reflexivity.
Qed.
End Cut.

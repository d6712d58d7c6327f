(** The invariants of the loop over the arguments. *)

From Coq Require Import NArith ZArith List Bool String Ascii Lia Permutation.
From Coq Require Import ZifyBool ZifyNat ZifyN.
From Verif Require Import Base FormatModel SaveFormats TextureModel SaveModel CommandLineModel CommandLineSpec CommandLineProofs.
Import ListNotations.
Local Open Scope string_scope.
Local Open Scope list_scope.
Local Open Scope N_scope.
Local Notation length := List.length.

Definition upd1 {A} (short long : string) (table : list (string * A)) (v : A) (s : segment) : A :=
  match s with
  | [h; x] => if String.eqb h short || String.eqb h long then
                match named table x with Some v' => v' | None => v end
              else v
  | _ => v
  end.

Lemma last_value_app {A} a b (t : list (string * A)) d segs s :
  last_value a b t d (segs ++ [s]) = upd1 a b t (last_value a b t d segs) s.
Proof. unfold last_value. rewrite fold_left_app. reflexivity. Qed.

Lemma upd1_cons {A} a b (t : list (string * A)) v h x :
  upd1 a b t v (h :: x) =
  if String.eqb h a || String.eqb h b then
    match x with [y] => match named t y with Some v' => v' | None => v end | _ => v end else v.
Proof. unfold upd1. destruct x as [|y [|z r]]; destruct (_ || _); reflexivity. Qed.

Lemma last_angle_app segs h a :
  last_angle (segs ++ [h :: a]) =
  if String.eqb h "--rotate" || String.eqb h "--rotate" then
    match a with [x] => fst (strtol x) | _ => last_angle segs end else last_angle segs.
Proof.
  unfold last_angle. rewrite fold_left_app. cbn [fold_left]. rewrite orb_diag.
  destruct a as [|x [|y r]]; destruct (String.eqb h "--rotate"); reflexivity.
Qed.

Lemma has_option_app a b segs s : has_option a b (segs ++ [s]) = has_option a b segs || is_option a b s.
Proof. unfold has_option. rewrite existsb_app. cbn. rewrite orb_false_r. reflexivity. Qed.

Lemma first_arg_none a b segs : has_option a b segs = false -> first_arg a b segs = None.
Proof.
  induction segs as [|t r IH]; [reflexivity|]. cbn [first_arg has_option existsb].
  fold (has_option a b r). destruct (is_option a b t); [discriminate|exact IH].
Qed.

Lemma first_arg_app a b segs s :
  first_arg a b (segs ++ [s]) =
  if is_option a b s then if has_option a b segs then first_arg a b segs else nth_error s 1
  else first_arg a b segs.
Proof.
  induction segs as [|t r IH]; [cbn; destruct (is_option a b s); reflexivity|].
  cbn [app first_arg has_option existsb].
  fold (has_option a b r). destruct (is_option a b t); [destruct (is_option a b s); reflexivity|].
  cbn [orb]. exact IH.
Qed.

Lemma used_type_app fl segs s :
  used_type fl (rev (segs ++ [s])) =
  let earlier := used_type fl (rev segs) in
  if is_option "-t" "--type" s then
    match s with [_; x] => match named type_names x with Some t => t | None => earlier end | _ => earlier end
  else if is_option "-f" "--format" s then
    if special_format (last_value "-f" "--format" (format_names fl) F_Unknown (segs ++ [s]))
    then T_UFloat else earlier
  else earlier.
Proof. rewrite rev_app_distr. cbn [rev app used_type]. rewrite rev_involutive. reflexivity. Qed.

(** How the fields of the configuration depend on the segments read so far. *)
Record Inv (fl : flags) (segs : list segment) (c : cl) : Prop := {
  i_quality : c_quality c = last_value "-Q" "--quality" quality_names Q_Normal segs;
  i_ftype : c_ftype c = last_value "--file-format" "--file-format" filetype_names FT_Auto segs;
  i_dim : c_dim c = last_value "-d" "--dimension" dimension_names Dim2D segs;
  i_fmt : c_fmt c = last_value "-f" "--format" (format_names fl) F_Unknown segs;
  i_type : c_ttyp c = used_type fl (rev segs);
  i_output : c_output c = first_arg "-o" "--output" segs;
  i_output' : has_option "-o" "--output" segs = match c_output c with Some _ => true | None => false end;
  i_alphaSet : c_alphaSet c = has_option "--alpha" "--alpha" segs;
  i_maskA : c_maskA c = negb (existsb drops_alpha segs);
  i_alpha : c_alph c =
    if has_option "--alpha" "--alpha" segs then last_value "--alpha" "--alpha" alpha_names AlphaStandard segs
    else if existsb drops_alpha segs then AlphaNone
    else if has_option "--pre-multiply" "--pre-multiply" segs then AlphaPreMultiplied else AlphaStandard;
  i_flipX : c_flipX c = has_option "--flipx" "--flipx" segs;
  i_flipY : c_flipY c = has_option "--flipy" "--flipy" segs;
  i_gray : c_grayscale c = has_option "-g" "--grayscale" segs;
  i_normal : c_normalMap c = has_option "-n" "--normalmap" segs;
  i_swizzle : c_swizzle c = has_option "-s" "--swizzle" segs;
  i_pre : c_preMultiply c = has_option "--pre-multiply" "--pre-multiply" segs;
  i_dir : c_createOutputDir c = has_option "--create-dir" "--create-dir" segs;
  i_imgcs : c_imageCS c = if has_option "--srgb" "--srgb" segs then CS_sRGB else CS_Linear;
  i_texcs : c_textureCS c = if has_option "--srgb" "--srgb" segs then CS_sRGB else CS_Linear;
  i_turns : ((turns c - Z.quot (last_angle segs) 90) mod 4 = 0)%Z;
}.

Lemma Inv0 fl : Inv fl [] cl0.
Proof. constructor; reflexivity. Qed.

Lemma find_format_named m a : find_format m a = named (map (fun p => (snd p, fst p)) m) a.
Proof.
  induction m as [|[f n] t IH]; [reflexivity|]. cbn [find_format map named fst snd]. unfold caseeq.
  destruct (String.eqb _ _); auto.
Qed.

Lemma named_cons {A} n (v : A) t s : named ((n, v) :: t) s = if caseeq s n then Some v else named t s.
Proof. unfold caseeq. cbn [named]. rewrite String.eqb_sym. reflexivity. Qed.

Ltac known_tests h Hcl :=
  let tst o :=
    let E := fresh "T" in
    pose proof (is_names o h) as E; cbn [names fst snd] in E;
    unfold is_opt in E; rewrite Hcl in E; cbv beta iota in E in
  tst O_quality; tst O_fileformat; tst O_dimension; tst O_format; tst O_type; tst O_output; tst O_alpha;
  tst O_flipx; tst O_flipy; tst O_grayscale; tst O_normalmap; tst O_swizzle; tst O_premultiply;
  tst O_createdir; tst O_srgb; tst O_rotate.

Ltac rw_tests :=
  repeat match goal with
  | T : (String.eqb ?h ?a || String.eqb ?h ?b)%bool = _ |- context [(String.eqb ?h ?a || String.eqb ?h ?b)%bool] => rewrite T
  end.

Ltac inv_goal :=
  rewrite ?last_value_app, ?upd1_cons, ?has_option_app, ?first_arg_app, ?used_type_app, ?last_angle_app,
    ?existsb_app;
  cbv zeta; cbn [existsb]; unfold drops_alpha at 2 || idtac; unfold is_option;
  rw_tests; cbn [andb orb negb]; rewrite ?orb_false_r, ?orb_true_r;
  try assumption.


Lemma readChannel_none c ch : readChannel c = Some ch ->
  (code c =? 120) || (code c =? 88) = match ch with Ch_None => true | _ => false end.
Proof.
  unfold readChannel. set (n := code c). clearbody n.
  destruct ((n =? 114) || (n =? 82)) eqn:E1; [intros H; inversion H; lia|].
  destruct ((n =? 103) || (n =? 71)) eqn:E2; [intros H; inversion H; lia|].
  destruct ((n =? 98) || (n =? 66)) eqn:E3; [intros H; inversion H; lia|].
  destruct ((n =? 97) || (n =? 65)) eqn:E4; [intros H; inversion H; lia|].
  destruct ((n =? 120) || (n =? 88)) eqn:E5; [intros H; inversion H; lia|]. discriminate.
Qed.

Definition isn (k : channel) : bool := match k with Ch_None => true | _ => false end.

Lemma mask_A k c : match k with Ch_None => set_maskA false c | _ => c end = set_maskA (c_maskA c && negb (isn k)) c.
Proof. destruct k; cbn [isn negb]; rewrite ?andb_true_r, ?andb_false_r; try reflexivity; destruct c; reflexivity. Qed.
Lemma mask_B k c : match k with Ch_None => set_maskB false c | _ => c end = set_maskB (c_maskB c && negb (isn k)) c.
Proof. destruct k; cbn [isn negb]; rewrite ?andb_true_r, ?andb_false_r; try reflexivity; destruct c; reflexivity. Qed.
Lemma mask_G k c : match k with Ch_None => set_maskG false c | _ => c end = set_maskG (c_maskG c && negb (isn k)) c.
Proof. destruct k; cbn [isn negb]; rewrite ?andb_true_r, ?andb_false_r; try reflexivity; destruct c; reflexivity. Qed.
Lemma mask_R k c : match k with Ch_None => set_maskR false c | _ => c end = set_maskR (c_maskR c && negb (isn k)) c.
Proof. destruct k; cbn [isn negb]; rewrite ?andb_true_r, ?andb_false_r; try reflexivity; destruct c; reflexivity. Qed.
Lemma alph_if (b : bool) v c : (if b then set_alph v c else c) = set_alph (if b then v else c_alph c) c.
Proof. destruct b; [reflexivity|destruct c; reflexivity]. Qed.

Lemma do_swizzle_inv c tl c' rest : do_swizzle c tl = Go c' rest ->
  exists x r g b a, tl = x :: rest /\
  (match String.get 3 x with Some k => (code k =? 120) || (code k =? 88) | None => false end) = isn a /\
  let c1 := set_redSwzl r (set_greenSwzl g (set_blueSwzl b (set_alphaSwzl a (set_swizzle true c)))) in
  c' = set_alph (if negb (c_alphaSet c) && negb (c_maskA c && negb (isn a)) then AlphaNone else c_alph c)
         (set_maskA (c_maskA c && negb (isn a)) (set_maskB (c_maskB c && negb (isn b))
            (set_maskG (c_maskG c && negb (isn g)) (set_maskR (c_maskR c && negb (isn r)) c1)))).
Proof.
  unfold do_swizzle. destruct tl as [|x t]; [discriminate|].
  destruct x as [|c0 [|c1 [|c2 [|c3 [|? ?]]]]]; try discriminate.
  destruct (readChannel c0) as [r|]; [|discriminate].
  destruct (readChannel c1) as [g|]; [|discriminate].
  destruct (readChannel c2) as [b|]; [|discriminate].
  destruct (readChannel c3) as [a|] eqn:E3; [|discriminate].
  cbv zeta. rewrite mask_R, mask_G, mask_B, mask_A, alph_if.
  intros H. exists (String c0 (String c1 (String c2 (String c3 EmptyString)))), r, g, b, a.
  injection H as <- <-. split; [reflexivity|].
  split; [apply readChannel_none; exact E3|]. reflexivity.
Qed.

Lemma Inv_step fl file isnum cap segs c h tl c' rest :
  Inv fl segs c -> step fl file isnum cap c h tl = Go c' rest ->
  exists a, tl = a ++ rest /\ Inv fl (segs ++ [h :: a]) c'.
Proof.
  intros I H. unfold step in H. destruct (classify h) as [o|] eqn:Hcl.
  2:{ injection H as <- <-. exists []. split; [reflexivity|]. known_tests h Hcl.
      destruct I; constructor; inv_goal. }
  destruct o.
  - (* jobs *) revert H. unfold do_jobs. destruct tl as [|x t].
    { intros H; injection H as <- <-. exists []. split; [reflexivity|]. known_tests h Hcl.
      destruct I; constructor; inv_goal. }
    destruct (strtol x) as [v e]. destruct e; intros H; injection H as <- <-.
    + exists [x]. split; [reflexivity|]. known_tests h Hcl. destruct I; constructor; inv_goal.
    + exists []. split; [reflexivity|]. known_tests h Hcl. destruct I; constructor; inv_goal.
  - (* quiet *) injection H as <- <-. exists []. split; [reflexivity|]. known_tests h Hcl.
    destruct I; constructor; inv_goal.
  - (* verbose *) injection H as <- <-. exists []. split; [reflexivity|]. known_tests h Hcl.
    destruct I; constructor; inv_goal.
  - (* input *) unfold do_input in H. destruct (c_images c); [|discriminate].
    destruct tl as [|x t]; [discriminate|]. injection H as <- <-.
    exists [x]. split; [reflexivity|]. known_tests h Hcl. destruct I; constructor; inv_goal.
  - (* array *) apply do_array_inv in H. destruct H as (a & x & im & idx & -> & _ & _ & _ & _ & _ & _ & ->).
    exists (a ++ [x]). rewrite <- app_assoc. split; [reflexivity|]. known_tests h Hcl.
    destruct (c_images c); destruct I; constructor; inv_goal.
  - (* cube *) apply do_cube_inv in H. destruct H as (f & x & face & im & -> & _ & _ & _ & ->).
    exists [f; x]. split; [reflexivity|]. known_tests h Hcl.
    destruct (c_images c); destruct I; constructor; inv_goal.
  - (* cube array *) apply do_cubearray_inv in H.
    destruct H as (i & f & x & ci & face & im & -> & _ & _ & _ & _ & _ & ->).
    exists [i; f; x]. split; [reflexivity|]. known_tests h Hcl.
    destruct (c_images c); destruct I; constructor; inv_goal.
  - (* input list *) apply do_inputlist_inv in H. destruct H as (t & f & it & im & -> & _ & ->).
    exists [t; f]. split; [reflexivity|]. known_tests h Hcl. destruct I; constructor; inv_goal.
  - (* resize *) apply do_resize_inv in H. destruct H as (a & w & hh & f & -> & _ & ->).
    exists a. split; [reflexivity|]. known_tests h Hcl. destruct I; constructor; inv_goal.
  - (* mipmap *) apply do_mipmap_inv in H. destruct H as (a & n & f & -> & _ & ->).
    exists a. split; [reflexivity|]. known_tests h Hcl. destruct I; constructor; inv_goal.
  - (* custom mip *) apply do_custommip_inv in H.
    destruct H as (a & m & k & v & -> & _ & _ & _ & _ & _ & ->).
    exists a. split; [reflexivity|]. known_tests h Hcl. destruct I; constructor; inv_goal.
  - (* custom mip list *) apply do_custommiplist_inv in H. destruct H as (f & ct & m & -> & _ & ->).
    exists [f]. split; [reflexivity|]. known_tests h Hcl. destruct I; constructor; inv_goal.
  - (* flipx *) injection H as <- <-. exists []. split; [reflexivity|]. known_tests h Hcl.
    destruct I; constructor; inv_goal. reflexivity.
  - (* flipy *) injection H as <- <-. exists []. split; [reflexivity|]. known_tests h Hcl.
    destruct I; constructor; inv_goal. reflexivity.
  - (* rotate *) apply do_rotate_inv in H. destruct H as (x & v & -> & E & _ & (b & an & ->) & T).
    exists [x]. split; [reflexivity|]. known_tests h Hcl. destruct I; constructor; inv_goal.
    rewrite E. exact T.
  - (* normal map *) apply do_normalmap_inv in H. destruct H as (a & o & hh & -> & ->).
    exists a. split; [reflexivity|]. known_tests h Hcl. destruct I; constructor; inv_goal. reflexivity.
  - (* grayscale *) injection H as <- <-. exists []. split; [reflexivity|]. known_tests h Hcl.
    destruct I; constructor; inv_goal. reflexivity.
  - (* swizzle *) apply do_swizzle_inv in H. destruct H as (x & r & g & b & a & -> & D & ->).
    exists [x]. split; [reflexivity|]. known_tests h Hcl. destruct I; constructor; inv_goal.
    + change (c_maskA c && negb (isn a) = negb (existsb drops_alpha segs ||
        match String.get 3 x with Some c => (code c =? 120) || (code c =? 88) | None => false end)).
      rewrite D, i_maskA0. destruct (existsb drops_alpha segs), (isn a); reflexivity.
    + change ((if negb (c_alphaSet c) && negb (c_maskA c && negb (isn a)) then AlphaNone else c_alph c) =
        (if has_option "--alpha" "--alpha" segs then last_value "--alpha" "--alpha" alpha_names AlphaStandard segs
         else if existsb drops_alpha segs ||
           match String.get 3 x with Some c => (code c =? 120) || (code c =? 88) | None => false end then AlphaNone
         else if has_option "--pre-multiply" "--pre-multiply" segs then AlphaPreMultiplied else AlphaStandard)).
      rewrite D, i_alpha0, i_alphaSet0, i_maskA0.
      destruct (has_option "--alpha" "--alpha" segs), (existsb drops_alpha segs), (isn a); reflexivity.
    + reflexivity.
  - (* srgb *) injection H as <- <-. exists []. split; [reflexivity|]. known_tests h Hcl.
    destruct I; constructor; inv_goal; reflexivity.
  - (* pre-multiply *) unfold do_premultiply in H. rewrite alph_if in H. injection H as <- <-.
    exists []. split; [reflexivity|]. known_tests h Hcl.
    destruct I; constructor; inv_goal; [|reflexivity].
    change ((if negb (c_alphaSet c) && c_maskA c then AlphaPreMultiplied else c_alph c) =
        (if has_option "--alpha" "--alpha" segs then last_value "--alpha" "--alpha" alpha_names AlphaStandard segs
         else if existsb drops_alpha segs then AlphaNone else AlphaPreMultiplied)).
    rewrite i_alpha0, i_alphaSet0, i_maskA0.
    destruct (has_option "--alpha" "--alpha" segs), (existsb drops_alpha segs); reflexivity.
  - (* dimension *) unfold do_dimension in H. destruct tl as [|x t]; [discriminate|].
    destruct (String.eqb_spec x "1") as [->|_];
      [|destruct (String.eqb_spec x "2") as [->|_]; [|destruct (String.eqb_spec x "3") as [->|_]; [|discriminate]]];
    injection H as <- <-; (eexists [_]; split; [reflexivity|]); known_tests h Hcl;
    destruct I; constructor; inv_goal; reflexivity.
  - (* format *) unfold do_format in H. destruct tl as [|x t]; [discriminate|].
    rewrite find_format_named in H. fold (format_names fl) in H.
    set (c1 := match named (format_names fl) x with Some f => set_fmt f c | None => c end) in H.
    assert (C1 : exists f, c1 = set_fmt f c /\ f = match named (format_names fl) x with Some f => f | None => c_fmt c end).
    { subst c1. destruct (named _ x); eexists; split; try reflexivity. destruct c; reflexivity. }
    destruct C1 as (f & C1 & Ef). rewrite C1 in H. clear c1 C1.
    assert (G : rest = t /\ c' = set_ttyp (if special_format f then T_UFloat else c_ttyp c) (set_fmt f c)).
    { revert H. change (c_fmt (set_fmt f c)) with f. cbn [negb typeSet].
      destruct f; try discriminate; intros H; injection H as <- <-; split; try reflexivity; destruct c; reflexivity. }
    destruct G as [-> ->].
    exists [x]. split; [reflexivity|]. known_tests h Hcl. destruct I; constructor; inv_goal.
    + change (f = match named (format_names fl) x with Some v' => v' | None => last_value "-f" "--format" (format_names fl) F_Unknown segs end).
      rewrite <- i_fmt0. exact Ef.
    + rewrite last_value_app, upd1_cons. rw_tests. cbv iota.
      change ((if special_format f then T_UFloat else c_ttyp c) =
        if special_format (match named (format_names fl) x with Some v' => v' | None => last_value "-f" "--format" (format_names fl) F_Unknown segs end)
        then T_UFloat else used_type fl (rev segs)).
      rewrite <- i_fmt0, <- Ef, i_type0. reflexivity.
  - (* type *) unfold do_type in H. destruct tl as [|x t]; [discriminate|].
    assert (G : rest = t /\ exists v, named type_names x = Some v /\ c' = set_ttyp v c).
    { revert H. unfold type_names. rewrite !named_cons.
      repeat match goal with |- (if ?b then _ else _) = _ -> _ => destruct b; [intros H; injection H as <- <-; eauto|] end.
      discriminate. }
    destruct G as (-> & v & E & ->).
    exists [x]. split; [reflexivity|]. known_tests h Hcl. destruct I; constructor; inv_goal.
    rewrite E. reflexivity.
  - (* alpha *) unfold do_alpha in H. destruct tl as [|x t]; [discriminate|].
    assert (G : rest = t /\ exists v, named alpha_names x = Some v /\ c' = set_alph v (set_alphaSet true c)).
    { revert H. unfold alpha_names. rewrite !named_cons. cbv zeta.
      repeat match goal with |- (if ?b then _ else _) = _ -> _ => destruct b; [intros H; injection H as <- <-; eauto|] end.
      discriminate. }
    destruct G as (-> & v & E & ->).
    exists [x]. split; [reflexivity|]. known_tests h Hcl. destruct I; constructor; inv_goal; try reflexivity.
    rewrite E. reflexivity.
  - (* quality *) unfold do_quality in H. destruct tl as [|x t]; [discriminate|].
    assert (G : rest = t /\ exists v, named quality_names x = Some v /\ c' = set_quality v c).
    { revert H. unfold quality_names. rewrite !named_cons.
      repeat match goal with |- (if ?b then _ else _) = _ -> _ => destruct b; [intros H; injection H as <- <-; eauto|] end.
      discriminate. }
    destruct G as (-> & v & E & ->).
    exists [x]. split; [reflexivity|]. known_tests h Hcl. destruct I; constructor; inv_goal.
    rewrite E. reflexivity.
  - (* output *) unfold do_output in H. destruct tl as [|x t]; [discriminate|].
    destruct (c_output c) eqn:EO; [discriminate|]. injection H as <- <-.
    exists [x]. split; [reflexivity|]. known_tests h Hcl. destruct I; constructor; inv_goal; try reflexivity.
    rewrite EO in i_output'0. rewrite i_output'0. reflexivity.
  - (* file format *) unfold do_fileformat in H. destruct tl as [|x t]; [discriminate|].
    assert (G : rest = t /\ exists v, named filetype_names x = Some v /\ c' = set_ftype v c).
    { revert H. unfold filetype_names. rewrite !named_cons.
      repeat match goal with |- (if ?b then _ else _) = _ -> _ => destruct b; [intros H; injection H as <- <-; eauto|] end.
      discriminate. }
    destruct G as (-> & v & E & ->).
    exists [x]. split; [reflexivity|]. known_tests h Hcl. destruct I; constructor; inv_goal.
    rewrite E. reflexivity.
  - (* create dir *) injection H as <- <-. exists []. split; [reflexivity|]. known_tests h Hcl.
    destruct I; constructor; inv_goal; reflexivity.
Qed.

(** The loop cuts the arguments into segments. *)
Lemma loop_segments fl file isnum cap fuel : forall segs c args c',
  Inv fl segs c -> Forall (fun s => s <> []) segs -> loop fl file isnum cap fuel c args = inl c' ->
  exists segs', args = List.concat segs' /\ Forall (fun s => s <> []) segs' /\ Inv fl (segs ++ segs') c'.
Proof.
  induction fuel as [|fuel IH]; intros segs c args c' I F H; [discriminate|].
  cbn [loop] in H. destruct args as [|h tl].
  - injection H as <-. exists []. rewrite app_nil_r. auto.
  - destruct (step fl file isnum cap c h tl) as [c1 rest| | |] eqn:E; try discriminate.
    destruct (Inv_step _ _ _ _ _ _ _ _ _ _ I E) as (a & -> & I1).
    destruct (fun F1 => IH _ _ rest c' I1 F1 H) as (segs' & -> & F' & I').
    + apply Forall_app; split; auto. constructor; auto. discriminate.
    + exists ((h :: a) :: segs'). split; [reflexivity|]. split; [constructor; auto; discriminate|].
      rewrite <- app_assoc in I'. exact I'.
Qed.

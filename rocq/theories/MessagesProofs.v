(** Proofs about what the tool prints. *)
From Coq Require Import NArith ZArith List Bool String Ascii Lia.
From Coq Require Import ZifyBool ZifyNat ZifyN.
From Verif Require Import Base FormatModel SaveFormats TextureModel SaveModel CommandLineModel CommandLineSpec
  CommandGrammar CommandGrammarCut CommandGrammarProofs PropsCommandFiles ToolModel ToolSpec PropsTool TextureSpec TextureProofs PropsTexture SaveSpec
  PropsSave PropsCommandLine PropsCommandGrammar PipelineModel PipelineSpec PipelineProofs PipelineBuild PipelineRun MessagesModel MessagesSpec.
Import ListNotations.
Local Open Scope string_scope.
Local Open Scope list_scope.
Local Open Scope N_scope.
Local Notation length := List.length.
Local Infix "+++" := String.append (right associativity, at level 60).

Lemma outs_app l l' : outs (l ++ l') = outs l ++ outs l'.
Proof. apply flat_map_app. Qed.
Lemma errs_app l l' : errs (l ++ l') = errs l ++ errs l'.
Proof. apply flat_map_app. Qed.
Lemma errors_app l l' : errors (l ++ l') = errors l ++ errors l'.
Proof. unfold errors. rewrite errs_app, filter_app. reflexivity. Qed.

(** * The command line *)

(** One report of an error. *)
Definition complaint (l : list write) : Prop := exists s, l = [Err ("error: " +++ s)].
Ltac complains := eexists; reflexivity.

Lemma requires_complains h s : complaint (requires h s).
Proof. complains. Qed.
Lemma mixed_complains : complaint mixed.
Proof. complains. Qed.
Lemma unknown_complains s a : complaint (unknown s a).
Proof. complains. Qed.
Lemma face_complains a : complaint (unknownFace a).
Proof. complains. Qed.

(** What is said goes with what is done: nothing when the loop goes on, one report when it stops. *)
Definition agrees (o : outcome) (l : list write) : Prop :=
  match o with Go _ _ => l = [] | Stop => complaint l | Undefined _ | Throw => l = [] end.

Lemma taken_agrees c idx what v rest : agrees (put_image c idx v rest) (taken c idx what).
Proof.
  unfold put_image, taken. destruct (idx <? _); [|reflexivity]. destruct (negb _); [|reflexivity]. complains.
Qed.

Section Steps.
Variable fl : flags.
Variable file : string -> option string.
Variable isnum : string -> bool.
Variable cap : N.

Lemma input_agrees c h tl : agrees (do_input c tl) (say_input c h tl).
Proof. unfold do_input, say_input. destruct (c_images c), tl; try complains; reflexivity. Qed.

Lemma array_agrees c h tl : agrees (do_array cap c tl) (say_array cap c h tl).
Proof.
  unfold do_array, say_array.
  set (c' := match c_images c with [] => Some (set_imageType IT_Array c)
    | _ :: _ => if negb (imagetype_eqb (c_imageType c) IT_Array) || imageFile then None else Some c end).
  assert (A : (c' = None /\ match c_images c with [] => false
      | _ => negb (imagetype_eqb (c_imageType c) IT_Array) || imageFile end = true) \/
      exists c1, c' = Some c1 /\ c_images c1 = c_images c /\ match c_images c with [] => false
      | _ => negb (imagetype_eqb (c_imageType c) IT_Array) || imageFile end = false).
  { unfold c'. destruct (c_images c) eqn:E.
    - right. eexists. split; [reflexivity|]. split; [destruct c; exact E|reflexivity].
    - destruct (negb _ || _); [left; auto|right; exists c; auto]. }
  destruct A as [[-> ->]|(c1 & -> & EI & ->)]; [complains|].
  destruct tl as [|x tl]; [complains|]. rewrite EI.
  destruct tl as [|y tl].
  - destruct (if _ <=? _ then _ else _); [|reflexivity].
    replace (taken (set_images l c)) with (taken (set_images l c1)) by (destruct c, c1; reflexivity).
    apply taken_agrees.
  - destruct (readIndex (x :: y :: tl)) as [[v r]|] eqn:RI.
    + cbn [readIndex] in RI. destruct (strtoul x) as [v' e]. destruct e; [|discriminate]. injection RI as <- <-.
      destruct (if _ <=? _ then _ else _); [|reflexivity].
      replace (taken (set_images l c)) with (taken (set_images l c1)) by (destruct c, c1; reflexivity).
      apply taken_agrees.
    + destruct (if _ <=? _ then _ else _); [|reflexivity].
      replace (taken (set_images l c)) with (taken (set_images l c1)) by (destruct c, c1; reflexivity).
      apply taken_agrees.
Qed.

Lemma cube_agrees c h tl : agrees (do_cube cap c tl) (say_cube cap c h tl).
Proof.
  unfold do_cube, say_cube. destruct (c_images c) as [|i im] eqn:EI.
  - destruct (resize cap [] 6) as [im|]; cbn [obind]; [|reflexivity].
    destruct tl as [|x [|y tl]]; try complains. cbn [readCubeFace].
    destruct (strToCubeFace x); [|complains].
    replace (taken (set_images im c)) with (taken (set_images im (set_imageType IT_Cube c))) by (destruct c; reflexivity).
    apply taken_agrees.
  - destruct (negb _ || _); [complains|].
    destruct tl as [|x [|y tl]]; try complains. cbn [readCubeFace].
    destruct (strToCubeFace x); [|complains]. apply taken_agrees.
Qed.

Lemma cubearray_agrees c h tl : agrees (do_cubearray cap c tl) (say_cubearray cap c h tl).
Proof.
  unfold do_cubearray, say_cubearray.
  set (c' := match c_images c with [] => Some (set_imageType IT_CubeArray c)
    | _ :: _ => if negb (imagetype_eqb (c_imageType c) IT_CubeArray) || imageFile then None else Some c end).
  assert (A : (c' = None /\ match c_images c with [] => false
      | _ => negb (imagetype_eqb (c_imageType c) IT_CubeArray) || imageFile end = true) \/
      exists c1, c' = Some c1 /\ c_images c1 = c_images c /\ match c_images c with [] => false
      | _ => negb (imagetype_eqb (c_imageType c) IT_CubeArray) || imageFile end = false).
  { unfold c'. destruct (c_images c) eqn:E.
    - right. eexists. split; [reflexivity|]. split; [destruct c; exact E|reflexivity].
    - destruct (negb _ || _); [left; auto|right; exists c; auto]. }
  destruct A as [[-> ->]|(c1 & -> & EI & ->)]; [complains|].
  destruct tl as [|x [|y [|z tl]]]; try complains. cbn [readIndex].
  destruct (strtoul x) as [ci e]. destruct e; [|complains]. cbn [readCubeFace].
  destruct (strToCubeFace y) as [f|]; [|complains]. rewrite EI.
  destruct (if _ <=? _ then _ else _); [|reflexivity].
  replace (taken (set_images l c)) with (taken (set_images l c1)) by (destruct c, c1; reflexivity).
  apply taken_agrees.
Qed.

Lemma inputlist_agrees c h tl : agrees (do_inputlist file c tl) (say_inputlist file c h tl).
Proof.
  unfold do_inputlist, say_inputlist. destruct (c_images c); [|complains].
  destruct tl as [|t [|f r]]; try complains.
  assert (K : forall it, agrees
    (match file f with
     | None => Stop
     | Some content =>
         match imageList_loop (S (S (String.length content))) (Stream content true) [] with
         | None => Stop
         | Some im => Go (set_images im (set_imageType it c)) r
         end
     end)
    (match file f with
     | None => [Err ("error: couldn't open image list file '" +++ f +++ "'" +++ endl)]
     | Some _ => []
     end)).
  { intros it. destruct (file f) as [content|]; [|complains].
    destruct (imageList_loop _ _ _) eqn:E; [reflexivity|]. exfalso. exact (proj1 (C50_lists_end content []) E). }
  destruct (caseeq t "image"); [apply K|]. destruct (caseeq t "array"); [apply K|].
  destruct (caseeq t "cube"); [apply K|]. destruct (caseeq t "cube-array"); [apply K|]. complains.
Qed.

Lemma readSize_tail a r : readSize (a :: r) = match readSize [a] with Some (z, _) => Some (z, r) | None => None end.
Proof.
  unfold readSize. repeat (match goal with |- context [caseeq a ?s] => destruct (caseeq a s); [reflexivity|] end).
  destruct (strtol a) as [v e]. destruct e; reflexivity.
Qed.

Lemma resize_agrees c h tl : agrees (do_resize c tl) (say_resize h tl).
Proof.
  unfold do_resize, say_resize. destruct tl as [|w [|k r]]; try complains.
  rewrite (readSize_tail w (k :: r)). destruct (readSize [w]) as [[z r1]|]; [|complains].
  rewrite (readSize_tail k r). destruct (readSize [k]) as [[z2 r2]|]; [|complains].
  destruct (readFilter _ _). reflexivity.
Qed.

Lemma custommip_agrees c h tl : agrees (do_custommip c tl) (say_custommip c h tl).
Proof.
  unfold do_custommip, say_custommip. destruct tl as [|x [|y r]]; try complains.
  destruct (readIndex (x :: y :: r)) as [[level t1]|]; [|complains].
  destruct (match readIndex t1 with Some p => p | None => (0, t1) end) as [depth t2].
  destruct (match readCubeFace t2 with Some p => p | None => (0, t2) end) as [face t3].
  destruct (match readMipReplace t3 with Some p => p | None => (Continue, t3) end) as [repl t4].
  destruct t4 as [|a t5]; [complains|]. unfold emplace. destruct (existsb _ _); [complains|reflexivity].
Qed.

Lemma line_agrees fuel cur delim st m :
  match customMip_line fuel cur delim st m with
  | None => True
  | Some None => complaint (say_line fuel cur delim st m)
  | Some (Some _) => say_line fuel cur delim st m = []
  end.
Proof.
  unfold customMip_line, say_line. destruct (strtoul cur) as [level e]. destruct e; [|complains]. cbn [negb].
  destruct (readNextToken fuel cur st whitespace newline delim false) as [[[cur1 delim1] st1]|]; cbn [obind]; [|exact I].
  destruct (strtoul cur1) as [value e1].
  destruct (if e1 then _ else _) as [[[[depth cur2] delim2] st2]|]; cbn [obind]; [|exact I].
  destruct (match strToCubeFace cur2 with Some _ => _ | None => _ end) as [[[[face cur3] delim3] st3]|]; cbn [obind]; [|exact I].
  assert (K : forall repl cur4 delim4 st4,
    match obind (readNextToken fuel cur4 st4 newline newline delim4 true) (fun '(cur, _, st) =>
    if is_empty cur then Some None
    else match emplace (Index face (to_uint level) (to_uint depth)) (cur, repl) m with
         | None => Some None
         | Some m => Some (Some (st, m))
         end) with
    | None => True
    | Some None => complaint (match readNextToken fuel cur4 st4 newline newline delim4 true with
        | None => []
        | Some (cur, _, st) =>
          if is_empty cur then no_file level depth face
          else if existsb (fun e => index_eqb (fst e) (Index face (to_uint level) (to_uint depth))) m
          then mip_taken level depth face else []
        end)
    | Some (Some _) => match readNextToken fuel cur4 st4 newline newline delim4 true with
        | None => []
        | Some (cur, _, st) =>
          if is_empty cur then no_file level depth face
          else if existsb (fun e => index_eqb (fst e) (Index face (to_uint level) (to_uint depth))) m
          then mip_taken level depth face else []
        end = []
    end).
  { intros repl cur4 delim4 st4. destruct (readNextToken fuel cur4 st4 newline newline delim4 true) as [[[cur5 d5] st5]|]; cbn [obind]; [|exact I].
    destruct (is_empty cur5); [complains|]. unfold emplace. destruct (existsb _ m); [complains|reflexivity]. }
  destruct (strToMipReplace cur3) as [rp|].
  - destruct (readNextToken fuel cur3 st3 whitespace newline delim3 false) as [[[cur4 delim4] st4]|]; cbn [obind]; [|exact I].
    apply K.
  - cbn [obind]. apply K.
Qed.

Lemma lines_agree fuel : forall st m,
  match customMipList_loop fuel st m with
  | None => True
  | Some None => complaint (say_lines fuel st m)
  | Some (Some _) => say_lines fuel st m = []
  end.
Proof.
  induction fuel as [|fuel IH]; intros st m; [exact I|]. cbn [customMipList_loop say_lines].
  destruct (s_good st); [|reflexivity].
  destruct (readNextToken (S fuel) "" st whitespace newline (Some zero) false) as [[[cur delim] st1]|]; cbn [obind]; [|exact I].
  destruct (is_empty cur); [apply IH|].
  pose proof (line_agrees (S fuel) cur delim st1 m) as A.
  destruct (customMip_line (S fuel) cur delim st1 m) as [[[st2 m2]|]|]; cbn [obind]; [|rewrite app_nil_r; exact A|exact I].
  rewrite A. apply IH.
Qed.

Lemma custommiplist_agrees c h tl : agrees (do_custommiplist file c tl) (say_custommiplist file c h tl).
Proof.
  unfold do_custommiplist, say_custommiplist. destruct tl as [|f r]; [complains|].
  destruct (file f) as [content|]; [|complains].
  pose proof (lines_agree (S (S (String.length content))) (Stream content true) (c_customMips c)) as A.
  destruct (customMipList_loop _ _ _) as [[m|]|] eqn:E; try exact A.
  exfalso. exact (proj2 (C50_lists_end content (c_customMips c)) E).
Qed.

Lemma rotate_agrees c h tl : agrees (do_rotate c tl) (say_rotate h tl).
Proof.
  unfold do_rotate, say_rotate. destruct tl as [|a r]; [complains|]. destruct (strtol a) as [v e].
  destruct (negb e || negb (Z.rem v 90 =? 0)%Z); [complains|].
  destruct (Z.rem (Z.quot v 90) 4) as [|[[?|?|]|[?|?|]|]|[[?|?|]|[?|?|]|]]; reflexivity.
Qed.

Lemma swizzle_agrees c h tl : agrees (do_swizzle c tl) (say_swizzle h tl).
Proof.
  unfold do_swizzle, say_swizzle. destruct tl as [|s r]; [complains|].
  destruct s as [|c0 [|c1 [|c2 [|c3 [|c4 s]]]]]; try complains. cbn [forallb].
  destruct (readChannel c0), (readChannel c1), (readChannel c2), (readChannel c3); try complains.
Qed.

Ltac choice := unfold say_choice; cbn [existsb]; rewrite ?orb_false_r;
  repeat (match goal with
  | |- context [String.eqb ?a ?s] => destruct (String.eqb a s); [reflexivity|]
  | |- context [caseeq ?a ?s] => destruct (caseeq a s); [reflexivity|]
  end); complains.

(** One option. *)
Lemma step_agrees c h tl : classify h <> None -> agrees (step fl file isnum cap c h tl) (say_step fl file cap c h tl).
Proof.
  intros NN. unfold step, say_step. destruct (classify h) as [o|]; [clear NN|contradiction].
  destruct o; try reflexivity.
  - unfold do_jobs. destruct tl; [reflexivity|]. destruct (strtol s) as [v e]. destruct e; reflexivity.
  - apply input_agrees.
  - apply array_agrees.
  - apply cube_agrees.
  - apply cubearray_agrees.
  - apply inputlist_agrees.
  - apply resize_agrees.
  - unfold do_mipmap. destruct (match readIndex tl with Some _ => _ | None => _ end). destruct (readFilter _ _). reflexivity.
  - apply custommip_agrees.
  - apply custommiplist_agrees.
  - apply rotate_agrees.
  - unfold do_normalmap. destruct (match tl with [] => _ | _ :: _ => _ end) as [c1 tl1]. destruct tl1 as [|s1 tl1]; [reflexivity|]. destruct (isnum s1); reflexivity.
  - apply swizzle_agrees.
  - unfold do_dimension. destruct tl as [|a r]; [complains|]. choice.
  - unfold do_format, say_format. destruct tl as [|a r]; [complains|].
    destruct (find_format (formatMap fl) a) as [f|] eqn:E.
    + assert (NU : f <> F_Unknown).
      { clear -E. intros ->. revert E.
        assert (A : forall m, Forall (fun p => fst p <> F_Unknown) m -> find_format m a <> Some F_Unknown).
        { induction 1 as [|[f n] m H1 _ IH]; [discriminate|]. cbn [find_format fst] in *. destruct (caseeq n a); [congruence|exact IH]. }
        apply A. destruct fl as [[] [] [] []]; repeat (constructor; [discriminate|]); constructor. }
      replace (c_fmt (set_fmt f c)) with f by (destruct c; reflexivity). destruct f; try contradiction; reflexivity.
    + destruct (c_fmt c) eqn:EF; try reflexivity. complains.
  - unfold do_type. destruct tl as [|a r]; [complains|]. choice.
  - unfold do_alpha. destruct tl as [|a r]; [complains|]. choice.
  - unfold do_quality. destruct tl as [|a r]; [complains|]. choice.
  - unfold do_output, say_output. destruct tl as [|a r]; [complains|]. destruct (c_output c); [complains|reflexivity].
  - unfold do_fileformat. destruct tl as [|a r]; [complains|]. choice.
Qed.

(** Every part of the command line's output is an error report. *)
Definition reports (l : list write) : Prop := Forall (fun w => exists s, w = Err ("error: " +++ s)) l.

Lemma complaint_reports l : complaint l -> reports l.
Proof. intros [s ->]. constructor; [eauto|constructor]. Qed.

Lemma step_success c h tl c' r : classify h <> None -> step fl file isnum cap c h tl = Go c' r -> c_success c' = c_success c.
Proof.
  intros NN E. destruct (classify h) as [o|] eqn:K; [clear NN|contradiction].
  pose proof (step_went fl isnum file cap c h tl o K) as W. rewrite E in W. cbn [went] in W.
  destruct (cut fl isnum o tl) as [[d r1]|]; [|discriminate]. cbn [obind fst snd] in W.
  destruct (effect file cap d c) as [c2|] eqn:X; [|discriminate]. injection W as <- <-.
  exact (effect_success _ _ _ _ _ X).
Qed.

(** The whole loop. *)
Lemma loop_says fuel : forall c args, let l := say_loop fl file isnum cap fuel c args in
  reports l /\
  match loop fl file isnum cap fuel c args with
  | inl c' => (l = [] /\ c_success c' = c_success c) \/ (l <> [] /\ c_success c' = false)
  | inr PFalse => l <> []
  | inr (POk _) => False
  | inr _ => True
  end.
Proof.
  induction fuel as [|fuel IH]; intros c args; cbn zeta; [split; [constructor|exact I]|].
  cbn [say_loop loop]. destruct args as [|h tl]; [split; [constructor|auto]|].
  destruct (classify h) as [o|] eqn:K.
  - pose proof (step_agrees c h tl ltac:(congruence)) as A.
    destruct (step fl file isnum cap c h tl) as [c1 rest| | |] eqn:E; cbn [agrees] in A.
    + rewrite A. cbn [app]. specialize (IH c1 rest). cbn zeta in IH. destruct IH as [R D]. split; [exact R|].
      rewrite <- (step_success c h tl c1 rest ltac:(congruence) E). exact D.
    + rewrite app_nil_r. split; [apply complaint_reports; exact A|]. destruct A as [s ->]. discriminate.
    + rewrite A. split; [constructor|exact I].
    + rewrite A. split; [constructor|exact I].
  - unfold step, say_step. rewrite K. specialize (IH (set_success false c) tl). cbn zeta in IH.
    destruct IH as [R D]. split; [constructor; [eexists; reflexivity|exact R]|].
    destruct (loop fl file isnum cap fuel (set_success false c) tl) as [c'|[]] eqn:L; try exact D; try discriminate.
    right. split; [discriminate|]. destruct D as [[_ D]|[_ D]]; rewrite D; [destruct c|]; reflexivity.
Qed.

Variable visit : list (index * (string * replacement)) -> list (index * (string * replacement)).

Lemma mips_say dim3 depth l : forall counts,
  match check_mips dim3 depth l counts with
  | inl _ => say_mips dim3 depth l = []
  | inr PFalse => complaint (say_mips dim3 depth l)
  | inr (POk _) => False
  | inr _ => say_mips dim3 depth l = []
  end.
Proof.
  induction l as [|[k v] l IH]; intros counts; [reflexivity|]. cbn [check_mips say_mips].
  destruct (x_level k =? 0); [complains|]. destruct dim3; cbn [andb].
  - destruct (32 <=? x_level k); [reflexivity|]. cbv zeta. destruct (_ <=? x_depth k); [complains|]. apply IH.
  - destruct (depth <=? x_depth k); [complains|]. apply IH.
Qed.

Lemma counts_say depth counts : forall i,
  if check_counts depth i counts then say_counts depth i counts = [] else complaint (say_counts depth i counts).
Proof.
  induction counts as [|n t IH]; intros i; [reflexivity|]. cbn [check_counts say_counts]. cbv zeta.
  destruct ((0 <? n) && _); [complains|]. apply IH.
Qed.

Lemma kind_says c : match check_kind c with
  | Some c' => say_kind c = [] /\ c' = set_dim (c_dim c') c /\
      is_dim3d (c_dim c') = match c_imageType c with IT_Cube | IT_CubeArray => false | _ => is_dim3d (c_dim c) end
  | None => complaint (say_kind c)
  end.
Proof.
  unfold check_kind, say_kind. cbv zeta. destruct (c_imageType c).
  - destruct (negb _); [complains|]. split; [reflexivity|]. split; [destruct c; reflexivity|reflexivity].
  - split; [reflexivity|]. split; [destruct c; reflexivity|reflexivity].
  - destruct (negb (_ =? 6)); [complains|]. destruct (c_dim c); try complains.
    split; [reflexivity|]. split; destruct c; reflexivity.
  - destruct (negb (_ =? 0)); [complains|]. destruct (c_dim c); try complains.
    split; [reflexivity|]. split; destruct c; reflexivity.
Qed.

Lemma warning_cases c : warning c = [] \/ warning c = [Err the_warning].
Proof. unfold warning. destruct (c_imageCS c), (c_log c); auto; destruct (low_precision _); auto. Qed.

(** Validation says what is wrong, and warns about accepted command lines. *)
Lemma validate_says c : match validate fl visit c with
  | POk c' => say_validate fl visit c = warning c'
  | PFalse => exists l s, say_validate fl visit c = l ++ [Err ("error: " +++ s)] /\ (l = [] \/ l = [Err the_warning])
  | _ => True
  end.
Proof.
  assert (C0 : forall l, complaint l -> exists l' s, l = l' ++ [Err ("error: " +++ s)] /\ (l' = [] \/ l' = [Err the_warning])).
  { intros l [s ->]. exists [], s. auto. }
  assert (C1 : forall c l, complaint l -> exists l' s, warning c ++ l = l' ++ [Err ("error: " +++ s)] /\ (l' = [] \/ l' = [Err the_warning])).
  { intros c0 l [s ->]. exists (warning c0), s. split; [reflexivity|apply warning_cases]. }
  unfold validate, say_validate. destruct (c_images c) as [|i0 im] eqn:EI; [apply C0; complains|]. cbv beta iota. rewrite <- EI.
  pose proof (kind_says c) as K. destruct (check_kind c) as [c1|].
  2:{ destruct K as [s K]. rewrite K. apply C0. complains. }
  destruct K as (-> & E1 & D3). rewrite <- D3. set (d := c_dim c1) in *. clearbody d. subst c1.
  replace (c_images (set_dim d c)) with (c_images c) by (destruct c; reflexivity).
  destruct (existsb is_empty (c_images c)); [apply C0; complains|].
  replace (c_fmt (set_dim d c)) with (c_fmt c) by (destruct c; reflexivity).
  replace (c_output (set_dim d c)) with (c_output c) by (destruct c; reflexivity).
  replace (c_ftype (set_dim d c)) with (c_ftype c) by (destruct c; reflexivity).
  assert (FD : c_fmt c = F_Unknown \/ forall A (x y : A), match c_fmt c with F_Unknown => x | _ => y end = y).
  { destruct (c_fmt c); auto. }
  destruct FD as [EF|FD]; [rewrite EF; apply C0; complains|]. rewrite !FD.
  destruct (c_output c) as [out|]; [|apply C0; complains]. cbv zeta.
  assert (T : exists ty, match c_ftype c with FT_Auto => fileType (codes out) | t => t end = ty /\
    match c_ftype c with FT_Auto => set_ftype (fileType (codes out)) (set_dim d c) | _ => set_dim d c end = set_ftype ty (set_dim d c)).
  { eexists. split; [reflexivity|]. destruct (c_ftype c) eqn:ET; try reflexivity; rewrite <- ET; destruct c; reflexivity. }
  destruct T as (ty & -> & ->).
  replace (c_ftype (set_ftype ty (set_dim d c))) with ty by (destruct c; reflexivity).
  replace (c_fmt (set_ftype ty (set_dim d c))) with (c_fmt c) by (destruct c; reflexivity).
  replace (c_ttyp (set_ftype ty (set_dim d c))) with (c_ttyp c) by (destruct c; reflexivity).
  assert (TD : ty = FT_Auto \/ forall A (x y : A), match ty with FT_Auto => x | _ => y end = y) by (destruct ty; auto).
  destruct TD as [->|TD]; [apply C0; complains|]. rewrite !TD.
  destruct (negb (isFormatValidFile fl (c_fmt c) (c_ttyp c) ty)); [apply C0; complains|].
  set (c2 := match c_textureCS (set_ftype ty (set_dim d c)) with CS_sRGB => _ | CS_Linear => _ end).
  assert (F : warning c2 = warning c /\ c_mipLevels c2 = c_mipLevels c /\ c_customMips c2 = c_customMips c /\
    c_images c2 = c_images c /\ c_dim c2 = d).
  { unfold c2. destruct (c_textureCS _); [|destruct (negb _)]; destruct c; repeat split. }
  clearbody c2. destruct F as (F1 & F2 & F3 & F4 & F5). rewrite F2, F3, F4, F5.
  destruct ((c_mipLevels c <=? 1) && _); [apply C1; complains|].
  pose proof (mips_say (is_dim3d d) (to_uint (N.of_nat (length (c_images c)))) (visit (c_customMips c)) []) as M.
  destruct (check_mips _ _ _ _) as [counts|[]]; try exact I; try contradiction.
  - rewrite M. cbn [app]. pose proof (counts_say (to_uint (N.of_nat (length (c_images c)))) counts 0) as Q.
    destruct (check_counts _ _ _); [rewrite Q, app_nil_r; auto|]. apply C1. exact Q.
  - rewrite app_nil_r. apply C1. exact M.
Qed.
End Steps.

(** * The run *)
Section Run.
Context {C : Type}.
Variable O : ops C.
Notation L := (o_lib O).

(** Only verbose runs print about the pictures. *)
Definition hushed (a : cl) (l : list write) : Prop := c_log a <> Log_Verbose -> outs l = [].

Lemma verbose_errs a s : errs (verbose a s) = [].
Proof. unfold verbose. destruct (c_log a); reflexivity. Qed.
Lemma verbose_hushed a s : hushed a (verbose a s).
Proof. unfold hushed, verbose. destruct (c_log a); try reflexivity. contradiction. Qed.
Lemma hushed_app a l l' : hushed a l -> hushed a l' -> hushed a (l ++ l').
Proof. intros H1 H2 N. rewrite outs_app, H1, H2 by exact N. reflexivity. Qed.
Lemma hushed_nil a : hushed a [].
Proof. intros _. reflexivity. Qed.
Lemma hushed_err a s : hushed a [Err s].
Proof. intros _. reflexivity. Qed.
Lemma hushed_if a (b : bool) l l' : hushed a l -> hushed a l' -> hushed a (if b then l else l').
Proof. destruct b; auto. Qed.
Lemma if_errs (b : bool) l l' : errs l = [] -> errs l' = [] -> errs (if b then l else l') = [].
Proof. destruct b; auto. Qed.

Ltac hush := repeat first [apply hushed_app | apply hushed_if | apply verbose_hushed | apply hushed_nil | apply hushed_err].
Ltac no_errs := repeat first [rewrite errs_app | rewrite verbose_errs | rewrite if_errs by (rewrite ?verbose_errs; reflexivity)]; reflexivity.

Definition load_failure (path : string) : string := "error: couldn't load image '" +++ path +++ "'" +++ endl.

Lemma load_hushed a path wh m : hushed a (say_load O a path wh m).
Proof.
  unfold say_load. apply hushed_app; [apply verbose_hushed|].
  destruct (o_load O path) as [[[[f w] h] c]|]; [|apply hushed_err]. cbv zeta.
  destruct (if (fst wh =? unset) && (snd wh =? unset) then _ else _) as [W H]. hush.
Qed.

Lemma sapp_assoc s1 s2 s3 : (s1 +++ s2) +++ s3 = s1 +++ s2 +++ s3.
Proof. induction s1 as [|c s1 IH]; [reflexivity|]. cbn [String.append]. rewrite IH. reflexivity. Qed.

Lemma load_errs a path wh m : errs (say_load O a path wh m) =
  match o_load O path with None => [load_failure path] | Some _ => [] end.
Proof.
  unfold say_load, load_failure. rewrite errs_app, verbose_errs.
  destruct (o_load O path) as [[[[f w] h] c]|]; cbn [app].
  2:{ cbn [errs flat_map app]. rewrite !sapp_assoc. reflexivity. }
  cbv zeta. destruct (if (fst wh =? unset) && (snd wh =? unset) then _ else _) as [W H].
  destruct (32 <=? m); no_errs.
Qed.

(** Loading succeeds exactly if the file can be read. *)
Lemma load_decided a path wh m x : loadAndProcessImage O a path wh m = Some x ->
  (x = None <-> o_load O path = None).
Proof.
  unfold loadAndProcessImage. destruct (o_load O path) as [[[[f w] h] c]|]; [|intros E; injection E as <-; split; reflexivity].
  cbv zeta. destruct (if (fst wh =? unset) && (snd wh =? unset) then _ else _) as [W H].
  destruct (32 <=? m); [discriminate|].
  destruct (if c_normalMap a then _ else _) as [im orig]. intros E. injection E as <-. split; discriminate.
Qed.

Definition unreadable (p : string) : bool := match o_load O p with None => true | Some _ => false end.

Lemma inputs_errs a paths : forall wh x, load_inputs O a paths wh = Some x ->
  match find unreadable paths with
  | None => x <> None /\ errs (say_inputs O a paths wh) = []
  | Some p => x = None /\ errs (say_inputs O a paths wh) = [load_failure p]
  end.
Proof.
  induction paths as [|p r IH]; intros wh x E; [injection E as <-; split; [discriminate|reflexivity]|].
  cbn [load_inputs say_inputs find] in *. rewrite errs_app, load_errs. unfold unreadable at 1.
  destruct (loadAndProcessImage O a p wh 0) as [y|] eqn:E1; [|discriminate]. cbn [obind] in E.
  pose proof (load_decided _ _ _ _ _ E1) as D. destruct y as [[i wh']|].
  - destruct (o_load O p) as [q|]; [|exfalso; assert (Some (i, wh') = None) by (apply D; reflexivity); discriminate].
    destruct (load_inputs O a r wh') as [z|] eqn:E2; [|discriminate]. cbn [obind] in E. specialize (IH wh' z E2). cbn [app].
    destruct (find unreadable r) as [q'|]; destruct IH as [I1 I2]; rewrite I2.
    + subst z. injection E as <-. auto.
    + destruct z as [[is wh'']|]; [|contradiction]. injection E as <-. split; [discriminate|reflexivity].
  - injection E as <-. rewrite (proj1 D eq_refl). auto.
Qed.

Lemma inputs_hushed a paths : forall wh, hushed a (say_inputs O a paths wh).
Proof.
  induction paths as [|p r IH]; intros wh; [apply hushed_nil|]. cbn [say_inputs]. apply hushed_app; [apply load_hushed|].
  destruct (loadAndProcessImage O a p wh 0) as [[[i wh']|]|]; auto using hushed_nil.
Qed.

(** The errors are those of a run that fails, one report. *)
Definition fails_with (b : bool) (l : list write) : Prop :=
  if b then exists s, errs l = ["error: " +++ s] else errs l = [].

Lemma customs_errs a levels l : forall wh x, load_mips O a levels l wh = Some x ->
  fails_with (match x with None => true | Some _ => false end) (say_customs O a levels l wh).
Proof.
  induction l as [|[k [p rp]] l IH]; intros wh x E; [injection E as <-; reflexivity|].
  cbn [load_mips say_customs] in *.
  destruct (levels <=? x_level k); [injection E as <-; complains|].
  destruct (negb (x_face k =? 0) && _); [injection E as <-; complains|].
  destruct (loadAndProcessImage O a p wh (x_level k)) as [y|] eqn:E1; [|discriminate]. cbn [obind] in E.
  pose proof (load_decided _ _ _ _ _ E1) as D. unfold fails_with. rewrite errs_app, load_errs. destruct y as [[i wh']|].
  - destruct (o_load O p) as [q|]; [|exfalso; assert (Some (i, wh') = None) by (apply D; reflexivity); discriminate].
    destruct (load_mips O a levels l wh') as [z|] eqn:E2; [|discriminate]. cbn [obind] in E. specialize (IH wh' z E2). cbn [app].
    destruct z; injection E as <-; exact IH.
  - injection E as <-. rewrite (proj1 D eq_refl). complains.
Qed.

Lemma customs_hushed a levels l : forall wh, hushed a (say_customs O a levels l wh).
Proof.
  induction l as [|[k [p rp]] l IH]; intros wh; [apply hushed_nil|]. cbn [say_customs].
  apply hushed_if; [apply hushed_err|]. apply hushed_if; [apply hushed_err|].
  apply hushed_app; [apply load_hushed|].
  destruct (loadAndProcessImage O a p wh (x_level k)) as [[[i wh']|]|]; auto using hushed_nil.
Qed.

Variable visit : list (index * (string * replacement)) -> list (index * (string * replacement)).

Lemma images_errs a x : loadImages O visit a = Some x ->
  fails_with (match x with None => true | Some _ => false end) (say_loadImages O visit a).
Proof.
  unfold loadImages, say_loadImages, fails_with. rewrite errs_app.
  destruct (load_inputs O a (c_images a) (unset, unset)) as [y|] eqn:E1; [|discriminate]. cbn [obind].
  apply inputs_errs in E1. destruct (find unreadable (c_images a)); destruct E1 as [E1 E2]; rewrite E2.
  - subst y. intros E. injection E as <-. complains.
  - destruct y as [[is wh]|]; [|contradiction].
    destruct (load_mips O a _ (visit (c_customMips a)) wh) as [z|] eqn:E3; [|discriminate]. cbn [obind app].
    apply customs_errs in E3. destruct z; intros E; injection E as <-; exact E3.
Qed.

Lemma images_hushed a : hushed a (say_loadImages O visit a).
Proof.
  unfold say_loadImages. apply hushed_app; [apply inputs_hushed|].
  destruct (load_inputs O a (c_images a) (unset, unset)) as [[[is wh]|]|]; auto using hushed_nil, customs_hushed.
Qed.

(** The first input that cannot be read is named. *)
Lemma images_culprit a p x : loadImages O visit a = Some x -> find unreadable (c_images a) = Some p ->
  x = None /\ errs (say_loadImages O visit a) = [load_failure p].
Proof.
  unfold loadImages, say_loadImages. rewrite errs_app.
  destruct (load_inputs O a (c_images a) (unset, unset)) as [y|] eqn:E1; [|discriminate]. cbn [obind].
  intros E F. apply inputs_errs in E1. rewrite F in E1. destruct E1 as [-> ->]. injection E as <-. auto.
Qed.

Variable fl : flags.
Variable encode : converter -> convargs -> image C -> list N.
Variable Y : sys.
Variable fuel : nat.

Definition out_name (a : cl) : string := match c_output a with Some o => o | None => "" end.
Definition saving_line (a : cl) : string := "saving texture '" +++ out_name a +++ "'" +++ endl.

Lemma save_errs a images cm ok evs : save_texture O fl encode Y fuel a images cm = Some (ok, evs) ->
  fails_with (negb ok) (say_save O fl encode Y fuel a images cm).
Proof.
  unfold save_texture, say_save, fails_with. rewrite errs_app.
  rewrite if_errs by (rewrite ?verbose_errs; reflexivity). cbn [app].
  destruct (build O a images cm) as [t|]; cbn [obind]; [|discriminate].
  rewrite errs_app, verbose_errs. cbn [app].
  destruct (convert fl encode t (convert_args a)) as [ok' t']. destruct ok'; cbn [negb].
  2:{ intros E. injection E as <- <-. complains. }
  rewrite errs_app. replace (errs (match c_log a with Log_Quiet => [] | _ => _ end)) with (@nil string) by (destruct (c_log a); reflexivity).
  cbn [app]. cbv zeta.
  destruct (saveFile (y_bufsize Y) (y_room Y 0) t' _ (c_ftype a)) as [[r content]|]; cbn [obind fst snd]; [|discriminate].
  destruct r; try (intros E; injection E as <- <-; cbn [negb]; first [reflexivity|complains]).
  destruct (c_createOutputDir a); [|intros E; injection E as <- <-; complains].
  destruct (createParentDir fuel (y_mkdir Y) _) as [[ok1 dirs]|]; cbn [obind fst snd]; [|discriminate].
  destruct ok1; cbn [negb]; [|intros E; injection E as <- <-; complains].
  destruct (saveFile (y_bufsize Y) (y_room Y 1) t' _ (c_ftype a)) as [[r2 content2]|]; cbn [obind fst snd]; [|discriminate].
  intros E. destruct r2; injection E as <- <-; cbn [negb]; first [reflexivity|complains].
Qed.

(** Apart from the verbose lines, the only line on standard output is the one about saving. *)
Lemma save_outs a images cm : exists told l',
  outs (say_save O fl encode Y fuel a images cm) = l' ++ told /\
  (c_log a <> Log_Verbose -> l' = []) /\
  (c_log a = Log_Verbose -> told <> [] -> l' =
     (if 1 <? c_mipLevels a then ["generating mipmaps" +++ endl] else []) ++ ["converting texture" +++ endl]) /\
  (told = [] \/ (c_log a <> Log_Quiet /\ told = [saving_line a])) /\
  forall evs, save_texture O fl encode Y fuel a images cm = Some (true, evs) -> c_log a <> Log_Quiet ->
    told = [saving_line a].
Proof.
  unfold save_texture, say_save. rewrite outs_app.
  set (v1 := outs (if 1 <? c_mipLevels a then _ else _)).
  assert (H1 : c_log a <> Log_Verbose -> v1 = []).
  { intros N. unfold v1, verbose. destruct (1 <? c_mipLevels a); [|reflexivity]. destruct (c_log a); try reflexivity. contradiction. }
  assert (H2 : c_log a = Log_Verbose -> v1 = if 1 <? c_mipLevels a then ["generating mipmaps" +++ endl] else []).
  { intros N. unfold v1, verbose. rewrite N. destruct (1 <? c_mipLevels a); reflexivity. }
  clearbody v1. destruct (build O a images cm) as [t|]; cbn [obind].
  2:{ exists [], v1. cbn [outs flat_map]. rewrite !app_nil_r. split; [reflexivity|]. split; [exact H1|]. split; [intros _ N; contradiction|].
      split; [auto|]. intros evs E. discriminate. }
  rewrite outs_app. set (v2 := outs (verbose a "converting texture")).
  assert (H3 : c_log a <> Log_Verbose -> v2 = []) by (intros N; apply verbose_hushed; exact N).
  assert (H4 : c_log a = Log_Verbose -> v2 = ["converting texture" +++ endl]) by (intros N; unfold v2, verbose; rewrite N; reflexivity).
  clearbody v2. destruct (convert fl encode t (convert_args a)) as [ok t'].
  assert (Q : forall told, (told = [] \/ (c_log a <> Log_Quiet /\ told = [saving_line a])) ->
    (forall (evs : list (tevent C)) X, X = Some (true, evs) -> c_log a <> Log_Quiet -> told = [saving_line a]) \/ True) by auto.
  destruct ok; cbn [negb].
  2:{ exists [], (v1 ++ v2). cbn [outs flat_map]. rewrite !app_nil_r. split; [reflexivity|].
      split; [intros N; rewrite H1, H3 by exact N; reflexivity|]. split; [intros _ N; contradiction|].
      split; [auto|]. intros evs E. discriminate. }
  rewrite outs_app.
  cbv zeta.
  match goal with |- context [_ ++ outs ?X] => lazymatch X with match saveFile _ _ _ _ _ with None => _ | Some _ => _ end => assert (HN : outs X = []) end end.
  { cbv zeta. destruct (saveFile (y_bufsize Y) (y_room Y 0) t' _ (c_ftype a)) as [[r content]|]; [|reflexivity].
    destruct r; try reflexivity. destruct (c_createOutputDir a); [|reflexivity].
    destruct (createParentDir fuel (y_mkdir Y) _) as [[[] dirs]|]; try reflexivity.
    destruct (saveFile (y_bufsize Y) (y_room Y 1) t' _ (c_ftype a)) as [[[] content2]|]; reflexivity. }
  rewrite HN, app_nil_r. clear HN Q.
  set (told := outs (match c_log a with Log_Quiet => [] | _ => _ end)).
  exists told, (v1 ++ v2). rewrite app_assoc. split; [reflexivity|].
  split; [intros N; rewrite H1, H3 by exact N; reflexivity|].
  split; [intros N _; rewrite H2, H4 by exact N; reflexivity|].
  assert (T : (c_log a = Log_Quiet /\ told = []) \/ (c_log a <> Log_Quiet /\ told = [saving_line a])).
  { unfold told. destruct (c_log a); [right|left|right]; (split; [first [discriminate|reflexivity]|reflexivity]). }
  destruct T as [[T1 T2]|[T1 T2]]; (split; [auto|]); intros evs _ N; congruence.
Qed.
End Run.

Lemma parse_sizes fl file isnum cap visit args a : parse fl file isnum cap visit args = POk a -> sizes_ok a.
Proof.
  intros E. destruct (C52_settings _ _ _ _ _ _ _ E) as (ds & Sp & ST). unfold sizes_ok.
  rewrite (m_width _ _ ST), (m_height _ _ ST). apply (spelled_sizes _ _ _ _ Sp); unfold int_size; lia.
Qed.

Section Verbose.
Context {C : Type}.
Variable O : ops C.
Notation L := (o_lib O).
Hypothesis OK : ops_ok O.
Variable a : cl.
Hypothesis V : c_log a = Log_Verbose.

Lemma verbose_on s : outs (verbose a s) = [a_line s].
Proof. unfold verbose. rewrite V. reflexivity. Qed.
Lemma outs_if (b : bool) l l' : outs (if b then l else l') = if b then outs l else outs l'.
Proof. destruct b; reflexivity. Qed.

Lemma load_lines path wh m f w h c : m < 32 -> o_load O path = Some (f, w, h, c) ->
  outs (say_load O a path wh m) = picture_lines a f w h (fst (used a wh w h)) (snd (used a wh w h)) m path.
Proof.
  intros Hm EL. unfold say_load. rewrite EL, outs_app, verbose_on.
  change (if (fst wh =? unset) && (snd wh =? unset)
          then (getDimension w w h (c_width a), getDimension h w h (c_height a)) else wh) with (used a wh w h).
  destruct (used a wh w h) as [W H]. cbn [fst snd]. cbv zeta.
  assert (SZ : forall i, i = (if cs_eqb (c_textureCS a) (c_imageCS a)
      then (if imgfmt_eqb f I_RGBAF then Img f w h (c_imageCS a) c else iconvert L (Img f w h (c_imageCS a) c) I_RGBAF)
      else ichange L (if imgfmt_eqb f I_RGBAF then Img f w h (c_imageCS a) c else iconvert L (Img f w h (c_imageCS a) c) I_RGBAF) (c_textureCS a)) ->
      iwidth i = w /\ iheight i = h).
  { intros i ->.
    assert (I1 : exists f1 c1, (if imgfmt_eqb f I_RGBAF then Img f w h (c_imageCS a) c
      else iconvert L (Img f w h (c_imageCS a) c) I_RGBAF) = Img f1 w h (c_imageCS a) c1).
    { destruct (imgfmt_eqb f I_RGBAF); [eauto|].
      destruct (iconvert_valid L (k_lib _ OK) f w h (c_imageCS a) c) as [c1 ->]. eauto. }
    destruct I1 as (f1 & c1 & ->). destruct (cs_eqb _ _); [split; reflexivity|].
    destruct (ichange_sides O (Img f1 w h (c_imageCS a) c1) (c_textureCS a)) as (_ & -> & ->). split; reflexivity. }
  match goal with |- context [iwidth ?i] => destruct (SZ i eq_refl) as [S1 S2] end. rewrite S1, S2. clear S1 S2 SZ.
  destruct (N.leb_spec 32 m); [lia|]. rewrite !side_shift.
  rewrite !outs_app, !outs_if, !verbose_on. change (outs []) with (@nil string).
  assert (CS : cs_eqb (c_textureCS a) (c_imageCS a) = negb (match c_imageCS a, c_textureCS a with
    CS_sRGB, CS_Linear | CS_Linear, CS_sRGB => true | _, _ => false end)) by (destruct (c_textureCS a), (c_imageCS a); reflexivity).
  rewrite CS. clear CS. unfold picture_lines.
  destruct (c_normalMap a);
  (cbv beta iota zeta; rewrite (N.eqb_sym w), (N.eqb_sym h);
   set (b1 := imgfmt_eqb f I_RGBAF); set (b2 := match c_imageCS a with CS_Linear => _ | CS_sRGB => _ end);
   rewrite <- negb_andb; match goal with |- context [if negb (?x && ?y) then _ else _] => set (b3 := x && y) end;
   clearbody b1 b2 b3; cbn [filter map fst snd];
   destruct b1, b2, b3, (c_rotate a), (c_grayscale a), (c_flipX a), (c_flipY a), (c_swizzle a), (c_preMultiply a); reflexivity).
Qed.

Lemma inputs_lines W H paths : W < unset -> forall x, load_inputs O a paths (W, H) = Some (Some x) ->
  outs (say_inputs O a paths (W, H)) = List.concat (map (lines_of O a W H 0) paths).
Proof.
  intros LW. induction paths as [|p r IH]; intros x E; [reflexivity|].
  cbn [load_inputs say_inputs map List.concat] in *. rewrite outs_app.
  rewrite (process_product O OK a p W H 0 ltac:(lia) LW) in *. unfold product in *. unfold lines_of at 1.
  destruct (o_load O p) as [[[[f w] h] c]|] eqn:EL; [|discriminate]. cbn [obind] in E.
  rewrite (load_lines p (W, H) 0 f w h c ltac:(lia) EL), (used_later a W H w h LW). cbn [fst snd]. f_equal.
  destruct (load_inputs O a r (W, H)) as [[y|]|]; try discriminate. apply (IH y). reflexivity.
Qed.

Lemma customs_lines W H levels l : W < unset -> levels <= 32 -> forall x, load_mips O a levels l (W, H) = Some (Some x) ->
  outs (say_customs O a levels l (W, H)) =
  List.concat (map (fun e => lines_of O a W H (x_level (fst e)) (fst (snd e))) l).
Proof.
  intros LW LV. induction l as [|[k [p rp]] r IH]; intros x E; [reflexivity|].
  cbn [load_mips say_customs map List.concat fst snd] in *.
  destruct (N.leb_spec levels (x_level k)); [discriminate|].
  destruct (negb (x_face k =? 0) && _); [discriminate|]. rewrite outs_app.
  rewrite (process_product O OK a p W H (x_level k) ltac:(lia) LW) in *. unfold product in *. unfold lines_of at 1.
  destruct (o_load O p) as [[[[f w] h] c]|] eqn:EL; [|discriminate]. cbn [obind] in E.
  rewrite (load_lines p (W, H) (x_level k) f w h c ltac:(lia) EL), (used_later a W H w h LW). cbn [fst snd]. f_equal.
  destruct (load_mips O a levels r (W, H)) as [[y|]|]; try discriminate. apply (IH y). reflexivity.
Qed.

Lemma images_lines visit p0 is cm : sizes_ok a -> nth_error (c_images a) 0 = Some p0 ->
  loadImages O visit a = Some (Some (is, cm)) ->
  exists f w h c, o_load O p0 = Some (f, w, h, c) /\ let W := fst (asked a w h) in let H := snd (asked a w h) in
  outs (say_loadImages O visit a) = List.concat (map (lines_of O a W H 0) (c_images a)) ++
    List.concat (map (fun e => lines_of O a W H (x_level (fst e)) (fst (snd e))) (visit (c_customMips a))).
Proof.
  intros SZ E0. unfold loadImages, say_loadImages. destruct (c_images a) as [|p r]; [discriminate|]. injection E0 as ->.
  cbn [load_inputs say_inputs map List.concat].
  rewrite (process_steps O a p0 (unset, unset) 0 ltac:(lia)) by (intros f w h c X; destruct (k_load _ OK _ _ _ _ _ X); lia).
  destruct (o_load O p0) as [[[[f w] h] c]|] eqn:EL; [|discriminate].
  cbv zeta. cbn [obind]. change (used a (unset, unset) w h) with (asked a w h).
  destruct (asked_range O OK a p0 f w h c SZ EL) as [A1 A2].
  set (W := fst (asked a w h)) in *. set (H := snd (asked a w h)) in *.
  destruct (load_inputs O a r (W, H)) as [[[is' wh']|]|] eqn:EI; try discriminate. cbn [obind].
  assert (EW : wh' = (W, H)).
  { rewrite (load_later O OK a W H r A1) in EI. destruct (products O a W H r); [|discriminate]. injection EI as _ <-. reflexivity. }
  subst wh'. destruct (load_mips O a _ (visit (c_customMips a)) (W, H)) as [[y|]|] eqn:EM; try discriminate.
  intros _. exists f, w, h, c. split; [reflexivity|]. fold W H.
  rewrite !outs_app. rewrite (load_lines p0 (unset, unset) 0 f w h c ltac:(lia) EL).
  change (used a (unset, unset) w h) with (asked a w h). fold W H.
  unfold lines_of at 1. rewrite EL. rewrite <- !app_assoc. f_equal.
  rewrite (inputs_lines W H r A1 _ EI). f_equal. cbn [fst snd].
  refine (customs_lines W H _ _ A1 _ y EM).
  cbn [fst snd]. pose proof (maxMip_le (c_dim a) W H (to_uint (N.of_nat (length ((carry_out (steps O a f W H 0) (Img f w h (c_imageCS a) c)) :: is'))))). lia.
Qed.
End Verbose.

(** C71: what the tool prints, and how it goes with the exit status. *)
From Coq Require Import NArith ZArith List Bool String Ascii Lia.
From Coq Require Import ZifyBool ZifyNat ZifyN.
From Verif Require Import Base FormatModel SaveFormats TextureModel TextureSpec TextureProofs PropsTexture SaveModel SaveSpec
  PropsSave CommandLineModel CommandLineSpec PropsCommandLine CommandGrammar ToolModel ToolSpec PropsTool
  PipelineModel PipelineSpec PipelineProofs PipelineBuild PipelineRun PropsPipeline
  MessagesModel MessagesSpec MessagesProofs.
Import ListNotations.
Local Open Scope string_scope.
Local Open Scope list_scope.
Local Open Scope N_scope.
Local Notation length := List.length.
Local Infix "+++" := String.append (right associativity, at level 60).

(** ** Reading the command line *)

Lemma help_dec args : help_wanted args \/ ~ help_wanted args.
Proof.
  destruct (existsb (fun a => matches a "-h" "--help") args) eqn:E.
  - left. apply existsb_exists in E. destruct E as (x & I & M). unfold matches in M. apply orb_true_iff in M.
    destruct M as [M|M]; apply String.eqb_eq in M; subst x; unfold help_wanted; auto.
  - destruct args as [|x args]; [left; left; reflexivity|]. right. intros [N|[I|I]]; [discriminate| |].
    + assert (existsb (fun a => matches a "-h" "--help") (x :: args) = true); [|congruence].
      apply existsb_exists. exists "-h". split; [exact I|reflexivity].
    + assert (existsb (fun a => matches a "-h" "--help") (x :: args) = true); [|congruence].
      apply existsb_exists. exists "--help". split; [exact I|reflexivity].
Qed.

Lemma help_says fl file isnum cap visit help argv0 args : help_wanted args ->
  parse fl file isnum cap visit args = PFalse /\
  say_parse fl file isnum cap visit help argv0 args = [Out (help (programName argv0))].
Proof.
  intros H. unfold parse, say_parse. destruct args as [|x args]; [auto|].
  assert (existsb (fun a => matches a "-h" "--help") (x :: args) = true) as ->; [|auto].
  destruct H as [H|[H|H]]; [discriminate| |]; apply existsb_exists; eexists; (split; [exact H|reflexivity]).
Qed.

Definition usage_line (argv0 : string) : string := a_line ("Run " +++ programName argv0 +++ " -h for usage.").

Lemma usage_text argv0 : "Run " +++ programName argv0 +++ " -h for usage." +++ endl = usage_line argv0.
Proof. unfold usage_line, a_line. rewrite !sapp_assoc. reflexivity. Qed.

Lemma error_is s : is_error ("error: " +++ s) = true.
Proof. unfold is_error. cbn. destruct s; reflexivity. Qed.

Lemma parse_says fl file isnum cap visit help argv0 args : ~ help_wanted args ->
  let l := say_parse fl file isnum cap visit help argv0 args in
  match parse fl file isnum cap visit args with
  | POk a => l = warning a
  | PFalse => exists l', l = l' ++ [Err (usage_line argv0)] /\ outs l = [] /\ errors l' <> [] /\
      Forall (fun s => is_error s = true \/ s = the_warning) (errs l')
  | _ => True
  end.
Proof.
  intros NH. unfold parse, say_parse. destruct args as [|x args]; [exfalso; apply NH; left; reflexivity|].
  destruct (existsb (fun a => matches a "-h" "--help") (x :: args)) eqn:EX.
  { exfalso. apply NH. apply existsb_exists in EX. destruct EX as (y & I & M). unfold matches in M. apply orb_true_iff in M.
    destruct M as [M|M]; apply String.eqb_eq in M; subst y; unfold help_wanted; auto. }
  clear NH EX. cbv zeta. rewrite usage_text. generalize (x :: args). clear x args. intros args.
  assert (R : forall l, reports l -> l <> [] -> exists l', l ++ [Err (usage_line argv0)] = l' ++ [Err (usage_line argv0)] /\
     outs (l ++ [Err (usage_line argv0)]) = [] /\ errors l' <> [] /\
     Forall (fun s => is_error s = true \/ s = the_warning) (errs l')).
  { intros l RL NL. exists l. split; [reflexivity|]. rewrite outs_app. cbn [outs flat_map app]. rewrite app_nil_r.
    induction RL as [|w l (s & ->) RL IH]; [contradiction|]. cbn [outs errs flat_map app errors filter] in *.
    destruct l as [|w' l].
    - split; [reflexivity|]. unfold errors. cbn [errs flat_map app filter]. rewrite error_is. split; [discriminate|].
      constructor; [left; apply error_is|constructor].
    - destruct IH as (I1 & I2 & I3); [discriminate|]. split; [exact I1|]. split.
      + unfold errors. cbn [errs flat_map app filter]. rewrite error_is. discriminate.
      + constructor; [left; apply error_is|exact I3]. }
  pose proof (loop_says fl file isnum cap (S (length args)) cl0 args) as (RL & D). cbv zeta in *.
  destruct (loop fl file isnum cap (S (length args)) cl0 args) as [c|[]]; try exact I; try contradiction.
  2:{ apply R; assumption. }
  destruct D as [(D1 & D2)|(D1 & D2)].
  2:{ rewrite D2. apply R; assumption. }
  rewrite D2, D1. change (c_success cl0) with true. cbv iota. cbn [app].
  pose proof (validate_says fl visit c) as V. destruct (validate fl visit c) as [a| | | |]; try exact I.
  - rewrite app_nil_r. exact V.
  - destruct V as (l & s & -> & DW). exists (l ++ [Err ("error: " +++ s)]). split; [reflexivity|].
    destruct DW as [-> | ->]; (split; [reflexivity|]; split; [unfold errors; rewrite errs_app; cbn [app errs flat_map filter];
      rewrite ?error_is; change (is_error the_warning) with false; cbv iota; discriminate|]); rewrite errs_app; cbn [app errs flat_map];
      repeat (apply Forall_cons || apply Forall_nil); auto using error_is.
Qed.

(** ** A whole session *)
Section Session.
Context {C : Type}.
Variables (O : ops C) (visit : list (index * (string * replacement)) -> list (index * (string * replacement)))
  (fl : flags) (enc : converter -> convargs -> image C -> list N) (Y : sys) (fuel : nat)
  (file : string -> option string) (isnum : string -> bool) (cap : N) (help : string -> string)
  (argv0 : string) (args : list string).
Notation says := (session O visit fl enc Y fuel file isnum cap help argv0 args).

Lemma run_errs a st evs : run_tool O visit fl enc Y fuel a = Some (st, evs) ->
  (st = 0 /\ errs (say_run O visit fl enc Y fuel a) = []) \/
  ((st = 2 \/ st = 3) /\ exists s, errs (say_run O visit fl enc Y fuel a) = ["error: " +++ s]).
Proof.
  unfold run_tool, say_run. rewrite errs_app. destruct (loadImages O visit a) as [x|] eqn:E; [|discriminate].
  apply images_errs in E. cbn [obind]. destruct x as [[is cm]|]; cbn [fails_with] in E.
  - rewrite E. cbn [app]. destruct (save_texture O fl enc Y fuel a is cm) as [[ok e]|] eqn:ES; [|discriminate].
    apply save_errs in ES. cbn [obind fst snd]. intros X. injection X as <- <-. destruct ok; cbn [negb fails_with] in ES; auto.
  - intros X. injection X as <- <-. destruct E as [s ->]. right. split; [auto|]. exists s. reflexivity.
Qed.

Lemma run_outs a st evs : run_tool O visit fl enc Y fuel a = Some (st, evs) -> exists told l',
  outs (say_run O visit fl enc Y fuel a) = outs (say_loadImages O visit a) ++ l' ++ told /\
  (c_log a <> Log_Verbose -> outs (say_loadImages O visit a) ++ l' = []) /\
  (told = [] \/ (c_log a <> Log_Quiet /\ told = [saving_line a])) /\
  (st = 2 -> told = []) /\
  (st = 0 -> c_log a <> Log_Quiet -> told = [saving_line a] /\
    (c_log a = Log_Verbose -> l' = (if 1 <? c_mipLevels a then ["generating mipmaps" +++ endl] else []) ++
                                   ["converting texture" +++ endl])).
Proof.
  unfold run_tool, say_run. rewrite outs_app. destruct (loadImages O visit a) as [[[is cm]|]|]; [| |discriminate]; cbn [obind].
  2:{ intros X. injection X as <- <-. exists [], []. split; [reflexivity|].
      split; [intros N; rewrite app_nil_r; apply images_hushed; exact N|]. split; [auto|]. split; [auto|]. discriminate. }
  destruct (save_texture O fl enc Y fuel a is cm) as [[ok e]|] eqn:ES; [|discriminate]. cbn [obind fst snd].
  intros X. injection X as <- <-.
  destruct (save_outs O fl enc Y fuel a is cm) as (told & l' & E1 & E2 & E3 & E4 & E5).
  exists told, l'. split; [rewrite E1; reflexivity|].
  split; [intros N; rewrite (images_hushed O visit a N), (E2 N); reflexivity|]. split; [exact E4|].
  split; [destruct ok; discriminate|]. intros X NQ. destruct ok; [|discriminate].
  pose proof (E5 e ES NQ) as T. split; [exact T|]. intros V. apply E3; [exact V|]. rewrite T. discriminate.
Qed.

Lemma says_form st l : says = Some (st, l) ->
  (parse fl file isnum cap visit args = PFalse /\ st = 1 /\ l = say_parse fl file isnum cap visit help argv0 args) \/
  exists a evs, parse fl file isnum cap visit args = POk a /\ ~ help_wanted args /\
    run_tool O visit fl enc Y fuel a = Some (st, evs) /\ l = warning a ++ say_run O visit fl enc Y fuel a.
Proof.
  unfold session. destruct (parse fl file isnum cap visit args) as [a| | | |] eqn:EP; try discriminate.
  - destruct (run_tool O visit fl enc Y fuel a) as [[s e]|] eqn:ER; [|discriminate]. intros X. injection X as <- <-.
    right. exists a, e. split; [reflexivity|].
    assert (NH : ~ help_wanted args).
    { intros H. destruct (help_says fl file isnum cap visit help argv0 args H). congruence. }
    pose proof (parse_says fl file isnum cap visit help argv0 args NH) as PS. cbv zeta in PS. rewrite EP in PS.
    rewrite PS. auto.
  - intros X. injection X as <- <-. auto.
Qed.

Lemma warning_outs a : outs (warning a) = [].
Proof. destruct (warning_cases a) as [-> | ->]; reflexivity. Qed.

Lemma warning_errs a : errs (warning a) =
  if existsb (format_eqb (c_fmt a)) warned then match c_imageCS a, c_log a with CS_sRGB, Log_Quiet => [] | CS_sRGB, _ => [the_warning] | _, _ => [] end else [].
Proof.
  unfold warning. change (low_precision (c_fmt a)) with (existsb (format_eqb (c_fmt a)) warned).
  destruct (c_imageCS a), (c_log a), (existsb (format_eqb (c_fmt a)) warned); reflexivity.
Qed.
End Session.

(** The exit status tells whether anything was wrong, and so does the standard error stream. *)
Theorem C71_status : forall C (O : ops C) visit fl enc Y fuel file isnum cap help argv0 args st l,
  session O visit fl enc Y fuel file isnum cap help argv0 args = Some (st, l) ->
  (st = 0 \/ st = 1 \/ st = 2 \/ st = 3) /\
  (st = 0 <-> errors l = [] /\ ~ help_wanted args) /\
  (help_wanted args -> st = 1 /\ l = [Out (help (programName argv0))]) /\
  (st = 1 -> ~ help_wanted args -> outs l = [] /\ errors l <> [] /\
     exists l', errs l = l' ++ [a_line ("Run " +++ programName argv0 +++ " -h for usage.")] /\
       Forall (fun s => is_error s = true \/ s = the_warning) l') /\
  (st = 2 \/ st = 3 -> exists s, errors l = [s]).
Proof.
  intros C O visit fl enc Y fuel file isnum cap help argv0 args st l E.
  destruct (says_form _ _ _ _ _ _ _ _ _ _ _ _ _ _ E) as [(EP & -> & ->)|(a & evs & EP & NH & ER & ->)].
  - split; [auto|]. destruct (help_dec args) as [H|NH].
    + destruct (help_says fl file isnum cap visit help argv0 args H) as [_ ->].
      split; [split; [discriminate|intros [_ X]; contradiction]|]. split; [auto|].
      split; [intros _ X; contradiction|]. intros [X|X]; discriminate.
    + pose proof (parse_says fl file isnum cap visit help argv0 args NH) as PS. cbv zeta in PS. rewrite EP in PS.
      destruct PS as (l' & EL & O1 & N1 & F1). rewrite EL in *.
      assert (N2 : errors (l' ++ [Err (usage_line argv0)]) <> []).
      { rewrite errors_app. destruct (errors l'); [contradiction|discriminate]. }
      split; [split; [discriminate|intros [X _]; contradiction]|]. split; [intros X; contradiction|].
      split; [|intros [X|X]; discriminate]. intros _ _. split; [exact O1|]. split; [exact N2|].
      exists (errs l'). split; [rewrite errs_app; reflexivity|exact F1].
  - assert (EE : errors (warning a ++ say_run O visit fl enc Y fuel a) = filter is_error (errs (say_run O visit fl enc Y fuel a))).
    { rewrite errors_app. replace (errors (warning a)) with (@nil string); [reflexivity|].
      destruct (warning_cases a) as [-> | ->]; reflexivity. }
    rewrite EE. destruct (run_errs O visit fl enc Y fuel a st evs ER) as [[-> X]|[D [s X]]]; rewrite X; cbn [filter]; rewrite ?error_is.
    + split; [auto|]. split; [split; auto|]. split; [intros H; contradiction|]. split; [discriminate|]. intros [Z|Z]; discriminate.
    + split; [tauto|]. split; [split; [intros ->; destruct D; discriminate|intros [Z _]; discriminate]|].
      split; [intros H; contradiction|]. split; [intros ->; destruct D; discriminate|]. intros _. eauto.
Qed.
Print Assumptions C71_status.

(** What an accepted run writes to the standard error stream. *)
Theorem C71_stderr : forall C (O : ops C) visit fl enc Y fuel file isnum cap help argv0 args a st l,
  session O visit fl enc Y fuel file isnum cap help argv0 args = Some (st, l) ->
  parse fl file isnum cap visit args = POk a ->
  exists e, errs l = e ++ (if st =? 0 then [] else errors l) /\
  (c_imageCS a = CS_sRGB /\ c_log a <> Log_Quiet /\ In (c_fmt a) warned -> e = [the_warning]) /\
  (~ (c_imageCS a = CS_sRGB /\ c_log a <> Log_Quiet /\ In (c_fmt a) warned) -> e = []).
Proof.
  intros C O visit fl enc Y fuel file isnum cap help argv0 args a st l E EP.
  destruct (says_form _ _ _ _ _ _ _ _ _ _ _ _ _ _ E) as [(EP' & _)|(a' & evs & EP' & NH & ER & ->)]; rewrite EP in EP'; [discriminate|].
  injection EP' as <-. exists (errs (warning a)). split.
  - rewrite errs_app, errors_app. f_equal. replace (errors (warning a)) with (@nil string) by (destruct (warning_cases a) as [-> | ->]; reflexivity).
    cbn [app]. destruct (run_errs O visit fl enc Y fuel a st evs ER) as [[-> X]|[D [s X]]]; rewrite X; [reflexivity|].
    unfold errors. rewrite X. cbn [filter]. rewrite error_is. destruct (N.eqb_spec st 0); [subst st; destruct D; discriminate|reflexivity].
  - rewrite warning_errs.
    assert (IW : existsb (format_eqb (c_fmt a)) warned = true <-> In (c_fmt a) warned).
    { rewrite existsb_exists. split.
      - intros (x & I & X). replace (c_fmt a) with x; [exact I|]. destruct (c_fmt a), x; (reflexivity || discriminate X).
      - intros I. exists (c_fmt a). split; [exact I|]. destruct (c_fmt a); reflexivity. }
    split.
    + intros (-> & NQ & I). rewrite (proj2 IW I). destruct (c_log a); [reflexivity|contradiction|reflexivity].
    + intros N. destruct (existsb (format_eqb (c_fmt a)) warned); [|reflexivity].
      destruct (c_imageCS a) eqn:EC; [reflexivity|]. destruct (c_log a) eqn:EL; [|reflexivity|]; exfalso; apply N;
        (split; [reflexivity|]; split; [discriminate|apply IW; reflexivity]).
Qed.
Print Assumptions C71_stderr.

(** A quiet run writes nothing to the standard output, and nothing at all when it succeeds. *)
Theorem C71_quiet : forall C (O : ops C) visit fl enc Y fuel file isnum cap help argv0 args a st l,
  session O visit fl enc Y fuel file isnum cap help argv0 args = Some (st, l) ->
  parse fl file isnum cap visit args = POk a -> c_log a = Log_Quiet ->
  outs l = [] /\ (st = 0 -> l = []).
Proof.
  intros C O visit fl enc Y fuel file isnum cap help argv0 args a st l E EP Q.
  assert (NIL : forall l, outs l = [] -> errs l = [] -> l = []).
  { intros [|[s|s] k]; [reflexivity|discriminate|discriminate]. }
  destruct (says_form _ _ _ _ _ _ _ _ _ _ _ _ _ _ E) as [(EP' & _)|(a' & evs & EP' & NH & ER & ->)]; rewrite EP in EP'; [discriminate|].
  injection EP' as <-. destruct (run_outs O visit fl enc Y fuel a st evs ER) as (told & l' & E1 & E2 & E3 & _).
  assert (OT : outs (warning a ++ say_run O visit fl enc Y fuel a) = []).
  { rewrite outs_app, warning_outs, E1. cbn [app]. rewrite app_assoc, E2 by congruence. destruct E3 as [-> |[X _]]; [reflexivity|congruence]. }
  split; [exact OT|]. intros ->. apply NIL; [exact OT|]. rewrite errs_app, warning_errs, Q.
  destruct (run_errs O visit fl enc Y fuel a 0 evs ER) as [[_ X]|[[D|D] _]]; [|discriminate|discriminate]. rewrite X.
  destruct (existsb _ _), (c_imageCS a); reflexivity.
Qed.
Print Assumptions C71_quiet.

(** By default the tool prints one line, when it saves. *)
Theorem C71_normal : forall C (O : ops C) visit fl enc Y fuel file isnum cap help argv0 args a path st l,
  session O visit fl enc Y fuel file isnum cap help argv0 args = Some (st, l) ->
  parse fl file isnum cap visit args = POk a -> c_log a = Log_Normal -> c_output a = Some path ->
  (outs l = [] \/ outs l = [a_line ("saving texture '" +++ path +++ "'")]) /\
  (st = 0 -> outs l = [a_line ("saving texture '" +++ path +++ "'")]) /\
  (st = 2 -> outs l = []).
Proof.
  intros C O visit fl enc Y fuel file isnum cap help argv0 args a path st l E EP Q EO.
  destruct (says_form _ _ _ _ _ _ _ _ _ _ _ _ _ _ E) as [(EP' & _)|(a' & evs & EP' & NH & ER & ->)]; rewrite EP in EP'; [discriminate|].
  injection EP' as <-. destruct (run_outs O visit fl enc Y fuel a st evs ER) as (told & l' & E1 & E2 & E3 & E4 & E5).
  assert (S : saving_line a = a_line ("saving texture '" +++ path +++ "'")).
  { unfold saving_line, out_name, a_line. rewrite EO, !sapp_assoc. reflexivity. }
  rewrite outs_app, warning_outs, E1. cbn [app]. rewrite app_assoc, E2 by congruence. cbn [app]. rewrite <- S.
  split; [tauto|]. split; [|exact E4]. intros Z. apply E5; congruence.
Qed.
Print Assumptions C71_normal.

(** How much is printed does not change what is done. *)
Theorem C71_same_result : forall C (O : ops C) visit fl enc Y fuel a v,
  run_tool O visit fl enc Y fuel (set_log v a) = run_tool O visit fl enc Y fuel a.
Proof.
  intros. assert (LP : forall p wh m, loadAndProcessImage O (set_log v a) p wh m = loadAndProcessImage O a p wh m) by reflexivity.
  assert (LI : forall ps wh, load_inputs O (set_log v a) ps wh = load_inputs O a ps wh).
  { induction ps as [|p ps IH]; intros wh; [reflexivity|]. cbn [load_inputs]. rewrite LP.
    destruct (loadAndProcessImage O a p wh 0) as [[[i wh']|]|]; try reflexivity. cbn [obind]. rewrite IH. reflexivity. }
  assert (LM : forall k ps wh, load_mips O (set_log v a) k ps wh = load_mips O a k ps wh).
  { intros k. induction ps as [|[x [p r]] ps IH]; intros wh; [reflexivity|]. cbn [load_mips]. rewrite LP.
    change (c_dim (set_log v a)) with (c_dim a).
    destruct (k <=? x_level x); [reflexivity|]. destruct (_ && _); [reflexivity|].
    destruct (loadAndProcessImage O a p wh (x_level x)) as [[[i wh']|]|]; try reflexivity. cbn [obind]. rewrite IH. reflexivity. }
  unfold run_tool, loadImages. rewrite LI. change (c_images (set_log v a)) with (c_images a).
  destruct (load_inputs O a (c_images a) (unset, unset)) as [[[is wh]|]|]; cbn [obind]; [|reflexivity|reflexivity].
  rewrite LM. reflexivity.
Qed.
Print Assumptions C71_same_result.

(** The first input that cannot be read is named. *)
Theorem C71_culprit : forall C (O : ops C) visit fl enc Y fuel file isnum cap help argv0 args a st l before p after,
  session O visit fl enc Y fuel file isnum cap help argv0 args = Some (st, l) ->
  parse fl file isnum cap visit args = POk a ->
  c_images a = before ++ p :: after -> o_load O p = None -> (forall q, In q before -> o_load O q <> None) ->
  st = 2 /\ errors l = [a_line ("error: couldn't load image '" +++ p +++ "'")].
Proof.
  intros C O visit fl enc Y fuel file isnum cap help argv0 args a st l before p after E EP EI LP LB.
  destruct (says_form _ _ _ _ _ _ _ _ _ _ _ _ _ _ E) as [(EP' & _)|(a' & evs & EP' & NH & ER & ->)]; rewrite EP in EP'; [discriminate|].
  injection EP' as <-.
  assert (F : find (unreadable O) (c_images a) = Some p).
  { rewrite EI. clear EI. induction before as [|q b IH]; cbn [app find]; unfold unreadable at 1.
    - rewrite LP. reflexivity.
    - destruct (o_load O q) eqn:EQ; [|exfalso; apply (LB q); [left; reflexivity|exact EQ]].
      apply IH. intros r I. apply LB. right. exact I. }
  unfold run_tool in ER. destruct (loadImages O visit a) as [x|] eqn:EL; [|discriminate].
  pose proof (images_culprit O visit a p x EL F) as [-> EE]. cbn [obind] in ER. injection ER as <- <-. split; [reflexivity|].
  rewrite errors_app. replace (errors (warning a)) with (@nil string) by (destruct (warning_cases a) as [-> | ->]; reflexivity).
  unfold errors, say_run. rewrite EL, app_nil_r, EE. unfold load_failure. cbn [app filter].
  change (is_error ("error: couldn't load image '" +++ p +++ "'" +++ endl)) with true. cbv iota.
  unfold a_line. rewrite !sapp_assoc. reflexivity.
Qed.
Print Assumptions C71_culprit.

(** A verbose run that succeeds has told everything that was done to every picture, in order. *)
Theorem C71_verbose : forall C (O : ops C) visit fl enc Y fuel file isnum cap help argv0 args a path p0 l,
  ops_ok O ->
  session O visit fl enc Y fuel file isnum cap help argv0 args = Some (0, l) ->
  parse fl file isnum cap visit args = POk a -> c_log a = Log_Verbose -> c_output a = Some path ->
  nth_error (c_images a) 0 = Some p0 ->
  exists f w h c, (o_load O p0 = Some (f, w, h, c)) /\
  let W := fst (asked a w h) in
  let H := snd (asked a w h) in
  outs l =
    List.concat (map (lines_of O a W H 0) (c_images a)) ++
    List.concat (map (fun e => lines_of O a W H (x_level (fst e)) (fst (snd e))) (visit (c_customMips a))) ++
    (if 1 <? c_mipLevels a then [a_line "generating mipmaps"] else []) ++
    [a_line "converting texture"; a_line ("saving texture '" +++ path +++ "'")].
Proof.
  intros C O visit fl enc Y fuel file isnum cap help argv0 args a path p0 l OK E EP V EO E0.
  destruct (says_form _ _ _ _ _ _ _ _ _ _ _ _ _ _ E) as [(EP' & _)|(a' & evs & EP' & NH & ER & ->)]; rewrite EP in EP'; [discriminate|].
  injection EP' as <-. destruct (run_outs O visit fl enc Y fuel a 0 evs ER) as (told & l' & E1 & _ & _ & _ & E5).
  destruct (E5 eq_refl) as [T X]; [congruence|]. specialize (X V).
  unfold run_tool in ER. destruct (loadImages O visit a) as [[[is cm]|]|] eqn:EL; try discriminate.
  destruct (images_lines O OK a V visit p0 is cm (parse_sizes _ _ _ _ _ _ _ EP) E0 EL) as (f & w & h & c & LD & IL).
  exists f, w, h, c. split; [exact LD|]. cbv zeta in *. rewrite outs_app, warning_outs, E1, IL, X, T. cbn [app].
  unfold saving_line, out_name, a_line. rewrite EO, !sapp_assoc, <- !app_assoc. reflexivity.
Qed.
Print Assumptions C71_verbose.

(** ** Cases *)
Definition help0 (s : string) : string := "usage of " +++ s.
Definition talk (Y : sys) (args : list string) := session O0 asis fl1 enc1 Y 100 nofile nonum 1000 help0 "/bin/cuttlefish" args.

(** Two messages that mislead: a bad number of -M or -C is reported with the option instead of the
    number, and the message about an unknown cube face lacks its line end, so that the next line is
    attached to it.  The tool also does not warn about B5G5R5A1, although it does about R5G5B5A1. *)
Theorem C71_messages_refuted :
  talk Y1 ["-M"; "x"; "m"] =
    Some (1, [Err (a_line "error: invalid mip level -M"); Err (a_line "Run cuttlefish -h for usage.")]) /\
  talk Y1 ["-C"; "x"; "+x"; "m"] =
    Some (1, [Err (a_line "error: invalid index -C"); Err (a_line "Run cuttlefish -h for usage.")]) /\
  talk Y1 ["-c"; "x"; "m"] =
    Some (1, [Err "error: unknown cube face x"; Err (a_line "Run cuttlefish -h for usage.")]) /\
  talk Y1 ["-i"; "a"; "-f"; "r5g5b5a1"; "--srgb"; "-o"; "o.pvr"] =
    Some (0, [Err the_warning; Out (a_line "saving texture 'o.pvr'")]) /\
  talk Y1 ["-i"; "a"; "-f"; "b5g5r5a1"; "--srgb"; "-o"; "o.pvr"] =
    Some (0, [Out (a_line "saving texture 'o.pvr'")]).
Proof. vm_compute. repeat (split; [reflexivity|]). reflexivity. Qed.
Print Assumptions C71_messages_refuted.

Example C71_example_help : talk Y1 ["-i"; "a"; "--help"] = Some (1, [Out "usage of cuttlefish"]).
Proof. vm_compute. reflexivity. Qed.

Example C71_example_unknown : talk Y1 ["--bad"; "-i"; "a"; "--worse"] =
  Some (1, [Err (a_line "error: unknown option: --bad"); Err (a_line "error: unknown option: --worse");
            Err (a_line "Run cuttlefish -h for usage.")]).
Proof. vm_compute. reflexivity. Qed.

Example C71_example_quiet : talk Y1 ["-q"; "-i"; "a"; "-f"; "r5g5b5a1"; "--srgb"; "-o"; "o.pvr"] = Some (0, []) /\
  talk (Y0 100) ["-q"; "-i"; "a"; "-f"; "r8g8b8a8"; "-o"; "o.dds"] =
    Some (3, [Err (a_line "error: couldn't write file 'o.dds'")]).
Proof. vm_compute. split; reflexivity. Qed.

Example C71_example_missing : talk Y1 ["-a"; "0"; "a"; "-a"; "1"; "gone"; "-f"; "r8g8b8a8"; "-o"; "o.dds"] =
  Some (2, [Err (a_line "error: couldn't load image 'gone'")]).
Proof. vm_compute. reflexivity. Qed.

Example C71_example_verbose :
  talk Y1 ["-v"; "-i"; "a"; "-f"; "r8g8b8a8"; "-r"; "16"; "8"; "--rotate"; "90"; "-m"; "-M"; "1"; "m"; "-o"; "o.dds"] =
  Some (0, map (fun s => Out (a_line s))
   ["loading image 'a'"; "converting image 'a' to RGBAF"; "resizing image 'a' to 16 x 8"; "rotating image 'a'";
    "loading image 'm'"; "converting image 'm' to RGBAF"; "rotating image 'm'";
    "generating mipmaps"; "converting texture"; "saving texture 'o.dds'"]).
Proof. vm_compute. reflexivity. Qed.

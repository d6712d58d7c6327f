(** The state of the parser at the end of the arguments in terms of the directives. *)

From Coq Require Import NArith ZArith List Bool String Ascii Lia.
From Coq Require Import ZifyBool ZifyNat ZifyN.
From Verif Require Import Base FormatModel SaveFormats TextureModel SaveModel CommandLineModel CommandLineSpec
  CommandFilesSpec CommandLineProofs CommandLineInv PropsCommandFiles CommandGrammar CommandGrammarCut.
Import ListNotations.
Local Open Scope string_scope.
Local Open Scope list_scope.
Local Open Scope N_scope.
Local Notation length := List.length.

Section Effects.
Variable fl : flags.
Variable file : string -> option string.
Variable isnum : string -> bool.
Variable cap : N.

Fixpoint effects (ds : list directive) (c : cl) : option cl :=
  match ds with
  | [] => Some c
  | d :: r => obind (effect file cap d c) (effects r)
  end.

(** The directives never touch [success]. *)
Lemma put_fields c k v c' : put c k v = Some c' -> exists im, c' = set_images im c.
Proof.
  unfold put. destruct (_ <? _); [|discriminate]. destruct (is_empty _); [|discriminate].
  intros H; injection H as <-. eauto.
Qed.

Lemma kinded_fields k c c' : kinded k c = Some c' -> c' = set_imageType k c.
Proof.
  unfold kinded. destruct (c_images c); [intros H; injection H as <-; reflexivity|].
  destruct (imagetype_eqb (c_imageType c) k) eqn:E; [|discriminate]. intros H; injection H as <-.
  destruct c; cbn in *. destruct c_imageType, k; try discriminate E; reflexivity.
Qed.

(** What a directive does to the fields other than the images and the custom mips. *)
Definition isnone (k : channel) : bool := match k with Ch_None => true | _ => false end.

Definition plain (d : directive) (c : cl) : cl :=
  match d with
  | D_jobs n => set_jobs (match n with Some z => Z.to_N (z mod 2 ^ 32) | None => allOnes end) c
  | D_quiet => set_log Log_Quiet c
  | D_verbose => set_log Log_Verbose c
  | D_input f => c
  | D_array i f => set_imageType IT_Array c
  | D_cube face f => set_imageType IT_Cube c
  | D_cubearray ci face f => set_imageType IT_CubeArray c
  | D_inputlist k f => set_imageType k c
  | D_resize w h flt =>
      set_resizeFilter (match flt with Some f => f | None => c_resizeFilter c end) (set_height h (set_width w c))
  | D_mipmap n flt =>
      set_mipFilter (match flt with Some f => f | None => c_mipFilter c end)
             (set_mipLevels (match n with Some n => to_uint n | None => allOnes end) c)
  | D_custommip _ _ _ _ _ | D_custommiplist _ => c
  | D_flipx => set_flipX true c
  | D_flipy => set_flipY true c
  | D_rotate z => rotated z c
  | D_normalmap w h =>
      set_normalHeight (match h with Some h => Some h | None => c_normalHeight c end)
        (set_normalOptions (match w with Some w => w | None => c_normalOptions c end) (set_normalMap true c))
  | D_grayscale => set_grayscale true c
  | D_swizzle r g b a =>
      let c1 := set_redSwzl r (set_greenSwzl g (set_blueSwzl b (set_alphaSwzl a (set_swizzle true c)))) in
      set_alph (if negb (c_alphaSet c) && negb (c_maskA c && negb (isnone a)) then AlphaNone else c_alph c)
         (set_maskA (c_maskA c && negb (isnone a)) (set_maskB (c_maskB c && negb (isnone b))
            (set_maskG (c_maskG c && negb (isnone g)) (set_maskR (c_maskR c && negb (isnone r)) c1))))
  | D_srgb => set_imageCS CS_sRGB (set_textureCS CS_sRGB c)
  | D_premultiply =>
      set_alph (if negb (c_alphaSet c) && c_maskA c then AlphaPreMultiplied else c_alph c) (set_preMultiply true c)
  | D_dimension d => set_dim d c
  | D_format o =>
      let f := match o with Some f => f | None => c_fmt c end in
      set_ttyp (if special_format f then T_UFloat else c_ttyp c) (set_fmt f c)
  | D_type t => set_ttyp t c
  | D_alpha a => set_alph a (set_alphaSet true c)
  | D_quality q => set_quality q c
  | D_output f => set_output (Some f) c
  | D_fileformat t => set_ftype t c
  | D_createdir => set_createOutputDir true c
  end.

Lemma ttyp_if (b : bool) v c : (if b then set_ttyp v c else c) = set_ttyp (if b then v else c_ttyp c) c.
Proof. destruct b; [reflexivity|destruct c; reflexivity]. Qed.

Lemma effect_plain d c c' : effect file cap d c = Some c' ->
  c' = set_customMips (c_customMips c') (set_images (c_images c') (plain d c)).
Proof.
  assert (R : forall c, c = set_customMips (c_customMips c) (set_images (c_images c) c)) by (intros []; reflexivity).
  destruct d; cbn [effect plain]; intros H;
    try (injection H as <-; apply R).
  - destruct n; injection H as <-; apply R.
  - destruct (c_images c); [|discriminate]. injection H as <-. destruct c; reflexivity.
  - destruct (kinded IT_Array c) as [c1|] eqn:K; [|discriminate]. apply kinded_fields in K. cbn [obind] in H.
    destruct (if _ <=? _ then _ else _); [|discriminate]. cbn [obind] in H. apply put_fields in H.
    destruct H as (im & ->). subst c1. destruct c; reflexivity.
  - destruct (match c_images c with [] => _ | _ => _ end) as [c1|] eqn:K; [|discriminate]. cbn [obind] in H.
    apply put_fields in H. destruct H as (im & ->).
    assert (exists i2, c1 = set_images i2 (set_imageType IT_Cube c)) as (i2 & ->).
    { destruct (c_images c).
      - destruct (resize cap [] 6); [|discriminate]. injection K as <-. eauto.
      - apply kinded_fields in K. exists (c_images c). subst c1. destruct c; reflexivity. }
    destruct c; reflexivity.
  - destruct (kinded IT_CubeArray c) as [c1|] eqn:K; [|discriminate]. apply kinded_fields in K. cbn [obind] in H.
    destruct (if _ <=? _ then _ else _); [|discriminate]. cbn [obind] in H. apply put_fields in H.
    destruct H as (im & ->). subst c1. destruct c; reflexivity.
  - destruct (c_images c); [|discriminate]. destruct (file f); [|discriminate].
    destruct (imageList_loop _ _ _); [|discriminate]. injection H as <-. destruct c; reflexivity.
  - destruct (emplace _ _ _); [|discriminate]. injection H as <-. destruct c; reflexivity.
  - destruct (file f); [|discriminate]. cbn [obind] in H. destruct (customMipList_loop _ _ _) as [[m|]|]; try discriminate.
    injection H as <-. destruct c; reflexivity.
  - injection H as <-. destruct wrap, height, c; reflexivity.
  - injection H as <-. rewrite mask_R, mask_G, mask_B, mask_A, alph_if. destruct c. reflexivity.
  - injection H as <-. rewrite alph_if. destruct c; reflexivity.
  - cbv zeta in H. set (c1 := match f with Some f => set_fmt f c | None => c end) in *.
    assert (E : c' = if special_format (c_fmt c1) then set_ttyp T_UFloat c1 else c1).
    { destruct (c_fmt c1); try discriminate; injection H as <-; reflexivity. }
    rewrite ttyp_if in E. subst c' c1. clear H. destruct f as [f|]; destruct c; reflexivity.
  - destruct (c_output c); [discriminate|]. injection H as <-. apply R.
Qed.

(** A field as a fold over the directives. *)
Lemma effects_field {A} (g : cl -> A) (u : A -> directive -> A) :
  (forall d c c', effect file cap d c = Some c' -> g c' = u (g c) d) ->
  forall ds c c', effects ds c = Some c' -> g c' = fold_left u ds (g c).
Proof.
  intros E. induction ds as [|d ds IH]; intros c c' H; cbn [effects fold_left] in *.
  - injection H as <-. reflexivity.
  - destruct (effect file cap d c) as [c1|] eqn:H1; [|discriminate]. cbn [obind] in H.
    rewrite (IH _ _ H), (E _ _ _ H1). reflexivity.
Qed.

(** For fields that do not involve the images and custom mips it is enough to look at [plain]. *)
Lemma plain_field {A} (g : cl -> A) (u : A -> directive -> A) :
  (forall im m c, g (set_customMips m (set_images im c)) = g c) ->
  (forall d c c', effect file cap d c = Some c' -> g (plain d c) = u (g c) d) ->
  forall ds c c', effects ds c = Some c' -> g c' = fold_left u ds (g c).
Proof.
  intros I P. apply effects_field. intros d c c' H. pose proof (effect_plain _ _ _ H) as E.
  rewrite E, I. eapply P. exact H.
Qed.

Lemma fold_last {A} (sel : directive -> option A) ds : forall v,
  fold_left (fun v d => match sel d with Some x => x | None => v end) ds v = last_of sel v ds.
Proof. reflexivity. Qed.

Lemma fold_orb (p : directive -> bool) ds : forall b, fold_left (fun b d => b || p d) ds b = b || existsb p ds.
Proof.
  induction ds as [|d ds IH]; intros b; cbn [fold_left existsb]; [rewrite orb_false_r; reflexivity|].
  rewrite IH, orb_assoc. reflexivity.
Qed.

Lemma fold_andb (p : directive -> bool) ds : forall b, fold_left (fun b d => b && negb (p d)) ds b = b && negb (existsb p ds).
Proof.
  induction ds as [|d ds IH]; intros b; cbn [fold_left existsb]; [rewrite andb_true_r; reflexivity|].
  rewrite IH, negb_orb, andb_assoc. reflexivity.
Qed.

Ltac plain_case :=
  let d := fresh "d" in let c := fresh "c" in let c' := fresh "c'" in let H := fresh "H" in
  intros d c c' H; clear H c'; destruct d; try reflexivity; cbn;
  repeat match goal with |- context [match ?x with Some _ => _ | None => _ end] => destruct x end;
  try reflexivity; unfold rotated; repeat match goal with |- context [match ?x with _ => _ end] => destruct x end; reflexivity.

Lemma last_of_map {A B} (F : A -> B) (sel : directive -> option A) ds : forall v,
  last_of (fun d => match sel d with Some x => Some (F x) | None => None end) (F v) ds = F (last_of sel v ds).
Proof.
  unfold last_of. induction ds as [|d ds IH]; intros v; [reflexivity|]. cbn [fold_left].
  destruct (sel d); apply IH.
Qed.

Lemma last_of_app {A} (sel : directive -> option A) v ds d :
  last_of sel v (ds ++ [d]) = match sel d with Some x => x | None => last_of sel v ds end.
Proof. unfold last_of. rewrite fold_left_app. reflexivity. Qed.

Lemma last_of_ext {A} (f g : directive -> option A) v ds : (forall d, f d = g d) -> last_of f v ds = last_of g v ds.
Proof.
  intros E. unfold last_of. revert v. induction ds as [|d ds IH]; intros v; [reflexivity|]. cbn [fold_left].
  rewrite E. apply IH.
Qed.

Lemma rotated_turns z c : turns (rotated z c) = Z.rem (Z.quot z 90) 4.
Proof.
  unfold rotated. pose proof (Z.rem_bound_abs (Z.quot z 90) 4) as B.
  set (r := Z.rem (Z.quot z 90) 4) in *. clearbody r.
  assert (r = -3 \/ r = -2 \/ r = -1 \/ r = 0 \/ r = 1 \/ r = 2 \/ r = 3)%Z as R by lia.
  destruct R as [-> |[-> |[-> |[-> |[-> |[-> | ->]]]]]]; reflexivity.
Qed.

Definition quad (c : cl) : bool * bool * bool * alpha := (c_alphaSet c, c_maskA c, c_preMultiply c, c_alph c).

Definition quad_step (q : bool * bool * bool * alpha) (d : directive) : bool * bool * bool * alpha :=
  let '(s, m, p, a) := q in
  match d with
  | D_alpha v => (true, m, p, v)
  | D_swizzle _ _ _ k => let m' := m && negb (isnone k) in
                         (s, m', p, if negb s && negb m' then AlphaNone else a)
  | D_premultiply => (s, m, true, if negb s && m then AlphaPreMultiplied else a)
  | _ => q
  end.

Lemma quad_fold ds : fold_left quad_step ds (quad cl0) =
  (existsb is_alpha ds, negb (existsb (drops ch_a) ds), existsb is_premultiply ds,
   if existsb is_alpha ds then last_of (fun d => match d with D_alpha a => Some a | _ => None end) AlphaStandard ds
   else if existsb (drops ch_a) ds then AlphaNone
   else if existsb is_premultiply ds then AlphaPreMultiplied
   else AlphaStandard).
Proof.
  induction ds as [|d ds IH] using rev_ind; [reflexivity|].
  rewrite fold_left_app, IH, !existsb_app, last_of_app. cbn [fold_left existsb].
  destruct d; cbn [quad_step is_alpha is_premultiply drops]; rewrite ?orb_false_r; try reflexivity.
  - destruct a; cbn [isnone ch_a]; destruct (existsb is_alpha ds), (existsb (drops ch_a) ds); cbn; reflexivity.
  - destruct (existsb is_alpha ds), (existsb (drops ch_a) ds); cbn; rewrite ?orb_true_r; reflexivity.
  - cbn [orb]. rewrite orb_true_r. reflexivity.
Qed.

Definition outputs (ds : list directive) : list string :=
  flat_map (fun d => match d with D_output f => [f] | _ => [] end) ds.
Definition opt_list {A} (o : option A) : list A := match o with Some x => [x] | None => [] end.

Lemma eff_output ds : forall c c', effects ds c = Some c' ->
  opt_list (c_output c') = opt_list (c_output c) ++ outputs ds.
Proof.
  induction ds as [|d ds IH]; intros c c' H; cbn [effects] in H.
  - injection H as <-. cbn. rewrite app_nil_r. reflexivity.
  - destruct (effect file cap d c) as [c1|] eqn:H1; [|discriminate]. cbn [obind] in H.
    rewrite (IH _ _ H). unfold outputs. cbn [flat_map]. rewrite app_assoc. f_equal.
    pose proof (effect_plain _ _ _ H1) as E. rewrite E.
    destruct d; cbn [plain]; rewrite ?app_nil_r; try reflexivity.
    + unfold rotated. destruct (Z.rem (Z.quot degrees 90) 4) as [|p|p]; try reflexivity; destruct p as [[]|[]|]; reflexivity.
    + cbn [effect] in H1. destruct (c_output c); [discriminate|]. reflexivity.
Qed.

Lemma eff_success ds : forall c c', effects ds c = Some c' -> c_success c' = c_success c.
Proof.
  intros c c' H. rewrite (plain_field c_success (fun v d => v) (fun _ _ _ => eq_refl)) with (2 := H).
  - induction ds; auto.
    cbn [fold_left]. clear -ds. induction ds; auto.
  - plain_case.
Qed.

Ltac fold_field g H := refine (plain_field g _ (fun _ _ _ => eq_refl) _ _ _ _ H); plain_case.

(** The state before the validation. *)
Record state (ds : list directive) (c : cl) : Prop := {
  s_jobs : c_jobs c = last_of (fun d => match d with
      | D_jobs None => Some allOnes | D_jobs (Some n) => Some (Z.to_N (n mod 2 ^ 32)) | _ => None end) 1 ds;
  s_log : c_log c = last_of (fun d => match d with
      | D_quiet => Some Log_Quiet | D_verbose => Some Log_Verbose | _ => None end) Log_Normal ds;
  s_kind : c_imageType c = kind_of ds;
  s_width : c_width c = last_of (fun d => match d with D_resize w _ _ => Some w | _ => None end) (-1)%Z ds;
  s_height : c_height c = last_of (fun d => match d with D_resize _ h _ => Some h | _ => None end) (-1)%Z ds;
  s_resizeFilter : c_resizeFilter c =
    last_of (fun d => match d with D_resize _ _ f => f | _ => None end) RF_CatmullRom ds;
  s_mipLevels : c_mipLevels c = last_of (fun d => match d with
      | D_mipmap None _ => Some allOnes | D_mipmap (Some n) _ => Some (n mod 2 ^ 32) | _ => None end) 1 ds;
  s_mipFilter : c_mipFilter c =
    last_of (fun d => match d with D_mipmap _ f => f | _ => None end) RF_CatmullRom ds;
  s_flipX : c_flipX c = existsb is_flipx ds;
  s_flipY : c_flipY c = existsb is_flipy ds;
  s_turns : turns c = Z.rem (Z.quot (last_of (fun d => match d with D_rotate z => Some z | _ => None end) 0%Z ds) 90) 4;
  s_normalMap : c_normalMap c = existsb is_normalmap ds;
  s_normalOptions : c_normalOptions c =
    last_of (fun d => match d with D_normalmap w _ => w | _ => None end) 0 ds;
  s_normalHeight : c_normalHeight c =
    last_of (fun d => match d with D_normalmap _ (Some h) => Some (Some h) | _ => None end) None ds;
  s_grayscale : c_grayscale c = existsb is_grayscale ds;
  s_swizzle : c_swizzle c = existsb is_swizzle ds;
  s_redSwzl : c_redSwzl c = last_of (chan ch_r) Ch_Red ds;
  s_greenSwzl : c_greenSwzl c = last_of (chan ch_g) Ch_Green ds;
  s_blueSwzl : c_blueSwzl c = last_of (chan ch_b) Ch_Blue ds;
  s_alphaSwzl : c_alphaSwzl c = last_of (chan ch_a) Ch_Alpha ds;
  s_maskR : c_maskR c = negb (existsb (drops ch_r) ds);
  s_maskG : c_maskG c = negb (existsb (drops ch_g) ds);
  s_maskB : c_maskB c = negb (existsb (drops ch_b) ds);
  s_quad : quad c = fold_left quad_step ds (quad cl0);
  s_imageCS : c_imageCS c = (if existsb is_srgb ds then CS_sRGB else CS_Linear);
  s_textureCS : c_textureCS c = (if existsb is_srgb ds then CS_sRGB else CS_Linear);
  s_dim : c_dim c = last_of (fun d => match d with D_dimension v => Some v | _ => None end) Dim2D ds;
  s_format : (c_fmt c, c_ttyp c) = format_type ds;
  s_quality : c_quality c = last_of (fun d => match d with D_quality q => Some q | _ => None end) Q_Normal ds;
  s_output : opt_list (c_output c) = outputs ds;
  s_ftype : c_ftype c = last_of (fun d => match d with D_fileformat t => Some t | _ => None end) FT_Auto ds;
  s_createOutputDir : c_createOutputDir c = existsb is_createdir ds }.

Lemma cs_last ds : (if existsb is_srgb ds then CS_sRGB else CS_Linear) =
  last_of (fun d => match d with D_srgb => Some CS_sRGB | _ => None end) CS_Linear ds.
Proof.
  induction ds as [|d ds IH] using rev_ind; [reflexivity|].
  rewrite existsb_app, last_of_app, <- IH. cbn [existsb].
  destruct d; cbn [is_srgb]; rewrite ?orb_false_r; try reflexivity. rewrite orb_true_r. reflexivity.
Qed.

Lemma has_fold (p : directive -> bool) ds b : b = fold_left (fun b d => b || p d) ds false -> b = existsb p ds.
Proof. intros ->. rewrite fold_orb. reflexivity. Qed.

Lemma all_fold (p : directive -> bool) ds b : b = fold_left (fun b d => b && negb (p d)) ds true -> b = negb (existsb p ds).
Proof. intros ->. rewrite fold_andb. reflexivity. Qed.

Ltac bool_case :=
  let d := fresh "d" in let c := fresh "c" in let c' := fresh "c'" in let H := fresh "H" in
  intros d c c' H; clear H c'; destruct d; cbn; rewrite ?orb_false_r, ?orb_true_r, ?andb_true_r; try reflexivity;
  unfold rotated; repeat match goal with |- context [match ?x with _ => _ end] => destruct x end; reflexivity.

Ltac has_field g H := apply has_fold; refine (plain_field g _ (fun _ _ _ => eq_refl) _ _ _ _ H); bool_case.
Ltac all_field g H := apply all_fold; refine (plain_field g _ (fun _ _ _ => eq_refl) _ _ _ _ H); bool_case.

Lemma eff_state ds c : effects ds cl0 = Some c -> state ds c.
Proof.
  intros H. constructor.
  - fold_field c_jobs H.
  - fold_field c_log H.
  - fold_field c_imageType H.
  - fold_field c_width H.
  - fold_field c_height H.
  - fold_field c_resizeFilter H.
  - fold_field c_mipLevels H.
  - fold_field c_mipFilter H.
  - has_field c_flipX H.
  - has_field c_flipY H.
  - rewrite <- (last_of_map (fun z => Z.rem (Z.quot z 90) 4)).
    refine (plain_field turns _ (fun _ _ _ => eq_refl) _ _ _ _ H).
    intros d c0 c' _. destruct d; try reflexivity. apply rotated_turns.
  - has_field c_normalMap H.
  - fold_field c_normalOptions H.
  - fold_field c_normalHeight H.
  - has_field c_grayscale H.
  - has_field c_swizzle H.
  - fold_field c_redSwzl H.
  - fold_field c_greenSwzl H.
  - fold_field c_blueSwzl H.
  - fold_field c_alphaSwzl H.
  - all_field c_maskR H.
  - all_field c_maskG H.
  - all_field c_maskB H.
  - refine (plain_field quad _ (fun _ _ _ => eq_refl) _ _ _ _ H).
    intros d c0 c' _. destruct d; try reflexivity.
    cbn [plain]. unfold rotated. destruct (Z.rem (Z.quot degrees 90) 4) as [|p|p]; try reflexivity; destruct p as [[]|[]|]; reflexivity.
  - rewrite cs_last. fold_field c_imageCS H.
  - rewrite cs_last. fold_field c_textureCS H.
  - fold_field c_dim H.
  - unfold format_type. refine (plain_field (fun c => (c_fmt c, c_ttyp c)) _ (fun _ _ _ => eq_refl) _ _ _ _ H).
    intros d c0 c' _. destruct d; try reflexivity.
    cbn [plain]. unfold rotated. destruct (Z.rem (Z.quot degrees 90) 4) as [|p|p]; try reflexivity; destruct p as [[]|[]|]; reflexivity.
  - fold_field c_quality H.
  - apply (eff_output _ _ _ H).
  - fold_field c_ftype H.
  - has_field c_createOutputDir H.
Qed.

(** * Arguments and directives *)

Lemma effect_success d c c' : effect file cap d c = Some c' -> c_success c' = c_success c.
Proof. intros H. apply (eff_success [d]). cbn [effects]. rewrite H. reflexivity. Qed.

Lemma loop_failed fuel : forall c args c', loop fl file isnum cap fuel c args = inl c' ->
  c_success c = false -> c_success c' = false.
Proof.
  induction fuel as [|fuel IH]; intros c args c' H F; [discriminate|]. cbn [loop] in H.
  destruct args as [|h tl]; [injection H as <-; exact F|].
  destruct (step fl file isnum cap c h tl) as [c1 rest| | |] eqn:E; try discriminate.
  apply (IH _ _ _ H). destruct (classify h) as [o|] eqn:C.
  - pose proof (step_went fl isnum file cap c h tl o C) as W. rewrite E in W. cbn [went] in W.
    destruct (cut fl isnum o tl) as [[d r]|]; [|discriminate]. cbn [obind fst snd] in W.
    destruct (effect file cap d c) as [c2|] eqn:X; [|discriminate]. injection W as <- <-.
    rewrite (effect_success _ _ _ X). exact F.
  - unfold step in E. rewrite C in E. injection E as <- <-. reflexivity.
Qed.

Lemma loop_effects fuel : forall c args c', loop fl file isnum cap fuel c args = inl c' ->
  c_success c' = true -> exists ds, spelled fl isnum args ds /\ effects ds c = Some c'.
Proof.
  induction fuel as [|fuel IH]; intros c args c' H F; [discriminate|]. cbn [loop] in H.
  destruct args as [|h tl]; [injection H as <-; exists []; split; [constructor|reflexivity]|].
  destruct (step fl file isnum cap c h tl) as [c1 rest| | |] eqn:E; try discriminate.
  destruct (classify h) as [o|] eqn:C.
  - pose proof (step_went fl isnum file cap c h tl o C) as W. rewrite E in W. cbn [went] in W.
    destruct (cut fl isnum o tl) as [[d r]|] eqn:K; [|discriminate]. cbn [obind fst snd] in W.
    destruct (effect file cap d c) as [c2|] eqn:X; [|discriminate]. injection W as -> ->.
    destruct (IH _ _ _ H F) as (ds & S & R). apply cut_sound in K. destruct K as (ops & -> & O).
    exists (d :: ds). split.
    + econstructor; [apply words_classify; exact C|exact O|exact S].
    + cbn [effects]. rewrite X. exact R.
  - unfold step in E. rewrite C in E. injection E as <- <-. apply loop_failed in H; [congruence|reflexivity].
Qed.

Lemma effects_loop args ds : spelled fl isnum args ds -> forall fuel c c', effects ds c = Some c' ->
  (length args < fuel)%nat -> loop fl file isnum cap fuel c args = inl c'.
Proof.
  intros S. induction S as [|o h ops rest d ds W O S IH]; intros fuel c c' H L; (destruct fuel as [|fuel]; [lia|]).
  - injection H as <-. reflexivity.
  - cbn [loop effects] in *. destruct (effect file cap d c) as [c1|] eqn:X; [|discriminate]. cbn [obind] in H.
    apply words_classify in W. pose proof (step_went fl isnum file cap c h (ops ++ rest) o W) as Q.
    rewrite (cut_complete _ _ _ _ _ _ O) in Q. cbn [obind fst snd] in Q. rewrite X in Q. cbn [obind] in Q.
    destruct (step fl file isnum cap c h (ops ++ rest)); try discriminate. injection Q as -> ->.
    apply IH; [exact H|]. cbn [length] in L. rewrite app_length in L. lia.
Qed.

(** * Images *)

Definition filled (p : N * string) : bool := negb (is_empty (snd p)).
Definition uniq (P : list (N * string)) : Prop := NoDup (map fst (filter filled P)).
Definition holds (im : list string) (P : list (N * string)) : Prop :=
  forall k s, s <> "" -> (nth_error im (N.to_nat k) = Some s <-> In (k, s) P).

Lemma is_empty_iff s : is_empty s = true <-> s = "".
Proof. destruct s; cbn; split; congruence. Qed.

Lemma nodup_snoc {A} (l : list A) x : NoDup l -> ~ In x l -> NoDup (l ++ [x]).
Proof.
  intros N I. induction N as [|y l Y N IH]; cbn; [constructor; [auto|constructor]|].
  constructor.
  - intros H. apply in_app_or in H. destruct H as [H|[H|[]]]; [auto|]. subst. apply I. left; reflexivity.
  - apply IH. intros H. apply I. right; exact H.
Qed.

Lemma holds_put im P k v : holds im P -> uniq P -> k < N.of_nat (length im) -> nth (N.to_nat k) im "" = "" ->
  holds (upd (N.to_nat k) v im) (P ++ [(k, v)]) /\ uniq (P ++ [(k, v)]).
Proof.
  intros H U L E.
  assert (NI : forall s, s <> "" -> ~ In (k, s) P).
  { intros s NE I. apply H in I; [|exact NE]. apply (nth_error_nth _ _ "") in I. congruence. }
  split.
  - intros j s NE. rewrite in_app_iff. cbn [In]. destruct (N.eq_dec j k) as [->|D].
    + rewrite nth_error_upd_same by lia. split.
      * intros Q. injection Q as ->. right; left; reflexivity.
      * intros [I|[I|[]]]; [exfalso; exact (NI s NE I)|]. injection I as ->. reflexivity.
    + rewrite nth_error_upd_other by lia. rewrite (H j s NE). split; [auto|].
      intros [I|[I|[]]]; [exact I|]. injection I as -> ->. congruence.
  - unfold uniq in *. rewrite filter_app, map_app. cbn [filter]. unfold filled at 2. cbn [snd].
    destruct (is_empty v) eqn:V; cbn [negb map fst]; [rewrite app_nil_r; exact U|].
    apply nodup_snoc; [exact U|]. intros I. apply in_map_iff in I. destruct I as ((j & s) & Ej & I). cbn [fst] in Ej. subst j.
    apply filter_In in I. destruct I as [I F]. unfold filled in F. cbn [snd] in F.
    apply (NI s); [|exact I]. intros ->. discriminate.
Qed.

Lemma holds_pad im P n : holds im P -> holds (im ++ repeat "" n) P.
Proof.
  intros H k s NE. rewrite <- (H k s NE). destruct (Nat.lt_ge_cases (N.to_nat k) (length im)) as [L|L].
  - rewrite nth_error_app1 by lia. reflexivity.
  - rewrite nth_error_app2 by lia. rewrite (proj2 (nth_error_None im (N.to_nat k))) by lia.
    split; [|discriminate]. intros Q. apply nth_error_In in Q. apply repeat_spec in Q. congruence.
Qed.

Lemma holds_nil P : holds [] P -> forall k s, In (k, s) P -> s = "".
Proof.
  intros H k s I. destruct (string_dec s "") as [|NE]; [assumption|]. apply H in I; [|exact NE].
  destruct (N.to_nat k); discriminate.
Qed.

Lemma uniq_nil P Q : (forall k s, In (k, s) P -> s = "") -> uniq Q -> uniq (P ++ Q).
Proof.
  intros E U. unfold uniq. rewrite filter_app.
  assert (F : filter filled P = []).
  { induction P as [|[k s] P IH]; [reflexivity|]. cbn [filter]. unfold filled at 1. cbn [snd].
    rewrite (E k s (or_introl eq_refl)). cbn. apply IH. intros j t I. apply (E j t). right; exact I. }
  rewrite F. exact U.
Qed.

Lemma number_from_in l : forall k j s, In (j, s) (number_from k l) <-> k <= j /\ nth_error l (N.to_nat (j - k)) = Some s.
Proof.
  induction l as [|x l IH]; intros k j s; cbn [number_from In].
  - split; [tauto|]. intros [_ Q]. destruct (N.to_nat (j - k)); discriminate.
  - rewrite IH. destruct (N.eq_dec j k) as [->|D].
    + replace (N.to_nat (k - k)) with O by lia. cbn [nth_error]. split.
      * intros [Q|[Q _]]; [injection Q as ->; split; [lia|reflexivity]|lia].
      * intros [_ Q]. injection Q as ->. left; reflexivity.
    + split.
      * intros [Q|[Q1 Q2]]; [injection Q as -> ->; congruence|]. split; [lia|].
        replace (N.to_nat (j - k)) with (S (N.to_nat (j - (k + 1)))) by lia. exact Q2.
      * intros [Q1 Q2]. right. split; [lia|].
        replace (N.to_nat (j - k)) with (S (N.to_nat (j - (k + 1)))) in Q2 by lia. exact Q2.
Qed.

Lemma number_from_uniq l : forall k, NoDup (map fst (filter filled (number_from k l))) /\
  forall j, In j (map fst (filter filled (number_from k l))) -> k <= j.
Proof.
  induction l as [|x l IH]; intros k; cbn [number_from filter]; [split; [constructor|intros j []]|].
  destruct (IH (k + 1)) as [U B]. destruct (filled (k, x)); cbn [map fst].
  - split.
    + constructor; [|exact U]. intros I. apply B in I. lia.
    + intros j [<-|I]; [lia|]. apply B in I. lia.
  - split; [exact U|]. intros j I. apply B in I. lia.
Qed.

Definition fits (d : directive) : Prop := match d with D_cubearray i face _ => i < 2 ^ 61 /\ face < 6 | _ => True end.

Lemma put_spec c k v c' : put c k v = Some c' -> k < N.of_nat (length (c_images c)) /\
  nth (N.to_nat k) (c_images c) "" = "" /\ c_images c' = upd (N.to_nat k) v (c_images c).
Proof.
  unfold put. destruct (N.ltb_spec k (N.of_nat (length (c_images c)))); [|discriminate].
  destruct (is_empty _) eqn:E; [|discriminate]. intros Q; injection Q as <-.
  split; [assumption|]. split; [apply is_empty_iff; exact E|reflexivity].
Qed.

Lemma kinded_images k c c' : kinded k c = Some c' -> c_images c' = c_images c.
Proof. intros H. apply kinded_fields in H. subst. reflexivity. Qed.

(** The images and the number of places after one directive. *)
Definition next_of (next : N) (d : directive) : N :=
  match d with
  | D_input f => 1
  | D_array i f => N.max next (match i with Some i => i | None => next end + 1)
  | D_cube face f => if next =? 0 then 6 else next
  | D_cubearray i face f => if next <=? 6 * i then 6 * i + 6 else next
  | D_inputlist _ f => N.of_nat (length (list_lines file f))
  | _ => next
  end.

Lemma placed_cons next d r : placed file next (d :: r) = placed file next [d] ++ placed file (next_of next d) r.
Proof. destruct d; try reflexivity. cbn [placed next_of]. rewrite app_nil_r. reflexivity. Qed.

Lemma images_same d c c' : effect file cap d c = Some c' ->
  match d with D_input _ | D_array _ _ | D_cube _ _ | D_cubearray _ _ _ | D_inputlist _ _ => False | _ => True end ->
  c_images c' = c_images c.
Proof.
  destruct d; cbn [effect]; intros H F; try contradiction F; try (injection H as <-; reflexivity).
  - destruct n; injection H as <-; reflexivity.
  - destruct (emplace _ _ _); [|discriminate]. injection H as <-. reflexivity.
  - destruct (file f); [|discriminate]. cbn [obind] in H. destruct (customMipList_loop _ _ _) as [[m|]|]; try discriminate.
    injection H as <-. reflexivity.
  - injection H as <-. unfold rotated. destruct (Z.rem (Z.quot degrees 90) 4) as [|p|p]; try reflexivity; destruct p as [[]|[]|]; reflexivity.
  - injection H as <-. destruct wrap, height; reflexivity.
  - injection H as <-. rewrite mask_R, mask_G, mask_B, mask_A, alph_if. reflexivity.
  - injection H as <-. rewrite alph_if. reflexivity.
  - cbv zeta in H. destruct f as [f|]; destruct (c_fmt _); try discriminate; injection H as <-; cbn [special_format]; reflexivity.
  - destruct (c_output c); [discriminate|]. injection H as <-. reflexivity.
Qed.

Lemma effect_images d c c' P next : effect file cap d c = Some c' -> fits d ->
  holds (c_images c) P -> uniq P -> N.of_nat (length (c_images c)) = next ->
  let P' := P ++ placed file next [d] in
  holds (c_images c') P' /\ uniq P' /\ N.of_nat (length (c_images c')) = next_of next d.
Proof.
  intros H F Ho U L. cbv zeta.
  assert (Same : match d with D_input _ | D_array _ _ | D_cube _ _ | D_cubearray _ _ _ | D_inputlist _ _ => False | _ => True end ->
    holds (c_images c') (P ++ placed file next [d]) /\ uniq (P ++ placed file next [d]) /\ N.of_nat (length (c_images c')) = next_of next d).
  { intros Q. rewrite (images_same _ _ _ H Q).
    assert (placed file next [d] = [] /\ next_of next d = next) as [-> ->] by (destruct d; try contradiction Q; split; reflexivity).
    rewrite app_nil_r. auto. }
  destruct d; try (apply Same; exact Logic.I); clear Same; cbn [effect placed next_of] in *.
  - (* input *)
    destruct (c_images c) eqn:E; [|discriminate]. injection H as <-. cbn [c_images set_images].
    pose proof (holds_nil _ Ho) as Z. split; [|split].
    + intros k s NE. rewrite in_app_iff. cbn [In]. split.
      * intros Q. right. left. destruct (N.to_nat k) as [|n] eqn:K; [|destruct n; discriminate].
        injection Q as ->. f_equal. lia.
      * intros [I|[I|[]]]; [exfalso; apply NE; eapply Z; exact I|]. injection I as <- <-. reflexivity.
    + apply uniq_nil; [exact Z|]. unfold uniq. cbn [filter]. destruct (filled (0, f)); cbn; constructor; auto; constructor.
    + reflexivity.
  - (* array *)
    destruct (kinded IT_Array c) as [c1|] eqn:K; [|discriminate]. apply kinded_images in K. cbn [obind] in H. cbv zeta in H.
    rewrite K, L in H. set (k := match i with Some i => i | None => next end) in *.
    destruct (if next <=? k then resize cap (c_images c) (u64 (k + 1)) else Some (c_images c)) as [im|] eqn:R; [|discriminate].
    cbn [obind] in H. apply put_spec in H. change (c_images (set_images im c1)) with im in H. destruct H as (B & E & ->).
    assert (Im : exists n, im = c_images c ++ repeat "" n /\ N.of_nat (length im) = N.max next (k + 1)).
    { destruct (N.leb_spec next k) as [Q|Q].
      - unfold resize in R. rewrite L in R. unfold u64 in R. destruct (N.leb_spec ((k + 1) mod 2 ^ 64) next) as [T|T].
        + injection R as <-. rewrite firstn_length in B. exfalso. lia.
        + destruct (_ <=? cap); [|discriminate]. injection R as <-. eexists. split; [reflexivity|].
          rewrite app_length, repeat_length in *. pose proof (N.mod_le (k + 1) (2 ^ 64)). lia.
      - injection R as <-. exists O. rewrite app_nil_r. split; [reflexivity|]. lia. }
    destruct Im as (n & Ei & Li). destruct (holds_put im P k f) as [A1 A2]; auto.
    { rewrite Ei. apply holds_pad. exact Ho. }
    rewrite upd_length. auto.
  - (* cube *)
    destruct (match c_images c with [] => _ | _ => _ end) as [c1|] eqn:K; [|discriminate]. cbn [obind] in H.
    apply put_spec in H. destruct H as (B & E & ->). rewrite upd_length.
    assert (Im : exists n, c_images c1 = c_images c ++ repeat "" n /\ N.of_nat (length (c_images c1)) = if next =? 0 then 6 else next).
    { destruct (c_images c) as [|x l] eqn:X.
      - destruct (resize cap [] 6) as [im|] eqn:R; [|discriminate]. injection K as <-. unfold resize in R. cbn [length] in R.
        cbn in R. destruct (6 <=? cap); [|discriminate]. injection R as <-. exists 6%nat. subst next. split; reflexivity.
      - apply kinded_images in K. rewrite K, X. exists O. rewrite app_nil_r. split; [reflexivity|]. cbn [length] in L.
        destruct (N.eqb_spec next 0); [lia|]. exact L. }
    destruct Im as (n & Ei & Li). destruct (holds_put (c_images c1) P face f) as [A1 A2]; auto.
    rewrite Ei. apply holds_pad. exact Ho.
  - (* cube array *)
    destruct (kinded IT_CubeArray c) as [c1|] eqn:K; [|discriminate]. apply kinded_images in K. cbn [obind] in H. cbv zeta in H.
    destruct F as [F1 F2].
    assert (U1 : u64 (i * 6) = 6 * i) by (unfold u64; rewrite N.mod_small; lia).
    assert (U2 : u64 (u64 (i + 1) * 6) = 6 * i + 6) by (unfold u64; rewrite (N.mod_small (i + 1)) by lia; rewrite N.mod_small; lia).
    assert (U3 : u64 (6 * i + face) = 6 * i + face) by (unfold u64; rewrite N.mod_small; lia).
    rewrite K, L, U2, U1, U3 in H.
    destruct (if next <=? 6 * i then resize cap (c_images c) (6 * i + 6) else Some (c_images c)) as [im|] eqn:R; [|discriminate].
    cbn [obind] in H. apply put_spec in H. change (c_images (set_images im c1)) with im in H. destruct H as (B & E & ->).
    assert (Im : exists n, im = c_images c ++ repeat "" n /\ N.of_nat (length im) = if next <=? 6 * i then 6 * i + 6 else next).
    { destruct (N.leb_spec next (6 * i)) as [Q|Q].
      - unfold resize in R. rewrite L in R. destruct (N.leb_spec (6 * i + 6) next) as [T|T]; [lia|].
        destruct (_ <=? cap); [|discriminate].
        apply (f_equal (fun o => match o with Some x => x | None => im end)) in R. cbv beta iota in R. rewrite <- R.
        eexists. split; [reflexivity|]. rewrite app_length, repeat_length. lia.
      - injection R as <-. exists O. rewrite app_nil_r. split; [reflexivity|]. exact L. }
    destruct Im as (n & Ei & Li). destruct (holds_put im P (6 * i + face) f) as [A1 A2]; auto.
    { rewrite Ei. apply holds_pad. exact Ho. }
    rewrite upd_length. auto.
  - (* list *)
    destruct (c_images c) eqn:E; [|discriminate]. unfold list_lines. destruct (file f) as [content|]; [|discriminate].
    rewrite imageList_lines in H by (unfold weight; cbn [s_rest s_good]; lia). cbn [obind] in H. injection H as <-.
    cbn [c_images set_images s_good s_rest app]. rewrite app_nil_r.
    pose proof (holds_nil _ Ho) as Z. split; [|split].
    + intros k s NE. rewrite in_app_iff, number_from_in. rewrite N.sub_0_r. split.
      * intros Q. right. split; [lia|exact Q].
      * intros [I|[_ Q]]; [exfalso; apply NE; eapply Z; exact I|exact Q].
    + apply uniq_nil; [exact Z|]. apply number_from_uniq.
    + reflexivity.
Qed.

Lemma effects_images ds : forall c c' P next, effects ds c = Some c' -> Forall fits ds ->
  holds (c_images c) P -> uniq P -> N.of_nat (length (c_images c)) = next ->
  holds (c_images c') (P ++ placed file next ds) /\ uniq (P ++ placed file next ds).
Proof.
  induction ds as [|d ds IH]; intros c c' P next H F Ho U L.
  - injection H as <-. cbn [placed]. rewrite app_nil_r. auto.
  - cbn [effects] in H. destruct (effect file cap d c) as [c1|] eqn:X; [|discriminate]. cbn [obind] in H.
    inversion F as [|? ? F1 F2]; subst. destruct (effect_images _ _ _ P _ X F1 Ho U eq_refl) as (A & B & C).
    rewrite placed_cons, app_assoc. eapply IH; eauto.
Qed.

(** * Custom mips *)

Lemma list_append fuel : forall st m m', customMipList_loop fuel st m = Some (Some m') -> exists es, m' = m ++ es.
Proof.
  induction fuel as [|fuel IH]; intros st m m' H; [discriminate|]. cbn [customMipList_loop] in H.
  destruct (s_good st); [|injection H as <-; exists []; rewrite app_nil_r; reflexivity].
  destruct (readNextToken _ _ _ _ _ _ _) as [[[cur delim] st1]|]; [|discriminate]. cbn [obind] in H.
  destruct (is_empty cur); [eapply IH; exact H|].
  destruct (customMip_line (S fuel) cur delim st1 m) as [[[st2 m2]|]|] eqn:L; try discriminate. cbn [obind] in H.
  assert (exists e, m2 = m ++ [e]) as (e & ->).
  { revert L. unfold customMip_line. destruct (strtoul cur) as [level e]. destruct (negb e); [discriminate|].
    destruct (readNextToken _ _ _ _ _ _ _) as [[[? ?] ?]|]; [|discriminate]. cbn [obind].
    destruct (strtoul _) as [value ee].
    destruct (if ee then _ else _) as [[[[depth cur1] delim1] st3]|]; [|discriminate]. cbn [obind].
    destruct (match strToCubeFace cur1 with Some _ => _ | None => _ end) as [[[[face cur2] delim2] st4]|]; [|discriminate]. cbn [obind].
    destruct (match strToMipReplace cur2 with Some _ => _ | None => _ end) as [[[[rp cur3] delim3] st5]|]; [|discriminate]. cbn [obind].
    destruct (readNextToken _ _ _ _ _ _ _) as [[[cur4 ?] st6]|]; [|discriminate]. cbn [obind].
    destruct (is_empty cur4); [discriminate|]. unfold emplace. destruct (existsb _ m); [discriminate|].
    intros Q; injection Q as _ <-. eauto. }
  apply IH in H. destruct H as (es & ->). exists (e :: es). rewrite <- app_assoc. reflexivity.
Qed.

Lemma written_list l : forall fuel m m', Forall entry_ok l ->
  customMipList_loop fuel (Stream (String.concat "" (map mip_line l)) true) m = Some (Some m') -> m' = m ++ l.
Proof.
  induction l as [|e l IH]; intros fuel m m' F H.
  - destruct fuel as [|[|fuel]]; [discriminate|discriminate|]. cbn in H. injection H as <-. rewrite app_nil_r. reflexivity.
  - inversion F as [|? ? F1 F2]; subst. destruct fuel as [|fuel]; [discriminate|].
    assert (C : String.concat "" (map mip_line (e :: l)) = String.append (mip_line e) (String.concat "" (map mip_line l))).
    { cbn [map String.concat]. destruct (map mip_line l); [cbn; rewrite sapp_nil; reflexivity|reflexivity]. }
    rewrite C, line_read_any in H by auto. unfold emplace in H. destruct (existsb _ m); [discriminate|].
    apply IH in H; [|exact F2]. rewrite H, <- app_assoc. destruct e; reflexivity.
Qed.

Lemma effect_mips d c c' : effect file cap d c = Some c' ->
  exists es, entries file d es /\ c_customMips c' = c_customMips c ++ es.
Proof.
  intros H.
  assert (Same : c_customMips c' = c_customMips c -> entries file d [] -> exists es, entries file d es /\ c_customMips c' = c_customMips c ++ es).
  { intros E N. exists []. rewrite app_nil_r. auto. }
  destruct d; cbn [effect] in H.
  4,5,6,7,8,11,12,15,16,18,20,22,26: idtac.
  all: try (injection H as <-; apply Same; reflexivity).
  - destruct n; injection H as <-; apply Same; reflexivity.
  - destruct (c_images c); [|discriminate]. injection H as <-. apply Same; reflexivity.
  - destruct (kinded IT_Array c) as [c1|] eqn:K; [|discriminate]. apply kinded_fields in K. cbn [obind] in H.
    destruct (if _ <=? _ then _ else _); [|discriminate]. cbn [obind] in H. apply put_fields in H.
    destruct H as (im & ->). subst c1. apply Same; reflexivity.
  - destruct (match c_images c with [] => _ | _ => _ end) as [c1|] eqn:K; [|discriminate]. cbn [obind] in H.
    apply put_fields in H. destruct H as (im & ->). apply Same; [|reflexivity].
    destruct (c_images c).
    + destruct (resize cap [] 6); [|discriminate]. injection K as <-. reflexivity.
    + apply kinded_fields in K. subst c1. reflexivity.
  - destruct (kinded IT_CubeArray c) as [c1|] eqn:K; [|discriminate]. apply kinded_fields in K. cbn [obind] in H.
    destruct (if _ <=? _ then _ else _); [|discriminate]. cbn [obind] in H. apply put_fields in H.
    destruct H as (im & ->). subst c1. apply Same; reflexivity.
  - destruct (c_images c); [|discriminate]. destruct (file f); [|discriminate].
    destruct (imageList_loop _ _ _); [|discriminate]. injection H as <-. apply Same; reflexivity.
  - unfold emplace in H. destruct (existsb _ _); [discriminate|]. injection H as <-. eexists. split; [|reflexivity].
    cbn [entries]. unfold to_uint. destruct depth; reflexivity.
  - destruct (file f) as [content|] eqn:E; [|discriminate]. cbn [obind] in H.
    destruct (customMipList_loop _ _ _) as [[m|]|] eqn:L; try discriminate. injection H as <-.
    destruct (list_append _ _ _ _ L) as (es & ->). exists es. split; [|reflexivity]. cbn [entries].
    exists content. split; [exact E|]. intros l -> F. apply written_list in L; [|exact F]. apply app_inv_head in L. exact L.
  - injection H as <-. apply Same; [|reflexivity]. unfold rotated.
    destruct (Z.rem (Z.quot degrees 90) 4) as [|p|p]; try reflexivity; destruct p as [[]|[]|]; reflexivity.
  - injection H as <-. apply Same; [|reflexivity]. destruct wrap, height; reflexivity.
  - injection H as <-. apply Same; [|reflexivity]. rewrite mask_R, mask_G, mask_B, mask_A, alph_if. reflexivity.
  - injection H as <-. apply Same; [|reflexivity]. rewrite alph_if. reflexivity.
  - cbv zeta in H. apply Same; [|reflexivity].
    destruct f as [f|]; destruct (c_fmt _); try discriminate; injection H as <-; cbn [special_format]; reflexivity.
  - destruct (c_output c); [discriminate|]. injection H as <-. apply Same; reflexivity.
Qed.

Lemma effects_mips ds : forall c c', effects ds c = Some c' ->
  exists parts, Forall2 (entries file) ds parts /\ c_customMips c' = c_customMips c ++ List.concat parts.
Proof.
  induction ds as [|d ds IH]; intros c c' H.
  - injection H as <-. exists []. split; [constructor|]. cbn. rewrite app_nil_r. reflexivity.
  - cbn [effects] in H. destruct (effect file cap d c) as [c1|] eqn:X; [|discriminate]. cbn [obind] in H.
    destruct (effect_mips _ _ _ X) as (es & E & M). destruct (IH _ _ H) as (parts & F & Ms).
    exists (es :: parts). split; [constructor; auto|]. rewrite Ms, M. cbn [List.concat]. rewrite app_assoc. reflexivity.
Qed.
End Effects.

(** C43: what the command line parser can do with any arguments. *)

From Coq Require Import NArith ZArith List Bool String Ascii Lia Permutation.
From Coq Require Import ZifyBool ZifyNat ZifyN.
From Verif Require Import Base FormatModel SaveFormats TextureModel SaveModel CommandLineModel CommandLineSpec CommandLineProofs CommandLineInv CommandLineMips PropsCommandLine.
Import ListNotations.
Local Open Scope string_scope.
Local Open Scope list_scope.
Local Open Scope N_scope.
Local Notation length := List.length.

(** Without an input list the image list has the length its kind needs. *)
Definition img_ok (cap : N) (c : cl) : Prop :=
  N.of_nat (length (c_images c)) <= N.max cap 6 /\
  match c_images c with
  | [] => c_imageType c = IT_Image
  | _ => match c_imageType c with
         | IT_Cube => length (c_images c) = 6%nat
         | IT_CubeArray => (length (c_images c) mod 6 = 0)%nat
         | _ => True
         end
  end.

Lemma resize_length cap l n im : resize cap l n = Some im -> N.of_nat (length im) = n /\
  (n <= N.of_nat (length l) \/ n <= cap).
Proof.
  unfold resize. destruct (N.leb_spec n (N.of_nat (length l))) as [L|L].
  - intros H; injection H as <-. rewrite firstn_length. split; [lia|auto].
  - destruct (N.leb_spec n cap) as [L3|L3]; [|discriminate]. intros H; injection H as <-.
    rewrite app_length, repeat_length. split; [lia|auto].
Qed.

Lemma u64_small n : n < 2 ^ 64 -> u64 n = n.
Proof. intros; unfold u64; apply N.mod_small; auto. Qed.

Definition small_args (l : list string) : Prop := forall a, In a l -> fst (strtoul a) < 2 ^ 61.

Lemma array_ok cap c tl : cap <= 2 ^ 61 -> img_ok cap c -> small_args tl ->
  match do_array cap c tl with
  | Undefined _ => False
  | Go c' _ => img_ok cap c'
  | _ => True
  end.
Proof.
  intros CAP [LI I] SM. unfold do_array.
  set (c1 := match c_images c with [] => _ | _ => _ end).
  destruct c1 as [c2|] eqn:E1; [|exact Logic.I].
  assert (S : c_images c2 = c_images c /\ c_imageType c2 = IT_Array).
  { subst c1. destruct (c_images c) eqn:EI.
    - inversion E1; subst. auto.
    - destruct (c_imageType c) eqn:ET; cbn in E1; inversion E1; subst; auto. }
  destruct S as [SI ST]. rewrite SI. clear E1 c1.
  destruct tl as [|x t]; [exact Logic.I|].
  set (q := match t with [] => _ | _ => _ end).
  assert (exists idx tl', q = (idx, tl') /\ (idx = N.of_nat (length (c_images c)) \/ idx < 2 ^ 61)) as (idx & tl' & -> & B).
  { subst q. destruct t as [|y t]; [eauto|].
    destruct (readIndex (x :: y :: t)) as [[v r]|] eqn:R; [|eauto].
    apply readIndex_inv in R. destruct R as (z & Z & W). inversion Z; subst.
    exists v, (y :: t). split; auto. right. specialize (SM z (or_introl eq_refl)). rewrite W in SM. exact SM. }
  assert (B' : idx < 2 ^ 62) by lia. clear B.
  destruct (N.leb_spec (N.of_nat (length (c_images c))) idx) as [L|L].
  - rewrite u64_small by lia.
    destruct (resize cap (c_images c) (idx + 1)) as [im|] eqn:R; [|exact Logic.I].
    apply resize_length in R. destruct R as [RL RC].
    destruct tl' as [|a r]; [exact Logic.I|]. unfold put_image. cbn [c_images set_images].
    destruct (N.ltb_spec idx (N.of_nat (length im))) as [L2|L2]; [|lia].
    destruct (negb _); [exact Logic.I|]. split.
    + cbn [c_images set_images]. rewrite upd_length. lia.
    + cbn [c_images set_images c_imageType]. change (c_imageType (set_images _ (set_images im c2))) with (c_imageType c2).
      destruct (upd _ _ _) eqn:EU; [|rewrite ST; exact Logic.I].
      apply (f_equal (@List.length string)) in EU. rewrite upd_length in EU. simpl in EU. lia.
  - destruct tl' as [|a r]; [exact Logic.I|]. unfold put_image. cbn [c_images set_images].
    destruct (N.ltb_spec idx (N.of_nat (length (c_images c)))) as [L2|L2]; [|lia].
    destruct (negb _); [exact Logic.I|]. split.
    + cbn [c_images set_images]. rewrite upd_length. lia.
    + cbn [c_images set_images c_imageType]. change (c_imageType (set_images _ (set_images (c_images c) c2))) with (c_imageType c2).
      destruct (upd _ _ _) eqn:EU; [|rewrite ST; exact Logic.I].
      apply (f_equal (@List.length string)) in EU. rewrite upd_length in EU. simpl in EU. lia.
Qed.

Lemma cube_ok cap c tl : img_ok cap c ->
  match do_cube cap c tl with
  | Undefined _ => False
  | Go c' _ => img_ok cap c'
  | _ => True
  end.
Proof.
  intros [LI I]. unfold do_cube.
  set (c1 := match c_images c with [] => _ | _ => _ end).
  destruct c1 as [[c2|]|] eqn:E1; try exact Logic.I.
  assert (S : length (c_images c2) = 6%nat /\ c_imageType c2 = IT_Cube).
  { subst c1. destruct (c_images c) eqn:EI.
    - destruct (resize cap [] 6) as [im|] eqn:R; [|discriminate]. apply resize_length in R.
      cbn in E1. inversion E1; subst. cbn. split; [lia|reflexivity].
    - destruct (c_imageType c) eqn:ET; cbn in E1; inversion E1; subst. rewrite EI. auto. }
  destruct S as [SI ST]. clear E1 c1.
  destruct tl as [|f [|x t]]; try exact Logic.I.
  destruct (readCubeFace (f :: x :: t)) as [[face [|y r]]|] eqn:RC; try exact Logic.I.
  apply readCubeFace_inv in RC. destruct RC as (z & Z & W). apply strToCubeFace_lt in W.
  unfold put_image. destruct (N.ltb_spec face (N.of_nat (length (c_images c2)))) as [L2|L2]; [|lia].
  destruct (negb _); [exact Logic.I|]. split.
  - cbn [c_images set_images]. rewrite upd_length. lia.
  - cbn [c_images set_images]. change (c_imageType (set_images _ c2)) with (c_imageType c2). rewrite ST.
    destruct (upd _ _ _) eqn:EU.
    + apply (f_equal (@List.length string)) in EU. rewrite upd_length in EU. simpl in EU. lia.
    + rewrite <- EU, upd_length. exact SI.
Qed.

Lemma cubearray_ok cap c tl : cap <= 2 ^ 61 -> img_ok cap c -> small_args tl ->
  match do_cubearray cap c tl with
  | Undefined _ => False
  | Go c' _ => img_ok cap c'
  | _ => True
  end.
Proof.
  intros CAP [LI I] SM. unfold do_cubearray.
  set (c1 := match c_images c with [] => _ | _ => _ end).
  destruct c1 as [c2|] eqn:E1; [|exact Logic.I].
  assert (S : c_images c2 = c_images c /\ c_imageType c2 = IT_CubeArray /\ (length (c_images c) mod 6 = 0)%nat).
  { subst c1. destruct (c_images c) eqn:EI.
    - inversion E1; subst. auto.
    - destruct (c_imageType c) eqn:ET; cbn in E1; inversion E1; subst; auto. }
  destruct S as (SI & ST & SL). rewrite SI. clear E1 c1.
  destruct tl as [|i [|f [|x t]]]; try exact Logic.I.
  destruct (readIndex (i :: f :: x :: t)) as [[ci r]|] eqn:R; [|exact Logic.I].
  apply readIndex_inv in R. destruct R as (z & Z & W). inversion Z; subst z r. clear Z.
  pose proof (SM i (or_introl eq_refl)) as CI. rewrite W in CI. cbn [fst] in CI.
  destruct (readCubeFace (f :: x :: t)) as [[face [|y r]]|] eqn:RC; try exact Logic.I.
  apply readCubeFace_inv in RC. destruct RC as (z & Z & V). apply strToCubeFace_lt in V.
  rewrite (u64_small (ci * 6)), (u64_small (ci + 1)), (u64_small ((ci + 1) * 6)) by lia.
  assert (G : forall im : list string, (length im mod 6 = 0)%nat -> ci * 6 < N.of_nat (length im) ->
    N.of_nat (length im) <= N.max cap 6 ->
    match put_image (set_images im c2) (u64 (ci * 6 + face)) y r with
    | Undefined _ => False | Go c' _ => img_ok cap c' | _ => True end).
  { intros im ML LT LM. rewrite u64_small by lia. unfold put_image. cbn [c_images set_images].
    destruct (N.ltb_spec (ci * 6 + face) (N.of_nat (length im))) as [L2|L2]; [|lia].
    destruct (negb _); [exact Logic.I|]. split.
    - cbn [c_images set_images]. rewrite upd_length. lia.
    - cbn [c_images set_images]. change (c_imageType (set_images _ (set_images im c2))) with (c_imageType c2). rewrite ST.
      destruct (upd _ _ _) eqn:EU.
      + apply (f_equal (@List.length string)) in EU. rewrite upd_length in EU. simpl in EU. lia.
      + rewrite <- EU, upd_length. exact ML. }
  destruct (N.leb_spec (N.of_nat (length (c_images c))) (ci * 6)) as [L|L].
  - destruct (resize cap (c_images c) ((ci + 1) * 6)) as [im|] eqn:RR; [|exact Logic.I].
    apply resize_length in RR. destruct RR as [RL RB]. apply G; lia.
  - apply G; auto.
Qed.


Ltac brk := repeat match goal with
  | |- context [match ?x with _ => _ end] => destruct x
  end.

Ltac simple_option K f :=
  match goal with |- match ?x with _ => _ end => let E := fresh in destruct x eqn:E; try exact Logic.I;
    revert E; unfold f; brk; intros E; try discriminate; injection E as <- <-; apply K; reflexivity end.

Lemma do_format_images fl c tl c' rest : do_format fl c tl = Go c' rest ->
  c_images c' = c_images c /\ c_imageType c' = c_imageType c.
Proof.
  unfold do_format. destruct tl as [|x t]; [discriminate|].
  set (c1 := match find_format _ x with Some f => set_fmt f c | None => c end).
  assert (C1 : exists f, c1 = set_fmt f c).
  { subst c1. destruct (find_format _ x); [eexists; reflexivity|]. exists (c_fmt c). destruct c; reflexivity. }
  destruct C1 as (f & C1). rewrite C1. clear c1 C1. change (c_fmt (set_fmt f c)) with f. cbn [negb typeSet].
  destruct f; try discriminate; intros H; injection H as <- <-; split; reflexivity.
Qed.

Lemma do_format_defined fl c tl u : do_format fl c tl <> Undefined u.
Proof.
  unfold do_format. destruct tl as [|x t]; [discriminate|].
  set (c1 := match find_format _ x with Some f => set_fmt f c | None => c end).
  assert (C1 : exists f, c1 = set_fmt f c).
  { subst c1. destruct (find_format _ x); [eexists; reflexivity|]. exists (c_fmt c). destruct c; reflexivity. }
  destruct C1 as (f & C1). rewrite C1. clear c1 C1. change (c_fmt (set_fmt f c)) with f. cbn [negb typeSet].
  destruct f; discriminate.
Qed.

(** Every other option leaves the images alone. *)
Lemma step_images fl file isnum cap c h tl :
  cap <= 2 ^ 61 -> img_ok cap c -> small_args tl -> h <> "-I" -> h <> "--input-list" ->
  match step fl file isnum cap c h tl with
  | Undefined _ => False
  | Go c' _ => img_ok cap c'
  | _ => True
  end.
Proof.
  intros CAP I SM N1 N2. unfold step. destruct (classify h) as [o|] eqn:Hcl; [|exact I].
  assert (K : forall c', c_images c' = c_images c -> c_imageType c' = c_imageType c -> img_ok cap c').
  { intros c' E1 E2. unfold img_ok. rewrite E1, E2. exact I. }
  destruct o.
  - simple_option K do_jobs.
  - apply K; reflexivity.
  - apply K; reflexivity.
  - unfold do_input. destruct (c_images c) eqn:E; [|exact Logic.I]. destruct tl; [exact Logic.I|].
    split; cbn [c_images set_images length]; [lia|]. change (c_imageType (set_images _ c)) with (c_imageType c).
    destruct I as [_ I]. rewrite E in I. rewrite I. exact Logic.I.
  - apply array_ok; auto.
  - apply cube_ok; auto.
  - apply cubearray_ok; auto.
  - apply classify_names in Hcl. destruct Hcl; contradiction.
  - destruct (do_resize c tl) eqn:E; try exact Logic.I.
    + apply do_resize_inv in E. destruct E as (a & w & hh & f & _ & _ & ->). apply K; reflexivity.
    + revert E. unfold do_resize. brk; discriminate.
  - destruct (do_mipmap c tl) eqn:E; try exact Logic.I.
    + apply do_mipmap_inv in E. destruct E as (a & n & f & _ & _ & ->). apply K; reflexivity.
    + revert E. unfold do_mipmap. brk; discriminate.
  - destruct (do_custommip c tl) eqn:E; try exact Logic.I.
    + apply do_custommip_inv in E. destruct E as (a & m & k & v & _ & _ & _ & _ & _ & _ & ->). apply K; reflexivity.
    + revert E. unfold do_custommip. brk; discriminate.
  - destruct (do_custommiplist file c tl) eqn:E; try exact Logic.I.
    + apply do_custommiplist_inv in E. destruct E as (a & m & k & _ & _ & ->). apply K; reflexivity.
    + revert E. unfold do_custommiplist. brk; discriminate.
  - apply K; reflexivity.
  - apply K; reflexivity.
  - destruct (do_rotate c tl) eqn:E; try exact Logic.I.
    + apply do_rotate_inv in E. destruct E as (x & v & _ & _ & _ & (b & an & ->) & _). apply K; reflexivity.
    + revert E. unfold do_rotate. brk; discriminate.
  - destruct (do_normalmap isnum c tl) eqn:E; try exact Logic.I.
    + apply do_normalmap_inv in E. destruct E as (x & v & hh & _ & ->). apply K; reflexivity.
    + revert E. unfold do_normalmap. brk; discriminate.
  - apply K; reflexivity.
  - destruct (do_swizzle c tl) eqn:E; try exact Logic.I.
    + apply do_swizzle_inv in E. destruct E as (x & r & g & b & a & _ & _ & ->). apply K; reflexivity.
    + revert E. unfold do_swizzle. destruct tl as [|x t]; [discriminate|].
      destruct x as [|c0 [|c1 [|c2 [|c3 [|? ?]]]]]; try discriminate.
      destruct (readChannel c0), (readChannel c1), (readChannel c2), (readChannel c3); discriminate.
  - apply K; reflexivity.
  - unfold do_premultiply. rewrite alph_if. apply K; reflexivity.
  - simple_option K do_dimension.
  - destruct (do_format fl c tl) eqn:E; try exact Logic.I.
    + apply do_format_images in E. destruct E. apply K; assumption.
    + revert E. apply do_format_defined.
  - simple_option K do_type.
  - simple_option K do_alpha.
  - simple_option K do_quality.
  - simple_option K do_output.
  - simple_option K do_fileformat.
  - apply K; reflexivity.
Qed.

Definition Inv0_any fl c := exists segs, Inv fl segs c.

Lemma loop_images fl file isnum cap fuel : forall c args,
  cap <= 2 ^ 61 -> img_ok cap c -> small_args args -> ~ In "-I" args -> ~ In "--input-list" args ->
  Inv0_any fl c ->
  match loop fl file isnum cap fuel c args with
  | inr (PUndef _) => False
  | _ => True
  end.
Proof.
  induction fuel as [|fuel IH]; intros c args CAP I SM N1 N2 (segs & V); [exact Logic.I|].
  cbn [loop]. destruct args as [|h tl]; [exact Logic.I|].
  assert (SM' : small_args tl) by (intros a A; apply SM; right; exact A).
  pose proof (step_images fl file isnum cap c h tl CAP I SM'
    (fun E => N1 (or_introl E)) (fun E => N2 (or_introl E))) as S.
  destruct (step fl file isnum cap c h tl) as [c1 rest| | |] eqn:E; try exact Logic.I; [|contradiction].
  destruct (Inv_step _ _ _ _ _ _ _ _ _ _ V E) as (a & -> & V1).
  apply IH; auto.
  - intros x X. apply SM'. apply in_or_app. right; exact X.
  - intros X. apply N1. right. apply in_or_app. right; exact X.
  - intros X. apply N2. right. apply in_or_app. right; exact X.
  - eexists; exact V1.
Qed.

Lemma img_ok0 cap : img_ok cap cl0.
Proof. split; cbn; [lia|reflexivity]. Qed.

Lemma check_mips_undef dim3 depth l : forall counts u,
  check_mips dim3 depth l counts = inr (PUndef u) ->
  u = UB_shift /\ dim3 = true /\ exists k v, In (k, v) l /\ 32 <= x_level k.
Proof.
  induction l as [|[k v] t IH]; intros counts u H; [discriminate|].
  cbn [check_mips] in H. destruct (x_level k =? 0); [discriminate|].
  destruct dim3.
  - destruct (N.leb_spec 32 (x_level k)) as [L|L].
    + injection H as <-. split; auto. split; auto. exists k, v. split; [left; reflexivity|exact L].
    + cbv zeta in H. destruct (_ <=? _); [discriminate|].
      destruct (IH _ _ H) as (A & B & k' & v' & C & D). split; auto. split; auto. exists k', v'. split; [right|]; auto.
  - destruct (_ <=? _); [discriminate|].
    destruct (IH _ _ H) as (A & B & _). discriminate.
Qed.

Lemma check_mips_fuel dim3 depth l : forall counts, check_mips dim3 depth l counts <> inr PFuel.
Proof.
  induction l as [|[k v] t IH]; intros counts; [discriminate|].
  cbn [check_mips]. destruct (x_level k =? 0); [discriminate|].
  destruct dim3.
  - destruct (32 <=? x_level k); [discriminate|]. cbv zeta. destruct (_ <=? _); [discriminate|]. apply IH.
  - destruct (_ <=? _); [discriminate|]. apply IH.
Qed.

Lemma validate_undef fl visit c u : validate fl visit c = PUndef u ->
  u = UB_shift /\ c_dim c = Dim3D /\ exists k v, In (k, v) (visit (c_customMips c)) /\ 32 <= x_level k.
Proof.
  unfold validate. destruct (c_images c) eqn:EI; [discriminate|].
  destruct (check_kind c) as [c1|] eqn:EK; [|discriminate].
  assert (K : is_dim3d (c_dim c1) = true -> c_dim c = Dim3D).
  { revert EK. unfold check_kind. destruct (c_imageType c).
    - destruct (negb _); [discriminate|]. intros E; injection E as <-. destruct (c_dim c); auto; discriminate.
    - intros E; injection E as <-. destruct (c_dim c); auto; discriminate.
    - destruct (negb _); [discriminate|]. destruct (c_dim c); try discriminate. intros E; injection E as <-. discriminate.
    - destruct (negb _); [discriminate|]. destruct (c_dim c); try discriminate. intros E; injection E as <-. discriminate. }
  assert (M : c_customMips c1 = c_customMips c).
  { revert EK. unfold check_kind. destruct (c_imageType c); try destruct (negb _); try discriminate;
    try (intros E; injection E as <-; reflexivity);
    destruct (c_dim c); try discriminate; intros E; injection E as <-; reflexivity. }
  destruct (existsb _ _); [discriminate|].
  destruct (c_fmt c1); try discriminate;
  (destruct (c_output c1) as [out|]; [|discriminate]; cbv zeta;
   set (c2 := match c_ftype c1 with FT_Auto => set_ftype (fileType (codes out)) c1 | _ => c1 end);
   assert (C2 : c_customMips c2 = c_customMips c1 /\ c_dim c2 = c_dim c1) by (subst c2; destruct (c_ftype c1); split; reflexivity);
   clearbody c2; destruct (c_ftype c2); try discriminate;
   (destruct (negb _); [discriminate|];
    set (c3 := match c_textureCS c2 with CS_sRGB => _ | CS_Linear => _ end);
    assert (C3 : c_customMips c3 = c_customMips c2 /\ c_dim c3 = c_dim c2)
      by (subst c3; destruct (c_textureCS c2); try destruct (negb _); split; reflexivity);
    clearbody c3; destruct (_ && _); [discriminate|];
    destruct C3 as [C31 C32], C2 as [C21 C22];
    destruct (check_mips _ _ _ _) as [counts|r] eqn:EC; [destruct (check_counts _ _ _); discriminate|];
    intros ->; apply check_mips_undef in EC; rewrite C31, C32, C21, C22, M in EC;
    destruct EC as (A & B & C); auto)).
Qed.

Lemma loop_fuel fl file isnum cap fuel : forall c args, (length args < fuel)%nat -> Inv0_any fl c ->
  loop fl file isnum cap fuel c args <> inr PFuel.
Proof.
  induction fuel as [|fuel IH]; intros c args L (segs & V); [lia|].
  cbn [loop]. destruct args as [|h tl]; [discriminate|].
  destruct (step fl file isnum cap c h tl) as [c1 rest| | |] eqn:E; try discriminate.
  destruct (Inv_step _ _ _ _ _ _ _ _ _ _ V E) as (a & -> & V1).
  apply IH; [|eexists; exact V1]. cbn [length] in L. rewrite app_length in L. lia.
Qed.

Lemma validate_fuel fl visit c : validate fl visit c <> PFuel.
Proof.
  unfold validate. destruct (c_images c) eqn:EI; [discriminate|].
  destruct (check_kind c) as [c1|] eqn:EK; [|discriminate].
  destruct (existsb _ _); [discriminate|].
  destruct (c_fmt c1); try discriminate;
  (destruct (c_output c1) as [out|]; [|discriminate]; cbv zeta;
   set (c2 := match c_ftype c1 with FT_Auto => set_ftype (fileType (codes out)) c1 | _ => c1 end);
   clearbody c2; destruct (c_ftype c2); try discriminate;
   (destruct (negb _); [discriminate|];
    set (c3 := match c_textureCS c2 with CS_sRGB => _ | CS_Linear => _ end);
    clearbody c3; destruct (_ && _); [discriminate|];
    destruct (check_mips _ _ _ _) as [counts|r] eqn:EC; [destruct (check_counts _ _ _); discriminate|];
    intros ->; exact (check_mips_fuel _ _ _ _ EC))).
Qed.

(** Any argument vector is dealt with in a bounded number of steps. *)
Theorem C43_terminates : forall fl file isnum cap visit args,
  parse fl file isnum cap visit args <> PFuel.
Proof.
  intros fl file isnum cap visit args. unfold parse. destruct args as [|a t]; [discriminate|].
  destruct (existsb _ _); [discriminate|].
  destruct (loop fl file isnum cap _ cl0 (a :: t)) as [c|r] eqn:E.
  - destruct (c_success c); [apply validate_fuel|discriminate].
  - intros ->. revert E. apply loop_fuel; [lia|]. exists []. apply Inv0.
Qed.
Print Assumptions C43_terminates.

(** No access outside the image list, for arguments without an input list and with numbers
    below 2^61. *)
Theorem C43_images : forall fl file isnum cap visit args,
  cap <= 2 ^ 61 -> ~ In "-I" args -> ~ In "--input-list" args ->
  (forall a, In a args -> fst (strtoul a) < 2 ^ 61) ->
  parse fl file isnum cap visit args <> PUndef UB_images.
Proof.
  intros fl file isnum cap visit args CAP N1 N2 SM. unfold parse. destruct args as [|a t]; [discriminate|].
  destruct (existsb _ _); [discriminate|].
  pose proof (loop_images fl file isnum cap (S (length (a :: t))) cl0 (a :: t) CAP (img_ok0 cap) SM N1 N2
    (ex_intro _ [] (Inv0 fl))) as L.
  destruct (loop fl file isnum cap _ cl0 (a :: t)) as [c|r].
  - destruct (c_success c); [|discriminate]. intros V. apply validate_undef in V. destruct V; discriminate.
  - intros ->. exact L.
Qed.
Print Assumptions C43_images.

Lemma has_option_in a b segs : has_option a b segs = true -> In a (List.concat segs) \/ In b (List.concat segs).
Proof.
  unfold has_option. intros H. apply existsb_exists in H. destruct H as (s & I & E).
  destruct s as [|h r]; [discriminate|]. unfold is_option in E. apply orb_true_iff in E.
  destruct E as [E|E]; apply String.eqb_eq in E; subst h; [left|right]; apply in_concat; eexists; split; eauto; left; reflexivity.
Qed.

Lemma last_value_none {A} a b (t : list (string * A)) d segs : has_option a b segs = false -> last_value a b t d segs = d.
Proof.
  induction segs as [|s r IH] using rev_ind; intros H; [reflexivity|].
  rewrite has_option_app in H. apply orb_false_iff in H. destruct H as [H1 H2].
  rewrite last_value_app, IH by auto. destruct s as [|h [|x [|? ?]]]; try reflexivity.
  unfold is_option in H2. rewrite upd1_cons, H2. reflexivity.
Qed.

Lemma put_image_shift c i x r : put_image c i x r <> Undefined UB_shift.
Proof. unfold put_image. brk; discriminate. Qed.

Lemma step_shift fl file isnum cap c h tl : step fl file isnum cap c h tl <> Undefined UB_shift.
Proof.
  unfold step. destruct (classify h) as [o|]; [|discriminate].
  destruct o; try discriminate;
    try (unfold do_jobs, do_input, do_inputlist, do_resize, do_mipmap, do_custommip, do_custommiplist,
         do_rotate, do_normalmap, do_dimension, do_type, do_alpha, do_quality, do_output, do_fileformat;
         brk; discriminate).
  - unfold do_array.
    destruct (match c_images c with [] => _ | _ => _ end) as [c1|]; [|discriminate].
    destruct tl as [|x t]; [discriminate|].
    destruct (match t with [] => _ | _ => _ end) as [idx t'].
    destruct (if _ <=? idx then _ else _) as [im|]; [|discriminate].
    destruct t'; [discriminate|]. apply put_image_shift.
  - unfold do_cube.
    destruct (match c_images c with [] => _ | _ => _ end) as [[c1|]|]; try discriminate.
    destruct tl as [|x [|y t]]; try discriminate.
    destruct (readCubeFace _) as [[f [|z r]]|]; try discriminate. apply put_image_shift.
  - unfold do_cubearray.
    destruct (match c_images c with [] => _ | _ => _ end) as [c1|]; [|discriminate].
    destruct tl as [|x [|y [|w t]]]; try discriminate.
    destruct (readIndex _) as [[ci t']|]; [|discriminate].
    destruct (readCubeFace _) as [[f [|z r]]|]; try discriminate. cbv zeta.
    destruct (if _ <=? _ then _ else _) as [im|]; [|discriminate]. apply put_image_shift.
  - unfold do_swizzle. destruct tl as [|x t]; [discriminate|].
    destruct x as [|c0 [|c1 [|c2 [|c3 [|? ?]]]]]; try discriminate.
    destruct (readChannel c0), (readChannel c1), (readChannel c2), (readChannel c3); discriminate.
  - apply do_format_defined.
Qed.

Lemma loop_defined fl file isnum cap fuel : forall c args u,
  Inv0_any fl c -> loop fl file isnum cap fuel c args = inr (PUndef u) -> u = UB_images.
Proof.
  induction fuel as [|fuel IH]; intros c args u (segs & V) H; [discriminate|].
  cbn [loop] in H. destruct args as [|h tl]; [discriminate|].
  destruct (step fl file isnum cap c h tl) as [c1 rest| |w|] eqn:E; try discriminate.
  - destruct (Inv_step _ _ _ _ _ _ _ _ _ _ V E) as (a & -> & V1).
    eapply IH; [eexists; exact V1|exact H].
  - destruct u; [reflexivity|]. exfalso. injection H as ->.
    destruct (step_shift _ _ _ _ _ _ _ E).
Qed.

(** The shift in the validation of custom mips is defined unless the texture is asked to be
    3D. *)
Theorem C43_shift : forall fl file isnum cap visit args,
  parse fl file isnum cap visit args = PUndef UB_shift ->
  exists segs, args = List.concat segs /\ Forall (fun s => s <> []) segs /\
    last_value "-d" "--dimension" dimension_names Dim2D segs = Dim3D.
Proof.
  intros fl file isnum cap visit args. unfold parse. destruct args as [|a t]; [discriminate|].
  destruct (existsb _ (a :: t)); [discriminate|].
  destruct (loop _ _ _ _ _ _ _) as [c0|r] eqn:E; [|].
  - destruct (c_success c0); [|discriminate]. intros V.
    destruct (loop_segments _ _ _ _ _ [] cl0 _ _ (Inv0 fl) (Forall_nil _) E) as (segs & Es & F & I).
    exists segs. split; [exact Es|]. split; [exact F|]. apply validate_undef in V.
    pose proof (i_dim _ _ _ I) as D. cbn [app] in D. rewrite <- D. apply V.
  - intros ->. exfalso. assert (UB_shift = UB_images); [|discriminate].
    eapply loop_defined; [exists []; apply Inv0|exact E].
Qed.
Print Assumptions C43_shift.

(** Together: every argument vector without an input list, a dimension and huge numbers leads
    to a defined result: a configuration, false, or an exception for lack of memory. *)
Theorem C43_defined : forall fl file isnum cap visit args,
  cap <= 2 ^ 61 -> ~ In "-I" args -> ~ In "--input-list" args ->
  ~ In "-d" args -> ~ In "--dimension" args ->
  (forall a, In a args -> fst (strtoul a) < 2 ^ 61) ->
  (exists c, parse fl file isnum cap visit args = POk c) \/
  parse fl file isnum cap visit args = PFalse \/ parse fl file isnum cap visit args = PThrow.
Proof.
  intros fl file isnum cap visit args CAP N1 N2 N3 N4 SM.
  pose proof (C43_images fl file isnum cap visit args CAP N1 N2 SM) as A.
  pose proof (C43_terminates fl file isnum cap visit args) as B.
  pose proof (C43_shift fl file isnum cap visit args) as C.
  destruct (parse fl file isnum cap visit args) as [c| |u| |]; eauto.
  - destruct u; [congruence|]. exfalso. destruct (C eq_refl) as (segs & -> & _ & L).
    destruct (has_option "-d" "--dimension" segs) eqn:H.
    + apply has_option_in in H. tauto.
    + rewrite (last_value_none _ _ _ _ _ H) in L. discriminate.
  - congruence.
Qed.
Print Assumptions C43_defined.

Definition args1 : list string :=
  ["-a"; "3"; "d"; "-a"; "0"; "a"; "-a"; "1"; "b"; "-a"; "2"; "c"; "-f"; "R8"; "-o"; "o.dds"].

(** Arguments that meet the hypotheses. *)
Example C43_example : ~ In "-I" args1 /\ ~ In "--input-list" args1 /\
  (forall a, In a args1 -> fst (strtoul a) < 2 ^ 61) /\
  exists c, parse1 args1 = POk c /\ c_images c = ["a"; "b"; "c"; "d"].
Proof.
  assert (G : forallb (fun a => negb (String.eqb a "-I") && negb (String.eqb a "--input-list") &&
    (fst (strtoul a) <? 2 ^ 61)) args1 = true) by (vm_compute; reflexivity).
  rewrite forallb_forall in G.
  split; [intros X; specialize (G _ X); vm_compute in G; discriminate|].
  split; [intros X; specialize (G _ X); vm_compute in G; discriminate|].
  split; [intros a X; specialize (G _ X); apply andb_true_iff in G; destruct G; lia|].
  exists (match parse1 args1 with POk c => c | _ => cl0 end). vm_compute. split; reflexivity.
Qed.

(** Without the hypotheses the parser writes outside the image list: a cube face after a short
    input list, a negative array index, and a cube index that wraps around. *)
Theorem C43_list_refuted : exists file args,
  parse fl1 file nonum 1000 asis args = PUndef UB_images.
Proof.
  exists (fun _ => Some "only.png"), ["-I"; "cube"; "list.txt"; "-c"; "+y"; "b.png"].
  vm_compute. reflexivity.
Qed.
Print Assumptions C43_list_refuted.

Theorem C43_negative_refuted : exists args, In "-1" args /\ parse1 args = PUndef UB_images.
Proof. exists ["-a"; "-1"; "x.png"]. split; [cbn; auto|vm_compute; reflexivity]. Qed.
Print Assumptions C43_negative_refuted.

Theorem C43_wrap_refuted : exists args, parse1 args = PUndef UB_images /\
  forall a, In a args -> fst (strtoul a) < 2 ^ 62.
Proof.
  exists ["-C"; "0"; "+x"; "a"; "-C"; "3074457345618258603"; "-z"; "b"].
  split; [vm_compute; reflexivity|].
  assert (G : forallb (fun a => fst (strtoul a) <? 2 ^ 62) ["-C"; "0"; "+x"; "a"; "-C"; "3074457345618258603"; "-z"; "b"] = true)
    by (vm_compute; reflexivity).
  rewrite forallb_forall in G. intros a X. specialize (G _ X). lia.
Qed.
Print Assumptions C43_wrap_refuted.

(** A custom mip of level 40 of a volume makes the validation shift by 40. *)
Theorem C43_shift_refuted : exists args, parse1 args = PUndef UB_shift.
Proof.
  exists ["-i"; "a.png"; "-d"; "3"; "-f"; "R8"; "-m"; "-M"; "40"; "m.png"; "-o"; "o.dds"].
  vm_compute. reflexivity.
Qed.
Print Assumptions C43_shift_refuted.

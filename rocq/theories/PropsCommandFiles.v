(** C49, C50, C51: numbers and list files on the command line. *)

From Coq Require Import NArith ZArith List Bool String Ascii Lia Permutation.
From Coq Require Import ZifyBool ZifyNat ZifyN.
From Verif Require Import Base FormatModel SaveFormats TextureModel SaveModel CommandLineModel CommandLineSpec CommandFilesSpec CommandLineProofs CommandLineInv CommandLineMips PropsCommandLine PropsCommandSafe.
Import ListNotations.
Local Open Scope string_scope.
Local Open Scope list_scope.
Local Open Scope N_scope.
Local Notation length := List.length.

(** * Strings *)

Lemma sapp_nil s : String.append s "" = s.
Proof. induction s as [|c s IH]; cbn; congruence. Qed.

Lemma sapp_assoc a b c : String.append a (String.append b c) = String.append (String.append a b) c.
Proof. induction a as [|x a IH]; cbn; congruence. Qed.

Lemma slen_app a b : String.length (String.append a b) = (String.length a + String.length b)%nat.
Proof. induction a as [|x a IH]; cbn; auto. Qed.

Lemma all_chars_app p a b : all_chars p (String.append a b) = all_chars p a && all_chars p b.
Proof. induction a as [|x a IH]; cbn; auto. rewrite IH, andb_assoc. reflexivity. Qed.

Lemma all_chars_impl (p q : ascii -> bool) s : (forall c, p c = true -> q c = true) ->
  all_chars p s = true -> all_chars q s = true.
Proof.
  intros I. induction s as [|c s IH]; cbn; auto. intros H. apply andb_true_iff in H. destruct H.
  rewrite I, IH by auto. reflexivity.
Qed.

(** * C51: numbers *)

Lemma code_ascii n : n < 256 -> code (ascii_of_N n) = n.
Proof. intros. unfold code. apply N_ascii_embedding; auto. Qed.

Lemma digits_all fuel : forall n, all_chars isdigit (digits_fuel fuel n) = true.
Proof.
  induction fuel as [|fuel IH]; intros n; [reflexivity|]. cbn [digits_fuel]. rewrite all_chars_app.
  cbn [all_chars]. unfold isdigit at 2. rewrite code_ascii by lia.
  assert (E : (48 <=? 48 + n mod 10) && (48 + n mod 10 <=? 57) = true) by lia. rewrite E.
  destruct (n <? 10); [reflexivity|]. rewrite IH. reflexivity.
Qed.


Lemma read_digits_app a : all_chars isdigit a = true -> forall b acc,
  read_digits (String.append a b) acc = read_digits b (fst (read_digits a acc)).
Proof.
  induction a as [|c a IH]; cbn; auto. intros H b acc. apply andb_true_iff in H. destruct H as [H1 H2].
  rewrite H1. apply IH; auto.
Qed.

Lemma read_digits_fuel fuel : forall n, n < 2 ^ N.of_nat fuel -> n <> 0 \/ (0 < fuel)%nat ->
  read_digits (digits_fuel fuel n) 0 = (n, EmptyString).
Proof.
  induction fuel as [|fuel IH]; intros n L NZ.
  { destruct NZ; [|lia]. cbn in L. lia. }
  cbn [digits_fuel]. destruct (N.ltb_spec n 10) as [S|S].
  - cbn [String.append read_digits]. unfold isdigit. rewrite code_ascii by lia.
    assert (E : (48 <=? 48 + n mod 10) && (48 + n mod 10 <=? 57) = true) by lia. rewrite E.
    f_equal. lia.
  - rewrite read_digits_app by apply digits_all.
    rewrite IH.
    + cbn [fst String.append read_digits]. unfold isdigit. rewrite code_ascii by lia.
      assert (E : (48 <=? 48 + n mod 10) && (48 + n mod 10 <=? 57) = true) by lia. rewrite E.
      f_equal. lia.
    + rewrite Nat2N.inj_succ, N.pow_succ_r' in L. apply N.div_lt_upper_bound; lia.
    + left. lia.
Qed.

Lemma decimal_read n : read_digits (decimal n) 0 = (n, EmptyString).
Proof.
  unfold decimal. apply read_digits_fuel; [|right; lia].
  rewrite Nat2N.inj_succ, N2Nat.id. destruct (N.eq_dec n 0) as [->|]; [reflexivity|].
  apply N.log2_spec. lia.
Qed.

Lemma decimal_digits n : all_chars isdigit (decimal n) = true.
Proof. apply digits_all. Qed.

Lemma decimal_first n : exists c t, decimal n = String c t /\ isdigit c = true.
Proof.
  destruct (decimal n) as [|c t] eqn:E.
  - exfalso. revert E. unfold decimal. cbn [digits_fuel]. destruct (if n <? 10 then _ else _); discriminate.
  - exists c, t. split; auto. pose proof (decimal_digits n) as D. rewrite E in D. cbn in D.
    apply andb_true_iff in D. tauto.
Qed.

(** A number below 2^64 written in decimal is read back. *)
Theorem C51_decimal : forall n, n < 2 ^ 64 -> strtoul (decimal n) = (n, true).
Proof.
  intros n L. unfold strtoul. destruct (decimal_first n) as (c & t & E & D).
  assert (S : skip_space (decimal n) = decimal n).
  { rewrite E. cbn. destruct (isspace c) eqn:W; auto. exfalso. unfold isspace, isdigit in *. lia. }
  assert (R : read_sign (decimal n) = (false, decimal n)).
  { rewrite E. cbn. unfold isdigit in D. destruct (N.eqb_spec (code c) 45); [lia|].
    destruct (N.eqb_spec (code c) 43); [lia|]. reflexivity. }
  rewrite S, R. assert (SD : starts_digit (decimal n) = true) by (rewrite E; exact D). rewrite SD.
  rewrite decimal_read. destruct (N.leb_spec (2 ^ 64) n); [lia|]. reflexivity.
Qed.
Print Assumptions C51_decimal.

(** Larger numbers saturate. *)
Theorem C51_saturates : forall n, 2 ^ 64 <= n -> strtoul (decimal n) = (2 ^ 64 - 1, true).
Proof.
  intros n L. unfold strtoul. destruct (decimal_first n) as (c & t & E & D).
  assert (S : skip_space (decimal n) = decimal n).
  { rewrite E. cbn. destruct (isspace c) eqn:W; auto. exfalso. unfold isspace, isdigit in *. lia. }
  assert (R : read_sign (decimal n) = (false, decimal n)).
  { rewrite E. cbn. unfold isdigit in D. destruct (N.eqb_spec (code c) 45); [lia|].
    destruct (N.eqb_spec (code c) 43); [lia|]. reflexivity. }
  rewrite S, R. assert (SD : starts_digit (decimal n) = true) by (rewrite E; exact D). rewrite SD.
  rewrite decimal_read. destruct (N.leb_spec (2 ^ 64) n); [|lia]. reflexivity.
Qed.
Print Assumptions C51_saturates.

Lemma digits_read d n : digits d n -> read_digits d 0 = (n, EmptyString) /\ all_chars isdigit d = true /\ starts_digit d = true.
Proof.
  induction 1 as [c H|s v c D (IH & A & ST) H].
  - unfold isdigit, code, starts_digit, all_chars, read_digits. unfold isdigit, code.
    assert (E : (48 <=? N_of_ascii c) && (N_of_ascii c <=? 57) = true) by lia. rewrite E. auto.
  - rewrite read_digits_app, IH by exact A. cbn [fst read_digits]. rewrite all_chars_app, A. cbn [all_chars].
    unfold isdigit, code. assert (E : (48 <=? N_of_ascii c) && (N_of_ascii c <=? 57) = true) by lia. rewrite E.
    split; [reflexivity|]. split; [reflexivity|]. destruct s; [discriminate ST|exact ST].
Qed.

Lemma read_digits_back r : forall p acc v, digits p acc -> read_digits r acc = (v, EmptyString) -> digits (String.append p r) v.
Proof.
  induction r as [|c r IH]; intros p acc v D R.
  - cbn in R. injection R as <-. rewrite sapp_nil. exact D.
  - cbn [read_digits] in R. destruct (isdigit c) eqn:E; [|discriminate].
    assert (C : 48 <= N_of_ascii c <= 57) by (unfold isdigit, code in E; lia).
    specialize (IH _ _ _ (digits_more _ _ _ D C) R). rewrite <- sapp_assoc in IH. exact IH.
Qed.

Lemma read_back r v : starts_digit r = true -> read_digits r 0 = (v, EmptyString) -> digits r v.
Proof.
  destruct r as [|c r]; [discriminate|]. cbn [starts_digit read_digits]. intros E R. rewrite E in R.
  assert (C : 48 <= N_of_ascii c <= 57) by (unfold isdigit, code in E; lia).
  pose proof (read_digits_back r _ _ v (digits_one c C)) as H. cbn [String.append] in H. apply H.
  rewrite <- R. f_equal.
Qed.

Lemma skip_space_split s : exists b, s = String.append b (skip_space s) /\
  (forall c, In c (list_ascii_of_string b) -> In (N_of_ascii c) [9; 10; 11; 12; 13; 32]).
Proof.
  induction s as [|c s (b & E & B)]; [exists ""; split; [reflexivity|intros ? []]|].
  cbn [skip_space]. destruct (isspace c) eqn:S.
  - exists (String c b). split; [cbn; congruence|]. intros x [<- | I]; [|apply B, I].
    unfold isspace, code in S. cbn [In]. lia.
  - exists "". split; [reflexivity|intros ? []].
Qed.

Lemma skip_space_app b r : (forall c, In c (list_ascii_of_string b) -> In (N_of_ascii c) [9; 10; 11; 12; 13; 32]) ->
  skip_space (String.append b r) = skip_space r.
Proof.
  induction b as [|c b IH]; intros B; [reflexivity|]. cbn [String.append skip_space].
  assert (S : isspace c = true).
  { specialize (B c (or_introl eq_refl)). unfold isspace, code. cbn [In] in B. lia. }
  rewrite S. apply IH. intros x I. apply B. right. exact I.
Qed.

(** What [written] says about the functions that take a number apart. *)
Lemma written_parts s neg n : written s neg n <->
  exists r, read_sign (skip_space s) = (neg, r) /\ starts_digit r = true /\ read_digits r 0 = (n, EmptyString).
Proof.
  split.
  - intros (b & sg & d & -> & B & S & D). destruct (digits_read d n D) as (R & _ & ST).
    exists d. rewrite (skip_space_app b _ B). destruct d as [|c d]; [discriminate|]. cbn [starts_digit] in ST.
    assert (C : 48 <= code c <= 57) by (unfold isdigit in ST; lia).
    assert (NS : isspace c = false) by (unfold isspace; lia).
    split; [|split; [exact ST|exact R]].
    destruct neg; [rewrite S; reflexivity|]. destruct S as [-> | ->]; [|reflexivity].
    cbn [String.append skip_space]. rewrite NS. cbn [read_sign].
    destruct (N.eqb_spec (code c) 45); [lia|]. destruct (N.eqb_spec (code c) 43); [lia|]. reflexivity.
  - intros (r & RS & ST & R). destruct (skip_space_split s) as (b & E & B).
    pose proof (read_back r n ST R) as D.
    assert (SG : exists sg, skip_space s = String.append sg r /\ if neg then sg = "-"%string else sg = ""%string \/ sg = "+"%string).
    { destruct (skip_space s) as [|c t]; cbn [read_sign] in RS; [injection RS as <- <-; discriminate ST|].
      assert (CH : forall k, k < 256 -> code c = k -> c = ascii_of_N k).
      { intros k _ H. unfold code in H. rewrite <- H. symmetry. apply ascii_N_embedding. }
      destruct (N.eqb_spec (code c) 45) as [X|X]; [injection RS as <- <-; rewrite (CH 45 ltac:(lia) X); exists "-"%string; split; reflexivity|].
      destruct (N.eqb_spec (code c) 43) as [Y|Y]; injection RS as <- <-.
      - rewrite (CH 43 ltac:(lia) Y). exists "+"%string. split; [reflexivity|auto].
      - exists ""%string. split; [reflexivity|auto]. }
    destruct SG as (sg & SE & SG). exists b, sg, r. rewrite <- SE. auto.
Qed.

(** Exactly which arguments are unsigned numbers, and which numbers they are: blanks, a sign and digits
    (and, oddly, the empty string). *)
Theorem C51_unsigned : forall s v, strtoul s = (v, true) <->
  s = ""%string /\ v = 0 \/
  exists negative n, written s negative n /\
    v = if 2 ^ 64 <=? n then 2 ^ 64 - 1 else if negative then (2 ^ 64 - n) mod 2 ^ 64 else n.
Proof.
  intros s v. unfold strtoul. destruct (read_sign (skip_space s)) as [neg r] eqn:RS. split.
  - destruct (starts_digit r) eqn:ST.
    + destruct (read_digits r 0) as [n e] eqn:R. intros H. injection H as H1 H2. right. exists neg, n.
      split; [|auto]. apply written_parts. exists r. destruct e; [auto|discriminate].
    + intros H. injection H as H1 H2. left. destruct s; [auto|discriminate].
  - intros [[-> ->]|(neg' & n & W & V)].
    + cbn in RS. injection RS as <- <-. reflexivity.
    + apply written_parts in W. destruct W as (r' & RS' & ST & R). rewrite RS in RS'. injection RS' as -> ->.
      rewrite ST, R. subst v. reflexivity.
Qed.
Print Assumptions C51_unsigned.

(** The same for signed numbers. *)
Theorem C51_signed : forall s v, strtol s = (v, true) <->
  s = ""%string /\ v = 0%Z \/
  exists negative n, written s negative n /\
    v = (if negative then Z.max (- 2 ^ 63) (- Z.of_N n) else Z.min (2 ^ 63 - 1) (Z.of_N n))%Z.
Proof.
  intros s v. unfold strtol. destruct (read_sign (skip_space s)) as [neg r] eqn:RS. split.
  - destruct (starts_digit r) eqn:ST.
    + destruct (read_digits r 0) as [n e] eqn:R. intros H. injection H as H1 H2. right. exists neg, n.
      split; [|auto]. apply written_parts. exists r. destruct e; [auto|discriminate].
    + intros H. injection H as H1 H2. left. destruct s; [auto|discriminate].
  - intros [[-> ->]|(neg' & n & W & V)].
    + cbn in RS. injection RS as <- <-. reflexivity.
    + apply written_parts in W. destruct W as (r' & RS' & ST & R). rewrite RS in RS'. injection RS' as -> ->.
      rewrite ST, R. subst v. reflexivity.
Qed.
Print Assumptions C51_signed.

Example C51_written : written (String (ascii_of_N 9) " +17") false 17 /\ strtoul (String (ascii_of_N 9) " +17") = (17, true) /\
  strtol "-17" = (-17, true)%Z.
Proof.
  split; [|vm_compute; auto]. exists (String (ascii_of_N 9) " "), "+"%string, "17"%string.
  split; [reflexivity|]. split; [intros c [<- | [<- | []]]; cbn; auto 8|]. split; [right; reflexivity|].
  apply (digits_more "1" 1 "7"%char); [|vm_compute; split; discriminate].
  apply (digits_one "1"%char). vm_compute. split; discriminate.
Qed.

Example C51_example : decimal 4096 = "4096" /\ strtoul "4096" = (4096, true) /\ snd (strtoul "40 96") = false.
Proof. vm_compute. repeat split. Qed.

(** A minus sign is accepted: a negative number is read as a huge one. *)
Theorem C51_negative_refuted : forall n, 0 < n < 2 ^ 64 ->
  strtoul (String.append "-" (decimal n)) = (2 ^ 64 - n, true).
Proof.
  intros n L. unfold strtoul. cbn [String.append].
  assert (S : skip_space (String "-" (decimal n)) = String "-" (decimal n)) by reflexivity.
  rewrite S. change (read_sign (String "-" (decimal n))) with (true, decimal n). cbv beta iota.
  destruct (decimal_first n) as (c & t & E & D).
  assert (SD : starts_digit (decimal n) = true) by (rewrite E; exact D). rewrite SD.
  rewrite decimal_read. destruct (N.leb_spec (2 ^ 64) n); [lia|]. f_equal. apply N.mod_small. lia.
Qed.
Print Assumptions C51_negative_refuted.

(** * Streams *)

Definition weight (st : stream) : nat := (String.length (s_rest st) + if s_good st then 1 else 0)%nat.

Lemma readUntil_weight d s a l st : readUntil s d = (a, l, st) ->
  (weight st <= String.length s)%nat /\ (s_good st = match l with None => false | _ => true end).
Proof.
  revert a l st. induction s as [|c t IH]; intros a l st H; cbn [readUntil] in H.
  - injection H as <- <- <-. cbn. auto.
  - destruct (in_set c d).
    + injection H as <- <- <-. unfold weight. cbn [s_rest s_good String.length]. split; [lia|reflexivity].
    + destruct (readUntil t d) as [[a0 l0] st0] eqn:E. injection H as <- <- <-.
      destruct (IH _ _ _ eq_refl). split; [cbn [String.length]; lia|auto].
Qed.

Lemma readUntil_word d w c rest : all_chars (fun x => negb (in_set x d)) w = true -> in_set c d = true ->
  readUntil (String.append w (String c rest)) d = (w, Some c, Stream rest true).
Proof.
  induction w as [|x w IH]; intros A C; cbn [String.append readUntil].
  - rewrite C. reflexivity.
  - cbn [all_chars] in A. apply andb_true_iff in A. destruct A as [A1 A2].
    destruct (in_set x d); [discriminate|]. rewrite IH by auto. reflexivity.
Qed.

(** * C49: image lists *)

Lemma in_newline c : in_set c newline = (code c =? 10) || (code c =? 13).
Proof. unfold in_set, newline. cbn [existsb]. rewrite orb_false_r. reflexivity. Qed.

Lemma lines_readUntil s : forall acc,
  lines_from acc s = let '(a, l, st) := readUntil s newline in
    String.append acc a :: match l with None => [] | Some _ => lines_from "" (s_rest st) end.
Proof.
  induction s as [|c t IH]; intros acc; cbn [lines_from readUntil].
  - rewrite sapp_nil. reflexivity.
  - rewrite in_newline. destruct (_ || _).
    + rewrite sapp_nil. reflexivity.
    + rewrite IH. destruct (readUntil t newline) as [[a l] st]. rewrite <- sapp_assoc. reflexivity.
Qed.

Lemma imageList_lines fuel : forall st acc, (weight st < fuel)%nat ->
  imageList_loop fuel st acc = Some (acc ++ if s_good st then nonempty_lines (s_rest st) else []).
Proof.
  induction fuel as [|fuel IH]; intros st acc L; [lia|].
  cbn [imageList_loop]. destruct (s_good st) eqn:G; [|rewrite app_nil_r; reflexivity].
  unfold nonempty_lines. rewrite lines_readUntil.
  destruct (readUntil (s_rest st) newline) as [[a l] st'] eqn:R.
  destruct (readUntil_weight _ _ _ _ _ R) as [W W2].
  rewrite IH. 2:{ unfold weight in L. rewrite G in L. lia. }
  f_equal. cbn [String.append filter]. rewrite W2.
  assert (E : String.eqb a "" = is_empty a) by (destruct a; reflexivity). rewrite E.
  destruct (is_empty a); cbn [negb]; destruct l; cbn [filter];
    rewrite <- ?app_assoc; reflexivity.
Qed.

(** The options that change the list of images. *)
Definition image_options : list string :=
  ["-i"; "--input"; "-a"; "--array"; "-c"; "--cube"; "-C"; "--cube-array"; "-I"; "--input-list"].

Lemma step_keeps fl file isnum cap c h tl c' rest : ~ In h image_options ->
  step fl file isnum cap c h tl = Go c' rest -> c_images c' = c_images c /\ c_imageType c' = c_imageType c.
Proof.
  intros N. unfold step. destruct (classify h) as [o|] eqn:Hcl; [|intros H; injection H as <- <-; split; reflexivity].
  apply classify_names in Hcl.
  destruct o; try (exfalso; apply N; destruct Hcl as [-> | ->]; cbn; tauto);
    try (intros H; injection H as <- <-; split; reflexivity);
    try (unfold do_jobs, do_dimension, do_type, do_alpha, do_quality, do_output, do_fileformat;
         brk; intros H; try discriminate; injection H as <- <-; split; reflexivity); intros E.
  - apply do_resize_inv in E. destruct E as (a & w & hh & f & _ & _ & ->). split; reflexivity.
  - apply do_mipmap_inv in E. destruct E as (a & n & f & _ & _ & ->). split; reflexivity.
  - apply do_custommip_inv in E. destruct E as (a & m & k & v & _ & _ & _ & _ & _ & _ & ->). split; reflexivity.
  - apply do_custommiplist_inv in E. destruct E as (a & m & k & _ & _ & ->). split; reflexivity.
  - apply do_rotate_inv in E. destruct E as (x & v & _ & _ & _ & (b & an & ->) & _). split; reflexivity.
  - apply do_normalmap_inv in E. destruct E as (x & v & hh & _ & ->). split; reflexivity.
  - apply do_swizzle_inv in E. destruct E as (x & r & g & b & a & _ & _ & ->). split; reflexivity.
  - unfold do_premultiply in E. rewrite alph_if in E. injection E as <- <-. split; reflexivity.
  - apply do_format_images in E. exact E.
Qed.

Lemma loop_keeps fl file isnum cap fuel : forall c args c',
  Inv0_any fl c -> (forall a, In a args -> ~ In a image_options) ->
  loop fl file isnum cap fuel c args = inl c' -> c_images c' = c_images c /\ c_imageType c' = c_imageType c.
Proof.
  induction fuel as [|fuel IH]; intros c args c' (segs & V) N H; [discriminate|].
  cbn [loop] in H. destruct args as [|h tl]; [injection H as <-; auto|].
  destruct (step fl file isnum cap c h tl) as [c1 rest| | |] eqn:E; try discriminate.
  destruct (step_keeps _ _ _ _ _ _ _ _ _ (N h (or_introl eq_refl)) E) as [S1 S2].
  destruct (Inv_step _ _ _ _ _ _ _ _ _ _ V E) as (a & -> & V1).
  destruct (IH c1 rest c') as [T1 T2]; auto.
  - eexists; exact V1.
  - intros x X. apply N. right. apply in_or_app. right; exact X.
  - rewrite T1, T2. auto.
Qed.

Lemma do_inputlist_lines file c kind f content rest c' rest' : file f = Some content -> c_images c = [] ->
  do_inputlist file c (kind :: f :: rest) = Go c' rest' ->
  c_images c' = nonempty_lines content /\ rest' = rest.
Proof.
  intros F C. unfold do_inputlist. rewrite C, F. rewrite imageList_lines.
  2:{ unfold weight. cbn [s_rest s_good]. lia. }
  destruct (if caseeq kind "image" then _ else _) as [it|]; [|discriminate].
  intros H; injection H as <- <-. split; reflexivity.
Qed.

Lemma validate_images fl visit c0 c : validate fl visit c0 = POk c -> c_dim c0 <> Cube -> c_images c = c_images c0.
Proof.
  intros V ND. apply validate_inv in V; auto. destruct V as (o & tcs & _ & E & _). cbv zeta in E. subst c. reflexivity.
Qed.

(** The images of a job with an input list are the lines of the file that are not empty, in
    their order. *)
Theorem C49_input_list : forall fl file isnum cap visit h kind f content rest c,
  h = "-I" \/ h = "--input-list" -> file f = Some content ->
  (forall a, In a rest -> ~ In a image_options) ->
  parse fl file isnum cap visit (h :: kind :: f :: rest) = POk c ->
  c_images c = nonempty_lines content.
Proof.
  intros fl file isnum cap visit h kind f content rest c Hh F N H.
  unfold parse in H. destruct (existsb _ _); [discriminate|].
  destruct (loop fl file isnum cap _ cl0 _) as [c0|r] eqn:E; [|subst r].
  - destruct (c_success c0); [|discriminate].
    destruct (loop_segments _ _ _ _ _ [] cl0 _ _ (Inv0 fl) (Forall_nil _) E) as (segs & Es & FF & I).
    rewrite (validate_images _ _ _ _ H).
    2:{ rewrite (i_dim _ _ _ I). apply last_value_in; [discriminate|]. repeat constructor; discriminate. }
    cbn [loop] in E.
    destruct (step fl file isnum cap cl0 h (kind :: f :: rest)) as [c1 rest1| | |] eqn:ES; try discriminate.
    destruct (Inv_step _ _ _ _ _ _ _ _ _ _ (Inv0 fl) ES) as (a & Ea & I1).
    assert (S : step fl file isnum cap cl0 h (kind :: f :: rest) = do_inputlist file cl0 (kind :: f :: rest)).
    { destruct Hh as [-> | ->]; reflexivity. }
    rewrite S in ES. apply (do_inputlist_lines _ _ _ _ content) in ES; auto. destruct ES as [E1 ->].
    destruct (loop_keeps fl file isnum cap _ c1 rest c0 (ex_intro _ _ I1) N E) as [K _]. congruence.
  - exfalso. clear - E. revert E. generalize (S (length (h :: kind :: f :: rest))).
    generalize (h :: kind :: f :: rest). generalize cl0.
    intros c0 l n. revert c0 l. induction n as [|n IH]; intros c0 l E; [discriminate|].
    cbn [loop] in E. destruct l; [discriminate|]. destruct (step _ _ _ _ _ _ _); try discriminate. eauto.
Qed.
Print Assumptions C49_input_list.

(** An input file with empty lines, DOS line ends and no line end at its end. *)
Definition list_file (_ : string) : option string :=
  Some (String.append "a.png" (String "013" (String "010" (String.append "b c.png"
       (String "010" (String "010" "d.png")))))).

Example C49_example : exists c,
  parse fl1 list_file nonum 1000 asis ["-I"; "array"; "l"; "-f"; "R8"; "-o"; "o.dds"] = POk c /\
  c_images c = ["a.png"; "b c.png"; "d.png"].
Proof.
  exists (match parse fl1 list_file nonum 1000 asis ["-I"; "array"; "l"; "-f"; "R8"; "-o"; "o.dds"] with POk c => c | _ => cl0 end).
  vm_compute. split; reflexivity.
Qed.

(** * C50: custom mip lists *)

Lemma nextToken_weight fuel : forall out st d t last, (weight st < fuel)%nat ->
  exists out' last' st', nextToken_loop fuel out st d t last = Some (out', last', st') /\
    (weight st' <= weight st)%nat /\
    (forall l, last = Some l -> s_good st = true -> in_set l t = false -> (weight st' < weight st)%nat).
Proof.
  induction fuel as [|fuel IH]; intros out st d t last L; [lia|].
  cbn [nextToken_loop]. destruct last as [l|].
  2:{ exists out, None, st. split; [reflexivity|]. split; [lia|discriminate]. }
  destruct (s_good st && negb (in_set l t)) eqn:G.
  - apply andb_true_iff in G. destruct G as [G1 G2].
    destruct (readUntil (s_rest st) d) as [[a l'] st'] eqn:R.
    destruct (readUntil_weight _ _ _ _ _ R) as [W W2].
    assert (W' : (weight st' < weight st)%nat) by (unfold weight at 2; rewrite G1; lia).
    destruct (negb (is_empty _)).
    + eexists _, _, _. split; [reflexivity|]. split; [lia|auto].
    + destruct (IH (String.append out a) st' d t l') as (o & la & s2 & E & W3 & _); [lia|].
      exists o, la, s2. split; [exact E|]. split; [lia|intros; lia].
  - exists out, (Some l), st. split; [reflexivity|]. split; [lia|].
    intros l0 E G1 G2. injection E as <-. rewrite G1, G2 in G. discriminate.
Qed.

Lemma readNextToken_weight fuel out st d t last b : (weight st < fuel)%nat ->
  exists out' last' st', readNextToken fuel out st d t last b = Some (out', last', st') /\
    (weight st' <= weight st)%nat /\
    (forall l, last = Some l -> s_good st = true -> in_set l t = false -> (weight st' < weight st)%nat).
Proof. intros L. unfold readNextToken. apply nextToken_weight; auto. Qed.

Lemma customMip_line_total fuel cur delim st m : (weight st < fuel)%nat ->
  exists r, customMip_line fuel cur delim st m = Some r /\
    match r with Some (st', _) => (weight st' <= weight st)%nat | None => True end.
Proof.
  intros L. unfold customMip_line. destruct (strtoul cur) as [level e]. destruct e; cbn [negb].
  2:{ eexists; split; [reflexivity|exact Logic.I]. }
  destruct (readNextToken_weight fuel cur st whitespace newline delim false L) as (o1 & l1 & s1 & -> & W1 & _).
  cbn [obind].
  assert (T2 : exists d o l s, (let (value, e) := strtoul o1 in
     if e then obind (readNextToken fuel o1 s1 whitespace newline l1 false) (fun '(cur, delim, st) => Some (value, cur, delim, st))
     else Some (0, o1, l1, s1)) = Some (d, o, l, s) /\ (weight s <= weight s1)%nat).
  { destruct (strtoul o1) as [value e]. destruct e.
    - destruct (readNextToken_weight fuel o1 s1 whitespace newline l1 false ltac:(lia)) as (o2 & l2 & s2 & -> & W2 & _).
      cbn [obind]. eexists _, _, _, _. split; [reflexivity|lia].
    - eexists _, _, _, _. split; [reflexivity|lia]. }
  destruct T2 as (d2 & o2 & l2 & s2 & T2 & W2).
  destruct (strtoul o1) as [value e]. rewrite T2. cbn [obind].
  assert (T3 : exists d o l s, (match strToCubeFace o2 with
     | Some f => obind (readNextToken fuel o2 s2 whitespace newline l2 false) (fun '(cur, delim, st) => Some (f, cur, delim, st))
     | None => Some (0, o2, l2, s2) end) = Some (d, o, l, s) /\ (weight s <= weight s2)%nat).
  { destruct (strToCubeFace o2) as [f|].
    - destruct (readNextToken_weight fuel o2 s2 whitespace newline l2 false ltac:(lia)) as (o3 & l3 & s3 & -> & W3 & _).
      cbn [obind]. eexists _, _, _, _. split; [reflexivity|lia].
    - eexists _, _, _, _. split; [reflexivity|lia]. }
  destruct T3 as (d3 & o3 & l3 & s3 & T3 & W3). rewrite T3. cbn [obind].
  assert (T4 : exists d o l s, (match strToMipReplace o3 with
     | Some f => obind (readNextToken fuel o3 s3 whitespace newline l3 false) (fun '(cur, delim, st) => Some (f, cur, delim, st))
     | None => Some (Continue, o3, l3, s3) end) = Some (d, o, l, s) /\ (weight s <= weight s3)%nat).
  { destruct (strToMipReplace o3) as [f|].
    - destruct (readNextToken_weight fuel o3 s3 whitespace newline l3 false ltac:(lia)) as (o4 & l4 & s4 & -> & W4 & _).
      cbn [obind]. eexists _, _, _, _. split; [reflexivity|lia].
    - eexists _, _, _, _. split; [reflexivity|lia]. }
  destruct T4 as (d4 & o4 & l4 & s4 & T4 & W4). rewrite T4. cbn [obind].
  destruct (readNextToken_weight fuel o4 s4 newline newline l4 true ltac:(lia)) as (o5 & l5 & s5 & -> & W5 & _).
  cbn [obind]. destruct (is_empty o5).
  { eexists; split; [reflexivity|exact Logic.I]. }
  destruct (emplace _ _ _) as [m2|]; [exists (Some (s5, m2))|exists None]; (split; [reflexivity|]); [lia|exact Logic.I].
Qed.

Lemma customMipList_total fuel : forall st m, (weight st < fuel)%nat -> customMipList_loop fuel st m <> None.
Proof.
  induction fuel as [|fuel IH]; intros st m L; [lia|].
  cbn [customMipList_loop]. destruct (s_good st) eqn:G; [|discriminate].
  destruct (readNextToken_weight (S fuel) "" st whitespace newline (Some zero) false L) as (o & l & s1 & -> & _ & W).
  specialize (W _ eq_refl G eq_refl). cbn [obind].
  destruct (is_empty o); [apply IH; lia|].
  destruct (customMip_line_total (S fuel) o l s1 m ltac:(lia)) as (r & -> & W2). cbn [obind].
  destruct r as [[s2 m2]|]; [|discriminate]. apply IH. lia.
Qed.

(** Reading either kind of list file ends, whatever the file contains. *)
Theorem C50_lists_end : forall content m,
  imageList_loop (S (S (String.length content))) (Stream content true) [] <> None /\
  customMipList_loop (S (S (String.length content))) (Stream content true) m <> None.
Proof.
  intros content m. split.
  - rewrite imageList_lines; [discriminate|]. unfold weight. cbn [s_rest s_good]. lia.
  - apply customMipList_total. unfold weight. cbn [s_rest s_good]. lia.
Qed.
Print Assumptions C50_lists_end.

(** A word that is followed by white space is the next token. *)
Definition word (w : string) : Prop := w <> "" /\ all_chars (fun x => negb (in_set x whitespace)) w = true.

Lemma token_word fuel out w rest l : word w -> in_set l newline = false ->
  readNextToken (S fuel) out (Stream (String.append w (String " " rest)) true) whitespace newline (Some l) false
  = Some (w, Some " "%char, Stream rest true).
Proof.
  intros [NE W] L. unfold readNextToken. cbn [nextToken_loop s_good]. rewrite L. cbn [negb andb s_rest].
  rewrite (readUntil_word whitespace w " " rest W eq_refl). cbn [String.append].
  destruct w; [contradiction|]. reflexivity.
Qed.

Lemma word_decimal n : word (decimal n).
Proof.
  split. { destruct (decimal_first n) as (c & t & -> & _). discriminate. }
  eapply all_chars_impl; [|apply decimal_digits]. intros c D. unfold isdigit, in_set, whitespace in *. cbn [existsb]. lia.
Qed.

Lemma word_face f : word (face_name f).
Proof. destruct f as [|[[[| |]|[| |]|]|[[| |]|[| |]|]|]]; (split; [discriminate|reflexivity]). Qed.

Lemma word_replace r : word (replace_name r).
Proof. destruct r; (split; [discriminate|reflexivity]). Qed.

Lemma face_read f : f < 6 -> strToCubeFace (face_name f) = Some f.
Proof.
  intros L. assert (f = 0 \/ f = 1 \/ f = 2 \/ f = 3 \/ f = 4 \/ f = 5) as C by lia.
  destruct C as [->|[->|[->|[->|[->| ->]]]]]; reflexivity.
Qed.

Lemma replace_read r : strToMipReplace (replace_name r) = Some r.
Proof. destruct r; reflexivity. Qed.

Lemma face_not_number f : f < 6 -> strToCubeFace (face_name f) = Some f /\ snd (strtoul (face_name f)) = false.
Proof.
  intros L. assert (f = 0 \/ f = 1 \/ f = 2 \/ f = 3 \/ f = 4 \/ f = 5) as C by lia.
  destruct C as [->|[->|[->|[->|[->| ->]]]]]; split; reflexivity.
Qed.

(** The first word of a file name and the rest of the line. *)
Lemma split_name name : writable name -> exists w r, name = String.append w r /\ word w /\
  match r with
  | EmptyString => True
  | String c t => in_set c whitespace = true /\ in_set c newline = false /\ all_chars (fun x => negb (in_set x newline)) t = true
  end.
Proof.
  intros [H A].
  assert (G : forall s, all_chars (fun c => negb (is_eol c)) s = true ->
    exists w r, s = String.append w r /\ all_chars (fun x => negb (in_set x whitespace)) w = true /\
    match r with
    | EmptyString => True
    | String c t => in_set c whitespace = true /\ in_set c newline = false /\ all_chars (fun x => negb (in_set x newline)) t = true
    end).
  { clear. induction s as [|c t IH]; intros A.
    - exists "", "". repeat split.
    - cbn [all_chars] in A. apply andb_true_iff in A. destruct A as [A1 A2].
      destruct (in_set c whitespace) eqn:W.
      + exists "", (String c t). split; [reflexivity|]. split; [reflexivity|]. split; [exact W|].
        split; [|exact A2]. change (in_set c newline) with (is_eol c). destruct (is_eol c); [discriminate|reflexivity].
      + destruct (IH A2) as (w & r & -> & Aw & R). exists (String c w), r. split; [reflexivity|].
        split; [|exact R]. cbn [all_chars]. rewrite W, Aw. reflexivity. }
  destruct (G name A) as (w & r & -> & Aw & R). exists w, r. split; [reflexivity|]. split; [|exact R].
  split; [|exact Aw]. intros ->. cbn [String.append] in *. destruct r as [|c t]; [contradiction|].
  destruct R as (R & _). change (in_set c whitespace) with (is_white c) in R. congruence.
Qed.

(** The last two reads of a line give the file name. *)
Lemma token_name fuel name rest l : writable name -> in_set l newline = false ->
  exists w d st,
    (forall out, readNextToken (S fuel) out (Stream (String.append name (String "010" rest)) true) whitespace newline (Some l) false
      = Some (w, d, st)) /\
    exists d', readNextToken (S fuel) w st newline newline d true = Some (name, d', Stream rest true).
Proof.
  intros N L. destruct (split_name name N) as (w & r & -> & [NE W] & R).
  destruct r as [|c t].
  - rewrite sapp_nil. exists w, (Some "010"%char), (Stream rest true). split.
    + intros out. unfold readNextToken. cbn [nextToken_loop s_good]. rewrite L. cbn [negb andb s_rest].
      rewrite (readUntil_word whitespace w "010" rest W eq_refl). cbn [String.append].
      destruct w; [contradiction|]. reflexivity.
    + exists (Some "010"%char). unfold readNextToken. cbn. rewrite andb_false_r. reflexivity.
  - destruct R as (R1 & R2 & R3). exists w, (Some c), (Stream (String.append t (String "010" rest)) true). split.
    + intros out. unfold readNextToken. cbn [nextToken_loop s_good]. rewrite L. cbn [negb andb s_rest].
      rewrite <- sapp_assoc. cbn [String.append].
      rewrite (readUntil_word whitespace w c (String.append t (String "010" rest)) W R1). cbn [String.append].
      destruct w; [contradiction|]. reflexivity.
    + exists (Some "010"%char). unfold readNextToken. rewrite R2.
      assert (Ew : is_empty w = false) by (destruct w; [contradiction|reflexivity]). rewrite Ew. cbn [negb andb].
      cbn [nextToken_loop s_good]. rewrite R2. cbn [negb andb s_rest].
      rewrite (readUntil_word newline t "010" rest R3 eq_refl). rewrite <- sapp_assoc. cbn [String.append].
      destruct w; [contradiction|]. reflexivity.
Qed.

(** One line. *)
Lemma line_read_any fuel e rest m : entry_ok e ->
  customMipList_loop (S fuel) (Stream (String.append (mip_line e) rest) true) m =
  match emplace (fst e) (snd e) m with
  | Some m => customMipList_loop fuel (Stream rest true) m
  | None => Some None
  end.
Proof.
  intros (L1 & L2 & L3 & NW). destruct e as [k [name r]]. cbn [fst snd] in *.
  unfold mip_line. cbn [fst snd]. rewrite <- !sapp_assoc. cbn [String.append].
  cbn [customMipList_loop s_good].
  rewrite (token_word fuel "" (decimal (x_level k)) _ zero (word_decimal _) eq_refl). cbn [obind].
  destruct (word_decimal (x_level k)) as [NE _].
  assert (E0 : is_empty (decimal (x_level k)) = false) by (destruct (decimal (x_level k)); [contradiction|reflexivity]).
  rewrite E0. unfold customMip_line.
  rewrite (C51_decimal (x_level k)) by lia. cbn [negb].
  rewrite (token_word fuel _ (decimal (x_depth k)) _ " " (word_decimal _) eq_refl). cbn [obind].
  rewrite (C51_decimal (x_depth k)) by lia.
  rewrite (token_word fuel _ (face_name (x_face k)) _ " " (word_face _) eq_refl). cbn [obind].
  rewrite (face_read _ L3).
  rewrite (token_word fuel _ (replace_name r) _ " " (word_replace _) eq_refl). cbn [obind].
  rewrite replace_read.
  destruct (token_name fuel name rest " " NW eq_refl) as (w & d & st & T1 & d' & T2).
  rewrite T1. cbn [obind]. rewrite T2. cbn [obind].
  assert (E1 : is_empty name = false) by (destruct NW as [NW _]; destruct name; [contradiction|reflexivity]).
  rewrite E1. unfold to_uint. rewrite !N.mod_small by lia.
  assert (EK : Index (x_face k) (x_level k) (x_depth k) = k) by (destruct k; reflexivity). rewrite EK.
  destruct (emplace k (name, r) m); reflexivity.
Qed.

Lemma line_read fuel e rest m : entry_ok e ->
  existsb (fun x => index_eqb (fst x) (fst e)) m = false ->
  customMipList_loop (S fuel) (Stream (String.append (mip_line e) rest) true) m =
  customMipList_loop fuel (Stream rest true) (m ++ [e]).
Proof.
  intros OK NI. rewrite line_read_any by auto. unfold emplace. rewrite NI. destruct e; reflexivity.
Qed.

Lemma index_eqb_eq a b : index_eqb a b = true <-> a = b.
Proof.
  unfold index_eqb. destruct a as [f l d], b as [f' l' d']. cbn [x_face x_level x_depth]. split.
  - intros H. f_equal; lia.
  - intros H. injection H as -> -> ->. rewrite !N.eqb_refl. reflexivity.
Qed.

Lemma existsb_index m k : ~ In k (map fst m) -> existsb (fun x : index * (string * replacement) => index_eqb (fst x) k) m = false.
Proof.
  intros N. apply not_true_is_false. intros H. apply existsb_exists in H. destruct H as (x & I & E).
  apply index_eqb_eq in E. subst k. apply N. apply in_map. exact I.
Qed.

Lemma lines_read es : forall fuel m, (length es + 2 <= fuel)%nat -> Forall entry_ok es ->
  NoDup (map fst (m ++ es)) ->
  customMipList_loop fuel (Stream (String.concat "" (map mip_line es)) true) m = Some (Some (m ++ es)).
Proof.
  induction es as [|e es IH]; intros fuel m L F ND.
  - destruct fuel as [|[|fuel]]; cbn [length] in L; try lia. rewrite app_nil_r. reflexivity.
  - inversion F as [|? ? F1 F2]; subst. destruct fuel as [|fuel]; cbn [length] in L; [lia|].
    assert (C : String.concat "" (map mip_line (e :: es)) = String.append (mip_line e) (String.concat "" (map mip_line es))).
    { cbn [map String.concat]. destruct (map mip_line es); [cbn; rewrite sapp_nil; reflexivity|reflexivity]. }
    rewrite C, line_read; auto.
    + rewrite IH; auto; [rewrite <- app_assoc; reflexivity|lia|].
      rewrite <- app_assoc. exact ND.
    + apply existsb_index. rewrite map_app in ND. cbn [map] in ND. apply NoDup_remove_2 in ND.
      intros I. apply ND. apply in_or_app. left; exact I.
Qed.

Lemma mip_line_length e : (1 <= String.length (mip_line e))%nat.
Proof. destruct e. unfold mip_line. rewrite !slen_app. cbn [String.length]. lia. Qed.

Lemma concat_length es : (length es <= String.length (String.concat "" (map mip_line es)))%nat.
Proof.
  induction es as [|e es IH]; [cbn; lia|].
  assert (C : String.concat "" (map mip_line (e :: es)) = String.append (mip_line e) (String.concat "" (map mip_line es))).
  { cbn [map String.concat]. destruct (map mip_line es); [cbn; rewrite sapp_nil; reflexivity|reflexivity]. }
  rewrite C, slen_app. pose proof (mip_line_length e). cbn [length]. lia.
Qed.

(** A list of custom mips that is written to a file, one per line with all its fields, is read
    back: the option adds exactly these mips, in any state of the parser that has none of them. *)
Theorem C50_custom_mip_list : forall fl file isnum cap c f rest es,
  Forall entry_ok es -> NoDup (map fst (c_customMips c ++ es)) ->
  file f = Some (String.concat "" (map mip_line es)) ->
  step fl file isnum cap c "--custom-mip-list" (f :: rest) = Go (set_customMips (c_customMips c ++ es) c) rest.
Proof.
  intros fl file isnum cap c f rest es F ND E.
  change (step fl file isnum cap c "--custom-mip-list" (f :: rest)) with (do_custommiplist file c (f :: rest)).
  unfold do_custommiplist. rewrite E, lines_read; auto. pose proof (concat_length es). lia.
Qed.
Print Assumptions C50_custom_mip_list.

Definition mips2 : list (index * (string * replacement)) :=
  [(Index 5 3 7, ("dir with space/x.png", Once)); (Index 0 12 0, ("y", Continue))].

Example C50_example : Forall entry_ok mips2 /\ NoDup (map fst (c_customMips cl0 ++ mips2)) /\
  mip_line (Index 5 3 7, ("dir with space/x.png", Once)) =
    String.append "3 7 -z once dir with space/x.png" (String "010" "").
Proof.
  split; [|split; [|reflexivity]].
  - repeat constructor.
  - cbn. constructor; [|constructor; [|constructor]]; cbn; intuition discriminate.
Qed.

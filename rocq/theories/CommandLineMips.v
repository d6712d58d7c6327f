(** Invariants about the image list and the custom mips, list files, and validation. *)

From Coq Require Import NArith ZArith List Bool String Ascii Lia Permutation.
From Coq Require Import ZifyBool ZifyNat ZifyN.
From Verif Require Import Base FormatModel SaveFormats TextureModel SaveModel CommandLineModel CommandLineSpec CommandLineProofs CommandLineInv.
Import ListNotations.
Local Open Scope string_scope.
Local Open Scope list_scope.
Local Open Scope N_scope.
Local Notation length := List.length.

Definition mips := list (index * (string * replacement)).

(** * The custom mips *)

(** Distinct indices with legal faces. *)
Definition mips_ok (m : mips) : Prop :=
  NoDup (map fst m) /\ Forall (fun e => x_face (fst e) < 6 /\ x_level (fst e) < 2 ^ 32 /\ x_depth (fst e) < 2 ^ 32) m.

Lemma index_eqb_spec a b : index_eqb a b = true <-> a = b.
Proof.
  unfold index_eqb. rewrite !andb_true_iff, !N.eqb_eq. destruct a, b; cbn. split.
  - intros [[-> ->] ->]. reflexivity.
  - intros H; inversion H; auto.
Qed.

Lemma emplace_ok k v m m' : mips_ok m -> x_face k < 6 -> x_level k < 2 ^ 32 -> x_depth k < 2 ^ 32 ->
  emplace k v m = Some m' -> mips_ok m'.
Proof.
  unfold emplace, mips_ok. intros [N F] F6 L D.
  destruct (existsb _ m) eqn:E; [discriminate|]. intros H; injection H as <-.
  split.
  - rewrite map_app. cbn [map fst]. apply NoDup_rev in N.
    rewrite <- (rev_involutive (map fst m ++ [k])). apply NoDup_rev. rewrite rev_app_distr. cbn.
    constructor; auto. rewrite <- in_rev. intros I. apply in_map_iff in I. destruct I as ([k' v'] & Ek & I).
    cbn in Ek. subst k'.
    assert (T : existsb (fun e => index_eqb (fst e) k) m = true).
    { apply existsb_exists. exists (k, v'). split; auto. apply index_eqb_spec. reflexivity. }
    congruence.
  - apply Forall_app. split; auto.
Qed.

Lemma to_uint_lt n : to_uint n < 2 ^ 32.
Proof. unfold to_uint. apply N.mod_lt. discriminate. Qed.

Lemma customMip_line_ok fuel cur delim st m st' m' : mips_ok m ->
  customMip_line fuel cur delim st m = Some (Some (st', m')) -> mips_ok m'.
Proof.
  intros OK. unfold customMip_line. destruct (strtoul cur) as [level e]. destruct e; [|discriminate]. cbn [negb].
  destruct (readNextToken _ _ _ _ _ _ _) as [[[cur1 d1] st1]|]; [|discriminate]. cbn [obind].
  destruct (strtoul cur1) as [value e]. 
  destruct (if e then _ else _) as [[[[depth cur2] d2] st2]|]; [|discriminate]. cbn [obind].
  assert (F : forall face cur3 d3 st3,
    match strToCubeFace cur2 with
    | Some f => obind (readNextToken fuel cur2 st2 whitespace newline d2 false)
                  (fun '(cur, delim, st) => Some (f, cur, delim, st))
    | None => Some (0, cur2, d2, st2)
    end = Some (face, cur3, d3, st3) -> face < 6).
  { intros face cur3 d3 st3. destruct (strToCubeFace cur2) eqn:E.
    - apply strToCubeFace_lt in E. destruct (readNextToken _ _ _ _ _ _ _) as [[[? ?] ?]|]; [|discriminate].
      cbn. intros H; injection H as -> _ _ _. auto.
    - intros H; injection H as <- _ _ _. lia. }
  destruct (match strToCubeFace cur2 with Some _ => _ | None => _ end) as [[[[face cur3] d3] st3]|] eqn:EF; [|discriminate].
  specialize (F _ _ _ _ eq_refl). cbn [obind].
  set (RR := match strToMipReplace cur3 with Some _ => _ | None => _ end). clearbody RR.
  destruct RR as [[[[repl cur4] d4] st4]|]; [|discriminate].
  cbn [obind].
  match goal with |- obind ?x _ = _ -> _ => set (RR := x) end. clearbody RR.
  destruct RR as [[[cur5 d5] st5]|]; [|discriminate]. cbn [obind].
  destruct (is_empty cur5); [discriminate|].
  destruct (emplace _ _ _) as [m1|] eqn:EM; [|discriminate].
  intros H; injection H as _ <-. eapply emplace_ok; eauto; cbn; auto using to_uint_lt.
Qed.

Lemma customMipList_ok fuel : forall st m m', mips_ok m ->
  customMipList_loop fuel st m = Some (Some m') -> mips_ok m'.
Proof.
  induction fuel as [|fuel IH]; intros st m m' OK; [discriminate|].
  cbn [customMipList_loop]. destruct (s_good st).
  2:{ intros H; injection H as <-; auto. }
  destruct (readNextToken _ _ _ _ _ _ _) as [[[cur d] st1]|]; [|discriminate]. cbn [obind].
  destruct (is_empty cur); [apply IH; auto|].
  destruct (customMip_line _ _ _ _ _) as [[[st2 m2]|]|] eqn:E; [|discriminate|discriminate]. cbn [obind].
  apply IH. eapply customMip_line_ok; eauto.
Qed.

Lemma mips_step fl file isnum cap c h tl c' rest :
  mips_ok (c_customMips c) -> step fl file isnum cap c h tl = Go c' rest -> mips_ok (c_customMips c').
Proof.
  intros OK H. unfold step in H. destruct (classify h) as [o|].
  2:{ injection H as <- _. exact OK. }
  destruct o; try (injection H as <- _; exact OK).
  - revert H. unfold do_jobs. destruct tl as [|x t]; [intros H; injection H as <- _; exact OK|].
    destruct (strtol x) as [v e]. destruct e; intros H; injection H as <- _; exact OK.
  - unfold do_input in H. destruct (c_images c); [|discriminate]. destruct tl; [discriminate|].
    injection H as <- _. exact OK.
  - apply do_array_inv in H. destruct H as (a & x & im & idx & _ & _ & _ & _ & _ & _ & _ & ->).
    destruct (c_images c); exact OK.
  - apply do_cube_inv in H. destruct H as (f & x & face & im & -> & _ & _ & _ & ->). destruct (c_images c); exact OK.
  - apply do_cubearray_inv in H. destruct H as (i & f & x & ci & face & im & -> & _ & _ & _ & _ & _ & ->).
    destruct (c_images c); exact OK.
  - apply do_inputlist_inv in H. destruct H as (t & f & it & im & -> & _ & ->). exact OK.
  - apply do_resize_inv in H. destruct H as (a & w & hh & f & -> & _ & ->). exact OK.
  - apply do_mipmap_inv in H. destruct H as (a & n & f & -> & _ & ->). exact OK.
  - apply do_custommip_inv in H. destruct H as (a & m & k & v & -> & _ & E & F6 & L & D & ->).
    eapply emplace_ok; eauto.
  - apply do_custommiplist_inv in H. destruct H as (f & ct & m & -> & E & ->).
    eapply customMipList_ok; eauto.
  - apply do_rotate_inv in H. destruct H as (x & v & -> & E & _ & (b & an & ->) & T). exact OK.
  - apply do_normalmap_inv in H. destruct H as (a & o & hh & -> & ->). exact OK.
  - apply do_swizzle_inv in H. destruct H as (x & r & g & b & a & -> & D & ->). exact OK.
  - unfold do_premultiply in H. rewrite alph_if in H. injection H as <- _. exact OK.
  - unfold do_dimension in H. destruct tl as [|x t]; [discriminate|].
    repeat (destruct (String.eqb _ _) in H; [injection H as <- _; exact OK|]). discriminate.
  - unfold do_format in H. destruct tl as [|x t]; [discriminate|].
    revert H. destruct (find_format (formatMap fl) x) as [f|].
    + change (c_fmt (set_fmt f c)) with f. destruct f; try discriminate; intros H; injection H as <- _; exact OK.
    + destruct (c_fmt c); try discriminate; intros H; injection H as <- _; exact OK.
  - unfold do_type in H. destruct tl as [|x t]; [discriminate|].
    repeat (destruct (caseeq _ _) in H; [injection H as <- _; exact OK|]). discriminate.
  - unfold do_alpha in H. destruct tl as [|x t]; [discriminate|].
    repeat (destruct (caseeq _ _) in H; [injection H as <- _; exact OK|]). discriminate.
  - unfold do_quality in H. destruct tl as [|x t]; [discriminate|].
    repeat (destruct (caseeq _ _) in H; [injection H as <- _; exact OK|]). discriminate.
  - unfold do_output in H. destruct tl as [|x t]; [discriminate|]. destruct (c_output c); [discriminate|].
    injection H as <- _. exact OK.
  - unfold do_fileformat in H. destruct tl as [|x t]; [discriminate|].
    repeat (destruct (caseeq _ _) in H; [injection H as <- _; exact OK|]). discriminate.
Qed.

(** * Validation *)

Lemma nth_upd_same {A} i (v d : A) l : (i < length l)%nat -> nth i (upd i v l) d = v.
Proof. revert i; induction l as [|x t IH]; intros [|i] L; simpl in *; try lia; auto. apply IH; lia. Qed.

Lemma nth_upd_other {A} i j (v d : A) l : i <> j -> nth j (upd i v l) d = nth j l d.
Proof. revert i j; induction l as [|x t IH]; intros [|i] [|j] L; simpl; try lia; auto. Qed.

Lemma check_mips_spec d3 depth l : forall counts r,
  check_mips d3 depth l counts = inl r ->
  Forall (fun e => x_level (fst e) <> 0 /\
    (d3 = false -> x_depth (fst e) < depth) /\
    (d3 = true -> x_level (fst e) < 32 /\ x_depth (fst e) < level_depth depth (x_level (fst e)))) l /\
  (d3 = true -> forall L, nth (N.to_nat L) r 0 = nth (N.to_nat L) counts 0 +
     N.of_nat (length (filter (fun e => x_level (fst e) =? L) l))).
Proof.
  induction l as [|[k v] t IH]; intros counts r H; cbn [check_mips] in H.
  - injection H as <-. split; [constructor|]. intros _ L. cbn. lia.
  - destruct (N.eqb_spec (x_level k) 0) as [|NZ]; [discriminate|].
    destruct d3.
    + destruct (N.leb_spec 32 (x_level k)) as [|L32]; [discriminate|].
      destruct (N.leb_spec (N.max (N.shiftr depth (x_level k)) 1) (x_depth k)) as [|LD]; [discriminate|].
      destruct (IH _ _ H) as [F C]. split.
      * constructor; auto. cbn [fst]. split; auto. split; [discriminate|]. intros _. split; auto.
        unfold level_depth. rewrite N.shiftr_div_pow2 in LD. exact LD.
      * intros _ L. rewrite (C eq_refl L). clear C F IH H. cbn [filter fst].
        unfold count_up.
        set (cs := counts ++ repeat 0 (S (N.to_nat (x_level k)) - length counts)).
        assert (LEN : (N.to_nat (x_level k) < length cs)%nat).
        { subst cs. rewrite app_length, repeat_length. lia. }
        assert (NTH : forall i, nth i cs 0 = nth i counts 0).
        { intros i. subst cs. destruct (Nat.lt_ge_cases i (length counts)).
          - rewrite app_nth1 by auto. reflexivity.
          - rewrite app_nth2 by auto. rewrite (nth_overflow counts) by auto. apply nth_repeat. }
        destruct (N.eqb_spec (x_level k) L) as [EL|NE].
        { subst L. rewrite nth_upd_same by exact LEN. rewrite NTH. cbn [length]. lia. }
        { rewrite nth_upd_other by lia. rewrite NTH. lia. }
    + destruct (N.leb_spec depth (x_depth k)) as [|LD]; [discriminate|].
      destruct (IH _ _ H) as [F C]. split; [|discriminate].
      constructor; auto. cbn [fst]. split; auto. split; [auto|discriminate].
Qed.

Lemma check_counts_spec depth counts : forall i, check_counts depth i counts = true ->
  forall j, (j < length counts)%nat -> 0 < nth j counts 0 -> nth j counts 0 = level_depth depth (i + N.of_nat j).
Proof.
  induction counts as [|n t IH]; intros i H j L P; [simpl in L; lia|].
  cbn [check_counts] in H.
  destruct ((0 <? n) && negb (n =? N.max (N.shiftr depth i) 1)) eqn:E; [discriminate|].
  destruct j as [|j].
  - cbn [nth] in *. rewrite N.add_0_r. unfold level_depth. rewrite <- N.shiftr_div_pow2.
    apply andb_false_iff in E. destruct E as [E|E]; lia.
  - cbn [nth] in *. rewrite (IH (i + 1) H j) by (simpl in L; try lia; auto). f_equal. lia.
Qed.

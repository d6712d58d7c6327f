(** C52, C53: the grammar of the command line and what every option means. *)

From Coq Require Import NArith ZArith List Bool String Ascii Lia Permutation.
From Coq Require Import ZifyBool ZifyNat ZifyN.
From Verif Require Import Base FormatModel SaveFormats TextureModel SaveModel CommandLineModel CommandLineSpec
  CommandFilesSpec CommandLineProofs CommandLineInv PropsCommandLine PropsCommandFiles
  CommandGrammar CommandGrammarCut CommandGrammarProofs.
Import ListNotations.
Local Open Scope string_scope.
Local Open Scope list_scope.
Local Open Scope N_scope.
Local Notation length := List.length.

Section Props.
Variable fl : flags.
Variable file : string -> option string.
Variable isnum : string -> bool.
Variable cap : N.
Variable visit : list (index * (string * replacement)) -> list (index * (string * replacement)).

Lemma dim_cases (args : list string) (ds : list directive) : spelled fl isnum args ds ->
  last_of (fun d => match d with D_dimension v => Some v | _ => None end) Dim2D ds <> Cube.
Proof.
  intros S. assert (G : forall v, v <> Cube ->
    last_of (fun d => match d with D_dimension v => Some v | _ => None end) v ds <> Cube).
  { induction S as [|o h ops rest d ds W O S IH]; intros v N; [exact N|]. unfold last_of in *. cbn [fold_left].
    apply IH. destruct O; try exact N. destruct H as [H|[H|[H|[]]]]; injection H as <- <-; discriminate. }
  apply G. discriminate.
Qed.

Lemma loop_nok fuel : forall c0 args c, loop fl file isnum cap fuel c0 args <> inr (POk c).
Proof.
  induction fuel as [|fuel IH]; intros c0 args c H; [discriminate|]. cbn [loop] in H.
  destruct args as [|h tl]; [discriminate|]. destruct (step fl file isnum cap c0 h tl); try discriminate.
  exact (IH _ _ _ H).
Qed.

Lemma parse_effects args c : parse fl file isnum cap visit args = POk c ->
  exists ds c0, spelled fl isnum args ds /\ effects file cap ds cl0 = Some c0 /\ c_dim c0 <> Cube /\
    validate fl visit c0 = POk c.
Proof.
  unfold parse. destruct args as [|a t]; [discriminate|]. destruct (existsb _ (a :: t)); [discriminate|].
  destruct (loop _ _ _ _ _ _ _) as [c0|r] eqn:E.
  - destruct (c_success c0) eqn:S; [|discriminate]. intros V. apply loop_effects in E; [|exact S].
    destruct E as (ds & Sp & X). exists ds, c0. split; [exact Sp|]. split; [exact X|]. split; [|exact V].
    rewrite (s_dim _ _ (eff_state _ _ _ _ X)). exact (dim_cases _ _ Sp).
  - intros ->. exfalso. exact (loop_nok _ _ _ _ E).
Qed.
End Props.

Lemma named_in {A} (t : list (string * A)) s v : named t s = Some v -> In v (map snd t).
Proof.
  induction t as [|[n w] t IH]; cbn; [discriminate|]. destruct (String.eqb _ _); [intros H; injection H as ->; auto|auto].
Qed.

(** An accepted command line is a sequence of directives of the grammar, and every setting is
    the one they say. *)
Theorem C52_settings : forall fl file isnum cap visit args c,
  parse fl file isnum cap visit args = POk c ->
  exists ds, spelled fl isnum args ds /\ settings ds c.
Proof.
  intros fl file isnum cap visit args c H. apply parse_effects in H.
  destruct H as (ds & c0 & Sp & X & ND & V). exists ds. split; [exact Sp|].
  pose proof (eff_state _ _ _ _ X) as S. apply validate_inv in V; [|exact ND].
  destruct V as (o & tcs & O & E & T & _). cbv zeta in E.
  pose proof (s_quad _ _ S) as Q. rewrite quad_fold in Q. unfold quad in Q. injection Q as Qs Qm Qp Qa.
  pose proof (s_format _ _ S) as Fm. pose proof (s_output _ _ S) as Ou. rewrite O in Ou. cbn [opt_list] in Ou.
  subst c. constructor; try (destruct S; assumption).
  - change (tcs = if existsb is_srgb ds && hasNativeSRGB (c_fmt c0) (c_ttyp c0) then CS_sRGB else CS_Linear).
    subst tcs. rewrite (s_textureCS _ _ S). destruct (existsb is_srgb ds); [|reflexivity]. cbn [andb].
    destruct (hasNativeSRGB _ _); reflexivity.
  - change ((if match c_imageType c0 with IT_Cube | IT_CubeArray => true | _ => false end then Cube else c_dim c0) =
      match kind_of ds with IT_Cube | IT_CubeArray => Cube
      | _ => last_of (fun d => match d with D_dimension v => Some v | _ => None end) Dim2D ds end).
    rewrite (s_kind _ _ S), (s_dim _ _ S). destruct (kind_of ds); reflexivity.
  - rewrite <- Fm. reflexivity.
  - rewrite <- Fm. reflexivity.
  - exists o. split; [exact O|]. split; [symmetry; exact Ou|]. rewrite <- (s_ftype _ _ S). reflexivity.
Qed.
Print Assumptions C52_settings.

(** A command line spells at most one sequence of directives. *)
Theorem C52_unambiguous : forall fl isnum args ds ds',
  spelled fl isnum args ds -> spelled fl isnum args ds' -> ds = ds'.
Proof. intros fl isnum args ds ds' H H'. exact (spelled_unique fl isnum args ds H ds' H'). Qed.
Print Assumptions C52_unambiguous.

(** The images are in the places the directives name, each place is named once, and nothing
    else is among the images. *)
Theorem C53_images : forall fl file isnum cap visit args ds c,
  parse fl file isnum cap visit args = POk c -> spelled fl isnum args ds ->
  (forall i face f, In (D_cubearray i face f) ds -> i < 2 ^ 61) ->
  (forall k s, nth_error (c_images c) (N.to_nat k) = Some s <-> s <> "" /\ In (k, s) (placed file 0 ds)) /\
  NoDup (map fst (filter (fun p => negb (String.eqb (snd p) "")) (placed file 0 ds))).
Proof.
  intros fl file isnum cap visit args ds c H Sp Sm. apply parse_effects in H.
  destruct H as (ds' & c0 & Sp' & X & ND & V). rewrite (C52_unambiguous _ _ _ _ _ Sp Sp') in *. clear Sp.
  assert (F : Forall fits ds').
  { apply Forall_forall. intros d I. destruct d; try exact Logic.I. split; [eapply Sm; exact I|].
    clear -Sp' I. induction Sp' as [|o h ops rest d ds W O S IH]; [destruct I|]. destruct I as [->|I]; [|auto].
    inversion O; subst.
    match goal with H : named face_names _ = Some _ |- _ => apply named_in in H; cbn in H; lia end. }
  destruct (effects_images file isnum cap ds' cl0 c0 [] 0 X F) as [Ho U]; auto.
  { intros k s NE. cbn. split; [destruct (N.to_nat k); discriminate|tauto]. }
  { constructor. }
  apply validate_inv in V; [|exact ND]. destruct V as (o & tcs & _ & E & _ & _ & _ & NE & _). cbv zeta in E.
  subst c. cbn [c_images set_textureCS set_ftype set_dim]. cbn [app] in Ho, U. split.
  - intros k s. split.
    + intros Q. assert (NS : s <> "") by (rewrite Forall_forall in NE; apply NE; eapply nth_error_In; exact Q).
      split; [exact NS|]. apply (Ho k s NS). exact Q.
    + intros [NS I]. apply (Ho k s NS). exact I.
  - unfold uniq in U. erewrite filter_ext; [exact U|]. intros [k s]. unfold filled. cbn [snd].
    destruct s; reflexivity.
Qed.
Print Assumptions C53_images.

(** The custom mips are those the directives add, in order. *)
Theorem C53_custom_mips : forall fl file isnum cap visit args ds c,
  parse fl file isnum cap visit args = POk c -> spelled fl isnum args ds ->
  exists parts, Forall2 (entries file) ds parts /\ c_customMips c = List.concat parts.
Proof.
  intros fl file isnum cap visit args ds c H Sp. apply parse_effects in H.
  destruct H as (ds' & c0 & Sp' & X & ND & V). rewrite (C52_unambiguous _ _ _ _ _ Sp Sp') in *. clear Sp.
  destruct (effects_mips file cap ds' cl0 c0 X) as (parts & F & M).
  exists parts. split; [exact F|]. apply validate_inv in V; [|exact ND]. destruct V as (o & tcs & _ & E & _).
  cbv zeta in E. subst c. exact M.
Qed.
Print Assumptions C53_custom_mips.

(** * Acceptance *)

(** A directive about images only looks at the images and their kind. *)
Definition twin (c c1 : cl) : Prop := c_images c = c_images c1 /\ c_imageType c = c_imageType c1.

Lemma twin_set im c c1 : twin c c1 -> twin (set_images im c) (set_images im c1).
Proof. intros [_ T]. split; [reflexivity|exact T]. Qed.

Lemma kinded_twin k c c1 c1' : twin c c1 -> kinded k c1 = Some c1' -> exists c', kinded k c = Some c' /\ twin c' c1'.
Proof.
  intros [I T]. unfold kinded. rewrite I, T. destruct (c_images c1) eqn:E.
  - intros Q; injection Q as <-. eexists. split; [reflexivity|]. split; [cbn; congruence|reflexivity].
  - destruct (imagetype_eqb _ _); [|discriminate]. intros Q; injection Q as <-. exists c. split; [reflexivity|].
    split; congruence.
Qed.

Lemma put_twin k v c c1 c1' : twin c c1 -> put c1 k v = Some c1' -> exists c', put c k v = Some c' /\ twin c' c1'.
Proof.
  intros [I T]. unfold put. rewrite I. destruct (_ <? _); [|discriminate]. destruct (is_empty _); [|discriminate].
  intros Q; injection Q as <-. eexists. split; [reflexivity|]. split; [reflexivity|exact T].
Qed.

Lemma image_twin file cap d c c1 c1' : is_image d = true -> twin c c1 -> effect file cap d c1 = Some c1' ->
  exists c', effect file cap d c = Some c' /\ twin c' c1'.
Proof.
  intros Im T. destruct d; try discriminate Im; cbn [effect]; intros H.
  - destruct T as [I T]. rewrite I. destruct (c_images c1); [|discriminate]. injection H as <-.
    eexists. split; [reflexivity|]. split; [reflexivity|exact T].
  - destruct (kinded IT_Array c1) as [c2|] eqn:K; [|discriminate].
    destruct (kinded_twin _ _ _ _ T K) as (c3 & -> & T2). cbn [obind] in *. rewrite (proj1 T2).
    destruct (if _ <=? _ then _ else _) as [im|]; [|discriminate]. cbn [obind] in *.
    eapply put_twin; [|exact H]. apply twin_set. exact T2.
  - destruct (match c_images c1 with [] => _ | _ => _ end) as [c2|] eqn:K; [|discriminate]. cbn [obind] in H.
    assert (exists c3, match c_images c with
             | [] => obind (resize cap [] 6) (fun im => Some (set_images im (set_imageType IT_Cube c)))
             | _ => kinded IT_Cube c
             end = Some c3 /\ twin c3 c2) as (c3 & -> & T2).
    { rewrite (proj1 T). destruct (c_images c1).
      - destruct (resize cap [] 6) as [im|]; [|discriminate]. injection K as <-. eexists. split; [reflexivity|]. split; reflexivity.
      - exact (kinded_twin _ _ _ _ T K). }
    cbn [obind]. eapply put_twin; eauto.
  - destruct (kinded IT_CubeArray c1) as [c2|] eqn:K; [|discriminate].
    destruct (kinded_twin _ _ _ _ T K) as (c3 & -> & T2). cbn [obind] in *. rewrite (proj1 T2).
    destruct (if _ <=? _ then _ else _) as [im|]; [|discriminate]. cbn [obind] in *.
    eapply put_twin; [|exact H]. apply twin_set. exact T2.
  - rewrite (proj1 T). destruct (c_images c1); [|discriminate]. destruct (file f); [|discriminate].
    destruct (imageList_loop _ _ _); [|discriminate]. injection H as <-. eexists. split; [reflexivity|]. split; reflexivity.
Qed.

(** The other directives only need a format and a free output. *)
Lemma plain_twin file cap d c : is_image d = false -> is_custom d = false ->
  (forall o, d = D_format o -> exists f, o = Some f /\ f <> F_Unknown) ->
  (forall f, d = D_output f -> c_output c = None) ->
  exists c', effect file cap d c = Some c' /\ twin c' c.
Proof.
  intros I C F O.
  assert (G : (exists c', effect file cap d c = Some c')).
  { destruct d; try discriminate I; try discriminate C; cbn [effect]; eauto.
    - destruct n; eauto.
    - destruct (F _ eq_refl) as (f' & -> & N). cbn. destruct f'; eauto. contradiction.
    - rewrite (O _ eq_refl). eauto. }
  destruct G as (c' & G). exists c'. split; [exact G|]. split.
  - apply (images_same file cap d c c' G). destruct d; try discriminate I; exact Logic.I.
  - rewrite (effect_plain file cap _ _ _ G). cbn [c_imageType set_images set_customMips].
    destruct d; try discriminate I; try reflexivity. cbn [plain]. unfold rotated.
    destruct (Z.rem (Z.quot degrees 90) 4) as [|p|p]; try reflexivity; destruct p as [[]|[]|]; reflexivity.
Qed.

Lemma effects_twin file cap ds : forall c c1 c1', twin c c1 ->
  effects file cap (filter is_image ds) c1 = Some c1' -> existsb is_custom ds = false ->
  (forall o, In (D_format o) ds -> exists f, o = Some f /\ f <> F_Unknown) ->
  (length (opt_list (c_output c) ++ outputs ds) <= 1)%nat ->
  exists c', effects file cap ds c = Some c' /\ twin c' c1'.
Proof.
  induction ds as [|d ds IH]; intros c c1 c1' T H C F O.
  - cbn in H. injection H as <-. exists c. auto.
  - cbn [filter existsb] in H, C. apply orb_false_iff in C. destruct C as [C1 C2].
    assert (F2 : forall o, In (D_format o) ds -> exists f, o = Some f /\ f <> F_Unknown) by (intros o Q; apply F; right; exact Q).
    cbn [effects]. destruct (is_image d) eqn:I.
    + cbn [effects] in H. destruct (effect file cap d c1) as [c2|] eqn:X; [|discriminate]. cbn [obind] in H.
      destruct (image_twin _ _ _ _ _ _ I T X) as (c3 & E3 & T3). rewrite E3. cbn [obind]. eapply IH; eauto.
      pose proof (eff_output file cap [d] c c3) as Q. cbn [effects] in Q. rewrite E3 in Q. specialize (Q eq_refl).
      rewrite Q. destruct d; try discriminate I; cbn [outputs flat_map app] in *; rewrite app_nil_r; exact O.
    + destruct (plain_twin file cap d c I C1) as (c3 & E3 & T3).
      * intros o ->. apply F. left; reflexivity.
      * intros f ->. destruct (c_output c); [|reflexivity]. cbn [opt_list outputs flat_map app length] in O. lia.
      * rewrite E3. cbn [obind]. eapply (IH c3 c1); [|exact H|exact C2|exact F2|].
        -- destruct T, T3. split; congruence.
        -- pose proof (eff_output file cap [d] c c3) as Q. cbn [effects] in Q. rewrite E3 in Q. specialize (Q eq_refl).
           rewrite Q. rewrite <- app_assoc. unfold outputs in *. cbn [flat_map] in *. rewrite app_nil_r. exact O.
Qed.

(** The usual ways to give images. *)
Lemma array_effects file cap fs : forall c, (c_images c = [] \/ c_imageType c = IT_Array) ->
  N.of_nat (length (c_images c) + length fs) <= cap -> N.of_nat (length (c_images c) + length fs) < 2 ^ 64 ->
  exists c', effects file cap (map (D_array None) fs) c = Some c' /\ c_images c' = c_images c ++ fs.
Proof.
  induction fs as [|f fs IH]; intros c K L1 L2.
  - exists c. rewrite app_nil_r. auto.
  - cbn [map effects effect].
    assert (exists c1, kinded IT_Array c = Some c1 /\ c_images c1 = c_images c /\ c_imageType c1 = IT_Array) as (c1 & -> & I1 & T1).
    { unfold kinded. destruct (c_images c) eqn:E.
      - eexists. split; [reflexivity|]. split; [exact E|reflexivity].
      - destruct K as [K|K]; [discriminate|]. rewrite K. exists c. cbn. auto. }
    cbn [obind]. cbv zeta. rewrite N.leb_refl, I1. cbn [length] in L1, L2.
    assert (U : u64 (N.of_nat (length (c_images c)) + 1) = N.of_nat (length (c_images c)) + 1) by (unfold u64; rewrite N.mod_small; lia).
    rewrite U. unfold resize. destruct (N.leb_spec (N.of_nat (length (c_images c)) + 1) (N.of_nat (length (c_images c)))); [lia|].
    destruct (N.leb_spec (N.of_nat (length (c_images c)) + 1) cap); [|lia].
    replace (N.to_nat (N.of_nat (length (c_images c)) + 1 - N.of_nat (length (c_images c)))) with 1%nat by lia.
    cbn [obind repeat]. unfold put. change (c_images (set_images ?x c1)) with x.
    rewrite app_length. cbn [length]. destruct (N.ltb_spec (N.of_nat (length (c_images c))) (N.of_nat (length (c_images c) + 1))); [|lia].
    rewrite Nat2N.id, app_nth2 by lia. rewrite Nat.sub_diag. cbn [nth is_empty obind].
    assert (UE : upd (length (c_images c)) f (c_images c ++ [""]) = c_images c ++ [f]).
    { clear. induction (c_images c) as [|x l IH]; [reflexivity|]. cbn [length upd app]. rewrite IH. reflexivity. }
    rewrite UE. destruct (IH (set_images (c_images c ++ [f]) (set_images (c_images c ++ [""]) c1))) as (c' & E' & I').
    + right. exact T1.
    + cbn [c_images set_images]. rewrite app_length. cbn [length]. lia.
    + cbn [c_images set_images]. rewrite app_length. cbn [length]. lia.
    + exists c'. split; [exact E'|]. rewrite I'. cbn [c_images set_images]. rewrite <- app_assoc. reflexivity.
Qed.

Lemma cube_effects file cap p : forall c, (c_images c = [] /\ 6 <= cap \/ c_imageType c = IT_Cube /\ length (c_images c) = 6%nat) ->
  NoDup (map fst p) -> (forall x, In x p -> fst x < 6 /\ nth (N.to_nat (fst x)) (c_images c) "" = "") ->
  p <> [] \/ length (c_images c) = 6%nat ->
  exists c', effects file cap (map (fun x => D_cube (fst x) (snd x)) p) c = Some c' /\ length (c_images c') = 6%nat /\
    forall k, (k < 6)%nat -> (exists s, In (N.of_nat k, s) p /\ nth k (c_images c') "" = s) \/
      (~ In (N.of_nat k) (map fst p) /\ nth k (c_images c') "" = nth k (c_images c) "").
Proof.
  induction p as [|[face f] p IH]; intros c K ND E NE.
  - exists c. split; [reflexivity|]. destruct NE as [|L]; [contradiction|]. split; [exact L|]. intros k Hk. right. split; [intros []|reflexivity].
  - cbn [map effects effect fst snd] in *. inversion ND as [|? ? N1 N2]; subst.
    assert (exists c1, match c_images c with
             | [] => obind (resize cap [] 6) (fun im => Some (set_images im (set_imageType IT_Cube c)))
             | _ => kinded IT_Cube c
             end = Some c1 /\ c_imageType c1 = IT_Cube /\ length (c_images c1) = 6%nat /\
             forall k, nth k (c_images c1) "" = nth k (c_images c) "") as (c1 & -> & T1 & L1 & S1).
    { destruct K as [[K1 K2]|[K1 K2]].
      - rewrite K1. unfold resize. cbn. destruct (N.leb_spec 6 cap); [|lia]. cbn.
        eexists. split; [reflexivity|]. split; [reflexivity|]. split; [reflexivity|]. intros k.
        destruct k as [|[|[|[|[|[|[|k]]]]]]]; reflexivity.
      - destruct (c_images c) eqn:X; [discriminate|]. unfold kinded. rewrite X, K1. cbn [imagetype_eqb].
        exists c. rewrite X. auto. }
    cbn [obind]. unfold put. rewrite L1. destruct (E (face, f) (or_introl eq_refl)) as [B0 E0]. cbn [fst] in B0, E0.
    destruct (N.ltb_spec face (N.of_nat 6)); [|lia]. rewrite S1, E0. cbn [is_empty obind].
    destruct (IH (set_images (upd (N.to_nat face) f (c_images c1)) c1)) as (c' & E' & L' & S').
    + right. split; [exact T1|]. cbn [c_images set_images]. rewrite upd_length. exact L1.
    + exact N2.
    + intros x I. destruct (E x (or_intror I)) as [B1 B2]. split; [exact B1|]. cbn [c_images set_images].
      assert (fst x <> face) by (intros Q; apply N1; rewrite <- Q; apply in_map; exact I).
      rewrite CommandLineMips.nth_upd_other by lia. rewrite S1. exact B2.
    + right. cbn [c_images set_images]. rewrite upd_length. exact L1.
    + exists c'. split; [exact E'|]. split; [exact L'|]. intros k Hk. destruct (S' k Hk) as [(s & I & Q)|[I Q]].
      * left. exists s. split; [right; exact I|exact Q].
      * cbn [c_images set_images] in Q. destruct (N.eq_dec (N.of_nat k) face) as [<-|D].
        -- left. exists f. split; [left; reflexivity|]. rewrite Q, Nat2N.id. apply CommandLineMips.nth_upd_same. lia.
        -- right. split; [cbn [In]; intros [Z|Z]; [congruence|exact (I Z)]|]. rewrite Q, CommandLineMips.nth_upd_other by lia. apply S1.
Qed.

Lemma usual_effects file cap ds k : usual_images cap ds k ->
  exists c', effects file cap ds cl0 = Some c' /\ c_images c' <> [] /\ Forall (fun i => i <> "") (c_images c') /\
    match k with IT_Image => length (c_images c') = 1%nat | IT_Cube => length (c_images c') = 6%nat
               | IT_CubeArray => False | IT_Array => True end.
Proof.
  intros U. destruct U as [f NE|fs N F L1 L2|p P F L].
  - eexists. split; [reflexivity|]. cbn. split; [discriminate|]. split; [repeat constructor; exact NE|reflexivity].
  - destruct (array_effects file cap fs cl0) as (c' & E & I); [left; reflexivity|cbn; lia|cbn; lia|].
    exists c'. split; [exact E|]. cbn in I. rewrite I. auto.
  - assert (ND : NoDup (map fst p)).
    { eapply Permutation_NoDup; [apply Permutation_sym; exact P|]. repeat constructor; cbn; intuition discriminate. }
    destruct (cube_effects file cap p cl0) as (c' & E & L' & S).
    + left. split; [reflexivity|exact L].
    + exact ND.
    + intros x I. split.
      * assert (In (fst x) [0; 1; 2; 3; 4; 5]) as Q by (eapply Permutation_in; [exact P|]; apply in_map; exact I).
        cbn [In] in Q. lia.
      * destruct (N.to_nat (fst x)); reflexivity.
    + left. intros ->. cbn in P. apply Permutation_length in P. discriminate.
    + exists c'. split; [exact E|]. split; [intros Q; rewrite Q in L'; discriminate|]. split; [|exact L'].
      apply Forall_forall. intros s I. apply (In_nth _ _ "") in I. destruct I as (k & Hk & <-). rewrite L' in Hk.
      destruct (S k Hk) as [(s & I & ->)|[I _]].
      * rewrite Forall_forall in F. apply (F _ I).
      * exfalso. apply I. eapply Permutation_in; [apply Permutation_sym; exact P|].
        destruct k as [|[|[|[|[|[|]]]]]]; cbn; auto 10; lia.
Qed.

Lemma named_format fl a f : named (format_names fl) a = Some f -> f <> F_Unknown.
Proof.
  intros H. apply named_in in H. intros ->. revert H. unfold format_names. rewrite map_map. cbn [snd].
  destruct fl as [[] [] [] []]; cbn; intuition discriminate.
Qed.

(** A command line of the grammar that makes a texture is accepted. *)
Theorem C52_accepted : forall fl file isnum cap visit args ds,
  (forall m, Permutation (visit m) m) ->
  spelled fl isnum args ds -> ~ In "-h" args -> ~ In "--help" args -> makes_texture fl cap ds ->
  exists c, parse fl file isnum cap visit args = POk c.
Proof.
  intros fl file isnum cap visit args ds PV Sp H1 H2 [Im Dm Cu Fo (o & Ou & FA & FV)].
  destruct (usual_effects file cap _ _ Im) as (c1 & E1 & NE & NF & Kd).
  assert (Fo' : forall o, In (D_format o) ds -> exists f, o = Some f /\ f <> F_Unknown).
  { intros q I. specialize (Fo _ I). destruct q as [f|]; [|congruence]. exists f. split; [reflexivity|].
    clear -Sp I. induction Sp as [|oo h ops rest d ds W O S IH]; [destruct I|]. destruct I as [->|I]; [|auto].
    remember (D_format (Some f)) as d eqn:Ed. destruct O; try discriminate Ed. injection Ed as Ed.
    exact (named_format fl a f Ed). }
  destruct (effects_twin file cap ds cl0 cl0 c1) as (c0 & E0 & T0 & T0'); auto.
  { split; reflexivity. }
  { cbn [c_output cl0 opt_list app]. change (outputs ds = [o]) in Ou. rewrite Ou. cbn. lia. }
  pose proof (eff_state _ _ _ _ E0) as S.
  assert (L : loop fl file isnum cap (Datatypes.S (length args)) cl0 args = inl c0) by (eapply effects_loop; [exact Sp|exact E0|lia]).
  unfold parse. destruct args as [|a t].
  { inversion Sp; subst. cbn in E1. injection E1 as <-. contradiction NE. reflexivity. }
  assert (HH : existsb (fun a => matches a "-h" "--help") (a :: t) = false).
  { apply not_true_is_false. intros Q. apply existsb_exists in Q. destruct Q as (x & I & M). apply matches_cases in M.
    destruct M as [->| ->]; auto. }
  rewrite HH, L, (eff_success file cap _ _ _ E0). cbn [c_success cl0].
  assert (Ms : c_customMips c0 = []).
  { destruct (effects_mips file cap ds cl0 c0 E0) as (parts & F & ->). cbn. clear -F Cu.
    induction F as [|d es ds parts E F IH]; [reflexivity|]. cbn [existsb] in Cu. apply orb_false_iff in Cu. destruct Cu as [C1 C2].
    cbn [List.concat]. rewrite (IH C2), app_nil_r. destruct d; try exact E; discriminate C1. }
  unfold validate. rewrite T0. destruct (c_images c1) as [|i0 ims] eqn:EI; [contradiction NE; reflexivity|]. rewrite <- EI in *.
  assert (CK : exists c2, check_kind c0 = Some c2 /\ exists dm, c2 = set_dim dm c0).
  { assert (S0 : c0 = set_dim (c_dim c0) c0) by (destruct c0; reflexivity).
    unfold check_kind. rewrite T0, (s_kind _ _ S). destruct (kind_of ds) eqn:K; try contradiction Kd.
    - rewrite Kd. cbn. eauto.
    - eauto.
    - rewrite Kd. cbn. rewrite (s_dim _ _ S), (Dm eq_refl). eauto. }
  destruct CK as (c2 & -> & dm & ->). cbn [c_images c_fmt c_output c_ftype set_dim]. rewrite T0.
  assert (EE : existsb is_empty (c_images c1) = false).
  { apply not_true_is_false. intros Q. apply existsb_exists in Q. destruct Q as (x & I & M). rewrite Forall_forall in NF.
    apply (NF x I). apply is_empty_iff. exact M. }
  rewrite EE. pose proof (s_format _ _ S) as Fm. pose proof (s_output _ _ S) as Oo. change (outputs ds = [o]) in Ou. rewrite Ou in Oo.
  destruct (c_output c0) as [o'|]; [|discriminate]. cbn [opt_list] in Oo. injection Oo as ->.
  rewrite <- Fm in FV. cbn [fst snd] in FV. rewrite <- (s_ftype _ _ S) in FA, FV.
  set (ft := match c_ftype c0 with FT_Auto => fileType (codes o) | t => t end) in *.
  assert (FT : forall d, match c_ftype c0 with FT_Auto => set_ftype (fileType (codes o)) (set_dim d c0) | _ => set_dim d c0 end = set_ftype ft (set_dim d c0)).
  { intros d. subst ft. destruct (c_ftype c0) eqn:X; try reflexivity; destruct c0; cbn in X; subst; reflexivity. }
  rewrite FT. cbv zeta. cbn [c_ftype set_ftype c_fmt c_ttyp set_dim c_textureCS].
  assert (FU : c_fmt c0 <> F_Unknown).
  { intros Q. rewrite Q in FV. revert FV. clear. generalize (c_ttyp c0). intros ty. destruct ft; destruct ty; vm_compute; discriminate. }
  rewrite FV. cbn [negb].
  set (c3 := match c_textureCS c0 with
             | CS_Linear => set_ftype ft (set_dim dm c0)
             | CS_sRGB => if negb (hasNativeSRGB (c_fmt c0) (c_ttyp c0)) then set_textureCS CS_Linear (set_ftype ft (set_dim dm c0)) else set_ftype ft (set_dim dm c0) end).
  assert (C3 : c_customMips c3 = []) by (subst c3; destruct (c_textureCS c0); [exact Ms|destruct (negb _); exact Ms]).
  assert (G : (if (c_mipLevels c3 <=? 1) && (match c_customMips c3 with [] => false | _ => true end) then PFalse
    else match check_mips (is_dim3d (c_dim c3)) (to_uint (N.of_nat (length (c_images c3)))) (visit (c_customMips c3)) [] with
      | inl counts => if check_counts (to_uint (N.of_nat (length (c_images c3)))) 0 counts then POk c3 else PFalse
      | inr r => r end) = POk c3).
  { rewrite C3, andb_false_r. assert (V0 : visit [] = []) by (apply Permutation_nil, Permutation_sym, PV). rewrite V0. reflexivity. }
  assert (M1 : forall (x y : presult), match c_fmt c0 with F_Unknown => x | _ => y end = y) by (clear -FU; intros x y; destruct (c_fmt c0); congruence).
  assert (M2 : forall (x y : presult), match ft with FT_Auto => x | _ => y end = y) by (clear -FA; intros x y; destruct ft; congruence).
  exists c3. rewrite M1, M2. exact G.
Qed.
Print Assumptions C52_accepted.

(** The number of a cube is multiplied by six modulo 2^64: with a large enough number the image
    silently becomes a face of another cube. *)
Definition wrapped_cubes : list string :=
  let big := "3074457345618258602" in
  ["-C"; big; "+z"; "a"; "-C"; big; "-z"; "b"; "-C"; "1"; "+x"; "g"; "-C"; "1"; "-x"; "h"; "-C"; "1"; "+y"; "i";
   "-C"; "1"; "-y"; "j"; "-C"; "1"; "+z"; "k"; "-C"; "1"; "-z"; "l"; "-C"; "0"; "+y"; "c"; "-C"; "0"; "-y"; "d";
   "-C"; "0"; "+z"; "e"; "-C"; "0"; "-z"; "f"; "-f"; "R8G8B8A8"; "-o"; "out.dds"].

Ltac spell := repeat first
  [ exact (spelled_nil _ _)
  | refine (spelled_cons _ _ O_cubearray _ [_; _; _] _ _ _ _ (P_cubearray _ _ _ _ _ _ _ _ _ _) _); [cbn; tauto|vm_compute; reflexivity|vm_compute; reflexivity|]
  | refine (spelled_cons _ _ O_cube _ [_; _] _ _ _ _ (P_cube _ _ _ _ _ _ _) _); [cbn; tauto|vm_compute; reflexivity|]
  | refine (spelled_cons _ _ O_format _ [_] _ _ _ _ (P_format _ _ _ _) _); [cbn; tauto|]
  | refine (spelled_cons _ _ O_output _ [_] _ _ _ _ (P_output _ _ _ _) _); [cbn; tauto|]
  | refine (spelled_cons _ _ O_input _ [_] _ _ _ _ (P_input _ _ _ _) _); [cbn; tauto|]
  | refine (spelled_cons _ _ O_srgb _ [] _ _ _ _ (P_srgb _ _ _) _); [cbn; tauto|]
  | refine (spelled_cons _ _ O_rotate _ [_] _ _ _ _ (P_rotate _ _ _ _ _ _ _) _); [cbn; tauto|vm_compute; reflexivity|eexists (-1)%Z; reflexivity|]
  | refine (spelled_cons _ _ O_swizzle _ [_] _ _ _ _ (P_swizzle _ _ _ _ _ _ _ _ _ _ _ _ _ _ _) _);
      [cbn; tauto|vm_compute; reflexivity|vm_compute; reflexivity|vm_compute; reflexivity|vm_compute; reflexivity|]
  | refine (spelled_cons _ _ O_mipmap _ ([_] ++ [_]) _ _ _ _ (P_mipmap _ _ _ [_] _ [_] _ (present _ _ _ _ _) (present _ _ _ _ _)) _);
      [cbn; tauto|vm_compute; reflexivity|vm_compute; reflexivity|] ].

Theorem C53_cube_index_refuted : exists args ds c i f,
  parse1 args = POk c /\ spelled fl1 nonum args ds /\ In (D_cubearray i 4 f) ds /\ i <> 0 /\
  length (c_images c) = 12%nat /\ nth_error (c_images c) 0 = Some f.
Proof.
  exists wrapped_cubes.
  eexists _, _, 3074457345618258602, "a". split; [vm_compute; reflexivity|]. split; [unfold wrapped_cubes; spell|].
  split; [left; reflexivity|]. split; [discriminate|]. split; reflexivity.
Qed.
Print Assumptions C53_cube_index_refuted.

(** Case: an image with mipmaps, a swizzle that drops alpha, a quarter turn to the left, in sRGB. *)
Definition turned_image : list string :=
  ["-i"; "in.png"; "-m"; "4"; "box"; "--swizzle"; "bgrx"; "--rotate"; "-90"; "-f"; "r8g8b8a8"; "--srgb"; "-o"; "out.dds"].
Definition turned_directives : list directive :=
  [D_input "in.png"; D_mipmap (Some 4) (Some RF_Box); D_swizzle Ch_Blue Ch_Green Ch_Red Ch_None; D_rotate (-90);
   D_format (Some F_R8G8B8A8); D_srgb; D_output "out.dds"].

Example C52_case : spelled fl1 nonum turned_image turned_directives /\ makes_texture fl1 1 turned_directives /\
  ~ In "-h" turned_image /\ ~ In "--help" turned_image /\
  exists c, parse fl1 nofile nonum 1 asis turned_image = POk c /\ settings turned_directives c /\
    (c_maskA c, c_alph c, c_textureCS c, c_redSwzl c, turns c, c_mipLevels c) =
    (false, AlphaNone, CS_sRGB, Ch_Blue, (-1)%Z, 4).
Proof.
  assert (S : spelled fl1 nonum turned_image turned_directives) by (unfold turned_image, turned_directives; spell).
  split; [exact S|]. split.
  { constructor.
    - apply U_image. discriminate.
    - discriminate.
    - reflexivity.
    - intros o [Q|[Q|[Q|[Q|[Q|[Q|[Q|[]]]]]]]]; try discriminate Q. injection Q as <-. discriminate.
    - exists "out.dds". split; [reflexivity|]. split; [discriminate|reflexivity]. }
  split; [cbn; intuition discriminate|]. split; [cbn; intuition discriminate|].
  eexists. split; [vm_compute; reflexivity|]. split.
  - edestruct (C52_settings fl1 nofile nonum 1 asis turned_image) as (ds & Sp & M); [vm_compute; reflexivity|].
    rewrite (C52_unambiguous _ _ _ _ _ S Sp). exact M.
  - reflexivity.
Qed.

(** Case: the faces of a cube out of order. *)
Definition shuffled_cube : list string :=
  ["-c"; "+z"; "e"; "-c"; "-x"; "b"; "-c"; "+x"; "a"; "-c"; "-z"; "f"; "-c"; "-y"; "d"; "-c"; "+y"; "c"; "-f"; "BC7"; "-o"; "out.ktx"].
Definition shuffled_directives : list directive :=
  [D_cube 4 "e"; D_cube 1 "b"; D_cube 0 "a"; D_cube 5 "f"; D_cube 3 "d"; D_cube 2 "c"; D_format (Some F_BC7); D_output "out.ktx"].

Example C53_case : spelled fl1 nonum shuffled_cube shuffled_directives /\ makes_texture fl1 6 shuffled_directives /\
  placed nofile 0 shuffled_directives = [(4, "e"); (1, "b"); (0, "a"); (5, "f"); (3, "d"); (2, "c")] /\
  exists c, parse fl1 nofile nonum 6 asis shuffled_cube = POk c /\ c_images c = ["a"; "b"; "c"; "d"; "e"; "f"].
Proof.
  split; [unfold shuffled_cube, shuffled_directives; spell|]. split.
  { constructor.
    - apply (U_cube 6 [(4, "e"); (1, "b"); (0, "a"); (5, "f"); (3, "d"); (2, "c")]); [|repeat constructor; discriminate|discriminate].
      apply NoDup_Permutation; [repeat constructor; cbn; intuition discriminate|repeat constructor; cbn; intuition discriminate|].
      intros x. cbn. tauto.
    - reflexivity.
    - reflexivity.
    - intros o H. cbn in H. decompose [or] H; try discriminate; try contradiction. injection H0 as <-. discriminate.
    - exists "out.ktx". split; [reflexivity|]. split; [discriminate|reflexivity]. }
  split; [reflexivity|]. eexists. split; vm_compute; reflexivity.
Qed.

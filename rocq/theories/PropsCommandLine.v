(** C41, C42, C43: the command line parser. *)

From Coq Require Import NArith ZArith List Bool String Ascii Lia Permutation.
From Coq Require Import ZifyBool ZifyNat ZifyN.
From Verif Require Import Base FormatModel SaveFormats TextureModel SaveModel CommandLineModel CommandLineSpec CommandLineProofs CommandLineInv CommandLineMips.
Import ListNotations.
Local Open Scope string_scope.
Local Open Scope list_scope.
Local Open Scope N_scope.
Local Notation length := List.length.

(** * Lemmas *)

Lemma loop_mips fl file isnum cap fuel : forall c args c',
  mips_ok (c_customMips c) -> loop fl file isnum cap fuel c args = inl c' -> mips_ok (c_customMips c').
Proof.
  induction fuel as [|fuel IH]; intros c args c' I H; [discriminate|].
  cbn [loop] in H. destruct args as [|h tl]; [injection H as <-; auto|].
  destruct (step fl file isnum cap c h tl) as [c1 rest| | |] eqn:E; try discriminate.
  eapply IH; [|exact H]. eapply mips_step; eauto.
Qed.

Lemma last_value_in {A} (P : A -> Prop) a b (t : list (string * A)) d segs :
  P d -> Forall (fun e => P (snd e)) t -> P (last_value a b t d segs).
Proof.
  intros D F. unfold last_value. revert d D. induction segs as [|s r IH]; intros d D; [exact D|].
  cbn [fold_left]. apply IH.
  destruct s as [|h [|x [|? ?]]]; auto. destruct (_ || _); auto.
  assert (N : forall t, Forall (fun e => P (snd e)) t -> match named t x with Some v => P v | None => True end).
  { clear. induction t as [|[n v] t IH]; intros F; cbn; auto. inversion F; subst.
    destruct (String.eqb _ _); [assumption|apply IH; assumption]. }
  specialize (N t F). destruct (named t x); auto.
Qed.

Lemma perm_filter {A} (f : A -> bool) l l' : Permutation l l' -> Permutation (filter f l) (filter f l').
Proof.
  intros P. induction P as [|x l l' P IH|x y l|l l' l'' P1 IH1 P2 IH2]; cbn; auto.
  - destruct (f x); auto.
  - destruct (f x), (f y); auto. apply perm_swap.
  - eapply perm_trans; eauto.
Qed.

Lemma existsb_empty l : existsb is_empty l = false -> Forall (fun i => i <> EmptyString) l.
Proof.
  induction l as [|x t IH]; intros H; [constructor|]. cbn in H. apply orb_false_iff in H. destruct H as [H1 H2].
  constructor; auto. intros ->. discriminate.
Qed.

(** What a successful validation has checked and changed. *)
Lemma validate_inv fl visit c0 c : c_dim c0 <> Cube -> validate fl visit c0 = POk c ->
  exists o tcs, c_output c0 = Some o /\
    let cube := match c_imageType c0 with IT_Cube | IT_CubeArray => true | _ => false end in
    let ft := match c_ftype c0 with FT_Auto => fileType (codes o) | x => x end in
    c = set_textureCS tcs (set_ftype ft (set_dim (if cube then Cube else c_dim c0) c0)) /\
    tcs = (match c_textureCS c0 with
           | CS_sRGB => if hasNativeSRGB (c_fmt c0) (c_ttyp c0) then CS_sRGB else CS_Linear
           | CS_Linear => CS_Linear end) /\
    c_images c0 <> [] /\ kind_ok c /\ Forall (fun i => i <> EmptyString) (c_images c0) /\
    c_fmt c0 <> F_Unknown /\ ft <> FT_Auto /\
    isFormatValidFile fl (c_fmt c0) (c_ttyp c0) ft = true /\
    (c_customMips c0 <> [] -> 1 < c_mipLevels c0) /\
    exists counts, check_mips (is_dim3d (c_dim c)) (to_uint (N.of_nat (length (c_images c0))))
        (visit (c_customMips c0)) [] = inl counts /\
      check_counts (to_uint (N.of_nat (length (c_images c0)))) 0 counts = true.
Proof.
  intros ND. unfold validate.
  destruct (c_images c0) as [|im0 ims] eqn:EI; [discriminate|].
  set (cube := match c_imageType c0 with IT_Cube | IT_CubeArray => true | _ => false end).
  destruct (check_kind c0) as [c1|] eqn:EK; [|discriminate].
  assert (K : c1 = set_dim (if cube then Cube else c_dim c0) c0 /\ kind_ok c1).
  { revert EK. unfold check_kind, kind_ok. subst cube.
    assert (S : c0 = set_dim (c_dim c0) c0) by (destruct c0; reflexivity).
    destruct (c_imageType c0) eqn:ET.
    - destruct (N.eqb_spec (N.of_nat (length (c_images c0))) 1) as [L|]; [|discriminate]. cbn [negb].
      intros H; injection H as <-. split; auto. rewrite ET. split; [lia|auto].
    - intros H; injection H as <-. split; auto. rewrite ET, EI. split; [discriminate|auto].
    - destruct (N.eqb_spec (N.of_nat (length (c_images c0))) 6) as [L|]; [|discriminate]. cbn [negb].
      destruct (c_dim c0); try discriminate. intros H; injection H as <-. split; auto.
      change (c_imageType (set_dim Cube c0)) with (c_imageType c0). rewrite ET. split; [|reflexivity].
      change (c_images (set_dim Cube c0)) with (c_images c0). lia.
    - destruct (N.eqb_spec (N.of_nat (length (c_images c0)) mod 6) 0) as [L|]; [|discriminate]. cbn [negb].
      destruct (c_dim c0); try discriminate. intros H; injection H as <-. split; auto.
      change (c_imageType (set_dim Cube c0)) with (c_imageType c0). rewrite ET. split; [|reflexivity].
      change (c_images (set_dim Cube c0)) with (c_images c0).
      exists (N.to_nat (N.of_nat (length (c_images c0)) / 6)).
      assert (0 < length (c_images c0))%nat by (rewrite EI; simpl; lia). lia. }
  destruct K as [K KO]. subst c1.
  set (c1 := set_dim (if cube then Cube else c_dim c0) c0) in *.
  change (c_images c1) with (c_images c0). rewrite EI.
  destruct (existsb is_empty (im0 :: ims)) eqn:EE; [discriminate|].
  change (c_fmt c1) with (c_fmt c0). change (c_output c1) with (c_output c0). change (c_ftype c1) with (c_ftype c0).
  intros H.
  assert (FU : c_fmt c0 <> F_Unknown) by (intros X; rewrite X in H; discriminate).
  destruct (c_output c0) as [o|] eqn:EO; [|destruct (c_fmt c0); discriminate].
  exists o.
  set (ft := match c_ftype c0 with FT_Auto => fileType (codes o) | x => x end).
  assert (FT : match c_ftype c0 with FT_Auto => set_ftype (fileType (codes o)) c1 | _ => c1 end = set_ftype ft c1).
  { subst ft. destruct (c_ftype c0) eqn:X; try reflexivity; subst c1; destruct c0; cbn in X; subst; reflexivity. }
  rewrite FT in H. cbv zeta in H.
  set (c2 := set_ftype ft c1) in *.
  change (c_ftype c2) with ft in H. change (c_fmt c2) with (c_fmt c0) in H. change (c_ttyp c2) with (c_ttyp c0) in H.
  change (c_textureCS c2) with (c_textureCS c0) in H.
  assert (H' : match ft with FT_Auto => PFalse | _ =>
    if negb (isFormatValidFile fl (c_fmt c0) (c_ttyp c0) ft) then PFalse
    else
    let c := match c_textureCS c0 with
           | CS_sRGB => if negb (hasNativeSRGB (c_fmt c0) (c_ttyp c0)) then set_textureCS CS_Linear c2 else c2
           | CS_Linear => c2
           end in
    if (c_mipLevels c <=? 1) && (match c_customMips c with [] => false | _ => true end) then PFalse
    else
    let depth := to_uint (N.of_nat (length (c_images c))) in
    match check_mips (is_dim3d (c_dim c)) depth (visit (c_customMips c)) [] with
    | inr r => r
    | inl counts => if check_counts depth 0 counts then POk c else PFalse
    end end = POk c).
  { destruct (c_fmt c0); try exact H. contradiction. }
  clear H. rename H' into H.
  assert (FA : ft <> FT_Auto) by (intros X; rewrite X in H; discriminate).
  assert (H' : (if negb (isFormatValidFile fl (c_fmt c0) (c_ttyp c0) ft) then PFalse
    else
    let c := match c_textureCS c0 with
           | CS_sRGB => if negb (hasNativeSRGB (c_fmt c0) (c_ttyp c0)) then set_textureCS CS_Linear c2 else c2
           | CS_Linear => c2
           end in
    if (c_mipLevels c <=? 1) && (match c_customMips c with [] => false | _ => true end) then PFalse
    else
    let depth := to_uint (N.of_nat (length (c_images c))) in
    match check_mips (is_dim3d (c_dim c)) depth (visit (c_customMips c)) [] with
    | inr r => r
    | inl counts => if check_counts depth 0 counts then POk c else PFalse
    end) = POk c) by (destruct ft; [contradiction|exact H|exact H|exact H]).
  clear H. rename H' into H.
  destruct (isFormatValidFile fl (c_fmt c0) (c_ttyp c0) ft) eqn:EV; [|discriminate]. cbn [negb] in H.
  set (tcs := match c_textureCS c0 with CS_sRGB => if hasNativeSRGB (c_fmt c0) (c_ttyp c0) then CS_sRGB else CS_Linear | CS_Linear => CS_Linear end).
  assert (TC : match c_textureCS c0 with
           | CS_sRGB => if negb (hasNativeSRGB (c_fmt c0) (c_ttyp c0)) then set_textureCS CS_Linear c2 else c2
           | CS_Linear => c2 end = set_textureCS tcs c2).
  { subst tcs. destruct (c_textureCS c0) eqn:X; [|destruct (hasNativeSRGB _ _); [|reflexivity]];
    cbn [negb]; subst c2 c1; destruct c0; cbn in X; subst; reflexivity. }
  rewrite TC in H. cbv zeta in H.
  change (c_mipLevels (set_textureCS tcs c2)) with (c_mipLevels c0) in H.
  change (c_customMips (set_textureCS tcs c2)) with (c_customMips c0) in H.
  change (c_images (set_textureCS tcs c2)) with (c_images c0) in H. rewrite EI in H.
  destruct ((c_mipLevels c0 <=? 1) && _) eqn:EM; [discriminate|].
  destruct (check_mips _ _ _ _) as [counts|r] eqn:EC.
  2:{ exfalso. revert EC H. clear. intros EC ->.
      assert (N : forall d l cs r, check_mips d (to_uint (N.of_nat (length (im0 :: ims)))) l cs = inr r -> forall x, r <> POk x).
      { induction l as [|[k v] t IH]; intros cs r H x; [discriminate|]. cbn [check_mips] in H.
        destruct (x_level k =? 0); [injection H as <-; discriminate|].
        destruct d.
        - destruct (32 <=? x_level k); [injection H as <-; discriminate|].
          destruct (_ <=? x_depth k); [injection H as <-; discriminate|]. eapply IH; eauto.
        - destruct (_ <=? x_depth k); [injection H as <-; discriminate|]. eapply IH; eauto. }
      eapply N; eauto. }
  destruct (check_counts _ 0 counts) eqn:EQ; [|discriminate].
  injection H as <-.
  exists tcs. split; [reflexivity|]. cbv zeta. fold cube ft.
  split; [reflexivity|]. split; [reflexivity|]. split; [discriminate|].
  split. { exact KO. }
  split; [apply existsb_empty; exact EE|].
  split; [exact FU|]. split; [exact FA|]. split; [first [exact EV|reflexivity]|]. split.
  - intros X. destruct (N.leb_spec (c_mipLevels c0) 1) as [|]; [|auto].
    destruct (c_customMips c0); [contradiction|discriminate].
  - exists counts. auto.
Qed.

Lemma parse_inv fl file isnum cap visit args c : parse fl file isnum cap visit args = POk c ->
  exists segs c0, args = List.concat segs /\ Forall (fun s => s <> []) segs /\ Inv fl segs c0 /\
    mips_ok (c_customMips c0) /\ c_dim c0 <> Cube /\ validate fl visit c0 = POk c.
Proof.
  unfold parse. destruct args as [|a t]; [discriminate|].
  destruct (existsb _ (a :: t)); [discriminate|].
  destruct (loop _ _ _ _ _ _ _) as [c0|r] eqn:E; [|].
  - destruct (c_success c0); [|discriminate]. intros V.
    destruct (loop_segments _ _ _ _ _ [] cl0 _ _ (Inv0 fl) (Forall_nil _) E) as (segs & Es & F & I).
    exists segs, c0. split; [exact Es|]. split; [exact F|]. split; [exact I|]. split.
    + eapply loop_mips; [|exact E]. split; [constructor|constructor].
    + split; [|exact V]. rewrite (i_dim _ _ _ I). apply last_value_in; [discriminate|].
      repeat constructor; discriminate.
  - intros ->. exfalso. revert E. generalize cl0 (a :: t) (S (length (a :: t))).
    intros c0 l n; revert c0 l; induction n as [|n IH]; intros c0 l H; [discriminate|].
    cbn [loop] in H. destruct l as [|h tl]; [discriminate|].
    destruct (step _ _ _ _ _ _ _); try discriminate. eapply IH; eauto.
Qed.

(** * C41 *)

Theorem C41_consistent : forall fl file isnum cap visit args c,
  parse fl file isnum cap visit args = POk c ->
  c_images c <> [] /\ Forall (fun i => i <> EmptyString) (c_images c) /\ kind_ok c /\
  c_fmt c <> F_Unknown /\ (exists o, c_output c = Some o) /\ c_ftype c <> FT_Auto /\
  isFormatValidFile fl (c_fmt c) (c_ttyp c) (c_ftype c) = true /\
  (c_textureCS c = CS_sRGB -> hasNativeSRGB (c_fmt c) (c_ttyp c) = true).
Proof.
  intros fl file isnum cap visit args c H. apply parse_inv in H.
  destruct H as (segs & c0 & _ & _ & _ & _ & ND & V).
  apply validate_inv in V; auto.
  destruct V as (o & tcs & O & E & T & I & K & F & FU & FA & FV & _ & _). subst c.
  repeat split; auto.
  - exists o. exact O.
  - intros X. change (c_textureCS _) with tcs in X.
    change (hasNativeSRGB (c_fmt c0) (c_ttyp c0) = true).
    subst tcs. destruct (c_textureCS c0); [discriminate|]. destruct (hasNativeSRGB _ _); [reflexivity|discriminate].
Qed.
Print Assumptions C41_consistent.

(** Custom mips need mipmapping, have distinct indices, are never for level 0 and are within
    range; in a volume, if no face was named, they cover every slice of a level or none. *)
Theorem C41_custom_mips : forall fl file isnum cap visit args c,
  (forall m, Permutation (visit m) m) ->
  parse fl file isnum cap visit args = POk c ->
  let n := N.of_nat (length (c_images c)) in
  n < 2 ^ 32 ->
  (c_customMips c <> [] -> 1 < c_mipLevels c) /\
  NoDup (map fst (c_customMips c)) /\
  (forall k v, In (k, v) (c_customMips c) -> x_level k <> 0 /\ x_face k < 6 /\
     (c_dim c <> Dim3D -> x_depth k < n) /\
     (c_dim c = Dim3D -> x_level k < 32 /\ x_depth k < level_depth n (x_level k))) /\
  (c_dim c = Dim3D -> (forall k v, In (k, v) (c_customMips c) -> x_face k = 0) ->
   forall k v d, In (k, v) (c_customMips c) -> d < level_depth n (x_level k) ->
   exists v', In (Index 0 (x_level k) d, v') (c_customMips c)).
Proof.
  intros fl file isnum cap visit args c P H n LN. apply parse_inv in H.
  destruct H as (segs & c0 & _ & _ & _ & [MN MF] & ND & V).
  apply validate_inv in V; auto.
  destruct V as (o & tcs & O & E & T & I & K & F & FU & FA & FV & M & counts & CM & CC).
  assert (EM : c_customMips c = c_customMips c0) by (subst c; reflexivity).
  assert (EI : c_images c = c_images c0) by (subst c; reflexivity).
  assert (EL : c_mipLevels c = c_mipLevels c0) by (subst c; reflexivity).
  rewrite EM, EL in *. subst n. rewrite EI in *. clear E EM EI EL.
  set (n := N.of_nat (length (c_images c0))) in *.
  assert (U : to_uint n = n) by (unfold to_uint; apply N.mod_small; exact LN).
  rewrite U in *.
  apply check_mips_spec in CM. destruct CM as [CF CN].
  assert (CF' : forall k v, In (k, v) (c_customMips c0) -> x_level k <> 0 /\
    (is_dim3d (c_dim c) = false -> x_depth k < n) /\
    (is_dim3d (c_dim c) = true -> x_level k < 32 /\ x_depth k < level_depth n (x_level k))).
  { intros k v IN. rewrite Forall_forall in CF. apply (CF (k, v)).
    eapply Permutation_in; [apply Permutation_sym, P|exact IN]. }
  split; [exact M|]. split; [exact MN|]. split.
  { intros k v IN. destruct (CF' k v IN) as (A & B & C). split; [exact A|].
    rewrite Forall_forall in MF. destruct (MF _ IN) as [F6 _]. split; [exact F6|].
    split; [intros D; apply B; destruct (c_dim c); try reflexivity; congruence|].
    intros D; apply C; rewrite D; reflexivity. }
  intros D3 FZ k v d IN LD.
  assert (D3' : is_dim3d (c_dim c) = true) by (rewrite D3; reflexivity).
  set (L := x_level k) in *.
  set (sel := filter (fun e : index * (string * replacement) => x_level (fst e) =? L) (c_customMips c0)).
  assert (LEN : N.of_nat (length sel) = level_depth n L).
  { pose proof (CN D3' L) as Q. rewrite (nth_overflow []) in Q by (simpl; lia).
    assert (PL : length (filter (fun e : index * (string * replacement) => x_level (fst e) =? L) (visit (c_customMips c0))) = length sel).
    { apply Permutation_length. apply perm_filter. apply P. }
    rewrite PL in Q.
    assert (POS : (0 < length sel)%nat).
    { assert (X : In (k, v) sel) by (apply filter_In; split; [exact IN|apply N.eqb_refl]).
      destruct sel; [contradiction|simpl; lia]. }
    assert (LT : (N.to_nat L < length counts)%nat).
    { destruct (Nat.lt_ge_cases (N.to_nat L) (length counts)); auto.
      rewrite nth_overflow in Q by auto. lia. }
    pose proof (check_counts_spec _ _ 0 CC (N.to_nat L) LT ltac:(lia)) as X.
    rewrite Q in X. replace (0 + N.of_nat (N.to_nat L)) with L in X by lia. lia. }
  set (ds := map (fun e : index * (string * replacement) => x_depth (fst e)) sel).
  assert (ND1 : NoDup ds).
  { subst ds sel. revert MN FZ. clear. clearbody L. clear k. generalize (c_customMips c0) as m.
    induction m as [|[k v] t IH]; intros MN FZ; [constructor|]. cbn [map fst] in MN. inversion MN as [|? ? NI N1]; subst.
    cbn [filter fst]. destruct (N.eqb_spec (x_level k) L) as [EL|]; [|apply IH; [exact N1|intros; eapply FZ; right; eauto]].
    cbn [map fst]. constructor; [|apply IH; [exact N1|intros; eapply FZ; right; eauto]].
    intros X. apply in_map_iff in X. destruct X as ([k' v'] & Ed & X). apply filter_In in X. destruct X as [X XL].
    cbn [fst] in *. apply N.eqb_eq in XL.
    assert (k = k').
    { pose proof (FZ k v (or_introl eq_refl)). pose proof (FZ k' v' (or_intror X)).
      destruct k, k'; cbn in *; subst; reflexivity. }
    subst k'. apply NI. apply in_map_iff. exists (k, v'). auto. }
  assert (INC : incl ds (Nrange (level_depth n L))).
  { intros x X. apply in_map_iff in X. destruct X as ([k' v'] & Ed & X). apply filter_In in X. destruct X as [X XL].
    cbn [fst] in *. apply N.eqb_eq in XL. apply in_Nrange.
    destruct (CF' k' v' X) as (_ & _ & C). destruct (C D3') as [_ C']. rewrite XL in C'. lia. }
  assert (INC' : incl (Nrange (level_depth n L)) ds).
  { apply NoDup_length_incl; auto. subst ds. rewrite map_length.
    assert (LR : length (Nrange (level_depth n L)) = N.to_nat (level_depth n L)) by (unfold Nrange; rewrite map_length, seq_length; reflexivity).
    lia. }
  assert (X : In d ds) by (apply INC', in_Nrange; lia).
  apply in_map_iff in X. destruct X as ([k' v'] & Ed & X). apply filter_In in X. destruct X as [X XL].
  cbn [fst] in *. apply N.eqb_eq in XL. exists v'.
  pose proof (FZ k' v' X) as F0. destruct k' as [f l dd]. cbn in *. subst. exact X.
Qed.
Print Assumptions C41_custom_mips.

Definition fl1 : flags := Flags true true true true.
Definition nofile : string -> option string := fun _ => None.
Definition nonum : string -> bool := fun _ => false.
Definition asis (m : mips) : mips := m.
Definition parse1 := parse fl1 nofile nonum 1000 asis.

(** A cube map with mipmaps, sRGB, and a custom mip. *)
Example C41_example : exists c,
  parse1 ["-c"; "+x"; "a"; "-c"; "-x"; "b"; "-c"; "+y"; "c"; "-c"; "-y"; "d"; "-c"; "+z"; "e"; "--cube";
          "-Z"; "f"; "-f"; "r8g8b8a8"; "--srgb"; "-m"; "4"; "box"; "-M"; "1"; "0"; "-y"; "once"; "m.png";
          "-o"; "out.KTX"] = POk c /\
  c_images c = ["a"; "b"; "c"; "d"; "e"; "f"] /\ c_dim c = Cube /\ c_ftype c = FT_KTX /\
  c_mipLevels c = 4 /\ c_mipFilter c = RF_Box /\ c_textureCS c = CS_sRGB /\
  c_customMips c = [(Index 3 1 0, ("m.png", Once))].
Proof.
  exists (match parse1 ["-c"; "+x"; "a"; "-c"; "-x"; "b"; "-c"; "+y"; "c"; "-c"; "-y"; "d"; "-c"; "+z"; "e"; "--cube";
          "-Z"; "f"; "-f"; "r8g8b8a8"; "--srgb"; "-m"; "4"; "box"; "-M"; "1"; "0"; "-y"; "once"; "m.png";
          "-o"; "out.KTX"] with POk c => c | _ => cl0 end).
  vm_compute. repeat split.
Qed.

(** A volume for which custom mips are accepted although slice 1 of level 1 has none: the
    faces named on the command line are counted as slices. *)
Theorem C41_whole_levels_refuted : exists args c,
  parse1 args = POk c /\ c_dim c = Dim3D /\ length (c_images c) = 4%nat /\
  level_depth 4 1 = 2 /\ (exists k v, In (k, v) (c_customMips c) /\ x_level k = 1) /\
  forall k v, In (k, v) (c_customMips c) -> x_level k = 1 -> x_depth k <> 1.
Proof.
  set (args := ["-a"; "a"; "-a"; "b"; "-a"; "c"; "-a"; "d"; "-d"; "3"; "-f"; "R8"; "-m";
                "-M"; "1"; "0"; "+x"; "m"; "-M"; "1"; "0"; "-x"; "n"; "-o"; "o.dds"]).
  exists args, (match parse1 args with POk c => c | _ => cl0 end).
  split; [vm_compute; reflexivity|]. split; [vm_compute; reflexivity|]. split; [vm_compute; reflexivity|].
  split; [vm_compute; reflexivity|].
  assert (E : c_customMips (match parse1 args with POk c => c | _ => cl0 end) =
    [(Index 0 1 0, ("m", Continue)); (Index 1 1 0, ("n", Continue))]) by (vm_compute; reflexivity).
  rewrite E. split.
  - exists (Index 0 1 0), ("m", Continue). split; [left; reflexivity|reflexivity].
  - intros k v [H|[H|[]]]; inversion H; subst; cbn; lia.
Qed.
Print Assumptions C41_whole_levels_refuted.

(** A single cube for which a custom mip of the sixth cube is accepted. *)
Theorem C41_cube_depth_refuted : exists args c k v,
  parse1 args = POk c /\ c_dim c = Cube /\ length (c_images c) = 6%nat /\
  In (k, v) (c_customMips c) /\ x_depth k = 5.
Proof.
  set (args := ["-c"; "+x"; "a"; "-c"; "-x"; "b"; "-c"; "+y"; "c"; "-c"; "-y"; "d"; "-c"; "+z"; "e"; "-c";
          "-z"; "f"; "-f"; "R8"; "-m"; "-M"; "1"; "5"; "m"; "-o"; "o.dds"]).
  exists args, (match parse1 args with POk c => c | _ => cl0 end), (Index 0 1 5), ("m", Continue).
  split; [vm_compute; reflexivity|]. split; [vm_compute; reflexivity|]. split; [vm_compute; reflexivity|].
  assert (E : c_customMips (match parse1 args with POk c => c | _ => cl0 end) =
    [(Index 0 1 5, ("m", Continue))]) by (vm_compute; reflexivity).
  rewrite E. split; [left; reflexivity|reflexivity].
Qed.
Print Assumptions C41_cube_depth_refuted.

(** * C42 *)

(** The argument vector is the concatenation of segments, one for each option, and every value
    in the configuration is the one given by the last segment with its option. *)
Theorem C42_options : forall fl file isnum cap visit args c,
  parse fl file isnum cap visit args = POk c ->
  exists segs o, args = List.concat segs /\ Forall (fun s => s <> []) segs /\
  c_fmt c = last_value "-f" "--format" (format_names fl) F_Unknown segs /\
  c_quality c = last_value "-Q" "--quality" quality_names Q_Normal segs /\
  c_dim c = (match c_imageType c with
             | IT_Cube | IT_CubeArray => Cube
             | _ => last_value "-d" "--dimension" dimension_names Dim2D segs
             end) /\
  c_output c = Some o /\ first_arg "-o" "--output" segs = Some o /\
  c_ftype c = (match last_value "--file-format" "--file-format" filetype_names FT_Auto segs with
               | FT_Auto => fileType (codes o)
               | f => f
               end) /\
  c_alph c = (if has_option "--alpha" "--alpha" segs
              then last_value "--alpha" "--alpha" alpha_names AlphaStandard segs
              else if existsb drops_alpha segs then AlphaNone
              else if has_option "--pre-multiply" "--pre-multiply" segs then AlphaPreMultiplied
              else AlphaStandard) /\
  c_ttyp c = used_type fl (rev segs) /\
  c_flipX c = has_option "--flipx" "--flipx" segs /\
  c_flipY c = has_option "--flipy" "--flipy" segs /\
  c_grayscale c = has_option "-g" "--grayscale" segs /\
  c_normalMap c = has_option "-n" "--normalmap" segs /\
  c_swizzle c = has_option "-s" "--swizzle" segs /\
  c_preMultiply c = has_option "--pre-multiply" "--pre-multiply" segs /\
  c_createOutputDir c = has_option "--create-dir" "--create-dir" segs /\
  c_imageCS c = (if has_option "--srgb" "--srgb" segs then CS_sRGB else CS_Linear) /\
  c_textureCS c = (if has_option "--srgb" "--srgb" segs && hasNativeSRGB (c_fmt c) (c_ttyp c)
                   then CS_sRGB else CS_Linear) /\
  ((turns c - Z.quot (last_angle segs) 90) mod 4 = 0)%Z.
Proof.
  intros fl file isnum cap visit args c H. apply parse_inv in H.
  destruct H as (segs & c0 & Es & Fs & I & _ & ND & V).
  apply validate_inv in V; auto.
  destruct V as (o & tcs & O & E & T & _). cbv zeta in E.
  exists segs, o. destruct I. subst c.
  split; [exact Es|]. split; [exact Fs|]. split; [exact i_fmt|]. split; [exact i_quality|].
  split. { rewrite <- i_dim. cbn. destruct (c_imageType c0); reflexivity. }
  split; [exact O|]. split; [rewrite <- i_output; exact O|].
  split. { rewrite <- i_ftype. reflexivity. }
  split; [exact i_alpha|]. split; [exact i_type|]. split; [exact i_flipX|]. split; [exact i_flipY|].
  split; [exact i_gray|]. split; [exact i_normal|]. split; [exact i_swizzle|]. split; [exact i_pre|].
  split; [exact i_dir|]. split; [exact i_imgcs|].
  split; [|exact i_turns].
  change (tcs = if has_option "--srgb" "--srgb" segs && hasNativeSRGB (c_fmt c0) (c_ttyp c0) then CS_sRGB else CS_Linear).
  rewrite T, i_texcs. destruct (has_option "--srgb" "--srgb" segs); reflexivity.
Qed.
Print Assumptions C42_options.

Lemma used_type_skip fl post pre : has_option "-t" "--type" post = false -> has_option "-f" "--format" post = false ->
  used_type fl (rev (pre ++ post)) = used_type fl (rev pre).
Proof.
  intros T F. induction post as [|s r IH] using rev_ind; [rewrite app_nil_r; reflexivity|].
  rewrite has_option_app in T, F. apply orb_false_iff in T, F. destruct T as [T1 T2], F as [F1 F2].
  rewrite app_assoc, used_type_app, T2, F2. auto.
Qed.

(** A type given after the last format option is the one used. *)
Theorem C42_type_kept : forall fl file isnum cap visit args c,
  parse fl file isnum cap visit args = POk c ->
  exists segs, args = List.concat segs /\ Forall (fun s => s <> []) segs /\
  forall pre h x post t, segs = pre ++ [h; x] :: post ->
    h = "-t" \/ h = "--type" -> named type_names x = Some t ->
    has_option "-t" "--type" post = false -> has_option "-f" "--format" post = false ->
    c_ttyp c = t.
Proof.
  intros fl file isnum cap visit args c H. apply C42_options in H.
  destruct H as (segs & o & Es & Fs & H). exists segs. split; auto. split; auto.
  intros pre h x post t Hs Hh Ht T F.
  destruct H as (_ & _ & _ & _ & _ & _ & _ & Ty & _). rewrite Ty, Hs.
  change ([h; x] :: post) with ([[h; x]] ++ post). rewrite app_assoc, used_type_skip by auto.
  rewrite used_type_app. unfold is_option.
  assert (E : String.eqb h "-t" || String.eqb h "--type" = true) by (destruct Hh as [-> | ->]; reflexivity).
  rewrite E, Ht. reflexivity.
Qed.
Print Assumptions C42_type_kept.

(** A type given before the format is lost: the job asked for float and gets ufloat. *)
Theorem C42_type_refuted : exists c,
  parse1 ["-i"; "a.png"; "-t"; "float"; "-f"; "BC6H"; "-o"; "o.dds"] = POk c /\ c_ttyp c = T_UFloat /\
  exists c', parse1 ["-i"; "a.png"; "-f"; "BC6H"; "-t"; "float"; "-o"; "o.dds"] = POk c' /\ c_ttyp c' = T_Float.
Proof.
  exists (match parse1 ["-i"; "a.png"; "-t"; "float"; "-f"; "BC6H"; "-o"; "o.dds"] with POk c => c | _ => cl0 end).
  split; [vm_compute; reflexivity|]. split; [vm_compute; reflexivity|].
  exists (match parse1 ["-i"; "a.png"; "-f"; "BC6H"; "-t"; "float"; "-o"; "o.dds"] with POk c => c | _ => cl0 end).
  split; vm_compute; reflexivity.
Qed.
Print Assumptions C42_type_refuted.

(** An unknown format name is accepted if another format was named before. *)
Theorem C42_unknown_format_refuted : exists c,
  named (format_names fl1) "bogus" = None /\
  parse1 ["-i"; "a.png"; "-f"; "R8"; "-f"; "bogus"; "-o"; "o.dds"] = POk c /\ c_fmt c = F_R8.
Proof.
  exists (match parse1 ["-i"; "a.png"; "-f"; "R8"; "-f"; "bogus"; "-o"; "o.dds"] with POk c => c | _ => cl0 end).
  split; [vm_compute; reflexivity|]. split; vm_compute; reflexivity.
Qed.
Print Assumptions C42_unknown_format_refuted.

Example C42_example : exists c,
  parse1 ["-i"; "a.png"; "--pre-multiply"; "-s"; "rgbx"; "--rotate"; "-450"; "-Q"; "HIGH"; "-f"; "BC3"; "-o"; "o.dds"]
    = POk c /\ c_alph c = AlphaNone /\ turns c = (-1)%Z /\ c_quality c = Q_High /\ c_maskA c = false.
Proof.
  exists (match parse1 ["-i"; "a.png"; "--pre-multiply"; "-s"; "rgbx"; "--rotate"; "-450"; "-Q"; "HIGH"; "-f"; "BC3"; "-o"; "o.dds"] with POk c => c | _ => cl0 end).
  vm_compute. repeat split.
Qed.

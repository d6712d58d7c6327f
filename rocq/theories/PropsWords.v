(** C52, C67: how words on the command line are compared with names, and which settings of the
    command line reach the encoders. *)
From Coq Require Import NArith ZArith List Bool String Ascii Lia.
From Coq Require Import ZifyBool ZifyNat ZifyN.
From Verif Require Import Base FormatModel SaveFormats TextureModel SaveModel CommandLineModel CommandLineSpec
  PropsCommandLine CommandGrammar PropsCommandGrammar PipelineModel EncodeModel.
Import ListNotations.
Local Open Scope string_scope.
Local Open Scope list_scope.
Local Open Scope N_scope.
Local Notation length := List.length.
Local Infix "+++" := String.append (right associativity, at level 60).

(** The same letter, or the same in the other case; the same character otherwise. *)
Definition same_letter (c d : ascii) : Prop :=
  c = d \/
  (65 <= N_of_ascii c <= 90 /\ N_of_ascii d = N_of_ascii c + 32) \/
  (65 <= N_of_ascii d <= 90 /\ N_of_ascii c = N_of_ascii d + 32).
Definition no_nul (s : string) : Prop := ~ In "000"%char (list_ascii_of_string s).

Lemma lower_same c d : lower c = lower d <-> same_letter c d.
Proof.
  unfold same_letter. split.
  - assert (INJ : forall x y, N_of_ascii x = N_of_ascii y -> x = y).
    { intros x y E. rewrite <- (ascii_N_embedding x), E. apply ascii_N_embedding. }
    intros E. apply (f_equal N_of_ascii) in E. unfold lower, code in E.
    pose proof (N_ascii_bounded c). pose proof (N_ascii_bounded d).
    destruct (N.leb_spec 65 (N_of_ascii c)), (N.leb_spec (N_of_ascii c) 90), (N.leb_spec 65 (N_of_ascii d)),
      (N.leb_spec (N_of_ascii d) 90); cbn [andb] in E;
      rewrite ?N_ascii_embedding in E by lia;
      first [left; apply INJ; lia | right; left; lia | right; right; lia].
  - assert (U : forall x, 65 <= N_of_ascii x <= 90 -> lower x = ascii_of_N (N_of_ascii x + 32)).
    { intros x H. unfold lower, code. destruct (N.leb_spec 65 (N_of_ascii x)); [|lia].
      destruct (N.leb_spec (N_of_ascii x) 90); [|lia]. reflexivity. }
    assert (V : forall x y, 65 <= N_of_ascii x <= 90 -> N_of_ascii y = N_of_ascii x + 32 -> lower y = y).
    { intros x y H E. unfold lower, code. destruct (N.leb_spec (N_of_ascii y) 90); [lia|]. rewrite andb_false_r. reflexivity. }
    intros [->|[[H E]|[H E]]]; [reflexivity| |].
    + rewrite (U c H), (V c d H E), <- E. apply ascii_N_embedding.
    + rewrite (U d H), (V d c H E), <- E. symmetry. apply ascii_N_embedding.
Qed.

Lemma c_str_id s : no_nul s -> c_str s = s.
Proof.
  unfold no_nul. induction s as [|c s IH]; intros H; [reflexivity|]. cbn [c_str list_ascii_of_string In] in *.
  unfold code. destruct (N.eqb_spec (N_of_ascii c) 0) as [E|E].
  - exfalso. apply H. left. rewrite <- (ascii_N_embedding c), E. reflexivity.
  - rewrite IH; [reflexivity|]. intros I. apply H. right. exact I.
Qed.

Lemma c_str_cut s t : no_nul s -> c_str (s +++ String "000"%char t) = s.
Proof.
  unfold no_nul. induction s as [|c s IH]; intros H; [reflexivity|]. cbn [c_str String.append list_ascii_of_string In] in *.
  unfold code. destruct (N.eqb_spec (N_of_ascii c) 0) as [E|E].
  - exfalso. apply H. left. rewrite <- (ascii_N_embedding c), E. reflexivity.
  - rewrite IH; [reflexivity|]. intros I. apply H. right. exact I.
Qed.

(** Words are compared without regard to case, and only up to a NUL character (which a list file
    may contain). *)
Theorem C52_caseless : forall s n, no_nul s -> no_nul n ->
  (caseeq s n = true <-> Forall2 same_letter (list_ascii_of_string s) (list_ascii_of_string n)) /\
  (forall t, caseeq (s +++ String "000"%char t) n = caseeq s n).
Proof.
  intros s n Hs Hn. split.
  2:{ intros t. unfold caseeq. rewrite (c_str_cut s t Hs), (c_str_id s Hs). reflexivity. }
  unfold caseeq. rewrite !c_str_id by assumption. rewrite String.eqb_eq. clear Hs Hn. revert n.
  induction s as [|c s IH]; intros [|d n]; cbn [lowers list_ascii_of_string].
  - split; constructor.
  - split; [discriminate|intros X; inversion X].
  - split; [discriminate|intros X; inversion X].
  - split.
    + intros E. injection E as E1 E2. constructor; [apply lower_same; exact E1|apply IH; exact E2].
    + intros X. inversion X as [|? ? ? ? X1 X2]; subst. apply lower_same in X1. apply IH in X2. congruence.
Qed.
Print Assumptions C52_caseless.

(** What the encoders are told: the quality, alpha and mask the command line asks for, the format and
    the type, and the number of threads. *)
Theorem C67_settings : forall fl file isnum cap visit args ds a,
  parse fl file isnum cap visit args = POk a -> spelled fl isnum args ds ->
  let s := convert_args a in
  nth_error [Q_Lowest; Q_Low; Q_Normal; Q_High; Q_Highest] (N.to_nat (ca_quality s)) =
    Some (last_of (fun d => match d with D_quality q => Some q | _ => None end) Q_Normal ds) /\
  quality_of (ca_quality s) = last_of (fun d => match d with D_quality q => Some q | _ => None end) Q_Normal ds /\
  (ca_format s, ca_type s) = format_type ds /\
  (m_r (ca_mask s) = true <-> existsb (drops ch_r) ds = false) /\
  (m_g (ca_mask s) = true <-> existsb (drops ch_g) ds = false) /\
  (m_b (ca_mask s) = true <-> existsb (drops ch_b) ds = false) /\
  (m_a (ca_mask s) = true <-> existsb (drops ch_a) ds = false) /\
  ca_alpha s = (if existsb is_alpha ds
                then last_of (fun d => match d with D_alpha a => Some a | _ => None end) AlphaStandard ds
                else if existsb (drops ch_a) ds then AlphaNone
                else if existsb is_premultiply ds then AlphaPreMultiplied else AlphaStandard) /\
  ca_threads s = last_of (fun d => match d with
      | D_jobs None => Some allOnes | D_jobs (Some n) => Some (Z.to_N (n mod 2 ^ 32)) | _ => None end) 1 ds.
Proof.
  intros fl file isnum cap visit args ds a E Sp. cbv zeta.
  destruct (C52_settings _ _ _ _ _ _ _ E) as (ds' & Sp' & ST).
  rewrite (C52_unambiguous _ _ _ _ _ Sp Sp'). clear Sp Sp' ds.
  unfold convert_args. cbn [ca_quality ca_format ca_type ca_mask ca_alpha ca_threads m_r m_g m_b m_a].
  rewrite <- (m_quality _ _ ST), <- (m_jobs _ _ ST), <- (m_alph _ _ ST), (m_maskR _ _ ST), (m_maskG _ _ ST), (m_maskB _ _ ST),
    (m_maskA _ _ ST), (m_fmt _ _ ST), (m_ttyp _ _ ST), !negb_true_iff, <- surjective_pairing.
  split; [destruct (c_quality a); reflexivity|]. split; [destruct (c_quality a); reflexivity|]. tauto.
Qed.
Print Assumptions C67_settings.

Example C52_example_caseless : no_nul "R8g8" /\ caseeq "R8g8" "r8G8" = true /\ caseeq "R8g[" "r8g{" = false.
Proof. split; [|vm_compute; auto]. intros X. cbn in X. repeat (destruct X as [X|X]; [discriminate|]). exact X. Qed.

Example C67_example_settings : exists a, parse1 ["-i"; "a"; "-f"; "bc1_rgb"; "-Q"; "HIGH"; "-j"; "-o"; "o.dds"] = POk a /\
  ca_quality (convert_args a) = 3 /\ ca_threads (convert_args a) = allOnes.
Proof.
  exists (match parse1 ["-i"; "a"; "-f"; "bc1_rgb"; "-Q"; "HIGH"; "-j"; "-o"; "o.dds"] with POk a => a | _ => cl0 end).
  vm_compute. auto.
Qed.

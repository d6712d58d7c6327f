(** C69: what the encoders of compressed formats are given for the pictures of the command line. *)

From Coq Require Import NArith ZArith List Bool String Lia Permutation Reals Lra.
From Coq Require Import ZifyBool ZifyNat ZifyN.
From Flocq Require Import Core IEEE754.BinarySingleNaN IEEE754.Binary IEEE754.Bits.
From Verif Require Import Base FormatModel FormatSpec ContainerSpec FloatModel FloatSpec FloatProofs ArithModel
  FormatProofs TextureSpec TextureProofs SaveModel SaveSpec PropsSave ImageSpec ImageLoops ImageApiProofs.
From Verif Require Import ImageConvertSpec ToolModel ToolSpec PropsPixel.
From Verif Require Import AdjustProofs TilingProofs ConverterModel ConverterSpec BlockModel BlockSpec BlockProofs PropsBlock CompressSpec EncodeModel EncodeSpec PropsEncode.
From Verif Require Import PixelModel PixelSpec PixelProofs TextureModel ImageModel PipelineModel PipelineSpec PropsPipeline
  CommandLineModel CommandLineSpec ToolImageModel ToolImageSpec ToolImageProofs PropsToolImage ToolBlockSpec.
From Verif Require ImageConvertModel ResizeModel NormalModel PropsCommandLine.
Import ListNotations.
Local Open Scope list_scope.
Local Open Scope N_scope.
Local Notation length := List.length.
Local Notation height := TextureModel.height.
Local Notation place := PipelineSpec.place.
Local Notation rgba := PixelModel.rgba.
Local Notation colour := ImageConvertSpec.rgba.

(** ** One block *)

Lemma positions_in f w h bx by_ x y pos : 0 < w -> 0 < h -> 
  In pos (positions f w h bx by_ x y) -> fst pos < w /\ snd pos < h.
Proof.
  intros Hw Hh I. unfold positions in I.
  assert (K : forall A (l : list A) g, In pos (flat_map (fun j => g j) l) -> exists j, In j l /\ In pos (g j))
    by (intros; apply in_flat_map; assumption).
  destruct (family_of f); apply K in I; destruct I as (j & J & I); apply in_map_iff in I; destruct I as (i & <- & I);
    rewrite in_Nrange in J, I; cbn [fst snd]; lia.
Qed.

Lemma source_positions f w h px x y bx by_ bs al : family_of f <> Fam_Pvrtc -> layout_of f = Blocks bx by_ bs al ->
  family_of f <> Fam_None ->
  source f w h px x y = map (fun pos => px (snd pos) (fst pos)) (positions f w h bx by_ x y).
Proof.
  intros NP L NN. unfold source, positions, footprint, inner.
  assert (E : forall A B C (g : B -> C) (k : A -> list B) l, map g (flat_map k l) = flat_map (fun a => map g (k a)) l).
  { intros A B C g k l. induction l as [|a l IH]; cbn [flat_map map]; [reflexivity|]. rewrite map_app, IH. reflexivity. }
  rewrite L. destruct (family_of f) eqn:Fm; try congruence; rewrite E;
    [| |]; try (destruct f; try discriminate Fm; inversion L; subst);
    apply flat_map_ext; intros j; rewrite map_map; reflexivity.
Qed.

(** The floats of a pixel stand for a colour. *)
Definition pixel_for (e : R) (t : ttype) (inf : imgfmt) (c : colour) (p : rgba) : Prop :=
  unit_colour c /\ adjusted e t inf (red c) (pr p) /\ adjusted e t inf (green c) (pg p) /\
  adjusted e t inf (blue c) (pb p) /\ adjusted e t inf (alpha c) (pa p).

(** Colours with the error [e] are numbers with the error [w], and floats within [tol]. *)
Definition bears (e w tol : R) (t : ttype) : Prop :=
  (e <= w)%R /\ (2 * e + / 16777216 <= / 330000 /\ w = / 330000 /\ tol = / IZR (2 ^ 18) \/ w = 1420 * / 4194304 /\ tol = / IZR (2 ^ 11) /\ t = T_UNorm)%R.

Lemma adjusted_number e w tol t inf x v : bears e w tol t -> t <> T_UInt -> t <> T_Int -> adjusted e t inf x v ->
  within_error w v (number_for t inf x).
Proof.
  intros [B1 B2] N1 N2 A. unfold adjusted in A. unfold number_for.
  assert (K : within_error e v x -> within_error w v x).
  { intros [A1 A2]. split; [exact A1|]. lra. }
  destruct (channel_bits inf); destruct t; try congruence; auto.
  destruct B2 as [(B2 & -> & _)|(_ & _ & ?)]; [|discriminate]. destruct A as [A1 A2]. split; [exact A1|lra].
Qed.

Lemma number_range t inf x : t <> T_UInt -> t <> T_Int -> (0 <= x <= 1)%R -> (-1 <= number_for t inf x <= 1)%R.
Proof. intros N1 N2 X. unfold number_for. destruct (channel_bits inf), t; try congruence; lra. Qed.

Lemma byte_ok e w tol inf x v : bears e w tol T_UNorm -> (0 <= x <= 1)%R -> adjusted e T_UNorm inf x v ->
  byte_for (number_for T_UNorm inf x) (byte8 v).
Proof.
  intros BR X A.
  assert (E : number_for T_UNorm inf x = x) by (unfold number_for; destruct (channel_bits inf); reflexivity).
  rewrite E. split; [apply byte8_range|].
  apply (adjusted_number e w tol) in A; try discriminate; [|exact BR]. rewrite E in A. unfold byte8.
  apply (norm_kept 255 x v w 0); auto; try lia. destruct BR as [_ [(_ & -> & _)|[-> _]]]; lra.
Qed.

Lemma sbyte_ok e w tol inf x v : bears e w tol T_SNorm -> (0 <= x <= 1)%R -> adjusted e T_SNorm inf x v ->
  sbyte_for (number_for T_SNorm inf x) (sbyte8 v mod 256)%Z.
Proof.
  intros BR X A. pose proof (sbyte8_range v) as R. pose proof (number_range T_SNorm inf x ltac:(discriminate) ltac:(discriminate) X) as Y.
  apply (adjusted_number e w tol) in A; try discriminate; [|exact BR]. split; [lia|].
  replace (sext 8 (Z.to_N (sbyte8 v mod 256))) with (sbyte8 v).
  - unfold sbyte8. apply (norm_kept 127 _ v w (-1)); auto; try lia. destruct BR as [_ [(_ & -> & _)|[-> _]]]; lra.
  - symmetry. replace (Z.to_N (sbyte8 v mod 256)) with (twos 8 (sbyte8 v)) by reflexivity.
    apply sext_twos; lia.
Qed.

Lemma float_ok e w tol t inf x v : bears e w tol t -> t <> T_UInt -> t <> T_Int -> adjusted e t inf x v ->
  float_for tol (number_for t inf x) v.
Proof.
  intros BR N1 N2 A. apply (adjusted_number e w tol) in A; auto. destruct A as [A1 A2]. split; [exact A1|].
  change (IZR (2 ^ 18)) with 262144%R in BR. change (IZR (2 ^ 11)) with 2048%R in BR.
  destruct BR as [_ [(_ & -> & ->)|(-> & -> & _)]]; lra.
Qed.

Lemma remap_near v y : (-1 <= y <= 1)%R -> within_error (/ 330000) v y -> float_for (/ IZR (2 ^ 18)) ((y + 1) / 2) (remap v).
Proof.
  intros Y [F A]. apply Rabs_le_inv in A.
  assert (R : (-2 <= real v <= 2)%R) by lra.
  destruct half_ok as [Fh Rh]. unfold remap.
  destruct (fmul_ok v (flit 1 2) F Fh) as [Fm Em].
  { rewrite Rh. apply Rle_trans with 2%R; [apply Rabs_le; lra|change (IZR (2 ^ 24)) with 16777216%R; lra]. }
  rewrite Rh in Em.
  assert (Q : (Rabs (real v * / 2) <= bpow radix2 0)%R).
  { change (bpow radix2 0) with 1%R. apply Rabs_le. lra. }
  pose proof (rnd32_bound _ 0 ltac:(lia) Q) as B. pose proof (rnd32_err _ 0 ltac:(lia) Q) as E.
  rewrite <- Em in B, E. change (bpow radix2 0) with 1%R in B. apply Rabs_le_inv in B.
  destruct (fadd_ok (fmul v (flit 1 2)) (flit 1 2) Fm Fh) as [Fa Ea].
  { rewrite Rh. apply Rle_trans with 2%R; [apply Rabs_le; lra|change (IZR (2 ^ 24)) with 16777216%R; lra]. }
  rewrite Rh in Ea. split; [exact Fa|]. rewrite Ea.
  assert (Q2 : (Rabs (real (fmul v (flit 1 2)) + / 2) <= bpow radix2 1)%R).
  { change (bpow radix2 1) with 2%R. apply Rabs_le. lra. }
  pose proof (rnd32_err _ 1 ltac:(lia) Q2) as E2.
  change (bpow radix2 (1 - 24)) with (/ 8388608)%R in E2. change (bpow radix2 (0 - 24)) with (/ 16777216)%R in E.
  change (IZR (2 ^ 18)) with 262144%R.
  apply Rabs_le_inv in E, E2. apply Rabs_le. lra.
Qed.

Lemma F2_map {X Y Z} (R : X -> Y -> Prop) (g : Y -> Z) (S : X -> Z -> Prop) l m :
  Forall2 R l m -> (forall a b, R a b -> S a (g b)) -> Forall2 S l (map g m).
Proof. intros H K. induction H; cbn [map]; constructor; auto. Qed.

(** The converters of blocks, by type. *)
Lemma block_kinds fl f t c : createConverter fl f t = Some c -> family_of f <> Fam_None -> family_of f <> Fam_Pvrtc ->
  t <> T_UInt /\ t <> T_Int /\ (exists bx by_ bs al, layout_of f = Blocks bx by_ bs al) /\
  ((family_of f = Fam_S3tc /\ t = T_UNorm /\ inputs f <> None) \/
   (t = T_SNorm /\ (f = F_BC4 \/ f = F_BC5)) \/
   (f = F_BC6H /\ (t = T_UFloat /\ c = CvBc6H false \/ t = T_Float /\ c = CvBc6H true)) \/
   (family_of f = Fam_Astc /\ t <> T_SNorm) \/ (family_of f = Fam_Etc /\ t = T_UNorm) \/ (family_of f = Fam_Etc /\ t = T_SNorm)).
Proof.
  intros C NN NP. destruct f; cbn [family_of] in NN, NP; try congruence; destruct t; cbn in C;
    repeat match type of C with context [if ?b then _ else _] => destruct b end; try discriminate C; (split; [discriminate|]); (split; [discriminate|]);
    (split; [do 4 eexists; reflexivity|]); cbn [family_of];
    first [left; split; [reflexivity|split; [reflexivity|discriminate]]
          |right; left; split; [reflexivity|solve [auto]]
          |right; right; left; split; [reflexivity|inversion C; solve [auto]]
          |right; right; right; left; split; [reflexivity|discriminate]
          |right; right; right; right; left; split; reflexivity
          |right; right; right; right; right; split; reflexivity].
Qed.

Lemma own_none pk bd st th fl f t c im x y r : createConverter fl f t = Some c -> f <> F_BC2 ->
  jobRequest pk bd st th c im x y = Some r -> r_own r = [].
Proof.
  intros C N R.
  assert (NC : c <> CvBc2).
  { intros ->. destruct f; try congruence; destruct t; cbn in C;
      repeat match type of C with context [if ?b then _ else _] => destruct b end; discriminate C. }
  destruct c; try congruence; cbn [jobRequest] in R;
    try (destruct (clamp_block im 4 4 x y) as [px|]; cbn [obind s3tcRequest] in R; [|discriminate R]);
    try (destruct signed);
    repeat match type of R with obind ?o _ = _ => destruct o; cbn [obind] in R; [|discriminate R] end;
    try discriminate R; try (inversion R; reflexivity).
  - unfold etcRequest in R.
    repeat match type of R with obind ?o _ = _ => destruct o; cbn [obind] in R; [|discriminate R] end.
    inversion R; reflexivity.
  - unfold pvrtcRequest in R. destruct (toColorBlock _); cbn [obind] in R; [|discriminate R].
    destruct f0; try discriminate R; inversion R; reflexivity.
Qed.

Lemma F2_in {X Y} (R : X -> Y -> Prop) l m b : Forall2 R l m -> In b m -> exists a, R a b.
Proof. intros H. induction H; intros I; [destruct I|]. destruct I as [<-|I]; eauto. Qed.
Lemma F2_nth {X Y} (R : X -> Y -> Prop) l m : Forall2 R l m -> forall i a, nth_error l i = Some a ->
  exists b, nth_error m i = Some b /\ R a b.
Proof.
  intros H. induction H; intros i a E; destruct i; cbn [nth_error] in *; try discriminate E.
  - injection E as <-. eauto.
  - apply IHForall2, E.
Qed.

Lemma pixel_nan e t inf c p : pixel_for e t inf c p -> nan (pr p) = false /\ nan (pg p) = false /\ nan (pb p) = false /\ nan (pa p) = false.
Proof.
  intros (_ & A1 & A2 & A3 & A4). repeat (split; [apply finite_not_nan; eapply adjusted_finite; eassumption|]).
  apply finite_not_nan; eapply adjusted_finite; eassumption.
Qed.

Lemma requested e wd tol pk bd st th fl f t c inf w h px x y cols bx by_ bs al :
  bears e wd tol t -> createConverter fl f t = Some c -> family_of f <> Fam_None -> family_of f <> Fam_Pvrtc ->
  layout_of f = Blocks bx by_ bs al -> block_at f w h x y ->
  (family_of f = Fam_Etc -> t = T_SNorm -> x * 4 + 4 <= w /\ y * 4 + 4 <= h) ->
  Forall2 (pixel_for e t inf) cols (source f w h px x y) ->
  exists r, jobRequest pk bd st th c (img w h px) x y = Some r /\
    own_bytes f cols (map Z.to_N (r_own r)) /\
    suits (bd_ispc bd) f t w h bx by_ x y (payload_of (r_call r)) /\
    fed tol pk f t inf (payload_of (r_call r)) cols.
Proof.
  intros BR C NN NP LY B WH F2.
  destruct (block_kinds fl f t c C NN NP) as (N1 & N2 & _ & K).
  assert (OB : forall r, jobRequest pk bd st th c (img w h px) x y = Some r -> f <> F_BC2 -> own_bytes f cols (map Z.to_N (r_own r))).
  { intros r R NB. rewrite (own_none _ _ _ _ fl f t c _ _ _ r C NB R). destruct f; try congruence; reflexivity. }
  destruct K as [(Fm & -> & IN)|[(-> & Fm)|[(-> & Cc)|[(Fm & NS)|[(Fm & ->)|(Fm & ->)]]]]].
  - destruct (inputs f) as [ch|] eqn:EI; [|congruence]. clear IN.
    destruct (C60_bytes pk bd st th fl f c ch w h px x y C EI B) as [D1 D2].
    destruct (jobRequest pk bd st th c (img w h px) x y) as [r|] eqn:R.
    2:{ exfalso. destruct (proj1 D1 eq_refl) as (p & v & Ip & Iv & Nv). destruct (F2_in _ _ _ _ F2 Ip) as (cl & Pc).
        destruct (pixel_nan _ _ _ _ _ Pc) as (Q1 & Q2 & Q3 & Q4).
        destruct f; cbn in EI; inversion EI; subst ch; cbn in Iv; intuition congruence. }
    exists r. split; [reflexivity|]. specialize (D2 r eq_refl).
    assert (EP : payload_of (r_call r) = PBytes (map (fun p => map byte8 (ch p)) (source f w h px x y))).
    { destruct (r_call r); cbn [given] in D2; try discriminate D2; cbn [payload_of given]; congruence. }
    rewrite EP. split; [|split].
    + assert (NB : f = F_BC2 \/ f <> F_BC2) by (destruct f; (left; reflexivity) || (right; discriminate)).
      destruct NB as [->|NB]; [|apply OB; auto].
      destruct (C60_bc2_alpha pk bd st th fl T_UNorm c w h px x y r C B R) as [L A].
      split; [rewrite map_length; exact L|]. intros i cl E.
      destruct (F2_nth _ _ _ F2 i cl E) as (p & Ep & (U & _ & _ & _ & Ap)).
      destruct (A i p Ep) as (b & Nb & Rb & _ & Er). exists (Z.to_N b). split; [apply map_nth_error, Nb|].
      set (nb := ((if Nat.even i then b else b / 16) mod 16)%Z) in Er.
      replace (Z.of_N ((if Nat.even i then Z.to_N b else Z.to_N b / 16) mod 16)) with nb by (unfold nb; destruct (Nat.even i); lia).
      assert (U4 : (0 <= alpha cl <= 1)%R) by apply U.
      apply (adjusted_number e wd tol) in Ap; try discriminate; [|exact BR].
      replace (number_for T_UNorm inf (alpha cl)) with (alpha cl) in Ap by (unfold number_for; destruct (channel_bits inf); reflexivity).
      destruct Ap as [Af An]. rewrite limit_real in Er by exact Af.
      assert (Z2 : (Rabs (Rmax 0 (Rmin 1 (real (pa p))) - alpha cl) <= 1420 * / 4194304)%R).
      { assert (Wd : (wd <= 1420 * / 4194304)%R) by (destruct BR as [_ [(_ & -> & _)|[-> _]]]; lra).
        apply Rabs_le_inv in An. apply Rabs_le. unfold Rmax, Rmin.
        destruct (Rle_dec 1 (real (pa p))); destruct (Rle_dec 0 _); lra. }
      change (bpow radix2 (-23)) with (/ 8388608)%R in Er. apply Rabs_le_inv in Er, Z2. apply Rabs_le. lra.
    + unfold suits. rewrite Fm. destruct f; cbn in EI; try discriminate EI; try discriminate Fm; exact I.
    + split; [reflexivity|]. eapply F2_map; [exact F2|]. intros cl p (U & A1 & A2 & A3 & A4). destruct U as (U1 & U2 & U3 & U4).
      destruct f; cbn in EI; try discriminate Fm; inversion EI; subst ch; cbn [encoded map four];
        (repeat apply Forall2_cons; [..|apply Forall2_nil]; eapply byte_ok; eassumption).
  - set (ch := match f with F_BC4 => (fun p => [pr p]) | _ => (fun p => [pr p; pg p]) end).
    assert (Fc : f = F_BC4 /\ ch = (fun p => [pr p]) \/ f = F_BC5 /\ ch = (fun p => [pr p; pg p])).
    { unfold ch. destruct Fm as [-> | ->]; auto. }
    destruct (C60_signed_bytes pk bd st th fl f c ch w h px x y C Fc B) as [D1 D2].
    destruct (jobRequest pk bd st th c (img w h px) x y) as [r|] eqn:R.
    2:{ exfalso. destruct (proj1 D1 eq_refl) as (p & v & Ip & Iv & Nv). destruct (F2_in _ _ _ _ F2 Ip) as (cl & Pc).
        destruct (pixel_nan _ _ _ _ _ Pc) as (Q1 & Q2 & Q3 & Q4).
        destruct Fc as [[_ E]|[_ E]]; rewrite E in Iv; cbn in Iv; intuition congruence. }
    exists r. split; [reflexivity|]. specialize (D2 r eq_refl).
    assert (EP : payload_of (r_call r) = PSigned (map (fun p => map (fun v => (sbyte8 v mod 256)%Z) (ch p)) (source f w h px x y))).
    { destruct (r_call r); cbn [given_signed] in D2; try discriminate D2; cbn [payload_of given given_signed]; congruence. }
    rewrite EP. split; [|split].
    + apply OB; [reflexivity|]. destruct Fm as [-> | ->]; discriminate.
    + destruct Fm as [-> | ->]; exact I.
    + split; [reflexivity|]. eapply F2_map; [exact F2|]. intros cl p (U & A1 & A2 & A3 & A4). destruct U as (U1 & U2 & U3 & U4).
      destruct Fc as [[-> E]|[-> E]]; rewrite E; cbn [encoded map];
        (repeat apply Forall2_cons; [..|apply Forall2_nil]; eapply sbyte_ok; eassumption).
  - assert (LB : bx = 4 /\ by_ = 4) by (inversion LY; auto). destruct LB as [-> ->].
    destruct (source_s3tc F_BC6H w h px x y eq_refl B) as (S & G & L). rewrite S in F2.
    set (F := footprint w h 4 4 px x y) in *. clearbody F.
    assert (HF : forall n, n = 3 \/ n = 4 -> Forall2 (fun cl => Forall2 (half_for pk tol) (map (fun g => number_for t inf (g cl))
        (if n =? 3 then [red; green; blue] else [red; green; blue; alpha]))) cols (halves pk n F)).
    { intros n Hn. unfold halves. eapply F2_map; [exact F2|]. intros cl p (U & A1 & A2 & A3 & A4).
      destruct Hn as [-> | ->]; cbn [N.eqb Pos.eqb channels map]; (repeat apply Forall2_cons; [..|apply Forall2_nil]);
        (eexists; split; [eapply float_ok; eassumption|reflexivity]). }
    assert (E : exists sgn, c = CvBc6H sgn) by (destruct Cc as [[_ E]|[_ E]]; eauto). destruct E as (sgn & ->).
    cbn [jobRequest]. rewrite G. cbn [obind s3tcRequest]. eexists. split; [reflexivity|].
    split; [reflexivity|]. cbn [r_call].
    destruct Cc as [[-> E]|[-> E]]; inversion E; subst sgn.
    + rewrite andb_true_r. destruct (bd_ispc bd); cbn [payload_of]; (split; [reflexivity|]).
      * apply (HF 4); auto.
      * apply (HF 3); auto.
    + rewrite andb_false_r. cbn [payload_of]. split; [exact I|]. apply (HF 3); auto.
  - destruct (C60_floats pk bd st th fl f t c w h px x y C B (or_introl Fm)) as (r & bw & bh & R & OW & EP & DM).
    exists r. split; [exact R|]. split; [apply OB; auto; destruct f; discriminate|]. rewrite EP, LY, Fm in *.
    split; [unfold suits; rewrite Fm; exact DM|].
    replace (source f w h px x y) with (map (fun p => p) (source f w h px x y)) by apply map_id. cbn [fed].
    eapply F2_map; [exact F2|]. intros cl p (U & A1 & A2 & A3 & A4).
    assert (E : type_eqb t T_SNorm = false) by (destruct t; congruence || reflexivity). rewrite E.
    split; [eapply float_ok; eassumption|]. split; [eapply float_ok; eassumption|].
    split; eapply float_ok; eassumption.
  - destruct (C60_floats pk bd st th fl f T_UNorm c w h px x y C B (or_intror (conj Fm eq_refl))) as (r & bw & bh & R & OW & EP & DM).
    exists r. split; [exact R|]. split; [apply OB; auto; destruct f; discriminate|]. rewrite EP, LY, Fm in *.
    split; [unfold suits; rewrite Fm; exact DM|].
    replace (source f w h px x y) with (map (fun p => p) (source f w h px x y)) by apply map_id. cbn [fed type_eqb].
    eapply F2_map; [exact F2|]. intros cl p (U & A1 & A2 & A3 & A4).
    split; [eapply float_ok; eassumption|]. split; [eapply float_ok; eassumption|].
    split; eapply float_ok; eassumption.
  - destruct (WH Fm eq_refl) as [Wx Wy].
    assert (LB : bx = 4 /\ by_ = 4) by (destruct f; try discriminate Fm; inversion LY; auto). destruct LB as [-> ->].
    destruct B as (Hw & Hh & B). unfold source in F2. rewrite Fm, LY in *. destruct B as (B1 & B2 & B3 & B4).
    assert (Cc : c = CvEtc f T_SNorm).
    { destruct f; try discriminate Fm; cbn [createConverter] in C; (destruct (has_etc fl); [|discriminate C]);
      inversion C; reflexivity. }
    assert (K : exists k, etcKind st f T_SNorm = Some k /\ (fst k = EtcSR11 \/ fst k = EtcSRG11)).
    { subst c. destruct f; try discriminate Fm; cbn [createConverter] in C;
        (destruct (has_etc fl); [|discriminate C]); try discriminate C;
        (eexists; split; [reflexivity|]; cbn; auto). }
    destruct K as (k & Ek & Kk). subst c. cbn [jobRequest].
    destruct (etc_gather w h px Hw Hh x y B1 B2 ltac:(apply cdiv_lt; lia) ltac:(apply cdiv_lt; lia)) as (G & Ex & Ey).
    rewrite G. cbn [obind img sf_w sf_h]. rewrite Ex, Ey.
    pose proof (inner_length w h px x y) as L. set (F := inner w h px x y) in *. clearbody F.
    unfold etcRequest. rewrite Ek. cbn [obind].
    assert (M : match fst k with EtcSR11 | EtcSRG11 => remapAll (array16 F) | _ => Some (array16 F) end
                = remapAll (array16 F)) by (destruct Kk as [-> | ->]; reflexivity).
    rewrite M.
    assert (W : N.min 4 (w - x * 4) = 4 /\ N.min 4 (h - y * 4) = 4) by lia.
    destruct W as [W1 W2]. rewrite W1, W2 in L |- *. change (N.to_nat (4 * 4)) with 16%nat in L.
    rewrite remapAll_full by (rewrite L; reflexivity). cbn [obind].
    replace (map Some (map remapPixel F)) with (array16 (map remapPixel F)).
    2:{ unfold array16. rewrite map_length, L. cbn. apply app_nil_r. }
    rewrite firstn_array16 by (rewrite map_length, L; reflexivity). rewrite omap_id. cbn [obind].
    eexists. split; [reflexivity|]. split; [destruct f; try discriminate Fm; reflexivity|]. cbn [r_call payload_of].
    split; [unfold suits; rewrite Fm; split; symmetry; assumption|].
    cbn [fed type_eqb]. eapply F2_map; [exact F2|]. intros cl p (U & A1 & A2 & A3 & A4). destruct U as (U1 & U2 & U3 & U4).
    cbn [remapPixel pr pg pb pa].
    split; [eapply float_ok; eassumption|]. split; [eapply float_ok; eassumption|].
    assert (WT : wd = (/ 330000)%R /\ tol = (/ IZR (2 ^ 18))%R) by (destruct BR as [_ [[_ W]|(_ & _ & ?)]]; [exact W|discriminate]).
    destruct WT as [Ew Et]. rewrite Et.
    split; (apply remap_near; [apply number_range; assumption|rewrite <- Ew; eapply adjusted_number; eassumption]).
Qed.

Lemma error_bears a : spaces a ->
  bears (job_error a) (if coarse a then 1420 * / 4194304 else / 330000)%R (if coarse a then / IZR (2 ^ 11) else / IZR (2 ^ 18))%R (c_ttyp a).
Proof.
  intros S. unfold bears, job_error. destruct (coarse a) eqn:C; [|unfold E2; split; [lra|left; split; [lra|auto]]].
  split; [lra|]. right. unfold coarse in C. destruct (c_textureCS a) eqn:T; [discriminate|]. destruct (S T) as [_ NS].
  destruct (native_bits _ _ NS) as [TY _]. auto.
Qed.

(** ** One surface *)

Section Tool.
Context (pw : double -> double -> double).
Local Notation D := (double_arith pw).

Lemma block_shown_level W F enc fl a cv q f U V m w h px : freeimage_ok pw F -> computes W (c_textureCS a) enc ->
  (forall e, N.of_nat (length (wo_enc W e)) = answer_bytes e) ->
  plain_job pw a -> spaces a -> fi_load pw F q = Some (f, w, h, px) -> side U m = w -> side V m = h ->
  let s := Bitmap f w h (c_imageCS a) px in
  plain_input pw s -> createConverter fl (c_fmt a) (c_ttyp a) = Some cv ->
  family_of (c_fmt a) <> Fam_None -> family_of (c_fmt a) <> Fam_Pvrtc ->
  (family_of (c_fmt a) = Fam_Etc -> c_ttyp a = T_SNorm ->
   fst (turned a w h) mod 4 = 0 /\ snd (turned a w h) mod 4 = 0) ->
  fits (c_fmt a) (fst (turned a w h)) (snd (turned a w h)) ->
  let O := image_ops pw F (c_imageCS a) in
  exists i, product O a U V m q = Some i /\
    iwidth i = fst (turned a w h) /\ iheight i = snd (turned a w h) /\
    block_shows W cv a s (enc cv (convert_args a) (view pw (iconvert (o_lib O) i I_RGBAF))).
Proof.
  intros FK CP Enc PJ SP LD SU SV s PI C NN NP WHL FT O.
  destruct (product_level pw F FK a q f U V m w h px PJ (spaces_proper a SP) LD SU SV PI) as (i & Pi & IC & (b & Ei & Bw & Bh & (_ & _ & _ & B31 & _) & RD)). fold s in RD.
  exists i. split; [exact Pi|]. fold O in IC. rewrite IC. clear IC.
  destruct (fk_load pw F FK q f w h px (c_imageCS a) LD) as (W1 & H1 & G). fold s in G.
  assert (ET : turned a w h = result_size a w h).
  { unfold turned, quarter_turn, result_size. destruct (c_rotate a), (c_rotateAngle a); reflexivity. }
  rewrite ET in *.
  assert (ES : (if c_rotate a && match c_rotateAngle a with CW180 | CCW180 => false | _ => true end
     then (b_h s, b_w s) else (b_w s, b_h s)) = result_size a w h) by reflexivity.
  pose proof (fun x y => origin_within a w h x y W1 H1) as OW.
  destruct (result_size a w h) as [W' H'] eqn:RZ. cbn [fst snd] in *.
  destruct (block_kinds fl _ _ _ C NN NP) as (_ & _ & (bx & by_ & bs & al & LY) & _).
  subst i. split; [reflexivity|]. split; [reflexivity|]. cbn [view].
  destruct FT as (Wp & Hp & Sm & Sw & Sh & Sz).
  set (col := fun pos : N * N => let '(x0, y0) := origin a w h (fst pos) (snd pos) in processed a (meaning pw f (at_ pw s x0 y0))).
  (* every block *)
  assert (BK : forall x y, x < cdiv W' bx -> y < cdiv H' by_ -> exists r,
    block_request W (c_textureCS a) cv (convert_args a) (c_textureCS a) W' H' (floats pw b) x y = Some r /\
    let cols := map col (positions (c_fmt a) W' H' bx by_ x y) in
    own_bytes (c_fmt a) cols (map Z.to_N (r_own r)) /\
    suits (bd_ispc (wo_build W)) (c_fmt a) (c_ttyp a) W' H' bx by_ x y (payload_of (r_call r)) /\
    fed (if coarse a then / IZR (2 ^ 11) else / IZR (2 ^ 18))%R (wo_pack W) (c_fmt a) (c_ttyp a) f (payload_of (r_call r)) cols).
  { intros x y X Y. unfold block_request.
    assert (PB : 0 < bx <= 16 /\ 0 < by_ <= 16) by (destruct (c_fmt a); inversion LY; lia).
    assert (XB : x * bx < W' /\ y * by_ < H') by (unfold cdiv in X, Y; split; nia).
    eapply (requested _ _ _ (wo_pack W) (wo_build W) _ _ fl (c_fmt a) (c_ttyp a) cv f W' H' (floats pw b) x y); eauto; [apply error_bears; exact SP|..].
    - split; [exact Wp|]. split; [exact Hp|]. rewrite LY.
      destruct (family_of (c_fmt a)); try congruence; (split; [lia|]); (split; [lia|]); exact XB.
    - intros Fe Ts. destruct (WHL Fe Ts) as [M1 M2].
      assert (B4 : bx = 4 /\ by_ = 4) by (destruct (c_fmt a); try discriminate Fe; inversion LY; auto).
      destruct B4 as [-> ->]. lia.
    - rewrite (source_positions (c_fmt a) W' H' (floats pw b) x y bx by_ bs al NP LY NN).
      pose proof (fun pos => positions_in (c_fmt a) W' H' bx by_ x y pos Wp Hp) as IN.
      induction (positions (c_fmt a) W' H' bx by_ x y) as [|pos l IH]; cbn [map]; constructor.
      2:{ apply IH. intros p I. apply IN. right. exact I. }
      destruct (IN pos (or_introl eq_refl)) as [Px Py]. destruct pos as [xx yy]. cbn [fst snd] in Px, Py |- *.
      destruct (RD xx yy Px Py) as (v1 & v2 & v3 & v4 & A0 & A1 & A2 & A3 & A4).
      assert (EF : floats pw b yy xx = Rgba v1 v2 v3 v4) by (eapply at_floats; eauto; lia).
      rewrite EF. unfold col. cbn [fst snd]. split; [|cbn [pr pg pb pa]; auto].
      destruct (OW xx yy Px Py) as [O1 O2]. destruct (origin a w h xx yy) as [x0 y0]. cbn [fst snd] in O1, O2.
      apply processed_unit. apply (meaning_unit pw s x0 y0 G); [split; assumption|exact PI]. }
  assert (DF : defined W (c_textureCS a) cv (convert_args a) (Img I_RGBAF W' H' (c_textureCS a) (floats pw b))).
  { cbn [defined]. change (ca_format (convert_args a)) with (c_fmt a). rewrite LY. intros x y X Y.
    destruct (BK x y X Y) as (r & -> & _). discriminate. }
  set (im := Img I_RGBAF W' H' (c_textureCS a) (floats pw b)) in *.
  assert (FT : fits (ca_format (convert_args a)) (iwidth im) (iheight im)) by (repeat (split; [assumption|]); assumption).
  destruct (surface_all W (c_textureCS a) fl cv (convert_args a) im C NP Enc FT DF) as [[EQ _] HD].
  rewrite (proj1 (EQ _) (CP fl (convert_args a) cv im C NP FT DF)). unfold im in HD |- *.
  cbn [holds] in HD. change (ca_format (convert_args a)) with (c_fmt a) in HD.
  rewrite LY in HD. destruct HD as [HL HS].
  unfold block_shows. rewrite ES, LY. split; [exact HL|].
  intros x y X Y. destruct (BK x y X Y) as (r & ER & OB & SU' & FE). destruct (HS x y X Y) as (r' & ER' & EB).
  assert (r' = r) by congruence. subst r'.
  change (b_w s) with w. change (b_h s) with h. change (b_fmt s) with f. fold col.
  exists (map Z.to_N (r_own r)), (r_call r), (floats pw b).
  split; [exact EB|]. split; [rewrite ER; reflexivity|]. split; [exact OB|]. split; [exact SU'|exact FE].
Qed.

Lemma block_shown W F enc fl a cv q f w h px : freeimage_ok pw F -> computes W (c_textureCS a) enc ->
  (forall e, N.of_nat (length (wo_enc W e)) = answer_bytes e) ->
  plain_job pw a -> spaces a -> fi_load pw F q = Some (f, w, h, px) ->
  let s := Bitmap f w h (c_imageCS a) px in
  plain_input pw s -> createConverter fl (c_fmt a) (c_ttyp a) = Some cv ->
  family_of (c_fmt a) <> Fam_None -> family_of (c_fmt a) <> Fam_Pvrtc ->
  (family_of (c_fmt a) = Fam_Etc -> c_ttyp a = T_SNorm ->
   fst (turned a w h) mod 4 = 0 /\ snd (turned a w h) mod 4 = 0) ->
  fits (c_fmt a) (fst (turned a w h)) (snd (turned a w h)) ->
  let O := image_ops pw F (c_imageCS a) in
  exists i, product O a w h 0 q = Some i /\
    block_shows W cv a s (enc cv (convert_args a) (view pw (iconvert (o_lib O) i I_RGBAF))).
Proof.
  intros FK CP Enc PJ SP LD s PI C NN NP WHL FT O.
  destruct (fk_load pw F FK q f w h px (c_imageCS a) LD) as (W1 & H1 & _).
  assert (SD : forall n, 1 <= n -> side n 0 = n) by (intros n Hn; unfold side; rewrite N.div_1_r; lia).
  destruct (block_shown_level W F enc fl a cv q f w h 0 w h px FK CP Enc PJ SP LD (SD w W1) (SD h H1) PI C NN NP WHL FT)
    as (i & Pi & _ & _ & SH).
  exists i. split; [exact Pi|exact SH].
Qed.

End Tool.

(** The file read back as DDS: every surface is made of blocks that were made from its input. *)
Theorem C69_dds : forall pw W F enc psize fl file isnum cap visit visit' args a Y path fuel evs,
  freeimage_ok pw F -> enc_sized psize enc -> computes W (c_textureCS a) enc ->
  (forall e, N.of_nat (length (wo_enc W e)) = answer_bytes e) ->
  (forall m, Permutation (visit m) m) -> (forall m, Permutation (visit' m) m) ->
  parse fl file isnum cap visit args = POk a ->
  N.of_nat (length (c_images a)) < 2 ^ 32 -> single_mode a ->
  c_output a = Some path -> ~ In 0 (codes path) -> (length (codes path) < fuel)%nat ->
  c_ftype a = FT_DDS ->
  run_tool (image_ops pw F (c_imageCS a)) visit' fl (fun c v i => enc c v (view pw i)) Y fuel a = Some (0, evs) ->
  plain_job pw a -> family_of (c_fmt a) <> Fam_None -> family_of (c_fmt a) <> Fam_Pvrtc ->
  exists p0 f0 w0 h0 px0 t bytes n room before p cv,
    nth_error (c_images a) 0 = Some p0 /\ fi_load pw F p0 = Some (f0, w0, h0, px0) /\
    y_room Y n = Some room /\
    evs = before ++ [TvSave t SR_Success (Some (firstn (N.to_nat room) bytes))] /\
    read_dds bytes = Some (p, []) /\ createConverter fl (c_fmt a) (c_ttyp a) = Some cv /\
    forall k q f w h px, nth_error (c_images a) k = Some q -> fi_load pw F q = Some (f, w, h, px) ->
      asked a w0 h0 = (w, h) -> fits (c_fmt a) (fst (turned a w h)) (snd (turned a w h)) ->
      (family_of (c_fmt a) = Fam_Etc -> c_ttyp a = T_SNorm ->
       fst (turned a w h) mod 4 = 0 /\ snd (turned a w h) mod 4 = 0) ->
      let s := Bitmap f w h (c_imageCS a) px in plain_input pw s ->
      let '(face, d) := place (c_imageType a) (N.of_nat k) in exists b,
      nth4 (dd_surfaces p) (match c_dim a with Dim3D => 0 | _ => d end) face 0
        (match c_dim a with Dim3D => d | _ => 0 end) = Some b /\ block_shows W cv a s b.
Proof.
  intros pw W F enc psize fl file isnum cap visit visit' args a Y path fuel evs FK ES CP Enc PV PV' E LN SM EO NZ HF FT ER PJ NN NP.
  destruct (C54_dds_contents _ _ _ psize fl file isnum cap visit visit' args a Y path fuel evs (image_ops_ok pw F (c_imageCS a) FK)
      (viewed_sized pw psize enc ES) PV PV' E LN SM EO NZ HF FT ER)
    as (p0 & f & w & h & c & t & bytes & n & room & before & p & cv & X1 & X2 & X3 & X4 & X5 & X6 & _ & _ & _ & _ & _ & X).
  cbn [image_ops o_load] in X2. destruct (fi_load pw F p0) as [[[[f0 w0] h0] px0]|] eqn:L0; [|discriminate].
  injection X2 as E1 E2 E3 E4. subst f w h c.
  exists p0, f0, w0, h0, px0, t, bytes, n, room, before, p, cv. repeat (split; [assumption|]).
  intros k q f w h px Hk LD AS Ft WH s PI.
  destruct (block_shown pw W F enc fl a cv q f w h px FK CP Enc PJ (parsed_spaces _ _ _ _ _ _ _ E) LD PI X6 NN NP WH Ft) as (i & Pi & SH).
  rewrite AS in X. cbn [fst snd] in X. specialize (X k q i Hk Pi).
  destruct (place (c_imageType a) (N.of_nat k)) as [face d]. eexists. split; [exact X|exact SH].
Qed.
Print Assumptions C69_dds.

Theorem C69_ktx : forall pw W F enc psize fl file isnum cap visit visit' args a Y path fuel evs,
  freeimage_ok pw F -> enc_sized psize enc -> computes W (c_textureCS a) enc ->
  (forall e, N.of_nat (length (wo_enc W e)) = answer_bytes e) ->
  (forall m, Permutation (visit m) m) -> (forall m, Permutation (visit' m) m) ->
  parse fl file isnum cap visit args = POk a ->
  N.of_nat (length (c_images a)) < 2 ^ 32 -> single_mode a ->
  c_output a = Some path -> ~ In 0 (codes path) -> (length (codes path) < fuel)%nat ->
  c_ftype a = FT_KTX ->
  run_tool (image_ops pw F (c_imageCS a)) visit' fl (fun c v i => enc c v (view pw i)) Y fuel a = Some (0, evs) ->
  (forall f w h, psize f w h mod 4 = 0) ->
  (forall t r x, In (TvSave t r x) evs ->
     (c_dim a = Dim1D -> height t 0 = 1) /\
     forall m, m < mipLevelCount t -> ktx_level_bytes psize t m < 2 ^ 32) ->
  plain_job pw a -> family_of (c_fmt a) <> Fam_None -> family_of (c_fmt a) <> Fam_Pvrtc ->
  exists p0 f0 w0 h0 px0 t bytes n room before p cv,
    nth_error (c_images a) 0 = Some p0 /\ fi_load pw F p0 = Some (f0, w0, h0, px0) /\
    y_room Y n = Some room /\
    evs = before ++ [TvSave t SR_Success (Some (firstn (N.to_nat room) bytes))] /\
    read_ktx bytes = Some (p, []) /\ createConverter fl (c_fmt a) (c_ttyp a) = Some cv /\
    forall k q f w h px, nth_error (c_images a) k = Some q -> fi_load pw F q = Some (f, w, h, px) ->
      asked a w0 h0 = (w, h) -> fits (c_fmt a) (fst (turned a w h)) (snd (turned a w h)) ->
      (family_of (c_fmt a) = Fam_Etc -> c_ttyp a = T_SNorm ->
       fst (turned a w h) mod 4 = 0 /\ snd (turned a w h) mod 4 = 0) ->
      let s := Bitmap f w h (c_imageCS a) px in plain_input pw s ->
      let '(face, d) := place (c_imageType a) (N.of_nat k) in exists b,
      nth4 (kx_surfaces p) 0 (match c_dim a with Dim3D => 0 | _ => d end) face
        (match c_dim a with Dim3D => d | _ => 0 end) = Some b /\ block_shows W cv a s b.
Proof.
  intros pw W F enc psize fl file isnum cap visit visit' args a Y path fuel evs FK ES CP Enc PV PV' E LN SM EO NZ HF FT ER P4 FIT PJ NN NP.
  destruct (C54_ktx_contents _ _ _ psize fl file isnum cap visit visit' args a Y path fuel evs (image_ops_ok pw F (c_imageCS a) FK)
      (viewed_sized pw psize enc ES) P4 PV PV' E LN SM EO NZ HF FT ER FIT)
    as (p0 & f & w & h & c & t & bytes & n & room & before & p & cv & X1 & X2 & X3 & X4 & X5 & X6 & _ & _ & _ & _ & _ & X).
  cbn [image_ops o_load] in X2. destruct (fi_load pw F p0) as [[[[f0 w0] h0] px0]|] eqn:L0; [|discriminate].
  injection X2 as E1 E2 E3 E4. subst f w h c.
  exists p0, f0, w0, h0, px0, t, bytes, n, room, before, p, cv. repeat (split; [assumption|]).
  intros k q f w h px Hk LD AS Ft WH s PI.
  destruct (block_shown pw W F enc fl a cv q f w h px FK CP Enc PJ (parsed_spaces _ _ _ _ _ _ _ E) LD PI X6 NN NP WH Ft) as (i & Pi & SH).
  rewrite AS in X. cbn [fst snd] in X. specialize (X k q i Hk Pi).
  destruct (place (c_imageType a) (N.of_nat k)) as [face d]. eexists. split; [exact X|exact SH].
Qed.
Print Assumptions C69_ktx.

Theorem C69_pvr : forall pw W F enc psize fl file isnum cap visit visit' args a Y path fuel evs,
  freeimage_ok pw F -> enc_sized psize enc -> computes W (c_textureCS a) enc ->
  (forall e, N.of_nat (length (wo_enc W e)) = answer_bytes e) ->
  (forall m, Permutation (visit m) m) -> (forall m, Permutation (visit' m) m) ->
  parse fl file isnum cap visit args = POk a ->
  N.of_nat (length (c_images a)) < 2 ^ 32 -> single_mode a ->
  c_output a = Some path -> ~ In 0 (codes path) -> (length (codes path) < fuel)%nat ->
  c_ftype a = FT_PVR ->
  run_tool (image_ops pw F (c_imageCS a)) visit' fl (fun c v i => enc c v (view pw i)) Y fuel a = Some (0, evs) ->
  plain_job pw a -> family_of (c_fmt a) <> Fam_None -> family_of (c_fmt a) <> Fam_Pvrtc ->
  exists p0 f0 w0 h0 px0 t bytes n room before p cv,
    nth_error (c_images a) 0 = Some p0 /\ fi_load pw F p0 = Some (f0, w0, h0, px0) /\
    y_room Y n = Some room /\
    evs = before ++ [TvSave t SR_Success (Some (firstn (N.to_nat room) bytes))] /\
    read_pvr psize bytes = Some (p, []) /\ createConverter fl (c_fmt a) (c_ttyp a) = Some cv /\
    forall k q f w h px, nth_error (c_images a) k = Some q -> fi_load pw F q = Some (f, w, h, px) ->
      asked a w0 h0 = (w, h) -> fits (c_fmt a) (fst (turned a w h)) (snd (turned a w h)) ->
      (family_of (c_fmt a) = Fam_Etc -> c_ttyp a = T_SNorm ->
       fst (turned a w h) mod 4 = 0 /\ snd (turned a w h) mod 4 = 0) ->
      let s := Bitmap f w h (c_imageCS a) px in plain_input pw s ->
      let '(face, d) := place (c_imageType a) (N.of_nat k) in exists b,
      nth4 (pv_surfaces p) 0 (match c_dim a with Dim3D => 0 | _ => d end) face
        (match c_dim a with Dim3D => d | _ => 0 end) = Some b /\ block_shows W cv a s b.
Proof.
  intros pw W F enc psize fl file isnum cap visit visit' args a Y path fuel evs FK ES CP Enc PV PV' E LN SM EO NZ HF FT ER PJ NN NP.
  destruct (C54_pvr_contents _ _ _ psize fl file isnum cap visit visit' args a Y path fuel evs (image_ops_ok pw F (c_imageCS a) FK)
      (viewed_sized pw psize enc ES) PV PV' E LN SM EO NZ HF FT ER)
    as (p0 & f & w & h & c & t & bytes & n & room & before & p & cv & X1 & X2 & X3 & X4 & X5 & X6 & _ & _ & _ & _ & _ & X).
  cbn [image_ops o_load] in X2. destruct (fi_load pw F p0) as [[[[f0 w0] h0] px0]|] eqn:L0; [|discriminate].
  injection X2 as E1 E2 E3 E4. subst f w h c.
  exists p0, f0, w0, h0, px0, t, bytes, n, room, before, p, cv. repeat (split; [assumption|]).
  intros k q f w h px Hk LD AS Ft WH s PI.
  destruct (block_shown pw W F enc fl a cv q f w h px FK CP Enc PJ (parsed_spaces _ _ _ _ _ _ _ E) LD PI X6 NN NP WH Ft) as (i & Pi & SH).
  rewrite AS in X. cbn [fst snd] in X. specialize (X k q i Hk Pi).
  destruct (place (c_imageType a) (N.of_nat k)) as [face d]. eexists. split; [exact X|exact SH].
Qed.
Print Assumptions C69_pvr.

(** Consequence: for inputs with 8 bits per channel and the unsigned block formats with 8-bit input,
    the encoder is given the bytes of the input, if colours are not changed. *)
Section Levels.
Context (pw : double -> double -> double).
Local Notation D := (double_arith pw).

Theorem C69_levels : forall W cv a (s : bitmap D) data bs al x y,
  good pw s -> block_shows W cv a s data -> c_imageCS a = c_textureCS a -> c_grayscale a = false -> c_preMultiply a = false ->
  channel_bits (b_fmt s) = Some 8%Z -> c_ttyp a = T_UNorm -> family_of (c_fmt a) = Fam_S3tc ->
  layout_of (c_fmt a) = Blocks 4 4 bs al ->
  let '(w, h) := turned a (b_w s) (b_h s) in x * 4 < w -> y * 4 < h ->
  exists own call, bytes_at data ((y * cdiv w 4 + x) * bs) bs = own ++ wo_enc W call /\
    given call = Some (map (fun pos =>
      let '(x0, y0) := origin a (b_w s) (b_h s) (fst pos) (snd pos) in
      map (fun c => level 8 (at_ pw s x0 y0) (taken a c) (match c with ChA => 255 | _ => 0 end)%Z)
        match c_fmt a with F_BC4 => [ChR] | F_BC5 => [ChR; ChG] | _ => [ChR; ChG; ChB; ChA] end)
      (positions (c_fmt a) w h 4 4 x y)).
Proof.
  intros W cv a s data bs al x y G SH ECS NG NP CB TU Fm LY.
  assert (ET : (if c_rotate a && match c_rotateAngle a with CW180 | CCW180 => false | _ => true end
    then (b_h s, b_w s) else (b_w s, b_h s)) = turned a (b_w s) (b_h s))
    by (unfold turned, quarter_turn; destruct (c_rotate a), (c_rotateAngle a); reflexivity).
  unfold block_shows in SH. rewrite ET, LY in SH.
  destruct (turned a (b_w s) (b_h s)) as [w h] eqn:TN. intros X Y.
  destruct SH as [_ SH].
  destruct (SH x y (cdiv_lt x 4 w ltac:(lia) X) (cdiv_lt y 4 h ltac:(lia) Y)) as (own & call & px & EB & _ & _ & SU & FE).
  clear SH. exists own, call. split; [exact EB|]. clear EB.
  rewrite TU in SU, FE. unfold suits in SU. rewrite Fm in SU.
  destruct (payload_of call) as [l|l|l|? ? l|l] eqn:EP; try (destruct (c_fmt a); contradiction SU).
  cbn [fed] in FE. destruct FE as [_ FE].
  assert (GV : given call = Some l).
  { destruct call; cbn [payload_of given given_signed] in EP |- *; try discriminate EP; congruence. }
  rewrite GV. f_equal. clear GV EP SU.
  assert (PW : 0 < w /\ 0 < h) by lia.
  pose proof (fun pos => positions_in (c_fmt a) w h 4 4 x y pos (proj1 PW) (proj2 PW)) as IN.
  revert l FE. induction (positions (c_fmt a) w h 4 4 x y) as [|pos ps IH]; cbn [map]; intros l FE.
  - inversion FE. reflexivity.
  - inversion FE as [|? b ? l' F1 F2]; subst. f_equal.
    2:{ apply IH; [intros p I; apply IN; right; exact I|exact F2]. }
    clear FE F2 IH. destruct (IN pos (or_introl eq_refl)) as [Px Py]. destruct pos as [xx yy]. cbn [fst snd] in *.
    assert (RS : result_size a (b_w s) (b_h s) = (w, h)) by (unfold result_size; rewrite ET; reflexivity).
    assert (W1 : 1 <= b_w s /\ 1 <= b_h s).
    { unfold turned in TN. destruct (quarter_turn a); injection TN as <- <-; lia. }
    pose proof (origin_within a (b_w s) (b_h s) xx yy (proj1 W1) (proj2 W1)) as OW.
    rewrite RS in OW. cbn [fst snd] in OW. specialize (OW Px Py).
    destruct (origin a (b_w s) (b_h s) xx yy) as [x0 y0]. cbn [fst snd] in OW.
    pose proof (proj2 (proj2 G) x0 y0 OW) as ST.
    assert (LV : forall c z, (c = ChR \/ c = ChG \/ c = ChB \/ c = ChA) ->
      byte_for (number_for T_UNorm (b_fmt s) (of_channel c (processed a (meaning pw (b_fmt s) (at_ pw s x0 y0))))) z ->
      z = level 8 (at_ pw s x0 y0) (taken a c) (match c with ChA => 255 | _ => 0 end)%Z).
    { intros c z Hc [_ Bz]. set (none := match c with ChA => true | _ => false end).
      destruct (norm_level pw (b_fmt s) 8 _ (taken a c) none CB ST) as [VB VE]. change (2 ^ 8 - 1)%Z with 255%Z in VB, VE.
      assert (OC : of_channel c (processed a (meaning pw (b_fmt s) (at_ pw s x0 y0)))
        = selected (taken a c) (if none then 1 else 0)%R (meaning pw (b_fmt s) (at_ pw s x0 y0))).
      { unfold processed, finished, in_space. rewrite ECS, NG, NP. unfold none, taken.
        destruct c; try (exfalso; intuition discriminate); destruct (c_textureCS a), (c_swizzle a); reflexivity. }
      rewrite OC, VE in Bz. unfold number_for in Bz. rewrite CB in Bz.
      replace (match c with ChA => 255 | _ => 0 end)%Z with (if none then 255 else 0)%Z by (destruct c; reflexivity).
      apply close_int.
      match type of Bz with (Rabs (_ - IZR ?v / 255 * 255) <= _)%R => replace (IZR v / 255 * 255)%R with (IZR v) in Bz by field end.
      exact Bz. }
    assert (EN : forall B, Forall2 byte_for (map (fun ch => number_for T_UNorm (b_fmt s) (ch (processed a (meaning pw (b_fmt s) (at_ pw s x0 y0)))))
       (map of_channel match c_fmt a with F_BC4 => [ChR] | F_BC5 => [ChR; ChG] | _ => [ChR; ChG; ChB; ChA] end)) B ->
       map (fun c => level 8 (at_ pw s x0 y0) (taken a c) (match c with ChA => 255 | _ => 0 end)%Z)
        match c_fmt a with F_BC4 => [ChR] | F_BC5 => [ChR; ChG] | _ => [ChR; ChG; ChB; ChA] end = B).
    { assert (AL : Forall (fun c => c = ChR \/ c = ChG \/ c = ChB \/ c = ChA)
        match c_fmt a with F_BC4 => [ChR] | F_BC5 => [ChR; ChG] | _ => [ChR; ChG; ChB; ChA] end)
        by (destruct (c_fmt a); repeat (apply Forall_cons; auto)).
      induction AL as [|c cs Hc AL IH]; cbn [map]; intros B F2; inversion F2; subst; [reflexivity|].
      f_equal; [symmetry; apply LV; assumption|apply IH; assumption]. }
    symmetry. apply EN. destruct (c_fmt a); exact F1.
Qed.

End Levels.
Print Assumptions C69_levels.

(** ** The conditions can be met *)

(** An encoder whose answer starts with the bytes it is given, and the picture of C68 as BC3. *)
Definition ex_echo (e : ecall) : list N :=
  firstn (N.to_nat (answer_bytes e))
    (match given e with Some l => map Z.to_N (List.concat l) | None => [] end ++ repeat 7 16).
Definition We : world := World PropsBlock.ex_packers PropsBlock.ex_build ex_echo 4.
Definition args7 : list string :=
  ["-i"; "aa"; "-f"; "bc3"; "--rotate"; "90"; "--flipx"; "-s"; "bgra"; "-o"; "o.dds"]%string.
Definition ran7 : option (N * list (@tevent (bitmap (double_arith pw0)))) :=
  run_tool (image_ops pw0 ex_freeimage (c_imageCS (parsed args7))) PropsCommandLine.asis PropsCommandLine.fl1
    (fun c v i => serial We (c_textureCS (parsed args7)) psize0 c v (view pw0 i)) Y1 100 (parsed args7).
Definition bytes7 : list N :=
  match ran7 with
  | Some (0, [TvSave _ SR_Success (Some b)]) => skipn (length b - 16) b
  | _ => []
  end.
Example C69_case : PropsCommandLine.parse1 args7 = POk (parsed args7) /\ c_ftype (parsed args7) = FT_DDS /\
  plain_job pw0 (parsed args7) /\ c_ttyp (parsed args7) = T_UNorm /\ c_fmt (parsed args7) = F_BC3 /\
  (forall e, N.of_nat (length (wo_enc We e)) = answer_bytes e) /\
  freeimage_ok pw0 ex_freeimage /\ asked (parsed args7) 2 3 = (2, 3) /\
  fits (c_fmt (parsed args7)) 3 2 /\
  plain_input pw0 (Bitmap I_RGBA8 2 3 (c_imageCS (parsed args7)) ex_picture) /\
  bytes7 = [195; 7; 200; 128; 225; 7; 100; 128; 255; 7; 0; 128; 255; 7; 0; 128].
Proof.
  split; [vm_compute; reflexivity|]. split; [vm_compute; reflexivity|].
  split. { split; [vm_compute; reflexivity|]. intros H. vm_compute in H. discriminate. }
  split; [vm_compute; reflexivity|]. split; [vm_compute; reflexivity|].
  split. { intros e. cbn [We wo_enc]. unfold ex_echo. rewrite firstn_length, app_length, repeat_length.
    assert (answer_bytes e <= 16) by (destruct e; cbn; try lia; destruct f; lia). lia. }
  split; [exact ex_freeimage_ok|]. split; [vm_compute; reflexivity|].
  split. { change (fits F_BC3 3 2). unfold fits, spec_block. cbn. lia. }
  split. { left. discriminate. }
  vm_compute. reflexivity.
Qed.

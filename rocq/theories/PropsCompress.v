(** C66: compressed surfaces. *)

From Coq Require Import NArith ZArith List Bool Lia.
From Coq Require Import ZifyBool ZifyNat ZifyN.
From Flocq Require Import IEEE754.Binary IEEE754.Bits.
From Verif Require Import Base FormatModel FormatSpec FloatModel FloatSpec PixelModel TextureModel ConverterModel
  ConverterSpec FormatProofs SchedProofs TilingProofs BlockModel BlockSpec BlockProofs PropsBlock CompressModel CompressSpec.
Import ListNotations.
Ltac Zify.zify_post_hook ::= Z.div_mod_to_equations.
Local Open Scope N_scope.

(** The kind of the converter, from the format. *)
Lemma kind fl f t c bx by_ bs al :
  createConverter fl f t = Some c -> family_of f <> Fam_Pvrtc -> family_of f <> Fam_None ->
  layout_of f = Blocks bx by_ bs al ->
  block_params c = Some (bx, by_, bs) /\ 0 < bx /\ 0 < by_ /\ 0 < bs.
Proof.
  intros C NP NN L.
  destruct f; try (now elim NP); try (now elim NN); inversion L; subst; clear L NP NN;
    (split; [|lia]); cbn [createConverter] in C;
    repeat match type of C with
    | (if ?b then _ else _) = _ => destruct b; try discriminate C
    | match ?t with _ => _ end = _ => destruct t; try discriminate C
    end; inversion C; subst; reflexivity.
Qed.

Lemma omap_len {A B} (g : A -> option B) l l' : omap g l = Some l' -> length l' = length l.
Proof.
  revert l'. induction l as [|a l IH]; intros l' H; cbn in H.
  - inversion H; reflexivity.
  - destruct (g a); [|discriminate]. cbn in H. destruct (omap g l); [|discriminate].
    cbn in H. inversion H; subst. cbn. f_equal. apply IH. reflexivity.
Qed.

(** Its own bytes and those of the encoder fill the block. *)
Lemma fills pk bd st th c im x y bx by_ bs r :
  block_params c = Some (bx, by_, bs) -> jobRequest pk bd st th c im x y = Some r ->
  N.of_nat (length (r_own r)) + answer_bytes (r_call r) = bs.
Proof.
  intros B R.
  destruct c; try discriminate B; cbn [jobRequest] in R;
    repeat match goal with s : bool |- _ => destruct s end;
    repeat match type of R with
    | obind ?a _ = _ => let E := fresh "E" in destruct a eqn:E; cbn [obind s3tcRequest] in R; [|discriminate R]
    end.
  all: try (cbn in B; inversion B; subst; clear B; repeat match type of R with
    | obind ?a _ = _ => let E := fresh "E" in destruct a eqn:E; cbn [obind] in R; [|discriminate R]
    end; inversion R; subst; clear R; cbn [r_own r_call];
    repeat match goal with |- context [if ?b then _ else _] => destruct b end;
    try reflexivity;
    match goal with E : packBc2Alpha _ = Some _ |- _ => apply omap_len in E; rewrite E; reflexivity end).
  unfold etcRequest in R.
  repeat match type of R with
    | obind ?a _ = _ => let E := fresh "E" in destruct a eqn:E; cbn [obind] in R; [|discriminate R]
    end.
  inversion R; subst; clear R. cbn [r_own r_call length].
  match goal with K : etcKind _ _ _ = Some _ |- _ =>
    unfold etcKind in K; destruct f; try discriminate K; inversion K; subst; clear K end;
    cbn in B; inversion B; subst; cbn; try reflexivity;
    match goal with |- context [match ?t with _ => _ end] => destruct t; reflexivity end.
Qed.

(** * Every schedule *)

(** The surface consists of the blocks row by row, each what its encoder answers to the request
    for the pixels of that block (C60); no job reads outside the image or writes outside the buffer
    or to the bytes of another. *)
Theorem C66_surface : forall pk bd st tc fl f t c bx by_ bs al w h px enc buf threads m,
  createConverter fl f t = Some c -> family_of f <> Fam_Pvrtc -> family_of f <> Fam_None ->
  layout_of f = Blocks bx by_ bs al ->
  0 < w -> 0 < h -> w + bx <= 2 ^ 32 -> h + by_ <= 2 ^ 32 ->
  let nx := (w + bx - 1) / bx in
  let ny := (h + by_ - 1) / by_ in
  nx * ny * bs < 2 ^ 32 ->
  (forall e, N.of_nat (length (enc e)) = answer_bytes e) ->
  (forall x y, x < nx -> y < ny -> jobRequest pk bd st tc c (img w h px) x y <> None) ->
  N.of_nat (length buf) = nx * ny * bs ->
  (0 < threads)%nat -> nx * ny + N.of_nat threads < 2 ^ 32 ->
  let process := blockProcess pk bd st tc enc c (img w h px) in
  let jobs := job_list (block_jobs w bx) (block_jobs h by_) in
  reach process jobs buf threads m ->
  ~ mbad process jobs m /\ ~ mrace m /\
  (mfinal m ->
   N.of_nat (length (m_buf m)) = nx * ny * bs /\
   run_serial process jobs buf = Some (m_buf m) /\
   forall x y, x < nx -> y < ny ->
   exists r, jobRequest pk bd st tc c (img w h px) x y = Some r /\
   bytes_at (m_buf m) ((y * nx + x) * bs) bs = map Z.to_N (r_own r) ++ enc (r_call r)).
Proof.
  intros pk bd st tc fl f t c bx by_ bs al w h px enc buf threads m C NP NN L Hw Hh Bw Bh nx ny Sz
    Enc Def Lb Ht Bt process jobs R.
  destruct (kind fl f t c bx by_ bs al C NP NN L) as (BP & Hbx & Hby & Hbs).
  change nx with (cdiv w bx) in *. change ny with (cdiv h by_) in *. clear nx ny.
  pose (out := fun x y => match jobRequest pk bd st tc c (img w h px) x y with
                          | Some r => map Z.to_N (r_own r) ++ enc (r_call r) | None => [] end).
  assert (Hproc : forall x y, x < cdiv w bx -> y < cdiv h by_ ->
    process (x, y) = Some (place ((y * cdiv w bx + x) * bs) (out x y))).
  { intros x y Hx Hy. unfold process, blockProcess, out. rewrite BP. cbn [obind].
    destruct (jobRequest pk bd st tc c (img w h px) x y) eqn:J; [|elim (Def x y Hx Hy J)].
    cbn [obind img sf_w]. rewrite block_jobs_cdiv by lia.
    destruct (block_offset_bound x y (cdiv w bx) (cdiv h by_) bs Hx Hy Hbs Sz) as [O1 O2].
    rewrite (u32_small (y * cdiv w bx)), (u32_small (y * cdiv w bx + x)), u32_small by lia.
    reflexivity. }
  assert (Hout : forall x y, x < cdiv w bx -> y < cdiv h by_ -> N.of_nat (length (out x y)) = bs).
  { intros x y Hx Hy. unfold out.
    destruct (jobRequest pk bd st tc c (img w h px) x y) as [r|] eqn:J; [|elim (Def x y Hx Hy J)].
    rewrite app_length, map_length, Nat2N.inj_add, Enc. eapply fills; eauto. }
  set (data := block_data (cdiv w bx) (cdiv h by_) out).
  assert (T : forall j, In j jobs -> process j <> None)
    by (apply (block_jobs_total w h bx by_ bs px) with (out := out); auto).
  assert (W : flat_map (writes process) jobs = place 0 data)
    by (apply (block_writes w h bx by_ bs px) with (out := out); auto).
  assert (LD : N.of_nat (length data) = cdiv w bx * cdiv h by_ * bs).
  { pose proof (block_data_length w h bx by_ bs px Hw Hh Hbx Hby Hbs Bw Bh Sz process out Hproc Hout) as E.
    unfold data. rewrite E. unfold block_data_size. rewrite !block_jobs_cdiv by lia.
    assert (cdiv w bx * cdiv h by_ <= cdiv w bx * cdiv h by_ * bs) by nia.
    rewrite (u32_small (cdiv w bx * cdiv h by_)), u32_small by lia. reflexivity. }
  assert (LE : length buf = length data) by lia.
  assert (S : run_serial process jobs buf = Some data) by (apply tiling_serial; auto).
  assert (OK : jobs_ok process jobs buf) by (apply (tiling_jobs_ok _ _ _ data); auto).
  assert (B' : N.of_nat (length jobs) + N.of_nat threads < 2^32).
  { unfold jobs; rewrite !block_jobs_cdiv by lia. rewrite job_list_length. lia. }
  split; [eapply reach_not_bad; eauto|split; [eapply reach_no_race; eauto|]].
  intros F; destruct (reach_final _ _ _ _ OK B' m Ht R F) as [E _].
  assert (Em : m_buf m = data) by congruence. rewrite Em.
  split; [exact LD|]. split; [exact S|]. intros x y Hx Hy.
  pose proof (block_position (cdiv w bx) (cdiv h by_) bs out x y Hout Hx Hy) as P.
  unfold bytes_at. fold data in P. rewrite P. unfold out.
  destruct (jobRequest pk bd st tc c (img w h px) x y) as [r|] eqn:J; [|elim (Def x y Hx Hy J)].
  exists r. split; reflexivity.
Qed.
Print Assumptions C66_surface.

(** * Blocks do not depend on each other *)

(** If two images of one size have the same pixels in the part block (x, y) is made from (for
    ETC the part inside the image, else with the last row and column repeated), the requests for
    the block are the same, and so are its bytes. *)
Theorem C66_local : forall pk bd st tc fl f t c w h px px' enc x y,
  createConverter fl f t = Some c -> family_of f <> Fam_Pvrtc -> block_at f w h x y ->
  source f w h px x y = source f w h px' x y ->
  jobRequest pk bd st tc c (img w h px) x y = jobRequest pk bd st tc c (img w h px') x y /\
  blockProcess pk bd st tc enc c (img w h px) (x, y) = blockProcess pk bd st tc enc c (img w h px') (x, y).
Proof.
  intros pk bd st tc fl f t c w h px px' enc x y C NP B S.
  assert (J : jobRequest pk bd st tc c (img w h px) x y = jobRequest pk bd st tc c (img w h px') x y).
  { destruct (family_of f) eqn:Fam; try (now elim NP).
    - destruct (source_s3tc f w h px x y Fam B) as (E1 & G1 & _).
      destruct (source_s3tc f w h px' x y Fam B) as (E2 & G2 & _).
      rewrite E1, E2 in S.
      destruct f; try discriminate Fam; cbn [createConverter] in C;
        (destruct (has_s3tc fl); [|discriminate C]);
        repeat match type of C with
        | (if ?b then _ else _) = _ => destruct b; try discriminate C
        | match ?t with _ => _ end = _ => destruct t; try discriminate C
        end; inversion C; subst c; cbn [jobRequest]; rewrite G1, G2, S; reflexivity.
    - destruct B as (Hw & Hh & B). unfold source in S. rewrite Fam in *.
      assert (Ly : exists bs al, layout_of f = Blocks 4 4 bs al) by (destruct f; try discriminate Fam; cbn; eauto).
      destruct Ly as (bs & al & Ly). rewrite Ly in *. destruct B as (B1 & B2 & B3 & B4).
      assert (Cc : c = CvEtc f t).
      { destruct f; try discriminate Fam; cbn [createConverter] in C; (destruct (has_etc fl); [|discriminate C]);
        repeat match type of C with
        | (if ?b then _ else _) = _ => destruct b; try discriminate C
        | match ?t with _ => _ end = _ => destruct t; try discriminate C
        end; inversion C; reflexivity. }
      subst c. cbn [jobRequest].
      destruct (etc_gather w h px Hw Hh x y B1 B2 ltac:(apply cdiv_lt; lia) ltac:(apply cdiv_lt; lia)) as (G1 & _).
      destruct (etc_gather w h px' Hw Hh x y B1 B2 ltac:(apply cdiv_lt; lia) ltac:(apply cdiv_lt; lia)) as (G2 & _).
      rewrite G1, G2, S. reflexivity.
    - destruct B as (Hw & Hh & B). unfold source in S. rewrite Fam in *.
      destruct (layout_of f) as [| |bx by_ bs al] eqn:Ly; [destruct f; discriminate| destruct f; discriminate|].
      destruct B as (B1 & B2 & B3 & B4).
      assert (Pb : 0 < bx /\ 0 < by_) by (destruct f; try discriminate Fam; inversion Ly; lia).
      assert (Cc : c = CvAstc f t bx by_).
      { destruct f; try discriminate Fam; cbn [createConverter] in C; (destruct (has_astc fl); [|discriminate C]);
        match type of C with (if ?b then _ else _) = _ => destruct b end; try discriminate C;
        inversion C; inversion Ly; subst; reflexivity. }
      subst c. cbn [jobRequest].
      rewrite (clamp_gather w h px Hw Hh) by (try apply cdiv_lt; lia).
      rewrite (clamp_gather w h px' Hw Hh) by (try apply cdiv_lt; lia). rewrite S. reflexivity.
    - destruct B as (_ & _ & B). exfalso.
      destruct f; try discriminate Fam; cbn [family_of layout_of] in B; exact B. }
  split; [exact J|]. unfold blockProcess. rewrite J. reflexivity.
Qed.
Print Assumptions C66_local.

(** Only an undefined request (C60: a NaN in a format of bytes, a signed EAC block that the
    image does not fill) stops a run, and it always does. *)
Theorem C66_undefined : forall pk bd st tc fl f t c bx by_ bs al w h px enc buf x y,
  createConverter fl f t = Some c -> family_of f <> Fam_Pvrtc -> family_of f <> Fam_None ->
  layout_of f = Blocks bx by_ bs al ->
  0 < w -> 0 < h -> w + bx <= 2 ^ 32 -> h + by_ <= 2 ^ 32 ->
  x < (w + bx - 1) / bx -> y < (h + by_ - 1) / by_ ->
  jobRequest pk bd st tc c (img w h px) x y = None ->
  run_serial (blockProcess pk bd st tc enc c (img w h px))
    (job_list (block_jobs w bx) (block_jobs h by_)) buf = None.
Proof.
  intros pk bd st tc fl f t c bx by_ bs al w h px enc buf x y C NP NN L Hw Hh Bw Bh Hx Hy J.
  destruct (kind fl f t c bx by_ bs al C NP NN L) as (BP & Hbx & Hby & Hbs).
  assert (I : In (x, y) (job_list (block_jobs w bx) (block_jobs h by_))).
  { rewrite !block_jobs_cdiv by lia. apply in_job_list. split; assumption. }
  assert (N0 : blockProcess pk bd st tc enc c (img w h px) (x, y) = None).
  { unfold blockProcess. rewrite BP. cbn [obind]. rewrite J. reflexivity. }
  revert buf I. generalize (job_list (block_jobs w bx) (block_jobs h by_)) as jobs.
  induction jobs as [|j jobs IH]; intros buf I; [contradiction|].
  cbn [run_serial]. destruct I as [->|I].
  - rewrite N0. reflexivity.
  - destruct (blockProcess pk bd st tc enc c (img w h px) j); [|reflexivity]. cbn [obind].
    destruct (stores buf l); [|reflexivity]. cbn [obind]. apply IH. exact I.
Qed.
Print Assumptions C66_undefined.

(** A 5 by 3 image of BC2: two blocks of 16 bytes; the encoder here answers with its level and
    the first byte it is given. *)
Definition ex_enc (e : ecall) : list N :=
  firstn (N.to_nat (answer_bytes e))
    (match e with E_Bc1 l ((z :: _) :: _) _ _ => [l; Z.to_N z] | _ => [] end ++ repeat 7 16).
Example C66_case :
  (forall e, N.of_nat (length (ex_enc e)) = answer_bytes e) /\
  (forall x y, x < 2 -> y < 1 ->
     jobRequest ex_packers ex_build ex_settings 1 CvBc2 (img 5 3 ex_px) x y <> None) /\
  option_map (fun b => bytes_at b 24 8)
    (run_serial (blockProcess ex_packers ex_build ex_settings 1 ex_enc CvBc2 (img 5 3 ex_px))
      (job_list (block_jobs 5 4) (block_jobs 3 4)) (repeat 0 32)) = Some [9; 128; 7; 7; 7; 7; 7; 7].
Proof.
  split; [|split].
  - intros e. unfold ex_enc. rewrite firstn_length, app_length, repeat_length.
    assert (answer_bytes e <= 16) by (destruct e; cbn; try lia; destruct f; lia). lia.
  - intros x y Hx Hy. assert (y = 0) by lia. subst y.
    assert (X : x = 0 \/ x = 1) by lia. destruct X as [->| ->]; vm_compute; discriminate.
  - vm_compute. reflexivity.
Qed.

(** The jobs of the converters tile the output buffer. *)

From Coq Require Import NArith List Bool Lia ZArith Permutation.
From Coq Require Import ZifyBool ZifyNat ZifyN.
From Verif Require Import Base FormatModel ConverterModel ConverterSpec FormatProofs SchedProofs.
Import ListNotations.
Local Open Scope N_scope.

(** * [place] *)
Lemma place_app o a b : place o (a ++ b) = place o a ++ place (o + N.of_nat (length a)) b.
Proof.
  revert o; induction a as [|x a IH]; intros o; cbn.
  - f_equal; lia.
  - rewrite IH; do 3 f_equal; lia.
Qed.

Lemma place_fst o l : map fst (place o l) = map (fun i => o + i) (Nrange (N.of_nat (length l))).
Proof.
  revert o; induction l as [|x l IH]; intros o; cbn [place map length]; [reflexivity|].
  rewrite IH; unfold Nrange; rewrite !Nnat.Nat2N.id; cbn [seq map].
  f_equal; [cbn; lia|]. rewrite <- seq_shift, !map_map.
  apply map_ext; intros; lia.
Qed.

Lemma place_NoDup o l : NoDup (map fst (place o l)).
Proof.
  rewrite place_fst; apply FinFun.Injective_map_NoDup; [|apply NoDup_Nrange].
  intros a b; lia.
Qed.

Lemma place_in_buf o l n : o + N.of_nat (length l) <= N.of_nat n -> in_buf n (place o l).
Proof.
  intros H; unfold in_buf; apply Forall_forall; intros w Hw.
  apply (in_map fst) in Hw; rewrite place_fst in Hw; apply in_map_iff in Hw.
  destruct Hw as (i & <- & Hi); apply in_Nrange in Hi; lia.
Qed.

Lemma upd_app_r {A} (a b : list A) i v : upd (length a + i) v (a ++ b) = a ++ upd i v b.
Proof. induction a; cbn; auto; f_equal; auto. Qed.

Lemma ustores_place a l b buf :
  length buf = length l ->
  ustores (place (N.of_nat (length a)) l) (a ++ buf ++ b) = a ++ l ++ b.
Proof.
  revert a buf; induction l as [|x l IH]; intros a [|y buf] H; cbn in H; try discriminate.
  - reflexivity.
  - cbn [place]; unfold ustores; cbn [fold_left]; fold ustores.
    unfold ustore at 2; cbn [fst snd]; rewrite Nnat.Nat2N.id.
    replace (length a) with (length a + 0)%nat at 2 by lia; rewrite upd_app_r; cbn [upd app].
    replace (a ++ x :: buf ++ b) with ((a ++ [x]) ++ buf ++ b) by (rewrite <- app_assoc; reflexivity).
    replace (N.of_nat (length a) + 1) with (N.of_nat (length (a ++ [x])))
      by (rewrite app_length; cbn; lia).
    unfold ustores in IH; rewrite IH by lia.
    rewrite <- app_assoc; reflexivity.
Qed.

Lemma ustores_place_all l buf : length buf = length l -> ustores (place 0 l) buf = l.
Proof.
  intros H; pose proof (ustores_place [] l [] buf H) as E; cbn in E.
  rewrite !app_nil_r in E; exact E.
Qed.

(** * The machine on jobs that tile: the schedule does not matter *)
Lemma tiling_jobs_ok {J} (process : J -> option (list (N * N))) jobs buf data :
  (forall j, In j jobs -> process j <> None) ->
  flat_map (writes process) jobs = place 0 data ->
  length buf = length data ->
  jobs_ok process jobs buf.
Proof.
  intros A E L; split; [exact A|]; rewrite E; split.
  - apply place_NoDup.
  - apply place_in_buf; lia.
Qed.

Lemma tiling_serial {J} (process : J -> option (list (N * N))) jobs buf data :
  (forall j, In j jobs -> process j <> None) ->
  flat_map (writes process) jobs = place 0 data ->
  length buf = length data ->
  run_serial process jobs buf = Some data.
Proof.
  intros A E L; rewrite run_serial_some; auto; rewrite E.
  - rewrite ustores_place_all; auto.
  - apply place_in_buf; lia.
Qed.

(** * Ranges *)
Lemma Nrange_app a b : Nrange (a + b) = Nrange a ++ map (fun i => a + i) (Nrange b).
Proof.
  unfold Nrange; rewrite Nnat.N2Nat.inj_add, seq_app, map_app; f_equal.
  rewrite map_map; cbn [plus].
  replace (N.to_nat a) with (N.to_nat a + 0)%nat at 1 by lia.
  generalize 0%nat; generalize (N.to_nat b); induction n; intros k; cbn; auto.
  f_equal; [lia|]. rewrite <- IHn. f_equal; f_equal; lia.
Qed.

Lemma flat_map_concat_map' {A B} (f : A -> list B) l : flat_map f l = concat (map f l).
Proof. apply flat_map_concat_map. Qed.

Lemma concat_length_const {A} (l : list (list A)) k :
  (forall x, In x l -> length x = k) -> length (concat l) = (length l * k)%nat.
Proof.
  induction l as [|x l IH]; intros H; cbn; auto.
  rewrite app_length, IH by (intros; apply H; right; auto).
  rewrite (H x) by (left; auto); lia.
Qed.

(** Consecutive chunks of constant size written in order. *)
Lemma place_chunks {A} (f : A -> list N) (k : N) l o :
  (forall x, In x l -> N.of_nat (length (f x)) = k) ->
  place o (concat (map f l))
  = concat (map (fun p => place (o + k * fst p) (f (snd p)))
                (combine (Nrange (N.of_nat (length l))) l)).
Proof.
  intros H.
  assert (G : forall (b : nat),
    place (o + k * N.of_nat b) (concat (map f l))
    = concat (map (fun p => place (o + k * fst p) (f (snd p)))
                  (combine (map N.of_nat (seq b (length l))) l))).
  { induction l as [|x l IH]; intros b; cbn [length seq map combine concat]; [reflexivity|].
    rewrite place_app; cbn [fst snd]; f_equal.
    rewrite (H x) by (left; auto).
    replace (o + k * N.of_nat b + k) with (o + k * N.of_nat (S b)) by lia.
    apply IH; intros; apply H; right; auto. }
  specialize (G 0%nat); cbn in G.
  replace (o + k * 0) with o in G by lia.
  rewrite G; unfold Nrange; rewrite Nnat.Nat2N.id; reflexivity.
Qed.

(** * Uncompressed converters *)
Section Std.
  Context {P : Type} (enc : P -> option (list N)) (sz ch w h : N) (px : N -> N -> P)
    (bytes : P -> list N).

  Local Notation img := (ConverterSpec.img w h px).
  Local Notation enc_ok := (ConverterSpec.enc_ok enc sz ch w h px bytes).

  (** Bytes of the pixel at a row-major position. *)
  Definition pos_bytes (p : N) : list N := bytes (px (p / w) (p mod w)).

  Hypothesis Hw : 0 < w.
  Hypothesis Hh : 0 < h.
  Hypothesis Hn : w * h + 31 < 2^32.
  Hypothesis Hc : w * h * ch <= 2^32.
  Hypothesis He : enc_ok.

  Lemma pos_in p : p < w * h -> p / w < h /\ p mod w < w.
  Proof.
    intros; split; [apply N.div_lt_upper_bound; lia|apply N.mod_lt; lia].
  Qed.

  Lemma std_loop_spec x n i row :
    x * 32 + i + N.of_nat n <= w * h + 31 -> x * 32 < w * h -> row < h ->
    std_loop enc sz ch img x n i row
    = Some (place ((x * 32 + i) * (sz * ch))
             (concat (map (fun k => pos_bytes (x * 32 + i + k))
                (Nrange (N.min (N.of_nat n) (w * h - (x * 32 + i))))))).
  Proof.
    revert i row; induction n as [|n IH]; intros i row Hb Hx Hr.
    - cbn [std_loop]. replace (N.min (N.of_nat 0) _) with 0 by lia. reflexivity.
    - cbn [std_loop]. unfold batchSize.
      rewrite (u32_small (x * 32)) by lia.
      rewrite (u32_small (x * 32 + i)) by lia.
      cbn [sf_w sf_h img].
      destruct (N.ltb_spec (x * 32 + i) (w * h)) as [L|L].
      + destruct (pos_in _ L) as [P1 P2].
        destruct (N.leb_spec h ((x * 32 + i) / w)) as [K|K]; [lia|].
        rewrite andb_false_r.
        cbn [sf_px img].
        destruct (N.ltb_spec ((x * 32 + i) / w) h) as [_|]; [|lia].
        destruct (N.ltb_spec ((x * 32 + i) mod w) w) as [_|]; [|lia].
        cbn [andb obind].
        destruct (He _ _ P1 P2) as [E1 E2]; rewrite E1; cbn [obind].
        rewrite IH by lia; cbn [obind]. f_equal.
        rewrite u32_small by nia.
        replace (N.min (N.of_nat (S n)) (w * h - (x * 32 + i)))
          with (1 + N.min (N.of_nat n) (w * h - (x * 32 + (i + 1)))) by lia.
        rewrite Nrange_app, map_app, concat_app, place_app.
        f_equal.
        * change (Nrange 1) with [0]; cbn [map concat]; rewrite app_nil_r, N.add_0_r.
          unfold pos_bytes. f_equal. lia.
        * change (Nrange 1) with [0]; cbn [map concat]; rewrite app_nil_r, N.add_0_r.
          unfold pos_bytes at 2; rewrite E2.
          f_equal; [lia|]. rewrite map_map. f_equal; apply map_ext; intros; f_equal; lia.
      + assert (K : h <= (x * 32 + i) / w) by (apply N.div_le_lower_bound; lia).
        destruct (N.eqb_spec ((x * 32 + i) / w) row); [lia|].
        apply N.leb_le in K; rewrite K; cbn [negb andb].
        replace (w * h - (x * 32 + i)) with 0 by lia.
        rewrite N.min_0_r; reflexivity.
  Qed.

  Lemma std_process_spec x :
    x * 32 < w * h ->
    std_process enc sz ch img x
    = Some (place (x * 32 * (sz * ch))
             (concat (map (fun k => pos_bytes (x * 32 + k))
                (Nrange (N.min 32 (w * h - x * 32)))))).
  Proof.
    intros H; unfold std_process; cbn [sf_w img].
    unfold batchSize at 2; rewrite (u32_small (x * 32)) by lia.
    rewrite std_loop_spec.
    - unfold batchSize; rewrite Nnat.N2Nat.id, !N.add_0_r; reflexivity.
    - unfold batchSize; lia.
    - exact H.
    - apply (pos_in _ H).
  Qed.

  Definition std_jobs : list N := Nrange (std_jobsX w h).

  Lemma std_jobsX_cdiv : std_jobsX w h = cdiv (w * h) 32.
  Proof.
    unfold std_jobsX, cdiv, batchSize.
    rewrite (u32_small (w * h)) by lia. rewrite u32_small by lia. f_equal; lia.
  Qed.

  Local Notation std_data := (ConverterSpec.std_data w h px bytes).

  Lemma std_data_flat : std_data = concat (map pos_bytes (Nrange (w * h))).
  Proof.
    unfold ConverterSpec.std_data; clear - Hw.
    induction h as [|k IH] using N.peano_ind.
    - rewrite N.mul_0_r; reflexivity.
    - rewrite <- N.add_1_r, Nrange_app, flat_map_app, IH, N.mul_add_distr_l, N.mul_1_r.
      rewrite Nrange_app, map_app, concat_app; f_equal.
      change (Nrange 1) with [0]; cbn [map flat_map]; rewrite app_nil_r, N.add_0_r.
      rewrite map_map, flat_map_concat_map; f_equal; apply map_ext_in; intros c Hcc.
      apply in_Nrange in Hcc; unfold pos_bytes.
      replace (w * k + c) with (c + k * w) by lia.
      rewrite N.div_add, N.mod_add, N.div_small, N.mod_small by lia; reflexivity.
  Qed.

  Lemma pos_bytes_length p : p < w * h -> N.of_nat (length (pos_bytes p)) = sz * ch.
  Proof. intros H; destruct (pos_in _ H); apply He; auto. Qed.

  Lemma pos_concat_length a n :
    a + n <= w * h ->
    N.of_nat (length (concat (map (fun k => pos_bytes (a + k)) (Nrange n)))) = n * (sz * ch).
  Proof.
    intros H.
    rewrite (concat_length_const _ (N.to_nat (sz * ch))).
    - rewrite map_length, Nrange_length; lia.
    - intros l Hl; apply in_map_iff in Hl; destruct Hl as (k & <- & Hk); apply in_Nrange in Hk.
      pose proof (pos_bytes_length (a + k)); lia.
  Qed.

  Lemma pos_concat_length0 n :
    n <= w * h -> N.of_nat (length (concat (map pos_bytes (Nrange n)))) = n * (sz * ch).
  Proof. intros H; exact (pos_concat_length 0 n H). Qed.

  Lemma std_prefix_writes n :
    n <= std_jobsX w h ->
    flat_map (writes (std_process enc sz ch img)) (Nrange n)
    = place 0 (concat (map pos_bytes (Nrange (N.min (n * 32) (w * h))))).
  Proof.
    induction n as [|n IH] using N.peano_ind; intros H.
    { replace (N.min (0 * 32) (w * h)) with 0 by lia; reflexivity. }
    assert (Hl : n * 32 < w * h).
    { rewrite std_jobsX_cdiv in H; unfold cdiv in H.
      pose proof (N.div_mod' (w * h + 32 - 1) 32); pose proof (N.mod_lt (w*h+32-1) 32); lia. }
    rewrite <- N.add_1_r, Nrange_app, flat_map_app, IH by lia.
    change (Nrange 1) with [0]. cbn [map flat_map]. rewrite app_nil_r.
    rewrite N.add_0_r.
    unfold writes; rewrite std_process_spec by exact Hl.
    replace (N.min ((n + 1) * 32) (w * h))
      with (N.min (n * 32) (w * h) + N.min 32 (w * h - n * 32)) by lia.
    rewrite Nrange_app, map_app, concat_app, place_app; f_equal.
    replace (N.min (n * 32) (w * h)) with (n * 32) by lia.
    rewrite map_map. f_equal.
    rewrite pos_concat_length0 by lia. lia.
  Qed.

  Lemma std_writes :
    flat_map (writes (std_process enc sz ch img)) std_jobs = place 0 std_data.
  Proof.
    unfold std_jobs; rewrite std_data_flat, std_prefix_writes by lia.
    replace (N.min (std_jobsX w h * 32) (w * h)) with (w * h); [reflexivity|].
    rewrite std_jobsX_cdiv; unfold cdiv.
    pose proof (N.div_mod' (w * h + 32 - 1) 32); pose proof (N.mod_lt (w*h+32-1) 32); lia.
  Qed.

  Lemma std_jobs_total x : In x std_jobs -> std_process enc sz ch img x <> None.
  Proof.
    unfold std_jobs; rewrite in_Nrange, std_jobsX_cdiv; unfold cdiv; intros H.
    rewrite std_process_spec; [discriminate|].
    pose proof (N.div_mod' (w * h + 32 - 1) 32); pose proof (N.mod_lt (w*h+32-1) 32); lia.
  Qed.

  Lemma std_data_length : N.of_nat (length std_data) = std_data_size sz ch w h.
  Proof.
    rewrite std_data_flat; unfold std_data_size; rewrite u32_small by lia.
    rewrite pos_concat_length0 by lia; lia.
  Qed.

  (** The bytes of pixel (row, col) sit at its row-major position. *)
  Lemma std_data_pixel r c : r < h -> c < w ->
    firstn (N.to_nat (sz * ch)) (skipn (N.to_nat ((r * w + c) * (sz * ch))) std_data)
    = bytes (px r c).
  Proof.
    intros Hr Hcc.
    assert (L : r * w + c < w * h) by nia.
    rewrite std_data_flat.
    replace (w * h) with ((r * w + c) + (1 + (w * h - (r * w + c) - 1))) by lia.
    rewrite Nrange_app, map_app, concat_app.
    pose proof (pos_concat_length0 (r * w + c)) as E.
    assert (L2 : r * w + c <= w * h) by lia. specialize (E L2).
    rewrite skipn_app, skipn_all2 by lia. cbn [app].
    replace (N.to_nat ((r * w + c) * (sz * ch)) - _)%nat with 0%nat by lia.
    cbn [skipn]. rewrite map_map, Nrange_app, map_app, concat_app.
    change (Nrange 1) with [0]; cbn [map concat]; rewrite app_nil_r, N.add_0_r.
    assert (E3 : pos_bytes (r * w + c) = bytes (px r c)).
    { unfold pos_bytes; f_equal. replace (r * w + c) with (c + r * w) by lia.
      rewrite N.div_add, N.mod_add by lia. rewrite N.div_small, N.mod_small by lia. f_equal; lia. }
    pose proof (pos_bytes_length _ L) as E4.
    rewrite E3 in *.
    rewrite firstn_app, firstn_all2 by lia.
    replace (N.to_nat (sz * ch) - _)%nat with 0%nat by lia.
    cbn; apply app_nil_r.
  Qed.
End Std.

(** * Block converters *)
Lemma omap_some {A B} (f : A -> option B) (g : A -> B) l :
  (forall a, In a l -> f a = Some (g a)) -> omap f l = Some (map g l).
Proof.
  induction l as [|a l IH]; intros H; cbn; auto.
  rewrite (H a) by (left; auto); cbn; rewrite IH by (intros; apply H; right; auto); reflexivity.
Qed.

Lemma cdiv_bound x b n : 0 < b -> x < cdiv n b -> x * b < n.
Proof.
  unfold cdiv; intros.
  pose proof (N.div_mod' (n + b - 1) b); pose proof (N.mod_lt (n + b - 1) b); nia.
Qed.

Section Block.
  Context {P : Type} (w h bx by_ bs : N) (px : N -> N -> P).

  Hypothesis Hw : 0 < w.
  Hypothesis Hh : 0 < h.
  Hypothesis Hbx : 0 < bx.
  Hypothesis Hby : 0 < by_.
  Hypothesis Hbs : 0 < bs.
  Hypothesis Hw' : w + bx <= 2^32.
  Hypothesis Hh' : h + by_ <= 2^32.

  Let jx := cdiv w bx.
  Let jy := cdiv h by_.
  Hypothesis Hsz : jx * jy * bs < 2^32.

  Local Notation footprint := (ConverterSpec.footprint w h bx by_ px).

  Lemma clamp_block_spec x y : x < jx -> y < jy ->
    clamp_block (img w h px) bx by_ x y = Some (footprint x y).
  Proof.
    intros Hx Hy; unfold clamp_block, ConverterSpec.footprint.
    pose proof (cdiv_bound x bx w Hbx Hx); pose proof (cdiv_bound y by_ h Hby Hy).
    rewrite (omap_some _ (fun j => map (fun i =>
        px (N.min (y * by_ + j) (h - 1)) (N.min (x * bx + i) (w - 1))) (Nrange bx))).
    - cbn [obind]; rewrite flat_map_concat_map; reflexivity.
    - intros j Hj; apply in_Nrange in Hj.
      apply omap_some; intros i Hi; apply in_Nrange in Hi.
      cbn [img sf_px sf_h sf_w].
      rewrite (u32_small (y * by_)) by lia. rewrite (u32_small (x * bx)) by lia.
      rewrite (u32_small (y * by_ + j)) by lia. rewrite (u32_small (x * bx + i)) by lia.
      destruct (N.ltb_spec (N.min (y * by_ + j) (h - 1)) h); [|lia].
      destruct (N.ltb_spec (N.min (x * bx + i) (w - 1)) w); [|lia].
      reflexivity.
  Qed.

  Definition block_job_list : list (N * N) := job_list (block_jobs w bx) (block_jobs h by_).

  Lemma block_job_list_eq : block_job_list = job_list jx jy.
  Proof. unfold block_job_list; rewrite !block_jobs_cdiv by lia; reflexivity. Qed.

  Lemma in_job_list a b x y : In (x, y) (job_list a b) <-> x < a /\ y < b.
  Proof.
    unfold job_list; rewrite in_flat_map; split.
    - intros (v & Hv & H); apply in_map_iff in H; destruct H as (u & E & Hu).
      inversion E; subst; apply in_Nrange in Hv; apply in_Nrange in Hu; auto.
    - intros [A B]; exists y; split; [apply in_Nrange; auto|].
      apply in_map_iff; exists x; split; auto; apply in_Nrange; auto.
  Qed.

  (** Any per-job writer that stores [bs] bytes at the job's block. *)
  Context (process : N * N -> option (list (N * N))) (out : N -> N -> list N).
  Hypothesis Hproc : forall x y, x < jx -> y < jy ->
    process (x, y) = Some (place ((y * jx + x) * bs) (out x y)).
  Hypothesis Hout : forall x y, x < jx -> y < jy -> N.of_nat (length (out x y)) = bs.

  Local Notation block_data := (ConverterSpec.block_data jx jy out).

  Lemma block_data_jobs :
    block_data = concat (map (fun j => out (fst j) (snd j)) (job_list jx jy)).
  Proof.
    unfold ConverterSpec.block_data, job_list; clear.
    induction (Nrange jy) as [|y l IH]; cbn [flat_map map concat]; auto.
    rewrite map_app, concat_app, <- IH; f_equal.
    rewrite map_map, flat_map_concat_map; reflexivity.
  Qed.

  Lemma row_length y n : n <= jx -> y < jy ->
    N.of_nat (length (concat (map (fun x => out x y) (Nrange n)))) = n * bs.
  Proof.
    intros H Hy; rewrite (concat_length_const _ (N.to_nat bs)).
    - rewrite map_length, Nrange_length; lia.
    - intros l Hl; apply in_map_iff in Hl; destruct Hl as (x & <- & Hx); apply in_Nrange in Hx.
      pose proof (Hout x y); lia.
  Qed.

  Lemma row_writes y n : n <= jx -> y < jy ->
    flat_map (writes process) (map (fun x => (x, y)) (Nrange n))
    = place (y * jx * bs) (concat (map (fun x => out x y) (Nrange n))).
  Proof.
    induction n as [|n IH] using N.peano_ind; intros H Hy; [reflexivity|].
    rewrite <- N.add_1_r, Nrange_app, !map_app, flat_map_app, IH by lia.
    change (Nrange 1) with [0]; cbn [map flat_map]; rewrite app_nil_r, N.add_0_r.
    unfold writes; rewrite Hproc by lia.
    rewrite concat_app, place_app; cbn [concat]; rewrite app_nil_r; f_equal.
    f_equal. rewrite row_length by lia. lia.
  Qed.

  Lemma rows_length n : n <= jy ->
    N.of_nat (length (concat (map (fun j => out (fst j) (snd j)) (job_list jx n)))) = n * jx * bs.
  Proof.
    intros H; induction n as [|n IH] using N.peano_ind; [reflexivity|].
    unfold job_list in *; rewrite <- N.add_1_r, Nrange_app, flat_map_app, map_app, concat_app.
    rewrite app_length, Nnat.Nat2N.inj_add, IH by lia.
    change (Nrange 1) with [0]; cbn [map flat_map]; rewrite app_nil_r, N.add_0_r, map_map.
    cbn [fst snd]; rewrite row_length by lia. lia.
  Qed.

  Lemma rows_writes n : n <= jy ->
    flat_map (writes process) (job_list jx n)
    = place 0 (concat (map (fun j => out (fst j) (snd j)) (job_list jx n))).
  Proof.
    induction n as [|n IH] using N.peano_ind; intros H; [reflexivity|].
    pose proof (rows_length n) as L.
    unfold job_list in *; rewrite <- N.add_1_r, Nrange_app, !flat_map_app, map_app, concat_app, place_app.
    rewrite IH by lia; f_equal.
    change (Nrange 1) with [0]; cbn [map flat_map]; rewrite app_nil_r, N.add_0_r, map_map.
    cbn [fst snd]; rewrite row_writes by lia. f_equal. rewrite L by lia. lia.
  Qed.

  Lemma block_writes : flat_map (writes process) block_job_list = place 0 block_data.
  Proof. rewrite block_job_list_eq, block_data_jobs; apply rows_writes; lia. Qed.

  Lemma block_jobs_total j : In j block_job_list -> process j <> None.
  Proof.
    rewrite block_job_list_eq; destruct j as [x y]; intros H; apply in_job_list in H.
    rewrite Hproc by tauto; discriminate.
  Qed.

  Lemma block_data_length : N.of_nat (length block_data) = block_data_size w h bx by_ bs.
  Proof.
    rewrite block_data_jobs, rows_length by lia.
    unfold block_data_size; rewrite !block_jobs_cdiv by lia; fold jx jy.
    assert (jx * jy <= jx * jy * bs) by nia.
    rewrite (u32_small (jx * jy)) by lia. rewrite u32_small by lia. lia.
  Qed.

End Block.

(** The two kinds of block process. *)
Lemma block_offset_bound x y jx jy bs :
  x < jx -> y < jy -> 0 < bs -> jx * jy * bs < 2^32 ->
  y * jx + x < 2^32 /\ (y * jx + x) * bs < 2^32.
Proof.
  intros Hx Hy Hb H.
  assert (A : (y + 1) * jx <= jy * jx) by (apply N.mul_le_mono_r; lia).
  assert (B : (y * jx + x) * bs <= jx * jy * bs) by (apply N.mul_le_mono_r; lia).
  assert (C : (y * jx + x) * 1 <= (y * jx + x) * bs) by (apply N.mul_le_mono_l; lia).
  lia.
Qed.

Lemma clamp_process_spec {P} (w h bx by_ bs : N) (px : N -> N -> P) compress x y :
  0 < w -> 0 < h -> 0 < bx -> 0 < by_ -> 0 < bs -> w + bx <= 2^32 -> h + by_ <= 2^32 ->
  cdiv w bx * cdiv h by_ * bs < 2^32 ->
  x < cdiv w bx -> y < cdiv h by_ ->
  clamp_process compress bx by_ bs (img w h px) x y
  = Some (place ((y * cdiv w bx + x) * bs) (compress (footprint w h bx by_ px x y))).
Proof.
  intros Hw Hh Hbx Hby Hbs Hw' Hh' Hsz Hx Hy.
  unfold clamp_process; rewrite (clamp_block_spec w h bx by_ bs px) by assumption; cbn [obind img sf_w].
  rewrite block_jobs_cdiv by lia.
  destruct (block_offset_bound x y _ _ bs Hx Hy Hbs Hsz) as [B2 B].
  rewrite (u32_small (y * cdiv w bx)) by lia.
  rewrite (u32_small (y * cdiv w bx + x)) by lia.
  rewrite u32_small by lia. reflexivity.
Qed.

Lemma etc_process_spec {P} (w h bs : N) (px : N -> N -> P) compress x y :
  0 < w -> 0 < h -> 0 < bs -> w + 4 <= 2^32 -> h + 4 <= 2^32 ->
  cdiv w 4 * cdiv h 4 * bs < 2^32 ->
  x < cdiv w 4 -> y < cdiv h 4 ->
  etc_process compress bs (img w h px) x y
  = Some (place ((y * cdiv w 4 + x) * bs)
                (compress (N.min 4 (w - x * 4)) (N.min 4 (h - y * 4)) (inner w h px x y))).
Proof.
  intros Hw Hh Hbs Hw' Hh' Hsz Hx Hy.
  pose proof (cdiv_bound x 4 w ltac:(lia) Hx); pose proof (cdiv_bound y 4 h ltac:(lia) Hy).
  assert (LX : N.min (u32 ((x + 1) * 4)) w - x * 4 = N.min 4 (w - x * 4)).
  { destruct (N.ltb_spec ((x + 1) * 4) (2^32)); [rewrite u32_small by lia; lia|].
    lia. }
  assert (LY : N.min (u32 ((y + 1) * 4)) h - y * 4 = N.min 4 (h - y * 4)).
  { destruct (N.ltb_spec ((y + 1) * 4) (2^32)); [rewrite u32_small by lia; lia|].
    lia. }
  unfold etc_process, etc_block; cbn [img sf_w sf_h].
  rewrite (u32_small (x * 4)), (u32_small (y * 4)), LX, LY by lia.
  rewrite (omap_some _ (fun j => map (fun i => px (y * 4 + j) (x * 4 + i))
    (Nrange (N.min 4 (w - x * 4))))).
  - cbn [obind]. rewrite <- flat_map_concat_map; fold (inner w h px x y).
    rewrite block_jobs_cdiv by lia.
    destruct (block_offset_bound x y _ _ bs Hx Hy Hbs Hsz) as [B2 B].
    rewrite (u32_small (y * cdiv w 4)) by lia.
    rewrite (u32_small (y * cdiv w 4 + x)) by lia.
    rewrite u32_small by lia. reflexivity.
  - intros j Hj; apply in_Nrange in Hj; apply omap_some; intros i Hi; apply in_Nrange in Hi.
    cbn [img sf_px].
    destruct (N.ltb_spec (y * 4 + j) h); [|lia].
    destruct (N.ltb_spec (x * 4 + i) w); [|lia]. reflexivity.
Qed.

Lemma job_list_length a b : length (job_list a b) = N.to_nat (a * b).
Proof.
  unfold job_list; rewrite flat_map_concat_map, (concat_length_const _ (N.to_nat a)).
  - rewrite map_length, Nrange_length; lia.
  - intros l Hl; apply in_map_iff in Hl; destruct Hl as (y & <- & _).
    rewrite map_length, Nrange_length; reflexivity.
Qed.

(** The bytes of block (x, y) sit at its row-major block position. *)
Lemma flat_const_length {A} (f : N -> list A) k n :
  (forall i, i < n -> N.of_nat (length (f i)) = k) ->
  N.of_nat (length (flat_map f (Nrange n))) = n * k.
Proof.
  intros H; rewrite flat_map_concat_map, (concat_length_const _ (N.to_nat k)).
  - rewrite map_length, Nrange_length; lia.
  - intros l Hl; apply in_map_iff in Hl; destruct Hl as (x & <- & Hx); apply in_Nrange in Hx.
    pose proof (H x Hx); lia.
Qed.

Lemma flat_map_map {A B C} (f : A -> B) (g : B -> list C) l :
  flat_map g (map f l) = flat_map (fun a => g (f a)) l.
Proof. induction l; cbn; auto; f_equal; auto. Qed.

Lemma flat_const_nth {A} (f : N -> list A) k n i rest :
  (forall i, i < n -> N.of_nat (length (f i)) = k) -> i < n ->
  exists tl, skipn (N.to_nat (i * k)) (flat_map f (Nrange n) ++ rest) = f i ++ tl.
Proof.
  intros H Hi.
  assert (E : flat_map f (Nrange n) = flat_map f (Nrange i) ++ f i
              ++ flat_map f (map (fun j => i + (1 + j)) (Nrange (n - i - 1)))).
  { replace (Nrange n) with (Nrange (i + (1 + (n - i - 1)))) by (f_equal; lia).
    rewrite !Nrange_app, map_app, !flat_map_app. change (Nrange 1) with [0].
    cbn [map flat_map]; rewrite app_nil_r, N.add_0_r, map_map; reflexivity. }
  rewrite E.
  pose proof (flat_const_length f k i) as L. rewrite <- !app_assoc.
  rewrite skipn_app, skipn_all2 by (rewrite <- L in * by (intros; apply H; lia); lia).
  replace (N.to_nat (i * k) - length (flat_map f (Nrange i)))%nat with 0%nat
    by (rewrite <- L by (intros; apply H; lia); lia).
  eexists; reflexivity.
Qed.

Lemma skipn_skipn {A} a b (l : list A) : skipn a (skipn b l) = skipn (a + b) l.
Proof.
  revert l; induction b as [|b IH]; intros l; [rewrite Nat.add_0_r; reflexivity|].
  rewrite Nat.add_succ_r; destruct l; [rewrite !skipn_nil; reflexivity|apply IH].
Qed.

Lemma block_position jx jy bs (out : N -> N -> list N) x y :
  (forall x y, x < jx -> y < jy -> N.of_nat (length (out x y)) = bs) ->
  x < jx -> y < jy ->
  firstn (N.to_nat bs) (skipn (N.to_nat ((y * jx + x) * bs)) (block_data jx jy out)) = out x y.
Proof.
  intros H Hx Hy; unfold block_data.
  destruct (flat_const_nth (fun y => flat_map (fun x => out x y) (Nrange jx)) (jx * bs) jy y [])
    as [tl E]; auto.
  { intros i Hi; apply flat_const_length; auto. }
  rewrite app_nil_r in E.
  replace (N.to_nat ((y * jx + x) * bs)) with (N.to_nat (x * bs) + N.to_nat (y * (jx * bs)))%nat by nia.
  rewrite <- (skipn_skipn (N.to_nat (x * bs))), E.
  destruct (flat_const_nth (fun x => out x y) bs jx x tl) as [tl2 E2]; auto.
  rewrite E2. pose proof (H x y Hx Hy).
  rewrite firstn_app, firstn_all2 by lia.
  replace (N.to_nat bs - _)%nat with 0%nat by lia. cbn; apply app_nil_r.
Qed.

(** C16-C18: the conversion of one surface. *)

From Coq Require Import NArith List Bool Lia Permutation.
From Verif Require Import Base FormatModel FormatSpec ConverterModel ConverterSpec FormatProofs
  SchedProofs TilingProofs.
Import ListNotations.
Local Open Scope N_scope.

(** * C16: schedules *)

(** No schedule reaches undefined behaviour or a data race. *)
Theorem C16_no_undefined_behaviour : forall J (process : J -> option (list (N * N))) jobs buf threads m,
  jobs_ok process jobs buf ->
  N.of_nat (length jobs) + N.of_nat threads < 2^32 ->
  reach process jobs buf threads m ->
  ~ mbad process jobs m /\ ~ mrace m.
Proof.
  intros; split; [eapply reach_not_bad|eapply reach_no_race]; eauto.
Qed.
Print Assumptions C16_no_undefined_behaviour.

(** Every schedule terminates, and only stops when all threads have returned. *)
Theorem C16_terminates : forall J (process : J -> option (list (N * N))) jobs buf threads m,
  jobs_ok process jobs buf ->
  N.of_nat (length jobs) + N.of_nat threads < 2^32 ->
  reach process jobs buf threads m ->
  Acc (fun a b => mstep process jobs b a) m /\
  (mfinal m \/ exists m', mstep process jobs m m').
Proof.
  intros; split; [eapply reach_terminates|eapply reach_progress]; eauto.
Qed.
Print Assumptions C16_terminates.

(** Whatever the schedule, the result is that of the single-threaded loop, and every job was
    handed out exactly once. *)
Theorem C16_schedule_independent : forall J (process : J -> option (list (N * N))) jobs buf threads m,
  jobs_ok process jobs buf ->
  N.of_nat (length jobs) + N.of_nat threads < 2^32 ->
  (0 < threads)%nat ->
  reach process jobs buf threads m -> mfinal m ->
  run_serial process jobs buf = Some (m_buf m) /\
  m_log m = Nrange (N.of_nat (length jobs)).
Proof. intros; eapply reach_final; eauto. Qed.
Print Assumptions C16_schedule_independent.

(** Three one-byte jobs on two threads satisfy the hypotheses. *)
Definition ex_process (j : N) : option (list (N * N)) := Some [(2 * j, j); (2 * j + 1, j + 10)].
Example C16_example :
  jobs_ok ex_process [0; 1; 2] [0; 0; 0; 0; 0; 0] /\
  run_serial ex_process [0; 1; 2] [0; 0; 0; 0; 0; 0] = Some [0; 10; 1; 11; 2; 12].
Proof.
  repeat split.
  - intros j H; discriminate.
  - cbn; repeat constructor; cbn; intuition discriminate.
  - cbn; repeat constructor.
Qed.

(** * C17: uncompressed converters *)

(** Single-threaded: the output is the encoded pixels in row-major order. *)
Theorem C17_pixels_in_order : forall P (enc : P -> option (list N)) sz ch w h px bytes buf,
  0 < w -> 0 < h -> w * h + 31 < 2^32 -> w * h * ch <= 2^32 ->
  enc_ok enc sz ch w h px bytes ->
  N.of_nat (length buf) = std_data_size sz ch w h ->
  run_serial (std_process enc sz ch (img w h px)) (Nrange (std_jobsX w h)) buf
  = Some (std_data w h px bytes).
Proof.
  intros P enc sz ch w h px bytes buf Hw Hh Hn Hc He L.
  apply tiling_serial.
  - apply (std_jobs_total enc sz ch w h px bytes); auto.
  - apply (std_writes enc sz ch w h px bytes); auto.
  - pose proof (std_data_length enc sz ch w h px bytes Hw Hh Hn Hc He); lia.
Qed.
Print Assumptions C17_pixels_in_order.

(** Multi-threaded: the jobs write every byte once, so every schedule gives the same. *)
Theorem C17_any_schedule : forall P (enc : P -> option (list N)) sz ch w h px bytes buf threads m,
  0 < w -> 0 < h -> w * h + 31 < 2^32 -> w * h * ch <= 2^32 ->
  enc_ok enc sz ch w h px bytes ->
  N.of_nat (length buf) = std_data_size sz ch w h ->
  (0 < threads)%nat -> std_jobsX w h + N.of_nat threads < 2^32 ->
  reach (std_process enc sz ch (img w h px)) (Nrange (std_jobsX w h)) buf threads m ->
  ~ mbad (std_process enc sz ch (img w h px)) (Nrange (std_jobsX w h)) m /\ ~ mrace m /\
  (mfinal m -> m_buf m = std_data w h px bytes).
Proof.
  intros P enc sz ch w h px bytes buf threads m Hw Hh Hn Hc He L T B R.
  pose proof (std_data_length enc sz ch w h px bytes Hw Hh Hn Hc He) as LD.
  assert (OK : jobs_ok (std_process enc sz ch (img w h px)) (Nrange (std_jobsX w h)) buf).
  { apply (tiling_jobs_ok _ _ _ (std_data w h px bytes)).
    - apply (std_jobs_total enc sz ch w h px bytes); auto.
    - apply (std_writes enc sz ch w h px bytes); auto.
    - lia. }
  assert (B' : N.of_nat (length (Nrange (std_jobsX w h))) + N.of_nat threads < 2^32)
    by (rewrite Nrange_length; lia).
  split; [eapply reach_not_bad; eauto|split; [eapply reach_no_race; eauto|]].
  intros F; destruct (reach_final _ _ _ _ OK B' m T R F) as [E _].
  rewrite C17_pixels_in_order with (bytes := bytes) in E by assumption.
  congruence.
Qed.
Print Assumptions C17_any_schedule.

(** The bytes of pixel (row, column) are at its row-major position. *)
Theorem C17_pixel_position : forall P (enc : P -> option (list N)) sz ch w h (px : N -> N -> P) bytes r c,
  0 < w -> 0 < h -> w * h + 31 < 2^32 -> w * h * ch <= 2^32 ->
  enc_ok enc sz ch w h px bytes -> r < h -> c < w ->
  firstn (N.to_nat (sz * ch)) (skipn (N.to_nat ((r * w + c) * (sz * ch))) (std_data w h px bytes))
  = bytes (px r c).
Proof. intros; eapply std_data_pixel; eauto. Qed.
Print Assumptions C17_pixel_position.

(** The bound on w*h*ch is needed: with four channels and more than 2^30 pixels a late job
    overwrites the start of the buffer. *)
Theorem C17_large_image_refuted : exists w h x,
  0 < w /\ 0 < h /\ w * h + 31 < 2^32 /\ x < std_jobsX w h /\
  exists ws v, std_process (fun p : N => Some [p; p; p; p]) 1 4 (img w h (fun r c => c mod 256)) x
               = Some ((0, v) :: ws) /\ x * 32 * 4 <> 0.
Proof.
  exists (2^16), (2^15), (2^25); split; [reflexivity|].
  split; [reflexivity|]. split; [vm_compute; reflexivity|]. split; [vm_compute; reflexivity|].
  eexists; eexists; split; [vm_compute; reflexivity|vm_compute; discriminate].
Qed.
Print Assumptions C17_large_image_refuted.

Example C17_example :
  enc_ok (fun p : N => Some [p; p + 1]) 1 2 7 5 (fun r c => r * 10 + c) (fun p => [p; p + 1]) /\
  firstn 4 (skipn 14 (std_data 7 5 (fun r c => r * 10 + c) (fun p => [p; p + 1]))) = [10; 11; 11; 12] /\
  run_serial (std_process (fun p : N => Some [p; p + 1]) 1 2 (img 7 5 (fun r c => r * 10 + c)))
    (Nrange (std_jobsX 7 5)) (repeat 0 70)
  = Some (std_data 7 5 (fun r c => r * 10 + c) (fun p => [p; p + 1])).
Proof. split; [intros r c _ _; split; reflexivity|split; vm_compute; reflexivity]. Qed.

(** * C18: block converters *)

(** S3TC and ASTC: every schedule leaves, block row by block row, the encoding of the
    clamped footprint of each block; no read is outside the image. *)
Theorem C18_clamped_blocks : forall P (compress : list P -> list N) w h bx by_ bs (px : N -> N -> P)
    buf threads m,
  0 < w -> 0 < h -> 0 < bx -> 0 < by_ -> 0 < bs -> w + bx <= 2^32 -> h + by_ <= 2^32 ->
  cdiv w bx * cdiv h by_ * bs < 2^32 ->
  (forall l, N.of_nat (length (compress l)) = bs) ->
  N.of_nat (length buf) = block_data_size w h bx by_ bs ->
  let process := fun j => clamp_process compress bx by_ bs (img w h px) (fst j) (snd j) in
  let jobs := job_list (block_jobs w bx) (block_jobs h by_) in
  let data := block_data (cdiv w bx) (cdiv h by_)
                (fun x y => compress (footprint w h bx by_ px x y)) in
  run_serial process jobs buf = Some data /\
  ((0 < threads)%nat -> cdiv w bx * cdiv h by_ + N.of_nat threads < 2^32 ->
   reach process jobs buf threads m ->
   ~ mbad process jobs m /\ ~ mrace m /\ (mfinal m -> m_buf m = data)).
Proof.
  intros P compress w h bx by_ bs px buf threads m Hw Hh Hbx Hby Hbs Hw' Hh' Hsz Hco L
    process jobs data.
  pose (out := fun x y => compress (footprint w h bx by_ px x y)).
  assert (Hproc : forall x y, x < cdiv w bx -> y < cdiv h by_ ->
    process (x, y) = Some (place ((y * cdiv w bx + x) * bs) (out x y))).
  { intros x y Hx Hy; unfold process; apply clamp_process_spec; auto. }
  assert (Hout : forall x y, x < cdiv w bx -> y < cdiv h by_ -> N.of_nat (length (out x y)) = bs).
  { intros; apply Hco. }
  assert (T : forall j, In j jobs -> process j <> None)
    by (apply (block_jobs_total w h bx by_ bs px) with (out := out); auto).
  assert (W : flat_map (writes process) jobs = place 0 data)
    by (apply (block_writes w h bx by_ bs px) with (out := out); auto).
  assert (LD : length buf = length data).
  { pose proof (block_data_length w h bx by_ bs px Hw Hh Hbx Hby Hbs Hw' Hh' Hsz process out Hproc Hout) as E.
    unfold data; fold out; lia. }
  assert (S : run_serial process jobs buf = Some data) by (apply tiling_serial; auto).
  split; [exact S|]; intros Ht B R.
  assert (OK : jobs_ok process jobs buf) by (apply (tiling_jobs_ok _ _ _ data); auto).
  assert (B' : N.of_nat (length jobs) + N.of_nat threads < 2^32).
  { unfold jobs; rewrite !block_jobs_cdiv by lia. rewrite job_list_length. lia. }
  split; [eapply reach_not_bad; eauto|split; [eapply reach_no_race; eauto|]].
  intros F; destruct (reach_final _ _ _ _ OK B' m Ht R F) as [E _]; congruence.
Qed.
Print Assumptions C18_clamped_blocks.

(** ETC: the same, with the encoder given exactly the pixels of the block inside the image. *)
Theorem C18_etc_blocks : forall P (compress : N -> N -> list P -> list N) w h bs (px : N -> N -> P)
    buf threads m,
  0 < w -> 0 < h -> 0 < bs -> w + 4 <= 2^32 -> h + 4 <= 2^32 ->
  cdiv w 4 * cdiv h 4 * bs < 2^32 ->
  (forall a b l, N.of_nat (length (compress a b l)) = bs) ->
  N.of_nat (length buf) = block_data_size w h 4 4 bs ->
  let process := fun j => etc_process compress bs (img w h px) (fst j) (snd j) in
  let jobs := job_list (block_jobs w 4) (block_jobs h 4) in
  let data := block_data (cdiv w 4) (cdiv h 4)
                (fun x y => compress (N.min 4 (w - x * 4)) (N.min 4 (h - y * 4))
                                     (inner w h px x y)) in
  run_serial process jobs buf = Some data /\
  ((0 < threads)%nat -> cdiv w 4 * cdiv h 4 + N.of_nat threads < 2^32 ->
   reach process jobs buf threads m ->
   ~ mbad process jobs m /\ ~ mrace m /\ (mfinal m -> m_buf m = data)).
Proof.
  intros P compress w h bs px buf threads m Hw Hh Hbs Hw' Hh' Hsz Hco L
    process jobs data.
  pose (out := fun x y => compress (N.min 4 (w - x * 4)) (N.min 4 (h - y * 4)) (inner w h px x y)).
  assert (Hproc : forall x y, x < cdiv w 4 -> y < cdiv h 4 ->
    process (x, y) = Some (place ((y * cdiv w 4 + x) * bs) (out x y))).
  { intros x y Hx Hy; unfold process; apply etc_process_spec; auto. }
  assert (Hout : forall x y, x < cdiv w 4 -> y < cdiv h 4 -> N.of_nat (length (out x y)) = bs).
  { intros; apply Hco. }
  assert (P4 : 0 < 4) by lia.
  assert (T : forall j, In j jobs -> process j <> None)
    by (apply (block_jobs_total w h 4 4 bs px) with (out := out); auto).
  assert (W : flat_map (writes process) jobs = place 0 data)
    by (apply (block_writes w h 4 4 bs px) with (out := out); auto).
  assert (LD : length buf = length data).
  { pose proof (block_data_length w h 4 4 bs px Hw Hh P4 P4 Hbs Hw' Hh' Hsz process out Hproc Hout) as E.
    unfold data; fold out; lia. }
  assert (S : run_serial process jobs buf = Some data) by (apply tiling_serial; auto).
  split; [exact S|]; intros Ht B R.
  assert (OK : jobs_ok process jobs buf) by (apply (tiling_jobs_ok _ _ _ data); auto).
  assert (B' : N.of_nat (length jobs) + N.of_nat threads < 2^32).
  { unfold jobs; rewrite !block_jobs_cdiv by lia. rewrite job_list_length. lia. }
  split; [eapply reach_not_bad; eauto|split; [eapply reach_no_race; eauto|]].
  intros F; destruct (reach_final _ _ _ _ OK B' m Ht R F) as [E _]; congruence.
Qed.
Print Assumptions C18_etc_blocks.

(** The bytes of block (x, y) are at its row-major block position. *)
Theorem C18_block_position : forall jx jy bs (out : N -> N -> list N) x y,
  (forall x y, x < jx -> y < jy -> N.of_nat (length (out x y)) = bs) ->
  x < jx -> y < jy ->
  firstn (N.to_nat bs) (skipn (N.to_nat ((y * jx + x) * bs)) (block_data jx jy out)) = out x y.
Proof. exact block_position. Qed.
Print Assumptions C18_block_position.

(** A 5x3 image with 4x4 blocks: the second block repeats column 4 and row 2. *)
Example C18_example :
  footprint 5 3 4 4 (fun r c => r * 10 + c) 1 0
  = [4; 4; 4; 4;  14; 14; 14; 14;  24; 24; 24; 24;  24; 24; 24; 24] /\
  inner 5 3 (fun r c => r * 10 + c) 1 0 = [4; 14; 24] /\
  clamp_process (fun l => firstn 2 l) 4 4 2 (img 5 3 (fun r c => r * 10 + c)) 1 0 = Some [(2, 4); (3, 4)].
Proof. repeat split. Qed.

(** The conversion of one surface: buffer sizes, job grids, what each job reads and writes,
    and the worker threads that run the jobs.

    The pixel type [P] and the encoders are parameters: the per-pixel encodings of the
    uncompressed formats are modelled in PixelModel.v, the block encoders are third-party
    code.  An image is a function from (row, column) to a pixel that answers [None] outside
    the image, so that an out-of-range read is visible as [None] (undefined behaviour).

    All index arithmetic is [unsigned int] in C++ and wraps modulo 2^32 here. *)

From Coq Require Import NArith List Bool.
From Verif Require Import Base FormatModel.
Import ListNotations.
Local Open Scope N_scope.

(** What a converter reads: [Image::width], [Image::height] and [Image::scanline]
    (lib/src/Image.cpp).  [None] is a read outside the image. *)
Record surface (P : Type) := Surface
  { sf_w : N; sf_h : N; sf_px : N -> N -> option P (* row, column *) }.
Arguments Surface {P}. Arguments sf_w {P}. Arguments sf_h {P}. Arguments sf_px {P}.

(** * Uncompressed formats *)

(** [sizeof(T)] and [C] of the [StandardConverter<T, C>] a converter derives from:
    lib/src/StandardConverter.h:44-66 and the class heads of lines 69-514.
    [None]: the converter is not a [StandardConverter]. *)
Definition std_params (c : converter) : option (N * N) :=
  match c with
  | CvUNorm bits ch => Some (bits / 8, ch)
  | CvSNorm bits ch => Some (bits / 8, ch)
  | CvInt _ bits ch => Some (bits / 8, ch)
  | CvFloat ch => Some (4, ch)
  | CvHalf ch => Some (2, ch)
  | CvR4G4 => Some (1, 1)
  | CvR4G4B4A4 | CvB4G4R4A4 | CvA4R4G4B4 | CvR5G6B5 | CvB5G6R5
  | CvR5G5B5A1 | CvB5G5R5A1 | CvA1R5G5B5 => Some (2, 1)
  | CvB8G8R8 => Some (1, 3)
  | CvB8G8R8A8 | CvA8B8G8R8 => Some (1, 4)
  | CvA2R10G10B10UNorm | CvA2R10G10B10UInt | CvA2B10G10R10UNorm | CvA2B10G10R10UInt
  | CvB10R11R11UFloat | CvE5B9G9R9UFloat => Some (4, 1)
  | _ => None
  end.

(** [StandardConverter::batchSize], lib/src/StandardConverter.h:48. *)
Definition batchSize : N := 32.

(** [StandardConverter] constructor, lib/src/StandardConverter.h:50-54:
    [image.width()*image.height()] is an [unsigned int] product, the rest [size_t]. *)
Definition std_data_size (sz ch w h : N) : N := u32 (w * h) * sz * ch.

(** [StandardConverter::jobsX], lib/src/StandardConverter.h:56-60; [jobsY] is 1 (:62-65). *)
Definition std_jobsX (w h : N) : N := u32 (u32 (w * h) + (batchSize - 1)) / batchSize.

(** Offsets of consecutive bytes starting at [o]. *)
Fixpoint place (o : N) (bs : list N) : list (N * N) :=
  match bs with [] => [] | b :: t => (o, b) :: place (o + 1) t end.

(** The loop of [process] shared by every uncompressed converter
    (e.g. lib/src/StandardConverter.h:88-105, lib/src/StandardConverter.cpp:27-42):
    [n] iterations remain, [i] is the loop variable and [row] the row of [scanline].
    The result is the sequence of byte writes (offset, value).
    [enc] gives the bytes one pixel is stored as; [None] is undefined behaviour in the
    conversion of that pixel. *)
Fixpoint std_loop {P} (enc : P -> option (list N)) (sz ch : N) (im : surface P)
    (x : N) (n : nat) (i row : N) : option (list (N * N)) :=
  match n with
  | O => Some []
  | S n' =>
      let pos := u32 (u32 (x * batchSize) + i) in
      let curRow := pos / sf_w im in
      if negb (curRow =? row) && (sf_h im <=? curRow) then Some []   (* break *)
      else
        let row := curRow in                    (* scanline re-fetched when it changed *)
        let col := pos mod sf_w im in
        obind (sf_px im row col) (fun p =>
        obind (enc p) (fun bs =>
        obind (std_loop enc sz ch im x n' (i + 1) row) (fun rest =>
          (* curData = data + x*batchSize*C (unsigned product); curData[i*C + c] *)
          Some (place ((u32 (u32 (x * batchSize) * ch) + i * ch) * sz) bs ++ rest))))
  end.

(** [process(x, _, _)]: start row and loop, e.g. lib/src/StandardConverter.h:82-106. *)
Definition std_process {P} (enc : P -> option (list N)) (sz ch : N) (im : surface P) (x : N)
  : option (list (N * N)) :=
  std_loop enc sz ch im x (N.to_nat batchSize) 0 (u32 (x * batchSize) / sf_w im).

(** * Block formats *)

(** Block width, block height and block size in bytes of the block converters:
    constructors in lib/src/S3tcConverter.cpp:230-240 and 258, 273, 341, 359, 380, 433, 494,
    594; lib/src/EtcConverter.cpp:30-118; lib/src/AstcConverter.cpp:34, 134-201. *)
Definition block_params (c : converter) : option (N * N * N) :=
  match c with
  | CvBc1 | CvBc1A => Some (4, 4, 8)
  | CvBc2 | CvBc3 => Some (4, 4, 16)
  | CvBc4 _ => Some (4, 4, 8)
  | CvBc5 _ => Some (4, 4, 16)
  | CvBc6H _ | CvBc7 => Some (4, 4, 16)
  | CvEtc f _ =>
      match f with
      | F_ETC1 | F_ETC2_R8G8B8 | F_ETC2_R8G8B8A1 | F_EAC_R11 => Some (4, 4, 8)
      | F_ETC2_R8G8B8A8 | F_EAC_R11G11 => Some (4, 4, 16)
      | _ => None
      end
  | CvAstc _ _ bx by_ => Some (bx, by_, 16)
  | _ => None
  end.

(** [(image.width() + blockDim - 1)/blockDim], lib/src/S3tcConverter.cpp:233-234,
    lib/src/EtcConverter.cpp:31-32, lib/src/AstcConverter.cpp:137. *)
Definition block_jobs (w b : N) : N := u32 (w + b - 1) / b.

(** [data().resize(m_jobsX*m_jobsY*m_blockSize)], lib/src/S3tcConverter.cpp:239,
    lib/src/EtcConverter.cpp:117, lib/src/AstcConverter.cpp:200. *)
Definition block_data_size (w h bx by_ bs : N) : N :=
  u32 (u32 (block_jobs w bx * block_jobs h by_) * bs).

(** The pixels a clamping block converter collects, row by row:
    lib/src/S3tcConverter.cpp:245-252, lib/src/AstcConverter.cpp:210-221. *)
Definition clamp_block {P} (im : surface P) (bx by_ x y : N) : option (list P) :=
  obind (omap (fun j =>
           omap (fun i =>
             sf_px im (N.min (u32 (u32 (y * by_) + j)) (sf_h im - 1))
                      (N.min (u32 (u32 (x * bx) + i)) (sf_w im - 1)))
           (Nrange bx))
         (Nrange by_))
        (fun rows => Some (concat rows)).

(** [S3tcConverter::process], lib/src/S3tcConverter.cpp:242-255, and
    [AstcConverter::process], lib/src/AstcConverter.cpp:208-230.
    [compress] is the third-party encoder: a function from the collected pixels to the
    bytes of the block (its per-thread scratch context is not modelled). *)
Definition clamp_process {P} (compress : list P -> list N) (bx by_ bs : N) (im : surface P)
    (x y : N) : option (list (N * N)) :=
  obind (clamp_block im bx by_ x y) (fun px =>
    Some (place (u32 (u32 (u32 (y * block_jobs (sf_w im) bx) + x) * bs)) (compress px))).

(** The pixels [EtcConverter::process] collects: only the part of the block inside the
    image, packed without gaps, lib/src/EtcConverter.cpp:123-130. *)
Definition etc_block {P} (im : surface P) (x y : N) : option (list P) :=
  let limitX := N.min (u32 ((x + 1) * 4)) (sf_w im) in
  let limitY := N.min (u32 ((y + 1) * 4)) (sf_h im) in
  obind (omap (fun j =>
           omap (fun i => sf_px im (u32 (y * 4) + j) (u32 (x * 4) + i))
           (Nrange (limitX - u32 (x * 4))))
         (Nrange (limitY - u32 (y * 4))))
        (fun rows => Some (concat rows)).

(** [EtcConverter::process], lib/src/EtcConverter.cpp:120-152.  [compress w h px] stands for
    lines 132-147: the encoder is told the size of the partial block.  The remapping of
    signed formats (lines 132-143, which also touches pixels that were never written) is part
    of [compress]. *)
Definition etc_process {P} (compress : N -> N -> list P -> list N) (bs : N) (im : surface P)
    (x y : N) : option (list (N * N)) :=
  obind (etc_block im x y) (fun px =>
    let limitX := N.min (u32 ((x + 1) * 4)) (sf_w im) in
    let limitY := N.min (u32 ((y + 1) * 4)) (sf_h im) in
    Some (place (u32 (u32 (u32 (y * block_jobs (sf_w im) 4) + x) * bs))
                (compress (limitX - u32 (x * 4)) (limitY - u32 (y * 4)) px))).

(** * Running the jobs *)

(** The job list, lib/src/Converter.cpp:538-546: [jobs[y*jobsX + x] = (x, y)]. *)
Definition job_list (jobsX jobsY : N) : list (N * N) :=
  flat_map (fun y => map (fun x => (x, y)) (Nrange jobsX)) (Nrange jobsY).

(** One byte store into the output vector; [None] is a store outside it. *)
Definition store (buf : list N) (w : N * N) : option (list N) :=
  if fst w <? N.of_nat (length buf) then Some (upd (N.to_nat (fst w)) (snd w) buf) else None.

Fixpoint stores (buf : list N) (ws : list (N * N)) : option (list N) :=
  match ws with [] => Some buf | w :: t => obind (store buf w) (fun b => stores b t) end.

(** Single-threaded loop, lib/src/Converter.cpp:549-554. *)
Fixpoint run_serial {J} (process : J -> option (list (N * N))) (jobs : list J) (buf : list N)
  : option (list N) :=
  match jobs with
  | [] => Some buf
  | j :: t => obind (process j) (fun ws => obind (stores buf ws) (run_serial process t))
  end.

(** Worker threads, lib/src/Converter.cpp:555-584.  A thread is about to fetch a job number,
    is performing the byte stores of a job, or has returned.  [m_counter] is
    [std::atomic<unsigned int> curJob].  [m_log] is ghost state: the job numbers handed out. *)
Inductive thread := TFetch | TRun (ws : list (N * N)) | TDone.

Record machine := Machine
  { m_buf : list N; m_counter : N; m_threads : list thread; m_log : list N }.

Inductive mstep {J} (process : J -> option (list (N * N))) (jobs : list J)
  : machine -> machine -> Prop :=
| step_take : forall buf c ts lg i j ws,
    nth_error ts i = Some TFetch ->
    nth_error jobs (N.to_nat c) = Some j ->
    process j = Some ws ->
    mstep process jobs (Machine buf c ts lg)
                       (Machine buf (u32 (c + 1)) (upd i (TRun ws) ts) (lg ++ [c]))
| step_exit : forall buf c ts lg i,
    nth_error ts i = Some TFetch ->
    N.of_nat (length jobs) <= c ->
    mstep process jobs (Machine buf c ts lg)
                       (Machine buf (u32 (c + 1)) (upd i TDone ts) lg)
| step_store : forall buf buf' c ts lg i w ws,
    nth_error ts i = Some (TRun (w :: ws)) ->
    store buf w = Some buf' ->
    mstep process jobs (Machine buf c ts lg) (Machine buf' c (upd i (TRun ws) ts) lg)
| step_next : forall buf c ts lg i,
    nth_error ts i = Some (TRun []) ->
    mstep process jobs (Machine buf c ts lg) (Machine buf c (upd i TFetch ts) lg).

(** Undefined behaviour: a fetched job cannot be processed, or a store is out of range. *)
Inductive mbad {J} (process : J -> option (list (N * N))) (jobs : list J) : machine -> Prop :=
| bad_take : forall buf c ts lg i j,
    nth_error ts i = Some TFetch ->
    nth_error jobs (N.to_nat c) = Some j ->
    process j = None ->
    mbad process jobs (Machine buf c ts lg)
| bad_store : forall buf c ts lg i w ws,
    nth_error ts i = Some (TRun (w :: ws)) ->
    store buf w = None ->
    mbad process jobs (Machine buf c ts lg).

(** A data race: two different threads are both about to store to the same byte. *)
Definition mrace (m : machine) : Prop :=
  exists i j a b wa wb o va vb,
    i <> j /\ nth_error (m_threads m) i = Some (TRun wa) /\
    nth_error (m_threads m) j = Some (TRun wb) /\
    wa = (o, va) :: a /\ wb = (o, vb) :: b.

(** The machine when the threads have just been started. *)
Definition minit (buf : list N) (threads : nat) : machine :=
  Machine buf 0 (repeat TFetch threads) [].

(** All threads joined, lib/src/Converter.cpp:580-581. *)
Definition mfinal (m : machine) : Prop := forall t, In t (m_threads m) -> t = TDone.

(** [curThreads], lib/src/Converter.cpp:548. *)
Definition cur_threads (jobs threadCount : N) : N := N.min jobs threadCount.

(** The buffer size of a converter on a [w] x [h] surface.  [None] for PVRTC, where the
    library decides (lib/src/PvrtcConverter.cpp:127-128). *)
Definition converter_data_size (c : converter) (w h : N) : option N :=
  match std_params c with
  | Some (sz, ch) => Some (std_data_size sz ch w h)
  | None =>
      match block_params c with
      | Some (bx, by_, bs) => Some (block_data_size w h bx by_ bs)
      | None => None
      end
  end.

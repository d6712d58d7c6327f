(** The cache of ASTC encoder contexts, lib/src/AstcConverter.cpp 36-132.

    createContext and destroyContext hold one mutex from their first to their last statement
    (48, 68), so an execution by any number of threads is a sequence of such calls.  Threads are
    not otherwise modelled.  A context is a number, handed out by astcenc_context_alloc in
    order; [None] is a null pointer, left by a failed allocation (58-60; the assertion is
    compiled out of release builds).  A configuration is its bytes, as memcmp sees it (52). *)

From Coq Require Import NArith List Bool.
From Verif Require Import Base.
Import ListNotations.
Local Open Scope N_scope.

Definition config := list N.

(** std::memcmp(...) == 0, 52. *)
Fixpoint config_eqb (a b : config) : bool :=
  match a, b with
  | [], [] => true
  | x :: a, y :: b => (x =? y) && config_eqb a b
  | _, _ => false
  end.

Definition context := option N.

(** What the encoder library and the owners of contexts see. *)
Inductive action :=
| Alloc (c : N) (cfg : config)               (* astcenc_context_alloc succeeded *)
| Free (c : N)                               (* astcenc_context_free of a context *)
| HandOut (o : N) (c : N) (cfg : config)     (* createContext returns [c] to object [o] *)
| GiveBack (o : N) (c : N).                  (* destroyContext called by [o] *)

(** ContextInfo, 78-98. *)
Definition info : Type := context * config.

(** The manager (m_cache, front first, 100), the next context of the allocator, and the
    AstcThreadData objects that are alive with their members context and config (111-132). *)
Record manager := Manager { m_cache : list info; m_next : N; m_held : list (N * info) }.

Definition manager0 : manager := Manager [] 0 [].

(** ~ContextInfo, 90-93; freeing a null pointer does nothing. *)
Definition destroy (i : info) : list action :=
  match fst i with Some c => [Free c] | None => [] end.

(** The search loop, 50-59: the first entry with the configuration, and the cache without it.
    The entry's pointer is cleared before it is erased, so its destructor frees nothing. *)
Fixpoint take (cfg : config) (cache : list info) : option (context * list info) :=
  match cache with
  | [] => None
  | (c, cfg') :: t =>
      if config_eqb cfg cfg' then Some (c, t)
      else match take cfg t with
           | Some (c', t') => Some (c', (c, cfg') :: t')
           | None => None
           end
  end.

(** createContext for a new object [o], 46-64 and the constructor 114-122; [ok]: an allocation
    succeeds. *)
Definition create (s : manager) (o : N) (cfg : config) (ok : bool) : manager * list action :=
  match take cfg (m_cache s) with
  | Some (c, cache) =>
      (Manager cache (m_next s) ((o, (c, cfg)) :: m_held s),
       match c with Some c => [HandOut o c cfg] | None => [] end)
  | None =>
      if ok then
        (Manager (m_cache s) (m_next s + 1) ((o, (Some (m_next s), cfg)) :: m_held s),
         [Alloc (m_next s) cfg; HandOut o (m_next s) cfg])
      else (Manager (m_cache s) (m_next s) ((o, (None, cfg)) :: m_held s), [])
  end.

(** The loop of destroyContext, 70-71; pop_back on an empty list is undefined: [None]. *)
Fixpoint evict (fuel : nat) (cap : N) (cache : list info) : option (list info * list action) :=
  if cap <=? N.of_nat (length cache) then
    match fuel, rev cache with
    | S fuel, last :: front =>
        match evict fuel cap (rev front) with
        | Some (cache', acts) => Some (cache', destroy last ++ acts)
        | None => None
        end
    | _, _ => None
    end
  else Some (cache, []).

(** Removing an object from those alive. *)
Fixpoint drop (o : N) (held : list (N * info)) : option (info * list (N * info)) :=
  match held with
  | [] => None
  | (o', i) :: t =>
      if o =? o' then Some (i, t)
      else match drop o t with
           | Some (i', t') => Some (i', (o', i) :: t')
           | None => None
           end
  end.

Inductive event :=
| Create (o : N) (cfg : config) (ok : bool)  (* an AstcThreadData object is constructed *)
| Destroy (o : N)                            (* an AstcThreadData object is destroyed *)
| Exit.                                      (* the static manager is destroyed *)

(** The histories the C++ object model allows: an object is constructed once and destroyed at
    most once after it was constructed. *)
Inductive result := Done (s : manager) (acts : list action) | Impossible | UB.

(** One event; [cap] is cacheSize, 3*hardware_concurrency(), 105. *)
Definition event_step (cap : N) (s : manager) (e : event) : result :=
  match e with
  | Create o cfg ok =>
      if existsb (fun h => fst h =? o) (m_held s) then Impossible
      else let (s', acts) := create s o cfg ok in Done s' acts
  | Destroy o =>
      match drop o (m_held s) with
      | None => Impossible
      | Some ((c, cfg), held) =>
          match evict (length (m_cache s)) cap (m_cache s) with
          | None => UB
          | Some (cache, acts) =>
              Done (Manager ((c, cfg) :: cache) (m_next s) held)
                   (acts ++ match c with Some c => [GiveBack o c] | None => [] end)
          end
      end
  | Exit => Done (Manager [] (m_next s) (m_held s)) (flat_map destroy (m_cache s))
  end.

Fixpoint history (cap : N) (s : manager) (es : list event) : result :=
  match es with
  | [] => Done s []
  | e :: t =>
      match event_step cap s e with
      | Done s' acts =>
          match history cap s' t with
          | Done s'' acts' => Done s'' (acts ++ acts')
          | r => r
          end
      | r => r
      end
  end.

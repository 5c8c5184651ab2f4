(** Objects that are built from several resources, one after the other: what the
    constructors take, what they give back when a step fails, and what the
    destructors give back.

    Models ocf_metadata_concurrency.c:10-139, utils_alock.c:94-203,
    ocf_mio_concurrency.c:145-183, ocf_pio_concurrency.c:192-247,
    metadata_raw.c:96-147, metadata_raw_dynamic.c:130-198, nhit_hash.c:130-214,
    nhit.c:41-92, ocf_ctx.c:22-91,180-291, ocf_volume.c:35-84, ocf_io.c:18-33,76-139,
    ocf_queue.c:17-79,101-161, ocf_seq_cutoff.c:121-137, ocf_request.c:62-408,
    utils_cleaner.c:41-156, the handling of references in ocf_core.c:259-404 and
    utils_mpool.c:29-85.

    A run of a function is the list of events it causes: a resource taken, a resource
    denied by the environment, a resource given back.  The environment may deny any
    request that can fail, at any time; its decision may depend on everything that
    happened before.  A resource carries the way it has to be given back ([kind]), so
    that freeing memory of env_vzalloc with env_free is an error.

    Simplified: sizes of memory blocks and the contents of the objects are left out,
    apart from the pointers and counters the clean-up code looks at. *)
From Coq Require Import List Bool Arith.
Import ListNotations.

(** How a resource is given back: env_free; env_vfree; env_secure_free;
    env_mutex_destroy; env_rmutex_destroy; env_spinlock_destroy; env_rwsem_destroy;
    env_rwlock_destroy; env_allocator_destroy; closing the logger; dropping a
    reference; env_mpool_del; ctx_data_free; ctx_data_munlock. *)
Inductive kind :=
| KMem | KVmem | KSecure | KMutex | KRmutex | KSpin | KRwsem | KRwlock | KAllocator
| KLogger | KRef | KPoolItem | KData | KPin.

(** Which field or object holds it. *)
Inductive slot :=
| SLru | SGlobal | SPart                      (* metadata locks *)
| SHash | SHashSem | SColl | SCollSem         (* hash and collision page locks *)
| SAlock | SAlockMutex | SAccess | SWaiters | SWaitLock  (* alock *)
| SPool | SCtrl | SCtrlLock | SPage           (* metadata containers *)
| SNhit | SNhash | SHmap | SHlocks | SHsem | SRing | SRbLock (* nhit *)
| SMpool (which : nat) | SMpoolAlloc (which : nat)
| SCtx | SCtxLock | SLog | SType (id : nat) | STypeAlloc (id : nat) (* context *)
| SQueue | SQueueLock | SSeq | SSeqLock | SCacheRef (* queue *)
| SVolRef | SQueueRef | SMetaRef | SD2cRef | SReq | SMap (* request *)
| SData.

Record res := R { rkind : kind; rslot : slot; ridx : nat }.

Inductive ev :=
| Got (r : res)
| Denied (r : res)
| Gave (r : res)
| Crash.  (* ENV_BUG *)

(** What the environment decides about a request: true = it is denied. *)
Definition oracle := list ev -> res -> bool.

Definition M (A : Type) := list ev -> A * list ev.
Definition ret {A} (a : A) : M A := fun tr => (a, tr).
Definition bind {A B} (m : M A) (k : A -> M B) : M B :=
  fun tr => let '(a, tr') := m tr in k a tr'.
Notation "x <- m ;; k" := (bind m (fun x => k)) (at level 61, m at next level, right associativity).
Notation "m ;;; k" := (bind m (fun _ => k)) (at level 61, right associativity).

Definition emit (e : ev) : M unit := fun tr => (tt, tr ++ [e]).

Section Env.
Variable o : oracle.

(** A request that may fail. *)
Definition acq (r : res) : M bool :=
  fun tr => if o tr r then (false, tr ++ [Denied r]) else (true, tr ++ [Got r]).

(** env_rwlock_init, env_atomic_inc: cannot fail. *)
Definition take (r : res) : M unit := emit (Got r).
Definition rel (r : res) : M unit := emit (Gave r).
(** Freeing a pointer that may be NULL. *)
Definition rel_if (b : bool) (r : res) : M unit := if b then rel r else ret tt.

(** for (i = ..; i < ..; i++) init: where the loop stopped, and whether it ran through. *)
Fixpoint acq_all (mk : nat -> res) (i n : nat) : M (nat * bool) :=
  match n with
  | 0 => ret (i, true)
  | S n' =>
      b <- acq (mk i) ;;
      if b then acq_all mk (S i) n' else ret (i, false)
  end.

Fixpoint take_all (mk : nat -> res) (i n : nat) : M unit :=
  match n with
  | 0 => ret tt
  | S n' => take (mk i) ;;; take_all mk (S i) n'
  end.

(** while (i--) destroy. *)
Fixpoint rel_down (mk : nat -> res) (i : nat) : M unit :=
  match i with
  | 0 => ret tt
  | S j => rel (mk j) ;;; rel_down mk j
  end.

(** for (i = ..; i < ..; i++) destroy. *)
Fixpoint rel_up (mk : nat -> res) (i n : nat) : M unit :=
  match n with
  | 0 => ret tt
  | S n' => rel (mk i) ;;; rel_up mk (S i) n'
  end.

(** ** Metadata locks *)

Definition r_lru := R KRwlock SLru.
Definition r_global := R KRwsem SGlobal.
Definition r_part := R KSpin SPart.

(** ocf_metadata_concurrency_init (ocf_metadata_concurrency.c:10-47); [nl], [ng],
    [np]: OCF_NUM_LRU_LISTS, OCF_NUM_GLOBAL_META_LOCKS, OCF_USER_IO_CLASS_MAX. *)
Definition mconc_init (nl ng np : nat) : M bool :=
  take_all r_lru 0 nl ;;;
  g <- acq_all r_global 0 ng ;;
  if snd g then
    p <- acq_all r_part 0 np ;;
    if snd p then ret true
    else
      rel_down r_part (fst p) ;;;
      rel_down r_global (fst g) ;;;
      rel_down r_lru nl ;;;
      ret false
  else
    rel_down r_global (fst g) ;;;
    rel_down r_lru nl ;;;
    ret false.

(** ocf_metadata_concurrency_deinit (ocf_metadata_concurrency.c:49-61) *)
Definition mconc_deinit (nl ng np : nat) : M unit :=
  rel_up r_part 0 np ;;; rel_up r_lru 0 nl ;;; rel_up r_global 0 ng.

(** The fields of struct ocf_metadata_lock the attached part uses: are the two arrays
    there, and how many entries do the counters announce. *)
Record mlock := { m_hash : bool; m_coll : bool; m_nhash : nat; m_ncoll : nat }.

Definition r_hash := R KVmem SHash 0.
Definition r_coll := R KVmem SColl 0.
Definition r_hsem := R KRwsem SHashSem.
Definition r_csem := R KRwsem SCollSem.

(** ocf_metadata_concurrency_attached_deinit (ocf_metadata_concurrency.c:119-139) *)
Definition att_deinit (m : mlock) : M mlock :=
  (if m_hash m then rel_up r_hsem 0 (m_nhash m) ;;; rel r_hash else ret tt) ;;;
  (if m_coll m then rel_up r_csem 0 (m_ncoll m) ;;; rel r_coll else ret tt) ;;;
  ret {| m_hash := false; m_coll := false;
         m_nhash := if m_hash m then 0 else m_nhash m;
         m_ncoll := if m_coll m then 0 else m_ncoll m |}.

(** ocf_metadata_concurrency_attached_init (ocf_metadata_concurrency.c:63-117); [h],
    [c]: the numbers of hash buckets and collision table pages. *)
Definition att_init (h c : nat) (m : mlock) : M (bool * mlock) :=
  bh <- acq r_hash ;;
  bc <- acq r_coll ;;
  if negb bh || negb bc then
    rel_if bh r_hash ;;;
    rel_if bc r_coll ;;;
    ret (false, {| m_hash := false; m_coll := false;
                   m_nhash := m_nhash m; m_ncoll := m_ncoll m |})
  else
    p <- acq_all r_hsem 0 h ;;
    if negb (snd p) then
      rel_down r_hsem (fst p) ;;;
      rel r_hash ;;;
      m' <- att_deinit {| m_hash := false; m_coll := true;
                          m_nhash := m_nhash m; m_ncoll := m_ncoll m |} ;;
      ret (false, m')
    else
      q <- acq_all r_csem 0 c ;;
      if negb (snd q) then
        rel_down r_csem (fst q) ;;;
        rel r_coll ;;;
        m' <- att_deinit {| m_hash := true; m_coll := false;
                            m_nhash := m_nhash m; m_ncoll := m_ncoll m |} ;;
        ret (false, m')
      else
        ret (true, {| m_hash := true; m_coll := true; m_nhash := h; m_ncoll := c |}).

(** ** Locks over cache lines and pages *)

Definition r_alock := R KVmem SAlock 0.
Definition r_amutex := R KMutex SAlockMutex 0.
Definition r_access := R KVmem SAccess 0.
Definition r_waiters := R KAllocator SWaiters 0.
Definition r_wait := R KSpin SWaitLock.

(** ocf_alock_init_inplace (utils_alock.c:94-154) of zeroed memory; [nw]:
    _WAITERS_LIST_ENTRIES.  The label allocation_err is reached with the fields access
    and allocator as far as they were set. *)
Definition alock_err (access allocator : bool) : M bool :=
  rel_if allocator r_waiters ;;;
  rel_if access r_access ;;;
  rel r_amutex ;;;
  ret false.

Definition alock_init_inplace (nw : nat) : M bool :=
  bm <- acq r_amutex ;;
  if negb bm then ret false
  else
    ba <- acq r_access ;;
    if negb ba then alock_err false false
    else
      bl <- acq r_waiters ;;
      if negb bl then alock_err true false
      else
        p <- acq_all r_wait 0 nw ;;
        if snd p then ret true
        else rel_down r_wait (fst p) ;;; alock_err true true.

(** ocf_alock_init (utils_alock.c:156-177) *)
Definition alock_init (nw : nat) : M bool :=
  b <- acq r_alock ;;
  if negb b then ret false
  else
    ok <- alock_init_inplace nw ;;
    if ok then ret true else rel r_alock ;;; ret false.

(** ocf_alock_deinit (utils_alock.c:179-203) of an alock whose fields access and
    allocator are set, or of NULL. *)
Definition alock_deinit (nw : nat) (self : bool) : M unit :=
  if negb self then ret tt
  else
    rel r_amutex ;;;
    rel_up r_wait 0 nw ;;;
    rel r_access ;;;
    rel r_waiters ;;;
    rel r_alock.

(** ocf_mio_concurrency_init (ocf_mio_concurrency.c:145-178); [name_ok]: the name fits
    its buffer.  The memory of env_vzalloc is freed with env_free. *)
Definition mio_init (nw : nat) (name_ok : bool) : M bool :=
  if negb name_ok then ret false
  else
    b <- acq r_alock ;;
    if negb b then ret false
    else
      ok <- alock_init_inplace nw ;;
      if ok then ret true else rel (R KMem SAlock 0) ;;; ret false.

(** ocf_pio_concurrency_init (ocf_pio_concurrency.c:192-242) *)
Definition pio_init (nw : nat) (name_ok : bool) : M bool :=
  if negb name_ok then ret false
  else
    b <- acq r_alock ;;
    if negb b then ret false
    else
      ok <- alock_init_inplace nw ;;
      if ok then ret true else rel r_alock ;;; ret false.

(** ** Metadata containers *)

(** The pointers of struct ocf_metadata_raw: mio_conc, mem_pool, priv (with the pages
    allocated so far). *)
Record raw := { w_mio : bool; w_pool : bool; w_ctrl : bool; w_pages : list nat }.

Definition r_pool := R KSecure SPool 0.
Definition r_ctrl := R KVmem SCtrl 0.
Definition r_clock := R KMutex SCtrlLock 0.
Definition r_page := R KSecure SPage.

(** _raw_ram_init (metadata_raw.c:114-147); [mio]: ocf_mio_concurrency_init, called
    when the caller passes a page lock function ([lock]).  [w]: the container before. *)
Definition raw_ram_init (nw : nat) (mio : M bool) (lock : bool) (w : raw) : M (bool * raw) :=
  p <- (if lock then b <- mio ;; ret (b, b || w_mio w) else ret (true, w_mio w)) ;;
  if negb (fst p) then ret (false, w)
  else
    b <- acq r_pool ;;
    if negb b then
      alock_deinit nw (snd p) ;;;
      ret (false, {| w_mio := false; w_pool := false; w_ctrl := w_ctrl w; w_pages := w_pages w |})
    else
      ret (true, {| w_mio := snd p; w_pool := true; w_ctrl := w_ctrl w; w_pages := w_pages w |}).

(** _raw_ram_deinit (metadata_raw.c:96-109) *)
Definition raw_ram_deinit (nw : nat) (w : raw) : M unit :=
  rel_if (w_pool w) r_pool ;;; alock_deinit nw (w_mio w).

(** raw_dynamic_init (metadata_raw_dynamic.c:157-198); [fits]: an entry fits a page. *)
Definition raw_dyn_init (nw : nat) (mio : M bool) (fits lock : bool) (w : raw)
  : M (bool * raw) :=
  if negb fits then ret (false, w)
  else
    p <- (if lock then b <- mio ;; ret (b, b || w_mio w) else ret (true, w_mio w)) ;;
    if negb (fst p) then ret (false, w)
    else
      b <- acq r_ctrl ;;
      if negb b then
        alock_deinit nw (snd p) ;;;
        ret (false, {| w_mio := false; w_pool := w_pool w; w_ctrl := w_ctrl w;
                       w_pages := w_pages w |})
      else
        bl <- acq r_clock ;;
        if negb bl then
          alock_deinit nw (snd p) ;;;
          rel r_ctrl ;;;
          ret (false, {| w_mio := false; w_pool := w_pool w; w_ctrl := w_ctrl w;
                         w_pages := w_pages w |})
        else
          ret (true, {| w_mio := snd p; w_pool := w_pool w; w_ctrl := true; w_pages := [] |}).

(** The part of _raw_dynamic_get_item that allocates a page
    (metadata_raw_dynamic.c:89-117): nothing happens if the page is there. *)
Definition raw_dyn_page (w : raw) (p : nat) : M raw :=
  if existsb (Nat.eqb p) (w_pages w) then ret w
  else
    b <- acq (r_page p) ;;
    if b then ret {| w_mio := w_mio w; w_pool := w_pool w; w_ctrl := w_ctrl w;
                     w_pages := p :: w_pages w |}
    else ret w.

(** raw_dynamic_deinit (metadata_raw_dynamic.c:130-152); [np]: ssd_pages. *)
Fixpoint rel_pages (ps : list nat) (i n : nat) : M unit :=
  match n with
  | 0 => ret tt
  | S n' => rel_if (existsb (Nat.eqb i) ps) (r_page i) ;;; rel_pages ps (S i) n'
  end.

Definition raw_dyn_deinit (nw np : nat) (w : raw) : M unit :=
  if negb (w_ctrl w) then ret tt
  else
    alock_deinit nw (w_mio w) ;;;
    rel_pages (w_pages w) 0 np ;;;
    rel r_clock ;;;
    rel r_ctrl.

(** ** Promotion policy nhit *)

Definition r_nhit := R KVmem SNhit 0.
Definition r_nhash := R KVmem SNhash 0.
Definition r_hmap := R KVmem SHmap 0.
Definition r_hlocks := R KVmem SHlocks 0.
Definition r_hlk := R KRwsem SHsem.
Definition r_ring := R KVmem SRing 0.
Definition r_rblock := R KSpin SRbLock 0.

(** nhit_hash_init (nhit_hash.c:130-200); [he]: hash_entries. *)
Definition nhash_init (he : nat) : M bool :=
  b <- acq r_nhash ;;
  if negb b then ret false
  else
    b <- acq r_hmap ;;
    if negb b then rel r_nhash ;;; ret false
    else
      b <- acq r_hlocks ;;
      if negb b then rel r_hmap ;;; rel r_nhash ;;; ret false
      else
        p <- acq_all r_hlk 0 he ;;
        let dealloc_locks :=
          rel_down r_hlk (fst p) ;;; rel r_hlocks ;;; rel r_hmap ;;; rel r_nhash ;;;
          ret false in
        if negb (snd p) then dealloc_locks
        else
          b <- acq r_ring ;;
          if negb b then dealloc_locks
          else
            b <- acq r_rblock ;;
            if negb b then dealloc_locks else ret true.

(** nhit_hash_deinit (nhit_hash.c:202-214) *)
Definition nhash_deinit (he : nat) : M unit :=
  rel r_rblock ;;; rel_up r_hlk 0 he ;;; rel r_ring ;;; rel r_hlocks ;;; rel r_hmap ;;;
  rel r_nhash.

(** nhit_init (nhit.c:41-82); [mem_ok]: enough free memory is reported. *)
Definition nhit_init (he : nat) (mem_ok : bool) : M bool :=
  if negb mem_ok then ret false
  else
    b <- acq r_nhit ;;
    if negb b then ret false
    else
      ok <- nhash_init he ;;
      if ok then ret true else rel r_nhit ;;; ret false.

(** nhit_deinit (nhit.c:84-92) *)
Definition nhit_deinit (he : nat) : M unit := nhash_deinit he ;;; rel r_nhit.

(** ** The context *)

Definition r_mpool (w : nat) := R KMem (SMpool w) 0.
Definition r_malloc (w : nat) := R KAllocator (SMpoolAlloc w).

(** env_mpool_create (utils_mpool.c:29-72) and env_mpool_destroy (utils_mpool.c:74-85);
    [w]: which pool, [n]: its number of size classes.  Destroy gives back the
    allocators that were created. *)
Definition mpool_create (w n : nat) : M bool :=
  b <- acq (r_mpool w) ;;
  if negb b then ret false
  else
    p <- acq_all (r_malloc w) 0 n ;;
    if snd p then ret true
    else rel_up (r_malloc w) 0 (fst p) ;;; rel (r_mpool w) ;;; ret false.

Definition mpool_destroy (w n : nat) : M unit :=
  rel_up (r_malloc w) 0 n ;;; rel (r_mpool w).

Definition r_type (id : nat) := R KMem (SType id) 0.
Definition r_talloc (id : nat) := R KAllocator (STypeAlloc id) 0.

(** ocf_volume_type_init (ocf_volume.c:35-75); [dflt]: the default io allocator is used
    (ocf_io.c:18-27), the ones of core and cache take nothing; [valid]: the
    operations are complete. *)
Definition type_init (id : nat) (valid dflt : bool) : M bool :=
  if negb valid then ret false
  else
    b <- acq (r_type id) ;;
    if negb b then ret false
    else if dflt then
      b <- acq (r_talloc id) ;;
      if negb b then rel (r_type id) ;;; ret false else ret true
    else ret true.

(** ocf_volume_type_deinit (ocf_volume.c:77-84) *)
Definition type_deinit (id : nat) (dflt : bool) : M unit :=
  (if dflt then rel (r_talloc id) else ret tt) ;;; rel (r_type id).

(** The registered types: identifier and whether it has the default allocator. *)
Definition types := list (nat * bool).
Definition type_find (id : nat) (t : types) : option bool :=
  option_map snd (find (fun p => Nat.eqb (fst p) id) t).
Definition type_drop (id : nat) (t : types) : types :=
  filter (fun p => negb (Nat.eqb (fst p) id)) t.

(** OCF_VOLUME_TYPE_MAX, OCF_VOLUME_TYPE_MAX_USER (ocf_ctx_priv.h:15-23) *)
Definition type_max_user := 8.
Definition type_max := 11.
Definition type_core := 8.
Definition type_cache := 9.
Definition type_composite := 10.

(** ocf_ctx_register_volume_type_internal (ocf_ctx.c:22-56) *)
Definition type_register (id : nat) (valid dflt : bool) (t : types) : M (bool * types) :=
  if (type_max <=? id) || (match type_find id t with Some _ => true | None => false end)
  then ret (false, t)
  else
    b <- type_init id valid dflt ;;
    if b then ret (true, (id, dflt) :: t) else ret (false, t).

(** ocf_ctx_register_volume_type (ocf_ctx.c:58-66): user types, default allocator. *)
Definition type_register_user (id : nat) (valid : bool) (t : types) : M (bool * types) :=
  if type_max_user <=? id then ret (false, t) else type_register id valid true t.

(** ocf_ctx_unregister_volume_type (ocf_ctx.c:71-91) *)
Definition type_unregister (id : nat) (t : types) : M types :=
  if id <? type_max then
    match type_find id t with
    | Some dflt => type_deinit id dflt ;;; ret (type_drop id t)
    | None => ret t
    end
  else ret t.

(** ocf_ctx_unregister_volume_types (ocf_ctx.c:261-267) *)
Fixpoint types_unregister (i n : nat) (t : types) : M types :=
  match n with
  | 0 => ret t
  | S n' => t' <- type_unregister i t ;; types_unregister (S i) n' t'
  end.

Definition r_ctx := R KMem SCtx 0.
Definition r_ctxlock := R KRmutex SCtxLock 0.
Definition r_log := R KLogger SLog 0.

(** ocf_ctx_create (ocf_ctx.c:180-246); [nr], [nm]: the size classes of the pools of
    requests and of metadata requests, [lg]: the logger has open and close. *)
Definition ctx_create (nr nm : nat) (lg : bool) : M (option types) :=
  b <- acq r_ctx ;;
  if negb b then ret None
  else
    let err_ctx := rel r_ctx ;;; ret None in
    let err_logger := rel_if lg r_log ;;; err_ctx in
    let err_mio := mpool_destroy 0 nr ;;; err_logger in
    let err_utils := mpool_destroy 1 nm ;;; err_mio in
    let err_core_volume (t : types) := type_unregister type_core t ;;; err_utils in
    b <- acq r_ctxlock ;;
    if negb b then err_ctx
    else
      b <- (if lg then acq r_log else ret true) ;;
      if negb b then err_ctx
      else
        b <- mpool_create 0 nr ;;
        if negb b then err_logger
        else
          b <- mpool_create 1 nm ;;
          if negb b then err_mio
          else
            p <- type_register type_core true false [] ;;
            if negb (fst p) then err_utils
            else
              p <- type_register type_cache true false (snd p) ;;
              if negb (fst p) then err_utils
              else
                p <- type_register type_composite true true (snd p) ;;
                if negb (fst p) then err_core_volume (snd p)
                else ret (Some (snd p)).

(** ocf_ctx_put (ocf_ctx.c:272-291) of the last reference, with no cache and an empty
    core pool. *)
Definition ctx_put (nr nm : nat) (lg : bool) (t : types) : M unit :=
  types_unregister 0 type_max t ;;;
  rel r_ctxlock ;;;
  mpool_destroy 1 nm ;;;
  mpool_destroy 0 nr ;;;
  rel_if lg r_log ;;;
  rel r_ctx.

(** ** Queues *)

Definition r_queue := R KMem SQueue 0.
Definition r_qlock := R KSpin SQueueLock 0.
Definition r_seq := R KVmem SSeq 0.
Definition r_seqlock := R KRwlock SSeqLock 0.
Definition r_cacheref := R KRef SCacheRef 0.

(** _ocf_queue_create (ocf_queue.c:17-44) *)
Definition queue_alloc : M bool :=
  b <- acq r_queue ;;
  if negb b then ret false
  else
    b <- acq r_qlock ;;
    if negb b then rel r_queue ;;; ret false else ret true.

(** ocf_queue_seq_cutoff_init (ocf_seq_cutoff.c:121-131) *)
Definition qseq_init : M bool :=
  b <- acq r_seq ;;
  if negb b then ret false else take r_seqlock ;;; ret true.

(** ocf_queue_create (ocf_queue.c:46-79) *)
Definition queue_create : M bool :=
  b <- acq r_cacheref ;;
  if negb b then ret false
  else
    b <- queue_alloc ;;
    if negb b then rel r_cacheref ;;; ret false
    else
      b <- qseq_init ;;
      if negb b then rel r_cacheref ;;; rel r_queue ;;; ret false
      else ret true.

(** ocf_queue_create_mngt (ocf_queue.c:101-127); [has]: the cache has one. *)
Definition queue_create_mngt (has : bool) : M bool :=
  if has then ret false
  else
    b <- acq r_cacheref ;;
    if negb b then ret false
    else
      b <- queue_alloc ;;
      if negb b then rel r_cacheref ;;; ret false else ret true.

(** ocf_queue_put (ocf_queue.c:141-161) of the last reference *)
Definition queue_put (mngt : bool) : M unit :=
  (if mngt then ret tt else rel r_seqlock ;;; rel r_seq) ;;;
  rel r_cacheref ;;;
  rel r_qlock ;;;
  rel r_queue.

(** ** Requests *)

Inductive map_at := MNone | MInline | MHeap.

(** The fields of struct ocf_request that decide what is given back. *)
Record req := {
  q_d2c : bool; q_mngt : bool; q_cleaner : bool;
  q_alloc : nat;      (* alloc_core_line_count *)
  q_lines : nat;      (* core_line_count *)
  q_map : map_at;
  q_refs : nat        (* ref_count *)
}.

Definition r_qref := R KRef SQueueRef 0.
Definition r_meta := R KRef SMetaRef 0.
Definition r_d2c := R KRef SD2cRef 0.
Definition r_item := R KPoolItem SReq.
Definition r_reqmem := R KMem SReq 0.
Definition r_map := R KMem SMap 0.

(** ocf_req_new_mngt (ocf_request.c:101-116) *)
Definition req_new_mngt : M (option req) :=
  b <- acq r_reqmem ;;
  if negb b then ret None
  else
    take r_qref ;;;
    ret (Some {| q_d2c := false; q_mngt := true; q_cleaner := false; q_alloc := 0;
                 q_lines := 0; q_map := MNone; q_refs := 1 |}).

(** ocf_req_put (ocf_request.c:384-408); None: the request is gone. *)
Definition req_put (q : req) : M (option req) :=
  if 2 <=? q_refs q then
    ret (Some {| q_d2c := q_d2c q; q_mngt := q_mngt q; q_cleaner := q_cleaner q;
                 q_alloc := q_alloc q; q_lines := q_lines q; q_map := q_map q;
                 q_refs := q_refs q - 1 |})
  else
    (if q_d2c q then rel r_d2c
     else if negb (q_mngt q) || q_cleaner q then rel r_meta else ret tt) ;;;
    (if q_mngt q then rel r_reqmem
     else
       (match q_map q with MHeap => rel r_map | _ => ret tt end) ;;;
       rel (r_item (q_alloc q))) ;;;
    rel r_qref ;;;
    ret None.

(** ocf_req_get (ocf_request.c:377-382) *)
Definition req_get (q : req) : req :=
  {| q_d2c := q_d2c q; q_mngt := q_mngt q; q_cleaner := q_cleaner q;
     q_alloc := q_alloc q; q_lines := q_lines q; q_map := q_map q;
     q_refs := S (q_refs q) |}.

(** ocf_req_alloc_map (ocf_request.c:308-326); a request without cache lines hits the
    ENV_BUG_ON of ocf_req_sizeof_map (ocf_request.c:40-46). *)
Definition alloc_map (q : req) : M (bool * req) :=
  match q_map q with
  | MNone =>
      if Nat.eqb (q_lines q) 0 then emit Crash ;;; ret (false, q)
      else
        b <- acq r_map ;;
        if b then
          ret (true, {| q_d2c := q_d2c q; q_mngt := q_mngt q; q_cleaner := q_cleaner q;
                        q_alloc := q_alloc q; q_lines := q_lines q; q_map := MHeap;
                        q_refs := q_refs q |})
        else ret (false, q)
  | _ => ret (true, q)
  end.

(** Two attempts at the pool: with room for the map, and without
    (ocf_request.c:133-137, 221-225, 280-284); None, or the number of lines allocated
    and whether the map has room. *)
Definition pool_two (count : nat) : M (option (nat * bool)) :=
  b <- acq (r_item count) ;;
  if b then ret (Some (count, true))
  else
    b <- acq (r_item 1) ;;
    if b then ret (Some (1, false)) else ret None.

(** ocf_req_new_cleaner (ocf_request.c:118-166); [mq]: the queue is the management
    queue. *)
Definition req_new_cleaner (mq : bool) (count : nat) : M (option req) :=
  b <- acq r_meta ;;
  if negb b then ret None
  else
    p <- (if mq then
            (if Nat.eqb count 0 then emit Crash else ret tt) ;;;
            b <- acq r_reqmem ;; ret (if b then Some (count, true) else None)
          else pool_two count) ;;
    match p with
    | None => rel r_meta ;;; ret None
    | Some (n, room) =>
        take r_qref ;;;
        a <- alloc_map {| q_d2c := false; q_mngt := mq; q_cleaner := true;
                          q_alloc := if room then count else 1; q_lines := count;
                          q_map := if room then MInline else MNone; q_refs := 1 |} ;;
        if fst a then ret (Some (snd a))
        else req_put (snd a) ;;; ret None
    end.

(** ocf_req_new (ocf_request.c:187-257) with ocf_req_new_d2c (ocf_request.c:168-185);
    [lines]: the number of core lines; [mq] hits the ENV_BUG_ON. *)
Definition req_new (mq : bool) (lines : nat) : M (option req) :=
  (if mq then emit Crash else ret tt) ;;;
  take r_qref ;;;
  b <- acq r_meta ;;
  if negb b then
    b <- acq r_d2c ;;
    (if b then ret tt else emit Crash) ;;;
    b <- acq (r_item 1) ;;
    if negb b then rel r_qref ;;; ret None
    else ret (Some {| q_d2c := true; q_mngt := false; q_cleaner := false; q_alloc := 1;
                      q_lines := 0; q_map := MNone; q_refs := 1 |})
  else
    p <- pool_two lines ;;
    match p with
    | None => rel r_meta ;;; rel r_qref ;;; ret None
    | Some (n, room) =>
        ret (Some {| q_d2c := false; q_mngt := false; q_cleaner := false;
                     q_alloc := if room then lines else 1; q_lines := lines;
                     q_map := if room then MInline else MNone; q_refs := 1 |})
    end.

(** ocf_req_new_cache (ocf_request.c:259-306); core_line_count stays 0. *)
Definition req_new_cache (mq : bool) (lines : nat) : M (option req) :=
  (if mq then emit Crash else ret tt) ;;;
  b <- acq r_meta ;;
  if negb b then ret None
  else
    take r_qref ;;;
    p <- pool_two lines ;;
    match p with
    | None => rel r_meta ;;; rel r_qref ;;; ret None
    | Some (n, room) =>
        ret (Some {| q_d2c := false; q_mngt := false; q_cleaner := false;
                     q_alloc := if room then lines else 1; q_lines := 0;
                     q_map := if room then MInline else MNone; q_refs := 1 |})
    end.

Definition r_volref := R KRef SVolRef 0.

(** ocf_io_new (ocf_io.c:76-101) and ocf_io_put (ocf_io.c:131-139) on the front volume
    of a core (ocf_core.c:467-488); [aligned]: address and length are. *)
Definition io_new (aligned : bool) (lines : nat) : M (option req) :=
  if negb aligned then ret None
  else
    b <- acq r_volref ;;
    if negb b then ret None
    else
      q <- req_new false lines ;;
      match q with
      | None => rel r_volref ;;; ret None
      | Some q => ret (Some q)
      end.

Definition io_put (q : req) : M (option req) :=
  q' <- req_put q ;; rel r_volref ;;; ret q'.

(** The references held by ocf_core_volume_submit_io (ocf_core.c:259-327) and
    ocf_core_volume_submit_discard (ocf_core.c:362-404) up to the point where the
    request is handed over: [checks] = the validation passed and the cache is not in
    standby.  True: the request was handed to an engine, which owns one reference. *)
Definition submit_io (checks : bool) (q : req) : M (bool * req) :=
  if negb checks then ret (false, q)
  else
    let q := req_get q in
    if q_d2c q then ret (true, q)
    else
      a <- alloc_map q ;;
      if fst a then ret (true, snd a)
      else
        q' <- req_put (snd a) ;;
        ret (false, match q' with Some q' => q' | None => snd a end).

Definition submit_discard (checks : bool) (q : req) : M (bool * req) :=
  if negb checks then ret (false, q)
  else
    let q := req_get q in
    if q_d2c q then ret (true, q)
    else alloc_map q.

(** ** Requests of the cleaner *)

Definition r_data := R KData SData.
Definition r_pin := R KPin SData.

(** _ocf_cleaner_alloc_req (utils_cleaner.c:41-70); the data buffer is named by the
    number of lines it has room for. *)
Definition cl_alloc (mq : bool) (count : nat) : M (option (req * nat)) :=
  q <- req_new_cleaner mq count ;;
  match q with
  | None => ret None
  | Some q =>
      b <- acq (r_data count) ;;
      if negb b then req_put q ;;; ret None
      else
        b <- acq (r_pin count) ;;
        if negb b then rel (r_data count) ;;; req_put q ;;; ret None
        else ret (Some (q, count))
  end.

(** _ocf_cleaner_get_req_max_count (utils_cleaner.c:77-84) with low_mem *)
Definition cl_low (count : nat) : nat := if count <? 128 then count else 128.

(** _ocf_cleaner_alloc_master_req (utils_cleaner.c:86-119): a second attempt with
    fewer lines, one reference more. *)
Definition cl_master (mq : bool) (count : nat) : M (option (req * nat)) :=
  q <- cl_alloc mq count ;;
  q <- (match q with Some _ => ret q | None => cl_alloc mq (cl_low count) end) ;;
  match q with
  | None => ret None
  | Some (q, n) => ret (Some (req_get q, n))
  end.

(** _ocf_cleaner_alloc_slave_req (utils_cleaner.c:121-148) *)
Definition cl_slave (mq : bool) (count : nat) : M (option (req * nat)) :=
  q <- cl_alloc mq count ;;
  match q with Some _ => ret q | None => cl_alloc mq (cl_low count) end.

(** _ocf_cleaner_dealloc_req (utils_cleaner.c:150-156) *)
Definition cl_dealloc (q : req * nat) : M (option req) :=
  rel (r_pin (snd q)) ;;; rel (r_data (snd q)) ;;; req_put (fst q).

End Env.

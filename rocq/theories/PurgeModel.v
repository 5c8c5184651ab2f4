(** Dropping cache contents: purging a cache or a core, and removing or detaching a
    core.

    Models the purge half of /repo/src/mngt/ocf_mngt_flush.c (85-104, 629-661,
    814-932) on top of the flush of CleanModel, ocf_metadata_actor
    (ocf_lru.c:950-1016, the branch without a partition, the only one purge uses),
    ocf_metadata_sparse_cache_line (metadata_misc.c:22-46),
    cache_mngt_core_deinit_attached_meta and the other removal steps
    (ocf_mngt_common.c:21-140) and the remove and detach pipelines
    (ocf_mngt_core.c:633-905).

    Simplified: memory for the flush containers is available (CleanModel); a
    collision list is a list of cache lines; the loop over the collision lists is a
    transition system, one event = one line looked at, with others free to act
    between the events as their locks allow. *)
From Coq Require Import List Bool Arith NArith.
From Verif Require Import CleanModel.
Import ListNotations.
Open Scope nat_scope.

(** ** Invalidation *)

(** _is_cache_line_acting (ocf_lru.c:950-971); [who] = None: OCF_CORE_ID_INVALID,
    that is the whole cache. *)
Definition acting (who : option nat) (first last : N) (m : option (nat * nat)) : bool :=
  match who, m with
  | Some c, Some (c', l) =>
      if negb (Nat.eqb c c') then false
      else if (N.of_nat l <? first)%N || (last <? N.of_nat l)%N then false else true
  | Some _, None => false
  | None, Some _ => true
  | None, None => false
  end.

(** ocf_metadata_sparse_cache_line (metadata_misc.c:22-37) of a line nobody waits
    for, with __set_cache_line_invalid (utils_cache_line.c:10-43): no sector valid or
    dirty, no mapping.  The counter of dirty lines is not touched. *)
Definition sparse (ns : nat) (s : cst) (x : nat) : cst :=
  let l := ln s x in
  {| ln := set_ln (ln s) x
             {| mp := None; va := fun k => if Nat.ltb k ns then false else va l k;
                di := fun k => if Nat.ltb k ns then false else di l k; da := da l |};
     cr := cr s; dc := dc s |}.

(** ocf_metadata_actor (ocf_lru.c:1002-1016); [used]: ocf_cache_line_is_used
    (utils_alock.c:783-792); [n] lines left, next is [x]; true: -OCF_ERR_AGAIN. *)
Fixpoint actor (ns : nat) (used : nat -> bool) (who : option nat) (first last : N) (n x : nat)
    (s : cst) (again : bool) : cst * bool :=
  match n with
  | O => (s, again)
  | S n' =>
      if acting who first last (mp (ln s x)) then
        if used x then actor ns used who first last n' (S x) s true
        else actor ns used who first last n' (S x) (sparse ns s x) again
      else actor ns used who first last n' (S x) s again
  end.

(** ocf_metadata_sparse_range(core_id, 0, end_byte) (metadata_misc.c:41-46);
    ocf_bytes_2_lines (utils_cache_line.h:29-33); [ls]: line size in bytes. *)
Definition sparse_range (ns nl : nat) (ls : N) (used : nat -> bool) (who : option nat) (end_byte : N) (s : cst) : cst * bool :=
  actor ns used who (0 / ls)%N (end_byte / ls)%N nl 0 s false.

(** purge.end_byte: ~0ULL for the cache (ocf_mngt_flush.c:872), core_size ?: ~0ULL
    for a core (:928). *)
Definition all_ones : N := 18446744073709551615%N.
Definition purge_end (who : option nat) (core_size : N) : N :=
  match who with
  | None => all_ones
  | Some _ => if (core_size =? 0)%N then all_ones else core_size
  end.

(** ** Purge *)
Inductive perr := Standby | Inval | NoMem | InProgress | Incomplete | Inactive | FlushErr | Again.

(** State the entry functions look at. *)
Record env := { standby : bool; attached : bool; incomplete : bool; opened : bool; queue : bool; mem : bool }.

(** ocf_mngt_cache_purge (ocf_mngt_flush.c:841-875), ocf_mngt_core_purge (:889-932)
    before the pipeline. *)
Definition enter_purge (e : env) : option perr :=
  if standby e then Some Standby
  else if negb (queue e) then Some Inval
  else if negb (mem e) then Some NoMem
  else None.

(** ocf_mngt_cache_flush (ocf_mngt_flush.c:673-719), for comparison; ocf_mngt_core_flush
    (:764-812). *)
Definition enter_flush (core : bool) (e : env) : option perr :=
  if standby e then Some Standby
  else if negb (attached e) then Some Inval
  else if if core then negb (opened e) else incomplete e then Some (if core then Inactive else Incomplete)
  else if negb (queue e) then Some Inval
  else if negb (mem e) then Some NoMem
  else None.

(** What a pipeline does to the shared locks, in order; [Call]: the caller's
    callback. *)
Inductive act := Lock | Freeze | Unfreeze | Unlock | Flush | Sparse | Call (e : option perr).

(** _ocf_mngt_begin_flush, the flush, _ocf_mngt_cache_invalidate,
    _ocf_mngt_flush_finish (ocf_mngt_flush.c:85-104, 629-661, 814-827).
    [busy]: another flush holds the mutex; [ferr]: the flush ended with an error. *)
Definition finish (lock freeze : bool) (e : option perr) : list act :=
  (if freeze then [Unfreeze] else []) ++ (if lock then [Unlock] else []) ++ [Call e].

Inductive pout := PCrash | POut (s : cst) (t : list act).

(** From the end of the flush on; [s]: state at that moment. *)
Definition purge_rest (ns nl : nat) (ls : N) (used : nat -> bool) (e : env) (who : option nat) (core_size : N)
    (ferr : bool) (s : cst) : pout :=
  if ferr then POut s ([Lock; Freeze; Flush] ++ finish true true (Some FlushErr))
  else if negb (attached e) then PCrash      (* cache->device is NULL: ocf_lru.c:992, 1003 *)
  else
    let '(s', again) := sparse_range ns nl ls used who (purge_end who core_size) s in
    POut s' ([Lock; Freeze; Flush; Sparse] ++ finish true true (if again then Some Again else None)).

(** All of it; [ends s0 err s]: the flush started in [s0] may end in [s] with or without
    an error. *)
Inductive purge (ns nl : nat) (ls : N) (e : env) (who : option nat) (core_size : N)
    (ends : cst -> bool -> cst -> Prop) (s0 : cst) : pout -> Prop :=
| Purge_refused r : enter_purge e = Some r -> purge ns nl ls e who core_size ends s0 (POut s0 [Call (Some r)])
| Purge_busy : enter_purge e = None ->
    purge ns nl ls e who core_size ends s0 (POut s0 (finish false false (Some InProgress)))
| Purge_go used err s : enter_purge e = None -> ends s0 err s ->
    purge ns nl ls e who core_size ends s0 (purge_rest ns nl ls used e who core_size err s).

(** ** Removing the lines of a core *)

(** [chn]: collision lists; [own]: core and core line of a cache line; [dty]: it has
    dirty sectors; [pol]: it is on a list of the cleaning policy; [dcl]: dirty_clines
    of the core being removed. *)
Record rst := { chn : nat -> list nat; own : nat -> option (nat * nat); dty : nat -> bool; pol : nat -> bool; dcl : nat }.

(** ocf_metadata_get_hash, ocf_metadata_get_collision_next (end of the list:
    collision_table_entries, here None). *)
Definition head (l : list nat) : option nat := match l with [] => None | x :: _ => Some x end.
Fixpoint next (l : list nat) (p : nat) : option nat :=
  match l with
  | [] => None
  | x :: r => if Nat.eqb x p then head r else next r p
  end.

Definition setf {A} (f : nat -> A) (x : nat) (v : A) : nat -> A := fun y => if Nat.eqb y x then v else f y.

(** ocf_mngt_common.c:84-86: purge of the cleaning policy, then
    ocf_metadata_sparse_cache_line; [waiters]: ocf_cache_line_are_waiters, the line
    then keeps its mapping (utils_cache_line.c:31-32). *)
Definition drop (h x : nat) (waiters : bool) (s : rst) : rst :=
  {| chn := if waiters then chn s else setf (chn s) h (remove Nat.eq_dec x (chn s h));
     own := if waiters then own s else setf (own s) x None;
     dty := setf (dty s) x false;
     pol := if dty s x then setf (pol s) x false else pol s;
     dcl := dcl s |}.

(** Position in cache_mngt_core_deinit_attached_meta (ocf_mngt_common.c:50-105): at
    the top of the outer loop; in the inner loop, holding the lock of list [h];
    finished. *)
Inductive pc := Top (h : nat) | Inner (h : nat) (prev cur : option nat) | Done.

(** Outcome of ocf_cache_line_try_lock_wr: fails, or succeeds without or with
    somebody waiting for the line. *)
Inductive try := Fail | Got (waiters : bool).

Definition owned (c : nat) (s : rst) (x : nat) : bool :=
  match own s x with Some (c', _) => Nat.eqb c' c | None => false end.

Definition rstep (c nh : nat) (t : try) (p : pc) (s : rst) : pc * rst :=
  match p with
  | Done => (Done, s)
  | Top h => if Nat.ltb h nh then (Inner h None (head (chn s h)), s) else (Done, s)
  | Inner h prev None => (Top (S h), s)
  | Inner h prev (Some x) =>
      if negb (owned c s x) then (Inner h (Some x) (next (chn s h) x), s)
      else
        match t with
        | Fail => (Top h, s)                      (* break, unlock, sleep, same list again *)
        | Got w =>
            let s' := drop h x w s in
            (Inner h prev (match prev with Some p => next (chn s' h) p | None => head (chn s' h) end), s')
        end
  end.

(** ** The remove and detach pipelines *)

(** [meta]: core->conf_meta->valid and the bit in valid_core_bitmap; [inact]:
    ocf_core_inactive_count; [froz]: cleaner refcnt frozen. *)
Record kst := { k_added : bool; k_open : bool; k_meta : bool; k_lines : bool; k_dirty : nat;
                cores : nat; inact : nat; incompl : bool; froz : bool }.

(** After cache_mngt_core_deinit_attached_meta no line of the core is left (theorem
    C66_remove_all), dirty_clines is as before. *)
Definition lines_gone (k : kst) : kst :=
  {| k_added := k_added k; k_open := k_open k; k_meta := k_meta k; k_lines := false; k_dirty := k_dirty k;
     cores := cores k; inact := inact k; incompl := incompl k; froz := froz k |}.

(** _ocf_mngt_cache_remove_core (ocf_mngt_core.c:694-716): remove_from_meta,
    remove_from_cache, core_deinit (ocf_mngt_common.c:108-140, 22-34). *)
Definition forget (k : kst) : kst :=
  let inact' := if k_open k then inact k else inact k - 1 in
  {| k_added := false; k_open := false; k_meta := false; k_lines := k_lines k; k_dirty := k_dirty k;
     cores := cores k - 1; inact := inact';
     incompl := if negb (k_open k) && Nat.eqb inact' 0 then false else incompl k; froz := froz k |}.

Definition set_froz (b : bool) (k : kst) : kst :=
  {| k_added := k_added k; k_open := k_open k; k_meta := k_meta k; k_lines := k_lines k; k_dirty := k_dirty k;
     cores := cores k; inact := inact k; incompl := incompl k; froz := b |}.

Inductive rerr := RStandby | RInval | RNoMem | NotRemoved | WriteCache | RInactive.
(** The callback's context argument: what the caller passed, or the cache. *)
Inductive arg := Priv | TheCache.

(** ocf_mngt_cache_remove_core (ocf_mngt_core.c:750-783) and its steps (:633-748);
    [coll], [sb]: flushing the collision section and the superblock succeeds. *)
Definition remove_core (e : env) (coll sb : bool) (k : kst) : kst * (arg * option rerr) :=
  if standby e then (k, (TheCache, Some RStandby))
  else if negb (queue e) then (k, (TheCache, Some RInval))
  else if negb (mem e) then (k, (Priv, Some RNoMem))
  else if negb (attached e) then (forget k, (Priv, None))
  else
    let k := set_froz true k in                                        (* wait_cleaning *)
    let k := lines_gone k in                                           (* remove_core_mapping *)
    if negb (Nat.eqb (k_dirty k) 0) && negb coll then (set_froz false k, (Priv, Some NotRemoved))
    else
      let k := forget k in
      (set_froz false k, (Priv, if sb then None else Some WriteCache)).

(** ocf_mngt_cache_detach_core (ocf_mngt_core.c:872-905) and its steps (:795-870). *)
Definition detach_core (e : env) (k : kst) : kst * (arg * option rerr) :=
  if standby e then (k, (TheCache, Some RStandby))
  else if negb (queue e) then (k, (TheCache, Some RInval))
  else if negb (mem e) then (k, (Priv, Some RNoMem))
  else
    let k := if attached e then set_froz true k else k in
    let '(k, r) :=
      if negb (k_open k) then (k, Some RInactive)
      else ({| k_added := k_added k; k_open := false; k_meta := k_meta k; k_lines := k_lines k; k_dirty := k_dirty k;
               cores := cores k; inact := S (inact k); incompl := true; froz := froz k |}, None) in
    (if attached e then set_froz false k else k, (Priv, r)).

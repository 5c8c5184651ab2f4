(** One run of the cleaner: ocf_cleaner_run (cleaning/cleaning.c:57-121), ocf_cleaning_perform_cleaning
    (cleaning/cleaning_ops.h:273-295) and what the policies do in it: nop (cleaning/nop.c:10-13), ALRU
    (cleaning/alru.c:680-957) and ACP (cleaning/acp.c:539-737).  The effects of a run are listed as
    events; what a run sees of the cache is its argument.  ocf_cleaner_do_flush_data_async calls its
    completion function once, at any time after it was called (C43, C46).  Which chunk ACP chooses and how
    its list of chunks is kept is the subject of C30, how the ALRU lists are kept that of C55.
    Simplified: the clock stands still during one selection; cmpl_fn runs as a whole. *)
From Coq Require Import List Bool Arith ZArith Lia.
Import ListNotations.
Open Scope Z_scope.

Inductive ev :=
| CacheLock | CacheUnlock | QueueGet | QueuePut | RefGet | RefPut | MetaLock | MetaUnlock | DataAlloc | DataFree
| LineLock (l : nat) | LineUnlock (l : nat) | Flush (ls : list nat) | End (ms : Z).

(** SLEEP_TIME_MS, cleaning/cleaning.h:19; OCF_CLEANER_DISABLE, inc/ocf_def.h:337; ACP_BACKOFF_TIME_MS,
    cleaning/acp.c:60; the literal of cleaning_ops.h:279, 288 *)
Definition SLEEP := 1000%Z.
Definition DISABLE := (2 ^ 32 - 1)%Z.
Definition ACP_BACKOFF := 1000%Z.
Definition RETRY := 1000%Z.

(** What a thread does from now on, and what the completion of the flush it starts will do.  The event
    [Flush] stands in [fst] where the flush is started. *)
Definition prog := (list ev * list ev)%type.
Definition seq_ev (a : list ev) (p : prog) : prog := (a ++ fst p, snd p).
Definition and_then (p : prog) (b : list ev) : prog := (fst p ++ b, snd p).

(** ocf_cleaner_run_complete, cleaning/cleaning.c:73-80 *)
Definition run_complete (ms : Z) : list ev := [CacheUnlock; QueuePut; End ms].

(** *** ALRU *)
(** a line in the list of a class: its time stamp, whether its core is open, whether a request uses it *)
Record line := { lid : nat; stamp : Z; core_open : bool; in_use : bool }.
(** struct alru_cleaning_policy_config, cleaning/alru_structs.h, and what the run sees: the number of ticks per
    second and now, last_access_ms, cleaning_thread_access, the lists of the classes, each from its tail
    (user_part->clean_pol->policy.alru.lru_tail and then lru_prev), whether
    ocf_metadata_try_start_exclusive_access and the allocation succeed, and the dirty ratio test (C31) *)
Record alru := {
  wakeup : Z; stale : Z; max_buffers : nat; threshold : Z;
  hz : Z; now : Z; last_ms : Z; thread_access : Z;
  lists : list (list line); meta_free : bool; data_ok : bool; ratio_exceeded : bool }.

(** compute_timestamp, cleaning/alru.c:680-690: unsigned long is 64 bits wide *)
Definition compute_timestamp (a : alru) : Z :=
  (((now a - stale a * hz a) mod 2 ^ 64) / hz a) mod 2 ^ 32.
(** check_for_io_activity, 692-703 *)
Definition io_activity (a : alru) : bool :=
  ((now a * 1000 / hz a) mod 2 ^ 32 - last_ms a) mod 2 ^ 32 <? threshold a.
(** clean_later, 705-717 *)
Definition clean_later (a : alru) : bool :=
  (now a / hz a - thread_access a) mod 2 ^ 32 <=? wakeup a.
(** is_cleanup_possible, 733-765: may clean, and the dirty ratio is exceeded *)
Definition is_cleanup_possible (a : alru) : bool * bool :=
  if ratio_exceeded a then (true, true)
  else if io_activity a then (false, false)
  else if clean_later a then (false, false)
  else if (max_buffers a =? 0)%nat then (false, false)
  else (true, false).
(** block_is_busy, 797-815 *)
Definition block_is_busy (l : line) : bool := negb (core_open l) || in_use l.
(** the inner loop of get_data_to_flush, 848-864: n lines may still be taken; the result is what was
    taken, and whether the limit was hit *)
Fixpoint take_list (last_access : Z) (n : nat) (ls : list line) : list nat * bool :=
  match ls with
  | [] => ([], false)
  | l :: ls =>
      if last_access <=? stamp l then ([], false)
      else match n with
           | O => ([], true)
           | S m => if block_is_busy l then take_list last_access n ls
                    else let (r, e) := take_list last_access m ls in (lid l :: r, e)
           end
  end.
(** get_data_to_flush, 817-873 *)
Fixpoint take_lists (last_access : Z) (n : nat) (lss : list (list line)) : list nat :=
  match lss with
  | [] => []
  | ls :: lss => let (r, e) := take_list last_access n ls in
                 if e then r else r ++ take_lists last_access (n - length r) lss
  end.
Definition get_data_to_flush (a : alru) (exceeded : bool) : list nat :=
  take_lists (if exceeded then 2 ^ 32 - 1 else compute_timestamp a) (max_buffers a) (lists a).
(** alru_clean_complete, 875-889: flush_data is freed if there is any *)
Definition alru_complete (a : alru) (data performed : bool) : list ev :=
  (if data then [DataFree] else []) ++ run_complete (if performed then 0 else wakeup a * 1000).
(** alru_clean, 891-932, from cleaning_alru_perform_cleaning, 934-957 *)
Definition alru_clean (a : alru) : prog :=
  let (can, exceeded) := is_cleanup_possible a in
  if negb can then (alru_complete a false false, [])
  else if negb (meta_free a) then (alru_complete a false false, [])
  else if negb (data_ok a) then ([MetaLock; MetaUnlock] ++ alru_complete a false false, [])
  else let ls := get_data_to_flush a exceeded in
       if (0 <? length ls)%nat
       then ([MetaLock; DataAlloc; Flush ls; MetaUnlock], alru_complete a true true)
       else ([MetaLock; DataAlloc; MetaUnlock] ++ alru_complete a true false, []).

(** *** ACP *)
(** struct acp_state, cleaning/acp.c:81-91: the chunk being cleaned by its first core line, the iterator *)
Record acp_state := { chunk : nat; iter : nat; in_progress : bool }.
(** wakeup time, flush_max_buffers, lines per chunk, the candidate if one is looked for, and for each core
    line whether _acp_trylock_dirty (acp.c:539-564) locks a cache line *)
Record acp := { a_wakeup : Z; a_max : nat; per_chunk : nat; candidate : option nat; trylock : nat -> option nat }.
(** the loop of _acp_prepare_flush_data, 678-693: fuel is what is left of the chunk; n lines may still be
    taken.  The result: core lines tried, cache lines locked *)
Fixpoint prepare (a : acp) (core_line fuel n : nat) : list nat * list nat :=
  match fuel, n with
  | O, _ | _, O => ([], [])
  | S f, S m =>
      match trylock a core_line with
      | None => let (t, l) := prepare a (S core_line) f n in (core_line :: t, l)
      | Some c => let (t, l) := prepare a (S core_line) f m in (core_line :: t, c :: l)
      end
  end.
(** _acp_flush_end, 620-645 *)
Definition acp_flush_end (a : acp) (ls : list nat) : list ev := map LineUnlock ls ++ run_complete (a_wakeup a).
(** cleaning_policy_acp_perform_cleaning, 705-737, with _acp_prepare_flush_data, 663-701, and _acp_flush,
    648-661: the new state, the core lines tried, and the program *)
Definition acp_clean (a : acp) (s : acp_state) : acp_state * list nat * prog :=
  let start := if in_progress s then Some (chunk s, iter s) else match candidate a with Some c => Some (c, O) | None => None end in
  match start with
  | None => (s, [], (run_complete ACP_BACKOFF, []))
  | Some (c, i) =>
      let (tried, ls) := prepare a (c + i) (per_chunk a - i) (a_max a) in
      let i' := (i + length tried)%nat in
      let s' := {| chunk := c; iter := i'; in_progress := negb (i' =? per_chunk a)%nat |} in
      (s', tried,
       match ls with
       | [] => (acp_flush_end a [], [])
       | _ => (map LineLock ls ++ [Flush ls], acp_flush_end a ls)
       end)
  end.

(** *** the run *)
Inductive policy := Nop | Alru (a : alru) | Acp (a : acp) (s : acp_state).
Record view := {
  running : bool; seen_locked : bool; standby : bool; lock_ok : bool; incomplete : bool;
  cores : list (bool * bool); (* opened, dirty *)
  ref_ok : bool; pol : policy }.

(** _ocf_cleaner_run_check_dirty_inactive, cleaning/cleaning.c:57-71 *)
Definition dirty_inactive (v : view) : bool :=
  if negb (incomplete v) then false else negb (existsb (fun c => fst c && snd c) (cores v)).
Definition perform (p : policy) : prog :=
  match p with
  | Nop => (run_complete DISABLE, [])
  | Alru a => alru_clean a
  | Acp a s => snd (acp_clean a s)
  end.
(** ocf_cleaning_perform_cleaning, cleaning/cleaning_ops.h:273-295 *)
Definition perform_cleaning (v : view) : prog :=
  if negb (ref_ok v) then (run_complete RETRY, []) else and_then (seq_ev [RefGet] (perform (pol v))) [RefPut].
(** ocf_cleaner_run, cleaning/cleaning.c:82-121 *)
Definition cleaner_run (v : view) : prog :=
  if negb (running v) || seen_locked v then ([End SLEEP], [])
  else if standby v then ([End SLEEP], [])
  else if negb (lock_ok v) then ([End SLEEP], [])
  else if dirty_inactive v then ([CacheLock; CacheUnlock; End SLEEP], [])
  else seq_ev [CacheLock; QueueGet] (perform_cleaning v).

(** *** parameters *)
(** cleaning_policy_alru_set_cleaning_param, cleaning/alru.c:586-648, and ..._get_..., 650-678, with
    OCF_CLEANING_CHECK_PARAM (cleaning/cleaning_priv.h:14-19) and the limits of inc/cleaning/alru.h; a
    configuration is the values of the parameters, in the order of the enumeration *)
Definition alru_limits : list (Z * Z) := [(0, 3600); (1, 3600); (1, 10000); (0, 1000000); (0, 100)].
(** cleaning_policy_acp_set_cleaning_param, cleaning/acp.c:481-514, and ..._get_..., 516-535; limits of
    inc/cleaning/acp.h *)
Definition acp_limits : list (Z * Z) := [(0, 10000); (1, 10000)].
Definition set_nth (l : list Z) (i : nat) (x : Z) : list Z := firstn i l ++ x :: skipn (S i) l.
Definition set_param (limits : list (Z * Z)) (conf : list Z) (id : nat) (x : Z) : bool * list Z :=
  match nth_error limits id with
  | None => (false, conf)
  | Some (lo, hi) => if (x <? lo) || (hi <? x) then (false, conf) else (true, set_nth conf id x)
  end.
Definition get_param (conf : list Z) (id : nat) : option Z := nth_error conf id.

(** The asynchronous read/write lock of management operations
    (/repo/src/utils/utils_async_lock.c) and its use as the cache lock
    (/repo/src/mngt/ocf_mngt_common.c:193-360).

    Each critical section under the spinlock waiters_lock is one step; completion
    callbacks run outside of it, so every single callback call is a step of its own and
    may be interleaved with anything.  Not modelled: failed allocation of the waiter
    (the call then fails before it touches the lock, ocf_mngt_common.c:246-252) and
    wrap-around of the 32-bit reader count. *)
From Coq Require Import List Bool Arith.
Import ListNotations.
Open Scope nat_scope.

(** struct ocf_async_lock (utils_async_lock.h): [rd], [wr], [waiters]: request and
    whether it wants the write lock. *)
Record lk := { rd : nat; wr : bool; waiters : list (nat * bool) }.

(** _ocf_async_lock_collect_waiters (utils_async_lock.c:16-33), called with wr = 0:
    requests taken off the list, new rd, new wr, rest of the list. *)
Fixpoint collect (r : nat) (ws : list (nat * bool)) : list (nat * bool) * nat * bool * list (nat * bool) :=
  match ws with
  | [] => ([], r, false, [])
  | (i, false) :: t => let '(k, r', w', rest) := collect (S r) t in ((i, false) :: k, r', w', rest)
  | (i, true) :: t => if r =? 0 then ([(i, true)], r, true, t) else ([], r, false, ws)
  end.

(** _ocf_async_trylock (utils_async_lock.c:107-114). *)
Definition trywr (l : lk) : option lk :=
  if wr l || negb (rd l =? 0) then None else Some {| rd := rd l; wr := true; waiters := waiters l |}.
(** _ocf_async_read_trylock (utils_async_lock.c:168-175). *)
Definition tryrd (l : lk) : option lk :=
  if wr l || negb (match waiters l with [] => true | _ => false end) then None
  else Some {| rd := S (rd l); wr := wr l; waiters := waiters l |}.
Definition try (w : bool) (l : lk) : option lk := if w then trywr l else tryrd l.
(** list_add_tail in ocf_async_lock and ocf_async_read_lock (lines 131-132, 192-193). *)
Definition enqueue (i : nat) (w : bool) (l : lk) : lk := {| rd := rd l; wr := wr l; waiters := waiters l ++ [(i, w)] |}.

(** Critical sections of ocf_async_unlock (lines 154-163) and ocf_async_read_unlock
    (lines 215-227): None is ENV_BUG_ON; else the new lock and the collected requests. *)
Definition unlk (w : bool) (l : lk) : option (lk * list (nat * bool)) :=
  if w then
    if negb (rd l =? 0) || negb (wr l) then None
    else let '(k, r', w', rest) := collect (rd l) (waiters l) in Some ({| rd := r'; wr := w'; waiters := rest |}, k)
  else
    if (rd l =? 0) || wr l then None
    else if negb (rd l - 1 =? 0) then Some ({| rd := rd l - 1; wr := wr l; waiters := waiters l |}, [])
    else let '(k, r', w', rest) := collect (rd l - 1) (waiters l) in Some ({| rd := r'; wr := w'; waiters := rest |}, k).

(** What a thread still has to do for a request: call its completion with success
    ([KOk]) or with -OCF_ERR_NO_LOCK ([KErr]); return from a trylock call that took the
    lock ([KTry]). *)
Inductive kind := KOk | KErr | KTry.

Record st := {
  lock : lk;
  batches : list (list (nat * bool * kind));  (* per running thread: what it still has to do: request, write, kind *)
  crefs : nat;                                (* references on the cache taken by lock calls *)
  stopping : bool;                            (* ocf_cache_state_stopping *)
  destroyed : bool;                           (* ocf_async_lock_deinit was called *)
  (* history *)
  own : list (nat * bool);                    (* who was given the lock and did not give it back: request, write *)
  used : list nat;                            (* requests made so far *)
  arrivals : list nat;                        (* ocf_async_lock / ocf_async_read_lock calls, in order *)
  granted : list nat;                         (* of these, those that were given the lock, in order *)
  dropped : list nat;                         (* of these, those refused by deinit, in order *)
  calls : list (nat * bool);                  (* completions called: request, success *)
  ucalls : list (nat * bool);                 (* answers of ocf_mngt_cache_lock, _trylock etc.: request, success *)
  leaks : nat;                                (* trylock calls that failed because the cache is stopping *)
  late : bool                                 (* the spinlock was taken after it was destroyed *)
}.

Inductive out := Blocked | Bug | Ok (s : st).

Definition rem (i : nat) (l : list (nat * bool)) : list (nat * bool) := filter (fun e => negb (fst e =? i)) l.
Definition mem (i : nat) (l : list nat) : bool := existsb (fun x => x =? i) l.
Definition ids {A} (l : list (nat * A)) : list nat := map fst l.
Definition pids (l : list (list (nat * bool * kind))) : list nat := map (fun e => fst (fst e)) (concat l).
Definition with_kind (b : kind) (l : list (nat * bool)) : list (nat * bool * kind) := map (fun e => (fst e, snd e, b)) l.

(** [k]: the owner [i] leaves, the lock becomes [l], the requests [k] get it and their
    completions are called later by the thread that leaves. *)
Definition leave (s : st) (i : nat) (l : lk) (k : list (nat * bool)) : st :=
  {| lock := l; batches := batches s ++ [with_kind KOk k]; crefs := crefs s; stopping := stopping s; destroyed := destroyed s;
     own := rem i (own s) ++ k; used := used s; arrivals := arrivals s; granted := granted s ++ ids k; dropped := dropped s;
     calls := calls s; ucalls := ucalls s; leaks := leaks s; late := late s || destroyed s |}.

Definition put (s : st) : st :=
  {| lock := lock s; batches := batches s; crefs := crefs s - 1; stopping := stopping s; destroyed := destroyed s;
     own := own s; used := used s; arrivals := arrivals s; granted := granted s; dropped := dropped s;
     calls := calls s; ucalls := ucalls s; leaks := leaks s; late := late s |}.

(** _ocf_mngt_cache_lock (ocf_mngt_common.c:231-262) with ocf_async_lock (lines 116-135)
    or ocf_async_read_lock (lines 177-196). *)
Definition do_lock (i : nat) (w : bool) (s : st) : st :=
  match try w (lock s) with
  | Some l =>
    {| lock := l; batches := batches s ++ [[(i, w, KOk)]]; crefs := S (crefs s); stopping := stopping s; destroyed := destroyed s;
       own := own s ++ [(i, w)]; used := i :: used s; arrivals := arrivals s ++ [i]; granted := granted s ++ [i]; dropped := dropped s;
       calls := calls s; ucalls := ucalls s; leaks := leaks s; late := late s |}
  | None =>
    {| lock := enqueue i w (lock s); batches := batches s; crefs := S (crefs s); stopping := stopping s; destroyed := destroyed s;
       own := own s; used := i :: used s; arrivals := arrivals s ++ [i]; granted := granted s; dropped := dropped s;
       calls := calls s; ucalls := ucalls s; leaks := leaks s; late := late s |}
  end.

(** _ocf_mngt_cache_trylock (ocf_mngt_common.c:264-281) up to the test of the stopping bit. *)
Definition do_try (i : nat) (w : bool) (s : st) : st :=
  match try w (lock s) with
  | None => {| lock := lock s; batches := batches s; crefs := crefs s; stopping := stopping s; destroyed := destroyed s;
       own := own s; used := i :: used s; arrivals := arrivals s; granted := granted s; dropped := dropped s;
       calls := calls s; ucalls := ucalls s ++ [(i, false)]; leaks := leaks s; late := late s |}
  | Some l =>
    {| lock := l; batches := batches s ++ [[(i, w, KTry)]]; crefs := S (crefs s); stopping := stopping s; destroyed := destroyed s;
       own := own s ++ [(i, w)]; used := i :: used s; arrivals := arrivals s; granted := granted s; dropped := dropped s;
       calls := calls s; ucalls := ucalls s; leaks := leaks s; late := late s |}
  end.

Fixpoint upd {A} (l : list A) (n : nat) (x : A) : list A :=
  match l, n with [], _ => [] | _ :: t, 0 => x :: t | a :: t, S n => a :: upd t n x end.

(** The next thing thread [n] does: one iteration of _ocf_async_lock_run_waiters
    (utils_async_lock.c:42-46), or the call of the completion in the success branch of
    lock / read_lock, which call _ocf_mngt_cache_lock_complete (ocf_mngt_common.c:206-229);
    or the rest of a trylock call (ocf_mngt_common.c:283-291): when the cache is stopping
    it gives back the lock, but not the cache reference. *)
Definition called (s : st) (n : nat) (rest : list (nat * bool * kind)) (c : list (nat * bool)) (i : nat) (uok : bool) : st :=
  {| lock := lock s; batches := upd (batches s) n rest; crefs := crefs s; stopping := stopping s; destroyed := destroyed s;
     own := own s; used := used s; arrivals := arrivals s; granted := granted s; dropped := dropped s;
     calls := calls s ++ c; ucalls := ucalls s ++ [(i, uok)]; leaks := leaks s; late := late s |}.
Definition leak (s : st) : st :=
  {| lock := lock s; batches := batches s; crefs := crefs s; stopping := stopping s; destroyed := destroyed s;
     own := own s; used := used s; arrivals := arrivals s; granted := granted s; dropped := dropped s;
     calls := calls s; ucalls := ucalls s; leaks := S (leaks s); late := late s |}.
Definition complete (n : nat) (s : st) : out :=
  match nth_error (batches s) n with
  | Some ((i, w, KErr) :: rest) => Ok (put (called s n rest [(i, false)] i false))
  | Some ((i, w, KOk) :: rest) =>
    if stopping s then
      match unlk w (lock s) with None => Bug | Some (l, k) => Ok (put (leave (called s n rest [(i, true)] i false) i l k)) end
    else Ok (called s n rest [(i, true)] i true)
  | Some ((i, w, KTry) :: rest) =>
    if stopping s then
      match unlk w (lock s) with None => Bug | Some (l, k) => Ok (leak (leave (called s n rest [] i false) i l k)) end
    else Ok (called s n rest [] i true)
  | _ => Blocked
  end.

(** ocf_async_lock_deinit (utils_async_lock.c:65-80). *)
Definition destroy (s : st) : st :=
  {| lock := {| rd := rd (lock s); wr := wr (lock s); waiters := [] |};
     batches := batches s ++ [with_kind KErr (waiters (lock s))]; crefs := crefs s; stopping := stopping s; destroyed := true;
     own := own s; used := used s; arrivals := arrivals s; granted := granted s; dropped := dropped s ++ ids (waiters (lock s));
     calls := calls s; ucalls := ucalls s; leaks := leaks s; late := late s |}.

Inductive ev :=
| Lock (i : nat) (w : bool)       (* ocf_mngt_cache_lock / _read_lock by request i *)
| TryLock (i : nat) (w : bool)    (* ocf_mngt_cache_trylock / _read_trylock *)
| Unlock (i : nat)                (* ocf_mngt_cache_unlock / _read_unlock by the owner i *)
| Complete (n : nat)              (* thread n calls its next completion / returns from trylock *)
| SetStopping                     (* ocf_mngt_cache_stop sets ocf_cache_state_stopping *)
| Destroy.

Definition owner (i : nat) (s : st) : option bool :=
  match find (fun e => fst e =? i) (own s) with Some e => Some (snd e) | None => None end.

(** A request number names one call.  No lock call enters after deinit: deinit runs when
    refcnt.lock, which every lock call holds, is frozen and zero (ocf_mngt_common.c:317-335;
    RefcntModel).  Only a caller that was told it has the lock gives it back, once. *)
Definition step (e : ev) (s : st) : out :=
  match e with
  | Lock i w => if mem i (used s) || destroyed s then Blocked else Ok (do_lock i w s)
  | TryLock i w => if mem i (used s) || destroyed s then Blocked else Ok (do_try i w s)
  | Unlock i =>
    match owner i s with
    | None => Blocked
    | Some w =>
      if mem i (pids (batches s)) then Blocked
      else match unlk w (lock s) with None => Bug | Some (l, k) => Ok (put (leave s i l k)) end
    end
  | Complete n => complete n s
  | SetStopping => Ok {| lock := lock s; batches := batches s; crefs := crefs s; stopping := true; destroyed := destroyed s;
       own := own s; used := used s; arrivals := arrivals s; granted := granted s; dropped := dropped s;
       calls := calls s; ucalls := ucalls s; leaks := leaks s; late := late s |}
  | Destroy => if destroyed s then Blocked else Ok (destroy s)
  end.

(** ocf_async_lock_init (utils_async_lock.c:49-63). *)
Definition init : st :=
  {| lock := {| rd := 0; wr := false; waiters := [] |}; batches := []; crefs := 0; stopping := false; destroyed := false;
     own := []; used := []; arrivals := []; granted := []; dropped := []; calls := []; ucalls := []; leaks := 0; late := false |}.

Fixpoint run (evs : list ev) (s : st) : out :=
  match evs with
  | [] => Ok s
  | e :: evs => match step e s with Ok s => run evs s | Blocked => run evs s | Bug => Bug end
  end.

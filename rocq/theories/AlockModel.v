(** Cache line lock: /repo/src/utils/utils_alock.c and
    /repo/src/concurrency/ocf_cache_line_concurrency.c, as a transition system.

    Any number of requests run concurrently; one event = one step of one request.
    What is one step: an atomic instruction on the access counter (the unlocked
    fast attempts) or one critical section under the spin lock of the waiters list
    (the second attempt plus adding a waiter; a release with all its grants;
    the removal of a waiter).  Lock-free attempts of other requests that run during
    such a critical section only act on an idle line, and the line is not idle
    during it, except for its last write.
    Marking the index bit and decrementing lock_remaining is part of the step that
    obtains the line (only the request itself and its granter touch them).
    Simplified: the callback of a granted request only schedules it
    (engine_common.c ocf_engine_on_resume pushes it to the queue); a request takes
    its lock once; the mutex is released in the same step as the final decrement
    of lock_remaining. *)
From Coq Require Import ZArith List Bool Arith.
Import ListNotations.
Open Scope nat_scope.

(** utils_alock.c:35-37; INT_MAX. *)
Definition WR : Z := (2 ^ 31 - 1)%Z.

(** utils_alock.c:45-52 struct ocf_alock_waiter; [w_wr]: rw == OCF_WRITE. *)
Record waiter := { w_line : nat; w_req : nat; w_idx : nat; w_wr : bool }.

(** Where a request is.
    [Fast i]: ocf_cl_lock_line_fast, next line i; [Roll i]: its rollback loop, lines
    i-1, i-2, ...; [SlowStart]: before the mutex; [Slow i]: ocf_cl_lock_line_slow, next
    line i (first attempt); [SlowB i]: first attempt failed, before allocation of the
    waiter; [Err i]: error loop, lines i-1, ...; [Wait]: returned NOT_ACQUIRED;
    [Held]: all lines obtained (ACQUIRED or callback called); [Unlock i]:
    ocf_req_unlock_*, next line i; [Done]; [Refused]: trylock failed; [Failed]: error
    returned. *)
Inductive phase :=
| Fast (i : nat) | Roll (i : nat) | SlowStart | Slow (i : nat) | SlowB (i : nat) | Err (i : nat)
| Wait | Held | Unlock (i : nat) | Done | Refused | Failed.

(** What a request wants: lines, for writing?, try only (ocf_cache_line_try_lock_*,
    no waiting)? *)
Record want := { lines : list nat; wr : bool; tryonly : bool }.

Record st := {
  access : nat -> Z;                 (* alock->access *)
  queue : nat -> list waiter;        (* alock->waiters_lsts, oldest first *)
  mutex : option nat;                (* alock->lock *)
  ph : nat -> phase;
  bits : nat -> nat -> bool;         (* req->alock_status *)
  rem : nat -> Z;                    (* req->lock_remaining *)
  resumed : nat -> nat               (* how often the request was told it has the lock *)
}.

Inductive out := Blocked | Bug | Ok (s : st).

Definition setf {A} (f : nat -> A) (i : nat) (v : A) : nat -> A := fun j => if j =? i then v else f j.
Definition setb (f : nat -> nat -> bool) (r i : nat) (v : bool) : nat -> nat -> bool :=
  fun r' i' => if (r' =? r) && (i' =? i) then v else f r' i'.

Definition w_access (s : st) v := {| access := v; queue := queue s; mutex := mutex s; ph := ph s; bits := bits s; rem := rem s; resumed := resumed s |}.
Definition w_queue (s : st) v := {| access := access s; queue := v; mutex := mutex s; ph := ph s; bits := bits s; rem := rem s; resumed := resumed s |}.
Definition w_mutex (s : st) v := {| access := access s; queue := queue s; mutex := v; ph := ph s; bits := bits s; rem := rem s; resumed := resumed s |}.
Definition w_ph (s : st) v := {| access := access s; queue := queue s; mutex := mutex s; ph := v; bits := bits s; rem := rem s; resumed := resumed s |}.
Definition w_bits (s : st) v := {| access := access s; queue := queue s; mutex := mutex s; ph := ph s; bits := v; rem := rem s; resumed := resumed s |}.
Definition w_rem (s : st) v := {| access := access s; queue := queue s; mutex := mutex s; ph := ph s; bits := bits s; rem := v; resumed := resumed s |}.
Definition w_resumed (s : st) v := {| access := access s; queue := queue s; mutex := mutex s; ph := ph s; bits := bits s; rem := rem s; resumed := v |}.

Definition goto (s : st) (r : nat) (p : phase) : st := w_ph s (setf (ph s) r p).

(** ** Attempts on the access counter *)

(** utils_alock.c:245-254, 256-264: compare and exchange from idle;
    [None]: not obtained. *)
Definition try_idle (write : bool) (a : Z) : option Z :=
  if (a =? 0)%Z then Some (if write then WR else 1%Z) else None.
(** utils_alock.c:266-272 [ocf_alock_trylock_entry_rd]: add_unless. *)
Definition try_rd (a : Z) : option Z := if (a =? WR)%Z then None else Some (a + 1)%Z.

(** ** Release: utils_alock.c:481-546 and 571-636.
    [held_wr]: the released lock was a write lock. *)
Inductive att := ABug | AFail | AGot (a : Z).
Definition attempt (held_wr ex write : bool) (a : Z) : att :=
  if ex then
    if held_wr then
      (* trylock_entry_wr2wr, trylock_entry_wr2rd (295-314) *)
      if negb (a =? WR)%Z then ABug else AGot (if write then a else 1%Z)
    else
      (* trylock_entry_rd2wr, trylock_entry_rd2rd (316-345) *)
      if (a =? 0)%Z || (a =? WR)%Z then ABug
      else if write then (if (a =? 1)%Z then AGot WR else AFail) else AGot a
  else
    match (if write then try_idle true a else try_rd a) with
    | Some a => AGot a
    | None => AFail
    end.

(** The loop: counter, rest of the list, granted waiters in order, [exchanged]. *)
Fixpoint scanq (l : nat) (held_wr ex : bool) (a : Z) (q : list waiter) : option (Z * list waiter * list waiter * bool) :=
  match q with
  | [] => Some (a, [], [], ex)
  | w :: q' =>
    if negb (w_line w =? l) then
      match scanq l held_wr ex a q' with
      | Some (a, k, g, ex) => Some (a, w :: k, g, ex)
      | None => None
      end
    else
      match attempt held_wr ex (w_wr w) a with
      | ABug => None
      | AFail => Some (a, w :: q', [], ex)
      | AGot a =>
        match scanq l held_wr false a q' with
        | Some (a, k, g, ex) => Some (a, k, w :: g, ex)
        | None => None
        end
      end
  end.

(** 274-293 [ocf_alock_unlock_entry_wr], [ocf_alock_unlock_entry_rd]. *)
Definition release_entry (held_wr : bool) (a : Z) : option Z :=
  if held_wr then (if negb (a =? WR)%Z then None else Some 0%Z)
  else (if (a =? 0)%Z || (a =? WR)%Z then None else Some (a - 1)%Z).

(** 347-357 [ocf_alock_entry_locked] with the index mark. *)
Definition entry_locked (s : st) (r i : nat) : st :=
  let s := w_bits s (setb (bits s) r i true) in
  let v := (rem s r - 1)%Z in
  let s := w_rem s (setf (rem s) r v) in
  if (v =? 0)%Z then goto (w_resumed s (setf (resumed s) r (S (resumed s r)))) r Held else s.

Definition grants (s : st) (g : list waiter) : st := fold_left (fun s w => entry_locked s (w_req w) (w_idx w)) g s.

Section Alock.
(** [nb]: number of waiters lists (_WAITERS_LIST_ENTRIES); [wants]: the requests. *)
Variables (nb : nat) (wants : nat -> want).

Definition len (r : nat) : nat := length (lines (wants r)).
Definition line (r i : nat) : nat := nth i (lines (wants r)) 0.
Definition bucket (l : nat) : nat := l mod nb.

(** Release of line [l]: [ocf_alock_unlock_one_rd_common] / [_wr_common]. *)
Definition unlock_common (s : st) (l : nat) (held_wr : bool) : option st :=
  match scanq l held_wr true (access s l) (queue s (bucket l)) with
  | None => None
  | Some (a, k, g, ex) =>
    match (if ex then release_entry held_wr a else Some a) with
    | None => None
    | Some a =>
      let s := w_access s (setf (access s) l a) in
      let s := w_queue s (setf (queue s) (bucket l) k) in
      Some (grants s g)
    end
  end.

(** Delete the first waiter of the list that belongs to request [r] (669-677:
    only the request is compared). *)
Fixpoint del_first (r : nat) (q : list waiter) : list waiter :=
  match q with
  | [] => []
  | w :: q' => if w_req w =? r then q' else w :: del_first r q'
  end.

(** Release of index [i] by its owner, which then goes to [p]: unlock and clear the
    bit (one step, so the order of the two does not matter; the bit is read by the
    owner only). *)
Definition unlock_idx (s : st) (r i : nat) (p : phase) : option st :=
  unlock_common (goto (w_bits s (setb (bits s) r i false)) r p) (line r i) (wr (wants r)).

(** One step of request [r]; [oom]: the allocation of a waiter fails. *)
Definition step (r : nat) (oom : bool) (s : st) : out :=
  let w := wr (wants r) in
  match ph s r with
  | Fast i =>
    if i =? len r then Ok (goto (w_resumed s (setf (resumed s) r (S (resumed s r)))) r Held)
    else if bits s r i then Bug
    else
      let l := line r i in
      match try_idle w (access s l) with
      | Some a => Ok (goto (w_bits (w_access s (setf (access s) l a)) (setb (bits s) r i true)) r (Fast (S i)))
      | None => Ok (goto s r (Roll i))
      end
  | Roll 0 => Ok (goto s r (if tryonly (wants r) then Refused else SlowStart))
  | Roll (S i) =>
    if bits s r i then
      match unlock_idx s r i (Roll i) with Some s => Ok s | None => Bug end
    else Ok (goto s r (Roll i))
  | SlowStart =>
    match mutex s with
    | Some _ => Blocked
    | None =>
      if negb (rem s r =? 0)%Z then Bug
      else Ok (goto (w_rem (w_mutex s (Some r)) (setf (rem s) r (Z.of_nat (len r) + 1)%Z)) r (Slow 0))
    end
  | Slow i =>
    if i =? len r then
      let v := (rem s r - 1)%Z in
      let s := w_mutex (w_rem s (setf (rem s) r v)) None in
      if (v =? 0)%Z then Ok (goto (w_resumed s (setf (resumed s) r (S (resumed s r)))) r Held)
      else Ok (goto s r Wait)
    else if bits s r i then Bug
    else
      let l := line r i in
      match try_idle w (access s l) with
      | Some a => Ok (entry_locked (goto (w_access s (setf (access s) l a)) r (Slow (S i))) r i)
      | None => Ok (goto s r (SlowB i))
      end
  | SlowB i =>
    if oom then Ok (goto s r (Err (S i)))
    else
      let l := line r i in
      let q := queue s (bucket l) in
      let got :=
        if w then try_idle true (access s l)
        else if negb (existsb (fun x => w_line x =? l) q) then try_rd (access s l) else None in
      match got with
      | Some a => Ok (entry_locked (goto (w_access s (setf (access s) l a)) r (Slow (S i))) r i)
      | None =>
        let x := {| w_line := l; w_req := r; w_idx := i; w_wr := w |} in
        Ok (goto (w_queue s (setf (queue s) (bucket l) (q ++ [x]))) r (Slow (S i)))
      end
  | Err 0 => Ok (goto (w_mutex (w_rem s (setf (rem s) r 0%Z)) None) r Failed)
  | Err (S i) =>
    if bits s r i then
      match unlock_idx s r i (Err i) with Some s => Ok s | None => Bug end
    else
      let b := bucket (line r i) in
      Ok (goto (w_queue s (setf (queue s) b (del_first r (queue s b)))) r (Err i))
  | Wait => Blocked
  | Held => Ok (goto s r (Unlock 0))
  | Unlock i =>
    if i =? len r then Ok (goto s r Done)
    else if bits s r i then
      match unlock_idx s r i (Unlock (S i)) with Some s => Ok s | None => Bug end
    else Ok (goto s r (Unlock (S i)))
  | Done | Refused | Failed => Blocked
  end.

Definition init : st :=
  {| access := fun _ => 0%Z; queue := fun _ => []; mutex := None; ph := fun _ => Fast 0;
     bits := fun _ _ => false; rem := fun _ => 0%Z; resumed := fun _ => 0 |}.

(** A run: any interleaving; a blocked request does not move. *)
Fixpoint run (evs : list (nat * bool)) (s : st) : out :=
  match evs with
  | [] => Ok s
  | (r, oom) :: evs =>
    match step r oom s with
    | Ok s => run evs s
    | Blocked => run evs s
    | Bug => Bug
    end
  end.
End Alock.

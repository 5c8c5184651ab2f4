(** Hash bucket iteration of a request.

    Models /repo/src/metadata/metadata_misc.h:16-23 and
    /repo/src/concurrency/ocf_metadata_concurrency.c:388-459, plus the lock /
    unlock / upgrade loops of lines 461-520.

    32/64-bit wrap-around is written explicitly.  Simplified: the global
    metadata lock taken around the loops is not modelled. *)
From Coq Require Import NArith List Bool.
Import ListNotations.
Open Scope N_scope.

Definition u32 (x : N) : N := x mod 2^32.
Definition u64 (x : N) : N := x mod 2^64.

(** metadata_misc.h:16-23 [ocf_metadata_hash_func]: [core_id * (entries / 32)]
    is 32-bit arithmetic, the sum is 64-bit. *)
Definition hash_func (entries core_id core_line : N) : N :=
  u64 (core_line + u32 (core_id * (entries / 32))) mod entries.

(** What the macros read from a request: number of hash table entries, the
    request's core, its first core line and number of core lines
    (ocf_request.h [core_line_first], [core_line_count]). *)
Record hreq := { h_entries : N; h_core : N; h_first : N; h_count : N }.

(** ocf_request.c:428-437 [ocf_req_hash]: [map[i].hash]. *)
Definition map_hash (r : hreq) (i : N) : N :=
  hash_func (h_entries r) (h_core r) (h_first r + i).

(** ocf_metadata_concurrency.c:392-393 [_IS_MONOTONIC]. *)
Definition is_monotonic (r : hreq) : bool :=
  u32 (map_hash r 0 + h_count r) <=? h_entries r.
(** :396 [_MIN_HASH]. *)
Definition min_hash (r : hreq) : N := if is_monotonic r then map_hash r 0 else 0.
(** :399-401 [_MAX_HASH]. *)
Definition max_hash (r : hreq) : N :=
  if is_monotonic r then map_hash r (h_count r - 1) else h_entries r - 1.
(** :404 [_HASH_COUNT]. *)
Definition hash_count (r : hreq) : N := N.min (h_count r) (h_entries r).
(** :407 [_HAS_GAP]. *)
Definition has_gap (r : hreq) : bool :=
  hash_count r <? max_hash r - min_hash r + 1.
(** :410 [_GAP_VAL]. *)
Definition gap_val (r : hreq) : N := (max_hash r - min_hash r + 1) - hash_count r.
(** :413 [_GAP_START]. *)
Definition gap_start (r : hreq) : N := map_hash r (h_count r - 1).
(** :416-417 [_HASH_NEXT]. *)
Definition hash_next (r : hreq) (h : N) : N :=
  u32 (h + 1 + (if has_gap r && (h =? gap_start r) then gap_val r else 0)).

(** :434-436 [for_each_req_hash_asc]: the list of visited values; [None] when
    the loop did not end within [fuel] iterations. *)
Fixpoint hash_loop (r : hreq) (fuel : nat) (h : N) : option (list N) :=
  match fuel with
  | O => None
  | S f =>
      if h <=? max_hash r then
        match hash_loop r f (hash_next r h) with
        | Some l => Some (h :: l)
        | None => None
        end
      else Some []
  end.

Definition for_each_req_hash_asc (r : hreq) : option (list N) :=
  hash_loop r (N.to_nat (h_entries r + 1)) (min_hash r).

(** :444-459 [ocf_req_hash_in_range]. *)
Definition req_hash_in_range (r : hreq) (core_id core_line : N) : bool :=
  let hash := hash_func (h_entries r) core_id core_line in
  if negb (has_gap r) then (min_hash r <=? hash) && (hash <=? max_hash r)
  else ((min_hash r <=? hash) && (hash <=? gap_start r))
       || ((gap_start r + gap_val r <? hash) && (hash <=? max_hash r)).

(** ** Lock protocol of concurrent requests

    Each request executes a list of phases; a phase locks its buckets in the
    order of [for_each_req_hash_asc] with one mode and afterwards unlocks them
    in the same order:
    [ocf_hb_req_prot_lock_rd] + [.._unlock_rd] (:461-483), [.._lock_wr] +
    [.._unlock_wr] (:485-494, :510-520), and [.._lock_upgrade] (:496-508), which
    is the end of a read phase followed by a write phase. *)
Inductive rw := RD | WR.

Record phase := { ph_mode : rw; ph_buckets : list N }.

(** State of a request inside its current phase: buckets still to be locked,
    buckets held, and the remaining phases. *)
Record proc := { p_mode : rw; p_todo : list N; p_held : list N; p_rest : list phase }.

Definition start_proc (l : list phase) : proc :=
  match l with
  | [] => {| p_mode := RD; p_todo := []; p_held := []; p_rest := [] |}
  | ph :: l => {| p_mode := ph_mode ph; p_todo := ph_buckets ph; p_held := []; p_rest := l |}
  end.

Definition finished (p : proc) : bool :=
  match p_todo p, p_held p, p_rest p with [], [], [] => true | _, _, _ => false end.

(** A rwsem can be taken by [p] for bucket [b] when no other request holds it in a
    conflicting mode (env_rwsem_down_read / env_rwsem_down_write). *)
Definition conflicts (m : rw) (b : N) (q : proc) : bool :=
  existsb (N.eqb b) (p_held q) &&
  match m, p_mode q with RD, RD => false | _, _ => true end.

(** One step of process [p] among the others: lock the next bucket, or when all
    buckets of the phase are locked unlock the first held one, or enter the next
    phase.  [None]: [p] has to wait or is finished. *)
Definition proc_step (others : list proc) (p : proc) : option proc :=
  match p_todo p with
  | b :: t =>
      if existsb (conflicts (p_mode p) b) others then None
      else Some {| p_mode := p_mode p; p_todo := t; p_held := p_held p ++ [b];
                   p_rest := p_rest p |}
  | [] =>
      match p_held p with
      | _ :: h =>
          match h with
          | [] => Some (start_proc (p_rest p))
          | _ => Some {| p_mode := p_mode p; p_todo := []; p_held := h; p_rest := p_rest p |}
          end
      | [] => match p_rest p with [] => None | _ => Some (start_proc (p_rest p)) end
      end
  end.

(** The whole system: request number [i] makes a step. *)
Definition sys_step (s : list proc) (i : nat) : option (list proc) :=
  match nth_error s i with
  | None => None
  | Some p =>
      match proc_step (firstn i s ++ skipn (S i) s) p with
      | None => None
      | Some p' => Some (firstn i s ++ p' :: skipn (S i) s)
      end
  end.

Inductive sys_reach (s0 : list proc) : list proc -> Prop :=
| sr_init : sys_reach s0 s0
| sr_step s i s' : sys_reach s0 s -> sys_step s i = Some s' -> sys_reach s0 s'.

(** Occupancy counters: cached and dirty cache lines per core and per core and I/O class.

    Models utils_cache_line.c, ocf_user_part_move (utils_user_part.c), ocf_lru_invalidate (ocf_lru.c),
    the mapping of lines (engine_common.c), ocf_metadata_sparse_cache_line (metadata_misc.c) and the
    rebuilding of the counters at recovery (ocf_mngt_cache.c), on the sector bitmaps of BitsModel.

    All of these run under the metadata lock of the line, so each is one step.  [busy] is a ghost flag:
    the request that mapped the line holds its write lock and has neither filled nor given it up.
    Simplified: counters are integers (C: 32-bit), LRU, collision and cleaning lists are not part of this
    file.  [None] is ENV_BUG. *)
From Coq Require Import NArith ZArith List Bool Arith.
From Verif Require Import BitsModel.
Import ListNotations.
Open Scope nat_scope.

Record line := { core : option nat; part : nat; vb : N; db : N; busy : bool }.
Record cache := { ln : nat -> line; cc : nat -> Z; dc : nat -> Z; cp : nat -> nat -> Z; dp : nat -> nat -> Z }.

Definition upd {A} (f : nat -> A) (x : nat) (v : A) : nat -> A := fun y => if y =? x then v else f y.
Definition add1 (f : nat -> Z) (c : nat) (d : Z) : nat -> Z := upd f c (f c + d)%Z.
Definition add2 (f : nat -> nat -> Z) (c p : nat) (d : Z) : nat -> nat -> Z := upd f c (add1 (f c) p d).
Definition with_line (s : cache) (l : nat) (x : line) : cache := {| ln := upd (ln s) l x; cc := cc s; dc := dc s; cp := cp s; dp := dp s |}.
(** Both counters of cached lines, both of dirty lines *)
Definition cached (s : cache) (c p : nat) (d : Z) : cache := {| ln := ln s; cc := add1 (cc s) c d; dc := dc s; cp := add2 (cp s) c p d; dp := dp s |}.
Definition dirtied (s : cache) (c p : nat) (d : Z) : cache := {| ln := ln s; cc := cc s; dc := add1 (dc s) c d; cp := cp s; dp := add2 (dp s) c p d |}.

(** __set_cache_line_invalid (utils_cache_line.c:10-43); [waiters]: ocf_cache_line_are_waiters *)
Definition set_invalid (w : N) (l : nat) (start stop : N) (waiters : bool) (s : cache) : option cache :=
  let x := ln s l in
  match core x with
  | None => None
  | Some c =>
    match clear_valid_sec_changed w (vb x) start stop with
    | None => None
    | Some (became_invalid, remains, v) =>
      let s := with_line s l {| core := core x; part := part x; vb := v; db := db x; busy := false |} in
      if remains then (if became_invalid then None else Some s)
      else if waiters then Some s
      else
        let s := with_line s l {| core := None; part := part x; vb := v; db := db x; busy := false |} in
        if became_invalid then Some (cached s c (part x) (-1)) else Some s
    end
  end.

(** set_cache_line_valid (utils_cache_line.c:76-90) *)
Definition set_valid (w : N) (l : nat) (start stop : N) (s : cache) : option cache :=
  let x := ln s l in
  match core x, set_valid_sec_changed w (vb x) start stop with
  | Some c, Some (changed, v) =>
    let s := with_line s l {| core := core x; part := part x; vb := v; db := db x; busy := false |} in
    Some (if changed then cached s c (part x) 1 else s)
  | _, _ => None
  end.

(** set_cache_line_clean (utils_cache_line.c:92-132) *)
Definition set_clean (w : N) (l : nat) (start stop : N) (s : cache) : option cache :=
  let x := ln s l in
  match core x, clear_dirty_sec_changed w (db x) start stop with
  | Some c, Some (changed, clean, d) =>
    let s := with_line s l {| core := core x; part := part x; vb := vb x; db := d; busy := busy x |} in
    Some (if changed && clean then dirtied s c (part x) (-1) else s)
  | _, _ => None
  end.

(** set_cache_line_dirty (utils_cache_line.c:134-174) *)
Definition set_dirty (w : N) (l : nat) (start stop : N) (s : cache) : option cache :=
  let x := ln s l in
  match core x, set_dirty_sec_changed w (db x) start stop with
  | Some c, Some (changed, was, d) =>
    let s := with_line s l {| core := core x; part := part x; vb := vb x; db := d; busy := busy x |} in
    Some (if changed && negb was then dirtied s c (part x) 1 else s)
  | _, _ => None
  end.

Definition bind {A B} (x : option A) (f : A -> option B) : option B := match x with Some x => f x | None => None end.

(** _ocf_purge_cache_line_sec (utils_cache_line.h:154-162) *)
Definition purge (w : N) (l : nat) (start stop : N) (waiters : bool) (s : cache) : option cache :=
  bind (set_clean w l start stop s) (set_invalid w l start stop waiters).

(** A write-back write: ocf_set_valid_map_info, ocf_set_dirty_map_info (engine_wb.c:25-49) *)
Definition write_dirty (w : N) (l : nat) (start stop : N) (s : cache) : option cache :=
  bind (set_valid w l start stop s) (set_dirty w l start stop).

(** ocf_map_cache_line (engine_common.c:310-330) of a line that was moved to class p *)
Definition map_line (l c p : nat) (s : cache) : cache :=
  let x := ln s l in with_line s l {| core := Some c; part := p; vb := vb x; db := db x; busy := true |}.

(** ocf_lru_req_clines with ocf_lru_invalidate (ocf_lru.c:654-673, 720-745): class [part x] to p *)
Definition evict (w : N) (l c p : nat) (s : cache) : option cache :=
  let x := ln s l in
  match core x, bit_clear w (vb x) 0 (w - 1) with
  | Some c0, Some (_, v) =>
    let s := with_line s l {| core := None; part := p; vb := v; db := db x; busy := false |} in
    Some (map_line l c p (cached s c0 (part x) (-1)))
  | _, _ => None
  end.

(** ocf_user_part_move (utils_user_part.c:96-166), one line *)
Definition move (l p : nat) (s : cache) : option cache :=
  let x := ln s l in
  match core x with
  | None => None
  | Some c =>
    if part x =? p then Some s
    else
      let s := with_line s l {| core := core x; part := p; vb := vb x; db := db x; busy := busy x |} in
      let s := if (db x =? 0)%N then s
               else {| ln := ln s; cc := cc s; dc := dc s; cp := cp s; dp := add2 (add2 (dp s) c p 1) c (part x) (-1) |} in
      Some {| ln := ln s; cc := cc s; dc := dc s; cp := add2 (add2 (cp s) c p 1) c (part x) (-1); dp := dp s |}
  end.

(** ocf_metadata_sparse_cache_line (metadata_misc.c:22-37) *)
Definition sparse (w : N) (l : nat) (waiters : bool) (s : cache) : option cache :=
  bind (set_invalid w l 0 (w - 1) waiters s) (fun s =>
  let x := ln s l in
  match bit_clear w (db x) 0 (w - 1) with
  | None => None
  | Some (_, d) => Some (with_line s l {| core := core x; part := part x; vb := vb x; db := d; busy := busy x |})
  end).

(** Recovery, ocf_mngt_rebuild_metadata_handle for one line (ocf_mngt_cache.c:592-629):
    clean sectors are dropped, lines without dirty sectors become free *)
Definition rebuild_line (w : N) (x : line) : option line :=
  match bit_clear_valid_if_clean w (vb x) (db x) 0 (w - 1) with
  | None => None
  | Some (any, v) =>
    match core x with
    | Some c => Some (if any then {| core := Some c; part := 0; vb := v; db := db x; busy := false |}
                      else {| core := None; part := part x; vb := 0; db := 0; busy := false |})
    | None => Some {| core := None; part := part x; vb := 0; db := 0; busy := false |}
    end
  end.
Fixpoint rebuild_lines (w : N) (n : nat) (s : cache) : option cache :=
  match n with
  | 0 => Some s
  | S n => bind (rebuild_lines w n s) (fun s =>
           bind (rebuild_line w (ln s n)) (fun x =>
           let s := with_line s n x in
           Some (match core x with
                 | Some c => dirtied (cached s c 0 1) c 0 1
                 | None => s
                 end)))
  end.
(** _reset_stats, then the lines are counted per core (ocf_mngt_cache.c:287-309, 631-660) *)
Definition recover (w : N) (n : nat) (s : cache) : option cache :=
  rebuild_lines w n {| ln := ln s; cc := fun _ => 0%Z; dc := fun _ => 0%Z; cp := fun _ _ => 0%Z; dp := fun _ _ => 0%Z |}.

(** ** Histories *)

(** Steps of requests and management on line l.
    Map, Evict: a request of core c and class p gets a free line, or a line from another one
    (clean, nobody waits for it, not locked: ocf_lru.c:407-438).
    Fill: sectors become valid (backfill, write-through write).  Write: write-back write.
    Clean: cleaner or write-through over dirty data.  Purge: invalidation of a range by a request
    (write-invalidate, discard, error handling).  Abort: mapping undone (engine_common.c:332-373).
    Sparse: ocf_mngt_cache_purge and removing a core, after flushing.  Move: another class. *)
Inductive event :=
| Map (l c p : nat) | Evict (l c p : nat) | Fill (l : nat) (start stop : N) | Write (l : nat) (start stop : N)
| Clean (l : nat) (start stop : N) | Purge (l : nat) (start stop : N) (waiters : bool) | Abort (l : nat) (waiters : bool)
| Sparse (l : nat) (waiters : bool) | Move (l p : nat) | Recover.

Definition mapped (s : cache) (l : nat) : bool := match core (ln s l) with Some _ => true | None => false end.
(** Lock discipline; events that it excludes do nothing *)
Definition allowed (w : N) (n : nat) (e : event) (s : cache) : bool :=
  let range a b := (a <=? b)%N && (b <? w)%N in
  match e with
  | Map l _ _ => (l <? n) && negb (mapped s l)
  | Evict l _ _ => (l <? n) && mapped s l && negb (busy (ln s l)) && (db (ln s l) =? 0)%N
  | Fill l a b | Write l a b => (l <? n) && mapped s l && range a b
  | Clean l a b => (l <? n) && mapped s l && negb (busy (ln s l)) && range a b
  | Purge l a b _ => (l <? n) && mapped s l && range a b
  | Abort l _ => (l <? n) && mapped s l && busy (ln s l)
  | Sparse l _ => (l <? n) && mapped s l && negb (busy (ln s l)) && (db (ln s l) =? 0)%N
  | Move l _ => (l <? n) && mapped s l && negb (busy (ln s l))
  | Recover => true
  end.
Definition do_event (w : N) (n : nat) (e : event) (s : cache) : option cache :=
  match e with
  | Map l c p => Some (map_line l c p s)
  | Evict l c p => evict w l c p s
  | Fill l a b => set_valid w l a b s
  | Write l a b => write_dirty w l a b s
  | Clean l a b => set_clean w l a b s
  | Purge l a b wt => purge w l a b wt s
  | Abort l wt => set_invalid w l 0 (w - 1) wt s
  | Sparse l wt => sparse w l wt s
  | Move l p => move l p s
  | Recover => recover w n s
  end.
Definition step (w : N) (n : nat) (e : event) (s : cache) : option cache := if allowed w n e s then do_event w n e s else Some s.
Fixpoint run (w : N) (n : nat) (es : list event) (s : cache) : option cache :=
  match es with [] => Some s | e :: es => bind (step w n e s) (run w n es) end.
(** A new cache: all lines free *)
Definition init : cache :=
  {| ln := fun _ => {| core := None; part := 0; vb := 0; db := 0; busy := false |}; cc := fun _ => 0%Z; dc := fun _ => 0%Z; cp := fun _ _ => 0%Z; dp := fun _ _ => 0%Z |}.

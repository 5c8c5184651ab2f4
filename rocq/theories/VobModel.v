(** Volume objects: ocf_volume.c:90-272, 446-490, the core pool (mngt/ocf_mngt_core_pool.c) and what
    loading a cache, changing a core's UUID and removing a core do with the core's volume
    (mngt/ocf_mngt_cache.c:419-455, mngt/ocf_mngt_core.c:52-104, 907-942, mngt/ocf_mngt_common.c:22-34).
    A volume is a structure at a place (a number); heap blocks are numbers too.  Calls of the
    environment that may fail are arguments.  Simplified: the name and statistics, volume->cache and
    volume->features are left out; ocf_volume_close waits for the I/O in flight, so no reference is left
    when it ends. *)
From Coq Require Import List Bool Arith NArith Lia.
Import ListNotations.

(** struct ocf_volume_properties: which of the optional hooks exist (inc/ocf_volume.h:158-174), and an
    identity to compare types *)
Record ty := { tid : nat; has_init : bool; has_deinit : bool }.

(** volume->uuid.data: a copy owned by the volume, memory of somebody else, or NULL *)
Inductive ptr := Null | Own (b : nat) | Ext (k : nat).

(** struct ocf_volume, ocf_volume_priv.h:24-40.  [box]: the block of the structure if it was allocated
    by ocf_volume_create; [copied]: the bytes in the owned copy; [cnt]: env_refcnt initialised;
    [frozen]: freeze counter, [refs]: references. *)
Record volume := {
  box : option nat; opened : bool; vty : option ty; uuid : ptr; usize : nat; copied : list N; ucopy : bool;
  priv : option nat; cnt : bool; frozen : nat; refs : nat }.
Definition zeroed : volume :=
  {| box := None; opened := false; vty := None; uuid := Null; usize := 0; copied := []; ucopy := false; priv := None; cnt := false; frozen := 0; refs := 0 |}.

Inductive fault := BadFree | UseAfterFree | NullType | BadCount | Assert.
Inductive hook := OnInit (p : nat) | OnDeinit (p : nat) | Opened (p : nat) | Closed (p : nat).
Record st := {
  vol : nat -> volume; live : list nat; fresh : nat; faults : list fault; hooks : list hook; ext : nat -> option (list N) }.

Definition upd {A} (f : nat -> A) (i : nat) (a : A) : nat -> A := fun j => if i =? j then a else f j.
Definition put (v : nat) (x : volume) (s : st) : st :=
  {| vol := upd (vol s) v x; live := live s; fresh := fresh s; faults := faults s; hooks := hooks s; ext := ext s |}.
Definition fail (f : fault) (s : st) : st :=
  {| vol := vol s; live := live s; fresh := fresh s; faults := faults s ++ [f]; hooks := hooks s; ext := ext s |}.
Definition call (h : hook) (s : st) : st :=
  {| vol := vol s; live := live s; fresh := fresh s; faults := faults s; hooks := hooks s ++ [h]; ext := ext s |}.
Definition alloc (s : st) : nat * st :=
  (fresh s, {| vol := vol s; live := fresh s :: live s; fresh := S (fresh s); faults := faults s; hooks := hooks s; ext := ext s |}).
Definition free_block (b : nat) (s : st) : st :=
  if existsb (Nat.eqb b) (live s)
  then {| vol := vol s; live := remove Nat.eq_dec b (live s); fresh := fresh s; faults := faults s; hooks := hooks s; ext := ext s |}
  else fail BadFree s.
Definition free_opt (b : option nat) (s : st) : st := match b with Some b => free_block b s | None => s end.
(** env_vfree of the uuid data *)
Definition free_ptr (p : ptr) (s : st) : st :=
  match p with Null => s | Own b => free_block b s | Ext _ => fail BadFree s end.

Definition set_ext (k : nat) (c : option (list N)) (s : st) : st :=
  {| vol := vol s; live := live s; fresh := fresh s; faults := faults s; hooks := hooks s; ext := upd (ext s) k c |}.

(** OCF_VOLUME_UUID_MAX_SIZE, inc/ocf_volume.h:23: 4096 - sizeof(uint32_t) *)
Definition UUID_MAX := 4092%N.

(** the error path of ocf_volume_init, ocf_volume.c:154-165, from each label on *)
Definition with_priv (x : volume) (p : option nat) : volume :=
  {| box := box x; opened := opened x; vty := vty x; uuid := uuid x; usize := usize x; copied := copied x; ucopy := ucopy x; priv := p; cnt := cnt x; frozen := frozen x; refs := refs x |}.
Definition with_uuid (x : volume) (u : ptr) (n : nat) (c : list N) (own : bool) : volume :=
  {| box := box x; opened := opened x; vty := vty x; uuid := u; usize := n; copied := c; ucopy := own; priv := priv x; cnt := cnt x; frozen := frozen x; refs := refs x |}.
Definition with_cnt (x : volume) (c : bool) (f r : nat) : volume :=
  {| box := box x; opened := opened x; vty := vty x; uuid := uuid x; usize := usize x; copied := copied x; ucopy := ucopy x; priv := priv x; cnt := c; frozen := f; refs := r |}.
Definition err1 (v p : nat) (s : st) : st := put v (with_priv (vol s v) None) (free_block p s).
Definition err2 (v p : nat) (s : st) : st := err1 v p (put v (with_cnt (vol s v) false (frozen (vol s v) - 1) (refs (vol s v))) s).
Definition err3 (v p : nat) (s : st) : st :=
  err2 v p (put v (with_uuid (vol s v) Null 0 [] (ucopy (vol s v))) (if ucopy (vol s v) then free_ptr (uuid (vol s v)) s else s)).

(** ocf_volume_init, ocf_volume.c:90-166.  u: uuid->data and uuid->size, or no uuid; the four booleans:
    env_zalloc of priv, env_refcnt_init, env_vmalloc of the copy, on_init.  The result: 0 or an error.
    env_memcpy of equal sizes does not fail.  First up to the counter (90-118), then the copy of the
    uuid (123-144), then the hook (146-150). *)
Definition init_head (v p : nat) (t : ty) (s : st) : st :=
  let x := vol s v in
  put v {| box := box x; opened := false; vty := Some t; uuid := Null; usize := 0; copied := []; ucopy := false; priv := Some p; cnt := cnt x; frozen := frozen x; refs := refs x |} s.
Definition init_hook (v p : nat) (t : ty) (okh : bool) (s : st) : bool * st :=
  if has_init t then if okh then (true, call (OnInit p) s) else (false, err3 v p s) else (true, s).
Definition init_uuid (v p : nat) (t : ty) (k n : nat) (copy okm okh : bool) (s : st) : bool * st :=
  if copy then
    if negb okm then (false, err2 v p (put v (with_uuid (vol s v) Null 0 [] true) s))
    else let (b, s) := alloc s in
         match ext s k with
         | None => (false, fail UseAfterFree s)
         | Some c => init_hook v p t okh (put v (with_uuid (vol s v) (Own b) n (firstn n c) true) s)
         end
  else init_hook v p t okh (put v (with_uuid (vol s v) (Ext k) n [] false) s).
Definition volume_init (v : nat) (t : option ty) (u : option (nat * nat)) (copy : bool) (okp okc okm okh : bool) (s : st) : bool * st :=
  match t with
  | None => (false, s)
  | Some t =>
      if (match u with Some (_, n) => (UUID_MAX <? N.of_nat n)%N | None => false end) then (false, s)
      else if negb okp then (false, s)
      else
        let (p, s) := alloc s in
        let s := init_head v p t s in
        if negb okc then (false, err1 v p s)
        else
          let s := put v (with_cnt (vol s v) true 1 0) s in
          match u with
          | None => (true, s)
          | Some (k, n) => init_uuid v p t k n copy okm okh s
          end
  end.

(** ocf_volume_deinit, ocf_volume.c:168-185 *)
Definition volume_deinit (v : nat) (s : st) : st :=
  let x := vol s v in
  let s := match vty x, priv x with
           | Some t, Some p => if has_deinit t then call (OnDeinit p) s else s
           | _, _ => s
           end in
  let s := free_opt (priv x) s in
  let s := if cnt x then s else fail BadCount s in
  let del := ucopy x && match uuid x with Null => false | _ => true end in
  let s := if del then free_ptr (uuid x) s else s in
  put v {| box := box x; opened := opened x; vty := None; uuid := if del then Null else uuid x; usize := if del then 0 else usize x;
           copied := if del then [] else copied x; ucopy := ucopy x; priv := None; cnt := false; frozen := frozen x; refs := refs x |} s.

(** ocf_volume_move, ocf_volume.c:187-216 *)
Definition volume_move (v from : nat) (s : st) : st :=
  let x := vol s v in
  let y := vol s from in
  if negb (refs x =? 0) || negb (refs y =? 0) then fail Assert s
  else
    let s := free_opt (priv x) s in
    let s := if ucopy x then free_ptr (uuid x) s else s in
    let s := put v {| box := box x; opened := opened y; vty := vty y; uuid := uuid y; usize := usize y; copied := copied y; ucopy := ucopy y; priv := priv y; cnt := cnt x; frozen := frozen x; refs := refs x |} s in
    put from {| box := box y; opened := false; vty := None; uuid := Null; usize := usize y; copied := []; ucopy := ucopy y; priv := None; cnt := cnt y; frozen := frozen y; refs := refs y |} s.

(** ocf_volume_create and ocf_volume_destroy, ocf_volume.c:218-247 *)
Definition volume_create (v : nat) (t : option ty) (u : option (nat * nat)) (oks okp okc okm okh : bool) (s : st) : bool * st :=
  if negb oks then (false, s)
  else
    let (b, s) := alloc s in
    let s := put v {| box := Some b; opened := false; vty := None; uuid := Null; usize := 0; copied := []; ucopy := false; priv := None; cnt := false; frozen := 0; refs := 0 |} s in
    let (r, s) := volume_init v t u true okp okc okm okh s in
    if r then (true, s) else (false, put v zeroed (free_block b s)).
Definition volume_destroy (v : nat) (s : st) : st :=
  let s := volume_deinit v s in
  put v zeroed (free_opt (box (vol s v)) s).

(** ocf_volume_set_uuid, ocf_volume.c:263-272 *)
Definition volume_set_uuid (v k n : nat) (s : st) : st :=
  let x := vol s v in
  let s := if ucopy x then free_ptr (uuid x) s else s in
  put v {| box := box x; opened := opened x; vty := vty x; uuid := Ext k; usize := n; copied := []; ucopy := ucopy x; priv := priv x; cnt := cnt x; frozen := frozen x; refs := refs x |} s.

(** ocf_volume_open, ocf_volume.c:446-462, ocf_volume_close, 472-490 *)
Definition set_open (o : bool) (f : nat) (x : volume) : volume :=
  {| box := box x; opened := o; vty := vty x; uuid := uuid x; usize := usize x; copied := copied x; ucopy := ucopy x; priv := priv x; cnt := cnt x; frozen := f; refs := refs x |}.
Definition volume_open (v : nat) (ok : bool) (s : st) : bool * st :=
  let x := vol s v in
  if opened x then (false, s)
  else match vty x, priv x with
       | Some _, Some p => if ok then (true, put v (set_open true (frozen x - 1) x) (call (Opened p) s)) else (false, s)
       | _, _ => (false, fail NullType s)
       end.
Definition volume_close (v : nat) (s : st) : st :=
  let x := vol s v in
  match vty x, priv x with
  | Some _, Some p => if opened x then put v (set_open false (S (frozen x)) x) (call (Closed p) s) else s
  | _, _ => fail NullType s
  end.

(** ocf_io_new can take a reference of the volume, ocf_io.c:86 *)
Definition can_submit (x : volume) : bool := opened x && (frozen x =? 0).

(** the bytes of a uuid; None: its memory is gone *)
Definition uuid_bytes (s : st) (x : volume) : option (list N) :=
  match uuid x with Null => None | Own _ => Some (copied x) | Ext k => match ext s k with Some c => Some (firstn (usize x) c) | None => None end end.
(** env_memcmp, env/posix/ocf_env.h:98-101: compares the shorter length *)
Fixpoint prefix_eq (a b : list N) : bool :=
  match a, b with x :: a, y :: b => N.eqb x y && prefix_eq a b | _, _ => true end.

(** The core pool (mngt/ocf_mngt_core_pool.c): the volumes in it, newest first, and their number *)
Record pool := { items : list nat; count : nat }.
(** ocf_mngt_core_pool_add, 30-58 *)
Definition pool_add (v : nat) (t : option ty) (u : nat * nat) (oks okp okc okm okh oko : bool) (p : pool) (s : st) : bool * pool * st :=
  match t with
  | None => (false, p, s)
  | Some _ =>
      let (r, s) := volume_create v t (Some u) oks okp okc okm okh s in
      if negb r then (false, p, s)
      else let (r, s) := volume_open v oko s in
           if r then (true, {| items := v :: items p; count := S (count p) |}, s)
           else (false, p, volume_destroy v s)
  end.
(** ocf_mngt_core_pool_lookup, 80-105 *)
Fixpoint lookup_in (l : list nat) (id : nat) (u : list N) (s : st) : option nat :=
  match l with
  | [] => None
  | v :: l => match vty (vol s v), uuid_bytes s (vol s v) with
              | Some t, Some c => if (tid t =? id) && prefix_eq c u then Some v else lookup_in l id u s
              | _, _ => lookup_in l id u s
              end
  end.
Definition pool_lookup (p : pool) (id : nat) (u : list N) (s : st) : option nat := lookup_in (items p) id u s.
(** ocf_mngt_core_pool_remove, 107-116 *)
Definition pool_remove (v : nat) (p : pool) (s : st) : pool * st :=
  ({| items := remove Nat.eq_dec v (items p); count := count p - 1 |}, volume_destroy v s).

(** ocf_mngt_core_pool_deinit, 118-130 *)
Definition pool_deinit (p : pool) (s : st) : pool * st :=
  fold_left (fun ps v => pool_remove v (fst ps) (volume_close v (snd ps))) (items p) (p, s).

(** A core found while loading, mngt/ocf_mngt_cache.c:419-461: its volume is initialised with the uuid
    in the metadata (memory m, not copied) and then taken from the pool, or opened, or left inactive.
    ocf_volume_move is called with the pool's volume frozen. *)
Definition load_core (v : nat) (t : ty) (m n : nat) (okp okc okh try_open oko : bool) (p : pool) (s : st) : bool * pool * st :=
  let (r, s) := volume_init v (Some t) (Some (m, n)) false okp okc true okh s in
  if negb r then (false, p, s)
  else match uuid_bytes s (vol s v) with
       | None => (false, p, fail UseAfterFree s)
       | Some u => match pool_lookup p (tid t) u s with
                   | Some w => let s := volume_move v w s in
                               let (p, s) := pool_remove w p s in (true, p, s)
                   | None => if try_open then (true, p, snd (volume_open v oko s)) else (true, p, s)
                   end
       end.

(** ocf_mngt_core_set_uuid, mngt/ocf_mngt_core.c:907-942, with _ocf_uuid_set, 52-78: the caller's memory
    is k, n bytes long, the metadata of the core is at m *)
Definition core_set_uuid (v m k n : nat) (s : st) : bool * st :=
  match uuid_bytes s (vol s v), ext s k with
  | Some old, Some new =>
      if prefix_eq old (firstn n new) then (true, s)
      else if (UUID_MAX <? N.of_nat n)%N then (false, s)
      else (true, volume_set_uuid v k n (set_ext m (Some (firstn n new)) s))
  | _, _ => (false, fail UseAfterFree s)
  end.
(** ocf_mngt_core_clear_uuid_metadata, mngt/ocf_mngt_core.c:99-104: a uuid without data, which
    _ocf_uuid_set refuses (57-58) *)
Definition core_clear_uuid (m : nat) (data : option (list N)) (s : st) : st :=
  match data with None => s | Some c => set_ext m (Some c) s end.

(** cache_mngt_core_deinit, mngt/ocf_mngt_common.c:22-34, of the bottom volume *)
Definition core_deinit (v : nat) (s : st) : st := volume_deinit v (volume_close v s).

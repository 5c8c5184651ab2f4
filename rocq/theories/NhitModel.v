(** The n-hit promotion policy: /repo/src/promotion/nhit/nhit.c and nhit_hash.c.

    Array indices (slots of the ring buffer, buckets) are natural numbers; core lines and core
    ids are binary numbers.  The operations on one core line run without interference
    (simplified: the code takes read/write semaphores of buckets; the steps query and insert
    are separate functions here as there).  Memory allocation is left out. *)
From Coq Require Import List Bool NArith Arith.
Import ListNotations.
Open Scope N_scope.

Definition M32 := 4294967296%N.
Definition M64 := 18446744073709551616%N.

(** A core line: core id and core_lba. *)
Definition key := (N * N)%type.
Definition keyb (a b : key) : bool := (fst a =? fst b) && (snd a =? snd b).

(** struct nhit_list_elem (nhit_hash.c:88-96); [owner] is core_id and core_lba, [None] for
    OCF_CORE_ID_INVALID.  The counter is shown as its 32 bits. *)
Record elem := { owner : option key; counter : N; coll_prev : nat; coll_next : nat; valid : bool }.

(** struct nhit_hash (nhit_hash.c:98-108) *)
Record nh := { hash_map : nat -> nat; ring : nat -> elem; rb_pointer : nat }.

(** HASH_PRIME and calculate_hash_buckets (nhit_hash.c:86, 110-113) *)
Definition HASH_PRIME : N := 4099.
Definition calculate_hash_buckets (hash_size : N) : N :=
  (((hash_size / 4 + HASH_PRIME - 1) / HASH_PRIME) * HASH_PRIME + M64 - 1) mod M64.

(** hash_function (nhit_hash.c:216-223) for a valid core id *)
Definition hash_function (limit : nat) (k : key) : nat :=
  N.to_nat (((snd k * HASH_PRIME + fst k) mod M64) mod N.of_nat limit).

(** nhit_hash_init (nhit_hash.c:130-200); env_vzalloc clears the elements. *)
Definition nhit_hash_init (n : nat) : nh :=
  {| hash_map := fun _ => n;
     ring := fun _ => {| owner := None; counter := 0; coll_prev := 0; coll_next := 0; valid := true |};
     rb_pointer := 0 |}.

Definition upd {A} (f : nat -> A) (x : nat) (v : A) : nat -> A := fun y => if Nat.eqb y x then v else f y.
Definition set_next x (e : elem) := {| owner := owner e; counter := counter e; coll_prev := coll_prev e; coll_next := x; valid := valid e |}.
Definition set_prev x (e : elem) := {| owner := owner e; counter := counter e; coll_prev := x; coll_next := coll_next e; valid := valid e |}.
Definition set_counter c (e : elem) := {| owner := owner e; counter := c; coll_prev := coll_prev e; coll_next := coll_next e; valid := valid e |}.
Definition set_owner o (e : elem) := {| owner := o; counter := counter e; coll_prev := coll_prev e; coll_next := coll_next e; valid := valid e |}.
Definition set_valid b (e : elem) := {| owner := owner e; counter := counter e; coll_prev := coll_prev e; coll_next := coll_next e; valid := b |}.
Definition set_ring r (s : nh) := {| hash_map := hash_map s; ring := r; rb_pointer := rb_pointer s |}.

(** core_line_lookup (nhit_hash.c:225-245): the loop; [n] is rb_entries and stands for "none".
    [None]: the loop did not end within the fuel. *)
Fixpoint lookup_loop (fuel n : nat) (s : nh) (k : key) (cur : nat) : option nat :=
  match fuel with
  | O => None
  | S fuel =>
    if Nat.eqb cur n then Some n
    else if match owner (ring s cur) with Some o => keyb o k | None => false end then Some cur
    else lookup_loop fuel n s k (coll_next (ring s cur))
  end.
Definition core_line_lookup (n H : nat) (s : nh) (k : key) : option nat :=
  lookup_loop (S n) n s k (hash_map s (hash_function H k)).

(** get_rb_slot (nhit_hash.c:247-265): the slot, its former valid flag and the new state *)
Definition get_rb_slot (n : nat) (s : nh) : nat * bool * nh :=
  let slot := rb_pointer s in
  (slot, valid (ring s slot),
   {| hash_map := hash_map s; ring := upd (ring s) slot (set_valid false (ring s slot)); rb_pointer := (slot + 1) mod n |}).

(** commit_rb_slot (nhit_hash.c:267-274) *)
Definition commit_rb_slot (slot : nat) (s : nh) : nh := set_ring (upd (ring s) slot (set_valid true (ring s slot))) s.

(** collision_remove (nhit_hash.c:276-295) *)
Definition collision_remove (n H : nat) (slot : nat) (s : nh) : nh :=
  match owner (ring s slot) with
  | None => s
  | Some o =>
    let hash := hash_function H o in
    let s := set_ring (upd (ring s) slot (set_owner None (ring s slot))) s in
    let p := coll_prev (ring s slot) in
    let s := if Nat.eqb p n then s
             else set_ring (upd (ring s) p (set_next (coll_next (ring s slot)) (ring s p))) s in
    let x := coll_next (ring s slot) in
    let s := if Nat.eqb x n then s
             else set_ring (upd (ring s) x (set_prev (coll_prev (ring s slot)) (ring s x))) s in
    if Nat.eqb (hash_map s hash) slot then
      {| hash_map := upd (hash_map s) hash (coll_next (ring s slot)); ring := ring s; rb_pointer := rb_pointer s |}
    else s
  end.

(** collision_insert_new (nhit_hash.c:297-315) *)
Definition collision_insert_new (n H : nat) (slot : nat) (k : key) (s : nh) : nh :=
  let hash := hash_function H k in
  let e := {| owner := Some k; counter := 1; coll_prev := n; coll_next := hash_map s hash; valid := valid (ring s slot) |} in
  let s := set_ring (upd (ring s) slot e) s in
  let f := hash_map s hash in
  let s := if Nat.eqb f n then s else set_ring (upd (ring s) f (set_prev slot (ring s f))) s in
  {| hash_map := upd (hash_map s) hash slot; ring := ring s; rb_pointer := rb_pointer s |}.

(** nhit_hash_insert (nhit_hash.c:350-372) *)
Definition nhit_hash_insert (n H : nat) (k : key) (s : nh) : nh :=
  let '(slot, ok, s) := get_rb_slot n s in
  if negb ok then s
  else commit_rb_slot slot (collision_insert_new n H slot k (collision_remove n H slot s)).

(** nhit_hash_query (nhit_hash.c:374-396): the counter when found.  The outer option: the
    search ended. *)
Definition nhit_hash_query (n H : nat) (k : key) (s : nh) : option (option N * nh) :=
  match core_line_lookup n H s k with
  | None => None
  | Some x =>
    if Nat.eqb x n then Some (None, s)
    else let c := ((counter (ring s x) + 1) mod M32)%N in
         Some (Some c, set_ring (upd (ring s) x (set_counter c (ring s x))) s)
  end.

(** nhit_hash_set_occurences (nhit_hash.c:398-416), called with 0 by core_line_purge
    (nhit.c:173-177) *)
Definition core_line_purge (n H : nat) (k : key) (s : nh) : option nh :=
  match core_line_lookup n H s k with
  | None => None
  | Some x =>
    if Nat.eqb x n then Some s else Some (set_ring (upd (ring s) x (set_counter 0 (ring s x))) s)
  end.

(** core_line_should_promote (nhit.c:194-214); [thr] is insertion_threshold *)
Definition core_line_should_promote (n H : nat) (thr : N) (k : key) (s : nh) : option (bool * nh) :=
  match nhit_hash_query n H k s with
  | None => None
  | Some (Some c, s) => Some (thr <=? c, s)
  | Some (None, s) => Some (false, nhit_hash_insert n H k s)
  end.

(** The loop of nhit_req_should_promote over the core lines of a request (nhit.c:234-243) *)
Fixpoint lines_should_promote (n H : nat) (thr : N) (l : list key) (s : nh) : option (bool * nh) :=
  match l with
  | [] => Some (true, s)
  | k :: l =>
    match core_line_should_promote n H thr k s with
    | None => None
    | Some (b, s) => match lines_should_promote n H thr l s with
                     | None => None
                     | Some (r, s) => Some (b && r, s)
                     end
    end
  end.

(** nhit_req_should_promote (nhit.c:216-248); [entries]: lines of the cache, [free]: free lines,
    [trig]: trigger_threshold, [mapped]: ocf_engine_mapped_count(req) *)
Definition nhit_req_should_promote (n H : nat) (thr trig entries free mapped : N) (l : list key) (s : nh) : option (bool * nh) :=
  if (entries - free) <? (trig * entries + 99) / 100 then Some (true, s)
  else match lines_should_promote n H thr l s with
       | None => None
       | Some (r, s) => Some (r || negb (mapped =? 0), s)
       end.

(** nhit_req_purge (nhit.c:179-192) *)
Fixpoint nhit_req_purge (n H : nat) (l : list key) (s : nh) : option nh :=
  match l with
  | [] => Some s
  | k :: l => match core_line_purge n H k s with None => None | Some s => nhit_req_purge n H l s end
  end.

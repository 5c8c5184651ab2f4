(** Walking the 32 LRU lists of an I/O class, taking lines for a request and selecting lines to clean
    (ocf_lru.c:304-760), and starting the eviction-triggered cleaning of a class.

    A list is given as the list of its cache lines from the tail (the lists themselves: LruModel).
    [try_lock] of a line succeeds when it is in no conflicting lock; [locked] collects the lines that
    cannot be taken. *)
From Coq Require Import NArith List Bool Arith.
Import ListNotations.
Open Scope nat_scope.

(** ocf_space.h:13 OCF_NUM_LRU_LISTS, ocf_part.h:70 OCF_EVICTION_CLEAN_SIZE *)
Definition NL : nat := 32.
Definition CLEAN_SIZE : nat := 32.

(** struct ocf_lru_iter (ocf_part.h:40-68): the mask next_avail_lru, num_avail_lrus, lru_idx *)
Record iter := { mask : N; num : nat; idx : nat }.

(** __builtin_ffsll: one plus the index of the lowest bit set, 0 if there is none *)
Fixpoint ffs_from (fuel : nat) (k : nat) (b : N) : nat :=
  match fuel with
  | 0 => 0
  | S fuel => if N.testbit b (N.of_nat k) then S k else ffs_from fuel (S k) b
  end.
Definition ffs (b : N) : nat := ffs_from 64 0 b.
(** ocf_rotate_right (ocf_def_priv.h:53-58), 64-bit arithmetic *)
Definition rotate_right (b : N) (shift width : nat) : N :=
  N.land (N.lor (N.shiftr b (N.of_nat shift)) (N.land (N.shiftl b (N.of_nat (width - shift))) (N.ones 64))) (N.ones (N.of_nat width)).

(** lru_iter_init (ocf_lru.c:304-328) *)
Definition iter_init (start : nat) : iter := {| mask := N.ones (N.of_nat NL); num := NL; idx := (start + NL - 1) mod NL |}.
(** _lru_next_lru (ocf_lru.c:351-361) *)
Definition next_lru (it : iter) : iter :=
  let inc := ffs (mask it) in
  {| mask := rotate_right (mask it) inc NL; num := num it; idx := (idx it + inc) mod NL |}.
(** _lru_lru_is_empty, _lru_lru_set_empty, _lru_lru_all_empty (ocf_lru.c:365-379) *)
Definition is_empty (it : iter) : bool := negb (N.testbit (mask it) (N.of_nat (NL - 1))).
Definition set_empty (it : iter) : iter := {| mask := N.clearbit (mask it) (N.of_nat (NL - 1)); num := num it - 1; idx := idx it |}.
Definition all_empty (it : iter) : bool := num it =? 0.

Definition upd {A} (f : nat -> A) (x : nat) (v : A) : nat -> A := fun y => if y =? x then v else f y.
Definition mem (x : nat) (l : list nat) : bool := existsb (Nat.eqb x) l.

(** The do-while loop common to lru_iter_eviction_next, lru_iter_free_next and lru_iter_cleaning_next
    (ocf_lru.c:461-490, 514-538, 551-568).  [pick i s]: take a line from list i.
    None: more rounds than lists. *)
Fixpoint next_line {S} (fuel : nat) (pick : nat -> S -> option nat * S) (it : iter) (s : S) : option (option nat * iter * S) :=
  match fuel with
  | 0 => None
  | Datatypes.S fuel =>
    let it := next_lru it in
    let (r, s) := pick (idx it) s in
    match r with
    | Some x => Some (Some x, it, s)
    | None => let it := if is_empty it then it else set_empty it in
              if all_empty it then Some (None, it, s) else next_line fuel pick it s
    end
  end.
(** Repeated up to n times, until there is no line (ocf_lru.c:716-757, 633-639) *)
Fixpoint take {S} (n : nat) (pick : nat -> S -> option nat * S) (it : iter) (s : S) : option (list nat * S) :=
  match n with
  | 0 => Some ([], s)
  | Datatypes.S n =>
    match next_line (NL + 1) pick it s with
    | None => None
    | Some (None, _, s) => Some ([], s)
    | Some (Some x, it, s) => match take n pick it s with Some (xs, s) => Some (x :: xs, s) | None => None end
    end
  end.

(** The first line from the tail that can be locked *)
Fixpoint first_unlocked (locked : list nat) (l : list nat) : option nat :=
  match l with [] => None | x :: l => if mem x locked then first_unlocked locked l else Some x end.

(** ** Taking lines: lru_iter_eviction_next (ocf_lru.c:451-493) and lru_iter_free_next (ocf_lru.c:503-541).
    The line is locked for the request and moved to its class; [same]: from the class itself, then
    it moves to the head of its list. *)
Record evst := { lists : nat -> list nat; locked : list nat }.
Definition evict_pick (same : bool) (i : nat) (s : evst) : option nat * evst :=
  match first_unlocked (locked s) (lists s i) with
  | None => (None, s)
  | Some x => let l := remove Nat.eq_dec x (lists s i) in
              (Some x, {| lists := upd (lists s) i (if same then l ++ [x] else l); locked := x :: locked s |})
  end.
(** ocf_lru_req_clines (ocf_lru.c:682-760): at most n lines *)
Definition req_clines (same : bool) (start n : nat) (s : evst) : option (list nat * evst) := take n (evict_pick same) (iter_init start) s.

(** ** Selecting lines to clean: lru_iter_cleaning_next (ocf_lru.c:546-571); the state is curr_cline, the
    rest of each list; lines are locked for reading *)
Fixpoint drop_locked (locked : list nat) (l : list nat) : list nat :=
  match l with [] => [] | x :: r => if mem x locked then drop_locked locked r else l end.
Definition clean_pick (locked : list nat) (i : nat) (s : nat -> list nat) : option nat * (nat -> list nat) :=
  match drop_locked locked (s i) with
  | [] => (None, s)
  | x :: r => (Some x, upd s i r)
  end.
(** The selection in ocf_lru_clean (ocf_lru.c:631-639) *)
Definition select_dirty (locked : list nat) (start count : nat) (dirty : nat -> list nat) : option (list nat * (nat -> list nat)) :=
  take (Nat.min count CLEAN_SIZE) (clean_pick locked) (iter_init start) dirty.

(** ** Eviction-triggered cleaning of one class (ocf_lru.c:573-652).
    [refs]: env_refcnt of attempts, [frozen] by management operations; [running]: cleaner_running;
    [entries]: the lines of the attempt in progress. *)
Record ctx := { refs : nat; frozen : bool; running : bool; entries : list nat }.
(** The class at the moment of an attempt: its dirty lines, the locked ones among them; the management
    lock of the cache; where the walk starts *)
Record env := { e_dirty : nat -> list nat; e_locked : list nat; e_mngt : bool; e_start : nat }.
(** ocf_lru_clean; Some lines: cleaning of these lines was started *)
Definition lru_clean (e : env) (count : nat) (c : ctx) : option (option (list nat) * ctx) :=
  if e_mngt e then Some (None, c)
  else if frozen c then Some (None, c)
  else if running c then Some (None, c)
  else match select_dirty (e_locked e) (e_start e) count (e_dirty e) with
       | None => None
       | Some ([], _) => Some (None, {| refs := refs c; frozen := frozen c; running := true; entries := entries c |})
       | Some (xs, _) => Some (Some xs, {| refs := refs c + 1; frozen := frozen c; running := true; entries := xs |})
       end.
(** ocf_lru_clean_end (ocf_lru.c:573-589); None: no attempt in progress *)
Definition lru_clean_end (c : ctx) : option ctx :=
  match refs c with
  | 0 => None
  | S r => Some {| refs := r; frozen := frozen c; running := false; entries := [] |}
  end.

Inductive event := Attempt (e : env) | End | Freeze (b : bool).
(** One event; the result says which cleaning was started (128 lines requested, engine_common.c:532-535) *)
Definition step (ev : event) (c : ctx) : option (option (list nat) * ctx) :=
  match ev with
  | Attempt e => lru_clean e 128 c
  | End => Some (None, match lru_clean_end c with Some c => c | None => c end)
  | Freeze b => Some (None, {| refs := refs c; frozen := b; running := running c; entries := entries c |})
  end.
Fixpoint run (evs : list event) (c : ctx) : option (list (option (list nat)) * ctx) :=
  match evs with
  | [] => Some ([], c)
  | ev :: evs => match step ev c with
                 | None => None
                 | Some (r, c) => match run evs c with Some (rs, c) => Some (r :: rs, c) | None => None end
                 end
  end.
(** A new cache (ocf_mngt_cache.c:887-893) *)
Definition ctx0 : ctx := {| refs := 0; frozen := false; running := false; entries := [] |}.

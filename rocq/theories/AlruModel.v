(** The ALRU cleaning policy: /repo/src/cleaning/alru.c.

    Cache lines are natural numbers 0 .. n-1; the list terminator collision_table_entries is
    [None].  The result [None] of an operation stands for ENV_BUG, ENV_BUG_ON or the terminator
    used as an index.  Operations on one list run under its list_lock and are atomic here; the
    callers hold the lock of the cache line.  Times are in seconds (env_ticks_to_secs).
    Left out: cleaning_policy_alru_purge_range (no caller), parameters, memory allocation. *)
From Coq Require Import List Bool Arith NArith.
Import ListNotations.
Open Scope nat_scope.

(** struct alru_cleaning_policy_meta (alru_structs.h:12-17) *)
Record node := { prv : option nat; nxt : option nat; stamp : nat }.

(** struct alru_cleaning_policy of each partition (alru_structs.h:27-31), metadata of the lines,
    partition, "mapped" (core id is not OCF_CORE_MAX) and "any sector dirty" of each line *)
Record alru := { meta : nat -> node; head : nat -> option nat; tail : nat -> option nat; size : nat -> nat;
                 part : nat -> nat; mapped : nat -> bool; dirty : nat -> bool }.

Definition upd {A} (f : nat -> A) (x : nat) (v : A) : nat -> A := fun y => if y =? x then v else f y.
Definition set_prv (m : nat -> node) (x : nat) (v : option nat) := upd m x {| prv := v; nxt := nxt (m x); stamp := stamp (m x) |}.
Definition set_nxt (m : nat -> node) (x : nat) (v : option nat) := upd m x {| prv := prv (m x); nxt := v; stamp := stamp (m x) |}.
Definition is_none (o : option nat) : bool := match o with None => true | Some _ => false end.
Definition is (o : option nat) (x : nat) : bool := match o with Some y => y =? x | None => false end.

Definition with_list (a : alru) (m : nat -> node) (p : nat) (h t : option nat) (sz : nat) : alru :=
  {| meta := m; head := upd (head a) p h; tail := upd (tail a) p t; size := upd (size a) p sz;
     part := part a; mapped := mapped a; dirty := dirty a |}.

(** append_alru_head (alru.c:68-100) *)
Definition append_alru_head (p : nat) (h t : option nat) (a : alru) : option alru :=
  match h, t with
  | None, None => Some a
  | Some h, Some t =>
    match head a p with
    | None => Some (with_list a (meta a) p (Some h) (Some t) (size a p))
    | Some o => let m := set_prv (meta a) o (Some t) in
                let m := set_nxt m t (Some o) in
                Some (with_list a m p (Some h) (tail a p) (size a p))
    end
  | _, _ => None
  end.

(** add_alru_head (alru.c:102-127), cline < collision_table_entries *)
Definition add_alru_head (p x now : nat) (a : alru) : option alru :=
  let a := with_list a (upd (meta a) x {| prv := None; nxt := None; stamp := now |}) p (head a p) (tail a p) (size a p) in
  match append_alru_head p (Some x) (Some x) a with
  | Some a => Some (with_list a (meta a) p (head a p) (tail a p) (size a p + 1))
  | None => None
  end.

(** remove_alru_list (alru.c:129-236) *)
Definition remove_alru_list (p x : nat) (a : alru) : option alru :=
  if size a p =? 0 then None
  else
    let m := meta a in
    let nx := nxt (m x) in
    let pv := prv (m x) in
    let ish := is (head a p) x in
    let ist := is (tail a p) x in
    if is_none nx && is_none pv && negb ish && negb ist then Some a
    else if ish && ist then Some (with_list a (set_prv (set_nxt m x None) x None) p None None (size a p - 1))
    else if negb ist && ish then
      match nx with
      | None => None
      | Some y => Some (with_list a (set_prv (set_nxt m x None) y None) p nx (tail a p) (size a p - 1))
      end
    else if negb ish && ist then
      match pv with
      | None => None
      | Some y => Some (with_list a (set_nxt (set_prv m x None) y None) p (head a p) pv (size a p - 1))
      end
    else
      match nx, pv with
      | Some y, Some z =>
        let m := set_nxt m z nx in
        let m := set_prv m y pv in
        Some (with_list a (set_prv (set_nxt m x None) x None) p (head a p) (tail a p) (size a p - 1))
      | _, _ => None
      end.

(** cleaning_policy_alru_init_cache_block (alru.c:264-274) *)
Definition init_cache_block (x : nat) (a : alru) : alru :=
  {| meta := upd (meta a) x {| prv := None; nxt := None; stamp := 0 |}; head := head a; tail := tail a; size := size a;
     part := part a; mapped := mapped a; dirty := dirty a |}.

(** cleaning_policy_alru_purge_cache_block (alru.c:276-286) *)
Definition purge_cache_block (x : nat) (a : alru) : option alru := remove_alru_list (part a x) x a.

(** cleaning_policy_alru_set_hot_cache_line (alru.c:322-353) *)
Definition set_hot_cache_line (x now : nat) (a : alru) : option alru :=
  let p := part a x in
  let on := negb (is_none (nxt (meta a x))) || negb (is_none (prv (meta a x))) || (is (head a p) x && is (tail a p) x) in
  match (if on then remove_alru_list p x a else Some a) with
  | Some a => add_alru_head p x now a
  | None => None
  end.

(** ** Populating from metadata (alru.c:403-572) *)

(** OCF_ALRU_POPULATE_SHARDS_CNT (alru.c:403); the lines of a shard (alru.c:474-476) *)
Definition SHARDS := 32.
Definition portion (n : nat) : nat := (n + (SHARDS - 1)) / SHARDS.
Definition shard_lines (n s : nat) : list nat :=
  seq (portion n * s) (Nat.min (portion n * (s + 1)) n - portion n * s).

(** add_alru_head_populate (alru.c:418-455): [f] holds head and tail of the partitions of one
    shard *)
Definition add_alru_head_populate (p x now : nat) (mf : (nat -> node) * (nat -> option nat * option nat)) :=
  let '(m, f) := mf in
  match fst (f p) with
  | None => (upd m x {| prv := None; nxt := None; stamp := now |}, upd f p (Some x, Some x))
  | Some h => let m := upd m x {| prv := None; nxt := Some h; stamp := now |} in
              (set_prv m h (Some x), upd f p (Some x, snd (f p)))
  end.

(** ocf_alru_populate_handle (alru.c:457-507) for the lines of one shard, [now x] the time at
    which line x is handled *)
Fixpoint populate_handle (a : alru) (now : nat -> nat) (l : list nat)
  (mf : (nat -> node) * (nat -> option nat * option nat)) :=
  match l with
  | [] => mf
  | x :: l =>
    let mf := if negb (mapped a x) then mf
              else if negb (dirty a x) then (upd (fst mf) x {| prv := None; nxt := None; stamp := 0 |}, snd mf)
              else add_alru_head_populate (part a x) x (now x) mf in
    populate_handle a now l mf
  end.

(** All shards; they touch disjoint lines, so the order in which they run does not matter. *)
Fixpoint populate_shards (a : alru) (now : nat -> nat) (n : nat) (ss : list nat) (m : nat -> node) :
  (nat -> node) * list (nat -> option nat * option nat) :=
  match ss with
  | [] => (m, [])
  | s :: ss =>
    let '(m, f) := populate_handle a now (shard_lines n s) (m, fun _ => (None, None)) in
    let '(m, fs) := populate_shards a now n ss m in
    (m, f :: fs)
  end.

(** The inner loop of ocf_alru_populate_finish (alru.c:522-527) *)
Fixpoint finish_part (p : nat) (fs : list (nat -> option nat * option nat)) (a : alru) : option alru :=
  match fs with
  | [] => Some a
  | f :: fs => match append_alru_head p (fst (f p)) (snd (f p)) a with
               | Some a => finish_part p fs a
               | None => None
               end
  end.
Fixpoint finish_parts (ps : list nat) (fs : list (nat -> option nat * option nat)) (a : alru) : option alru :=
  match ps with
  | [] => Some a
  | p :: ps => match finish_part p fs a with Some a => finish_parts ps fs a | None => None end
  end.

(** part_size of all shards together (alru.c:464, 497, 501-504) *)
Definition count (a : alru) (n p : nat) : nat :=
  length (filter (fun x => mapped a x && dirty a x && (part a x =? p)) (seq 0 n)).

(** cleaning_policy_alru_populate (alru.c:538-572) for P partitions *)
Definition populate (n P : nat) (now : nat -> nat) (a : alru) : option alru :=
  let '(m, fs) := populate_shards a now n (seq 0 SHARDS) (meta a) in
  finish_parts (seq 0 P) fs
    {| meta := m; head := fun _ => None; tail := fun _ => None; size := fun p => if p <? P then count a n p else 0;
       part := part a; mapped := mapped a; dirty := dirty a |}.

(** ** Cleaning *)

(** The while loop of get_data_to_flush (alru.c:848-864): [last] is last_access, [busy] is
    block_is_busy (alru.c:797-815), [k] the room left (clines_no - to_flush); more_blocks_to_flush
    (alru.c:781-795).  The result [None] means that the fuel ran out. *)
Fixpoint flush_loop (fuel : nat) (m : nat -> node) (busy : nat -> bool) (last k : nat) (x : option nat) : option (list nat) :=
  match fuel with
  | 0 => None
  | S fuel =>
    match x with
    | None => Some []
    | Some x =>
      if last <=? stamp (m x) then Some []
      else match k with
           | 0 => Some []
           | S k' => if busy x then flush_loop fuel m busy last k (prv (m x))
                     else match flush_loop fuel m busy last k' (prv (m x)) with
                          | Some l => Some (x :: l)
                          | None => None
                          end
           end
    end
  end.

(** get_data_to_flush (alru.c:817-873): partitions in the order [ps]; the `goto end' when the
    room is used up is the same as collecting nothing from the partitions that follow *)
Fixpoint get_data_to_flush (fuel : nat) (busy : nat -> bool) (last k : nat) (ps : list nat) (a : alru) : option (list nat) :=
  match ps with
  | [] => Some []
  | p :: ps =>
    match flush_loop fuel (meta a) busy last k (tail a p) with
    | None => None
    | Some l => match get_data_to_flush fuel busy last (k - length l) ps a with
                | Some r => Some (l ++ r)
                | None => None
                end
    end
  end.

(** check_for_dirty_ratio (alru.c:719-731) with 32 bit unsigned arithmetic: info.dirty and
    info.size are uint32_t (ocf_cache.h:34,52).  [None]: division by zero. *)
Definition U32 : N := 4294967296%N.
Definition check_for_dirty_ratio (max_dirty_ratio dirty_lines size_lines : N) : option bool :=
  (if max_dirty_ratio =? 100 then Some false
   else if size_lines =? 0 then None
   else Some (max_dirty_ratio <=? ((dirty_lines * 100) mod U32) / size_lines))%N.

(** compute_timestamp (alru.c:680-690): 64 bit ticks, [hz] ticks per second *)
Definition compute_timestamp (hz ticks stale : N) : N :=
  (((ticks + (18446744073709551616 - (stale * hz) mod 18446744073709551616)) mod 18446744073709551616) / hz mod U32)%N.

(** ** Histories *)

(** What happens to cache lines: mapped to a core line (engine_common.c:326
    initialises the metadata), unmapped when clean, written dirty
    (set_cache_line_dirty, utils_cache_line.c:173), cleaned or invalidated
    (utils_cache_line.h:134-139), moved to another partition (utils_user_part.c:131-156). *)
Inductive event := Map (x p : nat) | Unmap (x : nat) | Write (x now : nat) | Clean (x : nat) | Repart (x q now : nat).

Definition set_state (a : alru) (pt : nat -> nat) (mp dt : nat -> bool) : alru :=
  {| meta := meta a; head := head a; tail := tail a; size := size a; part := pt; mapped := mp; dirty := dt |}.

Definition step (n P : nat) (e : event) (a : alru) : option alru :=
  match e with
  | Map x p => if (x <? n) && (p <? P) && negb (mapped a x)
               then Some (init_cache_block x (set_state a (upd (part a) x p) (upd (mapped a) x true) (dirty a))) else Some a
  | Unmap x => if (x <? n) && mapped a x && negb (dirty a x)
               then Some (set_state a (part a) (upd (mapped a) x false) (dirty a)) else Some a
  | Write x now => if (x <? n) && mapped a x
                   then set_hot_cache_line x now (set_state a (part a) (mapped a) (upd (dirty a) x true)) else Some a
  | Clean x => if (x <? n) && mapped a x && dirty a x
               then purge_cache_block x (set_state a (part a) (mapped a) (upd (dirty a) x false)) else Some a
  | Repart x q now =>
    if (x <? n) && (q <? P) && mapped a x && negb (part a x =? q) then
      if dirty a x then
        match purge_cache_block x a with
        | Some a => set_hot_cache_line x now (set_state a (upd (part a) x q) (mapped a) (dirty a))
        | None => None
        end
      else Some (set_state a (upd (part a) x q) (mapped a) (dirty a))
    else Some a
  end.
Fixpoint run (n P : nat) (es : list event) (a : alru) : option alru :=
  match es with
  | [] => Some a
  | e :: es => match step n P e a with Some a => run n P es a | None => None end
  end.

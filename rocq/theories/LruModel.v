(** LRU lists: /repo/src/ocf_lru.c.
    Cache line indices are [nat]; end_marker is [None].  [None] as a result of an
    operation: ENV_BUG_ON, a NULL/invalid dereference (end_marker used as an
    index) or a counter going below zero.  Counters do not wrap otherwise, since
    they count distinct cache lines (32-bit indices).  Each operation is atomic:
    the code holds the LRU write lock of the list (cline % 32) and the callers
    hold the hash bucket lock of the line. *)
From Coq Require Import List Bool Arith ZArith.
Import ListNotations.
Open Scope nat_scope.

(** ocf_lru_structs.h: struct ocf_lru_meta, struct ocf_lru_list, OCF_LRU_HOT_RATIO. *)
Record node := { prev : option nat; next : option nat; hot : bool }.
Record lst := { num_nodes : nat; head : option nat; tail : option nat;
                num_hot : nat; last_hot : option nat; track_hot : bool }.
Definition HOT_RATIO := 2.

Definition mem := nat -> node.
Definition opt_eqb (a b : option nat) : bool :=
  match a, b with Some x, Some y => x =? y | None, None => true | _, _ => false end.
Definition is_end (a : option nat) : bool := opt_eqb a None.

Definition upd (m : mem) (i : nat) (n : node) : mem := fun j => if j =? i then n else m j.
Definition set_prev (m : mem) i p := upd m i {| prev := p; next := next (m i); hot := hot (m i) |}.
Definition set_next (m : mem) i n := upd m i {| prev := prev (m i); next := n; hot := hot (m i) |}.
Definition set_hotbit (m : mem) i h := upd m i {| prev := prev (m i); next := next (m i); hot := h |}.

Definition w_last_hot (l : lst) v :=
  {| num_nodes := num_nodes l; head := head l; tail := tail l; num_hot := num_hot l; last_hot := v; track_hot := track_hot l |}.
Definition w_num_hot (l : lst) v :=
  {| num_nodes := num_nodes l; head := head l; tail := tail l; num_hot := v; last_hot := last_hot l; track_hot := track_hot l |}.
Definition w_num_nodes (l : lst) v :=
  {| num_nodes := v; head := head l; tail := tail l; num_hot := num_hot l; last_hot := last_hot l; track_hot := track_hot l |}.
Definition w_head (l : lst) v :=
  {| num_nodes := num_nodes l; head := v; tail := tail l; num_hot := num_hot l; last_hot := last_hot l; track_hot := track_hot l |}.
Definition w_tail (l : lst) v :=
  {| num_nodes := num_nodes l; head := head l; tail := v; num_hot := num_hot l; last_hot := last_hot l; track_hot := track_hot l |}.

(** ocf_lru.c:26-58 [balance_update_last_hot]; result: list and pivot. *)
Definition balance_update_last_hot (m : mem) (l : lst) (change : Z) : option (lst * option nat) :=
  if (0 <? change)%Z then
    if negb (change =? 1)%Z then None
    else
      match last_hot l with
      | None => let v := head l in Some (w_last_hot l v, v)
      | Some h => let v := next (m h) in
                  if is_end v then None else Some (w_last_hot l v, v)
      end
  else if (change <? 0)%Z then
    if negb (change =? -1)%Z then None
    else match last_hot l with
         | None => None
         | Some h => Some (w_last_hot l (prev (m h)), Some h)
         end
  else Some (l, None).

(** ocf_lru.c:64-83 [balance_lru_list]. *)
Definition balance_lru_list (m : mem) (l : lst) : option (mem * lst) :=
  let target := num_nodes l / HOT_RATIO in
  let change := (Z.of_nat target - Z.of_nat (num_hot l))%Z in
  if negb (track_hot l) then Some (m, l)
  else
    match balance_update_last_hot m (w_num_hot l target) change with
    | None => None
    | Some (l, pivot) =>
      match pivot with
      | None => Some (m, l)
      | Some p => Some (set_hotbit m p (0 <=? change)%Z, l)
      end
    end.

(** ocf_lru.c:86-129 [add_lru_head_nobalance]. *)
Definition add_lru_head_nobalance (m : mem) (l : lst) (c : nat) : option (mem * lst) :=
  let m := set_hotbit m c false in
  if num_nodes l =? 0 then
    let l := w_tail (w_head l (Some c)) (Some c) in
    let m := set_prev (set_next m c None) c None in
    Some (m, w_num_nodes l 1)
  else
    match head l with
    | None => None
    | Some h =>
      let m := set_prev (set_next m c (Some h)) c None in
      let m := set_prev m h (Some c) in
      let '(m, l) :=
        if track_hot l then
          let m := set_hotbit m c true in
          let l := if negb (hot (m h)) then w_last_hot l (Some c) else l in
          (m, w_num_hot l (S (num_hot l)))
        else (m, l) in
      let l := w_head l (Some c) in
      Some (m, w_num_nodes l (S (num_nodes l)))
    end.

(** ocf_lru.c:131-136 [add_lru_head]. *)
Definition add_lru_head (m : mem) (l : lst) (c : nat) : option (mem * lst) :=
  match add_lru_head_nobalance m l c with
  | Some (m, l) => balance_lru_list m l
  | None => None
  end.

(** ocf_lru.c:139-172 [remove_update_ptrs]. *)
Definition remove_update_ptrs (m : mem) (l : lst) (c : nat) : option (mem * lst) :=
  let nx := next (m c) in
  let pv := prev (m c) in
  let r :=
    match pv, nx with
    | None, None => Some (m, w_tail (w_head l None) None)
    | None, Some n => Some (set_prev m n None, w_head l nx)
    | Some p, None => Some (set_next m p None, w_tail l pv)
    | Some p, Some n =>
      let m' := set_next m p nx in
      Some (set_prev m' n pv, l)
    end in
  match r with
  | None => None
  | Some (m, l) => Some (m, if opt_eqb (last_hot l) (Some c) then w_last_hot l pv else l)
  end.

(** ocf_lru.c:175-203 [remove_lru_list_nobalance]. *)
Definition remove_lru_list_nobalance (m : mem) (l : lst) (c : nat) : option (mem * lst) :=
  let is_head := opt_eqb (head l) (Some c) in
  let is_tail := opt_eqb (tail l) (Some c) in
  if Bool.eqb is_head (negb (is_end (prev (m c)))) then None
  else if Bool.eqb is_tail (negb (is_end (next (m c)))) then None
  else
    match remove_update_ptrs m l c with
    | None => None
    | Some (m, l) =>
      match num_nodes l with
      | O => None
      | S k =>
        let l := w_num_nodes l k in
        let ol := if hot (m c) then match num_hot l with O => None | S j => Some (w_num_hot l j) end
                  else Some l in
        match ol with
        | None => None
        | Some l => Some (upd m c {| prev := None; next := None; hot := false |}, l)
        end
      end
    end.

(** ocf_lru.c:205-210 [ocf_lru_remove_locked]. *)
Definition lru_remove (m : mem) (l : lst) (c : nat) : option (mem * lst) :=
  match remove_lru_list_nobalance m l c with
  | Some (m, l) => balance_lru_list m l
  | None => None
  end.

(** ocf_lru.c:212-219 [ocf_lru_set_hot]. *)
Definition lru_set_hot (m : mem) (l : lst) (c : nat) : option (mem * lst) :=
  match remove_lru_list_nobalance m l c with
  | None => None
  | Some (m, l) =>
    match add_lru_head_nobalance m l c with
    | None => None
    | Some (m, l) => balance_lru_list m l
    end
  end.

(** ** The cache: lists of all partitions *)

(** ocf_space.h:13; ocf_cfg.h:24 and metadata_partition.h:12,14. *)
Definition NUM_LRU_LISTS := 32.
Definition USER_IO_CLASS_MAX := 33.
Definition FREELIST := 34.
Definition DEFAULT_PART := 0.

(** A list: partition, index, clean or dirty. *)
Record lid := mklid { l_part : nat; l_idx : nat; l_clean : bool }.
Definition lid_eqb (a b : lid) : bool :=
  (l_part a =? l_part b) && (l_idx a =? l_idx b) && Bool.eqb (l_clean a) (l_clean b).

(** [lmeta]: per line metadata; [part], [dirty]: partition id and "any sector
    dirty" of a line; [size]: runtime->curr_size of a partition. *)
Record cst := { lmeta : mem; lists : lid -> lst; part : nat -> nat; dirty : nat -> bool; size : nat -> Z }.

Definition set_list (f : lid -> lst) (i : lid) (l : lst) : lid -> lst := fun j => if lid_eqb j i then l else f j.
Definition setf {A} (f : nat -> A) (i : nat) (v : A) : nat -> A := fun j => if j =? i then v else f j.

(** ocf_lru.c:229-237 [ocf_lru_get_list]: the free partition has no dirty list. *)
Definition get_list (p idx : nat) (clean : bool) : lid := mklid p idx (if p =? FREELIST then true else clean).

Definition on_list (s : cst) (i : lid) (f : mem -> lst -> option (mem * lst)) : option cst :=
  match f (lmeta s) (lists s i) with
  | None => None
  | Some (m, l) => Some {| lmeta := m; lists := set_list (lists s) i l; part := part s; dirty := dirty s; size := size s |}
  end.

Definition set_part (s : cst) (c p : nat) : cst :=
  {| lmeta := lmeta s; lists := lists s; part := setf (part s) c p; dirty := dirty s; size := size s |}.
Definition set_dirty (s : cst) (c : nat) (d : bool) : cst :=
  {| lmeta := lmeta s; lists := lists s; part := part s; dirty := setf (dirty s) c d; size := size s |}.
Definition set_size (s : cst) (p : nat) (v : Z) : cst :=
  {| lmeta := lmeta s; lists := lists s; part := part s; dirty := dirty s; size := setf (size s) p v |}.

(** ocf_lru.c:267-272 [ocf_lru_move]. *)
Definition lru_move (s : cst) (c : nat) (src dst : lid) : option cst :=
  match on_list s src (fun m l => lru_remove m l c) with
  | None => None
  | Some s => on_list s dst (fun m l => add_lru_head m l c)
  end.

(** ocf_lru.c:274-290 [ocf_lru_repart_locked]. *)
Definition lru_repart (s : cst) (c src dst : nat) : option cst :=
  let idx := c mod NUM_LRU_LISTS in
  let clean := negb (dirty s c) in
  match lru_move s c (get_list src idx clean) (get_list dst idx clean) with
  | None => None
  | Some s =>
    let s := set_part s c dst in
    let s := set_size s src (size s src - 1)%Z in
    Some (set_size s dst (size s dst + 1)%Z)
  end.

(** ocf_lru.c:301-307 [ocf_lru_rm_cline]: access to user_parts out of range: [None]. *)
Definition lru_rm_cline (s : cst) (c : nat) : option cst :=
  if USER_IO_CLASS_MAX <=? part s c then None
  else lru_repart s c (part s c) FREELIST.

(** ocf_lru.c:764-798 [ocf_lru_hot_cline]. *)
Definition lru_hot_cline (s : cst) (c : nat) : option cst :=
  if hot (lmeta s c) then Some s
  else if USER_IO_CLASS_MAX <=? part s c then None
  else
    let i := get_list (part s c) (c mod NUM_LRU_LISTS) (negb (dirty s c)) in
    let n := lmeta s c in
    if is_end (next n) && negb (opt_eqb (tail (lists s i)) (Some c)) then None
    else if is_end (prev n) && negb (opt_eqb (head (lists s i)) (Some c)) then None
    else on_list s i (fun m l => lru_set_hot m l c).

(** ocf_lru.c:828-843 [ocf_lru_clean_cline] after the dirty bit was cleared
    (utils_cache_line.c:102-127). *)
Definition lru_clean_cline (s : cst) (c : nat) : option cst :=
  if USER_IO_CLASS_MAX <=? part s c then None
  else
    let idx := c mod NUM_LRU_LISTS in
    let s := set_dirty s c false in
    lru_move s c (get_list (part s c) idx false) (get_list (part s c) idx true).

(** ocf_lru.c:845-860 [ocf_lru_dirty_cline] after the dirty bit was set
    (utils_cache_line.c:143-169). *)
Definition lru_dirty_cline (s : cst) (c : nat) : option cst :=
  if USER_IO_CLASS_MAX <=? part s c then None
  else
    let idx := c mod NUM_LRU_LISTS in
    let s := set_dirty s c true in
    lru_move s c (get_list (part s c) idx true) (get_list (part s c) idx false).

(** ocf_lru.c:466-470, 516-520: from the tail to the first line that can be locked;
    [can]: the lock of the line (and its hash bucket) can be taken.  [None]: more
    steps than [fuel] or end; the two are told apart by the outer option. *)
Fixpoint scan (m : mem) (can : nat -> bool) (fuel : nat) (c : option nat) : option (option nat) :=
  match c with
  | None => Some None
  | Some x =>
    if can x then Some (Some x)
    else match fuel with O => None | S f => scan m can f (prev (m x)) end
  end.

(** Body of the loop in [lru_iter_eviction_next] (ocf_lru.c:459-482): one list. *)
Definition evict_one (s : cst) (can : nat -> bool) (src dst idx : nat) : option (cst * option nat) :=
  let i := get_list src idx true in
  match scan (lmeta s) can (num_nodes (lists s i)) (tail (lists s i)) with
  | None => None
  | Some None => Some (s, None)
  | Some (Some c) =>
    let r := if negb (dst =? src) then lru_repart s c src dst
             else on_list s i (fun m l => lru_set_hot m l c) in
    match r with Some s => Some (s, Some c) | None => None end
  end.

(** Body of the loop in [lru_iter_free_next] (ocf_lru.c:509-525). *)
Definition alloc_one (s : cst) (can : nat -> bool) (dst idx : nat) : option (cst * option nat) :=
  if dst =? FREELIST then None
  else
    let i := get_list FREELIST idx true in
    match scan (lmeta s) can (num_nodes (lists s i)) (tail (lists s i)) with
    | None => None
    | Some None => Some (s, None)
    | Some (Some c) =>
      match lru_repart s c FREELIST dst with Some s => Some (s, Some c) | None => None end
    end.

(** ocf_lru.c:800-826 [_lru_init], [ocf_lru_init]. *)
Definition init_list (track : bool) : lst :=
  {| num_nodes := 0; head := None; tail := None; num_hot := 0; last_hot := None; track_hot := track |}.
Definition init : cst :=
  {| lmeta := fun _ => {| prev := None; next := None; hot := false |};
     lists := fun i => init_list (negb (l_part i =? FREELIST));
     part := fun _ => FREELIST; dirty := fun _ => false; size := fun _ => 0%Z |}.

(** A line of a new or rebuilt cache.  [None]: put on the free list
    (ocf_lru.c:896-904 populate, ocf_mngt_cache.c:547-557 reset);
    [Some d]: mapped line of the default partition found by recovery
    (ocf_mngt_cache.c:559-577), [d] whether it is dirty. *)
Definition add_line (s : cst) (c : nat) (w : option bool) : option cst :=
  let idx := c mod NUM_LRU_LISTS in
  match w with
  | None => on_list (set_dirty (set_part s c FREELIST) c false) (get_list FREELIST idx true)
              (fun m l => add_lru_head_nobalance m l c)
  | Some d =>
    let s := set_dirty (set_part s c DEFAULT_PART) c d in
    let s := {| lmeta := upd (lmeta s) c {| prev := None; next := None; hot := false |};
                lists := lists s; part := part s; dirty := dirty s; size := size s |} in
    on_list s (get_list DEFAULT_PART idx (negb d)) (fun m l => add_lru_head m l c)
  end.

Fixpoint add_lines (s : cst) (l : list (nat * option bool)) : option cst :=
  match l with
  | [] => Some s
  | (c, w) :: r => match add_line s c w with Some s => add_lines s r | None => None end
  end.

(** The counters set at the end (ocf_lru.c:915-916, ocf_mngt_cache.c:669-673). *)
Definition is_free (x : nat * option bool) : bool := match snd x with None => true | _ => false end.
Definition start (l : list (nat * option bool)) : option cst :=
  match add_lines init l with
  | None => None
  | Some s =>
    let s := set_size s DEFAULT_PART (Z.of_nat (length (filter (fun x => negb (is_free x)) l))) in
    Some (set_size s FREELIST (Z.of_nat (length (filter is_free l))))
  end.

(** Operations in any order. *)
Inductive op :=
| Hit (c : nat)                                      (* ocf_lru_hot_cline *)
| Move (c p : nat)                                   (* ocf_user_part_move *)
| Free (c : nat)                                     (* ocf_lru_rm_cline *)
| MkDirty (c : nat) | MkClean (c : nat)              (* utils_cache_line.c *)
| Alloc (can : nat -> bool) (dst idx : nat)
| Evict (can : nat -> bool) (src dst idx : nat).

Definition exec (o : op) (s : cst) : option cst :=
  match o with
  | Hit c => lru_hot_cline s c
  | Move c p => lru_repart s c (part s c) p
  | Free c => lru_rm_cline s c
  | MkDirty c => if dirty s c then Some s else lru_dirty_cline s c
  | MkClean c => if dirty s c then lru_clean_cline s c else Some s
  | Alloc can dst idx => option_map fst (alloc_one s can dst idx)
  | Evict can src dst idx => option_map fst (evict_one s can src dst idx)
  end.

Fixpoint exec_all (l : list op) (s : cst) : option cst :=
  match l with
  | [] => Some s
  | o :: r => match exec o s with Some s => exec_all r s | None => None end
  end.

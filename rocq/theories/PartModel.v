(** I/O classes (user partitions) and space management: /repo/src/utils/utils_user_part.c and .h,
    /repo/src/ocf_space.c, /repo/src/mngt/ocf_mngt_io_class.c, the part of ocf_lru_req_clines
    (/repo/src/ocf_lru.c:682-748) that concerns sizes.

    The lists of lines are reduced to numbers: [occ p] lines in class p, of which [avail p] can be
    evicted now (clean and lockable); likewise [free] and [availf] for the freelist.  One request
    runs at a time.  Names and cache modes of classes are left out.  [None]: ENV_BUG. *)
From Coq Require Import List Bool Arith ZArith NArith.
From Verif Require Import ListModel.
Import ListNotations.

(** OCF_USER_IO_CLASS_MAX (ocf_cfg.h:24) *)
Definition MAXP : nat := 33.

(** struct ocf_user_part_config (ocf_part.h:18-31): flags valid, added, eviction; priority; sizes in
    percent *)
Record conf := { valid : bool; added : bool; eviction : bool; prio : Z; minp : N; maxp : N }.

Record cache := { cfg : nat -> conf; lst : entries; occ : nat -> N; free : N; avail : nat -> N; availf : N; lines : N }.

Definition upd {A} (f : nat -> A) (x : nat) (v : A) : nat -> A := fun y => if y =? x then v else f y.
(** The same function, with its values for the classes computed once (for running examples) *)
Definition memo {A} (f : nat -> A) : nat -> A :=
  let l := map f (seq 0 (MAXP + 1)) in fun p => match nth_error l p with Some v => v | None => f p end.
Definition with_cfg (s : cache) (c : nat -> conf) : cache :=
  {| cfg := memo c; lst := lst s; occ := occ s; free := free s; avail := avail s; availf := availf s; lines := lines s |}.
Definition with_lst (s : cache) (l : entries) : cache :=
  {| cfg := cfg s; lst := memo l; occ := occ s; free := free s; avail := avail s; availf := availf s; lines := lines s |}.

(** ** Sizes *)
Open Scope N_scope.
Definition U32 : N := 4294967296.
(** ocf_user_part_get_min_size (utils_user_part.h:59-70) *)
Definition min_size (s : cache) (p : nat) : N := minp (cfg s p) * lines s / 100 mod U32.
(** ocf_user_part_get_max_size (utils_user_part.h:73-85) *)
Definition max_size (s : cache) (p : nat) : N := (maxp (cfg s p) * lines s + 99) / 100 mod U32.
(** ocf_user_part_overflow_size (utils_user_part.h:103-114) *)
Definition overflow_size (s : cache) (p : nat) : N := if max_size s p <? occ s p then occ s p - max_size s p else 0.
(** ocf_user_part_has_space (utils_user_part.h:116-127): [um] lines to map, [rp] to move here *)
Definition has_space (s : cache) (t : nat) (um rp : N) : bool := occ s t + (rp + um) <=? max_size s t.

(** ** Space management *)

(** ocf_lru_req_clines (ocf_lru.c:682-748) from class [src] (None: the freelist) for a request of
    class [t] that has [um] unmapped lines: takes as many of the [n] lines as can be evicted;
    lines of the class itself stay there (lru_iter_eviction_next, ocf_lru.c:474-481).
    Returns the number of lines, the remaining number of unmapped lines, the state. *)
Definition req_clines (t : nat) (src : option nat) (n um : N) (s : cache) : option (N * N * cache) :=
  if n =? 0 then Some (0, um, s)
  else if um <? n then None
  else match src with
       | None => let k := N.min n (availf s) in
                 Some (k, um - k, {| cfg := cfg s; lst := lst s; occ := upd (occ s) t (occ s t + k); free := free s - k; avail := avail s; availf := availf s - k; lines := lines s |})
       | Some p => let k := N.min n (avail s p) in
                   let o := if (p =? t)%nat then occ s else let o := upd (occ s) p (occ s p - k) in upd o t (o t + k) in
                   Some (k, um - k, {| cfg := cfg s; lst := lst s; occ := o; free := free s; avail := upd (avail s) p (avail s p - k); availf := availf s; lines := lines s |})
       end.

(** ocf_evict_calculate (ocf_space.c:10-29) *)
Definition evict_calculate (s : cache) (p : nat) (to_evict : N) : N :=
  if occ s p <=? min_size s p then 0
  else if occ s p - min_size s p <? to_evict then occ s p - min_size s p else to_evict.

(** ocf_evict_part_do (ocf_space.c:31-46) *)
Definition evict_part_do (t : nat) (um : N) (s : cache) : option (N * N * cache) :=
  let n := evict_calculate s t um in
  if n <? um then Some (0, um, s) else req_clines t (Some t) n um s.

(** ocf_evict_user_partitions (ocf_space.c:48-104): the classes [ps] in list order *)
Fixpoint evict_loop (t : nat) (ps : list nat) (need : N) (over : bool) (max_prio : Z) (evicted um : N) (s : cache) : option (N * N * cache) :=
  match ps with
  | [] => Some (evicted, um, s)
  | p :: ps =>
    if (prio (cfg s p) <? max_prio)%Z then Some (evicted, um, s)
    else if negb over && negb (eviction (cfg s p)) then Some (evicted, um, s)
    else if over && (overflow_size s p =? 0) then evict_loop t ps need over max_prio evicted um s
    else
      let n := evict_calculate s p (need - evicted) in
      if n =? 0 then evict_loop t ps need over max_prio evicted um s
      else
        let n := if over then N.min n (overflow_size s p) else n in
        match req_clines t (Some p) n um s with
        | None => None
        | Some (k, um, s) => if need <=? evicted + k then Some (evicted + k, um, s)
                             else evict_loop t ps need over max_prio (evicted + k) um s
        end
  end.
(** for_each_user_part (utils_user_part.h:89-91) *)
Definition order (s : cache) : list nat := visit (MAXP + 1) MAXP (lst s) (next (lst s MAXP)).
Definition evict_user_partitions (t : nat) (need : N) (over : bool) (max_prio : Z) (um : N) (s : cache) : option (N * N * cache) :=
  evict_loop t (order s) need over max_prio 0 um s.

(** ocf_remap_do (ocf_space.c:106-139) *)
Definition remap_do (t : nat) (um : N) (s : cache) : option (N * N * cache) :=
  let need := um in
  match (if 0 <? free s then req_clines t None need um s else Some (0, um, s)) with
  | None => None
  | Some (r, um, s) =>
    if need <=? r then Some (r, um, s)
    else match evict_user_partitions t (need - r) true (-1) um s with
         | None => None
         | Some (k, um, s) =>
           let r := r + k in
           if need <=? r then Some (r, um, s)
           else match evict_user_partitions t (need - r) false (prio (cfg s t)) um s with
                | None => None
                | Some (k, um, s) => Some (r + k, um, s)
                end
         end
  end.

(** ocf_prepare_clines_miss (engine_common.c:440-458) and ocf_space_managment_remap_do
    (ocf_space.c:141-157) for a request of class t with [um] unmapped and [rp] lines to move;
    the boolean: mapped (LOOKUP_REMAPPED) *)
Definition map_request (t : nat) (um rp : N) (s : cache) : option (bool * cache) :=
  match (if has_space s t um rp then remap_do t um s else evict_part_do t um s) with
  | None => None
  | Some (r, _, s) => Some (um <=? r, s)
  end.

(** ** Configuration *)

(** The value by which ocf_user_part_lst_cmp_valid orders (utils_user_part.c:37-38, 56-74) *)
Definition sort_value (s : cache) (p : nat) : Z :=
  (if valid (cfg s p) then prio (cfg s p) else if (0 <? occ s p)%N then 32767 else -32768)%Z.
(** ocf_user_part_lst_cmp_valid(a, b) > 0 (utils_user_part.c:76-81) *)
Definition cmp_gt (s : cache) (a b : nat) : bool :=
  (sort_value s a <? sort_value s b)%Z || ((sort_value s a =? sort_value s b)%Z && (a <? b)%nat).
(** The flag it sets (utils_user_part.c:46-74) *)
Definition evict_flag (s : cache) (p : nat) : bool :=
  if valid (cfg s p) then negb (prio (cfg s p) =? -1)%Z else 0 <? occ s p.
Definition set_evict (s : cache) : nat -> conf := fun p =>
  let c := cfg s p in
  {| valid := valid c; added := added c; eviction := evict_flag s p; prio := prio c; minp := minp c; maxp := maxp c |}.
(** ocf_user_part_sort (utils_user_part.h:93-96); the flag is set in all classes of the list when
    there are two or more *)
Definition part_sort (s : cache) : option cache :=
  match lst_sort MAXP (cmp_gt s) (lst s) with
  | None => None
  | Some l => let ps := order s in
              let c := fun p => if (1 <? length ps)%nat && existsb (Nat.eqb p) ps then set_evict s p else cfg s p in
              Some (with_lst (with_cfg s c) l)
  end.

(** ocf_user_part_set_valid (utils_user_part.c:168-188) *)
Definition set_valid (c : conf) (v : bool) : conf :=
  if Bool.eqb v (valid c) then c
  else if v then {| valid := true; added := added c; eviction := eviction c; prio := prio c; minp := minp c; maxp := maxp c |}
  else {| valid := false; added := added c; eviction := eviction c; prio := 255; minp := 0; maxp := 100 |}.

(** ocf_mngt_add_partition_to_cache (ocf_mngt_io_class.c:29-83) with min_size 0 and max_size 100 as
    its callers pass; None also for the error codes, which are bugs in the callers *)
Definition add_partition (p : nat) (pr : Z) (v : bool) (s : cache) : option cache :=
  if valid (cfg s p) || existsb (Nat.eqb p) (order s) then None
  else
    let c := cfg s p in
    let c := {| valid := valid c; added := added c; eviction := eviction c; prio := pr; minp := 0; maxp := 100 |} in
    let c := set_valid c v in
    match add MAXP p (lst s) with
    | None => None
    | Some l => match part_sort (with_lst (with_cfg s (upd (cfg s) p c)) l) with
                | None => None
                | Some s => let c := cfg s p in
                            Some (with_cfg s (upd (cfg s) p {| valid := valid c; added := true; eviction := eviction c; prio := prio c; minp := minp c; maxp := maxp c |}))
                end
    end.
Fixpoint add_partitions (ps : list nat) (s : cache) : option cache :=
  match ps with
  | [] => Some s
  | p :: ps => match add_partition p 255 (p =? 0)%nat s with Some s => add_partitions ps s | None => None end
  end.
(** ocf_user_part_init and __init_partitions (utils_user_part.c:84-94, ocf_mngt_cache.c:182-204)
    on zeroed metadata *)
Definition zero_conf : conf := {| valid := false; added := false; eviction := false; prio := 0; minp := 0; maxp := 0 |}.
Definition start (n : N) : option cache :=
  add_partitions (seq 0 MAXP)
    {| cfg := fun _ => zero_conf; lst := lst_init MAXP (fun _ => {| next := 0; prev := 0 |}); occ := fun _ => 0; free := n; avail := fun _ => 0; availf := n; lines := n |}.

(** _ocf_mngt_io_class_edit (ocf_mngt_io_class.c:228-239): Some (priority, max size) configures,
    None removes.  Minimum sizes are always set to 0 (ocf_mngt_io_class.c:120).  The sum check of
    _ocf_mngt_set_partition_size (ocf_mngt_io_class.c:93-99) cannot fail with minimum sizes 0. *)
Definition edit (p : nat) (e : option (Z * N)) (c : conf) : conf :=
  match e with
  | Some (pr, mx) => if added c then
                       let c := {| valid := valid c; added := added c; eviction := eviction c; prio := prio c; minp := 0; maxp := mx |} in
                       let c := set_valid c true in
                       {| valid := valid c; added := added c; eviction := eviction c; prio := pr; minp := minp c; maxp := maxp c |}
                     else c
  | None => if (p =? 0)%nat then c else if valid c then set_valid c false else c
  end.
(** ocf_mngt_cache_io_classes_configure (ocf_mngt_io_class.c:278-330), arguments validated *)
Definition configure (es : nat -> option (Z * N)) (s : cache) : option cache :=
  part_sort (with_cfg s (fun p => if (p <? MAXP)%nat then edit p (es p) (cfg s p) else cfg s p)).

(** Loading a cache: a new instance (start), then the configuration of the classes is read into
    place from metadata (metadata_superblock.c:303-310, 371-376, metadata.c:596-601) together with the
    sizes; the list of classes is not touched: ocf_user_part_sort is called from
    ocf_mngt_io_class.c:78 and 317 only. *)
Definition load (saved : cache) : option cache :=
  match start (lines saved) with
  | None => None
  | Some s => Some {| cfg := cfg saved; lst := lst s; occ := occ saved; free := free saved; avail := avail saved; availf := availf saved; lines := lines saved |}
  end.

(** ** Histories *)

(** Configuring, requests of a valid class (ocf_user_part_class2id, utils_user_part.h:49-56), lines
    moved to a valid class by hits (ocf_user_part_move, utils_user_part.c:96-166), lines
    invalidated, lines becoming clean, dirty or locked, reload *)
Inductive event :=
| Configure (es : nat -> option (Z * N)) | Request (t : nat) (um rp : N) | Move (p t : nat) (k : N)
| Release (p : nat) (k : N) | Avail (f : nat -> N) (ff : N) | Load.

(** _ocf_mngt_io_class_validate_cfg (ocf_mngt_io_class.c:241-276) *)
Definition valid_cfg (e : option (Z * N)) : bool :=
  match e with None => true | Some (pr, mx) => ((-1 <=? pr) && (pr <=? 255))%Z && (mx <=? 100) end.

Definition step (e : event) (s : cache) : option cache :=
  match e with
  | Configure es => if forallb (fun p => valid_cfg (es p)) (seq 0 MAXP) then configure es s else Some s
  | Request t um rp => if (t <? MAXP)%nat && valid (cfg s t) then option_map snd (map_request t um rp s) else Some s
  | Move p t k => if (p <? MAXP)%nat && (t <? MAXP)%nat && valid (cfg s t) && negb (p =? t)%nat && (k <=? occ s p)
                  then let o := upd (occ s) p (occ s p - k) in
                       Some {| cfg := cfg s; lst := lst s; occ := upd o t (o t + k); free := free s; avail := avail s; availf := availf s; lines := lines s |}
                  else Some s
  | Release p k => if (p <? MAXP)%nat && (k <=? occ s p)
                   then Some {| cfg := cfg s; lst := lst s; occ := upd (occ s) p (occ s p - k); free := free s + k; avail := avail s; availf := availf s; lines := lines s |}
                   else Some s
  | Avail f ff => Some {| cfg := cfg s; lst := lst s; occ := occ s; free := free s; avail := fun p => N.min (f p) (occ s p); availf := N.min ff (free s); lines := lines s |}
  | Load => load s
  end.
Fixpoint run (es : list event) (s : cache) : option cache :=
  match es with [] => Some s | e :: es => match step e s with Some s => run es s | None => None end end.

(** The statistics reports: /repo/src/ocf_stats_builder.c, /repo/src/utils/utils_stats.h, the reading of the
    counters in /repo/src/ocf_stats.c:234-381, the sums of ocf_cache_get_info (/repo/src/ocf_cache.c:111-230)
    and ocf_core_visit (/repo/src/ocf_core.c:121-148).
    Simplified: all counters are read at one moment (what a report taken while requests run can show is in
    StatsModel.v and in [usage_torn] below); counters are not negative; allocation of the temporary
    structure does not fail; debug statistics are off. *)
From Coq Require Import NArith List Bool Arith.
Import ListNotations.
Open Scope N_scope.

(** The counters of struct ocf_counters_part (ocf_stats_priv.h), of an io class in the runtime metadata
    (ocf_core_priv.h:63-77), and the error counters of a core.  [w]: of writes. *)
Inductive field := Partial | Full | Total | Pass.
Inductive vol := User | CoreVol | CacheVol | Through.
Inductive ctr := Req (w : bool) (f : field) | Bytes (v : vol) (w : bool) | Err (cache w : bool) | Occ | Dirty.

(** A core: opened; its counters by io class; error counters; cached_clines and dirty_clines of the core. *)
Record core := { opened : bool; cnt : nat -> ctr -> N; errs : bool -> bool -> N; cached : N; dirtied : N }.
(** A cache: standby; attached; conf_meta->cachelines; line size; its cores in order of their ids; which
    io classes exist. *)
Record cache := { standby : bool; attached : bool; cachelines : N; line : N; cores : list core; exists_class : nat -> bool }.

(** OCF_CONFIG_MAX_IO_CLASSES, /repo/inc/ocf_cfg.h:23-24. *)
Definition CLASSES : nat := 33.
Definition u64 (x : N) : N := x mod 2 ^ 64.
Definition u32 (x : N) : N := x mod 2 ^ 32.
(** x - y in 64 bits, both below 2^64; in 32 bits *)
Definition sub64 (x y : N) : N := u64 (x + 2 ^ 64 - y).
Definition sub32 (x y : N) : N := u32 (x + 2 ^ 32 - y).

(** Types of the members of struct ocf_stats_core (/repo/inc/ocf_stats.h): error counters, occupancy and
    dirty lines have 32 bits. *)
Definition trunc (k : ctr) (x : N) : N := match k with Err _ _ | Occ | Dirty => u32 x | _ => u64 x end.

(** ocf_core_get_stats, ocf_stats.c:331-381. *)
Definition core_get_stats (c : core) (k : ctr) : N :=
  match k with
  | Err a w => u32 (errs c a w)
  | _ => fold_left (fun s i => trunc k (s + cnt c i k)) (seq 0 CLASSES) 0
  end.
(** ocf_core_io_class_get_stats, ocf_stats.c:291-329: 64 bits each; there are no error counters. *)
Definition class_get_stats (c : core) (p : nat) (k : ctr) : N :=
  match k with Err _ _ => 0 | _ => u64 (cnt c p k) end.

(** ocf_core_visit with only_opened. *)
Definition visit {A} (f : A -> core -> A) (l : list core) (a : A) : A :=
  fold_left (fun a c => if opened c then f a c else a) l a.

(** _accumulate_stats, ocf_stats_builder.c:404-425; occupancy and dirty are not added. *)
Definition accumulate (k : ctr) (s : N) (c : core) : N :=
  match k with Occ | Dirty => s | _ => trunc k (s + core_get_stats c k) end.
(** _accumulate_io_class_stats, ocf_stats_builder.c:210-235. *)
Definition accumulate_class (p : nat) (k : ctr) (s : N) (c : core) : N :=
  match k with Err _ _ => s | _ => u64 (s + class_get_stats c p k) end.
Definition cache_stats (l : list core) (k : ctr) : N := visit (accumulate k) l 0.
Definition class_stats (l : list core) (p : nat) (k : ctr) : N := visit (accumulate_class p k) l 0.

(** ** The reports *)

(** struct ocf_stat: value and fraction (percent x100). *)
Record stat := { value : N; fraction : N }.
(** _fraction, _set, utils_stats.h:17-26, 43-48. *)
Definition frac (n d : N) : N := if d =? 0 then 0 else u64 (10000 * n) / d.
Definition set (v d : N) : stat := {| value := v; fraction := frac v d |}.
(** _lines4k, _bytes4k, utils_stats.h:28-41. *)
Definition lines4k (n size : N) : N := u64 (n * (size / 4096)).
Definition bytes4k (b : N) : N := u64 (b + 4095) / 4096.

(** Lines of the report on requests. *)
Inductive rline := Hits (w : bool) | Partials (w : bool) | Fulls (w : bool) | Totals (w : bool) | Passed (w : bool) | Serviced | All.
(** _fill_req and _fill_req_part, ocf_stats_builder.c:16-79. *)
Definition fill_req (s : ctr -> N) (l : rline) : stat :=
  let serviced := u64 (s (Req false Total) + s (Req true Total)) in
  let total := u64 (serviced + s (Req false Pass) + s (Req true Pass)) in
  match l with
  | Hits w => set (sub64 (s (Req w Total)) (u64 (s (Req w Full) + s (Req w Partial)))) total
  | Partials w => set (s (Req w Partial)) total
  | Fulls w => set (s (Req w Full)) total
  | Totals w => set (s (Req w Total)) total
  | Passed w => set (s (Req w Pass)) total
  | Serviced => set serviced total
  | All => set total total
  end.

(** Lines on a volume: reads ([Some false]), writes ([Some true]), total ([None]).
    _fill_blocks, _fill_blocks_part, ocf_stats_builder.c:81-155. *)
Definition fill_blocks (s : ctr -> N) (v : vol) (l : option bool) : stat :=
  let rd := bytes4k (s (Bytes v false)) in
  let wr := bytes4k (s (Bytes v true)) in
  let total := u64 (rd + wr) in
  match l with Some false => set rd total | Some true => set wr total | None => set total total end.

(** _fill_errors, ocf_stats_builder.c:157-180; the overall total is computed in 32 bits. *)
Definition fill_errors (s : ctr -> N) (cache : bool) (l : option bool) : stat :=
  let rd := s (Err cache false) in
  let wr := s (Err cache true) in
  let total := rd + wr in
  match l with Some false => set rd total | Some true => set wr total | None => set total total end.
Definition fill_errors_total (s : ctr -> N) : stat :=
  let t := u32 (s (Err false false) + s (Err false true) + s (Err true false) + s (Err true true)) in set t t.

Inductive uline := Occupancy | Free | Clean | DirtyL.
Record report := { usage : uline -> stat; requests : rline -> stat; blocks : vol -> option bool -> stat;
                   errors : bool -> option bool -> stat; errors_total : stat }.

(** _ocf_stats_part_fill, ocf_stats_builder.c:237-270 ([free_clines] is always 0, ocf_stats.c:318).
    There are no errors in a report on a class. *)
Definition part_fill (h : cache) (s : ctr -> N) : report :=
  {| usage := fun l => match l with
       | Occupancy => set (lines4k (s Occ) (line h)) (lines4k (cachelines h) (line h))
       | Free => set (lines4k 0 (line h)) (lines4k (cachelines h) (line h))
       | Clean => set (lines4k (sub64 (s Occ) (s Dirty)) (line h)) (lines4k (s Occ) (line h))
       | DirtyL => set (lines4k (s Dirty) (line h)) (lines4k (s Occ) (line h))
       end;
     requests := fill_req s; blocks := fill_blocks s;
     errors := fun _ _ => {| value := 0; fraction := 0 |}; errors_total := {| value := 0; fraction := 0 |} |}.

(** ocf_stats_collect_part_core, ocf_stats_builder.c:272-301. *)
Definition collect_part_core (h : cache) (c : core) (p : nat) : option report :=
  if standby h || negb (p <? CLASSES)%nat then None
  else if negb (exists_class h p) then None
  else Some (part_fill h (class_get_stats c p)).
(** ocf_stats_collect_part_cache, ocf_stats_builder.c:303-333: whether the class exists is found out when
    the first core is visited. *)
Definition collect_part_cache (h : cache) (p : nat) : option report :=
  if standby h || negb (p <? CLASSES)%nat then None
  else if negb (exists_class h p) && existsb opened (cores h) then None
  else Some (part_fill h (class_stats (cores h) p)).

(** ocf_get_cache_occupancy, ocf_cache_priv.h:176-186. *)
Definition occupancy64 (h : cache) : N := fold_left (fun s c => u64 (s + cached c)) (cores h) 0.

(** ocf_stats_collect_core, ocf_stats_builder.c:335-402. *)
Definition core_report (h : cache) (c : core) : report :=
  let s := core_get_stats c in
  {| usage := fun l => match l with
       | Occupancy => set (lines4k (s Occ) (line h)) (lines4k (cachelines h) (line h))
       | Free => set (lines4k (sub64 (cachelines h) (occupancy64 h)) (line h)) (lines4k (cachelines h) (line h))
       | Clean => set (lines4k (sub32 (s Occ) (s Dirty)) (line h)) (lines4k (s Occ) (line h))
       | DirtyL => set (lines4k (s Dirty) (line h)) (lines4k (s Occ) (line h))
       end;
     requests := fill_req s; blocks := fill_blocks s; errors := fill_errors s; errors_total := fill_errors_total s |}.
Definition collect_core (h : cache) (c : core) : option report :=
  if standby h then None else Some (core_report h c).

(** info.size, info.occupancy, info.dirty: ocf_cache_get_info, ocf_cache.c:138-142, 160-203 (sums in 32 bits). *)
Definition info_size (h : cache) : N := if attached h then cachelines h else 0.
Definition info_occupancy (h : cache) : N := fold_left (fun s c => u32 (s + cached c)) (cores h) 0.
Definition info_dirty (h : cache) : N := fold_left (fun s c => u32 (s + dirtied c)) (cores h) 0.

(** ocf_stats_collect_cache, ocf_stats_builder.c:427-494. [sub]: the width of the subtractions is that of
    the members of struct ocf_cache_info, 32 bits (/repo/inc/ocf_cache.h). *)
Definition cache_report (h : cache) : report :=
  let s := cache_stats (cores h) in
  {| usage := fun l => match l with
       | Occupancy => set (lines4k (info_occupancy h) (line h)) (lines4k (info_size h) (line h))
       | Free => set (lines4k (sub32 (info_size h) (info_occupancy h)) (line h)) (lines4k (info_size h) (line h))
       | Clean => set (lines4k (sub32 (info_occupancy h) (info_dirty h)) (line h)) (lines4k (info_size h) (line h))
       | DirtyL => set (lines4k (info_dirty h) (line h)) (lines4k (info_size h) (line h))
       end;
     requests := fill_req s; blocks := fill_blocks s; errors := fill_errors s; errors_total := fill_errors_total s |}.
Definition collect_cache (h : cache) : option report := if standby h then None else Some (cache_report h).

(** The part of a cache that belongs to cores that are not opened: ocf_cache.c:182-188, 205-216. *)
Definition inactive_usage (h : cache) (l : uline) : stat :=
  let o := fold_left (fun s c => if opened c then s else u32 (s + cached c)) (cores h) 0 in
  let d := fold_left (fun s c => if opened c then s else u32 (s + dirtied c)) (cores h) 0 in
  if attached h then
    match l with
    | Occupancy => set (lines4k o (line h)) (lines4k (info_size h) (line h))
    | Free => {| value := 0; fraction := 0 |}
    | Clean => set (lines4k (sub32 o d) (line h)) (lines4k (info_occupancy h) (line h))
    | DirtyL => set (lines4k d (line h)) (lines4k (info_occupancy h) (line h))
    end
  else {| value := 0; fraction := 0 |}.

(** [Clean] of a core when occupancy was read, lines became dirty, and then dirty was read
    (ocf_stats.c:374-377). *)
Definition usage_torn (h : cache) (occ dirty : N) : stat :=
  set (lines4k (sub32 occ dirty) (line h)) (lines4k occ (line h)).

(** Request statistics: the counters of one core (ocf_stats.c), how they are read and reset while requests
    run, the report (ocf_stats_builder.c, utils/utils_stats.h) and which counter an engine updates. *)
From Coq Require Import NArith List Bool Arith.
Import ListNotations.
Open Scope nat_scope.

(** struct ocf_counters_req (ocf_stats_priv.h:20-25) of a class and direction (part_counters[], 162-172) *)
Inductive field := Partial | Full | Total | Pass.
Record var := { cls : nat; wr : bool; fld : field }.
Definition field_eqb (a b : field) : bool := match a, b with Partial, Partial | Full, Full | Total, Total | Pass, Pass => true | _, _ => false end.
Definition var_eqb (a b : var) : bool := (cls a =? cls b) && Bool.eqb (wr a) (wr b) && field_eqb (fld a) (fld b).
Definition V (c : nat) (w : bool) (f : field) : var := {| cls := c; wr := w; fld := f |}.
Definition two64 : N := (2 ^ 64)%N.
Definition add64 (a b : N) : N := ((a + b) mod two64)%N.
Definition sub64 (a b : N) : N := ((a + (two64 - b mod two64)) mod two64)%N.

(** What a request reports: its class, direction, whether it bypasses the cache, req->info.hit_no (0 if it was
    deferred, engine_common.c:588-593) and the number of its lines *)
Record rq := { r_cls : nat; r_wr : bool; r_pt : bool; r_hit : N; r_lines : N }.
(** The atomic increments of ocf_core_stats_request_update (ocf_stats.c:113-135) and
    ocf_core_stats_request_pt_update (ocf_stats.c:137-154), in order *)
Definition prog (r : rq) : list var :=
  if r_pt r then [V (r_cls r) (r_wr r) Pass]
  else V (r_cls r) (r_wr r) Total ::
       (if (r_hit r =? 0)%N then [V (r_cls r) (r_wr r) Full]
        else if (r_hit r <? r_lines r)%N then [V (r_cls r) (r_wr r) Partial] else []).

(** struct ocf_stats_req *)
Record sums := { s_partial : N; s_full : N; s_total : N; s_pass : N }.
Definition zero : sums := {| s_partial := 0; s_full := 0; s_total := 0; s_pass := 0 |}%N.
(** accum_req_stats, copy_req_stats (ocf_stats.c:234-250) *)
Definition accum (a : sums) (p f t x : N) : sums :=
  {| s_partial := add64 (s_partial a) p; s_full := add64 (s_full a) f; s_total := add64 (s_total a) t; s_pass := add64 (s_pass a) x |}.
(** The parts that ocf_core_get_stats visits (ocf_stats.c:361-378): reads, then writes of each class *)
Definition blocks (n : nat) : list (nat * bool) := flat_map (fun c => [(c, false); (c, true)]) (seq 0 n).
(** OCF_CONFIG_MAX_IO_CLASSES (inc/ocf_cfg.h:23-24) *)
Definition CLASSES : nat := 33.
(** ocf_core_stats_initialize (ocf_stats.c:31-37, 197-210): order of the stores *)
Definition reset_prog (n : nat) : list var :=
  flat_map (fun c => flat_map (fun w => [V c w Full; V c w Partial; V c w Total; V c w Pass]) [false; true]) (seq 0 n).

(** Threads: a request at increment [pc]; a reader (what is left to visit, values of the current part, sums of reads and
    writes); a reset *)
Inductive thread :=
| Upd (r : rq) (pc : nat)
| Reader (todo : list (nat * bool)) (cur : list N) (rd wr : sums)
| Reset (todo : list var).
Record st := { mem : var -> N; ths : list thread }.
Definition set (m : var -> N) (v : var) (x : N) : var -> N := fun y => if var_eqb y v then x else m y.
Fixpoint upd {A} (l : list A) (i : nat) (x : A) : list A :=
  match l, i with
  | [], _ => []
  | _ :: l, 0 => x :: l
  | y :: l, S i => y :: upd l i x
  end.
(** One atomic access of a thread *)
Definition tstep (m : var -> N) (t : thread) : (var -> N) * thread :=
  match t with
  | Upd r pc => match nth_error (prog r) pc with
                | Some v => (set m v (add64 (m v) 1), Upd r (S pc))
                | None => (m, t)
                end
  | Reader ((c, w) :: todo) [] a b => (m, Reader ((c, w) :: todo) [m (V c w Partial)] a b)
  | Reader ((c, w) :: todo) [p] a b => (m, Reader ((c, w) :: todo) [p; m (V c w Full)] a b)
  | Reader ((c, w) :: todo) [p; f] a b => (m, Reader ((c, w) :: todo) [p; f; m (V c w Total)] a b)
  | Reader ((c, w) :: todo) (p :: f :: t' :: _) a b =>
      let x := m (V c w Pass) in
      (m, if w then Reader todo [] a (accum b p f t' x) else Reader todo [] (accum a p f t' x) b)
  | Reader [] _ _ _ => (m, t)
  | Reset (v :: todo) => (set m v 0%N, Reset todo)
  | Reset [] => (m, t)
  end.
Definition step (i : nat) (s : st) : st :=
  match nth_error (ths s) i with
  | Some t => let (m, t') := tstep (mem s) t in {| mem := m; ths := upd (ths s) i t' |}
  | None => s
  end.
Definition run (sched : list nat) (s : st) : st := fold_left (fun s i => step i s) sched s.
Definition start (l : list thread) : st := {| mem := fun _ => 0%N; ths := l |}.

(** The report: _fill_req, _fill_req_part (ocf_stats_builder.c:16-79) *)
Record report := { rd_hits : N; rd_partial : N; rd_full : N; rd_total : N; wr_hits : N; wr_partial : N; wr_full : N; wr_total : N; rd_pt : N; wr_pt : N; serviced : N; total : N }.
Definition fill (r w : sums) : report :=
  let srv := add64 (s_total r) (s_total w) in
  {| rd_hits := sub64 (s_total r) (add64 (s_full r) (s_partial r)); rd_partial := s_partial r; rd_full := s_full r; rd_total := s_total r;
     wr_hits := sub64 (s_total w) (add64 (s_full w) (s_partial w)); wr_partial := s_partial w; wr_full := s_full w; wr_total := s_total w;
     rd_pt := s_pass r; wr_pt := s_pass w; serviced := srv; total := add64 (add64 srv (s_pass r)) (s_pass w) |}.
(** _fraction (utils_stats.h:17-26) *)
Definition fraction (n d : N) : N := if (d =? 0)%N then 0%N else (((10000 * n) mod two64) / d)%N.

(** ** Which updates the engines make for one request *)
Inductive update := Served | Passed.
(** What happens to the request: it hits (all lines); it holds read locks only; how often it is found dirty and cleaned
    first; cleaning succeeds; the cache device fails the hit; the line locks fail; mapping fails; misses are blocked;
    sequential cutoff of a fully dirty request; the fast path has room *)
Record life := { hit : bool; rd_lock : bool; rounds : nat; clean_ok : bool; cache_err : bool; lock_err : bool; map_err : bool; blocked : bool; cutoff : bool; fits : bool }.
(** ocf_read_pt_do (engine_pt.c:45-91), _ocf_engine_clean_end (engine_common.c:375-398) *)
Fixpoint read_pt_do (e : life) (n : nat) : list update :=
  match n with
  | 0 => [Passed]
  | S n => if clean_ok e then read_pt_do e n else []
  end.
(** _ocf_write_wi_core_write (engine_wi.c:119-155) *)
Fixpoint write_wi_do (e : life) (n : nat) : list update :=
  match n with
  | 0 => [Passed]
  | S n => if clean_ok e then write_wi_do e n else []
  end.
(** ocf_read_generic_submit_hit and its completion (engine_rd.c:26-42); engine_fast.c:32-51 *)
Definition hit_io (e : life) : list update := Served :: if cache_err e then read_pt_do e (rounds e) else [].
(** _ocf_read_generic_do (engine_rd.c:108-167) *)
Fixpoint read_generic_do (e : life) (n : nat) : list update :=
  if negb (hit e) && rd_lock e then read_pt_do e n
  else if hit e then hit_io e
  else match n with
       | 0 => [Served]
       | S n => if clean_ok e then read_generic_do e n else []
       end.
(** ocf_read_pt with force_pt (engine_pt.c:93-155) *)
Definition read_pt_forced (e : life) : list update := if lock_err e then [] else read_pt_do e (rounds e).
(** ocf_read_generic (engine_rd.c:174-221) *)
Definition read_generic (e : life) : list update :=
  if blocked e || map_err e then read_pt_forced e else if lock_err e then [] else read_generic_do e (rounds e).
(** ocf_read_pt (engine_pt.c:93-155) *)
Definition read_pt (e : life) : list update := if cutoff e then read_generic e else read_pt_forced e.
(** ocf_read_wo, ocf_read_wo_do (engine_wo.c:172-248) *)
Definition read_wo (e : life) : list update := if lock_err e then [] else if hit e then hit_io e else [Served].
(** ocf_read_fast, _ocf_read_fast_do (engine_fast.c:53-146); [after]: the engine used if the fast path is not taken *)
Definition read_fast (e : life) (after : life -> list update) : list update :=
  if hit e && fits e then if lock_err e then [] else hit_io e else after e.
(** ocf_write_wi (engine_wi.c:163-212) *)
Definition write_wi (e : life) : list update := if lock_err e then [] else write_wi_do e (rounds e).
(** ocf_write_wt, ocf_write_wb (engine_wt.c:154-220, engine_wb.c:125-186) *)
Definition write_wt (e : life) : list update := if map_err e then write_wi e else if lock_err e then [] else [Served].
Definition write_wb (e : life) : list update := if map_err e then write_wi e else if lock_err e then [] else [Served].
(** ocf_write_wa (engine_wa.c:20-52) *)
Definition write_wa (e : life) : list update := if hit e then write_wt e else write_wi e.
(** ocf_write_fast (engine_fast.c:157-220) *)
Definition write_fast (e : life) (after : life -> list update) : list update :=
  if hit e && fits e then if lock_err e then [] else [Served] else after e.
(** ocf_d2c_io_fast (engine_d2c.c:32-55) *)
Definition d2c (e : life) : list update := [Passed].
(** cache_mode_io_if_map and the fast path (cache_engine.c:46-120, ocf_core.c:220-257); None: no cache device *)
Inductive mode := WT | WB | WA | WI | PT | WO.
Definition engine (m : option mode) (fast write : bool) (e : life) : list update :=
  match m with
  | None => d2c e
  | Some PT => if write then write_wi e else read_pt e
  | Some m =>
    let after := if write then match m with WT => write_wt | WA => write_wa | WI => write_wi | _ => write_wb end
                 else match m with WO => read_wo | _ => read_generic end in
    if fast then if write then write_fast e after else read_fast e after else after e
  end.

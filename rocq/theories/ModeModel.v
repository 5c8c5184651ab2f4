(** Choice of the cache mode and of the engine for a request, and the fallback
    pass-through error counter.

    Models /repo/src/engine/cache_engine.c:45-236 (engine table, fallback test,
    mode resolution), /repo/src/ocf_core.c:220-258, 295-324 (fast path
    selection), /repo/src/engine/engine_fast.c:93-220 (when the fast path takes a
    request), /repo/src/engine/engine_common.c:595-608 and
    /repo/src/mngt/ocf_mngt_cache.c:3710-3757 (error counter).

    Simplified: the sequential cut-off decision (ocf_seq_cutoff.c) and the result
    of the reference counter increment (ocf_env_refcnt.c) are inputs. *)
From Coq Require Import NArith List Bool.
From Verif Require Import DpModel.
Import ListNotations.
Open Scope N_scope.

Inductive dir := Rd | Wr.

(** What the resolution reads.  [thr], [cnt]: fallback threshold and counter;
    [attach_pt]; [pt_unal]: pt_unaligned_io; [cache_lines]; [cfg_mode]:
    conf_meta->cache_mode; [class_mode]: the mode of the request's class, [None]
    when it is ocf_cache_mode_none / _max (class follows the cache);
    [use_fast]: use_submit_io_fast; [dirty_blocked]: refcnt.dirty is frozen. *)
Record menv := {
  thr : N; cnt : N; attach_pt : bool; pt_unal : bool; cache_lines : N;
  cfg_mode : mode; class_mode : option mode; use_fast : bool; dirty_blocked : bool }.

(** [m_seq]: answer of ocf_core_seq_cutoff_check. *)
Record mreq := { m_dir : dir; m_addr : N; m_bytes : N; m_lines : N; m_seq : bool }.

(** ocf_request.h:552-555. *)
Definition is_4k (q : mreq) : bool := (m_addr q mod 4096 =? 0) && (m_bytes q mod 4096 =? 0).

(** cache_engine.c:139-152 [ocf_fallback_pt_is_on]. *)
Definition fallback_on (t c : N) : bool := if t =? 0 then false else t <=? c.

(** ocf_mngt.h:839-842. *)
Definition lazy (m : mode) : bool := match m with WB | WO => true | _ => false end.

(** cache_engine.c:154-198 [ocf_resolve_effective_cache_mode]: the mode and the
    value of [req->dirty] (a reference on refcnt.dirty was taken). *)
Definition resolve (e : menv) (q : mreq) : mode * bool :=
  if fallback_on (thr e) (cnt e) then (PT, false)
  else if attach_pt e then (PT, false)
  else if pt_unal e && negb (is_4k q) then (PT, false)
  else if cache_lines e <? m_lines q then (PT, false)
  else if m_seq q then (PT, false)
  else
    let m := match class_mode e with Some m => m | None => cfg_mode e end in
    match m_dir q with
    | Rd => (m, false)
    | Wr => if lazy m then (if dirty_blocked e then (WT, false) else (m, true)) else (m, false)
    end.

(** ocf_core.c:220-235 [_ocf_core_req_resolve_fast_mode] and :242-247: is the
    fast engine tried? *)
Definition tries_fast (e : menv) (m : mode) : bool :=
  match m with
  | PT => false
  | WB | WO => true
  | _ => use_fast e
  end.

(** Engines of cache_engine.c:45-105. *)
Inductive engine := E_read_generic | E_read_pt | E_read_wo | E_read_fast
| E_write_wt | E_write_wb | E_write_wa | E_write_wi | E_write_fast.

Definition engine_of (m : mode) (d : dir) : engine :=
  match d, m with
  | Rd, PT => E_read_pt
  | Rd, WO => E_read_wo
  | Rd, _ => E_read_generic
  | Wr, WT => E_write_wt
  | Wr, WB | Wr, WO => E_write_wb
  | Wr, WA => E_write_wa
  | Wr, WI | Wr, PT => E_write_wi
  end.

(** ocf_core.c:237-258, 304-316: the engine that serves the request.  [hit]: all
    sectors are cached, [mapped]: all lines are mapped, [space]:
    ocf_user_part_has_space (engine_fast.c:113-118, 176-186). *)
Definition served_by (e : menv) (q : mreq) (hit mapped space : bool) : engine :=
  let m := fst (resolve e q) in
  if tries_fast e m && space && (match m_dir q with Rd => hit | Wr => mapped end)
  then match m_dir q with Rd => E_read_fast | Wr => E_write_fast end
  else engine_of m (m_dir q).

(** Does the engine acknowledge a write with the data only in the cache?
    engine_wb.c:68-150; engine_fast.c:166, 199 hands over to ocf_write_wb_do. *)
Definition acks_dirty (g : engine) : bool :=
  match g with E_write_wb | E_write_fast => true | _ => false end.

(** ** Fallback counter *)
(** Places where a cache device error is seen (ocf_core_stats_cache_error_update
    in src/engine): engine_rd.c:34, engine_wt.c:121, engine_bf.c:64 also count for
    the fallback; engine_fast.c:37, engine_wb.c:84, engine_wo.c:27, engine_wi.c:50,
    engine_inv.c:25, engine_zero.c:41 do not. *)
Inductive errsite := Er_rd | Er_wt | Er_bf | Er_fast | Er_wb | Er_wo | Er_wi | Er_inv | Er_zero.
Definition counted (x : errsite) : bool :=
  match x with Er_rd | Er_wt | Er_bf => true | _ => false end.

Inductive fev := FErr (x : errsite) | FReset | FSetThr (t : N).
Record fst_ := { f_thr : N; f_cnt : N }.

(** engine_common.c:595-608 [inc_fallback_pt_error_counter]; the counter is an
    int: [None] once it gets negative (ENV_BUG_ON at the next look at it).
    ocf_mngt_cache.c:3710-3725 reset; :3727-3757 set threshold (above 1000000
    is refused). *)
Definition fstep (s : fst_) (e : fev) : option fst_ :=
  match e with
  | FErr x =>
      if counted x then
        if f_thr s =? 0 then Some s
        else if f_cnt s + 1 <? 2^31 then Some {| f_thr := f_thr s; f_cnt := f_cnt s + 1 |}
        else None
      else Some s
  | FReset => Some {| f_thr := f_thr s; f_cnt := 0 |}
  | FSetThr t => if 1000000 <? t then Some s else Some {| f_thr := t; f_cnt := f_cnt s |}
  end.
Fixpoint fruns (s : fst_) (l : list fev) : option fst_ :=
  match l with
  | [] => Some s
  | e :: r => match fstep s e with Some s' => fruns s' r | None => None end
  end.

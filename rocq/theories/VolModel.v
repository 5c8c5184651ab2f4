(** Data path over devices with volatile write caches: a completed write may be
    lost by a power failure until the device has completed a flush.  State,
    I/Os, in-memory updates, request geometry and space management are those of
    DpModel; the engines are repeated here with the flushes they submit.

    OCF submits a flush to a device in exactly two places: engine_flush.c:39-57
    (flush request of the user: core and cache) and utils_cleaner.c:391-399,
    290-298 (cleaner: core before the lines are marked clean, cache after the
    metadata was written).  I/O to the cache device, data and metadata alike,
    always carries flags 0 (ocf_request.c:605-610, ocf_request.h:579-582), so no
    write asks the cache device for FUA; I/O to the core carries the flags of the
    request, taken to be 0 here.  One request at a time; no I/O error.  No proofs
    here. *)
From Coq Require Import NArith List Bool.
From Verif Require Import DpModel.
Import ListNotations.
Open Scope N_scope.

(** A write held by a device: what it carries.  [PMeta]: the metadata entry of
    a cache line as it was in memory when the page was written. *)
Inductive pw :=
| PCore (cid x v : N)
| PCache (c o v : N)
| PMeta (c : N) (t : option (N * N)) (v d : N -> bool).

Definition snap (e : io) (s : st) : pw :=
  match e with
  | WCore cid x v => PCore cid x v
  | WCache c o v => PCache c o v
  | Persist c => PMeta c (tbl s c) (vld s c) (drt s c)
  end.

Definition do_pw (w : pw) (s : st) : st :=
  match w with
  | PCore cid x v =>
      {| core := upd2 (core s) cid x v; cdat := cdat s; tbl := tbl s; vld := vld s;
         drt := drt s; ptbl := ptbl s; pvld := pvld s; pdrt := pdrt s |}
  | PCache c o v =>
      {| core := core s; cdat := upd2 (cdat s) c o v; tbl := tbl s; vld := vld s;
         drt := drt s; ptbl := ptbl s; pvld := pvld s; pdrt := pdrt s |}
  | PMeta c t v d =>
      {| core := core s; cdat := cdat s; tbl := tbl s; vld := vld s; drt := drt s;
         ptbl := upd1 (ptbl s) c t;
         pvld := (fun x o => if x =? c then v o else pvld s x o);
         pdrt := (fun x o => if x =? c then d o else pdrt s x o) |}
  end.
Fixpoint do_pws (l : list pw) (s : st) : st :=
  match l with [] => s | w :: r => do_pws r (do_pw w s) end.

Definition on_core (cid : N) (w : pw) : bool :=
  match w with PCore i _ _ => i =? cid | _ => false end.
Definition on_cache (w : pw) : bool :=
  match w with PCore _ _ _ => false | _ => true end.

(** [now]: what the devices return and what is in memory; [dur]: what the media
    hold (only the device contents matter); [pend]: completed writes since,
    oldest first. *)
Record vst := { now : st; dur : st; pend : list pw }.

(** [plp]: the cache device protects its writes against power failures. *)
Definition vio (plp : bool) (e : io) (v : vst) : vst :=
  let w := snap e (now v) in
  if plp && on_cache w
  then {| now := do_io e (now v); dur := do_pw w (dur v); pend := pend v |}
  else {| now := do_io e (now v); dur := dur v; pend := pend v ++ [w] |}.
Fixpoint vios (plp : bool) (l : list io) (v : vst) : vst :=
  match l with [] => v | e :: r => vios plp r (vio plp e v) end.
Definition vmems (g : cfg) (l : list mem) (v : vst) : vst :=
  {| now := do_mems g l (now v); dur := dur v; pend := pend v |}.

(** Completed flush of the writes selected by [f]. *)
Definition vflush (f : pw -> bool) (v : vst) : vst :=
  {| now := now v; dur := do_pws (filter f (pend v)) (dur v);
     pend := filter (fun w => negb (f w)) (pend v) |}.
Fixpoint flush_cores (cids : list N) (v : vst) : vst :=
  match cids with [] => v | cid :: r => flush_cores r (vflush (on_core cid) v) end.

(** Power failure: of the pending writes any part reached the medium, in any
    order.  What was in memory is gone (recovery does not look at it). *)
Definition powered (v : vst) (u : st) : Prop :=
  exists sub, incl sub (pend v) /\ u = do_pws sub (dur v).

(** ** Requests. *)
Inductive vprog :=
| VRet (b : N -> N)
| VIo (es : list io) (k : st -> vprog)
| VMem (es : list mem) (k : st -> vprog)
| VFlushCores (cids : list N) (k : vprog)
| VFlushCache (k : vprog).

(** Core ids of cleaned lines: utils_cleaner.c:391-399 flushes the core of the
    cleaning request (one request per core here). *)
Definition cores_of (s : st) (cs : list N) : list N :=
  flat_map (fun c => match tbl s c with Some (cid, _) => [cid] | None => [] end) cs.

(** utils_cleaner.c:430-525 (core writes), 391-399 (core flush), 315-364 (lines
    marked clean, metadata written), 290-298 (cache flush). *)
Definition clean_v (g : cfg) (s : st) (cs0 : list N) (k : st -> vprog) : vprog :=
  let cs := filter (line_dirty g s) cs0 in
  match cs with
  | [] => k s
  | _ =>
    VIo (clean_writes g s cs) (fun _ =>
    VFlushCores (cores_of s cs) (
    VMem (map (fun c => SetC c 0 (ls g - 1)) cs) (fun _ =>
    VIo (persist g cs) (fun t => VFlushCache (k t)))))
  end.

(** engine_common.c:436-538. *)
Definition prepare_v (g : cfg) (s : st) (r : req) (promo : bool) (vs : list N)
    (yes no : st -> vprog) : vprog :=
  if is_mapped g s r then yes s
  else if negb promo then no s
  else let '(m, ok, l) := remap g r (cl_list g r) vs s in
       if ok then VMem m yes
       else VMem (m ++ map (fun c => SetI c 0 (ls g - 1)) l) no.

(** engine_wb.c:68-190. *)
Definition wb_v (g : cfg) (r : req) (d : N -> N) (s : st) : vprog :=
  VIo (cache_writes g s r d) (fun _ =>
  VMem ((if is_hit g s r then [] else set_valid g s r) ++
       (if is_dirty_all g s r then [] else set_dirty g s r)) (fun _ =>
  if is_dirty_all g s r then VRet no_data
  else match mark_dirty g s r with
       | [] => VRet no_data
       | ml => VIo (persist g ml) (fun _ => VRet no_data)
       end)).

(** engine_wi.c:24-205. *)
Definition wi_purge_v (g : cfg) (r : req) (k : st -> vprog) (s : st) : vprog :=
  match slots g s r with
  | [] => k s
  | _ =>
    VMem (purge g s r) (fun s' =>
      match mark_clean g s r with
      | [] => k s'
      | ml => VIo (persist g ml) k
      end)
  end.
Definition wi_v (g : cfg) (r : req) (d : N -> N) (s : st) : vprog :=
  clean_v g s (dirty_lines g s r) (fun s1 =>
  VIo (core_writes r d) (fun s2 =>
  wi_purge_v g r (fun s3 =>
    if is_hit g s r then VRet no_data
    else wi_purge_v g r (fun _ => VRet no_data) s3) s2)).

(** engine_wt.c:66-200: no flush between the core write and the metadata. *)
Definition wt_v (g : cfg) (r : req) (d : N -> N) (s : st) : vprog :=
  if dirty_any g s r then
    VIo (cache_writes g s r d ++ core_writes r d) (fun _ =>
    VMem ((if is_hit g s r then [] else set_valid g s r) ++ set_clean g s r) (fun _ =>
    match mark_clean g s r with
    | [] => VRet no_data
    | ml => VIo (persist g ml) (fun _ => VRet no_data)
    end))
  else
    VMem (if is_hit g s r then [] else set_valid g s r) (fun _ =>
    VIo (cache_writes g s r d ++ core_writes r d) (fun _ => VRet no_data)).

(** cache_engine.c:29-105, engine_wa.c:20-60. *)
Definition write_v (g : cfg) (m : mode) (promo : bool) (vs : list N)
    (r : req) (d : N -> N) (s : st) : vprog :=
  match m with
  | WB | WO => prepare_v g s r promo vs (wb_v g r d) (wi_v g r d)
  | WT => prepare_v g s r promo vs (wt_v g r d) (wi_v g r d)
  | WA => if is_hit g s r then prepare_v g s r promo vs (wt_v g r d) (wi_v g r d)
          else wi_v g r d s
  | WI | PT => wi_v g r d s
  end.
(** engine_fast.c:120-200. *)
Definition write_fast_v (g : cfg) (m : mode) (promo : bool) (vs : list N)
    (r : req) (d : N -> N) (s : st) : vprog :=
  if is_mapped g s r then wb_v g r d s else write_v g m promo vs r d s.

(** engine_pt.c:24-150. *)
Definition pt_v (g : cfg) (r : req) (s : st) : vprog :=
  clean_v g s (dirty_lines g s r) (fun s1 => VRet (core s1 (rc r))).
(** engine_rd.c:55-290, engine_bf.c. *)
Definition rd_v (g : cfg) (r : req) (s : st) : vprog :=
  if is_hit g s r then VRet (read_cache g s r)
  else clean_v g s (dirty_lines g s r) (fun s1 =>
       let buf := core s1 (rc r) in
       VIo (cache_writes g s1 r buf) (fun s2 =>
       VMem (set_valid g s2 r) (fun _ => VRet buf))).
(** engine_wo.c:30-260. *)
Definition wo_v (g : cfg) (r : req) (s : st) : vprog :=
  if is_hit g s r then VRet (read_cache g s r)
  else if dirty_any g s r then
    VRet (fun x => match lookup g s (rc r) (x / ls g) with
                  | Some c => if vld s c (x mod ls g) then cdat s c (x mod ls g)
                              else core s (rc r) x
                  | None => core s (rc r) x
                  end)
  else VRet (core s (rc r)).
Definition read_v (g : cfg) (m : mode) (promo seqc : bool) (vs : list N)
    (r : req) (s : st) : vprog :=
  match m with
  | PT => if seqc && is_dirty_all g s r then prepare_v g s r promo vs (rd_v g r) (pt_v g r)
          else pt_v g r s
  | WO => wo_v g r s
  | _ => prepare_v g s r promo vs (rd_v g r) (pt_v g r)
  end.
(** engine_fast.c:60-118. *)
Definition read_fast_v (g : cfg) (m : mode) (promo seqc : bool) (vs : list N)
    (r : req) (s : st) : vprog :=
  if is_hit g s r then VRet (read_cache g s r) else read_v g m promo seqc vs r s.

(** Operations; discards are not treated here. *)
Definition op_v (g : cfg) (o : op) (s : st) : option vprog :=
  match o with
  | OpWrite fast m promo vs r d =>
      Some (if fast then write_fast_v g m promo vs r d s else write_v g m promo vs r d s)
  | OpRead fast m promo seqc vs r =>
      Some (if fast then read_fast_v g m promo seqc vs r s else read_v g m promo seqc vs r s)
  | OpDiscard _ _ _ => None
  | OpClean cs => Some (clean_v g s cs (fun _ => VRet no_data))
  | OpDropClean c =>
      Some (if line_dirty g s c then VRet no_data
            else VMem [SetI c 0 (ls g - 1)] (fun _ => VRet no_data))
  | OpFlushMeta cs => Some (VIo (persist g cs) (fun _ => VRet no_data))
  end.

(** Flush request of the user on core [cid]: engine_flush.c:39-57. *)
Definition user_flush (cid : N) (v : vst) : vst := vflush on_cache (vflush (on_core cid) v).

(** Execution of every group in program order (for examples). *)
Fixpoint run_v (g : cfg) (plp : bool) (p : vprog) (v : vst) : (N -> N) * vst :=
  match p with
  | VRet b => (b, v)
  | VIo es k => let t := vios plp es v in run_v g plp (k (now t)) t
  | VMem es k => let t := vmems g es v in run_v g plp (k (now t)) t
  | VFlushCores cids k => run_v g plp k (flush_cores cids v)
  | VFlushCache k => run_v g plp k (vflush on_cache v)
  end.

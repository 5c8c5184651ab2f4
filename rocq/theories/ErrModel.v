(** Data path with failing devices: the engines of DpModel, with the branches
    that handle an I/O error.  State, I/Os, in-memory updates, request geometry
    and space management are those of DpModel.  One request at a time; the
    cache volume is not atomic (engine_inv.c:43-44), metadata is not volatile
    (utils_cleaner.c:358).  No proofs here. *)
From Coq Require Import NArith List Bool.
From Verif Require Import DpModel.
Import ListNotations.
Open Scope N_scope.

(** What a request does.  After a group of I/Os the next step learns whether an
    I/O to the cache device ([ce]) and whether an I/O to the core device ([oe])
    reported an error.  Reads and flushes, which change no contents here, are
    groups with an empty list: they can still fail.  [ERet err b]: completion
    with or without an error. *)
Inductive eprog :=
| ERet (err : bool) (b : N -> N)
| EIo (es : list io) (k : bool -> bool -> st -> eprog)
| EMem (es : list mem) (k : st -> eprog).

(** Device an I/O goes to. *)
Definition to_core (e : io) : bool := match e with WCore _ _ _ => true | _ => false end.

(** Engine error path engine_inv.c:20-58 ocf_engine_invalidate: the range is
    purged in memory; the metadata is not written (not an atomic volume). *)
Definition inv_e (g : cfg) (r : req) (err : bool) (b : N -> N) (s : st) : eprog :=
  EMem (purge g s r) (fun _ => ERet err b).

(** Cleaning on behalf of a request: utils_cleaner.c:554-592 (read of the lines
    from the cache), :527-548 (read error: nothing is written), :449-525 (core
    writes), :401-423 (write error: no line is marked clean), :392-399 and
    :366-390 (core flush and its error), :315-364 (lines marked clean, metadata
    written), :300-313 (metadata error: only reported), :280-298 (cache flush, its
    error is not reported).  All lines are cleaned by one cleaning request.  engine_common.c:375-398: a cleaning error completes the
    request with an error, nothing else is done. *)
Definition clean_e (g : cfg) (s : st) (cs0 : list N) (k : st -> eprog) : eprog :=
  let cs := filter (line_dirty g s) cs0 in
  match cs with
  | [] => k s
  | _ =>
    EIo [] (fun ce _ _ =>
    if ce then ERet true no_data else
    EIo (clean_writes g s cs) (fun _ oe _ =>
    EIo [] (fun _ fe _ =>
    if oe || fe then ERet true no_data else
    EMem (map (fun c => SetC c 0 (ls g - 1)) cs) (fun _ =>
    EIo (persist g cs) (fun me _ _ =>
    if me then ERet true no_data else
    EIo [] (fun _ _ t => k t))))))
  end.

(** engine_common.c:436-538 as in DpModel; no I/O here. *)
Definition prepare_e (g : cfg) (s : st) (r : req) (promo : bool) (vs : list N)
    (yes no : st -> eprog) : eprog :=
  if is_mapped g s r then yes s
  else if negb promo then no s
  else let '(m, ok, l) := remap g r (cl_list g r) vs s in
       if ok then EMem m yes
       else EMem (m ++ map (fun c => SetI c 0 (ls g - 1)) l) no.

(** engine_wb.c:25-95: data error: the request fails and its range is purged;
    metadata error: the request fails, the bits stay as set. *)
Definition wb_e (g : cfg) (r : req) (d : N -> N) (s : st) : eprog :=
  EIo (cache_writes g s r d) (fun ce _ s1 =>
  if ce then inv_e g r true no_data s1 else
  EMem ((if is_hit g s r then [] else set_valid g s r) ++
       (if is_dirty_all g s r then [] else set_dirty g s r)) (fun _ =>
  if is_dirty_all g s r then ERet false no_data
  else match mark_dirty g s r with
       | [] => ERet false no_data
       | ml => EIo (persist g ml) (fun me _ _ => ERet me no_data)
       end)).

(** engine_wi.c:47-98 (metadata error: the request fails), :100-117 (core error:
    the request fails, nothing is purged). *)
Definition wi_purge_e (g : cfg) (r : req) (k : st -> eprog) (s : st) : eprog :=
  match slots g s r with
  | [] => k s
  | _ =>
    EMem (purge g s r) (fun s' =>
      match mark_clean g s r with
      | [] => k s'
      | ml => EIo (persist g ml) (fun me _ t => if me then ERet true no_data else k t)
      end)
  end.
Definition wi_e (g : cfg) (r : req) (d : N -> N) (s : st) : eprog :=
  clean_e g s (dirty_lines g s r) (fun _ =>
  EIo (core_writes r d) (fun _ oe s2 =>
  if oe then ERet true no_data else
  wi_purge_e g r (fun s3 =>
    if is_hit g s r then ERet false no_data
    else wi_purge_e g r (fun _ => ERet false no_data) s3) s2)).

(** engine_wt.c:57-138: a cache error alone is not reported; after either error
    the range is purged.  Metadata error: the request fails. *)
Definition wt_e (g : cfg) (r : req) (d : N -> N) (s : st) : eprog :=
  if dirty_any g s r then
    EIo (cache_writes g s r d ++ core_writes r d) (fun ce oe s1 =>
    if ce || oe then inv_e g r oe no_data s1 else
    EMem ((if is_hit g s r then [] else set_valid g s r) ++ set_clean g s r) (fun _ =>
    match mark_clean g s r with
    | [] => ERet false no_data
    | ml => EIo (persist g ml) (fun me _ _ => ERet me no_data)
    end))
  else
    EMem (if is_hit g s r then [] else set_valid g s r) (fun _ =>
    EIo (cache_writes g s r d ++ core_writes r d) (fun ce oe s1 =>
    if ce || oe then inv_e g r oe no_data s1 else ERet false no_data)).

Definition write_e (g : cfg) (m : mode) (promo : bool) (vs : list N)
    (r : req) (d : N -> N) (s : st) : eprog :=
  match m with
  | WB | WO => prepare_e g s r promo vs (wb_e g r d) (wi_e g r d)
  | WT => prepare_e g s r promo vs (wt_e g r d) (wi_e g r d)
  | WA => if is_hit g s r then prepare_e g s r promo vs (wt_e g r d) (wi_e g r d)
          else wi_e g r d s
  | WI | PT => wi_e g r d s
  end.
Definition write_fast_e (g : cfg) (m : mode) (promo : bool) (vs : list N)
    (r : req) (d : N -> N) (s : st) : eprog :=
  if is_mapped g s r then wb_e g r d s else write_e g m promo vs r d s.

(** engine_pt.c:21-91: core error: the request fails. *)
Definition pt_e (g : cfg) (r : req) (s : st) : eprog :=
  clean_e g s (dirty_lines g s r) (fun s1 =>
  EIo [] (fun _ oe _ => ERet oe (core s1 (rc r)))).

(** engine_rd.c:26-42, engine_fast.c:32-51: error of a cache read: the request is
    served from the core (engine_pt.c:162-166). *)
Definition hit_e (g : cfg) (r : req) (s : st) : eprog :=
  EIo [] (fun ce _ s' => if ce then pt_e g r s' else ERet false (read_cache g s r)).

(** engine_rd.c:44-73 (core error: the request fails and its range is purged),
    engine_bf.c:42-97 (backfill error: not reported, the range is purged; the same
    without memory for the backfill). *)
Definition rd_e (g : cfg) (r : req) (s : st) : eprog :=
  if is_hit g s r then hit_e g r s
  else clean_e g s (dirty_lines g s r) (fun s1 =>
       let buf := core s1 (rc r) in
       EIo [] (fun _ oe s1' =>
       if oe then inv_e g r true no_data s1' else
       EIo (cache_writes g s1 r buf) (fun ce _ s2 =>
       if ce then inv_e g r false buf s2 else
       EMem (set_valid g s2 r) (fun _ => ERet false buf)))).

(** engine_wo.c:23-42 (cache error: the request fails), :153-170 (core error: the
    request fails), :172-198. *)
Definition wo_e (g : cfg) (r : req) (s : st) : eprog :=
  if is_hit g s r then hit_e g r s
  else EIo [] (fun _ oe _ =>
    if oe then ERet true no_data
    else if dirty_any g s r then
      EIo [] (fun ce _ _ =>
      ERet ce (fun x => match lookup g s (rc r) (x / ls g) with
                        | Some c => if vld s c (x mod ls g) then cdat s c (x mod ls g)
                                    else core s (rc r) x
                        | None => core s (rc r) x
                        end))
    else ERet false (core s (rc r))).

Definition read_e (g : cfg) (m : mode) (promo seqc : bool) (vs : list N)
    (r : req) (s : st) : eprog :=
  match m with
  | PT => if seqc && is_dirty_all g s r then prepare_e g s r promo vs (rd_e g r) (pt_e g r)
          else pt_e g r s
  | WO => wo_e g r s
  | _ => prepare_e g s r promo vs (rd_e g r) (pt_e g r)
  end.
Definition read_fast_e (g : cfg) (m : mode) (promo seqc : bool) (vs : list N)
    (r : req) (s : st) : eprog :=
  if is_hit g s r then hit_e g r s else read_e g m promo seqc vs r s.

(** Operations of a history; discards are not treated here. *)
Definition op_e (g : cfg) (o : op) (s : st) : option eprog :=
  match o with
  | OpWrite fast m promo vs r d =>
      Some (if fast then write_fast_e g m promo vs r d s else write_e g m promo vs r d s)
  | OpRead fast m promo seqc vs r =>
      Some (if fast then read_fast_e g m promo seqc vs r s else read_e g m promo seqc vs r s)
  | OpDiscard _ _ _ => None
  | OpClean cs => Some (clean_e g s cs (fun _ => ERet false no_data))
  | OpDropClean c =>
      Some (if line_dirty g s c then ERet false no_data
            else EMem [SetI c 0 (ls g - 1)] (fun _ => ERet false no_data))
  | OpFlushMeta cs => Some (EIo (persist g cs) (fun me _ _ => ERet me no_data))
  end.

(** What a group of I/Os can do: [l] are the writes that reached the device, in
    the order in which they did.  A device that reports no error has done all of
    its writes; one that reports an error may have done any part of them. *)
Definition outcome (es l : list io) (ce oe : bool) : Prop :=
  incl l es /\
  (ce = false -> forall e, In e es -> to_core e = false -> In e l) /\
  (oe = false -> forall e, In e es -> to_core e = true -> In e l).

(** Complete run of a request: [flt] tells whether some I/O failed. *)
Inductive fexec (g : cfg) : eprog -> st -> bool -> bool -> (N -> N) -> st -> Prop :=
| fx_ret err b s : fexec g (ERet err b) s err false b s
| fx_io es k s l ce oe err flt b t :
    outcome es l ce oe ->
    fexec g (k ce oe (do_ios l s)) (do_ios l s) err flt b t ->
    fexec g (EIo es k) s err (ce || oe || flt) b t
| fx_mem es k s err flt b t :
    fexec g (k (do_mems g es s)) (do_mems g es s) err flt b t ->
    fexec g (EMem es k) s err flt b t.

(** Execution for examples: for each group the errors reported; of the writes to
    a device that reports one, those at the given positions are done.  Groups
    beyond the list succeed. *)
Fixpoint part (sel : list nat) (ce oe : bool) (i : nat) (es : list io) : list io :=
  match es with
  | [] => []
  | e :: es' =>
      if negb (if to_core e then oe else ce) || existsb (Nat.eqb i) sel
      then e :: part sel ce oe (S i) es' else part sel ce oe (S i) es'
  end.
Fixpoint run_e (g : cfg) (p : eprog) (fs : list (list nat * bool * bool)) (s : st)
    : bool * (N -> N) * st :=
  match p with
  | ERet err b => (err, b, s)
  | EIo es k =>
      match fs with
      | [] => let t := do_ios es s in run_e g (k false false t) [] t
      | (sel, ce, oe) :: fs' =>
          let t := do_ios (part sel ce oe 0 es) s in run_e g (k ce oe t) fs' t
      end
  | EMem es k => let t := do_mems g es s in run_e g (k t) fs t
  end.

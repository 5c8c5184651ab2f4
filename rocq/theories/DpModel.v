(** Data path of the cache: what every engine does to the core devices, to the
    cache data area, to the in-memory cache line metadata and to the metadata
    stored on the cache device.

    Modelled sources (/repo/src):
      engine/engine_common.c (lookup, request info, prepare, cleaning)
      engine/engine_rd.c, engine_bf.c, engine_wt.c, engine_wb.c, engine_wi.c,
      engine_wa.c, engine_pt.c, engine_wo.c, engine_fast.c, engine_discard.c,
      engine_inv.c, utils/utils_cache_line.[ch], utils/utils_cleaner.c,
      mngt/ocf_mngt_cache.c (recovery of the collision table).

    One request runs at a time here (the concurrent behaviour is in ConcModel.v);
    inside of a request every parallel group of I/Os may be executed in any
    order and a crash may cut it anywhere.

    Simplified: the collision hash lists are replaced by the map "cache line ->
    core line" (CollisionModel.v shows that the lists implement it); sector
    data is an opaque number; statistics, LRU order, partitions and locks are
    absent (the choice of eviction victims and of the promotion policy is an
    arbitrary argument of each operation). *)
From Coq Require Import NArith List Bool.
Import ListNotations.
Open Scope N_scope.

(** Sectors per cache line ([ocf_line_sectors]), number of cache lines
    ([collision_table_entries]), collision entries per metadata page
    ([raw->entries_in_page]). *)
Record cfg := { ls : N; nlines : nat; epp : N }.

(** Core device contents (core id, sector), cache data area (cache line, sector
    in line), in-memory collision info / valid / dirty bits, and the same three
    as stored on the cache device. *)
Record st := {
  core : N -> N -> N;
  cdat : N -> N -> N;
  tbl : N -> option (N * N);
  vld : N -> N -> bool;
  drt : N -> N -> bool;
  ptbl : N -> option (N * N);
  pvld : N -> N -> bool;
  pdrt : N -> N -> bool }.

Definition upd2 {A} (f : N -> N -> A) (a b : N) (v : A) : N -> N -> A :=
  fun x y => if (x =? a) && (y =? b) then v else f x y.
Definition upd1 {A} (f : N -> A) (a : N) (v : A) : N -> A :=
  fun x => if x =? a then v else f x.
Definition updr (f : N -> N -> bool) (c s e : N) (v : bool) : N -> N -> bool :=
  fun x o => if (x =? c) && (s <=? o) && (o <=? e) then v else f x o.

(** The integers s, s+1, ..., e. *)
Definition rng (s e : N) : list N :=
  map (fun i => s + N.of_nat i) (seq 0 (N.to_nat (e + 1 - s))).

(** ** Device I/O.  [Persist c]: the metadata entry of line [c] goes to the
    cache device as part of a metadata page write. *)
Inductive io :=
| WCore (cid x v : N)
| WCache (c o v : N)
| Persist (c : N).

Definition do_io (e : io) (s : st) : st :=
  match e with
  | WCore cid x v =>
      {| core := upd2 (core s) cid x v; cdat := cdat s; tbl := tbl s; vld := vld s;
         drt := drt s; ptbl := ptbl s; pvld := pvld s; pdrt := pdrt s |}
  | WCache c o v =>
      {| core := core s; cdat := upd2 (cdat s) c o v; tbl := tbl s; vld := vld s;
         drt := drt s; ptbl := ptbl s; pvld := pvld s; pdrt := pdrt s |}
  | Persist c =>
      {| core := core s; cdat := cdat s; tbl := tbl s; vld := vld s; drt := drt s;
         ptbl := upd1 (ptbl s) c (tbl s c);
         pvld := (fun x o => if x =? c then vld s c o else pvld s x o);
         pdrt := (fun x o => if x =? c then drt s c o else pdrt s x o) |}
  end.

(** ** In-memory metadata updates. *)
Inductive mem :=
| SetV (c s e : N)      (* utils_cache_line.c:76-90 set_cache_line_valid *)
| SetD (c s e : N)      (* utils_cache_line.c:134-174 set_cache_line_dirty *)
| SetC (c s e : N)      (* utils_cache_line.c:92-132 set_cache_line_clean *)
| SetI (c s e : N)      (* utils_cache_line.c:10-43 __set_cache_line_invalid *)
| MapL (c : N) (k : N * N). (* engine_common.c:282-303 ocf_map_cache_line *)

Definition any_valid (g : cfg) (f : N -> N -> bool) (c : N) : bool :=
  existsb (f c) (rng 0 (ls g - 1)).

Definition do_mem (g : cfg) (e : mem) (s : st) : st :=
  match e with
  | SetV c a b =>
      {| core := core s; cdat := cdat s; tbl := tbl s; vld := updr (vld s) c a b true;
         drt := drt s; ptbl := ptbl s; pvld := pvld s; pdrt := pdrt s |}
  | SetD c a b =>
      {| core := core s; cdat := cdat s; tbl := tbl s; vld := vld s;
         drt := updr (drt s) c a b true; ptbl := ptbl s; pvld := pvld s; pdrt := pdrt s |}
  | SetC c a b =>
      {| core := core s; cdat := cdat s; tbl := tbl s; vld := vld s;
         drt := updr (drt s) c a b false; ptbl := ptbl s; pvld := pvld s; pdrt := pdrt s |}
  | SetI c a b =>
      (* without waiters the line goes to the free list when no sector of it
         remains valid: utils_cache_line.c:23-35 *)
      let v := updr (vld s) c a b false in
      {| core := core s; cdat := cdat s;
         tbl := if any_valid g v c then tbl s else upd1 (tbl s) c None;
         vld := v; drt := drt s; ptbl := ptbl s; pvld := pvld s; pdrt := pdrt s |}
  | MapL c k =>
      {| core := core s; cdat := cdat s; tbl := upd1 (tbl s) c (Some k); vld := vld s;
         drt := drt s; ptbl := ptbl s; pvld := pvld s; pdrt := pdrt s |}
  end.

Fixpoint do_ios (l : list io) (s : st) : st :=
  match l with [] => s | e :: r => do_ios r (do_io e s) end.
Fixpoint do_mems (g : cfg) (l : list mem) (s : st) : st :=
  match l with [] => s | e :: r => do_mems g r (do_mem g e s) end.

(** ** What a request does: groups of I/Os issued in parallel ([Io], the next
    step starts when all have completed), in-memory updates made under the
    metadata lock ([Mem]); each next step may depend on the state.  [Ret b]:
    completion, [b] maps a core sector to the data returned for it (reads). *)
Inductive prog :=
| Ret (b : N -> N)
| Io (es : list io) (k : st -> prog)
| Mem (es : list mem) (k : st -> prog).

(** ** Request geometry in sectors: ocf_request.h core_line_first/count,
    utils_cache_line.h:217-237 ocf_map_line_start_sector / end_sector.
    [rc] core id, [ra] first sector, [rn] number of sectors. *)
Record req := { rc : N; ra : N; rn : N }.
Definition rlast (r : req) : N := ra r + rn r - 1.
Definition cl_first (g : cfg) (r : req) : N := ra r / ls g.
Definition cl_last (g : cfg) (r : req) : N := rlast r / ls g.
Definition cl_list (g : cfg) (r : req) : list N := rng (cl_first g r) (cl_last g r).
Definition sstart (g : cfg) (r : req) (cl : N) : N :=
  if cl =? cl_first g r then ra r mod ls g else 0.
Definition send (g : cfg) (r : req) (cl : N) : N :=
  if cl =? cl_last g r then rlast r mod ls g else ls g - 1.

(** ** Lookup and request info: engine_common.c:76-118, 132-180, 211-247. *)
Definition keyb (k : option (N * N)) (cid cl : N) : bool :=
  match k with Some (a, b) => (a =? cid) && (b =? cl) | None => false end.
Definition all_lines (g : cfg) : list N := map N.of_nat (seq 0 (nlines g)).
Definition lookup (g : cfg) (s : st) (cid cl : N) : option N :=
  find (fun c => keyb (tbl s c) cid cl) (all_lines g).

(** The mapped slots of the request: (core line, cache line). *)
Definition slots (g : cfg) (s : st) (r : req) : list (N * N) :=
  flat_map (fun cl => match lookup g s (rc r) cl with Some c => [(cl, c)] | None => [] end)
    (cl_list g r).

Definition slot_hit (g : cfg) (s : st) (r : req) (cl : N) : bool :=
  match lookup g s (rc r) cl with
  | Some c => forallb (vld s c) (rng (sstart g r cl) (send g r cl))
  | None => false
  end.
Definition line_dirty (g : cfg) (s : st) (c : N) : bool :=
  existsb (drt s c) (rng 0 (ls g - 1)).
Definition slot_dirty_all (g : cfg) (s : st) (r : req) (cl : N) : bool :=
  match lookup g s (rc r) cl with
  | Some c => forallb (drt s c) (rng (sstart g r cl) (send g r cl))
  | None => false
  end.
Definition slot_mapped (g : cfg) (s : st) (r : req) (cl : N) : bool :=
  match lookup g s (rc r) cl with Some _ => true | None => false end.

(** engine_common.h:36-102. *)
Definition is_hit (g : cfg) (s : st) (r : req) : bool :=
  forallb (slot_hit g s r) (cl_list g r).
Definition is_mapped (g : cfg) (s : st) (r : req) : bool :=
  forallb (slot_mapped g s r) (cl_list g r).
Definition is_dirty_all (g : cfg) (s : st) (r : req) : bool :=
  forallb (slot_dirty_all g s r) (cl_list g r).
Definition dirty_lines (g : cfg) (s : st) (r : req) : list N :=
  filter (line_dirty g s) (map snd (slots g s r)).
Definition dirty_any (g : cfg) (s : st) (r : req) : bool :=
  negb (match dirty_lines g s r with [] => true | _ => false end).

(** ** Groups of I/O over the mapped slots. *)
Definition slot_rng (g : cfg) (r : req) (cl : N) : list N :=
  rng (sstart g r cl) (send g r cl).
Definition cache_writes (g : cfg) (s : st) (r : req) (d : N -> N) : list io :=
  flat_map (fun p => map (fun o => WCache (snd p) o (d (fst p * ls g + o)))
    (slot_rng g r (fst p))) (slots g s r).
Definition core_writes (r : req) (d : N -> N) : list io :=
  map (fun x => WCore (rc r) x (d x)) (rng (ra r) (rlast r)).

(** A metadata page holds the entries of [epp] consecutive lines
    (metadata_raw.c:473-504, 524-540). *)
Definition page_of (g : cfg) (c : N) : list N :=
  rng (c / epp g * epp g) (c / epp g * epp g + epp g - 1).
Definition persist (g : cfg) (cs : list N) : list io :=
  flat_map (fun c => map Persist (page_of g c)) cs.

(** utils_cache_line.h:239-322 ocf_set_{valid,dirty,clean}_map_info, :170-215
    ocf_purge_map_info. *)
Definition per_slot (g : cfg) (s : st) (r : req) (f : N -> N -> N -> list mem) : list mem :=
  flat_map (fun p => f (snd p) (sstart g r (fst p)) (send g r (fst p))) (slots g s r).
Definition set_valid (g : cfg) (s : st) (r : req) := per_slot g s r (fun c a b => [SetV c a b]).
Definition set_dirty (g : cfg) (s : st) (r : req) := per_slot g s r (fun c a b => [SetD c a b]).
Definition set_clean (g : cfg) (s : st) (r : req) := per_slot g s r (fun c a b => [SetC c a b]).
Definition purge (g : cfg) (s : st) (r : req) :=
  per_slot g s r (fun c a b => [SetC c a b; SetI c a b]).

(** Lines marked for metadata flush: metadata_raw.c:428-436 called from
    utils_cache_line.c:103-106, 145-148: a sector of the range changes. *)
Definition mark_clean (g : cfg) (s : st) (r : req) : list N :=
  map snd (filter (fun p => existsb (drt s (snd p)) (slot_rng g r (fst p))) (slots g s r)).
Definition mark_dirty (g : cfg) (s : st) (r : req) : list N :=
  map snd (filter (fun p => negb (forallb (drt s (snd p)) (slot_rng g r (fst p))))
    (slots g s r)).

(** ** Cleaning: utils_cleaner.c:430-464 (ranges written), 529-560 (lines that
    are still dirty), 300-345 (whole line marked clean, metadata flush).
    The cleaner reads the whole line from the cache first (:494-527). *)
Definition clean_sectors (g : cfg) (s : st) (c : N) : list N :=
  if forallb (vld s c) (rng 0 (ls g - 1)) && line_dirty g s c
  then rng 0 (ls g - 1)
  else filter (fun o => vld s c o && drt s c o) (rng 0 (ls g - 1)).
Definition clean_writes (g : cfg) (s : st) (cs : list N) : list io :=
  flat_map (fun c => match tbl s c with
    | Some (cid, cl) => map (fun o => WCore cid (cl * ls g + o) (cdat s c o)) (clean_sectors g s c)
    | None => [] end) cs.
Definition clean_prog (g : cfg) (s : st) (cs0 : list N) (k : st -> prog) : prog :=
  let cs := filter (line_dirty g s) cs0 in
  match cs with
  | [] => k s
  | _ =>
    Io (clean_writes g s cs) (fun _ =>
    Mem (map (fun c => SetC c 0 (ls g - 1)) cs) (fun _ =>
    Io (persist g cs) k))
  end.

(** ** Space management: engine_common.c:282-420 and eviction.  [vs]: the cache
    lines chosen for the unmapped slots, in order.  A victim must be free, or
    clean and not belonging to the request (ocf_lru.c eviction: only clean
    lists are scanned, lines of the request itself are skipped).  Returns the
    in-memory updates done and whether all slots got a line; on failure the
    lines mapped so far are invalidated again
    (engine_common.c:306-343 ocf_engine_map_hndl_error). *)
Definition can_take (g : cfg) (s : st) (r : req) (c : N) : bool :=
  match tbl s c with
  | None => true
  | Some (cid, cl) =>
      negb (line_dirty g s c) &&
      negb ((cid =? rc r) && (cl_first g r <=? cl) && (cl <=? cl_last g r))
  end && existsb (N.eqb c) (all_lines g).

Fixpoint remap (g : cfg) (r : req) (cls vs : list N) (s : st) : list mem * bool * list N :=
  match cls with
  | [] => ([], true, [])
  | cl :: cls' =>
      if slot_mapped g s r cl then remap g r cls' vs s
      else match vs with
           | c :: vs' =>
               if can_take g s r c then
                 let u := [SetI c 0 (ls g - 1); MapL c (rc r, cl)] in
                 let '(m, ok, l) := remap g r cls' vs' (do_mems g u s) in (u ++ m, ok, c :: l)
               else ([], false, [])
           | [] => ([], false, [])
           end
  end.

(** [prepare g s r promo vs yes no]: engine_common.c ocf_engine_prepare_clines:
    fully mapped requests go on; otherwise the promotion policy may refuse
    ([promo = false]); otherwise lines are inserted / remapped. *)
Definition prepare (g : cfg) (s : st) (r : req) (promo : bool) (vs : list N)
    (yes no : st -> prog) : prog :=
  if is_mapped g s r then yes s
  else if negb promo then no s
  else let '(m, ok, l) := remap g r (cl_list g r) vs s in
       if ok then Mem m yes
       else Mem (m ++ map (fun c => SetI c 0 (ls g - 1)) l) no.

(** ** Write engines. *)
Definition no_data (_ : N) : N := 0.

(** engine_wb.c:68-190. *)
Definition wb_do (g : cfg) (r : req) (d : N -> N) (s : st) : prog :=
  Io (cache_writes g s r d) (fun _ =>
  Mem ((if is_hit g s r then [] else set_valid g s r) ++
       (if is_dirty_all g s r then [] else set_dirty g s r)) (fun _ =>
  if is_dirty_all g s r then Ret no_data
  else match mark_dirty g s r with
       | [] => Ret no_data
       | ml => Io (persist g ml) (fun _ => Ret no_data)
       end)).

(** engine_wi.c:24-205: clean the dirty lines of the request, write the core,
    purge; second pass when the first lookup was not a full hit. *)
Definition wi_purge (g : cfg) (r : req) (k : st -> prog) (s : st) : prog :=
  match slots g s r with
  | [] => k s
  | _ =>
    Mem (purge g s r) (fun s' =>
      match mark_clean g s r with
      | [] => k s'
      | ml => Io (persist g ml) k
      end)
  end.
Definition wi_do (g : cfg) (r : req) (d : N -> N) (s : st) : prog :=
  clean_prog g s (dirty_lines g s r) (fun s1 =>
  Io (core_writes r d) (fun s2 =>
  wi_purge g r (fun s3 =>
    if is_hit g s r then Ret no_data
    else wi_purge g r (fun _ => Ret no_data) s3) s2)).

(** engine_wt.c:66-200. *)
Definition wt_do (g : cfg) (r : req) (d : N -> N) (s : st) : prog :=
  if dirty_any g s r then
    Io (cache_writes g s r d ++ core_writes r d) (fun _ =>
    Mem ((if is_hit g s r then [] else set_valid g s r) ++ set_clean g s r) (fun _ =>
    match mark_clean g s r with
    | [] => Ret no_data
    | ml => Io (persist g ml) (fun _ => Ret no_data)
    end))
  else
    Mem (if is_hit g s r then [] else set_valid g s r) (fun _ =>
    Io (cache_writes g s r d ++ core_writes r d) (fun _ => Ret no_data)).

Inductive mode := WT | WB | WA | PT | WI | WO.

(** engine_wt.c / engine_wb.c entry points (mapping failure: write-invalidate),
    engine_wa.c:20-60, cache_engine.c:29-105 (write callbacks per mode). *)
Definition write_prog (g : cfg) (m : mode) (promo : bool) (vs : list N)
    (r : req) (d : N -> N) (s : st) : prog :=
  match m with
  | WB | WO => prepare g s r promo vs (wb_do g r d) (wi_do g r d)
  | WT => prepare g s r promo vs (wt_do g r d) (wi_do g r d)
  | WA => if is_hit g s r then prepare g s r promo vs (wt_do g r d) (wi_do g r d)
          else wi_do g r d s
  | WI | PT => wi_do g r d s
  end.

(** engine_fast.c:120-200 ocf_write_fast: all lines mapped -> write-back;
    otherwise not handled here (the caller continues with the normal engine). *)
Definition write_fast_prog (g : cfg) (m : mode) (promo : bool) (vs : list N)
    (r : req) (d : N -> N) (s : st) : prog :=
  if is_mapped g s r then wb_do g r d s else write_prog g m promo vs r d s.

(** ** Read engines. *)
(** Data of the request as found in the cache, for fully mapped requests. *)
Definition read_cache (g : cfg) (s : st) (r : req) (x : N) : N :=
  match lookup g s (rc r) (x / ls g) with
  | Some c => cdat s c (x mod ls g)
  | None => 0
  end.

(** engine_pt.c:24-150 ocf_read_pt. *)
Definition pt_do (g : cfg) (r : req) (s : st) : prog :=
  clean_prog g s (dirty_lines g s r) (fun s1 => Ret (core s1 (rc r))).

(** engine_rd.c:55-290 and engine_bf.c: hit, or clean + core read + backfill
    (valid bits are set after the cache write). *)
Definition rd_do (g : cfg) (r : req) (s : st) : prog :=
  if is_hit g s r then Ret (read_cache g s r)
  else clean_prog g s (dirty_lines g s r) (fun s1 =>
       let buf := core s1 (rc r) in
       Io (cache_writes g s1 r buf) (fun s2 =>
       Mem (set_valid g s2 r) (fun _ => Ret buf))).

(** engine_wo.c:30-260: hit from the cache, otherwise the core data overlaid by
    every valid cached sector if some mapped line is dirty. *)
Definition wo_do (g : cfg) (r : req) (s : st) : prog :=
  if is_hit g s r then Ret (read_cache g s r)
  else if dirty_any g s r then
    Ret (fun x => match lookup g s (rc r) (x / ls g) with
                  | Some c => if vld s c (x mod ls g) then cdat s c (x mod ls g)
                              else core s (rc r) x
                  | None => core s (rc r) x
                  end)
  else Ret (core s (rc r)).

(** cache_engine.c:29-105 read callbacks; [seqc]: sequential cut-off request
    (engine_pt.c:115-125 goes to the generic read when everything is dirty). *)
Definition read_prog (g : cfg) (m : mode) (promo seqc : bool) (vs : list N)
    (r : req) (s : st) : prog :=
  match m with
  | PT => if seqc && is_dirty_all g s r then prepare g s r promo vs (rd_do g r) (pt_do g r)
          else pt_do g r s
  | WO => wo_do g r s
  | _ => prepare g s r promo vs (rd_do g r) (pt_do g r)
  end.

(** engine_fast.c:60-118 ocf_read_fast. *)
Definition read_fast_prog (g : cfg) (m : mode) (promo seqc : bool) (vs : list N)
    (r : req) (s : st) : prog :=
  if is_hit g s r then Ret (read_cache g s r) else read_prog g m promo seqc vs r s.

(** ** Discard: engine_discard.c:58-190.  Steps of at most [MAX_TRIM_RQ_SIZE]
    (= [step] sectors), then one core discard for the whole range; [dv]: what
    the core device returns for the range afterwards. *)
Fixpoint discard_steps (g : cfg) (step : N) (fuel : nat) (cid a n : N)
    (k : st -> prog) (s : st) : prog :=
  match fuel with
  | O => k s
  | S f =>
      if n =? 0 then k s
      else let m := N.min n step in
           wi_purge g {| rc := cid; ra := a; rn := m |}
             (discard_steps g step f cid (a + m) (n - m) k) s
  end.
Definition discard_prog (g : cfg) (step : N) (r : req) (dv : N -> N) (s : st) : prog :=
  discard_steps g step (N.to_nat (rn r)) (rc r) (ra r) (rn r)
    (fun _ => Io (core_writes r dv) (fun _ => Ret no_data)) s.

(** ** Operations of a history. *)
Inductive op :=
| OpWrite (fast : bool) (m : mode) (promo : bool) (vs : list N) (r : req) (d : N -> N)
| OpRead (fast : bool) (m : mode) (promo seqc : bool) (vs : list N) (r : req)
| OpDiscard (step : N) (r : req) (dv : N -> N)
| OpClean (cs : list N)     (* background cleaning / flush of any set of lines *)
| OpDropClean (c : N)       (* eviction or invalidation of a line that is clean *)
| OpFlushMeta (cs : list N). (* ocf_metadata_flush_all at stop and load: metadata.c
                               ocf_metadata_flush_all, ocf_mngt_cache.c:1870-1878, 2226-2234 *)

Definition op_prog (g : cfg) (o : op) (s : st) : prog :=
  match o with
  | OpWrite fast m promo vs r d =>
      if fast then write_fast_prog g m promo vs r d s else write_prog g m promo vs r d s
  | OpRead fast m promo seqc vs r =>
      if fast then read_fast_prog g m promo seqc vs r s else read_prog g m promo seqc vs r s
  | OpDiscard step r dv => discard_prog g step r dv s
  | OpClean cs => clean_prog g s cs (fun _ => Ret no_data)
  | OpDropClean c =>
      if line_dirty g s c then Ret no_data
      else Mem [SetI c 0 (ls g - 1)] (fun _ => Ret no_data)
  | OpFlushMeta cs => Io (persist g cs) (fun _ => Ret no_data)
  end.

(** ** Recovery after a dirty shutdown: ocf_mngt_cache.c:558-638.  [vc]: the
    cores present in the configuration ([core[core_id].conf_meta->valid]);
    [OCF_CORE_MAX] = 4096 marks an unmapped entry and is [None] here.
    Refused ([None]): a dirty but invalid sector (ocf_metadata_check), a core id
    out of range, dirty data of an unknown core.  Clean sectors become invalid;
    a line without valid sectors (or unmapped) becomes free, its status bits
    reset (:545-556 ocf_mngt_cline_reset_metadata). *)
Definition core_max : N := 4096.
Definition line_keep (g : cfg) (s : st) (c : N) : bool :=
  match ptbl s c with
  | None => false
  | Some _ => existsb (fun o => pvld s c o && pdrt s c o) (rng 0 (ls g - 1))
  end.
Definition line_ok (g : cfg) (vc : N -> bool) (s : st) (c : N) : bool :=
  forallb (fun o => implb (pdrt s c o) (pvld s c o)) (rng 0 (ls g - 1)) &&
  match ptbl s c with
  | None => true
  | Some (cid, _) => (cid <? core_max) && implb (line_keep g s c) (vc cid)
  end.
Definition recover (g : cfg) (vc : N -> bool) (s : st) : option st :=
  if forallb (line_ok g vc s) (all_lines g) then
    Some {| core := core s; cdat := cdat s;
            tbl := (fun c => if line_keep g s c then ptbl s c else None);
            vld := (fun c o => line_keep g s c && (pvld s c o && pdrt s c o));
            drt := (fun c o => line_keep g s c && pdrt s c o);
            ptbl := ptbl s; pvld := pvld s; pdrt := pdrt s |}
  else None.

(** Load after a clean shutdown: the stored collision metadata is used as it is
    (ocf_mngt_cache.c:711-725 skips the rebuild). *)
Definition load_clean (g : cfg) (s : st) : st :=
  let inr c := existsb (N.eqb c) (all_lines g) in
  {| core := core s; cdat := cdat s;
     tbl := (fun c => if inr c then ptbl s c else None);
     vld := (fun c o => inr c && pvld s c o);
     drt := (fun c o => inr c && pdrt s c o);
     ptbl := ptbl s; pvld := pvld s; pdrt := pdrt s |}.

(** A newly attached, empty cache (ocf_mngt_cache.c:2063-2087: metadata initialised
    and flushed); core contents, old cache data and old valid bits are arbitrary. *)
Definition empty_cache (core0 cdat0 : N -> N -> N) (pv : N -> N -> bool) : st :=
  {| core := core0; cdat := cdat0; tbl := (fun _ => None);
     vld := (fun _ _ => false); drt := (fun _ _ => false);
     ptbl := (fun _ => None); pvld := pv; pdrt := (fun _ _ => false) |}.

(** Execution of every group in program order (used for examples). *)
Fixpoint run_seq (g : cfg) (p : prog) (s : st) : (N -> N) * st :=
  match p with
  | Ret b => (b, s)
  | Io es k => run_seq g (k (do_ios es s)) (do_ios es s)
  | Mem es k => run_seq g (k (do_mems g es s)) (do_mems g es s)
  end.

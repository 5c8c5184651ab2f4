(** Concurrent requests on one cache line: every device I/O and every section
    under the metadata (hash bucket) lock is a step of its own, requests
    interleave freely.  One core line of [n] sectors and the cache line it may be
    mapped to; any number of requests (writes in write-back, write-through and
    write-invalidate/pass-through mode, reads, pass-through reads, cleaning).

    A device I/O is not atomic: each of its sectors is transferred in a step of
    its own.  Locks of the cache line are granted in any order to waiting requests
    (the lock itself: AlockModel.v).  Simplified: no I/O error, no discard, no
    write to the stored metadata (crashes: DpModel.v), no failing allocation;
    requests of one line only.  No proofs here. *)
From Coq Require Import NArith List Bool Arith.
Import ListNotations.

Definition V := N.
Inductive kind := KWi | KWb | KWt | KRd | KPt | KCl.

(** A request: what it is, its sectors, the data it writes. *)
Record desc := { kd : kind; rng : nat -> bool; dat : nat -> V }.
Definition is_wr (k : kind) : bool := match k with KWi | KWb | KWt => true | _ => false end.

(** What a waiting request does with its lock. *)
Inductive kont :=
| KtWi1 (hit dirty : bool)   (* engine_wi.c:163-212, first pass; req->info of the traversal *)
| KtWi2 (lk : bool)          (* second pass; [lk]: the first pass held the lock *)
| KtWb | KtWt
| KtRd (wr : bool)
| KtPt | KtCl.
(** The lock it waits for: engine_wi.c:184-191, engine_common.c:423-434,
    engine_pt.c:117-127, utils_cleaner.c:230-239. *)
Definition kwr (k : kont) : bool :=
  match k with KtWi1 _ _ | KtWi2 _ | KtWb | KtWt => true | KtRd wr => wr | KtPt | KtCl => false end.
(** Who waits for a cleaning, and the lock held meanwhile. *)
Inductive ckont := AWi (hit : bool) | ARd | APt | ACl.
Definition cwr (k : ckont) : bool := match k with AWi _ | ARd => true | APt | ACl => false end.

(** [p]: sectors of the I/O in progress not transferred yet; [b]: buffer. *)
Inductive pc :=
| Idle
| New                                     (* submitted, to be looked up *)
| NewWi                                   (* ocf_write_wi called *)
| NewPt                                   (* ocf_read_pt called *)
| Wait (k : kont)
| CRead (p : nat -> bool) (b : nat -> V) (k : ckont)  (* cache reads *)
| CSub (b : nat -> V) (k : ckont)
| CLand (p : nat -> bool) (b : nat -> V) (k : ckont)  (* core writes *)
| CBits (k : ckont)
| WiCore (lk hit : bool) (p : nat -> bool)            (* core write, line locked or not *)
| WiPurge (hit : bool)
| WiUnl                                   (* unlock, then second pass *)
| Wi2 (lk : bool)
| WiPurge2 (lk : bool)
| WbW (p : nat -> bool)
| WbBits
| WtBits
| WtW (d : bool) (p q : nat -> bool)      (* cache and core writes *)
| WtClean
| RdHit (wr : bool) (p : nat -> bool) (b : nat -> V)
| RdCore (p : nat -> bool) (b : nat -> V)
| RdFill (p : nat -> bool) (b : nat -> V)
| RdBits (b : nat -> V)
| PtCore (lk : bool) (p : nat -> bool) (b : nat -> V)
| Unl (b : nat -> V)                      (* unlock, then acknowledge *)
| Fin (b : nat -> V)
| UnlDone                                 (* acknowledged, unlock *)
| Done.

(** What the users see: submission and completion (with the data read). *)
Inductive ev := EStart (i : nat) | EAck (i : nat) (b : nat -> V).

Record st := {
  core : nat -> V; cach : nat -> V;
  mapd : bool; vld : nat -> bool; drt : nat -> bool;
  wrl : option nat; rdl : list nat; wts : list nat;
  pcs : nat -> pc; hist : list ev }.

Definition upd {A} (f : nat -> A) i v : nat -> A := fun x => if x =? i then v else f x.
Definition rm (i : nat) (l : list nat) : list nat := filter (fun x => negb (x =? i)) l.
Definition no_data : nat -> V := fun _ => 0%N.

Definition with_pc (s : st) i p :=
  {| core := core s; cach := cach s; mapd := mapd s; vld := vld s; drt := drt s;
     wrl := wrl s; rdl := rdl s; wts := wts s; pcs := upd (pcs s) i p; hist := hist s |}.
Definition with_ev (s : st) e :=
  {| core := core s; cach := cach s; mapd := mapd s; vld := vld s; drt := drt s;
     wrl := wrl s; rdl := rdl s; wts := wts s; pcs := pcs s; hist := e :: hist s |}.
Definition with_core (s : st) x v :=
  {| core := upd (core s) x v; cach := cach s; mapd := mapd s; vld := vld s; drt := drt s;
     wrl := wrl s; rdl := rdl s; wts := wts s; pcs := pcs s; hist := hist s |}.
Definition with_cach (s : st) x v :=
  {| core := core s; cach := upd (cach s) x v; mapd := mapd s; vld := vld s; drt := drt s;
     wrl := wrl s; rdl := rdl s; wts := wts s; pcs := pcs s; hist := hist s |}.
Definition with_bits (s : st) v d :=
  {| core := core s; cach := cach s; mapd := mapd s; vld := v; drt := d;
     wrl := wrl s; rdl := rdl s; wts := wts s; pcs := pcs s; hist := hist s |}.

(** A waiter; it keeps the line mapped (utils_cache_line.c:31-32). *)
Definition with_wait (s : st) i k :=
  {| core := core s; cach := cach s; mapd := mapd s; vld := vld s; drt := drt s;
     wrl := wrl s; rdl := rdl s; wts := i :: wts s; pcs := upd (pcs s) i (Wait k); hist := hist s |}.
Definition with_lock (s : st) i (wr : bool) :=
  {| core := core s; cach := cach s; mapd := mapd s; vld := vld s; drt := drt s;
     wrl := if wr then Some i else wrl s; rdl := if wr then rdl s else i :: rdl s;
     wts := rm i (wts s); pcs := pcs s; hist := hist s |}.
Definition lock_free (s : st) (wr : bool) : bool :=
  match wrl s with Some _ => false | None => if wr then match rdl s with [] => true | _ => false end else true end.
(** The line may meanwhile serve another core line: nothing to release here then. *)
Definition unlock (s : st) i :=
  {| core := core s; cach := cach s; mapd := mapd s; vld := vld s; drt := drt s;
     wrl := match wrl s with Some j => if j =? i then None else Some j | None => None end;
     rdl := rm i (rdl s); wts := wts s; pcs := pcs s; hist := hist s |}.

(** ocf_engine_remap (engine_common.c:400-421): a clean unused cache line with any
    content [c0] is taken, mapped and write-locked for request [i]. *)
Definition map_line (s : st) i (c0 : nat -> V) :=
  {| core := core s; cach := c0; mapd := true; vld := fun _ => false; drt := fun _ => false;
     wrl := Some i; rdl := []; wts := []; pcs := pcs s; hist := hist s |}.
Definition unmap (s : st) :=
  {| core := core s; cach := cach s; mapd := false; vld := fun _ => false; drt := fun _ => false;
     wrl := None; rdl := []; wts := []; pcs := pcs s; hist := hist s |}.

Section Line.
Variable n : nat.             (* sectors per line *)
Variable strict : bool.       (* the cleaner writes dirty sectors only; false in the code *)
Variable P : nat -> desc.     (* the requests *)

Definition secs := seq 0 n.
Definition none_left (p : nat -> bool) : bool := forallb (fun x => negb (p x)) secs.
Definition all_valid (s : st) (r : nat -> bool) : bool := forallb (fun x => implb (r x) (vld s x)) secs.
Definition any_valid (s : st) : bool := existsb (vld s) secs.
Definition any_dirty (s : st) : bool := existsb (drt s) secs.
Definition lset (r : nat -> bool) : nat -> bool := fun x => (x <? n) && r x.
Definition everything : nat -> bool := fun x => x <? n.

(** ocf_purge_map_info (utils_cache_line.h:170-215) under the write lock of the
    line: the sectors become clean and invalid; a line without valid sectors is
    removed unless requests wait for it (utils_cache_line.c:10-43). *)
Definition purge (s : st) (r : nat -> bool) : st :=
  let t := with_bits s (fun x => vld s x && negb (lset r x)) (fun x => drt s x && negb (lset r x)) in
  if negb (any_valid t) && match wts t with [] => true | _ => false end then unmap t else t.

(** utils_cleaner.c:449-487: sectors written to the core by a cleaning. *)
Definition clean_set (s : st) : nat -> bool :=
  if negb strict && all_valid s (fun _ => true) && any_dirty s then everything
  else fun x => (x <? n) && vld s x && drt s x.

Inductive act :=
| Go (i : nat)               (* next step of request i *)
| Sec (i x : nat)            (* next sector transfer of request i *)
| Sec2 (i x : nat)           (* core sector of a write-through write *)
| Byp (i : nat)              (* mapping error, promotion refused, ...: engine_common.c:460-538 *)
| MapIt (i : nat) (c0 : nat -> V)
| Evict.

(** Cleaning wanted by a request that holds its lock: engine_common.c:540-580. *)
Definition to_clean (s : st) i k (go : pc) : st :=
  with_pc s i (if any_dirty s then CRead everything no_data k else go).

(** After a lock was granted.  engine_common.c:609-655: req->info is refreshed,
    but not by ocf_write_wi (engine_wi.c:157-161).  engine_wb.c:98-141,
    engine_wt.c:154-177, engine_rd.c:108-167, engine_pt.c:45-91,
    utils_cleaner.c:594-657. *)
Definition granted (s : st) i (k : kont) : st :=
  let r := rng (P i) in
  match k with
  | KtWi1 hit d => if d then to_clean s i (AWi hit) (WiCore true hit (lset r))
                   else with_pc s i (WiCore true hit (lset r))
  | KtWi2 lk => with_pc s i (WiPurge2 lk)
  | KtWb => with_pc s i (WbW (lset r))
  | KtWt => with_pc s i (if any_dirty s then WtW true (lset r) (lset r) else WtBits)
  | KtRd wr => if all_valid s r then with_pc s i (RdHit wr (lset r) no_data)
               else if wr then to_clean s i ARd (RdCore (lset r) no_data)
               else to_clean s i APt (PtCore true (lset r) no_data)
  | KtPt => to_clean s i APt (PtCore true (lset r) no_data)
  | KtCl => to_clean s i ACl UnlDone
  end.

Definition after_clean (i : nat) (k : ckont) : pc :=
  let r := rng (P i) in
  match k with
  | AWi hit => WiCore true hit (lset r)
  | ARd => RdCore (lset r) no_data
  | APt => PtCore true (lset r) no_data
  | ACl => UnlDone
  end.

(** ocf_write_wi, first pass (engine_wi.c:163-212). *)
Definition go_wi (s : st) i : st :=
  if mapd s then with_wait s i (KtWi1 (all_valid s (rng (P i))) (any_dirty s))
  else with_pc s i (WiCore false false (lset (rng (P i)))).
(** ocf_read_pt (engine_pt.c:93-160). *)
Definition go_pt (s : st) i : st :=
  if mapd s then with_wait s i KtPt else with_pc s i (PtCore false (lset (rng (P i))) no_data).
(** Completion of a request by req->complete. *)
Definition ack (s : st) i b : st := with_ev s (EAck i b).

(** One step of request [i]. *)
Definition go (s : st) i : option st :=
  let r := rng (P i) in
  match pcs s i with
  | Idle => Some (with_pc (with_ev s (EStart i)) i New)
  | New =>
      match kd (P i) with
      | KWi => Some (go_wi s i)
      | KPt => Some (go_pt s i)
      (* engine_common.c:479-493: lookup and lock of a mapped line *)
      | KWb => if mapd s then Some (with_wait s i KtWb) else None
      | KWt => if mapd s then Some (with_wait s i KtWt) else None
      | KRd => if mapd s then Some (with_wait s i (KtRd (negb (all_valid s r)))) else None
      (* utils_cleaner.c:230-239, 628-657 *)
      | KCl => Some (if mapd s then with_wait s i KtCl else with_pc s i Done)
      end
  | NewWi => Some (go_wi s i)
  | NewPt => Some (go_pt s i)
  | Wait k => if lock_free s (kwr k) then Some (granted (with_lock s i (kwr k)) i k) else None
  (* utils_cleaner.c:554-592 (cache reads), 489-525, 449-487 (core writes), 315-364 *)
  | CRead p b k => if none_left p then Some (with_pc s i (CSub b k)) else None
  | CSub b k => Some (with_pc s i (CLand (clean_set s) b k))
  | CLand p b k => if none_left p then Some (with_pc s i (CBits k)) else None
  | CBits k => Some (with_pc (with_bits s (vld s) (fun _ => false)) i (after_clean i k))
  (* engine_wi.c:100-117, 68-98, 47-66, 20-45 *)
  | WiCore lk hit p =>
      if none_left p then Some (with_pc s i (if lk then WiPurge hit else Wi2 false)) else None
  | WiPurge hit => Some (with_pc (purge s r) i (if hit then Unl no_data else WiUnl))
  | WiUnl => Some (with_pc (unlock s i) i (Wi2 true))
  | Wi2 lk => Some (if mapd s then with_wait s i (KtWi2 lk) else with_pc s i (Fin no_data))
  | WiPurge2 lk => Some (with_pc (purge s r) i (Unl no_data))
  (* engine_wb.c:79-95, 62-77, 25-48, 50-60 *)
  | WbW p => if none_left p then Some (with_pc s i WbBits) else None
  | WbBits => Some (with_pc (with_bits s (fun x => vld s x || lset r x) (fun x => drt s x || lset r x))
                            i (Unl no_data))
  (* engine_wt.c:159-164, 88-110, 70-86, 23-55 *)
  | WtBits => Some (with_pc (with_bits s (fun x => vld s x || lset r x) (drt s))
                            i (WtW false (lset r) (lset r)))
  | WtW d p q =>
      if none_left p && none_left q then Some (with_pc s i (if d then WtClean else Unl no_data)) else None
  | WtClean => Some (with_pc (with_bits s (fun x => vld s x || lset r x) (fun x => drt s x && negb (lset r x)))
                             i (Unl no_data))
  (* engine_rd.c:26-42 *)
  | RdHit wr p b => if none_left p then Some (with_pc s i (Unl b)) else None
  (* engine_rd.c:44-74, engine_bf.c:86-97, 59-84, 42-57 *)
  | RdCore p b => if none_left p then Some (with_pc (ack s i b) i (RdFill (lset r) b)) else None
  | RdFill p b => if none_left p then Some (with_pc s i (RdBits b)) else None
  | RdBits b => Some (with_pc (with_bits s (fun x => vld s x || lset r x) (drt s)) i UnlDone)
  (* engine_pt.c:21-35 *)
  | PtCore lk p b => if none_left p then Some (with_pc (ack s i b) i UnlDone) else None
  | Unl b => Some (with_pc (unlock s i) i (Fin b))
  | Fin b => Some (with_pc (ack s i b) i Done)
  | UnlDone => Some (with_pc (unlock s i) i Done)
  | Done => None
  end.

Definition off (p : nat -> bool) x : nat -> bool := upd p x false.

Definition step (s : st) (a : act) : option st :=
  match a with
  | Go i => go s i
  | Sec i x =>
      let d := dat (P i) in
      match pcs s i with
      | CRead p b k => if p x then Some (with_pc s i (CRead (off p x) (upd b x (cach s x)) k)) else None
      | CLand p b k => if p x then Some (with_pc (with_core s x (b x)) i (CLand (off p x) b k)) else None
      | WiCore lk h p => if p x then Some (with_pc (with_core s x (d x)) i (WiCore lk h (off p x))) else None
      | WbW p => if p x then Some (with_pc (with_cach s x (d x)) i (WbW (off p x))) else None
      | WtW f p q => if p x then Some (with_pc (with_cach s x (d x)) i (WtW f (off p x) q)) else None
      | RdHit wr p b => if p x then Some (with_pc s i (RdHit wr (off p x) (upd b x (cach s x)))) else None
      | RdCore p b => if p x then Some (with_pc s i (RdCore (off p x) (upd b x (core s x)))) else None
      | RdFill p b => if p x then Some (with_pc (with_cach s x (b x)) i (RdFill (off p x) b)) else None
      | PtCore lk p b => if p x then Some (with_pc s i (PtCore lk (off p x) (upd b x (core s x)))) else None
      | _ => None
      end
  | Sec2 i x =>
      match pcs s i with
      | WtW f p q => if q x then Some (with_pc (with_core s x (dat (P i) x)) i (WtW f p (off q x))) else None
      | _ => None
      end
  | Byp i =>
      match pcs s i, kd (P i) with
      | New, KWb | New, KWt => Some (with_pc s i NewWi)
      | New, KRd => Some (with_pc s i NewPt)
      | _, _ => None
      end
  | MapIt i c0 =>
      if mapd s then None else
      match pcs s i, kd (P i) with
      | New, KWb => Some (with_pc (map_line s i c0) i (WbW (lset (rng (P i)))))
      | New, KWt => Some (with_pc (map_line s i c0) i WtBits)
      | New, KRd => Some (with_pc (map_line s i c0) i (RdCore (lset (rng (P i))) no_data))
      | _, _ => None
      end
  | Evict =>
      match mapd s, wrl s, rdl s, wts s with
      | true, None, [], [] => if any_dirty s then None else Some (unmap s)
      | _, _, _, _ => None
      end
  end.

Fixpoint run (l : list act) (s : st) : option st :=
  match l with
  | [] => Some s
  | a :: r => match step s a with Some t => run r t | None => None end
  end.
End Line.

(** No request submitted, nothing cached. *)
Definition start (c0 c1 : nat -> V) : st :=
  {| core := c0; cach := c1; mapd := false; vld := fun _ => false; drt := fun _ => false;
     wrl := None; rdl := []; wts := []; pcs := fun _ => Idle; hist := [] |}.

(** The forward counter of a request: /repo/src/ocf_request.c:446-680 (forward
    functions and [ocf_forward_end]), /repo/src/ocf_request.h:557-577 (get/put),
    the submission loops built on it in /repo/src/engine/engine_io.c,
    /repo/src/engine/engine_wo.c and /repo/src/ocf_composite_volume.c, and the
    completion logic of /repo/src/engine/engine_wt.c.
    A submitting thread executes a list of instructions; every device I/O it
    submitted may complete on another thread at any later moment, also before the
    submitter executes its next instruction (this is what a synchronous completion
    is).  [ocf_forward_end] is executed in the steps in which the hardware sees
    it: read the error field, write it, atomically decrement the counter.
    Simplified: an error code is a number, 0 = success; a memory access takes
    effect immediately (no store buffers); a forward_end executed by the
    submitting thread itself may overlap with its later instructions. *)
From Coq Require Import List Bool Arith NArith.
Import ListNotations.
Open Scope N_scope.

(** Instructions of the submitting thread.
    [IInit]: ocf_req_forward_*_init, ocf_request.c:491-496, 549-554.
    [IGet]/[IPut]: ocf_request.h:557-577.
    [IFwd]: ocf_req_forward_*_io (get, then hand the I/O to a device),
    ocf_request.c:498-506.
    [IEnd e]: ocf_forward_end(token, e) called by the submitting thread,
    ocf_request.c:668-679. *)
Inductive instr := IInit | IGet | IFwd | IPut | IEnd (e : N).

(** Progress of one forward_end: [Issued]: the device works on the I/O; [Ending e]:
    forward_end called with code e; [Loaded v e]: ocf_request.c:673 has read the
    field (value v); [Stored e]: it has written it; [Fin e]: counter decremented. *)
Inductive phase := Issued | Ending (e : N) | Loaded (v e : N) | Stored (e : N) | Fin (e : N).

(** [cnt]: cache_remaining / core_remaining; [err]: cache_error / core_error;
    [prog]: what the submitter still has to do; [thr]: the forward_ends;
    [calls]: error codes with which the end callback was called so far. *)
Record cfg := { cnt : nat; err : N; prog : list instr; thr : list phase; calls : list N }.

(** [EvSub]: the submitter executes an instruction; [EvBegin i e]: the device
    finishes I/O i with code e; the other ones: steps of forward_end i. *)
Inductive ev := EvSub | EvBegin (i : nat) (e : N) | EvLoad (i : nat) | EvStore (i : nat) | EvDec (i : nat).

Fixpoint upd {A} (l : list A) (i : nat) (x : A) : list A :=
  match l, i with
  | [], _ => []
  | _ :: r, O => x :: r
  | a :: r, S k => a :: upd r k x
  end.

(** ocf_request.h:562-566, 573-577: env_atomic_dec_return == 0 -> callback.
    [None]: the counter underflows. *)
Definition put (c : cfg) (p : list instr) (t : list phase) : option cfg :=
  match cnt c with
  | O => None
  | S k => Some {| cnt := k; err := err c; prog := p; thr := t;
                   calls := match k with O => calls c ++ [err c] | _ => calls c end |}
  end.

(** C's [a ?: b]. *)
Definition elvis (a b : N) : N := if a =? 0 then b else a.

Definition step (e : ev) (c : cfg) : option cfg :=
  match e with
  | EvSub =>
      match prog c with
      | [] => None
      | IInit :: r => Some {| cnt := cnt c; err := 0; prog := r; thr := thr c; calls := calls c |}
      | IGet :: r => Some {| cnt := S (cnt c); err := err c; prog := r; thr := thr c; calls := calls c |}
      | IFwd :: r => Some {| cnt := S (cnt c); err := err c; prog := r;
                             thr := thr c ++ [Issued]; calls := calls c |}
      | IPut :: r => put c r (thr c)
      | IEnd x :: r => Some {| cnt := cnt c; err := err c; prog := r;
                               thr := thr c ++ [Ending x]; calls := calls c |}
      end
  | EvBegin i x =>
      match nth_error (thr c) i with
      | Some Issued => Some {| cnt := cnt c; err := err c; prog := prog c;
                               thr := upd (thr c) i (Ending x); calls := calls c |}
      | _ => None
      end
  | EvLoad i =>
      match nth_error (thr c) i with
      | Some (Ending x) => Some {| cnt := cnt c; err := err c; prog := prog c;
                                   thr := upd (thr c) i (Loaded (err c) x); calls := calls c |}
      | _ => None
      end
  | EvStore i =>
      match nth_error (thr c) i with
      | Some (Loaded v x) => Some {| cnt := cnt c; err := elvis v x; prog := prog c;
                                     thr := upd (thr c) i (Stored x); calls := calls c |}
      | _ => None
      end
  | EvDec i =>
      match nth_error (thr c) i with
      | Some (Stored x) => put c (prog c) (upd (thr c) i (Fin x))
      | _ => None
      end
  end.

Fixpoint run (l : list ev) (c : cfg) : option cfg :=
  match l with
  | [] => Some c
  | e :: r => match step e c with Some c' => run r c' | None => None end
  end.

Definition start (p : list instr) : cfg := {| cnt := 0; err := 0; prog := p; thr := []; calls := [] |}.

(** ** Submission programs *)

(** What a volume does with one forwarded I/O: a plain device; a volume that is
    not opened (ocf_volume.c:364-367); a composite volume that forwards to the
    given members and stops with -OCF_ERR_INVAL at a closed member iff [ok] is
    false (ocf_composite_volume.c:57-74). *)
Inductive vol := VDev | VClosed | VComp (parts : list vol) (ok : bool).

Definition EIO : N := 1. (* -OCF_ERR_IO *)
Definition EINVAL : N := 2. (* -OCF_ERR_INVAL *)

(** ocf_req_forward_*_io on such a volume: ocf_request.c:498-506, ocf_volume.c:358-371,
    ocf_composite_volume.c:30-75 ([ocf_forward_io], ocf_request.c:598-606, again does
    a get and then a volume forward). *)
Fixpoint fwd (v : vol) : list instr :=
  match v with
  | VDev => [IFwd]
  | VClosed => [IGet; IEnd EIO]
  | VComp parts ok =>
      IGet :: flat_map fwd parts ++ [IEnd (if ok then 0 else EINVAL)]
  end.

(** engine_io.c:36-112 [ocf_engine_forward_cache_io_req]: sequential mapping: one
    I/O; otherwise one per physically contiguous run between a get and a put.
    The [vol]s say what the cache volume does with each of them. *)
Definition cache_io_req_seq (v : vol) : list instr := IInit :: fwd v.
Definition cache_io_req (vs : list vol) : list instr :=
  IInit :: IGet :: flat_map fwd vs ++ [IPut].

(** engine_io.c:132-142 [ocf_engine_forward_core_io_req]. *)
Definition core_io_req (v : vol) : list instr := IInit :: fwd v.

(** engine_wo.c:53-137 [ocf_read_wo_cache_do]: every fragment goes through
    [ocf_engine_forward_cache_io] (engine_io.c:14-34) that calls
    ocf_req_forward_cache_init again. *)
Definition wo_cache_do (vs : list vol) : list instr :=
  IInit :: IGet :: flat_map (fun v => IInit :: fwd v) vs ++ [IPut].

(** ** The write-through engine: engine_wt.c:57-154 *)

(** Progress of a completion handler ([_ocf_write_wt_cache_complete],
    [_ocf_write_wt_core_complete]): not called; called with code e; bit field word
    read; error recorded (or no error); req_remaining decremented. *)
Inductive hph := HIdle | HStart (e : N) | HRead (e : N) (a b : bool) | HFlag | HDone.

(** [fc], [fk]: cache and core forward; [hc], [hk]: the handlers; [ica], [ico]:
    info.cache_error, info.core_error (two bits of one word, ocf_request.h:58-62);
    [rerr]: req->error; [rem]: req_remaining; [meta]: metadata flush running;
    [done]: calls of req->complete. *)
Record wt := { fc : cfg; fk : cfg; hc : hph; hk : hph; ica : bool; ico : bool;
               rerr : N; rem : nat; meta : bool; done : list N }.

(** [WC]/[WK]: a step of the cache/core forward; [WH t]: next step of the handler
    of the cache ([true]) or core ([false]) forward; [WMeta e]: the metadata flush
    ends with code e. *)
Inductive wev := WC (e : ev) | WK (e : ev) | WH (t : bool) | WMeta (e : N).

(** engine_wt.c:84-110 [_ocf_write_wt_req_complete], [dirty]: req->info.dirty_any. *)
Definition wt_req_complete (dirty : bool) (s : wt) : option wt :=
  match rem s with
  | O => None
  | S (S k) => Some {| fc := fc s; fk := fk s; hc := hc s; hk := hk s; ica := ica s; ico := ico s;
                       rerr := rerr s; rem := S k; meta := meta s; done := done s |}
  | S O =>
      Some {| fc := fc s; fk := fk s; hc := hc s; hk := hk s; ica := ica s; ico := ico s;
              rerr := rerr s; rem := 0;
              meta := if ica s || ico s then false else dirty;
              done := if ica s || ico s then done s ++ [rerr s]
                      else if dirty then done s else done s ++ [0] |}
  end.

Definition set_h (t : bool) (h : hph) (s : wt) : wt :=
  {| fc := fc s; fk := fk s; hc := if t then h else hc s; hk := if t then hk s else h;
     ica := ica s; ico := ico s; rerr := rerr s; rem := rem s; meta := meta s; done := done s |}.

(** engine_wt.c:112-137. The callback is called by ocf_request.h:562-577 with the
    error field; [info.cache_error = 1] is a read-modify-write of the shared word. *)
Definition wt_handler (dirty t : bool) (s : wt) : option wt :=
  match (if t then hc s else hk s) with
  | HIdle =>
      match calls (if t then fc s else fk s) with
      | [] => None
      | e :: _ => Some (set_h t (HStart e) s)
      end
  | HStart e => Some (set_h t (if e =? 0 then HFlag else HRead e (ica s) (ico s)) s)
  | HRead e a b =>
      let s1 := set_h t HFlag s in
      Some {| fc := fc s1; fk := fk s1; hc := hc s1; hk := hk s1;
              ica := if t then true else a; ico := if t then b else true;
              rerr := if t then rerr s else e; rem := rem s1; meta := meta s1; done := done s1 |}
  | HFlag => wt_req_complete dirty (set_h t HDone s)
  | HDone => None
  end.

(** engine_wt.c:139-153 [_ocf_write_wt_submit]: the core program starts after the
    cache program. [WMeta]: engine_wt.c:57-67, 75-81. *)
Definition wstep (dirty : bool) (e : wev) (s : wt) : option wt :=
  match e with
  | WC x =>
      match step x (fc s) with
      | Some c => Some {| fc := c; fk := fk s; hc := hc s; hk := hk s; ica := ica s; ico := ico s;
                          rerr := rerr s; rem := rem s; meta := meta s; done := done s |}
      | None => None
      end
  | WK x =>
      match x, prog (fc s) with
      | EvSub, _ :: _ => None
      | _, _ =>
          match step x (fk s) with
          | Some c => Some {| fc := fc s; fk := c; hc := hc s; hk := hk s; ica := ica s; ico := ico s;
                              rerr := rerr s; rem := rem s; meta := meta s; done := done s |}
          | None => None
          end
      end
  | WH t => wt_handler dirty t s
  | WMeta x =>
      if meta s then
        Some {| fc := fc s; fk := fk s; hc := hc s; hk := hk s; ica := ica s; ico := ico s;
                rerr := rerr s; rem := rem s; meta := false; done := done s ++ [x] |}
      else None
  end.

Fixpoint wrun (dirty : bool) (l : list wev) (s : wt) : option wt :=
  match l with
  | [] => Some s
  | e :: r => match wstep dirty e s with Some s' => wrun dirty r s' | None => None end
  end.

Definition wstart (pc pk : list instr) : wt :=
  {| fc := start pc; fk := start pk; hc := HIdle; hk := HIdle; ica := false; ico := false;
     rerr := 0; rem := 2; meta := false; done := [] |}.

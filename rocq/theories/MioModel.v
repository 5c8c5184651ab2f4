(** Metadata I/O: /repo/src/metadata/metadata_io.c:176-460, at the level of single atomic
    operations.  One operation over [count] pages starting at [page] is cut into chunks of
    [max] pages; [nreq] workers (struct metadata_io_request) take chunks until none is left.
    A worker and its I/O completions are one thread of control.

    Simplified: m_req->page and m_req->count are determined by the index of the chunk taken
    ([chunk_page], [chunk_count]); index [None] is count == 0.  The page locks of
    concurrency/ocf_mio_concurrency.c (verified as a lock in AlockModel.v) answer
    arbitrarily.  What the fill and drain handlers do is left out; their return value is
    ignored by the code (lines 176-198). *)
From Coq Require Import ZArith NArith List Bool Arith.
Import ListNotations.
Open Scope nat_scope.

Inductive pc :=
| WNot                       (* not started *)
| WAdv (first : bool)        (* at metadata_io_req_advance; [first]: called by metadata_io_req_start *)
| WInc (first : bool)        (* error was 0; at the increment of req_current (line 332) *)
| WEnd (first : bool)        (* at metadata_io_req_end *)
| WEndCall (first : bool)    (* req_remaining became 0; at on_complete (line 306) *)
| WStartChk                  (* line 354 *)
| WLock                      (* metadata_io_restart_req, at ocf_mio_async_lock *)
| WWait                      (* waiting for the page locks *)
| WIo                        (* the I/O is submitted *)
| WErr (e : Z)               (* the I/O failed; at reading a_req->error (line 284) *)
| WErrW (v e : Z)            (* [v] was read; at writing it *)
| WComp                      (* at metadata_io_req_complete *)
| WFin                       (* at metadata_io_req_finalize *)
| WDel                       (* req_active became 0; at env_mpool_del (line 233) *)
| WDone.

Record worker := { at_ : pc; ended : bool; chunk : option nat; failed : bool }.
(** [ended]: metadata_io_req_end was run, the buffer is freed; [failed]: an I/O or a lock of
    this worker failed (history). *)

Inductive mainpc :=
| MStart (i : nat)           (* next worker to start *)
| MAct (i : nat)             (* between the two increments of metadata_io_req_start *)
| MWait (i : nat)            (* inside metadata_io_req_start of worker [i] *)
| MEnd | MEndCall | MFin | MDel | MDone.   (* lines 445-449 *)

Record st := {
  remaining : Z; active : Z; current : Z; error : Z;
  wk : nat -> worker;
  main : mainpc;
  ios : list (nat * Z);      (* history: finished I/Os: chunk, error *)
  compl : list Z;            (* history: calls of on_complete: error *)
  dels : nat                 (* history: how often a_req was freed *)
}.

Inductive out := Blocked | Ok (s : st).

Definition setf {A} (f : nat -> A) (i : nat) (v : A) : nat -> A := fun j => if j =? i then v else f j.

Section Mio.
Variables page count max : N.
Variable conc : bool.        (* a_req->mio_conc != NULL *)

(** OCF_DIV_ROUND_UP(count, max_count), METADATA_IO_REQS_LIMIT (lines 61, 388-389). *)
Definition io_count : nat := N.to_nat ((count + max - 1) / max).
Definition nreq : nat := Nat.min io_count 128.
(** Lines 340-341, 32 bits. *)
Definition chunk_page (c : nat) : N := ((page + N.of_nat c * max) mod 2^32)%N.
Definition chunk_count (c : nat) : N := N.min ((count - N.of_nat c * max)) max.
(** Pages in the buffer of worker [i] (lines 435-436). *)
Definition buf_pages (i : nat) : N := N.min max (count - N.of_nat i * max).

Definition goto (w : worker) (p : pc) : worker := {| at_ := p; ended := ended w; chunk := chunk w; failed := failed w |}.
Definition setw (s : st) (i : nat) (w : worker) : st :=
  {| remaining := remaining s; active := active s; current := current s; error := error s; wk := setf (wk s) i w;
     main := main s; ios := ios s; compl := compl s; dels := dels s |}.
Definition setm (s : st) (m : mainpc) : st :=
  {| remaining := remaining s; active := active s; current := current s; error := error s; wk := wk s;
     main := m; ios := ios s; compl := compl s; dels := dels s |}.

(** How the environment answers: a lock request, or a completed I/O. *)
Inductive answer := Granted | Queued | Failed (e : Z).
(** A failure has an error other than 0 (lines 258 and 283 test for it). *)
Definition err_of (a : answer) : Z := match a with Failed e => e | _ => 0%Z end.

Definition wstep (i : nat) (a : answer) (s : st) : out :=
  let w := wk s i in
  match at_ w with
  | WNot | WDone => Blocked
  | WAdv f =>                                               (* lines 327-330 *)
    if (error s =? 0)%Z then Ok (setw s i (goto w (WInc f))) else Ok (setw s i (goto w (WEnd f)))
  | WInc f =>                                               (* lines 332-342 *)
    let curr := (current s + 1)%Z in
    let stop := (Z.of_nat io_count <=? curr)%Z in
    let w' := {| at_ := if stop then WEnd f else if f then WStartChk else WComp; ended := ended w;
                 chunk := if stop then None else Some (Z.to_nat curr); failed := failed w |} in
    Ok {| remaining := remaining s; active := active s; current := curr; error := error s; wk := setf (wk s) i w';
          main := main s; ios := ios s; compl := compl s; dels := dels s |}
  | WEnd f =>                                               (* lines 305, 308 *)
    let v := (remaining s - 1)%Z in
    let w' := {| at_ := if (v =? 0)%Z then WEndCall f else if f then WStartChk else WComp; ended := true; chunk := chunk w; failed := failed w |} in
    Ok {| remaining := v; active := active s; current := current s; error := error s; wk := setf (wk s) i w';
          main := main s; ios := ios s; compl := compl s; dels := dels s |}
  | WEndCall f =>                                           (* line 306 *)
    Ok {| remaining := remaining s; active := active s; current := current s; error := error s;
          wk := setf (wk s) i (goto w (if f then WStartChk else WComp)); main := main s; ios := ios s;
          compl := compl s ++ [error s]; dels := dels s |}
  | WStartChk =>                                            (* lines 354-359 *)
    Ok (setw s i (goto w (match chunk w with None => WFin | Some _ => if conc then WLock else WIo end)))
  | WLock =>                                                (* lines 242-268 *)
    match a with
    | Granted => Ok (setw s i (goto w WIo))
    | Queued => Ok (setw s i (goto w WWait))
    | Failed e =>
      if (e <? 0)%Z then
        Ok {| remaining := remaining s; active := active s; current := current s; error := e;
              wk := setf (wk s) i {| at_ := WFin; ended := ended w; chunk := chunk w; failed := true |};
              main := main s; ios := ios s; compl := compl s; dels := dels s |}
      else Blocked
    end
  | WWait => Ok (setw s i (goto w WIo))                     (* metadata_io_page_lock_acquired *)
  | WIo =>                                                  (* lines 202-226; metadata_io_end, lines 275-298 *)
    match chunk w with
    | None => Blocked
    | Some c =>
      let e := err_of a in
      Ok {| remaining := remaining s; active := active s; current := current s; error := error s;
            wk := setf (wk s) i {| at_ := if (e =? 0)%Z then WAdv false else WErr e; ended := ended w; chunk := chunk w;
                                   failed := failed w || negb (e =? 0)%Z |};
            main := main s; ios := ios s ++ [(c, e)]; compl := compl s; dels := dels s |}
    end
  | WErr e => Ok (setw s i (goto w (WErrW (error s) e)))
  | WErrW v e =>
    Ok {| remaining := remaining s; active := active s; current := current s; error := if (v =? 0)%Z then e else v;
          wk := setf (wk s) i (goto w (WAdv false)); main := main s; ios := ios s; compl := compl s; dels := dels s |}
  | WComp =>                                                (* metadata_io_req_complete, lines 362-374 *)
    Ok (setw s i (goto w (match chunk w with None => WFin | Some _ =>
                          if (error s =? 0)%Z then (if conc then WLock else WIo) else WFin end)))
  | WFin =>                                                 (* lines 228-235 *)
    let v := (active s - 1)%Z in
    Ok {| remaining := remaining s; active := v; current := current s; error := error s;
          wk := setf (wk s) i (goto w (if (v =? 0)%Z then WDel else WDone));
          main := main s; ios := ios s; compl := compl s; dels := dels s |}
  | WDel =>
    Ok {| remaining := remaining s; active := active s; current := current s; error := error s;
          wk := setf (wk s) i (goto w WDone); main := main s; ios := ios s; compl := compl s; dels := S (dels s) |}
  end.

(** The first advance of a worker, run by the starting thread, is over. *)
Definition past (p : pc) : bool :=
  match p with WNot | WAdv true | WInc true | WEnd true | WEndCall true | WStartChk => false | _ => true end.

(** metadata_io_i_asynch, lines 442-451. *)
Definition mstep (s : st) : out :=
  match main s with
  | MStart i =>
    if i <? nreq then                                       (* line 349 *)
      Ok {| remaining := remaining s + 1; active := active s; current := current s; error := error s; wk := wk s;
            main := MAct i; ios := ios s; compl := compl s; dels := dels s |}
    else Ok (setm s MEnd)
  | MAct i =>                                               (* line 350 *)
    Ok {| remaining := remaining s; active := active s + 1; current := current s; error := error s;
          wk := setf (wk s) i {| at_ := WAdv true; ended := false; chunk := None; failed := false |};
          main := MWait i; ios := ios s; compl := compl s; dels := dels s |}
  | MWait i => if past (at_ (wk s i)) then Ok (setm s (MStart (S i))) else Blocked
  | MEnd =>
    let v := (remaining s - 1)%Z in
    Ok {| remaining := v; active := active s; current := current s; error := error s; wk := wk s;
          main := if (v =? 0)%Z then MEndCall else MFin; ios := ios s; compl := compl s; dels := dels s |}
  | MEndCall =>
    Ok {| remaining := remaining s; active := active s; current := current s; error := error s; wk := wk s;
          main := MFin; ios := ios s; compl := compl s ++ [error s]; dels := dels s |}
  | MFin =>
    let v := (active s - 1)%Z in
    Ok {| remaining := remaining s; active := v; current := current s; error := error s; wk := wk s;
          main := if (v =? 0)%Z then MDel else MDone; ios := ios s; compl := compl s; dels := dels s |}
  | MDel =>
    Ok {| remaining := remaining s; active := active s; current := current s; error := error s; wk := wk s;
          main := MDone; ios := ios s; compl := compl s; dels := S (dels s) |}
  | MDone => Blocked
  end.

Inductive ev := Main | Worker (i : nat) (a : answer).
Definition step (e : ev) (s : st) : out := match e with Main => mstep s | Worker i a => wstep i a s end.

(** Lines 401-439. *)
Definition start : st :=
  {| remaining := 1; active := 1; current := -1; error := 0;
     wk := fun _ => {| at_ := WNot; ended := false; chunk := None; failed := false |};
     main := MStart 0; ios := []; compl := []; dels := 0 |}.

Fixpoint run (evs : list ev) (s : st) : st :=
  match evs with
  | [] => s
  | e :: evs => match step e s with Ok s => run evs s | Blocked => run evs s end
  end.
End Mio.

(** metadata_io_i_asynch as seen by the caller, lines 393-399, 453-459: nothing to do, no
    memory, or started. *)
Inductive began := Returned (res : Z) | Started (s : st).
Definition io_asynch (count : N) (nomem : bool) : began :=
  if (count =? 0)%N then Returned 0
  else if nomem then Returned (-1000004)        (* -OCF_ERR_NO_MEM *)
  else Started start.

(** raw_ram_zero (/repo/src/metadata/metadata_raw.c:270-289) and the pattern of the other
    callers (lines 342-346, 417-422): what the caller's completion gets when the operation
    did not start. *)
Definition zero_compl (b : began) : list Z := match b with Returned _ => [] | Started s => compl s end.
Definition load_compl (b : began) : list Z :=
  match b with Returned res => if (res =? 0)%Z then [] else [res] | Started s => compl s end.

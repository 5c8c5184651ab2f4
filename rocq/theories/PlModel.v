(** Locks over metadata pages, and the writing of pages under them.

    Models /repo/src/concurrency/ocf_mio_concurrency.c:20-139,
    /repo/src/concurrency/ocf_pio_concurrency.c:16-187,224-232, and of
    /repo/src/metadata/metadata_io.c the parts of one metadata_io_request: taking the
    page locks, filling, writing, ending (metadata_io.c:176-186, 202-226, 242-298).

    The lock itself is AlockModel.v: ocf_mio_lock_fast / _slow and ocf_mio_async_unlock
    are the loops of ocf_cl_lock_line_fast / _slow and ocf_req_unlock_wr with every
    entry locked for writing; ocf_pio_lock_* skip pages without entry, which leaves the
    loop over the pages that have one.

    Simplified: a metadata_io_request that is used for several pieces one after another
    is several requests here; a page is written to the device in one moment; the shared
    access to the global metadata lock around the filling is left out; the content of a
    page in memory is represented by the number of changes made to it. *)
From Coq Require Import NArith List Bool Arith.
From Verif Require Import AlockModel.
Import ListNotations.

Definition w32 (n : N) : N := (n mod 2 ^ 32)%N.

(** ocf_mio_lock_get_entry (ocf_mio_concurrency.c:20-32): the entry of page number
    [index] of a request that starts at [page]; None: ENV_BUG_ON. *)
Definition mio_entry (first num page index : N) : option N :=
  let p := w32 (page + index) in
  if (p <? first)%N then None
  else if (w32 (first + num) <=? p)%N then None
  else Some (p - first)%N.

(** The page range of a metadata_io_request (metadata_io.h:50-59). *)
Record flush := { f_page : N; f_count : nat }.

(** The entries in the order of the loops (ocf_mio_concurrency.c:42-54, 80-89). *)
Definition mio_lines (first num : N) (f : flush) : list nat :=
  map (fun i => match mio_entry first num (f_page f) (N.of_nat i) with
                | Some e => N.to_nat e
                | None => 0
                end) (seq 0 (f_count f)).

(** ocf_mio_async_lock (ocf_mio_concurrency.c:114-119) locks for writing. *)
Definition mio_want (first num : N) (f : flush) : want :=
  {| lines := mio_lines first num f; wr := true; tryonly := false |}.

(** One element of pio_ctx->segments (ocf_pio_concurrency.c:18-23) *)
Record seg := { s_first : N; s_begin : N; s_end : N }.

(** The loop of ocf_pio_concurrency_init (ocf_pio_concurrency.c:224-232) over the
    position and size of the segments; the number of entries comes with it. *)
Fixpoint pio_segs (l : list (N * N)) (total : N) : list seg * N :=
  match l with
  | [] => ([], total)
  | (off, pages) :: l' =>
      let (r, t) := pio_segs l' (w32 (total + pages)) in
      ({| s_first := total; s_begin := off; s_end := off + pages |} :: r, t)
  end.

(** OUT_OF_RANGE (ocf_pio_concurrency.c:26), compared as unsigned *)
Definition out_of_range : N := (2 ^ 32 - 1)%N.

(** page_belongs_to_section, page_to_entry (ocf_pio_concurrency.c:30-45) *)
Definition in_seg (s : seg) (page : N) : bool := (s_begin s <=? page)%N && (page <? s_end s)%N.
Definition page_entry (s : seg) (page : N) : N := w32 (s_first s + w32 (page - s_begin s)).

(** ocf_pio_lock_get_entry (ocf_pio_concurrency.c:47-61) *)
Fixpoint pio_find (segs : list seg) (page : N) : N :=
  match segs with
  | [] => out_of_range
  | s :: r => if in_seg s page then page_entry s page else pio_find r page
  end.
Definition pio_entry (segs : list seg) (first id : N) : N := pio_find segs (w32 (first + id)).

(** The entries locked (ocf_pio_concurrency.c:71-84, 112-125). *)
Definition pio_lines (segs : list seg) (f : flush) : list nat :=
  map N.to_nat (filter (fun e => negb (e =? out_of_range)%N)
    (map (fun i => pio_entry segs (f_page f) (N.of_nat i)) (seq 0 (f_count f)))).

(** ocf_pio_lock_get_entries_count (ocf_pio_concurrency.c:141-155) *)
Fixpoint pio_count (segs : list seg) (first : N) (i n : nat) : nat :=
  match n with
  | 0 => 0
  | S n' =>
      (if (pio_entry segs first (N.of_nat i) =? out_of_range)%N then 0 else 1) +
      pio_count segs first (S i) n'
  end.

Definition pio_want (segs : list seg) (f : flush) : want :=
  {| lines := pio_lines segs f; wr := true; tryonly := false |}.

(** ** Writing under the lock *)

Record sys := {
  lk : st;                     (* the lock *)
  mem : N -> nat;              (* content of the pages in memory *)
  dev : N -> nat;              (* on the device *)
  fil : nat -> nat;            (* pages of request r filled so far *)
  buf : nat -> nat -> nat;     (* m_req->req.data *)
  wrote : nat -> nat -> bool;  (* has page i of request r reached the device *)
  ended : nat -> option bool   (* metadata_io_end was called; with success? *)
}.

Inductive event :=
| ELock (r : nat) (oom : bool)   (* a step of locking or unlocking *)
| EMem (p : N)                   (* somebody changes page p in memory *)
| EFill (r : nat)                (* the next page is copied *)
| EWrite (r i : nat)             (* the device writes page i *)
| EEnd (r : nat) (ok : bool).    (* the I/O ends *)

Inductive sout := SBug | SNo | SOk (s : sys).

Definition setn {A} (f : N -> A) (p : N) (v : A) : N -> A := fun q => if (q =? p)%N then v else f q.
Definition set2 {A} (f : nat -> nat -> A) (r i : nat) (v : A) : nat -> nat -> A :=
  fun r' i' => if (r' =? r) && (i' =? i) then v else f r' i'.

Section Sys.
(** [nb]: number of waiters lists; [wants]: what the requests lock; [fl]: their pages *)
Variables (nb : nat) (wants : nat -> want) (fl : nat -> flush).

Definition pg (r i : nat) : N := (f_page (fl r) + N.of_nat i)%N.

(** One event, if it can happen.
    The lock of a request is given back after metadata_io_end only
    (metadata_io.c:275-298); metadata_io_do (metadata_io.c:202-226) runs when all pages
    are locked (metadata_io.c:255-265): it fills page after page
    (metadata_io.c:176-186), then the write is sent.  The device writes the pages in
    any order and may stop with an error. *)
Definition sstep (e : event) (s : sys) : sout :=
  match e with
  | ELock r oom =>
      match ph (lk s) r, ended s r with
      | Held, None => SNo
      | _, _ =>
          match step nb wants r oom (lk s) with
          | Blocked => SNo
          | Bug => SBug
          | Ok l => SOk {| lk := l; mem := mem s; dev := dev s; fil := fil s; buf := buf s;
                           wrote := wrote s; ended := ended s |}
          end
      end
  | EMem p =>
      SOk {| lk := lk s; mem := setn (mem s) p (S (mem s p)); dev := dev s; fil := fil s;
             buf := buf s; wrote := wrote s; ended := ended s |}
  | EFill r =>
      match ph (lk s) r, ended s r with
      | Held, None =>
          if fil s r <? f_count (fl r) then
            SOk {| lk := lk s; mem := mem s; dev := dev s;
                   fil := setf (fil s) r (S (fil s r));
                   buf := set2 (buf s) r (fil s r) (mem s (pg r (fil s r)));
                   wrote := wrote s; ended := ended s |}
          else SNo
      | _, _ => SNo
      end
  | EWrite r i =>
      match ph (lk s) r, ended s r with
      | Held, None =>
          if (fil s r =? f_count (fl r)) && (i <? f_count (fl r)) && negb (wrote s r i) then
            SOk {| lk := lk s; mem := mem s; dev := setn (dev s) (pg r i) (buf s r i);
                   fil := fil s; buf := buf s; wrote := set2 (wrote s) r i true;
                   ended := ended s |}
          else SNo
      | _, _ => SNo
      end
  | EEnd r ok =>
      match ph (lk s) r, ended s r with
      | Held, None =>
          if (fil s r =? f_count (fl r)) &&
             (negb ok || forallb (wrote s r) (seq 0 (f_count (fl r)))) then
            SOk {| lk := lk s; mem := mem s; dev := dev s; fil := fil s; buf := buf s;
                   wrote := wrote s; ended := setf (ended s) r (Some ok) |}
          else SNo
      | _, _ => SNo
      end
  end.

(** A run: an event that cannot happen is skipped. *)
Fixpoint srun (evs : list event) (s : sys) : sout :=
  match evs with
  | [] => SOk s
  | e :: evs =>
      match sstep e s with
      | SOk s' => srun evs s'
      | SNo => srun evs s
      | SBug => SBug
      end
  end.
End Sys.

(** Memory and device hold the same when the requests start. *)
Definition sinit : sys :=
  {| lk := init; mem := fun _ => 0; dev := fun _ => 0; fil := fun _ => 0;
     buf := fun _ _ => 0; wrote := fun _ _ => false; ended := fun _ => None |}.

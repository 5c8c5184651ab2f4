(** I/O queues (ocf_queue.c:160-300): requests pushed by any number of threads and taken by any number of
    threads running the queue.  The sections under io_list_lock are single steps.  A request is named by a
    number; pushing one that is still queued would corrupt the list and has no result. *)
From Coq Require Import List Bool Arith.
Import ListNotations.

(** A thread running the queue: about to read io_no (ocf_queue.c:231), or about to take a request (232) *)
Inductive wpc := Idle | Check | Pop.
(** [owed]: pushes whose ocf_queue_kick is still to come; [kicked]: a kick after which ocf_queue_run is to be
    called; [done]: the requests taken, first one first; [pushed]: all pushes, in order, with the priority *)
Record st := { high : list nat; low : list nat; io_no : nat; owed : nat; kicked : bool; w : nat -> wpc;
               pushed : list (nat * bool); done : list (nat * bool) }.
Definition upd {A} (f : nat -> A) (x : nat) (v : A) : nat -> A := fun y => if y =? x then v else f y.
Definition mem (x : nat) (l : list nat) : bool := existsb (Nat.eqb x) l.

(** ocf_queue_push_req (ocf_queue.c:256-287), the section under the lock; [prio]: OCF_QUEUE_PRIO_HIGH *)
Definition push (r : nat) (prio : bool) (s : st) : option st :=
  if mem r (high s ++ low s) then None
  else Some {| high := if prio then high s ++ [r] else high s; low := if prio then low s else low s ++ [r];
               io_no := io_no s + 1; owed := owed s + 1; kicked := kicked s; w := w s; pushed := pushed s ++ [(r, prio)]; done := done s |}.
(** ocf_queue_pop_req (ocf_queue.c:170-205): the request taken *)
Definition pop (s : st) : option nat * st :=
  match high s, low s with
  | r :: h, l => (Some r, {| high := h; low := l; io_no := io_no s - 1; owed := owed s; kicked := kicked s; w := w s; pushed := pushed s; done := done s ++ [(r, true)] |})
  | [], r :: l => (Some r, {| high := []; low := l; io_no := io_no s - 1; owed := owed s; kicked := kicked s; w := w s; pushed := pushed s; done := done s ++ [(r, false)] |})
  | [], [] => (None, s)
  end.
Definition setw (t : nat) (p : wpc) (s : st) : st :=
  {| high := high s; low := low s; io_no := io_no s; owed := owed s; kicked := kicked s; w := upd (w s) t p; pushed := pushed s; done := done s |}.

Inductive event :=
| Push (r : nat) (prio : bool)
| Kick                         (** ocf_queue_kick at the end of a push (ocf_queue.c:286, ocf_queue_priv.h:48-54) *)
| Start (t : nat)              (** thread t calls ocf_queue_run; this answers a kick *)
| Step (t : nat).              (** next step of ocf_queue_run (ocf_queue.c:225-236) in thread t *)

Definition step (e : event) (s : st) : option st :=
  match e with
  | Push r p => push r p s
  | Kick => match owed s with
            | 0 => None
            | S o => Some {| high := high s; low := low s; io_no := io_no s; owed := o; kicked := true; w := w s; pushed := pushed s; done := done s |}
            end
  | Start t => match w s t with
               | Idle => Some {| high := high s; low := low s; io_no := io_no s; owed := owed s; kicked := false; w := upd (w s) t Check; pushed := pushed s; done := done s |}
               | _ => None
               end
  | Step t => match w s t with
              | Idle => None
              | Check => Some (setw t (if 0 <? io_no s then Pop else Idle) s)
              | Pop => Some (setw t Check (snd (pop s)))
              end
  end.
Fixpoint run (es : list event) (s : st) : option st :=
  match es with
  | [] => Some s
  | e :: es => match step e s with Some s => run es s | None => None end
  end.
(** A new queue (_ocf_queue_create, ocf_queue.c:17-42) *)
Definition init : st := {| high := []; low := []; io_no := 0; owed := 0; kicked := false; w := fun _ => Idle; pushed := []; done := [] |}.
(** ocf_queue_pending_io (ocf_queue.c:250-254) *)
Definition pending (s : st) : nat := io_no s.

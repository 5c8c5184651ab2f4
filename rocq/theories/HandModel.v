(** Attaching and detaching the cache device while requests come in: the reference counters that
    decide, when a request is allocated, whether it goes through the cache or directly to the core
    (ocf_request.c:187-207), and the steps of the management pipelines that turn them
    (ocf_mngt_cache.c:1973-2001, 3781-3934).  Any number of requests; every access to the counters
    is a step of its own.
    Simplified: a request is one sector, and its submission and completion are one step (the user
    submits one request at a time, but may have allocated others); the modes are pass-through,
    write-through and write-back; the flush of a detach is one step, possible because new dirty data
    is refused since its beginning; reads in pass-through look at the cache for dirty data only. *)
From Coq Require Import List Arith NArith Bool.
Import ListNotations.

(** Where a request is.
    New: in ocf_req_new before the first read of refcnt.metadata's freeze.
    Saw, Incd, Undo: env_refcnt_inc (env/posix/ocf_env_refcnt.c:33-46) of refcnt.metadata after the
    first read, the increment, the second read (which saw it frozen).
    Trying: that failed (ocf_request.c:199-200); DSaw, DIncd, DUndo: the same for refcnt.d2c.
    HasM, HasD: allocated, with a reference to metadata or direct; Gone: completed. *)
Inductive rst := New | Saw | Incd | Undo | Trying | DSaw | DIncd | DUndo | HasM | HasD | Gone.

(** Where management is.  A0: the new device is ready (ocf_mngt_cache.c:2065-2091); A1..A5: after the
    statements of _ocf_mngt_attach_switch_to_pt and _ocf_mngt_attach_disable_pt (1973-2001): attach_pt
    set; metadata unfrozen; d2c frozen; d2c drained; d2c unfrozen.
    D0: detach has frozen refcnt.dirty (3931); D1: flushed (3781-3788); D2: refcnt.metadata frozen
    (3790-3798); D3: drained. *)
Inductive mpc := Detached | A0 | A1 | A2 | A3 | A4 | A5 | Running | D0 | D1 | D2 | D3.

Inductive ev := Rd (a v : N) | Wr (a v : N).

(** fm, f2, fd: the freeze counts of refcnt.metadata, refcnt.d2c, refcnt.dirty; cm, c2: the counters;
    the cache: per sector a value and whether it is dirty; log: newest first *)
Record st := {
  core : N -> N; cache : option (N -> option (N * bool)); fm : nat; f2 : nat; fd : nat; cm : nat; c2 : nat;
  pt : bool; mg : mpc; rs : list rst; log : list ev }.

(** Bug: ENV_BUG; Fault: a request touches a cache device that was released; No: not possible now *)
Inductive res := Ok (s : st) | Bug | Fault | No.

Definition setf {A} (f : N -> A) (a : N) (v : A) : N -> A := fun b => if N.eqb b a then v else f b.
Fixpoint setr (l : list rst) (i : nat) (r : rst) : list rst :=
  match l, i with
  | [], _ => []
  | _ :: l, O => r :: l
  | x :: l, S i => x :: setr l i r
  end.

Definition with_rs (l : list rst) (s : st) : st :=
  {| core := core s; cache := cache s; fm := fm s; f2 := f2 s; fd := fd s; cm := cm s; c2 := c2 s;
     pt := pt s; mg := mg s; rs := l; log := log s |}.
Definition with_cm (n : nat) (s : st) : st :=
  {| core := core s; cache := cache s; fm := fm s; f2 := f2 s; fd := fd s; cm := n; c2 := c2 s;
     pt := pt s; mg := mg s; rs := rs s; log := log s |}.
Definition with_c2 (n : nat) (s : st) : st :=
  {| core := core s; cache := cache s; fm := fm s; f2 := f2 s; fd := fd s; cm := cm s; c2 := n;
     pt := pt s; mg := mg s; rs := rs s; log := log s |}.
Definition with_data (k : N -> N) (c : option (N -> option (N * bool))) (s : st) : st :=
  {| core := k; cache := c; fm := fm s; f2 := f2 s; fd := fd s; cm := cm s; c2 := c2 s;
     pt := pt s; mg := mg s; rs := rs s; log := log s |}.
Definition say (e : ev) (s : st) : st :=
  {| core := core s; cache := cache s; fm := fm s; f2 := f2 s; fd := fd s; cm := cm s; c2 := c2 s;
     pt := pt s; mg := mg s; rs := rs s; log := e :: log s |}.
Definition with_mg (m : mpc) (s : st) : st :=
  {| core := core s; cache := cache s; fm := fm s; f2 := f2 s; fd := fd s; cm := cm s; c2 := c2 s;
     pt := pt s; mg := m; rs := rs s; log := log s |}.
Definition with_fr (m d y : nat) (s : st) : st :=
  {| core := core s; cache := cache s; fm := m; f2 := d; fd := y; cm := cm s; c2 := c2 s;
     pt := pt s; mg := mg s; rs := rs s; log := log s |}.
Definition with_pt (b : bool) (s : st) : st :=
  {| core := core s; cache := cache s; fm := fm s; f2 := f2 s; fd := fd s; cm := cm s; c2 := c2 s;
     pt := b; mg := mg s; rs := rs s; log := log s |}.

(** env_refcnt_dec, env/posix/ocf_env_refcnt.c:24-31 *)
Definition dec_cm (s : st) : res := match cm s with O => Bug | S n => Ok (with_cm n s) end.
Definition dec_c2 (s : st) : res := match c2 s with O => Bug | S n => Ok (with_c2 n s) end.
(** env_refcnt_unfreeze, env/posix/ocf_env_refcnt.c:67-71 *)
Definition unf (n : nat) (k : nat -> res) : res := match n with O => Bug | S n => k n end.

(** ocf_req_new, ocf_request.c:187-208, with env_refcnt_inc, one access at a time *)
Definition tick (i : nat) (s : st) : res :=
  let go r := Ok (with_rs (setr (rs s) i r) s) in
  match nth_error (rs s) i with
  | Some New => if fm s =? 0 then go Saw else go Trying
  | Some Saw => Ok (with_cm (S (cm s)) (with_rs (setr (rs s) i Incd) s))
  | Some Incd => if fm s =? 0 then go HasM else go Undo
  | Some Undo => dec_cm (with_rs (setr (rs s) i Trying) s)
  | Some Trying => if f2 s =? 0 then go DSaw else Bug
  | Some DSaw => Ok (with_c2 (S (c2 s)) (with_rs (setr (rs s) i DIncd) s))
  | Some DIncd => if f2 s =? 0 then go HasD else go DUndo
  | Some DUndo => Bug
  | _ => No
  end.

(** Submission and completion, ocf_core.c:259-327, ocf_resolve_effective_cache_mode
    (engine/cache_engine.c:154-198: attach_pt is pass-through; write-back needs a reference to
    refcnt.dirty, else write-through); ocf_req_put, ocf_request.c:384-408.  A direct request goes to
    the core, engine/engine_d2c.c:32-56. *)
Definition done (i : nat) (s : st) : st := with_rs (setr (rs s) i Gone) s.

Definition read (i : nat) (a : N) (s : st) : res :=
  match nth_error (rs s) i with
  | Some HasD => dec_c2 (done i (say (Rd a (core s a)) s))
  | Some HasM =>
      match cache s with
      | None => Fault
      | Some m =>
          match m a with
          | Some (v, d) =>
              if pt s && negb d then dec_cm (done i (say (Rd a (core s a)) s))
              else dec_cm (done i (say (Rd a v) s))
          | None =>
              let s := if pt s then s else with_data (core s) (Some (setf m a (Some (core s a, false)))) s in
              dec_cm (done i (say (Rd a (core s a)) s))
          end
      end
  | _ => No
  end.

Definition write (i : nat) (a v : N) (wb : bool) (s : st) : res :=
  match nth_error (rs s) i with
  | Some HasD => dec_c2 (done i (say (Wr a v) (with_data (setf (core s) a v) (cache s) s)))
  | Some HasM =>
      match cache s with
      | None => Fault
      | Some m =>
          let s :=
            if pt s then with_data (setf (core s) a v) (Some (setf m a None)) s
            else if wb && (fd s =? 0) then with_data (core s) (Some (setf m a (Some (v, true)))) s
            else with_data (setf (core s) a v) (Some (setf m a (Some (v, false)))) s
          in dec_cm (done i (say (Wr a v) s))
      end
  | _ => No
  end.

(** Writing all dirty data to the core *)
Definition flushed_core (k : N -> N) (m : N -> option (N * bool)) : N -> N :=
  fun a => match m a with Some (v, true) => v | _ => k a end.
Definition flushed_cache (m : N -> option (N * bool)) : N -> option (N * bool) :=
  fun a => match m a with Some (v, _) => Some (v, false) | None => None end.

(** Management.  [ok]: only the flush can fail (ocf_mngt_cache.c:3850-3881: refcnt.dirty is unfrozen). *)
Definition mngt (ok : bool) (s : st) : res :=
  match mg s with
  | Detached => Ok (with_mg A0 (with_data (core s) (Some (fun _ => None)) s))
  | A0 => Ok (with_mg A1 (with_pt true s))
  | A1 => unf (fm s) (fun n => Ok (with_mg A2 (with_fr n (f2 s) (fd s) s)))
  | A2 => Ok (with_mg A3 (with_fr (fm s) (S (f2 s)) (fd s) s))
  | A3 => if c2 s =? 0 then Ok (with_mg A4 s) else No
  | A4 => unf (f2 s) (fun n => Ok (with_mg A5 (with_fr (fm s) n (fd s) s)))
  | A5 => Ok (with_mg Running (with_pt false s))
  | Running => Ok (with_mg D0 (with_fr (fm s) (f2 s) (S (fd s)) s))
  | D0 =>
      if ok then match cache s with
                 | Some m => Ok (with_mg D1 (with_data (flushed_core (core s) m) (Some (flushed_cache m)) s))
                 | None => Fault
                 end
      else unf (fd s) (fun n => Ok (with_mg Running (with_fr (fm s) (f2 s) n s)))
  | D1 => Ok (with_mg D2 (with_fr (S (fm s)) (f2 s) (fd s) s))
  | D2 => if cm s =? 0 then Ok (with_mg D3 s) else No
  | D3 => unf (fd s) (fun n => Ok (with_mg Detached (with_data (core s) None (with_fr (fm s) (f2 s) n s))))
  end.

Inductive label := LNew | LTick (i : nat) | LRead (i : nat) (a : N) | LWrite (i : nat) (a v : N) (wb : bool)
  | LMngt (ok : bool) | LClean (a : N) | LEvict (a : N).

(** The cleaner and eviction work while metadata is not frozen (utils_cleaner.c, ocf_request.c:268) *)
Definition exec (l : label) (s : st) : res :=
  match l with
  | LNew => Ok (with_rs (rs s ++ [New]) s)
  | LTick i => tick i s
  | LRead i a => read i a s
  | LWrite i a v wb => write i a v wb s
  | LMngt ok => mngt ok s
  | LClean a =>
      match cache s with
      | Some m => if fm s =? 0 then
          match m a with
          | Some (v, true) => Ok (with_data (setf (core s) a v) (Some (setf m a (Some (v, false)))) s)
          | _ => No
          end else No
      | None => No
      end
  | LEvict a =>
      match cache s with
      | Some m => if fm s =? 0 then
          match m a with
          | Some (v, false) => Ok (with_data (core s) (Some (setf m a None)) s)
          | _ => No
          end else No
      | None => No
      end
  end.

(** A cache without a device (ocf_mngt_cache.c:929-930) over a core with content [k] *)
Definition start (k : N -> N) : st :=
  {| core := k; cache := None; fm := 1; f2 := 0; fd := 0; cm := 0; c2 := 0; pt := false; mg := Detached;
     rs := []; log := [] |}.

Fixpoint execs (ls : list label) (s : st) : res :=
  match ls with
  | [] => Ok s
  | l :: ls => match exec l s with Ok s => execs ls s | r => r end
  end.

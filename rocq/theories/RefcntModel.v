(** Freezing reference counter: /repo/env/posix/ocf_env_refcnt.c, at the level of
    single atomic instructions, any number of threads.

    Not modelled: wrap-around of the 32-bit counters. *)
From Coq Require Import ZArith List Bool Arith.
Import ListNotations.
Open Scope nat_scope.

(** Where a thread is. *)
Inductive pc :=
| Idle
| Inc1                (* env_refcnt_inc, line 37: before the first read of freeze *)
| Inc2                (* line 38: before inc_return *)
| Inc3                (* line 39: before the second read of freeze *)
| Dec1                (* env_refcnt_dec, line 26: before dec_return *)
| Dec2                (* line 29: dec_return gave 0, before cmpxchg *)
| Reg1                (* env_refcnt_register_zero_cb, lines 57-58: before the checks *)
| Reg2                (* line 60: before the inc *)
| Reg3                (* lines 61-62: before storing cb and priv *)
| Reg4.               (* line 63: before setting callback; line 64 is Dec1 *)

(** What an idle thread starts; [Step]: the thread executes its next instruction. *)
Inductive act := StartInc | StartDec | Freeze | Unfreeze | StartReg | Step.

Record st := {
  counter : Z;
  freeze : nat;
  callback : bool;
  thr : nat -> pc;
  refs : nat -> nat;       (* references granted to the thread and not yet given back *)
  outst : bool;            (* a registration is under way or its callback has not run *)
  nreg : nat;              (* number of registrations *)
  fired : nat;             (* number of callback runs *)
  early : bool             (* ghost: some callback run happened while a reference was held *)
}.

Inductive out := Blocked | Bug | Ok (s : st).

Definition setf {A} (f : nat -> A) (i : nat) (v : A) : nat -> A := fun j => if j =? i then v else f j.

Definition goto (s : st) (t : nat) (p : pc) : st :=
  {| counter := counter s; freeze := freeze s; callback := callback s; thr := setf (thr s) t p; refs := refs s;
     outst := outst s; nreg := nreg s; fired := fired s; early := early s |}.
Definition w_counter (s : st) (v : Z) : st :=
  {| counter := v; freeze := freeze s; callback := callback s; thr := thr s; refs := refs s;
     outst := outst s; nreg := nreg s; fired := fired s; early := early s |}.
Definition w_freeze (s : st) (v : nat) : st :=
  {| counter := counter s; freeze := v; callback := callback s; thr := thr s; refs := refs s;
     outst := outst s; nreg := nreg s; fired := fired s; early := early s |}.
Definition w_refs (s : st) (v : nat -> nat) : st :=
  {| counter := counter s; freeze := freeze s; callback := callback s; thr := thr s; refs := v;
     outst := outst s; nreg := nreg s; fired := fired s; early := early s |}.
Definition w_cb (s : st) (v : bool) : st :=
  {| counter := counter s; freeze := freeze s; callback := v; thr := thr s; refs := refs s;
     outst := outst s; nreg := nreg s; fired := fired s; early := early s |}.
Definition w_out (s : st) : st :=
  {| counter := counter s; freeze := freeze s; callback := callback s; thr := thr s; refs := refs s;
     outst := true; nreg := S (nreg s); fired := fired s; early := early s |}.

Section Refcnt.
(** [nt]: number of threads; [calm]: if set, the store [callback := 1] waits until no
    thread is between its dec_return to 0 and its cmpxchg (not in the code: the code
    is [calm = false]). *)
Variables (nt : nat) (calm : bool).

Definition held (s : st) : bool := existsb (fun t => negb (refs s t =? 0)) (seq 0 nt).
Definition window (s : st) : bool := existsb (fun t => match thr s t with Dec2 => true | _ => false end) (seq 0 nt).

(** The callback runs: [rc->cb(rc->priv)]. *)
Definition fire (s : st) (t : nat) : st :=
  {| counter := counter s; freeze := freeze s; callback := false; thr := setf (thr s) t Idle; refs := refs s;
     outst := false; nreg := nreg s; fired := S (fired s); early := early s || held s |}.

(** Callers give back only what they got, unfreeze only what was frozen and not while a
    callback is outstanding, and register only while frozen and when no callback is
    outstanding (ocf_env_refcnt.h:37-52): otherwise [Blocked]. *)
Definition step (t : nat) (a : act) (s : st) : out :=
  match thr s t, a with
  | Idle, StartInc => Ok (goto s t Inc1)
  | Idle, StartDec => match refs s t with 0 => Blocked | S k => Ok (goto (w_refs s (setf (refs s) t k)) t Dec1) end
  | Idle, Freeze => Ok (w_freeze s (S (freeze s)))
  | Idle, Unfreeze => match freeze s with 0 => Blocked | S k => if outst s then Blocked else Ok (w_freeze s k) end
  | Idle, StartReg => if (freeze s =? 0) || outst s then Blocked else Ok (goto (w_out s) t Reg1)
  | Inc1, Step => Ok (goto s t (if freeze s =? 0 then Inc2 else Idle))
  | Inc2, Step => Ok (goto (w_counter s (counter s + 1)%Z) t Inc3)
  | Inc3, Step =>
    if freeze s =? 0 then Ok (goto (w_refs s (setf (refs s) t (S (refs s t)))) t Idle) else Ok (goto s t Dec1)
  | Dec1, Step =>
    let v := (counter s - 1)%Z in
    if (v <? 0)%Z then Bug
    else Ok (goto (w_counter s v) t (if (v =? 0)%Z then Dec2 else Idle))
  | Dec2, Step => if callback s then Ok (fire s t) else Ok (goto s t Idle)
  | Reg1, Step => if (freeze s =? 0) || callback s then Bug else Ok (goto s t Reg2)
  | Reg2, Step => Ok (goto (w_counter s (counter s + 1)%Z) t Reg3)
  | Reg3, Step => Ok (goto s t Reg4)
  | Reg4, Step => if calm && window s then Blocked else Ok (goto (w_cb s true) t Dec1)
  | _, _ => Blocked
  end.

Definition init : st :=
  {| counter := 0; freeze := 0; callback := false; thr := fun _ => Idle; refs := fun _ => 0;
     outst := false; nreg := 0; fired := 0; early := false |}.

Fixpoint run (evs : list (nat * act)) (s : st) : out :=
  match evs with
  | [] => Ok s
  | (t, a) :: evs =>
    match step t a s with Ok s => run evs s | Blocked => run evs s | Bug => Bug end
  end.
End Refcnt.

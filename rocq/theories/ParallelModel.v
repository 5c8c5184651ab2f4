(** Parallel jobs: /repo/src/utils/utils_parallelize.c, at the level of single atomic
    operations.  Thread [i < n] is the one that handles shard [i]; thread [n] is the caller
    of ocf_parallelize_run. *)
From Coq Require Import ZArith List Bool Arith.
Import ListNotations.
Open Scope nat_scope.

Inductive pc :=
| NotPushed            (* the shard's request is not on a queue yet *)
| Queued               (* on a queue, or its handler is running *)
| Returned (e : Z)     (* the handler returned [e]; before cmpxchg (line 52) *)
| Marked               (* before dec_return (line 34) *)
| Last                 (* dec_return gave 0; before reading error and calling finish (lines 37-41) *)
| Done
| Pushing (i : nat).   (* the caller: next shard to push (lines 157-158) *)

Record st := {
  remaining : Z;
  error : Z;
  thr : nat -> pc;
  ret : list (nat * Z);    (* history: handlers that returned: shard, error *)
  fin : list Z             (* history: calls of the finish callback: error *)
}.

Inductive out := Blocked | Ok (s : st).

Definition setf {A} (f : nat -> A) (i : nat) (v : A) : nat -> A := fun j => if j =? i then v else f j.
Definition goto (s : st) (t : nat) (p : pc) : st :=
  {| remaining := remaining s; error := error s; thr := setf (thr s) t p; ret := ret s; fin := fin s |}.

Section Parallel.
Variable n : nat.    (* shards_cnt *)

(** [r]: what the shard's handler returns if this step is its return. *)
Definition step (t : nat) (r : Z) (s : st) : out :=
  match thr s t with
  | Pushing i =>
    if i <? n then Ok (goto (goto s i Queued) t (Pushing (S i)))        (* lines 157-158 *)
    else Ok (goto s t Marked)                                           (* line 160 *)
  | Queued =>
    Ok {| remaining := remaining s; error := error s; thr := setf (thr s) t (Returned r); ret := ret s ++ [(t, r)]; fin := fin s |}
  | Returned e =>                                                       (* env_atomic_cmpxchg(&error, 0, e) *)
    Ok {| remaining := remaining s; error := if (error s =? 0)%Z then e else error s; thr := setf (thr s) t Marked;
          ret := ret s; fin := fin s |}
  | Marked =>                                                           (* line 34 *)
    let v := (remaining s - 1)%Z in
    Ok {| remaining := v; error := error s; thr := setf (thr s) t (if (v =? 0)%Z then Last else Done); ret := ret s; fin := fin s |}
  | Last =>
    Ok {| remaining := remaining s; error := error s; thr := setf (thr s) t Done; ret := ret s; fin := fin s ++ [error s] |}
  | NotPushed | Done => Blocked
  end.

(** ocf_parallelize_create (lines 94-119) and the start of ocf_parallelize_run. *)
Definition start : st :=
  {| remaining := Z.of_nat n + 1; error := 0; thr := fun t => if t =? n then Pushing 0 else NotPushed; ret := []; fin := [] |}.

Fixpoint run (evs : list (nat * Z)) (s : st) : st :=
  match evs with
  | [] => s
  | (t, r) :: evs => match step t r s with Ok s => run evs s | Blocked => run evs s end
  end.
End Parallel.

(** Management pipelines: /repo/src/utils/utils_pipeline.c. *)
From Coq Require Import ZArith List Bool Arith.
Import ListNotations.
Open Scope nat_scope.

(** struct ocf_pipeline_step (/repo/src/utils/utils_pipeline.h:73-82): a single step, a
    conditional step, a step repeated for an array of arguments (true: an argument,
    false: OCF_PL_ARG_TERMINATOR), the end. *)
Inductive pstep := Single | Cond | Foreach (args : list bool) | Term.

Record st := {
  next_step : nat;
  next_arg : nat;
  fin : bool;                  (* field [finish] *)
  error : Z;
  queued : nat;                (* how many times the request is on the queue *)
  waiting : nat;               (* handler calls that did not continue the pipeline yet *)
  (* history *)
  trace : list (nat * nat);    (* handler calls: step, argument *)
  done : list Z;               (* calls of the finish handler: error *)
  reports : list Z             (* calls of ocf_pipeline_finish: error *)
}.

Inductive out := Blocked | Bug | Ok (s : st).

Section Pipeline.
(** The steps array; [pred]: what the predicate of a conditional step returns. *)
Variables (steps : list pstep) (pred : nat -> bool).

Definition call_hndl (s : st) (ns na k a : nat) : st :=
  {| next_step := ns; next_arg := na; fin := fin s; error := error s; queued := queued s; waiting := S (waiting s);
     trace := trace s ++ [(k, a)]; done := done s; reports := reports s |}.
Definition call_finish (s : st) (ns na : nat) : st :=
  {| next_step := ns; next_arg := na; fin := fin s; error := error s; queued := queued s; waiting := waiting s;
     trace := trace s; done := done s ++ [error s]; reports := reports s |}.

(** The while loop of _ocf_pipeline_run_step (utils_pipeline.c:46-77).  Reading past the
    arrays is undefined ([Bug]), as is a loop longer than the array. *)
Fixpoint loop (fuel : nat) (ns na : nat) (s : st) : out :=
  match fuel with
  | 0 => Bug
  | S fuel =>
    match nth_error steps ns with
    | None => Bug
    | Some Single => Ok (call_hndl s (S ns) na ns 0)
    | Some Cond => if pred ns then Ok (call_hndl s (S ns) na ns 0) else loop fuel (S ns) na s
    | Some (Foreach args) =>
      match nth_error args na with
      | None => Bug
      | Some false => loop fuel (S ns) 0 s
      | Some true => Ok (call_hndl s ns (S na) ns na)
      end
    | Some Term => Ok (call_finish s ns na)
    end
  end.

Definition pop (s : st) : st :=
  {| next_step := next_step s; next_arg := next_arg s; fin := fin s; error := error s; queued := queued s - 1; waiting := waiting s;
     trace := trace s; done := done s; reports := reports s |}.

(** _ocf_pipeline_run_step (utils_pipeline.c:34-80), when the queue runs the request. *)
Definition run_step (s : st) : out :=
  if fin s then Ok (call_finish s (next_step s) (next_arg s)) else loop (S (length steps)) (next_step s) (next_arg s) s.

Inductive ev :=
| Run                   (* the queue runs the request *)
| Next                  (* a handler that was called, now or later: ocf_pipeline_next *)
| Finish (e : Z).       (* the same: ocf_pipeline_finish *)

(** Each handler call continues the pipeline exactly once; how and when is arbitrary. *)
Definition step (e : ev) (s : st) : out :=
  match e with
  | Run => if queued s =? 0 then Blocked else run_step (pop s)
  | Next =>                                           (* utils_pipeline.c:136-139 *)
    if waiting s =? 0 then Blocked
    else Ok {| next_step := next_step s; next_arg := next_arg s; fin := fin s; error := error s; queued := S (queued s);
               waiting := waiting s - 1; trace := trace s; done := done s; reports := reports s |}
  | Finish e =>                                       (* utils_pipeline.c:141-146 *)
    if waiting s =? 0 then Blocked
    else Ok {| next_step := next_step s; next_arg := next_arg s; fin := true; error := e; queued := S (queued s);
               waiting := waiting s - 1; trace := trace s; done := done s; reports := reports s ++ [e] |}
  end.

Fixpoint run (evs : list ev) (s : st) : out :=
  match evs with
  | [] => Ok s
  | e :: evs => match step e s with Ok s => run evs s | Blocked => run evs s | Bug => Bug end
  end.

(** ocf_pipeline_create (utils_pipeline.c:82-118) and the first ocf_pipeline_next. *)
Definition start : st :=
  {| next_step := 0; next_arg := 0; fin := false; error := 0; queued := 1; waiting := 0; trace := []; done := []; reports := [] |}.
End Pipeline.

(** Tracking of sequential streams: /repo/src/ocf_seq_cutoff.c, on top of RbModel.v.

    The list [lru] of a tracker is modelled as a list of stream numbers (simplified from a
    linked list).  Locks are left out: each function below runs under the lock of its tracker. *)
From Coq Require Import List Bool NArith Arith.
From Verif Require Import RbModel.
Import ListNotations.
Open Scope N_scope.

Definition M16 := 65536%N.
Definition M64 := 18446744073709551616%N.

(** struct ocf_seq_cutoff_stream (/repo/src/ocf_seq_cutoff.h:13-21); req_count has 16 bits. *)
Record stream := { last : N; bytes : N; rw : bool; valid : bool; req_count : N }.

(** struct ocf_seq_cutoff (ocf_seq_cutoff.h:23-29) *)
Record sc := { tree : rb; lru : list nat; str : nat -> stream }.

Definition b2n (b : bool) : N := if b then 1 else 0.

(** ocf_seq_cutoff_stream_cmp (ocf_seq_cutoff.c:27-54) *)
Definition cmp (a b : stream) : comparison :=
  match b2n (valid a) ?= b2n (valid b) with
  | Eq => match b2n (rw a) ?= b2n (rw b) with
          | Eq => last a ?= last b
          | r => r
          end
  | r => r
  end.

(** list_for_each_entry in ocf_seq_cutoff_stream_list_find (ocf_seq_cutoff.c:64-70, macro at
    /repo/env/posix/ocf_env_list.h:144-148): starts behind the head and stops at it. *)
Fixpoint ring_max (fuel : nat) (t : rb) (st : nat -> stream) (first item : nat) (best : option nat) : option (option nat) :=
  match fuel with
  | O => None
  | S fuel =>
    if Nat.eqb (nxt (hp t item)) first then Some best
    else
      let m := match best with None => item | Some m => m end in
      let m := if bytes (st m) <? bytes (st item) then item else m in
      ring_max fuel t st first (nxt (hp t item)) (Some m)
  end.
Definition list_find (fuel : nat) (st : nat -> stream) (t : rb) (h : nat) : option (option nat) :=
  ring_max fuel t st (nxt (hp t h)) (nxt (hp t h)) None.

Definition set_str (x : nat) (v : stream) (f : nat -> stream) : nat -> stream :=
  fun y => if Nat.eqb y x then v else f y.

(** Fuel for a tracker with n streams: enough for every loop (see SeqProofs.v). *)
Definition fuel_for (n : nat) : nat := (n * n + 4 * n + 4)%nat.

(** ocf_seq_cutoff_base_init (ocf_seq_cutoff.c:75-94), the body of the loop from stream i on *)
Definition null_node : node := {| red := false; lft := None; rgt := None; par := None; nxt := 0; prv := 0 |}.
Definition blank : stream := {| last := 0; bytes := 0; rw := false; valid := false; req_count := 0 |}.
Fixpoint init_loop (fuel k i : nat) (s : sc) : option sc :=
  match k with
  | O => Some s
  | S k =>
    let v := {| last := 4096 * N.of_nat i; bytes := 0; rw := false; valid := false; req_count := 0 |} in
    let st := set_str i v (str s) in
    match insert fuel (fun y => cmp v (st y)) (tree s) i with
    | None => None
    | Some t => init_loop fuel k (S i) {| tree := t; lru := lru s ++ [i]; str := st |}
    end
  end.
Definition base_init (n : nat) : option sc :=
  init_loop (fuel_for n) n 0 {| tree := {| root := None; hp := fun _ => null_node |}; lru := []; str := fun _ => blank |}.

(** struct ocf_seq_cutoff_stream item = { .last = addr, .rw = rw, .valid = true } *)
Definition item (addr : N) (w : bool) : stream := {| last := addr; bytes := 0; rw := w; valid := true; req_count := 0 |}.

Definition sc_find (fuel : nat) (s : sc) (it : stream) : option (option nat) :=
  find fuel (fun y => cmp it (str s y)) (list_find fuel (str s)) (tree s).

(** ocf_core_seq_cutoff_base_check (ocf_seq_cutoff.c:162-184): the result and the stream. *)
Definition base_check (fuel : nat) (s : sc) (addr len : N) (w : bool) (threshold : N) : option (bool * option nat) :=
  match sc_find fuel s (item addr w) with
  | None => None
  | Some None => Some (false, None)
  | Some (Some x) => Some (threshold <=? (bytes (str s x) + len) mod M64, Some x)
  end.

(** list_move_tail and list_move on [lru] *)
Definition del (x : nat) (l : list nat) : list nat := filter (fun y => negb (Nat.eqb y x)) l.
Definition move_tail (x : nat) (l : list nat) : list nat := del x l ++ [x].
Definition move_head (x : nat) (l : list nat) : list nat := x :: del x l.

(** ocf_core_seq_cutoff_base_update (ocf_seq_cutoff.c:230-275).  [None]: undefined behaviour,
    otherwise the new tracker and the stream. *)
Definition base_update (fuel : nat) (s : sc) (addr len : N) (w ins : bool) : option (sc * option nat) :=
  match sc_find fuel s (item addr w) with
  | None => None
  | Some (Some x) =>
    let e := (addr + len) mod M64 in
    let it := item e w in
    match can_update fuel (fun y => cmp it (str s y)) (tree s) x with
    | None => None
    | Some can =>
      let o := str s x in
      let v := {| last := e; bytes := (bytes o + len) mod M64; rw := rw o; valid := valid o;
                  req_count := (req_count o + 1) mod M16 |} in
      let st := set_str x v (str s) in
      let done t := Some ({| tree := t; lru := move_tail x (lru s); str := st |}, Some x) in
      if can then done (tree s)
      else match remove fuel (tree s) x with
           | None => None
           | Some t => match insert fuel (fun y => cmp v (st y)) t x with
                       | None => None
                       | Some t => done t
                       end
           end
    end
  | Some None =>
    if ins then
      match lru s with
      | [] => None
      | x :: _ =>
        match remove fuel (tree s) x with
        | None => None
        | Some t =>
          let v := {| last := (addr + len) mod M64; bytes := len; rw := w; valid := true; req_count := 1 |} in
          let st := set_str x v (str s) in
          match insert fuel (fun y => cmp v (st y)) t x with
          | None => None
          | Some t => Some ({| tree := t; lru := move_tail x (lru s); str := st |}, Some x)
          end
        end
      end
    else Some (s, None)
  end.

(** ocf_core_seq_cutoff_base_promote (ocf_seq_cutoff.c:277-296): the new destination and source *)
Definition base_promote (fuel : nat) (dst src : sc) (x : nat) : option (sc * sc) :=
  match lru dst with
  | [] => None
  | d :: _ =>
    match remove fuel (tree dst) d with
    | None => None
    | Some t =>
      let o := str src x in
      let v := {| last := last o; bytes := bytes o; rw := rw o; valid := true; req_count := req_count o |} in
      let st := set_str d v (str dst) in
      match insert fuel (fun y => cmp v (st y)) t d with
      | None => None
      | Some t =>
        let w := {| last := last o; bytes := bytes o; rw := rw o; valid := false; req_count := req_count o |} in
        Some ({| tree := t; lru := move_tail d (lru dst); str := st |},
              {| tree := tree src; lru := move_head x (lru src); str := set_str x w (str src) |})
      end
    end
  end.

(** A core with one queue, and its settings (threshold, promotion_count, promote_on_threshold). *)
Record cfg := { threshold : N; promotion_count : N; promote_on_threshold : bool }.
Record st2 := { core : sc; queue : sc }.

(** A user request: address, length, direction. *)
Record rq := { addr : N; len : N; wr : bool }.

(** ocf_core_seq_cutoff_check (ocf_seq_cutoff.c:186-228), policy "always": the decision and
    req->seq_cutoff_core. *)
Definition check (fuel : nat) (c : cfg) (s : st2) (r : rq) : option (bool * bool) :=
  match base_check fuel (queue s) (addr r) (len r) (wr r) (threshold c) with
  | None => None
  | Some (res, Some _) => Some (res, false)
  | Some (_, None) =>
    match base_check fuel (core s) (addr r) (len r) (wr r) (threshold c) with
    | None => None
    | Some (res, o) => Some (res, match o with Some _ => true | None => false end)
    end
  end.

(** The part of ocf_core_seq_cutoff_update for the tracker of the queue (ocf_seq_cutoff.c:329-347) *)
Definition queue_part (fuel : nat) (c : cfg) (r : rq) (promote : bool) (s : st2) : option st2 :=
  match base_update fuel (queue s) (addr r) (len r) (wr r) true with
  | Some (q, Some x) =>
    let promote := promote || ((threshold c <=? bytes (str q x)) && promote_on_threshold c)
                   || (promotion_count c <=? req_count (str q x)) in
    if promote then
      match base_promote fuel (core s) q x with
      | None => None
      | Some (d, q) => Some {| core := d; queue := q |}
      end
    else Some {| core := core s; queue := q |}
  | _ => None
  end.

(** ocf_core_seq_cutoff_update (ocf_seq_cutoff.c:298-348), policy "always" *)
Definition update (fuel : nat) (c : cfg) (s : st2) (r : rq) (in_core : bool) : option st2 :=
  let promote := ((threshold c <=? len r) && promote_on_threshold c) || (promotion_count c =? 1) in
  if in_core || promote then
    match base_update fuel (core s) (addr r) (len r) (wr r) promote with
    | None => None
    | Some (d, Some _) => Some {| core := d; queue := queue s |}
    | Some (d, None) => queue_part fuel c r promote {| core := d; queue := queue s |}
    end
  else queue_part fuel c r promote s.

(** A request passes ocf_resolve_effective_cache_mode (/repo/src/engine/cache_engine.c:179) and
    then ocf_core_submit_io's update (/repo/src/ocf_core.c:308). *)
Definition request (fuel : nat) (c : cfg) (s : st2) (r : rq) : option st2 :=
  match check fuel c s r with
  | None => None
  | Some (_, in_core) => update fuel c s r in_core
  end.
Fixpoint requests (fuel : nat) (c : cfg) (s : st2) (l : list rq) : option st2 :=
  match l with
  | [] => Some s
  | r :: l => match request fuel c s r with None => None | Some s => requests fuel c s l end
  end.

(** /repo/inc/ocf_def.h:182-183 *)
Definition PERCORE := 128%nat.
Definition PERQUEUE := 64%nat.
Definition start : option st2 :=
  match base_init PERCORE, base_init PERQUEUE with
  | Some c, Some q => Some {| core := c; queue := q |}
  | _, _ => None
  end.

(** What users of one cache line may expect from concurrent requests (C52).
    Stated on the history of submissions and completions (newest first). *)
From Coq Require Import NArith List Bool Arith.
From Verif Require Import ConcModel.
Import ListNotations.

(** Request [i] was completed before request [j] was submitted. *)
Definition older (h : list ev) (i j : nat) : Prop :=
  exists h2 h1 b, h = h2 ++ EStart j :: h1 /\ In (EAck i b) h1.
Definition started (h : list ev) (i : nat) : Prop := In (EStart i) h.
Definition acked (h : list ev) (i : nat) : Prop := exists b, In (EAck i b) h.

(** Bypassing writes, after their look-up; those whose first pass holds no lock. *)
Definition bypass (p : pc) : bool :=
  match p with
  | Wait (KtWi1 _ _) | Wait (KtWi2 _) | CRead _ _ (AWi _) | CSub _ (AWi _) | CLand _ _ (AWi _) | CBits (AWi _)
  | WiCore _ _ _ | WiPurge _ | WiUnl | Wi2 _ | WiPurge2 _ => true
  | _ => false
  end.
Definition bare (p : pc) : bool :=
  match p with
  | WiCore lk _ _ | Wi2 lk | WiPurge2 lk | Wait (KtWi2 lk) => negb lk
  | _ => false
  end.
Definition inprog (p : pc) : bool := match p with Idle | Done => false | _ => true end.

Section Spec.
Variable n : nat.
Variable P : nat -> desc.
Variable c0 : nat -> V.       (* contents of the core line at first *)

Definition covers (i x : nat) : Prop := x < n /\ rng (P i) x = true.
Definition writes (i x : nat) : Prop := is_wr (kd (P i)) = true /\ covers i x.

(** Where the data of a sector comes from: a write, or the initial contents
    (which are older than every write). *)
Definition sdat (x : nat) (o : option nat) : V :=
  match o with Some i => dat (P i) x | None => c0 x end.
Definition solder (h : list ev) (o : option nat) (j : nat) : Prop :=
  match o with Some i => older h i j | None => True end.

(** [v] is the data of a write that no completed write followed. *)
Definition latest (h : list ev) (x : nat) (v : V) : Prop :=
  exists o, v = sdat x o /\ (forall i, o = Some i -> writes i x /\ acked h i) /\
    forall j, writes j x -> acked h j -> ~ solder h o j.

(** A read [r] may return [v] for sector [x]: data of a write that was submitted
    and that no write followed which was completed before the read was submitted. *)
Definition readable (h : list ev) (r x : nat) (v : V) : Prop :=
  exists o, v = sdat x o /\ (forall i, o = Some i -> writes i x /\ started h i) /\
    forall j, writes j x -> older h j r -> ~ solder h o j.

(** All submitted writes to sector [x] are completed. *)
Definition quiet (h : list ev) (x : nat) : Prop :=
  forall i, writes i x -> started h i -> acked h i.

(** What a read of an idle line returns. *)
Definition content (s : st) (x : nat) : V := if mapd s && vld s x then cach s x else core s x.

(** ** Assumptions on executions. *)
(** Every two writes to a sector are submitted one after the other. *)
Definition serial (h : list ev) : Prop := forall i j x, i <> j -> writes i x -> writes j x ->
  started h i -> started h j -> older h i j \/ older h j i.
(** Bypassing writes keep apart from other writes to their sectors. *)
Definition apart (s : st) : Prop := forall i j x, i <> j -> writes i x -> writes j x ->
  bypass (pcs s i) = true -> inprog (pcs s j) = true -> False.
(** The cleaner writes dirty sectors only, or no bypassing write is under way
    without lock while the cleaner picks the sectors to write. *)
Definition mild (strict : bool) (s : st) : Prop := strict = true \/
  forall i j b k, bare (pcs s i) = true -> pcs s j = CSub b k -> False.
(** No write bypasses the cache. *)
Definition cached (a : act) : Prop := match a with Byp i => is_wr (kd (P i)) = false | _ => True end.
End Spec.

(** [Q] in all states of a run. *)
Fixpoint along (n : nat) (strict : bool) (P : nat -> desc) (Q : st -> Prop) (l : list act) (s : st) : Prop :=
  Q s /\ match l with
         | [] => True
         | a :: r => match step n strict P s a with Some t => along n strict P Q r t | None => True end
         end.

(** Hash table and collision chains: /repo/src/metadata/metadata_collision.c and the
    look-up in /repo/src/engine/engine_common.c:39-74.
    Arrays are functions; [nl]: collision_table_entries (also the "no line" value),
    [nh]: hash_table_entries.  Simplified: access to the metadata arrays does not
    fail (raw RAM access, metadata_raw.c); operations on one hash bucket are
    atomic (bucket lock held by the callers). *)
From Coq Require Import NArith List Bool Arith.
From Verif Require Import HashModel.
Import ListNotations.
Open Scope nat_scope.

(** Core id and core line. *)
Definition key := (N * N)%type.

(** include/ocf/ocf_def.h OCF_CORE_MAX; ULLONG_MAX. *)
Definition CORE_MAX : N := 4096.
Definition no_key : key := (CORE_MAX, 2 ^ 64 - 1)%N.

(** [hash]: hash table; [nxt], [prv]: ocf_metadata_list_info (metadata_collision.h:13-20);
    [core]: core id and line of ocf_metadata_map (metadata_collision.h:26-35). *)
Record ct := { hash : N -> nat; nxt : nat -> nat; prv : nat -> nat; core : nat -> key }.

Definition set {A} (f : nat -> A) (i : nat) (v : A) : nat -> A := fun j => if (j =? i)%nat then v else f j.
Definition setN {A} (f : N -> A) (i : N) (v : A) : N -> A := fun j => if (j =? i)%N then v else f j.

Definition key_eqb (a b : key) : bool := (fst a =? fst b)%N && (snd a =? snd b)%N.

Section Coll.
Variables (nh : N) (nl : nat).

Definition bucket (k : key) : N := hash_func nh (fst k) (snd k).

(** metadata_collision.c:11-24, 26-39, 41-54. *)
Definition set_collision_info (s : ct) (l n p : nat) : ct :=
  {| hash := hash s; nxt := set (nxt s) l n; prv := set (prv s) l p; core := core s |}.
Definition set_collision_next (s : ct) (l n : nat) : ct :=
  {| hash := hash s; nxt := set (nxt s) l n; prv := prv s; core := core s |}.
Definition set_collision_prev (s : ct) (l p : nat) : ct :=
  {| hash := hash s; nxt := nxt s; prv := set (prv s) l p; core := core s |}.
(** ocf_metadata_set_core_info, ocf_metadata_set_hash (metadata_core.c, metadata.c). *)
Definition set_core (s : ct) (l : nat) (k : key) : ct :=
  {| hash := hash s; nxt := nxt s; prv := prv s; core := set (core s) l k |}.
Definition set_hash (s : ct) (b : N) (l : nat) : ct :=
  {| hash := setN (hash s) b l; nxt := nxt s; prv := prv s; core := core s |}.

(** metadata_collision.c:93-125 [ocf_metadata_add_to_collision]; [None]: ENV_BUG_ON.
    The caller passes the hash of the key (engine_common.c:314, ocf_mngt_cache.c:566). *)
Definition add_to_collision (s : ct) (k : key) (line : nat) : option ct :=
  let b := bucket k in
  let prev := hash s b in
  if (b <? nh)%N && (line <? nl) then
    let s := set_core s line k in
    let s := set_collision_info s line prev nl in
    let s := if negb (prev =? nl) then set_collision_prev s prev line else s in
    Some (set_hash s b line)
  else None.

(** metadata_collision.c:130-170 [ocf_metadata_remove_from_collision]. *)
Definition remove_from_collision (s : ct) (line : nat) : option ct :=
  if negb (line <? nl) then None
  else
    let n := nxt s line in
    let p := prv s line in
    let s := if negb (p =? nl) then set_collision_next s p n else s in
    let s := if negb (n =? nl) then set_collision_prev s n p else s in
    let b := bucket (core s line) in
    if negb (b <? nh)%N then None
    else
      let s := if hash s b =? line then set_hash s b n else s in
      let s := set_collision_info s line nl nl in
      Some (set_core s line no_key).

(** engine_common.c:59-73. Outer [None]: a line out of range is accessed or the
    walk does not end within [fuel] steps; [Some None]: LOOKUP_MISS. *)
Fixpoint walk (s : ct) (k : key) (fuel line : nat) : option (option nat) :=
  if line =? nl then Some None
  else if negb (line <? nl) then None
  else match fuel with
       | O => None
       | S f => if key_eqb k (core s line) then Some (Some line) else walk s k f (nxt s line)
       end.

(** engine_common.c:39-74 [ocf_engine_lookup_map_entry]. *)
Definition lookup (s : ct) (k : key) : option (option nat) := walk s k nl (hash s (bucket k)).

(** Empty table: metadata_misc / ocf_metadata_init_collision, ocf_metadata_init_hash_table
    (metadata.c): every head and link = collision_table_entries; core info reset
    (ocf_mngt_cache.c:547-557). *)
Definition empty : ct :=
  {| hash := fun _ => nl; nxt := fun _ => nl; prv := fun _ => nl; core := fun _ => no_key |}.

Inductive op := Map (k : key) (line : nat) | Unmap (line : nat).
Definition exec (o : op) (s : ct) : option ct :=
  match o with Map k l => add_to_collision s k l | Unmap l => remove_from_collision s l end.
Fixpoint exec_all (l : list op) (s : ct) : option ct :=
  match l with
  | [] => Some s
  | o :: r => match exec o s with Some s' => exec_all r s' | None => None end
  end.
End Coll.

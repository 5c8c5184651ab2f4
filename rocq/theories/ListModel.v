(** The index based doubly linked list: /repo/src/utils/utils_list.h, utils_list.c.

    A list has the entries 0 .. inv-1; the entry of index inv (lst->invalid) is the head
    (lst->head = getter(invalid), utils_list.h:82).  The getter (utils_user_part.c:15-20) stops
    with ENV_BUG for an index above inv; [None] stands for that and for the ENV_BUG in
    ocf_lst_is_entry.  OCF_LST_DBG_ON (utils_list.h:15-23) evaluates the condition and only
    logs. *)
From Coq Require Import List Bool Arith.
Import ListNotations.

(** struct ocf_lst_entry (utils_list.h:30-33) *)
Record entry := { next : nat; prev : nat }.
Definition entries := nat -> entry.

Definition setn (e : entries) (x v : nat) : entries := fun y => let z := e y in if y =? x then {| next := v; prev := prev z |} else z.
Definition setp (e : entries) (x v : nat) : entries := fun y => let z := e y in if y =? x then {| next := next z; prev := v |} else z.

(** getter: the check of the index *)
Definition ok (inv x : nat) : bool := x <=? inv.
(** ocf_lst_init_entry (utils_list.h:53-57), OCF_LST_ENTRY_OUT (utils_list.h:28) *)
Definition init_entry (inv : nat) (e : entries) (x : nat) : entries := setp (setn e x (inv + 1)) x (inv + 1).

(** ocf_lst_is_entry (utils_list.h:59-72) *)
Definition is_entry (inv : nat) (y : entry) : option bool :=
  if (next y =? inv + 1) && (prev y =? inv + 1) then Some false
  else if (next y <? inv + 1) && (prev y <? inv + 1) then Some true
  else None.
(** The three OCF_LST_DBG_ON of an operation *)
Definition dbg (inv : nat) (e : entries) (a b c : nat) : bool :=
  match is_entry inv (e a), is_entry inv (e b), is_entry inv (e c) with Some _, Some _, Some _ => true | _, _, _ => false end.

(** ocf_lst_init (utils_list.h:74-95) *)
Fixpoint init_entries (inv k : nat) (e : entries) : entries :=
  match k with 0 => e | S k => init_entry inv (init_entries inv k e) k end.
Definition lst_init (inv : nat) (e : entries) : entries :=
  init_entries inv inv (setp (setn e inv inv) inv inv).

(** ocf_lst_add_after (utils_list.h:97-112) *)
Definition add_after (inv at_ x : nat) (e : entries) : option entries :=
  let n := next (e at_) in
  if ok inv at_ && ok inv n && ok inv x && dbg inv e x at_ n
  then Some (setp (setn (setp (setn e x n) x at_) at_ x) n x)
  else None.

(** ocf_lst_add_before (utils_list.h:114-129) *)
Definition add_before (inv at_ x : nat) (e : entries) : option entries :=
  let p := prev (e at_) in
  if ok inv at_ && ok inv p && ok inv x && dbg inv e x at_ p
  then Some (setn (setp (setp (setn e x at_) x p) at_ x) p x)
  else None.

(** ocf_lst_add (utils_list.h:131-143) *)
Definition add (inv x : nat) (e : entries) : option entries :=
  let n := next (e inv) in
  if ok inv x && ok inv n && dbg inv e x n n
  then Some (setp (setn (setp (setn e x n) n x) inv x) x inv)
  else None.

(** ocf_lst_add_tail (utils_list.h:145-157) *)
Definition add_tail (inv x : nat) (e : entries) : option entries :=
  let p := prev (e inv) in
  if ok inv x && ok inv p && dbg inv e x p p
  then Some (setp (setn (setp (setn e x inv) x p) p x) inv x)
  else None.

(** ocf_lst_del (utils_list.h:159-173) *)
Definition del (inv x : nat) (e : entries) : option entries :=
  let n := next (e x) in
  let p := prev (e x) in
  if ok inv x && ok inv n && ok inv p && dbg inv e x n p
  then Some (init_entry inv (setp (setn e p n) n p) x)
  else None.

(** The search of ocf_lst_sort (utils_list.c:47-49): for_each_lst (utils_list.h:195-198) until
    cmp(pos, iter) > 0, here [gt pos iter] *)
Fixpoint scan (fuel inv : nat) (gt : nat -> nat -> bool) (e : entries) (pos x : nat) : option nat :=
  match fuel with
  | 0 => None
  | S fuel => if negb (ok inv pos) then None
              else if pos =? inv then Some inv
              else if gt pos x then Some pos
              else scan fuel inv gt e (next (e pos)) x
  end.

(** One pass of the while loop of ocf_lst_sort (utils_list.c:36-58) *)
Definition sort_one (inv : nat) (gt : nat -> nat -> bool) (x : nat) (e : entries) : option entries :=
  let e := init_entry inv e x in
  if next (e inv) =? inv then add inv x e
  else match scan (inv + 2) inv gt e (next (e inv)) x with
       | None => None
       | Some pos => if pos =? inv then add_tail inv x e else add_before inv pos x e
       end.

(** The while loop (utils_list.c:36-64) *)
Fixpoint sort_loop (fuel inv : nat) (gt : nat -> nat -> bool) (x nx : nat) (e : entries) : option entries :=
  if x =? inv then Some e
  else match fuel with
       | 0 => None
       | S fuel =>
         match sort_one inv gt x e with
         | None => None
         | Some e => if ok inv nx then sort_loop fuel inv gt nx (next (e nx)) e else None
         end
       end.

(** ocf_lst_sort (utils_list.c:9-65), lst->cmp set *)
Definition lst_sort (inv : nat) (gt : nat -> nat -> bool) (e : entries) : option entries :=
  if next (e inv) =? inv then Some e
  else
    let x := next (e inv) in
    if ok inv x && ok inv (next (e x))
    then sort_loop (inv + 1) inv gt x (next (e x)) (setp (setn e inv inv) inv inv)
    else None.

(** for_each_lst: the indices visited (utils_list.h:195-198) *)
Fixpoint visit (fuel inv : nat) (e : entries) (pos : nat) : list nat :=
  match fuel with
  | 0 => []
  | S fuel => if pos =? inv then [] else pos :: visit fuel inv e (next (e pos))
  end.

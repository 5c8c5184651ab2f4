(** The red-black tree with rings of equal nodes: /repo/src/utils/utils_rbtree.c, on a heap of
    nodes linked by pointers.

    A node is named by a number; a null pointer is [None]; dereferencing it makes the result
    [None] (undefined behaviour).  Loops carry an amount of fuel; running out of it gives
    [None] as well.  The member [list] of a node is a doubly linked ring
    (/repo/env/posix/ocf_env_list.h:15-70). *)
From Coq Require Import List Bool Arith.
Import ListNotations.
Open Scope nat_scope.

(** struct ocf_rb_node (/repo/src/utils/utils_rbtree.h:11-17) *)
Record node := { red : bool; lft : option nat; rgt : option nat; par : option nat; nxt : nat; prv : nat }.

(** struct ocf_rb_tree (utils_rbtree.h:25-29) without the callbacks, and the memory. *)
Record rb := { root : option nat; hp : nat -> node }.

Definition peq (a b : option nat) : bool :=
  match a, b with Some x, Some y => x =? y | None, None => true | _, _ => false end.

Definition set_red b n := {| red := b; lft := lft n; rgt := rgt n; par := par n; nxt := nxt n; prv := prv n |}.
Definition set_lft p n := {| red := red n; lft := p; rgt := rgt n; par := par n; nxt := nxt n; prv := prv n |}.
Definition set_rgt p n := {| red := red n; lft := lft n; rgt := p; par := par n; nxt := nxt n; prv := prv n |}.
Definition set_par p n := {| red := red n; lft := lft n; rgt := rgt n; par := p; nxt := nxt n; prv := prv n |}.
Definition set_nxt x n := {| red := red n; lft := lft n; rgt := rgt n; par := par n; nxt := x; prv := prv n |}.
Definition set_prv x n := {| red := red n; lft := lft n; rgt := rgt n; par := par n; nxt := nxt n; prv := x |}.

(** A store to node [x]. *)
Definition mod1 (x : nat) (f : node -> node) (t : rb) : rb :=
  {| root := root t; hp := fun y => if y =? x then f (hp t y) else hp t y |}.
(** A store through a pointer that was tested to be non-null ("if (p) p->... = ..."). *)
Definition modp (p : option nat) (f : node -> node) (t : rb) : rb :=
  match p with Some x => mod1 x f t | None => t end.
Definition set_root (p : option nat) (t : rb) : rb := {| root := p; hp := hp t |}.
Definition isred (t : rb) (p : option nat) : bool := match p with Some x => red (hp t x) | None => false end.

(** ocf_rb_tree_update_parent (utils_rbtree.c:20-34) *)
Definition update_parent (t : rb) (parent : option nat) (old new : option nat) : rb :=
  match parent with
  | None => if peq (root t) old then set_root new t else t
  | Some p => if peq (lft (hp t p)) old then mod1 p (set_lft new) t
              else if peq (rgt (hp t p)) old then mod1 p (set_rgt new) t
              else t
  end.

(** ocf_rb_tree_rotate_left (utils_rbtree.c:36-52) *)
Definition rotate_left (t : rb) (x : nat) : option rb :=
  match rgt (hp t x) with
  | None => None
  | Some r =>
    let rl := lft (hp t r) in
    let t := mod1 x (set_rgt rl) t in
    let t := modp rl (set_par (Some x)) t in
    let t := mod1 r (set_par (par (hp t x))) t in
    let t := update_parent t (par (hp t x)) (Some x) (Some r) in
    let t := mod1 r (set_lft (Some x)) t in
    Some (mod1 x (set_par (Some r)) t)
  end.

(** ocf_rb_tree_rotate_right (utils_rbtree.c:54-70) *)
Definition rotate_right (t : rb) (x : nat) : option rb :=
  match lft (hp t x) with
  | None => None
  | Some l =>
    let lr := rgt (hp t l) in
    let t := mod1 x (set_lft lr) t in
    let t := modp lr (set_par (Some x)) t in
    let t := mod1 l (set_par (par (hp t x))) t in
    let t := update_parent t (par (hp t x)) (Some x) (Some l) in
    let t := mod1 l (set_rgt (Some x)) t in
    Some (mod1 x (set_par (Some l)) t)
  end.

(** The end of ocf_rb_tree_fix_violation: tree->root->red = false (utils_rbtree.c:134-135). *)
Definition root_black (t : rb) : option rb :=
  match root t with Some r => Some (mod1 r (set_red false) t) | None => None end.

(** One swap of two colours (utils_rbtree.c:102-104, 126-128). *)
Definition swap_red (t : rb) (p g : nat) : rb :=
  let tmp := red (hp t p) in
  let t := mod1 p (set_red (red (hp t g))) t in
  mod1 g (set_red tmp) t.

(** ocf_rb_tree_fix_violation (utils_rbtree.c:72-136) *)
Fixpoint fix_violation (fuel : nat) (t : rb) (x : nat) : option rb :=
  match fuel with
  | 0 => None
  | S fuel =>
    match par (hp t x) with
    | None => root_black t
    | Some p =>
      if red (hp t x) && red (hp t p) then
        match par (hp t p) with
        | None => root_black t
        | Some g =>
          if peq (Some p) (lft (hp t g)) then
            let u := rgt (hp t g) in
            if isred t u then
              let t := mod1 g (set_red true) t in
              let t := mod1 p (set_red false) t in
              let t := modp u (set_red false) t in
              fix_violation fuel t g
            else if peq (Some x) (rgt (hp t p)) then
              match rotate_left t p with Some t => fix_violation fuel t p | None => None end
            else
              match rotate_right t g with Some t => fix_violation fuel (swap_red t p g) p | None => None end
          else
            let u := lft (hp t g) in
            if isred t u then
              let t := mod1 g (set_red true) t in
              let t := mod1 p (set_red false) t in
              let t := modp u (set_red false) t in
              fix_violation fuel t g
            else if peq (Some x) (lft (hp t p)) then
              match rotate_right t p with Some t => fix_violation fuel t p | None => None end
            else
              match rotate_left t g with Some t => fix_violation fuel (swap_red t p g) p | None => None end
        end
      else root_black t
    end
  end.

(** INIT_LIST_HEAD, list_add_tail, list_del (/repo/env/posix/ocf_env_list.h:23, 45-52, 67-71) *)
Definition init_list (x : nat) (t : rb) : rb := mod1 x (fun n => set_nxt x (set_prv x n)) t.
Definition list_add_tail (it l1 : nat) (t : rb) : rb :=
  let t := mod1 it (set_prv (prv (hp t l1))) t in
  let t := mod1 it (set_nxt l1) t in
  let t := mod1 (prv (hp t l1)) (set_nxt it) t in
  mod1 l1 (set_prv it) t.
Definition list_del (it : nat) (t : rb) : rb :=
  let t := mod1 (nxt (hp t it)) (set_prv (prv (hp t it))) t in
  mod1 (prv (hp t it)) (set_nxt (nxt (hp t it))) t.
Definition list_empty (x : nat) (t : rb) : bool := nxt (hp t x) =? x.

(** The descent of ocf_rb_tree_insert (utils_rbtree.c:156-162): the last node visited and the
    last comparison.  [c y] is the result of comparing the searched item with node [y]
    (callback cmp). *)
Fixpoint descend (fuel : nat) (c : nat -> comparison) (t : rb) (iter : nat) : option (nat * comparison) :=
  match fuel with
  | 0 => None
  | S fuel =>
    match c iter with
    | Eq => Some (iter, Eq)
    | Lt => match lft (hp t iter) with None => Some (iter, Lt) | Some y => descend fuel c t y end
    | Gt => match rgt (hp t iter) with None => Some (iter, Gt) | Some y => descend fuel c t y end
    end
  end.

(** ocf_rb_tree_insert (utils_rbtree.c:138-177) *)
Definition insert (fuel : nat) (c : nat -> comparison) (t : rb) (x : nat) : option rb :=
  let t := init_list x t in
  let t := mod1 x (fun n => set_par None (set_rgt None (set_lft None n))) t in
  match root t with
  | None => Some (set_root (Some x) (mod1 x (fun n => set_par None (set_red false n)) t))
  | Some r =>
    match descend fuel c t r with
    | None => None
    | Some (i, Eq) => Some (list_add_tail x i t)
    | Some (i, Lt) =>
        let t := mod1 x (fun n => set_par (Some i) (set_red true n)) t in
        fix_violation fuel (mod1 i (set_lft (Some x)) t) x
    | Some (i, Gt) =>
        let t := mod1 x (fun n => set_par (Some i) (set_red true n)) t in
        fix_violation fuel (mod1 i (set_rgt (Some x)) t) x
    end
  end.

(** ocf_rb_copy_node (utils_rbtree.c:179-185) *)
Definition copy_node (src dst : node) : node :=
  {| red := red src; lft := lft src; rgt := rgt src; par := par src; nxt := nxt dst; prv := prv dst |}.

(** ocf_rb_tree_update_children (utils_rbtree.c:187-194) *)
Definition update_children (t : rb) (x : nat) : rb :=
  let t := modp (lft (hp t x)) (set_par (Some x)) t in
  modp (rgt (hp t x)) (set_par (Some x)) t.

(** "if (node1->parent == node1) ... else if ... " (utils_rbtree.c:209-221) *)
Definition fix_self (t : rb) (a b : nat) : rb :=
  if peq (par (hp t a)) (Some a) then mod1 a (set_par (Some b)) t
  else if peq (lft (hp t a)) (Some a) then mod1 a (set_lft (Some b)) t
  else if peq (rgt (hp t a)) (Some a) then mod1 a (set_rgt (Some b)) t
  else t.

(** ocf_rb_tree_swap (utils_rbtree.c:200-228) *)
Definition swap (t : rb) (n1 n2 : nat) : rb :=
  let tmp := hp t n1 in
  let t := mod1 n1 (copy_node (hp t n2)) t in
  let t := mod1 n2 (copy_node tmp) t in
  let t := fix_self t n1 n2 in
  let t := fix_self t n2 n1 in
  let t := update_children t n1 in
  let t := update_children t n2 in
  let t := update_parent t (par (hp t n1)) (Some n2) (Some n1) in
  update_parent t (par (hp t n2)) (Some n1) (Some n2).

(** The loops of ocf_rb_tree_successor (utils_rbtree.c:230-241) and ocf_rb_tree_predecessor
    (utils_rbtree.c:243-254). *)
Fixpoint leftmost (fuel : nat) (t : rb) (x : nat) : option nat :=
  match fuel with
  | 0 => None
  | S fuel => match lft (hp t x) with None => Some x | Some y => leftmost fuel t y end
  end.
Fixpoint rightmost (fuel : nat) (t : rb) (x : nat) : option nat :=
  match fuel with
  | 0 => None
  | S fuel => match rgt (hp t x) with None => Some x | Some y => rightmost fuel t y end
  end.

(** ocf_rb_tree_bst_replacement (utils_rbtree.c:256-268); the outer option is undefined
    behaviour. *)
Definition replacement (fuel : nat) (t : rb) (x : nat) : option (option nat) :=
  match lft (hp t x), rgt (hp t x) with
  | Some _, Some r => match leftmost fuel t r with Some y => Some (Some y) | None => None end
  | Some l, None => Some (Some l)
  | None, Some r => Some (Some r)
  | None, None => Some None
  end.

(** ocf_rb_tree_sibling (utils_rbtree.c:270-277) *)
Definition sibling (t : rb) (x : nat) : option nat :=
  match par (hp t x) with
  | None => None
  | Some p => if peq (Some x) (lft (hp t p)) then rgt (hp t p) else lft (hp t p)
  end.

Definition bindo {A B} (o : option A) (f : A -> option B) : option B :=
  match o with Some a => f a | None => None end.

(** ocf_rb_tree_fix_double_black (utils_rbtree.c:280-349).  "node->parent" is read again after
    the rotations, as in the code. *)
Fixpoint fix_double_black (fuel : nat) (t : rb) (x : nat) : option rb :=
  match fuel with
  | 0 => None
  | S fuel =>
    match par (hp t x) with
    | None => Some t
    | Some p =>
      match sibling t x with
      | None => fix_double_black fuel t p
      | Some s =>
        if red (hp t s) then
          let t := mod1 p (set_red true) t in
          let t := mod1 s (set_red false) t in
          bindo (if peq (Some s) (lft (hp t p)) then rotate_right t p else rotate_left t p)
                (fun t => fix_double_black fuel t x)
        else if isred t (lft (hp t s)) then
          bindo (if peq (Some s) (lft (hp t p)) then
                   let t := modp (lft (hp t s)) (set_red (red (hp t s))) t in
                   let t := mod1 s (set_red (red (hp t p))) t in
                   rotate_right t p
                 else
                   let t := modp (lft (hp t s)) (set_red (red (hp t p))) t in
                   bindo (rotate_right t s) (fun t =>
                   match par (hp t x) with Some p => rotate_left t p | None => None end))
                (fun t => match par (hp t x) with Some p => Some (mod1 p (set_red false) t) | None => None end)
        else if isred t (rgt (hp t s)) then
          bindo (if peq (Some s) (lft (hp t p)) then
                   let t := modp (rgt (hp t s)) (set_red (red (hp t p))) t in
                   bindo (rotate_left t s) (fun t =>
                   match par (hp t x) with Some p => rotate_right t p | None => None end)
                 else
                   let t := modp (rgt (hp t s)) (set_red (red (hp t s))) t in
                   let t := mod1 s (set_red (red (hp t p))) t in
                   rotate_left t p)
                (fun t => match par (hp t x) with Some p => Some (mod1 p (set_red false) t) | None => None end)
        else
          let t := mod1 s (set_red true) t in
          if red (hp t p) then Some (mod1 p (set_red false) t)
          else fix_double_black fuel t p
      end
    end
  end.

(** The loop of ocf_rb_tree_remove (utils_rbtree.c:370-404) *)
Fixpoint remove_loop (fuel big : nat) (t : rb) (x : nat) : option rb :=
  match fuel with
  | 0 => None
  | S fuel =>
    let sib := sibling t x in
    match replacement big t x with
    | None => None
    | Some None =>
        if peq (Some x) (root t) then Some (set_root None t)
        else
          bindo (if red (hp t x) then Some (modp sib (set_red true) t) else fix_double_black big t x)
                (fun t => Some (update_parent t (par (hp t x)) (Some x) None))
    | Some (Some r) =>
        match lft (hp t r), rgt (hp t r) with
        | None, None =>
            let t := swap t x r in
            bindo (if red (hp t x) then Some t else fix_double_black big t x)
                  (fun t => Some (update_parent t (par (hp t x)) (Some x) None))
        | _, _ => remove_loop fuel big (swap t x r) x
        end
    end
  end.

(** ocf_rb_tree_remove (utils_rbtree.c:351-405) *)
Definition remove (fuel : nat) (t : rb) (x : nat) : option rb :=
  if negb (list_empty x t) then
    if peq (par (hp t x)) None && negb (peq (Some x) (root t)) then Some (list_del x t)
    else Some (list_del x (swap t x (nxt (hp t x))))
  else remove_loop fuel fuel t x.

(** The descent of ocf_rb_tree_can_update (utils_rbtree.c:416-422): [None] for the result when
    the node was not reached. *)
Fixpoint reach (fuel : nat) (c : nat -> comparison) (t : rb) (x : nat) (iter : option nat) : option bool :=
  match fuel with
  | 0 => None
  | S fuel =>
    match iter with
    | None => Some false
    | Some i => if i =? x then Some true
                else reach fuel c t x (match c i with Lt => lft (hp t i) | _ => rgt (hp t i) end)
    end
  end.

(** ocf_rb_tree_can_update (utils_rbtree.c:407-446); [c] compares the new key with a node. *)
Definition can_update (fuel : nat) (c : nat -> comparison) (t : rb) (x : nat) : option bool :=
  if negb (list_empty x t) then Some false
  else
    bindo (reach fuel c t x (root t)) (fun found =>
    if negb found then Some false
    else match c x with
         | Lt => match lft (hp t x) with
                 | None => Some true
                 | Some l => bindo (rightmost fuel t l) (fun y => Some (match c y with Gt => true | _ => false end))
                 end
         | Gt => match rgt (hp t x) with
                 | None => Some true
                 | Some r => bindo (leftmost fuel t r) (fun y => Some (match c y with Lt => true | _ => false end))
                 end
         | Eq => Some true
         end).

(** The descent of ocf_rb_tree_find (utils_rbtree.c:460-466) *)
Fixpoint search (fuel : nat) (c : nat -> comparison) (t : rb) (iter : option nat) : option (option nat) :=
  match fuel with
  | 0 => None
  | S fuel =>
    match iter with
    | None => Some None
    | Some i => match c i with
                | Eq => Some (Some i)
                | Lt => search fuel c t (lft (hp t i))
                | Gt => search fuel c t (rgt (hp t i))
                end
    end
  end.

(** ocf_rb_tree_find (utils_rbtree.c:454-472); [pick] is the callback find, applied to the head
    of the ring. *)
Definition find (fuel : nat) (c : nat -> comparison) (pick : rb -> nat -> option (option nat)) (t : rb) : option (option nat) :=
  bindo (search fuel c t (root t)) (fun o =>
  match o with
  | None => Some None
  | Some i => if list_empty i t then Some (Some i) else pick t i
  end).

(** The caches of a context: starting, finding by name, visiting and stopping them (mngt/ocf_mngt_common.c:141-192,
    390-517; mngt/ocf_mngt_cache.c:850-965, 1019-1053, 1570-1650, 2321-2411, 3436-3446), with the references that keep
    them (refcnt.cache) and the lock of the list (ctx->lock).  Threads interleave at the steps below: what is done with
    ctx->lock held cannot be interleaved with other holders, but with freezing and putting.  A counter is incremented
    unless frozen and decremented in one step (env_refcnt, RefcntModel.v).  The management lock of a cache is in
    AsyncLockModel.v; here whoever stops a cache holds a reference and nobody else stops it. *)
From Coq Require Import NArith List Bool Arith.
Import ListNotations.
Open Scope nat_scope.

(** ** Names *)
(** OCF_CACHE_NAME_SIZE, OCF_CORE_NAME_SIZE (inc/ocf_def.h:39, 79) *)
Definition NAME : nat := 32.
(** strncmp(a, b, n) == 0; bytes behind the end of a buffer are not looked at by callers that give its length *)
Fixpoint str_eq (n : nat) (a b : list N) : bool :=
  match n with
  | 0 => true
  | S n => N.eqb (hd 0%N a) (hd 0%N b) && (N.eqb (hd 0%N a) 0%N || str_eq n (tl a) (tl b))
  end.
(** env_strncmp (env/posix/ocf_env.h:104) with a stored name *)
Definition matches (stored q : list N) (len : nat) : bool := str_eq (Nat.min NAME len) stored q.
(** env_strncpy (env/posix/ocf_env.h:105-109) of a name of the configuration: ocf_cache_set_name (ocf_cache.c:42-54),
    ocf_mngt_core_set_name (ocf_mngt_core.c:27-31) *)
Fixpoint copy (n : nat) (src : list N) : list N :=
  match n with
  | 0 => []
  | S n => if N.eqb (hd 0%N src) 0%N then repeat 0%N (S n) else hd 0%N src :: copy n (tl src)
  end.
Definition set_name (src : list N) : list N := copy (NAME - 1) src ++ [0%N].
(** ocf_core_get_by_name (ocf_core.c:53-72): the cores in the order of their identifiers, whether added and the name *)
Fixpoint core_by_name (cs : list (bool * list N)) (id : nat) (q : list N) (len : nat) : option nat :=
  match cs with
  | [] => None
  | (added, nm) :: cs => if added && matches nm q len then Some id else core_by_name cs (S id) q len
  end.

(** ** The context *)
Record cache := { name : list N; refs : nat; frozen : bool; freed : bool }.
(** What a thread is doing: starting a cache (checked, ctx->lock held); copying the list (lock held); visiting; putting
    the references of the copy; removing a cache: frozen but listed, not listed any more *)
Inductive pc := Idle | Starting (nm : list N) | Copy (todo got : list nat) (back : bool) | Visit (todo got : list nat) | Puts (todo : list nat)
  | Frozen (c : nat) | Unlisted (c : nat).
(** [mine]: references its caller has got *)
Record thread := { at_ : pc; mine : list nat }.
Record st := { caches : list cache; lst : list nat; lock : option nat; ths : list thread }.
Inductive act := AStart (nm : list N) | AAdd (ok : bool) | AFind (q : list N) (len : nat) | AGet (c : nat) | APut (c : nat)
  | ACopy (back mem : bool) | ANext | AVisit (stop : bool) | APutNext | AStop (c : nat) | ADel | AFin.
Inductive ev := Nothing | Created (c : nat) | Refused | Found (c : nat) | NotFound | Visited (c : nat).
(** Bug: memory of a cache used after it was freed, or ENV_BUG_ON *)
Inductive res := Disabled | Bug | Step (e : ev) (s : st).

Definition no_cache : cache := {| name := []; refs := 0; frozen := false; freed := true |}.
Definition idle_thread : thread := {| at_ := Idle; mine := [] |}.
Definition get (s : st) (c : nat) : cache := nth c (caches s) no_cache.
Fixpoint upd {A} (l : list A) (i : nat) (x : A) : list A :=
  match l, i with [], _ => [] | _ :: l, 0 => x :: l | y :: l, S i => y :: upd l i x end.
Definition set_cache (s : st) (c : nat) (x : cache) : st :=
  {| caches := upd (caches s) c x; lst := lst s; lock := lock s; ths := ths s |}.
Definition set_th (s : st) (t : nat) (x : thread) : st :=
  {| caches := caches s; lst := lst s; lock := lock s; ths := upd (ths s) t x |}.
Definition set_lock (s : st) (l : option nat) : st := {| caches := caches s; lst := lst s; lock := l; ths := ths s |}.
Definition set_lst (s : st) (l : list nat) : st := {| caches := caches s; lst := l; lock := lock s; ths := ths s |}.
Fixpoint drop1 (c : nat) (l : list nat) : list nat :=
  match l with [] => [] | x :: l => if x =? c then l else x :: drop1 c l end.
(** env_refcnt_inc (env/posix/ocf_env_refcnt.c:33-47) *)
Definition inc (x : cache) : option cache :=
  if frozen x then None else Some {| name := name x; refs := S (refs x); frozen := frozen x; freed := freed x |}.
(** env_refcnt_dec (env/posix/ocf_env_refcnt.c:24-31); _ocf_mngt_cache_dealloc (ocf_mngt_cache.c:2321-2339) is what is
    called when the counter is 0 and the callback is registered, which is done together with freezing *)
Definition dec (x : cache) : option cache :=
  match refs x with
  | 0 => None
  | S n => Some {| name := name x; refs := n; frozen := frozen x; freed := frozen x && (n =? 0) |}
  end.
(** ocf_mngt_cache_put (ocf_mngt_common.c:141-146) and what the thread does then *)
Definition put (s : st) (c t : nat) (x : thread) : res :=
  if freed (get s c) then Bug
  else match dec (get s c) with Some y => Step Nothing (set_th (set_cache s c y) t x) | None => Bug end.
(** The list is searched (ocf_mngt_common.c:167-173); None: a freed cache is on it *)
Fixpoint search (s : st) (l : list nat) (q : list N) (len : nat) : option (option nat) :=
  match l with
  | [] => Some None
  | c :: l => if freed (get s c) then None else if matches (name (get s c)) q len then Some (Some c) else search s l q len
  end.
(** ocf_mngt_cache_get_by_name (ocf_mngt_common.c:155-192): search and reference *)
Definition by_name (s : st) (q : list N) (len : nat) : option (option (nat * cache)) :=
  match search s (lst s) q len with
  | None => None
  | Some None => Some None
  | Some (Some c) => match inc (get s c) with Some x => Some (Some (c, x)) | None => Some None end
  end.
Definition free_lock (s : st) : bool := match lock s with None => true | Some _ => false end.

Definition step (t : nat) (a : act) (s : st) : res :=
  match nth_error (ths s) t with
  | None => Disabled
  | Some th =>
    let goto p := {| at_ := p; mine := mine th |} in
    match at_ th, a with
    (* ocf_mngt_cache_start up to the check (ocf_mngt_cache.c:3099-3100, 1588-1600, 1025-1033): the reference found is
       put at once, with ctx->lock held *)
    | Idle, AStart nm =>
      if negb (free_lock s) then Disabled
      else if N.eqb (hd 0%N nm) 0%N then Step Refused s
      else match by_name s nm NAME with
           | None => Bug
           | Some (Some _) => Step Refused s
           | Some None => Step Nothing (set_lock (set_th s t (goto (Starting nm))) (Some t))
           end
    (* the rest (1037, 1605-1627; references: 896, 921): one reference for the cache, one for whoever
       started it; or it fails *)
    | Starting nm, AAdd ok =>
      if ok then
        let c := length (caches s) in
        Step (Created c) {| caches := caches s ++ [{| name := set_name nm; refs := 2; frozen := false; freed := false |}];
                            lst := lst s ++ [c]; lock := None; ths := upd (ths s) t {| at_ := Idle; mine := c :: mine th |} |}
      else Step Refused (set_lock (set_th s t (goto Idle)) None)
    | Idle, AFind q len =>
      if negb (free_lock s) then Disabled
      else match by_name s q len with
           | None => Bug
           | Some None => Step NotFound s
           | Some (Some (c, x)) => Step (Found c) (set_th (set_cache s c x) t {| at_ := Idle; mine := c :: mine th |})
           end
    (* ocf_mngt_cache_get (ocf_mngt_common.c:391-402) by someone who has a reference *)
    | Idle, AGet c =>
      if negb (existsb (Nat.eqb c) (mine th)) then Disabled
      else if freed (get s c) then Bug
      else match inc (get s c) with
           | None => Step NotFound s
           | Some x => Step (Found c) (set_th (set_cache s c x) t {| at_ := Idle; mine := c :: mine th |})
           end
    | Idle, APut c | Unlisted _, APut c =>
      if negb (existsb (Nat.eqb c) (mine th)) then Disabled
      else put s c t {| at_ := at_ th; mine := drop1 c (mine th) |}
    (* _ocf_mngt_cache_get_list_cpy (404-445); mem: env_vmalloc succeeds *)
    | Idle, ACopy back mem =>
      if negb (free_lock s) then Disabled
      else match lst s with
           | [] => Step Nothing s
           | l => if mem then Step Nothing (set_lock (set_th s t (goto (Copy l [] back))) (Some t)) else Step Refused s
           end
    | Copy (c :: todo) got back, ANext =>
      if freed (get s c) then Bug
      else match inc (get s c) with
           | Some x => Step Nothing (set_th (set_cache s c x) t (goto (Copy todo (got ++ [c]) back)))
           | None => Step Nothing (set_th s t (goto (Copy todo got back)))
           end
    | Copy [] got back, ANext =>
      Step Nothing (set_lock (set_th s t (goto (Visit (if back then rev got else got) got))) None)
    (* ocf_mngt_cache_visit, ocf_mngt_cache_visit_reverse (447-481, 483-517); stop: the visitor returns an error *)
    | Visit (c :: todo) got, AVisit stop =>
      if freed (get s c) then Bug else Step (Visited c) (set_th s t (goto (if stop then Puts got else Visit todo got)))
    | Visit [] got, AVisit _ => Step Nothing (set_th s t (goto (Puts got)))
    | Puts (c :: todo), APutNext => put s c t (goto (Puts todo))
    | Puts [], APutNext => Step Nothing (set_th s t (goto Idle))
    (* ocf_mngt_cache_remove (ocf_mngt_cache.c:2341-2359) at the end of stopping, by the one who has locked the cache;
       then the last reference of the cache itself is put (2411, 3445); in between the completion of the caller may put
       references *)
    | Idle, AStop c =>
      if negb (existsb (Nat.eqb c) (mine th)) then Disabled
      else if freed (get s c) then Bug
      else if frozen (get s c) then Disabled
      else Step Nothing (set_th (set_cache s c {| name := name (get s c); refs := refs (get s c); frozen := true; freed := false |}) t (goto (Frozen c)))
    | Frozen c, ADel =>
      if negb (free_lock s) then Disabled
      else if freed (get s c) then Bug
      else Step Nothing (set_th (set_lst s (drop1 c (lst s))) t (goto (Unlisted c)))
    | Unlisted c, AFin => put s c t (goto Idle)
    | _, _ => Disabled
    end
  end.
Definition init (n : nat) : st := {| caches := []; lst := []; lock := None; ths := repeat idle_thread n |}.
(** Runs, with what happened *)
Inductive run : st -> list (nat * act * ev) -> st -> Prop :=
| run_nil s : run s [] s
| run_cons t a e s s1 l s2 : step t a s = Step e s1 -> run s1 l s2 -> run s ((t, a, e) :: l) s2.

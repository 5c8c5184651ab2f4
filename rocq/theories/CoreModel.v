(** Adding, re-adding, detaching and removing cores (ocf_mngt_core.c, ocf_mngt_common.c), and the cores found
    when a cache is loaded (ocf_mngt_cache.c:404-507).  Names and UUIDs are numbers, compared for equality
    (env_strncmp compares the common length only).  What the volumes and allocations do is reduced to
    whether they exist; an operation is told at which of its steps it fails. *)
From Coq Require Import NArith List Bool Arith.
Import ListNotations.
Open Scope nat_scope.

(** OCF_CORE_MAX is 4096 (inc/ocf_cfg.h:19): 64 words of 64 bits *)
Definition NW : nat := 64.
Definition WB : nat := 64.
Definition CORE_MAX : nat := NW * WB.
Definition ids : list nat := seq 0 CORE_MAX.
Definition upd {A} (f : nat -> A) (x : nat) (v : A) : nat -> A := fun y => if y =? x then v else f y.

(** _ffz (ocf_mngt_core.c:166-174) *)
Fixpoint ffz (fuel i : nat) (w : N) : nat :=
  match fuel with
  | 0 => i
  | S fuel => if N.testbit w 0 then ffz fuel (S i) (N.shiftr w 1) else i
  end.
(** The loop of _ocf_mngt_find_first_free_core (ocf_mngt_core.c:185-193) from word i on *)
Fixpoint find_word (fuel i : nat) (bm : nat -> N) : nat :=
  match fuel with
  | 0 => CORE_MAX
  | S fuel => let w := N.lor (bm i) (if i =? 0 then 1%N else 0%N) in
              if (w =? N.ones 64)%N then find_word fuel (S i) bm else Nat.min CORE_MAX (i * WB + ffz WB 0 w)
  end.
(** _ocf_mngt_find_first_free_core (ocf_mngt_core.c:176-200) *)
Definition find_free (bm : nat -> N) : nat :=
  let r := find_word NW 0 bm in
  if (r =? CORE_MAX) && negb (N.testbit (bm 0) 0) then 0 else r.
Definition bit_test (id : nat) (bm : nat -> N) : bool := N.testbit (bm (id / WB)) (N.of_nat (id mod WB)).
Definition bit_set (id : nat) (bm : nat -> N) : nat -> N := upd bm (id / WB) (N.setbit (bm (id / WB)) (N.of_nat (id mod WB))).
Definition bit_clear (id : nat) (bm : nat -> N) : nat -> N := upd bm (id / WB) (N.clearbit (bm (id / WB)) (N.of_nat (id mod WB))).

(** A core: conf_meta->valid, added, opened, has_volume; the core volume is initialised, is open; the front volume is
    initialised and open; counters, sequential cutoff, registration with the cleaning policy; how many front volumes
    were initialised while already initialised (their memory is lost) *)
Record core := { valid : bool; added : bool; opened : bool; has_vol : bool; vol : bool; vopen : bool; front : bool;
                 cnt : bool; cut : bool; pol : bool; name : nat; uuid : nat; lost : nat }.
Definition no_core : core := {| valid := false; added := false; opened := false; has_vol := false; vol := false; vopen := false; front := false;
                                cnt := false; cut := false; pol := false; name := 0; uuid := 0; lost := 0 |}.
(** valid_core_bitmap, core_count (32 bits), ocf_core_inactive_count (16 bits), ocf_cache_state_incomplete; [attached]:
    the cache device is attached *)
Record st := { bm : nat -> N; count : N; inactive : N; incomplete : bool; cores : nat -> core; attached : bool }.
Definition inc (b n : N) : N := ((n + 1) mod 2 ^ b)%N.
Definition dec (b n : N) : N := ((n + (2 ^ b - 1)) mod 2 ^ b)%N.

(** ocf_core_get_by_name (ocf_core.c:53-72), ocf_core_get_by_uuid (ocf_mngt_core.c:33-50) *)
Definition by_name (s : st) (nm : nat) : option nat := find (fun i => added (cores s i) && (name (cores s i) =? nm)) ids.
Definition by_uuid (s : st) (uu : nat) : option nat := find (fun i => valid (cores s i) && (uuid (cores s i) =? uu)) ids.

(** The steps of adding a core that can fail (ocf_mngt_core.c:367-521), in order *)
Definition F_UUID := 1. Definition F_TYPE := 2. Definition F_INIT := 3. Definition F_META := 4. Definition F_OPEN := 5. Definition F_LEN := 6.
Definition F_CLEAN := 7. Definition F_CUT := 8. Definition F_CNT := 9. Definition F_SEQ := 10. Definition F_FLUSH := 11. Definition F_FRONT := 12.
Definition NO_FAIL := 13.
(** Without cache device the cleaning policy, the sequence number and the superblock flush are skipped *)
Definition effective (s : st) (f : nat) : nat :=
  if negb (attached s) && ((f =? F_CLEAN) || (f =? F_SEQ) || (f =? F_FLUSH)) then NO_FAIL else f.

(** ocf_mngt_cache_add_core_insert up to the step that fails, and ocf_mngt_cache_add_core_init_front_volume
    (ocf_mngt_core.c:367-521): the core afterwards.  Marking it valid follows the allocation of the counters (467-473) *)
Definition add_core (att : bool) (f : nat) (nm uu : nat) (c : core) : core :=
  {| valid := if F_CNT <? f then true else valid c; added := if F_CNT <? f then true else added c; opened := if F_CNT <? f then true else opened c;
     has_vol := if F_INIT <? f then true else has_vol c; vol := if F_INIT <? f then true else vol c; vopen := if F_OPEN <? f then true else vopen c;
     front := if F_FRONT <? f then true else front c; cnt := if F_CNT <? f then true else cnt c; cut := if F_CUT <? f then true else cut c;
     pol := if (F_CLEAN <? f) && att then true else pol c; name := nm; uuid := if F_UUID <? f then uu else uuid c;
     lost := lost c + (if (F_FRONT <? f) && front c then 1 else 0) |}.
(** _ocf_mngt_cache_add_core_handle_error (ocf_mngt_core.c:124-164).  Clearing the UUID has no effect: it is given no
    data and _ocf_uuid_set refuses that (ocf_mngt_core.c:57-58, 99-104) *)
Definition undo_core (att : bool) (f : nat) (c : core) : core :=
  {| valid := if F_CNT <? f then false else valid c; added := if F_CNT <? f then false else added c; opened := if F_CNT <? f then false else opened c;
     has_vol := has_vol c; vol := if F_INIT <? f then false else vol c; vopen := if F_OPEN <? f then false else vopen c;
     front := front c; cnt := if F_CNT <? f then false else cnt c; cut := if F_CUT <? f then false else cut c;
     pol := if (F_CLEAN <? f) && att then false else pol c; name := name c; uuid := uuid c; lost := lost c |}.
(** ocf_mngt_cache_add_core (ocf_mngt_core.c:329-355 prepare, insert, finish 523-541): the id on success *)
Definition add (nm uu fail : nat) (s : st) : option nat * st :=
  match by_name s nm, by_uuid s uu with
  | None, None =>
    let id := find_free (bm s) in
    if CORE_MAX <=? id then (None, s)
    else let f := effective s fail in
         let c := add_core (attached s) f nm uu (cores s id) in
         let s1 := {| bm := if F_CNT <? f then bit_set id (bm s) else bm s; count := if F_CNT <? f then inc 32 (count s) else count s;
                      inactive := inactive s; incomplete := incomplete s; cores := upd (cores s) id c; attached := attached s |} in
         if NO_FAIL <=? f then (Some id, s1)
         else (None, {| bm := if F_CNT <? f then bit_clear id (bm s1) else bm s1; count := if F_CNT <? f then dec 32 (count s1) else count s1;
                        inactive := inactive s; incomplete := incomplete s; cores := upd (cores s1) id (undo_core (attached s) f c); attached := attached s |})
  | _, _ => (None, s)
  end.

(** Re-adding an inactive core (ocf_mngt_core.c:246-327 try_add_prepare, try_add_insert; 510-521 front volume).
    Steps that can fail: opening the volume, its size, the front volume.  On an error nothing is undone: no flag is set *)
Definition T_OPEN := 1. Definition T_SIZE := 2. Definition T_FRONT := 3. Definition T_NONE := 4.
Definition set_opened (c : core) (o vo fr : bool) (l : nat) : core :=
  {| valid := valid c; added := added c; opened := o; has_vol := has_vol c; vol := vol c; vopen := vo; front := fr; cnt := cnt c; cut := cut c; pol := pol c;
     name := name c; uuid := uuid c; lost := l |}.
Definition try_add (nm uu fail : nat) (s : st) : option nat * st :=
  match by_name s nm with
  | None => (None, s)
  | Some id =>
    let c := cores s id in
    if opened c || negb (uuid c =? uu) || vopen c || (fail =? T_OPEN) || (fail =? T_SIZE) then (None, s)
    else let n := dec 16 (inactive s) in
         let ok := negb (fail =? T_FRONT) in
         (if ok then Some id else None,
          {| bm := bm s; count := count s; inactive := n; incomplete := if (n =? 0)%N then false else incomplete s;
             cores := upd (cores s) id (set_opened c true true (ok || front c) (lost c + if ok && front c then 1 else 0)); attached := attached s |})
  end.

(** ocf_mngt_cache_detach_core (ocf_mngt_core.c:795-816) of an added core *)
Definition detach (id : nat) (s : st) : bool * st :=
  let c := cores s id in
  if opened c then
    (true, {| bm := bm s; count := count s; inactive := inc 16 (inactive s); incomplete := true; cores := upd (cores s) id (set_opened c false false false (lost c)); attached := attached s |})
  else (false, s).

(** ocf_mngt_cache_remove_core (ocf_mngt_core.c:665-716; ocf_mngt_common.c:22-34, 108-140).  R_COLL: writing the
    collision metadata fails; R_SB: writing the superblock fails *)
Definition R_COLL := 1. Definition R_SB := 2. Definition R_NONE := 3.
Definition remove_core (att : bool) (c : core) : core :=
  {| valid := false; added := false; opened := false; has_vol := has_vol c; vol := if has_vol c then false else vol c;
     vopen := if opened c then false else vopen c; front := if opened c then false else front c; cnt := false; cut := false; pol := if att then false else pol c;
     name := name c; uuid := uuid c; lost := lost c |}.
Definition remove (id fail : nat) (s : st) : bool * st :=
  if attached s && (fail =? R_COLL) then (false, s)
  else let c := cores s id in
       let n := if opened c then inactive s else dec 16 (inactive s) in
       (negb (attached s && (fail =? R_SB)),
        {| bm := bit_clear id (bm s); count := dec 32 (count s); inactive := n; incomplete := if negb (opened c) && (n =? 0)%N then false else incomplete s;
           cores := upd (cores s) id (remove_core (attached s) c); attached := attached s |}).

(** One saved core while loading (ocf_mngt_cache.c:419-507); [o]: its volume could be opened.  The bitmap and the
    count come with the superblock *)
Definition load_core (id nm uu : nat) (o : bool) (s : st) : st :=
  {| bm := bit_set id (bm s); count := inc 32 (count s); inactive := if o then inactive s else inc 16 (inactive s); incomplete := if o then incomplete s else true;
     cores := upd (cores s) id {| valid := true; added := true; opened := o; has_vol := true; vol := true; vopen := o; front := true; cnt := true; cut := true; pol := attached s;
                                  name := nm; uuid := uu; lost := lost (cores s id) |};
     attached := attached s |}.
Definition init (att : bool) : st := {| bm := fun _ => 0%N; count := 0%N; inactive := 0%N; incomplete := false; cores := fun _ => no_core; attached := att |}.

Inductive op := Add (nm uu fail : nat) | TryAdd (nm uu fail : nat) | Detach (id : nat) | Remove (id fail : nat).
(** Detaching and removing get a core from the user, which is one of the cache *)
Definition do_op (o : op) (s : st) : option (bool * st) :=
  match o with
  | Add nm uu f => let (r, s) := add nm uu f s in Some (match r with Some _ => true | None => false end, s)
  | TryAdd nm uu f => let (r, s) := try_add nm uu f s in Some (match r with Some _ => true | None => false end, s)
  | Detach id => if added (cores s id) then Some (detach id s) else None
  | Remove id f => if added (cores s id) then Some (remove id f s) else None
  end.
Fixpoint run (os : list op) (s : st) : option st :=
  match os with
  | [] => Some s
  | o :: os => match do_op o s with Some (_, s) => run os s | None => None end
  end.
(** A new cache, or one loaded with the given saved cores (id, name, uuid, opened) *)
Definition start (att : bool) (saved : list (nat * nat * nat * bool)) : st :=
  fold_right (fun x s => match x with (id, nm, uu, o) => load_core id nm uu o s end) (init att) saved.

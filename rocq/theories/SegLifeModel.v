(** Life cycle of the metadata sections whose size depends on the device, over repeated
    attaching and detaching of a cache device: /repo/src/metadata/metadata.c.

    struct ocf_metadata_ctrl is allocated when the cache is started (metadata.c:486-541) and
    freed when it is stopped (metadata.c:465-484); it survives detaching. *)
From Coq Require Import List Bool Arith.
Import ListNotations.
Open Scope nat_scope.

(** The parts of struct ocf_metadata_ctrl (/repo/src/metadata/metadata_internal.h:21-30) that
    matter: raw_desc[metadata_segment_cleaning].disabled and the pointers segment[] of the five
    sections cleaning, lru, collision, list_info, hash.  [live]: allocated section objects;
    [fresh]: number of allocations so far. *)
Record st := { disabled : bool; ptr : list (option nat); live : list nat; fresh : nat }.

Inductive res := Ok (s : st) | Fail (s : st) | DoubleFree.

(** env_vzalloc: zeroed pointers. *)
Definition start : st := {| disabled := false; ptr := [None; None; None; None; None]; live := []; fresh := 0 |}.

(** ocf_metadata_segment_destroy (/repo/src/metadata/metadata_segment.c:57-65) for each section
    in ocf_metadata_deinit_variable_size (metadata.c:431-450); the pointers stay. *)
Fixpoint destroy (ps : list (option nat)) (lv : list nat) : option (list nat) :=
  match ps with
  | [] => Some lv
  | None :: ps => destroy ps lv
  | Some h :: ps => if existsb (Nat.eqb h) lv then destroy ps (filter (fun x => negb (x =? h)) lv) else None
  end.
Definition deinit (s : st) : option st :=
  match destroy (ptr s) (live s) with
  | Some lv => Some {| disabled := disabled s; ptr := ptr s; live := lv; fresh := fresh s |}
  | None => None
  end.

(** The second loop of ocf_metadata_init_variable_size (metadata.c:725-751):
    ocf_metadata_segment_init for each section that is not disabled.  [i]: index of the
    section, [fail]: section whose initialisation fails, if any.  The result is the new
    state and whether it succeeded. *)
Fixpoint init_segs (n i : nat) (fail : option nat) (s : st) : st * bool :=
  match n with
  | 0 => (s, true)
  | S n =>
    if (i =? 0) && disabled s then init_segs n (S i) fail s
    else if match fail with Some k => k =? i | None => false end then (s, false)
    else init_segs n (S i) fail
           {| disabled := disabled s; ptr := firstn i (ptr s) ++ Some (fresh s) :: skipn (S i) (ptr s);
              live := fresh s :: live s; fresh := S (fresh s) |}
  end.

(** ocf_metadata_init_variable_size (metadata.c:642-820).  The flag is set when the cleaner is
    disabled (lines 694-697) and cleared nowhere.  Sizing is left out (SizeModel.v). *)
Definition attach (noc : bool) (fail : option nat) (s : st) : res :=
  let s1 := {| disabled := if noc then true else disabled s; ptr := ptr s; live := live s; fresh := fresh s |} in
  match init_segs 5 0 fail s1 with
  | (s2, true) => Ok s2
  | (s2, false) => match deinit s2 with Some s3 => Fail s3 | None => DoubleFree end
  end.

(** ocf_mngt_cache_deinit_metadata (/repo/src/mngt/ocf_mngt_cache.c:2294-2308). *)
Definition detach (s : st) : res := match deinit s with Some s => Ok s | None => DoubleFree end.

(** A history of attaching (cleaner disabled?, failing section) each followed by detaching if it
    succeeded; the last attachment stays.  Result: the state while attached. *)
Fixpoint history (h : list (bool * option nat)) (s : st) : res :=
  match h with
  | [] => Ok s
  | (noc, fail) :: h =>
    match attach noc fail s with
    | Ok s => match h with [] => Ok s | _ => match detach s with Ok s => history h s | r => r end end
    | Fail s => match h with [] => Fail s | _ => history h s end
    | DoubleFree => DoubleFree
    end
  end.

(** Storing metadata segments and loading them back: metadata/metadata_raw.c (segments kept in one block of memory),
    metadata/metadata_raw_dynamic.c (pages allocated on first use), their checksums (metadata/metadata_segment.c:73-108),
    and the core UUIDs kept in the second kind (metadata/metadata_core.c:68-82, mngt/ocf_mngt_core.c:52-104).
    Segment placement on the device and the two alternating copies are in SbModel.v; here a segment is what its flush
    writes and its load reads.  Allocation does not fail. *)
From Coq Require Import NArith List Bool Arith.
From Verif Require Import PassiveModel.
Import ListNotations.
Open Scope N_scope.

(** ** Segments in one block *)
Definition range (n : nat) : list N := map N.of_nat (seq 0 n).
Definition page_at (m : N -> N) (i : N) : list N := map (fun j => m (PAGE * i + j)) (range (N.to_nat PAGE)).
(** _raw_ram_checksum (metadata_raw.c:175-188), over the whole block *)
Definition ram_sum (crc : N -> list N -> N) (g : seg) (m : N -> N) : N :=
  fold_left (fun c i => crc c (page_at m i)) (range (N.to_nat (pages g))) 0.
(** _raw_ram_flush_all_fill (metadata_raw.c:350-378): page p as written to the device *)
Definition fill (g : seg) (m : N -> N) (p j : N) : N :=
  let size := es g * eip g in
  if j <? size then m (((p * eip g) mod two32) * es g + j) else 0.
Definition image (g : seg) (m : N -> N) (a : N) : N := fill g m (a / PAGE) (a mod PAGE).
(** _raw_ram_load_all (metadata_raw.c:281-336) into a block zeroed by _raw_ram_init (metadata_raw.c:133) *)
Definition ram_load (g : seg) (d : N -> N) : option (N -> N) := raw_update (N.to_nat (pages g)) g d 0 0 (fun _ => 0).
(** Access to entry e for writing (metadata_raw.c:71, 203-209): its bytes are replaced *)
Definition set_entry (g : seg) (e : N) (v : N -> N) (m : N -> N) : N -> N :=
  fun a => if (e * es g <=? a) && (a <? e * es g + es g) then v (a - e * es g) else m a.

(** ** Segments allocated page by page *)
Definition page := list N.
Definition zeros (n : nat) : list N := repeat 0 n.
Definition PG : nat := N.to_nat PAGE.
Definition dyn := nat -> option page.
(** raw_dynamic_checksum (metadata_raw_dynamic.c:235-250): pages not allocated are left out *)
Definition dyn_sum (crc : N -> list N -> N) (n : nat) (d : dyn) : N :=
  fold_left (fun c i => match d i with Some p => crc c p | None => c end) (seq 0 n) 0.
(** raw_dynamic_flush_all_fill (metadata_raw_dynamic.c:513-541) *)
Definition dyn_image (d : dyn) (i : nat) : page := match d i with Some p => p | None => zeros PG end.
(** raw_dynamic_update_pages (metadata_raw_dynamic.c:274-318), as raw_dynamic_load_all_update uses it *)
Definition is_zero (p : page) : bool := forallb (fun b => b =? 0) p.
Definition dyn_load (img : nat -> page) : dyn := fun i => if is_zero (img i) then None else Some (img i).
(** _raw_dynamic_get_item (metadata_raw_dynamic.c:78-121): the page is there after the access *)
Definition access (i : nat) (d : dyn) : dyn := fun j => if Nat.eqb j i then Some (match d i with Some p => p | None => zeros PG end) else d j.

(** ** Core UUIDs: one page each (ocf_core_priv.h:23-26): 4 bytes of size, the rest is data *)
Definition UUID_MAX : nat := PG - 4.
Definition le4 (n : N) : list N := [n mod 256; (n / 256) mod 256; (n / 65536) mod 256; (n / 16777216) mod 256].
(** struct ocf_volume_uuid: no data pointer, or so many bytes *)
Definition uuid := option (list N).
(** _ocf_uuid_set (ocf_mngt_core.c:52-78) *)
Definition uuid_set (u : uuid) (p : page) : bool * page :=
  match u with
  | None => (false, p)
  | Some b => if Nat.ltb UUID_MAX (length b) then (false, p)
              else (true, le4 (N.of_nat (length b)) ++ b ++ zeros (UUID_MAX - length b))
  end.
(** ocf_mngt_core_set_uuid_metadata (ocf_mngt_core.c:80-97) *)
Definition set_uuid_md (i : nat) (u : uuid) (d : dyn) : bool * dyn :=
  let d := access i d in
  let (ok, p) := uuid_set u (dyn_image d i) in
  (ok, fun j => if Nat.eqb j i then Some p else d j).
(** ocf_mngt_core_clear_uuid_metadata (ocf_mngt_core.c:99-104): the data pointer is NULL *)
Definition clear_uuid_md (i : nat) (d : dyn) : dyn := snd (set_uuid_md i None d).

Record cache := { uuids : dyn; valid : nat -> bool }.
Inductive op :=
  | Add (i : nat) (u : uuid) (later : bool)   (** later: what follows setting the UUID succeeds *)
  | Remove (i : nat)
  | SetUuid (i : nat) (u : uuid)
  | Restart.                                  (** store everything, stop, load *)
Definition upd (i : nat) (b : bool) (v : nat -> bool) : nat -> bool := fun j => if Nat.eqb j i then b else v j.
(** ocf_mngt_cache_add_core_insert (ocf_mngt_core.c:367-397) and _ocf_mngt_cache_add_core_handle_error (162-163) on the
    free identifier i; cache_mngt_core_remove_from_meta (ocf_mngt_common.c:99-121); ocf_mngt_core_set_uuid
    (ocf_mngt_core.c:907-943); load of a stopped cache of n identifiers, which reads the UUID of every valid core
    (ocf_mngt_cache.c:417-427).  None: the load is refused, the checksums differ (metadata_segment.c:84-92) *)
Definition step (crc : N -> list N -> N) (n : nat) (o : op) (c : cache) : option cache :=
  match o with
  | Add i u later =>
      if valid c i then Some c
      else let (ok, d) := set_uuid_md i u (uuids c) in
           if negb ok then Some {| uuids := d; valid := valid c |}
           else if negb later then Some {| uuids := clear_uuid_md i d; valid := valid c |}
           else Some {| uuids := d; valid := upd i true (valid c) |}
  | Remove i => if valid c i then Some {| uuids := clear_uuid_md i (uuids c); valid := upd i false (valid c) |} else Some c
  | SetUuid i u => if valid c i then Some {| uuids := snd (set_uuid_md i u (uuids c)); valid := valid c |} else Some c
  | Restart =>
      let d := dyn_load (dyn_image (uuids c)) in
      if dyn_sum crc n d =? dyn_sum crc n (uuids c)
      then Some {| uuids := fold_left (fun d i => if valid c i then access i d else d) (seq 0 n) d; valid := valid c |}
      else None
  end.
Fixpoint run_ops (crc : N -> list N -> N) (n : nat) (l : list op) (c : cache) : option cache :=
  match l with
  | [] => Some c
  | o :: l => match step crc n o c with Some c => run_ops crc n l c | None => None end
  end.
Definition new : cache := {| uuids := fun _ => None; valid := fun _ => false |}.

(** ** The CRC-32 of zlib behind env_crc32 (env/posix/ocf_env.c:130-133) *)
Definition crc_bit (c : N) : N := if N.testbit c 0 then N.lxor (N.shiftr c 1) 3988292384 else N.shiftr c 1.
Definition crc_byte (c b : N) : N := Nat.iter 8 crc_bit (N.lxor c b).
Definition crc32 (c : N) (l : list N) : N := N.lxor (fold_left crc_byte l (N.lxor c 4294967295)) 4294967295.

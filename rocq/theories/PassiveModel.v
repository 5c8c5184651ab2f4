(** Writes to the cache volume in standby: metadata/metadata_passive_update.c, ocf_cache.c:296-388, and
    _raw_ram_update (metadata/metadata_raw.c:211-245).  Memory and device contents are functions from byte
    addresses.  Page locks are not modelled: writes are applied one after the other. *)
From Coq Require Import NArith ZArith List Bool Arith.
Import ListNotations.
Open Scope N_scope.

Definition PAGE : N := 4096.
Definition two64 : N := 2 ^ 64.
Definition two32 : N := 2 ^ 32.
(** BYTES_TO_PAGES (ocf_def_priv.h:16), 64 bit *)
Definition to_pages (x : N) : N := ((x + (PAGE - 1)) mod two64) / PAGE.
(** MAX_PASSIVE_IO_SIZE (metadata_passive_update.c:26) *)
Definition MAX_IO : N := 32 * 1024 * 1024.
(** struct ocf_metadata_raw: ssd_pages_offset, ssd_pages, entry_size, entries_in_page *)
Record seg := { off : N; pages : N; es : N; eip : N }.
(** _raw_ram_drain_page (metadata_raw.c:211-229): copies one page at [pos] of the data; None is ENV_BUG_ON *)
Definition drain (g : seg) (D : N -> N) (pos p : N) (m : N -> N) : option (N -> N) :=
  let size := es g * eip g in
  if (pages g <? p) || (PAGE <? size) then None
  else let base := ((p * eip g) mod two32) * es g in
       Some (fun a => if (base <=? a) && (a <? base + size) then D (pos + (a - base)) else m a).
(** _raw_ram_update (metadata_raw.c:234-245) *)
Fixpoint raw_update (n : nat) (g : seg) (D : N -> N) (pos p : N) (m : N -> N) : option (N -> N) :=
  match n with
  | O => Some m
  | S n => match drain g D pos p m with Some m => raw_update n g D (pos + PAGE) (p + 1) m | None => None end
  end.
(** One segment of passive_io_resume (metadata_passive_update.c:42-63) *)
Definition resume_seg (g : seg) (addr bytes : N) (D : N -> N) (m : N -> N) : option (N -> N) :=
  let io_start := to_pages addr in
  let io_end := (io_start + to_pages bytes + (two64 - 1)) mod two64 in
  let raw_end := off g + pages g - 1 in
  let ostart := N.max io_start (off g) in
  let oend := N.min io_end raw_end in
  if oend <? ostart then Some m
  else raw_update (N.to_nat (oend - ostart + 1)) g D ((ostart - io_start) * PAGE) (ostart - off g) m.

(** A standby cache: the device, the copies in memory of the superblock and of the collision segment *)
Record geo := { sb : seg; coll : seg; meta_pages : N }.
Record st := { disk : N -> N; m_sb : N -> N; m_coll : N -> N }.
Record io := { write : bool; addr : N; bytes : N; data : N -> N; doff : N }.
Definition OK : Z := 0%Z. Definition INVAL : Z := (-1)%Z.
(** ocf_metadata_passive_update (metadata_passive_update.c:76-140), without running out of memory: the error it
    completes with and the memory; the data is read from its beginning whatever req->offset is *)
Definition passive_update (g : geo) (i : io) (s : st) : option (Z * st) :=
  if negb (write i) then Some (OK, s)
  else if meta_pages g <=? to_pages (addr i) then Some (OK, s)
  else if negb (addr i mod PAGE =? 0) || negb (bytes i mod PAGE =? 0) then Some (INVAL, s)
  else if MAX_IO <? bytes i then Some (INVAL, s)
  else match resume_seg (sb g) (addr i) (bytes i) (data i) (m_sb s), resume_seg (coll g) (addr i) (bytes i) (data i) (m_coll s) with
       | Some a, Some b => Some (OK, {| disk := disk s; m_sb := a; m_coll := b |})
       | _, _ => None
       end.
(** ocf_cache_volume_submit_io (ocf_cache.c:319-350) with a device that does not fail: the write goes to the device,
    from req->offset of the data, whatever becomes of the metadata *)
Definition dev_write (i : io) (d : N -> N) : N -> N :=
  if write i then fun b => if (addr i <=? b) && (b <? addr i + bytes i) then data i (doff i + (b - addr i)) else d b else d.
Definition submit (g : geo) (i : io) (s : st) : option (Z * st) :=
  passive_update g i {| disk := dev_write i (disk s); m_sb := m_sb s; m_coll := m_coll s |}.
Fixpoint run (g : geo) (l : list io) (s : st) : option st :=
  match l with
  | [] => Some s
  | i :: l => match submit g i s with Some (_, s) => run g l s | None => None end
  end.

(** The use counter refcnt.metadata over one request on the cache volume, from submission to completion
    (ocf_cache.c:325-332, 305-317; the same in submit_flush 357-364, 302 and submit_discard 376-383): it is taken before
    the check for standby *)
Definition refs (standby frozen : bool) (n : N) : N :=
  if frozen then n
  else let n := n + 1 in
       if negb standby then n else n - 1.

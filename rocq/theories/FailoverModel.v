(** Failover to a standby cache: starting a standby instance (mngt/ocf_mngt_cache.c:2462-2584), writes to its volume
    (PassiveModel.v), detaching (2593-2601, 3005-3059, 3384-3399) and activating it (2603-2792, 3061-3095, 3401-3433),
    with the rebuilding of the mapping (516-702) on the bytes of the collision segment.  Objects and their lifetimes are
    in LifeModel.v; hash chains and LRU lists in CollisionModel.v and LruModel.v, here the order in which the rebuilding
    hands lines over to them.  The test of the volume writes to the reserved section only and is a failure that may
    happen.  Bytes are numbers. *)
From Coq Require Import NArith List Bool Arith.
From Verif Require Import PassiveModel SaveModel.
Import ListNotations.
Open Scope N_scope.

(** ** Bytes *)
Definition rd (m : N -> N) (b : N) (n : nat) : list N := map (fun k => m (b + N.of_nat k)) (seq 0 n).
Definition wr (m : N -> N) (b : N) (x : list N) : N -> N :=
  fun a => if (b <=? a) && (a <? b + N.of_nat (length x)) then nth (N.to_nat (a - b)) x 0 else m a.
Definition same (x y : list N) : bool := if list_eq_dec N.eq_dec x y then true else false.
Definition get32 (m : N -> N) (b : N) : N := m b + 256 * m (b + 1) + 65536 * m (b + 2) + 16777216 * m (b + 3).

(** ** Entries of the collision segment *)
(** OCF_CORE_MAX (inc/ocf_def.h:63) *)
Definition CORE_MAX : N := 4096.
(** struct ocf_metadata_map (metadata_collision.h:26-35) and the two bitmaps of [w] bytes behind it
    (metadata_bit.h:47-52); the bitmaps have a bit for every sector of the line. *)
Definition entry := list N.
Definition e_line (x : entry) : list N := firstn 8 x.
Definition e_core (x : entry) : N := nth 8 x 0 + 256 * nth 9 x 0.
Definition e_valid (w : nat) (x : entry) : list N := firstn w (skipn 10 x).
Definition e_dirty (w : nat) (x : entry) : list N := firstn w (skipn (10 + w) x).
(** _ocf_metadata_check (metadata_bit.h:267-282) *)
Definition check (w : nat) (x : entry) : bool :=
  forallb (fun p => N.ldiff (fst p) (snd p) =? 0) (combine (e_dirty w x) (e_valid w x)).
(** _ocf_metadata_clear_valid_if_clean (metadata_bit.h:225-246) for all sectors of the line *)
Definition clear_valid_if_clean (w : nat) (x : entry) : bool * entry :=
  let v := map (fun p => N.land (fst p) (snd p)) (combine (e_valid w x) (e_dirty w x)) in
  (existsb (fun b => negb (b =? 0)) v, firstn 10 x ++ v ++ e_dirty w x).
(** ocf_mngt_cline_reset_metadata (ocf_mngt_cache.c:547-556); also what _ocf_init_collision_entry (metadata.c:821-830)
    makes of an entry *)
Definition reset (w : nat) : entry := repeat 255 8 ++ [CORE_MAX mod 256; CORE_MAX / 256] ++ repeat 0 (w + w).

(** A line handed over: to the free list, or to a hash chain and an LRU list (ocf_mngt_cache.c:555, 558-577) *)
Inductive ev := Free (l : N) | Mapped (l : N) (core : N) (line : list N).
(** One turn of the loop of ocf_mngt_rebuild_metadata_handle (ocf_mngt_cache.c:595-629); [cv]: conf_meta->valid of the
    cores; None: the shard gives up. *)
Definition rebuild_line (cv : N -> bool) (w : nat) (l : N) (m : N -> N) : option (list ev) * (N -> N) :=
  let es := N.of_nat (10 + w + w) in
  let x := rd m (l * es) (10 + w + w) in
  if negb (check w x) || (CORE_MAX <? e_core x) then (None, m)
  else let (any, y) := clear_valid_if_clean w x in
       let m := wr m (l * es) y in
       if negb any || (e_core x =? CORE_MAX) then (Some [Free l], wr m (l * es) (reset w))
       else if negb (cv (e_core x)) then (None, m)
       else (Some [Mapped l (e_core x) (e_line x)], m).
(** ocf_mngt_rebuild_metadata_handle (ocf_mngt_cache.c:579-639) on the lines of a shard *)
Fixpoint rebuild_shard (cv : N -> bool) (w : nat) (ls : list N) (m : N -> N) : option (list ev) * (N -> N) :=
  match ls with
  | [] => (Some [], m)
  | l :: ls =>
    match rebuild_line cv w l m with
    | (None, m) => (None, m)
    | (Some e, m) => match rebuild_shard cv w ls m with
                     | (None, m) => (None, m)
                     | (Some es, m) => (Some (e ++ es), m)
                     end
    end
  end.
(** OCF_NUM_LRU_LISTS shards, every one with its lines (ocf_mngt_cache.c:526, 591-595); an error does not stop the
    others.  The shards run one after the other here: they do not share lines. *)
Definition SHARDS : nat := 32.
Definition shard_lines (nl k : nat) : list N := map N.of_nat (filter (fun l => Nat.eqb (l mod SHARDS) k) (seq 0 nl)).
Fixpoint rebuild_from (cv : N -> bool) (w nl : nat) (ks : list nat) (m : N -> N) : option (list ev) * (N -> N) :=
  match ks with
  | [] => (Some [], m)
  | k :: ks =>
    let (r, m) := rebuild_shard cv w (shard_lines nl k) m in
    let (q, m) := rebuild_from cv w nl ks m in
    (match r, q with Some a, Some b => Some (a ++ b) | _, _ => None end, m)
  end.
Definition rebuild (cv : N -> bool) (w nl : nat) (m : N -> N) : option (list ev) * (N -> N) :=
  rebuild_from cv w nl (seq 0 SHARDS) m.

(** ** The instance *)
(** What is given: sections and cache lines; sizeof(struct ocf_superblock_config) and the offset of its checksums;
    METADATA_VERSION; what else of a device's configuration must hold to be loaded and activated
    (metadata_superblock.c:104-246, ocf_mngt_cache.c:1737-1749, 2646-2658: checks of the superblock and its checksum, core
    configuration against the bitmap, number of lines, line size, name); conf_meta->valid of the cores it holds; the
    checksum of the superblock; those of the other configuration sections and what writing these sections puts where. *)
Record par := { geom : geo; nl : nat; w : nat; sbsize : N; ckoff : N; version : N;
  good : (N -> N) -> bool; cores : (N -> N) -> N -> bool;
  crc : list N -> N; sums : (N -> N) -> list (N * N); cfgw : (N -> N) -> list (N * list N) }.
Record fo := { ps : st; frozen : bool; active : bool; handed : list ev }.

(** The device's bytes of a segment, and loading all of it into memory (SaveModel.ram_load) *)
Definition at_seg (g : seg) (d : N -> N) : N -> N := fun a => d (off g * PAGE + a).
Definition load_seg (g : seg) (d m : N -> N) : option (N -> N) :=
  raw_update (N.to_nat (pages g)) g (at_seg g d) 0 0 m.
(** Writing all of it (SaveModel.image) *)
Definition save_seg (g : seg) (m d : N -> N) : N -> N :=
  fun a => if (off g * PAGE <=? a) && (a <? (off g + pages g) * PAGE) then image g m (a - off g * PAGE) else d a.

(** _ocf_mngt_standby_init_structures_attach, _ocf_mngt_attach_flush_metadata (2493-2501, 1868-1876, 2539-2561): the
    entries are initialised and all is written, the superblock last *)
Fixpoint init_entries (w : nat) (ls : list N) (m : N -> N) : N -> N :=
  match ls with [] => m | l :: ls => init_entries w ls (wr m (l * N.of_nat (10 + w + w)) (reset w)) end.
Definition standby_attach (P : par) (sb0 d : N -> N) : fo :=
  let m := init_entries (w P) (map N.of_nat (seq 0 (nl P))) (fun _ => 0) in
  {| ps := {| disk := save_seg (sb (geom P)) sb0 (save_seg (coll (geom P)) m d); m_sb := sb0; m_coll := m |};
     frozen := false; active := false; handed := [] |}.
(** _ocf_mngt_cache_standby_load_pipeline_properties (2563-2584): superblock and collision segment are loaded and the
    mapping is rebuilt; None if it is refused *)
Definition standby_load (P : par) (d : N -> N) : option fo :=
  if negb (same (rd d 8 4) (le4 (version P)) && good P d) then None
  else match load_seg (sb (geom P)) d (fun _ => 0), load_seg (coll (geom P)) d (fun _ => 0) with
       | Some a, Some b =>
         match rebuild (cores P d) (w P) (nl P) b with
         | (Some _, b) => Some {| ps := {| disk := d; m_sb := a; m_coll := b |}; frozen := false; active := false; handed := [] |}
         | (None, _) => None
         end
       | _, _ => None
       end.
(** ocf_cache_volume_submit_io (ocf_cache.c:319-350): refused with refcnt.metadata frozen or when active *)
Definition volume_write (P : par) (i : io) (s : fo) : option fo :=
  if frozen s || active s then Some s
  else match submit (geom P) i (ps s) with
       | Some (_, p) => Some {| ps := p; frozen := frozen s; active := active s; handed := handed s |}
       | None => None
       end.
(** ocf_mngt_cache_standby_detach (3384-3399, 2593-2601) *)
Definition standby_detach (s : fo) : fo :=
  if active s || frozen s then s else {| ps := ps s; frozen := true; active := active s; handed := handed s |}.

(** ** Activating *)
(** What can go wrong: creating the pipeline or opening the volume; reading the superblock; loading the configuration;
    testing the volume, promotion, cores, initialising structures; cleaning; and writing the shutdown status: before
    anything, after [k] writes of the other sections, in the write of the superblock, in the flush behind it. *)
Inductive stage := SNone | SPipe | SCfg (k : nat) | SSb | SFlush.
Record fails := { f_open : bool; f_read : bool; f_load : bool; f_mid : bool; f_clean : bool; f_stat : stage }.
Inductive res := ROk | RRefused | RFail | RMismatch | RInval | RStale | RWrite.

Definition put32 (m : N -> N) (b v : N) : N -> N := wr m b (le4 v).
Definition set_ck (P : par) (m : N -> N) (sv : N * N) : N -> N := put32 m (ckoff P + 4 * fst sv) (snd sv).
Definition write_cfg (l : list (N * list N)) (d : N -> N) : N -> N := fold_left (fun d ax => wr d (fst ax) (snd ax)) l d.
(** Setting the flapping index one back (metadata_superblock.c:483): unsigned arithmetic *)
Definition flap_back (m : N -> N) : N -> N := put32 m 12 (((get32 m 12 + (two32 - 1)) mod two32) mod 2).
(** ocf_metadata_set_shutdown_status (metadata_superblock.c:38-65) and ocf_metadata_flush_superblock (437-565): clean_shutdown
    and magic_number, checksums of the other sections, these sections, the flapping index, the checksum of the
    superblock, the superblock. *)
Definition set_status (P : par) (f : stage) (s : st) : bool * st :=
  let m := put32 (wr (m_sb s) 0 [0]) 4 (0x187E1CA6) in
  let upd m d := {| disk := d; m_sb := m; m_coll := m_coll s |} in
  match f with
  | SPipe => (false, upd m (disk s))
  | _ =>
    let m := fold_left (set_ck P) (sums P m) m in
    match f with
    | SCfg k => (false, upd (flap_back m) (write_cfg (firstn k (cfgw P m)) (disk s)))
    | _ =>
      let d := write_cfg (cfgw P m) (disk s) in
      let m := put32 m 12 ((get32 m 12 + 1) mod two32 mod 2) in
      let m := set_ck P m (0, crc P (rd m 0 (N.to_nat (ckoff P)))) in
      match f with
      | SSb => (false, upd (flap_back m) d)
      | SFlush => (false, upd (flap_back m) (save_seg (sb (geom P)) m d))
      | _ => (true, upd m (save_seg (sb (geom P)) m d))
      end
    end
  end.
(** _ocf_mngt_activate_compare_superblock_end (2663-2691): the superblock in memory against the one on the device *)
Definition same_sb (P : par) (s : st) : bool :=
  forallb (fun k => m_sb s (N.of_nat k) =? disk s (N.of_nat k)) (seq 0 (N.to_nat (sbsize P))).
(** _ocf_mngt_cache_standby_activate (3061-3095) and the pipeline (2771-2792); None is ENV_BUG_ON. *)
Definition activate (P : par) (f : fails) (s : fo) : option (res * fo) :=
  let keep p := {| ps := p; frozen := frozen s; active := active s; handed := handed s |} in
  if active s then Some (RRefused, s)
  else if negb (frozen s) then Some (RRefused, s)
  else if f_open f || f_read f then Some (RFail, s)
  else if negb (same_sb P (ps s)) then Some (RMismatch, s)
  else if f_load f then Some (RFail, s)
  else match load_seg (sb (geom P)) (disk (ps s)) (m_sb (ps s)) with
  | None => None
  | Some a =>
    let d := disk (ps s) in
    if negb (same (rd d 8 4) (le4 (version P)) && good P d) then Some (RInval, s)
    else let p := {| disk := d; m_sb := a; m_coll := m_coll (ps s) |} in
    if f_mid f then Some (RFail, keep p)
    else
      (* init_attached_data_structures_recovery (345-366) without the collision segment: _init_metadata_version *)
      let a := put32 a 8 (version P) in
      let (r, b) := rebuild (cores P d) (w P) (nl P) (m_coll (ps s)) in
      let p := {| disk := d; m_sb := a; m_coll := b |} in
      match r with
      | None => Some (RStale, keep p)
      | Some evs =>
        if f_clean f then Some (RFail, keep p)
        else match set_status P (f_stat f) p with
             | (false, p) => Some (RWrite, keep p)
             | (true, p) => Some (ROk, {| ps := p; frozen := false; active := true; handed := evs |})
             end
      end
  end.

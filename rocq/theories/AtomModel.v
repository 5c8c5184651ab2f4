(** Metadata of an atomic cache device: every sector of the device carries an entry that
    says what is cached in it, written together with the data.

    Models /repo/src/metadata/metadata_raw_atomic.c:48-205, /repo/src/ocf_metadata.c:9-109,
    /repo/src/metadata/metadata.c:1335-1404, /repo/src/metadata/metadata_io.c:63-174,
    /repo/src/engine/engine_zero.c:20-155, and the core sequence numbers of
    /repo/src/mngt/ocf_mngt_core.c:19-25, 485-493 and
    /repo/src/mngt/ocf_mngt_cache.c:1773-1794.

    Simplified: completions of the forwarded I/O are counted elsewhere (C21); 64-bit
    addresses do not wrap; what a metadata read of [n] entries at an address delivers is
    taken to be the entries of the [n] sectors from that address on. *)
From Coq Require Import NArith List Bool Arith.
Import ListNotations.
Open Scope N_scope.

Definition w8 (n : N) : N := n mod 2 ^ 8.
Definition w32 (n : N) : N := n mod 2 ^ 32.

(** ENV_SECTOR_SHIFT (env/posix/ocf_env.h:41), PAGE_SIZE *)
Definition sector : N := 512.
Definition page : N := 4096.

(** ** Discarding of cache lines on the device *)

(** The part of struct ocf_map_info that is used (ocf_request.h). *)
Record minfo := {
  mi_miss : bool;    (* status == LOOKUP_MISS *)
  mi_coll : N;
  mi_flush : bool;
  mi_start : N;      (* start_flush, stop_flush: sectors in the line *)
  mi_stop : N
}.

(** raw_atomic_flush_mark (metadata_raw_atomic.c:62-71), to_state INVALID *)
Definition flush_mark (m : minfo) (start stop : N) : minfo :=
  {| mi_miss := mi_miss m; mi_coll := mi_coll m; mi_flush := true;
     mi_start := w8 start; mi_stop := w8 stop |}.

(** ocf_zero_map_info (engine_zero.c:54-93); [S]: sectors of a line *)
Fixpoint zero_map_info (S addr bytes count : N) (i : N) (maps : list minfo) : list minfo :=
  match maps with
  | [] => []
  | m :: r =>
      (if mi_miss m then m
       else
         let start := if i =? 0 then addr / sector mod S else 0 in
         let stop := if i =? count - 1 then (addr + bytes - 1) / sector mod S else S - 1 in
         flush_mark m start stop) :: zero_map_info S addr bytes count (i + 1) r
  end.

(** One I/O: address and length *)
Definition io := (N * N)%type.

(** _raw_atomic_flush_do_asynch_sec (metadata_raw_atomic.c:82-98) *)
Definition sec_io (S off : N) (m : minfo) : io :=
  (mi_coll m * (S * sector) + off + mi_start m * sector,
   w32 ((mi_stop m - mi_start m) * sector + sector)).

(** What the loop over the lines does with line [i] of [n]
    (metadata_raw_atomic.c:142-171). *)
Inductive todo := Skip | Sec | Page.
Definition what (S : N) (n i : nat) (m : minfo) : todo :=
  if negb (mi_flush m) || mi_miss m then Skip
  else if (i =? 0)%nat then (if negb (mi_start m =? 0) then Sec else Page)
  else if (i =? n - 1)%nat then (if negb (mi_stop m =? S - 1) then Sec else Page)
  else Page.

Fixpoint secs (S off : N) (n i : nat) (maps : list minfo) : list io :=
  match maps with
  | [] => []
  | m :: r =>
      match what S n i m with
      | Sec => sec_io S off m :: secs S off n (Datatypes.S i) r
      | _ => secs S off n (Datatypes.S i) r
      end
  end.
Fixpoint pages (S : N) (n i : nat) (maps : list minfo) : list N :=
  match maps with
  | [] => []
  | m :: r =>
      match what S n i m with
      | Page => mi_coll m :: pages S n (Datatypes.S i) r
      | _ => pages S n (Datatypes.S i) r
      end
  end.

(** env_sort with _raw_ram_flush_do_page_cmp (metadata_raw_atomic.c:173-174,
    metadata_raw.c:510-522) *)
Fixpoint insert (x : N) (l : list N) : list N :=
  match l with
  | [] => [x]
  | y :: r => if x <=? y then x :: l else y :: insert x r
  end.
Definition sort (l : list N) : list N := fold_right insert [] l.

(** The loop over the sorted lines (metadata_raw_atomic.c:176-197): [start], [prev]:
    first and last line of the current run, [len]: its length in bytes. *)
Fixpoint merge (S off start prev len : N) (l : list N) : list io :=
  match l with
  | [] => [(start * (S * sector) + off, len)]
  | x :: r =>
      if w32 (prev + 1) =? x then merge S off start x (w32 (len + S * sector)) r
      else (start * (S * sector) + off, len) :: merge S off x x (S * sector) r
  end.
Definition runs (S off : N) (l : list N) : list io :=
  match l with
  | [] => []
  | x :: r => merge S off x x (S * sector) r
  end.

(** raw_atomic_flush_do_asynch (metadata_raw_atomic.c:100-205); [oom]: the table for more
    than MAX_STACK_TAB_SIZE lines cannot be allocated.  [Sent []]: completed without I/O. *)
Inductive flushed := NoMem | Sent (l : list io).
Definition flush_do (S off : N) (oom : bool) (maps : list minfo) : flushed :=
  if negb (existsb mi_flush maps) then Sent []
  else
    match maps with
    | [m] => if mi_flush m && negb (mi_miss m) then Sent [sec_io S off m] else Sent []
    | _ =>
        if (32 <? length maps)%nat && oom then NoMem
        else Sent (secs S off (length maps) 0 maps ++ runs S off (sort (pages S (length maps) 0 maps)))
    end.

(** ** The entries *)

(** struct ocf_atomic_metadata (ocf_metadata.h:21-33) *)
Record entry := { e_cl : N; e_seq : N; e_val : bool; e_dir : bool }.

(** Mapping and state of a cache line; [l_core] is [core_max] if it is not mapped. *)
Record lstate := { l_core : N; l_cl : N; l_val : N -> bool; l_dir : N -> bool }.
Definition meta := N -> lstate.
Definition core_max : N := 4096.

(** ocf_atomic_addr2line, ocf_atomic_addr2pos (ocf_metadata.c:9-24), for addr >= off *)
Definition addr2line (S off addr : N) : N := w32 ((addr - off) / (S * sector)).
Definition addr2pos (S off addr : N) : N := w8 ((addr - off) / sector mod S).

(** ocf_metadata_get_atomic_entry (ocf_metadata.c:26-56).  [nl]: number of cache lines,
    [len]: length of the volume, [seqs]: sequence numbers of the cores by id. *)
Inductive ares := AInval | AEntry (e : entry) | ANull | AOutside.
Definition get_entry (S off nl len : N) (seqs : list N) (mt : meta) (addr : N) : ares :=
  if len <? addr then AInval
  else if addr <? off then AEntry {| e_cl := 0; e_seq := 0; e_val := false; e_dir := false |}
  else
    let line := addr2line S off addr in
    let pos := addr2pos S off addr in
    if nl <=? line then AOutside
    else
      let s := mt line in
      if core_max <=? l_core s then ANull   (* ocf_cache_get_core: NULL, then core->conf_meta *)
      else AEntry {| e_cl := l_cl s mod 2 ^ 46; e_seq := nth (N.to_nat (l_core s)) seqs 0 mod 2 ^ 16;
                     e_val := l_val s pos; e_dir := l_dir s pos |}.

(** The loops of ocf_metadata_check_invalid_before / _after (ocf_metadata.c:58-109);
    [None]: -OCF_ERR_CACHE_STANDBY. *)
Definition none_valid (s : lstate) (from to : N) : bool :=
  forallb (fun i => negb (l_val s (N.of_nat i))) (seq (N.to_nat from) (N.to_nat (to - from))).
Definition invalid_before (standby : bool) (S off : N) (mt : meta) (addr : N) : option N :=
  if standby then None
  else
    let pos := addr2pos S off addr in
    if (pos =? 0) || (addr <? off) then Some 0
    else Some (if none_valid (mt (addr2line S off addr)) 0 pos then pos else 0).
Definition invalid_after (standby : bool) (S off : N) (mt : meta) (addr bytes : N) : option N :=
  if standby then None
  else
    let pos := addr2pos S off (addr + bytes) in
    if (pos =? 0) || (addr <? off) then Some 0
    else Some (if none_valid (mt (addr2line S off (addr + bytes))) pos S then S - pos else 0).

(** ** Recovery *)

(** _ocf_metadata_find_core_by_seq (metadata.c:1335-1350); [seqs] has core_max elements *)
Fixpoint find_seq (seqs : list N) (id : N) (q : N) : N :=
  match seqs with
  | [] => id
  | x :: r => if x =? q then id else find_seq r (id + 1) q
  end.
Definition find_core (seqs : list N) (q : N) : N := if q =? 0 then core_max else find_seq seqs 0 q.

Definition upd {A} (f : N -> A) (k : N) (v : A) : N -> A := fun i => if i =? k then v else f i.
Definition set_core (mt : meta) (l core cl : N) : meta :=
  upd mt l {| l_core := core; l_cl := cl; l_val := l_val (mt l); l_dir := l_dir (mt l) |}.
Definition set_bits (mt : meta) (l p : N) (d : bool) : meta :=
  upd mt l {| l_core := l_core (mt l); l_cl := l_cl (mt l);
              l_val := upd (l_val (mt l)) p true; l_dir := upd (l_dir (mt l)) p d |}.

(** ocf_metadata_load_atomic_metadata_drain (metadata.c:1360-1404); [k]: sector_addr + i,
    [ok]: core_line_ok *)
Fixpoint drain (S : N) (seqs : list N) (k : N) (es : list entry) (ok : bool) (mt : meta) : meta :=
  match es with
  | [] => mt
  | e :: r =>
      let line := w32 (k / S) in
      let pos := w8 (k mod S) in
      let core := find_core seqs (e_seq e) in
      let ok := if pos =? 0 then false else ok in
      if e_val e && negb (core =? core_max) then
        let mt := if ok then mt else set_core mt line core (e_cl e) in
        drain S seqs (k + 1) r true (set_bits mt line pos (e_dir e))
      else drain S seqs (k + 1) r ok mt
  end.

(** What the device delivers; [at_ k]: the entry of data sector [k]. *)
Definition read_at (at_ : N -> entry) (off addr : N) (n : nat) : list entry :=
  map (fun i => at_ ((addr - off) / sector + N.of_nat i)) (seq 0 n).

(** The address of the read of metadata_io_read_i_atomic_step (metadata_io.c:116-119) *)
Definition step_addr (off curr : N) : N := off + curr * page.

(** metadata_io_read_i_atomic_step, _step_end (metadata_io.c:76-122), without errors;
    PAGE_SIZE / OCF_ATOMIC_METADATA_SIZE is 512.  [addr_of]: the address of a step. *)
Fixpoint recover (fuel : nat) (S off : N) (seqs : list N) (at_ : N -> entry) (addr_of : N -> N -> N)
    (curr count : N) (mt : meta) : meta :=
  match fuel with
  | O => mt
  | Datatypes.S f =>
      let n := N.min 512 count in
      let mt := drain S seqs curr (read_at at_ off (addr_of off curr) (N.to_nat n)) false mt in
      if 0 <? count - n then recover f S off seqs at_ addr_of (curr + n) (count - n) mt else mt
  end.

(** metadata_io_read_i_atomic (metadata_io.c:127-174): all sectors *)
Definition load_atomic (S off nl : N) (seqs : list N) (at_ : N -> entry) (mt : meta) : meta :=
  recover (Datatypes.S (N.to_nat (nl * S / 512))) S off seqs at_ step_addr 0 (nl * S) mt.

(** ** Zeroing a line *)

Inductive zev := ZFlush | ZPurge | ZUnlock | ZComplete (ok : bool) | ZPut.

(** _ocf_zero_io_flush_metadata, ocf_zero_purge (engine_zero.c:20-52) *)
Definition zero_cb (ok : bool) : list zev :=
  if ok then [ZPurge; ZUnlock; ZComplete true; ZPut] else [ZUnlock; ZComplete false; ZPut].

(** _ocf_zero_do (engine_zero.c:95-117) after its ocf_req_get; [flush_ok]: result of the
    metadata flush. *)
Definition zero_do (flush_metadata flush_ok : bool) : list zev :=
  (if flush_metadata then ZFlush :: zero_cb flush_ok else []) ++ zero_cb true ++ [ZPut].

(** ** Sequence numbers *)

(** [cur]: curr_core_seq_no; [nos]: seq_no of the cores with valid metadata *)
Record seqst := { cur : N; nos : list (option N) }.

(** ocf_mngt_get_core_seq_no (ocf_mngt_core.c:19-25); 0: OCF_SEQ_NO_INVALID *)
Definition seq_max : N := 65535.
Definition next_seq (c : N) : N * N := if c =? seq_max then (c, 0) else (c + 1, c + 1).

(** _ocf_mngt_attach_update_cores_atomic (ocf_mngt_cache.c:1773-1794); None: too many *)
Fixpoint renumber (c : N) (l : list (option N)) : option (N * list (option N)) :=
  match l with
  | [] => Some (c, [])
  | None :: r =>
      match renumber c r with Some (c, r) => Some (c, None :: r) | None => None end
  | Some _ :: r =>
      let (c, n) := next_seq c in
      if n =? 0 then None
      else match renumber c r with Some (c, r) => Some (c, Some n :: r) | None => None end
  end.

Inductive sop := SAttach | SAdd (id : nat) | SRemove (id : nat).
Fixpoint put {A} (l : list A) (i : nat) (v : A) : list A :=
  match l, i with
  | [], _ => []
  | _ :: r, O => v :: r
  | x :: r, Datatypes.S i => x :: put r i v
  end.
(** Adding (ocf_mngt_core.c:485-493) and removing (ocf_mngt_common.c:120) a core of a
    cache with an atomic device attached; None: refused. *)
Definition seq_op (o : sop) (s : seqst) : option seqst :=
  match o with
  | SAttach => match renumber 0 (nos s) with Some (c, l) => Some {| cur := c; nos := l |} | None => None end
  | SAdd id =>
      let (c, n) := next_seq (cur s) in
      if n =? 0 then None else Some {| cur := c; nos := put (nos s) id (Some n) |}
  | SRemove id => Some {| cur := cur s; nos := put (nos s) id None |}
  end.
Definition seq_step (s : seqst) (o : sop) : seqst := match seq_op o s with Some s => s | None => s end.

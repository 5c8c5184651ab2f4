(** Checking a user I/O and setting up its request: the byte range, the core lines, the map of the
    lines, and splitting a discard into steps (ocf_io.c, ocf_core.c, ocf_request.c, engine_discard.c).
    Unsigned arithmetic wraps as in C: 64 bits for addresses and lines, 32 bits for lengths and counts. *)
From Coq Require Import NArith List Bool.
Import ListNotations.
Open Scope N_scope.

Definition W64 : N := 2 ^ 64.
Definition W32 : N := 2 ^ 32.
Definition SECTOR : N := 512.
(** inc/ocf_def.h:342 MAX_TRIM_RQ_SIZE, inc/ocf_cfg.h:24 OCF_CONFIG_MAX_IO_CLASSES *)
Definition TRIM : N := 524288.
Definition CLASS_MAX : N := 33.

(** Wrapping subtraction *)
Definition sub64 (a b : N) : N := (a + W64 - b) mod W64.

(** A user I/O: address, length, direction (0 read, 1 write), class, whether a queue is given, whether it
    is the management queue, whether a completion is set *)
Record io := { addr : N; bytes : N; rw : N; io_class : N; has_queue : bool; mngt : bool; has_end : bool }.

(** The test for whole sectors in ocf_io_new (ocf_io.c:76-84) *)
Definition io_new_ok (i : io) : bool := (addr i mod SECTOR =? 0) && (bytes i mod SECTOR =? 0).
(** ocf_core_validate_io (ocf_core.c:180-208); true: accepted *)
Definition validate (length : N) (i : io) : bool :=
  negb (length <? (addr i + bytes i) mod W64) &&
  negb (CLASS_MAX <=? io_class i) &&
  ((rw i =? 0) || (rw i =? 1)) &&
  has_queue i && has_end i && negb (mngt i).

(** The core lines of a request *)
Record lines := { first : N; last : N; count : N (* uint32_t core_line_count *); map_off : N (* entries before alock_status, uint64_t *) }.
(** ocf_req_new (ocf_request.c:210-246); [ls] is the line size *)
Definition req_lines (ls a b : N) : lines :=
  if b =? 0 then {| first := a / ls; last := a / ls; count := 1; map_off := 1 |}
  else let f := a / ls in let l := sub64 (a + b) 1 mod W64 / ls in
       let n := (sub64 l f + 1) mod W64 in
       {| first := f; last := l; count := n mod W32; map_off := n |}.

(** ocf_core_volume_submit_io (ocf_core.c:259-280) as far as the checks: the lines of the request that is
    handled, None: it is completed with an error; [standby] *)
Definition submit (ls length : N) (standby : bool) (i : io) : option lines :=
  if validate length i then if standby then None else Some (req_lines ls (addr i) (bytes i)) else None.

(** ** Discard *)
(** Number of map entries after ocf_req_alloc_map_discard (ocf_request.c:328-348).  [pool]: the map was
    allocated together with the request, for all its lines; otherwise it is allocated for the lines of
    the request, cut to MAX_TRIM_RQ_SIZE bytes. *)
Definition discard_map (pool : bool) (ls a b : N) : N :=
  if pool then count (req_lines ls a b)
  else if b <=? TRIM then count (req_lines ls a b)
  else let l := sub64 (a + TRIM) 1 mod W64 / ls in (sub64 l (a / ls) + 1) mod W32.

(** One step: its address, length and lines *)
Record dstep := { d_addr : N; d_bytes : N; d_lines : lines }.
(** _ocf_discard_step (engine_discard.c:145-163), the sector numbers being 64-bit *)
Definition discard_step (ls sector nr handled : N) : dstep :=
  let a := (sector + handled) * SECTOR mod W64 in
  let b := N.min (sub64 nr handled * SECTOR mod W64) TRIM in
  let f := a / ls in let l := sub64 (a + b) 1 mod W64 / ls in
  {| d_addr := a; d_bytes := b; d_lines := {| first := f; last := l; count := (sub64 l f + 1) mod W32; map_off := 0 |} |}.
(** The steps until _ocf_discard_finish_step (engine_discard.c:61-73) leaves the loop; None: out of fuel *)
Fixpoint discard_steps (fuel : nat) (ls sector nr handled : N) : option (list dstep) :=
  match fuel with
  | O => None
  | S fuel =>
    let d := discard_step ls sector nr handled in
    let h := (handled + d_bytes d / SECTOR) mod W64 in
    if h <? nr then match discard_steps fuel ls sector nr h with Some ds => Some (d :: ds) | None => None end
    else Some [d]
  end.
(** ocf_core_volume_submit_discard (ocf_core.c:362-404) and ocf_engine_discard (engine_discard.c:200-219):
    the steps and the range of the discard sent to the core (_ocf_discard_core, engine_discard.c:29-37) *)
Definition discard (fuel : nat) (ls length : N) (i : io) : option (list dstep * (N * N)) :=
  if bytes i =? 0 then None
  else if validate length i then
    if rw i =? 0 then None
    else match discard_steps fuel ls (addr i / SECTOR) (bytes i / SECTOR) 0 with
         | None => None
         | Some ds => Some (ds, (addr i / SECTOR * SECTOR mod W64, bytes i / SECTOR * SECTOR mod W64))
         end
  else None.

(** Placement of the metadata sections on the cache device and the number of cache lines:
    /repo/src/metadata/metadata.c, /repo/src/metadata/metadata_raw.c.

    Metadata kept in volatile memory only (metadata_volatile, raw type "volatile", which takes
    no pages) and atomic devices are left out. *)
From Coq Require Import ZArith List Bool.
Import ListNotations.
Open Scope Z_scope.

Definition u32 (x : Z) : Z := x mod 2^32.
Definition u64 (x : Z) : Z := x mod 2^64.
(** OCF_DIV_ROUND_UP (/repo/src/ocf_def_priv.h:19-24), without overflow. *)
Definition div_up (x y : Z) : Z := (x + y - 1) / y.

(** Part of struct ocf_metadata_raw (/repo/src/metadata/metadata_raw.h:59-80). *)
Record raw := { r_entries : Z; r_in_page : Z; r_flap : bool; r_off : Z; r_pages : Z }.

(** _raw_ram_segment_size_on_ssd (metadata_raw.c:38-43), _raw_ram_size_on_ssd
    (metadata_raw.c:165-170); the dynamic type has the same (metadata_raw_dynamic.c:41-46,
    225-230). *)
Definition seg_size (pages : Z) : Z := u32 (div_up pages 32 * 32).
Definition size_on_ssd (r : raw) : Z := u32 (seg_size (r_pages r) * (if r_flap r then 2 else 1)).

(** The common loop body (metadata.c:508-536 and 276-296): descriptors are (entries, entry
    size, flapping), [base] is the offset added to each section's location, [page] the
    counter. *)
Definition place1 (base page : Z) (d : Z * Z * bool) : raw :=
  match d with (n, sz, fl) =>
    let inp := 4096 / sz in
    {| r_entries := n; r_in_page := inp; r_flap := fl; r_off := u32 (base + page); r_pages := div_up n inp |}
  end.
Fixpoint place (base page : Z) (ds : list (Z * Z * bool)) : list raw * Z :=
  match ds with
  | [] => ([], page)
  | d :: ds => let r := place1 base page d in
               let '(rs, p) := place base (u32 (page + size_on_ssd r)) ds in (r :: rs, p)
  end.

(** Entries, element sizes and double buffering of the fixed sections
    (ocf_metadata_get_entries, ocf_metadata_get_element_size, ocf_metadata_is_flapped:
    metadata.c:67-219), in the order of enum ocf_metadata_segment_id: both superblocks, the
    reserved area, partition configuration and runtime data, core configuration and runtime
    data, core UUIDs.  The structures' sizes are those of x86-64 with the POSIX environment. *)
Definition fixed_abi : list (Z * Z * bool) :=
  [(1, 4096, false); (1, 4096, false); (32, 4096, false); (34, 1040, true); (35, 1552, false);
   (4096, 128, true); (4096, 288, false); (4096, 4096, true)].

(** The sections that depend on the number of cache lines: cleaning (unless disabled), LRU,
    collision (struct ocf_metadata_map and two status bits per sector,
    ocf_metadata_status_sizeof, metadata.c:52-62), list info, hash.  All these structures
    are packed.  The argument of ocf_metadata_get_entries is 32 bits wide. *)
Definition variable (line : Z) (nocleaner : bool) (lines : Z) : list (Z * Z * bool) :=
  let n := u32 lines in
  (if nocleaner then [] else [(n, 12, false)]) ++
  [(n, 9, false); (n, 10 + line / 512 / 8 * 2, false); (n, 9, false); (u32 (n + 4 - 1) / 4, 4, false)].

Inductive res (A : Type) := Ok (a : A) | Err | Bug.
Arguments Ok {A}. Arguments Err {A}. Arguments Bug {A}.

(** ocf_metadata_calculate_exception_hndl (metadata.c:229-253). *)
Definition exception_hndl (unused device : Z) : bool :=
  if unused <? 0 then false else negb (Z.quot ((device - unused) * 100) device <? 90).

(** ocf_metadata_calculate_metadata_size (metadata.c:259-355): the loop.  [dev]: lines on the
    device, [fixed]: count_pages_fixed.  The division by line_size is unsigned, since
    ocf_cache_line_size_t is a 64-bit unsigned enumeration (/repo/inc/ocf_def.h:253-283). *)
Fixpoint calc (fuel : nat) (dev line fixed : Z) (noc : bool) (i diff lines lowest : Z) : res (list raw * Z * Z) :=
  match fuel with
  | O => Bug
  | S fuel =>
    if u32 lines =? 0 then Bug            (* ENV_BUG_ON in ocf_metadata_get_entries *)
    else
      let '(rs, count) := place fixed 0 (variable line noc lines) in
      if (1000 <=? i) && exception_hndl diff dev then Ok (rs, count, lines)
      else if (1000 <=? i) && (2000 <? i) then Err
      else
        let d := u64 (dev * line - u32 (fixed + count) * 4096) / line - lines in
        if (0 <? d) && negb (d <? lowest) && (d =? lowest) then Ok (rs, count, lines)
        else
          let lowest := if (0 <? d) && (d <? lowest) then d else lowest in
          if d =? 0 then Ok (rs, count, lines)
          else calc fuel dev line fixed noc (i + 1) d (lines + d) lowest
  end.

Record layout := { l_fixed : list raw; l_var : list raw; l_lines : Z; l_pages : Z; l_offset : Z }.

(** ocf_metadata_init_variable_size (metadata.c:642-797) after ocf_metadata_ctrl_init
    (metadata.c:486-541), with the size check of the attach (/repo/src/mngt/ocf_mngt_cache.c:1006).
    [wide]: whether PAGE_SIZE is 64 bits wide in the environment.  The POSIX environment
    defines it as 4096, which is an int (/repo/env/posix/ocf_env.h:45), so that
    "ocf_metadata_get_pages_count(cache) * PAGE_SIZE" (metadata.c:792) is computed in 32 bits. *)
Definition init (wide : bool) (fixed : list (Z * Z * bool)) (size line : Z) (noc : bool) : res layout :=
  if size <? 40 * 2^20 then Err
  else if 2^32 - 1 <=? size / line then Err
  else
    let dev := size / line in
    let '(frs, fp) := place 0 0 fixed in
    match calc 2100 dev line fp noc 0 0 dev dev with
    | Ok (vrs, count, lines) =>
      if dev <? u32 lines then Err
      else let pages := u32 (fp + count) in
           Ok {| l_fixed := frs; l_var := vrs; l_lines := u32 lines; l_pages := pages;
                 l_offset := if wide then pages * 4096 else u32 (pages * 4096) |}
    | Err => Err
    | Bug => Bug
    end.

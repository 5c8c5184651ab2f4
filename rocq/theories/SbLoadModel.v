(** Loading the superblock: metadata/metadata_superblock.c:67-435 with
    metadata/metadata_segment.c:66-95, 128-142 and the pipeline that runs the steps
    (utils/utils_pipeline.c:34-80).  A segment is its bytes in memory; how a C compiler lays out
    struct ocf_superblock_config and struct ocf_core_meta_config in these bytes, and the checksum
    function, are parameters (record [layout]).  What the device returns for each segment, and which
    allocations succeed, is the environment.  A read that fails may have changed the memory of the
    segment.  Simplified: the pipeline's steps run one after another in one go (they run as requests
    on the management queue, nothing else touches these segments meanwhile: the cache is being
    attached). *)
From Coq Require Import List ZArith Bool NArith Lia.
Import ListNotations.
Local Open Scope Z_scope.

(** The segments involved, metadata/metadata_segment_id.h:17-29 *)
Inductive seg := SbConfig | SbRuntime | PartConfig | PartRuntime | CoreConfig | CoreUuid.
Definition seg_eqb (a b : seg) : bool :=
  match a, b with
  | SbConfig, SbConfig | SbRuntime, SbRuntime | PartConfig, PartConfig | PartRuntime, PartRuntime
  | CoreConfig, CoreConfig | CoreUuid, CoreUuid => true
  | _, _ => false
  end.

Definition content := list N.

(** struct ocf_superblock_config, metadata_superblock.h:18-60 (fields not looked at by the code below
    left out).  The name is an array of OCF_CACHE_NAME_SIZE = 32 bytes (ocf_def.h:39). *)
Record sb := {
  clean_shutdown : N; dirty_flushed : N; magic_number : N; metadata_version : N; flapping_idx : N;
  cache_mode : Z; name : list N; valid_parts_no : N; line_size : N; core_count : N;
  core_bit : N -> bool; cleaner_disabled : bool; cleaning_policy : Z; promotion_policy : Z;
  checksum : seg -> N }.

(** The bytes seen as structures; env_crc32 of the part of the superblock before [checksum]
    (metadata_superblock.c:121-122) and ocf_metadata_raw_checksum of a segment. *)
Record layout := { dec : content -> sb; core_valid : content -> N -> bool; crc_sb : content -> N; crc : content -> N }.

(** rd s i: what reading copy i of segment s leaves in memory, and the error *)
Record env := { create_ok : bool; malloc_ok : seg -> bool; limit : seg -> N; rd : seg -> N -> content * Z }.

(** Error codes, inc/ocf_err.h:19-52 *)
Definition ERR_INVAL := 1000000.  Definition ERR_NO_MEM := 1000004.  Definition ERR_METADATA_VER := 1000006.
Definition ERR_NO_METADATA := 1000007.  Definition ERR_CRC := 1000010.

(** What is observable: allocation and release of the copy of a segment, ocf_metadata_error, the
    caller's callback, the pipeline destroyed. *)
Inductive ev := Malloc (s : seg) | Freed (s : seg) | MdError | Told (e : Z) | Destroyed.

Record st := { mem : seg -> content; copy : seg -> option content; log : list ev }.
Definition upd {A} (f : seg -> A) (s : seg) (a : A) : seg -> A := fun t => if seg_eqb s t then a else f t.
Definition say (e : ev) (x : st) : st := {| mem := mem x; copy := copy x; log := log x ++ [e] |}.
Definition set_mem (s : seg) (c : content) (x : st) : st := {| mem := upd (mem x) s c; copy := copy x; log := log x |}.
Definition set_copy (s : seg) (c : option content) (x : st) : st := {| mem := mem x; copy := upd (copy x) s c; log := log x |}.

(** A step ends with ocf_pipeline_next, ocf_pipeline_finish(error) or ENV_BUG_ON *)
Inductive res := Next (x : st) | Finish (e : Z) (x : st) | Bug.

(** env_memcpy: an error when the destination is too small (secure variant; the posix one,
    env/posix/ocf_env.h:90-93, never fails) *)
Definition memcpy_err (dmax n : N) : Z := if (dmax <? n)%N then ERR_INVAL else 0.

(** ocf_metadata_store_segment, metadata_superblock.c:67-93 *)
Definition store_segment (v : env) (s : seg) (x : st) : res :=
  if malloc_ok v s then
    let x := say (Malloc s) (set_copy s (Some []) x) in
    let e := memcpy_err (limit v s) (limit v s) in
    if e =? 0 then Next (set_copy s (Some (mem x s)) x)
    else Finish e (set_copy s None (say (Freed s) x))
  else Finish (- ERR_NO_MEM) x.

(** env_strnlen *)
Fixpoint strnlen (l : list N) (max : nat) : nat :=
  match max, l with
  | O, _ => O
  | _, [] => O
  | S m, c :: l => if (c =? 0)%N then O else S (strnlen l m)
  end.

(** Constants: CACHE_MAGIC_NUMBER (metadata_superblock.h:13), METADATA_VERSION
    (ocf_def_priv.h:40-41 with env/posix/ocf_env_headers.h:18-20), ocf_def.h:155-172, 209-216,
    227-243, ocf_cfg.h:19, 24, ocf_cache_priv.h:25, metadata_structs.h:24-27 *)
Definition MAGIC := 410918054%N.  Definition VERSION := 1311488%N.  Definition MODE_MAX := 6.  Definition CLEANING_MAX := 3.
Definition PROMOTION_MAX := 2.  Definition NAME_SIZE := 32%nat.  Definition CORE_MAX := 4096%N.  Definition CLASS_MAX := 33%N.
Definition CLEAN := 1%N.  Definition DIRTY_FLUSHED := 1%N.  Definition NOP := 0.

(** ocf_cache_line_size_is_valid, utils/utils_cache_line.h:332-344 *)
Definition line_size_is_valid (n : N) : bool :=
  ((n =? 4096) || (n =? 8192) || (n =? 16384) || (n =? 32768) || (n =? 65536))%N.

(** ocf_metadata_validate_superblock, metadata_superblock.c:104-194 *)
Definition validate_superblock (L : layout) (c : content) : Z :=
  let b := dec L c in
  if negb (magic_number b =? MAGIC)%N then - ERR_NO_METADATA
  else if negb (VERSION =? metadata_version b)%N then - ERR_METADATA_VER
  else if negb (crc_sb L c =? checksum b SbConfig)%N then - ERR_CRC
  else if (CLEAN <? clean_shutdown b)%N then - ERR_INVAL
  else if (DIRTY_FLUSHED <? dirty_flushed b)%N then - ERR_INVAL
  else if (1 <? flapping_idx b)%N then - ERR_INVAL
  else if (cache_mode b <? 0) || (cache_mode b >=? MODE_MAX) then - ERR_INVAL
  else if (NAME_SIZE <=? strnlen (name b) NAME_SIZE)%nat then - ERR_INVAL
  else if (CLASS_MAX <? valid_parts_no b)%N then - ERR_INVAL
  else if negb (line_size_is_valid (line_size b)) then - ERR_INVAL
  else if (CORE_MAX <? core_count b)%N then - ERR_INVAL
  else if (cleaning_policy b <? 0) || (cleaning_policy b >=? CLEANING_MAX) then - ERR_INVAL
  else if cleaner_disabled b && negb (cleaning_policy b =? NOP) then - ERR_INVAL
  else if (promotion_policy b <? 0) || (promotion_policy b >=? PROMOTION_MAX) then - ERR_INVAL
  else 0.
(** _ocf_metadata_validate_superblock, metadata_superblock.c:196-212 *)
Definition validate_step (L : layout) (x : st) : res :=
  let e := validate_superblock L (mem x SbConfig) in if e =? 0 then Next x else Finish e x.

(** ocf_metadata_is_flapped, metadata.c:195-207 *)
Definition is_flapped (s : seg) : bool := match s with PartConfig | CoreConfig | CoreUuid => true | _ => false end.
(** ocf_metadata_load_segment, metadata_segment.c:128-142, with ENV_BUG_ON in metadata_raw.c:329 and
    metadata_raw_dynamic.c:450 and the completion metadata_segment.c:67-72 *)
Definition load_segment (L : layout) (v : env) (s : seg) (x : st) : res :=
  let i := if is_flapped s then flapping_idx (dec L (mem x SbConfig)) else 0%N in
  if (if is_flapped s then 1 <? i else negb (i =? 0))%N then Bug
  else let (c, e) := rd v s i in
       let x := set_mem s c x in if e =? 0 then Next x else Finish e x.

(** ocf_metadata_check_crc, metadata_segment.c:74-95 *)
Definition check_crc (L : layout) (s : seg) (x : st) : res :=
  if (crc L (mem x s) =? checksum (dec L (mem x SbConfig)) s)%N then Next x else Finish (- ERR_CRC) x.

(** _ocf_metadata_validate_core_config, metadata_superblock.c:214-247 *)
Fixpoint cores_agree (f g : N -> bool) (n : nat) (id : N) : bool :=
  match n with
  | O => true
  | S n => if f id && negb (g id) then false else if g id && negb (f id) then false else cores_agree f g n (id + 1)%N
  end.
Definition validate_core_config (L : layout) (x : st) : res :=
  if cores_agree (core_bit (dec L (mem x SbConfig))) (core_valid L (mem x CoreConfig)) (N.to_nat CORE_MAX) 0
  then Next x else Finish (- ERR_INVAL) x.

(** ocf_metadata_load_sb_restore, metadata_superblock.c:249-269, and the loop of
    ocf_metadata_load_superblock_finish, 284-288, over the segments that can have a copy *)
Definition segs := [SbConfig; SbRuntime; PartConfig; PartRuntime; CoreConfig; CoreUuid].
Fixpoint restore (v : env) (l : list seg) (x : st) : option st :=
  match l with
  | [] => Some x
  | s :: l => match copy x s with
              | None => restore v l x
              | Some c => if memcpy_err (limit v s) (limit v s) =? 0 then restore v l (set_mem s c x) else None
              end
  end.
Fixpoint free_copies (l : list seg) (x : st) : st :=
  match l with
  | [] => x
  | s :: l => free_copies l (match copy x s with Some _ => say (Freed s) x | None => x end)
  end.
(** ocf_metadata_load_superblock_finish, metadata_superblock.c:271-292; None: ENV_BUG_ON *)
Definition finish (v : env) (e : Z) (x : st) : option st :=
  match (if e =? 0 then Some x else restore v segs (say MdError x)) with
  | None => None
  | Some x => Some (say Destroyed (say (Told e) (free_copies segs x)))
  end.

(** _ocf_pipeline_run_step and ocf_pipeline_finish, utils_pipeline.c:34-80: the steps in order, the
    rest left out when one finishes *)
Fixpoint run (v : env) (l : list (st -> res)) (x : st) : option st :=
  match l with
  | [] => finish v 0 x
  | f :: l => match f x with Next x => run v l x | Finish e x => finish v e x | Bug => None end
  end.

(** The lists of segments and the steps, metadata_superblock.c:294-328, 371-394 *)
Definition stored := [SbConfig; SbRuntime; PartConfig; PartRuntime; CoreConfig].
Definition loaded (recovery : bool) : list seg :=
  if recovery then [PartConfig; CoreConfig; CoreUuid] else [SbRuntime; PartConfig; PartRuntime; CoreConfig; CoreUuid].
Definition steps (L : layout) (v : env) (recovery : bool) : list (st -> res) :=
  map (store_segment v) stored ++ [load_segment L v SbConfig; validate_step L]
  ++ map (load_segment L v) (loaded recovery) ++ map (check_crc L) (loaded recovery) ++ [validate_core_config L].

(** ocf_metadata_load_superblock and ocf_metadata_load_superblock_recovery, metadata_superblock.c:333-369,
    399-435; the context is allocated zeroed with the pipeline (utils_pipeline.c:82-120).  None: a
    failed ENV_BUG_ON. *)
Definition load_superblock (L : layout) (v : env) (recovery : bool) (m : seg -> content) : option st :=
  let x := {| mem := m; copy := fun _ => None; log := [] |} in
  if create_ok v then run v (steps L v recovery) x else Some (say (Told (- ERR_NO_MEM)) x).

(** Users of the accepted superblock: _ocf_mngt_cache_stop_remove_cores,
    mngt/ocf_mngt_cache.c:2171-2184: the cores closed at stop, given which are added *)
Fixpoint stop_remove (added : N -> bool) (n : nat) (id : N) (no : Z) : list N :=
  match n with
  | O => []
  | S n => if added id
           then id :: (if no - 1 =? 0 then [] else stop_remove added n (id + 1)%N (no - 1))
           else stop_remove added n (id + 1)%N no
  end.

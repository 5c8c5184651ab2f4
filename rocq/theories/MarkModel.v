(** The marks on the cache device: is there a cache on it, was it stopped cleanly, did it hold dirty
    data.  They live in the superblock (clean_shutdown, dirty_flushed, magic_number,
    metadata_superblock.h:18-60) and are written by attach, load, stop, detach and by every save of
    the configuration, while the pages of the run-time segments (metadata.c:1063-1072) are written
    beside them.  The device has a volatile write cache: a write that completed is only durable after
    a later flush completed; a power cut keeps any of the writes that are still volatile.
    Simplified: the superblock is one atomic write, the run-time segments are an array of [n] pages,
    each written atomically; the segments of the configuration and their two copies are left out
    (SbModel), as are the parts of the pipelines that touch no metadata (LifeModel) and the test of
    the volume (ocf_mngt_cache.c:1057-1255).  A step of a pipeline that fails may or may not have had
    its effect. *)
From Coq Require Import List Arith NArith ZArith Bool.
From Verif Require SbLoadModel.
Import ListNotations.

(** struct ocf_superblock_config, metadata_superblock.h:18-60, as far as it concerns the marks; the
    checksums of the run-time segments (metadata_segment.c:97-108) are one value *)
Record sbv := { s_clean : bool; s_flushed : bool; s_sum : list N }.
(** The device; None: no magic number in page 0 *)
Record dev := { d_sb : option sbv; d_pages : nat -> N }.
Inductive wr := WSb (o : option sbv) | WPg (i : nat) (v : N).

Definition setp (f : nat -> N) (i : nat) (v : N) : nat -> N := fun j => if j =? i then v else f j.
Definition apply (w : wr) (d : dev) : dev :=
  match w with
  | WSb o => {| d_sb := o; d_pages := d_pages d |}
  | WPg i v => {| d_sb := d_sb d; d_pages := setp (d_pages d) i v |}
  end.
Fixpoint applys (l : list wr) (d : dev) : dev :=
  match l with [] => d | w :: l => applys l (apply w d) end.
(** The volatile writes that survive a power cut *)
Fixpoint survive (mask : list bool) (l : list wr) : list wr :=
  match mask, l with
  | b :: mask, w :: l => if b then w :: survive mask l else survive mask l
  | _, _ => []
  end.

(** What the pipelines do with metadata.
    CZero: ocf_metadata_zero_superblock, metadata.c:1765-1773, metadata_superblock.c:723-729,
    metadata_raw.c:255-289.
    CSave: ocf_metadata_flush_all, metadata.c:1023-1135.
    CMark: ocf_metadata_set_shutdown_status(dirty), ocf_mngt_cache.c:1949-1971.
    CConf: ocf_metadata_flush_superblock, metadata_superblock.c:540-565, from
    ocf_mngt_cache.c:3559, ocf_mngt_core.c:506, 713. *)
Inductive cmd := CZero | CSave | CMark | CConf.
Inductive job := JAttach | JLoad | JStop | JDetach | JConf.
(** Where in a command: writing page 0; page [i] of the run-time segments; the first disk flush of
    metadata_superblock.c:520-534; the superblock; the second disk flush *)
Inductive pos := PZero | PPage (i : nat) | PSync1 | PSb | PSync2.
Inductive phase := Off | Run | Busy (c : cmd) (p : pos) (rest : list cmd) (j : job).

(** [told]: the last completion and whether it reported success *)
Record mach := {
  dur : dev; pend : list wr; m_pages : nat -> N; m_clean : bool; m_flushed : bool; m_sum : list N;
  ph : phase; told : option (job * bool) }.

Definition with_ph (p : phase) (s : mach) : mach :=
  {| dur := dur s; pend := pend s; m_pages := m_pages s; m_clean := m_clean s; m_flushed := m_flushed s;
     m_sum := m_sum s; ph := p; told := told s |}.
Definition with_clean (b : bool) (s : mach) : mach :=
  {| dur := dur s; pend := pend s; m_pages := m_pages s; m_clean := b; m_flushed := m_flushed s;
     m_sum := m_sum s; ph := ph s; told := told s |}.
Definition with_flushed (b : bool) (s : mach) : mach :=
  {| dur := dur s; pend := pend s; m_pages := m_pages s; m_clean := m_clean s; m_flushed := b;
     m_sum := m_sum s; ph := ph s; told := told s |}.
Definition with_sum (l : list N) (s : mach) : mach :=
  {| dur := dur s; pend := pend s; m_pages := m_pages s; m_clean := m_clean s; m_flushed := m_flushed s;
     m_sum := l; ph := ph s; told := told s |}.
Definition with_mem (f : nat -> N) (s : mach) : mach :=
  {| dur := dur s; pend := pend s; m_pages := f; m_clean := m_clean s; m_flushed := m_flushed s;
     m_sum := m_sum s; ph := ph s; told := told s |}.
Definition tell (j : job) (ok : bool) (p : phase) (s : mach) : mach :=
  {| dur := dur s; pend := pend s; m_pages := m_pages s; m_clean := m_clean s; m_flushed := m_flushed s;
     m_sum := m_sum s; ph := p; told := Some (j, ok) |}.
Definition write (w : wr) (s : mach) : mach :=
  {| dur := dur s; pend := pend s ++ [w]; m_pages := m_pages s; m_clean := m_clean s;
     m_flushed := m_flushed s; m_sum := m_sum s; ph := ph s; told := told s |}.
(** ocf_submit_cache_flush completed: everything is durable *)
Definition flush (s : mach) : mach :=
  {| dur := applys (pend s) (dur s); pend := []; m_pages := m_pages s; m_clean := m_clean s;
     m_flushed := m_flushed s; m_sum := m_sum s; ph := ph s; told := told s |}.
(** What a read of the device returns *)
Definition view (s : mach) : dev := applys (pend s) (dur s).

(** Beginning a command; set_shutdown_status sets the mark in memory first,
    metadata_superblock.c:60-64 *)
Definition start (c : cmd) (rest : list cmd) (j : job) (s : mach) : mach :=
  match c with
  | CZero => with_ph (Busy CZero PZero rest j) s
  | CSave => with_ph (Busy CSave (PPage 0) rest j) s
  | CMark => with_ph (Busy CMark PSync1 rest j) (with_clean false s)
  | CConf => with_ph (Busy CConf PSync1 rest j) s
  end.
(** The end of a pipeline.  Attach and load: _ocf_mngt_cache_attach_finish, ocf_mngt_cache.c:2052-2063.
    Stop goes on after a failed save (2215-2223) and reports it (2394-2407); detach goes on after a
    failed zeroing and does not report it (2236-2249, 3865-3866). *)
Definition finish (j : job) (ok : bool) (s : mach) : mach :=
  match j with
  | JAttach | JLoad => tell j ok (if ok then Run else Off) s
  | JStop => tell j ok Off s
  | JDetach => tell j true Off s
  | JConf => tell j ok Run s
  end.
Definition next_cmd (rest : list cmd) (j : job) (s : mach) : mach :=
  match rest with [] => finish j true s | c :: rest => start c rest j s end.

Inductive label :=
  | Attach (force : bool) (f : nat -> N)   (* f: the initial run-time metadata *)
  | Load (f : nat -> N)                    (* f: what a rebuild leaves, ocf_mngt_cache.c:717-722 *)
  | Stop | Detach | Conf
  | Change (i : nat) (v : N)               (* a running cache changes its metadata *)
  | Put (i : nat)                          (* and writes a page of it *)
  | Go (did ok : bool)                     (* the next step of the pipeline; did: a failed one had its effect *)
  | Cut (mask : list bool).                (* power cut *)

Section Marks.
Variable n : nat.
Variable crc : list N -> list N.
(** ocf_mngt_cache_is_dirty, ocf_mngt_flush.c:117-133: the counters of the cores, part of the metadata *)
Variable dirty : list N -> bool.

Definition row (f : nat -> N) : list N := map f (seq 0 n).

(** The step at position [p]: its effect *)
Definition effect (p : pos) (s : mach) : mach :=
  match p with
  | PZero => write (WSb None) s
  | PPage i => write (WPg i (m_pages s i)) s
  | PSync1 | PSync2 => flush s
  | PSb => write (WSb (Some {| s_clean := m_clean s; s_flushed := m_flushed s; s_sum := m_sum s |})) s
  end.
(** and where it goes next.  After the last page: ocf_metadata_calculate_crc (metadata.c:1097-1100),
    ocf_metadata_flush_all_set_status(clean) (1031-1042, 1101-1102). *)
Definition advance (c : cmd) (p : pos) (rest : list cmd) (j : job) (s : mach) : mach :=
  match p with
  | PZero => next_cmd rest j s
  | PPage i => with_ph (Busy c (PPage (S i)) rest j) s
  | PSync1 => with_ph (Busy c PSb rest j) s
  | PSb => with_ph (Busy c PSync2 rest j) s
  | PSync2 => next_cmd rest j s
  end.
Definition all_pages (c : cmd) (rest : list cmd) (j : job) (s : mach) : mach :=
  with_ph (Busy c PSync1 rest j) (with_clean true (with_sum (crc (row (m_pages s))) s)).

Definition go (did ok : bool) (c : cmd) (p : pos) (rest : list cmd) (j : job) (s : mach) : mach :=
  match p with
  | PPage i =>
      if n <=? i then all_pages c rest j s
      else if ok then advance c p rest j (effect p s)
      else finish j false (if did then effect p s else s)
  | _ =>
      if ok then advance c p rest j (effect p s)
      else finish j false (if did then effect p s else s)
  end.

(** Metadata of a running cache changes, also while its configuration is being saved; attach, load,
    stop and detach have frozen the metadata reference counter (ocf_mngt_cache.c:2139-2147, 3788-3796)
    or not yet released it *)
Definition live (p : phase) : bool :=
  match p with Run | Busy _ _ _ JConf => true | _ => false end.

Definition exec (l : label) (s : mach) : option mach :=
  match l with
  | Attach force f =>
      (* ocf_mngt_cache.c:2065-2091, 1257-1275, 1320-1331, 1446 *)
      match ph s with
      | Off =>
          if force || match d_sb (view s) with None => true | Some _ => false end
          then Some (start CZero [CSave; CMark] JAttach (with_flushed true (with_clean false (with_mem f s))))
          else Some (tell JAttach false Off s)
      | _ => None
      end
  | Load f =>
      (* ocf_mngt_cache.c:2093-2119, 1277-1301, 817-832, metadata.c:1232-1277
         (ocf_metadata_load_all checks the checksums) *)
      match ph s with
      | Off =>
          match d_sb (view s) with
          | None => Some (tell JLoad false Off s)
          | Some x =>
              if s_clean x && negb (if list_eq_dec N.eq_dec (crc (row (d_pages (view s)))) (s_sum x) then true else false)
              then Some (tell JLoad false Off s)
              else Some (start CMark [CSave; CMark] JLoad
                     (with_flushed (s_flushed x) (with_sum (s_sum x)
                        (with_mem (if s_clean x then d_pages (view s) else f) s))))
          end
      | _ => None
      end
  | Stop =>
      (* ocf_mngt_cache.c:2415-2430, 2149-2169 *)
      match ph s with
      | Run => Some (start CSave [] JStop (with_flushed (negb (dirty (row (m_pages s)))) s))
      | _ => None
      end
  | Detach =>
      (* ocf_mngt_cache.c:3880-3897, 2149-2169; dirty data here is ENV_BUG_ON, 3843 *)
      match ph s with
      | Run => if dirty (row (m_pages s)) then None else Some (start CZero [] JDetach (with_flushed true s))
      | _ => None
      end
  | Conf => match ph s with Run => Some (start CConf [] JConf s) | _ => None end
  | Change i v => if live (ph s) && (i <? n) then Some (with_mem (setp (m_pages s) i v) s) else None
  | Put i => if live (ph s) && (i <? n) then Some (write (WPg i (m_pages s i)) s) else None
  | Go did ok =>
      match ph s with
      | Busy c p rest j => Some (go did ok c p rest j s)
      | _ => None
      end
  | Cut mask =>
      Some {| dur := applys (survive mask (pend s)) (dur s); pend := []; m_pages := m_pages s;
              m_clean := m_clean s; m_flushed := m_flushed s; m_sum := m_sum s; ph := Off; told := None |}
  end.

Fixpoint execs (ls : list label) (s : mach) : option mach :=
  match ls with
  | [] => Some s
  | l :: ls => match exec l s with Some s => execs ls s | None => None end
  end.
End Marks.

(** A device that never held a cache *)
Definition blank (f : nat -> N) : mach :=
  {| dur := {| d_sb := None; d_pages := f |}; pend := []; m_pages := f; m_clean := false; m_flushed := false;
     m_sum := []; ph := Off; told := None |}.

(** ocf_metadata_probe_cmpl, metadata.c:1775-1807, on a superblock that was read.  The status is
    passed to the caller with the error, or not (NULL); on a version mismatch name, mode and line size
    are left uninitialised. *)
Import SbLoadModel.
Local Open Scope Z_scope.
Record status := { p_clean : bool; p_dirty : bool; p_rest : option (list N * Z * N) }.
Definition probe (b : sb) : Z * option status :=
  if negb (magic_number b =? MAGIC)%N then (- ERR_NO_METADATA, None)
  else if (CLEAN <? clean_shutdown b)%N then (- ERR_INVAL, None)
  else if (DIRTY_FLUSHED <? dirty_flushed b)%N then (- ERR_INVAL, None)
  else
    let c := negb (clean_shutdown b =? 0)%N in
    let d := (dirty_flushed b =? 0)%N in
    if negb (VERSION =? metadata_version b)%N
    then (- ERR_METADATA_VER, Some {| p_clean := c; p_dirty := d; p_rest := None |})
    else (0, Some {| p_clean := c; p_dirty := d; p_rest := Some (name b, cache_mode b, line_size b) |}).

(** Saving and loading the cache configuration:
    /repo/src/metadata/metadata_superblock.c, /repo/src/metadata/metadata_segment.c.

    The configuration is the superblock (one page: struct ocf_superblock_config is smaller
    than 4 KiB) and three segments (partitions, cores, UUIDs) of any number of pages, of
    which the device holds two copies each (ocf_metadata_is_flapped,
    /repo/src/metadata/metadata.c:195-218).  Writing one page is atomic; the device keeps
    written pages in a volatile cache until it is flushed.  The runtime segments, which are
    only valid after a clean shutdown, are left out. *)
From Coq Require Import List Bool Arith.
Import ListNotations.
Open Scope nat_scope.

(** The configuration in memory: superblock fields and contents of the segments' pages. *)
Record config := { c_pay : nat; c_pg : nat -> nat -> nat }.

(** struct ocf_superblock_config on the device. *)
Record sb := { s_pay : nat; s_flap : bool; s_sum : nat -> nat }.
Record disk := { d_sb : sb; d_pg : nat -> bool -> nat -> nat }.     (* segment, copy, page *)

Inductive wr := WSeg (k : nat) (copy : bool) (p v : nat) | WSb (x : sb).
Inductive op := Wr (w : wr) | Fl | Flap.

(** [flap]: flapping_idx in memory; [pend]: pages in the volatile cache, oldest first. *)
Record st := { dk : disk; pend : list wr; flap : bool }.

Definition apply (w : wr) (d : disk) : disk :=
  match w with
  | WSeg k c p v => {| d_sb := d_sb d; d_pg := fun k' c' p' => if (k' =? k) && Bool.eqb c' c && (p' =? p) then v else d_pg d k' c' p' |}
  | WSb x => {| d_sb := x; d_pg := d_pg d |}
  end.
Definition apply_all (ws : list wr) (d : disk) : disk := fold_left (fun d w => apply w d) ws d.

Section Sb.
Variable np : nat -> nat.                   (* pages of each segment *)
Variable crc : nat -> list nat -> nat.      (* checksum of a segment *)

Definition pages (pg : nat -> nat -> nat) (k : nat) : list nat := map (pg k) (seq 0 (np k)).

(** ocf_metadata_flush_segment for the three segments, to copy
    ocf_metadata_superblock_get_next_flapping_idx (metadata_segment.c:110-126). *)
Definition seg_writes (c : config) (copy : bool) : list wr :=
  concat (map (fun k => map (fun p => WSeg k copy p (c_pg c k p)) (seq 0 (np k))) (seq 0 3)).
(** ocf_metadata_calculate_crc (metadata_segment.c:97-108), ocf_metadata_flush_superblock_flap
    and ocf_metadata_calculate_crc_sb_config (metadata_superblock.c:437-467). *)
Definition sb_of (c : config) (f : bool) : sb := {| s_pay := c_pay c; s_flap := f; s_sum := fun k => crc k (pages (c_pg c) k) |}.

(** ocf_metadata_flush_sb_pipeline_props (metadata_superblock.c:512-535). *)
Definition prog (c : config) (f : bool) : list op :=
  map Wr (seg_writes c (negb f)) ++ [Fl; Flap; Wr (WSb (sb_of c (negb f))); Fl].

Definition exec (o : op) (s : st) : st :=
  match o with
  | Wr w => {| dk := dk s; pend := pend s ++ [w]; flap := flap s |}
  | Fl => {| dk := apply_all (pend s) (dk s); pend := []; flap := flap s |}
  | Flap => {| dk := dk s; pend := pend s; flap := negb (flap s) |}
  end.
Definition execs (l : list op) (s : st) : st := fold_left (fun s o => exec o s) l s.

(** How a save ended: success, or step [i] failed; [did]: the device did what it reported
    as failed. *)
Inductive outcome := Good | Bad (i : nat) (did : bool).

(** ocf_metadata_flush_superblock and its finish handler (metadata_superblock.c:469-488). *)
Definition save (c : config) (o : outcome) (s : st) : st :=
  let l := prog c (flap s) in
  match o with
  | Good => execs l s
  | Bad i did =>
    let s1 := execs (firstn i l) s in
    let s2 := match nth_error l i with Some (Wr w) => if did then exec (Wr w) s1 else s1 | Some Fl => if did then exec Fl s1 else s1 | _ => s1 end in
    {| dk := dk s2; pend := pend s2; flap := negb (flap s2) |}
  end.
Definition saves (h : list (config * outcome)) (s : st) : st := fold_left (fun s co => save (fst co) (snd co) s) h s.

(** A crash: some of the pages in the volatile cache reach the device. *)
Fixpoint pick (m : list bool) (l : list wr) : list wr :=
  match m, l with b :: m, w :: l => if b then w :: pick m l else pick m l | _, _ => [] end.
Definition crash (m : list bool) (s : st) : disk := apply_all (pick m (pend s)) (dk s).

(** ocf_metadata_load_superblock_recovery (metadata_superblock.c:371-394; ocf_metadata_check_crc,
    metadata_segment.c:74-95): the superblock,
    the copy it names, and the checksums.  The superblock page is written whole, so its own
    checksum and limits hold. *)
Definition load (d : disk) : option (nat * list (list nat)) :=
  let f := s_flap (d_sb d) in
  let seg := fun k => pages (fun k => d_pg d k f) k in
  if forallb (fun k => crc k (seg k) =? s_sum (d_sb d) k) (seq 0 3)
  then Some (s_pay (d_sb d), map seg (seq 0 3)) else None.
End Sb.

(** Composite volume: /repo/src/ocf_composite_volume.c, and the merging of
    metadata pages for a flush, /repo/src/metadata/metadata_raw.c:449-640.
    Numbers are uint64_t with wrap-around where the C code can wrap. *)
From Coq Require Import List Bool NArith.
From Verif Require Import FwdModel.
Import ListNotations.
Open Scope N_scope.

Definition W : N := 2 ^ 64.
Definition addw (a b : N) : N := (a + b) mod W.
Definition subw (a b : N) : N := (a + W - b) mod W.

(** A member as the forward functions see it: its end address and whether it is
    opened. ocf_composite_volume.c:20-28. *)
Record member := { m_end : N; m_open : bool }.

(** ocf_composite_volume.c:267-293 [ocf_composite_volume_open]: end_addr[i] is the
    running sum of the lengths ([len]); all members opened. *)
Fixpoint open_from (len : N) (lens : list N) : list member :=
  match lens with
  | [] => []
  | l :: r => let len' := addw len l in {| m_end := len'; m_open := true |} :: open_from len' r
  end.
Definition comp_open (lens : list N) : list member := open_from 0 lens.
(** composite->length after open. *)
Definition comp_length (ms : list member) : N := last (map m_end ms) 0.

(** One call of ocf_forward_io (or discard, write_zeros, metadata) on a member. *)
Record part := { p_idx : nat; p_addr : N; p_bytes : N; p_off : N }.

(** ocf_composite_volume.c:56-71, the second loop; [i]: index of the first member
    of [ms]. Result: the forwards and [false] iff it stopped at a closed member. *)
Fixpoint split_go (ms : list member) (i : nat) (addr caddr bytes off : N) : list part * bool :=
  match ms with
  | [] => ([], true)
  | m :: r =>
      if bytes =? 0 then ([], true)
      else if negb (m_open m) then ([], false)
      else
        let mb := N.min bytes (subw (m_end m) caddr) in
        let '(ps, ok) := split_go r (S i) 0 (m_end m) (subw bytes mb) (addw off mb) in
        ({| p_idx := i; p_addr := addr; p_bytes := mb; p_off := off |} :: ps, ok)
  end.

(** ocf_composite_volume.c:43-54, the first loop: the remaining members from the
    first one with addr < end_addr[i], its index, the address inside it; [prev]:
    end_addr[i-1]. *)
Fixpoint find (ms : list member) (i : nat) (prev addr : N) : list member * nat * N :=
  match ms with
  | [] => ([], i, addr)
  | m :: r => if m_end m <=? addr then find r (S i) (m_end m) addr else (ms, i, subw addr prev)
  end.

Inductive outcome := Bug | Fwds (l : list part) (ok : bool).

(** ocf_composite_volume.c:30-75 [ocf_composite_forward_io]; the loops of
    [ocf_composite_forward_discard] (91-133), [_write_zeros] (135-178) and
    [_metadata] (180-225) are the same ones. *)
Definition comp_forward (ms : list member) (addr bytes off : N) : outcome :=
  if comp_length ms <=? addr then Bug
  else if comp_length ms <? addw addr bytes then Bug
  else
    let '(rest, i, a) := find ms 0 0 addr in
    match rest with
    | m :: _ => if negb (m_open m) then Fwds [] false
                else let '(l, ok) := split_go rest i a addr bytes off in Fwds l ok
    | [] => Fwds [] true
    end.

(** ocf_composite_volume.c:227-263 [ocf_composite_forward_io_simple]; reading
    end_addr beyond the last member cannot happen since addr < length. [None] in
    the list position: error code EIO, nothing forwarded. *)
Definition comp_simple (ms : list member) (addr bytes : N) : outcome :=
  if comp_length ms <=? addr then Bug
  else if comp_length ms <? addw addr bytes then Bug
  else
    let '(rest, i, a) := find ms 0 0 addr in
    match rest with
    | m :: _ => if negb (m_open m) then Fwds [] false
                else if m_end m <? addw addr bytes then Fwds [] false
                else Fwds [{| p_idx := i; p_addr := a; p_bytes := bytes; p_off := 0 |}] true
    | [] => Bug
    end.

(** The instructions executed with the token (FwdModel.v): get of the outer
    forward, one forward per part on a plain device, the final forward_end. *)
Definition comp_prog (l : list part) (ok : bool) : vol := VComp (map (fun _ => VDev) l) ok.

(** ** Flush of the metadata of a request *)

(** req->map entry: coll_idx and the flush flag, ocf_request.h:66-97. *)
Record mapent := { me_line : N; me_flush : bool }.

(** metadata_raw.c:428-436 [_raw_ram_flush_mark] for map index [i]; [st]: to_state is
    DIRTY or CLEAN. State: the map and req->info.flush_metadata. *)
Definition mark (i : nat) (st : bool) (s : list mapent * bool) : list mapent * bool :=
  if st then
    match nth_error (fst s) i with
    | Some e => (upd (fst s) i {| me_line := me_line e; me_flush := true |}, true)
    | None => s
    end
  else s.

(** metadata_raw.c:524-540 [__raw_ram_flush_do_asynch_add_pages]; _RAW_RAM_PAGE:
    metadata_raw.c:73-74 (line / entries_in_page). *)
Fixpoint add_pages (epp : N) (l : list mapent) : list N :=
  match l with
  | [] => []
  | e :: r => if me_flush e then (me_line e / epp) :: add_pages epp r else add_pages epp r
  end.

(** metadata_raw.c:597-631, the merging loop over the sorted table; [cur] =
    pages_tab[i], [rest] = what follows. Pairs (start_page, count). *)
Fixpoint merge (start count cur : N) (rest : list N) : list (N * N) :=
  match rest with
  | [] => [(start, count)]
  | q :: r =>
      if cur =? q then merge start count q r
      else if cur + 1 =? q then merge start (count + 1) q r
      else (start, count) :: merge q 1 q r
  end.

(** The writes submitted, given the sorted table. *)
Definition flush_runs (sorted : list N) : list (N * N) :=
  match sorted with [] => [] | p :: r => merge p 1 p r end.

(** Pages of a write (relative to ssd_pages_offset). *)
Definition run_pages (x : N * N) : list N := map (fun k => fst x + N.of_nat k) (seq 0 (N.to_nat (snd x))).

(** metadata_raw.c:542-640 [_raw_ram_flush_do_asynch]: pages written in order.
    [flush_metadata]: req->info.flush_metadata; [sort]: env_sort. *)
Definition flush_do (sort : list N -> list N) (epp : N) (flush_metadata : bool) (l : list mapent) : list N :=
  if flush_metadata then flat_map run_pages (flush_runs (sort (add_pages epp l))) else [].

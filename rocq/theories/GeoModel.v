(** Geometry of a request: its cache lines and sectors, and the I/Os sent to the
    cache device for it.

    Models /repo/src/ocf_request.c:211-218 (line range of a request),
    /repo/src/utils/utils_cache_line.h:217-237 (sector range of a line),
    /repo/src/engine/engine_common.c:96-186, 211-247 and
    /repo/src/engine/engine_common.h:132-136 (is the request physically
    contiguous), /repo/src/engine/engine_io.c:37-107 (cache I/O of a request).

    Unsigned 64-bit wrap-around is explicit.  Simplified: the part of
    [ocf_engine_update_req_info] that does not concern contiguity is reduced to
    one flag per entry (are the requested sectors valid). *)
From Coq Require Import NArith List Bool.
Import ListNotations.
Open Scope N_scope.

Definition u64 (x : N) : N := x mod 2^64.

(** BYTES_TO_SECTORS (ocf_def_priv.h): a shift by 9. *)
Definition b2s (x : N) : N := x / 512.

(** A request: byte address, byte length; [lsz]: ocf_line_size in bytes;
    ocf_line_sectors = lsz / 512. *)
Record greq := { g_addr : N; g_bytes : N }.
Definition lsec (lsz : N) : N := lsz / 512.

(** ocf_request.c:211-218 (the branch for [bytes] different from 0). *)
Definition line_first (lsz : N) (r : greq) : N := g_addr r / lsz.
Definition line_last (lsz : N) (r : greq) : N := u64 (u64 (g_addr r + g_bytes r) + (2^64 - 1)) / lsz.
Definition line_count (lsz : N) (r : greq) : N :=
  u64 (u64 (line_last lsz r + (2^64 - line_first lsz r)) + 1).

(** utils_cache_line.h:217-226 and 228-237; the result type is uint8_t. *)
Definition start_sector (lsz : N) (r : greq) (i : N) : N :=
  (if i =? 0 then b2s (g_addr r) mod lsec lsz else 0) mod 256.
Definition end_sector (lsz : N) (r : greq) (i : N) : N :=
  (if i =? line_count lsz r - 1
   then b2s (u64 (u64 (g_addr r + g_bytes r) + (2^64 - 1))) mod lsec lsz
   else lsec lsz - 1) mod 256.

(** ** Contiguity *)
(** Status of a map entry: miss, or cache line, with the flag whether it was
    found by lookup (true) or freshly mapped (false), and whether the requested
    sectors are valid. *)
Inductive mstat := Miss | Found (c : N) (valid : bool) | Remapped (c : N).
Definition coll (m : mstat) : option N :=
  match m with Miss => None | Found c _ | Remapped c => Some c end.

(** engine_common.c:96-114 [ocf_engine_clines_phys_cont]. *)
Definition phys_cont (m : nat -> mstat) (j : nat) : bool :=
  match coll (m j), coll (m (S j)) with
  | Some p1, Some p2 => (p1 <? p2) && (p1 + 1 =? p2)
  | _, _ => false
  end.

Record info := { hit_no : nat; invalid_no : nat; insert_no : nat; seq_no : nat }.
Definition info0 := {| hit_no := 0; invalid_no := 0; insert_no := 0; seq_no := 0 |}.

(** engine_common.c:132-186 [ocf_engine_update_req_info] for entry [j]; called by
    ocf_engine_lookup (:211-247) and ocf_engine_check (:255-307) for every entry
    that is not a miss, in ascending order. *)
Definition update_info (m : nat -> mstat) (j : nat) (x : info) : info :=
  match m j with
  | Miss => x
  | s =>
      {| hit_no := hit_no x + (match s with Found _ true => 1 | _ => 0 end);
         invalid_no := invalid_no x + (match s with Found _ false => 1 | _ => 0 end);
         insert_no := insert_no x + (match s with Remapped _ => 1 | _ => 0 end);
         seq_no := seq_no x + (match j with O => 0 | S i => if phys_cont m i then 1 else 0 end) |}
  end.
Definition scan (m : nat -> mstat) (n : nat) : info :=
  fold_left (fun x j => update_info m j x) (seq 0 n) info0.

(** engine_common.c:116-130 [ocf_engine_patch_req_info]: entry [j] was just mapped
    to [c] (ocf_lru.c calls it for each line obtained by eviction). *)
Definition upd_stat (m : nat -> mstat) (j : nat) (s : mstat) : nat -> mstat :=
  fun i => if Nat.eqb i j then s else m i.
Definition patch_info (m : nat -> mstat) (n j : nat) (x : info) : info :=
  {| hit_no := hit_no x; invalid_no := invalid_no x; insert_no := insert_no x + 1;
     seq_no := seq_no x
       + (match j with O => 0 | S i => if phys_cont m i then 1 else 0 end)
       + (if Nat.ltb (j + 1) n then if phys_cont m j then 1 else 0 else 0) |}.
Fixpoint patches (m : nat -> mstat) (n : nat) (x : info) (l : list (nat * N))
  : (nat -> mstat) * info :=
  match l with
  | [] => (m, x)
  | (j, c) :: l' =>
      let m' := upd_stat m j (Remapped c) in patches m' n (patch_info m' n j x) l'
  end.

(** engine_common.h:132-136 [ocf_engine_is_sequential]. *)
Definition is_sequential (x : info) (n : nat) : bool :=
  Nat.eqb (hit_no x + insert_no x) n && Nat.eqb (seq_no x) (n - 1).

(** ** Cache I/O of a request: engine_io.c:37-107 *)
Record cio := { io_addr : N; io_bytes : N; io_off : N }.

(** :73-83, the merging loop: [rest]: map entries after the current one. *)
Fixpoint merge (lsz mo : N) (rest : list N) (addr bytes addr_next : N)
  : N * list N * N :=
  match rest with
  | [] => (bytes, [], addr_next)
  | c :: r =>
      let an := u64 (u64 (c * lsz) + mo) in
      if an =? u64 (addr + bytes) then merge lsz mo r addr (bytes + lsz) an
      else (bytes, rest, an)
  end.

(** :56-102, the outer loop; [first]: i = 0; [rest]: map entries from i on; [None]:
    ENV_BUG_ON.  [fuel] is at least the number of entries. *)
Fixpoint fwd_loop (lsz mo addr0 len : N) (fuel : nat) (first : bool) (rest : list N)
    (addr_next total : N) : option (list cio) :=
  match rest with
  | [] => if total =? len then Some [] else None
  | c :: r =>
      match fuel with
      | O => None
      | S f =>
          let addr := if addr_next =? 0 then u64 (u64 (c * lsz) + mo) else addr_next in
          let seek := if first then addr0 mod lsz else 0 in
          let addr := u64 (addr + seek) in
          let '(bytes, rest', an) := merge lsz mo r addr (lsz - seek) addr_next in
          let skip := match rest' with
                      | [] => (lsz - u64 (addr0 + len) mod lsz) mod lsz
                      | _ => 0 end in
          let bytes := N.min (bytes - skip) (len - total) in
          if bytes =? 0 then None
          else match fwd_loop lsz mo addr0 len f false rest' an (total + bytes) with
               | None => None
               | Some l => Some ({| io_addr := addr; io_bytes := bytes; io_off := total |} :: l)
               end
      end
  end.

(** [ocf_engine_forward_cache_io_req]: [map]: coll_idx of the entries, [mo]:
    metadata_offset, [sq]: ocf_engine_is_sequential; the data offset is relative
    to [req->offset]. *)
Definition forward_cache_io (lsz mo : N) (r : greq) (map : list N) (sq : bool)
  : option (list cio) :=
  if sq then
    Some [{| io_addr := u64 (mo + hd 0 map * lsz + g_addr r mod lsz);
             io_bytes := g_bytes r; io_off := 0 |}]
  else fwd_loop lsz mo (g_addr r) (g_bytes r) (length map) true map 0 0.

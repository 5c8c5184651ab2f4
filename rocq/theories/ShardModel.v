(** How the parallel passes over the cache divide the cache lines (or hash buckets)
    between shards.  [e]: number of entries, [n]: shards_cnt, [s]: shard_id; the result is
    the list of entries the shard's handler processes, in order. *)
From Coq Require Import NArith List.
From Verif Require Import GenModel.
Import ListNotations.
Open Scope N_scope.

(** OCF_DIV_ROUND_UP((uint64_t)x, y) (/repo/src/ocf_def_priv.h:19-24). *)
Definition div_round_up64 (x y : N) : N := ((x + y - 1) mod 2^64) / y.

(** for (c = b; c < e; c++) with 32-bit c; [k] counts the iterations. *)
Fixpoint upto (k : nat) (b : N) : list N := match k with O => [] | S k => b :: upto k (b + 1) end.
Definition range (b e : N) : list N := if b <? e then upto (N.to_nat (e - b)) b else [].

(** ocf_metadata_init_collision_handle (/repo/src/metadata/metadata.c:836-858),
    ocf_metadata_init_hash_table_handle (lines 900-923), ocf_acp_populate_handle
    (/repo/src/cleaning/acp.c:330-334): all products in 32 bits. *)
Definition shard_contig32 (e n s : N) : list N :=
  let portion := u32 (div_round_up64 e n) in
  let b := u32 (portion * s) in
  let en := N.min (u32 (portion * u32 (s + 1))) e in
  filter (fun c => c <? e) (range b en).
(** ocf_alru_populate_handle (/repo/src/cleaning/alru.c:474-483): end in 64 bits. *)
Definition shard_contig64 (e n s : N) : list N :=
  let portion := u32 (div_round_up64 e n) in
  let b := u32 (portion * s) in
  let en := u32 (N.min (portion * u32 (s + 1)) e) in
  range b en.

(** ocf_mngt_rebuild_metadata_handle (/repo/src/mngt/ocf_mngt_cache.c:591-595): strides;
    None: the loop did not end within [fuel] iterations. *)
Fixpoint stride (fuel : nat) (e n c : N) : option (list N) :=
  match fuel with
  | O => None
  | S fuel => if c <? e then match stride fuel e n (u32 (c + n)) with Some l => Some (c :: l) | None => None end else Some []
  end.
Definition shard_stride (e n s : N) : option (list N) := stride (S (N.to_nat e)) e n s.

(** ocf_lru_populate_handle (/repo/src/ocf_lru.c:885-905): the lines put on free list
    [s]; None: the generator is undefined for this portion. *)
Definition shard_populate (e n s : N) : option (list N) :=
  let portion := u32 (div_round_up64 e n) in
  let offset := u32 (s * portion) / n in
  match gen_init portion offset with
  | None => None
  | Some g =>
    match gen_calls (N.to_nat portion) g with
    | None => None
    | Some (l, _) => Some (filter (fun c => c <? e) (map (fun idx => u32 (u32 (idx * n) + s)) l))
    end
  end.

(** ocf_parallelize_create (/repo/src/utils/utils_parallelize.c:72-75): number of shards
    for a requested number and a number of queues. *)
Definition shards_cnt (wanted queues : N) : N := if wanted =? 0 then (if queues =? 0 then 1 else queues) else wanted.

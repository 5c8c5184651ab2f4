(** Simple I/O to the cache device on behalf of management operations:
    /repo/src/utils/utils_io.c:14-199 (flush, discard, writing zeros, one page) and
    reading the superblock of a volume that is not attached,
    /repo/src/metadata/metadata_superblock.c:654-721.
    What these functions hand to the device is run by the forward counter of FwdModel.v: any
    number of I/Os in flight, ending in any order on any thread.
    Simplified: the data carried; error codes are numbers, 0 = success. *)
From Coq Require Import List Bool Arith NArith.
From Verif Require Import FwdModel.
Import ListNotations.
Open Scope N_scope.

(** 64-bit and 32-bit arithmetic. *)
Definition u64 (x : N) : N := x mod 2 ^ 64.
Definition u32 (x : N) : N := x mod 2 ^ 32.

(** What is allocated or referenced: the context, the request, the queue by the request
    (ocf_req_new_mngt, /repo/src/ocf_request.c:101-116; ocf_req_put, 384-408), the data buffer. *)
Inductive thing := Ctx | Req | QRef | Data.
(** Events: allocation, release, the caller's completion function called with a code. *)
Inductive sev := Take (x : thing) | Give (x : thing) | Cmpl (e : N).

(** A call: what is done at once; what it returns to the caller; the program of the submitting
    thread, if it came to this; the I/Os it submits (address, length); the callback of the
    forward ([None]: a NULL pointer). *)
Record call := {
  now : list sev; ret : N; program : option (list instr); ios : list (N * N);
  cb : option (N -> list sev) }.

Definition ENOMEM : N := 3. (* -OCF_ERR_NO_MEM *)

(** The loop of discarding, utils_io.c:82-89 (and of writing zeros, 116-123):
    at most [max] bytes at a time. *)
Fixpoint pieces (fuel : nat) (max addr len : N) : list (N * N) :=
  match fuel with
  | O => []
  | S fuel =>
    if len =? 0 then []
    else
      let bytes := N.min len max in
      (addr, bytes) :: pieces fuel max (u64 (addr + bytes)) (len - bytes)
  end.
(** Enough turns of the loop ([split_complete] in the proofs). *)
Definition split (max addr len : N) : list (N * N) := pieces (N.to_nat (len / max + 1)) max addr len.

(** utils_io.c:60-61: sector_mask, max_length (ENV_SECTOR_SHIFT = 9, /repo/env/posix/ocf_env.h:41). *)
Definition sector_mask : N := 2 ^ 9 - 1.
Definition discard_max : N := N.land (2 ^ 32 - 1) (N.lxor (2 ^ 64 - 1) sector_mask).
(** utils_io.c:98: ~((uint32_t)PAGE_SIZE - 1) in 32 bits. *)
Definition zeros_max : N := N.lxor (2 ^ 32 - 1) (4096 - 1).

(** ocf_submit_cache_end, utils_io.c:20-27. *)
Definition submit_end (e : N) : list sev := [Cmpl e; Give Ctx; Give Req; Give QRef].

(** The part common to flush, discard and writing zeros: the context or the request cannot be
    allocated (utils_io.c:35-47, 64-76, 101-113). *)
Definition with_ctx_req (no_ctx no_req : bool) (k : call) : call :=
  if no_ctx then {| now := [Cmpl ENOMEM]; ret := 0; program := None; ios := []; cb := None |}
  else if no_req then
    {| now := [Take Ctx; Cmpl ENOMEM; Give Ctx]; ret := 0; program := None; ios := []; cb := None |}
  else k.
Definition taken : list sev := [Take Ctx; Take Req; Take QRef].

(** What the cache volume does with each I/O (FwdModel.v), one for each. *)
Definition volumes (v : nat -> vol) (l : list (N * N)) : list vol := map v (seq 0 (length l)).

(** ocf_submit_cache_flush, utils_io.c:29-53. *)
Definition flush (no_ctx no_req : bool) (v : nat -> vol) : call :=
  with_ctx_req no_ctx no_req
    {| now := taken; ret := 0; program := Some (cache_io_req_seq (v 0%nat)); ios := [];
       cb := Some submit_end |}.

(** ocf_submit_cache_discard, utils_io.c:55-91. *)
Definition discard (no_ctx no_req : bool) (v : nat -> vol) (addr len : N) : call :=
  let l := split discard_max addr len in
  with_ctx_req no_ctx no_req
    {| now := taken; ret := 0; program := Some (cache_io_req (volumes v l)); ios := l;
       cb := Some submit_end |}.

(** ocf_submit_cache_write_zeros, utils_io.c:93-125: without ocf_req_forward_cache_init; the
    request comes zeroed from ocf_req_new_mngt.  [bytes] is 32 bits wide. *)
Definition write_zeros (no_ctx no_req : bool) (v : nat -> vol) (addr len : N) : call :=
  let l := map (fun p => (fst p, u32 (snd p))) (split zeros_max addr len) in
  with_ctx_req no_ctx no_req
    {| now := taken; ret := 0; program := Some (IGet :: flat_map fwd (volumes v l) ++ [IPut]);
       ios := l; cb := None |}.

(** ocf_submit_cache_page, utils_io.c:150-199, with its callback (134-148). *)
Definition page_end (e : N) : list sev := [Cmpl e; Give Data; Give Ctx; Give Req; Give QRef].
Definition page (no_ctx no_req no_data : bool) (v : nat -> vol) (addr : N) : call :=
  if no_ctx then {| now := [Cmpl ENOMEM]; ret := 0; program := None; ios := []; cb := None |}
  else if no_req then
    {| now := [Take Ctx; Give Ctx; Cmpl ENOMEM]; ret := 0; program := None; ios := []; cb := None |}
  else if no_data then
    {| now := taken ++ [Give Req; Give QRef; Give Ctx; Cmpl ENOMEM]; ret := 0; program := None;
       ios := []; cb := None |}
  else
    {| now := taken ++ [Take Data]; ret := 0; program := Some (cache_io_req_seq (v 0%nat));
       ios := [(addr, 4096)]; cb := Some page_end |}.

(** ocf_metadata_read_sb, metadata_superblock.c:674-721, with its callback (654-672); [pages] is the
    size of the superblock in pages.  A failure is returned, not reported through the callback. *)
Definition read_sb_end (e : N) : list sev := [Give Data; Cmpl e; Give Ctx; Give Req].
Definition read_sb (no_ctx no_req no_data : bool) (v : nat -> vol) (pages : N) : call :=
  if no_ctx then {| now := []; ret := ENOMEM; program := None; ios := []; cb := None |}
  else if no_req then
    {| now := [Take Ctx; Give Ctx]; ret := ENOMEM; program := None; ios := []; cb := None |}
  else if no_data then
    {| now := [Take Ctx; Take Req; Give Req; Give Ctx]; ret := ENOMEM; program := None; ios := []; cb := None |}
  else
    {| now := [Take Ctx; Take Req; Take Data]; ret := 0; program := Some (cache_io_req_seq (v 0%nat));
       ios := [(0, pages * 4096)]; cb := Some read_sb_end |}.

(** All events up to a moment: [l] is what the submitting thread and the devices have done. [None]: no such behaviour;
    [Some None]: a NULL pointer has been called. *)
Definition events (k : call) (l : list ev) : option (option (list sev)) :=
  match program k with
  | None => match l with [] => Some (Some (now k)) | _ => None end
  | Some p =>
    match run l (start p) with
    | None => None
    | Some c =>
      match calls c, cb k with
      | [], _ => Some (Some (now k))
      | es, Some f => Some (Some (now k ++ flat_map f es))
      | _, None => Some None
      end
    end
  end.
(** Nothing is left to be done: the submitter and all forward_ends have finished. *)
Definition over (k : call) (l : list ev) : Prop :=
  match program k with
  | None => True
  | Some p => match run l (start p) with
              | Some c => prog c = [] /\ Forall (fun t => exists e, t = Fin e) (thr c)
              | None => False
              end
  end.

(** _ocf_mngt_attach_discard, /repo/src/mngt/ocf_mngt_cache.c:1904-1925; [None]: the step is skipped.
    The volume has [vlen] bytes, the data area begins at [moff]. *)
Definition attach_discard (on_start zeroes atomic no_ctx no_req : bool) (v : nat -> vol) (moff vlen : N) : option call :=
  let len := u64 (vlen + 2 ^ 64 - moff) in
  if negb on_start then None
  else if negb zeroes && atomic then Some (write_zeros no_ctx no_req v moff len)
  else Some (discard no_ctx no_req v moff len).

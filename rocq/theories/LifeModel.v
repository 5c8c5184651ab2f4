(** What a cache instance acquires and releases over its life: starting, attaching and loading a
    cache device, standby, activation, detaching and stopping, each with a failure at any point
    that can fail.  /repo/src/mngt/ocf_mngt_cache.c unless another file is named.

    Each management operation is a pipeline (utils_pipeline.c, PipelineModel.v): a list of steps
    run in turn, where a step continues ("ocf_pipeline_next"), ends the operation
    ("ocf_pipeline_finish" with an error), does neither (the operation never completes) or hits
    an ENV_BUG_ON or a NULL pointer.  Asynchronous completions are collapsed into their step.

    Every acquisition and release is written to a log.  A thing acquired is named by the place
    that holds the handle to it (a field of the cache, device or core object, or a local).

    Not modelled: the contents of metadata, I/O (an I/O can only fail), which error code is
    returned, the I/O queues, the members of the allocated objects (e.g. the section objects
    behind ocf_metadata_init_variable_size: SegLifeModel.v), adding and removing cores by hand
    (CoreModel.v), composite cache volumes, other users holding references to the cache. *)
From Coq Require Import List Bool Arith.
Import ListNotations.
Open Scope nat_scope.

(** Things belonging to core number i: its bottom volume (ocf_volume_init: priv memory and
    reference counter, /repo/src/ocf_volume.c:90-166), that volume being open, its front volume,
    that being open, core->counters and core->seq_cutoff (/repo/src/ocf_core_priv.h:80-101). *)
Inductive ckind := KVol | KVolOpen | KFront | KFrontOpen | KCnt | KSeq.

(** Places that hold something.
    Of the cache object: the reference to the context (ocf_ctx_get), the object itself, its
    management lock and that lock being taken, the four reference counters, the reference counter of
    each I/O class (user_parts[i].cleaning.counter), flush_mutex, io_queues_lock, the fixed
    sections of the metadata, the membership in ctx->caches.
    Of the attached state: the pipeline of the operation, cache->stop_pipeline, cache->device,
    device->volume initialised and open, device->front_volume initialised and open, the sections
    of variable size, the cache line locks, the two buffers and the pipeline of the volume test,
    the cleaner (ctx_cleaner_init), the promotion policy, cleaner.refcnt, the context of the
    cleaning policy, the allocator and the page locks of a standby instance. *)
Inductive slot :=
| CtxRef | CacheMem | MngtLock | MngtLocked | RcCache | RcDirty | RcMeta | RcD2c | RcPart (i : nat)
| FlushMutex | QLock | MetaFixed | OnList
| Pipe | StopPipe | Device | Vol | VolOpen | Front | FrontOpen | MetaVar | Conc
| TestRw | TestCmp | TestPipe | Cleaner | Promo | CRef | CCtx | PioPool | PioConc
| Core (k : ckind) (i : nat).

Inductive event := Acq (s : slot) | Rel (s : slot).

(** Points that can fail: allocations, initialisations that report an error, I/O, checks of the
    device or of what was read.  The same point occurs at most once in an operation. *)
Inductive fp :=
(* starting *)
| FCtxLock | FExists | FAlloc | FLock | FRcCache | FRcDirty | FRcMeta | FRcD2c | FRcPart (i : nat)
| FTry | FMutex | FQLock | FRcInc | FMetaFixed | FName
(* attaching, loading, activating *)
| FPipe | FStop | FDev | FVol | FOpen | FSmall | FRead | FFront | FFrontOpen | FRam | FMeta | FConc
| FRw | FCmp | FTestPipe | FTestIo | FTooMany | FCleaner | FPromo | FInitMeta | FPop
| FCRef | FCInit | FCPop | FZero | FFlush | FDisc | FDevFlush | FStatus | FStatus2
| FPool | FPio | FSb | FSbBad | FLoad | FRebuild | FCmpSb | FChk | FNewStop
(* cores *)
| FCVol (i : nat) | FCOpen (i : nat) | FCFront (i : nat) | FCFrontOpen (i : nat)
| FCCnt (i : nat) | FCSeq (i : nat) | FCLen (i : nat)
(* detaching, changing the cleaning policy *)
| FFlushData | FDisabled.

(** ocf_cleaning_t (/repo/inc/cleaning/): which policies have an initialize function
    (/repo/src/cleaning/cleaning_ops.h:37-74). *)
Inductive policy := Nop | Alru | Acp.

(** struct ocf_core (/repo/src/ocf_core_priv.h:80-101), the fields that steer these functions:
    added, opened, has_volume, volume.opened, front_volume.opened, counters != NULL,
    seq_cutoff != NULL. *)
Record core := {
  added : bool; opened : bool; hasvol : bool; vol_opened : bool; front_opened : bool;
  cnt_ptr : bool; seq_ptr : bool }.
Definition core0 : core :=
  {| added := false; opened := false; hasvol := false; vol_opened := false; front_opened := false;
     cnt_ptr := false; seq_ptr := false |}.

(** Which stop pipeline was created (2415-2430 or 2922-2937). *)
Inductive stopkind := StopNormal | StopStandby.

(** struct ocf_cache and struct ocf_cache_device (/repo/src/ocf_cache_priv.h:29-144): device
    != NULL; device->volume.type != NULL, .opened; front_volume.type, .opened; promotion_policy
    != NULL; cleaner.cleaning_policy_context != NULL; cleaner.policy; conf_meta->valid of each
    core; the cores; ocf_core_inactive_count; the freeze count of refcnt.metadata; the state bits
    standby, running, detached; stop_pipeline. *)
Record st := {
  dev : bool; vtype : bool; vopen : bool; ftype : bool; fopen : bool;
  promo : bool; cctx : bool; pol : policy; valid : list bool; cores : list core; inactive : nat;
  frozen : nat; standby : bool; running : bool; detached : bool; stopp : option stopkind }.

(** struct ocf_cache_attach_context.flags (105-147). *)
Inductive flag :=
| fDeviceAlloc | fVolumeInited | fVolumeOpened | fFrontInited | fFrontOpened | fMetaInited
| fCleanerStarted | fPromoInited | fCleaningInited | fCoresOpened | fConcInited | fPioPool | fPioConc.

(** The parameters of an operation: what fails; from the configuration: perform_test, force,
    discard_on_start, open_cores, disable_cleaner; the volume type: atomic; what is read from the
    device: clean shutdown, cleaning policy and valid bits of the cores; which cores are found in
    the core pool of the context. *)
Record env := {
  F : fp -> bool;
  perform_test : bool; force : bool; discard_on_start : bool; open_cores : bool; no_cleaner : bool;
  atomic : bool; clean : bool; disk_pol : policy; disk_valid : list bool; in_pool : nat -> bool }.

(** State of a running operation: the cache, the flags set so far, the log (newest first). *)
Record run := { c : st; fl : list flag; log : list event }.

Inductive res := Next (r : run) | Fin (r : run) | Hang (r : run) | Bug (l : list event).

(* ----- small operations on the state ----- *)
Definition has (f : flag) (r : run) : bool :=
  existsb (fun g => match f, g with
    | fDeviceAlloc, fDeviceAlloc | fVolumeInited, fVolumeInited | fVolumeOpened, fVolumeOpened
    | fFrontInited, fFrontInited | fFrontOpened, fFrontOpened | fMetaInited, fMetaInited
    | fCleanerStarted, fCleanerStarted | fPromoInited, fPromoInited
    | fCleaningInited, fCleaningInited | fCoresOpened, fCoresOpened | fConcInited, fConcInited
    | fPioPool, fPioPool | fPioConc, fPioConc => true | _, _ => false end) (fl r).
Definition setf (f : flag) (r : run) : run := {| c := c r; fl := f :: fl r; log := log r |}.
Definition acq (s : slot) (r : run) : run := {| c := c r; fl := fl r; log := Acq s :: log r |}.
Definition rel (s : slot) (r : run) : run := {| c := c r; fl := fl r; log := Rel s :: log r |}.
Definition upd (g : st -> st) (r : run) : run := {| c := g (c r); fl := fl r; log := log r |}.

Definition set_dev b x := {| dev := b; vtype := vtype x; vopen := vopen x; ftype := ftype x;
  fopen := fopen x; promo := promo x; cctx := cctx x; pol := pol x; valid := valid x;
  cores := cores x; inactive := inactive x; frozen := frozen x; standby := standby x;
  running := running x; detached := detached x; stopp := stopp x |}.
Definition set_vol t o x := {| dev := dev x; vtype := t; vopen := o; ftype := ftype x;
  fopen := fopen x; promo := promo x; cctx := cctx x; pol := pol x; valid := valid x;
  cores := cores x; inactive := inactive x; frozen := frozen x; standby := standby x;
  running := running x; detached := detached x; stopp := stopp x |}.
Definition set_front t o x := {| dev := dev x; vtype := vtype x; vopen := vopen x; ftype := t;
  fopen := o; promo := promo x; cctx := cctx x; pol := pol x; valid := valid x;
  cores := cores x; inactive := inactive x; frozen := frozen x; standby := standby x;
  running := running x; detached := detached x; stopp := stopp x |}.
Definition set_promo b x := {| dev := dev x; vtype := vtype x; vopen := vopen x; ftype := ftype x;
  fopen := fopen x; promo := b; cctx := cctx x; pol := pol x; valid := valid x;
  cores := cores x; inactive := inactive x; frozen := frozen x; standby := standby x;
  running := running x; detached := detached x; stopp := stopp x |}.
Definition set_cctx b x := {| dev := dev x; vtype := vtype x; vopen := vopen x; ftype := ftype x;
  fopen := fopen x; promo := promo x; cctx := b; pol := pol x; valid := valid x;
  cores := cores x; inactive := inactive x; frozen := frozen x; standby := standby x;
  running := running x; detached := detached x; stopp := stopp x |}.
Definition set_pol p x := {| dev := dev x; vtype := vtype x; vopen := vopen x; ftype := ftype x;
  fopen := fopen x; promo := promo x; cctx := cctx x; pol := p; valid := valid x;
  cores := cores x; inactive := inactive x; frozen := frozen x; standby := standby x;
  running := running x; detached := detached x; stopp := stopp x |}.
Definition set_conf p v x := {| dev := dev x; vtype := vtype x; vopen := vopen x; ftype := ftype x;
  fopen := fopen x; promo := promo x; cctx := cctx x; pol := p; valid := v;
  cores := cores x; inactive := inactive x; frozen := frozen x; standby := standby x;
  running := running x; detached := detached x; stopp := stopp x |}.
Definition set_cores l n x := {| dev := dev x; vtype := vtype x; vopen := vopen x; ftype := ftype x;
  fopen := fopen x; promo := promo x; cctx := cctx x; pol := pol x; valid := valid x;
  cores := l; inactive := n; frozen := frozen x; standby := standby x;
  running := running x; detached := detached x; stopp := stopp x |}.
Definition set_frozen n x := {| dev := dev x; vtype := vtype x; vopen := vopen x; ftype := ftype x;
  fopen := fopen x; promo := promo x; cctx := cctx x; pol := pol x; valid := valid x;
  cores := cores x; inactive := inactive x; frozen := n; standby := standby x;
  running := running x; detached := detached x; stopp := stopp x |}.
Definition set_bits sb rn dt x := {| dev := dev x; vtype := vtype x; vopen := vopen x; ftype := ftype x;
  fopen := fopen x; promo := promo x; cctx := cctx x; pol := pol x; valid := valid x;
  cores := cores x; inactive := inactive x; frozen := frozen x; standby := sb;
  running := rn; detached := dt; stopp := stopp x |}.
Definition set_stopp p x := {| dev := dev x; vtype := vtype x; vopen := vopen x; ftype := ftype x;
  fopen := fopen x; promo := promo x; cctx := cctx x; pol := pol x; valid := valid x;
  cores := cores x; inactive := inactive x; frozen := frozen x; standby := standby x;
  running := running x; detached := detached x; stopp := p |}.

(** A step of a pipeline, and running a list of steps (ocf_pipeline_run_step and
    ocf_pipeline_next, /repo/src/utils/utils_pipeline.c; PipelineModel.v). *)
Definition step := env -> run -> res.
Fixpoint steps (l : list step) (e : env) (r : run) : res :=
  match l with
  | [] => Next r
  | x :: l => match x e r with Next r => steps l e r | y => y end
  end.

(** A step that only can fail (I/O, or an initialisation that cleans up after itself). *)
Definition can_fail (p : fp) : step := fun e r => if F e p then Fin r else Next r.

(* ----- volumes ----- *)
(** ocf_volume_close (/repo/src/ocf_volume.c:472-490) of device->volume: dereferences
    volume->type before looking at volume->opened. *)
Definition vol_close (r : run) : option run :=
  if vtype (c r) then
    if vopen (c r) then Some (upd (set_vol true false) (rel VolOpen r)) else Some r
  else None.
(** ocf_volume_deinit (/repo/src/ocf_volume.c:168-185). *)
Definition vol_deinit (r : run) : run := upd (fun x => set_vol false (vopen x) x) (rel Vol r).
Definition front_close (r : run) : option run :=
  if ftype (c r) then
    if fopen (c r) then Some (upd (set_front true false) (rel FrontOpen r)) else Some r
  else None.
Definition front_deinit (r : run) : run := upd (fun x => set_front false (fopen x) x) (rel Front r).

(* ----- steps of attach and load ----- *)
(** ocf_volume_init, ocf_volume_move and ocf_volume_open of device->volume (981-1004, 2611-2627);
    ocf_volume_move replaces the new volume's private data by the user's
    (/repo/src/ocf_volume.c:187-216): what is owned stays "an initialised volume". *)
Definition open_volume : step := fun e r =>
  if F e FVol then Fin r
  else
    let r := setf fVolumeInited (upd (set_vol true false) (acq Vol r)) in
    if F e FOpen then Fin r
    else Next (setf fVolumeOpened (upd (set_vol true true) (acq VolOpen r))).

(** _ocf_mngt_attach_cache_device (967-1013); the device object comes zeroed. *)
Definition cache_device : step := fun e r =>
  if F e FDev then Fin (upd (set_dev false) r)
  else match open_volume e (setf fDeviceAlloc (upd (fun x =>
               set_front false false (set_vol false false (set_dev true x))) (acq Device r))) with
       | Next r => if F e FSmall then Fin r else Next r
       | x => x
       end.

(** _ocf_mngt_attach_read_properties (1257-1275, 1320-1331); any outcome other than "no
    metadata" ends the operation. *)
Definition read_properties_attach : step := fun e r =>
  if force e then Next r else can_fail FRead e r.
(** _ocf_mngt_load_read_properties (1277-1301, 1333-1341). *)
Definition read_properties_load : step := can_fail FRead.
(** _ocf_mngt_attach_check_ram (1697-1722). *)
Definition check_ram : step := can_fail FRam.

(** _ocf_mngt_attach_prepare_metadata (1343-1368); ocf_metadata_init_variable_size and
    ocf_concurrency_init clean up after themselves (SegLifeModel.v;
    /repo/src/concurrency/ocf_concurrency.c:9-22). *)
Definition prepare_metadata : step := fun e r =>
  if F e FMeta then Fin r
  else
    let r := setf fMetaInited (acq MetaVar r) in
    if F e FConc then Fin r else Next (setf fConcInited (acq Conc r)).

(** _ocf_mngt_test_volume (1215-1255) with its own pipeline (1057-1213), whose finish function
    (1190-1201) frees the buffers and the pipeline.  When the second buffer cannot be allocated
    control goes to err_buffer, which frees the second buffer (a NULL pointer). *)
Definition test_volume : step := fun e r =>
  if negb (perform_test e) then Next r
  else if F e FRw then Fin r
  else
    let r := acq TestRw r in
    if F e FCmp then Fin r
    else
      let r := acq TestCmp r in
      if F e FTestPipe then Fin (rel TestCmp (rel TestRw r))
      else
        let r := rel TestPipe (rel TestCmp (rel TestRw (acq TestPipe r))) in
        if F e FTestIo then Fin r else Next r.

(** _ocf_mngt_attach_update_cores_atomic (1773-1794): on an atomic volume the cores get new
    sequence numbers, and then neither ocf_pipeline_next nor ocf_pipeline_finish is called. *)
Definition update_cores_atomic : step := fun e r =>
  if negb (atomic e) then Next r
  else if F e FTooMany then Fin r else Hang r.

(** _ocf_mngt_init_cleaner (1796-1812). *)
Definition init_cleaner : step := fun e r =>
  if F e FCleaner then Fin r else Next (setf fCleanerStarted (acq Cleaner r)).

(** _ocf_mngt_init_promotion (1814-1830), ocf_promotion_init
    (/repo/src/promotion/promotion.c:28-61). *)
Definition init_promotion : step := fun e r =>
  if F e FPromo then Fin (upd (set_promo false) r)
  else Next (setf fPromoInited (upd (set_promo true) (acq Promo r))).

(** _ocf_mngt_attach_init_metadata (1381-1414), _ocf_mngt_attach_populate_free (1416-1431). *)
Definition init_metadata : step := can_fail FInitMeta.
Definition populate_free : step := can_fail FPop.

(** ocf_cleaning_initialize (/repo/src/cleaning/cleaning_ops.h:84-93) with
    cleaning_policy_alru_initialize (/repo/src/cleaning/alru.c:368-401) and
    cleaning_policy_acp_initialize (/repo/src/cleaning/acp.c:249-299; ENV_BUG_ON at 263). *)
Definition cleaning_initialize (p : policy) : step := fun e r =>
  match p with
  | Nop => Next r
  | Alru => if F e FCInit then Fin r else Next (upd (set_cctx true) (acq CCtx r))
  | Acp =>
    if cctx (c r) then Bug (log r)
    else if F e FCInit then Fin r else Next (upd (set_cctx true) (acq CCtx r))
  end.
(** ocf_cleaning_populate (/repo/src/cleaning/cleaning_ops.h:95-107). *)
Definition cleaning_populate_fails (p : policy) (e : env) : bool :=
  match p with Nop => false | _ => F e FCPop end.
(** ocf_cleaning_deinitialize (/repo/src/cleaning/cleaning_ops.h:109-121) with
    cleaning_policy_alru_deinitialize (/repo/src/cleaning/alru.c:574-584) and
    cleaning_policy_acp_deinitialize (/repo/src/cleaning/acp.c:226-237), which dereference the
    context. *)
Definition cleaning_deinitialize (r : run) : option run :=
  match pol (c r) with
  | Nop => Some r
  | _ => if cctx (c r) then Some (upd (set_cctx false) (rel CCtx r)) else None
  end.

(** _ocf_mngt_attach_init_services (1453-1474) with __init_cleaning_policy (220-240) and
    _ocf_mngt_cleaning_populate_init_complete (1433-1451). *)
Definition init_services : step := fun e r =>
  let r := if no_cleaner e then upd (set_pol Nop) r else r in
  if F e FCRef then Fin r
  else match cleaning_initialize (pol (c r)) e (acq CRef r) with
       | Next r =>
         if cleaning_populate_fails (pol (c r)) e then Fin (rel CRef r)
         else Next (setf fCleaningInited r)
       | Fin r => Fin (rel CRef r)
       | x => x
       end.

(** _ocf_mngt_attach_zero_superblock (1832-1854), _ocf_mngt_attach_flush_metadata (1856-1878). *)
Definition zero_superblock : step := can_fail FZero.
Definition flush_metadata : step := can_fail FFlush.
(** _ocf_mngt_attach_discard (1880-1925): an error matters only on atomic volumes. *)
Definition discard : step := fun e r =>
  if negb (discard_on_start e) then Next r
  else if F e FDisc && atomic e then Fin r else Next r.
(** _ocf_mngt_attach_flush (1927-1947); discard_zeroes is cleared only when the volume test ran
    (1146-1170), left open here. *)
Definition device_flush : step := fun e r =>
  if atomic e then can_fail FDevFlush e r else Next r.
(** _ocf_mngt_attach_shutdown_status (1949-1971). *)
Definition shutdown_status (p : fp) : step := can_fail p.

(** env_refcnt_unfreeze (/repo/env/posix/ocf_env_refcnt.c:67-71) of refcnt.metadata. *)
Definition unfreeze (r : run) : option run :=
  match frozen (c r) with 0 => None | S n => Some (upd (set_frozen n) r) end.
(** _ocf_mngt_attach_switch_to_pt (1988-2001), _ocf_mngt_attach_disable_pt (1973-1986): the
    counter of direct-to-core requests drains. *)
Definition switch_to_pt : step := fun e r =>
  match unfreeze r with Some r => Next r | None => Bug (log r) end.

(* ----- steps of load ----- *)
(** _ocf_mngt_load_superblock (1725-1771); a failure restores the configuration
    (/repo/src/metadata/metadata_superblock.c:249-292), success replaces it.  Then the number of
    cache lines and the cleaning policy are checked (1737-1751). *)
Definition load_superblock : step := fun e r =>
  if F e FSb then Fin r
  else if F e FSbBad then Fin (upd (fun x => set_conf (pol x) (disk_valid e) x) r)
  else Next (upd (set_conf (disk_pol e) (disk_valid e)) r).

(** One core of _ocf_mngt_load_add_cores (419-508).  The result: the core, the change of the
    number of inactive cores, the log, and whether it succeeded.  A volume found in the pool is
    moved in open.  ocf_mngt_core_init_front_volume: /repo/src/mngt/ocf_mngt_core.c:218-244;
    ocf_core_seq_cutoff_init: /repo/src/ocf_seq_cutoff.c:101-113.  The length of a volume that is
    not open is 0 (/repo/src/ocf_volume.c:502-510), so the comparison fails. *)
Definition load_core (e : env) (i : nat) (k : core) (l : list event) : core * nat * list event * bool :=
  if F e (FCVol i) then (k, 0, l, false)
  else
    let l := Acq (Core KVol i) :: l in
    let '(op, vo, l) :=
      if in_pool e i then (true, true, Acq (Core KVolOpen i) :: l)
      else if open_cores e then
        if F e (FCOpen i) then (opened k, false, l) else (true, true, Acq (Core KVolOpen i) :: l)
      else (opened k, false, l) in
    let mk fo cn sq := {| added := true; opened := op; hasvol := true; vol_opened := vo;
                          front_opened := fo; cnt_ptr := cn; seq_ptr := sq |} in
    if F e (FCFront i) then (mk (front_opened k) (cnt_ptr k) (seq_ptr k), 0, l, false)
    else
      let l := Acq (Core KFront i) :: l in
      if F e (FCFrontOpen i) then (mk false (cnt_ptr k) (seq_ptr k), 0, Rel (Core KFront i) :: l, false)
      else
        let l := Acq (Core KFrontOpen i) :: l in
        if F e (FCCnt i) then (mk true false (seq_ptr k), 0, l, false)
        else
          let l := Acq (Core KCnt i) :: l in
          if F e (FCSeq i) then (mk true true false, 0, l, false)
          else
            let l := Acq (Core KSeq i) :: l in
            if negb op then (mk true true true, 1, l, true)
            else if F e (FCLen i) || negb vo then (mk true true true, 0, l, false)
            else (mk true true true, 0, l, true).

(** The loop over the cores whose valid bit is set (419). *)
Fixpoint load_cores (e : env) (i : nat) (v : list bool) (ks : list core) (l : list event) :
  list core * nat * list event * bool :=
  match ks with
  | [] => ([], 0, l, true)
  | k :: ks =>
    if nth i v false then
      let '(k, n, l, ok) := load_core e i k l in
      if ok then
        let '(ks, m, l, ok) := load_cores e (S i) v ks l in (k :: ks, n + m, l, ok)
      else (k :: ks, n, l, false)
    else
      let '(ks, m, l, ok) := load_cores e (S i) v ks l in (k :: ks, m, l, ok)
  end.

(** One core of _ocf_mngt_deinit_added_cores (381-397).  ocf_core_seq_cutoff_deinit
    (/repo/src/ocf_seq_cutoff.c:115-119) leaves the pointer; opened and has_volume stay, and
    the volume is not deinitialised. *)
Definition unload_core (e : env) (i : nat) (k : core) (l : list event) : core * list event :=
  let '(vo, l) := if open_cores e && vol_opened k then (false, Rel (Core KVolOpen i) :: l)
                  else (vol_opened k, l) in
  let l := if front_opened k then Rel (Core KFront i) :: Rel (Core KFrontOpen i) :: l else l in
  let l := if seq_ptr k then Rel (Core KSeq i) :: l else l in
  let l := if cnt_ptr k then Rel (Core KCnt i) :: l else l in
  ({| added := false; opened := opened k; hasvol := hasvol k; vol_opened := vo;
      front_opened := false; cnt_ptr := false; seq_ptr := seq_ptr k |}, l).
Fixpoint unload_cores (e : env) (i : nat) (ks : list core) (l : list event) : list core * list event :=
  match ks with
  | [] => ([], l)
  | k :: ks =>
    let '(k, l) := if added k then unload_core e i k l else (k, l) in
    let '(ks, l) := unload_cores e (S i) ks l in (k :: ks, l)
  end.
(** _ocf_mngt_deinit_added_cores (373-398). *)
Definition deinit_added_cores (e : env) (r : run) : run :=
  let '(ks, l) := unload_cores e 0 (cores (c r)) (log r) in
  {| c := set_cores ks (inactive (c r)) (c r); fl := fl r; log := l |}.

(** _ocf_mngt_load_add_cores (404-516). *)
Definition add_cores : step := fun e r =>
  let '(ks, n, l, ok) := load_cores e 0 (valid (c r)) (cores (c r)) (log r) in
  let r := {| c := set_cores ks (n + inactive (c r)) (c r); fl := fl r; log := l |} in
  if ok then Next (setf fCoresOpened r) else Fin (deinit_added_cores e r).

(** _ocf_mngt_load_init_structures (777-788), _ocf_mngt_load_metadata (830-844),
    _ocf_mngt_load_rebuild_metadata (711-725). *)
Definition load_init_structures : step := fun e r =>
  if clean e then Next r else can_fail FInitMeta e r.
Definition load_metadata : step := can_fail FLoad.
Definition rebuild_metadata : step := can_fail FRebuild.
Definition load_rebuild_metadata : step := fun e r =>
  if clean e then Next r else rebuild_metadata e r.

(** _ocf_mngt_load_init_cleaning (734-761): the flag cleaning_initialized is not set. *)
Definition load_init_cleaning (cl : bool) : step := fun e r =>
  if F e FCRef then Fin r
  else match cleaning_initialize (pol (c r)) e (acq CRef r) with
       | Next r => if cl then Next r else if cleaning_populate_fails (pol (c r)) e then Fin r else Next r
       | x => x
       end.

(* ----- steps of standby ----- *)
(** _ocf_mngt_init_cache_front_volume (2432-2460). *)
Definition init_front : step := fun e r =>
  if F e FFront then Fin r
  else
    let r := setf fFrontInited (upd (set_front true false) (acq Front r)) in
    if F e FFrontOpen then Fin r
    else Next (setf fFrontOpened (upd (set_front true true) (acq FrontOpen r))).
(** _ocf_mngt_standby_prepare_mempool (2479-2491). *)
Definition prepare_mempool : step := fun e r =>
  if F e FPool then Fin r else Next (setf fPioPool (acq PioPool r)).
(** _ocf_mngt_standby_init_pio_concurrency (2513-2525). *)
Definition init_pio : step := fun e r =>
  if F e FPio then Fin r else Next (setf fPioConc (acq PioConc r)).
(** _ocf_mngt_standby_post_init (2527-2536). *)
Definition post_init : step := switch_to_pt.

(* ----- error handling ----- *)
Definition bind (o : option run) (f : run -> option run) : option run :=
  match o with Some r => f r | None => None end.
Definition when (b : bool) (f : run -> option run) (r : run) : option run :=
  if b then f r else Some r.
(** __deinit_promotion_policy (260-266). *)
Definition deinit_promo (r : run) : run :=
  if promo (c r) then upd (set_promo false) (rel Promo r) else r.

(** __deinit_cleaning_policy (242-246). *)
Definition deinit_cleaning (r : run) : option run :=
  bind (cleaning_deinitialize r) (fun r => Some (rel CRef r)).

(** _ocf_mngt_attach_handle_error (2003-2050); the destroyed cache->stop_pipeline is not set to
    NULL, but it is used only with a device. *)
Definition handle_error (e : env) (r0 : run) : option run :=
  let h f := has f r0 in
  bind (when (h fCleanerStarted) (fun r => Some (rel Cleaner r)) r0) (fun r =>
  bind (when (h fPromoInited) (fun r => Some (deinit_promo r)) r) (fun r =>
  bind (when (h fCleaningInited) deinit_cleaning r) (fun r =>
  bind (when (h fCoresOpened) (fun r => Some (deinit_added_cores e r)) r) (fun r =>
  bind (when (h fMetaInited) (fun r => Some (rel MetaVar r)) r) (fun r =>
  bind (when (h fConcInited) (fun r => Some (rel Conc r)) r) (fun r =>
  bind (when (h fVolumeOpened) vol_close r) (fun r =>
  bind (when (h fVolumeInited) (fun r => Some (vol_deinit r)) r) (fun r =>
  bind (when (h fFrontOpened) front_close r) (fun r =>
  bind (when (h fFrontInited) (fun r => Some (front_deinit r)) r) (fun r =>
  bind (when (h fDeviceAlloc) (fun r => Some (upd (set_dev false) (rel Device r))) r) (fun r =>
  bind (when (h fPioConc) (fun r => Some (rel PioConc r)) r) (fun r =>
  bind (when (h fPioPool) (fun r => Some (rel PioPool r)) r) (fun r =>
  Some (upd (set_stopp None) (rel StopPipe r))))))))))))))).

(** _ocf_mngt_activate_handle_error (2722-2741); the flag metadata_frozen is never set. *)
Definition activate_error (e : env) (r0 : run) : option run :=
  let h f := has f r0 in
  bind (when (h fPromoInited) (fun r => Some (deinit_promo r)) r0) (fun r =>
  bind (when (h fCoresOpened) (fun r => Some (deinit_added_cores e r)) r) (fun r =>
  bind (when (h fVolumeOpened) vol_close r) (fun r =>
  when (h fVolumeInited) (fun r => Some (vol_deinit r)) r))).

(* ----- operations ----- *)
(** How an operation ends: refused or failed or done (it called its completion function), it
    never completes, or the program is stopped by an ENV_BUG_ON or a NULL pointer. *)
Inductive out :=
| Done (s : st) (l : list event) | Failed (s : st) (l : list event)
| Refused | Never (l : list event) | Crash (l : list event).

(** _ocf_mngt_cache_attach_finish (2052-2063) and the completion functions (3184-3198,
    3254-3266, 3301-3313, 3339-3351): [set] sets the state bits. *)
Definition attach_finish (e : env) (set : st -> st) (x : res) : out :=
  match x with
  | Next r => Done (set (c r)) (Rel Pipe :: log r)
  | Fin r => match handle_error e r with
             | Some r => Failed (c r) (Rel Pipe :: log r)
             | None => Crash (log r)
             end
  | Hang r => Never (log r)
  | Bug l => Crash l
  end.

(** _ocf_mngt_cache_attach (2794-2825), _ocf_mngt_cache_load (2827-2858),
    _ocf_mngt_cache_standby_attach (2939-2970), _ocf_mngt_cache_standby_load (2972-3003). *)
Definition with_pipelines (k : stopkind) (l : list step) (set : st -> st) (e : env) (s : st) : out :=
  if F e FPipe then Failed s []
  else if F e FStop then Failed s [Rel Pipe; Acq Pipe]
  else attach_finish e set
         (steps l e {| c := set_stopp (Some k) s; fl := []; log := [Acq StopPipe; Acq Pipe] |}).

(** _ocf_mngt_cache_set_valid (1652-1660), _ocf_mngt_cache_set_standby (1662-1669),
    _ocf_mngt_cache_set_active (1671-1678), _ocf_mngt_cache_set_detached (1680-1684). *)
Definition set_running x := set_bits (standby x) true false x.
Definition set_standby x := set_bits true (running x) false x.
Definition set_active x := set_bits false true (detached x) x.
Definition set_detached x := set_bits (standby x) false true x.

(** The pipeline of attaching (2065-2091). *)
Definition attach_steps : list step :=
  [cache_device; read_properties_attach; check_ram; prepare_metadata; test_volume;
   update_cores_atomic; init_cleaner; init_promotion; init_metadata; populate_free;
   init_services; zero_superblock; flush_metadata; discard; device_flush;
   shutdown_status FStatus; switch_to_pt].
(** ocf_mngt_cache_attach (3200-3225); the management queue is taken to be set. *)
Definition attach (e : env) (s : st) : out :=
  if standby s then Refused
  else if dev s then Refused
  else with_pipelines StopNormal attach_steps set_running e s.

(** The pipeline of loading (2093-2119). *)
Definition load_steps (cl : bool) : list step :=
  [cache_device; read_properties_load; check_ram; prepare_metadata; test_volume;
   load_superblock; init_cleaner; init_promotion; add_cores; load_init_structures;
   load_metadata; load_rebuild_metadata; load_init_cleaning cl;
   shutdown_status FStatus; flush_metadata; shutdown_status FStatus2; switch_to_pt].
(** ocf_mngt_cache_load (3268-3299): whether a device is attached already is not looked at;
    metadata is not volatile, force is not set. *)
Definition load (e : env) (s : st) : out :=
  if standby s then Refused else with_pipelines StopNormal (load_steps (clean e)) set_running e s.

(** The pipelines of standby (2538-2584). *)
Definition standby_attach_steps : list step :=
  [cache_device; read_properties_attach; init_front; check_ram; prepare_metadata; test_volume;
   init_cleaner; can_fail FInitMeta; populate_free; prepare_mempool; init_pio;
   zero_superblock; flush_metadata; discard; device_flush; post_init].
Definition standby_load_steps : list step :=
  [cache_device; init_front; check_ram; test_volume; prepare_metadata; load_superblock;
   load_metadata; init_cleaner; prepare_mempool; init_pio; rebuild_metadata; post_init].
(** ocf_mngt_cache_standby_attach (3315-3337), ocf_mngt_cache_standby_load (3353-3382): the
    state of the cache is not looked at. *)
Definition standby_attach (e : env) (s : st) : out :=
  with_pipelines StopStandby standby_attach_steps set_standby e s.
Definition standby_load (e : env) (s : st) : out :=
  with_pipelines StopStandby standby_load_steps set_standby e s.

(** ocf_mngt_cache_standby_detach (2593-2601, 3005-3059, 3384-3399). *)
Definition standby_detach (e : env) (s : st) : out :=
  if negb (standby s) then Refused
  else if 0 <? frozen s then Refused
  else if F e FPipe then Failed s []
  else
    let r := upd (fun x => set_frozen (S (frozen x)) x) {| c := s; fl := []; log := [Acq Pipe] |} in
    match vol_close r with
    | Some r => let r := vol_deinit r in Done (c r) (Rel Pipe :: log r)
    | None => Crash (log r)
    end.

(** The pipeline of activating (2771-2792). *)
Definition activate_steps : list step :=
  [open_volume; can_fail FCmpSb; load_superblock; can_fail FChk; test_volume; init_promotion;
   add_cores; can_fail FInitMeta; rebuild_metadata; load_init_cleaning false;
   shutdown_status FStatus; switch_to_pt].
(** _ocf_mngt_cache_standby_activate (3061-3095), _ocf_mngt_cache_activate_finish (2743-2769),
    _ocf_mngt_cache_standby_activate_complete (3401-3416). *)
Definition activate (e : env) (s : st) : out :=
  if negb (standby s) then Refused
  else if frozen s =? 0 then Refused
  else if F e FPipe then Failed s []
  else
    let failed r := match activate_error e r with
                    | Some r => Failed (c r) (Rel Pipe :: log r)
                    | None => Crash (log r)
                    end in
    match steps activate_steps e {| c := s; fl := []; log := [Acq Pipe] |} with
    | Next r =>
      if F e FNewStop then failed r
      else Done (set_active (set_stopp (Some StopNormal) (c r)))
             (Rel Pipe :: Rel PioPool :: Rel PioConc :: Acq StopPipe :: Rel StopPipe :: log r)
    | Fin r => failed r
    | Hang r => Never (log r)
    | Bug l => Crash l
    end.

(** _ocf_mngt_cache_deinit_services (2197-2203): ocf_stop_cleaner, __deinit_cleaning_policy,
    __deinit_promotion_policy. *)
Definition deinit_services (r : run) : option run :=
  bind (deinit_cleaning (rel Cleaner r)) (fun r => Some (deinit_promo r)).
(** ocf_mngt_cache_deinit_metadata (2294-2308). *)
Definition deinit_metadata (r : run) : run := rel Conc (rel MetaVar r).
(** ocf_mngt_cache_deinit_cache_volume (2280-2292). *)
Definition deinit_cache_volume (r : run) : run := upd (set_dev false) (rel Device (vol_deinit r)).

(** ocf_mngt_cache_detach (3773-3934): only the first step, flushing, can fail. *)
Definition detach (e : env) (s : st) : out :=
  if standby s then Refused
  else if negb (dev s) then Refused
  else if F e FPipe then Failed s []
  else if F e FFlushData then Failed s [Rel Pipe; Acq Pipe]
  else
    let r := upd (fun x => set_frozen (S (frozen x)) x) {| c := s; fl := []; log := [Acq Pipe] |} in
    match bind (deinit_services r) vol_close with
    | Some r =>
      let r := deinit_cache_volume (deinit_metadata r) in
      Done (set_detached (set_stopp None (c r))) (Rel Pipe :: Rel StopPipe :: log r)
    | None => Crash (log r)
    end.

(** One core of _ocf_mngt_cache_stop_remove_cores (2171-2184): cache_mngt_core_remove_from_cache
    and cache_mngt_core_deinit (/repo/src/mngt/ocf_mngt_common.c:22-34, 128-140).
    ocf_volume_close of the front volume does nothing if it is not open; a front volume that was
    never initialised has no type. *)
Definition stop_core (i : nat) (k : core) (l : list event) : core * list event :=
  let l := Rel (Core KSeq i) :: l in
  let l := if cnt_ptr k then Rel (Core KCnt i) :: l else l in
  let l := if opened k then
             let l := if front_opened k then Rel (Core KFrontOpen i) :: l else l in
             let l := Rel (Core KFront i) :: l in
             if vol_opened k then Rel (Core KVolOpen i) :: l else l
           else l in
  let l := if hasvol k then Rel (Core KVol i) :: l else l in
  ({| added := false; opened := false; hasvol := hasvol k; vol_opened := vol_opened k && negb (opened k);
      front_opened := front_opened k && negb (opened k); cnt_ptr := false; seq_ptr := seq_ptr k |}, l).
(** The loop over the added cores (2178-2183), at most [n] of them: [n] is core_count, the
    number of valid bits; with 0 the counter wraps and does not stop the loop. *)
Fixpoint stop_cores (i : nat) (n : nat) (ks : list core) (l : list event) : list core * list event :=
  match ks with
  | [] => ([], l)
  | k :: ks =>
    if added k then
      let '(k, l) := stop_core i k l in
      if n =? 1 then (k :: ks, l)
      else let '(ks, l) := stop_cores (S i) (n - 1) ks l in (k :: ks, l)
    else let '(ks, l) := stop_cores (S i) n ks l in (k :: ks, l)
  end.
Definition remove_cores (r : run) : run :=
  let '(ks, l) := stop_cores 0 (length (filter (fun b => b) (valid (c r)))) (cores (c r)) (log r) in
  {| c := set_cores ks (inactive (c r)) (c r); fl := fl r; log := l |}.

(** The places of the cache object, by number of I/O classes [np]. *)
Definition parts (np : nat) : list slot := map RcPart (seq 0 np).
Definition counters (np : nat) : list slot := [RcCache; RcDirty; RcMeta; RcD2c] ++ parts np.

Definition rel_all (l : list slot) (log : list event) : list event := fold_left (fun a s => Rel s :: a) l log.
Definition acq_all (l : list slot) (log : list event) : list event := fold_left (fun a s => Acq s :: a) l log.

(** ocf_mngt_cache_remove (2341-2359) and, with the last reference gone, _ocf_mngt_cache_dealloc
    (2321-2339).  Deinitialising the management lock ends the hold on it. *)
Definition remove_cache (np : nat) (l : list event) : list event :=
  rel_all ([MngtLocked; MngtLock; QLock; FlushMutex; OnList; MetaFixed] ++ counters np ++ [CacheMem; CtxRef]) l.

(** ocf_mngt_cache_stop (3448-3483): detached (3436-3446), or the stop pipeline that was created
    when attaching: the normal one (2415-2430) or that of a standby instance (2860-2937).
    [s'] is what the cache object looked like when it was released. *)
Definition stop (np : nat) (s : st) : out :=
  if negb (dev s) then
    let r := remove_cores {| c := s; fl := []; log := [] |} in
    Done (c r) (remove_cache np (log r))
  else
    let r := upd (fun x => set_frozen (S (frozen x)) x) {| c := s; fl := []; log := [] |} in
    match stopp s with
    | None => Crash []
    | Some StopNormal =>
      match bind (deinit_services r) (fun r => vol_close (remove_cores r)) with
      | Some r =>
        let r := deinit_cache_volume (deinit_metadata r) in
        Done (c r) (Rel StopPipe :: remove_cache np (log r))
      | None => Crash (log r)
      end
    | Some StopStandby =>
      let close := frozen s =? 0 in
      let r := rel Cleaner r in
      match (if close then vol_close r else Some r) with
      | Some r =>
        let r := deinit_metadata r in
        let r := if frozen (c r) =? 0 then deinit_cache_volume r else r in
        let r := rel PioConc (rel PioPool r) in
        Done (c r) (Rel StopPipe :: remove_cache np (log r))
      | None => Crash (log r)
      end
    end.

(** _ocf_mngt_init_new_cache (850-965) with its labels; [i] runs over the I/O classes
    (887-893), and the label cleaning_refcnt_err (948-951) counts down from the current i
    inclusive. *)
Fixpoint init_parts (e : env) (n i : nat) (l : list event) : list event * nat * bool :=
  match n with
  | 0 => (l, i, true)
  | S n => if F e (FRcPart i) then (l, i, false) else init_parts e n (S i) (Acq (RcPart i) :: l)
  end.
Definition down_from (i : nat) : list slot := map RcPart (rev (seq 0 (S i))).
Definition new_cache (np : nat) (e : env) (l : list event) : list event * bool :=
  if F e FAlloc then (l, false) else
  let l := Acq CacheMem :: l in
  if F e FLock then (rel_all [CacheMem] l, false) else
  let l := Acq MngtLock :: l in
  if F e FRcCache then (rel_all [MngtLock; CacheMem] l, false) else
  let l := Acq RcCache :: l in
  if F e FRcDirty then (rel_all [RcCache; MngtLock; CacheMem] l, false) else
  let l := Acq RcDirty :: l in
  if F e FRcMeta then (rel_all [RcDirty; RcCache; MngtLock; CacheMem] l, false) else
  let l := Acq RcMeta :: l in
  if F e FRcD2c then (rel_all [RcMeta; RcDirty; RcCache; MngtLock; CacheMem] l, false) else
  let l := Acq RcD2c :: l in
  let '(l, i, ok) := init_parts e np 0 l in
  let tail := down_from i ++ [RcD2c; RcMeta; RcDirty; RcCache; MngtLock; CacheMem] in
  if negb ok then (rel_all tail l, false) else
  if F e FTry then (rel_all tail l, false) else
  let l := Acq MngtLocked :: l in
  if F e FMutex then (rel_all (MngtLocked :: tail) l, false) else
  let l := Acq FlushMutex :: l in
  if F e FQLock then (rel_all (FlushMutex :: MngtLocked :: tail) l, false) else
  let l := Acq QLock :: l in
  if F e FRcInc then (rel_all (QLock :: FlushMutex :: MngtLocked :: tail) l, false) else
  (l, true).

(** _ocf_mngt_init_handle_error (1519-1549). *)
Definition init_handle_error (np : nat) (metadata : bool) (l : list event) : list event :=
  rel_all ([QLock; FlushMutex; MngtLocked] ++ parts np ++ [RcD2c; RcMeta; RcDirty; RcCache; MngtLock] ++
           (if metadata then [MetaFixed] else []) ++ [CacheMem]) l.

(** The cache after a successful start: detached, refcnt.metadata frozen (929-930), all cores
    blank, [nc] = OCF_CORE_MAX, the default cleaning policy. *)
Definition fresh (nc : nat) : st :=
  {| dev := false; vtype := false; vopen := false; ftype := false; fopen := false; promo := false;
     cctx := false; pol := Alru; valid := repeat false nc; cores := repeat core0 nc; inactive := 0;
     frozen := 1; standby := false; running := false; detached := true; stopp := None |}.

(** _ocf_mngt_cache_start (1570-1650); the configuration is valid, the caller keeps the cache
    locked. *)
Definition start (np nc : nat) (e : env) : out :=
  let l := [Acq CtxRef] in
  if F e FCtxLock then Failed (fresh nc) (rel_all [CtxRef] l) else
  if F e FExists then Failed (fresh nc) (rel_all [CtxRef] l) else
  match new_cache np e l with
  | (l, false) => Failed (fresh nc) (rel_all [CtxRef] l)
  | (l, true) =>
    if F e FMetaFixed then Failed (fresh nc) (rel_all [CtxRef] (init_handle_error np false l)) else
    let l := Acq MetaFixed :: l in
    if F e FName then Failed (fresh nc) (rel_all [CtxRef] (init_handle_error np true l)) else
    Done (fresh nc) (Acq OnList :: l)
  end.

(** ocf_mngt_cache_cleaning_set_policy (/repo/src/mngt/ocf_mngt_flush.c:1053-1096) with its two
    steps (961-982, 1011-1026), _ocf_mngt_cleaning_init_complete (984-1009) and the finish
    function (1028-1040): whether a device is attached is not looked at. *)
Definition policy_eqb (p q : policy) : bool :=
  match p, q with Nop, Nop | Alru, Alru | Acp, Acp => true | _, _ => false end.
Definition set_policy (e : env) (p : policy) (s : st) : out :=
  if standby s then Refused
  else if policy_eqb p (pol s) then Done s []
  else if F e FDisabled then Refused
  else if F e FPipe then Failed s []
  else
    match cleaning_deinitialize {| c := s; fl := []; log := [Acq Pipe] |} with
    | None => Crash [Acq Pipe]
    | Some r =>
      match cleaning_initialize p e r with
      | Next r =>
        if cleaning_populate_fails p e then Failed (set_pol Nop (c r)) (Rel Pipe :: log r)
        else Done (set_pol p (c r)) (Rel Pipe :: log r)
      | Fin r => Failed (set_pol Nop (c r)) (Rel Pipe :: log r)
      | Hang r => Never (log r)
      | Bug l => Crash l
      end
    end.

(** Histories of operations on a started cache. *)
Inductive op :=
| OAttach (e : env) | OLoad (e : env) | OStandbyAttach (e : env) | OStandbyLoad (e : env)
| OStandbyDetach (e : env) | OActivate (e : env) | ODetach (e : env) | OPolicy (e : env) (p : policy).
Definition do_op (o : op) (s : st) : out :=
  match o with
  | OAttach e => attach e s | OLoad e => load e s
  | OStandbyAttach e => standby_attach e s | OStandbyLoad e => standby_load e s
  | OStandbyDetach e => standby_detach e s | OActivate e => activate e s
  | ODetach e => detach e s | OPolicy e p => set_policy e p s
  end.
(** Result of a history: the state and the log (newest first) or how it got stuck. *)
Inductive hist := Run (s : st) (l : list event) | Stopped (l : list event) | Dead (o : out).
Definition step_op (o : op) (s : st) (l : list event) : hist :=
  match do_op o s with
  | Done s m | Failed s m => Run s (m ++ l)
  | Refused => Run s l
  | Never m => Dead (Never (m ++ l))
  | Crash m => Dead (Crash (m ++ l))
  end.
Fixpoint run_ops (h : list op) (s : st) (l : list event) : hist :=
  match h with
  | [] => Run s l
  | o :: h => match step_op o s l with Run s l => run_ops h s l | x => x end
  end.
(** A whole life: start, operations, stop. *)
Definition life (np nc : nat) (e : env) (h : list op) : hist :=
  match start np nc e with
  | Done s l =>
    match run_ops h s l with
    | Run s l => match stop np s with
                 | Done _ m => Stopped (m ++ l)
                 | x => Dead x
                 end
    | x => x
    end
  | Failed _ l => Stopped l
  | x => Dead x
  end.

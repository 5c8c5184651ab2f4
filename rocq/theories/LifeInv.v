(** C60: specification, invariant and the effect of each operation of the life of a cache. *)
From Coq Require Import List Bool Arith Lia FinFun.
From Verif Require Import LifeModel.
Import ListNotations.
Open Scope nat_scope.

(* ===== Specification ===== *)

Definition ckind_eq_dec (x y : ckind) : {x = y} + {x <> y}.
Proof. decide equality. Defined.
Definition slot_eq_dec (x y : slot) : {x = y} + {x <> y}.
Proof. decide equality; solve [apply Nat.eq_dec | apply ckind_eq_dec]. Defined.

(** Whether place [x] holds something after the events of a log (newest first), if it did ([b])
    before.  [None]: it was acquired again while held (the handle to the first is lost), or
    released while nothing was held. *)
Fixpoint held (x : slot) (b : bool) (log : list event) : option bool :=
  match log with
  | [] => Some b
  | ev :: log =>
    match held x b log with
    | None => None
    | Some h =>
      match ev with
      | Acq y => if slot_eq_dec x y then (if h then None else Some true) else Some h
      | Rel y => if slot_eq_dec x y then (if h then Some false else None) else Some h
      end
    end
  end.

(** A life leaves nothing behind and releases nothing twice. *)
Definition exact (log : list event) : Prop := forall x, held x false log = Some false.

(** The operations for which the property holds (the others are refuted below).
    Starting: none of the points after the first I/O class counter fails. *)
Definition ok_start (e : env) : Prop :=
  (forall i, F e (FRcPart i) = false) /\ F e FTry = false /\ F e FMutex = false /\
  F e FQLock = false /\ F e FRcInc = false.
(** Any attaching: the second test buffer can be allocated. *)
Definition ok_test (e : env) : Prop := F e FCmp = false.
Definition no_cores (v : list bool) : Prop := forall i, nth i v false = false.
(** The part of loading and activating from adding the cores on: every core comes up; what
    follows the cores does not fail if there are cores; what follows the allocation of the
    cleaning policy does not fail. *)
Definition ok_tail (e : env) : Prop :=
  (forall i, F e (FCVol i) = false /\ F e (FCOpen i) = false /\ F e (FCFront i) = false /\
             F e (FCFrontOpen i) = false /\ F e (FCCnt i) = false /\ F e (FCSeq i) = false /\
             F e (FCLen i) = false) /\
  (forall i, in_pool e i = true \/ open_cores e = true) /\
  (no_cores (disk_valid e) \/
   F e FInitMeta = false /\ F e FLoad = false /\ F e FRebuild = false /\ F e FCRef = false) /\
  F e FCInit = false /\ F e FCPop = false /\ F e FStatus = false /\ F e FFlush = false /\
  F e FStatus2 = false /\ F e FNewStop = false.
(** A cache without a device and without cores. *)
Definition blank (s : st) : Prop := dev s = false /\ Forall (fun k => added k = false) (cores s).
Definition fails (o : out) : Prop := match o with Failed _ _ => True | _ => False end.

(** With [sb] = false standby operations are allowed only if they fail. *)
Definition ok_op (sb : bool) (o : op) (s : st) : Prop :=
  match o with
  | OAttach e => ok_test e /\ atomic e = false /\ F e FCPop = false
  | OLoad e => ok_test e /\ ok_tail e /\ blank s
  | OStandbyAttach e | OStandbyLoad e =>
    ok_test e /\ blank s /\ (sb = false -> fails (do_op o s))
  | OStandbyDetach e => True
  | ODetach e => ftype s = false
  | OActivate e => ok_test e /\ ok_tail e
  | OPolicy e p => (dev s = true \/ p = pol s) /\ F e FCPop = false
  end.
Fixpoint ok_ops (sb : bool) (h : list op) (s : st) : Prop :=
  match h with
  | [] => True
  | o :: h =>
    ok_op sb o s /\
    match do_op o s with
    | Done s' _ | Failed s' _ => ok_ops sb h s'
    | Refused => ok_ops sb h s
    | _ => True
    end
  end.

(* ===== Proof ===== *)

Definition bindo (o : option bool) (f : bool -> option bool) : option bool :=
  match o with Some b => f b | None => None end.
Lemma held_app x b m l : held x b (m ++ l) = bindo (held x b l) (fun h => held x h m).
Proof.
  induction m as [|ev m IH]; cbn [held app].
  - destruct (held x b l); reflexivity.
  - rewrite IH. destruct (held x b l); reflexivity.
Qed.

(** What each place holds, read off the state. *)
Definition core_hold (k : ckind) (q : core) : bool :=
  added q && match k with
  | KVol => hasvol q | KVolOpen => vol_opened q | KFront => front_opened q
  | KFrontOpen => front_opened q | KCnt => cnt_ptr q | KSeq => seq_ptr q end.
Definition cores_hold (k : ckind) (i : nat) (ks : list core) : bool :=
  core_hold k (nth i ks core0).
Definition hold (np : nat) (s : st) (x : slot) : bool :=
  match x with
  | CtxRef | CacheMem | MngtLock | MngtLocked | RcCache | RcDirty | RcMeta | RcD2c
  | FlushMutex | QLock | MetaFixed | OnList => true
  | RcPart i => i <? np
  | Device | MetaVar | Conc | Cleaner | StopPipe => dev s
  | Vol => vtype s | VolOpen => vopen s | Front => ftype s | FrontOpen => fopen s
  | Promo => promo s | CRef => dev s && negb (standby s) | CCtx => cctx s
  | PioPool | PioConc => standby s
  | Core k i => cores_hold k i (cores s)
  | Pipe | TestRw | TestCmp | TestPipe => false
  end.

Definition up (q : core) : Prop := q = core0 \/ q = {| added := true; opened := true; hasvol := true;
  vol_opened := true; front_opened := true; cnt_ptr := true; seq_ptr := true |}.
Definition wf_cores (v : list bool) (ks : list core) : Prop :=
  Forall up ks /\
  length (filter added ks) <= length (filter (fun b => b) v).
Definition is_nop (p : policy) : bool := match p with Nop => true | _ => false end.
Definition blank_cores (ks : list core) : Prop := Forall (fun q => q = core0) ks.

Inductive wf (s : st) : Prop :=
| wf_off : dev s = false -> vtype s = false -> vopen s = false -> ftype s = false ->
    fopen s = false -> promo s = false -> cctx s = false -> standby s = false -> frozen s = 1 ->
    Forall up (cores s) ->
    (length (filter added (cores s)) <= length (filter (fun b => b) (valid s)) \/ blank_cores (cores s)) ->
    wf s
| wf_on : dev s = true -> vtype s = true -> vopen s = true -> fopen s = ftype s ->
    promo s = true -> cctx s = negb (is_nop (pol s)) -> standby s = false -> frozen s = 0 ->
    stopp s = Some StopNormal -> Forall up (cores s) ->
    (length (filter added (cores s)) <= length (filter (fun b => b) (valid s)) \/ blank_cores (cores s)) ->
    wf s
| wf_sb b : dev s = true -> vtype s = b -> vopen s = b -> ftype s = true -> fopen s = true ->
    promo s = false -> cctx s = false -> standby s = true ->
    frozen s = (if b then 0 else 1) -> stopp s = Some StopStandby -> blank_cores (cores s) -> wf s.

(** An operation leading from [s] to [s'] with log [m]. *)
Definition trans (np : nat) (s s' : st) (m : list event) : Prop :=
  wf s' /\ forall x, held x (hold np s x) m = Some (hold np s' x).

(** What a failing operation does not touch: everything but the cleaning policy and the
    configuration read from the device. *)
Definition same (s s' : st) : Prop :=
  dev s' = dev s /\ vtype s' = vtype s /\ vopen s' = vopen s /\ ftype s' = ftype s /\
  fopen s' = fopen s /\ promo s' = promo s /\ cores s' = cores s /\ inactive s' = inactive s /\
  frozen s' = frozen s /\ standby s' = standby s /\ running s' = running s /\ detached s' = detached s.
Definition no_standby (s : st) : Prop := standby s = false /\ ftype s = false /\ fopen s = false.
Definition ok_out (sbop : bool) (np : nat) (s : st) (o : out) : Prop :=
  match o with
  | Done s' m => trans np s s' m /\ (sbop = false -> no_standby s -> no_standby s')
  | Failed s' m => trans np s s' m /\ same s s'
  | Refused => True
  | _ => False
  end.

Lemma up_blank ks : Forall up ks -> Forall (fun k => added k = false) ks -> blank_cores ks.
Proof.
  unfold blank_cores. induction 1 as [|k ks H _ IH]; intros A; constructor.
  - apply Forall_inv in A. destruct H as [H|H]; [exact H|]. rewrite H in A. discriminate.
  - apply IH. apply Forall_inv_tail in A. exact A.
Qed.
Lemma blank_up ks : blank_cores ks -> Forall up ks.
Proof. intros H. eapply Forall_impl; [|exact H]. intros k ->. left. reflexivity. Qed.

(** Deciding the fields of a state in one of the three conditions. *)
Ltac on_off H := destruct H as [H1 H2 H3 H4 H5 H6 H7 H8 H9 H10 H11|H1 H2 H3 H4 H5 H6 H7 H8 H9 H10 H11|vb H1 H2 H3 H4 H5 H6 H7 H8 H9 H10 H11].
Ltac side :=
  match goal with
  | |- same _ _ => repeat split
  | |- true = false -> _ => let H := fresh in intros H; discriminate H
  | _ => first [ intros _ _; split; [|split]; reflexivity | let H := fresh in intros _ H; exact H ]
  end.
Ltac leaf :=
  lazy -[held hold trans same no_standby];
  match goal with |- trans _ _ _ _ /\ _ => split; [split|] end;
  [ first [ solve [apply wf_off; cbn; auto] | solve [apply wf_on; cbn; auto]
          | solve [apply (wf_sb _ true); cbn; auto] | solve [apply (wf_sb _ false); cbn; auto] ]
  | let x := fresh "x" in intros x; destruct x; try reflexivity;
    lazy; repeat match goal with |- context [if ?b then _ else _] => destruct b end; reflexivity
  | side ].

Ltac dst s := destruct s as [dv vt vo ft fo pr cc pl va co ina fr sb rn dt sp].
(** Steps that end the operation or do nothing. *)
Definition maybe (x : step) : Prop := forall e r, x e r = Fin r \/ x e r = Next r.
Lemma m_can_fail p : maybe (can_fail p).
Proof. intros e r. unfold can_fail. destruct (F e p); auto. Qed.
Lemma m_read : maybe read_properties_attach.
Proof. intros e r. unfold read_properties_attach. destruct (force e); [auto|apply m_can_fail]. Qed.
Lemma m_discard : maybe discard.
Proof.
  intros e r. unfold discard. destruct (discard_on_start e); cbn; [|auto].
  destruct (F e FDisc && atomic e); auto.
Qed.
Lemma m_flush : maybe device_flush.
Proof. intros e r. unfold device_flush. destruct (atomic e); [apply m_can_fail|auto]. Qed.
Lemma m_structures : maybe load_init_structures.
Proof. intros e r. unfold load_init_structures. destruct (clean e); [auto|apply m_can_fail]. Qed.
Lemma m_rebuild : maybe load_rebuild_metadata.
Proof. intros e r. unfold load_rebuild_metadata. destruct (clean e); [auto|apply m_can_fail]. Qed.

(** Running the pipeline one step at a time, keeping the state of the run in normal form. *)
Ltac norm_run :=
  match goal with |- ?G (steps ?l ?e ?r) => let r' := eval lazy in r in change (G (steps l e r')) end.
Ltac known :=
  repeat match goal with
  | H : F ?e ?p = false |- context [F ?e ?p] => rewrite H
  | H : atomic ?e = false |- context [atomic ?e] => rewrite H
  end; cbv beta iota.
Ltac branch :=
  repeat match goal with
  | |- _ (steps _ _ _) => fail 1
  | |- _ ?z => match z with context [if ?b then _ else _] => destruct b; cbv beta iota; known end
  end.
Ltac skip H :=
  match goal with |- ?G (steps (?x :: ?l) ?e ?rr) =>
    change (G (match x e rr with Next r => steps l e r | y => y end));
    let E := fresh in destruct (H e rr) as [E|E]; rewrite E; clear E; cbv beta iota end.
Ltac walk :=
  match goal with |- ?G (steps (?x :: ?l) ?e ?rr) =>
    let t := eval lazy -[F perform_test force discard_on_start open_cores no_cleaner atomic clean
                         disk_pol disk_valid in_pool] in (x e rr) in
    change (G (match t with Next r => steps l e r | y => y end)); cbv beta iota; known; branch end.
Ltac walk1 :=
  match goal with
  | |- _ (steps (can_fail _ :: _) _ _) => skip (m_can_fail _)
  | |- _ (steps (check_ram :: _) _ _) => skip (m_can_fail FRam)
  | |- _ (steps (read_properties_attach :: _) _ _) => skip m_read
  | |- _ (steps (read_properties_load :: _) _ _) => skip (m_can_fail FRead)
  | |- _ (steps (discard :: _) _ _) => skip m_discard
  | |- _ (steps (device_flush :: _) _ _) => skip m_flush
  | |- _ (steps (load_init_structures :: _) _ _) => skip m_structures
  | |- _ (steps (load_rebuild_metadata :: _) _ _) => skip m_rebuild
  | _ => walk
  end.

Lemma attach_ok np e s : wf s -> ok_op true (OAttach e) s -> ok_out false np s (attach e s).
Proof.
  intros W (T & A & Pp). unfold attach. unfold ok_test in T.
  destruct (standby s) eqn:Es; [exact I|].
  destruct (dev s) eqn:Ed; [exact I|].
  on_off W; try congruence. clear H1 H8.
  dst s; cbn in *; subst.
  unfold with_pipelines.
  destruct (F e FPipe); [leaf|].
  destruct (F e FStop); [leaf|].
  match goal with |- ok_out ?sb ?np ?s (attach_finish ?e ?f ?z) =>
    pose (G := fun y => ok_out sb np s (attach_finish e f y)); change (G z) end.
  unfold attach_steps.
  do 10 (walk1; try (subst G; leaf)).
  all: destruct pl.
  all: do 7 (walk1; try (subst G; leaf)).
  all: subst G; cbn [steps]; leaf.
Qed.

Ltac open_G :=
  match goal with |- ok_out ?sb ?np ?s (attach_finish ?e ?f ?z) =>
    pose (G := fun y => ok_out sb np s (attach_finish e f y)); change (G z) end.

Lemma standby_attach_ok np e s : wf s -> ok_test e -> blank s -> ok_out true np s (standby_attach e s).
Proof.
  intros W T (Ed & B). unfold standby_attach. unfold ok_test in T.
  on_off W; try congruence. clear H1.
  pose proof (up_blank _ H10 B) as Bl. clear H10 H11 B.
  pose proof (blank_up _ Bl) as Up.
  dst s; cbn in *; subst.
  unfold with_pipelines.
  destruct (F e FPipe); [leaf|].
  destruct (F e FStop); [leaf|].
  open_G. unfold standby_attach_steps.
  do 16 (walk1; try (subst G; leaf)).
Qed.

Lemma standby_load_ok np e s : wf s -> ok_test e -> blank s -> ok_out true np s (standby_load e s).
Proof.
  intros W T (Ed & B). unfold standby_load. unfold ok_test in T.
  on_off W; try congruence. clear H1.
  pose proof (up_blank _ H10 B) as Bl. clear H10 H11 B.
  pose proof (blank_up _ Bl) as Up.
  dst s; cbn in *; subst.
  unfold with_pipelines.
  destruct (F e FPipe); [leaf|].
  destruct (F e FStop); [leaf|].
  open_G. unfold standby_load_steps.
  do 12 (walk1; try (subst G; leaf)).
Qed.

Lemma standby_detach_ok np e s : wf s -> ok_out true np s (standby_detach e s).
Proof.
  intros W. unfold standby_detach.
  on_off W; [rewrite H8; exact I|rewrite H7; exact I|rewrite H8].
  destruct vb; rewrite H9; cbn [negb Nat.ltb Nat.leb]; cbv beta iota; [|exact I].
  dst s; cbn in *; subst.
  destruct (F e FPipe); leaf.
Qed.

Lemma detach_ok np e s : wf s -> ftype s = false -> ok_out false np s (detach e s).
Proof.
  intros W Ft. unfold detach.
  on_off W; [rewrite H8, H1; exact I|rewrite H7, H1|rewrite H8; exact I].
  cbn [negb]; cbv beta iota.
  dst s; cbn in *; subst.
  destruct (F e FPipe); [destruct pl; leaf|].
  destruct (F e FFlushData); [destruct pl; leaf|].
  destruct pl; leaf.
Qed.

Lemma set_policy_ok np e p s : wf s -> dev s = true \/ p = pol s -> F e FCPop = false ->
  ok_out false np s (set_policy e p s).
Proof.
  intros W Hd Pp. unfold set_policy.
  destruct (standby s) eqn:Es; [exact I|].
  destruct (policy_eqb p (pol s)) eqn:Ep.
  - split; [split; [exact W|reflexivity]|auto].
  - assert (dev s = true) as Ed.
    { destruct Hd as [H|H]; [exact H|]. rewrite H in Ep. destruct (pol s); discriminate. }
    destruct (F e FDisabled); [exact I|].
    on_off W; try congruence.
    dst s; cbn in *; subst.
    destruct (F e FPipe); [destruct pl; leaf|].
    destruct pl, p; try discriminate; cbn -[held hold ok_out]; rewrite ?Pp;
      try destruct (F e FCInit); cbn -[held hold ok_out]; leaf.
Qed.

(* ----- cores ----- *)
Definition full_core : core := {| added := true; opened := true; hasvol := true;
  vol_opened := true; front_opened := true; cnt_ptr := true; seq_ptr := true |}.
Definition is_core (x : slot) : bool := match x with Core _ _ => true | _ => false end.

Definition core_events (i : nat) : list event :=
  [Acq (Core KSeq i); Acq (Core KCnt i); Acq (Core KFrontOpen i); Acq (Core KFront i);
   Acq (Core KVolOpen i); Acq (Core KVol i)].
Lemma load_core_ok e i l : ok_tail e ->
  load_core e i core0 l = (full_core, 0, core_events i ++ l, true).
Proof.
  intros (C & P & _). destruct (C i) as (C1 & C2 & C3 & C4 & C5 & C6 & C7).
  unfold load_core. rewrite C1, C2, C3, C4, C5, C6, C7. cbn [core0 opened].
  destruct (in_pool e i) eqn:Ei; [reflexivity|].
  destruct (P i) as [H|H]; [congruence|]. rewrite H. reflexivity.
Qed.
Lemma core_events_held i k j b : held (Core k j) b (core_events i) =
  if Nat.eq_dec j i then (if b then None else Some true) else Some b.
Proof.
  unfold core_events. cbn [held].
  destruct (Nat.eq_dec j i) as [->|N].
  - destruct k; repeat (match goal with |- context [slot_eq_dec ?a ?b] =>
      destruct (slot_eq_dec a b); [try congruence|try congruence] end);
    destruct b; reflexivity.
  - repeat (match goal with |- context [slot_eq_dec ?a ?b] => destruct (slot_eq_dec a b); [congruence|] end).
    reflexivity.
Qed.
Lemma core_events_other i x b : is_core x = false -> held x b (core_events i) = Some b.
Proof. intros H. destruct x; try discriminate; reflexivity. Qed.

Definition ncount (i : nat) (v : list bool) : nat := length (filter (fun b => b) (skipn i v)).
Lemma ncount_step i v : (if nth i v false then 1 else 0) + ncount (S i) v <= ncount i v.
Proof.
  unfold ncount. revert i. induction v as [|b v IH]; intros i.
  - destruct i; cbn; lia.
  - destruct i; cbn [nth skipn filter].
    + destruct b; cbn; lia.
    + apply IH.
Qed.

Lemma load_cores_ok e : ok_tail e -> forall v ks i l, blank_cores ks ->
  exists ks' m, load_cores e i v ks l = (ks', 0, m ++ l, true) /\ Forall up ks' /\
    length (filter added ks') <= ncount i v /\
    (forall x b, is_core x = false -> held x b m = Some b) /\
    (forall k j b, j < i -> held (Core k j) b m = Some b) /\
    (forall k j, i <= j -> held (Core k j) false m = Some (core_hold k (nth (j - i) ks' core0))).
Proof.
  intros Ok v ks. induction ks as [|q ks IH]; intros i l B.
  - exists [], []. cbn. repeat split; auto; try lia.
    intros k j _. destruct (j - i), k; reflexivity.
  - pose proof (Forall_inv B) as ->. apply Forall_inv_tail in B.
    cbn [load_cores]. pose proof (ncount_step i v) as Nc.
    destruct (nth i v false) eqn:Ev.
    + rewrite (load_core_ok e i l Ok). cbv beta iota zeta.
      destruct (IH (S i) (core_events i ++ l) B) as (ks' & m & E & U & Cn & Ho & Hl & Hc).
      rewrite E. exists (full_core :: ks'), (m ++ core_events i).
      rewrite app_assoc. split; [reflexivity|]. split.
      { constructor; [right; reflexivity|exact U]. }
      split. { cbn. lia. }
      split.
      { intros x b Hx. rewrite held_app, core_events_other by exact Hx. cbn. apply Ho, Hx. }
      split.
      { intros k j b Hj. rewrite held_app, core_events_held.
        destruct (Nat.eq_dec j i) as [->|N]; [lia|]. cbn. apply Hl. lia. }
      intros k j Hj. rewrite held_app, core_events_held.
      destruct (Nat.eq_dec j i) as [->|N].
      * cbn [bindo]. rewrite Hl by lia. rewrite Nat.sub_diag. cbn [nth]. destruct k; reflexivity.
      * cbn [bindo]. rewrite Hc by lia. replace (j - i) with (S (j - S i)) by lia. reflexivity.
    + destruct (IH (S i) l B) as (ks' & m & E & U & Cn & Ho & Hl & Hc).
      rewrite E. exists (core0 :: ks'), m. split; [reflexivity|]. split.
      { constructor; [left; reflexivity|exact U]. }
      split. { cbn. lia. }
      split; [exact Ho|]. split. { intros k j b Hj. apply Hl. lia. }
      intros k j Hj. destruct (Nat.eq_dec j i) as [->|N].
      * rewrite Hl by lia. rewrite Nat.sub_diag. destruct k; reflexivity.
      * rewrite Hc by lia. replace (j - i) with (S (j - S i)) by lia. reflexivity.
Qed.

Lemma load_cores_none e v : no_cores v -> forall ks i l, load_cores e i v ks l = (ks, 0, l, true).
Proof.
  intros N. induction ks as [|q ks IH]; intros i l; cbn [load_cores]; [reflexivity|].
  rewrite (N i), IH. reflexivity.
Qed.
Lemma unload_blank e ks : blank_cores ks -> forall i l, unload_cores e i ks l = (ks, l).
Proof.
  induction 1 as [|q ks -> _ IH]; intros i l; cbn [unload_cores]; [reflexivity|].
  cbn [core0 added]. rewrite IH. reflexivity.
Qed.
Lemma deinit_blank e r : blank_cores (cores (c r)) -> deinit_added_cores e r = r.
Proof.
  intros B. unfold deinit_added_cores. rewrite (unload_blank e _ B).
  destruct r as [[] ? ?]. reflexivity.
Qed.

(** The error handling without cores. *)
Definition handle_error_nc (r0 : run) : option run :=
  let h f := has f r0 in
  bind (when (h fCleanerStarted) (fun r => Some (rel Cleaner r)) r0) (fun r =>
  bind (when (h fPromoInited) (fun r => Some (deinit_promo r)) r) (fun r =>
  bind (when (h fCleaningInited) deinit_cleaning r) (fun r =>
  bind (when (h fMetaInited) (fun r => Some (rel MetaVar r)) r) (fun r =>
  bind (when (h fConcInited) (fun r => Some (rel Conc r)) r) (fun r =>
  bind (when (h fVolumeOpened) vol_close r) (fun r =>
  bind (when (h fVolumeInited) (fun r => Some (vol_deinit r)) r) (fun r =>
  bind (when (h fFrontOpened) front_close r) (fun r =>
  bind (when (h fFrontInited) (fun r => Some (front_deinit r)) r) (fun r =>
  bind (when (h fDeviceAlloc) (fun r => Some (upd (set_dev false) (rel Device r))) r) (fun r =>
  bind (when (h fPioConc) (fun r => Some (rel PioConc r)) r) (fun r =>
  bind (when (h fPioPool) (fun r => Some (rel PioPool r)) r) (fun r =>
  Some (upd (set_stopp None) (rel StopPipe r)))))))))))))).
Lemma promo_cores r : cores (c (deinit_promo r)) = cores (c r).
Proof. unfold deinit_promo. destruct (promo (c r)); reflexivity. Qed.
Lemma cleaning_cores r r' : deinit_cleaning r = Some r' -> cores (c r') = cores (c r).
Proof.
  unfold deinit_cleaning, cleaning_deinitialize.
  destruct (pol (c r)), (cctx (c r)); cbn; intros H; inversion H; reflexivity.
Qed.
Lemma handle_error_blank e r : blank_cores (cores (c r)) -> handle_error e r = handle_error_nc r.
Proof.
  intros B. unfold handle_error, handle_error_nc.
  cbv zeta.
  set (r1 := when (has fCleanerStarted r) _ r).
  assert (E1 : exists q, r1 = Some q /\ cores (c q) = cores (c r)).
  { subst r1. unfold when. destruct (has fCleanerStarted r); eexists; split; reflexivity. }
  destruct E1 as (q1 & -> & C1). cbn [bind].
  set (r2 := when (has fPromoInited r) _ q1).
  assert (E2 : exists q, r2 = Some q /\ cores (c q) = cores (c r)).
  { subst r2. unfold when. destruct (has fPromoInited r); eexists; split; try reflexivity.
    - rewrite promo_cores. exact C1. - exact C1. }
  destruct E2 as (q2 & -> & C2). cbn [bind].
  destruct (when (has fCleaningInited r) deinit_cleaning q2) as [q3|] eqn:E3; cbn [bind]; [|reflexivity].
  assert (C3 : cores (c q3) = cores (c r)).
  { unfold when in E3. destruct (has fCleaningInited r).
    - rewrite (cleaning_cores _ _ E3). exact C2.
    - inversion E3; subst. exact C2. }
  assert (E4 : when (has fCoresOpened r) (fun r => Some (deinit_added_cores e r)) q3 = Some q3).
  { unfold when. destruct (has fCoresOpened r); [|reflexivity].
    rewrite deinit_blank by (rewrite C3; exact B). reflexivity. }
  rewrite E4. reflexivity.
Qed.

Definition activate_error_nc (r0 : run) : option run :=
  let h f := has f r0 in
  bind (when (h fPromoInited) (fun r => Some (deinit_promo r)) r0) (fun r =>
  bind (when (h fVolumeOpened) vol_close r) (fun r =>
  when (h fVolumeInited) (fun r => Some (vol_deinit r)) r)).
Lemma activate_error_blank e r : blank_cores (cores (c r)) -> activate_error e r = activate_error_nc r.
Proof.
  intros B. unfold activate_error, activate_error_nc. cbv zeta.
  set (r2 := when (has fPromoInited r) _ r).
  assert (E2 : exists q, r2 = Some q /\ cores (c q) = cores (c r)).
  { subst r2. unfold when. destruct (has fPromoInited r); eexists; split; try reflexivity.
    apply promo_cores. }
  destruct E2 as (q2 & -> & C2). cbn [bind].
  assert (E4 : when (has fCoresOpened r) (fun r => Some (deinit_added_cores e r)) q2 = Some q2).
  { unfold when. destruct (has fCoresOpened r); [|reflexivity].
    rewrite deinit_blank by (rewrite C2; exact B). reflexivity. }
  rewrite E4. reflexivity.
Qed.

(** The state and the log after adding the cores. *)
Lemma add_cores_none e r : no_cores (valid (c r)) ->
  add_cores e r = Next (setf fCoresOpened {| c := set_cores (cores (c r)) (0 + inactive (c r)) (c r);
                                             fl := fl r; log := log r |}).
Proof. intros N. unfold add_cores. rewrite (load_cores_none e _ N). reflexivity. Qed.
Lemma add_cores_ok e r : ok_tail e -> blank_cores (cores (c r)) ->
  exists ks m, add_cores e r = Next (setf fCoresOpened
      {| c := set_cores ks (0 + inactive (c r)) (c r); fl := fl r; log := m ++ log r |}) /\
    Forall up ks /\ length (filter added ks) <= length (filter (fun b => b) (valid (c r))) /\
    (forall x b, is_core x = false -> held x b m = Some b) /\
    (forall k j, held (Core k j) false m = Some (core_hold k (nth j ks core0))).
Proof.
  intros Ok B. unfold add_cores.
  destruct (load_cores_ok e Ok (valid (c r)) (cores (c r)) 0 (log r) B) as (ks & m & E & U & Cn & Ho & _ & Hc).
  exists ks, m. rewrite E. repeat split; auto.
  intros k j. specialize (Hc k j). rewrite Nat.sub_0_r in Hc. apply Hc. lia.
Qed.

Lemma hold_blank ks k j : blank_cores ks -> cores_hold k j ks = false.
Proof.
  intros B. unfold cores_hold, core_hold.
  assert (nth j ks core0 = core0) as ->.
  { revert j. induction B as [|q ks -> _ IH]; intros [|j]; cbn; auto. }
  reflexivity.
Qed.

Ltac fin_leaf G Bl :=
  subst G; unfold attach_finish; cbv beta iota;
  first [rewrite handle_error_blank by exact Bl; leaf | leaf].

Lemma after_cores np s m ks L : blank_cores (cores s) ->
  (forall x b, is_core x = false -> held x b m = Some b) ->
  (forall k j, held (Core k j) false m = Some (core_hold k (nth j ks core0))) ->
  (forall k j b, held (Core k j) b L = Some b) ->
  forall x, held x (hold np s x) (m ++ L) =
    match x with Core k j => Some (cores_hold k j ks) | _ => held x (hold np s x) L end.
Proof.
  intros B Ho Hc HL x. rewrite held_app.
  destruct x; try (destruct (held _ _ L); cbn [bindo]; [apply Ho; reflexivity|reflexivity]).
  rewrite HL. cbn [bindo hold]. rewrite (hold_blank _ _ _ B). apply Hc.
Qed.
Ltac cores_case Ok Bl np :=
  match goal with |- ?G (steps (?x :: ?l) ?e ?rr) =>
    change (G (match x e rr with Next r => steps l e r | y => y end));
    let ks := fresh "ks" in let m := fresh "m" in let E := fresh "E" in
    let U := fresh "U" in let Cn := fresh "Cn" in let Ho := fresh "Ho" in let Hc := fresh "Hc" in
    destruct (add_cores_ok e rr Ok Bl) as (ks & m & E & U & Cn & Ho & Hc);
    rewrite E; clear E; cbv beta iota;
    let s := match eval cbv delta [G] in G with context [ok_out _ np ?s] => s end in
    let HM := fresh "HM" in
    pose proof (after_cores np s m ks (log rr) Bl Ho Hc (fun _ _ _ => eq_refl)) as HM;
    clear Ho Hc; cbn [log valid c] in HM, Cn |- *;
    match type of HM with context [m ++ ?L] =>
      let M := fresh "M" in set (M := m ++ L) in *; clearbody M; clear m end;
    norm_run
  end.
Ltac leaf2 :=
  lazy -[held hold trans same no_standby];
  match goal with |- trans _ _ _ _ /\ _ => split; [split|] end;
  [ solve [apply wf_on; cbn; auto]
  | let x := fresh "x" in intros x;
    match goal with HM : forall x, held x _ _ = _ |- _ => specialize (HM x); destruct x;
      cbn [held]; rewrite HM; reflexivity end
  | side ].

Lemma load_ok np e s : wf s -> ok_test e -> ok_tail e -> blank s -> ok_out false np s (load e s).
Proof.
  intros W T Ok (Ed & B). unfold load. unfold ok_test in T.
  on_off W; try congruence. clear H1.
  pose proof (up_blank _ H10 B) as Bl. clear H10 H11 B.
  pose proof (blank_up _ Bl) as Up.
  dst s; cbn [dev vtype vopen ftype fopen promo cctx pol valid cores inactive frozen
    standby running detached stopp] in *; subst.
  pose proof Ok as Ok'. destruct Ok' as (_ & _ & Hn & K1 & K2 & K3 & K4 & K5 & K6).
  unfold with_pipelines.
  destruct (F e FPipe); [leaf|].
  destruct (F e FStop); [leaf|].
  open_G. unfold load_steps.
  do 8 (walk1; try fin_leaf G Bl).
  all: destruct (disk_pol e).
  all: destruct Hn as [Hn|(K7 & K8 & K9 & K10)].
  (* no cores *)
  all: match goal with
  | Hn : no_cores _ |- ?G (steps (?x :: ?l) ?e ?rr) =>
    change (G (match x e rr with Next r => steps l e r | y => y end));
    rewrite (add_cores_none e rr Hn); cbv beta iota; norm_run;
    do 8 (walk1; try fin_leaf G Bl)
  | _ => cores_case Ok Bl np; do 8 (walk; try (subst G; leaf2))
  end.
Qed.

Definition act_fin (e : env) (y : res) : out :=
  let failed r := match activate_error e r with
                  | Some r => Failed (c r) (Rel Pipe :: log r)
                  | None => Crash (log r)
                  end in
  match y with
  | Next r =>
    if F e FNewStop then failed r
    else Done (set_active (set_stopp (Some StopNormal) (c r)))
           (Rel Pipe :: Rel PioPool :: Rel PioConc :: Acq StopPipe :: Rel StopPipe :: log r)
  | Fin r => failed r
  | Hang r => Never (log r)
  | Bug l => Crash l
  end.
Ltac act_leaf G Bl :=
  subst G; unfold act_fin; known; cbv beta iota zeta;
  first [rewrite activate_error_blank by exact Bl; leaf | leaf].

Lemma activate_ok np e s : wf s -> ok_test e -> ok_tail e -> ok_out true np s (activate e s).
Proof.
  intros W T Ok. unfold activate. unfold ok_test in T.
  on_off W; [rewrite H8; exact I|rewrite H7; exact I|rewrite H8].
  destruct vb; rewrite H9; cbn [negb Nat.eqb]; cbv beta iota; [exact I|].
  rename H11 into Bl.
  pose proof (blank_up _ Bl) as Up.
  dst s; cbn [dev vtype vopen ftype fopen promo cctx pol valid cores inactive frozen
    standby running detached stopp] in *; subst.
  pose proof Ok as Ok'. destruct Ok' as (_ & _ & Hn & K1 & K2 & K3 & K4 & K5 & K6).
  destruct (F e FPipe); [leaf|]. cbv zeta.
  match goal with |- ok_out ?sb ?np ?s _ =>
    pose (G := fun y => ok_out sb np s (act_fin e y)) end.
  match goal with |- context [steps ?l ?e ?r] => change (G (steps l e r)) end.
  unfold activate_steps.
  do 6 (walk1; try act_leaf G Bl).
  all: destruct (disk_pol e).
  all: destruct Hn as [Hn|(K7 & K8 & K9 & K10)].
  all: match goal with
  | Hn : no_cores _ |- ?G (steps (?x :: ?l) ?e ?rr) =>
    change (G (match x e rr with Next r => steps l e r | y => y end));
    rewrite (add_cores_none e rr Hn); cbv beta iota; norm_run;
    do 5 (walk1; try act_leaf G Bl)
  | _ => cores_case Ok Bl np; do 5 (walk; try (subst G; unfold act_fin; known; leaf2))
  end.
Qed.

(* ----- stopping ----- *)
Lemma rel_all_app l log : rel_all l log = map Rel (rev l) ++ log.
Proof.
  unfold rel_all. revert log. induction l as [|x l IH]; intros log; cbn [fold_left rev]; [reflexivity|].
  rewrite IH, map_app, <- app_assoc. reflexivity.
Qed.

Lemma stop_core_held i k j b q l : q = full_core ->
  stop_core i q l = ({| added := false; opened := false; hasvol := true; vol_opened := false;
                        front_opened := false; cnt_ptr := false; seq_ptr := true |},
     [Rel (Core KVol i); Rel (Core KVolOpen i); Rel (Core KFront i); Rel (Core KFrontOpen i);
      Rel (Core KCnt i); Rel (Core KSeq i)] ++ l) /\
  held (Core k j) b [Rel (Core KVol i); Rel (Core KVolOpen i); Rel (Core KFront i);
                     Rel (Core KFrontOpen i); Rel (Core KCnt i); Rel (Core KSeq i)] =
  if Nat.eq_dec j i then (if b then Some false else None) else Some b.
Proof.
  intros ->. split; [reflexivity|]. cbn [held].
  destruct (Nat.eq_dec j i) as [->|N].
  - destruct k; repeat (match goal with |- context [slot_eq_dec ?a ?b] =>
      destruct (slot_eq_dec a b); [try congruence|try congruence] end);
    destruct b; reflexivity.
  - repeat (match goal with |- context [slot_eq_dec ?a ?b] => destruct (slot_eq_dec a b); [congruence|] end).
    reflexivity.
Qed.

Lemma stop_blank ks : blank_cores ks -> forall i n l, stop_cores i n ks l = (ks, l).
Proof.
  induction 1 as [|q ks -> _ IH]; intros i n l; cbn [stop_cores]; [reflexivity|].
  cbn [core0 added]. rewrite IH. reflexivity.
Qed.
Lemma none_added ks : Forall up ks -> length (filter added ks) = 0 -> blank_cores ks.
Proof.
  intros U H. apply up_blank; [exact U|].
  clear U. induction ks as [|q ks IH]; constructor; cbn in H; destruct (added q) eqn:E; cbn in H;
    try discriminate; auto.
Qed.

Lemma stop_cores_ok ks : Forall up ks -> forall i n l, length (filter added ks) <= n ->
  exists m, snd (stop_cores i n ks l) = m ++ l /\
    (forall x b, is_core x = false -> held x b m = Some b) /\
    (forall k j b, j < i -> held (Core k j) b m = Some b) /\
    (forall k j, i <= j -> held (Core k j) (core_hold k (nth (j - i) ks core0)) m = Some false).
Proof.
  induction 1 as [|q ks Hq U IH]; intros i n l Hn.
  - exists []. cbn. repeat split; auto. intros k j _. destruct (j - i), k; reflexivity.
  - cbn [stop_cores]. destruct Hq as [-> | Hq].
    + cbn [core0 added]. destruct (IH (S i) n l Hn) as (m & E & Ho & Hl & Hc).
      exists m. destruct (stop_cores (S i) n ks l) as [ks2 l2]. cbn [snd] in *.
      split; [exact E|]. split; [exact Ho|]. split. { intros k j b Hj. apply Hl. lia. }
      intros k j Hj. destruct (Nat.eq_dec j i) as [->|N].
      * rewrite Hl by lia. rewrite Nat.sub_diag. destruct k; reflexivity.
      * replace (j - i) with (S (j - S i)) by lia. apply Hc. lia.
    + assert (Ha : added q = true) by (rewrite Hq; reflexivity). rewrite Ha.
      cbn [filter] in Hn. rewrite Ha in Hn. cbn [length] in Hn.
      pose proof (fun k j b => stop_core_held i k j b q l Hq) as Hs.
      destruct (Hs KVol 0 true) as [Es _]. rewrite Es. cbv beta iota zeta. clear Es.
      set (M := [Rel (Core KVol i); Rel (Core KVolOpen i); Rel (Core KFront i);
                 Rel (Core KFrontOpen i); Rel (Core KCnt i); Rel (Core KSeq i)]) in *.
      assert (HM : forall x b, is_core x = false -> held x b M = Some b).
      { intros x b Hx. destruct x; try discriminate; reflexivity. }
      assert (HC : forall k j b, held (Core k j) b M = if Nat.eq_dec j i then (if b then Some false else None) else Some b).
      { intros k j b. apply (Hs k j b). }
      clearbody M. clear Hs.
      assert (exists m, snd (if n =? 1 then (q :: ks, M ++ l)
                else let '(ks0, l0) := stop_cores (S i) (n - 1) ks (M ++ l) in (q :: ks0, l0)) = m ++ M ++ l /\
        (forall x b, is_core x = false -> held x b m = Some b) /\
        (forall k j b, j < S i -> held (Core k j) b m = Some b) /\
        (forall k j, S i <= j -> held (Core k j) (core_hold k (nth (j - S i) ks core0)) m = Some false)) as X.
      { destruct (n =? 1) eqn:En.
        - apply Nat.eqb_eq in En.
          assert (B : blank_cores ks) by (apply none_added; [exact U|lia]).
          exists []. cbn. repeat split; auto. intros k j _. f_equal.
          fold (cores_hold k (j - S i) ks). apply hold_blank, B.
        - apply Nat.eqb_neq in En.
          destruct (IH (S i) (n - 1) (M ++ l)) as (m & E & Ho & Hl & Hc); [lia|].
          exists m. destruct (stop_cores (S i) (n - 1) ks (M ++ l)). cbn [snd] in *. auto. }
      destruct X as (m & E & Ho & Hl & Hc).
      exists (m ++ M). rewrite <- app_assoc. split.
      { rewrite <- E. destruct (n =? 1); [reflexivity|].
        destruct (stop_cores (S i) (n - 1) ks (M ++ l)). reflexivity. }
      split. { intros x b Hx. rewrite held_app, HM by exact Hx. cbn. apply Ho, Hx. }
      split. { intros k j b Hj. rewrite held_app, HC. destruct (Nat.eq_dec j i); [lia|]. cbn. apply Hl. lia. }
      intros k j Hj. rewrite held_app, HC. destruct (Nat.eq_dec j i) as [->|N].
      * rewrite Nat.sub_diag. cbn [nth]. rewrite Hq. destruct k; cbn; apply Hl; lia.
      * cbn [bindo]. replace (j - i) with (S (j - S i)) by lia. apply Hc. lia.
Qed.

Definition base_slots (np : nat) : list slot :=
  [MngtLocked; MngtLock; QLock; FlushMutex; OnList; MetaFixed] ++ counters np ++ [CacheMem; CtxRef].
Definition is_base (np : nat) (x : slot) : bool :=
  match x with
  | CtxRef | CacheMem | MngtLock | MngtLocked | RcCache | RcDirty | RcMeta | RcD2c
  | FlushMutex | QLock | MetaFixed | OnList => true
  | RcPart i => i <? np
  | _ => false
  end.
Lemma in_parts np x : In x (parts np) <-> exists i, x = RcPart i /\ i < np.
Proof.
  unfold parts. rewrite in_map_iff. split.
  - intros (i & <- & H). apply in_seq in H. exists i. split; [reflexivity|lia].
  - intros (i & -> & H). exists i. split; [reflexivity|]. apply in_seq. lia.
Qed.
Lemma in_base np x : In x (base_slots np) <-> is_base np x = true.
Proof.
  unfold base_slots, counters. rewrite !in_app_iff, in_parts.
  split.
  - intros [H|[[H|(i & -> & H)]|H]]; cbn in H.
    + repeat destruct H as [<-|H]; try reflexivity. destruct H.
    + repeat destruct H as [<-|H]; try reflexivity. destruct H.
    + cbn. apply Nat.ltb_lt, H.
    + repeat destruct H as [<-|H]; try reflexivity. destruct H.
  - destruct x; cbn; intros H; try discriminate; try (apply Nat.ltb_lt in H);
      solve [auto 10 | right; left; right; eauto].
Qed.
Lemma nodup_app (A : Type) (l1 l2 : list A) :
  NoDup l1 -> NoDup l2 -> (forall x, In x l1 -> In x l2 -> False) -> NoDup (l1 ++ l2).
Proof.
  induction 1 as [|x l1 H N IH]; intros N2 D; cbn; [exact N2|].
  constructor.
  - rewrite in_app_iff. intros [I|I]; [exact (H I)|exact (D x (or_introl eq_refl) I)].
  - apply IH; [exact N2|]. intros y I. apply D. right. exact I.
Qed.
Lemma nodup_parts np : NoDup (parts np).
Proof.
  unfold parts. apply Injective_map_NoDup; [|apply seq_NoDup].
  intros i j H. inversion H. reflexivity.
Qed.
Ltac nodups := repeat constructor; cbn; intuition discriminate.
Lemma nodup_base np : NoDup (base_slots np).
Proof.
  unfold base_slots, counters.
  apply nodup_app; [nodups| |].
  - apply nodup_app; [apply nodup_app; [nodups|apply nodup_parts|]|nodups|].
    + intros x H I. apply in_parts in I. destruct I as (i & -> & _). cbn in H. intuition discriminate.
    + intros x H I. apply in_app_iff in H. destruct H as [H|H].
      * cbn in H, I. intuition (subst; discriminate).
      * apply in_parts in H. destruct H as (i & -> & _). cbn in I. intuition discriminate.
  - intros x H I. rewrite !in_app_iff, in_parts in I.
    destruct I as [[I|(i & -> & _)]|I]; cbn in H; try (cbn in I); intuition (subst; discriminate).
Qed.
Lemma held_rel_not x b l : ~ In x l -> held x b (map Rel l) = Some b.
Proof.
  induction l as [|y l IH]; intros N; cbn; [reflexivity|].
  rewrite IH by (intros I; apply N; right; exact I).
  destruct (slot_eq_dec x y) as [->|D]; [exfalso; apply N; left; reflexivity|reflexivity].
Qed.
Lemma held_rel_in x l : NoDup l -> In x l -> held x true (map Rel l) = Some false.
Proof.
  induction 1 as [|y l N D IH]; intros I; [destruct I|]. cbn.
  destruct I as [->|I].
  - rewrite held_rel_not by exact N. destruct (slot_eq_dec x x); [reflexivity|congruence].
  - rewrite IH by exact I. destruct (slot_eq_dec x y) as [->|_]; [contradiction|reflexivity].
Qed.
Lemma remove_cache_held np x b l : (is_base np x = true -> held x b l = Some true) ->
  held x b (remove_cache np l) = if is_base np x then Some false else held x b l.
Proof.
  intros H. unfold remove_cache. fold (base_slots np). rewrite rel_all_app, held_app.
  destruct (is_base np x) eqn:E.
  - rewrite H by reflexivity. cbn [bindo]. apply held_rel_in.
    + apply NoDup_rev, nodup_base.
    + rewrite <- in_rev. apply in_base, E.
  - destruct (held x b l); cbn [bindo]; [|reflexivity]. apply held_rel_not.
    rewrite <- in_rev. rewrite in_base, E. discriminate.
Qed.

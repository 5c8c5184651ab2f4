(** C60: what a cache instance acquires over its life is released, exactly once. *)
From Coq Require Import List Bool Arith Lia.
From Verif Require Import LifeModel LifeInv.
Import ListNotations.
Open Scope nat_scope.

Definition left_behind (s : st) (x : slot) : bool :=
  match x with
  | Front => ftype s | FrontOpen => fopen s | Device => standby s | Vol => standby s && vtype s
  | _ => false
  end.

Lemma remove_cores_ok r : Forall up (cores (c r)) ->
  length (filter added (cores (c r))) <= length (filter (fun b => b) (valid (c r))) \/ blank_cores (cores (c r)) ->
  exists ks m, remove_cores r = {| c := set_cores ks (inactive (c r)) (c r); fl := fl r; log := m ++ log r |} /\
    (forall x b, is_core x = false -> held x b m = Some b) /\
    (forall k j, held (Core k j) (cores_hold k j (cores (c r))) m = Some false).
Proof.
  intros U [H|B]; unfold remove_cores.
  - destruct (stop_cores_ok _ U 0 _ (log r) H) as (m & E & Ho & _ & Hc).
    destruct (stop_cores 0 _ (cores (c r)) (log r)) as [ks l]. cbn [snd] in E. subst l.
    exists ks, m. repeat split; auto. intros k j. specialize (Hc k j). rewrite Nat.sub_0_r in Hc.
    apply Hc. lia.
  - rewrite (stop_blank _ B). exists (cores (c r)), []. repeat split; auto.
    intros k j. cbn. rewrite (hold_blank _ _ _ B). reflexivity.
Qed.

Lemma stop_ok np s : wf s ->
  exists s' m, stop np s = Done s' m /\ forall x, held x (hold np s x) m = Some (left_behind s x).
Proof.
  intros W. unfold stop. on_off W; rewrite H1; cbn [negb]; cbv beta iota.
  - destruct (remove_cores_ok {| c := s; fl := []; log := [] |} H10 H11) as (ks & m & E & Ho & Hc).
    cbn [c log] in E, Hc. rewrite E. eexists _, _. split; [reflexivity|].
    intros x. cbn [log]. rewrite app_nil_r. rewrite remove_cache_held.
    + destruct x; try (cbn [is_base]; first [reflexivity | rewrite Ho by reflexivity]);
        cbn [hold is_base left_behind]; rewrite ?H1, ?H2, ?H3, ?H4, ?H5, ?H6, ?H7, ?H8; try reflexivity.
      * destruct (i <? np); reflexivity.
      * rewrite Hc. reflexivity.
    + intros Hb. destruct x; try discriminate; rewrite Ho by reflexivity; cbn in Hb |- *; rewrite ?Hb; reflexivity.
  - rewrite H9.
    dst s. cbn [dev vtype vopen ftype fopen promo cctx pol valid cores inactive frozen
    standby running detached stopp] in *; subst.
    set (evs := [Rel Promo; Rel CRef] ++ (if is_nop pl then [] else [Rel CCtx]) ++ [Rel Cleaner]).
    match goal with |- context [upd ?f ?r0] =>
      assert (Ed : exists r1, deinit_services (upd f r0) = Some r1 /\ log r1 = evs /\
        cores (c r1) = co /\ valid (c r1) = va /\ vtype (c r1) = true /\ vopen (c r1) = true) end.
    { destruct pl; eexists; split; try reflexivity; repeat split. }
    destruct Ed as (r1 & -> & El & Ec & Ev & Et & Eo). cbn [bind].
    destruct (remove_cores_ok r1) as (ks & m & E & Ho & Hc);
      [rewrite Ec; exact H10|rewrite Ec, Ev; exact H11|].
    rewrite E. unfold vol_close. cbn [c set_cores vtype vopen]. rewrite Et, Eo.
    eexists _, _. split; [reflexivity|].
    intros x. cbn [deinit_cache_volume deinit_metadata vol_deinit rel upd log c]. rewrite El.
    cbn [held].
    assert (X : held x (hold np {|
       dev := true; vtype := true; vopen := true; ftype := ft; fopen := ft; promo := true;
       cctx := negb (is_nop pl); pol := pl; valid := va; cores := co; inactive := ina;
       frozen := 0; standby := false; running := rn; detached := dt; stopp := Some StopNormal |} x)
      (remove_cache np (Rel Device :: Rel Vol :: Rel Conc :: Rel MetaVar :: Rel VolOpen :: m ++ evs)) =
      Some (match x with Front | FrontOpen => ft | StopPipe => true | _ => false end)).
    { assert (Y : held x (hold np {|
       dev := true; vtype := true; vopen := true; ftype := ft; fopen := ft; promo := true;
       cctx := negb (is_nop pl); pol := pl; valid := va; cores := co; inactive := ina;
       frozen := 0; standby := false; running := rn; detached := dt; stopp := Some StopNormal |} x)
        (m ++ evs) = Some (match x with Promo | CRef | CCtx | Cleaner | Core _ _ => false
          | x => hold np {|
       dev := true; vtype := true; vopen := true; ftype := ft; fopen := ft; promo := true;
       cctx := negb (is_nop pl); pol := pl; valid := va; cores := co; inactive := ina;
       frozen := 0; standby := false; running := rn; detached := dt; stopp := Some StopNormal |} x end)).
      { rewrite held_app. subst evs.
        destruct x; destruct pl; cbn [held app is_nop hold];
          try (cbn; apply Ho; reflexivity).
        all: cbn [bindo]; rewrite <- Ec; cbn; apply Hc. }
      rewrite remove_cache_held.
      - destruct x; cbn [is_base held]; rewrite ?Y; try reflexivity.
        cbn [hold]. destruct (i <? np); reflexivity.
      - intros Hb. destruct x; try discriminate; cbn [held]; rewrite Y; cbn in Hb |- *; rewrite ?Hb; reflexivity. }
    rewrite X. destruct x; reflexivity.
  - rewrite H10. destruct vb; dst s; cbn [dev vtype vopen ftype fopen promo cctx pol valid cores inactive frozen
    standby running detached stopp] in *; subst;
    cbn -[held hold remove_cache]; eexists _, _; (split; [reflexivity|]);
      intros x; cbn [held]; rewrite remove_cache_held.
    + destruct x; cbn [is_base held hold]; try reflexivity.
      * destruct (i <? np); reflexivity.
      * cbn. rewrite (hold_blank _ _ _ H11). reflexivity.
    + intros Hb. destruct x; try discriminate; cbn in Hb |- *; rewrite ?Hb; reflexivity.
    + destruct x; cbn [is_base held hold]; try reflexivity.
      * destruct (i <? np); reflexivity.
      * cbn. rewrite (hold_blank _ _ _ H11). reflexivity.
    + intros Hb. destruct x; try discriminate; cbn in Hb |- *; rewrite ?Hb; reflexivity.
Qed.

(* ----- starting ----- *)
Lemma init_parts_ok e : (forall i, F e (FRcPart i) = false) -> forall n i l,
  init_parts e n i l = (map Acq (rev (map RcPart (seq i n))) ++ l, i + n, true).
Proof.
  intros H. induction n as [|n IH]; intros i l; cbn [init_parts seq map rev].
  - rewrite Nat.add_0_r. reflexivity.
  - rewrite H, IH, map_app, <- app_assoc. cbn. rewrite Nat.add_succ_r. reflexivity.
Qed.
Lemma held_acq_not x b l : ~ In x l -> held x b (map Acq l) = Some b.
Proof.
  induction l as [|y l IH]; intros N; cbn; [reflexivity|].
  rewrite IH by (intros I; apply N; right; exact I).
  destruct (slot_eq_dec x y) as [->|D]; [exfalso; apply N; left; reflexivity|reflexivity].
Qed.
Lemma held_acq_in x l : NoDup l -> In x l -> held x false (map Acq l) = Some true.
Proof.
  induction 1 as [|y l N D IH]; intros I; [destruct I|]. cbn.
  destruct I as [->|I].
  - rewrite held_acq_not by exact N. destruct (slot_eq_dec x x); [reflexivity|congruence].
  - rewrite IH by exact I. destruct (slot_eq_dec x y) as [->|_]; [contradiction|reflexivity].
Qed.

Definition is_part (np : nat) (x : slot) : bool := match x with RcPart i => i <? np | _ => false end.
Lemma acq_parts np x : held x false (map Acq (rev (parts np))) = Some (is_part np x).
Proof.
  destruct (is_part np x) eqn:E.
  - apply held_acq_in; [apply NoDup_rev, nodup_parts|]. rewrite <- in_rev, in_parts.
    destruct x; try discriminate. apply Nat.ltb_lt in E. eauto.
  - apply held_acq_not. rewrite <- in_rev, in_parts. intros (i & -> & H). cbn in E.
    apply Nat.ltb_ge in E. lia.
Qed.
Lemma rel_parts np x b : (is_part np x = true -> b = true) ->
  held x b (map Rel (rev (parts np))) = Some (if is_part np x then false else b).
Proof.
  intros Hb. destruct (is_part np x) eqn:E.
  - rewrite Hb by reflexivity. apply held_rel_in; [apply NoDup_rev, nodup_parts|]. rewrite <- in_rev, in_parts.
    destruct x; try discriminate. apply Nat.ltb_lt in E. eauto.
  - apply held_rel_not. rewrite <- in_rev, in_parts. intros (i & -> & H). cbn in E.
    apply Nat.ltb_ge in E. lia.
Qed.

(** The log when _ocf_mngt_init_new_cache has succeeded. *)
Definition new_log (np : nat) : list event :=
  [Acq QLock; Acq FlushMutex; Acq MngtLocked] ++ map Acq (rev (parts np)) ++
  [Acq RcD2c; Acq RcMeta; Acq RcDirty; Acq RcCache; Acq MngtLock; Acq CacheMem; Acq CtxRef].
Lemma new_held np x : held x false (new_log np) =
  Some (match x with OnList | MetaFixed => false | _ => is_base np x end).
Proof.
  unfold new_log. rewrite held_app. rewrite held_app.
  assert (A : forall y b, is_part np y = false -> held y b (map Acq (rev (parts np))) = Some b).
  { intros y b E. apply held_acq_not. rewrite <- in_rev, in_parts. intros (i & -> & H). cbn in E.
    apply Nat.ltb_ge in E. lia. }
  pose proof (acq_parts np) as B.
  set (P := map Acq (rev (parts np))) in *. clearbody P.
  destruct x; cbn; try (rewrite A by reflexivity; reflexivity).
  rewrite B. reflexivity.
Qed.
Lemma new_cache_ok np e : ok_start e ->
  new_cache np e [Acq CtxRef] = (new_log np, true) \/
  exists l, new_cache np e [Acq CtxRef] = (l, false) /\
    forall x, held x false (rel_all [CtxRef] l) = Some false.
Proof.
  intros (P & K1 & K2 & K3 & K4). unfold new_cache.
  destruct (F e FAlloc); [right; eexists; split; [reflexivity|intros []; reflexivity]|].
  destruct (F e FLock); [right; eexists; split; [reflexivity|intros []; reflexivity]|].
  destruct (F e FRcCache); [right; eexists; split; [reflexivity|intros []; reflexivity]|].
  destruct (F e FRcDirty); [right; eexists; split; [reflexivity|intros []; reflexivity]|].
  destruct (F e FRcMeta); [right; eexists; split; [reflexivity|intros []; reflexivity]|].
  destruct (F e FRcD2c); [right; eexists; split; [reflexivity|intros []; reflexivity]|].
  rewrite (init_parts_ok e P). cbn [negb]. rewrite K1, K2, K3, K4. left. reflexivity.
Qed.
Lemma init_error_held np (md : bool) x l :
  held x false l = Some (match x with OnList => false | MetaFixed => md | _ => is_base np x end) ->
  held x false (rel_all [CtxRef] (init_handle_error np md l)) = Some false.
Proof.
  intros H. unfold init_handle_error. rewrite !rel_all_app.
  replace (rev ([QLock; FlushMutex; MngtLocked] ++ parts np ++ [RcD2c; RcMeta; RcDirty; RcCache; MngtLock] ++
           (if md then [MetaFixed] else []) ++ [CacheMem]))
    with ((CacheMem :: (if md then [MetaFixed] else [])) ++ [MngtLock; RcCache; RcDirty; RcMeta; RcD2c] ++ rev (parts np) ++
          [MngtLocked; FlushMutex; QLock])
    by (rewrite !rev_app_distr; destruct md; cbn; rewrite <- ?app_assoc; reflexivity).
  rewrite !map_app, <- !app_assoc. rewrite !held_app, H. cbn [bindo].
  pose proof (rel_parts np) as B.
  set (P := map Rel (rev (parts np))) in *. clearbody P.
  destruct x; destruct md; cbn -[Nat.ltb]; try reflexivity;
    rewrite B by (intros X; first [exact X | discriminate X]); cbn -[Nat.ltb]; try reflexivity;
    destruct (i <? np); reflexivity.
Qed.

Lemma fresh_wf nc : wf (fresh nc).
Proof.
  assert (B : blank_cores (repeat core0 nc)) by (apply Forall_forall; intros q H; apply repeat_spec in H; exact H).
  apply wf_off; cbn; auto. apply blank_up, B.
Qed.
Lemma start_ok np nc e : ok_start e ->
  match start np nc e with
  | Done s l => s = fresh nc /\ forall x, held x false l = Some (hold np s x)
  | Failed _ l => forall x, held x false l = Some false
  | _ => False
  end.
Proof.
  intros Ok. unfold start.
  destruct (F e FCtxLock); [intros []; reflexivity|].
  destruct (F e FExists); [intros []; reflexivity|].
  destruct (new_cache_ok np e Ok) as [E|(l & E & H)]; rewrite E; [|exact H].
  destruct (F e FMetaFixed).
  { intros x. apply init_error_held. rewrite new_held. destruct x; reflexivity. }
  destruct (F e FName).
  { intros x. apply init_error_held. cbn [held]. rewrite new_held. destruct x; reflexivity. }
  split; [reflexivity|]. intros x. cbn [held]. rewrite new_held.
  destruct x; cbn; try reflexivity. symmetry. f_equal.
  assert (B : blank_cores (repeat core0 nc)) by (apply Forall_forall; intros q H; apply repeat_spec in H; exact H).
  apply hold_blank, B.
Qed.

(* ----- histories ----- *)
Definition standby_op (o : op) : bool :=
  match o with OStandbyAttach _ | OStandbyLoad _ | OStandbyDetach _ | OActivate _ => true | _ => false end.
Lemma op_ok np sb o s : wf s -> ok_op sb o s -> ok_out (standby_op o) np s (do_op o s).
Proof.
  intros W H. destruct o; cbn [do_op ok_op standby_op] in *.
  - apply attach_ok; [exact W|exact H].
  - destruct H as (H1 & H2 & H3). apply load_ok; assumption.
  - destruct H as (H1 & H2 & _). apply standby_attach_ok; assumption.
  - destruct H as (H1 & H2 & _). apply standby_load_ok; assumption.
  - apply standby_detach_ok, W.
  - destruct H as (H1 & H2). apply activate_ok; assumption.
  - apply detach_ok; assumption.
  - destruct H as (H1 & H2). apply set_policy_ok; assumption.
Qed.

Lemma run_ok np sb h : forall s l, wf s -> ok_ops sb h s ->
  (forall x, held x false l = Some (hold np s x)) ->
  exists s' l', run_ops h s l = Run s' l' /\ wf s' /\ forall x, held x false l' = Some (hold np s' x).
Proof.
  induction h as [|o h IH]; intros s l W Ok H; cbn [run_ops].
  - exists s, l. auto.
  - destruct Ok as (O1 & O2). pose proof (op_ok np sb o s W O1) as X. unfold step_op.
    destruct (do_op o s) as [s'' m|s'' m| |m|m]; cbn [ok_out] in X; try destruct X as ((W' & X) & _).
    + apply IH; [exact W'|exact O2|]. intros x. rewrite held_app, H. cbn. apply X.
    + apply IH; [exact W'|exact O2|]. intros x. rewrite held_app, H. cbn. apply X.
    + apply IH; assumption.
    + destruct X.
    + destruct X.
Qed.

Lemma run_plain h : forall s l s' l', wf s -> ok_ops false h s -> no_standby s ->
  run_ops h s l = Run s' l' -> no_standby s'.
Proof.
  induction h as [|o h IH]; intros s l s' l' W Ok N; cbn [run_ops].
  - intros H. inversion H; subst. exact N.
  - destruct Ok as (O1 & O2). pose proof (op_ok 0 false o s W O1) as X. unfold step_op.
    assert (Y : match do_op o s with Done s1 _ | Failed s1 _ => no_standby s1 /\ wf s1 | _ => True end).
    { destruct (standby_op o) eqn:Eo.
      - destruct o; try discriminate; cbn [do_op ok_op] in *.
        + destruct O1 as (_ & _ & Fl). specialize (Fl eq_refl).
          destruct (standby_attach e s); try exact I; try destruct Fl.
          destruct X as ((W' & _) & S1 & S2 & S3 & S4 & S5 & S6 & S7 & S8 & S9 & S10 & _).
          destruct N as (N1 & N2 & N3). repeat split; congruence || exact W'.
        + destruct O1 as (_ & _ & Fl). specialize (Fl eq_refl).
          destruct (standby_load e s); try exact I; try destruct Fl.
          destruct X as ((W' & _) & S1 & S2 & S3 & S4 & S5 & S6 & S7 & S8 & S9 & S10 & _).
          destruct N as (N1 & N2 & N3). repeat split; congruence || exact W'.
        + destruct N as (N1 & _). unfold standby_detach. rewrite N1. exact I.
        + destruct N as (N1 & _). unfold activate. rewrite N1. exact I.
      - destruct (do_op o s); try exact I; cbn [ok_out] in X.
        + destruct X as ((W' & _) & X). split; [apply X; [reflexivity|exact N]|exact W'].
        + destruct X as ((W' & _) & S1 & S2 & S3 & S4 & S5 & S6 & S7 & S8 & S9 & S10 & _).
          destruct N as (N1 & N2 & N3). repeat split; congruence || exact W'. }
    destruct (do_op o s) as [s'' m|s'' m| |m|m]; try destruct Y as (Y1 & Y2).
    + apply IH; assumption.
    + apply IH; assumption.
    + apply IH; assumption.
    + discriminate.
    + discriminate.
Qed.

(* ===== Theorems ===== *)

(** A life without standby: whatever operations, in whatever order, and whatever of their
    allowed failures, everything acquired is released, nothing is released twice, no handle is
    lost, the program does not crash and no operation fails to complete. *)
Theorem C60_life_exact np nc e h : ok_start e -> ok_ops false h (fresh nc) ->
  exists log, life np nc e h = Stopped log /\ exact log.
Proof.
  intros Es Ok. unfold life. pose proof (start_ok np nc e Es) as S.
  destruct (start np nc e) as [s l|s l| |l|l]; try destruct S.
  - subst s. destruct (run_ok np false h (fresh nc) l (fresh_wf nc) Ok H0) as (s' & l' & E & W & H').
    rewrite E. destruct (stop_ok np s' W) as (s2 & m & E2 & H2). rewrite E2.
    eexists. split; [reflexivity|]. intros x. rewrite held_app, H'. cbn [bindo]. rewrite H2.
    assert (N : no_standby s') by (eapply run_plain; [apply (fresh_wf nc)|exact Ok| |exact E]; repeat split).
    destruct N as (N1 & N2 & N3). destruct x; cbn; rewrite ?N1, ?N2, ?N3; reflexivity.
  - exists l. split; [reflexivity|exact S].
Qed.

(** With standby instances: the same, except that the device object, the (closed) volume in it and
    the front volume can be left behind - nothing else. *)
Theorem C60_life_standby np nc e h : ok_start e -> ok_ops true h (fresh nc) ->
  exists log, life np nc e h = Stopped log /\
    forall x, ~ In x [Device; Vol; Front; FrontOpen] -> held x false log = Some false.
Proof.
  intros Es Ok. unfold life. pose proof (start_ok np nc e Es) as S.
  destruct (start np nc e) as [s l|s l| |l|l]; try destruct S.
  - subst s. destruct (run_ok np true h (fresh nc) l (fresh_wf nc) Ok H0) as (s' & l' & E & W & H').
    rewrite E. destruct (stop_ok np s' W) as (s2 & m & E2 & H2). rewrite E2.
    eexists. split; [reflexivity|]. intros x N. rewrite held_app, H'. cbn [bindo]. rewrite H2.
    destruct x; cbn in N |- *; try reflexivity; exfalso; apply N; auto.
  - exists l. split; [reflexivity|]. intros x _. apply S.
Qed.

(** A failing operation, after any history: nothing more is held than before, and the cache is as
    it was (no device if there was none, the same cores, the same state), so it can be retried. *)
Theorem C60_failed_op np nc e h o s l s' m : ok_start e -> start np nc e = Done (fresh nc) l ->
  ok_ops true h (fresh nc) -> (exists l', run_ops h (fresh nc) l = Run s l') ->
  ok_op true o s -> do_op o s = Failed s' m ->
  (forall x l', run_ops h (fresh nc) l = Run s l' -> x <> CCtx -> held x false (m ++ l') = held x false l') /\
  dev s' = dev s /\ vtype s' = vtype s /\ vopen s' = vopen s /\ promo s' = promo s /\
  cores s' = cores s /\ inactive s' = inactive s /\ frozen s' = frozen s /\
  standby s' = standby s /\ running s' = running s /\ detached s' = detached s.
Proof.
  intros Es S Ok (l1 & E) O Ef.
  pose proof (start_ok np nc e Es) as St. rewrite S in St. destruct St as (_ & St).
  destruct (run_ok np true h (fresh nc) l (fresh_wf nc) Ok St) as (s2 & l2 & E2 & W & H2).
  rewrite E in E2. inversion E2; subst s2 l2; clear E2.
  pose proof (op_ok np true o s W O) as X. rewrite Ef in X. cbn [ok_out] in X.
  destruct X as ((W' & X) & S1 & S2 & S3 & S4 & S5 & S6 & S7 & S8 & S9 & S10 & S11 & S12).
  split; [|repeat split; assumption].
  intros x l' E' Nx. rewrite E in E'. inversion E'; subst l'; clear E'.
  rewrite held_app, H2. cbn [bindo]. rewrite X. f_equal.
  destruct x; cbn; try congruence; unfold cores_hold; congruence.
Qed.

(* ===== Non-vacuity ===== *)
Definition env0 : env :=
  {| F := fun _ => false; perform_test := true; force := false; discard_on_start := true;
     open_cores := true; no_cleaner := false; atomic := false; clean := true; disk_pol := Acp;
     disk_valid := [true; false; true]; in_pool := fun i => i =? 2 |}.
Definition fp_eq_dec (x y : fp) : {x = y} + {x <> y}.
Proof. decide equality; apply Nat.eq_dec. Defined.
(** The same with one point failing. *)
Definition failing (p : fp) (e : env) : env :=
  {| F := fun q => if fp_eq_dec p q then true else F e q; perform_test := perform_test e; force := force e;
     discard_on_start := discard_on_start e; open_cores := open_cores e; no_cleaner := no_cleaner e;
     atomic := atomic e; clean := clean e; disk_pol := disk_pol e; disk_valid := disk_valid e;
     in_pool := in_pool e |}.
Definition with_disk (p : policy) (v : list bool) (e : env) : env :=
  {| F := F e; perform_test := perform_test e; force := force e;
     discard_on_start := discard_on_start e; open_cores := open_cores e; no_cleaner := no_cleaner e;
     atomic := atomic e; clean := clean e; disk_pol := p; disk_valid := v; in_pool := in_pool e |}.
Definition with_atomic (e : env) : env :=
  {| F := F e; perform_test := perform_test e; force := force e;
     discard_on_start := discard_on_start e; open_cores := open_cores e; no_cleaner := no_cleaner e;
     atomic := true; clean := clean e; disk_pol := disk_pol e; disk_valid := disk_valid e; in_pool := in_pool e |}.

(** Attach failing at the promotion policy, load of two cores failing at the size check and then
    succeeding, change of policy, detach failing and succeeding, attach again. *)
Definition good_history : list op :=
  [OAttach (failing FPromo env0); OLoad (failing FSbBad env0); OStandbyAttach (failing FPio env0);
   OLoad env0; OPolicy env0 Alru; ODetach (failing FFlushData env0); ODetach env0;
   OAttach (failing FStatus env0); OAttach env0; OPolicy (failing FCInit env0) Acp].
Ltac ok_tail_tac :=
  split; [intros i; repeat split|];
  split; [intros i; right; reflexivity|];
  split; [right; repeat split|]; repeat split.
Example good_history_ok : ok_start env0 /\ ok_ops false good_history (fresh 4).
Proof.
  split; [repeat split|].
  cbn [ok_ops good_history ok_op].
  split; [repeat split|].
  lazy -[ok_ops ok_op].
  cbn [ok_ops ok_op]. split; [split; [reflexivity|split; [ok_tail_tac|split; [reflexivity|repeat constructor]]]|].
  lazy -[ok_ops ok_op].
  cbn [ok_ops ok_op]. split; [split; [reflexivity|split; [split; [reflexivity|repeat constructor]|intros _; lazy; exact I]]|].
  lazy -[ok_ops ok_op].
  cbn [ok_ops ok_op]. split; [split; [reflexivity|split; [ok_tail_tac|split; [reflexivity|repeat constructor]]]|].
  lazy -[ok_ops ok_op].
  cbn [ok_ops ok_op]. split; [split; [left; reflexivity|reflexivity]|].
  lazy -[ok_ops ok_op]. cbn [ok_ops ok_op]. split; [reflexivity|].
  lazy -[ok_ops ok_op]. cbn [ok_ops ok_op]. split; [reflexivity|].
  lazy -[ok_ops ok_op]. cbn [ok_ops ok_op]. split; [repeat split|].
  lazy -[ok_ops ok_op]. cbn [ok_ops ok_op]. split; [repeat split|].
  lazy -[ok_ops ok_op]. cbn [ok_ops ok_op]. split; [split; [left; reflexivity|reflexivity]|].
  lazy. exact I.
Qed.
Example good_history_run : exists log, life 2 4 env0 good_history = Stopped log /\ exact log /\
  (100 <? length log) = true.
Proof.
  destruct good_history_ok as (H1 & H2).
  destruct (C60_life_exact 2 4 env0 good_history H1 H2) as (log & E & X).
  exists log. split; [exact E|]. split; [exact X|].
  assert (E' : match life 2 4 env0 good_history with Stopped l => (100 <? length l) | _ => false end = true)
    by (vm_compute; reflexivity).
  rewrite E in E'. exact E'.
Qed.

(** A standby instance that fails to come up once, is detached and activated (failing once,
    then with two cores) and stopped. *)
Definition standby_history : list op :=
  [OStandbyLoad (failing FRebuild env0); OStandbyLoad env0; OStandbyDetach env0;
   OActivate (failing FChk env0); OActivate env0].
Example standby_history_ok : ok_ops true standby_history (fresh 4).
Proof.
  cbn [ok_ops standby_history ok_op].
  split; [split; [reflexivity|split; [split; [reflexivity|repeat constructor]|intros H; discriminate H]]|].
  lazy -[ok_ops ok_op].
  cbn [ok_ops ok_op]. split; [split; [reflexivity|split; [split; [reflexivity|repeat constructor]|intros H; discriminate H]]|].
  lazy -[ok_ops ok_op]. cbn [ok_ops ok_op]. split; [exact I|].
  lazy -[ok_ops ok_op]. cbn [ok_ops ok_op]. split; [split; [reflexivity|ok_tail_tac]|].
  lazy -[ok_ops ok_op]. cbn [ok_ops ok_op]. split; [split; [reflexivity|ok_tail_tac]|].
  lazy. exact I.
Qed.

(** The hypotheses of [C60_failed_op]: a load failing on the attached-and-detached cache. *)
Example failed_op_case : exists l l' s s' m,
  start 2 4 env0 = Done (fresh 4) l /\ ok_ops true [OAttach env0; ODetach env0] (fresh 4) /\
  run_ops [OAttach env0; ODetach env0] (fresh 4) l = Run s l' /\
  ok_op true (OLoad (failing FSbBad env0)) s /\ do_op (OLoad (failing FSbBad env0)) s = Failed s' m /\
  (10 <? length m) = true.
Proof.
  do 5 eexists. split; [lazy; reflexivity|]. split.
  { cbn [ok_ops ok_op]. split; [repeat split|]. lazy -[ok_ops ok_op]. cbn [ok_ops ok_op].
    split; [reflexivity|]. lazy. exact I. }
  split; [lazy; reflexivity|]. split.
  { cbn [ok_op]. split; [reflexivity|split; [ok_tail_tac|split; [reflexivity|repeat constructor]]]. }
  split; lazy; reflexivity.
Qed.

(* ===== Refutations: the property without the restrictions of [ok_op] ===== *)

(** A life in which nothing fails but the operations of [h]'s choice, ending with [x] in state
    [b]: [Some true] left behind, [None] released twice or lost. *)
Definition ends (e : env) (h : list op) (x : slot) (b : option bool) : Prop :=
  match life 2 4 e h with Stopped log => held x false log = b | _ => False end.
Definition crashes (h : list op) : Prop :=
  match life 2 4 env0 h with Dead (Crash _) => True | _ => False end.
Definition hangs (h : list op) : Prop :=
  match life 2 4 env0 h with Dead (Never _) => True | _ => False end.
Definition no_disk_cores (p : policy) : env := with_disk p [] env0.
Definition one_core : env := with_disk Alru [true] env0.

(** 1215-1255: the second buffer of the volume test cannot be allocated - the first is lost. *)
Theorem C60_test_buffer_refuted : exists h, ends env0 h TestRw (Some true).
Proof. exists [OAttach (failing FCmp env0)]. vm_compute. reflexivity. Qed.
(** 1773-1794: attaching an atomic volume, with nothing failing, never completes. *)
Theorem C60_atomic_refuted : exists h, hangs h.
Proof. exists [OAttach (with_atomic env0)]. vm_compute. exact I. Qed.
(** 1433-1441: populating the cleaning policy fails - its context is lost. *)
Theorem C60_populate_refuted : exists h, ends env0 h CCtx (Some true).
Proof. exists [OAttach (failing FCPop env0)]. vm_compute. reflexivity. Qed.
(** /repo/src/mngt/ocf_mngt_flush.c:984-1009: the same when the policy is changed; the next change hits ENV_BUG_ON. *)
Theorem C60_set_policy_refuted :
  (exists h, ends env0 h CCtx (Some true)) /\
  exists h, crashes (OAttach env0 :: OPolicy (failing FCPop env0) Acp :: h) /\ h = [OPolicy env0 Acp].
Proof.
  split; [exists [OAttach env0; OPolicy (failing FCPop env0) Acp]; vm_compute; reflexivity|].
  eexists. split; [|reflexivity]. vm_compute. exact I.
Qed.
(** /repo/src/mngt/ocf_mngt_flush.c:1053-1096: a new cleaning policy for a cache without device
    dereferences NULL; nothing fails. *)
Theorem C60_policy_detached_refuted : crashes [OPolicy env0 Nop] /\ crashes [OPolicy env0 Acp].
Proof. split; vm_compute; exact I. Qed.
(** 734-761: a load failing after the cleaning policy was set up (here: at the shutdown status)
    loses the policy's context and reference counter; trying again hits ENV_BUG_ON. *)
Theorem C60_load_cleaning_refuted :
  exists e, ends env0 [OLoad e] CRef (Some true) /\ ends env0 [OLoad e] CCtx (Some true) /\
            crashes [OLoad e; OLoad (no_disk_cores Acp)].
Proof. exists (failing FStatus (no_disk_cores Acp)). repeat split; vm_compute; reflexivity || exact I. Qed.
(** 373-398: a load failing after the cores were added loses their volumes; if the next one fails
    while adding the core, its sequential cut-off trackers are freed twice. *)
Theorem C60_load_cores_refuted :
  ends env0 [OLoad (failing FLoad one_core)] (Core KVol 0) (Some true) /\
  ends env0 [OLoad (failing FLoad one_core); OLoad (failing (FCFront 0) one_core)] (Core KSeq 0) None.
Proof. split; vm_compute; reflexivity. Qed.
(** A core whose volume cannot be opened: its front volume is never closed. *)
Theorem C60_inactive_refuted : ends env0 [OLoad (failing (FCOpen 0) one_core)] (Core KFrontOpen 0) (Some true).
Proof. vm_compute. reflexivity. Qed.
(** 2906-2920: stopping a standby instance, with nothing failing, leaves the device, its volume
    and the front volume behind; activated and detached, the front volume. *)
Theorem C60_standby_stop_refuted :
  (forall x, In x [Device; Vol; Front; FrontOpen] -> ends env0 [OStandbyAttach env0] x (Some true)) /\
  (forall x, In x [Front; FrontOpen] ->
     ends env0 [OStandbyAttach env0; OStandbyDetach env0; OActivate env0; ODetach env0] x (Some true)).
Proof.
  split; intros x H; cbn in H;
  repeat (destruct H as [<-|H]; [vm_compute; reflexivity|]); destruct H.
Qed.
(** 2743-2769: the new stop pipeline cannot be created - the volume of the live cache is closed
    and the following stop dereferences a NULL type. *)
Theorem C60_activate_refuted :
  crashes [OStandbyAttach env0; OStandbyDetach env0; OActivate (failing FNewStop env0)].
Proof. vm_compute. exact I. Qed.
(** 3268-3299, 3315-3337: load and standby attach do not see that a device is attached; even if
    they fail on the first thing they read, the running cache has lost its device. *)
Theorem C60_load_attached_refuted :
  crashes [OAttach env0; OLoad env0] /\ crashes [OAttach env0; OStandbyAttach env0] /\
  exists s l, run_ops [OAttach env0; OLoad (failing FRead env0)] (fresh 4) [] = Run s l /\
    held Device false l = None /\ running s = true /\ dev s = false.
Proof.
  split; [vm_compute; exact I|]. split; [vm_compute; exact I|].
  do 2 eexists. split; [lazy; reflexivity|]. repeat split.
Qed.
(** 948-951: a failure behind the I/O class counters deinitialises the counter of the class that
    failed, or the one behind the last. *)
Theorem C60_start_refuted :
  ends (failing (FRcPart 1) env0) [] (RcPart 1) None /\ ends (failing FTry env0) [] (RcPart 2) None.
Proof. split; vm_compute; reflexivity. Qed.

Print Assumptions C60_life_exact.
Print Assumptions C60_life_standby.
Print Assumptions C60_failed_op.
Print Assumptions C60_load_attached_refuted.

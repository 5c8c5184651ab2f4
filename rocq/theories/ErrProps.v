(** Properties of the data path with failing devices: C04, C06. *)
From Coq Require Import NArith List Bool Lia Permutation.
From Verif Require Import DpModel DpProofs DpInv DpEng DpEng4 DpProps ErrModel ErrProofs ErrProofs2.
Import ListNotations.
Open Scope N_scope.

(** ** Specification. *)
(** Events, newest first: an operation that completed without an error (with the
    data it returned), one that completed with an error, a crash between
    operations followed by recovery. *)
Inductive fev := Ack (o : op) (b : N -> N) | Fail (o : op) | Power.

(** Values a sector may have: that of the last acknowledged write, or of a
    failed write since. *)
Fixpoint possible (m0 : N -> N -> N) (h : list fev) (cid x v : N) : Prop :=
  match h with
  | [] => v = m0 cid x
  | Ack (OpWrite _ _ _ _ r d) _ :: h' => if hits r cid x then v = d x else possible m0 h' cid x v
  | Fail (OpWrite _ _ _ _ r d) :: h' => (hits r cid x = true /\ v = d x) \/ possible m0 h' cid x v
  | _ :: h' => possible m0 h' cid x v
  end.
(** The last acknowledged write or discard. *)
Fixpoint acked_value (m0 : N -> N -> N) (h : list fev) (cid x : N) : N :=
  match h with
  | [] => m0 cid x
  | Ack (OpWrite _ _ _ _ r d) _ :: h' => if hits r cid x then d x else acked_value m0 h' cid x
  | Ack (OpDiscard _ r dv) _ :: h' => if hits r cid x then dv x else acked_value m0 h' cid x
  | _ :: h' => acked_value m0 h' cid x
  end.

(** No sector of the range is dirty in the cache. *)
Definition range_clean (g : cfg) (s : st) (r : req) : Prop :=
  forall x v, hits r (rc r) x = true -> ~ held_dirty g s (rc r) x v.

(** A write during which an I/O fails: it bypasses the cache (write-invalidate,
    pass-through), or its range is clean. *)
Definition gentle (g : cfg) (s : st) (o : op) (flt : bool) : Prop :=
  match o with
  | OpWrite fast m _ _ r _ =>
      flt = true -> (fast = false /\ (m = WI \/ m = PT)) \/ range_clean g s r
  | _ => True
  end.

(** Histories with failures of any kind and number. *)
Inductive frun (g : cfg) (vc : N -> bool) (s0 : st) : list fev -> st -> Prop :=
| fr_nil : frun g vc s0 [] s0
| fr_op h s o p err flt b t : frun g vc s0 h s -> accepted vc o -> op_e g o s = Some p ->
    fexec g p s err flt b t -> gentle g s o flt ->
    frun g vc s0 ((if err then Fail o else Ack o b) :: h) t.

(** Histories in which every operation is acknowledged, although I/Os may have
    failed, with crashes in between. *)
Definition gentle_ack (g : cfg) (s : st) (o : op) (flt : bool) : Prop :=
  match o with
  | OpWrite _ m _ _ r _ => flt = true -> m = WT \/ m = WA -> range_clean g s r
  | _ => True
  end.
Inductive arun (g : cfg) (vc : N -> bool) (s0 : st) : list fev -> st -> Prop :=
| ar_nil : arun g vc s0 [] s0
| ar_op h s o p flt b t : arun g vc s0 h s -> accepted vc o -> op_e g o s = Some p ->
    fexec g p s false flt b t -> gentle_ack g s o flt -> arun g vc s0 (Ack o b :: h) t
| ar_ok h s o b t : arun g vc s0 h s -> accepted vc o ->
    exec g (op_prog g o s) s b t -> arun g vc s0 (Ack o b :: h) t
| ar_crash h s t : arun g vc s0 h s -> recover g vc s = Some t -> arun g vc s0 (Power :: h) t.

(** ** Proof glue. *)
Lemma range_nodirty g vc s r : wf g vc -> Inv g vc (ghost s) -> 0 < rn r -> range_clean g s r -> nodirty g s r.
Proof.
  intros W I Hn H c cid cl o E Ho D Q. assert (Q' := Q). destruct Q' as [-> _].
  apply (H (cl * ls g + o) (cdat s c o)); [now apply hits_inreq|].
  exists c, cl, o. repeat (split; [assumption || reflexivity|]).
  split; [now apply (i_dv _ _ _ I)|]. split; [assumption|reflexivity].
Qed.

Lemma frun_wk g vc m c0 pv h s : wf g vc -> frun g vc (empty_cache m c0 pv) h s ->
  Wk g vc s (possible m h).
Proof.
  intros W R. induction R as [|h s o p err flt b t R IH A E X G].
  - eapply wk_weaken; [|apply (inv_wk g vc W), empty_inv]. cbn. unfold eqabs.
    intros cid x v ->. apply empty_abs.
  - destruct o as [fast md promo vs r d|fast md promo seqc vs r|step r dv|cs|c|cs]; cbn [op_e] in E;
      try discriminate; injection E as <-; cbn [accepted] in A.
    + destruct A as [Hn Hv].
      assert (P : wpost g vc (possible m h) r d err t).
      { assert (G' : flt = false \/ nodirty g s r \/ (fast = false /\ bypass md = true)).
        { destruct flt; [|now left]. right. cbn [gentle] in G. destruct (G eq_refl) as [[F M]|C].
          - right. split; [assumption|]. destruct M as [-> | ->]; reflexivity.
          - left. apply (range_nodirty g vc s r W (w_ram _ _ _ _ IH) Hn C). }
        destruct fast.
        - apply (ewp_fexec _ _ _ _ _ _ _ X _ (write_fast_wk g vc W s md promo vs r d _ IH Hn Hv)).
          destruct G' as [G'|[G'|[G' _]]]; [now left|now right|discriminate].
        - apply (ewp_fexec _ _ _ _ _ _ _ X _ (write_wk g vc W s md promo vs r d _ IH Hn Hv)). tauto. }
      destruct P as [P1 P2]. destruct err.
      * eapply wk_weaken; [|exact P1]. cbn [possible]. intros cid x v [Q|[Q1 Q2]]; [now right|left].
        split; [now apply hits_inreq|assumption].
      * eapply wk_weaken; [|now apply P2]. cbn [possible]. intros cid x v [Q1 Q2].
        destruct (hits r cid x) eqn:Hh; [apply Q1; now apply hits_inreq|apply Q2; now apply hits_not].
    + destruct A as [Hn Hv].
      assert (P : rpost g vc (possible m h) r err b t).
      { destruct fast.
        - apply (ewp_fexec _ _ _ _ _ _ _ X _ (read_fast_wk g vc W s md promo seqc vs r _ IH Hn Hv)).
        - apply (ewp_fexec _ _ _ _ _ _ _ X _ (read_wk g vc W s md promo seqc vs r _ IH Hn Hv)). }
      destruct P as [P _]. destruct err; exact P.
    + assert (P := ewp_fexec _ _ _ _ _ _ _ X _ (op_clean_wk g vc W s cs _ IH)). destruct err; exact P.
    + assert (P : Wk g vc t (possible m h)).
      { destruct (line_dirty g s c) eqn:LD.
        - inversion X; subst. exact IH.
        - assert (Q := ewp_fexec _ _ _ _ _ _ _ X (fun _ _ _ t => Wk g vc t (possible m h))).
          apply Q. cbn [ewp]. apply (drop_wk g vc W s c _ IH LD). }
      destruct err; exact P.
    + assert (P : Wk g vc t (possible m h)).
      { apply (ewp_fexec _ _ _ _ _ _ _ X (fun _ _ _ t => Wk g vc t (possible m h))). cbn [ewp].
        intros l ce oe O. cbn [ewp]. apply (wk_persist_sub g vc cs); [apply O|assumption]. }
      destruct err; exact P.
Qed.

Lemma arun_inv g vc m c0 pv h s : wf g vc -> arun g vc (empty_cache m c0 pv) h s ->
  Inv g vc s /\ forall cid x, abs g s cid x = acked_value m h cid x.
Proof.
  intros W R. induction R as [|h s o p flt b t R [I M] A E X G|h s o b t R [I M] A E|h s t R [I M] E].
  - split; [apply empty_inv|]. intros. apply empty_abs.
  - assert (SF : safe g s o flt).
    { destruct o as [fast md promo vs r d| | | | | ]; cbn [safe]; try exact Logic.I.
      destruct flt; [|now left]. right. cbn [gentle_ack] in G. specialize (G eq_refl).
      assert (Hn : 0 < rn r) by apply A.
      destruct md; cbn [tolerant]; try (right; reflexivity); left;
        apply (range_nodirty g vc s r W (inv_ram g vc W s I) Hn); apply G; tauto. }
    pose proof (ewp_fexec _ _ _ _ _ _ _ X _ (op_inv g vc W s o p I (accepted_ok vc o A) E) eq_refl SF) as [It P].
    split; [assumption|]. intros cid x.
    destruct o as [fast md promo vs r d|fast md promo seqc vs r|step r dv|cs|c|cs]; cbn [acked_value op_e] in *;
      try discriminate.
    + destruct (P cid x) as [P1 P2]. destruct A as [Hn _]. destruct (hits r cid x) eqn:Hh.
      * apply P1. now apply hits_inreq.
      * rewrite P2; [apply M|]. now apply hits_not.
    + destruct P as [P _]. now rewrite P.
    + now rewrite P.
    + now rewrite P.
    + now rewrite P.
  - pose proof (wp_exec _ _ _ _ _ E _ _ (op_wp g vc W s o I (accepted_ok vc o A))) as [It P].
    split; [assumption|]. intros cid x.
    destruct o as [fast md promo vs r d|fast md promo seqc vs r|step r dv|cs|c|cs]; cbn [acked_value].
    + destruct P as [P _]. destruct (P cid x) as [P1 P2]. destruct A as [Hn _]. destruct (hits r cid x) eqn:Hh.
      * apply P1. now apply hits_inreq.
      * rewrite P2; [apply M|]. now apply hits_not.
    + destruct P as [P _]. now rewrite P.
    + destruct P as [P _]. destruct (P cid x) as [P1 P2]. destruct A as [Hn _]. destruct (hits r cid x) eqn:Hh.
      * apply P1. now apply hits_inreq.
      * rewrite P2; [apply M|]. now apply hits_not.
    + destruct P as [P _]. now rewrite P.
    + now rewrite P.
    + destruct P as [P _]. now rewrite P.
  - destruct (mix_recover g vc s _ W (inv_mix g vc s W I)) as (t' & Q & It & At).
    rewrite E in Q. injection Q as <-. split; [assumption|]. intros cid x. cbn [acked_value]. now rewrite At.
Qed.

(** ** C04 *)
(** Whatever fails in any number of operations: a read that completes without an
    error returns data of the last acknowledged write or of a write that failed
    since then.  Missing: writes during which an I/O fails although their range
    holds dirty data (refuted below), discards. *)
Theorem C04_failed_writes_partial : forall g vc m c0 pv h s fast md promo seqc vs r p flt b t x,
  wf g vc -> frun g vc (empty_cache m c0 pv) h s ->
  accepted vc (OpRead fast md promo seqc vs r) ->
  op_e g (OpRead fast md promo seqc vs r) s = Some p -> fexec g p s false flt b t ->
  hits r (rc r) x = true ->
  possible m h (rc r) x (b x).
Proof.
  intros g vc m c0 pv h s fast md promo seqc vs r p flt b t x W R A E X Hh.
  pose proof (frun_wk g vc m c0 pv h s W R) as K. destruct A as [Hn Hv]. cbn [op_e] in E. injection E as <-.
  assert (P : rpost g vc (possible m h) r false b t).
  { destruct fast.
    - apply (ewp_fexec _ _ _ _ _ _ _ X _ (read_fast_wk g vc W s md promo seqc vs r _ K Hn Hv)).
    - apply (ewp_fexec _ _ _ _ _ _ _ X _ (read_wk g vc W s md promo seqc vs r _ K Hn Hv)). }
  apply P; [reflexivity|]. now apply hits_inreq.
Qed.

(** One failed write, then a read: old or new data. *)
Definition no_failure (h : list fev) : Prop := forall o, ~ In (Fail o) h.
Definition no_discard (h : list fev) : Prop := forall a r d b, ~ In (Ack (OpDiscard a r d) b) h.

Lemma possible_acked m h cid x v : no_failure h -> no_discard h -> possible m h cid x v ->
  v = acked_value m h cid x.
Proof.
  induction h as [|e h IH]; intros F D P; [exact P|].
  assert (F' : no_failure h) by (intros o H; apply (F o); now right).
  assert (D' : no_discard h) by (intros a r d b H; apply (D a r d b); now right).
  destruct e as [o b|o|]; cbn [possible acked_value] in *.
  - destruct o as [fast md promo vs r d|fast md promo seqc vs r|step r dv|cs|c|cs]; auto.
    + destruct (hits r cid x); auto.
    + exfalso. apply (D step r dv b). now left.
  - exfalso. apply (F o). now left.
  - now apply IH.
Qed.

Lemma frun_no_discard g vc s0 h s : frun g vc s0 h s -> no_discard h.
Proof.
  induction 1 as [|h s o p err flt b t R IH A E X G]; intros a r d b' H; [destruct H|].
  destruct H as [H|H]; [|now apply (IH a r d b')].
  destruct err; [discriminate|]. injection H as -> _. discriminate.
Qed.

Theorem C04_old_or_new_partial : forall g vc m c0 pv h s fw mw pw vw r d fast md promo seqc vs q p flt b t x,
  wf g vc ->
  frun g vc (empty_cache m c0 pv) (Fail (OpWrite fw mw pw vw r d) :: h) s ->
  no_failure h ->
  accepted vc (OpRead fast md promo seqc vs q) ->
  op_e g (OpRead fast md promo seqc vs q) s = Some p -> fexec g p s false flt b t ->
  hits q (rc q) x = true ->
  (hits r (rc q) x = true /\ b x = d x) \/ b x = acked_value m h (rc q) x.
Proof.
  intros g vc m c0 pv h s fw mw pw vw r d fast md promo seqc vs q p flt b t x W R F A E X Hh.
  pose proof (C04_failed_writes_partial g vc m c0 pv _ s fast md promo seqc vs q p flt b t x W R A E X Hh) as P.
  cbn [possible] in P. destruct P as [P|P]; [now left|right]. apply possible_acked; try assumption.
  intros a q' d' b' H. apply (frun_no_discard g vc _ _ _ R a q' d' b'). now right.
Qed.

(** The programs with failures include the fault-free runs of DpModel. *)
Theorem C04_faultfree_runs_included : forall g o s p b t,
  op_e g o s = Some p -> exec g (op_prog g o s) s b t -> fexec g p s false false b t.
Proof. intros g o s p b t E X. exact (ref_exec _ _ _ _ _ _ (op_ref g s o p E) b t X). Qed.

(** ** C06 *)
(** Every operation acknowledged, crashes in between: recovery succeeds and
    reads return the last acknowledged data.  Missing: a tolerated cache error
    of a write-through write over dirty data (refuted below), and failures
    reported to the user earlier in the history (refuted below). *)
Theorem C06_recovery_after_hidden_error_partial : forall g vc m c0 pv h s,
  wf g vc -> arun g vc (empty_cache m c0 pv) h s -> exists t, recover g vc s = Some t.
Proof.
  intros g vc m c0 pv h s W R. destruct (arun_inv g vc m c0 pv h s W R) as [I _].
  destruct (mix_recover g vc s _ W (inv_mix g vc s W I)) as (t & Q & _). now exists t.
Qed.

Theorem C06_acknowledged_data_survives_partial : forall g vc m c0 pv h s fast md promo seqc vs r p flt b t x,
  wf g vc -> arun g vc (empty_cache m c0 pv) h s ->
  accepted vc (OpRead fast md promo seqc vs r) ->
  op_e g (OpRead fast md promo seqc vs r) s = Some p -> fexec g p s false flt b t ->
  hits r (rc r) x = true ->
  b x = acked_value m h (rc r) x.
Proof.
  intros g vc m c0 pv h s fast md promo seqc vs r p flt b t x W R A E X Hh.
  destruct (arun_inv g vc m c0 pv h s W R) as [I M].
  pose proof (ewp_fexec _ _ _ _ _ _ _ X _ (op_inv g vc W s _ p I (accepted_ok vc _ A) E) eq_refl Logic.I) as [_ [_ P]].
  rewrite P; [apply M|]. apply hits_inreq; [apply A|assumption].
Qed.

(** ** Concrete runs. *)
Lemma part_outcome sel ce oe es : forall i, outcome es (part sel ce oe i es) ce oe.
Proof.
  unfold outcome. induction es as [|e es IH]; intros i; cbn [part].
  - split; [intros e []|]. split; intros _ e [].
  - destruct (IH (S i)) as (I1 & I2 & I3).
    destruct (negb (if to_core e then oe else ce) || existsb (Nat.eqb i) sel) eqn:B.
    + split; [|split].
      * intros e' [H|H]; [now left|right; now apply I1].
      * intros E e' [H|H] T; [now left|right; now apply I2].
      * intros E e' [H|H] T; [now left|right; now apply I3].
    + apply orb_false_iff in B. destruct B as [B _]. apply negb_false_iff in B. split; [|split].
      * intros e' H. right. now apply I1.
      * intros E e' [H|H] T; [subst e'; rewrite T in B; congruence|now apply I2].
      * intros E e' [H|H] T; [subst e'; rewrite T in B; congruence|now apply I3].
Qed.

Lemma run_e_fexec g p : forall fs s, exists flt,
  fexec g p s (fst (fst (run_e g p fs s))) flt (snd (fst (run_e g p fs s))) (snd (run_e g p fs s)).
Proof.
  induction p as [err b|es k IH|es k IH]; intros fs s; cbn [run_e].
  - eexists. constructor.
  - destruct fs as [|[[sel ce] oe] fs].
    + destruct (IH false false (do_ios es s) [] (do_ios es s)) as [flt F]. eexists.
      eapply fx_io; [apply perm_outcome, Permutation_refl|exact F].
    + destruct (IH ce oe (do_ios (part sel ce oe 0 es) s) fs (do_ios (part sel ce oe 0 es) s)) as [flt F].
      eexists. eapply fx_io; [apply part_outcome|exact F].
  - destruct (IH (do_mems g es s) fs (do_mems g es s)) as [flt F]. eexists. constructor. exact F.
Qed.

(** *** Refutations. *)
Definition s1 := seq1 [o1] s_init.     (* sectors 1 and 2 dirty: 1001, 1002; core: 201, 202 *)
Lemma s1_run : exists h, run g2 vc1 s_init h s1 /\ h = [Done o1 (fst (run_seq g2 (op_prog g2 o1 s_init) s_init))].
Proof.
  eexists. split; [|reflexivity]. unfold s1, seq1. cbn [fold_left].
  apply (run_op g2 vc1 s_init [] s_init o1); [constructor|split; reflexivity|apply run_seq_exec].
Qed.

(** A write over a dirty sector fails (state [t]); a fault-free read afterwards
    returns neither the data of this write nor the data from before it. *)
Definition lost_by_failure (mw : mode) (fs : list (list nat * bool * bool)) : Prop :=
  exists g vc m c0 pv h s promo vw r d p flt b t md pr sc vs q b' t' x,
    wf g vc /\ run g vc (empty_cache m c0 pv) h s /\ crash_free h /\
    accepted vc (OpWrite false mw promo vw r d) /\
    op_e g (OpWrite false mw promo vw r d) s = Some p /\
    fexec g p s true flt b t /\ run_e g p fs s = (true, b, t) /\
    accepted vc (OpRead false md pr sc vs q) /\
    exec g (op_prog g (OpRead false md pr sc vs q) t) t b' t' /\
    hits r (rc r) x = true /\ hits q (rc r) x = true /\
    b' x <> d x /\ b' x <> latest m h (rc r) x.

Lemma lost_by mw fs : 
  let p := write_e g2 mw true [] (rq 2 1) (fun x => 2000 + x) s1 in
  fst (fst (run_e g2 p fs s1)) = true ->
  fst (run_seq g2 (op_prog g2 o5 (snd (run_e g2 p fs s1))) (snd (run_e g2 p fs s1))) 2 = 202 ->
  lost_by_failure mw fs.
Proof.
  intros p E1 E2. destruct s1_run as (h & R & Eh).
  destruct (run_e_fexec g2 p fs s1) as [flt F]. rewrite E1 in F.
  set (t := snd (run_e g2 p fs s1)) in *.
  exists g2, vc1, m1, (fun _ _ => 0), (fun _ _ => true), h, s1, true, [], (rq 2 1), (fun x => 2000 + x), p, flt,
    (snd (fst (run_e g2 p fs s1))), t, WT, true, false, [1], (rq 0 4),
    (fst (run_seq g2 (op_prog g2 o5 t) t)), (snd (run_seq g2 (op_prog g2 o5 t) t)), 2.
  split; [exact g2_wf|]. split; [exact R|]. split; [subst h; intros o [H|[]]; discriminate|].
  split; [split; reflexivity|]. split; [reflexivity|]. split; [exact F|].
  split. { unfold t. rewrite <- E1. destruct (run_e g2 p fs s1) as [[e b] u]. reflexivity. }
  split; [split; reflexivity|]. split; [apply run_seq_exec|]. split; [reflexivity|]. split; [reflexivity|].
  rewrite E2. split; [discriminate|]. subst h. vm_compute. discriminate.
Qed.

(** Write-through: only the core write fails (nothing of it reached the core),
    the range is purged together with the dirty data. *)
Theorem C04_wt_refuted : lost_by_failure WT [([], false, true)].
Proof. apply lost_by; vm_compute; reflexivity. Qed.
(** Write-back: the cache write fails, the range is purged together with the
    dirty data. *)
Theorem C04_wb_refuted : lost_by_failure WB [([], true, false)].
Proof. apply lost_by; vm_compute; reflexivity. Qed.

(** Write-through over a dirty sector, the cache write fails: acknowledged; after
    a crash recovery brings back the old dirty data. *)
Theorem C06_refuted : exists g vc m c0 pv h s promo vw r d p flt b t u md pr sc vs q b' t' x,
    wf g vc /\ run g vc (empty_cache m c0 pv) h s /\ crash_free h /\
    accepted vc (OpWrite false WT promo vw r d) /\
    op_e g (OpWrite false WT promo vw r d) s = Some p /\ fexec g p s false flt b t /\
    run_e g p [([], true, false)] s = (false, b, t) /\
    recover g vc t = Some u /\
    accepted vc (OpRead false md pr sc vs q) /\
    exec g (op_prog g (OpRead false md pr sc vs q) u) u b' t' /\
    hits r (rc r) x = true /\ hits q (rc r) x = true /\
    b' x <> d x /\ b' x = latest m h (rc r) x.
Proof.
  destruct s1_run as (h & R & Eh).
  set (p := write_e g2 WT true [] (rq 2 1) (fun x => 2000 + x) s1).
  set (fs := [([] : list nat, true, false)]).
  assert (E1 : fst (fst (run_e g2 p fs s1)) = false) by (vm_compute; reflexivity).
  destruct (run_e_fexec g2 p fs s1) as [flt F]. rewrite E1 in F.
  assert (E2 : option_map (fun u => fst (run_seq g2 (op_prog g2 o5 u) u) 2) (recover g2 vc1 (snd (run_e g2 p fs s1))) = Some 1002)
    by (vm_compute; reflexivity).
  set (t := snd (run_e g2 p fs s1)) in *.
  destruct (recover g2 vc1 t) as [u|] eqn:U; [|discriminate]. cbn [option_map] in E2.
  assert (E3 : fst (run_seq g2 (op_prog g2 o5 u) u) 2 = 1002) by (now injection E2). clear E2.
  exists g2, vc1, m1, (fun _ _ => 0), (fun _ _ => true), h, s1, true, [], (rq 2 1), (fun x => 2000 + x), p, flt,
    (snd (fst (run_e g2 p fs s1))), t, u, WT, true, false, [1], (rq 0 4),
    (fst (run_seq g2 (op_prog g2 o5 u) u)), (snd (run_seq g2 (op_prog g2 o5 u) u)), 2.
  split; [exact g2_wf|]. split; [exact R|]. split; [subst h; intros o [H|[]]; discriminate|].
  split; [split; reflexivity|]. split; [reflexivity|]. split; [exact F|].
  split. { unfold t. rewrite <- E1. destruct (run_e g2 p fs s1) as [[e b] w]. reflexivity. }
  split; [exact U|].
  split; [split; reflexivity|]. split; [apply run_seq_exec|]. split; [reflexivity|]. split; [reflexivity|].
  rewrite E3. split; [discriminate|]. subst h. vm_compute. reflexivity.
Qed.

(** A write-back write fails because the metadata cannot be written; the user
    writes again, without any failure, and the write is acknowledged.  After a
    crash the acknowledged data is lost: the second write finds its sectors
    already dirty in memory and does not write the metadata. *)
Theorem C06_retry_refuted : exists g vc m c0 pv h s promo vw r d p flt b t b1 t1 u md pr sc vs q b' t' x,
    wf g vc /\ run g vc (empty_cache m c0 pv) h s /\ crash_free h /\
    accepted vc (OpWrite false WB promo vw r d) /\
    op_e g (OpWrite false WB promo vw r d) s = Some p /\ fexec g p s true flt b t /\
    exec g (op_prog g (OpWrite false WB promo vw r d) t) t b1 t1 /\
    recover g vc t1 = Some u /\
    accepted vc (OpRead false md pr sc vs q) /\
    exec g (op_prog g (OpRead false md pr sc vs q) u) u b' t' /\
    hits r (rc r) x = true /\ hits q (rc r) x = true /\ b' x <> d x.
Proof.
  set (p := write_e g2 WB true [0; 1] (rq 1 2) (fun x => 1000 + x) s_init).
  set (fs := [([] : list nat, false, false); ([], true, false)]).
  assert (E1 : fst (fst (run_e g2 p fs s_init)) = true) by (vm_compute; reflexivity).
  destruct (run_e_fexec g2 p fs s_init) as [flt F]. rewrite E1 in F.
  assert (E2 : option_map (fun u => fst (run_seq g2 (op_prog g2 o5 u) u) 2)
    (recover g2 vc1 (snd (run_seq g2 (op_prog g2 o1 (snd (run_e g2 p fs s_init))) (snd (run_e g2 p fs s_init))))) = Some 202)
    by (vm_compute; reflexivity).
  set (t := snd (run_e g2 p fs s_init)) in *.
  set (t1 := snd (run_seq g2 (op_prog g2 o1 t) t)) in *.
  destruct (recover g2 vc1 t1) as [u|] eqn:U; [|discriminate]. cbn [option_map] in E2.
  assert (E3 : fst (run_seq g2 (op_prog g2 o5 u) u) 2 = 202) by (now injection E2). clear E2.
  exists g2, vc1, m1, (fun _ _ => 0), (fun _ _ => true), [], s_init, true, [0; 1], (rq 1 2), (fun x => 1000 + x), p, flt,
    (snd (fst (run_e g2 p fs s_init))), t, (fst (run_seq g2 (op_prog g2 o1 t) t)), t1, u, WT, true, false, [1], (rq 0 4),
    (fst (run_seq g2 (op_prog g2 o5 u) u)), (snd (run_seq g2 (op_prog g2 o5 u) u)), 2.
  split; [exact g2_wf|]. split; [constructor|]. split; [intros o []|].
  split; [split; reflexivity|]. split; [reflexivity|]. split; [exact F|].
  split; [apply run_seq_exec|]. split; [exact U|].
  split; [split; reflexivity|]. split; [apply run_seq_exec|]. split; [reflexivity|]. split; [reflexivity|].
  rewrite E3. discriminate.
Qed.

(** *** The hypotheses of the positive theorems are met. *)
(* a failed write-through write (core error) of clean cached data: afterwards the
   core may have it or not *)
Definition ow := OpWrite false WT true [0; 1] (rq 0 4) (fun x => 500 + x).
Definition s2 := seq1 [ow] s_init.
Definition p2 := write_e g2 WT true [] (rq 1 2) (fun x => 600 + x) s2.
Lemma s2_clean : range_clean g2 s2 (rq 1 2).
Proof.
  intros x v _ (c & cl & o & _ & _ & _ & _ & D & _).
  assert (E : forall c o, drt s2 c o = false) by (intros; vm_compute; reflexivity). congruence.
Qed.
Example ex_failed_write : exists b h,
  frun g2 vc1 s_init (Fail (OpWrite false WT true [] (rq 1 2) (fun x => 600 + x)) :: h)
    (snd (run_e g2 p2 [([0%nat; 3%nat], true, true)] s2)) /\ h = [Ack ow b] /\ no_failure h /\
  rd (snd (run_e g2 p2 [([0%nat; 3%nat], true, true)] s2)) o5 = [500; 501; 602; 503].
Proof.
  destruct (run_e_fexec g2 p2 [([0%nat; 3%nat], true, true)] s2) as [flt F].
  eexists. eexists. split; [|split; [reflexivity|split]].
  - replace (fst (fst (run_e g2 p2 [([0%nat; 3%nat], true, true)] s2))) with true in F by (vm_compute; reflexivity).
    apply (fr_op g2 vc1 s_init [Ack ow (fst (run_seq g2 (op_prog g2 ow s_init) s_init))] s2
      (OpWrite false WT true [] (rq 1 2) (fun x => 600 + x)) p2 true flt) in F.
    + exact F.
    + unfold s2, seq1. cbn [fold_left].
      assert (Fw : fexec g2 (write_e g2 WT true [0; 1] (rq 0 4) (fun x => 500 + x) s_init) s_init false false
        (fst (run_seq g2 (op_prog g2 ow s_init) s_init)) (snd (run_seq g2 (op_prog g2 ow s_init) s_init))).
      { apply (C04_faultfree_runs_included g2 ow s_init); [reflexivity|apply run_seq_exec]. }
      apply (fr_op g2 vc1 s_init [] s_init ow _ false false) in Fw; try exact Fw.
      * constructor.
      * split; reflexivity.
      * reflexivity.
      * intros H. discriminate.
    + split; reflexivity.
    + reflexivity.
    + intros _. right. exact s2_clean.
  - intros o [H|[]]. discriminate.
  - vm_compute. reflexivity.
Qed.

(* an acknowledged write-through write whose cache write failed, a crash, recovery *)
Example ex_hidden_error : exists h u, arun g2 vc1 s_init h u /\ length h = 3%nat /\
  rd u o5 = [500; 601; 602; 503].
Proof.
  destruct (run_e_fexec g2 p2 [([0%nat], true, false)] s2) as [flt F].
  replace (fst (fst (run_e g2 p2 [([0%nat], true, false)] s2))) with false in F by (vm_compute; reflexivity).
  assert (R2 : arun g2 vc1 s_init [Ack ow (fst (run_seq g2 (op_prog g2 ow s_init) s_init))] s2).
  { unfold s2, seq1. cbn [fold_left]. apply (ar_ok g2 vc1 s_init [] s_init); [constructor|split; reflexivity|apply run_seq_exec]. }
  assert (R3 := ar_op g2 vc1 s_init _ s2 (OpWrite false WT true [] (rq 1 2) (fun x => 600 + x)) p2 flt _ _ R2
    (conj eq_refl eq_refl) eq_refl F (fun _ _ => s2_clean)).
  set (t := snd (run_e g2 p2 [([0%nat], true, false)] s2)) in *.
  assert (E : option_map (fun u => rd u o5) (recover g2 vc1 t) = Some [500; 601; 602; 503]) by (vm_compute; reflexivity).
  destruct (recover g2 vc1 t) as [u|] eqn:U; [|discriminate]. cbn [option_map] in E.
  eexists. exists u. split; [apply (ar_crash _ _ _ _ _ _ R3 U)|]. split; [reflexivity|].
  congruence.
Qed.

Print Assumptions C04_failed_writes_partial.
Print Assumptions C04_old_or_new_partial.
Print Assumptions C04_faultfree_runs_included.
Print Assumptions C04_wt_refuted.
Print Assumptions C04_wb_refuted.
Print Assumptions C06_recovery_after_hidden_error_partial.
Print Assumptions C06_acknowledged_data_survives_partial.
Print Assumptions C06_refuted.
Print Assumptions C06_retry_refuted.

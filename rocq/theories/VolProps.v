(** C51: flushed data and power failures. *)
From Coq Require Import NArith List Bool Lia Permutation.
From Verif Require Import DpModel DpProofs DpInv DpEng DpEng2 DpEng3 DpEng4 DpProps
  VolModel VolProofs VolProofs2.
Import ListNotations.
Open Scope N_scope.

(** ** Specification. *)

(** Events, newest first: a completed operation, a completed flush of a core, an
    operation cut by a power failure (after which the cache was recovered). *)
Inductive vev := VDone (o : op) (b : N -> N) | VFlushed (cid : N) | VCut (o : op).

(** What a sector may contain now, and what it may contain after a power
    failure: data of writes completed before the last flush is safe until it is
    overwritten, of the writes since then any may be the one that survives. *)
Fixpoint poss (m0 : N -> N -> N) (h : list vev) (cid x : N) : (N -> Prop) * (N -> Prop) :=
  match h with
  | [] => (fun v => v = m0 cid x, fun v => v = m0 cid x)
  | e :: h' =>
      let cur := fst (poss m0 h' cid x) in
      let surv := snd (poss m0 h' cid x) in
      match e with
      | VDone (OpWrite _ _ _ _ r d) _ =>
          if hits r cid x then (fun v => v = d x, fun v => v = d x \/ surv v) else (cur, surv)
      | VDone _ _ => (cur, surv)
      | VFlushed i => if i =? cid then (cur, cur) else (cur, surv)
      | VCut (OpWrite _ _ _ _ r d) =>
          if hits r cid x then (fun v => v = d x \/ surv v, fun v => v = d x \/ surv v)
          else (surv, surv)
      | VCut _ => (surv, surv)
      end
  end.

Definition fresh (s : st) : vst := {| now := s; dur := s; pend := [] |}.

(** Histories of operations allowed by [ok], flushes and power failures. *)
Inductive vrun (g : cfg) (vc : N -> bool) (plp : bool) (ok : st -> op -> Prop) (s0 : st)
    : list vev -> vst -> Prop :=
| vrun_nil : vrun g vc plp ok s0 [] (fresh s0)
| vrun_op h v o p b t : vrun g vc plp ok s0 h v -> accepted vc o -> ok (now v) o ->
    op_v g o (now v) = Some p -> vexec g plp p v b t -> vrun g vc plp ok s0 (VDone o b :: h) t
| vrun_flush h v cid : vrun g vc plp ok s0 h v ->
    vrun g vc plp ok s0 (VFlushed cid :: h) (user_flush cid v)
| vrun_cut h v o p t u s : vrun g vc plp ok s0 h v -> accepted vc o -> ok (now v) o ->
    op_v g o (now v) = Some p -> vcrashed g plp p v t -> powered t u -> recover g vc u = Some s ->
    vrun g vc plp ok s0 (VCut o :: h) (fresh s).

(** C51: every read returns possible data. *)
Definition flush_safe (g : cfg) (vc : N -> bool) (plp : bool) (ok : st -> op -> Prop) : Prop :=
  forall m c0 pv h v fast md promo seqc vs r p b t x,
    vrun g vc plp ok (empty_cache m c0 pv) h v ->
    accepted vc (OpRead fast md promo seqc vs r) ->
    op_v g (OpRead fast md promo seqc vs r) (now v) = Some p ->
    vexec g plp p v b t -> hits r (rc r) x = true -> fst (poss m h (rc r) x) (b x).

(** And no power failure leaves a cache that cannot be loaded. *)
Definition always_loads (g : cfg) (vc : N -> bool) (plp : bool) (ok : st -> op -> Prop) : Prop :=
  forall m c0 pv h v o p t u,
    vrun g vc plp ok (empty_cache m c0 pv) h v ->
    accepted vc o -> ok (now v) o -> op_v g o (now v) = Some p -> vcrashed g plp p v t -> powered t u ->
    exists s, recover g vc u = Some s.

(** Every operation (of those modelled). *)
Definition any_op (s : st) (o : op) : Prop := True.
(** Write-through and write-around requests are made only to ranges that hold no
    dirty data. *)
Definition no_wt_over_dirty (g : cfg) (s : st) (o : op) : Prop :=
  match o with
  | OpWrite _ (WT | WA) _ _ r _ => forall x v, hits r (rc r) x = true -> ~ held_dirty g s (rc r) x v
  | _ => True
  end.
(** No write leaves data in the cache only. *)
Definition no_lazy_write (s : st) (o : op) : Prop :=
  match o with OpWrite fast m _ _ _ _ => fast = false /\ m <> WB /\ m <> WO | _ => True end.

(** ** Proof glue. *)
Lemma cur_surv m0 h cid x v : fst (poss m0 h cid x) v -> snd (poss m0 h cid x) v.
Proof.
  destruct h as [|e h]; [exact (fun H => H)|]. revert cid x v. revert e. induction h as [|e' h IH]; intros e cid x v.
  - destruct e as [o b|i|o]; cbn [poss fst snd].
    + destruct o; cbn [fst snd]; try tauto. destruct (hits r cid x); cbn [fst snd]; tauto.
    + destruct (i =? cid); tauto.
    + destruct o; cbn [fst snd]; try tauto. destruct (hits r cid x); cbn [fst snd]; tauto.
  - specialize (IH e' cid x v). remember (e' :: h) as h'. cbn [poss].
    destruct e as [o b|i|o].
    + destruct o; cbn [fst snd]; try tauto. destruct (hits r cid x); cbn [fst snd]; tauto.
    + destruct (i =? cid); cbn [fst snd]; tauto.
    + destruct o; cbn [fst snd]; try tauto. destruct (hits r cid x); cbn [fst snd]; tauto.
Qed.

Section S.
Context (g : cfg) (vc : N -> bool) (W : wf g vc) (m0 : N -> N -> N).
Local Notation HL := (HL g vc W).
Local Notation surv h := (fun cid x => snd (poss m0 h cid x)).

Lemma j_idle v (A : N -> N -> N -> Prop) : Inv g vc (now v) ->
  (forall cid cl o, o < ls g -> (forall c, ~ rdirty g (now v) c (cid, cl) o) ->
     forall w, pset v cid (cl * ls g + o) w -> A cid (cl * ls g + o) w) -> J g v A.
Proof.
  intros I H cid cl o Ho. destruct (mapped_dec g vc (now v) cid cl I) as [[c E]|E].
  - destruct (drt (now v) c o) eqn:D.
    + left. exists c. assert (R : rdirty g (now v) c (cid, cl) o) by (split; assumption).
      split; [now apply (inv_dp g vc)|assumption].
    + right. apply H; [assumption|]. intros c' [T D']. assert (c' = c) by (now apply (i_inj _ _ _ I c' c (cid, cl))).
      subst. congruence.
  - right. apply H; [assumption|]. intros c' [T _]. now apply (E c').
Qed.

Lemma all_sectors (P : N -> N -> Prop) : (forall cid cl o, o < ls g -> P cid (cl * ls g + o)) -> forall cid x, P cid x.
Proof. intros H cid. apply (by_line g vc W). intros cl o Ho. now apply H. Qed.

Lemma fresh_cur s : Cur (fresh s).
Proof. intros cid x. reflexivity. Qed.
Lemma fresh_j s (A : N -> N -> N -> Prop) : Inv g vc s -> (forall cid x, A cid x (abs g s cid x)) -> J g (fresh s) A.
Proof.
  intros I H. apply j_idle; [exact I|]. intros cid cl o Ho ND w [P|P]; [|destruct P].
  cbn [fresh dur now] in P, ND. subst w. rewrite <- (abs_clean g vc s cid cl o I HL Ho ND). apply H.
Qed.

(** Values allowed while an operation runs. *)
Lemma cut_surv h o b s : (forall cid x, fst (poss m0 h cid x) (abs g s cid x)) -> accepted vc o ->
  (forall step r dv, o <> OpDiscard step r dv) ->
  forall cid x w, cut_allowed g s o cid x w -> surv (VDone o b :: h) cid x w /\ surv (VCut o :: h) cid x w.
Proof.
  intros H A ND cid x w C.
  assert (K : w = abs g s cid x -> snd (poss m0 h cid x) w).
  { intros ->. apply cur_surv. apply H. }
  destruct o as [fast md promo vs r d|fast md promo seqc vs r|step r dv|cs|c|cs]; cbn [poss cut_allowed] in *;
    try (cbn [fst snd]; unfold eqabs in C; auto).
  - destruct A as [Hn _]. destruct C as [C|[S C]].
    + destruct (hits r cid x); cbn [fst snd]; auto.
    + apply hits_inreq in S; [|assumption]. rewrite S. cbn [fst snd]. auto.
  - exfalso. now apply (ND step r dv).
Qed.

Lemma op_v_discard s o p : op_v g o s = Some p -> forall step r dv, o <> OpDiscard step r dv.
Proof. intros E step r dv ->. discriminate. Qed.

(** What holds between operations, for both theorems. *)
Record VI (h : list vev) (v : vst) : Prop := {
  v_inv : Inv g vc (now v);
  v_cur : Cur v;
  v_abs : forall cid x, fst (poss m0 h cid x) (abs g (now v) cid x);
  v_j : J g v (surv h) }.

Lemma vi_init c0 pv : VI [] (fresh (empty_cache m0 c0 pv)).
Proof.
  constructor; cbn [fresh now].
  - apply empty_inv.
  - apply fresh_cur.
  - intros. cbn [poss fst]. apply empty_abs.
  - apply fresh_j; [apply empty_inv|]. intros. cbn [poss snd]. apply empty_abs.
Qed.

Lemma op_mix h v o u : VI h v -> accepted vc o -> (forall step r dv, o <> OpDiscard step r dv) ->
  crashed g (op_prog g o (now v)) (now v) u ->
  (forall b, Mix g vc u (surv (VDone o b :: h))) /\ Mix g vc u (surv (VCut o :: h)).
Proof.
  intros V A D H.
  pose proof (wp_crash _ _ _ _ H _ _ (op_wp g vc W (now v) o (v_inv _ _ V) (accepted_ok vc o A))) as M.
  cbn beta in M. split; [intros b|]; eapply mix_weaken; try eassumption; intros cid x w C;
    now apply (cut_surv h o (fun _ => 0) (now v) (v_abs _ _ V) A D cid x w) in C.
Qed.

Lemma surv_grow h o b cid x w : snd (poss m0 h cid x) w ->
  surv (VDone o b :: h) cid x w /\ surv (VCut o :: h) cid x w.
Proof.
  intros H. cbn [poss]. destruct o; cbn [fst snd]; try tauto. destruct (hits r cid x); cbn [fst snd]; tauto.
Qed.

(** During an operation. *)
Lemma vi_crash plp h v o p t : VI h v -> accepted vc o -> calm g (now v) o -> op_v g o (now v) = Some p ->
  vcrashed g plp p v t ->
  (forall b, J g t (surv (VDone o b :: h))) /\ J g t (surv (VCut o :: h)) /\ Cur t /\
  Mix g vc (now t) (surv (VCut o :: h)).
Proof.
  intros V A C E H. pose proof (op_v_discard _ _ _ E) as D.
  pose proof (op_gp g vc W plp v o p (v_inv _ _ V) (accepted_ok vc o A) (v_cur _ _ V) C E) as G.
  pose proof (op_ref g o (now v) p E) as R.
  assert (M : Mix g vc (now t) (surv (VCut o :: h))).
  { apply (op_mix h v o (now t) V A D). eapply vref_crash; eassumption. }
  split; [|split; [|split]].
  - intros b. apply (gp_crash g vc plp p v t H _ (surv (VDone o b :: h)) R G (v_cur _ _ V)).
    + intros u Hu. now apply (op_mix h v o u V A D).
    + eapply j_weaken; [|apply (v_j _ _ V)]. intros cid x w Hw. now apply surv_grow.
  - apply (gp_crash g vc plp p v t H _ (surv (VCut o :: h)) R G (v_cur _ _ V)).
    + intros u Hu. now apply (op_mix h v o u V A D).
    + eapply j_weaken; [|apply (v_j _ _ V)]. intros cid x w Hw. now apply surv_grow.
  - apply (gp_crash g vc plp p v t H _ (surv (VCut o :: h)) R G (v_cur _ _ V)).
    + intros u Hu. now apply (op_mix h v o u V A D).
    + eapply j_weaken; [|apply (v_j _ _ V)]. intros cid x w Hw. now apply surv_grow.
  - exact M.
Qed.

(** After an operation. *)
Lemma vi_op plp h v o p b t : VI h v -> accepted vc o -> calm g (now v) o -> op_v g o (now v) = Some p ->
  vexec g plp p v b t -> VI (VDone o b :: h) t.
Proof.
  intros V A C E H. pose proof (op_v_discard _ _ _ E) as D.
  destruct (vi_crash plp h v o p t V A C E (vexec_crash g plp p v b t H)) as (K1 & _ & K2 & _).
  pose proof (vref_exec g plp p v b t H _ (op_ref g o (now v) p E)) as X.
  pose proof (wp_exec _ _ _ _ _ X _ _ (op_wp g vc W (now v) o (v_inv _ _ V) (accepted_ok vc o A))) as P.
  destruct P as [It P]. constructor; [assumption|assumption| |apply K1].
  intros cid x. pose proof (v_abs _ _ V cid x) as Q.
  destruct o as [fast md promo vs r d|fast md promo seqc vs r|step r dv|cs|c|cs]; cbn [poss].
  - destruct P as [P _]. destruct A as [Hn _]. destruct (P cid x) as [P1 P2].
    destruct (hits r cid x) eqn:Hh; cbn [fst].
    + apply P1. now apply hits_inreq.
    + rewrite P2; [exact Q|]. now apply hits_not.
  - destruct P as [P1 _]. cbn [fst]. now rewrite P1.
  - exfalso. now apply (D step r dv).
  - destruct P as [P1 _]. cbn [fst]. now rewrite P1.
  - cbn [fst]. now rewrite P.
  - destruct P as [P1 _]. cbn [fst]. now rewrite P1.
Qed.

Lemma vi_flush h v i : VI h v -> VI (VFlushed i :: h) (user_flush i v).
Proof.
  intros V. unfold user_flush.
  assert (C1 : Cur (vflush (on_core i) v)) by (apply cur_vflush; [apply bycore_core|apply (v_cur _ _ V)]).
  constructor.
  - apply (v_inv _ _ V).
  - apply cur_vflush; [apply bycore_cache|assumption].
  - intros cid x. cbn [poss]. destruct (i =? cid); cbn [fst]; apply (v_abs _ _ V).
  - apply j_flush. apply j_idle; [apply (v_inv _ _ V)|]. intros cid cl o Ho ND w P.
    cbn [vflush now] in ND. cbn [poss]. destruct (i =? cid) eqn:E; cbn [snd].
    + apply N.eqb_eq in E. subst i.
      rewrite (settled_vflush_core v cid (cl * ls g + o) (v_cur _ _ V) w P). cbn [vflush now].
      rewrite <- (abs_clean g vc (now v) cid cl o (v_inv _ _ V) HL Ho ND). apply (v_abs _ _ V).
    + apply pset_vflush in P. destruct (v_j _ _ V cid cl o Ho) as [(c & _ & R)|K]; [now apply ND in R|].
      now apply K.
Qed.

(** After recovery. *)
Lemma vi_fresh h o s : Inv g vc s -> (forall cid x, surv (VCut o :: h) cid x (abs g s cid x)) ->
  VI (VCut o :: h) (fresh s).
Proof.
  intros I H. constructor; cbn [fresh now]; [assumption|apply fresh_cur| |now apply fresh_j].
  intros cid x. specialize (H cid x). cbn [poss] in *. destruct o; cbn [fst snd] in *; try exact H.
  destruct (hits r cid x); exact H.
Qed.

(** ** A cache device that keeps its writes. *)
Record Agr (v : vst) : Prop := {
  a_cd : cdat (dur v) = cdat (now v);
  a_pt : ptbl (dur v) = ptbl (now v);
  a_pv : pvld (dur v) = pvld (now v);
  a_pd : pdrt (dur v) = pdrt (now v);
  a_pe : forall w, In w (pend v) -> on_cache w = false }.

Lemma pws_cores l : (forall w, In w l -> on_cache w = false) -> forall s,
  cdat (do_pws l s) = cdat s /\ ptbl (do_pws l s) = ptbl s /\ pvld (do_pws l s) = pvld s /\ pdrt (do_pws l s) = pdrt s.
Proof.
  induction l as [|w l IH]; intros H s; [tauto|]. cbn [do_pws].
  destruct (IH (fun w' Hw => H w' (or_intror Hw)) (do_pw w s)) as (-> & -> & -> & ->).
  specialize (H w (or_introl eq_refl)). destruct w; cbn [on_cache] in H; try discriminate. cbn. tauto.
Qed.
Lemma agr_vio e v : Agr v -> Agr (vio true e v).
Proof.
  intros [A1 A2 A3 A4 A5]. unfold vio. cbn [andb].
  destruct e; cbn [snap on_cache]; constructor; cbn [now dur pend do_pw do_io cdat ptbl pvld pdrt];
    try congruence; try assumption.
  - intros w H. apply in_app_iff in H. destruct H as [H|[H|[]]]; [now apply A5|]. subst w. reflexivity.
  - now rewrite A3.
  - now rewrite A4.
Qed.
Lemma agr_vios l : forall v, Agr v -> Agr (vios true l v).
Proof. induction l as [|e l IH]; intros v H; [exact H|]. cbn [vios]. apply IH. now apply agr_vio. Qed.
Lemma agr_vmems l v : Agr v -> Agr (vmems g l v).
Proof.
  intros [A1 A2 A3 A4 A5]. destruct (mem_dev g l (now v)) as (E1 & E2 & E3 & E4 & E5).
  constructor; cbn [vmems now dur pend]; try congruence. exact A5.
Qed.
Lemma agr_vflush f v : Agr v -> Agr (vflush f v).
Proof.
  intros [A1 A2 A3 A4 A5].
  destruct (pws_cores (filter f (pend v))) with (s := dur v) as (E1 & E2 & E3 & E4).
  { intros w H. apply filter_In in H. now apply A5. }
  constructor; cbn [vflush now dur pend]; try congruence.
  intros w H. apply filter_In in H. now apply A5.
Qed.
Lemma agr_fcores cids : forall v, Agr v -> Agr (flush_cores cids v).
Proof. induction cids as [|c l IH]; intros v H; [exact H|]. cbn [flush_cores]. apply IH. now apply agr_vflush. Qed.
Lemma agr_crash p v t : vcrashed g true p v t -> Agr v -> Agr t.
Proof.
  induction 1; intros A.
  - assumption.
  - now apply agr_vios.
  - apply IHvcrashed. now apply agr_vios.
  - apply IHvcrashed. now apply agr_vmems.
  - apply IHvcrashed. now apply agr_fcores.
  - apply IHvcrashed. now apply agr_vflush.
Qed.
Lemma agr_fresh s : Agr (fresh s).
Proof. constructor; try reflexivity. intros w []. Qed.

Lemma agr_recover t u (A : N -> N -> N -> Prop) : Agr t -> Mix g vc (now t) A -> J g t A -> powered t u ->
  exists s, recover g vc u = Some s /\ Inv g vc s /\ forall cid x, A cid x (abs g s cid x).
Proof.
  intros G M K P. pose proof (fun cid x => powered_core t u cid x P) as PC.
  destruct P as (sub & S1 & Eu).
  destruct (pws_cores sub) with (s := dur t) as (E1 & E2 & E3 & E4).
  { intros w H. apply (a_pe _ G). now apply S1. }
  rewrite <- Eu in E1, E2, E3, E4.
  rewrite (a_cd _ G) in E1. rewrite (a_pt _ G) in E2. rewrite (a_pv _ G) in E3. rewrite (a_pd _ G) in E4.
  set (u2 := {| core := core u; cdat := cdat (now t); tbl := tbl (now t); vld := vld (now t); drt := drt (now t);
    ptbl := ptbl (now t); pvld := pvld (now t); pdrt := pdrt (now t) |}).
  assert (Mu : Mix g vc u2 A).
  { destruct M as [B1 B2 B3 B4 B5 B6 B7]. constructor; try assumption.
    intros cid cl o Ho H. destruct (K cid cl o Ho) as [(c & D)|D]; [exfalso; now apply (H c)|].
    apply D. apply PC. }
  assert (Er : recover g vc u = recover g vc u2).
  { unfold u2. rewrite <- E1, <- E2, <- E3, <- E4. destruct u. reflexivity. }
  rewrite Er. now apply mix_recover.
Qed.

(** ** No dirty data anywhere. *)
Record Cln (v : vst) : Prop := {
  k_d : forall c o, drt (now v) c o = false;
  k_p : forall c o, pdrt (dur v) c o = false;
  k_t : forall c cid cl, ptbl (dur v) c = Some (cid, cl) -> cid < core_max;
  k_e : forall c t vv d, In (PMeta c t vv d) (pend v) ->
    (forall o, d o = false) /\ forall cid cl, t = Some (cid, cl) -> cid < core_max }.

Lemma pws_cln l : forall s,
  (forall c o, pdrt s c o = false) -> (forall c cid cl, ptbl s c = Some (cid, cl) -> cid < core_max) ->
  (forall c t vv d, In (PMeta c t vv d) l ->
    (forall o, d o = false) /\ forall cid cl, t = Some (cid, cl) -> cid < core_max) ->
  (forall c o, pdrt (do_pws l s) c o = false) /\
  (forall c cid cl, ptbl (do_pws l s) c = Some (cid, cl) -> cid < core_max).
Proof.
  induction l as [|w l IH]; intros s H1 H2 H3; [tauto|]. cbn [do_pws]. apply IH.
  - intros c o. destruct w as [| |c' t' vv d]; cbn [do_pw pdrt]; try apply H1.
    destruct (c =? c'); [|apply H1]. now apply (H3 c' t' vv d (or_introl eq_refl)).
  - intros c cid cl. destruct w as [| |c' t' vv d]; cbn [do_pw ptbl]; try apply H2.
    unfold upd1. destruct (c =? c'); [|apply H2]. apply (H3 c' t' vv d (or_introl eq_refl)).
  - intros c t vv d H. apply (H3 c t vv d). now right.
Qed.

Lemma cln_vio plp e v : Cln v -> (forall c cid cl, tbl (now v) c = Some (cid, cl) -> cid < core_max) ->
  Cln (vio plp e v) /\ (forall c cid cl, tbl (now (vio plp e v)) c = Some (cid, cl) -> cid < core_max).
Proof.
  intros [K1 K2 K3 K4] T.
  assert (Wm : forall c t vv d, In (PMeta c t vv d) [snap e (now v)] ->
    (forall o, d o = false) /\ forall cid cl, t = Some (cid, cl) -> cid < core_max).
  { intros c t vv d [H|[]]. destruct e; cbn [snap] in H; try discriminate. injection H as <- <- <- <-.
    split; [intros o; apply K1|intros cid cl; apply T]. }
  assert (Ed : forall c o, drt (do_io e (now v)) c o = false).
  { intros. destruct e; cbn [do_io drt]; apply K1. }
  assert (Et : forall c cid cl, tbl (do_io e (now v)) c = Some (cid, cl) -> cid < core_max).
  { intros c cid cl. destruct e; cbn [do_io tbl]; apply T. }
  unfold vio. destruct (plp && on_cache (snap e (now v))); (split; [|exact Et]); constructor; cbn [now dur pend];
    try assumption.
  - now apply (pws_cln [snap e (now v)]).
  - now apply (pws_cln [snap e (now v)]).
  - intros c t vv d H. apply in_app_iff in H. destruct H as [H|H]; [now apply (K4 c t vv d)|now apply (Wm c t vv d)].
Qed.
Lemma cln_vios plp l : forall v, Cln v -> (forall c cid cl, tbl (now v) c = Some (cid, cl) -> cid < core_max) ->
  Cln (vios plp l v).
Proof.
  induction l as [|e l IH]; intros v H T; [exact H|]. cbn [vios].
  destruct (cln_vio plp e v H T) as [H1 H2]. now apply IH.
Qed.

Definition nosetd (e : mem) : Prop := match e with SetD _ _ _ => False | _ => True end.
Lemma mems_cln es : (forall e, In e es -> nosetd e) -> forall s, (forall c o, drt s c o = false) ->
  forall c o, drt (do_mems g es s) c o = false.
Proof.
  induction es as [|e es IH]; intros H s D; [exact D|]. cbn [do_mems]. apply IH.
  - intros e' He. apply H. now right.
  - specialize (H e (or_introl eq_refl)). intros c o. destruct e; cbn [do_mem drt nosetd] in *; try apply D; [tauto|].
    unfold updr. destruct ((c =? c0) && (s0 <=? o) && (o <=? e)); [reflexivity|apply D].
Qed.
Lemma cln_vmems es v : (forall e, In e es -> nosetd e) -> Cln v -> Cln (vmems g es v).
Proof. intros H [K1 K2 K3 K4]. constructor; cbn [vmems now dur pend]; try assumption. now apply mems_cln. Qed.
Lemma cln_vflush f v : Cln v -> Cln (vflush f v).
Proof.
  intros [K1 K2 K3 K4].
  destruct (pws_cln (filter f (pend v)) (dur v) K2 K3) as [E1 E2].
  { intros c t vv d H. apply filter_In in H. now apply (K4 c t vv d). }
  constructor; cbn [vflush now dur pend]; try assumption.
  intros c t vv d H. apply filter_In in H. now apply (K4 c t vv d).
Qed.
Lemma cln_fcores cids : forall v, Cln v -> Cln (flush_cores cids v).
Proof. induction cids as [|c l IH]; intros v H; [exact H|]. cbn [flush_cores]. apply IH. now apply cln_vflush. Qed.

(** Programs that never set a dirty bit. *)
Fixpoint np (p : vprog) : Prop :=
  match p with
  | VRet _ => True
  | VIo _ k => forall s, np (k s)
  | VMem es k => (forall e, In e es -> nosetd e) /\ forall s, np (k s)
  | VFlushCores _ k => np k
  | VFlushCache k => np k
  end.

Lemma cln_crash plp p v t : vcrashed g plp p v t -> forall q, vref p q -> np p -> Cln v ->
  (forall u, crashed g q (now v) u -> forall c cid cl, tbl u c = Some (cid, cl) -> cid < core_max) -> Cln t.
Proof.
  induction 1; intros q R P K T.
  - assumption.
  - apply cln_vios; [assumption|]. apply T. constructor.
  - inversion R; subst. cbn [np] in P. apply (IHvcrashed (k' (now (vios plp es' v)))); auto.
    + apply cln_vios; [assumption|]. apply T. constructor.
    + intros u Hu. apply T. eapply cr_io; [eassumption|]. now rewrite now_vios in Hu.
  - inversion R; subst. cbn [np] in P. destruct P as [P1 P2].
    apply (IHvcrashed (k' (now (vmems g es v)))); auto.
    + now apply cln_vmems.
    + intros u Hu. apply T. now apply cr_mem.
  - inversion R; subst. apply (IHvcrashed q); auto.
    + now apply cln_fcores.
    + now rewrite now_fcores.
  - inversion R; subst. apply (IHvcrashed q); auto. now apply cln_vflush.
Qed.

Lemma np_clean s cs k : (forall t, np (k t)) -> np (clean_v g s cs k).
Proof.
  intros H. unfold clean_v. destruct (filter (line_dirty g s) cs) as [|c l] eqn:E; [apply H|]. rewrite <- E. clear E.
  cbn [np]. intros _. split.
  - intros e He. apply in_map_iff in He. destruct He as (c' & <- & _). exact Logic.I.
  - intros _ t. apply H.
Qed.
Lemma np_purge r k s : (forall t, np (k t)) -> np (wi_purge_v g r k s).
Proof.
  intros H. unfold wi_purge_v. destruct (slots g s r); [apply H|]. cbn [np]. split.
  - intros e He. unfold purge, per_slot in He. apply in_flat_map in He. destruct He as (q & _ & [He|[He|[]]]);
      subst e; exact Logic.I.
  - intros t. destruct (mark_clean g s r); [apply H|]. cbn [np]. exact H.
Qed.
Lemma np_wi r d s : np (wi_v g r d s).
Proof.
  unfold wi_v. apply np_clean. intros _. cbn [np]. intros t. apply np_purge. intros t'.
  destruct (is_hit g s r); [exact Logic.I|]. apply np_purge. intros. exact Logic.I.
Qed.
Lemma nosetd_sv s r : forall e, In e (set_valid g s r) -> nosetd e.
Proof. intros e H. unfold set_valid, per_slot in H. apply in_flat_map in H. destruct H as (q & _ & [H|[]]). subst e. exact Logic.I. Qed.
Lemma np_wt r d s : np (wt_v g r d s).
Proof.
  unfold wt_v. destruct (dirty_any g s r); cbn [np].
  - intros _. split.
    + intros e H. apply in_app_iff in H. destruct H as [H|H].
      * destruct (is_hit g s r); [destruct H|now apply nosetd_sv in H].
      * unfold set_clean, per_slot in H. apply in_flat_map in H. destruct H as (q & _ & [H|[]]). subst e. exact Logic.I.
    + intros _. destruct (mark_clean g s r); cbn [np]; auto.
  - split; [|auto]. intros e H. destruct (is_hit g s r); [destruct H|now apply nosetd_sv in H].
Qed.
Lemma nosetd_remap r cls : forall vs s m ok l, remap g r cls vs s = (m, ok, l) -> forall e, In e m -> nosetd e.
Proof.
  induction cls as [|cl cls IH]; intros vs s m ok l E; cbn [remap] in E.
  - injection E as <- _ _. intros e [].
  - destruct (slot_mapped g s r cl); [now apply (IH vs s m ok l)|].
    destruct vs as [|c vs]; [injection E as <- _ _; intros e []|].
    destruct (can_take g s r c); [|injection E as <- _ _; intros e []].
    destruct (remap g r cls vs (do_mems g [SetI c 0 (ls g - 1); MapL c (rc r, cl)] s)) as [[m' ok'] l'] eqn:R.
    injection E as <- _ _. intros e H. destruct H as [H|[H|H]].
    + subst e. exact Logic.I.
    + subst e. exact Logic.I.
    + eapply IH; eassumption.
Qed.
Lemma np_prepare s r promo vs yes no : (forall t, np (yes t)) -> (forall t, np (no t)) ->
  np (prepare_v g s r promo vs yes no).
Proof.
  intros H H'. unfold prepare_v. destruct (is_mapped g s r); [apply H|]. destruct (negb promo); [apply H'|].
  destruct (remap g r (cl_list g r) vs s) as [[m ok] l] eqn:R. pose proof (nosetd_remap _ _ _ _ _ _ _ R) as M.
  destruct ok; cbn [np]; (split; [|assumption]); [exact M|].
  intros e He. apply in_app_iff in He. destruct He as [He|He]; [now apply M|].
  apply in_map_iff in He. destruct He as (c & <- & _). exact Logic.I.
Qed.
Lemma np_read m promo seqc vs r s : np (read_v g m promo seqc vs r s).
Proof.
  assert (Pt : forall t, np (pt_v g r t)).
  { intros t. unfold pt_v. apply np_clean. intros. exact Logic.I. }
  assert (P : np (prepare_v g s r promo vs (rd_v g r) (pt_v g r))).
  { apply np_prepare; [|exact Pt]. intros t. unfold rd_v. destruct (is_hit g t r); [exact Logic.I|].
    apply np_clean. intros t'. cbn [np]. intros t2. split; [apply nosetd_sv|auto]. }
  destruct m; cbn [read_v]; try exact P.
  - destruct (seqc && is_dirty_all g s r); [exact P|apply Pt].
  - unfold wo_v. destruct (is_hit g s r); [exact Logic.I|]. destruct (dirty_any g s r); exact Logic.I.
Qed.
Lemma op_np o s p : no_lazy_write s o -> op_v g o s = Some p -> np p.
Proof.
  intros N E. destruct o as [fast md promo vs r d|fast md promo seqc vs r|step r dv|cs|c|cs];
    cbn [op_v no_lazy_write] in *; try discriminate; injection E as <-.
  - destruct N as (-> & N1 & N2). destruct md; cbn [write_v]; try congruence; try apply np_wi.
    + apply np_prepare; intros; [apply np_wt|apply np_wi].
    + destruct (is_hit g s r); [|apply np_wi]. apply np_prepare; intros; [apply np_wt|apply np_wi].
  - destruct fast; [|apply np_read]. unfold read_fast_v. destruct (is_hit g s r); [exact Logic.I|apply np_read].
  - apply np_clean. intros. exact Logic.I.
  - destruct (line_dirty g s c); [exact Logic.I|]. cbn [np]. split; [|auto]. intros e [<-|[]]. exact Logic.I.
  - cbn [np]. auto.
Qed.

Lemma cln_recover t u (A : N -> N -> N -> Prop) : Cln t -> J g t A -> powered t u ->
  exists s, recover g vc u = Some s /\ Inv g vc s /\ (forall cid x, A cid x (abs g s cid x)) /\ Cln (fresh s).
Proof.
  intros C K P. pose proof (fun cid x => powered_core t u cid x P) as PC.
  destruct P as (sub & S1 & Eu).
  destruct (pws_cln sub (dur t) (k_p _ C) (k_t _ C)) as [E1 E2].
  { intros c tt vv d H. apply (k_e _ C c tt vv d). now apply S1. }
  rewrite <- Eu in E1, E2.
  assert (LK : forall c, line_keep g u c = false).
  { intros c. unfold line_keep. destruct (ptbl u c); [|reflexivity]. apply existsb_rng_false. intros o _ _.
    rewrite E1. apply andb_false_r. }
  assert (OK : forallb (line_ok g vc u) (all_lines g) = true).
  { apply forallb_forall. intros c _. unfold line_ok. apply andb_true_iff. split.
    - apply forallb_rng. intros o _ _. now rewrite E1.
    - destruct (ptbl u c) as [[cid cl]|] eqn:T; [|reflexivity]. rewrite LK. cbn [implb].
      rewrite andb_true_r. apply N.ltb_lt. now apply (E2 c cid cl). }
  unfold recover. rewrite OK. eexists. split; [reflexivity|].
  assert (Is : Inv g vc {| core := core u; cdat := cdat u; tbl := fun c => if line_keep g u c then ptbl u c else None;
     vld := fun c o => line_keep g u c && (pvld u c o && pdrt u c o);
     drt := fun c o => line_keep g u c && pdrt u c o; ptbl := ptbl u; pvld := pvld u; pdrt := pdrt u |}).
  { constructor; cbn [core cdat tbl vld drt ptbl pvld pdrt]; intros;
      repeat match goal with H : context [line_keep g u ?c] |- _ => rewrite LK in H end;
      try (cbn [andb] in *; discriminate).
    - now rewrite LK, E1.
    - now apply (E2 c cid cl). }
  split; [exact Is|]. split.
  - apply all_sectors. intros cid cl o Ho. rewrite (abs_clean g vc _ cid cl o Is HL Ho).
    + cbn [core]. destruct (K cid cl o Ho) as [(c & _ & _ & D)|D]; [|apply D; apply PC].
      rewrite (k_d _ C) in D. discriminate.
    + intros c [T _]. cbn [tbl] in T. rewrite LK in T. discriminate.
  - constructor; cbn [fresh now dur pend drt pdrt ptbl].
    + intros. now rewrite LK.
    + exact E1.
    + exact E2.
    + intros c tt vv d [].
Qed.

(** ** Both kinds of histories. *)
Lemma nr_spec s r : Inv g vc s -> 0 < rn r ->
  (forall x v, hits r (rc r) x = true -> ~ held_dirty g s (rc r) x v) -> NR g s r.
Proof.
  intros I Hn H c cl o T L1 L2 L3 L4. assert (Ho : o < ls g) by (pose proof (send_lt g vc W r cl); lia).
  destruct (drt s c o) eqn:D; [|reflexivity]. exfalso.
  apply (H (cl * ls g + o) (cdat s c o)).
  - apply hits_inreq; [assumption|]. split; [reflexivity|]. apply (geo g r _ HL Hn).
    destruct (divmod_line (ls g) cl o Ho) as [D1 D2]. rewrite D1, D2. tauto.
  - exists c, cl, o. split; [assumption|]. split; [assumption|]. split; [reflexivity|].
    split; [now apply (i_dv _ _ _ I)|]. split; [assumption|reflexivity].
Qed.

Lemma calm_spec s o : Inv g vc s -> accepted vc o -> no_wt_over_dirty g s o -> calm g s o.
Proof.
  intros I A H. destruct o; cbn [calm]; try exact Logic.I. destruct A as [Hn _].
  destruct m; try exact Logic.I; now apply nr_spec.
Qed.
Lemma calm_cln v o : Cln v -> calm g (now v) o.
Proof.
  intros C. destruct o; cbn [calm]; try exact Logic.I.
  destruct m; try exact Logic.I; intros c cl o T L1 L2 L3 L4; apply (k_d _ C).
Qed.

Lemma prot_run c0 pv h v : vrun g vc true (no_wt_over_dirty g) (empty_cache m0 c0 pv) h v -> VI h v /\ Agr v.
Proof.
  induction 1 as [|h v o p b t R IH A O E X|h v cid R IH|h v o p t u s R IH A O E X P Q].
  - split; [apply vi_init|apply agr_fresh].
  - destruct IH as [V G]. pose proof (calm_spec _ _ (v_inv _ _ V) A O) as C. split.
    + now apply (vi_op true h v o p b t).
    + apply (agr_crash p v t); [|assumption]. now apply (vexec_crash g true p v b t).
  - destruct IH as [V G]. split; [now apply vi_flush|]. unfold user_flush. now apply agr_vflush, agr_vflush.
  - destruct IH as [V G]. pose proof (calm_spec _ _ (v_inv _ _ V) A O) as C.
    destruct (vi_crash true h v o p t V A C E X) as (_ & K & _ & M).
    destruct (agr_recover t u _ (agr_crash p v t X G) M K P) as (s' & Q' & I & H).
    rewrite Q in Q'. injection Q' as <-. split; [now apply vi_fresh|apply agr_fresh].
Qed.

Lemma core_max_tbl u A : Mix g vc u A -> forall c cid cl, tbl u c = Some (cid, cl) -> cid < core_max.
Proof. intros M. apply (m_tc _ _ _ _ M). Qed.

Lemma cln_step plp h v o p t : VI h v -> Cln v -> accepted vc o -> no_lazy_write (now v) o ->
  op_v g o (now v) = Some p -> vcrashed g plp p v t -> Cln t.
Proof.
  intros V C A O E X. apply (cln_crash plp p v t X (op_prog g o (now v))).
  - now apply op_ref.
  - now apply (op_np o (now v)).
  - assumption.
  - intros u Hu. destruct (op_mix h v o u V A (op_v_discard _ _ _ E) Hu) as [_ M]. now apply (core_max_tbl u _ M).
Qed.

Lemma clean_run plp c0 pv h v : vrun g vc plp no_lazy_write (empty_cache m0 c0 pv) h v -> VI h v /\ Cln v.
Proof.
  induction 1 as [|h v o p b t R IH A O E X|h v cid R IH|h v o p t u s R IH A O E X P Q].
  - split; [apply vi_init|]. constructor; cbn; try reflexivity; intros; [discriminate|tauto].
  - destruct IH as [V G]. pose proof (calm_cln v o G) as C. split.
    + now apply (vi_op plp h v o p b t).
    + apply (cln_step plp h v o p); try assumption. now apply (vexec_crash g plp p v b t).
  - destruct IH as [V G]. split; [now apply vi_flush|]. unfold user_flush. now apply cln_vflush, cln_vflush.
  - destruct IH as [V G]. pose proof (calm_cln v o G) as C.
    destruct (vi_crash plp h v o p t V A C E X) as (_ & K & _ & M).
    destruct (cln_recover t u _ (cln_step plp h v o p t V G A O E X) K P) as (s' & Q' & I & H & F).
    rewrite Q in Q'. injection Q' as <-. split; [now apply vi_fresh|assumption].
Qed.

Lemma vi_read plp h v fast md promo seqc vs r p b t x : VI h v ->
  accepted vc (OpRead fast md promo seqc vs r) ->
  op_v g (OpRead fast md promo seqc vs r) (now v) = Some p ->
  vexec g plp p v b t -> hits r (rc r) x = true -> fst (poss m0 h (rc r) x) (b x).
Proof.
  intros V A E X Hx.
  pose proof (vref_exec g plp p v b t X _ (op_ref g _ (now v) p E)) as Y.
  pose proof (wp_exec _ _ _ _ _ Y _ _ (op_wp g vc W (now v) _ (v_inv _ _ V) (accepted_ok vc _ A))) as P.
  destruct P as (_ & _ & P). destruct A as [Hn _]. apply hits_inreq in Hx; [|assumption].
  rewrite P; [apply (v_abs _ _ V)|]. exact Hx.
Qed.
End S.

(** ** C51 *)
(** With a cache device that keeps its writes (power-loss protection) and a core
    device that may lose un-flushed ones, flushed data survives power failures,
    in all modes and through cleaning and eviction, as long as write-through
    writes are not made over dirty data. *)
Theorem C51_protected_cache_partial : forall g vc, wf g vc ->
  flush_safe g vc true (no_wt_over_dirty g) /\ always_loads g vc true (no_wt_over_dirty g).
Proof.
  intros g vc W. split.
  - intros m c0 pv h v fast md promo seqc vs r p b t x R A E X Hx.
    destruct (prot_run g vc W m c0 pv h v R) as [V _]. eapply vi_read; eassumption.
  - intros m c0 pv h v o p t u R A O E X P.
    destruct (prot_run g vc W m c0 pv h v R) as [V G].
    destruct (vi_crash g vc W m true h v o p t V A (calm_spec g vc W m _ _ (v_inv _ _ _ _ _ V) A O) E X) as (_ & K & _ & M).
    destruct (agr_recover g vc W m t u _ (agr_crash g m p v t X G) M K P) as (s & Q & _). now exists s.
Qed.

(** With both devices losing un-flushed writes, the same holds if no write
    leaves data in the cache only (write-through, write-around,
    write-invalidate, pass-through). *)
Theorem C51_no_lazy_writes_partial : forall g vc plp, wf g vc ->
  flush_safe g vc plp no_lazy_write /\ always_loads g vc plp no_lazy_write.
Proof.
  intros g vc plp W. split.
  - intros m c0 pv h v fast md promo seqc vs r p b t x R A E X Hx.
    destruct (clean_run g vc W m plp c0 pv h v R) as [V _]. eapply vi_read; eassumption.
  - intros m c0 pv h v o p t u R A O E X P.
    destruct (clean_run g vc W m plp c0 pv h v R) as [V G].
    destruct (vi_crash g vc W m plp h v o p t V A (calm_cln g v o G) E X) as (_ & K & _ & M).
    destruct (cln_recover g vc W t u _ (cln_step g vc W m plp h v o p t V G A O E X) K P) as (s & Q & _). now exists s.
Qed.

(** ** Power failure right after a flush. *)
(** Same device contents. *)
Definition eqd (s t : st) : Prop :=
  (forall cid x, core s cid x = core t cid x) /\ (forall c o, cdat s c o = cdat t c o) /\
  (forall c, ptbl s c = ptbl t c) /\ (forall c o, pvld s c o = pvld t c o) /\
  (forall c o, pdrt s c o = pdrt t c o).
Lemma eqd_refl s : eqd s s.
Proof. repeat split. Qed.
Lemma eqd_sym s t : eqd s t -> eqd t s.
Proof. intros (A & B & C & D & E). repeat split; intros; now symmetry. Qed.
Lemma eqd_trans s t u : eqd s t -> eqd t u -> eqd s u.
Proof.
  intros (A & B & C & D & E) (A' & B' & C' & D' & E').
  split; [|split; [|split; [|split]]]; intros; etransitivity; eauto.
Qed.
Lemma pw_eqd w s t : eqd s t -> eqd (do_pw w s) (do_pw w t).
Proof.
  intros (A & B & C & D & E).
  destruct w; (split; [|split; [|split; [|split]]]); cbn [do_pw core cdat ptbl pvld pdrt]; intros; auto;
    unfold upd2, upd1; match goal with |- (if ?b then _ else _) = _ => destruct b; auto end.
Qed.
Lemma pws_eqd l : forall s t, eqd s t -> eqd (do_pws l s) (do_pws l t).
Proof. induction l as [|w l IH]; intros s t H; [exact H|]. cbn [do_pws]. apply IH. now apply pw_eqd. Qed.
Lemma snap_eqd e s t : eqd s t -> eqd (do_pw (snap e t) s) (do_io e t).
Proof.
  intros (A & B & C & D & E).
  destruct e; (split; [|split; [|split; [|split]]]); cbn [snap do_pw do_io core cdat ptbl pvld pdrt]; intros; auto;
    unfold upd2, upd1; match goal with |- (if ?b then _ else _) = _ => destruct b; auto end.
Qed.

(** Writes selected by [f] commute with the others. *)
Definition comm (f : pw -> bool) : Prop := forall w w' s, f w = false -> f w' = true ->
  eqd (do_pw w (do_pw w' s)) (do_pw w' (do_pw w s)).
Lemma comm_list f w l : comm f -> f w = false -> (forall w', In w' l -> f w' = true) ->
  forall s, eqd (do_pw w (do_pws l s)) (do_pws l (do_pw w s)).
Proof.
  intros C F. induction l as [|w' l IH]; intros H s; [apply eqd_refl|]. cbn [do_pws].
  eapply eqd_trans; [apply IH; intros; apply H; now right|]. apply pws_eqd. apply C; [assumption|]. apply H. now left.
Qed.
Lemma comm_sel f l : comm f -> forall s,
  eqd (do_pws (filter (fun w => negb (f w)) l) (do_pws (filter f l) s)) (do_pws l s).
Proof.
  intros C. induction l as [|w l IH]; intros s; [apply eqd_refl|]. cbn [filter do_pws].
  destruct (f w) eqn:F; cbn [negb do_pws].
  - apply IH.
  - eapply eqd_trans; [|apply IH]. apply pws_eqd. apply (comm_list f); [assumption|assumption|].
    intros w' H. now apply filter_In in H.
Qed.
Lemma upd2_comm {A} (f : N -> N -> A) a b v a' b' v' x y : a <> a' ->
  upd2 (upd2 f a' b' v') a b v x y = upd2 (upd2 f a b v) a' b' v' x y.
Proof.
  intros H. unfold upd2. destruct ((x =? a) && (y =? b)) eqn:E; [|reflexivity].
  apply andb_true_iff in E. destruct E as [E _]. apply N.eqb_eq in E. subst x.
  apply N.eqb_neq in H. now rewrite H.
Qed.
Lemma comm_core cid : comm (on_core cid).
Proof.
  intros w w' s F F'. destruct w' as [i x v|c o v|c t v d]; try discriminate.
  cbn [on_core] in F'. apply N.eqb_eq in F'. subst i.
  destruct w as [i x' v'|c o v'|c t v' d].
  - cbn [on_core] in F. apply N.eqb_neq in F.
    split; [|split; [|split; [|split]]]; cbn [do_pw core cdat ptbl pvld pdrt]; intros; auto.
    now apply upd2_comm.
  - repeat split.
  - repeat split.
Qed.
Lemma comm_cache : comm on_cache.
Proof. intros w w' s F F'. destruct w, w'; try discriminate; repeat split. Qed.

Definition Sync (v : vst) : Prop := eqd (do_pws (pend v) (dur v)) (now v).
Lemma sync_vio plp e v : (plp = true -> forall w, In w (pend v) -> on_cache w = false) -> Sync v ->
  Sync (vio plp e v) /\ (plp = true -> forall w, In w (pend (vio plp e v)) -> on_cache w = false).
Proof.
  intros P H. unfold Sync, vio. destruct (plp && on_cache (snap e (now v))) eqn:K; cbn [now dur pend].
  - apply andb_true_iff in K. destruct K as [K1 K2]. split; [|exact P]. specialize (P K1).
    eapply eqd_trans; [|apply snap_eqd; exact H].
    assert (G : forall l, (forall w, In w l -> on_cache w = false) -> forall s,
      eqd (do_pws l (do_pw (snap e (now v)) s)) (do_pw (snap e (now v)) (do_pws l s))).
    { induction l as [|w l IH]; intros Hl s; [apply eqd_refl|]. cbn [do_pws].
      eapply eqd_trans; [|apply IH; intros; apply Hl; now right].
      apply pws_eqd. apply comm_cache; [apply Hl; now left|exact K2]. }
    now apply G.
  - split.
    + rewrite pws_app. cbn [do_pws]. now apply snap_eqd.
    + intros Pl w Hw. apply in_app_iff in Hw. destruct Hw as [Hw|[Hw|[]]]; [now apply P|].
      subst w. rewrite Pl in K. exact K.
Qed.
Definition Pr (plp : bool) (v : vst) : Prop :=
  Sync v /\ (plp = true -> forall w, In w (pend v) -> on_cache w = false).
Lemma sync_vios plp l : forall v, Pr plp v -> Pr plp (vios plp l v).
Proof.
  induction l as [|e l IH]; intros v [H1 H2]; [split; assumption|]. cbn [vios]. apply IH. now apply sync_vio.
Qed.
Lemma sync_vmems g plp l v : Pr plp v -> Pr plp (vmems g l v).
Proof.
  intros [H1 H2]. split; [|exact H2]. unfold Sync. cbn [vmems now dur pend].
  eapply eqd_trans; [exact H1|]. destruct (mem_dev g l (now v)) as (E1 & E2 & E3 & E4 & E5).
  repeat split; congruence.
Qed.
Lemma sync_vflush plp f v : comm f -> Pr plp v -> Pr plp (vflush f v).
Proof.
  intros C [H1 H2]. split.
  - unfold Sync. cbn [vflush now dur pend]. eapply eqd_trans; [now apply comm_sel|exact H1].
  - intros P w H. cbn [vflush pend] in H. apply filter_In in H. now apply H2.
Qed.
Lemma sync_fcores plp cids : forall v, Pr plp v -> Pr plp (flush_cores cids v).
Proof.
  induction cids as [|c l IH]; intros v H; [exact H|]. cbn [flush_cores]. apply IH.
  apply sync_vflush; [apply comm_core|assumption].
Qed.
Lemma sync_exec g plp p v b t : vexec g plp p v b t -> Pr plp v -> Pr plp t.
Proof.
  induction 1; intros A.
  - assumption.
  - apply IHvexec. now apply sync_vios.
  - apply IHvexec. now apply sync_vmems.
  - apply IHvexec. now apply sync_fcores.
  - apply IHvexec. apply sync_vflush; [apply comm_cache|assumption].
Qed.

Definition no_failure (h : list vev) : Prop := forall o, ~ In (VCut o) h.

Lemma plain_run g vc plp m c0 pv h v : wf g vc -> vrun g vc plp any_op (empty_cache m c0 pv) h v -> no_failure h ->
  Inv g vc (now v) /\ Pr plp v /\ forall cid x, fst (poss m h cid x) (abs g (now v) cid x).
Proof.
  intros W R. induction R as [|h v o p b t R IH A O E X|h v cid R IH|h v o p t u s R IH A O E X P Q]; intros F.
  - split; [apply empty_inv|]. split; [|intros; cbn [poss fst]; apply empty_abs].
    split; [apply eqd_refl|intros _ w []].
  - destruct IH as (I & S & M); [intros o' H; apply (F o'); now right|].
    pose proof (vref_exec g plp p v b t X _ (op_ref g o (now v) p E)) as Y.
    pose proof (wp_exec _ _ _ _ _ Y _ _ (op_wp g vc W (now v) o I (accepted_ok vc o A))) as P.
    destruct P as [It P]. split; [assumption|]. split; [now apply (sync_exec g plp p v b)|].
    intros cid x. specialize (M cid x).
    destruct o as [fast md promo vs r d|fast md promo seqc vs r|step r dv|cs|c|cs]; cbn [poss].
    + destruct P as [P _]. destruct A as [Hn _]. destruct (P cid x) as [P1 P2].
      destruct (hits r cid x) eqn:Hh; cbn [fst].
      * apply P1. now apply hits_inreq.
      * rewrite P2; [exact M|]. now apply hits_not.
    + destruct P as [P1 _]. cbn [fst]. now rewrite P1.
    + discriminate.
    + destruct P as [P1 _]. cbn [fst]. now rewrite P1.
    + cbn [fst]. now rewrite P.
    + destruct P as [P1 _]. cbn [fst]. now rewrite P1.
  - destruct IH as (I & S & M); [intros o' H; apply (F o'); now right|]. split; [exact I|]. split.
    + unfold user_flush. apply sync_vflush; [apply comm_cache|]. apply sync_vflush; [apply comm_core|assumption].
    + intros i x. cbn [poss]. destruct (cid =? i); apply M.
  - exfalso. apply (F o). now left.
Qed.

(** In every mode and over two volatile devices: right after a completed flush
    of a core, a power failure loses nothing of that core. *)
Theorem C51_right_after_flush_partial : forall g vc plp m c0 pv h v cid u, wf g vc ->
  vrun g vc plp any_op (empty_cache m c0 pv) h v -> no_failure h ->
  powered (user_flush cid v) u ->
  exists s, recover g vc u = Some s /\
    forall fast md promo seqc vs r p b t x, accepted vc (OpRead fast md promo seqc vs r) -> rc r = cid ->
      op_v g (OpRead fast md promo seqc vs r) s = Some p -> vexec g plp p (fresh s) b t ->
      hits r cid x = true -> fst (poss m h cid x) (b x).
Proof.
  intros g vc plp m c0 pv h v cid u W R F P.
  destruct (plain_run g vc plp m c0 pv h v W R F) as (I & S & M).
  assert (S2 : Pr plp (user_flush cid v)).
  { unfold user_flush. apply sync_vflush; [apply comm_cache|]. apply sync_vflush; [apply comm_core|assumption]. }
  assert (PE : forall w, In w (pend (user_flush cid v)) -> exists i x z, w = PCore i x z /\ i <> cid).
  { intros w H. unfold user_flush in H. cbn [vflush pend] in H. apply filter_In in H. destruct H as [H H1].
    apply filter_In in H. destruct H as [_ H2]. destruct w as [i x z| |]; try discriminate.
    cbn [on_core] in H2. exists i, x, z. split; [reflexivity|]. apply N.eqb_neq.
    destruct (i =? cid); [discriminate|reflexivity]. }
  assert (G : forall l s, (forall w, In w l -> exists i x z, w = PCore i x z /\ i <> cid) ->
    cdat (do_pws l s) = cdat s /\ ptbl (do_pws l s) = ptbl s /\ pvld (do_pws l s) = pvld s /\ pdrt (do_pws l s) = pdrt s /\
    forall x, core (do_pws l s) cid x = core s cid x).
  { induction l as [|w l IH]; intros s H; [repeat split|]. cbn [do_pws].
    destruct (IH (do_pw w s)) as (E1 & E2 & E3 & E4 & E5); [intros; apply H; now right|].
    destruct (H w (or_introl eq_refl)) as (i & y & z & -> & Hi). cbn [do_pw cdat ptbl pvld pdrt core] in *.
    repeat (split; [assumption|]). intros x. rewrite E5. unfold upd2.
    destruct (cid =? i) eqn:K; [apply N.eqb_eq in K; congruence|reflexivity]. }
  destruct S2 as [S2 _]. unfold Sync in S2. change (now (user_flush cid v)) with (now v) in S2.
  destruct (G (pend (user_flush cid v)) (dur (user_flush cid v)) PE) as (A1 & A2 & A3 & A4 & A5).
  destruct P as (sub & P1 & ->).
  destruct (G sub (dur (user_flush cid v)) (fun w H => PE w (P1 w H))) as (B1 & B2 & B3 & B4 & B5).
  set (D := dur (user_flush cid v)) in *. set (u := do_pws sub D) in *.
  destruct S2 as (C1 & C2 & C3 & C4 & C5).
  assert (U2 : forall c o, cdat u c o = cdat (now v) c o) by (intros; rewrite B1, <- C2, A1; reflexivity).
  assert (U3 : forall c, ptbl u c = ptbl (now v) c) by (intros; rewrite B2, <- C3, A2; reflexivity).
  assert (U4 : forall c o, pvld u c o = pvld (now v) c o) by (intros; rewrite B3, <- C4, A3; reflexivity).
  assert (U5 : forall c o, pdrt u c o = pdrt (now v) c o) by (intros; rewrite B4, <- C5, A4; reflexivity).
  assert (U1 : forall x, core u cid x = core (now v) cid x) by (intros; rewrite B5, <- C1, A5; reflexivity).
  set (A := fun i x w => i = cid -> w = abs g (now v) cid x).
  set (u2 := {| core := core u; cdat := cdat u; tbl := tbl (now v); vld := vld (now v); drt := drt (now v);
    ptbl := ptbl u; pvld := pvld u; pdrt := pdrt u |}).
  assert (Mx : Mix g vc u2 A).
  { pose proof (inv_mix g vc (now v) W I) as Mx0.
    assert (PD : forall c k o, pdirty g u2 c k o <-> pdirty g (now v) c k o).
    { intros. unfold pdirty, u2. cbn [ptbl pdrt]. rewrite U3, U5. tauto. }
    assert (RD : forall c k o, rdirty g u2 c k o <-> rdirty g (now v) c k o) by (intros; tauto).
    constructor.
    - intros c o Ho H. unfold u2 in *. cbn [pdrt pvld ptbl] in *. rewrite U5 in H. rewrite U4, U3.
      now apply (m_pd _ _ _ _ Mx0).
    - apply (m_rd _ _ _ _ Mx0).
    - intros c i cl. unfold u2. cbn [ptbl]. rewrite U3. apply (m_pc _ _ _ _ Mx0).
    - apply (m_tc _ _ _ _ Mx0).
    - intros c c' k (o & Ho & H) (o' & Ho' & H'). apply (m_u _ _ _ _ Mx0 c c' k).
      + exists o. split; [assumption|]. now rewrite <- PD, <- RD.
      + exists o'. split; [assumption|]. now rewrite <- PD, <- RD.
    - intros c i cl o Ho H Hi. subst i. unfold u2. cbn [cdat]. rewrite U2.
      apply (m_v _ _ _ _ Mx0); [assumption|]. now rewrite <- PD, <- RD.
    - intros i cl o Ho H Hi. subst i. unfold u2. cbn [core]. rewrite U1.
      apply (m_c _ _ _ _ Mx0); [assumption|]. intros c. rewrite <- PD, <- RD. apply H. }
  destruct (mix_recover g vc u2 A W Mx) as (s & Q & Is & As). exists s. split; [exact Q|].
  intros fast md promo seqc vs r p b t x Ac Er E X Hx. subst cid.
  pose proof (vref_exec g plp p (fresh s) b t X _ (op_ref g _ s p E)) as Y.
  pose proof (wp_exec _ _ _ _ _ Y _ _ (op_wp g vc W s _ Is (accepted_ok vc _ Ac))) as Po.
  destruct Po as (_ & _ & Po). destruct Ac as [Hn _]. apply hits_inreq in Hx; [|assumption].
  rewrite Po by exact Hx. rewrite (As (rc r) x eq_refl). apply M.
Qed.

(** ** Refutations and examples: two lines of two sectors, core 1. *)
Lemma run_v_exec g plp p : forall v, vexec g plp p v (fst (run_v g plp p v)) (snd (run_v g plp p v)).
Proof.
  induction p as [b|es k IH|es k IH|cids k IH|k IH]; intros v; cbn [run_v].
  - constructor.
  - eapply vx_io; [apply Permutation_refl|apply IH].
  - constructor. apply IH.
  - constructor. apply IH.
  - constructor. apply IH.
Qed.
Definition do_v (plp : bool) (o : op) (v : vst) : vst :=
  match op_v g2 o (now v) with Some p => snd (run_v g2 plp p v) | None => v end.
Lemma do_v_run plp ok s0 h v o : vrun g2 vc1 plp ok s0 h v -> accepted vc1 o -> ok (now v) o ->
  (forall step r dv, o <> OpDiscard step r dv) ->
  exists b, vrun g2 vc1 plp ok s0 (VDone o b :: h) (do_v plp o v).
Proof.
  intros R A O D. unfold do_v. destruct (op_v g2 o (now v)) as [p|] eqn:E.
  - exists (fst (run_v g2 plp p v)). eapply vrun_op; try eassumption. apply run_v_exec.
  - exfalso. destruct o; cbn [op_v] in E; try discriminate. now apply (D step r dv).
Qed.

Definition wb1 := OpWrite false WB true [0] (rq 0 1) (fun _ => 1000).
Definition wt2 := OpWrite false WT true [] (rq 0 1) (fun _ => 2000).
Definition rd1 := OpRead false WT true false [0] (rq 0 1).

(** Write-back, flush, write-through over the dirty sector: the metadata that
    marks the sector clean is on the medium, the core write is lost.  The cache
    device keeps all its writes. *)
Definition wt_v1 := user_flush 1 (do_v true wb1 (fresh s_init)).
Definition wt_v2 := do_v true wt2 wt_v1.
Definition wt_u := dur wt_v2.
Definition wt_s := {| core := core wt_u; cdat := cdat wt_u;
  tbl := (fun c => if line_keep g2 wt_u c then ptbl wt_u c else None);
  vld := (fun c o => line_keep g2 wt_u c && (pvld wt_u c o && pdrt wt_u c o));
  drt := (fun c o => line_keep g2 wt_u c && pdrt wt_u c o);
  ptbl := ptbl wt_u; pvld := pvld wt_u; pdrt := pdrt wt_u |}.

Theorem C51_write_through_refuted : exists g vc, wf g vc /\ ~ flush_safe g vc true any_op.
Proof.
  exists g2, vc1. split; [apply g2_wf|]. intros F.
  destruct (do_v_run true any_op s_init [] (fresh s_init) wb1) as [b1 R1];
    [constructor|split; reflexivity|exact Logic.I|discriminate|].
  pose proof (vrun_flush _ _ _ _ _ _ _ 1 R1) as R2. fold wt_v1 in R2.
  assert (R3 : vrun g2 vc1 true any_op s_init (VCut wt2 :: VFlushed 1 :: [VDone wb1 b1]) (fresh wt_s)).
  { destruct (op_v g2 wt2 (now wt_v1)) as [p|] eqn:E; [|discriminate].
    assert (Ev : wt_v2 = snd (run_v g2 true p wt_v1)) by (unfold wt_v2, do_v; rewrite E; reflexivity).
    apply (vrun_cut _ _ _ _ _ _ wt_v1 wt2 p wt_v2 wt_u); [exact R2|split; reflexivity|exact Logic.I|exact E| | |].
    - rewrite Ev. eapply vexec_crash. apply run_v_exec.
    - exists []. split; [intros w []|]. cbn [do_pws]. unfold wt_u. reflexivity.
    - unfold recover.
      assert (K : forallb (line_ok g2 vc1 wt_u) (all_lines g2) = true) by (vm_compute; reflexivity).
      rewrite K. reflexivity. }
  destruct (op_v g2 rd1 (now (fresh wt_s))) as [p|] eqn:E; [|discriminate].
  assert (A : accepted vc1 rd1) by (split; reflexivity).
  specialize (F m1 (fun _ _ => 0) (fun _ _ => true) _ _ false WT true false [0] (rq 0 1) p _ _ 0 R3 A E
    (run_v_exec g2 true p (fresh wt_s)) eq_refl).
  assert (B : fst (run_v g2 true p (fresh wt_s)) 0 = 200).
  { assert (Ep : fst (match op_v g2 rd1 (now (fresh wt_s)) with Some q => run_v g2 true q (fresh wt_s)
        | None => ((fun _ => 0), fresh wt_s) end) 0 = 200) by (vm_compute; reflexivity).
    rewrite E in Ep. exact Ep. }
  rewrite B in F. cbn in F. destruct F as [F|F]; discriminate.
Qed.

(** Flush, then write-back over data held by the core: the metadata that marks the sector dirty is
    on the medium, the data written to the cache is lost: a read returns what
    the cache line held before. *)
Definition wb_u := do_pws (filter (fun w => match w with PCache _ _ _ => false | _ => true end)
  (pend (do_v false wb1 (user_flush 1 (fresh s_init))))) (dur (do_v false wb1 (user_flush 1 (fresh s_init)))).
Definition wb_s := {| core := core wb_u; cdat := cdat wb_u;
  tbl := (fun c => if line_keep g2 wb_u c then ptbl wb_u c else None);
  vld := (fun c o => line_keep g2 wb_u c && (pvld wb_u c o && pdrt wb_u c o));
  drt := (fun c o => line_keep g2 wb_u c && pdrt wb_u c o);
  ptbl := ptbl wb_u; pvld := pvld wb_u; pdrt := pdrt wb_u |}.

Theorem C51_write_back_refuted : exists g vc, wf g vc /\ ~ flush_safe g vc false (no_wt_over_dirty g).
Proof.
  exists g2, vc1. split; [apply g2_wf|]. intros F.
  pose proof (vrun_flush _ _ _ _ _ _ _ 1 (vrun_nil g2 vc1 false (no_wt_over_dirty g2) s_init)) as R2.
  assert (R3 : vrun g2 vc1 false (no_wt_over_dirty g2) s_init (VCut wb1 :: [VFlushed 1]) (fresh wb_s)).
  { destruct (op_v g2 wb1 (now (user_flush 1 (fresh s_init)))) as [p|] eqn:E; [|discriminate].
    assert (Ev : do_v false wb1 (user_flush 1 (fresh s_init)) = snd (run_v g2 false p (user_flush 1 (fresh s_init))))
      by (unfold do_v; rewrite E; reflexivity).
    apply (vrun_cut _ _ _ _ _ _ (user_flush 1 (fresh s_init)) wb1 p (do_v false wb1 (user_flush 1 (fresh s_init))) wb_u);
      [exact R2|split; reflexivity|exact Logic.I|exact E| | |].
    - rewrite Ev. eapply vexec_crash. apply run_v_exec.
    - eexists. split; [|unfold wb_u; reflexivity]. intros w H. apply filter_In in H. tauto.
    - unfold recover.
      assert (K : forallb (line_ok g2 vc1 wb_u) (all_lines g2) = true) by (vm_compute; reflexivity).
      rewrite K. reflexivity. }
  destruct (op_v g2 rd1 (now (fresh wb_s))) as [p|] eqn:E; [|discriminate].
  assert (A : accepted vc1 rd1) by (split; reflexivity).
  specialize (F m1 (fun _ _ => 0) (fun _ _ => true) _ _ false WT true false [0] (rq 0 1) p _ _ 0 R3 A E
    (run_v_exec g2 false p (fresh wb_s)) eq_refl).
  assert (B : fst (run_v g2 false p (fresh wb_s)) 0 = 0).
  { assert (Ep : fst (match op_v g2 rd1 (now (fresh wb_s)) with Some q => run_v g2 false q (fresh wb_s)
        | None => ((fun _ => 1), fresh wb_s) end) 0 = 0) by (vm_compute; reflexivity).
    rewrite E in Ep. exact Ep. }
  rewrite B in F. cbn in F. destruct F as [F|F]; discriminate.
Qed.

(** The hypotheses of the positive theorems are met by histories in which
    un-flushed writes are really pending: write-back, cleaning (with its core
    flush) and a write-invalidate write whose core write is not on the medium. *)
Definition wi3 := OpWrite false WI true [] (rq 1 1) (fun _ => 3000).
Definition ex_v := do_v true wi3 (do_v true (OpClean [0]) (do_v true wb1 (fresh s_init))).
Example ex_protected : exists h, vrun g2 vc1 true (no_wt_over_dirty g2) s_init h ex_v /\
  pend ex_v = [PCore 1 1 3000] /\ core (dur ex_v) 1 0 = 1000 /\ core (dur ex_v) 1 1 = 201 /\
  snd (poss m1 h 1 1) 201 /\ snd (poss m1 h 1 1) 3000 /\ ~ snd (poss m1 h 1 1) 1000.
Proof.
  destruct (do_v_run true (no_wt_over_dirty g2) s_init [] (fresh s_init) wb1) as [b1 R1];
    [constructor|split; reflexivity|exact Logic.I|discriminate|].
  destruct (do_v_run true (no_wt_over_dirty g2) s_init _ _ (OpClean [0]) R1) as [b2 R2]; [exact Logic.I|exact Logic.I|discriminate|].
  destruct (do_v_run true (no_wt_over_dirty g2) s_init _ _ wi3 R2) as [b3 R3]; [split; reflexivity|exact Logic.I|discriminate|].
  eexists. split; [exact R3|]. split; [vm_compute; reflexivity|]. split; [vm_compute; reflexivity|].
  split; [vm_compute; reflexivity|]. cbn.
  split; [right; reflexivity|]. split; [left; reflexivity|]. intros [H|H]; discriminate.
Qed.
Definition wt4 := OpWrite false WT true [0] (rq 0 2) (fun x => 4000 + x).
Example ex_no_lazy : exists h v, vrun g2 vc1 false no_lazy_write s_init h v /\
  length (pend v) = 4%nat /\ vld (now v) 0 0 = true /\ snd (poss m1 h 1 1) 4001.
Proof.
  destruct (do_v_run false no_lazy_write s_init [] (fresh s_init) wt4) as [b1 R1].
  - constructor.
  - split; reflexivity.
  - cbn. repeat split; discriminate.
  - discriminate.
  - do 2 eexists. split; [exact R1|]. split; [vm_compute; reflexivity|]. split; [vm_compute; reflexivity|].
    cbn. now left.
Qed.

(** A dirty sector in the cache and two pending metadata and data writes, flushed. *)
Example ex_after_flush : exists h, vrun g2 vc1 false any_op s_init h (do_v false wb1 (fresh s_init)) /\ no_failure h /\
  length (pend (do_v false wb1 (fresh s_init))) = 3%nat /\
  pend (user_flush 1 (do_v false wb1 (fresh s_init))) = [] /\
  (forall w, fst (poss m1 h 1 0) w <-> w = 1000).
Proof.
  destruct (do_v_run false any_op s_init [] (fresh s_init) wb1) as [b1 R1];
    [constructor|split; reflexivity|exact Logic.I|discriminate|].
  eexists. split; [exact R1|]. split; [intros o [H|[]]; discriminate|]. split; [vm_compute; reflexivity|].
  split; [vm_compute; reflexivity|]. intros w. cbn. tauto.
Qed.

Print Assumptions C51_protected_cache_partial.
Print Assumptions C51_no_lazy_writes_partial.
Print Assumptions C51_right_after_flush_partial.
Print Assumptions C51_write_through_refuted.
Print Assumptions C51_write_back_refuted.

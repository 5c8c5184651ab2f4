(** Data path with failing devices: which values a sector can have. *)
From Coq Require Import NArith List Bool Lia.
From Verif Require Import DpModel DpProofs DpInv DpEng DpEng2 DpEng3 DpEng4 ErrModel.
Import ListNotations.
Open Scope N_scope.

Fixpoint ewp (g : cfg) (p : eprog) (s : st) (Q : bool -> bool -> (N -> N) -> st -> Prop) : Prop :=
  match p with
  | ERet err b => Q err false b s
  | EIo es k => forall l ce oe, outcome es l ce oe ->
      ewp g (k ce oe (do_ios l s)) (do_ios l s) (fun err flt => Q err (ce || oe || flt))
  | EMem es k => ewp g (k (do_mems g es s)) (do_mems g es s) Q
  end.

Lemma ewp_fexec g p s err flt b t : fexec g p s err flt b t ->
  forall Q, ewp g p s Q -> Q err flt b t.
Proof.
  induction 1; intros Q H'; cbn in H'.
  - exact H'.
  - apply (IHfexec (fun err flt => Q err (ce || oe || flt))). now apply H'.
  - now apply IHfexec.
Qed.

Lemma ewp_mono g p : forall s (Q Q' : bool -> bool -> (N -> N) -> st -> Prop),
  (forall e f b t, Q e f b t -> Q' e f b t) -> ewp g p s Q -> ewp g p s Q'.
Proof.
  induction p as [err b|es k IH|es k IH]; intros s Q Q' H W; cbn in *.
  - now apply H.
  - intros l ce oe O. apply (IH ce oe _ _ (fun err flt => Q err (ce || oe || flt))).
    + intros. now apply H.
    + now apply W.
  - now apply (IH _ _ Q).
Qed.

(** State with the same in-memory metadata and consistent everything else. *)
Definition ghost (t : st) : st :=
  {| core := (fun _ _ => 0); cdat := (fun _ _ => 0); tbl := tbl t; vld := vld t; drt := drt t;
     ptbl := tbl t; pvld := vld t; pdrt := drt t |}.

Section S.
Context (g : cfg) (vc : N -> bool) (W : wf g vc).
Local Notation HL := (HL g vc W).

(** [Wk t A]: consistent in-memory metadata, and every value that can be read
    from [t] - of a valid sector from the cache, of a sector that is not dirty
    from the core - is allowed by [A]. *)
Record Wk (t : st) (A : N -> N -> N -> Prop) : Prop := {
  w_ram : Inv g vc (ghost t);
  w_v : forall c cid cl o, tbl t c = Some (cid, cl) -> o < ls g -> vld t c o = true ->
    A cid (cl * ls g + o) (cdat t c o);
  w_c : forall cid cl o, o < ls g ->
    (forall c, tbl t c = Some (cid, cl) -> drt t c o = true -> False) ->
    A cid (cl * ls g + o) (core t cid (cl * ls g + o)) }.

Lemma wk_weaken t (A B : N -> N -> N -> Prop) :
  (forall cid x v, A cid x v -> B cid x v) -> Wk t A -> Wk t B.
Proof. intros H [R V C]. constructor; [assumption| |]; intros; apply H; auto. Qed.

Lemma inv_ram s : Inv g vc s -> Inv g vc (ghost s).
Proof.
  intros I. constructor; cbn [ghost core cdat tbl vld drt ptbl pvld pdrt]; try apply I.
  - reflexivity.
  - reflexivity.
  - intros c o Ho D. split; [reflexivity|]. now apply (i_dv _ _ _ I).
  - intros c cid cl E. apply W. now apply (i_tc _ _ _ I c cid cl).
Qed.

Lemma inv_wk s : Inv g vc s -> Wk s (eqabs g s).
Proof.
  intros I. pose proof HL as HL'. constructor; [now apply inv_ram| |].
  - intros c cid cl o E Ho V. unfold eqabs.
    now rewrite (abs_mapped g vc s c cid cl o I HL' E Ho), V.
  - intros cid cl o Ho H. unfold eqabs. symmetry. eapply abs_clean; try eassumption.
    intros c [T D]. now apply (H c).
Qed.

(** Wk only looks at some components, and at the bits of existing sectors. *)
Lemma ram_ext s t : Inv g vc (ghost s) -> (forall c, tbl t c = tbl s c) ->
  (forall c o, o < ls g -> vld t c o = vld s c o) -> (forall c o, o < ls g -> drt t c o = drt s c o) ->
  Inv g vc (ghost t).
Proof.
  intros I T V D. constructor; cbn [ghost core cdat tbl vld drt ptbl pvld pdrt].
  - intros c c' k. rewrite !T. apply (i_inj _ _ _ I).
  - intros c k. rewrite T. apply (i_rng _ _ _ I).
  - intros c o Ho H. rewrite T. rewrite V in H by assumption. now apply (i_vt _ _ _ I c o).
  - intros c o Ho H. rewrite D in H by assumption. rewrite V by assumption. now apply (i_dv _ _ _ I).
  - reflexivity.
  - reflexivity.
  - intros c o Ho H. split; [reflexivity|]. rewrite D in H by assumption. rewrite V by assumption.
    now apply (i_dv _ _ _ I).
  - intros c cid cl. rewrite T. apply (i_pc _ _ _ I).
  - intros c cid cl. rewrite T. apply (i_tc _ _ _ I).
Qed.

Lemma wk_ext s t A : Wk s A -> (forall c, tbl t c = tbl s c) ->
  (forall c o, o < ls g -> vld t c o = vld s c o) -> (forall c o, o < ls g -> drt t c o = drt s c o) ->
  (forall c o, cdat t c o = cdat s c o) -> (forall cid x, core t cid x = core s cid x) -> Wk t A.
Proof.
  intros [R Hv Hc] T V D E F. constructor.
  - now apply (ram_ext s).
  - intros c cid cl o H Ho Vt. rewrite E. rewrite T in H. rewrite V in Vt by assumption. now apply Hv.
  - intros cid cl o Ho H. rewrite F. apply Hc; [assumption|]. intros c H1 H2. apply (H c).
    + now rewrite T.
    + now rewrite D.
Qed.

Lemma wk_persist es s A : all_persist es -> Wk s A -> Wk (do_ios es s) A.
Proof.
  intros AP K. destruct (ios_ram es s) as (R1 & R2 & R3). apply (wk_ext s); try assumption.
  - intros. now rewrite R1.
  - intros. now rewrite R2.
  - intros. now rewrite R3.
  - intros. apply ios_nocache. intros v H. apply AP in H. destruct H; discriminate.
  - intros. apply ios_nocore. intros v H. apply AP in H. destruct H; discriminate.
Qed.

Lemma wk_persist_sub cs l s A : incl l (persist g cs) -> Wk s A -> Wk (do_ios l s) A.
Proof. intros H. apply wk_persist. now apply (persist_sub g cs). Qed.

(** No dirty sector of [t] is in the range of [r]. *)
Definition nodirty (t : st) (r : req) : Prop :=
  forall c cid cl o, tbl t c = Some (cid, cl) -> o < ls g -> drt t c o = true ->
    ~ inreq r cid (cl * ls g + o).

(** Purge of a range without dirty sectors. *)
Lemma purge_wk t r (A : N -> N -> N -> Prop) : Inv g vc (ghost t) -> 0 < rn r -> nodirty t r ->
  (forall c cid cl o, tbl t c = Some (cid, cl) -> o < ls g -> vld t c o = true ->
    ~ inreq r cid (cl * ls g + o) -> A cid (cl * ls g + o) (cdat t c o)) ->
  (forall cid cl o, o < ls g ->
    (forall c, tbl t c = Some (cid, cl) -> drt t c o = true -> False) ->
    A cid (cl * ls g + o) (core t cid (cl * ls g + o))) ->
  Wk (do_mems g (purge g t r) t) A.
Proof.
  intros I Hn ND HV HC.
  destruct (purge_spec g vc W (ghost t) r t I) as (T & V & D).
  change (purge g (ghost t) r) with (purge g t r) in T, V, D.
  destruct (mem_dev g (purge g t r) t) as (D1 & D2 & _).
  set (u := do_mems g (purge g t r) t) in *.
  assert (TS : forall c k, tbl u c = Some k -> tbl t c = Some k).
  { intros c k H. destruct (T c) as [E|[E _]]; congruence. }
  assert (IS : forall c cid cl o, tbl t c = Some (cid, cl) -> o < ls g ->
    inslot g (ghost t) r c o <-> inreq r cid (cl * ls g + o)).
  { intros. apply (inslot_req g vc W (ghost t)); assumption. }
  assert (DS : forall c o, o < ls g -> drt t c o = true -> drt u c o = true).
  { intros c o Ho H. apply D. split; [assumption|]. intros S.
    assert (Tc : tbl t c <> None).
    { apply (i_vt _ _ _ I c o Ho). now apply (i_dv _ _ _ I). }
    destruct (tbl t c) as [[cid cl]|] eqn:E; [|congruence].
    apply (IS c cid cl o E Ho) in S. now apply (ND c cid cl o). }
  assert (Iu : Inv g vc (ghost u)).
  { constructor; cbn [ghost core cdat tbl vld drt ptbl pvld pdrt].
    - intros c c' k H H'. apply (i_inj _ _ _ I c c' k); now apply TS.
    - intros c k H. apply (i_rng _ _ _ I c k). now apply TS.
    - intros c o Ho H. destruct (T c) as [E|[E F]].
      + rewrite E. apply (i_vt _ _ _ I c o Ho). now apply V.
      + rewrite F in H by assumption. discriminate.
    - intros c o Ho H. apply V. apply D in H. split; [|tauto]. apply (i_dv _ _ _ I); tauto.
    - reflexivity.
    - reflexivity.
    - intros c o Ho H. split; [reflexivity|]. apply V. apply D in H. split; [|tauto].
      apply (i_dv _ _ _ I); tauto.
    - intros c cid cl H. apply TS in H. now apply (i_pc _ _ _ I c cid cl).
    - intros c cid cl H. apply TS in H. now apply (i_tc _ _ _ I c cid cl). }
  constructor; [assumption| |].
  - intros c cid cl o E Ho Vu. rewrite D2. apply TS in E. apply V in Vu. apply HV; try tauto.
    now rewrite <- (IS c cid cl o E Ho).
  - intros cid cl o Ho H. rewrite D1. apply HC; [assumption|]. intros c E Dt.
    assert (Du : drt u c o = true) by (now apply DS).
    apply (H c); [|assumption]. destruct (T c) as [Ec|[Ec F]]; [congruence|].
    apply D in Du. destruct Du as [_ Ns].
    assert (Vu : vld u c o = true).
    { apply V. split; [|assumption]. now apply (i_dv _ _ _ I). }
    rewrite F in Vu by assumption. discriminate.
Qed.

Lemma purge_eq s t r : tbl t = tbl s -> purge g t r = purge g s r.
Proof. apply purge_ext. Qed.

(** What is known after a write of [d] to the range of [r]. *)
Definition plus (A : N -> N -> N -> Prop) (r : req) (d : N -> N) (cid x v : N) : Prop :=
  A cid x v \/ (inreq r cid x /\ v = d x).
Definition over (A : N -> N -> N -> Prop) (r : req) (d : N -> N) (cid x v : N) : Prop :=
  (inreq r cid x -> v = d x) /\ (~ inreq r cid x -> A cid x v).

Lemma over_plus A r d cid x v : over A r d cid x v -> plus A r d cid x v.
Proof.
  intros [H1 H2]. destruct (inreq_dec r cid x); [right; split; [assumption|]; now apply H1|].
  left. now apply H2.
Qed.

Definition wpost (A : N -> N -> N -> Prop) (r : req) (d : N -> N) (err : bool) (t : st) : Prop :=
  Wk t (plus A r d) /\ (err = false -> Wk t (over A r d)).

Lemma wpost_over A r d err t : Wk t (over A r d) -> wpost A r d err t.
Proof.
  intros H. split; [|now intros]. eapply wk_weaken; [|exact H]. apply over_plus.
Qed.
Lemma wpost_err A r d t : Wk t (plus A r d) -> wpost A r d true t.
Proof. intros H. split; [assumption|discriminate]. Qed.

(** Slots of a mapped range. *)
Lemma ram_lt c o s r : inslot g s r c o -> o < ls g.
Proof. apply (inslot_lt g vc W). Qed.

Lemma wb_wk s r d A : Wk s A -> 0 < rn r -> is_mapped g s r = true ->
  ewp g (wb_e g r d s) s (fun err flt _ t =>
    (flt = false \/ nodirty s r) -> wpost A r d err t).
Proof.
  intros K Hn HM. pose proof HL as HL'. destruct K as [I HV HC]. unfold wb_e. cbn [ewp].
  intros l ce oe (O1 & O2 & _).
  assert (Hs : incl l (cache_writes g (ghost s) r d ++ core_writes r d)).
  { intros e He. apply in_app_iff. left. now apply O1. }
  destruct (dw_part g vc W (ghost s) r d l s I Hn Hs) as (E1 & _ & _ & _ & E5).
  destruct (ios_ram l s) as (R1 & R2 & R3).
  assert (EC : forall cid x, core (do_ios l s) cid x = core s cid x).
  { intros. apply ios_nocore. intros v H. apply O1, cw_kind in H.
    destruct H as (? & ? & ? & H). discriminate. }
  assert (I1 : Inv g vc (ghost (do_ios l s))).
  { apply (ram_ext s); try assumption; intros; congruence. }
  destruct ce; cbn [orb].
  - (* data error *)
    unfold inv_e. cbn [ewp]. intros [F|ND]; [destruct oe; discriminate|].
    apply wpost_err. apply purge_wk; try assumption.
    + intros c cid cl o E Ho D. rewrite R1 in E. rewrite R3 in D. now apply (ND c cid cl o).
    + intros c cid cl o E Ho V Q. rewrite R1 in E. rewrite R2 in V.
      destruct (E5 c cid cl o E Ho) as [H|[H _]]; [|contradiction]. rewrite H. left. now apply HV.
    + intros cid cl o Ho H. rewrite EC. left. apply HC; [assumption|].
      intros c E D. apply (H c); congruence.
  - assert (He : forall e, In e l <-> In e (cache_writes g (ghost s) r d)).
    { intros e. split; [apply O1|]. intros H. apply (O2 eq_refl); [assumption|].
      apply cw_kind in H. destruct H as (? & ? & ? & ->). reflexivity. }
    assert (F3 : forall c o cid cl, tbl s c = Some (cid, cl) -> inslot g (ghost s) r c o ->
      cdat (do_ios l s) c o = d (cl * ls g + o)).
    { intros c o cid cl E S. destruct (ios_cdat l s c o) as [[_ H]|(v & H1 & H2)].
      - exfalso. apply (H (d (cl * ls g + o))). apply He. apply (in_cw g vc); [assumption|].
        split; [assumption|]. now exists cid, cl.
      - apply He in H1. apply (in_cw g vc) in H1; [|assumption].
        destruct H1 as (_ & cid' & cl' & E' & ->). cbn [ghost tbl] in E'. rewrite E in E'.
        injection E' as <- <-. exact H2. }
    assert (F4 : forall c o, ~ inslot g (ghost s) r c o -> cdat (do_ios l s) c o = cdat s c o).
    { intros c o S. apply ios_nocache. intros v H. apply He in H.
      apply (in_cw g vc) in H; [|assumption]. tauto. }
    set (s1 := do_ios l s) in *.
    set (ms := (if is_hit g s r then [] else set_valid g s r) ++
               (if is_dirty_all g s r then [] else set_dirty g s r)).
    cbn [ewp].
    destruct (mem_dev g ms s1) as (D1 & D2 & _).
    assert (Hms : tbl (do_mems g ms s1) = tbl s /\
      (forall c o, vld (do_mems g ms s1) c o = true <-> vld s c o = true \/ inslot g (ghost s) r c o) /\
      (forall c o, drt (do_mems g ms s1) c o = true <-> drt s c o = true \/ inslot g (ghost s) r c o)).
    { unfold ms. rewrite mems_app.
      set (s1' := do_mems g (if is_hit g s r then [] else set_valid g s r) s1).
      assert (A1 : tbl s1' = tbl s /\ drt s1' = drt s /\
        forall c o, vld s1' c o = true <-> vld s c o = true \/ inslot g (ghost s) r c o).
      { unfold s1'. destruct (is_hit g s r) eqn:HH.
        - cbn [do_mems]. split; [assumption|]. split; [assumption|]. intros c o. rewrite R2.
          split; [tauto|]. intros [V|V]; [assumption|]. now apply (hit_slot g vc (ghost s) r).
        - destruct (setv_spec g vc (ghost s) r s1 I) as (B1 & B2 & B3).
          change (set_valid g (ghost s) r) with (set_valid g s r) in *.
          rewrite B1, B2. split; [assumption|]. split; [assumption|].
          intros c o. rewrite B3, R2. tauto. }
      destruct A1 as (A1 & A2 & A3).
      destruct (is_dirty_all g s r) eqn:DA.
      - cbn [do_mems]. split; [assumption|]. split; [assumption|]. intros c o. rewrite A2.
        split; [tauto|]. intros [V|V]; [assumption|]. now apply (dirty_all_slot g vc (ghost s) r).
      - destruct (setd_spec g vc (ghost s) r s1' I) as (B1 & B2 & B3).
        change (set_dirty g (ghost s) r) with (set_dirty g s r) in *.
        rewrite B1, B2. split; [assumption|]. split; [assumption|].
        intros c o. rewrite B3, A2. tauto. }
    destruct Hms as (T2 & V2 & Dr2).
    set (s2 := do_mems g ms s1) in *.
    assert (IT : forall c o, inslot g (ghost s) r c o -> tbl s c <> None).
    { intros c o (cl & E & _). cbn in E. congruence. }
    assert (K2 : Wk s2 (over A r d)).
    { constructor.
      - constructor; cbn [ghost core cdat tbl vld drt ptbl pvld pdrt].
        + rewrite T2. apply (i_inj _ _ _ I).
        + rewrite T2. apply (i_rng _ _ _ I).
        + intros c o Ho V. rewrite T2. apply V2 in V. destruct V as [V|V].
          * now apply (i_vt _ _ _ I c o).
          * now apply (IT c o).
        + intros c o Ho D. apply V2. apply Dr2 in D. destruct D as [D|D]; [left|now right].
          now apply (i_dv _ _ _ I).
        + reflexivity.
        + reflexivity.
        + intros c o Ho D. split; [reflexivity|]. apply V2. apply Dr2 in D.
          destruct D as [D|D]; [left|now right]. now apply (i_dv _ _ _ I).
        + rewrite T2. apply (i_pc _ _ _ I).
        + rewrite T2. apply (i_tc _ _ _ I).
      - intros c cid cl o E Ho V. rewrite T2 in E. rewrite D2.
        pose proof (inslot_req g vc W (ghost s) r c o cid cl I Hn E Ho) as IS. split; intros Q.
        + apply (F3 c o cid cl E). now apply IS.
        + rewrite F4 by (now rewrite IS). apply HV; try assumption.
          apply V2 in V. destruct V as [V|V]; [assumption|]. apply IS in V. contradiction.
      - intros cid cl o Ho H. rewrite D1, EC. split; intros Q.
        + exfalso. assert (Q' := Q). destruct (divmod_line (ls g) cl o Ho) as [Z1 Z2].
          assert (Qr := Q'). destruct Q' as [-> Q'].
          rewrite (geo g r _ HL' Hn), Z1 in Q'.
          destruct (mapped_all g s r cl HM) as [c E]; try tauto.
          apply (H c); [congruence|]. apply Dr2. right.
          apply (inslot_req g vc W (ghost s) r c o (rc r) cl); try assumption.
        + apply HC; [assumption|]. intros c E D. apply (H c); [congruence|]. apply Dr2. now left. }
    destruct (is_dirty_all g s r).
    { cbn [ewp]. intros _. now apply wpost_over. }
    destruct (mark_dirty g s r) as [|m0 ml].
    { cbn [ewp]. intros _. now apply wpost_over. }
    cbn [ewp]. intros l' ce' oe' (P1 & _) _. apply wpost_over.
    now apply (wk_persist_sub (m0 :: ml)).
Qed.

(** Cache and core writes of a request, over metadata [s], done completely. *)
Lemma all_writes s r d l t0 : Inv g vc (ghost s) ->
  (forall e, In e l <-> In e (cache_writes g s r d ++ core_writes r d)) ->
  (forall cid x, inreq r cid x -> core (do_ios l t0) cid x = d x) /\
  (forall cid x, ~ inreq r cid x -> core (do_ios l t0) cid x = core t0 cid x) /\
  (forall c o cid cl, tbl s c = Some (cid, cl) -> inslot g (ghost s) r c o ->
     cdat (do_ios l t0) c o = d (cl * ls g + o)) /\
  (forall c o, ~ inslot g (ghost s) r c o -> cdat (do_ios l t0) c o = cdat t0 c o).
Proof. intros I He. exact (dw_full g vc (ghost s) r d l t0 I He). Qed.

Lemma outcome_all es l : outcome es l false false -> forall e, In e l <-> In e es.
Proof.
  intros (O1 & O2 & O3) e. split; [apply O1|]. intros H. destruct (to_core e) eqn:T.
  - now apply (O3 eq_refl).
  - now apply (O2 eq_refl).
Qed.

(** Core writes of a group all done. *)
Lemma core_done s r d l t0 ce : outcome (cache_writes g s r d ++ core_writes r d) l ce false ->
  (forall cid x, inreq r cid x -> core (do_ios l t0) cid x = d x).
Proof.
  intros (O1 & _ & O3) cid x S. destruct (ios_core l t0 cid x) as [[_ H]|(v & H1 & H2)].
  - exfalso. apply (H (d x)). apply (O3 eq_refl); [|reflexivity]. apply in_app_iff. right.
    apply in_kw. tauto.
  - apply O1, in_app_iff in H1. destruct H1 as [H1|H1].
    + apply cw_kind in H1. destruct H1 as (? & ? & ? & H1). discriminate.
    + apply in_kw in H1. destruct H1 as [_ ->]. exact H2.
Qed.

(** A failed group of a write-through request, then the purge.  [u]: metadata [s],
    possibly with the valid bits of the range already set. *)
Lemma wt_fail s u r d A l ce oe : Wk s A -> 0 < rn r -> nodirty s r ->
  tbl u = tbl s -> drt u = drt s -> core u = core s -> cdat u = cdat s ->
  (forall c o, vld u c o = true <-> vld s c o = true \/ inslot g (ghost s) r c o) ->
  outcome (cache_writes g s r d ++ core_writes r d) l ce oe ->
  wpost A r d oe (do_mems g (purge g (do_ios l u) r) (do_ios l u)).
Proof.
  intros [I HV HC] Hn ND Et Ed Ek Ec Ev O. pose proof HL as HL'.
  destruct (dw_part g vc W (ghost s) r d l u I Hn (proj1 O)) as (E1 & _ & _ & _ & E5).
  destruct (ios_ram l u) as (R1 & R2 & R3).
  assert (IT : forall c o, inslot g (ghost s) r c o -> tbl s c <> None).
  { intros c o (cl & E & _). cbn in E. congruence. }
  assert (Iu : Inv g vc (ghost (do_ios l u))).
  { constructor; cbn [ghost core cdat tbl vld drt ptbl pvld pdrt]; rewrite ?R1, ?R2, ?R3, ?Et, ?Ed.
    - apply (i_inj _ _ _ I).
    - apply (i_rng _ _ _ I).
    - intros c o Ho V. apply Ev in V. destruct V as [V|V]; [now apply (i_vt _ _ _ I c o)|now apply (IT c o)].
    - intros c o Ho D. apply Ev. left. now apply (i_dv _ _ _ I).
    - reflexivity.
    - reflexivity.
    - intros c o Ho D. split; [reflexivity|]. apply Ev. left. now apply (i_dv _ _ _ I).
    - apply (i_pc _ _ _ I).
    - apply (i_tc _ _ _ I). }
  assert (ND' : nodirty (do_ios l u) r).
  { intros c cid cl o E Ho D. apply (ND c cid cl o); congruence. }
  assert (VO : forall c cid cl o, tbl (do_ios l u) c = Some (cid, cl) -> o < ls g ->
    vld (do_ios l u) c o = true -> ~ inreq r cid (cl * ls g + o) ->
    A cid (cl * ls g + o) (cdat (do_ios l u) c o)).
  { intros c cid cl o E Ho V Q. assert (Es : tbl s c = Some (cid, cl)) by congruence.
    rewrite R2 in V. apply Ev in V.
    pose proof (inslot_req g vc W (ghost s) r c o cid cl I Hn Es Ho) as IS.
    destruct (E5 c cid cl o Es Ho) as [H|[H _]]; [|contradiction]. rewrite H, Ec.
    apply HV; try assumption. destruct V as [V|V]; [assumption|]. apply IS in V. contradiction. }
  split.
  - apply purge_wk; try assumption.
    + intros. left. now apply VO.
    + intros cid cl o Ho H. destruct (E1 cid (cl * ls g + o)) as [Q|Q]; [|now right].
      left. rewrite Q, Ek. apply HC; [assumption|]. intros c E D. apply (H c); congruence.
  - intros ->. pose proof (core_done s r d l u ce O) as CD.
    apply purge_wk; try assumption.
    + intros c cid cl o E Ho V Q. split; [contradiction|]. intros _. now apply VO.
    + intros cid cl o Ho H. split; [apply CD|]. intros Q.
      destruct (E1 cid (cl * ls g + o)) as [Z|[Z _]]; [|contradiction].
      rewrite Z, Ek. apply HC; [assumption|]. intros c E D. apply (H c); congruence.
Qed.

(** All data written to cache and core, bits set. *)
Lemma wt_done s t r d A : Wk s A -> 0 < rn r -> tbl t = tbl s ->
  (forall c o, vld t c o = true <-> vld s c o = true \/ inslot g (ghost s) r c o) ->
  (forall c o, drt t c o = true -> drt s c o = true) ->
  (forall c o, drt s c o = true -> ~ inslot g (ghost s) r c o -> drt t c o = true) ->
  (forall cid x, inreq r cid x -> core t cid x = d x) ->
  (forall cid x, ~ inreq r cid x -> core t cid x = core s cid x) ->
  (forall c o cid cl, tbl s c = Some (cid, cl) -> inslot g (ghost s) r c o ->
     cdat t c o = d (cl * ls g + o)) ->
  (forall c o, ~ inslot g (ghost s) r c o -> cdat t c o = cdat s c o) ->
  Wk t (over A r d).
Proof.
  intros [I HV HC] Hn Et Ev Ed Ed' F1 F2 F3 F4. pose proof HL as HL'.
  assert (IT : forall c o, inslot g (ghost s) r c o -> tbl s c <> None).
  { intros c o (cl & E & _). cbn in E. congruence. }
  constructor.
  - constructor; cbn [ghost core cdat tbl vld drt ptbl pvld pdrt]; rewrite ?Et.
    + apply (i_inj _ _ _ I).
    + apply (i_rng _ _ _ I).
    + intros c o Ho V. apply Ev in V. destruct V as [V|V]; [now apply (i_vt _ _ _ I c o)|now apply (IT c o)].
    + intros c o Ho D. apply Ev. left. apply Ed in D. now apply (i_dv _ _ _ I).
    + reflexivity.
    + reflexivity.
    + intros c o Ho D. split; [reflexivity|]. apply Ev. left. apply Ed in D. now apply (i_dv _ _ _ I).
    + apply (i_pc _ _ _ I).
    + apply (i_tc _ _ _ I).
  - intros c cid cl o E Ho V. rewrite Et in E.
    pose proof (inslot_req g vc W (ghost s) r c o cid cl I Hn E Ho) as IS. split; intros Q.
    + apply (F3 c o cid cl E). now apply IS.
    + rewrite F4 by (now rewrite IS). apply HV; try assumption.
      apply Ev in V. destruct V as [V|V]; [assumption|]. apply IS in V. contradiction.
  - intros cid cl o Ho H. split; intros Q; [now apply F1|]. rewrite F2 by assumption.
    apply HC; [assumption|]. intros c E D. apply (H c); [congruence|]. apply Ed'; [assumption|].
    now rewrite (inslot_req g vc W (ghost s) r c o cid cl).
Qed.

Lemma setv_cond s r t : Inv g vc (ghost s) -> vld t = vld s ->
  let u := do_mems g (if is_hit g s r then [] else set_valid g s r) t in
  tbl u = tbl t /\ drt u = drt t /\ core u = core t /\ cdat u = cdat t /\
  (forall c o, vld u c o = true <-> vld s c o = true \/ inslot g (ghost s) r c o).
Proof.
  intros I E u. unfold u. destruct (is_hit g s r) eqn:HH.
  - cbn [do_mems]. repeat (split; [reflexivity|]). intros c o. rewrite E.
    split; [tauto|]. intros [V|V]; [assumption|]. now apply (hit_slot g vc (ghost s) r).
  - destruct (setv_spec g vc (ghost s) r t I) as (B1 & B2 & B3).
    change (set_valid g (ghost s) r) with (set_valid g s r) in *.
    destruct (mem_dev g (set_valid g s r) t) as (D1 & D2 & _).
    repeat (split; [assumption|]). intros c o. rewrite B3, E. tauto.
Qed.

Lemma wt_wk s r d A : Wk s A -> 0 < rn r ->
  ewp g (wt_e g r d s) s (fun err flt _ t =>
    (flt = false \/ nodirty s r) -> wpost A r d err t).
Proof.
  intros K Hn. assert (I := w_ram _ _ K). unfold wt_e.
  destruct (dirty_any g s r) eqn:DA.
  - cbn [ewp]. intros l ce oe O. destruct (ce || oe) eqn:F.
    + unfold inv_e. cbn [ewp]. intros [Z|ND]; [discriminate|].
      destruct (is_hit g s r) eqn:HH.
      * apply (wt_fail s s r d A l ce oe); try assumption; try reflexivity.
        intros c o. split; [tauto|]. intros [V|V]; [assumption|]. now apply (hit_slot g vc (ghost s) r).
      * (* valid bits are not set yet: purge only what is there *)
        destruct K as [_ HV HC].
        destruct (dw_part g vc W (ghost s) r d l s I Hn (proj1 O)) as (E1 & _ & _ & _ & E5).
        destruct (ios_ram l s) as (R1 & R2 & R3).
        assert (Iu : Inv g vc (ghost (do_ios l s))).
        { apply (ram_ext s); try assumption; intros; congruence. }
        assert (ND' : nodirty (do_ios l s) r).
        { intros c cid cl o E Ho D. apply (ND c cid cl o); congruence. }
        assert (VO : forall c cid cl o, tbl (do_ios l s) c = Some (cid, cl) -> o < ls g ->
          vld (do_ios l s) c o = true -> ~ inreq r cid (cl * ls g + o) ->
          A cid (cl * ls g + o) (cdat (do_ios l s) c o)).
        { intros c cid cl o E Ho V Q. rewrite R1 in E. rewrite R2 in V.
          destruct (E5 c cid cl o E Ho) as [H|[H _]]; [|contradiction]. rewrite H. now apply HV. }
        split.
        -- apply purge_wk; try assumption.
           ++ intros. left. now apply VO.
           ++ intros cid cl o Ho H. destruct (E1 cid (cl * ls g + o)) as [Q|Q]; [|now right].
              left. rewrite Q. apply HC; [assumption|]. intros c E D. apply (H c); congruence.
        -- intros ->. pose proof (core_done s r d l s ce O) as CD.
           apply purge_wk; try assumption.
           ++ intros c cid cl o E Ho V Q. split; [contradiction|]. intros _. now apply VO.
           ++ intros cid cl o Ho H. split; [apply CD|]. intros Q.
              destruct (E1 cid (cl * ls g + o)) as [Z|[Z _]]; [|contradiction].
              rewrite Z. apply HC; [assumption|]. intros c E D. apply (H c); congruence.
    + apply orb_false_iff in F. destruct F as [-> ->]. pose proof (outcome_all _ _ O) as He.
      destruct (all_writes s r d l s I He) as (F1 & F2 & F3 & F4).
      destruct (ios_ram l s) as (R1 & R2 & R3). set (s1 := do_ios l s) in *. cbn [ewp].
      set (ms := (if is_hit g s r then [] else set_valid g s r) ++ set_clean g s r).
      destruct (setv_cond s r s1 I R2) as (B1 & B2 & B3 & B4 & B5).
      destruct (setc_spec g vc (ghost s) r
        (do_mems g (if is_hit g s r then [] else set_valid g s r) s1) I) as (C1 & C2 & C3).
      change (set_clean g (ghost s) r) with (set_clean g s r) in *.
      destruct (mem_dev g ms s1) as (D1 & D2 & _).
      rewrite <- mems_app in C1, C2, C3. fold ms in C1, C2, C3.
      set (s2 := do_mems g ms s1) in *.
      assert (K2 : Wk s2 (over A r d)).
      { apply (wt_done s); try assumption.
        - congruence.
        - intros c o. rewrite C2. apply B5.
        - intros c o D. apply C3 in D. rewrite B2, R3 in D. tauto.
        - intros c o D Q. apply C3. rewrite B2, R3. tauto.
        - intros. rewrite D1. now apply F1.
        - intros. rewrite D1. now apply F2.
        - intros c o cid cl E S. rewrite D2. now apply (F3 c o cid cl).
        - intros. rewrite D2. now apply F4. }
      destruct (mark_clean g s r) as [|m0 ml].
      { cbn [ewp]. intros _. now apply wpost_over. }
      cbn [ewp]. intros l' ce' oe' (P1 & _) _. apply wpost_over.
      now apply (wk_persist_sub (m0 :: ml)).
  - cbn [ewp]. destruct (setv_cond s r s I eq_refl) as (B1 & B2 & B3 & B4 & B5).
    set (u := do_mems g (if is_hit g s r then [] else set_valid g s r) s) in *.
    intros l ce oe O. destruct (ce || oe) eqn:F.
    + unfold inv_e. cbn [ewp]. intros [Z|ND]; [discriminate|].
      now apply (wt_fail s u r d A l ce oe).
    + apply orb_false_iff in F. destruct F as [-> ->]. pose proof (outcome_all _ _ O) as He.
      cbn [ewp]. intros _. apply wpost_over.
      destruct (all_writes s r d l u I He) as (F1 & F2 & F3 & F4).
      destruct (ios_ram l u) as (R1 & R2 & R3).
      apply (wt_done s); try assumption.
      * congruence.
      * intros c o. rewrite R2. apply B5.
      * intros c o. now rewrite R3, B2.
      * intros c o. now rewrite R3, B2.
      * intros cid x Q. rewrite F2, B3 by assumption. reflexivity.
      * intros c o Q. rewrite F4, B4 by assumption. reflexivity.
Qed.

(** ** Cleaning. *)
Definition cleanedw (s : st) (cs : list N) (A : N -> N -> N -> Prop) (t : st) : Prop :=
  Wk t A /\ tbl t = tbl s /\ vld t = vld s /\
  (forall c o, In c cs -> o < ls g -> drt t c o = false) /\
  (forall c o, drt t c o = true -> drt s c o = true).

Lemma in_cws s cs e : Inv g vc (ghost s) -> In e (clean_writes g s cs) ->
  exists c cid cl o, In c cs /\ tbl s c = Some (cid, cl) /\ o < ls g /\ vld s c o = true /\
    e = WCore cid (cl * ls g + o) (cdat s c o).
Proof.
  intros I H. unfold clean_writes in H. apply in_flat_map in H. destruct H as (c & H1 & H2).
  destruct (tbl s c) as [[cid cl]|] eqn:E; [|destruct H2].
  apply in_map_iff in H2. destruct H2 as (o & <- & H2).
  apply (proj1 (in_clean_sectors g vc W (ghost s) c o I)) in H2. exists c, cid, cl, o. tauto.
Qed.

Lemma clean_wk s cs0 k A (Q : bool -> bool -> (N -> N) -> st -> Prop) : Wk s A ->
  (forall f b t, Wk t A -> Q true f b t) ->
  (forall t f, cleanedw s cs0 A t -> ewp g (k t) t (fun err flt => Q err (f || flt))) ->
  ewp g (clean_e g s cs0 k) s Q.
Proof.
  intros K HE HK. assert (K' := K). destruct K' as [I HV HC]. pose proof HL as HL'. unfold clean_e.
  set (cs := filter (line_dirty g s) cs0).
  assert (CS : forall c o, In c cs0 -> ~ In c cs -> o < ls g -> drt s c o = false).
  { intros c o H1 H2 Ho. destruct (drt s c o) eqn:D; [|reflexivity]. exfalso. apply H2.
    apply filter_In. split; [assumption|]. unfold line_dirty. apply existsb_rng.
    exists o. split; [lia|]. split; [lia|assumption]. }
  assert (NIL : cs = [] -> ewp g (k s) s Q).
  { intros E. apply (HK s false). split; [assumption|]. split; [reflexivity|]. split; [reflexivity|].
    split; [|tauto]. intros c o H Ho. apply (CS c o); try assumption. rewrite E. intros []. }
  destruct cs as [|c0 cs1] eqn:Ecs; [now apply NIL|]. rewrite <- Ecs in *. clear Ecs NIL.
  cbn [ewp]. intros l0 ce0 oe0 (O0 & _).
  assert (E0 : l0 = []) by (destruct l0 as [|e l0]; [reflexivity|destruct (O0 e (or_introl eq_refl))]).
  subst l0. cbn [do_ios]. destruct ce0; cbn [ewp]; [now apply HE|].
  intros l ce oe (O1 & _ & O3).
  assert (WV : forall cid x v, In (WCore cid x v) (clean_writes g s cs) -> A cid x v).
  { intros cid x v H. apply in_cws in H; [|assumption].
    destruct H as (c & cid' & cl & o & _ & E & Ho & V & H). injection H as -> -> ->. now apply HV. }
  assert (KI : forall cid x, core (do_ios l s) cid x = core s cid x \/ A cid x (core (do_ios l s) cid x)).
  { intros cid x. destruct (ios_core l s cid x) as [[H _]|(v & H1 & H2)]; [now left|].
    right. rewrite H2. apply WV. now apply O1. }
  assert (KD : forall c o, cdat (do_ios l s) c o = cdat s c o).
  { intros c o. apply ios_nocache. intros v H. apply O1, in_cws in H; [|assumption].
    destruct H as (? & ? & ? & ? & _ & _ & _ & _ & H). discriminate. }
  destruct (ios_ram l s) as (R1 & R2 & R3).
  assert (K1 : Wk (do_ios l s) A).
  { constructor.
    - apply (ram_ext s); try assumption; intros; congruence.
    - intros c cid cl o E Ho V. rewrite KD. apply HV; congruence.
    - intros cid cl o Ho H. destruct (KI cid (cl * ls g + o)) as [E|E]; [|assumption].
      rewrite E. apply HC; [assumption|]. intros c T D. apply (H c); congruence. }
  intros l1 ce1 fe1 (O4 & _).
  assert (E1 : l1 = []) by (destruct l1 as [|e l1]; [reflexivity|destruct (O4 e (or_introl eq_refl))]).
  subst l1. cbn [do_ios]. destruct (oe || fe1) eqn:F; cbn [ewp]; [now apply HE|].
  apply orb_false_iff in F. destruct F as [-> ->]. set (s1 := do_ios l s) in *.
  set (ms := map (fun c => SetC c 0 (ls g - 1)) cs).
  destruct (mem_dev g ms s1) as (D1 & D2 & _).
  destruct (mems_setc g ms s1) as (T2 & V2 & Dr2).
  { intros e H. apply in_map_iff in H. destruct H as (c & <- & _). eauto. }
  set (s2 := do_mems g ms s1) in *.
  assert (DR : forall c o, o < ls g -> drt s2 c o = true <-> drt s c o = true /\ ~ In c cs).
  { intros c o Ho. rewrite Dr2, R3. split; intros [H1 H2]; (split; [assumption|]).
    - intros H. apply (H2 0 (ls g - 1)); [|lia]. apply in_map_iff. now exists c.
    - intros a b H _. apply in_map_iff in H. destruct H as (c' & H & H').
      injection H as -> _ _. tauto. }
  assert (K2 : Wk s2 A).
  { constructor.
    - constructor; cbn [ghost core cdat tbl vld drt ptbl pvld pdrt]; rewrite ?T2, ?R1, ?V2, ?R2.
      + apply (i_inj _ _ _ I).
      + apply (i_rng _ _ _ I).
      + apply (i_vt _ _ _ I).
      + intros c o Ho D. apply DR in D; [|assumption]. now apply (i_dv _ _ _ I).
      + reflexivity.
      + reflexivity.
      + intros c o Ho D. apply DR in D; [|assumption]. split; [reflexivity|]. now apply (i_dv _ _ _ I).
      + apply (i_pc _ _ _ I).
      + apply (i_tc _ _ _ I).
    - intros c cid cl o E Ho V. rewrite D2, KD. apply HV; congruence.
    - intros cid cl o Ho H. rewrite D1.
      destruct (mapped_dec g vc (ghost s) cid cl I) as [[c E]|E].
      + cbn [ghost tbl] in E. destruct (drt s c o) eqn:D.
        * destruct (in_dec N.eq_dec c cs) as [Hc|Hc].
          -- assert (IW : In (WCore cid (cl * ls g + o) (cdat s c o)) l).
             { apply (O3 eq_refl); [|reflexivity]. unfold clean_writes. apply in_flat_map. exists c.
               split; [assumption|]. rewrite E. apply in_map_iff. exists o. split; [reflexivity|].
               now apply (in_clean_sectors g vc W (ghost s) c o I). }
             destruct (ios_core l s cid (cl * ls g + o)) as [[_ H']|(v & H1 & H2)].
             ++ exfalso. now apply (H' _ IW).
             ++ unfold s1. rewrite H2. apply WV. now apply O1.
          -- exfalso. apply (H c); [congruence|]. now apply DR.
        * destruct (KI cid (cl * ls g + o)) as [Q'|Q']; [|assumption].
          fold s1 in Q'. rewrite Q'. apply HC; [assumption|].
          intros c' T' D'. assert (c' = c) by (eapply (i_inj _ _ _ I); cbn; eassumption). congruence.
      + destruct (KI cid (cl * ls g + o)) as [Q'|Q']; [|assumption].
        fold s1 in Q'. rewrite Q'. apply HC; [assumption|]. intros c' T' _. now apply (E c'). }
  intros l2 me oe2 (O5 & _).
  assert (K3 : Wk (do_ios l2 s2) A) by (now apply (wk_persist_sub cs)).
  destruct me; cbn [ewp]; [now apply HE|].
  intros l3 ce3 oe3 (O6 & _).
  assert (E3 : l3 = []) by (destruct l3 as [|e l3]; [reflexivity|destruct (O6 e (or_introl eq_refl))]).
  subst l3. cbn [do_ios]. destruct (ios_ram l2 s2) as (P1 & P2 & P3).
  eapply ewp_mono; [|apply (HK _ (oe0 || (ce || (ce1 || (oe2 || (ce3 || oe3))))))].
  - cbn. intros e f b t H. rewrite !orb_false_r. rewrite !orb_assoc in *. exact H.
  - split; [assumption|]. split; [congruence|]. split; [congruence|]. split.
    + intros c o Hc Ho. rewrite P3. destruct (drt s2 c o) eqn:D; [|reflexivity].
      apply DR in D; [|assumption]. destruct D as [D Nc]. now rewrite (CS c o Hc Nc Ho) in D.
    + intros c o D. rewrite P3 in D. apply Dr2 in D. rewrite R3 in D. tauto.
Qed.

Lemma cleanedw_range s r A t : Inv g vc (ghost s) -> 0 < rn r ->
  cleanedw s (dirty_lines g s r) A t -> nodirty t r.
Proof.
  intros I Hn (_ & Et & _ & H & H') c cid cl o E Ho D S. rewrite Et in E.
  assert (F : drt t c o = false); [|congruence]. apply H; [|assumption].
  apply (dirty_lines_slot g vc W (ghost s) r c o I); [now apply H'|].
  now apply (inslot_req g vc W (ghost s) r c o cid cl).
Qed.

(** ** Write-invalidate. *)
Lemma purge_nodirty t r : Inv g vc (ghost t) -> nodirty t r ->
  nodirty (do_mems g (purge g t r) t) r.
Proof.
  intros I ND. destruct (purge_spec g vc W (ghost t) r t I) as (T & V & D).
  change (purge g (ghost t) r) with (purge g t r) in T, V, D.
  intros c cid cl o E Ho Dr. apply D in Dr. apply (ND c cid cl o); try tauto.
  destruct (T c) as [Ec|[Ec _]]; congruence.
Qed.

Lemma wi_purge_wk t r (k : st -> eprog) (A : N -> N -> N -> Prop) (Q : bool -> bool -> (N -> N) -> st -> Prop) :
  Inv g vc (ghost t) -> 0 < rn r -> nodirty t r ->
  (forall c cid cl o, tbl t c = Some (cid, cl) -> o < ls g -> vld t c o = true ->
    ~ inreq r cid (cl * ls g + o) -> A cid (cl * ls g + o) (cdat t c o)) ->
  (forall cid cl o, o < ls g ->
    (forall c, tbl t c = Some (cid, cl) -> drt t c o = true -> False) ->
    A cid (cl * ls g + o) (core t cid (cl * ls g + o))) ->
  (forall f b u, Wk u A -> Q true f b u) ->
  (forall u f, Wk u A -> nodirty u r -> ewp g (k u) u (fun err flt => Q err (f || flt))) ->
  ewp g (wi_purge_e g r k t) t Q.
Proof.
  intros I Hn ND HV HC HE HK. unfold wi_purge_e.
  pose proof (purge_wk t r A I Hn ND HV HC) as KP.
  pose proof (purge_nodirty t r I ND) as NP.
  destruct (slots g t r) as [|p0 pl] eqn:Sl.
  - apply (HK t false); [|assumption].
    assert (E : do_mems g (purge g t r) t = t).
    { unfold purge, per_slot. now rewrite Sl. }
    now rewrite E in KP.
  - cbn [ewp]. set (u := do_mems g (purge g t r) t) in *.
    destruct (mark_clean g t r) as [|m0 ml].
    + now apply (HK u false).
    + cbn [ewp]. intros l me oe (O1 & _).
      assert (K3 : Wk (do_ios l u) A) by (now apply (wk_persist_sub (m0 :: ml))).
      destruct me; cbn [ewp]; [now apply HE|].
      apply (HK (do_ios l u) (false || oe)); [assumption|].
      destruct (ios_ram l u) as (R1 & _ & R3).
      intros c cid cl o E Ho D. apply (NP c cid cl o); congruence.
Qed.

Lemma wi_wk s r d A : Wk s A -> 0 < rn r ->
  ewp g (wi_e g r d s) s (fun err _ _ t => wpost A r d err t).
Proof.
  intros K Hn. unfold wi_e. apply (clean_wk s _ _ A); [assumption| |].
  - intros _ _ t Kt. apply wpost_err. eapply wk_weaken; [|exact Kt]. now left.
  - intros s1 f Hc. pose proof (cleanedw_range s r A s1 (w_ram _ _ K) Hn Hc) as ND.
    destruct Hc as (K1 & Et & Ev & _ & _). assert (K1' := K1). destruct K1' as [I1 HV HC].
    cbn [ewp]. intros l ce oe O.
    destruct (kw_part r d l s1 (proj1 O)) as (E1 & E5 & _).
    destruct (ios_ram l s1) as (R1 & R2 & R3).
    assert (I2 : Inv g vc (ghost (do_ios l s1))).
    { apply (ram_ext s1); try assumption; intros; congruence. }
    destruct oe; cbn [ewp].
    + apply wpost_err. constructor; [assumption| |].
      * intros c cid cl o E Ho V. left. rewrite E5. apply HV; congruence.
      * intros cid cl o Ho H. destruct (E1 cid (cl * ls g + o)) as [Q|Q]; [|now right].
        left. rewrite Q. apply HC; [assumption|]. intros c E D. apply (H c); congruence.
    + assert (CD : forall cid x, inreq r cid x -> core (do_ios l s1) cid x = d x).
      { intros cid x S. destruct (ios_core l s1 cid x) as [[_ H]|(v & H1 & H2)].
        - exfalso. apply (H (d x)). apply O; [reflexivity| |reflexivity]. apply in_kw. tauto.
        - apply (proj1 O), in_kw in H1. destruct H1 as [_ ->]. exact H2. }
      set (s2 := do_ios l s1) in *.
      assert (ND2 : nodirty s2 r).
      { intros c cid cl o E Ho D. apply (ND c cid cl o); congruence. }
      apply (wi_purge_wk s2 r _ (over A r d)); try assumption.
      * intros c cid cl o E Ho V Q. split; [contradiction|]. intros _. rewrite E5. apply HV; congruence.
      * intros cid cl o Ho H. split; [apply CD|]. intros Q.
        destruct (E1 cid (cl * ls g + o)) as [Z|[Z _]]; [|contradiction].
        rewrite Z. apply HC; [assumption|]. intros c E D. apply (H c); congruence.
      * intros _ _ u Ku. now apply wpost_over.
      * intros u f' Ku NDu. destruct (is_hit g s r); cbn [ewp]; [now apply wpost_over|].
        apply (wi_purge_wk u r _ (over A r d)); try assumption.
        -- apply Ku.
        -- intros. now apply (w_v _ _ Ku).
        -- intros. now apply (w_c _ _ Ku).
        -- intros _ _ v Kv. now apply wpost_over.
        -- intros v f'' Kv _. cbn [ewp]. now apply wpost_over.
Qed.

(** ** Mapping. *)
Definition wsame (A : N -> N -> N -> Prop) (s t : st) : Prop :=
  Wk t A /\ drt t = drt s /\
  (forall c o, o < ls g -> drt s c o = true -> tbl t c = tbl s c).

Lemma wsame_refl s A : Wk s A -> wsame A s s.
Proof. intros K. split; [assumption|]. split; reflexivity. Qed.
Lemma wsame_trans A s t u : wsame A s t -> wsame A t u -> wsame A s u.
Proof.
  intros (K1 & D1 & T1) (K2 & D2 & T2). split; [assumption|]. split; [congruence|].
  intros c o Ho D. rewrite (T2 c o Ho), (T1 c o Ho); congruence.
Qed.
Lemma wsame_nodirty A s t r : Wk s A -> wsame A s t -> nodirty s r -> nodirty t r.
Proof.
  intros K (_ & D & T) ND c cid cl o E Ho Dt. rewrite D in Dt.
  apply (ND c cid cl o); try assumption. now rewrite <- (T c o).
Qed.

Lemma drop_wk s c A : Wk s A -> line_dirty g s c = false ->
  wsame A s (do_mem g (dropl g c) s).
Proof.
  intros [I HV HC] ND. pose proof HL as HL'. destruct (drop_tbl g vc W s c) as [T V].
  set (t := do_mem g (dropl g c) s) in *.
  assert (Ed : drt t = drt s) by reflexivity.
  assert (TS : forall c' k, tbl t c' = Some k -> tbl s c' = Some k /\ c' <> c).
  { intros c' k H. rewrite T in H. unfold upd1 in H. destruct (N.eqb_spec c' c); [discriminate|]. tauto. }
  assert (TD : forall c' o, o < ls g -> drt s c' o = true -> tbl t c' = tbl s c').
  { intros c' o Ho D. rewrite T. unfold upd1. destruct (N.eqb_spec c' c) as [Hc|Hc]; [|reflexivity].
    subst c'. rewrite (not_dirty_line g s c o ND Ho) in D. discriminate. }
  assert (Et : Inv g vc (ghost t)).
  { constructor; cbn [ghost core cdat tbl vld drt ptbl pvld pdrt].
    - intros c1 c2 k H1 H2. apply (i_inj _ _ _ I c1 c2 k); now apply TS.
    - intros c1 k H. apply (i_rng _ _ _ I c1 k). now apply TS.
    - intros c' o Ho Vt. rewrite V in Vt by assumption. rewrite T. unfold upd1.
      destruct (c' =? c); [discriminate|]. now apply (i_vt _ _ _ I c' o).
    - intros c' o Ho D. rewrite Ed in D. rewrite V by assumption.
      destruct (N.eqb_spec c' c) as [Hc|Hc].
      + subst c'. rewrite (not_dirty_line g s c o ND Ho) in D. discriminate.
      + now apply (i_dv _ _ _ I).
    - reflexivity.
    - reflexivity.
    - intros c' o Ho D. split; [reflexivity|]. rewrite Ed in D. rewrite V by assumption.
      destruct (N.eqb_spec c' c) as [Hc|Hc].
      + subst c'. rewrite (not_dirty_line g s c o ND Ho) in D. discriminate.
      + now apply (i_dv _ _ _ I).
    - intros c' cid cl H. apply TS in H. now apply (i_pc _ _ _ I c' cid cl).
    - intros c' cid cl H. apply TS in H. now apply (i_tc _ _ _ I c' cid cl). }
  split; [|split; [assumption|assumption]]. constructor; [assumption| |].
  - intros c' cid cl o E Ho Vt. rewrite V in Vt by assumption. apply TS in E.
    destruct (c' =? c); [discriminate|]. apply HV; tauto.
  - intros cid cl o Ho H. apply HC; [assumption|]. intros c' E D. apply (H c').
    + now rewrite (TD c' o).
    + now rewrite Ed.
Qed.

Lemma map_wk s c k A : Wk s A -> line_dirty g s c = false -> In c (all_lines g) ->
  vc (fst k) = true -> (forall c', tbl s c' <> Some k) ->
  let t := do_mems g [dropl g c; MapL c k] s in
  wsame A s t /\ (forall c', tbl t c' = if c' =? c then Some k else tbl s c').
Proof.
  intros K ND Hc Hv U t. pose proof HL as HL'.
  destruct (drop_wk s c A K ND) as (K1 & D1 & T1').
  destruct (drop_tbl g vc W s c) as [T V]. change t with (do_mem g (MapL c k) (do_mem g (dropl g c) s)).
  clear t. set (s1 := do_mem g (dropl g c) s) in *. set (t := do_mem g (MapL c k) s1).
  destruct K1 as [I1 HV HC].
  assert (Tt : tbl t = upd1 (tbl s1) c (Some k)) by reflexivity.
  assert (T1 : forall c', tbl s1 c' <> Some k).
  { intros c' H. rewrite T in H. unfold upd1 in H. destruct (c' =? c); [discriminate|]. now apply (U c'). }
  assert (V1 : forall o, o < ls g -> vld s1 c o = false).
  { intros o Ho. rewrite V by assumption. now rewrite N.eqb_refl. }
  assert (TS : forall c', c' <> c -> tbl t c' = tbl s1 c').
  { intros c' Hn. rewrite Tt. unfold upd1. destruct (N.eqb_spec c' c); [contradiction|reflexivity]. }
  assert (TC : tbl t c = Some k) by (rewrite Tt; unfold upd1; now rewrite N.eqb_refl).
  assert (DN : forall c' o, o < ls g -> drt s1 c' o = true -> c' <> c).
  { intros c' o Ho D ->. apply (i_dv _ _ _ I1) in D; [|assumption]. cbn [ghost vld] in D.
    rewrite V1 in D by assumption. discriminate. }
  assert (It : Inv g vc (ghost t)).
  { constructor; cbn [ghost core cdat tbl vld drt ptbl pvld pdrt].
    - intros c1 c2 k0 H1 H2. destruct (N.eq_dec c1 c) as [E1|E1], (N.eq_dec c2 c) as [E2|E2]; subst.
      + reflexivity.
      + rewrite TC in H1. rewrite TS in H2 by assumption. exfalso. apply (T1 c2). congruence.
      + rewrite TC in H2. rewrite TS in H1 by assumption. exfalso. apply (T1 c1). congruence.
      + rewrite TS in H1, H2 by assumption. now apply (i_inj _ _ _ I1 c1 c2 k0).
    - intros c1 k0 H. destruct (N.eq_dec c1 c) as [E1|E1]; [now subst|].
      rewrite TS in H by assumption. now apply (i_rng _ _ _ I1 c1 k0).
    - intros c' o Ho Vt. destruct (N.eq_dec c' c) as [E1|E1]; [subst; congruence|].
      rewrite TS by assumption. now apply (i_vt _ _ _ I1 c' o).
    - intros c' o Ho D. now apply (i_dv _ _ _ I1).
    - reflexivity.
    - reflexivity.
    - intros c' o Ho D. split; [reflexivity|]. now apply (i_dv _ _ _ I1).
    - intros c' cid cl H. destruct (N.eq_dec c' c) as [E1|E1].
      + subst. rewrite TC in H. injection H as ->. apply W. exact Hv.
      + rewrite TS in H by assumption. now apply (i_pc _ _ _ I1 c' cid cl).
    - intros c' cid cl H. destruct (N.eq_dec c' c) as [E1|E1].
      + subst. rewrite TC in H. injection H as ->. exact Hv.
      + rewrite TS in H by assumption. now apply (i_tc _ _ _ I1 c' cid cl). }
  split.
  - split; [|split; [exact D1|]].
    + constructor; [assumption| |].
      * intros c' cid cl o E Ho Vt. destruct (N.eq_dec c' c) as [E1|E1].
        -- subst c'. change (vld t c o) with (vld s1 c o) in Vt. rewrite V1 in Vt by assumption. discriminate.
        -- rewrite TS in E by assumption. now apply HV.
      * intros cid cl o Ho H. apply HC; [assumption|]. intros c' E D. apply (H c'); [|assumption].
        rewrite TS; [assumption|]. now apply (DN c' o).
    + intros c' o Ho D. rewrite TS; [now apply (T1' c' o)|]. apply (DN c' o Ho). exact D.
  - intros c'. rewrite Tt. unfold upd1. destruct (c' =? c) eqn:Ec; [reflexivity|].
    rewrite T. unfold upd1. now rewrite Ec.
Qed.

Lemma remap_wk r cls A : vc (rc r) = true -> forall vs s m ok l, Wk s A ->
  (forall cl, In cl cls -> cl_first g r <= cl /\ cl <= cl_last g r) ->
  remap g r cls vs s = (m, ok, l) ->
  wsame A s (do_mems g m s) /\ (forall c, In c l -> line_dirty g s c = false) /\
  (ok = true -> forall cl, In cl cls -> exists c, tbl (do_mems g m s) c = Some (rc r, cl)) /\
  (forall cl c, cl_first g r <= cl -> cl <= cl_last g r -> tbl s c = Some (rc r, cl) ->
     tbl (do_mems g m s) c = Some (rc r, cl)).
Proof.
  intros Hv. induction cls as [|cl cls IH]; intros vs s m ok l K Hr E; cbn [remap] in E.
  - injection E as <- <- <-. cbn [do_mems]. split; [now apply wsame_refl|]. split; [intros c []|].
    split; [intros _ ? []|tauto].
  - destruct (slot_mapped g s r cl) eqn:SM.
    + destruct (IH vs s m ok l K) as (R1 & R2 & R3 & R4); [intros; apply Hr; now right|assumption|].
      split; [assumption|]. split; [assumption|]. split; [|assumption].
      intros Ho cl' [H|H]; [subst cl'|now apply R3].
      unfold slot_mapped in SM. destruct (lookup g s (rc r) cl) as [c|] eqn:L; [|discriminate].
      exists c. apply lookup_some in L. apply R4; try assumption; apply Hr; now left.
    + assert (NIL : forall m0 ok0 l0, ([], false, []) = (m0, ok0, l0) ->
        wsame A s (do_mems g m0 s) /\ (forall c, In c l0 -> line_dirty g s c = false) /\
        (ok0 = true -> forall cl0, In cl0 (cl :: cls) -> exists c, tbl (do_mems g m0 s) c = Some (rc r, cl0)) /\
        (forall cl0 c, cl_first g r <= cl0 -> cl0 <= cl_last g r -> tbl s c = Some (rc r, cl0) ->
          tbl (do_mems g m0 s) c = Some (rc r, cl0))).
      { intros m0 ok0 l0 E0. injection E0 as <- <- <-. cbn [do_mems].
        split; [now apply wsame_refl|]. split; [intros c []|]. split; [discriminate|tauto]. }
      destruct vs as [|c vs]; [now apply NIL|].
      destruct (can_take g s r c) eqn:CT; [|now apply NIL]. clear NIL.
      destruct (can_take_ok g vc W (ghost s) r c (w_ram _ _ K) CT) as (ND & Hc & NR).
      change (line_dirty g s c = false) in ND.
      assert (U : forall c', tbl s c' <> Some (rc r, cl)).
      { intros c' H. apply (lookup_iff g vc (ghost s)) in H; [|apply K].
        unfold slot_mapped in SM. change (lookup g (ghost s) (rc r) cl) with (lookup g s (rc r) cl) in H.
        rewrite H in SM. discriminate. }
      destruct (map_wk s c (rc r, cl) A K ND Hc Hv U) as [S1 T1].
      unfold dropl in S1, T1. set (s1 := do_mems g [SetI c 0 (ls g - 1); MapL c (rc r, cl)] s) in *.
      destruct (remap g r cls vs s1) as [[m' ok'] l'] eqn:R.
      injection E as <- <- <-.
      destruct (IH vs s1 m' ok' l') as (R1 & R2 & R3 & R4);
        [apply S1|intros; apply Hr; now right|assumption|].
      change (do_mems g (SetI c 0 (ls g - 1) :: MapL c (rc r, cl) :: m') s) with (do_mems g m' s1).
      split; [now apply (wsame_trans A s s1)|]. split; [|split].
      * intros c' [H|H]; [now subst|]. rewrite <- (drt_line_dirty g s s1); [now apply R2|apply S1].
      * intros Ho cl' [H|H]; [subst cl'|now apply R3]. exists c.
        apply R4; try (apply Hr; now left). rewrite T1, N.eqb_refl. reflexivity.
      * intros cl' c' L1 L2 H. apply R4; try assumption. rewrite T1.
        destruct (N.eqb_spec c' c) as [Hq|Hq]; [|assumption].
        subst c'. exfalso. now apply (NR cl').
Qed.

Lemma drops_wk l A : forall s, Wk s A -> (forall c, In c l -> line_dirty g s c = false) ->
  wsame A s (do_mems g (map (dropl g) l) s).
Proof.
  induction l as [|c l IH]; intros s K H; cbn [map do_mems]; [now apply wsame_refl|].
  assert (S1 : wsame A s (do_mem g (dropl g c) s)) by (apply drop_wk; [assumption|apply H; now left]).
  apply (wsame_trans A _ _ _ S1). apply IH; [apply S1|]. intros c' Hc.
  rewrite (drt_line_dirty g s); [apply H; now right|apply S1].
Qed.

Lemma prepare_wk s r promo vs yes no A Q : Wk s A -> vc (rc r) = true ->
  (forall t, wsame A s t -> is_mapped g t r = true -> ewp g (yes t) t Q) ->
  (forall t, wsame A s t -> ewp g (no t) t Q) ->
  ewp g (prepare_e g s r promo vs yes no) s Q.
Proof.
  intros K Hv HY HN. unfold prepare_e. destruct (is_mapped g s r) eqn:M.
  - apply HY; [now apply wsame_refl|assumption].
  - destruct promo; cbn [negb]; [|apply HN; now apply wsame_refl].
    destruct (remap g r (cl_list g r) vs s) as [[m ok] l] eqn:R.
    destruct (remap_wk r (cl_list g r) A Hv vs s m ok l K) as (R1 & R2 & R3 & R4); [|assumption|].
    { intros cl H. now apply in_rng in H. }
    destruct ok; cbn [ewp].
    + apply HY; [assumption|]. unfold is_mapped. apply forallb_forall. intros cl H.
      destruct (R3 eq_refl cl H) as [c T]. unfold slot_mapped.
      assert (It : Inv g vc (ghost (do_mems g m s))) by apply R1.
      apply (lookup_iff g vc (ghost (do_mems g m s))) in T; [|assumption].
      change (lookup g (ghost (do_mems g m s)) (rc r) cl) with (lookup g (do_mems g m s) (rc r) cl) in T.
      now rewrite T.
    + apply HN. rewrite mems_app. apply (wsame_trans A _ _ _ R1). apply drops_wk; [apply R1|].
      intros c Hc. rewrite (drt_line_dirty g s); [now apply R2|apply R1].
Qed.

(** ** Writes. *)
Definition bypass (m : mode) : bool := match m with WI | PT => true | _ => false end.

Lemma write_wk s m promo vs r d A : Wk s A -> 0 < rn r -> vc (rc r) = true ->
  ewp g (write_e g m promo vs r d s) s (fun err flt _ t =>
    (flt = false \/ nodirty s r \/ bypass m = true) -> wpost A r d err t).
Proof.
  intros K Hn Hv.
  assert (WI' : forall t, wsame A s t -> forall P : bool -> bool -> Prop,
    ewp g (wi_e g r d t) t (fun err flt _ t' => P err flt -> wpost A r d err t')).
  { intros t (Kt & _) P. eapply ewp_mono; [|apply (wi_wk t r d A Kt Hn)]. cbn. intros. assumption. }
  assert (NB : forall e P, (forall t, wsame A s t -> is_mapped g t r = true ->
      ewp g (e t) t (fun err flt _ t' => flt = false \/ nodirty t r -> wpost A r d err t')) ->
    (forall t, wsame A s t -> is_mapped g t r = true -> 
      ewp g (e t) t (fun err flt _ t' => (flt = false \/ nodirty s r \/ False /\ P) -> wpost A r d err t'))).
  { intros e P H t St Mt. eapply ewp_mono; [|now apply H]. cbn. intros err flt _ t' H' [F|[ND|[[] _]]].
    - apply H'. now left.
    - apply H'. right. now apply (wsame_nodirty A s). }
  assert (WBM : forall t, wsame A s t -> is_mapped g t r = true ->
      ewp g (wb_e g r d t) t (fun err flt _ t' => flt = false \/ nodirty t r -> wpost A r d err t')).
  { intros t St Mt. apply wb_wk; try assumption. apply St. }
  assert (WTM : forall t, wsame A s t -> is_mapped g t r = true ->
      ewp g (wt_e g r d t) t (fun err flt _ t' => flt = false \/ nodirty t r -> wpost A r d err t')).
  { intros t St Mt. apply wt_wk; try assumption. apply St. }
  assert (GO : forall e, (forall t, wsame A s t -> is_mapped g t r = true ->
      ewp g (e t) t (fun err flt _ t' => flt = false \/ nodirty t r -> wpost A r d err t')) ->
    ewp g (prepare_e g s r promo vs e (wi_e g r d)) s (fun err flt _ t =>
      (flt = false \/ nodirty s r \/ false = true) -> wpost A r d err t)).
  { intros e H. apply (prepare_wk s r promo vs e (wi_e g r d) A); try assumption.
    - intros t St Mt. eapply ewp_mono; [|apply (NB e True H t St Mt)]. cbn.
      intros err flt _ t' H' [F|[ND|F]]; [apply H'; now left|apply H'; tauto|discriminate].
    - intros t St. now apply (WI' t St (fun err flt => _)). }
  unfold write_e. destruct m; cbn [bypass].
  - now apply GO.
  - now apply GO.
  - destruct (is_hit g s r).
    + now apply GO.
    + now apply (WI' s (wsame_refl s A K) (fun err flt => _)).
  - now apply (WI' s (wsame_refl s A K) (fun err flt => _)).
  - now apply (WI' s (wsame_refl s A K) (fun err flt => _)).
  - now apply GO.
Qed.

Lemma write_fast_wk s m promo vs r d A : Wk s A -> 0 < rn r -> vc (rc r) = true ->
  ewp g (write_fast_e g m promo vs r d s) s (fun err flt _ t =>
    (flt = false \/ nodirty s r) -> wpost A r d err t).
Proof.
  intros K Hn Hv. unfold write_fast_e. destruct (is_mapped g s r) eqn:M.
  - now apply wb_wk.
  - eapply ewp_mono; [|now apply (write_wk s m promo vs r d A)]. cbn. tauto.
Qed.

(** ** Reads. *)
Definition rpost (A : N -> N -> N -> Prop) (r : req) (err : bool) (b : N -> N) (t : st) : Prop :=
  Wk t A /\ (err = false -> forall x, inreq r (rc r) x -> A (rc r) x (b x)).

Lemma core_range t r A x : Wk t A -> nodirty t r -> inreq r (rc r) x -> A (rc r) x (core t (rc r) x).
Proof.
  intros K ND. revert x.
  apply (by_line g vc W (fun x => inreq r (rc r) x -> A (rc r) x (core t (rc r) x))).
  intros cl o Ho S. apply (w_c _ _ K); [assumption|]. intros c E D. now apply (ND c (rc r) cl o).
Qed.

Lemma nil_outcome l ce oe : outcome [] l ce oe -> l = [].
Proof. intros (H & _). destruct l as [|e l]; [reflexivity|destruct (H e (or_introl eq_refl))]. Qed.

Lemma pt_wk s r A : Wk s A -> 0 < rn r ->
  ewp g (pt_e g r s) s (fun err _ b t => rpost A r err b t).
Proof.
  intros K Hn. unfold pt_e. apply (clean_wk s _ _ A); [assumption| |].
  - intros f b t Kt. split; [assumption|discriminate].
  - intros t f Hc. pose proof (cleanedw_range s r A t (w_ram _ _ K) Hn Hc) as ND.
    destruct Hc as (Kt & _). cbn [ewp]. intros l ce oe O. apply nil_outcome in O. subst l.
    cbn [do_ios]. split; [assumption|]. intros _ x S. now apply core_range.
Qed.

Lemma hit_wk s r A : Wk s A -> 0 < rn r -> is_hit g s r = true ->
  ewp g (hit_e g r s) s (fun err _ b t => rpost A r err b t).
Proof.
  intros K Hn H. unfold hit_e. cbn [ewp]. intros l ce oe O. apply nil_outcome in O. subst l.
  cbn [do_ios]. destruct ce.
  - now apply pt_wk.
  - cbn [ewp]. split; [assumption|]. intros _. destruct K as [I HV HC]. pose proof HL as HL'.
    apply (by_line g vc W (fun x => inreq r (rc r) x -> A (rc r) x (read_cache g s r x))).
    intros cl o Ho S. destruct (divmod_line (ls g) cl o Ho) as [D1 D2].
    unfold read_cache. rewrite D1, D2.
    assert (S' := S). destruct S' as [_ S']. rewrite (geo g r _ HL' Hn), D1 in S'.
    destruct (mapped_all g s r cl (hit_mapped g s r H)) as [c E]; try tauto.
    assert (L : lookup g s (rc r) cl = Some c) by (now apply (lookup_iff g vc (ghost s))).
    rewrite L. apply HV; try assumption. apply (hit_slot g vc (ghost s) r); try assumption.
    now apply (inslot_req g vc W (ghost s) r c o (rc r) cl).
Qed.

Lemma wo_wk s r A : Wk s A -> 0 < rn r ->
  ewp g (wo_e g r s) s (fun err _ b t => rpost A r err b t).
Proof.
  intros K Hn. unfold wo_e. destruct (is_hit g s r) eqn:HH; [now apply hit_wk|].
  cbn [ewp]. intros l ce oe O. apply nil_outcome in O. subst l. cbn [do_ios].
  destruct oe; cbn [ewp]; [split; [assumption|discriminate]|].
  assert (K' := K). destruct K' as [I HV HC]. pose proof HL as HL'.
  destruct (dirty_any g s r) eqn:DA; cbn [ewp].
  - intros l ce' oe' O. apply nil_outcome in O. subst l. cbn [do_ios]. split; [assumption|].
    intros _.
    apply (by_line g vc W (fun x => inreq r (rc r) x -> A (rc r) x
      (match lookup g s (rc r) (x / ls g) with
       | Some c => if vld s c (x mod ls g) then cdat s c (x mod ls g) else core s (rc r) x
       | None => core s (rc r) x end))).
    intros cl o Ho S. destruct (divmod_line (ls g) cl o Ho) as [D1 D2]. rewrite D1, D2.
    destruct (lookup g s (rc r) cl) as [c|] eqn:L.
    + apply (lookup_iff g vc (ghost s)) in L; [|assumption]. cbn [ghost tbl] in L.
      destruct (vld s c o) eqn:V; [now apply HV|]. apply HC; [assumption|].
      intros c' E D. assert (c' = c) by (eapply (i_inj _ _ _ I); cbn; eassumption). subst c'.
      apply (i_dv _ _ _ I) in D; [|assumption]. cbn [ghost vld] in D. congruence.
    + apply HC; [assumption|]. intros c E _.
      apply (lookup_iff g vc (ghost s)) in E; [|assumption].
      change (lookup g (ghost s) (rc r) cl) with (lookup g s (rc r) cl) in E. congruence.
  - split; [assumption|]. intros _ x S. apply core_range; try assumption.
    intros c cid cl o E Ho D Q. assert (F : drt s c o = false); [|congruence].
    destruct (divmod_line (ls g) cl o Ho) as [Z1 Z2]. assert (Q' := Q). destruct Q' as [-> Q'].
    rewrite (geo g r _ HL' Hn), Z1 in Q'.
    apply (no_dirty_any g vc (ghost s) r c cl o); try assumption; tauto.
Qed.

Lemma rd_wk s r A : Wk s A -> 0 < rn r ->
  ewp g (rd_e g r s) s (fun err _ b t => rpost A r err b t).
Proof.
  intros K Hn. unfold rd_e. destruct (is_hit g s r) eqn:HH; [now apply hit_wk|].
  apply (clean_wk s _ _ A); [assumption| |].
  - intros f b t Kt. split; [assumption|discriminate].
  - intros s1 f Hc. pose proof (cleanedw_range s r A s1 (w_ram _ _ K) Hn Hc) as ND.
    destruct Hc as (K1 & _). assert (K' := K1). destruct K' as [I HV HC]. pose proof HL as HL'.
    cbn [ewp]. intros l0 ce0 oe0 O0. apply nil_outcome in O0. subst l0. cbn [do_ios].
    destruct oe0; cbn [ewp].
    { unfold inv_e. cbn [ewp]. split; [|discriminate]. apply purge_wk; try assumption; intros; now apply HV. }
    set (buf := core s1 (rc r)).
    assert (BA : forall x, inreq r (rc r) x -> A (rc r) x (buf x)).
    { intros x S. now apply core_range. }
    intros l ce oe O. 
    assert (Hs : incl l (cache_writes g (ghost s1) r buf ++ core_writes r buf)).
    { intros e He. apply in_app_iff. left. now apply (proj1 O). }
    destruct (dw_part g vc W (ghost s1) r buf l s1 I Hn Hs) as (_ & _ & _ & _ & E5).
    destruct (ios_ram l s1) as (R1 & R2 & R3).
    assert (EC : forall cid x, core (do_ios l s1) cid x = core s1 cid x).
    { intros. apply ios_nocore. intros v H. apply (proj1 O), cw_kind in H.
      destruct H as (? & ? & ? & H). discriminate. }
    assert (I1 : Inv g vc (ghost (do_ios l s1))).
    { apply (ram_ext s1); try assumption; intros; congruence. }
    destruct ce.
    + unfold inv_e. cbn [ewp]. split; [|intros _; exact BA]. apply purge_wk; try assumption.
      * intros c cid cl o E Ho D. apply (ND c cid cl o); congruence.
      * intros c cid cl o E Ho V Q. rewrite R1 in E. rewrite R2 in V.
        destruct (E5 c cid cl o E Ho) as [H|[H _]]; [|contradiction]. rewrite H. now apply HV.
      * intros cid cl o Ho H. rewrite EC. apply HC; [assumption|].
        intros c E D. apply (H c); congruence.
    + set (s2 := do_ios l s1) in *. cbn [ewp]. split; [|intros _; exact BA].
      destruct (setv_spec g vc (ghost s2) r s2 I1) as (B1 & B2 & B3).
      change (set_valid g (ghost s2) r) with (set_valid g s2 r) in *.
      destruct (mem_dev g (set_valid g s2 r) s2) as (D1 & D2 & _).
      set (t := do_mems g (set_valid g s2 r) s2) in *.
      assert (IT : forall c o, inslot g (ghost s2) r c o -> tbl s2 c <> None).
      { intros c o (cl & E & _). cbn in E. congruence. }
      constructor.
      * constructor; cbn [ghost core cdat tbl vld drt ptbl pvld pdrt]; rewrite ?B1, ?B2.
        -- apply (i_inj _ _ _ I1).
        -- apply (i_rng _ _ _ I1).
        -- intros c o Ho V. apply B3 in V.
           destruct V as [V|V]; [now apply (i_vt _ _ _ I1 c o)|now apply (IT c o)].
        -- intros c o Ho D. apply B3. left. now apply (i_dv _ _ _ I1).
        -- reflexivity.
        -- reflexivity.
        -- intros c o Ho D. split; [reflexivity|]. apply B3. left. now apply (i_dv _ _ _ I1).
        -- apply (i_pc _ _ _ I1).
        -- apply (i_tc _ _ _ I1).
      * intros c cid cl o E Ho V. rewrite B1, R1 in E. rewrite D2.
        pose proof (inslot_req g vc W (ghost s1) r c o cid cl I Hn E Ho) as IS.
        destruct (inreq_dec r cid (cl * ls g + o)) as [Q|Q].
        -- assert (Ec : cdat s2 c o = buf (cl * ls g + o)).
           { destruct (ios_cdat l s1 c o) as [[_ H]|(v & H1 & H2)].
             - exfalso. apply (H (buf (cl * ls g + o))). apply (proj1 (proj2 O)); [reflexivity| |reflexivity].
               apply (in_cw g vc (ghost s1)); [assumption|]. split; [now apply IS|].
               exists cid, cl. now split.
             - apply (proj1 O) in H1. apply (in_cw g vc (ghost s1)) in H1; [|assumption].
               destruct H1 as (_ & cid' & cl' & E' & ->). cbn [ghost tbl] in E'.
               rewrite E in E'. injection E' as <- <-. exact H2. }
           rewrite Ec. assert (Q' := Q). destruct Q' as [-> _]. now apply BA.
        -- destruct (E5 c cid cl o E Ho) as [H|[H _]]; [|contradiction]. fold s2 in H. rewrite H.
           apply HV; try assumption. apply B3 in V. rewrite R2 in V.
           destruct V as [V|V]; [assumption|]. exfalso. apply Q.
           apply (inslot_req g vc W (ghost s2) r c o cid cl I1 Hn); try assumption.
           cbn [ghost tbl]. congruence.
      * intros cid cl o Ho H. rewrite D1, EC. apply HC; [assumption|].
        intros c E D. apply (H c); [congruence|]. rewrite B2. congruence.
Qed.

Lemma read_wk s m promo seqc vs r A : Wk s A -> 0 < rn r -> vc (rc r) = true ->
  ewp g (read_e g m promo seqc vs r s) s (fun err _ b t => rpost A r err b t).
Proof.
  intros K Hn Hv.
  assert (GO : ewp g (prepare_e g s r promo vs (rd_e g r) (pt_e g r)) s (fun err _ b t => rpost A r err b t)).
  { apply (prepare_wk s r promo vs _ _ A); try assumption.
    - intros t St _. apply rd_wk; [apply St|assumption].
    - intros t St. apply pt_wk; [apply St|assumption]. }
  unfold read_e. destruct m; try exact GO.
  - destruct (seqc && is_dirty_all g s r); [exact GO|now apply pt_wk].
  - now apply wo_wk.
Qed.

Lemma read_fast_wk s m promo seqc vs r A : Wk s A -> 0 < rn r -> vc (rc r) = true ->
  ewp g (read_fast_e g m promo seqc vs r s) s (fun err _ b t => rpost A r err b t).
Proof.
  intros K Hn Hv. unfold read_fast_e. destruct (is_hit g s r) eqn:H; [now apply hit_wk|now apply read_wk].
Qed.

Lemma op_clean_wk s cs A : Wk s A ->
  ewp g (clean_e g s cs (fun _ => ERet false no_data)) s (fun _ _ _ t => Wk t A).
Proof.
  intros K. apply (clean_wk s _ _ A); [assumption| |].
  - intros. assumption.
  - intros t f (Kt & _). exact Kt.
Qed.
End S.

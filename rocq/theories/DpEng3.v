(** Data path: purging, write-invalidate, mapping, reads, discard. *)
From Coq Require Import NArith List Bool Lia.
From Verif Require Import DpModel DpProofs DpInv DpEng DpEng2.
Import ListNotations.
Open Scope N_scope.

Section S.
Context (g : cfg) (vc : N -> bool) (W : wf g vc).
Local Notation HL := (HL g vc W).

Definition purged (s u : st) (r : req) (t : st) : Prop :=
  Inv g vc t /\ core t = core u /\
  (forall cid x, inreq r cid x -> abs g t cid x = core u cid x) /\
  (forall cid x, ~ inreq r cid x -> abs g t cid x = abs g s cid x) /\
  (forall c cid cl o, tbl t c = Some (cid, cl) -> o < ls g -> inreq r cid (cl * ls g + o) ->
     vld t c o = false) /\
  (forall c, tbl t c = tbl s c \/ tbl t c = None) /\
  (forall c o, o < ls g -> vld t c o = true -> vld s c o = true).

Lemma lookup_ext s u cid cl : tbl u = tbl s -> lookup g u cid cl = lookup g s cid cl.
Proof. intros E. unfold lookup. now rewrite E. Qed.
Lemma slots_ext s u r : tbl u = tbl s -> slots g u r = slots g s r.
Proof. intros E. unfold slots, lookup. now rewrite E. Qed.
Lemma purge_ext s u r : tbl u = tbl s -> purge g u r = purge g s r.
Proof. intros E. unfold purge, per_slot. now rewrite (slots_ext s u). Qed.
Lemma mark_clean_ext s u r : tbl u = tbl s -> drt u = drt s -> mark_clean g u r = mark_clean g s r.
Proof. intros E D. unfold mark_clean. now rewrite (slots_ext s u), D. Qed.

Lemma purge_spec s r t : Inv g vc s -> let u := do_mems g (purge g s r) t in
  (forall c, tbl u c = tbl t c \/ (tbl u c = None /\ forall o, o < ls g -> vld u c o = false)) /\
  (forall c o, vld u c o = true <-> vld t c o = true /\ ~ inslot g s r c o) /\
  (forall c o, drt u c o = true <-> drt t c o = true /\ ~ inslot g s r c o).
Proof.
  intros I u. pose proof HL as HL'.
  assert (K : forall e, In e (purge g s r) <-> exists cl c, tbl s c = Some (rc r, cl) /\
    cl_first g r <= cl /\ cl <= cl_last g r /\
    (e = SetC c (sstart g r cl) (send g r cl) \/ e = SetI c (sstart g r cl) (send g r cl))).
  { intros e. unfold purge. rewrite (in_per_slot g vc); [|assumption].
    split; intros (cl & c & H1 & H2 & H3 & H4); exists cl, c;
      (split; [assumption|split; [assumption|split; [assumption|]]]); cbn in *; intuition congruence. }
  destruct (mems_purge g (purge g s r) t) as (E1 & E2 & E3).
  { intros e H. apply K in H. destruct H as (cl & c & _ & _ & _ & H). eauto. }
  fold u in E1, E2, E3. split; [|split].
  - intros c. destruct (E1 c) as [E|[E V]]; [now left|right]. split; [assumption|].
    intros o Ho. apply V. lia.
  - intros c o. rewrite E2. split; intros [V H]; (split; [assumption|]).
    + intros (cl & T & L1 & L2 & L3 & L4). apply (H (sstart g r cl) (send g r cl)); [|tauto].
      apply K. exists cl, c. tauto.
    + intros a b Hi [H1 H2]. apply K in Hi. destruct Hi as (cl & c' & T & L1 & L2 & [Q|Q]); [discriminate|].
      injection Q as <- -> ->. apply H. exists cl. tauto.
  - intros c o. rewrite E3. split; intros [V H]; (split; [assumption|]).
    + intros (cl & T & L1 & L2 & L3 & L4). apply (H (sstart g r cl) (send g r cl)); [|tauto].
      apply K. exists cl, c. tauto.
    + intros a b Hi [H1 H2]. apply K in Hi. destruct Hi as (cl & c' & T & L1 & L2 & [Q|Q]); [|discriminate].
      injection Q as <- -> ->. apply H. exists cl. tauto.
Qed.

(** Purge, on a state [u] that differs from an invariant state [s] only in the core
    contents of the range. *)
Lemma purge_ok s u r k (A : N -> N -> N -> Prop) (C : st -> Prop) (Q : (N -> N) -> st -> Prop) :
  Inv g vc s -> 0 < rn r ->
  tbl u = tbl s -> vld u = vld s -> drt u = drt s -> (forall c o, cdat u c o = cdat s c o) ->
  (forall c, ptbl u c = ptbl s c) -> (forall c o, pvld u c o = pvld s c o) ->
  (forall c o, pdrt u c o = pdrt s c o) ->
  (forall cid x, ~ inreq r cid x -> core u cid x = core s cid x) ->
  (forall cid x, inreq r cid x -> A cid x (core u cid x)) ->
  (forall cid x, A cid x (abs g s cid x)) ->
  (forall t, Mix g vc t A -> C t) ->
  (forall t, purged s u r t -> wp g (k t) t C Q) ->
  wp g (wi_purge g r k u) u C Q.
Proof.
  intros I Hn U1 U2 U3 U4 U5 U6 U7 U8 A1 A2 HC HK. pose proof HL as HL'.
  unfold wi_purge. rewrite (slots_ext s u), (purge_ext s u), (mark_clean_ext s u) by assumption.
  assert (M0 : Mix g vc u A).
  { apply (mix_of g vc W s); try assumption.
    - intros c. left. congruence.
    - intros c o Ho D. rewrite U3 in D. rewrite U2, U1. split; [now apply (i_dv _ _ _ I)|].
      eapply drt_mapped; eassumption.
    - intros c cid cl o Ho E D. rewrite U3 in D. assert (D' : drt s c o = true) by tauto.
      rewrite U4. replace (cdat s c o) with (abs g s cid (cl * ls g + o)); [apply A2|].
      eapply abs_dirty; try eassumption. now split.
    - intros cid cl o Ho H. destruct (inreq_dec r cid (cl * ls g + o)) as [Q'|Q']; [now apply A1|].
      rewrite U8 by assumption. replace (core s cid (cl * ls g + o)) with (abs g s cid (cl * ls g + o)); [apply A2|].
      eapply abs_clean; try eassumption. intros c [T D]. apply (H c T D). now rewrite U3. }
  (* final states *)
  set (s2 := do_mems g (purge g s r) u).
  destruct (purge_spec s r u I) as (E1 & E2 & E3). fold s2 in E1, E2, E3.
  destruct (mem_dev g (purge g s r) u) as (D1 & D2 & D3 & D4 & D5). fold s2 in D1, D2, D3, D4, D5.
  assert (FIN : forall t, tbl t = tbl s2 -> vld t = vld s2 -> drt t = drt s2 ->
      (forall c o, cdat t c o = cdat s2 c o) -> core t = core s2 ->
      (forall c, (ptbl t c = tbl t c /\ forall o, pvld t c o = vld t c o /\ pdrt t c o = drt t c o) \/
         (~ In c (mark_clean g s r) /\ ptbl t c = ptbl s2 c /\
          forall o, pvld t c o = pvld s2 c o /\ pdrt t c o = pdrt s2 c o)) ->
      purged s u r t).
  { intros t Q1 Q2 Q3 Q4 Q5 Q6.
    assert (TB : forall c, tbl t c = tbl s c \/ tbl t c = None /\ (forall o, o < ls g -> vld t c o = false)).
    { intros c. rewrite Q1, Q2. destruct (E1 c) as [E|E]; [left; congruence|now right]. }
    assert (VV : forall c o, vld t c o = true <-> vld s c o = true /\ ~ inslot g s r c o).
    { intros c o. rewrite Q2, E2, U2. tauto. }
    assert (DD : forall c o, drt t c o = true <-> drt s c o = true /\ ~ inslot g s r c o).
    { intros c o. rewrite Q3, E3, U3. tauto. }
    assert (TS : forall c k0, tbl t c = Some k0 -> tbl s c = Some k0).
    { intros c k0 H. destruct (TB c) as [E|[E _]]; congruence. }
    assert (It : Inv g vc t).
    { constructor.
      - intros c c' k0 H1 H2. apply (i_inj _ _ _ I c c' k0); now apply TS.
      - intros c k0 H. apply (i_rng _ _ _ I c k0). now apply TS.
      - intros c o Ho V. destruct (TB c) as [E|[E V']].
        + rewrite E. apply VV in V. now apply (i_vt _ _ _ I c o).
        + rewrite V' in V by assumption. discriminate.
      - intros c o Ho D. apply DD in D. apply VV. split; [|tauto]. now apply (i_dv _ _ _ I).
      - intros c o cid cl E Ho V D. apply TS in E. apply VV in V.
        assert (Q' : ~ inreq r cid (cl * ls g + o)) by (rewrite <- (inslot_req g vc W s r c o cid cl); tauto).
        rewrite Q4, Q5, D2, D1, U4, U8 by assumption. apply (i_cl _ _ _ I); try assumption; [tauto|].
        destruct (drt s c o) eqn:Ds; [|reflexivity].
        assert (drt t c o = true) by (apply DD; tauto). congruence.
      - intros c o Ho. destruct (Q6 c) as [[_ H]|(NM & _ & H)]; [apply H|].
        destruct (H o) as [_ ->]. rewrite D5, U7, (i_pd _ _ _ I) by assumption.
        apply bool_iff_eq. rewrite DD. split; [|tauto]. intros D. split; [assumption|].
        intros S. rewrite (marked_clean_not g vc s r c o I NM S) in D. discriminate.
      - intros c o Ho D. destruct (Q6 c) as [[H1 H2]|(NM & H1 & H2)].
        + split; [assumption|]. destruct (H2 o) as [-> _]. apply DD in D. apply VV. split; [|tauto].
          now apply (i_dv _ _ _ I).
        + destruct (H2 o) as [-> _]. rewrite H1, D3, D4, U5, U6.
          assert (D' := D). apply DD in D'. destruct D' as [D' Ns].
          destruct (i_pt _ _ _ I c o Ho D') as [P1 P2]. split; [|assumption].
          destruct (TB c) as [E|[E V']]; [congruence|].
          assert (vld t c o = true) by (apply VV; split; [now apply (i_dv _ _ _ I)|assumption]).
          rewrite V' in H by assumption. discriminate.
      - intros c cid cl H. destruct (Q6 c) as [[H1 _]|(_ & H1 & _)]; rewrite H1 in H.
        + apply TS in H. apply (i_tc _ _ _ I) in H. now apply W.
        + rewrite D3, U5 in H. now apply (i_pc _ _ _ I) in H.
      - intros c cid cl H. apply TS in H. now apply (i_tc _ _ _ I) in H. }
    assert (NV : forall c cid cl o, tbl t c = Some (cid, cl) -> o < ls g ->
      inreq r cid (cl * ls g + o) -> vld t c o = false).
    { intros c cid cl o E Ho S. destruct (vld t c o) eqn:V; [|reflexivity]. exfalso.
      apply VV in V. apply V. apply (inslot_req g vc W s r c o cid cl); try assumption. now apply TS. }
    assert (CT : core t = core u) by congruence.
    split; [assumption|]. split; [assumption|]. split; [|split; [|split; [exact NV|split]]].
    - intros cid. apply (by_line g vc W (fun x => inreq r cid x -> abs g t cid x = core u cid x)).
      intros cl o Ho S. destruct (mapped_dec g vc t cid cl It) as [[c E]|E].
      + rewrite (abs_mapped g vc t c cid cl o It HL' E Ho), (NV c cid cl o E Ho S). congruence.
      + rewrite abs_unmapped by assumption. congruence.
    - intros cid. apply (by_line g vc W (fun x => ~ inreq r cid x -> abs g t cid x = abs g s cid x)).
      intros cl o Ho S.
      assert (CO : core t cid (cl * ls g + o) = core s cid (cl * ls g + o)) by (rewrite CT; now apply U8).
      destruct (mapped_dec g vc s cid cl I) as [[c E]|E].
      + assert (S' : ~ inslot g s r c o) by (now rewrite (inslot_req g vc W s r c o cid cl)).
        rewrite (abs_mapped g vc s c cid cl o I HL' E Ho).
        destruct (TB c) as [E'|[E' V']].
        * rewrite (abs_mapped g vc t c cid cl o It HL' (eq_trans E' E) Ho), Q4, D2, U4, CO.
          replace (vld t c o) with (vld s c o); [reflexivity|].
          apply bool_iff_eq. rewrite VV. tauto.
        * rewrite abs_unmapped; [|assumption|].
          -- replace (vld s c o) with false; [assumption|].
             destruct (vld s c o) eqn:V; [|reflexivity]. exfalso.
             assert (Z : vld t c o = true) by (apply VV; tauto). rewrite (V' o Ho) in Z. discriminate.
          -- intros c' H'. assert (c' = c) by (apply (i_inj _ _ _ I c' c (cid, cl)); [now apply TS|assumption]).
             subst c'. congruence.
      + rewrite !abs_unmapped; try assumption. intros c H'. apply TS in H'. now apply (E c).
    - intros c. destruct (TB c) as [E|[E _]]; tauto.
    - intros c o _ V. now apply VV in V. }
  assert (M2 : Mix g vc s2 A).
  { apply (mix_of g vc W s); try assumption.
    - intros c. destruct (E1 c) as [E|[E _]]; [left; congruence|now right].
    - intros c. now rewrite D3.
    - intros c o. now rewrite D4.
    - intros c o. now rewrite D5.
    - intros c o Ho D. apply E3 in D. rewrite U3 in D. assert (V : vld s2 c o = true).
      { apply E2. rewrite U2. split; [now apply (i_dv _ _ _ I)|tauto]. }
      split; [assumption|]. destruct (E1 c) as [E|[E V']].
      + rewrite E, U1. eapply drt_mapped; try eassumption; tauto.
      + rewrite V' in V by assumption. discriminate.
    - intros c cid cl o Ho E D. rewrite E3, U3 in D. assert (D' : drt s c o = true) by tauto.
      rewrite D2, U4. replace (cdat s c o) with (abs g s cid (cl * ls g + o)); [apply A2|].
      eapply abs_dirty; try eassumption. now split.
    - intros cid cl o Ho H. rewrite D1. destruct (inreq_dec r cid (cl * ls g + o)) as [Q'|Q']; [now apply A1|].
      rewrite U8 by assumption. replace (core s cid (cl * ls g + o)) with (abs g s cid (cl * ls g + o)); [apply A2|].
      eapply abs_clean; try eassumption. intros c [T D]. apply (H c T D). apply E3.
      rewrite U3. split; [assumption|]. now rewrite (inslot_req g vc W s r c o cid cl). }
  destruct (slots g s r) as [|p0 pl] eqn:SL.
  { apply HK. apply FIN; clear HK FIN.
    all: assert (EP : purge g s r = []) by (unfold purge, per_slot; now rewrite SL).
    all: unfold s2; rewrite EP; try reflexivity.
    intros c. right. split; [unfold mark_clean; rewrite SL; intros []|]. split; [reflexivity|]. split; reflexivity. }
  cbn [wp]. fold s2. split; [now apply HC|].
  destruct (mark_clean g s r) as [|m0 ml] eqn:MC.
  { apply HK. apply FIN; try reflexivity. intros c. right. split; [intros []|]. split; [reflexivity|]. split; reflexivity. }
  cbn [wp]. split.
  { intros sub Hs. apply HC. apply mix_persist; [|assumption]. eapply persist_sub; eassumption. }
  intros es' He'. apply HK.
  assert (AP : all_persist es') by (intros e H; apply He' in H; now apply persist_all in H).
  destruct (ios_ram es' s2) as (P1 & P2 & P3).
  apply FIN; try assumption.
  - intros. apply ios_nocache. intros v H. apply AP in H. destruct H; discriminate.
  - clear - AP. revert AP. generalize s2 as z. induction es' as [|e l IH]; intros z AP; cbn [do_ios]; [reflexivity|].
    rewrite IH; [|intros e' He; apply AP; now right].
    destruct (AP e (or_introl eq_refl)) as [c ->]. reflexivity.
  - intros c. destruct (ios_meta es' s2 c) as [(_ & Z1 & Z2 & Z3)|(Nn & Z1 & Z2 & Z3)].
    + left. rewrite P1, P2, P3. split; [assumption|]. intros o. split; [apply Z2|apply Z3].
    + right. split; [|split; [assumption|intros o; split; [apply Z2|apply Z3]]].
      intros C'. apply Nn. apply He'. now apply (persist_in g vc W).
Qed.

(** ** Write-invalidate. *)
Lemma dirty_lines_slot s r c o : Inv g vc s -> drt s c o = true -> inslot g s r c o ->
  In c (dirty_lines g s r).
Proof.
  intros I D S. pose proof (inslot_lt g vc W s r c o S) as Ho. destruct S as (cl & E & L1 & L2 & _).
  unfold dirty_lines. apply filter_In. split.
  - apply in_map_iff. exists (cl, c). split; [reflexivity|]. apply (in_slots g vc); tauto.
  - unfold line_dirty. apply existsb_rng. exists o. split; [lia|]. split; [lia|assumption].
Qed.

(** After cleaning, no sector of the range is dirty. *)
Lemma cleaned_slot s r t cid cl o c : Inv g vc s -> 0 < rn r -> cleaned g vc s (dirty_lines g s r) t ->
  tbl t c = Some (cid, cl) -> o < ls g -> inreq r cid (cl * ls g + o) -> drt t c o = false.
Proof.
  intros I Hn (It & _ & Et & _ & _ & H & H' & _) E Ho S.
  destruct (drt t c o) eqn:D; [|reflexivity]. rewrite <- D. apply H; [|assumption].
  apply (dirty_lines_slot s r c o I); [now apply H'|].
  apply (inslot_req g vc W s r c o cid cl); try assumption. congruence.
Qed.

Lemma cleaned_core s r t cid x : Inv g vc s -> 0 < rn r -> cleaned g vc s (dirty_lines g s r) t ->
  inreq r cid x -> core t cid x = abs g s cid x.
Proof.
  intros I Hn Hc. revert x. apply (by_line g vc W (fun x => inreq r cid x -> core t cid x = abs g s cid x)).
  intros cl o Ho S. destruct Hc as (It & Ea & Hc') eqn:Z. rewrite <- Ea. symmetry.
  eapply abs_clean; [eassumption|apply HL|assumption|]. intros c [T D].
  rewrite (cleaned_slot s r t cid cl o c) in D; try assumption. discriminate.
Qed.

Lemma kw_part r d sub s : incl sub (core_writes r d) ->
  let t := do_ios sub s in
  (forall cid x, core t cid x = core s cid x \/ (inreq r cid x /\ core t cid x = d x)) /\
  (forall c o, cdat t c o = cdat s c o) /\
  (forall c, ptbl t c = ptbl s c) /\ (forall c o, pvld t c o = pvld s c o) /\
  (forall c o, pdrt t c o = pdrt s c o).
Proof.
  intros Hs t.
  assert (NM : forall c, ~ In (Persist c) sub).
  { intros c H. apply Hs, kw_kind in H. destruct H as (? & ? & ? & H). discriminate. }
  split; [|split; [|split; [|split]]].
  - intros cid x. destruct (ios_core sub s cid x) as [[H _]|(v & H1 & H2)]; [now left|].
    right. apply Hs, in_kw in H1. destruct H1 as [H1 ->]. tauto.
  - intros c o. apply ios_nocache. intros v H. apply Hs, kw_kind in H. destruct H as (? & ? & ? & H). discriminate.
  - intros c. now apply ios_nometa.
  - intros c. now apply ios_nometa.
  - intros c. now apply ios_nometa.
Qed.

Lemma kw_full r d es s : (forall e, In e es <-> In e (core_writes r d)) ->
  (forall cid x, inreq r cid x -> core (do_ios es s) cid x = d x) /\
  (forall cid x, ~ inreq r cid x -> core (do_ios es s) cid x = core s cid x).
Proof.
  intros He. split; intros cid x S.
  - destruct (ios_core es s cid x) as [[_ H]|(v & H1 & H2)].
    + exfalso. apply (H (d x)). apply He. apply in_kw. tauto.
    + apply He, in_kw in H1. destruct H1 as [_ ->]. exact H2.
  - apply ios_nocore. intros v H. apply He, in_kw in H. tauto.
Qed.

Lemma purged_through s u r d t : (forall cid x, inreq r cid x -> core u cid x = d x) ->
  purged s u r t -> through g r d t.
Proof.
  intros H (It & Ec & _ & _ & NV & _). split.
  - intros cid x S. rewrite Ec. now apply H.
  - intros c cid cl o E Ho S. destruct (drt t c o) eqn:D; [|reflexivity].
    apply (i_dv _ _ _ It) in D; [|assumption]. rewrite (NV c cid cl o E Ho S) in D. discriminate.
Qed.

Lemma wi_ok s r d f : Inv g vc s -> 0 < rn r -> (forall cid x, abs g s cid x = f cid x) ->
  wp g (wi_do g r d s) s (fun t => Mix g vc t (allow f r d))
    (fun _ t => Inv g vc t /\ written f r d (abs g t) /\ through g r d t).
Proof.
  intros I Hn Hf. unfold wi_do. pose proof HL as HL'.
  apply (clean_ok g vc W); [assumption| |].
  { intros t M. eapply mix_weaken; [|exact M]. cbn. intros cid x v ->. left. apply Hf. }
  intros s1 Hc. assert (Hc' := Hc). destruct Hc as (I1 & Ea & Et & Ev & Ed & Hd & Hd' & Hk).
  assert (ND : forall c cid cl o, tbl s1 c = Some (cid, cl) -> o < ls g ->
    inreq r cid (cl * ls g + o) -> drt s1 c o = false).
  { intros. eapply (cleaned_slot s r s1); eassumption. }
  assert (G1 : forall sub, incl sub (core_writes r d) -> Mix g vc (do_ios sub s1) (allow f r d)).
  { intros sub Hs. destruct (kw_part r d sub s1 Hs) as (E1 & E5 & E2 & E3 & E4).
    destruct (ios_ram sub s1) as (R1 & R2 & R3).
    apply (mix_of g vc W s1); try assumption.
    - intros c. left. congruence.
    - intros c o Ho D. rewrite R3 in D. rewrite R2, R1. split; [now apply (i_dv _ _ _ I1)|].
      eapply drt_mapped; eassumption.
    - intros c cid cl o Ho E D. rewrite R3 in D. assert (D' : drt s1 c o = true) by tauto.
      left. rewrite E5, <- Hf, <- Ea. symmetry. eapply abs_dirty; try eassumption. now split.
    - intros cid cl o Ho H. destruct (E1 cid (cl * ls g + o)) as [Q|Q]; [|now right].
      left. rewrite Q, <- Hf, <- Ea. symmetry.
      eapply abs_clean; try eassumption. intros c [T D]. apply (H c T D). now rewrite R3. }
  cbn [wp]. split; [exact G1|]. intros es He.
  destruct (kw_part r d es s1 (fun e => proj1 (He e))) as (_ & E5 & E2 & E3 & E4).
  destruct (kw_full r d es s1 He) as (F1 & F2).
  destruct (ios_ram es s1) as (R1 & R2 & R3). set (u := do_ios es s1) in *.
  apply (purge_ok s1 u r _ (allow f r d)); try assumption.
  - intros cid x S. right. split; [assumption|]. now apply F1.
  - intros cid x. left. now rewrite Ea.
  - tauto.
  - intros t Pt. assert (FN : Inv g vc t /\ written f r d (abs g t) /\ through g r d t).
    { split; [apply Pt|]. split; [|now apply (purged_through s1 u)].
      destruct Pt as (_ & _ & P1 & P2 & _). intros cid x. split; intros S.
      - rewrite P1 by assumption. now apply F1.
      - rewrite P2, Ea by assumption. apply Hf. }
    destruct FN as (It & Wt & Tt).
    assert (Ct : forall cid x, inreq r cid x -> core t cid x = d x) by apply Tt.
    assert (At : forall cid x, allow f r d cid x (abs g t cid x)).
    { intros cid x. destruct (inreq_dec r cid x) as [S|S].
      - right. split; [assumption|]. now apply Wt.
      - left. now apply Wt. }
    destruct (is_hit g s r).
    + cbn [wp]. split; [|tauto].
      eapply mix_weaken; [|apply (inv_mix g vc t W It)]. cbn. intros cid x v ->. apply At.
    + apply (purge_ok t t r _ (allow f r d)); try assumption; try reflexivity.
      * intros cid x S. right. split; [assumption|]. now apply Ct.
      * tauto.
      * intros t2 P2. cbn [wp].
        assert (FN : Inv g vc t2 /\ written f r d (abs g t2) /\ through g r d t2).
        { split; [apply P2|]. split; [|now apply (purged_through t t)].
          destruct P2 as (_ & _ & P1 & P2 & _). intros cid x. split; intros S.
          - rewrite P1 by assumption. now apply Ct.
          - rewrite P2 by assumption. now apply Wt. }
        split; [|exact FN]. destruct FN as (I2 & W2 & _).
        eapply mix_weaken; [|apply (inv_mix g vc t2 W I2)]. cbn. intros cid x v ->.
        destruct (inreq_dec r cid x) as [S|S]; [right; split; [assumption|]; now apply W2|left; now apply W2].
Qed.
End S.

(** Data path: write-through, cleaning, purging, write-invalidate. *)
From Coq Require Import NArith List Bool Lia.
From Verif Require Import DpModel DpProofs DpInv DpEng.
Import ListNotations.
Open Scope N_scope.

Section S.
Context (g : cfg) (vc : N -> bool) (W : wf g vc).
Local Notation HL := (HL g vc W).

(** Cache and core writes of a request, executed on [t0] (partly / completely);
    the slots are those of [s]. *)
Lemma dw_part s r d sub t0 : Inv g vc s -> 0 < rn r ->
  incl sub (cache_writes g s r d ++ core_writes r d) ->
  let t := do_ios sub t0 in
  (forall cid x, core t cid x = core t0 cid x \/ (inreq r cid x /\ core t cid x = d x)) /\
  (forall c, ptbl t c = ptbl t0 c) /\ (forall c o, pvld t c o = pvld t0 c o) /\
  (forall c o, pdrt t c o = pdrt t0 c o) /\
  (forall c cid cl o, tbl s c = Some (cid, cl) -> o < ls g ->
     cdat t c o = cdat t0 c o \/ (inreq r cid (cl * ls g + o) /\ cdat t c o = d (cl * ls g + o))).
Proof.
  intros I Hn Hs t.
  assert (NM : forall c, ~ In (Persist c) sub).
  { intros c H. apply Hs in H. apply in_app_iff in H. destruct H as [H|H].
    - apply cw_kind in H. destruct H as (? & ? & ? & H). discriminate.
    - apply kw_kind in H. destruct H as (? & ? & ? & H). discriminate. }
  split.
  { intros cid x. destruct (ios_core sub t0 cid x) as [[H _]|(v & H1 & H2)]; [now left|].
    right. apply Hs in H1. apply in_app_iff in H1. destruct H1 as [H1|H1].
    - apply cw_kind in H1. destruct H1 as (? & ? & ? & H1). discriminate.
    - apply in_kw in H1. destruct H1 as [H1 ->]. tauto. }
  split; [intros c; now apply ios_nometa|].
  split; [intros c; now apply ios_nometa|].
  split; [intros c; now apply ios_nometa|].
  intros c cid cl o E Ho. destruct (ios_cdat sub t0 c o) as [[H _]|(v & H1 & H2)].
  - left. exact H.
  - right. apply Hs in H1. apply in_app_iff in H1. destruct H1 as [H1|H1].
    + apply (in_cw g vc) in H1; [|assumption]. destruct H1 as (H1 & cid' & cl' & E' & ->).
      rewrite E in E'. injection E' as <- <-. split; [|exact H2].
      now apply (inslot_req g vc W s r c o cid cl).
    + apply kw_kind in H1. destruct H1 as (? & ? & ? & H1). discriminate.
Qed.

Lemma dw_full s r d es t0 : Inv g vc s ->
  (forall e, In e es <-> In e (cache_writes g s r d ++ core_writes r d)) ->
  let t := do_ios es t0 in
  (forall cid x, inreq r cid x -> core t cid x = d x) /\
  (forall cid x, ~ inreq r cid x -> core t cid x = core t0 cid x) /\
  (forall c o cid cl, tbl s c = Some (cid, cl) -> inslot g s r c o -> cdat t c o = d (cl * ls g + o)) /\
  (forall c o, ~ inslot g s r c o -> cdat t c o = cdat t0 c o).
Proof.
  intros I He t. split; [|split; [|split]].
  - intros cid x S. destruct (ios_core es t0 cid x) as [[_ H]|(v & H1 & H2)].
    + exfalso. apply (H (d x)). apply He. apply in_app_iff. right. apply in_kw. tauto.
    + apply He, in_app_iff in H1. destruct H1 as [H1|H1].
      * apply cw_kind in H1. destruct H1 as (? & ? & ? & H1). discriminate.
      * apply in_kw in H1. destruct H1 as [_ ->]. exact H2.
  - intros cid x S. apply ios_nocore. intros v H. apply He, in_app_iff in H. destruct H as [H|H].
    + apply cw_kind in H. destruct H as (? & ? & ? & H). discriminate.
    + apply in_kw in H. tauto.
  - intros c o cid cl E S. destruct (ios_cdat es t0 c o) as [[_ H]|(v & H1 & H2)].
    + exfalso. apply (H (d (cl * ls g + o))). apply He. apply in_app_iff. left.
      apply (in_cw g vc); [assumption|]. split; [assumption|]. now exists cid, cl.
    + apply He, in_app_iff in H1. destruct H1 as [H1|H1].
      * apply (in_cw g vc) in H1; [|assumption]. destruct H1 as (_ & cid' & cl' & E' & ->).
        rewrite E in E'. injection E' as <- <-. exact H2.
      * apply kw_kind in H1. destruct H1 as (? & ? & ? & H1). discriminate.
  - intros c o S. apply ios_nocache. intros v H. apply He, in_app_iff in H. destruct H as [H|H].
    + apply (in_cw g vc) in H; [|assumption]. tauto.
    + apply kw_kind in H. destruct H as (? & ? & ? & H). discriminate.
Qed.

(** Abstract content after a write of mapped lines. *)
Lemma abs_written s r d f t : Inv g vc s -> Inv g vc t -> 0 < rn r -> is_mapped g s r = true ->
  (forall cid x, abs g s cid x = f cid x) -> tbl t = tbl s ->
  (forall c o, o < ls g -> vld t c o = true <-> vld s c o = true \/ inslot g s r c o) ->
  (forall c o cid cl, tbl s c = Some (cid, cl) -> inslot g s r c o -> cdat t c o = d (cl * ls g + o)) ->
  (forall c o, ~ inslot g s r c o -> cdat t c o = cdat s c o) ->
  (forall cid x, ~ inreq r cid x -> core t cid x = core s cid x) ->
  written f r d (abs g t).
Proof.
  intros I It Hn HM Hf Et V F1 F2 F3 cid. pose proof HL as HL'.
  apply (by_line g vc W (fun x =>
    (inreq r cid x -> abs g t cid x = d x) /\ (~ inreq r cid x -> abs g t cid x = f cid x))).
  intros cl o Ho. destruct (mapped_dec g vc s cid cl I) as [[c E]|E].
  - assert (Ec : tbl t c = Some (cid, cl)) by congruence.
    rewrite (abs_mapped g vc t c cid cl o It HL' Ec Ho). split; intros Q.
    + apply (inslot_req g vc W s r c o cid cl I Hn E Ho) in Q.
      replace (vld t c o) with true by (symmetry; apply V; tauto).
      now apply (F1 c o cid cl).
    + assert (Q' : ~ inslot g s r c o) by (now rewrite (inslot_req g vc W s r c o cid cl)).
      rewrite <- Hf, (abs_mapped g vc s c cid cl o I HL' E Ho), F2, F3 by assumption.
      replace (vld t c o) with (vld s c o); [reflexivity|].
      apply bool_iff_eq. rewrite V by assumption. tauto.
  - split; intros Q.
    + exfalso. now apply (unmapped_outside g vc W s r cid cl o Hn HM Ho E).
    + rewrite abs_unmapped; [|assumption|congruence]. rewrite F3, <- Hf by assumption.
      symmetry. now apply abs_unmapped.
Qed.

(** After the operation the core holds the data and nothing of the range is dirty. *)
Definition through (r : req) (d : N -> N) (t : st) : Prop :=
  (forall cid x, inreq r cid x -> core t cid x = d x) /\
  (forall c cid cl o, tbl t c = Some (cid, cl) -> o < ls g -> inreq r cid (cl * ls g + o) ->
     drt t c o = false).

Lemma no_dirty_any s r c cl o : Inv g vc s -> dirty_any g s r = false ->
  tbl s c = Some (rc r, cl) -> cl_first g r <= cl -> cl <= cl_last g r -> o < ls g ->
  drt s c o = false.
Proof.
  intros I H E H1 H2 Ho. unfold dirty_any in H. apply negb_false_iff in H.
  destruct (dirty_lines g s r) eqn:D; [|discriminate]. unfold dirty_lines in D.
  destruct (drt s c o) eqn:Dr; [|reflexivity]. exfalso.
  assert (X : In c (filter (line_dirty g s) (map snd (slots g s r)))).
  { apply filter_In. split.
    - apply in_map_iff. exists (cl, c). split; [reflexivity|]. apply (in_slots g vc); tauto.
    - unfold line_dirty. apply existsb_rng. exists o. split; [lia|]. split; [lia|assumption]. }
  rewrite D in X. destruct X.
Qed.

Lemma wt_ok s r d f : Inv g vc s -> 0 < rn r -> is_mapped g s r = true ->
  (forall cid x, abs g s cid x = f cid x) ->
  wp g (wt_do g r d s) s (fun t => Mix g vc t (allow f r d))
    (fun _ t => Inv g vc t /\ written f r d (abs g t) /\ through r d t).
Proof.
  intros I Hn HM Hf. unfold wt_do. pose proof HL as HL'.
  assert (IM : forall c o, inslot g s r c o -> tbl s c <> None).
  { intros c o (cl & E & _). congruence. }
  destruct (dirty_any g s r) eqn:DA.
  - (* dirty lines: bits after the writes *)
    cbn [wp].
    assert (G1 : forall sub, incl sub (cache_writes g s r d ++ core_writes r d) ->
      Mix g vc (do_ios sub s) (allow f r d)).
    { intros sub Hs. destruct (dw_part s r d sub s I Hn Hs) as (E1 & E2 & E3 & E4 & E5).
      destruct (ios_ram sub s) as (R1 & R2 & R3).
      apply (mix_of g vc W s); try assumption.
      - intros c. left. congruence.
      - intros c o Ho D. rewrite R3 in D. rewrite R2, R1. split; [now apply (i_dv _ _ _ I)|].
        eapply drt_mapped; eassumption.
      - intros c cid cl o Ho E D. rewrite R3 in D. assert (D' : drt s c o = true) by tauto.
        destruct (E5 c cid cl o E Ho) as [H|[H1 H2]].
        + left. rewrite H, <- Hf. symmetry. eapply abs_dirty; try eassumption. now split.
        + right. tauto.
      - intros cid cl o Ho H. destruct (E1 cid (cl * ls g + o)) as [Q|Q]; [|now right].
        left. rewrite Q, <- Hf. symmetry.
        eapply abs_clean; try eassumption. intros c [T D]. apply (H c T D). now rewrite R3. }
    split; [exact G1|]. intros es He.
    destruct (dw_part s r d es s I Hn (fun e => proj1 (He e))) as (E1 & E2 & E3 & E4 & E5).
    destruct (dw_full s r d es s I He) as (F1 & F2 & F3 & F4).
    destruct (ios_ram es s) as (R1 & R2 & R3).
    assert (M1 : Mix g vc (do_ios es s) (allow f r d)).
    { apply G1. intros e H. now apply He. }
    set (s1 := do_ios es s) in *.
    set (ms := (if is_hit g s r then [] else set_valid g s r) ++ set_clean g s r).
    destruct (mem_dev g ms s1) as (D1 & D2 & D3 & D4 & D5).
    assert (Hms : tbl (do_mems g ms s1) = tbl s /\
      (forall c o, vld (do_mems g ms s1) c o = true <-> vld s c o = true \/ inslot g s r c o) /\
      (forall c o, drt (do_mems g ms s1) c o = true <-> drt s c o = true /\ ~ inslot g s r c o)).
    { unfold ms. rewrite mems_app.
      set (s1' := do_mems g (if is_hit g s r then [] else set_valid g s r) s1).
      assert (A1 : tbl s1' = tbl s /\ drt s1' = drt s /\
        forall c o, vld s1' c o = true <-> vld s c o = true \/ inslot g s r c o).
      { unfold s1'. destruct (is_hit g s r) eqn:HH.
        - cbn. split; [assumption|]. split; [assumption|]. intros c o. rewrite R2.
          split; [tauto|]. intros [V|V]; [assumption|]. now apply (hit_slot g vc s r).
        - destruct (setv_spec g vc s r s1 I) as (B1 & B2 & B3). rewrite B1, B2.
          split; [assumption|]. split; [assumption|]. intros c o. rewrite B3, R2. tauto. }
      destruct A1 as (A1 & A2 & A3).
      destruct (setc_spec g vc s r s1' I) as (B1 & B2 & B3). rewrite B1, B2.
      split; [assumption|]. split; [assumption|]. intros c o. rewrite B3, A2. tauto. }
    destruct Hms as (T2 & V2 & Dr2).
    set (s2 := do_mems g ms s1) in *.
    assert (M2 : Mix g vc s2 (allow f r d)).
    { apply (mix_of g vc W s); try assumption.
      - intros c. left. congruence.
      - intros c. rewrite D3. apply E2.
      - intros c o. rewrite D4. apply E3.
      - intros c o. rewrite D5. apply E4.
      - intros c o Ho D. apply Dr2 in D. rewrite V2, T2. split.
        + left. now apply (i_dv _ _ _ I).
        + apply (drt_mapped g vc s c o); tauto.
      - intros c cid cl o Ho E D.
        assert (D' : drt s c o = true) by (rewrite Dr2 in D; tauto).
        rewrite D2. destruct (inreq_dec r cid (cl * ls g + o)) as [Q|Q].
        + right. split; [assumption|]. apply (F3 c o cid cl E).
          now apply (inslot_req g vc W s r c o cid cl).
        + assert (Q' : ~ inslot g s r c o) by (now rewrite (inslot_req g vc W s r c o cid cl)).
          left. rewrite F4 by assumption. rewrite <- Hf. symmetry.
          eapply abs_dirty; try eassumption. split; tauto.
      - intros cid cl o Ho H. rewrite D1. destruct (inreq_dec r cid (cl * ls g + o)) as [Q|Q].
        + right. split; [assumption|]. now apply F1.
        + left. rewrite F2, <- Hf by assumption. symmetry.
          eapply abs_clean; try eassumption. intros c [T D]. apply (H c T D).
          apply Dr2. split; [assumption|]. now rewrite (inslot_req g vc W s r c o cid cl). }
    split; [exact M1|].
    assert (FIN : forall t, tbl t = tbl s2 -> vld t = vld s2 -> drt t = drt s2 ->
      (forall c o, cdat t c o = cdat s2 c o) -> (forall cid x, core t cid x = core s2 cid x) ->
      (forall c, (ptbl t c = tbl t c /\ forall o, pvld t c o = vld t c o /\ pdrt t c o = drt t c o) \/
         (~ In c (mark_clean g s r) /\ ptbl t c = ptbl s2 c /\
          forall o, pvld t c o = pvld s2 c o /\ pdrt t c o = pdrt s2 c o)) ->
      Inv g vc t /\ written f r d (abs g t) /\ through r d t).
    { intros t Q1 Q2 Q3 Q4 Q5 Q6.
      assert (It : Inv g vc t).
      { apply (inv_of g vc W s); try assumption.
        - congruence.
        - intros c o Ho V. rewrite Q2 in V. apply V2 in V.
          destruct V as [V|V]; [now apply (i_vt _ _ _ I c o)|now apply (IM c o)].
        - intros c o Ho D. rewrite Q3 in D. rewrite Q2. apply V2. apply Dr2 in D.
          left. now apply (i_dv _ _ _ I).
        - intros c o cid cl E Ho V D. rewrite Q2 in V. rewrite Q3 in D. apply V2 in V.
          rewrite Q4, Q5, D2, D1.
          destruct (inreq_dec r cid (cl * ls g + o)) as [Q|Q].
          + rewrite F1 by assumption. apply (F3 c o cid cl E).
            now apply (inslot_req g vc W s r c o cid cl).
          + assert (Q' : ~ inslot g s r c o) by (now rewrite (inslot_req g vc W s r c o cid cl)).
            rewrite F2, F4 by assumption.
            apply (i_cl _ _ _ I); try assumption; [tauto|].
            destruct (drt s c o) eqn:Ds; [|reflexivity].
            assert (drt s2 c o = true) by (apply Dr2; tauto). congruence.
        - intros c. destruct (Q6 c) as [H|(NM & H1 & H2)]; [now left|]. right.
          split; [now rewrite H1, D3, E2|]. intros o Ho. destruct (H2 o) as [-> ->].
          rewrite D4, D5, E3, E4. repeat split. rewrite Q3. apply bool_iff_eq. rewrite Dr2.
          split; [tauto|]. intros D. split; [assumption|]. intros S.
          rewrite (marked_clean_not g vc s r c o I NM S) in D. discriminate. }
      split; [assumption|]. split.
      - apply (abs_written s r d f t); try assumption.
        + congruence.
        + intros c o _. rewrite Q2. apply V2.
        + intros c o cid cl E S. rewrite Q4, D2. now apply (F3 c o cid cl).
        + intros c o S. rewrite Q4, D2. now apply F4.
        + intros cid x S. rewrite Q5, D1. now apply F2.
      - split.
        + intros cid x S. rewrite Q5, D1. now apply F1.
        + intros c cid cl o E Ho S. rewrite Q3.
          destruct (drt s2 c o) eqn:D; [|reflexivity]. apply Dr2 in D. exfalso. apply D.
          apply (inslot_req g vc W s r c o cid cl); try assumption. congruence. }
    destruct (mark_clean g s r) as [|m0 ml] eqn:HMk.
    { cbn [wp]. split; [assumption|]. apply FIN; try reflexivity.
      intros c. right. repeat split. intros []. }
    cbn [wp]. split.
    { intros sub Hs. apply mix_persist; [|assumption]. eapply persist_sub; eassumption. }
    intros es' He'.
    assert (AP : all_persist es') by (intros e H; apply He' in H; now apply persist_all in H).
    assert (M3 : Mix g vc (do_ios es' s2) (allow f r d)) by (now apply mix_persist).
    split; [assumption|].
    destruct (ios_ram es' s2) as (P1 & P2 & P3).
    apply FIN; try assumption.
    + intros. apply ios_nocache. intros v H. apply AP in H. destruct H; discriminate.
    + intros. apply ios_nocore. intros v H. apply AP in H. destruct H; discriminate.
    + intros c. destruct (ios_meta es' s2 c) as [(_ & Z1 & Z2 & Z3)|(Nn & Z1 & Z2 & Z3)].
      * left. rewrite P1. split; [assumption|]. intros o. rewrite P2, P3. split; [apply Z2|apply Z3].
      * right. split; [|split; [assumption|intros o; split; [apply Z2|apply Z3]]].
        intros C. apply Nn. apply He'. now apply (persist_in g vc W).
  - (* no dirty line: bits first *)
    assert (ND : forall c o, inslot g s r c o -> drt s c o = false).
    { intros c o S. pose proof (inslot_lt g vc W s r c o S) as Ho. destruct S as (cl & E & L1 & L2 & _).
      now apply (no_dirty_any s r c cl o). }
    cbn [wp].
    set (ms := if is_hit g s r then [] else set_valid g s r).
    destruct (mem_dev g ms s) as (D1 & D2 & D3 & D4 & D5).
    assert (Hms : tbl (do_mems g ms s) = tbl s /\ drt (do_mems g ms s) = drt s /\
      (forall c o, vld (do_mems g ms s) c o = true <-> vld s c o = true \/ inslot g s r c o)).
    { unfold ms. destruct (is_hit g s r) eqn:HH.
      - cbn. split; [reflexivity|]. split; [reflexivity|]. intros c o.
        split; [tauto|]. intros [V|V]; [assumption|]. now apply (hit_slot g vc s r).
      - destruct (setv_spec g vc s r s I) as (B1 & B2 & B3). rewrite B1, B2. tauto. }
    destruct Hms as (T1 & Dr1 & V1). set (s1 := do_mems g ms s) in *.
    assert (G1 : forall sub, incl sub (cache_writes g s r d ++ core_writes r d) ->
      Mix g vc (do_ios sub s1) (allow f r d)).
    { intros sub Hs. destruct (dw_part s r d sub s1 I Hn Hs) as (E1 & E2 & E3 & E4 & E5).
      destruct (ios_ram sub s1) as (R1 & R2 & R3).
      apply (mix_of g vc W s); try assumption.
      - intros c. left. congruence.
      - intros c. now rewrite E2, D3.
      - intros c o. now rewrite E3, D4.
      - intros c o. now rewrite E4, D5.
      - intros c o Ho D. rewrite R3, Dr1 in D. rewrite R2, R1, T1. split.
        + apply V1. left. now apply (i_dv _ _ _ I).
        + eapply drt_mapped; eassumption.
      - intros c cid cl o Ho E D. rewrite R3, Dr1 in D. assert (D' : drt s c o = true) by tauto.
        destruct (E5 c cid cl o E Ho) as [H|[H1 H2]].
        + left. rewrite H, D2, <- Hf. symmetry. eapply abs_dirty; try eassumption. now split.
        + right. tauto.
      - intros cid cl o Ho H. destruct (E1 cid (cl * ls g + o)) as [Q|Q]; [|now right].
        left. rewrite Q, D1, <- Hf. symmetry.
        eapply abs_clean; try eassumption. intros c [T D]. apply (H c T D). now rewrite R3, Dr1. }
    split.
    { eapply mix_weaken; [|apply (inv_mix g vc s W I)]. cbn. intros cid x v ->. left. apply Hf. }
    split; [exact G1|]. intros es He.
    destruct (dw_part s r d es s1 I Hn (fun e => proj1 (He e))) as (E1 & E2 & E3 & E4 & E5).
    destruct (dw_full s r d es s1 I He) as (F1 & F2 & F3 & F4).
    destruct (ios_ram es s1) as (R1 & R2 & R3).
    split; [apply G1; intros e H; now apply He|].
    set (t := do_ios es s1) in *.
    assert (It : Inv g vc t).
    { apply (inv_of g vc W s); try assumption.
      - congruence.
      - intros c o Ho V. rewrite R2 in V. apply V1 in V.
        destruct V as [V|V]; [now apply (i_vt _ _ _ I c o)|now apply (IM c o)].
      - intros c o Ho D. rewrite R3, Dr1 in D. rewrite R2. apply V1.
        left. now apply (i_dv _ _ _ I).
      - intros c o cid cl E Ho V D. rewrite R2 in V. rewrite R3, Dr1 in D. apply V1 in V.
        destruct (inreq_dec r cid (cl * ls g + o)) as [Q|Q].
        + rewrite F1 by assumption. apply (F3 c o cid cl E).
          now apply (inslot_req g vc W s r c o cid cl).
        + assert (Q' : ~ inslot g s r c o) by (now rewrite (inslot_req g vc W s r c o cid cl)).
          rewrite F2, F4, D1, D2 by assumption. apply (i_cl _ _ _ I); try assumption. tauto.
      - intros c. right. split; [now rewrite E2, D3|]. intros o Ho.
        rewrite E3, E4, D4, D5, R3, Dr1. repeat split. }
    split; [assumption|]. split.
    + apply (abs_written s r d f t); try assumption.
      * congruence.
      * intros c o _. rewrite R2. apply V1.
      * intros c o S. rewrite F4, D2 by assumption. reflexivity.
      * intros cid x S. rewrite F2, D1 by assumption. reflexivity.
    + split; [exact F1|]. intros c cid cl o E Ho S. rewrite R3, Dr1. apply ND.
      apply (inslot_req g vc W s r c o cid cl); try assumption. congruence.
Qed.

(** ** Cleaning. *)
Definition cleaned (s : st) (cs : list N) (t : st) : Prop :=
  Inv g vc t /\ (forall cid x, abs g t cid x = abs g s cid x) /\ tbl t = tbl s /\ vld t = vld s /\
  (forall c o, cdat t c o = cdat s c o) /\
  (forall c o, In c cs -> o < ls g -> drt t c o = false) /\
  (forall c o, drt t c o = true -> drt s c o = true) /\
  (forall cid x, core t cid x = core s cid x \/ core t cid x = abs g s cid x).

Lemma in_clean_sectors s c o : Inv g vc s ->
  (In o (clean_sectors g s c) -> o < ls g /\ vld s c o = true) /\
  (o < ls g -> drt s c o = true -> In o (clean_sectors g s c)).
Proof.
  intros I. pose proof HL as HL'. unfold clean_sectors.
  destruct (forallb (vld s c) (rng 0 (ls g - 1)) && line_dirty g s c) eqn:F.
  - apply andb_true_iff in F. destruct F as [F _]. rewrite forallb_rng in F. split.
    + intros H. apply in_rng in H. split; [lia|]. apply F; lia.
    + intros Ho _. apply in_rng. lia.
  - split.
    + intros H. apply filter_In in H. destruct H as [H1 H2]. apply in_rng in H1.
      apply andb_true_iff in H2. split; [lia|tauto].
    + intros Ho D. apply filter_In. split; [apply in_rng; lia|].
      rewrite D, (i_dv _ _ _ I c o Ho D). reflexivity.
Qed.

Lemma in_clean_writes s cs e : Inv g vc s -> In e (clean_writes g s cs) ->
  exists c cid cl o, In c cs /\ tbl s c = Some (cid, cl) /\ o < ls g /\ vld s c o = true /\
    e = WCore cid (cl * ls g + o) (cdat s c o).
Proof.
  intros I H. unfold clean_writes in H. apply in_flat_map in H. destruct H as (c & H1 & H2).
  destruct (tbl s c) as [[cid cl]|] eqn:E; [|destruct H2].
  apply in_map_iff in H2. destruct H2 as (o & <- & H2).
  apply (proj1 (in_clean_sectors s c o I)) in H2. exists c, cid, cl, o. tauto.
Qed.

Lemma clean_ok s cs0 k (C : st -> Prop) (Q : (N -> N) -> st -> Prop) : Inv g vc s ->
  (forall t, Mix g vc t (fun cid x v => v = abs g s cid x) -> C t) ->
  (forall t, cleaned s cs0 t -> wp g (k t) t C Q) ->
  wp g (clean_prog g s cs0 k) s C Q.
Proof.
  intros I HC HK. pose proof HL as HL'. unfold clean_prog.
  set (cs := filter (line_dirty g s) cs0).
  assert (CS : forall c o, In c cs0 -> ~ In c cs -> o < ls g -> drt s c o = false).
  { intros c o H1 H2 Ho. destruct (drt s c o) eqn:D; [|reflexivity]. exfalso. apply H2.
    apply filter_In. split; [assumption|]. unfold line_dirty. apply existsb_rng.
    exists o. split; [lia|]. split; [lia|assumption]. }
  assert (NIL : cs = [] -> wp g (k s) s C Q).
  { intros E. apply HK. split; [assumption|]. split; [reflexivity|]. split; [reflexivity|].
    split; [reflexivity|]. split; [reflexivity|]. split; [|split; [tauto|tauto]].
    intros c o H Ho. apply (CS c o); try assumption. rewrite E. intros []. }
  destruct cs as [|c0 cs1] eqn:Ecs; [now apply NIL|]. rewrite <- Ecs in *. clear Ecs NIL.
  assert (WV : forall cid x v, In (WCore cid x v) (clean_writes g s cs) -> v = abs g s cid x).
  { intros cid x v H. apply in_clean_writes in H; [|assumption].
    destruct H as (c & cid' & cl & o & _ & E & Ho & V & H). injection H as -> -> ->.
    rewrite (abs_mapped g vc s c cid' cl o I HL' E Ho), V. reflexivity. }
  assert (KI : forall sub, incl sub (clean_writes g s cs) ->
    (forall cid x, core (do_ios sub s) cid x = core s cid x \/ core (do_ios sub s) cid x = abs g s cid x) /\
    (forall c o, cdat (do_ios sub s) c o = cdat s c o) /\
    (forall c, ptbl (do_ios sub s) c = ptbl s c) /\ (forall c o, pvld (do_ios sub s) c o = pvld s c o) /\
    (forall c o, pdrt (do_ios sub s) c o = pdrt s c o)).
  { intros sub Hs.
    assert (NM : forall c, ~ In (Persist c) sub).
    { intros c H. apply Hs, in_clean_writes in H; [|assumption].
      destruct H as (? & ? & ? & ? & _ & _ & _ & _ & H). discriminate. }
    split; [|split; [|split; [|split]]].
    - intros cid x. destruct (ios_core sub s cid x) as [[H _]|(v & H1 & H2)]; [now left|].
      right. rewrite H2. apply WV. now apply Hs.
    - intros c o. apply ios_nocache. intros v H. apply Hs, in_clean_writes in H; [|assumption].
      destruct H as (? & ? & ? & ? & _ & _ & _ & _ & H). discriminate.
    - intros c. now apply ios_nometa.
    - intros c. now apply ios_nometa.
    - intros c. now apply ios_nometa. }
  assert (G1 : forall sub, incl sub (clean_writes g s cs) ->
    Mix g vc (do_ios sub s) (fun cid x v => v = abs g s cid x)).
  { intros sub Hs. destruct (KI sub Hs) as (E1 & E5 & E2 & E3 & E4).
    destruct (ios_ram sub s) as (R1 & R2 & R3).
    apply (mix_of g vc W s); try assumption.
    - intros c. left. congruence.
    - intros c o Ho D. rewrite R3 in D. rewrite R2, R1. split; [now apply (i_dv _ _ _ I)|].
      eapply drt_mapped; eassumption.
    - intros c cid cl o Ho E D. rewrite R3 in D. assert (D' : drt s c o = true) by tauto.
      rewrite E5. symmetry. eapply abs_dirty; try eassumption. now split.
    - intros cid cl o Ho H. destruct (E1 cid (cl * ls g + o)) as [Q'|Q']; [|assumption].
      rewrite Q'. symmetry. eapply abs_clean; try eassumption.
      intros c [T D]. apply (H c T D). now rewrite R3. }
  cbn [wp]. split; [intros sub Hs; apply HC; now apply G1|]. intros es He.
  destruct (KI es (fun e => proj1 (He e))) as (E1 & E5 & E2 & E3 & E4).
  destruct (ios_ram es s) as (R1 & R2 & R3).
  assert (M1 : Mix g vc (do_ios es s) (fun cid x v => v = abs g s cid x)).
  { apply G1. intros e H. now apply He. }
  (* every dirty sector of the cleaned lines reached the core *)
  assert (WR : forall c cid cl o, In c cs -> tbl s c = Some (cid, cl) -> o < ls g ->
    drt s c o = true -> core (do_ios es s) cid (cl * ls g + o) = cdat s c o).
  { intros c cid cl o H E Ho D.
    assert (IW : In (WCore cid (cl * ls g + o) (cdat s c o)) es).
    { apply He. unfold clean_writes. apply in_flat_map. exists c. split; [assumption|].
      rewrite E. apply in_map_iff. exists o. split; [reflexivity|].
      now apply (in_clean_sectors s c o I). }
    destruct (ios_core es s cid (cl * ls g + o)) as [[_ H']|(v & H1 & H2)].
    - exfalso. now apply (H' _ IW).
    - rewrite H2. apply He, WV in H1. apply He, WV in IW. congruence. }
  set (s1 := do_ios es s) in *. split; [now apply HC|].
  set (ms := map (fun c => SetC c 0 (ls g - 1)) cs).
  destruct (mem_dev g ms s1) as (D1 & D2 & D3 & D4 & D5).
  destruct (mems_setc g ms s1) as (T2 & V2 & Dr2).
  { intros e H. apply in_map_iff in H. destruct H as (c & <- & _). eauto. }
  set (s2 := do_mems g ms s1) in *.
  assert (DR : forall c o, o < ls g -> drt s2 c o = true <-> drt s c o = true /\ ~ In c cs).
  { intros c o Ho. rewrite Dr2, R3. split; intros [H1 H2]; (split; [assumption|]).
    - intros H. apply (H2 0 (ls g - 1)); [|lia]. apply in_map_iff. now exists c.
    - intros a b H _. apply in_map_iff in H. destruct H as (c' & H & H').
      injection H as -> _ _. tauto. }
  assert (M2 : Mix g vc s2 (fun cid x v => v = abs g s cid x)).
  { apply (mix_of g vc W s); try assumption.
    - intros c. left. congruence.
    - intros c. now rewrite D3, E2.
    - intros c o. now rewrite D4, E3.
    - intros c o. now rewrite D5, E4.
    - intros c o Ho D. apply DR in D; [|assumption]. rewrite V2, R2, T2, R1. split.
      + now apply (i_dv _ _ _ I).
      + eapply drt_mapped; try eassumption; tauto.
    - intros c cid cl o Ho E D. rewrite (DR c o Ho) in D. assert (D' : drt s c o = true) by tauto.
      rewrite D2, E5. symmetry. eapply abs_dirty; try eassumption. now split.
    - intros cid cl o Ho H. rewrite D1.
      destruct (mapped_dec g vc s cid cl I) as [[c E]|E].
      + destruct (drt s c o) eqn:D.
        * destruct (in_dec N.eq_dec c cs) as [Hc|Hc].
          -- rewrite (WR c cid cl o Hc E Ho D). symmetry.
             eapply abs_dirty; try eassumption. now split.
          -- exfalso. apply (H c E D). now apply DR.
        * destruct (E1 cid (cl * ls g + o)) as [Q'|Q']; [|assumption].
          rewrite Q'. symmetry. eapply abs_clean; try eassumption.
          intros c' [T' D']. assert (c' = c) by (eapply (i_inj _ _ _ I); eassumption). congruence.
      + destruct (E1 cid (cl * ls g + o)) as [Q'|Q']; [|assumption].
        rewrite Q'. symmetry. now apply abs_unmapped. }
  split; [intros sub Hs; apply HC; apply mix_persist; [|assumption]; eapply persist_sub; eassumption|].
  intros es' He'.
  assert (AP : all_persist es') by (intros e H; apply He' in H; now apply persist_all in H).
  destruct (ios_ram es' s2) as (P1 & P2 & P3).
  assert (P4 : forall c o, cdat (do_ios es' s2) c o = cdat s c o).
  { intros. rewrite ios_nocache; [rewrite D2; apply E5|].
    intros v H. apply AP in H. destruct H; discriminate. }
  assert (P5 : forall cid x, core (do_ios es' s2) cid x = core s1 cid x).
  { intros. rewrite ios_nocore; [now rewrite D1|]. intros v H. apply AP in H. destruct H; discriminate. }
  set (t := do_ios es' s2) in *.
  assert (It : Inv g vc t).
  { apply (inv_of g vc W s); try assumption.
    - congruence.
    - intros c o Ho V. rewrite P2, V2, R2 in V. now apply (i_vt _ _ _ I c o).
    - intros c o Ho D. rewrite P3 in D. apply DR in D; [|assumption]. rewrite P2, V2, R2.
      now apply (i_dv _ _ _ I).
    - intros c o cid cl E Ho V D. rewrite P2, V2, R2 in V. rewrite P4, P5.
      rewrite P3 in D. destruct (drt s c o) eqn:Ds.
      + destruct (in_dec N.eq_dec c cs) as [Hc|Hc].
        * symmetry. now apply WR.
        * assert (drt s2 c o = true) by (now apply DR). congruence.
      + destruct (E1 cid (cl * ls g + o)) as [Q'|Q']; rewrite Q'.
        * now apply (i_cl _ _ _ I).
        * rewrite (abs_mapped g vc s c cid cl o I HL' E Ho), V. reflexivity.
    - intros c. destruct (ios_meta es' s2 c) as [(_ & Z1 & Z2 & Z3)|(Nn & Z1 & Z2 & Z3)].
      + left. fold t in Z1, Z2, Z3. rewrite P1, P2, P3. split; [assumption|]. intros o. split; [apply Z2|apply Z3].
      + right. fold t in Z1, Z2, Z3. split; [now rewrite Z1, D3, E2|]. intros o Ho.
        rewrite Z2, Z3, D4, D5, E3, E4. repeat split. rewrite P3. apply bool_iff_eq.
        rewrite DR by assumption. split; [tauto|]. intros D. split; [assumption|].
        intros Hc. apply Nn. apply He'. now apply (persist_in g vc W). }
  apply HK. split; [assumption|]. split; [|split; [congruence|split; [congruence|split; [assumption|split; [|split]]]]].
  - intros cid. apply (by_line g vc W (fun x => abs g t cid x = abs g s cid x)).
    intros cl o Ho. destruct (mapped_dec g vc s cid cl I) as [[c E]|E].
    + assert (Ec : tbl t c = Some (cid, cl)) by congruence.
      rewrite (abs_mapped g vc t c cid cl o It HL' Ec Ho), P2, V2, R2, P4, P5.
      rewrite (abs_mapped g vc s c cid cl o I HL' E Ho).
      destruct (vld s c o) eqn:V; [reflexivity|].
      destruct (E1 cid (cl * ls g + o)) as [Q'|Q']; rewrite Q'; [reflexivity|].
      now rewrite (abs_mapped g vc s c cid cl o I HL' E Ho), V.
    + rewrite !abs_unmapped; try assumption; [|congruence]. rewrite P5.
      destruct (E1 cid (cl * ls g + o)) as [Q'|Q']; rewrite Q'; [reflexivity|].
      now apply abs_unmapped.
  - intros c o Hc Ho. rewrite P3. destruct (drt s2 c o) eqn:D; [|reflexivity].
    apply DR in D; [|assumption]. destruct D as [D Nc]. now rewrite (CS c o Hc Nc Ho) in D.
  - intros c o D. rewrite P3 in D. apply Dr2 in D. rewrite R3 in D. tauto.
  - intros cid x. rewrite P5. apply E1.
Qed.
End S.

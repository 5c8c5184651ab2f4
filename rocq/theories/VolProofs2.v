(** Volatile device caches: which operations drop dirty sectors only after
    their core copy is on the medium. *)
From Coq Require Import NArith List Bool Lia Permutation.
From Verif Require Import DpModel DpProofs DpInv DpEng DpEng2 DpEng3 DpEng4 VolModel VolProofs.
Import ListNotations.
Open Scope N_scope.

Definition line_of (e : mem) : N :=
  match e with SetV c _ _ | SetD c _ _ | SetC c _ _ | SetI c _ _ => c | MapL c _ => c end.

Lemma untouched g es : forall s c, (forall e, In e es -> line_of e <> c) ->
  tbl (do_mems g es s) c = tbl s c /\ forall o, drt (do_mems g es s) c o = drt s c o.
Proof.
  induction es as [|e es IH]; intros s c H; [tauto|]. cbn [do_mems].
  destruct (IH (do_mem g e s) c) as [E1 E2]; [intros; apply H; now right|].
  assert (Hc : line_of e <> c) by (apply H; now left).
  assert (K : (c =? line_of e) = false) by (apply N.eqb_neq; congruence).
  split; [rewrite E1|intros o; rewrite E2]; destruct e; cbn [do_mem tbl drt line_of] in *; try reflexivity;
    unfold updr, upd1; try (rewrite K; reflexivity).
  destruct (any_valid g _ c0); [reflexivity|]. rewrite K. reflexivity.
Qed.

Lemma grows g es : (forall e, In e es -> exists c a b, e = SetV c a b \/ e = SetD c a b) -> forall s,
  tbl (do_mems g es s) = tbl s /\ forall c o, drt s c o = true -> drt (do_mems g es s) c o = true.
Proof.
  induction es as [|e es IH]; intros H s; [tauto|]. cbn [do_mems].
  destruct (IH (fun e' He => H e' (or_intror He)) (do_mem g e s)) as [E1 E2].
  destruct (H e (or_introl eq_refl)) as (c & a & b & [He|He]); subst e; cbn [do_mem tbl drt] in *.
  - split; assumption.
  - split; [assumption|]. intros c' o' D. apply E2. unfold updr.
    destruct ((c' =? c) && (a <=? o') && (o' <=? b)); [reflexivity|exact D].
Qed.

Section S.
Context (g : cfg) (vc : N -> bool) (W : wf g vc).
Local Notation HL := (HL g vc W).

(** No line of the request holds dirty data. *)
Definition ND (t : st) (r : req) : Prop := forall c cl o, tbl t c = Some (rc r, cl) ->
  cl_first g r <= cl -> cl <= cl_last g r -> o < ls g -> drt t c o = false.

Definition shrunk (s t : st) : Prop :=
  (forall c k, tbl t c = Some k -> tbl s c = Some k) /\ (forall c o, drt t c o = true -> drt s c o = true).
Lemma nd_shrunk s t r : shrunk s t -> ND s r -> ND t r.
Proof.
  intros [H1 H2] N c cl o T L1 L2 Ho. destruct (drt t c o) eqn:D; [|reflexivity].
  rewrite <- (N c cl o (H1 _ _ T) L1 L2 Ho). symmetry. now apply H2.
Qed.
Lemma shrunk_refl s : shrunk s s.
Proof. split; tauto. Qed.
Lemma shrunk_ios es s : shrunk s (do_ios es s).
Proof. destruct (ios_ram es s) as (E1 & E2 & E3). split; [rewrite E1|rewrite E3]; tauto. Qed.
Lemma shrunk_trans s t u : shrunk s t -> shrunk t u -> shrunk s u.
Proof. intros [A B] [C D]. split; auto. Qed.

Lemma slots_in s r cl c : In (cl, c) (slots g s r) ->
  tbl s c = Some (rc r, cl) /\ cl_first g r <= cl /\ cl <= cl_last g r.
Proof.
  unfold slots. rewrite in_flat_map. intros (cl' & H1 & H2).
  destruct (lookup g s (rc r) cl') eqn:L; [|destruct H2]. destruct H2 as [H2|[]]. injection H2 as -> ->.
  apply lookup_some in L. apply in_rng in H1. tauto.
Qed.

Lemma purge_keeps t r : ND t r -> forall c cid cl o, o < ls g -> rdirty g t c (cid, cl) o ->
  rdirty g (do_mems g (purge g t r) t) c (cid, cl) o.
Proof.
  intros N c cid cl o Ho [R1 R2].
  assert (U : forall e, In e (purge g t r) -> line_of e <> c).
  { intros e He Hc. unfold purge, per_slot in He. apply in_flat_map in He. destruct He as ([cl' c'] & H1 & H2).
    apply slots_in in H1. destruct H1 as (T & L1 & L2). cbn [fst snd] in H2.
    assert (c' = c) by (destruct H2 as [H2|[H2|[]]]; subst e; exact Hc). subst c'.
    rewrite (N c cl' o T L1 L2 Ho) in R2. discriminate. }
  destruct (untouched g (purge g t r) t c U) as [E1 E2]. split; [now rewrite E1|now rewrite E2].
Qed.
Lemma purge_shrunk t r : shrunk t (do_mems g (purge g t r) t).
Proof.
  destruct (mems_purge g (purge g t r) t) as (E1 & _ & E3).
  { intros e He. unfold purge, per_slot in He. apply in_flat_map in He. destruct He as ([cl' c'] & _ & H2).
    destruct H2 as [H2|[H2|[]]]; subst e; eexists _, _, _; [left|right]; reflexivity. }
  split.
  - intros c k H. destruct (E1 c) as [E|[E _]]; congruence.
  - intros c o H. now apply E3 in H.
Qed.

Lemma gp_purge plp r k : (forall v, Cur v -> ND (now v) r -> gp g plp (k (now v)) v) ->
  forall v, Cur v -> ND (now v) r -> gp g plp (wi_purge_v g r k (now v)) v.
Proof.
  intros K v HC N. unfold wi_purge_v. destruct (slots g (now v) r) eqn:Sl; [now apply K|]. cbn [gp]. split.
  - intros c cid cl o Ho R. left. now apply purge_keeps.
  - assert (S1 : shrunk (now v) (now (vmems g (purge g (now v) r) v))) by apply purge_shrunk.
    destruct (mark_clean g (now v) r).
    + apply K; [now apply cur_vmems|]. now apply (nd_shrunk (now v)).
    + cbn [gp]. intros es' _. apply K; [apply cur_vios; now apply cur_vmems|]. rewrite now_vios.
      apply (nd_shrunk (now v)); [|assumption]. eapply shrunk_trans; [exact S1|apply shrunk_ios].
Qed.

Lemma gp_clean plp v cs0 k : Inv g vc (now v) -> Cur v ->
  (forall v2, Cur v2 -> shrunk (now v) (now v2) ->
     (forall c o, In c cs0 -> o < ls g -> drt (now v2) c o = false) -> gp g plp (k (now v2)) v2) ->
  gp g plp (clean_v g (now v) cs0 k) v.
Proof.
  intros I HC K. pose proof HL as HL'. unfold clean_v. set (cs := filter (line_dirty g (now v)) cs0).
  assert (CS : forall c o, In c cs0 -> ~ In c cs -> o < ls g -> drt (now v) c o = false).
  { intros c o H1 H2 Ho. destruct (drt (now v) c o) eqn:D; [|reflexivity]. exfalso. apply H2.
    apply filter_In. split; [assumption|]. unfold line_dirty. apply existsb_rng.
    exists o. split; [lia|]. split; [lia|assumption]. }
  destruct cs as [|c0 cs'] eqn:Ecs.
  { apply K; [assumption|apply shrunk_refl|]. intros c o H Ho. apply CS; [assumption|tauto|assumption]. }
  rewrite <- Ecs in *. clear Ecs c0 cs'. cbn [gp]. intros es1 _.
  set (v1 := vios plp es1 v). assert (C1 : Cur v1) by now apply cur_vios.
  set (v2 := flush_cores (cores_of (now v) cs) v1).
  assert (N2 : now v2 = do_ios es1 (now v)).
  { unfold v2. rewrite now_fcores. apply now_vios. }
  destruct (ios_ram es1 (now v)) as (R1 & R2 & R3). rewrite <- N2 in R1, R2, R3.
  assert (C2 : Cur v2) by now apply cur_fcores.
  set (ms := map (fun c => SetC c 0 (ls g - 1)) cs).
  destruct (mems_setc g ms (now v2)) as (M1 & M2 & M3).
  { intros e He. apply in_map_iff in He. destruct He as (c & <- & _). now exists c, 0, (ls g - 1). }
  assert (MS : forall c o, In c cs -> o < ls g -> drt (do_mems g ms (now v2)) c o = false).
  { intros c o Hc Ho. destruct (drt (do_mems g ms (now v2)) c o) eqn:D; [|reflexivity].
    apply M3 in D. destruct D as [_ D]. exfalso. apply (D 0 (ls g - 1)); [|lia].
    apply in_map_iff. now exists c. }
  split.
  - intros c cid cl o Ho [T D]. destruct (in_dec N.eq_dec c cs) as [Hc|Hc].
    + right. split.
      * apply settled_fcores; [assumption|]. unfold cores_of. apply in_flat_map. exists c.
        split; [assumption|]. rewrite <- R1, T. now left.
      * intros c' [T' D']. rewrite M1 in T'. rewrite R1 in T, T'.
        assert (c' = c) by (now apply (i_inj _ _ _ I c' c (cid, cl))). subst c'.
        rewrite MS in D' by assumption. discriminate.
    + left. split; [now rewrite M1|]. apply M3. split; [assumption|]. intros a b H _. apply Hc.
      apply in_map_iff in H. destruct H as (c' & H & H'). injection H as -> _ _. exact H'.
  - set (v3 := vmems g ms v2). cbn [gp]. intros es2 _. set (v4 := vios plp es2 v3).
    assert (C4 : Cur v4) by (apply cur_vios; now apply cur_vmems).
    set (v5 := vflush on_cache v4). change (now v4) with (now v5).
    assert (N5 : now v5 = do_ios es2 (do_mems g ms (now v2))).
    { unfold v5, v4. cbn [vflush now]. now rewrite now_vios. }
    destruct (ios_ram es2 (do_mems g ms (now v2))) as (Q1 & Q2 & Q3). rewrite <- N5 in Q1, Q2, Q3.
    apply K.
    + apply cur_vflush; [apply bycore_cache|assumption].
    + split.
      * intros c kk H. rewrite Q1, M1, R1 in H. exact H.
      * intros c o H. rewrite Q3 in H. apply M3 in H. rewrite <- R3. tauto.
    + intros c o Hc Ho. rewrite Q3. destruct (in_dec N.eq_dec c cs) as [H|H]; [now apply MS|].
      destruct (drt (do_mems g ms (now v2)) c o) eqn:D; [|reflexivity].
      apply M3 in D. rewrite R3 in D. rewrite <- (CS c o Hc H Ho). symmetry. tauto.
Qed.

Lemma nd_cleaned s t r : Inv g vc s -> shrunk s t ->
  (forall c o, In c (dirty_lines g s r) -> o < ls g -> drt t c o = false) -> ND t r.
Proof.
  intros I [S1 S2] H c cl o T L1 L2 Ho. destruct (drt t c o) eqn:D; [|reflexivity].
  rewrite <- (H c o); [symmetry; assumption| |assumption].
  unfold dirty_lines. apply filter_In. split.
  - apply in_map_iff. exists (cl, c). split; [reflexivity|]. apply (in_slots g vc); [assumption|].
    split; [assumption|split; [assumption|now apply S1]].
  - unfold line_dirty. apply existsb_rng. exists o. pose proof HL. split; [lia|]. split; [lia|now apply S2].
Qed.

Lemma gp_wi plp v r d : Inv g vc (now v) -> Cur v -> gp g plp (wi_v g r d (now v)) v.
Proof.
  intros I HC. unfold wi_v. apply gp_clean; [assumption|assumption|]. intros v2 C2 S2 H2. cbn [gp].
  intros es' _. apply gp_purge.
  - intros v3 C3 N3. destruct (is_hit g (now v) r); [exact Logic.I|].
    apply gp_purge; [|assumption|assumption]. intros. exact Logic.I.
  - now apply cur_vios.
  - rewrite now_vios. apply (nd_shrunk (now v2)); [apply shrunk_ios|].
    now apply (nd_cleaned (now v)).
Qed.

Lemma gp_io plp v es k : (forall es', (forall e, In e es' <-> In e es) ->
  gp g plp (k (now (vios plp es' v))) (vios plp es' v)) -> gp g plp (VIo es k) v.
Proof. intros H. exact H. Qed.
Lemma gp_grow plp v es k : (forall e, In e es -> exists c a b, e = SetV c a b \/ e = SetD c a b) ->
  gp g plp (k (now (vmems g es v))) (vmems g es v) -> gp g plp (VMem es k) v.
Proof.
  intros H K. cbn [gp]. split; [|exact K]. intros c cid cl o Ho [T D]. left.
  destruct (grows g es H (now v)) as [E1 E2]. split; [now rewrite E1|now apply E2].
Qed.
Lemma sv_grow s r : forall e, In e (set_valid g s r) -> exists c a b, e = SetV c a b \/ e = SetD c a b.
Proof.
  intros e H. unfold set_valid, per_slot in H. apply in_flat_map in H. destruct H as (p & _ & [H|[]]).
  subst e. eexists _, _, _. now left.
Qed.
Lemma sd_grow s r : forall e, In e (set_dirty g s r) -> exists c a b, e = SetV c a b \/ e = SetD c a b.
Proof.
  intros e H. unfold set_dirty, per_slot in H. apply in_flat_map in H. destruct H as (p & _ & [H|[]]).
  subst e. eexists _, _, _. now right.
Qed.

Lemma gp_wb plp v r d s : gp g plp (wb_v g r d s) v.
Proof.
  unfold wb_v. apply gp_io. intros es' _. apply gp_grow.
  - intros e H. apply in_app_iff in H. destruct H as [H|H].
    + destruct (is_hit g s r); [destruct H|now apply sv_grow in H].
    + destruct (is_dirty_all g s r); [destruct H|now apply sd_grow in H].
  - destruct (is_dirty_all g s r); [exact Logic.I|]. destruct (mark_dirty g s r); [exact Logic.I|].
    cbn [gp]. tauto.
Qed.

(** No sector of the request is dirty. *)
Definition NR (t : st) (r : req) : Prop := forall c cl o, tbl t c = Some (rc r, cl) ->
  cl_first g r <= cl -> cl <= cl_last g r -> sstart g r cl <= o -> o <= send g r cl ->
  drt t c o = false.

Lemma gp_mem plp v es k : (forall c cid cl o, o < ls g -> rdirty g (now v) c (cid, cl) o ->
    rdirty g (do_mems g es (now v)) c (cid, cl) o) ->
  gp g plp (k (now (vmems g es v))) (vmems g es v) -> gp g plp (VMem es k) v.
Proof. intros H K. cbn [gp]. split; [|exact K]. intros. left. now apply H. Qed.

Lemma gp_wt plp v r d : NR (now v) r -> gp g plp (wt_v g r d (now v)) v.
Proof.
  intros N. unfold wt_v. set (s := now v) in *. destruct (dirty_any g s r).
  - apply gp_io. intros es' _. apply gp_mem.
    + rewrite now_vios. destruct (ios_ram es' (now v)) as (R1 & _ & R3). fold s in R1, R3.
      intros c cid cl o Ho [T D]. fold s in T, D. rewrite R1 in T. rewrite R3 in D.
      rewrite mems_app. fold s.
      destruct (grows g (if is_hit g s r then [] else set_valid g s r)) with (s := do_ios es' s) as [G1 G2].
      { intros e H. destruct (is_hit g s r); [destruct H|now apply sv_grow in H]. }
      set (s1 := do_mems g _ (do_ios es' s)) in *.
      destruct (mems_setc g (set_clean g s r) s1) as (M1 & _ & M3).
      { intros e H. unfold set_clean, per_slot in H. apply in_flat_map in H. destruct H as (p & _ & [H|[]]).
        subst e. now eexists _, _, _. }
      split; [rewrite M1, G1, R1; exact T|]. apply M3. split; [apply G2; rewrite R3; exact D|].
      intros a b H [H1 H2]. unfold set_clean, per_slot in H. apply in_flat_map in H.
      destruct H as ([cl' c'] & H & [H'|[]]). injection H' as -> <- <-. cbn [fst snd] in *.
      apply slots_in in H. destruct H as (T' & L1 & L2).
      rewrite (N c cl' o T' L1 L2 H1 H2) in D. discriminate.
    + destruct (mark_clean g s r); [exact Logic.I|]. cbn [gp]. tauto.
  - apply gp_grow.
    + intros e H. destruct (is_hit g s r); [destruct H|now apply sv_grow in H].
    + cbn [gp]. tauto.
Qed.
Lemma gp_pt plp v r : Inv g vc (now v) -> Cur v -> gp g plp (pt_v g r (now v)) v.
Proof. intros I HC. unfold pt_v. apply gp_clean; [assumption|assumption|]. intros. exact Logic.I. Qed.
Lemma gp_rd plp v r : Inv g vc (now v) -> Cur v -> gp g plp (rd_v g r (now v)) v.
Proof.
  intros I HC. unfold rd_v. destruct (is_hit g (now v) r); [exact Logic.I|].
  apply gp_clean; [assumption|assumption|]. intros v2 C2 _ _. cbv zeta. apply gp_io. intros es' _.
  apply gp_grow; [apply sv_grow|exact Logic.I].
Qed.

(** Space management keeps dirty sectors. *)
Lemma same_keeps s es : Inv g vc s -> same g vc s (do_mems g es s) ->
  forall c cid cl o, o < ls g -> rdirty g s c (cid, cl) o -> rdirty g (do_mems g es s) c (cid, cl) o.
Proof.
  intros I (It & _ & D) c cid cl o Ho [T E]. assert (E' : drt (do_mems g es s) c o = true) by congruence.
  split; [|exact E']. destruct (i_pt _ _ _ I c o Ho E) as [P1 _].
  destruct (i_pt _ _ _ It c o Ho E') as [P2 _]. destruct (mem_dev g es s) as (_ & _ & M & _).
  rewrite <- P2, M, P1. exact T.
Qed.
Lemma same_nr s es r : Inv g vc s -> same g vc s (do_mems g es s) -> (forall cl, send g r cl < ls g) ->
  NR s r -> NR (do_mems g es s) r.
Proof.
  intros I (It & _ & D) HS N c cl o T L1 L2 L3 L4. assert (Ho : o < ls g) by (specialize (HS cl); lia). destruct (drt (do_mems g es s) c o) eqn:E'; [|reflexivity].
  assert (E : drt s c o = true) by congruence.
  destruct (i_pt _ _ _ I c o Ho E) as [P1 _]. destruct (i_pt _ _ _ It c o Ho E') as [P2 _].
  destruct (mem_dev g es s) as (_ & _ & M & _). rewrite <- P2, M, P1 in T.
  rewrite (N c cl o T L1 L2 L3 L4) in E. discriminate.
Qed.
Lemma send_lt r cl : send g r cl < ls g.
Proof.
  pose proof HL as H. unfold send. destruct (cl =? cl_last g r); [apply N.mod_lt; lia|lia].
Qed.

Lemma gp_prepare plp v r promo vs yes no : Inv g vc (now v) -> vc (rc r) = true -> Cur v ->
  (forall v2, Inv g vc (now v2) -> Cur v2 -> (NR (now v) r -> NR (now v2) r) -> gp g plp (yes (now v2)) v2) ->
  (forall v2, Inv g vc (now v2) -> Cur v2 -> gp g plp (no (now v2)) v2) ->
  gp g plp (prepare_v g (now v) r promo vs yes no) v.
Proof.
  intros I Hv HC HY HN. unfold prepare_v. destruct (is_mapped g (now v) r); [apply HY; tauto|].
  destruct promo; cbn [negb]; [|now apply HN].
  destruct (remap g r (cl_list g r) vs (now v)) as [[m ok] l] eqn:R.
  destruct (remap_ok g vc W r (cl_list g r) Hv vs (now v) m ok l I) as (R1 & R2 & R3 & R4); [|assumption|].
  { intros cl H. now apply in_rng in H. }
  destruct ok.
  - cbn [gp]. split.
    + intros c cid cl o Ho Rd. left. now apply same_keeps.
    + apply HY; [apply R1|now apply cur_vmems|]. intros N. apply same_nr; try assumption. intros cl. apply send_lt.
  - assert (R5 : same g vc (now v) (do_mems g (m ++ map (fun c => SetI c 0 (ls g - 1)) l) (now v))).
    { rewrite mems_app. apply (same_trans g vc _ (do_mems g m (now v))); [assumption|].
      apply (drops_ok g vc W); [apply R1|]. intros c Hc.
      rewrite (drt_line_dirty g (now v)); [now apply R2|apply R1]. }
    cbn [gp]. split.
    + intros c cid cl o Ho Rd. left. now apply same_keeps.
    + apply HN; [apply R5|now apply cur_vmems].
Qed.

Definition calm (s : st) (o : op) : Prop :=
  match o with OpWrite _ (WT | WA) _ _ r _ => NR s r | _ => True end.

Lemma gp_write plp v m promo vs r d : Inv g vc (now v) -> vc (rc r) = true -> Cur v ->
  (match m with WT | WA => NR (now v) r | _ => True end) ->
  gp g plp (write_v g m promo vs r d (now v)) v.
Proof.
  intros I Hv HC N. destruct m; cbn [write_v].
  - apply gp_prepare; try assumption; intros; [apply gp_wt; auto|now apply gp_wi].
  - apply gp_prepare; try assumption; intros; [apply gp_wb; auto|now apply gp_wi].
  - destruct (is_hit g (now v) r); [|now apply gp_wi].
    apply gp_prepare; try assumption; intros; [apply gp_wt; auto|now apply gp_wi].
  - now apply gp_wi.
  - now apply gp_wi.
  - apply gp_prepare; try assumption; intros; [apply gp_wb; auto|now apply gp_wi].
Qed.

Lemma gp_read plp v m promo seqc vs r : Inv g vc (now v) -> vc (rc r) = true -> Cur v ->
  gp g plp (read_v g m promo seqc vs r (now v)) v.
Proof.
  intros I Hv HC.
  assert (P : gp g plp (prepare_v g (now v) r promo vs (rd_v g r) (pt_v g r)) v).
  { apply gp_prepare; try assumption; intros; [now apply gp_rd|now apply gp_pt]. }
  destruct m; cbn [read_v]; try exact P.
  - destruct (seqc && is_dirty_all g (now v) r); [exact P|now apply gp_pt].
  - unfold wo_v. destruct (is_hit g (now v) r); [exact Logic.I|]. destruct (dirty_any g (now v) r); exact Logic.I.
Qed.

Lemma op_gp plp v o p : Inv g vc (now v) -> op_ok vc o -> Cur v -> calm (now v) o ->
  op_v g o (now v) = Some p -> gp g plp p v.
Proof.
  intros I A HC N E.
  destruct o as [fast m promo vs r d|fast m promo seqc vs r|step r dv|cs|c|cs]; cbn [op_v] in E;
    try discriminate; injection E as <-.
  - destruct A as [_ A]. assert (G : gp g plp (write_v g m promo vs r d (now v)) v).
    { apply gp_write; try assumption. }
    destruct fast; [|exact G]. unfold write_fast_v. destruct (is_mapped g (now v) r); [apply gp_wb|exact G].
  - destruct A as [_ A]. assert (G : gp g plp (read_v g m promo seqc vs r (now v)) v) by now apply gp_read.
    destruct fast; [|exact G]. unfold read_fast_v. destruct (is_hit g (now v) r); [exact Logic.I|exact G].
  - apply gp_clean; try assumption. intros. exact Logic.I.
  - destruct (line_dirty g (now v) c) eqn:L; [exact Logic.I|]. cbn [gp]. split; [|exact Logic.I].
    intros c' cid cl o Ho Rd. left. apply same_keeps; try assumption. now apply (drop_ok g vc W).
  - cbn [gp]. tauto.
Qed.
End S.

(** Data path: correctness and crash safety of the engines, one lemma each. *)
From Coq Require Import NArith List Bool Lia.
From Verif Require Import DpModel DpProofs DpInv.
Import ListNotations.
Open Scope N_scope.

Definition inreq (r : req) (cid x : N) : Prop := cid = rc r /\ ra r <= x /\ x <= rlast r.

Lemma inreq_dec r cid x : inreq r cid x \/ ~ inreq r cid x.
Proof.
  unfold inreq. destruct (N.eq_dec cid (rc r)); [|right; tauto].
  destruct (N.le_gt_cases (ra r) x); [|right; lia].
  destruct (N.le_gt_cases x (rlast r)); [left; tauto|right; lia].
Qed.

Definition inslot (g : cfg) (s : st) (r : req) (c o : N) : Prop :=
  exists cl, tbl s c = Some (rc r, cl) /\ cl_first g r <= cl /\ cl <= cl_last g r /\
    sstart g r cl <= o /\ o <= send g r cl.

Definition allow (f : N -> N -> N) (r : req) (d : N -> N) (cid x v : N) : Prop :=
  v = f cid x \/ (inreq r cid x /\ v = d x).

Definition written (f : N -> N -> N) (r : req) (d : N -> N) (h : N -> N -> N) : Prop :=
  forall cid x, (inreq r cid x -> h cid x = d x) /\ (~ inreq r cid x -> h cid x = f cid x).

Section S.
Context (g : cfg) (vc : N -> bool) (W : wf g vc).

Lemma HL : 0 < ls g. Proof. apply W. Qed.

Lemma in_slots s r cl c : Inv g vc s ->
  In (cl, c) (slots g s r) <-> cl_first g r <= cl /\ cl <= cl_last g r /\ tbl s c = Some (rc r, cl).
Proof.
  intros I. unfold slots. rewrite in_flat_map. split.
  - intros (cl' & H1 & H2). unfold cl_list in H1. apply in_rng in H1.
    destruct (lookup g s (rc r) cl') as [c'|] eqn:L; [|destruct H2].
    destruct H2 as [H2|[]]. injection H2 as -> ->. apply lookup_some in L. tauto.
  - intros (H1 & H2 & H3). exists cl. split; [now apply in_rng|].
    apply (lookup_iff g vc) in H3; [|assumption]. rewrite H3. now left.
Qed.

Lemma inslot_slots s r c o : Inv g vc s ->
  inslot g s r c o <-> exists cl, In (cl, c) (slots g s r) /\ In o (slot_rng g r cl).
Proof.
  intros I. unfold inslot, slot_rng. split.
  - intros (cl & H). exists cl. rewrite in_slots, in_rng by assumption. tauto.
  - intros (cl & H). exists cl. rewrite in_slots, in_rng in H by assumption. tauto.
Qed.

Lemma inslot_req s r c o cid cl : Inv g vc s -> 0 < rn r ->
  tbl s c = Some (cid, cl) -> o < ls g ->
  inslot g s r c o <-> inreq r cid (cl * ls g + o).
Proof.
  intros I Hn E Ho. destruct (divmod_line (ls g) cl o Ho) as [D1 D2].
  unfold inreq. rewrite (geo g r _ HL Hn), D1, D2. unfold inslot. split.
  - intros (cl' & H1 & H2). rewrite E in H1. injection H1 as -> ->. tauto.
  - intros (-> & H). exists cl. tauto.
Qed.

Lemma inslot_lt s r c o : inslot g s r c o -> o < ls g.
Proof.
  intros (cl & _ & _ & _ & _ & H). pose proof (send_lt g r cl HL). lia.
Qed.

Lemma in_cw s r d c o v : Inv g vc s ->
  In (WCache c o v) (cache_writes g s r d) <->
  inslot g s r c o /\ exists cid cl, tbl s c = Some (cid, cl) /\ v = d (cl * ls g + o).
Proof.
  intros I. unfold cache_writes. rewrite in_flat_map. split.
  - intros ([cl c'] & H1 & H2). cbn [fst snd] in H2. apply in_map_iff in H2.
    destruct H2 as (o' & H2 & H3). injection H2 as -> -> <-. split.
    + apply inslot_slots; [assumption|]. now exists cl.
    + apply in_slots in H1; [|assumption]. exists (rc r), cl. tauto.
  - intros (H & cid & cl & E & ->). apply inslot_slots in H; [|assumption].
    destruct H as (cl' & H1 & H2). exists (cl', c). split; [assumption|].
    cbn [fst snd]. apply in_map_iff. exists o. split; [|assumption].
    apply in_slots in H1; [|assumption]. destruct H1 as (_ & _ & H1). congruence.
Qed.

Lemma cw_kind s r d e : In e (cache_writes g s r d) -> exists c o v, e = WCache c o v.
Proof.
  unfold cache_writes. rewrite in_flat_map. intros (p & _ & H). apply in_map_iff in H.
  destruct H as (o & <- & _). eauto.
Qed.

Lemma in_kw r d cid x v : In (WCore cid x v) (core_writes r d) <-> inreq r cid x /\ v = d x.
Proof.
  unfold core_writes, inreq. rewrite in_map_iff. split.
  - intros (y & H & I). injection H as <- -> <-. apply in_rng in I. tauto.
  - intros ((-> & H) & ->). exists x. split; [reflexivity|]. apply in_rng. tauto.
Qed.

Lemma kw_kind r d e : In e (core_writes r d) -> exists cid x v, e = WCore cid x v.
Proof. unfold core_writes. rewrite in_map_iff. intros (y & <- & _). eauto. Qed.

Lemma in_page c : In c (page_of g c).
Proof.
  unfold page_of. apply in_rng. destruct W as (_ & He & _).
  pose proof (N.div_mod c (epp g) ltac:(lia)). assert (c mod epp g < epp g) by (apply N.mod_lt; lia).
  set (q := c / epp g) in *. set (m := c mod epp g) in *. clearbody q m.
  rewrite (N.mul_comm q). set (p := epp g * q) in *. clearbody p. lia.
Qed.

Lemma persist_all cs : all_persist (persist g cs).
Proof.
  intros e H. unfold persist in H. apply in_flat_map in H. destruct H as (c & _ & H).
  apply in_map_iff in H. destruct H as (c' & <- & _). now exists c'.
Qed.

Lemma persist_in cs c : In c cs -> In (Persist c) (persist g cs).
Proof.
  intros H. unfold persist. apply in_flat_map. exists c. split; [assumption|].
  apply in_map. apply in_page.
Qed.

Lemma persist_sub cs sub : incl sub (persist g cs) -> all_persist sub.
Proof. intros H e He. apply H in He. now apply persist_all in He. Qed.

(** Mix for states that still have (part of) the mapping of an invariant state. *)
Lemma mix_of s t (A : N -> N -> N -> Prop) : Inv g vc s ->
  (forall c, tbl t c = tbl s c \/ tbl t c = None) ->
  (forall c, ptbl t c = ptbl s c) ->
  (forall c o, pvld t c o = pvld s c o) -> (forall c o, pdrt t c o = pdrt s c o) ->
  (forall c o, o < ls g -> drt t c o = true -> vld t c o = true /\ tbl t c <> None) ->
  (forall c cid cl o, o < ls g -> tbl s c = Some (cid, cl) ->
     drt s c o = true \/ drt t c o = true -> A cid (cl * ls g + o) (cdat t c o)) ->
  (forall cid cl o, o < ls g ->
     (forall c, tbl s c = Some (cid, cl) -> drt s c o = true -> drt t c o = true -> False) ->
     A cid (cl * ls g + o) (core t cid (cl * ls g + o))) ->
  Mix g vc t A.
Proof.
  intros I Et Ep Epv Epd Hd Hv Hc. pose proof (inv_mix g vc s W I) as M.
  assert (PR : forall c k o, o < ls g -> pdirty g t c k o -> tbl s c = Some k /\ drt s c o = true).
  { intros c k o Ho [P D]. apply (inv_pd g vc s c k o I Ho). split; congruence. }
  assert (ES : forall c k, tbl t c = Some k -> tbl s c = Some k).
  { intros c k E. destruct (Et c); congruence. }
  assert (RR : forall c k o, rdirty g t c k o -> tbl s c = Some k /\ drt t c o = true).
  { intros c k o [P D]. split; [now apply ES|assumption]. }
  constructor.
  - intros c o Ho H. rewrite Epd in H. rewrite Epv, Ep. now apply (m_pd _ _ _ _ M).
  - intros c o Ho H. destruct (Hd c o Ho H) as [V T]. split; [assumption|].
    destruct (tbl t c) as [[cid cl]|] eqn:E; [|congruence]. apply ES in E.
    exists cid, cl. split; [reflexivity|]. split; [eapply (i_tc _ _ _ I)|eapply (i_rng _ _ _ I)]; eassumption.
  - intros c cid cl E. rewrite Ep in E. now apply (m_pc _ _ _ _ M) in E.
  - intros c cid cl E. apply ES in E. now apply (m_tc _ _ _ _ M) in E.
  - intros c c' k (o & Ho & H) (o' & Ho' & H').
    assert (T : tbl s c = Some k) by (destruct H as [H|H]; [apply PR in H|apply RR in H]; tauto).
    assert (T' : tbl s c' = Some k) by (destruct H' as [H'|H']; [apply PR in H'|apply RR in H']; tauto).
    eapply (i_inj _ _ _ I); eassumption.
  - intros c cid cl o Ho [H|H].
    + apply PR in H; [|assumption]. apply Hv; tauto.
    + apply RR in H. apply Hv; tauto.
  - intros cid cl o Ho H. apply Hc; [assumption|]. intros c T D D'. apply (H c). split.
    + destruct (inv_dp g vc s c (cid, cl) o I Ho (conj T D)) as [P Q].
      split; [now rewrite Ep|now rewrite Epd].
    + split; [|assumption]. destruct (Hd c o Ho D') as [_ Q].
      destruct (Et c); congruence.
Qed.

(** Invariant for states with the same mapping. *)
Lemma inv_of s t : Inv g vc s -> tbl t = tbl s ->
  (forall c o, o < ls g -> vld t c o = true -> tbl s c <> None) ->
  (forall c o, o < ls g -> drt t c o = true -> vld t c o = true) ->
  (forall c o cid cl, tbl s c = Some (cid, cl) -> o < ls g -> vld t c o = true ->
     drt t c o = false -> cdat t c o = core t cid (cl * ls g + o)) ->
  (forall c, (ptbl t c = tbl t c /\ forall o, pvld t c o = vld t c o /\ pdrt t c o = drt t c o) \/
     (ptbl t c = ptbl s c /\ forall o, o < ls g -> pvld t c o = pvld s c o /\ pdrt t c o = pdrt s c o /\
        drt t c o = drt s c o)) ->
  Inv g vc t.
Proof.
  intros I Et Hvt Hdv Hcl Hp. constructor.
  - intros c c' k. rewrite Et. apply (i_inj _ _ _ I).
  - intros c k. rewrite Et. apply (i_rng _ _ _ I).
  - intros c o Ho V. rewrite Et. now apply (Hvt c o).
  - assumption.
  - intros c o cid cl. rewrite Et. apply Hcl.
  - intros c o Ho. destruct (Hp c) as [[_ H]|[_ H]].
    + now destruct (H o).
    + destruct (H o Ho) as (_ & -> & ->). now apply (i_pd _ _ _ I).
  - intros c o Ho D. destruct (Hp c) as [[E H]|[E H]].
    + destruct (H o) as [-> _]. split; [assumption|]. now apply Hdv.
    + destruct (H o Ho) as (-> & _ & Ed). rewrite E, Et. apply (i_pt _ _ _ I); [assumption|congruence].
  - intros c cid cl E. destruct (Hp c) as [[E' _]|[E' _]]; rewrite E' in E.
    + rewrite Et in E. apply W. eapply (i_tc _ _ _ I); eassumption.
    + eapply (i_pc _ _ _ I); eassumption.
  - intros c cid cl. rewrite Et. apply (i_tc _ _ _ I).
Qed.

(** Sector-wise case analysis on an address. *)
Lemma by_line (P : N -> Prop) : (forall cl o, o < ls g -> P (cl * ls g + o)) -> forall x, P x.
Proof.
  intros H x. pose proof HL. rewrite (N.div_mod x (ls g)) by lia. rewrite N.mul_comm. apply H.
  apply N.mod_lt. lia.
Qed.

(** [is_mapped]: every line of the range is mapped. *)
Lemma mapped_all s r cl : is_mapped g s r = true -> cl_first g r <= cl -> cl <= cl_last g r ->
  exists c, tbl s c = Some (rc r, cl).
Proof.
  intros H H1 H2. unfold is_mapped in H. rewrite forallb_forall in H.
  specialize (H cl). unfold cl_list, slot_mapped in H.
  destruct (lookup g s (rc r) cl) as [c|] eqn:L.
  - exists c. now apply lookup_some in L.
  - discriminate H. now apply in_rng.
Qed.

Lemma unmapped_outside s r cid cl o : 0 < rn r -> is_mapped g s r = true -> o < ls g ->
  (forall c, tbl s c <> Some (cid, cl)) -> ~ inreq r cid (cl * ls g + o).
Proof.
  intros Hn H Ho U (-> & A). destruct (divmod_line (ls g) cl o Ho) as [D1 D2].
  rewrite (geo g r _ HL Hn), D1 in A.
  destruct (mapped_all s r cl H) as [c E]; try tauto. now apply (U c).
Qed.

Lemma hit_slot s r c o : Inv g vc s -> is_hit g s r = true -> inslot g s r c o -> vld s c o = true.
Proof.
  intros I H (cl & E & H1 & H2 & H3 & H4). unfold is_hit in H. rewrite forallb_forall in H.
  specialize (H cl ltac:(now apply in_rng)). unfold slot_hit in H.
  apply (lookup_iff g vc) in E; [|assumption]. rewrite E in H.
  rewrite forallb_rng in H. now apply H.
Qed.

Lemma hit_mapped s r : is_hit g s r = true -> is_mapped g s r = true.
Proof.
  unfold is_hit, is_mapped. rewrite !forallb_forall. intros H cl Hc. specialize (H cl Hc).
  unfold slot_hit in H. unfold slot_mapped. destruct (lookup g s (rc r) cl); congruence.
Qed.

Lemma dirty_all_slot s r c o : Inv g vc s -> is_dirty_all g s r = true -> inslot g s r c o ->
  drt s c o = true.
Proof.
  intros I H (cl & E & H1 & H2 & H3 & H4). unfold is_dirty_all in H. rewrite forallb_forall in H.
  specialize (H cl ltac:(now apply in_rng)). unfold slot_dirty_all in H.
  apply (lookup_iff g vc) in E; [|assumption]. rewrite E in H.
  rewrite forallb_rng in H. now apply H.
Qed.

Lemma in_per_slot s r F m : Inv g vc s ->
  In m (per_slot g s r F) <-> exists cl c, tbl s c = Some (rc r, cl) /\ cl_first g r <= cl /\
    cl <= cl_last g r /\ In m (F c (sstart g r cl) (send g r cl)).
Proof.
  intros I. unfold per_slot. rewrite in_flat_map. split.
  - intros ([cl c] & H1 & H2). apply in_slots in H1; [|assumption]. exists cl, c. tauto.
  - intros (cl & c & H). exists (cl, c). rewrite in_slots by assumption. tauto.
Qed.

Lemma setv_spec s r t : Inv g vc s -> let u := do_mems g (set_valid g s r) t in
  tbl u = tbl t /\ drt u = drt t /\
  (forall c o, vld u c o = true <-> vld t c o = true \/ inslot g s r c o).
Proof.
  intros I u. destruct (mems_setv g (set_valid g s r) t) as (E1 & E2 & E3).
  { intros e H. unfold set_valid in H. apply in_per_slot in H; [|assumption].
    destruct H as (cl & c & _ & _ & _ & [<-|[]]). eauto. }
  split; [exact E1|]. split; [exact E2|]. intros c o. unfold u. rewrite E3.
  assert (Q : (exists a b, In (SetV c a b) (set_valid g s r) /\ a <= o /\ o <= b) <-> inslot g s r c o).
  { unfold inslot. split.
    - intros (a & b & H & L). unfold set_valid in H. apply in_per_slot in H; [|assumption].
      destruct H as (cl & c' & T & L1 & L2 & [H|[]]). injection H as -> <- <-. exists cl. tauto.
    - intros (cl & H). exists (sstart g r cl), (send g r cl). split; [|tauto].
      unfold set_valid. apply in_per_slot; [assumption|]. exists cl, c. cbn. tauto. }
  rewrite Q. tauto.
Qed.

Lemma setd_spec s r t : Inv g vc s -> let u := do_mems g (set_dirty g s r) t in
  tbl u = tbl t /\ vld u = vld t /\
  (forall c o, drt u c o = true <-> drt t c o = true \/ inslot g s r c o).
Proof.
  intros I u. destruct (mems_setd g (set_dirty g s r) t) as (E1 & E2 & E3).
  { intros e H. unfold set_dirty in H. apply in_per_slot in H; [|assumption].
    destruct H as (cl & c & _ & _ & _ & [<-|[]]). eauto. }
  split; [exact E1|]. split; [exact E2|]. intros c o. unfold u. rewrite E3.
  assert (Q : (exists a b, In (SetD c a b) (set_dirty g s r) /\ a <= o /\ o <= b) <-> inslot g s r c o).
  { unfold inslot. split.
    - intros (a & b & H & L). unfold set_dirty in H. apply in_per_slot in H; [|assumption].
      destruct H as (cl & c' & T & L1 & L2 & [H|[]]). injection H as -> <- <-. exists cl. tauto.
    - intros (cl & H). exists (sstart g r cl), (send g r cl). split; [|tauto].
      unfold set_dirty. apply in_per_slot; [assumption|]. exists cl, c. cbn. tauto. }
  rewrite Q. tauto.
Qed.

Lemma setc_spec s r t : Inv g vc s -> let u := do_mems g (set_clean g s r) t in
  tbl u = tbl t /\ vld u = vld t /\
  (forall c o, drt u c o = true <-> drt t c o = true /\ ~ inslot g s r c o).
Proof.
  intros I u. destruct (mems_setc g (set_clean g s r) t) as (E1 & E2 & E3).
  { intros e H. unfold set_clean in H. apply in_per_slot in H; [|assumption].
    destruct H as (cl & c & _ & _ & _ & [<-|[]]). eauto. }
  split; [exact E1|]. split; [exact E2|]. intros c o. unfold u. rewrite E3.
  assert (Q : (forall a b, In (SetC c a b) (set_clean g s r) -> ~ (a <= o /\ o <= b)) <-> ~ inslot g s r c o).
  { unfold inslot. split.
    - intros H (cl & T). apply (H (sstart g r cl) (send g r cl)); [|tauto].
      unfold set_clean. apply in_per_slot; [assumption|]. exists cl, c. cbn. tauto.
    - intros H a b I' L. apply H. unfold set_clean in I'. apply in_per_slot in I'; [|assumption].
      destruct I' as (cl & c' & T & L1 & L2 & [H'|[]]). injection H' as -> <- <-. exists cl. tauto. }
  rewrite Q. tauto.
Qed.

Lemma marked_dirty_not s r c o : Inv g vc s -> ~ In c (mark_dirty g s r) -> inslot g s r c o ->
  drt s c o = true.
Proof.
  intros I H S. apply inslot_slots in S; [|assumption]. destruct S as (cl & S1 & S2).
  destruct (drt s c o) eqn:D; [reflexivity|]. exfalso. apply H. unfold mark_dirty.
  apply in_map_iff. exists (cl, c). split; [reflexivity|]. apply filter_In. split; [assumption|].
  cbn [fst snd]. apply negb_true_iff. destruct (forallb _ _) eqn:F; [|reflexivity].
  rewrite forallb_forall in F. rewrite F in D by assumption. discriminate.
Qed.

Lemma marked_clean_not s r c o : Inv g vc s -> ~ In c (mark_clean g s r) -> inslot g s r c o ->
  drt s c o = false.
Proof.
  intros I H S. apply inslot_slots in S; [|assumption]. destruct S as (cl & S1 & S2).
  destruct (drt s c o) eqn:D; [|reflexivity]. exfalso. apply H. unfold mark_clean.
  apply in_map_iff. exists (cl, c). split; [reflexivity|]. apply filter_In. split; [assumption|].
  cbn [fst snd]. apply existsb_exists. exists o. tauto.
Qed.

Lemma bool_iff_eq (a b : bool) : (a = true <-> b = true) -> a = b.
Proof. destruct a, b; intuition congruence. Qed.

(** Cache writes executed (all / some of them). *)
Lemma cw_part s r d sub : Inv g vc s -> 0 < rn r -> incl sub (cache_writes g s r d) ->
  let t := do_ios sub s in
  (forall cid x, core t cid x = core s cid x) /\
  (forall c, ptbl t c = ptbl s c) /\ (forall c o, pvld t c o = pvld s c o) /\
  (forall c o, pdrt t c o = pdrt s c o) /\
  (forall c cid cl o, tbl s c = Some (cid, cl) -> o < ls g ->
     cdat t c o = cdat s c o \/ (inreq r cid (cl * ls g + o) /\ cdat t c o = d (cl * ls g + o))).
Proof.
  intros I Hn Hs t.
  assert (NM : forall c, ~ In (Persist c) sub).
  { intros c H. apply Hs, cw_kind in H. destruct H as (? & ? & ? & H). discriminate. }
  split.
  { intros. apply ios_nocore. intros v H. apply Hs, cw_kind in H. destruct H as (? & ? & ? & H). discriminate. }
  split; [intros c; now apply ios_nometa|].
  split; [intros c; now apply ios_nometa|].
  split; [intros c; now apply ios_nometa|].
  intros c cid cl o E Ho. destruct (ios_cdat sub s c o) as [[H _]|(v & H1 & H2)].
  - left. exact H.
  - right. apply Hs in H1. apply in_cw in H1; [|assumption]. destruct H1 as (H1 & cid' & cl' & E' & ->).
    rewrite E in E'. injection E' as <- <-. split; [|exact H2].
    now apply (inslot_req s r c o cid cl).
Qed.

Lemma cw_full s r d es : Inv g vc s ->
  (forall e, In e es <-> In e (cache_writes g s r d)) ->
  let t := do_ios es s in
  (forall c o cid cl, tbl s c = Some (cid, cl) -> inslot g s r c o -> cdat t c o = d (cl * ls g + o)) /\
  (forall c o, ~ inslot g s r c o -> cdat t c o = cdat s c o).
Proof.
  intros I He t. split.
  - intros c o cid cl E S. destruct (ios_cdat es s c o) as [[_ H]|(v & H1 & H2)].
    + exfalso. apply (H (d (cl * ls g + o))). apply He. apply in_cw; [assumption|].
      split; [assumption|]. now exists cid, cl.
    + apply He in H1. apply in_cw in H1; [|assumption]. destruct H1 as (_ & cid' & cl' & E' & ->).
      rewrite E in E'. injection E' as <- <-. exact H2.
  - intros c o S. apply ios_nocache. intros v H. apply He in H.
    apply in_cw in H; [|assumption]. tauto.
Qed.

Lemma drt_mapped s c o : Inv g vc s -> o < ls g -> drt s c o = true -> tbl s c <> None.
Proof. intros I Ho D. apply (i_vt _ _ _ I c o Ho). now apply (i_dv _ _ _ I). Qed.

(** ** Write-back. *)
Lemma wb_ok s r d f : Inv g vc s -> 0 < rn r -> is_mapped g s r = true ->
  (forall cid x, abs g s cid x = f cid x) ->
  wp g (wb_do g r d s) s (fun t => Mix g vc t (allow f r d))
    (fun _ t => Inv g vc t /\ written f r d (abs g t)).
Proof.
  intros I Hn HM Hf. unfold wb_do. cbn [wp].
  pose proof HL as HL.
  split.
  { intros sub Hs. destruct (cw_part s r d sub I Hn Hs) as (E1 & E2 & E3 & E4 & E5).
    destruct (ios_ram sub s) as (R1 & R2 & R3).
    apply (mix_of s); try assumption.
    - intros c. left. congruence.
    - intros c o Ho D. rewrite R3 in D. rewrite R2, R1. split; [now apply (i_dv _ _ _ I)|].
      eapply drt_mapped; eassumption.
    - intros c cid cl o Ho E D. rewrite R3 in D.
      assert (D' : drt s c o = true) by tauto.
      destruct (E5 c cid cl o E Ho) as [H|[H1 H2]].
      + left. rewrite H, <- Hf. symmetry. eapply abs_dirty; try eassumption. now split.
      + right. tauto.
    - intros cid cl o Ho H. rewrite E1. left. rewrite <- Hf. symmetry.
      eapply abs_clean; try eassumption. intros c [T D]. apply (H c T D). now rewrite R3. }
  intros es He.
  destruct (cw_part s r d es I Hn (fun e => proj1 (He e))) as (E1 & E2 & E3 & E4 & E5).
  destruct (cw_full s r d es I He) as [F1 F2].
  destruct (ios_ram es s) as (R1 & R2 & R3).
  set (s1 := do_ios es s) in *.
  set (ms := (if is_hit g s r then [] else set_valid g s r) ++
             (if is_dirty_all g s r then [] else set_dirty g s r)).
  destruct (mem_dev g ms s1) as (D1 & D2 & D3 & D4 & D5).
  assert (Hms : tbl (do_mems g ms s1) = tbl s /\
    (forall c o, vld (do_mems g ms s1) c o = true <-> vld s c o = true \/ inslot g s r c o) /\
    (forall c o, drt (do_mems g ms s1) c o = true <-> drt s c o = true \/ inslot g s r c o)).
  { unfold ms. rewrite mems_app.
    set (s1' := do_mems g (if is_hit g s r then [] else set_valid g s r) s1).
    assert (A1 : tbl s1' = tbl s /\ drt s1' = drt s /\
      forall c o, vld s1' c o = true <-> vld s c o = true \/ inslot g s r c o).
    { unfold s1'. destruct (is_hit g s r) eqn:HH.
      - cbn. split; [assumption|]. split; [assumption|]. intros c o. rewrite R2.
        split; [tauto|]. intros [V|V]; [assumption|]. now apply (hit_slot s r).
      - destruct (setv_spec s r s1 I) as (B1 & B2 & B3). rewrite B1, B2.
        split; [assumption|]. split; [assumption|]. intros c o. rewrite B3, R2. tauto. }
    destruct A1 as (A1 & A2 & A3).
    destruct (is_dirty_all g s r) eqn:HD.
    - cbn. split; [assumption|]. split; [assumption|]. intros c o. rewrite A2.
      split; [tauto|]. intros [V|V]; [assumption|]. now apply (dirty_all_slot s r).
    - destruct (setd_spec s r s1' I) as (B1 & B2 & B3). rewrite B1, B2.
      split; [assumption|]. split; [assumption|]. intros c o. rewrite B3, A2. tauto. }
  destruct Hms as (T2 & V2 & Dr2).
  set (s2 := do_mems g ms s1) in *.
  assert (IM : forall c o, inslot g s r c o -> tbl s c <> None).
  { intros c o (cl & E & _). congruence. }
  assert (M2 : Mix g vc s2 (allow f r d)).
  { apply (mix_of s); try assumption.
    - intros c. left. congruence.
    - intros c. rewrite D3. apply E2.
    - intros c o. rewrite D4. apply E3.
    - intros c o. rewrite D5. apply E4.
    - intros c o Ho D. apply Dr2 in D. rewrite V2, T2. split.
      + destruct D as [D|D]; [left; now apply (i_dv _ _ _ I)|tauto].
      + destruct D as [D|D]; [eapply drt_mapped; eassumption|now apply (IM c o)].
    - intros c cid cl o Ho E D.
      assert (D' : drt s c o = true \/ inslot g s r c o) by (rewrite Dr2 in D; tauto).
      rewrite D2. destruct (inreq_dec r cid (cl * ls g + o)) as [Q|Q].
      + right. split; [assumption|]. apply (F1 c o cid cl E).
        now apply (inslot_req s r c o cid cl).
      + assert (Q' : ~ inslot g s r c o) by (now rewrite (inslot_req s r c o cid cl)).
        left. rewrite F2 by assumption. rewrite <- Hf. symmetry.
        eapply abs_dirty; try eassumption. split; tauto.
    - intros cid cl o Ho H. rewrite D1, E1. left. rewrite <- Hf. symmetry.
      eapply abs_clean; try eassumption. intros c [T D]. apply (H c T D). apply Dr2. tauto. }
  split; [apply (mix_of s); try assumption|].
  { intros c. left. congruence. }
  { intros c o Ho D. rewrite R3 in D. rewrite R2, R1. split; [now apply (i_dv _ _ _ I)|].
    eapply drt_mapped; eassumption. }
  { intros c cid cl o Ho E D. rewrite R3 in D. assert (D' : drt s c o = true) by tauto.
    destruct (E5 c cid cl o E Ho) as [H|[H1 H2]].
    + left. rewrite H, <- Hf. symmetry. eapply abs_dirty; try eassumption. now split.
    + right. tauto. }
  { intros cid cl o Ho H. rewrite E1. left. rewrite <- Hf. symmetry.
    eapply abs_clean; try eassumption. intros c [T D]. apply (H c T D). now rewrite R3. }
  (* final state: [t] = s2 after persisting the marked lines *)
  assert (FIN : forall t, tbl t = tbl s2 -> vld t = vld s2 -> drt t = drt s2 ->
    (forall c o, cdat t c o = cdat s2 c o) -> (forall cid x, core t cid x = core s2 cid x) ->
    (forall c, (ptbl t c = tbl t c /\ forall o, pvld t c o = vld t c o /\ pdrt t c o = drt t c o) \/
       (~ In c (mark_dirty g s r) /\ ptbl t c = ptbl s2 c /\
        forall o, pvld t c o = pvld s2 c o /\ pdrt t c o = pdrt s2 c o)) ->
    Inv g vc t /\ written f r d (abs g t)).
  { intros t Q1 Q2 Q3 Q4 Q5 Q6.
    assert (It : Inv g vc t).
    { apply (inv_of s); try assumption.
      - congruence.
      - intros c o Ho V. rewrite Q2 in V. apply V2 in V.
        destruct V as [V|V]; [now apply (i_vt _ _ _ I c o)|now apply (IM c o)].
      - intros c o Ho D. rewrite Q3 in D. rewrite Q2. apply V2. apply Dr2 in D.
        destruct D as [D|D]; [left; now apply (i_dv _ _ _ I)|tauto].
      - intros c o cid cl E Ho V D. rewrite Q2 in V. rewrite Q3 in D. apply V2 in V.
        assert (ND : ~ (drt s c o = true \/ inslot g s r c o)) by (rewrite <- Dr2; congruence).
        rewrite Q4, Q5, D2, D1, E1, F2 by tauto.
        apply (i_cl _ _ _ I); try assumption; [tauto|]. destruct (drt s c o); [tauto|reflexivity].
      - intros c. destruct (Q6 c) as [H|(NM & H1 & H2)]; [now left|]. right.
        split; [now rewrite H1, D3, E2|]. intros o Ho. destruct (H2 o) as [-> ->].
        rewrite D4, D5, E3, E4. repeat split. rewrite Q3. apply bool_iff_eq. rewrite Dr2.
        split; [|tauto]. intros [D|D]; [assumption|]. now apply (marked_dirty_not s r). }
    split; [assumption|]. intros cid. apply (by_line (fun x =>
      (inreq r cid x -> abs g t cid x = d x) /\ (~ inreq r cid x -> abs g t cid x = f cid x))).
    intros cl o Ho. destruct (mapped_dec g vc s cid cl I) as [[c E]|E].
    - assert (Et : tbl t c = Some (cid, cl)) by congruence.
      rewrite (abs_mapped g vc t c cid cl o It HL Et Ho).
      rewrite Q2, Q4, Q5, D2, D1, E1. split; intros Q.
      + apply (inslot_req s r c o cid cl I Hn E Ho) in Q.
        replace (vld s2 c o) with true by (symmetry; apply V2; tauto).
        now apply (F1 c o cid cl).
      + assert (Q' : ~ inslot g s r c o) by (now rewrite (inslot_req s r c o cid cl)).
        rewrite <- Hf, (abs_mapped g vc s c cid cl o I HL E Ho), F2 by assumption.
        replace (vld s2 c o) with (vld s c o); [reflexivity|].
        apply bool_iff_eq. rewrite V2. tauto.
    - split; intros Q.
      + exfalso. now apply (unmapped_outside s r cid cl o Hn HM Ho E).
      + rewrite abs_unmapped; [|assumption|congruence]. rewrite Q5, D1, E1, <- Hf.
        symmetry. now apply abs_unmapped. }
  assert (NOP : mark_dirty g s r = [] \/ is_dirty_all g s r = true -> Inv g vc s2 /\ written f r d (abs g s2)).
  { intros H. apply FIN; try reflexivity. intros c.
    destruct H as [H|H].
    - right. rewrite H. repeat split. intros [].
    - right. split; [|split; [reflexivity|intros o; split; reflexivity]].
      unfold mark_dirty. intros C. apply in_map_iff in C. destruct C as ([cl c'] & C1 & C2).
      cbn in C1. subst c'. apply filter_In in C2. destruct C2 as [C2 C3]. cbn [fst snd] in C3.
      apply negb_true_iff in C3. assert (C4 : forallb (drt s c) (slot_rng g r cl) = true); [|congruence].
      apply forallb_forall. intros o Ho. apply (dirty_all_slot s r c o I H).
      apply inslot_slots; [assumption|]. exists cl. tauto. }
  destruct (is_dirty_all g s r) eqn:HD.
  { cbn [wp]. split; [assumption|]. apply NOP. now right. }
  destruct (mark_dirty g s r) as [|m0 ml] eqn:HMk.
  { cbn [wp]. split; [assumption|]. apply NOP. now left. }
  cbn [wp]. split.
  { intros sub Hs. apply mix_persist; [|assumption]. eapply persist_sub; eassumption. }
  intros es' He'.
  assert (AP : all_persist es') by (intros e H; apply He' in H; now apply persist_all in H).
  assert (M3 : Mix g vc (do_ios es' s2) (allow f r d)) by (now apply mix_persist).
  split; [assumption|].
  destruct (ios_ram es' s2) as (P1 & P2 & P3).
  apply FIN; try assumption.
  - intros. apply ios_nocache. intros v H. apply AP in H. destruct H; discriminate.
  - intros. apply ios_nocore. intros v H. apply AP in H. destruct H; discriminate.
  - intros c. destruct (ios_meta es' s2 c) as [(_ & Z1 & Z2 & Z3)|(Nn & Z1 & Z2 & Z3)].
    + left. rewrite P1. split; [assumption|]. intros o. rewrite P2, P3. split; [apply Z2|apply Z3].
    + right. split; [|split; [assumption|intros o; split; [apply Z2|apply Z3]]].
      intros C. apply Nn. apply He'. apply persist_in. assumption.
Qed.
End S.

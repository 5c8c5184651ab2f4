(** Data path: invariant, crash condition, recovery. *)
From Coq Require Import NArith List Bool Lia.
From Verif Require Import DpModel DpProofs.
Import ListNotations.
Open Scope N_scope.

Definition abs (g : cfg) (s : st) (cid x : N) : N :=
  match lookup g s cid (x / ls g) with
  | Some c => if vld s c (x mod ls g) then cdat s c (x mod ls g) else core s cid x
  | None => core s cid x
  end.

Definition wf (g : cfg) (vc : N -> bool) : Prop :=
  0 < ls g /\ 0 < epp g /\ forall cid, vc cid = true -> cid < core_max.

Record Inv (g : cfg) (vc : N -> bool) (s : st) : Prop := {
  i_inj : forall c c' k, tbl s c = Some k -> tbl s c' = Some k -> c = c';
  i_rng : forall c k, tbl s c = Some k -> In c (all_lines g);
  i_vt : forall c o, o < ls g -> vld s c o = true -> tbl s c <> None;
  i_dv : forall c o, o < ls g -> drt s c o = true -> vld s c o = true;
  i_cl : forall c o cid cl, tbl s c = Some (cid, cl) -> o < ls g ->
    vld s c o = true -> drt s c o = false -> cdat s c o = core s cid (cl * ls g + o);
  i_pd : forall c o, o < ls g -> pdrt s c o = drt s c o;
  i_pt : forall c o, o < ls g -> drt s c o = true -> ptbl s c = tbl s c /\ pvld s c o = true;
  i_pc : forall c cid cl, ptbl s c = Some (cid, cl) -> cid < core_max;
  i_tc : forall c cid cl, tbl s c = Some (cid, cl) -> vc cid = true }.

(** The entry of line [c], on the device or in memory, claims a dirty sector of key [k]. *)
Definition pdirty (g : cfg) (s : st) (c : N) (k : N * N) (o : N) : Prop :=
  ptbl s c = Some k /\ pdrt s c o = true.
Definition rdirty (g : cfg) (s : st) (c : N) (k : N * N) (o : N) : Prop :=
  tbl s c = Some k /\ drt s c o = true.
Definition claims (g : cfg) (s : st) (c : N) (k : N * N) : Prop :=
  exists o, o < ls g /\ (pdirty g s c k o \/ rdirty g s c k o).

(** From this state, a crash now - or after any more metadata entries have
    been persisted - leads to a recovery in which every sector has an allowed
    value. *)
Record Mix (g : cfg) (vc : N -> bool) (s : st) (A : N -> N -> N -> Prop) : Prop := {
  m_pd : forall c o, o < ls g -> pdrt s c o = true ->
    pvld s c o = true /\ exists cid cl, ptbl s c = Some (cid, cl) /\ vc cid = true /\ In c (all_lines g);
  m_rd : forall c o, o < ls g -> drt s c o = true ->
    vld s c o = true /\ exists cid cl, tbl s c = Some (cid, cl) /\ vc cid = true /\ In c (all_lines g);
  m_pc : forall c cid cl, ptbl s c = Some (cid, cl) -> cid < core_max;
  m_tc : forall c cid cl, tbl s c = Some (cid, cl) -> cid < core_max;
  m_u : forall c c' k, claims g s c k -> claims g s c' k -> c = c';
  m_v : forall c cid cl o, o < ls g -> pdirty g s c (cid, cl) o \/ rdirty g s c (cid, cl) o ->
    A cid (cl * ls g + o) (cdat s c o);
  m_c : forall cid cl o, o < ls g ->
    (forall c, ~ (pdirty g s c (cid, cl) o /\ rdirty g s c (cid, cl) o)) ->
    A cid (cl * ls g + o) (core s cid (cl * ls g + o)) }.

Lemma mix_weaken g vc s (A B : N -> N -> N -> Prop) :
  (forall cid x v, A cid x v -> B cid x v) -> Mix g vc s A -> Mix g vc s B.
Proof.
  intros H M. destruct M. constructor; try assumption; intros; apply H; auto.
Qed.

Lemma ios_nocore es s cid x : (forall v, ~ In (WCore cid x v) es) ->
  core (do_ios es s) cid x = core s cid x.
Proof. intros H. destruct (ios_core es s cid x) as [[E _]|(v & I & _)]; [exact E|]. now apply H in I. Qed.
Lemma ios_nocache es s c o : (forall v, ~ In (WCache c o v) es) ->
  cdat (do_ios es s) c o = cdat s c o.
Proof. intros H. destruct (ios_cdat es s c o) as [[E _]|(v & I & _)]; [exact E|]. now apply H in I. Qed.
Lemma ios_nometa es s c : ~ In (Persist c) es ->
  ptbl (do_ios es s) c = ptbl s c /\ (forall o, pvld (do_ios es s) c o = pvld s c o) /\
  (forall o, pdrt (do_ios es s) c o = pdrt s c o).
Proof. intros H. destruct (ios_meta es s c) as [[I _]|(_ & E)]; [tauto|exact E]. Qed.

Definition all_persist (es : list io) : Prop := forall e, In e es -> exists c, e = Persist c.

Lemma mix_persist g vc s A es : all_persist es -> Mix g vc s A -> Mix g vc (do_ios es s) A.
Proof.
  intros HP M.
  destruct (ios_ram es s) as (Et & Ev & Ed).
  assert (Ec : forall cid x, core (do_ios es s) cid x = core s cid x).
  { intros. apply ios_nocore. intros v I. apply HP in I. destruct I; discriminate. }
  assert (Eq : forall c o, cdat (do_ios es s) c o = cdat s c o).
  { intros. apply ios_nocache. intros v I. apply HP in I. destruct I; discriminate. }
  assert (Hpd : forall c k o, pdirty g (do_ios es s) c k o -> pdirty g s c k o \/ rdirty g s c k o).
  { intros c k o [P1 P2]. destruct (ios_meta es s c) as [(_ & E1 & E2 & E3)|(_ & E1 & E2 & E3)].
    - right. split; congruence.
    - left. split; congruence. }
  assert (Hrd : forall c k o, rdirty g (do_ios es s) c k o <-> rdirty g s c k o).
  { intros. unfold rdirty. now rewrite Et, Ed. }
  assert (Hb : forall c k o, pdirty g s c k o -> rdirty g s c k o -> pdirty g (do_ios es s) c k o).
  { intros c k o [P1 P2] [R1 R2].
    destruct (ios_meta es s c) as [(_ & E1 & E2 & E3)|(_ & E1 & E2 & E3)]; split; congruence. }
  assert (Hcl : forall c k, claims g (do_ios es s) c k -> claims g s c k).
  { intros c k (o & Ho & H). exists o. split; [assumption|].
    destruct H as [H|H]; [now apply Hpd|right; now apply Hrd]. }
  constructor.
  - intros c o Ho H. destruct (ios_meta es s c) as [(_ & E1 & E2 & E3)|(_ & E1 & E2 & E3)].
    + rewrite E3 in H. rewrite E2, E1. now apply (m_rd _ _ _ _ M).
    + rewrite E3 in H. rewrite E2, E1. now apply (m_pd _ _ _ _ M).
  - intros c o Ho H. rewrite Ed in H. rewrite Ev, Et. now apply (m_rd _ _ _ _ M).
  - intros c cid cl H. destruct (ios_meta es s c) as [(_ & E1 & _)|(_ & E1 & _)]; rewrite E1 in H.
    + eapply (m_tc _ _ _ _ M); eassumption.
    + eapply (m_pc _ _ _ _ M); eassumption.
  - intros c cid cl H. rewrite Et in H. eapply (m_tc _ _ _ _ M); eassumption.
  - intros c c' k H1 H2. apply (m_u _ _ _ _ M c c' k); now apply Hcl.
  - intros c cid cl o Ho H. rewrite Eq. apply (m_v _ _ _ _ M); [assumption|].
    destruct H as [H|H]; [now apply Hpd|right; now apply Hrd].
  - intros cid cl o Ho H. rewrite Ec. apply (m_c _ _ _ _ M); [assumption|].
    intros c [P R]. apply (H c). split; [now apply Hb|now apply Hrd].
Qed.

(** ** Lookup. *)
Lemma lookup_some g s cid cl c : lookup g s cid cl = Some c -> tbl s c = Some (cid, cl).
Proof. unfold lookup. intros H. apply find_some in H. destruct H as [_ H]. now apply keyb_true. Qed.

Lemma lookup_none g vc s cid cl : Inv g vc s -> lookup g s cid cl = None ->
  forall c, tbl s c <> Some (cid, cl).
Proof.
  intros I H c E. unfold lookup in H.
  pose proof (find_none _ _ H c (i_rng _ _ _ I c _ E)) as F. cbn in F.
  rewrite E in F. unfold keyb in F. rewrite !N.eqb_refl in F. discriminate.
Qed.

Lemma lookup_iff g vc s cid cl c : Inv g vc s ->
  lookup g s cid cl = Some c <-> tbl s c = Some (cid, cl).
Proof.
  intros I. split; [apply lookup_some|]. intros E.
  destruct (lookup g s cid cl) as [c'|] eqn:L.
  - f_equal. apply lookup_some in L. eapply (i_inj _ _ _ I); eassumption.
  - exfalso. now apply (lookup_none _ _ _ _ _ I L c).
Qed.

Lemma abs_mapped g vc s c cid cl o : Inv g vc s -> 0 < ls g -> tbl s c = Some (cid, cl) -> o < ls g ->
  abs g s cid (cl * ls g + o) = if vld s c o then cdat s c o else core s cid (cl * ls g + o).
Proof.
  intros I HL E Ho. unfold abs. destruct (divmod_line (ls g) cl o Ho) as [-> ->].
  apply (lookup_iff _ _ _ _ _ _ I) in E. now rewrite E.
Qed.

Lemma abs_unmapped g s cid cl o : o < ls g -> (forall c, tbl s c <> Some (cid, cl)) ->
  abs g s cid (cl * ls g + o) = core s cid (cl * ls g + o).
Proof.
  intros Ho H. unfold abs. destruct (divmod_line (ls g) cl o Ho) as [-> ->].
  destruct (lookup g s cid cl) as [c|] eqn:L; [|reflexivity].
  apply lookup_some in L. now apply H in L.
Qed.

Lemma mapped_dec g vc s cid cl : Inv g vc s ->
  (exists c, tbl s c = Some (cid, cl)) \/ (forall c, tbl s c <> Some (cid, cl)).
Proof.
  intros I. destruct (lookup g s cid cl) as [c|] eqn:L.
  - left. exists c. now apply lookup_some in L.
  - right. now apply (lookup_none _ _ _ _ _ I L).
Qed.

Lemma abs_dirty g vc s c cid cl o : Inv g vc s -> 0 < ls g -> o < ls g ->
  rdirty g s c (cid, cl) o -> abs g s cid (cl * ls g + o) = cdat s c o.
Proof.
  intros I HL Ho [E D]. rewrite (abs_mapped _ _ _ _ _ _ _ I HL E Ho).
  now rewrite (i_dv _ _ _ I c o Ho D).
Qed.

Lemma abs_clean g vc s cid cl o : Inv g vc s -> 0 < ls g -> o < ls g ->
  (forall c, ~ rdirty g s c (cid, cl) o) ->
  abs g s cid (cl * ls g + o) = core s cid (cl * ls g + o).
Proof.
  intros I HL Ho H. destruct (mapped_dec g vc s cid cl I) as [[c E]|E].
  - rewrite (abs_mapped _ _ _ _ _ _ _ I HL E Ho). destruct (vld s c o) eqn:V; [|reflexivity].
    apply (i_cl _ _ _ I); try assumption. destruct (drt s c o) eqn:D; [|reflexivity].
    exfalso. apply (H c). now split.
  - now apply abs_unmapped.
Qed.

Lemma inv_pd g vc s c k o : Inv g vc s -> o < ls g -> pdirty g s c k o -> rdirty g s c k o.
Proof.
  intros I Ho [P D]. rewrite (i_pd _ _ _ I) in D by assumption.
  split; [|assumption]. destruct (i_pt _ _ _ I c o Ho D). congruence.
Qed.

Lemma inv_dp g vc s c k o : Inv g vc s -> o < ls g -> rdirty g s c k o -> pdirty g s c k o.
Proof.
  intros I Ho [P D]. destruct (i_pt _ _ _ I c o Ho D).
  split; [congruence|]. now rewrite (i_pd _ _ _ I).
Qed.

Lemma inv_mix g vc s : wf g vc -> Inv g vc s ->
  Mix g vc s (fun cid x v => v = abs g s cid x).
Proof.
  intros (HL & _ & Hvc) I. constructor.
  - intros c o Ho H. rewrite (i_pd _ _ _ I) in H by assumption.
    destruct (i_pt _ _ _ I c o Ho H) as [E V]. split; [assumption|].
    pose proof (i_vt _ _ _ I c o Ho (i_dv _ _ _ I c o Ho H)) as T.
    destruct (tbl s c) as [[cid cl]|] eqn:Et; [|congruence].
    exists cid, cl. split; [assumption|]. split; [eapply (i_tc _ _ _ I)|eapply (i_rng _ _ _ I)]; eassumption.
  - intros c o Ho H. pose proof (i_dv _ _ _ I c o Ho H) as V. split; [assumption|].
    pose proof (i_vt _ _ _ I c o Ho V) as T.
    destruct (tbl s c) as [[cid cl]|] eqn:Et; [|congruence].
    exists cid, cl. split; [reflexivity|]. split; [eapply (i_tc _ _ _ I)|eapply (i_rng _ _ _ I)]; eassumption.
  - apply (i_pc _ _ _ I).
  - intros c cid cl E. apply Hvc. eapply (i_tc _ _ _ I); eassumption.
  - intros c c' k (o & Ho & H) (o' & Ho' & H').
    assert (R : rdirty g s c k o) by (destruct H; [eapply inv_pd|]; eassumption).
    assert (R' : rdirty g s c' k o') by (destruct H'; [eapply inv_pd|]; eassumption).
    destruct R as [R _], R' as [R' _]. eapply (i_inj _ _ _ I); eassumption.
  - intros c cid cl o Ho H.
    assert (R : rdirty g s c (cid, cl) o) by (destruct H; [eapply inv_pd|]; eassumption).
    symmetry. eapply abs_dirty; eassumption.
  - intros cid cl o Ho H. symmetry. eapply abs_clean; try eassumption.
    intros c R. apply (H c). split; [eapply inv_dp|]; eassumption.
Qed.

Lemma keep_true g s c : 0 < ls g -> line_keep g s c = true <->
  (exists k, ptbl s c = Some k) /\ exists o, o < ls g /\ pvld s c o = true /\ pdrt s c o = true.
Proof.
  intros HL. unfold line_keep. destruct (ptbl s c) as [k|].
  - rewrite existsb_rng. split.
    + intros (o & H1 & H2 & H3). apply andb_true_iff in H3. split; [now exists k|].
      exists o. split; [lia|tauto].
    + intros (_ & o & H1 & H2 & H3). exists o. split; [lia|]. split; [lia|]. now rewrite H2, H3.
  - split; [discriminate|]. intros [[k E] _]. discriminate.
Qed.

(** Recovery from any crash state. *)
Lemma mix_recover g vc s A : wf g vc -> Mix g vc s A ->
  exists t, recover g vc s = Some t /\ Inv g vc t /\ forall cid x, A cid x (abs g t cid x).
Proof.
  intros (HL & _ & Hvc) M.
  assert (OK : forallb (line_ok g vc s) (all_lines g) = true).
  { apply forallb_forall. intros c Hc. unfold line_ok. apply andb_true_iff. split.
    - apply forallb_rng. intros o _ Ho. destruct (pdrt s c o) eqn:D; [|reflexivity].
      destruct (m_pd _ _ _ _ M c o ltac:(lia) D) as [V _]. now rewrite V.
    - destruct (ptbl s c) as [[cid cl]|] eqn:E; [|reflexivity]. apply andb_true_iff. split.
      + apply N.ltb_lt. eapply (m_pc _ _ _ _ M). eassumption.
      + destruct (line_keep g s c) eqn:K; [|reflexivity]. apply keep_true in K; [|assumption].
        destruct K as (_ & o & Ho & _ & D).
        destruct (m_pd _ _ _ _ M c o Ho D) as (_ & cid' & cl' & E' & V & _).
        rewrite E in E'. injection E' as <- <-. now rewrite V. }
  assert (KD : forall c o, o < ls g -> pdrt s c o = true -> line_keep g s c = true).
  { intros c o Ho D. apply keep_true; [assumption|].
    destruct (m_pd _ _ _ _ M c o Ho D) as (V & cid & cl & E & _).
    split; [now exists (cid, cl)|]. exists o. tauto. }
  unfold recover. rewrite OK. eexists. split; [reflexivity|].
  match goal with |- Inv g vc ?u /\ _ => set (t := u) end.
  assert (I : Inv g vc t).
  { constructor; cbn [tbl vld drt ptbl pvld pdrt core cdat t].
    - intros c c' k E E'. destruct (line_keep g s c) eqn:K; [|discriminate].
      destruct (line_keep g s c') eqn:K'; [|discriminate].
      apply keep_true in K; [|assumption]. apply keep_true in K'; [|assumption].
      destruct K as (_ & o & Ho & _ & D), K' as (_ & o' & Ho' & _ & D').
      apply (m_u _ _ _ _ M c c' k).
      + exists o. split; [assumption|]. left. now split.
      + exists o'. split; [assumption|]. left. now split.
    - intros c k E. destruct (line_keep g s c) eqn:K; [|discriminate].
      apply keep_true in K; [|assumption]. destruct K as (_ & o & Ho & _ & D).
      destruct (m_pd _ _ _ _ M c o Ho D) as (_ & _ & _ & _ & _ & R). exact R.
    - intros c o Ho V. apply andb_true_iff in V. destruct V as [K _]. rewrite K.
      apply keep_true in K; [|assumption]. destruct K as [[k E] _]. congruence.
    - intros c o Ho V. apply andb_true_iff in V. destruct V as [K D]. rewrite K, D.
      destruct (m_pd _ _ _ _ M c o Ho D) as [-> _]. reflexivity.
    - intros c o cid cl E Ho V D. apply andb_true_iff in V. destruct V as [K V].
      rewrite K in D. apply andb_true_iff in V. destruct V as [_ V]. cbn in D. congruence.
    - intros c o Ho. destruct (pdrt s c o) eqn:D; [|now rewrite andb_false_r].
      now rewrite (KD c o Ho D).
    - intros c o Ho D. apply andb_true_iff in D. destruct D as [K D]. rewrite K.
      split; [reflexivity|]. now destruct (m_pd _ _ _ _ M c o Ho D).
    - apply (m_pc _ _ _ _ M).
    - intros c cid cl E. destruct (line_keep g s c) eqn:K; [|discriminate].
      apply keep_true in K; [|assumption]. destruct K as (_ & o & Ho & _ & D).
      destruct (m_pd _ _ _ _ M c o Ho D) as (_ & cid' & cl' & E' & V & _). congruence. }
  split; [exact I|]. intros cid x.
  rewrite (N.div_mod x (ls g)) by lia.
  set (cl := x / ls g). set (o := x mod ls g).
  assert (Ho : o < ls g) by (apply N.mod_lt; lia).
  rewrite (N.mul_comm (ls g) cl).
  destruct (mapped_dec g vc t cid cl I) as [[c E]|E].
  - rewrite (abs_mapped _ _ _ _ _ _ _ I HL E Ho).
    cbn [tbl vld cdat core t] in E |- *. destruct (line_keep g s c) eqn:K; [|discriminate].
    cbn [andb]. destruct (pdrt s c o) eqn:D.
    + destruct (m_pd _ _ _ _ M c o Ho D) as [V _]. rewrite V. cbn [andb].
      apply (m_v _ _ _ _ M c cid cl o Ho). left. now split.
    + rewrite andb_false_r. apply (m_c _ _ _ _ M); [assumption|].
      intros c' [[P1 P2] _].
      assert (c' = c).
      { apply (m_u _ _ _ _ M c' c (cid, cl)).
        - exists o. split; [assumption|]. left. now split.
        - apply keep_true in K; [|assumption]. destruct K as (_ & o' & Ho' & _ & D').
          exists o'. split; [assumption|]. left. now split. }
      subst. congruence.
  - rewrite abs_unmapped by assumption. apply (m_c _ _ _ _ M); [assumption|].
    intros c [[P1 P2] _]. apply (E c). cbn [tbl t]. now rewrite (KD c o Ho P2).
Qed.

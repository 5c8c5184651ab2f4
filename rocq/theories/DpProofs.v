(** Proofs about the data path model: invariant, program logic with crash
    condition, one lemma per engine. *)
From Coq Require Import NArith List Bool Lia Permutation.
From Verif Require Import DpModel.
Import ListNotations.
Open Scope N_scope.

(** ** Semantics. *)
(** Complete run: groups of I/O in any order. *)
Inductive exec (g : cfg) : prog -> st -> (N -> N) -> st -> Prop :=
| ex_ret b s : exec g (Ret b) s b s
| ex_io es es' k s b s' :
    Permutation es es' ->
    exec g (k (do_ios es' s)) (do_ios es' s) b s' -> exec g (Io es k) s b s'
| ex_mem es k s b s' :
    exec g (k (do_mems g es s)) (do_mems g es s) b s' -> exec g (Mem es k) s b s'.

(** Interrupted run: of the group in flight any part may have reached the
    devices, in any order. *)
Inductive crashed (g : cfg) : prog -> st -> st -> Prop :=
| cr_now p s : crashed g p s s
| cr_part es sub k s : incl sub es -> crashed g (Io es k) s (do_ios sub s)
| cr_io es es' k s t :
    Permutation es es' ->
    crashed g (k (do_ios es' s)) (do_ios es' s) t -> crashed g (Io es k) s t
| cr_mem es k s t :
    crashed g (k (do_mems g es s)) (do_mems g es s) t -> crashed g (Mem es k) s t.

Fixpoint wp (g : cfg) (p : prog) (s : st) (C : st -> Prop) (Q : (N -> N) -> st -> Prop) : Prop :=
  match p with
  | Ret b => C s /\ Q b s
  | Io es k =>
      (forall sub, incl sub es -> C (do_ios sub s)) /\
      (forall es', (forall e, In e es' <-> In e es) ->
         wp g (k (do_ios es' s)) (do_ios es' s) C Q)
  | Mem es k => C s /\ wp g (k (do_mems g es s)) (do_mems g es s) C Q
  end.

Lemma wp_exec g p s b s' : exec g p s b s' ->
  forall C Q, wp g p s C Q -> Q b s'.
Proof.
  induction 1; intros C Q W; cbn in W.
  - tauto.
  - apply (IHexec C Q). apply W. intros e. split; intros.
    + eapply Permutation_in; [symmetry|]; eassumption.
    + eapply Permutation_in; eassumption.
  - apply (IHexec C Q). tauto.
Qed.

Lemma wp_now g p s C Q : wp g p s C Q -> C s.
Proof.
  destruct p; cbn; intros W; try tauto.
  destruct W as [W _]. apply (W []). intros e [].
Qed.

Lemma wp_crash g p s t : crashed g p s t ->
  forall C Q, wp g p s C Q -> C t.
Proof.
  induction 1; intros C Q W.
  - eapply wp_now; eassumption.
  - cbn in W. now apply W.
  - cbn in W. apply (IHcrashed C Q). apply W. intros e. split; intros.
    + eapply Permutation_in; [symmetry|]; eassumption.
    + eapply Permutation_in; eassumption.
  - cbn in W. apply (IHcrashed C Q). tauto.
Qed.

(** ** Basic facts. *)
Lemma in_rng x s e : In x (rng s e) <-> s <= x /\ x <= e.
Proof.
  unfold rng. rewrite in_map_iff. split.
  - intros (i & <- & Hi). apply in_seq in Hi. lia.
  - intros [H1 H2]. exists (N.to_nat (x - s)). split; [lia|]. apply in_seq. lia.
Qed.

Lemma forallb_rng f s e : forallb f (rng s e) = true <-> forall o, s <= o -> o <= e -> f o = true.
Proof.
  rewrite forallb_forall. split.
  - intros H o H1 H2. apply H. now apply in_rng.
  - intros H o Ho. apply in_rng in Ho. apply H; tauto.
Qed.

Lemma existsb_rng f s e : existsb f (rng s e) = true <-> exists o, s <= o /\ o <= e /\ f o = true.
Proof.
  rewrite existsb_exists. split.
  - intros (o & Ho & H). apply in_rng in Ho. exists o. tauto.
  - intros (o & H1 & H2 & H). exists o. split; [apply in_rng; tauto|assumption].
Qed.

Lemma existsb_rng_false f s e : existsb f (rng s e) = false <-> forall o, s <= o -> o <= e -> f o = false.
Proof.
  split.
  - intros H o H1 H2. destruct (f o) eqn:E; [|reflexivity].
    assert (existsb f (rng s e) = true) by (apply existsb_rng; exists o; tauto). congruence.
  - intros H. destruct (existsb f (rng s e)) eqn:E; [|reflexivity].
    apply existsb_rng in E. destruct E as (o & H1 & H2 & H3). rewrite H in H3 by assumption.
    discriminate.
Qed.

Lemma keyb_true k cid cl : keyb k cid cl = true <-> k = Some (cid, cl).
Proof.
  unfold keyb. destruct k as [[a b]|].
  - rewrite andb_true_iff, !N.eqb_eq. split; [intros [-> ->]; reflexivity|].
    intros E. injection E as -> ->. tauto.
  - split; discriminate.
Qed.

(** do_ios: effect on each component. *)
Lemma ios_core es s cid x :
  (core (do_ios es s) cid x = core s cid x /\ forall v, ~ In (WCore cid x v) es) \/
  (exists v, In (WCore cid x v) es /\ core (do_ios es s) cid x = v).
Proof.
  revert s. induction es as [|e es IH]; intros s; cbn [do_ios].
  - left. split; [reflexivity|intros v []].
  - destruct (IH (do_io e s)) as [[E Nn]|(v & I & E)].
    + destruct e as [cid' x' v'|c o v'|c]; cbn [do_io core] in E.
      * unfold upd2 in E. destruct ((cid =? cid') && (x =? x')) eqn:K.
        -- apply andb_true_iff in K. destruct K as [K1 K2].
           apply N.eqb_eq in K1, K2. subst. right. exists v'. split; [left; reflexivity|assumption].
        -- left. split; [assumption|]. intros v [H|H]; [|now apply (Nn v)].
           injection H as -> -> ->. rewrite !N.eqb_refl in K. discriminate.
      * left. split; [assumption|]. intros v [H|H]; [discriminate|now apply (Nn v)].
      * left. split; [assumption|]. intros v [H|H]; [discriminate|now apply (Nn v)].
    + right. exists v. split; [right; assumption|assumption].
Qed.

Lemma ios_cdat es s c o :
  (cdat (do_ios es s) c o = cdat s c o /\ forall v, ~ In (WCache c o v) es) \/
  (exists v, In (WCache c o v) es /\ cdat (do_ios es s) c o = v).
Proof.
  revert s. induction es as [|e es IH]; intros s; cbn [do_ios].
  - left. split; [reflexivity|intros v []].
  - destruct (IH (do_io e s)) as [[E Nn]|(v & I & E)].
    + destruct e as [cid' x' v'|c' o' v'|c']; cbn [do_io cdat] in E.
      * left. split; [assumption|]. intros v [H|H]; [discriminate|now apply (Nn v)].
      * unfold upd2 in E. destruct ((c =? c') && (o =? o')) eqn:K.
        -- apply andb_true_iff in K. destruct K as [K1 K2].
           apply N.eqb_eq in K1, K2. subst. right. exists v'. split; [left; reflexivity|assumption].
        -- left. split; [assumption|]. intros v [H|H]; [|now apply (Nn v)].
           injection H as -> -> ->. rewrite !N.eqb_refl in K. discriminate.
      * left. split; [assumption|]. intros v [H|H]; [discriminate|now apply (Nn v)].
    + right. exists v. split; [right; assumption|assumption].
Qed.

Lemma ios_ram es s :
  tbl (do_ios es s) = tbl s /\ vld (do_ios es s) = vld s /\ drt (do_ios es s) = drt s.
Proof.
  revert s. induction es as [|e es IH]; intros s; cbn [do_ios]; [tauto|].
  destruct (IH (do_io e s)) as (-> & -> & ->). destruct e; cbn; tauto.
Qed.

Lemma ios_meta es s c :
  (In (Persist c) es /\ ptbl (do_ios es s) c = tbl s c /\
     (forall o, pvld (do_ios es s) c o = vld s c o) /\
     (forall o, pdrt (do_ios es s) c o = drt s c o)) \/
  (~ In (Persist c) es /\ ptbl (do_ios es s) c = ptbl s c /\
     (forall o, pvld (do_ios es s) c o = pvld s c o) /\
     (forall o, pdrt (do_ios es s) c o = pdrt s c o)).
Proof.
  revert s. induction es as [|e es IH]; intros s; cbn [do_ios].
  - right. split; [intros []|]. tauto.
  - destruct (IH (do_io e s)) as [(I & E1 & E2 & E3)|(Nn & E1 & E2 & E3)].
    + left. split; [right; assumption|]. rewrite E1.
      destruct e; cbn in *; repeat split; try assumption.
    + destruct e as [cid' x' v'|c' o' v'|c']; cbn in *.
      * right. split; [intros [H|H]; [discriminate|tauto]|]. tauto.
      * right. split; [intros [H|H]; [discriminate|tauto]|]. tauto.
      * unfold upd1 in E1. destruct (c =? c') eqn:K.
        -- apply N.eqb_eq in K. subst. left. split; [left; reflexivity|].
           split; [assumption|]. split; intros o; [rewrite E2|rewrite E3]; reflexivity.
        -- right. split.
           { intros [H|H]; [|tauto]. injection H as ->. now rewrite N.eqb_refl in K. }
           split; [assumption|]. split; intros o; [rewrite E2|rewrite E3]; reflexivity.
Qed.

(** do_mems over bit updates only. *)
Lemma mems_app g a b s : do_mems g (a ++ b) s = do_mems g b (do_mems g a s).
Proof. revert s. induction a as [|e a IH]; intros s; cbn; [reflexivity|apply IH]. Qed.

Definition is_bit (e : mem) : bool :=
  match e with SetV _ _ _ | SetD _ _ _ | SetC _ _ _ => true | _ => false end.

Lemma mem_dev g es s :
  core (do_mems g es s) = core s /\ cdat (do_mems g es s) = cdat s /\
  ptbl (do_mems g es s) = ptbl s /\ pvld (do_mems g es s) = pvld s /\
  pdrt (do_mems g es s) = pdrt s.
Proof.
  revert s. induction es as [|e es IH]; intros s; cbn [do_mems]; [tauto|].
  destruct (IH (do_mem g e s)) as (-> & -> & -> & -> & ->). destruct e; cbn; tauto.
Qed.

Lemma updr_spec f c s e v x o :
  updr f c s e v x o = if ((x =? c) && (s <=? o) && (o <=? e)) then v else f x o.
Proof. reflexivity. Qed.

Lemma updr_in f c s e v o : s <= o -> o <= e -> updr f c s e v c o = v.
Proof.
  intros. unfold updr. rewrite N.eqb_refl.
  replace (s <=? o) with true by (symmetry; apply N.leb_le; assumption).
  replace (o <=? e) with true by (symmetry; apply N.leb_le; assumption). reflexivity.
Qed.

Lemma updr_cases f c s e v x o :
  (x = c /\ s <= o /\ o <= e /\ updr f c s e v x o = v) \/
  (~ (x = c /\ s <= o /\ o <= e) /\ updr f c s e v x o = f x o).
Proof.
  unfold updr. destruct (N.eqb_spec x c); cbn [andb].
  - destruct (N.leb_spec s o); cbn [andb].
    + destruct (N.leb_spec o e).
      * left. tauto.
      * right. split; [lia|reflexivity].
    + right. split; [lia|reflexivity].
  - right. split; [tauto|reflexivity].
Qed.

(** Lists of [SetV] only / [SetD] only / [SetC] only. *)
Lemma mems_setv g es s :
  (forall e, In e es -> exists c a b, e = SetV c a b) ->
  tbl (do_mems g es s) = tbl s /\ drt (do_mems g es s) = drt s /\
  forall c o, vld (do_mems g es s) c o = true <->
    vld s c o = true \/ exists a b, In (SetV c a b) es /\ a <= o /\ o <= b.
Proof.
  revert s. induction es as [|e es IH]; intros s H; cbn [do_mems].
  - repeat split; try tauto. intros [?|(a & b & [] & _)]. assumption.
  - destruct (H e (or_introl eq_refl)) as (c0 & a0 & b0 & ->).
    destruct (IH (do_mem g (SetV c0 a0 b0) s)) as (E1 & E2 & E3).
    { intros e He. apply H. now right. }
    cbn [do_mem tbl drt vld] in *. repeat split; try assumption.
    + intros V. apply E3 in V. destruct V as [V|(a & b & I & L)].
      * destruct (updr_cases (vld s) c0 a0 b0 true c o) as [(-> & ? & ? & _)|[_ U]].
        -- right. exists a0, b0. split; [left; reflexivity|tauto].
        -- left. congruence.
      * right. exists a, b. split; [right; assumption|assumption].
    + intros V. apply E3.
      destruct (updr_cases (vld s) c0 a0 b0 true c o) as [(-> & ? & ? & U)|[Nn U]].
      * now left.
      * destruct V as [V|(a & b & [I|I] & L)].
        -- left. congruence.
        -- injection I as -> -> ->. tauto.
        -- right. exists a, b. tauto.
Qed.

Lemma mems_setd g es s :
  (forall e, In e es -> exists c a b, e = SetD c a b) ->
  tbl (do_mems g es s) = tbl s /\ vld (do_mems g es s) = vld s /\
  forall c o, drt (do_mems g es s) c o = true <->
    drt s c o = true \/ exists a b, In (SetD c a b) es /\ a <= o /\ o <= b.
Proof.
  revert s. induction es as [|e es IH]; intros s H; cbn [do_mems].
  - repeat split; try tauto. intros [?|(a & b & [] & _)]. assumption.
  - destruct (H e (or_introl eq_refl)) as (c0 & a0 & b0 & ->).
    destruct (IH (do_mem g (SetD c0 a0 b0) s)) as (E1 & E2 & E3).
    { intros e He. apply H. now right. }
    cbn [do_mem tbl drt vld] in *. repeat split; try assumption.
    + intros V. apply E3 in V. destruct V as [V|(a & b & I & L)].
      * destruct (updr_cases (drt s) c0 a0 b0 true c o) as [(-> & ? & ? & _)|[_ U]].
        -- right. exists a0, b0. split; [left; reflexivity|tauto].
        -- left. congruence.
      * right. exists a, b. split; [right; assumption|assumption].
    + intros V. apply E3.
      destruct (updr_cases (drt s) c0 a0 b0 true c o) as [(-> & ? & ? & U)|[Nn U]].
      * now left.
      * destruct V as [V|(a & b & [I|I] & L)].
        -- left. congruence.
        -- injection I as -> -> ->. tauto.
        -- right. exists a, b. tauto.
Qed.

Lemma mems_setc g es s :
  (forall e, In e es -> exists c a b, e = SetC c a b) ->
  tbl (do_mems g es s) = tbl s /\ vld (do_mems g es s) = vld s /\
  forall c o, drt (do_mems g es s) c o = true <->
    drt s c o = true /\ forall a b, In (SetC c a b) es -> ~ (a <= o /\ o <= b).
Proof.
  revert s. induction es as [|e es IH]; intros s H; cbn [do_mems].
  - repeat split; try tauto.
  - destruct (H e (or_introl eq_refl)) as (c0 & a0 & b0 & ->).
    destruct (IH (do_mem g (SetC c0 a0 b0) s)) as (E1 & E2 & E3).
    { intros e He. apply H. now right. }
    cbn [do_mem tbl drt vld] in *. repeat split; try assumption.
    + apply E3 in H0. destruct H0 as [V F].
      destruct (updr_cases (drt s) c0 a0 b0 false c o) as [(-> & ? & ? & U)|[Nn U]]; congruence.
    + intros a b I L. apply E3 in H0. destruct H0 as [V F]. destruct I as [I|I].
      * injection I as -> -> ->. rewrite updr_in in V by tauto. discriminate.
      * now apply (F a b I).
    + intros [V F]. apply E3. split.
      * destruct (updr_cases (drt s) c0 a0 b0 false c o) as [(-> & ? & ? & U)|[Nn U]].
        -- exfalso. apply (F a0 b0); [left; reflexivity|tauto].
        -- congruence.
      * intros a b I. apply F. now right.
Qed.

(** Purge lists. *)
Lemma mems_purge g es s :
  (forall e, In e es -> exists c a b, e = SetC c a b \/ e = SetI c a b) ->
  let s' := do_mems g es s in
  (forall c, tbl s' c = tbl s c \/
     (tbl s' c = None /\ forall o, o <= ls g - 1 -> vld s' c o = false)) /\
  (forall c o, vld s' c o = true <->
     vld s c o = true /\ forall a b, In (SetI c a b) es -> ~ (a <= o /\ o <= b)) /\
  (forall c o, drt s' c o = true <->
     drt s c o = true /\ forall a b, In (SetC c a b) es -> ~ (a <= o /\ o <= b)).
Proof.
  revert s. induction es as [|e es IH]; intros s H; cbn [do_mems].
  - cbn. split; [intros c; now left|]. split; intros; split; tauto.
  - destruct (H e (or_introl eq_refl)) as (c0 & a0 & b0 & He).
    destruct (IH (do_mem g e s)) as (E1 & E2 & E3).
    { intros e' He'. apply H. now right. }
    split; [|split].
    + intros c. destruct (E1 c) as [E|E]; [|now right].
      destruct He as [-> | ->]; cbn [do_mem tbl vld] in *.
      * left. assumption.
      * destruct (any_valid g (updr (vld s) c0 a0 b0 false) c0) eqn:A.
        -- now left.
        -- unfold upd1 in E. destruct (N.eqb_spec c c0) as [Hc|Hc]; [subst c|now left].
           right. split; [assumption|]. intros o Ho.
           match goal with |- ?v = false => destruct v eqn:V; [|reflexivity] end.
           apply E2 in V. destruct V as [V _]. cbn [vld] in V.
           unfold any_valid in A. rewrite existsb_rng_false in A.
           rewrite A in V by lia. discriminate.
    + intros c o. rewrite E2. destruct He as [-> | ->]; cbn [do_mem vld].
      * split; intros [V F]; (split; [assumption|]); intros a b I.
        -- destruct I as [I|I]; [discriminate|]. now apply F.
        -- apply F. now right.
      * destruct (updr_cases (vld s) c0 a0 b0 false c o) as [(-> & ? & ? & U)|[Nn U]].
        -- rewrite U. split; [intros [V _]; discriminate|]. intros [_ F].
           exfalso. apply (F a0 b0); [left; reflexivity|tauto].
        -- rewrite U. split; intros [V F]; (split; [assumption|]); intros a b I.
           ++ destruct I as [I|I]; [injection I as -> -> ->; tauto|]. now apply F.
           ++ apply F. now right.
    + intros c o. rewrite E3. destruct He as [-> | ->]; cbn [do_mem drt].
      * destruct (updr_cases (drt s) c0 a0 b0 false c o) as [(-> & ? & ? & U)|[Nn U]].
        -- rewrite U. split; [intros [V _]; discriminate|]. intros [_ F].
           exfalso. apply (F a0 b0); [left; reflexivity|tauto].
        -- rewrite U. split; intros [V F]; (split; [assumption|]); intros a b I.
           ++ destruct I as [I|I]; [injection I as -> -> ->; tauto|]. now apply F.
           ++ apply F. now right.
      * split; intros [V F]; (split; [assumption|]); intros a b I.
        -- destruct I as [I|I]; [discriminate|]. now apply F.
        -- apply F. now right.
Qed.

(** ** Geometry. *)
Lemma geo g r x : 0 < ls g -> 0 < rn r ->
  (ra r <= x /\ x <= rlast r) <->
  (cl_first g r <= x / ls g /\ x / ls g <= cl_last g r /\
   sstart g r (x / ls g) <= x mod ls g /\ x mod ls g <= send g r (x / ls g)).
Proof.
  intros HL Hn. unfold cl_first, cl_last, sstart, send, cl_first, cl_last, rlast.
  set (L := ls g) in *.
  pose proof (N.div_mod x L ltac:(lia)) as Hx.
  pose proof (N.div_mod (ra r) L ltac:(lia)) as Ha.
  pose proof (N.div_mod (ra r + rn r - 1) L ltac:(lia)) as Hl.
  assert (x mod L < L) by (apply N.mod_lt; lia).
  assert (ra r mod L < L) by (apply N.mod_lt; lia).
  assert ((ra r + rn r - 1) mod L < L) by (apply N.mod_lt; lia).
  set (qx := x / L) in *. set (mx := x mod L) in *.
  set (qa := ra r / L) in *. set (ma := ra r mod L) in *.
  set (ql := (ra r + rn r - 1) / L) in *. set (ml := (ra r + rn r - 1) mod L) in *.
  destruct (N.eqb_spec qx qa) as [E1|E1]; destruct (N.eqb_spec qx ql) as [E2|E2];
    split; intros HH; repeat split; try nia.
Qed.

Lemma divmod_line L cl o : o < L -> (cl * L + o) / L = cl /\ (cl * L + o) mod L = o.
Proof.
  intros H. split.
  - symmetry. apply (N.div_unique _ _ _ o); lia.
  - symmetry. apply (N.mod_unique _ _ cl); lia.
Qed.

Lemma send_lt g r cl : 0 < ls g -> send g r cl < ls g.
Proof.
  intros H. unfold send. destruct (_ =? _); [|lia]. apply N.mod_lt. lia.
Qed.

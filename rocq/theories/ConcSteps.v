(** Every step of a request keeps the invariant of ConcProofs.v. *)
From Coq Require Import NArith List Bool Arith Lia.
From Verif Require Import ConcModel ConcSpec ConcProofs.
Import ListNotations.
Set Default Proof Using "Type*".

Section Line.
Variable n : nat.
Variable strict : bool.
Variable P : nat -> desc.
Variable c0 : nat -> V.
Notation lset := (lset n).
Notation writes := (writes n P).
Notation sdat := (sdat P c0).
Notation InvL := (InvL n P c0).
Notation Inv := (Inv n P c0).
Notation apart := (apart n P).
Notation mild := (mild strict).
Notation cv := (cv n P).
Notation wc := (wc n P).
Notation TP := (TP n P).
Notation may := (may P c0).
Notation nb := (nb n P).
Notation okr := (okr n P c0).
Notation go := (go n strict P).
Notation step := (step n strict P).

Lemma none_left_spec q : none_left n q = true -> forall x, x < n -> q x = false.
Proof.
  unfold none_left, secs. rewrite forallb_forall. intros H x Hx. specialize (H x). rewrite in_seq in H.
  destruct (q x); [|reflexivity]. assert (K : negb true = true) by (apply H; lia). discriminate.
Qed.
Lemma all_valid_spec s r x : all_valid n s r = true -> x < n -> r x = true -> vld s x = true.
Proof.
  unfold all_valid, secs. rewrite forallb_forall. intros H Hx R. specialize (H x). rewrite in_seq, R in H.
  apply H. lia.
Qed.
Lemma any_dirty_spec s x : any_dirty n s = false -> x < n -> drt s x = false.
Proof.
  intros H Hx. destruct (drt s x) eqn:D; [|reflexivity]. exfalso. unfold any_dirty, secs in H.
  assert (K : existsb (drt s) (seq 0 n) = true) by (apply existsb_exists; exists x; split; [apply in_seq; lia|assumption]).
  congruence.
Qed.
Lemma any_valid_spec s x : any_valid n s = false -> x < n -> vld s x = false.
Proof.
  intros H Hx. destruct (vld s x) eqn:D; [|reflexivity]. exfalso. unfold any_valid, secs in H.
  assert (K : existsb (vld s) (seq 0 n) = true) by (apply existsb_exists; exists x; split; [apply in_seq; lia|assumption]).
  congruence.
Qed.
Lemma cv_lt i x : cv i x = true -> x < n.
Proof. intros H. now apply cv_spec in H. Qed.
Lemma wc_cv i x : wc i x = true -> is_wr (kd (P i)) = true /\ cv i x = true.
Proof. apply andb_true_iff. Qed.
Lemma everything_spec x : x < n -> everything n x = true.
Proof. apply Nat.ltb_lt. Qed.

(** Steps that leave data and bits alone. *)
Lemma plain lc eo s t i p : InvL lc eo s -> (forall j, pcs t j = upd (pcs s) i p j) ->
  core t = core s -> cach t = cach s -> vld t = vld s -> drt t = drt s -> hist t = hist s -> mapd t = mapd s ->
  Locks t -> TP i p -> (p = Idle <-> pcs s i = Idle) -> (is_wr (kd (P i)) = true -> (p = Done <-> pcs s i = Done)) ->
  (is_wr (kd (P i)) = true -> com (pcs s i) = true -> com p = true) ->
  (forall x, still n P s i p x) ->
  (forall x, x < n -> RI p x (cv i x) (dat (P i) x) (core s x) (cach s x) (vld s x) (drt s x) (sdat x (lc x))
     (may s lc eo x) (nb s x) (okr (hist s) i x)) -> Inv t.
Proof.
  intros I Ep Ec Ek Ev Ed Eh Em L T Id Dn Cm St Own. exists (lcn n P lc s i p), (eon n P eo i p).
  apply (move n P c0 lc eo s t i p); try assumption.
  - rewrite Em, Ev. apply (u_b _ _ _ _ _ _ I).
  - rewrite Ed, Ev. apply (b_d _ _ _ _ _ _ I).
  - intros x W E. left. destruct (St x W) as (E1 & _). congruence.
  - intros x Hx. unfold own. rewrite Ec, Ek, Ev, Ed.
    rewrite lcn_still by (intros W; now destruct (St x W) as (_ & ? & _)).
    eapply RI_mono; [| | |apply (Own x Hx)].
    + intros y. now apply may_still.
    + intros H NB k Wk Bk. rewrite Ep in Bk. destruct (Nat.eq_dec k i) as [->|N].
      * rewrite upd_eq in Bk. destruct (St x) as (_ & _ & _ & S4); [now apply wc_spec|].
        destruct (S4 Bk) as [B|M]; [now apply (NB i)|]. destruct (unheld t L) with (i := i) as [U _]; [now rewrite Em|].
        rewrite Ep, upd_eq in U. now apply H.
      * rewrite upd_neq in Bk by assumption. now apply (NB k).
    + auto.
  - intros x Hx. left. split; [|apply St]. unfold same. now rewrite Ec, Ek, Ev, Ed.
Qed.

(** The common case: no lock changes. *)
Lemma plain_pc lc eo s i p : InvL lc eo s ->
  (hold p = hold (pcs s i) \/ hold p = None) -> (forall k, p <> Wait k) ->
  TP i p -> (p = Idle <-> pcs s i = Idle) -> (is_wr (kd (P i)) = true -> (p = Done <-> pcs s i = Done)) ->
  (is_wr (kd (P i)) = true -> com (pcs s i) = true -> com p = true) ->
  (forall x, still n P s i p x) ->
  (forall x, x < n -> RI p x (cv i x) (dat (P i) x) (core s x) (cach s x) (vld s x) (drt s x) (sdat x (lc x))
     (may s lc eo x) (nb s x) (okr (hist s) i x)) -> Inv (with_pc s i p).
Proof.
  intros I H W T Id Dn Cm St Own. apply (plain lc eo s _ i p); auto.
  apply (locks_pc s (with_pc s i p) i p); auto. apply (lks _ _ _ _ _ _ I).
Qed.
Lemma plain_wait lc eo s i k : InvL lc eo s -> mapd s = true ->
  TP i (Wait k) -> pcs s i <> Idle -> pcs s i <> Done ->
  (is_wr (kd (P i)) = true -> com (pcs s i) = true -> com (Wait k) = true) ->
  (forall x, still n P s i (Wait k) x) ->
  (forall x, x < n -> RI (Wait k) x (cv i x) (dat (P i) x) (core s x) (cach s x) (vld s x) (drt s x) (sdat x (lc x))
     (may s lc eo x) (nb s x) (okr (hist s) i x)) -> Inv (with_wait s i k).
Proof.
  intros I M T Id Dn Cm St Own. apply (plain lc eo s _ i (Wait k)); auto.
  - apply locks_wait; [apply (lks _ _ _ _ _ _ I)|assumption].
  - split; [discriminate|intros; now destruct Id].
  - intros _. split; [discriminate|intros; now destruct Dn].
Qed.
Lemma plain_unlock lc eo s i p : InvL lc eo s ->
  hold p = None -> (forall k, p <> Wait k) ->
  TP i p -> (p = Idle <-> pcs s i = Idle) -> (is_wr (kd (P i)) = true -> (p = Done <-> pcs s i = Done)) ->
  (is_wr (kd (P i)) = true -> com (pcs s i) = true -> com p = true) ->
  (forall x, still n P s i p x) ->
  (forall x, x < n -> RI p x (cv i x) (dat (P i) x) (core s x) (cach s x) (vld s x) (drt s x) (sdat x (lc x))
     (may s lc eo x) (nb s x) (okr (hist s) i x)) -> Inv (with_pc (unlock s i) i p).
Proof.
  intros I H W T Id Dn Cm St Own. apply (plain lc eo s _ i p); auto.
  apply locks_unlock; [apply (lks _ _ _ _ _ _ I)|assumption|assumption].
Qed.
Lemma plain_grant lc eo s i k p : InvL lc eo s -> pcs s i = Wait k -> lock_free s (kwr k) = true ->
  (hold p = Some (kwr k) \/ hold p = None) -> (forall k, p <> Wait k) ->
  TP i p -> p <> Idle -> (is_wr (kd (P i)) = true -> p <> Done) ->
  (is_wr (kd (P i)) = true -> com (pcs s i) = true -> com p = true) ->
  (forall x, still n P s i p x) ->
  (forall x, x < n -> RI p x (cv i x) (dat (P i) x) (core s x) (cach s x) (vld s x) (drt s x) (sdat x (lc x))
     (may s lc eo x) (nb s x) (okr (hist s) i x)) -> Inv (with_pc (with_lock s i (kwr k)) i p).
Proof.
  intros I E F H W T Id Dn Cm St Own. apply (plain lc eo s _ i p); auto.
  - assert (L := lks _ _ _ _ _ _ I). apply (locks_grant s _ i (kwr k) p); auto.
    destruct (mapd s) eqn:M; [reflexivity|]. exfalso. destruct (unheld s L M i) as [_ U]. now apply (U k).
  - rewrite E. split; [now intros|discriminate].
  - rewrite E. intros Wr. split; [intros D; now apply Dn in D|discriminate].
Qed.

Ltac tp I i E := let T := fresh "T" in assert (T := t_p _ _ _ _ _ _ I i); rewrite E in T; cbn [ConcProofs.TP] in T.
Ltac rq I i x Hx E := let R := fresh "R" in assert (R := r_q _ _ _ _ _ _ I i x Hx); unfold RQ in R; rewrite E in R; cbn [RI] in R.
Ltac stl E := let x := fresh "x" in let W := fresh "W" in
  intros x W; rewrite ?E; cbn [eff com bare negb] in *; try (apply wc_cv in W; destruct W as [W1 W2]).
Ltac side E := try exact Logic.I; try (rewrite E; split; intros; discriminate); try (intros _; rewrite E; split; intros; discriminate);
  try (rewrite E; cbn; intros; (reflexivity || discriminate || assumption)); try (intros ? ?; discriminate).

Lemma step_wi lc eo s i : InvL lc eo s -> pcs s i = New \/ pcs s i = NewWi -> is_wr (kd (P i)) = true -> Inv (go_wi n P s i).
Proof.
  intros I E W. unfold go_wi. destruct (mapd s) eqn:M.
  - apply (plain_wait lc eo); try assumption; try (destruct E as [E|E]; rewrite E; discriminate).
    + destruct E as [E|E]; stl E; repeat split; try reflexivity; try discriminate; auto.
    + intros x Hx. exact Logic.I.
  - apply (plain_pc lc eo).
    + assumption.
    + now right.
    + intros; discriminate.
    + split; [assumption|]. now intros x Hx.
    + destruct E as [E|E]; rewrite E; split; discriminate.
    + intros _. destruct E as [E|E]; rewrite E; split; discriminate.
    + destruct E as [E|E]; rewrite E; discriminate.
    + intros x Wx. apply wc_cv in Wx. destruct Wx as [_ Wx]. unfold ConcProofs.cv in Wx.
      destruct E as [E|E]; rewrite E; cbn [eff com bare negb]; rewrite Wx; repeat split; auto; discriminate.
    + intros x Hx. cbn [RI]. intros C. split.
      * destruct (drt s x) eqn:D; [|reflexivity]. apply (b_d _ _ _ _ _ _ I) in D. rewrite (u_b _ _ _ _ _ _ I M) in D. discriminate.
      * unfold ConcProofs.cv in C. congruence.
Qed.
Lemma still_nwr s i p x : is_wr (kd (P i)) = false -> still n P s i p x.
Proof. intros H W. apply wc_cv in W. destruct W. congruence. Qed.
Lemma unmapped_bare lc eo s x j : InvL lc eo s -> mapd s = false -> eo x = Some j -> bare (pcs s j) = true.
Proof.
  intros I M E. apply (e_o _ _ _ _ _ _ I) in E. destruct E as [_ E]. destruct (eff_cases _ _ E) as [B|B]; [assumption|].
  destruct (unheld s (lks _ _ _ _ _ _ I) M j). congruence.
Qed.
Lemma unmapped_clean lc eo s x : InvL lc eo s -> mapd s = false -> drt s x = false.
Proof.
  intros I M. destruct (drt s x) eqn:D; [|reflexivity]. apply (b_d _ _ _ _ _ _ I) in D. rewrite (u_b _ _ _ _ _ _ I M) in D. discriminate.
Qed.
Lemma step_pt lc eo s i : InvL lc eo s -> pcs s i = New \/ pcs s i = NewPt -> is_wr (kd (P i)) = false -> Inv (go_pt n P s i).
Proof.
  intros I E W. unfold go_pt. destruct (mapd s) eqn:M.
  - apply (plain_wait lc eo); try assumption; try (destruct E as [E|E]; rewrite E; discriminate).
    + intros x. now apply still_nwr.
    + intros x Hx. exact Logic.I.
  - apply (plain_pc lc eo).
    + assumption.
    + now right.
    + intros; discriminate.
    + split; [assumption|]. now intros x Hx.
    + destruct E as [E|E]; rewrite E; split; discriminate.
    + congruence.
    + congruence.
    + intros x. now apply still_nwr.
    + intros x Hx. cbn [RI]. intros C. split.
      * intros _. apply (ok_may n P c0 lc eo s I). apply (core_may n P c0 lc eo s I); [assumption|eapply unmapped_clean; eassumption|].
        intros j. now apply (unmapped_bare lc eo).
      * unfold ConcProofs.cv in C. congruence.
Qed.
Lemma step_start lc eo s i : InvL lc eo s -> pcs s i = Idle -> Inv (with_pc (with_ev s (EStart i)) i New).
Proof.
  intros I E. exists lc, eo.
  assert (NS : ~ In (EStart i) (hist s)) by (intros H; apply (h_s _ _ _ _ _ _ I) in H; congruence).
  assert (NA : ~ acked (hist s) i) by (intros (b & H); apply (h_i _ _ _ _ _ _ I) in H; congruence).
  assert (OT : forall j, j <> i -> pcs (with_pc (with_ev s (EStart i)) i New) j = pcs s j) by (intros j N; cbn [with_pc pcs with_ev]; now rewrite upd_neq).
  assert (OI : pcs (with_pc (with_ev s (EStart i)) i New) i = New) by (cbn [with_pc pcs]; now rewrite upd_eq).
  assert (OK : forall j x v, pcs s j <> Idle -> okr (hist s) j x v -> okr (EStart i :: hist s) j x v).
  { intros j x v Hj H Wj. apply readable_cons; [|now apply (h_s _ _ _ _ _ _ I)|now apply H].
    intros k Hk. injection Hk as <-. now split. }
  assert (MB : forall j, bare (pcs (with_pc (with_ev s (EStart i)) i New) j) = bare (pcs s j)).
  { intros j. destruct (Nat.eq_dec j i) as [->|N]; [now rewrite OI, E|now rewrite OT]. }
  assert (MAY : forall x y, may s lc eo x y -> may (with_pc (with_ev s (EStart i)) i New) lc eo x y).
  { intros x y [H|(k & H1 & H2 & H3)]; [now left|right; exists k; rewrite MB; auto]. }
  assert (NBt : forall x, nb s x -> nb (with_pc (with_ev s (EStart i)) i New) x).
  { intros x NB k Wk Bk; rewrite MB in Bk; now apply (NB k). }
  constructor; cbn [with_pc with_ev core cach vld drt mapd hist]; try apply I.
  - apply (locks_pc s _ i New); auto; [apply (lks _ _ _ _ _ _ I)|discriminate].
  - intros j. destruct (Nat.eq_dec j i) as [->|N]; [now rewrite OI|rewrite OT by assumption; apply (t_p _ _ _ _ _ _ I)].
  - intros x j. destruct (Nat.eq_dec j i) as [->|N].
    + rewrite OI. rewrite (e_o _ _ _ _ _ _ I), E. reflexivity.
    + rewrite OT by assumption. apply (e_o _ _ _ _ _ _ I).
  - intros j x Hx. unfold RQ. cbn [with_pc with_ev core cach vld drt mapd hist]. destruct (Nat.eq_dec j i) as [->|N].
    + rewrite OI. exact Logic.I.
    + rewrite OT by assumption. assert (R := r_q _ _ _ _ _ _ I j x Hx). unfold RQ in R.
      destruct (pcs s j) eqn:Ej; [exact Logic.I| ..].
      all: (eapply RI_mono; [apply MAY|intros _; apply NBt| |apply R]; intros y; apply OK; rewrite Ej; discriminate).
  - intros x j H. destruct (l_w _ _ _ _ _ _ I x j H) as [W C]. split; [assumption|]. rewrite OT; [assumption|].
    intros ->. rewrite E in C. discriminate.
  - intros x j Wj Cj H. destruct (Nat.eq_dec j i) as [->|N]; [rewrite OI in Cj; discriminate|rewrite OT in Cj by assumption].
    revert H. rewrite solder_cons; [now apply (l_c _ _ _ _ _ _ I)|]. intros k Hk. injection Hk as <-. congruence.
  - intros j. cbn [In]. destruct (Nat.eq_dec j i) as [->|N]; [rewrite OI; split; [discriminate|now left]|rewrite OT by assumption].
    rewrite <- (h_s _ _ _ _ _ _ I). split; [intros [H|H]; [congruence|assumption]|now right].
  - intros j Wj. transitivity (acked (hist s) j).
    { split; intros (b & H); exists b; [destruct H as [H|H]; [discriminate|assumption]|now right]. }
    destruct (Nat.eq_dec j i) as [->|N]; [rewrite OI; split; [now intros|discriminate]|rewrite OT by assumption].
    now apply (h_a _ _ _ _ _ _ I).
  - intros j b [H|H]; [discriminate|]. apply (h_i _ _ _ _ _ _ I) in H. rewrite OT; [assumption|congruence].
  - intros j b x [H|H]; [discriminate|]. intros Hx R. apply OK; [eapply (h_i _ _ _ _ _ _ I); eassumption|].
    now apply (h_r _ _ _ _ _ _ I).
Qed.

(** Completions: the data is as promised, nothing else changes but the point. *)
Lemma step_ack lc eo s i b p : InvL lc eo s -> Locks (with_pc s i p) -> TP i p -> inprog (pcs s i) = true -> p <> Idle ->
  (forall x, still n P s i p x) -> (is_wr (kd (P i)) = true -> p = Done /\ com (pcs s i) = true) ->
  (forall x, x < n -> rng (P i) x = true -> okr (hist s) i x (b x)) -> bare p = false ->
  (forall x, x < n -> RI p x (cv i x) (dat (P i) x) (core s x) (cach s x) (vld s x) (drt s x) (sdat x (lc x))
     (may s lc eo x) (nb s x) (okr (hist s) i x)) -> Inv (with_pc (ack s i b) i p).
Proof.
  intros I L T Hi Hp St Dn OKb Bp Own. exists lc, eo.
  set (t := with_pc (ack s i b) i p).
  assert (OT : forall j, j <> i -> pcs t j = pcs s j) by (intros j N; unfold t; cbn [with_pc pcs with_ev ack]; now rewrite upd_neq).
  assert (OI : pcs t i = p) by (unfold t; cbn [with_pc pcs]; now rewrite upd_eq).
  assert (OK : forall j x v, pcs s j <> Idle -> okr (hist s) j x v -> okr (EAck i b :: hist s) j x v).
  { intros j x v Hj H Wj. apply readable_cons; [|now apply (h_s _ _ _ _ _ _ I)|now apply H]. intros k Hk. discriminate Hk. }
  assert (Ii : pcs s i <> Idle) by (intros H; rewrite H in Hi; discriminate).
  assert (MAY : forall x y, may s lc eo x y -> may t lc eo x y).
  { intros x y [H|(k & H1 & H2 & H3)]; [now left|]. right. exists k. split; [assumption|]. split; [|assumption].
    destruct (Nat.eq_dec k i) as [->|N]; [|now rewrite OT]. rewrite OI. apply (e_o _ _ _ _ _ _ I) in H1. destruct H1 as [W _].
    apply wc_spec in W. destruct (St x W) as (_ & _ & S3 & _). now apply S3. }
  assert (NBt : forall x, nb s x -> nb t x).
  { intros x NB k Wk Bk. destruct (Nat.eq_dec k i) as [->|N]; [rewrite OI in Bk; congruence|rewrite OT in Bk by assumption; now apply (NB k)]. }
  assert (RW : is_wr (kd (P i)) = true -> com p = true) by (intros W; now destruct (Dn W) as [-> _]).
  constructor; unfold t; cbn [with_pc with_ev ack core cach vld drt mapd hist]; fold t; try apply I.
  - destruct L as [L1 L2 L3 L4 L5]. constructor; assumption.
  - intros j. destruct (Nat.eq_dec j i) as [->|N]; [now rewrite OI|rewrite OT by assumption; apply (t_p _ _ _ _ _ _ I)].
  - intros x j. rewrite (e_o _ _ _ _ _ _ I). destruct (Nat.eq_dec j i) as [->|N].
    + rewrite OI. split; intros [W Ex]; (split; [assumption|]); destruct (St x) as (S1 & _); try (now apply wc_spec); congruence.
    + now rewrite OT.
  - intros j x Hx. unfold RQ. unfold t at 2 3 4 5 8. cbn [with_pc with_ev ack core cach vld drt mapd hist]. destruct (Nat.eq_dec j i) as [->|N].
    + rewrite OI. eapply RI_mono; [apply MAY|intros _; apply NBt| |now apply Own]. intros y. now apply OK.
    + rewrite OT by assumption. assert (R := r_q _ _ _ _ _ _ I j x Hx). unfold RQ in R.
      destruct (pcs s j) eqn:Ej; [exact Logic.I| ..].
      all: (eapply RI_mono; [apply MAY|intros _; apply NBt| |apply R]; intros y; apply OK; rewrite Ej; discriminate).
  - intros x j H. destruct (l_w _ _ _ _ _ _ I x j H) as [W C]. split; [assumption|].
    destruct (Nat.eq_dec j i) as [->|N]; [rewrite OI; apply RW; apply W|now rewrite OT].
  - intros x j Wj Cj. rewrite solder_cons by (intros; discriminate). apply (l_c _ _ _ _ _ _ I); [assumption|].
    destruct (Nat.eq_dec j i) as [->|N]; [apply Dn; apply Wj|now rewrite <- OT].
  - intros j. cbn [In]. transitivity (In (EStart j) (hist s)); [split; [intros [H|H]; [discriminate|assumption]|now right]|].
    rewrite (h_s _ _ _ _ _ _ I). destruct (Nat.eq_dec j i) as [->|N]; [rewrite OI; tauto|now rewrite OT].
  - intros j Wj. destruct (Nat.eq_dec j i) as [->|N].
    + rewrite OI. split; [intros _; now apply Dn|intros _; exists b; now left].
    + rewrite OT by assumption. rewrite <- (h_a _ _ _ _ _ _ I) by assumption.
      split; intros (b' & H); exists b'; [destruct H as [H|H]; [congruence|assumption]|now right].
  - intros j b' [H|H].
    + injection H as -> _. rewrite OI. assumption.
    + apply (h_i _ _ _ _ _ _ I) in H. destruct (Nat.eq_dec j i) as [->|N]; [now rewrite OI|now rewrite OT].
  - intros j b' x [H|H] Hx R.
    + injection H as <- <-. apply OK; [assumption|now apply OKb].
    + apply OK; [eapply (h_i _ _ _ _ _ _ I); eassumption|]. now apply (h_r _ _ _ _ _ _ I) with (b := b').
Qed.

(** ** Sectors touched by the holder of the write lock. *)
Lemma oth_held lc eo s t i p x : InvL lc eo s -> (forall j, j <> i -> hold (pcs s j) = None) -> x < n ->
  (forall j, j <> i -> writes j x -> bypass (pcs s j) = true ->
     (drt s x = false -> drt t x = false) /\ core t x = core s x /\
     (bare (pcs s j) = true -> core s x = dat (P j) x -> (vld s x = true -> cach s x = sdat x (lc x) \/ cach s x = dat (P j) x) ->
      vld t x = true -> cach t x = sdat x (lcn n P lc s i p x) \/ cach t x = dat (P j) x)) ->
  (core t x = core s x \/ forall j, okr (hist s) j x (core t x)) ->
  forall j, j <> i -> oth n P c0 lc eo s t i p j x.
Proof.
  intros I H Hx HB HC j N. unfold oth. eapply RI_unheld; [now apply H| | | |apply (r_q _ _ _ _ _ _ I j x Hx)].
  - intros B C. apply HB; [assumption| |assumption]. apply wc_spec. unfold ConcProofs.wc.
    rewrite (bypass_wr n P j _ (t_p _ _ _ _ _ _ I j) B). assumption.
  - destruct HC as [->|HC]; auto.
  - auto.
Qed.
Lemma oth_mine lc eo s t i p x : InvL lc eo s -> apart s -> (forall j, j <> i -> hold (pcs s j) = None) -> inprog (pcs s i) = true ->
  x < n -> wc i x = true -> (core t x = core s x \/ core t x = dat (P i) x) ->
  forall j, j <> i -> oth n P c0 lc eo s t i p j x.
Proof.
  intros I A H E Hx W HC. apply oth_held; try assumption.
  - intros j N Wj B. exfalso. apply (A j i x); try assumption. now apply wc_spec.
  - destruct HC as [HC|HC]; [now left|right]. intros j. rewrite HC. apply (ok_fly n P c0 lc eo s I); [now apply wc_spec|assumption].
Qed.

Lemma purge_bits lc eo s r x : InvL lc eo s -> x < n ->
  vld (purge n s r) x = vld s x && negb (lset r x) /\ drt (purge n s r) x = drt s x && negb (lset r x).
Proof.
  intros I Hx. unfold purge. cbn [with_bits wts].
  set (u := with_bits s _ _). destruct (negb (any_valid n u) && _) eqn:E; [|now split].
  apply andb_true_iff in E. destruct E as [E _]. destruct (any_valid n u) eqn:E'; [discriminate|].
  assert (K := any_valid_spec u x E' Hx). cbn [u with_bits vld] in K. cbn [unmap vld drt]. split; [now symmetry|].
  destruct (drt s x) eqn:D; [|reflexivity]. apply (b_d _ _ _ _ _ _ I) in D. rewrite D in K. cbn [andb] in *. now symmetry.
Qed.
Lemma purge_same s r : core (purge n s r) = core s /\ cach (purge n s r) = cach s /\ pcs (purge n s r) = pcs s /\ hist (purge n s r) = hist s.
Proof. unfold purge. destruct (_ && _); repeat split. Qed.
Lemma purge_ub lc eo s r : InvL lc eo s -> mapd (purge n s r) = false -> forall x, vld (purge n s r) x = false.
Proof.
  intros I. unfold purge. destruct (_ && _); cbn [unmap with_bits mapd vld]; [reflexivity|]. intros M x.
  rewrite (u_b _ _ _ _ _ _ I M). reflexivity.
Qed.
Lemma purge_bd lc eo s r x : InvL lc eo s -> drt (purge n s r) x = true -> vld (purge n s r) x = true.
Proof.
  intros I. unfold purge. destruct (_ && _); cbn [unmap with_bits drt vld]; [discriminate|].
  intros H. apply andb_true_iff in H. destruct H as [H1 H2]. now rewrite (b_d _ _ _ _ _ _ I x H1), H2.
Qed.
Lemma locks_purge s i r p : Locks s -> hold (pcs s i) = Some true -> hold p = None -> (forall k, p <> Wait k) ->
  Locks (with_pc (purge n s r) i p).
Proof.
  intros L H Hp W. unfold purge. cbn [with_bits wts]. destruct (negb _ && _) eqn:E.
  - apply andb_true_iff in E. destruct E as [_ E]. destruct (wts s) eqn:Et; [|discriminate].
    assert (A := alone s i L H). constructor; cbn [with_pc unmap with_bits pcs wrl rdl wts mapd]; auto.
    + intros j. destruct (Nat.eq_dec j i) as [->|N]; [rewrite upd_eq; congruence|rewrite upd_neq by assumption].
      rewrite (A j N). discriminate.
    + intros j. destruct (Nat.eq_dec j i) as [->|N]; [rewrite upd_eq; congruence|rewrite upd_neq by assumption].
      rewrite (A j N). discriminate.
    + intros j k. destruct (Nat.eq_dec j i) as [->|N]; [rewrite upd_eq; intros K; now apply W in K|rewrite upd_neq by assumption].
      intros K. apply (k_t s L) in K. rewrite Et in K. contradiction.
  - apply (locks_pc s _ i p); auto.
Qed.

(** Bits set, cleared by the holder [i] of the write lock; the point after. *)
Lemma commit_purge lc eo s i p : InvL lc eo s -> apart s -> hold (pcs s i) = Some true -> TP i (pcs s i) ->
  pcs s i = (WiPurge true) \/ pcs s i = (WiPurge false) \/ (exists lk, pcs s i = WiPurge2 lk) ->
  (p = Unl no_data \/ p = WiUnl) -> Inv (with_pc (purge n s (rng (P i))) i p).
Proof.
  intros I A H T E Hp. exists (lcn n P lc s i p), (eon n P eo i p).
  destruct (purge_same s (rng (P i))) as (P1 & P2 & P3 & P4).
  assert (Wr : is_wr (kd (P i)) = true).
  { destruct E as [E|[E|(lk & E)]]; rewrite E in T; exact T. }
  assert (Ip : inprog (pcs s i) = true) by (eapply hold_inprog; eassumption).
  assert (Cp : com p = true) by (destruct Hp as [-> | ->]; reflexivity).
  assert (Ep : forall x, eff p x = false) by (intros x; destruct Hp as [-> | ->]; reflexivity).
  (* the core data of the sectors is that committed afterwards *)
  assert (CO : forall x, x < n -> wc i x = true -> eon n P eo i p x = None -> core s x = sdat x (lcn n P lc s i p x)).
  { intros x Hx W Eo. apply wc_cv in W as W'. destruct W' as [_ C]. assert (R := r_q _ _ _ _ _ _ I i x Hx). unfold RQ in R. rewrite C in R.
    unfold lcn. rewrite W, Cp. cbn [andb].
    destruct E as [E|[E|(lk & E)]]; rewrite E in R |- *; cbn [com negb RI] in *.
    - now rewrite R.
    - now rewrite R.
    - destruct lk; cbn [negb] in *.
      + assert (Eo' : eo x = None).
        { apply (eo_wr n P c0 lc eo s I i x A H W). rewrite E. reflexivity. }
        apply (b_s _ _ _ _ _ _ I x Hx Eo'). now apply R.
      + destruct (R eq_refl) as (_ & R' & _). now rewrite R'. }
  apply (move n P c0 lc eo s _ i p I); cbn [with_pc core cach vld drt mapd hist pcs].
  - intros j. now rewrite P3.
  - assumption.
  - apply locks_purge; [apply (lks _ _ _ _ _ _ I)|assumption|destruct Hp as [-> | ->]; reflexivity|destruct Hp as [-> | ->]; discriminate].
  - intros M. eapply purge_ub; eassumption.
  - intros x. eapply purge_bd; eassumption.
  - destruct Hp as [-> | ->]; [exact Logic.I|exact Wr].
  - destruct Hp as [-> | ->]; (split; [discriminate|]); intros K; rewrite K in Ip; discriminate.
  - intros _. destruct Hp as [-> | ->]; (split; [discriminate|]); intros K; rewrite K in Ip; discriminate.
  - intros; assumption.
  - intros x _. rewrite Ep. discriminate.
  - intros x Hx. unfold own. cbn [with_pc core cach vld drt mapd hist pcs]. destruct Hp as [-> | ->]; cbn [RI].
    + intros _ K. congruence.
    + intros C. destruct (purge_bits lc eo s (rng (P i)) x I Hx) as [_ ->]. unfold ConcProofs.cv in C. rewrite C. apply andb_false_r.
  - intros x Hx. destruct (purge_bits lc eo s (rng (P i)) x I Hx) as [B1 B2]. destruct (wc i x) eqn:W.
    + right. split.
      * intros Eo. cbn [with_pc core cach vld drt]. rewrite B1, P1. split; [|intros _; now apply CO].
        apply wc_cv in W. destruct W as [_ W]. unfold ConcProofs.cv in W. rewrite W, andb_false_r. discriminate.
      * apply oth_mine; try assumption; [apply alone; [apply (lks _ _ _ _ _ _ I)|assumption]|].
        left. cbn [with_pc core]. now rewrite P1.
    + left. split.
      * unfold same. cbn [with_pc core cach vld drt]. rewrite P1, P2, B1, B2.
        unfold ConcProofs.wc in W. rewrite Wr in W. cbn [andb] in W. unfold ConcProofs.cv in W. rewrite W, !andb_true_r. repeat split.
      * intros K. congruence.
Qed.

(** Bits of the holder's sectors; the data is in place. *)
Lemma commit_bits lc eo s i p v d : InvL lc eo s -> apart s -> hold (pcs s i) = Some true ->
  is_wr (kd (P i)) = true -> com (pcs s i) = false -> com p = true -> hold p = None -> p = Unl no_data ->
  (forall x, x < n -> cv i x = true -> cach s x = dat (P i) x /\ (d x = false -> core s x = dat (P i) x)) ->
  (forall x, cv i x = false -> v x = vld s x /\ d x = drt s x) -> (forall x, d x = true -> v x = true) ->
  Inv (with_pc (with_bits s v d) i p).
Proof.
  intros I A H Wr Cs Cp Hp Ep D O BD. exists (lcn n P lc s i p), (eon n P eo i p).
  assert (Ip : inprog (pcs s i) = true) by (eapply hold_inprog; eassumption).
  apply (move n P c0 lc eo s _ i p I); cbn [with_pc with_bits core cach vld drt mapd hist pcs]; auto.
  - apply (locks_pc s _ i p); auto; [apply (lks _ _ _ _ _ _ I)|subst p; discriminate].
  - intros M. exfalso. assert (K := locked_mapped s i (lks _ _ _ _ _ _ I)). rewrite H in K. rewrite K in M; discriminate.
  - subst p. exact Logic.I.
  - subst p. split; [discriminate|]. intros K. rewrite K in Ip. discriminate.
  - intros _. subst p. split; [discriminate|]. intros K. rewrite K in Ip. discriminate.
  - intros x _ K. subst p. discriminate.
  - intros x Hx. unfold own. subst p. cbn [RI]. intros _ K. congruence.
  - intros x Hx. destruct (wc i x) eqn:W.
    + right. apply wc_cv in W as W'. destruct W' as [_ C]. destruct (D x Hx C) as [D1 D2]. split.
      * intros Eo. cbn [with_pc with_bits core cach vld drt]. unfold lcn. rewrite W, Cp, Cs. cbn [andb negb]. cbn [ConcSpec.sdat]. now split.
      * apply oth_mine; try assumption; [apply alone; [apply (lks _ _ _ _ _ _ I)|assumption]|]. now left.
    + left. split.
      * unfold same. cbn [with_pc with_bits core cach vld drt].
        unfold ConcProofs.wc in W. rewrite Wr in W. cbn [andb] in W. destruct (O x W) as [-> ->]. repeat split.
      * intros K. congruence.
Qed.

(** A sector written by a write that holds the lock. *)
Lemma land_wr lc eo s t i p x0 : InvL lc eo s -> apart s -> hold (pcs s i) = Some true -> hold p = Some true -> wc i x0 = true ->
  (forall j, pcs t j = upd (pcs s) i p j) -> vld t = vld s -> drt t = drt s -> hist t = hist s -> mapd t = mapd s -> Locks t ->
  (forall x, x <> x0 -> core t x = core s x /\ cach t x = cach s x /\ eff p x = eff (pcs s i) x) ->
  (core t x0 = core s x0 \/ core t x0 = dat (P i) x0) -> eff p x0 = true -> com p = com (pcs s i) -> bare p = false -> bare (pcs s i) = false ->
  TP i p -> (forall x, x < n -> RI p x (cv i x) (dat (P i) x) (core t x) (cach t x) (vld s x) (drt s x) (sdat x (lc x))
     (fun _ => False) False (okr (hist s) i x)) -> Inv t.
Proof.
  intros I A H Hp W Ep Ev Ed Eh Em L O C E Cm Bp Bs T Own. exists (lcn n P lc s i p), (eon n P eo i p).
  assert (Ip : inprog (pcs s i) = true) by (eapply hold_inprog; eassumption).
  apply (move n P c0 lc eo s _ i p I); auto.
  - rewrite Em, Ev. apply (u_b _ _ _ _ _ _ I).
  - rewrite Ed, Ev. apply (b_d _ _ _ _ _ _ I).
  - split; [intros K; rewrite K in Hp; discriminate|intros K; rewrite K in Ip; discriminate].
  - intros _. split; [intros K; rewrite K in Hp; discriminate|intros K; rewrite K in Ip; discriminate].
  - congruence.
  - intros x Wx Ex. destruct (Nat.eq_dec x x0) as [->|N].
    + destruct (eff (pcs s i) x0) eqn:Es; [now left|right]. eapply (eo_wr n P c0); eassumption.
    + left. destruct (O x N) as (_ & _ & O3). congruence.
  - intros x Hx. unfold own. rewrite lcn_still by auto. rewrite Ev, Ed. eapply RI_mono; [| | |now apply Own]; try tauto.
  - intros x Hx. destruct (Nat.eq_dec x x0) as [->|N].
    + right. split.
      * intros K. unfold eon in K. rewrite W, E in K. discriminate.
      * apply oth_mine; try assumption. apply alone; [apply (lks _ _ _ _ _ _ I)|assumption].
    + left. destruct (O x N) as (O1 & O2 & O3). split; [unfold same; now rewrite Ev, Ed|].
      intros _. repeat split; try assumption; congruence.
Qed.

(** A sector written to the core without lock. *)
Lemma land_bare lc eo s i h q x0 : InvL lc eo s -> apart s -> pcs s i = WiCore false h q -> q x0 = true ->
  Inv (with_pc (with_core s x0 (dat (P i) x0)) i (WiCore false h (off q x0))).
Proof.
  intros I A E Q. set (p := WiCore false h (off q x0)). exists (lcn n P lc s i p), (eon n P eo i p).
  tp I i E. destruct T as [Wr Sb]. assert (C0 := Sb x0 Q).
  assert (W0 : wc i x0 = true) by (unfold ConcProofs.wc; now rewrite Wr).
  assert (X0 := cv_lt i x0 C0).
  assert (Eo : eo x0 = None).
  { apply (eo_byp n P c0 lc eo s I i x0 A); [now rewrite E|assumption|rewrite E; cbn; now rewrite Q]. }
  assert (D0 : drt s x0 = false).
  { apply (bare_clean n P c0 lc eo s I i x0 X0); [now apply wc_spec|now rewrite E]. }
  assert (Offx : forall x, x <> x0 -> off q x0 x = q x) by (intros x N; unfold off; now rewrite upd_neq).
  assert (Off0 : off q x0 x0 = false) by (unfold off; now rewrite upd_eq).
  assert (LC : forall x, lcn n P lc s i p x = lc x) by (intros x; apply lcn_still; now rewrite E).
  apply (move n P c0 lc eo s _ i p I); cbn [with_pc with_core core cach vld drt mapd hist pcs]; auto.
  - apply (locks_pc s _ i p); auto; [apply (lks _ _ _ _ _ _ I)|discriminate].
  - apply (u_b _ _ _ _ _ _ I).
  - apply (b_d _ _ _ _ _ _ I).
  - split; [assumption|]. intros x Hx. apply Sb. destruct (Nat.eq_dec x x0) as [->|N]; [congruence|now rewrite <- Offx].
  - rewrite E. split; discriminate.
  - intros _. rewrite E. split; discriminate.
  - rewrite E. discriminate.
  - intros x _. rewrite E. cbn [p eff]. destruct (Nat.eq_dec x x0) as [->|N]; [now right|rewrite Offx by assumption; now left].
  - intros x Hx. unfold own. rewrite LC. cbn [with_pc with_core core cach vld drt]. cbn [p RI].
    intros C. destruct (Nat.eq_dec x x0) as [->|N].
    + split; [assumption|]. intros _. rewrite upd_eq. split; [reflexivity|]. intros Vx. left. now apply (b_s _ _ _ _ _ _ I).
    + rewrite Offx, upd_neq by assumption. rq I i x Hx E. now apply R.
  - intros x Hx. destruct (Nat.eq_dec x x0) as [->|N].
    + right. split.
      * intros K. unfold eon in K. rewrite W0 in K. cbn [p eff] in K. rewrite Off0 in K. discriminate.
      * intros j N. unfold oth. rewrite LC. cbn [with_pc with_core core cach vld drt]. rewrite upd_eq.
        assert (R := r_q _ _ _ _ _ _ I j x0 Hx). unfold RQ in R.
        set (t := with_pc (with_core s x0 (dat (P i) x0)) i p).
        assert (MAY : forall y, may s lc eo x0 y -> may t (lcn n P lc s i p) (eon n P eo i p) x0 y).
        { intros y [K|(k & K & _)]; [left; now rewrite LC|congruence]. }
        assert (OKd : okr (hist s) j x0 (dat (P i) x0)).
        { apply (ok_fly n P c0 lc eo s I); [now apply wc_spec|now rewrite E]. }
        assert (AP : inprog (pcs s j) = true -> is_wr (kd (P j)) = true -> cv j x0 = true -> False).
        { intros K1 K2 K3. apply (A i j x0); auto; [now apply wc_spec| |now rewrite E]. apply wc_spec. unfold ConcProofs.wc. now rewrite K2. }
        assert (BP : bypass (pcs s j) = true -> cv j x0 = true -> False).
        { intros B. apply AP; [now apply bypass_inprog|]. eapply bypass_wr; [apply (t_p _ _ _ _ _ _ I)|assumption]. }
        assert (Tj := t_p _ _ _ _ _ _ I j).
        rewrite D0 in *. destruct (pcs s j) as [| | | |kt|q' b ck|q' ck|q' b ck|ck|[|] hit q'|hit| |[|]|[|]|q'| | |d q' q''| |wr q' b|q' b|q' b|b|[|] q' b|b|b| |] eqn:Ej;
          cbn [RI bypass inprog ConcProofs.TP] in *; auto; try (intros C; exfalso; now apply BP).
        { destruct kt as [? ?|[|]| | |?| |]; cbn [RI] in *; auto. intros C. exfalso. now apply BP. }
        { split; [|discriminate]. intros K. destruct R as [R _]. destruct (R K) as [_ NB]. exfalso. apply (NB i); [now apply wc_spec|now rewrite E]. }
        { destruct Tj as [Tj _]. intros C. exfalso. now apply AP. }
        { intros C. exfalso. now apply AP. }
        { destruct R as [R1 R2]. split; [assumption|]. intros K1 K2. destruct (R2 K1 K2). split; auto. }
        { intros K1. destruct (R K1). split; auto. }
        { intros K. destruct (R K). split; auto. }
    + left. unfold same, still. cbn [with_pc with_core core cach vld drt]. rewrite upd_neq by assumption. split; [repeat split|].
      intros _. rewrite E. cbn [p eff com bare negb]. rewrite Offx by assumption. repeat split; auto.
Qed.

(** A sector written back by a cleaning. *)
Lemma land_clean lc eo s i q b k x0 : InvL lc eo s -> pcs s i = CLand q b k -> q x0 = true ->
  Inv (with_pc (with_core s x0 (b x0)) i (CLand (off q x0) b k)).
Proof.
  intros I E Q. set (p := CLand (off q x0) b k). exists (lcn n P lc s i p), (eon n P eo i p).
  tp I i E. destruct T as [Sm Tk]. assert (X0 := Sm x0 Q).
  assert (Offx : forall x, x <> x0 -> off q x0 x = q x) by (intros x N; unfold off; now rewrite upd_neq).
  assert (Off0 : off q x0 x0 = false) by (unfold off; now rewrite upd_eq).
  assert (St : forall x, still n P s i p x).
  { intros x _. rewrite E. cbn [p eff com bare]. repeat split; auto. }
  assert (LC : forall x, lcn n P lc s i p x = lc x) by (intros x; apply lcn_still; now rewrite E).
  rq I i x0 X0 E. destruct R as [R0 _]. destruct (R0 Q) as [Bv NB].
  apply (move n P c0 lc eo s _ i p I); cbn [with_pc with_core core cach vld drt mapd hist pcs]; auto.
  - apply (locks_pc s _ i p); auto; [apply (lks _ _ _ _ _ _ I)|left; now rewrite E|discriminate].
  - apply (u_b _ _ _ _ _ _ I).
  - apply (b_d _ _ _ _ _ _ I).
  - split; [|assumption]. intros x Hx. apply Sm. destruct (Nat.eq_dec x x0) as [->|N]; [congruence|now rewrite <- Offx].
  - rewrite E. split; discriminate.
  - intros _. rewrite E. split; discriminate.
  - rewrite E. discriminate.
  - intros x _. discriminate.
  - intros x Hx. unfold own. rewrite LC. cbn [with_pc with_core core cach vld drt]. cbn [p RI].
    destruct (Nat.eq_dec x x0) as [->|N].
    + rewrite Off0, upd_eq. split; [discriminate|]. intros _. now right.
    + rewrite Offx, upd_neq by assumption. rq I i x Hx E. destruct R as [R1 R2]. split; [|assumption].
      intros K. destruct (R1 K) as [R3 R4]. split; [assumption|]. eapply (nb_still n P c0 lc eo s _ i p I) with (j := i); auto. rewrite E. discriminate.
  - intros x Hx. destruct (Nat.eq_dec x x0) as [->|N].
    + right. split.
      * intros K. rewrite LC. cbn [with_pc with_core core cach vld drt]. rewrite upd_eq. split; [|now intros].
        apply (b_s _ _ _ _ _ _ I x0 Hx). rewrite <- K. symmetry. apply (eon_still n P c0 lc eo s i p I). now rewrite E.
      * intros j N. unfold oth. rewrite LC. cbn [with_pc with_core core cach vld drt]. rewrite upd_eq, Bv.
        assert (R := r_q _ _ _ _ _ _ I j x0 Hx). unfold RQ in R.
        eapply RI_mono with (A' := may _ _ _ _) (NB' := nb _ _) in R; [| | |intros y Hy; exact Hy];
          [|intros y Hy; apply (may_still n P c0 lc eo s (with_pc (with_core s x0 (b x0)) i p) i p I); [now intros|apply St|exact Hy]
           |intros Hh Hn; apply (nb_still n P c0 lc eo s (with_pc (with_core s x0 (b x0)) i p) i p I) with (j := j); [now intros|apply St|exact Hh|exact Hn]].
        rewrite Bv in R. set (t := with_pc (with_core s x0 (sdat x0 (lc x0))) i p) in *.
        assert (OKd : okr (hist s) j x0 (sdat x0 (lc x0))) by now apply (ok_com n P c0 lc eo s I).
        assert (NW : hold (pcs s j) = Some true -> False).
        { intros K. assert (K2 := alone s j (lks _ _ _ _ _ _ I) K i (not_eq_sym N)). rewrite E in K2. discriminate. }
        assert (BP : bare (pcs s j) = true -> cv j x0 = true -> False).
        { intros B C. apply (NB j); [|assumption]. apply wc_spec. unfold ConcProofs.wc.
          rewrite (bypass_wr n P j _ (t_p _ _ _ _ _ _ I j) (bare_bypass _ B)). assumption. }
        destruct (pcs s j) as [| | | |kt|q' b' ck|q' ck|q' b' ck|ck|[|] hit q'|hit| |[|]|[|]|q'| | |d q' q''| |wr q' b'|q' b'|q' b'|b'|[|] q' b'|b'|b'| |] eqn:Ej;
          cbn [RI bare hold negb] in *; auto; try (intros C; exfalso; now apply BP); try (exfalso; now apply NW).
        { destruct kt as [? ?|[|]| | |?| |]; cbn [RI] in *; auto. intros C. exfalso. now apply BP. }
        { destruct R as [R1 R2]. split; auto. }
        { intros C. destruct (R C). auto. }
    + left. split; [|apply St]. unfold same. cbn [with_pc with_core core cach vld drt]. rewrite upd_neq by assumption. repeat split.
Qed.

(** The end of a cleaning. *)
Lemma bits_clean lc eo s i k : InvL lc eo s -> pcs s i = CBits k ->
  Inv (with_pc (with_bits s (vld s) (fun _ => false)) i (after_clean n P i k)).
Proof.
  intros I E. set (p := after_clean n P i k). exists (lcn n P lc s i p), (eon n P eo i p).
  tp I i E.
  assert (Wr : is_wr (kd (P i)) = true -> exists h, k = AWi h).
  { destruct k; intros K; try congruence. now exists hit. }
  assert (St : forall x, still n P s i p x).
  { intros x W. apply wc_cv in W. destruct W as [W C]. destruct (Wr W) as [h ->]. rewrite E. unfold ConcProofs.cv in C.
    cbn [p after_clean eff com bare]. rewrite C. repeat split; auto. }
  assert (LC : forall x, lcn n P lc s i p x = lc x) by (intros x; apply lcn_still; intros W; now destruct (St x W) as (_ & ? & _)).
  apply (move n P c0 lc eo s _ i p I); cbn [with_pc with_bits core cach vld drt mapd hist pcs]; auto.
  - apply (locks_pc s _ i p); auto; [apply (lks _ _ _ _ _ _ I)|rewrite E; destruct k; cbn; auto|destruct k; discriminate].
  - apply (u_b _ _ _ _ _ _ I).
  - discriminate.
  - destruct k; cbn; try assumption; (split; [assumption|now intros x Hx]).
  - rewrite E. split; [destruct k|]; discriminate.
  - intros W. rewrite E. split; [destruct k|]; discriminate.
  - rewrite E. discriminate.
  - intros x W Ef. destruct (St x W) as (S1 & _). left. congruence.
  - intros x Hx. unfold own. rewrite LC. cbn [with_pc with_bits core cach vld drt]. unfold p, ConcProofs.cv.
    destruct k; cbn [after_clean RI]; auto.
    + intros C Q. congruence.
    + split; [reflexivity|]. intros C Q. congruence.
    + split; [reflexivity|]. intros C Q. congruence.
  - intros x Hx. right. split.
    + intros K. rewrite LC. cbn [with_pc with_bits core cach vld drt].
      assert (Eo : eo x = None) by (rewrite <- K; symmetry; apply (eon_still n P c0 lc eo s i p I); intros W; now destruct (St x W)).
      destruct (b_s _ _ _ _ _ _ I x Hx Eo) as [B1 B2]. split; [assumption|]. intros _.
      rq I i x Hx E. destruct (drt s x); auto.
    + intros j N. unfold oth. rewrite LC. cbn [with_pc with_bits core cach vld drt].
      eapply RI_clean with (dr := drt s x); [discriminate|].
      eapply RI_mono; [| | |apply (r_q _ _ _ _ _ _ I j x Hx)]; auto.
      * intros y Hy. apply (may_still n P c0 lc eo s _ i p I); [now intros|apply St|exact Hy].
      * intros Hh Hn. apply (nb_still n P c0 lc eo s _ i p I) with (j := j); [now intros|apply St|exact Hh|exact Hn].
Qed.

(** Backfilling readers. *)
Lemma fill lc eo s t i p : InvL lc eo s -> apart s -> hold (pcs s i) = Some true -> is_wr (kd (P i)) = false ->
  (forall j, pcs t j = upd (pcs s) i p j) -> drt t = drt s -> hist t = hist s -> mapd t = mapd s -> core t = core s -> Locks t -> TP i p -> p <> Idle ->
  (forall x, vld s x = true -> vld t x = true) ->
  (forall x, x < n -> (cach t x = cach s x /\ vld t x = vld s x) \/ may s lc eo x (cach t x)) ->
  (forall x, x < n -> RI p x (cv i x) (dat (P i) x) (core t x) (cach t x) (vld t x) (drt t x) (sdat x (lc x))
     (may s lc eo x) False (okr (hist s) i x)) -> Inv t.
Proof.
  intros I A H Wr Ep Ed Eh Em Ec L T Hp Vt D Own. exists (lcn n P lc s i p), (eon n P eo i p).
  assert (Ip : inprog (pcs s i) = true) by (eapply hold_inprog; eassumption).
  assert (St : forall x, still n P s i p x) by (intros x; now apply still_nwr).
  assert (LC : forall x, lcn n P lc s i p x = lc x) by (intros x; apply lcn_still; intros W; now destruct (St x W) as (_ & ? & _)).
  assert (M : mapd s = true) by (apply (locked_mapped s i (lks _ _ _ _ _ _ I)); congruence).
  apply (move n P c0 lc eo s _ i p I); auto; try congruence.
  - intros x K. rewrite Ed in K. apply Vt. now apply (b_d _ _ _ _ _ _ I).
  - split; [congruence|]. intros K. rewrite K in Ip. discriminate.
  - intros x W. apply wc_cv in W. destruct W. congruence.
  - intros x Hx. unfold own. rewrite LC. eapply RI_mono; [| | |now apply Own]; auto; [|intros; contradiction].
    intros y. now apply may_still.
  - intros x Hx. destruct (D x Hx) as [[D1 D2]|D1].
    + left. split; [|apply St]. unfold same. now rewrite Ec, Ed.
    + right. split.
      * intros K. rewrite LC, Ec, Ed.
        assert (Eo : eo x = None) by (rewrite <- K; symmetry; apply (eon_still n P c0 lc eo s i p I); intros W; now destruct (St x W)).
        destruct (b_s _ _ _ _ _ _ I x Hx Eo) as [_ B2]. split; [|assumption]. intros _. destruct D1 as [D1|(j & D1 & _)]; [assumption|congruence].
      * apply oth_held; auto; [apply alone; [apply (lks _ _ _ _ _ _ I)|assumption]| |now rewrite Ec; left].
        intros j N Wj B. rewrite Ed, Ec. split; [auto|]. split; [reflexivity|]. intros Bj _ _ _. rewrite LC.
        destruct D1 as [D1|(k & D1 & D2 & D3)]; [now left|right]. destruct (Nat.eq_dec k j) as [->|Nk]; [assumption|].
        exfalso. apply (e_o _ _ _ _ _ _ I) in D1. destruct D1 as [Wk Ek]. apply (A j k x); auto. eapply eff_inprog; eassumption.
Qed.

(** Write-through marks its sectors valid before it writes. *)
Lemma wt_bits lc eo s i : InvL lc eo s -> apart s -> pcs s i = WtBits ->
  Inv (with_pc (with_bits s (fun x => vld s x || lset (rng (P i)) x) (drt s)) i (WtW false (lset (rng (P i))) (lset (rng (P i))))).
Proof.
  intros I A E. set (p := WtW false _ _). exists (lcn n P lc s i p), (eon n P eo i p). tp I i E.
  assert (H : hold (pcs s i) = Some true) by now rewrite E.
  assert (LC : forall x, lcn n P lc s i p x = lc x) by (intros x; apply lcn_still; now rewrite E).
  apply (move n P c0 lc eo s _ i p I); cbn [with_pc with_bits core cach vld drt mapd hist pcs]; auto.
  - apply (locks_pc s _ i p); auto; [apply (lks _ _ _ _ _ _ I)|discriminate].
  - intros M. rewrite (locked_mapped s i (lks _ _ _ _ _ _ I)) in M; [discriminate|congruence].
  - intros x K. rewrite (b_d _ _ _ _ _ _ I x K). reflexivity.
  - split; [assumption|]. split; now intros x Hx.
  - rewrite E. split; discriminate.
  - intros _. rewrite E. split; discriminate.
  - rewrite E. discriminate.
  - intros x W _. right. apply (eo_wr n P c0 lc eo s I i x A H W). now rewrite E.
  - intros x Hx. unfold own. cbn [with_pc with_bits core cach vld drt p RI]. unfold ConcProofs.cv. intros C. split; congruence.
  - intros x Hx. destruct (wc i x) eqn:W.
    + right. split.
      * intros K. unfold eon in K. rewrite W in K. discriminate.
      * apply oth_mine; try assumption; [apply alone; [apply (lks _ _ _ _ _ _ I)|assumption]|now rewrite E|now left].
    + left. split; [|intros K; congruence]. unfold same. cbn [with_pc with_bits core cach vld drt].
      unfold ConcProofs.wc in W. rewrite T in W. cbn [andb] in W. unfold ConcProofs.cv in W. rewrite W, orb_false_r. repeat split.
Qed.

(** A write is committed with its data in place: no bits change. *)
Lemma commit_plain lc eo s i p : InvL lc eo s -> apart s -> is_wr (kd (P i)) = true -> com (pcs s i) = false -> inprog (pcs s i) = true ->
  (forall j, j <> i -> hold (pcs s j) = None) -> com p = true -> hold p = None -> (p = Unl no_data \/ p = Fin no_data) ->
  (forall x, x < n -> cv i x = true -> (vld s x = true -> cach s x = dat (P i) x) /\ core s x = dat (P i) x) ->
  Inv (with_pc s i p).
Proof.
  intros I A Wr Cs Ip H Cp Hp Ep D. exists (lcn n P lc s i p), (eon n P eo i p).
  apply (move n P c0 lc eo s _ i p I); cbn [with_pc core cach vld drt mapd hist pcs]; auto.
  - apply (locks_pc s _ i p); auto; [apply (lks _ _ _ _ _ _ I)|destruct Ep as [-> | ->]; discriminate].
  - apply (u_b _ _ _ _ _ _ I).
  - apply (b_d _ _ _ _ _ _ I).
  - destruct Ep as [-> | ->]; exact Logic.I.
  - destruct Ep as [-> | ->]; (split; [discriminate|]); intros K; rewrite K in Ip; discriminate.
  - intros _. destruct Ep as [-> | ->]; (split; [discriminate|]); intros K; rewrite K in Ip; discriminate.
  - intros x _ K. destruct Ep as [-> | ->]; discriminate.
  - intros x Hx. unfold own. destruct Ep as [-> | ->]; cbn [RI]; intros _ K; congruence.
  - intros x Hx. destruct (wc i x) eqn:W.
    + right. apply wc_cv in W as W'. destruct W' as [_ C]. destruct (D x Hx C) as [D1 D2]. split.
      * intros Eo. cbn [with_pc core cach vld drt]. unfold lcn. rewrite W, Cp, Cs. cbn [andb negb]. cbn [ConcSpec.sdat]. now split.
      * apply oth_mine; try assumption. now left.
    + left. split; [repeat split|]. intros K. congruence.
Qed.

(** A line is mapped. *)
Lemma step_map lc eo s i c1 p : InvL lc eo s -> mapd s = false -> pcs s i = New -> TP i p -> hold p = Some true ->
  com p = false -> (forall x, cv i x = true -> eff p x = false) -> bare p = false ->
  (forall x, x < n -> RI p x (cv i x) (dat (P i) x) (core s x) (c1 x) false false (sdat x (lc x))
     (fun _ => False) False (fun _ => False)) ->
  Inv (with_pc (map_line s i c1) i p).
Proof.
  intros I M E T Hp Cp Ef Bp Own. exists (lcn n P lc s i p), (eon n P eo i p).
  assert (U := unheld s (lks _ _ _ _ _ _ I) M).
  assert (LC : forall x, lcn n P lc s i p x = lc x) by (intros x; apply lcn_still; now rewrite E).
  apply (move n P c0 lc eo s _ i p I); cbn [with_pc map_line core cach vld drt mapd hist pcs]; auto; try discriminate.
  - constructor; cbn [with_pc map_line wrl rdl wts mapd pcs]; try congruence.
    + intros j. destruct (Nat.eq_dec j i) as [->|N]; [reflexivity|rewrite upd_neq by assumption]. destruct (U j) as [U1 _]. congruence.
    + intros j. destruct (Nat.eq_dec j i) as [->|N]; [rewrite upd_eq; congruence|rewrite upd_neq by assumption]. destruct (U j) as [U1 _]. congruence.
    + intros j k. destruct (Nat.eq_dec j i) as [->|N]; [rewrite upd_eq; intros ->; discriminate|rewrite upd_neq by assumption].
      destruct (U j) as [_ U2]. intros K. now apply U2 in K.
  - rewrite E. split; [intros ->|]; discriminate.
  - intros _. rewrite E. split; [intros ->|]; discriminate.
  - rewrite E. discriminate.
  - intros x W K. apply wc_cv in W. destruct W as [_ W]. rewrite (Ef x W) in K. discriminate.
  - intros x Hx. unfold own. rewrite LC. cbn [with_pc map_line core cach vld drt].
    eapply RI_mono; [| | |now apply Own]; intros; contradiction.
  - intros x Hx. right. split.
    + intros K. rewrite LC. cbn [with_pc map_line core cach vld drt]. split; [discriminate|]. intros _.
      apply (b_s _ _ _ _ _ _ I x Hx); [|eapply unmapped_clean; eassumption].
      rewrite <- K. symmetry. apply (eon_still n P c0 lc eo s i p I). intros W. rewrite E. cbn [eff]. apply Ef. now apply wc_cv in W.
    + apply oth_held; auto; cbn [with_pc map_line core cach vld drt]; auto.
      * intros j N. apply U.
      * intros j N Wj B. split; [auto|]. split; [auto|]. discriminate.
Qed.

(** A clean line nobody uses is taken away. *)
Lemma step_evict lc eo s : InvL lc eo s -> wrl s = None -> rdl s = [] -> wts s = [] -> any_dirty n s = false -> Inv (unmap s).
Proof.
  intros I E1 E2 E3 D. set (p := pcs s 0). exists (lcn n P lc s 0 p), (eon n P eo 0 p).
  assert (L := lks _ _ _ _ _ _ I).
  assert (U : forall j, hold (pcs s j) = None).
  { intros j. destruct (hold (pcs s j)) as [[|]|] eqn:E; [|  |reflexivity].
    - apply (k_w s L) in E. congruence.
    - apply (k_r s L) in E. rewrite E2 in E. contradiction. }
  assert (Ep : forall j, pcs (unmap s) j = upd (pcs s) 0 p j).
  { intros j. destruct (Nat.eq_dec j 0) as [->|N]; [reflexivity|now rewrite upd_neq]. }
  assert (St : forall x, still n P s 0 p x) by (intros x _; repeat split; auto).
  assert (LC : forall x, lcn n P lc s 0 p x = lc x) by (intros x; now apply lcn_still).
  assert (OT : forall j x, x < n -> oth n P c0 lc eo s (unmap s) 0 p j x).
  { intros j x Hx. unfold oth. eapply RI_unheld; [apply U| | | |apply (r_q _ _ _ _ _ _ I j x Hx)]; auto.
    intros B C. cbn [unmap core cach vld drt]. split; [auto|]. split; [auto|]. discriminate. }
  apply (move n P c0 lc eo s _ 0 p I); cbn [unmap core cach vld drt mapd hist pcs]; auto; try discriminate.
  - constructor; cbn [unmap wrl rdl wts mapd pcs]; auto; try (intros j; rewrite U; discriminate).
    intros j k K. apply (k_t s L) in K. rewrite E3 in K. contradiction.
  - apply (t_p _ _ _ _ _ _ I).
  - now split.
  - now split.
  - intros x Hx. apply (OT 0 x Hx).
  - intros x Hx. right. split; [|intros j _; now apply OT]. intros K. rewrite LC. cbn [unmap core cach vld drt]. split; [discriminate|].
    intros _. apply (b_s _ _ _ _ _ _ I x Hx); [|now apply any_dirty_spec].
    rewrite <- K. symmetry. now apply (eon_still n P c0 lc eo s 0 p I).
Qed.

(** The core writes of a cleaning are chosen. *)
Lemma step_sub lc eo s i b k : InvL lc eo s -> mild s -> pcs s i = CSub b k -> Inv (with_pc s i (CLand (clean_set n strict s) b k)).
Proof.
  intros I Md E. tp I i E.
  assert (M : strict = true \/ forall j, bare (pcs s j) = false).
  { destruct Md as [M|M]; [now left|right]. intros j. specialize (M j i b k). destruct (bare (pcs s j)); [|reflexivity]. now destruct M. }
  assert (H : hold (pcs s i) = Some (cwr k)) by now rewrite E.
  apply (plain_pc lc eo); side E.
  - assumption.
  - left. now rewrite E.
  - cbn [ConcProofs.TP]. split; [|assumption]. intros x. unfold clean_set. destruct (_ && _ && _).
    + unfold everything. apply Nat.ltb_lt.
    + intros K. apply andb_true_iff in K. destruct K as [K _]. apply andb_true_iff in K. destruct K as [K _]. now apply Nat.ltb_lt.
  - intros x W. rewrite E. cbn. repeat split; auto.
  - intros x Hx. cbn [RI]. rq I i x Hx E. rewrite R.
    assert (Q : (exists j, writes j x /\ bare (pcs s j) = true) -> drt s x = false).
    { intros (j & Wj & Bj). eapply (bare_clean n P c0); eassumption. }
    assert (EO : drt s x = true \/ (forall j, bare (pcs s j) = false) -> eo x = None).
    { intros K. destruct (eo x) as [j|] eqn:Eo; [|reflexivity]. exfalso.
      destruct (eo_hold n P c0 lc eo s I i _ x j H) as (Wj & N & B & _); [left; now rewrite E|assumption|].
      destruct K as [K|K]; [|congruence]. rewrite Q in K; [discriminate|now exists j]. }
    unfold clean_set. destruct (negb strict && all_valid n s (fun _ => true) && any_dirty n s) eqn:C.
    + apply andb_true_iff in C. destruct C as [C _]. apply andb_true_iff in C. destruct C as [C1 C2].
      destruct M as [M|M]; [rewrite M in C1; discriminate|]. split.
      * intros _. split; [|intros j _ B; congruence]. apply (b_s _ _ _ _ _ _ I x Hx); [now apply EO; right|].
        eapply all_valid_spec; [eassumption|assumption|reflexivity].
      * intros _. left. now apply everything_spec.
    + assert (Xn : x <? n = true) by now apply Nat.ltb_lt. rewrite Xn. cbn [andb]. split.
      * intros K. apply andb_true_iff in K. destruct K as [K1 K2]. split.
        { apply (b_s _ _ _ _ _ _ I x Hx); [now apply EO; left|assumption]. }
        { intros j Wj Bj. rewrite Q in K2; [discriminate|now exists j]. }
      * intros K. left. rewrite K, (b_d _ _ _ _ _ _ I x K). reflexivity.
Qed.

Lemma step_granted lc eo s i k : InvL lc eo s -> pcs s i = Wait k -> lock_free s (kwr k) = true ->
  Inv (granted n P (with_lock s i (kwr k)) i k).
Proof.
  intros I E F. tp I i E.
  assert (AD : any_dirty n (with_lock s i (kwr k)) = any_dirty n s) by reflexivity.
  assert (AV : all_valid n (with_lock s i (kwr k)) (rng (P i)) = all_valid n s (rng (P i))) by reflexivity.
  assert (GC : forall ck p, kwr k = cwr ck ->
     (match ck with AWi _ => is_wr (kd (P i)) = true | _ => is_wr (kd (P i)) = false end) -> com (Wait k) = false -> bare (Wait k) = false ->
     (forall x, eff (Wait k) x = false) ->
     (any_dirty n s = false -> Inv (with_pc (with_lock s i (kwr k)) i p)) -> Inv (to_clean n (with_lock s i (kwr k)) i ck p)).
  { intros ck p Hk Tk Ck Bk Ek Hp. unfold to_clean. rewrite AD. destruct (any_dirty n s) eqn:D; [|now apply Hp].
    apply (plain_grant lc eo s i k); auto; try discriminate.
    - left. cbn [hold]. now rewrite Hk.
    - split; [|assumption]. intros x. unfold everything. apply Nat.ltb_lt.
    - congruence.
    - intros x W. rewrite E, Ek, Ck, Bk. cbn. repeat split; auto.
    - intros x Hx. cbn [RI]. rewrite (everything_spec x Hx). discriminate. }
  assert (GW : forall p, k = KtWb \/ k = KtWt \/ (exists h d, k = KtWi1 h d) -> is_wr (kd (P i)) = true ->
     (p = WtBits \/ (exists h, p = WiCore true h (lset (rng (P i)))) \/ p = WbW (lset (rng (P i))) \/ p = WtW true (lset (rng (P i))) (lset (rng (P i)))) ->
     Inv (with_pc (with_lock s i (kwr k)) i p)).
  { intros p Hk Wr Hp.
    assert (K1 : kwr k = true /\ com (Wait k) = false /\ bare (Wait k) = false /\ forall x, eff (Wait k) x = false).
    { destruct Hk as [->|[->|(h & d & ->)]]; repeat split. }
    destruct K1 as (K1 & K2 & K3 & K4).
    apply (plain_grant lc eo s i k); auto.
    - left. rewrite K1. destruct Hp as [->|[(h & ->)|[-> | ->]]]; reflexivity.
    - destruct Hp as [->|[(h & ->)|[-> | ->]]]; discriminate.
    - destruct Hp as [->|[(h & ->)|[-> | ->]]]; cbn; repeat split; auto; now intros x Hx.
    - destruct Hp as [->|[(h & ->)|[-> | ->]]]; discriminate.
    - intros _. destruct Hp as [->|[(h & ->)|[-> | ->]]]; discriminate.
    - rewrite E, K2. discriminate.
    - intros x W. apply wc_cv in W. destruct W as [_ W]. unfold ConcProofs.cv in W. rewrite E, K2, K3, K4.
      destruct Hp as [->|[(h & ->)|[-> | ->]]]; cbn [eff com bare negb orb]; rewrite ?W; cbn; repeat split; auto; discriminate.
    - intros x Hx. unfold ConcProofs.cv.
      destruct Hp as [->|[(h & ->)|[-> | ->]]]; cbn [RI]; auto; [congruence|congruence|split; congruence]. }
  destruct k as [h d|lk| | |wr| |]; unfold granted.
  - destruct d; [apply GC|apply GW]; auto.
    + intros _. apply GW; auto; [|right; left; now exists h]. right. right. now exists h, true.
    + right. right. now exists h, false.
    + right. left. now exists h.
  - apply (plain_grant lc eo s i (KtWi2 lk)); auto; try discriminate.
    + rewrite E. auto.
    + intros x W. rewrite E. cbn [eff com bare]. repeat split; auto.
    + intros x Hx. rq I i x Hx E. destruct lk; exact R.
  - apply GW; auto.
  - apply GW; auto. rewrite AD. destruct (any_dirty n s); auto.
  - rewrite AV. destruct (all_valid n s (rng (P i))) eqn:V.
    + apply (plain_grant lc eo s i (KtRd wr)); auto; try discriminate; try congruence.
      * split; [assumption|now intros x Hx].
      * intros x. now apply still_nwr.
      * intros x Hx. cbn [RI]. unfold ConcProofs.cv. intros C. split; [|congruence]. eapply all_valid_spec; [eassumption|assumption|].
        unfold ConcModel.lset in C. now apply andb_true_iff in C.
    + destruct wr; apply GC; auto; intros D.
      * apply (plain_grant lc eo s i (KtRd true)); auto; try discriminate; try congruence.
        { split; [assumption|now intros x Hx]. }
        { intros x. now apply still_nwr. }
        { intros x Hx. cbn [RI]. unfold ConcProofs.cv. split; [now apply any_dirty_spec|congruence]. }
      * apply (plain_grant lc eo s i (KtRd false)); auto; try discriminate; try congruence.
        { split; [assumption|now intros x Hx]. }
        { intros x. now apply still_nwr. }
        { intros x Hx. cbn [RI]. unfold ConcProofs.cv. split; [now apply any_dirty_spec|congruence]. }
  - apply GC; auto. intros D. apply (plain_grant lc eo s i KtPt); auto; try discriminate; try congruence.
    + split; [assumption|now intros x Hx].
    + intros x. now apply still_nwr.
    + intros x Hx. cbn [RI]. unfold ConcProofs.cv. split; [now apply any_dirty_spec|congruence].
  - apply GC; auto. intros D. apply (plain_grant lc eo s i KtCl); auto; try discriminate; try congruence.
    + intros x. now apply still_nwr.
    + intros x Hx. exact Logic.I.
Qed.

Lemma inprog_wait lc eo s i k : InvL lc eo s -> pcs s i = New -> mapd s = true ->
  (match k with KtRd _ | KtPt | KtCl => is_wr (kd (P i)) = false | _ => is_wr (kd (P i)) = true end) -> (forall lk, k <> KtWi2 lk) -> Inv (with_wait s i k).
Proof.
  intros I E M T Hk. apply (plain_wait lc eo); auto; try (rewrite E; discriminate).
  - intros x W. rewrite E. destruct k as [h d|lk| | |wr| |]; try (now destruct (Hk lk)); repeat split; auto; discriminate.
  - intros x Hx. destruct k as [h d|lk| | |wr| |]; cbn [RI]; auto. now destruct (Hk lk).
Qed.

Lemma off_sub q i x0 : sub n P q i -> sub n P (off q x0) i.
Proof. intros H x. unfold off, upd. destruct (x =? x0); [discriminate|apply H]. Qed.
Lemma off_small q x0 : small n q -> small n (off q x0).
Proof. intros H x. unfold off, upd. destruct (x =? x0); [discriminate|apply H]. Qed.
Lemma off_neq q x0 x : x <> x0 -> off q x0 x = q x.
Proof. intros N. unfold off. now rewrite upd_neq. Qed.
Lemma off_eq q x0 : off q x0 x0 = false.
Proof. unfold off. now rewrite upd_eq. Qed.
Lemma locks_same s t i p : Locks s -> pcs t = upd (pcs s) i p -> wrl t = wrl s -> rdl t = rdl s -> wts t = wts s -> mapd t = mapd s ->
  hold p = hold (pcs s i) -> (forall k, p <> Wait k) -> Locks t.
Proof. intros. eapply locks_pc; eauto. Qed.

Lemma go_inv s i t : Inv s -> apart s -> mild s -> go s i = Some t -> Inv t.
Proof.
  intros (lc & eo & I) A M. assert (L := lks _ _ _ _ _ _ I). unfold ConcModel.go.
  destruct (pcs s i) as [| | | |kt|q b ck|b ck|q b ck|ck|lk hit q|hit| |lk|lk|q| | |d q q'| |wr q b|q b|q b|b|lk q b|b|b| |] eqn:E; tp I i E.
  - intros H; injection H as <-. now apply (step_start lc eo).
  - destruct (kd (P i)) eqn:K.
    + intros H; injection H as <-. apply (step_wi lc eo); auto. now rewrite K.
    + destruct (mapd s) eqn:Mp; [|discriminate]. intros H; injection H as <-. apply (inprog_wait lc eo); auto; [now rewrite K|discriminate].
    + destruct (mapd s) eqn:Mp; [|discriminate]. intros H; injection H as <-. apply (inprog_wait lc eo); auto; [now rewrite K|discriminate].
    + destruct (mapd s) eqn:Mp; [|discriminate]. intros H; injection H as <-. apply (inprog_wait lc eo); auto; [now rewrite K|discriminate].
    + intros H; injection H as <-. apply (step_pt lc eo); auto. now rewrite K.
    + intros H; injection H as <-. assert (Wr : is_wr (kd (P i)) = false) by now rewrite K.
      destruct (mapd s) eqn:Mp; [apply (inprog_wait lc eo); auto; discriminate|].
      apply (plain_pc lc eo); auto; try congruence; try discriminate.
      * rewrite E. split; discriminate.
      * intros x. now apply still_nwr.
  - intros H; injection H as <-. apply (step_wi lc eo); auto.
  - intros H; injection H as <-. apply (step_pt lc eo); auto.
  - destruct (lock_free s (kwr kt)) eqn:F; [|discriminate]. intros H; injection H as <-. now apply (step_granted lc eo).
  - destruct (none_left n q) eqn:N; [|discriminate]. intros H; injection H as <-. assert (NL := none_left_spec q N).
    apply (plain_pc lc eo); side E; auto; [left; now rewrite E|apply T|intros x W; rewrite E; repeat split; auto|].
    intros x Hx. rq I i x Hx E. cbn [RI]. auto.
  - intros H; injection H as <-. now apply (step_sub lc eo).
  - destruct (none_left n q) eqn:N; [|discriminate]. intros H; injection H as <-. assert (NL := none_left_spec q N).
    apply (plain_pc lc eo); side E; auto; [left; now rewrite E|apply T|intros x W; rewrite E; repeat split; auto|].
    intros x Hx. rq I i x Hx E. cbn [RI]. intros D. destruct R as [_ R]. destruct (R D) as [R'|R']; [|assumption]. rewrite NL in R'; [discriminate|assumption].
  - intros H; injection H as <-. now apply (bits_clean lc eo).
  - destruct (none_left n q) eqn:N; [|discriminate]. intros H; injection H as <-. assert (NL := none_left_spec q N). destruct T as [Wr Sb].
    destruct lk.
    + apply (plain_pc lc eo); side E; auto; [left; now rewrite E| |].
      * intros x W. apply wc_cv in W. destruct W as [_ W]. rewrite E. cbn [eff com bare negb]. rewrite (NL x (cv_lt i x W)). repeat split; auto.
      * intros x Hx. rq I i x Hx E. cbn [RI]. auto.
    + apply (plain_pc lc eo); side E; auto.
      * intros x W. apply wc_cv in W. destruct W as [_ W]. rewrite E. cbn [eff com bare negb]. rewrite (NL x (cv_lt i x W)). repeat split; auto.
      * intros x Hx. rq I i x Hx E. cbn [RI]. intros C. destruct (R C) as [R1 R2]. split; [assumption|]. apply R2. now apply NL.
  - intros H; injection H as <-. apply (commit_purge lc eo); auto; try (now rewrite E).
    + destruct hit; auto.
    + destruct hit; auto.
  - intros H; injection H as <-. apply (plain_unlock lc eo); side E; auto.
    + intros x W. rewrite E. repeat split; auto; discriminate.
    + intros x Hx. rq I i x Hx E. exact R.
  - intros H; injection H as <-. destruct (mapd s) eqn:Mp.
    + apply (plain_wait lc eo); auto; try (rewrite E; discriminate).
      * rewrite E. auto.
      * intros x W. rewrite E. cbn [eff com bare]. repeat split; auto.
      * intros x Hx. rq I i x Hx E. destruct lk; exact R.
    + assert (U := unheld s L Mp). destruct lk.
      * apply (plain_pc lc eo); side E; auto.
        { intros x W. rewrite E. repeat split; auto; discriminate. }
        { intros x Hx. cbn [RI]. intros _ K. congruence. }
      * apply (commit_plain lc eo); auto; try (now rewrite E).
        { intros j _. apply U. }
        { intros x Hx C. rq I i x Hx E. destruct (R C) as (R1 & R2 & R3). split; [|assumption]. intros K. rewrite (u_b _ _ _ _ _ _ I Mp) in K. discriminate. }
  - intros H; injection H as <-. apply (commit_purge lc eo); auto; try (now rewrite E). right. right. now exists lk.
  - destruct (none_left n q) eqn:N; [|discriminate]. intros H; injection H as <-. assert (NL := none_left_spec q N). destruct T as [Wr Sb].
    apply (plain_pc lc eo); side E; auto; [left; now rewrite E| |].
    + intros x W. apply wc_cv in W. destruct W as [_ W]. rewrite E. cbn [eff com bare negb]. rewrite (NL x (cv_lt i x W)). repeat split; auto.
    + intros x Hx. rq I i x Hx E. cbn [RI]. auto.
  - intros H; injection H as <-. apply (commit_bits lc eo); auto; try (now rewrite E).
    + intros x Hx C. rq I i x Hx E. split; [auto|]. unfold ConcProofs.cv in C. rewrite C, orb_true_r. discriminate.
    + intros x C. unfold ConcProofs.cv in C. rewrite C, !orb_false_r. now split.
    + intros x K. apply orb_true_iff in K. destruct K as [K|K]; [rewrite (b_d _ _ _ _ _ _ I x K); reflexivity|rewrite K; apply orb_true_r].
  - intros H; injection H as <-. now apply (wt_bits lc eo).
  - destruct (none_left n q && none_left n q') eqn:N; [|discriminate]. intros H; injection H as <-. apply andb_true_iff in N. destruct N as [N1 N2].
    assert (NL := none_left_spec q N1). assert (NL' := none_left_spec q' N2). destruct T as (Wr & Sb & Sb').
    destruct d.
    + apply (plain_pc lc eo); side E; auto; [left; now rewrite E| |].
      * intros x W. apply wc_cv in W. destruct W as [_ W]. rewrite E. cbn [eff com bare negb]. rewrite (NL x (cv_lt i x W)). repeat split; auto.
      * intros x Hx. rq I i x Hx E. cbn [RI]. intros C. destruct (R C). auto.
    + apply (commit_plain lc eo); auto; try (now rewrite E).
      * apply alone; [assumption|now rewrite E].
      * intros x Hx C. rq I i x Hx E. destruct (R C). auto.
  - intros H; injection H as <-. apply (commit_bits lc eo); auto; try (now rewrite E).
    + intros x Hx C. rq I i x Hx E. destruct (R C). auto.
    + intros x C. unfold ConcProofs.cv in C. rewrite C, orb_false_r, andb_true_r. now split.
    + intros x K. apply andb_true_iff in K. destruct K as [K _]. rewrite (b_d _ _ _ _ _ _ I x K). reflexivity.
  - destruct (none_left n q) eqn:N; [|discriminate]. intros H; injection H as <-. assert (NL := none_left_spec q N). destruct T as [Wr Sb].
    apply (plain_pc lc eo); side E; auto; try congruence.
    + intros x. now apply still_nwr.
    + intros x Hx. rq I i x Hx E. cbn [RI]. intros C. apply (R C). now apply NL.
  - destruct (none_left n q) eqn:N; [|discriminate]. intros H; injection H as <-. assert (NL := none_left_spec q N). destruct T as [Wr Sb].
    apply (step_ack lc eo); auto; try congruence; try discriminate; try (now rewrite E).
    + apply (locks_same s _ i (RdFill (lset (rng (P i))) b)); auto; [now rewrite E|discriminate].
    + split; [assumption|now intros x Hx].
    + intros x. now apply still_nwr.
    + intros x Hx Rx. rq I i x Hx E. destruct R as [_ R]. apply R; [now apply cv_spec|now apply NL].
    + intros x Hx. rq I i x Hx E. cbn [RI]. destruct R as [_ R]. intros C. split; [apply R; auto|]. unfold ConcProofs.cv in C. congruence.
  - destruct (none_left n q) eqn:N; [|discriminate]. intros H; injection H as <-. assert (NL := none_left_spec q N). destruct T as [Wr Sb].
    apply (plain_pc lc eo); side E; auto; try congruence; [left; now rewrite E|intros x; now apply still_nwr|].
    intros x Hx. rq I i x Hx E. cbn [RI]. intros C. destruct (R C) as [R1 R2]. rewrite (R2 (NL x Hx)). assumption.
  - intros H; injection H as <-. apply (fill lc eo s _ i UnlDone); auto; try discriminate; try (now rewrite E).
    + apply (locks_pc s _ i UnlDone); auto; discriminate.
    + intros x K. cbn [with_pc with_bits vld]. now rewrite K.
    + intros x Hx. cbn [with_pc with_bits vld cach]. destruct (lset (rng (P i)) x) eqn:C; [right|left; now rewrite orb_false_r].
      rq I i x Hx E. now apply R.
    + intros x Hx. exact Logic.I.
  - destruct (none_left n q) eqn:N; [|discriminate]. intros H; injection H as <-. assert (NL := none_left_spec q N). destruct T as [Wr Sb].
    apply (step_ack lc eo); auto; try congruence; try discriminate; try (now rewrite E).
    + apply (locks_pc s _ i UnlDone); auto; discriminate.
    + intros x. now apply still_nwr.
    + intros x Hx Rx. assert (C : cv i x = true) by now apply cv_spec. rq I i x Hx E. destruct lk.
      * destruct R as [_ R]. apply R; [assumption|now apply NL].
      * apply R; [assumption|now apply NL].
    + intros x Hx. exact Logic.I.
  - intros H; injection H as <-. apply (plain_unlock lc eo); side E; auto.
    + intros x W. rewrite E. repeat split; auto; discriminate.
    + intros x Hx. rq I i x Hx E. exact R.
  - intros H; injection H as <-. apply (step_ack lc eo); auto; try discriminate; try (now rewrite E).
    + apply (locks_pc s _ i Done); auto; discriminate.
    + intros x W. rewrite E. repeat split; auto; discriminate.
    + intros x Hx Rx. rq I i x Hx E. apply R. now apply cv_spec.
  - intros H; injection H as <-. apply (plain_unlock lc eo); side E; auto; try congruence; try (intros; discriminate).
    + intros x. now apply still_nwr.
    + intros x Hx. exact Logic.I.
  - discriminate.
Qed.

Lemma step_inv s a t : Inv s -> apart s -> mild s -> step s a = Some t -> Inv t.
Proof.
  intros Iv A M. destruct a as [i|i x|i x|i|i c1|]; cbn [ConcModel.step].
  - now apply go_inv.
  - destruct Iv as (lc & eo & I). assert (L := lks _ _ _ _ _ _ I).
    destruct (pcs s i) as [| | | |kt|q b ck|b ck|q b ck|ck|lk hit q|hit| |lk|lk|q| | |d q q'| |wr q b|q b|q b|b|lk q b|b|b| |] eqn:E; try discriminate;
      destruct (q x) eqn:Q; try discriminate; intros H; injection H as <-; tp I i E.
    + destruct T as [Sm Tk]. apply (plain_pc lc eo); side E; auto; [left; now rewrite E|split; [now apply off_small|assumption]|intros y W; rewrite E; repeat split; auto|].
      intros y Hy. rq I i y Hy E. cbn [RI]. destruct (Nat.eq_dec y x) as [->|N]; [now rewrite upd_eq|rewrite off_neq, upd_neq by assumption; exact R].
    + now apply (land_clean lc eo).
    + destruct lk; [|now apply (land_bare lc eo)]. destruct T as [Wr Sb].
      apply (land_wr lc eo s _ i (WiCore true hit (off q x)) x); auto; try (now rewrite E).
      * unfold ConcProofs.wc. rewrite Wr. now apply Sb.
      * apply (locks_same s _ i (WiCore true hit (off q x))); auto; [now rewrite E|discriminate].
      * intros y N. rewrite E. cbn [with_pc with_core core cach eff]. rewrite upd_neq, off_neq by assumption. repeat split.
      * right. cbn [with_pc with_core core]. now rewrite upd_eq.
      * cbn [eff]. now rewrite off_eq.
      * split; [assumption|now apply off_sub].
      * intros y Hy. rq I i y Hy E. cbn [RI with_pc with_core core cach]. destruct (Nat.eq_dec y x) as [->|N]; [now rewrite upd_eq|rewrite off_neq, upd_neq by assumption; exact R].
    + destruct T as [Wr Sb].
      apply (land_wr lc eo s _ i (WbW (off q x)) x); auto; try (now rewrite E).
      * unfold ConcProofs.wc. rewrite Wr. now apply Sb.
      * apply (locks_same s _ i (WbW (off q x))); auto; [now rewrite E|discriminate].
      * intros y N. rewrite E. cbn [with_pc with_cach core cach eff]. rewrite upd_neq, off_neq by assumption. repeat split.
      * cbn [eff]. now rewrite off_eq.
      * split; [assumption|now apply off_sub].
      * intros y Hy. rq I i y Hy E. cbn [RI with_pc with_cach core cach]. destruct (Nat.eq_dec y x) as [->|N]; [now rewrite upd_eq|rewrite off_neq, upd_neq by assumption; exact R].
    + destruct T as (Wr & Sb & Sb').
      apply (land_wr lc eo s _ i (WtW d (off q x) q') x); auto; try (now rewrite E).
      * unfold ConcProofs.wc. rewrite Wr. now apply Sb.
      * apply (locks_same s _ i (WtW d (off q x) q')); auto; [now rewrite E|discriminate].
      * intros y N. rewrite E. cbn [with_pc with_cach core cach eff]. rewrite upd_neq, off_neq by assumption. repeat split.
      * cbn [eff]. rewrite off_eq. now destruct d.
      * split; [assumption|split; [now apply off_sub|assumption]].
      * intros y Hy. rq I i y Hy E. cbn [RI with_pc with_cach core cach]. intros C. destruct (R C) as [R1 R2].
        destruct (Nat.eq_dec y x) as [->|N]; [now rewrite upd_eq|rewrite off_neq, upd_neq by assumption; now split].
    + destruct T as [Wr Sb]. apply (plain_pc lc eo); side E; auto; try congruence.
      * left. now rewrite E.
      * split; [assumption|now apply off_sub].
      * intros y. now apply still_nwr.
      * intros y Hy. rq I i y Hy E. cbn [RI]. intros C. destruct (R C) as [R1 R2]. split; [assumption|].
        destruct (Nat.eq_dec y x) as [->|N]; [|rewrite off_neq, upd_neq by assumption; exact R2].
        rewrite upd_eq. intros _. apply (cach_ok n P c0 lc eo s I); auto.
        intros j Ej. apply (eo_hold n P c0 lc eo s I i wr x j); [now rewrite E|left; now rewrite E|assumption].
    + destruct T as [Wr Sb]. apply (plain_pc lc eo); side E; auto; try congruence.
      * left. now rewrite E.
      * split; [assumption|now apply off_sub].
      * intros y. now apply still_nwr.
      * intros y Hy. rq I i y Hy E. cbn [RI]. destruct R as [R1 R2]. split; [assumption|]. intros C.
        destruct (Nat.eq_dec y x) as [->|N]; [|rewrite off_neq, upd_neq by assumption; now apply R2].
        rewrite upd_eq. intros _.
        assert (K : may s lc eo x (core s x)).
        { apply (core_may n P c0 lc eo s I); auto.
          intros j Ej. apply (eo_hold n P c0 lc eo s I i true x j); [now rewrite E|left; now rewrite E|assumption]. }
        split; [assumption|]. now apply (ok_may n P c0 lc eo s I).
    + destruct T as [Wr Sb]. assert (C := Sb x Q). assert (Hx := cv_lt i x C). rq I i x Hx E. destruct (R C) as [R1 _].
      apply (fill lc eo s _ i (RdFill (off q x) b)); auto; try discriminate; try (now rewrite E).
      * apply (locks_same s _ i (RdFill (off q x) b)); auto; [now rewrite E|discriminate].
      * split; [assumption|now apply off_sub].
      * intros y Hy. cbn [with_pc with_cach cach vld]. destruct (Nat.eq_dec y x) as [->|N]; [right; now rewrite upd_eq|left; now rewrite upd_neq].
      * intros y Hy. rq I i y Hy E. cbn [RI with_pc with_cach core cach]. intros Cy. destruct (R0 Cy) as [R3 R4]. split; [assumption|].
        destruct (Nat.eq_dec y x) as [->|N]; [now rewrite upd_eq|rewrite off_neq, upd_neq by assumption; exact R4].
    + destruct T as [Wr Sb]. apply (plain_pc lc eo); side E; auto; try congruence.
      * left. now rewrite E.
      * split; [assumption|now apply off_sub].
      * intros y. now apply still_nwr.
      * intros y Hy. rq I i y Hy E. destruct lk; cbn [RI].
        { destruct R as [R1 R2]. split; [assumption|]. intros C.
          destruct (Nat.eq_dec y x) as [->|N]; [|rewrite off_neq, upd_neq by assumption; now apply R2].
          rewrite upd_eq. intros _. apply (ok_may n P c0 lc eo s I). apply (core_may n P c0 lc eo s I); auto.
          intros j Ej. apply (eo_hold n P c0 lc eo s I i false x j); [now rewrite E|left; now rewrite E|assumption]. }
        { intros C. destruct (R C) as [R1 R2].
          destruct (Nat.eq_dec y x) as [->|N]; [|rewrite off_neq, upd_neq by assumption; now split].
          rewrite upd_eq, off_eq. split; [discriminate|]. intros _. now apply R1. }
  - destruct Iv as (lc & eo & I). assert (L := lks _ _ _ _ _ _ I).
    destruct (pcs s i) as [| | | |kt|q b ck|b ck|q b ck|ck|lk hit q|hit| |lk|lk|q| | |d q q'| |wr q b|q b|q b|b|lk q b|b|b| |] eqn:E; try discriminate.
    destruct (q' x) eqn:Q; try discriminate; intros H; injection H as <-; tp I i E. destruct T as (Wr & Sb & Sb').
    apply (land_wr lc eo s _ i (WtW d q (off q' x)) x); auto; try (now rewrite E).
    + unfold ConcProofs.wc. rewrite Wr. now apply Sb'.
    + apply (locks_same s _ i (WtW d q (off q' x))); auto; [now rewrite E|discriminate].
    + intros y N. rewrite E. cbn [with_pc with_core core cach eff]. rewrite upd_neq, off_neq by assumption. repeat split.
    + right. cbn [with_pc with_core core]. now rewrite upd_eq.
    + cbn [eff]. rewrite off_eq. destruct d; [apply orb_true_r|reflexivity].
    + split; [assumption|split; [assumption|now apply off_sub]].
    + intros y Hy. rq I i y Hy E. cbn [RI with_pc with_core core cach]. intros C. destruct (R C) as [R1 R2].
      destruct (Nat.eq_dec y x) as [->|N]; [rewrite upd_eq; now split|rewrite off_neq, upd_neq by assumption; now split].
  - destruct Iv as (lc & eo & I). assert (L := lks _ _ _ _ _ _ I).
    destruct (pcs s i) eqn:E; try discriminate. destruct (kd (P i)) eqn:K; try discriminate; intros H; injection H as <-.
    + apply (plain_pc lc eo); side E; auto; [cbn; now rewrite K|intros y W; rewrite E; repeat split; auto; discriminate|intros y Hy; exact Logic.I].
    + apply (plain_pc lc eo); side E; auto; [cbn; now rewrite K|intros y W; rewrite E; repeat split; auto; discriminate|intros y Hy; exact Logic.I].
    + apply (plain_pc lc eo); side E; auto; [cbn; now rewrite K|intros y; apply still_nwr; now rewrite K|intros y Hy; exact Logic.I].
  - destruct Iv as (lc & eo & I). destruct (mapd s) eqn:Mp; [discriminate|].
    destruct (pcs s i) eqn:E; try discriminate. destruct (kd (P i)) eqn:K; try discriminate; intros H; injection H as <-.
    + apply (step_map lc eo); auto.
      * split; [now rewrite K|now intros x Hx].
      * intros x C. cbn. unfold ConcProofs.cv in C. now rewrite C.
      * intros x Hx. cbn [RI]. unfold ConcProofs.cv. congruence.
    + apply (step_map lc eo); auto; [cbn; now rewrite K|]. intros x Hx. exact Logic.I.
    + apply (step_map lc eo); auto.
      * split; [now rewrite K|now intros x Hx].
      * intros x Hx. cbn [RI]. unfold ConcProofs.cv. split; [reflexivity|congruence].
  - destruct Iv as (lc & eo & I). destruct (mapd s), (wrl s) eqn:E1, (rdl s) eqn:E2, (wts s) eqn:E3; try discriminate.
    destruct (any_dirty n s) eqn:D; [discriminate|]. intros H; injection H as <-. now apply (step_evict lc eo).
Qed.
End Line.

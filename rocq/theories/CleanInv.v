(** The invariant of a running flush (CleanModel) and its preservation. *)
From Coq Require Import List Bool Arith Lia Permutation.
From Verif Require Import CleanModel CleanProofs.
Import ListNotations.

Section Inv.
Variables (ns nl : nat) (vol : bool).

Notation cdirty := (cdirty ns nl).
Notation coh := (coh ns nl).
Notation rely := (rely ns nl).

Definition clean_line (s : cst) (x : nat) : Prop := forall k, k < ns -> di (ln s x) k = false.

(** Phases in which the request holds its line locks. *)
Definition lock_phase (p : phase) : Prop := match p with PWait | PDone => False | _ => True end.
Definition req_locks (q : creq) (x : nat) : Prop := lock_phase (q_ph q) /\ In x (map it_line (q_items q)).

Definition item_ok (s : cst) (qc : option nat) (it : item) : Prop :=
  it_line it < nl /\ (it_mp it = None \/ core_of (it_mp it) = qc).

(** After the locks were taken. *)
Definition item_lk (s : cst) (it : item) : Prop :=
  (it_flush it = true -> it_mp it <> None /\ mp (ln s (it_line it)) = it_mp it) /\
  (it_flush it = false -> clean_line s (it_line it)).

Definition item_buf (s : cst) (it : item) : Prop :=
  it_flush it = true -> forall k, k < ns -> it_buf it k = da (ln s (it_line it)) k.

Definition item_sync (s : cst) (it : item) : Prop :=
  it_flush it = true -> forall c cl, it_mp it = Some (c, cl) -> synced ns s (it_line it) c cl.

Definition upto (n : nat) (P : item -> Prop) (l : list item) : Prop :=
  forall i it, i < n -> nth_error l i = Some it -> P it.
Definition all (P : item -> Prop) (l : list item) : Prop := forall it, In it l -> P it.

Definition qinv (s : cst) (e : bool) (q : creq) : Prop :=
  all (item_ok s (q_core q)) (q_items q) /\
  match q_ph q with
  | PWait => q_inval q = false /\
             all (fun it => forall k, k < ns -> di (ln s (it_line it)) k = true -> mp (ln s (it_line it)) = it_mp it) (q_items q)
  | PRead => q_inval q = false /\ all (item_lk s) (q_items q)
  | PCore n bad => all (item_lk s) (q_items q) /\
      (q_inval q = true -> e = true) /\
      (q_inval q = false -> all (item_buf s) (q_items q)) /\
      (q_inval q = false -> bad = false -> upto n (item_sync s) (q_items q))
  | PCflush => all (item_lk s) (q_items q) /\ (q_inval q = true -> e = true) /\
      (q_inval q = false -> all (item_sync s) (q_items q))
  | PMeta n => all (item_lk s) (q_items q) /\ (q_inval q = true -> e = true) /\
      (q_inval q = false -> all (item_sync s) (q_items q) /\ upto n (fun it => clean_line s (it_line it)) (q_items q))
  | PMflush | PCaflush | PDone => (q_inval q = true -> e = true) /\
      (q_inval q = false -> all (fun it => clean_line s (it_line it)) (q_items q))
  end.

Lemma qinv_err s q : forall e, qinv s e q -> qinv s true q.
Proof.
  intros e [H1 H2]. split; [assumption|]. destruct (q_ph q); intuition.
Qed.

Lemma rely_clean lk s s' x : rely lk s s' -> x < nl -> clean_line s x -> clean_line s' x.
Proof.
  intros R Hx C k Hk. destruct (di (ln s' x) k) eqn:D; [|reflexivity].
  destruct (r_dirty _ _ _ _ _ R x k Hx Hk D) as [D' _]. now rewrite C in D'.
Qed.

Lemma qinv_rely (lk : nat -> Prop) s s' e q : coh s -> rely lk s s' -> (forall x, req_locks q x -> lk x) ->
  qinv s e q -> qinv s' e q.
Proof.
  intros C R L [H1 H2].
  assert (CL : forall it, In it (q_items q) -> clean_line s (it_line it) -> clean_line s' (it_line it)).
  { intros it Hi. apply (rely_clean lk); [assumption|]. apply (H1 it Hi). }
  assert (LK : lock_phase (q_ph q) -> all (item_lk s) (q_items q) -> all (item_lk s') (q_items q)).
  { intros P A it Hi. destruct (A it Hi) as [A1 A2]. split; [|auto]. intros F. destruct (A1 F) as [B1 B2]. split; [assumption|].
    rewrite <- B2. apply (r_lock _ _ _ _ _ R); [apply (H1 it Hi)|]. apply L. split; [assumption|]. now apply in_map. }
  assert (SY : forall it, In it (q_items q) -> item_lk s it -> item_sync s it -> item_sync s' it).
  { intros it Hi A S F c cl M k Hk D. destruct (H1 it Hi) as [Hx _]. destruct A as [A _]. destruct (A F) as [_ A2].
    destruct (r_dirty _ _ _ _ _ R _ _ Hx Hk D) as [D0 M0].
    pose proof (rely_same_da _ _ _ _ _ _ _ C R Hx Hk D) as E. rewrite E.
    destruct (r_core _ _ _ _ _ R _ k c cl Hx Hk D) as [Q|Q]; [congruence| |exact Q].
    rewrite Q. now apply (S F c cl M). }
  split; [exact H1|]. destruct (q_ph q) as [| |n bad| |n| | |] eqn:P.
  - destruct H2 as [H2 H3]. split; [assumption|]. intros it Hi k Hk D. destruct (H1 it Hi) as [Hx _].
    destruct (r_dirty _ _ _ _ _ R _ _ Hx Hk D) as [D0 M0]. rewrite M0. now apply (H3 it Hi k).
  - destruct H2 as [H2 H3]. split; [assumption|]. apply LK; [exact I|assumption].
  - destruct H2 as (H2 & H3 & H4 & H5). split; [apply LK; [exact I|assumption]|]. split; [assumption|]. split.
    + intros V it Hi F k Hk. destruct (H1 it Hi) as [Hx _].
      destruct (r_lock _ _ _ _ _ R _ Hx) as [_ W]; [apply L; split; [try rewrite P; exact I|now apply in_map]|].
      destruct (W k Hk) as [_ ->]. now apply (H4 V it Hi).
    + intros V B i it Hi E. assert (In it (q_items q)) by (now apply nth_error_In in E).
      apply SY; [assumption|now apply H2|]. now apply (H5 V B i).
  - destruct H2 as (H2 & H3 & H4). split; [apply LK; [exact I|assumption]|]. split; [assumption|]. intros V it Hi. apply SY; auto. now apply (H4 V).
  - destruct H2 as (H2 & H3 & H4). split; [apply LK; [exact I|assumption]|]. split; [assumption|]. intros V. destruct (H4 V) as [H5 H6]. split.
    + intros it Hi. apply SY; auto.
    + intros i it Hi E. assert (In it (q_items q)) by (now apply nth_error_In in E). apply CL; [assumption|]. now apply (H6 i).
  - destruct H2 as (H2 & H3). split; [assumption|]. intros V it Hi. apply CL; auto. now apply (H3 V).
  - destruct H2 as (H2 & H3). split; [assumption|]. intros V it Hi. apply CL; auto. now apply (H3 V).
  - destruct H2 as (H2 & H3). split; [assumption|]. intros V it Hi. apply CL; auto. now apply (H3 V).
Qed.

(** ** Containers *)
Definition kinv (s : cst) (werr : bool) (kc : cont) : Prop :=
  length (k_data kc) <= k_count kc /\
  match k_st kc with
  | Ready => forall x, cdirty s (k_core kc) x -> In x (skipn (k_iter kc) (k_data kc))
  | Running od =>
      (forall q, In q (o_reqs od) -> qinv s (o_err od) q) /\
      (o_err od = false -> forall x, cdirty s (k_core kc) x ->
         In x (skipn (k_iter kc) (k_data kc)) \/ In x (o_todo od) \/
         exists q, In q (o_reqs od) /\ In x (map it_line (q_items q)))
  | Ended => werr = true \/ forall x, ~ cdirty s (k_core kc) x
  end.

Definition cont_locks (kc : cont) (x : nat) : Prop :=
  exists od q, k_st kc = Running od /\ In q (o_reqs od) /\ req_locks q x.

Lemma kinv_rely (lk : nat -> Prop) s s' w kc : coh s -> rely lk s s' -> (forall x, cont_locks kc x -> lk x) ->
  kinv s w kc -> kinv s' w kc.
Proof.
  intros C R L [H0 H1]. split; [assumption|].
  assert (D : forall x, cdirty s' (k_core kc) x -> cdirty s (k_core kc) x) by (intros x; apply (rely_cdirty _ _ _ _ _ _ _ R)).
  destruct (k_st kc) as [|od|] eqn:K.
  - intros x Hx. apply H1. auto.
  - destruct H1 as [H1 H2]. split.
    + intros q Hq. apply (qinv_rely lk s); auto. intros x Hx. apply L. exists od, q. auto.
    + intros E x Hx. apply (H2 E). auto.
  - destruct H1 as [H1|H1]; [now left|right]. intros x Hx. apply (H1 x). auto.
Qed.

Lemma kinv_err s w w' kc : (w = true -> w' = true) -> kinv s w kc -> kinv s w' kc.
Proof.
  intros H [H0 H1]. split; [assumption|]. destruct (k_st kc); auto. destruct H1; auto.
Qed.

(** Cores the flush is about. *)
Definition relevant (only : option nat) (c : nat) : Prop := match only with Some c0 => c = c0 | None => True end.

Definition covered (only : option nat) (s : cst) (o : opst) : Prop :=
  forall c x, relevant only c -> cdirty s c x -> exists kc, In kc (w_conts o) /\ k_core kc = c.

(** Collecting dirty lines: [D c] were the dirty lines of core [c] at the start. *)
Definition sum (l : list nat) : nat := fold_right Nat.add 0 l.
Definition scan_inv (only : option nat) (s : cst) (o : opst) (pos found total : nat) : Prop :=
  exists D : nat -> list nat,
    (forall c, NoDup (D c)) /\
    (forall c x, relevant only c -> cdirty s c x -> In x (D c)) /\
    (forall c x, relevant only c -> In x (D c) -> exists kc,
       nth_error (w_conts o) (match only with Some _ => 0 | None => w_revmap o c end) = Some kc /\ k_core kc = c) /\
    total = sum (map k_count (w_conts o)) /\
    found = sum (map (fun k => length (k_data k)) (w_conts o)) /\
    (forall i j ki kj, nth_error (w_conts o) i = Some ki -> nth_error (w_conts o) j = Some kj -> k_core ki = k_core kj -> i = j) /\
    forall kc, In kc (w_conts o) ->
      k_st kc = Ready /\ k_iter kc = 0 /\ k_count kc = length (D (k_core kc)) /\ NoDup (k_data kc) /\
      (forall x, In x (k_data kc) -> x < pos /\ In x (D (k_core kc))) /\
      (forall x, cdirty s (k_core kc) x -> x < pos -> In x (k_data kc)) /\
      relevant only (k_core kc).

Definition work_inv (only : option nat) (s : cst) (o : opst) : Prop :=
  covered only s o /\ forall kc, In kc (w_conts o) -> kinv s (w_err o) kc.

Definition Inv (only : option nat) (s0 : cst) (c : config) : Prop :=
  match c with
  | Bug => False
  | Cfg s o =>
      coh s /\
      (forall c cl k d, k < ns -> is_content nl s0 c cl k d -> is_content nl s c cl k d) /\
      match w_mode o with
      | Scan pos found total => covered only s o /\ scan_inv only s o pos found total
      | Work => work_inv only s o
      end
  end.

Definition locks (c : config) (x : nat) : Prop :=
  match c with Bug => False | Cfg _ o => exists kc, In kc (w_conts o) /\ cont_locks kc x end.

Lemma covered_rely only lk s s' o : rely lk s s' -> covered only s o -> covered only s' o.
Proof.
  intros R H c x Hc Hx. apply (H c x Hc). now apply (rely_cdirty _ _ _ _ _ _ _ R).
Qed.

Lemma Inv_env only s0 s s' o : Inv only s0 (Cfg s o) -> rely (locks (Cfg s o)) s s' -> Inv only s0 (Cfg s' o).
Proof.
  intros (C & Ct & W) R. split; [apply (r_coh _ _ _ _ _ R)|]. split.
  { intros c cl k d Hk H. apply (r_content _ _ _ _ _ R); auto. }
  destruct (w_mode o) as [pos found total|].
  - destruct W as [W0 (D & D1 & D2 & D3 & D4 & D5 & D6 & D7)]. split; [now apply (covered_rely only _ s s' o R)|].
    exists D. split; [assumption|]. split.
    { intros c x Hc Hx. apply D2; [assumption|]. now apply (rely_cdirty _ _ _ _ _ _ _ R). }
    split; [assumption|]. split; [assumption|]. split; [assumption|]. split; [assumption|].
    intros kc Hk. destruct (D7 kc Hk) as (E1 & E2 & E3 & E4 & E5 & E6 & E7).
    split; [assumption|]. split; [assumption|]. split; [assumption|]. split; [assumption|]. split; [assumption|].
    split; [|assumption]. intros x Hx. apply E6. now apply (rely_cdirty _ _ _ _ _ _ _ R).
  - destruct W as [W0 W1]. split; [now apply (covered_rely only _ s s' o R)|].
    intros kc Hk. apply (kinv_rely (locks (Cfg s o)) s); auto. intros x Hx. exists kc. auto.
Qed.

(** ** Lists *)
Lemma upd_nth_len {A} (l : list A) i a : length (upd_nth l i a) = length l.
Proof. revert i. induction l as [|x l IH]; intros [|i]; cbn; auto. Qed.
Lemma upd_nth_same {A} (l : list A) i a b : nth_error l i = Some b -> nth_error (upd_nth l i a) i = Some a.
Proof. revert i. induction l as [|x l IH]; intros [|i]; cbn; try discriminate; auto. Qed.
Lemma upd_nth_other {A} (l : list A) i j a : i <> j -> nth_error (upd_nth l i a) j = nth_error l j.
Proof. revert i j. induction l as [|x l IH]; intros [|i] [|j] H; cbn; auto; try congruence. Qed.
Lemma upd_nth_in {A} (l : list A) i a b x : nth_error l i = Some b -> In x (upd_nth l i a) -> x = a \/ In x l.
Proof.
  revert i. induction l as [|y l IH]; intros [|i]; cbn; try discriminate.
  - intros _ [H|H]; auto.
  - intros E [H|H]; auto. destruct (IH _ E H); auto.
Qed.
Lemma upd_nth_mem {A} (l : list A) i a b : nth_error l i = Some b -> In a (upd_nth l i a).
Proof. intros E. apply (upd_nth_same l i a) in E. now apply nth_error_In in E. Qed.

Lemma in_upd_old {A} (l : list A) i a b x : nth_error l i = Some b -> In x l -> x = b \/ In x (upd_nth l i a).
Proof.
  revert i. induction l as [|y l IH]; intros [|i]; cbn; try discriminate.
  - intros E [H|H]; [left; congruence|right; now right].
  - intros E [H|H]; [right; now left|]. destruct (IH _ E H); auto.
Qed.

Lemma sum_upd (f : cont -> nat) l i k b : nth_error l i = Some b -> sum (map f (upd_nth l i k)) + f b = sum (map f l) + f k.
Proof.
  revert i. induction l as [|y l IH]; intros [|i]; cbn; try discriminate.
  - intros E. injection E as <-. lia.
  - intros E. specialize (IH _ E). unfold sum in *. lia.
Qed.

Lemma sum_eq_each (f g : cont -> nat) l : (forall k, In k l -> g k <= f k) -> sum (map f l) = sum (map g l) ->
  forall k, In k l -> f k = g k.
Proof.
  induction l as [|y l IH]; cbn; [contradiction|]. intros H E k [<-|Hk].
  - assert (sum (map g l) <= sum (map f l)).
    { clear - H. induction l as [|z l IH]; cbn; [lia|]. pose proof (H z (or_intror (or_introl eq_refl))).
      assert (sum (map g l) <= sum (map f l)) by (apply IH; intros k [Hk|Hk]; [apply H; now left|apply H; right; now right]). unfold sum in *; lia. }
    pose proof (H y (or_introl eq_refl)). unfold sum in *. lia.
  - apply IH; auto.
    assert (sum (map g l) <= sum (map f l)).
    { clear - H. induction l as [|z l IH]; cbn; [lia|]. pose proof (H z (or_intror (or_introl eq_refl))).
      assert (sum (map g l) <= sum (map f l)) by (apply IH; intros k [Hk|Hk]; [apply H; now left|apply H; right; now right]). unfold sum in *; lia. }
    pose proof (H y (or_introl eq_refl)). unfold sum in *. lia.
Qed.

Lemma dirty_count_le s c l : coh s -> (forall x, cdirty s c x -> In x l) -> dc s c <= length l.
Proof.
  intros C H. rewrite (c_cnt _ _ _ C). apply NoDup_incl_length; [apply dlist_nodup|].
  intros x Hx. apply H. now apply dlist_in in Hx.
Qed.

(** ** Populate *)
Lemma populate_spec s : forall m last l its lc rest, populate nl s m last l = (its, lc, rest) ->
  (forall it, In it its -> it_line it < nl /\ it_mp it = mp (ln s (it_line it)) /\ it_flush it = false) /\
  (forall it, In it its -> it_mp it = None \/ core_of (it_mp it) = lc) /\
  (forall c, last = Some c -> lc = Some c) /\
  (forall x, In x l -> x < nl -> In x (map it_line its) \/ In x rest).
Proof.
  intros m last l. revert m last. induction l as [|x l IH]; intros m last its lc rest E.
  - destruct m; cbn in E; injection E as <- <- <-; (split; [intros it []|split; [intros it []|split; [auto|intros x []]]]).
  - destruct m as [|m]; [cbn in E; injection E as <- <- <-; split; [intros it []|split; [intros it []|split; [auto|auto]]]|].
    cbn [populate] in E. destruct (Nat.ltb_spec x nl) as [Hx|Hx].
    + set (it0 := {| it_line := x; it_mp := mp (ln s x); it_flush := false; it_buf := fun _ => 0 |}) in *.
      assert (K : forall last', (last' = core_of (mp (ln s x))) ->
         (let '(i', l', r') := populate nl s m last' l in (it0 :: i', l', r')) = (its, lc, rest) ->
         (forall it, In it its -> it_line it < nl /\ it_mp it = mp (ln s (it_line it)) /\ it_flush it = false) /\
         (forall it, In it its -> it_mp it = None \/ core_of (it_mp it) = lc) /\
         (forall c, last' = Some c -> lc = Some c) /\
         (forall y, In y (x :: l) -> y < nl -> In y (map it_line its) \/ In y rest)).
      { intros last' HL EE. destruct (populate nl s m last' l) as [[i' l'] r'] eqn:P. injection EE as <- <- <-.
        destruct (IH _ _ _ _ _ P) as (I1 & I2 & I3 & I4). split; [intros it [<-|H]; [cbn; auto|auto]|]. split.
        { intros it [<-|H]; [|auto]. cbn [it_mp it0]. destruct (mp (ln s x)) as [[c cl]|] eqn:M; [right|now left].
          cbn in *. symmetry. now apply I3. }
        split; [assumption|]. intros y [<-|Hy] Ly; [left; now left|]. destruct (I4 y Hy Ly); [left; now right|now right]. }
      destruct last as [q|].
      * destruct (core_of (mp (ln s x))) as [q'|] eqn:CO.
        -- destruct (Nat.eqb_spec q' q) as [->|N].
           ++ apply (K (Some q) eq_refl) in E. exact E.
           ++ injection E as <- <- <-. split; [intros it []|]. split; [intros it []|]. split; [auto|]. auto.
        -- injection E as <- <- <-. split; [intros it []|]. split; [intros it []|]. split; [auto|]. auto.
      * apply (K _ eq_refl) in E. destruct E as (E1 & E2 & E3 & E4). split; [assumption|]. split; [assumption|].
        split; [intros; discriminate|]. assumption.
    + destruct (IH _ _ _ _ _ E) as (I1 & I2 & I3 & I4). split; [assumption|]. split; [assumption|]. split; [assumption|].
      intros y [<-|Hy] Ly; [lia|auto].
Qed.

Lemma opt_eqb_eq a b : opt_eqb a b = true -> a = b.
Proof.
  destruct a as [[? ?]|], b as [[? ?]|]; cbn; try discriminate; auto. intros H. apply andb_prop in H. destruct H as [H1 H2].
  apply Nat.eqb_eq in H1. apply Nat.eqb_eq in H2. now subst.
Qed.
Lemma opt_eqb_refl a : opt_eqb a a = true.
Proof. destruct a as [[? ?]|]; cbn; [|reflexivity]. now rewrite !Nat.eqb_refl. Qed.

(** ** Steps of a cleaning request *)
(** Replacing request [qn] of container [k]. *)
Lemma put_q_inv only s0 s s' o k kc od qn q q' merr lost dat :
  Inv only s0 (Cfg s o) -> w_mode o = Work ->
  nth_error (w_conts o) k = Some kc -> k_st kc = Running od -> nth_error (o_reqs od) qn = Some q ->
  rely (fun _ => True) s s' ->
  map it_line (q_items q') = map it_line (q_items q) ->
  qinv s' (o_err od || merr) q' ->
  Inv only s0 (put_q s' o k kc od qn q' merr lost dat).
Proof.
  intros (C & Ct & W) Wm Ek Ks Eq R ML Q'. rewrite Wm in W. destruct W as [W0 W1].
  unfold put_q. split; [apply (r_coh _ _ _ _ _ R)|]. split.
  { intros c cl j d Hj H. apply (r_content _ _ _ _ _ R); auto. }
  cbn [w_mode with_conts]. rewrite Wm.
  assert (Hkc : In kc (w_conts o)) by (now apply nth_error_In in Ek).
  split.
  - intros c x Hc Hx. destruct (covered_rely only _ s s' o R W0 c x Hc Hx) as (k1 & H1 & H2). cbn [w_conts with_conts].
    destruct (in_upd_old _ k (with_kst kc (k_iter kc) (Running {| o_todo := o_todo od; o_reqs := upd_nth (o_reqs od) qn q'; o_err := o_err od || merr |})) _ k1 Ek H1) as [->|H3].
    + eexists. split; [apply (upd_nth_mem _ _ _ _ Ek)|]. exact H2.
    + exists k1. auto.
  - cbn [w_conts with_conts w_err]. intros k1 H1. destruct (upd_nth_in _ _ _ _ _ Ek H1) as [->|H2].
    + assert (KI : kinv s' (w_err o) kc) by (apply (kinv_rely (fun _ => True) s); auto).
      destruct KI as [K0 K1]. rewrite Ks in K1. destruct K1 as [K1 K2].
      split; [exact K0|]. cbn [k_st with_kst k_core k_iter k_data o_reqs o_err o_todo]. split.
      * intros q1 Hq1. destruct (upd_nth_in _ _ _ _ _ Eq Hq1) as [->|Hq2]; [assumption|].
        specialize (K1 q1 Hq2). destruct merr; [rewrite orb_true_r; now apply (qinv_err _ _ (o_err od))|rewrite orb_false_r; assumption].
      * intros E x Hx. apply orb_false_elim in E. destruct E as [E _].
        destruct (K2 E x Hx) as [H|[H|(q1 & Hq1 & Hin)]]; auto. right; right.
        destruct (in_upd_old _ qn q' _ q1 Eq Hq1) as [->|H3].
        -- exists q'. split; [apply (upd_nth_mem _ _ _ _ Eq)|]. now rewrite ML.
        -- exists q1. auto.
    + rewrite orb_false_r. apply (kinv_rely (fun _ => True) s); auto.
Qed.

Lemma all_map (P Q : item -> Prop) (f : item -> item) l : (forall it, P it -> Q (f it)) -> all P l -> all Q (map f l).
Proof. intros H A it Hi. apply in_map_iff in Hi. destruct Hi as (i0 & <- & Hi). apply H. now apply A. Qed.

Lemma step_req_inv only s0 s o k kc od qn q e c' :
  Inv only s0 (Cfg s o) -> w_mode o = Work ->
  nth_error (w_conts o) k = Some kc -> k_st kc = Running od -> nth_error (o_reqs od) qn = Some q ->
  step_req ns vol e s o k kc od qn q = Some c' -> Inv only s0 c'.
Proof.
  intros IV Wm Ek Ks Eq E.
  assert (C : coh s) by (apply IV).
  assert (Q : qinv s (o_err od) q).
  { destruct IV as (_ & _ & W). rewrite Wm in W. destruct W as [_ W]. destruct (W kc (nth_error_In _ _ Ek)) as [_ W1].
    rewrite Ks in W1. apply W1. now apply nth_error_In in Eq. }
  assert (PQ : forall s' q' merr lost dat, rely (fun _ => True) s s' -> map it_line (q_items q') = map it_line (q_items q) ->
    qinv s' (o_err od || merr) q' -> Some (put_q s' o k kc od qn q' merr lost dat) = Some c' -> Inv only s0 c').
  { intros s' q' merr lost dat R ML Q' E'. injection E' as <-. now apply (put_q_inv only s0 s s' o k kc od qn q q'). }
  assert (R0 : rely (fun _ => True) s s) by (now apply rely_refl).
  destruct Q as [Q1 Q2]. unfold step_req in E.
  destruct e; try discriminate; destruct (q_ph q) as [| |n bad| |n| | |] eqn:P; try discriminate.
  - (* ELock *)
    destruct Q2 as [Q2 Q3].
    assert (LK : all (item_lk s) (map (check_item ns s) (q_items q))).
    { intros it Hi. apply in_map_iff in Hi. destruct Hi as (i0 & <- & Hi). split; cbn.
      - intros F. apply andb_prop in F. destruct F as [F1 F2]. apply opt_eqb_eq in F1. split; [|assumption].
        apply test_dirty_iff in F2. destruct F2 as (j & Hj & D). rewrite <- F1. apply (c_dirty _ _ _ C (it_line i0) j); auto. apply (Q1 i0 Hi).
      - intros F j Hj. destruct (di (ln s (it_line i0)) j) eqn:D; [|reflexivity].
        rewrite (Q3 i0 Hi j Hj D), opt_eqb_refl in F. cbn in F.
        rewrite (proj2 (test_dirty_iff ns (ln s (it_line i0)))) in F by eauto. discriminate. }
    assert (OK : all (item_ok s (q_core q)) (map (check_item ns s) (q_items q))).
    { apply (all_map (item_ok s (q_core q))); [|assumption]. intros it H. exact H. }
    refine (PQ _ _ _ _ _ R0 _ _ E); [cbn; rewrite map_map; reflexivity|]. split; [exact OK|]. cbn [q_ph q_items q_inval].
    destruct (existsb it_flush (map (check_item ns s) (q_items q))) eqn:X.
    + split; [exact Q2|assumption].
    + split; [congruence|]. intros _ it Hi. apply LK; [assumption|]. destruct (it_flush it) eqn:F; [|reflexivity].
      assert (existsb it_flush (map (check_item ns s) (q_items q)) = true) by (apply existsb_exists; eauto). congruence.
  - (* ERead *)
    destruct Q2 as [Q2 Q3]. refine (PQ _ _ _ _ _ R0 _ _ E); [destruct ok; cbn; [rewrite map_map; reflexivity|reflexivity]|].
    destruct ok; cbn [negb q_items q_core q_inval q_ph].
    + split; [apply (all_map (item_ok s (q_core q))); [auto|assumption]|]. cbn [negb q_items q_core q_inval q_ph].
      split; [apply (all_map (item_lk s)); [auto|assumption]|]. split; [intros; discriminate|]. split.
      * intros _ it Hi. apply in_map_iff in Hi. destruct Hi as (i0 & <- & Hi). intros F j Hj. cbn in *. now rewrite F.
      * intros _ _ i it Hi. lia.
    + split; [assumption|]. cbn [negb q_items q_core q_inval q_ph]. split; [assumption|].
      split; [intros _; apply orb_true_r|]. split; intros; discriminate.
  - (* ECore *)
    destruct Q2 as (Q2 & Q3 & Q4 & Q5). destruct (nth_error (q_items q) n) as [it|] eqn:N.
    + assert (Hit : In it (q_items q)) by (now apply nth_error_In in N).
      destruct (it_flush it && negb (q_inval q)) eqn:F.
      * apply andb_prop in F. destruct F as [F V]. apply negb_true_iff in V.
        destruct (Q2 it Hit) as [A _]. destruct (A F) as [A1 A2]. destruct (Q1 it Hit) as [Hx _].
        destruct (it_mp it) as [[c cl]|] eqn:M; [|congruence].
        destruct (submit_spec ns (ln s (it_line it))) as (r & SR & S1 & S2).
        { intros j Hj D. apply (c_dirty _ _ _ C (it_line it) j); assumption. }
        rewrite SR in E. destruct (write_ranges s c cl (it_buf it) oks part 0 r) as [s' ok] eqn:WR.
        destruct (write_ranges_rely ns nl (it_line it) c cl (it_buf it) oks part r 0 s s' ok) as (R & L & _ & K); try assumption.
        { intros j Hj. now apply (Q4 V it Hit F). }
        refine (PQ _ _ _ _ _ R _ _ E); [reflexivity|]. rewrite orb_false_r.
        assert (QR : qinv s' (o_err od) q).
        { apply (qinv_rely (fun _ => True) s); auto. split; [assumption|]. rewrite P. auto. }
        destruct QR as [_ QR]. rewrite P in QR. destruct QR as (QR1 & QR2 & QR3 & QR4).
        split; [exact Q1|]. cbn [q_ph set_q q_items q_inval]. split; [assumption|]. split; [assumption|]. split; [assumption|].
        intros V' B i it' Hi Ei. apply orb_false_elim in B. destruct B as [B B2]. apply negb_false_iff in B2. subst ok.
        destruct (Nat.eq_dec i n) as [->|Ni]; [|apply (QR4 V' B i); [lia|assumption]].
        rewrite N in Ei. injection Ei as <-. intros _ c1 cl1 M1 j Hj D. rewrite M in M1. injection M1 as <- <-.
        rewrite L in *. destruct (S1 j Hj D) as (b & e & Hb & B1 & B2). now apply (K eq_refl b e).
      * refine (PQ _ _ _ _ _ R0 _ _ E); [reflexivity|]. rewrite orb_false_r. split; [exact Q1|].
        cbn [q_ph set_q q_items q_inval]. split; [assumption|]. split; [assumption|]. split; [assumption|].
        intros V B i it' Hi Ei. destruct (Nat.eq_dec i n) as [->|Ni]; [|apply (Q5 V B i); [lia|assumption]].
        rewrite N in Ei. injection Ei as <-. intros F'. rewrite F', V in F. discriminate.
    + refine (PQ _ _ _ _ _ R0 _ _ E); [reflexivity|]. split; [exact Q1|]. cbn [q_ph set_q q_items q_inval].
      split; [assumption|]. split.
      * intros H. apply orb_prop in H. destruct H as [H|H]; [rewrite (Q3 H); reflexivity|rewrite H; apply orb_true_r].
      * intros H it Hi. apply orb_false_elim in H. destruct H as [V B]. apply In_nth_error in Hi. destruct Hi as [i Hi].
        apply (Q5 V B i); [|assumption]. apply nth_error_None in N. assert (i < length (q_items q)) by (apply nth_error_Some; congruence). lia.
  - (* EFlush *)
    destruct Q2 as (Q2 & Q3 & Q4). refine (PQ _ _ _ _ _ R0 _ _ E); [reflexivity|]. split; [exact Q1|].
    cbn [q_ph set_q q_items q_inval]. split; [assumption|]. split.
    + intros H. apply orb_prop in H. destruct H as [H|H]; [rewrite (Q3 H); reflexivity|rewrite H; apply orb_true_r].
    + intros H. apply orb_false_elim in H. destruct H as [V _]. split; [now apply Q4|]. intros i it Hi. lia.
  - (* EMeta *)
    destruct Q2 as (Q2 & Q3 & Q4). destruct (nth_error (q_items q) n) as [it|] eqn:N.
    + assert (Hit : In it (q_items q)) by (now apply nth_error_In in N).
      destruct (it_flush it && negb (q_inval q)) eqn:F.
      * apply andb_prop in F. destruct F as [F V]. apply negb_true_iff in V.
        destruct (Q2 it Hit) as [A _]. destruct (A F) as [A1 A2]. destruct (Q1 it Hit) as [Hx Hc].
        destruct (it_mp it) as [[c cl]|] eqn:M; [|congruence]. destruct Hc as [Hc|Hc]; [discriminate|]. cbn in Hc.
        destruct (Q4 V) as [S1 S2].
        destruct (clean_rely ns nl s (it_line it) c cl C Hx A2 (S1 it Hit F c cl M)) as [R CL]. rewrite <- Hc in E.
        refine (PQ _ _ _ _ _ R _ _ E); [reflexivity|]. rewrite orb_false_r.
        assert (QR : qinv (clean_item ns s (Some c) (it_line it)) (o_err od) q).
        { apply (qinv_rely (fun _ => True) s); auto. split; [assumption|]. rewrite P. auto. }
        destruct QR as [_ QR]. rewrite P in QR. destruct QR as (QR1 & QR2 & QR3).
        split; [exact Q1|]. cbn [q_ph set_q q_items q_inval]. split; [assumption|]. split; [assumption|].
        intros V'. destruct (QR3 V') as [T1 T2]. split; [assumption|]. intros i it' Hi Ei.
        destruct (Nat.eq_dec i n) as [->|Ni]; [|apply (T2 i); [lia|assumption]].
        rewrite N in Ei. injection Ei as <-. exact CL.
      * refine (PQ _ _ _ _ _ R0 _ _ E); [reflexivity|]. rewrite orb_false_r. split; [exact Q1|].
        cbn [q_ph set_q q_items q_inval]. split; [assumption|]. split; [assumption|].
        intros V. destruct (Q4 V) as [T1 T2]. split; [assumption|]. intros i it' Hi Ei.
        destruct (Nat.eq_dec i n) as [->|Ni]; [|apply (T2 i); [lia|assumption]].
        rewrite N in Ei. injection Ei as <-. apply Q2; [assumption|]. rewrite V in F. now rewrite andb_true_r in F.
    + refine (PQ _ _ _ _ _ R0 _ _ E); [reflexivity|]. rewrite orb_false_r. split; [exact Q1|].
      assert (Z : (q_inval q = true -> o_err od = true) /\ (q_inval q = false -> all (fun it => clean_line s (it_line it)) (q_items q))).
      { split; [assumption|]. intros V it Hi. destruct (Q4 V) as [_ T]. apply In_nth_error in Hi. destruct Hi as [i Hi].
        apply (T i); [|assumption]. apply nth_error_None in N. assert (i < length (q_items q)) by (apply nth_error_Some; congruence). lia. }
      cbn [q_ph set_q q_items q_inval]. destruct vol; exact Z.
  - (* EMflush *)
    destruct Q2 as (Q2 & Q3). refine (PQ _ _ _ _ _ R0 _ _ E); [reflexivity|]. split; [exact Q1|].
    cbn [q_ph set_q q_items q_inval].
    assert (Z : (q_inval q = true -> o_err od || (negb ok && Nat.eqb qn 0) = true) /\ (q_inval q = false -> all (fun it => clean_line s (it_line it)) (q_items q))).
    { split; [|assumption]. intros V. now rewrite (Q2 V). }
    destruct ok; exact Z.
  - (* ECaflush *)
    destruct Q2 as (Q2 & Q3). refine (PQ _ _ _ _ _ R0 _ _ E); [reflexivity|]. split; [exact Q1|].
    cbn [q_ph set_q q_items q_inval]. rewrite orb_false_r. auto.
Qed.
End Inv.

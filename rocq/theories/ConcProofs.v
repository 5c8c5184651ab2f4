(** Invariant of concurrent requests on one line, for C52. *)
From Coq Require Import NArith List Bool Arith Lia.
From Verif Require Import ConcModel ConcSpec.
Import ListNotations.
Set Default Proof Using "Type*".

(** Lock held. *)
Definition hold (p : pc) : option bool :=
  match p with
  | CRead _ _ k | CSub _ k | CLand _ _ k | CBits k => Some (cwr k)
  | WiCore lk _ _ => if lk then Some true else None
  | WiPurge _ | WiPurge2 _ | WbW _ | WbBits | WtBits | WtW _ _ _ | WtClean
  | RdCore _ _ | RdFill _ _ | RdBits _ => Some true
  | RdHit wr _ _ => Some wr
  | PtCore lk _ _ => if lk then Some false else None
  | _ => None
  end.
(** The write has touched the sector and is not committed. *)
Definition eff (p : pc) (x : nat) : bool :=
  match p with
  | WiCore _ _ q | WbW q => negb (q x)
  | WtW d q q' => if d then negb (q x) || negb (q' x) else true
  | WiPurge _ | WbBits | WtClean => true
  | Wi2 lk | WiPurge2 lk | Wait (KtWi2 lk) => negb lk
  | _ => false
  end.
Definition com (p : pc) : bool :=
  match p with
  | WiUnl | Unl _ | Fin _ | UnlDone | Done => true
  | Wi2 lk | WiPurge2 lk | Wait (KtWi2 lk) => lk
  | _ => false
  end.

(** Relation of a request at [p] to sector [x]: [w] its data, [c], [k], [vl], [dr] core and cached data and the bits,
    [v] the committed data, [A] data a reader may hold, [NB] no unlocked bypassing write, [ok] data it may return. *)
Definition RI (p : pc) (x : nat) (cv : bool) (w c k : V) (vl dr : bool) (v : V)
    (A : V -> Prop) (NB : Prop) (ok : V -> Prop) : Prop :=
  match p with
  | CRead q b _ => q x = false -> b x = k
  | CSub b _ => b x = k
  | CLand q b _ => (q x = true -> b x = v /\ NB) /\ (dr = true -> q x = true \/ c = v)
  | CBits _ => dr = true -> c = v
  | WiCore false _ q => cv = true -> dr = false /\ (q x = false -> c = w /\ (vl = true -> k = v \/ k = w))
  | Wi2 false | WiPurge2 false | Wait (KtWi2 false) =>
      cv = true -> dr = false /\ c = w /\ (vl = true -> k = v \/ k = w)
  | WiCore true _ q => cv = true -> q x = false -> c = w
  | WiPurge _ => cv = true -> c = w
  | WiUnl | Wi2 true | Wait (KtWi2 true) | WiPurge2 true => cv = true -> dr = false
  | WbW q => cv = true -> q x = false -> k = w
  | WbBits => cv = true -> k = w
  | WtW _ q q' => cv = true -> (q x = false -> k = w) /\ (q' x = false -> c = w)
  | WtClean => cv = true -> k = w /\ c = w
  | RdHit _ q b => cv = true -> vl = true /\ (q x = false -> ok (b x))
  | RdCore q b => dr = false /\ (cv = true -> q x = false -> A (b x) /\ ok (b x))
  | RdFill q b => cv = true -> A (b x) /\ (q x = false -> k = b x)
  | RdBits b => cv = true -> A k
  | PtCore true q b => dr = false /\ (cv = true -> q x = false -> ok (b x))
  | PtCore false q b => cv = true -> (q x = true -> ok c) /\ (q x = false -> ok (b x))
  | Unl b | Fin b => cv = true -> ok (b x)
  | _ => True
  end.

Section Line.
Variable n : nat.
Variable P : nat -> desc.
Variable c0 : nat -> V.

Notation lset := (lset n).
Notation writes := (writes n P).
Notation sdat := (sdat P c0).
Notation apart := (apart n P).
Definition cv i x := lset (rng (P i)) x.
Definition sub (q : nat -> bool) i := forall x, q x = true -> cv i x = true.
Definition small (q : nat -> bool) := forall x, q x = true -> x < n.

(** What requests are at which point. *)
Definition TP (i : nat) (p : pc) : Prop :=
  let wr := is_wr (kd (P i)) in
  match p with
  | Idle | New | Done | Unl _ | Fin _ => True
  | UnlDone => wr = false
  | NewWi | WiPurge _ | WiUnl | Wi2 _ | WiPurge2 _ | WbBits | WtBits | WtClean => wr = true
  | NewPt | RdBits _ => wr = false
  | Wait k => match k with KtRd _ | KtPt | KtCl => wr = false | _ => wr = true end
  | CRead q _ k => small q /\ (match k with AWi _ => wr = true | _ => wr = false end)
  | CSub _ k | CBits k => match k with AWi _ => wr = true | _ => wr = false end
  | CLand q _ k => small q /\ (match k with AWi _ => wr = true | _ => wr = false end)
  | WiCore _ _ q | WbW q => wr = true /\ sub q i
  | WtW _ q q' => wr = true /\ sub q i /\ sub q' i
  | RdHit _ q _ | RdCore q _ | RdFill q _ | PtCore _ q _ => wr = false /\ sub q i
  end.

Definition okr (h : list ev) i x v := is_wr (kd (P i)) = false -> readable n P c0 h i x v.
Definition nb (s : st) x : Prop := forall j, writes j x -> bare (pcs s j) = true -> False.
Definition may (s : st) (lc eo : nat -> option nat) x v : Prop :=
  v = sdat x (lc x) \/ exists i, eo x = Some i /\ bare (pcs s i) = true /\ v = dat (P i) x.
Definition RQ (s : st) (lc eo : nat -> option nat) i x : Prop :=
  RI (pcs s i) x (cv i x) (dat (P i) x) (core s x) (cach s x) (vld s x) (drt s x) (sdat x (lc x))
     (may s lc eo x) (nb s x) (okr (hist s) i x).

Record Locks (s : st) : Prop := {
  k_w : forall i, hold (pcs s i) = Some true -> wrl s = Some i;
  k_r : forall i, hold (pcs s i) = Some false -> In i (rdl s);
  k_x : wrl s <> None -> rdl s = [];
  k_t : forall i k, pcs s i = Wait k -> In i (wts s);
  k_u : mapd s = false -> wrl s = None /\ rdl s = [] /\ wts s = [] }.
Record InvL (lc eo : nat -> option nat) (s : st) : Prop := {
  lks : Locks s;
  u_b : mapd s = false -> forall x, vld s x = false;
  b_d : forall x, drt s x = true -> vld s x = true;
  t_p : forall i, TP i (pcs s i);
  e_o : forall x i, eo x = Some i <-> writes i x /\ eff (pcs s i) x = true;
  b_s : forall x, x < n -> eo x = None ->
        (vld s x = true -> cach s x = sdat x (lc x)) /\ (drt s x = false -> core s x = sdat x (lc x));
  r_q : forall i x, x < n -> RQ s lc eo i x;
  l_w : forall x i, lc x = Some i -> writes i x /\ com (pcs s i) = true;
  l_c : forall x j, writes j x -> com (pcs s j) = true -> ~ solder (hist s) (lc x) j;
  h_s : forall i, In (EStart i) (hist s) <-> pcs s i <> Idle;
  h_a : forall i, is_wr (kd (P i)) = true -> acked (hist s) i <-> pcs s i = Done;
  h_i : forall i b, In (EAck i b) (hist s) -> pcs s i <> Idle;
  h_r : forall i b x, In (EAck i b) (hist s) -> x < n -> rng (P i) x = true -> okr (hist s) i x (b x) }.
Definition Inv (s : st) : Prop := exists lc eo, InvL lc eo s.

(** ** History. *)
Lemma older_cons h e i j : (forall k, e = EStart k -> k <> j) -> older (e :: h) i j <-> older h i j.
Proof.
  intros N. split.
  - intros (h2 & h1 & b & E & H). destruct h2 as [|e2 h2]; cbn in E.
    + injection E as E1 E2. subst e. now destruct (N j).
    + injection E as E1 E2. now exists h2, h1, b.
  - intros (h2 & h1 & b & E & H). exists (e :: h2), h1, b. split; [cbn; now rewrite E|assumption].
Qed.
Lemma older_ack h i b k j : older (EAck k b :: h) i j <-> older h i j.
Proof. apply older_cons. intros; discriminate. Qed.
Lemma older_in h i j : older h i j -> In (EStart j) h /\ acked h i.
Proof.
  intros (h2 & h1 & b & E & H). subst h. split.
  - apply in_app_iff. right. now left.
  - exists b. apply in_app_iff. right. now right.
Qed.
Lemma older_start h i j : older (EStart j :: h) i j -> In (EStart j) h \/ acked h i.
Proof.
  intros (h2 & h1 & b & E & H). destruct h2 as [|e h2]; cbn in E.
  - injection E as E1. subst h. right. now exists b.
  - injection E as E1 E2. subst h. left. apply in_app_iff. right. now left.
Qed.
Lemma solder_cons h e o j : (forall k, e = EStart k -> k <> j) -> solder (e :: h) o j <-> solder h o j.
Proof. intros N. destruct o as [i|]; cbn [solder]; [now apply older_cons|reflexivity]. Qed.

(** A value a started reader may return stays so. *)
Lemma readable_cons h e r x v : (forall k, e = EStart k -> ~ In (EStart k) h /\ ~ acked h k) -> In (EStart r) h ->
  readable n P c0 h r x v -> readable n P c0 (e :: h) r x v.
Proof.
  intros N R (o & E & W & H). exists o. split; [assumption|]. split.
  - intros i Hi. destruct (W i Hi) as [W1 W2]. split; [assumption|now right].
  - intros j Wj O. assert (O' : older h j r).
    { apply older_cons in O; [assumption|]. intros k Hk ->. now destruct (N _ Hk). }
    intros S. apply (H j Wj O'). apply solder_cons in S; [assumption|].
    intros k Hk ->. destruct (N _ Hk) as [_ B]. apply B. now destruct (older_in _ _ _ O').
Qed.
(** ** Locks. *)
Lemma upd_eq {A} (f : nat -> A) i v : upd f i v i = v.
Proof. unfold upd. now rewrite Nat.eqb_refl. Qed.
Lemma upd_neq {A} (f : nat -> A) i v j : j <> i -> upd f i v j = f j.
Proof. intros H. unfold upd. apply Nat.eqb_neq in H. now rewrite H. Qed.
Lemma in_rm i j l : j <> i -> In j l -> In j (rm i l).
Proof. intros H I. apply filter_In. split; [assumption|]. apply Nat.eqb_neq in H. now rewrite H. Qed.

Lemma unheld s : Locks s -> mapd s = false -> forall i, hold (pcs s i) = None /\ forall k, pcs s i <> Wait k.
Proof.
  intros L M i. destruct (k_u s L M) as (A & B & C). split.
  - destruct (hold (pcs s i)) as [[|]|] eqn:E; [|  |reflexivity].
    + apply (k_w s L) in E. congruence.
    + apply (k_r s L) in E. rewrite B in E. contradiction.
  - intros k E. apply (k_t s L) in E. rewrite C in E. contradiction.
Qed.
Lemma alone s i : Locks s -> hold (pcs s i) = Some true -> forall j, j <> i -> hold (pcs s j) = None.
Proof.
  intros L H j N. apply (k_w s L) in H. destruct (hold (pcs s j)) as [[|]|] eqn:E; [|  |reflexivity].
  - apply (k_w s L) in E. congruence.
  - apply (k_r s L) in E. rewrite (k_x s L) in E; [contradiction|congruence].
Qed.
Lemma locked_mapped s i : Locks s -> hold (pcs s i) <> None -> mapd s = true.
Proof.
  intros L H. destruct (mapd s) eqn:M; [reflexivity|]. exfalso. apply H. now destruct (unheld s L M i).
Qed.

Lemma locks_pc s t i p : Locks s -> pcs t = upd (pcs s) i p -> wrl t = wrl s -> rdl t = rdl s -> wts t = wts s -> mapd t = mapd s ->
  (hold p = hold (pcs s i) \/ hold p = None) -> (forall k, p <> Wait k) -> Locks t.
Proof.
  intros [A B C D E] Ep Ew Er Et Em H W. constructor; rewrite ?Ep, ?Ew, ?Er, ?Et, ?Em; try assumption.
  - intros j. destruct (Nat.eq_dec j i) as [->|N]; [rewrite upd_eq|rewrite upd_neq by assumption; apply A].
    destruct H as [-> | ->]; [apply A|discriminate].
  - intros j. destruct (Nat.eq_dec j i) as [->|N]; [rewrite upd_eq|rewrite upd_neq by assumption; apply B].
    destruct H as [-> | ->]; [apply B|discriminate].
  - intros j k. destruct (Nat.eq_dec j i) as [->|N]; [rewrite upd_eq; intros K; now apply W in K|rewrite upd_neq by assumption; apply D].
Qed.
Lemma locks_wait s i k : Locks s -> mapd s = true -> Locks (with_wait s i k).
Proof.
  intros [A B C D E] M. constructor; cbn [with_wait pcs wrl rdl wts mapd]; try assumption.
  - intros j. destruct (Nat.eq_dec j i) as [->|N]; [rewrite upd_eq; discriminate|rewrite upd_neq by assumption; apply A].
  - intros j. destruct (Nat.eq_dec j i) as [->|N]; [rewrite upd_eq; discriminate|rewrite upd_neq by assumption; apply B].
  - intros j k'. destruct (Nat.eq_dec j i) as [->|N]; [now left|rewrite upd_neq by assumption]. intros K. right. eapply D; eassumption.
  - congruence.
Qed.
Lemma locks_grant s t i wr p : Locks s -> mapd s = true -> lock_free s wr = true ->
  pcs t = upd (pcs s) i p -> wrl t = wrl (with_lock s i wr) -> rdl t = rdl (with_lock s i wr) ->
  wts t = rm i (wts s) -> mapd t = mapd s ->
  (hold p = Some wr \/ hold p = None) -> (forall k, p <> Wait k) -> Locks t.
Proof.
  intros [A B C D E] M F Ep Ew Er Et Em H W. unfold lock_free in F.
  destruct (wrl s) as [?|] eqn:Wl; [discriminate|].
  constructor; rewrite ?Ep, ?Ew, ?Er, ?Et, ?Em; cbn [with_lock wrl rdl].
  - intros j. destruct (Nat.eq_dec j i) as [->|N].
    + rewrite upd_eq. destruct H as [-> | ->]; [intros K; injection K as ->; reflexivity|discriminate].
    + rewrite upd_neq by assumption. intros K. apply A in K. congruence.
  - intros j. destruct (Nat.eq_dec j i) as [->|N].
    + rewrite upd_eq. destruct H as [-> | ->]; [intros K; injection K as ->; now left|discriminate].
    + rewrite upd_neq by assumption. intros K. apply B in K. destruct wr; [assumption|now right].
  - destruct wr; [|congruence]. intros _. destruct (rdl s); [reflexivity|discriminate].
  - intros j k. destruct (Nat.eq_dec j i) as [->|N].
    + rewrite upd_eq. intros K. now apply W in K.
    + rewrite upd_neq by assumption. intros K. apply in_rm; [assumption|]. eapply D; eassumption.
  - congruence.
Qed.
Lemma locks_unlock s i p : Locks s -> hold p = None -> (forall k, p <> Wait k) -> Locks (with_pc (unlock s i) i p).
Proof.
  intros [A B C D E] H W. constructor; cbn [with_pc unlock pcs wrl rdl wts mapd].
  - intros j. destruct (Nat.eq_dec j i) as [->|N]; [rewrite upd_eq; congruence|rewrite upd_neq by assumption].
    intros K. rewrite (A _ K). apply Nat.eqb_neq in N. now rewrite N.
  - intros j. destruct (Nat.eq_dec j i) as [->|N]; [rewrite upd_eq; congruence|rewrite upd_neq by assumption].
    intros K. apply in_rm; [assumption|]. now apply B.
  - intros K. rewrite C; [reflexivity|]. destruct (wrl s); congruence.
  - intros j k. destruct (Nat.eq_dec j i) as [->|N]; [rewrite upd_eq; intros K; now apply W in K|rewrite upd_neq by assumption; apply D].
  - intros M. destruct (E M) as (E1 & E2 & E3). rewrite E1, E2, E3. repeat split.
Qed.

(** ** Frame. *)
Lemma RI_mono p x c1 w c k vl dr v (A A' : V -> Prop) (NB NB' : Prop) (ok ok' : V -> Prop) :
  (forall y, A y -> A' y) -> (hold p <> None -> NB -> NB') -> (forall y, ok y -> ok' y) ->
  RI p x c1 w c k vl dr v A NB ok -> RI p x c1 w c k vl dr v A' NB' ok'.
Proof.
  intros HA HN HO. destruct p as [| | | |kt|q b ck|q ck|q b ck|ck|[|] hit q|hit| |[|]|[|]|q| | |d q q'| |wr q b|q b|q b|b|[|] q b|b|b| |];
    cbn [RI]; auto; try (destruct kt as [? ?|[|]| | |?| |]; cbn [RI]; auto; fail).
  - intros [H1 H2]. split; [|assumption]. intros Q. destruct (H1 Q). split; [assumption|]. apply HN; [discriminate|assumption].
  - intros H Q. destruct (H Q). auto.
  - intros [H1 H2]. split; [assumption|]. intros Q R. destruct (H2 Q R). auto.
  - intros H Q. destruct (H Q). auto.
  - intros [H1 H2]. split; [assumption|]. auto.
  - intros H Q. destruct (H Q). auto.
Qed.

(** A request without lock. *)
Lemma RI_unheld p x c1 w c k vl dr v (A : V -> Prop) (NB : Prop) (ok ok' : V -> Prop) c' k' vl' dr' v' (A' : V -> Prop) (NB' : Prop) :
  hold p = None ->
  (bypass p = true -> c1 = true -> (dr = false -> dr' = false) /\ c' = c /\
     (bare p = true -> c = w -> (vl = true -> k = v \/ k = w) -> vl' = true -> k' = v' \/ k' = w)) ->
  (ok c -> ok' c') -> (forall y, ok y -> ok' y) ->
  RI p x c1 w c k vl dr v A NB ok -> RI p x c1 w c' k' vl' dr' v' A' NB' ok'.
Proof.
  intros HH HB HC HO. destruct p as [| | | |kt|q b ck|q ck|q b ck|ck|[|] hit q|hit| |[|]|[|]|q| | |d q q'| |wr q b|q b|q b|b|[|] q b|b|b| |];
    cbn [RI hold] in *; try discriminate HH; auto; cbn [bypass bare negb] in *.
  - destruct kt as [? ?|[|]| | |?| |]; cbn [RI bypass bare negb] in *; auto.
    + intros H Q. destruct (HB eq_refl Q) as (B1 & B2 & B3). auto.
    + intros H Q. destruct (HB eq_refl Q) as (B1 & B2 & B3). destruct (H Q) as (H1 & H2 & H3). repeat split; auto. congruence.
  - intros H Q. destruct (HB eq_refl Q) as (B1 & B2 & B3). destruct (H Q) as (H1 & H2). split; [auto|].
    intros R. destruct (H2 R) as (H3 & H4). split; [congruence|]. auto.
  - intros H Q. destruct (HB eq_refl Q) as (B1 & B2 & B3). auto.
  - intros H Q. destruct (HB eq_refl Q) as (B1 & B2 & B3). auto.
  - intros H Q. destruct (HB eq_refl Q) as (B1 & B2 & B3). destruct (H Q) as (H1 & H2 & H3). repeat split; auto. congruence.
  - intros H Q. destruct (H Q) as (H1 & H2). split; auto.
Qed.
(** Clean bits. *)
Lemma RI_clean p x c1 w c k vl dr dr' v (A : V -> Prop) (NB : Prop) (ok : V -> Prop) :
  (dr' = true -> dr = true) -> RI p x c1 w c k vl dr v A NB ok -> RI p x c1 w c k vl dr' v A NB ok.
Proof.
  clear n P c0. intros H. assert (H' : dr = false -> dr' = false) by (destruct dr, dr'; intuition congruence).
  destruct p as [| | | |kt|q b ck|q ck|q b ck|ck|[|] hit q|hit| |[|]|[|]|q| | |d q q'| |wr q b|q b|q b|b|[|] q b|b|b| |];
    cbn [RI] in *; auto; try (destruct kt as [? ?|[|]| | |?| |]; cbn [RI] in *; auto); intuition.
Qed.

Definition wc i x := is_wr (kd (P i)) && cv i x.
Definition mine i (o : option nat) := match o with Some j => j =? i | None => false end.
Lemma cv_spec i x : cv i x = true <-> x < n /\ rng (P i) x = true.
Proof. unfold cv, ConcModel.lset. rewrite andb_true_iff, Nat.ltb_lt. reflexivity. Qed.
Lemma wc_spec i x : wc i x = true <-> writes i x.
Proof. unfold wc, ConcSpec.writes, covers. rewrite andb_true_iff, cv_spec. reflexivity. Qed.
Lemma eff_cases p x : eff p x = true -> bare p = true \/ hold p = Some true.
Proof.
  destruct p as [| | | |kt|q b ck|q ck|q b ck|ck|[|] hit q|hit| |[|]|[|]|q| | |d q q'| |wr q b|q b|q b|b|[|] q b|b|b| |];
    cbn; auto; try discriminate; destruct kt as [? ?|[|]| | |?| |]; cbn; auto; discriminate.
Qed.
Lemma bare_bypass p : bare p = true -> bypass p = true.
Proof. destruct p as [| | | |kt| | | | | | | | | | | | | | | | | | | | | | |]; cbn; auto; try discriminate. destruct kt; cbn; auto; discriminate. Qed.
Lemma bypass_inprog p : bypass p = true -> inprog p = true.
Proof. destruct p; cbn; auto; discriminate. Qed.
Lemma hold_inprog p b : hold p = Some b -> inprog p = true.
Proof. destruct p; cbn; auto; discriminate. Qed.
Lemma eff_inprog p x : eff p x = true -> inprog p = true.
Proof. intros H. destruct (eff_cases _ _ H); [now apply bypass_inprog, bare_bypass|eapply hold_inprog; eassumption]. Qed.
Lemma bypass_wr i p : TP i p -> bypass p = true -> is_wr (kd (P i)) = true.
Proof.
  clear c0. destruct p as [| | | |kt|q b ck|q ck|q b ck|ck|[|] hit q|hit| |[|]|[|]|q| | |d q q'| |wr q b|q b|q b|b|[|] q b|b|b| |];
    cbn; intros T; try discriminate; auto; try tauto; try (destruct kt as [? ?|[|]| | |?| |]; cbn; auto; discriminate);
    destruct ck; cbn; try discriminate; tauto.
Qed.

Section Move.
Variables (lc eo : nat -> option nat) (s t : st) (i : nat) (p : pc).
Definition lcn x := if wc i x && com p && negb (com (pcs s i)) then Some i else lc x.
Definition eon x := if wc i x && eff p x then Some i else if mine i (eo x) then None else eo x.
Definition same x := core t x = core s x /\ cach t x = cach s x /\ vld t x = vld s x /\ drt t x = drt s x.
Definition still x := wc i x = true -> eff p x = eff (pcs s i) x /\ com p = com (pcs s i) /\
  (bare (pcs s i) = true -> bare p = true) /\ (bare p = true -> bare (pcs s i) = true \/ mapd s = false).
Definition own x := RI p x (cv i x) (dat (P i) x) (core t x) (cach t x) (vld t x) (drt t x) (sdat x (lcn x))
  (may t lcn eon x) (nb t x) (okr (hist s) i x).
Definition oth j x := RI (pcs s j) x (cv j x) (dat (P j) x) (core t x) (cach t x) (vld t x) (drt t x) (sdat x (lcn x))
  (may t lcn eon x) (nb t x) (okr (hist s) j x).
Definition bsn x := eon x = None ->
  (vld t x = true -> cach t x = sdat x (lcn x)) /\ (drt t x = false -> core t x = sdat x (lcn x)).

Hypothesis I : InvL lc eo s.
Hypothesis Ep : forall j, pcs t j = upd (pcs s) i p j.
Lemma lcn_still x : (wc i x = true -> com p = com (pcs s i)) -> lcn x = lc x.
Proof using Type.
  unfold lcn. destruct (wc i x); cbn [andb]; [|reflexivity]. intros H. rewrite (H eq_refl). now destruct (com (pcs s i)).
Qed.
Lemma eon_still x : (wc i x = true -> eff p x = eff (pcs s i) x) -> eon x = eo x.
Proof using I.
  intros S. unfold eon. destruct (wc i x) eqn:W; cbn [andb].
  - rewrite (S eq_refl). destruct (eff (pcs s i) x) eqn:E.
    + symmetry. apply (e_o _ _ _ I). split; [now apply wc_spec|assumption].
    + destruct (eo x) as [j|] eqn:Eo; cbn; [|reflexivity]. destruct (Nat.eqb_spec j i) as [->|]; [|reflexivity].
      apply (e_o _ _ _ I) in Eo. destruct Eo. congruence.
  - destruct (eo x) as [j|] eqn:Eo; cbn; [|reflexivity]. destruct (Nat.eqb_spec j i) as [->|]; [|reflexivity].
    apply (e_o _ _ _ I) in Eo. destruct Eo as [Wx _]. apply wc_spec in Wx. congruence.
Qed.
Lemma may_still x y : still x -> may s lc eo x y -> may t lcn eon x y.
Proof.
  intros S [H|(j & H1 & H2 & H3)].
  - left. rewrite lcn_still; [assumption|]. intros Wx. now destruct (S Wx) as (_ & ? & _).
  - right. exists j. split; [|split; [|assumption]].
    + rewrite eon_still; [assumption|]. intros Wx. now destruct (S Wx).
    + rewrite Ep. destruct (Nat.eq_dec j i) as [->|N]; [rewrite upd_eq|now rewrite upd_neq].
      apply S; [|assumption]. apply (e_o _ _ _ I) in H1. now apply wc_spec.
Qed.
Lemma nb_still x j : still x -> hold (pcs s j) <> None -> nb s x -> nb t x.
Proof.
  intros S H NB k Wk Bk. rewrite Ep in Bk. destruct (Nat.eq_dec k i) as [->|N].
  - rewrite upd_eq in Bk. apply wc_spec in Wk as Wk'. destruct (S Wk') as (_ & _ & _ & S4).
    destruct (S4 Bk) as [B|M]; [now apply (NB i)|]. apply H. now apply unheld; [apply (lks _ _ _ I)|].
  - rewrite upd_neq in Bk by assumption. now apply (NB k).
Qed.

Lemma move : hist t = hist s -> Locks t ->
  (mapd t = false -> forall x, vld t x = false) -> (forall x, drt t x = true -> vld t x = true) ->
  TP i p -> (p = Idle <-> pcs s i = Idle) -> (is_wr (kd (P i)) = true -> (p = Done <-> pcs s i = Done)) ->
  (is_wr (kd (P i)) = true -> com (pcs s i) = true -> com p = true) ->
  (forall x, wc i x = true -> eff p x = true -> eff (pcs s i) x = true \/ eo x = None) ->
  (forall x, x < n -> own x) ->
  (forall x, x < n -> (same x /\ still x) \/ (bsn x /\ forall j, j <> i -> oth j x)) ->
  InvL lcn eon t.
Proof.
  intros Eh L UB BD T Id Dn Cm Eo Own Sec.
  assert (OT : forall j, j <> i -> pcs t j = pcs s j) by (intros j N; now rewrite Ep, upd_neq).
  assert (OI : pcs t i = p) by (now rewrite Ep, upd_eq).
  constructor; try assumption.
  - intros j. destruct (Nat.eq_dec j i) as [->|N]; [now rewrite OI|rewrite OT by assumption; apply (t_p _ _ _ I)].
  - intros x j. destruct (Nat.eq_dec j i) as [->|N].
    + rewrite OI. unfold eon. split.
      * destruct (wc i x && eff p x) eqn:E.
        { intros _. apply andb_true_iff in E. destruct E as [E1 E2]. split; [now apply wc_spec|assumption]. }
        { destruct (eo x) as [j|]; cbn [mine]; [|discriminate]. destruct (Nat.eqb_spec j i) as [->|N]; [discriminate|].
          intros H. injection H as ->. now destruct N. }
      * intros [H1 H2]. apply wc_spec in H1. now rewrite H1, H2.
    + rewrite OT by assumption. rewrite <- (e_o _ _ _ I). unfold eon. destruct (wc i x && eff p x) eqn:E.
      * apply andb_true_iff in E. destruct E as [E1 E2]. split; [intros H; injection H as ->; now destruct N|].
        intros H. destruct (Eo x E1 E2) as [Ef|H']; [|congruence]. apply wc_spec in E1.
        assert (K : eo x = Some i) by (apply (e_o _ _ _ I); now split). congruence.
      * destruct (eo x) as [k|]; cbn [mine]; [|tauto]. destruct (Nat.eqb_spec k i) as [->|N']; [|tauto].
        split; [discriminate|]. intros H. injection H as ->. now destruct N.
  - intros x Hx E. destruct (Sec x Hx) as [[(S1 & S2 & S3 & S4) St]|[B _]]; [|now apply B].
    rewrite S1, S2, S3, S4. rewrite lcn_still by (intros Wx; now destruct (St Wx) as (_ & ? & _)).
    apply (b_s _ _ _ I x Hx). rewrite <- E. symmetry. apply eon_still. intros Wx. now destruct (St Wx).
  - intros j x Hx. unfold RQ. rewrite Eh. destruct (Nat.eq_dec j i) as [->|N]; [rewrite OI; now apply Own|rewrite OT by assumption].
    destruct (Sec x Hx) as [[(S1 & S2 & S3 & S4) St]|[_ B]]; [|now apply B].
    rewrite S1, S2, S3, S4. rewrite lcn_still by (intros Wx; now destruct (St Wx) as (_ & ? & _)).
    eapply RI_mono; [| | |apply (r_q _ _ _ I j x Hx)].
    + intros y. now apply may_still.
    + intros H. eapply nb_still; eassumption.
    + auto.
  - intros x j. unfold lcn. destruct (wc i x && com p && negb (com (pcs s i))) eqn:E.
    + intros H. injection H as <-. rewrite OI. apply andb_true_iff in E. destruct E as [E _]. apply andb_true_iff in E.
      destruct E as [E1 E2]. split; [now apply wc_spec|assumption].
    + intros H. destruct (l_w _ _ _ I x j H) as [H1 H2]. split; [assumption|].
      destruct (Nat.eq_dec j i) as [->|N]; [rewrite OI|now rewrite OT]. apply Cm; [apply H1|assumption].
  - intros x j Wj Cj. rewrite Eh. unfold lcn. destruct (wc i x && com p && negb (com (pcs s i))) eqn:E.
    + cbn [solder]. intros O. apply older_in in O. destruct O as [_ O].
      apply andb_true_iff in E. destruct E as [E E3]. apply andb_true_iff in E. destruct E as [E1 E2].
      apply wc_spec in E1. apply (h_a _ _ _ I i) in O; [|apply E1]. rewrite O in E3. discriminate.
    + apply (l_c _ _ _ I); [assumption|]. destruct (Nat.eq_dec j i) as [->|N]; [|now rewrite <- OT].
      rewrite OI in Cj. apply wc_spec in Wj. rewrite Wj, Cj in E. cbn in E. now destruct (com (pcs s i)).
  - intros j. rewrite Eh. rewrite (h_s _ _ _ I). destruct (Nat.eq_dec j i) as [->|N]; [rewrite OI; tauto|now rewrite OT].
  - intros j Wj. rewrite Eh. rewrite (h_a _ _ _ I) by assumption.
    destruct (Nat.eq_dec j i) as [->|N]; [rewrite OI; symmetry; now apply Dn|now rewrite OT].
  - intros j b. rewrite Eh. intros H. apply (h_i _ _ _ I) in H.
    destruct (Nat.eq_dec j i) as [->|N]; [rewrite OI; tauto|now rewrite OT].
  - rewrite Eh. apply (h_r _ _ _ I).
Qed.
End Move.

(** ** Consequences of the invariant. *)
Section Facts.
Variables (lc eo : nat -> option nat) (s : st).
Hypothesis I : InvL lc eo s.
Lemma eo_wr i x : apart s -> hold (pcs s i) = Some true -> wc i x = true -> eff (pcs s i) x = false -> eo x = None.
Proof.
  intros A H W E. destruct (eo x) as [j|] eqn:Eo; [|reflexivity]. exfalso. apply (e_o _ _ _ I) in Eo. destruct Eo as [Wj Ej].
  assert (N : j <> i) by (intros ->; congruence). destruct (eff_cases _ _ Ej) as [B|B].
  - eapply (A j i x); [assumption|assumption|now apply wc_spec|now apply bare_bypass|eapply hold_inprog; eassumption].
  - rewrite (alone s i (lks _ _ _ I) H j N) in B. discriminate.
Qed.
Lemma eo_byp i x : apart s -> bypass (pcs s i) = true -> wc i x = true -> eff (pcs s i) x = false -> eo x = None.
Proof.
  intros A H W E. destruct (eo x) as [j|] eqn:Eo; [|reflexivity]. exfalso. apply (e_o _ _ _ I) in Eo. destruct Eo as [Wj Ej].
  assert (N : i <> j) by (intros <-; congruence).
  eapply (A i j x); [assumption|now apply wc_spec|assumption|assumption|eapply eff_inprog; eassumption].
Qed.
Lemma eo_hold i b x j : hold (pcs s i) = Some b -> eff (pcs s i) x = false \/ wc i x = false -> eo x = Some j -> writes j x /\ j <> i /\ bare (pcs s j) = true /\ eff (pcs s j) x = true.
Proof.
  intros H E Eo. apply (e_o _ _ _ I) in Eo. destruct Eo as [Wj Ej]. split; [assumption|].
  assert (N : j <> i).
  { intros ->. destruct E as [E|E]; [congruence|]. apply wc_spec in Wj. congruence. }
  split; [assumption|]. split; [|assumption]. destruct (eff_cases _ _ Ej) as [B|B]; [assumption|]. exfalso.
  assert (K := alone s j (lks _ _ _ I) B i (not_eq_sym N)). congruence.
Qed.
Lemma bare_clean j x : x < n -> writes j x -> bare (pcs s j) = true -> drt s x = false.
Proof.
  intros Hx Wj B. assert (R := r_q _ _ _ I j x Hx). unfold RQ in R. apply wc_spec in Wj. unfold wc in Wj.
  apply andb_true_iff in Wj. destruct Wj as [_ Cj]. rewrite Cj in R.
  destruct (pcs s j) as [| | | |kt|q b ck|q ck|q b ck|ck|[|] hit q|hit| |[|]|[|]|q| | |d q q'| |wr q b|q b|q b|b|[|] q b|b|b| |]; try discriminate B; cbn [RI] in R;
    try (now destruct (R eq_refl)). destruct kt as [? ?|[|]| | |?| |]; try discriminate B; cbn [RI] in R; now destruct (R eq_refl).
Qed.
Lemma bare_data j x : x < n -> writes j x -> bare (pcs s j) = true -> eff (pcs s j) x = true ->
  core s x = dat (P j) x /\ (vld s x = true -> cach s x = sdat x (lc x) \/ cach s x = dat (P j) x).
Proof.
  intros Hx Wj B E. assert (R := r_q _ _ _ I j x Hx). unfold RQ in R. apply wc_spec in Wj. unfold wc in Wj.
  apply andb_true_iff in Wj. destruct Wj as [_ Cj]. rewrite Cj in R.
  destruct (pcs s j) as [| | | |kt|q b ck|q ck|q b ck|ck|[|] hit q|hit| |[|]|[|]|q| | |d q q'| |wr q b|q b|q b|b|[|] q b|b|b| |]; try discriminate B; cbn [RI eff] in *.
  - destruct kt as [? ?|[|]| | |?| |]; try discriminate B; cbn [RI] in R; destruct (R eq_refl) as (_ & ?); assumption.
  - destruct (R eq_refl) as [_ R']. apply R'. now destruct (q x).
  - destruct (R eq_refl) as (_ & ?); assumption.
  - destruct (R eq_refl) as (_ & ?); assumption.
Qed.
(** What a reader may see. *)
Lemma started_in i : pcs s i <> Idle -> started (hist s) i.
Proof. apply (h_s _ _ _ I). Qed.
Lemma ok_com r x : okr (hist s) r x (sdat x (lc x)).
Proof.
  intros _. exists (lc x). split; [reflexivity|]. split.
  - intros i E. destruct (l_w _ _ _ I x i E) as [W C]. split; [assumption|]. apply started_in. intros H. rewrite H in C. discriminate.
  - intros j Wj O. apply (l_c _ _ _ I); [assumption|]. apply older_in in O. destruct O as [_ O].
    apply (h_a _ _ _ I) in O; [now rewrite O|apply Wj].
Qed.
Lemma ok_fly r x i : writes i x -> inprog (pcs s i) = true -> okr (hist s) r x (dat (P i) x).
Proof.
  intros W Pi _. exists (Some i). split; [reflexivity|]. split.
  - intros j E. injection E as <-. split; [assumption|]. apply started_in. intros H. rewrite H in Pi. discriminate.
  - intros j Wj O S. cbn [solder] in S. apply older_in in S. destruct S as [_ S].
    apply (h_a _ _ _ I) in S; [|apply W]. rewrite S in Pi. discriminate.
Qed.
Lemma ok_may r x y : may s lc eo x y -> okr (hist s) r x y.
Proof.
  intros [->|(i & E & B & ->)]; [apply ok_com|]. apply (e_o _ _ _ I) in E. destruct E as [W E].
  apply ok_fly; [assumption|eapply eff_inprog; eassumption].
Qed.
Lemma core_may x : x < n -> drt s x = false -> (forall j, eo x = Some j -> bare (pcs s j) = true) -> may s lc eo x (core s x).
Proof.
  intros Hx D H. destruct (eo x) as [j|] eqn:Eo.
  - right. exists j. split; [assumption|]. split; [now apply H|]. specialize (H j eq_refl).
    apply (e_o _ _ _ I) in Eo. destruct Eo as [W E]. now destruct (bare_data j x Hx W H E).
  - left. now apply (b_s _ _ _ I).
Qed.
Lemma cach_ok r x : x < n -> vld s x = true -> (forall j, eo x = Some j -> bare (pcs s j) = true) -> okr (hist s) r x (cach s x).
Proof.
  intros Hx D H. destruct (eo x) as [j|] eqn:Eo.
  - specialize (H j eq_refl). apply (e_o _ _ _ I) in Eo. destruct Eo as [W E].
    destruct (bare_data j x Hx W H E) as [_ K]. destruct (K D) as [-> | ->]; [apply ok_com|].
    apply ok_fly; [assumption|eapply eff_inprog; eassumption].
  - destruct (b_s _ _ _ I x Hx Eo) as [K _]. rewrite (K D). apply ok_com.
Qed.
End Facts.
End Line.

(** C74: attaching and detaching the cache device under I/O.  Specification, proofs, counterexamples. *)
From Coq Require Import List Arith NArith Bool Lia.
Import ListNotations.
From Verif Require Import HandModel.

(** ** Specification: what was written last, and that every read returns it *)
Fixpoint last_written (k : N -> N) (l : list ev) (a : N) : N :=
  match l with
  | [] => k a
  | Wr b v :: l => if N.eqb a b then v else last_written k l a
  | Rd _ _ :: l => last_written k l a
  end.
Fixpoint reads_right (k : N -> N) (l : list ev) : Prop :=
  match l with
  | [] => True
  | Rd a v :: l => v = last_written k l a /\ reads_right k l
  | Wr _ _ :: l => reads_right k l
  end.

(** Executions in which every step satisfies [g] *)
Inductive run (g : label -> st -> Prop) (k : N -> N) : st -> Prop :=
| run0 : run g k (start k)
| run1 : forall s l s', run g k s -> g l s -> exec l s = Ok s' -> run g k s'.

Definition any (l : label) (s : st) : Prop := True.
(** No request is between the two counters when attach lets requests into the cache *)
Definition quiet (l : label) (s : st) : Prop :=
  match l with
  | LMngt _ => mg s = A1 -> forall r, In r (rs s) -> ~ In r [Undo; Trying; DSaw; DIncd; DUndo]
  | _ => True
  end.
(** No direct write is submitted while detach still waits for a request allocated before it *)
Definition ordered (l : label) (s : st) : Prop :=
  match l with
  | LWrite i _ _ _ => nth_error (rs s) i = Some HasD -> mg s = D2 -> ~ In HasM (rs s)
  | _ => True
  end.
Definition calm (l : label) (s : st) : Prop := quiet l s /\ ordered l s.

(** ** Lists *)
Definition inM (r : rst) : bool := match r with Incd | Undo | HasM => true | _ => false end.
Definition inD (r : rst) : bool := match r with DIncd | DUndo | HasD => true | _ => false end.
Definition b2n (b : bool) : nat := if b then 1 else 0.
Fixpoint cnt (f : rst -> bool) (l : list rst) : nat :=
  match l with [] => 0 | x :: l => b2n (f x) + cnt f l end.

Lemma in_setr : forall l i r x, In x (setr l i r) -> x = r \/ In x l.
Proof.
  induction l as [|y l IH]; intros [|i] r x H; cbn in H.
  - destruct H.
  - destruct H.
  - destruct H as [H|H]; [left; auto|right; right; exact H].
  - destruct H as [H|H]; [right; left; exact H|].
    destruct (IH _ _ _ H) as [E|E]; [left; exact E|right; right; exact E].
Qed.

Lemma cnt_setr : forall f l i r x, nth_error l i = Some x ->
  cnt f (setr l i r) + b2n (f x) = cnt f l + b2n (f r).
Proof.
  induction l as [|y l IH]; intros [|i] r x H; cbn in H; try discriminate.
  - injection H as ->. cbn. lia.
  - cbn. specialize (IH i r x H). lia.
Qed.

Lemma cnt_app : forall f l m, cnt f (l ++ m) = cnt f l + cnt f m.
Proof. induction l; intros; cbn; [reflexivity|rewrite IHl; lia]. Qed.

Lemma cnt_in : forall f l x, In x l -> f x = true -> cnt f l <> 0.
Proof.
  induction l as [|y l IH]; intros x H F; [destruct H|].
  cbn. destruct H as [->|H]; [rewrite F; cbn; lia|]. specialize (IH _ H F). lia.
Qed.

(** ** What holds in every execution *)
Definition fz (m : mpc) : bool := match m with Detached | A0 | A1 | D2 | D3 => true | _ => false end.
Definition dz (m : mpc) : bool := match m with A3 | A4 => true | _ => false end.
Definition yz (m : mpc) : bool := match m with D0 | D1 | D2 | D3 => true | _ => false end.
Definition pz (m : mpc) : bool := match m with A1 | A2 | A3 | A4 | A5 => true | _ => false end.
Definition outM (m : mpc) : bool := match m with Detached | A0 | A1 | D3 => true | _ => false end.

Record base (s : st) : Prop := {
  b_fm : fm s = b2n (fz (mg s)); b_f2 : f2 s = b2n (dz (mg s)); b_fd : fd s = b2n (yz (mg s));
  b_pt : pt s = pz (mg s);
  b_c : mg s <> Detached -> cache s <> None;
  b_cm : cm s = cnt inM (rs s); b_c2 : c2 s = cnt inD (rs s);
  b_out : outM (mg s) = true -> ~ In HasM (rs s) }.

Lemma base_start : forall k, base (start k).
Proof. intros k. constructor; cbn; auto; try congruence. Qed.

(** Requests move; management does not *)
Lemma base_rs : forall s i x r n m e ca k,
  base s -> nth_error (rs s) i = Some x ->
  n + b2n (inM x) = cm s + b2n (inM r) -> m + b2n (inD x) = c2 s + b2n (inD r) ->
  (r = HasM -> fm s = 0) -> (cache s <> None -> ca <> None) ->
  base {| core := k; cache := ca; fm := fm s; f2 := f2 s; fd := fd s; cm := n; c2 := m; pt := pt s;
          mg := mg s; rs := setr (rs s) i r; log := e |}.
Proof.
  intros s i x r n m e ca k B X Hn Hm Hr Hc.
  pose proof (cnt_setr inM _ i r x X). pose proof (cnt_setr inD _ i r x X).
  destruct B. constructor; cbn [core cache fm f2 fd cm c2 pt mg rs log]; auto; try lia.
  intros O I. apply in_setr in I as [E|I]; [|exact (b_out0 O I)].
  symmetry in E. specialize (Hr E). rewrite b_fm0 in Hr.
  destruct (mg s); cbn in O, Hr; discriminate.
Qed.

Lemma dec_cm_ok : forall s t, dec_cm s = Ok t -> exists n, cm s = S n /\ t = with_cm n s.
Proof. intros s t H. unfold dec_cm in H. destruct (cm s) as [|n]; [discriminate|]. injection H as <-. exists n. auto. Qed.
Lemma dec_c2_ok : forall s t, dec_c2 s = Ok t -> exists n, c2 s = S n /\ t = with_c2 n s.
Proof. intros s t H. unfold dec_c2 in H. destruct (c2 s) as [|n]; [discriminate|]. injection H as <-. exists n. auto. Qed.

(** The outcomes of a read and of a write, one by one *)
Lemma read_ok : forall i a s t, read i a s = Ok t ->
  (nth_error (rs s) i = Some HasD /\ exists n, c2 s = S n /\
     t = with_c2 n (done i (say (Rd a (core s a)) s))) \/
  (nth_error (rs s) i = Some HasM /\ exists n m v c, cm s = S n /\ cache s = Some m /\
     t = with_cm n (done i (say (Rd a v) (with_data (core s) (Some c) s))) /\
     ((exists d, m a = Some (v, d) /\ c = m /\ (pt s = false \/ d = true)) \/
      (exists w, m a = Some (w, false) /\ v = core s a /\ c = m /\ pt s = true) \/
      (m a = None /\ v = core s a /\ c = (if pt s then m else setf m a (Some (v, false)))))).
Proof.
  intros i a s t H. unfold read in H.
  destruct (nth_error (rs s) i) as [[| | | | | | | | | |]|] eqn:X; try discriminate.
  - right. split; [reflexivity|]. destruct (cache s) as [m|] eqn:C; [|discriminate].
    assert (D : with_data (core s) (Some m) s = s) by (destruct s; cbn in *; subst; reflexivity).
    destruct (m a) as [[v d]|] eqn:M.
    + destruct (pt s && negb d) eqn:P.
      * apply andb_true_iff in P as [P Q]. destruct d; [discriminate|].
        apply dec_cm_ok in H as (n & E & ->). exists n, m, (core s a), m. rewrite D.
        split; [exact E|]. split; [reflexivity|]. split; [reflexivity|].
        right; left. exists v. auto.
      * apply dec_cm_ok in H as (n & E & ->). exists n, m, v, m. rewrite D.
        split; [exact E|]. split; [reflexivity|]. split; [reflexivity|].
        left. exists d. split; [exact M|]. split; [reflexivity|].
        destruct (pt s), d; cbn in P; auto; discriminate.
    + destruct (pt s) eqn:P.
      * apply dec_cm_ok in H as (n & E & ->). exists n, m, (core s a), m. rewrite D.
        split; [exact E|]. split; [reflexivity|]. split; [reflexivity|]. right; right. auto.
      * apply dec_cm_ok in H as (n & E & ->). exists n, m, (core s a), (setf m a (Some (core s a, false))).
        split; [exact E|]. split; [reflexivity|]. split; [reflexivity|]. right; right. auto.
  - left. split; [reflexivity|]. apply dec_c2_ok in H as (n & E & ->). exists n. auto.
Qed.

Lemma write_ok : forall i a v wb s t, write i a v wb s = Ok t ->
  (nth_error (rs s) i = Some HasD /\ exists n, c2 s = S n /\
     t = with_c2 n (done i (say (Wr a v) (with_data (setf (core s) a v) (cache s) s)))) \/
  (nth_error (rs s) i = Some HasM /\ exists n m k c, cm s = S n /\ cache s = Some m /\
     t = with_cm n (done i (say (Wr a v) (with_data k (Some c) s))) /\
     ((pt s = true /\ k = setf (core s) a v /\ c = setf m a None) \/
      (pt s = false /\ fd s = 0 /\ k = core s /\ c = setf m a (Some (v, true))) \/
      (pt s = false /\ k = setf (core s) a v /\ c = setf m a (Some (v, false))))).
Proof.
  intros i a v wb s t H. unfold write in H.
  destruct (nth_error (rs s) i) as [[| | | | | | | | | |]|] eqn:X; try discriminate.
  - right. split; [reflexivity|]. destruct (cache s) as [m|] eqn:C; [|discriminate].
    destruct (pt s) eqn:P.
    + apply dec_cm_ok in H as (n & E & ->).
      exists n, m, (setf (core s) a v), (setf m a None).
      split; [exact E|]. split; [reflexivity|]. split; [reflexivity|]. left. auto.
    + destruct (wb && (fd s =? 0)) eqn:W.
      * apply andb_true_iff in W as [_ W]. apply Nat.eqb_eq in W.
        apply dec_cm_ok in H as (n & E & ->). exists n, m, (core s), (setf m a (Some (v, true))).
        split; [exact E|]. split; [reflexivity|]. split; [reflexivity|]. right; left. auto.
      * apply dec_cm_ok in H as (n & E & ->).
        exists n, m, (setf (core s) a v), (setf m a (Some (v, false))).
        split; [exact E|]. split; [reflexivity|]. split; [reflexivity|]. right; right. auto.
  - left. split; [reflexivity|]. apply dec_c2_ok in H as (n & E & ->). exists n. auto.
Qed.

(** The outcomes of a step of an allocation *)
Lemma tick_ok : forall i s t, tick i s = Ok t ->
  exists x r n m, nth_error (rs s) i = Some x /\
    t = with_cm n (with_c2 m (with_rs (setr (rs s) i r) s)) /\
    n + b2n (inM x) = cm s + b2n (inM r) /\ m + b2n (inD x) = c2 s + b2n (inD r) /\
    ((x = New /\ fm s = 0 /\ r = Saw) \/ (x = New /\ fm s <> 0 /\ r = Trying) \/ (x = Saw /\ r = Incd) \/
     (x = Incd /\ fm s = 0 /\ r = HasM) \/ (x = Incd /\ fm s <> 0 /\ r = Undo) \/ (x = Undo /\ r = Trying) \/
     (x = Trying /\ f2 s = 0 /\ r = DSaw) \/ (x = DSaw /\ r = DIncd) \/
     (x = DIncd /\ f2 s = 0 /\ r = HasD) \/ (x = DIncd /\ f2 s <> 0 /\ r = DUndo)).
Proof.
  intros i s t H. unfold tick in H.
  assert (D : forall r, with_rs (setr (rs s) i r) s =
    with_cm (cm s) (with_c2 (c2 s) (with_rs (setr (rs s) i r) s))) by (intros; destruct s; reflexivity).
  destruct (nth_error (rs s) i) as [x|] eqn:X; [|discriminate].
  exists x.
  destruct x; try discriminate.
  - destruct (fm s =? 0) eqn:F; injection H as <-; [apply Nat.eqb_eq in F|apply Nat.eqb_neq in F].
    + exists Saw, (cm s), (c2 s). split; [reflexivity|]. split; [apply D|]. split; [reflexivity|]. split; [reflexivity|]. tauto.
    + exists Trying, (cm s), (c2 s). split; [reflexivity|]. split; [apply D|]. split; [reflexivity|]. split; [reflexivity|]. tauto.
  - injection H as <-. exists Incd, (S (cm s)), (c2 s). split; [reflexivity|]. split; [reflexivity|].
    split; [cbn; lia|]. split; [reflexivity|]. tauto.
  - destruct (fm s =? 0) eqn:F; injection H as <-; [apply Nat.eqb_eq in F|apply Nat.eqb_neq in F].
    + exists HasM, (cm s), (c2 s). split; [reflexivity|]. split; [apply D|]. split; [reflexivity|]. split; [reflexivity|]. tauto.
    + exists Undo, (cm s), (c2 s). split; [reflexivity|]. split; [apply D|]. split; [reflexivity|]. split; [reflexivity|]. tauto.
  - apply dec_cm_ok in H as (n & E & ->). cbn [with_rs cm] in E.
    exists Trying, n, (c2 s). split; [reflexivity|]. split; [reflexivity|]. split; [cbn; lia|]. split; [reflexivity|]. tauto.
  - destruct (f2 s =? 0) eqn:F; [|discriminate]. injection H as <-. apply Nat.eqb_eq in F.
    exists DSaw, (cm s), (c2 s). split; [reflexivity|]. split; [apply D|]. split; [reflexivity|]. split; [reflexivity|]. tauto.
  - injection H as <-. exists DIncd, (cm s), (S (c2 s)). split; [reflexivity|]. split; [reflexivity|].
    split; [reflexivity|]. split; [cbn; lia|]. tauto.
  - destruct (f2 s =? 0) eqn:F; injection H as <-; [apply Nat.eqb_eq in F|apply Nat.eqb_neq in F].
    + exists HasD, (cm s), (c2 s). split; [reflexivity|]. split; [apply D|]. split; [reflexivity|]. split; [reflexivity|]. tauto.
    + exists DUndo, (cm s), (c2 s). split; [reflexivity|]. split; [apply D|]. split; [reflexivity|]. split; [reflexivity|]. tauto.
Qed.

Ltac more K := match type of K with _ /\ _ => destruct K as [? K] | _ => idtac end.

Lemma base_mngt : forall ok s t, base s -> mngt ok s = Ok t -> base t.
Proof.
  intros ok s t B H. destruct B as [Bm B2 Bd Bp Bc Bcm Bc2 Bo]. unfold mngt, unf in H.
  destruct (mg s) eqn:M; cbn in Bm, B2, Bd, Bp, Bo; rewrite ?Bm, ?B2, ?Bd in H.
  - injection H as <-. constructor; cbn; auto; congruence.
  - injection H as <-. constructor; cbn; auto. intros _. apply Bc. discriminate.
  - injection H as <-. constructor; cbn; auto; try discriminate. intros _. apply Bc. discriminate.
  - injection H as <-. constructor; cbn; auto; try discriminate. intros _. apply Bc. discriminate.
  - destruct (c2 s =? 0); [|discriminate]. injection H as <-.
    constructor; cbn; auto; try discriminate. intros _. apply Bc. discriminate.
  - injection H as <-. constructor; cbn; auto; try discriminate. intros _. apply Bc. discriminate.
  - injection H as <-. constructor; cbn; auto; try discriminate. intros _. apply Bc. discriminate.
  - injection H as <-. constructor; cbn; auto; try discriminate. intros _. apply Bc. discriminate.
  - destruct ok.
    + destruct (cache s) as [m|] eqn:C; [|discriminate]. injection H as <-.
      constructor; cbn; auto; discriminate.
    + injection H as <-. constructor; cbn; auto; try discriminate. intros _. apply Bc. discriminate.
  - injection H as <-. constructor; cbn; auto; try discriminate. intros _. apply Bc. discriminate.
  - destruct (cm s =? 0) eqn:Z; [|discriminate]. apply Nat.eqb_eq in Z. injection H as <-.
    constructor; cbn; auto; try discriminate. { intros _. apply Bc. discriminate. }
    intros _ I. apply (cnt_in inM _ HasM I eq_refl). congruence.
  - injection H as <-. constructor; cbn; auto; congruence.
Qed.

Lemma base_data : forall s k m, base s -> base (with_data k (Some m) s).
Proof. intros s k m []. constructor; cbn; auto. discriminate. Qed.

Lemma base_step : forall l s t, base s -> exec l s = Ok t -> base t.
Proof.
  intros l s t B H. destruct l as [|i|i a|i a v wb|ok|a|a]; cbn [exec] in H.
  - injection H as <-. destruct B. constructor; cbn; auto.
    + rewrite cnt_app. cbn. lia.
    + rewrite cnt_app. cbn. lia.
    + intros O I. apply in_app_or in I as [I|[I|[]]]; [exact (b_out0 O I)|discriminate].
  - apply tick_ok in H as (x & r & n & m & X & -> & Hn & Hm & K).
    apply (base_rs s i x r n m (log s) (cache s) (core s)); auto.
    intros ->. destruct K as [K|[K|[K|[K|[K|[K|[K|[K|[K|K]]]]]]]]]; destruct K as [? K];
      try discriminate; more K; try discriminate; auto.
  - apply read_ok in H as [(X & n & E & ->)|(X & n & m & v & c & E & C & -> & _)].
    + refine (base_rs s i HasD Gone (cm s) n _ (cache s) (core s) B X _ _ _ _); cbn; auto; try lia; discriminate.
    + refine (base_rs s i HasM Gone n (c2 s) _ (Some c) (core s) B X _ _ _ _); cbn; auto; try lia; discriminate.
  - apply write_ok in H as [(X & n & E & ->)|(X & n & m & k & c & E & C & -> & _)].
    + refine (base_rs s i HasD Gone (cm s) n _ (cache s) _ B X _ _ _ _); cbn; auto; try lia; discriminate.
    + refine (base_rs s i HasM Gone n (c2 s) _ (Some c) k B X _ _ _ _); cbn; auto; try lia; discriminate.
  - exact (base_mngt ok s t B H).
  - destruct (cache s) as [m|]; [|discriminate]. destruct (fm s =? 0); [|discriminate].
    destruct (m a) as [[v [|]]|]; try discriminate. injection H as <-. apply base_data, B.
  - destruct (cache s) as [m|]; [|discriminate]. destruct (fm s =? 0); [|discriminate].
    destruct (m a) as [[v [|]]|]; try discriminate. injection H as <-. apply base_data, B.
Qed.

Lemma run_base : forall g k s, run g k s -> base s.
Proof. intros g k s R. induction R; [apply base_start|eapply base_step; eauto]. Qed.

(** No request ever touches a released device, whatever the requests and management do *)
Theorem C74_released : forall k s l, run any k s -> exec l s <> Fault.
Proof.
  intros k s l R. apply run_base in R. destruct R as [Bm B2 Bd Bp Bc Bcm Bc2 Bo].
  assert (Q : forall i, nth_error (rs s) i = Some HasM -> cache s <> None).
  { intros i X. apply Bc. intros M. rewrite M in Bo. apply (Bo eq_refl). eapply nth_error_In, X. }
  destruct l as [|i|i a|i a v wb|ok|a|a]; cbn [exec]; try discriminate.
  - unfold tick, dec_cm. destruct (nth_error (rs s) i) as [[| | | | | | | | | |]|]; try discriminate.
    + destruct (fm s =? 0); discriminate.
    + destruct (fm s =? 0); discriminate.
    + destruct (cm _); discriminate.
    + destruct (f2 s =? 0); discriminate.
    + destruct (f2 s =? 0); discriminate.
  - unfold read, dec_cm, dec_c2.
    destruct (nth_error (rs s) i) as [[| | | | | | | | | |]|] eqn:X; try discriminate.
    + specialize (Q i X). destruct (cache s) as [m|]; [|congruence].
      destruct (m a) as [[w d]|].
      * destruct (pt s && negb d); destruct (cm _); discriminate.
      * destruct (pt s); cbn [done say with_rs with_data cm]; destruct (cm s); discriminate.
    + destruct (c2 _); discriminate.
  - unfold write, dec_cm, dec_c2.
    destruct (nth_error (rs s) i) as [[| | | | | | | | | |]|] eqn:X; try discriminate.
    + specialize (Q i X). destruct (cache s) as [m|]; [|congruence].
      destruct (pt s); [|destruct (wb && (fd s =? 0))];
        cbn [done say with_rs with_data cm]; destruct (cm s); discriminate.
    + destruct (c2 _); discriminate.
  - unfold mngt, unf. destruct (mg s); try discriminate.
    + destruct (fm s); discriminate.
    + destruct (c2 s =? 0); discriminate.
    + destruct (f2 s); discriminate.
    + destruct ok; [|destruct (fd s); discriminate].
      destruct (cache s); [discriminate|]. exfalso. apply Bc; [discriminate|reflexivity].
    + destruct (cm s =? 0); discriminate.
    + destruct (fd s); discriminate.
  - destruct (cache s) as [m|]; [|discriminate]. destruct (fm s =? 0); [|discriminate].
    destruct (m a) as [[w [|]]|]; discriminate.
  - destruct (cache s) as [m|]; [|discriminate]. destruct (fm s =? 0); [|discriminate].
    destruct (m a) as [[w [|]]|]; discriminate.
Qed.

(** The only ENV_BUG there can be is that of ocf_req_new: the counters never go below zero *)
Theorem C74_balance : forall k s l, run any k s -> exec l s = Bug ->
  exists i, l = LTick i /\ (nth_error (rs s) i = Some Trying /\ 0 < f2 s \/ nth_error (rs s) i = Some DUndo).
Proof.
  intros k s l R H. apply run_base in R. destruct R as [Bm B2 Bd Bp Bc Bcm Bc2 Bo].
  assert (QM : forall i x, nth_error (rs s) i = Some x -> inM x = true -> cm s <> 0).
  { intros i x X F. rewrite Bcm. eapply cnt_in; [eapply nth_error_In, X|exact F]. }
  assert (QD : forall i x, nth_error (rs s) i = Some x -> inD x = true -> c2 s <> 0).
  { intros i x X F. rewrite Bc2. eapply cnt_in; [eapply nth_error_In, X|exact F]. }
  destruct l as [|i|i a|i a v wb|ok|a|a]; cbn [exec] in H; try discriminate.
  - exists i. split; [reflexivity|]. unfold tick, dec_cm in H.
    destruct (nth_error (rs s) i) as [[| | | | | | | | | |]|] eqn:X; try discriminate.
    + destruct (fm s =? 0); discriminate.
    + destruct (fm s =? 0); discriminate.
    + specialize (QM i _ X eq_refl). cbn [with_rs cm] in H. destruct (cm s); [congruence|discriminate].
    + destruct (f2 s =? 0) eqn:F; [discriminate|]. apply Nat.eqb_neq in F. left. split; [reflexivity|lia].
    + destruct (f2 s =? 0); discriminate.
    + right. reflexivity.
  - exfalso. unfold read, dec_cm, dec_c2 in H.
    destruct (nth_error (rs s) i) as [[| | | | | | | | | |]|] eqn:X; try discriminate.
    + specialize (QM i _ X eq_refl). destruct (cache s) as [m|]; [|discriminate].
      destruct (m a) as [[w d]|].
      * destruct (pt s && negb d); cbn [done say with_rs cm] in H; destruct (cm s); congruence.
      * destruct (pt s); cbn [done say with_rs with_data cm] in H; destruct (cm s); congruence.
    + specialize (QD i _ X eq_refl). cbn [done say with_rs c2] in H. destruct (c2 s); congruence.
  - exfalso. unfold write, dec_cm, dec_c2 in H.
    destruct (nth_error (rs s) i) as [[| | | | | | | | | |]|] eqn:X; try discriminate.
    + specialize (QM i _ X eq_refl). destruct (cache s) as [m|]; [|discriminate].
      destruct (pt s); [|destruct (wb && (fd s =? 0))];
        cbn [done say with_rs with_data cm] in H; destruct (cm s); congruence.
    + specialize (QD i _ X eq_refl). cbn [done say with_rs with_data c2] in H. destruct (c2 s); congruence.
  - exfalso. unfold mngt, unf in H. destruct (mg s) eqn:M; cbn in Bm, B2, Bd; rewrite ?Bm, ?B2, ?Bd in H; try discriminate.
    + destruct (c2 s =? 0); discriminate.
    + destruct ok; [|discriminate]. destruct (cache s); discriminate.
    + destruct (cm s =? 0); discriminate.
  - destruct (cache s) as [m|]; [|discriminate]. destruct (fm s =? 0); [|discriminate].
    destruct (m a) as [[w [|]]|]; discriminate.
  - destruct (cache s) as [m|]; [|discriminate]. destruct (fm s =? 0); [|discriminate].
    destruct (m a) as [[w [|]]|]; discriminate.
Qed.

(** Once no request holds a reference, management can always go on: neither attach nor detach waits
    for a reference nobody will drop *)
Theorem C74_progress : forall k s, run any k s ->
  (forall r, In r (rs s) -> In r [New; Saw; Trying; DSaw; Gone]) -> exists t, exec (LMngt true) s = Ok t.
Proof.
  intros k s R Q. apply run_base in R. destruct R as [Bm B2 Bd Bp Bc Bcm Bc2 Bo].
  assert (Z : forall f l, (forall r, In r l -> f r = false) -> cnt f l = 0).
  { intros f l. induction l as [|x l IH]; intros H; [reflexivity|]. cbn. rewrite (H x (or_introl eq_refl)).
    apply IH. intros r I. apply H. right. exact I. }
  assert (Cm : cm s = 0).
  { rewrite Bcm. apply Z. intros r I. destruct (Q r I) as [<-|[<-|[<-|[<-|[<-|[]]]]]]; reflexivity. }
  assert (Cd : c2 s = 0).
  { rewrite Bc2. apply Z. intros r I. destruct (Q r I) as [<-|[<-|[<-|[<-|[<-|[]]]]]]; reflexivity. }
  cbn [exec]. unfold mngt, unf.
  destruct (mg s) eqn:M; cbn in Bm, B2, Bd; rewrite ?Bm, ?B2, ?Bd, ?Cm, ?Cd; cbn [Nat.eqb]; try (eexists; reflexivity).
  destruct (cache s) as [m|]; [eexists; reflexivity|]. exfalso. apply Bc; [discriminate|reflexivity].
Qed.

(** and what attach leaves is a cache in use: nothing frozen, no pass-through *)
Theorem C74_in_use : forall k s, run any k s -> mg s = Running -> fm s = 0 /\ f2 s = 0 /\ fd s = 0 /\ pt s = false.
Proof.
  intros k s R M. apply run_base in R. destruct R as [Bm B2 Bd Bp _ _ _ _]. rewrite M in *. auto.
Qed.

(** ** When attach does not meet a request between the two counters *)
Definition mids (r : rst) : bool := match r with Undo | Trying | DSaw | DIncd | DUndo => true | _ => false end.
Definition noD (m : mpc) : bool := match m with A4 | A5 | Running | D0 | D1 => true | _ => false end.

Record hand (s : st) : Prop := {
  h_mid : fz (mg s) = false -> forall r, In r (rs s) -> mids r = false;
  h_du : ~ In DUndo (rs s);
  h_hd : noD (mg s) = true -> ~ In HasD (rs s) }.

Lemma hand_same : forall s t, hand s -> mg t = mg s -> (forall r, In r (rs t) -> In r (rs s) \/ r = Gone \/ r = New) -> hand t.
Proof.
  intros s t [H1 H2 H3] M I. constructor.
  - rewrite M. intros F r J. destruct (I r J) as [K|[->| ->]]; [exact (H1 F r K)|reflexivity|reflexivity].
  - intros J. destruct (I _ J) as [K|[K|K]]; [exact (H2 K)|discriminate|discriminate].
  - rewrite M. intros F J. destruct (I _ J) as [K|[K|K]]; [exact (H3 F K)|discriminate|discriminate].
Qed.

Lemma hand_tick : forall i s t, base s -> hand s -> tick i s = Ok t -> hand t.
Proof.
  intros i s t B [H1 H2 H3] H. apply tick_ok in H as (x & r & n & m & X & -> & _ & _ & K).
  apply nth_error_In in X. destruct B as [Bm B2 _ _ _ _ _ _].
  assert (F : mids r = true -> fz (mg s) = true).
  { intros R. destruct (fz (mg s)) eqn:Z; [reflexivity|]. specialize (H1 eq_refl x X). cbn in Bm.
    destruct K as [K|[K|[K|[K|[K|[K|[K|[K|[K|K]]]]]]]]]; destruct K as [-> K]; more K; subst r;
      try discriminate; congruence. }
  assert (G : r = HasD -> fz (mg s) = true).
  { intros R. destruct (fz (mg s)) eqn:Z; [reflexivity|]. specialize (H1 eq_refl x X).
    destruct K as [K|[K|[K|[K|[K|[K|[K|[K|[K|K]]]]]]]]]; destruct K as [-> K]; more K; subst r;
      try discriminate; congruence. }
  constructor; cbn [with_cm with_c2 with_rs mg rs].
  - intros Z y I. apply in_setr in I as [->|I]; [|exact (H1 Z y I)].
    destruct (mids r); [|reflexivity]. rewrite (F eq_refl) in Z. discriminate.
  - intros I. apply in_setr in I as [E|I]; [|exact (H2 I)]. subst r.
    specialize (F eq_refl).
    destruct K as [K|[K|[K|[K|[K|[K|[K|[K|[K|K]]]]]]]]]; destruct K as [? K]; more K; try discriminate.
    rewrite B2 in *. destruct (mg s); cbn in F; try discriminate; cbn in *; congruence.
  - intros Z I. apply in_setr in I as [E|I]; [|exact (H3 Z I)]. symmetry in E. specialize (G E).
    destruct (mg s); discriminate.
Qed.

Lemma hand_mngt : forall ok s t, base s -> hand s -> quiet (LMngt ok) s -> mngt ok s = Ok t -> hand t.
Proof.
  intros ok s t B [H1 H2 H3] Q H. unfold mngt, unf in H. cbn [quiet] in Q.
  assert (R : rs t = rs s /\
    match mg s with
    | Detached => mg t = A0 | A0 => mg t = A1 | A1 => mg t = A2 | A2 => mg t = A3 | A3 => mg t = A4 /\ c2 s = 0
    | A4 => mg t = A5 | A5 => mg t = Running | Running => mg t = D0 | D0 => mg t = D1 \/ mg t = Running
    | D1 => mg t = D2 | D2 => mg t = D3 | D3 => mg t = Detached
    end).
  { destruct (mg s).
    - injection H as <-. auto.
    - injection H as <-. auto.
    - destruct (fm s); [discriminate|]. injection H as <-. auto.
    - injection H as <-. auto.
    - destruct (c2 s =? 0) eqn:Z; [|discriminate]. injection H as <-. apply Nat.eqb_eq in Z. auto.
    - destruct (f2 s); [discriminate|]. injection H as <-. auto.
    - injection H as <-. auto.
    - injection H as <-. auto.
    - destruct ok.
      + destruct (cache s); [|discriminate]. injection H as <-. auto.
      + destruct (fd s); [discriminate|]. injection H as <-. auto.
    - injection H as <-. auto.
    - destruct (cm s =? 0); [|discriminate]. injection H as <-. auto.
    - destruct (fd s); [discriminate|]. injection H as <-. auto. }
  destruct R as [R M]. clear H.
  destruct (mg s) eqn:E; try (constructor; rewrite R, ?M; cbn; auto; discriminate).
  - specialize (Q eq_refl). constructor; rewrite R, ?M; cbn.
    + intros _ r I. specialize (Q r I). destruct r; try reflexivity; exfalso; apply Q; cbn; auto 6.
    + exact H2.
    + discriminate.
  - destruct M as [M Z]. constructor; rewrite R, ?M; cbn; auto.
    intros _ I. destruct B as [_ _ _ _ _ _ Bc2 _]. rewrite Bc2 in Z. exact (cnt_in inD _ HasD I eq_refl Z).
Qed.

Lemma hand_step : forall l s t, base s -> hand s -> quiet l s -> exec l s = Ok t -> hand t.
Proof.
  intros l s t B I Q H. destruct l as [|i|i a|i a v wb|ok|a|a]; cbn [exec] in H.
  - injection H as <-. apply (hand_same s); auto. cbn. intros r J. apply in_app_or in J as [J|[J|[]]]; auto.
  - exact (hand_tick i s t B I H).
  - apply (hand_same s); auto; apply read_ok in H as [(X & n & E & ->)|(X & n & m & v & c & E & C & -> & _)];
      try reflexivity; cbn; intros r J; apply in_setr in J as [J|J]; auto.
  - apply (hand_same s); auto; apply write_ok in H as [(X & n & E & ->)|(X & n & m & k & c & E & C & -> & _)];
      try reflexivity; cbn; intros r J; apply in_setr in J as [J|J]; auto.
  - exact (hand_mngt ok s t B I Q H).
  - destruct (cache s) as [m|]; [|discriminate]. destruct (fm s =? 0); [|discriminate].
    destruct (m a) as [[v [|]]|]; try discriminate. injection H as <-. apply (hand_same s); auto.
  - destruct (cache s) as [m|]; [|discriminate]. destruct (fm s =? 0); [|discriminate].
    destruct (m a) as [[v [|]]|]; try discriminate. injection H as <-. apply (hand_same s); auto.
Qed.

Lemma run_weaken : forall (g h : label -> st -> Prop) k s, (forall l s, g l s -> h l s) -> run g k s -> run h k s.
Proof. intros g h k s W R. induction R; [constructor|eapply run1; eauto]. Qed.

Lemma run_hand : forall k s, run quiet k s -> hand s.
Proof.
  intros k s R. induction R.
  - constructor; cbn; auto; discriminate.
  - eapply hand_step; eauto. eapply run_base; eauto.
Qed.

(** Then ocf_req_new never stops the machine *)
Theorem C74_no_bug : forall k s l, run quiet k s -> exec l s <> Bug.
Proof.
  intros k s l R H.
  assert (R' : run any k s) by (eapply run_weaken; [|exact R]; intros; exact I).
  destruct (C74_balance k s l R' H) as (i & -> & [[X F]|X]).
  - pose proof (run_hand k s R) as [H1 _ _]. pose proof (run_base _ _ _ R) as [_ B2 _ _ _ _ _ _].
    apply nth_error_In in X. rewrite B2 in F.
    destruct (mg s); cbn in F; try lia; specialize (H1 eq_refl _ X); discriminate.
  - pose proof (run_hand k s R) as [_ H2 _]. apply H2. eapply nth_error_In, X.
Qed.

(** and once the cache is used for other than pass-through, no request goes around it *)
Theorem C74_alone : forall k s r, run quiet k s -> fm s = 0 -> pt s = false -> In r (rs s) -> r <> HasD.
Proof.
  intros k s r R F P I ->. pose proof (run_hand k s R) as [_ _ H3].
  pose proof (run_base _ _ _ R) as [Bm _ _ Bp _ _ _ _]. rewrite Bm in F. rewrite Bp in P.
  destruct (mg s); cbn in F, P; try discriminate; exact (H3 eq_refl I).
Qed.

(** ** Data *)
Definition coh (m : N -> option (N * bool)) (k T : N -> N) : Prop :=
  forall a, match m a with
            | Some (v, true) => v = T a
            | Some (v, false) => v = T a /\ k a = T a
            | None => k a = T a
            end.
Definition nodirty (m : N -> option (N * bool)) : Prop := forall a v, m a <> Some (v, true).

Definition dat (k : N -> N) (s : st) : Prop :=
  let T := last_written k (log s) in
  match mg s with
  | Detached | D3 => forall a, core s a = T a
  | A0 | A1 | A2 | A3 | A4 | A5 =>
      (forall a, core s a = T a) /\ exists m, cache s = Some m /\ forall a, m a = None
  | Running | D0 => exists m, cache s = Some m /\ coh m (core s) T
  | D1 => exists m, cache s = Some m /\ coh m (core s) T /\ nodirty m
  | D2 => (forall a, core s a = T a) /\
          exists m, cache s = Some m /\ nodirty m /\ (In HasM (rs s) -> coh m (core s) T)
  end.

Lemma coh_wr_back : forall m k T a v, coh m k T -> coh (setf m a (Some (v, true))) k (fun b => if N.eqb b a then v else T b).
Proof. intros m k T a v H b. unfold setf. destruct (N.eqb b a); [reflexivity|apply H]. Qed.
Lemma coh_wr_thr : forall m k T a v, coh m k T -> coh (setf m a (Some (v, false))) (setf k a v) (fun b => if N.eqb b a then v else T b).
Proof. intros m k T a v H b. unfold setf. destruct (N.eqb b a); [auto|apply H]. Qed.
Lemma coh_fill : forall m k T a, coh m k T -> m a = None -> coh (setf m a (Some (k a, false))) k T.
Proof.
  intros m k T a H E b. unfold setf. destruct (N.eqb b a) eqn:Q; [|apply H].
  apply N.eqb_eq in Q. subst b. specialize (H a). rewrite E in H. auto.
Qed.
Lemma coh_clean : forall m k T a v, coh m k T -> m a = Some (v, true) -> coh (setf m a (Some (v, false))) (setf k a v) T.
Proof.
  intros m k T a v H E b. unfold setf. destruct (N.eqb b a) eqn:Q; [|apply H].
  apply N.eqb_eq in Q. subst b. specialize (H a). rewrite E in H. auto.
Qed.
Lemma coh_evict : forall m k T a v, coh m k T -> m a = Some (v, false) -> coh (setf m a None) k T.
Proof.
  intros m k T a v H E b. unfold setf. destruct (N.eqb b a) eqn:Q; [|apply H].
  apply N.eqb_eq in Q. subst b. specialize (H a). rewrite E in H. apply H.
Qed.
Lemma coh_flush : forall m k T, coh m k T -> coh (flushed_cache m) (flushed_core k m) T.
Proof.
  intros m k T H b. unfold flushed_cache, flushed_core. specialize (H b).
  destruct (m b) as [[v [|]]|]; auto.
Qed.
Lemma nodirty_flush : forall m, nodirty (flushed_cache m).
Proof. intros m a v. unfold flushed_cache. destruct (m a) as [[w d]|]; congruence. Qed.
Lemma nodirty_set : forall m a x, nodirty m -> (forall v, x <> Some (v, true)) -> nodirty (setf m a x).
Proof. intros m a x H E b v. unfold setf. destruct (N.eqb b a); [apply E|apply H]. Qed.
Lemma coh_nodirty : forall m k T, coh m k T -> nodirty m -> forall a, k a = T a.
Proof.
  intros m k T H D a. specialize (H a). specialize (D a). destruct (m a) as [[v [|]]|]; auto; [|apply H].
  exfalso. exact (D v eq_refl).
Qed.

(** A write updates core and expectation alike *)
Lemma core_wr : forall (k T : N -> N) a v, (forall b, k b = T b) ->
  forall b, setf k a v b = (if N.eqb b a then v else T b).
Proof. intros k T a v H b. unfold setf. destruct (N.eqb b a); auto. Qed.

Lemma inM_setr : forall l i, In HasM (setr l i Gone) -> In HasM l.
Proof. intros l i H. apply in_setr in H as [H|H]; [discriminate|exact H]. Qed.

Lemma read_dat : forall k i a s t, base s -> hand s -> dat k s -> reads_right k (log s) ->
  read i a s = Ok t -> dat k t /\ reads_right k (log t).
Proof.
  intros k i a s t B Hd D RR H. destruct B as [Bm B2 Bd Bp Bc _ _ Bo]. destruct Hd as [_ _ H3].
  apply read_ok in H as [(X & n & E & ->)|(X & n & m & v & c & E & C & -> & K)]; apply nth_error_In in X.
  - unfold dat in *. cbn [with_c2 done with_rs say core cache log mg rs last_written reads_right].
    destruct (mg s) eqn:M; try (exfalso; exact (H3 eq_refl X)).
    all: try (split; [exact D|]; split; [first [apply D|apply (proj1 D)]|exact RR]).
    destruct D as (D1 & m & C & N1 & N2). split; [|split; [apply D1|exact RR]].
    split; [exact D1|]. exists m. split; [exact C|]. split; [exact N1|].
    intros J. apply N2, (inM_setr _ i), J.
  - unfold dat in *. cbn [with_cm done with_rs with_data say core cache log mg rs last_written reads_right].
    rewrite C in D. rewrite Bp in K.
    destruct (mg s) eqn:M; cbn in K; try (exfalso; exact (Bo eq_refl X)).
    (* pass-through *)
    1-4: destruct D as (D1 & m' & C' & Z); injection C' as <-;
         destruct K as [(d & K & _)|[(w & K & _)|(K & -> & ->)]]; try (rewrite Z in K; discriminate);
         (split; [split; [exact D1|exists m; auto]|split; [apply D1|exact RR]]).
    1-2: destruct D as (m' & C' & D); injection C' as <-;
         destruct K as [(d & K & -> & _)|[(w & _ & _ & _ & K)|(K & -> & ->)]]; try discriminate;
         pose proof (D a) as Da; rewrite K in Da;
         [split; [exists m; auto|split; [destruct d; [exact Da|apply Da]|exact RR]]
         |split; [eexists; split; [reflexivity|apply coh_fill; auto]|split; [exact Da|exact RR]]].
    + destruct D as (m' & C' & D & ND). injection C' as <-.
      destruct K as [(d & K & -> & _)|[(w & _ & _ & _ & K)|(K & -> & ->)]]; try discriminate;
        pose proof (D a) as Da; rewrite K in Da.
      * split; [exists m; auto|split; [destruct d; [exact Da|apply Da]|exact RR]].
      * split; [|split; [exact Da|exact RR]].
        eexists. split; [reflexivity|]. split; [apply coh_fill; auto|apply nodirty_set; [exact ND|discriminate]].
    + destruct D as (D1 & m' & C' & ND & D). injection C' as <-. specialize (D X).
      destruct K as [(d & K & -> & _)|[(w & _ & _ & _ & K)|(K & -> & ->)]]; try discriminate;
        pose proof (D a) as Da; rewrite K in Da.
      * split; [|split; [destruct d; [exact Da|apply Da]|exact RR]].
        split; [exact D1|]. exists m. auto.
      * split; [|split; [exact Da|exact RR]]. split; [exact D1|].
        eexists. split; [reflexivity|]. split; [apply nodirty_set; [exact ND|discriminate]|].
        intros _. apply coh_fill; auto.
Qed.

Lemma write_dat : forall k i a v wb s t, base s -> hand s -> ordered (LWrite i a v wb) s -> dat k s ->
  reads_right k (log s) -> write i a v wb s = Ok t -> dat k t /\ reads_right k (log t).
Proof.
  intros k i a v wb s t B Hd O D RR H. destruct B as [Bm B2 Bd Bp Bc _ _ Bo]. destruct Hd as [_ _ H3].
  cbn [ordered] in O.
  apply write_ok in H as [(X & n & E & ->)|(X & n & m & k' & c & E & C & -> & K)].
  - specialize (O X). apply nth_error_In in X.
    unfold dat in *. cbn [with_c2 done with_rs with_data say core cache log mg rs last_written reads_right].
    split; [|exact RR].
    destruct (mg s) eqn:M; try (exfalso; exact (H3 eq_refl X)).
    all: try (apply core_wr; exact D).
    all: try (destruct D as [D1 D2]; split; [apply core_wr; exact D1|exact D2]).
    destruct D as (D1 & m & C & N1 & N2). split; [apply core_wr; exact D1|].
    exists m. split; [exact C|]. split; [exact N1|].
    intros J. exfalso. apply (O eq_refl), (inM_setr _ i), J.
  - apply nth_error_In in X.
    unfold dat in *. cbn [with_cm done with_rs with_data say core cache log mg rs last_written reads_right].
    split; [|exact RR]. rewrite C in D. rewrite Bp in K. rewrite Bd in K.
    destruct (mg s) eqn:M; cbn in K; try (exfalso; exact (Bo eq_refl X)).
    1-4: destruct D as (D1 & m' & C' & Z); injection C' as <-;
         destruct K as [(_ & -> & ->)|[(K & _)|(K & _)]]; try discriminate;
         (split; [apply core_wr; exact D1|]); exists (setf m a None); (split; [reflexivity|]);
         intros b; unfold setf; destruct (N.eqb b a); auto.
    + destruct D as (m' & C' & D); injection C' as <-.
      destruct K as [(K & _)|[(_ & _ & -> & ->)|(_ & -> & ->)]]; try discriminate;
        (eexists; split; [reflexivity|]); [apply coh_wr_back|apply coh_wr_thr]; exact D.
    + destruct D as (m' & C' & D); injection C' as <-.
      destruct K as [(K & _)|[(_ & K & _)|(_ & -> & ->)]]; try discriminate.
      eexists. split; [reflexivity|]. apply coh_wr_thr, D.
    + destruct D as (m' & C' & D & ND); injection C' as <-.
      destruct K as [(K & _)|[(_ & K & _)|(_ & -> & ->)]]; try discriminate.
      eexists. split; [reflexivity|]. split; [apply coh_wr_thr, D|apply nodirty_set; [exact ND|discriminate]].
    + destruct D as (D1 & m' & C' & ND & D); injection C' as <-. specialize (D X).
      destruct K as [(K & _)|[(_ & K & _)|(_ & -> & ->)]]; try discriminate.
      split; [apply core_wr; exact D1|].
      eexists. split; [reflexivity|]. split; [apply nodirty_set; [exact ND|discriminate]|].
      intros _. apply coh_wr_thr, D.
Qed.

Lemma mngt_dat : forall k ok s t, base s -> dat k s -> mngt ok s = Ok t -> dat k t /\ log t = log s.
Proof.
  intros k ok s t B D H. unfold mngt, unf in H. unfold dat in *.
  destruct (mg s) eqn:M.
  - injection H as <-. split; [|reflexivity]. cbn. split; [exact D|]. eexists. split; reflexivity.
  - injection H as <-. split; [exact D|reflexivity].
  - destruct (fm s); [discriminate|]. injection H as <-. split; [exact D|reflexivity].
  - injection H as <-. split; [exact D|reflexivity].
  - destruct (c2 s =? 0); [|discriminate]. injection H as <-. split; [exact D|reflexivity].
  - destruct (f2 s); [discriminate|]. injection H as <-. split; [exact D|reflexivity].
  - injection H as <-. split; [|reflexivity]. cbn. destruct D as (D & m & C & Z). exists m. split; [exact C|].
    intros a. rewrite Z. apply D.
  - injection H as <-. split; [exact D|reflexivity].
  - destruct ok.
    + destruct (cache s) as [m|]; [|discriminate]. injection H as <-. split; [|reflexivity]. cbn.
      destruct D as (m' & C & D). injection C as <-. eexists. split; [reflexivity|].
      split; [apply coh_flush, D|apply nodirty_flush].
    + destruct (fd s); [discriminate|]. injection H as <-. split; [exact D|reflexivity].
  - injection H as <-. split; [|reflexivity]. cbn. destruct D as (m & C & D & ND).
    split; [exact (coh_nodirty _ _ _ D ND)|]. exists m. auto.
  - destruct (cm s =? 0); [|discriminate]. injection H as <-. split; [exact (proj1 D)|reflexivity].
  - destruct (fd s); [discriminate|]. injection H as <-. split; [exact D|reflexivity].
Qed.

Lemma dat_step : forall k l s t, base s -> hand s -> calm l s -> dat k s -> reads_right k (log s) ->
  exec l s = Ok t -> dat k t /\ reads_right k (log t).
Proof.
  intros k l s t B Hd [_ O] D RR H. destruct l as [|i|i a|i a v wb|ok|a|a]; cbn [exec] in H.
  - injection H as <-. split; [|exact RR]. unfold dat in *. cbn [with_rs core cache log mg rs].
    destruct (mg s); try exact D. destruct D as (D1 & m & C & ND & D2). split; [exact D1|]. exists m.
    split; [exact C|]. split; [exact ND|]. intros J. apply D2. apply in_app_or in J as [J|[J|[]]]; [exact J|discriminate].
  - apply tick_ok in H as (x & r & n & m & X & -> & _ & _ & K). split; [|exact RR].
    unfold dat in *. cbn [with_cm with_c2 with_rs core cache log mg rs].
    destruct B as [Bm _ _ _ _ _ _ _].
    destruct (mg s) eqn:M; try exact D. destruct D as (D1 & mm & C & ND & D2). split; [exact D1|]. exists mm.
    split; [exact C|]. split; [exact ND|]. intros J. apply D2. apply in_setr in J as [J|J]; [|exact J].
    subst r. cbn in Bm. rewrite Bm in K.
    destruct K as [K|[K|[K|[K|[K|[K|[K|[K|[K|K]]]]]]]]]; destruct K as [? K]; more K; discriminate.
  - exact (read_dat k i a s t B Hd D RR H).
  - exact (write_dat k i a v wb s t B Hd O D RR H).
  - destruct (mngt_dat k ok s t B D H) as [D' E]. split; [exact D'|rewrite E; exact RR].
  - destruct (cache s) as [m|] eqn:C; [|discriminate]. destruct (fm s =? 0) eqn:F; [|discriminate].
    destruct (m a) as [[v [|]]|] eqn:E; try discriminate. injection H as <-. split; [|exact RR].
    apply Nat.eqb_eq in F. destruct B as [Bm _ _ _ _ _ _ _]. rewrite Bm in F.
    unfold dat in *. cbn [with_data core cache log mg rs]. rewrite C in D.
    destruct (mg s); cbn in F; try discriminate.
    1-4: destruct D as (_ & m' & C' & Z); injection C' as <-; rewrite Z in E; discriminate.
    1-2: destruct D as (m' & C' & D); injection C' as <-; eexists; split; [reflexivity|apply coh_clean; auto].
    destruct D as (m' & C' & _ & ND); injection C' as <-. exfalso. exact (ND _ _ E).
  - destruct (cache s) as [m|] eqn:C; [|discriminate]. destruct (fm s =? 0) eqn:F; [|discriminate].
    destruct (m a) as [[v [|]]|] eqn:E; try discriminate. injection H as <-. split; [|exact RR].
    apply Nat.eqb_eq in F. destruct B as [Bm _ _ _ _ _ _ _]. rewrite Bm in F.
    unfold dat in *. cbn [with_data core cache log mg rs]. rewrite C in D.
    destruct (mg s); cbn in F; try discriminate.
    1-4: destruct D as (_ & m' & C' & Z); injection C' as <-; rewrite Z in E; discriminate.
    1-2: destruct D as (m' & C' & D); injection C' as <-; eexists; split; [reflexivity|eapply coh_evict; eauto].
    destruct D as (m' & C' & D & ND); injection C' as <-. eexists. split; [reflexivity|].
    split; [eapply coh_evict; eauto|apply nodirty_set; [exact ND|discriminate]].
Qed.

Lemma run_dat : forall k s, run calm k s -> dat k s /\ reads_right k (log s).
Proof.
  intros k s R. induction R as [|s l t R [D RR] G H].
  - split; [|exact I]. cbn. reflexivity.
  - assert (Q : run quiet k s) by (eapply run_weaken; [|exact R]; intros ? ? [? ?]; auto).
    eapply dat_step; eauto; [eapply run_base; eauto|eapply run_hand; eauto].
Qed.

(** Every read returns what was written last, through any number of attaches and detaches *)
Theorem C74_reads : forall k s, run calm k s -> reads_right k (log s).
Proof. intros k s R. apply run_dat, R. Qed.

(** and after a detach the core holds everything *)
Theorem C74_detached : forall k s a, run calm k s -> mg s = Detached -> core s a = last_written k (log s) a.
Proof. intros k s a R M. apply run_dat in R as [D _]. unfold dat in D. rewrite M in D. apply D. Qed.

(** ** Concrete executions *)
Definition isA1 (m : mpc) : bool := match m with A1 => true | _ => false end.
Definition isD2 (m : mpc) : bool := match m with D2 => true | _ => false end.
Definition isHM (r : rst) : bool := match r with HasM => true | _ => false end.
Definition quietb (l : label) (s : st) : bool :=
  match l with LMngt _ => negb (isA1 (mg s)) || negb (existsb mids (rs s)) | _ => true end.
Definition orderedb (l : label) (s : st) : bool :=
  match l with
  | LWrite i _ _ _ => match nth_error (rs s) i with
                      | Some HasD => negb (isD2 (mg s)) || negb (existsb isHM (rs s))
                      | _ => true
                      end
  | _ => true
  end.
Fixpoint runb (g : label -> st -> bool) (ls : list label) (s : st) : option st :=
  match ls with
  | [] => Some s
  | l :: ls => if g l s then match exec l s with Ok s => runb g ls s | _ => None end else None
  end.

Lemma quietb_ok : forall l s, quietb l s = true -> quiet l s.
Proof.
  intros l s H. destruct l; cbn; auto. cbn in H. intros E r I J. rewrite E in H. cbn in H.
  apply negb_true_iff in H. assert (M : mids r = true).
  { destruct J as [<-|[<-|[<-|[<-|[<-|[]]]]]]; reflexivity. }
  assert (X : existsb mids (rs s) = true) by (apply existsb_exists; exists r; auto). congruence.
Qed.
Lemma orderedb_ok : forall l s, orderedb l s = true -> ordered l s.
Proof.
  intros l s H. destruct l; cbn; auto. cbn in H. intros E M I. rewrite E, M in H. cbn in H.
  apply negb_true_iff in H.
  assert (X : existsb isHM (rs s) = true) by (apply existsb_exists; exists HasM; auto). congruence.
Qed.
Lemma runb_ok : forall (g : label -> st -> Prop) h k, (forall l s, h l s = true -> g l s) ->
  forall ls s t, run g k s -> runb h ls s = Some t -> run g k t.
Proof.
  intros g h k W. induction ls as [|l ls IH]; intros s t R H; cbn in H.
  - injection H as <-. exact R.
  - destruct (h l s) eqn:G; [|discriminate]. destruct (exec l s) as [u| | |] eqn:E; try discriminate.
    apply (IH u t); [|exact H]. eapply run1; eauto.
Qed.

Definition zero (a : N) : N := 0%N.
Definition up : list label := repeat (LMngt true) 7.

(** A request that found no device, and reached the second counter when attach had frozen it *)
Theorem C74_bug_refuted : exists k s l, run ordered k s /\ exec l s = Bug.
Proof.
  assert (Q : match runb orderedb ([LNew; LTick 0] ++ repeat (LMngt true) 4) (start zero) with
              | Some s => exec (LTick 0) s = Bug | None => False end) by (vm_compute; reflexivity).
  destruct (runb orderedb _ (start zero)) as [s|] eqn:E; [|destruct Q].
  exists zero, s, (LTick 0). split; [|exact Q].
  eapply runb_ok; [exact orderedb_ok|apply run0|exact E].
Qed.

(** The same request, reaching the second counter after attach had finished: it goes around a cache
    that holds the only copy of what was written *)
Theorem C74_direct_refuted : exists k s, run ordered k s /\ ~ reads_right k (log s).
Proof.
  assert (Q : match runb orderedb ([LNew; LTick 0] ++ up ++ [LNew; LTick 1; LTick 1; LTick 1; LWrite 1 5 7 true;
                LTick 0; LTick 0; LTick 0; LRead 0 5]) (start zero) with
              | Some s => log s = [Rd 5 0; Wr 5 7] | None => False end) by (vm_compute; reflexivity).
  destruct (runb orderedb _ (start zero)) as [s|] eqn:E; [|destruct Q].
  exists zero, s. split; [eapply runb_ok; [exact orderedb_ok|apply run0|exact E]|].
  rewrite Q. cbn. intros [X _]. discriminate.
Qed.

(** A request allocated before a detach and submitted after a direct write: it reads the old copy *)
Theorem C74_detach_refuted : exists k s, run quiet k s /\ ~ reads_right k (log s).
Proof.
  assert (Q : match runb quietb (up ++ [LNew; LTick 0; LTick 0; LTick 0; LWrite 0 5 1 false;
                LNew; LTick 1; LTick 1; LTick 1; LMngt true; LMngt true; LMngt true;
                LNew; LTick 2; LTick 2; LTick 2; LTick 2; LWrite 2 5 9 false; LRead 1 5]) (start zero) with
              | Some s => log s = [Rd 5 1; Wr 5 9; Wr 5 1] | None => False end) by (vm_compute; reflexivity).
  destruct (runb quietb _ (start zero)) as [s|] eqn:E; [|destruct Q].
  exists zero, s. split; [eapply runb_ok; [exact quietb_ok|apply run0|exact E]|].
  rewrite Q. cbn. intros [X _]. discriminate.
Qed.

(** Direct, pass-through, write-back, cleaned and detached; a failed detach in between *)
Definition tour : list label :=
  [LNew; LTick 0; LTick 0; LTick 0; LTick 0] ++ repeat (LMngt true) 4 ++
  [LNew; LTick 1; LTick 1; LTick 1; LRead 1 5; LWrite 0 5 3 true] ++ repeat (LMngt true) 3 ++
  [LNew; LTick 2; LTick 2; LTick 2; LRead 2 5; LNew; LTick 3; LTick 3; LTick 3; LWrite 3 5 4 true;
   LMngt true; LMngt false; LNew; LTick 4; LTick 4; LTick 4; LRead 4 5; LNew; LTick 5; LTick 5; LTick 5;
   LWrite 5 6 8 true; LClean 6; LMngt true; LMngt true; LMngt true;
   LNew; LTick 6; LTick 6; LTick 6; LTick 6; LRead 6 5; LMngt true; LMngt true;
   LNew; LTick 7; LTick 7; LTick 7; LTick 7; LRead 7 6].

Example C74_nonvacuous : exists s, run calm zero s /\ mg s = Detached /\
  log s = [Rd 6 8; Rd 5 4; Wr 6 8; Rd 5 4; Wr 5 4; Rd 5 3; Wr 5 3; Rd 5 0] /\ core s 5 = 4%N.
Proof.
  assert (Q : match runb (fun l s => quietb l s && orderedb l s) tour (start zero) with
              | Some s => mg s = Detached /\
                  log s = [Rd 6 8; Rd 5 4; Wr 6 8; Rd 5 4; Wr 5 4; Rd 5 3; Wr 5 3; Rd 5 0] /\ core s 5 = 4%N
              | None => False end) by (vm_compute; auto).
  destruct (runb _ tour (start zero)) as [s|] eqn:E; [|destruct Q].
  exists s. split; [|exact Q].
  eapply runb_ok; [|apply run0|exact E]. intros l u G. apply andb_true_iff in G as [G1 G2].
  split; [apply quietb_ok, G1|apply orderedb_ok, G2].
Qed.

(** A running cache with a request allocated: the hypotheses of C74_alone *)
Example C74_alone_nonvacuous : exists s, run quiet zero s /\ fm s = 0 /\ pt s = false /\ rs s = [HasM].
Proof.
  assert (Q : match runb quietb (up ++ [LNew; LTick 0; LTick 0; LTick 0]) (start zero) with
              | Some s => fm s = 0 /\ pt s = false /\ rs s = [HasM] | None => False end) by (vm_compute; auto).
  destruct (runb quietb _ (start zero)) as [s|] eqn:E; [|destruct Q].
  exists s. split; [|exact Q]. eapply runb_ok; [exact quietb_ok|apply run0|exact E].
Qed.

(** C74_balance's hypothesis has the witness of C74_bug_refuted;
    here attach waits for a direct request, and detach for one allocated in the cache *)
Example C74_waits : exists s t, run any zero s /\ mg s = A3 /\ exec (LMngt true) s = No /\
  run any zero t /\ mg t = D2 /\ exec (LMngt true) t = No.
Proof.
  assert (Q : match runb quietb ([LNew; LTick 0; LTick 0; LTick 0; LTick 0] ++ repeat (LMngt true) 4) (start zero),
                    runb quietb (up ++ [LNew; LTick 0; LTick 0; LTick 0] ++ repeat (LMngt true) 3) (start zero) with
              | Some s, Some t => mg s = A3 /\ exec (LMngt true) s = No /\ mg t = D2 /\ exec (LMngt true) t = No
              | _, _ => False end) by (vm_compute; auto).
  destruct (runb quietb (_ ++ repeat _ 4) (start zero)) as [s|] eqn:E; [|destruct Q].
  destruct (runb quietb (up ++ _) (start zero)) as [t|] eqn:F; [|destruct Q].
  exists s, t. destruct Q as (Q1 & Q2 & Q3 & Q4).
  assert (W : forall l u, quietb l u = true -> any l u) by (intros; exact I).
  split; [eapply runb_ok; [exact W|apply run0|exact E]|]. split; [exact Q1|]. split; [exact Q2|].
  split; [eapply runb_ok; [exact W|apply run0|exact F]|]. auto.
Qed.

(** All requests gone while detach waits: the hypotheses of C74_progress *)
Example C74_progress_nonvacuous : exists s, run any zero s /\ mg s = D2 /\ rs s = [Gone; Trying].
Proof.
  assert (Q : match runb quietb (up ++ [LNew; LTick 0; LTick 0; LTick 0] ++ repeat (LMngt true) 3 ++
                [LRead 0 5; LNew; LTick 1]) (start zero) with
              | Some s => mg s = D2 /\ rs s = [Gone; Trying] | None => False end) by (vm_compute; auto).
  destruct (runb quietb _ (start zero)) as [s|] eqn:E; [|destruct Q].
  exists s. split; [|exact Q]. eapply runb_ok; [|apply run0|exact E]. intros; exact I.
Qed.

Print Assumptions C74_released.
Print Assumptions C74_balance.
Print Assumptions C74_progress.
Print Assumptions C74_in_use.
Print Assumptions C74_no_bug.
Print Assumptions C74_alone.
Print Assumptions C74_reads.
Print Assumptions C74_detached.
Print Assumptions C74_bug_refuted.
Print Assumptions C74_direct_refuted.
Print Assumptions C74_detach_refuted.

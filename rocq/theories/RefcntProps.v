(** C15: the freezing reference counter. *)
From Coq Require Import ZArith List Bool Arith Lia.
From Verif Require Import RefcntModel.
Import ListNotations.
Open Scope nat_scope.

Fixpoint sumn (f : nat -> nat) (k : nat) : nat := match k with 0 => 0 | S k => f k + sumn f k end.

Lemma setf_eq : forall A (f : nat -> A) i v, setf f i v i = v.
Proof. intros. unfold setf. now rewrite Nat.eqb_refl. Qed.
Lemma setf_neq : forall A (f : nat -> A) i v j, j <> i -> setf f i v j = f j.
Proof. intros. unfold setf. destruct (Nat.eqb_spec j i); congruence. Qed.

Lemma sumn_ext : forall f g k, (forall i, i < k -> f i = g i) -> sumn f k = sumn g k.
Proof. induction k; intros H; cbn; [reflexivity|]. rewrite H by lia. rewrite IHk; [reflexivity|]. intros. apply H. lia. Qed.
Lemma sumn_upd : forall f g k t, t < k -> (forall i, i <> t -> g i = f i) -> sumn g k + f t = sumn f k + g t.
Proof.
  induction k; intros t Ht HG; [lia|]. cbn. destruct (Nat.eq_dec t k) as [->|Hne].
  - rewrite (sumn_ext g f k); [lia|]. intros. apply HG. lia.
  - rewrite (HG k) by auto. specialize (IHk t ltac:(lia) HG). lia.
Qed.
Lemma sumn_ge : forall f k t, t < k -> f t <= sumn f k.
Proof. induction k; intros t Ht; [lia|]. cbn. destruct (Nat.eq_dec t k) as [->|Hne]; [lia|]. specialize (IHk t). lia. Qed.
Lemma sumn_0 : forall f k, sumn f k = 0 -> forall t, t < k -> f t = 0.
Proof. intros f k H t Ht. pose proof (sumn_ge f k t Ht). lia. Qed.

Section Inv.
Variables (nt : nat) (calm : bool).
Notation step := (step nt calm).
Notation run := (run nt calm).

(** References that a thread in the middle of a call has on the counter. *)
Definition tr (p : pc) : nat := match p with Inc3 | Dec1 | Reg3 | Reg4 => 1 | _ => 0 end.
Definition regging (p : pc) : bool := match p with Reg1 | Reg2 | Reg3 | Reg4 => true | _ => false end.

Record Inv (s : st) : Prop := {
  i_cnt : counter s = Z.of_nat (sumn (refs s) nt + sumn (fun t => tr (thr s t)) nt);
  i_cb : callback s = true -> outst s = true;
  i_reg : forall t, t < nt -> regging (thr s t) = true -> outst s = true /\ callback s = false;
  i_reg1 : forall t t', t < nt -> t' < nt -> regging (thr s t) = true -> regging (thr s t') = true -> t = t';
  i_out : outst s = true -> callback s = true \/ exists t, t < nt /\ regging (thr s t) = true;
  i_frz : outst s = true -> freeze s <> 0;
  i_lost : callback s = true -> (counter s = 0)%Z -> exists t, t < nt /\ thr s t = Dec2;
  i_once : nreg s = fired s + (if outst s then 1 else 0);
  i_calm : calm = true -> callback s = true -> (exists t, t < nt /\ thr s t = Dec2) -> sumn (refs s) nt = 0;
  i_early : calm = true -> early s = false
}.

Lemma init_inv : Inv init.
Proof.
  assert (HZ : forall k, sumn (fun _ => 0) k = 0) by (induction k; auto).
  constructor; cbn; try discriminate; auto; try lia.
  - rewrite !HZ. reflexivity.
Qed.

Lemma window_true : forall s, window nt s = true <-> exists t, t < nt /\ thr s t = Dec2.
Proof.
  intros s. unfold window. rewrite existsb_exists. split.
  - intros (t & Ht & H). apply in_seq in Ht. exists t. split; [lia|]. destruct (thr s t); congruence.
  - intros (t & Ht & H). exists t. split; [apply in_seq; lia|]. now rewrite H.
Qed.
Lemma held_false : forall s, sumn (refs s) nt = 0 -> held nt s = false.
Proof.
  intros s H. unfold held. destruct (existsb _ _) eqn:E; auto. apply existsb_exists in E as (t & Ht & E).
  apply in_seq in Ht. rewrite (sumn_0 _ _ H t ltac:(lia)) in E. discriminate.
Qed.

Ltac splits := repeat match goal with |- _ /\ _ => split end.

(** A step of thread [t] to [p] with the counter changed accordingly and nothing else. *)
Lemma inv_goto : forall s s' t p, Inv s -> t < nt ->
  thr s' = setf (thr s) t p -> refs s' = refs s -> outst s' = outst s -> callback s' = callback s -> freeze s' = freeze s ->
  nreg s' = nreg s -> fired s' = fired s -> early s' = early s ->
  (counter s' = counter s + Z.of_nat (tr p) - Z.of_nat (tr (thr s t)))%Z ->
  regging p = regging (thr s t) ->
  (thr s t = Dec2 -> callback s = false) ->
  (p = Dec2 -> counter s' = 0%Z) -> (counter s' = 0%Z -> counter s = 0%Z \/ p = Dec2) ->
  Inv s'.
Proof.
  intros s s' t p HI Ht ET ER EO EC EF EN EFi EE ECnt HReg HD2 HD2' HZ. destruct HI as [I1 I2 I3 I4 I5 I6 I7 I8 I9 I10].
  assert (Hreg : forall u, regging (thr s' u) = regging (thr s u)).
  { intros u. rewrite ET. unfold setf. destruct (Nat.eqb_spec u t); subst; auto. }
  assert (HC : counter s' = Z.of_nat (sumn (refs s') nt + sumn (fun t => tr (thr s' t)) nt)).
  { rewrite ER. pose proof (sumn_upd (fun u => tr (thr s u)) (fun u => tr (thr s' u)) nt t Ht) as HU.
    rewrite ET in *. rewrite setf_eq in HU. assert (HX : forall i, i <> t -> tr (setf (thr s) t p i) = tr (thr s i)) by (intros i Hi; now rewrite setf_neq).
    specialize (HU HX). lia. }
  constructor; rewrite ?EO, ?EC, ?EF, ?EN, ?EFi, ?EE; [exact HC|exact I2| | | |exact I6| |exact I8| |exact I10].
  - intros u Hu. rewrite Hreg. exact (I3 u Hu).
  - intros u v Hu Hv. rewrite !Hreg. exact (I4 u v Hu Hv).
  - intros HO. destruct (I5 HO) as [H|(u & Hu & H)]; auto. right. exists u. rewrite Hreg. auto.
  - intros Hcb H0. destruct (HZ H0) as [Hc| ->].
    + destruct (I7 Hcb Hc) as (u & Hu & Eu). exists u. split; auto. rewrite ET, setf_neq; auto. intros ->. rewrite (HD2 Eu) in Hcb. discriminate.
    + exists t. split; auto. rewrite ET. apply setf_eq.
  - intros Hcalm Hcb (u & Hu & Eu). rewrite ER. rewrite ET in Eu. unfold setf in Eu. destruct (Nat.eqb_spec u t).
    + assert (H0 : counter s' = 0%Z) by auto. rewrite HC, ER in H0. lia.
    + apply I9; auto. eauto.
Qed.

Theorem step_inv : forall s t a, Inv s -> t < nt ->
  match step t a s with Bug => False | Blocked => True | Ok s' => Inv s' end.
Proof.
  intros s t a HI Ht. pose proof HI as [I1 I2 I3 I4 I5 I6 I7 I8 I9 I10]. unfold RefcntModel.step.
  assert (HT : tr (thr s t) <= sumn (fun t => tr (thr s t)) nt) by exact (sumn_ge (fun t => tr (thr s t)) nt t Ht).
  destruct (thr s t) eqn:EP; destruct a; auto.
  - (* StartInc *)
    apply (inv_goto s _ t Inc1 HI Ht); cbn; auto; rewrite ?EP; cbn; try lia; try discriminate; auto.
  - (* StartDec *)
    destruct (refs s t) as [|k] eqn:ER; auto.
    pose proof (sumn_upd (refs s) (setf (refs s) t k) nt t Ht (fun i Hi => setf_neq _ _ _ _ _ Hi)) as HU. rewrite setf_eq, ER in HU.
    pose proof (sumn_upd (fun u => tr (thr s u)) (fun u => tr (setf (thr s) t Dec1 u)) nt t Ht) as HV.
    cbv beta in HV. rewrite setf_eq, EP in HV. cbn [tr] in HV.
    assert (HX : forall i, i <> t -> tr (setf (thr s) t Dec1 i) = tr (thr s i)) by (intros i Hi; now rewrite setf_neq). specialize (HV HX).
    assert (Hreg : forall u, regging (setf (thr s) t Dec1 u) = regging (thr s u)).
    { intros u. unfold setf. destruct (Nat.eqb_spec u t); subst; auto. now rewrite EP. }
    assert (HD : forall u, setf (thr s) t Dec1 u = Dec2 <-> thr s u = Dec2).
    { intros u. unfold setf. destruct (Nat.eqb_spec u t); subst; [rewrite EP; split; discriminate|tauto]. }
    constructor; cbn; auto.
    + rewrite I1. lia.
    + intros u Hu. rewrite Hreg. exact (I3 u Hu).
    + intros u v Hu Hv. rewrite !Hreg. exact (I4 u v Hu Hv).
    + intros HO. destruct (I5 HO) as [H|(u & Hu & H)]; auto. right. exists u. rewrite Hreg. auto.
    + intros Hcb H0. destruct (I7 Hcb H0) as (u & Hu & Eu). exists u. split; auto. now apply HD.
    + intros Hc Hcb (u & Hu & Eu). apply HD in Eu. specialize (I9 Hc Hcb (ex_intro _ u (conj Hu Eu))). lia.
  - (* Freeze *)
    constructor; cbn; auto.
  - (* Unfreeze *)
    destruct (freeze s) as [|k]; auto. destruct (outst s) eqn:EO; auto. constructor; cbn; auto; rewrite ?EO; auto. discriminate.
  - (* StartReg *)
    destruct (Nat.eqb_spec (freeze s) 0); cbn [orb]; auto. destruct (outst s) eqn:EO; auto.
    assert (Hcb : callback s = false). { destruct (callback s); auto. symmetry. now apply I2. }
    assert (Hno : forall u, u < nt -> regging (thr s u) = false).
    { intros u Hu. destruct (regging (thr s u)) eqn:E; auto. destruct (I3 u Hu E). congruence. }
    constructor; cbn; rewrite ?Hcb; auto; try discriminate; try lia.
    + rewrite I1. do 2 f_equal. apply sumn_ext. intros i _. unfold setf. destruct (Nat.eqb_spec i t); subst; auto. now rewrite EP.
    + intros u v Hu Hv. unfold setf. destruct (Nat.eqb_spec u t), (Nat.eqb_spec v t); subst; auto; intros A B.
      * rewrite Hno in B by auto. discriminate.
      * rewrite Hno in A by auto. discriminate.
    + intros _. right. exists t. split; auto. now rewrite setf_eq.
  - (* Inc1 *)
    apply (inv_goto s _ t (if freeze s =? 0 then Inc2 else Idle) HI Ht); cbn; auto; rewrite ?EP; destruct (freeze s =? 0); cbn; auto; try lia; try discriminate.
  - (* Inc2 *)
    apply (inv_goto s _ t Inc3 HI Ht); cbn; auto; rewrite ?EP; cbn; try lia; try discriminate.
  - (* Inc3 *)
    destruct (Nat.eqb_spec (freeze s) 0) as [EF|EF].
    + assert (EO : outst s = false). { destruct (outst s); auto. elim I6; auto. }
      assert (Hcb : callback s = false). { destruct (callback s); auto. rewrite <- EO. symmetry. now apply I2. }
      pose proof (sumn_upd (refs s) (setf (refs s) t (S (refs s t))) nt t Ht (fun i Hi => setf_neq _ _ _ _ _ Hi)) as HU. rewrite setf_eq in HU.
      pose proof (sumn_upd (fun u => tr (thr s u)) (fun u => tr (setf (thr s) t Idle u)) nt t Ht) as HV.
      cbv beta in HV. rewrite setf_eq, EP in HV. cbn [tr] in HV.
      assert (HX : forall i, i <> t -> tr (setf (thr s) t Idle i) = tr (thr s i)) by (intros i Hi; now rewrite setf_neq). specialize (HV HX).
      assert (Hreg : forall u, regging (setf (thr s) t Idle u) = regging (thr s u)).
      { intros u. unfold setf. destruct (Nat.eqb_spec u t); subst; auto. now rewrite EP. }
      constructor; cbn; rewrite ?EO, ?Hcb; auto; try discriminate.
      * rewrite I1. lia.
      * intros u Hu. rewrite Hreg. intros H. destruct (I3 u Hu H). congruence.
      * intros u v Hu Hv. rewrite !Hreg. exact (I4 u v Hu Hv).
      * rewrite I8, EO. reflexivity.
    + apply (inv_goto s _ t Dec1 HI Ht); cbn; auto; rewrite ?EP; cbn; try lia; try discriminate; auto.
  - (* Dec1 *)
    cbn [tr] in HT. destruct (Z.ltb_spec (counter s - 1) 0); [lia|].
    apply (inv_goto s _ t (if (counter s - 1 =? 0)%Z then Dec2 else Idle) HI Ht); cbn; auto; rewrite ?EP;
      destruct (Z.eqb_spec (counter s - 1) 0); cbn; auto; try lia; try discriminate.
  - (* Dec2 *)
    destruct (callback s) eqn:EC.
    + assert (EO : outst s = true) by auto.
      assert (HV : sumn (fun u => tr (setf (thr s) t Idle u)) nt = sumn (fun u => tr (thr s u)) nt).
      { apply sumn_ext. intros i _. unfold setf. destruct (Nat.eqb_spec i t); subst; auto. now rewrite EP. }
      assert (Hno : forall u, u < nt -> regging (thr s u) = false).
      { intros u Hu. destruct (regging (thr s u)) eqn:E; auto. destruct (I3 u Hu E). congruence. }
      assert (Hno' : forall u, u < nt -> regging (setf (thr s) t Idle u) = false).
      { intros u Hu. unfold setf. destruct (Nat.eqb_spec u t); auto. }
      constructor; cbn; try discriminate.
      * rewrite HV. auto.
      * intros u Hu. rewrite Hno' by auto. discriminate.
      * intros u v Hu Hv. rewrite Hno' by auto. discriminate.
      * rewrite I8, EO. lia.
      * intros Hcalm. rewrite I10, held_false; auto. apply I9; auto. eauto.
    + apply (inv_goto s _ t Idle HI Ht); cbn; auto; rewrite ?EP; cbn; try lia; try discriminate; auto.
  - (* Reg1 *)
    assert (HR : regging (thr s t) = true) by (rewrite EP; auto). destruct (I3 t Ht HR) as [HO HC].
    destruct (Nat.eqb_spec (freeze s) 0); [elim (I6 HO); auto|]. rewrite HC. cbn [orb].
    apply (inv_goto s _ t Reg2 HI Ht); cbn; auto; rewrite ?EP; cbn; try lia; try discriminate; auto.
  - (* Reg2 *)
    apply (inv_goto s _ t Reg3 HI Ht); cbn; auto; rewrite ?EP; cbn; try lia; try discriminate; auto.
  - (* Reg3 *)
    apply (inv_goto s _ t Reg4 HI Ht); cbn; auto; rewrite ?EP; cbn; try lia; try discriminate; auto.
  - (* Reg4 *)
    assert (HR : regging (thr s t) = true) by (rewrite EP; auto). destruct (I3 t Ht HR) as [HO HC].
    destruct (calm && window nt s) eqn:EW; auto.
    assert (HV : sumn (fun u => tr (setf (thr s) t Dec1 u)) nt = sumn (fun u => tr (thr s u)) nt).
    { apply sumn_ext. intros i _. unfold setf. destruct (Nat.eqb_spec i t); subst; auto. now rewrite EP. }
    assert (Hno' : forall u, u < nt -> regging (setf (thr s) t Dec1 u) = false).
    { intros u Hu. unfold setf. destruct (Nat.eqb_spec u t); auto. destruct (regging (thr s u)) eqn:E; auto.
      elim n. apply (I4 u t); auto. }
    constructor; cbn; auto.
    + rewrite HV. auto.
    + intros u Hu. rewrite Hno' by auto. discriminate.
    + intros u v Hu Hv. rewrite Hno' by auto. discriminate.
    + intros _ H0. cbn [tr] in HT. lia.
    + intros Hcalm _ (u & Hu & Eu). exfalso. rewrite Hcalm in EW. cbn in EW.
      assert (window nt s = true); [|congruence]. apply window_true. exists u. split; auto.
      unfold setf in Eu. destruct (Nat.eqb_spec u t); [discriminate|auto].
Qed.

Theorem run_inv : forall evs s, Inv s -> Forall (fun e => fst e < nt) evs -> exists s', run evs s = Ok s' /\ Inv s'.
Proof.
  induction evs as [|[t a] evs IH]; intros s HI HF; cbn [RefcntModel.run]; [eauto|].
  apply Forall_cons_iff in HF as [Ht HF]. pose proof (step_inv s t a HI Ht) as HS. destruct (step t a s); [auto|easy|auto].
Qed.
End Inv.

Definition known (nt : nat) (evs : list (nat * act)) : Prop := Forall (fun e => fst e < nt) evs.

(** ** No reference is granted while frozen *)
Theorem C15_no_grant_when_frozen : forall nt evs t a s s', known nt evs -> t < nt ->
  run nt false evs init = Ok s -> freeze s <> 0 -> step nt false t a s = Ok s' -> forall u, refs s' u <= refs s u.
Proof.
  intros nt evs t a s s' HK Ht E HF HS u. unfold step in HS.
  destruct (thr s t), a; try discriminate;
    repeat match type of HS with
    | match refs s t with _ => _ end = _ => destruct (refs s t) eqn:ER; [discriminate|]
    | match freeze s with _ => _ end = _ => destruct (freeze s) eqn:EF; [contradiction|]
    | (if ?c then _ else _) = _ => destruct c eqn:?; try discriminate
    end; inversion HS; subst s'; cbn; auto.
  - unfold setf. destruct (Nat.eqb_spec u t); subst; lia.
  - apply Nat.eqb_eq in Heqb. contradiction.
Qed.

(** ** Exactly once: one run of the callback per registration, none before it, and it is
    never lost: when the callback is still outstanding after its registration, either the
    counter is positive or a thread is about to run it. *)
Theorem C15_exactly_once : forall nt evs, known nt evs ->
  exists s, run nt false evs init = Ok s /\ fired s <= nreg s /\ nreg s <= fired s + 1 /\
    (outst s = false -> fired s = nreg s) /\
    (outst s = true -> (forall t, t < nt -> thr s t = Idle) -> exists t, t < nt /\ refs s t <> 0).
Proof.
  intros nt evs HK. destruct (run_inv nt false evs init (init_inv nt false) HK) as (s & E & HI). exists s.
  destruct HI as [I1 I2 I3 I4 I5 I6 I7 I8 I9 I10]. split; auto. split; [destruct (outst s); lia|]. split; [destruct (outst s); lia|].
  split; [intros HO; rewrite HO in I8; lia|].
  intros HO Hidle. destruct (I5 HO) as [HC|(t & Ht & HR)]; [|rewrite Hidle in HR by auto; discriminate].
  assert (HT : sumn (fun t => tr (thr s t)) nt = 0).
  { clear - Hidle. induction nt as [|k IH]; auto. cbn. rewrite Hidle by lia. cbn. apply IH. auto. }
  assert (HN : sumn (refs s) nt <> 0).
  { intros H0. destruct (I7 HC) as (t & Ht & HD); [rewrite I1; lia|]. rewrite Hidle in HD by auto. discriminate. }
  clear - HN. induction nt as [|k IH]; [easy|]. cbn in HN. destruct (refs s k) eqn:EK.
  - destruct (IH ltac:(lia)) as (t & Ht & H). exists t. split; [lia|auto].
  - exists k. split; [lia|]. rewrite EK. discriminate.
Qed.

(** ** Never early - false *)

(** Thread 0 gives back the last reference and is interrupted between dec_return and
    cmpxchg.  Thread 1 takes a new reference.  Thread 2 freezes and registers.  Thread 0
    goes on, finds the callback registered and runs it while thread 1 holds its reference. *)
Definition early_run : list (nat * act) :=
  [(0, StartInc); (0, Step); (0, Step); (0, Step);
   (0, StartDec); (0, Step);
   (1, StartInc); (1, Step); (1, Step); (1, Step);
   (2, Freeze); (2, StartReg); (2, Step); (2, Step); (2, Step); (2, Step); (2, Step);
   (0, Step)].
Theorem C15_never_early_refuted : exists nt evs s, known nt evs /\ run nt false evs init = Ok s /\
  fired s = 1 /\ refs s 1 = 1 /\ early s = true.
Proof.
  assert (H : match run 3 false early_run init with Ok s => fired s = 1 /\ refs s 1 = 1 /\ early s = true | _ => False end)
    by (vm_compute; auto).
  exists 3, early_run. destruct (run 3 false early_run init) as [| |s]; try contradiction.
  exists s. split; [unfold known, early_run; repeat constructor|]. auto.
Qed.

(** It holds if the store of the callback flag never happens while some thread is between
    its dec_return to zero and its cmpxchg. *)
Theorem C15_never_early_partial : forall nt evs, known nt evs ->
  exists s, run nt true evs init = Ok s /\ early s = false.
Proof.
  intros nt evs HK. destruct (run_inv nt true evs init (init_inv nt true) HK) as (s & E & HI). exists s. split; auto. now apply (i_early nt true s HI).
Qed.

(** What [early] records: a callback run while some thread held a reference. *)
Theorem C15_early_meaning : forall nt calm t a s s', step nt calm t a s = Ok s' -> fired s' = S (fired s) ->
  (exists u, u < nt /\ refs s u <> 0) -> early s' = true.
Proof.
  intros nt calm t a s s' HS HF (u & Hu & Hr). unfold step in HS.
  assert (HH : held nt s = true).
  { unfold held. apply existsb_exists. exists u. split; [apply in_seq; lia|]. destruct (Nat.eqb_spec (refs s u) 0); auto. }
  destruct (thr s t), a; try discriminate;
    repeat match type of HS with
    | match refs s t with _ => _ end = _ => destruct (refs s t) eqn:ER; [discriminate|]
    | match freeze s with _ => _ end = _ => destruct (freeze s) eqn:EF; [discriminate|]
    | (if ?c then _ else _) = _ => destruct c eqn:?; try discriminate
    end; inversion HS; subst s'; cbn in HF; try lia.
  cbn. rewrite HH. apply orb_true_r.
Qed.

(** ** Cases *)
Definition ok_run : list (nat * act) :=
  [(0, StartInc); (0, Step); (0, Step); (0, Step);
   (1, StartInc); (1, Step); (1, Step);
   (2, Freeze); (2, StartReg); (2, Step); (2, Step); (2, Step); (2, Step); (2, Step);
   (1, Step); (1, Step);
   (0, StartDec); (0, Step); (0, Step); (2, Unfreeze); (1, StartInc); (1, Step)].
Example C15_case : known 3 ok_run /\
  (match run 3 false ok_run init with Ok s => fired s = 1 /\ nreg s = 1 /\ outst s = false /\ early s = false /\ thr s 1 = Inc2 | _ => False end) /\
  (match run 3 true ok_run init with Ok s => fired s = 1 /\ early s = false | _ => False end) /\
  (match run 3 false (firstn 16 ok_run) init with Ok s => fired s = 0 /\ outst s = true /\ refs s 0 = 1 /\ freeze s = 1 /\ thr s 0 = Idle /\ thr s 1 = Idle /\ thr s 2 = Idle | _ => False end).
Proof. split; [unfold known, ok_run; repeat constructor|]. vm_compute. auto 12. Qed.

Print Assumptions C15_no_grant_when_frozen.
Print Assumptions C15_exactly_once.
Print Assumptions C15_never_early_refuted.
Print Assumptions C15_never_early_partial.
Print Assumptions C15_early_meaning.

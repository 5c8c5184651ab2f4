(** C19: parallel jobs. *)
From Coq Require Import ZArith List Bool Arith Lia.
From Verif Require Import ParallelModel.
Import ListNotations.
Open Scope nat_scope.

Fixpoint sumn (f : nat -> nat) (k : nat) : nat := match k with 0 => 0 | S k => f k + sumn f k end.
Lemma setf_eq : forall A (f : nat -> A) i v, setf f i v i = v.
Proof. intros. unfold setf. now rewrite Nat.eqb_refl. Qed.
Lemma setf_neq : forall A (f : nat -> A) i v j, j <> i -> setf f i v j = f j.
Proof. intros. unfold setf. destruct (Nat.eqb_spec j i); congruence. Qed.
Lemma sumn_ext : forall f g k, (forall i, i < k -> f i = g i) -> sumn f k = sumn g k.
Proof. induction k; intros H; cbn; [reflexivity|]. rewrite H by lia. rewrite IHk; [reflexivity|]. intros. apply H. lia. Qed.
Lemma sumn_upd : forall f g k t, t < k -> (forall i, i <> t -> g i = f i) -> sumn g k + f t = sumn f k + g t.
Proof.
  induction k; intros t Ht HG; [lia|]. cbn. destruct (Nat.eq_dec t k) as [->|Hne].
  - rewrite (sumn_ext g f k); [lia|]. intros. apply HG. lia.
  - rewrite (HG k) by auto. specialize (IHk t ltac:(lia) HG). lia.
Qed.
Lemma sumn_ge : forall f k t, t < k -> f t <= sumn f k.
Proof. induction k; intros t Ht; [lia|]. cbn. destruct (Nat.eq_dec t k) as [->|Hne]; [lia|]. specialize (IHk t). lia. Qed.
Lemma sumn_ge2 : forall f k t u, t < k -> u < k -> t <> u -> f t + f u <= sumn f k.
Proof.
  induction k; intros t u Ht Hu Hne; [lia|]. cbn. destruct (Nat.eq_dec t k) as [->|], (Nat.eq_dec u k) as [->|]; try lia.
  - pose proof (sumn_ge f k u ltac:(lia)). lia.
  - pose proof (sumn_ge f k t ltac:(lia)). lia.
  - specialize (IHk t u). lia.
Qed.

Section P.
Variable n : nat.

Definition before_dec (p : pc) : nat := match p with Last | Done => 0 | _ => 1 end.
Definition isLast (p : pc) : nat := match p with Last => 1 | _ => 0 end.
Definition returned (p : pc) : bool := match p with Returned _ | Marked | Last | Done => true | _ => false end.
Definition decided (p : pc) : bool := match p with Marked | Last | Done => true | _ => false end.

Record Inv (s : st) : Prop := {
  i_rem : remaining s = Z.of_nat (sumn (fun t => before_dec (thr s t)) (S n));
  i_main : match thr s n with
           | Pushing i => i <= n /\ (forall t, t < n -> (thr s t = NotPushed <-> i <= t))
           | Marked | Last | Done => forall t, t < n -> thr s t <> NotPushed
           | _ => False end;
  i_shard : forall t i, t < n -> thr s t <> Pushing i;
  i_ret : forall t, t < n -> (returned (thr s t) = true <-> exists e, In (t, e) (ret s));
  i_cur : forall t e, t < n -> thr s t = Returned e -> In (t, e) (ret s);
  i_once : NoDup (map fst (ret s));
  i_known : forall t e, In (t, e) (ret s) -> t < n;
  i_err : error s <> 0%Z -> exists t, In (t, error s) (ret s);
  i_err' : forall t e, In (t, e) (ret s) -> decided (thr s t) = true -> e <> 0%Z -> error s <> 0%Z;
  i_fin : sumn (fun t => isLast (thr s t)) (S n) + length (fin s) = (if (remaining s =? 0)%Z then 1 else 0);
  i_res : forall e, In e (fin s) -> e = error s
}.

Lemma start_inv : Inv (start n).
Proof.
  constructor; cbn [start remaining error thr ret fin]; try (intros; easy).
  - assert (HG : forall k, k <= S n -> sumn (fun t => before_dec (if t =? n then Pushing 0 else NotPushed)) k = k).
    { induction k; intros Hk; auto. cbn [sumn]. rewrite IHk by lia. destruct (k =? n); cbn; lia. }
    rewrite HG by lia. lia.
  - rewrite Nat.eqb_refl. split; [lia|]. intros t Ht. destruct (Nat.eqb_spec t n); [lia|]. split; auto; lia.
  - intros t i Ht. destruct (Nat.eqb_spec t n); [lia|]. discriminate.
  - intros t Ht. destruct (Nat.eqb_spec t n); [lia|]. cbn. split; [discriminate|]. intros (e & []).
  - intros t e Ht. destruct (Nat.eqb_spec t n); [lia|]. discriminate.
  - constructor.
  - assert (HG : forall k, sumn (fun t => isLast (if t =? n then Pushing 0 else NotPushed)) k = 0).
    { induction k; auto. cbn [sumn]. rewrite IHk. destruct (k =? n); cbn; lia. }
    rewrite HG. destruct (Z.eqb_spec (Z.of_nat n + 1) 0); [lia|]. reflexivity.
Qed.

Lemma sum_setf : forall (g : pc -> nat) s t p, t < S n ->
  sumn (fun u => g (setf (thr s) t p u)) (S n) + g (thr s t) = sumn (fun u => g (thr s u)) (S n) + g p.
Proof.
  intros g s t p Ht. pose proof (sumn_upd (fun u => g (thr s u)) (fun u => g (setf (thr s) t p u)) (S n) t Ht) as H. cbv beta in H.
  rewrite setf_eq in H. apply H. intros i Hi. now rewrite setf_neq.
Qed.

Theorem step_inv : forall s t r, Inv s -> t <= n -> match step n t r s with Blocked => True | Ok s' => Inv s' end.
Proof.
  intros s t r [I1 I2 I3 I4 I5 I6 I7 I8 I9 I10 I11] Ht. unfold step.
  destruct (thr s t) eqn:EP; auto.
  - (* Queued *)
    assert (Hne : t <> n). { intros ->. rewrite EP in I2. easy. }
    assert (Hfresh : forall e, ~ In (t, e) (ret s)).
    { intros e He. assert (HR : returned (thr s t) = true) by (apply I4; [lia|eauto]). rewrite EP in HR. discriminate. }
    pose proof (sum_setf before_dec s t (Returned r) ltac:(lia)) as H1. pose proof (sum_setf isLast s t (Returned r) ltac:(lia)) as H2. rewrite EP in H1, H2. cbn [before_dec isLast] in H1, H2.
    constructor; cbn [remaining error thr ret fin].
    + rewrite I1. lia.
    + rewrite (setf_neq _ _ t _ n) by auto. destruct (thr s n) eqn:EN; auto.
      * intros u Hu. unfold setf. destruct (Nat.eqb_spec u t); [discriminate|auto].
      * intros u Hu. unfold setf. destruct (Nat.eqb_spec u t); [discriminate|auto].
      * intros u Hu. unfold setf. destruct (Nat.eqb_spec u t); [discriminate|auto].
      * destruct I2 as [A B]. split; auto. intros u Hu. unfold setf. destruct (Nat.eqb_spec u t); [|auto]. subst. rewrite <- B by auto. rewrite EP. split; discriminate.
    + intros u i Hu. unfold setf. destruct (Nat.eqb_spec u t); [discriminate|auto].
    + intros u Hu. unfold setf. destruct (Nat.eqb_spec u t) as [->|].
      * cbn. split; auto. intros _. exists r. apply in_app_iff. cbn. auto.
      * rewrite (I4 u Hu). split; intros (e & He); exists e.
        { apply in_app_iff. auto. }
        { apply in_app_iff in He as [He|[He|[]]]; auto. congruence. }
    + intros u e Hu. unfold setf. destruct (Nat.eqb_spec u t) as [->|].
      * intros E. inversion E; subst. apply in_app_iff. cbn. auto.
      * intros E. apply in_app_iff. left. auto.
    + rewrite map_app. cbn. assert (HN : ~ In t (map fst (ret s))).
      { rewrite in_map_iff. intros ([u e] & <- & He). exact (Hfresh e He). }
      clear - I6 HN. induction (map fst (ret s)) as [|a l IH]; cbn; [repeat constructor; easy|]. inversion I6; subst. constructor.
      * rewrite in_app_iff. cbn in *. intuition.
      * apply IH; auto. cbn in HN. tauto.
    + intros u e He. apply in_app_iff in He as [He|[He|[]]]; [eauto|]. inversion He; subst. lia.
    + intros HE. destruct (I8 HE) as (u & Hu). exists u. apply in_app_iff. auto.
    + intros u e He. unfold setf. destruct (Nat.eqb_spec u t) as [->|]; [discriminate|]. apply in_app_iff in He as [He|[He|[]]]; [eauto|]. congruence.
    + lia.
    + exact I11.
  - (* Returned *)
    assert (Hne : t <> n). { intros ->. rewrite EP in I2. easy. }
    pose proof (sum_setf before_dec s t Marked ltac:(lia)) as H1. pose proof (sum_setf isLast s t Marked ltac:(lia)) as H2. rewrite EP in H1, H2. cbn [before_dec isLast] in H1, H2.
    assert (Hfin : fin s = []).
    { assert (remaining s <> 0%Z). { rewrite I1. pose proof (sumn_ge (fun t => before_dec (thr s t)) (S n) t ltac:(lia)) as HG. cbv beta in HG. rewrite EP in HG. cbn [before_dec] in HG. lia. }
      destruct (Z.eqb_spec (remaining s) 0); [contradiction|]. destruct (fin s); auto. cbn in I10. lia. }
    assert (Hcur : In (t, e) (ret s)) by (apply I5; auto; lia).
    constructor; cbn [remaining error thr ret fin].
    + rewrite I1. lia.
    + rewrite (setf_neq _ _ t _ n) by auto. destruct (thr s n) eqn:EN; auto.
      * intros u Hu. unfold setf. destruct (Nat.eqb_spec u t); [discriminate|auto].
      * intros u Hu. unfold setf. destruct (Nat.eqb_spec u t); [discriminate|auto].
      * intros u Hu. unfold setf. destruct (Nat.eqb_spec u t); [discriminate|auto].
      * destruct I2 as [A B]. split; auto. intros u Hu. unfold setf. destruct (Nat.eqb_spec u t); [|auto]. subst. rewrite <- B by auto. rewrite EP. split; discriminate.
    + intros u i Hu. unfold setf. destruct (Nat.eqb_spec u t); [discriminate|auto].
    + intros u Hu. unfold setf. destruct (Nat.eqb_spec u t) as [->|]; auto. rewrite <- I4, EP by lia. cbn. tauto.
    + intros u e' Hu. unfold setf. destruct (Nat.eqb_spec u t) as [->|]; [discriminate|auto].
    + exact I6.
    + exact I7.
    + destruct (Z.eqb_spec (error s) 0) as [E0|E0]; [intros _; eauto|auto].
    + intros u e' He. unfold setf. destruct (Nat.eqb_spec u t) as [->|].
      * intros _ Hz. assert (HU : e' = e).
        { clear - I6 He Hcur. induction (ret s) as [|[a b] l IH]; [easy|]. cbn in I6. inversion I6 as [|? ? Hni Hnd]; subst.
          destruct He as [He|He], Hcur as [Hc|Hc]; [congruence| | |auto].
          - inversion He; subst. elim Hni. apply in_map_iff. exists (t, e). auto.
          - inversion Hc; subst. elim Hni. apply in_map_iff. exists (t, e'). auto. }
        subst e'. destruct (Z.eqb_spec (error s) 0); auto.
      * intros Hd Hz. specialize (I9 u e' He Hd Hz). destruct (Z.eqb_spec (error s) 0); auto.
    + lia.
    + rewrite Hfin. easy.
  - (* Marked *)
    assert (Hpos : (remaining s > 0)%Z).
    { rewrite I1. pose proof (sumn_ge (fun t => before_dec (thr s t)) (S n) t ltac:(lia)) as HG. cbv beta in HG. rewrite EP in HG. cbn [before_dec] in HG. lia. }
    set (p := if (remaining s - 1 =? 0)%Z then Last else Done).
    assert (Hp : p <> NotPushed /\ (forall i, p <> Pushing i) /\ returned p = true /\ decided p = true /\ before_dec p = 0 /\ (forall e, p <> Returned e)).
    { unfold p. destruct (remaining s - 1 =? 0)%Z; cbn; repeat split; auto; discriminate. } destruct Hp as (Hp1 & Hp2 & Hp3 & Hp4 & Hp5 & Hp6).
    pose proof (sum_setf before_dec s t p ltac:(lia)) as H1. pose proof (sum_setf isLast s t p ltac:(lia)) as H2. rewrite EP in H1, H2. cbn [before_dec isLast] in H1, H2. rewrite Hp5 in H1.
    constructor; cbn [remaining error thr ret fin].
    + rewrite I1. lia.
    + destruct (Nat.eq_dec t n) as [->|Hne].
      * rewrite setf_eq. rewrite EP in I2. unfold p. destruct (remaining s - 1 =? 0)%Z; intros u Hu; rewrite setf_neq by lia; auto.
      * rewrite (setf_neq _ _ t _ n) by auto. destruct (thr s n) eqn:EN; auto.
        { intros u Hu. unfold setf. destruct (Nat.eqb_spec u t); auto. }
        { intros u Hu. unfold setf. destruct (Nat.eqb_spec u t); auto. }
        { intros u Hu. unfold setf. destruct (Nat.eqb_spec u t); auto. }
        { destruct I2 as [A B]. split; auto. intros u Hu. unfold setf. destruct (Nat.eqb_spec u t); [|auto]. subst. rewrite <- B by auto. rewrite EP. split; intros; [contradiction|discriminate]. }
    + intros u i Hu. unfold setf. destruct (Nat.eqb_spec u t); auto.
    + intros u Hu. unfold setf. destruct (Nat.eqb_spec u t) as [->|]; auto. rewrite <- I4, EP by lia. cbn. tauto.
    + intros u e' Hu. unfold setf. destruct (Nat.eqb_spec u t) as [->|]; auto. intros E. elim (Hp6 _ E).
    + exact I6.
    + exact I7.
    + exact I8.
    + intros u e' He. unfold setf. destruct (Nat.eqb_spec u t) as [->|]; [|eauto]. intros _. apply (I9 t e' He). now rewrite EP.
    + assert (HP : isLast p = if (remaining s - 1 =? 0)%Z then 1 else 0) by (unfold p; destruct (remaining s - 1 =? 0)%Z; reflexivity).
      clearbody p. revert I10 HP. destruct (Z.eqb_spec (remaining s) 0); [lia|]. intros. rewrite <- HP. lia.
    + exact I11.
  - (* Last *)
    pose proof (sum_setf before_dec s t Done ltac:(lia)) as H1. pose proof (sum_setf isLast s t Done ltac:(lia)) as H2. rewrite EP in H1, H2. cbn [before_dec isLast] in H1, H2.
    assert (Hfin : fin s = []).
    { pose proof (sumn_ge (fun t => isLast (thr s t)) (S n) t ltac:(lia)) as HG. cbv beta in HG. rewrite EP in HG. cbn [isLast] in HG.
      destruct (fin s); auto; cbn [length] in I10; destruct (remaining s =? 0)%Z; lia. }
    constructor; cbn [remaining error thr ret fin].
    + rewrite I1. lia.
    + destruct (Nat.eq_dec t n) as [->|Hne].
      * rewrite setf_eq. rewrite EP in I2. intros u Hu; rewrite setf_neq by lia; auto.
      * rewrite (setf_neq _ _ t _ n) by auto. destruct (thr s n) eqn:EN; auto.
        { intros u Hu. unfold setf. destruct (Nat.eqb_spec u t); [discriminate|auto]. }
        { intros u Hu. unfold setf. destruct (Nat.eqb_spec u t); [discriminate|auto]. }
        { intros u Hu. unfold setf. destruct (Nat.eqb_spec u t); [discriminate|auto]. }
        { destruct I2 as [A B]. split; auto. intros u Hu. unfold setf. destruct (Nat.eqb_spec u t); [|auto]. subst. rewrite <- B by auto. rewrite EP. split; discriminate. }
    + intros u i Hu. unfold setf. destruct (Nat.eqb_spec u t); [discriminate|auto].
    + intros u Hu. unfold setf. destruct (Nat.eqb_spec u t) as [->|]; auto. rewrite <- I4, EP by lia. cbn. tauto.
    + intros u e' Hu. unfold setf. destruct (Nat.eqb_spec u t) as [->|]; [discriminate|auto].
    + exact I6.
    + exact I7.
    + exact I8.
    + intros u e' He. unfold setf. destruct (Nat.eqb_spec u t) as [->|]; [|eauto]. intros _. apply (I9 t e' He). now rewrite EP.
    + rewrite app_length. cbn [length]. lia.
    + intros e. rewrite Hfin. intros [E|[]]. auto.
  - (* Pushing *)
    assert (Htn : t = n). { destruct (Nat.eq_dec t n); auto. elim (I3 t i); auto. lia. } subst t.
    rewrite EP in I2. destruct I2 as [A B]. destruct (Nat.ltb_spec i n) as [HL|HL].
    + assert (EI : thr s i = NotPushed) by (apply B; auto).
      pose proof (sum_setf before_dec s i Queued ltac:(lia)) as H1. pose proof (sum_setf isLast s i Queued ltac:(lia)) as H2. rewrite EI in H1, H2. cbn [before_dec isLast] in H1, H2.
      set (s1 := goto s i Queued). assert (ET1 : thr s1 n = Pushing i) by (unfold s1; cbn; rewrite setf_neq; auto; lia).
      pose proof (sum_setf before_dec s1 n (Pushing (S i)) ltac:(lia)) as H3. pose proof (sum_setf isLast s1 n (Pushing (S i)) ltac:(lia)) as H4. rewrite ET1 in H3, H4. cbn [before_dec isLast] in H3, H4.
      cbn [s1 goto thr] in H3, H4.
      assert (HV : forall u, u < n -> setf (setf (thr s) i Queued) n (Pushing (S i)) u = if u =? i then Queued else thr s u).
      { intros u Hu. rewrite setf_neq by lia. reflexivity. }
      constructor; cbn [s1 goto remaining error thr ret fin].
      * rewrite I1. lia.
      * rewrite setf_eq. split; [lia|]. intros u Hu. rewrite HV by auto. destruct (Nat.eqb_spec u i) as [->|]; [split; [discriminate|lia]|].
        rewrite B by auto. lia.
      * intros u j Hu. rewrite HV by auto. destruct (u =? i); [discriminate|auto].
      * intros u Hu. rewrite HV by auto. destruct (Nat.eqb_spec u i) as [->|]; [|auto]. rewrite <- I4, EI by auto. cbn. tauto.
      * intros u e Hu. rewrite HV by auto. destruct (u =? i); [discriminate|auto].
      * exact I6.
      * exact I7.
      * exact I8.
      * intros u e He. rewrite HV by eauto. destruct (u =? i); [discriminate|eauto].
      * lia.
      * exact I11.
    + pose proof (sum_setf before_dec s n Marked ltac:(lia)) as H1. pose proof (sum_setf isLast s n Marked ltac:(lia)) as H2. rewrite EP in H1, H2. cbn [before_dec isLast] in H1, H2.
      assert (HV : forall u, u < n -> setf (thr s) n Marked u = thr s u) by (intros u Hu; rewrite setf_neq by lia; reflexivity).
      constructor; cbn [goto remaining error thr ret fin].
      * rewrite I1. lia.
      * rewrite setf_eq. intros u Hu. rewrite HV by auto. rewrite B by auto. lia.
      * intros u j Hu. rewrite HV by auto. auto.
      * intros u Hu. rewrite HV by auto. auto.
      * intros u e Hu. rewrite HV by auto. auto.
      * exact I6.
      * exact I7.
      * exact I8.
      * intros u e He. rewrite HV by eauto. eauto.
      * lia.
      * exact I11.
Qed.

Theorem run_inv : forall evs s, Inv s -> Forall (fun e => fst e <= n) evs -> Inv (run n evs s).
Proof.
  induction evs as [|[t r] evs IH]; intros s HI HF; cbn [run]; auto. apply Forall_cons_iff in HF as [Ht HF].
  pose proof (step_inv s t r HI Ht) as H. destruct (step n t r s); auto.
Qed.
End P.

(** ** C19 *)
Definition known (n : nat) (evs : list (nat * Z)) : Prop := Forall (fun e => fst e <= n) evs.

Lemma fin_all : forall n s, Inv n s -> fin s <> [] -> forall t, t <= n -> thr s t = Done.
Proof.
  intros n s HI HF t Ht. pose proof (i_fin _ _ HI) as E. destruct (fin s) as [|e l] eqn:EF; [congruence|]. cbn [length] in E.
  revert E. destruct (Z.eqb_spec (remaining s) 0) as [E0|]; [|lia]. intros E. rewrite (i_rem _ _ HI) in E0.
  pose proof (sumn_ge (fun t => before_dec (thr s t)) (S n) t ltac:(lia)) as H1. pose proof (sumn_ge (fun t => isLast (thr s t)) (S n) t ltac:(lia)) as H2.
  cbv beta in *. destruct (thr s t); cbn [before_dec isLast] in H1, H2; auto; lia.
Qed.

(** The finish callback is called at most once; when it is called every shard's handler
    has returned, once each; the error it gets is one that a handler returned, and is not
    zero if some handler returned an error. *)
Theorem C19_finish : forall n evs s, known n evs -> s = run n evs (start n) ->
  length (fin s) <= 1 /\
  (fin s <> [] -> forall t, t < n -> exists! e, In (t, e) (ret s)) /\
  (forall e, In e (fin s) -> (e <> 0%Z -> exists t, In (t, e) (ret s)) /\ (e = 0%Z -> forall t e', In (t, e') (ret s) -> e' = 0%Z)).
Proof.
  intros n evs s HK ->. pose proof (run_inv n evs (start n) (start_inv n) HK) as HI. set (s := run n evs (start n)) in *. clearbody s.
  split; [pose proof (i_fin _ _ HI); destruct (remaining s =? 0)%Z; lia|]. split.
  - intros HF t Ht. pose proof (fin_all n s HI HF t ltac:(lia)) as ED.
    destruct (proj1 (i_ret _ _ HI t Ht)) as (e & He); [now rewrite ED|]. exists e. split; auto.
    intros e' He'. pose proof (i_once _ _ HI) as HN. clear - HN He He'. induction (ret s) as [|[a b] l IH]; [easy|]. cbn in HN. inversion HN as [|? ? Hni Hnd]; subst.
    destruct He as [He|He], He' as [Hc|Hc]; [congruence| | |auto].
    + inversion He; subst. elim Hni. apply in_map_iff. exists (t, e'). auto.
    + inversion Hc; subst. elim Hni. apply in_map_iff. exists (t, e). auto.
  - intros e He. assert (HF : fin s <> []) by (intros E; rewrite E in He; easy). rewrite (i_res _ _ HI e He) in *. split; [apply (i_err _ _ HI)|].
    intros E0 t e' Hr. destruct (Z.eq_dec e' 0) as [|Hz]; auto. exfalso. apply (i_err' _ _ HI t e' Hr); auto.
    rewrite (fin_all n s HI HF t); auto. pose proof (i_known _ _ HI t e' Hr). lia.
Qed.

(** When the callback is called nobody else is using the job any more, so that the
    callback may free it. *)
Theorem C19_nobody_left : forall n evs s t s', known n evs -> s = run n evs (start n) -> t <= n ->
  (exists r, step n t r s = Ok s') -> fin s' <> fin s -> forall u, u <= n -> u <> t -> thr s u = Done.
Proof.
  intros n evs s t s' HK -> Ht (r & HS) HF u Hu Hne. pose proof (run_inv n evs (start n) (start_inv n) HK) as HI. set (s := run n evs (start n)) in *. clearbody s.
  unfold step in HS. destruct (thr s t) eqn:EP; try discriminate; try (inversion HS; subst s'; cbn in HF; congruence).
  - pose proof (i_fin _ _ HI) as E. pose proof (sumn_ge2 (fun t => isLast (thr s t)) (S n) t u ltac:(lia) ltac:(lia) ltac:(auto)) as H2. cbv beta in H2. rewrite EP in H2. cbn [isLast] in H2.
    revert E. destruct (Z.eqb_spec (remaining s) 0) as [E0|]; [|lia]. intros E. rewrite (i_rem _ _ HI) in E0.
    pose proof (sumn_ge (fun t => before_dec (thr s t)) (S n) u ltac:(lia)) as H1. cbv beta in *. destruct (thr s u); cbn [before_dec isLast] in H1, H2; auto; lia.
  - destruct (i <? n); inversion HS; subst s'; cbn in HF; congruence.
Qed.

(** It is called: when no thread can go on, the callback was called once. *)
Theorem C19_called : forall n evs s, known n evs -> s = run n evs (start n) ->
  (forall t r, t <= n -> step n t r s = Blocked) -> length (fin s) = 1.
Proof.
  intros n evs s HK -> HB. pose proof (run_inv n evs (start n) (start_inv n) HK) as HI. set (s := run n evs (start n)) in *. clearbody s.
  assert (HD : forall t, t <= n -> thr s t = Done \/ thr s t = NotPushed).
  { intros t Ht. specialize (HB t 0%Z Ht). unfold step in HB. destruct (thr s t) as [| | | | | |i]; auto; try discriminate. destruct (i <? n); discriminate. }
  assert (HN : thr s n = Done). { destruct (HD n (le_n n)) as [H|H]; auto. pose proof (i_main _ _ HI) as HM. rewrite H in HM. easy. }
  assert (HA : forall t, t <= n -> thr s t = Done).
  { intros t Ht. destruct (Nat.eq_dec t n) as [->|]; auto. destruct (HD t Ht) as [H|H]; auto. pose proof (i_main _ _ HI) as HM. rewrite HN in HM. elim (HM t); auto. lia. }
  assert (Z1 : forall k, k <= S n -> sumn (fun t => before_dec (thr s t)) k = 0) by (induction k; intros Hk; auto; cbn [sumn]; rewrite IHk, HA by lia; auto).
  assert (Z2 : forall k, k <= S n -> sumn (fun t => isLast (thr s t)) k = 0) by (induction k; intros Hk; auto; cbn [sumn]; rewrite IHk, HA by lia; auto).
  pose proof (i_fin _ _ HI) as E. pose proof (i_rem _ _ HI) as E'. rewrite Z1 in E' by lia. rewrite Z2 in E by lia. rewrite E' in E. cbn in E. lia.
Qed.

(** Every step brings the end nearer: at most [5 n + 3] steps are not blocked. *)
Definition left (n : nat) (p : pc) : nat :=
  match p with NotPushed => 4 | Queued => 4 | Returned _ => 3 | Marked => 2 | Last => 1 | Done => 0 | Pushing i => 3 + (n - i) end.
Theorem C19_steps_end : forall n s t r s', Inv n s -> t <= n -> step n t r s = Ok s' ->
  sumn (fun u => left n (thr s' u)) (S n) < sumn (fun u => left n (thr s u)) (S n).
Proof.
  intros n s t r s' HI Ht HS.
  assert (HG : forall p f, f = setf (thr s) t p -> left n p < left n (thr s t) -> sumn (fun u => left n (f u)) (S n) < sumn (fun u => left n (thr s u)) (S n)).
  { intros p f -> Hl. pose proof (sum_setf n (left n) s t p ltac:(lia)). lia. }
  unfold step in HS. destruct (thr s t) eqn:EP; try discriminate.
  - inversion HS; subst s'. apply (HG (Returned r)); auto; cbn; lia.
  - inversion HS; subst s'. apply (HG Marked); auto; cbn; lia.
  - inversion HS; subst s'. eapply HG; [reflexivity|]; destruct (_ =? _)%Z; cbn; lia.
  - inversion HS; subst s'. apply (HG Done); auto; cbn; lia.
  - assert (Htn : t = n). { destruct (Nat.eq_dec t n); auto. elim (i_shard _ _ HI t i); auto. lia. } subst t.
    destruct (Nat.ltb_spec i n) as [HL|HL]; inversion HS; subst s'; cbn [goto thr].
    + set (s1 := goto s i Queued). pose proof (sum_setf n (left n) s1 n (Pushing (S i)) ltac:(lia)) as H1. pose proof (sum_setf n (left n) s i Queued ltac:(lia)) as H2.
      assert (ET1 : thr s1 n = Pushing i) by (unfold s1; cbn; rewrite setf_neq; auto; lia). rewrite ET1 in H1. cbn [s1 goto thr left] in H1, H2.
      assert (EI : thr s i = NotPushed). { pose proof (i_main _ _ HI) as HM. rewrite EP in HM. apply HM; auto. } rewrite EI in H2. cbn [left] in H2. cbn [sumn] in *. lia.
    + apply (HG Marked); auto; cbn; lia.
Qed.

(** ** Case *)
Example C19_case : known 2 [(2, 0%Z)] /\
  (let s := run 2 [(2, 0%Z); (0, 0%Z); (0, 0%Z); (0, 0%Z); (2, 0%Z); (1, (-7)%Z); (2, 0%Z); (2, 0%Z); (1, 0%Z); (1, 0%Z)] (start 2) in
   fin s = [] /\ thr s 1 = Last /\ thr s 0 = Done /\ thr s 2 = Done /\ ret s = [(0, 0%Z); (1, (-7)%Z)] /\
   fin (run 2 [(1, 0%Z)] s) = [(-7)%Z]).
Proof. split; [repeat constructor|]. vm_compute. auto 10. Qed.

Print Assumptions C19_finish.
Print Assumptions C19_nobody_left.
Print Assumptions C19_called.
Print Assumptions C19_steps_end.

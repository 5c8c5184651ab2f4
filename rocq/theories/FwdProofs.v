(** Invariants of the forward counter (FwdModel.v). *)
From Coq Require Import List Bool Arith NArith Lia.
From Verif Require Import FwdModel.
Open Scope nat_scope.
Import ListNotations.

(** ** Lists *)
Lemma upd_length {A} (l : list A) i x : length (upd l i x) = length l.
Proof. revert i; induction l as [|a l IH]; intros [|i]; cbn; auto. Qed.

Lemma nth_upd_same {A} (l : list A) i x y : nth_error l i = Some y -> nth_error (upd l i x) i = Some x.
Proof. revert i; induction l as [|a l IH]; intros [|i]; cbn; intros H; try discriminate; auto. Qed.

Lemma nth_upd_other {A} (l : list A) i j x : i <> j -> nth_error (upd l i x) j = nth_error l j.
Proof.
  revert i j; induction l as [|a l IH]; intros [|i] [|j] H; cbn; auto; try congruence.
Qed.

Lemma in_upd {A} (l : list A) i x y z :
  nth_error l i = Some y -> (In z (upd l i x) -> z = x \/ In z l).
Proof.
  revert i; induction l as [|a l IH]; intros [|i]; cbn; intros H Hi; try discriminate.
  - destruct Hi; auto.
  - destruct Hi as [->|Hi]; auto. destruct (IH _ H Hi); auto.
Qed.

Lemma in_upd_keep {A} (l : list A) i x y z :
  nth_error l i = Some y -> In z l -> z <> y -> In z (upd l i x).
Proof.
  revert i; induction l as [|a l IH]; intros [|i]; cbn; intros H Hi Hn; try discriminate; auto.
  - injection H as ->. destruct Hi; [congruence|auto].
  - destruct Hi as [->|Hi]; eauto.
Qed.

Lemma in_upd_new {A} (l : list A) i x y : nth_error l i = Some y -> In x (upd l i x).
Proof.
  intros H. apply (nth_error_In _ i). apply (nth_upd_same _ _ _ y); auto.
Qed.

(** ** Counting *)
Definition act (p : phase) : nat := match p with Fin _ => 0 | _ => 1 end.
Fixpoint active (l : list phase) : nat :=
  match l with [] => 0 | p :: r => act p + active r end.

Lemma active_app l p : active (l ++ [p]) = active l + act p.
Proof. induction l as [|a l IH]; cbn [active app]; lia. Qed.

Lemma active_upd l i p q : nth_error l i = Some p -> active (upd l i q) + act p = active l + act q.
Proof.
  revert i; induction l as [|a l IH]; intros [|i]; cbn [nth_error upd active]; intros H; try discriminate.
  - injection H as ->. lia.
  - specialize (IH _ H). lia.
Qed.

Lemma active_pos l i p : nth_error l i = Some p -> act p = 1 -> 0 < active l.
Proof.
  revert i; induction l as [|a l IH]; intros [|i]; cbn [nth_error active]; intros H Ha; try discriminate.
  - injection H as ->. lia.
  - specialize (IH _ H Ha). lia.
Qed.

Definition is_fin (p : phase) : Prop := exists e, p = Fin e.

Lemma active_0 l : active l = 0 -> Forall is_fin l.
Proof.
  induction l as [|a l IH]; intros H; constructor.
  - cbn [active] in H. destruct a; cbn [act] in H; try lia. eexists; reflexivity.
  - apply IH. cbn [active] in H. lia.
Qed.

Lemma fin_active l : Forall is_fin l -> active l = 0.
Proof.
  induction 1 as [|a l [e ->] Hl IH]; cbn [active act]; auto.
Qed.

(** ** Well formed submission programs; [h] = references the submitter holds. *)
Fixpoint wfh (h : nat) (p : list instr) : Prop :=
  match p with
  | [] => h = 0
  | IInit :: r => wfh h r
  | IGet :: r => wfh (S h) r
  | IFwd :: r => wfh h r
  | IPut :: r => match h with O => False | S k => (k = 0 -> r = []) /\ wfh k r end
  | IEnd _ :: r => match h with O => False | S k => (k = 0 -> r = []) /\ wfh k r end
  end.

(** Before the first get. *)
Fixpoint wf0 (p : list instr) : Prop :=
  match p with
  | IInit :: r => wf0 r
  | IGet :: r => wfh 1 r
  | IFwd :: r => r = []
  | _ => False
  end.

Definition Inv (c : cfg) : Prop :=
  (wf0 (prog c) /\ cnt c = 0 /\ thr c = [] /\ calls c = []) \/
  (exists h, wfh h (prog c) /\ (prog c = [] \/ 1 <= h) /\ cnt c = active (thr c) + h /\
     ((0 < cnt c /\ calls c = []) \/ (cnt c = 0 /\ prog c = [] /\ exists e, calls c = [e]))).

Lemma Inv_put c p t h :
  cnt c = S (active t + h) -> calls c = [] -> wfh h p -> (p = [] \/ 1 <= h) ->
  exists c', put c p t = Some c' /\ Inv c' /\ prog c' = p /\ thr c' = t /\ err c' = err c /\
             (calls c' = [] \/ (calls c' = [err c] /\ cnt c' = 0)).
Proof.
  intros Hc Hk Hw Hp. unfold put. rewrite Hc. eexists; split; [reflexivity|].
  assert (HH : forall n, n = active t + h ->
     Inv {| cnt := n; err := err c; prog := p; thr := t;
            calls := match n with 0 => calls c ++ [err c] | S _ => calls c end |} /\
     (match n with 0 => calls c ++ [err c] | S _ => calls c end = [] \/
      (match n with 0 => calls c ++ [err c] | S _ => calls c end = [err c] /\ n = 0))).
  { intros n Hn. split.
    - right. exists h. cbn [prog cnt thr calls]. repeat split; auto.
      destruct n as [|n].
      + right. split; [reflexivity|]. split.
        * destruct Hp; auto; lia.
        * exists (err c). rewrite Hk. reflexivity.
      + left. split; [lia|auto].
    - rewrite Hk. destruct n; cbn; auto. }
  destruct (HH _ eq_refl) as [H1 H2]. cbn [prog thr err calls cnt].
  split; [exact H1|]. repeat split; auto.
Qed.

Lemma Inv_step e c c' : Inv c -> step e c = Some c' -> Inv c'.
Proof.
  intros HI Hs. destruct e as [|i x|i|i|i]; cbn [step] in Hs.
  - destruct (prog c) as [|[| | | |x] r] eqn:Hp; try discriminate.
    + injection Hs as <-. unfold Inv in *; cbn [prog cnt thr calls] in *.
      rewrite Hp in HI. cbn [wf0 wfh] in HI.
      destruct HI as [(H1 & H2 & H3 & H4)|(h & H1 & H2 & H3 & H4)]; [left; auto|].
      right; exists h. destruct H2 as [H2|H2]; [discriminate|].
      repeat split; auto. destruct H4 as [H4|(Ha & Hb & Hc)]; [left; auto|discriminate].
    + injection Hs as <-. unfold Inv in *; cbn [prog cnt thr calls] in *.
      rewrite Hp in HI. cbn [wf0 wfh] in HI. right.
      destruct HI as [(H1 & H2 & H3 & H4)|(h & H1 & H2 & H3 & H4)].
      * exists 1. rewrite H3, H2. cbn. repeat split; auto.
      * exists (S h). repeat split; auto; try (right; lia); try lia.
        destruct H4 as [[Ha Hb]|(Ha & Hb & Hc)]; [left; split; [lia|auto]|discriminate].
    + injection Hs as <-. unfold Inv in *; cbn [prog cnt thr calls] in *.
      rewrite Hp in HI. cbn [wf0 wfh] in HI. right. rewrite active_app. cbn [act].
      destruct HI as [(H1 & H2 & H3 & H4)|(h & H1 & H2 & H3 & H4)].
      * exists 0. rewrite H3, H2. subst r. cbn. repeat split; auto.
      * exists h. repeat split; auto; try lia.
        -- destruct H2 as [H2|H2]; [discriminate|auto].
        -- destruct H4 as [[Ha Hb]|(Ha & Hb & Hc)]; [left; split; [lia|auto]|discriminate].
    + destruct HI as [(H1 & H2 & H3 & H4)|(h & H1 & H2 & H3 & H4)]; rewrite Hp in *; cbn in H1; [tauto|].
      destruct h as [|h]; [tauto|]. destruct H1 as [H0 H1].
      destruct H4 as [[Ha Hb]|(Ha & Hb & Hc)]; [|discriminate].
      destruct (Inv_put c r (thr c) h) as (c1 & E & HI1 & _); auto; try lia.
      * destruct h; [left; auto|right; lia].
      * rewrite E in Hs. injection Hs as <-. auto.
    + injection Hs as <-. unfold Inv in *; cbn [prog cnt thr calls] in *.
      rewrite Hp in HI. cbn [wf0 wfh] in HI. right. rewrite active_app. cbn [act].
      destruct HI as [(H1 & H2 & H3 & H4)|(h & H1 & H2 & H3 & H4)]; [tauto|].
      destruct h as [|h]; [tauto|]. destruct H1 as [H0 H1].
      destruct H4 as [[Ha Hb]|(Ha & Hb & Hc)]; [|discriminate].
      exists h. repeat split; auto; try lia.
      * destruct h; [left; auto|right; lia].
  - destruct (nth_error (thr c) i) as [[| | | |]|] eqn:Hn; try discriminate. injection Hs as <-.
    unfold Inv in *; cbn [prog cnt thr calls] in *.
    pose proof (active_upd _ _ _ (Ending x) Hn) as HA. cbn [act] in HA.
    destruct HI as [(H1 & H2 & H3 & H4)|(h & H1 & H2 & H3 & H4)].
    + rewrite H3 in Hn. destruct i; discriminate.
    + right; exists h. repeat split; auto; lia.
  - destruct (nth_error (thr c) i) as [[|x| | |]|] eqn:Hn; try discriminate. injection Hs as <-.
    unfold Inv in *; cbn [prog cnt thr calls] in *.
    pose proof (active_upd _ _ _ (Loaded (err c) x) Hn) as HA. cbn [act] in HA.
    destruct HI as [(H1 & H2 & H3 & H4)|(h & H1 & H2 & H3 & H4)].
    + rewrite H3 in Hn. destruct i; discriminate.
    + right; exists h. repeat split; auto; lia.
  - destruct (nth_error (thr c) i) as [[| |v x| |]|] eqn:Hn; try discriminate. injection Hs as <-.
    unfold Inv in *; cbn [prog cnt thr calls] in *.
    pose proof (active_upd _ _ _ (Stored x) Hn) as HA. cbn [act] in HA.
    destruct HI as [(H1 & H2 & H3 & H4)|(h & H1 & H2 & H3 & H4)].
    + rewrite H3 in Hn. destruct i; discriminate.
    + right; exists h. repeat split; auto; lia.
  - destruct (nth_error (thr c) i) as [[| | |x|]|] eqn:Hn; try discriminate.
    pose proof (active_upd _ _ _ (Fin x) Hn) as HA. cbn [act] in HA.
    pose proof (active_pos _ _ _ Hn eq_refl) as HP.
    destruct HI as [(H1 & H2 & H3 & H4)|(h & H1 & H2 & H3 & H4)].
    + rewrite H3 in Hn. destruct i; discriminate.
    + destruct H4 as [[Ha Hb]|(Ha & Hb & Hc)]; [|lia].
      destruct (Inv_put c (prog c) (upd (thr c) i (Fin x)) h) as (c1 & E & HI1 & _); auto; try lia.
      rewrite E in Hs. injection Hs as <-. auto.
Qed.

Lemma Inv_run l c c' : Inv c -> run l c = Some c' -> Inv c'.
Proof.
  revert c; induction l as [|e l IH]; cbn [run]; intros c HI H.
  - injection H as <-; auto.
  - destruct (step e c) as [c1|] eqn:E; [|discriminate]. eapply IH; [|eauto]. eapply Inv_step; eauto.
Qed.

Lemma Inv_start p : wf0 p -> Inv (start p).
Proof. intros H. left. cbn. auto. Qed.

(** Finished: nothing left to submit, every forward_end done. *)
Definition finished (c : cfg) : Prop := prog c = [] /\ Forall is_fin (thr c).

Lemma Inv_once c : Inv c -> (calls c = [] /\ ~ finished c) \/ (exists e, calls c = [e] /\ finished c).
Proof.
  intros [(H1 & H2 & H3 & H4)|(h & H1 & H2 & H3 & H4)].
  - left. split; auto. intros [Hp _]. rewrite Hp in H1. exact H1.
  - destruct H4 as [[Ha Hb]|(Ha & Hb & e & Hc)].
    + left. split; auto. intros [Hp Hf]. rewrite Hp in H1. cbn in H1.
      apply fin_active in Hf. lia.
    + right. exists e. split; auto. split; auto. apply active_0. lia.
Qed.

(** No step can fail by underflow, and an unfinished configuration can move. *)
Lemma Inv_progress c : Inv c -> ~ finished c -> exists e c', step e c = Some c'.
Proof.
  intros HI Hf. destruct (prog c) as [|ins r] eqn:Hp.
  - destruct HI as [(H1 & H2 & H3 & H4)|(h & H1 & H2 & H3 & H4)]; [rewrite Hp in H1; destruct H1|].
    assert (HN : ~ Forall is_fin (thr c)) by (intros HF; apply Hf; split; auto).
    assert (HE : exists i p, nth_error (thr c) i = Some p /\ act p = 1).
    { clear - HN. induction (thr c) as [|a l IH].
      - exfalso; apply HN; constructor.
      - destruct (act a) eqn:Ha.
        + destruct IH as (i & p & Hi & Hq).
          * intros HF. apply HN. constructor; auto. destruct a; try discriminate. eexists; reflexivity.
          * exists (S i), p; auto.
        + exists 0, a. cbn; split; auto. destruct a; cbn in *; congruence. }
    destruct HE as (i & p & Hi & Ha).
    destruct p as [|x|v x|x|x]; try discriminate.
    + exists (EvBegin i 0). cbn. rewrite Hi. eauto.
    + exists (EvLoad i). cbn. rewrite Hi. eauto.
    + exists (EvStore i). cbn. rewrite Hi. eauto.
    + exists (EvDec i). cbn. rewrite Hi. unfold put.
      pose proof (active_pos _ _ _ Hi eq_refl). destruct (cnt c) eqn:Hc; [lia|eauto].
  - exists EvSub. cbn. rewrite Hp. destruct ins; eauto.
    unfold put. destruct HI as [(H1 & H2 & H3 & H4)|(h & H1 & H2 & H3 & H4)];
      rewrite Hp in H1; cbn in H1; [tauto|].
    destruct h; [tauto|]. destruct (cnt c) eqn:Hc; [lia|eauto].
Qed.

(** Every step brings the run closer to its end. *)
Definition mph (p : phase) : nat :=
  match p with Issued => 4 | Ending _ => 3 | Loaded _ _ => 2 | Stored _ => 1 | Fin _ => 0 end.
Fixpoint msum (l : list phase) : nat :=
  match l with [] => 0 | p :: r => mph p + msum r end.
Definition mu (c : cfg) : nat := 5 * length (prog c) + msum (thr c).

Lemma msum_app l p : msum (l ++ [p]) = msum l + mph p.
Proof. induction l as [|a l IH]; cbn [msum app]; lia. Qed.

Lemma msum_upd l i p q : nth_error l i = Some p -> msum (upd l i q) + mph p = msum l + mph q.
Proof.
  revert i; induction l as [|a l IH]; intros [|i]; cbn [nth_error upd msum]; intros H; try discriminate.
  - injection H as ->. lia.
  - specialize (IH _ H). lia.
Qed.

Lemma put_fields c p t c' : put c p t = Some c' -> prog c' = p /\ thr c' = t /\ err c' = err c.
Proof. unfold put. destruct (cnt c); intros H; [discriminate|injection H as <-]; auto. Qed.

Lemma mu_step e c c' : step e c = Some c' -> mu c' < mu c.
Proof.
  intros Hs. unfold mu. destruct e as [|i x|i|i|i]; cbn [step] in Hs.
  - destruct (prog c) as [|[| | | |x] r] eqn:Hp; try discriminate.
    + injection Hs as <-. cbn [prog thr length]. lia.
    + injection Hs as <-. cbn [prog thr length]. lia.
    + injection Hs as <-. cbn [prog thr length]. rewrite msum_app. cbn [mph]. lia.
    + apply put_fields in Hs as (-> & -> & _). cbn [length]. lia.
    + injection Hs as <-. cbn [prog thr length]. rewrite msum_app. cbn [mph]. lia.
  - destruct (nth_error (thr c) i) as [[| | | |]|] eqn:Hn; try discriminate. injection Hs as <-.
    cbn [prog thr]. pose proof (msum_upd _ _ _ (Ending x) Hn) as HA. cbn [mph] in HA. lia.
  - destruct (nth_error (thr c) i) as [[|x| | |]|] eqn:Hn; try discriminate. injection Hs as <-.
    cbn [prog thr]. pose proof (msum_upd _ _ _ (Loaded (err c) x) Hn) as HA. cbn [mph] in HA. lia.
  - destruct (nth_error (thr c) i) as [[| |v x| |]|] eqn:Hn; try discriminate. injection Hs as <-.
    cbn [prog thr]. pose proof (msum_upd _ _ _ (Stored x) Hn) as HA. cbn [mph] in HA. lia.
  - destruct (nth_error (thr c) i) as [[| | |x|]|] eqn:Hn; try discriminate.
    apply put_fields in Hs as (-> & -> & _).
    pose proof (msum_upd _ _ _ (Fin x) Hn) as HA. cbn [mph] in HA. lia.
Qed.

Lemma run_length l c c' : run l c = Some c' -> length l + mu c' <= mu c.
Proof.
  revert c; induction l as [|e l IH]; cbn [run length]; intros c H.
  - injection H as <-. lia.
  - destruct (step e c) as [c1|] eqn:E; [|discriminate]. apply mu_step in E. apply IH in H. lia.
Qed.

(** ** The programs of the engines are well formed. *)
Lemma vol_ind2 (P : vol -> Prop) :
  P VDev -> P VClosed -> (forall l ok, Forall P l -> P (VComp l ok)) -> forall v, P v.
Proof.
  intros H1 H2 H3. fix IH 1. intros [| |l ok]; [exact H1|exact H2|]. apply H3.
  induction l as [|v l IHl]; constructor; [apply IH|exact IHl].
Qed.

Lemma wfh_fwd v : forall h r, wfh (S h) r -> wfh (S h) (fwd v ++ r).
Proof.
  induction v as [| |l ok IH] using vol_ind2; intros h r Hr.
  - cbn. auto.
  - cbn. split; [lia|auto].
  - cbn [fwd app]. cbn [wfh]. rewrite <- app_assoc. cbn [app].
    assert (HX : wfh (S (S h)) (IEnd (if ok then 0%N else EINVAL) :: r)).
    { cbn [wfh]. split; [discriminate|auto]. }
    revert HX. generalize (IEnd (if ok then 0%N else EINVAL) :: r) as q. clear Hr r.
    induction IH as [|v l Hv Hl IHl]; intros q Hq; cbn [flat_map app]; auto.
    rewrite <- app_assoc. apply Hv. apply IHl. exact Hq.
Qed.

Lemma wfh_flat vs h r : wfh (S h) r -> wfh (S h) (flat_map fwd vs ++ r).
Proof.
  intros H. induction vs as [|v vs IH]; cbn; auto. rewrite <- app_assoc. apply wfh_fwd. auto.
Qed.

Lemma wf0_fwd v : wf0 (fwd v).
Proof.
  destruct v as [| |l ok]; cbn.
  - auto.
  - auto.
  - apply (wfh_flat l 0). cbn. auto.
Qed.

Lemma wf0_cache_seq v : wf0 (cache_io_req_seq v).
Proof. cbn. apply wf0_fwd. Qed.

Lemma wf0_cache vs : wf0 (cache_io_req vs).
Proof. cbn. apply (wfh_flat vs 0). cbn. auto. Qed.

Lemma wf0_core v : wf0 (core_io_req v).
Proof. cbn. apply wf0_fwd. Qed.

Lemma wf0_wo vs : wf0 (wo_cache_do vs).
Proof.
  cbn. assert (HX : wfh 1 [IPut]) by (cbn; auto). revert HX. generalize [IPut] as q.
  induction vs as [|v vs IH]; intros q Hq; cbn [flat_map app]; auto.
  cbn [wfh]. rewrite <- app_assoc. apply wfh_fwd. auto.
Qed.

(** ** Errors *)
Open Scope N_scope.

Definition no_init (p : list instr) : Prop := ~ In IInit p.

(** A failed forward_end (any stage / error already stored). *)
Definition failing (p : phase) : Prop :=
  match p with Issued => False | Ending e | Loaded _ e | Stored e | Fin e => e <> 0 end.
Definition settled_fail (p : phase) : Prop :=
  match p with Stored e | Fin e => e <> 0 | _ => False end.

(** Reported errors come from somewhere: holds for every interleaving. *)
Definition ErrSrc (c : cfg) : Prop :=
  (err c <> 0 -> Exists failing (thr c)) /\
  (forall v e, In (Loaded v e) (thr c) -> v <> 0 -> Exists failing (thr c)) /\
  (forall e, In e (calls c) -> e <> 0 -> Exists failing (thr c)).

Lemma exists_upd (Q : phase -> Prop) l i p q :
  nth_error l i = Some p -> (Q p -> Q q) -> Exists Q l -> Exists Q (upd l i q).
Proof.
  revert i; induction l as [|a l IH]; intros [|i]; cbn; intros H Hq HE; try discriminate.
  - injection H as ->. inversion HE; subst; [left; auto|right; auto].
  - inversion HE; subst; [left; auto|right; eauto].
Qed.

Lemma ErrSrc_put c p t c' :
  (Exists failing (thr c) -> Exists failing t) ->
  (forall v e, In (Loaded v e) t -> In (Loaded v e) (thr c)) ->
  ErrSrc c -> put c p t = Some c' -> ErrSrc c'.
Proof.
  intros Hk Hl (H1 & H2 & H3) E. unfold put in E. destruct (cnt c); [discriminate|].
  injection E as <-. unfold ErrSrc; cbn [err thr calls]. split; [auto|]. split.
  - intros v e Hi Hv. apply Hk. eapply H2; eauto.
  - intros e Hi He. apply Hk. destruct n; [|eauto].
    apply in_app_or in Hi as [Hi|[<-|[]]]; eauto.
Qed.

Lemma ErrSrc_step e c c' : ErrSrc c -> step e c = Some c' -> ErrSrc c'.
Proof.
  intros (H1 & H2 & H3) Hs.
  assert (HX : forall q, Exists failing (thr c) -> Exists failing (thr c ++ [q])).
  { intros q HE. apply Exists_app. auto. }
  destruct e as [|i x|i|i|i]; cbn [step] in Hs.
  - destruct (prog c) as [|[| | | |x] r] eqn:Hp; try discriminate.
    + injection Hs as <-. split; [cbn; congruence|]. split; cbn; eauto.
    + injection Hs as <-. split; [cbn; auto|]. split; cbn; eauto.
    + injection Hs as <-. split; [cbn; auto|]. split; cbn; eauto.
      intros v e Hi Hv. apply in_app_or in Hi as [Hi|[Hi|[]]]; [eauto|discriminate].
    + eapply ErrSrc_put; [| | |exact Hs]; auto. split; auto.
    + injection Hs as <-. split; [cbn; auto|]. split; cbn; eauto.
      intros v e Hi Hv. apply in_app_or in Hi as [Hi|[Hi|[]]]; [eauto|discriminate].
  - destruct (nth_error (thr c) i) as [[| | | |]|] eqn:Hn; try discriminate. injection Hs as <-.
    assert (HU : Exists failing (thr c) -> Exists failing (upd (thr c) i (Ending x))).
    { apply (exists_upd failing _ _ Issued); auto. cbn; tauto. }
    split; [cbn; auto|]. split; cbn; eauto.
    intros v e Hi Hv. destruct (in_upd _ _ _ _ _ Hn Hi) as [HH|HH]; [discriminate|eauto].
  - destruct (nth_error (thr c) i) as [[|x| | |]|] eqn:Hn; try discriminate. injection Hs as <-.
    assert (HU : Exists failing (thr c) -> Exists failing (upd (thr c) i (Loaded (err c) x))).
    { apply (exists_upd failing _ _ (Ending x)); auto. }
    split; [cbn; auto|]. split; cbn; eauto.
    intros v e Hi Hv. destruct (in_upd _ _ _ _ _ Hn Hi) as [HH|HH]; [|eauto].
    injection HH as -> ->. auto.
  - destruct (nth_error (thr c) i) as [[| |v x| |]|] eqn:Hn; try discriminate. injection Hs as <-.
    assert (HU : Exists failing (thr c) -> Exists failing (upd (thr c) i (Stored x))).
    { apply (exists_upd failing _ _ (Loaded v x)); auto. }
    split.
    { cbn. unfold elvis. destruct (N.eqb_spec v 0) as [E|E].
      - intros Hx. apply Exists_exists. exists (Stored x). split; [eapply in_upd_new; eauto|exact Hx].
      - intros _. apply HU. eapply H2; [eapply nth_error_In; eauto|auto]. }
    split; cbn; eauto.
    intros v' e Hi Hv. destruct (in_upd _ _ _ _ _ Hn Hi) as [HH|HH]; [discriminate|eauto].
  - destruct (nth_error (thr c) i) as [[| | |x|]|] eqn:Hn; try discriminate.
    eapply ErrSrc_put; [| | |exact Hs].
    + apply (exists_upd failing _ _ (Stored x)); auto.
    + intros v e Hi. destruct (in_upd _ _ _ _ _ Hn Hi) as [HH|HH]; [discriminate|auto].
    + split; auto.
Qed.

Lemma ErrSrc_run l c c' : ErrSrc c -> run l c = Some c' -> ErrSrc c'.
Proof.
  revert c; induction l as [|e l IH]; cbn [run]; intros c HI H.
  - injection H as <-; auto.
  - destruct (step e c) as [c1|] eqn:E; [|discriminate]. eapply IH; [|eauto]. eapply ErrSrc_step; eauto.
Qed.

(** forward_ends that do not overlap: the read of the error field is followed by
    the write of the same forward_end. *)
Fixpoint atomic (l : list ev) : Prop :=
  match l with
  | [] => True
  | EvLoad i :: r => match r with EvStore j :: r' => i = j /\ atomic r' | _ => False end
  | EvStore _ :: _ => False
  | _ :: r => atomic r
  end.

Definition ErrKeep (c : cfg) : Prop :=
  (Exists settled_fail (thr c) -> err c <> 0) /\
  (forall e, In e (calls c) -> e = err c) /\ no_init (prog c).

Lemma exists_upd_inv (Q : phase -> Prop) l i p q :
  nth_error l i = Some p -> (Q q -> Q p) -> Exists Q (upd l i q) -> Exists Q l.
Proof.
  revert i; induction l as [|a l IH]; intros [|i]; cbn; intros H Hq HE; try discriminate.
  - injection H as ->. inversion HE; subst; [left; auto|right; auto].
  - inversion HE; subst; [left; auto|right; eauto].
Qed.

Lemma ErrKeep_put c p t c' :
  (Exists settled_fail t -> Exists settled_fail (thr c)) -> no_init p ->
  ErrKeep c -> put c p t = Some c' -> ErrKeep c'.
Proof.
  intros Ht Hp (H1 & H2 & H3) E. unfold put in E. destruct (cnt c); [discriminate|].
  injection E as <-. unfold ErrKeep; cbn [err thr calls prog]. split; [auto|]. split; [|auto].
  intros e Hi. destruct n; [|auto]. apply in_app_or in Hi as [Hi|[<-|[]]]; auto.
Qed.

Lemma ErrKeep_step e c c' :
  (forall i, e <> EvStore i) -> ErrKeep c -> step e c = Some c' -> ErrKeep c'.
Proof.
  intros Hns (H1 & H2 & H3) Hs.
  destruct e as [|i x|i|i|i]; cbn [step] in Hs.
  - assert (HN : forall a r, prog c = a :: r -> no_init r /\ a <> IInit).
    { intros a r E. unfold no_init in *. rewrite E in H3. cbn in H3. split; intros HH; apply H3; auto. }
    destruct (prog c) as [|[| | | |x] r] eqn:Hp; try discriminate; destruct (HN _ _ eq_refl) as [HN1 HN2].
    + congruence.
    + injection Hs as <-. repeat split; auto.
    + injection Hs as <-. split; [|split; auto]. cbn. intros HE. apply H1.
      apply Exists_app in HE as [HE|HE]; auto. inversion HE; subst; cbn in *; [tauto|].
      match goal with H : Exists _ [] |- _ => inversion H end.
    + assert (HK : ErrKeep c) by (split; [auto|split; auto]; rewrite Hp; auto).
      eapply ErrKeep_put; [| |exact HK|exact Hs]; auto.
    + injection Hs as <-. split; [|split; auto]. cbn. intros HE. apply H1.
      apply Exists_app in HE as [HE|HE]; auto. inversion HE; subst; cbn in *; [tauto|].
      match goal with H : Exists _ [] |- _ => inversion H end.
  - destruct (nth_error (thr c) i) as [[| | | |]|] eqn:Hn; try discriminate. injection Hs as <-.
    split; [|split; auto]. cbn. intros HE. apply H1. eapply exists_upd_inv; [exact Hn| |exact HE]. cbn; tauto.
  - destruct (nth_error (thr c) i) as [[|x| | |]|] eqn:Hn; try discriminate. injection Hs as <-.
    split; [|split; auto]. cbn. intros HE. apply H1. eapply exists_upd_inv; [exact Hn| |exact HE]. cbn; tauto.
  - exfalso. eapply Hns; reflexivity.
  - destruct (nth_error (thr c) i) as [[| | |x|]|] eqn:Hn; try discriminate.
    assert (HK : ErrKeep c) by (split; [auto|split; auto]).
    eapply ErrKeep_put; [| |exact HK|exact Hs]; auto.
    intros HE. eapply exists_upd_inv; [exact Hn| |exact HE]. cbn; tauto.
Qed.

Lemma ErrKeep_end i c c1 c' :
  Inv c -> ErrKeep c -> step (EvLoad i) c = Some c1 -> step (EvStore i) c1 = Some c' -> ErrKeep c'.
Proof.
  intros HI (H1 & H2 & H3) Hs1 Hs2. cbn [step] in Hs1.
  destruct (nth_error (thr c) i) as [[|x| | |]|] eqn:Hn; try discriminate. injection Hs1 as <-.
  cbn [step thr] in Hs2. rewrite (nth_upd_same _ _ _ _ Hn) in Hs2. injection Hs2 as <-.
  cbn [err prog calls].
  assert (Hcalls : calls c = []).
  { destruct HI as [(A1 & A2 & A3 & A4)|(h & A1 & A2 & A3 & A4)]; auto.
    destruct A4 as [[A4 A5]|(A4 & A5 & A6)]; auto.
    pose proof (active_pos _ _ _ Hn eq_refl). lia. }
  split; [|split; auto]; cbn [thr err calls].
  - unfold elvis. destruct (N.eqb_spec (err c) 0) as [E|E]; [|auto].
    intros HE. destruct (N.eq_dec x 0) as [->|]; [|auto].
    exfalso. apply H1; [|exact E].
    eapply exists_upd_inv; [exact Hn| |].
    2:{ eapply exists_upd_inv; [eapply nth_upd_same; exact Hn| |exact HE]. cbn. tauto. }
    cbn. tauto.
  - rewrite Hcalls. intros e [].
Qed.

Lemma ErrKeep_run : forall n l c c', (length l <= n)%nat -> atomic l -> Inv c -> ErrKeep c ->
  run l c = Some c' -> ErrKeep c'.
Proof.
  induction n as [|n IH]; intros l c c' Hl Ha HI HK H.
  - destruct l; [|cbn in Hl; lia]. cbn in H. injection H as <-. auto.
  - destruct l as [|e l]; cbn [run] in H; [injection H as <-; auto|].
    destruct (step e c) as [c1|] eqn:E; [|discriminate]. cbn [length] in Hl.
    pose proof (Inv_step _ _ _ HI E) as HI1.
    destruct e as [|i x|i|i|i]; cbn [atomic] in Ha.
    + eapply (IH l c1); auto; [lia|]. refine (ErrKeep_step _ c _ _ HK E); intros ? HH; discriminate HH.
    + eapply (IH l c1); auto; [lia|]. refine (ErrKeep_step _ c _ _ HK E); intros ? HH; discriminate HH.
    + destruct l as [|[|j y|j|j|j] l]; try tauto. destruct Ha as [<- Ha].
      cbn [run] in H. destruct (step (EvStore i) c1) as [c2|] eqn:E2; [|discriminate].
      cbn [length] in Hl.
      apply (IH l c2); [lia|exact Ha|exact (Inv_step _ _ _ HI1 E2)|exact (ErrKeep_end _ _ _ _ HI HK E E2)|exact H].
    + tauto.
    + eapply (IH l c1); auto; [lia|]. refine (ErrKeep_step _ c _ _ HK E); intros ? HH; discriminate HH.
Qed.

Lemma no_init_fwd v : no_init (fwd v).
Proof.
  induction v as [| |l ok IH] using vol_ind2; unfold no_init; cbn.
  - intros [|[]]; discriminate.
  - intros [|[|[]]]; discriminate.
  - intros [|HI]; [discriminate|]. apply in_app_or in HI as [HI|[HI|[]]]; [|discriminate].
    apply in_flat_map in HI as (v & Hv & HI). rewrite Forall_forall in IH. exact (IH v Hv HI).
Qed.

Lemma no_init_flat vs : no_init (flat_map fwd vs ++ [IPut]).
Proof.
  intros HI. apply in_app_or in HI as [HI|[HI|[]]]; [|discriminate].
  apply in_flat_map in HI as (v & Hv & HI). exact (no_init_fwd v HI).
Qed.

(** C23: metadata I/O operations. *)
From Coq Require Import ZArith NArith List Bool Arith Lia.
From Verif Require Import MioModel.
Import ListNotations.
Open Scope nat_scope.

Fixpoint sumn (f : nat -> nat) (k : nat) : nat := match k with 0 => 0 | S k => f k + sumn f k end.
Lemma setf_eq : forall A (f : nat -> A) i v, setf f i v i = v.
Proof. intros. unfold setf. now rewrite Nat.eqb_refl. Qed.
Lemma setf_neq : forall A (f : nat -> A) i v j, j <> i -> setf f i v j = f j.
Proof. intros. unfold setf. destruct (Nat.eqb_spec j i); congruence. Qed.
Lemma sumn_ext : forall f g k, (forall i, i < k -> f i = g i) -> sumn f k = sumn g k.
Proof. induction k; intros H; cbn; [reflexivity|]. rewrite H by lia. rewrite IHk; [reflexivity|]. intros. apply H. lia. Qed.
Lemma sumn_upd : forall f g k t, t < k -> (forall i, i <> t -> g i = f i) -> sumn g k + f t = sumn f k + g t.
Proof.
  induction k; intros t Ht HG; [lia|]. cbn. destruct (Nat.eq_dec t k) as [->|Hne].
  - rewrite (sumn_ext g f k); [lia|]. intros. apply HG. lia.
  - rewrite (HG k) by auto. specialize (IHk t ltac:(lia) HG). lia.
Qed.
Lemma sumn_ge : forall f k t, t < k -> f t <= sumn f k.
Proof. induction k; intros t Ht; [lia|]. cbn. destruct (Nat.eq_dec t k) as [->|Hne]; [lia|]. specialize (IHk t). lia. Qed.
Lemma sumn_0 : forall f k, (forall i, i < k -> f i = 0) -> sumn f k = 0.
Proof. induction k; intros H; cbn; auto. rewrite H, IHk by auto. reflexivity. Qed.
Lemma sumn_all : forall f k j, j <= k -> (forall i, i < j -> f i = 1) -> j <= sumn f k.
Proof.
  induction k; intros j Hj HA; [lia|]. cbn [sumn]. destruct (Nat.eq_dec j (S k)) as [->|].
  - rewrite (HA k) by lia. specialize (IHk k (le_n k)). assert (k <= sumn f k) by (apply IHk; intros; apply HA; lia). lia.
  - specialize (IHk j ltac:(lia) HA). lia.
Qed.
Lemma sum_setf : forall (g : worker -> nat) (f : nat -> worker) k i w, i < k ->
  sumn (fun u => g (setf f i w u)) k + g (f i) = sumn (fun u => g (f u)) k + g w.
Proof.
  intros g f k i w Hi. pose proof (sumn_upd (fun u => g (f u)) (fun u => g (setf f i w u)) k i Hi) as H. cbv beta in H. rewrite setf_eq in H.
  apply H. intros j Hj. now rewrite setf_neq.
Qed.

Section P.
Variables page count max : N.
Variable conc : bool.
Notation ioc := (io_count count max).
Notation n := (nreq count max).

Definition rem_ (w : worker) : nat := match at_ w with WNot => 0 | _ => if ended w then 0 else 1 end.
Definition act_ (w : worker) : nat := match at_ w with WNot | WDel | WDone => 0 | _ => 1 end.
Definition endcall_ (w : worker) : nat := match at_ w with WEndCall _ => 1 | _ => 0 end.
Definition del_ (w : worker) : nat := match at_ w with WDel => 1 | _ => 0 end.
Definition adv_ (w : worker) : nat := match at_ w with WNot | WAdv true | WInc true => 0 | _ => 1 end.
Definition holds_ (c : nat) (w : worker) : nat :=
  match chunk w with
  | None => 0
  | Some c' => if c' =? c then
                 match at_ w with
                 | WStartChk | WLock | WWait | WIo => 1
                 | WComp | WFin | WDel | WDone => if ended w then 0 else 1
                 | _ => 0 end
               else 0
  end.
Fixpoint cios (c : nat) (l : list (nat * Z)) : nat :=
  match l with [] => 0 | (c', _) :: l => (if c' =? c then 1 else 0) + cios c l end.
Lemma cios_app : forall c l l', cios c (l ++ l') = cios c l + cios c l'.
Proof. induction l as [|[a b] l IH]; intros; cbn; auto. rewrite IH. lia. Qed.
Definition b1 (b : bool) : nat := if b then 1 else 0.

Definition mrem (m : mainpc) : nat := match m with MStart _ | MWait _ | MEnd => 1 | MAct _ => 2 | _ => 0 end.
Definition mact (m : mainpc) : nat := match m with MDel | MDone => 0 | _ => 1 end.
Definition mendcall (m : mainpc) : nat := match m with MEndCall => 1 | _ => 0 end.
Definition mdel (m : mainpc) : nat := match m with MDel => 1 | _ => 0 end.

(** What holds of one worker; [er]: a_req->error is not 0. *)
Definition shape (er : bool) (i : nat) (cur : Z) (w : worker) : Prop :=
  match at_ w with
  | WNot | WAdv true | WEnd true => ended w = false /\ chunk w = None /\ failed w = false
  | WInc true => ended w = false /\ chunk w = None /\ failed w = false /\ (Z.of_nat i <= cur + 1)%Z
  | WEndCall true => ended w = true /\ chunk w = None
  | WStartChk => (ended w = true /\ chunk w = None) \/ (ended w = false /\ chunk w <> None)
  | WLock | WWait | WIo => ended w = false /\ chunk w <> None
  | WErr e => ended w = false /\ chunk w <> None /\ e <> 0%Z /\ failed w = true
  | WErrW v e => ended w = false /\ chunk w <> None /\ e <> 0%Z /\ (v <> 0%Z -> er = true) /\ failed w = true
  | WAdv false | WInc false => ended w = false /\ chunk w <> None
  | WEnd false => ended w = false /\ (chunk w = None \/ er = true)
  | WEndCall false => ended w = true /\ (chunk w = None \/ er = true)
  | WComp => (ended w = true /\ (chunk w = None \/ er = true)) \/ (ended w = false /\ chunk w <> None)
  | WFin | WDel | WDone => ended w = true \/ er = true
  end.
Definition in_err (p : pc) : bool := match p with WErr _ | WErrW _ _ => true | _ => false end.
Definition in_end (p : pc) : bool := match p with WEnd _ => true | _ => false end.
Record wok (er : bool) (cur : Z) (i : nat) (w : worker) : Prop := {
  w_shape : shape er i cur w;
  w_failed : failed w = true -> er = true \/ in_err (at_ w) = true;
  w_chunk : forall c, chunk w = Some c -> i <= c /\ (Z.of_nat c <= cur)%Z /\ c < ioc;
  w_all : (ended w = true \/ in_end (at_ w) = true) -> er = true \/ (Z.of_nat ioc <= cur)%Z
}.
Lemma wok_mono : forall er cur i w er' cur', wok er cur i w -> (er = true -> er' = true) -> (cur <= cur')%Z -> wok er' cur' i w.
Proof.
  intros er cur i w er' cur' [A B C D] He Hc. constructor.
  - unfold shape in *. destruct (at_ w) as [|[]|[]|[]|[]| | | | | | | | | |]; intuition lia.
  - intros H. destruct (B H); auto.
  - intros c H. specialize (C c H). intuition lia.
  - intros H. destruct (D H); auto. right. lia.
Qed.

Definition er (s : st) : bool := negb (error s =? 0)%Z.

Definition mainok (m : mainpc) (f : nat -> worker) : Prop :=
  match m with
  | MStart i | MAct i => (i <= n /\ (forall j, j < i -> past (at_ (f j)) = true) /\ (forall j, i <= j -> j < n -> at_ (f j) = WNot)) /\
                         (match m with MAct _ => i < n | _ => True end)
  | MWait i => i < n /\ (forall j, j < i -> past (at_ (f j)) = true) /\ (forall j, i < j -> j < n -> at_ (f j) = WNot) /\ at_ (f i) <> WNot
  | _ => forall j, j < n -> past (at_ (f j)) = true
  end.

Record Inv (s : st) : Prop := {
  g_w : forall i, i < n -> wok (er s) (current s) i (wk s i);
  g_rem : remaining s = Z.of_nat (sumn (fun i => rem_ (wk s i)) n + mrem (main s));
  g_act : active s = Z.of_nat (sumn (fun i => act_ (wk s i)) n + mact (main s));
  g_compl : sumn (fun i => endcall_ (wk s i)) n + mendcall (main s) + length (compl s) = b1 (remaining s =? 0)%Z;
  g_del : sumn (fun i => del_ (wk s i)) n + mdel (main s) + dels s = b1 (active s =? 0)%Z;
  g_main : mainok (main s) (wk s);
  g_chunk : forall c, c < ioc -> cios c (ios s) + sumn (fun i => holds_ c (wk s i)) n = b1 (Z.of_nat c <=? current s)%Z;
  g_ios : forall c e, In (c, e) (ios s) -> c < ioc;
  g_cur : (-1 <= current s)%Z;
  g_adv : error s = 0%Z -> (Z.of_nat (sumn (fun i => adv_ (wk s i)) n) <= current s + 1)%Z;
  g_fail1 : error s <> 0%Z -> exists i, i < n /\ failed (wk s i) = true;
  g_fail2 : forall c e, In (c, e) (ios s) -> e <> 0%Z -> exists i, i < n /\ failed (wk s i) = true;
  g_res : forall e, In e (compl s) -> e = error s
}.

Lemma er_t : forall s, er s = true <-> error s <> 0%Z.
Proof. intros. unfold er. destruct (Z.eqb_spec (error s) 0); cbn; split; intros; congruence. Qed.
Lemma er_f : forall s, er s = false <-> error s = 0%Z.
Proof. intros. unfold er. destruct (Z.eqb_spec (error s) 0); cbn; split; intros; congruence. Qed.

Theorem start_inv : Inv start.
Proof.
  constructor; cbn [start remaining active current error wk main ios compl dels].
  - intros i Hi. constructor; cbn; try easy. intros [|]; discriminate.
  - rewrite sumn_0 by auto. reflexivity.
  - rewrite sumn_0 by auto. reflexivity.
  - rewrite sumn_0 by auto. reflexivity.
  - rewrite sumn_0 by auto. reflexivity.
  - cbn. split; auto. split; [lia|]. split; [lia|auto].
  - intros c Hc. rewrite sumn_0 by auto. cbn. destruct (Z.leb_spec (Z.of_nat c) (-1)); [lia|reflexivity].
  - easy.
  - lia.
  - intros _. rewrite sumn_0 by auto. lia.
  - easy.
  - easy.
  - easy.
Qed.

(** Change of one started worker. *)
Lemma upd : forall s i w' rem' act' cur' err' ios' compl' dels',
  Inv s -> i < n -> at_ (wk s i) <> WNot -> at_ w' <> WNot ->
  (past (at_ (wk s i)) = true -> past (at_ w') = true) ->
  (error s <> 0%Z -> err' <> 0%Z) -> (current s <= cur')%Z ->
  wok (negb (err' =? 0)%Z) cur' i w' ->
  (rem' = remaining s + Z.of_nat (rem_ w') - Z.of_nat (rem_ (wk s i)))%Z ->
  (act' = active s + Z.of_nat (act_ w') - Z.of_nat (act_ (wk s i)))%Z ->
  endcall_ w' + length compl' + b1 (remaining s =? 0)%Z = endcall_ (wk s i) + length (compl s) + b1 (rem' =? 0)%Z ->
  del_ w' + dels' + b1 (active s =? 0)%Z = del_ (wk s i) + dels s + b1 (act' =? 0)%Z ->
  (forall c, c < ioc -> cios c ios' + holds_ c w' + b1 (Z.of_nat c <=? current s)%Z = cios c (ios s) + holds_ c (wk s i) + b1 (Z.of_nat c <=? cur')%Z) ->
  (forall c e, In (c, e) ios' -> c < ioc) ->
  (err' = 0%Z -> Z.of_nat (adv_ w') + current s <= Z.of_nat (adv_ (wk s i)) + cur')%Z ->
  (failed (wk s i) = true -> failed w' = true) ->
  (err' <> 0%Z -> error s <> 0%Z \/ failed w' = true) ->
  (forall c e, In (c, e) ios' -> e <> 0%Z -> In (c, e) (ios s) \/ failed w' = true) ->
  (forall e, In e compl' -> e = err') ->
  Inv {| remaining := rem'; active := act'; current := cur'; error := err'; wk := setf (wk s) i w'; main := main s; ios := ios'; compl := compl'; dels := dels' |}.
Proof.
  intros s i w' rem' act' cur' err' ios' compl' dels' HI Hi HN HN' HP HE HC HW HR HA HEC HD HCH HIO HAD HF HF1 HF2 HRes.
  pose proof (fun g => sum_setf g (wk s) n i w' Hi) as HS.
  constructor; cbn [remaining active current error wk main ios compl dels].
  - intros j Hj. unfold er. cbn [error]. unfold setf. destruct (Nat.eqb_spec j i) as [->|]; auto.
    apply (wok_mono (er s) (current s)); auto; [apply (g_w _ HI); auto|]. rewrite er_t. intros H. specialize (HE H). destruct (Z.eqb_spec err' 0); auto.
  - rewrite HR, (g_rem _ HI). specialize (HS rem_). lia.
  - rewrite HA, (g_act _ HI). specialize (HS act_). lia.
  - pose proof (g_compl _ HI). specialize (HS endcall_). lia.
  - pose proof (g_del _ HI). specialize (HS del_). lia.
  - pose proof (g_main _ HI) as HM.
    assert (HPP : forall j, past (at_ (wk s j)) = true -> past (at_ (setf (wk s) i w' j)) = true).
    { intros j Hj. unfold setf. destruct (Nat.eqb_spec j i) as [->|]; auto. }
    assert (HNN : forall j, at_ (wk s j) = WNot -> at_ (setf (wk s) i w' j) = WNot).
    { intros j Hj. unfold setf. destruct (Nat.eqb_spec j i) as [->|]; auto. congruence. }
    unfold mainok in *. destruct (main s) as [k|k|k| | | | |]; auto.
    + destruct HM as ((A & B & C) & D). auto 10.
    + destruct HM as ((A & B & C) & D). auto 10.
    + destruct HM as (A & B & C & D). split; auto. split; auto. split; auto. unfold setf. destruct (Nat.eqb_spec k i) as [->|]; auto.
  - intros c Hc. specialize (HCH c Hc). pose proof (g_chunk _ HI c Hc). specialize (HS (holds_ c)). lia.
  - exact HIO.
  - pose proof (g_cur _ HI). lia.
  - intros E. specialize (HAD E). assert (E0 : error s = 0%Z). { destruct (Z.eq_dec (error s) 0) as [|Hz]; auto. elim (HE Hz). auto. }
    pose proof (g_adv _ HI E0). specialize (HS adv_). lia.
  - intros E. destruct (HF1 E) as [H|H].
    + destruct (g_fail1 _ HI H) as (j & Hj & Hf). exists j. split; auto. unfold setf. destruct (Nat.eqb_spec j i) as [->|]; auto.
    + exists i. split; auto. now rewrite setf_eq.
  - intros c e Hin He. destruct (HF2 c e Hin He) as [H|H].
    + destruct (g_fail2 _ HI c e H He) as (j & Hj & Hf). exists j. split; auto. unfold setf. destruct (Nat.eqb_spec j i) as [->|]; auto.
    + exists i. split; auto. now rewrite setf_eq.
  - exact HRes.
Qed.

Lemma rem_pos : forall s i, Inv s -> i < n -> rem_ (wk s i) = 1 -> (remaining s > 0)%Z /\ compl s = [].
Proof.
  intros s i HI Hi H. pose proof (sumn_ge (fun i => rem_ (wk s i)) n i Hi) as HG. cbv beta in HG. pose proof (g_rem _ HI) as HR.
  assert (HP : (remaining s > 0)%Z) by lia. split; auto. pose proof (g_compl _ HI) as HC.
  destruct (Z.eqb_spec (remaining s) 0); [lia|]. cbn [b1] in HC. destruct (compl s); auto. cbn in HC. lia.
Qed.
Lemma act_pos : forall s i, Inv s -> i < n -> act_ (wk s i) = 1 -> (active s > 0)%Z.
Proof.
  intros s i HI Hi H. pose proof (sumn_ge (fun i => act_ (wk s i)) n i Hi) as HG. cbv beta in HG. pose proof (g_act _ HI) as HR. lia.
Qed.

Lemma eta : forall s, s = {| remaining := remaining s; active := active s; current := current s; error := error s; wk := wk s; main := main s; ios := ios s; compl := compl s; dels := dels s |}.
Proof. destruct s; reflexivity. Qed.

(** A step of a worker that changes nothing but its place. *)
Lemma upd_goto : forall s i p, Inv s -> i < n -> at_ (wk s i) <> WNot -> p <> WNot ->
  (past (at_ (wk s i)) = true -> past p = true) ->
  wok (er s) (current s) i (goto (wk s i) p) ->
  rem_ (goto (wk s i) p) = rem_ (wk s i) -> act_ (goto (wk s i) p) = act_ (wk s i) ->
  endcall_ (goto (wk s i) p) = endcall_ (wk s i) -> del_ (goto (wk s i) p) = del_ (wk s i) ->
  (forall c, holds_ c (goto (wk s i) p) = holds_ c (wk s i)) ->
  (error s = 0%Z -> adv_ (goto (wk s i) p) = adv_ (wk s i)) ->
  Inv (setw s i (goto (wk s i) p)).
Proof.
  intros s i p HI Hi HN HN' HP HW HR HA HE HD HH HAd. unfold setw.
  apply upd; auto; try lia; try (intros; rewrite ?HH; lia); try exact (g_res _ HI); try (intros E; rewrite (HAd E); lia).
  intros c e. apply (g_ios _ HI).
Qed.

Lemma past_goto : forall (w : worker) p, at_ (goto w p) = p. Proof. reflexivity. Qed.

Theorem wstep_inv : forall s i a, Inv s -> i < n -> match wstep count max conc i a s with Blocked => True | Ok s' => Inv s' end.
Proof.
  intros s i a HI Hi. unfold wstep. pose proof (g_w _ HI i Hi) as HW. destruct HW as [W1 W2 W3 W4]. unfold shape in W1.
  destruct (at_ (wk s i)) as [|f|f|f|f| | | | |e|v e| | | |] eqn:EP; auto.
  - (* WAdv *)
    destruct (Z.eqb_spec (error s) 0) as [E|E].
    + apply upd_goto; auto; rewrite ?EP; try discriminate; try (cbn; destruct f; auto; fail).
      * constructor; unfold shape; cbn [at_ goto ended chunk failed in_err in_end].
        { destruct f; [|tauto]. destruct W1 as (A & B & C). repeat split; auto.
          assert (HJ : forall j, j < i -> adv_ (wk s j) = 1).
          { intros j Hj. pose proof (g_main _ HI) as HM. unfold mainok in HM. unfold adv_.
            assert (HPj : past (at_ (wk s j)) = true).
            { destruct (main s) as [k|k|k| | | | |]; try (apply HM; lia).
              - destruct HM as ((X & Y & Z0) & _). apply Y. destruct (Nat.lt_ge_cases i k) as [|HG]; [lia|]. rewrite (Z0 i HG Hi) in EP. discriminate.
              - destruct HM as ((X & Y & Z0) & _). apply Y. destruct (Nat.lt_ge_cases i k) as [|HG]; [lia|]. rewrite (Z0 i HG Hi) in EP. discriminate.
              - destruct HM as (X & Y & Z0 & T0). apply Y. destruct (Nat.le_gt_cases i k) as [|HG]; [lia|]. rewrite (Z0 i HG Hi) in EP. discriminate. }
            destruct (at_ (wk s j)) as [|[]|[]|[]|[]| | | | | | | | | |]; auto; discriminate. }
          pose proof (g_adv _ HI E) as HA. pose proof (sumn_all (fun j => adv_ (wk s j)) n i ltac:(lia) HJ). lia. }
        { intros H. destruct (W2 H); auto. }
        { exact W3. }
        { intros [H|H]; [|discriminate]. auto. }
      * unfold rem_. rewrite EP. reflexivity.
      * unfold act_. rewrite EP. reflexivity.
      * unfold endcall_. rewrite EP. reflexivity.
      * unfold del_. rewrite EP. reflexivity.
      * intros c. unfold holds_. rewrite EP. cbn [at_ goto chunk ended]. reflexivity.
      * intros _. unfold adv_. rewrite EP. cbn. destruct f; reflexivity.
    + apply upd_goto; auto; rewrite ?EP; try discriminate; try (cbn; destruct f; auto; fail).
      * apply er_t in E. constructor; unfold shape; cbn [at_ goto ended chunk failed in_err in_end]; auto.
        destruct f; tauto.
      * unfold rem_. rewrite EP. reflexivity.
      * unfold act_. rewrite EP. reflexivity.
      * unfold endcall_. rewrite EP. reflexivity.
      * unfold del_. rewrite EP. reflexivity.
      * intros c. unfold holds_. rewrite EP. cbn [at_ goto chunk ended]. reflexivity.
      * congruence.
  - (* WInc *)
    assert (EN : ended (wk s i) = false) by (destruct f; tauto).
    pose proof (g_cur _ HI) as HC.
    destruct (rem_pos s i HI Hi) as [HRP HCN]; [unfold rem_; rewrite EP, EN; reflexivity|].
    set (stop := (Z.of_nat ioc <=? current s + 1)%Z).
    assert (Hstop : stop = true -> (Z.of_nat ioc <= current s + 1)%Z) by (unfold stop; intros H; apply Z.leb_le in H; auto).
    assert (Hnstop : stop = false -> (current s + 1 < Z.of_nat ioc)%Z) by (unfold stop; intros H; apply Z.leb_gt in H; auto).
    clearbody stop.
    assert (Hi1 : i <= Z.to_nat (current s + 1)).
    { destruct f; [destruct W1 as (_ & _ & _ & H); lia|]. destruct W1 as [_ H]. destruct (chunk (wk s i)) as [c|] eqn:EC; [|congruence]. destruct (W3 c eq_refl); lia. }
    apply upd; auto; rewrite ?EP; try discriminate; try lia.
    + cbn. destruct stop, f; discriminate.
    + cbn. destruct stop, f; auto.
    + constructor; unfold shape; cbn [at_ ended chunk failed].
      * destruct stop, f; auto; try tauto; right; split; auto; discriminate.
      * intros H. destruct (W2 H) as [H'|H']; [|discriminate]. left. exact H'.
      * intros c. destruct stop; [discriminate|]. intros E. inversion E; subst c. specialize (Hnstop eq_refl). lia.
      * rewrite EN. intros [H|H]; [discriminate|]. destruct stop; [right; auto|]. destruct f; discriminate.
    + unfold rem_. cbn [at_ ended]. rewrite EP. destruct stop, f; lia.
    + unfold act_. cbn [at_ ended]. rewrite EP. destruct stop, f; lia.
    + unfold endcall_. cbn [at_]. rewrite EP. destruct stop, f; lia.
    + unfold del_. cbn [at_]. rewrite EP. destruct stop, f; lia.
    + intros c Hc. unfold holds_. cbn [at_ chunk ended]. rewrite EP. destruct stop.
      * specialize (Hstop eq_refl). assert (E1 : (Z.of_nat c <=? current s)%Z = true) by (apply Z.leb_le; lia). assert (E2 : (Z.of_nat c <=? current s + 1)%Z = true) by (apply Z.leb_le; lia).
        rewrite E1, E2. destruct (chunk (wk s i)) as [c'|]; [|lia]. destruct (c' =? c); lia.
      * specialize (Hnstop eq_refl). destruct (Nat.eqb_spec (Z.to_nat (current s + 1)) c) as [E|E].
        { assert (E1 : (Z.of_nat c <=? current s)%Z = false) by (apply Z.leb_gt; lia). assert (E2 : (Z.of_nat c <=? current s + 1)%Z = true) by (apply Z.leb_le; lia).
          rewrite E1, E2, EN. cbn [b1]. destruct (chunk (wk s i)) as [c'|]; [destruct (c' =? c)|]; destruct f; lia. }
        { assert (E1 : (Z.of_nat c <=? current s + 1)%Z = (Z.of_nat c <=? current s)%Z).
          { destruct (Z.leb_spec (Z.of_nat c) (current s)); [apply Z.leb_le; lia|apply Z.leb_gt; lia]. }
          rewrite E1. destruct (chunk (wk s i)) as [c'|]; [destruct (c' =? c)|]; lia. }
    + intros c e. apply (g_ios _ HI).
    + intros _. unfold adv_. cbn [at_]. rewrite EP. destruct stop, f; lia.
    + exact (g_res _ HI).
  - (* WEnd *)
    assert (EN : ended (wk s i) = false) by (destruct f; tauto).
    destruct (rem_pos s i HI Hi) as [HRP HCN]; [unfold rem_; rewrite EP, EN; reflexivity|].
    apply upd; auto; rewrite ?EP; try discriminate; try lia.
    + cbn. destruct (_ =? _)%Z, f; discriminate.
    + cbn. destruct (_ =? _)%Z, f; auto.
    + constructor; unfold shape; cbn [at_ ended chunk failed].
      * destruct (_ =? _)%Z, f; tauto.
      * intros H. destruct (W2 H) as [H'|H']; [|discriminate]. left. exact H'.
      * exact W3.
      * intros _. apply W4. auto.
    + unfold rem_. cbn [at_ ended]. rewrite EP, EN. destruct (_ =? _)%Z, f; lia.
    + unfold act_. cbn [at_ ended]. rewrite EP. destruct (_ =? _)%Z, f; lia.
    + unfold endcall_. cbn [at_]. rewrite EP. assert (E0 : (remaining s =? 0)%Z = false) by (apply Z.eqb_neq; lia). rewrite E0; clear E0. destruct (_ =? _)%Z, f; cbn [b1]; lia.
    + unfold del_. cbn [at_]. rewrite EP. destruct (_ =? _)%Z, f; lia.
    + intros c Hc. unfold holds_. cbn [at_ chunk ended]. rewrite EP. destruct (chunk (wk s i)) as [c'|] eqn:EC; [|lia]. destruct (c' =? c); [|lia].
      destruct f; [destruct W1 as (_ & H & _); congruence|]. destruct (_ =? _)%Z; lia.
    + intros c e. apply (g_ios _ HI).
    + intros _. unfold adv_. cbn [at_]. rewrite EP. destruct (_ =? _)%Z, f; lia.
    + exact (g_res _ HI).
  - (* WEndCall *)
    assert (EN : ended (wk s i) = true) by (destruct f; tauto).
    assert (HNC : compl s = []).
    { pose proof (g_compl _ HI) as H. pose proof (sumn_ge (fun i => endcall_ (wk s i)) n i Hi) as HG. cbv beta in HG. unfold endcall_ in HG at 1. rewrite EP in HG.
      destruct (compl s); auto. cbn [length] in H. destruct (remaining s =? 0)%Z; cbn [b1] in H; lia. }
    apply upd; auto; rewrite ?EP; try discriminate; try lia.
    + cbn. destruct f; discriminate.
    + cbn. destruct f; auto.
    + constructor; unfold shape; cbn [at_ ended chunk failed goto].
      * destruct f; tauto.
      * intros H. destruct (W2 H) as [H'|H']; [|discriminate]. left. exact H'.
      * exact W3.
      * intros _. apply W4. auto.
    + unfold rem_. cbn [at_ ended goto]. rewrite EP, EN. destruct f; lia.
    + unfold act_. cbn [at_ ended goto]. rewrite EP. destruct f; lia.
    + unfold endcall_. cbn [at_ goto]. rewrite EP, app_length. cbn [length]. destruct f; lia.
    + unfold del_. cbn [at_ goto]. rewrite EP. destruct f; lia.
    + intros c Hc. unfold holds_. cbn [at_ chunk ended goto]. rewrite EP. destruct (chunk (wk s i)) as [c'|] eqn:EC; [|lia]. destruct (c' =? c); [|lia].
      destruct f; [destruct W1; congruence|]. rewrite EN. lia.
    + intros c e. apply (g_ios _ HI).
    + intros _. unfold adv_. cbn [at_ goto]. rewrite EP. destruct f; lia.
    + intros e. rewrite HNC. intros [E|[]]. auto.
  - (* WStartChk *)
    assert (HP : forall p, (p = WFin /\ chunk (wk s i) = None) \/ ((p = WLock \/ p = WIo) /\ chunk (wk s i) <> None) -> Inv (setw s i (goto (wk s i) p))).
    { intros p Hp. assert (HE : ended (wk s i) = match chunk (wk s i) with None => true | _ => false end).
      { destruct W1 as [[A B]|[A B]]; rewrite A; [now rewrite B|]. destruct (chunk (wk s i)); congruence. }
      apply upd_goto; auto; rewrite ?EP; try discriminate.
      + destruct Hp as [[-> _]|[[->| ->] _]]; discriminate.
      + constructor; unfold shape; cbn [at_ ended chunk failed goto].
        * destruct Hp as [[-> H]|[[->| ->] H]]; [rewrite HE, H; auto| |]; (split; auto; rewrite HE; destruct (chunk (wk s i)); congruence).
        * intros H. destruct (W2 H) as [H'|H']; [|discriminate]. left. exact H'.
        * exact W3.
        * intros [H|H]; [auto|]. destruct Hp as [[-> _]|[[->| ->] _]]; discriminate.
      + unfold rem_. cbn [at_ ended goto]. rewrite EP. destruct Hp as [[-> _]|[[->| ->] _]]; reflexivity.
      + unfold act_. cbn [at_ ended goto]. rewrite EP. destruct Hp as [[-> _]|[[->| ->] _]]; reflexivity.
      + unfold endcall_. cbn [at_ ended goto]. rewrite EP. destruct Hp as [[-> _]|[[->| ->] _]]; reflexivity.
      + unfold del_. cbn [at_ ended goto]. rewrite EP. destruct Hp as [[-> _]|[[->| ->] _]]; reflexivity.
      + intros c. unfold holds_. cbn [at_ ended chunk goto]. rewrite EP. destruct Hp as [[-> H]|[[->| ->] _]]; auto. now rewrite H.
      + intros _. unfold adv_. cbn [at_ ended goto]. rewrite EP. destruct Hp as [[-> _]|[[->| ->] _]]; reflexivity. }
    apply HP. destruct (chunk (wk s i)); [right|left; auto]. split; [|discriminate]. destruct conc; auto.
  - (* WLock *)
    destruct W1 as [EN EC].
    assert (HP : forall p, p = WIo \/ p = WWait -> Inv (setw s i (goto (wk s i) p))).
    { intros p Hp. apply upd_goto; auto; rewrite ?EP; try discriminate.
      + destruct Hp as [->| ->]; discriminate.
      + destruct Hp as [->| ->]; auto.
      + constructor; unfold shape; cbn [at_ ended chunk failed goto].
        * destruct Hp as [->| ->]; auto.
        * intros H. destruct (W2 H) as [H'|H']; [|discriminate]. left. exact H'.
        * exact W3.
        * intros [H|H]; [auto|]. destruct Hp as [->| ->]; discriminate.
      + unfold rem_. cbn [at_ ended goto]. rewrite EP. destruct Hp as [->| ->]; reflexivity.
      + unfold act_. cbn [at_ ended goto]. rewrite EP. destruct Hp as [->| ->]; reflexivity.
      + unfold endcall_. cbn [at_ ended goto]. rewrite EP. destruct Hp as [->| ->]; reflexivity.
      + unfold del_. cbn [at_ ended goto]. rewrite EP. destruct Hp as [->| ->]; reflexivity.
      + intros c. unfold holds_. cbn [at_ ended chunk goto]. rewrite EP. destruct Hp as [->| ->]; auto.
      + intros _. unfold adv_. cbn [at_ ended goto]. rewrite EP. destruct Hp as [->| ->]; reflexivity. }
    destruct a as [| |e]; [apply HP; auto|apply HP; auto|]. destruct (Z.ltb_spec e 0) as [He|He]; auto.
    destruct (rem_pos s i HI Hi) as [HRP HCN]; [unfold rem_; rewrite EP, EN; reflexivity|].
    assert (He0 : negb (e =? 0)%Z = true) by (destruct (Z.eqb_spec e 0); auto; lia).
    apply upd; auto; rewrite ?EP; try discriminate; try lia.
    + rewrite He0. constructor; unfold shape; cbn [at_ ended chunk failed]; auto.
    + unfold rem_. cbn [at_ ended]. rewrite EP. lia.
    + unfold act_. cbn [at_ ended]. rewrite EP. lia.
    + unfold endcall_. cbn [at_]. rewrite EP. lia.
    + unfold del_. cbn [at_]. rewrite EP. lia.
    + intros c Hc. unfold holds_. cbn [at_ chunk ended]. rewrite EP, EN. lia.
    + intros c e'. apply (g_ios _ HI).
    + rewrite HCN. easy.
  - (* WWait *)
    destruct W1 as [EN EC]. apply upd_goto; auto; rewrite ?EP; try discriminate.
    + constructor; unfold shape; cbn [at_ ended chunk failed goto]; auto; try (intros H; destruct (W2 H); auto; discriminate); try (intros [H|H]; [auto|discriminate]).
    + unfold rem_. cbn [at_ ended goto]. now rewrite EP.
    + unfold act_. cbn [at_ ended goto]. now rewrite EP.
    + unfold endcall_. cbn [at_ ended goto]. now rewrite EP.
    + unfold del_. cbn [at_ ended goto]. now rewrite EP.
    + intros c. unfold holds_. cbn [at_ ended chunk goto]. now rewrite EP.
    + intros _. unfold adv_. cbn [at_ ended goto]. now rewrite EP.
  - (* WIo *)
    destruct W1 as [EN EC]. destruct (chunk (wk s i)) as [c|] eqn:ECH; auto.
    destruct (W3 c eq_refl) as (K1 & K2 & K3).
    apply upd; auto; rewrite ?EP; try discriminate; try lia.
    + cbn. destruct (_ =? _)%Z; discriminate.
    + cbn. destruct (_ =? _)%Z; auto.
    + constructor; unfold shape; cbn [at_ ended chunk failed].
      * destruct (Z.eqb_spec (err_of a) 0); split; auto; try discriminate. split; [discriminate|split; auto; apply orb_true_r].
      * destruct (Z.eqb_spec (err_of a) 0); cbn; auto. rewrite orb_false_r. intros H. destruct (W2 H) as [H'|H']; [|discriminate]. left. exact H'.
      * exact W3.
      * rewrite EN. intros [H|H]; [discriminate|]. destruct (_ =? _)%Z; discriminate.
    + unfold rem_. cbn [at_ ended]. rewrite EP. destruct (_ =? _)%Z; lia.
    + unfold act_. cbn [at_ ended]. rewrite EP. destruct (_ =? _)%Z; lia.
    + unfold endcall_. cbn [at_]. rewrite EP. destruct (_ =? _)%Z; lia.
    + unfold del_. cbn [at_]. rewrite EP. destruct (_ =? _)%Z; lia.
    + intros c' Hc'. unfold holds_. cbn [at_ chunk ended]. rewrite EP, ECH, cios_app. cbn [cios]. destruct (c =? c'); try destruct (_ =? _)%Z; lia.
    + intros c' e'. rewrite in_app_iff. intros [H|[H|[]]]; [apply (g_ios _ HI _ _ H)|]. inversion H; subst. auto.
    + intros _. unfold adv_. cbn [at_]. rewrite EP. destruct (_ =? _)%Z; lia.
    + cbn [failed]. intros H. rewrite H. reflexivity.
    + intros c' e'. rewrite in_app_iff. intros [H|[H|[]]]; auto. inversion H; subst. intros Hz. right. cbn [failed]. destruct (Z.eqb_spec (err_of a) 0); [contradiction|]. apply orb_true_r.
    + exact (g_res _ HI).
  - (* WErr *)
    destruct W1 as (EN & EC & Hz & HF). apply upd_goto; auto; rewrite ?EP; try discriminate.
    + constructor; unfold shape; cbn [at_ ended chunk failed goto]; auto.
      repeat split; auto. apply er_t.
    + unfold rem_. cbn [at_ ended goto]. now rewrite EP.
    + unfold act_. cbn [at_ ended goto]. now rewrite EP.
    + unfold endcall_. cbn [at_ ended goto]. now rewrite EP.
    + unfold del_. cbn [at_ ended goto]. now rewrite EP.
    + intros c. unfold holds_. cbn [at_ ended chunk goto]. now rewrite EP.
    + intros _. unfold adv_. cbn [at_ ended goto]. now rewrite EP.
  - (* WErrW *)
    destruct W1 as (EN & EC & Hz & Hv & HF).
    destruct (rem_pos s i HI Hi) as [HRP HCN]; [unfold rem_; rewrite EP, EN; reflexivity|].
    assert (Hne : (if (v =? 0)%Z then e else v) <> 0%Z) by (destruct (Z.eqb_spec v 0); auto).
    assert (Het : negb ((if (v =? 0)%Z then e else v) =? 0)%Z = true) by (destruct (Z.eqb_spec (if (v =? 0)%Z then e else v) 0); auto).
    apply upd; auto; rewrite ?EP; try discriminate; try lia.
    + rewrite Het. constructor; unfold shape; cbn [at_ ended chunk failed goto]; auto.
    + unfold rem_. cbn [at_ ended goto]. rewrite EP. lia.
    + unfold act_. cbn [at_ ended goto]. rewrite EP. lia.
    + unfold endcall_. cbn [at_ goto]. rewrite EP. lia.
    + unfold del_. cbn [at_ goto]. rewrite EP. lia.
    + intros c Hc. unfold holds_. cbn [at_ chunk ended goto]. rewrite EP. lia.
    + intros c e'. apply (g_ios _ HI).
    + rewrite HCN. easy.
  - (* WComp *)
    assert (HP : forall p, (p = WFin /\ (chunk (wk s i) = None \/ er s = true)) \/ ((p = WLock \/ p = WIo) /\ chunk (wk s i) <> None /\ er s = false) -> Inv (setw s i (goto (wk s i) p))).
    { intros p Hp. apply upd_goto; auto; rewrite ?EP; try discriminate.
      + destruct Hp as [[-> _]|[[->| ->] _]]; discriminate.
      + destruct Hp as [[-> _]|[[->| ->] _]]; auto.
      + constructor; unfold shape; cbn [at_ ended chunk failed goto].
        * destruct Hp as [[-> H]|[[->| ->] [H H']]].
          { destruct W1 as [[A B]|[A B]]; auto. right. destruct H; [contradiction|auto]. }
          { destruct W1 as [[A B]|[A B]]; auto. destruct B; congruence. }
          { destruct W1 as [[A B]|[A B]]; auto. destruct B; congruence. }
        * intros H. destruct (W2 H) as [H'|H']; [|discriminate]. left. exact H'.
        * exact W3.
        * intros [H|H]; [auto|]. destruct Hp as [[-> _]|[[->| ->] _]]; discriminate.
      + unfold rem_. cbn [at_ ended goto]. rewrite EP. destruct Hp as [[-> _]|[[->| ->] _]]; reflexivity.
      + unfold act_. cbn [at_ ended goto]. rewrite EP. destruct Hp as [[-> _]|[[->| ->] _]]; reflexivity.
      + unfold endcall_. cbn [at_ ended goto]. rewrite EP. destruct Hp as [[-> _]|[[->| ->] _]]; reflexivity.
      + unfold del_. cbn [at_ ended goto]. rewrite EP. destruct Hp as [[-> _]|[[->| ->] _]]; reflexivity.
      + intros c. unfold holds_. cbn [at_ ended chunk goto]. rewrite EP. destruct Hp as [[-> H]|[[->| ->] [H H']]]; auto.
        * destruct W1 as [[A B]|[A B]]; [destruct B; congruence|]. rewrite A. reflexivity.
        * destruct W1 as [[A B]|[A B]]; [destruct B; congruence|]. rewrite A. reflexivity.
      + intros _. unfold adv_. cbn [at_ ended goto]. rewrite EP. destruct Hp as [[-> _]|[[->| ->] _]]; reflexivity. }
    apply HP. destruct (chunk (wk s i)); [|left; auto]. destruct (Z.eqb_spec (error s) 0) as [E|E].
    + right. split; [destruct conc; auto|]. split; [discriminate|]. now apply er_f.
    + left. split; auto. right. now apply er_t.
  - (* WFin *)
    assert (HAP : (active s > 0)%Z) by (apply (act_pos s i HI Hi); unfold act_; now rewrite EP).
    apply upd; auto; rewrite ?EP; try discriminate; try lia.
    + cbn. destruct (_ =? _)%Z; discriminate.
    + cbn. destruct (_ =? _)%Z; auto.
    + constructor; unfold shape; cbn [at_ ended chunk failed goto].
      * destruct (_ =? _)%Z; auto.
      * intros H. destruct (W2 H) as [H'|H']; [|discriminate]. left. exact H'.
      * exact W3.
      * intros [H|H]; [apply W4; auto|]. destruct (_ =? _)%Z; discriminate.
    + unfold rem_. cbn [at_ ended goto]. rewrite EP. destruct (_ =? _)%Z; lia.
    + unfold act_. cbn [at_ ended goto]. rewrite EP. destruct (_ =? _)%Z; lia.
    + unfold endcall_. cbn [at_ goto]. rewrite EP. destruct (_ =? _)%Z; lia.
    + unfold del_. cbn [at_ goto]. rewrite EP. assert (E0 : (active s =? 0)%Z = false) by (apply Z.eqb_neq; lia). rewrite E0; clear E0. destruct (_ =? _)%Z; cbn [b1]; lia.
    + intros c Hc. unfold holds_. cbn [at_ chunk ended goto]. rewrite EP. destruct (_ =? _)%Z; lia.
    + intros c e. apply (g_ios _ HI).
    + intros _. unfold adv_. cbn [at_ goto]. rewrite EP. destruct (_ =? _)%Z; lia.
    + exact (g_res _ HI).
  - (* WDel *)
    apply upd; auto; rewrite ?EP; try discriminate; try lia.
    + constructor; unfold shape; cbn [at_ ended chunk failed goto]; auto; try (intros H; destruct (W2 H); auto; discriminate); try (intros [H|H]; [auto|discriminate]).
    + unfold rem_. cbn [at_ ended goto]. rewrite EP. lia.
    + unfold act_. cbn [at_ ended goto]. rewrite EP. lia.
    + unfold endcall_. cbn [at_ goto]. rewrite EP. lia.
    + unfold del_. cbn [at_ goto]. rewrite EP. lia.
    + intros c Hc. unfold holds_. cbn [at_ chunk ended goto]. rewrite EP. lia.
    + intros c e. apply (g_ios _ HI).
    + intros _. unfold adv_. cbn [at_ goto]. rewrite EP. lia.
    + exact (g_res _ HI).
Qed.

(** The starting thread. *)
Lemma main_upd : forall s m rem' act' compl' dels',
  Inv s -> mainok m (wk s) ->
  (rem' = remaining s + Z.of_nat (mrem m) - Z.of_nat (mrem (main s)))%Z ->
  (act' = active s + Z.of_nat (mact m) - Z.of_nat (mact (main s)))%Z ->
  mendcall m + length compl' + b1 (remaining s =? 0)%Z = mendcall (main s) + length (compl s) + b1 (rem' =? 0)%Z ->
  mdel m + dels' + b1 (active s =? 0)%Z = mdel (main s) + dels s + b1 (act' =? 0)%Z ->
  (forall e, In e compl' -> e = error s) ->
  Inv {| remaining := rem'; active := act'; current := current s; error := error s; wk := wk s; main := m; ios := ios s; compl := compl'; dels := dels' |}.
Proof.
  intros s m rem' act' compl' dels' HI HM HR HA HC HD HE. destruct HI. constructor; cbn [remaining active current error wk main ios compl dels]; auto; lia.
Qed.

Theorem mstep_inv : forall s, Inv s -> match mstep count max s with Blocked => True | Ok s' => Inv s' end.
Proof.
  intros s HI. pose proof (g_main _ HI) as HM. unfold mstep. destruct (main s) as [i|i|i| | | | |] eqn:EM; auto.
  - destruct HM as ((A & B & C) & _). destruct (Nat.ltb_spec i n) as [HL|HL].
    + apply main_upd; auto; rewrite ?EM; cbn [mrem mact mendcall mdel mainok]; try lia; auto.
      * pose proof (g_rem _ HI). rewrite EM in H. cbn [mrem] in H. destruct (Z.eqb_spec (remaining s) 0); [lia|]. destruct (Z.eqb_spec (remaining s + 1) 0); [lia|]. reflexivity.
      * exact (g_res _ HI).
    + unfold setm. apply main_upd; auto; rewrite ?EM; cbn [mrem mact mendcall mdel]; try lia.
      * cbn. intros j Hj. apply B. lia.
      * exact (g_res _ HI).
  - destruct HM as ((A & B & C) & HL).
    assert (EN : at_ (wk s i) = WNot) by (apply C; auto).
    set (w' := {| at_ := WAdv true; ended := false; chunk := None; failed := false |}).
    pose proof (fun g => sum_setf g (wk s) n i w' HL) as HS.
    assert (HWN : wk s i = {| at_ := WNot; ended := false; chunk := None; failed := false |}).
    { destruct (g_w _ HI i HL) as [W _ _ _]. unfold shape in W. rewrite EN in W. destruct (wk s i); cbn in *. destruct W as (-> & -> & ->). subst. reflexivity. }
    rewrite HWN in HS. destruct HI as [I1 I2 I3 I4 I5 I6 I7 I8 I9 I10 I11 I12 I13].
    constructor; cbn [remaining active current error wk main ios compl dels]; auto.
    + intros j Hj. unfold setf. destruct (Nat.eqb_spec j i) as [->|]; [|apply I1; auto]. constructor; cbn; try easy. intros [|]; discriminate.
    + rewrite I2, EM. specialize (HS rem_). unfold rem_ in HS at 2 4. cbn [at_ ended w' mrem] in *. lia.
    + rewrite I3, EM. specialize (HS act_). unfold act_ in HS at 2 4. cbn [at_ ended w' mact] in *. lia.
    + specialize (HS endcall_). unfold endcall_ in HS at 2 4. rewrite EM in I4. cbn [at_ ended w' mendcall] in *. lia.
    + specialize (HS del_). unfold del_ in HS at 2 4. rewrite EM in I5, I3. cbn [at_ ended w' mdel mact] in *.
      destruct (Z.eqb_spec (active s) 0); [lia|]. destruct (Z.eqb_spec (active s + 1) 0); [lia|]. cbn [b1] in *. lia.
    + cbn [mainok]. split; auto. split; [intros j Hj; rewrite setf_neq by lia; auto|]. split; [intros j Hj Hj'; rewrite setf_neq by lia; apply C; lia|]. rewrite setf_eq. discriminate.
    + intros c Hc. specialize (I7 c Hc). specialize (HS (holds_ c)). unfold holds_ in HS at 2 4. cbn [at_ ended chunk w'] in HS. lia.
    + intros E. specialize (I10 E). specialize (HS adv_). unfold adv_ in HS at 2 4. cbn [at_ ended chunk w'] in HS. lia.
    + intros E. destruct (I11 E) as (j & Hj & Hf). exists j. split; auto. unfold setf. destruct (Nat.eqb_spec j i) as [->|]; auto. rewrite HWN in Hf. discriminate.
    + intros c e Hin He. destruct (I12 c e Hin He) as (j & Hj & Hf). exists j. split; auto. unfold setf. destruct (Nat.eqb_spec j i) as [->|]; auto. rewrite HWN in Hf. discriminate.
  - destruct HM as (A & B & C & D). destruct (past (at_ (wk s i))) eqn:EPa; auto.
    unfold setm. apply main_upd; auto; rewrite ?EM; cbn [mrem mact mendcall mdel]; try lia.
    + cbn. split; auto. split; [lia|]. split.
      * intros j Hj. destruct (Nat.eq_dec j i) as [->|]; auto. apply B. lia.
      * intros j Hj Hj'. apply C; lia.
    + exact (g_res _ HI).
  - assert (HP : (remaining s > 0)%Z) by (rewrite (g_rem _ HI), EM; cbn [mrem]; lia).
    assert (EP0 : (remaining s =? 0)%Z = false) by (apply Z.eqb_neq; lia).
    apply main_upd; auto; rewrite ?EM, ?EP0; cbn [mrem mact mendcall mdel]; try lia.
    + destruct (remaining s - 1 =? 0)%Z; exact HM.
    + destruct (remaining s - 1 =? 0)%Z; cbn [mrem]; lia.
    + destruct (remaining s - 1 =? 0)%Z; cbn [mact]; lia.
    + destruct (remaining s - 1 =? 0)%Z; cbn [mendcall b1]; lia.
    + destruct (remaining s - 1 =? 0)%Z; cbn [mdel b1]; lia.
    + exact (g_res _ HI).
  - assert (HNC : compl s = []).
    { pose proof (g_compl _ HI) as H. rewrite EM in H. cbn [mendcall] in H. destruct (compl s); auto. cbn [length] in H. destruct (remaining s =? 0)%Z; cbn [b1] in H; lia. }
    apply main_upd; auto; rewrite ?EM; cbn [mrem mact mendcall mdel]; try lia.
    + rewrite app_length. cbn [length]. lia.
    + intros e. rewrite HNC. intros [E|[]]; auto.
  - assert (HP : (active s > 0)%Z) by (rewrite (g_act _ HI), EM; cbn [mact]; lia).
    assert (EP0 : (active s =? 0)%Z = false) by (apply Z.eqb_neq; lia).
    apply main_upd; auto; rewrite ?EM, ?EP0; cbn [mrem mact mendcall mdel]; try lia.
    + destruct (active s - 1 =? 0)%Z; exact HM.
    + destruct (active s - 1 =? 0)%Z; cbn [mrem]; lia.
    + destruct (active s - 1 =? 0)%Z; cbn [mact]; lia.
    + destruct (active s - 1 =? 0)%Z; cbn [mendcall b1]; lia.
    + destruct (active s - 1 =? 0)%Z; cbn [mdel b1]; lia.
    + exact (g_res _ HI).
  - apply main_upd; auto; rewrite ?EM; cbn [mrem mact mendcall mdel]; try lia. exact (g_res _ HI).
Qed.

Definition known (evs : list ev) : Prop := Forall (fun e => match e with Worker i _ => i < n | Main => True end) evs.
Theorem run_inv : forall evs s, Inv s -> known evs -> Inv (run count max conc evs s).
Proof.
  induction evs as [|e evs IH]; intros s HI HF; cbn [run]; auto. apply Forall_cons_iff in HF as [He HF].
  assert (H : match step count max conc e s with Blocked => True | Ok s' => Inv s' end).
  { destruct e as [|i a]; cbn [step]; [apply mstep_inv|apply wstep_inv]; auto. }
  destruct (step count max conc e s); auto.
Qed.

(** ** Consequences of the invariant *)
Lemma compl_done : forall s, Inv s -> compl s <> [] ->
  (forall i, i < n -> ended (wk s i) = true /\ at_ (wk s i) <> WNot) /\ mrem (main s) = 0.
Proof.
  intros s HI HC. pose proof (g_compl _ HI) as H. pose proof (g_rem _ HI) as HR.
  assert (R0 : remaining s = 0%Z). { destruct (Z.eqb_spec (remaining s) 0) as [|E]; auto. destruct (compl s); [congruence|]. cbn [length b1] in H. lia. }
  assert (M0 : mrem (main s) = 0) by lia. split; auto. intros i Hi.
  pose proof (sumn_ge (fun i => rem_ (wk s i)) n i Hi) as HG. cbv beta in HG.
  assert (HN : at_ (wk s i) <> WNot).
  { pose proof (g_main _ HI) as HM. unfold mainok in HM. intros E. destruct (main s); cbn in M0; try lia; specialize (HM i Hi); rewrite E in HM; discriminate. }
  split; auto. assert (E0 : rem_ (wk s i) = 0) by lia. unfold rem_ in E0. destruct (at_ (wk s i)); try contradiction; destruct (ended (wk s i)); auto; discriminate.
Qed.

Lemma ended_at : forall s i, Inv s -> i < n -> ended (wk s i) = true ->
  match at_ (wk s i) with WEndCall _ | WStartChk | WComp | WFin | WDel | WDone => True | _ => False end.
Proof.
  intros s i HI Hi HE. pose proof (w_shape _ _ _ _ (g_w _ HI i Hi)) as H. unfold shape in H.
  destruct (at_ (wk s i)) as [|[]|[]|[]|[]| | | | | | | | | |]; auto; try (destruct H as (? & _); congruence); congruence.
Qed.

(** Nothing but the end of the bookkeeping happens after the completion was called. *)
Lemma after_step : forall s e s', Inv s -> compl s <> [] -> match e with Worker i _ => i < n | Main => True end ->
  step count max conc e s = Ok s' -> ios s' = ios s /\ compl s' = compl s.
Proof.
  intros s e s' HI HC He HS. destruct (compl_done s HI HC) as [HE HM].
  assert (HL : forall i, i < n -> endcall_ (wk s i) = 0).
  { intros i Hi. pose proof (g_compl _ HI) as H. pose proof (sumn_ge (fun i => endcall_ (wk s i)) n i Hi) as HG. cbv beta in HG.
    destruct (compl s); [congruence|]. cbn [length] in H. destruct (remaining s =? 0)%Z; cbn [b1] in H; lia. }
  assert (HL' : mendcall (main s) = 0).
  { pose proof (g_compl _ HI) as H. destruct (compl s); [congruence|]. cbn [length] in H. destruct (remaining s =? 0)%Z; cbn [b1] in H; lia. }
  destruct e as [|i a]; cbn [step] in HS.
  - unfold mstep in HS. destruct (main s); cbn in HM, HL'; try discriminate; inversion HS; subst s'; auto.
  - destruct (HE i He) as [A B]. pose proof (ended_at s i HI He A) as HA. specialize (HL i He). unfold endcall_ in HL. unfold wstep in HS.
    destruct (at_ (wk s i)); try contradiction; try discriminate; inversion HS; subst s'; auto.
Qed.
End P.

(** ** C23, for any number of pages, any schedule and any placement of errors *)

(** The completion is called at most once.  When it is called every chunk that was begun
    is finished, and no I/O is finished later.  Its error is not 0 iff an I/O or a lock
    request failed. *)
Theorem C23_at_most_once : forall count max conc evs, known count max evs -> length (compl (run count max conc evs start)) <= 1.
Proof.
  intros count max conc evs HK. pose proof (run_inv count max conc evs start (start_inv _ _) HK) as HI.
  pose proof (g_compl _ _ _ HI) as H. destruct (remaining _ =? 0)%Z; cbn [b1] in H; lia.
Qed.

Theorem C23_not_early : forall count max conc evs evs', known count max evs -> known count max evs' ->
  let s := run count max conc evs start in compl s <> [] ->
  (forall i, i < nreq count max -> match at_ (wk s i) with WLock | WWait | WIo => False | _ => True end) /\
  ios (run count max conc evs' s) = ios s /\ compl (run count max conc evs' s) = compl s.
Proof.
  intros count max conc evs evs' HK HK' s HC. pose proof (run_inv count max conc evs start (start_inv _ _) HK) as HI. fold s in HI. clearbody s. split.
  - intros i Hi. destruct (compl_done _ _ _ HI HC) as [HE _]. destruct (HE i Hi) as [A _]. pose proof (ended_at _ _ s i HI Hi A) as H. destruct (at_ (wk s i)); auto.
  - revert s HI HC. induction evs' as [|e evs' IH]; intros s HI HC; cbn [run]; auto. apply Forall_cons_iff in HK' as [He HK'].
    pose proof (run_inv count max conc [e] s HI ltac:(constructor; auto; constructor)) as HI'. cbn [run] in HI'.
    destruct (step count max conc e s) as [|s'] eqn:ES; [apply IH; auto|].
    destruct (after_step count max conc s e s' HI HC He ES) as [A B]. rewrite <- A, <- B. apply IH; auto. congruence.
Qed.

Definition is_failure (e : ev) : Prop := match e with Worker _ (Failed z) => z <> 0%Z | _ => False end.

Lemma failed_event : forall count max conc evs s i, failed (wk (run count max conc evs s) i) = true ->
  failed (wk s i) = true \/ Exists is_failure evs.
Proof.
  induction evs as [|e evs IH]; intros s i H; cbn [run] in H; auto.
  assert (HS : forall s', step count max conc e s = Ok s' -> failed (wk s' i) = true -> failed (wk s i) = true \/ is_failure e).
  { intros s' ES HF. destruct e as [|j a]; cbn [step] in ES.
    - left. unfold mstep in ES. destruct (main s); try discriminate; try (inversion ES; subst s'; exact HF).
      + destruct (_ <? _); inversion ES; subst s'; exact HF.
      + inversion ES; subst s'; cbn [wk] in HF. unfold setf in HF. destruct (i =? i0); auto. discriminate.
      + destruct (past _); inversion ES; subst s'; exact HF.
    - unfold wstep in ES. cbn zeta in ES.
      assert (HG : forall w, failed (setf (wk s) j w i) = true -> (failed w = true -> failed (wk s j) = true \/ is_failure (Worker j a)) -> failed (wk s i) = true \/ is_failure (Worker j a)).
      { intros w. unfold setf. destruct (Nat.eqb_spec i j) as [->|]; auto. }
      destruct (at_ (wk s j)) eqn:EP; try discriminate; try (inversion ES; subst s'; cbn [wk setw] in HF; apply (HG _ HF); cbn [failed goto]; auto; fail).
      + destruct (error s =? 0)%Z; inversion ES; subst s'; cbn [wk setw] in HF; apply (HG _ HF); cbn [failed goto]; auto.
      + destruct a as [| |z]; try (inversion ES; subst s'; cbn [wk setw] in HF; apply (HG _ HF); cbn [failed goto]; auto; fail).
        destruct (Z.ltb_spec z 0); inversion ES; subst s'. right. cbn. lia.
      + destruct (chunk (wk s j)); [|discriminate]. inversion ES; subst s'. cbn [wk] in HF. apply (HG _ HF). cbn [failed].
        intros H'. apply orb_true_iff in H' as [H'|H']; auto. right. destruct a as [| |z]; cbn in *; try discriminate. apply negb_true_iff, Z.eqb_neq in H'. auto. }
  destruct (step count max conc e s) as [|s'] eqn:ES.
  - destruct (IH s i H) as [A|A]; auto.
  - destruct (IH s' i H) as [A|A]; [|auto]. destruct (HS s' eq_refl A); auto.
Qed.

Theorem C23_error_reported : forall count max conc evs e, known count max evs ->
  let s := run count max conc evs start in In e (compl s) ->
  ((exists i, i < nreq count max /\ failed (wk s i) = true) <-> e <> 0%Z) /\
  (forall c z, In (c, z) (ios s) -> z <> 0%Z -> e <> 0%Z) /\
  (e <> 0%Z -> Exists is_failure evs).
Proof.
  intros count max conc evs e HK s HC. pose proof (run_inv count max conc evs start (start_inv _ _) HK) as HI. fold s in HI.
  assert (HNE : compl s <> []) by (intros E; rewrite E in HC; easy).
  assert (HIF : (exists i, i < nreq count max /\ failed (wk s i) = true) <-> e <> 0%Z).
  { rewrite (g_res _ _ _ HI e HC). split; [|apply (g_fail1 _ _ _ HI)]. intros (i & Hi & Hf).
    destruct (w_failed _ _ _ _ _ _ (g_w _ _ _ HI i Hi) Hf) as [H|H]; [now apply er_t|].
    destruct (compl_done _ _ _ HI HNE) as [HE _]. destruct (HE i Hi) as [A _]. pose proof (ended_at _ _ s i HI Hi A) as HA. destruct (at_ (wk s i)); try contradiction; discriminate. }
  split; auto. split.
  - intros c z Hin Hz. apply HIF. exact (g_fail2 _ _ _ HI c z Hin Hz).
  - intros He. apply HIF in He as (i & Hi & Hf). destruct (failed_event count max conc evs start i Hf) as [H|H]; auto. discriminate.
Qed.

(** Success means every page of the operation was read or written by exactly one I/O, and
    no I/O failed. *)
Definition covers (page count max : N) (p : N) (io : nat * Z) : bool :=
  (chunk_page page max (fst io) <=? p)%N && (p <? chunk_page page max (fst io) + chunk_count count max (fst io))%N.

Lemma io_count_spec : forall count max, (0 < max)%N -> forall c, (c < io_count count max) <-> (N.of_nat c * max < count)%N.
Proof.
  intros count max Hm c. unfold io_count. split; intros H.
  - assert (N.of_nat c < (count + max - 1) / max)%N by lia. pose proof (N.mul_div_le (count + max - 1) max ltac:(lia)). nia.
  - assert (N.of_nat c < (count + max - 1) / max)%N; [|lia]. apply N.lt_le_trans with (N.of_nat c + 1)%N; [lia|]. apply N.div_le_lower_bound; nia.
Qed.

Lemma covers_iff : forall page count max p c z, (0 < max)%N -> (page + count <= 2^32)%N -> (page <= p < page + count)%N -> c < io_count count max ->
  covers page count max p (c, z) = (c =? N.to_nat ((p - page) / max)).
Proof.
  intros page count max p c z Hm Hpc Hp Hc. unfold covers, chunk_page, chunk_count. cbn [fst]. apply io_count_spec in Hc; auto.
  rewrite N.mod_small by lia.
  pose proof (N.div_mod' (p - page) max) as HD. pose proof (N.mod_lt (p - page) max ltac:(lia)) as HML.
  set (q := ((p - page) / max)%N) in *. set (r := ((p - page) mod max)%N) in *. clearbody q r.
  destruct (Nat.eqb_spec c (N.to_nat q)) as [->|Hne].
  - rewrite N2Nat.id in *. apply andb_true_iff. split; [apply N.leb_le|apply N.ltb_lt]; nia.
  - apply andb_false_iff. assert (N.of_nat c <> q) by lia. destruct (N.lt_ge_cases q (N.of_nat c)).
    + left. apply N.leb_gt. nia.
    + right. apply N.ltb_ge. assert (N.of_nat c + 1 <= q)%N by lia. nia.
Qed.

Theorem C23_success : forall page count max conc evs, known count max evs -> (0 < max)%N -> (page + count <= 2^32)%N ->
  let s := run count max conc evs start in In 0%Z (compl s) ->
  (forall p, (page <= p < page + count)%N -> length (filter (covers page count max p) (ios s)) = 1) /\
  (forall c e, In (c, e) (ios s) -> e = 0%Z).
Proof.
  intros page count max conc evs HK Hm Hpc s HC. pose proof (run_inv count max conc evs start (start_inv _ _) HK) as HI. fold s in HI.
  pose proof (C23_error_reported count max conc evs 0%Z HK HC) as (_ & HZ & _). fold s in HZ.
  assert (HNE : compl s <> []) by (intros E; rewrite E in HC; easy). destruct (compl_done _ _ _ HI HNE) as [HE _]. clearbody s.
  split; [|intros c e Hin; destruct (Z.eq_dec e 0); auto; elim (HZ c e Hin n eq_refl)].
  intros p Hp. pose proof (N.div_mod' (p - page) max) as HD. pose proof (N.mod_lt (p - page) max ltac:(lia)) as HML.
  set (c := N.to_nat ((p - page) / max)).
  assert (Hc : c < io_count count max) by (apply io_count_spec; auto; unfold c; rewrite N2Nat.id; rewrite (N.mul_comm _ max); apply N.le_lt_trans with (p - page)%N; [apply N.mul_div_le; lia|clear - Hp; lia]).
  assert (HL : length (filter (covers page count max p) (ios s)) = cios c (ios s)).
  { pose proof (g_ios _ _ _ HI) as HR. clear HZ. induction (ios s) as [|[c' z] l IH]; auto. cbn [filter cios]. rewrite (covers_iff page count max p c' z) by (eauto using in_eq).
    fold c. destruct (c' =? c); cbn [length]; rewrite IH; auto; intros; eapply HR; right; eauto. }
  rewrite HL. pose proof (g_chunk _ _ _ HI c Hc) as HK'.
  assert (HS : sumn (fun i => holds_ c (wk s i)) (nreq count max) = 0).
  { apply sumn_0. intros i Hi. destruct (HE i Hi) as [A _]. pose proof (w_shape _ _ _ _ _ _ (g_w _ _ _ HI i Hi)) as W. pose proof (ended_at _ _ s i HI Hi A) as HA.
    unfold holds_. unfold shape in W. rewrite A in *. destruct (chunk (wk s i)) as [c'|]; auto. destruct (c' =? c); auto.
    destruct (at_ (wk s i)); auto; try contradiction. destruct W as [[_ W]|[W _]]; discriminate. }
  assert (HN : 0 < nreq count max) by (unfold nreq; lia).
  destruct (HE 0 HN) as [A _]. destruct (w_all _ _ _ _ _ _ (g_w _ _ _ HI 0 HN)) as [W|W]; auto.
  - apply er_t in W. elim W. symmetry. exact (g_res _ _ _ HI 0%Z HC).
  - rewrite HS in HK'. destruct (Z.leb_spec (Z.of_nat c) (current s)); [|lia]. cbn [b1] in HK'. lia.
Qed.

(** The I/O of a worker fits into the worker's buffer, also when the last buffer is
    smaller (comment in metadata_io.c:431-434). *)
Theorem C23_buffer_fits : forall page count max conc evs i c, known count max evs -> (0 < max)%N -> i < nreq count max ->
  let s := run count max conc evs start in chunk (wk s i) = Some c ->
  (chunk_count count max c <= buf_pages count max i)%N /\ (0 < chunk_count count max c)%N /\
  ((page + count <= 2^32)%N -> (page <= chunk_page page max c /\ chunk_page page max c + chunk_count count max c <= page + count)%N).
Proof.
  intros page count max conc evs i c HK Hm Hi s HC. pose proof (run_inv count max conc evs start (start_inv _ _) HK) as HI. fold s in HI. clearbody s.
  destruct (w_chunk _ _ _ _ _ _ (g_w _ _ _ HI i Hi) c HC) as (A & B & D). apply io_count_spec in D; auto. unfold chunk_count, buf_pages, chunk_page. split; [|split].
  - assert (N.of_nat i * max <= N.of_nat c * max)%N by nia. lia.
  - lia.
  - intros Hpc. rewrite N.mod_small by lia. lia.
Qed.

(** a_req is freed at most once, and then nobody will use it any more. *)
Theorem C23_freed_last : forall count max conc evs, known count max evs ->
  let s := run count max conc evs start in dels s <= 1 /\
  (dels s = 1 -> (forall i, i < nreq count max -> at_ (wk s i) = WDone) /\ main s = MDone).
Proof.
  intros count max conc evs HK s. pose proof (run_inv count max conc evs start (start_inv _ _) HK) as HI. fold s in HI. clearbody s.
  pose proof (g_del _ _ _ HI) as HD. pose proof (g_act _ _ _ HI) as HA. split; [destruct (active s =? 0)%Z; cbn [b1] in HD; lia|].
  intros H1. destruct (Z.eqb_spec (active s) 0) as [E|]; cbn [b1] in HD; [|lia].
  assert (HMm : mdel (main s) = 0 /\ mact (main s) = 0) by lia. split.
  - intros i Hi. pose proof (sumn_ge (fun i => act_ (wk s i)) _ i Hi) as G1. pose proof (sumn_ge (fun i => del_ (wk s i)) _ i Hi) as G2. cbv beta in *.
    assert (HP : past (at_ (wk s i)) = true). { pose proof (g_main _ _ _ HI) as HM. destruct HMm as [_ HMm]. destruct (main s); cbn in HMm; try discriminate; apply HM; auto. }
    unfold act_, del_ in *. destruct (at_ (wk s i)); auto; try lia; discriminate.
  - destruct (main s); cbn in HMm; destruct HMm; auto; discriminate.
Qed.

(** When no thread can go on, a_req is freed; and the completion was called unless some
    worker was dropped after an error. *)
Definition stuck (count max : N) (conc : bool) (s : st) : Prop :=
  mstep count max s = Blocked /\ forall i, i < nreq count max -> forall a, wstep count max conc i a s = Blocked.
Theorem C23_called_without_errors : forall count max conc evs, known count max evs ->
  let s := run count max conc evs start in stuck count max conc s ->
  dels s = 1 /\ (~ Exists is_failure evs -> compl s = [0%Z]).
Proof.
  intros count max conc evs HK s HS. pose proof (run_inv count max conc evs start (start_inv _ _) HK) as HI. fold s in HI.
  assert (HD : forall i, i < nreq count max -> at_ (wk s i) = WDone \/ at_ (wk s i) = WNot).
  { intros i Hi. pose proof (proj2 HS i Hi Granted) as HB. pose proof (w_shape _ _ _ _ _ _ (g_w _ _ _ HI i Hi)) as W. unfold shape in W. unfold wstep in HB. cbn zeta in HB.
    destruct (at_ (wk s i)) eqn:EP; auto; try discriminate.
    - destruct (error s =? 0)%Z; discriminate.
    - destruct (chunk (wk s i)); [discriminate|]. destruct W; congruence. }
  assert (HM : main s = MDone).
  { pose proof (proj1 HS) as HB. pose proof (g_main _ _ _ HI) as HG. unfold mstep in HB. cbn zeta in HB. destruct (main s) as [i|i|i| | | | |]; auto; try discriminate.
    - destruct (i <? _); discriminate.
    - destruct HG as (A & B & C & D). destruct (HD i A) as [E|E]; [|contradiction]. rewrite E in HB. discriminate. }
  assert (HA : forall i, i < nreq count max -> at_ (wk s i) = WDone).
  { intros i Hi. destruct (HD i Hi) as [|E]; auto. pose proof (g_main _ _ _ HI) as HG. rewrite HM in HG. specialize (HG i Hi). rewrite E in HG. discriminate. }
  split.
  - pose proof (g_del _ _ _ HI) as H1. pose proof (g_act _ _ _ HI) as H2. rewrite HM in *. cbn [mact mdel] in *.
    rewrite sumn_0 in H1, H2 by (intros i Hi; unfold del_, act_; rewrite (HA i Hi); reflexivity). rewrite H2 in H1. cbn in H1. lia.
  - intros HNF. assert (E0 : error s = 0%Z).
    { destruct (Z.eq_dec (error s) 0) as [|Hz]; auto. destruct (g_fail1 _ _ _ HI Hz) as (i & Hi & Hf). destruct (failed_event count max conc evs start i Hf) as [H|H]; [discriminate|contradiction]. }
    pose proof (g_compl _ _ _ HI) as H1. pose proof (g_rem _ _ _ HI) as H2. rewrite HM in *. cbn [mrem mendcall] in *.
    rewrite (sumn_0 (fun i => endcall_ (wk s i))) in H1 by (intros i Hi; unfold endcall_; rewrite (HA i Hi); reflexivity).
    rewrite sumn_0 in H2.
    + rewrite H2 in H1. cbn in H1. pose proof (g_res _ _ _ HI) as HR. destruct (compl s) as [|e [|e' l]]; cbn in H1; try lia. rewrite (HR e (or_introl eq_refl)), E0. reflexivity.
    + intros i Hi. pose proof (w_shape _ _ _ _ _ _ (g_w _ _ _ HI i Hi)) as W. unfold shape in W. unfold rem_. rewrite (HA i Hi) in *. destruct W as [W|W]; [now rewrite W|]. apply er_t in W. contradiction.
Qed.

(** Steps come to an end. *)
Definition wleft (w : worker) : nat :=
  match at_ w with
  | WNot => 10 | WAdv _ => 9 | WInc _ => 8 | WEnd _ => 7 | WEndCall _ => 6
  | WStartChk | WComp => if ended w then 3 else 15
  | WLock => 14 | WWait => 13 | WIo => 12 | WErr _ => 11 | WErrW _ _ => 10 | WFin => 2 | WDel => 1 | WDone => 0 end.
Definition mleft (n : nat) (m : mainpc) : nat :=
  match m with MStart i => 6 + 3 * (n - i) | MAct i => 5 + 3 * (n - i) | MWait i => 4 + 3 * (n - i) | MEnd => 4 | MEndCall => 3 | MFin => 2 | MDel => 1 | MDone => 0 end.
Definition left_ (count max : N) (s : st) : nat :=
  sumn (fun i => wleft (wk s i)) (nreq count max) + mleft (nreq count max) (main s) + 8 * Z.to_nat (Z.of_nat (io_count count max) - 1 - current s).
Theorem C23_steps_end : forall count max conc evs e s', known count max (evs ++ [e]) ->
  let s := run count max conc evs start in step count max conc e s = Ok s' -> left_ count max s' < left_ count max s.
Proof.
  intros count max conc evs e s' HK s HS. apply Forall_app in HK as [HK HKe]. apply Forall_inv in HKe.
  pose proof (run_inv count max conc evs start (start_inv _ _) HK) as HI. fold s in HI. clearbody s. clear HK.
  destruct e as [|i a]; cbn [step] in HS.
  - pose proof (g_main _ _ _ HI) as HM. unfold mstep in HS. cbn zeta in HS. unfold left_. destruct (main s) as [i|i|i| | | | |] eqn:EM; try discriminate.
    + destruct (Nat.ltb_spec i (nreq count max)); inversion HS; subst s'; cbn [wk main current setm mleft]; lia.
    + destruct HM as ((A & B & C) & D). inversion HS; subst s'; cbn [wk main current mleft].
      match goal with |- context [setf (wk s) i ?w] => pose proof (sum_setf wleft (wk s) (nreq count max) i w D) as H; set (w0 := w) in * end.
      assert (EN : wleft (wk s i) = 10) by (unfold wleft; rewrite C; auto). rewrite EN in H. change (wleft w0) with 9 in H. lia.
    + destruct HM as (A & _). destruct (past _); inversion HS; subst s'; cbn [wk main current setm mleft]. lia.
    + inversion HS; subst s'; cbn [wk main current]. destruct (_ =? _)%Z; cbn [mleft]; lia.
    + inversion HS; subst s'; cbn [wk main current mleft]; lia.
    + inversion HS; subst s'; cbn [wk main current]. destruct (_ =? _)%Z; cbn [mleft]; lia.
    + inversion HS; subst s'; cbn [wk main current mleft]; lia.
  - assert (HG : forall w cur', wk s' = setf (wk s) i w -> main s' = main s -> current s' = cur' ->
      wleft w + 8 * Z.to_nat (Z.of_nat (io_count count max) - 1 - cur') < wleft (wk s i) + 8 * Z.to_nat (Z.of_nat (io_count count max) - 1 - current s) ->
      left_ count max s' < left_ count max s).
    { intros w cur' E1 E2 E3 HL. unfold left_. rewrite E1, E2, E3. pose proof (sum_setf wleft (wk s) (nreq count max) i w HKe) as H. lia. }
    pose proof (g_w _ _ _ HI i HKe) as [W _ _ _]. unfold shape in W. pose proof (g_cur _ _ _ HI) as HC.
    unfold wstep in HS. cbn zeta in HS. destruct (at_ (wk s i)) as [|f|f|f|f| | | | |e|v e| | | |] eqn:EP; try discriminate;
      try (inversion HS; subst s'; eapply HG; try reflexivity; unfold wleft; rewrite EP; cbn [at_ goto current setw]; lia).
    + destruct (error s =? 0)%Z; inversion HS; subst s'; eapply HG; try reflexivity; unfold wleft; rewrite EP; cbn [at_ goto current setw]; lia.
    + inversion HS; subst s'; eapply HG; try reflexivity; unfold wleft; rewrite EP; cbn [at_ goto current ended setw].
      destruct (Z.leb_spec (Z.of_nat (io_count count max)) (current s + 1)); [lia|]. destruct f, (ended (wk s i)); lia.
    + inversion HS; subst s'; eapply HG; try reflexivity; unfold wleft; rewrite EP; cbn [at_ goto current ended setw].
      destruct (_ =? _)%Z, f; lia.
    + assert (EN : ended (wk s i) = true) by (destruct f; tauto). inversion HS; subst s'; eapply HG; try reflexivity; unfold wleft; rewrite EP; cbn [at_ goto current ended setw]. rewrite EN. destruct f; lia.
    + inversion HS; subst s'; eapply HG; try reflexivity; unfold wleft; rewrite EP; cbn [at_ goto current ended setw].
      destruct W as [[W1 W2]|[W1 W2]]; rewrite W1; destruct (chunk (wk s i)); try congruence; destruct conc; lia.
    + destruct a as [| |z]; try (inversion HS; subst s'; eapply HG; try reflexivity; unfold wleft; rewrite EP; cbn [at_ goto current setw]; lia).
      destruct (z <? 0)%Z; inversion HS; subst s'; eapply HG; try reflexivity; unfold wleft; rewrite EP; cbn [at_ goto current setw]; lia.
    + destruct (chunk (wk s i)); inversion HS; subst s'; eapply HG; try reflexivity; unfold wleft; rewrite EP; cbn [at_ goto current setw]. destruct (_ =? _)%Z; lia.
    + inversion HS; subst s'; eapply HG; try reflexivity; unfold wleft; rewrite EP; cbn [at_ goto current ended setw].
      destruct W as [[W1 W2]|[W1 W2]]; rewrite W1; destruct (chunk (wk s i)), (Z.eqb_spec (error s) 0) as [E|E]; try congruence; destruct conc; try lia;
        destruct W2 as [W2|W2]; try congruence; apply er_t in W2; contradiction.
    + inversion HS; subst s'; eapply HG; try reflexivity; unfold wleft; rewrite EP; cbn [at_ goto current setw]. destruct (_ =? _)%Z; lia.
Qed.

(** ** Refuted: with an error the completion may never be called.  Three chunks: worker 0
    finished the first and took the second, worker 1 took the third and fails; worker 0,
    which was about to go on, is then dropped by metadata_io_req_complete without
    metadata_io_req_end.  All threads are over, a_req is freed, nobody was told. *)
Definition nevents (k : nat) (e : ev) : list ev := repeat e k.
Definition lost_run : list ev :=
  [Main; Main; Worker 0 Granted; Worker 0 Granted; Worker 0 Granted; Main]   (* worker 0: chunk 0 submitted *)
  ++ [Worker 0 Granted; Worker 0 Granted; Worker 0 Granted]                  (* done; chunk 1 taken *)
  ++ [Main; Main; Worker 1 Granted; Worker 1 Granted; Worker 1 Granted; Main] (* worker 1: chunk 2 submitted *)
  ++ [Worker 1 (Failed (-5)); Worker 1 Granted; Worker 1 Granted]            (* it fails; the error is stored *)
  ++ nevents 3 (Worker 0 Granted) ++ nevents 6 (Worker 1 Granted)
  ++ [Main; Main] ++ nevents 6 (Worker 2 Granted) ++ nevents 8 Main.
Ltac each3 := intros [|[|[|i]]] Hi; [| | |exfalso; vm_compute in Hi; lia].
Theorem C23_completion_lost_refuted : exists count max evs, known count max evs /\
  let s := run count max false evs start in
  stuck count max false s /\ compl s = [] /\ dels s = 1 /\ ios s = [(0, 0%Z); (2, (-5)%Z)].
Proof.
  exists 3%N, 1%N, lost_run. split; [repeat constructor|]. cbn zeta. split; [|vm_compute; auto].
  split; [vm_compute; reflexivity|]. each3; intros a; vm_compute; reflexivity.
Qed.

(** The same with a failed page lock (no memory for a waiter): one chunk. *)
Definition lock_run : list ev :=
  [Main; Main; Worker 0 Granted; Worker 0 Granted; Worker 0 Granted; Worker 0 (Failed (-1000004))] ++ nevents 3 (Worker 0 Granted) ++ nevents 8 Main.
Theorem C23_lock_error_refuted : exists count max evs, known count max evs /\
  let s := run count max true evs start in
  stuck count max true s /\ compl s = [] /\ dels s = 1 /\ ios s = [].
Proof.
  exists 1%N, 1%N, lock_run. split; [repeat constructor|]. cbn zeta. split; [|vm_compute; auto].
  split; [vm_compute; reflexivity|]. intros [|i] Hi; [|exfalso; vm_compute in Hi; lia]. intros a; vm_compute; reflexivity.
Qed.

(** raw_ram_zero does not look at the result: without memory its completion is never
    called, while that of a load or a flush is.  An empty operation never completes. *)
Theorem C23_zero_no_memory_refuted : forall count, (0 < count)%N ->
  zero_compl (io_asynch count true) = [] /\ load_compl (io_asynch count true) = [(-1000004)%Z].
Proof. intros count H. unfold io_asynch. destruct (N.eqb_spec count 0); [lia|]. split; reflexivity. Qed.
Theorem C23_empty_refuted : forall nomem, io_asynch 0 nomem = Returned 0 /\ load_compl (io_asynch 0 nomem) = [].
Proof. intros. split; reflexivity. Qed.

(** ** Case: three chunks, two of two pages and one of one page; worker 0 does two. *)
Definition ok_run : list ev :=
  [Main; Main; Worker 0 Granted; Worker 0 Granted; Worker 0 Granted; Worker 0 Queued; Worker 0 Granted; Worker 0 Granted; Main]
  ++ [Worker 0 Granted; Worker 0 Granted; Worker 0 Granted]
  ++ [Main; Main] ++ nevents 12 (Worker 1 Granted) ++ [Main] ++ [Main; Main] ++ nevents 8 (Worker 2 Granted) ++ nevents 8 Main
  ++ nevents 12 (Worker 0 Granted).
Example C23_case : known 5 2 ok_run /\
  let s := run 5 2 true ok_run start in
  compl s = [0%Z] /\ dels s = 1 /\ length (ios s) = 3 /\ ~ Exists is_failure ok_run /\ stuck 5 2 true s.
Proof.
  split; [repeat constructor|]. cbn zeta. split; [vm_compute; reflexivity|]. split; [vm_compute; reflexivity|]. split; [vm_compute; reflexivity|]. split.
  - intros H. apply Exists_exists in H as (e & Hin & Hf). vm_compute in Hin. repeat destruct Hin as [<-|Hin]; try contradiction.
  - split; [vm_compute; reflexivity|]. each3; intros a; vm_compute; reflexivity.
Qed.
Example C23_case_error : let s := run 5 2 false ([Main; Main] ++ nevents 3 (Worker 0 Granted) ++ [Worker 0 (Failed (-5))] ++ nevents 8 (Worker 0 Granted) ++
  [Main; Main; Main] ++ nevents 8 (Worker 1 Granted) ++ [Main; Main; Main] ++ nevents 8 (Worker 2 Granted) ++ nevents 6 Main) start in
  compl s = [(-5)%Z] /\ dels s = 1.
Proof. vm_compute. auto. Qed.

Print Assumptions C23_at_most_once.
Print Assumptions C23_not_early.
Print Assumptions C23_error_reported.
Print Assumptions C23_success.
Print Assumptions C23_buffer_fits.
Print Assumptions C23_freed_last.
Print Assumptions C23_called_without_errors.
Print Assumptions C23_steps_end.
Print Assumptions C23_completion_lost_refuted.
Print Assumptions C23_lock_error_refuted.

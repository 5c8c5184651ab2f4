(** Cache line lock: every run is finite, and without allocation failures no set
    of requests can block each other. *)
From Coq Require Import ZArith List Bool Arith Lia Permutation Sorted.
From Verif Require Import AlockModel AlockProofs.
Import ListNotations.
Open Scope nat_scope.

(** ** Every step brings its request closer to the end *)
Definition M (n : nat) (p : phase) : nat :=
  match p with
  | Fast i => (n - i) + 5 * n + 11
  | Roll i => i + 4 * n + 9
  | SlowStart => 4 * n + 8
  | Slow i => 2 * (n - i) + n + 7
  | SlowB i => 2 * (n - i) + n + 6
  | Err i => i + 1
  | Wait => n + 4
  | Held => n + 3
  | Unlock i => (n - i) + 2
  | Done | Refused | Failed => 0
  end.

Fixpoint sumn (f : nat -> nat) (k : nat) : nat := match k with 0 => 0 | S k => f k + sumn f k end.

Lemma sumn_le : forall f g k, (forall i, i < k -> f i <= g i) -> sumn f k <= sumn g k.
Proof. induction k; cbn; auto. intros H. pose proof (H k). assert (sumn f k <= sumn g k) by (apply IHk; intros; apply H; lia). lia. Qed.
Lemma sumn_lt : forall f g k i, (forall i, i < k -> f i <= g i) -> i < k -> f i < g i -> sumn f k < sumn g k.
Proof.
  induction k; intros i H Hi Hf; [lia|]. cbn. pose proof (H k ltac:(lia)). destruct (Nat.eq_dec i k) as [->|].
  - assert (sumn f k <= sumn g k) by (apply sumn_le; intros; apply H; lia). lia.
  - assert (sumn f k < sumn g k) by (apply (IHk i); auto; try lia; intros; apply H; lia). lia.
Qed.

Definition slowish (p : phase) : bool := match p with Slow _ | SlowB _ | Wait => true | _ => false end.
Definition inmutex (p : phase) : bool := match p with Slow _ | SlowB _ | Err _ => true | _ => false end.

Section Live.
Variables (nb : nat) (wants : nat -> want) (nr : nat).
Notation len := (len wants).
Notation line := (line wants).
Notation bucket := (bucket nb).
Notation Inv := (Inv nb wants nr).
Notation wl := (wl nb).
Notation step := (step nb wants).
Hypothesis bound : (Z.of_nat (2 * length (slots wants nr) + 1) < WR)%Z.

Definition measure (s : st) : nat := sumn (fun r => M (len r) (ph s r)) nr.

Lemma entry_slow_ph : forall s r i i' a l, (rem s r - 1 <> 0)%Z ->
  forall r', ph (entry_locked (goto (w_access s (setf (access s) l a)) r (Slow i')) r i) r' = setf (ph s) r (Slow i') r'.
Proof.
  intros s r i i' a l H r'. destruct (entry_locked_misc (goto (w_access s (setf (access s) l a)) r (Slow i')) r i) as (_ & _ & _ & _ & _ & E & _).
  rewrite E. cbn [rem goto w_ph w_access]. destruct (Z.eqb_spec (rem s r - 1) 0); [contradiction|]. reflexivity.
Qed.

(** The phases after a step. *)
Lemma step_ph : forall s r oom s', Inv s -> r < nr -> step r oom s = Ok s' ->
  (forall r', r' < nr -> r' <> r -> ph s' r' = ph s r' \/ (ph s r' = Wait /\ ph s' r' = Held)) /\
  M (len r) (ph s' r) < M (len r) (ph s r).
Proof.
  intros s r oom s' HI Hr. pose proof (v_r nb wants nr s HI r Hr) as HR. unfold RInv in HR. unfold AlockModel.step.
  assert (HU : forall i p s1, bits s r i = true -> p <> Wait ->
     RI p (fun j => if j =? i then false else bits s r j) (inq nb wants (queue s) r) (rem s r) (resumed s r) (len r) ->
     unlock_idx nb wants s r i p = Some s1 ->
     (forall r', r' < nr -> r' <> r -> ph s1 r' = ph s r' \/ (ph s r' = Wait /\ ph s1 r' = Held)) /\ ph s1 r = p).
  { intros i p s1 HB Hp HRI E.
    destruct (unlock_idx_inv nb wants nr bound s r i p HI Hr HB HRI) as (s2 & g & U1 & U2 & U3 & U4 & U5 & U6 & U7).
    rewrite U1 in E. inversion E; subst s2. split.
    - intros r' Hr' Hne. specialize (U7 r' Hr'). rewrite setf_neq in U7 by auto. exact U7.
    - specialize (U7 r Hr). rewrite setf_eq in U7. destruct U7 as [U7|[U7 _]]; [exact U7|contradiction]. }
  assert (HS : forall q, forall r', r' < nr -> r' <> r -> setf (ph s) r q r' = ph s r' \/ (ph s r' = Wait /\ setf (ph s) r q r' = Held)).
  { intros q r' _ Hne. left. now apply setf_neq. }
  destruct (ph s r) as [i|i| |i|i|i| | |i| | |] eqn:EP; cbn [RI] in HR; try discriminate.
  - destruct HR as (H1 & H2 & H3 & H4 & H5). destruct (Nat.eqb_spec i (len r)).
    { intros E; inversion E; subst s'. cbn [ph goto w_ph w_resumed]. split; [apply HS|]. rewrite setf_eq. cbn [M]. lia. }
    rewrite (H2 i), Nat.ltb_irrefl. destruct (try_idle _ _); intros E; inversion E; subst s'; cbn [ph goto w_ph w_bits w_access];
      (split; [apply HS|rewrite setf_eq; cbn [M]; lia]).
  - destruct HR as (H1 & H2 & H3 & H4 & H5). destruct i as [|i].
    { intros E; inversion E; subst s'. cbn [ph goto w_ph]. split; [apply HS|]. rewrite setf_eq. destruct (tryonly (wants r)); cbn [M]; lia. }
    destruct (bits s r i) eqn:EB.
    + destruct (unlock_idx nb wants s r i (Roll i)) as [s1|] eqn:EU; intros E; inversion E; subst s1.
      destruct (HU i (Roll i) s' EB) as [HU1 HU2]; auto; [discriminate| |split; [exact HU1|rewrite HU2; cbn [M]; lia]].
      cbn [RI]. splits; auto; try lia. intros j. destruct (Nat.eqb_spec j i); [discriminate|]. intros H. apply H2 in H. lia.
    + intros E; inversion E; subst s'. cbn [ph goto w_ph]. split; [apply HS|]. rewrite setf_eq. cbn [M]; lia.
  - destruct (mutex s); [discriminate|]. destruct (negb _); [discriminate|]. intros E; inversion E; subst s'.
    cbn [ph goto w_ph w_rem w_mutex]. split; [apply HS|]. rewrite setf_eq. cbn [M]; lia.
  - destruct HR as (H1 & H2 & H3 & H4 & H5). destruct (Nat.eqb_spec i (len r)).
    { destruct (_ =? 0)%Z; intros E; inversion E; subst s'; cbn [ph goto w_ph w_rem w_mutex w_resumed]; (split; [apply HS|]; rewrite setf_eq; cbn [M]; lia). }
    rewrite (H2 i), Nat.ltb_irrefl, andb_false_r. destruct (try_idle _ _) as [a|]; intros E; inversion E; subst s'; cbn [ph goto w_ph].
    + split; [intros r' Hr' Hne|]; rewrite entry_slow_ph by lia; [now apply HS|rewrite setf_eq; cbn [M]; lia].
    + split; [apply HS|]. rewrite setf_eq. cbn [M]; lia.
  - destruct HR as (H1 & H2 & H3 & H4 & H5). destruct oom.
    { intros E; inversion E; subst s'; cbn [ph goto w_ph]. split; [apply HS|]. rewrite setf_eq. cbn [M]; lia. }
    match goal with |- match ?g with _ => _ end = _ -> _ => destruct g as [a|] end; intros E; inversion E; subst s'; cbn [ph goto w_ph w_queue].
    + split; [intros r' Hr' Hne|]; rewrite entry_slow_ph by lia; [now apply HS|rewrite setf_eq; cbn [M]; lia].
    + split; [apply HS|]. rewrite setf_eq. cbn [M]; lia.
  - destruct HR as (H1 & H2). destruct i as [|i].
    { intros E; inversion E; subst s'. cbn [ph goto w_ph w_rem w_mutex]. split; [apply HS|]. rewrite setf_eq. cbn [M]; lia. }
    destruct (bits s r i) eqn:EB.
    + destruct (unlock_idx nb wants s r i (Err i)) as [s1|] eqn:EU; intros E; inversion E; subst s1.
      destruct (HU i (Err i) s' EB) as [HU1 HU2]; auto; [discriminate| |split; [exact HU1|rewrite HU2; cbn [M]; lia]].
      cbn [RI]. auto.
    + intros E; inversion E; subst s'. cbn [ph goto w_ph w_queue]. split; [apply HS|]. rewrite setf_eq. cbn [M]; lia.
  - intros E; inversion E; subst s'. cbn [ph goto w_ph]. split; [apply HS|]. rewrite setf_eq. cbn [M]; lia.
  - destruct HR as (H1 & H2 & H3 & H4 & H5). destruct (Nat.eqb_spec i (len r)).
    { intros E; inversion E; subst s'. cbn [ph goto w_ph]. split; [apply HS|]. rewrite setf_eq. cbn [M]; lia. }
    assert (EB : bits s r i = true). { rewrite H2. apply andb_true_iff. split; [apply Nat.leb_refl|apply Nat.ltb_lt; lia]. }
    rewrite EB. destruct (unlock_idx nb wants s r i (Unlock (S i))) as [s1|] eqn:EU; intros E; inversion E; subst s1.
    destruct (HU i (Unlock (S i)) s' EB) as [HU1 HU2]; auto; [discriminate| |split; [exact HU1|rewrite HU2; cbn [M]; lia]].
    cbn [RI]. splits; auto; try lia. intros j. destruct (Nat.eqb_spec j i).
    + subst. destruct (Nat.leb_spec (S i) i); auto. lia.
    + rewrite H2. f_equal. destruct (Nat.leb_spec i j), (Nat.leb_spec (S i) j); auto; lia.
Qed.

Theorem measure_dec : forall s r oom s', Inv s -> r < nr -> step r oom s = Ok s' -> measure s' < measure s.
Proof.
  intros s r oom s' HI Hr E. destruct (step_ph s r oom s' HI Hr E) as [H1 H2].
  apply (sumn_lt _ _ nr r); auto. intros i Hi. destruct (Nat.eq_dec i r) as [->|Hne]; [lia|].
  destruct (H1 i Hi Hne) as [->|[-> ->]]; cbn [M]; lia.
Qed.

(** ** Order of arrival *)
Hypothesis distinct : forall r, NoDup (lines (wants r)).

Lemma line_inj : forall r i j, i < len r -> j < len r -> line r i = line r j -> i = j.
Proof. intros r i j Hi Hj H. apply (proj1 (NoDup_nth (lines (wants r)) 0) (distinct r) i j Hi Hj H). Qed.

Record Ord (s : st) (ts : nat -> nat) (c : nat) : Prop := {
  o_ts : forall r, r < nr -> slowish (ph s r) = true -> ts r < c;
  o_mx : forall r, r < nr -> mutex s = Some r <-> inmutex (ph s r) = true;
  o_mx2 : forall r, mutex s = Some r -> r < nr;
  o_young : forall r r', r < nr -> r' < nr -> inmutex (ph s r) = true -> r' <> r -> slowish (ph s r') = true -> ts r' < ts r;
  o_hold : forall l w r i, r < nr -> In w (wl s l) -> slowish (ph s r) = true -> bits s r i = true -> line r i = l -> ts r < ts (w_req w);
  o_sort : forall l, StronglySorted (fun a b => ts (w_req a) < ts (w_req b)) (wl s l);
  o_noerr : forall r, r < nr -> match ph s r with Err _ | Failed => False | _ => True end
}.

Lemma waiter_slowish : forall s ts c, Inv s -> Ord s ts c -> forall b w, In w (queue s b) -> slowish (ph s (w_req w)) = true.
Proof.
  intros s ts c HI HO b w Hw. destruct (v_q nb wants nr s HI b w Hw) as ((H1 & H2 & H3 & _) & H4 & H5).
  pose proof (v_r nb wants nr s HI _ H1) as HR. unfold RInv in HR. pose proof (o_noerr s ts c HO _ H1) as HE.
  assert (HQ : inq nb wants (queue s) (w_req w) (w_idx w) = true).
  { unfold inq. rewrite <- H3, H4. apply ing_true. apply (in_map key _ _ Hw). }
  destruct (ph s (w_req w)); auto; try easy; cbn [RI] in HR.
  - destruct HR as (_ & _ & HN & _). rewrite HN in HQ. discriminate.
  - destruct HR as (_ & _ & HN & _). rewrite HN in HQ. discriminate.
  - destruct HR as (_ & HN & _). rewrite HN in HQ. discriminate.
  - destruct HR as (_ & HN & _). rewrite HN in HQ. discriminate.
  - destruct HR as (_ & _ & HN & _). rewrite HN in HQ. discriminate.
  - destruct HR as (_ & HN & _). rewrite HN in HQ. discriminate.
  - destruct HR as (_ & HN & _). rewrite HN in HQ. discriminate.
Qed.

Lemma wl_in : forall s l w, In w (wl s l) <-> In w (queue s (bucket l)) /\ w_line w = l.
Proof. intros. unfold AlockProofs.wl. rewrite filter_In. unfold onl. rewrite Nat.eqb_eq. tauto. Qed.

Lemma sorted_app : forall (A : Type) (R : A -> A -> Prop) (a b : list A), StronglySorted R (a ++ b) ->
  StronglySorted R b /\ (forall x y, In x a -> In y b -> R x y).
Proof.
  induction a as [|x a IH]; cbn; intros b H; [split; [auto|easy]|].
  apply StronglySorted_inv in H as [H1 H2]. destruct (IH b H1) as [I1 I2]. split; auto.
  intros y z [->|Hy] Hz; auto. rewrite Forall_forall in H2. apply H2. apply in_app_iff. auto.
Qed.
Lemma sorted_snoc : forall (A : Type) (R : A -> A -> Prop) (a : list A) x, StronglySorted R a -> (forall y, In y a -> R y x) ->
  StronglySorted R (a ++ [x]).
Proof.
  induction a as [|y a IH]; cbn; intros x H HX; [repeat constructor|].
  apply StronglySorted_inv in H as [H1 H2]. constructor.
  - apply IH; auto.
  - rewrite Forall_forall in *. intros z Hz. apply in_app_iff in Hz as [Hz|[<-|[]]]; auto.
Qed.

Lemma mutex_other : forall s ts c, Ord s ts c -> forall r r', r < nr -> r' < nr -> r <> r' -> inmutex (ph s r) = true -> inmutex (ph s r') = false.
Proof.
  intros s ts c HO r r' Hr Hr' Hne H. destruct (inmutex (ph s r')) eqn:E; auto.
  apply (o_mx s ts c HO r Hr) in H. apply (o_mx s ts c HO r' Hr') in E. congruence.
Qed.
(** Steps that leave the lists alone. *)
Lemma ord_nowl : forall s s' ts c r, Ord s ts c -> r < nr -> queue s' = queue s ->
  (forall r', r' <> r -> ph s' r' = ph s r') ->
  (slowish (ph s' r) = true -> slowish (ph s r) = true) ->
  (inmutex (ph s' r) = true -> inmutex (ph s r) = true) ->
  (forall r' i, slowish (ph s' r') = true -> bits s' r' i = true -> bits s r' i = true \/ wl s (line r' i) = []) ->
  mutex s' = (if inmutex (ph s r) then if inmutex (ph s' r) then Some r else None else mutex s) ->
  match ph s' r with Err _ | Failed => False | _ => True end ->
  Ord s' ts c.
Proof.
  intros s s' ts c r HO Hr EQ EP HS HM HB EM HE. destruct HO as [O1 O2 O2' O3 O4 O5 O6].
  assert (HSl : forall r', slowish (ph s' r') = true -> slowish (ph s r') = true).
  { intros r'. destruct (Nat.eq_dec r' r) as [->|Hne]; auto. now rewrite EP. }
  assert (HMl : forall r', inmutex (ph s' r') = true -> inmutex (ph s r') = true).
  { intros r'. destruct (Nat.eq_dec r' r) as [->|Hne]; auto. now rewrite EP. }
  assert (HW : forall l, wl s' l = wl s l) by (intros; unfold AlockProofs.wl; now rewrite EQ).
  constructor.
  - auto.
  - intros r' Hr'. rewrite EM. destruct (inmutex (ph s r)) eqn:E1.
    + apply (O2 r Hr) in E1. destruct (Nat.eq_dec r' r) as [->|Hne].
      * destruct (inmutex (ph s' r)); split; congruence.
      * rewrite (EP r' Hne). rewrite <- (O2 r' Hr'). destruct (inmutex (ph s' r)); split; congruence.
    + destruct (Nat.eq_dec r' r) as [->|Hne].
      * rewrite (O2 r Hr). rewrite E1. split; [discriminate|]. intros H. apply HM in H. congruence.
      * rewrite (EP r' Hne). apply O2; auto.
  - intros r'. rewrite EM. destruct (inmutex (ph s r)); [destruct (inmutex (ph s' r))|]; try congruence. apply O2'.
  - intros r1 r2 Hr1 Hr2 Hm Hne Hs. apply O3; auto.
  - intros l w r1 i1 Hr1 Hw Hs Hb Hl. rewrite HW in Hw. destruct (HB r1 i1 Hs Hb) as [H|H].
    + apply (O4 l w r1 i1); auto.
    + rewrite Hl in H. rewrite H in Hw. easy.
  - intros l. rewrite HW. apply O5.
  - intros r' Hr'. destruct (Nat.eq_dec r' r) as [->|Hne]; auto. rewrite EP; auto. apply O6; auto.
Qed.

(** A release with its grants. *)
Lemma ord_unlock : forall s s' ts c r i p g, Inv s -> Ord s ts c -> r < nr ->
  slowish (ph s r) = false -> inmutex (ph s r) = false -> slowish p = false -> inmutex p = false -> p <> Failed ->
  wl s (line r i) = g ++ wl s' (line r i) -> (forall l', l' <> line r i -> wl s' l' = wl s l') ->
  (forall r' i', bits s' r' i' = setb (bits s) r i false r' i' || ing g r' i') -> mutex s' = mutex s ->
  (forall r', r' < nr -> ph s' r' = setf (ph s) r p r' \/ (setf (ph s) r p r' = Wait /\ ph s' r' = Held)) ->
  Ord s' ts c.
Proof.
  intros s s' ts c r i p g HI HO Hr HS HM HpS HpM HpF EW EO EB EM EP. pose proof HO as HO'. destruct HO as [O1 O2 O2' O3 O4 O5 O6].
  assert (HSl : forall r', r' < nr -> slowish (ph s' r') = true -> slowish (ph s r') = true /\ r' <> r).
  { intros r' Hr' H. destruct (EP r' Hr') as [E|[E1 E2]]; [|rewrite E2 in H; discriminate]. rewrite E in H. unfold setf in H.
    destruct (Nat.eqb_spec r' r); [congruence|]. auto. }
  assert (HMl : forall r', r' < nr -> inmutex (ph s' r') = inmutex (ph s r')).
  { intros r' Hr'. destruct (EP r' Hr') as [E|[E1 E2]].
    - rewrite E. unfold setf. destruct (Nat.eqb_spec r' r); [subst; congruence|auto].
    - rewrite E2. unfold setf in E1. destruct (Nat.eqb_spec r' r); [exfalso; rewrite E1 in HpS; discriminate|]. rewrite E1. reflexivity. }
  destruct (sorted_app _ (fun a b => ts (w_req a) < ts (w_req b)) g (wl s' (line r i))) as [SA SB].
  { rewrite <- EW. apply O5. }
  assert (Hsub : forall l w, In w (wl s' l) -> In w (wl s l)).
  { intros l w Hw. destruct (Nat.eq_dec l (line r i)) as [->|Hne]; [rewrite EW; apply in_app_iff; auto|]. now rewrite <- EO. }
  constructor.
  - intros r' Hr' H. apply O1; auto. now apply HSl.
  - intros r' Hr'. rewrite EM, HMl; auto.
  - intros r'. rewrite EM. apply O2'.
  - intros r1 r2 H1 H1' H2 H3 H4. rewrite HMl in H2 by auto. apply O3; auto. now apply HSl.
  - intros l w r1 i1 Hr1 Hw Hs Hb Hl. apply (HSl r1 Hr1) in Hs as [Hs Hne]. rewrite EB in Hb. apply orb_true_iff in Hb as [Hb|Hb].
    + rewrite setb_neq in Hb by congruence. apply (O4 l w r1 i1); auto.
    + apply ing_true in Hb. apply in_map_iff in Hb as (x & Ex & Hx). unfold key in Ex. inversion Ex; subst r1 i1.
      assert (Hxl : In x (wl s (line r i))) by (rewrite EW; apply in_app_iff; auto).
      apply wl_in in Hxl as [Hq Hlx]. destruct (v_q nb wants nr s HI _ _ Hq) as ((_ & _ & G & _) & _).
      assert (l = line r i) by congruence. subst l. rewrite H in Hw. apply SB; auto.
  - intros l. destruct (Nat.eq_dec l (line r i)) as [->|Hne]; auto. rewrite EO; auto.
  - intros r' Hr'. destruct (EP r' Hr') as [E|[E1 E2]]; [|rewrite E2; exact I]. rewrite E. unfold setf.
    destruct (Nat.eqb_spec r' r); [|apply O6; auto]. destruct p; auto; discriminate.
Qed.

(** The request takes the mutex. *)
Lemma ord_start : forall s s' ts c r, Inv s -> Ord s ts c -> r < nr -> ph s r = SlowStart -> mutex s = None ->
  queue s' = queue s -> bits s' = bits s -> mutex s' = Some r -> ph s' r = Slow 0 -> (forall r', r' <> r -> ph s' r' = ph s r') ->
  Ord s' (setf ts r c) (S c).
Proof.
  intros s s' ts c r HI HO Hr HP HM EQ EB EM EP EP'. pose proof HO as HO'. destruct HO as [O1 O2 O2' O3 O4 O5 O6].
  assert (HW : forall l, wl s' l = wl s l) by (intros; unfold AlockProofs.wl; now rewrite EQ).
  assert (HQ : forall l w, In w (wl s l) -> w_req w <> r).
  { intros l w Hw E. apply wl_in in Hw as [Hw _]. pose proof (waiter_slowish s ts c HI HO' _ _ Hw) as H. rewrite E, HP in H. discriminate. }
  assert (Hno : forall r', r' < nr -> inmutex (ph s r') = false).
  { intros r' Hr'. destruct (inmutex (ph s r')) eqn:E; auto. apply (O2 r' Hr') in E. congruence. }
  pose proof (v_r nb wants nr s HI r Hr) as HR. unfold RInv in HR. rewrite HP in HR. cbn [RI] in HR. destruct HR as (HB & _).
  constructor.
  - intros r' Hr'. unfold setf. destruct (Nat.eqb_spec r' r); [lia|]. rewrite EP' by auto. intros H. apply O1 in H; auto.
  - intros r' Hr'. rewrite EM. destruct (Nat.eq_dec r' r) as [->|Hne]; [rewrite EP; cbn; tauto|].
    rewrite EP' by auto. rewrite Hno by auto. split; congruence.
  - intros r' E. congruence.
  - intros r1 r2 Hr1 Hr2 Hm Hne Hs. destruct (Nat.eq_dec r1 r) as [->|Hn1].
    + rewrite setf_eq, setf_neq by auto. rewrite EP' in Hs by auto. apply O1; auto.
    + rewrite EP' in Hm by auto. rewrite Hno in Hm by auto. discriminate.
  - intros l w r1 i1 Hr1 Hw Hs Hb Hl. rewrite HW in Hw. rewrite EB in Hb. destruct (Nat.eq_dec r1 r) as [->|Hn1].
    + rewrite HB in Hb. discriminate.
    + rewrite EP' in Hs by auto. rewrite !setf_neq; auto; [apply (O4 l w r1 i1); auto|exact (HQ l w Hw)].
  - intros l. rewrite HW. specialize (O5 l). assert (HQl : forall w, In w (wl s l) -> w_req w <> r) by (intros; eapply HQ; eauto).
    revert O5 HQl. generalize (wl s l). clear. intros L. induction L as [|x L IH]; intros HS HQ; constructor.
    + apply StronglySorted_inv in HS as [HS _]. apply IH; auto. intros; apply HQ; now right.
    + apply StronglySorted_inv in HS as [_ HF]. rewrite Forall_forall in *. intros y Hy.
      rewrite !setf_neq; [apply HF; auto| |]; apply HQ; [now right|now left].
  - intros r' Hr'. destruct (Nat.eq_dec r' r) as [->|Hne]; [rewrite EP; exact I|]. rewrite EP' by auto. apply O6; auto.
Qed.

(** The request queues a waiter. *)
Lemma ord_enq : forall s s' ts c r i, Inv s -> Ord s ts c -> r < nr -> ph s r = SlowB i ->
  queue s' = setf (queue s) (bucket (line r i)) (queue s (bucket (line r i)) ++
    [{| w_line := line r i; w_req := r; w_idx := i; w_wr := wr (wants r) |}]) ->
  bits s' = bits s -> mutex s' = mutex s -> ph s' r = Slow (S i) -> (forall r', r' <> r -> ph s' r' = ph s r') ->
  Ord s' ts c.
Proof.
  intros s s' ts c r i HI HO Hr HP EQ EB EM EP EP'. pose proof HO as HO'. destruct HO as [O1 O2 O2' O3 O4 O5 O6].
  pose proof (v_r nb wants nr s HI r Hr) as HR. unfold RInv in HR. rewrite HP in HR. cbn [RI] in HR. destruct HR as (HL & HB & HQ & _).
  set (x := {| w_line := line r i; w_req := r; w_idx := i; w_wr := wr (wants r) |}) in *.
  assert (HW1 : wl s' (line r i) = wl s (line r i) ++ [x]).
  { unfold AlockProofs.wl. rewrite EQ, setf_eq, filter_app. cbn. unfold onl at 2. cbn. now rewrite Nat.eqb_refl. }
  assert (HW2 : forall l, l <> line r i -> wl s' l = wl s l).
  { intros l Hl. unfold AlockProofs.wl. rewrite EQ. unfold setf. destruct (Nat.eqb_spec (bucket l) (bucket (line r i))) as [E|]; auto.
    rewrite E, filter_app. cbn. unfold onl at 2. cbn. destruct (Nat.eqb_spec (line r i) l); [congruence|]. apply app_nil_r. }
  assert (HS : forall r', slowish (ph s' r') = slowish (ph s r')).
  { intros r'. destruct (Nat.eq_dec r' r) as [->|Hne]; [rewrite EP, HP; auto|now rewrite EP']. }
  assert (HMx : forall r', inmutex (ph s' r') = inmutex (ph s r')).
  { intros r'. destruct (Nat.eq_dec r' r) as [->|Hne]; [rewrite EP, HP; auto|now rewrite EP']. }
  assert (Hm : inmutex (ph s r) = true) by (rewrite HP; reflexivity).
  assert (Hself : forall w, In w (wl s (line r i)) -> w_req w <> r).
  { intros w Hw E. apply wl_in in Hw as [Hw Hlw]. destruct (v_q nb wants nr s HI _ _ Hw) as ((G1 & G2 & G3 & _) & _).
    rewrite E in G2, G3. assert (w_idx w = i) by (apply (line_inj r); auto; congruence).
    assert (inq nb wants (queue s) r i = true).
    { unfold inq. apply ing_true. apply in_map_iff. exists w. split; auto. unfold key. congruence. }
    apply HQ in H0. lia. }
  constructor.
  - intros r' Hr'. rewrite HS. now apply O1.
  - intros r' Hr'. rewrite EM, HMx. auto.
  - intros r'. rewrite EM. auto.
  - intros r1 r2 H1 H1' H2 H3 H4. rewrite HMx in H2. rewrite HS in H4. auto.
  - intros l w r1 i1 Hr1 Hw Hs Hb Hl. rewrite HS in Hs. rewrite EB in Hb. destruct (Nat.eq_dec l (line r i)) as [El|Hne].
    + rewrite El, HW1 in Hw. apply in_app_iff in Hw as [Hw|[<-|[]]].
      * apply (O4 l w r1 i1); auto. now rewrite El.
      * cbn [w_req x]. apply O3; auto. intros ->. assert (i1 = i).
        { apply (line_inj r); auto; [apply (v_out nb wants nr s HI r i1 Hb)|congruence]. }
        subst i1. rewrite HB, Nat.ltb_irrefl, andb_false_r in Hb. discriminate.
    + rewrite HW2 in Hw by auto. apply (O4 l w r1 i1); auto.
  - intros l. destruct (Nat.eq_dec l (line r i)) as [->|Hne]; [|rewrite HW2; auto].
    rewrite HW1. apply sorted_snoc; auto. intros w Hw. cbn [w_req x]. apply O3; auto; apply wl_in in Hw as [Hw _]; [apply (v_q nb wants nr s HI _ _ Hw)|exact (waiter_slowish s ts c HI HO' _ _ Hw)].
  - intros r' Hr'. destruct (Nat.eq_dec r' r) as [->|Hne]; [rewrite EP; exact I|]. rewrite EP' by auto. apply O6; auto.
Qed.
Lemma step_ord : forall s r s' ts c, Inv s -> Ord s ts c -> r < nr -> step r false s = Ok s' -> exists ts' c', Ord s' ts' c'.
Proof.
  intros s r s' ts c HI HO Hr. pose proof (v_r nb wants nr s HI r Hr) as HR. unfold RInv in HR.
  pose proof (o_noerr s ts c HO r Hr) as HNE. unfold AlockModel.step.
  assert (HU : forall i p s1, bits s r i = true -> slowish p = false -> inmutex p = false -> p <> Failed ->
     slowish (ph s r) = false -> inmutex (ph s r) = false ->
     RI p (fun j => if j =? i then false else bits s r j) (inq nb wants (queue s) r) (rem s r) (resumed s r) (len r) ->
     unlock_idx nb wants s r i p = Some s1 -> Ord s1 ts c).
  { intros i p s1 HB Hp1 Hp2 Hp3 Hq1 Hq2 HRI E.
    destruct (unlock_idx_inv nb wants nr bound s r i p HI Hr HB HRI) as (s2 & g & U1 & U2 & U3 & U4 & U5 & U6 & U7).
    rewrite U1 in E. inversion E; subst s2. exact (ord_unlock s s1 ts c r i p g HI HO Hr Hq1 Hq2 Hp1 Hp2 Hp3 U3 U4 U5 U6 U7). }
  destruct (ph s r) as [i|i| |i|i|i| | |i| | |] eqn:EP; cbn [RI] in HR; try discriminate; try easy.
  - destruct HR as (H1 & H2 & H3 & H4 & H5). destruct (Nat.eqb_spec i (len r)).
    { intros E; inversion E; subst s'. exists ts, c. apply (ord_nowl s _ ts c r HO Hr); cbn; auto; rewrite ?setf_eq, ?EP; auto.
      intros r' Hne. now apply setf_neq. }
    rewrite (H2 i), Nat.ltb_irrefl. destruct (try_idle _ _) as [a|] eqn:ET; intros E; inversion E; subst s'; exists ts, c;
      (apply (ord_nowl s _ ts c r HO Hr); cbn; auto; rewrite ?setf_eq, ?EP; auto; try (intros r' Hne; now apply setf_neq)).
    intros r' i' HS HB. unfold setf in HS. destruct (Nat.eqb_spec r' r); [discriminate|]. left. now rewrite setb_neq in HB by congruence.
  - destruct HR as (H1 & H2 & H3 & H4 & H5). destruct i as [|i].
    { intros E; inversion E; subst s'. exists ts, c. apply (ord_nowl s _ ts c r HO Hr); cbn; auto; rewrite ?setf_eq, ?EP; auto.
      - intros r' Hne. now apply setf_neq.
      - destruct (tryonly (wants r)); discriminate.
      - destruct (tryonly (wants r)); discriminate.
      - destruct (tryonly (wants r)); exact I. }
    destruct (bits s r i) eqn:EB.
    + destruct (unlock_idx nb wants s r i (Roll i)) as [s1|] eqn:EU; intros E; inversion E; subst s1.
      exists ts, c. apply (HU i (Roll i)); auto; [discriminate|].
      cbn [RI]. splits; auto; try lia. intros j. destruct (Nat.eqb_spec j i); [discriminate|]. intros H. apply H2 in H. lia.
    + intros E; inversion E; subst s'. exists ts, c. apply (ord_nowl s _ ts c r HO Hr); cbn; auto; rewrite ?setf_eq, ?EP; auto.
      intros r' Hne. now apply setf_neq.
  - destruct (mutex s) eqn:EM; [discriminate|]. destruct (negb _); [discriminate|]. intros E; inversion E; subst s'.
    exists (setf ts r c), (S c). apply (ord_start s _ ts c r HI HO Hr EP EM); cbn; auto; [apply setf_eq|]. intros r' Hne. now apply setf_neq.
  - destruct HR as (H1 & H2 & H3 & H4 & H5).
    destruct (Nat.eqb_spec i (len r)).
    { destruct (_ =? 0)%Z; intros E; inversion E; subst s'; exists ts, c; (apply (ord_nowl s _ ts c r HO Hr); cbn; auto; rewrite ?setf_eq, ?EP; auto; try discriminate; intros r0 Hne; now apply setf_neq). }
    rewrite (H2 i), Nat.ltb_irrefl, andb_false_r.
    assert (EMr : mutex s = Some r) by (apply (o_mx s ts c HO r Hr); rewrite EP; reflexivity).
    destruct (try_idle _ _) as [a|] eqn:ET; intros E; inversion E; subst s'; exists ts, c.
    + destruct (entry_slow s r i (S i) a (line r i) (or_introl EP)) as (E1 & E2 & E3 & E4 & E5 & E6 & E7 & E8); [lia|].
      apply (ord_nowl s _ ts c r HO Hr); auto; rewrite ?E6, ?EP; auto.
      * intros r' Hne. now apply E5.
      * intros r' i' HS HB. rewrite E3 in HB. unfold setb in HB. destruct ((r' =? r) && (i' =? i)) eqn:EK; [|auto].
        apply andb_true_iff in EK as [K1 K2]. apply Nat.eqb_eq in K1, K2. subst. right. apply (idle_nowait nb wants nr s _ HI), (try_idle_zero _ _ _ ET).
      * cbn [inmutex]. now rewrite E4.
    + apply (ord_nowl s _ ts c r HO Hr); cbn; auto; rewrite ?setf_eq, ?EP; auto. intros r' Hne. now apply setf_neq.
  - destruct HR as (H1 & H2 & H3 & H4 & H5).
    assert (EMr : mutex s = Some r) by (apply (o_mx s ts c HO r Hr); rewrite EP; reflexivity).
    match goal with |- match ?g with _ => _ end = _ -> _ => destruct g as [a|] eqn:EG end; intros E; inversion E; subst s'; exists ts, c.
    + destruct (entry_slow s r i (S i) a (line r i) (or_intror EP)) as (E1 & E2 & E3 & E4 & E5 & E6 & E7 & E8); [lia|].
      apply (ord_nowl s _ ts c r HO Hr); auto; rewrite ?E6, ?EP; auto.
      * intros r' Hne. now apply E5.
      * intros r' i' HS HB. rewrite E3 in HB. unfold setb in HB. destruct ((r' =? r) && (i' =? i)) eqn:EK; [|auto].
        apply andb_true_iff in EK as [K1 K2]. apply Nat.eqb_eq in K1, K2. subst. right.
        destruct (wr (wants r)); [apply (idle_nowait nb wants nr s _ HI), (try_idle_zero _ _ _ EG)|].
        destruct (existsb _ _) eqn:EX; [discriminate|].
        destruct (wl s (line r i)) as [|w q] eqn:EF; auto. exfalso.
        assert (Hw : In w (wl s (line r i))) by (rewrite EF; now left). apply wl_in in Hw as [Hw Hl].
        assert (existsb (fun x => w_line x =? line r i) (queue s (bucket (line r i))) = true); [|congruence].
        apply existsb_exists. exists w. split; auto. now apply Nat.eqb_eq.
      * cbn [inmutex]. now rewrite E4.
    + apply (ord_enq s _ ts c r i HI HO Hr EP); cbn; auto; [apply setf_eq|]. intros r' Hne. now apply setf_neq.
  - intros E; inversion E; subst s'. exists ts, c. apply (ord_nowl s _ ts c r HO Hr); cbn; auto; rewrite ?setf_eq, ?EP; auto.
    intros r' Hne. now apply setf_neq.
  - destruct HR as (H1 & H2 & H3 & H4 & H5). destruct (Nat.eqb_spec i (len r)).
    { intros E; inversion E; subst s'. exists ts, c. apply (ord_nowl s _ ts c r HO Hr); cbn; auto; rewrite ?setf_eq, ?EP; auto.
      intros r' Hne. now apply setf_neq. }
    assert (EB : bits s r i = true). { rewrite H2. apply andb_true_iff. split; [apply Nat.leb_refl|apply Nat.ltb_lt; lia]. }
    rewrite EB. destruct (unlock_idx nb wants s r i (Unlock (S i))) as [s1|] eqn:EU; intros E; inversion E; subst s1.
    exists ts, c. apply (HU i (Unlock (S i))); auto; [discriminate|].
    cbn [RI]. splits; auto; try lia. intros j. destruct (Nat.eqb_spec j i).
    + subst. destruct (Nat.leb_spec (S i) i); auto. lia.
    + rewrite H2. f_equal. destruct (Nat.leb_spec i j), (Nat.leb_spec (S i) j); auto; lia.
Qed.

Lemma ord_init : Ord init (fun _ => 0) 0.
Proof.
  clear bound distinct.
  constructor; unfold AlockProofs.wl; cbn.
  - discriminate.
  - intros r _. split; discriminate.
  - discriminate.
  - discriminate.
  - intros l w r i _ [].
  - constructor.
  - auto.
Qed.

Lemma run_ord : forall evs s ts c s', Inv s -> Ord s ts c -> Forall (fun e => fst e < nr /\ snd e = false) evs ->
  run nb wants evs s = Ok s' -> Inv s' /\ exists ts' c', Ord s' ts' c'.
Proof.
  induction evs as [|[r oom] evs IH]; intros s ts c s' HI HO HF; cbn [run].
  - intros E; inversion E; subst. eauto.
  - apply Forall_cons_iff in HF as [[Hr Ho] HF]. cbn in Hr, Ho. subst oom.
    pose proof (step_inv nb wants nr bound s r false HI Hr) as HS.
    destruct (step r false s) as [| |s1] eqn:ES; [apply (IH s ts c s' HI HO HF)|easy|].
    destruct HS as [HI1 _]. destruct (step_ord s r s1 ts c HI HO Hr ES) as (ts1 & c1 & HO1). apply (IH s1 ts1 c1 s' HI1 HO1 HF).
Qed.

Definition finished (p : phase) : Prop := p = Done \/ p = Refused.

Theorem stuck_finished : forall s ts c, Inv s -> Ord s ts c -> (forall r, r < nr -> step r false s = Blocked) ->
  forall r, r < nr -> finished (ph s r).
Proof.
  intros s ts c HI HO HB.
  assert (Hmx : mutex s = None).
  { destruct (mutex s) as [r|] eqn:E; auto. exfalso. pose proof (o_mx2 s ts c HO r E) as Hr. apply (o_mx s ts c HO r Hr) in E.
    specialize (HB r Hr). pose proof (step_inv nb wants nr bound s r false HI Hr) as HS. revert HB HS. unfold AlockModel.step. pose proof (o_noerr s ts c HO r Hr) as HN.
    destruct (ph s r) as [i|i| |i|i|i| | |i| | |]; try discriminate; try easy.
    - destruct (i =? len r); [destruct (_ =? 0)%Z; discriminate|]. destruct (bits s r i); [discriminate|]. destruct (try_idle _ _); discriminate.
    - match goal with |- match ?g with _ => _ end = _ -> _ => destruct g end; discriminate. }
  assert (HP : forall r, r < nr -> finished (ph s r) \/ ph s r = Wait).
  { intros r Hr. specialize (HB r Hr). pose proof (step_inv nb wants nr bound s r false HI Hr) as HS. revert HB HS. unfold AlockModel.step, finished. pose proof (o_noerr s ts c HO r Hr) as HN.
    destruct (ph s r) as [i|i| |i|i|i| | |i| | |]; auto; try easy.
    - destruct (i =? len r); [discriminate|]. destruct (bits s r i); [discriminate|]. destruct (try_idle _ _); discriminate.
    - destruct i; [discriminate|]. destruct (bits s r i); [|discriminate]. destruct (unlock_idx _ _ _ _ _ _); discriminate.
    - rewrite Hmx. destruct (negb _); discriminate.
    - destruct (i =? len r); [destruct (_ =? 0)%Z; discriminate|]. destruct (bits s r i); [discriminate|]. destruct (try_idle _ _); discriminate.
    - match goal with |- match ?g with _ => _ end = _ -> _ => destruct g end; discriminate.
    - destruct (i =? len r); [discriminate|]. destruct (bits s r i); [|discriminate]. destruct (unlock_idx _ _ _ _ _ _); discriminate. }
  (* a waiting request waits for an older waiting one *)
  assert (HD : forall r, r < nr -> ph s r = Wait -> exists r', r' < nr /\ ph s r' = Wait /\ ts r' < ts r).
  { intros r Hr HW. pose proof (v_r nb wants nr s HI r Hr) as HR. unfold RInv in HR. rewrite HW in HR. cbn [RI] in HR.
    destruct HR as (H1 & H2 & H3 & H4).
    assert (HJ : exists j, inq nb wants (queue s) r j = true).
    { destruct (filter (inq nb wants (queue s) r) (seq 0 (len r))) as [|j q] eqn:EF.
      - unfold cntb in H2. rewrite EF in H2. cbn in H2. lia.
      - exists j. assert (In j (filter (inq nb wants (queue s) r) (seq 0 (len r)))) by (rewrite EF; now left). now apply filter_In in H. }
    destruct HJ as [j HJ]. unfold inq in HJ. apply ing_true in HJ. apply in_map_iff in HJ as (w & Ew & Hw). unfold key in Ew. inversion Ew as [[E1 E2]].
    destruct (v_q nb wants nr s HI _ _ Hw) as ((_ & _ & G & _) & _). rewrite E1, E2 in G.
    pose proof (v_ne nb wants nr s HI _ _ Hw) as Hnz. rewrite G in Hnz. pose proof (v_acc nb wants nr s HI (line r j)) as HA.
    assert (HH : exists r' i', In (r', i') (slots wants nr) /\ bits s r' i' = true /\ line r' i' = line r j).
    { assert (HX : forall b, holdc wants nr b (bits s) (line r j) <> 0 -> exists r' i', In (r', i') (slots wants nr) /\ bits s r' i' = true /\ line r' i' = line r j).
      { intros b Hb. unfold holdc in Hb. destruct (filter _ _) as [|[r' i'] q] eqn:EF in Hb; [easy|]. exists r', i'.
        assert (HF : In (r', i') (filter (holdf wants b (bits s) (line r j)) (slots wants nr))) by (rewrite EF; now left).
        apply filter_In in HF as [HF1 HF2]. unfold holdf in HF2. cbn in HF2. apply andb_true_iff in HF2 as [HF2 _]. apply andb_true_iff in HF2 as [HF2 HF3].
        apply Nat.eqb_eq in HF3. auto. }
      destruct HA as [(_ & HA & _)|(_ & HA)]; [apply (HX true); lia|apply (HX false); lia]. }
    destruct HH as (r' & i' & Hs & Hb & Hl). apply in_slots in Hs as [Hr' Hi'].
    assert (HW' : ph s r' = Wait).
    { destruct (HP r' Hr') as [[HF|HF]|HF]; auto; pose proof (v_r nb wants nr s HI r' Hr') as HR'; unfold RInv in HR'; rewrite HF in HR'; cbn [RI] in HR';
        destruct HR' as (HN & _); rewrite HN in Hb; discriminate. }
    exists r'. splits; auto. apply (o_hold s ts c HO (line r j) w r' i' Hr'); auto.
    - apply wl_in. split; auto.
    - now rewrite HW'. }
  assert (HN : forall k r, r < nr -> ph s r = Wait -> ts r < k -> False).
  { induction k; intros r Hr HW Hk; [lia|]. destruct (HD r Hr HW) as (r' & Hr' & HW' & Ht). apply (IHk r' Hr' HW'). lia. }
  intros r Hr. destruct (HP r Hr) as [H|H]; auto. exfalso. apply (HN (S (ts r)) r Hr H). lia.
Qed.
End Live.

(** C31 and C55: the ALRU cleaning policy.  Model: AlruModel.v. *)
From Coq Require Import List Bool Arith NArith Lia Sorted Permutation.
From Verif Require Import AlruModel AlruProofs.
Import ListNotations.
Open Scope nat_scope.

(** ** Specification of C55 *)

(** Abstract state: per partition the dirty lines, most recently written first; partition,
    mapped and dirty of every line; time of the last write. *)
Record spec := { F : nat -> list nat; sp : nat -> nat; sm : nat -> bool; sd : nat -> bool; ts : nat -> nat }.

Definition rem (x : nat) (l : list nat) : list nat := filter (fun y => negb (y =? x)) l.
Definition setf {A} (f : nat -> A) (x : nat) (v : A) : nat -> A := fun y => if y =? x then v else f y.
Definition spec_step (n P : nat) (e : event) (A : spec) : spec :=
  match e with
  | Map x p => if (x <? n) && (p <? P) && negb (sm A x)
               then {| F := F A; sp := setf (sp A) x p; sm := setf (sm A) x true; sd := sd A; ts := ts A |} else A
  | Unmap x => if (x <? n) && sm A x && negb (sd A x)
               then {| F := F A; sp := sp A; sm := setf (sm A) x false; sd := sd A; ts := ts A |} else A
  | Write x now => if (x <? n) && sm A x
               then {| F := setf (F A) (sp A x) (x :: rem x (F A (sp A x))); sp := sp A; sm := sm A; sd := setf (sd A) x true; ts := setf (ts A) x now |} else A
  | Clean x => if (x <? n) && sm A x && sd A x
               then {| F := setf (F A) (sp A x) (rem x (F A (sp A x))); sp := sp A; sm := sm A; sd := setf (sd A) x false; ts := ts A |} else A
  | Repart x q now => if (x <? n) && (q <? P) && sm A x && negb (sp A x =? q)
               then {| F := if sd A x then setf (setf (F A) (sp A x) (rem x (F A (sp A x)))) q (x :: F A q) else F A;
                       sp := setf (sp A) x q; sm := sm A; sd := sd A; ts := if sd A x then setf (ts A) x now else ts A |} else A
  end.
Definition spec_run (n P : nat) (es : list event) (A : spec) : spec := fold_left (fun A e => spec_step n P e A) es A.

(** After populating: the dirty lines, highest index first. *)
Definition spec_start (n P : nat) (now : nat -> nat) (pt : nat -> nat) (mp dt : nat -> bool) : spec :=
  {| F := fun p => if p <? P then rev (filter (fun x => mp x && dt x && (pt x =? p)) (seq 0 n)) else [];
     sp := pt; sm := mp; sd := dt; ts := now |}.

(** Walking the pointers *)
Fixpoint follow (f : nat -> option nat) (fuel : nat) (x : option nat) : list nat :=
  match fuel, x with
  | S fuel, Some x => x :: follow f fuel (f x)
  | _, _ => []
  end.

(** The concrete state shows the abstract one. *)
Record Shows (n P : nat) (a : alru) (A : spec) : Prop := {
  sh_forward : forall p, p < P -> follow (fun x => nxt (meta a x)) (S n) (head a p) = F A p;
  sh_backward : forall p, p < P -> follow (fun x => prv (meta a x)) (S n) (tail a p) = rev (F A p);
  sh_size : forall p, p < P -> size a p = length (F A p);
  sh_stamp : forall p x, p < P -> In x (F A p) -> stamp (meta a x) = ts A x;
  sh_exact : forall p x, p < P -> (In x (F A p) <-> x < n /\ mapped a x = true /\ dirty a x = true /\ part a x = p);
  sh_nodup : forall p, p < P -> NoDup (F A p) }.

(** Metadata the policy starts from: dirty lines are mapped, mapped lines belong to a partition. *)
Definition good_start (n P : nat) (a : alru) : Prop :=
  (forall x, x < n -> mapped a x = true -> part a x < P) /\ (forall x, dirty a x = true -> x < n /\ mapped a x = true).

(** ** Invariant *)
Record inv (n P : nat) (a : alru) (A : spec) : Prop := {
  v_rep : forall p, p < P -> Rep (meta a) (head a p) (tail a p) (F A p);
  v_size : forall p, p < P -> size a p = length (F A p);
  v_in : forall p x, In x (F A p) <-> p < P /\ x < n /\ mapped a x = true /\ dirty a x = true /\ part a x = p;
  v_part : forall x, x < n -> mapped a x = true -> part a x < P;
  v_dirty : forall x, dirty a x = true -> x < n /\ mapped a x = true;
  v_free : forall x, x < n -> mapped a x = true -> dirty a x = false -> prv (meta a x) = None /\ nxt (meta a x) = None;
  v_stamp : forall p x, In x (F A p) -> stamp (meta a x) = ts A x;
  v_sp : forall x, part a x = sp A x; v_sm : forall x, mapped a x = sm A x; v_sd : forall x, dirty a x = sd A x }.

Lemma rem_notin c l : ~ In c l -> rem c l = l.
Proof.
  induction l as [|b l IH]; intros H; [reflexivity|]. cbn [rem filter]. destruct (Nat.eqb_spec b c) as [->|].
  - exfalso. apply H. left; reflexivity.
  - cbn [negb]. f_equal. apply IH. intros I. apply H. right; assumption.
Qed.
Lemma rem_split c l1 l2 : NoDup (l1 ++ c :: l2) -> rem c (l1 ++ c :: l2) = l1 ++ l2.
Proof.
  intros ND. apply nodup_split in ND. destruct ND as (N1 & N2 & _). unfold rem. rewrite filter_app. cbn [filter].
  rewrite Nat.eqb_refl. cbn [negb]. fold (rem c l1). fold (rem c l2). rewrite !rem_notin by assumption. reflexivity.
Qed.
Lemma rem_in c l a : In a (rem c l) <-> In a l /\ a <> c.
Proof. unfold rem. rewrite filter_In, negb_true_iff, Nat.eqb_neq. tauto. Qed.
Lemma rem_rem c l : rem c (rem c l) = rem c l.
Proof. apply rem_notin. rewrite rem_in. tauto. Qed.
Lemma setf_same {A} (f : nat -> A) x v : setf f x v x = v.
Proof. unfold setf. rewrite Nat.eqb_refl. reflexivity. Qed.
Lemma setf_other {A} (f : nat -> A) x v y : y <> x -> setf f x v y = f y.
Proof. intros H. unfold setf. destruct (Nat.eqb_spec y x); congruence. Qed.

(** Removing: whether the line is on the list or not *)
Lemma remove_any n P a A p x : inv n P a A -> p < P -> In x (F A p) ->
  exists a', remove_alru_list p x a = Some a' /\ effect p (fun y => In y (F A p)) (rem x (F A p)) a a' /\
    (forall y, stamp (meta a' y) = stamp (meta a y)) /\ prv (meta a' x) = None /\ nxt (meta a' x) = None.
Proof.
  intros V Hp I. pose proof (v_rep _ _ _ _ V p Hp) as R. pose proof (v_size _ _ _ _ V p Hp) as Sz.
  destruct (in_split _ _ I) as (L1 & L2 & E). rewrite E in *. rewrite rem_split by apply R.
  apply remove_rep; assumption.
Qed.

Lemma on_list_test n P a A x : inv n P a A -> x < n -> mapped a x = true ->
  (negb (is_none (nxt (meta a x))) || negb (is_none (prv (meta a x))) || (is (head a (part a x)) x && is (tail a (part a x)) x)) = dirty a x.
Proof.
  intros V Hx M. set (p := part a x). assert (Hp : p < P) by (apply (v_part _ _ _ _ V); assumption).
  pose proof (v_rep _ _ _ _ V p Hp) as (ND & SG & H & T).
  destruct (dirty a x) eqn:D.
  - assert (I : In x (F A p)) by (apply (v_in _ _ _ _ V); auto).
    destruct (in_split _ _ I) as (L1 & L2 & E). rewrite E in *. apply seg_app in SG. destruct SG as (_ & SG). cbn [seg] in SG. destruct SG as (Pv & Nx & _).
    rewrite Pv, Nx, H, T. destruct L1 as [|b L1]; destruct L2 as [|c L2]; cbn [app hd_or last_or is_none negb orb is]; try reflexivity.
    + rewrite Nat.eqb_refl. reflexivity.
    + destruct (last_or_cons None b L1) as (z & Ez & _). cbn [last_or] in Ez. rewrite Ez. reflexivity.
  - destruct (v_free _ _ _ _ V x Hx M D) as (-> & ->). cbn [is_none negb orb].
    apply andb_false_iff. left. destruct (is (head a p) x) eqn:Eh; [|reflexivity]. apply is_iff in Eh. exfalso.
    rewrite H in Eh. destruct (F A p) as [|y l] eqn:EF; [discriminate|]. cbn [hd_or] in Eh. injection Eh as ->.
    assert (I : In x (F A p)) by (rewrite EF; left; reflexivity). apply (v_in _ _ _ _ V) in I. destruct I as (_ & _ & _ & D' & _). congruence.
Qed.

(** set_hot_cache_line: the line goes to the head of its list *)
Lemma set_hot_effect n P a A x now : inv n P a A -> x < n -> mapped a x = true ->
  exists a', set_hot_cache_line x now a = Some a' /\
    effect (part a x) (fun y => y = x \/ In y (F A (part a x))) (x :: rem x (F A (part a x))) a a' /\
    (forall y, stamp (meta a' y) = if y =? x then now else stamp (meta a y)).
Proof.
  intros V Hx M. unfold set_hot_cache_line. rewrite (on_list_test n P a A x V Hx M).
  set (p := part a x). assert (Hp : p < P) by (apply (v_part _ _ _ _ V); assumption).
  destruct (dirty a x) eqn:D.
  - assert (I : In x (F A p)) by (apply (v_in _ _ _ _ V); auto).
    destruct (remove_any n P a A p x V Hp I) as (a1 & E1 & (R1 & S1 & U1 & O1 & X1) & St1 & _). rewrite E1.
    destruct (add_rep p x now a1 (rem x (F A p)) R1 S1) as (a2 & E2 & (R2 & S2 & U2 & O2 & X2) & St2).
    { rewrite rem_in. tauto. }
    exists a2. split; [exact E2|]. split.
    + split; [exact R2|]. split; [exact S2|]. split; [|split].
      * intros y Ny. rewrite U2, U1; auto. rewrite rem_in. tauto.
      * intros q Nq. destruct (O2 q Nq) as (-> & -> & ->). apply O1. assumption.
      * destruct X1 as (<- & <- & <-). exact X2.
    + intros y. rewrite St2, St1. reflexivity.
  - assert (NI : ~ In x (F A p)). { intros I. apply (v_in _ _ _ _ V) in I. destruct I as (_ & _ & _ & D' & _). congruence. }
    rewrite rem_notin by assumption.
    destruct (add_rep p x now a (F A p) (v_rep _ _ _ _ V p Hp) (v_size _ _ _ _ V p Hp) NI) as (a2 & E2 & Ef & St2).
    exists a2. auto.
Qed.

(** The list operations do not look at the dirty bits. *)
Definition wd (d : nat -> bool) (a : alru) : alru := set_state a (part a) (mapped a) d.
Lemma append_wd p h t a d : append_alru_head p h t (wd d a) = option_map (wd d) (append_alru_head p h t a).
Proof. unfold append_alru_head. destruct h, t; try reflexivity. cbn [wd set_state head]. destruct (head a p); reflexivity. Qed.
Lemma add_wd p x now a d : add_alru_head p x now (wd d a) = option_map (wd d) (add_alru_head p x now a).
Proof.
  unfold add_alru_head.
  change (with_list (wd d a) (upd (meta (wd d a)) x {| prv := None; nxt := None; stamp := now |}) p (head (wd d a) p) (tail (wd d a) p) (size (wd d a) p))
    with (wd d (with_list a (upd (meta a) x {| prv := None; nxt := None; stamp := now |}) p (head a p) (tail a p) (size a p))).
  rewrite append_wd. destruct (append_alru_head _ _ _ _); reflexivity.
Qed.
Lemma remove_wd p x a d : remove_alru_list p x (wd d a) = option_map (wd d) (remove_alru_list p x a).
Proof.
  unfold remove_alru_list. cbn [wd set_state meta head tail size]. destruct (size a p =? 0); [reflexivity|].
  destruct (is_none _ && _ && _ && _); [reflexivity|]. destruct (is (head a p) x); destruct (is (tail a p) x); cbn [andb negb]; try reflexivity.
  - destruct (nxt (meta a x)); reflexivity.
  - destruct (prv (meta a x)); reflexivity.
  - destruct (nxt (meta a x)); [|reflexivity]. destruct (prv (meta a x)); reflexivity.
Qed.
Lemma set_hot_wd x now a d : set_hot_cache_line x now (wd d a) = option_map (wd d) (set_hot_cache_line x now a).
Proof.
  unfold set_hot_cache_line. cbn [wd set_state meta head tail size part]. fold (wd d a). destruct (_ || _ || _).
  - rewrite remove_wd. destruct (remove_alru_list _ _ _); [apply add_wd | reflexivity].
  - apply add_wd.
Qed.

Lemma step_inv n P e a A : inv n P a A -> exists a', step n P e a = Some a' /\ inv n P a' (spec_step n P e A).
Proof.
  intros V. destruct e as [x p|x|x now|x|x q now]; cbn [step spec_step].
  - (* Map *)
    rewrite <- (v_sm _ _ _ _ V). destruct (_ && _) eqn:E; [|eauto].
    rewrite !andb_true_iff, negb_true_iff, !Nat.ltb_lt in E. destruct E as ((Hx & Hp) & M).
    assert (D : dirty a x = false). { destruct (dirty a x) eqn:D; [|reflexivity]. destruct (v_dirty _ _ _ _ V x D). congruence. }
    assert (NI : forall q, ~ In x (F A q)). { intros q I. apply (v_in _ _ _ _ V) in I. destruct I as (_ & _ & M' & _). congruence. }
    eexists. split; [reflexivity|]. constructor; cbn [init_cache_block set_state meta head tail size part mapped dirty F sp sm sd ts].
    + intros q Hq. eapply Rep_ext; [|apply (v_rep _ _ _ _ V q Hq)]. intros y Iy. rewrite upd_other; [auto|]. intros ->. exact (NI q Iy).
    + apply (v_size _ _ _ _ V).
    + intros q y. rewrite (v_in _ _ _ _ V). unfold upd. destruct (Nat.eqb_spec y x) as [->|]; [|tauto].
      split; intros H; [destruct H as (_ & _ & M' & _)|destruct H as (_ & _ & _ & D' & _)]; congruence.
    + intros y Hy. unfold upd. destruct (Nat.eqb_spec y x) as [->|]; [auto|]. apply (v_part _ _ _ _ V); assumption.
    + intros y Dy. unfold upd. destruct (Nat.eqb_spec y x) as [->|]; [auto|]. apply (v_dirty _ _ _ _ V); assumption.
    + intros y Hy. unfold upd. destruct (Nat.eqb_spec y x) as [->|]; [auto|]. apply (v_free _ _ _ _ V); assumption.
    + intros q y Iy. rewrite upd_other; [apply (v_stamp _ _ _ _ V q); assumption|]. intros ->. exact (NI q Iy).
    + intros y. unfold upd, setf. destruct (y =? x); [reflexivity|apply (v_sp _ _ _ _ V)].
    + intros y. unfold upd, setf. destruct (y =? x); [reflexivity|apply (v_sm _ _ _ _ V)].
    + apply (v_sd _ _ _ _ V).
  - (* Unmap *)
    rewrite <- (v_sm _ _ _ _ V), <- (v_sd _ _ _ _ V). destruct (_ && _) eqn:E; [|eauto].
    rewrite !andb_true_iff, negb_true_iff, !Nat.ltb_lt in E. destruct E as ((Hx & M) & D).
    eexists. split; [reflexivity|]. constructor; cbn [set_state meta head tail size part mapped dirty F sp sm sd ts].
    + apply (v_rep _ _ _ _ V).
    + apply (v_size _ _ _ _ V).
    + intros q y. rewrite (v_in _ _ _ _ V). unfold upd. destruct (Nat.eqb_spec y x) as [->|]; [|tauto].
      split; intros H; [destruct H as (_ & _ & _ & D' & _)|destruct H as (_ & _ & M' & _)]; congruence.
    + intros y Hy. unfold upd. destruct (Nat.eqb_spec y x) as [->|]; [discriminate|]. apply (v_part _ _ _ _ V); assumption.
    + intros y Dy. unfold upd. destruct (Nat.eqb_spec y x) as [->|]; [congruence|]. apply (v_dirty _ _ _ _ V); assumption.
    + intros y Hy. unfold upd. destruct (Nat.eqb_spec y x) as [->|]; [discriminate|]. apply (v_free _ _ _ _ V); assumption.
    + apply (v_stamp _ _ _ _ V).
    + apply (v_sp _ _ _ _ V).
    + intros y. unfold upd, setf. destruct (y =? x); [reflexivity|apply (v_sm _ _ _ _ V)].
    + apply (v_sd _ _ _ _ V).
  - (* Write *)
    rewrite <- (v_sm _ _ _ _ V). destruct (_ && _) eqn:E; [|eauto].
    rewrite andb_true_iff, Nat.ltb_lt in E. destruct E as (Hx & M).
    destruct (set_hot_effect n P a A x now V Hx M) as (a1 & E0 & (R & Sz & U & O & Xp & Xm & Xd) & St).
    pose proof (set_hot_wd x now a (upd (dirty a) x true)) as E1. rewrite E0 in E1. cbn [option_map] in E1. unfold wd in E1.
    set (p := part a x) in *. assert (Hp : p < P) by (apply (v_part _ _ _ _ V); assumption).
    eexists. split; [exact E1|].
    assert (SPx : sp A x = p) by (symmetry; apply (v_sp _ _ _ _ V)). rewrite SPx.
    assert (Dis : forall q y, q <> p -> In y (F A q) -> y <> x /\ ~ In y (F A p)).
    { intros q y Nq Iy. apply (v_in _ _ _ _ V) in Iy. split.
      - intros ->. apply Nq. symmetry. apply Iy.
      - intros Iy2. apply (v_in _ _ _ _ V) in Iy2. apply Nq. destruct Iy as (_ & _ & _ & _ & <-). apply Iy2. }
    constructor; cbn [set_state meta head tail size part mapped dirty F sp sm sd ts].
    + intros q Hq. destruct (Nat.eq_dec q p) as [->|Nq]; [rewrite setf_same; exact R|]. rewrite setf_other by assumption.
      destruct (O q Nq) as (-> & -> & _). eapply Rep_ext; [|apply (v_rep _ _ _ _ V q Hq)]. intros y Iy.
      destruct (Dis q y Nq Iy). rewrite U; [auto|tauto].
    + intros q Hq. destruct (Nat.eq_dec q p) as [->|Nq]; [rewrite setf_same; exact Sz|]. rewrite setf_other by assumption.
      destruct (O q Nq) as (_ & _ & ->). apply (v_size _ _ _ _ V). assumption.
    + intros q y. rewrite Xp, Xm. unfold upd. destruct (Nat.eq_dec q p) as [->|Nq].
      * rewrite setf_same. cbn [In]. rewrite rem_in, (v_in _ _ _ _ V). destruct (Nat.eqb_spec y x) as [->|]; [|intuition congruence].
        split; [intros _; auto|auto].
      * rewrite setf_other by assumption. rewrite (v_in _ _ _ _ V). destruct (Nat.eqb_spec y x) as [->|]; [|tauto].
        split; intros (_ & _ & _ & _ & EE); exfalso; apply Nq; symmetry; exact EE.
    + intros y. rewrite Xm, Xp. apply (v_part _ _ _ _ V).
    + intros y. rewrite Xm. unfold upd. destruct (Nat.eqb_spec y x) as [->|]; [auto|]. apply (v_dirty _ _ _ _ V).
    + intros y Hy. rewrite Xm. unfold upd. destruct (Nat.eqb_spec y x) as [->|Ny]; [discriminate|]. intros My Dy.
      rewrite U; [apply (v_free _ _ _ _ V); assumption|]. intros [->|Iy]; [congruence|]. apply (v_in _ _ _ _ V) in Iy.
      destruct Iy as (_ & _ & _ & D' & _). congruence.
    + intros q y Iy. rewrite St. unfold setf in *. destruct (Nat.eqb_spec y x) as [->|Ny]; [reflexivity|].
      destruct (Nat.eqb_spec q p) as [->|Nq]; [|apply (v_stamp _ _ _ _ V q); assumption].
      destruct Iy as [<-|Iy]; [congruence|]. apply rem_in in Iy. apply (v_stamp _ _ _ _ V p). apply Iy.
    + intros y. rewrite Xp. apply (v_sp _ _ _ _ V).
    + intros y. rewrite Xm. apply (v_sm _ _ _ _ V).
    + intros y. unfold upd, setf. destruct (y =? x); [reflexivity|apply (v_sd _ _ _ _ V)].
  - (* Clean *)
    rewrite <- (v_sm _ _ _ _ V), <- (v_sd _ _ _ _ V). destruct (_ && _) eqn:E; [|eauto].
    rewrite !andb_true_iff, Nat.ltb_lt in E. destruct E as ((Hx & M) & D).
    set (p := part a x) in *. assert (Hp : p < P) by (apply (v_part _ _ _ _ V); assumption).
    assert (I : In x (F A p)) by (apply (v_in _ _ _ _ V); auto).
    destruct (remove_any n P a A p x V Hp I) as (a1 & E1 & (R & Sz & U & O & Xp & Xm & Xd) & St & Px & Nx).
    pose proof (remove_wd p x a (upd (dirty a) x false)) as E2. rewrite E1 in E2. cbn [option_map] in E2. unfold wd in E2.
    eexists. split; [exact E2|].
    assert (SPx : sp A x = p) by (symmetry; apply (v_sp _ _ _ _ V)). rewrite SPx.
    assert (Dis : forall q y, q <> p -> In y (F A q) -> ~ In y (F A p)).
    { intros q y Nq Iy Iy2. apply (v_in _ _ _ _ V) in Iy. apply (v_in _ _ _ _ V) in Iy2. apply Nq. destruct Iy as (_ & _ & _ & _ & <-). apply Iy2. }
    constructor; cbn [set_state meta head tail size part mapped dirty F sp sm sd ts].
    + intros q Hq. destruct (Nat.eq_dec q p) as [->|Nq]; [rewrite setf_same; exact R|]. rewrite setf_other by assumption.
      destruct (O q Nq) as (-> & -> & _). eapply Rep_ext; [|apply (v_rep _ _ _ _ V q Hq)]. intros y Iy.
      rewrite U; [auto|]. apply (Dis q); assumption.
    + intros q Hq. destruct (Nat.eq_dec q p) as [->|Nq]; [rewrite setf_same; exact Sz|]. rewrite setf_other by assumption.
      destruct (O q Nq) as (_ & _ & ->). apply (v_size _ _ _ _ V). assumption.
    + intros q y. rewrite Xp, Xm. unfold upd. destruct (Nat.eq_dec q p) as [->|Nq].
      * rewrite setf_same. rewrite rem_in, (v_in _ _ _ _ V). destruct (Nat.eqb_spec y x) as [->|]; [|intuition congruence].
        split; [intros (_ & ?); congruence|intros (_ & _ & _ & ? & _); discriminate].
      * rewrite setf_other by assumption. rewrite (v_in _ _ _ _ V). destruct (Nat.eqb_spec y x) as [->|]; [|tauto].
        split; intros (_ & _ & _ & _ & EE); exfalso; apply Nq; symmetry; exact EE.
    + intros y. rewrite Xm, Xp. apply (v_part _ _ _ _ V).
    + intros y. rewrite Xm. unfold upd. destruct (Nat.eqb_spec y x) as [->|]; [discriminate|]. apply (v_dirty _ _ _ _ V).
    + intros y Hy. rewrite Xm. unfold upd. destruct (Nat.eqb_spec y x) as [->|Ny]; [auto|]. intros My Dy.
      rewrite U; [apply (v_free _ _ _ _ V); assumption|]. intros Iy. apply (v_in _ _ _ _ V) in Iy.
      destruct Iy as (_ & _ & _ & D' & _). congruence.
    + intros q y Iy. rewrite St. apply (v_stamp _ _ _ _ V q). unfold setf in Iy. destruct (Nat.eqb_spec q p) as [->|Nq]; [|assumption].
      apply rem_in in Iy. apply Iy.
    + intros y. rewrite Xp. apply (v_sp _ _ _ _ V).
    + intros y. rewrite Xm. apply (v_sm _ _ _ _ V).
    + intros y. unfold upd, setf. destruct (y =? x); [reflexivity|apply (v_sd _ _ _ _ V)].
  - (* Repart *)
    rewrite <- (v_sm _ _ _ _ V), <- (v_sp _ _ _ _ V), <- (v_sd _ _ _ _ V). destruct (_ && _) eqn:E; [|eauto].
    rewrite !andb_true_iff, negb_true_iff, !Nat.ltb_lt, Nat.eqb_neq in E. destruct E as (((Hx & Hq) & M) & Npq).
    set (p := part a x) in *. assert (Hp : p < P) by (apply (v_part _ _ _ _ V); assumption).
    destruct (dirty a x) eqn:D.
    + assert (I : In x (F A p)) by (apply (v_in _ _ _ _ V); auto).
      destruct (remove_any n P a A p x V Hp I) as (a1 & E1 & (R & Sz & U & O & Xp & Xm & Xd) & St & Px & Nx).
      unfold purge_cache_block. fold p. rewrite E1.
      assert (NIq : ~ In x (F A q)). { intros Iq. apply (v_in _ _ _ _ V) in Iq. apply Npq. apply Iq. }
      assert (Dis : forall r y, r <> p -> In y (F A r) -> ~ In y (F A p)).
      { intros r y Nr Iy Iy2. apply (v_in _ _ _ _ V) in Iy. apply (v_in _ _ _ _ V) in Iy2. apply Nr. destruct Iy as (_ & _ & _ & _ & <-). apply Iy2. }
      set (a2 := set_state a1 (upd (part a1) x q) (mapped a1) (dirty a1)).
      assert (Rq : Rep (meta a2) (head a2 q) (tail a2 q) (F A q)).
      { cbn. destruct (O q ltac:(congruence)) as (-> & -> & _). eapply Rep_ext; [|apply (v_rep _ _ _ _ V q Hq)]. intros y Iy.
        rewrite U; [auto|]. apply (Dis q); [congruence|assumption]. }
      assert (Sq : size a2 q = length (F A q)).
      { cbn. destruct (O q ltac:(congruence)) as (_ & _ & ->). apply (v_size _ _ _ _ V). assumption. }
      destruct (add_rep q x now a2 (F A q) Rq Sq NIq) as (a3 & E3 & (R3 & Sz3 & U3 & O3 & Xp3 & Xm3 & Xd3) & St3).
      assert (E4 : set_hot_cache_line x now a2 = Some a3).
      { assert (Pa2 : part a2 x = q) by apply upd_same.
        assert (EH : is (head a2 q) x = false).
        { destruct (is (head a2 q) x) eqn:Eh; [|reflexivity]. apply is_iff in Eh. exfalso. destruct Rq as (_ & _ & H & _). rewrite Eh in H.
          destruct (F A q) as [|y l]; [discriminate|]. injection H as ->. apply NIq. left; reflexivity. }
        assert (PN : prv (meta a2 x) = None /\ nxt (meta a2 x) = None) by (split; assumption). destruct PN as (P2 & N2).
        unfold set_hot_cache_line. rewrite Pa2, P2, N2, EH. cbn [is_none negb orb andb]. exact E3. }
      exists a3. split; [exact E4|].
      assert (Pa3 : forall y, part a3 y = if y =? x then q else part a y).
      { intros y. rewrite Xp3. cbn. rewrite Xp. unfold upd. reflexivity. }
      assert (Ma3 : forall y, mapped a3 y = mapped a y) by (intros y; rewrite Xm3; cbn; rewrite Xm; reflexivity).
      assert (Da3 : forall y, dirty a3 y = dirty a y) by (intros y; rewrite Xd3; cbn; rewrite Xd; reflexivity).
      assert (FF : forall r, setf (setf (F A) p (rem x (F A p))) q (x :: F A q) r = if r =? q then x :: F A q else if r =? p then rem x (F A p) else F A r) by (intros r; reflexivity).
      constructor; cbn [F sp sm sd ts].
      * intros r Hr. rewrite FF. destruct (Nat.eqb_spec r q) as [->|Nr]; [exact R3|]. destruct (O3 r Nr) as (-> & -> & _). cbn [a2 set_state head tail].
        destruct (Nat.eqb_spec r p) as [->|Nr2].
        -- eapply Rep_ext; [|exact R]. intros y Iy. apply rem_in in Iy. rewrite U3; [auto|]. intros [->|Iq]; [tauto|]. apply (Dis q y); [congruence|assumption|apply Iy].
        -- destruct (O r Nr2) as (-> & -> & _). eapply Rep_ext; [|apply (v_rep _ _ _ _ V r Hr)]. intros y Iy.
           rewrite U3; [cbn; rewrite U; [auto|]; apply (Dis r); assumption|].
           intros [->|Iq]; apply (v_in _ _ _ _ V) in Iy; [apply Nr2; symmetry; apply Iy|]. apply (v_in _ _ _ _ V) in Iq. apply Nr. destruct Iy as (_ & _ & _ & _ & <-). apply Iq.
      * intros r Hr. rewrite FF. destruct (Nat.eqb_spec r q) as [->|Nr]; [exact Sz3|]. destruct (O3 r Nr) as (_ & _ & ->). cbn [a2 set_state size].
        destruct (Nat.eqb_spec r p) as [->|Nr2]; [exact Sz|]. destruct (O r Nr2) as (_ & _ & ->). apply (v_size _ _ _ _ V). assumption.
      * intros r y. rewrite FF, Pa3, Ma3, Da3. destruct (Nat.eqb_spec r q) as [->|Nr].
        -- cbn [In]. rewrite (v_in _ _ _ _ V). destruct (Nat.eqb_spec y x) as [->|]; [|intuition congruence]. split; [intros _; auto|auto].
        -- destruct (Nat.eqb_spec r p) as [->|Nr2].
           ++ rewrite rem_in, (v_in _ _ _ _ V). destruct (Nat.eqb_spec y x) as [->|]; [|tauto]. split; [intros (_ & ?); congruence|intros (_ & _ & _ & _ & ?); congruence].
           ++ rewrite (v_in _ _ _ _ V). destruct (Nat.eqb_spec y x) as [->|]; [|tauto]. split; intros (_ & _ & _ & _ & EE); exfalso; [apply Nr2; symmetry; exact EE | congruence].
      * intros y Hy. rewrite Ma3, Pa3. destruct (Nat.eqb_spec y x) as [->|]; [auto|]. apply (v_part _ _ _ _ V); assumption.
      * intros y. rewrite Ma3, Da3. apply (v_dirty _ _ _ _ V).
      * intros y Hy. rewrite Ma3, Da3. intros My Dy.
        assert (NI : forall r, ~ In y (F A r)). { intros r Iy. apply (v_in _ _ _ _ V) in Iy. destruct Iy as (_ & _ & _ & D' & _). congruence. }
        rewrite U3; [cbn; rewrite U; [apply (v_free _ _ _ _ V); assumption|apply NI]|]. intros [->|Iy]; [congruence|exact (NI q Iy)].
      * intros r y Iy. rewrite St3. rewrite FF in Iy. unfold setf. destruct (Nat.eqb_spec y x) as [->|Ny]; [reflexivity|].
        cbn [a2 set_state meta]. rewrite St. destruct (Nat.eqb_spec r q) as [->|Nr]; [destruct Iy as [<-|Iy]; [congruence|]; apply (v_stamp _ _ _ _ V q); assumption|].
        destruct (Nat.eqb_spec r p) as [->|Nr2]; [apply rem_in in Iy; apply (v_stamp _ _ _ _ V p); apply Iy | apply (v_stamp _ _ _ _ V r); assumption].
      * intros y. rewrite Pa3. unfold setf. destruct (y =? x); [reflexivity|apply (v_sp _ _ _ _ V)].
      * intros y. rewrite Ma3. apply (v_sm _ _ _ _ V).
      * intros y. rewrite Da3. apply (v_sd _ _ _ _ V).
    + assert (NI : forall r, ~ In x (F A r)). { intros r Iy. apply (v_in _ _ _ _ V) in Iy. destruct Iy as (_ & _ & _ & D' & _). congruence. }
      eexists. split; [reflexivity|]. constructor; cbn [set_state meta head tail size part mapped dirty F sp sm sd ts].
      * apply (v_rep _ _ _ _ V).
      * apply (v_size _ _ _ _ V).
      * intros r y. rewrite (v_in _ _ _ _ V). unfold upd. destruct (Nat.eqb_spec y x) as [->|]; [|tauto].
        split; intros (_ & _ & _ & D' & _); congruence.
      * intros y Hy. unfold upd. destruct (Nat.eqb_spec y x) as [->|]; [auto|]. apply (v_part _ _ _ _ V); assumption.
      * apply (v_dirty _ _ _ _ V).
      * apply (v_free _ _ _ _ V).
      * apply (v_stamp _ _ _ _ V).
      * intros y. unfold upd, setf. destruct (y =? x); [reflexivity|apply (v_sp _ _ _ _ V)].
      * apply (v_sm _ _ _ _ V).
      * apply (v_sd _ _ _ _ V).
Qed.

Lemma run_inv n P es : forall a A, inv n P a A -> exists a', run n P es a = Some a' /\ inv n P a' (spec_run n P es A).
Proof.
  induction es as [|e es IH]; intros a A V; cbn [run spec_run fold_left]; [eauto|].
  destruct (step_inv n P e a A V) as (a' & -> & V'). apply IH. assumption.
Qed.

(** ** Populating *)
Definition sel (a : alru) (p x : nat) : bool := mapped a x && dirty a x && (part a x =? p).

(** What populating does to the metadata of one line *)
Definition line_ok (a : alru) (now : nat -> nat) (m : nat -> node) (x : nat) : Prop :=
  (mapped a x = true -> dirty a x = false -> prv (m x) = None /\ nxt (m x) = None) /\
  (mapped a x = true -> dirty a x = true -> stamp (m x) = now x).

Lemma handle_spec a now l : forall m f g, NoDup l -> (forall p, Rep m (fst (f p)) (snd (f p)) (g p)) ->
  (forall p x, In x (g p) -> sel a p x = true) -> (forall p x, In x l -> ~ In x (g p)) ->
  exists m' f', populate_handle a now l (m, f) = (m', f') /\
    (forall p, Rep m' (fst (f' p)) (snd (f' p)) (rev (filter (sel a p) l) ++ g p)) /\
    (forall x, ~ In x l -> (forall p, ~ In x (g p)) -> m' x = m x) /\
    (forall x, ~ In x l -> stamp (m' x) = stamp (m x)) /\
    (forall x, In x l -> line_ok a now m' x).
Proof.
  induction l as [|x l IH]; intros m f g ND R Sg Dj; cbn [populate_handle].
  - exists m, f. split; [reflexivity|]. split; [exact R|]. split; [auto|]. split; [auto|]. intros ? [].
  - inversion ND as [|? ? N1 N2]; subst. cbn [fst snd].
    assert (Nx : forall p, ~ In x (g p)) by (intros p; apply Dj; left; reflexivity).
    destruct (mapped a x) eqn:M; cbn [negb].
    2:{ destruct (IH m f g N2 R Sg) as (m' & f' & E & R' & U & St & Ok). { intros p y Iy. apply Dj. right; assumption. }
        exists m', f'. split; [exact E|]. split; [|split; [|split]].
        - intros p. cbn [filter]. replace (sel a p x) with false by (unfold sel; rewrite M; reflexivity). apply R'.
        - intros y Ny Ng. apply U; [|assumption]. intros I. apply Ny. right; assumption.
        - intros y Ny. apply St. intros I. apply Ny. right; assumption.
        - intros y [<-|Iy]; [|auto]. split; intros; congruence. }
    destruct (dirty a x) eqn:D; cbn [negb].
    + unfold add_alru_head_populate.
      assert (Step : exists m1 f1, (let '(m0, f0) := (m, f) in match fst (f0 (part a x)) with
          | Some h => (set_prv (upd m0 x {| prv := None; nxt := Some h; stamp := now x |}) h (Some x), upd f0 (part a x) (Some x, snd (f0 (part a x))))
          | None => (upd m0 x {| prv := None; nxt := None; stamp := now x |}, upd f0 (part a x) (Some x, Some x)) end) = (m1, f1) /\
          (forall p, Rep m1 (fst (f1 p)) (snd (f1 p)) (if part a x =? p then x :: g p else g p)) /\
          (forall y, y <> x -> (forall p, ~ In y (g p)) -> m1 y = m y) /\
          (forall y, stamp (m1 y) = if y =? x then now x else stamp (m y)) /\ True).
      { cbn beta iota zeta. pose proof (R (part a x)) as Rp. destruct (fst (f (part a x))) as [h|] eqn:Eh.
        - eexists _, _. split; [reflexivity|].
          assert (Ih : In h (g (part a x))). { destruct Rp as (_ & _ & H & _). destruct (g (part a x)); [discriminate|]. injection H as ->. left; reflexivity. }
          assert (hx : h <> x) by (intros ->; exact (Nx _ Ih)).
          split; [|split; [|split; [|exact I]]].
          + intros p. destruct (Nat.eqb_spec (part a x) p) as [<-|Np].
            * rewrite upd_same. cbn [fst snd]. destruct Rp as (NDp & SG & H & T). split; [constructor; [apply Nx|assumption]|]. split; [|split; [reflexivity|]].
              -- destruct (g (part a x)) as [|h' L] eqn:Eg; [discriminate|]. cbn [hd_or] in H. injection H as ->. rename h' into h.
                 cbn [seg] in SG. cbn [seg hd_or]. rewrite !prv_set_prv, !nxt_set_prv, Nat.eqb_refl.
                 destruct (Nat.eqb_spec x h); [congruence|]. rewrite !upd_same. cbn [prv nxt]. rewrite (upd_other _ x _ h) by assumption.
                 destruct SG as (_ & S2 & S3). split; [reflexivity|]. split; [reflexivity|]. split; [reflexivity|]. split; [exact S2|].
                 apply (seg_ext m); [|exact S3]. intros y Iy. rewrite prv_set_prv, nxt_set_prv.
                 destruct (Nat.eqb_spec y h) as [->|]; [inversion NDp; contradiction|]. rewrite upd_other; [auto|]. intros ->. apply (Nx (part a x)). rewrite Eg. right; assumption.
              -- rewrite T. destruct (g (part a x)); [discriminate|]. reflexivity.
            * rewrite upd_other by congruence. eapply Rep_ext; [|apply R]. intros y Iy. rewrite prv_set_prv, nxt_set_prv.
              assert (y <> x) by (intros ->; exact (Nx _ Iy)).
              destruct (Nat.eqb_spec y h) as [->|]; [|rewrite upd_other by assumption; auto].
              exfalso. pose proof (Sg _ _ Iy) as G1. pose proof (Sg _ _ Ih) as G2. unfold sel in G1, G2.
              rewrite !andb_true_iff, Nat.eqb_eq in G1, G2. destruct G1 as (_ & G1), G2 as (_ & G2). congruence.
          + intros y Ny Ng. unfold set_prv. rewrite !upd_other; [reflexivity|assumption|]. intros ->. exact (Ng _ Ih).
          + intros y. rewrite stamp_set_prv. unfold upd. destruct (y =? x); reflexivity.
        - eexists _, _. split; [reflexivity|]. apply Rep_head_none in Rp as Eg. split; [|split; [|split; [|exact I]]].
          + intros p. destruct (Nat.eqb_spec (part a x) p) as [<-|Np].
            * rewrite upd_same, Eg. cbn [fst snd]. split; [constructor; [intros []|constructor]|]. cbn. rewrite upd_same. auto.
            * rewrite upd_other by congruence. eapply Rep_ext; [|apply R]. intros y Iy. rewrite upd_other; [auto|]. intros ->. exact (Nx _ Iy).
          + intros y Ny Ng. apply upd_other. assumption.
          + intros y. unfold upd. destruct (y =? x); reflexivity. }
      destruct Step as (m1 & f1 & E1 & R1 & U1 & St1 & _). rewrite E1. clear E1.
      destruct (IH m1 f1 (fun p => if part a x =? p then x :: g p else g p) N2 R1) as (m' & f' & E & R' & U & St & Ok).
      { intros p y Iy. destruct (Nat.eqb_spec (part a x) p) as [<-|]; [|apply Sg; assumption].
        destruct Iy as [<-|Iy]; [unfold sel; rewrite M, D, Nat.eqb_refl; reflexivity|apply Sg; assumption]. }
      { intros p y Iy. assert (Y : ~ In y (g p)) by (apply (Dj p y); right; assumption). destruct (part a x =? p); [|exact Y]. intros [<-|Ig]; [contradiction|exact (Y Ig)]. }
      exists m', f'. split; [exact E|]. split; [|split; [|split]].
      * intros p. specialize (R' p). cbn [filter]. unfold sel at 1. rewrite M, D. cbn [andb]. destruct (part a x =? p); [|exact R'].
        cbn [rev]. rewrite <- app_assoc. exact R'.
      * intros y Ny Ng. rewrite U.
        -- apply U1; [intros ->; apply Ny; left; reflexivity|assumption].
        -- intros Iy. apply Ny. right; assumption.
        -- intros p. destruct (part a x =? p); [|apply Ng]. intros [<-|Iy]; [apply Ny; left; reflexivity|exact (Ng p Iy)].
      * intros y Ny. rewrite St by (intros Iy; apply Ny; right; assumption). rewrite St1.
        destruct (Nat.eqb_spec y x) as [->|]; [|reflexivity]. exfalso. apply Ny. left; reflexivity.
      * intros y [<-|Iy]; [|auto]. split; [intros; congruence|]. intros _ _. rewrite St by assumption. rewrite St1, Nat.eqb_refl. reflexivity.
    + destruct (IH (upd m x {| prv := None; nxt := None; stamp := 0 |}) f g N2) as (m' & f' & E & R' & U & St & Ok).
      { intros p. eapply Rep_ext; [|apply R]. intros y Iy. rewrite upd_other; [auto|]. intros ->. exact (Nx p Iy). }
      { exact Sg. }
      { intros p y Iy. apply Dj. right; assumption. }
      exists m', f'. split; [exact E|]. split; [|split; [|split]].
      * intros p. cbn [filter]. replace (sel a p x) with false by (unfold sel; rewrite M, D; reflexivity). apply R'.
      * intros y Ny Ng. rewrite U; [|intros I; apply Ny; right; assumption|assumption]. apply upd_other. intros ->. apply Ny. left; reflexivity.
      * intros y Ny. rewrite St by (intros I; apply Ny; right; assumption). rewrite upd_other; [reflexivity|]. intros ->. apply Ny. left; reflexivity.
      * intros y [<-|Iy]; [|auto]. split; [|intros; congruence]. intros _ _. rewrite U; [rewrite upd_same; auto|assumption|exact Nx].
Qed.

Lemma nodup_app (A B : list nat) : NoDup (A ++ B) -> NoDup A /\ NoDup B /\ (forall y, In y A -> ~ In y B).
Proof.
  revert B. induction A as [|a A IHA]; intros B H; cbn [app] in H; [split; [constructor|auto]|].
  inversion H as [|? ? N1 N2]; subst. destruct (IHA B N2) as (X & Y & Z). rewrite in_app_iff in N1.
  split; [constructor; tauto|]. split; [assumption|]. intros y [<-|Iy]; [tauto|auto].
Qed.

Lemma shards_spec a now n ss : forall m, NoDup (concat (map (shard_lines n) ss)) ->
  exists m' fs, populate_shards a now n ss m = (m', fs) /\
    Forall2 (fun s f => forall p, Rep m' (fst (f p)) (snd (f p)) (rev (filter (sel a p) (shard_lines n s)))) ss fs /\
    (forall x, ~ In x (concat (map (shard_lines n) ss)) -> m' x = m x) /\
    (forall x, In x (concat (map (shard_lines n) ss)) -> line_ok a now m' x).
Proof.
  induction ss as [|s ss IH]; intros m ND; cbn [populate_shards map concat].
  - exists m, []. split; [reflexivity|]. split; [constructor|]. split; [auto|]. intros ? [].
  - cbn [map concat] in ND.
    destruct (nodup_app _ _ ND) as (NA & NB & Dj).
    destruct (handle_spec a now (shard_lines n s) m (fun _ => (None, None)) (fun _ => []) NA) as (m1 & f1 & E1 & R1 & U1 & _ & Ok1).
    { intros p. apply Rep_nil. } { intros p x []. } { intros p x _ []. }
    rewrite E1. destruct (IH m1 NB) as (m' & fs & E & Fa & U & Ok). rewrite E.
    exists m', (f1 :: fs). split; [reflexivity|]. split; [|split].
    + constructor; [|exact Fa]. intros p. eapply Rep_ext; [|specialize (R1 p); rewrite app_nil_r in R1; exact R1].
      intros y Iy. apply in_rev, filter_In in Iy. rewrite U; [auto|]. apply Dj. apply Iy.
    + intros x Nx. rewrite in_app_iff in Nx. rewrite U by tauto. apply U1; [tauto|]. intros p [].
    + intros x Ix. apply in_app_iff in Ix. destruct Ix as [Ix|Ix]; [|auto].
      specialize (Ok1 x Ix). unfold line_ok in *. rewrite U by (apply Dj; assumption). exact Ok1.
Qed.

Lemma finish_part_spec p : forall fs Ls a L0, Forall2 (fun L (f : nat -> option nat * option nat) => Rep (meta a) (fst (f p)) (snd (f p)) L) Ls fs ->
  Rep (meta a) (head a p) (tail a p) L0 -> NoDup (concat Ls ++ L0) ->
  exists a', finish_part p fs a = Some a' /\ Rep (meta a') (head a' p) (tail a' p) (concat (rev Ls) ++ L0) /\
    (forall x, ~ In x (concat Ls ++ L0) -> meta a' x = meta a x) /\ (forall x, stamp (meta a' x) = stamp (meta a x)) /\
    (forall q, q <> p -> head a' q = head a q /\ tail a' q = tail a q) /\ (forall q, size a' q = size a q) /\
    part a' = part a /\ mapped a' = mapped a /\ dirty a' = dirty a.
Proof.
  induction fs as [|f fs IH]; intros Ls a L0 Fa R ND; inversion Fa as [|L ? Ls' ? RL Fa']; subst; cbn [finish_part].
  - exists a. split; [reflexivity|]. cbn [rev concat app]. split; [assumption|]. auto 10.
  - cbn [concat] in ND.
    pose proof ND as ND0. rewrite <- app_assoc in ND0. apply nodup_app in ND0. destruct ND0 as (_ & ND0 & Dj1). apply nodup_app in ND0. destruct ND0 as (_ & _ & Dj0).
    assert (Dj : forall x, In x L -> ~ In x L0 /\ ~ In x (concat Ls')).
    { intros x Ix. apply Dj1 in Ix. rewrite in_app_iff in Ix. tauto. }
    destruct (append_rep p (fst (f p)) (snd (f p)) a L L0 RL R) as (a1 & E1 & R1 & U1 & St1 & O1 & Sz1 & Xp & Xm & Xd).
    { intros x Ix. apply Dj. assumption. }
    rewrite E1. destruct (IH Ls' a1 (L ++ L0)) as (a' & E & R' & U & St & O & Sz & Yp & Ym & Yd).
    + assert (Gen : forall Q, (forall x, In x (concat Q) -> In x (concat Ls')) -> forall gs, Forall2 (fun L (f : nat -> option nat * option nat) => Rep (meta a) (fst (f p)) (snd (f p)) L) Q gs ->
         Forall2 (fun L (f : nat -> option nat * option nat) => Rep (meta a1) (fst (f p)) (snd (f p)) L) Q gs).
      { induction Q as [|Z Q IHQ]; intros Inc gs HF; inversion HF; subst; constructor.
        - eapply Rep_ext; [|eassumption]. intros z Iz. rewrite U1; [auto| |].
          + intros IL. apply (Dj z IL). apply Inc. cbn [concat]. apply in_or_app; auto.
          + apply Dj0. apply Inc. cbn [concat]. apply in_or_app; auto.
        - apply IHQ; [|assumption]. intros x Ix. apply Inc. cbn [concat]. apply in_or_app; auto. }
      apply (Gen Ls'); auto.
    + exact R1.
    + apply (Permutation_NoDup (l := (L ++ concat Ls') ++ L0)); [|assumption].
      rewrite app_assoc. apply Permutation_app_tail. apply Permutation_app_comm.
    + exists a'. split; [exact E|]. split; [|split; [|split; [|split; [|split]]]].
      * cbn [rev]. rewrite concat_app. cbn [concat]. rewrite app_nil_r, <- app_assoc. exact R'.
      * intros x Nx. cbn [concat] in Nx. rewrite !in_app_iff in Nx. rewrite U by (rewrite !in_app_iff; tauto). apply U1; tauto.
      * intros x. rewrite St. apply St1.
      * intros q Nq. destruct (O q Nq) as (-> & ->). apply O1. assumption.
      * intros q. rewrite Sz. apply Sz1.
      * split; [congruence|]. split; congruence.
Qed.

Lemma finish_parts_spec fs (G : nat -> list (list nat)) : forall ps a, NoDup ps ->
  (forall p, In p ps -> Forall2 (fun L (f : nat -> option nat * option nat) => Rep (meta a) (fst (f p)) (snd (f p)) L) (G p) fs) ->
  (forall p, In p ps -> head a p = None /\ tail a p = None) ->
  (forall p, NoDup (concat (G p))) -> (forall p q x, In x (concat (G p)) -> In x (concat (G q)) -> p = q) ->
  exists a', finish_parts ps fs a = Some a' /\
    (forall p, In p ps -> Rep (meta a') (head a' p) (tail a' p) (concat (rev (G p)))) /\
    (forall q, ~ In q ps -> head a' q = head a q /\ tail a' q = tail a q) /\
    (forall x, (forall p, In p ps -> ~ In x (concat (G p))) -> meta a' x = meta a x) /\ (forall x, stamp (meta a' x) = stamp (meta a x)) /\
    (forall q, size a' q = size a q) /\ part a' = part a /\ mapped a' = mapped a /\ dirty a' = dirty a.
Proof.
  induction ps as [|p ps IH]; intros a ND HF HN NG DG; cbn [finish_parts].
  - exists a. split; [reflexivity|]. split; [intros p []|]. auto 10.
  - inversion ND as [|? ? N1 N2]; subst. destruct (HN p (or_introl eq_refl)) as (Eh & Et).
    destruct (finish_part_spec p fs (G p) a [] (HF p (or_introl eq_refl))) as (a1 & E1 & R1 & U1 & St1 & O1 & Sz1 & Xp & Xm & Xd).
    { rewrite Eh, Et. apply Rep_nil. } { rewrite app_nil_r. apply NG. }
    rewrite app_nil_r in *. rewrite E1.
    destruct (IH a1 N2) as (a' & E & R & O & U & St & Sz & Yp & Ym & Yd); auto.
    + intros q Iq. assert (qp : q <> p) by (intros ->; contradiction).
      assert (Gen : forall Q, (forall x, In x (concat Q) -> In x (concat (G q))) -> forall gs, Forall2 (fun L (f : nat -> option nat * option nat) => Rep (meta a) (fst (f q)) (snd (f q)) L) Q gs ->
         Forall2 (fun L (f : nat -> option nat * option nat) => Rep (meta a1) (fst (f q)) (snd (f q)) L) Q gs).
      { induction Q as [|Z Q IHQ]; intros Inc gs HFQ; inversion HFQ; subst; constructor.
        - eapply Rep_ext; [|eassumption]. intros z Iz. rewrite U1; [auto|]. intros IG. apply qp.
          apply (DG q p z); [|assumption]. apply Inc. cbn [concat]. apply in_or_app; auto.
        - apply IHQ; [|assumption]. intros x Ix. apply Inc. cbn [concat]. apply in_or_app; auto. }
      apply (Gen (G q)); auto. apply HF. right; assumption.
    + intros q Iq. assert (qp : q <> p) by (intros ->; contradiction). destruct (O1 q qp) as (-> & ->). apply HN. right; assumption.
    + exists a'. split; [exact E|]. split; [|split; [|split; [|split; [|split]]]].
      * intros q [<-|Iq]; [|apply R; assumption]. destruct (O p N1) as (-> & ->). eapply Rep_ext; [|exact R1].
        intros y Iy. rewrite U; [auto|]. intros q Iq Iy2. apply N1.
        assert (Iy1 : In y (concat (G p))). { apply in_concat in Iy. destruct Iy as (l & Il & Iy). apply in_concat. exists l. split; [apply in_rev; assumption|assumption]. }
        rewrite (DG p q y Iy1 Iy2). assumption.
      * intros q Nq. destruct (O q) as (-> & ->); [intros I; apply Nq; right; assumption|]. apply O1. intros ->. apply Nq. left; reflexivity.
      * intros x Nx. rewrite U by (intros q Iq; apply Nx; right; assumption). apply U1. apply Nx. left; reflexivity.
      * intros x. rewrite St. apply St1.
      * intros q. rewrite Sz. apply Sz1.
      * split; [congruence|]. split; congruence.
Qed.

(** The shards together are all lines *)
Lemma shards_concat n k : concat (map (shard_lines n) (seq 0 k)) = seq 0 (Nat.min (portion n * k) n).
Proof.
  induction k as [|k IH]; [rewrite Nat.mul_0_r; reflexivity|].
  rewrite seq_S, map_app, concat_app, IH. cbn [map concat Nat.add]. rewrite app_nil_r. unfold shard_lines.
  replace (portion n * (k + 1)) with (portion n * k + portion n) by lia. replace (portion n * S k) with (portion n * k + portion n) by lia.
  generalize (portion n * k) as c. generalize (portion n) as d. intros d c.
  destruct (Nat.le_gt_cases n c).
  - replace (Nat.min c n) with n by lia. replace (Nat.min (c + d) n) with n by lia. replace (n - c) with 0 by lia. apply app_nil_r.
  - replace (Nat.min c n) with c by lia. replace c with (0 + c) at 2 by lia. rewrite <- seq_app. f_equal. lia.
Qed.
Lemma shards_all n : concat (map (shard_lines n) (seq 0 SHARDS)) = seq 0 n.
Proof.
  rewrite shards_concat. f_equal. assert (n <= portion n * SHARDS); [|lia].
  unfold portion, SHARDS. pose proof (Nat.div_mod (n + (32 - 1)) 32 ltac:(lia)). pose proof (Nat.mod_upper_bound (n + (32 - 1)) 32 ltac:(lia)). lia.
Qed.

Lemma concat_rev_rev {A} (ls : list (list A)) : concat (rev (map (@rev A) ls)) = rev (concat ls).
Proof.
  induction ls as [|l ls IH]; [reflexivity|]. cbn [map rev concat]. rewrite concat_app, IH. cbn [concat]. rewrite app_nil_r, rev_app_distr. reflexivity.
Qed.
Lemma filter_concat {A} (f : A -> bool) ls : concat (map (filter f) ls) = filter f (concat ls).
Proof. induction ls as [|l ls IH]; [reflexivity|]. cbn [map concat]. rewrite filter_app, IH. reflexivity. Qed.

Lemma populate_inv n P now a : good_start n P a ->
  exists a', populate n P now a = Some a' /\ inv n P a' (spec_start n P now (part a) (mapped a) (dirty a)).
Proof.
  intros (G1 & G2). unfold populate.
  destruct (shards_spec a now n (seq 0 SHARDS) (meta a)) as (m & fs & E & Fa & U & Ok).
  { rewrite shards_all. apply seq_NoDup. }
  rewrite shards_all in *. rewrite E.
  set (a1 := {| meta := m |}). 
  set (G := fun p => map (fun s => rev (filter (sel a p) (shard_lines n s))) (seq 0 SHARDS)).
  assert (GE : forall p, concat (rev (G p)) = rev (filter (sel a p) (seq 0 n))).
  { intros p. unfold G. rewrite <- (shards_all n), <- filter_concat, <- concat_rev_rev, !map_map. reflexivity. }
  assert (GI : forall p x, In x (concat (G p)) <-> x < n /\ sel a p x = true).
  { intros p x. transitivity (In x (concat (rev (G p)))).
    - rewrite !in_concat. split; intros (l & Il & Ix); exists l; (split; [|assumption]); apply in_rev; [rewrite rev_involutive|]; assumption.
    - rewrite GE, <- in_rev, filter_In, in_seq. intuition lia. }
  destruct (finish_parts_spec fs G (seq 0 P) a1) as (a' & E' & R & O & U' & St & Sz & Xp & Xm & Xd).
  - apply seq_NoDup.
  - intros p _. unfold G. clear -Fa. induction Fa; cbn [map]; constructor; auto.
  - intros p _. split; reflexivity.
  - intros p. apply (Permutation_NoDup (l := concat (rev (G p)))).
    + clear. induction (G p) as [|l ls IH]; [constructor|]. cbn [rev concat]. rewrite concat_app. cbn [concat]. rewrite app_nil_r.
      eapply Permutation_trans; [apply Permutation_app_comm|]. apply Permutation_app_head. exact IH.
    + rewrite GE. apply NoDup_rev, NoDup_filter, seq_NoDup.
  - intros p q x Ip Iq. apply GI in Ip, Iq. destruct Ip as (_ & Ip), Iq as (_ & Iq). unfold sel in Ip, Iq.
    rewrite !andb_true_iff, Nat.eqb_eq in Ip, Iq. destruct Ip as (_ & <-), Iq as (_ & <-). reflexivity.
  - exists a'. split; [exact E'|].
    assert (FE : forall p, p < P -> F (spec_start n P now (part a) (mapped a) (dirty a)) p = concat (rev (G p))).
    { intros p Hp. cbn [spec_start F]. apply Nat.ltb_lt in Hp. rewrite Hp, GE. reflexivity. }
    assert (FI : forall p x, In x (F (spec_start n P now (part a) (mapped a) (dirty a)) p) <-> p < P /\ x < n /\ sel a p x = true).
    { intros p x. destruct (Nat.lt_ge_cases p P) as [Hp|Hp].
      - rewrite FE, GE, <- in_rev, filter_In, in_seq by assumption. intuition lia.
      - cbn [spec_start F]. replace (p <? P) with false by (symmetry; apply Nat.ltb_ge; assumption). cbn [In]. lia. }
    constructor.
    + intros p Hp. rewrite FE by assumption. apply R. apply in_seq. lia.
    + intros p Hp. rewrite FE, GE, rev_length, Sz by assumption. cbn [a1 size]. apply Nat.ltb_lt in Hp. rewrite Hp. reflexivity.
    + intros p x. rewrite FI, Xp, Xm, Xd. cbn [a1 part mapped dirty]. unfold sel. rewrite !andb_true_iff, Nat.eqb_eq. tauto.
    + rewrite Xp, Xm. exact G1.
    + rewrite Xm, Xd. exact G2.
    + intros x Hx. rewrite Xm, Xd. cbn [a1 mapped dirty]. intros M D. rewrite U'.
      * cbn [a1 meta]. apply (Ok x); [apply in_seq; lia|assumption|assumption].
      * intros p _ Ix. apply GI in Ix. destruct Ix as (_ & Ix). unfold sel in Ix. rewrite D, andb_false_r in Ix. discriminate.
    + intros p x Ix. apply FI in Ix. destruct Ix as (_ & Hx & Ix). unfold sel in Ix. rewrite !andb_true_iff in Ix. destruct Ix as ((M & D) & _).
      rewrite St. cbn [a1 meta spec_start ts]. apply (Ok x); [apply in_seq; lia|assumption|assumption].
    + rewrite Xp. reflexivity.
    + rewrite Xm. reflexivity.
    + rewrite Xd. reflexivity.
Qed.

(** ** C55: theorems *)
Lemma follow_next m : forall L p k, seg m p L None -> length L <= k -> follow (fun x => nxt (m x)) k (hd_or None L) = L.
Proof.
  induction L as [|x L IH]; intros p k SG H; [destruct k; reflexivity|]. cbn [length] in H. destruct k as [|k]; [lia|].
  cbn [seg hd_or follow] in *. destruct SG as (_ & -> & SG). f_equal. apply (IH (Some x)); [assumption|lia].
Qed.
Lemma follow_prev m : forall L n k, seg m None L n -> length L <= k -> follow (fun x => prv (m x)) k (last_or None L) = rev L.
Proof.
  intros L. induction L as [|x L IH] using rev_ind; intros n k SG H; [destruct k; reflexivity|].
  rewrite app_length in H. cbn [length] in H. destruct k as [|k]; [lia|]. rewrite last_or_snoc, rev_app_distr. cbn [follow rev app].
  apply seg_app in SG. destruct SG as (S1 & S2). cbn [seg] in S2. destruct S2 as (-> & _). f_equal. apply (IH (Some x)); [exact S1|lia].
Qed.
Lemma in_len n (L : list nat) : NoDup L -> (forall x, In x L -> x < n) -> length L <= n.
Proof.
  intros ND H. rewrite <- (seq_length n 0). apply NoDup_incl_length; [assumption|]. intros x Ix. apply in_seq. apply H in Ix. lia.
Qed.
Lemma inv_len n P a A p : inv n P a A -> p < P -> length (F A p) <= n.
Proof.
  intros V Hp. apply in_len; [apply (v_rep _ _ _ _ V p Hp)|]. intros x Ix. apply (v_in _ _ _ _ V) in Ix. apply Ix.
Qed.
Lemma inv_shows n P a A : inv n P a A -> Shows n P a A.
Proof.
  intros V. constructor.
  - intros p Hp. destruct (v_rep _ _ _ _ V p Hp) as (_ & SG & -> & _). eapply follow_next; [exact SG|]. pose proof (inv_len n P a A p V Hp). lia.
  - intros p Hp. destruct (v_rep _ _ _ _ V p Hp) as (_ & SG & _ & ->). eapply follow_prev; [exact SG|]. pose proof (inv_len n P a A p V Hp). lia.
  - apply (v_size _ _ _ _ V).
  - intros p x _. apply (v_stamp _ _ _ _ V).
  - intros p x Hp. rewrite (v_in _ _ _ _ V). tauto.
  - intros p Hp. apply (v_rep _ _ _ _ V p Hp).
Qed.

(** From any metadata, populating and any history afterwards: no ENV_BUG, and the lists hold
    exactly the dirty lines of each partition, once, most recently written first. *)
Theorem C55_lists_exact n P now a0 es : good_start n P a0 ->
  exists a1 a, populate n P now a0 = Some a1 /\ run n P es a1 = Some a /\
    Shows n P a (spec_run n P es (spec_start n P now (part a0) (mapped a0) (dirty a0))).
Proof.
  intros G. destruct (populate_inv n P now a0 G) as (a1 & E1 & V1). destruct (run_inv n P es a1 _ V1) as (a & E & V).
  exists a1, a. split; [exact E1|]. split; [exact E|]. apply inv_shows. exact V.
Qed.

(** *** What the cleaner collects *)
Fixpoint take_while (f : nat -> bool) (l : list nat) : list nat :=
  match l with [] => [] | x :: l => if f x then x :: take_while f l else [] end.

Lemma flush_loop_spec m busy last : forall L n k fuel, seg m None L n -> length L < fuel ->
  flush_loop fuel m busy last k (last_or None L) =
  Some (firstn k (filter (fun x => negb (busy x)) (take_while (fun x => stamp (m x) <? last) (rev L)))).
Proof.
  intros L. induction L as [|x L IH] using rev_ind; intros n k fuel SG H; (destruct fuel as [|fuel]; [lia|]).
  - cbn. rewrite firstn_nil. reflexivity.
  - rewrite app_length in H. cbn [length] in H. rewrite last_or_snoc, rev_app_distr. cbn [flush_loop rev app take_while].
    apply seg_app in SG. destruct SG as (S1 & S2). cbn [seg] in S2. destruct S2 as (-> & _). cbn [hd_or] in S1.
    rewrite Nat.leb_antisym. destruct (stamp (m x) <? last); cbn [negb]; [|cbn [filter]; rewrite firstn_nil; reflexivity].
    destruct k as [|k]; [reflexivity|]. cbn [filter]. destruct (busy x); cbn [negb].
    + apply (IH (Some x)); [assumption|lia].
    + rewrite (IH (Some x)) by (assumption || lia). reflexivity.
Qed.

Definition collected (n P : nat) (a : alru) (busy : nat -> bool) (last k : nat) (ps : list nat) (A : spec) : list nat :=
  firstn k (concat (map (fun p => filter (fun x => negb (busy x)) (take_while (fun x => ts A x <? last) (rev (F A p)))) ps)).

Lemma take_while_ext f g l : (forall x, In x l -> f x = g x) -> take_while f l = take_while g l.
Proof.
  induction l as [|x l IH]; intros H; [reflexivity|]. cbn [take_while]. rewrite (H x (or_introl eq_refl)). destruct (g x); [|reflexivity].
  f_equal. apply IH. intros y Iy. apply H. right; assumption.
Qed.

Lemma get_data_spec n P a A busy last ps : inv n P a A -> (forall p, In p ps -> p < P) -> forall k,
  get_data_to_flush (S n) busy last k ps a = Some (collected n P a busy last k ps A).
Proof.
  intros V. induction ps as [|p ps IH]; intros Hps k; cbn [get_data_to_flush]; [unfold collected; cbn; rewrite firstn_nil; reflexivity|].
  assert (Hp : p < P) by (apply Hps; left; reflexivity). pose proof (v_rep _ _ _ _ V p Hp) as (ND & SG & _ & ->).
  rewrite (flush_loop_spec (meta a) busy last (F A p) None k (S n) SG) by (pose proof (inv_len n P a A p V Hp); lia).
  rewrite IH by (intros q Iq; apply Hps; right; assumption). f_equal. unfold collected. cbn [map concat]. rewrite firstn_app.
  rewrite (take_while_ext (fun x => stamp (meta a x) <? last) (fun x => ts A x <? last)).
  - f_equal. f_equal. rewrite firstn_length. lia.
  - intros x Ix. apply in_rev in Ix. rewrite (v_stamp _ _ _ _ V p x Ix). reflexivity.
Qed.

(** The clock does not go back: times of the events. *)
Fixpoint times (t : nat) (es : list event) : Prop :=
  match es with
  | [] => True
  | Write _ now :: es | Repart _ _ now :: es => t <= now /\ times now es
  | _ :: es => times t es
  end.
Definition newer (A : spec) (x y : nat) : Prop := ts A y <= ts A x.
Definition ordered (t : nat) (A : spec) : Prop :=
  forall p, StronglySorted (newer A) (F A p) /\ forall x, In x (F A p) -> ts A x <= t.

Lemma sorted_ext A A' l : (forall x, In x l -> ts A' x = ts A x) -> StronglySorted (newer A) l -> StronglySorted (newer A') l.
Proof.
  induction l as [|x l IH]; intros H S; [constructor|]. inversion S as [|? ? S1 S2]; subst. constructor.
  - apply IH; [|assumption]. intros y Iy. apply H. right; assumption.
  - rewrite Forall_forall in *. intros y Iy. unfold newer in *. rewrite (H x), (H y) by (left + right; auto). apply S2. assumption.
Qed.
Lemma sorted_rem A x l : StronglySorted (newer A) l -> StronglySorted (newer A) (rem x l).
Proof.
  induction l as [|y l IH]; intros S; [constructor|]. inversion S as [|? ? S1 S2]; subst. cbn [rem filter].
  destruct (y =? x); cbn [negb]; [apply IH; assumption|]. constructor; [apply IH; assumption|].
  rewrite Forall_forall in *. intros z Iz. apply S2. apply rem_in in Iz. apply Iz.
Qed.
(** Putting a line with the newest time in front *)
Lemma sorted_front A A' x l t now : (forall y, ts A' y = if y =? x then now else ts A y) -> StronglySorted (newer A) l -> ~ In x l ->
  (forall y, In y l -> ts A y <= t) -> t <= now -> StronglySorted (newer A') (x :: l) /\ forall y, In y (x :: l) -> ts A' y <= now.
Proof.
  intros T S Nx B Ht. split.
  - constructor.
    + apply (sorted_ext A); [|assumption]. intros y Iy. rewrite T. destruct (Nat.eqb_spec y x) as [->|]; [contradiction|reflexivity].
    + rewrite Forall_forall. intros y Iy. unfold newer. rewrite !T, Nat.eqb_refl. destruct (Nat.eqb_spec y x) as [->|]; [contradiction|].
      specialize (B y Iy). lia.
  - intros y Iy. rewrite T. destruct (Nat.eqb_spec y x) as [->|Ny]; [lia|]. destruct Iy as [<-|Iy]; [congruence|]. specialize (B y Iy). lia.
Qed.

Definition next_time (t : nat) (e : event) : nat := match e with Write _ now | Repart _ _ now => Nat.max t now | _ => t end.
Lemma step_ordered n P e A t : (forall p q x, In x (F A p) -> In x (F A q) -> p = q) -> (forall p x, In x (F A p) -> sp A x = p) ->
  (match e with Write _ now | Repart _ _ now => t <= now | _ => True end) -> ordered t A -> ordered (next_time t e) (spec_step n P e A).
Proof.
  intros Dj Sp Ht O. destruct e as [x p|x|x now|x|x q now]; cbn [spec_step next_time].
  - destruct (_ && _); exact O.
  - destruct (_ && _); exact O.
  - replace (Nat.max t now) with now by lia. destruct (_ && _).
    + intros r. cbn [F ts]. destruct (Nat.eqb_spec r (sp A x)) as [->|Nr].
      * rewrite !setf_same. match goal with |- StronglySorted (newer ?B) _ /\ _ => apply (sorted_front A B x _ t now) end; [intros y; reflexivity | apply sorted_rem, O | rewrite rem_in; tauto | | assumption].
        intros y Iy. apply rem_in in Iy. apply (O (sp A x)). apply Iy.
      * rewrite !(setf_other (F A)) by assumption. assert (X : forall y, In y (F A r) -> setf (ts A) x now y = ts A y).
        { intros y Iy. apply setf_other. intros ->. apply Nr. symmetry. apply Sp. assumption. }
        split; [apply (sorted_ext A); [exact X | apply O]|]. intros y Iy. rewrite X by assumption. destruct (O r) as (_ & B). specialize (B y Iy). lia.
    + intros r. destruct (O r) as (S & B). split; [assumption|]. intros y Iy. specialize (B y Iy). lia.
  - destruct (_ && _); [|exact O]. intros r. cbn [F ts]. unfold setf. destruct (Nat.eqb_spec r (sp A x)) as [->|]; [|apply O].
    destruct (O (sp A x)) as (S & B). split; [apply sorted_rem; exact S|]. intros y Iy. apply rem_in in Iy. apply B. apply Iy.
  - replace (Nat.max t now) with now by lia. destruct (_ && _) eqn:E.
    + destruct (sd A x).
      * rewrite !andb_true_iff, negb_true_iff, Nat.eqb_neq in E. destruct E as (_ & Npq).
        intros r. cbn [F ts].
        assert (X : forall r y, sp A x <> r -> In y (F A r) -> y <> x). { intros r' y Nr Iy ->. apply Nr. apply Sp. assumption. }
        destruct (Nat.eqb_spec r q) as [->|Nr].
        -- rewrite setf_same. match goal with |- StronglySorted (newer ?B) _ /\ _ => apply (sorted_front A B x _ t now) end; [intros y; reflexivity | apply O | | apply (O q) | assumption].
           intros Ix. apply (X q x); auto.
        -- rewrite setf_other by assumption. destruct (Nat.eqb_spec r (sp A x)) as [->|Nr2].
           ++ rewrite setf_same. split.
              ** apply (sorted_ext A); [|apply sorted_rem, O]. intros y Iy. cbn [ts]. apply rem_in in Iy. apply setf_other. apply Iy.
              ** intros y Iy. apply rem_in in Iy. rewrite setf_other by apply Iy. destruct (O (sp A x)) as (_ & B). destruct Iy as (Iy & _). specialize (B y Iy). lia.
           ++ rewrite setf_other by assumption. split.
              ** apply (sorted_ext A); [|apply O]. intros y Iy. cbn [ts]. apply setf_other. apply (X r); [congruence|assumption].
              ** intros y Iy. rewrite setf_other by (apply (X r); [congruence|assumption]). destruct (O r) as (_ & B). specialize (B y Iy). lia.
      * intros r. destruct (O r) as (S & B). cbn [F ts]. split; [assumption|]. intros y Iy. specialize (B y Iy). lia.
    + intros r. destruct (O r) as (S & B). split; [assumption|]. intros y Iy. specialize (B y Iy). lia.
Qed.

Lemma run_ordered n P es : forall a A t, inv n P a A -> times t es -> ordered t A -> exists t', ordered t' (spec_run n P es A).
Proof.
  induction es as [|e es IH]; intros a A t V T O; cbn [spec_run fold_left]; [eauto|].
  destruct (step_inv n P e a A V) as (a' & _ & V').
  assert (T' : times (next_time t e) es /\ match e with Write _ now | Repart _ _ now => t <= now | _ => True end).
  { destruct e; cbn [times next_time] in *; try (split; [exact T|exact I]); destruct T as (T1 & T2); (split; [replace (Nat.max t now) with now by lia; exact T2|exact T1]). }
  destruct T' as (T1 & T2). apply (IH a' _ _ V' T1). apply step_ordered; [| | exact T2 | exact O].
  - intros p q x Ip Iq. apply (v_in _ _ _ _ V) in Ip, Iq. destruct Ip as (_ & _ & _ & _ & <-), Iq as (_ & _ & _ & _ & <-). reflexivity.
  - intros p x Ix. rewrite <- (v_sp _ _ _ _ V). apply (v_in _ _ _ _ V) in Ix. apply Ix.
Qed.

Lemma start_ordered n P now t pt mp dt : (forall x y, x <= y -> y < n -> now x <= now y) -> (forall x, x < n -> now x <= t) ->
  ordered t (spec_start n P now pt mp dt).
Proof.
  intros M B p. cbn [spec_start F]. destruct (p <? P); [|split; [constructor|intros x []]]. split.
  - assert (G : forall k, k <= n -> StronglySorted (newer (spec_start n P now pt mp dt)) (rev (filter (fun x => mp x && dt x && (pt x =? p)) (seq 0 k)))).
    { induction k as [|k IH]; intros Hk; [constructor|]. rewrite seq_S, filter_app, rev_app_distr. cbn [filter Nat.add].
      destruct (mp k && dt k && (pt k =? p)); cbn [rev app]; [|apply IH; lia]. constructor; [apply IH; lia|].
      rewrite Forall_forall. intros y Iy. apply in_rev, filter_In in Iy. destruct Iy as (Iy & _). apply in_seq in Iy. unfold newer. cbn [ts]. apply M; lia. }
    apply G. lia.
  - intros x Ix. apply in_rev, filter_In in Ix. destruct Ix as (Ix & _). apply in_seq in Ix. cbn [ts]. apply B. lia.
Qed.

Lemma rev_sorted_take A last l : StronglySorted (newer A) l ->
  take_while (fun x => ts A x <? last) (rev l) = filter (fun x => ts A x <? last) (rev l).
Proof.
  intros S.
  assert (G : forall l', StronglySorted (fun x y => ts A x <= ts A y) l' -> take_while (fun x => ts A x <? last) l' = filter (fun x => ts A x <? last) l').
  { induction l' as [|x l' IH]; intros S'; [reflexivity|]. inversion S' as [|? ? S1 S2]; subst. cbn [take_while filter].
    destruct (Nat.ltb_spec (ts A x) last) as [H|H]; [f_equal; apply IH; assumption|]. symmetry.
    rewrite Forall_forall in S2. clear -S2 H. induction l' as [|y l' IH]; [reflexivity|]. cbn [filter].
    destruct (Nat.ltb_spec (ts A y) last) as [H2|H2]; [|apply IH; intros z Iz; apply S2; right; assumption].
    specialize (S2 y (or_introl eq_refl)). lia. }
  apply G. clear -S. induction S as [|x l S IH Fa]; cbn [rev]; [constructor|].
  assert (App : forall l1, StronglySorted (fun x y => ts A x <= ts A y) l1 -> (forall y, In y l1 -> ts A y <= ts A x) -> StronglySorted (fun x y => ts A x <= ts A y) (l1 ++ [x])).
  { clear. induction l1 as [|z l1 IH]; intros S B; cbn [app]; [constructor; constructor|]. inversion S as [|? ? S1 S2]; subst. constructor.
    - apply IH; [assumption|]. intros y Iy. apply B. right; assumption.
    - rewrite Forall_forall in *. intros y Iy. apply in_app_iff in Iy. destruct Iy as [Iy|[<-|[]]]; [apply S2; assumption | apply B; left; reflexivity]. }
  apply App; [exact IH|]. intros y Iy. apply in_rev in Iy. rewrite Forall_forall in Fa. apply Fa. assumption.
Qed.

(** What a cleaning pass collects: partition by partition in the order [ps], oldest first, the
    stale dirty lines that are not busy, as many as asked for.  A line is stale if its last write
    is before [last].  Needs a clock that does not go back. *)
Theorem C55_collects_stale n P now t0 a0 es a1 a busy last k ps : good_start n P a0 ->
  (forall x y, x <= y -> y < n -> now x <= now y) -> (forall x, x < n -> now x <= t0) -> times t0 es ->
  (forall p, In p ps -> p < P) ->
  populate n P now a0 = Some a1 -> run n P es a1 = Some a ->
  let A := spec_run n P es (spec_start n P now (part a0) (mapped a0) (dirty a0)) in
  get_data_to_flush (S n) busy last k ps a =
    Some (firstn k (concat (map (fun p => filter (fun x => negb (busy x)) (filter (fun x => ts A x <? last) (rev (F A p)))) ps))).
Proof.
  intros G M B T Hps E1 E A. destruct (populate_inv n P now a0 G) as (a1' & E1' & V1).
  assert (a1' = a1) by congruence. subst a1'. destruct (run_inv n P es a1 _ V1) as (a' & E' & V).
  assert (a' = a) by congruence. subst a'.
  destruct (run_ordered n P es a1 _ t0 V1 T (start_ordered n P now t0 (part a0) (mapped a0) (dirty a0) M B)) as (t' & O).
  fold A in V, O. rewrite (get_data_spec n P a A busy last ps V Hps k). unfold collected. f_equal. f_equal. f_equal.
  apply map_ext_in. intros p Ip. f_equal. apply rev_sorted_take. apply O.
Qed.

(** With last_access = ~0 (dirty ratio exceeded), enough room and nothing busy, exactly the dirty
    lines are collected. *)
Theorem C55_collects_all n P now a0 es a1 a last k x : good_start n P a0 ->
  populate n P now a0 = Some a1 -> run n P es a1 = Some a ->
  (forall y, stamp (meta a y) < last) -> n * P <= k ->
  exists l, get_data_to_flush (S n) (fun _ => false) last k (seq 0 P) a = Some l /\
    (In x l <-> x < n /\ dirty a x = true).
Proof.
  intros G E1 E HL Hk. destruct (populate_inv n P now a0 G) as (a1' & E1' & V1).
  assert (a1' = a1) by congruence. subst a1'. destruct (run_inv n P es a1 _ V1) as (a' & E' & V).
  assert (a' = a) by congruence. subst a'. remember (spec_run n P es _) as A eqn:EA. clear EA.
  eexists. split; [apply (get_data_spec n P a A (fun _ => false) last (seq 0 P) V)|].
  { intros p Ip. apply in_seq in Ip. lia. }
  unfold collected.
  assert (TW : forall p, p < P -> filter (fun x => negb false) (take_while (fun x => ts A x <? last) (rev (F A p))) = rev (F A p)).
  { intros p Hp. replace (take_while (fun x => ts A x <? last) (rev (F A p))) with (rev (F A p)).
    - cbn. clear. induction (rev (F A p)) as [|y l IH]; [reflexivity|]. cbn [filter]. f_equal. exact IH.
    - symmetry. assert (Q : forall l, (forall y, In y l -> ts A y <? last = true) -> take_while (fun x => ts A x <? last) l = l).
      { induction l as [|y l IH]; intros H; [reflexivity|]. cbn [take_while]. rewrite (H y (or_introl eq_refl)). f_equal. apply IH. intros z Iz. apply H. right; assumption. }
      apply Q. intros y Iy. apply in_rev in Iy. rewrite <- (v_stamp _ _ _ _ V p y Iy). apply Nat.ltb_lt. apply HL. }
  rewrite (map_ext_in _ (fun p => rev (F A p))).
  2:{ intros p Ip. apply in_seq in Ip. apply TW. lia. }
  rewrite firstn_all2.
  - rewrite in_concat. split.
    + intros (l & Il & Ix). apply in_map_iff in Il. destruct Il as (p & <- & Ip). apply in_rev in Ix. apply (v_in _ _ _ _ V) in Ix. tauto.
    + intros (Hx & D). destruct (v_dirty _ _ _ _ V x D) as (_ & M). exists (rev (F A (part a x))).
      assert (Hp : part a x < P) by (apply (v_part _ _ _ _ V); assumption).
      split; [apply in_map_iff; exists (part a x); split; [reflexivity|apply in_seq; lia]|]. apply in_rev. rewrite rev_involutive. apply (v_in _ _ _ _ V). auto.
  - etransitivity; [|exact Hk]. clear -V.
    assert (Q : forall l, (forall p, In p l -> p < P) -> length (concat (map (fun p => rev (F A p)) l)) <= n * length l).
    { induction l as [|p l IH]; intros Hl; [cbn; lia|]. cbn [map concat length]. rewrite app_length, rev_length.
      pose proof (inv_len n P a A p V (Hl p (or_introl eq_refl))). specialize (IH (fun q Iq => Hl q (or_intror Iq))). lia. }
    rewrite <- (seq_length P 0) at 2. apply Q. intros p Ip. apply in_seq in Ip. lia.
Qed.

(** *** A concrete case *)
Definition case_start : alru :=
  {| meta := fun x => {| prv := Some (x + 1); nxt := Some 7; stamp := 99 |}; head := fun _ => Some 3; tail := fun _ => None; size := fun _ => 5;
     part := fun x => x mod 2; mapped := fun x => x <? 40; dirty := fun x => (x <? 40) && (x mod 3 =? 0) |}.
Example case_good : good_start 70 2 case_start.
Proof.
  split.
  - intros x _ _. cbn [part case_start]. apply Nat.mod_upper_bound. lia.
  - intros x D. cbn [dirty mapped case_start] in *. apply andb_true_iff in D. destruct D as (D & _). apply Nat.ltb_lt in D. split; [lia|]. apply Nat.ltb_lt. assumption.
Qed.
Definition case_events : list event := [Write 4 20; Clean 6; Map 50 1; Write 50 21; Repart 12 1 22; Write 3 23; Clean 50; Unmap 50].
Example case_run : option_map (fun a => (follow (fun x => nxt (meta a x)) 71 (head a 0), follow (fun x => nxt (meta a x)) 71 (head a 1), size a 0,
    get_data_to_flush 71 (fun x => x =? 24) 20 4 [0; 1] a, get_data_to_flush 71 (fun _ => false) 20 100 [0; 1] a))
  (match populate 70 2 (fun _ => 10) case_start with Some a => run 70 2 case_events a | None => None end) =
  Some ([4; 36; 30; 24; 18; 0], [3; 12; 39; 33; 27; 21; 15; 9], 6, Some [0; 18; 30; 36], Some [0; 18; 24; 30; 36; 9; 15; 21; 27; 33; 39]).
Proof. vm_compute. reflexivity. Qed.

(** ** C31: the dirty ratio trigger *)
Open Scope N_scope.

(** Specification: cleaning is triggered when the dirty lines make up at least [max] percent. *)
Definition ratio_reached (max d s : N) : Prop := max * s <= 100 * d.

Lemma ratio_div max d s : s <> 0 -> (max <= d * 100 / s <-> max * s <= 100 * d).
Proof.
  intros Hs. rewrite (N.mul_comm 100 d). split; intros H.
  - pose proof (N.mul_div_le (d * 100) s Hs). nia.
  - apply N.div_le_lower_bound; [assumption|]. lia.
Qed.

(** The trigger never fires below the configured ratio. *)
Theorem C31_sound_partial max d s : s <> 0 -> check_for_dirty_ratio max d s = Some true -> max <> 100 /\ ratio_reached max d s.
Proof.
  unfold check_for_dirty_ratio. intros Hs. destruct (N.eqb_spec max 100) as [->|Nm]; [discriminate|]. destruct (N.eqb_spec s 0); [contradiction|].
  intros H. injection H as H. apply N.leb_le in H. split; [assumption|]. unfold ratio_reached. apply ratio_div; [assumption|].
  etransitivity; [exact H|]. apply N.div_le_mono; [assumption|]. apply N.mod_le. discriminate.
Qed.

(** Up to 42949672 dirty lines the trigger is exact.  Missing from C31: more dirty lines, where it
    is refuted below. *)
Theorem C31_exact_partial max d s : s <> 0 -> d <= 42949672 -> max < 100 ->
  exists b, check_for_dirty_ratio max d s = Some b /\ (b = true <-> ratio_reached max d s).
Proof.
  intros Hs Hd Hm. unfold check_for_dirty_ratio. destruct (N.eqb_spec max 100); [lia|]. destruct (N.eqb_spec s 0); [contradiction|].
  eexists. split; [reflexivity|]. rewrite N.mod_small by (unfold U32; lia). rewrite N.leb_le. apply ratio_div. assumption.
Qed.

(** Finding: info.dirty * 100 wraps at 2^32.  A cache of 42949673 lines (164 GiB with 4 KiB
    lines) that is completely dirty does not reach a maximum of 1 percent. *)
Theorem C31_refuted : exists max d s, d <= s /\ s < U32 /\ max < 100 /\ ratio_reached max d s /\ check_for_dirty_ratio max d s = Some false.
Proof. exists 1, 42949673, 42949673. unfold ratio_reached. vm_compute. repeat (split; try discriminate; try reflexivity). Qed.

Example C31_case : check_for_dirty_ratio 50 600 1000 = Some true /\ check_for_dirty_ratio 50 400 1000 = Some false.
Proof. split; reflexivity. Qed.

Print Assumptions C55_lists_exact.
Print Assumptions C55_collects_stale.
Print Assumptions C55_collects_all.
Print Assumptions C31_sound_partial.
Print Assumptions C31_exact_partial.
Print Assumptions C31_refuted.

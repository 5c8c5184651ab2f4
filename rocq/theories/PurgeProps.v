(** C66: dropping cache contents never loses data, drops all it should and nothing
    else; removing a core leaves none of its lines. *)
From Coq Require Import List Bool Arith NArith Lia Permutation.
From Verif Require Import CleanModel CleanProofs CleanInv CleanProps PurgeModel.
Import ListNotations.
Open Scope nat_scope.

(** ** Specification *)

(** Cache line [x] belongs to what is purged: the whole cache, or core [c]. *)
Definition target (who : option nat) (s : cst) (x : nat) : Prop :=
  match who with
  | None => mp (ln s x) <> None
  | Some c => exists cl, mp (ln s x) = Some (c, cl)
  end.
(** A line not mapped and holding nothing. *)
Definition empty_line (ns : nat) (l : line) : Prop :=
  mp l = None /\ forall k, k < ns -> va l k = false /\ di l k = false.
Definition mine (who : option nat) (c : nat) : Prop := match who with None => True | Some c' => c = c' end.
(** Core lines lie inside the core. *)
Definition inside (nl : nat) (ls : N) (who : option nat) (size : N) (s : cst) : Prop :=
  forall x c cl, who = Some c -> x < nl -> mp (ln s x) = Some (c, cl) -> (N.of_nat cl * ls < size)%N.

(** Ways a flush of the core or the cache can end: any interleaving with others, who
    only map core lines that exist. *)
Definition flush_ends (ns nl : nat) (ls : N) (vol : bool) (who : option nat) (size : N) (cores : list nat)
    (s0 : cst) (err : bool) (s : cst) : Prop :=
  exists o, moves ns nl vol who
              (Cfg s0 (match who with None => start_cache s0 cores | Some c => start_core s0 c end)) (Cfg s o) /\
            completed (Cfg s o) err /\ inside nl ls who size s.

Definition is_lock (a : act) := match a with Lock => true | _ => false end.
Definition is_unlock (a : act) := match a with Unlock => true | _ => false end.
Definition is_freeze (a : act) := match a with Freeze => true | _ => false end.
Definition is_unfreeze (a : act) := match a with Unfreeze => true | _ => false end.
Definition is_call (a : act) := match a with Call _ => true | _ => false end.
Definition cnt (f : act -> bool) (t : list act) : nat := length (filter f t).

(** ** The invalidation itself *)

Lemma acting_all first last m : acting None first last m = true <-> m <> None.
Proof. destruct m as [[c l]|]; cbn; split; congruence. Qed.
Lemma acting_core c last m : acting (Some c) 0 last m = true <-> exists l, m = Some (c, l) /\ (N.of_nat l <= last)%N.
Proof.
  destruct m as [[c' l]|]; cbn [acting].
  - destruct (Nat.eqb_spec c c') as [->|N]; cbn [negb].
    + replace (N.of_nat l <? 0)%N with false by (symmetry; apply N.ltb_ge; lia). cbn [orb].
      destruct (N.ltb_spec last (N.of_nat l)); split; try discriminate; auto.
      * intros (l' & [= <-] & H'). lia.
      * intros _. exists l. split; [reflexivity|assumption].
    + split; [discriminate|]. intros (l' & [= -> _] & _). congruence.
  - split; [discriminate|]. intros (l & [=] & _).
Qed.

Lemma sparse_same ns s x : empty_line ns (ln (sparse ns s x) x).
Proof.
  unfold empty_line, sparse. cbn [ln]. unfold set_ln. rewrite Nat.eqb_refl. cbn [mp va di]. split; [reflexivity|].
  intros k Hk. apply Nat.ltb_lt in Hk. now rewrite Hk.
Qed.
Lemma sparse_other ns s x y : y <> x -> ln (sparse ns s x) y = ln s y.
Proof. intros N. cbn. unfold set_ln. apply Nat.eqb_neq in N. now rewrite N. Qed.

(** One pass of the loop over lines x, x+1, ..., x+n-1. *)
Lemma actor_spec ns used who first last : forall n x s again s' again',
  actor ns used who first last n x s again = (s', again') ->
  (forall y, cr s' y = cr s y) /\ dc s' = dc s /\
  (forall y, x <= y < x + n -> acting who first last (mp (ln s y)) = true -> used y = false -> empty_line ns (ln s' y)) /\
  (forall y, ~ (x <= y < x + n /\ acting who first last (mp (ln s y)) = true /\ used y = false) -> ln s' y = ln s y) /\
  (again' = true <-> again = true \/ exists y, x <= y < x + n /\ acting who first last (mp (ln s y)) = true /\ used y = true).
Proof.
  induction n as [|n IH]; intros x s again s' again' E; cbn [actor] in E.
  - injection E as <- <-. repeat split; auto; try (intros; lia). intros [H|(y & H & _)]; [assumption|lia].
  - assert (SPL : forall y, x <= y < x + S n <-> y = x \/ S x <= y < S x + n) by (intros; lia).
    destruct (acting who first last (mp (ln s x))) eqn:A; [destruct (used x) eqn:U|]; apply IH in E;
      destruct E as (E1 & E2 & E3 & E4 & E5).
    + split; [assumption|]. split; [assumption|]. split; [|split].
      * intros y Hy Ay Uy. apply SPL in Hy. destruct Hy as [->|Hy]; [congruence|now apply E3].
      * intros y H. apply E4. intros (H1 & H2). apply H. split; [lia|assumption].
      * rewrite E5. split; [|auto]. intros _. right. exists x. split; [lia|auto].
    + split; [assumption|]. split; [assumption|]. split; [|split].
      * intros y Hy Ay Uy. apply SPL in Hy. destruct Hy as [->|Hy].
        -- rewrite E4 by lia. apply sparse_same.
        -- apply E3; auto. rewrite sparse_other by lia. assumption.
      * intros y H. destruct (Nat.eq_dec y x) as [->|N]; [exfalso; apply H; split; [lia|auto]|].
        rewrite E4; [now apply sparse_other|]. intros (H1 & H2). rewrite sparse_other in H2 by assumption. apply H. split; [lia|assumption].
      * rewrite E5. split; (intros [H|(y & Hy & Ay & Uy)]; [auto|right]).
        -- exists y. rewrite sparse_other in Ay by lia. split; [lia|auto].
        -- exists y. destruct (Nat.eq_dec y x) as [->|N]; [congruence|]. rewrite sparse_other by assumption. split; [lia|auto].
    + split; [assumption|]. split; [assumption|]. split; [|split].
      * intros y Hy Ay Uy. apply SPL in Hy. destruct Hy as [->|Hy]; [congruence|now apply E3].
      * intros y H. apply E4. intros (H1 & H2). apply H. split; [lia|assumption].
      * rewrite E5. split; (intros [H|(y & Hy & Ay & Uy)]; [auto|right]).
        -- exists y. split; [lia|auto].
        -- exists y. destruct (Nat.eq_dec y x) as [->|N]; [congruence|]. split; [lia|auto].
Qed.

(** Exactly the unused lines of the core, or of all cores, are emptied; devices and
    counters are not touched; "again" is reported iff a line to be purged is in use. *)
Theorem C66_invalidate_exact : forall ns nl ls used who size s s' again,
  (0 < ls)%N -> inside nl ls who size s -> (size < 2 ^ 64)%N ->
  sparse_range ns nl ls used who (purge_end who size) s = (s', again) ->
  (forall x, x < nl -> target who s x -> used x = false -> empty_line ns (ln s' x)) /\
  (forall x, ~ (x < nl /\ target who s x /\ used x = false) -> ln s' x = ln s x) /\
  (forall c, cr s' c = cr s c) /\ dc s' = dc s /\
  (again = true <-> exists x, x < nl /\ target who s x /\ used x = true).
Proof.
  intros ns nl ls used who size s s' again HL IN SZ E. unfold sparse_range in E.
  rewrite N.div_0_l in E by lia. apply actor_spec in E.
  assert (EQ : forall y, y < nl -> acting who 0 (purge_end who size / ls) (mp (ln s y)) = true <-> target who s y).
  { intros y Hy. destruct who as [c|]; [|apply acting_all]. rewrite acting_core. cbn [target]. split.
    - intros (l & H & _). eauto.
    - intros (l & H). exists l. split; [assumption|]. specialize (IN y c l eq_refl Hy H). cbn [purge_end].
      destruct (N.eqb_spec size 0) as [->|NZ]; [lia|]. apply N.div_le_lower_bound; lia. }
  destruct E as (E1 & E2 & E3 & E4 & E5). repeat split; auto.
  - apply E3; auto. lia. apply EQ; [lia|assumption].
  - apply E3; auto. lia. apply EQ; [lia|assumption].
  - apply E3; auto. lia. apply EQ; [lia|assumption].
  - intros x H. apply E4. intros (H1 & H2 & H3). apply H. split; [lia|]. split; [apply EQ; [lia|assumption]|assumption].
  - intros ->. destruct E5 as [E5 _]. destruct (E5 eq_refl) as [?|(y & H1 & H2 & H3)]; [discriminate|].
    exists y. split; [lia|]. split; [apply EQ; [lia|assumption]|assumption].
  - intros (y & H1 & H2 & H3). apply E5. right. exists y. split; [lia|]. split; [apply EQ; [lia|assumption]|assumption].
Qed.

(** ** Purge *)

(** Emptying lines without dirty sectors keeps everything coherent and loses
    nothing. *)
Lemma emptied_rely ns nl s s' : coh ns nl s ->
  (forall x, x < nl -> ln s' x = ln s x \/ (empty_line ns (ln s' x) /\ clean_line ns s x)) ->
  (forall c, cr s' c = cr s c) -> dc s' = dc s ->
  coh ns nl s' /\ (forall c cl k d, k < ns -> is_content nl s c cl k d -> is_content nl s' c cl k d).
Proof.
  intros C L R D.
  assert (DI : forall x k, x < nl -> k < ns -> di (ln s' x) k = di (ln s x) k).
  { intros x k Hx Hk. destruct (L x Hx) as [->|[[_ E] CL]]; [reflexivity|]. rewrite CL by assumption. now apply E. }
  assert (MP : forall x m, x < nl -> mp (ln s' x) = Some m -> ln s' x = ln s x).
  { intros x m Hx M. destruct (L x Hx) as [H|[[E _] _]]; [assumption|congruence]. }
  split.
  - constructor.
    + intros x y m Hx Hy M1 M2. rewrite (MP _ _ Hx M1) in M1. rewrite (MP _ _ Hy M2) in M2. now apply (c_inj _ _ _ C x y m).
    + intros x k Hx Hk H. assert (H' := H). rewrite DI in H' by assumption. destruct (L x Hx) as [EQ|[[_ E] CL]].
      * rewrite EQ in *. now apply (c_dirty _ _ _ C).
      * rewrite (CL k Hk) in H'. discriminate.
    + intros x k c cl Hx Hk M V H. assert (Q := MP _ _ Hx M). rewrite Q in *. rewrite R. now apply (c_clean _ _ _ C).
    + intros c. rewrite D, (c_cnt _ _ _ C). unfold dlist. f_equal. apply filter_ext_in. intros x Hx. apply in_seq in Hx.
      destruct (L x) as [->|[[E1 E2] CL]]; [lia|reflexivity|].
      assert (T : forall l, (forall k, k < ns -> di l k = false) -> test_dirty ns l = false).
      { intros l H. destruct (test_dirty ns l) eqn:Q; [|reflexivity]. apply test_dirty_iff in Q. destruct Q as (k & Hk & Q). rewrite H in Q by assumption. discriminate. }
      rewrite (T (ln s x)) by assumption. rewrite (T (ln s' x)); [reflexivity|]. intros k Hk. now apply E2.
  - intros c cl k d Hk [I1 I2]. split.
    + intros x Hx M H. assert (Q := MP _ _ Hx M). rewrite Q in *. now apply I1.
    + intros H. rewrite R. apply I2. intros x Hx M. destruct (L x Hx) as [EQ|[_ CL]]; [|now apply CL].
      rewrite <- EQ in *. now apply H.
Qed.

(** In any outcome of a purge of an attached cache: no content of any core changes
    and the state stays coherent.  If success is reported, nothing of the target is
    left in the cache, and the core devices hold all of its data. *)
Theorem C66_purge : forall ns nl ls vol e who cores size s0 out,
  coh ns nl s0 -> NoDup cores -> (who = None -> forall c x, cdirty ns nl s0 c x -> In c cores) ->
  attached e = true -> (0 < ls)%N -> (size < 2 ^ 64)%N ->
  purge ns nl ls e who size (flush_ends ns nl ls vol who size cores) s0 out ->
  exists s t, out = POut s t /\ coh ns nl s /\
    (forall c cl k d, k < ns -> is_content nl s0 c cl k d -> is_content nl s c cl k d) /\
    (In (Call None) t ->
       (forall x, x < nl -> ~ target who s x) /\
       (forall c cl k d, k < ns -> mine who c -> is_content nl s0 c cl k d -> cr s c cl k = d)).
Proof.
  intros ns nl ls vol e who cores size s0 out C ND DC AT HL SZ P. destruct P as [r E|E|used err s E F].
  - exists s0, [Call (Some r)]. split; [reflexivity|]. split; [assumption|]. split; [auto|]. intros [H|[]]. discriminate.
  - exists s0, (finish false false (Some InProgress)). split; [reflexivity|]. split; [assumption|]. split; [auto|]. intros [H|[]]. discriminate.
  - destruct F as (o & M & Fin & IN').
    assert (IV : Inv ns nl who s0 (Cfg s o)).
    { destruct who as [c|].
      - exact (moves_inv ns nl vol (Some c) s0 _ _ (start_core_inv ns nl s0 c C) M).
      - exact (moves_inv ns nl vol None s0 _ _ (start_cache_inv ns nl s0 cores C ND (DC eq_refl)) M). }
    assert (IV' := IV). destruct IV' as (CS & CT & _).
    assert (CT' : forall c cl k d, k < ns -> is_content nl s0 c cl k d -> is_content nl s c cl k d) by (intros; now apply CT).
    unfold purge_rest. destruct err.
    + exists s, ([Lock; Freeze; Flush] ++ finish true true (Some FlushErr)). split; [reflexivity|].
      split; [assumption|]. split; [assumption|]. intros H. cbn in H. repeat (destruct H as [H|H]; [discriminate|]). destruct H.
    + rewrite AT. cbn [negb]. assert (FL := inv_flushed ns nl who s0 s o C IV Fin).
      destruct (sparse_range ns nl ls used who (purge_end who size) s) as [s' again] eqn:SR.
      destruct (C66_invalidate_exact _ _ _ _ _ _ _ _ _ HL IN' SZ SR) as (X1 & X2 & X3 & X4 & X5).
      destruct FL as (F1 & F2 & F3).
      assert (REL : forall c, mine who c -> relevant who c) by (intros c; destruct who; cbn; auto).
      assert (TCL : forall x, x < nl -> target who s x -> clean_line ns s x).
      { intros x Hx T k Hk. destruct who as [c|]; cbn [target] in T.
        - destruct T as (cl & T). apply (F1 x k c cl); auto. reflexivity.
        - destruct (mp (ln s x)) as [[c cl]|] eqn:Q; [|congruence]. apply (F1 x k c cl); auto. exact I. }
      assert (LL : forall x, x < nl -> ln s' x = ln s x \/ (empty_line ns (ln s' x) /\ clean_line ns s x)).
      { intros x Hx.
        assert (TD : target who s x \/ ~ target who s x).
        { destruct who as [c|]; cbn [target]; destruct (mp (ln s x)) as [[c' cl]|]; try (now right; intros (? & ?)); try (now left); try (right; congruence).
          destruct (Nat.eq_dec c' c) as [->|N]; [left; eauto|right; intros (? & [= ? _]); congruence]. }
        destruct TD as [T|T]; [|left; apply X2; tauto].
        destruct (used x) eqn:U; [left; apply X2; intros (_ & _ & ?); congruence|]. right. split; [now apply X1|now apply TCL]. }
      destruct (emptied_rely ns nl s s' CS LL X3 X4) as (CS' & CT2).
      exists s', ([Lock; Freeze; Flush; Sparse] ++ finish true true (if again then Some Again else None)).
      split; [reflexivity|]. split; [assumption|]. split; [intros; apply CT2; auto|].
      intros H. destruct again.
      { cbn in H. repeat (destruct H as [H|H]; [discriminate|]). destruct H. }
      assert (NU : forall x, x < nl -> target who s x -> used x = false).
      { intros x Hx T. destruct (used x) eqn:U; [|reflexivity]. destruct X5 as [_ X5]. discriminate X5. eauto. }
      assert (NT : forall x, x < nl -> ~ target who s' x).
      { intros x Hx T. destruct (LL x Hx) as [Q|[[Q _] _]].
        - assert (T0 : target who s x) by (destruct who; cbn [target] in *; now rewrite <- Q).
          destruct (X1 x Hx T0 (NU x Hx T0)) as [Z _]. destruct who; cbn [target] in T; [destruct T|]; congruence.
        - destruct who; cbn [target] in T; [destruct T|]; congruence. }
      split; [assumption|]. intros c cl k d Hk Mi Ic.
      apply CT' in Ic; [|assumption]. apply CT2 in Ic; [|assumption]. destruct Ic as [_ Ic]. apply Ic.
      intros x Hx Mx. exfalso. apply (NT x Hx). destruct who as [c'|]; cbn [target mine] in *; [subst; eauto|congruence].
Qed.

(** The flush mutex and the freeze of dirty requests are released exactly when taken,
    the invalidation happens only inside them after a flush without error, and the
    callback is called once, last. *)
Theorem C66_purge_balanced : forall ns nl ls e who size ends s0 s t,
  purge ns nl ls e who size ends s0 (POut s t) ->
  cnt is_lock t = cnt is_unlock t /\ cnt is_freeze t = cnt is_unfreeze t /\
  (exists t' r, t = t' ++ [Call r] /\ cnt is_call t' = 0) /\
  (In Sparse t -> exists t1 t2 s1, t = Lock :: Freeze :: t1 ++ Sparse :: t2 /\ cnt is_unlock t1 = 0 /\ cnt is_unfreeze t1 = 0 /\
     ends s0 false s1) /\
  (~ In Sparse t -> s = s0 \/ ends s0 true s).
Proof.
  intros ns nl ls e who size ends s0 s t P. remember (POut s t) as out eqn:Q. destruct P as [r E|E|used err s1 E F].
  - injection Q as <- <-. repeat split; auto.
    + exists [], (Some r). split; reflexivity.
    + intros [H|[]]. discriminate.
  - injection Q as <- <-. repeat split; auto.
    + exists [], (Some InProgress). split; reflexivity.
    + intros [H|[]]. discriminate.
  - unfold purge_rest in Q. destruct err.
    + injection Q as <- <-. repeat split; auto.
      * exists [Lock; Freeze; Flush; Unfreeze; Unlock], (Some FlushErr). split; reflexivity.
      * intros H. cbn in H. repeat (destruct H as [H|H]; [discriminate|]). destruct H.
    + destruct (negb (attached e)); [discriminate|]. destruct (sparse_range _ _ _ _ _ _ _) as [s' again].
      injection Q as <- <-. repeat split; auto.
      * exists [Lock; Freeze; Flush; Sparse; Unfreeze; Unlock], (if again then Some Again else None). split; reflexivity.
      * intros _. exists [Flush], [Unfreeze; Unlock; Call (if again then Some Again else None)], s1. repeat split; auto.
      * intros H. exfalso. apply H. cbn. auto.
Qed.

(** Purging a detached cache dereferences a null pointer, where flushing it is
    refused. *)
Theorem C66_purge_detached_refuted : exists e s0,
  coh 2 3 s0 /\ attached e = false /\ enter_flush false e <> None /\ enter_flush true e <> None /\
  purge 2 3 1024 e None 0 (flush_ends 2 3 1024 false None 0 [0]) s0 PCrash /\
  purge 2 3 1024 e (Some 0) 4096 (flush_ends 2 3 1024 false (Some 0) 4096 [0]) s0 PCrash.
Proof.
  set (s0 := {| ln := fun _ => {| mp := None; va := fun _ => false; di := fun _ => false; da := fun _ => 0 |};
                cr := fun _ _ _ => 0; dc := fun _ => 0 |}).
  set (e := {| standby := false; attached := false; incomplete := false; opened := true; queue := true; mem := true |}).
  exists e, s0. split; [|split; [reflexivity|split; [discriminate|split; [discriminate|split]]]].
  - constructor; cbn; try discriminate. intros c. reflexivity.
  - refine (Purge_go 2 3 1024 e None 0 _ s0 (fun _ => false) false s0 eq_refl _).
    exists (start_cache s0 [0]). split; [apply Ms_refl|]. split; [repeat split|]. intros x c cl [=].
  - refine (Purge_go 2 3 1024 e (Some 0) 4096 _ s0 (fun _ => false) false s0 eq_refl _).
    exists (start_core s0 0). split; [apply Ms_refl|]. split; [repeat split|]. intros x c cl _ _ [=].
Qed.

(** ** Removing the lines of a core *)
Section Remove.
Variables (c nh : nat) (hash : nat -> nat -> nat).

(** The lines of a collision list are the mapped lines with that hash, each once;
    lines on the cleaning policy's lists are dirty, dirty lines are mapped. *)
Record wf (s : rst) : Prop := {
  w_nodup : forall h, NoDup (chn s h);
  w_in : forall h x, In x (chn s h) <-> exists c' l, own s x = Some (c', l) /\ hash c' l = h;
  w_pol : forall x, pol s x = true -> dty s x = true;
  w_dty : forall x, dty s x = true -> own s x <> None }.

(** Others: the list being worked on is locked.  [quiet]: no new lines for the core
    that is being removed. *)
Record others (quiet : bool) (p : pc) (s s' : rst) : Prop := {
  o_wf : wf s';
  o_quiet : quiet = true -> forall x l, own s' x = Some (c, l) -> own s x = Some (c, l);
  o_lock : forall h prev cur, p = Inner h prev cur -> chn s' h = chn s h /\ forall x, In x (chn s h) -> own s' x = own s x }.

Inductive reach (quiet : bool) (p0 : pc) (s0 : rst) : pc -> rst -> Prop :=
| R_start : reach quiet p0 s0 p0 s0
| R_own p s t p' s' : reach quiet p0 s0 p s -> rstep c nh t p s = (p', s') -> reach quiet p0 s0 p' s'
| R_env p s s' : reach quiet p0 s0 p s -> others quiet p s s' -> reach quiet p0 s0 p s'.

Lemma setf_same {A} (f : nat -> A) x v : setf f x v x = v.
Proof. unfold setf. now rewrite Nat.eqb_refl. Qed.
Lemma setf_other {A} (f : nat -> A) x v y : y <> x -> setf f x v y = f y.
Proof. intros N. unfold setf. apply Nat.eqb_neq in N. now rewrite N. Qed.

Lemma remove_in (l : list nat) x y : In y (remove Nat.eq_dec x l) <-> In y l /\ y <> x.
Proof.
  split; [apply in_remove|]. intros [H N]. now apply in_in_remove.
Qed.
Lemma remove_nodup (l : list nat) x : NoDup l -> NoDup (remove Nat.eq_dec x l).
Proof.
  induction 1 as [|y l H N IH]; cbn; [constructor|]. destruct (Nat.eq_dec x y); [assumption|].
  constructor; [|assumption]. rewrite remove_in. tauto.
Qed.
Lemma remove_notin (l : list nat) x : ~ In x l -> remove Nat.eq_dec x l = l.
Proof.
  induction l as [|y l IH]; cbn; intros H; [reflexivity|]. destruct (Nat.eq_dec x y); [subst; tauto|]. f_equal. tauto.
Qed.

Lemma drop_wf h x w s : wf s -> In x (chn s h) -> wf (drop h x w s).
Proof.
  intros W Hx. assert (OX := Hx). apply (w_in _ W) in OX. destruct OX as (c0 & l0 & O & Hh).
  constructor.
  - intros h'. unfold drop. cbn [chn]. destruct w; [apply W|]. destruct (Nat.eq_dec h' h) as [->|N].
    + rewrite setf_same. apply remove_nodup, W.
    + rewrite setf_other by assumption. apply W.
  - intros h' y. unfold drop. cbn [chn own]. destruct w; [apply W|]. destruct (Nat.eq_dec y x) as [->|N].
    + rewrite setf_same. split; [|intros (? & ? & [=] & _)]. intros H. exfalso. destruct (Nat.eq_dec h' h) as [->|N].
      * rewrite setf_same, remove_in in H. tauto.
      * rewrite setf_other in H by assumption. apply (w_in _ W) in H. destruct H as (c1 & l1 & H1 & H2). congruence.
    + rewrite (setf_other (own s)) by assumption. rewrite <- (w_in _ W). destruct (Nat.eq_dec h' h) as [->|N'].
      * rewrite setf_same, remove_in. tauto.
      * rewrite setf_other by assumption. reflexivity.
  - intros y. unfold drop. cbn [pol dty]. destruct (Nat.eq_dec y x) as [->|N].
    + destruct (dty s x) eqn:D; [rewrite setf_same; discriminate|]. intros P. apply (w_pol _ W) in P. congruence.
    + rewrite (setf_other (dty s)) by assumption. destruct (dty s x); [rewrite setf_other by assumption|]; apply W.
  - intros y. unfold drop. cbn [dty own]. destruct (Nat.eq_dec y x) as [->|N]; [rewrite setf_same; discriminate|].
    rewrite setf_other by assumption. intros D. destruct w; [now apply W|]. rewrite setf_other by assumption. now apply W.
Qed.

Lemma next_app pre x rest : NoDup (pre ++ x :: rest) -> next (pre ++ x :: rest) x = head rest.
Proof.
  induction pre as [|y pre IH]; cbn; intros N.
  - now rewrite Nat.eqb_refl.
  - inversion N as [|? ? N1 N2]; subst. destruct (Nat.eqb_spec y x) as [->|_]; [|now apply IH].
    exfalso. apply N1. apply in_or_app. right. now left.
Qed.

(** Position in the list: everything before is of other cores. *)
Definition last_of (l : list nat) : option nat := match rev l with [] => None | x :: _ => Some x end.
Lemma last_of_snoc l x : last_of (l ++ [x]) = Some x.
Proof. unfold last_of. rewrite rev_app_distr. reflexivity. Qed.
Definition at_pos (s : rst) (h : nat) (prev cur : option nat) : Prop :=
  exists pre rest, chn s h = pre ++ rest /\ prev = last_of pre /\ cur = head rest /\ (forall x, In x pre -> owned c s x = false).

Definition rinv (p : pc) (s : rst) : Prop :=
  wf s /\
  match p with
  | Top h => forall x l, own s x = Some (c, l) -> h <= hash c l
  | Inner h prev cur => (forall x l, own s x = Some (c, l) -> h <= hash c l) /\ at_pos s h prev cur
  | Done => forall x l, own s x = Some (c, l) -> nh <= hash c l
  end.

Lemma owned_iff s x : owned c s x = true <-> exists l, own s x = Some (c, l).
Proof.
  unfold owned. destruct (own s x) as [[c' l]|]; [|split; [discriminate|intros (? & [=])]].
  split; [intros H; apply Nat.eqb_eq in H; subst; eauto|intros (l' & [= -> _]); apply Nat.eqb_refl].
Qed.

Lemma drop_own h x w s y : owned c (drop h x w s) y = true -> owned c s y = true.
Proof.
  rewrite !owned_iff. intros (l & H). unfold drop in H. cbn [own] in H. destruct w; [eauto|].
  destruct (Nat.eq_dec y x) as [->|N]; [rewrite setf_same in H; discriminate|]. rewrite setf_other in H by assumption. eauto.
Qed.

Lemma drop_pos h prev x w s : wf s -> owned c s x = true -> at_pos s h prev (Some x) ->
  at_pos (drop h x w s) h prev
    (match prev with Some p => next (chn (drop h x w s) h) p | None => head (chn (drop h x w s) h) end).
Proof.
  intros W OX (pre & rest & E1 & E2 & E3 & E4). destruct rest as [|y rest]; [discriminate|]. injection E3 as <-.
  assert (ND := w_nodup _ W h). rewrite E1 in ND.
  assert (CH : exists rest', chn (drop h x w s) h = pre ++ rest').
  { unfold drop. cbn [chn]. destruct w; [eauto|]. rewrite setf_same, E1.
    exists rest. rewrite remove_app. cbn. destruct (Nat.eq_dec x x) as [_|]; [|congruence].
    apply NoDup_remove_2 in ND. rewrite !remove_notin; auto; intros H; apply ND; apply in_or_app; tauto. }
  destruct CH as (rest' & CH).
  assert (ND' : NoDup (chn (drop h x w s) h)).
  { apply (w_nodup _ (drop_wf h x w s W ltac:(rewrite E1; apply in_or_app; right; now left)) h). }
  exists pre, rest'. split; [assumption|]. split; [assumption|]. split.
  - rewrite CH in *. subst prev. destruct pre as [|p pre] using rev_ind; [reflexivity|].
    rewrite last_of_snoc. rewrite <- app_assoc in ND' |- *. now apply next_app.
  - intros y Hy. destruct (owned c (drop h x w s) y) eqn:Q; [|reflexivity]. apply drop_own in Q. now rewrite E4 in Q.
Qed.

Lemma rstep_inv t p s p' s' : rinv p s -> rstep c nh t p s = (p', s') -> rinv p' s'.
Proof.
  intros (W & I) E. destruct p as [h|h prev [x|]|]; cbn [rstep] in E.
  - destruct (Nat.ltb_spec h nh) as [L|L]; injection E as <- <-; (split; [assumption|]).
    + split; [assumption|]. exists [], (chn s h). repeat split. intros x [].
    + intros x l O. specialize (I x l O). lia.
  - destruct I as [I1 I2]. destruct (owned c s x) eqn:OX; cbn [negb] in E.
    + assert (Hx : In x (chn s h)).
      { destruct I2 as (pre & rest & E1 & _ & E3 & _). rewrite E1. destruct rest; [discriminate|]. injection E3 as <-. apply in_or_app. right. now left. }
      destruct t as [|w]; injection E as <- <-; [split; assumption|].
      split; [now apply drop_wf|]. split; [|now apply drop_pos].
      intros y l O. apply (I1 y). assert (Q : owned c (drop h x w s) y = true) by (apply owned_iff; eauto).
      unfold drop in O. cbn [own] in O. destruct w; [assumption|]. destruct (Nat.eq_dec y x) as [->|N]; [rewrite setf_same in O; discriminate|].
      now rewrite setf_other in O by assumption.
    + injection E as <- <-. split; [assumption|]. split; [assumption|].
      destruct I2 as (pre & rest & E1 & E2 & E3 & E4). destruct rest as [|y rest]; [discriminate|]. injection E3 as <-.
      exists (pre ++ [x]), rest. split; [rewrite <- app_assoc; assumption|]. split; [now rewrite last_of_snoc|]. split.
      * rewrite E1. apply next_app. rewrite <- E1. apply W.
      * intros y Hy. apply in_app_or in Hy. destruct Hy as [Hy|[<-|[]]]; auto.
  - destruct I as [I1 (pre & rest & E1 & E2 & E3 & E4)]. injection E as <- <-. split; [assumption|].
    destruct rest; [|discriminate]. rewrite app_nil_r in E1. intros x l O. specialize (I1 x l O).
    destruct (Nat.eq_dec (hash c l) h) as [Q|Q]; [|lia]. exfalso.
    assert (Hx : In x (chn s h)) by (apply (w_in _ W); eauto). rewrite E1 in Hx. apply E4 in Hx.
    assert (owned c s x = true) by (apply owned_iff; eauto). congruence.
  - injection E as <- <-. split; assumption.
Qed.

Lemma others_inv p s s' : rinv p s -> others true p s s' -> rinv p s'.
Proof.
  intros (W & I) [OW OQ OL]. specialize (OQ eq_refl). split; [assumption|]. destruct p as [h|h prev cur|].
  - intros x l O. apply (I x). now apply OQ.
  - destruct I as [I1 (pre & rest & E1 & E2 & E3 & E4)]. split; [intros x l O; apply (I1 x); now apply OQ|].
    destruct (OL h prev cur eq_refl) as [L1 L2]. exists pre, rest. split; [congruence|]. split; [assumption|]. split; [assumption|].
    intros x Hx. unfold owned. rewrite L2; [now apply E4|]. rewrite E1. apply in_or_app. now left.
  - intros x l O. apply (I x). now apply OQ.
Qed.

(** When the loop ends, in any interleaving with other requests and with any failed
    attempts to lock lines, no cache line of the core is left: not mapped, on no
    collision list, not dirty, not on the lists of the cleaning policy. *)
Theorem C66_remove_all : forall s0 s, wf s0 -> (forall l, hash c l < nh) ->
  reach true (Top 0) s0 Done s ->
  wf s /\ (forall x l, own s x <> Some (c, l)) /\
  (forall h x, In x (chn s h) -> exists c' l, own s x = Some (c', l) /\ c' <> c) /\
  (forall x, pol s x = true -> exists c' l, own s x = Some (c', l) /\ c' <> c).
Proof.
  intros s0 s W HB R.
  assert (G : forall p s', reach true (Top 0) s0 p s' -> rinv p s').
  { induction 1 as [|p s1 t p' s2 R' IH E|p s1 s2 R' IH E].
    - split; [assumption|]. intros; lia.
    - now apply (rstep_inv t p s1).
    - now apply (others_inv p s1). }
  destruct (G _ _ R) as (W' & I).
  assert (NO : forall x l, own s x <> Some (c, l)) by (intros x l O; specialize (I x l O); specialize (HB l); lia).
  split; [assumption|]. split; [assumption|]. split.
  - intros h x Hx. apply (w_in _ W') in Hx. destruct Hx as (c' & l & O & _). exists c', l. split; [assumption|]. intros ->. now apply (NO x l).
  - intros x P. apply (w_pol _ W'), (w_dty _ W') in P. destruct (own s x) as [[c' l]|] eqn:O; [|congruence].
    exists c', l. split; [reflexivity|]. intros ->. now apply (NO x l).
Qed.

(** No step of the loop touches a line of another core or reorders a collision
    list; the counter of dirty lines is never changed. *)
Theorem C66_remove_others : forall t p s p' s', rstep c nh t p s = (p', s') ->
  dcl s' = dcl s /\
  (forall x, owned c s x = false -> own s' x = own s x /\ dty s' x = dty s x /\ pol s' x = pol s x) /\
  (forall h, filter (fun x => negb (owned c s x)) (chn s' h) = filter (fun x => negb (owned c s x)) (chn s h)) /\
  (t = Fail -> s' = s).
Proof.
  intros t p s p' s' E.
  assert (SAME : s' = s -> dcl s' = dcl s /\
     (forall x, owned c s x = false -> own s' x = own s x /\ dty s' x = dty s x /\ pol s' x = pol s x) /\
     (forall h, filter (fun x => negb (owned c s x)) (chn s' h) = filter (fun x => negb (owned c s x)) (chn s h)) /\
     (t = Fail -> s' = s)) by (intros ->; repeat split; auto).
  destruct p as [h|h prev [x|]|]; cbn [rstep] in E.
  - apply SAME. destruct (Nat.ltb h nh); injection E; auto.
  - destruct (owned c s x) eqn:OX; cbn [negb] in E; [|apply SAME; injection E; auto].
    destruct t as [|w]; [apply SAME; injection E; auto|]. injection E as _ <-. clear SAME.
    split; [reflexivity|]. split; [|split; [|discriminate]].
    + intros y Hy. assert (N : y <> x) by congruence. unfold drop. cbn [own dty pol]. split; [|split].
      * destruct w; [reflexivity|now apply setf_other].
      * now apply setf_other.
      * destruct (dty s x); [now apply setf_other|reflexivity].
    + intros h'. unfold drop. cbn [chn]. destruct w; [reflexivity|]. destruct (Nat.eq_dec h' h) as [->|N]; [|now rewrite setf_other by assumption].
      rewrite setf_same. induction (chn s h) as [|y l IH]; [reflexivity|]. cbn [remove filter].
      destruct (Nat.eq_dec x y) as [<-|N]; [rewrite OX; cbn [negb]; assumption|]. cbn [filter]. now rewrite IH.
  - apply SAME. injection E; auto.
  - apply SAME. injection E; auto.
Qed.

(** If nobody holds the lines and nobody else acts, the loop ends. *)
Fixpoint alone (n : nat) (p : pc) (s : rst) : pc * rst :=
  match n with
  | 0 => (p, s)
  | S n => let '(p', s') := rstep c nh (Got false) p s in alone n p' s'
  end.
Lemma alone_app a b p s : alone (a + b) p s = let '(p', s') := alone a p s in alone b p' s'.
Proof. revert p s. induction a as [|a IH]; intros p s; cbn; [reflexivity|]. destruct (rstep c nh (Got false) p s). apply IH. Qed.

Lemma alone_inv n : forall p s p' s', rinv p s -> alone n p s = (p', s') -> rinv p' s'.
Proof.
  induction n as [|n IH]; intros p s p' s' I E; cbn in E; [injection E as <- <-; assumption|].
  destruct (rstep c nh (Got false) p s) as [p1 s1] eqn:Q. apply (IH p1 s1); auto. now apply (rstep_inv (Got false) p s).
Qed.

Lemma bucket_ends : forall m h prev cur s, rinv (Inner h prev cur) s ->
  (exists pre rest, chn s h = pre ++ rest /\ prev = last_of pre /\ cur = head rest /\ (forall x, In x pre -> owned c s x = false) /\ length rest = m) ->
  exists n s', alone n (Inner h prev cur) s = (Top (S h), s').
Proof.
  induction m as [|m IH]; intros h prev cur s I (pre & rest & E1 & E2 & E3 & E4 & E5).
  - destruct rest; [|discriminate]. cbn in E3. subst cur. exists 1, s. reflexivity.
  - destruct rest as [|x rest]; [discriminate|]. cbn in E3. subst cur. injection E5 as E5.
    destruct (rstep c nh (Got false) (Inner h prev (Some x)) s) as [p1 s1] eqn:Q.
    assert (I1 := rstep_inv _ _ _ _ _ I Q). cbn [rstep] in Q.
    assert (ND : NoDup (pre ++ x :: rest)) by (rewrite <- E1; apply (w_nodup _ (proj1 I))).
    assert (G : exists prev1 cur1, p1 = Inner h prev1 cur1 /\
        exists pre rest, chn s1 h = pre ++ rest /\ prev1 = last_of pre /\ cur1 = head rest /\ (forall x, In x pre -> owned c s1 x = false) /\ length rest = m).
    { destruct (owned c s x) eqn:OX; cbn [negb] in Q; injection Q as <- <-.
      - assert (CH : chn (drop h x false s) h = pre ++ rest).
        { unfold drop. cbn [chn]. rewrite setf_same, E1, remove_app. cbn. destruct (Nat.eq_dec x x) as [_|]; [|congruence].
          apply NoDup_remove_2 in ND. rewrite !remove_notin; auto; intros H; apply ND; apply in_or_app; tauto. }
        do 2 eexists. split; [reflexivity|]. exists pre, rest. split; [exact CH|]. split; [assumption|]. split; [|split; [|assumption]].
        + change (match prev with Some p => next (chn (drop h x false s) h) p | None => head (chn (drop h x false s) h) end = head rest).
          rewrite CH. subst prev. destruct pre as [|p pre] using rev_ind; [reflexivity|]. rewrite last_of_snoc.
          apply NoDup_remove_1 in ND. rewrite <- app_assoc in *. now apply next_app.
        + intros y Hy. destruct (owned c (drop h x false s) y) eqn:Z; [|reflexivity]. apply drop_own in Z. now rewrite E4 in Z.
      - do 2 eexists. split; [reflexivity|]. exists (pre ++ [x]), rest. split; [now rewrite <- app_assoc|].
        split; [now rewrite last_of_snoc|]. split; [rewrite E1; now apply next_app|]. split; [|assumption].
        intros y Hy. apply in_app_or in Hy. destruct Hy as [Hy|[<-|[]]]; auto. }
    destruct G as (prev1 & cur1 & -> & G). destruct (IH h prev1 cur1 s1 I1 G) as (n & s' & A).
    exists (S n), s'. cbn [alone]. cbn [rstep]. rewrite Q. exact A.
Qed.

Theorem C66_remove_ends : forall s0, wf s0 -> exists n s, alone n (Top 0) s0 = (Done, s).
Proof.
  intros s0 W. assert (I0 : rinv (Top 0) s0) by (split; [assumption|]; intros; lia).
  assert (G : forall d h s, h + d = nh -> rinv (Top h) s -> exists n s', alone n (Top h) s = (Done, s')).
  { induction d as [|d IH]; intros h s Hd I.
    - exists 1, s. cbn [alone rstep]. destruct (Nat.ltb_spec h nh); [lia|reflexivity].
    - assert (Q : rstep c nh (Got false) (Top h) s = (Inner h None (head (chn s h)), s)).
      { cbn [rstep]. destruct (Nat.ltb_spec h nh); [reflexivity|lia]. }
      assert (I1 := rstep_inv _ _ _ _ _ I Q).
      destruct (bucket_ends (length (chn s h)) h None (head (chn s h)) s I1) as (n & s' & A).
      { exists [], (chn s h). repeat split. intros x []. }
      assert (I2 := alone_inv _ _ _ _ _ I1 A). destruct (IH (S h) s' ltac:(lia) I2) as (n2 & s2 & B).
      exists (S (n + n2)), s2. cbn [alone]. rewrite Q, alone_app, A. exact B. }
  apply (G nh 0 s0); auto.
Qed.
End Remove.

(** The loop alone does not stop requests of the core: the caller must.  A request
    that maps a line into a list already done leaves the removed core with a line. *)
Theorem C66_remove_not_quiet_refuted : exists c nh hash s0 s x l,
  wf hash s0 /\ (forall l, hash c l < nh) /\ reach c nh hash false (Top 0) s0 Done s /\ own s x = Some (c, l).
Proof.
  set (hash := fun c l : nat => 0).
  set (s0 := {| chn := fun _ => []; own := fun _ => None; dty := fun _ => false; pol := fun _ => false; dcl := 0 |}).
  set (s1 := {| chn := fun h => match h with 0 => [0] | _ => [] end; own := fun x => match x with 0 => Some (0, 7) | _ => None end;
                dty := fun _ => false; pol := fun _ => false; dcl := 0 |}).
  assert (W0 : wf hash s0).
  { constructor; cbn; try discriminate; intros; [constructor|]. split; [intros []|intros (? & ? & [=] & _)]. }
  assert (W1 : wf hash s1).
  { constructor; cbn; try discriminate.
    - intros [|h]; repeat constructor. intros [].
    - intros h x. destruct h as [|h], x as [|x]; cbn; split.
      + intros _. exists 0, 7. auto.
      + auto.
      + intros [H|[]]. discriminate.
      + intros (? & ? & H & _). discriminate.
      + intros [].
      + intros (? & ? & _ & H). discriminate.
      + intros [].
      + intros (? & ? & H & _). discriminate. }
  exists 0, 1, hash, s0, s1, 0, 7. split; [assumption|]. split; [intros; unfold hash; lia|]. split; [|reflexivity].
  assert (A : reach 0 1 hash false (Top 0) s0 (Top 1) s0).
  { eapply R_own with (t := Fail); [eapply R_own with (t := Fail); [apply R_start|reflexivity]|reflexivity]. }
  eapply R_own with (t := Fail); [eapply R_env; [exact A|]|reflexivity].
  constructor; [assumption|discriminate|discriminate].
Qed.

(** ** The pipelines *)

(** Success: the core is gone from the cache and its metadata, the number of cores,
    of inactive cores and the "incomplete" flag are right, the cleaner may run
    again.  A refused request changes nothing. *)
Definition counts_right (k : kst) : Prop :=
  incompl k = negb (Nat.eqb (inact k) 0) /\ (k_open k = false -> k_added k = true -> 0 < inact k).

Theorem C66_remove_core : forall e coll sb k k' a r,
  counts_right k -> k_added k = true -> froz k = false -> remove_core e coll sb k = (k', (a, r)) ->
  froz k' = false /\ counts_right k' /\
  (r = None \/ r = Some WriteCache ->
     k_added k' = false /\ k_open k' = false /\ k_meta k' = false /\ cores k' = cores k - 1 /\
     inact k' = inact k - (if k_open k then 0 else 1) /\ (attached e = true -> k_lines k' = false)) /\
  (r = Some RStandby \/ r = Some RInval \/ r = Some RNoMem -> k' = k) /\
  (r = Some NotRemoved -> k_added k' = true /\ k_meta k' = k_meta k /\ cores k' = cores k /\ 0 < k_dirty k).
Proof.
  intros e coll sb k k' a r (CR1 & CR2) AD FZ E.
  assert (FG : forall kk, k_added kk = true -> counts_right kk -> counts_right (forget kk)).
  { intros kk A (C1 & C2). unfold forget, counts_right; cbn [incompl inact k_open k_added]. split; [|discriminate].
    destruct (k_open kk); cbn [negb andb]; [assumption|]. specialize (C2 eq_refl A).
    destruct (Nat.eqb_spec (inact kk - 1) 0); [reflexivity|]. rewrite C1. cbn [negb]. destruct (Nat.eqb_spec (inact kk) 0); [lia|reflexivity]. }
  assert (CR : counts_right k) by (split; assumption).
  unfold remove_core in E.
  destruct (standby e); [injection E as <- <- <-; repeat split; auto; intuition congruence|].
  destruct (queue e); cbn [negb] in E; [|injection E as <- <- <-; repeat split; auto; intuition congruence].
  destruct (mem e); cbn [negb] in E; [|injection E as <- <- <-; repeat split; auto; intuition congruence].
  destruct (attached e) eqn:AT; cbn [negb] in E.
  - cbn [k_dirty lines_gone set_froz] in E.
    destruct (Nat.eqb_spec (k_dirty k) 0) as [D|D]; cbn [negb andb] in E.
    + injection E as <- <- <-. split; [reflexivity|]. split; [exact (FG (lines_gone (set_froz true k)) AD CR)|].
      split; [intros _; cbn; repeat split; auto; destruct (k_open k); lia|].
      split; [destruct sb; intuition congruence|destruct sb; discriminate].
    + destruct coll; cbn [negb] in E; injection E as <- <- <-.
      * split; [reflexivity|]. split; [exact (FG (lines_gone (set_froz true k)) AD CR)|].
        split; [intros _; cbn; repeat split; auto; destruct (k_open k); lia|].
        split; [destruct sb; intuition congruence|destruct sb; discriminate].
      * split; [reflexivity|]. split; [exact CR|]. split; [intuition congruence|]. split; [intuition congruence|].
        intros _. cbn. repeat split; auto. lia.
  - injection E as <- <- <-. split; [assumption|]. split; [now apply FG|].
    split; [intros _; cbn; repeat split; auto; [destruct (k_open k); lia|congruence]|]. split; [intuition congruence|discriminate].
Qed.

Theorem C66_detach_core : forall e k k' a r,
  counts_right k -> froz k = false -> detach_core e k = (k', (a, r)) ->
  froz k' = false /\ counts_right k' /\
  (r = None -> k_open k = true /\ k_open k' = false /\ inact k' = S (inact k) /\ incompl k' = true) /\
  (r <> None -> k_open k' = k_open k /\ inact k' = inact k) /\
  k_added k' = k_added k /\ k_meta k' = k_meta k /\ k_lines k' = k_lines k /\ k_dirty k' = k_dirty k /\ cores k' = cores k.
Proof.
  intros e k k' a r CR FZ E. unfold detach_core in E.
  destruct (standby e); [injection E as <- <- <-; repeat split; auto; try apply CR; congruence|].
  destruct (queue e); cbn [negb] in E; [|injection E as <- <- <-; repeat split; auto; try apply CR; congruence].
  destruct (mem e); cbn [negb] in E; [|injection E as <- <- <-; repeat split; auto; try apply CR; congruence].
  destruct (attached e); cbn [set_froz k_open] in E; destruct (k_open k) eqn:O; cbn [negb] in E; injection E as <- <- <-;
    repeat split; cbn; auto; try apply CR; try congruence; intros; lia.
Qed.

(** If flushing the collision section fails, the core stays with none of its lines
    but with its count of dirty lines.  As soon as such a core has a dirty line
    again, flushing it stops at the assertion on the size of the portion. *)
Definition stale_line (x : nat) : line :=
  match x with
  | 0 => {| mp := Some (0, 5); va := fun _ => true; di := fun _ => true; da := fun k => 10 + k |}
  | _ => {| mp := None; va := fun _ => false; di := fun _ => false; da := fun _ => 0 |}
  end.
Theorem C66_remove_failed_refuted : exists e k k' a,
  counts_right k /\ k_added k = true /\ k_dirty k = 2 /\
  remove_core e false true k = (k', (a, Some NotRemoved)) /\
  k_added k' = true /\ k_lines k' = false /\ k_dirty k' = 2 /\
  exists s, dc s 0 = k_dirty k' + length (dlist 2 3 s 0) /\ length (dlist 2 3 s 0) = 1 /\
    moves 2 3 false (Some 0) (Cfg s (start_core s 0)) Bug.
Proof.
  exists {| standby := false; attached := true; incomplete := false; opened := true; queue := true; mem := true |}.
  exists {| k_added := true; k_open := true; k_meta := true; k_lines := true; k_dirty := 2; cores := 1; inact := 0; incompl := false; froz := false |}.
  do 2 eexists. split; [split; [reflexivity|discriminate]|]. split; [reflexivity|]. split; [reflexivity|].
  split; [reflexivity|]. split; [reflexivity|]. split; [reflexivity|]. split; [reflexivity|].
  exists {| ln := stale_line; cr := fun _ _ _ => 0; dc := fun c => match c with 0 => 3 | _ => 0 end |}.
  split; [reflexivity|]. split; [reflexivity|].
  apply (run_moves 2 3 false (Some 0) [EScan; EScan; EScan; EScan; EPortion 0 64] _ _ _ (Ms_refl _ _ _ _ _)); vm_compute; reflexivity.
Qed.

(** A refused removal or detachment calls the callback with the cache instead of the
    caller's context. *)
Theorem C66_callback_refuted : exists e k,
  fst (snd (remove_core e true true k)) <> Priv /\ fst (snd (detach_core e k)) <> Priv.
Proof.
  exists {| standby := true; attached := true; incomplete := false; opened := true; queue := true; mem := true |}.
  exists {| k_added := true; k_open := true; k_meta := true; k_lines := true; k_dirty := 2; cores := 1; inact := 0; incompl := false; froz := false |}.
  split; discriminate.
Qed.
Theorem C66_callback : forall e coll sb k, standby e = false -> queue e = true ->
  fst (snd (remove_core e coll sb k)) = Priv /\ fst (snd (detach_core e k)) = Priv.
Proof.
  intros e coll sb k S Q. unfold remove_core, detach_core. rewrite S, Q. cbn [negb].
  destruct (mem e), (attached e); cbn [negb]; split; try reflexivity;
    repeat match goal with |- context [if ?b then _ else _] => destruct b end; reflexivity.
Qed.

(** ** The hypotheses are met *)

(** Core 0 of the example of CleanProps (two dirty lines) is purged: success, the
    core's lines are dropped, the line of core 1 stays, the data is on the core. *)
Definition ex_env := {| standby := false; attached := true; incomplete := false; opened := true; queue := true; mem := true |}.
Definition ex_view (c : config) : option (mode * list bool * bool * list (option (nat * nat)) * list nat) :=
  match c with
  | Bug => None
  | Cfg s o => Some (w_mode o, map ended (w_conts o), w_err o, map (fun x => mp (ln s x)) [0; 1; 2], [cr s 0 5 1; cr s 0 6 0])
  end.
Example purge_runs : exists s,
  purge 2 3 1024 ex_env (Some 0) 7000 (flush_ends 2 3 1024 false (Some 0) 7000 [0; 1]) ex_s
    (POut s [Lock; Freeze; Flush; Sparse; Unfreeze; Unlock; Call None]) /\
  map (fun x => mp (ln s x)) [0; 1; 2] = [None; None; Some (1, 5)] /\ cr s 0 5 1 = 11 /\ cr s 0 6 0 = 20.
Proof.
  assert (V : option_map ex_view (run_list 2 3 false (Some 0) (ex_run true true) (Cfg ex_s (start_core ex_s 0)))
              = Some (Some (Work, [true], false, [Some (0, 5); Some (0, 6); Some (1, 5)], [11; 20]))) by (vm_compute; reflexivity).
  destruct (run_list 2 3 false (Some 0) (ex_run true true) (Cfg ex_s (start_core ex_s 0))) as [[s o|]|] eqn:R; [|discriminate V|discriminate V].
  assert (M : moves 2 3 false (Some 0) (Cfg ex_s (start_core ex_s 0)) (Cfg s o))
    by (apply (run_moves _ _ _ _ (ex_run true true) _ _ _ (Ms_refl _ _ _ _ _)); [reflexivity|exact R]).
  clear R.
  cbn [option_map ex_view map] in V. injection V as F1 F2 F3 F4 F5 F6 F7 F8.
  assert (FE : flush_ends 2 3 1024 false (Some 0) 7000 [0; 1] ex_s false s).
  { exists o. split; [exact M|]. split.
    - split; [exact F1|]. split; [|exact F3]. destruct (w_conts o) as [|a [|b l]]; try discriminate F2. cbn [map] in F2. cbn. injection F2 as ->. reflexivity.
    - intros x c cl [= <-] Hx H. destruct x as [|[|[|x]]]; try lia.
      + rewrite F4 in H. injection H as <-. reflexivity.
      + rewrite F5 in H. injection H as <-. reflexivity.
      + rewrite F6 in H. discriminate. }
  assert (P := Purge_go 2 3 1024 ex_env (Some 0) 7000 _ ex_s (fun _ => false) false s eq_refl FE).
  assert (A0 : acting (Some 0) (0 / 1024) (7000 / 1024) (Some (0, 5)) = true) by reflexivity.
  assert (A1 : acting (Some 0) (0 / 1024) (7000 / 1024) (Some (0, 6)) = true) by reflexivity.
  assert (A2 : acting (Some 0) (0 / 1024) (7000 / 1024) (Some (1, 5)) = false) by reflexivity.
  exists (sparse 2 (sparse 2 s 0) 1).
  assert (SR : sparse_range 2 3 1024 (fun _ => false) (Some 0) (purge_end (Some 0) 7000) s = (sparse 2 (sparse 2 s 0) 1, false)).
  { unfold sparse_range, purge_end. cbn [N.eqb]. cbn [actor]. rewrite F4, A0. rewrite sparse_other by discriminate. rewrite F5, A1.
    rewrite !sparse_other by discriminate. rewrite F6, A2. reflexivity. }
  unfold purge_rest in P. cbn [negb attached ex_env] in P. rewrite SR in P. split; [exact P|].
  split; [|split; [exact F7|exact F8]].
  cbn [map]. rewrite (sparse_other 2 (sparse 2 s 0) 1 0), (sparse_other 2 (sparse 2 s 0) 1 2), (sparse_other 2 s 0 2) by discriminate.
  rewrite F6. reflexivity.
Qed.

(** Two lines of core 0 and one of core 1 on the same list: the removal with a first
    attempt to lock failing. *)
Definition ex_r : rst :=
  {| chn := fun h => match h with 0 => [4; 2; 3] | _ => [] end;
     own := fun x => match x with 2 => Some (1, 8) | 3 => Some (0, 6) | 4 => Some (0, 4) | _ => None end;
     dty := fun x => Nat.eqb x 3; pol := fun x => Nat.eqb x 3; dcl := 1 |}.
Example ex_r_wf : wf (fun _ l => l mod 2) ex_r /\ forall l, l mod 2 < 2.
Proof.
  split; [|intros l; apply Nat.mod_upper_bound; discriminate]. constructor.
  - intros [|h]; cbn; repeat constructor; cbn; intuition lia.
  - intros h x. destruct h as [|h].
    + split.
      * intros [<-|[<-|[<-|[]]]]; cbn; eauto.
      * intros (c & l & O & _). destruct x as [|[|[|[|[|x]]]]]; cbn in *; auto; discriminate.
    + split; [intros []|]. intros (c & l & O & H). destruct x as [|[|[|[|[|x]]]]]; cbn in O; try discriminate; injection O as <- <-; discriminate.
  - intros x H. exact H.
  - intros x H. cbn in *. apply Nat.eqb_eq in H. subst x. discriminate.
Qed.
Fixpoint tries (l : list try) (p : pc) (s : rst) : pc * rst :=
  match l with [] => (p, s) | t :: l => let '(p, s) := rstep 0 2 t p s in tries l p s end.
Example ex_removed :
  let '(p, s) := tries [Fail; Got false; Got false; Fail; Fail; Got false; Got false; Fail; Fail; Fail; Fail] (Top 0) ex_r in
  (p, chn s 0, map (own s) [2; 3; 4], pol s 3, dcl s) = (Done, [2], [Some (1, 8); None; None], false, 1).
Proof. vm_compute. reflexivity. Qed.
Example ex_counts : exists k, counts_right k /\ k_added k = true /\ k_open k = false /\
  exists k', remove_core ex_env true true k = (k', (Priv, None)) /\ inact k' = 0 /\ incompl k' = false.
Proof.
  exists {| k_added := true; k_open := false; k_meta := true; k_lines := true; k_dirty := 2; cores := 2; inact := 1; incompl := true; froz := false |}.
  split; [split; [reflexivity|cbn; lia]|]. split; [reflexivity|]. split; [reflexivity|]. eexists. split; [reflexivity|]. split; reflexivity.
Qed.

Print Assumptions C66_invalidate_exact.
Print Assumptions C66_purge.
Print Assumptions C66_purge_balanced.
Print Assumptions C66_purge_detached_refuted.
Print Assumptions C66_remove_all.
Print Assumptions C66_remove_others.
Print Assumptions C66_remove_ends.
Print Assumptions C66_remove_not_quiet_refuted.
Print Assumptions C66_remove_core.
Print Assumptions C66_detach_core.
Print Assumptions C66_remove_failed_refuted.
Print Assumptions C66_callback_refuted.
Print Assumptions C66_callback.

(** Invariant of cleaning and flushing (CleanModel), under interference. *)
From Coq Require Import List Bool Arith Lia Permutation.
From Verif Require Import CleanModel.
Import ListNotations.

(** ** Coherent states, contents, interference *)
Section Defs.
Variables (ns nl : nat).

(** Line [x] has dirty sectors and belongs to core [c]. *)
Definition cdirty (s : cst) (c x : nat) : Prop :=
  x < nl /\ core_of (mp (ln s x)) = Some c /\ exists k, k < ns /\ di (ln s x) k = true.

(** Lines of core [c] with dirty sectors. *)
Definition dlist (s : cst) (c : nat) : list nat :=
  filter (fun x => test_dirty ns (ln s x) &&
                   match core_of (mp (ln s x)) with Some c' => Nat.eqb c' c | None => false end) (seq 0 nl).

(** No core line in two cache lines, dirty sectors are valid and mapped, clean valid
    sectors agree with the core, the counters of dirty lines are right. *)
Record coh (s : cst) : Prop := {
  c_inj : forall x y m, x < nl -> y < nl -> mp (ln s x) = Some m -> mp (ln s y) = Some m -> x = y;
  c_dirty : forall x k, x < nl -> k < ns -> di (ln s x) k = true -> va (ln s x) k = true /\ mp (ln s x) <> None;
  c_clean : forall x k c cl, x < nl -> k < ns -> mp (ln s x) = Some (c, cl) -> va (ln s x) k = true ->
    di (ln s x) k = false -> cr s c cl k = da (ln s x) k;
  c_cnt : forall c, dc s c = length (dlist s c) }.

(** Logical content of a core sector: dirty data if there is any, else the core. *)
Definition is_content (s : cst) (c cl k : nat) (d : data) : Prop :=
  (forall x, x < nl -> mp (ln s x) = Some (c, cl) -> di (ln s x) k = true -> da (ln s x) k = d) /\
  ((forall x, x < nl -> mp (ln s x) = Some (c, cl) -> di (ln s x) k = false) -> cr s c cl k = d).

(** What others may do while a flush is running ([lk]: lines locked by the flush):
    no new dirty sectors, no change of logical contents, locked lines keep mapping,
    valid bits and data, the core is changed below dirty data only to that data. *)
Record rely (lk : nat -> Prop) (s s' : cst) : Prop := {
  r_coh : coh s';
  r_content : forall c cl k d, k < ns -> is_content s c cl k d -> is_content s' c cl k d;
  r_dirty : forall x k, x < nl -> k < ns -> di (ln s' x) k = true ->
    di (ln s x) k = true /\ mp (ln s' x) = mp (ln s x);
  r_lock : forall x, x < nl -> lk x -> mp (ln s' x) = mp (ln s x) /\
    forall k, k < ns -> va (ln s' x) k = va (ln s x) k /\ da (ln s' x) k = da (ln s x) k;
  r_core : forall x k c cl, x < nl -> k < ns -> di (ln s' x) k = true -> mp (ln s x) = Some (c, cl) ->
    cr s' c cl k = cr s c cl k \/ cr s' c cl k = da (ln s x) k }.

Lemma test_dirty_iff l : test_dirty ns l = true <-> exists k, k < ns /\ di l k = true.
Proof.
  unfold test_dirty. rewrite existsb_exists. split; intros (k & H1 & H2); exists k; rewrite in_seq in *; (split; [lia|assumption]).
Qed.
Lemma test_valid_iff l : test_valid ns l = true <-> forall k, k < ns -> va l k = true.
Proof.
  unfold test_valid. rewrite forallb_forall. split; intros H k Hk; apply H; [apply in_seq; lia|apply in_seq in Hk; lia].
Qed.
Lemma test_valid_any_iff l : test_valid_any ns l = true <-> exists k, k < ns /\ va l k = true.
Proof.
  unfold test_valid_any. rewrite existsb_exists. split; intros (k & H1 & H2); exists k; rewrite in_seq in *; (split; [lia|assumption]).
Qed.

Lemma dlist_in s c x : In x (dlist s c) <-> cdirty s c x.
Proof.
  unfold dlist, cdirty. rewrite filter_In, in_seq, andb_true_iff, test_dirty_iff. split.
  - intros (H1 & H2 & H3). split; [lia|]. split; [|assumption].
    destruct (core_of (mp (ln s x))); [|discriminate]. apply Nat.eqb_eq in H3. now subst.
  - intros (H1 & H2 & H3). split; [lia|]. split; [assumption|]. rewrite H2. apply Nat.eqb_refl.
Qed.
Lemma dlist_nodup s c : NoDup (dlist s c).
Proof. apply NoDup_filter, seq_NoDup. Qed.

Lemma cdirty_dec_zero s c : coh s -> dc s c = 0 -> forall x, ~ cdirty s c x.
Proof.
  intros C H x Hx. apply dlist_in in Hx. rewrite (c_cnt s C) in H. destruct (dlist s c); [inversion Hx|discriminate].
Qed.

Lemma rely_cdirty lk s s' c x : rely lk s s' -> cdirty s' c x -> cdirty s c x.
Proof.
  intros R (H1 & H2 & k & H3 & H4). destruct (r_dirty _ _ _ R x k H1 H3 H4) as [D M].
  split; [assumption|]. split; [congruence|]. eauto.
Qed.

Lemma rely_same_da lk s s' x k : coh s -> rely lk s s' -> x < nl -> k < ns ->
  di (ln s' x) k = true -> da (ln s' x) k = da (ln s x) k.
Proof.
  intros C R Hx Hk D'. destruct (r_dirty _ _ _ R x k Hx Hk D') as [D M].
  destruct (c_dirty _ C x k Hx Hk D) as [V NM]. destruct (mp (ln s x)) as [[c cl]|] eqn:E; [|congruence].
  assert (I : is_content s c cl k (da (ln s x) k)).
  { split.
    - intros y Hy Ey Dy. now rewrite (c_inj _ C y x _ Hy Hx Ey E).
    - intros H. rewrite (H x Hx E) in D. discriminate. }
  apply (r_content _ _ _ R) in I; [|assumption]. destruct I as [I _]. apply I; assumption.
Qed.

Lemma rely_refl lk s : coh s -> rely lk s s.
Proof.
  intros C. constructor; auto.
Qed.
Lemma rely_weaken (lk lk' : nat -> Prop) s s' : (forall x, lk' x -> lk x) -> rely lk s s' -> rely lk' s s'.
Proof.
  intros H R. destruct R. constructor; auto.
Qed.

Lemma rely_trans lk s1 s2 s3 : coh s1 -> rely lk s1 s2 -> rely lk s2 s3 -> rely lk s1 s3.
Proof.
  intros C1 R1 R2. constructor.
  - apply (r_coh _ _ _ R2).
  - intros. apply (r_content _ _ _ R2); [assumption|]. now apply (r_content _ _ _ R1).
  - intros x k Hx Hk D. destruct (r_dirty _ _ _ R2 x k Hx Hk D) as [D2 M2].
    destruct (r_dirty _ _ _ R1 x k Hx Hk D2) as [D1 M1]. split; [assumption|congruence].
  - intros x Hx L. destruct (r_lock _ _ _ R1 x Hx L) as [M1 V1]. destruct (r_lock _ _ _ R2 x Hx L) as [M2 V2].
    split; [congruence|]. intros k Hk. destruct (V1 k Hk), (V2 k Hk). split; congruence.
  - intros x k c cl Hx Hk D M. destruct (r_dirty _ _ _ R2 x k Hx Hk D) as [D2 M2].
    destruct (r_dirty _ _ _ R1 x k Hx Hk D2) as [D1 M1].
    pose proof (rely_same_da _ _ _ x k C1 R1 Hx Hk D2) as E.
    destruct (r_core _ _ _ R2 x k c cl Hx Hk D) as [A|A]; [congruence| |].
    + rewrite A. now apply (r_core _ _ _ R1).
    + right. congruence.
Qed.

(** ** Ranges of the cleaner *)
Lemma runs_spec f : forall k i st l, runs f k i st = Some l ->
  (forall b, st = Some b -> b < i) ->
  (forall j, i <= j -> j < i + k -> f j = Some true -> exists r, In r l /\ fst r <= j /\ j < snd r) /\
  (forall r j, In r l -> fst r <= j -> j < snd r -> (i <= j /\ j < i + k /\ f j = Some true) \/ (exists b, st = Some b /\ b <= j /\ j < i)) /\
  (forall b, st = Some b -> exists e l', l = (b, e) :: l' /\ i <= e) /\
  (forall r, In r l -> snd r <= i + k /\ fst r < snd r).
Proof.
  induction k as [|k IH]; intros i st l R Hst; cbn [runs] in R.
  - injection R as <-. split; [intros; lia|]. destruct st as [b|].
    + split.
      { intros r j [<-|[]] A B. cbn in *. right. exists b. split; [reflexivity|]. lia. }
      split; [intros b' E; injection E as <-; exists i, []; split; [reflexivity|lia]|].
      intros r [<-|[]]. cbn. specialize (Hst b eq_refl). lia.
    + split; [intros r j []|]. split; [intros b E; discriminate|]. intros r [].
  - destruct (f i) as [[]|] eqn:F; [| |discriminate].
    + (* dirty *)
      set (b0 := match st with Some b => b | None => i end) in *.
      assert (B0 : b0 <= i) by (unfold b0; destruct st; [specialize (Hst n eq_refl); lia|lia]).
      destruct (IH (S i) (Some b0) l R) as (I1 & I2 & I3 & I4). { intros b E. injection E as <-. lia. }
      destruct (I3 b0 eq_refl) as (e & l' & -> & He). split.
      { intros j H1 H2 FJ. destruct (Nat.eq_dec j i) as [->|N]; [|apply I1; [lia|lia|assumption]].
        exists (b0, e). split; [now left|]. cbn. lia. }
      split.
      { intros r j Hr A B. destruct (I2 r j Hr A B) as [H|(b & E & H1 & H2)]; [left; destruct H as (?&?&?); repeat split; try lia; assumption|].
        injection E as <-. destruct (Nat.eq_dec j i) as [->|N]; [left; repeat split; try lia; assumption|].
        destruct st as [b|]; [right; exists b; split; [reflexivity|]; unfold b0 in H1; lia|unfold b0 in H1; lia]. }
      split; [|intros r Hr; apply I4 in Hr; lia].
      intros b E. subst st. exists e, l'. split; [reflexivity|lia].
    + (* clean *)
      destruct st as [b|].
      * destruct (runs f k (S i) None) as [l'|] eqn:R'; [|discriminate]. injection R as <-.
        destruct (IH (S i) None l' R') as (I1 & I2 & I3 & I4); [intros; discriminate|].
        specialize (Hst b eq_refl). split.
        { intros j H1 H2 FJ. destruct (Nat.eq_dec j i) as [->|N]; [congruence|].
          destruct (I1 j) as (r & Hr & Q); [lia|lia|assumption|]. exists r. split; [now right|assumption]. }
        split.
        { intros r j [<-|Hr] A B; [right; exists b; cbn in *; split; [reflexivity|lia]|].
          destruct (I2 r j Hr A B) as [(?&?&?)|(b' & E & _)]; [left; repeat split; try lia; assumption|discriminate]. }
        split; [intros b' E; injection E as <-; exists i, l'; split; [reflexivity|lia]|].
        intros r [<-|Hr]; [cbn; lia|]. apply I4 in Hr. lia.
      * destruct (IH (S i) None l R) as (I1 & I2 & I3 & I4); [intros; discriminate|]. split.
        { intros j H1 H2 FJ. destruct (Nat.eq_dec j i) as [->|N]; [congruence|]. apply I1; [lia|lia|assumption]. }
        split.
        { intros r j Hr A B. destruct (I2 r j Hr A B) as [(?&?&?)|(b' & E & _)]; [left; repeat split; try lia; assumption|discriminate]. }
        split; [intros; discriminate|]. intros r Hr. apply I4 in Hr. lia.
Qed.

Lemma runs_total f k i st : (forall j, i <= j -> j < i + k -> f j <> None) -> exists l, runs f k i st = Some l.
Proof.
  revert i st. induction k as [|k IH]; intros i st H; cbn [runs]; [eauto|].
  destruct (f i) as [[]|] eqn:F.
  - apply IH. intros j A B. apply H; lia.
  - destruct st.
    + destruct (IH (S i) None) as [l ->]; [intros j A B; apply H; lia|eauto].
    + apply IH. intros j A B. apply H; lia.
  - exfalso. apply (H i); [lia|lia|assumption].
Qed.

(** Sectors written: all dirty ones, only valid ones. *)
Lemma submit_spec l : (forall k, k < ns -> di l k = true -> va l k = true) ->
  exists r, submit_ranges ns l = Some r /\
  (forall k, k < ns -> di l k = true -> exists b e, In (b, e) r /\ b <= k /\ k < e) /\
  (forall b e k, In (b, e) r -> b <= k -> k < e -> k < ns /\ va l k = true).
Proof.
  intros W. unfold submit_ranges. destruct (test_valid ns l && test_dirty ns l) eqn:T.
  - apply andb_prop in T. destruct T as [T1 T2]. rewrite test_valid_iff in T1. eexists. split; [reflexivity|]. split.
    + intros k Hk _. exists 0, ns. split; [now left|lia].
    + intros b e k [E|[]] H1 H2. injection E as <- <-. auto.
  - destruct (runs_total (sector_is_dirty l) ns 0 None) as [r R].
    { intros j _ Hj. unfold sector_is_dirty. specialize (W j Hj). destruct (va l j), (di l j); cbn; try discriminate.
      discriminate W. reflexivity. }
    exists r. split; [assumption|]. destruct (runs_spec _ _ _ _ _ R) as (I1 & I2 & _ & _); [intros; discriminate|]. split.
    + intros k Hk D. destruct (I1 k) as ([b e] & Hr & A & B); [lia|lia| |exists b, e; auto].
      unfold sector_is_dirty. rewrite (W k Hk D), D. reflexivity.
    + intros b e k Hr A B. destruct (I2 _ k Hr A B) as [(H1 & H2 & F)|(x & E & _)]; [|discriminate].
      split; [lia|]. unfold sector_is_dirty in F. destruct (va l k); [reflexivity|].
      destruct (di l k); cbn in F; discriminate.
Qed.

(** ** The two state changes of the flush respect [rely] *)
Lemma write_range_ln s c cl buf ok part r : ln (write_range s c cl buf ok part r) = ln s.
Proof. reflexivity. Qed.

Lemma dlist_ln s s' c : ln s' = ln s -> dlist s' c = dlist s c.
Proof. intros E. unfold dlist. now rewrite E. Qed.

Lemma write_range_rely s x c cl buf ok part b e : coh s -> x < nl -> mp (ln s x) = Some (c, cl) ->
  (forall k, b <= k -> k < e -> k < ns /\ va (ln s x) k = true) ->
  (forall k, k < ns -> buf k = da (ln s x) k) ->
  rely (fun _ => True) s (write_range s c cl buf ok part (b, e)).
Proof.
  intros C Hx M V B. set (s' := write_range s c cl buf ok part (b, e)).
  assert (Ecr : forall c' cl' k, cr s' c' cl' k = cr s c' cl' k \/
     (c' = c /\ cl' = cl /\ b <= k /\ k < e /\ cr s' c' cl' k = da (ln s x) k)).
  { intros c' cl' k. unfold s', write_range, upd3; cbn [cr fst snd].
    destruct (Nat.eqb c' c && Nat.eqb cl' cl) eqn:E; [|now left].
    apply andb_prop in E. destruct E as [E1 E2]. apply Nat.eqb_eq in E1. apply Nat.eqb_eq in E2. subst c' cl'.
    destruct (Nat.leb b k && Nat.ltb k e) eqn:E; [|now left].
    apply andb_prop in E. destruct E as [E1 E2]. apply Nat.leb_le in E1. apply Nat.ltb_lt in E2.
    destruct (ok || part k); [|now left]. right. destruct (V k E1 E2). cbn. repeat split; auto. }
  assert (Eln : ln s' = ln s) by reflexivity.
  assert (Cl : forall y k c' cl', y < nl -> k < ns -> mp (ln s y) = Some (c', cl') -> va (ln s y) k = true ->
    di (ln s y) k = false -> cr s' c' cl' k = da (ln s y) k).
  { intros y k c' cl' Hy Hk My Vy Dy. destruct (Ecr c' cl' k) as [->|(-> & -> & H1 & H2 & ->)].
    - now apply (c_clean _ C).
    - now rewrite (c_inj _ C y x _ Hy Hx My M). }
  constructor.
  - constructor; rewrite ?Eln; [apply (c_inj _ C)|apply (c_dirty _ C)|assumption|].
    intros c'. rewrite (dlist_ln s s' c' Eln). apply (c_cnt _ C).
  - intros c' cl' k d Hk [I1 I2]. split; rewrite ?Eln; [assumption|]. intros H.
    destruct (Ecr c' cl' k) as [->|(-> & -> & H1 & H2 & ->)]; [now apply I2|].
    rewrite <- I2 by assumption. symmetry. apply (c_clean _ C); try assumption; [now apply V|now apply H].
  - intros y k Hy Hk D. rewrite Eln in *. auto.
  - intros y Hy _. rewrite Eln. auto.
  - intros y k c' cl' Hy Hk D My. rewrite Eln in D. destruct (Ecr c' cl' k) as [E|(-> & -> & _ & _ & E)]; [now left|right].
    rewrite E. now rewrite (c_inj _ C y x _ Hy Hx My M).
Qed.

Lemma write_ranges_rely x c cl buf oks part : forall l j s s' ok, coh s -> x < nl -> mp (ln s x) = Some (c, cl) ->
  (forall b e k, In (b, e) l -> b <= k -> k < e -> k < ns /\ va (ln s x) k = true) ->
  (forall k, k < ns -> buf k = da (ln s x) k) ->
  write_ranges s c cl buf oks part j l = (s', ok) ->
  rely (fun _ => True) s s' /\ ln s' = ln s /\
  (forall k, cr s' c cl k = cr s c cl k \/ (k < ns /\ cr s' c cl k = da (ln s x) k)) /\
  (ok = true -> forall b e k, In (b, e) l -> b <= k -> k < e -> cr s' c cl k = da (ln s x) k).
Proof.
  induction l as [|[b e] l IH]; intros j s s' ok C Hx M V B E; cbn [write_ranges] in E.
  - injection E as <- <-. split; [now apply rely_refl|]. split; [reflexivity|]. split; [now left|]. intros _ b e k [].
  - set (s1 := write_range s c cl buf (oks j) part (b, e)) in *.
    destruct (write_ranges s1 c cl buf oks part (S j) l) as [s2 ok2] eqn:E2. injection E as <- <-.
    assert (R1 : rely (fun _ => True) s s1).
    { apply (write_range_rely s x); try assumption. intros k A1 A2. apply (V b e); [now left|assumption|assumption]. }
    destruct (IH (S j) s1 s2 ok2 (r_coh _ _ _ R1) Hx M) as (R2 & L2 & W2 & K2); try assumption.
    { intros b' e' k Hin. apply (V b' e'). now right. }
    assert (W1 : forall k, cr s1 c cl k = cr s c cl k \/ (k < ns /\ cr s1 c cl k = da (ln s x) k)).
    { intros k. unfold s1, write_range, upd3; cbn [cr fst snd]. rewrite !Nat.eqb_refl; cbn [andb].
      destruct (Nat.leb b k && Nat.ltb k e) eqn:Q; [|now left]. apply andb_prop in Q. destruct Q as [Q1 Q2].
      apply Nat.leb_le in Q1. apply Nat.ltb_lt in Q2. destruct (oks j || part k); [|now left].
      destruct (V b e k) as [Hk _]; [now left|assumption|assumption|]. right. cbn. auto. }
    split; [now apply (rely_trans _ s s1)|]. split; [rewrite L2; reflexivity|]. split.
    + intros k. destruct (W2 k) as [->|W]; [apply W1|right]. exact W.
    + intros H b' e' k [Hin|Hin] A1 A2.
      * injection Hin as <- <-. apply andb_prop in H. destruct H as [H1 H2].
        assert (Z : cr s1 c cl k = da (ln s x) k).
        { unfold s1, write_range, upd3; cbn [cr fst snd]. rewrite !Nat.eqb_refl; cbn [andb].
          apply Nat.leb_le in A1 as A1'. apply Nat.ltb_lt in A2 as A2'. rewrite A1', A2', H1. cbn [andb orb].
          apply B. apply (V b e k); [now left|assumption|assumption]. }
        destruct (W2 k) as [->|[_ ->]]; [assumption|reflexivity].
      * apply andb_prop in H. destruct H as [_ H2]. apply (K2 H2 b' e'); assumption.
Qed.

(** Dirty sectors of [x] have been written to the core. *)
Definition synced (s : cst) (x c cl : nat) : Prop :=
  forall k, k < ns -> di (ln s x) k = true -> cr s c cl k = da (ln s x) k.

Lemma clean_rely s x c cl : coh s -> x < nl -> mp (ln s x) = Some (c, cl) -> synced s x c cl ->
  rely (fun _ => True) s (clean_item ns s (Some c) x) /\
  (forall k, k < ns -> di (ln (clean_item ns s (Some c) x) x) k = false).
Proof.
  intros C Hx M S. unfold clean_item. destruct (test_dirty ns (ln s x)) eqn:T.
  2:{ split; [now apply rely_refl|]. intros k Hk. destruct (di (ln s x) k) eqn:D; [|reflexivity].
      assert (test_dirty ns (ln s x) = true) by (apply test_dirty_iff; eauto). congruence. }
  set (l' := {| mp := mp (ln s x); va := va (ln s x);
                di := fun k => if Nat.ltb k ns then false else di (ln s x) k; da := da (ln s x) |}).
  set (s' := {| ln := set_ln (ln s) x l'; cr := cr s; dc := set_nat (dc s) c (dc s c - 1) |}).
  assert (Lx : ln s' x = l') by (cbn; unfold set_ln; now rewrite Nat.eqb_refl).
  assert (Ly : forall y, y <> x -> ln s' y = ln s y) by (intros y N; cbn; unfold set_ln; apply Nat.eqb_neq in N; now rewrite N).
  assert (Mp : forall y, mp (ln s' y) = mp (ln s y)) by (intros y; destruct (Nat.eq_dec y x) as [->|N]; [rewrite Lx; reflexivity|rewrite Ly by assumption; reflexivity]).
  assert (Va : forall y, va (ln s' y) = va (ln s y)) by (intros y; destruct (Nat.eq_dec y x) as [->|N]; [rewrite Lx; reflexivity|rewrite Ly by assumption; reflexivity]).
  assert (Da : forall y, da (ln s' y) = da (ln s y)) by (intros y; destruct (Nat.eq_dec y x) as [->|N]; [rewrite Lx; reflexivity|rewrite Ly by assumption; reflexivity]).
  assert (Dx : forall k, k < ns -> di (ln s' x) k = false).
  { intros k Hk. rewrite Lx. unfold l'; cbn [di]. apply Nat.ltb_lt in Hk. now rewrite Hk. }
  split; [|assumption].
  assert (Tx : test_dirty ns (ln s' x) = false).
  { destruct (test_dirty ns (ln s' x)) eqn:Q; [|reflexivity]. apply test_dirty_iff in Q. destruct Q as (k & Hk & Q). rewrite Dx in Q by assumption. discriminate. }
  constructor.
  - constructor.
    + intros y z m Hy Hz. rewrite !Mp. now apply (c_inj _ C).
    + intros y k Hy Hk D. rewrite Mp, Va. destruct (Nat.eq_dec y x) as [->|N]; [rewrite Dx in D by assumption; discriminate|].
      rewrite Ly in D by assumption. now apply (c_dirty _ C).
    + intros y k c' cl' Hy Hk. rewrite Mp, Va, Da. intros My Vy Dy. cbn [cr s'].
      destruct (Nat.eq_dec y x) as [->|N].
      * rewrite M in My. injection My as <- <-. destruct (di (ln s x) k) eqn:D; [now apply S|now apply (c_clean _ C)].
      * rewrite Ly in Dy by assumption. now apply (c_clean _ C).
    + intros c'. cbn [dc s']. unfold set_nat.
      set (P := fun y => test_dirty ns (ln s y) && match core_of (mp (ln s y)) with Some q => Nat.eqb q c' | None => false end).
      assert (F : forall a n, length (filter (fun y => test_dirty ns (ln s' y) && match core_of (mp (ln s' y)) with Some q => Nat.eqb q c' | None => false end) (seq a n)) =
        length (filter P (seq a n)) - (if Nat.eqb c' c && Nat.leb a x && Nat.ltb x (a + n) then 1 else 0)).
      { intros a n. revert a. induction n as [|n IH]; intros a; [reflexivity|].
        cbn [seq filter]. destruct (Nat.eq_dec a x) as [->|N].
        - rewrite Tx. cbn [andb]. rewrite IH. unfold P at 2. rewrite T, M. cbn [core_of andb].
          rewrite (Nat.eqb_sym c c'). destruct (Nat.eqb c' c); cbn [andb].
          + rewrite Nat.leb_refl, (proj2 (Nat.ltb_lt x (x + Datatypes.S n)) ltac:(lia)).
            rewrite (proj2 (Nat.leb_gt (Datatypes.S x) x) ltac:(lia)). cbn. lia.
          + reflexivity.
        - rewrite (Ly a) by assumption. fold (P a).
          assert (Q : (Nat.leb (Datatypes.S a) x && Nat.ltb x (Datatypes.S a + n)) = (Nat.leb a x && Nat.ltb x (a + Datatypes.S n))).
          { destruct (Nat.leb_spec (Datatypes.S a) x), (Nat.leb_spec a x), (Nat.ltb_spec x (Datatypes.S a + n)), (Nat.ltb_spec x (a + Datatypes.S n)); cbn; try reflexivity; lia. }
          specialize (IH (Datatypes.S a)). rewrite <- andb_assoc, Q, andb_assoc in IH.
          destruct (P a); [|exact IH]. cbn [length]. rewrite IH.
          destruct (Nat.eqb c' c && Nat.leb a x && Nat.ltb x (a + Datatypes.S n)) eqn:Z; [|lia].
          assert (In x (filter P (seq (Datatypes.S a) n))).
          { apply filter_In. rewrite !andb_true_iff in Z. destruct Z as [[Z1 Z2] Z3].
            apply Nat.leb_le in Z2. apply Nat.ltb_lt in Z3. split; [apply in_seq; lia|].
            unfold P. rewrite T, M. cbn. rewrite Nat.eqb_sym. assumption. }
          destruct (filter P (seq (Datatypes.S a) n)); [contradiction|cbn; lia]. }
      unfold dlist at 1. rewrite F. rewrite (proj2 (Nat.leb_le 0 x)), (proj2 (Nat.ltb_lt x (0 + nl))) by lia.
      rewrite !andb_true_r. fold (dlist s c') in *. change (filter P (seq 0 nl)) with (dlist s c').
      destruct (Nat.eqb c' c) eqn:Q; rewrite <- (c_cnt _ C); [apply Nat.eqb_eq in Q; now subst|lia].
  - intros c' cl' k d Hk [I1 I2]. split.
    + intros y Hy. rewrite Mp, Da. intros My Dy. destruct (Nat.eq_dec y x) as [->|N]; [rewrite Dx in Dy by assumption; discriminate|].
      rewrite Ly in Dy by assumption. now apply I1.
    + intros H. cbn [cr s']. destruct (di (ln s x) k) eqn:D.
      * destruct (Nat.eq_dec c' c) as [->|Nc]; [destruct (Nat.eq_dec cl' cl) as [->|Ncl]|].
        -- rewrite (S k Hk D). now apply I1.
        -- apply I2. intros y Hy My. rewrite <- (H y Hy) by (rewrite Mp; assumption).
           rewrite Ly; [reflexivity|]. intros ->. rewrite M in My. congruence.
        -- apply I2. intros y Hy My. rewrite <- (H y Hy) by (rewrite Mp; assumption).
           rewrite Ly; [reflexivity|]. intros ->. rewrite M in My. congruence.
      * apply I2. intros y Hy My. destruct (Nat.eq_dec y x) as [->|N]; [assumption|].
        rewrite <- (H y Hy) by (rewrite Mp; assumption). now rewrite Ly.
  - intros y k Hy Hk D. rewrite Mp. split; [|reflexivity].
    destruct (Nat.eq_dec y x) as [->|N]; [rewrite Dx in D by assumption; discriminate|now rewrite Ly in D].
  - intros y Hy _. rewrite Mp, Va, Da. auto.
  - intros y k c' cl' _ _ _ _. now left.
Qed.
End Defs.

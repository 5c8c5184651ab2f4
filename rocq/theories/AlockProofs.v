(** Invariants of the cache line lock. *)
From Coq Require Import ZArith List Bool Arith Lia Permutation.
From Verif Require Import AlockModel.
Import ListNotations.
Open Scope nat_scope.

Lemma setf_eq : forall A (f : nat -> A) i v, setf f i v i = v.
Proof. intros. unfold setf. now rewrite Nat.eqb_refl. Qed.
Lemma setf_neq : forall A (f : nat -> A) i v j, j <> i -> setf f i v j = f j.
Proof. intros. unfold setf. destruct (Nat.eqb_spec j i); congruence. Qed.
Lemma setb_eq : forall f r i v, setb f r i v r i = v.
Proof. intros. unfold setb. now rewrite !Nat.eqb_refl. Qed.
Lemma setb_neq : forall f r i v r' i', (r', i') <> (r, i) -> setb f r i v r' i' = f r' i'.
Proof.
  intros. unfold setb. destruct (Nat.eqb_spec r' r); destruct (Nat.eqb_spec i' i); cbn; auto. subst. congruence.
Qed.

Ltac splits := repeat match goal with |- _ /\ _ => split end.

Definition b2n (b : bool) : nat := if b then 1 else 0.

(** ** Counting *)
Lemma filter_set : forall (A : Type) (f f' : A -> bool) (l : list A) x,
  NoDup l -> In x l -> f x = false -> f' x = true -> (forall y, y <> x -> f' y = f y) ->
  length (filter f' l) = S (length (filter f l)).
Proof.
  intros A f f' l x. induction l as [|a l IH]; cbn; intros ND HI H1 H2 H3; [easy|].
  apply NoDup_cons_iff in ND as [Hn ND].
  destruct HI as [->|HI].
  - rewrite H1, H2. cbn. f_equal. apply f_equal. apply filter_ext_in. intros y Hy. apply H3. intros ->. contradiction.
  - assert (a <> x) by (intros ->; contradiction). rewrite (H3 a) by auto.
    destruct (f a); cbn; rewrite IH; auto.
Qed.

Lemma filter_length_le : forall (A : Type) (f : A -> bool) l, length (filter f l) <= length l.
Proof. induction l; cbn; auto. destruct (f a); cbn; lia. Qed.

Lemma filter_disj : forall (A : Type) (f g : A -> bool) l, (forall x, f x = true -> g x = true -> False) ->
  length (filter f l) + length (filter g l) <= length l.
Proof.
  intros A f g l H. induction l as [|a l IH]; cbn; auto. specialize (H a).
  destruct (f a), (g a); cbn; try (exfalso; apply H; reflexivity); lia.
Qed.

(** ** The access counter *)
Definition AccOk (a : Z) (wc rc : nat) : Prop :=
  (a = WR /\ wc = 1 /\ rc = 0) \/ (wc = 0 /\ a = Z.of_nat rc).

Definition nW (g : list waiter) : nat := length (filter w_wr g).
Definition nR (g : list waiter) : nat := length (filter (fun w => negb (w_wr w)) g).
Definition onl (l : nat) (w : waiter) : bool := w_line w =? l.

Lemma nW_cons : forall w g, nW (w :: g) = b2n (w_wr w) + nW g.
Proof. intros. unfold nW. cbn. now destruct (w_wr w). Qed.
Lemma nR_cons : forall w g, nR (w :: g) = b2n (negb (w_wr w)) + nR g.
Proof. intros. unfold nR. cbn. now destruct (w_wr w). Qed.

Lemma attempt_spec : forall h ex w a wc rc,
  AccOk a (wc + b2n (ex && h)) (rc + b2n (ex && negb h)) ->
  (Z.of_nat (wc + rc + 1) < WR)%Z ->
  match attempt h ex w a with
  | ABug => False
  | AFail => if ex then h = false /\ (1 < a)%Z else a <> 0%Z
  | AGot a' => AccOk a' (wc + b2n w) (rc + b2n (negb w))
  end.
Proof.
  intros h ex w a wc rc HA HB. assert (HW : (WR = 2147483647)%Z) by reflexivity.
  unfold attempt, try_idle, try_rd, AccOk in *.
  destruct ex, h, w; cbn [b2n andb negb] in *;
    repeat match goal with |- context [Z.eqb ?x ?y] => destruct (Z.eqb_spec x y) end; cbn [negb orb]; lia.
Qed.

Lemma scanq_spec : forall l h q ex a wc rc,
  AccOk a (wc + b2n (ex && h)) (rc + b2n (ex && negb h)) ->
  (Z.of_nat (wc + rc + 1 + length q) < WR)%Z ->
  exists a' k g ex', scanq l h ex a q = Some (a', k, g, ex') /\
    AccOk a' (wc + nW g + b2n (ex' && h)) (rc + nR g + b2n (ex' && negb h)) /\
    filter (onl l) q = g ++ filter (onl l) k /\
    Permutation q (g ++ k) /\ (forall l', l' <> l -> filter (onl l') q = filter (onl l') k) /\
    (ex' = true -> g = [] /\ ex = true) /\ (ex = true -> ex' = false -> g <> []) /\
    (filter (onl l) k <> [] -> if ex' then h = false /\ (1 < a')%Z else a' <> 0%Z).
Proof.
  intros l h. induction q as [|w q IH]; intros ex a wc rc HA HB; cbn [scanq].
  { exists a, [], [], ex. splits; try reflexivity.
    - cbn. now rewrite !Nat.add_0_r.
    - intros ->. auto.
    - intros -> ?. discriminate.
    - intros H; now elim H. }
  cbn [length] in HB. unfold onl in *. cbn [filter]. destruct (Nat.eqb_spec (w_line w) l) as [E|E]; cbn [negb].
  - assert (HB' : (Z.of_nat (wc + rc + 1) < WR)%Z) by lia.
    pose proof (attempt_spec h ex (w_wr w) a wc rc HA HB') as HT.
    destruct (attempt h ex (w_wr w) a) as [| |a1]; [easy| |].
    + exists a, (w :: q), [], ex. splits; try reflexivity.
      * cbn. now rewrite !Nat.add_0_r.
      * cbn [filter app]. now destruct (Nat.eqb_spec (w_line w) l).
      * intros ->. auto.
      * intros -> ?. discriminate.
      * intros _. exact HT.
    + destruct (IH false a1 (wc + b2n (w_wr w)) (rc + b2n (negb (w_wr w)))) as (a' & k & g & ex' & HS & HA' & HF & HP & HO & HE & HN & HK).
      * cbn. now rewrite !Nat.add_0_r.
      * destruct (w_wr w); cbn [b2n negb]; lia.
      * rewrite HS. exists a', k, (w :: g), ex'.
        assert (ex' = false) by (destruct ex'; auto; destruct HE as [_ H]; auto; discriminate). subst ex'.
        splits; try reflexivity.
        -- rewrite nW_cons, nR_cons. cbn [b2n andb] in *. rewrite !Nat.add_0_r in *. now rewrite !Nat.add_assoc.
        -- cbn. now rewrite HF.
        -- cbn. now constructor.
        -- intros l' Hl. cbn. destruct (Nat.eqb_spec (w_line w) l'); [congruence|]. now apply HO.
        -- discriminate.
        -- discriminate.
        -- exact HK.
  - destruct (IH ex a wc rc HA) as (a' & k & g & ex' & HS & HA' & HF & HP & HO & HE & HN & HK); [lia|].
    rewrite HS. exists a', (w :: k), g, ex'. splits; auto.
    + cbn. destruct (Nat.eqb_spec (w_line w) l); [contradiction|]. exact HF.
    + now apply Permutation_cons_app.
    + intros l' Hl. cbn. rewrite (HO l' Hl). reflexivity.
    + cbn. destruct (Nat.eqb_spec (w_line w) l); [contradiction|]. exact HK.
Qed.

Lemma release_spec : forall h a wc rc,
  AccOk a (wc + b2n h) (rc + b2n (negb h)) -> (Z.of_nat (wc + rc + 1) < WR)%Z ->
  exists a', release_entry h a = Some a' /\ AccOk a' wc rc /\ (h = false -> (1 < a)%Z -> a' <> 0%Z).
Proof.
  intros h a wc rc HA HB. assert (HW : (WR = 2147483647)%Z) by reflexivity.
  unfold release_entry, AccOk in *. destruct h; cbn [b2n negb] in *.
  - destruct (Z.eqb_spec a WR); cbn [negb]; [|lia]. exists 0%Z. split; [auto|]. split; [lia|discriminate].
  - destruct (Z.eqb_spec a 0); [lia|]. destruct (Z.eqb_spec a WR); [lia|]. cbn [orb]. exists (a - 1)%Z. split; [auto|]. lia.
Qed.

(** ** One request *)
Definition cntb (q : nat -> bool) (n : nat) : nat := length (filter q (seq 0 n)).
Definition noneb (q : nat -> bool) : Prop := forall j, q j = false.

(** What is known about a request in phase [p]: [b] its index bits, [q] the indexes
    with a queued waiter, [rm] lock_remaining, [rs] how often it was resumed, [n] its
    number of lines. *)
Definition RI (p : phase) (b q : nat -> bool) (rm : Z) (rs n : nat) : Prop :=
  match p with
  | Fast i => i <= n /\ (forall j, b j = (j <? i)) /\ noneb q /\ rm = 0%Z /\ rs = 0
  | Roll i => i <= n /\ (forall j, b j = true -> j < i) /\ noneb q /\ rm = 0%Z /\ rs = 0
  | SlowStart => noneb b /\ noneb q /\ rm = 0%Z /\ rs = 0
  | Slow i => i <= n /\ (forall j, b j = negb (q j) && (j <? i)) /\ (forall j, q j = true -> j < i) /\
      rm = (Z.of_nat (n - i) + 1 + Z.of_nat (cntb q n))%Z /\ rs = 0
  | SlowB i => i < n /\ (forall j, b j = negb (q j) && (j <? i)) /\ (forall j, q j = true -> j < i) /\
      rm = (Z.of_nat (n - i) + 1 + Z.of_nat (cntb q n))%Z /\ rs = 0
  | Err _ => (2 + Z.of_nat (cntb q n) <= rm)%Z /\ rs = 0
  | Wait => (forall j, b j = negb (q j) && (j <? n)) /\ rm = Z.of_nat (cntb q n) /\ (0 < rm)%Z /\ rs = 0
  | Held => (forall j, b j = (j <? n)) /\ noneb q /\ rm = 0%Z /\ rs = 1
  | Unlock i => i <= n /\ (forall j, b j = (i <=? j) && (j <? n)) /\ noneb q /\ rm = 0%Z /\ rs = 1
  | Done => noneb b /\ noneb q /\ rm = 0%Z /\ rs = 1
  | Refused => noneb b /\ noneb q /\ rm = 0%Z /\ rs = 0
  | Failed => (rm <= 0)%Z /\ rs = 0
  end.

Lemma cntb_ext : forall q q' n, (forall j, q j = q' j) -> cntb q n = cntb q' n.
Proof. intros. unfold cntb. f_equal. apply filter_ext. auto. Qed.

Lemma RI_ext : forall p b q b' q' rm rs n,
  (forall j, b j = b' j) -> (forall j, q j = q' j) -> RI p b q rm rs n -> RI p b' q' rm rs n.
Proof.
  intros p b q b' q' rm rs n Hb Hq. pose proof (cntb_ext q q' n Hq) as HC.
  destruct p; cbn [RI]; unfold noneb; rewrite ?HC; intros H; decompose [and] H; clear H; splits; auto; intros;
    rewrite <- ?Hb, <- ?Hq; auto; try (apply H2; now rewrite Hb); try (apply H3; now rewrite Hq); try (rewrite <- Hb in *; auto); try (rewrite <- Hq in *; auto).
Qed.

Lemma cntb_clear : forall q n j, j < n -> q j = true -> cntb q n = S (cntb (fun i => if i =? j then false else q i) n).
Proof.
  intros. unfold cntb. apply (filter_set nat _ _ (seq 0 n) j).
  - apply seq_NoDup.
  - apply in_seq. lia.
  - now rewrite Nat.eqb_refl.
  - auto.
  - intros y Hy. destruct (Nat.eqb_spec y j); congruence.
Qed.
Lemma cntb_zero : forall q n, cntb q n = 0 -> forall j, j < n -> q j = false.
Proof.
  unfold cntb. intros q n H j Hj. destruct (q j) eqn:E; auto.
  assert (In j (filter q (seq 0 n))) by (apply filter_In; split; auto; apply in_seq; lia).
  destruct (filter q (seq 0 n)); [easy|discriminate].
Qed.
Lemma cntb_none : forall q n, noneb q -> cntb q n = 0.
Proof.
  unfold cntb. intros. replace (filter q (seq 0 n)) with (@nil nat); auto.
  induction (seq 0 n); cbn; auto. now rewrite H.
Qed.
Lemma cntb_le : forall q n i, (forall j, q j = true -> j < i) -> i <= n -> cntb q n <= i.
Proof.
  intros q n i Hq Hi. unfold cntb. rewrite <- (seq_length i 0).
  apply NoDup_incl_length; [apply NoDup_filter, seq_NoDup|].
  intros x Hx. apply filter_In in Hx as [_ Hx]. apply in_seq. apply Hq in Hx. lia.
Qed.

(** A grant. *)
Lemma RI_grant : forall p b q rm rs n j, j < n -> q j = true -> b j = false ->
  (forall i, n <= i -> q i = false) ->
  RI p b q rm rs n ->
  RI (if (rm - 1 =? 0)%Z then Held else p) (fun i => if i =? j then true else b i)
     (fun i => if i =? j then false else q i) (rm - 1) (if (rm - 1 =? 0)%Z then S rs else rs) n.
Proof.
  intros p b q rm rs n j Hj Hq Hb HQ H.
  pose proof (cntb_clear q n j Hj Hq) as HC.
  set (q' := fun i => if i =? j then false else q i) in *.
  destruct p; cbn [RI] in H.
  - destruct H as (_ & _ & H & _). rewrite H in Hq. discriminate.
  - destruct H as (_ & _ & H & _). rewrite H in Hq. discriminate.
  - destruct H as (_ & H & _). rewrite H in Hq. discriminate.
  - destruct H as (H1 & H2 & H3 & H4 & H5). destruct (Z.eqb_spec (rm - 1) 0); [lia|]. cbn [RI].
    splits; auto.
    + intros i0. unfold q'. destruct (Nat.eqb_spec i0 j); [subst; cbn; symmetry; apply Nat.ltb_lt; auto|apply H2].
    + intros i0. unfold q'. destruct (Nat.eqb_spec i0 j); [discriminate|apply H3].
    + lia.
  - destruct H as (H1 & H2 & H3 & H4 & H5). destruct (Z.eqb_spec (rm - 1) 0); [lia|]. cbn [RI].
    splits; auto.
    + intros i0. unfold q'. destruct (Nat.eqb_spec i0 j); [subst; cbn; symmetry; apply Nat.ltb_lt; auto|apply H2].
    + intros i0. unfold q'. destruct (Nat.eqb_spec i0 j); [discriminate|apply H3].
    + lia.
  - destruct H as (H1 & H2). destruct (Z.eqb_spec (rm - 1) 0); [lia|]. cbn [RI]. split; auto. lia.
  - destruct H as (H1 & H2 & H3 & H4).
    destruct (Z.eqb_spec (rm - 1) 0); cbn [RI].
    + assert (HZ : cntb q' n = 0) by lia. pose proof (cntb_zero q' n HZ) as HN.
      assert (HA : noneb q').
      { intros i0. destruct (lt_dec i0 n); [auto|]. unfold q'. destruct (Nat.eqb_spec i0 j); auto. apply HQ. lia. }
      splits; auto.
      * intros i0. specialize (HA i0). unfold q' in HA. destruct (Nat.eqb_spec i0 j).
        -- subst. symmetry. now apply Nat.ltb_lt.
        -- rewrite H1, HA. reflexivity.
    + splits; auto; try lia.
      intros i0. unfold q'. destruct (Nat.eqb_spec i0 j); [subst; cbn; symmetry; apply Nat.ltb_lt; auto|apply H1].
  - destruct H as (_ & H & _). rewrite H in Hq. discriminate.
  - destruct H as (_ & _ & H & _). rewrite H in Hq. discriminate.
  - destruct H as (_ & H & _). rewrite H in Hq. discriminate.
  - destruct H as (_ & H & _). rewrite H in Hq. discriminate.
  - destruct H as (H1 & H2). destruct (Z.eqb_spec (rm - 1) 0); [lia|]. cbn [RI]. split; auto. lia.
Qed.

(** Only a waiting request is resumed by a grant. *)
Lemma RI_grant_wait : forall p b q rm rs n j, j < n -> q j = true -> RI p b q rm rs n -> (rm - 1 = 0)%Z -> p = Wait.
Proof.
  intros p b q rm rs n j Hj Hq H HZ. pose proof (cntb_clear q n j Hj Hq) as HC.
  destruct p; cbn [RI] in H; auto; exfalso; lia.
Qed.

(** ** Grants *)
Definition key (w : waiter) : nat * nat := (w_req w, w_idx w).
Definition iskey (r i : nat) (w : waiter) : bool := (w_req w =? r) && (w_idx w =? i).
Definition ing (g : list waiter) (r i : nat) : bool := existsb (iskey r i) g.

Lemma iskey_true : forall r i w, iskey r i w = true <-> key w = (r, i).
Proof.
  intros. unfold iskey, key. rewrite andb_true_iff, !Nat.eqb_eq. split; [intros [-> ->]; auto|]. intros H; inversion H; auto.
Qed.
Lemma ing_true : forall g r i, ing g r i = true <-> In (r, i) (map key g).
Proof.
  intros. unfold ing. rewrite existsb_exists, in_map_iff. split.
  - intros (w & Hi & Hk). exists w. split; auto. now apply iskey_true.
  - intros (w & Hk & Hi). exists w. split; auto. now apply iskey_true.
Qed.
Lemma ing_perm : forall q q' r i, Permutation q q' -> ing q r i = ing q' r i.
Proof.
  intros q q' r i HP. apply eq_true_iff_eq. rewrite !ing_true. split; apply Permutation_in; [|symmetry]; now apply Permutation_map.
Qed.
Lemma ing_app : forall q q' r i, ing (q ++ q') r i = ing q r i || ing q' r i.
Proof. intros. apply existsb_app. Qed.

Lemma entry_locked_misc : forall s r i,
  access (entry_locked s r i) = access s /\ queue (entry_locked s r i) = queue s /\ mutex (entry_locked s r i) = mutex s /\
  bits (entry_locked s r i) = setb (bits s) r i true /\ rem (entry_locked s r i) = setf (rem s) r (rem s r - 1)%Z /\
  ph (entry_locked s r i) = (if (rem s r - 1 =? 0)%Z then setf (ph s) r Held else ph s) /\
  resumed (entry_locked s r i) = (if (rem s r - 1 =? 0)%Z then setf (resumed s) r (S (resumed s r)) else resumed s).
Proof.
  intros. unfold entry_locked, goto. cbn [rem w_bits w_rem]. destruct (rem s r - 1 =? 0)%Z; cbn; auto 10.
Qed.

Lemma grants_misc : forall g s,
  access (grants s g) = access s /\ queue (grants s g) = queue s /\ mutex (grants s g) = mutex s.
Proof.
  induction g as [|w g IH]; intros s; cbn [grants fold_left]; auto.
  destruct (entry_locked_misc s (w_req w) (w_idx w)) as (A & B & C & _).
  fold (grants (entry_locked s (w_req w) (w_idx w)) g).
  destruct (IH (entry_locked s (w_req w) (w_idx w))) as (A' & B' & C'). rewrite A', B', C'. auto.
Qed.

Lemma grants_bits : forall g s r i, bits (grants s g) r i = bits s r i || ing g r i.
Proof.
  induction g as [|w g IH]; intros s r i; cbn [grants fold_left ing existsb]; [now rewrite orb_false_r|].
  fold (grants (entry_locked s (w_req w) (w_idx w)) g). fold (ing g r i). rewrite IH.
  destruct (entry_locked_misc s (w_req w) (w_idx w)) as (_ & _ & _ & -> & _).
  destruct (iskey r i w) eqn:E.
  - apply iskey_true in E. unfold key in E. inversion E; subst. rewrite setb_eq. now rewrite orb_true_r.
  - rewrite setb_neq; auto. intros F. inversion F; subst.
    assert (iskey (w_req w) (w_idx w) w = true) by now apply iskey_true. congruence.
Qed.

Section Inv.
Variables (nb : nat) (wants : nat -> want) (nr : nat).
Notation len := (len wants).
Notation line := (line wants).
Notation bucket := (bucket nb).

Definition slots : list (nat * nat) := flat_map (fun r => map (pair r) (seq 0 (len r))) (seq 0 nr).

Lemma in_slots : forall r i, In (r, i) slots <-> r < nr /\ i < len r.
Proof.
  intros. unfold slots. rewrite in_flat_map. split.
  - intros (x & Hx & Hi). apply in_map_iff in Hi as (y & E & Hy). inversion E; subst. apply in_seq in Hx, Hy. lia.
  - intros [A B]. exists r. split; [apply in_seq; lia|]. apply in_map. apply in_seq. lia.
Qed.
Lemma nodup_slots : NoDup slots.
Proof.
  unfold slots. generalize (seq_NoDup nr 0). generalize (seq 0 nr) as rs.
  induction rs as [|a rs IH]; cbn; intros ND; [constructor|]. apply NoDup_cons_iff in ND as [Hn ND].
  specialize (IH ND). remember (flat_map (fun r => map (pair r) (seq 0 (len r))) rs) as rest eqn:E.
  generalize (seq_NoDup (len a) 0). generalize (seq 0 (len a)) as js.
  induction js as [|j js IHj]; cbn; intros NJ; auto. apply NoDup_cons_iff in NJ as [Hj NJ]. constructor; auto.
  rewrite in_app_iff. intros [H|H].
  - apply in_map_iff in H as (y & Ey & Hy). inversion Ey; subst. contradiction.
  - rewrite E in H. apply in_flat_map in H as (x & Hx & Hy). apply in_map_iff in Hy as (y & Ey & Hy). inversion Ey; subst. contradiction.
Qed.

(** Number of lines held on [l] in the given mode. *)
Definition holdf (w : bool) (b : nat -> nat -> bool) (l : nat) (p : nat * nat) : bool :=
  b (fst p) (snd p) && (line (fst p) (snd p) =? l) && Bool.eqb (wr (wants (fst p))) w.
Definition holdc (w : bool) (b : nat -> nat -> bool) (l : nat) : nat := length (filter (holdf w b l) slots).

Lemma holdc_ext : forall w b b' l, (forall r i, b r i = b' r i) -> holdc w b l = holdc w b' l.
Proof. intros. unfold holdc. f_equal. apply filter_ext. intros [r i]. unfold holdf. cbn. now rewrite H. Qed.

Definition mine (r i : nat) (w : bool) (l : nat) : nat := b2n ((line r i =? l) && Bool.eqb (wr (wants r)) w).

Lemma holdc_set : forall w b l r i, In (r, i) slots -> b r i = false ->
  holdc w (setb b r i true) l = holdc w b l + mine r i w l.
Proof.
  intros w b l r i HI Hb. unfold mine. destruct ((line r i =? l) && eqb (wr (wants r)) w) eqn:E; cbn [b2n].
  - unfold holdc. rewrite Nat.add_1_r. apply (filter_set _ _ _ slots (r, i)); auto using nodup_slots.
    + unfold holdf. cbn. now rewrite Hb.
    + unfold holdf. cbn. rewrite setb_eq. exact E.
    + intros [r' i'] Hn. unfold holdf. cbn. now rewrite setb_neq.
  - rewrite Nat.add_0_r. unfold holdc. f_equal. apply filter_ext. intros [r' i']. unfold holdf. cbn.
    destruct (Nat.eqb_spec r' r); [destruct (Nat.eqb_spec i' i)|].
    + subst. rewrite setb_eq, Hb. exact E.
    + rewrite setb_neq; auto. congruence.
    + rewrite setb_neq; auto. congruence.
Qed.
Lemma holdc_clr : forall w b l r i, In (r, i) slots -> b r i = true ->
  holdc w b l = holdc w (setb b r i false) l + mine r i w l.
Proof.
  intros w b l r i HI Hb. rewrite <- (holdc_set w (setb b r i false) l r i HI) by apply setb_eq.
  apply holdc_ext. intros r' i'. unfold setb. destruct ((r' =? r) && (i' =? i)) eqn:E; auto.
  apply andb_true_iff in E as [E1 E2]. apply Nat.eqb_eq in E1, E2. now subst.
Qed.

(** A waiter describes an index of its request. *)
Definition WOk (w : waiter) : Prop :=
  w_req w < nr /\ w_idx w < len (w_req w) /\ w_line w = line (w_req w) (w_idx w) /\ w_wr w = wr (wants (w_req w)).

Definition ngr (w : bool) (l : nat) (g : list waiter) : nat := length (filter (fun x => (w_line x =? l) && Bool.eqb (w_wr x) w) g).

Lemma holdc_grants : forall g w l s, Forall WOk g -> NoDup (map key g) ->
  (forall x, In x g -> bits s (w_req x) (w_idx x) = false) ->
  holdc w (bits (grants s g)) l = holdc w (bits s) l + ngr w l g.
Proof.
  induction g as [|x g IH]; intros w l s HF HN HB.
  - cbn. lia.
  - change (grants s (x :: g)) with (grants (entry_locked s (w_req x) (w_idx x)) g).
    apply Forall_cons_iff in HF as [HX HF]. cbn [map] in HN. apply NoDup_cons_iff in HN as [Hn HN].
    destruct (entry_locked_misc s (w_req x) (w_idx x)) as (_ & _ & _ & EB & _).
    rewrite IH; auto; rewrite EB.
    + rewrite holdc_set; [|apply in_slots; split; apply HX|apply HB; now left].
      unfold mine, ngr. cbn [filter]. destruct HX as (_ & _ & <- & <-).
      destruct ((w_line x =? l) && eqb (w_wr x) w); cbn [b2n length]; lia.
    + intros y Hy. rewrite setb_neq; [apply HB; now right|].
      intros E. apply Hn. apply in_map_iff. exists y. unfold key. auto.
Qed.

Definition inq (q : nat -> list waiter) (r i : nat) : bool := ing (q (bucket (line r i))) r i.

Definition RInv (s : st) (q : nat -> nat -> bool) (r : nat) : Prop :=
  RI (ph s r) (bits s r) (q r) (rem s r) (resumed s r) (len r).

Lemma rinv_grants : forall g q s, Forall WOk g -> NoDup (map key g) ->
  (forall x, In x g -> bits s (w_req x) (w_idx x) = false) ->
  (forall r i, len r <= i -> q r i = false) ->
  (forall x, In x g -> q (w_req x) (w_idx x) = false) ->
  (forall r, r < nr -> RInv s (fun r i => ing g r i || q r i) r) ->
  forall r, r < nr -> RInv (grants s g) q r /\ (ph (grants s g) r = ph s r \/ (ph s r = Wait /\ ph (grants s g) r = Held)).
Proof.
  induction g as [|x g IH]; intros q s HF HN HB HL HQ HR r Hr.
  - cbn. split; [|auto]. refine (RI_ext _ _ _ _ _ _ _ _ _ _ (HR r Hr)); auto.
  - change (grants s (x :: g)) with (grants (entry_locked s (w_req x) (w_idx x)) g).
    apply Forall_cons_iff in HF as [HX HF]. cbn [map] in HN. apply NoDup_cons_iff in HN as [Hn HN].
    destruct (entry_locked_misc s (w_req x) (w_idx x)) as (_ & _ & _ & EB & ER & EP & ES).
    assert (HPH : ph (entry_locked s (w_req x) (w_idx x)) r = ph s r \/
        (ph s r = Wait /\ ph (entry_locked s (w_req x) (w_idx x)) r = Held)).
    { rewrite EP. destruct (Z.eqb_spec (rem s (w_req x) - 1) 0); [|auto]. unfold setf. destruct (Nat.eqb_spec r (w_req x)); [|auto].
      right. split; auto. subst r. refine (RI_grant_wait _ _ _ _ _ _ (w_idx x) (proj1 (proj2 HX)) _ (HR _ Hr) e).
      cbn. now rewrite (proj2 (iskey_true (w_req x) (w_idx x) x) eq_refl). }
    assert (HI : RInv (grants (entry_locked s (w_req x) (w_idx x)) g) q r /\
       (ph (grants (entry_locked s (w_req x) (w_idx x)) g) r = ph (entry_locked s (w_req x) (w_idx x)) r \/
        (ph (entry_locked s (w_req x) (w_idx x)) r = Wait /\ ph (grants (entry_locked s (w_req x) (w_idx x)) g) r = Held))).
    2: { destruct HI as [HI1 HI2]. split; auto. destruct HI2 as [HI2|[HI2 HI3]].
         - rewrite HI2. exact HPH.
         - destruct HPH as [HP|[HP1 HP2]]; [|congruence]. right. split; [congruence|exact HI3]. }
    clear HPH. apply IH; auto.
    + rewrite EB. intros y Hy. rewrite setb_neq; [apply HB; now right|].
      intros E. apply Hn. apply in_map_iff. exists y. unfold key. auto.
    + intros y Hy. apply HQ. now right.
    + clear r Hr. intros r Hr. specialize (HR r Hr). unfold RInv in *. rewrite EP, EB, ER, ES.
      destruct (Nat.eq_dec r (w_req x)) as [->|Hne].
      * assert (Hg : ing g (w_req x) (w_idx x) = false).
        { destruct (ing g (w_req x) (w_idx x)) eqn:E; auto. apply ing_true in E. contradiction. }
        assert (Hself : iskey (w_req x) (w_idx x) x = true) by now apply iskey_true.
        assert (H1 : (fun i => ing (x :: g) (w_req x) i || q (w_req x) i) (w_idx x) = true).
        { cbn. now rewrite Hself. }
        assert (H2 : bits s (w_req x) (w_idx x) = false) by (apply HB; now left).
        assert (H3 : forall i, len (w_req x) <= i -> (fun i => ing (x :: g) (w_req x) i || q (w_req x) i) i = false).
        { intros i Hi. cbv beta. rewrite HL by auto. rewrite orb_false_r. destruct (ing (x :: g) (w_req x) i) eqn:E; auto.
          apply ing_true in E. apply in_map_iff in E as (y & Ey & Hy). unfold key in Ey. inversion Ey; subst.
          assert (WOk y) by (destruct Hy as [<-|Hy]; auto; rewrite Forall_forall in HF; auto).
          destruct H as (_ & H & _). rewrite H0 in H. lia. }
        pose proof (RI_grant (ph s (w_req x)) (bits s (w_req x)) (fun i => ing (x :: g) (w_req x) i || q (w_req x) i)
          (rem s (w_req x)) (resumed s (w_req x)) (len (w_req x)) (w_idx x) (proj1 (proj2 HX)) H1 H2 H3 HR) as HG.
        rewrite setf_eq.
        assert (E1 : (if (rem s (w_req x) - 1 =? 0)%Z then setf (ph s) (w_req x) Held else ph s) (w_req x) =
                     (if (rem s (w_req x) - 1 =? 0)%Z then Held else ph s (w_req x))).
        { destruct (_ =? 0)%Z; auto. apply setf_eq. }
        assert (E2 : (if (rem s (w_req x) - 1 =? 0)%Z then setf (resumed s) (w_req x) (S (resumed s (w_req x))) else resumed s) (w_req x) =
                     (if (rem s (w_req x) - 1 =? 0)%Z then S (resumed s (w_req x)) else resumed s (w_req x))).
        { destruct (_ =? 0)%Z; auto. apply setf_eq. }
        rewrite E1, E2. refine (RI_ext _ _ _ _ _ _ _ _ _ _ HG).
        -- intros j. unfold setb. now rewrite Nat.eqb_refl.
        -- intros j. cbv beta. destruct (Nat.eqb_spec j (w_idx x)).
           ++ subst j. rewrite Hg. symmetry. apply HQ. now left.
           ++ cbn [ing existsb]. fold (ing g (w_req x) j).
              destruct (iskey (w_req x) j x) eqn:E; auto. apply iskey_true in E. unfold key in E. inversion E. congruence.
      * rewrite setf_neq by auto.
        assert (E1 : (if (rem s (w_req x) - 1 =? 0)%Z then setf (ph s) (w_req x) Held else ph s) r = ph s r).
        { destruct (_ =? 0)%Z; auto. now apply setf_neq. }
        assert (E2 : (if (rem s (w_req x) - 1 =? 0)%Z then setf (resumed s) (w_req x) (S (resumed s (w_req x))) else resumed s) r = resumed s r).
        { destruct (_ =? 0)%Z; auto. now apply setf_neq. }
        rewrite E1, E2. refine (RI_ext _ _ _ _ _ _ _ _ _ _ HR).
        -- intros j. symmetry. apply setb_neq. congruence.
        -- intros j. cbn [ing existsb]. fold (ing g r j).
           destruct (iskey r j x) eqn:E; auto. apply iskey_true in E. unfold key in E. inversion E. congruence.
Qed.
Record Inv (s : st) : Prop := {
  v_acc : forall l, AccOk (access s l) (holdc true (bits s) l) (holdc false (bits s) l);
  v_q : forall b w, In w (queue s b) -> WOk w /\ bucket (w_line w) = b /\ bits s (w_req w) (w_idx w) = false;
  v_nd : forall b, NoDup (map key (queue s b));
  v_ne : forall b w, In w (queue s b) -> access s (w_line w) <> 0%Z;
  v_r : forall r, r < nr -> RInv s (inq (queue s)) r;
  v_out : forall r i, bits s r i = true -> r < nr /\ i < len r
}.

Hypothesis bound : (Z.of_nat (2 * length slots + 1) < WR)%Z.

Lemma holdc_bound : forall b l, holdc true b l + holdc false b l <= length slots.
Proof.
  intros b l. unfold holdc. apply filter_disj. intros p H1 H2. unfold holdf in *.
  apply andb_true_iff in H1 as [_ H1]. apply andb_true_iff in H2 as [_ H2]. destruct (wr (wants (fst p))); discriminate.
Qed.
Lemma queue_bound : forall q, (forall w, In w q -> WOk w) -> NoDup (map key q) -> length q <= length slots.
Proof.
  intros q HW ND. rewrite <- (map_length key). apply NoDup_incl_length; auto.
  intros [r i] Hi. apply in_map_iff in Hi as (w & E & Hw). apply in_slots. unfold key in E. inversion E; subst. split; apply (HW w Hw).
Qed.

(** Waiters of a line, oldest first. *)
Definition wl (s : st) (l : nat) : list waiter := filter (onl l) (queue s (bucket l)).

Lemma nodup_app_r : forall (A : Type) (a b : list A), NoDup (a ++ b) -> NoDup b.
Proof. induction a; cbn; auto. intros b H. apply NoDup_cons_iff in H as [_ H]. auto. Qed.
Lemma nodup_app_l : forall (A : Type) (a b : list A), NoDup (a ++ b) -> NoDup a.
Proof.
  induction a; cbn; [constructor|]. intros b H. apply NoDup_cons_iff in H as [Hn H]. constructor; eauto.
  intros HI. apply Hn. apply in_app_iff. auto.
Qed.
Lemma nodup_app_x : forall (A : Type) (a b : list A) x, NoDup (a ++ b) -> In x a -> In x b -> False.
Proof.
  induction a; cbn; [easy|]. intros b x H [->|Ha] Hb; apply NoDup_cons_iff in H as [Hn H].
  - apply Hn. apply in_app_iff. auto.
  - eauto.
Qed.

Lemma ngr_all : forall l g, (forall w, In w g -> w_line w = l) ->
  forall l', ngr true l' g = (if l' =? l then nW g else 0) /\ ngr false l' g = (if l' =? l then nR g else 0).
Proof.
  intros l g HL l'. unfold ngr, nW, nR. induction g as [|w g IH]; cbn.
  - now destruct (l' =? l).
  - rewrite (HL w) by now left. destruct IH as [I1 I2]; [intros; apply HL; now right|].
    rewrite (Nat.eqb_sym l l'). destruct (l' =? l); cbn [andb].
    + destruct (w_wr w); cbn; lia.
    + auto.
Qed.

Lemma unlock_common_inv : forall s l h,
  (forall l', AccOk (access s l') (holdc true (bits s) l' + (if l' =? l then b2n h else 0))
                                  (holdc false (bits s) l' + (if l' =? l then b2n (negb h) else 0))) ->
  (forall b w, In w (queue s b) -> WOk w /\ bucket (w_line w) = b /\ bits s (w_req w) (w_idx w) = false) ->
  (forall b, NoDup (map key (queue s b))) ->
  (forall b w, In w (queue s b) -> access s (w_line w) <> 0%Z) ->
  (forall r, r < nr -> RInv s (inq (queue s)) r) ->
  (forall r i, bits s r i = true -> r < nr /\ i < len r) ->
  exists s' g, unlock_common nb s l h = Some s' /\ Inv s' /\ wl s l = g ++ wl s' l /\
    (forall l', l' <> l -> wl s' l' = wl s l') /\ (forall r i, bits s' r i = bits s r i || ing g r i) /\
    mutex s' = mutex s /\
    (forall r, r < nr -> ph s' r = ph s r \/ (ph s r = Wait /\ ph s' r = Held)).
Proof.
  intros s l h Hacc Hq Hnd Hne Hr Hout. unfold unlock_common.
  pose proof (Hacc l) as Hl. rewrite Nat.eqb_refl in Hl.
  assert (HQL : length (queue s (bucket l)) <= length slots).
  { apply queue_bound; auto. intros w Hw. now apply Hq in Hw. }
  pose proof (holdc_bound (bits s) l) as HBL.
  destruct (scanq_spec l h (queue s (bucket l)) true (access s l) (holdc true (bits s) l) (holdc false (bits s) l) Hl)
    as (a' & k & g & ex' & HS & HA' & HF & HP & HO & HE & HN & HK); [lia|].
  rewrite HS.
  assert (Hgl : forall w, In w g -> w_line w = l).
  { intros w Hw. assert (In w (filter (onl l) (queue s (bucket l)))) by (rewrite HF; apply in_app_iff; auto).
    apply filter_In in H as [_ H]. now apply Nat.eqb_eq. }
  assert (Hgq : forall w, In w g -> In w (queue s (bucket l))).
  { intros w Hw. apply (Permutation_in w (Permutation_sym HP)). apply in_app_iff. auto. }
  assert (Hkq : forall w, In w k -> In w (queue s (bucket l))).
  { intros w Hw. apply (Permutation_in w (Permutation_sym HP)). apply in_app_iff. auto. }
  assert (Hndgk : NoDup (map key g ++ map key k)).
  { rewrite <- map_app. apply (Permutation_NoDup (Permutation_map key HP)). apply Hnd. }
  assert (HR : exists a2, (if ex' then release_entry h a' else Some a') = Some a2 /\
            AccOk a2 (holdc true (bits s) l + nW g) (holdc false (bits s) l + nR g) /\
            (filter (onl l) k <> [] -> a2 <> 0%Z)).
  { destruct ex'.
    - destruct (HE eq_refl) as [-> _]. cbn [nW nR filter length andb] in HA'. rewrite !Nat.add_0_r in HA'.
      destruct (release_spec h a' _ _ HA') as (a2 & E2 & HA2 & H2); [lia|].
      exists a2. rewrite E2. split; auto. cbn [nW nR filter length]. rewrite !Nat.add_0_r. split; auto.
      intros Hk. destruct (HK Hk) as [-> H1]. auto.
    - exists a'. split; auto. cbn [andb b2n] in HA'. rewrite !Nat.add_0_r in HA'. auto. }
  destruct HR as (a2 & E2 & HA2 & Hk2). rewrite E2. clear E2.
  set (s1 := w_queue (w_access s (setf (access s) l a2)) (setf (queue (w_access s (setf (access s) l a2))) (bucket l) k)).
  assert (HFg : Forall WOk g) by (apply Forall_forall; intros w Hw; apply (Hq (bucket l)); auto).
  assert (HBg : forall x, In x g -> bits s1 (w_req x) (w_idx x) = false) by (intros x Hx; apply (Hq (bucket l)); auto).
  assert (HNg : NoDup (map key g)) by exact (nodup_app_l _ _ _ Hndgk).
  destruct (grants_misc g s1) as (EA & EQ & EM).
  assert (HsubQ : forall b w, In w (queue s1 b) -> In w (queue s b)).
  { intros b w. cbn. unfold setf. destruct (Nat.eqb_spec b (bucket l)); subst; auto. }
  assert (HRG : forall r, r < nr -> RInv (grants s1 g) (inq (queue s1)) r /\
       (ph (grants s1 g) r = ph s1 r \/ (ph s1 r = Wait /\ ph (grants s1 g) r = Held))).
  { apply rinv_grants; auto.
      * intros r i Hi. unfold inq. destruct (ing _ r i) eqn:E; auto. apply ing_true in E. apply in_map_iff in E as (w & Ew & Hw).
        destruct (Hq _ _ (HsubQ _ _ Hw)) as ((_ & H & _) & _). unfold key in Ew. inversion Ew; subst. lia.
      * intros x Hx. unfold inq. destruct (ing _ _ _) eqn:E; auto. apply ing_true in E. exfalso.
        destruct (Hq _ _ (Hgq x Hx)) as ((_ & _ & G1 & _) & G2 & _). rewrite <- G1, (Hgl x Hx) in E.
        cbn in E. rewrite setf_eq in E. apply (nodup_app_x _ _ _ _ Hndgk (in_map key _ _ Hx) E).
      * intros r Hr0. refine (RI_ext _ _ _ _ _ _ _ _ _ _ (Hr r Hr0)); auto.
        intros j. unfold inq. cbn [queue s1 w_queue w_access]. unfold setf.
        destruct (Nat.eqb_spec (bucket (line r j)) (bucket l)) as [Eb|Eb].
        -- rewrite Eb. rewrite (ing_perm _ _ r j HP). apply ing_app.
        -- destruct (ing g r j) eqn:E; auto. exfalso. apply ing_true in E. apply in_map_iff in E as (w & Ew & Hw).
           destruct (Hq _ _ (Hgq w Hw)) as ((_ & _ & G1 & _) & G2 & _). unfold key in Ew. inversion Ew; subst r j. congruence. }
  exists (grants s1 g), g. split; [reflexivity|]. split; [|split; [|split; [|split; [|split]]]].
  - constructor; rewrite ?EA, ?EQ.
    + intros l'. rewrite !(holdc_grants g _ l' s1 HFg HNg HBg). destruct (ngr_all l g Hgl l') as [-> ->].
      cbn [bits s1 w_queue w_access access]. specialize (Hacc l'). destruct (Nat.eqb_spec l' l).
      * subst l'. rewrite setf_eq. exact HA2.
      * rewrite setf_neq by auto. exact Hacc.
    + intros b w Hw. pose proof (HsubQ b w Hw) as Hw0. destruct (Hq b w Hw0) as (H1 & H2 & H3). splits; auto.
      rewrite grants_bits. cbn [bits s1 w_queue w_access]. rewrite H3. cbn [orb].
      destruct (ing g (w_req w) (w_idx w)) eqn:E; auto. exfalso. apply ing_true in E.
      cbn in Hw. unfold setf in Hw. destruct (Nat.eqb_spec b (bucket l)).
      * apply (nodup_app_x _ _ _ _ Hndgk E). now apply (in_map key).
      * apply in_map_iff in E as (y & Ey & Hy). pose proof (Hq _ _ (Hgq y Hy)) as (G1 & G2 & _).
        unfold key in Ey. inversion Ey as [[Ey1 Ey2]]. destruct G1 as (_ & _ & G1 & _). destruct H1 as (_ & _ & H1 & _).
        rewrite Ey1, Ey2 in G1. rewrite <- H1 in G1. rewrite G1 in G2. congruence.
    + intros b. cbn. unfold setf. destruct (Nat.eqb_spec b (bucket l)); [exact (nodup_app_r _ _ _ Hndgk)|apply Hnd].
    + intros b w Hw. pose proof (HsubQ b w Hw) as Hw0. cbn [s1 w_queue w_access access].
      destruct (Nat.eq_dec (w_line w) l) as [El|El].
      * rewrite El, setf_eq. apply Hk2. destruct (Hq _ _ Hw0) as (_ & H2 & _). rewrite El in H2. subst b.
        cbn in Hw. rewrite setf_eq in Hw. intros Hnil.
        assert (In w (filter (onl l) k)) by (apply filter_In; split; auto; now apply Nat.eqb_eq). rewrite Hnil in H. easy.
      * rewrite setf_neq by auto. exact (Hne b w Hw0).
    + intros r Hr0. now apply HRG.
    + intros r i. rewrite grants_bits. cbn [bits s1 w_queue w_access]. destruct (bits s r i) eqn:E; cbn [orb]; auto.
      intros HI. apply ing_true in HI. apply in_map_iff in HI as (w & Ew & Hw). unfold key in Ew. inversion Ew; subst.
      destruct (Hq _ _ (Hgq w Hw)) as ((G1 & G2 & _) & _). auto.
  - unfold wl. rewrite EQ. cbn [queue s1 w_queue w_access]. now rewrite setf_eq.
  - intros l' Hl'. unfold wl. rewrite EQ. cbn [queue s1 w_queue w_access]. unfold setf.
    destruct (Nat.eqb_spec (bucket l') (bucket l)) as [Eb|Eb]; auto. rewrite Eb. symmetry. auto.
  - intros r i. rewrite grants_bits. reflexivity.
  - rewrite EM. reflexivity.
  - intros r Hr0. apply HRG. auto.
Qed.
(** ** Steps *)

(** Only request [r] itself changes, no bit, no counter, no list. *)
Lemma same_inv : forall s s' r, Inv s -> access s' = access s -> queue s' = queue s -> bits s' = bits s ->
  (forall r', r' <> r -> ph s' r' = ph s r' /\ rem s' r' = rem s r' /\ resumed s' r' = resumed s r') ->
  (r < nr -> RInv s' (inq (queue s)) r) -> Inv s'.
Proof.
  intros s s' r HI EA EQ EB HO HR. destruct HI as [I1 I2 I3 I4 I5 I6]. constructor; rewrite ?EA, ?EQ, ?EB; auto.
  intros r' Hr'. destruct (Nat.eq_dec r' r) as [->|Hne]; auto. unfold RInv in *. destruct (HO r' Hne) as (-> & -> & ->). rewrite EB. now apply I5.
Qed.

Lemma inq_false : forall s r i w b, Inv s -> inq (queue s) r i = false -> In w (queue s b) -> (w_req w, w_idx w) <> (r, i).
Proof.
  intros s r i w b HI HQ Hw E. inversion E; subst. destruct (v_q s HI b w Hw) as ((_ & _ & H1 & _) & H2 & _).
  unfold inq in HQ. rewrite <- H1, H2 in HQ. assert (ing (queue s b) (w_req w) (w_idx w) = true).
  { apply ing_true. apply (in_map key _ _ Hw). } congruence.
Qed.

(** Request [r] obtains its index [i]. *)
Lemma acq_inv : forall s s' r i a, Inv s -> r < nr -> i < len r -> bits s r i = false -> inq (queue s) r i = false ->
  AccOk a (holdc true (bits s) (line r i) + b2n (wr (wants r))) (holdc false (bits s) (line r i) + b2n (negb (wr (wants r)))) ->
  access s' = setf (access s) (line r i) a -> queue s' = queue s -> bits s' = setb (bits s) r i true ->
  (forall r', r' <> r -> ph s' r' = ph s r' /\ rem s' r' = rem s r' /\ resumed s' r' = resumed s r') ->
  RInv s' (inq (queue s)) r -> Inv s'.
Proof.
  intros s s' r i a HI Hr Hi Hb Hq HA EA EQ EB HO HR.
  assert (Hs : In (r, i) slots) by now apply in_slots.
  constructor; rewrite ?EA, ?EQ, ?EB.
  - intros l. rewrite !(holdc_set _ _ _ r i Hs Hb). unfold mine, setf. rewrite (Nat.eqb_sym (line r i) l).
    destruct (Nat.eqb_spec l (line r i)).
    + subst l. destruct (wr (wants r)); exact HA.
    + cbn. rewrite !Nat.add_0_r. apply (v_acc s HI).
  - intros b w Hw. destruct (v_q s HI b w Hw) as (H1 & H2 & H3). splits; auto. rewrite setb_neq; auto. exact (inq_false s r i w b HI Hq Hw).
  - apply (v_nd s HI).
  - intros b w Hw. unfold setf. destruct (Nat.eqb_spec (w_line w) (line r i)); [|apply (v_ne s HI b w Hw)].
    unfold AccOk in HA. assert (HW : (WR = 2147483647)%Z) by reflexivity. destruct (wr (wants r)); cbn [b2n negb] in HA; lia.
  - intros r' Hr'. destruct (Nat.eq_dec r' r) as [->|Hne]; auto. unfold RInv in *. destruct (HO r' Hne) as (-> & -> & ->). rewrite EB.
    refine (RI_ext _ _ _ _ _ _ _ _ _ _ (v_r s HI r' Hr')); auto. intros j. symmetry. apply setb_neq. congruence.
  - intros r' i'. unfold setb. destruct ((r' =? r) && (i' =? i)) eqn:E; [|apply (v_out s HI)].
    apply andb_true_iff in E as [E1 E2]. apply Nat.eqb_eq in E1, E2. now subst.
Qed.

Lemma try_idle_ok : forall w a a' wc rc, AccOk a wc rc -> try_idle w a = Some a' -> AccOk a' (wc + b2n w) (rc + b2n (negb w)).
Proof.
  intros w a a' wc rc H. assert (HW : (WR = 2147483647)%Z) by reflexivity. unfold try_idle, AccOk in *.
  destruct (Z.eqb_spec a 0); [|discriminate]. intros E. inversion E. destruct w; cbn [b2n negb] in *; lia.
Qed.
Lemma try_rd_ok : forall a a' wc rc, AccOk a wc rc -> try_rd a = Some a' -> AccOk a' (wc + b2n false) (rc + b2n true).
Proof.
  intros a a' wc rc H. assert (HW : (WR = 2147483647)%Z) by reflexivity. unfold try_rd, AccOk in *.
  destruct (Z.eqb_spec a WR); [discriminate|]. intros E. inversion E. cbn [b2n] in *; lia.
Qed.

(** Release of an index. *)
Lemma unlock_idx_inv : forall s r i p, Inv s -> r < nr -> bits s r i = true ->
  RI p (fun j => if j =? i then false else bits s r j) (inq (queue s) r) (rem s r) (resumed s r) (len r) ->
  exists s' g, unlock_idx nb wants s r i p = Some s' /\ Inv s' /\ wl s (line r i) = g ++ wl s' (line r i) /\
    (forall l', l' <> line r i -> wl s' l' = wl s l') /\
    (forall r' i', bits s' r' i' = setb (bits s) r i false r' i' || ing g r' i') /\ mutex s' = mutex s /\
    (forall r', r' < nr -> ph s' r' = setf (ph s) r p r' \/ (setf (ph s) r p r' = Wait /\ ph s' r' = Held)).
Proof.
  intros s r i p HI Hr Hb HR. unfold unlock_idx.
  pose proof (v_out s HI r i Hb) as [_ Hi]. assert (Hs : In (r, i) slots) by now apply in_slots.
  set (s0 := goto (w_bits s (setb (bits s) r i false)) r p).
  destruct (unlock_common_inv s0 (line r i) (wr (wants r))) as (s' & g & H1 & H2 & H3 & H4 & H5 & H6 & H7).
  - intros l'. cbn [access bits s0 goto w_ph w_bits]. pose proof (v_acc s HI l') as HA.
    rewrite !(holdc_clr _ _ _ r i Hs Hb) in HA. unfold mine in HA. rewrite (Nat.eqb_sym (line r i) l') in HA.
    destruct (l' =? line r i); destruct (wr (wants r)); exact HA.
  - intros b w Hw. destruct (v_q s HI b w Hw) as (G1 & G2 & G3). splits; auto. cbn [bits s0 goto w_ph w_bits].
    unfold setb. destruct ((w_req w =? r) && (w_idx w =? i)); auto.
  - apply (v_nd s HI).
  - apply (v_ne s HI).
  - intros r' Hr'. unfold RInv. cbn [s0 goto w_ph w_bits ph bits rem resumed queue].
    destruct (Nat.eq_dec r' r) as [->|Hne].
    + rewrite setf_eq. refine (RI_ext _ _ _ _ _ _ _ _ _ _ HR); auto. intros j. unfold setb. now rewrite Nat.eqb_refl.
    + rewrite setf_neq by auto. refine (RI_ext _ _ _ _ _ _ _ _ _ _ (v_r s HI r' Hr')); auto.
      intros j. symmetry. apply setb_neq. congruence.
  - intros r' i'. cbn [s0 goto w_ph w_bits bits]. unfold setb. destruct ((r' =? r) && (i' =? i)); [discriminate|apply (v_out s HI)].
  - exists s', g. splits; auto.
Qed.
(** Lines obtained in a step: the line had no waiters, or the new holder was in
    the served front part of the line's waiters. *)
Definition Fifo (s s' : st) : Prop := forall l, exists g rest,
  wl s l = g ++ rest /\
  (forall w, In w g -> bits s' (w_req w) (w_idx w) = true) /\
  (forall r i, line r i = l -> bits s r i = false -> bits s' r i = true -> wl s l = [] \/ ing g r i = true).

Lemma fifo_nobits : forall s s', (forall r i, bits s' r i = true -> bits s r i = true) -> Fifo s s'.
Proof.
  intros s s' H l. exists [], (wl s l). splits; [reflexivity|intros w []|].
  - intros r i _ H1 H2. apply H in H2. congruence.
Qed.
Lemma fifo_acq : forall s s' r i, bits s' = setb (bits s) r i true -> wl s (line r i) = [] -> Fifo s s'.
Proof.
  intros s s' r i EB HW l. exists [], (wl s l). splits; [reflexivity|intros w []|].
  - intros r' i' HL H1 H2. rewrite EB in H2. left. unfold setb in H2. destruct ((r' =? r) && (i' =? i)) eqn:E; [|congruence].
    apply andb_true_iff in E as [E1 E2]. apply Nat.eqb_eq in E1, E2. now subst.
Qed.
Lemma fifo_unlock : forall s s' l0 g b, wl s l0 = g ++ wl s' l0 ->
  (forall r' i', bits s' r' i' = b r' i' || ing g r' i') -> (forall r i, b r i = true -> bits s r i = true) ->
  (forall b w, In w (queue s b) -> WOk w) -> Fifo s s'.
Proof.
  intros s s' l0 g b HW HB Hb HQ l. destruct (Nat.eq_dec l l0) as [->|Hne].
  - exists g, (wl s' l0). splits; auto.
    + intros w Hw. rewrite HB. apply orb_true_iff. right. apply ing_true. apply (in_map key _ _ Hw).
    + intros r i _ H1 H2. rewrite HB in H2. apply orb_true_iff in H2 as [H2|H2]; auto. apply Hb in H2. congruence.
  - exists [], (wl s l). splits; [reflexivity|intros w []|].
    + intros r i HL H1 H2. rewrite HB in H2. apply orb_true_iff in H2 as [H2|H2]; [apply Hb in H2; congruence|].
      exfalso. apply ing_true in H2. apply in_map_iff in H2 as (w & Ew & Hw). unfold key in Ew. inversion Ew; subst r i.
      assert (Hi : In w (wl s l0)) by (rewrite HW; apply in_app_iff; auto). unfold wl in Hi. apply filter_In in Hi as [Hi Hl].
      apply Nat.eqb_eq in Hl. destruct (HQ _ _ Hi) as (_ & _ & H3 & _). congruence.
Qed.

Lemma idle_nowait : forall s l, Inv s -> access s l = 0%Z -> wl s l = [].
Proof.
  intros s l HI H0. destruct (wl s l) as [|w q] eqn:E; auto. exfalso.
  assert (Hi : In w (wl s l)) by (rewrite E; now left). unfold wl in Hi. apply filter_In in Hi as [Hi Hl]. apply Nat.eqb_eq in Hl.
  apply (v_ne s HI _ _ Hi). now rewrite Hl.
Qed.
Lemma try_idle_zero : forall w a a', try_idle w a = Some a' -> a = 0%Z.
Proof. intros w a a'. unfold try_idle. destruct (Z.eqb_spec a 0); [auto|discriminate]. Qed.

Lemma entry_slow : forall s r i i' a l, ph s r = Slow i \/ ph s r = SlowB i ->
  let s1 := goto (w_access s (setf (access s) l a)) r (Slow i') in
  let s' := entry_locked s1 r i in
  (rem s r - 1 <> 0)%Z ->
  access s' = setf (access s) l a /\ queue s' = queue s /\ bits s' = setb (bits s) r i true /\ mutex s' = mutex s /\
  (forall r', r' <> r -> ph s' r' = ph s r' /\ rem s' r' = rem s r' /\ resumed s' r' = resumed s r') /\
  ph s' r = Slow i' /\ rem s' r = (rem s r - 1)%Z /\ resumed s' r = resumed s r.
Proof.
  intros s r i i' a l HP s1 s' Hrem. destruct (entry_locked_misc s1 r i) as (E1 & E2 & E3 & E4 & E5 & E6 & E7).
  assert (HZ : (rem s1 r - 1 =? 0)%Z = false) by (apply Z.eqb_neq; exact Hrem). rewrite HZ in E6, E7.
  fold s' in E1, E2, E3, E4, E5, E6, E7. rewrite E1, E2, E3, E4, E5, E6, E7. cbn [s1 goto w_ph w_access access queue bits mutex ph rem resumed].
  splits; auto.
  - intros r' Hr'. rewrite !setf_neq by auto. auto.
  - apply setf_eq.
  - apply setf_eq.
Qed.

Lemma cntb_add : forall q n j, j < n -> q j = false -> cntb (fun i => if i =? j then true else q i) n = S (cntb q n).
Proof.
  intros. unfold cntb. apply (filter_set nat _ _ (seq 0 n) j).
  - apply seq_NoDup.
  - apply in_seq. lia.
  - auto.
  - now rewrite Nat.eqb_refl.
  - intros y Hy. destruct (Nat.eqb_spec y j); congruence.
Qed.

Lemma del_first_sub : forall r q w, In w (del_first r q) -> In w q.
Proof.
  induction q as [|x q IH]; cbn; auto. intros w. destruct (w_req x =? r); cbn; auto. intros [?|?]; auto.
Qed.
Lemma del_first_nd : forall r q, NoDup (map key q) -> NoDup (map key (del_first r q)).
Proof.
  induction q as [|x q IH]; cbn; auto. intros H. apply NoDup_cons_iff in H as [Hn H]. destruct (w_req x =? r); auto.
  cbn. constructor; auto. intros Hi. apply Hn. apply in_map_iff in Hi as (w & E & Hw). apply in_map_iff. exists w. split; auto. eapply del_first_sub; eauto.
Qed.
Lemma del_first_other : forall r q r' i, r' <> r -> ing (del_first r q) r' i = ing q r' i.
Proof.
  induction q as [|x q IH]; cbn; auto. intros r' i Hne. destruct (Nat.eqb_spec (w_req x) r); cbn.
  - destruct (iskey r' i x) eqn:E; auto. apply iskey_true in E. unfold key in E. inversion E. congruence.
  - f_equal. now apply IH.
Qed.
Lemma cntb_mono : forall q q' n, (forall j, q' j = true -> q j = true) -> cntb q' n <= cntb q n.
Proof.
  intros. unfold cntb. apply NoDup_incl_length; [apply NoDup_filter, seq_NoDup|].
  intros x Hx. apply filter_In in Hx as [H1 H2]. apply filter_In. auto.
Qed.

Theorem step_inv : forall s r oom, Inv s -> r < nr ->
  match step nb wants r oom s with
  | Bug => False
  | Blocked => True
  | Ok s' => Inv s' /\ Fifo s s'
  end.
Proof.
  intros s r oom HI Hr. pose proof (v_r s HI r Hr) as HR. unfold RInv in HR. unfold step.
  assert (HQW : forall b w, In w (queue s b) -> WOk w) by (intros b w Hw; apply (v_q s HI b w Hw)).
  assert (Hclr : forall i r' i', setb (bits s) r i false r' i' = true -> bits s r' i' = true).
  { intros i r' i'. unfold setb. destruct ((r' =? r) && (i' =? i)); [discriminate|auto]. }
  destruct (ph s r) as [i|i| |i|i|i| | |i| | |] eqn:EP; cbn [RI] in HR.
  - (* Fast *)
    destruct HR as (H1 & H2 & H3 & H4 & H5). destruct (Nat.eqb_spec i (len r)).
    { split; [|apply fifo_nobits; auto]. apply (same_inv s _ r HI); auto.
      - intros r' Hne. cbn. rewrite !setf_neq by auto. auto.
      - intros _. unfold RInv. cbn. rewrite !setf_eq. cbn [RI]. subst i. splits; auto. }
    rewrite (H2 i), Nat.ltb_irrefl. destruct (try_idle _ _) as [a|] eqn:ET.
    + split; [|apply (fifo_acq s _ r i); auto; apply (idle_nowait s _ HI), (try_idle_zero _ _ _ ET)].
      apply (acq_inv s _ r i a HI Hr); auto; try lia.
      * rewrite H2. apply Nat.ltb_irrefl.
      * refine (try_idle_ok _ _ _ _ _ (v_acc s HI _) ET).
      * intros r' Hne. cbn. rewrite !setf_neq by auto. auto.
      * unfold RInv. cbn. rewrite setf_eq. cbn [RI]. splits; auto; try lia.
        intros j. unfold setb. rewrite Nat.eqb_refl. cbn [andb]. destruct (Nat.eqb_spec j i).
        -- subst. symmetry. apply Nat.ltb_lt. lia.
        -- rewrite H2. destruct (Nat.ltb_spec j i), (Nat.ltb_spec j (S i)); auto; lia.
    + split; [|apply fifo_nobits; auto]. apply (same_inv s _ r HI); auto.
      * intros r' Hne. cbn. rewrite !setf_neq by auto. auto.
      * intros _. unfold RInv. cbn. rewrite !setf_eq. cbn [RI]. splits; auto. intros j. rewrite H2. apply Nat.ltb_lt.
  - (* Roll *)
    destruct HR as (H1 & H2 & H3 & H4 & H5). destruct i as [|i].
    { split; [|apply fifo_nobits; auto]. apply (same_inv s _ r HI); auto.
      - intros r' Hne. cbn. rewrite !setf_neq by auto. auto.
      - intros _. unfold RInv. cbn. rewrite !setf_eq.
        assert (noneb (bits s r)). { intros j. destruct (bits s r j) eqn:E; auto. apply H2 in E. lia. }
        destruct (tryonly (wants r)); cbn [RI]; splits; auto. }
    destruct (bits s r i) eqn:EB.
    + destruct (unlock_idx_inv s r i (Roll i) HI Hr EB) as (s' & g & U1 & U2 & U3 & U4 & U5 & U6 & U7).
      { cbn [RI]. splits; auto; try lia. intros j. destruct (Nat.eqb_spec j i); [discriminate|]. intros H. apply H2 in H. lia. }
      rewrite U1. split; auto. exact (fifo_unlock s s' _ g _ U3 U5 (Hclr i) HQW).
    + split; [|apply fifo_nobits; auto]. apply (same_inv s _ r HI); auto.
      * intros r' Hne. cbn. rewrite !setf_neq by auto. auto.
      * intros _. unfold RInv. cbn. rewrite !setf_eq. cbn [RI]. splits; auto; try lia.
        intros j Hj. pose proof (H2 j Hj). destruct (Nat.eq_dec j i); [congruence|lia].
  - (* SlowStart *)
    destruct HR as (H1 & H2 & H3 & H4). destruct (mutex s); auto.
    rewrite H3. cbn [Z.eqb negb]. split; [|apply fifo_nobits; auto]. apply (same_inv s _ r HI); auto.
    + intros r' Hne. cbn. rewrite !setf_neq by auto. auto.
    + intros _. unfold RInv. cbn. rewrite !setf_eq. cbn [RI]. splits; auto; try lia.
      * intros j. rewrite H1. cbn. now rewrite andb_false_r.
      * intros j. rewrite H2. discriminate.
      * rewrite (cntb_none _ _ H2). rewrite Nat.sub_0_r. lia.
  - (* Slow *)
    destruct HR as (H1 & H2 & H3 & H4 & H5). destruct (Nat.eqb_spec i (len r)).
    { subst i. destruct (Z.eqb_spec (rem s r - 1) 0).
      - split; [|apply fifo_nobits; auto]. apply (same_inv s _ r HI); auto.
        + intros r' Hne. cbn. rewrite !setf_neq by auto. auto.
        + intros _. unfold RInv. cbn. rewrite !setf_eq. cbn [RI].
          assert (HN : noneb (inq (queue s) r)).
          { intros j. destruct (lt_dec j (len r)); [apply (cntb_zero _ (len r)); auto; lia|].
            destruct (inq (queue s) r j) eqn:E; auto. apply H3 in E. lia. }
          splits; auto. intros j. now rewrite H2, HN.
      - split; [|apply fifo_nobits; auto]. apply (same_inv s _ r HI); auto.
        + intros r' Hne. cbn. rewrite !setf_neq by auto. auto.
        + intros _. unfold RInv. cbn. rewrite !setf_eq. cbn [RI]. splits; auto; lia. }
    assert (Hqi : inq (queue s) r i = false). { destruct (inq (queue s) r i) eqn:E; auto. apply H3 in E. lia. }
    rewrite (H2 i), Nat.ltb_irrefl, andb_false_r. destruct (try_idle _ _) as [a|] eqn:ET.
    + destruct (entry_slow s r i (S i) a (line r i) (or_introl EP)) as (E1 & E2 & E3 & E4 & E5 & E6 & E7 & E8); [lia|].
      split; [|apply (fifo_acq s _ r i); auto; apply (idle_nowait s _ HI), (try_idle_zero _ _ _ ET)].
      apply (acq_inv s _ r i a HI Hr); auto; try lia.
      * rewrite H2. now rewrite Nat.ltb_irrefl, andb_false_r.
      * refine (try_idle_ok _ _ _ _ _ (v_acc s HI _) ET).
      * unfold RInv. rewrite E6, E7, E8, E3. cbn [RI]. splits; auto; try lia.
        -- intros j. unfold setb. rewrite Nat.eqb_refl. cbn [andb]. destruct (Nat.eqb_spec j i).
           ++ subst. rewrite Hqi. cbn. symmetry. apply Nat.leb_refl.
           ++ rewrite H2. f_equal. destruct (Nat.ltb_spec j i), (Nat.ltb_spec j (S i)); auto; lia.
        -- intros j Hj. apply H3 in Hj. lia.
    + split; [|apply fifo_nobits; auto]. apply (same_inv s _ r HI); auto.
      * intros r' Hne. cbn. rewrite !setf_neq by auto. auto.
      * intros _. unfold RInv. cbn. rewrite !setf_eq. cbn [RI]. splits; auto. lia.
  - (* SlowB *)
    destruct HR as (H1 & H2 & H3 & H4 & H5).
    assert (Hqi : inq (queue s) r i = false). { destruct (inq (queue s) r i) eqn:E; auto. apply H3 in E. lia. }
    assert (Hbi : bits s r i = false). { rewrite H2. now rewrite Nat.ltb_irrefl, andb_false_r. }
    destruct oom.
    { split; [|apply fifo_nobits; auto]. apply (same_inv s _ r HI); auto.
      - intros r' Hne. cbn. rewrite !setf_neq by auto. auto.
      - intros _. unfold RInv. cbn. rewrite !setf_eq. cbn [RI]. splits; auto. lia. }
    set (got := if wr (wants r) then try_idle true (access s (line r i)) else
       if negb (existsb (fun x => w_line x =? line r i) (queue s (bucket (line r i)))) then try_rd (access s (line r i)) else None).
    destruct got as [a|] eqn:EG; unfold got in EG.
    + destruct (entry_slow s r i (S i) a (line r i) (or_intror EP)) as (E1 & E2 & E3 & E4 & E5 & E6 & E7 & E8); [lia|].
      assert (HWL : wl s (line r i) = [] /\
          AccOk a (holdc true (bits s) (line r i) + b2n (wr (wants r))) (holdc false (bits s) (line r i) + b2n (negb (wr (wants r))))).
      { destruct (wr (wants r)).
        - split; [apply (idle_nowait s _ HI), (try_idle_zero _ _ _ EG)|exact (try_idle_ok _ _ _ _ _ (v_acc s HI _) EG)].
        - destruct (existsb _ _) eqn:EX; [discriminate|]. cbn [negb] in EG. split; [|exact (try_rd_ok _ _ _ _ (v_acc s HI _) EG)].
          unfold wl. destruct (filter _ _) as [|w q] eqn:EF; auto. exfalso.
          assert (Hw : In w (filter (onl (line r i)) (queue s (bucket (line r i))))) by (rewrite EF; now left).
          apply filter_In in Hw as [Hw Hl]. assert (existsb (fun x => w_line x =? line r i) (queue s (bucket (line r i))) = true).
          { apply existsb_exists. exists w. auto. } congruence. }
      destruct HWL as [HWL HAcc].
      split; [|apply (fifo_acq s _ r i); auto].
      apply (acq_inv s _ r i a HI Hr); auto; try lia.
      unfold RInv. rewrite E6, E7, E8, E3. cbn [RI]. splits; auto; try lia.
      * intros j. unfold setb. rewrite Nat.eqb_refl. cbn [andb]. destruct (Nat.eqb_spec j i).
        -- subst. rewrite Hqi. cbn. symmetry. apply Nat.leb_refl.
        -- rewrite H2. f_equal. destruct (Nat.ltb_spec j i), (Nat.ltb_spec j (S i)); auto; lia.
      * intros j Hj. apply H3 in Hj. lia.
    + split; [|apply fifo_nobits; auto].
      set (x := {| w_line := line r i; w_req := r; w_idx := i; w_wr := wr (wants r) |}).
      assert (Hnz : access s (line r i) <> 0%Z).
      { destruct (wr (wants r)).
        - unfold try_idle in EG. destruct (Z.eqb_spec (access s (line r i)) 0); [discriminate|auto].
        - destruct (existsb _ _) eqn:EX; cbn [negb] in EG.
          + apply existsb_exists in EX as (w & Hw & Hl). apply Nat.eqb_eq in Hl. rewrite <- Hl. apply (v_ne s HI _ _ Hw).
          + unfold try_rd in EG. destruct (Z.eqb_spec (access s (line r i)) WR); [|discriminate]. rewrite e. discriminate. }
      set (Q := setf (queue s) (bucket (line r i)) (queue s (bucket (line r i)) ++ [x])).
      assert (HQin : forall b w, In w (Q b) -> In w (queue s b) \/ (w = x /\ b = bucket (line r i))).
      { intros b w. unfold Q, setf. destruct (Nat.eqb_spec b (bucket (line r i))); auto. subst b.
        rewrite in_app_iff. cbn. intros [?|[<-|[]]]; auto. }
      assert (HinQ : forall r' j, inq Q r' j = inq (queue s) r' j || iskey r' j x).
      { intros r' j. unfold inq, Q, setf. destruct (Nat.eqb_spec (bucket (line r' j)) (bucket (line r i))) as [Eb|Eb].
        - rewrite Eb, ing_app. cbn. now rewrite orb_false_r.
        - destruct (iskey r' j x) eqn:E; [|now rewrite orb_false_r]. apply iskey_true in E. inversion E; subst. congruence. }
      constructor; cbn [access queue bits mutex ph rem resumed goto w_ph w_queue].
      * apply (v_acc s HI).
      * intros b w Hw. apply HQin in Hw as [Hw|[-> ->]]; [apply (v_q s HI b w Hw)|]. splits; auto. unfold WOk. cbn. auto.
      * intros b. unfold Q, setf. destruct (Nat.eqb_spec b (bucket (line r i))); [|apply (v_nd s HI)].
        rewrite map_app. cbn. apply Permutation_NoDup with (key x :: map key (queue s (bucket (line r i)))).
        { apply Permutation_cons_append. }
        constructor; [|apply (v_nd s HI)]. intros Hin. apply ing_true in Hin. unfold inq in Hqi. cbn in Hin. congruence.
      * intros b w Hw. apply HQin in Hw as [Hw|[-> ->]]; [apply (v_ne s HI b w Hw)|]. exact Hnz.
      * fold x. fold Q. intros r' Hr'. unfold RInv. cbn [access queue bits mutex ph rem resumed goto w_ph w_queue].
        destruct (Nat.eq_dec r' r) as [->|Hne].
        -- rewrite setf_eq. cbn [RI].
           assert (HinR : forall j, inq Q r j = if j =? i then true else inq (queue s) r j).
           { intros j. rewrite HinQ. unfold iskey. cbn. rewrite Nat.eqb_refl. cbn [andb]. rewrite (Nat.eqb_sym i j).
             destruct (j =? i); [apply orb_true_r|apply orb_false_r]. }
           assert (HC : cntb (inq Q r) (len r) = S (cntb (inq (queue s) r) (len r))).
           { rewrite (cntb_ext _ _ (len r) HinR). apply cntb_add; auto. }
           splits; auto; try lia.
           ++ intros j. rewrite HinR, H2. destruct (Nat.eqb_spec j i).
              ** subst. rewrite Nat.ltb_irrefl, andb_false_r. reflexivity.
              ** f_equal. destruct (Nat.ltb_spec j i), (Nat.ltb_spec j (S i)); auto; lia.
           ++ intros j. rewrite HinR. destruct (Nat.eqb_spec j i); [lia|]. intros Hj. apply H3 in Hj. lia.
        -- rewrite setf_neq by auto. refine (RI_ext _ _ _ _ _ _ _ _ _ _ (v_r s HI r' Hr')); auto.
           intros j. rewrite HinQ. destruct (iskey r' j x) eqn:E; [|now rewrite orb_false_r]. apply iskey_true in E. inversion E. congruence.
      * apply (v_out s HI).
  - (* Err *)
    destruct HR as (H1 & H2). destruct i as [|i].
    { split; [|apply fifo_nobits; auto]. apply (same_inv s _ r HI); auto.
      - intros r' Hne. cbn. rewrite !setf_neq by auto. auto.
      - intros _. unfold RInv. cbn. rewrite !setf_eq. cbn [RI]. split; auto. lia. }
    destruct (bits s r i) eqn:EB.
    + destruct (unlock_idx_inv s r i (Err i) HI Hr EB) as (s' & g & U1 & U2 & U3 & U4 & U5 & U6 & U7).
      { cbn [RI]. split; auto. }
      rewrite U1. split; auto. exact (fifo_unlock s s' _ g _ U3 U5 (Hclr i) HQW).
    + split; [|apply fifo_nobits; auto].
      set (b0 := bucket (line r i)). set (Q := setf (queue s) b0 (del_first r (queue s b0))).
      assert (HQin : forall b w, In w (Q b) -> In w (queue s b)).
      { intros b w. unfold Q, setf. destruct (Nat.eqb_spec b b0); auto. subst b. apply del_first_sub. }
      constructor; cbn [access queue bits mutex ph rem resumed goto w_ph w_queue].
      * apply (v_acc s HI).
      * intros b w Hw. apply (v_q s HI b w (HQin b w Hw)).
      * intros b. unfold Q, setf. destruct (b =? b0); [apply del_first_nd|]; apply (v_nd s HI).
      * intros b w Hw. apply (v_ne s HI b w (HQin b w Hw)).
      * fold b0. fold Q. intros r' Hr'. unfold RInv. cbn [access queue bits mutex ph rem resumed goto w_ph w_queue].
        destruct (Nat.eq_dec r' r) as [->|Hne].
        -- rewrite setf_eq. cbn [RI]. split; auto.
           assert (cntb (inq Q r) (len r) <= cntb (inq (queue s) r) (len r)); [|lia].
           apply cntb_mono. intros j. unfold inq. intros Hj. apply ing_true in Hj. apply ing_true.
           apply in_map_iff in Hj as (w & E & Hw). apply in_map_iff. exists w. split; auto.
        -- rewrite setf_neq by auto. refine (RI_ext _ _ _ _ _ _ _ _ _ _ (v_r s HI r' Hr')); auto.
           intros j. unfold inq, Q, setf. destruct (Nat.eqb_spec (bucket (line r' j)) b0) as [Eb|Eb]; auto.
           rewrite Eb. symmetry. now apply del_first_other.
      * apply (v_out s HI).
  - exact I.
  - (* Held *)
    destruct HR as (H1 & H2 & H3 & H4). split; [|apply fifo_nobits; auto]. apply (same_inv s _ r HI); auto.
    + intros r' Hne. cbn. rewrite !setf_neq by auto. auto.
    + intros _. unfold RInv. cbn. rewrite !setf_eq. cbn [RI]. splits; auto; try lia.
  - (* Unlock *)
    destruct HR as (H1 & H2 & H3 & H4 & H5). destruct (Nat.eqb_spec i (len r)).
    { split; [|apply fifo_nobits; auto]. apply (same_inv s _ r HI); auto.
      - intros r' Hne. cbn. rewrite !setf_neq by auto. auto.
      - intros _. unfold RInv. cbn. rewrite !setf_eq. cbn [RI]. splits; auto.
        intros j. rewrite H2. subst. destruct (Nat.leb_spec (len r) j), (Nat.ltb_spec j (len r)); auto; lia. }
    assert (EB : bits s r i = true). { rewrite H2. apply andb_true_iff. split; [apply Nat.leb_refl|apply Nat.ltb_lt; lia]. }
    rewrite EB. destruct (unlock_idx_inv s r i (Unlock (S i)) HI Hr EB) as (s' & g & U1 & U2 & U3 & U4 & U5 & U6 & U7).
    { cbn [RI]. splits; auto; try lia. intros j. destruct (Nat.eqb_spec j i).
      - subst. destruct (Nat.leb_spec (S i) i); auto. lia.
      - rewrite H2. f_equal. destruct (Nat.leb_spec i j), (Nat.leb_spec (S i) j); auto; lia. }
    rewrite U1. split; auto. exact (fifo_unlock s s' _ g _ U3 U5 (Hclr i) HQW).
  - exact I.
  - exact I.
  - exact I.
Qed.

Lemma init_inv : Inv init.
Proof.
  clear bound.
  constructor; cbn [init access queue bits ph rem resumed].
  - intros l. right. assert (HZ : forall w, holdc w (fun _ _ => false) l = 0).
    { intros w. unfold holdc, holdf. generalize slots. intros ps. induction ps as [|p ps IH]; [reflexivity|exact IH]. }
    rewrite !HZ. auto.
  - intros b w [].
  - constructor.
  - intros b w [].
  - intros r Hr. unfold RInv. cbn. splits; auto; try lia. intros j. unfold inq. reflexivity.
  - discriminate.
Qed.

Theorem run_inv : forall evs s, Inv s -> Forall (fun e => fst e < nr) evs ->
  exists s', run nb wants evs s = Ok s' /\ Inv s'.
Proof.
  induction evs as [|[r oom] evs IH]; intros s HI HF; cbn [run]; [eauto|].
  apply Forall_cons_iff in HF as [Hr HF]. pose proof (step_inv s r oom HI Hr) as HS.
  destruct (step nb wants r oom s); [auto|easy|]. destruct HS. auto.
Qed.
End Inv.

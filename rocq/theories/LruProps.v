(** C10, C11: the LRU lists of all partitions (LruModel.v). *)
From Coq Require Import List Bool Arith ZArith Lia Permutation.
From Verif Require Import LruModel LruProofs.
Import ListNotations.
Open Scope nat_scope.

(** ** Specification: plain lists, head (most recently used) first *)
Record spec := { L : lid -> list nat; P : nat -> nat; D : nat -> bool }.

(** The list a line belongs to. *)
Definition place (p : nat) (d : bool) (c : nat) : lid := mklid p (c mod 32) (if p =? FREELIST then true else negb d).
Definition home (A : spec) (c : nat) : lid := place (P A c) (D A c) c.

Definition rem (c : nat) (l : list nat) : list nat := filter (fun x => negb (x =? c)) l.
(** Remove the line wherever it is and put it at the head of list [i]. *)
Definition put (c : nat) (i : lid) (f : lid -> list nat) : lid -> list nat :=
  fun j => if lid_eqb j i then c :: rem c (f j) else rem c (f j).
(** The line gets partition [p] and dirty status [d] and goes to the head of its list. *)
Definition assign (c p : nat) (d : bool) (A : spec) : spec :=
  {| L := put c (place p d c) (L A); P := setf (P A) c p; D := setf (D A) c d |}.
Definition is_hot (l : list nat) (c : nat) : bool := existsb (Nat.eqb c) (firstn (length l / 2) l).

(** The victim: the lockable line closest to the tail. *)
Definition victim (can : nat -> bool) (l : list nat) : option nat := find can (rev l).

Definition spec_op (o : op) (A : spec) : spec :=
  match o with
  | Hit c => if is_hot (L A (home A c)) c then A else assign c (P A c) (D A c) A
  | Move c p => assign c p (D A c) A
  | Free c => assign c FREELIST (D A c) A
  | MkDirty c => if D A c then A else assign c (P A c) true A
  | MkClean c => if D A c then assign c (P A c) false A else A
  | Alloc can dst idx =>
    match victim can (L A (mklid FREELIST idx true)) with Some c => assign c dst (D A c) A | None => A end
  | Evict can src dst idx =>
    match victim can (L A (mklid src idx true)) with Some c => assign c dst (D A c) A | None => A end
  end.
Definition spec_all (l : list op) (A : spec) : spec := fold_left (fun A o => spec_op o A) l A.

Definition spec_add (A : spec) (x : nat * option bool) : spec :=
  match snd x with
  | None => assign (fst x) FREELIST false A
  | Some d => assign (fst x) DEFAULT_PART d A
  end.
Definition spec_start (l : list (nat * option bool)) : spec :=
  fold_left spec_add l {| L := fun _ => []; P := fun _ => FREELIST; D := fun _ => false |}.

(** What the callers ensure: hits, moves and status changes concern lines that
    belong to an I/O class; classes are user classes; a move changes the class. *)
Definition allowed (nl : nat) (o : op) (A : spec) : Prop :=
  match o with
  | Hit c | Free c | MkDirty c | MkClean c => c < nl /\ P A c < USER_IO_CLASS_MAX
  | Move c p => c < nl /\ P A c < USER_IO_CLASS_MAX /\ p < USER_IO_CLASS_MAX /\ p <> P A c
  | Alloc _ dst _ => dst < USER_IO_CLASS_MAX
  | Evict _ src dst _ => src < USER_IO_CLASS_MAX /\ dst < USER_IO_CLASS_MAX
  end.
Fixpoint allowed_all (nl : nat) (l : list op) (A : spec) : Prop :=
  match l with [] => True | o :: r => allowed nl o A /\ allowed_all nl r (spec_op o A) end.

(** Reading the concrete lists. *)
Fixpoint follow (f : nat -> option nat) (fuel : nat) (c : option nat) : list nat :=
  match c, fuel with
  | Some x, S k => x :: follow f k (f x)
  | _, _ => []
  end.
Definition forward (s : cst) (i : lid) (fuel : nat) : list nat := follow (fun c => next (lmeta s c)) fuel (head (lists s i)).
Definition backward (s : cst) (i : lid) (fuel : nat) : list nat := follow (fun c => prev (lmeta s c)) fuel (tail (lists s i)).

(** All lists of a partition. *)
Definition part_lists (A : spec) (p : nat) : list nat :=
  flat_map (fun idx => L A (mklid p idx true) ++ L A (mklid p idx false)) (seq 0 NUM_LRU_LISTS).

(** The concrete state shows the specification state. *)
Definition Shows (nl : nat) (s : cst) (A : spec) : Prop :=
  (* the pointers give the list in both directions, with any number of extra steps *)
  (forall i k, forward s i (length (L A i) + k) = L A i /\ backward s i (length (L A i) + k) = rev (L A i)) /\
  (forall i, num_nodes (lists s i) = length (L A i)) /\
  (forall c, part s c = P A c /\ dirty s c = D A c) /\
  (* curr_size *)
  (forall p, size s p = Z.of_nat (length (part_lists A p))) /\
  (* hot marks *)
  (forall i, l_part i <> FREELIST -> num_hot (lists s i) = length (L A i) / 2 /\
     forall c, In c (L A i) -> hot (lmeta s c) = is_hot (L A i) c).

(** ** Proof *)
Lemma lid_eqb_spec a b : reflect (a = b) (lid_eqb a b).
Proof.
  destruct a as [p i c], b as [p' i' c']. unfold lid_eqb; cbn [l_part l_idx l_clean].
  destruct (Nat.eqb_spec p p'); cbn [andb]; [|constructor; congruence].
  destruct (Nat.eqb_spec i i'); cbn [andb]; [|constructor; congruence].
  destruct (Bool.eqb_spec c c'); constructor; congruence.
Qed.

Lemma rem_notin c l : ~ In c l -> rem c l = l.
Proof.
  induction l as [|a l IH]; intros H; cbn; auto. destruct (Nat.eqb_spec a c) as [->|]; cbn.
  - exfalso; apply H; left; auto.
  - f_equal. apply IH. intros Hi; apply H; right; auto.
Qed.
Lemma rem_split c l1 l2 : NoDup (l1 ++ c :: l2) -> rem c (l1 ++ c :: l2) = l1 ++ l2.
Proof.
  intros H. pose proof (NoDup_remove_2 _ _ _ H) as N. unfold rem. rewrite filter_app. cbn. rewrite Nat.eqb_refl. cbn.
  fold (rem c l1) (rem c l2). rewrite !rem_notin; auto; intros Hi; apply N, in_or_app; auto.
Qed.
Lemma rem_in c l a : In a (rem c l) <-> In a l /\ a <> c.
Proof. unfold rem. rewrite filter_In, negb_true_iff, Nat.eqb_neq. tauto. Qed.

Definition LInv (s : cst) (f : lid -> list nat) : Prop :=
  (forall i, Bal (lmeta s) (f i) (lists s i) /\ track_hot (lists s i) = negb (l_part i =? FREELIST)) /\
  (forall i j c, In c (f i) -> In c (f j) -> i = j).

Lemma put_disj c i f : (forall i j c, In c (f i) -> In c (f j) -> i = j) ->
  forall j k x, In x (put c i f j) -> In x (put c i f k) -> j = k.
Proof.
  intros H j k x. unfold put.
  destruct (lid_eqb_spec j i) as [->|Hj], (lid_eqb_spec k i) as [->|Hk]; auto; cbn [In]; rewrite !rem_in;
    intros HA HB.
  - destruct HB as [HB1 HB2]. destruct HA as [->|[HA _]]; [congruence|]. eapply H; eauto.
  - destruct HA as [HA1 HA2]. destruct HB as [->|[HB _]]; [congruence|]. eapply H; eauto.
  - destruct HA, HB. eapply H; eauto.
Qed.

(** Adding a line that is on no list. *)
Lemma add_linv s f c i (add : mem -> lst -> option (mem * lst)) :
  LInv s f -> (forall j, ~ In c (f j)) ->
  (forall m l', Bal m (f i) l' -> track_hot l' = negb (l_part i =? FREELIST) ->
     exists m' l'', add m l' = Some (m', l'') /\ track_hot l'' = track_hot l' /\
    (forall a, a <> c -> ~ In a (f i) -> m' a = m a) /\ Bal m' (c :: f i) l'') ->
  exists s', on_list s i add = Some s' /\ LInv s' (put c i f) /\ part s' = part s /\ dirty s' = dirty s /\ size s' = size s.
Proof.
  intros [H1 H2] Hc Hadd. destruct (H1 i) as [B T]. destruct (Hadd _ _ B T) as (m' & l' & E & T' & F & B').
  unfold on_list. rewrite E. eexists. split; [reflexivity|]. cbn. split; [|auto]. split.
  - intros j. unfold put, set_list. cbn. destruct (lid_eqb_spec j i) as [->|Hj].
    + rewrite rem_notin by auto. split; [auto|congruence].
    + rewrite rem_notin by auto. destruct (H1 j) as [Bj Tj]. split; [|auto].
      eapply Bal_ext; [|exact Bj]. intros a Ha. apply F.
      * intros ->. exact (Hc j Ha).
      * intros Hi. apply Hj. eapply H2; eauto.
  - apply put_disj. auto.
Qed.

Lemma move_linv s f c src dst : LInv s f -> In c (f src) -> src <> dst ->
  exists s', lru_move s c src dst = Some s' /\ LInv s' (put c dst f) /\ part s' = part s /\ dirty s' = dirty s /\ size s' = size s.
Proof.
  intros [H1 H2] Hc Hne. destruct (H1 src) as [B T].
  apply in_split in Hc as HS. destruct HS as (L1 & L2 & E). pose proof B as B0. rewrite E in B.
  destruct (remove_bal _ _ _ _ _ B) as (m' & l' & R1 & R2 & R3 & R4 & R5).
  assert (ND : NoDup (L1 ++ c :: L2)) by (rewrite <- E; apply (Bal_facts _ _ _ B0)).
  unfold lru_move, on_list at 1. rewrite R1. rewrite <- E in R3.
  set (f' := fun j => rem c (f j)).
  set (s1 := {| lmeta := m'; lists := set_list (lists s) src l'; part := part s; dirty := dirty s; size := size s |}).
  assert (HI : LInv s1 f').
  { split.
    - intros j. unfold s1, f', set_list; cbn. destruct (lid_eqb_spec j src) as [->|Hj].
      + rewrite E, rem_split by auto. split; [auto|congruence].
      + assert (Hcj : ~ In c (f j)) by (intros Hi; apply Hj; eapply H2; eauto).
        rewrite rem_notin by auto. destruct (H1 j) as [Bj Tj]. split; [|auto].
        eapply Bal_ext; [|exact Bj]. intros a Ha. apply R3. intros Hi. apply Hj. eapply H2; eauto.
    - unfold f'. intros i j a Hi Hj. apply rem_in in Hi as [Hi _], Hj as [Hj _]. eapply H2; eauto. }
  destruct (add_linv s1 f' c dst (fun m l => add_lru_head m l c) HI) as (s2 & E2 & I2 & P2 & D2 & S2).
  - intros j. unfold f'. rewrite rem_in. tauto.
  - intros m l Hb _. apply add_head_bal; auto. unfold f'. rewrite rem_in. tauto.
  - exists s2. split; [exact E2|]. split; [|auto]. destruct I2 as [I3 I4]. split.
    + intros j. specialize (I3 j). unfold put, f' in *. 
      assert (EE : rem c (rem c (f j)) = rem c (f j)) by (apply rem_notin; rewrite rem_in; tauto).
      rewrite EE in I3. exact I3.
    + apply put_disj; auto.
Qed.

Lemma set_hot_linv s f c i : LInv s f -> In c (f i) ->
  exists s', on_list s i (fun m l => lru_set_hot m l c) = Some s' /\ LInv s' (put c i f) /\
    part s' = part s /\ dirty s' = dirty s /\ size s' = size s.
Proof.
  intros [H1 H2] Hc. destruct (H1 i) as [B T].
  apply in_split in Hc as HS. destruct HS as (L1 & L2 & E). pose proof B as B0. rewrite E in B.
  destruct (set_hot_bal _ _ _ _ _ B) as (m' & l' & R1 & R2 & R3 & R4).
  assert (ND : NoDup (L1 ++ c :: L2)) by (rewrite <- E; apply (Bal_facts _ _ _ B0)).
  unfold on_list. rewrite R1. rewrite <- E in R3. eexists. split; [reflexivity|]. cbn. split; [|auto]. split.
  - intros j. unfold put, set_list; cbn. destruct (lid_eqb_spec j i) as [->|Hj].
    + rewrite E, rem_split by auto. split; [auto|congruence].
    + assert (Hcj : ~ In c (f j)) by (intros Hi; apply Hj; eapply H2; eauto).
      rewrite rem_notin by auto. destruct (H1 j) as [Bj Tj]. split; [|auto].
      eapply Bal_ext; [|exact Bj]. intros a Ha. apply R3. intros Hi. apply Hj. eapply H2; eauto.
  - apply put_disj; auto.
Qed.

(** *** The whole state *)
Definition cnt (nl : nat) (f : nat -> nat) (p : nat) : Z :=
  Z.of_nat (length (filter (fun c => f c =? p) (seq 0 nl))).

Definition WF (dom : nat -> Prop) (A : spec) : Prop := forall i c, In c (L A i) <-> dom c /\ home A c = i.
Definition Inv (dom : nat -> Prop) (s : cst) (A : spec) : Prop :=
  LInv s (L A) /\ WF dom A /\ (forall c, part s c = P A c) /\ (forall c, dirty s c = D A c).

Lemma home_assign c p d A x : home (assign c p d A) x = if x =? c then place p d c else home A x.
Proof. unfold home, assign, setf; cbn. destruct (Nat.eqb_spec x c) as [->|]; auto. Qed.

Lemma wf_assign (dom : nat -> Prop) c p d A :
  (forall i x, In x (L A i) <-> dom x /\ home A x = i) ->
  WF (fun x => dom x \/ x = c) (assign c p d A).
Proof.
  intros H i x. rewrite home_assign. cbn [L assign]. unfold put.
  destruct (lid_eqb_spec i (place p d c)) as [->|Hi]; cbn [In]; rewrite rem_in, H;
    destruct (Nat.eqb_spec x c) as [->|Hx]; intuition congruence.
Qed.

Lemma WF_eq dom dom' A : (forall x, dom x <-> dom' x) -> WF dom A -> WF dom' A.
Proof. intros E H i c. rewrite (H i c), E. tauto. Qed.

Lemma assign_inv (dom : nat -> Prop) s s' A c p d : dom c -> WF dom A ->
  LInv s' (put c (place p d c) (L A)) -> (forall x, part s x = P A x) -> (forall x, dirty s x = D A x) ->
  (forall x, part s' x = setf (part s) c p x) -> (forall x, dirty s' x = setf (dirty s) c d x) -> Inv dom s' (assign c p d A).
Proof.
  intros Hd HW HL HP HD E1 E2. split; [exact HL|]. split.
  - eapply WF_eq; [|apply wf_assign; exact HW]. intros x. cbn. split; [intros [?| ->]; auto|auto].
  - split; intros x; rewrite ?E1, ?E2; cbn; unfold setf; destruct (x =? c); auto.
Qed.

Lemma scan_spec m can : forall l n fuel, seg m None l n -> length l <= fuel ->
  scan m can fuel (last_or None l) = Some (find can (rev l)).
Proof.
  induction l as [|a l IH] using rev_ind; intros n fuel H Hf.
  - destruct fuel; reflexivity.
  - rewrite last_or_app, rev_app_distr. cbn [last_or rev app find].
    apply seg_app in H as [H1 (H2 & H3 & _)]. rewrite app_length in Hf; cbn [length] in Hf.
    destruct fuel as [|k]; [lia|]. cbn [scan]. destruct (can a); auto.
    rewrite H2. apply (IH (Some a)); auto; lia.
Qed.

Lemma find_rev_in can (l : list nat) c : find can (rev l) = Some c -> In c l.
Proof. intros H. apply find_some in H as [H _]. apply in_rev in H. auto. Qed.

(** Sizes *)
Lemma filter_change (f g : nat -> bool) l c : NoDup l -> (forall x, In x l -> x <> c -> f x = g x) -> In c l ->
  (Z.of_nat (length (filter f l)) - (if f c then 1 else 0) = Z.of_nat (length (filter g l)) - (if g c then 1 else 0))%Z.
Proof.
  induction l as [|a l IH]; intros ND H Hi; [destruct Hi|]. apply NoDup_cons_iff in ND as [N ND].
  destruct (Nat.eq_dec a c) as [->|Ha].
  - assert (E : length (filter f l) = length (filter g l)).
    { f_equal. apply filter_ext_in. intros x Hx. apply H; [right; auto|intros ->; contradiction]. }
    cbn. destruct (f c), (g c); cbn [length]; lia.
  - destruct Hi as [|Hi]; [congruence|].
    assert (IH' : (Z.of_nat (length (filter f l)) - (if f c then 1 else 0) = Z.of_nat (length (filter g l)) - (if g c then 1 else 0))%Z).
    { apply IH; auto. intros x Hx. apply H. right; auto. }
    cbn [filter]. rewrite (H a) by (auto; left; auto). destruct (g a); cbn [length]; lia.
Qed.

Lemma cnt_set nl f c q p : c < nl ->
  cnt nl (setf f c q) p = (cnt nl f p - (if (f c =? p)%nat then 1 else 0) + (if (q =? p)%nat then 1 else 0))%Z.
Proof.
  intros Hc. unfold cnt.
  assert (Hin : In c (seq 0 nl)) by (apply in_seq; lia).
  pose proof (filter_change (fun x => setf f c q x =? p) (fun x => f x =? p) (seq 0 nl) c (seq_NoDup _ _)) as H.
  cbn beta in H.
  assert (E : setf f c q c = q) by (unfold setf; rewrite Nat.eqb_refl; auto). rewrite E in H.
  assert (H' := H (fun x _ Hx => ltac:(unfold setf; destruct (Nat.eqb_spec x c); congruence)) Hin).
  destruct (q =? p), (f c =? p); lia.
Qed.

Definition SInv (nl : nat) (s : cst) (A : spec) : Prop :=
  Inv (fun c => c < nl) s A /\ forall p, size s p = cnt nl (P A) p.

Lemma repart_inv nl s A c q : SInv nl s A -> c < nl -> P A c <> q ->
  exists s', lru_repart s c (P A c) q = Some s' /\ SInv nl s' (assign c q (D A c) A).
Proof.
  intros [(HL & HW & HP & HD) HS] Hc Hne. unfold lru_repart. rewrite HD.
  set (d := D A c).
  assert (G1 : get_list (P A c) (c mod NUM_LRU_LISTS) (negb d) = home A c) by reflexivity.
  assert (G2 : get_list q (c mod NUM_LRU_LISTS) (negb d) = place q d c) by reflexivity.
  rewrite G1, G2.
  destruct (move_linv s (L A) c (home A c) (place q d c) HL) as (s1 & E1 & I1 & P1 & D1 & S1).
  { apply HW. auto. }
  { unfold home, place. intros [= E _]. contradiction. }
  rewrite E1. eexists. split; [reflexivity|]. split.
  - apply (assign_inv _ s); auto.
    + intros x. cbn. rewrite P1. auto.
    + intros x. cbn. rewrite D1. unfold setf, d. destruct (Nat.eqb_spec x c) as [->|]; auto.
  - intros p. cbn. rewrite cnt_set by auto. rewrite !S1. unfold setf. rewrite !HS.
    destruct (Nat.eqb_spec p q) as [->|Hpq].
    + rewrite Nat.eqb_refl. destruct (Nat.eqb_spec q (P A c)) as [|_]; [congruence|].
      destruct (Nat.eqb_spec (P A c) q); [congruence|]. lia.
    + destruct (Nat.eqb_spec q p); [congruence|]. rewrite (Nat.eqb_sym (P A c) p).
      destruct (Nat.eqb_spec p (P A c)) as [->|]; lia.
Qed.

(** Moving to the head of the same list. *)
Lemma assign_same_size nl A c p d : c < nl -> P A c = p -> forall q, cnt nl (P (assign c p d A)) q = cnt nl (P A) q.
Proof. intros Hc HP q. cbn. rewrite cnt_set by auto. rewrite HP. destruct (p =? q); lia. Qed.

Lemma sethot_inv nl s A c i : SInv nl s A -> c < nl -> i = home A c ->
  exists s', on_list s i (fun m l => lru_set_hot m l c) = Some s' /\ SInv nl s' (assign c (P A c) (D A c) A).
Proof.
  intros [(HL & HW & HP & HD) HS] Hc ->.
  destruct (set_hot_linv s (L A) c (home A c) HL) as (s1 & E1 & I1 & P1 & D1 & S1); [apply HW; auto|].
  exists s1. split; [auto|]. split.
  - apply (assign_inv _ s); auto.
    + intros x. rewrite P1. unfold setf. destruct (Nat.eqb_spec x c) as [->|]; auto.
    + intros x. rewrite D1. unfold setf. destruct (Nat.eqb_spec x c) as [->|]; auto.
  - intros p. rewrite S1, HS. rewrite assign_same_size; auto.
Qed.

Lemma status_inv nl s A c d : SInv nl s A -> c < nl -> P A c < USER_IO_CLASS_MAX -> D A c = negb d ->
  exists s', lru_move (set_dirty s c d) c (get_list (part s c) (c mod NUM_LRU_LISTS) d)
               (get_list (part s c) (c mod NUM_LRU_LISTS) (negb d)) = Some s' /\
    SInv nl s' (assign c (P A c) d A).
Proof.
  intros [(HL & HW & HP & HD) HS] Hc Hu Hd. rewrite HP.
  assert (G1 : get_list (P A c) (c mod NUM_LRU_LISTS) d = home A c).
  { unfold home, place. rewrite Hd, negb_involutive. reflexivity. }
  assert (G2 : get_list (P A c) (c mod NUM_LRU_LISTS) (negb d) = place (P A c) d c) by reflexivity.
  rewrite G1, G2.
  destruct (move_linv (set_dirty s c d) (L A) c (home A c) (place (P A c) d c) HL) as (s1 & E1 & I1 & P1 & D1 & S1).
  { apply HW. auto. }
  { unfold home, place. rewrite Hd. intros [= E].
    destruct (Nat.eqb_spec (P A c) FREELIST) as [E2|]; [rewrite E2 in Hu; unfold FREELIST, USER_IO_CLASS_MAX in Hu; lia|].
    destruct d; discriminate. }
  exists s1. split; [auto|]. split.
  - apply (assign_inv _ s); auto.
    + intros x. rewrite P1. cbn. unfold setf. destruct (Nat.eqb_spec x c) as [->|]; auto.
    + intros x. rewrite D1. cbn. auto.
  - intros p. rewrite S1. cbn. rewrite HS. symmetry. apply (assign_same_size nl A c (P A c) d); auto.
Qed.

Lemma user_leb p : p < USER_IO_CLASS_MAX -> (USER_IO_CLASS_MAX <=? p) = false.
Proof. intros H. apply Nat.leb_gt. exact H. Qed.

Lemma is_hot_spec l c : is_hot l c = true <-> In c (firstn (length l / 2) l).
Proof.
  unfold is_hot. rewrite existsb_exists. split.
  - intros (x & Hx & E). apply Nat.eqb_eq in E as ->. auto.
  - intros H. exists c. split; auto. apply Nat.eqb_refl.
Qed.

Lemma hot_bit s f i c : LInv s f -> l_part i <> FREELIST -> In c (f i) -> hot (lmeta s c) = is_hot (f i) c.
Proof.
  intros [H1 _] Hp Hc. destruct (H1 i) as [B T].
  destruct (Bal_facts _ _ _ B) as (ND & _ & _ & _ & _ & F & _).
  rewrite T in F. apply Nat.eqb_neq in Hp. rewrite Hp in F. destruct (F eq_refl) as (_ & F1 & F2).
  destruct (is_hot (f i) c) eqn:E.
  - apply is_hot_spec in E. auto.
  - apply F2. rewrite <- (firstn_skipn (length (f i) / 2) (f i)) in Hc. apply in_app_or in Hc as [Hc|Hc]; auto.
    apply is_hot_spec in Hc. congruence.
Qed.

Lemma last_or_some l x : exists y, last_or (Some x) l = Some y.
Proof. revert x; induction l as [|a l IH]; intros x; cbn; eauto. Qed.

Lemma on_tail s f i c : LInv s f -> In c (f i) -> next (lmeta s c) = None -> tail (lists s i) = Some c.
Proof.
  intros [H1 _] Hc Hn. destruct (H1 i) as [B T]. destruct (Bal_facts _ _ _ B) as (ND & _ & Ht & _ & S & _).
  apply in_split in Hc as (L1 & L2 & E). rewrite E in *. rewrite Ht, last_or_app. cbn.
  apply seg_app in S as [_ (_ & N & _)]. rewrite Hn in N. destruct L2; [auto|discriminate].
Qed.
Lemma on_head s f i c : LInv s f -> In c (f i) -> prev (lmeta s c) = None -> head (lists s i) = Some c.
Proof.
  intros [H1 _] Hc Hn. destruct (H1 i) as [B T]. destruct (Bal_facts _ _ _ B) as (ND & Hh & _ & _ & S & _).
  apply in_split in Hc as (L1 & L2 & E). rewrite E in *. rewrite Hh, hd_or_app. cbn.
  apply seg_app in S as [_ (N & _)]. rewrite Hn in N. destruct L1 as [|a L1]; [auto|].
  cbn in N. destruct (last_or_some L1 a) as [y Hy]. congruence.
Qed.

Lemma step_inv nl s A o : SInv nl s A -> allowed nl o A -> exists s', exec o s = Some s' /\ SInv nl s' (spec_op o A).
Proof.
  intros HI HA. pose proof HI as [(HL & HW & HP & HD) HS].
  destruct o as [c|c p|c|c|c|can dst idx|can src dst idx]; cbn [exec spec_op allowed] in *.
  - destruct HA as [Hc Hu]. unfold lru_hot_cline. rewrite HP, HD.
    assert (Hin : In c (L A (home A c))) by (apply HW; auto).
    assert (Hnf : l_part (home A c) <> FREELIST) by (cbn; unfold FREELIST, USER_IO_CLASS_MAX in *; lia).
    rewrite (hot_bit s (L A) (home A c) c HL Hnf Hin).
    destruct (is_hot (L A (home A c)) c); [exists s; auto|].
    rewrite user_leb by auto.
    assert (G1 : get_list (P A c) (c mod NUM_LRU_LISTS) (negb (D A c)) = home A c) by reflexivity. rewrite G1.
    unfold is_end.
    destruct (opt_eqb_spec (next (lmeta s c)) None) as [En|En]; cbn [andb].
    { rewrite (on_tail s _ _ _ HL Hin En). cbn [opt_eqb]. rewrite Nat.eqb_refl. cbn [negb].
      destruct (opt_eqb_spec (prev (lmeta s c)) None) as [Ep|Ep]; cbn [andb].
      - rewrite (on_head s _ _ _ HL Hin Ep). cbn [opt_eqb]. rewrite Nat.eqb_refl. cbn [negb]. apply sethot_inv; auto.
      - apply sethot_inv; auto. }
    destruct (opt_eqb_spec (prev (lmeta s c)) None) as [Ep|Ep]; cbn [andb].
    { rewrite (on_head s _ _ _ HL Hin Ep). cbn [opt_eqb]. rewrite Nat.eqb_refl. cbn [negb]. apply sethot_inv; auto. }
    apply sethot_inv; auto.
  - destruct HA as (Hc & Hu & Hp & Hne). rewrite HP. apply repart_inv; auto.
  - destruct HA as (Hc & Hu). unfold lru_rm_cline. rewrite HP, user_leb by auto. apply repart_inv; auto.
    unfold FREELIST, USER_IO_CLASS_MAX in *. lia.
  - destruct HA as (Hc & Hu). rewrite HD. destruct (D A c) eqn:E; [exists s; auto|].
    unfold lru_dirty_cline. rewrite HP, user_leb by auto. rewrite <- (HP c).
    destruct (status_inv nl s A c true HI Hc Hu) as (s' & E1 & E2); [rewrite E; auto|].
    exists s'. split; [exact E1|]. rewrite HP. exact E2.
  - destruct HA as (Hc & Hu). rewrite HD. destruct (D A c) eqn:E; [|exists s; auto].
    unfold lru_clean_cline. rewrite HP, user_leb by auto. rewrite <- (HP c).
    destruct (status_inv nl s A c false HI Hc Hu) as (s' & E1 & E2); [rewrite E; auto|].
    exists s'. split; [exact E1|]. rewrite HP. exact E2.
  - unfold alloc_one. destruct (Nat.eqb_spec dst FREELIST) as [->|Hdf]; [unfold FREELIST, USER_IO_CLASS_MAX in *; lia|].
    change (get_list FREELIST idx true) with (mklid FREELIST idx true). set (i := mklid FREELIST idx true).
    destruct (proj1 HL i) as [B T]. destruct (Bal_facts _ _ _ B) as (ND & _ & Ht & Hnn & S & _).
    rewrite Ht, Hnn, (scan_spec _ can _ _ _ S) by auto. unfold victim.
    destruct (find can (rev (L A i))) as [c|] eqn:EF; [|exists s; auto].
    apply find_rev_in in EF. apply HW in EF as [Hc Hh].
    assert (Hpc : P A c = FREELIST) by (unfold home, place, i in Hh; injection Hh; auto).
    destruct (repart_inv nl s A c dst HI Hc) as (s' & E1 & E2); [congruence|].
    rewrite Hpc in E1. rewrite E1. exists s'. auto.
  - destruct HA as [Hs Hd]. unfold evict_one.
    assert (G : get_list src idx true = mklid src idx true) by (unfold get_list; destruct (src =? FREELIST); auto).
    rewrite G. set (i := mklid src idx true).
    destruct (proj1 HL i) as [B T]. destruct (Bal_facts _ _ _ B) as (ND & _ & Ht & Hnn & S & _).
    rewrite Ht, Hnn, (scan_spec _ can _ _ _ S) by auto. unfold victim.
    destruct (find can (rev (L A i))) as [c|] eqn:EF; [|exists s; auto].
    apply find_rev_in in EF. apply HW in EF as [Hc Hh].
    assert (Hpc : P A c = src) by (unfold home, place, i in Hh; injection Hh; auto).
    destruct (Nat.eqb_spec dst src) as [->|Hne]; cbn [negb].
    + destruct (sethot_inv nl s A c i HI Hc (eq_sym Hh)) as (s' & E1 & E2). rewrite E1. exists s'.
      rewrite Hpc in E2. auto.
    + destruct (repart_inv nl s A c dst HI Hc) as (s' & E1 & E2); [congruence|].
      rewrite Hpc in E1. rewrite E1. exists s'. auto.
Qed.

Lemma run_inv nl ops : forall s A, SInv nl s A -> allowed_all nl ops A ->
  exists s', exec_all ops s = Some s' /\ SInv nl s' (spec_all ops A).
Proof.
  induction ops as [|o ops IH]; intros s A HI HA; cbn [exec_all spec_all fold_left].
  - eauto.
  - destruct HA as [H1 H2]. destruct (step_inv nl s A o HI H1) as (s1 & E & I1). rewrite E. apply IH; auto.
Qed.

(** *** Start *)
Lemma add_line_inv dom s A c w : Inv dom s A -> ~ dom c ->
  exists s', add_line s c w = Some s' /\ Inv (fun x => dom x \/ x = c) s' (spec_add A (c, w)) /\ size s' = size s.
Proof.
  intros (HL & HW & HP & HD) Hn.
  assert (HN : forall j, ~ In c (L A j)) by (intros j Hi; apply HW in Hi as [Hi _]; auto).
  unfold add_line, spec_add; cbn [fst snd]. destruct w as [d|].
  - set (s0 := {| lmeta := upd (lmeta s) c {| prev := None; next := None; hot := false |}; lists := lists s;
                  part := setf (part s) c DEFAULT_PART; dirty := setf (dirty s) c d; size := size s |}).
    assert (HL0 : LInv s0 (L A)).
    { destruct HL as [H1 H2]. split; [|auto]. intros i. destruct (H1 i) as [B T]. split; [|auto].
      eapply Bal_ext; [|exact B]. intros a Ha. cbn. apply upd_other. intros ->. exact (HN i Ha). }
    destruct (add_linv s0 (L A) c (place DEFAULT_PART d c) (fun m l => add_lru_head m l c) HL0 HN) as (s1 & E & I1 & P1 & D1 & S1).
    { intros m l B T. apply add_head_bal; auto. }
    exists s1. split; [exact E|]. split; [|exact S1]. split; [exact I1|]. split; [apply wf_assign; exact HW|].
    rewrite P1, D1. cbn. unfold setf. split; intros x; destruct (x =? c); auto.
  - set (s0 := set_dirty (set_part s c FREELIST) c false).
    assert (HL0 : LInv s0 (L A)) by exact HL.
    destruct (add_linv s0 (L A) c (place FREELIST false c) (fun m l => add_lru_head_nobalance m l c) HL0 HN) as (s1 & E & I1 & P1 & D1 & S1).
    { intros m l B T. apply add_head_free; auto. }
    exists s1. split; [exact E|]. split; [|exact S1]. split; [exact I1|]. split; [apply wf_assign; exact HW|].
    rewrite P1, D1. cbn. unfold setf. split; intros x; destruct (x =? c); auto.
Qed.

Lemma add_lines_inv l : forall dom s A, Inv dom s A -> NoDup (map fst l) -> (forall c, In c (map fst l) -> ~ dom c) ->
  exists s', add_lines s l = Some s' /\ Inv (fun x => dom x \/ In x (map fst l)) s' (fold_left spec_add l A) /\ size s' = size s.
Proof.
  induction l as [|[c w] l IH]; intros dom s A HI ND Hd; cbn [add_lines map fst fold_left] in *.
  - exists s. split; [auto|]. split; [|auto]. destruct HI as (H1 & H2 & H3). split; [auto|]. split; [|auto].
    eapply WF_eq; [|exact H2]. cbn. tauto.
  - apply NoDup_cons_iff in ND as [N ND].
    destruct (add_line_inv dom s A c w HI) as (s1 & E & I1 & S1); [apply Hd; left; auto|]. rewrite E.
    destruct (IH _ s1 _ I1 ND) as (s2 & E2 & I2 & S2).
    { intros x Hx [Hx2| ->]; [|contradiction]. apply (Hd x); [right; auto|auto]. }
    exists s2. split; [auto|]. split; [|congruence]. destruct I2 as (H1 & H2 & H3). split; [auto|]. split; [|auto].
    eapply WF_eq; [|exact H2]. cbn [In]. intros x. split; intros HX; intuition.
Qed.

Lemma fold_P l A : NoDup (map fst l) -> forall c, P (fold_left spec_add l A) c =
  match find (fun x => fst x =? c) l with
  | Some (_, None) => FREELIST | Some (_, Some _) => DEFAULT_PART | None => P A c
  end.
Proof.
  revert A; induction l as [|[a w] l IH]; intros A ND c; cbn [fold_left find fst]; [reflexivity|].
  cbn [map fst] in ND. apply NoDup_cons_iff in ND as [N ND]. rewrite IH by auto.
  destruct (find (fun x => fst x =? c) l) as [[x w']|] eqn:E.
  - destruct (Nat.eqb_spec a c) as [->|]; [|destruct w'; reflexivity].
    exfalso. apply find_some in E as [E1 E2]. cbn in E2. apply Nat.eqb_eq in E2 as ->. apply N.
    change c with (fst (c, w')). apply in_map. auto.
  - unfold spec_add; cbn [fst snd]. rewrite (Nat.eqb_sym a c). destruct w; cbn; unfold setf; destruct (c =? a); auto.
Qed.

Lemma find_filter_len l (g : nat * option bool -> bool) : NoDup (map fst l) ->
  length (filter (fun c => match find (fun x => fst x =? c) l with Some x => g x | None => false end) (map fst l)) =
  length (filter g l).
Proof.
  assert (HG : forall l' : list (nat * option bool), NoDup (map fst l) -> incl l' l ->
    length (filter (fun c => match find (fun x => fst x =? c) l with Some x => g x | None => false end) (map fst l')) =
    length (filter g l')).
  { intros l' ND. induction l' as [|[a w] l' IH]; intros Hi; [reflexivity|]. cbn [map fst filter].
    assert (E : find (fun x => fst x =? a) l = Some (a, w)).
    { assert (Hin : In (a, w) l) by (apply Hi; left; auto). clear -ND Hin.
      induction l as [|[b v] l IH]; [destruct Hin|]. cbn [find fst map] in *. apply NoDup_cons_iff in ND as [N ND].
      destruct (Nat.eqb_spec b a) as [->|Hb].
      - destruct Hin as [Hin|Hin]; [congruence|]. exfalso. apply N. change a with (fst (a, w)). apply in_map; auto.
      - destruct Hin as [Hin|Hin]; [congruence|auto]. }
    rewrite E. assert (IH' := IH (fun x Hx => Hi x (or_intror Hx))).
    destruct (g (a, w)); cbn [length]; rewrite IH'; auto. }
  intros ND. apply HG; auto. intros x; auto.
Qed.

Lemma filter_perm_len (g : nat -> bool) l l' : Permutation l l' -> length (filter g l) = length (filter g l').
Proof.
  induction 1 as [|x l l' H IH|x y l|l l' l'' H1 IH1 H2 IH2]; cbn; auto.
  - destruct (g x); cbn; auto.
  - destruct (g x), (g y); cbn; auto.
  - congruence.
Qed.

Lemma start_inv nl l : Permutation (map fst l) (seq 0 nl) ->
  exists s, start l = Some s /\ SInv nl s (spec_start l).
Proof.
  intros HPm. assert (ND : NoDup (map fst l)) by (eapply Permutation_NoDup; [symmetry; eauto|apply seq_NoDup]).
  assert (HI0 : Inv (fun _ => False) init {| L := fun _ => []; P := fun _ => FREELIST; D := fun _ => false |}).
  { split; [split|split; [|split]]; cbn.
    - intros i. split; [|reflexivity]. exists [], []. split; [|split; [reflexivity|intros _; reflexivity]].
      unfold LRep; cbn. split; [auto|]. split; [auto|]. split; [auto|]. split; [auto|]. split; [auto|]. split; [auto|].
      split; [intros ? []|]. split; [intros ? []|]. split; [constructor|auto].
    - intros i j c [].
    - intros i c. cbn. tauto.
    - auto.
    - auto. }
  destruct (add_lines_inv l _ _ _ HI0 ND) as (s1 & E & I1 & S1); [auto|].
  unfold start. rewrite E. eexists. split; [reflexivity|].
  fold (spec_start l) in I1. destruct I1 as (J1 & J2 & J3 & J4). split.
  - split; [exact J1|]. split; [|split; [exact J3|exact J4]].
    eapply WF_eq; [|exact J2]. intros x. cbn beta. rewrite HPm, in_seq. lia.
  - intros p. cbn [size set_size]. unfold setf. rewrite S1. cbn [size init].
    assert (EP : forall g, length (filter (fun c => match find (fun x => fst x =? c) l with Some x => g x | None => false end) (seq 0 nl)) = length (filter g l)).
    { intros g. rewrite <- find_filter_len by auto. apply filter_perm_len. symmetry. auto. }
    assert (Hall : forall c, In c (seq 0 nl) -> exists x, find (fun x => fst x =? c) l = Some x).
    { intros c Hc. destruct (find (fun x => fst x =? c) l) eqn:EF; [eauto|]. exfalso.
      apply (Permutation_in _ (Permutation_sym HPm)) in Hc. apply in_map_iff in Hc as (x & <- & Hx).
      apply (find_none _ _ EF) in Hx. rewrite Nat.eqb_refl in Hx. discriminate. }
    unfold cnt. 
    assert (EC : forall g : nat * option bool -> bool, (forall c x, find (fun x => fst x =? c) l = Some x -> (P (spec_start l) c =? p) = g x) ->
      length (filter (fun c => P (spec_start l) c =? p) (seq 0 nl)) = length (filter g l)).
    { intros g Hg. rewrite <- EP. f_equal. apply filter_ext_in. intros c Hc. destruct (Hall c Hc) as [x Hx].
      rewrite Hx. auto. }
    destruct (Nat.eqb_spec p FREELIST) as [->|Hp]; [|destruct (Nat.eqb_spec p DEFAULT_PART) as [->|Hp2]].
    + f_equal. symmetry. apply EC. intros c [a w] Hx. unfold spec_start. rewrite fold_P by auto. rewrite Hx. destruct w; reflexivity.
    + f_equal. symmetry. apply EC. intros c [a w] Hx. unfold spec_start. rewrite fold_P by auto. rewrite Hx. destruct w; reflexivity.
    + rewrite (EC (fun _ => false)).
      * clear. induction l; cbn; auto.
      * intros c [a w] Hx. unfold spec_start. rewrite fold_P by auto. rewrite Hx.
        destruct w; apply Nat.eqb_neq; auto.
Qed.

(** *** Reading the lists *)
Lemma follow_next m : forall l p k, seg m p l None -> follow (fun c => next (m c)) (length l + k) (hd_or None l) = l.
Proof.
  induction l as [|a l IH]; intros p k H; cbn [hd_or length Nat.add follow].
  - destruct k; reflexivity.
  - destruct H as (_ & H2 & H3). f_equal. rewrite H2. apply (IH (Some a)); auto.
Qed.
Lemma follow_prev m : forall l n k, seg m None l n -> follow (fun c => prev (m c)) (length l + k) (last_or None l) = rev l.
Proof.
  induction l as [|a l IH] using rev_ind; intros n k H.
  - destruct k; reflexivity.
  - rewrite last_or_app, rev_app_distr, app_length. cbn [last_or length]. rewrite Nat.add_1_r. cbn [Nat.add follow rev app].
    apply seg_app in H as [H1 (H2 & _)]. f_equal. rewrite H2. apply (IH (Some a)); auto.
Qed.

Lemma NoDup_app_disj (l1 l2 : list nat) : NoDup l1 -> NoDup l2 -> (forall x, In x l1 -> ~ In x l2) -> NoDup (l1 ++ l2).
Proof.
  induction l1 as [|a l1 IH]; intros H1 H2 H; cbn; auto. apply NoDup_cons_iff in H1 as [N H1]. constructor.
  - intros Hi. apply in_app_or in Hi as [Hi|Hi]; [contradiction|]. apply (H a); [left; auto|auto].
  - apply IH; auto. intros x Hx. apply H. right; auto.
Qed.

Lemma NoDup_flat_map (g : nat -> list nat) l : NoDup l -> (forall i, In i l -> NoDup (g i)) ->
  (forall i j x, In i l -> In j l -> In x (g i) -> In x (g j) -> i = j) -> NoDup (flat_map g l).
Proof.
  induction l as [|a l IH]; intros ND H1 H2; cbn [flat_map]; [constructor|]. apply NoDup_cons_iff in ND as [N ND].
  apply NoDup_app_disj.
  - apply H1. left; auto.
  - apply IH; auto.
    + intros i Hi. apply H1. right; auto.
    + intros i j x Hi Hj. apply H2; right; auto.
  - intros x Hx Hi. apply in_flat_map in Hi as (j & Hj & Hxj). apply N.
    rewrite (H2 a j x); auto; [left; auto|right; auto].
Qed.

Lemma part_lists_perm nl s A p : SInv nl s A ->
  Permutation (part_lists A p) (filter (fun c => P A c =? p) (seq 0 nl)).
Proof.
  intros [(HL & HW & HP & HD) HS].
  assert (Hin : forall idx b c, In c (L A (mklid p idx b)) <-> c < nl /\ P A c = p /\ c mod 32 = idx /\ (if p =? FREELIST then true else negb (D A c)) = b).
  { intros idx b c. rewrite (HW (mklid p idx b) c). unfold home, place. split.
    - intros [H1 [= H2 H3 H4]]. subst p. auto.
    - intros (H1 & H2 & H3 & H4). split; auto. rewrite H2. congruence. }
  assert (HND : forall i, NoDup (L A i)) by (intros i; apply (Bal_facts _ _ _ (proj1 (proj1 HL i)))).
  apply NoDup_Permutation.
  - apply NoDup_flat_map.
    + apply seq_NoDup.
    + intros i _. apply NoDup_app_disj; auto. intros x H1 H2. apply Hin in H1, H2. destruct H1 as (_ & _ & _ & H1), H2 as (_ & _ & _ & H2). congruence.
    + intros i j x _ _ H1 H2. apply in_app_or in H1 as [H1|H1], H2 as [H2|H2]; apply Hin in H1 as (_ & _ & H1 & _), H2 as (_ & _ & H2 & _); congruence.
  - apply NoDup_filter, seq_NoDup.
  - intros c. unfold part_lists. rewrite in_flat_map, filter_In, Nat.eqb_eq, in_seq. split.
    + intros (idx & _ & H). apply in_app_or in H as [H|H]; apply Hin in H as (H1 & H2 & _); split; auto; lia.
    + intros [H1 H2]. exists (c mod 32). split.
      * apply in_seq. pose proof (Nat.mod_upper_bound c 32). unfold NUM_LRU_LISTS. lia.
      * apply in_or_app. rewrite !Hin. destruct (if p =? FREELIST then true else negb (D A c)); [left|right]; repeat split; auto; lia.
Qed.

Lemma shows nl s A : SInv nl s A -> Shows nl s A.
Proof.
  intros HI. pose proof HI as [(HL & HW & HP & HD) HS].
  assert (HB : forall i, Bal (lmeta s) (L A i) (lists s i)) by (intros i; apply (proj1 HL i)).
  split; [|split; [|split; [|split]]].
  - intros i k. destruct (Bal_facts _ _ _ (HB i)) as (_ & Hh & Ht & _ & S & _).
    unfold forward, backward. rewrite Hh, Ht. split; [eapply follow_next; eauto|eapply follow_prev; eauto].
  - intros i. apply (Bal_facts _ _ _ (HB i)).
  - auto.
  - intros p. rewrite HS. unfold cnt. f_equal. symmetry. apply Permutation_length. eapply part_lists_perm; eauto.
  - intros i Hp. split.
    + destruct (Bal_facts _ _ _ (HB i)) as (_ & _ & _ & _ & _ & F & _). apply F.
      rewrite (proj2 (proj1 HL i)). apply Nat.eqb_neq in Hp. rewrite Hp. auto.
    + intros c Hc. eapply hot_bit; eauto.
Qed.

(** ** C10, C11 *)

(** The concrete lists follow the specification: no operation fails (no
    ENV_BUG_ON, no bad pointer), and the pointers, sizes and hot marks show
    the specification's lists. [nl]: number of cache lines, [l]: how the lines are
    added at start (new cache or recovery), in any order. *)
Theorem lru_refines_lists nl l ops :
  Permutation (map fst l) (seq 0 nl) -> allowed_all nl ops (spec_start l) ->
  exists s0 s, start l = Some s0 /\ exec_all ops s0 = Some s /\ Shows nl s (spec_all ops (spec_start l)).
Proof.
  intros HP HA. destruct (start_inv nl l HP) as (s0 & E0 & I0).
  destruct (run_inv nl ops s0 _ I0 HA) as (s & E & I). exists s0, s. split; [auto|]. split; [auto|]. apply shows; auto.
Qed.

(** Every cache line is on exactly one list, once: the free list, or the clean or
    dirty list of its class; the size counters equal the number of lines. *)
Theorem C10_exactly_one_list nl l ops s0 s :
  Permutation (map fst l) (seq 0 nl) -> allowed_all nl ops (spec_start l) ->
  start l = Some s0 -> exec_all ops s0 = Some s ->
  (forall c, c < nl -> exists i,
     l_part i = part s c /\ l_idx i = c mod 32 /\ (part s c <> FREELIST -> l_clean i = negb (dirty s c)) /\
     count_occ Nat.eq_dec (forward s i (S nl)) c = 1 /\ (forall j, j <> i -> ~ In c (forward s j (S nl)))) /\
  (forall i c, In c (forward s i (S nl)) -> c < nl) /\
  (forall i, num_nodes (lists s i) = length (forward s i (S nl)) /\ backward s i (S nl) = rev (forward s i (S nl))) /\
  (forall p, size s p = Z.of_nat (length (filter (fun c => part s c =? p) (seq 0 nl)))).
Proof.
  intros HPm HA E0 E. destruct (start_inv nl l HPm) as (s0' & E0' & I0). rewrite E0 in E0'. injection E0' as <-.
  destruct (run_inv nl ops s0 _ I0 HA) as (s' & E' & I). rewrite E in E'. injection E' as <-.
  set (A := spec_all ops (spec_start l)) in *. pose proof (shows nl s A I) as (S1 & S2 & S3 & S4 & _).
  pose proof I as [(HL & HW & HP & HD) HS].
  assert (HND : forall i, NoDup (L A i)) by (intros i; apply (Bal_facts _ _ _ (proj1 (proj1 HL i)))).
  assert (Hlen : forall i, length (L A i) <= nl).
  { intros i. rewrite <- (seq_length nl 0). apply NoDup_incl_length; auto. intros c Hc. apply HW in Hc as [Hc _]. apply in_seq. lia. }
  assert (HF : forall i, forward s i (S nl) = L A i /\ backward s i (S nl) = rev (L A i)).
  { intros i. replace (S nl) with (length (L A i) + (S nl - length (L A i))) by (specialize (Hlen i); lia). apply S1. }
  split; [|split; [|split]].
  - intros c Hc. exists (home A c). rewrite HP, HD. split; [reflexivity|]. split; [reflexivity|].
    split. { cbn [home place l_clean]. intros Hp. apply Nat.eqb_neq in Hp. rewrite Hp. auto. }
    rewrite (proj1 (HF _)). split.
    + apply NoDup_count_occ'; auto. apply HW; auto.
    + intros j Hj. rewrite (proj1 (HF _)). intros Hi. apply HW in Hi as [_ Hi]. congruence.
  - intros i c. rewrite (proj1 (HF _)). intros Hi. apply HW in Hi as [Hi _]. auto.
  - intros i. destruct (HF i) as [-> ->]. auto.
  - intros p. rewrite HS. unfold cnt. f_equal. f_equal. apply filter_ext. intros c. rewrite HP. auto.
Qed.

(** Hot marks: exactly the first half (rounded down) of each class list. *)
Theorem C11_hot_prefix nl l ops s0 s i n c :
  Permutation (map fst l) (seq 0 nl) -> allowed_all nl ops (spec_start l) ->
  start l = Some s0 -> exec_all ops s0 = Some s -> l_part i <> FREELIST ->
  nth_error (forward s i (S nl)) n = Some c ->
  hot (lmeta s c) = (n <? num_nodes (lists s i) / 2).
Proof.
  intros HPm HA E0 E Hi Hn. destruct (start_inv nl l HPm) as (s0' & E0' & I0). rewrite E0 in E0'. injection E0' as <-.
  destruct (run_inv nl ops s0 _ I0 HA) as (s' & E' & I). rewrite E in E'. injection E' as <-.
  set (A := spec_all ops (spec_start l)) in *. pose proof (shows nl s A I) as (S1 & S2 & S3 & S4 & S5).
  pose proof I as [(HL & HW & HP & HD) HS].
  assert (HND : forall i, NoDup (L A i)) by (intros j; apply (Bal_facts _ _ _ (proj1 (proj1 HL j)))).
  assert (Hlen : forall i, length (L A i) <= nl).
  { intros j. rewrite <- (seq_length nl 0). apply NoDup_incl_length; auto. intros x Hc. apply HW in Hc as [Hc _]. apply in_seq. lia. }
  assert (HF : forward s i (S nl) = L A i).
  { replace (S nl) with (length (L A i) + (S nl - length (L A i))) by (specialize (Hlen i); lia). apply S1. }
  rewrite HF in Hn. rewrite S2. rewrite (proj2 (S5 i Hi) c) by (eapply nth_error_In; eauto).
  set (k := length (L A i) / 2). specialize (HND i).
  destruct (Nat.ltb_spec n k) as [Hlt|Hge].
  - apply is_hot_spec. fold k. rewrite <- (firstn_skipn k (L A i)) in Hn.
    assert (Hl : length (firstn k (L A i)) = k).
    { rewrite firstn_length. unfold k. assert (length (L A i) / 2 <= length (L A i)) by (apply Nat.div_le_upper_bound; lia). lia. }
    rewrite nth_error_app1 in Hn by lia. eapply nth_error_In; eauto.
  - destruct (is_hot (L A i) c) eqn:EH; auto. exfalso. apply is_hot_spec in EH. fold k in EH.
    apply In_nth_error in EH as (n' & Hn').
    assert (Hn'k : n' < k).
    { assert (nth_error (firstn k (L A i)) n' <> None) by congruence. apply nth_error_Some in H. rewrite firstn_length in H. lia. }
    assert (Hn'' : nth_error (L A i) n' = Some c).
    { rewrite <- (firstn_skipn k (L A i)). rewrite nth_error_app1; auto. apply nth_error_Some. congruence. }
    rewrite NoDup_nth_error in HND. assert (n = n'); [|lia]. apply HND; [apply nth_error_Some; congruence|congruence].
Qed.

(** Order: eviction, allocation and hits as list operations. *)
Theorem C11_order nl l ops s0 s o s' :
  Permutation (map fst l) (seq 0 nl) -> allowed_all nl (ops ++ [o]) (spec_start l) ->
  start l = Some s0 -> exec_all ops s0 = Some s -> exec o s = Some s' ->
  match o with
  | Hit c =>
    (* a hot line: nothing changes; a cold one moves to the head *)
    (hot (lmeta s c) = true -> s' = s) /\
    (hot (lmeta s c) = false -> exists i l1 l2, forward s i (S nl) = l1 ++ c :: l2 /\ forward s' i (S nl) = c :: l1 ++ l2 /\
       forall j, j <> i -> forward s' j (S nl) = forward s j (S nl))
  | Evict can src dst idx =>
    (* the line closest to the tail that can be locked *)
    match evict_one s can src dst idx with
    | Some (_, Some c) => exists l1 l2, forward s (mklid src idx true) (S nl) = l1 ++ c :: l2 /\ can c = true /\
        (forall x, In x l2 -> can x = false) /\
        (dst <> src -> forward s' (mklid src idx true) (S nl) = l1 ++ l2 /\ part s' c = dst)
    | Some (_, None) => s' = s /\ forall x, In x (forward s (mklid src idx true) (S nl)) -> can x = false
    | None => False
    end
  | _ => True
  end.
Proof.
  intros HPm HAA E0 E Eo. destruct (start_inv nl l HPm) as (s0' & E0' & I0). rewrite E0 in E0'. injection E0' as <-.
  assert (HSp : forall l1 l2 A, allowed_all nl (l1 ++ l2) A -> allowed_all nl l1 A /\ allowed_all nl l2 (spec_all l1 A)).
  { clear. induction l1 as [|a l1 IH]; intros l2 A H; cbn in *; auto. destruct H as [H1 H2].
    destruct (IH _ _ H2). auto. }
  destruct (HSp _ _ _ HAA) as [HA [HA' _]].
  destruct (run_inv nl ops s0 _ I0 HA) as (s1 & E1 & I). rewrite E in E1. injection E1 as <-.
  set (A := spec_all ops (spec_start l)) in *.
  destruct (step_inv nl s A o I HA') as (s2 & E2 & I2). rewrite Eo in E2. injection E2 as <-.
  assert (HF : forall s A i, SInv nl s A -> forward s i (S nl) = L A i).
  { clear. intros s A i HI. pose proof (shows nl s A HI) as (S1 & _). pose proof HI as [(HL & HW & HP & HD) HS].
    assert (HND : NoDup (L A i)) by (apply (Bal_facts _ _ _ (proj1 (proj1 HL i)))).
    assert (Hlen : length (L A i) <= nl).
    { rewrite <- (seq_length nl 0). apply NoDup_incl_length; auto. intros c Hc. apply HW in Hc as [Hc _]. apply in_seq. lia. }
    replace (S nl) with (length (L A i) + (S nl - length (L A i))) by lia. apply S1. }
  pose proof I as [(HL & HW & HP & HD) HS].
  assert (HND : forall i, NoDup (L A i)) by (intros i; apply (Bal_facts _ _ _ (proj1 (proj1 HL i)))).
  destruct o as [c|c p|c|c|c|can dst idx|can src dst idx]; auto.
  - cbn [allowed spec_op exec] in *. destruct HA' as [Hc Hu].
    assert (Hin : In c (L A (home A c))) by (apply HW; auto).
    assert (Hnf : l_part (home A c) <> FREELIST) by (cbn; unfold FREELIST, USER_IO_CLASS_MAX in *; lia).
    split.
    + intros Hh. unfold lru_hot_cline in Eo. rewrite Hh in Eo. congruence.
    + intros Hh. rewrite (hot_bit s (L A) (home A c) c HL Hnf Hin) in Hh. rewrite Hh in I2.
      apply in_split in Hin as (l1 & l2 & EL). exists (home A c), l1, l2. rewrite !(HF _ _ _ I), (HF _ _ _ I2).
      split; [auto|]. cbn [assign L]. fold (home A c). unfold put at 1. destruct (lid_eqb_spec (home A c) (home A c)); [|congruence].
      assert (HN := HND (home A c)). rewrite EL, rem_split by (rewrite <- EL; auto). split; [auto|].
      intros j Hj. rewrite (HF _ _ _ I), (HF _ _ _ I2). cbn [assign L]. fold (home A c). unfold put.
      destruct (lid_eqb_spec j (home A c)); [congruence|]. apply rem_notin. intros Hi. apply HW in Hi as [_ Hi]. congruence.
  - cbn [allowed spec_op exec] in *. destruct HA' as [Hs Hd].
    destruct (evict_one s can src dst idx) as [[s3 [c|]]|] eqn:EV; cbn [option_map fst] in Eo; [| |discriminate];
      injection Eo as ->.
    + unfold evict_one in EV.
      assert (G : get_list src idx true = mklid src idx true) by (unfold get_list; destruct (src =? FREELIST); auto).
      rewrite G in EV. set (i := mklid src idx true) in *.
      destruct (Bal_facts _ _ _ (proj1 (proj1 HL i))) as (ND & _ & Ht & Hnn & S & _).
      rewrite Ht, Hnn, (scan_spec _ can _ _ _ S) in EV by auto. unfold victim in I2.
      destruct (find can (rev (L A i))) as [c'|] eqn:EF; [|discriminate].
      assert (c' = c).
      { destruct (if negb (dst =? src) then _ else _); [|discriminate]. injection EV; auto. }
      subst c'.
      assert (HFnd : forall r, find can r = Some c -> exists r1 r2, r = r1 ++ c :: r2 /\ can c = true /\ forall x, In x r1 -> can x = false).
      { clear. induction r as [|a r IH]; cbn; intros H; [discriminate|]. destruct (can a) eqn:Ea.
        - injection H as ->. exists [], r. cbn. split; [auto|]. split; [auto|]. intros ? [].
        - destruct (IH H) as (r1 & r2 & -> & H1 & H2). exists (a :: r1), r2. split; [auto|]. split; [auto|].
          intros x [<-|Hx]; auto. }
      destruct (HFnd _ EF) as (r1 & r2 & ER & Hcan & Hr).
      assert (EL : L A i = rev r2 ++ c :: rev r1).
      { rewrite <- (rev_involutive (L A i)), ER, rev_app_distr. cbn. rewrite <- app_assoc. auto. }
      exists (rev r2), (rev r1). rewrite (HF _ _ _ I). split; [auto|]. split; [auto|].
      split. { intros x Hx. apply Hr. apply in_rev; auto. }
      intros Hne. rewrite (HF _ _ _ I2). cbn [assign L]. unfold put.
      assert (Hpl : place dst (D A c) c <> i) by (unfold place, i; intros [= ? _]; congruence).
      destruct (lid_eqb_spec i (place dst (D A c) c)); [congruence|].
      split; [rewrite EL; apply rem_split; rewrite <- EL; auto|].
      destruct I2 as [(_ & _ & X & _) _]. rewrite X. cbn. unfold setf. rewrite Nat.eqb_refl. auto.
    + unfold evict_one in EV.
      assert (G : get_list src idx true = mklid src idx true) by (unfold get_list; destruct (src =? FREELIST); auto).
      rewrite G in EV. set (i := mklid src idx true) in *.
      destruct (Bal_facts _ _ _ (proj1 (proj1 HL i))) as (ND & _ & Ht & Hnn & S & _).
      rewrite Ht, Hnn, (scan_spec _ can _ _ _ S) in EV by auto.
      destruct (find can (rev (L A i))) as [c'|] eqn:EF.
      * destruct (if negb (dst =? src) then _ else _); discriminate.
      * injection EV as ->. split; [auto|]. intros x Hx. rewrite (HF _ _ _ I) in Hx. apply in_rev in Hx. exact (find_none _ _ EF x Hx).
Qed.

(** A run: a recovered cache with six lines of list 0 (three dirty), and operations of each kind. *)
Definition case_lines : list (nat * option bool) :=
  map (fun c => (c, if c =? 32 then Some true else if c =? 96 then Some true else if c =? 160 then Some true else None)) (seq 0 192).
Definition case_ops : list op :=
  [MkClean 32; MkClean 96; MkClean 160; Alloc (fun _ => true) 0 0; Alloc (fun _ => true) 0 0; Hit 32; Hit 160; Move 96 3;
   MkDirty 160; MkDirty 96; Free 96; Evict (fun c => negb (c =? 32)) 0 5 0; Evict (fun _ => true) 0 0 0].
Example lru_case :
  Permutation (map fst case_lines) (seq 0 192) /\ allowed_all 192 case_ops (spec_start case_lines).
Proof.
  split.
  - unfold case_lines. rewrite map_map. cbn [fst]. rewrite map_id. reflexivity.
  - unfold case_ops. cbn [allowed_all allowed].
    repeat match goal with
    | |- _ /\ _ => split
    | |- True => exact I
    | |- _ < _ => apply Nat.ltb_lt; vm_compute; reflexivity
    | |- _ <> _ => intros HH; vm_compute in HH; discriminate HH
    end.
Qed.
Example lru_case_run :
  match start case_lines with
  | Some s0 =>
    map (fun i => forward s0 i 200) [mklid FREELIST 0 true; mklid 0 0 true; mklid 0 0 false] =
      [[128; 64; 0]; []; [160; 96; 32]] /\
    match exec_all case_ops s0 with
    | Some s => map (fun i => forward s i 200)
        [mklid FREELIST 0 true; mklid 0 0 true; mklid 0 0 false; mklid 3 0 true; mklid 3 0 false; mklid 5 0 true] = 
        [[96; 128]; [64; 32]; [160]; []; []; [0]] /\
        map (fun c => hot (lmeta s c)) [64; 32; 160] = [true; false; false] /\
        map (size s) [0; 3; 5; FREELIST] = [3; 0; 1; 188]%Z
    | None => False end
  | None => False end.
Proof. vm_compute. auto. Qed.

Print Assumptions lru_refines_lists.
Print Assumptions C10_exactly_one_list.
Print Assumptions C11_hot_prefix.
Print Assumptions C11_order.

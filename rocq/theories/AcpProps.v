(** C30: eligibility of dirty chunks in the aggressive cleaning policy.  Model: AcpModel.v. *)
From Coq Require Import List Bool Arith Lia.
From Verif Require Import AcpModel.
Import ListNotations.
Open Scope nat_scope.

(** ** Specification *)

(** A chunk has dirty cache lines. *)
Definition is_dirty (n : nat) (a : acp) (c : nat) : Prop :=
  exists x o, x < n /\ dirty a x = true /\ where_ a x = Some (c, o).
(** The cleaner may choose chunk [c] at time [now]: it is in a bucket the cleaner searches and
    is accepted there. *)
Definition eligible (now : nat) (a : acp) (c : nat) : Prop :=
  exists b, 1 <= b <= 10 /\ In c (buckets a b) /\ can_clean_chunk now (chunks a c) = true.
(** Each cache line has its own core line within the chunks. *)
Definition good_map (n L C : nat) (w : nat -> option (nat * nat)) : Prop :=
  (forall x c o, w x = Some (c, o) -> x < n /\ c < C /\ o < L) /\
  (forall x y p, w x = Some p -> w y = Some p -> x = y).
(** States of a running policy: freshly initialised or populated from metadata, then any
    history. *)
Inductive start (n L C : nat) : acp -> Prop :=
| start_empty : start n L C (init C)
| start_populate : forall d w, good_map n L C w -> start n L C (populate n L C d w).
Definition no_error (e : event) : bool := match e with Error _ _ _ => false | _ => true end.
(** The claim of C30: a dirty chunk is eligible at some time, and from then on while it is
    dirty; already the existence of one later time is refuted below. *)
Definition claim (n L C : nat) : Prop :=
  forall a0 es a c now, start n L C a0 -> run n L C es a0 = Some a -> is_dirty n a c ->
  exists later, now <= later /\ eligible later a c.

(** ** Thresholds *)
Lemma percent_le b : b <= 10 -> percent b = 10 * b.
Proof. intro H. do 11 (destruct b as [|b]; [reflexivity|]). lia. Qed.
Lemma thr0 L : threshold L 0 = 0.
Proof. unfold threshold. cbn. rewrite Nat.mul_0_r. reflexivity. Qed.
Lemma thr10 L : threshold L 10 = L.
Proof. unfold threshold. cbn [percent nth]. apply Nat.div_mul. lia. Qed.
Lemma thr_lt L b : 10 <= L -> b < 10 -> threshold L b < threshold L (b + 1).
Proof.
  intros HL Hb. unfold threshold. rewrite !percent_le by lia.
  assert (L * (10 * b) / 100 + 1 <= L * (10 * (b + 1)) / 100); [|lia].
  rewrite <- (Nat.div_add (L * (10 * b)) 1 100) by lia. apply Nat.div_le_mono; lia.
Qed.
Lemma thr_le10 L b : b <= 10 -> threshold L b <= L.
Proof.
  intros Hb. unfold threshold. rewrite percent_le by lia.
  transitivity (L * 100 / 100); [apply Nat.div_le_mono; [lia|]; nia | rewrite Nat.div_mul; lia].
Qed.

(** ** Counting *)
Lemma filter_len_ext {A} (f g : A -> bool) l : (forall x, In x l -> f x = g x) -> length (filter f l) = length (filter g l).
Proof.
  induction l as [|y l IH]; intros H; [reflexivity|]. cbn [filter].
  rewrite (H y) by (left; reflexivity). destruct (g y); cbn [length]; rewrite IH; auto; intros; apply H; right; auto.
Qed.
Lemma filter_len_add f g (l : list nat) x : NoDup l -> In x l -> f x = false -> g x = true ->
  (forall y, y <> x -> f y = g y) -> length (filter g l) = length (filter f l) + 1.
Proof.
  intros ND I Hf Hg E. induction l as [|y l IH]; [destruct I|]. inversion ND as [|? ? N1 N2]; subst.
  cbn [filter]. destruct (Nat.eq_dec y x) as [->|N].
  - rewrite Hf, Hg. cbn [length]. rewrite (filter_len_ext g f l); [lia|].
    intros z Iz. symmetry. apply E. intros ->. contradiction.
  - rewrite (E y N). destruct I as [I|I]; [congruence|]. specialize (IH N2 I).
    destruct (g y); cbn [length]; lia.
Qed.

Lemma pigeon (l : list nat) k : NoDup l -> (forall x, In x l -> x < k) -> length l <= k.
Proof.
  intros ND H. rewrite <- (seq_length k 0). apply NoDup_incl_length; [assumption|].
  intros x I. apply in_seq. apply H in I. lia.
Qed.

Definition offset (a : acp) (x : nat) : nat := match where_ a x with Some (_, o) => o | None => 0 end.
Lemma nodup_map_inj {A B} (f : A -> B) l : NoDup l -> (forall x y, In x l -> In y l -> f x = f y -> x = y) -> NoDup (map f l).
Proof.
  induction l as [|a l IH]; intros ND H; cbn [map]; constructor; inversion ND as [|? ? N1 N2]; subst.
  - rewrite in_map_iff. intros (y & E & I). apply N1. rewrite (H a y); auto; [left; reflexivity | right; assumption].
  - apply IH; [assumption|]. intros x y Ix Iy. apply H; right; assumption.
Qed.
Lemma count_le n L C a c : good_map n L C (where_ a) -> count_dirty n c a <= L.
Proof.
  intros (G1 & G2). unfold count_dirty. set (l := filter _ _).
  assert (P : forall x, In x l -> exists o, where_ a x = Some (c, o)).
  { intros x I. apply filter_In in I. destruct I as (_ & I). apply andb_true_iff in I. destruct I as (_ & I).
    unfold in_chunk in I. destruct (where_ a x) as [[c' o]|]; [|discriminate]. apply Nat.eqb_eq in I. subst. eauto. }
  rewrite <- (map_length (offset a)). apply pigeon.
  - apply nodup_map_inj; [apply NoDup_filter, seq_NoDup|].
    intros x y Ix Iy E. destruct (P x Ix) as (o & Ex). destruct (P y Iy) as (o' & Ey).
    unfold offset in E. rewrite Ex, Ey in E. subst o'. eapply G2; eassumption.
  - intros o I. apply in_map_iff in I. destruct I as (x & E & I). destruct (P x I) as (o' & Ex).
    unfold offset in E. rewrite Ex in E. subst o'. destruct (G1 _ _ _ Ex) as (_ & _ & ?). assumption.
Qed.
Lemma count_pos n a c : is_dirty n a c -> 0 < count_dirty n c a.
Proof.
  intros (x & o & Hx & D & W). unfold count_dirty.
  assert (I : In x (filter (fun x => dirty a x && in_chunk a c x) (seq 0 n))).
  { apply filter_In. split; [apply in_seq; lia|]. unfold in_chunk. rewrite D, W. cbn. apply Nat.eqb_refl. }
  destruct (filter _ _); [destruct I | cbn [length]; lia].
Qed.

(** ** The invariant *)

(** Relation between bucket and number of dirty lines.  [loose] allows one bucket too low, as
    left by ocf_acp_populate_chunk. *)
Definition brel (loose : bool) (L : nat) (ch : chunk) : Prop :=
  bucket_id ch <= 10 /\ (0 < bucket_id ch -> threshold L (bucket_id ch - 1) < num_dirty ch) /\
  num_dirty ch <= (if loose then threshold L (if bucket_id ch =? 10 then 10 else bucket_id ch + 1) else threshold L (bucket_id ch)).

Record inv (loose : bool) (n L C : nat) (a : acp) : Prop := {
  i_map : good_map n L C (where_ a);
  i_dirty : forall x, dirty a x = true -> x < n /\ where_ a x <> None;
  i_num : forall c, c < C -> num_dirty (chunks a c) = count_dirty n c a;
  i_list : forall b c, In c (buckets a b) <-> (c < C /\ bucket_id (chunks a c) = b);
  i_rel : forall c, c < C -> brel loose L (chunks a c) }.

Lemma in_del c x l : In x (del c l) <-> In x l /\ x <> c.
Proof. unfold del. rewrite filter_In, negb_true_iff, Nat.eqb_neq. tauto. Qed.
Lemma in_move_tail c b f x y : In y (move_tail c b f x) <-> (y = c /\ x = b) \/ (In y (f x) /\ y <> c).
Proof.
  unfold move_tail. destruct (Nat.eqb_spec x b) as [->|N].
  - rewrite in_app_iff, in_del. cbn [In]. split; [intros [?|[?|[]]]; auto | intros [(-> & _)|?]; auto].
  - rewrite in_del. tauto.
Qed.
Lemma in_move_head c b f x y : In y (move_head c b f x) <-> (y = c /\ x = b) \/ (In y (f x) /\ y <> c).
Proof.
  unfold move_head. destruct (Nat.eqb_spec x b) as [->|N].
  - cbn [In]. rewrite in_del. split; [intros [?|?]; auto | intros [(-> & _)|?]; auto].
  - rewrite in_del. tauto.
Qed.

Lemma init_count n C c : count_dirty n c (init C) = 0.
Proof.
  unfold count_dirty. rewrite (filter_len_ext _ (fun _ => false)); [|intros; reflexivity].
  induction (seq 0 n); auto.
Qed.
Lemma inv_init n L C : inv false n L C (init C).
Proof.
  constructor.
  - split; intros; discriminate.
  - intros x H. discriminate.
  - intros c _. rewrite init_count. reflexivity.
  - intros b c. cbn. destruct (Nat.eqb_spec b 0) as [->|N].
    + rewrite <- in_rev, in_seq. lia.
    + cbn. lia.
  - intros c _. unfold brel. cbn [chunks init bucket_id num_dirty]. lia.
Qed.

(** One change of the counter followed by the bucket update keeps the relation. *)
Definition near (L : nat) (loose : bool) (ch : chunk) : Prop :=
  bucket_id ch <= 10 /\ (0 < bucket_id ch -> threshold L (bucket_id ch - 1) <= num_dirty ch) /\
  num_dirty ch <= L /\
  num_dirty ch <= S (if loose then threshold L (if bucket_id ch =? 10 then 10 else bucket_id ch + 1) else threshold L (bucket_id ch)).

Lemma update_bucket_inv loose n L C a c : 10 <= L -> c < C ->
  good_map n L C (where_ a) -> (forall x, dirty a x = true -> x < n /\ where_ a x <> None) ->
  (forall c, c < C -> num_dirty (chunks a c) = count_dirty n c a) ->
  (forall b c, In c (buckets a b) <-> (c < C /\ bucket_id (chunks a c) = b)) ->
  (forall c', c' < C -> c' <> c -> brel loose L (chunks a c')) ->
  near L loose (chunks a c) ->
  exists a', update_bucket L c a = Some a' /\ inv loose n L C a'.
Proof.
  intros HL Hc M D N B R (B1 & B2 & B3 & B4). unfold update_bucket.
  set (b := bucket_id (chunks a c)) in *. set (nd := num_dirty (chunks a c)) in *.
  assert (T10 : threshold L 10 = L) by apply thr10.
  assert (TL : forall b, b < 10 -> threshold L b < threshold L (b + 1)) by (intros; apply thr_lt; assumption).
  assert (T0 : threshold L 0 = 0) by apply thr0.
  assert (Cnt : forall f, (forall c', c' < C -> num_dirty (f c') = num_dirty (chunks a c')) -> forall g,
     forall c', c' < C -> num_dirty (chunks {| chunks := f; buckets := g; dirty := dirty a; where_ := where_ a |} c') =
     count_dirty n c' {| chunks := f; buckets := g; dirty := dirty a; where_ := where_ a |}).
  { intros f Hf g c' Hc'. cbn [chunks]. rewrite Hf, N by assumption. reflexivity. }
  destruct (Nat.ltb_spec (threshold L b) nd) as [Hgt|Hle].
  - destruct (Nat.eqb_spec b (ACP_MAX_BUCKETS - 1)) as [E|NE].
    { exfalso. change (ACP_MAX_BUCKETS - 1) with 10 in E. rewrite E in Hgt. lia. }
    change (ACP_MAX_BUCKETS - 1) with 10 in NE.
    eexists. split; [reflexivity|]. constructor.
    + exact M.
    + exact D.
    + apply Cnt. intros c' _. unfold upd. destruct (Nat.eqb_spec c' c) as [->|]; reflexivity.
    + intros b' c'. cbn [buckets chunks]. rewrite in_move_tail, B. unfold upd.
      destruct (Nat.eqb_spec c' c) as [->|]; cbn [bucket_id]; [|tauto]. split; [|intros (_ & <-); left; auto].
      intros [(_ & ->)|(_ & ?)]; [split; [assumption | reflexivity] | congruence].
    + intros c' Hc'. cbn [chunks]. unfold upd. destruct (Nat.eqb_spec c' c) as [->|Nc]; [|apply R; assumption].
      unfold brel. cbn [bucket_id num_dirty]. replace (b + 1 - 1) with b by lia.
      split; [lia|]. split; [intros; assumption|].
      pose proof (TL b ltac:(lia)).
      destruct loose.
      * destruct (Nat.eqb_spec b 10) as [?|?]; [lia|]. destruct (Nat.eqb_spec (b + 1) 10) as [E|?].
        { lia. } pose proof (TL (b + 1) ltac:(lia)). lia.
      * lia.
  - destruct (Nat.eqb_spec b 0) as [E|NE]; cbn [negb andb].
    + exists a. split; [reflexivity|]. constructor; try assumption.
      intros c' Hc'. destruct (Nat.eq_dec c' c) as [->|Nc]; [|apply R; assumption].
      unfold brel. fold b nd. split; [lia|]. split; [lia|]. destruct loose; [|exact Hle].
      destruct (Nat.eqb_spec b 10); [lia|]. pose proof (TL b ltac:(lia)). lia.
    + destruct (Nat.leb_spec nd (threshold L (b - 1))) as [Hl2|Hg2].
      * eexists. split; [reflexivity|]. constructor.
        -- exact M.
        -- exact D.
        -- apply Cnt. intros c' _. unfold upd. destruct (Nat.eqb_spec c' c) as [->|]; reflexivity.
        -- intros b' c'. cbn [buckets chunks]. rewrite in_move_head, B. unfold upd.
           destruct (Nat.eqb_spec c' c) as [->|]; cbn [bucket_id]; [|tauto]. split; [|intros (_ & <-); left; auto].
           intros [(_ & ->)|(_ & ?)]; [split; [assumption | reflexivity] | congruence].
        -- intros c' Hc'. cbn [chunks]. unfold upd. destruct (Nat.eqb_spec c' c) as [->|Nc]; [|apply R; assumption].
           unfold brel. cbn [bucket_id num_dirty]. specialize (B2 ltac:(lia)).
           split; [lia|]. split.
           ++ intros Hp. pose proof (TL (b - 1 - 1) ltac:(lia)) as T. replace (b - 1 - 1 + 1) with (b - 1) in T by lia. lia.
           ++ destruct loose; [|lia]. destruct (Nat.eqb_spec (b - 1) 10); [lia|]. pose proof (TL (b - 1) ltac:(lia)). lia.
      * exists a. split; [reflexivity|]. constructor; try assumption.
        intros c' Hc'. destruct (Nat.eq_dec c' c) as [->|Nc]; [|apply R; assumption].
        unfold brel. fold b nd. split; [assumption|]. split; [intros; assumption|].
        destruct loose; [|exact Hle]. destruct (Nat.eqb_spec b 10) as [E|?].
        -- rewrite E in Hle. exact Hle.
        -- pose proof (TL b ltac:(lia)). lia.
Qed.

Lemma brel_near loose L ch : brel loose L ch -> near L loose ch.
Proof.
  intros (A & B & D). split; [assumption|]. split; [intros; apply Nat.lt_le_incl; auto|].
  split; [|lia]. destruct loose.
  - destruct (Nat.eqb_spec (bucket_id ch) 10); [|]; (eapply Nat.le_trans; [exact D|]; apply thr_le10; lia).
  - eapply Nat.le_trans; [exact D|]. apply thr_le10; lia.
Qed.

Lemma count_flag n a x c o v : x < n -> where_ a x = Some (c, o) -> forall c',
  count_dirty n c' (set_flag x v a) =
  if c' =? c then (if v then (if dirty a x then count_dirty n c a else count_dirty n c a + 1)
                   else (if dirty a x then count_dirty n c a - 1 else count_dirty n c a))
  else count_dirty n c' a.
Proof.
  intros Hx W c'. unfold count_dirty, set_flag. cbn [dirty].
  assert (IC : forall c y, in_chunk {| chunks := chunks a; buckets := buckets a; dirty := upd (dirty a) x v; where_ := where_ a |} c y = in_chunk a c y) by reflexivity.
  destruct (Nat.eqb_spec c' c) as [->|N].
  - destruct v; destruct (dirty a x) eqn:E.
    + apply filter_len_ext. intros y _. rewrite IC. unfold upd. destruct (Nat.eqb_spec y x) as [->|]; [rewrite E|]; reflexivity.
    + apply (filter_len_add _ _ _ x); [apply seq_NoDup | apply in_seq; lia | rewrite E; reflexivity | |].
      * rewrite IC. unfold upd, in_chunk. rewrite Nat.eqb_refl, W, Nat.eqb_refl. reflexivity.
      * intros y Ny. rewrite IC. unfold upd. destruct (Nat.eqb_spec y x); [contradiction|reflexivity].
    + rewrite (filter_len_add (fun y => upd (dirty a) x false y && in_chunk a c y) (fun y => dirty a y && in_chunk a c y) (seq 0 n) x).
      * rewrite Nat.add_sub. reflexivity.
      * apply seq_NoDup.
      * apply in_seq; lia.
      * unfold upd. rewrite Nat.eqb_refl. reflexivity.
      * rewrite E. unfold in_chunk. rewrite W, Nat.eqb_refl. reflexivity.
      * intros y Ny. unfold upd. destruct (Nat.eqb_spec y x); [contradiction|reflexivity].
    + apply filter_len_ext. intros y _. rewrite IC. unfold upd. destruct (Nat.eqb_spec y x) as [->|]; [rewrite E|]; reflexivity.
  - apply filter_len_ext. intros y _. rewrite IC. unfold upd. destruct (Nat.eqb_spec y x) as [->|]; [|reflexivity].
    unfold in_chunk. rewrite W. destruct (Nat.eqb_spec c c'); [congruence|]. rewrite !andb_false_r. reflexivity.
Qed.

Lemma count_where n c' a x v : dirty a x = false -> count_dirty n c' (set_where x v a) = count_dirty n c' a.
Proof.
  intros D. unfold count_dirty. apply filter_len_ext. intros y _. cbn [dirty set_where]. unfold in_chunk. cbn [where_ set_where].
  unfold upd. destruct (Nat.eqb_spec y x) as [->|]; [rewrite D|]; reflexivity.
Qed.
Lemma M16_eq : M16 = 256 * 256. Proof. reflexivity. Qed.
Opaque M16.

Lemma hot_inv loose n L C a x : 10 <= L < M16 -> x < n -> inv loose n L C a ->
  exists a', set_hot L x a = Some a' /\ inv loose n L C a'.
Proof.
  intros HL Hx I. pose proof I as [M D N B R]. unfold set_hot. destruct (where_ a x) as [[c o]|] eqn:W; [|eauto].
  destruct (proj1 M _ _ _ W) as (_ & Hc & _).
  destruct (dirty a x) eqn:E.
  - apply update_bucket_inv; auto; [lia|]. apply brel_near. auto.
  - assert (CL : count_dirty n c (set_flag x true a) <= L) by (apply (count_le n L C); exact M).
    pose proof (count_flag n a x c o true Hx W) as CF. cbn [andb] in CF. rewrite E in CF.
    assert (E1 : (num_dirty (chunks a c) + 1) mod M16 = num_dirty (chunks a c) + 1).
    { apply Nat.mod_small. rewrite N by assumption. rewrite CF, Nat.eqb_refl in CL. lia. }
    apply update_bucket_inv; [lia | exact Hc | exact M | | | | |].
    + intros y. cbn [dirty set_num set_flag where_]. unfold upd. destruct (Nat.eqb_spec y x) as [->|]; [|apply D].
      intros _. split; [assumption|]. congruence.
    + intros c' Hc'. cbn [chunks set_num set_flag].
      change (count_dirty n c' (set_num c _ (set_flag x true a))) with (count_dirty n c' (set_flag x true a)).
      rewrite CF. unfold upd. destruct (Nat.eqb_spec c' c) as [->|]; cbn [num_dirty].
      * rewrite E1, N by assumption. reflexivity.
      * apply N. assumption.
    + intros b c'. cbn [buckets chunks set_num set_flag]. rewrite B. unfold upd. destruct (Nat.eqb_spec c' c) as [->|]; reflexivity.
    + intros c' Hc' Nc. cbn [chunks set_num set_flag]. unfold upd. destruct (Nat.eqb_spec c' c); [contradiction|]. auto.
    + cbn [chunks set_num set_flag]. unfold upd. rewrite Nat.eqb_refl. unfold near. cbn [bucket_id num_dirty].
      rewrite E1. destruct (R c Hc) as (R1 & R2 & R3). rewrite CF, Nat.eqb_refl in CL. rewrite <- N in CL by assumption.
      split; [assumption|]. split; [intros H; specialize (R2 H); lia|]. split; [assumption|]. lia.
Qed.

Lemma purge_inv loose n L C a x : 10 <= L < M16 -> x < n -> inv loose n L C a ->
  exists a', purge_block L x a = Some a' /\ inv loose n L C a'.
Proof.
  intros HL Hx I. pose proof I as [M D N B R]. unfold purge_block. destruct (where_ a x) as [[c o]|] eqn:W; [|eauto].
  destruct (proj1 M _ _ _ W) as (_ & Hc & _).
  destruct (dirty a x) eqn:E.
  - pose proof (count_flag n a x c o false Hx W) as CF. cbn [andb] in CF. rewrite E in CF.
    assert (P : 0 < count_dirty n c a) by (apply count_pos; exists x, o; auto).
    assert (CL : count_dirty n c a <= L) by (apply (count_le n L C); exact M).
    assert (E1 : (num_dirty (chunks a c) + (M16 - 1)) mod M16 = num_dirty (chunks a c) - 1).
    { rewrite N by assumption. replace (count_dirty n c a + (M16 - 1)) with (count_dirty n c a - 1 + 1 * M16) by lia.
      rewrite Nat.mod_add by lia. apply Nat.mod_small. lia. }
    apply update_bucket_inv; [lia | exact Hc | exact M | | | | |].
    + intros y. cbn [dirty set_num set_flag where_]. unfold upd. destruct (Nat.eqb_spec y x) as [->|]; [discriminate|apply D].
    + intros c' Hc'. cbn [chunks set_num set_flag].
      change (count_dirty n c' (set_num c _ (set_flag x false a))) with (count_dirty n c' (set_flag x false a)).
      rewrite CF. unfold upd. destruct (Nat.eqb_spec c' c) as [->|]; cbn [num_dirty].
      * rewrite E1, N by assumption. reflexivity.
      * apply N. assumption.
    + intros b c'. cbn [buckets chunks set_num set_flag]. rewrite B. unfold upd. destruct (Nat.eqb_spec c' c) as [->|]; reflexivity.
    + intros c' Hc' Nc. cbn [chunks set_num set_flag]. unfold upd. destruct (Nat.eqb_spec c' c); [contradiction|]. auto.
    + cbn [chunks set_num set_flag]. unfold upd. rewrite Nat.eqb_refl. unfold near. cbn [bucket_id num_dirty].
      rewrite E1. destruct (R c Hc) as (R1 & R2 & R3). rewrite <- N in CL by assumption. rewrite <- N in P by assumption.
      split; [assumption|]. split; [intros H; specialize (R2 H); lia|]. split; [lia|]. lia.
  - apply update_bucket_inv; auto; [lia|]. apply brel_near. auto.
Qed.

Lemma mapped_at_false n a c o L C : good_map n L C (where_ a) -> mapped_at n a c o = false ->
  forall x, where_ a x <> Some (c, o).
Proof.
  intros (G1 & _) H x W. unfold mapped_at in H.
  assert (T : existsb (fun x => match where_ a x with Some (c', o') => (c' =? c) && (o' =? o) | None => false end) (seq 0 n) = true).
  { apply existsb_exists. exists x. split; [apply in_seq; destruct (G1 _ _ _ W); lia|]. rewrite W, !Nat.eqb_refl. reflexivity. }
  congruence.
Qed.

Lemma step_inv loose n L C e a : 10 <= L < M16 -> inv loose n L C a -> exists a', step n L C e a = Some a' /\ inv loose n L C a'.
Proof.
  intros HL I. pose proof I as [M D N B R]. destruct e as [x c o|x|x|x|c now bo]; cbn [step].
  - destruct (_ && _) eqn:E; [|eauto]. rewrite !andb_true_iff, !negb_true_iff, !Nat.ltb_lt in E.
    destruct E as ((((Hx & Hc) & Ho) & Dx) & MA). eexists. split; [reflexivity|]. constructor.
    + split.
      * intros y c' o'. cbn [where_ set_where]. unfold upd. destruct (Nat.eqb_spec y x) as [->|]; [|apply (proj1 M)].
        intros H. injection H as <- <-. auto.
      * intros y z p. cbn [where_ set_where]. unfold upd. pose proof (mapped_at_false n a c o L C M MA) as NM.
        destruct (Nat.eqb_spec y x) as [->|]; destruct (Nat.eqb_spec z x) as [->|]; intros H1 H2; auto.
        -- injection H1 as <-. destruct (NM z H2).
        -- injection H2 as <-. destruct (NM y H1).
        -- eapply (proj2 M); eassumption.
    + intros y Dy. cbn [dirty set_where] in Dy. cbn [where_ set_where]. unfold upd. destruct (Nat.eqb_spec y x) as [->|]; [congruence|auto].
    + intros c' Hc'. rewrite count_where by assumption. apply N. assumption.
    + exact B.
    + exact R.
  - destruct (dirty a x) eqn:Dx; [eauto|]. eexists. split; [reflexivity|]. constructor.
    + split.
      * intros y c' o'. cbn [where_ set_where]. unfold upd. destruct (Nat.eqb_spec y x) as [->|]; [discriminate|apply (proj1 M)].
      * intros y z p. cbn [where_ set_where]. unfold upd.
        destruct (Nat.eqb_spec y x) as [->|]; destruct (Nat.eqb_spec z x) as [->|]; intros H1 H2; try discriminate.
        eapply (proj2 M); eassumption.
    + intros y Dy. cbn [dirty set_where] in Dy. cbn [where_ set_where]. unfold upd. destruct (Nat.eqb_spec y x) as [->|]; [congruence|auto].
    + intros c' Hc'. rewrite count_where by assumption. apply N. assumption.
    + exact B.
    + exact R.
  - destruct (Nat.ltb_spec x n); [|eauto]. apply hot_inv; assumption.
  - destruct (Nat.ltb_spec x n); [|eauto]. apply purge_inv; assumption.
  - destruct (Nat.ltb_spec c C); [|eauto]. eexists. split; [reflexivity|]. constructor.
    + exact M.
    + exact D.
    + intros c' Hc'. cbn [chunks handle_flush_error]. change (count_dirty n c' (handle_flush_error c now bo a)) with (count_dirty n c' a).
      unfold upd. destruct (Nat.eqb_spec c' c) as [->|]; cbn [num_dirty]; auto.
    + intros b c'. cbn [buckets chunks handle_flush_error]. rewrite B. unfold upd. destruct (Nat.eqb_spec c' c) as [->|]; reflexivity.
    + intros c' Hc'. cbn [chunks handle_flush_error]. unfold upd. destruct (Nat.eqb_spec c' c) as [->|]; [|auto].
      specialize (R c Hc'). exact R.
Qed.

Lemma run_inv loose n L C es : 10 <= L < M16 -> forall a, inv loose n L C a -> exists a', run n L C es a = Some a' /\ inv loose n L C a'.
Proof.
  intros HL. induction es as [|e es IH]; intros a I; cbn [run]; [eauto|].
  destruct (step_inv loose n L C e a HL I) as (a' & -> & I'). auto.
Qed.

(** *** Populating *)
Lemma populate_bucket_spec L nd k : forall b, b + k = 12 -> 1 <= b <= 11 ->
  (1 < b -> threshold L (b - 1) <= nd) ->
  let r := populate_bucket k L nd b in r <= 10 /\ (0 < r -> threshold L r <= nd) /\ (r < 10 -> nd < threshold L (r + 1)).
Proof.
  induction k as [|k IH]; intros b E Hb H; [lia|].
  cbn [populate_bucket]. change ACP_MAX_BUCKETS with 11. destruct (Nat.ltb_spec b 11) as [Hlt|Hge].
  - destruct (Nat.ltb_spec nd (threshold L b)) as [H1|H1].
    + cbn zeta. split; [lia|]. split; [intros; apply H; lia|]. intros _. replace (b - 1 + 1) with b by lia. assumption.
    + apply IH; [lia | lia |]. intros _. replace (b + 1 - 1) with b by lia. assumption.
  - cbn zeta. assert (b = 11) by lia. subst b. split; [lia|]. split; [intros; apply H; lia|]. lia.
Qed.

(** Facts kept while the chunks are populated one after the other *)
Record pinv (n L C k : nat) (w : nat -> option (nat * nat)) (d : nat -> bool) (a : acp) : Prop := {
  p_where : where_ a = w; p_flag : dirty a = d;
  p_list : forall b c, In c (buckets a b) <-> (c < C /\ bucket_id (chunks a c) = b);
  p_stamp : forall c, stamp (chunks a c) = 0;
  p_done : forall c, c < k -> num_dirty (chunks a c) = count_dirty n c a /\
     bucket_id (chunks a c) <= 10 /\ (0 < bucket_id (chunks a c) -> threshold L (bucket_id (chunks a c)) <= num_dirty (chunks a c)) /\
     (bucket_id (chunks a c) < 10 -> num_dirty (chunks a c) < threshold L (bucket_id (chunks a c) + 1)) }.

Lemma populate_fold n L C w d : 10 <= L < M16 -> good_map n L C w -> forall m k a, k + m = C -> pinv n L C k w d a ->
  pinv n L C C w d (fold_left (populate_chunk n L) (seq k m) a).
Proof.
  intros HL G. induction m as [|m IH]; intros k a E P; cbn [seq fold_left].
  - assert (X : k = C) by lia. rewrite X in P. assumption.
  - apply IH; [lia|]. destruct P as [P1 P2 P3 P4 P5]. constructor.
    + exact P1.
    + exact P2.
    + intros b c. cbn [buckets chunks populate_chunk]. rewrite in_move_tail, P3. unfold upd.
      destruct (Nat.eqb_spec c k) as [->|]; cbn [bucket_id]; [|tauto].
      split; [intros [(_ & ->)|(_ & ?)]; [split; [lia|reflexivity]|congruence] | intros (_ & <-); left; auto].
    + intros c. cbn [chunks populate_chunk]. unfold upd. destruct (Nat.eqb_spec c k) as [->|]; cbn [stamp]; auto.
    + intros c Hc. change (count_dirty n c (populate_chunk n L a k)) with (count_dirty n c a).
      cbn [chunks populate_chunk]. unfold upd. destruct (Nat.eqb_spec c k) as [->|Nk].
      * cbn [num_dirty bucket_id].
        assert (CL : count_dirty n k a <= L) by (apply (count_le n L C); rewrite P1; exact G).
        rewrite Nat.mod_small by lia. split; [reflexivity|].
        apply (populate_bucket_spec L (count_dirty n k a) ACP_MAX_BUCKETS 1); [reflexivity | lia | lia].
      * apply P5. lia.
Qed.

Lemma populate_pinv n L C d w : 10 <= L < M16 -> good_map n L C w ->
  pinv n L C C w (fun x => (x <? n) && d x && match w x with Some _ => true | None => false end) (populate n L C d w).
Proof.
  intros HL G. unfold populate. apply (populate_fold n L C w); auto. constructor; try reflexivity.
  - apply (i_list false n L C (init C)). apply inv_init.
  - intros c Hc. lia.
Qed.

Lemma inv_populate n L C d w : 10 <= L < M16 -> good_map n L C w -> inv true n L C (populate n L C d w).
Proof.
  intros HL G. destruct (populate_pinv n L C d w HL G) as [P1 P2 P3 P4 P5]. constructor.
  - rewrite P1. exact G.
  - intros x Dx. rewrite P2 in Dx. rewrite P1. cbn beta in Dx. apply andb_true_iff in Dx. destruct Dx as (Dx & Wx). apply andb_true_iff in Dx. destruct Dx as (Dx & _).
    apply Nat.ltb_lt in Dx. split; [assumption|]. destruct (w x); congruence.
  - intros c Hc. apply P5. assumption.
  - exact P3.
  - intros c Hc. destruct (P5 c Hc) as (E & B1 & B2 & B3). unfold brel. split; [assumption|]. split.
    + intros H. specialize (B2 H). pose proof (thr_lt L (bucket_id (chunks (populate n L C d w) c) - 1) ltac:(lia) ltac:(lia)) as T.
      replace (bucket_id (chunks (populate n L C d w) c) - 1 + 1) with (bucket_id (chunks (populate n L C d w) c)) in T by lia. lia.
    + destruct (Nat.eqb_spec (bucket_id (chunks (populate n L C d w) c)) 10).
      * rewrite thr10, E. apply (count_le n L C). rewrite P1. exact G.
      * assert (bucket_id (chunks (populate n L C d w) c) < 10) by lia. specialize (B3 H). lia.
Qed.

Lemma inv_weaken n L C a : 10 <= L -> inv false n L C a -> inv true n L C a.
Proof.
  intros HL [M D N B R]. constructor; auto. intros c Hc. destruct (R c Hc) as (R1 & R2 & R3). split; [assumption|]. split; [assumption|].
  destruct (Nat.eqb_spec (bucket_id (chunks a c)) 10) as [E|]; [rewrite E in R3; assumption|].
  pose proof (thr_lt L (bucket_id (chunks a c)) HL ltac:(lia)). lia.
Qed.

Lemma start_inv n L C a : 10 <= L < M16 -> start n L C a -> inv true n L C a.
Proof. intros HL [|d w G]; [apply inv_weaken; [lia|]; apply inv_init | apply inv_populate; assumption]. Qed.

(** ** Theorems *)

(** In every history, with errors and after loading, the ENV_BUG_ON is not reached, the counter
    of every chunk is the number of its dirty cache lines, and every chunk is in exactly the list
    of its bucket. *)
Theorem C30_counters_partial n L C a0 es : 10 <= L < M16 -> start n L C a0 ->
  exists a, run n L C es a0 = Some a /\
  (forall c, c < C -> num_dirty (chunks a c) = count_dirty n c a) /\
  (forall b c, In c (buckets a b) <-> (c < C /\ bucket_id (chunks a c) = b)).
Proof.
  intros HL S. destruct (run_inv true n L C es HL a0 (start_inv n L C a0 HL S)) as (a & E & I).
  exists a. split; [assumption|]. split; apply I.
Qed.

Lemma update_bucket_stamp L c a a' : update_bucket L c a = Some a' -> forall c', stamp (chunks a' c') = stamp (chunks a c').
Proof.
  unfold update_bucket. intros H c'. repeat (match goal with H : context [if ?b then _ else _] |- _ => destruct b end); try discriminate;
    injection H as <-; cbn [chunks]; unfold upd; try (destruct (Nat.eqb_spec c' c) as [->|]); reflexivity.
Qed.
Lemma step_stamp n L C e a a' : no_error e = true -> step n L C e a = Some a' -> forall c, stamp (chunks a' c) = stamp (chunks a c).
Proof.
  intros NE H c. destruct e as [x k o|x|x|x|k now bo]; cbn [step] in H; try discriminate.
  - destruct (_ && _); injection H as <-; reflexivity.
  - destruct (dirty a x); injection H as <-; reflexivity.
  - destruct (x <? n); [|injection H as <-; reflexivity]. unfold set_hot in H.
    destruct (where_ a x) as [[k o]|]; [|injection H as <-; reflexivity].
    rewrite (update_bucket_stamp _ _ _ _ H c). destruct (dirty a x); [reflexivity|].
    cbn [chunks set_num set_flag]. unfold upd. destruct (Nat.eqb_spec c k) as [->|]; reflexivity.
  - destruct (x <? n); [|injection H as <-; reflexivity]. unfold purge_block in H.
    destruct (where_ a x) as [[k o]|]; [|injection H as <-; reflexivity].
    rewrite (update_bucket_stamp _ _ _ _ H c). destruct (dirty a x); [|reflexivity].
    cbn [chunks set_num set_flag]. unfold upd. destruct (Nat.eqb_spec c k) as [->|]; reflexivity.
Qed.
Lemma run_stamp n L C es : forallb no_error es = true -> forall a a', run n L C es a = Some a' -> forall c, stamp (chunks a' c) = stamp (chunks a c).
Proof.
  induction es as [|e es IH]; intros NE a a' H c; cbn [run] in H; [injection H as <-; reflexivity|].
  cbn [forallb] in NE. apply andb_true_iff in NE. destruct NE as (N1 & N2).
  destruct (step n L C e a) as [a1|] eqn:E; [|discriminate]. rewrite (IH N2 _ _ H c). eapply step_stamp; eassumption.
Qed.

Lemma candidate_some now i a : (exists b c, 1 <= b <= i /\ In c (buckets a b) /\ can_clean_chunk now (chunks a c) = true) ->
  candidate_loop now i a <> None.
Proof.
  induction i as [|i IH]; intros (b & c & Hb & I & K); [lia|]. cbn [candidate_loop].
  destruct (find _ (buckets a (S i))) as [c'|] eqn:E; [discriminate|].
  apply IH. destruct (Nat.eq_dec b (S i)) as [->|]; [|exists b, c; split; [lia|]; auto].
  pose proof (find_none _ _ E c I) as F. cbn beta in F. congruence.
Qed.
Lemma candidate_best now a : forall i c, candidate_loop now i a = Some c -> exists b, 1 <= b <= i /\ In c (buckets a b) /\
  can_clean_chunk now (chunks a c) = true /\
  (forall b' c', b < b' <= i -> In c' (buckets a b') -> can_clean_chunk now (chunks a c') = false).
Proof.
  induction i as [|i IH]; intros c H; cbn [candidate_loop] in H; [discriminate|].
  destruct (find _ (buckets a (S i))) as [c'|] eqn:E.
  - injection H as ->. apply find_some in E. destruct E as (E1 & E2). exists (S i).
    split; [lia|]. split; [assumption|]. split; [assumption|]. intros; lia.
  - destruct (IH c H) as (b & Hb & I & K & F). exists b. split; [lia|]. split; [assumption|]. split; [assumption|].
    intros b' c' Hb' I'. destruct (Nat.eq_dec b' (S i)) as [->|]; [|apply (F b' c'); [lia|assumption]].
    apply (find_none _ _ E c' I').
Qed.

(** Without cleaning errors, and when the policy started on a clean cache: every dirty chunk is
    eligible at every time, clean chunks never are, and a candidate is found exactly while a chunk
    is dirty.  Missing from C30: histories with cleaning errors and histories that start by
    populating from metadata, for which the claim is refuted below. *)
Theorem C30_eligible_partial n L C es a : 10 <= L < M16 -> forallb no_error es = true -> run n L C es (init C) = Some a ->
  (forall now c, is_dirty n a c <-> eligible now a c) /\
  (forall now, get_cleaning_candidate now a <> None <-> exists c, is_dirty n a c).
Proof.
  intros HL NE H. destruct (run_inv false n L C es HL (init C) (inv_init n L C)) as (a' & E & I).
  assert (a' = a) by congruence. subst a'. pose proof I as [M D N B R].
  assert (ST : forall c, stamp (chunks a c) = 0) by (intros c; apply (run_stamp n L C es NE _ _ H c)).
  assert (CC : forall now c, can_clean_chunk now (chunks a c) = true).
  { intros now c. unfold can_clean_chunk. rewrite ST. apply orb_true_r. }
  assert (P : forall now c, is_dirty n a c <-> eligible now a c).
  { intros now c. split.
    - intros Dc. pose proof Dc as (x & o & Hx & Dx & W). destruct (proj1 M _ _ _ W) as (_ & Hc & _).
      exists (bucket_id (chunks a c)). destruct (R c Hc) as (R1 & R2 & R3).
      pose proof (count_pos n a c Dc) as CP. rewrite <- N in CP by assumption.
      split; [|split; [apply B; auto | apply CC]]. split; [|assumption].
      destruct (Nat.eq_dec (bucket_id (chunks a c)) 0) as [E0|]; [|lia]. rewrite E0, thr0 in R3. lia.
    - intros (b & Hb & Ib & _). apply B in Ib. destruct Ib as (Hc & Eb). destruct (R c Hc) as (R1 & R2 & R3).
      specialize (R2 ltac:(lia)). rewrite N in R2 by assumption. unfold count_dirty in R2.
      destruct (filter _ _) as [|x l] eqn:F; [cbn [length] in R2; lia|].
      assert (Ix : In x (filter (fun x => dirty a x && in_chunk a c x) (seq 0 n))) by (rewrite F; left; reflexivity).
      apply filter_In in Ix. destruct Ix as (Ix & Fx). apply in_seq in Ix. apply andb_true_iff in Fx. destruct Fx as (F1 & F2).
      unfold in_chunk in F2. destruct (where_ a x) as [[c' o]|] eqn:W; [|discriminate]. apply Nat.eqb_eq in F2. subst c'.
      exists x, o. split; [lia|]. auto. }
  split; [exact P|]. intros now. split.
  - destruct (get_cleaning_candidate now a) as [c|] eqn:G; [|congruence]. intros _. exists c.
    apply (P now). destruct (candidate_best now a _ _ G) as (b & Hb & Ib & K & _). exists b. auto.
  - intros (c & Dc). apply candidate_some. apply (P now) in Dc. destruct Dc as (b & Hb & Ib & K). exists b, c. auto.
Qed.

(** The candidate is always an eligible chunk of the highest bucket that has one. *)
Theorem C30_candidate_partial now a c : get_cleaning_candidate now a = Some c ->
  exists b, 1 <= b <= 10 /\ In c (buckets a b) /\ can_clean_chunk now (chunks a c) = true /\
  (forall b' c', b < b' <= 10 -> In c' (buckets a b') -> can_clean_chunk now (chunks a c') = false).
Proof. apply candidate_best. Qed.

(** Finding: after a cleaning error at time [now] a chunk is eligible only during the backoff
    period.  From its end on the chunk is not eligible, whatever lines are dirtied or cleaned, for
    as long as no further error hits it. *)
Theorem C30_error_never_again n L C a a' es c now backoff later :
  c < C -> 0 < backoff -> forallb no_error es = true ->
  run n L C (Error c now backoff :: es) a = Some a' -> now + backoff <= later ->
  ~ eligible later a' c /\ get_cleaning_candidate later a' <> Some c.
Proof.
  intros Hc Hb NE H Hl. cbn [run step] in H. destruct (Nat.ltb_spec c C) as [_|]; [|lia].
  pose proof (run_stamp n L C es NE _ _ H c) as ST. cbn [chunks handle_flush_error] in ST.
  unfold upd in ST. rewrite Nat.eqb_refl in ST. cbn [stamp] in ST.
  assert (K : can_clean_chunk later (chunks a' c) = false).
  { unfold can_clean_chunk. rewrite ST. apply orb_false_iff. split; [apply Nat.ltb_ge; lia | apply Nat.eqb_neq; lia]. }
  split.
  - intros (b & _ & _ & E). congruence.
  - intros G. apply C30_candidate_partial in G. destruct G as (b & _ & _ & E & _). congruence.
Qed.

(** Finding: populating puts a dirty chunk with fewer dirty lines than a tenth of its lines into
    bucket 0, where it is not eligible. *)
Theorem C30_populate_ineligible n L C d w c now : 10 <= L < M16 -> good_map n L C w -> c < C ->
  (eligible now (populate n L C d w) c <-> threshold L 1 <= count_dirty n c (populate n L C d w)).
Proof.
  intros HL G Hc. destruct (populate_pinv n L C d w HL G) as [P1 P2 P3 P4 P5].
  set (a := populate n L C d w) in *. destruct (P5 c Hc) as (E & B1 & B2 & B3). split.
  - intros (b & Hb & Ib & _). apply P3 in Ib. destruct Ib as (_ & Eb). rewrite E in *.
    assert (B : 0 < bucket_id (chunks a c)) by lia. specialize (B2 B).
    enough (threshold L 1 <= threshold L (bucket_id (chunks a c))) by lia.
    clear -HL B1 B. unfold threshold. rewrite !percent_le by lia. apply Nat.div_le_mono; nia.
  - intros H. exists (bucket_id (chunks a c)). split; [|split; [apply P3; auto | unfold can_clean_chunk; rewrite P4; apply orb_true_r]].
    split; [|assumption]. destruct (Nat.eq_dec (bucket_id (chunks a c)) 0) as [E0|]; [|lia].
    rewrite E0 in B3. specialize (B3 ltac:(lia)). cbn [Nat.add] in B3. rewrite E in B3. lia.
Qed.

(** The claim is refuted: by the error path, from a clean start ... *)
Theorem C30_error_refuted : exists n L C es a c now,
  10 <= L < M16 /\ run n L C es (init C) = Some a /\ is_dirty n a c /\ forall later, now <= later -> ~ eligible later a c.
Proof.
  exists 1, 1600, 1, [Map 0 0 0; Hot 0; Error 0 7 5].
  destruct (run_inv false 1 1600 1 [Map 0 0 0; Hot 0] ltac:(rewrite M16_eq; lia) (init 1) (inv_init 1 1600 1)) as (a & E & I).
  exists (handle_flush_error 0 7 5 a), 0, 12.
  split; [rewrite M16_eq; lia|]. assert (R : run 1 1600 1 [Map 0 0 0; Hot 0; Error 0 7 5] (init 1) = Some (handle_flush_error 0 7 5 a)).
  { change [Map 0 0 0; Hot 0; Error 0 7 5] with ([Map 0 0 0; Hot 0] ++ [Error 0 7 5]).
    assert (App : forall es es' x, run 1 1600 1 (es ++ es') x = match run 1 1600 1 es x with Some y => run 1 1600 1 es' y | None => None end).
    { induction es as [|e es IH]; intros es' x; [reflexivity|]. cbn [run app]. destruct (step 1 1600 1 e x); [apply IH|reflexivity]. }
    rewrite App, E. reflexivity. }
  split; [exact R|]. split.
  - exists 0, 0. split; [lia|]. clear R I. cbn [handle_flush_error dirty where_].
    assert (X : option_map (fun a => (dirty a 0, where_ a 0)) (run 1 1600 1 [Map 0 0 0; Hot 0] (init 1)) = Some (true, Some (0, 0))) by (vm_compute; reflexivity).
    rewrite E in X. cbn [option_map] in X. injection X as -> ->. auto.
  - intros later Hl. apply (C30_error_never_again 1 1600 1 a (handle_flush_error 0 7 5 a) [] 0 7 5 later); auto; lia.
Qed.

(** ... and, without any error, by populating. *)
Theorem C30_populate_refuted : exists n L C d w c,
  10 <= L < M16 /\ good_map n L C w /\ is_dirty n (populate n L C d w) c /\ forall later, ~ eligible later (populate n L C d w) c.
Proof.
  assert (HL : 10 <= 1600 < M16) by (rewrite M16_eq; lia).
  pose (w := fun x : nat => if x =? 0 then Some (0, 0) else None).
  assert (G : good_map 1 1600 1 w).
  { split; unfold w.
    - intros x c o. destruct (Nat.eqb_spec x 0); [|discriminate]. intros H. injection H as <- <-. lia.
    - intros x y p. destruct (Nat.eqb_spec x 0); destruct (Nat.eqb_spec y 0); intros; try discriminate. congruence. }
  exists 1, 1600, 1, (fun _ => true), w, 0. split; [exact HL|]. split; [exact G|]. split.
  - exists 0, 0. split; [lia|]. vm_compute. auto.
  - intros later H. apply (C30_populate_ineligible 1 1600 1 _ w 0 later HL G) in H; [|lia].
    revert H. vm_compute. lia.
Qed.

Theorem C30_refuted : exists n L C, ~ claim n L C.
Proof.
  destruct C30_error_refuted as (n & L & C & es & a & c & now & _ & R & D & NE).
  exists n, L, C. intros H. destruct (H (init C) es a c now (start_empty n L C) R D) as (later & Hl & E). exact (NE later Hl E).
Qed.

(** The hypotheses are met: 8 lines become dirty in two chunks of 20 lines; the fuller chunk is
    in bucket 3 and is the candidate; after cleaning the other one is. *)
Definition ex_events : list event :=
  map (fun x => Map x 1 x) (seq 0 5) ++ map (fun x => Map x 0 x) (seq 5 3) ++ map Hot (seq 0 8).
Example ex_run : option_map (fun a => (get_cleaning_candidate 100 a, bucket_id (chunks a 1), bucket_id (chunks a 0), num_dirty (chunks a 1)))
  (run 8 20 2 ex_events (init 2)) = Some (Some 1, 3, 2, 5).
Proof. vm_compute. reflexivity. Qed.
Example ex_clean : option_map (get_cleaning_candidate 100) (run 8 20 2 (ex_events ++ map Purge (seq 0 5)) (init 2)) = Some (Some 0).
Proof. vm_compute. reflexivity. Qed.
Example ex_error : option_map (fun a => (get_cleaning_candidate 11 a, get_cleaning_candidate 15 a)) (run 8 20 2 (ex_events ++ map Purge (seq 0 5) ++ [Error 0 10 5]) (init 2)) = Some (Some 0, None).
Proof. vm_compute. reflexivity. Qed.

Print Assumptions C30_counters_partial.
Print Assumptions C30_eligible_partial.
Print Assumptions C30_candidate_partial.
Print Assumptions C30_error_never_again.
Print Assumptions C30_populate_ineligible.
Print Assumptions C30_refuted.
Print Assumptions C30_populate_refuted.

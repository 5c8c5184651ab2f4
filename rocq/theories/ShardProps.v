(** C20: the shards partition the entries. *)
From Coq Require Import NArith List Lia Permutation.
From Verif Require Import GenModel GenProps ShardModel.
Import ListNotations.
Open Scope N_scope.

(** Specification: shard [s] processes [f s]; among all [n] shards every entry below [e]
    is processed exactly once, and nothing else. *)
Definition partitions (e n : N) (f : N -> option (list N)) : Prop :=
  (forall s, s < n -> exists l, f s = Some l /\ NoDup l /\ forall c, In c l -> c < e) /\
  (forall c, c < e -> exists s l, s < n /\ f s = Some l /\ In c l) /\
  (forall s1 s2 l1 l2 c, s1 < n -> s2 < n -> f s1 = Some l1 -> f s2 = Some l2 -> In c l1 -> In c l2 -> s1 = s2).

Ltac splitp := split; [|split].

Lemma in_upto : forall k b c, In c (upto k b) <-> b <= c /\ c < b + N.of_nat k.
Proof.
  induction k as [|k IH]; intros b c; cbn [upto In].
  - lia.
  - rewrite IH. lia.
Qed.
Lemma nodup_upto : forall k b, NoDup (upto k b).
Proof. induction k as [|k IH]; intros b; cbn; constructor; auto. rewrite in_upto. lia. Qed.
Lemma in_range : forall b e c, In c (range b e) <-> b <= c /\ c < e.
Proof.
  intros b e c. unfold range. destruct (N.ltb_spec b e).
  - rewrite in_upto. lia.
  - cbn. lia.
Qed.
Lemma nodup_range : forall b e, NoDup (range b e).
Proof. intros. unfold range. destruct (b <? e); [apply nodup_upto|constructor]. Qed.

Lemma u32_id : forall x, x < 2^32 -> u32 x = x.
Proof. intros. unfold u32. now apply N.mod_small. Qed.

(** The portion. *)
Lemma portion_spec : forall e n, 0 < n -> e + n <= 2^32 ->
  let p := u32 (div_round_up64 e n) in e <= p * n /\ p * n < e + n /\ p <= e.
Proof.
  intros e n Hn He p. assert (E : p = (e + n - 1) / n).
  { unfold p, div_round_up64. rewrite (N.mod_small (e + n - 1)) by (assert (2^32 < 2^64) by reflexivity; lia).
    apply u32_id. assert ((e + n - 1) / n <= e + n - 1) by (apply N.div_le_upper_bound; [lia|]; rewrite <- (N.mul_1_l (e + n - 1)) at 1; apply N.mul_le_mono_r; lia). lia. }
  pose proof (N.div_mod (e + n - 1) n ltac:(lia)) as HD. pose proof (N.mod_lt (e + n - 1) n ltac:(lia)) as HM.
  rewrite <- E in HD. clearbody p. set (m := (e + n - 1) mod n) in *. clearbody m. assert (HD' : e + n = p * n + m + 1) by lia.
  split; [lia|]. split; [lia|]. destruct (N.le_gt_cases p e) as [H|H]; auto. exfalso.
  assert (e * n + n <= p * n) by nia. destruct (N.eq_dec e 0) as [->|]; [nia|]. nia.
Qed.

Lemma contig_partition : forall (e n : N) (f : N -> list N), 0 < n -> 0 < e -> e + n <= 2^32 ->
  (forall s, s < n -> NoDup (f s) /\ let p := u32 (div_round_up64 e n) in forall c, In c (f s) <-> p * s <= c /\ c < p * (s + 1) /\ c < e) ->
  partitions e n (fun s => Some (f s)).
Proof.
  intros e n f Hn He0 He HF. destruct (portion_spec e n Hn He) as (P1 & P2 & P3). set (p := u32 (div_round_up64 e n)) in *.
  cbv zeta in HF. clearbody p. assert (Hp : 0 < p) by nia. splitp.
  - intros s Hs. exists (f s). destruct (HF s Hs) as [HN HI]. split; [auto|split; [auto|]]. intros c Hc. apply HI in Hc. lia.
  - intros c Hc. pose proof (N.div_mod c p ltac:(lia)) as HD. pose proof (N.mod_lt c p ltac:(lia)) as HM.
    assert (Hs : c / p < n) by (apply N.div_lt_upper_bound; lia).
    exists (c / p), (f (c / p)). split; [auto|split; [auto|]]. apply (HF _ Hs). rewrite N.mul_add_distr_l, N.mul_1_r. set (q := c / p) in *. set (m := c mod p) in *. clearbody q m. lia.
  - intros s1 s2 l1 l2 c H1 H2 E1 E2 I1 I2. inversion E1; inversion E2; subst. apply (HF _ H1) in I1. apply (HF _ H2) in I2. 
    destruct (N.lt_trichotomy s1 s2) as [H|[H|H]]; [|exact H|]; exfalso; nia.
Qed.

(** ** Initialisation of the collision table and the hash table, ACP population *)
Theorem C20_contig32 : forall e n, 0 < n -> 0 < e -> e + n <= 2^32 -> partitions e n (fun s => Some (shard_contig32 e n s)).
Proof.
  intros e n Hn He0 He. apply contig_partition; auto. intros s Hs. unfold shard_contig32.
  destruct (portion_spec e n Hn He) as (P1 & P2 & P3). set (p := u32 (div_round_up64 e n)) in *.
  assert (A1 : p * s < 2^32) by nia. assert (A2 : p * (s + 1) < 2^32) by nia.
  rewrite (u32_id (s + 1)) by lia. rewrite (u32_id (p * s)) by auto. rewrite (u32_id (p * (s + 1))) by auto.
  split; [apply NoDup_filter, nodup_range|]. cbv zeta. intros c. rewrite filter_In, in_range, N.ltb_lt. lia.
Qed.

(** ** ALRU population *)
Theorem C20_contig64 : forall e n, 0 < n -> 0 < e -> e + n <= 2^32 -> partitions e n (fun s => Some (shard_contig64 e n s)).
Proof.
  intros e n Hn He0 He. apply contig_partition; auto. intros s Hs. unfold shard_contig64.
  destruct (portion_spec e n Hn He) as (P1 & P2 & P3). set (p := u32 (div_round_up64 e n)) in *.
  assert (A1 : p * s < 2^32) by nia. assert (A2 : p * (s + 1) < 2^32) by nia.
  rewrite (u32_id (s + 1)) by lia. rewrite (u32_id (p * s)) by auto. rewrite (u32_id (N.min _ _)) by lia.
  split; [apply nodup_range|]. cbv zeta. intros c. rewrite in_range. lia.
Qed.

(** ** Rebuild after a crash *)
Lemma stride_spec : forall fuel e n c, 0 < n -> e + n <= 2^32 -> c < 2^32 -> (0 < fuel)%nat -> e < c + N.of_nat fuel ->
  exists l, stride fuel e n c = Some l /\ NoDup l /\ forall x, In x l <-> x < e /\ c <= x /\ (x - c) mod n = 0.
Proof.
  induction fuel as [|fuel IH]; intros e n c Hn He Hc Hf HF; cbn [stride].
  - lia.
  - destruct (N.ltb_spec c e) as [H|H].
    + rewrite (u32_id (c + n)) by lia. destruct (IH e n (c + n) Hn He ltac:(lia) ltac:(lia) ltac:(lia)) as (l & E & HN & HI). rewrite E.
      exists (c :: l). split; [auto|]. split.
      * constructor; auto. rewrite HI. lia.
      * intros x. cbn [In]. rewrite HI. split.
        { intros [<-|(A & B & C)].
          - rewrite N.sub_diag. split; [auto|split; [lia|apply N.mod_0_l; lia]].
          - split; [auto|split; [lia|]]. replace (x - c) with ((x - (c + n)) + 1 * n) by lia. rewrite N.mod_add by lia. auto. }
        { intros (A & B & C). destruct (N.eq_dec x c) as [->|Hne]; auto. right.
          assert (c + n <= x). { destruct (N.le_gt_cases n (x - c)); [lia|]. rewrite N.mod_small in C by auto. lia. }
          split; [auto|split; [auto|]]. replace (x - c) with ((x - (c + n)) + 1 * n) in C by lia. rewrite N.mod_add in C by lia. auto. }
    + exists []. split; [auto|]. split; [constructor|]. intros x. cbn. lia.
Qed.
Theorem C20_stride : forall e n, 0 < n -> 0 < e -> e + n <= 2^32 -> partitions e n (shard_stride e n).
Proof.
  intros e n Hn He0 He.
  assert (HS : forall s, s < n -> exists l, shard_stride e n s = Some l /\ NoDup l /\ forall x, In x l <-> x < e /\ s <= x /\ (x - s) mod n = 0).
  { intros s Hs. apply stride_spec; auto; lia. }
  assert (HM : forall s x, s < n -> s <= x -> (x - s) mod n = 0 -> x mod n = s).
  { intros s x Hs Hx H0. replace x with ((x - s) + s) by lia. rewrite N.add_mod by lia. rewrite H0. cbn [N.add]. rewrite N.mod_mod by lia. apply N.mod_small. auto. }
  splitp.
  - intros s Hs. destruct (HS s Hs) as (l & E & HN & HI). exists l. split; [auto|split; [auto|]]. intros c Hc. apply HI in Hc. lia.
  - intros c Hc. pose proof (N.mod_lt c n ltac:(lia)) as HL. destruct (HS (c mod n) HL) as (l & E & HN & HI). exists (c mod n), l.
    split; [auto|split; [auto|]]. apply HI. split; [auto|]. split; [apply N.mod_le; lia|].
    pose proof (N.div_mod c n ltac:(lia)) as HD. replace (c - c mod n) with (c / n * n); [apply N.mod_mul; lia|].
    rewrite (N.mul_comm (c / n)). set (q := n * (c / n)) in *. set (m := c mod n) in *. clearbody q m. lia.
  - intros s1 s2 l1 l2 c H1 H2 E1 E2 I1 I2. destruct (HS s1 H1) as (l1' & E1' & _ & HI1). destruct (HS s2 H2) as (l2' & E2' & _ & HI2).
    rewrite E1 in E1'. rewrite E2 in E2'. inversion E1'; inversion E2'; subst. apply HI1 in I1. apply HI2 in I2.
    rewrite <- (HM s1 c), <- (HM s2 c); tauto.
Qed.

(** ** Population of the free lists *)
Lemma nodup_map_inj : forall (f : N -> N) l, (forall x y, In x l -> In y l -> f x = f y -> x = y) -> NoDup l -> NoDup (map f l).
Proof.
  induction l as [|a l IH]; intros HI HN; cbn; [constructor|]. inversion HN as [|? ? Hni Hnd]; subst. constructor.
  - rewrite in_map_iff. intros (y & E & Hy). apply Hni. rewrite (HI a y); cbn; auto.
  - apply IH; auto. intros; apply HI; cbn; auto.
Qed.
Theorem C20_populate : forall e n, 0 < n -> n < e -> e + n <= 2^32 -> u32 (div_round_up64 e n) <= 2^30 ->
  partitions e n (shard_populate e n).
Proof.
  intros e n Hn Hlt He HP. destruct (portion_spec e n Hn He) as (P1 & P2 & P3).
  assert (HS : forall s, s < n -> exists l, shard_populate e n s = Some l /\ NoDup l /\ forall x, In x l <-> x < e /\ x mod n = s).
  { intros s Hs. unfold shard_populate. set (p := u32 (div_round_up64 e n)) in *.
    assert (Hp2 : 2 <= p) by nia.
    destruct (C27_init_succeeds p (u32 (s * p) / n) Hp2 HP) as (g & E & Hg). rewrite E.
    destruct (C27_generator_is_permutation g) as (l & g' & E2 & _ & HN & HI & _); [lia|lia|]. rewrite Hg in *. rewrite E2.
    eexists. split; [reflexivity|].
    assert (HV : forall idx, In idx l -> u32 (u32 (idx * n) + s) = idx * n + s).
    { intros idx Hi. apply HI in Hi. rewrite (u32_id (idx * n)) by nia. apply u32_id. nia. }
    split.
    - apply NoDup_filter. apply nodup_map_inj; auto. intros x y Hx Hy Exy. rewrite HV, HV in Exy by auto. nia.
    - intros x. rewrite filter_In, in_map_iff, N.ltb_lt. split.
      + intros ((idx & Ex & Hi) & Hx). rewrite HV in Ex by auto. split; [auto|]. subst x. rewrite N.add_comm, N.mod_add by lia. now apply N.mod_small.
      + intros (Hx & Hm). split; [|auto]. exists (x / n). pose proof (N.div_mod x n ltac:(lia)) as HD.
        assert (Hi : In (x / n) l) by (apply HI; apply N.div_lt_upper_bound; lia). split; [|auto]. rewrite HV by auto. lia. }
  splitp.
  - intros s Hs. destruct (HS s Hs) as (l & E & HN & HI). exists l. split; [auto|split; [auto|]]. intros c Hc. apply HI in Hc. lia.
  - intros c Hc. pose proof (N.mod_lt c n ltac:(lia)) as HL. destruct (HS (c mod n) HL) as (l & E & HN & HI). exists (c mod n), l.
    split; [auto|split; [auto|]]. apply HI. auto.
  - intros s1 s2 l1 l2 c H1 H2 E1 E2 I1 I2. destruct (HS s1 H1) as (l1' & E1' & _ & HI1). destruct (HS s2 H2) as (l2' & E2' & _ & HI2).
    rewrite E1 in E1'. rewrite E2 in E2'. inversion E1'; inversion E2'; subst. apply HI1 in I1. apply HI2 in I2. intuition congruence.
Qed.

(** The number of shards is positive, whatever the number of queues. *)
Theorem C20_shards_positive : forall wanted queues, 0 < shards_cnt wanted queues.
Proof. intros w q. unfold shards_cnt. destruct (N.eqb_spec w 0), (N.eqb_spec q 0); lia. Qed.

(** The rebuild and the free list population use one shard per LRU list: the shard is the
    list the line belongs to (cline % OCF_NUM_LRU_LISTS, /repo/src/ocf_lru.c:850), so no
    two shards touch the same list. *)
Theorem C20_own_list : forall e n s l c, 0 < n -> 0 < e -> e + n <= 2^32 -> s < n -> shard_stride e n s = Some l -> In c l -> c mod n = s.
Proof.
  intros e n s l c Hn He0 He Hs E HI. destruct (stride_spec (S (N.to_nat e)) e n s Hn He ltac:(lia) ltac:(lia) ltac:(lia)) as (l' & E' & _ & HI').
  unfold shard_stride in E. rewrite E in E'. inversion E'; subst l'. apply HI' in HI as (A & B & C).
  replace c with ((c - s) + s) by lia. rewrite N.add_mod, C by lia. cbn [N.add]. rewrite N.mod_mod by lia. now apply N.mod_small.
Qed.

(** The bound matters: with 2^32 - 1 entries and 32 shards the last shard of the passes
    with 32-bit bounds does nothing. *)
Theorem C20_limit_refuted : exists e n c, n = 32 /\ c < e /\ e < 2^32 /\ forall s, s < n -> ~ In c (shard_contig32 e n s).
Proof.
  exists (2^32 - 1), 32, (2^32 - 2). split; [reflexivity|]. split; [reflexivity|]. split; [reflexivity|]. intros s Hs HI.
  unfold shard_contig32 in HI. apply filter_In in HI as [HI _]. apply in_range in HI as [H1 H2].
  change (u32 (div_round_up64 (2 ^ 32 - 1) 32)) with (2^27) in *. rewrite (u32_id (s + 1)) in H2 by lia.
  destruct (N.eq_dec s 31) as [->|Hne].
  - change (u32 (2^27 * (31 + 1))) with 0 in H2. lia.
  - assert (2^27 * (s + 1) <= 2^27 * 31) by lia. rewrite u32_id in H2 by lia. lia.
Qed.

(** ** Case *)
Example C20_case : exists a b c d, shard_contig32 100 32 24 = a /\ shard_contig64 100 32 25 = b /\
  shard_stride 100 32 3 = Some c /\ shard_populate 100 32 3 = Some d /\
  a = [96; 97; 98; 99] /\ b = [] /\ c = [3; 35; 67; 99] /\ length d = 4%nat /\ u32 (div_round_up64 100 32) = 4 /\ 100 + 32 <= 2^32.
Proof. do 4 eexists. repeat match goal with |- _ /\ _ => split end; try reflexivity. vm_compute. discriminate. Qed.

Print Assumptions C20_contig32.
Print Assumptions C20_contig64.
Print Assumptions C20_stride.
Print Assumptions C20_populate.
Print Assumptions C20_shards_positive.
Print Assumptions C20_own_list.
Print Assumptions C20_limit_refuted.

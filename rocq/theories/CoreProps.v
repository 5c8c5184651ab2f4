(** C39 - core identifiers.  C57 - the books kept about cores. *)
From Coq Require Import NArith List Bool Arith Lia.
From Verif Require Import CoreModel.
From Verif Require BitsProofs.
Import ListNotations.
Open Scope nat_scope.

(** ** Finding a free identifier *)
Lemma ffz_spec fuel : forall i w, i <= ffz fuel i w <= i + fuel /\ (forall j, i <= j < ffz fuel i w -> N.testbit w (N.of_nat (j - i)) = true) /\
  (ffz fuel i w < i + fuel -> N.testbit w (N.of_nat (ffz fuel i w - i)) = false).
Proof.
  induction fuel as [|fuel IH]; intros i w; cbn [ffz]; [split; [lia|]; split; [intros j Hj; lia | lia]|].
  destruct (N.testbit w 0) eqn:E.
  - destruct (IH (S i) (N.shiftr w 1)) as (H1 & H2 & H3). set (r := ffz fuel (S i) (N.shiftr w 1)) in *. split; [lia|]. split.
    + intros j Hj. destruct (Nat.eq_dec j i) as [->|Ne]; [rewrite Nat.sub_diag; exact E|]. specialize (H2 j ltac:(lia)). rewrite N.shiftr_spec' in H2. replace (N.of_nat (j - i)) with (N.of_nat (j - S i) + 1)%N by lia. exact H2.
    + intros Hr. specialize (H3 ltac:(lia)). rewrite N.shiftr_spec' in H3. replace (N.of_nat (r - i)) with (N.of_nat (r - S i) + 1)%N by lia. exact H3.
  - split; [lia|]. split; [intros j Hj; lia|]. intros _. rewrite Nat.sub_diag. exact E.
Qed.
Definition wf_bm (b : nat -> N) : Prop := forall w j, (64 <= j)%N -> N.testbit (b w) j = false.
(** Bit b of word i, with bit 0 of word 0 taken as set *)
Definition used (b : nat -> N) (i j : nat) : bool := N.testbit (b i) (N.of_nat j) || ((i =? 0) && (j =? 0)).
Lemma used_spec b i j : N.testbit (N.lor (b i) (if i =? 0 then 1%N else 0%N)) (N.of_nat j) = used b i j.
Proof.
  unfold used. rewrite N.lor_spec. f_equal. destruct (Nat.eqb_spec i 0) as [->|]; cbn [andb]; [|apply N.bits_0]. destruct j as [|j]; [reflexivity|]. cbn [Nat.eqb]. 
  change 1%N with (N.ones 1). rewrite BitsProofs.ones_spec. apply N.ltb_ge. lia.
Qed.
Lemma find_word_spec b : wf_bm b -> forall fuel i, i + fuel = NW -> 
  (find_word fuel i b = CORE_MAX /\ (forall k j, i <= k < NW -> j < WB -> used b k j = true)) \/
  (exists k j, i <= k < NW /\ j < WB /\ find_word fuel i b = k * WB + j /\ used b k j = false /\ (forall j', j' < j -> used b k j' = true) /\ forall k' j', i <= k' < k -> j' < WB -> used b k' j' = true).
Proof.
  intros W. induction fuel as [|fuel IH]; intros i Hi; cbn [find_word]; [left; split; [reflexivity | intros k j Hk; lia]|].
  set (w := N.lor (b i) (if i =? 0 then 1%N else 0%N)). destruct (N.eqb_spec w (N.ones 64)) as [E|E].
  - assert (Fi : forall j, j < WB -> used b i j = true). { intros j Hj. rewrite <- used_spec. fold w. rewrite E, BitsProofs.ones_spec. apply N.ltb_lt. unfold WB in Hj. lia. }
    destruct (IH (S i) ltac:(lia)) as [(H1 & H2)|(k & j & H1 & H2 & H3 & H4 & H5 & H6)].
    + left. split; [exact H1|]. intros k j Hk Hj. destruct (Nat.eq_dec k i) as [->|]; [apply Fi; exact Hj | apply H2; [lia | exact Hj]].
    + right. exists k, j. split; [lia|]. split; [exact H2|]. split; [exact H3|]. split; [exact H4|]. split; [exact H5|]. intros k' j' Hk Hj. destruct (Nat.eq_dec k' i) as [->|]; [apply Fi; exact Hj | apply H6; [lia | exact Hj]].
  - right. destruct (ffz_spec WB 0 w) as (F1 & F2 & F3). set (r := ffz WB 0 w) in *.
    assert (R : r < WB).
    { destruct (Nat.lt_ge_cases r WB) as [H|H]; [exact H|]. exfalso. apply E. apply N.bits_inj. intros j. rewrite BitsProofs.ones_spec. destruct (N.ltb_spec j 64) as [Hj|Hj].
      - specialize (F2 (N.to_nat j)). rewrite Nat.sub_0_r, N2Nat.id in F2. apply F2. unfold WB in *. lia.
      - unfold w. rewrite N.lor_spec, W by exact Hj. destruct (i =? 0); [|apply N.bits_0]. change 1%N with (N.ones 1). rewrite BitsProofs.ones_spec. apply N.ltb_ge. lia. }
    exists i, r. split; [lia|]. split; [exact R|]. split; [apply Nat.min_r; unfold CORE_MAX; nia|]. rewrite Nat.sub_0_r in F3. split; [rewrite <- used_spec; apply F3; lia|]. split.
    + intros j Hj. rewrite <- used_spec. specialize (F2 j ltac:(lia)). rewrite Nat.sub_0_r in F2. exact F2.
    + intros k' j' Hk. lia.
Qed.
Lemma bit_used b id : id <> 0 -> bit_test id b = used b (id / WB) (id mod WB).
Proof.
  intros Nz. unfold bit_test, used. replace ((id / WB =? 0) && (id mod WB =? 0)) with false; [symmetry; apply orb_false_r|]. symmetry. apply andb_false_iff.
  destruct (Nat.eq_dec (id / WB) 0) as [E|E]; [right | left; apply Nat.eqb_neq; exact E]. apply Nat.eqb_neq. intros E2. apply Nz. rewrite (Nat.div_mod id WB) by discriminate. rewrite E, E2. reflexivity.
Qed.
(** The identifier found is free, the smallest one except 0; none is found exactly if all are used *)
Lemma find_free_spec b : wf_bm b -> find_free b <= CORE_MAX /\ (find_free b < CORE_MAX -> bit_test (find_free b) b = false) /\ (find_free b = CORE_MAX -> forall id, id < CORE_MAX -> bit_test id b = true) /\
  (forall id, 0 < id < CORE_MAX -> bit_test id b = false -> find_free b <> 0 /\ find_free b <= id).
Proof.
  intros W. unfold find_free. assert (NWp : 0 < CORE_MAX) by (apply Nat.ltb_lt; vm_compute; reflexivity).
  assert (B0 : bit_test 0 b = N.testbit (b 0) 0) by reflexivity.
  destruct (find_word_spec b W NW 0 eq_refl) as [(E & A)|(k & j & Hk & Hj & E & U & B & A)]; rewrite E.
  - rewrite Nat.eqb_refl. cbn [andb]. assert (Q : forall id, 0 < id < CORE_MAX -> bit_test id b = true). { intros id Hid. rewrite bit_used by lia. apply A; [|apply Nat.mod_upper_bound; discriminate]. split; [lia|]. apply Nat.div_lt_upper_bound; [discriminate|]. unfold CORE_MAX in Hid. lia. }
    destruct (N.testbit (b 0) 0) eqn:Z; cbn [negb].
    + split; [apply le_n|]. split; [lia|]. split; [|intros id Hid F; rewrite Q in F by exact Hid; discriminate]. intros _ id Hid. destruct (Nat.eq_dec id 0) as [->|]; [exact B0 | apply Q; lia].
    + split; [lia|]. split; [intros _; exact B0|]. split; [lia|]. intros id Hid F. rewrite Q in F by exact Hid. discriminate.
  - assert (L : k * WB + j < CORE_MAX) by (unfold CORE_MAX, NW, WB in *; nia). replace (k * WB + j =? CORE_MAX) with false by (symmetry; apply Nat.eqb_neq; lia). cbn [andb].
    assert (Nz : k * WB + j <> 0). { intros Z. assert (k = 0) by (unfold WB in Z; lia). assert (j = 0) by lia. subst. unfold used in U. cbn [Nat.eqb andb] in U. rewrite orb_true_r in U. discriminate. }
    assert (D : (k * WB + j) / WB = k) by (rewrite Nat.div_add_l by discriminate; rewrite Nat.div_small by exact Hj; lia).
    assert (M : (k * WB + j) mod WB = j) by (rewrite Nat.add_comm, Nat.mod_add by discriminate; apply Nat.mod_small; exact Hj).
    split; [lia|]. split; [intros _; rewrite bit_used by exact Nz; rewrite D, M; exact U|]. split; [lia|]. intros id Hid F. split; [exact Nz|].
    destruct (Nat.le_gt_cases (k * WB + j) id) as [H|H]; [exact H|]. exfalso. rewrite bit_used in F by lia.
    assert (M' : id mod WB < WB) by (apply Nat.mod_upper_bound; discriminate). pose proof (Nat.div_mod id WB ltac:(discriminate)) as DM.
    destruct (Nat.lt_trichotomy (id / WB) k) as [C|[C|C]].
    + rewrite A in F by (try exact M'; lia). discriminate.
    + rewrite C in F. rewrite B in F by (rewrite C in DM; unfold WB in *; lia). discriminate.
    + unfold WB in *. nia.
Qed.
Lemma bit_inj i j : i / WB = j / WB -> i mod WB = j mod WB -> i = j.
Proof. intros H1 H2. rewrite (Nat.div_mod i WB), (Nat.div_mod j WB), H1, H2 by discriminate. reflexivity. Qed.
Lemma bit_set_spec id b j : bit_test j (bit_set id b) = if j =? id then true else bit_test j b.
Proof.
  unfold bit_test, bit_set, upd. destruct (Nat.eqb_spec (j / WB) (id / WB)) as [E|E].
  - rewrite N.setbit_eqb. destruct (Nat.eqb_spec j id) as [->|Ne]; [rewrite N.eqb_refl; reflexivity|]. rewrite E.
    replace (N.of_nat (id mod WB) =? N.of_nat (j mod WB))%N with false; [reflexivity|]. symmetry. apply N.eqb_neq. intros H. apply Ne. apply bit_inj; [exact E | lia].
  - destruct (Nat.eqb_spec j id) as [->|Ne]; [contradiction | reflexivity].
Qed.
Lemma bit_clear_spec id b j : bit_test j (bit_clear id b) = if j =? id then false else bit_test j b.
Proof.
  unfold bit_test, bit_clear, upd. destruct (Nat.eqb_spec (j / WB) (id / WB)) as [E|E].
  - rewrite N.clearbit_eqb. destruct (Nat.eqb_spec j id) as [->|Ne]; [rewrite N.eqb_refl; apply andb_false_r|]. rewrite E.
    replace (N.of_nat (id mod WB) =? N.of_nat (j mod WB))%N with false; [apply andb_true_r|]. symmetry. apply N.eqb_neq. intros H. apply Ne. apply bit_inj; [exact E | lia].
  - destruct (Nat.eqb_spec j id) as [->|Ne]; [contradiction | reflexivity].
Qed.
Lemma wf_set id b : wf_bm b -> wf_bm (bit_set id b).
Proof.
  intros W w j Hj. unfold bit_set, upd. destruct (w =? id / WB); [|apply W; exact Hj]. rewrite N.setbit_neq; [apply W; exact Hj|]. assert (id mod WB < WB) by (apply Nat.mod_upper_bound; discriminate). unfold WB in *. lia.
Qed.
Lemma wf_clear id b : wf_bm b -> wf_bm (bit_clear id b).
Proof. intros W w j Hj. unfold bit_clear, upd. destruct (w =? id / WB); [|apply W; exact Hj]. rewrite N.clearbit_eqb, W by exact Hj. reflexivity. Qed.

(** ** The books *)
Definition num (f : core -> bool) (s : st) : nat := length (filter (fun i => f (cores s i)) ids).
Definition is_inactive (c : core) : bool := added c && negb (opened c).
(** The resources of a core are there while it is added and only then; its volume is open exactly while it is active *)
Definition res_ok (att : bool) (c : core) : Prop :=
  if added c then has_vol c = true /\ vol c = true /\ cnt c = true /\ cut c = true /\ pol c = att /\ vopen c = opened c
  else opened c = false /\ vol c = false /\ cnt c = false /\ cut c = false /\ pol c = false /\ vopen c = false.
Record Books (s : st) : Prop := {
  b_bm : wf_bm (bm s);
  b_bit : forall id, id < CORE_MAX -> bit_test id (bm s) = added (cores s id);
  b_out : forall id, CORE_MAX <= id -> added (cores s id) = false;
  b_valid : forall id, valid (cores s id) = added (cores s id);
  b_count : count s = N.of_nat (num added s);
  b_inactive : inactive s = N.of_nat (num is_inactive s);
  b_incomplete : incomplete s = negb (inactive s =? 0)%N;
  b_names : forall i j, added (cores s i) = true -> added (cores s j) = true -> name (cores s i) = name (cores s j) -> i = j;
  b_uuids : forall i j, added (cores s i) = true -> added (cores s j) = true -> uuid (cores s i) = uuid (cores s j) -> i = j;
  b_res : forall id, res_ok (attached s) (cores s id) }.

Lemma num_change (f : core -> bool) (s s' : st) id : In id ids -> (forall j, j <> id -> cores s' j = cores s j) -> 
  num f s' + (if f (cores s id) then 1 else 0) = num f s + (if f (cores s' id) then 1 else 0).
Proof.
  unfold num. assert (ND : NoDup ids) by apply seq_NoDup. induction ids as [|x l IH]; intros Hi H; [destruct Hi|]. apply NoDup_cons_iff in ND. destruct ND as (N1 & N2). cbn [filter].
  destruct (Nat.eq_dec x id) as [->|Ne].
  - assert (E : filter (fun i => f (cores s' i)) l = filter (fun i => f (cores s i)) l) by (apply filter_ext_in; intros y Hy; rewrite H; [reflexivity|]; intros ->; contradiction).
    rewrite E. destruct (f (cores s id)), (f (cores s' id)); cbn [length]; lia.
  - destruct Hi as [Hi|Hi]; [contradiction|]. specialize (IH N2 Hi H). rewrite H by exact Ne. destruct (f (cores s x)); cbn [length]; lia.
Qed.
Lemma num_le f s : num f s <= CORE_MAX.
Proof.
  unfold num. assert (L : length ids = CORE_MAX) by apply seq_length. rewrite <- L. clear L. induction ids as [|x l IH]; [apply le_n|]. cbn [filter]. destruct (f (cores s x)); cbn [length]; lia.
Qed.
Lemma max_small : (N.of_nat CORE_MAX < 2 ^ 16 - 1)%N. Proof. vm_compute. reflexivity. Qed.
Lemma inc_small b n m : (b = 16 \/ b = 32)%N -> S n <= CORE_MAX -> m = N.of_nat n -> inc b m = N.of_nat (S n).
Proof.
  intros B H ->. unfold inc. pose proof max_small. rewrite N.mod_small; [lia|]. destruct B as [-> | ->]; [|assert (2 ^ 16 < 2 ^ 32)%N by reflexivity]; lia.
Qed.
Lemma dec_small b n m : (b = 16 \/ b = 32)%N -> S n <= CORE_MAX -> m = N.of_nat (S n) -> dec b m = N.of_nat n.
Proof.
  intros B H ->. unfold dec. pose proof max_small. assert (P : (2 ^ b <> 0)%N) by (apply N.pow_nonzero; discriminate). assert (Q : (2 ^ 16 <= 2 ^ b)%N) by (destruct B as [-> | ->]; [lia | discriminate]).
  replace (N.of_nat (S n) + (2 ^ b - 1))%N with (N.of_nat n + 1 * 2 ^ b)%N by lia. rewrite N.mod_add by exact P. apply N.mod_small. lia.
Qed.
Lemma in_ids id : id < CORE_MAX <-> In id ids.
Proof. unfold ids. rewrite in_seq. lia. Qed.
Lemma by_name_none s nm : by_name s nm = None -> forall id, id < CORE_MAX -> added (cores s id) = true -> name (cores s id) <> nm.
Proof. unfold by_name. intros H id Hid A E. apply in_ids in Hid. apply (find_none _ _ H) in Hid. rewrite A, E, Nat.eqb_refl in Hid. discriminate. Qed.
Lemma by_uuid_none s uu : by_uuid s uu = None -> forall id, id < CORE_MAX -> valid (cores s id) = true -> uuid (cores s id) <> uu.
Proof. unfold by_uuid. intros H id Hid A E. apply in_ids in Hid. apply (find_none _ _ H) in Hid. rewrite A, E, Nat.eqb_refl in Hid. discriminate. Qed.
Lemma by_name_some s nm id : by_name s nm = Some id -> id < CORE_MAX /\ added (cores s id) = true /\ name (cores s id) = nm.
Proof. unfold by_name. intros H. apply find_some in H. destruct H as (H1 & H2). apply in_ids in H1. apply andb_prop in H2. destruct H2 as (H2 & H3). apply Nat.eqb_eq in H3. auto. Qed.

(** Replacing core [id] by [c]; the bitmap [b], counts [n] and [m] are the new ones *)
Lemma books_upd s id c b n m inc' cs : Books s -> id < CORE_MAX -> wf_bm b -> (forall j, cs j = if j =? id then c else cores s j) ->
  (forall j, bit_test j b = if j =? id then added c else bit_test j (bm s)) -> valid c = added c -> 
  (added c = true -> forall j, j <> id -> added (cores s j) = true -> name (cores s j) <> name c /\ uuid (cores s j) <> uuid c) -> res_ok (attached s) c ->
  (n + (if added (cores s id) then 1 else 0) = N.of_nat (num added s) + (if added c then 1 else 0))%N ->
  (m + (if is_inactive (cores s id) then 1 else 0) = N.of_nat (num is_inactive s) + (if is_inactive c then 1 else 0))%N -> inc' = negb (m =? 0)%N ->
  Books {| bm := b; count := n; inactive := m; incomplete := inc'; cores := cs; attached := attached s |}.
Proof.
  intros B Hid W K0 Bt V U R Cn Cm Ic. set (s' := {| bm := b; count := n; inactive := m; incomplete := inc'; cores := cs; attached := attached s |}).
  assert (K : forall j, cores s' j = if j =? id then c else cores s j) by exact K0.
  assert (Nm : forall f, num f s' + (if f (cores s id) then 1 else 0) = num f s + (if f c then 1 else 0)).
  { intros f. rewrite (num_change f s s' id); [rewrite K, Nat.eqb_refl; reflexivity | apply in_ids; exact Hid |]. intros j Hj. rewrite K. apply Nat.eqb_neq in Hj. rewrite Hj. reflexivity. }
  destruct B as [B1 B2 B3 B4 B5 B6 B7 B8 B9 B10]. constructor.
  - exact W.
  - intros j Hj. cbn [bm s']. rewrite Bt, K. destruct (j =? id); [reflexivity | apply B2; exact Hj].
  - intros j Hj. rewrite K. destruct (Nat.eqb_spec j id) as [->|]; [lia | apply B3; exact Hj].
  - intros j. rewrite K. destruct (j =? id); [exact V | apply B4].
  - cbn [count s']. specialize (Nm added). destruct (added (cores s id)), (added c); lia.
  - cbn [inactive s']. specialize (Nm is_inactive). destruct (is_inactive (cores s id)), (is_inactive c); lia.
  - exact Ic.
  - intros i j. rewrite !K. destruct (Nat.eqb_spec i id) as [->|Ni], (Nat.eqb_spec j id) as [->|Nj]; intros A1 A2 E; [reflexivity | | | apply B8; assumption].
    + exfalso. apply (proj1 (U A1 j Nj A2)). symmetry. exact E.
    + exfalso. apply (proj1 (U A2 i Ni A1)). exact E.
  - intros i j. rewrite !K. destruct (Nat.eqb_spec i id) as [->|Ni], (Nat.eqb_spec j id) as [->|Nj]; intros A1 A2 E; [reflexivity | | | apply B9; assumption].
    + exfalso. apply (proj2 (U A1 j Nj A2)). symmetry. exact E.
    + exfalso. apply (proj2 (U A2 i Ni A1)). exact E.
  - intros j. rewrite K. cbn [attached s']. destruct (j =? id); [exact R | apply B10].
Qed.
Lemma free_id s : Books s -> find_free (bm s) < CORE_MAX -> added (cores s (find_free (bm s))) = false.
Proof. intros B L. rewrite <- (b_bit s B) by exact L. apply (find_free_spec (bm s) (b_bm s B)). exact L. Qed.
Lemma added_lt s id : Books s -> added (cores s id) = true -> id < CORE_MAX.
Proof. intros B A. destruct (Nat.lt_ge_cases id CORE_MAX) as [H|H]; [exact H|]. rewrite (b_out s B) in A by exact H. discriminate. Qed.
Lemma num_pos f s id : id < CORE_MAX -> f (cores s id) = true -> exists n, num f s = S n.
Proof.
  intros L F. unfold num. assert (H : In id (filter (fun i => f (cores s i)) ids)) by (apply filter_In; split; [apply in_ids; exact L | exact F]).
  destruct (filter (fun i => f (cores s i)) ids) as [|x l]; [destruct H | exists (length l); reflexivity].
Qed.
Lemma num_room f s id : id < CORE_MAX -> f (cores s id) = false -> S (num f s) <= CORE_MAX.
Proof.
  intros L F. unfold num. assert (H : In id ids) by (apply in_ids; exact L). assert (Le : length ids = CORE_MAX) by apply seq_length. rewrite <- Le. clear Le L. assert (G : forall l, length (filter (fun i => f (cores s i)) l) <= length l).
  { induction l as [|x l IH]; [apply le_n|]. cbn [filter]. destruct (f (cores s x)); cbn [length]; lia. }
  induction ids as [|x l IH]; [destruct H|]. cbn [filter]. destruct H as [->|H].
  - rewrite F. cbn [length]. specialize (G l). lia.
  - specialize (IH H). destruct (f (cores s x)); cbn [length]; lia.
Qed.
Lemma upd_upd {A} (g : nat -> A) id a b j : upd (upd g id a) id b j = if j =? id then b else g j.
Proof. unfold upd. destruct (j =? id); reflexivity. Qed.

Lemma books_add s nm uu f : Books s -> Books (snd (add nm uu f s)).
Proof.
  intros B. unfold add. destruct (by_name s nm) as [?|] eqn:EN; [exact B|]. destruct (by_uuid s uu) as [?|] eqn:EU; [exact B|]. set (id := find_free (bm s)). destruct (Nat.leb_spec CORE_MAX id) as [L|L]; [exact B|].
  pose proof (free_id s B L) as A0. fold id in A0. pose proof (b_valid s B id) as V0. rewrite A0 in V0. pose proof (b_res s B id) as R0. unfold res_ok in R0. rewrite A0 in R0. destruct R0 as (R1 & R2 & R3 & R4 & R5 & R6).
  assert (I0 : is_inactive (cores s id) = false) by (unfold is_inactive; rewrite A0; reflexivity).
  assert (Bi : bit_test id (bm s) = false) by (rewrite (b_bit s B) by exact L; exact A0).
  set (g := effective s f). destruct (Nat.leb_spec NO_FAIL g) as [G|G].
  - assert (K : (F_UUID <? g) = true /\ (F_TYPE <? g) = true /\ (F_INIT <? g) = true /\ (F_OPEN <? g) = true /\ (F_CNT <? g) = true /\ (F_CUT <? g) = true /\ (F_CLEAN <? g) = true /\ (F_FRONT <? g) = true) by (unfold NO_FAIL in G; repeat split; apply Nat.ltb_lt; unfold F_UUID, F_TYPE, F_INIT, F_OPEN, F_CNT, F_CUT, F_CLEAN, F_FRONT; lia).
    destruct K as (K1 & K2 & K3 & K4 & K5 & K6 & K7 & K8). cbn [snd]. unfold add_core. rewrite K1, K3, K4, K5, K6, K7, K8. apply books_upd with (id := id) (c := add_core (attached s) g nm uu (cores s id)).
    + exact B.
    + exact L.
    + apply wf_set, (b_bm s B).
    + intros j. unfold upd, add_core. rewrite K1, K3, K4, K5, K6, K7, K8. reflexivity.
    + intros j. unfold add_core. rewrite K5. cbn [added]. apply bit_set_spec.
    + unfold add_core. rewrite K5. reflexivity.
    + intros _ j Hj Aj. unfold add_core. rewrite K1. cbn [name uuid]. pose proof (added_lt s j B Aj) as Lj. split; [apply (by_name_none s nm EN j Lj Aj) | apply (by_uuid_none s uu EU j Lj)]. rewrite (b_valid s B). exact Aj.
    + unfold res_ok, add_core. rewrite K3, K4, K5, K6, K7. cbn. rewrite R5. repeat split. destruct (attached s); reflexivity.
    + unfold add_core. rewrite K5. cbn [added]. rewrite A0. rewrite (inc_small 32 (num added s)); [lia | right; reflexivity | apply (num_room added s id L A0) | apply (b_count s B)].
    + rewrite I0. unfold is_inactive at 2. unfold add_core. rewrite K5. cbn [added opened andb negb]. rewrite (b_inactive s B). lia.
    + apply (b_incomplete s B).
  - cbn [snd bm count inactive incomplete cores attached]. apply books_upd with (id := id) (c := undo_core (attached s) g (add_core (attached s) g nm uu (cores s id))).
    + exact B.
    + exact L.
    + destruct (F_CNT <? g); [apply wf_clear, wf_set|]; apply (b_bm s B).
    + intros j. apply upd_upd.
    + intros j. unfold undo_core, add_core. cbn [added]. destruct (F_CNT <? g).
      * rewrite bit_clear_spec, bit_set_spec. destruct (Nat.eqb_spec j id); reflexivity.
      * rewrite A0. destruct (Nat.eqb_spec j id) as [->|]; [exact Bi | reflexivity].
    + unfold undo_core, add_core. cbn [added valid]. destruct (F_CNT <? g); [reflexivity|]. rewrite A0. exact V0.
    + unfold undo_core, add_core. cbn [added]. destruct (F_CNT <? g); [|rewrite A0]; discriminate.
    + unfold res_ok, undo_core, add_core. cbn [added opened vol cnt cut pol vopen]. destruct (F_CNT <? g), (F_INIT <? g), (F_OPEN <? g), (F_CUT <? g), (F_CLEAN <? g), (attached s); cbn; try rewrite A0; repeat split; assumption.
    + rewrite A0. unfold undo_core, add_core. cbn [added]. destruct (F_CNT <? g); [|rewrite A0, (b_count s B); lia].
      rewrite (dec_small 32 (num added s)); [lia | right; reflexivity | apply (num_room added s id L A0) |]. apply inc_small; [right; reflexivity | apply (num_room added s id L A0) | apply (b_count s B)].
    + rewrite I0. rewrite (b_inactive s B). unfold is_inactive at 3. unfold undo_core, add_core. cbn [added]. destruct (F_CNT <? g); [cbn [andb]; lia|]. rewrite A0. cbn [andb]. lia.
    + apply (b_incomplete s B).
Qed.
Lemma same_bit s id c j : Books s -> id < CORE_MAX -> added c = added (cores s id) -> bit_test j (bm s) = if j =? id then added c else bit_test j (bm s).
Proof. intros B L A. destruct (Nat.eqb_spec j id) as [->|]; [|reflexivity]. rewrite A. apply (b_bit s B); exact L. Qed.
Lemma same_names s id c : Books s -> added (cores s id) = true -> name c = name (cores s id) -> uuid c = uuid (cores s id) ->
  forall j, j <> id -> added (cores s j) = true -> name (cores s j) <> name c /\ uuid (cores s j) <> uuid c.
Proof. intros B A E1 E2 j Hj Aj. rewrite E1, E2. split; intros H; apply Hj; [apply (b_names s B) | apply (b_uuids s B)]; assumption. Qed.
Lemma books_try_add s nm uu f : Books s -> Books (snd (try_add nm uu f s)).
Proof.
  intros B. unfold try_add. destruct (by_name s nm) as [id|] eqn:EN; [|exact B]. apply by_name_some in EN. destruct EN as (L & A & _).
  destruct (opened (cores s id)) eqn:O; [exact B|]. destruct (negb (uuid (cores s id) =? uu)); [exact B|]. destruct (vopen (cores s id)) eqn:VO; [exact B|]. destruct (f =? T_OPEN); [exact B|]. destruct (f =? T_SIZE); [exact B|].
  cbn [orb snd]. set (c := set_opened _ _ _ _ _). assert (I : is_inactive (cores s id) = true) by (unfold is_inactive; rewrite A, O; reflexivity). destruct (num_pos is_inactive s id L I) as (n & En).
  assert (D : dec 16 (inactive s) = N.of_nat n) by (apply dec_small; [left; reflexivity | rewrite <- En; apply num_le | rewrite (b_inactive s B), En; reflexivity]).
  apply books_upd with (id := id) (c := c).
  - exact B.
  - exact L.
  - apply (b_bm s B).
  - intros j. reflexivity.
  - intros j. apply same_bit; [exact B | exact L | reflexivity].
  - unfold c, set_opened. cbn [valid added]. apply (b_valid s B).
  - intros _. apply same_names; [exact B | exact A | reflexivity | reflexivity].
  - pose proof (b_res s B id) as R. unfold res_ok in R |- *. rewrite A in R. unfold c, set_opened. cbn [added has_vol vol cnt cut pol vopen opened]. rewrite A. destruct R as (R1 & R2 & R3 & R4 & R5 & R6). repeat split; assumption.
  - rewrite (b_count s B). reflexivity.
  - rewrite I, D, En. unfold is_inactive at 1. unfold c, set_opened. cbn [added opened negb]. rewrite andb_false_r. lia.
  - rewrite D. destruct (N.of_nat n =? 0)%N eqn:Z; [reflexivity|]. rewrite (b_incomplete s B), (b_inactive s B), En. reflexivity.
Qed.
Lemma books_detach s id : Books s -> added (cores s id) = true -> Books (snd (detach id s)).
Proof.
  intros B A. pose proof (added_lt s id B A) as L. unfold detach. destruct (opened (cores s id)) eqn:O; [|exact B]. cbn [snd]. set (c := set_opened _ _ _ _ _).
  assert (I : is_inactive (cores s id) = false) by (unfold is_inactive; rewrite A, O; reflexivity).
  assert (D : inc 16 (inactive s) = N.of_nat (S (num is_inactive s))) by (apply inc_small; [left; reflexivity | apply (num_room is_inactive s id L I) | apply (b_inactive s B)]).
  apply books_upd with (id := id) (c := c).
  - exact B.
  - exact L.
  - apply (b_bm s B).
  - intros j. reflexivity.
  - intros j. apply same_bit; [exact B | exact L | reflexivity].
  - apply (b_valid s B).
  - intros _. apply same_names; [exact B | exact A | reflexivity | reflexivity].
  - pose proof (b_res s B id) as R. unfold res_ok in R |- *. rewrite A in R. unfold c, set_opened. cbn [added has_vol vol cnt cut pol vopen opened]. rewrite A. destruct R as (R1 & R2 & R3 & R4 & R5 & R6). repeat split; assumption.
  - rewrite (b_count s B). reflexivity.
  - rewrite I, D. unfold is_inactive at 3. unfold c, set_opened. cbn [added opened negb]. rewrite A. cbn [andb]. lia.
  - rewrite D. reflexivity.
Qed.
Lemma books_remove s id f : Books s -> added (cores s id) = true -> Books (snd (remove id f s)).
Proof.
  intros B A. pose proof (added_lt s id B A) as L. unfold remove. destruct (attached s && (f =? R_COLL)); [exact B|]. cbn [snd]. set (c := cores s id) in *.
  pose proof (b_res s B id) as R. fold c in R. unfold res_ok in R. rewrite A in R. destruct R as (R1 & R2 & R3 & R4 & R5 & R6).
  destruct (num_pos added s id L A) as (n & En).
  assert (Dn : dec 32 (count s) = N.of_nat n) by (apply dec_small; [right; reflexivity | rewrite <- En; apply num_le | rewrite (b_count s B), En; reflexivity]).
  apply books_upd with (id := id) (c := remove_core (attached s) c).
  - exact B.
  - exact L.
  - apply wf_clear, (b_bm s B).
  - intros j. reflexivity.
  - intros j. apply bit_clear_spec.
  - reflexivity.
  - discriminate.
  - unfold res_ok, remove_core. cbn. rewrite R1, R5, R6. repeat split; [destruct (attached s); reflexivity | destruct (opened c); reflexivity].
  - fold c. rewrite A, Dn, En. cbn [added remove_core]. lia.
  - fold c. unfold is_inactive at 3. cbn [remove_core added andb]. destruct (opened c) eqn:O; cbn [negb andb].
    + unfold is_inactive at 1. rewrite A, O. cbn [negb andb]. rewrite (b_inactive s B). lia.
    + assert (I : is_inactive c = true) by (unfold is_inactive; rewrite A, O; reflexivity). destruct (num_pos is_inactive s id L I) as (m & Em). rewrite I, Em.
      rewrite (dec_small 16 m); [lia | left; reflexivity | rewrite <- Em; apply num_le | rewrite (b_inactive s B), Em; reflexivity].
  - fold c. destruct (opened c) eqn:O; cbn [negb andb]; [apply (b_incomplete s B)|].
    assert (I : is_inactive c = true) by (unfold is_inactive; rewrite A, O; reflexivity). destruct (num_pos is_inactive s id L I) as (m & Em).
    destruct (dec 16 (inactive s) =? 0)%N eqn:Z; [reflexivity|]. rewrite (b_incomplete s B), (b_inactive s B), Em. reflexivity.
Qed.
Lemma books_op o s b s' : Books s -> do_op o s = Some (b, s') -> Books s'.
Proof.
  destruct o as [nm uu f|nm uu f|id|id f]; cbn [do_op]; intros B E.
  - pose proof (books_add s nm uu f B) as H. destruct (add nm uu f s) as (r, t). injection E as <- <-. exact H.
  - pose proof (books_try_add s nm uu f B) as H. destruct (try_add nm uu f s) as (r, t). injection E as <- <-. exact H.
  - destruct (added (cores s id)) eqn:A; [|discriminate]. pose proof (books_detach s id B A) as H. injection E as E. rewrite E in H. exact H.
  - destruct (added (cores s id)) eqn:A; [|discriminate]. pose proof (books_remove s id f B A) as H. injection E as E. rewrite E in H. exact H.
Qed.
Lemma books_run os : forall s s', Books s -> run os s = Some s' -> Books s'.
Proof.
  induction os as [|o os IH]; intros s s' B E; cbn [run] in E; [injection E as <-; exact B|]. destruct (do_op o s) as [(b, t)|] eqn:Eo; [|discriminate]. apply (IH t); [|exact E]. apply (books_op o s b t B Eo).
Qed.

(** Saved cores: distinct ids in range, distinct names and UUIDs *)
Definition saved_ok (l : list (nat * nat * nat * bool)) : Prop :=
  NoDup (map (fun x => fst (fst (fst x))) l) /\ NoDup (map (fun x => snd (fst (fst x))) l) /\ NoDup (map (fun x => snd (fst x)) l) /\ forall x, In x l -> fst (fst (fst x)) < CORE_MAX.
Lemma num_none f s : (forall i, f (cores s i) = false) -> num f s = 0.
Proof. intros H. unfold num. induction ids as [|x l IH]; [reflexivity|]. cbn [filter]. rewrite H. exact IH. Qed.
Lemma books_init att : Books (init att).
Proof.
  constructor.
  - intros w j Hj. apply N.bits_0.
  - intros id Hid. reflexivity.
  - intros id Hid. reflexivity.
  - intros id. reflexivity.
  - cbn [count init]. rewrite num_none by reflexivity. reflexivity.
  - cbn [inactive init]. rewrite num_none by reflexivity. reflexivity.
  - reflexivity.
  - intros i j A. discriminate A.
  - intros i j A. discriminate A.
  - intros id. repeat split.
Qed.
Lemma start_core att l : forall id, attached (start att l) = att /\ (added (cores (start att l) id) = true -> exists nm uu o, In (id, nm, uu, o) l /\ name (cores (start att l) id) = nm /\ uuid (cores (start att l) id) = uu /\ opened (cores (start att l) id) = o) /\ (added (cores (start att l) id) = false -> cores (start att l) id = no_core).
Proof.
  induction l as [|(((i, nm), uu), o) l IH]; intros id; [split; [reflexivity|]; split; [discriminate | reflexivity]|].
  cbn [start fold_right]. fold (start att l). destruct (IH id) as (I1 & I2 & I3). split; [exact I1|]. cbn [load_core cores]. unfold upd. destruct (Nat.eqb_spec id i) as [->|Ne].
  - split; [|discriminate]. intros _. exists nm, uu, o. split; [left; reflexivity | repeat split].
  - split; [|exact I3]. intros A. destruct (I2 A) as (a & b & c & H & H'). exists a, b, c. split; [right; exact H | exact H'].
Qed.
Lemma books_start att l : saved_ok l -> Books (start att l).
Proof.
  induction l as [|(((i, nm), uu), o) l IH]; intros (H1 & H2 & H3 & H4); [apply books_init|]. cbn [map fst snd] in H1, H2, H3. apply NoDup_cons_iff in H1, H2, H3. destruct H1 as (H1 & H1'), H2 as (H2 & H2'), H3 as (H3 & H3').
  assert (B : Books (start att l)) by (apply IH; repeat split; try assumption; intros x Hx; apply H4; right; exact Hx). clear IH.
  cbn [start fold_right]. fold (start att l). set (s := start att l) in *. specialize (H4 _ (or_introl eq_refl)) as L. cbn [fst] in L.
  assert (A : added (cores s i) = false).
  { destruct (added (cores s i)) eqn:A; [|reflexivity]. exfalso. destruct (proj1 (proj2 (start_core att l i)) A) as (a & b & c & H & _). apply H1. apply in_map_iff. exists (i, a, b, c). split; [reflexivity | exact H]. }
  assert (I : is_inactive (cores s i) = false) by (unfold is_inactive; rewrite A; reflexivity). 
  unfold load_core. set (c := {| valid := _; added := _ |}). apply books_upd with (id := i) (c := c).
  - exact B.
  - exact L.
  - apply wf_set, (b_bm s B).
  - intros j. reflexivity.
  - intros j. apply bit_set_spec.
  - reflexivity.
  - intros _ j Hj Aj. destruct (proj1 (proj2 (start_core att l j)) Aj) as (a & b & e & H & E1 & E2 & _). fold s in E1, E2. rewrite E1, E2. cbn [name uuid c]. split; intros E.
    + apply H2. apply in_map_iff. exists (j, a, b, e). split; [exact E | exact H].
    + apply H3. apply in_map_iff. exists (j, a, b, e). split; [exact E | exact H].
  - unfold res_ok, c. cbn. repeat split.
  - rewrite A. cbn [added c]. rewrite (inc_small 32 (num added s)); [lia | right; reflexivity | apply (num_room added s i L A) | apply (b_count s B)].
  - rewrite I. unfold is_inactive at 2. cbn [added opened c]. destruct o; cbn [negb andb].
    + rewrite (b_inactive s B). lia.
    + rewrite (inc_small 16 (num is_inactive s)); [lia | left; reflexivity | apply (num_room is_inactive s i L I) | apply (b_inactive s B)].
  - destruct o; [apply (b_incomplete s B)|]. rewrite (inc_small 16 (num is_inactive s)); [reflexivity | left; reflexivity | apply (num_room is_inactive s i L I) | apply (b_inactive s B)].
Qed.

(** ** C39: identifiers *)
Definition history (att : bool) (saved : list (nat * nat * nat * bool)) (os : list op) (s : st) : Prop := saved_ok saved /\ run os (start att saved) = Some s.
Lemma history_books att saved os s : history att saved os s -> Books s.
Proof. intros (H1 & H2). apply (books_run os (start att saved)); [apply books_start; exact H1 | exact H2]. Qed.
(** For every bitmap: a free identifier is found exactly if there is one *)
Theorem C39_pick b : wf_bm b -> ((find_free b < CORE_MAX <-> exists id, id < CORE_MAX /\ bit_test id b = false) /\ (find_free b < CORE_MAX -> bit_test (find_free b) b = false)).
Proof.
  intros W. destruct (find_free_spec b W) as (H1 & H2 & H3 & H4). split; [|exact H2]. split.
  - intros L. exists (find_free b). split; [exact L | apply H2; exact L].
  - intros (id & L & F). destruct (Nat.eq_dec (find_free b) CORE_MAX) as [E|E]; [rewrite (H3 E id L) in F; discriminate | lia].
Qed.
(** After every history, an added core gets an id no core had, with its name and UUID, and no other core is touched *)
Theorem C39_unique att saved os s nm uu f id s' : history att saved os s -> add nm uu f s = (Some id, s') ->
  id < CORE_MAX /\ added (cores s id) = false /\ added (cores s' id) = true /\ name (cores s' id) = nm /\ uuid (cores s' id) = uu /\ (forall j, j <> id -> cores s' j = cores s j) /\
  (forall j, added (cores s j) = true -> name (cores s j) <> nm /\ uuid (cores s j) <> uu).
Proof.
  intros H E. apply history_books in H. unfold add in E. destruct (by_name s nm) eqn:EN; [discriminate|]. destruct (by_uuid s uu) eqn:EU; [discriminate|].
  destruct (Nat.leb_spec CORE_MAX (find_free (bm s))) as [L|L]; [discriminate|]. set (g := effective s f) in *. destruct (Nat.leb_spec NO_FAIL g) as [G|G]; [|discriminate]. injection E as <- <-.
  assert (K1 : (F_UUID <? g) = true) by (apply Nat.ltb_lt; unfold NO_FAIL, F_UUID in *; lia). assert (K2 : (F_CNT <? g) = true) by (apply Nat.ltb_lt; unfold NO_FAIL, F_CNT in *; lia).
  split; [exact L|]. split; [apply free_id; assumption|]. cbn [cores]. unfold upd. rewrite Nat.eqb_refl. unfold add_core. rewrite K1, K2. repeat (split; [reflexivity|]). split.
  - intros j Hj. apply Nat.eqb_neq in Hj. rewrite Hj. reflexivity.
  - intros j Aj. pose proof (added_lt s j H Aj) as Lj. split; [apply (by_name_none s nm EN j Lj Aj) | apply (by_uuid_none s uu EU j Lj)]. rewrite (b_valid s H). exact Aj.
Qed.
(** After every history, adding a core with a new name and UUID succeeds if there is room and no step fails *)
Theorem C39_succeeds att saved os s nm uu : history att saved os s -> (count s < N.of_nat CORE_MAX)%N -> (forall j, added (cores s j) = true -> name (cores s j) <> nm /\ uuid (cores s j) <> uu) ->
  exists id s', add nm uu NO_FAIL s = (Some id, s').
Proof.
  intros H C U. apply history_books in H. unfold add.
  destruct (by_name s nm) as [x|] eqn:EN; [apply by_name_some in EN; destruct EN as (_ & A & E); destruct (proj1 (U x A) E)|].
  destruct (by_uuid s uu) as [x|] eqn:EU.
  { unfold by_uuid in EU. apply find_some in EU. destruct EU as (_ & E). apply andb_prop in E. destruct E as (E1 & E2). rewrite (b_valid s H) in E1. apply Nat.eqb_eq in E2. destruct (proj2 (U x E1) E2). }
  destruct (Nat.leb_spec CORE_MAX (find_free (bm s))) as [L|L].
  - exfalso. destruct (find_free_spec (bm s) (b_bm s H)) as (H1 & _ & H3 & _). rewrite (b_count s H) in C. assert (E : num added s = CORE_MAX); [|lia].
    unfold num. rewrite <- (seq_length CORE_MAX 0). fold ids. f_equal. specialize (H3 ltac:(lia)).
    assert (G : forall i, In i ids -> added (cores s i) = true) by (intros i Hi; apply in_ids in Hi; rewrite <- (b_bit s H) by exact Hi; apply H3; exact Hi).
    clear - G. induction ids as [|x l IH]; [reflexivity|]. cbn [filter]. rewrite (G x (or_introl eq_refl)). f_equal. apply IH. intros i Hi. apply G. right. exact Hi.
  - replace (effective s NO_FAIL) with NO_FAIL by (unfold effective; destruct (attached s); reflexivity). rewrite Nat.leb_refl. eexists. eexists. reflexivity.
Qed.
(** Two cores loaded, 0 among them; three added, one removed, its id used again *)
Definition demo : option st := run [Add 10 20 NO_FAIL; Add 11 21 F_CUT; Add 12 22 NO_FAIL; Remove 2 R_NONE; Add 13 23 NO_FAIL; Detach 1] (start true [(0, 1, 1, true); (1, 2, 2, true)]).
Definition view (s : option st) := match s with Some s => Some (map (fun i => (added (cores s i), opened (cores s i), name (cores s i))) (seq 0 5), count s, inactive s, incomplete s) | None => None end.
Example C39_case : view demo = Some ([(true, true, 1); (true, false, 2); (true, true, 13); (true, true, 12); (false, false, 0)], 4%N, 1%N, true).
Proof. vm_compute. reflexivity. Qed.
Example C39_saved : saved_ok [(0, 1, 1, true); (1, 2, 2, true)].
Proof.
  repeat split; cbn [map fst snd]; try (repeat constructor; cbn [In]; intros H; repeat (destruct H as [H|H]; [discriminate|]); exact H).
  intros x H. repeat (destruct H as [<-|H]; [apply Nat.ltb_lt; vm_compute; reflexivity|]). destruct H.
Qed.
(** With all other identifiers taken, 0 is used; with all taken, none *)
Example C39_zero : find_free (fun i => if i =? 0 then (N.ones 64 - 1)%N else N.ones 64) = 0 /\ find_free (fun _ => N.ones 64) = CORE_MAX /\ find_free (fun _ => 0%N) = 1.
Proof. vm_compute. repeat split. Qed.

(** ** C57: the books *)
(** After every history (also with failing steps): bitmap, flags, counters, resources agree, names and UUIDs are unique *)
Theorem C57_books att saved os s : history att saved os s -> Books s.
Proof. apply history_books. Qed.
(** Front volumes: open exactly for active cores, and never initialised twice *)
Definition Fronts (s : st) : Prop := forall id, front (cores s id) = opened (cores s id) /\ lost (cores s id) = 0.
Definition no_front_failure (o : op) : Prop := match o with TryAdd _ _ f => f <> T_FRONT | _ => True end.
Lemma fronts_upd s s' id c : Fronts s -> (forall j, cores s' j = if j =? id then c else cores s j) -> front c = opened c -> lost c = 0 -> Fronts s'.
Proof. intros F E H1 H2 j. rewrite E. destruct (j =? id); [split; assumption | apply F]. Qed.
Lemma fronts_op o s b s' : Books s -> Fronts s -> no_front_failure o -> do_op o s = Some (b, s') -> Fronts s'.
Proof.
  intros B F N E. destruct o as [nm uu f|nm uu f|id|id f]; cbn [do_op] in E.
  - destruct (add nm uu f s) as (r, t) eqn:Ea. injection E as <- <-. unfold add in Ea. destruct (by_name s nm); [injection Ea as <- <-; exact F|]. destruct (by_uuid s uu); [injection Ea as <- <-; exact F|].
    destruct (Nat.leb_spec CORE_MAX (find_free (bm s))) as [L|L]; [injection Ea as <- <-; exact F|]. pose proof (free_id s B L) as A. set (id := find_free (bm s)) in *. pose proof (b_res s B id) as R. unfold res_ok in R. rewrite A in R. destruct R as (O & _).
    destruct (F id) as (F1 & F2). rewrite O in F1. set (g := effective s f) in *. destruct (Nat.leb_spec NO_FAIL g) as [G|G]; injection Ea as <- <-.
    + assert (K1 : (F_FRONT <? g) = true) by (apply Nat.ltb_lt; unfold NO_FAIL, F_FRONT in *; lia). assert (K2 : (F_CNT <? g) = true) by (apply Nat.ltb_lt; unfold NO_FAIL, F_CNT in *; lia).
      apply (fronts_upd s _ id (add_core (attached s) g nm uu (cores s id)) F); [intros j; reflexivity | |]; unfold add_core; rewrite ?K1, ?K2; cbn; rewrite ?F1, ?F2; reflexivity.
    + assert (K1 : (F_FRONT <? g) = false) by (apply Nat.ltb_ge; unfold NO_FAIL, F_FRONT in *; lia).
      apply (fronts_upd s _ id (undo_core (attached s) g (add_core (attached s) g nm uu (cores s id))) F); [intros j; apply upd_upd | |]; unfold undo_core, add_core; rewrite ?K1; cbn [front opened lost andb]; rewrite ?F1, ?F2; [|reflexivity]. destruct (F_CNT <? g); [reflexivity | symmetry; exact O].
  - cbn [no_front_failure] in N. destruct (try_add nm uu f s) as (r, t) eqn:Et. injection E as <- <-. unfold try_add in Et. destruct (by_name s nm) as [id|]; [|injection Et as <- <-; exact F].
    destruct (F id) as (F1 & F2). destruct (opened (cores s id)) eqn:O; [injection Et as <- <-; exact F|]. cbn [orb] in Et. destruct (negb (uuid (cores s id) =? uu) || vopen (cores s id) || (f =? T_OPEN) || (f =? T_SIZE)); [injection Et as <- <-; exact F|].
    injection Et as <- <-. apply Nat.eqb_neq in N. rewrite N. cbn [negb orb andb]. eapply (fronts_upd s _ id _ F); [intros j; reflexivity | reflexivity |]. cbn [lost set_opened]. rewrite F1, F2. reflexivity.
  - destruct (added (cores s id)); [|discriminate]. unfold detach in E. destruct (opened (cores s id)); injection E as <- <-; [|exact F]. eapply (fronts_upd s _ id _ F); [intros j; reflexivity | reflexivity |]. apply F.
  - destruct (added (cores s id)); [|discriminate]. unfold remove in E. destruct (attached s && (f =? R_COLL)); injection E as <- <-; [exact F|]. eapply (fronts_upd s _ id _ F); [intros j; reflexivity | | apply F].
    cbn [front opened remove_core]. destruct (opened (cores s id)) eqn:O; [reflexivity|]. destruct (F id) as (F1 & _). rewrite F1. exact O.
Qed.
Lemma fronts_run os : forall s s', Books s -> Fronts s -> Forall no_front_failure os -> run os s = Some s' -> Fronts s'.
Proof.
  induction os as [|o os IH]; intros s s' B F N E; cbn [run] in E; [injection E as <-; exact F|]. destruct (do_op o s) as [(b, t)|] eqn:Eo; [|discriminate]. inversion N as [|x y N1 N2]; subst.
  apply (IH t); [apply (books_op o s b t B Eo) | apply (fronts_op o s b t B F N1 Eo) | exact N2 | exact E].
Qed.
(** Partial: if no core was inactive when loaded and no re-adding fails at the front volume *)
Theorem C57_front_partial att saved os s : history att saved os s -> (forall x, In x saved -> snd x = true) -> Forall no_front_failure os -> Fronts s.
Proof.
  intros (H1 & H2) A N. apply (fronts_run os (start att saved)); [apply books_start; exact H1 | | exact N | exact H2]. clear - A. induction saved as [|(((i, nm), uu), o) l IH]; [intros id; split; reflexivity|].
  cbn [start fold_right]. fold (start att l). eapply (fronts_upd (start att l)); [apply IH; intros x Hx; apply A; right; exact Hx | intros j; reflexivity | |].
  - cbn [front opened]. symmetry. apply (A _ (or_introl eq_refl)).
  - cbn [lost]. assert (Fl : Fronts (start att l)) by (apply IH; intros x Hx; apply A; right; exact Hx). apply Fl.
Qed.

(** What a user sees of the cores: which are there, their state, names, UUIDs, counters, bitmap *)
Definition seen (s : st) (id : nat) : option (bool * bool * nat * nat) := let c := cores s id in if added c then Some (opened c, front c, name c, uuid c) else None.
Definition same_view (s s' : st) : Prop := (forall id, seen s' id = seen s id) /\ count s' = count s /\ inactive s' = inactive s /\ incomplete s' = incomplete s /\ forall id, bit_test id (bm s') = bit_test id (bm s).
Definition undone_on_error (o : op) : Prop := match o with TryAdd _ _ f => f <> T_FRONT | Remove _ f => f <> R_SB | _ => True end.
(** Partial: an operation that reports an error changed nothing, except re-adding that fails at the front volume and
    removal whose superblock write fails *)
Theorem C57_failed_partial att saved os s o s' : history att saved os s -> undone_on_error o -> do_op o s = Some (false, s') -> same_view s s'.
Proof.
  intros H U E. apply history_books in H. assert (Id : same_view s s) by (repeat split). destruct o as [nm uu f|nm uu f|id|id f]; cbn [do_op undone_on_error] in E, U.
  - destruct (add nm uu f s) as (r, t) eqn:Ea. injection E as E <-. unfold add in Ea. destruct (by_name s nm); [injection Ea as <- <-; exact Id|]. destruct (by_uuid s uu); [injection Ea as <- <-; exact Id|].
    destruct (Nat.leb_spec CORE_MAX (find_free (bm s))) as [L|L]; [injection Ea as <- <-; exact Id|]. pose proof (free_id s H L) as A. pose proof (b_bit s H _ L) as Bi. rewrite A in Bi. set (id := find_free (bm s)) in *. set (g := effective s f) in *.
    destruct (NO_FAIL <=? g); injection Ea as <- <-; [discriminate|]. split; [|split; [|split; [reflexivity|]; split; [reflexivity|]]].
    + intros j. unfold seen. cbn [cores]. rewrite upd_upd. destruct (Nat.eqb_spec j id) as [->|]; [|reflexivity]. rewrite A. unfold undo_core, add_core. cbn [added]. destruct (F_CNT <? g); [reflexivity | rewrite A; reflexivity].
    + cbn [count]. destruct (F_CNT <? g); [|reflexivity]. rewrite (b_count s H). apply dec_small; [right; reflexivity | apply (num_room added s id L A)|]. apply inc_small; [right; reflexivity | apply (num_room added s id L A) | reflexivity].
    + intros j. cbn [bm]. destruct (F_CNT <? g); [|reflexivity]. rewrite bit_clear_spec, bit_set_spec. destruct (Nat.eqb_spec j id) as [->|]; [symmetry; exact Bi | reflexivity].
  - destruct (try_add nm uu f s) as (r, t) eqn:Et. injection E as E <-. unfold try_add in Et. destruct (by_name s nm) as [id|]; [|injection Et as <- <-; exact Id].
    destruct (opened (cores s id) || negb (uuid (cores s id) =? uu) || vopen (cores s id) || (f =? T_OPEN) || (f =? T_SIZE)); [injection Et as <- <-; exact Id|]. apply Nat.eqb_neq in U. rewrite U in Et. injection Et as <- <-. discriminate.
  - destruct (added (cores s id)); [|discriminate]. unfold detach in E. destruct (opened (cores s id)); [discriminate|]. injection E as <-. exact Id.
  - destruct (added (cores s id)); [|discriminate]. unfold remove in E. destruct (attached s && (f =? R_COLL)); [injection E as <-; exact Id|]. apply Nat.eqb_neq in U. rewrite U, andb_false_r in E. discriminate.
Qed.
(** In the cases left out a failing operation does change the state: the core is active, without a front volume, and
    the cache no longer counts it as inactive *)
Theorem C57_try_add_refuted : exists s s', history true [(1, 5, 6, true)] [Detach 1] s /\ do_op (TryAdd 5 6 T_FRONT) s = Some (false, s') /\ seen s 1 = Some (false, false, 5, 6) /\ inactive s = 1%N /\
  seen s' 1 = Some (true, false, 5, 6) /\ inactive s' = 0%N /\ incomplete s' = false /\ exists s'', do_op (TryAdd 5 6 T_NONE) s' = Some (false, s'').
Proof.
  eexists. eexists. split.
  { split; [|reflexivity]. repeat split; cbn [map fst snd]; try (repeat constructor; intros H; exact H). intros x [<-|[]]. apply Nat.ltb_lt. vm_compute. reflexivity. }
  split; [vm_compute; reflexivity|]. repeat (split; [vm_compute; reflexivity|]). eexists. vm_compute. reflexivity.
Qed.
(** A core that was inactive when loaded has a front volume already: re-adding it initialises that a second time *)
Theorem C57_leak_refuted : exists s s', history true [(1, 5, 6, false)] [] s /\ seen s 1 = Some (false, true, 5, 6) /\ do_op (TryAdd 5 6 T_NONE) s = Some (true, s') /\ lost (cores s' 1) = 1 /\
  exists s'', do_op (Remove 1 R_NONE) s = Some (true, s'') /\ added (cores s'' 1) = false /\ front (cores s'' 1) = true.
Proof.
  eexists. eexists. split.
  { split; [|reflexivity]. repeat split; cbn [map fst snd]; try (repeat constructor; intros H; exact H). intros x [<-|[]]. apply Nat.ltb_lt. vm_compute. reflexivity. }
  split; [vm_compute; reflexivity|]. split; [vm_compute; reflexivity|]. split; [vm_compute; reflexivity|]. eexists. split; [vm_compute; reflexivity|]. split; vm_compute; reflexivity.
Qed.
Print Assumptions C39_pick.
Print Assumptions C39_unique.
Print Assumptions C39_succeeds.
Print Assumptions C57_books.
Print Assumptions C57_front_partial.
Print Assumptions C57_failed_partial.
Print Assumptions C57_try_add_refuted.
Print Assumptions C57_leak_refuted.

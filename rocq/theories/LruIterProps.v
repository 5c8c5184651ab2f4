(** C56 - taking lines and selecting lines to clean exhausts the 32 LRU lists of a class.
    C34 - eviction-triggered cleaning. *)
From Coq Require Import NArith List Bool Arith Lia Permutation.
From Verif Require BitsProofs.
From Verif Require Import LruIterModel.
Import ListNotations.
Open Scope nat_scope.

(** ** The iterator *)
(** List i is still to be visited: its bit, counted from the list after the current one *)
Definition pos (ix i : nat) : nat := (i + (NL - 1) - ix) mod NL.
Definition avl (it : iter) (i : nat) : bool := N.testbit (mask it) (N.of_nat (pos (idx it) i)).
Definition cnt (it : iter) : nat := length (filter (avl it) (seq 0 NL)).
Record Ok (it : iter) : Prop := { ok_idx : idx it < NL; ok_mask : forall j, (32 <= j)%N -> N.testbit (mask it) j = false; ok_num : num it = cnt it }.

Lemma ffs_from_spec b fuel : forall k, match ffs_from fuel k b with
  | 0 => forall j, k <= j < k + fuel -> N.testbit b (N.of_nat j) = false
  | S j => k <= j < k + fuel /\ N.testbit b (N.of_nat j) = true end.
Proof.
  induction fuel as [|f IH]; intros k; cbn [ffs_from]; [intros j Hj; lia|]. destruct (N.testbit b (N.of_nat k)) eqn:E; [split; [lia|exact E]|].
  specialize (IH (S k)). destruct (ffs_from f (S k) b) as [|j].
  - intros j Hj. destruct (Nat.eq_dec j k) as [->|]; [exact E | apply IH; lia].
  - destruct IH as (H1 & H2). split; [lia | exact H2].
Qed.
Lemma rotate_spec b s j : (forall k, (32 <= k)%N -> N.testbit b k = false) -> s <= NL -> j < NL ->
  N.testbit (rotate_right b s NL) (N.of_nat j) = N.testbit b (N.of_nat ((j + s) mod NL)).
Proof.
  unfold NL. intros Hb Hs Hj. unfold rotate_right. rewrite N.land_spec, N.lor_spec, N.land_spec, N.shiftr_spec', !BitsProofs.ones_spec.
  replace (N.of_nat j <? N.of_nat 32)%N with true by (symmetry; apply N.ltb_lt; lia). replace (N.of_nat j <? 64)%N with true by (symmetry; apply N.ltb_lt; lia). rewrite !andb_true_r.
  destruct (Nat.le_gt_cases (32 - s) j) as [L|L].
  - rewrite N.shiftl_spec_high' by lia. replace (N.of_nat j + N.of_nat s)%N with (N.of_nat (j + s)) by lia. rewrite Hb by lia. cbn [orb].
    f_equal. replace (j + s) with (j - (32 - s) + 1 * 32) by lia. rewrite Nat.mod_add, Nat.mod_small by lia. lia.
  - rewrite N.shiftl_spec_low by lia. rewrite orb_false_r. f_equal. rewrite Nat.mod_small by lia. lia.
Qed.
Lemma rotate_high b s j : (32 <= j)%N -> N.testbit (rotate_right b s NL) j = false.
Proof. intros H. unfold rotate_right. rewrite N.land_spec, BitsProofs.ones_spec. replace (j <? N.of_nat NL)%N with false; [apply andb_false_r|]. symmetry. apply N.ltb_ge. unfold NL. lia. Qed.

Lemma pos_next_all : forallb (fun ix => forallb (fun inc => forallb (fun i => (pos ((ix + inc) mod NL) i + inc) mod NL =? pos ix i) (seq 0 32)) (seq 0 33)) (seq 0 32) = true.
Proof. vm_compute. reflexivity. Qed.
Lemma pos_next ix inc i : ix < NL -> inc <= NL -> i < NL -> (pos ((ix + inc) mod NL) i + inc) mod NL = pos ix i.
Proof.
  unfold NL at 1 2 3. intros H1 H2 H3. pose proof pos_next_all as A. rewrite forallb_forall in A. specialize (A ix ltac:(apply in_seq; lia)). rewrite forallb_forall in A.
  specialize (A inc ltac:(apply in_seq; lia)). rewrite forallb_forall in A. specialize (A i ltac:(apply in_seq; lia)). apply Nat.eqb_eq. exact A.
Qed.
Lemma pos_inv_all : forallb (fun ix => forallb (fun k => (pos ix ((ix + k + 1) mod NL) =? k)) (seq 0 32) && (pos ix ix =? 31)) (seq 0 32) = true.
Proof. vm_compute. reflexivity. Qed.
Lemma pos_inv ix k : ix < NL -> k < NL -> pos ix ((ix + k + 1) mod NL) = k /\ pos ix ix = NL - 1.
Proof.
  unfold NL at 1 2. intros H1 H2. pose proof pos_inv_all as A. rewrite forallb_forall in A. specialize (A ix ltac:(apply in_seq; lia)). apply andb_prop in A. destruct A as (A & B). rewrite forallb_forall in A.
  specialize (A k ltac:(apply in_seq; lia)). split; apply Nat.eqb_eq; assumption.
Qed.
Lemma pos_inj_all : forallb (fun ix => forallb (fun i => (negb (pos ix i =? 31) || (i =? ix)) && (pos ix i <? 32)) (seq 0 32)) (seq 0 32) = true.
Proof. vm_compute. reflexivity. Qed.
Lemma pos_31 ix i : ix < NL -> i < NL -> pos ix i < NL /\ (pos ix i = NL - 1 -> i = ix).
Proof.
  unfold NL at 1 2. intros H1 H2. pose proof pos_inj_all as A. rewrite forallb_forall in A. specialize (A ix ltac:(apply in_seq; lia)). rewrite forallb_forall in A.
  specialize (A i ltac:(apply in_seq; lia)). apply andb_prop in A. destruct A as (A & B). apply Nat.ltb_lt in B. split; [exact B|]. intros E. rewrite E in A. apply Nat.eqb_eq. exact A.
Qed.

(** The next list is one that is to be visited, if there is one; nothing else changes *)
Lemma next_ok it : Ok it -> Ok (next_lru it) /\ (forall i, i < NL -> avl (next_lru it) i = avl it i) /\ ((exists i, i < NL /\ avl it i = true) -> avl (next_lru it) (idx (next_lru it)) = true).
Proof.
  intros [I M Nm]. pose proof (ffs_from_spec (mask it) 64 0) as F. fold (ffs (mask it)) in F.
  assert (FB : ffs (mask it) <= NL).
  { destruct (ffs (mask it)) as [|j]; [lia|]. destruct F as (F1 & F2). destruct (Nat.le_gt_cases NL j) as [H|H]; [rewrite M in F2 by (unfold NL in H; lia); discriminate | lia]. }
  assert (AV : forall i, i < NL -> avl (next_lru it) i = avl it i).
  { intros i Hi. unfold avl, next_lru. cbn [mask idx]. assert (IX : (idx it + ffs (mask it)) mod NL < NL) by (apply Nat.mod_upper_bound; discriminate).
    rewrite rotate_spec; [rewrite pos_next by assumption; reflexivity | exact M | exact FB | apply pos_31; assumption]. }
  split; [constructor|split].
  - cbn [next_lru idx]. apply Nat.mod_upper_bound. discriminate.
  - intros j Hj. apply rotate_high. exact Hj.
  - cbn [next_lru num]. rewrite Nm. unfold cnt. f_equal. apply filter_ext_in. intros i Hi. apply in_seq in Hi. symmetry. apply AV. unfold NL in *. lia.
  - exact AV.
  - intros (i & Hi & Ai). destruct (ffs (mask it)) as [|k] eqn:E.
    + unfold avl in Ai. rewrite F in Ai; [discriminate|]. pose proof (proj1 (pos_31 (idx it) i I Hi)). unfold NL in *. lia.
    + destruct F as (F1 & F2). assert (IX : idx (next_lru it) = (idx it + k + 1) mod NL) by (cbn [next_lru idx]; rewrite E; f_equal; lia).
      rewrite AV by (rewrite IX; apply Nat.mod_upper_bound; discriminate). unfold avl. rewrite IX, (proj1 (pos_inv (idx it) k I ltac:(lia))). exact F2.
Qed.
Lemma is_empty_avl it : Ok it -> is_empty it = negb (avl it (idx it)).
Proof. intros [I _ _]. unfold is_empty, avl. rewrite (proj2 (pos_inv (idx it) 0 I ltac:(unfold NL; lia))). reflexivity. Qed.
Lemma filter_one (f g : nat -> bool) x : forall l, NoDup l -> In x l -> f x = true -> g x = false -> (forall y, In y l -> y <> x -> g y = f y) -> length (filter f l) = S (length (filter g l)).
Proof.
  induction l as [|y l IH]; intros ND Ix Fx Gx H; [destruct Ix|]. apply NoDup_cons_iff in ND. destruct ND as (N1 & N2). cbn [filter]. destruct (Nat.eq_dec y x) as [->|Ne].
  - rewrite Fx, Gx. cbn [length]. f_equal. f_equal. apply filter_ext_in. intros z Hz. symmetry. apply H; [right; exact Hz|]. intros ->. contradiction.
  - rewrite (H y) by (try (left; reflexivity); exact Ne). destruct Ix as [->|Ix]; [contradiction|]. assert (R : length (filter f l) = S (length (filter g l))) by (apply IH; try assumption; intros z Hz; apply H; right; exact Hz).
    destruct (f y); cbn [length]; rewrite R; reflexivity.
Qed.
Lemma set_empty_ok it : Ok it -> avl it (idx it) = true -> Ok (set_empty it) /\ avl (set_empty it) (idx it) = false /\ (forall i, i < NL -> i <> idx it -> avl (set_empty it) i = avl it i) /\ S (num (set_empty it)) = num it.
Proof.
  intros [I M Nm] A. pose proof (proj2 (pos_inv (idx it) 0 I ltac:(unfold NL; lia))) as P.
  assert (A1 : avl (set_empty it) (idx it) = false) by (unfold avl; cbn [set_empty mask idx]; rewrite P; apply N.clearbit_eq).
  assert (A2 : forall i, i < NL -> i <> idx it -> avl (set_empty it) i = avl it i).
  { intros i Hi Ne. unfold avl. cbn [set_empty mask idx]. apply N.clearbit_neq. intros E. apply Ne. apply (pos_31 (idx it) i I Hi). lia. }
  assert (C : cnt it = S (cnt (set_empty it))).
  { unfold cnt. apply (filter_one _ _ (idx it)); [apply seq_NoDup | apply in_seq; unfold NL in *; lia | exact A | exact A1 |]. intros y Hy Ne. apply A2; [|exact Ne]. apply in_seq in Hy. unfold NL in *. lia. }
  split; [constructor|].
  - exact I.
  - intros j Hj. cbn [set_empty mask]. rewrite N.clearbit_neq by (unfold NL; lia). apply M. exact Hj.
  - cbn [set_empty num]. rewrite Nm, C. lia.
  - split; [exact A1|]. split; [exact A2|]. cbn [set_empty num]. rewrite Nm, C. lia.
Qed.
Lemma cnt_zero it : cnt it = 0 -> forall i, i < NL -> avl it i = false.
Proof.
  unfold cnt. intros H i Hi. destruct (avl it i) eqn:E; [|reflexivity]. assert (In i (filter (avl it) (seq 0 NL))) by (apply filter_In; split; [apply in_seq; lia | exact E]).
  destruct (filter (avl it) (seq 0 NL)); [contradiction | discriminate].
Qed.
Lemma cnt_pos it : 0 < cnt it -> exists i, i < NL /\ avl it i = true.
Proof.
  unfold cnt. destruct (filter (avl it) (seq 0 NL)) as [|i l] eqn:E; cbn [length]; [lia|]. intros _. exists i.
  assert (In i (filter (avl it) (seq 0 NL))) as H by (rewrite E; left; reflexivity). apply filter_In in H. destruct H as (H1 & H2). apply in_seq in H1. split; [lia | exact H2].
Qed.
Lemma init_ok start : Ok (iter_init start) /\ forall i, i < NL -> avl (iter_init start) i = true.
Proof.
  assert (IX : (start + NL - 1) mod NL < NL) by (apply Nat.mod_upper_bound; discriminate).
  assert (AV : forall i, i < NL -> avl (iter_init start) i = true).
  { intros i Hi. unfold avl. cbn [iter_init mask idx]. rewrite BitsProofs.ones_spec. apply N.ltb_lt. pose proof (proj1 (pos_31 _ i IX Hi)). lia. }
  split; [|exact AV]. constructor.
  - exact IX.
  - intros j Hj. cbn [iter_init mask]. rewrite BitsProofs.ones_spec. apply N.ltb_ge. unfold NL. lia.
  - cbn [iter_init num]. unfold cnt. rewrite (filter_ext_in _ (fun _ => true)); [|intros i Hi; apply AV; apply in_seq in Hi; unfold NL in *; lia].
    replace (filter (fun _ => true) (seq 0 NL)) with (seq 0 NL) by (symmetry; clear; induction (seq 0 NL) as [|x l IH]; [reflexivity|]; cbn [filter]; rewrite IH; reflexivity). rewrite seq_length. reflexivity.
Qed.

Lemma filter_len (f : nat -> bool) l : length (filter f l) <= length l.
Proof. induction l as [|x l IH]; [apply le_n|]. cbn [filter]. destruct (f x); cbn [length]; lia. Qed.

(** ** Any way of picking lines from the lists *)
Section Pick.
  Context {St : Type}.
  Variables (pick : nat -> St -> option nat * St) (cand : St -> nat -> list nat) (Good : list nat -> St -> Prop).
  (** [cand s i]: the lines of list i that can be picked; [Good t s]: state s after picking t *)
  Hypothesis pick_none : forall t s i, Good t s -> cand s i = [] -> pick i s = (None, s).
  Hypothesis pick_some : forall t s i, Good t s -> cand s i <> [] -> exists x s', pick i s = (Some x, s') /\ Good (x :: t) s' /\
    cand s i = x :: cand s' i /\ forall j, j <> i -> cand s' j = cand s j.

  Definition covered (it : iter) (s : St) : Prop := forall i, i < NL -> avl it i = false -> cand s i = [].
  Definition all_cand (s : St) : list nat := flat_map (cand s) (seq 0 NL).

  Lemma flat_map_change (f g : nat -> list nat) i x : forall l, NoDup l -> In i l -> f i = x :: g i -> (forall j, j <> i -> g j = f j) -> Permutation (flat_map f l) (x :: flat_map g l).
  Proof.
    induction l as [|j l IH]; intros ND Ii P H; [destruct Ii|]. apply NoDup_cons_iff in ND. destruct ND as (N1 & N2). cbn [flat_map]. destruct (Nat.eq_dec j i) as [->|Ne].
    - assert (E : flat_map g l = flat_map f l). { clear IH Ii N2. induction l as [|k l IH]; [reflexivity|]. cbn [flat_map]. rewrite IH by (intros H'; apply N1; right; exact H'). rewrite H; [reflexivity|]. intros ->. apply N1. left. reflexivity. }
      rewrite E, P. reflexivity.
    - destruct Ii as [->|Ii]; [contradiction|]. rewrite (H j Ne). rewrite (IH N2 Ii P H). symmetry. apply Permutation_middle.
  Qed.

  Lemma next_spec t fuel : forall it s, Ok it -> Good t s -> covered it s -> num it < fuel ->
    exists r it' s', next_line fuel pick it s = Some (r, it', s') /\ Ok it' /\ Good (match r with Some x => x :: t | None => t end) s' /\ covered it' s' /\
    match r with
    | Some x => Permutation (all_cand s) (x :: all_cand s')
    | None => all_cand s = [] /\ s' = s
    end /\ (forall i, exists p, cand s i = p ++ cand s' i /\ forall x, In x p -> r = Some x).
  Proof.
    induction fuel as [|fuel IH]; intros it s O G C F; [lia|]. cbn [next_line]. destruct (next_ok it O) as (O1 & A1 & A2). set (it1 := next_lru it) in *.
    assert (C1 : covered it1 s) by (intros i Hi Ai; apply C; [exact Hi | rewrite <- A1 by exact Hi; exact Ai]).
    assert (N1 : num it1 = num it) by reflexivity.
    destruct (cand s (idx it1)) as [|y ys] eqn:E.
    - rewrite (pick_none t s (idx it1) G E). rewrite (is_empty_avl it1 O1).
      destruct (avl it1 (idx it1)) eqn:Av; cbn [negb].
      + destruct (set_empty_ok it1 O1 Av) as (O2 & B1 & B2 & B3). set (it2 := set_empty it1) in *.
        assert (C2 : covered it2 s). { intros i Hi Ai. destruct (Nat.eq_dec i (idx it1)) as [->|Ne]; [exact E|]. apply C1; [exact Hi|]. rewrite <- B2 by assumption. exact Ai. }
        unfold all_empty. destruct (Nat.eqb_spec (num it2) 0) as [Z|Z].
        * exists None, it2, s. split; [reflexivity|]. split; [exact O2|]. split; [exact G|]. split; [exact C2|]. split; [|intros i; exists []; split; [reflexivity | intros x []]]. split; [|reflexivity]. unfold all_cand.
          assert (Q : forall i, i < NL -> cand s i = []) by (intros i Hi; apply C2; [exact Hi|]; apply cnt_zero; [rewrite <- (ok_num _ O2); exact Z | exact Hi]).
          assert (QQ : forall l, (forall i, In i l -> i < NL) -> flat_map (cand s) l = []) by (induction l as [|j l IHl]; intros Hl; [reflexivity|]; cbn [flat_map]; rewrite Q by (apply Hl; left; reflexivity); apply IHl; intros i Ii; apply Hl; right; exact Ii).
          apply QQ. intros i Ii. apply in_seq in Ii. lia.
        * apply IH; try assumption. lia.
      + assert (Z : num it1 = 0). { rewrite (ok_num _ O1). destruct (cnt it1) eqn:K; [reflexivity|]. exfalso. assert (P : exists i, i < NL /\ avl it1 i = true) by (apply cnt_pos; lia).
          destruct P as (i & Hi & Ai). rewrite A1 in Ai by exact Hi. specialize (A2 (ex_intro _ i (conj Hi Ai))). congruence. }
        unfold all_empty. rewrite Z. cbn [Nat.eqb]. exists None, it1, s. split; [reflexivity|]. split; [exact O1|]. split; [exact G|]. split; [exact C1|]. split; [|intros i; exists []; split; [reflexivity | intros x []]]. split; [|reflexivity]. unfold all_cand.
        assert (Q : forall i, i < NL -> cand s i = []) by (intros i Hi; apply C1; [exact Hi|]; apply cnt_zero; [rewrite <- (ok_num _ O1); exact Z | exact Hi]).
        assert (QQ : forall l, (forall i, In i l -> i < NL) -> flat_map (cand s) l = []) by (induction l as [|j l IHl]; intros Hl; [reflexivity|]; cbn [flat_map]; rewrite Q by (apply Hl; left; reflexivity); apply IHl; intros i Ii; apply Hl; right; exact Ii).
        apply QQ. intros i Ii. apply in_seq in Ii. lia.
    - destruct (pick_some t s (idx it1) G) as (x & s' & -> & G' & P & O'); [rewrite E; discriminate|].
      exists (Some x), it1, s'. split; [reflexivity|]. split; [exact O1|]. split; [exact G'|]. split; [|split].
      + intros i Hi Ai. destruct (Nat.eq_dec i (idx it1)) as [->|Ne]; [|rewrite O' by exact Ne; apply C1; assumption].
        rewrite (C1 _ Hi Ai) in E. discriminate.
      + unfold all_cand. apply (flat_map_change (cand s) (cand s') (idx it1) x); [apply seq_NoDup | apply in_seq; pose proof (ok_idx _ O1); lia | exact P | exact O'].
      + intros i. destruct (Nat.eq_dec i (idx it1)) as [->|Ne].
        * exists [x]. split; [exact P|]. intros z [->|[]]. reflexivity.
        * exists []. split; [symmetry; apply O'; exact Ne | intros z []].
  Qed.

  Lemma take_spec n : forall t it s, Ok it -> Good t s -> covered it s -> exists xs s', take n pick it s = Some (xs, s') /\ Good (rev xs ++ t) s' /\
    Permutation (all_cand s) (xs ++ all_cand s') /\ length xs = Nat.min n (length (all_cand s)) /\
    (forall i, exists p, cand s i = p ++ cand s' i /\ incl p xs).
  Proof.
    induction n as [|n IH]; intros t it s O G C.
    { exists [], s. split; [reflexivity|]. split; [exact G|]. split; [reflexivity|]. split; [reflexivity|]. intros i. exists []. split; [reflexivity | apply incl_refl]. }
    cbn [take]. destruct (next_spec t (NL + 1) it s O G C) as (r & it' & s1 & -> & O1 & G1 & C1 & R & PX).
    { rewrite (ok_num _ O). unfold cnt. pose proof (filter_len (avl it) (seq 0 NL)) as H. rewrite seq_length in H. lia. }
    destruct r as [x|].
    - destruct (IH (x :: t) it' s1 O1 G1 C1) as (xs & s2 & -> & G2 & P & L & PX2). exists (x :: xs), s2. split; [reflexivity|]. split; [cbn [rev]; rewrite <- app_assoc; exact G2|]. split; [|split].
      + rewrite R. cbn [app]. apply perm_skip. exact P.
      + apply Permutation_length in R. rewrite R. cbn [length]. lia.
      + intros i. destruct (PX i) as (p & E1 & I1). destruct (PX2 i) as (q & E2 & I2). exists (p ++ q). split; [rewrite E1, E2; apply app_assoc|].
        intros z Hz. apply in_app_or in Hz. destruct Hz as [Hz|Hz]; [left; specialize (I1 z Hz); congruence | right; exact (I2 z Hz)].
    - destruct R as (R & ->). exists [], s. split; [reflexivity|]. split; [exact G1|]. rewrite R. cbn [length app]. split; [reflexivity|]. split; [lia|].
      intros i. exists []. split; [reflexivity | apply incl_refl].
  Qed.
End Pick.

(** ** C56, taking lines for a request *)
(** The lists of a class hold each line once *)
Definition lists_ok (ls : nat -> list nat) : Prop := (forall i, NoDup (ls i)) /\ forall i j x, In x (ls i) -> In x (ls j) -> i = j.
(** Line x of list i can be taken *)
Definition available (ls : nat -> list nat) (lk : list nat) (i x : nat) : Prop := In x (ls i) /\ ~ In x lk.
(** Line y of list i was used less recently than x *)
Definition older (l : list nat) (y x : nat) : Prop := exists a b c, l = a ++ y :: b ++ x :: c.

Lemma mem_spec x l : mem x l = true <-> In x l.
Proof. unfold mem. rewrite existsb_exists. split; [intros (y & Hy & E); apply Nat.eqb_eq in E; subst; exact Hy | intros H; exists x; split; [exact H | apply Nat.eqb_refl]]. Qed.
Definition free (lk : list nat) (l : list nat) : list nat := filter (fun x => negb (mem x lk)) l.
Lemma free_in lk l x : In x (free lk l) <-> In x l /\ ~ In x lk.
Proof. unfold free. rewrite filter_In, negb_true_iff, <- not_true_iff_false, mem_spec. tauto. Qed.
Lemma first_unlocked_spec lk l : first_unlocked lk l = match free lk l with [] => None | x :: _ => Some x end.
Proof. induction l as [|x l IH]; [reflexivity|]. unfold free. cbn [first_unlocked filter]. destruct (mem x lk); cbn [negb]; [exact IH | reflexivity]. Qed.
Lemma free_notin lk l x : ~ In x l -> free (x :: lk) l = free lk l.
Proof.
  intros H. apply filter_ext_in. intros y Hy. f_equal. unfold mem. cbn [existsb]. replace (y =? x) with false; [reflexivity|]. symmetry. apply Nat.eqb_neq. intros ->. contradiction.
Qed.
Lemma free_app lk a b : free lk (a ++ b) = free lk a ++ free lk b.
Proof. apply filter_app. Qed.
Lemma remove_notin x l : ~ In x l -> remove Nat.eq_dec x l = l.
Proof. intros H. apply notin_remove. exact H. Qed.
(** Taking the first free line leaves the others, in order *)
Lemma free_remove lk l x r : NoDup l -> free lk l = x :: r -> free (x :: lk) (remove Nat.eq_dec x l) = r.
Proof.
  induction l as [|y l IH]; intros ND E; [discriminate|]. apply NoDup_cons_iff in ND. destruct ND as (N1 & N2). unfold free in E. cbn [filter] in E. destruct (mem y lk) eqn:M; cbn [negb] in E.
  - assert (Ne : x <> y). { intros ->. assert (In y (free lk l)) as Hi by (unfold free; rewrite E; left; reflexivity). apply free_in in Hi. destruct Hi as (_ & Hi). apply Hi. apply mem_spec. exact M. }
    cbn [remove]. destruct (Nat.eq_dec x y) as [->|_]; [contradiction|]. unfold free. cbn [filter]. replace (mem y (x :: lk)) with true; [cbn [negb]; apply IH; assumption|].
    symmetry. apply mem_spec. right. apply mem_spec. exact M.
  - injection E as -> E. cbn [remove]. destruct (Nat.eq_dec x x) as [_|C]; [|contradiction]. rewrite remove_notin by exact N1. rewrite free_notin by exact N1. exact E.
Qed.
Lemma NoDup_app_l (a b : list nat) : NoDup (a ++ b) -> NoDup a.
Proof.
  induction a as [|x a IH]; intros H; [constructor|]. cbn [app] in H. apply NoDup_cons_iff in H. destruct H as (A & B). constructor; [|exact (IH B)]. intros I. apply A. apply in_or_app. left. exact I.
Qed.
Lemma NoDup_remove_snoc x l : NoDup l -> In x l -> NoDup (remove Nat.eq_dec x l ++ [x]).
Proof.
  intros ND Hx. apply (Permutation_NoDup (l := x :: remove Nat.eq_dec x l)); [apply Permutation_cons_append|]. constructor; [apply remove_In|].
  clear Hx. induction l as [|y l IH]; [constructor|]. apply NoDup_cons_iff in ND. destruct ND as (N1 & N2). cbn [remove]. destruct (Nat.eq_dec x y); [apply IH; exact N2|].
  constructor; [|apply IH; exact N2]. intros H. apply in_remove in H. apply N1. apply H.
Qed.
Lemma in_remove_iff x l y : In y (remove Nat.eq_dec x l) <-> In y l /\ y <> x.
Proof. split; [intros H; apply in_remove in H; exact H | intros (H1 & H2); apply in_in_remove; assumption]. Qed.

Definition ecand (s : evst) (i : nat) : list nat := free (locked s) (lists s i).
Lemma evict_lists same s i x : lists_ok (lists s) -> In x (lists s i) -> lists_ok (upd (lists s) i (if same : bool then remove Nat.eq_dec x (lists s i) ++ [x] else remove Nat.eq_dec x (lists s i))) /\
  forall j y, In y (upd (lists s) i (if same then remove Nat.eq_dec x (lists s i) ++ [x] else remove Nat.eq_dec x (lists s i)) j) <-> In y (lists s j) /\ (same = true \/ y <> x).
Proof.
  intros (H1 & H2) Hx.
  assert (K : forall j y, In y (upd (lists s) i (if same then remove Nat.eq_dec x (lists s i) ++ [x] else remove Nat.eq_dec x (lists s i)) j) <-> In y (lists s j) /\ (same = true \/ y <> x)).
  { intros j y. unfold upd. destruct (Nat.eqb_spec j i) as [->|Ne].
    - destruct same; [rewrite in_app_iff|]; rewrite in_remove_iff; cbn [In]; [|split; [intros (A & B); auto | intros (A & [B|B]); [discriminate | auto]]].
      split; [intros [(A & B)|[<-|[]]]; auto | intros (A & _); destruct (Nat.eq_dec y x) as [->|]; auto].
    - split; [|intros (A & _); exact A]. intros A. split; [exact A|]. right. intros ->. apply Ne. exact (H2 _ _ _ A Hx). }
  split; [|exact K]. split.
  - intros j. unfold upd. destruct (Nat.eqb_spec j i) as [->|Ne]; [|apply H1]. pose proof (NoDup_remove_snoc x (lists s i) (H1 i) Hx) as D. destruct same; [exact D|]. apply NoDup_app_l in D. exact D.
  - intros a b y Ha Hb. apply K in Ha, Hb. destruct Ha as (Ha & _), Hb as (Hb & _). exact (H2 _ _ _ Ha Hb).
Qed.
Lemma evict_none same s i : ecand s i = [] -> evict_pick same i s = (None, s).
Proof. unfold ecand, evict_pick. intros E. rewrite first_unlocked_spec, E. reflexivity. Qed.
(** What stays true while lines are taken, from state [s0] *)
Definition egood (same : bool) (s0 : evst) (t : list nat) (s : evst) : Prop :=
  lists_ok (lists s) /\ locked s = t ++ locked s0 /\ forall j y, In y (lists s j) <-> In y (lists s0 j) /\ (same = true \/ ~ In y t).
Lemma evict_some same s0 t s i : egood same s0 t s -> ecand s i <> [] -> exists x s', evict_pick same i s = (Some x, s') /\ egood same s0 (x :: t) s' /\ ecand s i = x :: ecand s' i /\ forall j, j <> i -> ecand s' j = ecand s j.
Proof.
  intros (W & L & Q) E. unfold evict_pick. rewrite first_unlocked_spec. fold (ecand s i). destruct (ecand s i) as [|x r] eqn:C; [contradiction|]. exists x. eexists. split; [reflexivity|].
  assert (Hx : In x (lists s i)) by (apply (free_in (locked s)); fold (ecand s i); rewrite C; left; reflexivity).
  destruct (evict_lists same s i x W Hx) as (W' & K). split; [|split].
  - split; [exact W'|]. cbn [locked lists]. split; [rewrite L; reflexivity|]. intros j y. rewrite K, Q. cbn [In]. split.
    + intros ((A & [B|B]) & [D|D]); split; auto. right. intros [F|F]; [congruence | contradiction].
    + intros (A & [B|B]); split; try (split; [exact A|]); auto.
  - f_equal. unfold ecand. cbn [locked lists]. unfold upd. rewrite Nat.eqb_refl. pose proof (free_remove (locked s) (lists s i) x r (proj1 W i) C) as F. destruct same; [|symmetry; exact F].
    rewrite free_app, F. unfold free. cbn [filter]. replace (mem x (x :: locked s)) with true by (symmetry; apply mem_spec; left; reflexivity). cbn [negb]. symmetry. apply app_nil_r.
  - intros j Ne. unfold ecand. cbn [locked lists]. unfold upd. apply Nat.eqb_neq in Ne as Ne'. rewrite Ne'. apply free_notin. intros H. apply Ne. exact (proj2 W _ _ _ H Hx).
Qed.

Lemma NoDup_flat (f : nat -> list nat) l : NoDup l -> (forall i, NoDup (f i)) -> (forall i j x, In x (f i) -> In x (f j) -> i = j) -> NoDup (flat_map f l).
Proof.
  intros ND H1 H2. induction l as [|i l IH]; [constructor|]. apply NoDup_cons_iff in ND. destruct ND as (N1 & N2). cbn [flat_map]. specialize (IH N2). clear N2.
  specialize (H1 i) as Hi. assert (D : forall x, In x (f i) -> ~ In x (flat_map f l)) by (intros x Hx Hf; apply in_flat_map in Hf; destruct Hf as (j & Hj & Hf); apply N1; rewrite (H2 i j x Hx Hf); exact Hj).
  induction (f i) as [|x r IHr]; [exact IH|]. apply NoDup_cons_iff in Hi. destruct Hi as (A & B). cbn [app]. constructor.
  - intros H. apply in_app_or in H. destruct H as [H|H]; [contradiction|]. apply (D x); [left; reflexivity | exact H].
  - apply IHr; [exact B|]. intros y Hy. apply D. right. exact Hy.
Qed.
Lemma in_split_app (p q a c : list nat) x : p ++ q = a ++ x :: c -> In x q -> (forall z, In z p -> z <> x) -> exists a', a = p ++ a'.
Proof.
  revert a. induction p as [|z p IH]; intros a E Hq Hp; [exists a; reflexivity|]. destruct a as [|w a]; cbn [app] in E; injection E as E1 E2.
  - exfalso. apply (Hp z); [left; reflexivity | exact E1].
  - destruct (IH a E2 Hq) as (a' & ->); [intros y Hy; apply Hp; right; exact Hy|]. exists a'. rewrite E1. reflexivity.
Qed.
Lemma prefix_older (p q : list nat) y x : NoDup (p ++ q) -> older (p ++ q) y x -> In x p -> In y p.
Proof.
  intros ND (a & b & c & E) Hx. assert (I : In y (p ++ q)) by (rewrite E; apply in_or_app; right; left; reflexivity). apply in_app_or in I. destruct I as [I|I]; [exact I|].
  assert (D : forall z, In z p -> ~ In z q). { clear - ND. induction p as [|w p IH]; intros z [].
    - subst w. cbn [app] in ND. apply NoDup_cons_iff in ND. destruct ND as (A & _). intros H. apply A. apply in_or_app. right. exact H.
    - cbn [app] in ND. apply NoDup_cons_iff in ND. apply IH; [apply ND | exact H]. }
  destruct (in_split_app p q a (b ++ x :: c) y E I) as (a' & ->); [intros z Hz ->; exact (D y Hz I)|].
  rewrite <- app_assoc in E. apply app_inv_head in E. exfalso. apply (D x Hx). rewrite E. apply in_or_app. right. right. apply in_or_app. right. left. reflexivity.
Qed.
Lemma free_older lk l y x : older l y x -> ~ In y lk -> ~ In x lk -> older (free lk l) y x.
Proof.
  intros (a & b & c & ->) Hy Hx. exists (free lk a), (free lk b), (free lk c). rewrite free_app. f_equal.
  assert (F : forall z r, ~ In z lk -> free lk (z :: r) = z :: free lk r). { intros z r H. unfold free. cbn [filter]. replace (mem z lk) with false; [reflexivity|]. symmetry. apply not_true_iff_false. rewrite mem_spec. exact H. }
  rewrite F by exact Hy. f_equal. rewrite free_app. f_equal. apply F. exact Hx.
Qed.

(** A request for n lines gets n different lines, or all the lines of the class that can be taken if
    there are fewer; of each list the least recently used ones.  They are locked for the request; the lists
    of the class keep them if they were already in it, and lose exactly them otherwise. *)
Theorem C56_take same start n s : lists_ok (lists s) ->
  exists xs s', req_clines same start n s = Some (xs, s') /\ NoDup xs /\
  (forall x, In x xs -> exists i, i < 32 /\ available (lists s) (locked s) i x) /\
  (length xs = n \/ length xs < n /\ forall i x, i < 32 -> available (lists s) (locked s) i x -> In x xs) /\
  (forall i y x, i < 32 -> available (lists s) (locked s) i y -> In x xs -> older (lists s i) y x -> In y xs) /\
  (forall x, In x (locked s') <-> In x xs \/ In x (locked s)) /\
  lists_ok (lists s') /\ (forall i x, i < 32 -> In x (lists s' i) <-> In x (lists s i) /\ (same = true \/ ~ In x xs)).
Proof.
  intros W. unfold req_clines. destruct (init_ok start) as (O & A).
  assert (G : egood same s [] s). { split; [exact W|]. split; [reflexivity|]. intros j y. cbn [In]. tauto. }
  destruct (take_spec (evict_pick same) ecand (egood same s) (fun _ s i _ => evict_none same s i) (evict_some same s) n [] (iter_init start) s O G) as (xs & s' & E & (W' & L & Q) & P & Le & PX).
  { intros i Hi F. rewrite A in F by exact Hi. discriminate. }
  rewrite app_nil_r in L, Q.
  assert (IN : forall u x, In x (all_cand ecand u) <-> exists i, i < 32 /\ available (lists u) (locked u) i x).
  { intros u x. unfold all_cand. rewrite in_flat_map. split; intros (i & H1 & H2); exists i; [apply in_seq in H1; unfold NL in H1; split; [lia|]; apply free_in; exact H2 | split; [apply in_seq; unfold NL; lia | apply free_in; exact H2]]. }
  assert (ND : NoDup (all_cand ecand s)). { apply NoDup_flat; [apply seq_NoDup | intros i; apply NoDup_filter; apply W |]. intros i j x Hi Hj. apply free_in in Hi, Hj. apply (proj2 W i j x); tauto. }
  pose proof (Permutation_NoDup P ND) as ND2.
  exists xs, s'. split; [exact E|]. split; [apply NoDup_app_l in ND2; exact ND2|]. split; [|split; [|split; [|split; [|split; [exact W'|]]]]].
  - intros x Hx. apply IN. apply (Permutation_in x (Permutation_sym P)). apply in_or_app. left. exact Hx.
  - destruct (Nat.le_gt_cases n (length (all_cand ecand s))) as [H|H]; [left; lia|]. right. split; [lia|]. intros i x Hi Hx.
    assert (Z : all_cand ecand s' = []). { apply length_zero_iff_nil. apply Permutation_length in P. rewrite app_length in P. lia. }
    rewrite Z, app_nil_r in P. apply (Permutation_in x P). apply IN. exists i. split; assumption.
  - intros i y x Hi (Y1 & Y2) Hx Ol. destruct (PX i) as (p & Ep & Ip).
    assert (Xi : In x (lists s i)) by (destruct Ol as (a & b & c & ->); apply in_or_app; right; right; apply in_or_app; right; left; reflexivity).
    assert (Xc : In x (all_cand ecand s)) by (apply (Permutation_in x (Permutation_sym P)); apply in_or_app; left; exact Hx).
    apply IN in Xc. destruct Xc as (i' & Hi' & X1 & X2). apply Ip. 
    assert (NDe : NoDup (ecand s i)) by (apply NoDup_filter; apply W). rewrite Ep in NDe. apply (prefix_older p (ecand s' i) y x NDe).
    + rewrite <- Ep. apply free_older; assumption.
    + assert (I : In x (ecand s i)) by (apply free_in; split; assumption). rewrite Ep in I. apply in_app_or in I. destruct I as [I|I]; [exact I|]. exfalso.
      apply free_in in I. destruct I as (_ & I). apply I. rewrite L. apply in_or_app. left. apply in_rev. rewrite rev_involutive. exact Hx.
  - intros x. rewrite L, in_app_iff, <- in_rev. tauto.
  - intros i x Hi. rewrite Q, <- in_rev. tauto.
Qed.

(** ** C56, selecting lines to clean *)
Definition ccand (lk : list nat) (s : nat -> list nat) (i : nat) : list nat := free lk (s i).
Lemma drop_spec lk l : match drop_locked lk l with [] => free lk l = [] | x :: r => free lk l = x :: free lk r end.
Proof.
  induction l as [|x l IH]; [reflexivity|]. cbn [drop_locked]. unfold free at 1. cbn [filter]. destruct (mem x lk) eqn:M; cbn [negb]; [|].
  - destruct (drop_locked lk l) as [|y r]; [exact IH|]. unfold free at 1. cbn [filter]. rewrite M. cbn [negb]. exact IH.
  - unfold free. cbn [filter]. rewrite M. reflexivity.
Qed.
Lemma clean_none lk s i : ccand lk s i = [] -> clean_pick lk i s = (None, s).
Proof. unfold ccand, clean_pick. intros E. pose proof (drop_spec lk (s i)) as D. destruct (drop_locked lk (s i)) as [|x r]; [reflexivity|]. rewrite E in D. discriminate. Qed.
Lemma clean_some lk s i : ccand lk s i <> [] -> exists x s', clean_pick lk i s = (Some x, s') /\ ccand lk s i = x :: ccand lk s' i /\ forall j, j <> i -> ccand lk s' j = ccand lk s j.
Proof.
  unfold ccand, clean_pick. intros E. pose proof (drop_spec lk (s i)) as D. destruct (drop_locked lk (s i)) as [|x r]; [contradiction|]. exists x. eexists. split; [reflexivity|]. split.
  - unfold upd. rewrite Nat.eqb_refl. exact D.
  - intros j Ne. unfold upd. apply Nat.eqb_neq in Ne. rewrite Ne. reflexivity.
Qed.
(** min(count, 32) different dirty lines are selected, or all that can be locked if there are fewer *)
Theorem C56_clean lk start count dirty : lists_ok dirty ->
  exists xs rest, select_dirty lk start count dirty = Some (xs, rest) /\ NoDup xs /\
  (forall x, In x xs -> exists i, i < 32 /\ available dirty lk i x) /\
  (length xs = Nat.min count 32 \/ length xs < Nat.min count 32 /\ forall i x, i < 32 -> available dirty lk i x -> In x xs).
Proof.
  intros W. unfold select_dirty. destruct (init_ok start) as (O & A).
  destruct (take_spec (clean_pick lk) (ccand lk) (fun _ _ => True) (fun _ s i _ => clean_none lk s i)) with (n := Nat.min count CLEAN_SIZE) (t := @nil nat) (it := iter_init start) (s := dirty) as (xs & s' & E & _ & P & Le & PX); try exact O.
  { intros t s i _ H. destruct (clean_some lk s i H) as (x & s' & H1 & H2). exists x, s'. tauto. }
  { exact I. }
  { intros i Hi F. rewrite A in F by exact Hi. discriminate. }
  assert (IN : forall u x, In x (all_cand (ccand lk) u) <-> exists i, i < 32 /\ available u lk i x).
  { intros u x. unfold all_cand. rewrite in_flat_map. split; intros (i & H1 & H2); exists i; [apply in_seq in H1; unfold NL in H1; split; [lia|]; apply free_in; exact H2 | split; [apply in_seq; unfold NL; lia | apply free_in; exact H2]]. }
  assert (ND : NoDup (all_cand (ccand lk) dirty)). { apply NoDup_flat; [apply seq_NoDup | intros i; apply NoDup_filter; apply W |]. intros i j x Hi Hj. apply free_in in Hi, Hj. apply (proj2 W i j x); tauto. }
  pose proof (Permutation_NoDup P ND) as ND2.
  exists xs, s'. split; [exact E|]. split; [apply NoDup_app_l in ND2; exact ND2|]. split.
  - intros x Hx. apply IN. apply (Permutation_in x (Permutation_sym P)). apply in_or_app. left. exact Hx.
  - change CLEAN_SIZE with 32 in *. destruct (Nat.le_gt_cases (Nat.min count 32) (length (all_cand (ccand lk) dirty))) as [H|H]; [left; lia|]. right. split; [lia|]. intros i x Hi Hx.
    assert (Z : all_cand (ccand lk) s' = []). { apply length_zero_iff_nil. apply Permutation_length in P. rewrite app_length in P. lia. }
    rewrite Z, app_nil_r in P. apply (Permutation_in x P). apply IN. exists i. split; assumption.
Qed.

(** Three lists, line 12 locked; five lines taken from another class starting with list 2 *)
Definition ls0 : nat -> list nat := fun i => match i with 2 => [10; 11] | 5 => [12; 13; 14] | 31 => [15; 16] | _ => [] end.
Lemma ls0_ok : lists_ok ls0.
Proof.
  split.
  - intros i. assert (H : i = 2 \/ i = 5 \/ i = 31 \/ ls0 i = []) by (do 32 (destruct i as [|i]; [cbn; tauto|]); cbn; tauto).
    destruct H as [->|[->|[->|H]]]; [..|rewrite H; constructor]; cbn; repeat constructor; cbn; intuition discriminate.
  - intros i j x Hi Hj. assert (K : forall k y, In y (ls0 k) -> k = if y <? 12 then 2 else if y <? 15 then 5 else 31).
    { intros k y Hy. do 32 (destruct k as [|k]; [cbn in Hy; try (destruct Hy; fail); intuition (subst; reflexivity)|]). cbn in Hy. destruct Hy. }
    rewrite (K i x Hi), (K j x Hj). reflexivity.
Qed.
Example C56_case : option_map fst (req_clines false 2 5 {| lists := ls0; locked := [12] |}) = Some [10; 13; 15; 11; 14].
Proof. vm_compute. reflexivity. Qed.
Example C56_case_all : option_map fst (req_clines true 6 50 {| lists := ls0; locked := [12] |}) = Some [15; 10; 13; 16; 11; 14].
Proof. vm_compute. reflexivity. Qed.
Example C56_case_clean : option_map fst (select_dirty [12] 3 128 ls0) = Some [13; 15; 10; 14; 16; 11].
Proof. vm_compute. reflexivity. Qed.

(** ** C34 *)
(** Cleaning can be started: no management operation, the class has a dirty line that can be locked *)
Definition cleanable (e : env) : Prop := e_mngt e = false /\ lists_ok (e_dirty e) /\ exists i x, i < 32 /\ available (e_dirty e) (e_locked e) i x.
(** No cleaning of the class is in progress and management does not block it *)
Definition idle (c : ctx) : Prop := refs c = 0 /\ frozen c = false.
Definition started (r : option (list nat)) : Prop := match r with Some (_ :: _) => True | _ => False end.
(** Every attempt in the history that gets as far as looking for dirty lines finds one *)
Fixpoint finds (evs : list event) (c : ctx) : Prop :=
  match evs with
  | [] => True
  | ev :: evs => match ev with Attempt e => lists_ok (e_dirty e) /\ (e_mngt e = false -> frozen c = false -> running c = false -> cleanable e) | _ => True end /\
                 match step ev c with Some (_, c) => finds evs c | None => False end
  end.

Lemma clean_starts e c : cleanable e -> frozen c = false -> running c = false -> exists x xs c', lru_clean e 128 c = Some (Some (x :: xs), c') /\ refs c' = S (refs c) /\ running c' = true /\ frozen c' = frozen c.
Proof.
  intros (M & W & i & x & Hi & Av) F R. unfold lru_clean. rewrite M, F, R. destruct (C56_clean (e_locked e) (e_start e) 128 (e_dirty e) W) as (xs & rest & -> & ND & In1 & L).
  destruct xs as [|y ys].
  - exfalso. destruct L as [L|(_ & L)]; [cbn in L; discriminate|]. exact (L i x Hi Av).
  - exists y, ys. eexists. split; [reflexivity|]. cbn [refs running frozen]. split; [lia|]. split; [reflexivity | congruence].
Qed.
(** cleaner_running is set exactly while cleaning is in progress *)
Definition cinv (c : ctx) : Prop := refs c = if running c then 1 else 0.
Lemma step_inv ev c : cinv c -> match ev with Attempt e => lists_ok (e_dirty e) /\ (e_mngt e = false -> frozen c = false -> running c = false -> cleanable e) | _ => True end -> exists r c', step ev c = Some (r, c') /\ cinv c'.
Proof.
  intros I F. destruct ev as [e| |b]; cbn [step].
  - destruct F as (W & F). unfold lru_clean. destruct (e_mngt e) eqn:M; [eauto|]. destruct (frozen c) eqn:Fr; [eauto|]. destruct (running c) eqn:R; [eauto|].
    destruct (clean_starts e c (F eq_refl eq_refl eq_refl) Fr R) as (x & xs & c' & E & A & B & _). unfold lru_clean in E. rewrite M, Fr, R in E. rewrite E. eexists. eexists. split; [reflexivity|].
    unfold cinv in *. rewrite B, A, I, R. reflexivity.
  - eexists. eexists. split; [reflexivity|]. unfold lru_clean_end, cinv in *. destruct (running c) eqn:R; rewrite I; cbn; [reflexivity|]. rewrite I, R. reflexivity.
  - eexists. eexists. split; [reflexivity|]. exact I.
Qed.
Lemma run_inv evs : forall c, cinv c -> finds evs c -> exists rs c', run evs c = Some (rs, c') /\ cinv c'.
Proof.
  induction evs as [|ev evs IH]; intros c I F; [exists [], c; split; [reflexivity | exact I]|]. cbn [finds] in F. destruct F as (F1 & F2). destruct (step_inv ev c I F1) as (r & c1 & E & I1). rewrite E in F2.
  destruct (IH c1 I1 F2) as (rs & c2 & E2 & I2). exists (r :: rs), c2. cbn [run]. rewrite E, E2. split; [reflexivity | exact I2].
Qed.
(** In a history in which each attempt that looks for dirty lines finds one, cleaning can be started
    again whenever none is in progress.  Missing: histories with an attempt that finds none - there the claim fails. *)
Theorem C34_restart_partial evs rs c e : finds evs ctx0 -> run evs ctx0 = Some (rs, c) -> idle c -> cleanable e ->
  exists r c', step (Attempt e) c = Some (r, c') /\ started r.
Proof.
  intros F E (R & Fr) C. destruct (run_inv evs ctx0 eq_refl F) as (rs' & c1 & E1 & I1). rewrite E in E1. injection E1 as _ <-.
  assert (Rn : running c = false) by (unfold cinv in I1; destruct (running c); [rewrite R in I1; discriminate | reflexivity]).
  destruct (clean_starts e c C Fr Rn) as (x & xs & c' & E' & _). exists (Some (x :: xs)), c'. split; [exact E' | exact Logic.I].
Qed.

(** An attempt that finds no dirty line that can be locked leaves cleaner_running set ... *)
Lemma empty_attempt e c : e_mngt e = false -> idle c -> running c = false -> lists_ok (e_dirty e) -> (forall i x, i < 32 -> ~ available (e_dirty e) (e_locked e) i x) ->
  exists c', step (Attempt e) c = Some (None, c') /\ running c' = true /\ refs c' = 0 /\ frozen c' = false.
Proof.
  intros M (R & F) Rn W No. cbn [step]. unfold lru_clean. rewrite M, F, Rn. destruct (C56_clean (e_locked e) (e_start e) 128 (e_dirty e) W) as (xs & rest & -> & ND & In1 & L).
  destruct xs as [|y ys]; [|exfalso; destruct (In1 y (or_introl eq_refl)) as (i & Hi & Av); exact (No i y Hi Av)].
  eexists. split; [reflexivity|]. cbn. auto.
Qed.
(** ... and then no later attempt ever starts cleaning *)
Theorem C34_stuck evs : forall c, running c = true -> refs c = 0 -> exists rs c', run evs c = Some (rs, c') /\ (forall r, In r rs -> r = None) /\ running c' = true /\ refs c' = 0.
Proof.
  induction evs as [|ev evs IH]; intros c Rn R; [exists [], c; cbn; split; [reflexivity|]; split; [intros r [] | auto]|]. cbn [run].
  assert (S : exists c', step ev c = Some (None, c') /\ running c' = true /\ refs c' = 0).
  { destruct ev as [e| |b]; cbn [step].
    - unfold lru_clean. rewrite Rn. destruct (e_mngt e); [eauto|]. destruct (frozen c); eauto.
    - unfold lru_clean_end. rewrite R. eauto.
    - eexists. split; [reflexivity|]. cbn. auto. }
  destruct S as (c1 & -> & Rn1 & R1). destruct (IH c1 Rn1 R1) as (rs & c2 & -> & H1 & H2). exists (None :: rs), c2. split; [reflexivity|]. split; [|exact H2]. intros r [<-|Hr]; [reflexivity | exact (H1 r Hr)].
Qed.
(** C34 fails: one attempt at a moment when all dirty lines of the class are locked (or it has none), and the class
    is never cleaned by eviction again, though nothing is in progress and it has dirty lines *)
Theorem C34_restart_refuted : exists evs rs c, run evs ctx0 = Some (rs, c) /\ idle c /\
  forall later e, cleanable e -> exists rs' c' , run (later ++ [Attempt e]) c = Some (rs', c') /\ forall r, In r rs' -> ~ started r.
Proof.
  exists [Attempt {| e_dirty := ls0; e_locked := [10; 11; 12; 13; 14; 15; 16]; e_mngt := false; e_start := 0 |}]. do 2 eexists. split; [vm_compute; reflexivity|]. split; [split; reflexivity|].
  intros later e _. edestruct (C34_stuck (later ++ [Attempt e])) as (rs & c' & E & H & _); cycle 2; [exists rs, c'; split; [exact E|]; intros r Hr; rewrite (H r Hr); intros [] | reflexivity | reflexivity].
Qed.
(** The hypotheses of [C34_restart_partial] are met: cleaning started, ended, and to be started again *)
Definition e0 : env := {| e_dirty := ls0; e_locked := [12]; e_mngt := false; e_start := 4 |}.
Lemma e0_cleanable : cleanable e0.
Proof. split; [reflexivity|]. split; [exact ls0_ok|]. exists 2, 10. split; [apply Nat.ltb_lt; reflexivity|]. split; cbn; [left; reflexivity | intros [|[]]; discriminate]. Qed.
Example C34_case : finds [Attempt e0; Attempt e0; End] ctx0 /\ option_map fst (run [Attempt e0; Attempt e0; End; Attempt e0] ctx0) = Some [Some [13; 15; 10; 14; 16; 11]; None; None; Some [13; 15; 10; 14; 16; 11]].
Proof.
  split; [|vm_compute; reflexivity]. cbn [finds]. split; [split; [exact ls0_ok | intros; exact e0_cleanable]|].
  destruct (clean_starts e0 ctx0 e0_cleanable eq_refl eq_refl) as (x & xs & c' & E & R & Rn & F). cbn [step]. rewrite E. split; [split; [exact ls0_ok | intros; exact e0_cleanable]|].
  unfold lru_clean. rewrite F, Rn. cbn. auto.
Qed.
Example C34_case_idle : option_map (fun p => (refs (snd p), frozen (snd p))) (run [Attempt e0; Attempt e0; End] ctx0) = Some (0, false).
Proof. vm_compute. reflexivity. Qed.

Print Assumptions C56_take.
Print Assumptions C56_clean.
Print Assumptions C34_restart_partial.
Print Assumptions C34_stuck.
Print Assumptions C34_restart_refuted.

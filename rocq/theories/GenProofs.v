(** Bisect generator: proofs. *)
From Coq Require Import Arith NArith List Bool Lia Permutation.
From Verif Require Import GenModel.
Import ListNotations.
Open Scope N_scope.

Lemma u32_bit x i : i < 32 -> N.testbit (u32 x) i = N.testbit x i.
Proof. intros H. unfold u32. now apply N.mod_pow2_bits_low. Qed.

(** One swap step, at every bit. *)
Ltac bits32 i Hi :=
  let n := fresh "n" in
  assert (exists n, (n < 32)%nat /\ i = N.of_nat n) as (n & ? & ->) by (exists (N.to_nat i); lia);
  do 32 (destruct n as [|n]; [|]); [..|lia].

Lemma step_bits m1 m2 sh x i : i < 32 -> sh < 32 ->
  N.testbit (N.lor (N.shiftr (N.land x m1) sh) (u32 (N.shiftl (N.land x m2) sh))) i =
  (N.testbit x (i + sh) && N.testbit m1 (i + sh)) ||
  (if i <? sh then false else N.testbit x (i - sh) && N.testbit m2 (i - sh)).
Proof.
  intros Hi Hs. rewrite N.lor_spec, N.shiftr_spec', u32_bit by assumption. f_equal.
  - apply N.land_spec.
  - destruct (N.ltb_spec i sh) as [H|H].
    + now rewrite N.shiftl_spec_low.
    + rewrite N.shiftl_spec_high' by assumption. apply N.land_spec.
Qed.

Definition st1 x := N.lor (N.shiftr (N.land x 0xaaaaaaaa) 1) (u32 (N.shiftl (N.land x 0x55555555) 1)).
Definition st2 x := N.lor (N.shiftr (N.land x 0xcccccccc) 2) (u32 (N.shiftl (N.land x 0x33333333) 2)).
Definition st4 x := N.lor (N.shiftr (N.land x 0xf0f0f0f0) 4) (u32 (N.shiftl (N.land x 0x0f0f0f0f) 4)).
Definition st8 x := N.lor (N.shiftr (N.land x 0xff00ff00) 8) (u32 (N.shiftl (N.land x 0x00ff00ff) 8)).

Ltac one_step i Hi :=
  rewrite step_bits by (assumption || reflexivity);
  let n := fresh "n" in
  let E := fresh "E" in
  remember (N.to_nat i) as n eqn:E;
  assert (Hn : (n < 32)%nat) by lia;
  assert (E' : i = N.of_nat n) by lia; clear E Hi; subst i;
  do 32 (destruct n as [|n];
    [cbn [N.of_nat Pos.of_succ_nat Pos.succ]; cbn -[N.testbit];
     rewrite ?andb_true_r, ?andb_false_r, ?orb_false_r, ?orb_false_l;
     try reflexivity|]);
  exfalso; lia.

Lemma st1_bit x i : i < 32 -> N.testbit (st1 x) i = N.testbit x (N.lxor i 1).
Proof. intros Hi. unfold st1. one_step i Hi. Qed.
Lemma st2_bit x i : i < 32 -> N.testbit (st2 x) i = N.testbit x (N.lxor i 2).
Proof. intros Hi. unfold st2. one_step i Hi. Qed.
Lemma st4_bit x i : i < 32 -> N.testbit (st4 x) i = N.testbit x (N.lxor i 4).
Proof. intros Hi. unfold st4. one_step i Hi. Qed.
Lemma st8_bit x i : i < 32 -> N.testbit (st8 x) i = N.testbit x (N.lxor i 8).
Proof. intros Hi. unfold st8. one_step i Hi. Qed.

Lemma u32_high x i : 32 <= i -> N.testbit (u32 x) i = false.
Proof. intros H. unfold u32. now apply N.mod_pow2_bits_high. Qed.

Lemma st8_high x i : 32 <= i -> N.testbit (st8 x) i = false.
Proof.
  intros H. unfold st8. rewrite N.lor_spec, u32_high, orb_false_r by assumption.
  rewrite N.shiftr_spec', N.land_spec.
  replace (N.testbit 0xff00ff00 (i + 8)) with false; [now rewrite andb_false_r|].
  symmetry. apply N.bits_above_log2. cbn. lia.
Qed.

Lemma rev_bit x i : i < 32 -> N.testbit (bitreverse32 x) i = N.testbit x (31 - i).
Proof.
  intros Hi.
  change (bitreverse32 x) with
    (N.lor (N.shiftr (st8 (st4 (st2 (st1 x)))) 16) (u32 (N.shiftl (st8 (st4 (st2 (st1 x)))) 16))).
  set (y := st8 (st4 (st2 (st1 x)))).
  assert (Y : forall j, j < 32 -> N.testbit y j = N.testbit x (N.lxor (N.lxor (N.lxor (N.lxor j 8) 4) 2) 1)).
  { intros j Hj.
    assert (L : forall a c, a < 32 -> c < 32 -> N.lxor a c < 32).
    { intros a c Ha Hc. destruct (N.eq_dec (N.lxor a c) 0) as [E|E]; [lia|].
      change 32 with (2^5). apply N.log2_lt_pow2; [lia|].
      eapply N.le_lt_trans; [apply N.log2_lxor|].
      destruct (N.eq_dec a 0), (N.eq_dec c 0); subst; cbn [N.log2 N.max]; try lia.
      all: apply N.max_lub_lt; try (apply N.log2_lt_pow2; [lia|assumption]); cbn; lia. }
    unfold y. rewrite st8_bit, st4_bit, st2_bit, st1_bit; try reflexivity; try assumption;
      repeat (apply L); try assumption; try reflexivity. }
  assert (YH : forall j, 32 <= j -> N.testbit y j = false) by (intros; now apply st8_high).
  rewrite N.lor_spec, N.shiftr_spec', u32_bit by assumption.
  destruct (N.lt_ge_cases i 16) as [H|H].
  - rewrite N.shiftl_spec_low, orb_false_r, Y by (assumption || lia). f_equal.
    remember (N.to_nat i) as n eqn:E. assert (Hn : (n < 16)%nat) by lia.
    assert (E' : i = N.of_nat n) by lia. clear E Hi H. subst i.
    do 16 (destruct n as [|n]; [reflexivity|]). exfalso; lia.
  - rewrite N.shiftl_spec_high', YH, orb_false_l, Y by (assumption || lia). f_equal.
    remember (N.to_nat i) as n eqn:E. assert (Hn : (16 <= n < 32)%nat) by lia.
    assert (E' : i = N.of_nat n) by lia. clear E Hi H. subst i.
    do 16 (destruct n as [|n]; [lia|]).
    do 16 (destruct n as [|n]; [reflexivity|]). exfalso; lia.
Qed.

Lemma rev_high x i : 32 <= i -> N.testbit (bitreverse32 x) i = false.
Proof.
  intros H. change (bitreverse32 x) with
    (N.lor (N.shiftr (st8 (st4 (st2 (st1 x)))) 16) (u32 (N.shiftl (st8 (st4 (st2 (st1 x)))) 16))).
  rewrite N.lor_spec, u32_high, N.shiftr_spec', st8_high by lia. reflexivity.
Qed.

(** ** The value computed for a position, [maplen] = 2^k, clz = 32 - k. *)
Definition val (k c : N) : N := N.shiftr (bitreverse32 c) (32 - k).

Lemma val_bit k c i : k <= 32 -> N.testbit (val k c) i = if i <? k then N.testbit c (k - 1 - i) else false.
Proof.
  intros Hk. unfold val. rewrite N.shiftr_spec'. destruct (N.ltb_spec i k) as [H|H].
  - rewrite rev_bit by lia. f_equal. lia.
  - apply rev_high. lia.
Qed.

Lemma val_mod k c : k <= 32 -> val k (c mod 2^k) = val k c.
Proof.
  intros Hk. apply N.bits_inj. intros i. rewrite !val_bit by assumption.
  destruct (N.ltb_spec i k); [|reflexivity]. apply N.mod_pow2_bits_low. lia.
Qed.

Lemma val_lt k c : k <= 32 -> val k c < 2^k.
Proof.
  intros Hk. destruct (N.lt_ge_cases (val k c) (2^k)) as [H|H]; [assumption|].
  exfalso. assert (P : 0 < 2^k) by (apply N.neq_0_lt_0, N.pow_nonzero; lia).
  pose proof (N.bit_log2 (val k c) ltac:(lia)) as B. rewrite val_bit in B by assumption.
  destruct (N.ltb_spec (N.log2 (val k c)) k) as [L|L]; [|discriminate].
  assert (k <= N.log2 (val k c)) by (apply N.log2_le_pow2; lia). lia.
Qed.

Lemma val_invol k c : k <= 32 -> c < 2^k -> val k (val k c) = c.
Proof.
  intros Hk Hc. apply N.bits_inj. intros i. rewrite !val_bit by assumption.
  destruct (N.ltb_spec i k) as [H|H].
  - destruct (N.ltb_spec (k - 1 - i) k); [|lia]. f_equal. lia.
  - symmetry. destruct (N.eq_dec c 0) as [->|E]; [apply N.bits_0|].
    apply N.bits_above_log2. apply N.log2_lt_pow2; [lia|].
    eapply N.lt_le_trans; [exact Hc|]. apply N.pow_le_mono_r; lia.
Qed.

(** ** One period. *)
Definition nats (n : nat) : list N := map N.of_nat (seq 0 n).

Lemma nats_in n x : In x (nats n) <-> x < N.of_nat n.
Proof.
  unfold nats. rewrite in_map_iff. split.
  - intros (i & <- & H). apply in_seq in H. lia.
  - intros H. exists (N.to_nat x). split; [lia|]. apply in_seq. lia.
Qed.
Lemma nats_nodup n : NoDup (nats n).
Proof. apply FinFun.Injective_map_NoDup; [intros i j; lia|apply seq_NoDup]. Qed.

(** Positions visited from [c]: c, c+1, ... modulo 2^k. *)
Definition window (k c : N) (m : nat) : list N := map (fun j => val k (c + N.of_nat j)) (seq 0 m).

Lemma window_perm k c : k <= 32 -> Permutation (window k c (N.to_nat (2^k))) (nats (N.to_nat (2^k))).
Proof.
  intros Hk. assert (P : 2^k <> 0) by (apply N.pow_nonzero; lia).
  apply NoDup_Permutation_bis.
  - unfold window. apply NoDup_nth_error. intros i j Hi E. rewrite map_length, seq_length in Hi.
    assert (Hj : (j < N.to_nat (2^k))%nat).
    { destruct (le_lt_dec (N.to_nat (2^k)) j) as [L|L]; [|assumption]. exfalso.
      assert (nth_error (map (fun j => val k (c + N.of_nat j)) (seq 0 (N.to_nat (2^k)))) j = None).
      { apply nth_error_None. now rewrite map_length, seq_length. }
      rewrite H in E. apply nth_error_None in E. rewrite map_length, seq_length in E. lia. }
    rewrite !nth_error_map in E.
    rewrite !(nth_error_nth' _ 0%nat) in E by (now rewrite seq_length).
    rewrite !seq_nth in E by assumption. cbn [option_map plus] in E. injection E as E.
    rewrite <- (val_mod k), <- (val_mod k (c + N.of_nat j)) in E by assumption.
    apply (f_equal (val k)) in E. rewrite !val_invol in E by (try assumption; now apply N.mod_lt).
    set (p := 2^k) in *. clearbody p.
    assert (Q : (c + N.of_nat i) mod p = (c + N.of_nat j) mod p) by exact E.
    pose proof (N.div_mod (c + N.of_nat i) p P) as A. pose proof (N.div_mod (c + N.of_nat j) p P) as B.
    rewrite Q in A. set (r := (c + N.of_nat j) mod p) in *.
    set (q1 := (c + N.of_nat i) / p) in *. set (q2 := (c + N.of_nat j) / p) in *. clearbody r q1 q2.
    assert (q1 = q2) by nia. subst. lia.
  - unfold window, nats. rewrite !map_length, !seq_length. lia.
  - intros x H. unfold window in H. apply in_map_iff in H. destruct H as (j & <- & _).
    apply nats_in. rewrite N2Nat.id. now apply val_lt.
Qed.

Lemma perm_filter {A} (f : A -> bool) l l' : Permutation l l' -> Permutation (filter f l) (filter f l').
Proof.
  induction 1; cbn.
  - constructor.
  - destruct (f x); [now constructor|assumption].
  - destruct (f x), (f y); try apply Permutation_refl. constructor.
  - now transitivity (filter f l').
Qed.

Lemma filter_nats L n : N.of_nat L <= N.of_nat n -> filter (fun v => v <? N.of_nat L) (nats n) = nats L.
Proof.
  intros H. assert (E : n = (L + (n - L))%nat) by lia. rewrite E. unfold nats.
  rewrite seq_app, map_app, filter_app.
  assert (F1 : forall l, (forall x, In x l -> x < N.of_nat L) -> filter (fun v => v <? N.of_nat L) l = l).
  { induction l as [|x l IH]; intros F; [reflexivity|]. cbn.
    destruct (N.ltb_spec x (N.of_nat L)) as [Q|Q].
    - f_equal. apply IH. intros y Hy. apply F. now right.
    - specialize (F x (or_introl eq_refl)). lia. }
  assert (F2 : forall l, (forall x, In x l -> N.of_nat L <= x) -> filter (fun v => v <? N.of_nat L) l = []).
  { induction l as [|x l IH]; intros F; [reflexivity|]. cbn.
    destruct (N.ltb_spec x (N.of_nat L)) as [Q|Q].
    - specialize (F x (or_introl eq_refl)). lia.
    - apply IH. intros y Hy. apply F. now right. }
  rewrite F1, F2; [now rewrite app_nil_r| |].
  - intros x Hx. apply in_map_iff in Hx. destruct Hx as (i & <- & Hi). apply in_seq in Hi. lia.
  - intros x Hx. apply in_map_iff in Hx. destruct Hx as (i & <- & Hi). apply in_seq in Hi. lia.
Qed.

(** ** The loop follows the window. *)
Lemma curr_step k c : k <= 32 -> (u32 (c + 1)) mod 2^k = (c + 1) mod 2^k.
Proof.
  intros Hk. apply N.bits_inj. intros i. destruct (N.lt_ge_cases i k) as [H|H].
  - rewrite !N.mod_pow2_bits_low by assumption. apply u32_bit. lia.
  - now rewrite !N.mod_pow2_bits_high.
Qed.

Lemma loop_mono f : forall f' clz maplen limit curr r, (f <= f')%nat ->
  gen_loop f clz maplen limit curr = Some r -> gen_loop f' clz maplen limit curr = Some r.
Proof.
  induction f as [|f IH]; intros f' clz maplen limit curr r H E; [discriminate|].
  destruct f' as [|f']; [lia|]. cbn [gen_loop] in *.
  destruct (_ <? limit); [assumption|]. apply IH; [lia|assumption].
Qed.

Fixpoint calls (n : nat) (k L curr : N) : option (list N * N) :=
  match n with
  | O => Some ([], curr)
  | S m => match gen_loop (N.to_nat (2^k)) (32 - k) (2^k) L curr with
           | None => None
           | Some (v, c) => match calls m k L c with None => None | Some (l, c') => Some (v :: l, c') end
           end
  end.

(** [c] and [curr] are the same position. *)
Lemma loop_eqm f k L : k <= 32 -> forall c c', c mod 2^k = c' mod 2^k ->
  gen_loop f (32 - k) (2^k) L c = gen_loop f (32 - k) (2^k) L c'.
Proof.
  intros Hk. induction f as [|f IH]; intros c c' E; [reflexivity|]. cbn [gen_loop].
  assert (V : N.shiftr (bitreverse32 c) (32 - k) = N.shiftr (bitreverse32 c') (32 - k)).
  { change (val k c = val k c'). rewrite <- (val_mod k c), <- (val_mod k c'), E by assumption. reflexivity. }
  rewrite V.
  assert (C : u32 (c + 1) mod 2^k = u32 (c' + 1) mod 2^k).
  { rewrite !curr_step by assumption. assert (P : 2^k <> 0) by (apply N.pow_nonzero; lia).
    rewrite <- (N.add_mod_idemp_l c), <- (N.add_mod_idemp_l c'), E by assumption. reflexivity. }
  rewrite C. reflexivity.
Qed.

Lemma calls_eqm n k L : k <= 32 -> forall c c', c mod 2^k = c' mod 2^k -> (0 < n)%nat ->
  calls n k L c = calls n k L c'.
Proof. intros Hk c c' E Hn. destruct n; [lia|]. cbn [calls]. now rewrite (loop_eqm _ k L Hk c c'). Qed.

Lemma follow k L : k <= 32 -> forall m c w, (m <= N.to_nat (2^k))%nat ->
  filter (fun v => v <? L) (window k c m) = w ->
  exists c', calls (length w) k L c = Some (w, c').
Proof.
  intros Hk. induction m as [|m IH]; intros c w Hm E.
  - cbn in E. subst w. now exists c.
  - assert (Wn : window k c (S m) = val k c :: window k (c + 1) m).
    { unfold window. cbn [seq map]. rewrite N.add_0_r. f_equal. rewrite <- seq_shift, map_map.
      apply map_ext. intros j. f_equal. lia. }
    rewrite Wn in E. cbn [filter] in E.
    assert (ST : (u32 (c + 1) mod 2^k) mod 2^k = (c + 1) mod 2^k).
    { rewrite curr_step by assumption. apply N.mod_mod. apply N.pow_nonzero. lia. }
    destruct (val k c <? L) eqn:V.
    + destruct w as [|v w]; [discriminate|]. injection E as Ev Ew.
      destruct (IH (c + 1) w ltac:(lia) Ew) as [c' Hc].
      assert (F : gen_loop (N.to_nat (2^k)) (32 - k) (2^k) L c = Some (v, u32 (c + 1) mod 2^k)).
      { destruct (N.to_nat (2^k)) as [|f] eqn:Ef; [lia|]. cbn [gen_loop].
        change (N.shiftr (bitreverse32 c) (32 - k)) with (val k c). now rewrite V, Ev. }
      cbn [length calls]. rewrite F. destruct (length w) as [|n] eqn:Lw.
      * destruct w; [|discriminate]. cbn. eauto.
      * rewrite (calls_eqm (S n) k L Hk _ (c + 1) ST) by lia. rewrite Hc. eauto.
    + destruct (IH (c + 1) w ltac:(lia) E) as [c' Hc].
      destruct w as [|v w]; [cbn; eauto|].
      (* the first call skips the position c *)
      exists c'. revert Hc. cbn [length calls].
      assert (Q : forall f, gen_loop (S f) (32 - k) (2^k) L c = gen_loop f (32 - k) (2^k) L (c + 1)).
      { intros f. cbn [gen_loop]. change (N.shiftr (bitreverse32 c) (32 - k)) with (val k c). rewrite V.
        apply loop_eqm; assumption. }
      (* the hit lies within the next m positions, so one iteration less suffices *)
      assert (B : forall m c v0 w0, filter (fun v => v <? L) (window k c m) = v0 :: w0 ->
        exists r, gen_loop m (32 - k) (2^k) L c = Some r).
      { clear - Hk. induction m as [|m IH]; intros c v0 w0 E; [discriminate|].
        assert (Wn : window k c (S m) = val k c :: window k (c + 1) m).
        { unfold window. cbn [seq map]. rewrite N.add_0_r. f_equal. rewrite <- seq_shift, map_map.
          apply map_ext. intros j. f_equal. lia. }
        rewrite Wn in E. cbn [filter] in E. cbn [gen_loop].
        change (N.shiftr (bitreverse32 c) (32 - k)) with (val k c).
        destruct (val k c <? L) eqn:V; [eauto|].
        destruct (IH (c + 1) v0 w0 E) as [r Hr]. exists r. rewrite <- Hr. apply loop_eqm; [assumption|].
        rewrite curr_step by assumption. apply N.mod_mod. apply N.pow_nonzero. lia. }
      destruct (B m (c + 1) v w E) as [r Hr].
      assert (F1 : gen_loop (N.to_nat (2^k)) (32 - k) (2^k) L (c + 1) = Some r).
      { apply (loop_mono m); [lia|assumption]. }
      assert (F2 : gen_loop (N.to_nat (2^k)) (32 - k) (2^k) L c = Some r).
      { apply (loop_mono (S m)); [lia|]. now rewrite Q. }
      rewrite F1, F2. tauto.
Qed.

Lemma calls_perm k L c : k <= 32 -> L <= 2^k ->
  exists w c', calls (N.to_nat L) k L c = Some (w, c') /\ Permutation w (nats (N.to_nat L)).
Proof.
  intros Hk HL. set (w := filter (fun v => v <? L) (window k c (N.to_nat (2^k)))).
  assert (P : Permutation w (nats (N.to_nat L))).
  { unfold w. etransitivity; [apply perm_filter; now apply window_perm|].
    pose proof (filter_nats (N.to_nat L) (N.to_nat (2^k)) ltac:(lia)) as F. rewrite N2Nat.id in F.
    rewrite F. apply Permutation_refl. }
  destruct (follow k L Hk (N.to_nat (2^k)) c w (le_n _) eq_refl) as [c' Hc].
  assert (length w = N.to_nat L).
  { rewrite (Permutation_length P). unfold nats. now rewrite map_length, seq_length. }
  rewrite H in Hc. now exists w, c'.
Qed.

(** ** Parameters computed from the limit. *)
Lemma params L : 2 <= L -> L <= 2^30 ->
  exists k, k <= 30 /\ L <= 2^k /\
    clz32 (u32 (L + 2^32 - 1)) = Some (32 - k) /\ int_shl1 (32 - (32 - k)) = Some (2^k).
Proof.
  intros H1 H2. assert (E : u32 (L + 2^32 - 1) = L - 1).
  { unfold u32. replace (L + 2^32 - 1) with (L - 1 + 1 * 2^32) by lia.
    rewrite N.mod_add by lia. apply N.mod_small.
    eapply N.le_lt_trans; [|apply (N.pow_lt_mono_r 2 30 32); lia]. lia. }
  exists (N.succ (N.log2 (L - 1))).
  assert (B : N.log2 (L - 1) < 30) by (apply N.log2_lt_pow2; lia).
  pose proof (N.log2_spec (L - 1) ltac:(lia)) as [_ S].
  split; [lia|]. split; [lia|]. rewrite E. unfold clz32.
  destruct (N.eqb_spec (L - 1) 0); [lia|]. split; [f_equal; lia|].
  unfold int_shl1. replace (32 - (32 - N.succ (N.log2 (L - 1)))) with (N.succ (N.log2 (L - 1))) by lia.
  destruct (N.ltb_spec (N.succ (N.log2 (L - 1))) 31); [reflexivity|lia].
Qed.

Lemma gen_calls_calls n : forall g k, clz32 (u32 (g_limit g + 2^32 - 1)) = Some (32 - k) ->
  int_shl1 (32 - (32 - k)) = Some (2^k) ->
  gen_calls n g = match calls n k (g_limit g) (g_curr g) with
                  | None => None
                  | Some (l, c) => Some (l, {| g_curr := c; g_limit := g_limit g |}) end.
Proof.
  induction n as [|n IH]; intros g k E1 E2; cbn [gen_calls calls].
  - destruct g; reflexivity.
  - unfold gen_next. rewrite E1, E2.
    destruct (gen_loop _ _ _ _ _) as [[v c]|]; [|reflexivity].
    rewrite (IH _ k) by assumption. cbn [g_limit g_curr].
    destruct (calls n k (g_limit g) c) as [[l c']|]; reflexivity.
Qed.

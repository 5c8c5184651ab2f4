(** Lemmas about HashModel. *)
From Coq Require Import Arith NArith List Bool Lia Sorted.
From Verif Require Import HashModel.
Import ListNotations.
Open Scope N_scope.

(** Side conditions: non-empty table and request, and no 32/64-bit overflow. *)
Definition hreq_ok (r : hreq) : Prop :=
  0 < h_entries r /\ 0 < h_count r /\
  h_entries r + h_count r < 2^32 /\
  h_first r + h_count r + 2^32 <= 2^64.

Definition base (r : hreq) : N :=
  (h_first r + u32 (h_core r * (h_entries r / 32))) mod h_entries r.

Lemma u32_lt x : u32 x < 2^32.
Proof. apply N.mod_lt. discriminate. Qed.

Lemma map_hash_eq r i :
  hreq_ok r -> i < h_count r -> map_hash r i = (base r + i) mod h_entries r.
Proof.
  intros (He & Hc & Ho & Hf) Hi. unfold map_hash, hash_func, base.
  pose proof (u32_lt (h_core r * (h_entries r / 32))).
  unfold u64. rewrite (N.mod_small _ (2^64)) by lia.
  rewrite N.add_mod_idemp_l by lia. f_equal. lia.
Qed.

Lemma base_lt r : hreq_ok r -> base r < h_entries r.
Proof. intros (He & _). apply N.mod_lt. lia. Qed.

Lemma map_hash_0 r : hreq_ok r -> map_hash r 0 = base r.
Proof.
  intros H. pose proof H as (_ & Hc & _). rewrite map_hash_eq by (assumption || lia).
  rewrite N.add_0_r. apply N.mod_small. now apply base_lt.
Qed.

Lemma is_monotonic_eq r :
  hreq_ok r -> is_monotonic r = (base r + h_count r <=? h_entries r).
Proof.
  intros H. pose proof (base_lt r H). pose proof H as (He & Hc & Ho & _).
  unfold is_monotonic. rewrite map_hash_0 by assumption.
  unfold u32. rewrite N.mod_small by lia. reflexivity.
Qed.

(** Closed forms of the macro values in the three cases. *)
Lemma case_mono r :
  hreq_ok r -> base r + h_count r <= h_entries r ->
  min_hash r = base r /\ max_hash r = base r + h_count r - 1 /\ has_gap r = false.
Proof.
  intros H Hm. pose proof H as (He & Hc & Ho & _).
  assert (M : is_monotonic r = true) by (rewrite is_monotonic_eq by assumption; now apply N.leb_le).
  assert (E1 : min_hash r = base r) by (unfold min_hash; rewrite M; now apply map_hash_0).
  assert (E2 : max_hash r = base r + h_count r - 1).
  { unfold max_hash. rewrite M, map_hash_eq by (assumption || lia).
    rewrite N.mod_small by lia. lia. }
  repeat split; try assumption. unfold has_gap. rewrite E1, E2. unfold hash_count.
  apply N.ltb_ge. lia.
Qed.

Lemma case_full r :
  hreq_ok r -> h_entries r < base r + h_count r -> h_entries r <= h_count r ->
  min_hash r = 0 /\ max_hash r = h_entries r - 1 /\ has_gap r = false.
Proof.
  intros H Hm Hf. pose proof H as (He & Hc & Ho & _).
  assert (M : is_monotonic r = false) by (rewrite is_monotonic_eq by assumption; now apply N.leb_gt).
  assert (E1 : min_hash r = 0) by (unfold min_hash; now rewrite M).
  assert (E2 : max_hash r = h_entries r - 1) by (unfold max_hash; now rewrite M).
  repeat split; try assumption. unfold has_gap. rewrite E1, E2. unfold hash_count.
  apply N.ltb_ge. lia.
Qed.

Lemma case_gap r :
  hreq_ok r -> h_entries r < base r + h_count r -> h_count r < h_entries r ->
  min_hash r = 0 /\ max_hash r = h_entries r - 1 /\ has_gap r = true /\
  gap_start r = base r + h_count r - 1 - h_entries r /\
  gap_val r = h_entries r - h_count r.
Proof.
  intros H Hm Hf. pose proof H as (He & Hc & Ho & _). pose proof (base_lt r H).
  assert (M : is_monotonic r = false) by (rewrite is_monotonic_eq by assumption; now apply N.leb_gt).
  assert (E1 : min_hash r = 0) by (unfold min_hash; now rewrite M).
  assert (E2 : max_hash r = h_entries r - 1) by (unfold max_hash; now rewrite M).
  repeat split; try assumption.
  - unfold has_gap. rewrite E1, E2. unfold hash_count. apply N.ltb_lt. lia.
  - unfold gap_start. rewrite map_hash_eq by (assumption || lia).
    replace (base r + (h_count r - 1))
      with (base r + h_count r - 1 - h_entries r + 1 * h_entries r) by lia.
    rewrite N.mod_add by lia. apply N.mod_small. lia.
  - unfold gap_val. rewrite E1, E2. unfold hash_count. lia.
Qed.

(** Values visited from [h]. *)
Definition vis (r : hreq) (x : N) : Prop :=
  x <= max_hash r /\
  (has_gap r = true -> ~ (gap_start r < x /\ x <= gap_start r + gap_val r)).

Lemma hash_loop_ok r :
  max_hash r + 1 < 2^32 -> (has_gap r = true -> gap_start r + gap_val r + 1 < 2^32) ->
  forall fuel h, (0 < fuel)%nat -> (N.to_nat (max_hash r + 2) <= fuel + N.to_nat h)%nat ->
  (has_gap r = true -> ~ (gap_start r < h /\ h <= gap_start r + gap_val r)) ->
  exists l, hash_loop r fuel h = Some l /\ StronglySorted N.lt l /\
    (forall x, In x l <-> h <= x /\ vis r x).
Proof.
  intros Hb Hb2. induction fuel as [|fuel IH]; intros h Hp Hf Hg; [lia|].
  simpl. destruct (N.leb_spec h (max_hash r)) as [Hle|Hgt].
  - assert (En : hash_next r h =
      h + 1 + (if has_gap r && (h =? gap_start r) then gap_val r else 0)).
    { unfold hash_next, u32. apply N.mod_small. clear Hg.
      destruct (has_gap r); simpl; [|lia]. specialize (Hb2 eq_refl).
      destruct (N.eqb_spec h (gap_start r)); lia. }
    assert (Hn : has_gap r = true ->
        ~ (gap_start r < hash_next r h /\ hash_next r h <= gap_start r + gap_val r)).
    { intros G. rewrite En, G. specialize (Hg G). simpl.
      destruct (N.eqb_spec h (gap_start r)); lia. }
    assert (Hge : h + 1 <= hash_next r h) by (rewrite En; lia).
    destruct (IH (hash_next r h)) as (l & E & S & I); [lia|lia|assumption|].
    rewrite E. eexists; split; [reflexivity|]. split.
    + constructor; [assumption|]. apply Forall_forall. intros x Hx. apply I in Hx. lia.
    + intros x. simpl. rewrite I. split.
      * intros [<-|[H1 H2]]; [split; [lia|]; now split|]. split; [lia|assumption].
      * intros [H1 H2]. destruct (N.eq_dec h x) as [|Hx]; [now left|right].
        split; [|assumption]. destruct H2 as [H2 H3]. rewrite En.
        destruct (has_gap r); simpl; [|lia]. specialize (H3 eq_refl).
        destruct (N.eqb_spec h (gap_start r)); lia.
  - eexists; split; [reflexivity|]. split; [constructor|].
    intros x. split; [intros []|]. intros [H1 [H2 _]]. lia.
Qed.

(** Set of buckets of the request's core lines. *)
Definition req_bucket (r : hreq) (x : N) : Prop :=
  exists i, i < h_count r /\ x = map_hash r i.

Lemma mod_sub_once a n : n <= a -> a < 2 * n -> a mod n = a - n.
Proof.
  intros H1 H2. replace a with (a - n + 1 * n) at 1 by lia.
  rewrite N.mod_add by lia. apply N.mod_small. lia.
Qed.

Lemma vis_bucket r x : hreq_ok r -> (min_hash r <= x /\ vis r x <-> req_bucket r x).
Proof.
  intros H. pose proof H as (He & Hc & Ho & _). pose proof (base_lt r H) as Hb.
  unfold vis, req_bucket.
  destruct (N.le_gt_cases (base r + h_count r) (h_entries r)) as [Hm|Hm].
  - destruct (case_mono r H Hm) as (E1 & E2 & E3). rewrite E1, E2, E3. split.
    + intros (H1 & H2 & _). exists (x - base r). split; [lia|].
      rewrite map_hash_eq by (assumption || lia). rewrite N.mod_small by lia. lia.
    + intros (i & Hi & ->). rewrite map_hash_eq by (assumption || lia).
      rewrite N.mod_small by lia. repeat split; try lia; try discriminate.
  - destruct (N.le_gt_cases (h_entries r) (h_count r)) as [Hf|Hf].
    + destruct (case_full r H Hm Hf) as (E1 & E2 & E3). rewrite E1, E2, E3. split.
      * intros (_ & H2 & _).
        destruct (N.le_gt_cases (base r) x).
        -- exists (x - base r). split; [lia|]. rewrite map_hash_eq by (assumption || lia).
           rewrite N.mod_small by lia. lia.
        -- exists (x + h_entries r - base r). split; [lia|].
           rewrite map_hash_eq by (assumption || lia).
           rewrite mod_sub_once by lia. lia.
      * intros (i & Hi & ->). rewrite map_hash_eq by (assumption || lia).
        assert ((base r + i) mod h_entries r < h_entries r) by (apply N.mod_lt; lia).
        generalize dependent ((base r + i) mod h_entries r). intros m Hlt.
        split; [lia|]. split; [lia|discriminate].
    + destruct (case_gap r H Hm Hf) as (E1 & E2 & E3 & E4 & E5).
      rewrite E1, E2, E3, E4, E5. split.
      * intros (_ & H2 & H3). specialize (H3 eq_refl).
        destruct (N.le_gt_cases (base r) x).
        -- exists (x - base r). split; [lia|]. rewrite map_hash_eq by (assumption || lia).
           rewrite N.mod_small by lia. lia.
        -- exists (x + h_entries r - base r). split; [lia|].
           rewrite map_hash_eq by (assumption || lia).
           rewrite mod_sub_once by lia. lia.
      * intros (i & Hi & ->). rewrite map_hash_eq by (assumption || lia).
        destruct (N.lt_ge_cases (base r + i) (h_entries r)).
        -- rewrite N.mod_small by lia. lia.
        -- rewrite mod_sub_once by lia. lia.
Qed.

Lemma for_each_ok r :
  hreq_ok r ->
  exists l, for_each_req_hash_asc r = Some l /\ StronglySorted N.lt l /\
    (forall x, In x l <-> req_bucket r x).
Proof.
  intros H. pose proof H as (He & Hc & Ho & _). pose proof (base_lt r H) as Hb.
  assert (B : max_hash r + 1 < 2^32 /\
     (has_gap r = true -> gap_start r + gap_val r + 1 < 2^32) /\ max_hash r + 1 <= h_entries r /\
     (has_gap r = true -> ~ (gap_start r < min_hash r /\ min_hash r <= gap_start r + gap_val r))).
  { destruct (N.le_gt_cases (base r + h_count r) (h_entries r)) as [Hm|Hm].
    - destruct (case_mono r H Hm) as (E1 & E2 & E3).
      unfold gap_val. rewrite E1, E2, E3. unfold hash_count. repeat split; try lia; try discriminate.
    - destruct (N.le_gt_cases (h_entries r) (h_count r)) as [Hf|Hf].
      + destruct (case_full r H Hm Hf) as (E1 & E2 & E3).
        unfold gap_val. rewrite E1, E2, E3. unfold hash_count. repeat split; try lia; try discriminate.
      + destruct (case_gap r H Hm Hf) as (E1 & E2 & E3 & E4 & E5).
        rewrite E1, E2, E3, E4, E5. repeat split; try lia. }
  destruct B as (B1 & B0 & B2 & B3).
  destruct (hash_loop_ok r B1 B0 (N.to_nat (h_entries r + 1)) (min_hash r))
    as (l & E & S & I); [lia|lia|assumption|].
  exists l. split; [exact E|]. split; [exact S|].
  intros x. rewrite I. now apply vis_bucket.
Qed.

Lemma in_range_ok r core_id core_line :
  hreq_ok r ->
  req_hash_in_range r core_id core_line = true <->
  req_bucket r (hash_func (h_entries r) core_id core_line).
Proof.
  intros H. pose proof H as (He & Hc & Ho & _).
  rewrite <- vis_bucket by assumption. unfold req_hash_in_range, vis.
  set (x := hash_func _ _ _).
  destruct (has_gap r) eqn:G; simpl.
  - assert (M : min_hash r <= gap_start r).
    { destruct (N.le_gt_cases (base r + h_count r) (h_entries r)) as [Hm|Hm].
      - destruct (case_mono r H Hm) as (_ & _ & E3). congruence.
      - unfold min_hash. rewrite is_monotonic_eq by assumption.
        replace (base r + h_count r <=? h_entries r) with false by (symmetry; now apply N.leb_gt).
        lia. }
    assert (M2 : gap_start r <= max_hash r).
    { destruct (N.le_gt_cases (base r + h_count r) (h_entries r)) as [Hm|Hm].
      - destruct (case_mono r H Hm) as (_ & _ & E3). congruence.
      - destruct (N.le_gt_cases (h_entries r) (h_count r)) as [Hf|Hf].
        + destruct (case_full r H Hm Hf) as (_ & _ & E3). congruence.
        + pose proof (base_lt r H).
          destruct (case_gap r H Hm Hf) as (E1 & E2 & E3 & E4 & E5). rewrite E2, E4. lia. }
    rewrite orb_true_iff, !andb_true_iff, !N.leb_le, N.ltb_lt. lia.
  - rewrite andb_true_iff, !N.leb_le. split; [|tauto]. intros [A B].
    repeat split; try assumption; try discriminate.
Qed.

(** ** Deadlock freedom *)

Definition phase_ok (ph : phase) : Prop := StronglySorted N.lt (ph_buckets ph).

Definition proc_ok (p : proc) : Prop :=
  StronglySorted N.lt (p_todo p) /\
  (forall a b, In a (p_held p) -> In b (p_todo p) -> a < b) /\
  Forall phase_ok (p_rest p).

Lemma start_ok l : Forall phase_ok l -> proc_ok (start_proc l).
Proof.
  destruct l as [|ph l]; intros H; unfold proc_ok; simpl.
  - repeat split; try constructor. intros a b [].
  - inversion H; subst. repeat split; try assumption. intros a b [].
Qed.

Lemma proc_step_ok o p p' : proc_ok p -> proc_step o p = Some p' -> proc_ok p'.
Proof.
  intros (H1 & H2 & H3). unfold proc_step.
  destruct (p_todo p) as [|b t] eqn:E.
  - destruct (p_held p) as [|a h] eqn:Eh.
    + destruct (p_rest p) as [|ph l] eqn:Er; [discriminate|].
      intros [= <-]. now apply (start_ok (ph :: l)).
    + destruct h as [|a' h].
      * intros [= <-]. now apply start_ok.
      * intros [= <-]. unfold proc_ok; simpl. repeat split; try constructor; try assumption.
        intros x y _ [].
  - destruct (existsb _ _); [discriminate|]. intros [= <-]. unfold proc_ok; simpl.
    inversion H1; subst. repeat split; try assumption.
    intros x y Hx Hy. apply in_app_or in Hx. destruct Hx as [Hx|[<-|[]]].
    + apply H2; [assumption|now right].
    + rewrite Forall_forall in H5. now apply H5.
Qed.

Lemma sys_step_inv s i s' :
  sys_step s i = Some s' -> exists p p', nth_error s i = Some p /\
    proc_step (firstn i s ++ skipn (S i) s) p = Some p' /\
    s' = firstn i s ++ p' :: skipn (S i) s /\
    s = firstn i s ++ p :: skipn (S i) s.
Proof.
  unfold sys_step. destruct (nth_error s i) as [p|] eqn:E; [|discriminate].
  destruct (proc_step _ p) as [p'|] eqn:E2; [|discriminate].
  intros [= <-]. exists p, p'. repeat split; try assumption.
  clear -E. revert s E. induction i; destruct s; simpl; intros; try discriminate.
  - now injection E as ->.
  - f_equal. now apply IHi.
Qed.

Definition sys_ok (s : list proc) : Prop := Forall proc_ok s.

Lemma sys_step_ok s i s' : sys_ok s -> sys_step s i = Some s' -> sys_ok s'.
Proof.
  intros H E. apply sys_step_inv in E. destruct E as (p & p' & _ & E & -> & Es).
  unfold sys_ok in *. rewrite Es in H. apply Forall_app in H. destruct H as [A B].
  inversion B; subst. apply Forall_app. split; [assumption|]. constructor; [|assumption].
  now apply proc_step_ok in E.
Qed.

(** Pairwise exclusion. *)
Definition compatible (p q : proc) : Prop :=
  forall b, In b (p_held p) -> In b (p_held q) -> p_mode p = RD /\ p_mode q = RD.

Definition sys_excl (s : list proc) : Prop :=
  forall i j p q, i <> j -> nth_error s i = Some p -> nth_error s j = Some q ->
    compatible p q.

Lemma proc_step_excl o p p' :
  proc_step o p = Some p' ->
  (forall q, In q o -> compatible p q) -> forall q, In q o -> compatible p' q.
Proof.
  unfold proc_step. intros E H q Hq. specialize (H q Hq).
  assert (S0 : forall l, compatible (start_proc l) q).
  { intros l b Hb. destruct l; simpl in Hb; contradiction. }
  destruct (p_todo p) as [|b t] eqn:Et.
  - destruct (p_held p) as [|a h] eqn:Eh.
    + destruct (p_rest p) as [|ph l]; [discriminate|]. injection E as <-. apply (S0 (ph :: l)).
    + destruct h as [|a' h].
      * injection E as <-. apply S0.
      * injection E as <-. intros b Hb1 Hb2. apply (H b); [|assumption].
        rewrite Eh. right. exact Hb1.
  - destruct (existsb _ _) eqn:Ex; [discriminate|]. injection E as <-.
    intros x Hx1 Hx2. cbn [p_mode p_held] in *. apply in_app_or in Hx1.
    destruct Hx1 as [Hx1|[<-|[]]].
    + now apply (H x).
    + assert (C : conflicts (p_mode p) b q = false).
      { destruct (conflicts (p_mode p) b q) eqn:C; [|reflexivity].
        assert (existsb (conflicts (p_mode p) b) o = true)
          by (apply existsb_exists; eauto). congruence. }
      unfold conflicts in C.
      assert (M : existsb (N.eqb b) (p_held q) = true).
      { apply existsb_exists. exists b. split; [assumption|]. apply N.eqb_refl. }
      rewrite M in C. simpl in C.
      destruct (p_mode p), (p_mode q); try discriminate. now split.
Qed.

Lemma compatible_sym p q : compatible p q -> compatible q p.
Proof. intros H b H1 H2. destruct (H b H2 H1). now split. Qed.

Lemma excl_others s i p :
  sys_excl s -> nth_error s i = Some p -> s = firstn i s ++ p :: skipn (S i) s ->
  (i < length s)%nat ->
  forall q, In q (firstn i s ++ skipn (S i) s) -> compatible p q.
Proof.
  intros H E Es Hl q Hq. apply in_app_or in Hq. destruct Hq as [Hq|Hq].
  - apply In_nth_error in Hq. destruct Hq as [j Hj].
    assert (j < i)%nat.
    { assert (j < length (firstn i s))%nat by (apply nth_error_Some; congruence).
      rewrite firstn_length in H0. lia. }
    apply (H i j); [lia|assumption|].
    rewrite Es, nth_error_app1; [assumption|]. apply nth_error_Some. congruence.
  - apply In_nth_error in Hq. destruct Hq as [j Hj].
    apply (H i (i + S j)%nat); [lia|assumption|].
    rewrite Es, nth_error_app2; rewrite firstn_length; [|lia].
    replace (i + S j - Nat.min i (length s))%nat with (S j) by lia. exact Hj.
Qed.

Lemma sys_step_excl s i s' : sys_excl s -> sys_step s i = Some s' -> sys_excl s'.
Proof.
  intros H E. apply sys_step_inv in E. destruct E as (p & p' & En & E & -> & Es).
  assert (Hl : (i < length s)%nat) by (apply nth_error_Some; congruence).
  pose proof (proc_step_excl _ _ _ E (excl_others s i p H En Es Hl)) as Hp.
  assert (L : length (firstn i s) = i) by (rewrite firstn_length; lia).
  (* element of the new list: either p' at i or the same as before *)
  assert (N1 : forall j, j <> i ->
     nth_error (firstn i s ++ p' :: skipn (S i) s) j = nth_error s j).
  { intros j Hj. rewrite Es at 3. destruct (Nat.lt_ge_cases j i).
    - rewrite !nth_error_app1 by (rewrite L; lia). reflexivity.
    - rewrite !nth_error_app2 by (rewrite L; lia). rewrite L.
      destruct (j - i)%nat eqn:Ej; [lia|]. reflexivity. }
  assert (N2 : nth_error (firstn i s ++ p' :: skipn (S i) s) i = Some p').
  { rewrite nth_error_app2 by (rewrite L; lia). rewrite L, Nat.sub_diag. reflexivity. }
  assert (IN : forall j q, j <> i -> nth_error s j = Some q ->
     In q (firstn i s ++ skipn (S i) s)).
  { intros j q Hj Hq. rewrite Es in Hq. apply in_or_app.
    destruct (Nat.lt_ge_cases j i).
    - left. rewrite nth_error_app1 in Hq by (rewrite L; lia). eapply nth_error_In; eauto.
    - right. rewrite nth_error_app2 in Hq by (rewrite L; lia). rewrite L in Hq.
      destruct (j - i)%nat eqn:Ej; [lia|]. simpl in Hq. eapply nth_error_In; eauto. }
  intros j k a b Hjk Ha Hb.
  destruct (Nat.eq_dec j i) as [->|Hj].
  - rewrite N2 in Ha. injection Ha as <-. rewrite N1 in Hb by lia.
    apply Hp. apply (IN k); [lia|assumption].
  - rewrite N1 in Ha by assumption.
    destruct (Nat.eq_dec k i) as [->|Hk].
    + rewrite N2 in Hb. injection Hb as <-. apply compatible_sym. apply Hp. now apply (IN j).
    + rewrite N1 in Hb by assumption. now apply (H j k).
Qed.

Definition head_bucket (p : proc) : N := match p_todo p with b :: _ => b | [] => 0 end.

Lemma max_blocked (s : list proc) (P : proc -> bool) :
  (exists p, In p s /\ P p = true) ->
  exists p, In p s /\ P p = true /\
    forall q, In q s -> P q = true -> head_bucket q <= head_bucket p.
Proof.
  induction s as [|a s IH]; intros (p & Hp & HP); [destruct Hp|].
  destruct (existsb P s) eqn:Ex.
  - apply existsb_exists in Ex. destruct (IH Ex) as (m & M1 & M2 & M3).
    destruct (P a) eqn:Pa.
    + destruct (N.le_gt_cases (head_bucket a) (head_bucket m)).
      * exists m. repeat split; [now right|assumption|]. intros q [<-|Hq] Hq2; auto.
      * exists a. repeat split; [now left|assumption|]. intros q [<-|Hq] Hq2; [lia|].
        specialize (M3 q Hq Hq2). lia.
    + exists m. repeat split; [now right|assumption|]. intros q [<-|Hq] Hq2; [congruence|auto].
  - assert (Hn : forall q, In q s -> P q = false).
    { intros q Hq. destruct (P q) eqn:E; [|reflexivity].
      assert (existsb P s = true) by (apply existsb_exists; eauto). congruence. }
    exists a. destruct Hp as [->|Hp]; [|rewrite Hn in HP by assumption; discriminate].
    repeat split; [now left|assumption|]. intros q [<-|Hq] Hq2; [lia|].
    rewrite Hn in Hq2 by assumption. discriminate.
Qed.

Lemma progress s :
  sys_ok s -> (exists p, In p s /\ finished p = false) ->
  exists i s', sys_step s i = Some s'.
Proof.
  intros H Hex.
  destruct (max_blocked s (fun p => negb (finished p))) as (p & Hp & Hf & Hm).
  { destruct Hex as (p & A & B). exists p. now rewrite B. }
  apply negb_true_iff in Hf.
  destruct (In_nth_error _ _ Hp) as [i Hi].
  destruct (sys_step s i) as [s'|] eqn:E; [now exists i, s'|].
  unfold sys_step in E. rewrite Hi in E.
  destruct (proc_step _ p) as [p'|] eqn:Ep; [discriminate|]. clear E.
  (* p is blocked *)
  unfold proc_step in Ep. destruct (p_todo p) as [|b t] eqn:Et.
  { exfalso. unfold finished in Hf. rewrite Et in Hf.
    destruct (p_held p) as [|a [|a' h]]; try discriminate.
    destruct (p_rest p); discriminate. }
  destruct (existsb _ _) eqn:Ex; [|discriminate].
  apply existsb_exists in Ex. destruct Ex as (q & Hq & Hc).
  assert (Hqs : In q s).
  { apply in_app_or in Hq. destruct Hq as [Hq|Hq].
    - rewrite <- (firstn_skipn i s). apply in_or_app. now left.
    - rewrite <- (firstn_skipn (S i) s). apply in_or_app. now right. }
  unfold conflicts in Hc. apply andb_prop in Hc. destruct Hc as [Hc _].
  apply existsb_exists in Hc. destruct Hc as (b' & Hb' & E). apply N.eqb_eq in E. subst b'.
  assert (Fq : finished q = false).
  { unfold finished. destruct (p_todo q); [|reflexivity].
    destruct (p_held q); [contradiction|reflexivity]. }
  specialize (Hm q Hqs). rewrite Fq in Hm. specialize (Hm eq_refl).
  unfold head_bucket in Hm. rewrite Et in Hm.
  destruct (p_todo q) as [|bq tq] eqn:Eq.
  - (* q can unlock *)
    destruct (In_nth_error _ _ Hqs) as [k Hk].
    unfold sys_step. exists k. rewrite Hk. unfold proc_step. rewrite Eq.
    destruct (p_held q) as [|a [|a' h]]; [contradiction| |]; eauto.
  - (* q waits for a larger bucket: contradiction *)
    unfold sys_ok in H. rewrite Forall_forall in H. destruct (H q Hqs) as (_ & H2 & _).
    rewrite Eq in H2. specialize (H2 b bq Hb' (or_introl eq_refl)). lia.
Qed.

(** Every step decreases a measure: no run is infinite. *)
Definition phase_size (ph : phase) : nat := (2 * length (ph_buckets ph) + 1)%nat.
Definition rest_size (l : list phase) : nat := fold_right (fun ph n => phase_size ph + n)%nat O l.
Definition proc_size (p : proc) : nat :=
  (2 * length (p_todo p) + length (p_held p) + rest_size (p_rest p))%nat.
Definition sys_size (s : list proc) : nat := fold_right (fun p n => proc_size p + n)%nat O s.

Lemma start_size l : l <> [] -> (proc_size (start_proc l) < rest_size l)%nat.
Proof.
  destruct l as [|ph l]; [congruence|]. intros _. simpl. unfold proc_size, phase_size; simpl. lia.
Qed.

Lemma proc_step_size o p p' : proc_step o p = Some p' -> (proc_size p' < proc_size p)%nat.
Proof.
  unfold proc_step. destruct (p_todo p) as [|b t] eqn:Et.
  - destruct (p_held p) as [|a h] eqn:Eh.
    + destruct (p_rest p) eqn:Er; [discriminate|]. intros [= <-].
      unfold proc_size at 2. rewrite Et, Eh, Er. simpl length.
      pose proof (start_size (p0 :: l)). cbn [start_proc] in *.
      assert (p0 :: l <> []) by discriminate. specialize (H H0). lia.
    + destruct h as [|a' h].
      * intros [= <-]. unfold proc_size at 2. rewrite Et, Eh. simpl length.
        destruct (p_rest p) as [|q l] eqn:Er.
        -- unfold proc_size. simpl. lia.
        -- pose proof (start_size (q :: l)).
           assert (q :: l <> []) by discriminate. specialize (H H0). lia.
      * intros [= <-]. unfold proc_size. rewrite Et, Eh. simpl. lia.
  - destruct (existsb _ _); [discriminate|]. intros [= <-].
    unfold proc_size. rewrite Et. simpl. rewrite app_length. simpl. lia.
Qed.

Lemma sys_size_app a b : sys_size (a ++ b) = (sys_size a + sys_size b)%nat.
Proof. unfold sys_size. induction a; simpl; [reflexivity|]. rewrite IHa. lia. Qed.

Lemma sys_step_size s i s' : sys_step s i = Some s' -> (sys_size s' < sys_size s)%nat.
Proof.
  intros E. apply sys_step_inv in E. destruct E as (p & p' & _ & E & -> & Es).
  rewrite Es at 3. rewrite !sys_size_app. simpl. apply proc_step_size in E. lia.
Qed.

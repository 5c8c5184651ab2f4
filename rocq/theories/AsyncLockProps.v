(** C14: the asynchronous management lock. *)
From Coq Require Import List Bool Arith Lia Permutation.
From Verif Require Import AsyncLockModel.
Import ListNotations.
Open Scope nat_scope.

Ltac splits := repeat match goal with |- _ /\ _ => split end.

(** ** Counting *)
Definition cnt (i : nat) (l : list nat) : nat := count_occ Nat.eq_dec l i.
Definition W (o : list (nat * bool)) : nat := length (filter snd o).
Definition R (o : list (nat * bool)) : nat := length (filter (fun e => negb (snd e)) o).
Lemma pair_dec : forall a b : nat * bool, {a = b} + {a <> b}.
Proof. decide equality; [apply bool_dec|apply Nat.eq_dec]. Defined.
Definition cntp (e : nat * bool) (l : list (nat * bool)) : nat := count_occ pair_dec l e.

Lemma cnt_app : forall i a b, cnt i (a ++ b) = cnt i a + cnt i b.
Proof. intros. unfold cnt. now rewrite count_occ_app. Qed.
Lemma cnt_cons : forall i a l, cnt i (a :: l) = (if a =? i then 1 else 0) + cnt i l.
Proof. intros. unfold cnt. cbn. destruct (Nat.eq_dec a i), (Nat.eqb_spec a i); try lia; contradiction. Qed.
Lemma cnt_nil : forall i, cnt i [] = 0.
Proof. reflexivity. Qed.
Lemma cnt_In : forall i l, In i l <-> cnt i l > 0.
Proof. intros. unfold cnt. apply count_occ_In. Qed.
Lemma cnt_NoDup : forall l, NoDup l <-> forall i, cnt i l <= 1.
Proof. intros. unfold cnt. apply NoDup_count_occ. Qed.
Lemma cntp_app : forall i a b, cntp i (a ++ b) = cntp i a + cntp i b.
Proof. intros. unfold cntp. now rewrite count_occ_app. Qed.
Lemma W_app : forall a b, W (a ++ b) = W a + W b.
Proof. intros. unfold W. now rewrite filter_app, app_length. Qed.
Lemma R_app : forall a b, R (a ++ b) = R a + R b.
Proof. intros. unfold R. now rewrite filter_app, app_length. Qed.
Lemma WR_length : forall o, length o = W o + R o.
Proof. induction o as [|[i w] o IH]; auto. unfold W, R in *. cbn. destruct w; cbn; lia. Qed.
Lemma ids_app : forall A (a b : list (nat * A)), ids (a ++ b) = ids a ++ ids b.
Proof. intros. unfold ids. apply map_app. Qed.
Lemma mem_false : forall i l, mem i l = false -> cnt i l = 0.
Proof.
  intros i l H. destruct (cnt i l) eqn:E; auto. assert (HI : In i l) by (apply cnt_In; lia).
  assert (mem i l = true); [|congruence]. apply existsb_exists. exists i. split; auto. apply Nat.eqb_refl.
Qed.
Lemma In_ids : forall A i (x : A) l, In (i, x) l -> cnt i (ids l) > 0.
Proof. intros. apply cnt_In. unfold ids. apply in_map_iff. exists (i, x). auto. Qed.

Lemma rem_none : forall i o, cnt i (ids o) = 0 -> rem i o = o.
Proof.
  induction o as [|[j w] o IH]; intros H; auto. change (ids ((j, w) :: o)) with (j :: ids o) in H. rewrite cnt_cons in H. unfold rem in *. cbn.
  destruct (Nat.eqb_spec j i); [lia|]. cbn. now rewrite IH by lia.
Qed.
Lemma cnt_rem : forall i j o, cnt j (ids (rem i o)) = if j =? i then 0 else cnt j (ids o).
Proof.
  induction o as [|[a w] o IH]; [cbn; destruct (j =? i); auto|]. unfold rem in *. cbn [filter fst].
  change (ids ((a, w) :: o)) with (a :: ids o). rewrite cnt_cons. destruct (Nat.eqb_spec a i); cbn [negb].
  - rewrite IH. subst. destruct (Nat.eqb_spec i j), (Nat.eqb_spec j i); subst; try lia; congruence.
  - change (ids ((a, w) :: filter (fun e => negb (fst e =? i)) o)) with (a :: ids (filter (fun e => negb (fst e =? i)) o)).
    rewrite cnt_cons, IH. destruct (Nat.eqb_spec j i); auto. subst. destruct (Nat.eqb_spec a i); [contradiction|reflexivity].
Qed.
Lemma rem_counts : forall i w o, (forall j, cnt j (ids o) <= 1) -> In (i, w) o ->
  W (rem i o) + (if w then 1 else 0) = W o /\ R (rem i o) + (if w then 0 else 1) = R o.
Proof.
  induction o as [|[j v] o IH]; intros HN HI; [easy|].
  assert (HN' : forall a, cnt a (ids o) <= 1).
  { intros a. specialize (HN a). change (ids ((j, v) :: o)) with (j :: ids o) in HN. rewrite cnt_cons in HN. lia. }
  change (rem i ((j, v) :: o)) with (if negb (j =? i) then (j, v) :: rem i o else rem i o).
  change ((j, v) :: rem i o) with ([(j, v)] ++ rem i o). change ((j, v) :: o) with ([(j, v)] ++ o) at 1 2. rewrite !W_app, !R_app.
  destruct (Nat.eqb_spec j i) as [->|Hne]; cbn [negb].
  - specialize (HN i). change (ids ((i, v) :: o)) with (i :: ids o) in HN. rewrite cnt_cons, Nat.eqb_refl in HN.
    rewrite rem_none by lia. destruct HI as [E|HI].
    + inversion E; subst v. destruct w; cbn; lia.
    + apply In_ids in HI. lia.
  - destruct HI as [E|HI]; [inversion E; contradiction|]. rewrite W_app, R_app. destruct (IH HN' HI). lia.
Qed.

(** ** The lock word against the set of owners *)
Record LC (l : lk) (o : list (nat * bool)) : Prop := {
  lc_rd : rd l = R o;
  lc_wr : wr l = negb (W o =? 0);
  lc_ex : W o = 0 \/ (W o = 1 /\ R o = 0);
  lc_held : waiters l <> [] -> o <> []
}.

Lemma LC_nonempty : forall o, o <> [] <-> W o + R o <> 0.
Proof. intros o. rewrite <- WR_length. destruct o; cbn; split; intros; try lia; try congruence. Qed.

Lemma LC_try : forall l o w l' i, LC l o -> try w l = Some l' ->
  LC l' (o ++ [(i, w)]) /\ waiters l = [] /\ waiters l' = [].
Proof.
  intros l o w l' i [A B C D] H. unfold try, trywr, tryrd in H. destruct w.
  - destruct (wr l) eqn:EW; [discriminate|]. cbn [orb] in H. destruct (Nat.eqb_spec (rd l) 0) as [E|E]; [|discriminate].
    cbn in H. inversion H; subst l'; clear H. symmetry in B. apply negb_false_iff, Nat.eqb_eq in B.
    assert (HW : waiters l = []).
    { destruct (waiters l) eqn:EWt; auto. elim (proj1 (LC_nonempty o)); [apply D; discriminate|]. lia. }
    split; [|cbn; auto]. constructor; cbn [rd wr waiters]; rewrite ?W_app, ?R_app; cbn; try lia.
    + rewrite B. reflexivity.
    + rewrite HW. congruence.
  - destruct (wr l) eqn:EW; [discriminate|]. cbn [orb] in H. destruct (waiters l) eqn:EWt; [|discriminate].
    cbn in H. inversion H; subst l'; clear H. symmetry in B. apply negb_false_iff, Nat.eqb_eq in B.
    split; [|cbn; rewrite ?EWt; auto]. constructor; cbn [rd wr waiters]; rewrite ?W_app, ?R_app; cbn; try lia.
    + rewrite B. auto.
    + congruence.
Qed.

Lemma LC_enq : forall l o w i, LC l o -> try w l = None -> LC (enqueue i w l) o.
Proof.
  intros l o w i [A B C D] H. constructor; cbn; auto. intros _. apply LC_nonempty. unfold try, trywr, tryrd in H. destruct w.
  - destruct (wr l) eqn:EW.
    + symmetry in B. apply negb_true_iff, Nat.eqb_neq in B. lia.
    + cbn in H. destruct (Nat.eqb_spec (rd l) 0); [discriminate|lia].
  - destruct (wr l) eqn:EW.
    + symmetry in B. apply negb_true_iff, Nat.eqb_neq in B. lia.
    + cbn in H. destruct (waiters l) eqn:E; [discriminate|]. apply LC_nonempty. apply D. congruence.
Qed.

Lemma collect_spec : forall ws r, let '(k, r', w', rest) := collect r ws in
  ws = k ++ rest /\ r' = r + R k /\ w' = negb (W k =? 0) /\ (W k = 0 \/ (W k = 1 /\ R k = 0 /\ r = 0)) /\ (r = 0 -> ws <> [] -> k <> []).
Proof.
  induction ws as [|[i w] ws IH]; intros r; cbn [collect].
  - cbn. splits; auto.
  - destruct w.
    + destruct (Nat.eqb_spec r 0); cbn.
      * splits; auto. discriminate.
      * splits; auto; intros; contradiction.
    + specialize (IH (S r)). destruct (collect (S r) ws) as [[[k r'] w'] rest]. destruct IH as (E1 & E2 & E3 & E4 & E5).
      change ((i, false) :: k) with ([(i, false)] ++ k). rewrite W_app, R_app. cbn [W R filter snd negb length]. splits.
      * now rewrite E1.
      * change (length [(i, false)]) with 1. lia.
      * exact E3.
      * left. change (length (@nil (nat * bool))) with 0. lia.
      * discriminate.
Qed.

Lemma LC_unlk : forall l o w i, LC l o -> (forall j, cnt j (ids o) <= 1) -> In (i, w) o ->
  exists l' k, unlk w l = Some (l', k) /\ waiters l = k ++ waiters l' /\ LC l' (rem i o ++ k).
Proof.
  intros l o w i [A B C D] HN HI. destruct (rem_counts i w o HN HI) as [HW HR]. unfold unlk. destruct w.
  - assert (E1 : rd l = 0) by lia. assert (E2 : wr l = true) by (rewrite B; destruct (Nat.eqb_spec (W o) 0); [lia|auto]).
    rewrite E1, E2. cbn [negb orb Nat.eqb]. pose proof (collect_spec (waiters l) 0) as HC.
    destruct (collect 0 (waiters l)) as [[[k r'] w'] rest]. destruct HC as (H1 & H2 & H3 & H4 & H5).
    eexists; eexists; split; [reflexivity|]. split; [exact H1|]. constructor; cbn [rd wr waiters]; rewrite ?W_app, ?R_app.
    + lia.
    + rewrite H3. do 2 f_equal. lia.
    + lia.
    + intros Hr. apply LC_nonempty. rewrite W_app, R_app. assert (k <> []); [|apply LC_nonempty in H; lia].
      apply H5; auto. rewrite H1. destruct k; cbn; auto. discriminate.
  - assert (E1 : rd l <> 0) by lia. assert (E2 : wr l = false) by (rewrite B; destruct (Nat.eqb_spec (W o) 0); [auto|lia]).
    rewrite E2. destruct (Nat.eqb_spec (rd l) 0); [contradiction|]. cbn [negb orb].
    destruct (Nat.eqb_spec (rd l - 1) 0) as [E3|E3]; cbn [negb].
    + rewrite E3. pose proof (collect_spec (waiters l) 0) as HC.
      destruct (collect 0 (waiters l)) as [[[k r'] w'] rest]. destruct HC as (H1 & H2 & H3 & H4 & H5).
      eexists; eexists; split; [reflexivity|]. split; [exact H1|]. constructor; cbn [rd wr waiters]; rewrite ?W_app, ?R_app.
      * lia.
      * rewrite H3. do 2 f_equal. lia.
      * lia.
      * intros Hr. apply LC_nonempty. rewrite W_app, R_app. assert (k <> []); [|apply LC_nonempty in H; lia].
        apply H5; auto. rewrite H1. destruct k; cbn; auto. discriminate.
    + eexists; eexists; split; [reflexivity|]. split; [reflexivity|]. rewrite app_nil_r. constructor; cbn [rd wr waiters].
      * lia.
      * destruct (Nat.eqb_spec (W (rem i o)) 0); [auto|lia].
      * lia.
      * intros _. apply LC_nonempty. lia.
Qed.

(** ** Invariant *)
Definition okk (k : kind) : bool := match k with KErr => false | _ => true end.
Definition nottry (k : kind) : bool := match k with KTry => false | _ => true end.
(** Completions still to be called. *)
Definition topair (e : nat * bool * kind) : nat * bool := (fst (fst e), okk (snd e)).
Definition pend (b : list (list (nat * bool * kind))) : list (nat * bool) :=
  map topair (filter (fun e => nottry (snd e)) (concat b)).
Definition nerr (b : list (list (nat * bool * kind))) : nat := length (filter (fun e => negb (okk (snd e))) (concat b)).
Definition tag (b : bool) (l : list nat) : list (nat * bool) := map (fun i => (i, b)) l.

Record Inv (s : st) : Prop := {
  v_lc : LC (lock s) (own s);
  v_use : forall i, cnt i (used s) = cnt i (pids (batches s)) + cnt i (ids (ucalls s)) + cnt i (ids (waiters (lock s)));
  v_use1 : forall i, cnt i (used s) <= 1;
  v_own : forall i, cnt i (ids (own s)) <= 1;
  v_fifo : granted s ++ dropped s ++ ids (waiters (lock s)) = arrivals s;
  v_arr : forall i, cnt i (arrivals s) <= cnt i (used s);
  v_drop : if destroyed s then waiters (lock s) = [] else dropped s = [];
  v_calls : forall e, cntp e (calls s) + cntp e (pend (batches s)) = cntp e (tag true (granted s)) + cntp e (tag false (dropped s));
  v_pend : forall i w k, In (i, w, k) (concat (batches s)) -> okk k = true -> In (i, w) (own s);
  v_ans : forall i w, In (i, w) (own s) -> (exists k, In (i, w, k) (concat (batches s)) /\ okk k = true) \/ In (i, true) (ucalls s);
  v_refs : crefs s = length (waiters (lock s)) + nerr (batches s) + length (own s) + leaks s
}.

Lemma init_inv : Inv init.
Proof. constructor; cbn; auto; try easy. constructor; cbn; auto. Qed.

Lemma concat_snoc : forall A (b : list (list A)) x, concat (b ++ [x]) = concat b ++ x.
Proof. intros. rewrite concat_app. cbn. now rewrite app_nil_r. Qed.
Lemma pids_snoc : forall b x, pids (b ++ [x]) = pids b ++ map (fun e => fst (fst e)) x.
Proof. intros. unfold pids. now rewrite concat_snoc, map_app. Qed.
Lemma pend_snoc : forall b x, pend (b ++ [x]) = pend b ++ map topair (filter (fun e => nottry (snd e)) x).
Proof. intros. unfold pend. now rewrite concat_snoc, filter_app, map_app. Qed.
Lemma nerr_snoc : forall b x, nerr (b ++ [x]) = nerr b + length (filter (fun e => negb (okk (snd e))) x).
Proof. intros. unfold nerr. now rewrite concat_snoc, filter_app, app_length. Qed.

Lemma wk_ids : forall c k, map (fun e => fst (fst e)) (with_kind c k) = ids k.
Proof. intros. unfold with_kind, ids. rewrite map_map. reflexivity. Qed.
Lemma wk_pend : forall c k, nottry c = true -> map topair (filter (fun e => nottry (snd e)) (with_kind c k)) = tag (okk c) (ids k).
Proof.
  intros c k H. induction k as [|[i w] k IH]; auto. change (with_kind c ((i, w) :: k)) with ((i, w, c) :: with_kind c k).
  cbn [filter snd]. rewrite H. cbn [map]. rewrite IH. reflexivity.
Qed.
Lemma wk_err : forall c k, length (filter (fun e => negb (okk (snd e))) (with_kind c k)) = if okk c then 0 else length k.
Proof. intros c k. destruct (okk c) eqn:E; induction k as [|[i w] k IH]; auto; cbn; rewrite E; cbn; auto. Qed.
Lemma tag_app : forall b x y, tag b (x ++ y) = tag b x ++ tag b y.
Proof. intros. apply map_app. Qed.

(** Taking the first entry off batch [n]. *)
Lemma upd_split : forall A (b : list (list A)) n x r, nth_error b n = Some (x :: r) ->
  exists p q, concat b = p ++ x :: q /\ concat (upd b n r) = p ++ q.
Proof.
  induction b as [|y b IH]; intros n x r H; [destruct n; discriminate|]. destruct n; cbn in H.
  - inversion H; subst y. exists [], (r ++ concat b). auto.
  - destruct (IH n x r H) as (p & q & E1 & E2). exists (y ++ p), q. cbn. rewrite E1, E2, !app_assoc. auto.
Qed.

Lemma cnt1 : forall i j, cnt i [j] = if j =? i then 1 else 0.
Proof. intros. rewrite cnt_cons, cnt_nil. lia. Qed.

(** The owner of [i] leaves and others get the lock. *)
Lemma inv_leave : forall s i w l k, Inv s -> In (i, w) (own s) -> cnt i (pids (batches s)) = 0 ->
  waiters (lock s) = k ++ waiters l -> LC l (rem i (own s) ++ k) -> Inv (put (leave s i l k)).
Proof.
  intros s i w l k [V1 V2 V3 V4 V5 V6 V7 V8 V9 V10 V11] HI HP HW HL.
  destruct (rem_counts i w (own s) V4 HI) as [HRW HRR].
  assert (Hk : forall j, cnt j (ids k) <= cnt j (ids (waiters (lock s)))) by (intros; rewrite HW, ids_app, cnt_app; lia).
  assert (Hown : forall j v, In (j, v) (own s) -> cnt j (pids (batches s)) + cnt j (ids (ucalls s)) > 0).
  { intros j v Hj. destruct (V10 j v Hj) as [(c & Hc & _)|Hc].
    - assert (In j (pids (batches s))); [|apply cnt_In in H; lia]. unfold pids. apply in_map_iff. exists (j, v, c). auto.
    - apply In_ids in Hc. lia. }
  constructor; cbn [put leave lock batches crefs own used arrivals granted dropped calls ucalls leaks destroyed waiters].
  - exact HL.
  - intros j. rewrite pids_snoc, wk_ids, cnt_app, V2, HW, ids_app, cnt_app. lia.
  - exact V3.
  - intros j. rewrite ids_app, cnt_app, cnt_rem. destruct (Nat.eqb_spec j i) as [->|Hne].
    + specialize (Hk i). specialize (V2 i). specialize (V3 i). lia.
    + specialize (Hk j). pose proof (V2 j). pose proof (V3 j). pose proof (V4 j).
      destruct (Nat.eq_dec (cnt j (ids (own s))) 0) as [E|E]; [lia|].
      assert (HIn : In j (ids (own s))) by (apply cnt_In; lia). unfold ids in HIn. apply in_map_iff in HIn as ([j' v] & <- & Hj).
      specialize (Hown _ _ Hj). cbn [fst] in *. lia.
  - rewrite <- V5, HW, ids_app. destruct (destroyed s).
    + rewrite V7 in HW. symmetry in HW. apply app_eq_nil in HW as [-> E]. rewrite E. cbn. now rewrite app_nil_r.
    + rewrite V7. cbn. now rewrite app_assoc.
  - exact V6.
  - destruct (destroyed s); auto. rewrite V7 in HW. symmetry in HW. now apply app_eq_nil in HW.
  - intros e. rewrite pend_snoc, wk_pend by reflexivity. cbn [okk]. rewrite tag_app, !cntp_app. specialize (V8 e). lia.
  - intros j v c Hj Hc. rewrite concat_snoc in Hj. apply in_app_iff. apply in_app_iff in Hj as [Hj|Hj].
    + left. unfold rem. apply filter_In. split; [exact (V9 j v c Hj Hc)|]. cbn. destruct (Nat.eqb_spec j i) as [->|]; auto.
      assert (HX : In i (pids (batches s))); [|apply cnt_In in HX; lia]. unfold pids. apply in_map_iff. exists (i, v, c). auto.
    + right. unfold with_kind in Hj. apply in_map_iff in Hj as ([j' v'] & E & Hj). cbn in E. inversion E; subst. exact Hj.
  - intros j v Hj. rewrite concat_snoc. apply in_app_iff in Hj as [Hj|Hj].
    + unfold rem in Hj. apply filter_In in Hj as [Hj _]. destruct (V10 j v Hj) as [(c & Hc & Hk')|Hc]; [left|right; auto].
      exists c. split; auto. apply in_app_iff. auto.
    + left. exists KOk. split; auto. apply in_app_iff. right. unfold with_kind. apply in_map_iff. exists (j, v). auto.
  - rewrite nerr_snoc, wk_err. cbn [okk]. rewrite app_length, V11, HW, app_length. rewrite !WR_length in *.
    pose proof (WR_length (own s)). pose proof (WR_length (rem i (own s))). destruct w; lia.
Qed.

(** The next entry of batch [n] is answered, with the lock kept or refused. *)
Lemma inv_called : forall s n rest i w k u,
  Inv s -> nth_error (batches s) n = Some ((i, w, k) :: rest) -> (okk k = true -> u = true) ->
  let c := if nottry k then [(i, okk k)] else [] in
  let s' := called s n rest c i u in
  Inv (if okk k then s' else put s') /\ cnt i (pids (batches s')) = 0.
Proof.
  intros s n rest i w k u [V1 V2 V3 V4 V5 V6 V7 V8 V9 V10 V11] HB Hu c s'.
  destruct (upd_split _ _ _ _ _ HB) as (p & q & E1 & E2).
  assert (EP : forall j, cnt j (pids (batches s)) = (if i =? j then 1 else 0) + cnt j (pids (upd (batches s) n rest))).
  { intros j. unfold pids. rewrite E1, E2, !map_app, !cnt_app. cbn [map fst]. rewrite cnt_cons. lia. }
  assert (EPend : forall e, cntp e (pend (batches s)) = cntp e c + cntp e (pend (upd (batches s) n rest))).
  { intros e. unfold pend. rewrite E1, E2, !filter_app. cbn [filter snd]. rewrite !map_app, !cntp_app. unfold c.
    destruct (nottry k); cbn [map]; [|cbn; lia]. unfold topair at 2. cbn [fst snd].
    change ((i, okk k) :: map topair (filter (fun e0 => nottry (snd e0)) q)) with ([(i, okk k)] ++ map topair (filter (fun e0 => nottry (snd e0)) q)).
    rewrite cntp_app. lia. }
  assert (EErr : nerr (batches s) = (if okk k then 0 else 1) + nerr (upd (batches s) n rest)).
  { unfold nerr. rewrite E1, E2, !filter_app, !app_length. cbn [filter snd]. destruct (okk k); cbn; lia. }
  assert (HZ : cnt i (pids (upd (batches s) n rest)) = 0).
  { pose proof (V2 i). pose proof (V3 i). pose proof (EP i). rewrite Nat.eqb_refl in *. lia. }
  split; [|exact HZ].
  assert (HX : forall t, lock t = lock s -> batches t = upd (batches s) n rest -> own t = own s -> used t = used s ->
     arrivals t = arrivals s -> granted t = granted s -> dropped t = dropped s -> destroyed t = destroyed s -> leaks t = leaks s ->
     calls t = calls s ++ c -> ucalls t = ucalls s ++ [(i, u)] -> crefs t = crefs s - (if okk k then 0 else 1) -> Inv t).
  { intros t T1 T2 T3 T4 T5 T6 T7 T8 T9 T10 T11 T12. constructor; rewrite ?T1, ?T2, ?T3, ?T4, ?T5, ?T6, ?T7, ?T8, ?T9, ?T10, ?T11, ?T12; auto.
    - intros j. rewrite ids_app, cnt_app. change (ids [(i, u)]) with [i]. rewrite cnt1. specialize (V2 j). specialize (EP j). lia.
    - intros e. rewrite cntp_app. specialize (V8 e). specialize (EPend e). lia.
    - intros j v k' Hj Hk. apply (V9 j v k'); auto. rewrite E1. rewrite E2 in Hj. apply in_app_iff in Hj. apply in_app_iff. cbn. tauto.
    - intros j v Hj. destruct (V10 j v Hj) as [(k' & Hk & Hok)|Hk].
      + rewrite E1 in Hk. rewrite E2. apply in_app_iff in Hk as [Hk|[Hk|Hk]].
        * left. exists k'. split; auto. apply in_app_iff. auto.
        * inversion Hk; subst. right. apply in_app_iff. right. rewrite Hu by auto. cbn. auto.
        * left. exists k'. split; auto. apply in_app_iff. auto.
      + right. apply in_app_iff. auto.
    - rewrite V11, EErr. destruct (okk k); lia. }
  destruct (okk k); apply HX; cbn; auto; lia.
Qed.

(** As above when the answer is a refusal and the lock is given back at once. *)
Lemma inv_called_leave : forall s n rest i w k l kk,
  Inv s -> nth_error (batches s) n = Some ((i, w, k) :: rest) -> okk k = true ->
  waiters (lock s) = kk ++ waiters l -> LC l (rem i (own s) ++ kk) ->
  let c := if nottry k then [(i, true)] else [] in
  Inv (let t := leave (called s n rest c i false) i l kk in if nottry k then put t else leak t).
Proof.
  intros s n rest i w k l kk HV HB Hk HW HL c.
  assert (HI : In (i, w) (own s)).
  { destruct (upd_split _ _ _ _ _ HB) as (p & q & E1 & E2). apply (v_pend s HV i w k); auto. rewrite E1. apply in_app_iff. cbn. auto. }
  destruct (inv_called s n rest i w k true HV HB (fun _ => eq_refl)) as [HC HZ]. rewrite Hk in HC. fold c in HC, HZ.
  set (s1 := called s n rest c i true) in *. set (s2 := called s n rest c i false).
  assert (HL1 := inv_leave s1 i w l kk HC HI HZ HW HL).
  destruct HL1 as [V1 V2 V3 V4 V5 V6 V7 V8 V9 V10 V11].
  assert (Hid : ids (ucalls s ++ [(i, false)]) = ids (ucalls s ++ [(i, true)])) by (now rewrite !ids_app).
  assert (HX : forall t, lock t = l -> batches t = batches (leave s1 i l kk) -> own t = own (leave s1 i l kk) -> used t = used s ->
     arrivals t = arrivals s -> granted t = granted (leave s1 i l kk) -> dropped t = dropped s -> destroyed t = destroyed s ->
     calls t = calls s1 -> ucalls t = ucalls s ++ [(i, false)] -> crefs t = length (waiters l) + nerr (batches t) + length (own t) + leaks t -> Inv t).
  { intros t T1 T2 T3 T4 T5 T6 T7 T8 T10 T11 T12. constructor; rewrite ?T1, ?T2, ?T3, ?T4, ?T5, ?T6, ?T7, ?T8, ?T10, ?T11; auto.
    - intros j. rewrite Hid. exact (V2 j).
    - intros j v Hj. destruct (V10 j v Hj) as [H|H]; auto. right. cbn in H. apply in_app_iff in H as [H|[H|[]]]; [apply in_app_iff; auto|].
      inversion H; subst j. exfalso. cbn in Hj. apply in_app_iff in Hj as [Hj|Hj].
      + unfold rem in Hj. apply filter_In in Hj as [_ Hj]. cbn in Hj. rewrite Nat.eqb_refl in Hj. discriminate.
      + apply In_ids in Hj. pose proof (v_use s1 HC i) as A. pose proof (v_use1 s1 HC i) as B.
        change (ucalls s1) with (ucalls s ++ [(i, true)]) in A. change (lock s1) with (lock s) in A.
        rewrite HW, !ids_app, !cnt_app in A. change (ids [(i, true)]) with [i] in A. rewrite cnt1, Nat.eqb_refl in A. lia.
    - rewrite T2, T3 in T12. exact T12. }
  unfold s2. pose proof (v_refs s1 HC) as HR1. cbn in HR1, V11.
  assert (HO : length (own s) >= 1) by (destruct (own s); [easy|cbn; lia]).
  destruct (nottry k); apply HX; cbn; auto; lia.
Qed.

Lemma owner_in : forall i s w, owner i s = Some w -> In (i, w) (own s).
Proof.
  intros i s w H. unfold owner in H. destruct (find _ (own s)) as [[j v]|] eqn:E; [|discriminate]. inversion H; subst. cbn.
  apply find_some in E as [E1 E2]. cbn in E2. apply Nat.eqb_eq in E2. now subst.
Qed.

Lemma cnt_used_0 : forall s i, Inv s -> cnt i (used s) = 0 ->
  cnt i (pids (batches s)) = 0 /\ cnt i (ids (ucalls s)) = 0 /\ cnt i (ids (waiters (lock s))) = 0 /\ cnt i (ids (own s)) = 0.
Proof.
  intros s i HV H. pose proof (v_use s HV i). splits; try lia.
  destruct (Nat.eq_dec (cnt i (ids (own s))) 0) as [E|E]; [auto|].
  assert (HIn : In i (ids (own s))) by (apply cnt_In; lia). unfold ids in HIn. apply in_map_iff in HIn as ([j' v] & <- & Hj). cbn [fst] in *.
  destruct (v_ans s HV _ _ Hj) as [(c & Hc & _)|Hc].
  - assert (HX : In j' (pids (batches s))); [|apply cnt_In in HX; lia]. unfold pids. apply in_map_iff. exists (j', v, c). auto.
  - apply In_ids in Hc. lia.
Qed.

Theorem step_inv : forall e s, Inv s -> match step e s with Bug => False | Blocked => True | Ok s' => Inv s' end.
Proof.
  intros e s HV. pose proof HV as [V1 V2 V3 V4 V5 V6 V7 V8 V9 V10 V11]. destruct e; cbn [step].
  - (* Lock *)
    destruct (mem i (used s)) eqn:EM; cbn [orb]; auto. destruct (destroyed s) eqn:ED; auto. apply mem_false in EM.
    destruct (cnt_used_0 s i HV EM) as (Z1 & Z2 & Z3 & Z4).
    unfold do_lock. destruct (try w (lock s)) as [l|] eqn:ET.
    + destruct (LC_try _ _ _ _ i V1 ET) as (HL & HW & HW').
      constructor; cbn [lock batches crefs own used arrivals granted dropped calls ucalls leaks destroyed waiters]; auto.
      * intros j. rewrite pids_snoc, cnt_app. cbn [map fst]. rewrite HW', cnt1, cnt_cons. specialize (V2 j). rewrite HW in V2. lia.
      * intros j. rewrite cnt_cons. destruct (Nat.eqb_spec i j); subst; [lia|]. apply V3.
      * intros j. rewrite ids_app, cnt_app. change (ids [(i, w)]) with [i]. rewrite cnt1. destruct (Nat.eqb_spec i j); subst; [lia|]. specialize (V4 j). lia.
      * rewrite V7, HW' in *. cbn in *. rewrite app_nil_r. rewrite HW in V5. cbn in V5. rewrite app_nil_r in V5. now rewrite V5.
      * intros j. rewrite cnt_app, cnt1, cnt_cons. specialize (V6 j). lia.
      * now rewrite ED.
      * intros a. rewrite pend_snoc, cntp_app, tag_app, cntp_app. cbn [filter snd nottry map]. unfold topair. cbn [fst snd okk tag map]. specialize (V8 a). lia.
      * intros j v c Hj Hc. rewrite concat_snoc in Hj. apply in_app_iff. apply in_app_iff in Hj as [Hj|[Hj|[]]]; [left; exact (V9 j v c Hj Hc)|].
        inversion Hj; subst. right. cbn. auto.
      * intros j v Hj. rewrite concat_snoc. apply in_app_iff in Hj as [Hj|[Hj|[]]].
        { destruct (V10 j v Hj) as [(c & Hc & Hk')|Hc]; [left|right; auto]. exists c. split; auto. apply in_app_iff. auto. }
        { inversion Hj; subst. left. exists KOk. split; auto. apply in_app_iff. cbn. auto. }
      * rewrite nerr_snoc, app_length. cbn. rewrite HW', V11, HW. cbn. lia.
    + constructor; cbn [lock batches crefs own used arrivals granted dropped calls ucalls leaks destroyed]; auto.
      * now apply LC_enq.
      * intros j. cbn [enqueue waiters]. rewrite ids_app, cnt_app. change (ids [(i, w)]) with [i]. rewrite cnt1, cnt_cons. specialize (V2 j). lia.
      * intros j. rewrite cnt_cons. destruct (Nat.eqb_spec i j); subst; [lia|]. apply V3.
      * cbn [enqueue waiters]. rewrite ids_app, <- V5, !app_assoc. reflexivity.
      * intros j. rewrite cnt_app, cnt1, cnt_cons. specialize (V6 j). lia.
      * now rewrite ED.
      * cbn [enqueue waiters]. rewrite app_length. cbn. lia.
  - (* TryLock *)
    destruct (mem i (used s)) eqn:EM; cbn [orb]; auto. destruct (destroyed s) eqn:ED; auto. apply mem_false in EM.
    destruct (cnt_used_0 s i HV EM) as (Z1 & Z2 & Z3 & Z4).
    unfold do_try. destruct (try w (lock s)) as [l|] eqn:ET.
    + destruct (LC_try _ _ _ _ i V1 ET) as (HL & HW & HW').
      constructor; cbn [lock batches crefs own used arrivals granted dropped calls ucalls leaks destroyed waiters]; auto.
      * intros j. rewrite pids_snoc, cnt_app. cbn [map fst]. rewrite HW', cnt1, cnt_cons. specialize (V2 j). rewrite HW in V2. lia.
      * intros j. rewrite cnt_cons. destruct (Nat.eqb_spec i j); subst; [lia|]. apply V3.
      * intros j. rewrite ids_app, cnt_app. change (ids [(i, w)]) with [i]. rewrite cnt1. destruct (Nat.eqb_spec i j); subst; [lia|]. specialize (V4 j). lia.
      * now rewrite HW', <- V5, HW.
      * intros j. rewrite cnt_cons. specialize (V6 j). lia.
      * now rewrite ED.
      * intros a. rewrite pend_snoc, cntp_app. cbn [filter snd nottry map]. specialize (V8 a). cbn. lia.
      * intros j v c Hj Hc. rewrite concat_snoc in Hj. apply in_app_iff. apply in_app_iff in Hj as [Hj|[Hj|[]]]; [left; exact (V9 j v c Hj Hc)|].
        inversion Hj; subst. right. cbn. auto.
      * intros j v Hj. rewrite concat_snoc. apply in_app_iff in Hj as [Hj|[Hj|[]]].
        { destruct (V10 j v Hj) as [(c & Hc & Hk')|Hc]; [left|right; auto]. exists c. split; auto. apply in_app_iff. auto. }
        { inversion Hj; subst. left. exists KTry. split; auto. apply in_app_iff. cbn. auto. }
      * rewrite nerr_snoc, app_length. cbn. rewrite HW', V11, HW. cbn. lia.
    + constructor; cbn [lock batches crefs own used arrivals granted dropped calls ucalls leaks destroyed]; auto.
      * intros j. rewrite ids_app, cnt_app. change (ids [(i, false)]) with [i]. rewrite cnt1, cnt_cons. specialize (V2 j). lia.
      * intros j. rewrite cnt_cons. destruct (Nat.eqb_spec i j); subst; [lia|]. apply V3.
      * intros j. rewrite cnt_cons. specialize (V6 j). lia.
      * now rewrite ED.
      * intros j v Hj. destruct (V10 j v Hj) as [H|H]; auto. right. apply in_app_iff. auto.
  - (* Unlock *)
    destruct (owner i s) as [w|] eqn:EO; auto. destruct (mem i (pids (batches s))) eqn:EM; auto. apply mem_false in EM.
    apply owner_in in EO. destruct (LC_unlk _ _ w i V1 V4 EO) as (l & k & E & HW & HL). rewrite E. exact (inv_leave s i w l k HV EO EM HW HL).
  - (* Complete *)
    unfold complete. destruct (nth_error (batches s) n) as [[|[[i w] k] rest]|] eqn:EB; auto.
    assert (HO : okk k = true -> In (i, w) (own s)).
    { intros Hk. destruct (upd_split _ _ _ _ _ EB) as (p & q & E1 & E2). apply (V9 i w k); auto. rewrite E1. apply in_app_iff. cbn. auto. }
    destruct k.
    + destruct (stopping s).
      * destruct (LC_unlk _ _ w i V1 V4 (HO eq_refl)) as (l & k & E & HW & HL). rewrite E.
        exact (inv_called_leave s n rest i w KOk l k HV EB eq_refl HW HL).
      * exact (proj1 (inv_called s n rest i w KOk true HV EB (fun _ => eq_refl))).
    + exact (proj1 (inv_called s n rest i w KErr false HV EB ltac:(discriminate))).
    + destruct (stopping s).
      * destruct (LC_unlk _ _ w i V1 V4 (HO eq_refl)) as (l & k & E & HW & HL). rewrite E.
        exact (inv_called_leave s n rest i w KTry l k HV EB eq_refl HW HL).
      * exact (proj1 (inv_called s n rest i w KTry true HV EB (fun _ => eq_refl))).
  - (* SetStopping *)
    constructor; cbn; auto.
  - (* Destroy *)
    destruct (destroyed s) eqn:ED; auto.
    constructor; cbn [destroy lock batches crefs own used arrivals granted dropped calls ucalls leaks destroyed waiters]; auto.
    + destruct V1 as [A B C D]. constructor; cbn; auto.
    + intros j. rewrite pids_snoc, wk_ids, cnt_app, V2. cbn. lia.
    + rewrite V7 in *. cbn in *. now rewrite app_nil_r.
    + intros a. rewrite pend_snoc, wk_pend by reflexivity. cbn [okk]. rewrite tag_app, !cntp_app. specialize (V8 a). lia.
    + intros j v c Hj Hc. rewrite concat_snoc in Hj. apply in_app_iff in Hj as [Hj|Hj]; [exact (V9 j v c Hj Hc)|].
      unfold with_kind in Hj. apply in_map_iff in Hj as ([j' v'] & E & Hj). inversion E; subst. discriminate.
    + intros j v Hj. rewrite concat_snoc. destruct (V10 j v Hj) as [(c & Hc & Hk')|Hc]; [left|right; auto]. exists c. split; auto. apply in_app_iff. auto.
    + rewrite nerr_snoc, wk_err. cbn [okk length]. lia.
Qed.

Theorem run_inv : forall evs s, Inv s -> exists s', run evs s = Ok s' /\ Inv s'.
Proof.
  induction evs as [|e evs IH]; intros s HI; cbn [run]; [eauto|]. pose proof (step_inv e s HI) as H. destruct (step e s); [auto|easy|auto].
Qed.

(** ** C14 *)

(** Reachable states; no reachable step hits an ENV_BUG_ON. *)
Theorem C14_no_bug : forall evs, exists s, run evs init = Ok s.
Proof. intros evs. destruct (run_inv evs init init_inv) as (s & E & _). eauto. Qed.

Lemma reach_inv : forall evs s, run evs init = Ok s -> Inv s.
Proof. intros evs s H. destruct (run_inv evs init init_inv) as (s' & E & HI). congruence. Qed.

Lemma In_W : forall i o, In (i, true) o -> W o >= 1.
Proof.
  intros i o H. unfold W. assert (HF : In (i, true) (filter snd o)) by (apply filter_In; auto). destruct (filter snd o); [easy|cbn; lia].
Qed.
Lemma ex_single : forall i o, In (i, true) o -> W o = 0 \/ (W o = 1 /\ R o = 0) -> o = [(i, true)].
Proof.
  intros i o H HC. pose proof (In_W i o H). pose proof (WR_length o). destruct o as [|a [|b o]]; cbn in *; try lia. destruct H as [->|[]]. reflexivity.
Qed.

(** A writer is alone. *)
Theorem C14_exclusion : forall evs s i j w, run evs init = Ok s ->
  In (i, true) (own s) -> In (j, w) (own s) -> j = i /\ w = true /\ length (own s) = 1.
Proof.
  intros evs s i j w H Hi Hj. pose proof (reach_inv _ _ H) as HV. rewrite (ex_single i _ Hi (lc_ex _ _ (v_lc s HV))) in *.
  destruct Hj as [E|[]]. inversion E. auto.
Qed.

(** ocf_async_is_locked tells the truth. *)
Theorem C14_is_locked : forall evs s, run evs init = Ok s -> (wr (lock s) = true \/ rd (lock s) <> 0) <-> own s <> [].
Proof.
  intros evs s H. pose proof (reach_inv _ _ H) as HV. destruct (v_lc s HV) as [A B C D]. rewrite LC_nonempty, A, B.
  destruct (Nat.eqb_spec (W (own s)) 0); cbn; split; intros; try lia.
Qed.

(** Who is told it has the lock, has it at that moment; and it keeps it until it unlocks. *)
Theorem C14_success_owns : forall evs e s s' i, run evs init = Ok s -> step e s = Ok s' ->
  In (i, true) (ucalls s') -> ~ In (i, true) (ucalls s) -> exists w, In (i, w) (own s').
Proof.
  intros evs e s s' i H HS HI HN. pose proof (reach_inv _ _ H) as HV.
  destruct e; cbn [step] in HS.
  - destruct (_ || _); [discriminate|]. inversion HS; subst s'. unfold do_lock in HI. destruct (try w (lock s)); cbn in HI; contradiction.
  - destruct (_ || _); [discriminate|]. inversion HS; subst s'. unfold do_try in HI. destruct (try w (lock s)); cbn in HI; try contradiction.
    apply in_app_iff in HI as [HI|[HI|[]]]; [contradiction|discriminate].
  - destruct (owner i0 s); [|discriminate]. destruct (mem _ _); [discriminate|]. destruct (unlk b (lock s)) as [[l k]|]; [|discriminate].
    inversion HS; subst s'. cbn in HI. contradiction.
  - unfold complete in HS. destruct (nth_error (batches s) n) as [[|[[j w] k] rest]|] eqn:EB; try discriminate.
    assert (HO : okk k = true -> In (j, w) (own s)).
    { intros Hk. destruct (upd_split _ _ _ _ _ EB) as (p & q & E1 & E2). apply (v_pend s HV j w k); auto. rewrite E1. apply in_app_iff. cbn. auto. }
    destruct k.
    + destruct (stopping s).
      * destruct (unlk w (lock s)) as [[l kk]|]; [|discriminate]. inversion HS; subst s'. cbn in HI. apply in_app_iff in HI as [HI|[HI|[]]]; [contradiction|discriminate].
      * inversion HS; subst s'. cbn in HI. apply in_app_iff in HI as [HI|[HI|[]]]; [contradiction|]. inversion HI; subst. exists w. cbn. auto.
    + inversion HS; subst s'. cbn in HI. apply in_app_iff in HI as [HI|[HI|[]]]; [contradiction|discriminate].
    + destruct (stopping s).
      * destruct (unlk w (lock s)) as [[l kk]|]; [|discriminate]. inversion HS; subst s'. cbn in HI. apply in_app_iff in HI as [HI|[HI|[]]]; [contradiction|discriminate].
      * inversion HS; subst s'. cbn in HI. apply in_app_iff in HI as [HI|[HI|[]]]; [contradiction|]. inversion HI; subst. exists w. cbn. auto.
  - inversion HS; subst s'. cbn in HI. contradiction.
  - destruct (destroyed s); [discriminate|]. inversion HS; subst s'. cbn in HI. contradiction.
Qed.

Theorem C14_keeps_until_unlock : forall evs e s s' i w, run evs init = Ok s -> step e s = Ok s' ->
  In (i, w) (own s) -> In (i, true) (ucalls s) -> e <> Unlock i -> In (i, w) (own s').
Proof.
  intros evs e s s' i w H HS HI HU HE. pose proof (reach_inv _ _ H) as HV.
  assert (HR : forall j k, j <> i -> In (i, w) (rem j (own s) ++ k)).
  { intros j k Hj. apply in_app_iff. left. unfold rem. apply filter_In. split; auto. cbn. destruct (Nat.eqb_spec i j); auto; congruence. }
  assert (HPn : forall n j v k rest, nth_error (batches s) n = Some ((j, v, k) :: rest) -> j <> i).
  { intros n j v k rest EB ->. destruct (upd_split _ _ _ _ _ EB) as (p & q & E1 & E2).
    pose proof (v_use s HV i). pose proof (v_use1 s HV i). apply In_ids in HU.
    assert (HX : In i (pids (batches s))); [|apply cnt_In in HX; lia].
    unfold pids. rewrite E1, map_app. apply in_app_iff. cbn. auto. }
  destruct e; cbn [step] in HS.
  - destruct (_ || _); [discriminate|]. inversion HS; subst s'. unfold do_lock. destruct (try w0 (lock s)); cbn; auto. apply in_app_iff; auto.
  - destruct (_ || _); [discriminate|]. inversion HS; subst s'. unfold do_try. destruct (try w0 (lock s)); cbn; auto. apply in_app_iff; auto.
  - destruct (owner i0 s); [|discriminate]. destruct (mem _ _); [discriminate|]. destruct (unlk b (lock s)) as [[l k]|]; [|discriminate].
    inversion HS; subst s'. cbn. apply HR. congruence.
  - unfold complete in HS. destruct (nth_error (batches s) n) as [[|[[j v] k] rest]|] eqn:EB; try discriminate.
    specialize (HPn _ _ _ _ _ EB). destruct k; destruct (stopping s); repeat match type of HS with match ?x with _ => _ end = _ => destruct x as [[? ?]|]; [|discriminate] end; inversion HS; subst s'; cbn; auto; apply HR; auto.
  - inversion HS; subst s'. auto.
  - destruct (destroyed s); [discriminate|]. inversion HS; subst s'. auto.
Qed.

(** First come, first served: the requests given the lock, then those refused by
    deinit, then those waiting are the requests in order of arrival. *)
Theorem C14_arrival_order : forall evs s, run evs init = Ok s ->
  arrivals s = granted s ++ dropped s ++ ids (waiters (lock s)) /\ NoDup (arrivals s) /\
  (destroyed s = false -> dropped s = []) /\ (destroyed s = true -> waiters (lock s) = []).
Proof.
  intros evs s H. pose proof (reach_inv _ _ H) as HV. split; [symmetry; apply (v_fifo s HV)|]. split.
  - apply cnt_NoDup. intros i. pose proof (v_arr s HV i). pose proof (v_use1 s HV i). lia.
  - pose proof (v_drop s HV). destruct (destroyed s); split; auto; discriminate.
Qed.

(** No call overtakes a waiting request. *)
Theorem C14_no_overtaking : forall evs s s' i w, run evs init = Ok s -> waiters (lock s) <> [] ->
  step (Lock i w) s = Ok s' \/ step (TryLock i w) s = Ok s' -> own s' = own s.
Proof.
  intros evs s s' i w H HW HS. pose proof (reach_inv _ _ H) as HV.
  assert (HT : try w (lock s) = None).
  { destruct (try w (lock s)) eqn:E; auto. destruct (LC_try _ _ _ _ i (v_lc s HV) E) as (_ & E' & _). contradiction. }
  destruct HS as [HS|HS]; cbn [step] in HS; (destruct (_ || _); [discriminate|]); unfold do_lock, do_try in HS; rewrite HT in HS; inversion HS; auto.
Qed.

Lemma cnt_cntp : forall i l, cnt i (ids l) = cntp (i, true) l + cntp (i, false) l.
Proof.
  induction l as [|[j b] l IH]; auto. change (ids ((j, b) :: l)) with (j :: ids l). rewrite cnt_cons, IH. unfold cntp. cbn [count_occ].
  destruct (pair_dec (j, b) (i, true)), (pair_dec (j, b) (i, false)), (Nat.eqb_spec j i); subst; try congruence; try lia.
  - destruct b; congruence.
Qed.
Lemma cntp_tag : forall i b c l, cntp (i, b) (tag c l) = if eqb b c then cnt i l else 0.
Proof.
  induction l as [|j l IH]; [cbn; destruct (eqb b c); auto|]. change (tag c (j :: l)) with ((j, c) :: tag c l). rewrite cnt_cons. unfold cntp in *. cbn [count_occ].
  rewrite IH. destruct (pair_dec (j, c) (i, b)) as [E|E].
  - inversion E; subst. rewrite eqb_reflx, Nat.eqb_refl. lia.
  - destruct (eqb b c) eqn:EB; auto. apply eqb_prop in EB. subst. destruct (Nat.eqb_spec j i); [congruence|lia].
Qed.

(** Every waiter is in exactly one place: still waiting, or about to be completed by one
    thread, or completed once.  Success means that it was given the lock, an error that
    the lock was destroyed before. *)
Theorem C14_completed_once : forall evs s i, run evs init = Ok s -> In i (arrivals s) ->
  cnt i (ids (waiters (lock s))) + cnt i (ids (pend (batches s))) + cnt i (ids (calls s)) = 1 /\
  (In (i, true) (calls s) -> In i (granted s)) /\
  (In (i, false) (calls s) -> In i (dropped s) /\ destroyed s = true).
Proof.
  intros evs s i H HI. pose proof (reach_inv _ _ H) as HV.
  destruct (C14_arrival_order evs s H) as (HA & HN & HD & HD').
  assert (H1 : cnt i (arrivals s) = 1). { pose proof (proj1 (cnt_NoDup _) HN i). apply cnt_In in HI. lia. }
  rewrite HA, !cnt_app in H1.
  pose proof (v_calls s HV (i, true)) as E1. pose proof (v_calls s HV (i, false)) as E2. rewrite !cntp_tag in E1, E2. cbn [eqb] in E1, E2.
  rewrite !cnt_cntp. rewrite cnt_cntp in H1. split; [lia|]. split; intros HC; apply (count_occ_In pair_dec) in HC; fold (cntp (i, true) (calls s)) in HC; fold (cntp (i, false) (calls s)) in HC.
  - apply cnt_In. lia.
  - assert (HX : In i (dropped s)) by (apply cnt_In; lia). split; auto. destruct (destroyed s); auto. rewrite HD in HX; [easy|auto].
Qed.

(** Nobody is forgotten: when no thread is in the middle of a call and nobody has the
    lock, every waiter was completed (exactly once, by the theorem above). *)
Theorem C14_no_waiter_forgotten : forall evs s, run evs init = Ok s -> concat (batches s) = [] -> own s = [] ->
  waiters (lock s) = [] /\ forall i, In i (arrivals s) -> cnt i (ids (calls s)) = 1.
Proof.
  intros evs s H HB HO. pose proof (reach_inv _ _ H) as HV.
  assert (HW : waiters (lock s) = []). { destruct (waiters (lock s)) eqn:E; auto. elim (lc_held _ _ (v_lc s HV)); auto. congruence. }
  split; auto. intros i Hi. destruct (C14_completed_once evs s i H Hi) as [E _]. rewrite HW in E. unfold pend in E. rewrite HB in E. exact E.
Qed.

(** And it can always get there: while someone waits, some thread can go on or some
    owner can unlock. *)
Theorem C14_no_deadlock : forall evs s, run evs init = Ok s -> waiters (lock s) <> [] ->
  exists e s', (exists n, e = Complete n \/ e = Unlock n) /\ step e s = Ok s'.
Proof.
  intros evs s H HW. pose proof (reach_inv _ _ H) as HV.
  assert (HC : forall b : list (list (nat * bool * kind)), concat b <> [] -> exists n x r, nth_error b n = Some (x :: r)).
  { induction b as [|[|x r] b IH]; intros Hb; [easy| |exists 0, x, r; reflexivity]. destruct (IH Hb) as (n & y & r & E). exists (S n), y, r. exact E. }
  destruct (concat (batches s)) eqn:EB.
  - pose proof (lc_held _ _ (v_lc s HV) HW) as HO. destruct (own s) as [|[i w] o] eqn:EO; [contradiction|].
    assert (Howner : owner i s = Some w) by (unfold owner; rewrite EO; cbn; rewrite Nat.eqb_refl; auto).
    pose proof (step_inv (Unlock i) s HV) as HSI. exists (Unlock i). cbn [step] in *. rewrite Howner in *.
    unfold pids in *. rewrite EB in *. cbn [map mem existsb] in *. destruct (unlk w (lock s)) as [[l' k']|]; [|easy]. eexists. split; [eauto|reflexivity].
  - destruct (HC (batches s)) as (n & [[i w] k] & r & E); [congruence|]. pose proof (step_inv (Complete n) s HV) as HSI. exists (Complete n). cbn [step] in *. unfold complete in *.
    rewrite E in *. destruct k; destruct (stopping s); try (destruct (unlk w (lock s)) as [[l' k']|]; [|easy]); (eexists; split; [eauto|reflexivity]).
Qed.

(** ** References on the cache *)

(** A lock call holds one reference on the cache until its request is refused or the
    lock is given back; a trylock call refused because the cache is stopping keeps it. *)
Theorem C14_references_partial : forall evs s, run evs init = Ok s -> concat (batches s) = [] -> leaks s = 0 ->
  crefs s = length (waiters (lock s)) + length (own s).
Proof. intros evs s H HB HL. pose proof (v_refs s (reach_inv _ _ H)) as E. unfold nerr in E. rewrite HB, HL in E. cbn in E. lia. Qed.

Theorem C14_reference_leak_refuted : exists evs s, run evs init = Ok s /\
  waiters (lock s) = [] /\ concat (batches s) = [] /\ own s = [] /\ ucalls s = [(0, true); (1, false)] /\ crefs s = 1.
Proof.
  exists [TryLock 0 true; Complete 0; SetStopping; Unlock 0; TryLock 1 true; Complete 2]. eexists. split; [reflexivity|]. cbn. auto 10.
Qed.

(** The owner that stops the cache gives the lock back after the lock's spinlock was
    destroyed. *)
Theorem C14_unlock_after_deinit_refuted : exists evs s, run evs init = Ok s /\ late s = true.
Proof. exists [Lock 0 true; Complete 0; SetStopping; Destroy; Unlock 0]. eexists. split; reflexivity. Qed.

(** ** Cases *)
Definition ex_run : list ev :=
  [Lock 0 false; Complete 0; Lock 1 false; Complete 1; Lock 2 true; Lock 3 false; TryLock 4 false; Lock 5 false; Lock 6 true;
   Unlock 0; Unlock 1; Complete 3; Lock 7 false; Unlock 2; Complete 4].
Example C14_case : match run ex_run init with
  | Ok s => own s = [(3, false); (5, false)] /\ arrivals s = [0; 1; 2; 3; 5; 6; 7] /\ granted s = [0; 1; 2; 3; 5] /\
            waiters (lock s) = [(6, true); (7, false)] /\ calls s = [(0, true); (1, true); (2, true); (3, true)] /\
            pend (batches s) = [(5, true)] /\ ucalls s = [(0, true); (1, true); (4, false); (2, true); (3, true)]
  | _ => False end.
Proof. vm_compute. auto 10. Qed.
Example C14_case_destroy : match run (ex_run ++ [Complete 4; SetStopping; Destroy; Complete 5; Complete 5; Unlock 3; Unlock 5]) init with
  | Ok s => own s = [] /\ dropped s = [6; 7] /\ calls s = [(0, true); (1, true); (2, true); (3, true); (5, true); (6, false); (7, false)] /\
            crefs s = 0 /\ concat (batches s) = []
  | _ => False end.
Proof. vm_compute. auto 10. Qed.
Example C14_case_writer : match run [Lock 0 true; Complete 0; Lock 1 false] init with
  | Ok s => In (0, true) (own s) /\ waiters (lock s) <> [] /\ In (0, true) (ucalls s) | _ => False end.
Proof. vm_compute. splits; auto; discriminate. Qed.

Print Assumptions C14_no_bug.
Print Assumptions C14_exclusion.
Print Assumptions C14_is_locked.
Print Assumptions C14_success_owns.
Print Assumptions C14_keeps_until_unlock.
Print Assumptions C14_arrival_order.
Print Assumptions C14_no_overtaking.
Print Assumptions C14_completed_once.
Print Assumptions C14_no_waiter_forgotten.
Print Assumptions C14_no_deadlock.
Print Assumptions C14_references_partial.
Print Assumptions C14_reference_leak_refuted.
Print Assumptions C14_unlock_after_deinit_refuted.

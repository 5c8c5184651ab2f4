(** C49 - request statistics. *)
From Coq Require Import NArith List Bool Arith Lia.
From Verif Require Import StatsModel.
Import ListNotations.
Open Scope nat_scope.

Lemma var_eqb_spec a b : reflect (a = b) (var_eqb a b).
Proof.
  destruct a as [c w f], b as [c' w' f']. unfold var_eqb. cbn [cls wr fld]. destruct (Nat.eqb_spec c c') as [->|N]; [|constructor; intros E; injection E; intros; contradiction].
  destruct w, w', f, f'; cbn; constructor; try reflexivity; discriminate.
Qed.
Lemma var_eqb_refl a : var_eqb a a = true. Proof. destruct (var_eqb_spec a a); [reflexivity | contradiction]. Qed.
(** How often the thread has incremented [v] *)
Definition cnt (v : var) (l : list var) : nat := length (filter (var_eqb v) l).
Definition done (v : var) (t : thread) : nat := match t with Upd r pc => cnt v (firstn pc (prog r)) | _ => 0 end.
Definition sumd (v : var) (l : list thread) : nat := list_sum (map (done v) l).
Lemma cnt_app v a b : cnt v (a ++ b) = cnt v a + cnt v b.
Proof. unfold cnt. rewrite filter_app, app_length. reflexivity. Qed.
Lemma firstn_next {A} (l : list A) : forall k x, nth_error l k = Some x -> firstn (S k) l = firstn k l ++ [x].
Proof. induction l as [|y l IH]; intros [|k] x E; cbn in *; try discriminate; [injection E as ->; reflexivity|]. f_equal. apply IH. exact E. Qed.
Lemma nth_split_upd {A} (l : list A) : forall i x y, nth_error l i = Some x -> exists a b, l = a ++ x :: b /\ upd l i y = a ++ y :: b.
Proof.
  induction l as [|z l IH]; intros [|i] x y E; cbn in *; try discriminate; [injection E as ->; exists [], l; split; reflexivity|].
  destruct (IH i x y E) as (a & b & E1 & E2). exists (z :: a), b. rewrite E2. cbn. split; [f_equal; exact E1 | reflexivity].
Qed.
Lemma sumd_upd v l i x y : nth_error l i = Some x -> sumd v (upd l i y) + done v x = sumd v l + done v y.
Proof. intros E. destruct (nth_split_upd l i x y E) as (a & b & E1 & E2). rewrite E2, E1. unfold sumd. rewrite !map_app, !list_sum_app. cbn. lia. Qed.
Lemma prog_cases r : (exists f, prog r = [V (r_cls r) (r_wr r) Pass] /\ f = Pass) \/ prog r = [V (r_cls r) (r_wr r) Total] \/ prog r = [V (r_cls r) (r_wr r) Total; V (r_cls r) (r_wr r) Full] \/ prog r = [V (r_cls r) (r_wr r) Total; V (r_cls r) (r_wr r) Partial].
Proof. unfold prog. destruct (r_pt r); [left; exists Pass; split; reflexivity|]. destruct (r_hit r =? 0)%N; [right; right; left; reflexivity|]. destruct (r_hit r <? r_lines r)%N; [right; right; right; reflexivity | right; left; reflexivity]. Qed.
Lemma same_cw c w f c' w' f' : var_eqb (V c w f) (V c' w' f') = (c =? c') && Bool.eqb w w' && field_eqb f f'. Proof. reflexivity. Qed.
Lemma cnt_cons v x l : cnt v (x :: l) = (if var_eqb v x then 1 else 0) + cnt v l.
Proof. unfold cnt. cbn [filter]. destruct (var_eqb v x); reflexivity. Qed.
Lemma firstn1 {A} (a : A) pc : firstn pc [a] = [] \/ firstn pc [a] = [a].
Proof. destruct pc; [left | right]; cbn; rewrite ?firstn_nil; reflexivity. Qed.
Lemma firstn2 {A} (a b : A) pc : firstn pc [a; b] = [] \/ firstn pc [a; b] = [a] \/ firstn pc [a; b] = [a; b].
Proof. destruct pc as [|[|pc]]; cbn; rewrite ?firstn_nil; auto. Qed.
Lemma prefix_cases r pc : let c := r_cls r in let w := r_wr r in
  firstn pc (prog r) = [] \/ firstn pc (prog r) = [V c w Pass] \/ firstn pc (prog r) = [V c w Total] \/ firstn pc (prog r) = [V c w Total; V c w Full] \/ firstn pc (prog r) = [V c w Total; V c w Partial].
Proof.
  intros c w. destruct (prog_cases r) as [(_ & E & _)|[E|[E|E]]]; rewrite E; fold c w.
  - destruct (firstn1 (V c w Pass) pc) as [-> | ->]; auto.
  - destruct (firstn1 (V c w Total) pc) as [-> | ->]; auto.
  - destruct (firstn2 (V c w Total) (V c w Full) pc) as [-> |[-> | ->]]; auto.
  - destruct (firstn2 (V c w Total) (V c w Partial) pc) as [-> |[-> | ->]]; auto.
Qed.
Lemma cnt_le1 v r pc : cnt v (firstn pc (prog r)) <= 1.
Proof.
  destruct v as [c w f]. change {| cls := c; wr := w; fld := f |} with (V c w f).
  destruct (prefix_cases r pc) as [-> |[-> |[-> |[-> | ->]]]]; rewrite ?cnt_cons, ?same_cw; destruct ((c =? r_cls r) && Bool.eqb w (r_wr r)), f; cbn [andb field_eqb]; unfold cnt; cbn [filter length]; lia.
Qed.
(** Misses are counted after the request itself *)
Lemma miss_after c w r pc : cnt (V c w Full) (firstn pc (prog r)) + cnt (V c w Partial) (firstn pc (prog r)) <= cnt (V c w Total) (firstn pc (prog r)).
Proof.
  destruct (prefix_cases r pc) as [-> |[-> |[-> |[-> | ->]]]]; rewrite ?cnt_cons, ?same_cw; destruct ((c =? r_cls r) && Bool.eqb w (r_wr r)); cbn [andb field_eqb]; unfold cnt; cbn [filter length]; lia.
Qed.
Lemma sumd_le v l : sumd v l <= length l.
Proof. unfold sumd, list_sum. induction l as [|t l IH]; [apply le_n|]. cbn [map fold_right length]. assert (done v t <= 1) by (destruct t as [r pc| |]; cbn; [apply cnt_le1 | lia | lia]). lia. Qed.
Lemma sumd_miss c w l : sumd (V c w Full) l + sumd (V c w Partial) l <= sumd (V c w Total) l.
Proof.
  unfold sumd, list_sum. induction l as [|t l IH]; [apply le_n|]. cbn [map fold_right length]. assert (done (V c w Full) t + done (V c w Partial) t <= done (V c w Total) t) by (destruct t as [r pc| |]; cbn; [apply miss_after | lia | lia]). lia.
Qed.
Lemma length_upd {A} (l : list A) : forall i x, length (upd l i x) = length l.
Proof. induction l as [|y l IH]; intros [|i] x; cbn; auto. Qed.

(** ** The invariant over all interleavings of requests and readers *)
Definition no_reset (t : thread) : Prop := match t with Reset _ => False | _ => True end.
Definition sums_ok (n k L : N) (a : sums) : Prop :=
  (s_full a + s_partial a <= s_total a /\ s_total a + n * k <= n * L /\ s_pass a + n * k <= n * L)%N.
Definition reader_ok (n L : N) (m : var -> N) (t : thread) : Prop :=
  match t with
  | Reader todo cur a b =>
      let k := N.of_nat (length todo) in
      sums_ok n k L a /\ sums_ok n k L b /\
      match todo, cur with
      | _, [] => True
      | (c, w) :: _, [p] => (p <= m (V c w Partial))%N
      | (c, w) :: _, [p; f] => (p <= m (V c w Partial) /\ f <= m (V c w Full))%N
      | (c, w) :: _, [p; f; t] => (f + p <= t /\ t <= n)%N
      | _, _ => False
      end
  | _ => True
  end.
Record Inv (n : nat) (L : N) (s : st) : Prop := {
  i_len : length (ths s) = n;
  i_mem : forall v, mem s v = N.of_nat (sumd v (ths s));
  i_nr : Forall no_reset (ths s);
  i_rd : Forall (reader_ok (N.of_nat n) L (mem s)) (ths s) }.
Lemma Forall_upd {A} (P : A -> Prop) l : forall i x, Forall P l -> P x -> Forall P (upd l i x).
Proof. induction l as [|y l IH]; intros [|i] x F Px; cbn; auto; inversion F; subst; constructor; auto. Qed.
Lemma reader_mono n L m m' t : (forall v, (m v <= m' v)%N) -> reader_ok n L m t -> reader_ok n L m' t.
Proof.
  intros M. destruct t as [r pc|todo cur a b|todo]; cbn; auto. intros (H1 & H2 & H3). split; [exact H1|]. split; [exact H2|].
  destruct todo as [|(c, w) todo], cur as [|p [|f [|t [|x cur]]]]; auto.
  - specialize (M (V c w Partial)). lia.
  - pose proof (M (V c w Partial)). specialize (M (V c w Full)). lia.
Qed.
Lemma mem_bound n L s v : Inv n L s -> (mem s v <= N.of_nat n)%N.
Proof. intros I. rewrite (i_mem n L s I). pose proof (sumd_le v (ths s)). rewrite (i_len n L s I) in H. lia. Qed.
Lemma two64_pos : two64 <> 0%N. Proof. discriminate. Qed.
Lemma add64_small a b : (a + b < two64)%N -> add64 a b = (a + b)%N. Proof. apply N.mod_small. Qed.
Lemma sub64_small a b : (b <= a)%N -> (a < two64)%N -> sub64 a b = (a - b)%N.
Proof.
  intros H1 H2. unfold sub64. rewrite (N.mod_small b) by lia. replace (a + (two64 - b))%N with (a - b + 1 * two64)%N by lia. rewrite N.mod_add by exact two64_pos. apply N.mod_small. lia.
Qed.
Lemma accum_ok n k L a p f t x : (n * L < two64)%N -> sums_ok n (k + 1) L a -> (f + p <= t)%N -> (t <= n)%N -> (x <= n)%N -> sums_ok n k L (accum a p f t x).
Proof.
  unfold sums_ok, accum. cbn [s_partial s_full s_total s_pass]. intros B (H1 & H2 & H3) H4 H5 H6. assert (E : (n * (k + 1) = n * k + n)%N) by lia. rewrite E in H2, H3. rewrite !add64_small by lia. lia.
Qed.
Lemma sums_weak n k L a : sums_ok n (k + 1) L a -> sums_ok n k L a.
Proof. unfold sums_ok. intros (H1 & H2 & H3). assert (E : (n * (k + 1) = n * k + n)%N) by lia. rewrite E in H2, H3. lia. Qed.

Lemma step_inv n L s i : (N.of_nat n * L < two64)%N -> (N.of_nat n < two64)%N -> Inv n L s -> Inv n L (step i s).
Proof.
  intros B Bn I. unfold step. destruct (nth_error (ths s) i) as [t|] eqn:E; [|exact I].
  pose proof (nth_error_In _ _ E) as Hin. pose proof (i_nr n L s I) as NR. pose proof (i_rd n L s I) as RD. rewrite Forall_forall in NR, RD. specialize (NR t Hin). pose proof (RD t Hin) as Rt. rewrite <- Forall_forall in RD.
  assert (Keep : forall t', no_reset t' -> (forall v, done v t' = done v t) -> reader_ok (N.of_nat n) L (mem s) t' -> Inv n L {| mem := mem s; ths := upd (ths s) i t' |}).
  { intros t' N1 D R'. destruct I as [I1 I2 I3 I4]. constructor; cbn [mem ths]; [rewrite length_upd; exact I1 | | apply Forall_upd; assumption | apply Forall_upd; assumption].
    intros v. rewrite I2. f_equal. pose proof (sumd_upd v (ths s) i t t' E) as Q. rewrite D in Q. lia. }
  assert (Same : Inv n L {| mem := mem s; ths := upd (ths s) i t |}) by (apply Keep; [exact NR | reflexivity | exact Rt]).
  destruct t as [r pc|todo cur a b|todo]; cbn [tstep].
  - destruct (nth_error (prog r) pc) as [v|] eqn:Ev; [|exact Same]. pose proof (firstn_next _ _ _ Ev) as Fn.
    assert (D : forall v', done v' (Upd r (S pc)) = done v' (Upd r pc) + if var_eqb v' v then 1 else 0).
    { intros v'. cbn [done]. rewrite Fn, cnt_app. f_equal. unfold cnt. cbn. destruct (var_eqb v' v); reflexivity. }
    assert (Q : forall v', sumd v' (upd (ths s) i (Upd r (S pc))) = sumd v' (ths s) + if var_eqb v' v then 1 else 0) by (intros v'; pose proof (sumd_upd v' (ths s) i _ (Upd r (S pc)) E) as Q; rewrite D in Q; lia).
    assert (Lt : (mem s v + 1 < two64 \/ mem s v + 1 <= N.of_nat n)%N).
    { right. rewrite (i_mem n L s I). pose proof (sumd_le v (upd (ths s) i (Upd r (S pc)))) as S1. rewrite Q, var_eqb_refl, length_upd, (i_len n L s I) in S1. lia. }
    assert (Ad : add64 (mem s v) 1 = (mem s v + 1)%N) by (apply add64_small; destruct Lt as [Lt|Lt]; lia).
    assert (M : forall v', (mem s v' <= set (mem s) v (add64 (mem s v) 1) v')%N) by (intros v'; unfold set; destruct (var_eqb_spec v' v) as [->|]; [rewrite Ad|]; lia).
    constructor; cbn [mem ths]; [rewrite length_upd; apply (i_len n L s I) | | apply Forall_upd; [apply (i_nr n L s I) | exact Logic.I] |].
    + intros v'. rewrite Q. unfold set. destruct (var_eqb_spec v' v) as [->|]; [rewrite Ad|]; rewrite (i_mem n L s I); lia.
    + apply Forall_upd; [|exact Logic.I]. eapply Forall_impl; [|exact RD]. intros t. apply reader_mono. exact M.
  - destruct todo as [|(c, w) todo]; [exact Same|]. pose proof (fun v => mem_bound n L s v I) as Mb.
    destruct cur as [|p [|f [|t' [|x cur]]]]; cbn [reader_ok] in Rt; destruct Rt as (R1 & R2 & R3).
    + apply Keep; [exact Logic.I | reflexivity |]. cbn [reader_ok]. split; [exact R1|]. split; [exact R2 | lia].
    + apply Keep; [exact Logic.I | reflexivity |]. cbn [reader_ok]. split; [exact R1|]. split; [exact R2|]. lia.
    + apply Keep; [exact Logic.I | reflexivity |]. cbn [reader_ok]. split; [exact R1|]. split; [exact R2|]. split; [|apply Mb].
      pose proof (sumd_miss c w (ths s)) as Q. rewrite !(i_mem n L s I) in *. lia.
    + replace (N.of_nat (length ((c, w) :: todo))) with (N.of_nat (length todo) + 1)%N in R1, R2 by (cbn [length]; lia). destruct R3 as (R3 & R4).
      destruct w; (apply Keep; [exact Logic.I | reflexivity |]); cbn [reader_ok]; (split; [|split]); try (apply accum_ok; auto; fail); try (apply sums_weak; assumption); destruct todo as [|(c', w') todo]; exact Logic.I.
    + contradiction.
  - destruct NR.
Qed.
Lemma run_inv n L sched : (N.of_nat n * L < two64)%N -> (N.of_nat n < two64)%N -> forall s, Inv n L s -> Inv n L (run sched s).
Proof. intros B Bn. unfold run. induction sched as [|i l IH]; intros s I; [exact I|]. cbn. apply IH. apply step_inv; assumption. Qed.

(** Fresh threads: requests not started, readers about to visit at most [L] parts *)
Definition fresh (L : nat) (t : thread) : Prop :=
  match t with
  | Upd _ pc => pc = 0
  | Reader todo cur a b => length todo <= L /\ cur = [] /\ a = zero /\ b = zero
  | Reset _ => False
  end.
Lemma start_inv L l : Forall (fresh L) l -> Inv (length l) (N.of_nat L) (start l).
Proof.
  intros F. constructor.
  - reflexivity.
  - intros v. cbn [mem start ths]. assert (E : sumd v l = 0); [|rewrite E; reflexivity]. unfold sumd, list_sum. induction F as [|t l Ft F IH]; [reflexivity|]. cbn [map fold_right]. rewrite IH. destruct t as [r pc| |]; [cbn in Ft; subst pc | |]; reflexivity.
  - eapply Forall_impl; [|exact F]. intros [r pc|todo cur a b|todo] H; cbn in *; auto.
  - cbn [start mem ths]. generalize (N.of_nat (length l)). intros n. eapply Forall_impl; [|exact F]. intros [r pc|todo cur a b|todo] H; cbn in *; auto. destruct H as (H1 & -> & -> & ->). assert (Z : sums_ok n (N.of_nat (length todo)) (N.of_nat L) zero).
    { unfold sums_ok, zero. cbn [s_full s_partial s_total s_pass]. assert (n * N.of_nat (length todo) <= n * N.of_nat L)%N by (apply N.mul_le_mono_l; lia). lia. }
    split; [exact Z|]. split; [exact Z|]. destruct todo as [|(c, w) todo]; exact Logic.I.
Qed.

(** ** C49 *)
(** A report is right: no difference wrapped, and the parts sum up to the totals *)
Definition conserved (q : report) : Prop :=
  (rd_hits q + rd_partial q + rd_full q = rd_total q /\ wr_hits q + wr_partial q + wr_full q = wr_total q /\ serviced q = rd_total q + wr_total q /\
   total q = rd_hits q + rd_partial q + rd_full q + rd_pt q + (wr_hits q + wr_partial q + wr_full q + wr_pt q))%N.
Lemma fill_conserved n L a b : (4 * (n * L) < two64)%N -> sums_ok n 0 L a -> sums_ok n 0 L b -> conserved (fill a b).
Proof.
  unfold sums_ok, conserved, fill. cbn [rd_hits rd_partial rd_full rd_total wr_hits wr_partial wr_full wr_total rd_pt wr_pt serviced total]. rewrite N.mul_0_r. set (k := (n * L)%N). intros B (A1 & A2 & A3) (B1 & B2 & B3).
  assert (Ea : add64 (s_full a) (s_partial a) = (s_full a + s_partial a)%N) by (apply add64_small; lia). assert (Eb : add64 (s_full b) (s_partial b) = (s_full b + s_partial b)%N) by (apply add64_small; lia). rewrite Ea, Eb.
  assert (Et : add64 (s_total a) (s_total b) = (s_total a + s_total b)%N) by (apply add64_small; lia). rewrite Et. rewrite !sub64_small by lia. rewrite !add64_small by (rewrite ?add64_small; lia). lia.
Qed.
(** Every interleaving of any requests and readers (no reset): every finished reader reports conserved numbers *)
Theorem C49_report_partial L l sched a b : Forall (fresh L) l -> (4 * (N.of_nat (length l) * N.of_nat L) < two64)%N -> (N.of_nat (length l) < two64)%N ->
  In (Reader [] [] a b) (ths (run sched (start l))) -> conserved (fill a b).
Proof.
  intros F B Bn H. assert (I : Inv (length l) (N.of_nat L) (run sched (start l))) by (apply run_inv; [lia | exact Bn | apply start_inv; exact F]).
  pose proof (i_rd _ _ _ I) as R. rewrite Forall_forall in R. specialize (R _ H). cbn in R. destruct R as (R1 & R2 & _). apply (fill_conserved (N.of_nat (length l)) (N.of_nat L)); assumption.
Qed.

(** What should be counted, from the requests alone *)
Definition is_for (c : nat) (w : bool) (r : rq) : bool := (r_cls r =? c) && Bool.eqb (r_wr r) w.
Definition kind (f : field) (r : rq) : bool :=
  match f with
  | Pass => r_pt r
  | Total => negb (r_pt r)
  | Full => negb (r_pt r) && (r_hit r =? 0)%N
  | Partial => negb (r_pt r) && negb (r_hit r =? 0)%N && (r_hit r <? r_lines r)%N
  end.
Definition reqs (l : list thread) : list rq := flat_map (fun t => match t with Upd r _ => [r] | _ => [] end) l.
Definition finished (t : thread) : Prop := match t with Upd r pc => length (prog r) <= pc | _ => True end.
Lemma cnt_prog c w f r : cnt (V c w f) (prog r) = if is_for c w r && kind f r then 1 else 0.
Proof.
  unfold is_for, kind, prog. rewrite (Nat.eqb_sym (r_cls r) c). replace (Bool.eqb (r_wr r) w) with (Bool.eqb w (r_wr r)) by (destruct w, (r_wr r); reflexivity).
  destruct (r_pt r), (r_hit r =? 0)%N, (r_hit r <? r_lines r)%N; unfold cnt; cbn [filter]; rewrite ?same_cw; destruct ((c =? r_cls r) && Bool.eqb w (r_wr r)), f; reflexivity.
Qed.
Lemma step_reqs i s : reqs (ths (step i s)) = reqs (ths s).
Proof.
  unfold step. destruct (nth_error (ths s) i) as [t|] eqn:E; [|reflexivity]. destruct (tstep (mem s) t) as (m, t') eqn:Et. cbn [ths]. destruct (nth_split_upd (ths s) i t t' E) as (x & y & E1 & E2). rewrite E2, E1. unfold reqs. rewrite !flat_map_app. f_equal. cbn. f_equal.
  destruct t as [r pc|todo cur a b|todo]; cbn in Et.
  - destruct (nth_error (prog r) pc); injection Et as <- <-; reflexivity.
  - destruct todo as [|(c, w) todo]; [injection Et as <- <-; reflexivity|]. destruct cur as [|p [|f [|u cur]]]; try (injection Et as <- <-; reflexivity). destruct w; injection Et as <- <-; reflexivity.
  - destruct todo; injection Et as <- <-; reflexivity.
Qed.
Lemma run_reqs sched : forall s, reqs (ths (run sched s)) = reqs (ths s).
Proof. unfold run. induction sched as [|i sched IH]; intros s; [reflexivity|]. cbn [fold_left]. rewrite IH. apply step_reqs. Qed.
(** When all requests are through, each counter is exactly the number of requests of its kind *)
Theorem C49_exact_partial L l sched c w f : Forall (fresh L) l -> (N.of_nat (length l) * N.of_nat L < two64)%N -> (N.of_nat (length l) < two64)%N -> Forall finished (ths (run sched (start l))) ->
  mem (run sched (start l)) (V c w f) = N.of_nat (length (filter (fun r => is_for c w r && kind f r) (reqs l))).
Proof.
  intros F B Bn Fi. assert (I : Inv (length l) (N.of_nat L) (run sched (start l))) by (apply run_inv; [exact B | exact Bn | apply start_inv; exact F]). rewrite (i_mem _ _ _ I). f_equal.
  assert (E : reqs (ths (run sched (start l))) = reqs l). { apply (run_reqs sched (start l)). }
  rewrite <- E. clear - Fi. induction Fi as [|t ts Ft Fi IH]; [reflexivity|]. unfold sumd, reqs in *. cbn [map list_sum fold_right flat_map]. rewrite filter_app, app_length, <- IH. f_equal.
  destruct t as [r pc|todo cur a b|todo]; [|reflexivity | reflexivity]. cbn [done finished filter] in *. rewrite firstn_all2 by exact Ft. rewrite cnt_prog. destruct (is_for c w r && kind f r); reflexivity.
Qed.
(** Hits: requests all of whose lines were found; hits, misses and passed ones are all requests *)
Lemma kinds r : (if kind Pass r then 1 else 0) + (if kind Full r then 1 else 0) + (if kind Partial r then 1 else 0) + (if negb (r_pt r) && negb (r_hit r =? 0)%N && (r_lines r <=? r_hit r)%N then 1 else 0) = 1.
Proof. unfold kind. rewrite N.leb_antisym. destruct (r_pt r), (r_hit r =? 0)%N, (r_hit r <? r_lines r)%N; reflexivity. Qed.

(** A reset while a request is between its two increments: afterwards there is a miss but no request, for good, and the
    hits reported are 2^64 - 1 *)
Definition one_miss : rq := {| r_cls := 0; r_wr := false; r_pt := false; r_hit := 0; r_lines := 1 |}%N.
Definition reset_race : list thread := [Upd one_miss 0; Reset (reset_prog 1); Reader (blocks 1) [] zero zero].
Theorem C49_reset_refuted : exists sched a b, ths (run sched (start reset_race)) = [Upd one_miss 2; Reset []; Reader [] [] a b] /\ rd_hits (fill a b) = (two64 - 1)%N /\ rd_total (fill a b) = 0%N /\ ~ conserved (fill a b).
Proof.
  exists ([0] ++ repeat 1 8 ++ [0] ++ repeat 2 8). eexists. eexists. split; [vm_compute; reflexivity|]. split; [vm_compute; reflexivity|]. split; [vm_compute; reflexivity|]. intros (H & _). revert H. vm_compute. discriminate.
Qed.
(** Two requests and a reader that runs between their increments *)
Definition hit_rq : rq := {| r_cls := 0; r_wr := false; r_pt := false; r_hit := 2; r_lines := 2 |}%N.
Definition busy : list thread := [Upd one_miss 0; Upd hit_rq 0; Reader (blocks CLASSES) [] zero zero].
Example C49_case : Forall (fresh (2 * CLASSES)) busy /\ exists a b, ths (run ([0; 2; 0; 2; 1] ++ repeat 2 300) (start busy)) = [Upd one_miss 2; Upd hit_rq 1; Reader [] [] a b] /\ rd_hits (fill a b) = 1%N /\ rd_full (fill a b) = 1%N /\ rd_total (fill a b) = 2%N.
Proof.
  split.
  - repeat constructor.
  - eexists. eexists. split; [vm_compute; reflexivity|]. vm_compute. repeat split.
Qed.

(** The fractions of a conserved report stay within 100.00% *)
Theorem C49_fraction n d : (n <= d)%N -> (10000 * d < two64)%N -> (fraction n d <= 10000)%N.
Proof.
  intros H B. unfold fraction. destruct (N.eqb_spec d 0) as [|Nz]; [discriminate|]. rewrite N.mod_small by lia. apply N.lt_succ_r. apply N.div_lt_upper_bound; [exact Nz | lia].
Qed.

(** ** Each request is counted once *)
Definition fault_free (e : life) : Prop := clean_ok e = true /\ cache_err e = false /\ lock_err e = false.
Lemma pt_once e : clean_ok e = true -> forall n, read_pt_do e n = [Passed] /\ write_wi_do e n = [Passed].
Proof. intros C n. induction n as [|n (IH1 & IH2)]; cbn; [split; reflexivity|]. rewrite C, IH1, IH2. split; reflexivity. Qed.
Lemma generic_once e : fault_free e -> forall n, exists u, read_generic_do e n = [u].
Proof.
  intros (C & H & _) n. induction n as [|n IH]; cbn; destruct (negb (hit e) && rd_lock e); try (exists Passed; try reflexivity; rewrite C; apply (pt_once e C)); destruct (hit e); unfold hit_io; rewrite ?H; try (exists Served; reflexivity). rewrite C. exact IH.
Qed.
(** In every mode, a read or write on which nothing fails is counted exactly once *)
Theorem C49_once_partial m fast write e : fault_free e -> exists u, engine m fast write e = [u].
Proof.
  intros FF. pose proof FF as (C & H & K). pose proof (proj1 (pt_once e C (rounds e))) as P1. pose proof (proj2 (pt_once e C (rounds e))) as P2.
  assert (G : exists u, read_generic e = [u]) by (unfold read_generic, read_pt_forced; rewrite K, P1; destruct (blocked e || map_err e); [exists Passed; reflexivity | apply generic_once; exact FF]).
  assert (W : write_wi e = [Passed]) by (unfold write_wi; rewrite K; exact P2).
  destruct m as [m|]; [|exists Passed; reflexivity]. destruct m, fast, write; cbn [engine]; unfold read_fast, write_fast, read_pt, read_pt_forced, read_wo, write_wt, write_wb, write_wa, write_wt, hit_io; rewrite ?K, ?H, ?W, ?P1;
    destruct (hit e), (fits e), (map_err e), (cutoff e); cbn [andb]; try exact G; eexists; reflexivity.
Qed.
(** A read hit that the cache device fails is counted as hit and again as passed through: two requests for one *)
Definition bad_hit : life := {| hit := true; rd_lock := true; rounds := 0; clean_ok := true; cache_err := true; lock_err := false; map_err := false; blocked := false; cutoff := false; fits := true |}.
Theorem C49_once_refuted : engine (Some WT) false false bad_hit = [Served; Passed] /\ engine (Some WB) true false bad_hit = [Served; Passed].
Proof. split; reflexivity. Qed.
Print Assumptions C49_report_partial.
Print Assumptions C49_exact_partial.
Print Assumptions C49_reset_refuted.
Print Assumptions C49_fraction.
Print Assumptions C49_once_partial.
Print Assumptions C49_once_refuted.

(** C62: the statistics reports add up (RepModel.v). *)
From Coq Require Import NArith List Bool Arith Lia.
From Verif Require Import RepModel.
Import ListNotations.
Open Scope N_scope.

(** ** Specification *)

(** Plain sums. *)
Definition sum {A} (f : A -> N) (l : list A) : N := fold_right (fun x a => f x + a) 0 l.
Definition over_classes (f : nat -> N) : N := sum f (seq 0 CLASSES).

(** [s] is [v] out of [d], in hundredths of a percent, rounded down; nothing out of nothing is 0. *)
Definition percent_of (s : stat) (d : N) : Prop :=
  value s <= d /\ fraction s <= 10000 /\
  (0 < d -> fraction s * d <= 10000 * value s < (fraction s + 1) * d) /\ (d = 0 -> fraction s = 0).

(** A report on requests: the parts make up the totals, percentages are of all requests. *)
Definition requests_add_up (r : rline -> stat) : Prop :=
  (forall w, value (r (Hits w)) + value (r (Partials w)) + value (r (Fulls w)) = value (r (Totals w))) /\
  value (r (Totals false)) + value (r (Totals true)) = value (r Serviced) /\
  value (r Serviced) + value (r (Passed false)) + value (r (Passed true)) = value (r All) /\
  forall l, percent_of (r l) (value (r All)).
(** On blocks or errors of a device. *)
Definition device_adds_up (r : option bool -> stat) : Prop :=
  value (r (Some false)) + value (r (Some true)) = value (r None) /\ forall l, percent_of (r l) (value (r None)).

(** The counters as the code maintains them: *)
Record sane (h : cache) : Prop := {
  s_req : forall c p w, In c (cores h) -> cnt c p (Req w Full) + cnt c p (Req w Partial) <= cnt c p (Req w Total);
  s_dirty : forall c p, In c (cores h) -> cnt c p Dirty <= cnt c p Occ;
  s_cached : forall c, In c (cores h) -> cached c = over_classes (fun p => cnt c p Occ);
  s_dirtied : forall c, In c (cores h) -> dirtied c = over_classes (fun p => cnt c p Dirty);
  s_lines : sum cached (cores h) <= cachelines h;
  s_line : 4096 <= line h }.
(** and not too large: less than 2^50 requests, 2^62 bytes for each device, 2^32 errors, and a cache of less than
    2^32 lines, 2^60 bytes. *)
Definition everything (h : cache) (k : ctr) : N := sum (fun c => over_classes (fun p => cnt c p k)) (cores h).
Record small (h : cache) : Prop := {
  b_req : everything h (Req false Total) + everything h (Req true Total) + everything h (Req false Pass) + everything h (Req true Pass) < 2 ^ 50;
  b_bytes : forall v, everything h (Bytes v false) + everything h (Bytes v true) < 2 ^ 62;
  b_err : sum (fun c => errs c false false + errs c false true + errs c true false + errs c true true) (cores h) < 2 ^ 32;
  b_lines : cachelines h < 2 ^ 32;
  b_size : cachelines h * line h < 2 ^ 60 }.

(** ** Sums *)

Lemma fold_mod {A} (f : A -> N) m l : m <> 0 -> forall a, a < m ->
  fold_left (fun s x => (s + f x) mod m) l a = (a + sum f l) mod m.
Proof.
  intros Hm. induction l as [|x l IH]; cbn [fold_left sum fold_right]; intros a Ha.
  - rewrite N.add_0_r, N.mod_small; auto.
  - rewrite IH by (apply N.mod_lt; auto). rewrite N.add_mod_idemp_l by auto. f_equal. unfold sum. lia.
Qed.
Lemma fold_plain {A} (f : A -> N) m l : sum f l < m ->
  fold_left (fun s x => (s + f x) mod m) l 0 = sum f l.
Proof. intros H. rewrite fold_mod by lia. apply N.mod_small. auto. Qed.

Lemma sum_ext {A} (f g : A -> N) l : (forall x, In x l -> f x = g x) -> sum f l = sum g l.
Proof.
  induction l as [|x l IH]; intros H; [reflexivity|]. cbn [sum fold_right]. rewrite (H x) by (left; auto).
  f_equal. apply IH. intros y Hy. apply H. right; auto.
Qed.
Lemma sum_le {A} (f g : A -> N) l : (forall x, In x l -> f x <= g x) -> sum f l <= sum g l.
Proof.
  induction l as [|x l IH]; intros H; [reflexivity|]. cbn [sum fold_right].
  apply N.add_le_mono; [apply H; left; auto|]. apply IH. intros y Hy. apply H. right; auto.
Qed.
Lemma sum_add {A} (f g : A -> N) l : sum (fun x => f x + g x) l = sum f l + sum g l.
Proof. induction l as [|x l IH]; [reflexivity|]. unfold sum in *. cbn [fold_right]. rewrite IH. lia. Qed.
Lemma sum_sub {A} (f g : A -> N) l : (forall x, In x l -> g x <= f x) ->
  sum (fun x => f x - g x) l = sum f l - sum g l.
Proof.
  intros H. enough (sum (fun x => f x - g x) l + sum g l = sum f l) by lia.
  rewrite <- sum_add. apply sum_ext. intros x Hx. specialize (H x Hx). lia.
Qed.
Lemma sum_mul {A} (f : A -> N) z l : sum (fun x => f x * z) l = sum f l * z.
Proof. induction l as [|x l IH]; [reflexivity|]. unfold sum in *. cbn [fold_right]. rewrite IH. lia. Qed.
Lemma sum_elem {A} (f : A -> N) l x : In x l -> f x <= sum f l.
Proof.
  induction l as [|y l IH]; intros H; [destruct H|]. cbn [sum fold_right].
  destruct H as [->|H]; [lia|]. specialize (IH H). unfold sum in IH. lia.
Qed.
Lemma sum_filter {A} (f : A -> N) b l : sum f (filter b l) <= sum f l.
Proof.
  induction l as [|x l IH]; [reflexivity|]. cbn [filter]. unfold sum in *. destruct (b x); cbn [fold_right]; lia.
Qed.
Lemma sum_split {A} (f : A -> N) b l : sum f (filter b l) + sum f (filter (fun x => negb (b x)) l) = sum f l.
Proof.
  induction l as [|x l IH]; [reflexivity|]. cbn [filter]. unfold sum in *. destruct (b x); cbn [negb fold_right]; lia.
Qed.
Lemma visit_filter {A} (f : A -> core -> A) l : forall a, visit f l a = fold_left f (filter opened l) a.
Proof.
  induction l as [|c l IH]; intros a; [reflexivity|]. unfold visit in *. cbn [fold_left filter].
  destruct (opened c); cbn [fold_left]; apply IH.
Qed.

(** ** From counters to lines of a report *)

(** What the counters handed to the reports satisfy. *)
Record good (s : ctr -> N) : Prop := {
  g_req : forall w, s (Req w Full) + s (Req w Partial) <= s (Req w Total);
  g_reqb : s (Req false Total) + s (Req true Total) + s (Req false Pass) + s (Req true Pass) < 2 ^ 50;
  g_bytes : forall v, s (Bytes v false) + s (Bytes v true) < 2 ^ 62;
  g_err : s (Err false false) + s (Err false true) + s (Err true false) + s (Err true true) < 2 ^ 32 }.

(** The lines in plain arithmetic. *)
Definition plain_req (s : ctr -> N) (l : rline) : N :=
  match l with
  | Hits w => s (Req w Total) - (s (Req w Full) + s (Req w Partial))
  | Partials w => s (Req w Partial)
  | Fulls w => s (Req w Full)
  | Totals w => s (Req w Total)
  | Passed w => s (Req w Pass)
  | Serviced => s (Req false Total) + s (Req true Total)
  | All => s (Req false Total) + s (Req true Total) + s (Req false Pass) + s (Req true Pass)
  end.

Lemma sub64_plain x y : y <= x -> x < 2 ^ 64 -> sub64 x y = x - y.
Proof.
  intros H1 H2. unfold sub64, u64. replace (x + 2 ^ 64 - y) with (x - y + 1 * 2 ^ 64) by lia.
  rewrite N.mod_add by discriminate. apply N.mod_small. lia.
Qed.
Lemma sub32_plain x y : y <= x -> x < 2 ^ 32 -> sub32 x y = x - y.
Proof.
  intros H1 H2. unfold sub32, u32. replace (x + 2 ^ 32 - y) with (x - y + 1 * 2 ^ 32) by lia.
  rewrite N.mod_add by discriminate. apply N.mod_small. lia.
Qed.

Lemma set_percent v d : v <= d -> 10000 * d < 2 ^ 64 -> percent_of (set v d) d.
Proof.
  intros H1 H2. unfold percent_of, set. cbn [value fraction]. unfold frac.
  destruct (N.eqb_spec d 0) as [->|Hd].
  - repeat split; lia.
  - unfold u64. rewrite N.mod_small by lia.
    pose proof (N.div_mod (10000 * v) d Hd) as HD. pose proof (N.mod_lt (10000 * v) d Hd) as HM.
    split; [auto|]. split.
    + apply N.div_le_upper_bound; [auto|]. lia.
    + split; [|lia]. intros _. rewrite N.mul_add_distr_r, (N.mul_comm _ d).
      remember (10000 * v / d) as q. remember ((10000 * v) mod d) as r. clear Heqq Heqr. remember (d * q) as y. lia.
Qed.

Lemma fill_req_value s l : good s -> value (fill_req s l) = plain_req s l.
Proof.
  intros [H1 H2 _ _]. pose proof (H1 true) as Ht. pose proof (H1 false) as Hf.
  assert (U : forall x, x < 2 ^ 64 -> u64 x = x) by (intros x Hx; apply N.mod_small; auto).
  destruct l as [[]|[]|[]|[]|[]| |]; cbn [fill_req set value plain_req]; try reflexivity.
  - rewrite U by lia. apply sub64_plain; lia.
  - rewrite U by lia. apply sub64_plain; lia.
  - apply U. lia.
  - rewrite (U (_ + s (Req true Total))) by lia. apply U. lia.
Qed.
Lemma plain_req_le s l : good s -> plain_req s l <= plain_req s All.
Proof.
  intros [H1 H2 _ _]. pose proof (H1 true) as Ht. pose proof (H1 false) as Hf.
  destruct l as [[]|[]|[]|[]|[]| |]; cbn [plain_req]; lia.
Qed.
Lemma fill_req_shape s l : good s -> fill_req s l = set (plain_req s l) (plain_req s All).
Proof.
  intros HG. pose proof (fill_req_value s l HG) as HV. pose proof (fill_req_value s All HG) as HA.
  destruct l as [[]|[]|[]|[]|[]| |]; cbn [fill_req set value] in *; rewrite HA; try rewrite HV; reflexivity.
Qed.

Lemma good_requests s : good s -> requests_add_up (fill_req s).
Proof.
  intros HG. pose proof HG as [H1 H2 _ _]. split; [|split; [|split]].
  - intros w. rewrite !fill_req_value by auto. specialize (H1 w). cbn [plain_req]. lia.
  - rewrite !fill_req_value by auto. reflexivity.
  - rewrite !fill_req_value by auto. cbn [plain_req]. lia.
  - intros l. rewrite (fill_req_value s All HG), (fill_req_shape s l HG).
    apply set_percent; [apply plain_req_le; auto|]. cbn [plain_req]. lia.
Qed.

Lemma bytes4k_plain b : b < 2 ^ 62 -> bytes4k b = (b + 4095) / 4096.
Proof. intros H. unfold bytes4k, u64. rewrite N.mod_small by lia. reflexivity. Qed.
Lemma bytes4k_le b : b < 2 ^ 62 -> 4096 * bytes4k b <= b + 4095.
Proof. intros H. rewrite bytes4k_plain by auto. apply N.mul_div_le. lia. Qed.
Lemma bytes4k_ge b : b < 2 ^ 62 -> b <= 4096 * bytes4k b.
Proof.
  intros H. rewrite bytes4k_plain by auto.
  pose proof (N.div_mod (b + 4095) 4096). pose proof (N.mod_lt (b + 4095) 4096). lia.
Qed.

Lemma good_blocks s v : good s -> device_adds_up (fill_blocks s v).
Proof.
  intros [_ _ H _]. specialize (H v).
  pose proof (bytes4k_le (s (Bytes v false)) ltac:(lia)). pose proof (bytes4k_le (s (Bytes v true)) ltac:(lia)).
  unfold device_adds_up, fill_blocks. cbv zeta. unfold u64.
  rewrite N.mod_small by lia. split; [reflexivity|].
  intros [[]|]; cbn [value set]; apply set_percent; lia.
Qed.
Lemma good_errors s a : good s -> device_adds_up (fill_errors s a).
Proof.
  intros [_ _ _ H]. unfold device_adds_up, fill_errors. cbv zeta. split; [reflexivity|].
  intros [[]|]; cbn [value set]; apply set_percent; destruct a; lia.
Qed.

(** ** The counters of a core, a class, the cache *)

Definition core_sum (c : core) (k : ctr) : N :=
  match k with Err a w => errs c a w | _ => over_classes (fun p => cnt c p k) end.

Lemma trunc_lt k x : x < 2 ^ 32 -> trunc k x = x.
Proof. intros H. unfold trunc, u32, u64. destruct k; apply N.mod_small; lia. Qed.

Section Given.
Context (h : cache) (HS : sane h) (HB : small h).

Lemma in_everything c k : In c (cores h) -> over_classes (fun p => cnt c p k) <= everything h k.
Proof. intros H. apply (sum_elem (fun c => over_classes (fun p => cnt c p k))); auto. Qed.

Lemma occ_bound c : In c (cores h) -> over_classes (fun p => cnt c p Occ) < 2 ^ 32.
Proof.
  intros H. rewrite <- (s_cached h HS c H). pose proof (sum_elem cached _ _ H).
  pose proof (s_lines h HS). pose proof (b_lines h HB). lia.
Qed.
Lemma dirty_le c : In c (cores h) -> over_classes (fun p => cnt c p Dirty) <= over_classes (fun p => cnt c p Occ).
Proof. intros H. apply sum_le. intros p _. apply (s_dirty h HS c p H). Qed.
Lemma err_sum_bound : forall a w, sum (fun c => errs c a w) (cores h) < 2 ^ 32.
Proof.
  intros a w. eapply N.le_lt_trans; [|apply (b_err h HB)]. apply sum_le. intros c _. destruct a, w; lia.
Qed.
Lemma err_bound c a w : In c (cores h) -> errs c a w < 2 ^ 32.
Proof.
  intros H. pose proof (sum_elem (fun c => errs c a w) _ _ H). pose proof (err_sum_bound a w). cbn beta in *. lia.
Qed.
Lemma req_le c w f : In c (cores h) -> over_classes (fun p => cnt c p (Req w f)) < 2 ^ 50.
Proof.
  intros H. pose proof (b_req h HB) as HR.
  assert (HT : over_classes (fun p => cnt c p (Req w f)) <= everything h (Req w (match f with Pass => Pass | _ => Total end))).
  { eapply N.le_trans; [|apply (in_everything c); auto]. apply sum_le. intros p _. pose proof (s_req h HS c p w H). destruct f; lia. }
  destruct w, f; lia.
Qed.

Lemma core_get_plain c k : In c (cores h) -> core_get_stats c k = core_sum c k.
Proof.
  intros H.
  assert (HF : forall k m, m <> 0 -> over_classes (fun p => cnt c p k) < m ->
    fold_left (fun s i => (s + cnt c i k) mod m) (seq 0 CLASSES) 0 = over_classes (fun p => cnt c p k)).
  { intros k0 m _ Hm. apply fold_plain. exact Hm. }
  destruct k as [w f|v w|a w| |]; cbn [core_get_stats core_sum]; unfold trunc, u64, u32.
  - apply HF; [discriminate|]. pose proof (req_le c w f H). lia.
  - apply HF; [discriminate|]. pose proof (b_bytes h HB v). pose proof (in_everything c (Bytes v w) H). destruct w; lia.
  - apply N.mod_small. apply err_bound. auto.
  - apply HF; [discriminate|]. apply occ_bound. auto.
  - apply HF; [discriminate|]. pose proof (dirty_le c H). pose proof (occ_bound c H). lia.
Qed.

Lemma good_ext s t : (forall k, s k = t k) -> good t -> good s.
Proof.
  intros E [H1 H2 H3 H4]. constructor; intros; rewrite !E; auto.
Qed.

Lemma good_core c : In c (cores h) -> good (core_get_stats c).
Proof.
  intros H. apply (good_ext _ (core_sum c)); [intros k; apply core_get_plain; auto|].
  constructor; cbn [core_sum].
  - intros w. unfold over_classes. rewrite <- sum_add. apply sum_le. intros p _. apply (s_req h HS c p w H).
  - pose proof (b_req h HB). pose proof (in_everything c (Req false Total) H). pose proof (in_everything c (Req true Total) H).
    pose proof (in_everything c (Req false Pass) H). pose proof (in_everything c (Req true Pass) H). lia.
  - intros v. pose proof (b_bytes h HB v). pose proof (in_everything c (Bytes v false) H). pose proof (in_everything c (Bytes v true) H). lia.
  - pose proof (b_err h HB). pose proof (sum_elem (fun c => errs c false false + errs c false true + errs c true false + errs c true true) _ _ H).
    cbn beta in *. lia.
Qed.

(** One class of one core. *)
Definition class_sum (c : core) (p : nat) (k : ctr) : N := match k with Err _ _ => 0 | _ => cnt c p k end.
Lemma class_le c p k : In c (cores h) -> (p < CLASSES)%nat -> class_sum c p k <= core_sum c k.
Proof.
  intros H HP.
  assert (HI : In p (seq 0 CLASSES)) by (apply in_seq; lia).
  destruct k; cbn [class_sum core_sum]; try lia; apply (sum_elem (fun p => cnt c p _) _ _ HI).
Qed.
Lemma class_get_plain c p k : In c (cores h) -> (p < CLASSES)%nat -> class_get_stats c p k = class_sum c p k.
Proof.
  intros H HP. pose proof (class_le c p k H HP) as HL.
  destruct k as [w f|v w|a w| |]; cbn [class_get_stats class_sum core_sum] in *; auto; unfold u64; apply N.mod_small.
  - pose proof (req_le c w f H). lia.
  - pose proof (b_bytes h HB v). pose proof (in_everything c (Bytes v w) H). destruct w; lia.
  - pose proof (occ_bound c H). lia.
  - pose proof (occ_bound c H). pose proof (dirty_le c H). lia.
Qed.
Lemma good_class c p : In c (cores h) -> (p < CLASSES)%nat -> good (class_get_stats c p).
Proof.
  intros H HP. apply (good_ext _ (class_sum c p)); [intros k; apply class_get_plain; auto|].
  pose proof (good_ext (core_sum c) (core_get_stats c) (fun k => eq_sym (core_get_plain c k H)) (good_core c H)) as [H1 H2 H3 H4].
  constructor; cbn [class_sum].
  - intros w. apply (s_req h HS c p w H).
  - pose proof (class_le c p (Req false Total) H HP). pose proof (class_le c p (Req true Total) H HP).
    pose proof (class_le c p (Req false Pass) H HP). pose proof (class_le c p (Req true Pass) H HP). cbn [class_sum] in *. lia.
  - intros v. pose proof (class_le c p (Bytes v false) H HP). pose proof (class_le c p (Bytes v true) H HP).
    specialize (H3 v). cbn [class_sum] in *. lia.
  - lia.
Qed.

(** The cache: the opened cores. *)
Definition opened_sum (k : ctr) : N := sum (fun c => core_sum c k) (filter opened (cores h)).
Lemma opened_in c : In c (filter opened (cores h)) -> In c (cores h).
Proof. intros H. apply filter_In in H. tauto. Qed.
Lemma opened_le k : (forall a w, k <> Err a w) -> opened_sum k <= everything h k.
Proof.
  intros HK. unfold opened_sum, everything. eapply N.le_trans; [apply sum_filter|]. apply sum_le. intros c _.
  destruct k; cbn [core_sum]; try lia. exfalso. eapply HK. reflexivity.
Qed.
Lemma opened_err a w : opened_sum (Err a w) <= sum (fun c => errs c a w) (cores h).
Proof. unfold opened_sum. apply sum_filter. Qed.
Lemma opened_req w f : opened_sum (Req w f) < 2 ^ 50.
Proof.
  pose proof (b_req h HB) as HR.
  assert (HT : opened_sum (Req w f) <= everything h (Req w (match f with Pass => Pass | _ => Total end))).
  { unfold opened_sum, everything. eapply N.le_trans; [apply sum_filter|]. apply sum_le. intros c Hc.
    cbn [core_sum]. apply sum_le. intros p _. pose proof (s_req h HS c p w Hc). destruct f; lia. }
  destruct w, f; lia.
Qed.

Lemma fold_stats (g : core -> N) m l : (forall c, In c l -> core_get_stats c m = g c) ->
  forall M a, fold_left (fun s c => (s + core_get_stats c m) mod M) l a = fold_left (fun s c => (s + g c) mod M) l a.
Proof.
  intros H M. induction l as [|c l IH]; intros a; [reflexivity|]. cbn [fold_left].
  rewrite (H c) by (left; auto). apply IH. intros d Hd. apply H. right; auto.
Qed.

Lemma cache_plain k : k <> Occ -> k <> Dirty -> cache_stats (cores h) k = opened_sum k.
Proof.
  intros HO HD. unfold cache_stats. rewrite visit_filter.
  assert (HF : forall M, opened_sum k < M ->
    fold_left (fun s c => (s + core_get_stats c k) mod M) (filter opened (cores h)) 0 = opened_sum k).
  { intros M HM. rewrite (fold_stats (fun c => core_sum c k)).
    - apply fold_plain. exact HM.
    - intros c Hc. apply core_get_plain. apply opened_in. auto. }
  destruct k as [w f|v w|a w| |]; try congruence; cbn [accumulate trunc]; unfold u64, u32; apply HF.
  - pose proof (opened_req w f). lia.
  - pose proof (opened_le (Bytes v w) ltac:(discriminate)). pose proof (b_bytes h HB v). destruct w; lia.
  - pose proof (opened_err a w). pose proof (err_sum_bound a w). lia.
Qed.

Lemma good_cache : good (cache_stats (cores h)).
Proof.
  constructor.
  - intros w. rewrite !cache_plain by discriminate. unfold opened_sum. rewrite <- sum_add. apply sum_le. intros c Hc.
    cbn [core_sum]. unfold over_classes. rewrite <- sum_add. apply sum_le. intros p _. apply (s_req h HS c p w). apply opened_in. auto.
  - rewrite !cache_plain by discriminate. pose proof (b_req h HB).
    pose proof (opened_le (Req false Total) ltac:(discriminate)). pose proof (opened_le (Req true Total) ltac:(discriminate)).
    pose proof (opened_le (Req false Pass) ltac:(discriminate)). pose proof (opened_le (Req true Pass) ltac:(discriminate)). lia.
  - intros v. rewrite !cache_plain by discriminate. pose proof (b_bytes h HB v).
    pose proof (opened_le (Bytes v false) ltac:(discriminate)). pose proof (opened_le (Bytes v true) ltac:(discriminate)). lia.
  - rewrite !cache_plain by discriminate. pose proof (b_err h HB) as HE.
    pose proof (opened_err false false). pose proof (opened_err false true). pose proof (opened_err true false). pose proof (opened_err true true).
    rewrite !sum_add in HE. lia.
Qed.

(** A class of the cache. *)
Lemma class_cache_plain p k : (p < CLASSES)%nat ->
  class_stats (cores h) p k = sum (fun c => class_sum c p k) (filter opened (cores h)).
Proof.
  intros HP. unfold class_stats. rewrite visit_filter.
  assert (HF : forall l a, (forall c, In c l -> In c (cores h)) ->
    fold_left (fun s c => u64 (s + class_get_stats c p k)) l a = fold_left (fun s c => (s + class_sum c p k) mod 2 ^ 64) l a).
  { induction l as [|c l IH]; intros a HL; [reflexivity|]. cbn [fold_left]. rewrite class_get_plain by (auto; apply HL; left; auto).
    apply IH. intros d Hd. apply HL. right; auto. }
  assert (HL : sum (fun c => class_sum c p k) (filter opened (cores h)) <= opened_sum k).
  { apply sum_le. intros c Hc. apply class_le; auto. apply opened_in. auto. }
  assert (HO : sum (fun c => class_sum c p k) (filter opened (cores h)) < 2 ^ 64).
  { destruct k as [w f|v w|a w| |].
    - pose proof (opened_req w f). lia.
    - pose proof (opened_le (Bytes v w) ltac:(discriminate)). pose proof (b_bytes h HB v). destruct w; lia.
    - pose proof (opened_err a w). pose proof (err_sum_bound a w). lia.
    - eapply N.le_lt_trans; [exact HL|]. unfold opened_sum.
      eapply N.le_lt_trans; [apply sum_filter|].
      rewrite (sum_ext _ cached) by (intros c Hc; cbn [core_sum]; symmetry; apply (s_cached h HS); auto).
      pose proof (s_lines h HS). pose proof (b_lines h HB). lia.
    - eapply N.le_lt_trans; [exact HL|]. unfold opened_sum.
      eapply N.le_lt_trans; [apply sum_filter|].
      eapply N.le_lt_trans; [apply (sum_le _ cached); intros c Hc; cbn [core_sum]; rewrite (s_cached h HS c Hc); apply dirty_le; auto|].
      pose proof (s_lines h HS). pose proof (b_lines h HB). lia. }
  assert (HG : fold_left (fun s c => u64 (s + class_get_stats c p k)) (filter opened (cores h)) 0 =
               sum (fun c => class_sum c p k) (filter opened (cores h))).
  { rewrite HF by apply opened_in. apply fold_plain. auto. }
  destruct k as [w f|v w|a w| |]; cbn [accumulate_class]; try exact HG.
  cbn [class_sum]. clear. induction (filter opened (cores h)) as [|c l IH]; [reflexivity|]. unfold sum in *. cbn [fold_left fold_right accumulate_class] in *. rewrite <- IH. reflexivity.
Qed.

Lemma good_class_cache p : (p < CLASSES)%nat -> good (class_stats (cores h) p).
Proof.
  intros HP.
  assert (HL : forall k, class_stats (cores h) p k <= opened_sum k).
  { intros k. rewrite class_cache_plain by auto. apply sum_le. intros c Hc. apply class_le; auto. apply opened_in. auto. }
  pose proof good_cache as [_ H2 H3 H4]. rewrite !cache_plain in H2, H4 by discriminate.
  constructor.
  - intros w. rewrite !class_cache_plain by auto. rewrite <- sum_add. apply sum_le. intros c Hc. cbn [class_sum].
    apply (s_req h HS c p w). apply opened_in. auto.
  - pose proof (HL (Req false Total)). pose proof (HL (Req true Total)). pose proof (HL (Req false Pass)). pose proof (HL (Req true Pass)). lia.
  - intros v. specialize (H3 v). rewrite !cache_plain in H3 by discriminate.
    pose proof (HL (Bytes v false)). pose proof (HL (Bytes v true)). lia.
  - pose proof (HL (Err false false)). pose proof (HL (Err false true)). pose proof (HL (Err true false)). pose proof (HL (Err true true)). lia.
Qed.

End Given.

(** ** C62 *)

(** Every report there is: requests, blocks and errors add up, percentages are right and at most 100. *)
Inductive reported (h : cache) : report -> Prop :=
| Rep_cache r : collect_cache h = Some r -> reported h r
| Rep_core c r : In c (cores h) -> collect_core h c = Some r -> reported h r
| Rep_class p r : collect_part_cache h p = Some r -> reported h r
| Rep_class_core c p r : In c (cores h) -> collect_part_core h c p = Some r -> reported h r.

Lemma part_core_inv h c p r : collect_part_core h c p = Some r -> (p < CLASSES)%nat /\ r = part_fill h (class_get_stats c p).
Proof.
  unfold collect_part_core. destruct (standby h); [discriminate|]. cbn [orb].
  destruct (Nat.ltb_spec p CLASSES); [|discriminate]. cbn [negb]. destruct (exists_class h p); [|discriminate].
  cbn [negb]. intros [= <-]. auto.
Qed.
Lemma part_cache_inv h p r : collect_part_cache h p = Some r -> (p < CLASSES)%nat /\ r = part_fill h (class_stats (cores h) p).
Proof.
  unfold collect_part_cache. destruct (standby h); [discriminate|]. cbn [orb].
  destruct (Nat.ltb_spec p CLASSES); [|discriminate]. cbn [negb]. destruct (negb (exists_class h p) && existsb opened (cores h)); [discriminate|].
  intros [= <-]. auto.
Qed.

Lemma zeros_add_up : device_adds_up (fun _ => {| value := 0; fraction := 0 |}).
Proof. split; [reflexivity|]. intros l. unfold percent_of. cbn. repeat split; lia. Qed.

Theorem C62_adds_up h r : sane h -> small h -> reported h r ->
  requests_add_up (requests r) /\ (forall v, device_adds_up (blocks r v)) /\ (forall a, device_adds_up (errors r a)) /\
  value (errors_total r) = value (errors r false None) + value (errors r true None).
Proof.
  intros HS HB HR.
  assert (HE : forall s, good s -> value (fill_errors_total s) = value (fill_errors s false None) + value (fill_errors s true None)).
  { intros s [_ _ _ H]. cbn [fill_errors_total fill_errors set value]. unfold u32. rewrite N.mod_small by lia. lia. }
  destruct HR as [r HR|c r Hc HR|p r HR|c p r Hc HR].
  - unfold collect_cache in HR. destruct (standby h); [discriminate|]. injection HR as <-.
    pose proof (good_cache h HS HB) as HG. cbn [cache_report requests blocks errors errors_total].
    split; [apply good_requests; auto|]. split; [intros; apply good_blocks; auto|]. split; [intros; apply good_errors; auto|auto].
  - unfold collect_core in HR. destruct (standby h); [discriminate|]. injection HR as <-.
    pose proof (good_core h HS HB c Hc) as HG. cbn [core_report requests blocks errors errors_total].
    split; [apply good_requests; auto|]. split; [intros; apply good_blocks; auto|]. split; [intros; apply good_errors; auto|auto].
  - apply part_cache_inv in HR as [HP ->]. pose proof (good_class_cache h HS HB p HP) as HG.
    cbn [part_fill requests blocks errors errors_total].
    split; [apply good_requests; auto|]. split; [intros; apply good_blocks; auto|]. split; [intros; apply zeros_add_up|reflexivity].
  - apply part_core_inv in HR as [HP ->]. pose proof (good_class h HS HB c p Hc HP) as HG.
    cbn [part_fill requests blocks errors errors_total].
    split; [apply good_requests; auto|]. split; [intros; apply good_blocks; auto|]. split; [intros; apply zeros_add_up|reflexivity].
Qed.

(** The reports on a core, its classes, and the cache agree. *)

Lemma plain_sum {A} (f : A -> ctr -> N) (s : ctr -> N) L l :
  (forall x w, In x L -> f x (Req w Full) + f x (Req w Partial) <= f x (Req w Total)) ->
  (forall w g, s (Req w g) = sum (fun x => f x (Req w g)) L) ->
  plain_req s l = sum (fun x => plain_req (f x) l) L.
Proof.
  intros H E. destruct l as [w|w|w|w|w| |]; cbn [plain_req]; rewrite ?E; rewrite ?sum_add; try reflexivity.
  rewrite <- sum_add. symmetry. apply sum_sub. intros x Hx. apply H. auto.
Qed.

(** A core is the sum of its classes. *)
Theorem C62_core_of_classes h c l : sane h -> small h -> In c (cores h) ->
  value (requests (core_report h c) l) =
  over_classes (fun p => value (requests (part_fill h (class_get_stats c p)) l)).
Proof.
  intros HS HB Hc. cbn [core_report part_fill requests].
  rewrite fill_req_value by (apply (good_core h); auto).
  unfold over_classes. rewrite (sum_ext _ (fun p => plain_req (class_sum c p) l)).
  2:{ intros p Hp. apply in_seq in Hp. rewrite fill_req_value by (apply (good_class h); auto; lia).
      destruct l as [w|w|w|w|w| |]; cbn [plain_req]; rewrite ?(class_get_plain h HS HB) by (auto; lia); reflexivity. }
  apply plain_sum.
  - intros p w _. cbn [class_sum]. apply (s_req h HS c p w Hc).
  - intros w g. apply (core_get_plain h HS HB c (Req w g) Hc).
Qed.

(** The cache is the sum of the cores that are opened: requests and errors exactly, *)
Theorem C62_cache_of_cores h l : sane h -> small h ->
  value (requests (cache_report h) l) =
  sum (fun c => value (requests (core_report h c) l)) (filter opened (cores h)).
Proof.
  intros HS HB. cbn [cache_report core_report requests].
  rewrite fill_req_value by (apply good_cache; auto).
  rewrite (sum_ext _ (fun c => plain_req (core_sum c) l)).
  2:{ intros c Hc. pose proof (opened_in h c Hc) as Hi. rewrite fill_req_value by (apply (good_core h); auto).
      destruct l as [w|w|w|w|w| |]; cbn [plain_req]; rewrite ?(core_get_plain h HS HB) by auto; reflexivity. }
  apply plain_sum.
  - intros c w Hc. cbn [core_sum]. unfold over_classes. rewrite <- sum_add. apply sum_le. intros p _. apply (s_req h HS c p w). apply opened_in. auto.
  - intros w g. apply (cache_plain h HS HB); discriminate.
Qed.
Theorem C62_cache_errors h a l : sane h -> small h ->
  value (errors (cache_report h) a l) = sum (fun c => value (errors (core_report h c) a l)) (filter opened (cores h)).
Proof.
  intros HS HB. cbn [cache_report core_report errors].
  destruct l as [[]|]; cbn [fill_errors set value]; rewrite ?(cache_plain h HS HB) by discriminate; unfold opened_sum;
    rewrite <- ?sum_add; apply sum_ext; intros c Hc; rewrite ?(core_get_plain h HS HB) by (apply opened_in; auto); reflexivity.
Qed.

(** blocks up to rounding each core's bytes up to 4 KiB. *)
Theorem C62_cache_blocks h v w : sane h -> small h ->
  let total := value (blocks (cache_report h) v (Some w)) in
  let cs := filter opened (cores h) in
  let each := sum (fun c => value (blocks (core_report h c) v (Some w))) cs in
  total <= each /\ each <= total + N.of_nat (length cs).
Proof.
  intros HS HB total cs each.
  assert (HT : total = bytes4k (opened_sum h (Bytes v w))).
  { unfold total. cbn [cache_report blocks]. unfold fill_blocks. destruct w; cbn [set value]; rewrite (cache_plain h HS HB) by discriminate; reflexivity. }
  assert (HE : each = sum (fun c => bytes4k (core_sum c (Bytes v w))) cs).
  { unfold each. apply sum_ext. intros c Hc. cbn [core_report blocks]. unfold fill_blocks.
    destruct w; cbn [set value]; rewrite (core_get_plain h HS HB) by (apply opened_in; auto); reflexivity. }
  assert (HO : opened_sum h (Bytes v w) < 2 ^ 62).
  { pose proof (opened_le h (Bytes v w) ltac:(discriminate)). pose proof (b_bytes h HB v). destruct w; lia. }
  unfold opened_sum in HT, HO. fold cs in HT, HO. rewrite HT, HE. clear HT HE total each. clearbody cs.
  assert (HI : forall L, sum (fun c => core_sum c (Bytes v w)) L < 2 ^ 62 ->
    sum (fun c => core_sum c (Bytes v w)) L <= 4096 * sum (fun c => bytes4k (core_sum c (Bytes v w))) L /\
    4096 * sum (fun c => bytes4k (core_sum c (Bytes v w))) L <= sum (fun c => core_sum c (Bytes v w)) L + 4095 * N.of_nat (length L)).
  { induction L as [|c L IH]; intros HL.
    - cbn [sum fold_right length]. lia.
    - cbn [length]. unfold sum in *. cbn [fold_right] in *. destruct IH as [I1 I2]; [lia|].
      pose proof (bytes4k_le (core_sum c (Bytes v w)) ltac:(lia)). pose proof (bytes4k_ge (core_sum c (Bytes v w)) ltac:(lia)).
      set (X := fold_right _ 0 L) in *. clearbody X. lia. }
  destruct (HI cs HO) as [I1 I2]. pose proof (bytes4k_le _ HO). pose proof (bytes4k_ge _ HO). lia.
Qed.

(** A class of the cache is the sum of this class of the opened cores. *)
Theorem C62_class_of_cores h p l : sane h -> small h -> (p < CLASSES)%nat ->
  value (requests (part_fill h (class_stats (cores h) p)) l) =
  sum (fun c => value (requests (part_fill h (class_get_stats c p)) l)) (filter opened (cores h)).
Proof.
  intros HS HB HP. cbn [part_fill requests].
  rewrite fill_req_value by (apply good_class_cache; auto).
  rewrite (sum_ext _ (fun c => plain_req (class_sum c p) l)).
  2:{ intros c Hc. pose proof (opened_in h c Hc) as Hi. rewrite fill_req_value by (apply (good_class h); auto).
      destruct l as [w|w|w|w|w| |]; cbn [plain_req]; rewrite ?(class_get_plain h HS HB) by auto; reflexivity. }
  apply plain_sum.
  - intros c w Hc. cbn [class_sum]. apply (s_req h HS c p w). apply opened_in. auto.
  - intros w g. apply (class_cache_plain h HS HB p (Req w g) HP).
Qed.

(** *** Usage *)

(** 4 KiB blocks of [n] lines. *)
Definition in4k (h : cache) (n : N) : N := n * (line h / 4096).
Lemma lines4k_plain h n : small h -> n <= cachelines h -> lines4k n (line h) = in4k h n.
Proof.
  intros HB H. unfold lines4k, in4k, u64. apply N.mod_small. pose proof (b_size h HB).
  assert (n * (line h / 4096) <= cachelines h * line h).
  { apply N.mul_le_mono; auto. apply N.div_le_upper_bound; lia. }
  lia.
Qed.
Lemma in4k_mono h a b : a <= b -> in4k h a <= in4k h b.
Proof. intros H. unfold in4k. apply N.mul_le_mono_r. auto. Qed.
Lemma in4k_small h n : small h -> n <= cachelines h -> 10000 * in4k h n < 2 ^ 64.
Proof.
  intros HB H. pose proof (b_size h HB). unfold in4k.
  assert (n * (line h / 4096) * 4096 <= cachelines h * line h).
  { rewrite <- N.mul_assoc. apply N.mul_le_mono; auto. pose proof (N.mul_div_le (line h) 4096). lia. }
  lia.
Qed.

Section UsageOf.
Context (h : cache) (HS : sane h) (HB : small h).
Lemma cached_lines : sum cached (cores h) < 2 ^ 32.
Proof. pose proof (s_lines h HS). pose proof (b_lines h HB). lia. Qed.
Lemma dirtied_cached : sum dirtied (cores h) <= sum cached (cores h).
Proof. apply sum_le. intros c Hc. rewrite (s_cached h HS c Hc), (s_dirtied h HS c Hc). apply (dirty_le h); auto. Qed.
Lemma info_occ : info_occupancy h = sum cached (cores h).
Proof. unfold info_occupancy, u32. apply fold_plain. apply cached_lines. Qed.
Lemma info_dirt : info_dirty h = sum dirtied (cores h).
Proof. unfold info_dirty, u32. apply fold_plain. pose proof cached_lines. pose proof dirtied_cached. lia. Qed.
Lemma occ64 : occupancy64 h = sum cached (cores h).
Proof. unfold occupancy64, u64. apply fold_plain. pose proof cached_lines. lia. Qed.
End UsageOf.

(** The cache, with a device: used and free make up the whole device, clean and dirty make up the used part; everything is
    what the cores' lines are, opened or not; percentages of the device. *)
Theorem C62_cache_usage h : sane h -> small h -> attached h = true ->
  let u := usage (cache_report h) in
  value (u Occupancy) = in4k h (sum cached (cores h)) /\ value (u DirtyL) = in4k h (sum dirtied (cores h)) /\
  value (u Occupancy) + value (u Free) = in4k h (cachelines h) /\ value (u Clean) + value (u DirtyL) = value (u Occupancy) /\
  forall l, percent_of (u l) (in4k h (cachelines h)).
Proof.
  intros HS HB HA u. pose proof (s_lines h HS) as HL. pose proof (b_lines h HB) as HB32.
  pose proof (dirtied_cached h HS) as HD.
  assert (H1 : u Occupancy = set (in4k h (sum cached (cores h))) (in4k h (cachelines h))).
  { unfold u. cbn [cache_report usage]. unfold info_size. rewrite HA, (info_occ h HS HB), !(lines4k_plain h) by (auto; lia). reflexivity. }
  assert (H2 : u DirtyL = set (in4k h (sum dirtied (cores h))) (in4k h (cachelines h))).
  { unfold u. cbn [cache_report usage]. unfold info_size. rewrite HA, (info_dirt h HS HB), !(lines4k_plain h) by (auto; lia). reflexivity. }
  assert (H3 : u Free = set (in4k h (cachelines h - sum cached (cores h))) (in4k h (cachelines h))).
  { unfold u. cbn [cache_report usage]. unfold info_size. rewrite HA, (info_occ h HS HB), sub32_plain by lia.
    rewrite !(lines4k_plain h) by (auto; lia). reflexivity. }
  assert (H4 : u Clean = set (in4k h (sum cached (cores h) - sum dirtied (cores h))) (in4k h (cachelines h))).
  { unfold u. cbn [cache_report usage]. unfold info_size. rewrite HA, (info_occ h HS HB), (info_dirt h HS HB), sub32_plain by lia.
    rewrite !(lines4k_plain h) by (auto; lia). reflexivity. }
  rewrite H1, H2, H3, H4. cbn [set value]. split; [reflexivity|]. split; [reflexivity|].
  split; [unfold in4k; rewrite <- N.mul_add_distr_r; f_equal; lia|].
  split; [unfold in4k; rewrite <- N.mul_add_distr_r; f_equal; lia|].
  pose proof (in4k_small h (cachelines h) HB (N.le_refl _)).
  intros []; rewrite ?H1, ?H2, ?H3, ?H4; apply set_percent; auto; apply in4k_mono; lia.
Qed.

(** A core: its occupancy is what it has in the cache, of the device; clean and dirty make it up, and are percentages of it;
    free is what is free in the cache. *)
Theorem C62_core_usage h c : sane h -> small h -> In c (cores h) ->
  let u := usage (core_report h c) in
  value (u Occupancy) = in4k h (cached c) /\ value (u DirtyL) = in4k h (dirtied c) /\
  value (u Free) + in4k h (sum cached (cores h)) = in4k h (cachelines h) /\ value (u Clean) + value (u DirtyL) = value (u Occupancy) /\
  percent_of (u Occupancy) (in4k h (cachelines h)) /\ percent_of (u Free) (in4k h (cachelines h)) /\
  percent_of (u Clean) (value (u Occupancy)) /\ percent_of (u DirtyL) (value (u Occupancy)).
Proof.
  intros HS HB Hc u. pose proof (s_lines h HS) as HL. pose proof (b_lines h HB) as HB32.
  pose proof (sum_elem cached _ _ Hc) as HE.
  assert (HO : core_get_stats c Occ = cached c).
  { rewrite (core_get_plain h HS HB) by auto. cbn [core_sum]. symmetry. apply (s_cached h HS); auto. }
  assert (HD : core_get_stats c Dirty = dirtied c).
  { rewrite (core_get_plain h HS HB) by auto. cbn [core_sum]. symmetry. apply (s_dirtied h HS); auto. }
  assert (HDO : dirtied c <= cached c) by (rewrite (s_cached h HS c Hc), (s_dirtied h HS c Hc); apply (dirty_le h); auto).
  assert (H1 : u Occupancy = set (in4k h (cached c)) (in4k h (cachelines h))).
  { unfold u. cbn [core_report usage]. rewrite HO, !(lines4k_plain h) by (auto; lia). reflexivity. }
  assert (H2 : u DirtyL = set (in4k h (dirtied c)) (in4k h (cached c))).
  { unfold u. cbn [core_report usage]. rewrite HO, HD, !(lines4k_plain h) by (auto; lia). reflexivity. }
  assert (H3 : u Free = set (in4k h (cachelines h - sum cached (cores h))) (in4k h (cachelines h))).
  { unfold u. cbn [core_report usage]. rewrite (occ64 h HS HB), sub64_plain by lia. rewrite !(lines4k_plain h) by (auto; lia). reflexivity. }
  assert (H4 : u Clean = set (in4k h (cached c - dirtied c)) (in4k h (cached c))).
  { unfold u. cbn [core_report usage]. rewrite HO, HD, sub32_plain by lia. rewrite !(lines4k_plain h) by (auto; lia). reflexivity. }
  rewrite H1, H2, H3, H4. cbn [set value]. split; [reflexivity|]. split; [reflexivity|].
  split; [unfold in4k; rewrite <- N.mul_add_distr_r; f_equal; lia|].
  split; [unfold in4k; rewrite <- N.mul_add_distr_r; f_equal; lia|].
  pose proof (in4k_small h (cachelines h) HB (N.le_refl _)). pose proof (in4k_small h (cached c) HB ltac:(lia)).
  split; [apply set_percent; auto; apply in4k_mono; lia|].
  split; [apply set_percent; auto; apply in4k_mono; lia|].
  split; apply set_percent; auto; apply in4k_mono; lia.
Qed.

(** The cache's usage is that of all its cores; what is reported as inactive is that of the cores not opened. *)
Theorem C62_usage_of_cores h : sane h -> small h -> attached h = true -> forall l, l = Occupancy \/ l = DirtyL ->
  value (usage (cache_report h) l) = sum (fun c => value (usage (core_report h c) l)) (cores h) /\
  value (usage (cache_report h) l) =
    sum (fun c => value (usage (core_report h c) l)) (filter opened (cores h)) + value (inactive_usage h l).
Proof.
  intros HS HB HA l Hl. pose proof (s_lines h HS) as HL. pose proof (b_lines h HB) as HB32.
  destruct (C62_cache_usage h HS HB HA) as (H1 & H2 & _ & _ & _).
  set (f := match l with Occupancy => cached | _ => dirtied end).
  assert (HV : value (usage (cache_report h) l) = in4k h (sum f (cores h))) by (destruct Hl as [->| ->]; auto).
  assert (HC : forall L, (forall c, In c L -> In c (cores h)) -> sum (fun c => value (usage (core_report h c) l)) L = in4k h (sum f L)).
  { intros L HLL. unfold in4k. rewrite <- sum_mul. apply sum_ext. intros c Hc.
    destruct (C62_core_usage h c HS HB (HLL c Hc)) as (K1 & K2 & _). unfold in4k in *. destruct Hl as [->| ->]; auto. }
  split; [rewrite HV, HC by auto; reflexivity|].
  assert (HN : forall g, fold_left (fun s c => if opened c then s else u32 (s + g c)) (cores h) 0 =
               fold_left (fun s c => u32 (s + g c)) (filter (fun c => negb (opened c)) (cores h)) 0).
  { intros g. generalize 0. generalize (cores h). clear.
    induction l as [|c L IH]; intros a; [reflexivity|]. cbn [fold_left filter].
    destruct (opened c); cbn [negb fold_left]; apply IH. }
  assert (HF : sum f (filter (fun c => negb (opened c)) (cores h)) <= sum cached (cores h)).
  { eapply N.le_trans; [apply sum_filter|]. destruct Hl as [->| ->]; unfold f; [apply N.le_refl|apply dirtied_cached; auto]. }
  assert (HI : value (inactive_usage h l) = in4k h (sum f (filter (fun c => negb (opened c)) (cores h)))).
  { unfold inactive_usage. rewrite HA, !HN.
    destruct Hl as [->| ->]; unfold f in *; cbn [set value]; unfold u32; rewrite (fold_plain _ (2 ^ 32)) by lia; apply lines4k_plain; auto; lia. }
  rewrite HV, HC, HI by (intros c; apply opened_in). unfold in4k. rewrite <- N.mul_add_distr_r. f_equal.
  symmetry. apply sum_split.
Qed.

(** ** A case: two cores, one of them not opened, three classes in use *)
Definition some_core (o : bool) (z : N) : core :=
  {| opened := o;
     cnt := fun p k => if (p <? 3)%nat then
       match k with Req _ Total => 9 * z | Req _ Full => 3 | Req _ Partial => 2 | Req _ Pass => z
                  | Bytes _ _ => 5000 * z | Occ => 4 * z | Dirty => 2 * z | Err _ _ => 0 end else 0;
     errs := fun _ _ => z; cached := 12 * z; dirtied := 6 * z |}.
Definition some_cache (o : bool) : cache :=
  {| standby := false; attached := true; cachelines := 100; line := 8192; cores := [some_core true 2; some_core o 3];
     exists_class := fun p => (p <? 3)%nat |}.
Lemma some_sane o : sane (some_cache o).
Proof.
  constructor.
  - intros c p w [<-|[<-|[]]]; cbn [some_core cnt]; destruct (p <? 3)%nat; lia.
  - intros c p [<-|[<-|[]]]; cbn [some_core cnt]; destruct (p <? 3)%nat; lia.
  - intros c [<-|[<-|[]]]; reflexivity.
  - intros c [<-|[<-|[]]]; reflexivity.
  - vm_compute. discriminate.
  - vm_compute. discriminate.
Qed.
Example some_case o : sane (some_cache o) /\ small (some_cache o) /\ (exists r, collect_cache (some_cache o) = Some r) /\
  (exists r, collect_part_cache (some_cache o) 2 = Some r).
Proof.
  split; [apply some_sane|]. split.
  - constructor.
    + reflexivity.
    + intros v. destruct v; reflexivity.
    + reflexivity.
    + reflexivity.
    + reflexivity.
  - split; [eexists; reflexivity|]. exists (part_fill (some_cache o) (class_stats (cores (some_cache o)) 2)). destruct o; reflexivity.
Qed.
Example some_values : map (fun l => value (requests (cache_report (some_cache true)) l)) [Hits true; Totals false; Serviced; All]
  = [105; 135; 270; 300] /\ fraction (requests (cache_report (some_cache true)) (Hits true)) = 3500 /\
  value (usage (cache_report (some_cache true)) Free) = 80.
Proof. vm_compute. auto. Qed.

(** ** Refuted *)

(** The cache is not the sum of its cores: requests (and errors) of a core that is not opened - detached, with the counters
    kept - are left out, while its lines are counted. *)
Theorem C62_inactive_refuted : exists h, sane h /\ small h /\ attached h = true /\
  value (requests (cache_report h) All) <> sum (fun c => value (requests (core_report h c) All)) (cores h).
Proof.
  exists (some_cache false). pose proof (some_case false) as (H1 & H2 & _). split; [auto|]. split; [auto|]. split; [reflexivity|].
  vm_compute. discriminate.
Qed.

(** In a report on an io class used and free do not make up anything: free is always 0. *)
Theorem C62_class_free_refuted : exists h p r, sane h /\ small h /\ collect_part_cache h p = Some r /\
  value (usage r Occupancy) + value (usage r Free) < in4k h (cachelines h).
Proof.
  exists (some_cache true), 1%nat. pose proof (some_case true) as (H1 & H2 & _). eexists. split; [auto|]. split; [auto|]. split; [reflexivity|].
  vm_compute. reflexivity.
Qed.

(** Without a device the size is 0, while the cores still count the lines they had: free wraps. *)
Definition detached_cache : cache :=
  {| standby := false; attached := false; cachelines := 100; line := 8192; cores := [some_core true 2]; exists_class := fun p => (p <? 3)%nat |}.
Theorem C62_detached_refuted : sane detached_cache /\ small detached_cache /\
  exists r, collect_cache detached_cache = Some r /\ in4k detached_cache (cachelines detached_cache) < value (usage r Free).
Proof.
  split.
  { constructor.
    - intros c p w [<-|[]]; cbn [some_core cnt]; destruct (p <? 3)%nat; lia.
    - intros c p [<-|[]]; cbn [some_core cnt]; destruct (p <? 3)%nat; lia.
    - intros c [<-|[]]; reflexivity.
    - intros c [<-|[]]; reflexivity.
    - vm_compute. discriminate.
    - vm_compute. discriminate. }
  split.
  { constructor; try (intros v; destruct v); reflexivity. }
  eexists. split; [reflexivity|]. vm_compute. reflexivity.
Qed.

(** Occupancy is read before dirty: a line that becomes valid and dirty in between makes clean wrap. *)
Theorem C62_torn_refuted : exists h occ dirty, occ < dirty /\ dirty <= occ + 1 /\ dirty <= cachelines h /\ small h /\
  in4k h (cachelines h) < value (usage_torn h occ dirty) /\ 10000 < fraction (usage_torn h occ dirty).
Proof.
  exists (some_cache true), 7, 8. pose proof (some_case true) as (_ & H2 & _).
  split; [reflexivity|]. split; [discriminate|]. split; [discriminate|]. split; [auto|].
  split; vm_compute; reflexivity.
Qed.

(** A report on a class that does not exist is given if no core is opened, and refused otherwise. *)
Theorem C62_no_class_refuted : exists h h' p, exists_class h p = false /\ exists_class h' p = false /\
  collect_part_cache h p = None /\ collect_part_cache h' p <> None.
Proof.
  exists (some_cache true), {| standby := false; attached := true; cachelines := 100; line := 8192; cores := [some_core false 3]; exists_class := fun p => (p <? 3)%nat |}, 5%nat.
  repeat split; try reflexivity. discriminate.
Qed.

Print Assumptions C62_adds_up.
Print Assumptions C62_core_of_classes.
Print Assumptions C62_cache_of_cores.
Print Assumptions C62_cache_errors.
Print Assumptions C62_cache_blocks.
Print Assumptions C62_class_of_cores.
Print Assumptions C62_cache_usage.
Print Assumptions C62_core_usage.
Print Assumptions C62_usage_of_cores.
Print Assumptions C62_inactive_refuted.
Print Assumptions C62_class_free_refuted.
Print Assumptions C62_detached_refuted.
Print Assumptions C62_torn_refuted.
Print Assumptions C62_no_class_refuted.

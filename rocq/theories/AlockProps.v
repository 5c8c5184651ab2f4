(** C12, C13: the cache line lock. *)
From Coq Require Import ZArith List Bool Arith Lia.
From Verif Require Import AlockModel AlockProofs AlockLive.
Import ListNotations.
Open Scope nat_scope.

(** ** Specification vocabulary *)

(** Request [r] holds, through its [i]-th line, line [l]. *)
Definition holds (wants : nat -> want) (s : st) (r i l : nat) : Prop :=
  bits s r i = true /\ nth_error (lines (wants r)) i = Some l.
(** Request [r] waits for line [l] with its [i]-th line. *)
Definition waits (s : st) (r i l : nat) : Prop :=
  exists b w, In w (queue s b) /\ w_req w = r /\ w_idx w = i /\ w_line w = l.

(** All lines asked for by the requests 0 .. nr-1 together; lock counters are C ints. *)
Fixpoint total (wants : nat -> want) (nr : nat) : nat :=
  match nr with 0 => 0 | S k => length (lines (wants k)) + total wants k end.
Definition few (wants : nat -> want) (nr : nat) : Prop := (Z.of_nat (2 * total wants nr + 1) < 2 ^ 31 - 1)%Z.
Definition known (nr : nat) (evs : list (nat * bool)) : Prop := Forall (fun e => fst e < nr) evs.

Lemma slots_total : forall wants nr, length (slots wants nr) = total wants nr.
Proof.
  intros wants nr. unfold slots. induction nr as [|k IH]; [reflexivity|].
  rewrite seq_S, flat_map_app, app_length, IH. cbn. rewrite app_nil_r, map_length, seq_length. unfold len. lia.
Qed.

Lemma reach : forall nb wants nr evs, few wants nr -> known nr evs ->
  exists s, run nb wants evs init = Ok s /\ Inv nb wants nr s.
Proof.
  intros nb wants nr evs HF HK.
  assert (HB : (Z.of_nat (2 * length (slots wants nr) + 1) < WR)%Z) by (rewrite slots_total; exact HF).
  exact (run_inv nb wants nr HB evs init (init_inv nb wants nr) HK).
Qed.

Lemma holds_slot : forall nb wants nr s r i l, Inv nb wants nr s -> holds wants s r i l -> In (r, i) (slots wants nr) /\ line wants r i = l.
Proof.
  intros nb wants nr s r i l HI [H1 H2]. destruct (v_out nb wants nr s HI r i H1) as [A B]. split; [now apply in_slots|].
  unfold line. now apply nth_error_nth.
Qed.

Lemma two_in : forall (A : Type) (l : list A) x y, NoDup l -> In x l -> In y l -> x <> y -> 2 <= length l.
Proof.
  intros A l x y ND Hx Hy Hne. destruct l as [|a [|b l]]; cbn in *; try tauto; [|lia].
  destruct Hx as [<-|[]], Hy as [<-|[]]. congruence.
Qed.

(** ** C12 *)

(** Whatever the interleaving (allocation failures included), no internal assertion
    fails, and two distinct holds of one line are both for reading. *)
Theorem C12_exclusion : forall nb wants nr evs, few wants nr -> known nr evs ->
  exists s, run nb wants evs init = Ok s /\
    forall r i r' i' l, holds wants s r i l -> holds wants s r' i' l -> (r, i) <> (r', i') ->
      wr (wants r) = false /\ wr (wants r') = false.
Proof.
  intros nb wants nr evs HF HK. destruct (reach nb wants nr evs HF HK) as (s & E & HI). exists s. split; auto.
  assert (HX : forall r i r' i' l, holds wants s r i l -> holds wants s r' i' l -> (r, i) <> (r', i') -> wr (wants r) = false).
  { intros r i r' i' l H1 H2 Hne. destruct (wr (wants r)) eqn:EW; auto. exfalso.
    destruct (holds_slot _ _ _ _ _ _ _ HI H1) as [S1 L1]. destruct (holds_slot _ _ _ _ _ _ _ HI H2) as [S2 L2].
    pose proof (v_acc nb wants nr s HI l) as HA.
    assert (F1 : In (r, i) (filter (holdf wants true (bits s) l) (slots wants nr))).
    { apply filter_In. split; auto. unfold holdf. cbn. rewrite (proj1 H1), L1, Nat.eqb_refl, EW. reflexivity. }
    destruct (wr (wants r')) eqn:EW'.
    - assert (F2 : In (r', i') (filter (holdf wants true (bits s) l) (slots wants nr))).
      { apply filter_In. split; auto. unfold holdf. cbn. rewrite (proj1 H2), L2, Nat.eqb_refl, EW'. reflexivity. }
      pose proof (two_in _ _ _ _ (NoDup_filter _ (nodup_slots wants nr)) F1 F2 Hne) as H. fold (holdc wants nr true (bits s) l) in H.
      unfold AccOk in HA. lia.
    - assert (F2 : In (r', i') (filter (holdf wants false (bits s) l) (slots wants nr))).
      { apply filter_In. split; auto. unfold holdf. cbn. rewrite (proj1 H2), L2, Nat.eqb_refl, EW'. reflexivity. }
      assert (G1 : holdc wants nr true (bits s) l <> 0) by (unfold holdc; intros H; apply length_zero_iff_nil in H; rewrite H in F1; easy).
      assert (G2 : holdc wants nr false (bits s) l <> 0) by (unfold holdc; intros H; apply length_zero_iff_nil in H; rewrite H in F2; easy).
      unfold AccOk in HA. lia. }
  intros r i r' i' l H1 H2 Hne. split; [eapply HX; eauto|]. apply (HX r' i' r i l); auto.
Qed.

(** A request that was told it owns its lock holds every one of its lines. *)
Theorem C12_owner_holds_all : forall nb wants nr evs, few wants nr -> known nr evs ->
  exists s, run nb wants evs init = Ok s /\
    forall r i l, r < nr -> ph s r = Held -> nth_error (lines (wants r)) i = Some l -> holds wants s r i l.
Proof.
  intros nb wants nr evs HF HK. destruct (reach nb wants nr evs HF HK) as (s & E & HI). exists s. split; auto.
  intros r i l Hr HP HL. split; auto. pose proof (v_r nb wants nr s HI r Hr) as HR. unfold RInv in HR. rewrite HP in HR.
  destruct HR as (H & _). rewrite H. apply Nat.ltb_lt. unfold len. apply nth_error_Some. congruence.
Qed.

(** ** C13 *)

(** Resumed exactly once, and only with all lines in hand; a request still waiting has
    not been resumed and has a line it is queued for. *)
Theorem C13_resumed_once : forall nb wants nr evs, few wants nr -> known nr evs ->
  exists s, run nb wants evs init = Ok s /\
    forall r, r < nr ->
      resumed s r <= 1 /\
      (resumed s r = 1 <-> (ph s r = Held \/ (exists i, ph s r = Unlock i) \/ ph s r = Done)) /\
      (ph s r = Wait -> exists i l, waits s r i l /\ ~ holds wants s r i l /\ nth_error (lines (wants r)) i = Some l) /\
      (ph s r = Held -> forall i l, nth_error (lines (wants r)) i = Some l -> holds wants s r i l).
Proof.
  intros nb wants nr evs HF HK. destruct (reach nb wants nr evs HF HK) as (s & E & HI). exists s. split; auto.
  intros r Hr. pose proof (v_r nb wants nr s HI r Hr) as HR. unfold RInv in HR. split; [|split; [|split]].
  - destruct (ph s r); cbn [RI] in HR; lia.
  - destruct (ph s r) as [i|i| |i|i|i| | |i| | |]; cbn [RI] in HR; (split; [intros H|intros H]; try lia; eauto 4).
    all: try (destruct H as [H|[[j H]|H]]; discriminate).
  - intros HW. rewrite HW in HR. cbn [RI] in HR. destruct HR as (H1 & H2 & H3 & H4).
    destruct (filter (inq nb wants (queue s) r) (seq 0 (len wants r))) as [|j q] eqn:EF.
    { unfold cntb in H2. rewrite EF in H2. cbn in H2. lia. }
    assert (HJ : In j (filter (inq nb wants (queue s) r) (seq 0 (len wants r)))) by (rewrite EF; now left).
    apply filter_In in HJ as [HJ1 HJ2]. apply in_seq in HJ1.
    assert (HN : nth_error (lines (wants r)) j = Some (line wants r j)).
    { unfold line. apply nth_error_nth'. unfold len in HJ1. lia. }
    exists j, (line wants r j). splits; auto.
    + unfold inq in HJ2. apply ing_true in HJ2. apply in_map_iff in HJ2 as (w & Ew & Hw). unfold key in Ew. inversion Ew.
      exists (bucket nb (line wants r j)), w. splits; auto.
      destruct (v_q nb wants nr s HI _ _ Hw) as ((_ & _ & G & _) & _). congruence.
    + intros [HB _]. rewrite H1, HJ2 in HB. discriminate.
  - intros HW i l HL. rewrite HW in HR. cbn [RI] in HR. destruct HR as (H1 & _). split; auto.
    rewrite H1. apply Nat.ltb_lt. unfold len. apply nth_error_Some. congruence.
Qed.

(** No waiter is forgotten: as long as somebody waits for a line, somebody holds it. *)
Theorem C13_no_waiter_forgotten : forall nb wants nr evs, few wants nr -> known nr evs ->
  exists s, run nb wants evs init = Ok s /\
    forall r i l, waits s r i l -> exists r' i', holds wants s r' i' l.
Proof.
  intros nb wants nr evs HF HK. destruct (reach nb wants nr evs HF HK) as (s & E & HI). exists s. split; auto.
  intros r i l (b & w & Hw & _ & _ & HL).
  pose proof (v_ne nb wants nr s HI _ _ Hw) as Hnz. rewrite HL in Hnz. pose proof (v_acc nb wants nr s HI l) as HA.
  assert (HX : forall m, holdc wants nr m (bits s) l <> 0 -> exists r' i', holds wants s r' i' l).
  { intros m Hb. unfold holdc in Hb. destruct (filter _ _) as [|[r' i'] q] eqn:EF in Hb; [easy|]. exists r', i'.
    assert (HG : In (r', i') (filter (holdf wants m (bits s) l) (slots wants nr))) by (rewrite EF; now left).
    apply filter_In in HG as [HF1 HF2]. unfold holdf in HF2. cbn in HF2. apply andb_true_iff in HF2 as [HF2 _]. apply andb_true_iff in HF2 as [HF2 HF3].
    apply Nat.eqb_eq in HF3. split; auto. apply in_slots in HF1 as [_ HF1]. rewrite <- HF3. apply nth_error_nth'. exact HF1. }
  destruct HA as [(_ & HA & _)|(_ & HA)]; [apply (HX true); lia|apply (HX false); lia].
Qed.

(** First come, first served, per line: a step that gives somebody line [l] either finds
    no waiter of [l], or serves a front part of the waiters of [l] (in their order of
    arrival), and nobody else. *)
Definition arrival (nb : nat) (s : st) (l : nat) : list waiter := filter (fun w => w_line w =? l) (queue s (l mod nb)).
Theorem C13_first_come_first_served : forall nb wants nr evs r oom, few wants nr -> known nr evs -> r < nr ->
  exists s, run nb wants evs init = Ok s /\
    forall s', step nb wants r oom s = Ok s' ->
    forall l, exists served rest, arrival nb s l = served ++ rest /\
      (forall w, In w served -> holds wants s' (w_req w) (w_idx w) l) /\
      (forall r' i', holds wants s' r' i' l -> ~ holds wants s r' i' l ->
         arrival nb s l = [] \/ exists w, In w served /\ w_req w = r' /\ w_idx w = i').
Proof.
  intros nb wants nr evs r oom HF HK Hr. destruct (reach nb wants nr evs HF HK) as (s & E & HI). exists s. split; auto.
  intros s' ES l. assert (HB : (Z.of_nat (2 * length (slots wants nr) + 1) < WR)%Z) by (rewrite slots_total; exact HF).
  pose proof (step_inv nb wants nr HB s r oom HI Hr) as HS. rewrite ES in HS. destruct HS as [HI' HFi].
  destruct (HFi l) as (g & rest & H1 & H2 & H3). exists g, rest. split; [exact H1|]. split.
  - intros w Hw. assert (Hin : In w (wl nb s l)) by (rewrite H1; apply in_app_iff; auto). unfold wl in Hin. apply filter_In in Hin as [Hin Hl].
    apply Nat.eqb_eq in Hl. destruct (v_q nb wants nr s HI _ _ Hin) as ((_ & G2 & G3 & _) & _). split; [auto|].
    rewrite <- Hl, G3. apply nth_error_nth'. exact G2.
  - intros r' i' Hh Hn. destruct (holds_slot _ _ _ _ _ _ _ HI' Hh) as [_ HL]. destruct (H3 r' i' HL) as [H|H]; auto.
    + destruct (bits s r' i') eqn:EB; auto. elim Hn. split; auto. apply Hh.
    + apply Hh.
    + right. apply ing_true in H. apply in_map_iff in H as (w & Ew & Hw). unfold key in Ew. inversion Ew. eauto.
Qed.

(** Number of steps of a run that were not blocked. *)
Fixpoint moves (nb : nat) (wants : nat -> want) (evs : list (nat * bool)) (s : st) : nat :=
  match evs with
  | [] => 0
  | (r, oom) :: evs => match step nb wants r oom s with Ok s' => S (moves nb wants evs s') | _ => moves nb wants evs s end
  end.

(** Every run makes a bounded number of moves. *)
Theorem C13_runs_are_finite : forall nb wants nr, few wants nr ->
  exists k, forall evs, known nr evs -> moves nb wants evs init <= k.
Proof.
  intros nb wants nr HF. assert (HB : (Z.of_nat (2 * length (slots wants nr) + 1) < WR)%Z) by (rewrite slots_total; exact HF).
  exists (measure wants nr init). intros evs. generalize (init_inv nb wants nr). generalize init as s.
  induction evs as [|[r oom] evs IH]; intros s HI HK; cbn [moves]; [lia|].
  apply Forall_cons_iff in HK as [Hr HK]. pose proof (step_inv nb wants nr HB s r oom HI Hr) as HS.
  destruct (step nb wants r oom s) as [| |s'] eqn:ES; auto. destruct HS as [HI' _].
  pose proof (measure_dec nb wants nr HB s r oom s' HI Hr ES). specialize (IH s' HI' HK). lia.
Qed.

(** Allocations succeed; no request names a line twice (a request maps its core lines
    to different cache lines, C09). *)
Definition noalloc_failure (evs : list (nat * bool)) : Prop := Forall (fun e => snd e = false) evs.
Definition nodup_lines (wants : nat -> want) : Prop := forall r, NoDup (lines (wants r)).

(** No deadlock: if no request can move, every request has finished; so, with the bound
    on moves, every waiting request is eventually resumed and gets through. *)
Theorem C13_no_deadlock : forall nb wants nr evs, few wants nr -> known nr evs -> noalloc_failure evs -> nodup_lines wants ->
  exists s, run nb wants evs init = Ok s /\
    ((forall r, r < nr -> step nb wants r false s = Blocked) ->
     forall r, r < nr -> ph s r = Done \/ ph s r = Refused).
Proof.
  intros nb wants nr evs HF HK HO HD. destruct (reach nb wants nr evs HF HK) as (s & E & HI). exists s. split; auto.
  intros HBl r Hr. assert (HB : (Z.of_nat (2 * length (slots wants nr) + 1) < WR)%Z) by (rewrite slots_total; exact HF).
  assert (HE : Forall (fun e => fst e < nr /\ snd e = false) evs).
  { unfold known, noalloc_failure in *. rewrite Forall_forall in *. auto. }
  destruct (run_ord nb wants nr HB HD evs init _ _ s (init_inv nb wants nr) (ord_init nb wants nr) HE E) as (_ & ts & c & HOrd).
  exact (stuck_finished nb wants nr HB s ts c HI HOrd HBl r Hr).
Qed.

(** ** With a failed allocation a lock can stay behind
    ([ocf_alock_waitlist_remove_entry] compares the request only).
    Requests 0, 1, 2 hold lines 2, 4 and 1; request 3 wants all three; lines 2 and 4 share
    a waiters list.  Its third waiter cannot be allocated; the removal of its second waiter
    removes the first one instead; line 4 is then granted to it although it has been
    "removed"; request 3 fails and keeps line 4; request 4 waits for line 4 for ever. *)
Definition oom_wants (r : nat) : want :=
  match r with
  | 0 => {| lines := [2]; wr := true; tryonly := false |}
  | 1 => {| lines := [4]; wr := true; tryonly := false |}
  | 2 => {| lines := [1]; wr := true; tryonly := false |}
  | 3 => {| lines := [2; 4; 1]; wr := true; tryonly := false |}
  | _ => {| lines := [4]; wr := true; tryonly := false |}
  end.
Definition go (r n : nat) : list (nat * bool) := repeat (r, false) n.
Definition oom_run : list (nat * bool) :=
  go 0 2 ++ go 1 2 ++ go 2 2 ++
  go 3 2 ++ go 3 1 ++ go 3 4 ++ go 3 1 ++ [(3, true)] ++ go 3 2 ++   (* up to Err 1 *)
  go 1 3 ++ go 3 2 ++                                              (* release of line 4; end of request 3 *)
  go 0 3 ++ go 2 3 ++ go 4 8.

Theorem C13_liveness_oom_refuted :
  exists nb wants nr evs s, few wants nr /\ known nr evs /\ nodup_lines wants /\ run nb wants evs init = Ok s /\
    (forall r oom, r < nr -> step nb wants r oom s = Blocked) /\
    ph s 4 = Wait /\ ph s 3 = Failed /\ holds wants s 3 1 4.
Proof.
  exists 2, oom_wants, 5, oom_run.
  destruct (reach 2 oom_wants 5 oom_run) as (s & E & _).
  - reflexivity.
  - unfold known, oom_run, go. cbn. repeat constructor.
  - exists s.
    assert (HP : match run 2 oom_wants oom_run init with
                 | Ok s => forallb (fun r => match ph s r with Done | Wait | Failed => true | _ => false end) [0; 1; 2; 3; 4] = true /\
                           ph s 4 = Wait /\ ph s 3 = Failed /\ bits s 3 1 = true
                 | _ => False end) by (vm_compute; auto).
    rewrite E in HP. destruct HP as (HA & H4 & H3 & HB). splits; auto.
    + reflexivity.
    + unfold known, oom_run, go. cbn. repeat constructor.
    + intros r. do 5 (destruct r as [|r]; [repeat constructor; cbn; intuition discriminate|]). repeat constructor; cbn; intuition.
    + intros r oom Hr. rewrite forallb_forall in HA. specialize (HA r). unfold step.
      destruct (ph s r); auto; exfalso; (assert (false = true); [apply HA; cbn; lia|discriminate]).
    + split; auto.
Qed.

(** ** Cases *)

(** Two writers and a reader compete for two lines; the first writer releases, the second
    is granted both lines at once, the reader follows. *)
Definition case_wants (r : nat) : want :=
  match r with
  | 0 => {| lines := [7; 9]; wr := true; tryonly := false |}
  | 1 => {| lines := [9; 7]; wr := true; tryonly := false |}
  | _ => {| lines := [9]; wr := false; tryonly := false |}
  end.
Definition case_run1 := go 0 3 ++ go 1 8 ++ go 2 6.
Definition case_run2 := case_run1 ++ go 0 4.
Definition case_run3 := case_run2 ++ go 1 4 ++ go 2 3.
Example C12_case :
  few case_wants 3 /\ known 3 case_run3 /\ noalloc_failure case_run3 /\ nodup_lines case_wants /\
  match run 4 case_wants case_run1 init with
  | Ok s => ph s 0 = Held /\ ph s 1 = Wait /\ ph s 2 = Wait /\ length (arrival 4 s 9) = 2 | _ => False end /\
  match run 4 case_wants case_run2 init with
  | Ok s => ph s 0 = Done /\ ph s 1 = Held /\ ph s 2 = Wait /\ bits s 1 0 = true | _ => False end /\
  match run 4 case_wants case_run3 init with
  | Ok s => ph s 0 = Done /\ ph s 1 = Done /\ ph s 2 = Done /\ resumed s 2 = 1 /\ access s 9 = 0%Z | _ => False end.
Proof.
  splits.
  - reflexivity.
  - unfold known, case_run3, case_run2, case_run1, go. cbn. repeat constructor.
  - unfold noalloc_failure, case_run3, case_run2, case_run1, go. cbn. repeat constructor.
  - intros r. do 2 (destruct r as [|r]; [repeat constructor; cbn; intuition discriminate|]). repeat constructor; cbn; intuition.
  - vm_compute. auto.
  - vm_compute. auto.
  - vm_compute. auto.
Qed.

Print Assumptions C12_exclusion.
Print Assumptions C12_owner_holds_all.
Print Assumptions C13_resumed_once.
Print Assumptions C13_no_waiter_forgotten.
Print Assumptions C13_first_come_first_served.
Print Assumptions C13_runs_are_finite.
Print Assumptions C13_no_deadlock.
Print Assumptions C13_liveness_oom_refuted.

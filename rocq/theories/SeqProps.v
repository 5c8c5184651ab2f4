(** Property C28: a sequential stream that is tracked is found again when its next consecutive
    request arrives.

    [tracked s i]: slot i of the tracker holds a stream.  [found s i]: searching the tracker
    for a request that continues stream i gives a stream that ends where the request starts. *)
From Coq Require Import List Bool NArith Arith Lia Permutation.
From Verif Require Import RbModel RbTree RbRing RbKeys SeqModel SeqProofs RbProps.
Import ListNotations.
Open Scope N_scope.

Definition FU := fuel_for PERCORE.

Definition tracked (s : sc) (i : nat) : Prop := valid (str s i) = true.
Definition found (s : sc) (i : nat) : Prop :=
  exists x, sc_find FU s (item (last (str s i)) (rw (str s i))) = Some (Some x)
            /\ last (str s x) = last (str s i) /\ rw (str s x) = rw (str s i) /\ valid (str s x) = true.

(** The states reached by requests on one core through one queue. *)
Definition reachable (c : cfg) (s : st2) : Prop := exists s0 l, start = Some s0 /\ requests FU c s0 l = Some s.

Definition C28_claim : Prop :=
  forall c s, reachable c s -> forall i, (i < PERQUEUE)%nat -> tracked (queue s) i -> found (queue s) i.

(** The witness: three streams, then the second of them continues and is promoted to the
    tracker of the core. *)
Definition c0 : cfg := {| threshold := 1048576; promotion_count := 2; promote_on_threshold := true |}.
Definition rd (a n : N) : rq := {| addr := a; len := n; wr := false |}.
Definition l0 : list rq := [rd 0 524288; rd 10485760 4096; rd 20971520 4096; rd 31457280 4096; rd 41943040 4096].
Definition l1 : list rq := l0 ++ [rd 10489856 4096].

Definition run0 (l : list rq) : option st2 := bindo start (fun s => requests FU c0 s l).
Definition holds {A} (o : option A) (P : A -> Prop) : Prop := match o with Some a => P a | None => False end.
Lemma holds_ex A (o : option A) P : holds o P -> exists a, o = Some a /\ P a.
Proof. destruct o as [a|]; [intro H; exists a; split; [reflexivity|exact H]|intros []]. Qed.
Lemma run0_reachable l s : run0 l = Some s -> reachable c0 s.
Proof.
  unfold run0, bindo, reachable. destruct start as [s0|]; [|discriminate].
  intro H. exists s0, l. split; [reflexivity|exact H].
Qed.

(** What the user sees: the stream of the first request continues with 512 KiB.  Before the
    promotion of the other stream the request is recognised as sequential (1 MiB in total),
    after it is not. *)
Lemma run_l0 : holds (run0 l0) (fun s => holds (request FU c0 s (rd 10489856 4096)) (fun s' =>
  check FU c0 s (rd 524288 524288) = Some (true, false) /\ check FU c0 s' (rd 524288 524288) = Some (false, false)
  /\ valid (str (queue s') 0) = true /\ last (str (queue s') 0) = 524288 /\ rw (str (queue s') 0) = false)).
Proof. vm_compute. repeat split. Qed.
Lemma run_l1 : holds (run0 l1) (fun s =>
  sc_find FU (queue s) (item 524288 false) = Some None
  /\ valid (str (queue s) 0) = true /\ last (str (queue s) 0) = 524288 /\ rw (str (queue s) 0) = false).
Proof. vm_compute. repeat split. Qed.

(** Promoting one stream makes another one unreachable: clearing "valid" changes the key of a
    node that stays in the search tree. *)
Theorem C28_promotion_loses_stream_refuted : ~ C28_claim.
Proof.
  intro C. destruct (holds_ex _ _ _ run_l1) as [s [R [F [V [B1 B2]]]]].
  specialize (C c0 s (run0_reachable _ _ R) 0%nat ltac:(unfold PERQUEUE; lia) V).
  destruct C as [y [Y _]]. rewrite B1, B2, F in Y. discriminate Y.
Qed.

(** The request that completes 1 MiB of consecutive reads is cut off (passed through) without
    the promotion of an unrelated stream, and not cut off with it. *)
Theorem C28_decision_lost_refuted :
  exists c s s' r, reachable c s /\ request FU c s (rd 10489856 4096) = Some s'
    /\ addr r <> 10489856 /\ check FU c s r = Some (true, false) /\ check FU c s' r = Some (false, false)
    /\ tracked (queue s') 0 /\ last (str (queue s') 0) = addr r /\ rw (str (queue s') 0) = wr r.
Proof.
  destruct (holds_ex _ _ _ run_l0) as [s [E0 H]]. destruct (holds_ex _ _ _ H) as [s' [E1 [H1 [H2 [H3 [H4 H5]]]]]].
  exists c0, s, s', (rd 524288 524288).
  split; [exact (run0_reachable _ _ E0)|]. split; [exact E1|].
  split; [discriminate|]. split; [exact H1|]. split; [exact H2|].
  split; [exact H3|]. split; [exact H4|exact H5].
Qed.

(** Among streams that end at the same place the one with the most bytes is to be used.  The
    callback skips the head of the ring, so an older stream with more bytes is ignored. *)
Definition l2 : list rq := [rd 0 524288; rd 520192 4096].
Lemma run_l2 : holds (run0 l2) (fun s =>
  sc_find FU (queue s) (item 524288 false) = Some (Some 1%nat)
  /\ valid (str (queue s) 0) = true /\ last (str (queue s) 0) = 524288 /\ rw (str (queue s) 0) = false
  /\ (bytes (str (queue s) 1) ?= bytes (str (queue s) 0)) = Lt).
Proof. vm_compute. repeat split. Qed.
Theorem C28_longest_stream_refuted :
  exists c s x i, reachable c s /\ sc_find FU (queue s) (item 524288 false) = Some (Some x)
    /\ tracked (queue s) i /\ last (str (queue s) i) = 524288 /\ rw (str (queue s) i) = false
    /\ bytes (str (queue s) x) < bytes (str (queue s) i).
Proof.
  destruct (holds_ex _ _ _ run_l2) as [s [E0 [H1 [H2 [H3 [H4 H5]]]]]].
  exists c0, s, 1%nat, 0%nat.
  split; [exact (run0_reachable _ _ E0)|]. split; [exact H1|].
  split; [exact H2|]. split; [exact H3|]. split; [exact H4|exact H5].
Qed.

(** ** What holds *)
(** Requests that do not reach beyond the end of the address space. *)
Definition in_range (r : rq) : Prop := addr r + len r < M64.

(** Exactly the tracked streams are found: [exact s n] for a tracker of n streams. *)
Definition exact (s : sc) (n : nat) : Prop :=
  forall a w, exists o, sc_find FU s (item a w) = Some o /\
  match o with
  | Some x => (x < n)%nat /\ tracked s x /\ last (str s x) = a /\ rw (str s x) = w
  | None => forall i, (i < n)%nat -> tracked s i -> ~ (last (str s i) = a /\ rw (str s i) = w)
  end.
Lemma exact_found s n i : exact s n -> (i < n)%nat -> tracked s i -> found s i.
Proof.
  intros E Hi V. destruct (E (last (str s i)) (rw (str s i))) as [o [H1 H2]]. destruct o as [x|].
  - exists x. destruct H2 as [_ [H2 [H3 H4]]]. split; [exact H1|]. split; [exact H3|]. split; [exact H4|exact H2].
  - exfalso. now apply (H2 i Hi V).
Qed.
Lemma Tr_exact s n gs : (n + 4 <= FU)%nat -> Tr n s gs -> KS (str s) gs -> exact s n.
Proof.
  intros Fu T HK a w. destruct (find_spec FU n s gs (item a w) T Fu) as [o [H1 H2]]. exists o. split; [exact H1|]. destruct o as [x|].
  - destruct H2 as [H2 H3]. specialize (H3 HK). apply cmp_eq in H3. cbn [item valid rw last] in H3. destruct H3 as [H3 [H4 H5]].
    split; [exact H2|]. split; [symmetry; exact H3|]. split; symmetry; assumption.
  - intros i Hi V [L R]. apply (H2 HK i Hi). apply cmp_eq. cbn [item valid rw last]. split; [symmetry; exact V|]. split; symmetry; assumption.
Qed.

(** A tracker alone: any sequence of updates of any tracker with n >= 1 streams. *)
Record upd := { u_rq : rq; u_ins : bool }.
Fixpoint updates (fuel : nat) (s : sc) (l : list upd) : option sc :=
  match l with
  | [] => Some s
  | u :: l => match base_update fuel s (addr (u_rq u)) (len (u_rq u)) (wr (u_rq u)) (u_ins u) with
              | None => None
              | Some (s, _) => updates fuel s l
              end
  end.
Lemma updates_spec fuel n : (0 < n)%nat -> (n + 4 <= fuel)%nat -> forall l s gs, Tr n s gs ->
  exists s' gs', updates fuel s l = Some s' /\ Tr n s' gs' /\ (KS (str s) gs -> (forall u, In u l -> in_range (u_rq u)) -> KS (str s') gs').
Proof.
  intros Hn Fu. induction l as [|u l IH]; intros s gs T; cbn [updates].
  - exists s, gs. auto.
  - destruct (base_update_spec fuel n s gs (addr (u_rq u)) (len (u_rq u)) (wr (u_rq u)) (u_ins u) T Hn Fu) as [s1 [o [g1 [H1 [H2 [H3 _]]]]]].
    rewrite H1. destruct (IH s1 g1 H2) as [s' [gs' [K1 [K2 K3]]]]. exists s', gs'. split; [exact K1|]. split; [exact K2|].
    intros HK W. apply K3; [apply H3; [exact HK|apply W; cbn; auto]|intros v Hv; apply W; cbn; auto].
Qed.
Lemma FU_ge n : (n <= PERCORE)%nat -> (n + 4 <= FU)%nat.
Proof. unfold FU, fuel_for. generalize PERCORE. intros p H. nia. Qed.
Theorem C28_tracker_alone_partial : forall n l, (0 < n <= PERCORE)%nat -> (forall u, In u l -> in_range (u_rq u)) ->
  exists s0 s, base_init n = Some s0 /\ updates FU s0 l = Some s /\ exact s n /\ forall i, (i < n)%nat -> tracked s i -> found s i.
Proof.
  intros n l Hn W. destruct (base_init_spec n) as [s0 [g0 [H1 [H2 [H3 _]]]]].
  destruct (updates_spec FU n (proj1 Hn) (FU_ge n (proj2 Hn)) l s0 g0 H2) as [s [gs [K1 [K2 K3]]]].
  assert (X : exact s n) by (apply (Tr_exact s n gs); auto; apply FU_ge, Hn).
  exists s0, s. split; [exact H1|]. split; [exact K1|]. split; [exact X|]. intros i Hi V. now apply (exact_found s n).
Qed.

(** A core and a queue. *)
Definition Good (c q : nat) (K : Prop) (s : st2) : Prop :=
  exists gc gq, Tr c (core s) gc /\ Tr q (queue s) gq /\ (K -> KS (str (core s)) gc).
Lemma update_good c q (K : Prop) cf s r ic : (0 < c)%nat -> (0 < q)%nat -> (c + 4 <= FU)%nat -> (q + 4 <= FU)%nat -> (K -> in_range r) -> Good c q K s ->
  exists s', update FU cf s r ic = Some s' /\ Good c q K s'.
Proof.
  intros Hc Hq Fc Fq W G. unfold update.
  cbv zeta. set (pr := _ || (promotion_count cf =? 1)).
  assert (Q : forall s, Good c q K s -> exists s', queue_part FU cf r pr s = Some s' /\ Good c q K s').
  { clear s G. intros s [gc [gq [T1 [T2 HK]]]]. unfold queue_part. cbv zeta.
    destruct (base_update_spec FU q (queue s) gq (addr r) (len r) (wr r) true T2 Hq Fq) as [q' [o [gq' [H1 [H2 [_ [H3 H4]]]]]]]. rewrite H1.
    destruct o as [x|]; [|exfalso; now apply H3]. destruct (_ || (promotion_count cf <=? req_count (str q' x))).
    - destruct (base_promote_spec FU c q (core s) q' gc gq' x T1 H2 Hc Fc (H4 x eq_refl)) as [d' [s' [gd' [P1 [P2 [P3 P4]]]]]]. rewrite P1.
      eexists. split; [reflexivity|]. exists gd', gq'. cbn [core queue]. auto.
    - eexists. split; [reflexivity|]. exists gc, gq'. cbn [core queue]. auto. }
  destruct (ic || pr); [|apply Q; exact G]. destruct G as [gc [gq [T1 [T2 HK]]]].
  destruct (base_update_spec FU c (core s) gc (addr r) (len r) (wr r) pr T1 Hc Fc) as [d [o [gd [H1 [H2 [H3 _]]]]]]. rewrite H1.
  assert (G' : Good c q K {| core := d; queue := queue s |}).
  { exists gd, gq. cbn [core queue]. split; [exact H2|]. split; [exact T2|]. intro k. apply H3; [apply HK; exact k|apply W; exact k]. }
  destruct o as [x|]; [eexists; split; [reflexivity|exact G']|apply Q; exact G'].
Qed.
Lemma request_good c q (K : Prop) cf s r : (0 < c)%nat -> (0 < q)%nat -> (c + 4 <= FU)%nat -> (q + 4 <= FU)%nat -> (K -> in_range r) -> Good c q K s ->
  exists s', request FU cf s r = Some s' /\ Good c q K s'.
Proof.
  intros Hc Hq Fc Fq W G. unfold request, check. destruct G as [gc [gq [T1 [T2 HK]]]] eqn:EG.
  destruct (base_check_spec FU q (queue s) gq (addr r) (len r) (wr r) (threshold cf) T2 Fq) as [[b o] ->].
  destruct (base_check_spec FU c (core s) gc (addr r) (len r) (wr r) (threshold cf) T1 Fc) as [[b' o'] E'].
  destruct o as [x|]; [|rewrite E']; apply update_good; auto.
Qed.
Lemma requests_good c q (K : Prop) cf : (0 < c)%nat -> (0 < q)%nat -> (c + 4 <= FU)%nat -> (q + 4 <= FU)%nat ->
  forall l s, (K -> forall r, In r l -> in_range r) -> Good c q K s -> exists s', requests FU cf s l = Some s' /\ Good c q K s'.
Proof.
  intros Hc Hq Fc Fq. induction l as [|r l IH]; intros s W G; cbn [requests].
  - exists s. auto.
  - destruct (request_good c q K cf s r Hc Hq Fc Fq) as [s1 [H1 H2]]; auto; [intro k; apply W; cbn; auto|].
    rewrite H1. apply IH; auto. intros k u Hu. apply W; cbn; auto.
Qed.
Lemma start_good (K : Prop) : exists s0, start = Some s0 /\ Good PERCORE PERQUEUE K s0.
Proof.
  unfold start. generalize PERCORE, PERQUEUE. intros c q.
  destruct (base_init_spec c) as [sc [gc [H1 [H2 [H3 _]]]]]. destruct (base_init_spec q) as [sq [gq [K1 [K2 [K3 _]]]]]. rewrite H1, K1.
  eexists. split; [reflexivity|]. exists gc, gq. cbn [core queue]. auto.
Qed.
Lemma sizes : (0 < PERCORE)%nat /\ (0 < PERQUEUE)%nat /\ (PERCORE + 4 <= FU)%nat /\ (PERQUEUE + 4 <= FU)%nat.
Proof.
  split; [unfold PERCORE; lia|]. split; [unfold PERQUEUE; lia|]. split; apply FU_ge; [auto|]. unfold PERCORE, PERQUEUE. lia.
Qed.

(** Whatever the settings and the requests, the tracker of the core finds every stream it
    tracks, and nothing else. *)
Theorem C28_core_tracker_partial : forall c s0 l s, start = Some s0 -> (forall r, In r l -> in_range r) -> requests FU c s0 l = Some s ->
  exact (core s) PERCORE /\ forall i, (i < PERCORE)%nat -> tracked (core s) i -> found (core s) i.
Proof.
  intros c s0 l s S0 W R. destruct sizes as [Z1 [Z2 [Z3 Z4]]]. destruct (start_good True) as [s1 [S1 G]]. rewrite S0 in S1. injection S1 as <-.
  destruct (requests_good PERCORE PERQUEUE True c Z1 Z2 Z3 Z4 l s0 (fun _ => W) G) as [s2 [R2 [gc [gq [T1 [_ HK]]]]]]. rewrite R in R2. injection R2 as <-.
  assert (X : exact (core s) PERCORE) by (apply (Tr_exact _ _ gc); auto). split; [exact X|]. intros i Hi V. now apply (exact_found _ PERCORE).
Qed.

(** No sequence of requests, in any setting, makes a tracker fail (a null pointer, an endless
    loop, an empty list of streams), although promotions disturb the order of the keys. *)
Theorem C59_trackers_never_fail : forall c l, exists s0 s, start = Some s0 /\ requests FU c s0 l = Some s /\
  (forall r, exists d, check FU c s r = Some d).
Proof.
  intros c l. destruct sizes as [Z1 [Z2 [Z3 Z4]]]. destruct (start_good False) as [s0 [S0 G]].
  destruct (requests_good PERCORE PERQUEUE False c Z1 Z2 Z3 Z4 l s0 ltac:(tauto) G) as [s [R [gc [gq [T1 [T2 _]]]]]].
  exists s0, s. split; [exact S0|]. split; [exact R|]. intro r. unfold check.
  destruct (base_check_spec FU _ (queue s) gq (addr r) (len r) (wr r) (threshold c) T2 Z4) as [[b o] ->].
  destruct (base_check_spec FU _ (core s) gc (addr r) (len r) (wr r) (threshold c) T1 Z3) as [[b' o'] ->].
  destruct o; eauto.
Qed.
(** A look-up visits at most 14 nodes in the tracker of a core and 12 in that of a queue. *)
Theorem C59_trackers_balanced : forall c s, reachable c s ->
  (forall k x, walk (tree (core s)) k x -> (k < 14)%nat) /\ (forall k x, walk (tree (queue s)) k x -> (k < 12)%nat).
Proof.
  intros c s [s0 [l [S0 R]]]. destruct sizes as [Z1 [Z2 [Z3 Z4]]]. destruct (start_good False) as [s1 [S1 G]]. rewrite S0 in S1. injection S1 as <-.
  destruct (requests_good PERCORE PERQUEUE False c Z1 Z2 Z3 Z4 l s0 ltac:(tauto) G) as [s2 [R2 [gc [gq [T1 [T2 _]]]]]]. rewrite R in R2. injection R2 as <-.
  split; intros k x Wk.
  - assert (H := height_bound _ gc k x (proj1 T1) Wk). rewrite (Tr_len _ _ _ T1) in H. change (2 * Nat.log2 (S PERCORE))%nat with 14%nat in H. lia.
  - assert (H := height_bound _ gq k x (proj1 T2) Wk). rewrite (Tr_len _ _ _ T2) in H. change (2 * Nat.log2 (S PERQUEUE))%nat with 12%nat in H. lia.
Qed.

(** Cases: the core tracks the promoted stream; a tracker alone follows two interleaved streams. *)
Example C28_core_case : exists s, run0 l1 = Some s /\ tracked (core s) 0 /\ last (str (core s) 0) = 10493952 /\ forall r, In r l1 -> in_range r.
Proof.
  assert (H : holds (run0 l1) (fun s => valid (str (core s) 0) = true /\ last (str (core s) 0) = 10493952)) by (vm_compute; split; reflexivity).
  destruct (holds_ex _ _ _ H) as [s [E [V L]]]. exists s. split; [exact E|]. split; [exact V|]. split; [exact L|].
  intros r Hr. unfold in_range. cbn in Hr. repeat (destruct Hr as [<- |Hr]; [vm_compute; reflexivity|]). contradiction.
Qed.
Definition u0 : list upd := map (fun r => {| u_rq := r; u_ins := true |}) [rd 0 4096; rd 8192 4096; rd 4096 4096; rd 12288 4096].
Example C28_alone_case : holds (bindo (base_init 2) (fun s => updates FU s u0)) (fun s =>
  tracked s 0 /\ tracked s 1 /\ (last (str s 0), last (str s 1)) = (8192, 16384) /\ (bytes (str s 0), bytes (str s 1)) = (8192, 8192)).
Proof. vm_compute. repeat split. Qed.

Print Assumptions C28_promotion_loses_stream_refuted.
Print Assumptions C28_decision_lost_refuted.
Print Assumptions C28_longest_stream_refuted.
Print Assumptions C28_tracker_alone_partial.
Print Assumptions C28_core_tracker_partial.
Print Assumptions C59_trackers_never_fail.
Print Assumptions C59_trackers_balanced.

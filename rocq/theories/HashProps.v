(** C16 - hash bucket locks are taken once each in ascending order. *)
From Coq Require Import Arith NArith List Bool Lia Sorted.
From Verif Require Import HashModel HashProofs.
Import ListNotations.
Open Scope N_scope.

(** A request of [count] core lines starting at [first] on a cache with [entries]
    buckets; sizes small enough that no 32/64-bit operation of the code wraps. *)
Definition valid_hash_request (r : hreq) : Prop :=
  0 < h_entries r /\ 0 < h_count r /\ h_entries r + h_count r < 2^32 /\
  h_first r + h_count r + 2^32 <= 2^64.

(** Bucket [b] belongs to some core line of the request. *)
Definition bucket_of_request (r : hreq) (b : N) : Prop :=
  exists core_line, h_first r <= core_line < h_first r + h_count r /\
    b = hash_func (h_entries r) (h_core r) core_line.

Lemma bucket_iff r b : req_bucket r b <-> bucket_of_request r b.
Proof.
  unfold req_bucket, bucket_of_request, map_hash. split.
  - intros (i & Hi & ->). exists (h_first r + i). split; [lia|reflexivity].
  - intros (c & Hc & ->). exists (c - h_first r). split; [lia|]. f_equal. lia.
Qed.

Theorem C16_buckets_ascending_exact r :
  valid_hash_request r ->
  exists l, for_each_req_hash_asc r = Some l /\
    StronglySorted N.lt l /\ NoDup l /\
    (forall b, In b l <-> bucket_of_request r b).
Proof.
  intros H. destruct (for_each_ok r H) as (l & E & S & I).
  exists l. split; [exact E|]. split; [exact S|]. split.
  - clear -S. induction S; constructor; [|assumption].
    intros Hin. rewrite Forall_forall in H. specialize (H _ Hin). lia.
  - intros b. rewrite I. apply bucket_iff.
Qed.

Theorem C16_in_range_exact r core_id core_line :
  valid_hash_request r ->
  req_hash_in_range r core_id core_line = true <->
  bucket_of_request r (hash_func (h_entries r) core_id core_line).
Proof. intros H. rewrite in_range_ok by exact H. apply bucket_iff. Qed.

(** Concurrent requests: each one is a list of (mode, request) phases. *)
Definition locking_phase (ph : phase) : Prop :=
  exists r, valid_hash_request r /\ for_each_req_hash_asc r = Some (ph_buckets ph).

Theorem C16_no_deadlock (progs : list (list phase)) s :
  Forall (Forall locking_phase) progs ->
  sys_reach (map start_proc progs) s ->
  (* no two requests hold a bucket in conflicting modes *)
  (forall i j p q b, i <> j -> nth_error s i = Some p -> nth_error s j = Some q ->
     In b (p_held p) -> In b (p_held q) -> p_mode p = RD /\ p_mode q = RD) /\
  (* and unless all are finished one of them can continue *)
  ((exists p, In p s /\ finished p = false) -> exists i s', sys_step s i = Some s').
Proof.
  intros Hp R.
  assert (I : sys_ok s /\ sys_excl s).
  { induction R as [|s i s' R IH E].
    - split.
      + unfold sys_ok. apply Forall_map. eapply Forall_impl; [|exact Hp].
        intros l Hl. apply start_ok. eapply Forall_impl; [|exact Hl].
        intros ph (r & Hr & E). unfold phase_ok.
        destruct (for_each_ok r Hr) as (l' & E' & S & _). congruence.
      + intros i j p q _ Hi Hj b Hb. exfalso.
        rewrite nth_error_map in Hi. destruct (nth_error progs i) as [l|]; [|discriminate].
        injection Hi as <-. destruct l; exact Hb.
    - destruct IH. split; [now apply (sys_step_ok s i)|now apply (sys_step_excl s i)]. }
  destruct I as [I1 I2]. split.
  - intros i j p q b Hij Hi Hj. now apply (I2 i j p q).
  - now apply progress.
Qed.

(** No schedule is infinite, so every request gets all its locks under any
    scheduler that keeps running runnable requests. *)
Fixpoint run_length (s : list proc) (sched : list nat) : nat :=
  match sched with
  | [] => O
  | i :: t => match sys_step s i with Some s' => S (run_length s' t) | None => run_length s t end
  end.

Theorem C16_terminates (progs : list (list phase)) :
  exists bound, forall sched, (run_length (map start_proc progs) sched <= bound)%nat.
Proof.
  exists (sys_size (map start_proc progs)). intros sched.
  generalize (map start_proc progs). induction sched as [|i t IH]; intros s; simpl; [lia|].
  destruct (sys_step s i) as [s'|] eqn:E; [|apply IH].
  apply sys_step_size in E. specialize (IH s'). lia.
Qed.

(** Non-vacuity: the examples of the comment in the C source, and two requests
    that overlap in opposite directions. *)
Definition ex (first count : N) := {| h_entries := 5; h_core := 0; h_first := first; h_count := count |}.
Example C16_example1 :
  valid_hash_request (ex 2 4) /\
  for_each_req_hash_asc (ex 2 3) = Some [2;3;4] /\
  for_each_req_hash_asc (ex 2 4) = Some [0;2;3;4] /\
  for_each_req_hash_asc (ex 2 10) = Some [0;1;2;3;4] /\
  for_each_req_hash_asc (ex 4 2) = Some [0;4].
Proof. split; [unfold valid_hash_request; cbn [h_entries h_core h_first h_count ex]; lia|]. vm_compute. tauto. Qed.

Definition ex_progs : list (list phase) :=
  [ [ {| ph_mode := RD; ph_buckets := [0;4] |}; {| ph_mode := WR; ph_buckets := [0;4] |} ];
    [ {| ph_mode := WR; ph_buckets := [0;2;3;4] |} ] ].
Example C16_example2 : Forall (Forall locking_phase) ex_progs.
Proof.
  assert (V : forall f c, f <= 10 -> 0 < c <= 10 -> valid_hash_request (ex f c))
    by (intros; unfold valid_hash_request; cbn [h_entries h_core h_first h_count ex]; lia).
  repeat constructor; [exists (ex 4 2)|exists (ex 4 2)|exists (ex 2 4)];
    (split; [apply V; lia|reflexivity]).
Qed.

Print Assumptions C16_buckets_ascending_exact.
Print Assumptions C16_in_range_exact.
Print Assumptions C16_no_deadlock.
Print Assumptions C16_terminates.

(** C18: management pipelines. *)
From Coq Require Import ZArith List Bool Arith Lia.
From Verif Require Import PipelineModel.
Import ListNotations.
Open Scope nat_scope.

(** ** Specification *)

(** The handler calls of one step: its number, and the argument numbers before the
    terminator. *)
Fixpoint argcalls (k a : nat) (args : list bool) : list (nat * nat) :=
  match args with true :: t => (k, a) :: argcalls k (S a) t | _ => [] end.
Definition stepcalls (pred : nat -> bool) (k : nat) (p : pstep) : list (nat * nat) :=
  match p with
  | Single => [(k, 0)]
  | Cond => if pred k then [(k, 0)] else []
  | Foreach args => argcalls k 0 args
  | Term => []
  end.
(** All handler calls of a pipeline that runs to its end, in order. *)
Fixpoint plan (pred : nat -> bool) (k : nat) (steps : list pstep) : list (nat * nat) :=
  match steps with
  | [] | Term :: _ => []
  | p :: t => stepcalls pred k p ++ plan pred (S k) t
  end.
(** The arrays have their terminators. *)
Definition wf (steps : list pstep) : Prop := In Term steps /\ forall args, In (Foreach args) steps -> In false args.
Definition prefix {A} (a b : list A) : Prop := exists c, b = a ++ c.
(** ** Proofs *)
Section P.
Variables (steps : list pstep) (pred : nat -> bool).
Hypothesis WF : wf steps.

(** What is still to be called from (step, argument) on. *)
Definition rest (ns na : nat) : list (nat * nat) :=
  match nth_error steps ns with
  | Some (Foreach args) => argcalls ns na (skipn na args) ++ plan pred (S ns) (skipn (S ns) steps)
  | _ => plan pred ns (skipn ns steps)
  end.

Definition inside (ns : nat) : Prop := In Term (skipn ns steps).
Definition okpos (ns na : nat) : Prop :=
  inside ns /\ match nth_error steps ns with Some (Foreach args) => In false (skipn na args) | _ => na = 0 end.

Lemma skipn_cons : forall A (l : list A) n x, nth_error l n = Some x -> skipn n l = x :: skipn (S n) l.
Proof. induction l as [|a l IH]; intros [|n] x H; cbn in *; try discriminate; [congruence|]. rewrite (IH n x H). destruct l; reflexivity. Qed.

Lemma inside_nth : forall ns, inside ns -> exists p, nth_error steps ns = Some p.
Proof.
  intros ns H. unfold inside in H. destruct (nth_error steps ns) eqn:E; [eauto|]. apply nth_error_None in E. rewrite skipn_all2 in H by auto. easy.
Qed.
Lemma inside_next : forall ns p, inside ns -> nth_error steps ns = Some p -> p <> Term -> inside (S ns).
Proof. intros ns p H E Hp. unfold inside in *. rewrite (skipn_cons _ _ _ _ E) in H. destruct H; [congruence|auto]. Qed.

Lemma okpos_0 : forall ns, inside ns -> okpos ns 0.
Proof.
  intros ns H. split; auto. destruct (nth_error steps ns) as [[| |args|]|] eqn:E; auto. cbn. destruct WF as [_ W]. apply W. eapply nth_error_In; eauto.
Qed.
Lemma rest_plan : forall ns, rest ns 0 = plan pred ns (skipn ns steps).
Proof.
  intros ns. unfold rest. destruct (nth_error steps ns) as [[| |args|]|] eqn:E; auto. rewrite (skipn_cons _ _ _ _ E). reflexivity.
Qed.

(** What the loop does. *)
Lemma loop_spec : forall fuel ns na s, okpos ns na -> length steps - ns < fuel ->
  (exists k a ns' na', rest ns na = (k, a) :: rest ns' na' /\ okpos ns' na' /\ loop steps pred fuel ns na s = Ok (call_hndl s ns' na' k a))
  \/ (exists ns' na', rest ns na = [] /\ rest ns' na' = [] /\ okpos ns' na' /\ loop steps pred fuel ns na s = Ok (call_finish s ns' na')).
Proof.
  induction fuel as [|fuel IH]; intros ns na s [HI HO] HF; [lia|]. cbn [loop]. destruct (inside_nth ns HI) as (p & E).
  assert (HL : ns < length steps) by (apply nth_error_Some; congruence). rewrite E in *.
  assert (HR : rest ns na = match p with Foreach args => argcalls ns na (skipn na args) ++ rest (S ns) 0 | _ => plan pred ns (skipn ns steps) end).
  { unfold rest at 1. rewrite E. destruct p; auto. now rewrite rest_plan. }
  destruct p as [| |args|].
  - left. exists ns, 0, (S ns), 0. subst na. rewrite HR, rest_plan, (skipn_cons _ _ _ _ E). split; [reflexivity|]. split; auto.
    apply okpos_0. eapply inside_next; eauto. discriminate.
  - assert (HN : okpos (S ns) 0) by (apply okpos_0; eapply inside_next; eauto; discriminate). subst na.
    rewrite HR, (skipn_cons _ _ _ _ E). cbn [plan stepcalls]. rewrite <- rest_plan. destruct (pred ns).
    + left. exists ns, 0, (S ns), 0. split; [reflexivity|]. auto.
    + cbn [app]. apply IH; auto. lia.
  - assert (HN : okpos (S ns) 0) by (apply okpos_0; eapply inside_next; eauto; discriminate).
    destruct (nth_error args na) as [[|]|] eqn:EA.
    + left. exists ns, na, ns, (S na). rewrite HR. rewrite (skipn_cons _ _ _ _ EA). cbn [argcalls app]. split.
      * rewrite rest_plan. unfold rest. rewrite E. reflexivity.
      * split; auto. split; auto. rewrite E. rewrite (skipn_cons _ _ _ _ EA) in HO. destruct HO; [discriminate|auto].
    + rewrite HR, (skipn_cons _ _ _ _ EA). cbn [argcalls app]. apply IH; auto. lia.
    + apply nth_error_None in EA. rewrite skipn_all2 in HO by auto. easy.
  - right. exists ns, na. rewrite HR, (skipn_cons _ _ _ _ E). cbn [plan]. subst na. split; [auto|]. split; [auto|]. split; [|auto]. split; auto. now rewrite E.
Qed.

Record Inv (s : st) : Prop := {
  i_plan : trace s ++ rest (next_step s) (next_arg s) = plan pred 0 steps;
  i_pos : okpos (next_step s) (next_arg s);
  i_one : queued s + waiting s + length (done s) = 1;
  i_rep : reports s = if fin s then [error s] else [];
  i_err : fin s = false -> error s = 0%Z;
  i_wait : fin s = true -> waiting s = 0;
  i_done : forall e, done s = [e] -> e = error s /\ (fin s = false -> rest (next_step s) (next_arg s) = [])
}.

Lemma start_inv : Inv start.
Proof.
  constructor; cbn; auto; try discriminate.
  - rewrite rest_plan. reflexivity.
  - apply okpos_0. unfold inside. cbn. apply WF.
Qed.

Definition measure (s : st) : nat :=
  match done s with
  | _ :: _ => 0
  | [] => if fin s then 1 else 2 * length (rest (next_step s) (next_arg s)) + 1 + waiting s
  end.

Theorem step_inv : forall e s, Inv s ->
  match step steps pred e s with Bug => False | Blocked => True | Ok s' => Inv s' /\ measure s' < measure s end.
Proof.
  intros e s [I1 I2 I3 I4 I5 I6 I7]. destruct e; cbn [step].
  - (* Run *)
    destruct (Nat.eqb_spec (queued s) 0) as [|HQ]; auto. assert (HD : done s = []) by (destruct (done s); auto; cbn in I3; lia).
    rewrite HD in *. cbn [length] in I3.
    unfold run_step. cbn [pop fin next_step next_arg]. destruct (fin s) eqn:EF.
    + split.
      * constructor; cbn; rewrite ?EF, ?HD; auto; try discriminate.
        { cbn. lia. }
        { intros e He. inversion He. split; auto. discriminate. }
      * unfold measure. cbn. rewrite HD, EF. cbn. lia.
    + destruct (loop_spec (S (length steps)) (next_step s) (next_arg s) (pop s) I2 ltac:(lia)) as [(k & a & ns' & na' & ER & EO & EL)|(ns' & na' & ER & ER' & EO & EL)]; rewrite EL.
      * split.
        { constructor; cbn; rewrite ?EF, ?HD; auto; try discriminate; try (intros; discriminate).
          - rewrite <- app_assoc. cbn. rewrite <- ER. exact I1.
          - cbn. lia. }
        { unfold measure. cbn. rewrite HD, EF, ER. cbn. lia. }
      * split.
        { constructor; cbn; rewrite ?EF, ?HD; auto; try discriminate.
          - rewrite ER'. rewrite ER in I1. exact I1.
          - cbn. lia.
          - intros e He. inversion He. auto. }
        { unfold measure. cbn. rewrite HD, EF. cbn. lia. }
  - (* Next *)
    destruct (Nat.eqb_spec (waiting s) 0) as [|HW]; auto. assert (HD : done s = []) by (destruct (done s); auto; cbn in I3; lia). rewrite HD in *. cbn [length] in I3.
    assert (EF : fin s = false) by (destruct (fin s); auto; lia).
    split.
    + constructor; cbn; rewrite ?HD; auto; try (intros; discriminate). cbn. lia. rewrite EF; discriminate.
    + unfold measure. cbn. rewrite HD, EF. lia.
  - (* Finish *)
    destruct (Nat.eqb_spec (waiting s) 0) as [|HW]; auto. assert (HD : done s = []) by (destruct (done s); auto; cbn in I3; lia). rewrite HD in *. cbn [length] in I3.
    assert (EF : fin s = false) by (destruct (fin s); auto; lia).
    split.
    + constructor; cbn; rewrite ?HD; auto; try (intros; discriminate).
      * cbn. lia.
      * rewrite I4, EF. reflexivity.
      * intros _. lia.
    + unfold measure. cbn. rewrite HD, EF. lia.
Qed.

Theorem run_inv : forall evs s, Inv s -> exists s', run steps pred evs s = Ok s' /\ Inv s'.
Proof.
  induction evs as [|e evs IH]; intros s HI; cbn [run]; [eauto|]. pose proof (step_inv e s HI) as H. destruct (step steps pred e s); [auto|easy|]. apply IH. tauto.
Qed.
End P.

(** ** C18 *)
Section C18.
Variables (steps : list pstep) (pred : nat -> bool).

Lemma reach : wf steps -> forall evs s, run steps pred evs start = Ok s -> Inv steps pred s.
Proof. intros WF evs s H. destruct (run_inv steps pred WF evs start (start_inv steps pred WF)) as (s' & E & HI). congruence. Qed.

(** Steps run in order: the handler calls made are the first ones of the plan. *)
Theorem C18_in_order : wf steps -> forall evs, exists s, run steps pred evs start = Ok s /\ prefix (trace s) (plan pred 0 steps).
Proof.
  intros WF evs. destruct (run_inv steps pred WF evs start (start_inv steps pred WF)) as (s & E & HI). exists s. split; auto.
  eexists. symmetry. exact (i_plan _ _ _ HI).
Qed.

(** The finish handler is called at most once, with the error that was reported, or with
    success after all steps. *)
Theorem C18_finish_once : wf steps -> forall evs s, run steps pred evs start = Ok s ->
  length (done s) <= 1 /\ length (reports s) <= 1 /\
  forall e, In e (done s) -> (reports s = [e]) \/ (reports s = [] /\ e = 0%Z /\ trace s = plan pred 0 steps).
Proof.
  intros WF evs s H. pose proof (reach WF evs s H) as [I1 I2 I3 I4 I5 I6 I7]. split; [lia|]. split; [rewrite I4; destruct (fin s); cbn; lia|].
  intros e He. destruct (done s) as [|e' [|]] eqn:ED; [easy| |cbn in I3; lia]. destruct He as [->|[]]. destruct (I7 e eq_refl) as [-> HR].
  destruct (fin s) eqn:EF; [left; auto|right]. split; auto. split; auto. rewrite HR in I1 by auto. rewrite app_nil_r in I1. exact I1.
Qed.

(** After a report no handler is called. *)
Theorem C18_stops : wf steps -> forall evs s e s', run steps pred evs start = Ok s -> reports s <> [] -> step steps pred e s = Ok s' -> trace s' = trace s.
Proof.
  intros WF evs s e s' H HR HS. pose proof (reach WF evs s H) as [I1 I2 I3 I4 I5 I6 I7].
  assert (EF : fin s = true) by (destruct (fin s); auto; congruence).
  destruct e; cbn [step] in HS.
  - destruct (queued s =? 0); [discriminate|]. unfold run_step in HS. cbn [pop fin] in HS. rewrite EF in HS. inversion HS. reflexivity.
  - rewrite (I6 EF) in HS. discriminate.
  - rewrite (I6 EF) in HS. discriminate.
Qed.

(** It always gets there: while the finish handler was not called, the queue or the
    handler that was called can go on; and every step brings the end nearer. *)
Theorem C18_can_go_on : wf steps -> forall evs s, run steps pred evs start = Ok s -> done s = [] ->
  exists e s', step steps pred e s = Ok s'.
Proof.
  intros WF evs s H HD. pose proof (reach WF evs s H) as HI. pose proof HI as [I1 I2 I3 I4 I5 I6 I7]. rewrite HD in I3. cbn in I3.
  destruct (queued s) eqn:EQ.
  - exists Next. cbn [step]. destruct (waiting s); [lia|]. cbn. eauto.
  - exists Run. pose proof (step_inv steps pred WF Run s HI) as HS. destruct (step steps pred Run s) eqn:ES; [|easy|eauto].
    exfalso. cbn [step] in ES. rewrite EQ in ES. cbn [Nat.eqb] in ES. unfold run_step in ES.
    destruct (fin (pop s)); [discriminate|]. cbn [pop next_step next_arg] in ES.
    destruct (loop_spec steps pred WF (S (length steps)) (next_step s) (next_arg s) (pop s) I2 ltac:(lia)) as [(k & a & ns' & na' & ER & EO & EL)|(ns' & na' & ER & ER' & EO & EL)];
      rewrite EL in ES; discriminate.
Qed.
Inductive steps_to : nat -> st -> st -> Prop :=
| st_0 : forall s, steps_to 0 s s
| st_S : forall n e s s1 s2, step steps pred e s = Ok s1 -> steps_to n s1 s2 -> steps_to (S n) s s2.
Theorem C18_bounded : wf steps -> forall n s, steps_to n start s -> n <= 2 * length (plan pred 0 steps) + 1.
Proof.
  intros WF n s H.
  assert (HG : forall n s0 s, steps_to n s0 s -> Inv steps pred s0 -> n <= measure steps pred s0).
  { clear n s H. induction 1 as [|n e s s1 s2 HS HT IH]; intros HI; [lia|].
    pose proof (step_inv steps pred WF e s HI) as H. rewrite HS in H. destruct H as [H1 H2]. specialize (IH H1). lia. }
  specialize (HG n start s H (start_inv steps pred WF)). unfold measure in HG. cbn in HG. rewrite rest_plan in HG. cbn [skipn] in HG. lia.
Qed.
End C18.

(** ** Case *)
Definition ex_steps : list pstep := [Single; Cond; Cond; Foreach [true; true; false; true]; Single; Term].
Definition ex_pred (k : nat) : bool := k =? 2.
Example C18_case : wf ex_steps /\ plan ex_pred 0 ex_steps = [(0, 0); (2, 0); (3, 0); (3, 1); (4, 0)] /\
  (match run ex_steps ex_pred [Run; Next; Next; Run; Next; Run; Next; Run; Next; Run; Next; Run] start with
   | Ok s => trace s = plan ex_pred 0 ex_steps /\ done s = [0%Z] /\ reports s = [] | _ => False end) /\
  (match run ex_steps ex_pred [Run; Next; Run; Finish (-5)%Z; Next; Run; Run; Next] start with
   | Ok s => trace s = [(0, 0); (2, 0)] /\ done s = [(-5)%Z] /\ reports s = [(-5)%Z] | _ => False end).
Proof.
  split; [split; [cbn; auto 10|]|vm_compute; auto]. intros args H. cbn in H. repeat (destruct H as [H|H]; [try discriminate|]); try easy. inversion H. cbn. auto.
Qed.

Print Assumptions C18_in_order.
Print Assumptions C18_finish_once.
Print Assumptions C18_stops.
Print Assumptions C18_can_go_on.
Print Assumptions C18_bounded.

(** C38 - I/O queues. *)
From Coq Require Import List Bool Arith Lia Permutation.
From Verif Require Import QueueModel.
Import ListNotations.

(** The requests of one priority, in the order of the list *)
Definition of_prio (p : bool) (l : list (nat * bool)) : list nat := map fst (filter (fun x => Bool.eqb (snd x) p) l).
Definition waiting (p : bool) (s : st) : list nat := if p then high s else low s.

Lemma of_prio_app p a b : of_prio p (a ++ b) = of_prio p a ++ of_prio p b.
Proof. unfold of_prio. rewrite filter_app, map_app. reflexivity. Qed.

(** What holds after every history *)
Record Inv (s : st) : Prop := {
  i_cnt : io_no s = length (high s) + length (low s);
  i_fifo : forall p, of_prio p (pushed s) = of_prio p (done s) ++ waiting p s;
  i_nodup : NoDup (high s ++ low s);
  i_live : high s ++ low s <> [] -> 0 < owed s \/ kicked s = true \/ exists t, w s t <> Idle }.

Lemma mem_spec x l : mem x l = true <-> In x l.
Proof. unfold mem. rewrite existsb_exists. split; [intros (y & Hy & E); apply Nat.eqb_eq in E; subst; exact Hy | intros H; exists x; split; [exact H | apply Nat.eqb_refl]]. Qed.

Lemma pop_inv s : Inv s -> forall r s', pop s = (r, s') -> io_no s' = length (high s') + length (low s') /\ (forall p, of_prio p (pushed s') = of_prio p (done s') ++ waiting p s') /\ NoDup (high s' ++ low s') /\ w s' = w s.
Proof.
  intros [C F N L] r s' E. unfold pop in E. destruct (high s) as [|h hs] eqn:Eh; [destruct (low s) as [|l ls] eqn:El|]; injection E as <- <-.
  - rewrite Eh, El in *. split; [exact C|]. split; [exact F|]. split; [exact N | reflexivity].
  - cbn [io_no high low pushed done w]. cbn [length app] in *. split; [lia|]. split; [|split; [apply NoDup_cons_iff in N; apply N | reflexivity]].
    intros p. specialize (F p). rewrite of_prio_app, <- app_assoc. destruct p; cbn [waiting high low] in *; rewrite ?Eh, ?El in F; rewrite F, ?app_nil_r; reflexivity.
  - cbn [io_no high low pushed done w]. cbn [length app] in *. split; [lia|]. split; [|split; [apply NoDup_cons_iff in N; apply N | reflexivity]].
    intros p. specialize (F p). rewrite of_prio_app, <- app_assoc. destruct p; cbn [waiting high low] in *; rewrite ?Eh in F; rewrite F; reflexivity.
Qed.
Lemma step_inv e s s' : Inv s -> step e s = Some s' -> Inv s'.
Proof.
  intros I E. destruct e as [r p| |t|t]; cbn [step] in E.
  - unfold push in E. destruct (mem r (high s ++ low s)) eqn:M; [discriminate|]. injection E as <-. destruct I as [C F N L]. assert (Nr : ~ In r (high s ++ low s)) by (rewrite <- mem_spec, M; discriminate).
    constructor; cbn [io_no high low owed kicked w pushed done].
    + destruct p; rewrite app_length; cbn [length]; lia.
    + intros q. rewrite of_prio_app. rewrite F, <- app_assoc. f_equal. destruct p, q; cbn [waiting high low]; try reflexivity; unfold of_prio; cbn; apply app_nil_r.
    + destruct p.
      * rewrite <- app_assoc. apply NoDup_Add with (a := r) (l := high s ++ low s); [apply Add_app | split; assumption].
      * rewrite app_assoc. apply NoDup_Add with (a := r) (l := high s ++ low s); [rewrite <- (app_nil_r (high s ++ low s)) at 1; apply Add_app | split; assumption].
    + intros _. left. lia.
  - destruct (owed s) as [|o] eqn:Eo; [discriminate|]. injection E as <-. destruct I as [C F N L]. constructor; cbn; try assumption. intros _. right. left. reflexivity.
  - destruct (w s t) eqn:Ew; try discriminate. injection E as <-. destruct I as [C F N L]. constructor; cbn; try assumption. intros _. right. right. exists t. unfold upd. rewrite Nat.eqb_refl. discriminate.
  - destruct (w s t) eqn:Ew; [discriminate| |].
    + injection E as <-. destruct I as [C F N L]. constructor; cbn; try assumption. intros H. destruct (io_no s) as [|n] eqn:Ei.
      * exfalso. apply H. destruct (high s), (low s); try reflexivity; cbn in C; lia.
      * cbn [Nat.ltb Nat.leb]. right. right. exists t. unfold upd. rewrite Nat.eqb_refl. discriminate.
    + injection E as <-. destruct (pop s) as [r s1] eqn:Ep. destruct (pop_inv s I r s1 Ep) as (C & F & N & W). cbn [snd]. constructor; cbn; try assumption.
      intros _. right. right. exists t. unfold upd. rewrite Nat.eqb_refl. discriminate.
Qed.
Lemma init_inv : Inv init.
Proof. constructor; cbn; try reflexivity; [intros []; reflexivity | constructor | intros []; reflexivity]. Qed.
Lemma run_inv es : forall s s', Inv s -> run es s = Some s' -> Inv s'.
Proof.
  induction es as [|e es IH]; intros s s' I E; cbn [run] in E; [injection E as <-; exact I|]. destruct (step e s) as [s1|] eqn:E1; [|discriminate]. exact (IH s1 s' (step_inv e s s1 I E1) E).
Qed.

(** C38: for each priority, the pushes in order are the requests taken, in order, followed by those waiting *)
Theorem C38_fifo es s p : run es init = Some s -> of_prio p (pushed s) = of_prio p (done s) ++ waiting p s.
Proof. intros E. apply (i_fifo s (run_inv es init s init_inv E)). Qed.
(** ... so each pushed request is taken exactly once or is waiting *)
Lemma split_prio l : Permutation (map fst l) (of_prio true l ++ of_prio false l).
Proof.
  induction l as [|[r p] l IH]; [reflexivity|]. unfold of_prio in *. cbn [map fst filter snd]. destruct p; cbn [Bool.eqb map fst app].
  - apply perm_skip. exact IH.
  - rewrite IH. apply Permutation_middle.
Qed.
Theorem C38_once es s : run es init = Some s -> Permutation (map fst (pushed s)) (map fst (done s) ++ high s ++ low s).
Proof.
  intros E. rewrite (split_prio (pushed s)), (split_prio (done s)), !(C38_fifo es s _ E). cbn [waiting]. rewrite <- !app_assoc. apply Permutation_app_head.
  rewrite !app_assoc. apply Permutation_app_tail. apply Permutation_app_comm.
Qed.
(** The reported number of pending requests is exact *)
Theorem C38_pending es s : run es init = Some s -> pending s = length (high s ++ low s) /\ length (pushed s) = length (done s) + pending s.
Proof.
  intros E. pose proof (i_cnt s (run_inv es init s init_inv E)) as C. unfold pending. rewrite app_length. split; [exact C|].
  pose proof (Permutation_length (C38_once es s E)) as P. rewrite !app_length, !map_length in P. lia.
Qed.
(** A request taken is the oldest of its priority, and a low priority one only when no high priority one waits *)
Theorem C38_priority es s t s' : run es init = Some s -> w s t = Pop -> step (Step t) s = Some s' ->
  match high s ++ low s with
  | [] => done s' = done s
  | r :: _ => exists p, done s' = done s ++ [(r, p)] /\ (p = false -> high s = []) /\ exists rest, waiting p s = r :: rest
  end.
Proof.
  intros _ W E. cbn [step] in E. rewrite W in E. injection E as <-. unfold pop. destruct (high s) as [|h hs] eqn:Eh; [destruct (low s) as [|l ls] eqn:El|]; cbn [app snd setw done].
  - reflexivity.
  - exists false. split; [reflexivity|]. split; [reflexivity|]. exists ls. exact El.
  - exists true. split; [reflexivity|]. split; [discriminate|]. exists hs. exact Eh.
Qed.
(** No request is forgotten: while requests wait, a thread runs the queue, or a kick has not been answered or is to come *)
Theorem C38_awake es s : run es init = Some s -> high s ++ low s <> [] -> 0 < owed s \/ kicked s = true \/ exists t, w s t <> Idle.
Proof. intros E. apply (i_live s (run_inv es init s init_inv E)). Qed.
(** ... and a thread that runs the queue takes all requests *)
Lemma drain t n : forall s, io_no s = n -> io_no s = length (high s) + length (low s) -> w s t = Check -> exists s', run (repeat (Step t) (2 * n + 1)) s = Some s' /\ high s' = [] /\ low s' = [] /\ w s' t = Idle /\ pushed s' = pushed s.
Proof.
  induction n as [|n IH]; intros s En C W.
  - exists (setw t Idle s). cbn [Nat.mul Nat.add repeat run step]. rewrite W, En. cbn [Nat.ltb Nat.leb]. split; [reflexivity|].
    destruct (high s) as [|h hs] eqn:Eh; [|cbn in C; lia]. destruct (low s) as [|l ls] eqn:El; [|cbn in C; lia]. cbn. unfold upd. rewrite Nat.eqb_refl. auto.
  - replace (2 * S n + 1) with (S (S (2 * n + 1))) by lia. change (repeat (Step t) (S (S (2 * n + 1)))) with (Step t :: Step t :: repeat (Step t) (2 * n + 1)).
    set (s1 := setw t Pop s). assert (E1 : step (Step t) s = Some s1) by (cbn [step]; rewrite W, En; reflexivity).
    assert (W1 : w s1 t = Pop) by (cbn; unfold upd; rewrite Nat.eqb_refl; reflexivity).
    assert (P : exists r s2, pop s1 = (Some r, s2) /\ io_no s2 = n /\ io_no s2 = length (high s2) + length (low s2) /\ pushed s2 = pushed s).
    { unfold pop. cbn [s1 setw high low]. destruct (high s) as [|h hs] eqn:Eh; [destruct (low s) as [|l ls] eqn:El|]; [cbn in C; lia | |];
      do 2 eexists; (split; [reflexivity|]); subst s1; unfold setw; cbn [io_no high low pushed length] in *; (split; [lia|]); (split; [lia | reflexivity]). }
    destruct P as (r & s2 & Ep & En2 & C2 & Pu). set (s3 := setw t Check s2). assert (E2 : step (Step t) s1 = Some s3) by (cbn [step]; rewrite W1, Ep; reflexivity).
    destruct (IH s3 En2 C2) as (s' & E & H1 & H2 & H3 & H4); [cbn; unfold upd; rewrite Nat.eqb_refl; reflexivity|].
    exists s'. cbn [run]. rewrite E1. cbn [run]. rewrite E2. split; [exact E|]. rewrite H4. auto.
Qed.
Theorem C38_drained es s t : run es init = Some s -> w s t = Check -> exists k s', run (repeat (Step t) k) s = Some s' /\ w s' t = Idle /\ Permutation (map fst (done s')) (map fst (pushed s)).
Proof.
  intros E W. pose proof (run_inv es init s init_inv E) as I. destruct (drain t (io_no s) s eq_refl (i_cnt s I) W) as (s' & E' & H1 & H2 & H3 & H4). exists (2 * io_no s + 1), s'. split; [exact E'|]. split; [exact H3|].
  assert (R : run (es ++ repeat (Step t) (2 * io_no s + 1)) init = Some s').
  { clear - E E'. revert E. generalize init. induction es as [|e es IH]; intros s0 E; cbn [run app] in *; [injection E as ->; exact E'|]. destruct (step e s0) as [s1|]; [|discriminate]. apply IH. exact E. }
  pose proof (C38_once _ s' R) as P. rewrite H1, H2, H4, !app_nil_r in P. symmetry. exact P.
Qed.

(** Two threads, five requests *)
Definition hist : list event := [Push 1 false; Kick; Start 0; Push 2 false; Push 3 true; Step 0; Step 0; Push 4 true; Kick; Start 1; Step 1; Step 0; Step 1; Push 5 true; Step 0].
Example C38_case : option_map (fun s => (done s, high s, low s, pending s)) (run hist init) = Some ([(3, true); (4, true); (5, true)], [], [1; 2], 2).
Proof. vm_compute. reflexivity. Qed.

Print Assumptions C38_fifo.
Print Assumptions C38_once.
Print Assumptions C38_pending.
Print Assumptions C38_priority.
Print Assumptions C38_awake.
Print Assumptions C38_drained.

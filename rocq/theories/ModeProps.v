(** C36 mode resolution, C48 fallback pass-through, C53 fast submission path. *)
From Coq Require Import NArith List Bool Lia.
From Verif Require Import DpModel DpProofs DpInv DpEng DpEng2 DpEng3 DpEng4 DpProps ModeModel.
Import ListNotations.
Open Scope N_scope.

(** ** C36 *)
Definition configured (e : menv) : mode :=
  match class_mode e with Some m => m | None => cfg_mode e end.

(** One of the documented reasons to bypass the cache. *)
Definition bypass (e : menv) (q : mreq) : Prop :=
  (0 < thr e /\ thr e <= cnt e) \/ attach_pt e = true \/
  (pt_unal e = true /\ ~ (m_addr q mod 4096 = 0 /\ m_bytes q mod 4096 = 0)) \/
  cache_lines e < m_lines q \/ m_seq q = true.

Lemma bypass_resolve e q : bypass e q -> fst (resolve e q) = PT.
Proof.
  unfold resolve, bypass, fallback_on, is_4k. intros H.
  destruct (N.eqb_spec (thr e) 0), (N.leb_spec (thr e) (cnt e)), (attach_pt e); try reflexivity;
  destruct (pt_unal e); cbn [andb]; try reflexivity;
  destruct (N.eqb_spec (m_addr q mod 4096) 0), (N.eqb_spec (m_bytes q mod 4096) 0); cbn [andb negb]; try reflexivity;
  destruct (N.ltb_spec (cache_lines e) (m_lines q)); try reflexivity; destruct (m_seq q); try reflexivity;
  exfalso; intuition (try discriminate; lia).
Qed.

Lemma no_bypass_resolve e q : ~ bypass e q ->
  fst (resolve e q) = configured e \/
  (m_dir q = Wr /\ lazy (configured e) = true /\ dirty_blocked e = true /\ fst (resolve e q) = WT).
Proof.
  unfold resolve, bypass, fallback_on, is_4k, configured. intros H.
  destruct (N.eqb_spec (thr e) 0), (N.leb_spec (thr e) (cnt e)), (attach_pt e); try (exfalso; apply H; lia || tauto);
  destruct (pt_unal e); cbn [andb];
  destruct (N.eqb_spec (m_addr q mod 4096) 0), (N.eqb_spec (m_bytes q mod 4096) 0); cbn [andb negb];
  try (exfalso; apply H; right; right; left; split; [reflexivity|tauto]);
  (destruct (N.ltb_spec (cache_lines e) (m_lines q)); [exfalso; tauto|]);
  (destruct (m_seq q); [exfalso; tauto|]);
  destruct (class_mode e) as [m|]; destruct (m_dir q); try (left; reflexivity);
  try (destruct (lazy m) eqn:L); try (destruct (lazy (cfg_mode e)) eqn:L); try (left; reflexivity);
  destruct (dirty_blocked e); try (left; reflexivity); right; auto.
Qed.

(** Precedence of the pass-through conditions over the configured mode; without
    them the configured mode (class before cache) is used, except that a lazy
    write is turned into write-through while new dirty data is blocked. *)
Theorem C36_precedence : forall e q,
  (bypass e q -> fst (resolve e q) = PT) /\
  (~ bypass e q -> fst (resolve e q) = configured e \/
     (m_dir q = Wr /\ lazy (configured e) = true /\ dirty_blocked e = true /\ fst (resolve e q) = WT)) /\
  (m_dir q = Wr -> dirty_blocked e = true -> lazy (fst (resolve e q)) = false) /\
  (snd (resolve e q) = true <-> m_dir q = Wr /\ lazy (fst (resolve e q)) = true).
Proof.
  intros e q. split; [apply bypass_resolve|]. split; [apply no_bypass_resolve|]. split.
  - intros W B. unfold resolve. rewrite W, B.
    repeat match goal with |- context [if ?b then (PT, false) else _] => destruct b; [reflexivity|] end.
    fold (configured e). destruct (lazy (configured e)) eqn:L; [reflexivity|exact L].
  - unfold resolve.
    repeat match goal with |- context [if ?b then (PT, false) else _] => destruct b; [split; [discriminate|intros [_ D]; discriminate D]|] end.
    destruct (m_dir q); [split; [discriminate|intros [D _]; discriminate D]|].
    fold (configured e). destruct (lazy (configured e)) eqn:L; [destruct (dirty_blocked e)|]; cbn [fst snd].
    + split; [discriminate|intros [_ D]; discriminate D].
    + rewrite L. tauto.
    + rewrite L. split; [discriminate|intros [_ D]; discriminate D].
Qed.

(** A write is acknowledged with dirty data only if the configured mode is lazy
    and new dirty data is not blocked - when the fast submission option is off. *)
Theorem C36_lazy_only_if_configured_partial : forall e q hit mapped space,
  use_fast e = false -> m_dir q = Wr -> acks_dirty (served_by e q hit mapped space) = true ->
  lazy (configured e) = true /\ dirty_blocked e = false /\ ~ bypass e q.
Proof.
  intros e q hit mapped space U W A.
  assert (L : lazy (fst (resolve e q)) = true).
  { unfold served_by in A. rewrite W in A. unfold tries_fast in A. rewrite U in A.
    destruct (fst (resolve e q)); cbn in *; try reflexivity; try discriminate. }
  assert (NB : ~ bypass e q).
  { intros B. apply bypass_resolve in B. rewrite B in L. discriminate. }
  split; [|split; [|assumption]].
  - destruct (no_bypass_resolve e q NB) as [H|(_ & H & _)]; [now rewrite <- H|assumption].
  - destruct (dirty_blocked e) eqn:D; [|reflexivity].
    pose proof (proj1 (proj2 (proj2 (C36_precedence e q))) W D). congruence.
Qed.

Definition env0 (f : bool) (m : mode) (b : bool) : menv :=
  {| thr := 0; cnt := 0; attach_pt := false; pt_unal := false; cache_lines := 100;
     cfg_mode := m; class_mode := None; use_fast := f; dirty_blocked := b |}.
Definition wr0 : mreq := {| m_dir := Wr; m_addr := 4096; m_bytes := 512; m_lines := 1; m_seq := false |}.

(** With the fast submission option on, the last clause is false: a write-through
    write over mapped lines is acknowledged dirty, also while dirty data is blocked. *)
Theorem C36_lazy_only_if_configured_refuted : exists e q hit mapped space,
  m_dir q = Wr /\ acks_dirty (served_by e q hit mapped space) = true /\
  lazy (configured e) = false.
Proof. exists (env0 true WT false), wr0, true, true, true. split; [reflexivity|]. split; reflexivity. Qed.
Theorem C36_blocked_dirty_refuted : exists e q hit mapped space,
  m_dir q = Wr /\ dirty_blocked e = true /\ acks_dirty (served_by e q hit mapped space) = true.
Proof. exists (env0 true WB true), wr0, true, true, true. split; [reflexivity|]. split; reflexivity. Qed.

Example ex36_lazy : acks_dirty (served_by (env0 false WB false) wr0 false true true) = true.
Proof. reflexivity. Qed.
Example ex36_frozen : served_by (env0 false WB true) wr0 false true true = E_write_wt.
Proof. reflexivity. Qed.

(** ** C48 *)
(** Errors of the sites [k] since the last reset, newest event first; errors seen
    while the threshold is disabled are not errors "towards the threshold". *)
Fixpoint threshold (t0 : N) (h : list fev) : N :=
  match h with
  | [] => t0
  | FSetThr t :: h' => if 1000000 <? t then threshold t0 h' else t
  | _ :: h' => threshold t0 h'
  end.
Fixpoint errors (k : errsite -> bool) (t0 : N) (h : list fev) : N :=
  match h with
  | [] => 0
  | FReset :: _ => 0
  | FErr x :: h' => errors k t0 h' + (if k x && negb (threshold t0 h' =? 0) then 1 else 0)
  | _ :: h' => errors k t0 h'
  end.

Lemma fruns_app l : forall s l', fruns s (l ++ l') = match fruns s l with Some t => fruns t l' | None => None end.
Proof. induction l as [|e l IH]; intros s l'; cbn; [reflexivity|]. destruct (fstep s e); [apply IH|reflexivity]. Qed.

Lemma fruns_state t0 h s : fruns {| f_thr := t0; f_cnt := 0 |} (rev h) = Some s ->
  f_thr s = threshold t0 h /\ f_cnt s = errors counted t0 h.
Proof.
  revert s. induction h as [|e h IH]; intros s.
  - cbn. intros E. injection E as <-. now split.
  - cbn [rev]. rewrite fruns_app. destruct (fruns _ (rev h)) as [u|]; [|discriminate].
    specialize (IH u eq_refl) as [I1 I2]. cbn [fruns]. destruct (fstep u e) as [v|] eqn:E; [|discriminate].
    intros X. injection X as <-. destruct e as [x| |t]; cbn [fstep threshold errors] in *.
    + destruct (counted x); cbn [andb].
      * rewrite <- I1. destruct (f_thr u =? 0) eqn:Z; cbn [negb].
        -- injection E as <-. split; [reflexivity|]. lia.
        -- destruct (f_cnt u + 1 <? 2^31); [|discriminate]. injection E as <-. cbn [f_thr f_cnt].
           split; [reflexivity|]. lia.
      * injection E as <-. split; [assumption|]. lia.
    + injection E as <-. now split.
    + destruct (1000000 <? t); injection E as <-; cbn [f_thr f_cnt]; now split.
Qed.

(** Fallback is on iff the threshold is enabled and the number of counted errors
    since the last reset has reached it; then every request resolves to
    pass-through. *)
Theorem C48_fallback_exact_partial : forall t0 h s e q,
  fruns {| f_thr := t0; f_cnt := 0 |} (rev h) = Some s -> thr e = f_thr s -> cnt e = f_cnt s ->
  (fallback_on (thr e) (cnt e) = true <->
     threshold t0 h <> 0 /\ threshold t0 h <= errors counted t0 h) /\
  (fallback_on (thr e) (cnt e) = true -> fst (resolve e q) = PT) /\
  (fallback_on (thr e) (cnt e) = true -> forall hit mapped space,
     served_by e q hit mapped space = match m_dir q with Rd => E_read_pt | Wr => E_write_wi end).
Proof.
  intros t0 h s e q R T C. destruct (fruns_state t0 h s R) as [A B]. rewrite T, C, A, B.
  unfold fallback_on. split; [|split].
  - destruct (N.eqb_spec (threshold t0 h) 0); [split; [discriminate|lia]|]. rewrite N.leb_le. lia.
  - intros H. unfold resolve. rewrite T, C, A, B. unfold fallback_on. rewrite H. reflexivity.
  - intros H hit mapped space. unfold served_by.
    assert (P : fst (resolve e q) = PT).
    { unfold resolve. rewrite T, C, A, B. unfold fallback_on. rewrite H. reflexivity. }
    rewrite P. cbn. destruct (m_dir q); reflexivity.
Qed.

Fixpoint nerr (l : list fev) : N :=
  match l with [] => 0 | FErr _ :: r => 1 + nerr r | _ :: r => nerr r end.
Lemma fruns_total l : forall s, f_cnt s + nerr l < 2^31 -> exists s', fruns s l = Some s'.
Proof.
  induction l as [|e l IH]; intros s H; [now exists s|]. cbn [fruns nerr] in *.
  destruct e as [x| |t]; cbn [fstep].
  - destruct (counted x); [|apply IH; lia]. destruct (f_thr s =? 0); [apply IH; lia|].
    destruct (N.ltb_spec (f_cnt s + 1) (2^31)); [|lia]. apply IH. cbn [f_cnt]. lia.
  - apply IH. cbn [f_cnt]. lia.
  - destruct (1000000 <? t); apply IH; cbn [f_cnt]; lia.
Qed.
(** The counter never trips the internal check for fewer than 2^31 errors. *)
Theorem C48_no_bug : forall t0 l, nerr l < 2^31 ->
  exists s, fruns {| f_thr := t0; f_cnt := 0 |} l = Some s.
Proof. intros t0 l H. apply fruns_total. cbn [f_cnt]. lia. Qed.

(** As stated (all cache errors count) it is false: errors of cache reads on the
    fast path - which serves every read hit in the write-back and write-only modes -
    and of write-back writes never count, however many there are. *)
Theorem C48_all_errors_refuted : forall n,
  exists h s, fruns {| f_thr := 1; f_cnt := 0 |} (rev h) = Some s /\
    n <= errors (fun _ => true) 1 h /\ fallback_on (f_thr s) (f_cnt s) = false.
Proof.
  intros n. exists (repeat (FErr Er_fast) (N.to_nat n)), {| f_thr := 1; f_cnt := 0 |}. split; [|split].
  - assert (R : forall l s0, (forall e, In e l -> e = FErr Er_fast) -> fruns s0 l = Some s0).
    { induction l as [|e l IH]; intros s0 H; [reflexivity|]. cbn [fruns].
      rewrite (H e (or_introl eq_refl)). cbn [fstep counted]. apply IH. intros e' He. apply H. now right. }
    apply R. intros e He. apply in_rev in He. now apply repeat_spec in He.
  - assert (T : forall m, threshold 1 (repeat (FErr Er_fast) m) = 1).
    { induction m as [|m IH]; [reflexivity|exact IH]. }
    assert (E : forall m, errors (fun _ => true) 1 (repeat (FErr Er_fast) m) = N.of_nat m).
    { induction m as [|m IH]; [reflexivity|]. cbn [repeat errors]. rewrite IH, T. cbn [andb negb N.eqb]. cbn. lia. }
    rewrite E. lia.
  - reflexivity.
Qed.
Theorem C48_write_back_hits_use_fast : forall e q mapped, configured e = WB -> ~ bypass e q -> m_dir q = Rd ->
  served_by e q true mapped true = E_read_fast.
Proof.
  intros e q mapped C NB D. destruct (no_bypass_resolve e q NB) as [H|(X & _)]; [|congruence].
  unfold served_by. rewrite H, C, D. reflexivity.
Qed.

Example ex48 : exists s, fruns {| f_thr := 2; f_cnt := 0 |} [FErr Er_wt; FReset; FErr Er_rd; FErr Er_fast; FErr Er_bf] = Some s /\
  fallback_on (f_thr s) (f_cnt s) = true.
Proof. eexists. split; reflexivity. Qed.

(** ** C53 *)
(** With the fast option off, the engine run for a write in a mode without lazy
    write is not the fast one, and C02 applies to it. *)
Theorem C53_option_off_partial : forall e q hit mapped space g vc m c0 pv h s promo vs r d b t x,
  use_fast e = false -> m_dir q = Wr -> lazy (fst (resolve e q)) = false ->
  wf g vc -> run g vc (empty_cache m c0 pv) h s ->
  accepted vc (OpWrite false (fst (resolve e q)) promo vs r d) ->
  served_by e q hit mapped space <> E_write_fast /\
  (exec g (op_prog g (OpWrite false (fst (resolve e q)) promo vs r d) s) s b t ->
   hits r (rc r) x = true ->
   core t (rc r) x = d x /\ forall v, ~ held_dirty g t (rc r) x v).
Proof.
  intros e q hit mapped space g vc m c0 pv h s promo vs r d b t x U W L Wf R A. split.
  - unfold served_by, tries_fast. rewrite U, W.
    destruct (fst (resolve e q)); cbn in *; try discriminate; destruct space, mapped; discriminate.
  - intros E H. eapply C02_non_lazy_modes_update_core; try eassumption; destruct (fst (resolve e q)); cbn in L; discriminate.
Qed.

(** With the option on: a history in write-through mode only, with one completed
    write whose data is not on the core. *)
Definition w1 := OpWrite true WT true [0] (rq 0 2) (fun x => 500 + x).
Definition w2 := OpWrite true WT true [] (rq 0 1) (fun x => 600 + x).
Theorem C53_fast_path_refuted : exists g vc m c0 pv h s e q r d b t x,
  wf g vc /\ run g vc (empty_cache m c0 pv) h s /\ crash_free h /\
  (forall o b', In (Done o b') h -> exists promo vs r' d', o = OpWrite true WT promo vs r' d') /\
  cfg_mode e = WT /\ class_mode e = None /\ use_fast e = true /\
  served_by e q true true true = E_write_fast /\
  accepted vc (OpWrite true WT true [] r d) /\
  exec g (op_prog g (OpWrite true WT true [] r d) s) s b t /\
  hits r (rc r) x = true /\ core t (rc r) x <> d x.
Proof.
  set (s1 := snd (run_seq g2 (op_prog g2 w1 s_init) s_init)).
  exists g2, vc1, m1, (fun _ _ => 0), (fun _ _ => true),
    [Done w1 (fst (run_seq g2 (op_prog g2 w1 s_init) s_init))], s1,
    (env0 true WT false), wr0, (rq 0 1), (fun x => 600 + x),
    (fst (run_seq g2 (op_prog g2 w2 s1) s1)), (snd (run_seq g2 (op_prog g2 w2 s1) s1)), 0.
  split; [exact g2_wf|]. split; [|split; [|split; [|split; [|split; [|split; [|split; [|split; [|split; [|split]]]]]]]]].
  - apply (run_op g2 vc1 s_init [] s_init); [constructor|split; reflexivity|apply run_seq_exec].
  - intros o [H|[]]. discriminate.
  - intros o b' [H|[]]. injection H as <- _. exists true, [0], (rq 0 2), (fun x => 500 + x). reflexivity.
  - reflexivity.
  - reflexivity.
  - reflexivity.
  - reflexivity.
  - split; reflexivity.
  - apply run_seq_exec.
  - reflexivity.
  - vm_compute. discriminate.
Qed.

Print Assumptions C36_precedence.
Print Assumptions C36_lazy_only_if_configured_partial.
Print Assumptions C36_lazy_only_if_configured_refuted.
Print Assumptions C36_blocked_dirty_refuted.
Print Assumptions C48_fallback_exact_partial.
Print Assumptions C48_no_bug.
Print Assumptions C48_all_errors_refuted.
Print Assumptions C48_write_back_hits_use_fast.
Print Assumptions C53_option_off_partial.
Print Assumptions C53_fast_path_refuted.

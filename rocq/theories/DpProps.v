(** Properties of the data path: C01, C02, C03, C05, C42, C44. *)
From Coq Require Import NArith List Bool Lia Permutation.
From Verif Require Import DpModel DpProofs DpInv DpEng DpEng2 DpEng3 DpEng4.
Import ListNotations.
Open Scope N_scope.

(** ** Specification: what a user may observe. *)

(** Events of a history, newest first: a completed operation together with the
    data it returned, an operation cut by a crash (followed by recovery), a
    clean shutdown followed by a load. *)
Inductive ev := Done (o : op) (b : N -> N) | Cut (o : op) | Reload.

Definition hits (r : req) (cid x : N) : bool :=
  (cid =? rc r) && (ra r <=? x) && (x <? ra r + rn r).

(** The latest completed write (or discard) of a sector. *)
Fixpoint latest (m0 : N -> N -> N) (h : list ev) (cid x : N) : N :=
  match h with
  | [] => m0 cid x
  | Done (OpWrite _ _ _ _ r d) _ :: h' => if hits r cid x then d x else latest m0 h' cid x
  | Done (OpDiscard _ r dv) _ :: h' => if hits r cid x then dv x else latest m0 h' cid x
  | _ :: h' => latest m0 h' cid x
  end.

(** With crashes: the values a sector may have.  A write in progress at a crash
    may or may not have taken effect (a discard in progress leaves the sector
    undefined), and what was read once stays. *)
Fixpoint may (m0 : N -> N -> N) (h : list ev) (cid x v : N) : Prop :=
  match h with
  | [] => v = m0 cid x
  | Done (OpWrite _ _ _ _ r d) _ :: h' => if hits r cid x then v = d x else may m0 h' cid x v
  | Done (OpDiscard _ r dv) _ :: h' => if hits r cid x then v = dv x else may m0 h' cid x v
  | Done (OpRead _ _ _ _ _ r) b :: h' =>
      (hits r cid x = true -> v = b x) /\ may m0 h' cid x v
  | Cut (OpWrite _ _ _ _ r d) :: h' => (hits r cid x = true /\ v = d x) \/ may m0 h' cid x v
  | Cut (OpDiscard _ r _) :: h' => hits r cid x = true \/ may m0 h' cid x v
  | _ :: h' => may m0 h' cid x v
  end.

Definition crash_free (h : list ev) : Prop := forall o, ~ In (Cut o) h.

(** Requests the API accepts: at least one sector, an existing core. *)
Definition accepted (vc : N -> bool) (o : op) : Prop :=
  match o with
  | OpWrite _ _ _ _ r _ | OpRead _ _ _ _ _ r => 0 < rn r /\ vc (rc r) = true
  | OpDiscard step r _ => 0 < rn r /\ vc (rc r) = true /\ 0 < step
  | _ => True
  end.

(** A history of the cache. *)
Inductive run (g : cfg) (vc : N -> bool) (s0 : st) : list ev -> st -> Prop :=
| run_nil : run g vc s0 [] s0
| run_op h s o b t : run g vc s0 h s -> accepted vc o ->
    exec g (op_prog g o s) s b t -> run g vc s0 (Done o b :: h) t
| run_cut h s o u t : run g vc s0 h s -> accepted vc o ->
    crashed g (op_prog g o s) s u -> recover g vc u = Some t -> run g vc s0 (Cut o :: h) t
| run_reload h s b t : run g vc s0 h s ->
    exec g (op_prog g (OpFlushMeta (all_lines g)) s) s b t ->
    run g vc s0 (Reload :: h) (load_clean g t).

(** Some cache line holds sector [x] of core [cid] as dirty, with content [v]. *)
Definition held_dirty (g : cfg) (s : st) (cid x v : N) : Prop :=
  exists c cl o, tbl s c = Some (cid, cl) /\ o < ls g /\ x = cl * ls g + o /\
    vld s c o = true /\ drt s c o = true /\ cdat s c o = v.
(** Some cache line holds a (clean or dirty) copy. *)
Definition held (g : cfg) (s : st) (cid x : N) : Prop :=
  exists c cl o, tbl s c = Some (cid, cl) /\ o < ls g /\ x = cl * ls g + o /\ vld s c o = true.

(** The operation writes or discards the sector. *)
Definition writes (o : op) (cid x : N) : bool :=
  match o with
  | OpWrite _ _ _ _ r _ => hits r cid x
  | OpDiscard _ r _ => hits r cid x
  | _ => false
  end.

(** ** Proof glue. *)
Lemma hits_inreq r cid x : 0 < rn r -> hits r cid x = true <-> inreq r cid x.
Proof.
  intros Hn. unfold hits, inreq, rlast. rewrite !andb_true_iff, N.eqb_eq, N.leb_le, N.ltb_lt. lia.
Qed.
Lemma hits_not r cid x : 0 < rn r -> hits r cid x = false <-> ~ inreq r cid x.
Proof.
  intros Hn. rewrite <- hits_inreq by assumption. destruct (hits r cid x); split; congruence.
Qed.

Lemma accepted_ok vc o : accepted vc o -> op_ok vc o.
Proof. destruct o; exact (fun H => H). Qed.

Lemma empty_inv g vc m c0 pv : Inv g vc (empty_cache m c0 pv).
Proof. constructor; cbn; intros; congruence. Qed.
Lemma empty_abs g m c0 pv cid x : abs g (empty_cache m c0 pv) cid x = m cid x.
Proof.
  unfold abs. destruct (lookup g (empty_cache m c0 pv) cid (x / ls g)) eqn:E; [|reflexivity].
  apply lookup_some in E. discriminate.
Qed.

Lemma run_inv g vc m c0 pv h s : wf g vc -> run g vc (empty_cache m c0 pv) h s ->
  Inv g vc s /\ (forall cid x, may m h cid x (abs g s cid x)) /\
  (crash_free h -> forall cid x, abs g s cid x = latest m h cid x).
Proof.
  intros W R. induction R as [|h s o b t R IH A E|h s o u t R IH A E Q|h s b t R IH E].
  - split; [apply empty_inv|]. split; intros; apply empty_abs.
  - destruct IH as (I & M & L).
    pose proof (wp_exec _ _ _ _ _ E _ _ (op_wp g vc W s o I (accepted_ok vc o A))) as P.
    destruct P as [It P]. split; [assumption|].
    assert (CF : crash_free (Done o b :: h) -> crash_free h).
    { intros C o' H. apply (C o'). now right. }
    destruct o as [fast md promo vs r d|fast md promo seqc vs r|step r dv|cs|c|cs]; cbn [may latest].
    + destruct P as [P _]. destruct A as [Hn _]. split; [|intros C]; intros cid x;
        destruct (P cid x) as [P1 P2]; destruct (hits r cid x) eqn:Hh.
      * apply P1. now apply hits_inreq.
      * rewrite P2; [apply M|]. now apply hits_not.
      * apply P1. now apply hits_inreq.
      * rewrite P2; [apply L; now apply CF|]. now apply hits_not.
    + destruct P as [P1 P2]. destruct A as [Hn _]. split; [|intros C]; intros cid x.
      * rewrite P1. split; [|apply M]. intros Hh. apply hits_inreq in Hh; [|assumption].
        destruct Hh as [-> Hh]. symmetry. apply P2. split; [reflexivity|assumption].
      * rewrite P1. apply L. now apply CF.
    + destruct P as [P _]. destruct A as [Hn _]. split; [|intros C]; intros cid x;
        destruct (P cid x) as [P1 P2]; destruct (hits r cid x) eqn:Hh.
      * apply P1. now apply hits_inreq.
      * rewrite P2; [apply M|]. now apply hits_not.
      * apply P1. now apply hits_inreq.
      * rewrite P2; [apply L; now apply CF|]. now apply hits_not.
    + destruct P as [P1 P2]. split; [|intros C]; intros cid x; rewrite P1; [apply M|apply L; now apply CF].
    + split; [|intros C]; intros cid x; rewrite P; [apply M|apply L; now apply CF].
    + destruct P as [P1 P2]. split; [|intros C]; intros cid x; rewrite P1; [apply M|apply L; now apply CF].
  - destruct IH as (I & M & L).
    pose proof (wp_crash _ _ _ _ E _ _ (op_wp g vc W s o I (accepted_ok vc o A))) as P. cbn beta in P.
    destruct (mix_recover g vc u _ W P) as (t' & Q' & It & At).
    rewrite Q in Q'. injection Q' as <-. split; [assumption|]. split.
    2: { intros C. exfalso. apply (C o). now left. }
    intros cid x. specialize (At cid x).
    destruct o as [fast md promo vs r d|fast md promo seqc vs r|step r dv|cs|c|cs]; cbn [may cut_allowed] in *.
    + destruct A as [Hn _]. destruct At as [At|[S At]].
      * right. rewrite At. apply M.
      * left. split; [now apply hits_inreq|assumption].
    + unfold eqabs in At. rewrite At. apply M.
    + destruct A as [Hn _]. destruct At as [At|[S At]].
      * right. rewrite At. apply M.
      * left. now apply hits_inreq.
    + unfold eqabs in At. rewrite At. apply M.
    + unfold eqabs in At. rewrite At. apply M.
    + unfold eqabs in At. rewrite At. apply M.
  - destruct IH as (I & M & L).
    pose proof (wp_exec _ _ _ _ _ E _ _ (op_wp g vc W s (OpFlushMeta (all_lines g)) I Logic.I)) as P.
    destruct P as (It & Ea & _ & _ & _ & _ & _ & P).
    destruct (load_clean_ok g vc W t It P) as [Il El]. split; [assumption|]. split.
    + intros cid x. cbn [may]. rewrite El, Ea. apply M.
    + intros C cid x. cbn [latest]. rewrite El, Ea. apply L. intros o H. apply (C o). now right.
Qed.

Lemma exec_total g p : forall s, exists b t, exec g p s b t.
Proof.
  induction p as [b|es k IH|es k IH]; intros s.
  - exists b, s. constructor.
  - destruct (IH (do_ios es s) (do_ios es s)) as (b & t & E). exists b, t.
    eapply ex_io; [apply Permutation_refl|assumption].
  - destruct (IH (do_mems g es s) (do_mems g es s)) as (b & t & E). exists b, t. now constructor.
Qed.

Lemma run_seq_exec g p : forall s, exec g p s (fst (run_seq g p s)) (snd (run_seq g p s)).
Proof.
  induction p as [b|es k IH|es k IH]; intros s; cbn [run_seq].
  - constructor.
  - eapply ex_io; [apply Permutation_refl|apply IH].
  - constructor. apply IH.
Qed.

(** ** C01 *)
(** Every read returns, for every sector of its range, the data of the latest
    completed write, whatever the modes, promotions, victims, cleanings and
    clean restarts in the history. *)
Theorem C01_reads_latest_write : forall g vc m c0 pv h s fast md promo seqc vs r b t x,
  wf g vc -> run g vc (empty_cache m c0 pv) h s -> crash_free h ->
  accepted vc (OpRead fast md promo seqc vs r) ->
  exec g (op_prog g (OpRead fast md promo seqc vs r) s) s b t ->
  hits r (rc r) x = true ->
  b x = latest m h (rc r) x.
Proof.
  intros g vc m c0 pv h s fast md promo seqc vs r b t x W R C A E Hh.
  destruct (run_inv g vc m c0 pv h s W R) as (I & _ & L).
  pose proof (wp_exec _ _ _ _ _ E _ _ (op_wp g vc W s _ I (accepted_ok vc _ A))) as P.
  destruct P as (_ & _ & P). rewrite P, L by (try assumption; now apply hits_inreq; [destruct A|]).
  reflexivity.
Qed.

(** Every accepted operation can complete. *)
Theorem C01_operations_complete : forall g s o, exists b t, exec g (op_prog g o s) s b t.
Proof. intros. apply exec_total. Qed.

(** ** C02 *)
Theorem C02_non_lazy_modes_update_core : forall g vc m c0 pv h s md promo vs r d b t x,
  wf g vc -> run g vc (empty_cache m c0 pv) h s ->
  accepted vc (OpWrite false md promo vs r d) -> md <> WB -> md <> WO ->
  exec g (op_prog g (OpWrite false md promo vs r d) s) s b t ->
  hits r (rc r) x = true ->
  core t (rc r) x = d x /\ forall v, ~ held_dirty g t (rc r) x v.
Proof.
  intros g vc m c0 pv h s md promo vs r d b t x W R A N1 N2 E Hh.
  destruct (run_inv g vc m c0 pv h s W R) as (I & _).
  pose proof (wp_exec _ _ _ _ _ E _ _ (op_wp g vc W s _ I (accepted_ok vc _ A))) as P.
  destruct P as (It & _ & P). destruct P as [P1 P2].
  { destruct md; cbn; congruence. }
  apply hits_inreq in Hh; [|apply A]. split; [now apply P1|].
  intros v (c & cl & o & T & Ho & X & _ & D & _). subst x.
  rewrite (P2 c (rc r) cl o T Ho Hh) in D. discriminate.
Qed.

(** ** C03 *)
(** A dirty sector that the operation does not overwrite is afterwards still
    held dirty with the same content, or the core has that content. *)
Theorem C03_dirty_data_never_dropped : forall g vc m c0 pv h s o b t cid x v,
  wf g vc -> run g vc (empty_cache m c0 pv) h s -> accepted vc o ->
  held_dirty g s cid x v -> writes o cid x = false ->
  exec g (op_prog g o s) s b t ->
  held_dirty g t cid x v \/ core t cid x = v.
Proof.
  intros g vc m c0 pv h s o b t cid x v W R A (c & cl & oo & T & Ho & X & V & D & Q) Wr E.
  destruct (run_inv g vc m c0 pv h s W R) as (I & _).
  pose proof (wp_exec _ _ _ _ _ E _ _ (op_wp g vc W s o I (accepted_ok vc o A))) as P.
  destruct P as (It & P). subst x.
  assert (A1 : abs g s cid (cl * ls g + oo) = v).
  { rewrite (abs_mapped g vc s c cid cl oo I (proj1 W) T Ho), V. exact Q. }
  assert (A2 : abs g t cid (cl * ls g + oo) = v).
  { destruct o as [fast md promo vs r d|fast md promo seqc vs r|step r dv|cs|c'|cs]; cbn [writes] in Wr.
    - destruct P as [P _]. destruct (P cid (cl * ls g + oo)) as [_ P2]. rewrite P2; [assumption|].
      now apply hits_not; [apply A|].
    - destruct P as [P _]. now rewrite P.
    - destruct P as [P _]. destruct (P cid (cl * ls g + oo)) as [_ P2]. rewrite P2; [assumption|].
      now apply hits_not; [apply A|].
    - destruct P as [P _]. now rewrite P.
    - now rewrite P.
    - destruct P as [P _]. now rewrite P. }
  destruct (mapped_dec g vc t cid cl It) as [[c' E']|E'].
  - destruct (drt t c' oo) eqn:D'.
    + left. exists c', cl, oo. rewrite <- A2.
      rewrite (abs_dirty g vc t c' cid cl oo It (proj1 W) Ho (conj E' D')).
      pose proof (i_dv _ _ _ It c' oo Ho D'). tauto.
    + right. rewrite <- A2. symmetry. apply (abs_clean g vc); try assumption; [apply W|].
      intros c2 [T2 D2]. assert (c2 = c') by (eapply (i_inj _ _ _ It); eassumption). congruence.
  - right. rewrite <- A2. symmetry. now apply abs_unmapped.
Qed.

(** Choosing victims for a request never takes a line with a dirty sector. *)
Theorem C03_dirty_lines_not_reused : forall g vc m c0 pv h s r vs ms ok l c o,
  wf g vc -> run g vc (empty_cache m c0 pv) h s ->
  remap g r (cl_list g r) vs s = (ms, ok, l) ->
  o < ls g -> drt s c o = true ->
  tbl (do_mems g ms s) c = tbl s c /\ ~ In c l.
Proof.
  intros g vc m c0 pv h s r vs ms ok l c o W R E Ho D.
  destruct (run_inv g vc m c0 pv h s W R) as (I & _).
  assert (I' : forall s', drt s' = drt s -> (forall o', o' < ls g -> drt s' c o' = true -> tbl s' c <> None) ->
    forall cls vs ms ok l, remap g r cls vs s' = (ms, ok, l) ->
    tbl (do_mems g ms s') c = tbl s' c /\ ~ In c l).
  { clear E. intros s' Ed Hm cls. revert s' Ed Hm. induction cls as [|cl cls IH]; intros s' Ed Hm vs' ms' ok' l' E;
      cbn [remap] in E.
    - injection E as <- <- <-. split; [reflexivity|intros []].
    - destruct (slot_mapped g s' r cl); [now apply (IH s' Ed Hm vs' ms' ok' l')|].
      destruct vs' as [|c1 vs']; [injection E as <- <- <-; split; [reflexivity|intros []]|].
      destruct (can_take g s' r c1) eqn:CT; [|injection E as <- <- <-; split; [reflexivity|intros []]].
      assert (Nc : c <> c1).
      { intros ->. unfold can_take in CT. apply andb_true_iff in CT. destruct CT as [CT _].
        destruct (tbl s' c1) as [[a b]|] eqn:T.
        - apply andb_true_iff in CT. destruct CT as [CT _]. apply negb_true_iff in CT.
          pose proof (not_dirty_line g s' c1 o CT Ho). rewrite Ed in H. congruence.
        - apply (Hm o Ho); [rewrite Ed; exact D|reflexivity]. }
      destruct (remap g r cls vs' _) as [[m2 ok2] l2] eqn:R2. injection E as <- <- <-.
      cbn [do_mems app]. cbn [do_mems] in R2.
      set (s1 := do_mem g (MapL c1 (rc r, cl)) (do_mem g (SetI c1 0 (ls g - 1)) s')) in *.
      assert (T1 : tbl s1 c = tbl s' c).
      { unfold s1. cbn [do_mem tbl]. unfold upd1. destruct (N.eqb_spec c c1); [contradiction|].
        destruct (any_valid g _ c1); [reflexivity|]. destruct (N.eqb_spec c c1); [contradiction|reflexivity]. }
      assert (Hm1 : forall o', o' < ls g -> drt s1 c o' = true -> tbl s1 c <> None).
      { intros o' Ho' D'. rewrite T1. now apply (Hm o'). }
      destruct (IH s1 Ed Hm1 _ _ _ _ R2) as [Q1 Q2].
      split; [congruence|]. intros [H|H]; [congruence|now apply Q2]. }
  refine (I' s eq_refl _ _ _ _ _ _ E).
  intros o' Ho' D'. apply (i_vt _ _ _ I c o' Ho'). now apply (i_dv _ _ _ I).
Qed.

(** ** C05 *)
(** After any history (with earlier crashes), a crash at any point of any
    operation: recovery succeeds, and afterwards every read returns data of the
    last acknowledged write or of a write in progress at a crash. *)
Theorem C05_crash_recovery_succeeds : forall g vc m c0 pv h s o u,
  wf g vc -> run g vc (empty_cache m c0 pv) h s -> accepted vc o ->
  crashed g (op_prog g o s) s u -> exists t, recover g vc u = Some t.
Proof.
  intros g vc m c0 pv h s o u W R A E.
  destruct (run_inv g vc m c0 pv h s W R) as (I & _).
  pose proof (wp_crash _ _ _ _ E _ _ (op_wp g vc W s o I (accepted_ok vc o A))) as P. cbn beta in P.
  destruct (mix_recover g vc u _ W P) as (t & Q & _). now exists t.
Qed.

Theorem C05_crash_consistency : forall g vc m c0 pv h s fast md promo seqc vs r b t x,
  wf g vc -> run g vc (empty_cache m c0 pv) h s ->
  accepted vc (OpRead fast md promo seqc vs r) ->
  exec g (op_prog g (OpRead fast md promo seqc vs r) s) s b t ->
  hits r (rc r) x = true ->
  may m h (rc r) x (b x).
Proof.
  intros g vc m c0 pv h s fast md promo seqc vs r b t x W R A E Hh.
  destruct (run_inv g vc m c0 pv h s W R) as (I & M & _).
  pose proof (wp_exec _ _ _ _ _ E _ _ (op_wp g vc W s _ I (accepted_ok vc _ A))) as P.
  destruct P as (_ & _ & P). rewrite P by (now apply hits_inreq; [apply A|]). apply M.
Qed.

(** ** C42 *)
(** The stored entry of a line is acceptable. *)
Definition entry_ok (g : cfg) (vc : N -> bool) (s : st) (c : N) : Prop :=
  (forall o, o < ls g -> pdrt s c o = true -> pvld s c o = true) /\
  (forall cid cl, ptbl s c = Some (cid, cl) -> cid < 4096 /\
     (forall o, o < ls g -> pdrt s c o = true -> pvld s c o = true -> vc cid = true)).

Theorem C42_recovery_accepts_exactly : forall g vc s, wf g vc ->
  (exists t, recover g vc s = Some t) <->
  (forall c, c < N.of_nat (nlines g) -> entry_ok g vc s c).
Proof.
  intros g vc s (HL & _ & _).
  assert (AL : forall c, In c (all_lines g) <-> c < N.of_nat (nlines g)).
  { intros c. unfold all_lines. rewrite in_map_iff. split.
    - intros (i & <- & Hi). apply in_seq in Hi. lia.
    - intros H. exists (N.to_nat c). split; [lia|]. apply in_seq. lia. }
  assert (K : forall c, line_ok g vc s c = true <-> entry_ok g vc s c).
  { intros c. unfold line_ok, entry_ok. rewrite andb_true_iff, forallb_rng.
    assert (X : (forall o, 0 <= o -> o <= ls g - 1 -> implb (pdrt s c o) (pvld s c o) = true) <->
      (forall o, o < ls g -> pdrt s c o = true -> pvld s c o = true)).
    { split.
      - intros H o Ho D. specialize (H o ltac:(lia) ltac:(lia)). rewrite D in H. exact H.
      - intros H o _ Ho. destruct (pdrt s c o) eqn:D; [|reflexivity]. cbn. apply H; [lia|assumption]. }
    rewrite X. clear X.
    destruct (ptbl s c) as [[cid cl]|] eqn:E.
    - rewrite andb_true_iff, N.ltb_lt. change core_max with 4096. split.
      + intros (H1 & H2 & H3). split; [assumption|]. intros cid' cl' Q. injection Q as <- <-.
        split; [assumption|]. intros o Ho D V.
        assert (KK : line_keep g s c = true).
        { apply keep_true; [assumption|]. split; [now exists (cid, cl)|]. exists o. tauto. }
        rewrite KK in H3. exact H3.
      + intros (H1 & H2). destruct (H2 cid cl eq_refl) as [H3 H4]. split; [assumption|]. split; [assumption|].
        destruct (line_keep g s c) eqn:KK; [|reflexivity]. apply keep_true in KK; [|assumption].
        destruct KK as (_ & o & Ho & V & D). cbn. now apply (H4 o).
    - split; [|tauto]. intros [H _]. split; [assumption|]. discriminate. }
  unfold recover. destruct (forallb (line_ok g vc s) (all_lines g)) eqn:F.
  - rewrite forallb_forall in F. split; [|intros _; now eexists].
    intros _ c Hc. apply K. apply F. now apply AL.
  - split; [intros [t Q]; discriminate|]. intros H. exfalso.
    assert (forallb (line_ok g vc s) (all_lines g) = true); [|congruence].
    apply forallb_forall. intros c Hc. apply K. apply H. now apply AL.
Qed.

Theorem C42_recovery_keeps_exactly_dirty : forall g vc s t, wf g vc -> recover g vc s = Some t ->
  (forall c k, tbl t c = Some k <->
     ptbl s c = Some k /\ exists o, o < ls g /\ pvld s c o = true /\ pdrt s c o = true) /\
  (forall c o, o < ls g -> c < N.of_nat (nlines g) ->
     (vld t c o = true <-> ptbl s c <> None /\ pdrt s c o = true)) /\
  (forall c o, o < ls g -> c < N.of_nat (nlines g) -> drt t c o = vld t c o) /\
  (forall c o, cdat t c o = cdat s c o) /\ (forall cid x, core t cid x = core s cid x).
Proof.
  intros g vc s t W E. assert (HL := proj1 W).
  assert (EK : forall c, c < N.of_nat (nlines g) -> entry_ok g vc s c).
  { apply C42_recovery_accepts_exactly; [assumption|]. now exists t. }
  unfold recover in E. destruct (forallb _ _); [|discriminate]. injection E as <-.
  cbn [tbl vld drt cdat core]. split; [|split; [|split; [|split; reflexivity]]].
  - intros c k. destruct (line_keep g s c) eqn:K.
    + apply keep_true in K; [|assumption]. destruct K as (_ & K). tauto.
    + split; [discriminate|]. intros [P Q]. exfalso.
      assert (line_keep g s c = true); [|congruence]. apply keep_true; [assumption|]. split; [now exists k|assumption].
  - intros c o Ho Hc. destruct (EK c Hc) as [V _]. split.
    + intros H. apply andb_true_iff in H. destruct H as [K H]. apply andb_true_iff in H.
      apply keep_true in K; [|assumption]. destruct K as ([k K] & _). split; [congruence|tauto].
    + intros [P D]. assert (K : line_keep g s c = true).
      { apply keep_true; [assumption|]. destruct (ptbl s c) as [k|] eqn:Q; [|congruence].
        split; [now exists k|]. exists o. split; [assumption|]. split; [now apply V|assumption]. }
      now rewrite K, D, V.
  - intros c o Ho Hc. destruct (EK c Hc) as [V _]. destruct (line_keep g s c); [|reflexivity]. cbn.
    destruct (pdrt s c o) eqn:D; [|now rewrite andb_false_r]. now rewrite V.
Qed.

(** ** C44 *)
Theorem C44_discard_hides_and_touches_nothing_else : forall g vc m c0 pv h s step r dv b t,
  wf g vc -> run g vc (empty_cache m c0 pv) h s -> accepted vc (OpDiscard step r dv) ->
  exec g (op_prog g (OpDiscard step r dv) s) s b t ->
  (forall x, hits r (rc r) x = true -> core t (rc r) x = dv x) /\
  (forall cid x, hits r cid x = false -> core t cid x = core s cid x) /\
  (forall x, hits r (rc r) x = true -> ~ held g t (rc r) x).
Proof.
  intros g vc m c0 pv h s step r dv b t W R A E.
  destruct (run_inv g vc m c0 pv h s W R) as (I & _).
  pose proof (wp_exec _ _ _ _ _ E _ _ (op_wp g vc W s _ I (accepted_ok vc _ A))) as P.
  destruct P as (It & _ & [P1 P2] & P3 & P4). destruct A as (Hn & _). split; [|split].
  - intros x H. apply P1. now apply hits_inreq.
  - intros cid x H. apply P4. now apply hits_not.
  - intros x H (c & cl & o & T & Ho & -> & V). apply hits_inreq in H; [|assumption].
    rewrite (P3 c (rc r) cl o T Ho H) in V. discriminate.
Qed.

(** Sectors outside of the range read as before. *)
Theorem C44_outside_reads_as_before : forall g vc m c0 pv h s step r dv b t
    fast md promo seqc vs q b1 t1 b2 t2 x,
  wf g vc -> run g vc (empty_cache m c0 pv) h s -> accepted vc (OpDiscard step r dv) ->
  exec g (op_prog g (OpDiscard step r dv) s) s b t ->
  accepted vc (OpRead fast md promo seqc vs q) ->
  exec g (op_prog g (OpRead fast md promo seqc vs q) s) s b1 t1 ->
  exec g (op_prog g (OpRead fast md promo seqc vs q) t) t b2 t2 ->
  hits q (rc q) x = true -> hits r (rc q) x = false -> b2 x = b1 x.
Proof.
  intros g vc m c0 pv h s step r dv b t fast md promo seqc vs q b1 t1 b2 t2 x W R A E A' E1 E2 Hq Hr.
  destruct (run_inv g vc m c0 pv h s W R) as (I & _).
  pose proof (wp_exec _ _ _ _ _ E _ _ (op_wp g vc W s _ I (accepted_ok vc _ A))) as P.
  destruct P as (It & P & _).
  pose proof (wp_exec _ _ _ _ _ E1 _ _ (op_wp g vc W s _ I (accepted_ok vc _ A'))) as Q1.
  pose proof (wp_exec _ _ _ _ _ E2 _ _ (op_wp g vc W t _ It (accepted_ok vc _ A'))) as Q2.
  destruct Q1 as (_ & _ & Q1), Q2 as (_ & _ & Q2).
  apply hits_inreq in Hq; [|apply A']. rewrite Q1, Q2 by assumption.
  apply P. now apply hits_not; [apply A|].
Qed.

(** Execution together with the list of device writes issued, in order. *)
Inductive trace (g : cfg) : prog -> st -> list io -> (N -> N) -> st -> Prop :=
| tr_ret b s : trace g (Ret b) s [] b s
| tr_io es es' k s l b s' :
    Permutation es es' ->
    trace g (k (do_ios es' s)) (do_ios es' s) l b s' -> trace g (Io es k) s (es' ++ l) b s'
| tr_mem es k s l b s' :
    trace g (k (do_mems g es s)) (do_mems g es s) l b s' -> trace g (Mem es k) s l b s'.

Lemma trace_exec g p s l b t : trace g p s l b t -> exec g p s b t.
Proof. induction 1; econstructor; eassumption. Qed.

Definition io_dec (a b : io) : {a = b} + {a <> b}.
Proof. decide equality; apply N.eq_dec. Defined.

Lemma count_perm a (l l' : list io) : Permutation l l' -> count_occ io_dec l a = count_occ io_dec l' a.
Proof. intros P. apply (Permutation_count_occ io_dec). exact P. Qed.

Lemma count_none a l : ~ In a l -> count_occ io_dec l a = 0%nat.
Proof. apply count_occ_not_In. Qed.

Lemma persist_count g cs cid x v : count_occ io_dec (persist g cs) (WCore cid x v) = 0%nat.
Proof.
  apply count_none. intros H. apply persist_all in H. destruct H; discriminate.
Qed.

Lemma purge_trace g r k s l b t : trace g (wi_purge g r k s) s l b t ->
  exists s1 l1 l2, l = l1 ++ l2 /\ trace g (k s1) s1 l2 b t /\
    forall cid x v, count_occ io_dec l1 (WCore cid x v) = 0%nat.
Proof.
  unfold wi_purge. destruct (slots g s r).
  - intros H. exists s, [], l. split; [reflexivity|]. split; [assumption|reflexivity].
  - intros H. inversion H; subst. clear H. destruct (mark_clean g s r).
    + eexists _, [], _. split; [reflexivity|]. split; [eassumption|reflexivity].
    + match goal with H : trace _ (Io _ _) _ _ _ _ |- _ => inversion H; subst; clear H end.
      match goal with P : Permutation _ ?e |- _ => eexists _, e, _ end.
      split; [reflexivity|]. split; [eassumption|].
      intros cid x v. match goal with P : Permutation _ _ |- _ => rewrite <- (count_perm _ _ _ P) end.
      change (count_occ io_dec (persist g (n :: l1)) (WCore cid x v) = 0%nat). apply persist_count.
Qed.

Lemma steps_trace g step cid k b t fuel : forall a n s l,
  trace g (discard_steps g step fuel cid a n k s) s l b t ->
  exists s1 l1 l2, l = l1 ++ l2 /\ trace g (k s1) s1 l2 b t /\
    forall cid x v, count_occ io_dec l1 (WCore cid x v) = 0%nat.
Proof.
  induction fuel as [|f IH]; intros a n s l H; cbn [discard_steps] in H.
  - exists s, [], l. split; [reflexivity|]. split; [assumption|reflexivity].
  - destruct (n =? 0).
    + exists s, [], l. split; [reflexivity|]. split; [assumption|reflexivity].
    + apply purge_trace in H. destruct H as (s1 & l1 & l2 & -> & H & C1).
      apply IH in H. destruct H as (s2 & l3 & l4 & -> & H & C2).
      exists s2, (l1 ++ l3), l4. split; [now rewrite app_assoc|]. split; [assumption|].
      intros. rewrite count_occ_app, C1, C2. reflexivity.
Qed.

Lemma core_writes_nodup r d : NoDup (core_writes r d).
Proof.
  unfold core_writes, rng. rewrite map_map. apply FinFun.Injective_map_NoDup; [|apply seq_NoDup].
  intros i j H. injection H as H _. lia.
Qed.

(** The core receives a discard of every sector of the range exactly once and
    no other I/O. *)
Theorem C44_core_discarded_exactly_once : forall g s step r dv l b t cid x v,
  0 < rn r -> trace g (op_prog g (OpDiscard step r dv) s) s l b t ->
  count_occ io_dec l (WCore cid x v) = (if hits r cid x && (v =? dv x) then 1 else 0)%nat.
Proof.
  intros g s step r dv l b t cid x v Hn H. cbn [op_prog] in H. unfold discard_prog in H.
  apply steps_trace in H. destruct H as (s1 & l1 & l2 & -> & H & C1).
  rewrite count_occ_app, C1. inversion H; subst; clear H.
  match goal with H : trace _ (Ret _) _ _ _ _ |- _ => inversion H; subst; clear H end.
  rewrite app_nil_r. cbn [plus].
  match goal with P : Permutation _ _ |- _ => rewrite <- (count_perm _ _ _ P) end.
  destruct (hits r cid x && (v =? dv x)) eqn:Q.
  - apply andb_true_iff in Q. destruct Q as [Q1 Q2]. apply N.eqb_eq in Q2. subst v.
    apply hits_inreq in Q1; [|assumption].
    apply NoDup_count_occ'; [apply core_writes_nodup|]. apply in_kw. tauto.
  - apply count_none. intros I. apply in_kw in I. destruct I as [I ->].
    apply hits_inreq in I; [|assumption]. rewrite I, N.eqb_refl in Q. discriminate.
Qed.

(** ** Examples: the hypotheses are met by concrete histories. *)
Definition g2 : cfg := {| ls := 2; nlines := 2; epp := 2 |}.
Definition vc1 (cid : N) : bool := cid <? 2.
Example g2_wf : wf g2 vc1.
Proof.
  split; [reflexivity|]. split; [reflexivity|]. intros cid H. apply N.ltb_lt in H.
  unfold core_max. lia.
Qed.
Definition m1 (cid x : N) : N := 100 * (cid + 1) + x.
Definition s_init := empty_cache m1 (fun _ _ => 0) (fun _ _ => true).
Definition rq (a n : N) : req := {| rc := 1; ra := a; rn := n |}.
Definition o1 := OpWrite false WB true [0; 1] (rq 1 2) (fun x => 1000 + x).  (* two lines, dirty *)
Definition o2 := OpWrite false WT true [] (rq 2 1) (fun x => 2000 + x).      (* over dirty data *)
Definition o3 := OpWrite false WB true [0] (rq 9 1) (fun x => 3000 + x).      (* no victim: dirty lines *)
Definition o4 := OpDropClean 1.
Definition o5 := OpRead false WT true false [1] (rq 0 4).                    (* partial hit, clean, backfill *)
Definition seq1 := fold_left (fun s o => snd (run_seq g2 (op_prog g2 o s) s)).
Definition rd (s : st) (o : op) : list N := map (fst (run_seq g2 (op_prog g2 o s) s)) [0; 1; 2; 3].

Example ex_reads : rd (seq1 [o1; o2; o3; o4] s_init) o5 = [200; 1001; 2002; 203].
Proof. vm_compute. reflexivity. Qed.
(* sector 1 is dirty in line 0, sector 2 went through to the core *)
Example ex_state : (drt (seq1 [o1; o2; o3] s_init) 0 1, core (seq1 [o1; o2; o3] s_init) 1 1,
  core (seq1 [o1; o2; o3] s_init) 1 2) = (true, 201, 2002).
Proof. vm_compute. reflexivity. Qed.

Lemma run_list g vc s0 os : forall h s, run g vc s0 h s -> crash_free h -> Forall (accepted vc) os ->
  exists h', run g vc s0 h' (fold_left (fun s o => snd (run_seq g (op_prog g o s) s)) os s) /\
    crash_free h' /\ length h' = (length os + length h)%nat.
Proof.
  induction os as [|o os IH]; intros h s R C F; cbn [fold_left].
  - exists h. split; [assumption|]. split; [assumption|reflexivity].
  - inversion F; subst.
    destruct (IH (Done o (fst (run_seq g (op_prog g o s) s)) :: h) (snd (run_seq g (op_prog g o s) s)))
      as (h' & R' & C' & L'); try assumption.
    + apply (run_op g vc s0 h s); [assumption|assumption|apply run_seq_exec].
    + intros o' [H|H]; [discriminate|now apply (C o')].
    + exists h'. split; [assumption|]. split; [assumption|]. rewrite L'. cbn [length].
      rewrite <- plus_n_Sm. reflexivity.
Qed.

Example ex_run : exists h, run g2 vc1 s_init h (seq1 [o1; o2; o3; o4; OpFlushMeta [0; 1]] s_init) /\
  crash_free h /\ length h = 5%nat.
Proof.
  apply (run_list g2 vc1 s_init [o1; o2; o3; o4; OpFlushMeta [0; 1]] [] s_init).
  - constructor.
  - intros o [].
  - repeat (constructor; [first [exact Logic.I|split; reflexivity]|]). constructor.
Qed.
Example ex_dirty : held_dirty g2 (seq1 [o1; o2; o3; o4; OpFlushMeta [0; 1]] s_init) 1 1 1001.
Proof.
  exists 0, 0, 1. split; [vm_compute; reflexivity|]. split; [reflexivity|]. split; [reflexivity|].
  split; [vm_compute; reflexivity|]. split; vm_compute; reflexivity.
Qed.

(* A crash in the middle of the write-through request over dirty data: only the
   core write of the group reached a device. *)
Definition u_crash := do_ios [WCore 1 2 2002] (seq1 [o1] s_init).
Definition sees (t : st) := (core t 1 2, cdat t 1 0, drt t 1 0, rd t o5).
Example ex_crash : crashed g2 (op_prog g2 o2 (seq1 [o1] s_init)) (seq1 [o1] s_init) u_crash /\
  option_map sees (recover g2 vc1 u_crash) = Some (2002, 1002, true, [200; 1001; 1002; 203]).
Proof.
  split.
  - assert (E : exists k, op_prog g2 o2 (seq1 [o1] s_init) = Io [WCache 1 0 2002; WCore 1 2 2002] k).
    { unfold o2, op_prog, write_prog, prepare, wt_do.
      assert (E1 : is_mapped g2 (seq1 [o1] s_init) (rq 2 1) = true) by (vm_compute; reflexivity).
      assert (E2 : dirty_any g2 (seq1 [o1] s_init) (rq 2 1) = true) by (vm_compute; reflexivity).
      assert (E3 : cache_writes g2 (seq1 [o1] s_init) (rq 2 1) (fun x => 2000 + x) ++
        core_writes (rq 2 1) (fun x => 2000 + x) = [WCache 1 0 2002; WCore 1 2 2002]) by (vm_compute; reflexivity).
      rewrite E1, E2, E3. eexists. reflexivity. }
    destruct E as [k E]. rewrite E. apply cr_part. intros e [H|[]]. subst e. right. now left.
  - vm_compute. reflexivity.
Qed.

Example ex_discard : exists b t, exec g2 (op_prog g2 (OpDiscard 1 (rq 1 2) (fun _ => 0)) (seq1 [o1] s_init))
    (seq1 [o1] s_init) b t /\ held g2 (seq1 [o1] s_init) 1 1 /\ rd t o5 = [200; 0; 0; 203].
Proof.
  set (p := op_prog g2 (OpDiscard 1 (rq 1 2) (fun _ => 0)) (seq1 [o1] s_init)).
  exists (fst (run_seq g2 p (seq1 [o1] s_init))), (snd (run_seq g2 p (seq1 [o1] s_init))).
  split; [apply run_seq_exec|]. split.
  - exists 0, 0, 1. split; [vm_compute; reflexivity|]. split; [reflexivity|]. split; [reflexivity|]. vm_compute. reflexivity.
  - vm_compute. reflexivity.
Qed.

(* on-disk content that recovery refuses: a dirty sector of an unknown core *)
Example ex_refused : recover g2 vc1 {| core := m1; cdat := m1; tbl := fun _ => None;
  vld := fun _ _ => false; drt := fun _ _ => false;
  ptbl := fun c => if c =? 0 then Some (7, 0) else None;
  pvld := fun _ _ => true; pdrt := fun c o => (c =? 0) && (o =? 1) |} = None.
Proof. vm_compute. reflexivity. Qed.

Print Assumptions C01_reads_latest_write.
Print Assumptions C02_non_lazy_modes_update_core.
Print Assumptions C03_dirty_data_never_dropped.
Print Assumptions C03_dirty_lines_not_reused.
Print Assumptions C05_crash_recovery_succeeds.
Print Assumptions C05_crash_consistency.
Print Assumptions C42_recovery_accepts_exactly.
Print Assumptions C42_recovery_keeps_exactly_dirty.
Print Assumptions C44_discard_hides_and_touches_nothing_else.
Print Assumptions C44_outside_reads_as_before.
Print Assumptions C44_core_discarded_exactly_once.

(** Data path with failing devices: relation to the fault-free programs of
    DpModel, and the full invariant for acknowledged operations. *)
From Coq Require Import NArith List Bool Lia Permutation.
From Verif Require Import DpModel DpProofs DpInv DpEng DpEng2 DpEng3 DpEng4 ErrModel ErrProofs.
Import ListNotations.
Open Scope N_scope.

Definition sameset (l es : list io) : Prop := forall e, In e l <-> In e es.

(** [ref g ND Q s p e]: started in [s], [e] does what [p] does, until an error
    that [e] reacts to ([ok ce oe = false]); what is done then satisfies [Q] if it
    is acknowledged and [ND]. *)
Inductive ref (g : cfg) (ND : Prop) (Q : (N -> N) -> st -> Prop) : st -> prog -> eprog -> Prop :=
| r_ret s b : ref g ND Q s (Ret b) (ERet false b)
| r_io s es k k' (ok : bool -> bool -> bool) :
    ok false false = true ->
    (forall l ce oe, outcome es l ce oe -> ok ce oe = true -> sameset l es) ->
    (forall l ce oe, outcome es l ce oe -> ok ce oe = true ->
       ref g ND Q (do_ios l s) (k (do_ios l s)) (k' ce oe (do_ios l s))) ->
    (forall l ce oe, outcome es l ce oe -> ok ce oe = false ->
       ewp g (k' ce oe (do_ios l s)) (do_ios l s) (fun err _ b t => err = false -> ND -> Q b t)) ->
    ref g ND Q s (Io es k) (EIo es k')
| r_nop s p k' (ok : bool -> bool -> bool) :
    ok false false = true ->
    (forall ce oe, ok ce oe = true -> ref g ND Q s p (k' ce oe s)) ->
    (forall ce oe, ok ce oe = false ->
       ewp g (k' ce oe s) s (fun err _ b t => err = false -> ND -> Q b t)) ->
    ref g ND Q s p (EIo [] k')
| r_mem s es k k' : ref g ND Q (do_mems g es s) (k (do_mems g es s)) (k' (do_mems g es s)) ->
    ref g ND Q s (Mem es k) (EMem es k').

Lemma not_ok (ok : bool -> bool -> bool) ce oe : ok false false = true -> ok ce oe = false -> ce || oe = true.
Proof. intros H1 H2. destruct ce, oe; try reflexivity. congruence. Qed.

Lemma ref_ewp g ND Q s p e : ref g ND Q s p e -> forall C, wp g p s C Q ->
  ewp g e s (fun err flt b t => err = false -> flt = false \/ ND -> Q b t).
Proof.
  induction 1 as [s b|s es k k' ok H0 H1 H2 IH H3|s p k' ok H0 H2 IH H3|s es k k' H IH];
    intros C Wp; cbn [wp ewp] in *.
  - intros _ _. tauto.
  - intros l ce oe O. destruct (ok ce oe) eqn:K.
    + eapply ewp_mono; [|apply (IH l ce oe O K C); apply Wp; now apply (H1 l ce oe)].
      cbn. intros err flt b t H' E [Z|Z]; apply H'; try assumption; [|now right].
      left. apply orb_false_iff in Z. tauto.
    + eapply ewp_mono; [|apply (H3 l ce oe O K)]. cbn. intros err flt b t H' E [Z|Z]; [|now apply H'].
      rewrite (not_ok ok ce oe H0 K) in Z. discriminate.
  - intros l ce oe O. apply nil_outcome in O. subst l. cbn [do_ios]. destruct (ok ce oe) eqn:K.
    + eapply ewp_mono; [|apply (IH ce oe K C); assumption].
      cbn. intros err flt b t H' E [Z|Z]; apply H'; try assumption; [|now right].
      left. apply orb_false_iff in Z. tauto.
    + eapply ewp_mono; [|apply (H3 ce oe K)]. cbn. intros err flt b t H' E [Z|Z]; [|now apply H'].
      rewrite (not_ok ok ce oe H0 K) in Z. discriminate.
  - now apply (IH C).
Qed.

Lemma perm_outcome es l : Permutation es l -> outcome es l false false.
Proof.
  intros P. split; [|split].
  - intros e H. eapply Permutation_in; [symmetry; exact P|exact H].
  - intros _ e H _. eapply Permutation_in; eassumption.
  - intros _ e H _. eapply Permutation_in; eassumption.
Qed.

(** Without failures both programs do the same. *)
Lemma ref_exec g ND Q s p e : ref g ND Q s p e -> forall b t, exec g p s b t ->
  fexec g e s false false b t.
Proof.
  induction 1 as [s b0|s es k k' ok H0 H1 H2 IH H3|s p k' ok H0 H2 IH H3|s es k k' H IH]; intros b t E.
  - inversion E; subst. constructor.
  - inversion E; subst. change false with (false || false || false) at 2.
    match goal with P : Permutation es _ |- _ => pose proof (perm_outcome _ _ P) as O end.
    eapply fx_io; [exact O|]. now apply IH.
  - change false with (false || false || false) at 2. eapply (fx_io g [] k' s []).
    + now apply perm_outcome.
    + cbn [do_ios]. now apply IH.
  - inversion E; subst. constructor. now apply IH.
Qed.

Lemma ewp_true g p : forall s, ewp g p s (fun _ _ _ _ => True).
Proof. induction p; intros; cbn [ewp]; auto. Qed.
Lemma ewp_any g p s (Q : bool -> bool -> (N -> N) -> st -> Prop) :
  (forall e f b t, Q e f b t) -> ewp g p s Q.
Proof. intros H. eapply ewp_mono; [|apply ewp_true]. auto. Qed.

(** Groups to one device only. *)
Lemma only_cache es l oe : (forall e, In e es -> to_core e = false) -> outcome es l false oe -> sameset l es.
Proof. intros H (O1 & O2 & _) e. split; [apply O1|]. intros I. apply (O2 eq_refl); auto. Qed.
Lemma only_core es l ce : (forall e, In e es -> to_core e = true) -> outcome es l ce false -> sameset l es.
Proof. intros H (O1 & _ & O3) e. split; [apply O1|]. intros I. apply (O3 eq_refl); auto. Qed.

Section R.
Context (g : cfg) (vc : N -> bool).

Lemma cw_cache s r d e : In e (cache_writes g s r d) -> to_core e = false.
Proof. intros H. apply cw_kind in H. destruct H as (? & ? & ? & ->). reflexivity. Qed.
Lemma kw_core r d e : In e (core_writes r d) -> to_core e = true.
Proof. intros H. apply kw_kind in H. destruct H as (? & ? & ? & ->). reflexivity. Qed.
Lemma ps_cache cs e : In e (persist g cs) -> to_core e = false.
Proof. intros H. apply persist_all in H. destruct H as [? ->]. reflexivity. Qed.
Lemma cl_core s cs e : In e (clean_writes g s cs) -> to_core e = true.
Proof.
  unfold clean_writes. intros H. apply in_flat_map in H. destruct H as (c & _ & H).
  destruct (tbl s c) as [[cid cl]|]; [|destruct H]. apply in_map_iff in H. destruct H as (o & <- & _). reflexivity.
Qed.

Context (ND : Prop) (Q : (N -> N) -> st -> Prop).
Local Notation ref := (ref g ND Q).

(** Metadata writes whose error is reported. *)
Lemma persist_ref s cs k k' :
  (forall t oe, ref t (k t) (k' false oe t)) ->
  (forall t oe, ewp g (k' true oe t) t (fun err _ b t => err = false -> ND -> Q b t)) ->
  ref s (Io (persist g cs) k) (EIo (persist g cs) k').
Proof.
  intros H1 H2. apply (r_io g ND Q) with (ok := fun ce _ => negb ce); [reflexivity| | |].
  - intros l ce oe O E. destruct ce; [discriminate|]. now apply (only_cache _ _ oe); [apply ps_cache|].
  - intros l ce oe O E. destruct ce; [discriminate|]. apply H1.
  - intros l ce oe O E. destruct ce; [|discriminate]. apply H2.
Qed.

Lemma clean_ref s cs0 k k' : (forall t, ref t (k t) (k' t)) ->
  ref s (clean_prog g s cs0 k) (clean_e g s cs0 k').
Proof.
  intros H. unfold clean_prog, clean_e. destruct (filter (line_dirty g s) cs0) as [|c cs] eqn:E; [apply H|].
  apply (r_nop g ND Q) with (ok := fun ce _ => negb ce); [reflexivity| |].
  2: { intros ce oe K. destruct ce; [|discriminate]. cbn [ewp]. discriminate. }
  intros ce oe K. destruct ce; [discriminate|]. clear K.
  apply (r_io g ND Q) with (ok := fun _ oe => negb oe); [reflexivity| | |].
  - intros l ce' oe' O K. destruct oe'; [discriminate|]. now apply (only_core _ _ ce'); [apply cl_core|].
  - intros l ce' oe' O K. destruct oe'; [discriminate|]. cbn [orb].
    apply (r_nop g ND Q) with (ok := fun _ oe => negb oe); [reflexivity| |].
    + intros ce1 oe1 K1. destruct oe1; [discriminate|]. constructor.
      apply persist_ref.
      * intros t oe2. apply (r_nop g ND Q) with (ok := fun _ _ => true); [reflexivity| |discriminate].
        intros. apply H.
      * intros t oe2. cbn [ewp]. discriminate.
    + intros ce1 oe1 K1. destruct oe1; [|discriminate]. cbn [ewp]. discriminate.
  - intros l ce' oe' O K. destruct oe'; [|discriminate]. cbn [orb ewp]. discriminate.
Qed.

Lemma wb_ref s r d : ref s (wb_do g r d s) (wb_e g r d s).
Proof.
  unfold wb_do, wb_e. apply (r_io g ND Q) with (ok := fun ce _ => negb ce); [reflexivity| | |].
  - intros l ce oe O K. destruct ce; [discriminate|]. now apply (only_cache _ _ oe); [apply cw_cache|].
  - intros l ce oe O K. destruct ce; [discriminate|]. constructor.
    destruct (is_dirty_all g s r); [constructor|]. destruct (mark_dirty g s r); [constructor|].
    apply persist_ref; [intros; constructor|]. intros. cbn [ewp]. discriminate.
  - intros l ce oe O K. destruct ce; [|discriminate]. unfold inv_e. cbn [ewp]. discriminate.
Qed.

Lemma wi_purge_ref s r k k' : (forall t, ref t (k t) (k' t)) ->
  ref s (wi_purge g r k s) (wi_purge_e g r k' s).
Proof.
  intros H. unfold wi_purge, wi_purge_e. destruct (slots g s r); [apply H|]. constructor.
  destruct (mark_clean g s r); [apply H|]. apply persist_ref.
  - intros. apply H.
  - intros. cbn [ewp]. discriminate.
Qed.

Lemma wi_ref s r d : ref s (wi_do g r d s) (wi_e g r d s).
Proof.
  unfold wi_do, wi_e. apply clean_ref. intros t.
  apply (r_io g ND Q) with (ok := fun _ oe => negb oe); [reflexivity| | |].
  - intros l ce' oe' O K. destruct oe'; [discriminate|]. now apply (only_core _ _ ce'); [apply kw_core|].
  - intros l ce' oe' O K. destruct oe'; [discriminate|]. apply wi_purge_ref. intros t'.
    destruct (is_hit g s r); [constructor|]. apply wi_purge_ref. intros. constructor.
  - intros l ce' oe' O K. destruct oe'; [|discriminate]. cbn [ewp]. discriminate.
Qed.

(** The error branches of write-through and of the read with backfill are left
    to the caller. *)
Lemma wt_ref s r d :
  (forall u l ce oe, u = s \/ u = do_mems g (if is_hit g s r then [] else set_valid g s r) s ->
     outcome (cache_writes g s r d ++ core_writes r d) l ce oe -> ce || oe = true -> oe = false -> ND ->
     Q no_data (do_mems g (purge g (do_ios l u) r) (do_ios l u))) ->
  ref s (wt_do g r d s) (wt_e g r d s).
Proof.
  intros H. unfold wt_do, wt_e. destruct (dirty_any g s r).
  - apply (r_io g ND Q) with (ok := fun ce oe => negb (ce || oe)); [reflexivity| | |].
    + intros l ce oe O K. destruct ce, oe; try discriminate. exact (outcome_all _ _ O).
    + intros l ce oe O K. apply negb_true_iff in K. rewrite K. constructor.
      destruct (mark_clean g s r); [constructor|]. apply persist_ref; [intros; constructor|].
      intros. cbn [ewp]. discriminate.
    + intros l ce oe O K. apply negb_false_iff in K. rewrite K. unfold inv_e. cbn [ewp].
      intros E N. apply (H s l ce oe); try assumption. now left.
  - constructor. apply (r_io g ND Q) with (ok := fun ce oe => negb (ce || oe)); [reflexivity| | |].
    + intros l ce oe O K. destruct ce, oe; try discriminate. exact (outcome_all _ _ O).
    + intros l ce oe O K. apply negb_true_iff in K. rewrite K. constructor.
    + intros l ce oe O K. apply negb_false_iff in K. rewrite K. unfold inv_e. cbn [ewp].
      intros E N. apply (H _ l ce oe); try assumption. now right.
Qed.

Lemma pt_ref s r : ref s (pt_do g r s) (pt_e g r s).
Proof.
  unfold pt_do, pt_e. apply clean_ref. intros t.
  apply (r_nop g ND Q) with (ok := fun _ oe => negb oe); [reflexivity| |].
  - intros ce oe K. destruct oe; [discriminate|]. constructor.
  - intros ce oe K. destruct oe; [|discriminate]. cbn [ewp]. discriminate.
Qed.

Lemma hit_ref s r :
  ewp g (pt_e g r s) s (fun err _ b t => err = false -> ND -> Q b t) ->
  ref s (Ret (read_cache g s r)) (hit_e g r s).
Proof.
  intros H. unfold hit_e. apply (r_nop g ND Q) with (ok := fun ce _ => negb ce); [reflexivity| |].
  - intros ce oe K. destruct ce; [discriminate|]. constructor.
  - intros ce oe K. destruct ce; [|discriminate]. exact H.
Qed.

Lemma wo_ref s r :
  ewp g (pt_e g r s) s (fun err _ b t => err = false -> ND -> Q b t) ->
  ref s (wo_do g r s) (wo_e g r s).
Proof.
  intros H. unfold wo_do, wo_e. destruct (is_hit g s r); [now apply hit_ref|].
  apply (r_nop g ND Q) with (ok := fun _ oe => negb oe); [reflexivity| |].
  - intros ce oe K. destruct oe; [discriminate|]. destruct (dirty_any g s r); [|constructor].
    apply (r_nop g ND Q) with (ok := fun ce _ => negb ce); [reflexivity| |].
    + intros ce1 oe1 K1. destruct ce1; [discriminate|]. constructor.
    + intros ce1 oe1 K1. destruct ce1; [|discriminate]. cbn [ewp]. discriminate.
  - intros ce oe K. destruct oe; [|discriminate]. cbn [ewp]. discriminate.
Qed.


Lemma prepare_ref s r promo vs yes no yes' no' :
  (forall t, ref t (yes t) (yes' t)) -> (forall t, ref t (no t) (no' t)) ->
  ref s (prepare g s r promo vs yes no) (prepare_e g s r promo vs yes' no').
Proof.
  intros HY HN. unfold prepare, prepare_e. destruct (is_mapped g s r); [apply HY|].
  destruct (negb promo); [apply HN|]. destruct (remap g r (cl_list g r) vs s) as [[m ok] l].
  destruct ok; constructor; [apply HY|apply HN].
Qed.
End R.

(** ** Fault-free runs. *)
Section FF.
Context (g : cfg).
Local Notation ref := (ref g False (fun _ _ => True)).

Lemma rd_ref s r : ref s (rd_do g r s) (rd_e g r s).
Proof.
  unfold rd_do, rd_e. destruct (is_hit g s r).
  - apply hit_ref. now apply ewp_any.
  - apply clean_ref. intros t. apply r_nop with (ok := fun _ oe => negb oe); [reflexivity| |].
    + intros ce oe K. destruct oe; [discriminate|].
      apply r_io with (ok := fun ce _ => negb ce); [reflexivity| | |].
      * intros l ce1 oe1 O K1. destruct ce1; [discriminate|]. now apply (only_cache _ _ oe1); [apply cw_cache|].
      * intros l ce1 oe1 O K1. destruct ce1; [discriminate|]. constructor. constructor.
      * intros. now apply ewp_any.
    + intros. now apply ewp_any.
Qed.

Lemma write_ref s m promo vs r d : ref s (write_prog g m promo vs r d s) (write_e g m promo vs r d s).
Proof.
  assert (WT' : forall t, ref t (wt_do g r d t) (wt_e g r d t)) by (intros; apply wt_ref; tauto).
  unfold write_prog, write_e. destruct m; try apply wi_ref.
  - apply prepare_ref; [exact WT'|intros; apply wi_ref].
  - apply prepare_ref; [intros; apply wb_ref|intros; apply wi_ref].
  - destruct (is_hit g s r); [|apply wi_ref]. apply prepare_ref; [exact WT'|intros; apply wi_ref].
  - apply prepare_ref; [intros; apply wb_ref|intros; apply wi_ref].
Qed.

Lemma read_ref s m promo seqc vs r : ref s (read_prog g m promo seqc vs r s) (read_e g m promo seqc vs r s).
Proof.
  assert (P : ref s (prepare g s r promo vs (rd_do g r) (pt_do g r)) (prepare_e g s r promo vs (rd_e g r) (pt_e g r))).
  { apply prepare_ref; [intros; apply rd_ref|intros; apply pt_ref]. }
  unfold read_prog, read_e. destruct m; try exact P.
  - destruct (seqc && is_dirty_all g s r); [exact P|apply pt_ref].
  - apply wo_ref. now apply ewp_any.
Qed.

Lemma op_ref s o p : op_e g o s = Some p -> ref s (op_prog g o s) p.
Proof.
  destruct o as [fast m promo vs r d|fast m promo seqc vs r|step r dv|cs|c|cs]; cbn [op_e op_prog];
    intros E; try discriminate; injection E as <-.
  - destruct fast; [|apply write_ref]. unfold write_fast_prog, write_fast_e.
    destruct (is_mapped g s r); [apply wb_ref|apply write_ref].
  - destruct fast; [|apply read_ref]. unfold read_fast_prog, read_fast_e.
    destruct (is_hit g s r); [|apply read_ref]. apply hit_ref. now apply ewp_any.
  - apply clean_ref. intros. constructor.
  - destruct (line_dirty g s c); [constructor|]. constructor. constructor.
  - apply persist_ref; [intros; constructor|]. intros. now apply ewp_any.
Qed.
End FF.

(** ** The full invariant. *)
Lemma ewp_and g p : forall s (Q1 Q2 : bool -> bool -> (N -> N) -> st -> Prop),
  ewp g p s Q1 -> ewp g p s Q2 -> ewp g p s (fun e f b t => Q1 e f b t /\ Q2 e f b t).
Proof.
  induction p as [err b|es k IH|es k IH]; intros s Q1 Q2 H1 H2; cbn [ewp] in *.
  - now split.
  - intros l ce oe O. apply (IH ce oe _ _ (fun err flt => Q1 err (ce || oe || flt))
      (fun err flt => Q2 err (ce || oe || flt))); [now apply H1|now apply H2].
  - now apply IH.
Qed.

Section I.
Context (g : cfg) (vc : N -> bool) (W : wf g vc).
Local Notation HL := (HL g vc W).

Definition keep (s t : st) : Prop :=
  (forall c, ptbl t c = ptbl s c) /\ (forall c o, pvld t c o = pvld s c o) /\
  (forall c o, pdrt t c o = pdrt s c o) /\ (forall c o, o < ls g -> drt t c o = drt s c o) /\
  (forall c o, o < ls g -> drt s c o = true -> tbl t c = tbl s c).

Definition func (A : N -> N -> N -> Prop) : Prop := forall cid x v w, A cid x v -> A cid x w -> v = w.

Lemma wk_inv s t A : Inv g vc s -> keep s t -> func A -> Wk g vc t A ->
  Inv g vc t /\ forall cid x, A cid x (abs g t cid x).
Proof.
  intros I (K1 & K2 & K3 & K4 & K5) F [R HV HC]. pose proof HL as HL'.
  assert (NC : forall c cid cl o, tbl t c = Some (cid, cl) -> o < ls g -> drt t c o = false ->
    A cid (cl * ls g + o) (core t cid (cl * ls g + o))).
  { intros c cid cl o E Ho D. apply HC; [assumption|]. intros c' E' D'.
    assert (c' = c) by (eapply (i_inj _ _ _ R); cbn; eassumption). congruence. }
  assert (It : Inv g vc t).
  { constructor; try apply R.
    - intros c o cid cl E Ho V D. apply (F cid (cl * ls g + o)); [now apply HV|now apply (NC c)].
    - intros c o Ho. rewrite K3, K4 by assumption. now apply (i_pd _ _ _ I).
    - intros c o Ho D. rewrite K4 in D by assumption. rewrite K1, K2, (K5 c o Ho D). now apply (i_pt _ _ _ I).
    - intros c cid cl. rewrite K1. apply (i_pc _ _ _ I). }
  split; [assumption|]. intros cid.
  apply (by_line g vc W (fun x => A cid x (abs g t cid x))). intros cl o Ho.
  destruct (mapped_dec g vc t cid cl It) as [[c E]|E].
  - rewrite (abs_mapped g vc t c cid cl o It HL' E Ho). destruct (vld t c o) eqn:V; [now apply HV|].
    apply (NC c); try assumption. destruct (drt t c o) eqn:D; [|reflexivity].
    apply (i_dv _ _ _ It) in D; congruence.
  - rewrite (abs_unmapped g t cid cl o Ho E). apply HC; [assumption|]. intros c T _. now apply (E c).
Qed.

Lemma ios_keep l u : (forall c, ~ In (Persist c) l) -> keep u (do_ios l u).
Proof.
  intros H. destruct (ios_ram l u) as (R1 & R2 & R3). split; [|split; [|split; [|split]]].
  - intros c. now apply ios_nometa.
  - intros c o. now apply ios_nometa.
  - intros c o. now apply ios_nometa.
  - intros. now rewrite R3.
  - intros. now rewrite R1.
Qed.
Lemma keep_trans s t u : keep s t -> keep t u -> keep s u.
Proof.
  intros (A1 & A2 & A3 & A4 & A5) (B1 & B2 & B3 & B4 & B5).
  split; [|split; [|split; [|split]]]; intros; try congruence.
  - now rewrite B4, A4.
  - rewrite (B5 c o); try assumption; [now apply (A5 c o)|now rewrite A4].
Qed.
Lemma mem_keep es s : tbl (do_mems g es s) = tbl s -> drt (do_mems g es s) = drt s -> keep s (do_mems g es s).
Proof.
  intros T D. destruct (mem_dev g es s) as (_ & _ & P1 & P2 & P3).
  split; [|split; [|split; [|split]]]; intros; congruence.
Qed.

Lemma purge_keep t r : Inv g vc (ghost t) -> 0 < rn r -> nodirty g t r ->
  keep t (do_mems g (purge g t r) t).
Proof.
  intros I Hn ND. destruct (purge_spec g vc W (ghost t) r t I) as (T & V & D).
  change (purge g (ghost t) r) with (purge g t r) in T, V, D.
  destruct (mem_dev g (purge g t r) t) as (_ & _ & P1 & P2 & P3).
  set (u := do_mems g (purge g t r) t) in *.
  assert (NS : forall c o, o < ls g -> drt t c o = true -> ~ inslot g (ghost t) r c o).
  { intros c o Ho Dr S. assert (Tc : tbl t c <> None).
    { apply (i_vt _ _ _ I c o Ho). now apply (i_dv _ _ _ I). }
    destruct (tbl t c) as [[cid cl]|] eqn:E; [|congruence].
    apply (inslot_req g vc W (ghost t) r c o cid cl I Hn E Ho) in S. now apply (ND c cid cl o). }
  split; [|split; [|split; [|split]]]; intros; try congruence.
  - apply bool_iff_eq. rewrite D. split; [tauto|]. intros H'. split; [assumption|]. now apply NS.
  - destruct (T c) as [E|[_ F]]; [assumption|].
    assert (Vu : vld u c o = true).
    { apply V. split; [now apply (i_dv _ _ _ I)|now apply NS]. }
    rewrite F in Vu by assumption. discriminate.
Qed.

(** Write-through with a cache error only, no dirty data in the range. *)
Definition acked (s : st) (r : req) (d : N -> N) (t : st) : Prop :=
  Inv g vc t /\ written (abs g s) r d (abs g t).

Lemma over_func A r d : func A -> func (over A r d).
Proof.
  intros F cid x v w [H1 H2] [H3 H4]. destruct (inreq_dec r cid x).
  - rewrite H1, H3 by assumption. reflexivity.
  - apply (F cid x); auto.
Qed.
Lemma eqabs_func s : func (eqabs g s).
Proof. intros cid x v w -> ->. reflexivity. Qed.

Lemma wt_inv s r d : Inv g vc s -> 0 < rn r -> is_mapped g s r = true ->
  ewp g (wt_e g r d s) s (fun err flt _ t => err = false -> flt = false \/ nodirty g s r -> acked s r d t).
Proof.
  intros I Hn M. assert (Ig := inv_ram g vc W s I).
  eapply ewp_mono; [|apply ewp_and; [apply (wt_wk g vc W s r d (eqabs g s) (inv_wk g vc W s I) Hn)|
    eapply (ref_ewp g (nodirty g s r) (fun _ t => acked s r d t \/ keep s t) s (wt_do g r d s))]].
  - cbn. intros err flt _ t [H1 H2] E F. destruct (H2 E F) as [H|H]; [assumption|].
    destruct (H1 F) as [_ H1']. specialize (H1' E).
    destruct (wk_inv s t _ I H (over_func _ r d (eqabs_func s)) H1') as [It A].
    split; [assumption|]. exact A.
  - apply wt_ref. intros u l ce oe Hu O F Eo ND. right.
    assert (U : tbl u = tbl s /\ drt u = drt s /\ keep s u /\ Inv g vc (ghost u)).
    { destruct Hu as [Hu|Hu]; subst u.
      - repeat (split; [reflexivity|]). split; [apply (mem_keep [] s); reflexivity|assumption].
      - destruct (setv_cond g vc s r s Ig eq_refl) as (C1 & C2 & C3 & C4 & C5).
        set (u := do_mems g (if is_hit g s r then [] else set_valid g s r) s) in *.
        split; [assumption|]. split; [assumption|]. split; [now apply mem_keep|].
        assert (IT : forall c o, inslot g (ghost s) r c o -> tbl s c <> None).
        { intros c o (cl & E & _). cbn in E. congruence. }
        constructor; cbn [ghost core cdat tbl vld drt ptbl pvld pdrt]; rewrite ?C1, ?C2.
        + apply (i_inj _ _ _ Ig).
        + apply (i_rng _ _ _ Ig).
        + intros c o Ho V. apply C5 in V.
          destruct V as [V|V]; [now apply (i_vt _ _ _ Ig c o)|now apply (IT c o)].
        + intros c o Ho D. apply C5. left. now apply (i_dv _ _ _ Ig).
        + reflexivity.
        + reflexivity.
        + intros c o Ho D. split; [reflexivity|]. apply C5. left. now apply (i_dv _ _ _ Ig).
        + apply (i_pc _ _ _ Ig).
        + apply (i_tc _ _ _ Ig). }
    destruct U as (U1 & U2 & U3 & U4).
    assert (K1 : keep u (do_ios l u)).
    { apply ios_keep. intros c H. apply (proj1 O) in H. apply in_app_iff in H. destruct H as [H|H].
      - apply cw_kind in H. destruct H as (? & ? & ? & H). discriminate.
      - apply kw_kind in H. destruct H as (? & ? & ? & H). discriminate. }
    destruct (ios_ram l u) as (R1 & R2 & R3).
    apply (keep_trans _ _ _ U3), (keep_trans _ _ _ K1). apply purge_keep; [|assumption|].
    + apply (ram_ext g vc u); try assumption; intros; congruence.
    + intros c cid cl o E Ho D. apply (ND c cid cl o); congruence.
  - eapply wp_mono; [| |apply (wt_ok g vc W s r d (abs g s) I Hn M)]; [intros t Ht; exact Ht| |reflexivity].
    intros _ t (A & B & _). left. now split.
Qed.

Lemma wb_inv s r d : Inv g vc s -> 0 < rn r -> is_mapped g s r = true ->
  ewp g (wb_e g r d s) s (fun err flt _ t => err = false -> acked s r d t).
Proof.
  intros I Hn M. eapply ewp_mono; [|eapply (ref_ewp g True (fun _ t => acked s r d t) s (wb_do g r d s))].
  - cbn. intros err flt _ t H E. apply H; [assumption|now right].
  - apply wb_ref.
  - eapply wp_mono; [| |apply (wb_ok g vc W s r d (abs g s) I Hn M)]; [intros t Ht; exact Ht| |reflexivity].
    intros _ t (A & B). now split.
Qed.

Lemma wi_inv s r d : Inv g vc s -> 0 < rn r ->
  ewp g (wi_e g r d s) s (fun err flt _ t => err = false -> acked s r d t).
Proof.
  intros I Hn. eapply ewp_mono; [|eapply (ref_ewp g True (fun _ t => acked s r d t) s (wi_do g r d s))].
  - cbn. intros err flt _ t H E. apply H; [assumption|now right].
  - apply wi_ref.
  - eapply wp_mono; [| |apply (wi_ok g vc W s r d (abs g s) I Hn)]; [intros t Ht; exact Ht| |reflexivity].
    intros _ t (A & B & _). now split.
Qed.

Lemma same_nodirty s t m r : Inv g vc s -> same g vc s t -> t = do_mems g m s -> nodirty g s r -> nodirty g t r.
Proof.
  intros I (It & _ & D) -> ND c cid cl o E Ho Dt. rewrite D in Dt. apply (ND c cid cl o); try assumption.
  destruct (mem_dev g m s) as (_ & _ & P1 & _).
  destruct (i_pt _ _ _ I c o Ho Dt) as [Q1 _].
  destruct (i_pt _ _ _ It c o Ho) as [Q2 _]; [congruence|]. congruence.
Qed.

Lemma prepare_inv s r promo vs yes no Q : Inv g vc s -> vc (rc r) = true ->
  (forall t m, same g vc s t -> t = do_mems g m s -> is_mapped g t r = true -> ewp g (yes t) t Q) ->
  (forall t, same g vc s t -> ewp g (no t) t Q) ->
  ewp g (prepare_e g s r promo vs yes no) s Q.
Proof.
  intros I Hv HY HN. unfold prepare_e. destruct (is_mapped g s r) eqn:M.
  - apply (HY s []); [now apply same_refl|reflexivity|assumption].
  - destruct promo; cbn [negb]; [|apply HN; now apply same_refl].
    destruct (remap g r (cl_list g r) vs s) as [[m ok] l] eqn:R.
    destruct (remap_ok g vc W r (cl_list g r) Hv vs s m ok l I) as (R1 & R2 & R3 & R4); [|assumption|].
    { intros cl H. now apply in_rng in H. }
    destruct ok; cbn [ewp].
    + apply (HY _ m); [assumption|reflexivity|]. unfold is_mapped. apply forallb_forall. intros cl H.
      destruct (R3 eq_refl cl H) as [c T]. unfold slot_mapped.
      assert (It : Inv g vc (do_mems g m s)) by apply R1.
      apply (lookup_iff g vc) in T; [|assumption]. now rewrite T.
    + apply HN. rewrite mems_app. apply (same_trans g vc _ _ _ R1). apply (drops_ok g vc W); [apply R1|].
      intros c Hc. rewrite (drt_line_dirty g s); [now apply R2|apply R1].
Qed.

Lemma acked_same s t r d u : same g vc s t -> acked t r d u -> acked s r d u.
Proof.
  intros (_ & E & _) [A B]. split; [assumption|]. intros cid x. rewrite <- E. apply B.
Qed.

(** Modes in which a failed cache write is tolerated. *)
Definition tolerant (m : mode) : bool := match m with WT | WA => true | _ => false end.

Lemma write_inv s m promo vs r d : Inv g vc s -> 0 < rn r -> vc (rc r) = true ->
  ewp g (write_e g m promo vs r d s) s (fun err flt _ t =>
    err = false -> flt = false \/ nodirty g s r \/ tolerant m = false -> acked s r d t).
Proof.
  intros I Hn Hv.
  assert (WI' : forall t, same g vc s t -> forall P : bool -> Prop, ewp g (wi_e g r d t) t (fun err flt _ t' =>
    err = false -> P flt -> acked s r d t')).
  { intros t S P. eapply ewp_mono; [|apply (wi_inv t r d); [apply S|assumption]]. cbn. intros err flt _ u H E _.
    apply (acked_same s t); [assumption|now apply H]. }
  assert (WB' : forall t m', same g vc s t -> t = do_mems g m' s -> is_mapped g t r = true ->
    forall P : bool -> Prop, ewp g (wb_e g r d t) t (fun err flt _ t' =>
    err = false -> P flt -> acked s r d t')).
  { intros t m' S _ M P. eapply ewp_mono; [|apply (wb_inv t r d); [apply S|assumption|assumption]].
    cbn. intros err flt _ u H E _. apply (acked_same s t); [assumption|now apply H]. }
  assert (WT' : forall t m', same g vc s t -> t = do_mems g m' s -> is_mapped g t r = true ->
    ewp g (wt_e g r d t) t (fun err flt _ t' =>
    err = false -> flt = false \/ nodirty g s r \/ true = false -> acked s r d t')).
  { intros t m' S Em M. eapply ewp_mono; [|apply (wt_inv t r d); [apply S|assumption|assumption]].
    cbn. intros err flt _ u H E F. apply (acked_same s t); [assumption|]. apply H; [assumption|].
    destruct F as [F|[F|F]]; [now left|right|discriminate]. now apply (same_nodirty s t m'). }
  unfold write_e. destruct m; cbn [tolerant];
    try (apply (WI' s (same_refl g vc s I) (fun flt => flt = false \/ nodirty g s r \/ false = false))).
  - apply prepare_inv; try assumption. intros t S.
    apply (WI' t S (fun flt => flt = false \/ nodirty g s r \/ true = false)).
  - apply prepare_inv; try assumption.
    + intros t m' S E M. apply (WB' t m' S E M (fun flt => flt = false \/ nodirty g s r \/ false = false)).
    + intros t S. apply (WI' t S (fun flt => flt = false \/ nodirty g s r \/ false = false)).
  - destruct (is_hit g s r).
    + apply prepare_inv; try assumption. intros t S.
      apply (WI' t S (fun flt => flt = false \/ nodirty g s r \/ true = false)).
    + apply (WI' s (same_refl g vc s I) (fun flt => flt = false \/ nodirty g s r \/ true = false)).
  - apply prepare_inv; try assumption.
    + intros t m' S E M. apply (WB' t m' S E M (fun flt => flt = false \/ nodirty g s r \/ false = false)).
    + intros t S. apply (WI' t S (fun flt => flt = false \/ nodirty g s r \/ false = false)).
Qed.

Lemma write_fast_inv s m promo vs r d : Inv g vc s -> 0 < rn r -> vc (rc r) = true ->
  ewp g (write_fast_e g m promo vs r d s) s (fun err flt _ t =>
    err = false -> flt = false \/ nodirty g s r \/ tolerant m = false -> acked s r d t).
Proof.
  intros I Hn Hv. unfold write_fast_e. destruct (is_mapped g s r) eqn:M; [|now apply write_inv].
  eapply ewp_mono; [|now apply (wb_inv s r d)]. cbn. tauto.
Qed.

(** ** Reads. *)
Lemma clean_inv s cs0 k' (Q : bool -> bool -> (N -> N) -> st -> Prop) : Inv g vc s ->
  (forall f b t, Q true f b t) ->
  (forall t f, cleaned g vc s cs0 t -> ewp g (k' t) t (fun err flt => Q err (f || flt))) ->
  ewp g (clean_e g s cs0 k') s Q.
Proof.
  intros I HE HK.
  assert (P : wp g (clean_prog g s cs0 (fun _ => Ret no_data)) s (fun _ => True) (fun _ t => cleaned g vc s cs0 t)).
  { apply (clean_ok g vc W); [assumption|auto|]. intros t Ht. cbn [wp]. auto. }
  unfold clean_prog in P. unfold clean_e. destruct (filter (line_dirty g s) cs0) as [|c cs] eqn:E.
  { cbn [wp] in P. eapply ewp_mono; [|apply (HK s false); apply P]. cbn. auto. }
  cbn [wp] in P. destruct P as [_ P]. cbn [ewp].
  intros l0 ce0 oe0 O0. apply nil_outcome in O0. subst l0. cbn [do_ios].
  destruct ce0; [cbn [ewp]; apply HE|]. cbn [ewp].
  intros l ce oe O l1 ce1 oe1 O1. apply nil_outcome in O1. subst l1. cbn [do_ios].
  destruct oe; [cbn [orb ewp]; apply HE|]. destruct oe1; [cbn [orb ewp]; apply HE|]. cbn [orb ewp].
  specialize (P l (only_core _ _ ce (cl_core g s (c :: cs)) O)). destruct P as [_ [_ P]].
  intros l2 ce2 oe2 O2. destruct ce2; [cbn [ewp]; apply HE|]. cbn [ewp].
  specialize (P l2 (only_cache _ _ oe2 (ps_cache g (c :: cs)) O2)).
  intros l3 ce3 oe3 O3. apply nil_outcome in O3. subst l3. cbn [do_ios].
  eapply ewp_mono; [|apply (HK _ ((false || oe0) || ((ce || false) || ((ce1 || false) || ((false || oe2) || (ce3 || oe3))))));
    apply P]. cbn beta. intros err flt b t H. rewrite !orb_assoc in *. exact H.
Qed.

Lemma pt_inv s r : Inv g vc s -> 0 < rn r ->
  ewp g (pt_e g r s) s (fun err _ b t => err = false -> read_post g vc s r b t).
Proof.
  intros I Hn. eapply ewp_mono; [|eapply (ref_ewp g True (read_post g vc s r) s (pt_do g r s))].
  - cbn. intros err flt b t H E. apply H; [assumption|now right].
  - apply pt_ref.
  - apply (pt_ok g vc W s r I Hn).
Qed.

Lemma hit_inv s r : Inv g vc s -> 0 < rn r -> is_hit g s r = true ->
  ewp g (hit_e g r s) s (fun err _ b t => err = false -> read_post g vc s r b t).
Proof.
  intros I Hn H. unfold hit_e. cbn [ewp]. intros l ce oe O. apply nil_outcome in O. subst l. cbn [do_ios].
  destruct ce.
  - now apply pt_inv.
  - cbn [ewp]. intros _. split; [assumption|]. split; [reflexivity|]. intros x S. now apply (hit_read g vc W).
Qed.

Lemma wo_inv s r : Inv g vc s -> 0 < rn r ->
  ewp g (wo_e g r s) s (fun err _ b t => err = false -> read_post g vc s r b t).
Proof.
  intros I Hn. eapply ewp_mono; [|eapply (ref_ewp g True (read_post g vc s r) s (wo_do g r s))].
  - cbn. intros err flt b t H E. apply H; [assumption|now right].
  - apply wo_ref. eapply ewp_mono; [|now apply pt_inv]. cbn. auto.
  - apply (wo_ok g vc W s r I Hn).
Qed.

Lemma rd_inv s r : Inv g vc s -> 0 < rn r ->
  ewp g (rd_e g r s) s (fun err _ b t => err = false -> read_post g vc s r b t).
Proof.
  intros I Hn. unfold rd_e at 1. destruct (is_hit g s r) eqn:HH; [now apply hit_inv|].
  assert (K : ewp g (rd_e g r s) s (fun err _ b t => err = false -> exists s1, Inv g vc s1 /\ keep s1 t)).
  { unfold rd_e. rewrite HH. apply clean_inv; [assumption|discriminate|].
    intros s1 f Hc.
    pose proof (cleaned_slot g vc W s r s1) as CS.
    destruct Hc as (I1 & Hc'). assert (Hc := conj I1 Hc'). fold (cleaned g vc s (dirty_lines g s r) s1) in Hc.
    cbn [ewp]. intros l0 ce0 oe0 O0. apply nil_outcome in O0. subst l0. cbn [do_ios].
    destruct oe0; [unfold inv_e; cbn [ewp]; discriminate|]. cbn [ewp].
    intros l ce oe O. assert (K1 : keep s1 (do_ios l s1)).
    { apply ios_keep. intros c H. apply (proj1 O), cw_kind in H. destruct H as (? & ? & ? & H). discriminate. }
    destruct (ios_ram l s1) as (R1 & R2 & R3).
    assert (Ig := inv_ram g vc W s1 I1).
    assert (Iu : Inv g vc (ghost (do_ios l s1))).
    { apply (ram_ext g vc s1); try assumption; intros; congruence. }
    destruct ce.
    - unfold inv_e. cbn [ewp]. intros _. exists s1. split; [assumption|].
      apply (keep_trans _ _ _ K1). apply purge_keep; try assumption.
      intros c cid cl o E Ho D Q.
      assert (drt s1 c o = false); [|congruence].
      rewrite R1 in E. now apply (CS cid cl o c).
    - cbn [ewp]. intros _. exists s1. split; [assumption|]. apply (keep_trans _ _ _ K1).
      destruct (setv_spec g vc (ghost (do_ios l s1)) r (do_ios l s1) Iu) as (B1 & B2 & _).
      now apply mem_keep. }
  assert (P : ewp g (rd_e g r s) s (fun err _ b t => err = false -> read_post g vc s r b t)).
  { eapply ewp_mono; [|apply ewp_and; [apply (rd_wk g vc W s r (eqabs g s) (inv_wk g vc W s I) Hn)|exact K]].
    cbn. intros err flt b t [[H1 H2] H3] E. destruct (H3 E) as (s1 & I1 & K1).
    destruct (wk_inv s1 t _ I1 K1 (eqabs_func s) H1) as [It A].
    split; [assumption|]. split; [exact A|]. exact (H2 E). }
  unfold rd_e in P. rewrite HH in P. exact P.
Qed.

Lemma read_inv s m promo seqc vs r : Inv g vc s -> 0 < rn r -> vc (rc r) = true ->
  ewp g (read_e g m promo seqc vs r s) s (fun err _ b t => err = false -> read_post g vc s r b t).
Proof.
  intros I Hn Hv.
  assert (RS : forall t b u, same g vc s t -> read_post g vc t r b u -> read_post g vc s r b u).
  { intros t b u (It & Ea & _) (I1 & E1 & E2). split; [assumption|]. split.
    - intros cid x. rewrite E1. apply Ea.
    - intros x S. rewrite E2 by assumption. apply Ea. }
  assert (GO : ewp g (prepare_e g s r promo vs (rd_e g r) (pt_e g r)) s
    (fun err _ b t => err = false -> read_post g vc s r b t)).
  { apply prepare_inv; try assumption.
    - intros t m' S _ _. eapply ewp_mono; [|apply (rd_inv t r); [apply S|assumption]].
      cbn. intros err flt b u H E. apply (RS t); auto.
    - intros t S. eapply ewp_mono; [|apply (pt_inv t r); [apply S|assumption]].
      cbn. intros err flt b u H E. apply (RS t); auto. }
  unfold read_e. destruct m; try exact GO.
  - destruct (seqc && is_dirty_all g s r); [exact GO|now apply pt_inv].
  - now apply wo_inv.
Qed.

Lemma read_fast_inv s m promo seqc vs r : Inv g vc s -> 0 < rn r -> vc (rc r) = true ->
  ewp g (read_fast_e g m promo seqc vs r s) s (fun err _ b t => err = false -> read_post g vc s r b t).
Proof.
  intros I Hn Hv. unfold read_fast_e. destruct (is_hit g s r) eqn:H; [now apply hit_inv|now apply read_inv].
Qed.

Definition apost (s : st) (o : op) (b : N -> N) (t : st) : Prop :=
  Inv g vc t /\
  match o with
  | OpWrite _ _ _ _ r d => written (abs g s) r d (abs g t)
  | OpRead _ _ _ _ _ r => (forall cid x, abs g t cid x = abs g s cid x) /\
      forall x, inreq r (rc r) x -> b x = abs g s (rc r) x
  | _ => forall cid x, abs g t cid x = abs g s cid x
  end.
(** What a tolerated error must not meet. *)
Definition safe (s : st) (o : op) (flt : bool) : Prop :=
  match o with
  | OpWrite _ m _ _ r _ => flt = false \/ nodirty g s r \/ tolerant m = false
  | _ => True
  end.

Lemma op_inv s o p : Inv g vc s -> op_ok vc o -> op_e g o s = Some p ->
  ewp g p s (fun err flt b t => err = false -> safe s o flt -> apost s o b t).
Proof.
  intros I A E.
  destruct o as [fast m promo vs r d|fast m promo seqc vs r|step r dv|cs|c|cs]; cbn [op_e op_ok safe] in *;
    try discriminate; injection E as <-.
  - destruct A as [Hn Hv]. destruct fast.
    + now apply write_fast_inv.
    + now apply write_inv.
  - destruct A as [Hn Hv]. destruct fast.
    + eapply ewp_mono; [|now apply (read_fast_inv s m promo seqc vs r)]. cbn. intros err flt b t H E _. now apply H.
    + eapply ewp_mono; [|now apply (read_inv s m promo seqc vs r)]. cbn. intros err flt b t H E _. now apply H.
  - apply clean_inv; [assumption|discriminate|]. intros t f (It & Ea & _). cbn [ewp]. intros _ _. now split.
  - destruct (line_dirty g s c) eqn:LD; cbn [ewp]; intros _ _.
    + split; [assumption|reflexivity].
    + destruct (drop_ok g vc W s c I LD) as (It & Ea & _). split; [exact It|exact Ea].
  - cbn [ewp]. intros l ce oe O. cbn [ewp]. intros E _. subst ce.
    pose proof (op_wp g vc W s (OpFlushMeta cs) I Logic.I) as P. cbn [op_prog wp] in P. destruct P as [_ P].
    specialize (P l (only_cache _ _ oe (ps_cache g cs) O)). cbn [wp] in P.
    destruct P as [_ (It & Ea & _)]. split; [exact It|exact Ea].
Qed.
End I.

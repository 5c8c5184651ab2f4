(** Data path: mapping, reads, discard, all operations. *)
From Coq Require Import NArith List Bool Lia.
From Verif Require Import DpModel DpProofs DpInv DpEng DpEng2 DpEng3.
Import ListNotations.
Open Scope N_scope.

Section S.
Context (g : cfg) (vc : N -> bool) (W : wf g vc).
Local Notation HL := (HL g vc W).

(** Same contents as seen by the user. *)
Definition same (s t : st) : Prop :=
  Inv g vc t /\ (forall cid x, abs g t cid x = abs g s cid x) /\ drt t = drt s.

Lemma same_refl s : Inv g vc s -> same s s.
Proof. intros I. split; [assumption|]. split; reflexivity. Qed.
Lemma same_trans s t u : same s t -> same t u -> same s u.
Proof.
  intros (I1 & A1 & D1) (I2 & A2 & D2). split; [assumption|]. split; [|congruence].
  intros. now rewrite A2, A1.
Qed.

Lemma not_dirty_line s c o : line_dirty g s c = false -> o < ls g -> drt s c o = false.
Proof.
  intros H Ho. unfold line_dirty in H. rewrite existsb_rng_false in H. apply H; lia.
Qed.

Definition dropl (c : N) : mem := SetI c 0 (ls g - 1).

Lemma drop_tbl s c : tbl (do_mem g (dropl c) s) = upd1 (tbl s) c None /\
  (forall c' o, o < ls g -> vld (do_mem g (dropl c) s) c' o = (if c' =? c then false else vld s c' o)).
Proof.
  pose proof HL as HL'. cbn [do_mem dropl tbl vld].
  assert (A : any_valid g (updr (vld s) c 0 (ls g - 1) false) c = false).
  { unfold any_valid. apply existsb_rng_false. intros o H1 H2. unfold updr.
    rewrite N.eqb_refl. destruct (N.leb_spec 0 o); [|lia]. destruct (N.leb_spec o (ls g - 1)); [reflexivity|lia]. }
  rewrite A. split; [reflexivity|]. intros c' o Ho. unfold updr.
  destruct (c' =? c); [|reflexivity].
  destruct (N.leb_spec 0 o); [|lia]. destruct (N.leb_spec o (ls g - 1)); [reflexivity|lia].
Qed.

Lemma drop_ok s c : Inv g vc s -> line_dirty g s c = false -> same s (do_mem g (dropl c) s).
Proof.
  intros I ND. pose proof HL as HL'. destruct (drop_tbl s c) as [T V].
  set (t := do_mem g (dropl c) s) in *.
  assert (Ed : drt t = drt s) by reflexivity.
  assert (TS : forall c' k, tbl t c' = Some k -> tbl s c' = Some k /\ c' <> c).
  { intros c' k H. rewrite T in H. unfold upd1 in H. destruct (N.eqb_spec c' c); [discriminate|]. tauto. }
  assert (It : Inv g vc t).
  { constructor.
    - intros c1 c2 k H1 H2. apply (i_inj _ _ _ I c1 c2 k); now apply TS.
    - intros c1 k H. apply (i_rng _ _ _ I c1 k). now apply TS.
    - intros c' o Ho Vt. rewrite V in Vt by assumption. rewrite T. unfold upd1.
      destruct (c' =? c); [discriminate|]. now apply (i_vt _ _ _ I c' o).
    - intros c' o Ho D. rewrite Ed in D. rewrite V by assumption.
      destruct (N.eqb_spec c' c) as [Hc|Hc].
      + subst c'. rewrite (not_dirty_line s c o ND Ho) in D. discriminate.
      + now apply (i_dv _ _ _ I).
    - intros c' o cid cl E Ho Vt D. rewrite V in Vt by assumption.
      destruct (c' =? c) eqn:Ec; [discriminate|].
      apply TS in E. now apply (i_cl _ _ _ I c' o).
    - intros c' o Ho. now apply (i_pd _ _ _ I).
    - intros c' o Ho D. rewrite Ed in D. rewrite T. unfold upd1.
      destruct (N.eqb_spec c' c) as [Hc|Hc].
      + subst c'. rewrite (not_dirty_line s c o ND Ho) in D. discriminate.
      + now apply (i_pt _ _ _ I).
    - intros c' cid cl H. now apply (i_pc _ _ _ I c' cid cl).
    - intros c' cid cl H. apply TS in H. now apply (i_tc _ _ _ I c' cid cl). }
  split; [assumption|]. split; [|reflexivity].
  intros cid. apply (by_line g vc W (fun x => abs g t cid x = abs g s cid x)).
  intros cl o Ho. destruct (mapped_dec g vc s cid cl I) as [[c' E]|E].
  - rewrite (abs_mapped g vc s c' cid cl o I HL' E Ho).
    destruct (N.eq_dec c' c) as [Hc|Hc].
    + subst c'. rewrite abs_unmapped; [|assumption|].
      * destruct (vld s c o) eqn:Vs; [|reflexivity]. symmetry. apply (i_cl _ _ _ I); try assumption.
        now apply not_dirty_line.
      * intros c' H. apply TS in H. destruct H as [H Hn]. apply Hn.
        apply (i_inj _ _ _ I c' c (cid, cl)); assumption.
    + assert (Et : tbl t c' = Some (cid, cl)).
      { rewrite T. unfold upd1. destruct (N.eqb_spec c' c); [contradiction|assumption]. }
      rewrite (abs_mapped g vc t c' cid cl o It HL' Et Ho), V by assumption.
      destruct (N.eqb_spec c' c); [contradiction|]. reflexivity.
  - rewrite !abs_unmapped; try assumption; [reflexivity|].
    intros c' H. apply TS in H. now apply (E c').
Qed.

(** Dropping a line and mapping it to a key that is not mapped. *)
Lemma map_ok s c k : Inv g vc s -> line_dirty g s c = false -> In c (all_lines g) ->
  vc (fst k) = true -> (forall c', tbl s c' <> Some k) ->
  let t := do_mems g [dropl c; MapL c k] s in
  same s t /\ (forall c', tbl t c' = if c' =? c then Some k else tbl s c').
Proof.
  intros I ND Hc Hv U t. pose proof HL as HL'.
  destruct (drop_ok s c I ND) as (I1 & A1 & D1).
  destruct (drop_tbl s c) as [T V]. change t with (do_mem g (MapL c k) (do_mem g (dropl c) s)).
  clear t. set (s1 := do_mem g (dropl c) s) in *. set (t := do_mem g (MapL c k) s1).
  assert (Tt : tbl t = upd1 (tbl s1) c (Some k)) by reflexivity.
  assert (T1 : forall c', tbl s1 c' <> Some k).
  { intros c' H. rewrite T in H. unfold upd1 in H. destruct (c' =? c); [discriminate|]. now apply (U c'). }
  assert (V1 : forall o, o < ls g -> vld s1 c o = false).
  { intros o Ho. rewrite V by assumption. now rewrite N.eqb_refl. }
  assert (TS : forall c', c' <> c -> tbl t c' = tbl s1 c').
  { intros c' Hn. rewrite Tt. unfold upd1. destruct (N.eqb_spec c' c); [contradiction|reflexivity]. }
  assert (TC : tbl t c = Some k) by (rewrite Tt; unfold upd1; now rewrite N.eqb_refl).
  assert (It : Inv g vc t).
  { constructor.
    - intros c1 c2 k0 H1 H2. destruct (N.eq_dec c1 c) as [E1|E1], (N.eq_dec c2 c) as [E2|E2]; subst.
      + reflexivity.
      + rewrite TC in H1. rewrite TS in H2 by assumption. exfalso. apply (T1 c2). congruence.
      + rewrite TC in H2. rewrite TS in H1 by assumption. exfalso. apply (T1 c1). congruence.
      + rewrite TS in H1, H2 by assumption. now apply (i_inj _ _ _ I1 c1 c2 k0).
    - intros c1 k0 H. destruct (N.eq_dec c1 c) as [E1|E1]; [now subst|].
      rewrite TS in H by assumption. now apply (i_rng _ _ _ I1 c1 k0).
    - intros c' o Ho Vt. destruct (N.eq_dec c' c) as [E1|E1]; [subst; congruence|].
      rewrite TS by assumption. now apply (i_vt _ _ _ I1 c' o).
    - intros c' o Ho D. now apply (i_dv _ _ _ I1).
    - intros c' o cid cl E Ho Vt D. destruct (N.eq_dec c' c) as [E1|E1].
      + subst. exfalso. assert (vld s1 c o = true) by exact Vt. rewrite V1 in H by assumption. discriminate.
      + rewrite TS in E by assumption. now apply (i_cl _ _ _ I1 c' o).
    - intros c' o Ho. now apply (i_pd _ _ _ I1).
    - intros c' o Ho D. destruct (N.eq_dec c' c) as [E1|E1].
      + subst. exfalso. assert (H : vld s1 c o = true) by (now apply (i_dv _ _ _ I1)).
        rewrite V1 in H by assumption. discriminate.
      + rewrite TS by assumption. now apply (i_pt _ _ _ I1).
    - intros c' cid cl H. now apply (i_pc _ _ _ I1 c' cid cl).
    - intros c' cid cl H. destruct (N.eq_dec c' c) as [E1|E1].
      + subst. rewrite TC in H. injection H as ->. exact Hv.
      + rewrite TS in H by assumption. now apply (i_tc _ _ _ I1 c' cid cl). }
  split.
  - split; [assumption|]. split; [|exact D1]. intros cid x. rewrite <- A1. revert x.
    apply (by_line g vc W (fun x => abs g t cid x = abs g s1 cid x)). intros cl o Ho.
    destruct (mapped_dec g vc t cid cl It) as [[c' E]|E].
    + rewrite (abs_mapped g vc t c' cid cl o It HL' E Ho).
      destruct (N.eq_dec c' c) as [E1|E1].
      * subst c'. change (vld t c o) with (vld s1 c o). rewrite V1 by assumption.
        rewrite TC in E. injection E as ->. rewrite (abs_unmapped g s1); [reflexivity|assumption|assumption].
      * rewrite TS in E by assumption.
        rewrite (abs_mapped g vc s1 c' cid cl o I1 HL' E Ho). reflexivity.
    + rewrite !abs_unmapped; try assumption; [reflexivity|].
      intros c' H. destruct (N.eq_dec c' c) as [E1|E1].
      * subst c'. rewrite T in H. unfold upd1 in H. rewrite N.eqb_refl in H. discriminate.
      * rewrite <- TS in H by assumption. now apply (E c').
  - intros c'. rewrite Tt. unfold upd1. destruct (c' =? c) eqn:Ec; [reflexivity|].
    rewrite T. unfold upd1. now rewrite Ec.
Qed.

Lemma drt_line_dirty s t c : drt t = drt s -> line_dirty g t c = line_dirty g s c.
Proof. intros E. unfold line_dirty. now rewrite E. Qed.

Lemma free_not_dirty s c : Inv g vc s -> tbl s c = None -> line_dirty g s c = false.
Proof.
  intros I T. pose proof HL as HL'. unfold line_dirty. apply existsb_rng_false. intros o _ Ho.
  destruct (drt s c o) eqn:D; [|reflexivity]. exfalso.
  assert (o < ls g) by lia. apply (i_dv _ _ _ I) in D; [|assumption]. now apply (i_vt _ _ _ I c o).
Qed.

Lemma can_take_ok s r c : Inv g vc s -> can_take g s r c = true ->
  line_dirty g s c = false /\ In c (all_lines g) /\
  forall cl, cl_first g r <= cl -> cl <= cl_last g r -> tbl s c <> Some (rc r, cl).
Proof.
  intros I H. unfold can_take in H. apply andb_true_iff in H. destruct H as [H1 H2].
  apply existsb_exists in H2. destruct H2 as (c' & H2 & H3). apply N.eqb_eq in H3. subst c'.
  destruct (tbl s c) as [[cid cl]|] eqn:T.
  - apply andb_true_iff in H1. destruct H1 as [H1 H4]. apply negb_true_iff in H1, H4.
    split; [assumption|]. split; [assumption|]. intros cl' L1 L2 E. injection E as -> ->.
    rewrite N.eqb_refl in H4. apply N.leb_le in L1, L2. rewrite L1, L2 in H4. discriminate.
  - split; [now apply free_not_dirty|]. split; [assumption|]. discriminate.
Qed.

Lemma remap_ok r cls : vc (rc r) = true -> forall vs s m ok l, Inv g vc s ->
  (forall cl, In cl cls -> cl_first g r <= cl /\ cl <= cl_last g r) ->
  remap g r cls vs s = (m, ok, l) ->
  same s (do_mems g m s) /\ (forall c, In c l -> line_dirty g s c = false) /\
  (ok = true -> forall cl, In cl cls -> exists c, tbl (do_mems g m s) c = Some (rc r, cl)) /\
  (forall cl c, cl_first g r <= cl -> cl <= cl_last g r -> tbl s c = Some (rc r, cl) ->
     tbl (do_mems g m s) c = Some (rc r, cl)).
Proof.
  intros Hv. induction cls as [|cl cls IH]; intros vs s m ok l I Hr E; cbn [remap] in E.
  - injection E as <- <- <-. cbn [do_mems]. split; [now apply same_refl|]. split; [intros c []|].
    split; [intros _ ? []|tauto].
  - destruct (slot_mapped g s r cl) eqn:SM.
    + destruct (IH vs s m ok l I) as (R1 & R2 & R3 & R4); [intros; apply Hr; now right|assumption|].
      split; [assumption|]. split; [assumption|]. split; [|assumption].
      intros Ho cl' [H|H]; [subst cl'|now apply R3].
      unfold slot_mapped in SM. destruct (lookup g s (rc r) cl) as [c|] eqn:L; [|discriminate].
      exists c. apply lookup_some in L. apply R4; try assumption; apply Hr; now left.
    + assert (NIL : forall m0 ok0 l0, ([], false, []) = (m0, ok0, l0) ->
        same s (do_mems g m0 s) /\ (forall c, In c l0 -> line_dirty g s c = false) /\
        (ok0 = true -> forall cl0, In cl0 (cl :: cls) -> exists c, tbl (do_mems g m0 s) c = Some (rc r, cl0)) /\
        (forall cl0 c, cl_first g r <= cl0 -> cl0 <= cl_last g r -> tbl s c = Some (rc r, cl0) ->
          tbl (do_mems g m0 s) c = Some (rc r, cl0))).
      { intros m0 ok0 l0 E0. injection E0 as <- <- <-. cbn [do_mems].
        split; [now apply same_refl|]. split; [intros c []|]. split; [discriminate|tauto]. }
      destruct vs as [|c vs]; [now apply NIL|].
      destruct (can_take g s r c) eqn:CT; [|now apply NIL]. clear NIL.
      destruct (can_take_ok s r c I CT) as (ND & Hc & NR).
      assert (U : forall c', tbl s c' <> Some (rc r, cl)).
      { intros c' H. apply (lookup_iff g vc) in H; [|assumption].
        unfold slot_mapped in SM. rewrite H in SM. discriminate. }
      destruct (map_ok s c (rc r, cl) I ND Hc Hv U) as [S1 T1].
      unfold dropl in S1, T1. set (s1 := do_mems g [SetI c 0 (ls g - 1); MapL c (rc r, cl)] s) in *.
      destruct (remap g r cls vs s1) as [[m' ok'] l'] eqn:R.
      injection E as <- <- <-.
      destruct (IH vs s1 m' ok' l') as (R1 & R2 & R3 & R4);
        [apply S1|intros; apply Hr; now right|assumption|].
      change (do_mems g (SetI c 0 (ls g - 1) :: MapL c (rc r, cl) :: m') s) with (do_mems g m' s1).
      split; [now apply (same_trans s s1)|]. split; [|split].
      * intros c' [H|H]; [now subst|]. rewrite <- (drt_line_dirty s s1); [now apply R2|apply S1].
      * intros Ho cl' [H|H]; [subst cl'|now apply R3]. exists c.
        apply R4; try (apply Hr; now left). rewrite T1, N.eqb_refl. reflexivity.
      * intros cl' c' L1 L2 H. apply R4; try assumption. rewrite T1.
        destruct (N.eqb_spec c' c) as [Hq|Hq]; [|assumption].
        subst c'. exfalso. now apply (NR cl').
Qed.

Lemma drops_ok l : forall s, Inv g vc s -> (forall c, In c l -> line_dirty g s c = false) ->
  same s (do_mems g (map dropl l) s).
Proof.
  induction l as [|c l IH]; intros s I H; cbn [map do_mems]; [now apply same_refl|].
  assert (S1 : same s (do_mem g (dropl c) s)) by (apply drop_ok; [assumption|apply H; now left]).
  apply (same_trans _ _ _ S1). apply IH; [apply S1|]. intros c' Hc.
  rewrite (drt_line_dirty s); [apply H; now right|apply S1].
Qed.

Lemma prepare_ok s r promo vs yes no (C : st -> Prop) Q : Inv g vc s -> vc (rc r) = true -> C s ->
  (forall t, same s t -> is_mapped g t r = true -> wp g (yes t) t C Q) ->
  (forall t, same s t -> wp g (no t) t C Q) ->
  wp g (prepare g s r promo vs yes no) s C Q.
Proof.
  intros I Hv HC HY HN. unfold prepare. destruct (is_mapped g s r) eqn:M.
  - apply HY; [now apply same_refl|assumption].
  - destruct promo; cbn [negb]; [|apply HN; now apply same_refl].
    destruct (remap g r (cl_list g r) vs s) as [[m ok] l] eqn:R.
    destruct (remap_ok r (cl_list g r) Hv vs s m ok l I) as (R1 & R2 & R3 & R4); [|assumption|].
    { intros cl H. now apply in_rng in H. }
    destruct ok; cbn [wp]; (split; [assumption|]).
    + apply HY; [assumption|]. unfold is_mapped. apply forallb_forall. intros cl H.
      destruct (R3 eq_refl cl H) as [c T]. unfold slot_mapped.
      assert (It : Inv g vc (do_mems g m s)) by apply R1.
      apply (lookup_iff g vc) in T; [|assumption]. now rewrite T.
    + apply HN. rewrite mems_app. apply (same_trans _ _ _ R1). apply drops_ok; [apply R1|].
      intros c Hc. rewrite (drt_line_dirty s); [now apply R2|apply R1].
Qed.

(** ** Reads. *)
Definition read_post (s : st) (r : req) (b : N -> N) (t : st) : Prop :=
  Inv g vc t /\ (forall cid x, abs g t cid x = abs g s cid x) /\
  (forall x, inreq r (rc r) x -> b x = abs g s (rc r) x).
Definition eqabs (s : st) : N -> N -> N -> Prop := fun cid x v => v = abs g s cid x.

Lemma hit_read s r x : Inv g vc s -> 0 < rn r -> is_hit g s r = true -> inreq r (rc r) x ->
  read_cache g s r x = abs g s (rc r) x.
Proof.
  intros I Hn H. revert x.
  apply (by_line g vc W (fun x => inreq r (rc r) x -> read_cache g s r x = abs g s (rc r) x)).
  intros cl o Ho S. destruct (divmod_line (ls g) cl o Ho) as [D1 D2].
  unfold read_cache, abs. rewrite D1, D2.
  assert (S' := S). destruct S' as [_ S']. rewrite (geo g r _ HL Hn), D1 in S'.
  destruct (mapped_all g s r cl (hit_mapped g s r H)) as [c E]; try tauto.
  assert (L : lookup g s (rc r) cl = Some c) by (now apply (lookup_iff g vc)).
  rewrite L. replace (vld s c o) with true; [reflexivity|]. symmetry.
  apply (hit_slot g vc s r); try assumption.
  now apply (inslot_req g vc W s r c o (rc r) cl).
Qed.

Lemma inv_same_mix s t : Inv g vc t -> (forall cid x, abs g t cid x = abs g s cid x) ->
  Mix g vc t (eqabs s).
Proof.
  intros I E. eapply mix_weaken; [|apply (inv_mix g vc t W I)]. cbn. unfold eqabs.
  intros cid x v ->. apply E.
Qed.

Lemma hit_ok s r : Inv g vc s -> 0 < rn r -> is_hit g s r = true ->
  wp g (Ret (read_cache g s r)) s (fun t => Mix g vc t (eqabs s)) (read_post s r).
Proof.
  intros I Hn H. cbn [wp]. split; [now apply inv_same_mix|].
  split; [assumption|]. split; [reflexivity|]. intros x S. now apply hit_read.
Qed.

Lemma pt_ok s r : Inv g vc s -> 0 < rn r ->
  wp g (pt_do g r s) s (fun t => Mix g vc t (eqabs s)) (read_post s r).
Proof.
  intros I Hn. unfold pt_do. apply (clean_ok g vc W); [assumption|tauto|]. intros t Hc.
  cbn [wp]. assert (Hc' := Hc). destruct Hc as (It & Ea & _).
  split; [now apply inv_same_mix|]. split; [assumption|]. split; [assumption|].
  intros x S. now apply (cleaned_core g vc W s r t).
Qed.

Lemma wo_ok s r : Inv g vc s -> 0 < rn r ->
  wp g (wo_do g r s) s (fun t => Mix g vc t (eqabs s)) (read_post s r).
Proof.
  intros I Hn. unfold wo_do. destruct (is_hit g s r) eqn:H; [now apply hit_ok|].
  destruct (dirty_any g s r) eqn:D; cbn [wp]; (split; [now apply inv_same_mix|]);
    (split; [assumption|]); (split; [reflexivity|]).
  - intros x S. reflexivity.
  - apply (by_line g vc W (fun x => inreq r (rc r) x -> core s (rc r) x = abs g s (rc r) x)).
    intros cl o Ho S. symmetry. eapply abs_clean; try eassumption; [apply HL|].
    intros c [T Dr]. assert (S' := S). destruct S' as [_ S'].
    destruct (divmod_line (ls g) cl o Ho) as [D1 D2].
    rewrite (geo g r _ HL Hn), D1 in S'.
    rewrite (no_dirty_any g vc s r c cl o) in Dr; try tauto. discriminate.
Qed.

Lemma rd_ok s r : Inv g vc s -> 0 < rn r ->
  wp g (rd_do g r s) s (fun t => Mix g vc t (eqabs s)) (read_post s r).
Proof.
  intros I Hn. unfold rd_do. pose proof HL as HL'.
  destruct (is_hit g s r) eqn:H; [now apply hit_ok|].
  apply (clean_ok g vc W); [assumption|tauto|]. intros s1 Hc.
  assert (Hc' := Hc). destruct Hc as (I1 & Ea & Et & Ev & Ed & Hd & Hd' & Hk).
  assert (ND : forall c cid cl o, tbl s1 c = Some (cid, cl) -> o < ls g ->
    inreq r cid (cl * ls g + o) -> drt s1 c o = false).
  { intros. eapply (cleaned_slot g vc W s r s1); eassumption. }
  set (buf := core s1 (rc r)).
  assert (IN : forall c cid cl o, tbl s1 c = Some (cid, cl) -> o < ls g ->
    inreq r cid (cl * ls g + o) -> buf (cl * ls g + o) = core s1 cid (cl * ls g + o)).
  { intros c cid cl o E Ho [-> _]. reflexivity. }
  (* cache contents after (part of) the backfill *)
  assert (G0 : forall sub, incl sub (cache_writes g s1 r buf) -> let t := do_ios sub s1 in
    (forall cid x, core t cid x = core s1 cid x) /\
    (forall c, ptbl t c = ptbl s1 c) /\ (forall c o, pvld t c o = pvld s1 c o) /\
    (forall c o, pdrt t c o = pdrt s1 c o) /\
    (forall c o, ~ inslot g s1 r c o -> cdat t c o = cdat s1 c o)).
  { intros sub Hs t.
    assert (NM : forall c, ~ In (Persist c) sub).
    { intros c Q. apply Hs, cw_kind in Q. destruct Q as (? & ? & ? & Q). discriminate. }
    split; [|split; [|split; [|split]]].
    - intros. apply ios_nocore. intros v Q. apply Hs, cw_kind in Q. destruct Q as (? & ? & ? & Q). discriminate.
    - intros c. now apply ios_nometa.
    - intros c. now apply ios_nometa.
    - intros c. now apply ios_nometa.
    - intros c o S. apply ios_nocache. intros v Q. apply Hs, (in_cw g vc) in Q; [|assumption]. tauto. }
  assert (G1 : forall sub, incl sub (cache_writes g s1 r buf) -> Mix g vc (do_ios sub s1) (eqabs s)).
  { intros sub Hs. destruct (G0 sub Hs) as (E1 & E2 & E3 & E4 & E5).
    destruct (ios_ram sub s1) as (R1 & R2 & R3).
    apply (mix_of g vc W s1); try assumption.
    - intros c. left. congruence.
    - intros c o Ho D. rewrite R3 in D. rewrite R2, R1. split; [now apply (i_dv _ _ _ I1)|].
      eapply drt_mapped; eassumption.
    - intros c cid cl o Ho E D. rewrite R3 in D. assert (D' : drt s1 c o = true) by tauto.
      unfold eqabs. rewrite E5, <- Ea.
      + symmetry. eapply abs_dirty; try eassumption. now split.
      + rewrite (inslot_req g vc W s1 r c o cid cl) by assumption. intros S.
        rewrite (ND c cid cl o E Ho S) in D'. discriminate.
    - intros cid cl o Ho H'. unfold eqabs. rewrite E1, <- Ea. symmetry.
      eapply abs_clean; try eassumption. intros c [T D]. apply (H' c T D). now rewrite R3. }
  cbn [wp]. split; [exact G1|]. intros es He.
  destruct (G0 es (fun e => proj1 (He e))) as (E1 & E2 & E3 & E4 & E5).
  destruct (ios_ram es s1) as (R1 & R2 & R3).
  split; [apply G1; intros e Q; now apply He|].
  assert (F : forall c o cid cl, tbl s1 c = Some (cid, cl) -> inslot g s1 r c o ->
    cdat (do_ios es s1) c o = buf (cl * ls g + o)).
  { intros c o cid cl E S. destruct (ios_cdat es s1 c o) as [[_ Q]|(v & H1 & H2)].
    - exfalso. apply (Q (buf (cl * ls g + o))). apply He. apply (in_cw g vc); [assumption|].
      split; [assumption|]. now exists cid, cl.
    - apply He in H1. apply (in_cw g vc) in H1; [|assumption]. destruct H1 as (_ & cid' & cl' & E' & ->).
      rewrite E in E'. injection E' as <- <-. exact H2. }
  set (s2 := do_ios es s1) in *.
  assert (SV : set_valid g s2 r = set_valid g s1 r).
  { unfold set_valid, per_slot. now rewrite (slots_ext g s1 s2). }
  rewrite SV. destruct (setv_spec g vc s1 r s2 I1) as (B1 & B2 & B3).
  destruct (mem_dev g (set_valid g s1 r) s2) as (D1 & D2 & D3 & D4 & D5).
  set (t := do_mems g (set_valid g s1 r) s2) in *.
  assert (It : Inv g vc t).
  { apply (inv_of g vc W s1); try assumption.
    - congruence.
    - intros c o Ho V. apply B3 in V. rewrite R2 in V.
      destruct V as [V|(cl & E & _)]; [now apply (i_vt _ _ _ I1 c o)|congruence].
    - intros c o Ho D. rewrite B2, R3 in D. apply B3. left. rewrite R2. now apply (i_dv _ _ _ I1).
    - intros c o cid cl E Ho V D. rewrite B2, R3 in D. rewrite D1, D2, E1. apply B3 in V.
      destruct (inreq_dec r cid (cl * ls g + o)) as [Q|Q].
      + rewrite (F c o cid cl E); [now apply (IN c)|]. now apply (inslot_req g vc W s1 r c o cid cl).
      + assert (Q' : ~ inslot g s1 r c o) by (now rewrite (inslot_req g vc W s1 r c o cid cl)).
        rewrite E5 by assumption. apply (i_cl _ _ _ I1); try assumption. rewrite <- R2. tauto.
    - intros c. right. split; [now rewrite D3|]. intros o Ho.
      rewrite D4, D5, B2, R3. split; [apply E3|]. split; [apply E4|reflexivity]. }
  assert (At : forall cid x, abs g t cid x = abs g s cid x).
  { intros cid x. rewrite <- Ea. revert x.
    apply (by_line g vc W (fun x => abs g t cid x = abs g s1 cid x)). intros cl o Ho.
    destruct (mapped_dec g vc s1 cid cl I1) as [[c E]|E].
    - assert (Ec : tbl t c = Some (cid, cl)) by congruence.
      rewrite (abs_mapped g vc t c cid cl o It HL' Ec Ho), D2, D1, E1.
      rewrite (abs_mapped g vc s1 c cid cl o I1 HL' E Ho).
      destruct (inreq_dec r cid (cl * ls g + o)) as [Q|Q].
      + assert (Q' : inslot g s1 r c o) by (now rewrite (inslot_req g vc W s1 r c o cid cl)).
        replace (vld t c o) with true by (symmetry; apply B3; now right).
        rewrite (F c o cid cl E Q'), (IN c cid cl o E Ho Q).
        destruct (vld s1 c o) eqn:V; [|reflexivity]. symmetry. apply (i_cl _ _ _ I1); try assumption.
        now apply (ND c cid cl).
      + assert (Q' : ~ inslot g s1 r c o) by (now rewrite (inslot_req g vc W s1 r c o cid cl)).
        replace (vld t c o) with (vld s1 c o); [now rewrite E5|].
        apply bool_iff_eq. rewrite B3, R2. tauto.
    - rewrite !abs_unmapped; try assumption; [|congruence]. now rewrite D1, E1. }
  split; [now apply inv_same_mix|]. split; [assumption|]. split; [assumption|].
  intros x S. unfold buf. now apply (cleaned_core g vc W s r s1).
Qed.

(** Postconditions seen from a state with the same contents. *)
Lemma wp_mono p : forall s (C C' : st -> Prop) (Q Q' : (N -> N) -> st -> Prop),
  (forall t, C t -> C' t) -> (forall b t, Q b t -> Q' b t) -> wp g p s C Q -> wp g p s C' Q'.
Proof.
  induction p as [b|es k IH|es k IH]; intros s C C' Q Q' HC HQ; cbn [wp].
  - intros [A B]. split; auto.
  - intros [A B]. split; [auto|]. intros es' He. eapply IH; eauto.
  - intros [A B]. split; [auto|]. eapply IH; eauto.
Qed.

Lemma read_same s t r p : same s t ->
  wp g p t (fun u => Mix g vc u (eqabs t)) (read_post t r) ->
  wp g p t (fun u => Mix g vc u (eqabs s)) (read_post s r).
Proof.
  intros (It & Ea & _). apply wp_mono.
  - intros u. apply mix_weaken. unfold eqabs. intros cid x v ->. apply Ea.
  - intros b u (I1 & E1 & E2). split; [assumption|]. split.
    + intros cid x. rewrite E1. apply Ea.
    + intros x S. rewrite E2 by assumption. apply Ea.
Qed.

Lemma read_ok s m promo seqc vs r : Inv g vc s -> 0 < rn r -> vc (rc r) = true ->
  wp g (read_prog g m promo seqc vs r s) s (fun t => Mix g vc t (eqabs s)) (read_post s r).
Proof.
  intros I Hn Hv.
  assert (P : wp g (prepare g s r promo vs (rd_do g r) (pt_do g r)) s
    (fun t => Mix g vc t (eqabs s)) (read_post s r)).
  { apply prepare_ok; try assumption.
    - now apply inv_same_mix.
    - intros t S _. apply (read_same s t); [assumption|]. apply rd_ok; [apply S|assumption].
    - intros t S. apply (read_same s t); [assumption|]. apply pt_ok; [apply S|assumption]. }
  unfold read_prog. destruct m; try exact P.
  - destruct (seqc && is_dirty_all g s r); [exact P|]. now apply pt_ok.
  - now apply wo_ok.
Qed.

Lemma read_fast_ok s m promo seqc vs r : Inv g vc s -> 0 < rn r -> vc (rc r) = true ->
  wp g (read_fast_prog g m promo seqc vs r s) s (fun t => Mix g vc t (eqabs s)) (read_post s r).
Proof.
  intros I Hn Hv. unfold read_fast_prog. destruct (is_hit g s r) eqn:H; [now apply hit_ok|now apply read_ok].
Qed.

(** ** Writes. *)
Definition lazy_mode (m : mode) : bool := match m with WB | WO => true | _ => false end.
Definition write_post (f : N -> N -> N) (r : req) (d : N -> N) (thr : bool) (t : st) : Prop :=
  Inv g vc t /\ written f r d (abs g t) /\ (thr = true -> through g r d t).

Lemma write_ok s m promo vs r d f : Inv g vc s -> 0 < rn r -> vc (rc r) = true ->
  (forall cid x, abs g s cid x = f cid x) ->
  wp g (write_prog g m promo vs r d s) s (fun t => Mix g vc t (allow f r d))
    (fun _ t => write_post f r d (negb (lazy_mode m)) t).
Proof.
  intros I Hn Hv Hf.
  assert (C0 : Mix g vc s (allow f r d)).
  { eapply mix_weaken; [|apply (inv_mix g vc s W I)]. cbn. intros cid x v ->. left. apply Hf. }
  assert (WIk : forall b t, same s t -> wp g (wi_do g r d t) t (fun t => Mix g vc t (allow f r d))
    (fun _ t => write_post f r d b t)).
  { intros b t (It & Ea & _). eapply wp_mono; [intros u Hu; exact Hu| |apply (wi_ok g vc W t r d f); try assumption].
    - intros _ u (A & B & D). split; [assumption|]. split; [assumption|]. intros _. exact D.
    - intros. now rewrite Ea. }
  assert (WTk : forall b t, same s t -> is_mapped g t r = true ->
    wp g (wt_do g r d t) t (fun t => Mix g vc t (allow f r d)) (fun _ t => write_post f r d b t)).
  { intros b t (It & Ea & _) M. eapply wp_mono; [intros u Hu; exact Hu| |apply (wt_ok g vc W t r d f); try assumption].
    - intros _ u (A & B & D). split; [assumption|]. split; [assumption|]. intros _. exact D.
    - intros. now rewrite Ea. }
  assert (WBk : forall t, same s t -> is_mapped g t r = true ->
    wp g (wb_do g r d t) t (fun t => Mix g vc t (allow f r d)) (fun _ t => write_post f r d false t)).
  { intros t (It & Ea & _) M. eapply wp_mono; [intros u Hu; exact Hu| |apply (wb_ok g vc W t r d f); try assumption].
    - intros _ u (A & B). split; [assumption|]. split; [assumption|]. discriminate.
    - intros. now rewrite Ea. }
  unfold write_prog. destruct m; cbn [lazy_mode negb].
  - apply prepare_ok; [assumption|assumption|exact C0|intros; now apply WTk|intros; now apply WIk].
  - apply prepare_ok; [assumption|assumption|exact C0|intros; now apply WBk|intros; now apply WIk].
  - destruct (is_hit g s r); [|apply WIk; now apply same_refl].
    apply prepare_ok; [assumption|assumption|exact C0|intros; now apply WTk|intros; now apply WIk].
  - apply WIk. now apply same_refl.
  - apply WIk. now apply same_refl.
  - apply prepare_ok; [assumption|assumption|exact C0|intros; now apply WBk|intros; now apply WIk].
Qed.

Lemma write_fast_ok s m promo vs r d f : Inv g vc s -> 0 < rn r -> vc (rc r) = true ->
  (forall cid x, abs g s cid x = f cid x) ->
  wp g (write_fast_prog g m promo vs r d s) s (fun t => Mix g vc t (allow f r d))
    (fun _ t => write_post f r d false t).
Proof.
  intros I Hn Hv Hf. unfold write_fast_prog. destruct (is_mapped g s r) eqn:M.
  - eapply wp_mono; [intros u Hu; exact Hu| |apply (wb_ok g vc W s r d f); try assumption].
    intros _ u (A & B). split; [assumption|]. split; [assumption|]. discriminate.
  - eapply wp_mono; [intros u Hu; exact Hu| |apply (write_ok s m promo vs r d f); try assumption].
    intros _ u (A & B & _). split; [assumption|]. split; [assumption|]. discriminate.
Qed.

(** ** Discard. *)
Definition dallow (s0 : st) (r : req) (dv : N -> N) : N -> N -> N -> Prop :=
  fun cid x v => v = abs g s0 cid x \/ (inreq r cid x /\ (v = core s0 cid x \/ v = dv x)).

(** [a]: everything of [r] below [a] has been purged. *)
Definition dstep (s0 : st) (r : req) (a : N) (s : st) : Prop :=
  Inv g vc s /\ core s = core s0 /\
  (forall cid x, inreq r cid x -> x < a -> abs g s cid x = core s0 cid x) /\
  (forall cid x, ~ (inreq r cid x /\ x < a) -> abs g s cid x = abs g s0 cid x) /\
  (forall c cid cl o, tbl s c = Some (cid, cl) -> o < ls g -> inreq r cid (cl * ls g + o) ->
     cl * ls g + o < a -> vld s c o = false).

Lemma dsteps_ok s0 r dv step (C : st -> Prop) Q k : 0 < step -> Inv g vc s0 ->
  (forall t, Mix g vc t (dallow s0 r dv) -> C t) ->
  (forall t, dstep s0 r (ra r + rn r) t -> wp g (k t) t C Q) ->
  forall fuel a n s, ra r <= a -> a + n = ra r + rn r -> (N.to_nat n <= fuel)%nat ->
  dstep s0 r a s -> wp g (discard_steps g step fuel (rc r) a n k s) s C Q.
Proof.
  intros Hs I0 HC HK. induction fuel as [|f IH]; intros a n s Ha Hn Hf D; cbn [discard_steps].
  - apply HK. assert (n = 0) by lia. subst n. rewrite N.add_0_r in Hn. now rewrite <- Hn.
  - destruct (N.eqb_spec n 0) as [Hz|Hz].
    + apply HK. subst n. rewrite N.add_0_r in Hn. now rewrite <- Hn.
    + assert (Hm : 0 < N.min n step) by lia. set (m := N.min n step) in *.
      assert (Hm2 : m <= n) by lia. clearbody m.
      set (q := {| rc := rc r; ra := a; rn := m |}).
      assert (IQ : forall cid x, inreq q cid x <-> inreq r cid x /\ a <= x /\ x < a + m).
      { intros cid x. unfold inreq, rlast. cbn [rc ra rn q]. lia. }
      destruct D as (I & Ec & D1 & D2 & D3).
      apply (purge_ok g vc W s s q _ (dallow s0 r dv)); try assumption; try reflexivity.
      * intros cid x S. apply IQ in S. right. split; [tauto|]. left. now rewrite Ec.
      * intros cid x. destruct (inreq_dec r cid x) as [S|S].
        -- destruct (N.lt_ge_cases x a) as [L|L].
           ++ right. split; [assumption|]. left. now apply D1.
           ++ left. apply D2. lia.
        -- left. apply D2. tauto.
      * intros t (It & Ct & P1 & P2 & P3 & P4 & P5).
        apply IH; [lia|lia|lia|]. split; [assumption|]. split; [congruence|]. split; [|split].
        -- intros cid x S L. destruct (inreq_dec q cid x) as [Sq|Sq].
           ++ rewrite P1 by assumption. congruence.
           ++ rewrite P2 by assumption. apply D1; [assumption|].
              destruct (N.lt_ge_cases x a); [assumption|]. exfalso. apply Sq. apply IQ. tauto.
        -- intros cid x S. rewrite P2, D2; [reflexivity| |].
           ++ intros [S1 S2]. apply S. split; [assumption|lia].
           ++ intros Sq. apply IQ in Sq. apply S. tauto.
        -- intros c cid cl o E Ho S L.
           destruct (inreq_dec q cid (cl * ls g + o)) as [Sq|Sq]; [now apply (P3 c cid cl)|].
           destruct (vld t c o) eqn:V; [|reflexivity]. rewrite <- (D3 c cid cl o); try assumption.
           ++ symmetry. now apply P5.
           ++ destruct (P4 c) as [E'|E']; congruence.
           ++ destruct (N.lt_ge_cases (cl * ls g + o) a); [assumption|]. exfalso. apply Sq. apply IQ. tauto.
Qed.

(** No copy of the range is left, the core is unchanged outside of it. *)
Definition discarded (s : st) (r : req) (t : st) : Prop :=
  (forall c cid cl o, tbl t c = Some (cid, cl) -> o < ls g -> inreq r cid (cl * ls g + o) ->
     vld t c o = false) /\
  (forall cid x, ~ inreq r cid x -> core t cid x = core s cid x).

Lemma discard_ok s step r dv : Inv g vc s -> 0 < rn r -> 0 < step ->
  wp g (discard_prog g step r dv s) s (fun t => Mix g vc t (dallow s r dv))
    (fun _ t => Inv g vc t /\ written (abs g s) r dv (abs g t) /\ through g r dv t /\
      discarded s r t).
Proof.
  intros I Hn Hst. unfold discard_prog. pose proof HL as HL'.
  apply (dsteps_ok s r dv step); try assumption; try lia; try (now intros t Ht).
  2: { split; [assumption|]. split; [reflexivity|]. split; [|split].
       - intros cid x [_ [S _]] L. lia.
       - reflexivity.
       - intros c cid cl o _ _ [_ [S _]] L. lia. }
  intros t0 (I0 & Ec & D1 & D2 & D3).
  assert (IL : forall cid x, inreq r cid x -> x < ra r + rn r).
  { intros cid x. unfold inreq, rlast. lia. }
  assert (NV : forall c cid cl o, tbl t0 c = Some (cid, cl) -> o < ls g ->
    inreq r cid (cl * ls g + o) -> vld t0 c o = false).
  { intros c cid cl o E Ho S. apply (D3 c cid cl); try assumption. now apply (IL cid). }
  assert (AB : forall cid x, abs g t0 cid x = abs g s cid x \/ inreq r cid x /\ abs g t0 cid x = core s cid x).
  { intros cid x. destruct (inreq_dec r cid x) as [S|S].
    - right. split; [assumption|]. apply D1; [assumption|]. now apply (IL cid).
    - left. apply D2. tauto. }
  assert (G1 : forall sub, incl sub (core_writes r dv) -> Mix g vc (do_ios sub t0) (dallow s r dv)).
  { intros sub Hs. destruct (kw_part r dv sub t0 Hs) as (E1 & E5 & E2 & E3 & E4).
    destruct (ios_ram sub t0) as (R1 & R2 & R3).
    apply (mix_of g vc W t0); try assumption.
    - intros c. left. congruence.
    - intros c o Ho D. rewrite R3 in D. rewrite R2, R1. split; [now apply (i_dv _ _ _ I0)|].
      eapply drt_mapped; eassumption.
    - intros c cid cl o Ho E D. rewrite R3 in D. assert (D' : drt t0 c o = true) by tauto.
      assert (X : cdat (do_ios sub t0) c o = abs g t0 cid (cl * ls g + o)).
      { rewrite E5. symmetry. eapply abs_dirty; try eassumption. now split. }
      rewrite X. destruct (AB cid (cl * ls g + o)) as [Q|[S Q]]; [now left|right; tauto].
    - intros cid cl o Ho H. destruct (E1 cid (cl * ls g + o)) as [Q|Q]; [|right; tauto].
      assert (X : core t0 cid (cl * ls g + o) = abs g t0 cid (cl * ls g + o)).
      { symmetry. eapply abs_clean; try eassumption. intros c [T D]. apply (H c T D). now rewrite R3. }
      rewrite Q, X. destruct (AB cid (cl * ls g + o)) as [Q'|[S Q']]; [now left|right; tauto]. }
  cbn [wp]. split; [exact G1|]. intros es He.
  destruct (kw_part r dv es t0 (fun e => proj1 (He e))) as (_ & E5 & E2 & E3 & E4).
  destruct (kw_full r dv es t0 He) as (F1 & F2).
  destruct (ios_ram es t0) as (R1 & R2 & R3).
  split; [apply G1; intros e Q; now apply He|]. set (t := do_ios es t0) in *.
  assert (It : Inv g vc t).
  { apply (inv_of g vc W t0); try assumption.
    - intros c o Ho V. rewrite R2 in V. now apply (i_vt _ _ _ I0 c o).
    - intros c o Ho D. rewrite R3 in D. rewrite R2. now apply (i_dv _ _ _ I0).
    - intros c o cid cl E Ho V D. rewrite R2 in V. rewrite R3 in D.
      destruct (inreq_dec r cid (cl * ls g + o)) as [S|S].
      + rewrite (NV c cid cl o E Ho S) in V. discriminate.
      + rewrite E5, F2 by assumption. now apply (i_cl _ _ _ I0).
    - intros c. right. split; [apply E2|]. intros o Ho. rewrite R3. split; [apply E3|]. split; [apply E4|reflexivity]. }
  split; [assumption|]. split.
  - intros cid x.
    assert (X : (inreq r cid x -> abs g t cid x = dv x) /\ (~ inreq r cid x -> abs g t cid x = abs g t0 cid x)).
    { revert x. apply (by_line g vc W (fun x => (inreq r cid x -> abs g t cid x = dv x) /\
        (~ inreq r cid x -> abs g t cid x = abs g t0 cid x))).
      intros cl o Ho. destruct (mapped_dec g vc t0 cid cl I0) as [[c E]|E].
      - assert (Ect : tbl t c = Some (cid, cl)) by congruence.
        rewrite (abs_mapped g vc t c cid cl o It HL' Ect Ho), R2, E5.
        rewrite (abs_mapped g vc t0 c cid cl o I0 HL' E Ho). split; intros S.
        + rewrite (NV c cid cl o E Ho S). now apply F1.
        + now rewrite F2.
      - rewrite (abs_unmapped g t); [|assumption|congruence].
        rewrite (abs_unmapped g t0); [|assumption|assumption].
        split; intros S; [now apply F1|now apply F2]. }
    split; intros S; [now apply X|]. destruct X as [_ X]. rewrite X by assumption. apply D2. tauto.
  - split.
    + split; [exact F1|]. intros c cid cl o E Ho S. destruct (drt t c o) eqn:D; [|reflexivity].
      rewrite R3 in D. apply (i_dv _ _ _ I0) in D; [|assumption]. rewrite R1 in E.
      rewrite (NV c cid cl o E Ho S) in D. discriminate.
    + split.
      * intros c cid cl o E Ho S. rewrite R2. rewrite R1 in E. now apply (NV c cid cl).
      * intros cid x S. rewrite F2, Ec by assumption. reflexivity.
Qed.

(** ** All operations. *)
Definition op_ok (o : op) : Prop :=
  match o with
  | OpWrite _ _ _ _ r _ => 0 < rn r /\ vc (rc r) = true
  | OpRead _ _ _ _ _ r => 0 < rn r /\ vc (rc r) = true
  | OpDiscard step r _ => 0 < rn r /\ vc (rc r) = true /\ 0 < step
  | OpClean _ | OpDropClean _ | OpFlushMeta _ => True
  end.

(** Values a sector may have if the operation is cut by a crash. *)
Definition cut_allowed (s : st) (o : op) : N -> N -> N -> Prop :=
  match o with
  | OpWrite _ _ _ _ r d => allow (abs g s) r d
  | OpDiscard _ r dv => dallow s r dv
  | _ => eqabs s
  end.

Definition op_post (s : st) (o : op) (b : N -> N) (t : st) : Prop :=
  Inv g vc t /\
  match o with
  | OpWrite fast m _ _ r d => written (abs g s) r d (abs g t) /\
      (negb fast && negb (lazy_mode m) = true -> through g r d t)
  | OpRead _ _ _ _ _ r => (forall cid x, abs g t cid x = abs g s cid x) /\
      forall x, inreq r (rc r) x -> b x = abs g s (rc r) x
  | OpDiscard _ r dv => written (abs g s) r dv (abs g t) /\ through g r dv t /\ discarded s r t
  | OpClean cs => (forall cid x, abs g t cid x = abs g s cid x) /\
      forall c o, In c cs -> o < ls g -> drt t c o = false
  | OpDropClean _ => forall cid x, abs g t cid x = abs g s cid x
  | OpFlushMeta cs => (forall cid x, abs g t cid x = abs g s cid x) /\
      tbl t = tbl s /\ vld t = vld s /\ drt t = drt s /\ core t = core s /\ cdat t = cdat s /\
      forall c, In c cs -> ptbl t c = tbl t c /\
        forall o, pvld t c o = vld t c o /\ pdrt t c o = drt t c o
  end.

Lemma persist_dev es : all_persist es -> forall s,
  core (do_ios es s) = core s /\ cdat (do_ios es s) = cdat s.
Proof.
  induction es as [|e l IH]; intros AP s; cbn [do_ios]; [tauto|].
  destruct (IH (fun e' He => AP e' (or_intror He)) (do_io e s)) as [E1 E2]. rewrite E1, E2.
  destruct (AP e (or_introl eq_refl)) as [c ->]. split; reflexivity.
Qed.

Lemma inv_eq s t : Inv g vc s -> (forall c, tbl t c = tbl s c) ->
  (forall c o, o < ls g -> vld t c o = vld s c o) -> (forall c o, o < ls g -> drt t c o = drt s c o) ->
  core t = core s -> cdat t = cdat s ->
  (forall c, (ptbl t c = tbl s c /\ forall o, o < ls g -> pvld t c o = vld s c o /\ pdrt t c o = drt s c o) \/
     (ptbl t c = ptbl s c /\ forall o, o < ls g -> pvld t c o = pvld s c o /\ pdrt t c o = pdrt s c o)) ->
  Inv g vc t /\ forall cid x, abs g t cid x = abs g s cid x.
Proof.
  intros I Et Ev Ed Ec Eq P. pose proof HL as HL'.
  assert (It : Inv g vc t).
  { constructor.
    - intros c c' k. rewrite !Et. apply (i_inj _ _ _ I).
    - intros c k. rewrite Et. apply (i_rng _ _ _ I).
    - intros c o Ho. rewrite Et, Ev by assumption. now apply (i_vt _ _ _ I).
    - intros c o Ho. rewrite Ev, Ed by assumption. now apply (i_dv _ _ _ I).
    - intros c o cid cl E Ho. rewrite Ev, Ed, Ec, Eq by assumption. rewrite Et in E. now apply (i_cl _ _ _ I).
    - intros c o Ho. rewrite Ed by assumption. destruct (P c) as [[_ H]|[_ H]]; destruct (H o Ho) as [_ ->].
      + reflexivity.
      + now apply (i_pd _ _ _ I).
    - intros c o Ho D. rewrite Ed in D by assumption. rewrite Et.
      destruct (P c) as [[E H]|[E H]]; destruct (H o Ho) as [-> _]; rewrite E.
      + split; [reflexivity|]. now apply (i_dv _ _ _ I).
      + now apply (i_pt _ _ _ I).
    - intros c cid cl E. destruct (P c) as [[H _]|[H _]]; rewrite H in E.
      + apply (i_tc _ _ _ I) in E. now apply W.
      + now apply (i_pc _ _ _ I) in E.
    - intros c cid cl. rewrite Et. apply (i_tc _ _ _ I). }
  split; [assumption|]. intros cid. apply (by_line g vc W (fun x => abs g t cid x = abs g s cid x)).
  intros cl o Ho. destruct (mapped_dec g vc s cid cl I) as [[c E]|E].
  - rewrite (abs_mapped g vc s c cid cl o I HL' E Ho).
    rewrite (abs_mapped g vc t c cid cl o It HL' (eq_trans (Et c) E) Ho), Ev, Ec, Eq by assumption.
    reflexivity.
  - rewrite (abs_unmapped g s) by assumption. rewrite abs_unmapped; [|assumption|].
    + now rewrite Ec.
    + intros c. rewrite Et. apply E.
Qed.

Theorem op_wp s o : Inv g vc s -> op_ok o ->
  wp g (op_prog g o s) s (fun t => Mix g vc t (cut_allowed s o)) (op_post s o).
Proof.
  intros I H. destruct o as [fast m promo vs r d|fast m promo seqc vs r|step r dv|cs|c|cs]; cbn [op_ok op_prog cut_allowed] in *.
  - destruct H as [Hn Hv]. destruct fast.
    + eapply wp_mono; [intros u Hu; exact Hu| |apply (write_fast_ok s m promo vs r d (abs g s)); try assumption; reflexivity].
      intros b u (A & B & _). split; [assumption|]. split; [assumption|]. discriminate.
    + eapply wp_mono; [intros u Hu; exact Hu| |apply (write_ok s m promo vs r d (abs g s)); try assumption; reflexivity].
      intros b u (A & B & D). split; [assumption|]. split; [assumption|]. exact D.
  - destruct H as [Hn Hv]. destruct fast.
    + eapply wp_mono; [intros u Hu; exact Hu|intros b u Hb; exact Hb|now apply read_fast_ok].
    + eapply wp_mono; [intros u Hu; exact Hu|intros b u Hb; exact Hb|now apply read_ok].
  - eapply wp_mono; [intros u Hu; exact Hu|intros b u Hb; exact Hb|now apply discard_ok].
  - apply (clean_ok g vc W); [assumption|tauto|]. intros t (It & Ea & _ & _ & _ & Hd & _).
    cbn [wp]. split; [now apply inv_same_mix|]. split; [assumption|]. split; assumption.
  - destruct (line_dirty g s c) eqn:D; cbn [wp].
    + split; [now apply inv_same_mix|]. split; [assumption|reflexivity].
    + split; [now apply inv_same_mix|]. destruct (drop_ok s c I D) as (It & Ea & _).
      split; [now apply inv_same_mix|]. split; assumption.
  - cbn [wp]. assert (M0 : Mix g vc s (eqabs s)) by (now apply inv_same_mix). split.
    { intros sub Hs. apply mix_persist; [|assumption]. eapply persist_sub; eassumption. }
    intros es He.
    assert (AP : all_persist es) by (intros e Q; apply He in Q; now apply persist_all in Q).
    split; [now apply mix_persist|].
    destruct (ios_ram es s) as (P1 & P2 & P3). destruct (persist_dev es AP s) as (P4 & P5).
    assert (X : Inv g vc (do_ios es s) /\ forall cid x, abs g (do_ios es s) cid x = abs g s cid x).
    { apply inv_eq; try assumption; try (intros; congruence).
      intros c. destruct (ios_meta es s c) as [(_ & Z1 & Z2 & Z3)|(Nn & Z1 & Z2 & Z3)].
      - left. split; [assumption|]. intros o _. split; [apply Z2|apply Z3].
      - right. split; [assumption|]. intros o _. split; [apply Z2|apply Z3]. }
    destruct X as [It Ea]. split; [assumption|]. split; [assumption|].
    split; [assumption|]. split; [assumption|]. split; [assumption|]. split; [assumption|]. split; [assumption|].
    intros c Hc. destruct (ios_meta es s c) as [(_ & Z1 & Z2 & Z3)|(Nn & _)].
    + rewrite P1, P2, P3. split; [assumption|]. intros o. split; [apply Z2|apply Z3].
    + exfalso. apply Nn. apply He. now apply (persist_in g vc W).
Qed.

Lemma load_clean_ok s : Inv g vc s ->
  (forall c, In c (all_lines g) -> ptbl s c = tbl s c /\
     forall o, pvld s c o = vld s c o /\ pdrt s c o = drt s c o) ->
  Inv g vc (load_clean g s) /\ forall cid x, abs g (load_clean g s) cid x = abs g s cid x.
Proof.
  intros I P.
  assert (D : forall c, {In c (all_lines g) /\ existsb (N.eqb c) (all_lines g) = true} +
    {tbl s c = None /\ existsb (N.eqb c) (all_lines g) = false}).
  { intros c. destruct (existsb (N.eqb c) (all_lines g)) eqn:E.
    - left. split; [|reflexivity]. apply existsb_exists in E. destruct E as (c' & H & Hc).
      apply N.eqb_eq in Hc. now subst.
    - right. split; [|reflexivity]. destruct (tbl s c) as [k|] eqn:T; [|reflexivity]. exfalso.
      apply (i_rng _ _ _ I) in T. assert (existsb (N.eqb c) (all_lines g) = true); [|congruence].
      apply existsb_exists. exists c. split; [assumption|apply N.eqb_refl]. }
  assert (Z : forall c o, o < ls g -> tbl s c = None -> vld s c o = false /\ drt s c o = false).
  { intros c o Ho T. assert (V : vld s c o = false).
    { destruct (vld s c o) eqn:V; [|reflexivity]. exfalso. now apply (i_vt _ _ _ I c o). }
    split; [assumption|]. destruct (drt s c o) eqn:Dr; [|reflexivity].
    apply (i_dv _ _ _ I) in Dr; [congruence|assumption]. }
  apply inv_eq; try assumption; try reflexivity; unfold load_clean; cbn [tbl vld drt ptbl pvld pdrt].
  - intros c. destruct (D c) as [[H E]|[T E]]; rewrite E; [now apply P|now symmetry].
  - intros c o Ho. destruct (D c) as [[H E]|[T E]]; rewrite E; cbn [andb]; [now apply P|].
    now destruct (Z c o Ho T).
  - intros c o Ho. destruct (D c) as [[H E]|[T E]]; rewrite E; cbn [andb]; [now apply P|].
    now destruct (Z c o Ho T).
  - intros c. right. split; [reflexivity|]. split; reflexivity.
Qed.
End S.

(** Volatile device caches: proofs. *)
From Coq Require Import NArith List Bool Lia Permutation.
From Verif Require Import DpModel DpProofs DpInv DpEng DpEng2 DpEng3 DpEng4 VolModel.
Import ListNotations.
Open Scope N_scope.

(** ** Semantics: complete and interrupted runs, as in DpProofs. *)
Inductive vexec (g : cfg) (plp : bool) : vprog -> vst -> (N -> N) -> vst -> Prop :=
| vx_ret b v : vexec g plp (VRet b) v b v
| vx_io es es' k v b t : Permutation es es' ->
    vexec g plp (k (now (vios plp es' v))) (vios plp es' v) b t -> vexec g plp (VIo es k) v b t
| vx_mem es k v b t :
    vexec g plp (k (now (vmems g es v))) (vmems g es v) b t -> vexec g plp (VMem es k) v b t
| vx_fcores cids k v b t :
    vexec g plp k (flush_cores cids v) b t -> vexec g plp (VFlushCores cids k) v b t
| vx_fcache k v b t :
    vexec g plp k (vflush on_cache v) b t -> vexec g plp (VFlushCache k) v b t.

Inductive vcrashed (g : cfg) (plp : bool) : vprog -> vst -> vst -> Prop :=
| vc_now p v : vcrashed g plp p v v
| vc_part es sub k v : incl sub es -> vcrashed g plp (VIo es k) v (vios plp sub v)
| vc_io es es' k v t : Permutation es es' ->
    vcrashed g plp (k (now (vios plp es' v))) (vios plp es' v) t -> vcrashed g plp (VIo es k) v t
| vc_mem es k v t :
    vcrashed g plp (k (now (vmems g es v))) (vmems g es v) t -> vcrashed g plp (VMem es k) v t
| vc_fcores cids k v t :
    vcrashed g plp k (flush_cores cids v) t -> vcrashed g plp (VFlushCores cids k) v t
| vc_fcache k v t :
    vcrashed g plp k (vflush on_cache v) t -> vcrashed g plp (VFlushCache k) v t.

(** ** The engines here are those of DpModel plus flushes. *)
Inductive vref : vprog -> prog -> Prop :=
| vr_ret b : vref (VRet b) (Ret b)
| vr_io es k k' : (forall s, vref (k s) (k' s)) -> vref (VIo es k) (Io es k')
| vr_mem es k k' : (forall s, vref (k s) (k' s)) -> vref (VMem es k) (Mem es k')
| vr_fcores cids k q : vref k q -> vref (VFlushCores cids k) q
| vr_fcache k q : vref k q -> vref (VFlushCache k) q.

Lemma now_vios plp l : forall v, now (vios plp l v) = do_ios l (now v).
Proof.
  induction l as [|e l IH]; intros v; [reflexivity|]. cbn [vios do_ios]. rewrite IH. f_equal.
  unfold vio. destruct (plp && on_cache (snap e (now v))); reflexivity.
Qed.
Lemma now_fcores cids : forall v, now (flush_cores cids v) = now v.
Proof. induction cids as [|c l IH]; intros v; [reflexivity|]. cbn [flush_cores]. now rewrite IH. Qed.

Lemma vref_exec g plp p v b t : vexec g plp p v b t -> forall q, vref p q -> exec g q (now v) b (now t).
Proof.
  induction 1; intros q R; inversion R; subst.
  - constructor.
  - eapply ex_io; [eassumption|]. rewrite <- (now_vios plp). apply IHvexec. auto.
  - apply ex_mem. apply (IHvexec (k' (now (vmems g es v)))). auto.
  - rewrite <- (now_fcores cids v). now apply IHvexec.
  - now apply IHvexec.
Qed.
Lemma vref_crash g plp p v t : vcrashed g plp p v t -> forall q, vref p q -> crashed g q (now v) (now t).
Proof.
  induction 1; intros q R.
  - constructor.
  - inversion R; subst. rewrite now_vios. now constructor.
  - inversion R; subst. eapply cr_io; [eassumption|]. rewrite <- (now_vios plp). apply IHvcrashed. auto.
  - inversion R; subst. apply cr_mem. apply (IHvcrashed (k' (now (vmems g es v)))). auto.
  - inversion R; subst. rewrite <- (now_fcores cids v). now apply IHvcrashed.
  - inversion R; subst. now apply IHvcrashed.
Qed.

Lemma clean_ref g s cs k k' : (forall t, vref (k t) (k' t)) -> vref (clean_v g s cs k) (clean_prog g s cs k').
Proof.
  intros H. unfold clean_v, clean_prog. destruct (filter (line_dirty g s) cs); [apply H|].
  constructor. intros _. constructor. constructor. intros _. constructor. intros t. constructor. apply H.
Qed.
Lemma prepare_ref g s r promo vs y n y' n' : (forall t, vref (y t) (y' t)) -> (forall t, vref (n t) (n' t)) ->
  vref (prepare_v g s r promo vs y n) (prepare g s r promo vs y' n').
Proof.
  intros H H'. unfold prepare_v, prepare. destruct (is_mapped g s r); [apply H|].
  destruct (negb promo); [apply H'|]. destruct (remap g r (cl_list g r) vs s) as [[m ok] l].
  destruct ok; constructor; auto.
Qed.
Lemma wb_ref g r d s : vref (wb_v g r d s) (wb_do g r d s).
Proof.
  unfold wb_v, wb_do. constructor. intros _. constructor. intros _.
  destruct (is_dirty_all g s r); [constructor|]. destruct (mark_dirty g s r); constructor.
  intros _. constructor.
Qed.
Lemma wip_ref g r k k' s : (forall t, vref (k t) (k' t)) -> vref (wi_purge_v g r k s) (wi_purge g r k' s).
Proof.
  intros H. unfold wi_purge_v, wi_purge. destruct (slots g s r); [apply H|]. constructor. intros t.
  destruct (mark_clean g s r); [apply H|]. now constructor.
Qed.
Lemma wi_ref g r d s : vref (wi_v g r d s) (wi_do g r d s).
Proof.
  unfold wi_v, wi_do. apply clean_ref. intros _. constructor. intros t. apply wip_ref. intros t'.
  destruct (is_hit g s r); [constructor|]. apply wip_ref. intros _. constructor.
Qed.
Lemma wt_ref g r d s : vref (wt_v g r d s) (wt_do g r d s).
Proof.
  unfold wt_v, wt_do. destruct (dirty_any g s r).
  - constructor. intros _. constructor. intros _. destruct (mark_clean g s r); constructor.
    intros _. constructor.
  - constructor. intros _. constructor. intros _. constructor.
Qed.
Lemma pt_ref g r s : vref (pt_v g r s) (pt_do g r s).
Proof. apply clean_ref. intros t. constructor. Qed.
Lemma rd_ref g r s : vref (rd_v g r s) (rd_do g r s).
Proof.
  unfold rd_v, rd_do. destruct (is_hit g s r); [constructor|]. apply clean_ref. intros t.
  constructor. intros t'. constructor. intros _. constructor.
Qed.
Lemma write_ref g m promo vs r d s : vref (write_v g m promo vs r d s) (write_prog g m promo vs r d s).
Proof.
  destruct m; cbn [write_v write_prog]; try apply wi_ref; try (destruct (is_hit g s r); [|apply wi_ref]);
    apply prepare_ref; intros; try apply wi_ref; try apply wb_ref; apply wt_ref.
Qed.
Lemma read_ref g m promo seqc vs r s : vref (read_v g m promo seqc vs r s) (read_prog g m promo seqc vs r s).
Proof.
  assert (P : vref (prepare_v g s r promo vs (rd_v g r) (pt_v g r)) (prepare g s r promo vs (rd_do g r) (pt_do g r))).
  { apply prepare_ref; intros; [apply rd_ref|apply pt_ref]. }
  destruct m; cbn [read_v read_prog]; try exact P.
  - destruct (seqc && is_dirty_all g s r); [exact P|apply pt_ref].
  - unfold wo_v, wo_do. destruct (is_hit g s r); [constructor|]. destruct (dirty_any g s r); constructor.
Qed.
Lemma op_ref g o s p : op_v g o s = Some p -> vref p (op_prog g o s).
Proof.
  destruct o as [fast m promo vs r d|fast m promo seqc vs r|step r dv|cs|c|cs]; cbn [op_v op_prog]; intros E;
    [..|]; try discriminate; injection E as <-.
  - destruct fast; [|apply write_ref]. unfold write_fast_v, write_fast_prog.
    destruct (is_mapped g s r); [apply wb_ref|apply write_ref].
  - destruct fast; [|apply read_ref]. unfold read_fast_v, read_fast_prog.
    destruct (is_hit g s r); [constructor|apply read_ref].
  - apply clean_ref. intros. constructor.
  - destruct (line_dirty g s c); constructor. intros. constructor.
  - constructor. intros. constructor.
Qed.

(** ** Values a core sector can have after a power failure. *)
Definition pset (v : vst) (cid x w : N) : Prop :=
  core (dur v) cid x = w \/ In (PCore cid x w) (pend v).

Lemma pws_core l : forall s cid x,
  core (do_pws l s) cid x = core s cid x \/ In (PCore cid x (core (do_pws l s) cid x)) l.
Proof.
  induction l as [|w l IH]; intros s cid x; [now left|]. cbn [do_pws].
  destruct (IH (do_pw w s) cid x) as [E|I]; [|right; now right].
  rewrite E. destruct w as [i y z|c o z|c t vv dd]; cbn [do_pw core]; try now left.
  unfold upd2. destruct ((cid =? i) && (x =? y)) eqn:K; [|now left].
  apply andb_true_iff in K. destruct K as [K1 K2]. apply N.eqb_eq in K1, K2. subst. right. now left.
Qed.
Lemma powered_core v u cid x : powered v u -> pset v cid x (core u cid x).
Proof.
  intros (sub & S & E). subst u. destruct (pws_core sub (dur v) cid x) as [H|H].
  - left. now symmetry.
  - right. now apply S.
Qed.

(** The pending core writes give the current contents. *)
Definition Cur (v : vst) : Prop := forall cid x, core (do_pws (pend v) (dur v)) cid x = core (now v) cid x.

Lemma pws_app l l' s : do_pws (l ++ l') s = do_pws l' (do_pws l s).
Proof. revert s. induction l; intros; cbn [app do_pws]; auto. Qed.

Definition ceq (s t : st) : Prop := forall cid x, core s cid x = core t cid x.
Lemma pw_ceq w s t : ceq s t -> ceq (do_pw w s) (do_pw w t).
Proof.
  intros H cid x. destruct w; cbn [do_pw core]; try apply H. unfold upd2.
  destruct ((cid =? cid0) && (x =? x0)); [reflexivity|apply H].
Qed.
Lemma pws_ceq l : forall s t, ceq s t -> ceq (do_pws l s) (do_pws l t).
Proof. induction l as [|w l IH]; intros s t H; [exact H|]. cbn [do_pws]. apply IH. now apply pw_ceq. Qed.
Lemma pw_cache_ceq w s : on_cache w = true -> ceq (do_pw w s) s.
Proof. destruct w; [discriminate| |]; intros _ cid x; reflexivity. Qed.
Lemma ceq_sym s t : ceq s t -> ceq t s.
Proof. intros H cid x. symmetry. apply H. Qed.
Lemma ceq_trans s t u : ceq s t -> ceq t u -> ceq s u.
Proof. intros H K cid x. rewrite H. apply K. Qed.
Lemma snap_ceq e s t : ceq s t -> ceq (do_pw (snap e t) s) (do_io e t).
Proof.
  intros H cid x. destruct e; cbn [snap do_pw do_io core]; try apply H. unfold upd2.
  destruct ((cid =? cid0) && (x =? x0)); [reflexivity|apply H].
Qed.

Lemma cur_vio plp e v : Cur v -> Cur (vio plp e v).
Proof.
  intros H. unfold Cur, vio. destruct (plp && on_cache (snap e (now v))) eqn:K; cbn [now dur pend].
  - apply andb_true_iff in K. destruct K as [_ K].
    change (ceq (do_pws (pend v) (do_pw (snap e (now v)) (dur v))) (do_io e (now v))).
    apply (ceq_trans _ (do_pws (pend v) (dur v))); [apply pws_ceq; now apply pw_cache_ceq|].
    apply (ceq_trans _ (now v)); [exact H|]. destruct e; [discriminate| |]; intros cid x; reflexivity.
  - intros cid x. rewrite pws_app. cbn [do_pws]. now apply snap_ceq.
Qed.
Lemma cur_vios plp l : forall v, Cur v -> Cur (vios plp l v).
Proof. induction l as [|e l IH]; intros v H; [exact H|]. cbn [vios]. apply IH. now apply cur_vio. Qed.
Lemma mems_core g l s : core (do_mems g l s) = core s.
Proof. apply (mem_dev g l s). Qed.
Lemma cur_vmems g l v : Cur v -> Cur (vmems g l v).
Proof. intros H cid x. cbn [vmems now dur pend]. rewrite mems_core. apply H. Qed.

(** Writes selected by [f] and the others do not touch the same sectors. *)
Definition bycore (f : pw -> bool) : Prop :=
  forall cid x w w', f (PCore cid x w) = f (PCore cid x w').
Lemma sel_core f l cid x : bycore f -> forall s, 
  core (do_pws (filter (fun w => negb (f w)) l) (do_pws (filter f l) s)) cid x = core (do_pws l s) cid x.
Proof.
  intros B. 
  assert (K : forall q l s, (forall w, In w l -> q w = true) ->
    (forall w, q (PCore cid x w) = false) -> core (do_pws l s) cid x = core s cid x).
  { intros q l0 s0 H1 H2. destruct (pws_core l0 s0 cid x) as [E|E]; [exact E|].
    apply H1 in E. rewrite H2 in E. discriminate. }
  assert (L : forall (q : pw -> bool) l s, (forall w, q (PCore cid x w) = true) ->
    core (do_pws (filter q l) s) cid x = core (do_pws l s) cid x).
  { intros q l0 s0 Hq. revert s0.
    enough (G : forall s t, core s cid x = core t cid x ->
      core (do_pws (filter q l0) s) cid x = core (do_pws l0 t) cid x) by (intros; now apply G).
    induction l0 as [|w l0 IH]; intros s t E; [exact E|]. cbn [filter do_pws].
    destruct (q w) eqn:Q; cbn [do_pws]; apply IH.
    - destruct w; cbn [do_pw core]; try exact E. unfold upd2.
      destruct ((cid =? cid0) && (x =? x0)); [reflexivity|exact E].
    - destruct w as [i y z| |]; cbn [do_pw core]; try exact E. unfold upd2.
      destruct ((cid =? i) && (x =? y)) eqn:K1; [|exact E].
      apply andb_true_iff in K1. destruct K1 as [K1 K2]. apply N.eqb_eq in K1, K2. subst.
      rewrite Hq in Q. discriminate. }
  intros s. destruct (f (PCore cid x 0)) eqn:F.
  - rewrite (K (fun w => negb (f w))).
    + apply L. intros w. rewrite (B cid x w 0). exact F.
    + intros w Hw. now apply filter_In in Hw.
    + intros w. rewrite (B cid x w 0), F. reflexivity.
  - rewrite L.
    + assert (E : core (do_pws (filter f l) s) cid x = core s cid x).
      { apply (K f).
        - intros w Hw. now apply filter_In in Hw.
        - intros w. rewrite (B cid x w 0). exact F. }
      assert (G : forall l s t, core s cid x = core t cid x -> core (do_pws l s) cid x = core (do_pws l t) cid x).
      { clear. induction l as [|w l IH]; intros s t E; [exact E|]. cbn [do_pws]. apply IH.
        destruct w; cbn [do_pw core]; try exact E. unfold upd2.
        destruct ((cid =? cid0) && (x =? x0)); [reflexivity|exact E]. }
      now apply G.
    + intros w. rewrite (B cid x w 0), F. reflexivity.
Qed.
Lemma cur_vflush f v : bycore f -> Cur v -> Cur (vflush f v).
Proof. intros B H cid x. unfold vflush. cbn [now dur pend]. rewrite sel_core by assumption. apply H. Qed.
Lemma bycore_core cid : bycore (on_core cid).
Proof. intros i x w w'. reflexivity. Qed.
Lemma bycore_cache : bycore on_cache.
Proof. intros i x w w'. reflexivity. Qed.
Lemma cur_fcores cids : forall v, Cur v -> Cur (flush_cores cids v).
Proof. induction cids as [|c l IH]; intros v H; [exact H|]. cbn [flush_cores]. apply IH. apply cur_vflush; [apply bycore_core|assumption]. Qed.

(** Sector all of whose writes are on the medium. *)
Definition settled (v : vst) (cid x : N) : Prop := forall w, pset v cid x w -> w = core (now v) cid x.

Lemma pset_now v cid x : Cur v -> pset v cid x (core (now v) cid x).
Proof.
  intros H. rewrite <- H. destruct (pws_core (pend v) (dur v) cid x) as [E|I].
  - left. now symmetry.
  - now right.
Qed.
Lemma pset_vflush f v cid x w : pset (vflush f v) cid x w -> pset v cid x w.
Proof.
  intros [H|H].
  - cbn [vflush dur] in H. destruct (pws_core (filter f (pend v)) (dur v) cid x) as [E|I].
    + left. congruence.
    + right. apply filter_In in I. rewrite <- H. tauto.
  - right. cbn [vflush pend] in H. apply filter_In in H. tauto.
Qed.
Lemma settled_vflush_core v cid x : Cur v -> settled (vflush (on_core cid) v) cid x.
Proof.
  intros H w [P|P].
  - cbn [vflush now]. rewrite <- P. cbn [vflush dur]. rewrite <- H.
    rewrite <- (sel_core (on_core cid) (pend v) cid x (bycore_core cid)).
    set (s := do_pws (filter (on_core cid) (pend v)) (dur v)).
    destruct (pws_core (filter (fun w => negb (on_core cid w)) (pend v)) s cid x) as [E|E]; [congruence|].
    exfalso. apply filter_In in E. cbn [on_core] in E. rewrite N.eqb_refl in E. destruct E; discriminate.
  - exfalso. cbn [vflush pend] in P. apply filter_In in P. cbn [on_core] in P. rewrite N.eqb_refl in P.
    destruct P; discriminate.
Qed.
Lemma settled_mono f v cid x : settled v cid x -> settled (vflush f v) cid x.
Proof. intros H w P. apply pset_vflush in P. now apply H. Qed.
Lemma settled_fcores_keep cids : forall v cid x, settled v cid x -> settled (flush_cores cids v) cid x.
Proof. induction cids as [|c l IH]; intros v cid x H; [exact H|]. cbn [flush_cores]. apply IH. now apply settled_mono. Qed.
Lemma settled_fcores cids : forall v cid x, Cur v -> In cid cids -> settled (flush_cores cids v) cid x.
Proof.
  induction cids as [|c l IH]; intros v cid x H I; [destruct I|]. cbn [flush_cores].
  destruct I as [I|I].
  - subst. apply settled_fcores_keep. now apply settled_vflush_core.
  - apply IH; [|assumption]. apply cur_vflush; [apply bycore_core|assumption].
Qed.
Lemma pset_fcores cids : forall v cid x w, pset (flush_cores cids v) cid x w -> pset v cid x w.
Proof. induction cids as [|c l IH]; intros v cid x w H; [exact H|]. cbn [flush_cores] in H. apply IH in H. now apply pset_vflush in H. Qed.

(** ** Invariant: a sector is dirty on both sides (memory and cache device), or
    whatever its core may hold after a power failure is allowed. *)
Definition bd (g : cfg) (s : st) (cid cl o : N) : Prop :=
  exists c, pdirty g s c (cid, cl) o /\ rdirty g s c (cid, cl) o.
Definition J (g : cfg) (v : vst) (A : N -> N -> N -> Prop) : Prop :=
  forall cid cl o, o < ls g -> bd g (now v) cid cl o \/
    (forall w, pset v cid (cl * ls g + o) w -> A cid (cl * ls g + o) w).

Lemma j_weaken g v (A B : N -> N -> N -> Prop) : (forall cid x w, A cid x w -> B cid x w) -> J g v A -> J g v B.
Proof. intros H K cid cl o Ho. destruct (K cid cl o Ho) as [D|D]; [now left|right; auto]. Qed.
Lemma j_flush g f v A : J g v A -> J g (vflush f v) A.
Proof. intros K cid cl o Ho. destruct (K cid cl o Ho) as [D|D]; [now left|]. right. intros w P. apply D. now apply pset_vflush in P. Qed.
Lemma j_fcores g cids : forall v A, J g v A -> J g (flush_cores cids v) A.
Proof. induction cids as [|c l IH]; intros v A H; [exact H|]. cbn [flush_cores]. apply IH. now apply j_flush. Qed.

Section S.
Context (g : cfg) (vc : N -> bool).

Lemma bd_io e s cid cl o : bd g s cid cl o -> bd g (do_io e s) cid cl o.
Proof.
  intros (c & [P1 P2] & [R1 R2]). exists c. unfold pdirty, rdirty.
  destruct e as [i x w|c' o' w|c']; cbn [do_io ptbl pdrt tbl drt]; [tauto|tauto|].
  unfold upd1. destruct (c =? c') eqn:E; [apply N.eqb_eq in E; subst; tauto|tauto].
Qed.
Lemma pset_vio plp e v cid x w : pset (vio plp e v) cid x w ->
  pset v cid x w \/ e = WCore cid x w.
Proof.
  unfold vio, pset. destruct (plp && on_cache (snap e (now v))) eqn:K; cbn [dur pend].
  - apply andb_true_iff in K. destruct K as [_ K]. intros [H|H].
    + rewrite pw_cache_ceq in H by assumption. tauto.
    + tauto.
  - intros [H|H]; [tauto|]. apply in_app_iff in H. destruct H as [H|[H|[]]]; [tauto|].
    right. destruct e; cbn [snap] in H; congruence.
Qed.

Lemma j_vio plp e v A : J g v A -> Mix g vc (do_io e (now v)) A -> J g (vio plp e v) A.
Proof.
  intros K M cid cl o Ho.
  assert (En : now (vio plp e v) = do_io e (now v)) by (unfold vio; destruct (plp && on_cache (snap e (now v))); reflexivity).
  rewrite En. destruct (K cid cl o Ho) as [D|D].
  - left. now apply bd_io.
  - destruct e as [i x w|c' o' w|c'].
    + destruct (N.eq_dec i cid) as [Ei|Ei]; [destruct (N.eq_dec x (cl * ls g + o)) as [Ex|Ex]|].
      * (* the written sector *)
        subst i x.
        assert (G : bd g (do_io (WCore cid (cl * ls g + o) w) (now v)) cid cl o \/
          (forall c, ~ (pdirty g (do_io (WCore cid (cl * ls g + o) w) (now v)) c (cid, cl) o /\
                        rdirty g (do_io (WCore cid (cl * ls g + o) w) (now v)) c (cid, cl) o))).
        { assert (F : (exists c, In c (all_lines g) /\ (keyb (ptbl (now v) c) cid cl && pdrt (now v) c o && keyb (tbl (now v) c) cid cl && drt (now v) c o = true)) \/
            forall c, In c (all_lines g) -> keyb (ptbl (now v) c) cid cl && pdrt (now v) c o && keyb (tbl (now v) c) cid cl && drt (now v) c o = false).
          { destruct (existsb (fun c => keyb (ptbl (now v) c) cid cl && pdrt (now v) c o && keyb (tbl (now v) c) cid cl && drt (now v) c o) (all_lines g)) eqn:X.
            - left. apply existsb_exists in X. exact X.
            - right. intros c Hc. destruct (keyb (ptbl (now v) c) cid cl && pdrt (now v) c o && keyb (tbl (now v) c) cid cl && drt (now v) c o) eqn:Y; [|reflexivity].
              assert (existsb (fun c => keyb (ptbl (now v) c) cid cl && pdrt (now v) c o && keyb (tbl (now v) c) cid cl && drt (now v) c o) (all_lines g) = true) by (apply existsb_exists; eauto).
              congruence. }
          destruct F as [(c & _ & F)|F].
          - left. exists c. apply andb_true_iff in F. destruct F as [F F4].
            apply andb_true_iff in F. destruct F as [F F3]. apply andb_true_iff in F. destruct F as [F1 F2].
            apply keyb_true in F1, F3. split; split; assumption.
          - right. intros c [[P1 P2] [R1 R2]]. cbn [do_io ptbl pdrt tbl drt] in *.
            assert (Hin : In c (all_lines g)).
            { destruct (m_rd _ _ _ _ M c o Ho) as (_ & ? & ? & ? & ? & ?); [exact R2|assumption]. }
            specialize (F c Hin). apply keyb_true in P1, R1. rewrite P1, P2, R1, R2 in F. discriminate. }
        destruct G as [G|G]; [now left|]. right. intros z Hz. apply pset_vio in Hz.
        destruct Hz as [Hz|Hz]; [now apply D|]. injection Hz as ->.
        pose proof (m_c _ _ _ _ M cid cl o Ho G) as H. cbn [do_io core] in H. unfold upd2 in H.
        rewrite !N.eqb_refl in H. exact H.
      * right. intros z Hz. apply pset_vio in Hz. destruct Hz as [Hz|Hz]; [now apply D|congruence].
      * right. intros z Hz. apply pset_vio in Hz. destruct Hz as [Hz|Hz]; [now apply D|congruence].
    + right. intros z Hz. apply pset_vio in Hz. destruct Hz as [Hz|Hz]; [now apply D|congruence].
    + right. intros z Hz. apply pset_vio in Hz. destruct Hz as [Hz|Hz]; [now apply D|congruence].
Qed.

Lemma ios_app l l' s : do_ios (l ++ l') s = do_ios l' (do_ios l s).
Proof. revert s. induction l; intros; cbn [app do_ios]; auto. Qed.
Lemma vios_app plp l l' v : vios plp (l ++ l') v = vios plp l' (vios plp l v).
Proof. revert v. induction l; intros; cbn [app vios]; auto. Qed.

Lemma j_vios plp es A v : J g v A -> (forall sub, incl sub es -> Mix g vc (do_ios sub (now v)) A) ->
  forall l, incl l es -> J g (vios plp l v) A.
Proof.
  intros K M. induction l as [|e l IH] using rev_ind; intros H; [exact K|].
  rewrite vios_app. cbn [vios]. apply j_vio.
  - apply IH. intros a Ha. apply H. apply in_app_iff. now left.
  - rewrite now_vios. specialize (M (l ++ [e]) H). now rewrite ios_app in M.
Qed.

Lemma j_vmems es v (A : N -> N -> N -> Prop) : Cur v -> J g v A ->
  (forall c cid cl o, o < ls g -> pdirty g (now v) c (cid, cl) o -> rdirty g (now v) c (cid, cl) o ->
     rdirty g (do_mems g es (now v)) c (cid, cl) o \/
     (settled v cid (cl * ls g + o) /\ A cid (cl * ls g + o) (core (now v) cid (cl * ls g + o)))) ->
  J g (vmems g es v) A.
Proof.
  intros HC K H cid cl o Ho. destruct (K cid cl o Ho) as [(c & P & R)|D].
  - destruct (H c cid cl o Ho P R) as [D|[D1 D2]].
    + left. exists c. split; [|exact D]. destruct (mem_dev g es (now v)) as (_ & _ & E1 & _ & E3).
      destruct P as [P1 P2]. cbn [vmems now]. split; [rewrite E1|rewrite E3]; assumption.
    + right. intros w Hw. rewrite (D1 w); [exact D2|exact Hw].
  - right. exact D.
Qed.

(** Programs whose in-memory updates drop dirty sectors only if they are settled. *)
Fixpoint gp (plp : bool) (p : vprog) (v : vst) : Prop :=
  match p with
  | VRet _ => True
  | VIo es k => forall es', (forall e, In e es' <-> In e es) -> gp plp (k (now (vios plp es' v))) (vios plp es' v)
  | VMem es k =>
      (forall c cid cl o, o < ls g -> rdirty g (now v) c (cid, cl) o ->
         rdirty g (do_mems g es (now v)) c (cid, cl) o \/
         (settled v cid (cl * ls g + o) /\ (forall c, ~ rdirty g (do_mems g es (now v)) c (cid, cl) o))) /\
      gp plp (k (now (vmems g es v))) (vmems g es v)
  | VFlushCores cids k => gp plp k (flush_cores cids v)
  | VFlushCache k => gp plp k (vflush on_cache v)
  end.

Lemma perm_in {X} (l l' : list X) : Permutation l l' -> forall e, In e l' <-> In e l.
Proof. intros P e. split; intros H; [eapply Permutation_in; [symmetry; eassumption|assumption]|eapply Permutation_in; eassumption]. Qed.

Lemma cr_mem_now q es k s t : q = Mem es k -> crashed g (k (do_mems g es s)) (do_mems g es s) t -> crashed g q s t.
Proof. intros -> H. now constructor. Qed.

Lemma gp_crash plp p v t : vcrashed g plp p v t -> forall q A, vref p q -> gp plp p v -> Cur v ->
  (forall u, crashed g q (now v) u -> Mix g vc u A) -> J g v A -> J g t A /\ Cur t.
Proof.
  induction 1; intros q A R G HC M K.
  - tauto.
  - inversion R; subst. split; [|now apply cur_vios].
    apply (j_vios plp es); [assumption| |assumption]. intros sub' Hs. apply M. now constructor.
  - inversion R; subst. cbn [gp] in G.
    apply (IHvcrashed (k' (now (vios plp es' v))) A); auto.
    + apply G. now apply perm_in.
    + now apply cur_vios.
    + intros u Hu. apply M. eapply cr_io; [eassumption|]. now rewrite now_vios in Hu.
    + apply (j_vios plp es); [assumption| |].
      * intros sub' Hs. apply M. now constructor.
      * intros e He. now apply (perm_in es es').
  - inversion R; subst. cbn [gp] in G. destruct G as [G1 G2].
    apply (IHvcrashed (k' (now (vmems g es v))) A); auto.
    + now apply cur_vmems.
    + intros u Hu. apply M. now apply cr_mem.
    + apply j_vmems; [assumption|assumption|]. intros c cid cl o Ho _ Rd.
      destruct (G1 c cid cl o Ho Rd) as [D|[D1 D2]]; [now left|right; split; [assumption|]].
      assert (Mx : Mix g vc (do_mems g es (now v)) A).
      { apply M. apply cr_mem. constructor. }
      rewrite <- (mems_core g es (now v)). apply (m_c _ _ _ _ Mx); [assumption|].
      intros c' [_ X]. now apply (D2 c').
  - inversion R; subst. apply (IHvcrashed q A); auto.
    + now apply cur_fcores.
    + rewrite now_fcores. assumption.
    + now apply j_fcores.
  - inversion R; subst. apply (IHvcrashed q A); auto.
    + apply cur_vflush; [apply bycore_cache|assumption].
    + now apply j_flush.
Qed.

Lemma vexec_crash plp p v b t : vexec g plp p v b t -> vcrashed g plp p v t.
Proof.
  induction 1.
  - constructor.
  - eapply vc_io; eassumption.
  - now constructor.
  - now constructor.
  - now constructor.
Qed.
End S.

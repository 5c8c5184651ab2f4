(** C73: the marks on the cache device (MarkModel). *)
From Coq Require Import List Arith NArith ZArith Bool Lia.
From Verif Require Import MarkModel.
From Verif Require SbLoadModel.
Import ListNotations.

(** ** Specification *)
(** What may be on the device after a power cut now: any of the volatile writes, in order *)
Inductive sub : list wr -> list wr -> Prop :=
  | sub_nil : sub [] []
  | sub_keep w l m : sub l m -> sub (w :: l) (w :: m)
  | sub_lose w l m : sub l m -> sub l (w :: m).
Definition outcome (s : mach) (d : dev) : Prop := exists l, sub l (pend s) /\ d = applys l (dur s).
Definition says_clean (d : dev) : Prop := exists x, d_sb d = Some x /\ s_clean x = true.
Definition cache_there (d : dev) : Prop := d_sb d <> None.

(** Attach with force is only used on a device that holds no cache that was stopped cleanly *)
Definition careful (s : mach) (l : label) : Prop :=
  match l with Attach true _ => forall d, outcome s d -> ~ says_clean d | _ => True end.
Definition unforced (l : label) : Prop := match l with Attach true _ => False | _ => True end.

Section Spec.
Variable n : nat.
Variable crc : list N -> list N.
Variable dirty : list N -> bool.
Notation exec := (exec n crc dirty).
Notation row := (row n).

Inductive reach : mach -> Prop :=
  | reach_0 f : reach (blank f)
  | reach_step l s s' : reach s -> careful s l -> exec l s = Some s' -> reach s'.
(** Runs without any forced attach *)
Inductive reach_u : mach -> Prop :=
  | reach_u0 f : reach_u (blank f)
  | reach_ustep l s s' : reach_u s -> unforced l -> exec l s = Some s' -> reach_u s'.

(** ** Invariant *)
Definition clean_o (o : option sbv) : bool := match o with Some x => s_clean x | None => false end.
Definition wclean (w : wr) : bool := match w with WSb o => clean_o o | WPg _ _ => false end.
(** no clean mark anywhere *)
Definition none_clean (s : mach) : Prop :=
  clean_o (d_sb (dur s)) = false /\ forall w, In w (pend s) -> wclean w = false.
(** no page is volatile and every clean mark fits the pages *)
Definition fits (d : dev) (o : option sbv) : Prop :=
  match o with Some x => s_clean x = true -> s_sum x = crc (row (d_pages d)) | None => True end.
Definition settled (s : mach) : Prop :=
  fits (dur s) (d_sb (dur s)) /\
  forall w, In w (pend s) -> exists x, w = WSb (Some x) /\ fits (dur s) (Some x).
Definition saved (s : mach) : Prop := forall i, i < n -> d_pages (view s) i = m_pages s i.
Definition sb_now (s : mach) : sbv := {| s_clean := m_clean s; s_flushed := m_flushed s; s_sum := m_sum s |}.

Definition save_rest (rest : list cmd) (j : job) : Prop :=
  (rest = [CMark] /\ (j = JAttach \/ j = JLoad)) \/ (rest = [] /\ j = JStop).
Definition mark_rest (rest : list cmd) (j : job) : Prop :=
  (rest = [] /\ (j = JAttach \/ j = JLoad)) \/ (rest = [CSave; CMark] /\ j = JLoad).
Definition zero_rest (rest : list cmd) (j : job) : Prop :=
  (rest = [CSave; CMark] /\ j = JAttach) \/ (rest = [] /\ j = JDetach).

Definition inv (s : mach) : Prop :=
  match ph s with
  | Off => none_clean s \/ settled s
  | Run => none_clean s /\ m_clean s = false
  | Busy CZero p rest j => p = PZero /\ zero_rest rest j /\ none_clean s
  | Busy CConf p rest j =>
      (p = PSync1 \/ p = PSb \/ p = PSync2) /\ rest = [] /\ j = JConf /\ none_clean s /\ m_clean s = false
  | Busy CMark p rest j =>
      mark_rest rest j /\ m_clean s = false /\ (none_clean s \/ settled s) /\
      match p with
      | PSync1 => True
      | PSb => pend s = []
      | PSync2 => pend s = [WSb (Some (sb_now s))]
      | _ => False
      end
  | Busy CSave p rest j =>
      save_rest rest j /\
      match p with
      | PPage i => i <= n /\ none_clean s /\ forall k, k < i -> d_pages (view s) k = m_pages s k
      | PSync1 => none_clean s /\ saved s /\ m_clean s = true /\ m_sum s = crc (row (m_pages s))
      | PSb => pend s = [] /\ clean_o (d_sb (dur s)) = false /\ saved s /\ m_clean s = true /\
               m_sum s = crc (row (m_pages s))
      | PSync2 => pend s = [WSb (Some (sb_now s))] /\ clean_o (d_sb (dur s)) = false /\ saved s /\
                  m_clean s = true /\ m_sum s = crc (row (m_pages s))
      | PZero => False
      end
  end.

(** ** Lemmas *)
Lemma applys_app a b d : applys (a ++ b) d = applys b (applys a d).
Proof. revert d; induction a as [|w a IH]; intros d; cbn [app applys]; [reflexivity|apply IH]. Qed.

Lemma view_write w s : view (write w s) = apply w (view s).
Proof. unfold view; cbn [write pend dur]. rewrite applys_app. reflexivity. Qed.

Lemma applys_sb l d : d_sb (applys l d) = d_sb d \/ exists o, In (WSb o) l /\ d_sb (applys l d) = o.
Proof.
  revert d; induction l as [|w l IH]; intros d; cbn [applys]; [now left|].
  destruct (IH (apply w d)) as [E|(o & I & E)].
  - destruct w as [o|i v]; cbn [apply d_sb] in E.
    + right. exists o. split; [now left|exact E].
    + now left.
  - right. exists o. split; [now right|exact E].
Qed.

Lemma none_clean_sub s l : none_clean s -> (forall w, In w l -> In w (pend s)) ->
  clean_o (d_sb (applys l (dur s))) = false.
Proof.
  intros (H & G) I. destruct (applys_sb l (dur s)) as [->|(o & J & ->)]; [exact H|].
  exact (G _ (I _ J)).
Qed.

Lemma settled_pages l d : (forall w, In w l -> exists x, w = WSb (Some x)) -> d_pages (applys l d) = d_pages d.
Proof.
  revert d; induction l as [|w l IH]; intros d H; cbn [applys]; [reflexivity|].
  rewrite IH by (intros; apply H; now right).
  destruct (H w (or_introl eq_refl)) as (x & ->). reflexivity.
Qed.

Lemma settled_sub s l : settled s -> (forall w, In w l -> In w (pend s)) ->
  fits (applys l (dur s)) (d_sb (applys l (dur s))) /\ d_pages (applys l (dur s)) = d_pages (dur s).
Proof.
  intros (H & G) I.
  assert (E : d_pages (applys l (dur s)) = d_pages (dur s)).
  { apply settled_pages. intros w J. destruct (G w (I w J)) as (x & E & _). now exists x. }
  split; [|exact E]. unfold fits in *. rewrite E.
  destruct (applys_sb l (dur s)) as [->|(o & J & ->)]; [exact H|].
  destruct (G _ (I _ J)) as (x & X & F). injection X as ->. exact F.
Qed.

Lemma sub_in l m : sub l m -> forall w, In w l -> In w m.
Proof. induction 1; intros y I; [exact I| |right; auto]. destruct I as [->|I]; [now left|right; auto]. Qed.
Lemma sub_nil_l m : sub [] m.
Proof. induction m; constructor; auto. Qed.
Lemma survive_sub mask l : sub (survive mask l) l.
Proof.
  revert mask; induction l as [|w l IH]; intros [|b mask]; cbn [survive];
    [apply sub_nil|apply sub_nil|apply sub_nil_l|].
  destruct b; [apply sub_keep|apply sub_lose]; apply IH.
Qed.
Lemma sub_one w m : In w m -> sub [w] m.
Proof.
  induction m as [|x m IH]; intros I; [destruct I|].
  destruct I as [->|I]; [apply sub_keep, sub_nil_l|apply sub_lose; auto].
Qed.
Lemma sub_all m : sub m m.
Proof. induction m; constructor; auto. Qed.

Lemma no_outcome_clean s : (forall d, outcome s d -> ~ says_clean d) -> none_clean s.
Proof.
  intros H. split.
  - destruct (d_sb (dur s)) as [x|] eqn:E; [|reflexivity]. cbn [clean_o].
    destruct (s_clean x) eqn:C; [|reflexivity].
    destruct (H (dur s)); [exists []; split; [apply sub_nil_l|reflexivity]|exists x; auto].
  - intros w I. destruct w as [[x|]|i v]; try reflexivity. cbn [wclean clean_o].
    destruct (s_clean x) eqn:C; [|reflexivity].
    destruct (H (applys [WSb (Some x)] (dur s))).
    + exists [WSb (Some x)]. split; [now apply sub_one|reflexivity].
    + exists x. split; [reflexivity|exact C].
Qed.

Lemma none_clean_outcome s d : none_clean s -> outcome s d -> ~ says_clean d.
Proof.
  intros H (l & S1 & ->) (x & E & C).
  pose proof (none_clean_sub s l H (sub_in _ _ S1)) as K. rewrite E in K. cbn [clean_o] in K. congruence.
Qed.

(** none_clean and settled under writes, flushes and changes of memory *)
Lemma none_clean_write w s : none_clean s -> wclean w = false -> none_clean (write w s).
Proof.
  intros (H & G) W. split; [exact H|]. cbn [write pend]. intros x I. apply in_app_or in I as [I|[<-|[]]]; auto.
Qed.
Lemma none_clean_flush s : none_clean s -> none_clean (flush s).
Proof.
  intros H. split; [|intros w []]. cbn [flush dur]. apply (none_clean_sub s); auto.
Qed.
Lemma settled_flush s : settled s -> settled (flush s).
Proof.
  intros H. destruct (settled_sub s (pend s) H) as (F & _); [auto|].
  split; [exact F|intros w []].
Qed.
Lemma settled_write x s : settled s -> fits (dur s) (Some x) -> settled (write (WSb (Some x)) s).
Proof.
  intros (H & G) F. split; [exact H|]. cbn [write pend dur]. intros w I.
  apply in_app_or in I as [I|[<-|[]]]; eauto.
Qed.
Lemma view_flush s : view (flush s) = view s.
Proof. reflexivity. Qed.

Lemma settled_none s : settled s -> d_sb (view s) = None -> none_clean s.
Proof.
  intros (H & G) V. unfold view in V. destruct (pend s) as [|w l] eqn:E.
  - cbn [applys] in V. split; [now rewrite V|]. rewrite E. intros w [].
  - exfalso. assert (K : exists x, d_sb (applys (w :: l) (dur s)) = Some x).
    { clear V E. revert G. generalize (dur s) at 2. revert w. induction l as [|u l IH]; intros w d G.
      - destruct (G w (or_introl eq_refl)) as (x & -> & _). now exists x.
      - cbn [applys]. apply (IH u). intros y I. apply G. now right. }
    destruct K as (x & K). congruence.
Qed.

(** ** The invariant is kept *)
Lemma inv_blank f : inv (blank f).
Proof. unfold inv; cbn [blank ph]. left. split; [reflexivity|intros w []]. Qed.

Lemma eqrow f g : (forall i, i < n -> f i = g i) -> row f = row g.
Proof. intros H. unfold MarkModel.row. apply map_ext_in. intros i I. apply in_seq in I. apply H. lia. Qed.

(** finishing in any way leaves none_clean or settled *)
Lemma inv_off s : none_clean s \/ settled s -> ph s = Off -> inv s.
Proof. intros H E. unfold inv. rewrite E. exact H. Qed.

Definition same_dev (s t : mach) : Prop := dur s = dur t /\ pend s = pend t.
Lemma nc_same s t : same_dev s t -> none_clean t -> none_clean s.
Proof. intros (A & B) (H & G). split; [now rewrite A|now rewrite B]. Qed.
Lemma st_same s t : same_dev s t -> settled t -> settled s.
Proof. intros (A & B) (H & G). split; [now rewrite A|rewrite A, B; exact G]. Qed.
Lemma or_same s t : same_dev s t -> none_clean t \/ settled t -> none_clean s \/ settled s.
Proof. intros E [H|H]; [left; eapply nc_same; eauto|right; eapply st_same; eauto]. Qed.

Lemma finish_bad j s : j <> JConf -> none_clean s \/ settled s -> inv (finish j false s).
Proof.
  intros J H. destruct j; try congruence; apply inv_off; try reflexivity;
    (eapply or_same; [|exact H]); split; reflexivity.
Qed.

Lemma inv_start_save rest j s : save_rest rest j -> none_clean s -> inv (start CSave rest j s).
Proof.
  intros R H. unfold inv; cbn [start with_ph ph]. split; [exact R|]. split; [lia|]. split; [exact H|].
  intros k K. lia.
Qed.
Lemma inv_start_mark rest j s : mark_rest rest j -> none_clean s \/ settled s -> inv (start CMark rest j s).
Proof.
  intros R H. unfold inv; cbn [start with_ph ph m_clean with_clean]. split; [exact R|].
  split; [reflexivity|]. split; [exact H|exact I].
Qed.

Lemma go_save_done s : forall rest j, ph s = Busy CSave PSync2 rest j -> inv s ->
  none_clean (flush s) \/ settled (flush s).
Proof.
  intros rest j E H. unfold inv in H. rewrite E in H. destruct H as (_ & P & C & V & M & K).
  right. unfold flush, settled, fits; cbn [dur pend d_sb]. rewrite P. cbn [applys apply d_sb d_pages].
  split; [|intros w []]. intros _. cbn [sb_now s_sum]. rewrite K. f_equal.
  apply eqrow. intros i L. specialize (V i L). unfold view in V. rewrite P in V.
  cbn [applys apply d_pages] in V. now rewrite V.
Qed.

Lemma inv_go did ok c p rest j s : ph s = Busy c p rest j -> inv s -> inv (go n crc did ok c p rest j s).
Proof.
  intros E H. pose proof H as H0. unfold inv in H. rewrite E in H. destruct c.
  - (* CZero *)
    destruct H as (-> & R & NC). cbn [go].
    assert (NC' : none_clean (effect PZero s)) by (apply none_clean_write; [exact NC|reflexivity]).
    destruct ok.
    + destruct R as [(-> & ->)|(-> & ->)]; cbn [advance next_cmd].
      * apply inv_start_save; [left; auto|exact NC'].
      * apply inv_off; [left; exact NC'|reflexivity].
    + apply finish_bad.
      * destruct R as [(_ & ->)|(_ & ->)]; discriminate.
      * left. destruct did; assumption.
  - (* CSave *)
    destruct H as (R & H).
    assert (J : j <> JConf) by (destruct R as [(_ & [-> | ->])|(_ & ->)]; discriminate).
    destruct p as [|i| | |]; [destruct H| | | |].
    + destruct H as (L & NC & V). cbn [go].
      assert (NC' : none_clean (effect (PPage i) s)) by (apply none_clean_write; [exact NC|reflexivity]).
      destruct (n <=? i) eqn:Q; [|destruct ok].
      * apply Nat.leb_le in Q. unfold inv. cbn [all_pages with_ph ph]. split; [exact R|].
        split; [exact NC|]. split; [|split; reflexivity]. intros k K. apply V. lia.
      * apply Nat.leb_gt in Q. unfold inv. cbn [advance with_ph ph]. split; [exact R|].
        split; [lia|]. split; [exact NC'|]. intros k K.
        change (d_pages (view (effect (PPage i) s)) k = m_pages s k).
        cbn [effect]. rewrite view_write. cbn [apply d_pages]. unfold setp.
        destruct (k =? i) eqn:B; [apply Nat.eqb_eq in B; now subst|].
        apply Nat.eqb_neq in B. apply V. lia.
      * apply finish_bad; [exact J|]. left. destruct did; assumption.
    + destruct H as (NC & V & M & K). cbn [go]. pose proof (none_clean_flush s NC) as NC'. destruct ok.
      * unfold inv. cbn [advance with_ph ph]. split; [exact R|]. split; [reflexivity|].
        split; [exact (proj1 NC')|]. split; [exact V|]. split; assumption.
      * apply finish_bad; [exact J|]. left. destruct did; assumption.
    + destruct H as (P & C & V & M & K). cbn [go].
      assert (FT : fits (dur s) (Some (sb_now s))).
      { intros _. cbn [sb_now s_sum]. rewrite K. f_equal. apply eqrow. intros i L. rewrite <- V by exact L.
        unfold view. rewrite P. reflexivity. }
      assert (ST : settled s).
      { split; [|rewrite P; intros w []]. unfold fits. destruct (d_sb (dur s)) as [x|]; [|exact I].
        cbn [clean_o] in C. congruence. }
      destruct ok.
      * unfold inv. cbn [advance with_ph ph]. split; [exact R|]. split.
        { change (pend s ++ [WSb (Some (sb_now s))] = [WSb (Some (sb_now s))]). now rewrite P. }
        split; [exact C|]. split; [|split; assumption].
        intros k L. change (d_pages (view (effect PSb s)) k = m_pages s k). cbn [effect].
        rewrite view_write. cbn [apply d_pages]. apply V, L.
      * apply finish_bad; [exact J|]. right. destruct did; [|exact ST].
        apply settled_write; [exact ST|exact FT].
    + pose proof (go_save_done s rest j E H0) as D. cbn [go]. destruct ok.
      * destruct R as [(-> & R)|(-> & ->)]; cbn [advance next_cmd].
        -- apply inv_start_mark; [left; auto|exact D].
        -- apply inv_off; [exact D|reflexivity].
      * apply finish_bad; [exact J|]. destruct did; [exact D|].
        destruct H as (P & C & V & M & K). right. split.
        -- unfold fits. destruct (d_sb (dur s)) as [x|]; [|exact I]. cbn [clean_o] in C. congruence.
        -- rewrite P. intros w [<-|[]]. exists (sb_now s). split; [reflexivity|].
           intros _. cbn [sb_now s_sum]. rewrite K. f_equal. apply eqrow. intros i L. rewrite <- V by exact L.
           unfold view. rewrite P. reflexivity.
  - (* CMark *)
    destruct H as (R & M & O & H).
    assert (J : j <> JConf) by (destruct R as [(_ & [-> | ->])|(_ & ->)]; discriminate).
    assert (OF : none_clean (flush s) \/ settled (flush s))
      by (destruct O as [O|O]; [left; now apply none_clean_flush|right; now apply settled_flush]).
    assert (OW : none_clean (effect PSb s) \/ settled (effect PSb s)).
    { cbn [effect]. destruct O as [O|O]; [left; apply none_clean_write; [exact O|exact M]|right].
      apply settled_write; [exact O|]. intros X. cbn [s_clean] in X. congruence. }
    destruct p as [|i| | |]; cbn [go]; [destruct H|destruct H| | |].
    + destruct ok.
      * unfold inv. cbn [advance with_ph ph]. split; [exact R|]. split; [exact M|]. split; [exact OF|reflexivity].
      * apply finish_bad; [exact J|]. destruct did; assumption.
    + destruct ok.
      * unfold inv. cbn [advance with_ph ph]. split; [exact R|]. split; [exact M|]. split; [exact OW|].
        change (pend s ++ [WSb (Some (sb_now s))] = [WSb (Some (sb_now s))]). now rewrite H.
      * apply finish_bad; [exact J|]. destruct did; assumption.
    + assert (NC : none_clean (flush s)).
      { unfold flush, none_clean; cbn [dur pend]. rewrite H. cbn [applys apply d_sb clean_o sb_now s_clean].
        split; [exact M|intros w []]. }
      destruct ok.
      * destruct R as [(-> & R)|(-> & ->)]; cbn [advance next_cmd].
        -- unfold inv. destruct R as [-> | ->]; cbn [finish tell ph]; (split; [exact NC|exact M]).
        -- apply inv_start_save; [left; auto|exact NC].
      * apply finish_bad; [exact J|]. destruct did; assumption.
  - (* CConf *)
    destruct H as (P & -> & -> & NC & M).
    assert (W : none_clean (effect PSb s)) by (apply none_clean_write; [exact NC|exact M]).
    pose proof (none_clean_flush s NC) as F.
    assert (G : forall t, none_clean t -> m_clean t = false -> forall b, inv (finish JConf b t)).
    { intros t A B b. unfold inv. cbn [finish tell ph]. split; [exact A|exact B]. }
    destruct P as [-> | [-> | ->]]; cbn [go]; destruct ok; try (apply G; destruct did; assumption);
      cbn [advance next_cmd]; try (apply G; assumption);
      unfold inv; cbn [with_ph ph]; (split; [auto|]); (split; [reflexivity|]); (split; [reflexivity|]);
      split; assumption.
Qed.

Lemma inv_live s : inv s -> live (ph s) = true -> none_clean s /\ m_clean s = false.
Proof.
  unfold inv, live. intros H L. destruct (ph s) as [| |c p rest j]; try discriminate; [exact H|].
  destruct j; try discriminate. destruct c.
  - destruct H as (_ & [(_ & X)|(_ & X)] & _); discriminate.
  - destruct H as ([(_ & [X|X])|(_ & X)] & _); discriminate.
  - destruct H as ([(_ & [X|X])|(_ & X)] & _); discriminate.
  - destruct H as (_ & _ & _ & A & B). auto.
Qed.

Lemma inv_live_step s t : inv s -> live (ph s) = true -> ph t = ph s -> none_clean t -> m_clean t = false ->
  inv t.
Proof.
  intros H L E A B. unfold inv in *. rewrite E. unfold live in L.
  destruct (ph s) as [| |c p rest j]; try discriminate; [auto|].
  destruct j; try discriminate. destruct c.
  - destruct H as (_ & [(_ & X)|(_ & X)] & _); discriminate.
  - destruct H as ([(_ & [X|X])|(_ & X)] & _); discriminate.
  - destruct H as ([(_ & [X|X])|(_ & X)] & _); discriminate.
  - destruct H as (P & R & J & _). auto.
Qed.

Lemma inv_ok s : inv s -> none_clean s \/ settled s.
Proof.
  intros H. unfold inv in H. destruct (ph s) as [| |c p rest j] eqn:E; [exact H|left; tauto|].
  destruct c.
  - left; tauto.
  - destruct H as (_ & H). destruct p; try tauto.
    + destruct H as (P & C & V & M & K). left. split; [exact C|rewrite P; intros w []].
    + destruct H as (P & C & V & M & K). right. split.
      * unfold fits. destruct (d_sb (dur s)) as [x|]; [|exact I]. cbn [clean_o] in C. congruence.
      * rewrite P. intros w [<-|[]]. exists (sb_now s). split; [reflexivity|].
        intros _. cbn [sb_now s_sum]. rewrite K. f_equal. apply eqrow. intros i L. rewrite <- V by exact L.
        unfold view. rewrite P. reflexivity.
  - tauto.
  - left; tauto.
Qed.

Lemma inv_step l s s' : inv s -> careful s l -> exec l s = Some s' -> inv s'.
Proof.
  intros H C X. destruct l as [force f|f| | | |i v|i|did ok|mask]; cbn [MarkModel.exec] in X.
  - destruct (ph s) eqn:E; try discriminate. unfold inv in H. rewrite E in H.
    destruct (force || _) eqn:Q; injection X as <-.
    + unfold inv. cbn [start with_ph ph]. split; [reflexivity|]. split; [left; auto|].
      assert (NC : none_clean s).
      { destruct force; [apply no_outcome_clean; exact C|]. cbn [orb] in Q.
        destruct H as [H|H]; [exact H|]. apply settled_none; [exact H|].
        destruct (d_sb (view s)); [discriminate|reflexivity]. }
      exact NC.
    + apply inv_off; [exact H|reflexivity].
  - destruct (ph s) eqn:E; try discriminate. unfold inv in H. rewrite E in H.
    destruct (d_sb (view s)) as [x|]; [|injection X as <-; apply inv_off; [exact H|reflexivity]].
    destruct (s_clean x && _); injection X as <-.
    + apply inv_off; [exact H|reflexivity].
    + apply inv_start_mark; [right; auto|exact H].
  - destruct (ph s) eqn:E; try discriminate. injection X as <-. unfold inv in H. rewrite E in H.
    apply inv_start_save; [right; auto|exact (proj1 H)].
  - destruct (ph s) eqn:E; try discriminate. destruct (dirty _); [discriminate|]. injection X as <-.
    unfold inv in H. rewrite E in H.
    unfold inv. cbn [start with_ph ph]. split; [reflexivity|]. split; [right; auto|exact (proj1 H)].
  - destruct (ph s) eqn:E; try discriminate. injection X as <-. unfold inv in H. rewrite E in H.
    unfold inv. cbn [start with_ph ph]. split; [auto|]. split; [reflexivity|]. split; [reflexivity|exact H].
  - destruct (live (ph s) && _) eqn:L; [|discriminate]. injection X as <-.
    apply andb_prop in L as (L & _). destruct (inv_live s H L) as (A & B).
    apply (inv_live_step s); auto.
  - destruct (live (ph s) && _) eqn:L; [|discriminate]. injection X as <-.
    apply andb_prop in L as (L & _). destruct (inv_live s H L) as (A & B).
    apply (inv_live_step s); auto. apply none_clean_write; [exact A|reflexivity].
  - destruct (ph s) as [| |c p rest j] eqn:E; try discriminate. injection X as <-.
    apply inv_go; [exact E|exact H].
  - injection X as <-. apply inv_off; [|reflexivity].
    pose proof (sub_in _ _ (survive_sub mask (pend s))) as I1.
    destruct (inv_ok s H) as [O|O].
    + left. split; [|intros w []]. cbn [dur]. apply (none_clean_sub s); auto.
    + right. split; [|intros w []]. cbn [dur]. apply (settled_sub s); auto.
Qed.

Lemma reach_inv s : reach s -> inv s.
Proof. induction 1; [apply inv_blank|eapply inv_step; eauto]. Qed.

(** ** Theorems *)
(** Whenever the power is cut, a device that says it was stopped cleanly holds the run-time metadata
    that was saved with that mark (the checksum is any function, the identity included). *)
Theorem C73_clean s d x : reach s -> outcome s d -> d_sb d = Some x -> s_clean x = true ->
  s_sum x = crc (row (d_pages d)).
Proof.
  intros R (l & S1 & ->) E C. pose proof (sub_in _ _ S1) as I1.
  destruct (inv_ok s (reach_inv s R)) as [O|O].
  - pose proof (none_clean_sub s l O I1) as K. rewrite E in K. cbn [clean_o] in K. congruence.
  - destruct (settled_sub s l O I1) as (F & _). unfold fits in F. rewrite E in F. auto.
Qed.

(** A running cache never says it was stopped cleanly, whatever survives *)
Theorem C73_running s d : reach s -> live (ph s) = true -> outcome s d -> ~ says_clean d.
Proof.
  intros R L O. destruct (inv_live s (reach_inv s R) L) as (A & _). eapply none_clean_outcome; eauto.
Qed.

(** A load of a device with a cache on it, whatever happened before, is never refused because of the
    checksums *)
Theorem C73_load s f s' : reach s -> exec (Load f) s = Some s' -> cache_there (view s) ->
  exists j p r, ph s' = Busy j p r JLoad.
Proof.
  intros R X T. cbn [MarkModel.exec] in X. destruct (ph s) eqn:E; try discriminate.
  destruct (d_sb (view s)) as [x|] eqn:V; [|exfalso; apply T; exact V].
  destruct (s_clean x) eqn:C; cbn [andb] in X.
  - assert (K : s_sum x = crc (row (d_pages (view s)))).
    { apply (C73_clean s (view s) x R); auto. exists (pend s). split; [apply sub_all|reflexivity]. }
    destruct (list_eq_dec _ _ _) as [_|Q]; [|congruence]. cbn [negb] in X. injection X as <-.
    cbn [start with_ph ph]. eauto.
  - injection X as <-. cbn [start with_ph ph]. eauto.
Qed.
End Spec.

(** ** A stop that reports success *)
Section Stop.
Variable n : nat.
Variable crc : list N -> list N.
Variable dirty : list N -> bool.
Notation exec := (exec n crc dirty).
Notation row := (row n).

(** While it stops, the mark of dirty data is the one found at its beginning *)
Definition stop_inv (s : mach) : Prop :=
  (forall c p rest, ph s = Busy c p rest JStop -> m_flushed s = negb (dirty (row (m_pages s)))) /\
  (told s = Some (JStop, true) -> ph s = Off ->
     pend s = [] /\ row (d_pages (dur s)) = row (m_pages s) /\
     exists x, d_sb (dur s) = Some x /\ s_clean x = true /\
       s_flushed x = negb (dirty (row (m_pages s))) /\ s_sum x = crc (row (m_pages s))).

Lemma stop_go did ok c p rest j s : ph s = Busy c p rest j -> inv n crc s -> stop_inv s ->
  stop_inv (go n crc did ok c p rest j s).
Proof.
  intros E H (A & B). 
  assert (FIN : forall t k, told (finish k false t) <> Some (JStop, true) /\
    (forall c p r, ph (finish k false t) <> Busy c p r JStop)).
  { intros t k. destruct k; cbn [finish tell told ph]; split; try discriminate; intros; discriminate. }
  assert (BAD : forall t, stop_inv (finish j false t)).
  { intros t. destruct (FIN t j) as (F1 & F2). split; [intros; exfalso; eapply F2; eauto|].
    intros T. contradiction. }
  assert (BUSY : forall t, m_flushed t = m_flushed s -> m_pages t = m_pages s ->
            forall c' p' r', stop_inv (with_ph (Busy c' p' r' j) t)).
  { intros t F M c' p' r'. split; [|intros _ Q; discriminate Q].
    intros c2 p2 r2 Q. cbn [with_ph ph] in Q. injection Q as _ _ _ ->.
    cbn [with_ph m_flushed m_pages]. rewrite F, M. exact (A _ _ _ E). }
  assert (NXT : forall t, m_flushed t = m_flushed s -> m_pages t = m_pages s ->
            (j = JStop -> rest = [] -> stop_inv (finish JStop true t)) -> stop_inv (next_cmd rest j t)).
  { intros t F M K. destruct rest as [|c0 rest]; cbn [next_cmd].
    - destruct j; try (split; [intros ? ? ? Q; discriminate Q|intros Q; discriminate Q]).
      apply K; reflexivity.
    - destruct c0; cbn [start]; apply BUSY; assumption. }
  destruct p as [|i| | |]; cbn [go].
  - destruct ok; [|apply BAD]. cbn [advance]. apply NXT; try reflexivity.
    intros -> _. unfold inv in H. rewrite E in H. destruct c.
    + destruct H as (_ & [(_ & X)|(_ & X)] & _); discriminate X.
    + destruct H as (_ & []).
    + destruct H as (_ & _ & _ & []).
    + destruct H as (_ & _ & X & _); discriminate X.
  - destruct (n <=? i); [unfold all_pages; apply BUSY; reflexivity|].
    destruct ok; [|apply BAD]. cbn [advance]. apply BUSY; reflexivity.
  - destruct ok; [|apply BAD]. cbn [advance]. apply BUSY; reflexivity.
  - destruct ok; [|apply BAD]. cbn [advance]. apply BUSY; reflexivity.
  - destruct ok; [|apply BAD]. cbn [advance]. apply NXT; try reflexivity.
    intros -> ->. unfold inv in H. rewrite E in H. destruct c.
    + destruct H as (X & _); discriminate X.
    + destruct H as (_ & P & C & V & M & K). split; [intros ? ? ? Q; discriminate Q|].
      intros _ _. cbn [finish tell pend dur m_pages effect flush].
      split; [reflexivity|]. rewrite P. cbn [applys apply d_sb d_pages]. split.
      * apply eqrow. intros i L. rewrite <- V by exact L. unfold view. rewrite P. reflexivity.
      * exists (sb_now s). split; [reflexivity|]. split; [exact M|]. split; [exact (A _ _ _ E)|exact K].
    + destruct H as ([(_ & [X|X])|(_ & X)] & _); discriminate X.
    + destruct H as (_ & _ & X & _); discriminate X.
Qed.

Lemma stop_step l s s' : inv n crc s -> stop_inv s -> exec l s = Some s' -> stop_inv s'.
Proof.
  intros H S0 X. pose proof S0 as (A & B).
  assert (ST : forall t c p r j, ph t = Busy c p r j -> j <> JStop -> stop_inv t).
  { intros t c p r j Y J. split; [intros ? ? ? Q|intros _ Q]; rewrite Y in Q; [|discriminate Q].
    injection Q as _ _ _ ->. congruence. }
  assert (TL : forall j t, stop_inv (tell j false Off t)).
  { intros j t. split; [intros ? ? ? Q; discriminate Q|intros Q; cbn [tell told] in Q; congruence]. }
  destruct l as [force f|f| | | |i v|i|did ok|mask]; cbn [MarkModel.exec] in X.
  - destruct (ph s) eqn:E; try discriminate. destruct (force || _); injection X as <-;
      [eapply ST; [reflexivity|discriminate]|apply TL].
  - destruct (ph s) eqn:E; try discriminate.
    destruct (d_sb (view s)) as [x|]; [|injection X as <-; apply TL].
    destruct (s_clean x && _); injection X as <-; [apply TL|eapply ST; [reflexivity|discriminate]].
  - destruct (ph s) eqn:E; try discriminate. injection X as <-. cbn [start].
    split; [|intros _ Q; discriminate Q]. intros; reflexivity.
  - destruct (ph s) eqn:E; try discriminate. destruct (dirty _); [discriminate|]. injection X as <-.
    eapply ST; [reflexivity|discriminate].
  - destruct (ph s) eqn:E; try discriminate. injection X as <-. eapply ST; [reflexivity|discriminate].
  - destruct (live (ph s) && _) eqn:L; [|discriminate]. injection X as <-. apply andb_prop in L as (L & _).
    split.
    + intros c p r Q. cbn [with_mem ph] in Q. rewrite Q in L. discriminate L.
    + intros _ Q. cbn [with_mem ph] in Q. rewrite Q in L. discriminate L.
  - destruct (live (ph s) && _) eqn:L; [|discriminate]. injection X as <-. apply andb_prop in L as (L & _).
    split.
    + intros c p r Q. cbn [write ph] in Q. rewrite Q in L. discriminate L.
    + intros _ Q. cbn [write ph] in Q. rewrite Q in L. discriminate L.
  - destruct (ph s) as [| |c p rest j] eqn:E; try discriminate. injection X as <-.
    apply stop_go; assumption.
  - injection X as <-. split; [intros ? ? ? Q; discriminate Q|intros Q; discriminate Q].
Qed.

Lemma reach_stop s : reach n crc dirty s -> stop_inv s.
Proof.
  induction 1 as [f|l s s' R IH C X].
  - split; [intros ? ? ? Q; discriminate Q|intros Q; discriminate Q].
  - eapply stop_step; eauto. exact (reach_inv n crc dirty s R).
Qed.

(** After a stop that reported success, whatever happens to the power, the device says: a cache, stopped
    cleanly, dirty data exactly if it had some, and holds the metadata of the stopped cache; and loading
    it takes that metadata. *)
Theorem C73_stop s d : reach n crc dirty s -> told s = Some (JStop, true) -> ph s = Off -> outcome s d ->
  row (d_pages d) = row (m_pages s) /\
  exists x, d_sb d = Some x /\ s_clean x = true /\ s_flushed x = negb (dirty (row (m_pages s))).
Proof.
  intros R T E (l & S1 & ->). destruct (proj2 (reach_stop s R) T E) as (P & W & x & X1 & X2 & X3 & _).
  rewrite P in S1. inversion S1; subst. cbn [applys]. split; [exact W|]. exists x. auto.
Qed.

Theorem C73_stop_load s mask f s1 s2 : reach n crc dirty s -> told s = Some (JStop, true) -> ph s = Off ->
  exec (Cut mask) s = Some s1 -> exec (Load f) s1 = Some s2 ->
  (exists c p r, ph s2 = Busy c p r JLoad) /\ row (m_pages s2) = row (m_pages s) /\
  m_flushed s2 = negb (dirty (row (m_pages s))).
Proof.
  intros R T E X1 X2. destruct (proj2 (reach_stop s R) T E) as (P & W & x & Y1 & Y2 & Y3 & Y4).
  cbn [MarkModel.exec] in X1. injection X1 as <-. rewrite P in X2.
  assert (SV : survive mask [] = []) by (destruct mask; reflexivity). rewrite SV in X2.
  cbn [MarkModel.exec ph view pend dur applys] in X2. rewrite Y1, Y2 in X2. cbn [andb] in X2.
  rewrite W, Y4 in X2.
  destruct (list_eq_dec _ _ _) as [_|Q]; [|congruence]. cbn [negb] in X2. injection X2 as <-.
  cbn [start with_ph ph m_pages m_flushed with_clean with_flushed with_sum with_mem].
  split; [eauto|]. split; [exact W|exact Y3].
Qed.

(** ** No cache is lost without force or detach *)
Definition zeroing (s : mach) : Prop := exists p r, ph s = Busy CZero p r JDetach.
Definition att_inv (s : mach) : Prop := forall p r, ph s = Busy CZero p r JAttach -> d_sb (view s) = None.

Lemma start_ph c r j s : forall p r' j', ph (start c r j s) = Busy CZero p r' j' -> c = CZero /\ j' = j.
Proof. intros p r' j' Q. destruct c; cbn [start with_ph ph] in Q; try discriminate Q. injection Q as _ _ ->. auto. Qed.

Lemma att_step l s s' : inv n crc s -> att_inv s -> unforced l -> exec l s = Some s' -> att_inv s'.
Proof.
  intros H A U X p r Q. destruct l as [force f|f| | | |i v|i|did ok|mask]; cbn [MarkModel.exec] in X.
  - destruct force; [destruct U|]. destruct (ph s) eqn:E; try discriminate. cbn [orb] in X.
    destruct (d_sb (view s)) eqn:V; injection X as <-; [discriminate Q|exact V].
  - destruct (ph s) eqn:E; try discriminate.
    destruct (d_sb (view s)) as [x|]; [|injection X as <-; discriminate Q].
    destruct (s_clean x && _); injection X as <-; [discriminate Q|].
    discriminate Q.
  - destruct (ph s) eqn:E; try discriminate. injection X as <-. discriminate Q.
  - destruct (ph s) eqn:E; try discriminate. destruct (dirty _); [discriminate|]. injection X as <-.
    discriminate Q.
  - destruct (ph s) eqn:E; try discriminate. injection X as <-. discriminate Q.
  - destruct (live (ph s) && _) eqn:L; [|discriminate]. injection X as <-. apply andb_prop in L as (L & _).
    cbn [with_mem ph] in Q. rewrite Q in L. discriminate L.
  - destruct (live (ph s) && _) eqn:L; [|discriminate]. injection X as <-. apply andb_prop in L as (L & _).
    cbn [write ph] in Q. rewrite Q in L. discriminate L.
  - destruct (ph s) as [| |c p0 rest j] eqn:E; try discriminate. injection X as <-.
    assert (FB : forall b t, ph (finish j b t) <> Busy CZero p r JAttach)
      by (intros b t; destruct j; try destruct b; cbn [finish tell ph]; discriminate).
    assert (NX : forall t, ph (next_cmd rest j t) = Busy CZero p r JAttach -> False).
    { intros t Z. destruct rest as [|c0 rest']; cbn [next_cmd] in Z; [exact (FB _ _ Z)|].
      apply start_ph in Z as (-> & _). unfold inv in H. rewrite E in H.
      destruct c.
      - destruct H as (_ & [(Z & _)|(Z & _)] & _); discriminate Z.
      - destruct H as ([(Z & _)|(Z & _)] & _); discriminate Z.
      - destruct H as ([(Z & _)|(Z & _)] & _); discriminate Z.
      - destruct H as (_ & Z & _); discriminate Z. }
    unfold inv in H. rewrite E in H.
    destruct p0 as [|i| | |]; cbn [go] in Q.
    + destruct ok; [exfalso; exact (NX _ Q)|exfalso; exact (FB _ _ Q)].
    + assert (CS : c <> CZero) by (destruct c; try discriminate; destruct H as (Z & _); discriminate Z).
      destruct (n <=? i); [|destruct ok; [|exfalso; exact (FB _ _ Q)]];
        cbn [all_pages advance with_ph ph] in Q; congruence.
    + assert (CS : c <> CZero) by (destruct c; try discriminate; destruct H as (Z & _); discriminate Z).
      destruct ok; [|exfalso; exact (FB _ _ Q)]. cbn [advance with_ph ph] in Q. congruence.
    + assert (CS : c <> CZero) by (destruct c; try discriminate; destruct H as (Z & _); discriminate Z).
      destruct ok; [|exfalso; exact (FB _ _ Q)]. cbn [advance with_ph ph] in Q. congruence.
    + destruct ok; [exfalso; exact (NX _ Q)|exfalso; exact (FB _ _ Q)].
  - injection X as <-. discriminate Q.
Qed.

Lemma reach_u_reach s : reach_u n crc dirty s -> reach n crc dirty s.
Proof.
  induction 1 as [f|l s s' R IH U X]; [constructor|]. eapply reach_step; eauto.
  destruct l as [[]| | | | | | | |]; try exact I. destruct U.
Qed.

Lemma reach_att s : reach_u n crc dirty s -> att_inv s.
Proof.
  induction 1 as [f|l s s' R IH U X]; [intros p r Q; discriminate Q|].
  eapply att_step; eauto. apply (reach_inv n crc dirty), reach_u_reach, R.
Qed.

(** Without a forced attach and while no detach is at work, a cache on the device stays there (every
    attach over it, failed load, stop, save); power cuts are the subject of the other theorems. *)
Theorem C73_kept l s s' : reach_u n crc dirty s -> unforced l -> exec l s = Some s' ->
  ~ zeroing s -> (forall mask, l <> Cut mask) -> cache_there (view s) -> cache_there (view s').
Proof.
  intros R U X Z NC T. pose proof (reach_att s R) as A.
  pose proof (reach_inv n crc dirty s (reach_u_reach s R)) as H.
  assert (ST : forall t, view t = view s -> cache_there (view t)) by (intros t ->; exact T).
  destruct l as [force f|f| | | |i v|i|did ok|mask]; cbn [MarkModel.exec] in X.
  - destruct (ph s) eqn:E; try discriminate. destruct (force || _); injection X as <-; [apply ST; reflexivity|exact T].
  - destruct (ph s) eqn:E; try discriminate. destruct (d_sb (view s)) as [x|] eqn:V; [|contradiction (T V)].
    destruct (s_clean x && _); injection X as <-; [exact T|apply ST; reflexivity].
  - destruct (ph s) eqn:E; try discriminate. injection X as <-. apply ST; reflexivity.
  - destruct (ph s) eqn:E; try discriminate. destruct (dirty _); [discriminate|]. injection X as <-. apply ST; reflexivity.
  - destruct (ph s) eqn:E; try discriminate. injection X as <-. apply ST; reflexivity.
  - destruct (live _ && _); [|discriminate]. injection X as <-. exact T.
  - destruct (live _ && _); [|discriminate]. injection X as <-. rewrite view_write. exact T.
  - destruct (ph s) as [| |c p rest j] eqn:E; try discriminate. injection X as <-.
    assert (PZ : p <> PZero).
    { intros ->. unfold inv in H. rewrite E in H. destruct c.
      - destruct H as (_ & [(_ & ->)|(_ & ->)] & _); [exact (T (A _ _ E))|].
        apply Z. eexists _, _. exact E.
      - exact (proj2 H).
      - destruct H as (_ & _ & _ & []).
      - destruct H as ([X|[X|X]] & _); discriminate X. }
    assert (EF : cache_there (view (effect p s))).
    { destruct p; cbn [effect]; try congruence; try exact T; rewrite view_write; [exact T|discriminate]. }
    assert (FI : forall b t, cache_there (view t) -> cache_there (view (finish j b t)))
      by (intros b t Y; destruct j; exact Y).
    assert (NX : forall t, cache_there (view t) -> cache_there (view (next_cmd rest j t))).
    { intros t Y. destruct rest as [|c0 r0]; cbn [next_cmd]; [apply FI, Y|destruct c0; exact Y]. }
    assert (BD : cache_there (view (if did then effect p s else s))) by (destruct did; assumption).
    destruct p; cbn [go]; try congruence.
    + destruct (n <=? i); [exact T|]. destruct ok; [exact EF|apply FI, BD].
    + destruct ok; [exact EF|apply FI, BD].
    + destruct ok; [exact EF|apply FI, BD].
    + destruct ok; [apply NX, EF|apply FI, BD].
  - exfalso. exact (NC mask eq_refl).
Qed.

(** and an attach over it is refused and changes nothing *)
Theorem C73_attach s f s' : exec (Attach false f) s = Some s' -> cache_there (view s) ->
  told s' = Some (JAttach, false) /\ dur s' = dur s /\ pend s' = pend s /\ ph s' = Off.
Proof.
  intros X T. cbn [MarkModel.exec orb] in X. destruct (ph s); try discriminate.
  destruct (d_sb (view s)) eqn:V; [|contradiction (T V)]. injection X as <-. cbn [tell told dur pend ph]. auto.
Qed.
End Stop.

(** ** Probing *)
Section Probing.
Import SbLoadModel.
Local Open Scope Z_scope.
(** What load accepts, probe reports, with the same values *)
Theorem C73_probe L c : validate_superblock L c = 0 ->
  let b := dec L c in
  exists st, probe b = (0, Some st) /\
    (p_clean st = true <-> clean_shutdown b = 1%N) /\ (p_dirty st = true <-> dirty_flushed b = 0%N) /\
    p_rest st = Some (name b, cache_mode b, line_size b).
Proof.
  unfold validate_superblock, probe. cbv zeta. set (b := dec L c).
  destruct (magic_number b =? MAGIC)%N; cbn [negb]; [|intros X; discriminate X].
  destruct (VERSION =? metadata_version b)%N; cbn [negb]; [|intros X; discriminate X].
  destruct (crc_sb L c =? checksum b SbConfig)%N; cbn [negb]; [|intros X; discriminate X].
  destruct (CLEAN <? clean_shutdown b)%N eqn:C; [intros X; discriminate X|].
  destruct (DIRTY_FLUSHED <? dirty_flushed b)%N eqn:D; [intros X; discriminate X|].
  intros _. eexists. split; [reflexivity|]. cbn [p_clean p_dirty p_rest].
  apply N.ltb_ge in C, D. change CLEAN with 1%N in C. change DIRTY_FLUSHED with 1%N in D.
  split; [|split; [|reflexivity]].
  - destruct (N.eqb_spec (clean_shutdown b) 0) as [Z|Z]; cbn [negb]; split; intros; try congruence; lia.
  - destruct (N.eqb_spec (dirty_flushed b) 0) as [Z|Z]; split; intros; congruence.
Qed.

Example C73_probe_nonvacuous : exists L c, validate_superblock L c = 0.
Proof.
  exists {| dec := fun _ => {| clean_shutdown := 1; dirty_flushed := 0; magic_number := MAGIC;
       metadata_version := VERSION; flapping_idx := 0; cache_mode := 1; name := [99; 0]%N;
       valid_parts_no := 1; line_size := 4096; core_count := 0; core_bit := fun _ => false;
       cleaner_disabled := false; cleaning_policy := 0; promotion_policy := 0; checksum := fun _ => 7%N |};
     core_valid := fun _ _ => false; crc_sb := fun _ => 7%N; crc := fun _ => 0%N |}, [].
  reflexivity.
Qed.

(** The three users of the superblock agree on whether there is a cache: attach goes on, load and probe
    say "no metadata", exactly without the magic number *)
Theorem C73_presence L c : let b := dec L c in
  (validate_superblock L c = - ERR_NO_METADATA <-> magic_number b <> MAGIC) /\
  (fst (probe b) = - ERR_NO_METADATA <-> magic_number b <> MAGIC).
Proof.
  cbv zeta. unfold validate_superblock, probe. cbv zeta. set (b := dec L c).
  destruct (N.eqb_spec (magic_number b) MAGIC) as [M|M]; cbn [negb].
  - split; (split; [|congruence]); intros X; exfalso; revert X.
    + repeat match goal with |- context [if ?q then _ else _] => destruct q end; intros X; discriminate X.
    + repeat match goal with |- context [if ?q then _ else _] => destruct q end; intros X; discriminate X.
  - split; (split; [auto|reflexivity]).
Qed.

(** Probe reports a superblock that load refuses: it looks at no checksum *)
Theorem C73_probe_refuted : exists L c st,
  probe (dec L c) = (0, Some st) /\ p_clean st = true /\ p_dirty st = false /\
  validate_superblock L c = - ERR_CRC.
Proof.
  exists {| dec := fun _ => {| clean_shutdown := 1; dirty_flushed := 1; magic_number := MAGIC;
       metadata_version := VERSION; flapping_idx := 0; cache_mode := 0; name := [99; 0]%N;
       valid_parts_no := 1; line_size := 4096; core_count := 0; core_bit := fun _ => false;
       cleaner_disabled := false; cleaning_policy := 0; promotion_policy := 0; checksum := fun _ => 7%N |};
     core_valid := fun _ _ => false; crc_sb := fun _ => 8%N; crc := fun _ => 0%N |}, [], 
    {| p_clean := true; p_dirty := false; p_rest := Some ([99; 0]%N, 0, 4096%N) |}.
  split; [reflexivity|]. split; [reflexivity|]. split; reflexivity.
Qed.
End Probing.

(** ** Concrete runs: two pages, the checksum is the identity, dirty when page 0 is not 0 *)
Definition cid (l : list N) : list N := l.
Definition dty (l : list N) : bool := match l with x :: _ => negb (x =? 0)%N | [] => false end.
Definition X2 := execs 2 cid dty.
Definition g : label := Go true true.
Definition z : nat -> N := fun _ => 0%N.
Definition attach_ok := [Attach false z; g; g; g; g; g; g; g; g; g; g].
Definition stop_ok := [Stop; g; g; g; g; g; g].
Definition load_ok := [Load z; g; g; g; g; g; g; g; g; g; g; g; g].

(** The checks below are decided on finite projections of the state *)
Definition seen (d : dev) : option (bool * bool * list N) * list N :=
  (match d_sb d with Some x => Some (s_clean x, s_flushed x, s_sum x) | None => None end, row 2 (d_pages d)).
Definition obs (o : option mach) : option (phase * option (job * bool) * (option (bool * bool * list N) * list N) * N * list N) :=
  match o with Some s => Some (ph s, told s, seen (dur s), N.of_nat (length (pend s)), row 2 (m_pages s)) | None => None end.

Fixpoint forced_none (ls : list label) : bool :=
  match ls with [] => true | Attach true _ :: _ => false | _ :: ls => forced_none ls end.
Lemma execs_reach_u n crc dirty ls s s' : reach_u n crc dirty s -> forced_none ls = true ->
  execs n crc dirty ls s = Some s' -> reach_u n crc dirty s'.
Proof.
  revert s; induction ls as [|l ls IH]; intros s R F X; cbn [execs] in X; [injection X as <-; exact R|].
  destruct (exec n crc dirty l s) as [t|] eqn:E; [|discriminate].
  apply (IH t); [|destruct l as [[]| | | | | | | |]; try exact F; discriminate F|exact X].
  eapply reach_ustep; eauto. destruct l as [[]| | | | | | | |]; try exact I. discriminate F.
Qed.

(** attach, run with dirty data, stop, power cut, load, run: the metadata is back *)
Example C73_stop_nonvacuous :
  obs (X2 (attach_ok ++ [Change 0 5; Change 1 6; Put 1] ++ stop_ok) (blank z))
    = Some (Off, Some (JStop, true), (Some (true, false, [5; 6]), [5; 6]), 0, [5; 6])%N /\
  obs (X2 (attach_ok ++ [Change 0 5; Change 1 6; Put 1] ++ stop_ok ++ [Cut []] ++ load_ok) (blank z))
    = Some (Run, Some (JLoad, true), (Some (false, false, [5; 6]), [5; 6]), 0, [5; 6])%N.
Proof. split; vm_compute; reflexivity. Qed.

(** power cut in the middle of the stop: the pages are new, the mark says not clean, load goes on *)
Example C73_clean_nonvacuous :
  obs (X2 (attach_ok ++ [Change 0 5; Stop; g; g; Cut [true]]) (blank z))
    = Some (Off, None, (Some (false, true, [0; 0]), [5; 0]), 0, [5; 0])%N /\
  obs (X2 (attach_ok ++ [Change 0 5] ++ stop_ok ++ [Attach false z]) (blank z))
    = Some (Off, Some (JAttach, false), (Some (true, false, [5; 0]), [5; 0]), 0, [5; 0])%N.
Proof. split; vm_compute; reflexivity. Qed.

(** a save of the configuration while metadata is written, and a failed one *)
Example C73_running_nonvacuous :
  obs (X2 (attach_ok ++ [Change 0 5; Conf; Put 0; g; Put 0; g; Go true false]) (blank z))
    = Some (Run, Some (JConf, false), (Some (false, true, [0; 0]), [5; 0]), 0, [5; 0])%N.
Proof. vm_compute; reflexivity. Qed.

(** ** What does not hold *)
(** A forced attach writes the new metadata while the superblock of the cache that was there may still
    be the durable one: after a power cut the device says "stopped cleanly" over foreign pages. *)
Theorem C73_force_refuted : exists ls s d,
  execs 2 cid dty ls (blank z) = Some s /\ outcome s d /\
  exists x, d_sb d = Some x /\ s_clean x = true /\ s_sum x <> row 2 (d_pages d).
Proof.
  set (ls := attach_ok ++ [Change 0 5] ++ stop_ok ++ [Attach true z; g; g]).
  assert (Q : match execs 2 cid dty ls (blank z) with
              | Some s => seen (applys (survive [false; true] (pend s)) (dur s)) = (Some (true, false, [5; 0]), [0; 0])%N
              | None => False end) by (vm_compute; reflexivity).
  destruct (execs 2 cid dty ls (blank z)) as [s|] eqn:E; [|destruct Q].
  assert (O : outcome s (applys (survive [false; true] (pend s)) (dur s))).
  { exists (survive [false; true] (pend s)). split; [apply survive_sub|reflexivity]. }
  revert Q O. generalize (applys (survive [false; true] (pend s)) (dur s)). intros d Q O.
  exists ls, s, d. split; [exact E|]. split; [exact O|].
  unfold seen in Q. destruct (d_sb d) as [x|]; [|discriminate Q]. injection Q as Q1 Q2 Q3 Q4 Q5.
  exists x. split; [reflexivity|]. split; [exact Q1|]. rewrite Q3. unfold row. cbn [map seq].
  rewrite Q4. discriminate.
Qed.

(** A detach that reports success may leave the cache on the device: when the write of zeros failed,
    and also when it succeeded and the power is cut, for it is not flushed. *)
Theorem C73_detach_refuted :
  (exists ls s, execs 2 cid dty ls (blank z) = Some s /\ reach_u 2 cid dty s /\
     told s = Some (JDetach, true) /\ ph s = Off /\ cache_there (view s)) /\
  (exists ls s d, execs 2 cid dty ls (blank z) = Some s /\ reach_u 2 cid dty s /\
     told s = Some (JDetach, true) /\ ph s = Off /\ ~ cache_there (view s) /\ outcome s d /\ cache_there d).
Proof.
  split.
  - set (ls := attach_ok ++ [Detach; Go false false]).
    assert (Q : match execs 2 cid dty ls (blank z) with
                | Some s => told s = Some (JDetach, true) /\ ph s = Off /\ seen (view s) = (Some (false, true, [0; 0]), [0; 0])%N
                | None => False end) by (vm_compute; repeat split).
    destruct (execs 2 cid dty ls (blank z)) as [s|] eqn:E; [|destruct Q]. destruct Q as (Q1 & Q2 & Q3).
    exists ls, s. split; [exact E|]. split; [eapply execs_reach_u; [apply reach_u0| |exact E]; reflexivity|].
    split; [exact Q1|]. split; [exact Q2|]. unfold cache_there. intros K. unfold seen in Q3. rewrite K in Q3.
    discriminate Q3.
  - set (ls := attach_ok ++ [Detach; g]).
    assert (Q : match execs 2 cid dty ls (blank z) with
                | Some s => told s = Some (JDetach, true) /\ ph s = Off /\ d_sb (view s) = None /\
                            seen (dur s) = (Some (false, true, [0; 0]), [0; 0])%N
                | None => False end) by (vm_compute; repeat split).
    destruct (execs 2 cid dty ls (blank z)) as [s|] eqn:E; [|destruct Q]. destruct Q as (Q1 & Q2 & Q3 & Q4).
    exists ls, s, (dur s). split; [exact E|]. split; [eapply execs_reach_u; [apply reach_u0| |exact E]; reflexivity|].
    split; [exact Q1|]. split; [exact Q2|]. split; [intros K; exact (K Q3)|]. split.
    + exists []. split; [apply sub_nil_l|reflexivity].
    + intros K. unfold seen in Q4. rewrite K in Q4. discriminate Q4.
Qed.

(** The mark of dirty data is only written by a stop: a cache with dirty data that loses power leaves a
    device that says there is none. *)
Theorem C73_dirty_refuted : exists ls s x,
  execs 2 cid dty ls (blank z) = Some s /\ reach_u 2 cid dty s /\ ph s = Off /\ pend s = [] /\
  d_sb (dur s) = Some x /\ s_flushed x = true /\ dty (row 2 (d_pages (dur s))) = true.
Proof.
  set (ls := attach_ok ++ [Change 0 5; Put 0; Conf; g; g; g; Cut []]).
  assert (Q : match execs 2 cid dty ls (blank z) with
              | Some s => ph s = Off /\ pend s = [] /\ seen (dur s) = (Some (false, true, [0; 0]), [5; 0])%N
              | None => False end) by (vm_compute; repeat split).
  destruct (execs 2 cid dty ls (blank z)) as [s|] eqn:E; [|destruct Q]. destruct Q as (Q1 & Q2 & Q3).
  unfold seen in Q3. destruct (d_sb (dur s)) as [x|] eqn:D; [|discriminate Q3]. injection Q3 as A1 A2 A3 A4 A5.
  exists ls, s, x. split; [exact E|]. split; [eapply execs_reach_u; [apply reach_u0| |exact E]; reflexivity|].
  split; [exact Q1|]. split; [exact Q2|]. split; [exact D|]. split; [exact A2|].
  unfold row. cbn [map seq]. unfold dty. rewrite A4. reflexivity.
Qed.

Print Assumptions C73_clean.
Print Assumptions C73_running.
Print Assumptions C73_load.
Print Assumptions C73_stop.
Print Assumptions C73_stop_load.
Print Assumptions C73_kept.
Print Assumptions C73_attach.
Print Assumptions C73_probe.
Print Assumptions C73_presence.
Print Assumptions C73_probe_refuted.
Print Assumptions C73_force_refuted.
Print Assumptions C73_detach_refuted.
Print Assumptions C73_dirty_refuted.

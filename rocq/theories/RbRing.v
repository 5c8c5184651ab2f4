(** The whole structure of utils_rbtree.c: a red-black tree whose nodes are heads of rings.
    [Str t gs]: the memory [t] holds the rings [gs] (head, further members), in this order. *)
From Coq Require Import List Bool Arith Lia Permutation Sorted.
From Verif Require Import RbModel RbTree RbRot RbIns RbDel.
Import ListNotations.
Open Scope nat_scope.

(** ** Rings *)
Fixpoint path (h : nat -> node) (a : nat) (ms : list nat) (b : nat) : Prop :=
  match ms with
  | [] => nxt (h a) = b /\ prv (h b) = a
  | m :: ms => nxt (h a) = m /\ prv (h m) = a /\ path h m ms b
  end.
Definition ring (h : nat -> node) (a : nat) (ms : list nat) : Prop := path h a ms a.

Lemma path_ext h h' ms : forall a b, (forall y, In y (a :: ms) -> nxt (h' y) = nxt (h y)) -> (forall y, In y (ms ++ [b]) -> prv (h' y) = prv (h y)) ->
  path h a ms b -> path h' a ms b.
Proof.
  induction ms as [|m ms IH]; cbn; intros a b N P H.
  - rewrite N, P; auto.
  - destruct H as [H1 [H2 H3]]. rewrite N, P by auto. split; [exact H1|]. split; [exact H2|].
    apply IH; auto.
Qed.
Lemma path_app h m1 x m2 : forall a b, path h a (m1 ++ x :: m2) b <-> path h a m1 x /\ path h x m2 b.
Proof.
  induction m1 as [|m m1 IH]; cbn; intros a b; [tauto|]. rewrite IH. tauto.
Qed.
Lemma list_cases (A : Type) (l : list A) : l = [] \/ exists l' p, l = l' ++ [p].
Proof. destruct l as [|a l] using rev_ind; [auto|right; eauto]. Qed.

Ltac mds := repeat first [rewrite mod1_eq | rewrite mod1_ne by congruence].

Lemma same_prv t x v y : same (hp t) (hp (mod1 x (set_prv v) t)) y.
Proof. unfold same. destruct (Nat.eq_dec y x) as [-> |]; mds; auto. Qed.
Lemma same_nxt t x v y : same (hp t) (hp (mod1 x (set_nxt v) t)) y.
Proof. unfold same. destruct (Nat.eq_dec y x) as [-> |]; mds; auto. Qed.
Lemma same_trans h1 h2 h3 y : same h1 h2 y -> same h2 h3 y -> same h1 h3 y.
Proof. unfold same. intros [-> [-> [-> ->]]]. auto. Qed.

Lemma add_tail_spec t i ms x : ring (hp t) i ms -> ~ In x (i :: ms) -> NoDup (i :: ms) ->
  let t' := list_add_tail x i t in
  ring (hp t') i (ms ++ [x]) /\ root t' = root t /\ (forall y, same (hp t) (hp t') y) /\
  (forall y, y <> x -> ~ In y (i :: ms) -> hp t' y = hp t y).
Proof.
  intros R NX Nd. cbn zeta. unfold ring in *. unfold list_add_tail.
  assert (xi : x <> i) by (intros ->; apply NX; cbn; auto).
  assert (IM : ~ In i ms) by now inversion Nd.
  remember (prv (hp t i)) as p eqn:Ep. symmetry in Ep.
  set (t1 := mod1 x (set_prv p) t). set (t2 := mod1 x (set_nxt i) t1).
  assert (T2i : hp t2 i = hp t i) by (unfold t2, t1; mds; reflexivity). rewrite T2i.
  rewrite Ep. set (t3 := mod1 p (set_nxt x) t2).
  assert (Sm : forall y, same (hp t) (hp (mod1 i (set_prv x) t3)) y).
  { intro y. apply (same_trans _ (hp t3)); [|apply same_prv]. apply (same_trans _ (hp t2)); [|apply same_nxt].
    apply (same_trans _ (hp t1)); [apply same_prv|apply same_nxt]. }
  destruct (list_cases _ ms) as [-> |[ms' [q ->]]].
  - cbn [path] in R. destruct R as [R1 R2]. rewrite Ep in R2. subst p.
    split; [|split; [reflexivity|split; [exact Sm|]]].
    + cbn [app path]. unfold t3. mds. cbn [nxt prv set_nxt set_prv]. unfold t2, t1. mds. auto.
    + intros y H1 H2. assert (y <> i) by (intros ->; apply H2; cbn; auto). unfold t3. mds. unfold t2, t1. mds. reflexivity.
  - apply path_app in R. destruct R as [R1 [R2 R3]]. rewrite Ep in R3. subst p.
    assert (qi : q <> i) by (intros ->; apply IM; apply in_or_app; cbn; auto).
    assert (qx : q <> x) by (intros ->; apply NX; cbn; right; apply in_or_app; cbn; auto).
    assert (qm : ~ In q ms') by (inversion Nd as [|? ? ? Nd']; apply NoDup_remove in Nd'; rewrite app_nil_r in Nd'; tauto).
    split; [|split; [reflexivity|split; [exact Sm|]]].
    + rewrite <- app_assoc. cbn [app]. apply path_app. split.
      * apply (path_ext (hp t)); auto; intros y Hy.
        -- assert (yq : y <> q) by (cbn in Hy; destruct Hy as [<- |Hy]; congruence).
           assert (yx : y <> x) by (intros ->; apply NX; cbn in Hy |- *; destruct Hy; auto; right; apply in_or_app; auto).
           destruct (Nat.eq_dec y i) as [-> |]; unfold t3, t2, t1; mds; reflexivity.
        -- assert (yi : y <> i) by (intros ->; apply IM; exact Hy).
           assert (yx : y <> x) by (intros ->; apply NX; right; exact Hy).
           destruct (Nat.eq_dec y q) as [-> |]; unfold t3, t2, t1; mds; reflexivity.
      * cbn [path]. unfold t3. mds. cbn [nxt prv set_nxt set_prv]. unfold t2, t1. mds. auto.
    + intros y H1 H2. cbn in H2. rewrite in_app_iff in H2. cbn in H2.
      assert (y <> i) by (intros ->; apply H2; auto). assert (y <> q) by (intros ->; apply H2; auto).
      unfold t3, t2, t1. mds. reflexivity.
Qed.

Lemma del_spec t h m1 x m2 : ring (hp t) h (m1 ++ x :: m2) -> NoDup (h :: m1 ++ x :: m2) ->
  let t' := list_del x t in
  ring (hp t') h (m1 ++ m2) /\ root t' = root t /\ (forall y, same (hp t) (hp t') y) /\
  (forall y, ~ In y (h :: m1 ++ x :: m2) -> hp t' y = hp t y).
Proof.
  intros R Nd. cbn zeta. unfold ring in *. unfold list_del. apply path_app in R. destruct R as [R1 R2].
  assert (Nd' := Nd). change (h :: m1 ++ x :: m2) with ((h :: m1) ++ x :: m2) in Nd'. apply NoDup_remove in Nd'. destruct Nd' as [Nd1 NX]. cbn in NX. rewrite in_app_iff in NX.
  assert (hx : h <> x) by (intros ->; apply NX; auto).
  set (b := nxt (hp t x)). set (a := prv (hp t x)).
  assert (A : (m1 = [] /\ a = h /\ nxt (hp t h) = x) \/ exists m', m1 = m' ++ [a] /\ path (hp t) h m' a /\ nxt (hp t a) = x).
  { destruct (list_cases _ m1) as [-> |[m' [p ->]]]; [left; cbn in R1; tauto|right]. apply path_app in R1. cbn [path] in R1. destruct R1 as [K1 [K2 K3]].
    exists m'. unfold a. rewrite K3. auto. }
  assert (B : (m2 = [] /\ b = h /\ prv (hp t h) = x) \/ exists m', m2 = b :: m' /\ path (hp t) b m' h /\ prv (hp t b) = x).
  { destruct m2 as [|p m']; [left; cbn in R2; tauto|right]. cbn [path] in R2. destruct R2 as [K1 [K2 K3]]. exists m'. unfold b. rewrite K1. auto. }
  assert (bx : b <> x).
  { destruct B as [[_ [-> _]]|[m' [-> _]]]; auto. intro K. apply NX. cbn. auto. }
  assert (ax : a <> x).
  { destruct A as [[_ [-> _]]|[m' [-> _]]]; auto. intro K. apply NX. right. left. apply in_or_app. cbn. auto. }
  assert (E1 : hp (mod1 b (set_prv a) t) x = hp t x) by now rewrite mod1_ne by congruence. rewrite E1. fold a b.
  set (t1 := mod1 b (set_prv a) t). set (t2 := mod1 a (set_nxt b) t1).
  assert (N2 : forall y, nxt (hp t2 y) = if y =? a then b else nxt (hp t y)).
  { intro y. unfold t2, t1. destruct (Nat.eqb_spec y a) as [-> |H]; mds; [reflexivity|]. destruct (Nat.eq_dec y b) as [-> |]; mds; reflexivity. }
  assert (P2 : forall y, prv (hp t2 y) = if y =? b then a else prv (hp t y)).
  { intro y. unfold t2, t1. destruct (Nat.eqb_spec y b) as [-> |H]; (destruct (Nat.eq_dec y a) as [Ha|Ha] || destruct (Nat.eq_dec b a) as [Ha|Ha]); try (rewrite Ha in *; mds; cbn [prv set_nxt set_prv]; mds; reflexivity); mds; reflexivity. }
  split; [|split; [reflexivity|split]].
  - clearbody t2 t1. clear t1 E1.
    assert (X : forall u m v, path (hp t) u m v -> ~ In a (u :: m) -> ~ In b (m ++ [v]) -> path (hp t2) u m v).
    { intros u m v H H1 H2. apply (path_ext (hp t)); auto; intros y Hy.
      - rewrite N2. destruct (Nat.eqb_spec y a); congruence.
      - rewrite P2. destruct (Nat.eqb_spec y b); congruence. }
    assert (L : nxt (hp t2 a) = b /\ prv (hp t2 b) = a) by (rewrite N2, P2, !Nat.eqb_refl; auto).
    clear R1 R2. clearbody a b. destruct A as [[-> [-> A1]]|[ma [-> [A2 A3]]]]; destruct B as [[-> [-> B1]]|[mb [-> [B2 B3]]]]; cbn [app] in *.
    + exact L.
    + cbn [path]. repeat split; try apply L. inversion Nd1 as [|? ? K1 K2]. inversion K2 as [|? ? K3 K4]. apply X; auto.
      * rewrite in_app_iff. cbn. intros [K|[K|[]]]; [contradiction|]. subst. apply K1. cbn. auto.
    + rewrite app_nil_r. apply path_app. cbn [path]. split; [|exact L]. rewrite app_nil_r in Nd1. inversion Nd1 as [|? ? K1 K2]. apply NoDup_remove in K2. rewrite app_nil_r in K2.
      rewrite in_app_iff in K1. cbn in K1. apply X; auto.
      * cbn. intros [K|K]; [subst; tauto|tauto].
      * rewrite in_app_iff. cbn. tauto.
    + rewrite <- app_assoc. cbn [app]. apply path_app. rewrite <- app_assoc in Nd1. cbn [app] in Nd1. inversion Nd1 as [|? ? K1 K2]. apply NoDup_remove in K2. destruct K2 as [K2 K3].
      rewrite in_app_iff in K1, K3. cbn in K1, K3. apply NoDup_remove in K2. destruct K2 as [K2 K4]. rewrite in_app_iff in K4. split.
      * apply X; auto.
        -- cbn. intros [K|K]; [subst; tauto|tauto].
        -- rewrite in_app_iff. cbn. intros [K|[K|[]]]; [tauto|subst; tauto].
      * cbn [path]. repeat split; try apply L. apply X; auto.
        -- rewrite in_app_iff. cbn. intros [K|[K|[]]]; [tauto|subst; tauto].
  - intro y. apply (same_trans _ (hp t1)); [apply same_prv|apply same_nxt].
  - intros y Hy. assert (y <> b).
    { intros ->. apply Hy. destruct B as [[_ [-> _]]|[m' [-> _]]]; cbn; auto. right. apply in_or_app. cbn. auto. }
    assert (y <> a).
    { intros ->. apply Hy. destruct A as [[_ [-> _]]|[m' [-> _]]]; cbn; auto. right. rewrite !in_app_iff. cbn. auto. }
    unfold t2, t1. mds. reflexivity.
Qed.

Lemma ring_ext h h' a ms : (forall y, In y (a :: ms) -> nxt (h' y) = nxt (h y) /\ prv (h' y) = prv (h y)) -> ring h a ms -> ring h' a ms.
Proof.
  intro H. apply path_ext; intros y Hy; apply H; auto. rewrite in_app_iff in Hy. cbn in *. tauto.
Qed.
Lemma ring_rot h x m ms : ring h x (m :: ms) -> ring h m (ms ++ [x]).
Proof. unfold ring. cbn [path]. intros [H1 [H2 H3]]. apply path_app. cbn. auto. Qed.
Lemma ring_one h x ms : ring h x ms -> (nxt (h x) =? x) = match ms with [] => true | m :: _ => m =? x end.
Proof. unfold ring. destruct ms as [|m ms]; cbn; intros [H _]; rewrite H; [apply Nat.eqb_refl|reflexivity]. Qed.

(** ** The structure *)
Definition grp := (nat * list nat)%type.
Definition heads (gs : list grp) : list nat := map fst gs.
Definition nodes (gs : list grp) : list nat := flat_map (fun g => fst g :: snd g) gs.
Definition out (n : node) : Prop := lft n = None /\ rgt n = None /\ par n = None.
Definition Str (t : rb) (gs : list grp) : Prop :=
  exists f, Rep t f /\ RB f /\ ino f = heads gs /\ NoDup (nodes gs) /\
  forall h ms, In (h, ms) gs -> ring (hp t) h ms /\ forall m, In m ms -> out (hp t m).

Lemma nodes_app a b : nodes (a ++ b) = nodes a ++ nodes b.
Proof. apply flat_map_app. Qed.
Lemma nodes_cons h ms b : nodes ((h, ms) :: b) = h :: ms ++ nodes b.
Proof. reflexivity. Qed.
Lemma heads_app a b : heads (a ++ b) = heads a ++ heads b.
Proof. apply map_app. Qed.
Lemma heads_nodes gs y : In y (heads gs) -> In y (nodes gs).
Proof. unfold heads, nodes. rewrite in_map_iff, in_flat_map. intros [g [<- H]]. exists g. cbn. auto. Qed.
Lemma grp_nodes h ms gs y : In (h, ms) gs -> In y (h :: ms) -> In y (nodes gs).
Proof. intros H K. unfold nodes. rewrite in_flat_map. exists (h, ms). auto. Qed.
Lemma grp_split gs y : In y (nodes gs) -> exists g1 h ms g2, gs = g1 ++ (h, ms) :: g2 /\ In y (h :: ms).
Proof.
  unfold nodes. rewrite in_flat_map. intros [[h ms] [H K]]. apply in_split in H. destruct H as [g1 [g2 ->]]. exists g1, h, ms, g2. auto.
Qed.
Lemma heads_split gs l1 l2 : heads gs = l1 ++ l2 -> exists g1 g2, gs = g1 ++ g2 /\ heads g1 = l1 /\ heads g2 = l2.
Proof.
  revert l1. induction gs as [|g gs IH]; cbn; intros l1 H.
  - symmetry in H. apply app_eq_nil in H. destruct H as [-> ->]. exists [], []. auto.
  - destruct l1 as [|a l1]; cbn in H.
    + exists [], (g :: gs). auto.
    + injection H as <- H. destruct (IH _ H) as [g1 [g2 [-> [<- <-]]]]. exists (g :: g1), g2. auto.
Qed.

(** ** Insertion *)
(** The results of comparing a key with the elements of a strictly sorted list. *)
Definition mono (cm : nat -> comparison) (l : list nat) : Prop :=
  StronglySorted (fun y z => (cm y <> Gt -> cm z = Lt) /\ (cm z <> Lt -> cm y = Gt)) l.
Lemma ss_app A (R : A -> A -> Prop) l1 : forall l2, StronglySorted R (l1 ++ l2) <->
  StronglySorted R l1 /\ StronglySorted R l2 /\ forall a b, In a l1 -> In b l2 -> R a b.
Proof.
  induction l1 as [|a l1 IH]; cbn; intro l2.
  - split; [intro H; split; [constructor|split; [exact H|intros ? ? []]]|tauto].
  - split.
    + intro H. apply StronglySorted_inv in H; destruct H as [H1 H2]. apply IH in H1. destruct H1 as [H3 [H4 H5]]. rewrite Forall_forall in H2. split; [|split; auto].
      * constructor; auto. apply Forall_forall. intros y Hy. apply H2. apply in_or_app. auto.
      * intros u v [<- |Hu] Hv; [apply H2, in_or_app; auto|auto].
    + intros [H [H1 H2]]. apply StronglySorted_inv in H; destruct H as [H3 H4]. rewrite Forall_forall in H4. constructor.
      * apply IH. auto.
      * apply Forall_forall. intros y Hy. apply in_app_iff in Hy. destruct Hy; auto.
Qed.
Lemma mono_app cm l1 l2 : mono cm (l1 ++ l2) <-> mono cm l1 /\ mono cm l2 /\
  forall a b, In a l1 -> In b l2 -> (cm a <> Gt -> cm b = Lt) /\ (cm b <> Lt -> cm a = Gt).
Proof. apply ss_app. Qed.
Lemma mono_cons cm x l2 : mono cm (x :: l2) <-> mono cm l2 /\
  forall b, In b l2 -> (cm x <> Gt -> cm b = Lt) /\ (cm b <> Lt -> cm x = Gt).
Proof.
  split.
  - intro H. apply StronglySorted_inv in H; destruct H as [H1 H2]. rewrite Forall_forall in H2. auto.
  - intros [H1 H2]. constructor; auto. now apply Forall_forall.
Qed.

Lemma guided_mono cm d : guided cm d -> mono cm (cl d ++ cr d) -> (forall y, In y (cl d) -> cm y = Gt) /\ (forall y, In y (cr d) -> cm y = Lt).
Proof.
  induction d as [|k d IH x r|k l x d IH]; cbn [guided cl cr].
  - intros _ _. split; intros ? [].
  - intros [G1 G2] M.
    assert (M1 : mono cm (cl d ++ cr d)).
    { apply mono_app in M. destruct M as [M1 [M2 M3]]. change (x :: ino r ++ cr d) with ((x :: ino r) ++ cr d) in M2, M3. apply mono_app in M2. apply mono_app. repeat split; try tauto; intros; eapply M3; eauto; apply in_or_app; auto. }
    destruct (IH G2 M1) as [I1 I2]. split; auto. apply mono_app in M. destruct M as [_ [M _]]. apply mono_cons in M. destruct M as [_ M].
    cbn. intros y [<- |Hy]; auto. apply (M y Hy). congruence.
  - intros [G1 G2] M.
    assert (M1 : mono cm (cl d ++ cr d)).
    { rewrite <- !app_assoc in M. apply mono_app in M. destruct M as [M1 [M2 M3]]. apply mono_app in M2. destruct M2 as [_ [M2 _]].
      cbn [app] in M2. apply mono_cons in M2. apply mono_app. repeat split; try tauto; intros; eapply M3; eauto; apply in_or_app; cbn; auto. }
    destruct (IH G2 M1) as [I1 I2]. split; auto.
    apply mono_app in M. destruct M as [M _]. apply mono_app in M. destruct M as [_ [M K]]. intros y Hy. apply in_app_iff in Hy. destruct Hy as [Hy|Hy]; [auto|].
    apply in_app_iff in Hy. cbn in Hy. destruct Hy as [Hy|[<- |[]]]; auto. apply mono_app in M. destruct M as [_ [_ M]]. apply (M y x); cbn; auto; congruence.
Qed.

Definition added (cm : nat -> comparison) (x : nat) (gs gs' : list grp) : Prop :=
  (exists g1 g2, gs = g1 ++ g2 /\ gs' = g1 ++ (x, []) :: g2 /\
     (mono cm (heads gs) -> (forall y, In y (heads g1) -> cm y = Gt) /\ (forall y, In y (heads g2) -> cm y = Lt))) \/
  (exists g1 h ms g2, gs = g1 ++ (h, ms) :: g2 /\ cm h = Eq /\ gs' = g1 ++ (h, ms ++ [x]) :: g2).

Lemma nd_grp gs h ms : NoDup (nodes gs) -> In (h, ms) gs -> NoDup (h :: ms).
Proof.
  intros Nd H. apply in_split in H. destruct H as [g1 [g2 ->]]. rewrite nodes_app, nodes_cons in Nd.
  apply nd_app in Nd. destruct Nd as [_ [Nd _]]. change (h :: ms ++ nodes g2) with ((h :: ms) ++ nodes g2) in Nd. apply nd_app in Nd. tauto.
Qed.
(** Two rings have no common node. *)
Lemma grp_dj g1 h ms g2 h' ms' y : NoDup (nodes (g1 ++ (h, ms) :: g2)) -> In (h', ms') (g1 ++ g2) -> In y (h :: ms) -> In y (h' :: ms') -> False.
Proof.
  intros Nd H H1 H2. rewrite nodes_app, nodes_cons in Nd. apply nd_app in Nd. destruct Nd as [_ [Nd1 Nd2]].
  change (h :: ms ++ nodes g2) with ((h :: ms) ++ nodes g2) in Nd1, Nd2. apply nd_app in Nd1. destruct Nd1 as [_ [_ Nd1]].
  apply in_app_iff in H. destruct H as [H|H]; apply (grp_nodes _ _ _ _ H) in H2.
  - apply (Nd2 y); auto. apply in_or_app. auto.
  - apply (Nd1 y); auto.
Qed.
Lemma mem_heads gs h ms m : NoDup (nodes gs) -> In (h, ms) gs -> In m ms -> ~ In m (heads gs).
Proof.
  intros Nd H Hm K. assert (N1 := nd_grp _ _ _ Nd H). apply in_split in H. destruct H as [g1 [g2 ->]].
  rewrite heads_app in K. cbn [heads map fst] in K. apply in_app_iff in K.
  assert (G : In m (heads g1) \/ m = h \/ In m (heads g2)) by (cbn in K; intuition). clear K.
  destruct G as [G|[-> |G]].
  - unfold heads in G. apply in_map_iff in G. destruct G as [[h' ms'] [E G]]. cbn in E. subst h'.
    apply (grp_dj g1 h ms g2 m ms' m Nd); cbn; auto. apply in_or_app. auto.
  - inversion N1. contradiction.
  - unfold heads in G. apply in_map_iff in G. destruct G as [[h' ms'] [E G]]. cbn in E. subst h'.
    apply (grp_dj g1 h ms g2 m ms' m Nd); cbn; auto. apply in_or_app. auto.
Qed.
Lemma in_mid (A : Type) (g : A) g1 g2 u : In u (g1 ++ g :: g2) <-> u = g \/ In u (g1 ++ g2).
Proof. rewrite !in_app_iff. cbn. intuition. Qed.
Lemma nodes_mid g1 h ms g2 : Permutation (nodes (g1 ++ (h, ms) :: g2)) (h :: ms ++ nodes (g1 ++ g2)).
Proof.
  rewrite !nodes_app, nodes_cons. rewrite (Permutation_app_comm (nodes g1)). cbn. apply perm_skip. rewrite <- app_assoc. apply Permutation_app_head, Permutation_app_comm.
Qed.

Lemma ins_spec fuel cm t x gs : Str t gs -> ~ In x (nodes gs) -> length gs + 4 <= fuel ->
  exists t' gs', insert fuel cm t x = Some t' /\ Str t' gs' /\ added cm x gs gs'.
Proof.
  intros [f [R [B [If [Nd Rg]]]]] NX Fu.
  assert (Nh : ~ In x (ino f)) by (rewrite If; intro K; apply NX, heads_nodes, K).
  destruct (insert_spec fuel cm t x f R B Nh) as [[t' [d [f' [H1 [H2 [H3 [H4 [H5 [H6 [H7 [H8 [H9 H10]]]]]]]]]]]]|[i [H1 [H2 H3]]]].
  - rewrite If. unfold heads. now rewrite map_length.
  - assert (Hh : heads gs = cl d ++ cr d) by (rewrite <- If, H2, ino_plug; reflexivity).
    destruct (heads_split _ _ _ Hh) as [g1 [g2 [-> [G1 G2]]]].
    exists t', (g1 ++ (x, []) :: g2). split; [exact H1|]. split.
    + exists f'. split; [exact H4|]. split; [exact H5|]. split; [rewrite H6, heads_app; cbn; now rewrite <- G1, <- G2|]. split.
      * apply (Permutation_NoDup (Permutation_sym (nodes_mid g1 x [] g2))). cbn. constructor; auto.
      * intros h ms Hg. apply in_mid in Hg. destruct Hg as [Hg|Hg].
        -- injection Hg as -> ->. split; [|intros ? []]. split; assumption.
        -- destruct (Rg h ms Hg) as [K1 K2]. assert (Y : forall y, In y (h :: ms) -> y <> x) by (intros y Hy ->; apply NX; apply (grp_nodes h ms); auto).
           split.
           ++ revert K1. apply ring_ext. intros y Hy. apply H8. auto.
           ++ intros m Hm. rewrite H7; auto; [|apply Y; cbn; auto]. rewrite If. now apply (mem_heads _ h ms).
    + left. exists g1, g2. split; [reflexivity|]. split; [reflexivity|]. intro M. rewrite Hh in M. rewrite G1, G2. now apply guided_mono.
  - rewrite If in H1. unfold heads in H1. apply in_map_iff in H1. destruct H1 as [[h ms] [E Hg]]. cbn in E. subst h.
    assert (Nd1 := nd_grp _ _ _ Nd Hg). destruct (Rg _ _ Hg) as [K1 K2].
    assert (Y : forall y, In y (i :: ms) -> y <> x) by (intros y Hy ->; apply NX; apply (grp_nodes i ms); auto).
    destruct (add_tail_spec (prep x t) i ms x) as [A1 [A2 [A3 A4]]]; auto.
    { revert K1. apply ring_ext. intros y Hy. rewrite prep_o; auto. }
    { intro K. now apply (Y x). }
    apply in_split in Hg. destruct Hg as [g1 [g2 ->]].
    exists (list_add_tail x i (prep x t)), (g1 ++ (i, ms ++ [x]) :: g2). split; [exact H3|]. split.
    + exists f. split; [|split; [exact B|split; [|split]]].
      * apply (Rep_out (prep x t)); auto. now apply Rep_prep.
      * rewrite If, !heads_app. reflexivity.
      * apply (Permutation_NoDup (Permutation_sym (nodes_mid g1 i (ms ++ [x]) g2))).
        apply (Permutation_NoDup (l := x :: nodes (g1 ++ (i, ms) :: g2))); [|constructor; auto].
        rewrite (nodes_mid g1 i ms g2). rewrite <- app_assoc. cbn [app]. rewrite perm_swap. apply perm_skip. apply Permutation_middle.
      * intros h ms' Hg'. apply in_mid in Hg'. destruct Hg' as [Hg'|Hg'].
        -- injection Hg' as -> ->. split; [exact A1|]. intros m Hm. destruct (A3 m) as [_ [E1 [E2 E3]]]. unfold out. rewrite E1, E2, E3.
           apply in_app_iff in Hm. destruct Hm as [Hm|[<- |[]]].
           ++ rewrite prep_o; [now apply K2|]. apply Y. cbn. auto.
           ++ rewrite prep_x. auto.
        -- assert (Hg2 : In (h, ms') (g1 ++ (i, ms) :: g2)) by (apply in_mid; auto).
           destruct (Rg h ms' Hg2) as [L1 L2].
           assert (Z : forall y, In y (h :: ms') -> hp (list_add_tail x i (prep x t)) y = hp t y).
           { intros y Hy. assert (yx : y <> x) by (intros ->; apply NX; apply (grp_nodes h ms'); auto).
             rewrite A4, prep_o; auto. intro K. apply (grp_dj g1 i ms g2 h ms' y); auto. }
           split; [revert L1; apply ring_ext; intros y Hy; rewrite Z; auto|]. intros m Hm. rewrite Z; [auto|cbn; auto].
    + right. exists g1, i, ms, g2. auto.
Qed.

(** ** Removal *)
Definition taken (x : nat) (gs gs' : list grp) : Prop :=
  exists g1 h ms g2, gs = g1 ++ (h, ms) :: g2 /\
   ((x = h /\ ms = [] /\ gs' = g1 ++ g2) \/
    (exists m ms', x = h /\ ms = m :: ms' /\ gs' = g1 ++ (m, ms') :: g2) \/
    (exists m1 m2, ms = m1 ++ x :: m2 /\ gs' = g1 ++ (h, m1 ++ m2) :: g2)).

Lemma rem_spec fuel t x gs : Str t gs -> In x (nodes gs) -> length gs + 2 <= fuel ->
  exists t' gs', remove fuel t x = Some t' /\ Str t' gs' /\ taken x gs gs'.
Proof.
  intros [f [R [B [If [Nd Rg]]]]] HX Fu. destruct (grp_split _ _ HX) as [g1 [h [ms [g2 [-> Hx]]]]].
  assert (Hg : In (h, ms) (g1 ++ (h, ms) :: g2)) by (apply in_mid; auto). destruct (Rg _ _ Hg) as [K1 K2].
  assert (Nd1 := nd_grp _ _ _ Nd Hg). unfold remove, list_empty.
  assert (Hh : In h (ino f)) by (rewrite If, heads_app; apply in_mid; auto).
  destruct Hx as [<- |Hx].
  - (* the head *)
    rewrite (ring_one _ _ _ K1). destruct ms as [|m ms].
    + cbn [negb]. destruct (split_at _ _ Hh) as [c [k [l [r Ef]]]]. subst f.
      assert (Fu2 : length (ino (plug c (T k l h r))) + 2 <= fuel) by (rewrite If; unfold heads; now rewrite map_length).
      destruct (remove_loop_spec fuel t c k l h r R B Fu2) as [t' [f' [H1 [H2 [H3 [H4 [H5 H6]]]]]]].
      exists t', (g1 ++ g2). split; [exact H1|]. split.
      * exists f'. split; [exact H2|]. split; [exact H3|].
        assert (I2 : ino f' = heads (g1 ++ g2)).
        { rewrite H4, heads_app. rewrite ino_plug, heads_app in If. cbn [ino heads map fst] in If. rewrite <- app_assoc in If. cbn [app] in If.
          rewrite app_assoc in If. rewrite app_assoc.
          assert (N3 : NoDup ((cl c ++ ino l) ++ h :: ino r ++ cr c)).
          { destruct R as [_ [_ N]]. rewrite ino_plug in N. cbn [ino] in N. rewrite <- app_assoc in N. cbn [app] in N. now rewrite app_assoc in N. }
          assert (Hs : forall (a a' b b' : list nat), NoDup (a ++ h :: b) -> a ++ h :: b = a' ++ h :: b' -> a ++ b = a' ++ b').
          { clear. induction a as [|u a IH]; intros a' b b' N E; destruct a' as [|u' a']; cbn in *.
            - now injection E.
            - injection E as <- E. inversion N as [|? ? N1 N2]. subst. exfalso. apply N1. apply in_elt.
            - injection E as <- E. inversion N as [|? ? N1 N2]. exfalso. apply N1. apply in_elt.
            - injection E as <- E. inversion N. f_equal. now apply IH. }
          exact (Hs _ _ _ _ N3 If). }
        split; [exact I2|].
        apply (Permutation_NoDup (nodes_mid g1 h [] g2)) in Nd. cbn [app] in Nd. apply nd_cons in Nd. destruct Nd as [Nd0 Nd2]. split; [exact Nd2|].
        intros h' ms' Hg'. assert (Hg2 : In (h', ms') (g1 ++ (h, []) :: g2)) by (apply in_mid; auto). destruct (Rg _ _ Hg2) as [L1 L2].
        split; [revert L1; apply ring_ext; auto|]. intros m Hm. rewrite H5; [auto|]. rewrite If.
        apply (mem_heads _ h' ms'); auto. apply (Permutation_NoDup (Permutation_sym (nodes_mid g1 h [] g2))). cbn. now constructor.
      * exists g1, h, [], g2. auto.
    + assert (mh : m <> h) by (intros ->; inversion Nd1 as [|? ? Q]; apply Q; cbn; auto).
      rewrite (proj2 (Nat.eqb_neq _ _) mh). cbn [negb].
      assert (T0 : peq (par (hp t h)) None && negb (peq (Some h) (root t)) = false).
      { destruct (peq_spec (par (hp t h)) None) as [K|K]; [|reflexivity]. rewrite (Rep_none _ _ _ R Hh K), peq_refl. reflexivity. }
      rewrite T0. assert (E1 : nxt (hp t h) = m) by apply K1. rewrite E1.
      assert (Om : out (hp t m)) by (apply K2; cbn; auto). destruct Om as [O1 [O2 O3]].
      assert (Nm : ~ In m (ino f)) by (rewrite If; apply (mem_heads _ h (m :: ms)); cbn; auto).
      destruct (swap_out t f h m R Hh Nm O1 O2 O3) as [S1 [S2 [S3 [S4 [S5 S6]]]]]. set (t1 := swap t h m) in *.
      destruct (del_spec t1 m ms h []) as [D1 [D2 [D3 D4]]].
      { apply ring_rot. revert K1. apply ring_ext. auto. }
      { apply (Permutation_NoDup (l := h :: m :: ms)); auto. change (m :: ms ++ [h]) with ((m :: ms) ++ [h]). apply Permutation_cons_append. }
      rewrite app_nil_r in D1.
      exists (list_del h t1), (g1 ++ (m, ms) :: g2). split; [reflexivity|]. split.
      * exists (ren h m f). split; [|split; [|split; [|split]]].
        -- apply (Rep_out t1); auto.
        -- now apply RB_ren.
        -- rewrite ino_ren, If, !heads_app. cbn [heads map fst]. rewrite map_app. cbn [map]. rewrite tp_a.
           assert (Id : forall g, (forall u, In u g -> In u (g1 ++ g2)) -> map (tp h m) (map fst g) = map fst g).
           { intros g Sg. transitivity (map (fun y => y) (map fst g)); [|apply map_id]. apply map_ext_in. intros y Hy. apply in_map_iff in Hy. destruct Hy as [[y' msy] [E Hy]]. cbn in E. subst y'.
             assert (Z : forall z, In z (h :: m :: ms) -> y <> z).
             { intros z Hz <-. apply (grp_dj g1 h (m :: ms) g2 y msy y Nd (Sg _ Hy)); cbn; auto. }
             apply tp_o; apply Z; cbn; auto. }
           rewrite !Id; auto; intros u Hu; apply in_or_app; auto.
        -- apply (Permutation_NoDup (nodes_mid g1 h (m :: ms) g2)) in Nd. cbn [app] in Nd. apply nd_cons in Nd.
           apply (Permutation_NoDup (Permutation_sym (nodes_mid g1 m ms g2))). cbn. tauto.
        -- intros h' ms' Hg'. apply in_mid in Hg'. destruct Hg' as [Hg'|Hg'].
           ++ injection Hg' as -> ->. split; [exact D1|]. intros y Hy. destruct (D3 y) as [_ [E2 [E3 E4]]]. unfold out. rewrite E2, E3, E4.
              rewrite S2; [apply K2; cbn; auto| |].
              ** rewrite If. apply (mem_heads _ h (m :: ms)); cbn; auto.
              ** intros ->. inversion Nd1 as [|? ? Q1 Q2]. inversion Q2. contradiction.
           ++ assert (Hg2 : In (h', ms') (g1 ++ (h, m :: ms) :: g2)) by (apply in_mid; auto). destruct (Rg _ _ Hg2) as [L1 L2].
              assert (Z : forall y, In y (h' :: ms') -> y <> h /\ ~ In y (m :: ms)).
              { intros y Hy. split; [intros -> |intro Q]; [apply (grp_dj g1 h (m :: ms) g2 h' ms' h)|apply (grp_dj g1 h (m :: ms) g2 h' ms' y)]; cbn; auto. }
              assert (Z2 : forall y, In y (h' :: ms') -> hp (list_del h t1) y = hp t1 y).
              { intros y Hy. apply D4. destruct (Z y Hy) as [Z1 Z3]. cbn in Z3 |- *. rewrite in_app_iff. cbn. intuition. }
              split; [revert L1; apply ring_ext; intros y Hy; rewrite Z2 by auto; apply S3|].
              intros y Hy. rewrite Z2 by (cbn; auto). rewrite S2; [auto| |].
              ** rewrite If. now apply (mem_heads _ h' ms').
              ** intros ->. destruct (Z m) as [_ Z3]; [cbn; auto|]. apply Z3. cbn. auto.
      * exists g1, h, (m :: ms), g2. split; [reflexivity|]. right. left. exists m, ms. auto.
  - (* another member *)
    apply in_split in Hx. destruct Hx as [m1 [m2 ->]].
    assert (Ox : out (hp t x)) by (apply K2, in_elt). destruct Ox as [O1 [O2 O3]].
    assert (Nx : ~ In x (ino f)) by (rewrite If; apply (mem_heads _ h (m1 ++ x :: m2)); auto; apply in_elt).
    assert (Ne : (nxt (hp t x) =? x) = false).
    { apply Nat.eqb_neq. unfold ring in K1. apply path_app in K1. destruct K1 as [_ K1]. change (h :: m1 ++ x :: m2) with ((h :: m1) ++ x :: m2) in Nd1.
      apply NoDup_remove in Nd1. destruct Nd1 as [_ Nd1]. cbn in Nd1. rewrite in_app_iff in Nd1.
      destruct m2 as [|y m2]; cbn in K1; destruct K1 as [-> _]; intros ->; apply Nd1; cbn; auto. }
    rewrite Ne. cbn [negb]. rewrite O3. change (peq None None) with true. cbn [andb].
    assert (T0 : peq (Some x) (root t) = false).
    { destruct (peq_spec (Some x) (root t)) as [K|K]; auto. symmetry in K. destruct (Rep_root _ _ _ R K). contradiction. }
    rewrite T0. cbn [negb]. destruct (del_spec t h m1 x m2 K1 Nd1) as [D1 [D2 [D3 D4]]].
    exists (list_del x t), (g1 ++ (h, m1 ++ m2) :: g2). split; [reflexivity|]. split.
    + exists f. split; [now apply (Rep_out t)|]. split; [exact B|]. split; [rewrite If, !heads_app; reflexivity|]. split.
      * apply (Permutation_NoDup (nodes_mid g1 h _ g2)) in Nd. rewrite <- app_assoc in Nd. cbn [app] in Nd.
        apply (NoDup_remove_1 (h :: m1)) in Nd. apply (Permutation_NoDup (Permutation_sym (nodes_mid g1 h _ g2))). now rewrite <- app_assoc.
      * intros h' ms' Hg'. apply in_mid in Hg'. destruct Hg' as [Hg'|Hg'].
        -- injection Hg' as -> ->. split; [exact D1|]. intros y Hy. destruct (D3 y) as [_ [E2 [E3 E4]]]. unfold out. rewrite E2, E3, E4.
           apply K2. rewrite in_app_iff in *. cbn. tauto.
        -- assert (Hg2 : In (h', ms') (g1 ++ (h, m1 ++ x :: m2) :: g2)) by (apply in_mid; auto). destruct (Rg _ _ Hg2) as [L1 L2].
           assert (Z : forall y, In y (h' :: ms') -> hp (list_del x t) y = hp t y).
           { intros y Hy. apply D4. intro Q. apply (grp_dj g1 h (m1 ++ x :: m2) g2 h' ms' y); auto. }
           split; [revert L1; apply ring_ext; intros y Hy; rewrite Z; auto|]. intros y Hy. rewrite Z; [auto|cbn; auto].
    + exists g1, h, (m1 ++ x :: m2), g2. split; [reflexivity|]. right. right. exists m1, m2. auto.
Qed.

(** ** Searching *)
Lemma search_sub cm t : forall f fuel c, Rep t (plug c f) -> length (ino f) < fuel ->
  exists o, search fuel cm t (rt f) = Some o /\
  match o with
  | Some i => In i (ino f) /\ cm i = Eq
  | None => mono cm (ino f) -> forall y, In y (ino f) -> cm y <> Eq
  end.
Proof.
  induction f as [|k l IHl x r IHr]; intros fuel c R Fu; (destruct fuel as [|fuel]; [lia|]); cbn [rt search].
  - exists None. split; auto.
  - cbn [ino] in Fu. rewrite app_length in Fu. cbn in Fu. destruct (at_f _ _ _ _ _ _ R) as [_ [X2 [X3 _]]]. rewrite X2, X3.
    destruct (cm x) eqn:Ex.
    + exists (Some x). split; auto. split; auto. apply in_elt.
    + destruct (IHl fuel (CL k c x r) R) as [o [H1 H2]]; [lia|]. exists o. split; auto. destruct o as [i|].
      * destruct H2. split; auto. cbn. apply in_or_app. auto.
      * cbn [ino]. intros M y Hy. apply mono_app in M. destruct M as [M1 [M2 _]]. apply mono_cons in M2. destruct M2 as [_ M2].
        apply in_app_iff in Hy. destruct Hy as [Hy|[<- |Hy]]; auto; [congruence|]. rewrite (proj1 (M2 y Hy)); congruence.
    + destruct (IHr fuel (CR k l x c) R) as [o [H1 H2]]; [lia|]. exists o. split; auto. destruct o as [i|].
      * destruct H2. split; auto. cbn. apply in_or_app. cbn. auto.
      * cbn [ino]. intros M y Hy. apply mono_app in M. destruct M as [M1 [M2 M3]]. apply mono_cons in M2. destruct M2 as [M2 _].
        apply in_app_iff in Hy. destruct Hy as [Hy|[<- |Hy]]; auto; [|congruence]. rewrite (proj2 (M3 y x Hy (or_introl eq_refl))); congruence.
Qed.
Lemma search_spec fuel cm t gs : Str t gs -> length gs < fuel ->
  exists o, search fuel cm t (root t) = Some o /\
  match o with
  | Some i => In i (heads gs) /\ cm i = Eq
  | None => mono cm (heads gs) -> forall y, In y (heads gs) -> cm y <> Eq
  end.
Proof.
  intros [f [R [_ [If _]]]] Fu. rewrite <- If. destruct (search_sub cm t f fuel Top R) as [o H].
  - rewrite If. unfold heads. now rewrite map_length.
  - exists o. now rewrite (proj1 R).
Qed.

(** A path taken by ocf_rb_tree_can_update. *)
Fixpoint wguided (cm : nat -> comparison) (d : ctx) : Prop :=
  match d with
  | Top => True
  | CL _ d x _ => cm x = Lt /\ wguided cm d
  | CR _ _ x d => cm x <> Lt /\ wguided cm d
  end.
Lemma wguided_cat cm d1 d2 : wguided cm d1 -> wguided cm d2 -> wguided cm (cat d1 d2).
Proof. intros H1. induction d2; cbn; tauto. Qed.
Lemma reach_sub cm t x : forall f fuel c, Rep t (plug c f) -> length (ino f) < fuel ->
  exists b, reach fuel cm t x (rt f) = Some b /\
  (b = true -> exists d k l r, f = plug d (T k l x r) /\ wguided cm d).
Proof.
  induction f as [|k l IHl y r IHr]; intros fuel c R Fu; (destruct fuel as [|fuel]; [lia|]); cbn [rt reach].
  - exists false. split; auto. discriminate.
  - cbn [ino] in Fu. rewrite app_length in Fu. cbn in Fu. destruct (at_f _ _ _ _ _ _ R) as [_ [X2 [X3 _]]]. rewrite X2, X3.
    destruct (Nat.eqb_spec y x) as [-> |N]; [exists true; split; auto; intros _; exists Top, k, l, r; cbn; auto|].
    destruct (IHl fuel (CL k c y r) R) as [bl [L1 L2]]; [lia|]. destruct (IHr fuel (CR k l y c) R) as [br [R1 R2]]; [lia|].
    destruct (cm y) eqn:Ey.
    + exists br. split; auto. intro K. destruct (R2 K) as [d [k' [l' [r' [-> W]]]]]. exists (cat (CR k l y Top) d), k', l', r'. rewrite plug_cat. split; auto. apply wguided_cat; cbn; auto. split; [congruence|auto].
    + exists bl. split; auto. intro K. destruct (L2 K) as [d [k' [l' [r' [-> W]]]]]. exists (cat (CL k Top y r) d), k', l', r'. rewrite plug_cat. split; auto. apply wguided_cat; cbn; auto.
    + exists br. split; auto. intro K. destruct (R2 K) as [d [k' [l' [r' [-> W]]]]]. exists (cat (CR k l y Top) d), k', l', r'. rewrite plug_cat. split; auto. apply wguided_cat; cbn; auto. split; [congruence|auto].
Qed.
Lemma wguided_cr cm d : wguided cm d -> mono cm (cr d) -> forall y, In y (cr d) -> cm y = Lt.
Proof.
  induction d as [|k d IH x r|k l x d IH]; cbn [wguided cr].
  - intros _ _ ? [].
  - intros [G1 G2] M. apply mono_cons in M. destruct M as [_ M]. cbn. intros y [<- |Hy]; auto. apply (M y Hy). congruence.
  - intros [_ G2]. auto.
Qed.

Lemma can_update_spec fuel cm t x gs : Str t gs -> In x (nodes gs) -> length gs < fuel ->
  exists b, can_update fuel cm t x = Some b /\
  (b = true -> exists g1 g2, gs = g1 ++ (x, []) :: g2 /\
     (mono cm (heads gs) -> cm x <> Lt -> (forall y, In y (heads g1) -> cm y = Gt) /\ (forall y, In y (heads g2) -> cm y = Lt))).
Proof.
  intros [f [R [_ [If [Nd Rg]]]]] HX Fu. unfold can_update, list_empty. destruct (grp_split _ _ HX) as [g1 [h [ms [g2 [Eg Hx]]]]].
  destruct (Nat.eqb_spec (nxt (hp t x)) x) as [Ne|Ne]; cbn [negb]; [|exists false; split; [reflexivity|discriminate]].
  assert (Hg : In (h, ms) gs) by (rewrite Eg; apply in_mid; auto). destruct (Rg _ _ Hg) as [K1 _]. assert (Nd1 := nd_grp _ _ _ Nd Hg).
  assert (Hm : h = x /\ ms = []).
  { destruct Hx as [<- |Hx].
    - split; auto. destruct ms as [|m ms]; auto. destruct K1 as [K1 _]. rewrite Ne in K1. subst m. inversion Nd1 as [|? ? Q]. exfalso. apply Q. cbn. auto.
    - exfalso. apply in_split in Hx. destruct Hx as [m1 [m2 ->]]. unfold ring in K1. apply path_app in K1. destruct K1 as [_ K1]. change (h :: m1 ++ x :: m2) with ((h :: m1) ++ x :: m2) in Nd1.
      apply NoDup_remove in Nd1. destruct Nd1 as [_ Nd1]. cbn in Nd1. rewrite in_app_iff in Nd1.
      destruct m2 as [|y m2]; cbn in K1; destruct K1 as [K1 _]; rewrite Ne in K1; apply Nd1; cbn; auto. }
  destruct Hm as [-> ->].
  assert (Lf : length (ino f) < fuel) by (rewrite If; unfold heads; now rewrite map_length).
  destruct (reach_sub cm t x f fuel Top R Lf) as [b [H1 H2]]. rewrite (proj1 R), H1. cbn [bindo].
  destruct b; cbn [negb]; [|exists false; split; [reflexivity|discriminate]]. destruct (H2 eq_refl) as [d [k [l [r [Ef W]]]]]. clear H1 H2. subst f.
  destruct (at_f _ _ _ _ _ _ R) as [_ [X2 [X3 _]]].
  assert (Ih : heads g1 = cl d ++ ino l /\ heads g2 = ino r ++ cr d).
  { rewrite ino_plug, Eg, heads_app in If. cbn [ino heads map fst] in If. fold (heads g1) (heads g2) in If. rewrite <- app_assoc in If. cbn [app] in If. rewrite app_assoc in If.
    assert (N3 : NoDup ((cl d ++ ino l) ++ x :: ino r ++ cr d)).
    { destruct R as [_ [_ N]]. rewrite ino_plug in N. cbn [ino] in N. rewrite <- app_assoc in N. cbn [app] in N. now rewrite app_assoc in N. }
    assert (Hs : forall (a a' b b' : list nat), NoDup (a ++ x :: b) -> a ++ x :: b = a' ++ x :: b' -> a' = a /\ b' = b).
    { clear. induction a as [|u a IH]; intros a' b b' N E; destruct a' as [|u' a']; cbn in *.
      - now injection E.
      - injection E as <- E. inversion N as [|? ? N1 N2]. subst. exfalso. apply N1. apply in_elt.
      - injection E as <- E. inversion N as [|? ? N1 N2]. exfalso. apply N1. apply in_elt.
      - injection E as <- E. inversion N as [|? ? _ N2]. destruct (IH _ _ _ N2 E). now subst. }
    exact (Hs _ _ _ _ N3 If). }
  destruct Ih as [I1 I2].
  assert (P : mono cm (heads gs) -> mono cm (heads g2) /\ (cm x <> Lt -> forall y, In y (heads g1) -> cm y = Gt) /\ (cm x <> Gt -> forall y, In y (heads g2) -> cm y = Lt)).
  { rewrite Eg, heads_app. intro M. apply mono_app in M. destruct M as [_ [M1 M2]]. change (heads ((x, []) :: g2)) with (x :: heads g2) in *. apply mono_cons in M1.
    destruct M1 as [M1 M3]. split; auto. split; intros Q y Hy; [apply (M2 y x); cbn; auto|apply M3; auto]. }
  destruct (cm x) eqn:Ex.
  - exists true. split; [reflexivity|]. intros _. exists g1, g2. split; auto. intros M _. destruct (P M) as [_ [P1 P2]]. split; [apply P1|apply P2]; congruence.
  - rewrite X2. destruct (rt l) as [yl|] eqn:El.
    + destruct (rightmost_spec t l fuel (CL k d x r) yl R El) as [d' [k' [a [y [_ [_ ->]]]]]].
      { rewrite ino_plug in Lf. cbn [ino] in Lf. rewrite !app_length in Lf. lia. }
      cbn [bindo]. eexists. split; [reflexivity|]. intros _. exists g1, g2. split; auto. congruence.
    + exists true. split; [reflexivity|]. intros _. exists g1, g2. split; auto. congruence.
  - rewrite X3. destruct r as [|kr r1 rx r2].
    + exists true. split; [reflexivity|]. intros _. exists g1, g2. split; auto. intros M _. destruct (P M) as [P0 [P1 _]]. split; [apply P1; congruence|].
      rewrite I2 in *. cbn [ino app] in *. now apply wguided_cr.
    + cbn [rt]. destruct (leftmost_spec t (T kr r1 rx r2) fuel (CR k l x d) rx R eq_refl) as [d' [k' [b' [y [Er [Cd ->]]]]]].
      { rewrite ino_plug in Lf. cbn [ino] in Lf |- *. rewrite !app_length in *. cbn [length] in *. rewrite !app_length in *. cbn [length] in *. lia. }
      cbn [bindo]. eexists. split; [reflexivity|]. destruct (cm y) eqn:Ey; try discriminate. intros _. exists g1, g2. split; auto.
      intros M _. destruct (P M) as [P0 [P1 _]]. split; [apply P1; congruence|]. rewrite I2, Er, ino_plug, Cd in *. cbn [ino app] in *.
      apply mono_cons in P0. destruct P0 as [_ P0]. intros z [<- |Hz]; auto. apply (P0 z Hz). congruence.
Qed.

(** Rotations, recolouring and exchange of nodes of RbModel.v on the trees of RbTree.v. *)
From Coq Require Import List Bool Arith Lia Permutation.
From Verif Require Import RbModel RbTree.
Import ListNotations.

Lemma modp_ne p f t y : p <> Some y -> hp (modp p f t) y = hp t y.
Proof. destruct p; cbn [modp]; auto. intro H. apply mod1_ne. congruence. Qed.
Lemma modp_eq p f t y : p = Some y -> hp (modp p f t) y = f (hp t y).
Proof. intros ->. apply mod1_eq. Qed.
Lemma root_modp p f t : root (modp p f t) = root t.
Proof. now destruct p. Qed.

Ltac nds := repeat match goal with
  | H : NoDup (_ ++ _) |- _ => apply nd_app in H; destruct H as [? [? ?]]
  | H : NoDup (_ :: _) |- _ => apply nd_cons in H; destruct H as [? ?]
  end.
Ltac inn := solve [repeat (rewrite in_app_iff || cbn [In ino cn app]); auto 12].
Ltac dj := solve [subst; match goal with
  | H : ~ In ?y _ |- False => apply H; inn
  | H : forall z, In z _ -> ~ In z _, y : nat |- False => apply (H y); inn
  end].

Lemma rotate_right_spec t c kx kl a l b x d :
  Rep t (plug c (T kx (T kl a l b) x d)) ->
  exists t', rotate_right t x = Some t' /\ Rep t' (plug c (T kl a l (T kx b x d))) /\
             keeps (ino (plug c (T kx (T kl a l b) x d))) t t'.
Proof.
  intro R. assert (R0 := R). apply Rep_plug in R. destruct R as [R1 [R2 [R3 ND]]].
  cbn [rep rt] in R3. destruct R3 as [X1 [X2 [X3 [X4 [[L1 [L2 [L3 [L4 [A B]]]]] D]]]]].
  assert (NDa : NoDup (ino a) /\ NoDup (ino b) /\ NoDup (ino d) /\ NoDup (x :: cn c) /\ l <> x /\ ~ In l (cn c) /\ ~ In x (cn c)
    /\ (forall y, In y (ino a) -> y <> l /\ y <> x /\ ~ In y (ino b) /\ ~ In y (cn c))
    /\ (forall y, In y (ino b) -> y <> l /\ y <> x /\ ~ In y (cn c))
    /\ (forall y, In y (ino d) -> y <> l /\ y <> x /\ ~ In y (ino b) /\ ~ In y (cn c))
    /\ ~ In l (ino b) /\ ~ In x (ino b)).
  { assert (ND1 := ND). cbn [ino] in ND1. nds.
    repeat match goal with |- _ /\ _ => split end; auto.
    all: try (intro K; dj).
    all: try (constructor; auto; intro K; dj).
    all: intros y Hy; repeat split; intro K; dj. }
  destruct NDa as [Na [Nb [Nd [Nx [Nlx [Nlc [Nxc [Fa [Fb [Fd [Nlb Nxb]]]]]]]]]]].
  unfold rotate_right. rewrite X2. cbn [rt]. rewrite L3.
  set (t1 := mod1 x (set_lft (rt b)) t).
  set (t2 := modp (rt b) (set_par (Some x)) t1).
  assert (Bx : rt b <> Some x) by (intro K; apply rt_in in K; auto).
  assert (Bl : rt b <> Some l) by (intro K; apply rt_in in K; auto).
  assert (P2 : hp t2 x = set_lft (rt b) (hp t x)).
  { unfold t2. rewrite modp_ne by assumption. unfold t1. now rewrite mod1_eq. }
  assert (P2l : hp t2 l = hp t l).
  { unfold t2. rewrite modp_ne by assumption. unfold t1. now rewrite mod1_ne. }
  set (t3 := mod1 l (set_par (par (hp t2 x))) t2).
  assert (P3 : hp t3 x = set_lft (rt b) (hp t x)) by (unfold t3; rewrite mod1_ne; auto).
  assert (P3l : hp t3 l = set_par (cq c) (hp t l)).
  { unfold t3. rewrite mod1_eq, P2, P2l. cbn [set_lft par]. now rewrite X4. }
  assert (P3o : forall y, y <> x -> y <> l -> rt b <> Some y -> hp t3 y = hp t y).
  { intros y H1 H2 H3. unfold t3, t2, t1. rewrite mod1_ne, modp_ne, mod1_ne; auto. }
  assert (P3b : forall y, rt b = Some y -> hp t3 y = set_par (Some x) (hp t y)).
  { intros y H. unfold t3. rewrite mod1_ne by congruence. unfold t2. rewrite modp_eq by assumption. unfold t1.
    rewrite mod1_ne by congruence. reflexivity. }
  assert (Q3 : par (hp t3 x) = cq c) by (rewrite P3; exact X4). rewrite Q3.
  assert (R3 : root t3 = top c (Some x)).
  { unfold t3, t2, t1. cbn. rewrite root_modp. exact R1. }
  assert (C3 : crep (hp t3) (Some x) c).
  { eapply crep_ext; [|exact R2]. intros y Hy. apply same_eq, P3o; try congruence.
    intro K. apply rt_in in K. destruct (Fb y K) as [_ [_ K2]]. auto. }
  destruct (up_spec t3 c x (Some l) C3 R3 Nx) as [U1 [U2 [U3 [U4 U5]]]].
  set (t4 := update_parent t3 (cq c) (Some x) (Some l)) in *.
  set (t5 := mod1 l (set_rgt (Some x)) t4). set (t6 := mod1 x (set_par (Some l)) t5).
  assert (Cx : cq c <> Some x) by (intro K; apply cq_in in K; auto).
  assert (Cl : cq c <> Some l) by (intro K; apply cq_in in K; auto).
  assert (P6o : forall y, y <> x -> y <> l -> hp t6 y = hp t4 y).
  { intros y H1 H2. unfold t6, t5. rewrite !mod1_ne; auto. }
  assert (P6x : hp t6 x = set_par (Some l) (set_lft (rt b) (hp t x))).
  { unfold t6. rewrite mod1_eq. unfold t5. rewrite mod1_ne by auto. rewrite U3 by auto. now rewrite P3. }
  assert (P6l : hp t6 l = set_rgt (Some x) (set_par (cq c) (hp t l))).
  { unfold t6. rewrite mod1_ne by auto. unfold t5. rewrite mod1_eq, U3 by auto. now rewrite P3l. }
  exists t6. split; [reflexivity|]. split.
  - apply Rep_plug. cbn [rt]. split; [exact U2|]. split; [|split].
    + eapply crep_ext; [|exact U1]. intros y Hy. apply same_eq, P6o; congruence.
    + cbn [rep rt]. rewrite P6x, P6l. cbn [red lft rgt par set_par set_lft set_rgt]. repeat match goal with |- _ /\ _ => split end; auto.
      * eapply rep_ext; [|exact A]. intros y Hy. destruct (Fa y Hy) as [K1 [K2 [K3 K4]]].
        apply same_eq. rewrite P6o, U3, P3o; auto. intro K; apply rt_in in K; auto. intro K; apply cq_in in K; auto.
      * apply (rep_re (hp t) _ (Some l)); auto.
        -- intros y Hy. destruct (Fb y Hy) as [K1 [K2 K3]]. rewrite P6o, U3; auto; [|intro K; apply cq_in in K; auto].
           destruct (peq_spec (rt b) (Some y)) as [K|K]; [rewrite P3b; auto|rewrite P3o; auto].
        -- intros y Hy Hr. destruct (Fb y Hy) as [K1 [K2 K3]]. rewrite P6o, U3, P3o; auto; intro K; apply cq_in in K; auto.
        -- intros y Hr. assert (Hy := rt_in _ _ Hr). destruct (Fb y Hy) as [K1 [K2 K3]].
           rewrite P6o, U3, P3b; auto; intro K; apply cq_in in K; auto.
      * eapply rep_ext; [|exact D]. intros y Hy. destruct (Fd y Hy) as [K1 [K2 [K3 K4]]].
        apply same_eq. rewrite P6o, U3, P3o; auto. intro K; apply rt_in in K; auto. intro K; apply cq_in in K; auto.
    + revert ND. apply Permutation_NoDup. apply Permutation_app_tail. cbn [ino]. rewrite <- app_assoc. reflexivity.
  - assert (I : forall y, y = x \/ y = l \/ In y (ino b) \/ In y (cn c) -> In y (ino (plug c (T kx (T kl a l b) x d)))).
    { intros y H. apply In_plug. destruct H as [-> | [-> | [H|H]]]; [left|left|left|right]; inn. }
    apply (keeps_trans _ (ino (plug c (T kx (T kl a l b) x d))) _ t5); [auto| |apply keeps_mod1; auto with rbt].
    apply (keeps_trans _ (ino (plug c (T kx (T kl a l b) x d))) _ t4); [auto| |apply keeps_mod1; auto with rbt].
    apply (keeps_trans _ (cn c) _ t3); [auto| |exact U5].
    apply (keeps_trans _ (ino (plug c (T kx (T kl a l b) x d))) _ t2); [auto| |apply keeps_mod1; auto with rbt].
    apply (keeps_trans _ (ino (plug c (T kx (T kl a l b) x d))) _ t1); [auto| |apply keeps_modp; auto with rbt].
    + apply keeps_mod1; auto with rbt.
    + intros y Hy. apply I. apply rt_in in Hy. auto.
Qed.

Lemma rotate_left_spec t c kx kl a l b x d :
  Rep t (plug c (T kx d x (T kl b l a))) ->
  exists t', rotate_left t x = Some t' /\ Rep t' (plug c (T kl (T kx d x b) l a)) /\
             keeps (ino (plug c (T kx d x (T kl b l a)))) t t'.
Proof.
  intro R. assert (R0 := R). apply Rep_plug in R. destruct R as [R1 [R2 [R3 ND]]].
  cbn [rep rt] in R3. destruct R3 as [X1 [X3 [X2 [X4 [D [L1 [L3 [L2 [L4 [B A]]]]]]]]]].
  assert (NDa : NoDup (ino a) /\ NoDup (ino b) /\ NoDup (ino d) /\ NoDup (x :: cn c) /\ l <> x /\ ~ In l (cn c) /\ ~ In x (cn c)
    /\ (forall y, In y (ino a) -> y <> l /\ y <> x /\ ~ In y (ino b) /\ ~ In y (cn c))
    /\ (forall y, In y (ino b) -> y <> l /\ y <> x /\ ~ In y (cn c))
    /\ (forall y, In y (ino d) -> y <> l /\ y <> x /\ ~ In y (ino b) /\ ~ In y (cn c))
    /\ ~ In l (ino b) /\ ~ In x (ino b)).
  { assert (ND1 := ND). cbn [ino] in ND1. nds.
    repeat match goal with |- _ /\ _ => split end; auto.
    all: try (intro K; dj).
    all: try (constructor; auto; intro K; dj).
    all: intros y Hy; repeat split; intro K; dj. }
  destruct NDa as [Na [Nb [Nd [Nx [Nlx [Nlc [Nxc [Fa [Fb [Fd [Nlb Nxb]]]]]]]]]]].
  unfold rotate_left. rewrite X2. cbn [rt]. rewrite L3.
  set (t1 := mod1 x (set_rgt (rt b)) t).
  set (t2 := modp (rt b) (set_par (Some x)) t1).
  assert (Bx : rt b <> Some x) by (intro K; apply rt_in in K; auto).
  assert (Bl : rt b <> Some l) by (intro K; apply rt_in in K; auto).
  assert (P2 : hp t2 x = set_rgt (rt b) (hp t x)).
  { unfold t2. rewrite modp_ne by assumption. unfold t1. now rewrite mod1_eq. }
  assert (P2l : hp t2 l = hp t l).
  { unfold t2. rewrite modp_ne by assumption. unfold t1. now rewrite mod1_ne. }
  set (t3 := mod1 l (set_par (par (hp t2 x))) t2).
  assert (P3 : hp t3 x = set_rgt (rt b) (hp t x)) by (unfold t3; rewrite mod1_ne; auto).
  assert (P3l : hp t3 l = set_par (cq c) (hp t l)).
  { unfold t3. rewrite mod1_eq, P2, P2l. cbn [set_rgt par]. now rewrite X4. }
  assert (P3o : forall y, y <> x -> y <> l -> rt b <> Some y -> hp t3 y = hp t y).
  { intros y H1 H2 H3. unfold t3, t2, t1. rewrite mod1_ne, modp_ne, mod1_ne; auto. }
  assert (P3b : forall y, rt b = Some y -> hp t3 y = set_par (Some x) (hp t y)).
  { intros y H. unfold t3. rewrite mod1_ne by congruence. unfold t2. rewrite modp_eq by assumption. unfold t1.
    rewrite mod1_ne by congruence. reflexivity. }
  assert (Q3 : par (hp t3 x) = cq c) by (rewrite P3; exact X4). rewrite Q3.
  assert (R3 : root t3 = top c (Some x)).
  { unfold t3, t2, t1. cbn. rewrite root_modp. exact R1. }
  assert (C3 : crep (hp t3) (Some x) c).
  { eapply crep_ext; [|exact R2]. intros y Hy. apply same_eq, P3o; try congruence.
    intro K. apply rt_in in K. destruct (Fb y K) as [_ [_ K2]]. auto. }
  destruct (up_spec t3 c x (Some l) C3 R3 Nx) as [U1 [U2 [U3 [U4 U5]]]].
  set (t4 := update_parent t3 (cq c) (Some x) (Some l)) in *.
  set (t5 := mod1 l (set_lft (Some x)) t4). set (t6 := mod1 x (set_par (Some l)) t5).
  assert (Cx : cq c <> Some x) by (intro K; apply cq_in in K; auto).
  assert (Cl : cq c <> Some l) by (intro K; apply cq_in in K; auto).
  assert (P6o : forall y, y <> x -> y <> l -> hp t6 y = hp t4 y).
  { intros y H1 H2. unfold t6, t5. rewrite !mod1_ne; auto. }
  assert (P6x : hp t6 x = set_par (Some l) (set_rgt (rt b) (hp t x))).
  { unfold t6. rewrite mod1_eq. unfold t5. rewrite mod1_ne by auto. rewrite U3 by auto. now rewrite P3. }
  assert (P6l : hp t6 l = set_lft (Some x) (set_par (cq c) (hp t l))).
  { unfold t6. rewrite mod1_ne by auto. unfold t5. rewrite mod1_eq, U3 by auto. now rewrite P3l. }
  exists t6. split; [reflexivity|]. split.
  - apply Rep_plug. cbn [rt]. split; [exact U2|]. split; [|split].
    + eapply crep_ext; [|exact U1]. intros y Hy. apply same_eq, P6o; congruence.
    + cbn [rep rt]. rewrite P6x, P6l. cbn [red lft rgt par set_par set_rgt set_lft]. repeat match goal with |- _ /\ _ => split end; auto.
      * eapply rep_ext; [|exact D]. intros y Hy. destruct (Fd y Hy) as [K1 [K2 [K3 K4]]].
        apply same_eq. rewrite P6o, U3, P3o; auto. intro K; apply rt_in in K; auto. intro K; apply cq_in in K; auto.
      * apply (rep_re (hp t) _ (Some l)); auto.
        -- intros y Hy. destruct (Fb y Hy) as [K1 [K2 K3]]. rewrite P6o, U3; auto; [|intro K; apply cq_in in K; auto].
           destruct (peq_spec (rt b) (Some y)) as [K|K]; [rewrite P3b; auto|rewrite P3o; auto].
        -- intros y Hy Hr. destruct (Fb y Hy) as [K1 [K2 K3]]. rewrite P6o, U3, P3o; auto; intro K; apply cq_in in K; auto.
        -- intros y Hr. assert (Hy := rt_in _ _ Hr). destruct (Fb y Hy) as [K1 [K2 K3]].
           rewrite P6o, U3, P3b; auto; intro K; apply cq_in in K; auto.
      * eapply rep_ext; [|exact A]. intros y Hy. destruct (Fa y Hy) as [K1 [K2 [K3 K4]]].
        apply same_eq. rewrite P6o, U3, P3o; auto. intro K; apply rt_in in K; auto. intro K; apply cq_in in K; auto.
    + revert ND. apply Permutation_NoDup. apply Permutation_app_tail. cbn [ino]. rewrite <- app_assoc. reflexivity.
  - assert (I : forall y, y = x \/ y = l \/ In y (ino b) \/ In y (cn c) -> In y (ino (plug c (T kx d x (T kl b l a))))).
    { intros y H. apply In_plug. destruct H as [-> | [-> | [H|H]]]; [left|left|left|right]; inn. }
    apply (keeps_trans _ (ino (plug c (T kx d x (T kl b l a)))) _ t5); [auto| |apply keeps_mod1; auto with rbt].
    apply (keeps_trans _ (ino (plug c (T kx d x (T kl b l a)))) _ t4); [auto| |apply keeps_mod1; auto with rbt].
    apply (keeps_trans _ (cn c) _ t3); [auto| |exact U5].
    apply (keeps_trans _ (ino (plug c (T kx d x (T kl b l a)))) _ t2); [auto| |apply keeps_mod1; auto with rbt].
    apply (keeps_trans _ (ino (plug c (T kx d x (T kl b l a)))) _ t1); [auto| |apply keeps_modp; auto with rbt].
    + apply keeps_mod1; auto with rbt.
    + intros y Hy. apply I. apply rt_in in Hy. auto.
Qed.

Lemma recolor_spec t c k a x b k' : Rep t (plug c (T k a x b)) ->
  Rep (mod1 x (set_red k') t) (plug c (T k' a x b)) /\ keeps (ino (plug c (T k a x b))) t (mod1 x (set_red k') t).
Proof.
  intro R. split.
  - apply Rep_plug in R. destruct R as [R1 [R2 [[X1 [X2 [X3 [X4 [A B]]]]] ND]]]. apply Rep_plug. cbn [rt] in *.
    assert (O : forall y, y <> x -> hp (mod1 x (set_red k') t) y = hp t y) by (intros; now apply mod1_ne).
    assert (ND1 := ND). cbn [ino] in ND1. revert ND. nds. intro ND.
    split; [exact R1|]. split; [|split].
    + eapply crep_ext; [|exact R2]. intros y Hy. apply same_eq, O. intros ->. dj.
    + cbn [rep]. rewrite mod1_eq. cbn [red lft rgt par set_red]. repeat match goal with |- _ /\ _ => split end; auto.
      * eapply rep_ext; [|exact A]. intros y Hy. apply same_eq, O. intros ->. dj.
      * eapply rep_ext; [|exact B]. intros y Hy. apply same_eq, O. intros ->. dj.
    + exact ND.
  - apply keeps_mod1; auto with rbt. apply In_plug. left. inn.
Qed.

(** ** Exchange of two nodes *)
Definition tp (a b y : nat) : nat := if y =? a then b else if y =? b then a else y.
Definition otp a b (p : option nat) : option nat := option_map (tp a b) p.
Fixpoint ren (a b : nat) (t : tr) : tr := match t with E => E | T k l x r => T k (ren a b l) (tp a b x) (ren a b r) end.
Lemma tp_a a b : tp a b a = b. Proof. unfold tp. now rewrite Nat.eqb_refl. Qed.
Lemma tp_b a b : tp a b b = a.
Proof. unfold tp. destruct (Nat.eqb_spec b a); auto. now rewrite Nat.eqb_refl. Qed.
Lemma tp_o a b y : y <> a -> y <> b -> tp a b y = y.
Proof. intros H1 H2. unfold tp. now rewrite (proj2 (Nat.eqb_neq _ _) H1), (proj2 (Nat.eqb_neq _ _) H2). Qed.
Lemma otp_o a b p : p <> Some a -> p <> Some b -> otp a b p = p.
Proof. destruct p as [y|]; cbn; auto. intros H1 H2. rewrite tp_o; congruence. Qed.
Lemma tp_inj a b x y : tp a b x = tp a b y -> x = y.
Proof.
  unfold tp. destruct (Nat.eqb_spec x a), (Nat.eqb_spec x b), (Nat.eqb_spec y a), (Nat.eqb_spec y b); congruence.
Qed.
Lemma tp_inv a b x : tp a b (tp a b x) = x.
Proof.
  destruct (Nat.eq_dec x a) as [->|]; [now rewrite tp_a, tp_b|]. destruct (Nat.eq_dec x b) as [->|]; [now rewrite tp_b, tp_a|].
  now rewrite !tp_o by (rewrite ?tp_o; auto).
Qed.
Lemma rt_ren a b t : rt (ren a b t) = otp a b (rt t).
Proof. now destruct t. Qed.
Lemma ino_ren a b t : ino (ren a b t) = map (tp a b) (ino t).
Proof. induction t; cbn; auto. rewrite map_app. cbn. now rewrite IHt1, IHt2. Qed.
Lemma ren_id a b t : ~ In a (ino t) -> ~ In b (ino t) -> ren a b t = t.
Proof.
  induction t as [|k l IHl x r IHr]; cbn; auto. rewrite !in_app_iff. cbn. intros Ha Hb.
  rewrite IHl, IHr, tp_o; auto 10.
Qed.
Lemma bal_ren a b t : forall n, bal (ren a b t) n <-> bal t n.
Proof.
  induction t as [|k l IHl x r IHr]; cbn; [tauto|]. intros [|n]; destruct k; rewrite ?IHl, ?IHr; try tauto;
    destruct l as [|[|] ? ? ?], r as [|[|] ? ? ?]; cbn; tauto.
Qed.
Lemma blk_ren a b t : blk (ren a b t) <-> blk t.
Proof. destruct t; cbn; tauto. Qed.

(** Node [z] of [h'] is node [y] of [h] with [a] and [b] exchanged. *)
Definition img a b (h h' : nat -> node) (y : nat) : Prop :=
  let z := tp a b y in
  red (h' z) = red (h y) /\ lft (h' z) = otp a b (lft (h y)) /\ rgt (h' z) = otp a b (rgt (h y)) /\ par (h' z) = otp a b (par (h y)).
Lemma rep_ren a b h h' t : forall q, (forall y, In y (ino t) -> img a b h h' y) -> rep h q t -> rep h' (otp a b q) (ren a b t).
Proof.
  induction t as [|k l IHl x r IHr]; intros q S R; [exact I|]. cbn [rep ren] in *.
  destruct R as [R1 [R2 [R3 [R4 [R5 R6]]]]].
  destruct (S x) as [S1 [S2 [S3 S4]]]; [cbn; apply in_elt|].
  rewrite S1, S2, S3, S4, R2, R3, R4, !rt_ren. repeat split; auto.
  - apply (IHl (Some x)); auto. intros y Hy. apply S. cbn. apply in_or_app. auto.
  - apply (IHr (Some x)); auto. intros y Hy. apply S. cbn. apply in_or_app. right. right. auto.
Qed.

(** Links in both directions, for the nodes in [D]. *)
Record wf (h : nat -> node) (D : nat -> Prop) : Prop := {
  w_l : forall y z, D y -> lft (h y) = Some z -> D z /\ par (h z) = Some y;
  w_r : forall y z, D y -> rgt (h y) = Some z -> D z /\ par (h z) = Some y;
  w_lr : forall y z, D y -> lft (h y) = Some z -> rgt (h y) <> Some z;
  w_p : forall y z, D z -> par (h z) = Some y -> D y /\ (lft (h y) = Some z \/ rgt (h y) = Some z);
  w_s : forall y, D y -> par (h y) <> Some y }.

Section Swap.
Variables (t : rb) (A B : nat) (D : nat -> Prop).
Hypothesis W : wf (hp t) D.
Hypothesis DA : D A.
Hypothesis DB : D B.
Hypothesis AB : A <> B.
Hypothesis NC : par (hp t A) <> Some B.
Hypothesis NS : forall p, par (hp t A) = Some p -> par (hp t B) <> Some p.
Hypothesis RA : root t = Some A -> par (hp t A) = None.
Hypothesis RB_ : root t = Some B -> par (hp t B) = None /\ par (hp t A) <> None.

Let h := hp t.
Let a := h A.
Let b := h B.
Let t2 := mod1 B (copy_node (hp t A)) (mod1 A (copy_node (hp t B)) t).
Let t3 := fix_self t2 A B.
Let t4 := fix_self t3 B A.
Let t5 := update_children t4 A.
Let t6 := update_children t5 B.
Let t7 := update_parent t6 (par (hp t6 A)) (Some B) (Some A).
Let t8 := update_parent t7 (par (hp t7 B)) (Some A) (Some B).
Lemma swap_is : swap t A B = t8.
Proof. reflexivity. Qed.

Lemma sw_self : lft a <> Some A /\ rgt a <> Some A /\ lft b <> Some B /\ rgt b <> Some B /\ lft b <> Some A /\ rgt b <> Some A
  /\ par a <> Some A /\ par b <> Some B.
Proof.
  repeat split; intro K.
  - apply (w_l _ _ W A A DA) in K. destruct K as [_ K]. now apply (w_s _ _ W A DA).
  - apply (w_r _ _ W A A DA) in K. destruct K as [_ K]. now apply (w_s _ _ W A DA).
  - apply (w_l _ _ W B B DB) in K. destruct K as [_ K]. now apply (w_s _ _ W B DB).
  - apply (w_r _ _ W B B DB) in K. destruct K as [_ K]. now apply (w_s _ _ W B DB).
  - apply (w_l _ _ W B A DB) in K. destruct K as [_ K]. auto.
  - apply (w_r _ _ W B A DB) in K. destruct K as [_ K]. auto.
  - now apply (w_s _ _ W A DA).
  - now apply (w_s _ _ W B DB).
Qed.

Definition im (n : node) (m : node) : node :=   (* fields of n exchanged, ring of m *)
  {| red := red n; lft := otp A B (lft n); rgt := otp A B (rgt n); par := otp A B (par n); nxt := nxt m; prv := prv m |}.
Lemma sw4 : hp t4 A = im b a /\ hp t4 B = im a b /\ root t4 = root t /\ forall y, y <> A -> y <> B -> hp t4 y = h y.
Proof.
  destruct sw_self as [S1 [S2 [S3 [S4 [S5 [S6 [S7 S8]]]]]]].
  assert (E2A : hp t2 A = copy_node b a) by (unfold t2; rewrite mod1_ne, mod1_eq by auto; reflexivity).
  assert (E2B : hp t2 B = copy_node a b) by (unfold t2; rewrite mod1_eq, mod1_ne by auto; reflexivity).
  assert (E2o : forall y, y <> A -> y <> B -> hp t2 y = h y) by (intros y H1 H2; unfold t2; rewrite !mod1_ne by auto; reflexivity).
  assert (E3A : hp t3 A = im b a /\ hp t3 B = copy_node a b /\ root t3 = root t /\ forall y, y <> A -> y <> B -> hp t3 y = h y).
  { unfold t3, fix_self. rewrite E2A. cbn [copy_node par lft rgt].
    destruct (peq_spec (par b) (Some A)) as [K|K].
    - rewrite mod1_eq, mod1_ne by auto. rewrite E2A, E2B. repeat split.
      + unfold im. rewrite K, !otp_o by auto. cbn [otp option_map]. rewrite tp_a. reflexivity.
      + intros y H1 H2. rewrite mod1_ne by auto. now apply E2o.
    - destruct (peq_spec (lft b) (Some A)) as [K2|_]; [now destruct S5|].
      destruct (peq_spec (rgt b) (Some A)) as [K3|_]; [now destruct S6|].
      rewrite E2A, E2B. repeat split; auto. unfold im, copy_node. rewrite !otp_o by auto. reflexivity. }
  destruct E3A as [E3A [E3B [E3r E3o]]].
  unfold t4, fix_self. rewrite E3B. cbn [copy_node par lft rgt].
  destruct (peq_spec (par a) (Some B)) as [K|_]; [contradiction|].
  destruct (peq_spec (lft a) (Some B)) as [K|K].
  - rewrite mod1_eq, mod1_ne by auto. rewrite E3A, E3B. repeat split; auto.
    + assert (R : rgt a <> Some B) by now apply (w_lr _ _ W A B DA).
      unfold im. rewrite K. rewrite (otp_o _ _ (rgt a)), (otp_o _ _ (par a)) by auto. cbn [otp option_map]. rewrite tp_b. reflexivity.
    + intros y H1 H2. rewrite mod1_ne by auto. now apply E3o.
  - destruct (peq_spec (rgt a) (Some B)) as [K2|K2].
    + rewrite mod1_eq, mod1_ne by auto. rewrite E3A, E3B. repeat split; auto.
      * unfold im. rewrite K2. rewrite (otp_o _ _ (lft a)), (otp_o _ _ (par a)) by auto. cbn [otp option_map]. rewrite tp_b. reflexivity.
      * intros y H1 H2. rewrite mod1_ne by auto. now apply E3o.
    + rewrite E3A, E3B. repeat split; auto. unfold im, copy_node. rewrite !otp_o by auto. reflexivity.
Qed.

Lemma uc_spec u x : let u' := update_children u x in
  root u' = root u /\ (forall y, red (hp u' y) = red (hp u y) /\ lft (hp u' y) = lft (hp u y) /\ rgt (hp u' y) = rgt (hp u y)
     /\ nxt (hp u' y) = nxt (hp u y) /\ prv (hp u' y) = prv (hp u y)) /\
  (forall y, (lft (hp u x) = Some y \/ rgt (hp u x) = Some y) -> par (hp u' y) = Some x) /\
  (forall y, lft (hp u x) <> Some y -> rgt (hp u x) <> Some y -> hp u' y = hp u y).
Proof.
  unfold update_children.
  set (u1 := modp (lft (hp u x)) (set_par (Some x)) u).
  assert (R1 : rgt (hp u1 x) = rgt (hp u x)).
  { unfold u1. destruct (lft (hp u x)) as [z|]; cbn; auto. now destruct (x =? z). }
  rewrite R1.
  assert (M : forall p u0 y, red (hp (modp p (set_par (Some x)) u0) y) = red (hp u0 y) /\ lft (hp (modp p (set_par (Some x)) u0) y) = lft (hp u0 y)
    /\ rgt (hp (modp p (set_par (Some x)) u0) y) = rgt (hp u0 y) /\ nxt (hp (modp p (set_par (Some x)) u0) y) = nxt (hp u0 y)
    /\ prv (hp (modp p (set_par (Some x)) u0) y) = prv (hp u0 y)).
  { intros [z|] u0 y; cbn; [destruct (y =? z); cbn; auto 10|auto 10]. }
  split; [rewrite !root_modp; unfold u1; now rewrite root_modp|]. split; [|split].
  - intro y. destruct (M (rgt (hp u x)) u1 y) as [M1 [M2 [M3 [M4 M5]]]]. destruct (M (lft (hp u x)) u y) as [L1 [L2 [L3 [L4 L5]]]].
    fold u1 in L1, L2, L3, L4, L5. repeat split; congruence.
  - intros y H. destruct (peq_spec (rgt (hp u x)) (Some y)) as [K|K].
    + now rewrite (modp_eq _ _ _ _ K).
    + rewrite modp_ne by auto. destruct H as [H|H]; [|contradiction]. unfold u1. now rewrite (modp_eq _ _ _ _ H).
  - intros y H1 H2. rewrite modp_ne by auto. unfold u1. now rewrite modp_ne.
Qed.

Lemma otp_eq p z : otp A B p = Some z <-> p = Some (tp A B z).
Proof.
  destruct p as [y|]; cbn; [|split; discriminate]. split; intro H; injection H as H; [rewrite <- H, tp_inv; reflexivity|].
  rewrite H, tp_inv. reflexivity.
Qed.
Lemma sw6 : root t6 = root t /\ (forall y, red (hp t6 y) = red (hp t4 y) /\ lft (hp t6 y) = lft (hp t4 y) /\ rgt (hp t6 y) = rgt (hp t4 y)
     /\ nxt (hp t6 y) = nxt (hp t y) /\ prv (hp t6 y) = prv (hp t y)) /\
  (forall y, D y -> par (hp t6 (tp A B y)) = otp A B (par (h y))) /\ (forall y, ~ D y -> hp t6 y = h y).
Proof.
  destruct sw4 as [EA [EB [ER EO]]]. destruct sw_self as [S1 [S2 [S3 [S4 [S5 [S6 [S7 S8]]]]]]].
  destruct (uc_spec t4 A) as [U1 [U2 [U3 U4]]]. fold t5 in U1, U2, U3, U4.
  destruct (uc_spec t5 B) as [V1 [V2 [V3 V4]]]. fold t6 in V1, V2, V3, V4.
  assert (LB : lft (hp t5 B) = otp A B (lft a) /\ rgt (hp t5 B) = otp A B (rgt a)).
  { destruct (U2 B) as [_ [K1 [K2 _]]]. rewrite K1, K2, EB. auto. }
  destruct LB as [LB RB].
  assert (LA : lft (hp t4 A) = otp A B (lft b) /\ rgt (hp t4 A) = otp A B (rgt b)) by (rewrite EA; auto).
  destruct LA as [LA RA'].
  split; [congruence|]. split; [|split].
  - intro y. destruct (U2 y) as [K1 [K2 [K3 [K4 K5]]]]. destruct (V2 y) as [J1 [J2 [J3 [J4 J5]]]].
    assert (N4 : nxt (hp t4 y) = nxt (hp t y) /\ prv (hp t4 y) = prv (hp t y)).
    { destruct (Nat.eq_dec y A) as [->|NA]; [rewrite EA; auto|]. destruct (Nat.eq_dec y B) as [->|NB]; [rewrite EB; auto|]. rewrite EO by auto. auto. }
    destruct N4. repeat split; congruence.
  - intros y Dy.
    destruct (peq_spec (par (h y)) (Some A)) as [PA|PA].
    { destruct (w_p _ _ W A y Dy PA) as [_ K]. rewrite PA. cbn [otp option_map]. rewrite tp_a. apply V3. rewrite LB, RB, !otp_eq, !tp_inv. exact K. }
    assert (NV : forall z, z = tp A B y -> lft (hp t5 B) <> Some z /\ rgt (hp t5 B) <> Some z).
    { intros z ->. rewrite LB, RB, !otp_eq, !tp_inv. split; intro K; apply PA; [apply (w_l _ _ W A y DA K)|apply (w_r _ _ W A y DA K)]. }
    destruct (NV _ eq_refl) as [NV1 NV2]. rewrite V4 by assumption.
    destruct (peq_spec (par (h y)) (Some B)) as [PB|PB].
    { destruct (w_p _ _ W B y Dy PB) as [_ K]. rewrite PB. cbn [otp option_map]. rewrite tp_b. apply U3. rewrite LA, RA', !otp_eq, !tp_inv. exact K. }
    rewrite U4.
    + rewrite (otp_o A B (par (h y))) by assumption.
      destruct (Nat.eq_dec y A) as [->|NA]; [rewrite tp_a, EB; cbn [im par]; now apply otp_o|].
      destruct (Nat.eq_dec y B) as [->|NB]; [rewrite tp_b, EA; cbn [im par]; now apply otp_o|].
      rewrite tp_o by auto. now rewrite EO.
    + rewrite LA, otp_eq, tp_inv. intro K. apply PB. apply (w_l _ _ W B y DB K).
    + rewrite RA', otp_eq, tp_inv. intro K. apply PB. apply (w_r _ _ W B y DB K).
  - intros y Dy.
    assert (NA : y <> A) by congruence. assert (NB : y <> B) by congruence.
    rewrite V4, U4, EO; auto.
    + rewrite LA, otp_eq, tp_o by auto. intro K. apply Dy. apply (w_l _ _ W B y DB K).
    + rewrite RA', otp_eq, tp_o by auto. intro K. apply Dy. apply (w_r _ _ W B y DB K).
    + rewrite LB, otp_eq, tp_o by auto. intro K. apply Dy. apply (w_l _ _ W A y DA K).
    + rewrite RB, otp_eq, tp_o by auto. intro K. apply Dy. apply (w_r _ _ W A y DA K).
Qed.

Lemma upp_spec u p old new : let u' := update_parent u p old new in
  (forall y, red (hp u' y) = red (hp u y) /\ par (hp u' y) = par (hp u y) /\ nxt (hp u' y) = nxt (hp u y) /\ prv (hp u' y) = prv (hp u y)) /\
  (forall y, p <> Some y -> hp u' y = hp u y) /\
  (forall y, p = Some y -> lft (hp u' y) = (if peq (lft (hp u y)) old then new else lft (hp u y)) /\
     rgt (hp u' y) = (if peq (lft (hp u y)) old then rgt (hp u y) else if peq (rgt (hp u y)) old then new else rgt (hp u y))) /\
  root u' = match p with None => if peq (root u) old then new else root u | Some _ => root u end.
Proof.
  unfold update_parent. destruct p as [p|].
  - destruct (peq (lft (hp u p)) old) eqn:K1; [|destruct (peq (rgt (hp u p)) old) eqn:K2].
    + repeat split; try (cbn; now destruct (y =? p)).
      * intros y H. apply mod1_ne. congruence.
      * injection H as <-. rewrite mod1_eq, K1. reflexivity.
      * injection H as <-. rewrite mod1_eq, K1. reflexivity.
    + repeat split; try (cbn; now destruct (y =? p)).
      * intros y H. apply mod1_ne. congruence.
      * injection H as <-. rewrite mod1_eq, K1. reflexivity.
      * injection H as <-. rewrite mod1_eq, K1, K2. reflexivity.
    + repeat split.
      * injection H as <-. now rewrite K1.
      * injection H as <-. now rewrite K1, K2.
  - destruct (peq (root u) old) eqn:K; repeat split; discriminate.
Qed.
Lemma sw8 : root t8 = otp A B (root t) /\ (forall y, D y -> img A B h (hp t8) y) /\ (forall y, ~ D y -> hp t8 y = h y) /\
  (forall y, nxt (hp t8 y) = nxt (hp t y) /\ prv (hp t8 y) = prv (hp t y)).
Proof.
  destruct sw4 as [EA [EB [ER EO]]]. destruct sw_self as [S1 [S2 [S3 [S4 [S5 [S6 [S7 S8]]]]]]].
  destruct sw6 as [R6 [F6 [P6 O6]]].
  assert (PA : par (hp t6 A) = otp A B (par b)) by (assert (K := P6 B DB); rewrite tp_b in K; exact K).
  assert (PB : par (hp t6 B) = par a).
  { assert (K := P6 A DA). rewrite tp_a in K. rewrite K. apply otp_o; [exact S7|exact NC]. }
  destruct (upp_spec t6 (par (hp t6 A)) (Some B) (Some A)) as [U1 [U2 [U3 U4]]]. fold t7 in U1, U2, U3, U4. rewrite PA in U2, U3, U4.
  assert (PB7 : par (hp t7 B) = par a) by (destruct (U1 B) as [_ [K _]]; congruence).
  destruct (upp_spec t7 (par (hp t7 B)) (Some A) (Some B)) as [V1 [V2 [V3 V4]]]. fold t8 in V1, V2, V3, V4. rewrite PB7 in V2, V3, V4.
  (* children of other nodes *)
  assert (L6 : forall y, y <> A -> y <> B -> lft (hp t6 y) = lft (h y) /\ rgt (hp t6 y) = rgt (h y)).
  { intros y H1 H2. destruct (F6 y) as [_ [K1 [K2 _]]]. rewrite K1, K2, EO; auto. }
  assert (L6A : lft (hp t6 A) = otp A B (lft b) /\ rgt (hp t6 A) = otp A B (rgt b)).
  { destruct (F6 A) as [_ [K1 [K2 _]]]. rewrite K1, K2, EA. auto. }
  assert (L6B : lft (hp t6 B) = otp A B (lft a) /\ rgt (hp t6 B) = otp A B (rgt a)).
  { destruct (F6 B) as [_ [K1 [K2 _]]]. rewrite K1, K2, EB. auto. }
  (* t7: B replaced by A below its parent *)
  assert (L7 : forall y, D y -> y <> A -> y <> B ->
    lft (hp t7 y) = (if peq (lft (h y)) (Some B) then Some A else lft (h y)) /\
    rgt (hp t7 y) = (if peq (rgt (h y)) (Some B) then Some A else rgt (h y))).
  { intros y Dy H1 H2. destruct (L6 y H1 H2) as [K1 K2].
    destruct (peq_spec (par b) (Some y)) as [K|K].
    - assert (OT : otp A B (par b) = Some y) by (rewrite K; cbn; now rewrite tp_o).
      destruct (U3 y OT) as [J1 J2]. rewrite J1, J2, K1, K2. split; [reflexivity|].
      destruct (peq_spec (lft (h y)) (Some B)) as [J|J]; [|reflexivity].
      apply (w_lr _ _ W y B Dy) in J. now destruct (peq_spec (rgt (h y)) (Some B)).
    - assert (OT : otp A B (par b) <> Some y) by (rewrite otp_eq, tp_o; auto).
      rewrite (U2 y OT), K1, K2.
      destruct (peq_spec (lft (h y)) (Some B)) as [J|J]; [exfalso; apply K; apply (w_l _ _ W y B Dy J)|].
      destruct (peq_spec (rgt (h y)) (Some B)) as [J'|J']; [exfalso; apply K; apply (w_r _ _ W y B Dy J')|]. auto. }
  assert (L7A : hp t7 A = hp t6 A).
  { apply U2. rewrite otp_eq, tp_a. exact S8. }
  assert (L7B : lft (hp t7 B) = otp A B (lft a) /\ rgt (hp t7 B) = otp A B (rgt a)).
  { destruct L6B as [K1 K2].
    destruct (peq_spec (otp A B (par b)) (Some B)) as [K|K]; [|rewrite U2; auto].
    destruct (U3 B K) as [J1 J2]. rewrite J1, J2, K1, K2.
    destruct (peq_spec (otp A B (lft a)) (Some B)) as [J|J]; [apply otp_eq in J; rewrite tp_b in J; contradiction|].
    destruct (peq_spec (otp A B (rgt a)) (Some B)) as [J'|J']; [apply otp_eq in J'; rewrite tp_b in J'; contradiction|]. auto. }
  assert (NotA : forall y, par a = Some y -> y <> A /\ y <> B) by (intros y K; split; intros ->; [apply S7|apply NC]; exact K).
  assert (V8 : forall y, y = A \/ y = B -> hp t8 y = hp t7 y).
  { intros y H. apply V2. intro K. destruct (NotA y K). destruct H; contradiction. }
  assert (L8 : forall y, D y -> y <> A -> y <> B ->
    lft (hp t8 y) = otp A B (lft (h y)) /\ rgt (hp t8 y) = otp A B (rgt (h y))).
  { intros y Dy H1 H2. destruct (L7 y Dy H1 H2) as [K1 K2].
    assert (X : forall p, p <> Some A -> (if peq p (Some B) then Some A else p) = otp A B p).
    { intros p Hp. destruct (peq_spec p (Some B)) as [->|J]; [cbn; now rewrite tp_b|now rewrite otp_o]. }
    destruct (peq_spec (par a) (Some y)) as [K|K].
    - assert (NB : par b <> Some y) by now apply NS.
      assert (lft (h y) <> Some B) by (intro J; apply NB; apply (w_l _ _ W y B Dy J)).
      assert (rgt (h y) <> Some B) by (intro J; apply NB; apply (w_r _ _ W y B Dy J)).
      destruct (V3 y K) as [J1 J2]. rewrite J1, J2, K1, K2.
      destruct (peq_spec (lft (h y)) (Some B)) as [J|_]; [contradiction|]. destruct (peq_spec (rgt (h y)) (Some B)) as [J|_]; [contradiction|].
      destruct (peq_spec (lft (h y)) (Some A)) as [J|J].
      + assert (rgt (h y) <> Some A) by now apply (w_lr _ _ W y A Dy). rewrite J. cbn. rewrite tp_a. split; auto. now rewrite otp_o.
      + rewrite (otp_o _ _ (lft (h y))) by auto. split; auto. destruct (peq_spec (rgt (h y)) (Some A)) as [J'|J'].
        * rewrite J'. cbn. now rewrite tp_a.
        * now rewrite otp_o.
    - rewrite (V2 y K), K1, K2. split; apply X; intro J; apply K; [apply (w_l _ _ W y A Dy J)|apply (w_r _ _ W y A Dy J)]. }
  split; [|split; [|split]].
  - rewrite V4, U4, R6.
    destruct (root t) as [r|] eqn:Rt; [|cbn; destruct (par a), (otp A B (par b)); reflexivity].
    destruct (Nat.eq_dec r A) as [->|NA].
    + assert (par a = None) by now apply RA. rewrite H. cbn. rewrite tp_a.
      destruct (otp A B (par b)); cbn; [now rewrite Nat.eqb_refl|]. rewrite (proj2 (Nat.eqb_neq _ _) AB). cbn. now rewrite Nat.eqb_refl.
    + destruct (Nat.eq_dec r B) as [->|NB].
      * destruct (RB_ eq_refl) as [K1 K2]. change (par (hp t B)) with (par b) in K1. rewrite K1. cbn. rewrite Nat.eqb_refl, tp_b.
        destruct (par a) eqn:Pa; [reflexivity|contradiction].
      * cbn. rewrite tp_o by auto. destruct (otp A B (par b)); cbn; destruct (par a); cbn; auto;
          rewrite ?(proj2 (Nat.eqb_neq _ _) NB), ?(proj2 (Nat.eqb_neq _ _) NA); cbn; rewrite ?(proj2 (Nat.eqb_neq _ _) NA); reflexivity.
  - intros y Dy. unfold img. cbn zeta.
    destruct (V1 (tp A B y)) as [A1 [A2 _]]. destruct (U1 (tp A B y)) as [B1 [B2 _]]. destruct (F6 (tp A B y)) as [C1 _].
    rewrite A1, B1, C1, A2, B2, (P6 y Dy).
    destruct (Nat.eq_dec y A) as [->|NA]; [|destruct (Nat.eq_dec y B) as [->|NB]].
    + rewrite tp_a, EB, V8 by auto. destruct L7B as [K1 K2]. rewrite K1, K2. auto.
    + rewrite tp_b, EA, V8 by auto. rewrite L7A. destruct L6A as [K1 K2]. rewrite K1, K2. auto.
    + rewrite tp_o by auto. destruct (L8 y Dy NA NB) as [K1 K2]. rewrite K1, K2, EO by auto. auto.
  - intros y Dy. rewrite V2, U2; auto.
    + intro K. apply otp_eq in K. assert (NA : y <> A) by congruence. assert (NB : y <> B) by congruence. rewrite tp_o in K by auto.
      apply Dy. apply (w_p _ _ W y B DB K).
    + intro K. apply Dy. apply (w_p _ _ W y A DA K).
  - intro y. destruct (V1 y) as [_ [_ [K1 K2]]]. destruct (U1 y) as [_ [_ [J1 J2]]]. destruct (F6 y) as [_ [_ [_ [G1 G2]]]]. split; congruence.
Qed.
End Swap.

Lemma swap_spec t A B D : wf (hp t) D -> D A -> D B -> A <> B -> par (hp t A) <> Some B ->
  (forall p, par (hp t A) = Some p -> par (hp t B) <> Some p) -> (root t = Some A -> par (hp t A) = None) ->
  (root t = Some B -> par (hp t B) = None /\ par (hp t A) <> None) ->
  let t' := swap t A B in
  root t' = otp A B (root t) /\ (forall y, D y -> img A B (hp t) (hp t') y) /\ (forall y, ~ D y -> hp t' y = hp t y) /\
  (forall y, nxt (hp t' y) = nxt (hp t y) /\ prv (hp t' y) = prv (hp t y)).
Proof. intros W DA DB AB NC NS H1 H2. exact (sw8 t A B D W DA DB AB NC NS H1 H2). Qed.

(** The links of a tree. *)
Lemma rep_rt h q t x : rep h q t -> rt t = Some x -> par (h x) = q.
Proof. destruct t; cbn; [discriminate|]. intros H K. injection K as <-. tauto. Qed.
Lemma rep_wf h t : forall q, rep h q t -> NoDup (ino t) -> (forall y, q = Some y -> ~ In y (ino t)) ->
  (forall y z, In y (ino t) -> lft (h y) = Some z -> In z (ino t) /\ par (h z) = Some y) /\
  (forall y z, In y (ino t) -> rgt (h y) = Some z -> In z (ino t) /\ par (h z) = Some y) /\
  (forall y z, In y (ino t) -> lft (h y) = Some z -> rgt (h y) <> Some z) /\
  (forall y z, In z (ino t) -> par (h z) = Some y -> (q = Some y /\ rt t = Some z) \/ In y (ino t) /\ (lft (h y) = Some z \/ rgt (h y) = Some z)) /\
  (forall y, In y (ino t) -> par (h y) <> Some y) /\ (forall y, In y (ino t) -> par (h y) = None -> q = None /\ rt t = Some y).
Proof.
  induction t as [|k l IHl x r IHr]; intros q R N Q; [cbn; repeat split; contradiction|].
  cbn [rep] in R. destruct R as [R1 [R2 [R3 [R4 [R5 R6]]]]]. cbn [ino] in *. assert (N0 := N). nds.
  destruct (IHl _ R5) as [L1 [L2 [L3 [L4 [L5 L6]]]]]; auto. { intros y K. injection K as <-. intro. dj. }
  destruct (IHr _ R6) as [Q1 [Q2 [Q3 [Q4 [Q5 Q6]]]]]; auto. { intros y K. injection K as <-. intro. dj. }
  assert (IN : forall y, In y (ino l ++ x :: ino r) -> In y (ino l) \/ y = x \/ In y (ino r)).
  { intros y K. apply in_app_iff in K. cbn in K. destruct K as [K|[K|K]]; auto. }
  split; [|split; [|split; [|split; [|split]]]].
  - intros y z Hy K. destruct (IN y Hy) as [J|[-> |J]].
    + destruct (L1 y z J K). split; auto. inn.
    + rewrite R2 in K. split; [apply in_or_app; left; now apply rt_in|now apply (rep_rt _ _ _ _ R5)].
    + destruct (Q1 y z J K). split; auto. inn.
  - intros y z Hy K. destruct (IN y Hy) as [J|[-> |J]].
    + destruct (L2 y z J K). split; auto. inn.
    + rewrite R3 in K. split; [apply in_or_app; right; right; now apply rt_in|now apply (rep_rt _ _ _ _ R6)].
    + destruct (Q2 y z J K). split; auto. inn.
  - intros y z Hy K. destruct (IN y Hy) as [J|[-> |J]]; eauto. rewrite R2 in K. rewrite R3. intro K2. apply rt_in in K, K2. dj.
  - intros y z Hz K. destruct (IN z Hz) as [J|[-> |J]].
    + right. destruct (L4 y z J K) as [[K1 K2]|[K1 K2]]; [|split; [inn|assumption]]. injection K1 as <-. split; [inn|]. left. congruence.
    + left. rewrite R4 in K. auto.
    + right. destruct (Q4 y z J K) as [[K1 K2]|[K1 K2]]; [|split; [inn|assumption]]. injection K1 as <-. split; [inn|]. right. congruence.
  - intros y Hy. destruct (IN y Hy) as [J|[-> |J]]; auto. rewrite R4. intro K. apply (Q x K). assumption.
  - intros y Hy K. destruct (IN y Hy) as [J|[-> |J]].
    + destruct (L6 y J K). discriminate.
    + rewrite R4 in K. auto.
    + destruct (Q6 y J K). discriminate.
Qed.
Lemma Rep_wf t f : Rep t f -> wf (hp t) (fun y => In y (ino f)).
Proof.
  intros [R1 [R2 R3]]. destruct (rep_wf _ _ _ R2 R3) as [A [B [C [D [F G]]]]]; [discriminate|].
  constructor; auto. intros y z Hz K. destruct (D y z Hz K) as [[K1 _]|K1]; [discriminate|auto].
Qed.
Lemma Rep_none t f y : Rep t f -> In y (ino f) -> par (hp t y) = None -> root t = Some y.
Proof.
  intros [R1 [R2 R3]] Hy K. destruct (rep_wf _ _ _ R2 R3) as [_ [_ [_ [_ [_ G]]]]]; [discriminate|].
  destruct (G y Hy K). congruence.
Qed.
Lemma Rep_root t f y : Rep t f -> root t = Some y -> In y (ino f) /\ par (hp t y) = None.
Proof.
  intros [R1 [R2 R3]] H. rewrite R1 in H. split; [now apply rt_in|now apply (rep_rt _ _ _ _ R2)].
Qed.

(** Two nodes of the tree, the second one below the first. *)
Lemma swap_in t f A B : Rep t f -> In A (ino f) -> In B (ino f) -> A <> B -> par (hp t A) <> Some B ->
  (forall p, par (hp t A) = Some p -> par (hp t B) <> Some p) -> root t <> Some B ->
  Rep (swap t A B) (ren A B f) /\ keeps (ino f) t (swap t A B).
Proof.
  intros R HA HB AB NC NS NR.
  destruct (swap_spec t A B (fun y => In y (ino f))) as [S1 [S2 [S3 S4]]]; auto.
  - now apply Rep_wf.
  - intro K. now apply (Rep_root t f).
  - intro K. contradiction.
  - split; [|split; assumption]. destruct R as [R1 [R2 R3]]. split; [|split].
    + rewrite S1, R1, rt_ren. reflexivity.
    + apply (rep_ren A B (hp t) _ f None); auto.
    + rewrite ino_ren. apply FinFun.Injective_map_NoDup; auto. intros x y. apply tp_inj.
Qed.
(** A node of the tree and one outside. *)
Lemma swap_out t f A B : Rep t f -> In A (ino f) -> ~ In B (ino f) ->
  lft (hp t B) = None -> rgt (hp t B) = None -> par (hp t B) = None ->
  let t' := swap t A B in
  Rep t' (ren A B f) /\ (forall y, ~ In y (ino f) -> y <> B -> hp t' y = hp t y) /\
  (forall y, nxt (hp t' y) = nxt (hp t y) /\ prv (hp t' y) = prv (hp t y)) /\
  lft (hp t' A) = None /\ rgt (hp t' A) = None /\ par (hp t' A) = None.
Proof.
  intros R HA HB L0 R0 P0. assert (AB : A <> B) by congruence. assert (Wf := Rep_wf _ _ R).
  destruct (swap_spec t A B (fun y => In y (ino f) \/ y = B)) as [S1 [S2 [S3 S4]]]; auto.
  - constructor.
    + intros y z [Hy| ->] K; [|congruence]. destruct (w_l _ _ Wf y z Hy K). auto.
    + intros y z [Hy| ->] K; [|congruence]. destruct (w_r _ _ Wf y z Hy K). auto.
    + intros y z [Hy| ->] K; [|congruence]. now apply (w_lr _ _ Wf).
    + intros y z [Hz| ->] K; [|congruence]. destruct (w_p _ _ Wf y z Hz K). auto.
    + intros y [Hy| ->]; [|congruence]. now apply (w_s _ _ Wf).
  - intro K. apply HB. apply (w_p _ _ Wf B A HA K).
  - intros p K. congruence.
  - intro K. now apply (Rep_root t f).
  - intro K. destruct (Rep_root t f B R K). contradiction.
  - destruct (S2 B (or_intror eq_refl)) as [_ [I1 [I2 I3]]]. rewrite tp_b in I1, I2, I3. rewrite L0 in I1. rewrite R0 in I2. rewrite P0 in I3.
    destruct R as [R1 [R2 R3]].
    split; [split; [|split]|split; [|split; [assumption|auto]]].
    + rewrite S1, R1, rt_ren. reflexivity.
    + apply (rep_ren A B (hp t) _ f None); auto.
    + rewrite ino_ren. apply FinFun.Injective_map_NoDup; auto. intros x y. apply tp_inj.
    + intros y H1 H2. apply S3. intros [K|K]; contradiction.
Qed.

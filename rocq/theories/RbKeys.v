(** The structure of RbRing.v with keys: rings of equal keys, in ascending order. *)
From Coq Require Import List Bool Arith Lia Permutation Sorted.
From Verif Require Import RbModel RbTree RbRing.
Import ListNotations.
Open Scope nat_scope.

(** The callback cmp orders the keys. *)
Record order {K : Type} (cmp : K -> K -> comparison) : Prop :=
 { o_sym : forall a b, cmp a b = CompOpp (cmp b a);
   o_trans : forall a b c, cmp a b <> Gt -> cmp b c = Lt -> cmp a c = Lt;
   o_eq : forall a b c, cmp a b = Eq -> cmp c a = cmp c b }.

Lemma gs_len gs : length gs <= length (nodes gs).
Proof. induction gs as [|[h ms] gs IH]; [cbn; lia|]. rewrite nodes_cons. cbn [length]. rewrite app_length. lia. Qed.

Section Keys.
Variable K : Type.
Variable cmp : K -> K -> comparison.
Hypothesis O : order cmp.

Definition lt_k (st : nat -> K) (y z : nat) : Prop := cmp (st y) (st z) = Lt.
Definition KI (st : nat -> K) (gs : list grp) : Prop :=
  StronglySorted (lt_k st) (heads gs) /\
  forall h ms m, In (h, ms) gs -> In m ms -> cmp (st m) (st h) = Eq.
Definition set_key (x : nat) (v : K) (f : nat -> K) : nat -> K := fun y => if y =? x then v else f y.

Lemma o_refl a : cmp a a = Eq.
Proof. assert (H := o_sym _ O a a). destruct (cmp a a); cbn in H; congruence. Qed.
Lemma o_swap a b : cmp a b = Gt -> cmp b a = Lt.
Proof. intro H. rewrite (o_sym _ O), H. reflexivity. Qed.
Lemma o_eql a b c : cmp a b = Eq -> cmp a c = cmp b c.
Proof. intro H. rewrite (o_sym _ O a c), (o_sym _ O b c). f_equal. now apply (o_eq _ O). Qed.
Lemma o_eqs a b : cmp a b = Eq -> cmp b a = Eq.
Proof. intro H. rewrite (o_sym _ O), H. reflexivity. Qed.
Lemma set_key_eq x v f : set_key x v f x = v.
Proof. unfold set_key. now rewrite Nat.eqb_refl. Qed.
Lemma set_key_ne x v f y : y <> x -> set_key x v f y = f y.
Proof. intro H. unfold set_key. now rewrite (proj2 (Nat.eqb_neq _ _) H). Qed.

Lemma ss_mid (R : nat -> nat -> Prop) l1 x l2 : StronglySorted R (l1 ++ x :: l2) <->
  StronglySorted R l1 /\ StronglySorted R l2 /\ (forall a b, In a l1 -> In b l2 -> R a b) /\ (forall a, In a l1 -> R a x) /\ (forall b, In b l2 -> R x b).
Proof.
  rewrite ss_app. split.
  - intros [H1 [H2 H3]]. apply StronglySorted_inv in H2. destruct H2 as [H2 H4]. rewrite Forall_forall in H4. repeat split; auto; intros; apply H3; cbn; auto.
  - intros [H1 [H2 [H3 [H4 H5]]]]. split; auto. split; [constructor; auto; now apply Forall_forall|]. intros a b Ha [<- |Hb]; auto.
Qed.
Lemma ss_ext_in (R R' : nat -> nat -> Prop) l : (forall a b, In a l -> In b l -> R a b -> R' a b) -> StronglySorted R l -> StronglySorted R' l.
Proof.
  induction l as [|a l IH]; intros E H; [constructor|]. apply StronglySorted_inv in H. destruct H as [H1 H2]. rewrite Forall_forall in H2. constructor.
  - apply IH; auto. intros u v Hu Hv. apply E; cbn; auto.
  - apply Forall_forall. intros b Hb. apply E; cbn; auto.
Qed.
Lemma KI_ext st st' gs : (forall y, In y (nodes gs) -> st' y = st y) -> KI st gs -> KI st' gs.
Proof.
  intros E [H1 H2]. split.
  - revert H1. apply ss_ext_in. unfold lt_k. intros a b Ha Hb. rewrite !E; auto; now apply heads_nodes.
  - intros h ms m Hg Hm. rewrite !E; [now apply (H2 h ms)| |]; apply (grp_nodes h ms); cbn; auto.
Qed.
Lemma KI_mono st gs k : KI st gs -> mono (fun y => cmp k (st y)) (heads gs).
Proof.
  intros [H _]. revert H. apply ss_ext_in. unfold lt_k. intros a b _ _ H. split; intro Q.
  - now apply (o_trans _ O _ (st a)).
  - destruct (cmp k (st a)) eqn:E; auto; exfalso; apply Q; apply (o_trans _ O _ (st a)); congruence.
Qed.
Lemma KI_node st gs y : KI st gs -> In y (nodes gs) -> exists h, In h (heads gs) /\ cmp (st y) (st h) = Eq.
Proof.
  intros [_ H] Hy. destruct (grp_split _ _ Hy) as [g1 [h [ms [g2 [-> Hm]]]]]. exists h. split.
  - rewrite heads_app. apply in_mid. auto.
  - destruct Hm as [<- |Hm]; [apply o_refl|]. apply (H h ms); auto. apply in_mid. auto.
Qed.

Lemma taken_nodes x gs gs' : taken x gs gs' -> Permutation (nodes gs) (x :: nodes gs').
Proof.
  intros [g1 [h [ms [g2 [-> H]]]]]. rewrite nodes_mid. destruct H as [[-> [-> ->]]|[[m [ms' [-> [-> ->]]]]|[m1 [m2 [-> ->]]]]].
  - reflexivity.
  - rewrite nodes_mid. reflexivity.
  - rewrite nodes_mid, <- !app_assoc. cbn [app]. rewrite <- Permutation_middle. apply perm_swap.
Qed.
Lemma added_nodes cm x gs gs' : added cm x gs gs' -> Permutation (nodes gs') (x :: nodes gs).
Proof.
  intros [[g1 [g2 [-> [-> _]]]]|[g1 [h [ms [g2 [-> [_ ->]]]]]]].
  - rewrite nodes_mid. reflexivity.
  - rewrite !nodes_mid. rewrite <- app_assoc. cbn [app]. rewrite <- Permutation_middle. apply perm_swap.
Qed.
Lemma taken_len x gs gs' : taken x gs gs' -> length gs' <= length gs.
Proof.
  intros [g1 [h [ms [g2 [-> H]]]]]. rewrite app_length. cbn. destruct H as [[-> [-> ->]]|[[m [ms' [-> [-> ->]]]]|[m1 [m2 [-> ->]]]]]; rewrite app_length; cbn; lia.
Qed.
Lemma taken_KI st x gs gs' : taken x gs gs' -> KI st gs -> KI st gs'.
Proof.
  intros [g1 [h [ms [g2 [-> H]]]]] [H1 H2]. rewrite heads_app in H1. change (heads ((h, ms) :: g2)) with (h :: heads g2) in H1. apply ss_mid in H1. destruct H1 as [S1 [S2 [S3 [S4 S5]]]].
  destruct H as [[-> [-> ->]]|[[m [ms' [-> [-> ->]]]]|[m1 [m2 [-> ->]]]]]; split.
  - rewrite heads_app. apply ss_app. auto.
  - intros h' ms' m Hg. apply H2. apply in_mid. auto.
  - rewrite heads_app. change (heads ((m, ms') :: g2)) with (m :: heads g2). apply ss_mid. repeat split; auto.
    + intros a Ha. unfold lt_k. rewrite (o_eq _ O (st m) (st h)); [now apply S4|]. apply (H2 h (m :: ms')); cbn; auto. apply in_mid. auto.
    + intros a Ha. unfold lt_k. rewrite (o_eql (st m) (st h)); [now apply S5|]. apply (H2 h (m :: ms')); cbn; auto. apply in_mid. auto.
  - intros h' ms2 m' Hg Hm. apply in_mid in Hg. destruct Hg as [Hg|Hg].
    + injection Hg as -> ->. rewrite (o_eql _ (st h)).
      * apply o_eqs. apply (H2 h (m :: ms')); cbn; auto. apply in_mid. auto.
      * apply (H2 h (m :: ms')); cbn; auto. apply in_mid. auto.
    + apply (H2 h' ms2); auto. apply in_mid. auto.
  - rewrite heads_app. change (heads ((h, m1 ++ m2) :: g2)) with (h :: heads g2). apply ss_mid. auto.
  - intros h' ms2 m' Hg Hm. apply in_mid in Hg. destruct Hg as [Hg|Hg].
    + injection Hg as -> ->. apply (H2 h (m1 ++ x :: m2)); [apply in_mid; auto|]. rewrite in_app_iff in *. cbn. tauto.
    + apply (H2 h' ms2); auto. apply in_mid. auto.
Qed.
Lemma added_KI st x v gs gs' : st x = v -> added (fun y => cmp v (st y)) x gs gs' -> KI st gs -> KI st gs'.
Proof.
  intros <- H HK. destruct H as [[g1 [g2 [-> [-> M]]]]|[g1 [h [ms [g2 [-> [E ->]]]]]]].
  - destruct (M (KI_mono st _ (st x) HK)) as [M1 M2]. destruct HK as [H1 H2]. rewrite heads_app in H1. apply ss_app in H1. destruct H1 as [S1 [S2 S3]]. split.
    + rewrite heads_app. change (heads ((x, []) :: g2)) with (x :: heads g2). apply ss_mid. split; [exact S1|]. split; [exact S2|]. split; [exact S3|]. split; [|exact M2].
      intros a Ha. apply o_swap. auto.
    + intros h ms m Hg Hm. apply in_mid in Hg. destruct Hg as [Hg|Hg]; [injection Hg as -> ->; contradiction|]. now apply (H2 h ms).
  - destruct HK as [H1 H2]. split; [rewrite heads_app in *; exact H1|].
    intros h' ms2 m' Hg Hm. apply in_mid in Hg. destruct Hg as [Hg|Hg].
    + injection Hg as -> ->. apply in_app_iff in Hm. destruct Hm as [Hm|[<- |[]]]; auto. apply (H2 h ms); auto. apply in_mid. auto.
    + apply (H2 h' ms2); auto. apply in_mid. auto.
Qed.
(** The key of a node whose ring is empty changes in place. *)
Lemma keep_KI st x v gs g1 g2 : NoDup (nodes gs) -> gs = g1 ++ (x, []) :: g2 -> KI st gs ->
  (forall y, In y (heads g1) -> cmp v (st y) = Gt) -> (forall y, In y (heads g2) -> cmp v (st y) = Lt) -> KI (set_key x v st) gs.
Proof.
  intros Nd -> HK G1 G2. apply (Permutation_NoDup (nodes_mid g1 x [] g2)) in Nd. cbn [app] in Nd. inversion Nd as [|? ? Nx _].
  assert (E : forall y, In y (nodes (g1 ++ g2)) -> set_key x v st y = st y) by (intros y Hy; apply set_key_ne; congruence).
  assert (Tk : taken x (g1 ++ (x, []) :: g2) (g1 ++ g2)) by (exists g1, x, [], g2; auto).
  apply (taken_KI st x _ _ Tk) in HK. apply (KI_ext st (set_key x v st)) in HK; auto.
  apply (added_KI _ x v (g1 ++ g2)); auto; [apply set_key_eq|]. left. exists g1, g2. split; auto. split; auto. intros _.
  split; intros y Hy; rewrite E; auto; rewrite nodes_app; apply in_or_app; [left|right]; now apply heads_nodes.
Qed.

(** Removing a node and inserting it again with another key. *)
Lemma again_spec fuel t st x v gs : Str t gs -> In x (nodes gs) -> length (nodes gs) + 4 <= fuel ->
  exists t1 t2 gs', remove fuel t x = Some t1 /\ insert fuel (fun y => cmp v (set_key x v st y)) t1 x = Some t2 /\
    Str t2 gs' /\ Permutation (nodes gs') (nodes gs) /\ (KI st gs -> KI (set_key x v st) gs').
Proof.
  intros S Hx Fu. assert (Ln : length gs <= length (nodes gs)).
  { apply gs_len. }
  destruct (rem_spec fuel t x gs S Hx) as [t1 [gs1 [H1 [H2 H3]]]]; [lia|].
  assert (P1 := taken_nodes _ _ _ H3). assert (L1 := taken_len _ _ _ H3).
  assert (Nd : NoDup (x :: nodes gs1)) by (apply (Permutation_NoDup P1); destruct S as [f S]; tauto).
  inversion Nd as [|? ? Nx _].
  destruct (ins_spec fuel (fun y => cmp v (set_key x v st y)) t1 x gs1 H2 Nx) as [t2 [gs2 [H4 [H5 H6]]]]; [lia|].
  exists t1, t2, gs2. split; [exact H1|]. split; [exact H4|]. split; [exact H5|]. split.
  - rewrite (added_nodes _ _ _ _ H6). now symmetry.
  - intro HK. apply (added_KI _ x v gs1); auto; [apply set_key_eq|]. apply (KI_ext st).
    + intros y Hy. apply set_key_ne. congruence.
    + now apply (taken_KI st x gs).
Qed.
End Keys.

(** Binary trees with colours, and what it means that the heap of RbModel.v holds one. *)
From Coq Require Import List Bool Arith Lia Permutation.
From Verif Require Import RbModel.
Import ListNotations.

Inductive tr := E | T (k : bool) (l : tr) (x : nat) (r : tr).
Fixpoint ino (t : tr) : list nat := match t with E => [] | T _ l x r => ino l ++ x :: ino r end.
Definition rt (t : tr) : option nat := match t with E => None | T _ _ x _ => Some x end.

(** The nodes of [t] have the colours and pointers of [t]; the parent of its root is [q]. *)
Fixpoint rep (h : nat -> node) (q : option nat) (t : tr) : Prop :=
  match t with
  | E => True
  | T k l x r => red (h x) = k /\ lft (h x) = rt l /\ rgt (h x) = rt r /\ par (h x) = q
                 /\ rep h (Some x) l /\ rep h (Some x) r
  end.
Definition Rep (t : rb) (f : tr) : Prop := root t = rt f /\ rep (hp t) None f /\ NoDup (ino f).

(** Colours: no red node has a red child, equally many black nodes on every path. *)
Definition blk (t : tr) : Prop := match t with T true _ _ _ => False | _ => True end.
Fixpoint bal (t : tr) (n : nat) : Prop :=
  match t with
  | E => n = 0
  | T true l _ r => bal l n /\ bal r n /\ blk l /\ blk r
  | T false l _ r => match n with 0 => False | S n => bal l n /\ bal r n end
  end.
Definition RB (t : tr) : Prop := blk t /\ exists n, bal t n.

(** A tree with a hole. *)
Inductive ctx := Top | CL (k : bool) (c : ctx) (x : nat) (r : tr) | CR (k : bool) (l : tr) (x : nat) (c : ctx).
Fixpoint plug (c : ctx) (f : tr) : tr :=
  match c with Top => f | CL k c x r => plug c (T k f x r) | CR k l x c => plug c (T k l x f) end.
Fixpoint cat (c d : ctx) : ctx := (* d inside c *)
  match d with Top => c | CL k d x r => CL k (cat c d) x r | CR k l x d => CR k l x (cat c d) end.
Definition cq (c : ctx) : option nat := match c with Top => None | CL _ _ x _ | CR _ _ x _ => Some x end.
Fixpoint top (c : ctx) (p : option nat) : option nat :=
  match c with Top => p | CL _ c x _ | CR _ _ x c => top c (Some x) end.
Fixpoint cn (c : ctx) : list nat :=
  match c with Top => [] | CL _ c x r => x :: ino r ++ cn c | CR _ l x c => x :: ino l ++ cn c end.
Fixpoint cl (c : ctx) : list nat := match c with Top => [] | CL _ c _ _ => cl c | CR _ l x c => cl c ++ ino l ++ [x] end.
Fixpoint cr (c : ctx) : list nat := match c with Top => [] | CL _ c x r => x :: ino r ++ cr c | CR _ _ _ c => cr c end.
Fixpoint crep (h : nat -> node) (p : option nat) (c : ctx) : Prop :=
  match c with
  | Top => True
  | CL k c x r => red (h x) = k /\ lft (h x) = p /\ rgt (h x) = rt r /\ par (h x) = cq c
                  /\ rep h (Some x) r /\ crep h (Some x) c
  | CR k l x c => red (h x) = k /\ lft (h x) = rt l /\ rgt (h x) = p /\ par (h x) = cq c
                  /\ rep h (Some x) l /\ crep h (Some x) c
  end.
Fixpoint depth (c : ctx) : nat := match c with Top => 0 | CL _ c _ _ | CR _ _ _ c => S (depth c) end.

Lemma plug_cat c d f : plug (cat c d) f = plug c (plug d f).
Proof. revert f. induction d; intro f; cbn; auto. Qed.
Lemma cl_cat c d : cl (cat c d) = cl c ++ cl d.
Proof. induction d; cbn; [now rewrite app_nil_r|assumption|]. rewrite IHd. now rewrite <- app_assoc. Qed.
Lemma cr_cat c d : cr (cat c d) = cr d ++ cr c.
Proof. induction d; cbn; auto. rewrite IHd. now rewrite <- app_assoc. Qed.
Lemma ino_plug c : forall f, ino (plug c f) = cl c ++ ino f ++ cr c.
Proof.
  induction c; intro f; cbn.
  - now rewrite app_nil_r.
  - rewrite IHc. cbn. rewrite <- !app_assoc. reflexivity.
  - rewrite IHc. cbn. rewrite <- !app_assoc. reflexivity.
Qed.
Lemma cn_perm c : Permutation (cl c ++ cr c) (cn c).
Proof.
  induction c; cbn; auto.
  - rewrite <- IHc. rewrite <- Permutation_middle. apply perm_skip.
    rewrite !app_assoc. apply Permutation_app_tail. apply Permutation_app_comm.
  - rewrite <- IHc. rewrite <- !app_assoc. cbn. rewrite app_assoc. rewrite <- Permutation_middle. apply perm_skip.
    rewrite !app_assoc. apply Permutation_app_tail. apply Permutation_app_comm.
Qed.
Lemma plug_perm c f : Permutation (ino (plug c f)) (ino f ++ cn c).
Proof. rewrite ino_plug, <- cn_perm. rewrite !app_assoc. apply Permutation_app_tail, Permutation_app_comm. Qed.
Lemma rt_plug c : forall f, rt (plug c f) = top c (rt f).
Proof. induction c; intro f; cbn; auto; now rewrite IHc. Qed.
Lemma rep_plug h c : forall f, rep h None (plug c f) <-> crep h (rt f) c /\ rep h (cq c) f.
Proof. induction c; intro f; cbn; [tauto| |]; rewrite IHc; cbn; tauto. Qed.

Lemma nd_app A (a b : list A) : NoDup (a ++ b) <-> NoDup a /\ NoDup b /\ forall x, In x a -> ~ In x b.
Proof.
  induction a as [|y a IH]; cbn.
  - split; [intro H; repeat split; auto; constructor|tauto].
  - split.
    + intro H. inversion H as [|? ? H1 H2]; subst. apply IH in H2. destruct H2 as [H2 [H3 H4]]. rewrite in_app_iff in H1.
      repeat split; auto. constructor; tauto. intros x [<-|Hx]; auto.
    + intros [H1 [H2 H3]]. inversion H1; subst. constructor.
      * rewrite in_app_iff. intros [K|K]; [contradiction|]. apply (H3 y); auto.
      * apply IH. repeat split; auto.
Qed.
Lemma nd_cons A (x : A) l : NoDup (x :: l) <-> ~ In x l /\ NoDup l.
Proof. split; [intro H; inversion H; auto|intros [H1 H2]; now constructor]. Qed.
Lemma Rep_plug t c f : Rep t (plug c f) <->
  root t = top c (rt f) /\ crep (hp t) (rt f) c /\ rep (hp t) (cq c) f /\ NoDup (ino f ++ cn c).
Proof.
  unfold Rep. rewrite rt_plug, rep_plug.
  assert (P := plug_perm c f). split.
  - intros [H1 [[H2 H3] H4]]. repeat split; auto. now apply (Permutation_NoDup P).
  - intros [H1 [H2 [H3 H4]]]. repeat split; auto. now apply (Permutation_NoDup (Permutation_sym P)).
Qed.
Lemma In_plug c f y : In y (ino (plug c f)) <-> In y (ino f) \/ In y (cn c).
Proof.
  rewrite <- in_app_iff. split; apply Permutation_in; [|apply Permutation_sym]; apply plug_perm.
Qed.

(** ** Frames *)
Definition same (h h' : nat -> node) (y : nat) : Prop :=
  red (h' y) = red (h y) /\ lft (h' y) = lft (h y) /\ rgt (h' y) = rgt (h y) /\ par (h' y) = par (h y).
Lemma same_eq h h' y : h' y = h y -> same h h' y.
Proof. intro H. unfold same. rewrite H. auto. Qed.
Lemma rep_ext h h' t : forall q, (forall y, In y (ino t) -> same h h' y) -> rep h q t -> rep h' q t.
Proof.
  induction t as [|k l IHl x r IHr]; intros q S R; [exact I|]. cbn in *. destruct R as [R1 [R2 [R3 [R4 [R5 R6]]]]].
  destruct (S x) as [S1 [S2 [S3 S4]]]; [apply in_elt|].
  rewrite S1, S2, S3, S4. repeat split; auto.
  - apply IHl; auto. intros y Hy. apply S. apply in_or_app. auto.
  - apply IHr; auto. intros y Hy. apply S. apply in_or_app. right. right. auto.
Qed.
Lemma crep_ext h h' c : forall p, (forall y, In y (cn c) -> same h h' y) -> crep h p c -> crep h' p c.
Proof.
  induction c as [|k c IHc x r|k l x c IHc]; intros p S R; [exact I| |]; cbn in *;
    destruct R as [R1 [R2 [R3 [R4 [R5 R6]]]]]; destruct (S x) as [S1 [S2 [S3 S4]]]; auto;
    rewrite S1, S2, S3, S4; repeat split; auto;
    try (eapply rep_ext; [|eassumption]; intros y Hy; apply S; right; apply in_or_app; auto);
    apply IHc; auto; intros y Hy; apply S; right; apply in_or_app; auto.
Qed.
(** A subtree gets another parent. *)
Lemma rep_re h h' q q' t : NoDup (ino t) ->
  (forall y, In y (ino t) -> red (h' y) = red (h y) /\ lft (h' y) = lft (h y) /\ rgt (h' y) = rgt (h y)) ->
  (forall y, In y (ino t) -> rt t <> Some y -> par (h' y) = par (h y)) ->
  (forall y, rt t = Some y -> par (h' y) = q') -> rep h q t -> rep h' q' t.
Proof.
  destruct t as [|k l x r]; intros N S S2 S3 R; [exact I|]. cbn in *. destruct R as [R1 [R2 [R3 [R4 [R5 R6]]]]].
  destruct (S x) as [K1 [K2 K3]]; [apply in_elt|]. rewrite K1, K2, K3, (S3 x); auto.
  apply nd_app in N. rewrite nd_cons in N. destruct N as [N1 [[N2 N3] N4]].
  repeat split; auto.
  - apply (rep_ext h); auto. intros y Hy. assert (x <> y) by (intros ->; apply (N4 y); cbn; auto).
    assert (Hi : In y (ino l ++ x :: ino r)) by (apply in_or_app; auto).
    destruct (S y Hi) as [J1 [J2 J3]]. repeat split; auto. apply S2; auto. congruence.
  - apply (rep_ext h); auto. intros y Hy. assert (x <> y) by (intros ->; auto).
    assert (Hi : In y (ino l ++ x :: ino r)) by (apply in_or_app; cbn; auto).
    destruct (S y Hi) as [J1 [J2 J3]]. repeat split; auto. apply S2; auto. congruence.
Qed.

(** What a function on the tree leaves alone. *)
Definition keeps (l : list nat) (t t' : rb) : Prop :=
  (forall y, ~ In y l -> hp t' y = hp t y) /\
  (forall y, nxt (hp t' y) = nxt (hp t y) /\ prv (hp t' y) = prv (hp t y)).
Lemma keeps_refl l t : keeps l t t.
Proof. split; auto. Qed.
Lemma keeps_trans l l' t t1 t2 : (forall y, In y l' -> In y l) -> keeps l t t1 -> keeps l' t1 t2 -> keeps l t t2.
Proof.
  intros S [H1 H2] [H3 H4]. split.
  - intros y Hy. rewrite H3, H1; auto.
  - intro y. destruct (H2 y), (H4 y). split; congruence.
Qed.

Definition tame (f : node -> node) : Prop := forall n, nxt (f n) = nxt n /\ prv (f n) = prv n.
Lemma mod1_eq x f t : hp (mod1 x f t) x = f (hp t x).
Proof. cbn. now rewrite Nat.eqb_refl. Qed.
Lemma mod1_ne x f t y : y <> x -> hp (mod1 x f t) y = hp t y.
Proof. intro H. cbn. now rewrite (proj2 (Nat.eqb_neq _ _) H). Qed.
Lemma keeps_mod1 l x f t : tame f -> In x l -> keeps l t (mod1 x f t).
Proof.
  intros F H. split; intro y.
  - intro Hy. apply mod1_ne. congruence.
  - cbn. destruct (Nat.eqb_spec y x); auto.
Qed.
Lemma keeps_modp l p f t : tame f -> (forall x, p = Some x -> In x l) -> keeps l t (modp p f t).
Proof. intros F H. destruct p; cbn; [apply keeps_mod1; auto|apply keeps_refl]. Qed.
Lemma tame_red b : tame (set_red b). Proof. intro; split; reflexivity. Qed.
Lemma tame_lft b : tame (set_lft b). Proof. intro; split; reflexivity. Qed.
Lemma tame_rgt b : tame (set_rgt b). Proof. intro; split; reflexivity. Qed.
Lemma tame_par b : tame (set_par b). Proof. intro; split; reflexivity. Qed.
Global Hint Resolve tame_red tame_lft tame_rgt tame_par keeps_refl : rbt.

Lemma rt_in t x : rt t = Some x -> In x (ino t).
Proof. destruct t; cbn; [discriminate|]. intro H. injection H as <-. apply in_elt. Qed.
Lemma cq_in c x : cq c = Some x -> In x (cn c).
Proof. destruct c; cbn; [discriminate| |]; intro H; injection H as <-; cbn; auto. Qed.
Lemma peq_refl p : peq p p = true.
Proof. destruct p; cbn; auto. apply Nat.eqb_refl. Qed.
Lemma peq_spec p q : reflect (p = q) (peq p q).
Proof.
  destruct p as [x|], q as [y|]; cbn; try (constructor; congruence). destruct (Nat.eqb_spec x y); constructor; congruence.
Qed.

(** ocf_rb_tree_update_parent replaces the pointer in the hole. *)
Lemma up_spec t c x p' : crep (hp t) (Some x) c -> root t = top c (Some x) -> NoDup (x :: cn c) ->
  let t' := update_parent t (cq c) (Some x) p' in
  crep (hp t') p' c /\ root t' = top c p' /\
  (forall y, cq c <> Some y -> hp t' y = hp t y) /\
  (forall y, red (hp t' y) = red (hp t y) /\ par (hp t' y) = par (hp t y)) /\ keeps (cn c) t t'.
Proof.
  intros C R N. unfold update_parent. destruct c as [|k c q r|k l q c]; cbn [cq top crep cn] in *.
  - rewrite R, peq_refl. cbn. repeat split; auto.
  - destruct C as [C1 [C2 [C3 [C4 [C5 C6]]]]]. rewrite C2, peq_refl.
    apply nd_cons in N. destruct N as [N0 N]. apply nd_cons in N. destruct N as [N1 N]. rewrite in_app_iff in N1.
    assert (F : forall y, y <> q -> hp (mod1 q (set_lft p') t) y = hp t y) by (intros; now apply mod1_ne).
    repeat split.
    + now rewrite mod1_eq.
    + now rewrite mod1_eq.
    + now rewrite mod1_eq.
    + now rewrite mod1_eq.
    + eapply rep_ext; [|eassumption]. intros y Hy. apply same_eq, F. intros ->. auto.
    + eapply crep_ext; [|eassumption]. intros y Hy. apply same_eq, F. intros ->. auto.
    + exact R.
    + intros y Hy. apply F. congruence.
    + cbn. now destruct (Nat.eqb_spec y q).
    + cbn. now destruct (Nat.eqb_spec y q).
    + intros y Hy. apply F. intros ->. apply Hy. cbn. auto.
    + cbn. now destruct (Nat.eqb_spec y q).
    + cbn. now destruct (Nat.eqb_spec y q).
  - destruct C as [C1 [C2 [C3 [C4 [C5 C6]]]]].
    apply nd_cons in N. destruct N as [N0 N]. apply nd_cons in N. destruct N as [N1 N]. rewrite in_app_iff in N1.
    destruct (peq_spec (lft (hp t q)) (Some x)) as [K|K].
    { exfalso. apply N0. right. apply in_or_app. left. apply rt_in. congruence. }
    rewrite C3, peq_refl.
    assert (F : forall y, y <> q -> hp (mod1 q (set_rgt p') t) y = hp t y) by (intros; now apply mod1_ne).
    repeat split.
    + now rewrite mod1_eq.
    + now rewrite mod1_eq.
    + now rewrite mod1_eq.
    + now rewrite mod1_eq.
    + eapply rep_ext; [|eassumption]. intros y Hy. apply same_eq, F. intros ->. auto.
    + eapply crep_ext; [|eassumption]. intros y Hy. apply same_eq, F. intros ->. auto.
    + exact R.
    + intros y Hy. apply F. congruence.
    + cbn. now destruct (Nat.eqb_spec y q).
    + cbn. now destruct (Nat.eqb_spec y q).
    + intros y Hy. apply F. intros ->. apply Hy. cbn. auto.
    + cbn. now destruct (Nat.eqb_spec y q).
    + cbn. now destruct (Nat.eqb_spec y q).
Qed.

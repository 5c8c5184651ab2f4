(** Property C59: the red-black tree of utils_rbtree.c is a balanced search tree.

    Any sequence of insertions of absent nodes and removals of present nodes, with any keys and
    any number of equal keys, runs without touching a null pointer; a look-up then finds a present
    node with the key exactly when there is one, and no path in the tree is longer than twice the
    logarithm of the number of nodes.

    The specification is the list of present nodes. *)
From Coq Require Import List Bool Arith Lia Permutation Sorted.
From Verif Require Import RbModel RbTree RbRot RbIns RbDel RbRing RbKeys.
Import ListNotations.
Open Scope nat_scope.

(** ** Specification *)
Inductive op := Ins (x : nat) | Del (x : nat).
Definition spec1 (s : list nat) (o : op) : list nat := match o with Ins x => x :: s | Del x => List.remove Nat.eq_dec x s end.
Definition present (l : list op) : list nat := fold_left spec1 l [].
Fixpoint legal (s : list nat) (l : list op) : Prop :=
  match l with
  | [] => True
  | o :: l => match o with Ins x => ~ In x s | Del x => In x s end /\ legal (spec1 s o) l
  end.
(** [walk t k x]: the node [x] is reached from the root in [k] steps. *)
Inductive walk (t : rb) : nat -> nat -> Prop :=
| walk_root x : root t = Some x -> walk t 0 x
| walk_l k x y : walk t k x -> lft (hp t x) = Some y -> walk t (S k) y
| walk_r k x y : walk t k x -> rgt (hp t x) = Some y -> walk t (S k) y.

(** ** The implementation *)
Definition impl1 {K} (cmp : K -> K -> comparison) (key : nat -> K) (fuel : nat) (t : rb) (o : op) : option rb :=
  match o with
  | Ins x => insert fuel (fun y => cmp (key x) (key y)) t x
  | Del x => RbModel.remove fuel t x
  end.
Fixpoint impl {K} (cmp : K -> K -> comparison) (key : nat -> K) (fuel : nat) (t : rb) (l : list op) : option rb :=
  match l with [] => Some t | o :: l => bindo (impl1 cmp key fuel t o) (fun t => impl cmp key fuel t l) end.
(** ocf_rb_tree_init (utils_rbtree.c:12-18); the memory of the nodes is arbitrary. *)
Definition empty (m : nat -> node) : rb := {| root := None; hp := m |}.
(** ocf_rb_tree_list_find_first (utils_rbtree.c:448-452): the head itself. *)
Definition first (t : rb) (h : nat) : option (option nat) := Some (Some h).

(** ** Proofs *)
Lemma remove_perm x : forall s, NoDup s -> In x s -> Permutation s (x :: List.remove Nat.eq_dec x s).
Proof.
  induction s as [|a s IH]; intros Nd H; [contradiction|]. apply nd_cons in Nd. destruct Nd as [N1 N2]. cbn. destruct (Nat.eq_dec x a) as [<- |Ha].
  - now rewrite notin_remove.
  - destruct H as [H|H]; [congruence|]. rewrite (IH N2 H) at 1. apply perm_swap.
Qed.
Lemma Str_empty m : Str (empty m) [].
Proof.
  exists E. split; [split; [reflexivity|split; [exact I|constructor]]|]. split; [split; [exact I|now exists 0]|].
  split; [reflexivity|]. split; [constructor|]. intros ? ? [].
Qed.
Lemma impl_spec K (cmp : K -> K -> comparison) (O : order cmp) key fuel : forall l t gs s, Str t gs -> KI K cmp key gs -> Permutation (nodes gs) s -> legal s l ->
  length s + length l + 4 <= fuel ->
  exists t' gs', impl cmp key fuel t l = Some t' /\ Str t' gs' /\ KI K cmp key gs' /\ Permutation (nodes gs') (fold_left spec1 l s).
Proof.
  induction l as [|o l IH]; intros t gs s S HK P L Fu; cbn [impl fold_left].
  - exists t, gs. auto.
  - cbn [legal length] in *. destruct L as [L1 L2]. assert (Lg := gs_len gs). assert (Lp := Permutation_length P).
    assert (Nd : NoDup s) by (apply (Permutation_NoDup P); destruct S as [f S]; tauto).
    destruct o as [x|x]; cbn [impl1 spec1] in *.
    + destruct (ins_spec fuel (fun y => cmp (key x) (key y)) t x gs S) as [t1 [g1 [H1 [H2 H3]]]]; [intro Q; apply L1, (Permutation_in x P), Q|lia|].
      rewrite H1. cbn [bindo]. apply (IH t1 g1 (x :: s)); auto.
      * now apply (added_KI K cmp O key x (key x) gs).
      * rewrite (added_nodes _ _ _ _ H3). now rewrite P.
      * cbn. lia.
    + destruct (rem_spec fuel t x gs S) as [t1 [g1 [H1 [H2 H3]]]]; [apply (Permutation_in x (Permutation_sym P)), L1|lia|].
      rewrite H1. cbn [bindo]. assert (Rp := remove_perm x s Nd L1). apply (IH t1 g1 (List.remove Nat.eq_dec x s)); auto.
      * now apply (taken_KI K cmp O key x gs).
      * apply (Permutation_cons_inv (a := x)). rewrite <- (taken_nodes _ _ _ H3), P. exact Rp.
      * apply Permutation_length in Rp. cbn in Rp. lia.
Qed.

Fixpoint hgt (f : tr) : nat := match f with E => 0 | T _ l _ r => S (Nat.max (hgt l) (hgt r)) end.
Lemma hgt_bal f : forall n, bal f n -> hgt f <= 2 * n + 1 /\ (blk f -> hgt f <= 2 * n).
Proof.
  induction f as [|k l IHl x r IHr]; intros n B; cbn in B |- *; [lia|]. destruct k.
  - destruct B as [B1 [B2 [B3 B4]]]. destruct (IHl n B1) as [_ H1]. destruct (IHr n B2) as [_ H2]. specialize (H1 B3). specialize (H2 B4). split; [lia|contradiction].
  - destruct n as [|n]; [contradiction|]. destruct B as [B1 B2]. destruct (IHl n B1) as [H1 _]. destruct (IHr n B2) as [H2 _]. split; intros; lia.
Qed.
Lemma bal_size f : forall n, bal f n -> 2 ^ n <= S (length (ino f)).
Proof.
  induction f as [|k l IHl x r IHr]; intros n B; cbn in B |- *; [subst n; cbn; lia|]. rewrite app_length. cbn. destruct k.
  - destruct B as [B1 [B2 _]]. apply IHl in B1. lia.
  - destruct n as [|n]; [contradiction|]. destruct B as [B1 B2]. apply IHl in B1. apply IHr in B2. cbn. lia.
Qed.
Lemma hgt_plug c : forall f, depth c + hgt f <= hgt (plug c f).
Proof. induction c as [|k c IH x r|k l x c IH]; intro f; cbn [depth plug]; [lia|specialize (IH (T k f x r))|specialize (IH (T k l x f))]; cbn [hgt] in IH; lia. Qed.
Lemma walk_plug t f k x : Rep t f -> walk t k x -> exists c b l r, f = plug c (T b l x r) /\ depth c = k.
Proof.
  intros R W. induction W as [x H|k x y W [c [b [l [r [-> D]]]]] H|k x y W [c [b [l [r [-> D]]]]] H].
  - destruct f as [|b l y r]; [destruct R as [R _]; rewrite R in H; discriminate|]. exists Top, b, l, r. destruct R as [R _]. rewrite R in H. injection H as ->. auto.
  - destruct (at_f _ _ _ _ _ _ R) as [_ [X _]]. rewrite X in H. destruct l as [|b' l1 z l2]; [discriminate|]. injection H as ->. exists (CL b c x r), b', l1, l2. cbn. auto.
  - destruct (at_f _ _ _ _ _ _ R) as [_ [_ [X _]]]. rewrite X in H. destruct r as [|b' l1 z l2]; [discriminate|]. injection H as ->. exists (CR b l x c), b', l1, l2. cbn. auto.
Qed.
Lemma height_bound t gs k x : Str t gs -> walk t k x -> S k <= 2 * Nat.log2 (S (length (nodes gs))).
Proof.
  intros [f [R [[B1 [n B2]] [If _]]]] W. destruct (walk_plug t f k x R W) as [c [b [l [r [Ef D]]]]].
  assert (H := hgt_plug c (T b l x r)). rewrite <- Ef in H. destruct (hgt_bal f n B2) as [_ H2]. specialize (H2 B1).
  assert (H3 := bal_size f n B2). rewrite If in H3. unfold heads in H3. rewrite map_length in H3. assert (H4 := gs_len gs).
  assert (H5 : n <= Nat.log2 (S (length (nodes gs)))) by (apply Nat.log2_le_pow2; [apply Nat.lt_0_succ|apply (Nat.le_trans _ _ _ H3), le_n_S, H4]).
  clear H3. cbn [hgt] in H. lia.
Qed.

(** ** Theorems *)
(** Every legal sequence of operations runs to its end, and a look-up finds a present node with
    the searched key exactly when there is one. *)
Theorem C59_search_tree : forall K (cmp : K -> K -> comparison) (key : nat -> K) (m : nat -> node) l fuel,
  order cmp -> legal [] l -> length l + 4 <= fuel ->
  exists t, impl cmp key fuel (empty m) l = Some t /\
  forall k, exists o, find fuel (fun y => cmp k (key y)) first t = Some o /\
    match o with
    | Some x => In x (present l) /\ cmp k (key x) = Eq
    | None => forall x, In x (present l) -> cmp k (key x) <> Eq
    end.
Proof.
  intros K cmp key m l fuel O L Fu.
  destruct (impl_spec K cmp O key fuel l (empty m) [] [] (Str_empty m)) as [t [gs [H1 [H2 [H3 H4]]]]]; auto.
  { split; [constructor|intros ? ? ? []]. }
  exists t. split; [exact H1|]. intro k. unfold find. fold (present l) in H4.
  assert (Sz : forall l s, length (fold_left spec1 l s) <= length s + length l).
  { clear. induction l as [|[x|x] l IH]; intro s; cbn; [lia| |]; specialize (IH (spec1 s (Ins x))) as I1; specialize (IH (spec1 s (Del x))) as I2; cbn in *; [lia|].
    assert (G := remove_length_le Nat.eq_dec s x). lia. }
  destruct (search_spec fuel (fun y => cmp k (key y)) t gs H2) as [o [S1 S2]].
  { specialize (Sz l []). fold (present l) in Sz. apply Permutation_length in H4. assert (G := gs_len gs). cbn in Sz. lia. }
  rewrite S1. cbn [bindo]. destruct o as [i|].
  - exists (Some i). destruct S2 as [S2 S3]. split; [now destruct (list_empty i t)|]. split; auto. apply (Permutation_in i H4), heads_nodes, S2.
  - exists None. split; [reflexivity|]. intros x Hx Ex. apply (Permutation_in x (Permutation_sym H4)) in Hx.
    destruct (KI_node K cmp O key gs x H3 Hx) as [h [Hh Eh]]. apply (S2 (KI_mono K cmp O key gs k H3) h Hh). rewrite <- Ex. symmetry. now apply (o_eq _ O).
Qed.

(** The tree is balanced: with n present nodes no path has more than 2 * log2 (n + 1) nodes. *)
Theorem C59_balanced : forall K (cmp : K -> K -> comparison) (key : nat -> K) (m : nat -> node) l fuel t,
  order cmp -> legal [] l -> length l + 4 <= fuel -> impl cmp key fuel (empty m) l = Some t ->
  forall k x, walk t k x -> S k <= 2 * Nat.log2 (S (length (present l))).
Proof.
  intros K cmp key m l fuel t O L Fu E k x W.
  destruct (impl_spec K cmp O key fuel l (empty m) [] [] (Str_empty m)) as [t' [gs [H1 [H2 [H3 H4]]]]]; auto.
  { split; [constructor|intros ? ? ? []]. }
  assert (t' = t) by congruence. subst t'. fold (present l) in H4. rewrite <- (Permutation_length H4). now apply (height_bound t gs k x).
Qed.

(** ocf_rb_tree_can_update: if it allows a present node to get a new key, not smaller than its
    old one, in place, then with the new key and the tree as it is a look-up still finds a
    present node with the searched key exactly when there is one. *)
Definition rekeyed {K} (key : nat -> K) (x : nat) (v : K) : nat -> K := fun y => if y =? x then v else key y.
Theorem C59_update : forall K (cmp : K -> K -> comparison) (key : nat -> K) (m : nat -> node) l fuel x v,
  order cmp -> legal [] l -> length l + 4 <= fuel -> In x (present l) -> cmp v (key x) <> Lt ->
  exists t b, impl cmp key fuel (empty m) l = Some t /\ can_update fuel (fun y => cmp v (key y)) t x = Some b /\
  (b = true -> forall k, exists o, find fuel (fun y => cmp k (rekeyed key x v y)) first t = Some o /\
    match o with
    | Some y => In y (present l) /\ cmp k (rekeyed key x v y) = Eq
    | None => forall y, In y (present l) -> cmp k (rekeyed key x v y) <> Eq
    end).
Proof.
  intros K cmp key m l fuel x v O L Fu HX HV.
  destruct (impl_spec K cmp O key fuel l (empty m) [] [] (Str_empty m)) as [t [gs [H1 [H2 [H3 H4]]]]]; auto.
  { split; [constructor|intros ? ? ? []]. }
  fold (present l) in H4.
  assert (Sz : forall l s, length (fold_left spec1 l s) <= length s + length l).
  { clear. induction l as [|[x|x] l IH]; intro s; cbn; [lia| |]; specialize (IH (spec1 s (Ins x))) as I1; specialize (IH (spec1 s (Del x))) as I2; cbn in *; [lia|].
    assert (G := remove_length_le Nat.eq_dec s x). lia. }
  assert (Lg : length gs < fuel).
  { specialize (Sz l []). fold (present l) in Sz. apply Permutation_length in H4 as P4. assert (G := gs_len gs). cbn in Sz. lia. }
  destruct (can_update_spec fuel (fun y => cmp v (key y)) t x gs H2) as [b [C1 C2]]; [apply (Permutation_in x (Permutation_sym H4)), HX|exact Lg|].
  exists t, b. split; [exact H1|]. split; [exact C1|]. intros E k. destruct (C2 E) as [g1 [g2 [Eg M]]].
  destruct (M (KI_mono K cmp O key gs v H3) HV) as [M1 M2].
  assert (H3' : KI K cmp (rekeyed key x v) gs).
  { apply (keep_KI K cmp O key x v gs g1 g2); auto. destruct H2 as [f H2]. tauto. }
  unfold find. destruct (search_spec fuel (fun y => cmp k (rekeyed key x v y)) t gs H2 Lg) as [o [S1 S2]].
  rewrite S1. cbn [bindo]. destruct o as [i|].
  - exists (Some i). destruct S2 as [S2 S3]. split; [now destruct (list_empty i t)|]. split; auto. apply (Permutation_in i H4), heads_nodes, S2.
  - exists None. split; [reflexivity|]. intros y Hy Ey. apply (Permutation_in y (Permutation_sym H4)) in Hy.
    destruct (KI_node K cmp O _ gs y H3' Hy) as [h [Hh Eh]]. apply (S2 (KI_mono K cmp O _ gs k H3') h Hh). rewrite <- Ey. symmetry. now apply (o_eq _ O).
Qed.

(** Twelve insertions in ascending order (every key twice) and three removals. *)
Lemma nat_order : order Nat.compare.
Proof.
  split.
  - intros a b. apply Nat.compare_antisym.
  - intros a b c. rewrite !Nat.compare_lt_iff, Nat.compare_ngt_iff. lia.
  - intros a b c H. apply Nat.compare_eq_iff in H. now subst.
Qed.
Definition ex_ops : list op := map Ins (seq 0 12) ++ [Del 4; Del 5; Del 0].
Definition m0 : nat -> node := fun _ => {| red := true; lft := Some 1; rgt := Some 2; par := Some 3; nxt := 4; prv := 5 |}.
Definition ex_t : option rb := impl Nat.compare Nat.div2 20 (empty m0) ex_ops.
Definition ex_find (k : nat) : option (option nat) := bindo ex_t (find 20 (fun y => Nat.compare k (Nat.div2 y)) first).
Example ex_legal : legal [] ex_ops.
Proof. unfold ex_ops. cbn -[In]. repeat split; try (cbn; lia). Qed.
Example ex_present : present ex_ops = [11; 10; 9; 8; 7; 6; 3; 2; 1].
Proof. reflexivity. Qed.
(** Key 2 has gone with nodes 4 and 5; key 0 is now held by node 1. *)
Example ex_finds : map ex_find [0; 1; 2; 3; 4; 5; 6] = [Some (Some 1); Some (Some 2); Some None; Some (Some 6); Some (Some 8); Some (Some 10); Some None].
Proof. vm_compute. reflexivity. Qed.
(** A path of three nodes; the bound for nine nodes is six. *)
Example ex_walk : exists t, ex_t = Some t /\ exists x, walk t 2 x.
Proof.
  assert (H : option_map (fun t => (root t, rgt (hp t 2), rgt (hp t 8))) ex_t = Some (Some 2, Some 8, Some 10)) by (vm_compute; reflexivity).
  destruct ex_t as [t|]; [|discriminate H]. exists t. split; [reflexivity|]. cbn in H. injection H as H1 H2 H3.
  exists 10. eapply walk_r; [eapply walk_r; [apply walk_root; eassumption|eassumption]|eassumption].
Qed.

(** Node 1, alone with key 0, may stay with key 0 but not pass node 2 and 3 with key 1; node 8
    shares its key with node 9 and may not change it in place. *)
Example ex_update : map (fun p => bindo ex_t (fun t => can_update 20 (fun y => Nat.compare (snd p) (Nat.div2 y)) t (fst p)))
    [(1, 0); (1, 1); (1, 2); (8, 4); (8, 5)] = [Some true; Some false; Some false; Some false; Some false].
Proof. vm_compute. reflexivity. Qed.

(** Keys 0, 10, ..., 70: key 30 may become 35 but not 45, key 0 not 15, key 70 may become 99. *)
Example ex_update_grow :
  map (fun p => bindo (impl Nat.compare (fun x => 10 * x) 20 (empty m0) (map Ins (seq 0 8)))
                      (fun t => can_update 20 (fun y => Nat.compare (snd p) (10 * y)) t (fst p)))
    [(3, 35); (3, 45); (0, 15); (7, 99)] = [Some true; Some false; Some false; Some true].
Proof. vm_compute. reflexivity. Qed.

Print Assumptions C59_search_tree.
Print Assumptions C59_balanced.
Print Assumptions C59_update.

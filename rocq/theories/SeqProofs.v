(** The trackers of sequential streams (SeqModel.v) keep their structure, and their keys as long
    as no stream is promoted away. *)
From Coq Require Import List Bool NArith Arith Lia Permutation.
From Verif Require Import RbModel RbTree RbRing RbKeys SeqModel.
Import ListNotations.
Open Scope nat_scope.

(** ** The order of streams *)
Lemma cmp_eq a b : cmp a b = Eq <-> valid a = valid b /\ rw a = rw b /\ last a = last b.
Proof.
  unfold cmp. destruct (valid a), (valid b), (rw a), (rw b); cbn; try (split; [discriminate|intros [? [? _]]; discriminate]);
    rewrite N.compare_eq_iff; tauto.
Qed.
Lemma cmp_order : order cmp.
Proof.
  split.
  - intros a b. unfold cmp. destruct (valid a), (valid b), (rw a), (rw b); cbn; auto; apply N.compare_antisym.
  - intros a b c. unfold cmp. destruct (valid a), (valid b), (valid c), (rw a), (rw b), (rw c); cbn; try congruence; rewrite !N.compare_lt_iff;
      intros H1 H2; rewrite N.compare_gt_iff in H1; lia.
  - intros a b c H. apply cmp_eq in H. destruct H as [H1 [H2 H3]]. unfold cmp. now rewrite H1, H2, H3.
Qed.
Notation KS := (KI stream cmp).

(** ** The ring *)
Lemma ring_max_spec t st h first : forall ms i fuel best, path (hp t) i ms h -> nxt (hp t h) = first -> ~ In first ms -> first <> h -> length ms + 2 <= fuel ->
  i <> h -> exists m, ring_max fuel t st first i best = Some (Some m) /\ (In m (i :: ms) \/ best = Some m).
Proof.
  induction ms as [|j ms IH]; intros i fuel best P F Nf Fh Fu Ih; (destruct fuel as [|[|fuel]]; cbn [length] in Fu; [lia|lia|]); cbn [ring_max].
  - destruct P as [P _]. rewrite P. rewrite (proj2 (Nat.eqb_neq h first)) by congruence. rewrite F, Nat.eqb_refl.
    eexists. split; [reflexivity|]. destruct best as [b|]; destruct (bytes _ <? bytes _)%N; cbn; auto.
  - destruct P as [P1 [P2 P3]]. rewrite P1. cbn in Nf. rewrite (proj2 (Nat.eqb_neq j first)) by tauto.
    set (m0 := if (bytes _ <? bytes _)%N then i else _).
    assert (Hm0 : m0 = i \/ best = Some m0) by (unfold m0; destruct best as [b|]; destruct (bytes _ <? bytes _)%N; auto).
    destruct (Nat.eq_dec j h) as [-> |Hj].
    + cbn [ring_max]. rewrite F, Nat.eqb_refl. eexists. split; [reflexivity|]. cbn. intuition.
    + destruct (IH j (S fuel) (Some m0)) as [m [H1 H2]]; auto; [lia|]. change (ring_max (S fuel) t st first j (Some m0)) with
        (if Nat.eqb (nxt (hp t j)) first then Some (Some m0)
         else let m := m0 in let m := if (bytes (st m) <? bytes (st j))%N then j else m in ring_max fuel t st first (nxt (hp t j)) (Some m)) in H1.
      exists m. split; [exact H1|]. destruct H2 as [H2|H2]; [cbn in *; auto|]. injection H2 as <-. cbn. intuition.
Qed.
Lemma list_find_spec fuel st t h m ms : ring (hp t) h (m :: ms) -> NoDup (h :: m :: ms) -> length ms + 3 <= fuel ->
  exists x, list_find fuel st t h = Some (Some x) /\ In x (m :: ms).
Proof.
  intros [R1 [R2 R3]] Nd Fu. unfold list_find. rewrite R1. apply nd_cons in Nd. destruct Nd as [N1 N2]. apply nd_cons in N2. destruct N2 as [N3 N4]. cbn in N1.
  destruct (ring_max_spec t st h m ms m fuel None R3 R1) as [x [H1 [H2|H2]]]; try tauto; try lia; eauto.
  discriminate.
Qed.

(** ** A tracker of n streams *)
Definition Tr (n : nat) (s : sc) (gs : list grp) : Prop :=
  Str (tree s) gs /\ Permutation (nodes gs) (seq 0 n) /\ Permutation (lru s) (seq 0 n).

Lemma Tr_len n s gs : Tr n s gs -> length (nodes gs) = n.
Proof. intros [_ [H _]]. rewrite (Permutation_length H). apply seq_length. Qed.
Lemma Tr_in n s gs x : Tr n s gs -> In x (nodes gs) <-> x < n.
Proof.
  intros [_ [H _]]. split; intro K.
  - apply (Permutation_in x H) in K. apply in_seq in K. lia.
  - apply (Permutation_in x (Permutation_sym H)). apply in_seq. lia.
Qed.

Lemma find_spec fuel n s gs it : Tr n s gs -> n + 4 <= fuel ->
  exists o, sc_find fuel s it = Some o /\
  match o with
  | Some x => x < n /\ (KS (str s) gs -> cmp it (str s x) = Eq)
  | None => KS (str s) gs -> forall y, y < n -> cmp it (str s y) <> Eq
  end.
Proof.
  intros T Fu. assert (Ln := Tr_len _ _ _ T). assert (Lg := gs_len gs). unfold sc_find, find.
  destruct (search_spec fuel (fun y => cmp it (str s y)) (tree s) gs) as [o [H1 H2]]; [apply T|lia|]. rewrite H1. cbn [bindo].
  destruct o as [i|].
  - destruct H2 as [Hi Ei]. unfold heads in Hi. apply in_map_iff in Hi. destruct Hi as [[h ms] [E Hg]]. cbn in E. subst h.
    destruct T as [S T'] eqn:ET. destruct S as [f [R [B [If [Nd Rg]]]]] eqn:ES. destruct (Rg _ _ Hg) as [K1 K2].
    assert (Nd1 := nd_grp _ _ _ Nd Hg).
    unfold list_empty. rewrite (ring_one _ _ _ K1). destruct ms as [|m ms].
    + exists (Some i). split; auto. split; auto. apply (Tr_in n s gs); auto. apply (grp_nodes i []); cbn; auto.
    + rewrite (proj2 (Nat.eqb_neq m i)) by (intros ->; inversion Nd1 as [|? ? Q]; apply Q; cbn; auto).
      destruct (list_find_spec fuel (str s) (tree s) i m ms K1 Nd1) as [x [X1 X2]].
      { apply in_split in Hg. destruct Hg as [g1 [g2 ->]]. rewrite (Permutation_length (nodes_mid g1 i (m :: ms) g2)) in Ln. cbn in Ln. rewrite app_length in Ln. lia. }
      exists (Some x). split; auto. split; [apply (Tr_in n s gs); auto; apply (grp_nodes i (m :: ms)); cbn; auto|].
      intros [_ HK]. rewrite <- Ei. apply (o_eq _ cmp_order). apply (HK i (m :: ms)); auto.
  - exists None. split; auto. intros HK y Hy E. apply (Tr_in n s gs y T) in Hy.
    destruct (KI_node _ _ cmp_order _ _ _ HK Hy) as [h [Hh Eh]]. specialize (H2 (KI_mono _ _ cmp_order _ _ it HK) h Hh). apply H2.
    rewrite <- E. symmetry. now apply (o_eq _ cmp_order).
Qed.

Lemma move_tail_perm n x l : Permutation l (seq 0 n) -> x < n -> Permutation (move_tail x l) (seq 0 n).
Proof.
  intros P Hx. rewrite <- P. assert (Hl : In x l) by (apply (Permutation_in x (Permutation_sym P)), in_seq; lia).
  assert (Nd : NoDup l) by (apply (Permutation_NoDup (Permutation_sym P)), seq_NoDup).
  apply in_split in Hl. destruct Hl as [l1 [l2 ->]]. unfold move_tail, del. apply NoDup_remove in Nd. destruct Nd as [_ Nd]. rewrite in_app_iff in Nd.
  assert (F : forall l, ~ In x l -> filter (fun y => negb (Nat.eqb y x)) l = l).
  { clear. induction l as [|a l IH]; cbn; intro H; auto. rewrite (proj2 (Nat.eqb_neq a x)) by tauto. cbn. f_equal. apply IH. tauto. }
  rewrite filter_app. cbn. rewrite Nat.eqb_refl. cbn. rewrite !F by tauto. rewrite <- app_assoc. apply Permutation_app_head.
  change (x :: l2) with ([x] ++ l2). apply Permutation_app_comm.
Qed.
Lemma move_head_perm n x l : Permutation l (seq 0 n) -> x < n -> Permutation (move_head x l) (seq 0 n).
Proof.
  intros P Hx. rewrite <- (move_tail_perm n x l P Hx). unfold move_head, move_tail. change (x :: del x l) with ([x] ++ del x l). apply Permutation_app_comm.
Qed.
Lemma lru_head n s gs : Tr n s gs -> 0 < n -> exists x l, lru s = x :: l /\ x < n.
Proof.
  intros [_ [_ P]] Hn. destruct (lru s) as [|x l] eqn:E.
  - apply Permutation_length in P. rewrite seq_length in P. cbn in P. lia.
  - exists x, l. split; auto. assert (H : In x (seq 0 n)) by (apply (Permutation_in x P); cbn; auto). apply in_seq in H. lia.
Qed.

(** Taking stream [x] out of the tree and putting it back with contents [v]. *)
Lemma put_spec fuel n s gs x v : Tr n s gs -> x < n -> n + 4 <= fuel ->
  exists t1 t2 gs', remove fuel (tree s) x = Some t1 /\ insert fuel (fun y => cmp v (set_str x v (str s) y)) t1 x = Some t2 /\
    Tr n {| tree := t2; lru := move_tail x (lru s); str := set_str x v (str s) |} gs' /\ (KS (str s) gs -> KS (set_str x v (str s)) gs').
Proof.
  intros T Hx Fu. assert (Ln := Tr_len _ _ _ T).
  destruct (again_spec _ _ cmp_order fuel (tree s) (str s) x v gs) as [t1 [t2 [gs' [H1 [H2 [H3 [H4 H5]]]]]]].
  - apply T.
  - now apply (Tr_in n s gs).
  - lia.
  - exists t1, t2, gs'. split; [exact H1|]. split; [exact H2|]. split; [|exact H5]. destruct T as [T1 [T2 T3]]. split; [exact H3|]. cbn [lru].
    split; [now rewrite H4|now apply move_tail_perm].
Qed.

Lemma base_update_spec fuel n s gs a l w ins : Tr n s gs -> 0 < n -> n + 4 <= fuel ->
  exists s' o gs', base_update fuel s a l w ins = Some (s', o) /\ Tr n s' gs' /\
    (KS (str s) gs -> (a + l < M64)%N -> KS (str s') gs') /\ (ins = true -> o <> None) /\ (forall x, o = Some x -> x < n).
Proof.
  intros T Hn Fu. unfold base_update. destruct (find_spec fuel n s gs (item a w) T Fu) as [o [H1 H2]]. rewrite H1. destruct o as [x|].
  - destruct H2 as [Hx Ex]. assert (Lg := gs_len gs). assert (Ln := Tr_len _ _ _ T).
    destruct (can_update_spec fuel (fun y => cmp (item ((a + l) mod M64) w) (str s y)) (tree s) x gs) as [b [C1 C2]]; [apply T|now apply (Tr_in n s gs)|lia|].
    rewrite C1. set (v := {| last := _; bytes := _; rw := _; valid := _; req_count := _ |}). destruct b.
    + destruct (C2 eq_refl) as [g1 [g2 [Eg M]]].
      eexists _, _, gs. split; [reflexivity|]. split; [|split; [|split; [discriminate|intros y E; injection E as <-; exact Hx]]].
      * destruct T as [T1 [T2 T3]]. split; [exact T1|]. split; [exact T2|]. now apply move_tail_perm.
      * intros HK W. cbn [str]. specialize (Ex HK). apply cmp_eq in Ex. cbn [item valid rw last] in Ex. destruct Ex as [E1 [E2 E3]].
        rewrite N.mod_small in M by exact W.
        assert (V : forall y, cmp v (str s y) = cmp (item (a + l) w) (str s y)).
        { intro y. apply (o_eql _ _ cmp_order). apply cmp_eq. unfold v. cbn [item valid rw last]. rewrite N.mod_small by exact W. auto. }
        destruct (M (KI_mono _ _ cmp_order _ _ _ HK)) as [M1 M2].
        { unfold cmp. cbn [item valid rw last]. rewrite <- E1, <- E2, <- E3. rewrite !N.compare_refl. rewrite N.compare_lt_iff. lia. }
        apply (keep_KI _ _ cmp_order (str s) x v gs g1 g2); auto; [destruct T as [[f T] _]; tauto| |]; intros y Hy; rewrite V; auto.
    + destruct (put_spec fuel n s gs x v T Hx Fu) as [t1 [t2 [gs' [P1 [P2 [P3 P4]]]]]]. rewrite P1, P2.
      eexists _, _, gs'. split; [reflexivity|]. split; [exact P3|]. split; [auto|]. split; [discriminate|]. intros y E; injection E as <-; exact Hx.
  - destruct ins.
    + destruct (lru_head _ _ _ T Hn) as [x [l' [El Hx]]]. rewrite El. set (v := {| last := _; bytes := _; rw := _; valid := _; req_count := _ |}).
      destruct (put_spec fuel n s gs x v T Hx Fu) as [t1 [t2 [gs' [P1 [P2 [P3 P4]]]]]]. rewrite P1, P2.
      eexists _, _, gs'. split; [reflexivity|]. rewrite <- El. split; [exact P3|]. split; [auto|]. split; [discriminate|]. intros y E; injection E as <-; exact Hx.
    + exists s, None, gs. split; [reflexivity|]. split; [exact T|]. split; [auto|]. split; discriminate.
Qed.

Lemma base_promote_spec fuel n m d s gd gs x : Tr n d gd -> Tr m s gs -> 0 < n -> n + 4 <= fuel -> x < m ->
  exists d' s' gd', base_promote fuel d s x = Some (d', s') /\ Tr n d' gd' /\ Tr m s' gs /\ (KS (str d) gd -> KS (str d') gd').
Proof.
  intros T Ts Hn Fu Hx. unfold base_promote. destruct (lru_head _ _ _ T Hn) as [y [l' [El Hy]]]. rewrite El.
  set (v := {| last := _; bytes := _; rw := _; valid := true; req_count := _ |}).
  destruct (put_spec fuel n d gd y v T Hy Fu) as [t1 [t2 [gs' [P1 [P2 [P3 P4]]]]]]. rewrite P1, P2.
  eexists _, _, gs'. split; [reflexivity|]. rewrite <- El. split; [exact P3|]. split; [|exact P4].
  destruct Ts as [T1 [T2 T3]]. split; [exact T1|]. split; [exact T2|]. now apply move_head_perm.
Qed.

Lemma base_check_spec fuel n s gs a l w th : Tr n s gs -> n + 4 <= fuel -> exists r, base_check fuel s a l w th = Some r.
Proof.
  intros T Fu. unfold base_check. destruct (find_spec fuel n s gs (item a w) T Fu) as [o [-> _]]. destruct o; eauto.
Qed.

(** ocf_seq_cutoff_base_init *)
Lemma init_loop_spec fuel : forall k i s gs, Str (tree s) gs -> Permutation (nodes gs) (seq 0 i) -> Permutation (lru s) (seq 0 i) -> KS (str s) gs ->
  i + k + 4 <= fuel -> (forall y, y < i -> valid (str s y) = false) ->
  exists s' gs', init_loop fuel k i s = Some s' /\ Tr (i + k) s' gs' /\ KS (str s') gs' /\ (forall y, y < i + k -> valid (str s' y) = false).
Proof.
  induction k as [|k IH]; intros i s gs S P L HK Fu V; cbn [init_loop].
  - exists s, gs. rewrite Nat.add_0_r. split; [reflexivity|]. split; [split; auto|]. split; assumption.
  - set (v := {| last := _; bytes := _; rw := _; valid := _; req_count := _ |}). assert (Lg := gs_len gs). rewrite (Permutation_length P), seq_length in Lg.
    assert (Ni : ~ In i (nodes gs)) by (intro K; apply (Permutation_in i P) in K; apply in_seq in K; lia).
    destruct (ins_spec fuel (fun y => cmp v (set_str i v (str s) y)) (tree s) i gs S Ni) as [t [gs' [H1 [H2 H3]]]]; [lia|]. rewrite H1.
    assert (A := added_nodes _ _ _ _ H3).
    destruct (IH (Datatypes.S i) {| tree := t; lru := lru s ++ [i]; str := set_str i v (str s) |} gs') as [s' [gs2 [K1 [K2 [K3 K4]]]]]; cbn [tree lru str].
    + exact H2.
    + rewrite A, P, seq_S. cbn. apply Permutation_cons_append.
    + rewrite L, seq_S. reflexivity.
    + apply (added_KI _ _ cmp_order _ i v gs gs'); auto; [apply set_key_eq|]. apply (KI_ext _ _ (str s)); auto.
      intros y Hy. apply set_key_ne. congruence.
    + lia.
    + intros y Hy. unfold set_str. destruct (Nat.eqb_spec y i) as [-> |]; auto. apply V. lia.
    + exists s', gs2. rewrite Nat.add_succ_r. auto.
Qed.
Lemma base_init_spec n : exists s gs, base_init n = Some s /\ Tr n s gs /\ KS (str s) gs /\ (forall y, y < n -> valid (str s y) = false).
Proof.
  unfold base_init. apply (init_loop_spec _ n 0 _ []); cbn [tree lru str]; auto.
  - exists E. split; [split; [reflexivity|split; [exact I|constructor]]|]. split; [split; [exact I|now exists 0]|]. split; [reflexivity|]. split; [constructor|]. intros ? ? [].
  - split; [constructor|]. intros ? ? ? [].
  - unfold fuel_for. nia.
Qed.

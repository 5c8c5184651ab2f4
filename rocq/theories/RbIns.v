(** ocf_rb_tree_insert keeps the tree balanced and ordered. *)
From Coq Require Import List Bool Arith Lia Permutation.
From Verif Require Import RbModel RbTree RbRot.
Import ListNotations.

(** The context accepts a subtree of [n] black levels, red-rooted ones too if [rd]. *)
Fixpoint ok (c : ctx) (rd : bool) (n : nat) : Prop :=
  match c with
  | Top => rd = false
  | CL true c x r => rd = false /\ blk r /\ bal r n /\ ok c true n
  | CL false c x r => bal r n /\ ok c false (S n)
  | CR true l x c => rd = false /\ blk l /\ bal l n /\ ok c true n
  | CR false l x c => bal l n /\ ok c false (S n)
  end.
Lemma ok_weak c n : ok c true n -> ok c false n.
Proof. destruct c as [|[|] c x r|[|] l x c]; cbn; auto; tauto. Qed.
Lemma ok_RB c : forall rd n f, ok c rd n -> bal f n -> (rd = false -> blk f) -> RB (plug c f).
Proof.
  induction c as [|k c IH x r|k l x c IH]; intros rd n f O B K; cbn in *.
  - split; eauto.
  - destruct k.
    + destruct O as [O1 [O2 [O3 O4]]]. apply (IH true n); auto. cbn. auto. discriminate.
    + destruct O as [O1 O2]. apply (IH false (S n)); cbn; auto.
  - destruct k.
    + destruct O as [O1 [O2 [O3 O4]]]. apply (IH true n); auto. cbn. auto. discriminate.
    + destruct O as [O1 O2]. apply (IH false (S n)); cbn; auto.
Qed.
Definition isr (f : tr) : bool := match f with T true _ _ _ => true | _ => false end.
Lemma blk_isr f : blk f <-> isr f = false.
Proof. destruct f as [|[|] ? ? ?]; cbn; split; auto; discriminate || contradiction. Qed.
Lemma RB_ok c : forall f, RB (plug c f) -> exists n, bal f n /\ ok c (isr f) n.
Proof.
  induction c as [|k c IH x r|k l x c IH]; intros f H; cbn [plug] in H.
  - destruct H as [H1 [n H2]]. exists n. split; auto. now apply blk_isr.
  - destruct (IH _ H) as [n [H1 H2]]. destruct k; cbn in *.
    + exists n. destruct H1 as [? [? [? ?]]]. rewrite <- blk_isr. auto.
    + destruct n as [|n]; [contradiction|]. exists n. tauto.
  - destruct (IH _ H) as [n [H1 H2]]. destruct k; cbn in *.
    + exists n. destruct H1 as [? [? [? ?]]]. rewrite <- blk_isr. auto.
    + destruct n as [|n]; [contradiction|]. exists n. tauto.
Qed.
Lemma bal_inj f : forall n m, bal f n -> bal f m -> n = m.
Proof.
  induction f as [|[|] l IHl x r IHr]; cbn; intros n m H1 H2.
  - congruence.
  - apply IHl; tauto.
  - destruct n, m; try contradiction. f_equal. apply IHl; tauto.
Qed.

(** ** Reading the heap *)
Lemma at_f t c k a x b : Rep t (plug c (T k a x b)) ->
  red (hp t x) = k /\ lft (hp t x) = rt a /\ rgt (hp t x) = rt b /\ par (hp t x) = cq c.
Proof. intro R. apply Rep_plug in R. cbn in R. tauto. Qed.
Lemma at_root t k a x b : Rep t (T k a x b) -> root t = Some x.
Proof. intros [R _]. exact R. Qed.
Lemma in_f c k a x b : In x (ino (plug c (T k a x b))).
Proof. apply In_plug. left. inn. Qed.

Lemma root_black_spec t f n : Rep t f -> f <> E -> bal f n ->
  exists t' f', root_black t = Some t' /\ Rep t' f' /\ RB f' /\ ino f' = ino f /\ keeps (ino f) t t'.
Proof.
  intros R NE B. destruct f as [|k a x b]; [contradiction|]. unfold root_black. rewrite (at_root _ _ _ _ _ R).
  destruct (recolor_spec t Top k a x b false R) as [R' K]. exists (mod1 x (set_red false) t), (T false a x b).
  repeat split; try apply R'; try apply K; auto.
  destruct k; cbn in B; [exists (S n)|exists n; destruct n; [contradiction|]]; cbn; tauto.
Qed.
Lemma fv_black fuel t x : red (hp t x) = false -> fix_violation (S fuel) t x = root_black t.
Proof. intro H. cbn [fix_violation]. rewrite H. cbn [andb]. now destruct (par (hp t x)). Qed.

Definition good (f0 : tr) (t : rb) (o : option rb) : Prop :=
  exists t' f', o = Some t' /\ Rep t' f' /\ RB f' /\ ino f' = ino f0 /\ keeps (ino f0) t t'.
Lemma good_step f0 f1 t t1 o : ino f1 = ino f0 -> keeps (ino f0) t t1 -> good f1 t1 o -> good f0 t o.
Proof.
  intros H K [t' [f' [G1 [G2 [G3 [G4 G5]]]]]]. exists t', f'. split; [assumption|]. split; [assumption|]. split; [assumption|]. split; [congruence|].
  apply (keeps_trans _ (ino f1) _ t1); auto. intros y. rewrite H. auto.
Qed.
Lemma root_black_good t f n : Rep t f -> f <> E -> bal f n -> good f t (root_black t).
Proof. intros R NE B. now apply (root_black_spec t f n). Qed.
Lemma plug_ne c f : f <> E -> plug c f <> E.
Proof. revert f. induction c; cbn; intros f H; auto; apply IHc; discriminate. Qed.
Lemma root_black_plug t c rd n f : Rep t (plug c f) -> f <> E -> ok c rd n -> bal f n -> (rd = false -> blk f) ->
  good (plug c f) t (root_black t).
Proof.
  intros R NE O B K. destruct (ok_RB c rd n f O B K) as [_ [m M]]. apply (root_black_good t _ m); auto. now apply plug_ne.
Qed.

Lemma fv_eq fuel t x : fix_violation (S fuel) t x = let F := fix_violation fuel in
    match par (hp t x) with None => root_black t | Some p => if red (hp t x) && red (hp t p) then
      match par (hp t p) with None => root_black t | Some g =>
      if peq (Some p) (lft (hp t g)) then
            let u := rgt (hp t g) in
            if isred t u then
              let t := mod1 g (set_red true) t in
              let t := mod1 p (set_red false) t in
              let t := modp u (set_red false) t in
              F t g
            else if peq (Some x) (rgt (hp t p)) then
              match rotate_left t p with Some t => F t p | None => None end
            else
              match rotate_right t g with Some t => F (swap_red t p g) p | None => None end
          else
            let u := lft (hp t g) in
            if isred t u then
              let t := mod1 g (set_red true) t in
              let t := mod1 p (set_red false) t in
              let t := modp u (set_red false) t in
              F t g
            else if peq (Some x) (lft (hp t p)) then
              match rotate_right t p with Some t => F t p | None => None end
            else
              match rotate_left t g with Some t => F (swap_red t p g) p | None => None end
        end
      else root_black t
    end.
Proof. reflexivity. Qed.
Ltac inoeq := rewrite ?ino_plug; cbn [plug]; rewrite ?ino_plug; cbn [ino cl cr]; repeat (rewrite <- !app_assoc; cbn [app]); reflexivity.
Ltac insub := intro; cbn [plug]; rewrite ?In_plug; cbn [ino]; repeat (rewrite in_app_iff || cbn [In]); tauto.

(** Uncle black, x an outer grandchild: one rotation. *)
Lemma fv_outer_l fuel t c n a x b p r g u :
  Rep t (plug (CL true (CL false c g u) p r) (T true a x b)) ->
  bal a n -> bal b n -> blk a -> blk b -> bal r n -> blk r -> bal u n -> blk u -> ok c false (S n) ->
  good (plug (CL true (CL false c g u) p r) (T true a x b)) t (fix_violation (S (S fuel)) t x).
Proof.
  intros R Ba Bb Ka Kb Br Kr Bu Ku O.
  destruct (at_f _ _ _ _ _ _ R) as [X1 [X2 [X3 X4]]]. cbn [cq] in X4.
  destruct (at_f t (CL false c g u) true (T true a x b) p r R) as [P1 [P2 [P3 P4]]]. cbn [cq rt] in P2, P4.
  destruct (at_f t c false (T true (T true a x b) p r) g u R) as [G1 [G2 [G3 G4]]]. cbn [rt] in G2.
  assert (Iu : isred t (rgt (hp t g)) = false).
  { rewrite G3. destruct u as [|[|] u1 y u2]; cbn in *; auto; [contradiction|].
    destruct (at_f t (CR false (T true (T true a x b) p r) g c) false u1 y u2 R) as [Y _]. exact Y. }
  assert (Nx : peq (Some x) (rgt (hp t p)) = false).
  { rewrite P3. destruct (peq_spec (Some x) (rt r)) as [K|K]; auto. symmetry in K. apply rt_in in K.
    destruct R as [_ [_ N]]. apply (Permutation_NoDup (plug_perm _ _)) in N. cbn [ino cn] in N. nds. exfalso. dj. }
  rewrite fv_eq. set (F := fix_violation (S fuel)). cbn zeta.
  rewrite X4, X1, P1, P4. cbn [andb]. rewrite G2, peq_refl, Iu, Nx. cbn zeta.
  destruct (rotate_right_spec t c false true (T true a x b) p r g u R) as [t1 [E1 [R1 K1]]]. rewrite E1.
  destruct (at_f _ _ _ _ _ _ R1) as [Q1 _]. destruct (at_f t1 (CR true (T true a x b) p c) false r g u R1) as [Q2 _].
  unfold swap_red. rewrite Q1, Q2.
  destruct (recolor_spec t1 c true (T true a x b) p (T false r g u) false R1) as [R2 K2].
  destruct (recolor_spec _ (CR false (T true a x b) p c) false r g u true R2) as [R3 K3]. cbn [plug] in R3, K3.
  set (t3 := mod1 g (set_red true) (mod1 p (set_red false) t1)) in *.
  destruct (at_f _ _ _ _ _ _ R3) as [Z1 _]. unfold F. rewrite fv_black by assumption.
  eapply good_step; [| |eapply (root_black_plug t3 c false (S n)); [exact R3|discriminate|exact O|cbn; auto 10|cbn; auto]].
  - inoeq.
  - cbn [plug] in *. eapply keeps_trans; [|exact K1|eapply keeps_trans; [|exact K2|exact K3]]; insub.
Qed.
Lemma fv_outer_r fuel t c n a x b p r g u :
  Rep t (plug (CR true r p (CR false u g c)) (T true a x b)) ->
  bal a n -> bal b n -> blk a -> blk b -> bal r n -> blk r -> bal u n -> blk u -> ok c false (S n) ->
  good (plug (CR true r p (CR false u g c)) (T true a x b)) t (fix_violation (S (S fuel)) t x).
Proof.
  intros R Ba Bb Ka Kb Br Kr Bu Ku O.
  destruct (at_f _ _ _ _ _ _ R) as [X1 [X2 [X3 X4]]]. cbn [cq] in X4.
  destruct (at_f t (CR false u g c) true r p (T true a x b) R) as [P1 [P3 [P2 P4]]]. cbn [cq rt] in P2, P4.
  destruct (at_f t c false u g (T true r p (T true a x b)) R) as [G1 [G3 [G2 G4]]]. cbn [rt] in G2.
  assert (Iu : isred t (lft (hp t g)) = false).
  { rewrite G3. destruct u as [|[|] u1 y u2]; cbn in *; auto; [contradiction|].
    destruct (at_f t (CL false c g (T true r p (T true a x b))) false u1 y u2 R) as [Y _]. exact Y. }
  assert (Nx : peq (Some x) (lft (hp t p)) = false).
  { rewrite P3. destruct (peq_spec (Some x) (rt r)) as [K|K]; auto. symmetry in K. apply rt_in in K.
    destruct R as [_ [_ N]]. apply (Permutation_NoDup (plug_perm _ _)) in N. cbn [ino cn] in N. nds. exfalso. dj. }
  assert (Gl : peq (Some p) (lft (hp t g)) = false).
  { rewrite G3. destruct (peq_spec (Some p) (rt u)) as [K|K]; auto. symmetry in K. apply rt_in in K.
    destruct R as [_ [_ N]]. apply (Permutation_NoDup (plug_perm _ _)) in N. cbn [ino cn] in N. nds. exfalso. dj. }
  rewrite fv_eq. set (F := fix_violation (S fuel)). cbn zeta.
  rewrite X4, X1, P1, P4. cbn [andb]. rewrite Gl, Iu, Nx. cbn zeta.
  destruct (rotate_left_spec t c false true (T true a x b) p r g u R) as [t1 [E1 [R1 K1]]]. rewrite E1.
  destruct (at_f _ _ _ _ _ _ R1) as [Q1 _]. destruct (at_f t1 (CL true c p (T true a x b)) false u g r R1) as [Q2 _].
  unfold swap_red. rewrite Q1, Q2.
  destruct (recolor_spec t1 c true (T false u g r) p (T true a x b) false R1) as [R2 K2].
  destruct (recolor_spec _ (CL false c p (T true a x b)) false u g r true R2) as [R3 K3]. cbn [plug] in R3, K3.
  set (t3 := mod1 g (set_red true) (mod1 p (set_red false) t1)) in *.
  destruct (at_f _ _ _ _ _ _ R3) as [Z1 _]. unfold F. rewrite fv_black by assumption.
  eapply good_step; [| |eapply (root_black_plug t3 c false (S n)); [exact R3|discriminate|exact O|cbn; auto 10|cbn; auto]].
  - inoeq.
  - cbn [plug] in *. eapply keeps_trans; [|exact K1|eapply keeps_trans; [|exact K2|exact K3]]; insub.
Qed.

Lemma fv_spec : forall fuel c n a x b t, depth c + 3 <= fuel ->
  Rep t (plug c (T true a x b)) -> bal a n -> bal b n -> blk a -> blk b -> ok c false n ->
  good (plug c (T true a x b)) t (fix_violation fuel t x).
Proof.
  induction fuel as [fuel IH] using lt_wf_ind. intros c n a x b t Fu R Ba Bb Ka Kb O.
  destruct fuel as [|fuel]; [lia|].
  destruct (at_f _ _ _ _ _ _ R) as [X1 [X2 [X3 X4]]].
  assert (N : NoDup (ino (T true a x b) ++ cn c)).
  { destruct R as [_ [_ N]]. now apply (Permutation_NoDup (plug_perm _ _)) in N. }
  rewrite fv_eq. cbn zeta.
  destruct c as [|kp c p r|kp r p c].
  - cbn [cq] in X4. rewrite X4. apply (root_black_good t _ n); [exact R|discriminate|cbn; auto].
  - cbn [cq] in X4. rewrite X4, X1. cbn [andb].
    destruct (at_f t c kp (T true a x b) p r R) as [P1 [P2 [P3 P4]]]. cbn [rt] in P2. rewrite P1.
    destruct kp; cbn [ok] in O; [|apply (root_black_plug t (CL false c p r) true n); cbn; auto; discriminate].
    destruct O as [_ [Kr [Br O]]].
    destruct c as [|[|] c g u|[|] u g c]; cbn [ok] in O; try discriminate; try (destruct O as [O _]; discriminate); destruct O as [Bu O];
      cbn [cq] in P4; rewrite P4.
    + destruct (at_f t c false (T true (T true a x b) p r) g u R) as [G1 [G2 [G3 G4]]]. cbn [rt] in G2. rewrite G2, peq_refl.
      destruct (isred t (rgt (hp t g))) eqn:Iu.
      * rewrite G3 in Iu |- *. destruct u as [|ku u1 y u2]; [discriminate|]. cbn [rt isred modp] in Iu |- *.
        destruct (at_f t (CR false (T true (T true a x b) p r) g c) ku u1 y u2 R) as [Y _]. rewrite Y in Iu. subst ku.
        destruct (recolor_spec t c false (T true (T true a x b) p r) g (T true u1 y u2) true R) as [R1 K1].
        destruct (recolor_spec _ (CL true c g (T true u1 y u2)) true (T true a x b) p r false R1) as [R2 K2].
        destruct (recolor_spec _ (CR true (T false (T true a x b) p r) g c) true u1 y u2 false R2) as [R3 K3].
        cbn [plug] in *. cbn in Bu. destruct Bu as [B1 [B2 [B3 B4]]].
        eapply good_step; [| |eapply (IH fuel); [lia| |exact R3| | | | |exact O]]; try (cbn; auto; fail).
        -- inoeq.
        -- eapply keeps_trans; [|exact K1|eapply keeps_trans; [|exact K2|exact K3]]; insub.
        -- cbn [depth] in Fu. lia.
      * assert (Ku : blk u).
        { rewrite G3 in Iu. destruct u as [|[|] u1 y u2]; cbn; auto. cbn [rt isred] in Iu.
          destruct (at_f t (CR false (T true (T true a x b) p r) g c) true u1 y u2 R) as [Y _]. congruence. }
        assert (Nx : peq (Some x) (rgt (hp t p)) = false).
        { rewrite P3. destruct (peq_spec (Some x) (rt r)) as [K|K]; auto. symmetry in K. apply rt_in in K.
          cbn [ino cn] in N. nds. exfalso. dj. }
        destruct fuel as [|fuel]; [cbn [depth] in Fu; lia|].
        assert (G := fv_outer_l fuel t c n a x b p r g u R Ba Bb Ka Kb Br Kr Bu Ku O).
        rewrite fv_eq in G. cbn zeta in G. rewrite X4, X1, P1, P4 in G. cbn [andb] in G. rewrite G2, peq_refl, Iu in G. exact G.
    + destruct (at_f t c false u g (T true (T true a x b) p r) R) as [G1 [G2 [G3 G4]]]. cbn [rt] in G3.
      assert (Gl : peq (Some p) (lft (hp t g)) = false).
      { rewrite G2. destruct (peq_spec (Some p) (rt u)) as [K|K]; auto. symmetry in K. apply rt_in in K.
        cbn [ino cn] in N. nds. exfalso. dj. }
      rewrite Gl. destruct (isred t (lft (hp t g))) eqn:Iu.
      * rewrite G2 in Iu |- *. destruct u as [|ku u1 y u2]; [discriminate|]. cbn [rt isred modp] in Iu |- *.
        destruct (at_f t (CL false c g (T true (T true a x b) p r)) ku u1 y u2 R) as [Y _]. rewrite Y in Iu. subst ku.
        destruct (recolor_spec t c false (T true u1 y u2) g (T true (T true a x b) p r) true R) as [R1 K1].
        destruct (recolor_spec _ (CR true (T true u1 y u2) g c) true (T true a x b) p r false R1) as [R2 K2].
        destruct (recolor_spec _ (CL true c g (T false (T true a x b) p r)) true u1 y u2 false R2) as [R3 K3].
        cbn [plug] in *. cbn in Bu. destruct Bu as [B1 [B2 [B3 B4]]].
        eapply good_step; [| |eapply (IH fuel); [lia| |exact R3| | | | |exact O]]; try (cbn; auto; fail).
        -- inoeq.
        -- eapply keeps_trans; [|exact K1|eapply keeps_trans; [|exact K2|exact K3]]; insub.
        -- cbn [depth] in Fu. lia.
      * assert (Ku : blk u).
        { rewrite G2 in Iu. destruct u as [|[|] u1 y u2]; cbn; auto. cbn [rt isred] in Iu.
          destruct (at_f t (CL false c g (T true (T true a x b) p r)) true u1 y u2 R) as [Y _]. congruence. }
        rewrite P2, peq_refl.
        (* inner grandchild: rotate p right, then p is an outer grandchild *)
        destruct (rotate_right_spec t (CR false u g c) true true a x b p r R) as [t1 [E1 [R1 K1]]]. rewrite E1.
        destruct fuel as [|[|fuel]]; try (cbn [depth] in Fu; lia).
        eapply good_step; [| |eapply (fv_outer_r fuel t1 c n b p r x a g u); [exact R1|..]; auto].
        -- inoeq.
        -- exact K1.
  - cbn [cq] in X4. rewrite X4, X1. cbn [andb].
    destruct (at_f t c kp r p (T true a x b) R) as [P1 [P3 [P2 P4]]]. cbn [rt] in P2. rewrite P1.
    destruct kp; cbn [ok] in O; [|apply (root_black_plug t (CR false r p c) true n); cbn; auto; discriminate].
    destruct O as [_ [Kr [Br O]]].
    destruct c as [|[|] c g u|[|] u g c]; cbn [ok] in O; try discriminate; try (destruct O as [O _]; discriminate); destruct O as [Bu O];
      cbn [cq] in P4; rewrite P4.
    + destruct (at_f t c false (T true r p (T true a x b)) g u R) as [G1 [G2 [G3 G4]]]. cbn [rt] in G2. rewrite G2, peq_refl.
      destruct (isred t (rgt (hp t g))) eqn:Iu.
      * rewrite G3 in Iu |- *. destruct u as [|ku u1 y u2]; [discriminate|]. cbn [rt isred modp] in Iu |- *.
        destruct (at_f t (CR false (T true r p (T true a x b)) g c) ku u1 y u2 R) as [Y _]. rewrite Y in Iu. subst ku.
        destruct (recolor_spec t c false (T true r p (T true a x b)) g (T true u1 y u2) true R) as [R1 K1].
        destruct (recolor_spec _ (CL true c g (T true u1 y u2)) true r p (T true a x b) false R1) as [R2 K2].
        destruct (recolor_spec _ (CR true (T false r p (T true a x b)) g c) true u1 y u2 false R2) as [R3 K3].
        cbn [plug] in *. cbn in Bu. destruct Bu as [B1 [B2 [B3 B4]]].
        eapply good_step; [| |eapply (IH fuel); [lia| |exact R3| | | | |exact O]]; try (cbn; auto; fail).
        -- inoeq.
        -- eapply keeps_trans; [|exact K1|eapply keeps_trans; [|exact K2|exact K3]]; insub.
        -- cbn [depth] in Fu. lia.
      * assert (Ku : blk u).
        { rewrite G3 in Iu. destruct u as [|[|] u1 y u2]; cbn; auto. cbn [rt isred] in Iu.
          destruct (at_f t (CR false (T true r p (T true a x b)) g c) true u1 y u2 R) as [Y _]. congruence. }
        rewrite P2, peq_refl.
        destruct (rotate_left_spec t (CL false c g u) true true b x a p r R) as [t1 [E1 [R1 K1]]]. rewrite E1.
        destruct fuel as [|[|fuel]]; try (cbn [depth] in Fu; lia).
        eapply good_step; [| |eapply (fv_outer_l fuel t1 c n r p a x b g u); [exact R1|..]; auto].
        -- inoeq.
        -- exact K1.
    + destruct (at_f t c false u g (T true r p (T true a x b)) R) as [G1 [G2 [G3 G4]]]. cbn [rt] in G3.
      assert (Gl : peq (Some p) (lft (hp t g)) = false).
      { rewrite G2. destruct (peq_spec (Some p) (rt u)) as [K|K]; auto. symmetry in K. apply rt_in in K.
        cbn [ino cn] in N. nds. exfalso. dj. }
      rewrite Gl. destruct (isred t (lft (hp t g))) eqn:Iu.
      * rewrite G2 in Iu |- *. destruct u as [|ku u1 y u2]; [discriminate|]. cbn [rt isred modp] in Iu |- *.
        destruct (at_f t (CL false c g (T true r p (T true a x b))) ku u1 y u2 R) as [Y _]. rewrite Y in Iu. subst ku.
        destruct (recolor_spec t c false (T true u1 y u2) g (T true r p (T true a x b)) true R) as [R1 K1].
        destruct (recolor_spec _ (CR true (T true u1 y u2) g c) true r p (T true a x b) false R1) as [R2 K2].
        destruct (recolor_spec _ (CL true c g (T false r p (T true a x b))) true u1 y u2 false R2) as [R3 K3].
        cbn [plug] in *. cbn in Bu. destruct Bu as [B1 [B2 [B3 B4]]].
        eapply good_step; [| |eapply (IH fuel); [lia| |exact R3| | | | |exact O]]; try (cbn; auto; fail).
        -- inoeq.
        -- eapply keeps_trans; [|exact K1|eapply keeps_trans; [|exact K2|exact K3]]; insub.
        -- cbn [depth] in Fu. lia.
      * assert (Ku : blk u).
        { rewrite G2 in Iu. destruct u as [|[|] u1 y u2]; cbn; auto. cbn [rt isred] in Iu.
          destruct (at_f t (CL false c g (T true r p (T true a x b))) true u1 y u2 R) as [Y _]. congruence. }
        assert (Nx : peq (Some x) (lft (hp t p)) = false).
        { rewrite P3. destruct (peq_spec (Some x) (rt r)) as [K|K]; auto. symmetry in K. apply rt_in in K.
          cbn [ino cn] in N. nds. exfalso. dj. }
        destruct fuel as [|fuel]; [cbn [depth] in Fu; lia|].
        assert (G := fv_outer_r fuel t c n a x b p r g u R Ba Bb Ka Kb Br Kr Bu Ku O).
        rewrite fv_eq in G. cbn zeta in G. rewrite X4, X1, P1, P4 in G. cbn [andb] in G. rewrite Gl, Iu in G. exact G.
Qed.

(** ** The descent *)
Fixpoint guided (c : nat -> comparison) (d : ctx) : Prop :=
  match d with
  | Top => True
  | CL _ d x _ => c x = Lt /\ guided c d
  | CR _ _ x d => c x = Gt /\ guided c d
  end.
Lemma guided_cat c d1 d2 : guided c d1 -> guided c d2 -> guided c (cat d1 d2).
Proof. intros H1. induction d2; cbn; auto; intros [H2 H3]; split; auto. Qed.
Lemma depth_len d : depth d <= length (cn d).
Proof. induction d; cbn; rewrite ?app_length; lia. Qed.
Lemma plug_len d : length (ino (plug d E)) = length (cn d).
Proof. apply (Permutation_length (plug_perm d E)). Qed.

Lemma descend_spec cm t : forall f fuel c x, Rep t (plug c f) -> rt f = Some x -> length (ino f) <= fuel ->
  (exists i, descend fuel cm t x = Some (i, Eq) /\ cm i = Eq /\ In i (ino f)) \/
  (exists d k i b, descend fuel cm t x = Some (i, Lt) /\ f = plug (CL k d i b) E /\ guided cm (CL k d i b)) \/
  (exists d k i a, descend fuel cm t x = Some (i, Gt) /\ f = plug (CR k a i d) E /\ guided cm (CR k a i d)).
Proof.
  induction f as [|k l IHl x r IHr]; intros fuel c x0 R Hr Fu; [discriminate|]. cbn in Hr. injection Hr as <-.
  destruct (at_f _ _ _ _ _ _ R) as [X1 [X2 [X3 X4]]]. cbn [ino] in Fu. rewrite app_length in Fu. cbn [length] in Fu.
  destruct fuel as [|fuel]; [lia|]. cbn [descend]. destruct (cm x) eqn:K.
  - left. exists x. repeat split; auto. cbn. apply in_elt.
  - rewrite X2. destruct l as [|k1 l1 y l2].
    + right. left. exists Top, k, x, r. cbn. auto.
    + cbn [rt]. destruct (IHl fuel (CL k c x r) y R eq_refl) as [[i [H1 [H2 H3]]]|[[d [k' [i [b [H1 [H2 H3]]]]]]|[d [k' [i [b [H1 [H2 H3]]]]]]]]; [lia|..].
      * left. exists i. repeat split; auto. cbn [ino]. apply in_or_app. auto.
      * right. left. exists (cat (CL k Top x r) d), k', i, b. split; auto. cbn [plug] in *. rewrite plug_cat, <- H2.
        split; auto. cbn [guided] in *. destruct H3. split; auto. apply guided_cat; cbn; auto.
      * right. right. exists (cat (CL k Top x r) d), k', i, b. split; auto. cbn [plug] in *. rewrite plug_cat, <- H2.
        split; auto. cbn [guided] in *. destruct H3. split; auto. apply guided_cat; cbn; auto.
  - rewrite X3. destruct r as [|k1 l1 y l2].
    + right. right. exists Top, k, x, l. cbn. auto.
    + cbn [rt]. destruct (IHr fuel (CR k l x c) y R eq_refl) as [[i [H1 [H2 H3]]]|[[d [k' [i [b [H1 [H2 H3]]]]]]|[d [k' [i [b [H1 [H2 H3]]]]]]]]; [lia|..].
      * left. exists i. repeat split; auto. cbn [ino]. apply in_or_app. right. right. auto.
      * right. left. exists (cat (CR k l x Top) d), k', i, b. split; auto. cbn [plug] in *. rewrite plug_cat, <- H2.
        split; auto. cbn [guided] in *. destruct H3. split; auto. apply guided_cat; cbn; auto.
      * right. right. exists (cat (CR k l x Top) d), k', i, b. split; auto. cbn [plug] in *. rewrite plug_cat, <- H2.
        split; auto. cbn [guided] in *. destruct H3. split; auto. apply guided_cat; cbn; auto.
Qed.

(** ** ocf_rb_tree_insert *)
Definition prep (x : nat) (t : rb) : rb :=
  mod1 x (fun n => set_par None (set_rgt None (set_lft None n))) (init_list x t).
Lemma prep_x x t : hp (prep x t) x = {| red := red (hp t x); lft := None; rgt := None; par := None; nxt := x; prv := x |}.
Proof. unfold prep, init_list. now rewrite !mod1_eq. Qed.
Lemma prep_o x t y : y <> x -> hp (prep x t) y = hp t y.
Proof. intro H. unfold prep, init_list. now rewrite !mod1_ne. Qed.
Lemma Rep_out t t' f : Rep t f -> root t' = root t -> (forall y, In y (ino f) -> same (hp t) (hp t') y) -> Rep t' f.
Proof. intros [R1 [R2 R3]] H S. split; [congruence|]. split; auto. now apply (rep_ext (hp t)). Qed.
Lemma Rep_prep t f x : Rep t f -> ~ In x (ino f) -> Rep (prep x t) f.
Proof. intros R N. apply (Rep_out t); auto. intros y Hy. apply same_eq, prep_o. congruence. Qed.

(** A red leaf is hung into the hole. *)
Lemma hang t d x (left : bool) (i : nat) k o f : f = (if left then CL k d i o else CR k o i d) ->
  Rep t (plug f E) -> ~ In x (ino (plug f E)) -> lft (hp t x) = None -> rgt (hp t x) = None ->
  let t1 := mod1 x (fun n => set_par (Some i) (set_red true n)) t in
  let t2 := mod1 i (if left then set_lft (Some x) else set_rgt (Some x)) t1 in
  Rep t2 (plug f (T true E x E)) /\ (forall y, ~ In y (ino (plug f (T true E x E))) -> hp t2 y = hp t y) /\
  (forall y, nxt (hp t2 y) = nxt (hp t y) /\ prv (hp t2 y) = prv (hp t y)).
Proof.
  intros Ef R N Lx Rx t1 t2.
  assert (Xi : x <> i).
  { intros ->. apply N. apply In_plug. right. subst f. destruct left; cbn; auto. }
  assert (Px : hp t2 x = set_par (Some i) (set_red true (hp t x))) by (unfold t2, t1; rewrite mod1_ne, mod1_eq; auto).
  assert (Po : forall y, y <> x -> y <> i -> hp t2 y = hp t y) by (intros y H1 H2; unfold t2, t1; now rewrite !mod1_ne).
  assert (Pi : hp t2 i = (if left then set_lft (Some x) else set_rgt (Some x)) (hp t i)).
  { unfold t2, t1. rewrite mod1_eq, mod1_ne; auto. }
  assert (Nx : ~ In x (cn f)) by (intro K; apply N, In_plug; auto).
  apply Rep_plug in R. destruct R as [R1 [R2 [_ R3]]]. cbn [rt ino app] in *.
  split; [|split].
  - apply Rep_plug. cbn [rt ino app]. split; [|split; [|split]].
    + subst f. destruct left; exact R1.
    + subst f. destruct left; cbn [crep cn cq] in *; destruct R2 as [C1 [C2 [C3 [C4 [C5 C6]]]]]; rewrite Pi;
        cbn [red lft rgt par set_lft set_rgt]; repeat (split; [assumption || reflexivity|]);
        apply nd_cons in R3; destruct R3 as [N1 N2]; cbn [In] in Nx; rewrite in_app_iff in N1, Nx; split.
      * eapply rep_ext; [|exact C5]. intros y Hy. apply same_eq, Po; intros ->; auto 6.
      * eapply crep_ext; [|exact C6]. intros y Hy. apply same_eq, Po; intros ->; auto 6.
      * eapply rep_ext; [|exact C5]. intros y Hy. apply same_eq, Po; intros ->; auto 6.
      * eapply crep_ext; [|exact C6]. intros y Hy. apply same_eq, Po; intros ->; auto 6.
    + cbn [rep rt]. rewrite Px. cbn [red lft rgt par set_par set_red]. rewrite Lx, Rx. repeat split; auto. subst f. now destruct left.
    + now constructor.
  - intros y Hy. apply Po; intros ->; apply Hy; apply In_plug; cbn; auto. right. subst f. destruct left; cbn; auto.
  - intro y. unfold t2, t1. cbn. destruct (Nat.eqb_spec y i), left; cbn; destruct (Nat.eqb_spec y x); cbn; auto.
Qed.

Lemma insert_spec fuel cm t x f : Rep t f -> RB f -> ~ In x (ino f) -> length (ino f) + 4 <= fuel ->
  (exists t' d f', insert fuel cm t x = Some t' /\ f = plug d E /\ guided cm d /\ Rep t' f' /\ RB f' /\
     ino f' = cl d ++ x :: cr d /\ (forall y, ~ In y (ino f) -> y <> x -> hp t' y = hp t y) /\
     (forall y, y <> x -> nxt (hp t' y) = nxt (hp t y) /\ prv (hp t' y) = prv (hp t y)) /\ nxt (hp t' x) = x /\ prv (hp t' x) = x) \/
  (exists i, In i (ino f) /\ cm i = Eq /\ insert fuel cm t x = Some (list_add_tail x i (prep x t))).
Proof.
  intros R B N Fu. assert (R' := Rep_prep t f x R N).
  unfold insert. fold (prep x t). change (mod1 x (fun n => set_par None (set_rgt None (set_lft None n))) (init_list x t)) with (prep x t).
  destruct f as [|k a r b].
  - left. destruct R' as [R1 _]. rewrite R1. cbn [rt].
    eexists _, Top, (T false E x E). split; [reflexivity|].
    set (t1 := mod1 x (fun n => set_par None (set_red false n)) (prep x t)).
    assert (P : hp t1 x = {| red := false; lft := None; rgt := None; par := None; nxt := x; prv := x |}) by (unfold t1; rewrite mod1_eq, prep_x; reflexivity).
    assert (Po : forall y, y <> x -> hp t1 y = hp t y) by (intros y H; unfold t1; rewrite mod1_ne, prep_o; auto).
    cbn [plug guided cl cr ino app]. change (hp (set_root (Some x) t1)) with (hp t1).
    split; [reflexivity|]. split; [exact I|]. split; [|split; [|split; [reflexivity|split; [|split]]]].
    + split; [reflexivity|]. change (hp (set_root (Some x) t1)) with (hp t1). cbn [rep rt]. rewrite P. repeat split. constructor; auto. constructor.
    + split; [exact I|]. exists 1. cbn. auto.
    + intros y _ H. now apply Po.
    + intros y H. now rewrite Po.
    + rewrite P. auto.
  - assert (R1 := at_root _ _ _ _ _ R'). rewrite R1.
    destruct (descend_spec cm (prep x t) (T k a r b) fuel Top r R' eq_refl) as [[i [H1 [H2 H3]]]|[[d [k' [i [o [H1 [H2 H3]]]]]]|[d [k' [i [o [H1 [H2 H3]]]]]]]]; [lia|..]; rewrite H1.
    + right. exists i. auto.
    + left. rewrite H2 in *.
      destruct (hang (prep x t) d x true i k' o (CL k' d i o) eq_refl) as [G1 [G2 G3]]; auto; try (rewrite prep_x; reflexivity).
      cbn [plug] in *. cbn zeta in G1, G2, G3.
      set (t2 := mod1 i (set_lft (Some x)) _) in *.
      destruct (RB_ok (CL k' d i o) E B) as [n [B1 B2]]. cbn in B1. subst n. cbn [isr] in B2.
      destruct (fv_spec fuel (CL k' d i o) 0 E x E t2) as [t' [f' [V1 [V2 [V3 [V4 V5]]]]]]; auto; try (cbn; auto; fail).
      { assert (K := depth_len (CL k' d i o)). rewrite <- plug_len in K. cbn [plug] in K. lia. }
      exists t', (CL k' d i o), f'. split; [assumption|]. split; [reflexivity|]. split; [assumption|]. split; [assumption|]. split; [assumption|].
      rewrite ino_plug in V4. cbn [ino app] in V4. split; [assumption|]. destruct V5 as [V5 V6].
      assert (S : forall y, In y (ino (plug (CL k' d i o) (T true E x E))) -> y <> x -> In y (ino (plug d (T k' E i o)))).
      { intros y H H'. apply (In_plug (CL k' d i o) E). apply In_plug in H. cbn [ino] in H. destruct H as [[H|[]]|H]; auto. congruence. }
      split; [|split].
      * intros y H H'. rewrite V5, G2, prep_o; auto.
      * intros y H. destruct (V6 y), (G3 y). rewrite prep_o in * by auto. split; congruence.
      * destruct (V6 x), (G3 x). rewrite prep_x in *. cbn in *. split; congruence.
    + left. rewrite H2 in *.
      destruct (hang (prep x t) d x false i k' o (CR k' o i d) eq_refl) as [G1 [G2 G3]]; auto; try (rewrite prep_x; reflexivity).
      cbn [plug] in *. cbn zeta in G1, G2, G3.
      set (t2 := mod1 i (set_rgt (Some x)) _) in *.
      destruct (RB_ok (CR k' o i d) E B) as [n [B1 B2]]. cbn in B1. subst n. cbn [isr] in B2.
      destruct (fv_spec fuel (CR k' o i d) 0 E x E t2) as [t' [f' [V1 [V2 [V3 [V4 V5]]]]]]; auto; try (cbn; auto; fail).
      { assert (K := depth_len (CR k' o i d)). rewrite <- plug_len in K. cbn [plug] in K. lia. }
      exists t', (CR k' o i d), f'. split; [assumption|]. split; [reflexivity|]. split; [assumption|]. split; [assumption|]. split; [assumption|].
      rewrite ino_plug in V4. cbn [ino app] in V4. split; [assumption|]. destruct V5 as [V5 V6].
      assert (S : forall y, In y (ino (plug (CR k' o i d) (T true E x E))) -> y <> x -> In y (ino (plug d (T k' o i E)))).
      { intros y H H'. apply (In_plug (CR k' o i d) E). apply In_plug in H. cbn [ino] in H. destruct H as [[H|[]]|H]; auto. congruence. }
      split; [|split].
      * intros y H H'. rewrite V5, G2, prep_o; auto.
      * intros y H. destruct (V6 y), (G3 y). rewrite prep_o in * by auto. split; congruence.
      * destruct (V6 x), (G3 x). rewrite prep_x in *. cbn in *. split; congruence.
Qed.

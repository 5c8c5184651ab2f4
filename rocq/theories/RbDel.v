(** ocf_rb_tree_remove keeps the tree balanced and ordered. *)
From Coq Require Import List Bool Arith Lia Permutation.
From Verif Require Import RbModel RbTree RbRot RbIns.
Import ListNotations.

Definition leaf (k : bool) (x : nat) : tr := T k E x E.

(** The leaf [x] can be taken off the resulting tree. *)
Definition readyc (c0 : ctx) (k : bool) (x : nat) (t : rb) (o : option rb) : Prop :=
  exists t' c', o = Some t' /\ Rep t' (plug c' (leaf k x)) /\ RB (plug c' E) /\
    cl c' = cl c0 /\ cr c' = cr c0 /\ keeps (ino (plug c0 (leaf k x))) t t'.
Lemma readyc_step c0 c1 k x t t1 o : cl c1 = cl c0 -> cr c1 = cr c0 -> keeps (ino (plug c0 (leaf k x))) t t1 ->
  readyc c1 k x t1 o -> readyc c0 k x t o.
Proof.
  intros L R K [t' [c' [H1 [H2 [H3 [H4 [H5 H6]]]]]]]. exists t', c'. repeat split; auto; try congruence; try apply H2; try apply H3.
  - intros y Hy. destruct H6 as [H6 _], K as [K _]. rewrite H6, K; auto. rewrite ino_plug, L, R, <- ino_plug. auto.
  - destruct H6 as [_ H6], K as [_ K]. destruct (H6 y), (K y). congruence.
  - destruct H6 as [_ H6], K as [_ K]. destruct (H6 y), (K y). congruence.
Qed.

Lemma fdb_eq fuel t x : fix_double_black (S fuel) t x = let F := fix_double_black fuel in
    match par (hp t x) with
    | None => Some t
    | Some p =>
      match sibling t x with
      | None => F t p
      | Some s =>
        if red (hp t s) then
          let t := mod1 p (set_red true) t in
          let t := mod1 s (set_red false) t in
          bindo (if peq (Some s) (lft (hp t p)) then rotate_right t p else rotate_left t p)
                (fun t => F t x)
        else if isred t (lft (hp t s)) then
          bindo (if peq (Some s) (lft (hp t p)) then
                   let t := modp (lft (hp t s)) (set_red (red (hp t s))) t in
                   let t := mod1 s (set_red (red (hp t p))) t in
                   rotate_right t p
                 else
                   let t := modp (lft (hp t s)) (set_red (red (hp t p))) t in
                   bindo (rotate_right t s) (fun t =>
                   match par (hp t x) with Some p => rotate_left t p | None => None end))
                (fun t => match par (hp t x) with Some p => Some (mod1 p (set_red false) t) | None => None end)
        else if isred t (rgt (hp t s)) then
          bindo (if peq (Some s) (lft (hp t p)) then
                   let t := modp (rgt (hp t s)) (set_red (red (hp t p))) t in
                   bindo (rotate_left t s) (fun t =>
                   match par (hp t x) with Some p => rotate_right t p | None => None end)
                 else
                   let t := modp (rgt (hp t s)) (set_red (red (hp t s))) t in
                   let t := mod1 s (set_red (red (hp t p))) t in
                   rotate_left t p)
                (fun t => match par (hp t x) with Some p => Some (mod1 p (set_red false) t) | None => None end)
        else
          let t := mod1 s (set_red true) t in
          if red (hp t p) then Some (mod1 p (set_red false) t)
          else F t p
      end
    end.
Proof. reflexivity. Qed.

Lemma par_sub t c d k x w : Rep t (plug c (plug d (leaf k x))) -> rt (plug d (leaf k x)) = Some w -> par (hp t w) = cq c.
Proof. intros R H. apply Rep_plug in R. destruct R as [_ [_ [R _]]]. now apply (rep_rt _ _ _ _ R). Qed.
Lemma isred_tr t c f : Rep t (plug c f) -> isred t (rt f) = isr f.
Proof.
  intro R. destruct f as [|k a x b]; cbn; auto. destruct (at_f _ _ _ _ _ _ R) as [H _]. rewrite H. now destruct k.
Qed.

Lemma ok_up c kp m l y r : ok c kp (S m + if kp then 0 else 1) -> bal l (S m) -> bal r (S m) -> blk l -> blk r -> RB (plug c (T kp l y r)).
Proof.
  intros O Bl Br Kl Kr. destruct kp.
  - rewrite Nat.add_0_r in O. apply (ok_RB c true (S m)); [assumption|cbn; auto|discriminate].
  - rewrite Nat.add_1_r in O. apply (ok_RB c false (S (S m))); [assumption|cbn; auto|cbn; auto].
Qed.

(** The sibling [s] is black; the double-black node is a left child. *)
Lemma fdb_black_l fuel c p kp sl s sr d m k x w t :
  Rep t (plug c (T kp (plug d (leaf k x)) p (T false sl s sr))) -> rt (plug d (leaf k x)) = Some w ->
  bal (plug d E) m -> bal sl m -> bal sr m -> ok c kp (S m + if kp then 0 else 1) ->
  (kp = false -> blk sl -> blk sr -> forall t1, Rep t1 (plug c (T false (plug d (leaf k x)) p (T true sl s sr))) ->
     readyc (cat (CL false c p (T true sl s sr)) d) k x t1 (fix_double_black fuel t1 p)) ->
  readyc (cat (CL kp c p (T false sl s sr)) d) k x t (fix_double_black (S fuel) t w).
Proof.
  intros R W Bd Bl Br O IH. set (F := plug d (leaf k x)) in *.
  destruct (at_f t c kp F p (T false sl s sr) R) as [P1 [P2 [P3 P4]]]. cbn [rt] in P3. rewrite W in P2.
  assert (W4 := par_sub t (CL kp c p (T false sl s sr)) d k x w R W). cbn [cq] in W4.
  destruct (at_f t (CR kp F p c) false sl s sr R) as [S1 [S2 [S3 S4]]].
  assert (Nd : NoDup (ino (plug c (T kp F p (T false sl s sr))))) by apply R.
  assert (Nd2 := Permutation_NoDup (plug_perm _ _) Nd). cbn [ino] in Nd2.
  assert (WF : In w (ino F)) by now apply rt_in.
  assert (Sw : peq (Some s) (Some w) = false).
  { destruct (peq_spec (Some s) (Some w)) as [K|K]; auto. injection K as ->. nds. exfalso. dj. }
  assert (Il := isred_tr t (CL false (CR kp F p c) s sr) sl R).
  assert (Ir := isred_tr t (CR false sl s (CR kp F p c)) sr R).
  rewrite fdb_eq. cbn zeta. rewrite W4. unfold sibling. rewrite W4, P2, peq_refl, P3, S1, S2, S3, Il, Ir, Sw, P1. clear Il Ir.
  destruct (isr sl) eqn:Il.
  { (* inner nephew red *)
    destruct sl as [|[|] a y b]; try discriminate Il. cbn [rt modp].
    destruct (recolor_spec t (CL false (CR kp F p c) s sr) true a y b kp R) as [R1 K1]. set (t1 := mod1 y (set_red kp) t) in *.
    destruct (rotate_right_spec t1 (CR kp F p c) false kp a y b s sr R1) as [t2 [E2 [R2 K2]]]. rewrite E2. cbn [bindo].
    rewrite (par_sub t2 (CL kp c p (T kp a y (T false b s sr))) d k x w R2 W). cbn [cq].
    destruct (rotate_left_spec t2 c kp kp (T false b s sr) y a p F R2) as [t3 [E3 [R3 K3]]]. rewrite E3. cbn [bindo].
    rewrite (par_sub t3 (CL kp (CL kp c y (T false b s sr)) p a) d k x w R3 W). cbn [cq].
    destruct (recolor_spec t3 (CL kp c y (T false b s sr)) kp F p a false R3) as [R4 K4].
    cbn [bal] in Bl. destruct Bl as [Ba [Bb [Ka Kb]]].
    exists (mod1 p (set_red false) t3), (cat (CL false (CL kp c y (T false b s sr)) p a) d). split; [reflexivity|].
    split; [rewrite plug_cat; exact R4|]. split; [|split; [|split]].
    - rewrite plug_cat. cbn [plug]. apply (ok_up c kp m); cbn; auto.
    - rewrite !cl_cat. reflexivity.
    - rewrite !cr_cat. f_equal. cbn [cr ino]. repeat (rewrite <- !app_assoc; cbn [app]). reflexivity.
    - rewrite plug_cat. cbn [plug] in *. fold F. eapply keeps_trans; [|exact K1|eapply keeps_trans; [|exact K2|eapply keeps_trans; [|exact K3|exact K4]]]; insub. }
  apply blk_isr in Il. destruct (isr sr) eqn:Ir.
  { (* outer nephew red *)
    destruct sr as [|[|] a y b]; try discriminate Ir. cbn [rt modp].
    destruct (recolor_spec t (CR false sl s (CR kp F p c)) true a y b false R) as [R1 K1]. set (t1 := mod1 y (set_red false) t) in *.
    destruct (at_f t1 c kp F p (T false sl s (T false a y b)) R1) as [P1' _]. rewrite P1'.
    destruct (recolor_spec t1 (CR kp F p c) false sl s (T false a y b) kp R1) as [R2 K2]. set (t2 := mod1 s (set_red kp) t1) in *.
    destruct (rotate_left_spec t2 c kp kp (T false a y b) s sl p F R2) as [t3 [E3 [R3 K3]]]. rewrite E3. cbn [bindo].
    rewrite (par_sub t3 (CL kp (CL kp c s (T false a y b)) p sl) d k x w R3 W). cbn [cq].
    destruct (recolor_spec t3 (CL kp c s (T false a y b)) kp F p sl false R3) as [R4 K4].
    cbn [bal] in Br. destruct Br as [Ba [Bb [Ka Kb]]].
    exists (mod1 p (set_red false) t3), (cat (CL false (CL kp c s (T false a y b)) p sl) d). split; [reflexivity|].
    split; [rewrite plug_cat; exact R4|]. split; [|split; [|split]].
    - rewrite plug_cat. cbn [plug]. apply (ok_up c kp m); cbn; auto.
    - rewrite !cl_cat. reflexivity.
    - rewrite !cr_cat. f_equal. cbn [cr ino]. repeat (rewrite <- !app_assoc; cbn [app]). reflexivity.
    - rewrite plug_cat. cbn [plug] in *. fold F. eapply keeps_trans; [|exact K1|eapply keeps_trans; [|exact K2|eapply keeps_trans; [|exact K3|exact K4]]]; insub. }
  apply blk_isr in Ir.
  destruct (recolor_spec t (CR kp F p c) false sl s sr true R) as [R1 K1]. set (t1 := mod1 s (set_red true) t) in *.
  destruct (at_f t1 c kp F p (T true sl s sr) R1) as [P1' _]. rewrite P1'.
  assert (K1' : keeps (ino (plug (cat (CL kp c p (T false sl s sr)) d) (leaf k x))) t t1) by (rewrite plug_cat; exact K1).
  destruct kp.
  - destruct (recolor_spec t1 c true F p (T true sl s sr) false R1) as [R2 K2].
    exists (mod1 p (set_red false) t1), (cat (CL false c p (T true sl s sr)) d). split; [reflexivity|].
    split; [rewrite plug_cat; exact R2|]. split; [|split; [|split]].
    + rewrite plug_cat. cbn [plug]. rewrite Nat.add_0_r in O. apply (ok_RB c true (S m)); [assumption|cbn; auto|discriminate].
    + rewrite !cl_cat. reflexivity.
    + rewrite !cr_cat. reflexivity.
    + rewrite plug_cat. cbn [plug] in *. fold F. eapply keeps_trans; [|exact K1|exact K2]; insub.
  - eapply readyc_step; [| |exact K1'|apply (IH eq_refl Il Ir t1 R1)].
    + rewrite !cl_cat. reflexivity.
    + rewrite !cr_cat. reflexivity.
Qed.
(** ... a right child. *)
Lemma fdb_black_r fuel c p kp sl s sr d m k x w t :
  Rep t (plug c (T kp (T false sl s sr) p (plug d (leaf k x)))) -> rt (plug d (leaf k x)) = Some w ->
  bal (plug d E) m -> bal sl m -> bal sr m -> ok c kp (S m + if kp then 0 else 1) ->
  (kp = false -> blk sl -> blk sr -> forall t1, Rep t1 (plug c (T false (T true sl s sr) p (plug d (leaf k x)))) ->
     readyc (cat (CR false (T true sl s sr) p c) d) k x t1 (fix_double_black fuel t1 p)) ->
  readyc (cat (CR kp (T false sl s sr) p c) d) k x t (fix_double_black (S fuel) t w).
Proof.
  intros R W Bd Bl Br O IH. set (F := plug d (leaf k x)) in *.
  destruct (at_f t c kp (T false sl s sr) p F R) as [P1 [P2 [P3 P4]]]. cbn [rt] in P2. rewrite W in P3.
  assert (W4 := par_sub t (CR kp (T false sl s sr) p c) d k x w R W). cbn [cq] in W4.
  destruct (at_f t (CL kp c p F) false sl s sr R) as [S1 [S2 [S3 S4]]].
  assert (Nd : NoDup (ino (plug c (T kp (T false sl s sr) p F)))) by apply R.
  assert (Nd2 := Permutation_NoDup (plug_perm _ _) Nd). cbn [ino] in Nd2.
  assert (WF : In w (ino F)) by now apply rt_in.
  assert (Sw : peq (Some w) (Some s) = false).
  { destruct (peq_spec (Some w) (Some s)) as [K|K]; auto. injection K as ->. nds. exfalso. dj. }
  assert (Il := isred_tr t (CL false (CL kp c p F) s sr) sl R).
  assert (Ir := isred_tr t (CR false sl s (CL kp c p F)) sr R).
  rewrite fdb_eq. cbn zeta. rewrite W4. unfold sibling. rewrite W4, P2, Sw, S1, S2, S3, Il, Ir, peq_refl, P1. clear Il Ir.
  destruct (isr sl) eqn:Il.
  { (* outer nephew red *)
    destruct sl as [|[|] a y b]; try discriminate Il. cbn [rt modp].
    destruct (recolor_spec t (CL false (CL kp c p F) s sr) true a y b false R) as [R1 K1]. set (t1 := mod1 y (set_red false) t) in *.
    destruct (at_f t1 c kp (T false (T false a y b) s sr) p F R1) as [P1' _]. rewrite P1'.
    destruct (recolor_spec t1 (CL kp c p F) false (T false a y b) s sr kp R1) as [R2 K2]. set (t2 := mod1 s (set_red kp) t1) in *.
    destruct (rotate_right_spec t2 c kp kp (T false a y b) s sr p F R2) as [t3 [E3 [R3 K3]]]. rewrite E3. cbn [bindo].
    rewrite (par_sub t3 (CR kp sr p (CR kp (T false a y b) s c)) d k x w R3 W). cbn [cq].
    destruct (recolor_spec t3 (CR kp (T false a y b) s c) kp sr p F false R3) as [R4 K4].
    cbn [bal] in Bl. destruct Bl as [Ba [Bb [Ka Kb]]].
    exists (mod1 p (set_red false) t3), (cat (CR false sr p (CR kp (T false a y b) s c)) d). split; [reflexivity|].
    split; [rewrite plug_cat; exact R4|]. split; [|split; [|split]].
    - rewrite plug_cat. cbn [plug]. apply (ok_up c kp m); cbn; auto.
    - rewrite !cl_cat. f_equal. cbn [cl ino]. repeat (rewrite <- !app_assoc; cbn [app]). reflexivity.
    - rewrite !cr_cat. reflexivity.
    - rewrite plug_cat. cbn [plug] in *. fold F. eapply keeps_trans; [|exact K1|eapply keeps_trans; [|exact K2|eapply keeps_trans; [|exact K3|exact K4]]]; insub. }
  apply blk_isr in Il. destruct (isr sr) eqn:Ir.
  { (* inner nephew red *)
    destruct sr as [|[|] a y b]; try discriminate Ir. cbn [rt modp].
    destruct (recolor_spec t (CR false sl s (CL kp c p F)) true a y b kp R) as [R1 K1]. set (t1 := mod1 y (set_red kp) t) in *.
    destruct (rotate_left_spec t1 (CL kp c p F) false kp b y a s sl R1) as [t2 [E2 [R2 K2]]]. rewrite E2. cbn [bindo].
    rewrite (par_sub t2 (CR kp (T kp (T false sl s a) y b) p c) d k x w R2 W). cbn [cq].
    destruct (rotate_right_spec t2 c kp kp (T false sl s a) y b p F R2) as [t3 [E3 [R3 K3]]]. rewrite E3. cbn [bindo].
    rewrite (par_sub t3 (CR kp b p (CR kp (T false sl s a) y c)) d k x w R3 W). cbn [cq].
    destruct (recolor_spec t3 (CR kp (T false sl s a) y c) kp b p F false R3) as [R4 K4].
    cbn [bal] in Br. destruct Br as [Ba [Bb [Ka Kb]]].
    exists (mod1 p (set_red false) t3), (cat (CR false b p (CR kp (T false sl s a) y c)) d). split; [reflexivity|].
    split; [rewrite plug_cat; exact R4|]. split; [|split; [|split]].
    - rewrite plug_cat. cbn [plug]. apply (ok_up c kp m); cbn; auto.
    - rewrite !cl_cat. f_equal. cbn [cl ino]. repeat (rewrite <- !app_assoc; cbn [app]). reflexivity.
    - rewrite !cr_cat. reflexivity.
    - rewrite plug_cat. cbn [plug] in *. fold F. eapply keeps_trans; [|exact K1|eapply keeps_trans; [|exact K2|eapply keeps_trans; [|exact K3|exact K4]]]; insub. }
  apply blk_isr in Ir.
  destruct (recolor_spec t (CL kp c p F) false sl s sr true R) as [R1 K1]. set (t1 := mod1 s (set_red true) t) in *.
  destruct (at_f t1 c kp (T true sl s sr) p F R1) as [P1' _]. rewrite P1'.
  assert (K1' : keeps (ino (plug (cat (CR kp (T false sl s sr) p c) d) (leaf k x))) t t1) by (rewrite plug_cat; exact K1).
  destruct kp.
  - destruct (recolor_spec t1 c true (T true sl s sr) p F false R1) as [R2 K2].
    exists (mod1 p (set_red false) t1), (cat (CR false (T true sl s sr) p c) d). split; [reflexivity|].
    split; [rewrite plug_cat; exact R2|]. split; [|split; [|split]].
    + rewrite plug_cat. cbn [plug]. rewrite Nat.add_0_r in O. apply (ok_RB c true (S m)); [assumption|cbn; auto|discriminate].
    + rewrite !cl_cat. reflexivity.
    + rewrite !cr_cat. reflexivity.
    + rewrite plug_cat. cbn [plug] in *. fold F. eapply keeps_trans; [|exact K1|exact K2]; insub.
  - eapply readyc_step; [| |exact K1'|apply (IH eq_refl Il Ir t1 R1)].
    + rewrite !cl_cat. reflexivity.
    + rewrite !cr_cat. reflexivity.
Qed.

Lemma rt_leaf d k x : exists w, rt (plug d (leaf k x)) = Some w.
Proof.
  rewrite rt_plug. cbn [rt leaf]. revert x. induction d; intro x0; cbn [top]; eauto.
Qed.

(** ocf_rb_tree_fix_double_black: the hole below needs one black level more than it has. *)
Lemma fdb_spec : forall fuel c d m k x w t, depth c + 2 <= fuel ->
  Rep t (plug c (plug d (leaf k x))) -> rt (plug d (leaf k x)) = Some w ->
  bal (plug d E) m -> blk (plug d E) -> ok c false (S m) -> readyc (cat c d) k x t (fix_double_black fuel t w).
Proof.
  induction fuel as [fuel IH] using lt_wf_ind. intros c d m k x w t Fu R W Bd Kd O.
  assert (W4 := par_sub t c d k x w R W).
  destruct fuel as [|fuel]; [lia|].
  destruct c as [|kp c p s0|kp s0 p c].
  - rewrite fdb_eq. cbn zeta. rewrite W4. cbn [cq].
    exists t, (cat Top d). split; [reflexivity|]. split; [rewrite plug_cat; exact R|]. split; [|split; [reflexivity|split; [reflexivity|apply keeps_refl]]].
    rewrite plug_cat. split; [exact Kd|]. now exists m.
  - assert (B0 : bal s0 (S m)) by (destruct kp; cbn in O; tauto).
    destruct s0 as [|[|] sl s sr]; [discriminate B0| |].
    + (* red sibling *)
      destruct kp; cbn [ok] in O; [destruct O as [_ [[] _]]|]. destruct O as [_ O]. cbn [bal] in B0. destruct B0 as [Bl [Br [Kl Kr]]].
      set (F := plug d (leaf k x)) in *. cbn [cq] in W4.
      destruct (at_f t c false F p (T true sl s sr) R) as [P1 [P2 [P3 P4]]]. cbn [rt] in P3. rewrite W in P2.
      destruct (at_f t (CR false F p c) true sl s sr R) as [S1 _].
      assert (Sw : peq (Some s) (Some w) = false).
      { destruct (peq_spec (Some s) (Some w)) as [K|K]; auto. injection K as ->.
        assert (WF : In w (ino F)) by now apply rt_in. destruct R as [_ [_ Nd]]. apply (Permutation_NoDup (plug_perm (CL false c p (T true sl w sr)) F)) in Nd.
        cbn [cn ino] in Nd. nds. exfalso. dj. }
      rewrite fdb_eq. cbn zeta. rewrite W4. unfold sibling. rewrite W4, P2, peq_refl, P3, S1.
      destruct (recolor_spec t c false F p (T true sl s sr) true R) as [R1 K1]. set (t1 := mod1 p (set_red true) t) in *.
      destruct (recolor_spec t1 (CR true F p c) true sl s sr false R1) as [R2 K2]. set (t2 := mod1 s (set_red false) t1) in *.
      destruct (at_f t2 c true F p (T false sl s sr) R2) as [_ [P2' _]]. rewrite P2', W, Sw.
      destruct (rotate_left_spec t2 c true false sr s sl p F R2) as [t3 [E3 [R3 K3]]]. rewrite E3. cbn [bindo].
      assert (KK : keeps (ino (plug (cat (CL false c p (T true sl s sr)) d) (leaf k x))) t t3).
      { rewrite plug_cat. cbn [plug] in *. fold F. eapply keeps_trans; [|exact K1|eapply keeps_trans; [|exact K2|exact K3]]; insub. }
      apply (readyc_step _ (cat (CL true (CL false c s sr) p sl) d) _ _ _ t3); [| |exact KK|].
      * rewrite !cl_cat. reflexivity.
      * rewrite !cr_cat. f_equal. cbn [cr ino]. repeat (rewrite <- !app_assoc; cbn [app]). reflexivity.
      * destruct sl as [|[|] a y b]; [discriminate Bl|contradiction|]. cbn [bal] in Bl. destruct Bl as [Ba Bb].
        destruct fuel as [|fuel]; [lia|].
        apply (fdb_black_l fuel (CL false c s sr) p true a y b d m k x w t3); auto; [|discriminate].
        cbn [ok]. rewrite Nat.add_0_r. auto.
    + cbn [bal] in B0. destruct B0 as [Bl Br].
      apply (fdb_black_l fuel c p kp sl s sr d m k x w t); auto.
      * destruct kp; cbn [ok] in O; [rewrite Nat.add_0_r|rewrite Nat.add_1_r]; tauto.
      * intros -> Kl Kr t1 R1. cbn [ok] in O. destruct O as [_ O].
        assert (C : cat (CL false c p (T true sl s sr)) d = cat c (cat (CL false Top p (T true sl s sr)) d)).
        { clear. induction d; cbn; auto; now rewrite IHd. }
        rewrite C. apply (IH fuel ltac:(lia) c (cat (CL false Top p (T true sl s sr)) d) (S m)); auto.
        -- cbn [depth] in Fu. lia.
        -- rewrite plug_cat. exact R1.
        -- rewrite plug_cat. reflexivity.
        -- rewrite plug_cat. cbn. auto.
        -- rewrite plug_cat. exact I.
  - assert (B0 : bal s0 (S m)) by (destruct kp; cbn in O; tauto).
    destruct s0 as [|[|] sl s sr]; [discriminate B0| |].
    + destruct kp; cbn [ok] in O; [destruct O as [_ [[] _]]|]. destruct O as [_ O]. cbn [bal] in B0. destruct B0 as [Bl [Br [Kl Kr]]].
      set (F := plug d (leaf k x)) in *. cbn [cq] in W4.
      destruct (at_f t c false (T true sl s sr) p F R) as [P1 [P2 [P3 P4]]]. cbn [rt] in P2. rewrite W in P3.
      destruct (at_f t (CL false c p F) true sl s sr R) as [S1 _].
      assert (Sw : peq (Some w) (Some s) = false).
      { destruct (peq_spec (Some w) (Some s)) as [K|K]; auto. injection K as ->.
        assert (WF : In s (ino F)) by now apply rt_in. destruct R as [_ [_ Nd]]. apply (Permutation_NoDup (plug_perm (CR false (T true sl s sr) p c) F)) in Nd.
        cbn [cn ino] in Nd. nds. exfalso. dj. }
      rewrite fdb_eq. cbn zeta. rewrite W4. unfold sibling. rewrite W4, P2, Sw, S1.
      destruct (recolor_spec t c false (T true sl s sr) p F true R) as [R1 K1]. set (t1 := mod1 p (set_red true) t) in *.
      destruct (recolor_spec t1 (CL true c p F) true sl s sr false R1) as [R2 K2]. set (t2 := mod1 s (set_red false) t1) in *.
      destruct (at_f t2 c true (T false sl s sr) p F R2) as [_ [P2' _]]. rewrite P2'. cbn [rt]. rewrite peq_refl.
      destruct (rotate_right_spec t2 c true false sl s sr p F R2) as [t3 [E3 [R3 K3]]]. rewrite E3. cbn [bindo].
      assert (KK : keeps (ino (plug (cat (CR false (T true sl s sr) p c) d) (leaf k x))) t t3).
      { rewrite plug_cat. cbn [plug] in *. fold F. eapply keeps_trans; [|exact K1|eapply keeps_trans; [|exact K2|exact K3]]; insub. }
      apply (readyc_step _ (cat (CR true sr p (CR false sl s c)) d) _ _ _ t3); [| |exact KK|].
      * rewrite !cl_cat. f_equal. cbn [cl ino]. repeat (rewrite <- !app_assoc; cbn [app]). reflexivity.
      * rewrite !cr_cat. reflexivity.
      * destruct sr as [|[|] a y b]; [discriminate Br|contradiction|]. cbn [bal] in Br. destruct Br as [Ba Bb].
        destruct fuel as [|fuel]; [lia|].
        apply (fdb_black_r fuel (CR false sl s c) p true a y b d m k x w t3); auto; [|discriminate].
        cbn [ok]. rewrite Nat.add_0_r. auto.
    + cbn [bal] in B0. destruct B0 as [Bl Br].
      apply (fdb_black_r fuel c p kp sl s sr d m k x w t); auto.
      * destruct kp; cbn [ok] in O; [rewrite Nat.add_0_r|rewrite Nat.add_1_r]; tauto.
      * intros -> Kl Kr t1 R1. cbn [ok] in O. destruct O as [_ O].
        assert (C : cat (CR false (T true sl s sr) p c) d = cat c (cat (CR false (T true sl s sr) p Top) d)).
        { clear. induction d; cbn; auto; now rewrite IHd. }
        rewrite C. apply (IH fuel ltac:(lia) c (cat (CR false (T true sl s sr) p Top) d) (S m)); auto.
        -- cbn [depth] in Fu. lia.
        -- rewrite plug_cat. exact R1.
        -- rewrite plug_cat. reflexivity.
        -- rewrite plug_cat. cbn. auto.
        -- rewrite plug_cat. exact I.
Qed.

(** ** ocf_rb_tree_remove for a node without ring *)
Definition gone (f0 : tr) (l : list nat) (t : rb) (o : option rb) : Prop :=
  exists t' f', o = Some t' /\ Rep t' f' /\ RB f' /\ ino f' = l /\ keeps (ino f0) t t'.
Lemma gone_step f0 f1 l t t1 o : (forall y, In y (ino f1) -> In y (ino f0)) -> keeps (ino f0) t t1 -> gone f1 l t1 o -> gone f0 l t o.
Proof.
  intros S K [t' [f' [H1 [H2 [H3 [H4 H5]]]]]]. exists t', f'. repeat (split; [assumption|]). now apply (keeps_trans _ (ino f1) _ t1).
Qed.
Lemma off_spec t c k x : Rep t (plug c (leaf k x)) ->
  let t' := update_parent t (par (hp t x)) (Some x) None in Rep t' (plug c E) /\ keeps (ino (plug c (leaf k x))) t t'.
Proof.
  intro R. destruct (at_f _ _ _ _ _ _ R) as [_ [_ [_ P]]]. rewrite P. cbn zeta.
  apply Rep_plug in R. destruct R as [R1 [R2 [_ R3]]]. cbn [leaf rt ino app] in *.
  destruct (up_spec t c x None R2 R1 R3) as [U1 [U2 [_ [_ U3]]]]. split.
  - apply Rep_plug. repeat split; auto. cbn [ino app]. now inversion R3.
  - apply (keeps_trans _ (cn c) _ t); auto with rbt. intros y Hy. apply In_plug. auto.
Qed.
Lemma take_leaf fuel t c k x : Rep t (plug c (leaf k x)) -> RB (plug c (leaf k x)) -> depth c + 2 <= fuel ->
  gone (plug c (leaf k x)) (cl c ++ cr c) t
    (bindo (if k then Some t else fix_double_black fuel t x) (fun t => Some (update_parent t (par (hp t x)) (Some x) None))).
Proof.
  intros R B Fu. destruct (RB_ok c _ B) as [n [B1 B2]]. destruct k; cbn in B1, B2.
  - destruct B1 as [-> _]. cbn [bindo]. destruct (off_spec t c true x R) as [O1 O2]. eexists _, (plug c E). split; [reflexivity|].
    split; [exact O1|]. split; [|split; [|exact O2]].
    + apply (ok_RB c false 0); cbn; auto. now apply ok_weak.
    + rewrite ino_plug. reflexivity.
  - destruct n as [|n]; [contradiction|]. destruct B1 as [-> _].
    destruct (fdb_spec fuel c Top 0 false x x t) as [t' [c' [F1 [F2 [F3 [F4 [F5 F6]]]]]]]; cbn; auto.
    cbn [cat] in *. rewrite F1. cbn [bindo]. destruct (off_spec t' c' false x F2) as [O1 O2]. eexists _, (plug c' E). split; [reflexivity|].
    split; [exact O1|]. split; [exact F3|]. split; [rewrite ino_plug, F4, F5; reflexivity|].
    apply (keeps_trans _ (ino (plug c' (leaf false x))) _ t'); auto. intros y Hy. rewrite ino_plug, F4, F5, <- ino_plug in Hy. exact Hy.
Qed.

Lemma split_at x f : In x (ino f) -> exists c k l r, f = plug c (T k l x r).
Proof.
  induction f as [|k l IHl y r IHr]; cbn; [contradiction|]. rewrite in_app_iff. cbn. intros [H|[->|H]].
  - destruct (IHl H) as [c [k' [l' [r' ->]]]]. exists (cat (CL k Top y r) c), k', l', r'. now rewrite plug_cat.
  - exists Top, k, l, r. reflexivity.
  - destruct (IHr H) as [c [k' [l' [r' ->]]]]. exists (cat (CR k l y Top) c), k', l', r'. now rewrite plug_cat.
Qed.
Lemma leftmost_spec t : forall r fuel c y0, Rep t (plug c r) -> rt r = Some y0 -> length (ino r) <= fuel ->
  exists d k b y, r = plug d (T k E y b) /\ cl d = [] /\ leftmost fuel t y0 = Some y.
Proof.
  induction r as [|k l IHl x r IHr]; intros fuel c y0 R H Fu; [discriminate|]. injection H as <-.
  destruct (at_f _ _ _ _ _ _ R) as [_ [X2 _]]. cbn [ino] in Fu. rewrite app_length in Fu. cbn in Fu. destruct fuel as [|fuel]; [lia|].
  cbn [leftmost]. rewrite X2. destruct l as [|k1 l1 z l2].
  - exists Top, k, r, x. auto.
  - cbn [rt]. destruct (IHl fuel (CL k c x r) z R eq_refl) as [d [k' [b [y [H1 [H2 H3]]]]]]; [lia|].
    exists (cat (CL k Top x r) d), k', b, y. rewrite plug_cat, <- H1, cl_cat, H2. auto.
Qed.
Lemma rightmost_spec t : forall r fuel c y0, Rep t (plug c r) -> rt r = Some y0 -> length (ino r) <= fuel ->
  exists d k a y, r = plug d (T k a y E) /\ cr d = [] /\ rightmost fuel t y0 = Some y.
Proof.
  induction r as [|k l IHl x r IHr]; intros fuel c y0 R H Fu; [discriminate|]. injection H as <-.
  destruct (at_f _ _ _ _ _ _ R) as [_ [_ [X3 _]]]. cbn [ino] in Fu. rewrite app_length in Fu. cbn in Fu. destruct fuel as [|fuel]; [lia|].
  cbn [rightmost]. rewrite X3. destruct r as [|k1 l1 z l2].
  - exists Top, k, l, x. auto.
  - cbn [rt]. destruct (IHr fuel (CR k l x c) z R eq_refl) as [d [k' [b [y [H1 [H2 H3]]]]]]; [lia|].
    exists (cat (CR k l x Top) d), k', b, y. rewrite plug_cat, <- H1, cr_cat, H2. auto.
Qed.

Fixpoint renc (a b : nat) (c : ctx) : ctx :=
  match c with
  | Top => Top
  | CL k c x r => CL k (renc a b c) (tp a b x) (ren a b r)
  | CR k l x c => CR k (ren a b l) (tp a b x) (renc a b c)
  end.
Lemma ren_plug a b c : forall f, ren a b (plug c f) = plug (renc a b c) (ren a b f).
Proof. induction c; intro f; cbn; auto; now rewrite IHc. Qed.
Lemma renc_id a b c : ~ In a (cn c) -> ~ In b (cn c) -> renc a b c = c.
Proof.
  induction c as [|k c IH x r|k l x c IH]; cbn; auto; rewrite !in_app_iff; intros H1 H2; rewrite IH, ren_id, tp_o; auto 10.
Qed.
Lemma RB_ren a b f : RB (ren a b f) <-> RB f.
Proof. unfold RB. rewrite blk_ren. split; intros [H [n K]]; (split; [exact H|exists n; now apply (bal_ren a b f)]). Qed.

Lemma top_in x c : forall z, top c (Some z) = Some x -> z = x \/ In x (cn c).
Proof.
  induction c as [|? c IH ? ?|? ? ? c IH]; cbn; intros z Hz; [injection Hz; auto| |]; destruct (IH _ Hz); subst; auto; right; right; apply in_or_app; auto.
Qed.

(** [x] changes places with a node [y] below it. *)
Lemma swap_below t c k l r x y f' : Rep t (plug c (T k l x r)) -> In y (ino l) \/ In y (ino r) -> ren x y (plug c (T k l x r)) = f' ->
  RB (plug c (T k l x r)) ->
  Rep (swap t x y) f' /\ RB f' /\ keeps (ino (plug c (T k l x r))) t (swap t x y).
Proof.
  intros R Hy <- B. destruct (at_f _ _ _ _ _ _ R) as [_ [_ [_ P]]].
  assert (Nd := proj2 (proj2 R)). apply (Permutation_NoDup (plug_perm _ _)) in Nd. cbn [ino] in Nd. nds.
  assert (IY : In y (ino (plug c (T k l x r)))) by (apply In_plug; cbn [ino]; left; rewrite in_app_iff; cbn; tauto).
  assert (Ny : ~ In y (cn c)) by (destruct Hy; intro; dj).
  assert (XY : x <> y) by (intros ->; destruct Hy; dj).
  rewrite RB_ren. assert (G : Rep (swap t x y) (ren x y (plug c (T k l x r))) /\ keeps (ino (plug c (T k l x r))) t (swap t x y)); [|tauto].
  apply swap_in; auto.
  - apply in_f.
  - rewrite P. intro K. apply cq_in in K. contradiction.
  - rewrite P. intros p Hp K. apply cq_in in Hp.
    assert (Py : forall q f, rep (hp t) q f -> In y (ino f) -> In p (ino f) \/ q = Some p).
    { intros q f. revert q. induction f as [|kf fl IHl z fr IHr]; cbn; intros q Rf Hf; [contradiction|].
      destruct Rf as [F1 [F2 [F3 [F4 [F5 F6]]]]]. rewrite in_app_iff in *. cbn in *. destruct Hf as [Hf|[-> |Hf]].
      - destruct (IHl _ F5 Hf) as [G|G]; [tauto|injection G as ->; tauto].
      - right. congruence.
      - destruct (IHr _ F6 Hf) as [G|G]; [tauto|injection G as ->; tauto]. }
    apply Rep_plug in R. destruct R as [_ [_ [[_ [_ [_ [_ [Rl Rr]]]]] _]]].
    destruct Hy as [Hy|Hy].
    + destruct (Py _ _ Rl Hy) as [G|G]; [dj|]. injection G as ->. dj.
    + destruct (Py _ _ Rr Hy) as [G|G]; [dj|]. injection G as ->. dj.
  - destruct R as [R1 _]. rewrite R1, rt_plug. cbn [rt]. intro K.
    destruct (top_in _ _ _ K); contradiction.
Qed.

Lemma sib_leaf t c x : Rep t (plug c (leaf true x)) -> RB (plug c (leaf true x)) -> c <> Top ->
  Rep (modp (sibling t x) (set_red true) t) (plug c (leaf true x)) /\
  keeps (ino (plug c (leaf true x))) t (modp (sibling t x) (set_red true) t).
Proof.
  intros R B NT. destruct (at_f _ _ _ _ _ _ R) as [_ [_ [_ P]]]. destruct (RB_ok c _ B) as [n [B1 B2]]. cbn in B1, B2. destruct B1 as [-> _].
  unfold sibling. rewrite P. destruct c as [|kp c p s|kp s p c]; [contradiction| |]; cbn [cq].
  - destruct (at_f t c kp (leaf true x) p s R) as [_ [P2 [P3 _]]]. cbn [leaf rt] in P2. rewrite P2, peq_refl, P3.
    destruct kp; cbn in B2; [destruct B2; discriminate|]. destruct B2 as [B2 _].
    destruct s as [|[|] s1 s s2]; cbn [rt modp]; [auto with rbt| |contradiction B2].
    apply (recolor_spec t (CR false (leaf true x) p c) true s1 s s2 true R).
  - destruct (at_f t c kp s p (leaf true x) R) as [_ [P2 [P3 _]]]. rewrite P2.
    destruct kp; cbn in B2; [destruct B2; discriminate|]. destruct B2 as [B2 _].
    assert (Sx : peq (Some x) (rt s) = false).
    { destruct (peq_spec (Some x) (rt s)) as [K|K]; auto. symmetry in K. apply rt_in in K.
      destruct R as [_ [_ Nd]]. apply (Permutation_NoDup (plug_perm _ _)) in Nd. cbn [leaf cn ino] in Nd. nds. exfalso. dj. }
    rewrite Sx. destruct s as [|[|] s1 s s2]; cbn [rt modp]; [auto with rbt| |contradiction B2].
    apply (recolor_spec t (CL false c p (leaf true x)) true s1 s s2 true R).
Qed.

(** A node with one child: the child is a red leaf. *)
Lemma one_r c k x r : RB (plug c (T k E x r)) -> r <> E -> k = false /\ exists y, r = leaf true y.
Proof.
  intros B NE. destruct (RB_ok c _ B) as [n [B1 _]]. destruct k; cbn in B1.
  - destruct B1 as [-> [B1 [_ B2]]]. destruct r as [|[|] ? ? ?]; contradiction.
  - split; auto. destruct n as [|n]; [contradiction|]. destruct B1 as [-> B1]. destruct r as [|[|] r1 y r2]; [contradiction| |contradiction].
    cbn in B1. destruct B1 as [C1 [C2 [C3 C4]]]. exists y.
    destruct r1 as [|[|] ? ? ?]; try contradiction. destruct r2 as [|[|] ? ? ?]; try contradiction. reflexivity.
Qed.
Lemma one_l c k x l : RB (plug c (T k l x E)) -> l <> E -> k = false /\ exists y, l = leaf true y.
Proof.
  intros B NE. destruct (RB_ok c _ B) as [n [B1 _]]. destruct k; cbn in B1.
  - destruct B1 as [B1 [-> [B2 _]]]. destruct l as [|[|] ? ? ?]; contradiction.
  - split; auto. destruct n as [|n]; [contradiction|]. destruct B1 as [B1 ->]. destruct l as [|[|] r1 y r2]; [contradiction| |contradiction].
    cbn in B1. destruct B1 as [C1 [C2 [C3 C4]]]. exists y.
    destruct r1 as [|[|] ? ? ?]; try contradiction. destruct r2 as [|[|] ? ? ?]; try contradiction. reflexivity.
Qed.
Lemma depth_plug c k x : depth c <= length (ino (plug c (leaf k x))).
Proof. rewrite (Permutation_length (plug_perm _ _)). cbn. assert (H := depth_len c). lia. Qed.

Lemma rl_one fuel big t c x r : Rep t (plug c (T false E x r)) -> RB (plug c (T false E x r)) -> length (ino (plug c (T false E x r))) + 2 <= big ->
  r <> E -> gone (plug c (T false E x r)) (cl c ++ ino r ++ cr c) t (remove_loop (S fuel) big t x).
Proof.
  intros R B Fu NE. destruct (one_r _ _ _ _ B NE) as [_ [y ->]].
  destruct (at_f _ _ _ _ _ _ R) as [_ [X2 [X3 X4]]]. cbn [leaf rt] in X2, X3.
  destruct (at_f t (CR false E x c) true E y E R) as [Y1 [Y2 [Y3 _]]]. cbn [rt] in Y2, Y3.
  cbn [remove_loop]. unfold replacement. rewrite X2, X3, Y2, Y3.
  assert (Nd := proj2 (proj2 R)). apply (Permutation_NoDup (plug_perm _ _)) in Nd. cbn [ino leaf app] in Nd. nds. cbn [In app] in *.
  destruct (swap_below t c false E (leaf true y) x y (plug (CR false E y c) (leaf true x)) R) as [S1 [S2 S3]]; auto.
  { right. cbn. auto. }
  { rewrite ren_plug, renc_id by tauto. cbn [ren leaf plug]. rewrite tp_a, tp_b. reflexivity. }
  destruct (at_f _ _ _ _ _ _ S1) as [Z1 _]. rewrite Z1.
  eapply gone_step; [|exact S3|].
  2:{ assert (G := take_leaf big _ _ _ _ S1 S2). cbn [cl cr ino leaf app] in G. rewrite <- app_assoc in G. apply G.
      rewrite ino_plug, !app_length in Fu. cbn in Fu. assert (K := depth_len c). rewrite <- (Permutation_length (cn_perm c)), app_length in K. cbn. lia. }
  intro z. rewrite !In_plug. cbn. tauto.
Qed.

Lemma remove_loop_spec big t c k l x r : Rep t (plug c (T k l x r)) -> RB (plug c (T k l x r)) ->
  length (ino (plug c (T k l x r))) + 2 <= big ->
  gone (plug c (T k l x r)) (cl c ++ ino l ++ ino r ++ cr c) t (remove_loop big big t x).
Proof.
  intros R B Fu. assert (Eb : exists fuel f1, big = S f1 /\ f1 = S fuel) by (exists (big - 2), (big - 1); lia). destruct Eb as [fuel [f1 [Eb Ef1]]].
  destruct (at_f _ _ _ _ _ _ R) as [X1 [X2 [X3 X4]]].
  assert (Dc : depth c + 2 <= big).
  { rewrite ino_plug, !app_length in Fu. assert (K := depth_len c). rewrite <- (Permutation_length (cn_perm c)), app_length in K. lia. }
  assert (Nd := proj2 (proj2 R)). apply (Permutation_NoDup (plug_perm _ _)) in Nd. cbn [ino] in Nd.
  destruct l as [|kl l1 lx l2]; [destruct r as [|kr r1 rx r2]|destruct r as [|kr r1 rx r2]].
  - (* a leaf *)
    rewrite Eb at 1. cbn [remove_loop]. unfold replacement. rewrite X2, X3. cbn [rt ino app].
    destruct (peq_spec (Some x) (root t)) as [K|K].
    + assert (CT : c = Top).
      { destruct R as [R1 _]. rewrite R1, rt_plug in K. cbn [rt] in K. symmetry in K. cbn [ino app] in Nd. apply nd_cons in Nd. destruct Nd as [Nd _].
        destruct c as [|kc c p s|kc s p c]; auto; exfalso; cbn [top] in K; apply top_in in K; apply Nd; cbn; rewrite in_app_iff; destruct K; auto. }
      subst c. eexists _, E. split; [reflexivity|]. split; [|split; [|split; [reflexivity|split; auto]]].
      * split; [reflexivity|]. split; [exact I|constructor].
      * split; [exact I|]. now exists 0.
    + assert (CT : c <> Top).
      { intros ->. apply K. destruct R as [R1 _]. rewrite R1. reflexivity. }
      rewrite X1. change (T k E x E) with (leaf k x) in *. destruct k.
      * destruct (sib_leaf t c x R B CT) as [S1 S2]. cbn [bindo].
        eapply gone_step; [|exact S2|]. 2:{ assert (G := take_leaf big _ c true x S1 B Dc). exact G. } auto.
      * apply (take_leaf big t c false x R B Dc).
  - (* right child only *)
    destruct (one_r _ _ _ _ B ltac:(discriminate)) as [-> _]. cbn [ino app].
    rewrite Eb at 1. apply (rl_one f1 big t c x (T kr r1 rx r2) R B Fu). discriminate.
  - (* left child only *)
    destruct (one_l _ _ _ _ B ltac:(discriminate)) as [-> [y Ey]]. injection Ey as -> -> -> ->.
    rewrite Eb at 1. cbn [remove_loop]. unfold replacement. rewrite X2, X3. cbn [rt].
    destruct (at_f t (CL false c x E) true E y E R) as [Y1 [Y2 [Y3 _]]]. cbn [rt] in Y2, Y3. rewrite Y2, Y3.
    nds. cbn [In app] in *.
    destruct (swap_below t c false (leaf true y) E x y (plug (CL false c y E) (leaf true x)) R) as [S1 [S2 S3]]; auto.
    { left. cbn. auto. }
    { rewrite ren_plug, renc_id; [cbn [ren leaf plug]; rewrite tp_a, tp_b; reflexivity| |]; intro; dj. }
    destruct (at_f _ _ _ _ _ _ S1) as [Z1 _]. rewrite Z1.
    eapply gone_step; [|exact S3|].
    2:{ assert (G := take_leaf big _ _ _ _ S1 S2). cbn [cl cr ino leaf app] in G. apply G.
        rewrite ino_plug, !app_length in Fu. cbn in Fu. assert (K := depth_len c). rewrite <- (Permutation_length (cn_perm c)), app_length in K. cbn. lia. }
    intro z. rewrite !In_plug. cbn. tauto.
  - (* two children *)
    rewrite Eb at 1. cbn [remove_loop]. unfold replacement. rewrite X2, X3. cbn [rt].
    set (l := T kl l1 lx l2) in *.
    destruct (leftmost_spec t (T kr r1 rx r2) big (CR k l x c) rx R eq_refl) as [d [ky [b [y [Er [Cd Lm]]]]]].
    { rewrite ino_plug, !app_length in Fu. cbn [ino length] in *. rewrite !app_length in Fu. cbn [length] in *. lia. }
    rewrite Lm. set (r := T kr r1 rx r2) in *. rewrite Er in R. 
    destruct (at_f t (cat (CR k l x c) d) ky E y b) as [Y1 [Y2 [Y3 _]]]; [rewrite plug_cat; exact R|]. cbn [rt] in Y2. rewrite Y2, Y3.
    assert (Iy : In y (ino r)) by (rewrite Er; apply In_plug; left; cbn; auto).
    assert (Nr : NoDup (ino r)) by (nds; assumption). rewrite Er in Nr. apply (Permutation_NoDup (plug_perm _ _)) in Nr. cbn [ino app] in Nr.
    assert (Nxr : ~ In x (ino r)) by (nds; assumption).
    assert (Nxd : ~ In x (cn d) /\ ~ In x (ino b) /\ x <> y).
    { rewrite Er in Nxr. rewrite In_plug in Nxr. cbn in Nxr. repeat split; intro K; apply Nxr; auto. }
    assert (Nyd : ~ In y (cn d) /\ ~ In y (ino b)).
    { apply nd_cons in Nr. destruct Nr as [Nr _]. rewrite in_app_iff in Nr. tauto. }
    destruct Nxd as [Nxd [Nxb Nxy]]. destruct Nyd as [Nyd Nyb].
    assert (Nl : ~ In x (ino l) /\ ~ In y (ino l)).
    { nds. split; intro; dj. }
    assert (Nc : ~ In x (cn c) /\ ~ In y (cn c)).
    { nds. split; intro; dj. }
    rewrite Er in B, Fu.
    destruct (swap_below t c k l (plug d (T ky E y b)) x y (plug (cat (CR k l y c) d) (T ky E x b)) R) as [S1 [S2 S3]]; auto.
    { right. apply In_plug. left. cbn. auto. }
    { rewrite ren_plug, renc_id by tauto. cbn [ren]. rewrite ren_plug, renc_id by tauto. cbn [ren].
      rewrite tp_a, tp_b, !ren_id by tauto. rewrite plug_cat. reflexivity. }
    assert (Sub : forall z, In z (ino (plug (cat (CR k l y c) d) (T ky E x b))) -> In z (ino (plug c (T k l x (plug d (T ky E y b)))))).
    { intro z. rewrite plug_cat. cbn [plug]. rewrite !In_plug. cbn [ino]. rewrite !in_app_iff. cbn [In]. rewrite !In_plug. cbn [ino app In]. tauto. }
    assert (LL : cl c ++ ino l ++ ino r ++ cr c = cl (cat (CR k l y c) d) ++ ino b ++ cr (cat (CR k l y c) d)).
    { rewrite Er, cl_cat, cr_cat, Cd, ino_plug, Cd. cbn [cl cr ino app]. rewrite app_nil_r, <- !app_assoc. cbn [app]. reflexivity. }
    assert (Len : length (ino (plug (cat (CR k l y c) d) (T ky E x b))) + 2 <= big).
    { revert Fu. rewrite (Permutation_length (plug_perm _ (T k l x _))), plug_cat. cbn [plug].
      rewrite (Permutation_length (plug_perm c (T k l y _))). cbn [ino]. rewrite !app_length. cbn [length]. 
      rewrite !(Permutation_length (plug_perm d _)). cbn [ino app]. rewrite ?app_length. cbn [length]. rewrite ?app_length. lia. }
    rewrite LL, Er. eapply gone_step; [exact Sub|exact S3|].
    destruct b as [|kb b1 z b2]; cbn [rt].
    + destruct (at_f _ _ _ _ _ _ S1) as [Z1 _]. rewrite Z1. cbn [ino app].
      apply (take_leaf big _ (cat (CR k l y c) d) ky x S1 S2).
      assert (K := depth_plug (cat (CR k l y c) d) ky x). unfold leaf in K. lia.
    + destruct (one_r _ _ _ _ S2 ltac:(discriminate)) as [-> _].
      rewrite Ef1. apply (rl_one fuel big _ _ x (T kb b1 z b2) S1 S2 Len). discriminate.
Qed.

(** C40 flush cleans everything, C41 ranges written by the cleaner, C43 cleaning
    errors. *)
From Coq Require Import List Bool Arith Lia Permutation Sorted.
From Verif Require Import CleanModel CleanProofs CleanInv.
Import ListNotations.

(** ** Executions *)
(** Own events of the flush (sorting is a permutation), or an environment step that
    respects the locks held by the flush. *)
Inductive move (ns nl : nat) (vol : bool) (only : option nat) : config -> config -> Prop :=
| M_own e c c' : step ns nl vol only e c = Some c' ->
    (forall k l s o kc, e = ESort k l -> c = Cfg s o -> nth_error (w_conts o) k = Some kc -> Permutation (k_data kc) l) ->
    move ns nl vol only c c'
| M_env s s' o : rely ns nl (locks (Cfg s o)) s s' -> move ns nl vol only (Cfg s o) (Cfg s' o).

Inductive moves (ns nl : nat) (vol : bool) (only : option nat) : config -> config -> Prop :=
| Ms_refl c : moves ns nl vol only c c
| Ms_step c1 c2 c3 : moves ns nl vol only c1 c2 -> move ns nl vol only c2 c3 -> moves ns nl vol only c1 c3.

Lemma scan_to_work ns nl only s o pos found total :
  coh ns nl s -> covered ns nl only s o -> scan_inv ns nl only s o pos found total ->
  (nl <= pos \/ found = total) -> work_inv ns nl only s (with_mode o Work (scan_end total found (w_conts o))).
Proof.
  intros C Cov (D & D1 & D2 & D3 & D4 & D5 & D6 & D7) Fin.
  assert (LE : forall kc, In kc (w_conts o) -> length (k_data kc) <= k_count kc).
  { intros kc Hk. destruct (D7 kc Hk) as (E1 & E2 & E3 & E4 & E5 & E6 & E7). rewrite E3.
    apply NoDup_incl_length; [assumption|]. intros x Hx. now apply E5. }
  assert (FULL : forall kc, In kc (w_conts o) -> forall x, cdirty ns nl s (k_core kc) x -> In x (k_data kc)).
  { intros kc Hk x Hx. destruct (D7 kc Hk) as (E1 & E2 & E3 & E4 & E5 & E6 & E7). destruct Fin as [F|F].
    - apply E6; [assumption|]. destruct Hx. lia.
    - assert (EQ : k_count kc = length (k_data kc)).
      { apply (sum_eq_each k_count (fun k => length (k_data k)) (w_conts o)); auto. congruence. }
      apply (NoDup_length_incl E4 (l' := D (k_core kc))); [lia|intros y Hy; now apply E5|]. now apply D2. }
  assert (IN : forall kc, In kc (scan_end total found (w_conts o)) -> exists k0, In k0 (w_conts o) /\
      k_core kc = k_core k0 /\ k_data kc = k_data k0 /\ k_iter kc = 0 /\ k_st kc = Ready /\ length (k_data k0) <= k_count kc).
  { intros kc Hk. unfold scan_end in Hk. destruct (Nat.eqb total found).
    - exists kc. destruct (D7 kc Hk) as (E1 & E2 & _). repeat split; auto.
    - apply in_map_iff in Hk. destruct Hk as (k0 & <- & Hk). exists k0. destruct (D7 k0 Hk) as (E1 & E2 & _). cbn. repeat split; auto. }
  split.
  - intros c x Hc Hx. destruct (Cov c x Hc Hx) as (k0 & Hk & Ec). cbn [w_conts with_mode].
    unfold scan_end. destruct (Nat.eqb total found); [eauto|]. eexists. split; [apply in_map; exact Hk|exact Ec].
  - intros kc Hk. cbn [w_conts with_mode w_err] in *. destruct (IN kc Hk) as (k0 & H1 & H2 & H3 & H4 & H5 & H6).
    split; [congruence|]. rewrite H5, H4, H3, H2. intros x Hx. cbn. now apply FULL.
Qed.

Lemma scan_line_inv ns nl only s0 s o pos found total :
  Inv ns nl only s0 (Cfg s o) -> w_mode o = Scan pos found total ->
  Inv ns nl only s0 (scan_line ns nl only s o pos found total).
Proof.
  intros (C & Ct & W) Wm. rewrite Wm in W. destruct W as [Cov SI]. unfold scan_line.
  destruct (Nat.leb_spec nl pos) as [Hp|Hp].
  - split; [assumption|]. split; [assumption|]. cbn [w_mode with_mode]. apply (scan_to_work ns nl only s o pos); auto.
  - set (l := ln s pos).
    set (mine := match only with Some c => match core_of (mp l) with Some c' => Nat.eqb c' c | None => false end | None => true end).
    destruct SI as (D & D1 & D2 & D3 & D4 & D5 & D6 & D7).
    destruct (test_valid_any ns l && test_dirty ns l && mine) eqn:T; cbn [negb].
    + apply andb_prop in T. destruct T as [T T3]. apply andb_prop in T. destruct T as [T1 T2].
      apply test_dirty_iff in T2. destruct T2 as (j & Hj & Dj).
      destruct (core_of (mp l)) as [c|] eqn:Co.
      2:{ destruct (c_dirty _ _ _ C pos j Hp Hj Dj) as [_ NM]. fold l in NM. destruct (mp l) as [[? ?]|]; [discriminate|congruence]. }
      assert (Hc : relevant only c).
      { unfold mine in T3. destruct only as [c0|]; [|exact I]. cbn. now apply Nat.eqb_eq in T3. }
      assert (CD : cdirty ns nl s c pos) by (split; [assumption|split; [assumption|eauto]]).
      pose proof (D2 c pos Hc CD) as InD.
      destruct (D3 c pos Hc InD) as (kc & Ek & Kc). set (idx := match only with Some _ => 0 | None => w_revmap o c end) in *.
      rewrite Ek. assert (Hkc : In kc (w_conts o)) by (now apply nth_error_In in Ek).
      destruct (D7 kc Hkc) as (E1 & E2 & E3 & E4 & E5 & E6 & E7).
      assert (NI : ~ In pos (k_data kc)) by (intros H; apply E5 in H; lia).
      assert (LT : S (length (k_data kc)) <= k_count kc).
      { rewrite E3. apply (NoDup_incl_length (l := pos :: k_data kc)); [now constructor|].
        intros x [<-|Hx]; [rewrite Kc; assumption|now apply E5]. }
      destruct (Nat.leb_spec (k_count kc) (length (k_data kc))) as [H|_]; [lia|].
      set (kc' := {| k_core := k_core kc; k_data := k_data kc ++ [pos]; k_count := k_count kc; k_iter := k_iter kc; k_st := k_st kc |}).
      set (l' := upd_nth (w_conts o) idx kc').
      set (o' := with_mode o (Scan (S pos) (S found) total) l').
      assert (SI' : scan_inv ns nl only s o' (S pos) (S found) total).
      { exists D. split; [assumption|]. split; [assumption|]. split.
        { intros c1 x1 R1 H1. destruct (D3 c1 x1 R1 H1) as (k1 & F1 & F2). cbn [w_conts with_mode w_revmap o'].
          destruct (Nat.eq_dec idx (match only with Some _ => 0 | None => w_revmap o c1 end)) as [Q|N].
          - exists kc'. unfold l'. rewrite <- Q in *. split; [now apply (upd_nth_same _ _ _ kc)|]. rewrite Ek in F1. injection F1 as <-. exact F2.
          - exists k1. unfold l'. rewrite upd_nth_other by assumption. auto. }
        cbn [w_conts with_mode o'].
        split. { pose proof (sum_upd k_count _ _ kc' _ Ek). fold l' in H. cbn [k_count kc'] in H. lia. }
        split. { pose proof (sum_upd (fun k => length (k_data k)) _ _ kc' _ Ek). fold l' in H. cbn [k_data kc'] in H. rewrite app_length in H. cbn in H. lia. }
        split.
        { assert (CO : forall i ki, nth_error l' i = Some ki -> exists k0, nth_error (w_conts o) i = Some k0 /\ k_core k0 = k_core ki).
          { intros i ki Hi. unfold l' in Hi. destruct (Nat.eq_dec idx i) as [<-|N].
            - rewrite (upd_nth_same _ _ _ _ Ek) in Hi. injection Hi as <-. eauto.
            - rewrite upd_nth_other in Hi by assumption. eauto. }
          intros i1 j1 ki kj Hi Hj1 EE. destruct (CO _ _ Hi) as (a & A1 & A2). destruct (CO _ _ Hj1) as (b & B1 & B2).
          apply (D6 i1 j1 a b); auto. congruence. }
        intros k1 H1. apply In_nth_error in H1. destruct H1 as [i1 H1]. unfold l' in H1.
        destruct (Nat.eq_dec idx i1) as [<-|N].
        - rewrite (upd_nth_same _ _ _ _ Ek) in H1. injection H1 as <-. cbn [k_st k_iter k_count k_core k_data kc'].
          split; [assumption|]. split; [assumption|]. split; [assumption|]. split.
          { apply (Permutation_NoDup (Permutation_cons_append (k_data kc) pos)). now constructor. }
          split. { intros x Hx. apply in_app_iff in Hx. destruct Hx as [Hx|[<-|[]]]; [apply E5 in Hx; destruct Hx; split; [lia|assumption]|split; [lia|now rewrite Kc]]. }
          split; [|assumption]. intros x Hx Hlt. apply in_app_iff. destruct (Nat.eq_dec x pos) as [->|Nx]; [right; now left|left].
          apply E6; [assumption|lia].
        - rewrite upd_nth_other in H1 by assumption.
          destruct (D7 k1 (nth_error_In _ _ H1)) as (G1 & G2 & G3 & G4 & G5 & G6 & G7).
          split; [assumption|]. split; [assumption|]. split; [assumption|]. split; [assumption|].
          split; [intros x Hx; apply G5 in Hx; destruct Hx; split; [lia|assumption]|]. split; [|assumption].
          intros x Hx Hlt. destruct (Nat.eq_dec x pos) as [->|Nx]; [|apply G6; [assumption|lia]].
          exfalso. apply N. apply (D6 idx i1 kc k1 Ek H1). destruct Hx as (_ & Hx & _). fold l in Hx. congruence. }
      assert (Cov' : covered ns nl only s o').
      { intros c1 x1 R1 H1. destruct (Cov c1 x1 R1 H1) as (k1 & F1 & F2). cbn [w_conts with_mode o'].
        destruct (in_upd_old _ idx kc' _ k1 Ek F1) as [->|F3]; [exists kc'; split; [apply (upd_nth_mem _ _ _ _ Ek)|exact F2]|].
        exists k1. auto. }
      destruct (Nat.eqb_spec (S found) total) as [Et|Nt].
      * split; [assumption|]. split; [assumption|]. cbn [w_mode with_mode].
        exact (scan_to_work ns nl only s o' (S pos) (S found) total C Cov' SI' (or_intror Et)).
      * split; [assumption|]. split; [assumption|]. cbn [w_mode with_mode]. split; [exact Cov'|exact SI'].
    + split; [assumption|]. split; [assumption|]. cbn [w_mode with_mode]. split; [exact Cov|].
      exists D. split; [assumption|]. split; [assumption|]. split; [assumption|]. split; [assumption|]. split; [assumption|]. split; [assumption|].
      intros k1 H1. cbn [w_conts with_mode] in *. destruct (D7 k1 H1) as (G1 & G2 & G3 & G4 & G5 & G6 & G7).
      split; [assumption|]. split; [assumption|]. split; [assumption|]. split; [assumption|].
      split; [intros x Hx; apply G5 in Hx; destruct Hx; split; [lia|assumption]|]. split; [|assumption].
      intros x Hx Hlt. destruct (Nat.eq_dec x pos) as [->|Nx]; [exfalso|apply G6; [assumption|lia]].
      destruct Hx as (_ & Hx & j & Hj & Dj). fold l in Hx, Dj.
      destruct (c_dirty _ _ _ C pos j Hp Hj Dj) as [V _]. fold l in V.
      assert (test_valid_any ns l = true) by (apply test_valid_any_iff; eauto).
      assert (test_dirty ns l = true) by (apply test_dirty_iff; eauto).
      assert (mine = true).
      { unfold mine. destruct only as [c0|]; [|reflexivity]. rewrite Hx. cbn in G7. subst c0. apply Nat.eqb_refl. }
      rewrite H, H0, H2 in T. discriminate.
Qed.

(** Replacing container [k] by one that satisfies the invariant. *)
Lemma put_k_inv ns nl only s0 s o k kc kc' err lost dat :
  Inv ns nl only s0 (Cfg s o) -> w_mode o = Work -> nth_error (w_conts o) k = Some kc -> k_core kc' = k_core kc ->
  kinv ns nl s (w_err o || err) kc' ->
  Inv ns nl only s0 (Cfg s (with_conts o (upd_nth (w_conts o) k kc') err lost dat)).
Proof.
  intros (C & Ct & W) Wm Ek Kc K. rewrite Wm in W. destruct W as [W0 W1].
  split; [assumption|]. split; [assumption|]. cbn [w_mode with_conts]. rewrite Wm. split.
  - intros c x Hc Hx. destruct (W0 c x Hc Hx) as (k1 & H1 & H2). cbn [w_conts with_conts].
    destruct (in_upd_old _ k kc' _ k1 Ek H1) as [->|H3]; [|eauto]. exists kc'. split; [apply (upd_nth_mem _ _ _ _ Ek)|congruence].
  - cbn [w_conts with_conts w_err]. intros k1 H1. destruct (upd_nth_in _ _ _ _ _ Ek H1) as [->|H2]; [assumption|].
    apply (kinv_err ns nl s (w_err o)); auto. intros ->. reflexivity.
Qed.

Lemma step_inv ns nl vol only s0 e s o c' : Inv ns nl only s0 (Cfg s o) ->
  step ns nl vol only e (Cfg s o) = Some c' ->
  (forall k l kc, e = ESort k l -> nth_error (w_conts o) k = Some kc -> Permutation (k_data kc) l) ->
  Inv ns nl only s0 c'.
Proof.
  intros IV E PM. unfold step in E.
  destruct (w_mode o) as [pos found total|] eqn:Wm.
  { destruct e; try discriminate. injection E as <-. now apply scan_line_inv. }
  assert (C : coh ns nl s) by (apply IV).
  assert (KI : forall k kc, nth_error (w_conts o) k = Some kc -> kinv ns nl s (w_err o) kc).
  { intros k kc Ek. destruct IV as (_ & _ & W). rewrite Wm in W. apply W. now apply nth_error_In in Ek. }
  assert (RQ : forall k q, match nth_error (w_conts o) k with
          | Some kc =>
              match k_st kc with
              | Running od =>
                  match nth_error (o_reqs od) q with
                  | Some cq => step_req ns vol e s o k kc od q cq
                  | None => None
                  end
              | _ => None
              end
          | None => None
          end = Some c' -> Inv ns nl only s0 c').
  { intros k q EE. destruct (nth_error (w_conts o) k) as [kc|] eqn:Ek; [|discriminate].
    destruct (k_st kc) as [|od|] eqn:Ks; try discriminate.
    destruct (nth_error (o_reqs od) q) as [cq|] eqn:Eq; [|discriminate].
    exact (step_req_inv ns nl vol only s0 s o k kc od q cq e c' IV Wm Ek Ks Eq EE). }
  destruct e as [|k l|k p|k m|k|k q|k q ok|k q oks part|k q ok|k q|k q ok|k q ok|k intr];
    try (exact (RQ k q E)); try discriminate.
  - (* ESort *)
    destruct (nth_error (w_conts o) k) as [kc|] eqn:Ek; [|discriminate].
    destruct (k_st kc) as [|od|] eqn:Ks; try discriminate.
    destruct (Nat.eqb_spec (k_iter kc) 0) as [K0|]; [|discriminate]. injection E as <-.
    destruct (KI k kc Ek) as [K1 K2]. rewrite Ks, K0 in K2. pose proof (PM k l kc eq_refl Ek) as P.
    apply (put_k_inv ns nl only s0 s o k kc); auto. split; cbn [k_data k_count k_st k_iter k_core].
    + now rewrite <- (Permutation_length P).
    + intros x Hx. cbn. apply (Permutation_in x P). now apply K2.
  - (* EPortion *)
    destruct (nth_error (w_conts o) k) as [kc|] eqn:Ek; [|discriminate].
    destruct (k_st kc) as [|od|] eqn:Ks; try discriminate.
    destruct (Nat.eqb_spec p 0) as [|Hp]; [discriminate|]. injection E as <-.
    destruct (KI k kc Ek) as [K1 K2]. rewrite Ks in K2. unfold portion.
    destruct (Nat.eqb_spec (dc s (k_core kc)) 0) as [Z|Z].
    + apply (put_k_inv ns nl only s0 s o k kc); auto. split; [exact K1|]. cbn [k_st with_kst]. right.
      cbn [k_core]. now apply cdirty_dec_zero.
    + pose proof (dirty_count_le ns nl s (k_core kc) _ C K2) as LE. rewrite skipn_length in LE.
      set (c := Nat.min (dc s (k_core kc)) p) in *. assert (Hc : 0 < c /\ c <= dc s (k_core kc)) by (unfold c; lia).
      clearbody c.
      destruct (Nat.eqb_spec c 0) as [|_]; [lia|].
      destruct (Nat.ltb_spec (k_count kc) (c + k_iter kc)) as [|_]; [lia|].
      destruct (Nat.ltb_spec (length (k_data kc)) (k_iter kc + c)) as [|_]; [lia|].
      apply (put_k_inv ns nl only s0 s o k kc); auto. split; [exact K1|].
      cbn [k_st with_kst k_core k_iter k_data o_reqs o_err o_todo]. split; [intros q []|].
      intros _ x Hx. apply K2 in Hx. rewrite <- (firstn_skipn c) in Hx. apply in_app_iff in Hx.
      destruct Hx as [Hx|Hx]; [right; now left|left].
      assert (SK : forall (l : list nat) a b, skipn a (skipn b l) = skipn (b + a) l).
      { clear. intros l a b. revert l. induction b as [|b IH]; intros l; [reflexivity|]. destruct l; [now rewrite !skipn_nil|]. cbn. apply IH. }
      now rewrite SK in Hx.
  - (* EFire *)
    destruct (nth_error (w_conts o) k) as [kc|] eqn:Ek; [|discriminate].
    destruct (k_st kc) as [|od|] eqn:Ks; try discriminate.
    destruct (KI k kc Ek) as [K1 K2]. rewrite Ks in K2. destruct K2 as [K2 K3].
    assert (E' : (if Nat.eqb m 0 then None else
                        let '(its, lc, rest) := populate nl s m None (o_todo od) in
                        Some (Cfg s (with_conts o (upd_nth (w_conts o) k
                          (with_kst kc (k_iter kc)
                            (Running {| o_todo := rest; o_reqs := o_reqs od ++ [{| q_items := its; q_core := lc; q_inval := false; q_ph := PWait |}]; o_err := o_err od |})))
                          false false false))) = Some c').
    { destruct (o_todo od) eqn:Ot; [discriminate|]. exact E. }
    clear E. destruct (Nat.eqb m 0); [discriminate|].
    destruct (populate nl s m None (o_todo od)) as [[its lc] rest] eqn:P. injection E' as <-.
    destruct (populate_spec nl s _ _ _ _ _ _ P) as (P1 & P2 & _ & P4).
    apply (put_k_inv ns nl only s0 s o k kc); auto. split; [exact K1|].
    cbn [k_st with_kst k_core k_iter k_data o_reqs o_err o_todo]. split.
    + intros q Hq. apply in_app_iff in Hq. destruct Hq as [Hq|[<-|[]]]; [auto|]. split; cbn [q_items q_core q_ph q_inval].
      * intros it Hi. split; [now apply P1|]. now apply P2.
      * split; [reflexivity|]. intros it Hi j Hj D. symmetry. now apply P1.
    + intros Er x Hx. destruct (K3 Er x Hx) as [H|[H|(q & Hq & Hin)]].
      * now left.
      * destruct (P4 x H) as [H1|H1]; [apply Hx| |right; now left].
        right; right. eexists. split; [apply in_app_iff; right; left; reflexivity|exact H1].
      * right; right. exists q. split; [apply in_app_iff; now left|assumption].
  - (* EFireFail *)
    destruct (nth_error (w_conts o) k) as [kc|] eqn:Ek; [|discriminate].
    destruct (k_st kc) as [|od|] eqn:Ks; try discriminate.
    destruct (KI k kc Ek) as [K1 K2]. rewrite Ks in K2. destruct K2 as [K2 K3].
    destruct (o_todo od) eqn:Ot; [discriminate|]. injection E as <-.
    apply (put_k_inv ns nl only s0 s o k kc); auto. split; [exact K1|].
    cbn [k_st with_kst k_core k_iter k_data o_reqs o_err o_todo]. split; [|discriminate].
    intros q Hq. apply (qinv_err ns nl _ _ (o_err od)). auto.
  - (* EEnd *)
    destruct (nth_error (w_conts o) k) as [kc|] eqn:Ek; [|discriminate].
    destruct (k_st kc) as [|od|] eqn:Ks; try discriminate.
    destruct (KI k kc Ek) as [K1 K2]. rewrite Ks in K2. destruct K2 as [K2 K3].
    destruct (o_todo od) eqn:Ot; [|discriminate].
    destruct (forallb is_done (o_reqs od)) eqn:FD; [|discriminate]. injection E as <-.
    unfold portion_end. apply (put_k_inv ns nl only s0 s o k kc); auto. split; [exact K1|]. cbn [k_st with_kst].
    destruct (Nat.eqb_spec (dc s (k_core kc)) 0) as [Z|Z]; cbn [orb].
    + right. now apply cdirty_dec_zero.
    + destruct (w_err o || o_err od || intr) eqn:Er.
      * left. now rewrite orb_assoc.
      * cbn [k_core k_iter k_data]. apply orb_false_elim in Er. destruct Er as [Er _]. apply orb_false_elim in Er.
        destruct Er as [_ Er]. intros x Hx. destruct (K3 Er x Hx) as [H|[[]|(q & Hq & Hin)]]; [assumption|exfalso].
        rewrite forallb_forall in FD. specialize (FD q Hq). unfold is_done in FD.
        destruct (K2 q Hq) as [_ Q2]. destruct (q_ph q); try discriminate. destruct Q2 as [Q2 Q3].
        assert (V : q_inval q = false) by (destruct (q_inval q); [rewrite Q2 in Er by reflexivity; discriminate|reflexivity]).
        apply in_map_iff in Hin. destruct Hin as (it & <- & Hi).
        destruct Hx as (_ & _ & j & Hj & Dj). rewrite (Q3 V it Hi j Hj) in Dj. discriminate.
Qed.

Lemma moves_inv ns nl vol only s0 c c' : Inv ns nl only s0 c -> moves ns nl vol only c c' -> Inv ns nl only s0 c'.
Proof.
  intros H M. induction M as [|c1 c2 c3 M IH V]; [assumption|]. specialize (IH H). clear M H.
  destruct V as [e c2 c3 E P|s s' o R].
  - destruct c2 as [s o|]; [|contradiction]. apply (step_inv ns nl vol only s0 e s o c3 IH E).
    intros k l kc He Hk. now apply (P k l s o kc).
  - now apply (Inv_env ns nl only s0 s s' o).
Qed.

(** ** Starting *)
Lemma alloc_spec s : forall cores j rm l rm', NoDup cores -> alloc_conts s cores j rm = (l, rm') ->
  (forall c, ~ In c cores -> rm' c = rm c) /\
  (forall c, In c cores -> dc s c <> 0 -> exists kc, j <= rm' c /\ nth_error l (rm' c - j) = Some kc /\ k_core kc = c) /\
  (forall kc, In kc l -> In (k_core kc) cores /\ k_count kc = dc s (k_core kc) /\ k_data kc = [] /\ k_iter kc = 0 /\ k_st kc = Ready /\ k_count kc <> 0) /\
  (forall i i' ki ki', nth_error l i = Some ki -> nth_error l i' = Some ki' -> k_core ki = k_core ki' -> i = i').
Proof.
  induction cores as [|c r IH]; intros j rm l rm' ND E; cbn [alloc_conts] in E.
  - injection E as <- <-. split; [auto|]. split; [intros c []|]. split; [intros kc []|]. intros [|i]; discriminate.
  - inversion ND as [|? ? Nc NDr]; subst.
    destruct (Nat.eqb_spec (dc s c) 0) as [Z|Z].
    + destruct (IH _ _ _ _ NDr E) as (I1 & I2 & I3 & I4). split.
      { intros c' H. rewrite I1 by (intros H'; apply H; now right). unfold set_nat. destruct (Nat.eqb_spec c' c) as [->|]; [exfalso; apply H; now left|reflexivity]. }
      split. { intros c' [<-|H] Hd; [congruence|now apply I2]. }
      split; [|assumption]. intros kc Hk. destruct (I3 kc Hk) as (A & B). split; [now right|assumption].
    + destruct (alloc_conts s r (S j) (set_nat rm c j)) as [l1 m1] eqn:A. injection E as <- <-.
      destruct (IH _ _ _ _ NDr A) as (I1 & I2 & I3 & I4). split.
      { intros c' H. rewrite I1 by (intros H'; apply H; now right). unfold set_nat. destruct (Nat.eqb_spec c' c) as [->|]; [exfalso; apply H; now left|reflexivity]. }
      split.
      { intros c' [<-|H] Hd.
        - rewrite (I1 c Nc). unfold set_nat. rewrite Nat.eqb_refl, Nat.sub_diag. eexists. split; [lia|]. split; reflexivity.
        - destruct (I2 c' H Hd) as (kc & L & N & K). exists kc. split; [lia|]. split; [|assumption].
          replace (m1 c' - j) with (S (m1 c' - S j)) by lia. exact N. }
      split.
      { intros kc [<-|Hk]; [cbn; repeat split; auto|]. destruct (I3 kc Hk) as (B & B'). split; [now right|assumption]. }
      intros [|i] [|i'] ki ki' H1 H2 HE; [reflexivity| | |f_equal; now apply (I4 i i' ki ki')].
      * exfalso. injection H1 as <-. cbn in H2. apply nth_error_In in H2. destruct (I3 ki' H2) as (B & _). cbn in HE. now rewrite <- HE in B.
      * exfalso. injection H2 as <-. cbn in H1. apply nth_error_In in H1. destruct (I3 ki H1) as (B & _). cbn in HE. now rewrite HE in B.
Qed.

Lemma start_cache_inv ns nl s cores : coh ns nl s -> NoDup cores ->
  (forall c x, cdirty ns nl s c x -> In c cores) -> Inv ns nl None s (Cfg s (start_cache s cores)).
Proof.
  intros C ND H. split; [assumption|]. split; [auto|]. unfold start_cache.
  destruct (alloc_conts s cores 0 (fun _ => 0)) as [l rm] eqn:A. destruct (alloc_spec s _ _ _ _ _ ND A) as (_ & I2 & I3 & I4).
  assert (NZ : forall c x, cdirty ns nl s c x -> dc s c <> 0).
  { intros c x Hx Z. exact (cdirty_dec_zero ns nl s c C Z x Hx). }
  set (total := fold_right Nat.add 0 (map k_count l)).
  set (o := {| w_mode := _; w_conts := l; w_revmap := rm; w_err := false; w_lost := false; w_data := false |}).
  assert (Cov : covered ns nl None s o).
  { intros c x _ Hx. destruct (I2 c (H c x Hx) (NZ c x Hx)) as (kc & _ & N & K). exists kc. split; [now apply nth_error_In in N|assumption]. }
  unfold o at 1; cbn [w_mode]. destruct (Nat.eqb_spec total 0) as [Z|Z].
  - split; [exact Cov|]. cbn [w_conts o w_err]. intros kc Hk. exfalso. destruct (I3 kc Hk) as (_ & _ & _ & _ & _ & NZc).
    assert (k_count kc <= total); [|lia]. unfold total. clear - Hk. induction l as [|y l IH]; [contradiction|]. cbn. destruct Hk as [->|Hk]; [lia|]. specialize (IH Hk). lia.
  - split; [exact Cov|]. exists (dlist ns nl s). split; [apply dlist_nodup|]. split; [intros c x _ Hx; now apply dlist_in|]. split.
    { intros c x _ Hx. apply dlist_in in Hx. destruct (I2 c (H c x Hx) (NZ c x Hx)) as (kc & _ & N & K). rewrite Nat.sub_0_r in N. exists kc. auto. }
    split; [reflexivity|]. cbn [w_conts o]. split.
    { clear - I3. induction l as [|y l IH]; [reflexivity|]. cbn. destruct (I3 y (or_introl eq_refl)) as (_ & _ & -> & _). cbn. apply IH. intros kc Hk. apply I3. now right. }
    split; [assumption|]. intros kc Hk. destruct (I3 kc Hk) as (B1 & B2 & B3 & B4 & B5 & B6).
    rewrite B3, B4, B5, B2. split; [reflexivity|]. split; [reflexivity|]. split; [apply C|]. split; [constructor|].
    split; [intros x []|]. split; [intros x _ Hx; lia|exact I].
Qed.

Lemma start_core_inv ns nl s c : coh ns nl s -> Inv ns nl (Some c) s (Cfg s (start_core s c)).
Proof.
  intros C. split; [assumption|]. split; [auto|]. unfold start_core. destruct (Nat.eqb_spec (dc s c) 0) as [Z|Z]; cbn [w_mode].
  - split; [|intros kc []]. intros c' x Hc Hx; cbn in Hc; subst c'. exfalso. exact (cdirty_dec_zero ns nl s c C Z x Hx).
  - split.
    { intros c' x Hc Hx; cbn in Hc; subst c'. eexists. split; [now left|reflexivity]. }
    exists (dlist ns nl s). split; [apply dlist_nodup|]. split; [intros c' x _ Hx; now apply dlist_in|]. split.
    { intros c' x Hc Hx; cbn in Hc; subst c'. eexists. split; reflexivity. }
    cbn [w_conts map sum fold_right k_count k_data length]. split; [lia|]. split; [reflexivity|]. split.
    { intros [|i] [|i'] ki ki'; cbn; try (destruct i; discriminate); try (destruct i'; discriminate). reflexivity. }
    intros kc [<-|[]]. cbn. split; [reflexivity|]. split; [reflexivity|]. split; [apply C|]. split; [constructor|].
    split; [intros x []|]. split; [intros x _ Hx; lia|reflexivity].
Qed.

(** ** C40 *)
(** Everything that was dirty for the core(s) in question at the start is on the
    core with the data it had in the cache, everything else on the cores is
    unchanged, and nothing is dirty. *)
Definition flushed (ns nl : nat) (mine : nat -> Prop) (s0 s : cst) : Prop :=
  (forall x k c cl, x < nl -> k < ns -> mine c -> mp (ln s x) = Some (c, cl) -> di (ln s x) k = false) /\
  (forall x k c cl, x < nl -> k < ns -> mine c -> mp (ln s0 x) = Some (c, cl) -> di (ln s0 x) k = true ->
     cr s c cl k = da (ln s0 x) k) /\
  (forall c cl k, k < ns -> mine c ->
     (forall x, x < nl -> mp (ln s0 x) = Some (c, cl) -> di (ln s0 x) k = false) -> cr s c cl k = cr s0 c cl k).

Lemma inv_flushed ns nl only s0 s o : coh ns nl s0 -> Inv ns nl only s0 (Cfg s o) -> completed (Cfg s o) false ->
  flushed ns nl (relevant only) s0 s.
Proof.
  intros C0 (C & Ct & W) (Wm & En & Er). rewrite Wm in W. destruct W as [W0 W1].
  assert (CLN : forall x k c cl, x < nl -> k < ns -> relevant only c -> mp (ln s x) = Some (c, cl) -> di (ln s x) k = false).
  { intros x k c cl Hx Hk Hc M. destruct (di (ln s x) k) eqn:D; [exfalso|reflexivity].
    assert (CD : cdirty ns nl s c x) by (split; [assumption|split; [now rewrite M|eauto]]).
    destruct (W0 c x Hc CD) as (kc & H1 & H2). destruct (W1 kc H1) as [_ K].
    rewrite forallb_forall in En. specialize (En kc H1). unfold ended in En. destruct (k_st kc); try discriminate.
    destruct K as [K|K]; [congruence|]. rewrite H2 in K. now apply (K x). }
  split; [assumption|]. split.
  - intros x k c cl Hx Hk Hc M D.
    assert (I : is_content nl s0 c cl k (da (ln s0 x) k)).
    { split.
      - intros y Hy My Dy. now rewrite (c_inj _ _ _ C0 y x _ Hy Hx My M).
      - intros H. rewrite (H x Hx M) in D. discriminate. }
    apply Ct in I; [|assumption]. apply I. intros y Hy My. now apply (CLN y k c cl).
  - intros c cl k Hk Hc H.
    assert (I : is_content nl s0 c cl k (cr s0 c cl k)).
    { split; [|reflexivity]. intros y Hy My Dy. rewrite (H y Hy My) in Dy. discriminate. }
    apply Ct in I; [|assumption]. apply I. intros y Hy My. now apply (CLN y k c cl).
Qed.

Theorem C40_cache_flush_cleans_all : forall ns nl vol s0 cores s o,
  coh ns nl s0 -> NoDup cores -> (forall c x, cdirty ns nl s0 c x -> In c cores) ->
  moves ns nl vol None (Cfg s0 (start_cache s0 cores)) (Cfg s o) -> completed (Cfg s o) false ->
  flushed ns nl (fun _ => True) s0 s.
Proof.
  intros ns nl vol s0 cores s o C ND H M F.
  exact (inv_flushed ns nl None s0 s o C (moves_inv ns nl vol None s0 _ _ (start_cache_inv ns nl s0 cores C ND H) M) F).
Qed.

Theorem C40_core_flush_cleans_core : forall ns nl vol s0 c s o,
  coh ns nl s0 ->
  moves ns nl vol (Some c) (Cfg s0 (start_core s0 c)) (Cfg s o) -> completed (Cfg s o) false ->
  flushed ns nl (fun c' => c' = c) s0 s.
Proof.
  intros ns nl vol s0 c s o C M F.
  exact (inv_flushed ns nl (Some c) s0 s o C (moves_inv ns nl vol (Some c) s0 _ _ (start_core_inv ns nl s0 c C) M) F).
Qed.

(** None of the BUG assertions of the collecting and portioning code can fail, and
    no uninitialised flush entry is used. *)
Theorem C40_no_bug : forall ns nl vol s0,
  coh ns nl s0 ->
  (forall cores, NoDup cores -> (forall c x, cdirty ns nl s0 c x -> In c cores) ->
     ~ moves ns nl vol None (Cfg s0 (start_cache s0 cores)) Bug) /\
  (forall c, ~ moves ns nl vol (Some c) (Cfg s0 (start_core s0 c)) Bug).
Proof.
  intros ns nl vol s0 C. split.
  - intros cores ND H M. exact (moves_inv ns nl vol None s0 _ _ (start_cache_inv ns nl s0 cores C ND H) M).
  - intros c M. exact (moves_inv ns nl vol (Some c) s0 _ _ (start_core_inv ns nl s0 c C) M).
Qed.

(** ** C43 *)
Definition lost (c : config) : bool := match c with Bug => false | Cfg _ o => w_lost o end.
Definition data_error (c : config) : bool := match c with Bug => false | Cfg _ o => w_data o end.

Definition err_inv (c : config) : Prop :=
  match c with
  | Bug => True
  | Cfg _ o => w_data o = true -> w_err o = true \/ exists kc od, In kc (w_conts o) /\ k_st kc = Running od /\ o_err od = true
  end.

Lemma put_k_err s s' o k kc kc' err lost dat :
  err_inv (Cfg s o) -> nth_error (w_conts o) k = Some kc ->
  (dat = true -> err = true \/ exists od, k_st kc' = Running od /\ o_err od = true) ->
  (forall od, k_st kc = Running od -> o_err od = true -> err = true \/ exists od', k_st kc' = Running od' /\ o_err od' = true) ->
  err_inv (Cfg s' (with_conts o (upd_nth (w_conts o) k kc') err lost dat)).
Proof.
  intros H Ek D K. cbn in *. intros W.
  assert (KM : In kc' (upd_nth (w_conts o) k kc')) by (apply (upd_nth_mem _ _ _ _ Ek)).
  assert (G : err = true \/ (exists od, k_st kc' = Running od /\ o_err od = true) ->
    w_err o || err = true \/ exists kc od, In kc (upd_nth (w_conts o) k kc') /\ k_st kc = Running od /\ o_err od = true).
  { intros [G|(od & G1 & G2)]; [left; rewrite G; apply orb_true_r|right; exists kc', od; auto]. }
  apply orb_prop in W. destruct W as [W|W]; [|now apply G, D].
  destruct (H W) as [H1|(k1 & od & H1 & H2 & H3)]; [left; now rewrite H1|].
  destruct (in_upd_old _ k kc' _ k1 Ek H1) as [->|H4]; [apply G; now apply (K od)|].
  right. exists k1, od. auto.
Qed.

Lemma step_err ns nl vol only e c c' : err_inv c -> step ns nl vol only e c = Some c' -> err_inv c'.
Proof.
  intros H E. destruct c as [s o|]; [|discriminate]. unfold step in E.
  destruct (w_mode o) as [pos found total|].
  { destruct e; try discriminate. injection E as <-. unfold scan_line.
    assert (ST : w_data o = true -> w_err o = true \/ exists kc od, In kc (w_conts o) /\ k_st kc = Running od /\ o_err od = true) by exact H.
    assert (K1 : forall m l, (forall kc od, In kc (w_conts o) -> k_st kc = Running od -> exists kc', In kc' l /\ k_st kc' = Running od) -> err_inv (Cfg s (with_mode o m l))).
    { intros m l HL W. destruct (ST W) as [A|(kc & od & A & B & D)]; [now left|]. destruct (HL kc od A B) as (kc' & A' & B'). right. exists kc', od. auto. }
    assert (K2 : forall t f l, (forall kc od, In kc (w_conts o) -> k_st kc = Running od -> exists kc', In kc' l /\ k_st kc' = Running od) ->
       forall kc od, In kc (w_conts o) -> k_st kc = Running od -> exists kc', In kc' (scan_end t f l) /\ k_st kc' = Running od).
    { intros t f l HL kc od A B. destruct (HL kc od A B) as (kc' & A' & B'). unfold scan_end. destruct (Nat.eqb t f); [eauto|].
      eexists. split; [apply in_map; exact A'|exact B']. }
    destruct (Nat.leb nl pos); [apply K1, K2; eauto|].
    match goal with |- context[if negb ?b then _ else _] => destruct (negb b) end; [apply K1; eauto|].
    destruct (core_of (mp (ln s pos))); [|exact I].
    destruct (nth_error (w_conts o) _) as [kc|] eqn:Ek; [|exact I].
    destruct (Nat.leb (k_count kc) (length (k_data kc))); [exact I|].
    assert (HL : forall kc0 od, In kc0 (w_conts o) -> k_st kc0 = Running od -> exists kc', In kc' (upd_nth (w_conts o) (match only with Some _ => 0 | None => w_revmap o n end)
        {| k_core := k_core kc; k_data := k_data kc ++ [pos]; k_count := k_count kc; k_iter := k_iter kc; k_st := k_st kc |}) /\ k_st kc' = Running od).
    { intros k0 od A B. destruct (in_upd_old _ _ {| k_core := k_core kc; k_data := k_data kc ++ [pos]; k_count := k_count kc; k_iter := k_iter kc; k_st := k_st kc |} _ k0 Ek A) as [->|A'].
      - eexists. split; [apply (upd_nth_mem _ _ _ _ Ek)|exact B].
      - eauto. }
    destruct (Nat.eqb (S found) total); [apply K1, K2; exact HL|apply K1; exact HL]. }
  assert (RQ : forall k q, match nth_error (w_conts o) k with
          | Some kc =>
              match k_st kc with
              | Running od =>
                  match nth_error (o_reqs od) q with
                  | Some cq => step_req ns vol e s o k kc od q cq
                  | None => None
                  end
              | _ => None
              end
          | None => None
          end = Some c' -> err_inv c').
  { intros k q EE. destruct (nth_error (w_conts o) k) as [kc|] eqn:Ek; [|discriminate].
    destruct (k_st kc) as [|od|] eqn:Ks; try discriminate.
    destruct (nth_error (o_reqs od) q) as [cq|] eqn:Eq; [|discriminate].
    assert (PQ : forall s' q' merr lo dat, (dat = true -> merr = true) -> err_inv (put_q s' o k kc od q q' merr lo dat)).
    { intros s' q' merr lo dat HD. unfold put_q. apply (put_k_err s _ _ _ kc); auto.
      - intros D. right. eexists. split; [reflexivity|]. cbn. rewrite (HD D). apply orb_true_r.
      - intros od0 K0 E0. right. eexists. split; [reflexivity|]. cbn. rewrite Ks in K0. injection K0 as <-. now rewrite E0. }
    unfold step_req in EE.
    destruct e; try discriminate; destruct (q_ph cq) as [| |n bad| |n| | |]; try discriminate;
      try (injection EE as <-; apply PQ; auto; discriminate).
    - destruct (nth_error (q_items cq) n) as [it|]; [|injection EE as <-; apply PQ; auto].
      destruct (it_flush it && negb (q_inval cq)); [|injection EE as <-; apply PQ; auto].
      destruct (it_mp it) as [[c cl]|]; [|injection EE as <-; exact I].
      destruct (submit_ranges ns (ln s (it_line it))) as [r|]; [|injection EE as <-; exact I].
      destruct (write_ranges s c cl (it_buf it) oks part 0 r) as [s' ok]. injection EE as <-. apply PQ; auto.
    - destruct (nth_error (q_items cq) n) as [it|]; injection EE as <-; apply PQ; auto. }
  destruct e as [|k l|k p|k m|k|k q|k q ok|k q oks part|k q ok|k q|k q ok|k q ok|k intr];
    try (exact (RQ k q E)); try discriminate.
  - destruct (nth_error (w_conts o) k) as [kc|] eqn:Ek; [|discriminate].
    destruct (k_st kc) as [|od|] eqn:Ks; try discriminate. destruct (Nat.eqb (k_iter kc) 0); [|discriminate].
    injection E as <-. apply (put_k_err s s o k kc _ _ _ _ H Ek); [discriminate|]. intros od K. rewrite Ks in K. discriminate.
  - destruct (nth_error (w_conts o) k) as [kc|] eqn:Ek; [|discriminate].
    destruct (k_st kc) as [|od|] eqn:Ks; try discriminate. destruct (Nat.eqb p 0); [discriminate|].
    injection E as <-. unfold portion.
    destruct (Nat.eqb (dc s (k_core kc)) 0); [apply (put_k_err s s o k kc _ _ _ _ H Ek); [discriminate|intros od K; rewrite Ks in K; discriminate]|].
    destruct (Nat.eqb _ 0); [exact I|]. destruct (Nat.ltb _ _); [exact I|]. destruct (Nat.ltb _ _); [exact I|].
    apply (put_k_err s s o k kc _ _ _ _ H Ek); [discriminate|intros od K; rewrite Ks in K; discriminate].
  - destruct (nth_error (w_conts o) k) as [kc|] eqn:Ek; [|discriminate].
    destruct (k_st kc) as [|od|] eqn:Ks; try discriminate. destruct (o_todo od) eqn:Ot; [discriminate|]. rewrite <- Ot in E.
    destruct (Nat.eqb m 0); [discriminate|]. destruct (populate nl s m None (o_todo od)) as [[its lc] rest]. injection E as <-.
    apply (put_k_err s s o k kc _ _ _ _ H Ek); [discriminate|]. intros od0 K E0. right. eexists. split; [reflexivity|]. rewrite Ks in K. injection K as <-. exact E0.
  - destruct (nth_error (w_conts o) k) as [kc|] eqn:Ek; [|discriminate].
    destruct (k_st kc) as [|od|] eqn:Ks; try discriminate. destruct (o_todo od) eqn:Ot; [discriminate|]. injection E as <-.
    apply (put_k_err s s o k kc _ _ _ _ H Ek); [discriminate|]. intros od0 K E0. right. eexists. split; reflexivity.
  - destruct (nth_error (w_conts o) k) as [kc|] eqn:Ek; [|discriminate].
    destruct (k_st kc) as [|od|] eqn:Ks; try discriminate. destruct (o_todo od) eqn:Ot; [|discriminate].
    destruct (forallb is_done (o_reqs od)); [|discriminate]. injection E as <-. unfold portion_end.
    apply (put_k_err s s o k kc _ _ _ _ H Ek); [discriminate|]. intros od0 K E0. left. rewrite Ks in K. injection K as <-. now rewrite E0.
Qed.

(** A cache read, core write or core flush that fails makes the whole flush fail.
    Missing: metadata flush and cache flush errors, see the refutation. *)
Theorem C43_data_errors_reported_partial : forall ns nl vol only s0 o0 c err,
  w_data o0 = false -> moves ns nl vol only (Cfg s0 o0) c -> completed c err -> data_error c = true -> err = true.
Proof.
  intros ns nl vol only s0 o0 c err H M F D.
  assert (I : err_inv c).
  { assert (I0 : err_inv (Cfg s0 o0)) by (cbn; intros; congruence). clear F D. revert I0. generalize (Cfg s0 o0) as c0. intros c0 I0.
    assert (G : forall c0 c, moves ns nl vol only c0 c -> err_inv c0 -> err_inv c).
    { intros a b MM. induction MM as [|c1 c2 c3 MM IH V]; [auto|]. intros A. specialize (IH A). destruct V as [e c2 c3 E P|s s' o R].
      - now apply (step_err ns nl vol only e c2).
      - exact IH. }
    apply (G _ _ M). cbn. intros; congruence. }
  destruct c as [s o|]; [|contradiction]. destruct F as (Wm & En & <-). cbn in D, I.
  destruct (I D) as [A|(kc & od & A & B & _)]; [assumption|].
  rewrite forallb_forall in En. specialize (En kc A). unfold ended in En. rewrite B in En. discriminate.
Qed.

(** ** Interference is possible: others may clean a line or evict a clean one *)
Definition evict (s : cst) (x : nat) : cst :=
  {| ln := set_ln (ln s) x {| mp := None; va := fun _ => false; di := di (ln s x); da := da (ln s x) |}; cr := cr s; dc := dc s |}.

Lemma evict_rely ns nl (lk : nat -> Prop) s x : coh ns nl s -> x < nl -> ~ lk x -> clean_line ns s x -> rely ns nl lk s (evict s x).
Proof.
  intros C Hx NL CL. set (s' := evict s x).
  assert (Lx : ln s' x = {| mp := None; va := fun _ => false; di := di (ln s x); da := da (ln s x) |}) by (cbn; unfold set_ln; now rewrite Nat.eqb_refl).
  assert (Ly : forall y, y <> x -> ln s' y = ln s y) by (intros y N; cbn; unfold set_ln; apply Nat.eqb_neq in N; now rewrite N).
  assert (Dy : forall y, di (ln s' y) = di (ln s y)) by (intros y; destruct (Nat.eq_dec y x) as [->|N]; [now rewrite Lx|now rewrite Ly]).
  assert (My : forall y m, mp (ln s' y) = Some m -> mp (ln s y) = Some m /\ y <> x).
  { intros y m H. destruct (Nat.eq_dec y x) as [->|N]; [rewrite Lx in H; discriminate|rewrite Ly in H by assumption; auto]. }
  constructor.
  - constructor.
    + intros y z m Hy Hz H1 H2. apply My in H1. apply My in H2. apply (c_inj _ _ _ C y z m); tauto.
    + intros y k Hy Hk D. rewrite Dy in D. destruct (Nat.eq_dec y x) as [->|N]; [rewrite CL in D by assumption; discriminate|].
      rewrite Ly by assumption. now apply (c_dirty _ _ _ C).
    + intros y k c cl Hy Hk M V D. destruct (My _ _ M) as [M' N]. rewrite Ly in * by assumption. now apply (c_clean _ _ _ C).
    + intros c. cbn [dc s' evict]. rewrite (c_cnt _ _ _ C). unfold dlist. f_equal. apply filter_ext. intros y.
      destruct (Nat.eq_dec y x) as [->|N]; [|now rewrite Ly].
      assert (T : forall l, (forall k, k < ns -> di l k = false) -> test_dirty ns l = false).
      { intros l H. destruct (test_dirty ns l) eqn:Q; [|reflexivity]. apply test_dirty_iff in Q. destruct Q as (k & Hk & Q). rewrite H in Q by assumption. discriminate. }
      rewrite (T (ln s x)) by assumption. rewrite (T (ln s' x)); [reflexivity|]. intros k Hk. rewrite Dy. now apply CL.
  - intros c cl k d Hk [I1 I2]. split.
    + intros y Hy M D. destruct (My _ _ M) as [M' N]. rewrite Ly in * by assumption. now apply I1.
    + intros H. apply I2. intros y Hy M. destruct (Nat.eq_dec y x) as [->|N]; [now apply CL|].
      rewrite <- (H y Hy); rewrite Ly by assumption; [reflexivity|assumption].
  - intros y k Hy Hk D. rewrite Dy in D. destruct (Nat.eq_dec y x) as [->|N]; [rewrite CL in D by assumption; discriminate|].
    rewrite Ly by assumption. auto.
  - intros y Hy L. destruct (Nat.eq_dec y x) as [->|N]; [contradiction|]. rewrite Ly by assumption. auto.
  - intros y k c cl _ _ _ _. now left.
Qed.

(** ** Concrete runs *)
Fixpoint run_list ns nl vol only (l : list ev) (c : config) : option config :=
  match l with
  | [] => Some c
  | e :: r => match step ns nl vol only e c with Some c' => run_list ns nl vol only r c' | None => None end
  end.

Definition not_sort (e : ev) : bool := match e with ESort _ _ => false | _ => true end.

Lemma run_moves ns nl vol only l : forall c0 c c', moves ns nl vol only c0 c -> forallb not_sort l = true ->
  run_list ns nl vol only l c = Some c' -> moves ns nl vol only c0 c'.
Proof.
  induction l as [|e l IH]; intros c0 c c' M NS R; cbn in R; [injection R as <-; assumption|].
  cbn in NS. apply andb_prop in NS. destruct NS as [N1 N2].
  destruct (step ns nl vol only e c) as [c1|] eqn:E; [|discriminate]. apply (IH c0 c1); auto.
  apply (Ms_step _ _ _ _ c0 c c1 M). apply (M_own _ _ _ _ e); [assumption|]. intros k x s o kc ->. discriminate.
Qed.

(** Two-sector lines.  Line 0 caches line 5 of core 0, both sectors valid, sector 1
    dirty; line 1 caches line 6 of core 0, sector 0 valid and dirty; line 2 caches
    line 5 of core 1, clean. *)
Definition ex_line (x : nat) : line :=
  match x with
  | 0 => {| mp := Some (0, 5); va := fun _ => true; di := fun k => Nat.eqb k 1; da := fun k => 10 + k |}
  | 1 => {| mp := Some (0, 6); va := fun k => Nat.eqb k 0; di := fun k => Nat.eqb k 0; da := fun k => 20 + k |}
  | 2 => {| mp := Some (1, 5); va := fun _ => true; di := fun _ => false; da := fun k => 30 |}
  | _ => {| mp := None; va := fun _ => false; di := fun _ => false; da := fun _ => 0 |}
  end.
Definition ex_s : cst := {| ln := ex_line; cr := fun c l k => match c, l, k with 0, 5, 0 => 10 | 1, _, _ => 30 | _, _, _ => 77 end;
                            dc := fun c => match c with 0 => 2 | _ => 0 end |}.

Lemma ex_coh : coh 2 3 ex_s.
Proof.
  constructor.
  - intros [|[|[|x]]] [|[|[|y]]] m Hx Hy H1 H2; try lia; cbn in H1, H2; congruence.
  - intros [|[|[|x]]] [|[|k]] Hx Hk H; try lia; cbn in *; try discriminate; split; congruence.
  - intros [|[|[|x]]] [|[|k]] c cl Hx Hk H1 H2 H3; try lia; cbn in H1, H2, H3; try discriminate; injection H1 as <- <-; reflexivity.
  - intros [|[|c]]; reflexivity.
Qed.

(** Events of one request of container [k] without errors, [n] entries. *)
Definition good (k q n : nat) : list ev :=
  ELock k q :: ERead k q true :: repeat (ECore k q (fun _ => true) (fun _ => false)) (S n) ++
  EFlush k q true :: repeat (EMeta k q) (S n) ++ [EMflush k q true; ECaflush k q true].
Definition ex_run (f1 f2 : bool) : list ev :=
  [EScan; EScan; EPortion 0 5; EFire 0 1; EFire 0 1] ++ good 0 0 1 ++
  [ELock 0 1; ERead 0 1 true; ECore 0 1 (fun _ => true) (fun _ => false); ECore 0 1 (fun _ => true) (fun _ => false);
   EFlush 0 1 true; EMeta 0 1; EMeta 0 1; EMflush 0 1 f1] ++ (if f1 then [ECaflush 0 1 f2] else []) ++ [EEnd 0 false].

Definition summary (c : config) : option (mode * list bool * bool * bool * bool * list nat) :=
  match c with
  | Bug => None
  | Cfg s o => Some (w_mode o, map ended (w_conts o), w_err o, w_lost o, w_data o, [cr s 0 5 0; cr s 0 5 1; cr s 0 6 0; cr s 0 6 1; dc s 0])
  end.

(** The hypotheses of the C40 theorems are met: a complete flush of the cache with
    two cores, in two requests. *)
Example ex40_run : option_map summary (run_list 2 3 false None (ex_run true true) (Cfg ex_s (start_cache ex_s [0; 1])))
  = Some (Some (Work, [true], false, false, false, [10; 11; 20; 77; 0])).
Proof. vm_compute. reflexivity. Qed.
Example ex40_hyp : coh 2 3 ex_s /\ forall c x, cdirty 2 3 ex_s c x -> In c [0; 1].
Proof.
  split; [exact ex_coh|]. intros c [|[|[|x]]] (H1 & H2 & _); try lia; cbn in H2; injection H2 as <-; cbn; auto.
Qed.
(** A clean line may be evicted by others meanwhile. *)
Example ex40_env : rely 2 3 (locks (Cfg ex_s (start_cache ex_s [0; 1]))) ex_s (evict ex_s 2).
Proof.
  apply evict_rely; [exact ex_coh|lia| |intros k _; reflexivity].
  intros (kc & H & od & q & K & _). unfold start_cache in H; cbn in H. destruct H as [<-|[]]. discriminate.
Qed.

(** C43 as stated is false: the flush reports success although a metadata flush
    (of a request that is not the first of its portion) failed, or a cache flush. *)
Theorem C43_refuted :
  (exists c, moves 2 3 false (Some 0) (Cfg ex_s (start_core ex_s 0)) c /\ completed c false /\ lost c = true) /\
  (exists ns nl vol s0 c, coh ns nl s0 /\ moves ns nl vol None (Cfg s0 (start_cache s0 [0; 1])) c /\ completed c false /\ lost c = true).
Proof.
  split.
  - destruct (run_list 2 3 false (Some 0) (ex_run false true) (Cfg ex_s (start_core ex_s 0))) as [c|] eqn:R.
    + exists c. split; [apply (run_moves _ _ _ _ (ex_run false true) _ _ _ (Ms_refl _ _ _ _ _)); [reflexivity|exact R]|].
      assert (S : option_map summary (Some c) = Some (Some (Work, [true], false, true, false, [10; 11; 20; 77; 0]))).
      { rewrite <- R. vm_compute. reflexivity. }
      injection S as S. destruct c as [s o|]; [|discriminate]. cbn in S. injection S as S1 S2 S3 S4 S5 _ _ _ _ _.
      split; [|exact S4]. split; [exact S1|]. split; [|exact S3].
      clear - S2. destruct (w_conts o) as [|a [|b l]]; try discriminate. cbn in *. injection S2 as ->. reflexivity.
    + assert (option_map summary None = Some (Some (Work, [true], false, true, false, [10; 11; 20; 77; 0]))) by (rewrite <- R; vm_compute; reflexivity). discriminate.
  - exists 2, 3, false, ex_s.
    destruct (run_list 2 3 false None (ex_run true false) (Cfg ex_s (start_cache ex_s [0; 1]))) as [c|] eqn:R.
    + exists c. split; [exact ex_coh|]. split; [apply (run_moves _ _ _ _ (ex_run true false) _ _ _ (Ms_refl _ _ _ _ _)); [reflexivity|exact R]|].
      assert (S : option_map summary (Some c) = Some (Some (Work, [true], false, true, false, [10; 11; 20; 77; 0]))).
      { rewrite <- R. vm_compute. reflexivity. }
      injection S as S. destruct c as [s o|]; [|discriminate]. cbn in S. injection S as S1 S2 S3 S4 S5 _ _ _ _ _.
      split; [|exact S4]. split; [exact S1|]. split; [|exact S3].
      clear - S2. destruct (w_conts o) as [|a [|b l]]; try discriminate. cbn in *. injection S2 as ->. reflexivity.
    + assert (option_map summary None = Some (Some (Work, [true], false, true, false, [10; 11; 20; 77; 0]))) by (rewrite <- R; vm_compute; reflexivity). discriminate.
Qed.

(** ** C41 *)
(** [l] is the list of the maximal runs of sectors below [n] with [d], ascending. *)
Definition maximal_runs (d : nat -> bool) (n : nat) (l : list (nat * nat)) : Prop :=
  (forall k, k < n -> d k = true -> exists b e, In (b, e) l /\ b <= k /\ k < e) /\
  (forall b e, In (b, e) l -> b < e /\ e <= n /\ (forall k, b <= k -> k < e -> d k = true) /\
     (b = 0 \/ d (b - 1) = false) /\ (e = n \/ d e = false)) /\
  StronglySorted (fun r r' => snd r < fst r') l.

Lemma runs_maximal f d : forall k i st l n, n = i + k ->
  (forall j, j < n -> f j = Some (d j)) -> runs f k i st = Some l ->
  (forall b, st = Some b -> b < i /\ (forall j, b <= j -> j < i -> d j = true) /\ (b = 0 \/ d (b - 1) = false)) ->
  (st = None -> i = 0 \/ d (i - 1) = false) ->
  (forall b e, In (b, e) l -> b < e /\ e <= n /\ (forall k, b <= k -> k < e -> d k = true) /\
     (b = 0 \/ d (b - 1) = false) /\ (e = n \/ d e = false)) /\
  StronglySorted (fun r r' => snd r < fst r') l /\
  (forall b e, In (b, e) l -> i <= b \/ st = Some b) /\ (st = None -> forall b e, In (b, e) l -> i <= b).
Proof.
  induction k as [|k IH]; intros i st l n Hn F R S1 S0; cbn [runs] in R.
  - injection R as <-. destruct st as [b|].
    + destruct (S1 b eq_refl) as (A & B & C). split.
      { intros b' e' [E|[]]. injection E as <- <-. split; [assumption|]. split; [lia|]. split; [assumption|]. split; [assumption|left; lia]. }
      split; [repeat constructor|]. split; [intros b' e' [E|[]]; injection E as <- <-; now right|discriminate].
    + split; [intros b e []|]. split; [constructor|]. split; [intros b e []|intros _ b e []].
  - rewrite F in R by lia. destruct (d i) eqn:Di.
    + destruct (IH (S i) (Some match st with Some b => b | None => i end) l n) as (I1 & I2 & I3 & I4); try assumption; try lia.
      * intros b E. injection E as <-. destruct st as [b|].
        -- destruct (S1 b eq_refl) as (A & B & C). split; [lia|]. split; [|assumption].
           intros j J1 J2. destruct (Nat.eq_dec j i) as [->|]; [assumption|apply B; lia].
        -- split; [lia|]. split; [intros j J1 J2; now replace j with i by lia|now apply S0].
      * discriminate.
      * split; [assumption|]. split; [assumption|]. split.
        -- intros b e H. destruct (I3 b e H) as [A|A]; [left; lia|]. injection A as <-. destruct st; [now right|left; lia].
        -- intros -> b e H. destruct (I3 b e H) as [A|A]; [lia|]. injection A as <-. lia.
    + destruct st as [b0|].
      * destruct (runs f k (S i) None) as [l'|] eqn:R'; [|discriminate]. injection R as <-.
        destruct (IH (S i) None l' n) as (I1 & I2 & I3 & I4); try assumption; try lia; [discriminate| |].
        { intros _. right. now replace (S i - 1) with i by lia. }
        destruct (S1 b0 eq_refl) as (A & B & C). split.
        { intros b e [E|H]; [|now apply I1]. injection E as <- <-. split; [assumption|]. split; [lia|]. split; [assumption|]. split; [assumption|now right]. }
        split.
        { constructor; [assumption|]. apply Forall_forall. intros [b e] H. cbn. specialize (I4 eq_refl b e H). lia. }
        split; [|discriminate]. intros b e [E|H]; [injection E as <- <-; now right|left]. specialize (I4 eq_refl b e H). lia.
      * destruct (IH (S i) None l n) as (I1 & I2 & I3 & I4); try assumption; try lia; [discriminate| |].
        { intros _. right. now replace (S i - 1) with i by lia. }
        split; [assumption|]. split; [assumption|]. split; [|intros _ b e H; specialize (I4 eq_refl b e H); lia].
        intros b e H. left. specialize (I4 eq_refl b e H). lia.
Qed.

(** Unless a line is completely valid and only partly dirty, exactly the maximal
    runs of dirty sectors are written. *)
Theorem C41_writes_dirty_runs_partial : forall ns l,
  (forall k, k < ns -> di l k = true -> va l k = true) ->
  (exists k, k < ns /\ va l k = false) \/ (0 < ns /\ forall k, k < ns -> di l k = true) ->
  exists r, submit_ranges ns l = Some r /\ maximal_runs (di l) ns r.
Proof.
  intros ns l W [(k0 & Hk0 & V)|(Hn & All)].
  - unfold submit_ranges. replace (test_valid ns l) with false.
    2:{ symmetry. destruct (test_valid ns l) eqn:T; [|reflexivity]. rewrite test_valid_iff in T. rewrite T in V by assumption. discriminate. }
    cbn [andb].
    assert (F : forall j, j < ns -> sector_is_dirty l j = Some (di l j)).
    { intros j Hj. unfold sector_is_dirty. specialize (W j Hj). destruct (va l j), (di l j); try reflexivity. discriminate W. reflexivity. }
    destruct (runs_total (sector_is_dirty l) ns 0 None) as [r R]; [intros j _ Hj; rewrite F by lia; discriminate|].
    exists r. split; [assumption|].
    destruct (runs_maximal (sector_is_dirty l) (di l) ns 0 None r ns) as (I1 & I2 & _ & _); auto; [discriminate|].
    destruct (runs_spec _ _ _ _ _ R) as (J1 & _ & _ & _); [discriminate|].
    split; [|split; assumption]. intros k Hk D. destruct (J1 k) as ([b e] & H1 & H2 & H3); [lia|lia|rewrite F by lia; now rewrite D|]. eauto.
  - exists [(0, ns)]. split.
    + unfold submit_ranges. rewrite (proj2 (test_valid_iff ns l)) by (intros k Hk; apply W; auto).
      rewrite (proj2 (test_dirty_iff ns l)) by (exists 0; auto). reflexivity.
    + split; [intros k Hk _; exists 0, ns; split; [now left|lia]|]. split; [|repeat constructor].
      intros b e [E|[]]. injection E as <- <-. split; [lia|]. split; [lia|]. split; [intros; apply All; lia|]. split; now left.
Qed.

(** In every case all dirty sectors are written and no invalid one. *)
Theorem C41_writes_dirty_and_only_valid : forall ns l,
  (forall k, k < ns -> di l k = true -> va l k = true) ->
  exists r, submit_ranges ns l = Some r /\
  (forall k, k < ns -> di l k = true -> exists b e, In (b, e) r /\ b <= k /\ k < e) /\
  (forall b e k, In (b, e) r -> b <= k -> k < e -> k < ns /\ va l k = true).
Proof. exact submit_spec. Qed.

(** Byte addresses: the range covers the bytes of its sectors on the core, and each
    byte comes from the same place of the line's slot in the buffer. *)
Theorem C41_range_address : forall ns cl h b e y, b <= e -> e <= ns ->
  (range_addr ns cl b <= y < range_addr ns cl b + range_len b e) <->
  (exists k, b <= k /\ k < e /\ (cl * ns + k) * 512 <= y < (cl * ns + k) * 512 + 512 /\
     range_off ns h b + (y - range_addr ns cl b) = (h * ns + k) * 512 + (y - (cl * ns + k) * 512)).
Proof.
  intros ns cl h b e y H1 H2. unfold range_addr, range_len, range_off.
  replace (ns * 512 * cl) with (cl * ns * 512) by lia. replace (ns * 512 * h) with (h * ns * 512) by lia.
  set (A := cl * ns). set (B := h * ns). clearbody A B. split.
  - intros H. exists ((y - A * 512) / 512).
    pose proof (Nat.div_mod (y - A * 512) 512 ltac:(lia)) as D.
    pose proof (Nat.mod_upper_bound (y - A * 512) 512 ltac:(lia)) as U.
    set (q := (y - A * 512) / 512) in *. set (m := (y - A * 512) mod 512) in *. clearbody q m. lia.
  - intros (k & K1 & K2 & K3 & _). lia.
Qed.

(** C41 as stated is false: a line that is completely valid and partly dirty is
    written as a whole. *)
Theorem C41_refuted : exists ns l r k b e,
  (forall k, k < ns -> di l k = true -> va l k = true) /\ submit_ranges ns l = Some r /\
  In (b, e) r /\ b <= k /\ k < e /\ k < ns /\ di l k = false.
Proof.
  exists 2, (ex_line 0), [(0, 2)], 0, 0, 2. split; [intros; reflexivity|]. split; [vm_compute; reflexivity|].
  split; [now left|]. cbn. lia.
Qed.

Example ex41 : exists l, (exists k, k < 8 /\ va l k = false) /\ submit_ranges 8 l = Some [(1, 3); (6, 8)].
Proof.
  exists {| mp := None; va := fun k => negb (Nat.eqb k 3); di := fun k => existsb (Nat.eqb k) [1; 2; 6; 7]; da := fun _ => 0 |}.
  split; [exists 3; split; [lia|reflexivity]|vm_compute; reflexivity].
Qed.
Example ex43 : option_map summary (run_list 2 3 false None
  [EScan; EScan; EPortion 0 5; EFire 0 5; ELock 0 0; ERead 0 0 false; ECore 0 0 (fun _ => true) (fun _ => false);
   ECore 0 0 (fun _ => true) (fun _ => false); ECore 0 0 (fun _ => true) (fun _ => false); EFlush 0 0 true;
   EMeta 0 0; EMeta 0 0; EMeta 0 0; EMflush 0 0 true; ECaflush 0 0 true; EEnd 0 false] (Cfg ex_s (start_cache ex_s [0; 1])))
  = Some (Some (Work, [true], true, true, true, [10; 77; 77; 77; 2])).
Proof. vm_compute. reflexivity. Qed.

Print Assumptions C40_cache_flush_cleans_all.
Print Assumptions C40_core_flush_cleans_core.
Print Assumptions C40_no_bug.
Print Assumptions C41_writes_dirty_runs_partial.
Print Assumptions C41_writes_dirty_and_only_valid.
Print Assumptions C41_range_address.
Print Assumptions C41_refuted.
Print Assumptions C43_data_errors_reported_partial.
Print Assumptions C43_refuted.

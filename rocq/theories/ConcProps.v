(** C52: concurrent requests on one cache line. *)
From Coq Require Import NArith List Bool Arith Lia.
From Verif Require Import ConcModel ConcSpec ConcProofs ConcSteps.
Import ListNotations.

Lemma along_here n b P Q l s : along n b P Q l s -> Q s.
Proof. destruct l; cbn [along]; intros [H _]; exact H. Qed.

Lemma start_inv n P c0 c1 : Inv n P c0 (start c0 c1).
Proof.
  exists (fun _ => None), (fun _ => None). constructor; cbn [start core cach mapd vld drt wrl rdl wts pcs hist]; try discriminate; auto.
  - constructor; cbn; auto; try discriminate; intros; discriminate.
  - intros i. exact I.
  - intros x i. split; [discriminate|]. intros [_ H]. discriminate.
  - intros x Hx _. split; [discriminate|reflexivity].
  - intros i x Hx. exact I.
  - intros i. split; [contradiction|]. intros H. now destruct H.
  - intros i _. split; [intros (b & H); contradiction|discriminate].
  - intros i b H. contradiction.
Qed.

Lemma run_inv n b P c0 l : forall s t, Inv n P c0 s -> along n b P (fun u => apart n P u /\ mild b u) l s ->
  run n b P l s = Some t -> Inv n P c0 t.
Proof.
  induction l as [|a l IH]; intros s t Iv A R; cbn [run] in R.
  - injection R as <-. assumption.
  - cbn [along] in A. destruct A as [[A1 A2] A3]. destruct (step n b P s a) as [u|] eqn:E; [|discriminate].
    apply (IH u t); auto. now apply (step_inv n b P c0 s a u).
Qed.

Lemma inv_latest n P c0 s x : Inv n P c0 s -> x < n -> quiet n P (hist s) x -> latest n P c0 (hist s) x (content s x).
Proof.
  intros (lc & eo & I) Hx Q.
  assert (D : forall i, writes n P i x -> pcs s i = Idle \/ pcs s i = Done).
  { intros i W. destruct (pcs s i) eqn:E; auto; right; rewrite <- E; apply (h_a _ _ _ _ _ _ I); try apply W;
      apply (Q i W); apply (h_s _ _ _ _ _ _ I); rewrite E; discriminate. }
  assert (Eo : eo x = None).
  { destruct (eo x) as [i|] eqn:Eo; [|reflexivity]. apply (e_o _ _ _ _ _ _ I) in Eo. destruct Eo as [W E].
    destruct (D i W) as [K|K]; rewrite K in E; discriminate. }
  destruct (b_s _ _ _ _ _ _ I x Hx Eo) as [B1 B2]. exists (lc x). split; [|split].
  - unfold content. destruct (mapd s) eqn:M; cbn [andb].
    + destruct (vld s x) eqn:V; [now apply B1|apply B2]. destruct (drt s x) eqn:Dx; [|reflexivity].
      apply (b_d _ _ _ _ _ _ I) in Dx. congruence.
    + apply B2. destruct (drt s x) eqn:Dx; [|reflexivity].
      apply (b_d _ _ _ _ _ _ I) in Dx. rewrite (u_b _ _ _ _ _ _ I M) in Dx. discriminate.
  - intros i E. destruct (l_w _ _ _ _ _ _ I x i E) as [W C]. split; [assumption|].
    apply (h_a _ _ _ _ _ _ I); [apply W|]. destruct (D i W) as [K|K]; [rewrite K in C; discriminate|assumption].
  - intros j W K. apply (l_c _ _ _ _ _ _ I); [assumption|]. apply (h_a _ _ _ _ _ _ I) in K; [now rewrite K|apply W].
Qed.
Lemma inv_reads n P c0 s r b x : Inv n P c0 s -> In (EAck r b) (hist s) -> is_wr (kd (P r)) = false -> covers n P r x ->
  readable n P c0 (hist s) r x (b x).
Proof. intros (lc & eo & I) H W [Hx R]. now apply (h_r _ _ _ _ _ _ I r b x H Hx R). Qed.

(** If bypassing writes do not overlap other writes to their sectors, and none is
    under way without lock while a cleaning chooses what to write to the core
    (or the cleaner would write dirty sectors only), then after any interleaving
    every sector without writes in progress has the data of a completed write that
    no completed write followed ... *)
Theorem conc_latest_partial n b P c0 c1 l s x :
  run n b P l (start c0 c1) = Some s ->
  along n b P (fun u => apart n P u /\ mild b u) l (start c0 c1) ->
  x < n -> quiet n P (hist s) x -> latest n P c0 (hist s) x (content s x).
Proof. intros R A Hx Q. apply inv_latest; auto. eapply run_inv; [apply (start_inv n P c0 c1)|exact A|exact R]. Qed.
(** ... and every read got data no write followed that was completed before the
    read was submitted. *)
Theorem conc_reads_partial n b P c0 c1 l s r d x :
  run n b P l (start c0 c1) = Some s ->
  along n b P (fun u => apart n P u /\ mild b u) l (start c0 c1) ->
  In (EAck r d) (hist s) -> is_wr (kd (P r)) = false -> covers n P r x -> readable n P c0 (hist s) r x (d x).
Proof. intros R A H W C. eapply inv_reads; eauto. eapply run_inv; [apply (start_inv n P c0 c1)|exact A|exact R]. Qed.

(** ** Users that submit writes to a sector one after the other. *)
Lemma serial_apart n P c0 s : Inv n P c0 s -> serial n P (hist s) -> apart n P s.
Proof.
  intros (lc & eo & I) S i j x N Wi Wj Bi Pj.
  assert (Pi := bypass_inprog _ Bi).
  assert (A : forall k, writes n P k x -> inprog (pcs s k) = true -> started (hist s) k /\ ~ acked (hist s) k).
  { intros k Wk Pk. split.
    - apply (h_s _ _ _ _ _ _ I). intros E. rewrite E in Pk. discriminate.
    - intros Ak. apply (h_a _ _ _ _ _ _ I) in Ak; [|apply Wk]. rewrite Ak in Pk. discriminate. }
  destruct (A i Wi Pi) as [A1 A2]. destruct (A j Wj Pj) as [A3 A4].
  destruct (S i j x N Wi Wj A1 A3) as [O|O]; apply older_in in O; destruct O as [_ O]; contradiction.
Qed.
Lemma along_serial n b P c0 l : forall s, Inv n P c0 s -> along n b P (fun u => serial n P (hist u) /\ mild b u) l s ->
  along n b P (fun u => apart n P u /\ mild b u) l s.
Proof.
  induction l as [|a l IH]; intros s Iv; cbn [along]; intros [[S M] A]; split; auto.
  - split; [eapply serial_apart; eassumption|assumption].
  - split; [eapply serial_apart; eassumption|assumption].
  - destruct (step n b P s a) as [u|] eqn:E; [|auto]. apply IH; [|assumption].
    apply (step_inv n b P c0 s a u); auto. eapply serial_apart; eassumption.
Qed.
Theorem conc_serial_partial n P c0 c1 l s x b :
  run n b P l (start c0 c1) = Some s ->
  along n b P (fun u => serial n P (hist u) /\ mild b u) l (start c0 c1) -> x < n ->
  (quiet n P (hist s) x -> latest n P c0 (hist s) x (content s x)) /\
  (forall r d, In (EAck r d) (hist s) -> is_wr (kd (P r)) = false -> covers n P r x -> readable n P c0 (hist s) r x (d x)).
Proof.
  intros R A Hx. apply (along_serial n b P c0) in A; [|apply start_inv]. split.
  - intros Q. eapply conc_latest_partial; eassumption.
  - intros r d H W C. eapply conc_reads_partial; eassumption.
Qed.

(** ** Without bypassing writes: any requests, overlapping or not, the code as it is. *)
Definition calm (p : pc) : Prop := bypass p = false /\ p <> NewWi.
Lemma purge_pcs n s r : pcs (purge n s r) = pcs s.
Proof. unfold purge. now destruct (_ && _). Qed.
Lemma calm_upd s t i p j : pcs t = upd (pcs s) i p -> calm p -> calm (pcs s j) -> calm (pcs t j).
Proof. intros -> H K. unfold upd. destruct (j =? i); assumption. Qed.
Lemma calm_step n b P s a t : (forall i, kd (P i) <> KWi) -> cached P a -> step n b P s a = Some t ->
  (forall i, calm (pcs s i)) -> forall i, calm (pcs t i).
Proof.
  intros NW Ca St C j.
  assert (G : forall i p u, pcs u = upd (pcs s) i p -> calm p -> calm (pcs u j)) by (intros i p u E K; eapply calm_upd; eauto).
  destruct a as [i|i x|i x|i|i c1|]; cbn [step] in St.
  - assert (Ci := C i). assert (Ni := NW i). unfold go in St. destruct Ci as [C1 C2].
    destruct (pcs s i) as [| | | |kt|q d ck|d ck|q d ck|ck|lk hit q|hit| |lk|lk|q| | |f q q'| |wr q d|q d|q d|d|lk q d|d|d| |] eqn:E; try discriminate; try (now destruct C2).
    + injection St as <-. now apply (G i New); auto.
    + destruct (kd (P i)) eqn:K; try congruence; unfold go_pt in St; destruct (mapd s); try discriminate; injection St as <-;
        (eapply G; [reflexivity|now split]).
    + unfold go_pt in St; destruct (mapd s); injection St as <-; (eapply G; [reflexivity|now split]).
    + destruct (lock_free s (kwr kt)); [|discriminate]. injection St as <-.
      destruct kt as [h f|lk| | |wr| |]; try discriminate C1; unfold granted, to_clean.
      * eapply G; [reflexivity|now split].
      * destruct (any_dirty _ _); (eapply G; [reflexivity|now split]).
      * destruct (all_valid _ _ _); [eapply G; [reflexivity|now split]|]; destruct wr, (any_dirty _ _); (eapply G; [reflexivity|now split]).
      * destruct (any_dirty _ _); (eapply G; [reflexivity|now split]).
      * destruct (any_dirty _ _); (eapply G; [reflexivity|now split]).
    + destruct ck; try discriminate C1; destruct (none_left n q); try discriminate; injection St as <-; (eapply G; [reflexivity|now split]).
    + destruct ck; try discriminate C1; injection St as <-; (eapply G; [reflexivity|now split]).
    + destruct ck; try discriminate C1; destruct (none_left n q); try discriminate; injection St as <-; (eapply G; [reflexivity|now split]).
    + destruct ck; try discriminate C1; injection St as <-; (eapply G; [reflexivity|now split]).
    + destruct (none_left n q); try discriminate; injection St as <-; (eapply G; [reflexivity|now split]).
    + injection St as <-; (eapply G; [reflexivity|now split]).
    + injection St as <-; (eapply G; [reflexivity|now split]).
    + destruct (_ && _); try discriminate. destruct f; injection St as <-; (eapply G; [reflexivity|now split]).
    + injection St as <-; (eapply G; [reflexivity|now split]).
    + destruct (none_left n q); try discriminate; injection St as <-; (eapply G; [reflexivity|now split]).
    + destruct (none_left n q); try discriminate; injection St as <-; (eapply G; [reflexivity|now split]).
    + destruct (none_left n q); try discriminate; injection St as <-; (eapply G; [reflexivity|now split]).
    + injection St as <-; (eapply G; [reflexivity|now split]).
    + destruct (none_left n q); try discriminate; injection St as <-; (eapply G; [reflexivity|now split]).
    + injection St as <-; (eapply G; [reflexivity|now split]).
    + injection St as <-; (eapply G; [reflexivity|now split]).
    + injection St as <-; (eapply G; [reflexivity|now split]).
  - assert (Ci := C i). destruct Ci as [C1 C2].
    destruct (pcs s i) as [| | | |kt|q d ck|d ck|q d ck|ck|lk hit q|hit| |lk|lk|q| | |f q q'| |wr q d|q d|q d|d|lk q d|d|d| |] eqn:E; try discriminate;
      destruct (q x); try discriminate; injection St as <-; (eapply G; [reflexivity|now split]).
  - assert (Ci := C i). destruct Ci as [C1 C2].
    destruct (pcs s i) as [| | | |kt|q d ck|d ck|q d ck|ck|lk hit q|hit| |lk|lk|q| | |f q q'| |wr q d|q d|q d|d|lk q d|d|d| |] eqn:E; try discriminate.
    destruct (q' x); try discriminate; injection St as <-; (eapply G; [reflexivity|now split]).
  - cbn [cached] in Ca. destruct (pcs s i) eqn:E; try discriminate. destruct (kd (P i)) eqn:K; try discriminate.
    injection St as <-; (eapply G; [reflexivity|now split]).
  - destruct (mapd s); [discriminate|]. destruct (pcs s i) eqn:E; try discriminate. destruct (kd (P i)) eqn:K; try discriminate;
      injection St as <-; (eapply G; [reflexivity|now split]).
  - destruct (mapd s), (wrl s), (rdl s), (wts s); try discriminate. destruct (any_dirty n s); [discriminate|]. injection St as <-. apply C.
Qed.
Lemma along_calm n b P l : (forall i, kd (P i) <> KWi) -> Forall (cached P) l -> forall s, (forall i, calm (pcs s i)) ->
  along n b P (fun u => apart n P u /\ mild b u) l s.
Proof.
  intros NW F. induction F as [|a l Fa F IH]; intros s C; cbn [along].
  - split; [|exact I]. split; [intros i j x _ _ _ B; now rewrite (proj1 (C i)) in B|right].
    intros i j d k B. apply bare_bypass in B. now rewrite (proj1 (C i)) in B.
  - split.
    + split; [intros i j x _ _ _ B; now rewrite (proj1 (C i)) in B|right].
      intros i j d k B. apply bare_bypass in B. now rewrite (proj1 (C i)) in B.
    + destruct (step n b P s a) as [u|] eqn:E; [|exact I]. apply IH. now apply (calm_step n b P s a u).
Qed.
Theorem conc_cached n P c0 c1 l s x :
  (forall i, kd (P i) <> KWi) -> Forall (cached P) l ->
  run n false P l (start c0 c1) = Some s -> x < n ->
  (quiet n P (hist s) x -> latest n P c0 (hist s) x (content s x)) /\
  (forall r d, In (EAck r d) (hist s) -> is_wr (kd (P r)) = false -> covers n P r x -> readable n P c0 (hist s) r x (d x)).
Proof.
  intros NW F R Hx.
  assert (A : along n false P (fun u => apart n P u /\ mild false u) l (start c0 c1)).
  { apply along_calm; [assumption|assumption|]. intros i. split; [reflexivity|discriminate]. }
  split.
  - intros Q. apply (conc_latest_partial n false P c0 c1 l s x R A Hx Q).
  - intros r d H W C. apply (conc_reads_partial n false P c0 c1 l s r d x R A H W C).
Qed.

(** ** Concrete runs. *)
Definition idv (e : ev) : bool * nat := match e with EStart i => (true, i) | EAck i _ => (false, i) end.
Fixpoint olderb (h : list (bool * nat)) (i j : nat) : bool :=
  match h with
  | [] => false
  | (b, k) :: r => (b && (k =? j) && existsb (fun e => negb (fst e) && (snd e =? i)) r) || olderb r i j
  end.
Lemma acked_id h i : In (false, i) (map idv h) -> acked h i.
Proof. intros H. apply in_map_iff in H. destruct H as ([k|k b] & E & H); [discriminate|]. injection E as ->. now exists b. Qed.
Lemma id_acked h i : acked h i -> In (false, i) (map idv h).
Proof. intros (b & H). apply in_map_iff. now exists (EAck i b). Qed.
Lemma started_id h i : started h i <-> In (true, i) (map idv h).
Proof.
  split.
  - intros H. apply in_map_iff. now exists (EStart i).
  - intros H. apply in_map_iff in H. destruct H as ([k|k b] & E & H); [|discriminate]. injection E as ->. exact H.
Qed.
Lemma olderb_older h i j : olderb (map idv h) i j = true -> older h i j.
Proof.
  induction h as [|e h IH]; [discriminate|]. cbn [map olderb]. destruct (idv e) as [b k] eqn:E. intros H.
  apply orb_true_iff in H. destruct H as [H|H].
  - apply andb_true_iff in H. destruct H as [H1 H2]. apply andb_true_iff in H1. destruct H1 as [-> H1]. apply Nat.eqb_eq in H1. subst k.
    destruct e as [k|k d]; [|discriminate]. injection E as ->. apply existsb_exists in H2. destruct H2 as ((b & k) & H2 & H3).
    cbn [fst snd] in H3. apply andb_true_iff in H3. destruct H3 as [H3 H4]. apply Nat.eqb_eq in H4. subst k. destruct b; [discriminate|].
    destruct (acked_id h i H2) as (d & Hd). now exists [], h, d.
  - destruct (IH H) as (h2 & h1 & d & E1 & E2). exists (e :: h2), h1, d. split; [cbn; now rewrite E1|assumption].
Qed.

Definition mk (k : kind) (l : list nat) (v : N) : desc := {| kd := k; rng := fun x => existsb (Nat.eqb x) l; dat := fun _ => v |}.
Definition reqs (l : list desc) : nat -> desc := fun i => nth i l (mk KRd [] 0%N).
Definition look (s : st) : list (bool * nat) * V := (map idv (hist s), content s 0).

(** A write of sector 0 bypasses the cache, a read brings the line into the cache,
    a write-back write goes to sector 1, the line is cleaned. *)
Definition P1 := reqs [mk KWi [0] 7%N; mk KRd [0; 1] 0%N; mk KWb [1] 9%N; mk KCl [] 0%N].
Definition run1 : list act :=
  [ Go 0; Go 0;                                                        (* bypassing write: line not mapped, no lock *)
    Go 1; MapIt 1 (fun _ => 0%N); Sec 1 0; Sec 1 1; Go 1;              (* read miss, completed *)
    Sec 1 0; Sec 1 1; Go 1; Go 1; Go 1;                                (* backfill *)
    Go 2; Go 2; Go 2; Sec 2 1; Go 2; Go 2; Go 2; Go 2;                 (* write-back write, completed *)
    Go 3; Go 3; Go 3; Sec 3 0; Sec 3 1; Go 3; Go 3;                    (* the cleaner read the cache *)
    Sec 0 0;                                                           (* the bypassing write reaches the core *)
    Sec 3 0; Sec 3 1; Go 3; Go 3; Go 3;                                (* the cleaner writes the whole line *)
    Go 0; Go 0; Go 0; Go 0; Go 0; Go 0 ].                              (* second pass: the sector is purged; completed *)

(** The bypassing write was the only write to its sector, it was completed
    successfully, and its data is gone. *)
Theorem conc_latest_refuted :
  exists n P c0 c1 l s x, run n false P l (start c0 c1) = Some s /\ x < n /\
    (forall i j y, writes n P i y -> writes n P j y -> i = j) /\
    quiet n P (hist s) x /\ (exists i, writes n P i x /\ acked (hist s) i) /\ ~ latest n P c0 (hist s) x (content s x).
Proof.
  assert (V : option_map look (run 2 false P1 run1 (start (fun _ => 1%N) (fun _ => 0%N))) =
    Some ([(false, 0); (true, 3); (false, 2); (true, 2); (false, 1); (true, 1); (true, 0)], 1%N)) by (vm_compute; reflexivity).
  destruct (run 2 false P1 run1 (start (fun _ => 1%N) (fun _ => 0%N))) as [s|] eqn:R; [|discriminate].
  injection V as V1 V2. change (map idv (hist s)) with (fst (look s)) in V1.
  assert (W : forall i x, writes 2 P1 i x -> (i = 0 /\ x = 0) \/ (i = 2 /\ x = 1)).
  { intros i x [W [Hx Rx]]. destruct i as [|[|[|[|i]]]]; try discriminate W.
    - left. split; [reflexivity|]. destruct x as [|x]; [reflexivity|discriminate Rx].
    - right. split; [reflexivity|]. destruct x as [|[|x]]; [discriminate Rx|reflexivity|discriminate Rx].
    - destruct i; discriminate W. }
  assert (W0 : writes 2 P1 0 0) by (split; [reflexivity|split; [lia|reflexivity]]).
  assert (A0 : acked (hist s) 0) by (apply acked_id; change (In (false, 0) (fst (look s))); rewrite V1; now left).
  exists 2, P1, (fun _ => 1%N), (fun _ => 0%N), run1, s, 0. split; [exact R|]. clear R. split; [lia|]. split; [|split; [|split]].
  - intros i j y Wi Wj. apply W in Wi. apply W in Wj. lia.
  - intros i Wi _. destruct (W i 0 Wi) as [[-> _]|[-> K]]; [exact A0|discriminate K].
  - exists 0. split; [exact W0|exact A0].
  - intros (o & E & Ho & L). rewrite V2 in E. destruct o as [i|].
    + destruct (Ho i eq_refl) as [Wi _]. destruct (W i 0 Wi) as [[-> _]|[_ K]]; [|discriminate K]. discriminate E.
    + exact (L 0 W0 A0 Logic.I).
Qed.

(** Even with a cleaner that writes dirty sectors only: two bypassing writes to a
    sector, and a write-back write submitted after the second was completed; the
    second pass of the first drops the newest data, the data of the second is back. *)
Definition P2 := reqs [mk KWi [0] 7%N; mk KWi [0] 8%N; mk KWb [0] 9%N].
Definition run2 : list act :=
  [ Go 0; Go 0; Sec 0 0; Go 0;                                         (* first write: in the core *)
    Go 1; Go 1; Sec 1 0; Go 1; Go 1; Go 1;                             (* second write, completed *)
    Go 2; MapIt 2 (fun _ => 0%N); Sec 2 0; Go 2; Go 2; Go 2; Go 2;     (* write-back write, completed *)
    Go 0; Go 0; Go 0; Go 0; Go 0 ].                                    (* first write, second pass *)
Theorem conc_overlap_refuted :
  exists n P c0 c1 l x, forall b, exists s i j, run n b P l (start c0 c1) = Some s /\ x < n /\
    quiet n P (hist s) x /\ writes n P i x /\ writes n P j x /\ acked (hist s) j /\
    older (hist s) i j /\ content s x = dat (P i) x /\ ~ latest n P c0 (hist s) x (content s x).
Proof.
  exists 1, P2, (fun _ => 1%N), (fun _ => 0%N), run2, 0. intros b.
  assert (V : option_map look (run 1 b P2 run2 (start (fun _ => 1%N) (fun _ => 0%N))) =
    Some ([(false, 0); (false, 2); (true, 2); (false, 1); (true, 1); (true, 0)], 8%N)) by (destruct b; vm_compute; reflexivity).
  destruct (run 1 b P2 run2 (start (fun _ => 1%N) (fun _ => 0%N))) as [s|] eqn:R; [|discriminate].
  injection V as V1 V2. change (map idv (hist s)) with (fst (look s)) in V1.
  assert (W : forall i x, writes 1 P2 i x -> (i = 0 \/ i = 1 \/ i = 2) /\ x = 0).
  { intros i x [W [Hx Rx]]. split; [|lia]. destruct i as [|[|[|i]]]; auto. destruct i; discriminate W. }
  assert (A : forall i, In (false, i) (fst (look s)) -> acked (hist s) i) by (intros i; apply acked_id).
  assert (O : older (hist s) 1 2) by (apply olderb_older; change (map idv (hist s)) with (fst (look s)); rewrite V1; reflexivity).
  exists s, 1, 2. split; [reflexivity|]. clear R. split; [lia|]. split; [|split; [|split; [|split; [|split; [|split]]]]].
  - intros i Wi _. apply A. rewrite V1. destruct (W i 0 Wi) as [[->|[-> | ->]] _]; cbn [In]; clear; tauto.
  - split; [reflexivity|split; [lia|reflexivity]].
  - split; [reflexivity|split; [lia|reflexivity]].
  - apply A. rewrite V1. cbn [In]. clear. tauto.
  - exact O.
  - rewrite V2. reflexivity.
  - assert (W2 : writes 1 P2 2 0) by (split; [reflexivity|split; [lia|reflexivity]]).
    assert (A2 : acked (hist s) 2) by (apply A; rewrite V1; cbn [In]; clear; tauto).
    intros (o & E & Ho & L). rewrite V2 in E. destruct o as [i|].
    + destruct (Ho i eq_refl) as [Wi _]. destruct (W i 0 Wi) as [[->|[-> | ->]] _]; try discriminate E. exact (L 2 W2 A2 O).
    + exact (L 2 W2 A2 Logic.I).
Qed.

(** ** The hypotheses are met. *)
(** Overlapping write-back and write-through writes, a read, a cleaning. *)
Definition P3 := reqs [mk KWb [0] 7%N; mk KWt [0; 1] 8%N; mk KRd [0; 1] 0%N; mk KCl [] 0%N].
Definition run3 : list act :=
  [ Go 0; Go 1; Go 2; MapIt 2 (fun _ => 5%N); Go 0; Go 1; Sec 2 1; Sec 2 0; Go 2; Sec 2 0; Sec 2 1; Go 2; Go 2; Go 2;
    Go 0; Sec 0 0; Go 0; Go 0; Go 3; Go 3; Go 0; Go 0; Go 1; Sec2 1 0; Sec 1 1; Sec 1 0; Sec2 1 1; Go 1; Go 1; Go 1; Go 1;
    Go 3; Go 3 ].
Example conc_cached_example :
  (forall i, kd (P3 i) <> KWi) /\ Forall (cached P3) run3 /\
  option_map look (run 2 false P3 run3 (start (fun _ => 1%N) (fun _ => 0%N))) =
    Some ([(false, 1); (false, 0); (true, 3); (false, 2); (true, 2); (true, 1); (true, 0)], 8%N).
Proof.
  split; [|split].
  - intros [|[|[|[|[|i]]]]]; discriminate.
  - unfold run3. repeat (constructor; [exact I|]). constructor.
  - vm_compute. reflexivity.
Qed.
(** A bypassing write without lock, a read miss and a cleaning one after the other
    in the code as it is: the assumptions of [conc_serial_partial] hold throughout. *)
Definition who (a : act) : nat := match a with Go i | Sec i _ | Sec2 i _ | Byp i | MapIt i _ => i | Evict => 0 end.
Lemma step_who n b P s a t j : step n b P s a = Some t -> j <> who a -> pcs t j = pcs s j.
Proof.
  intros St N.
  assert (G : forall i p u, pcs u = upd (pcs s) i p -> who a = i -> pcs u j = pcs s j) by (intros i p u -> E; apply upd_neq; congruence).
  destruct a as [i|i x|i x|i|i c1|]; cbn [step who] in *.
  - unfold go in St.
    destruct (pcs s i) as [| | | |kt|q d ck|d ck|q d ck|ck|lk hit q|hit| |lk|lk|q| | |f q q'| |wr q d|q d|q d|d|lk q d|d|d| |] eqn:E; try discriminate;
      try (destruct (none_left n q); [|discriminate]); try (injection St as <-; eapply G; reflexivity).
    + destruct (kd (P i)); unfold go_wi, go_pt in St; destruct (mapd s); try discriminate; injection St as <-; eapply G; reflexivity.
    + injection St as <-. unfold go_wi. destruct (mapd s); eapply G; reflexivity.
    + injection St as <-. unfold go_pt. destruct (mapd s); eapply G; reflexivity.
    + destruct (lock_free s (kwr kt)); [|discriminate]. injection St as <-.
      destruct kt as [h f|lk| | |wr| |]; unfold granted, to_clean; try (eapply G; reflexivity).
      * destruct f; eapply G; reflexivity.
      * destruct (all_valid _ _ _); [eapply G; reflexivity|]. destruct wr; eapply G; reflexivity.
    + injection St as <-. cbn [with_pc pcs]. rewrite purge_pcs. now apply upd_neq.
    + injection St as <-. destruct (mapd s); eapply G; reflexivity.
    + injection St as <-. cbn [with_pc pcs]. rewrite purge_pcs. now apply upd_neq.
    + destruct (_ && _); [|discriminate]. injection St as <-; eapply G; reflexivity.
  - destruct (pcs s i) as [| | | |kt|q d ck|d ck|q d ck|ck|lk hit q|hit| |lk|lk|q| | |f q q'| |wr q d|q d|q d|d|lk q d|d|d| |] eqn:E; try discriminate;
      destruct (q x); try discriminate; injection St as <-; eapply G; reflexivity.
  - destruct (pcs s i); try discriminate; destruct (q x); try discriminate; injection St as <-; eapply G; reflexivity.
  - destruct (pcs s i); try discriminate; destruct (kd (P i)); try discriminate; injection St as <-; eapply G; reflexivity.
  - destruct (mapd s); [discriminate|]. destruct (pcs s i); try discriminate; destruct (kd (P i)); try discriminate; injection St as <-; eapply G; reflexivity.
  - destruct (mapd s), (wrl s), (rdl s), (wts s); try discriminate. destruct (any_dirty n s); [discriminate|]. now injection St as <-.
Qed.
Lemma along_idle n b P k (f : st -> bool) (Q : st -> Prop) l :
  (forall s, f s = true -> (forall j, k <= j -> pcs s j = Idle) -> Q s) -> 0 < k -> Forall (fun a => who a < k) l -> forall s,
  (forall j, k <= j -> pcs s j = Idle) ->
  (fix chk l s := f s && match l with [] => true | a :: r => match step n b P s a with Some t => chk r t | None => true end end) l s = true ->
  along n b P Q l s.
Proof.
  intros F K W. induction W as [|a l Wa W IH]; intros s Id H; apply andb_true_iff in H; destruct H as [H1 H2]; cbn [along]; split; auto.
  destruct (step n b P s a) as [t|] eqn:E; [apply IH|exact I]; [|exact H2].
  intros j Hj. rewrite (step_who n b P s a t j E); [now apply Id|lia].
Qed.
Definition sub_pc (p : pc) : bool := match p with CSub _ _ => true | _ => false end.
Definition mildb k (s : st) : bool := negb (existsb (fun i => bare (pcs s i)) (seq 0 k) && existsb (fun i => sub_pc (pcs s i)) (seq 0 k)).
Lemma mildb_mild k b s : mildb k s = true -> (forall j, k <= j -> pcs s j = Idle) -> mild b s.
Proof.
  intros H Id. right. intros i j d c Bi Ej.
  assert (Hi : i < k) by (destruct (le_lt_dec k i) as [K|K]; [rewrite (Id i K) in Bi; discriminate|assumption]).
  assert (Hj : j < k) by (destruct (le_lt_dec k j) as [K|K]; [rewrite (Id j K) in Ej; discriminate|assumption]).
  unfold mildb in H. apply negb_true_iff in H. apply andb_false_iff in H. destruct H as [H|H].
  - assert (E : existsb (fun i => bare (pcs s i)) (seq 0 k) = true); [|congruence]. apply existsb_exists. exists i. split; [apply in_seq; lia|assumption].
  - assert (E : existsb (fun i => sub_pc (pcs s i)) (seq 0 k) = true); [|congruence]. apply existsb_exists. exists j. split; [apply in_seq; lia|now rewrite Ej].
Qed.
(** The requests of [run1], but the cleaner starts after the bypassing write's second pass. *)
Definition run4 : list act :=
  [ Go 0; Go 0;
    Go 1; MapIt 1 (fun _ => 0%N); Sec 1 0; Sec 1 1; Go 1; Sec 1 0; Sec 1 1; Go 1; Go 1; Go 1;
    Go 2; Go 2; Go 2; Sec 2 1; Go 2; Go 2; Go 2; Go 2;
    Sec 0 0; Go 0; Go 0; Go 0; Go 0; Go 0; Go 0;
    Go 3; Go 3; Go 3; Sec 3 0; Sec 3 1; Go 3; Go 3; Sec 3 1; Go 3; Go 3; Go 3 ].
Lemma single_serial n P h : (forall i j y, writes n P i y -> writes n P j y -> i = j) -> serial n P h.
Proof. intros H i j x N Wi Wj. now destruct (N (H i j x Wi Wj)). Qed.
Example conc_serial_example :
  along 2 false P1 (fun u => serial 2 P1 (hist u) /\ mild false u) run4 (start (fun _ => 1%N) (fun _ => 0%N)) /\
  option_map (fun s => (look s, core s 1, mapd s)) (run 2 false P1 run4 (start (fun _ => 1%N) (fun _ => 0%N))) =
    Some (([(true, 3); (false, 0); (false, 2); (true, 2); (false, 1); (true, 1); (true, 0)], 7%N), 9%N, true).
Proof.
  split; [|vm_compute; reflexivity].
  apply (along_idle 2 false P1 4 (mildb 4)).
  - intros s H Id. split; [|now apply (mildb_mild 4)]. apply single_serial.
    assert (W : forall i x, writes 2 P1 i x -> (i = 0 /\ x = 0) \/ (i = 2 /\ x = 1)).
    { intros i x [W [Hx Rx]]. destruct i as [|[|[|[|i]]]]; try discriminate W.
      - left. split; [reflexivity|]. destruct x as [|x]; [reflexivity|discriminate Rx].
      - right. split; [reflexivity|]. destruct x as [|[|x]]; [discriminate Rx|reflexivity|discriminate Rx].
      - destruct i; discriminate W. }
    intros i j y Wi Wj. apply W in Wi. apply W in Wj. lia.
  - lia.
  - unfold run4. repeat (constructor; [cbn [who]; lia|]). constructor.
  - reflexivity.
  - vm_compute. reflexivity.
Qed.

Print Assumptions conc_latest_partial.
Print Assumptions conc_reads_partial.
Print Assumptions conc_serial_partial.
Print Assumptions conc_cached.
Print Assumptions conc_latest_refuted.
Print Assumptions conc_overlap_refuted.

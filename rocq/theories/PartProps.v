(** Size limits and priorities of I/O classes: property C32. *)
From Coq Require Import List Bool Arith ZArith NArith Lia Sorted Permutation.
From Verif Require Import ListModel ListProps PartModel.
Import ListNotations.
Open Scope N_scope.

(** ** Specification *)

(** Nothing more can be taken from class q: no line can be evicted, or it is at its minimum. *)
Definition drained (s : cache) (q : nat) : Prop := avail s q = 0 \/ occ s q <= min_size s q.

(** ** One step *)
Definition same (s s' : cache) : Prop := cfg s' = cfg s /\ lst s' = lst s /\ lines s' = lines s.
Lemma same_refl s : same s s. Proof. repeat split. Qed.
Lemma same_trans a b c : same a b -> same b c -> same a c.
Proof. intros (A & B & C) (D & E & F). repeat split; congruence. Qed.
Lemma same_min s s' p : same s s' -> min_size s' p = min_size s p.
Proof. intros (A & _ & C). unfold min_size. rewrite A, C. reflexivity. Qed.
Lemma same_max s s' p : same s s' -> max_size s' p = max_size s p.
Proof. intros (A & _ & C). unfold max_size. rewrite A, C. reflexivity. Qed.
Lemma same_order s s' : same s s' -> order s' = order s.
Proof. intros (_ & B & _). unfold order. rewrite B. reflexivity. Qed.

Lemma upd_same {A} (f : nat -> A) x v : upd f x v x = v.
Proof. unfold upd. rewrite Nat.eqb_refl. reflexivity. Qed.
Lemma upd_other {A} (f : nat -> A) x v y : y <> x -> upd f x v y = f y.
Proof. intros N. unfold upd. destruct (Nat.eqb_spec y x); [contradiction|reflexivity]. Qed.

Lemma req_part t p n um s : n <= um ->
  exists k s', req_clines t (Some p) n um s = Some (k, um - k, s') /\ k = N.min n (avail s p) /\ same s s' /\ free s' = free s /\ availf s' = availf s /\
    avail s' p = avail s p - k /\ (forall q, q <> p -> avail s' q = avail s q) /\
    (p = t -> forall q, occ s' q = occ s q) /\
    (p <> t -> occ s' p = occ s p - k /\ occ s' t = occ s t + k /\ forall q, q <> p -> q <> t -> occ s' q = occ s q).
Proof.
  intros H. unfold req_clines. destruct (N.eqb_spec n 0) as [->|Nn].
  - exists 0, s. rewrite N.sub_0_r. repeat split; try lia; auto.
  - destruct (N.ltb_spec um n); [lia|]. eexists _, _. split; [reflexivity|]. cbn. split; [reflexivity|]. split; [repeat split|]. split; [reflexivity|]. split; [reflexivity|].
    split; [apply upd_same|]. split; [intros q Nq; apply upd_other; exact Nq|]. split.
    + intros ->. rewrite Nat.eqb_refl. reflexivity.
    + intros Npt. destruct (Nat.eqb_spec p t); [contradiction|]. split; [rewrite upd_other, upd_same by auto; reflexivity|].
      split; [rewrite upd_same, upd_other by auto; reflexivity|]. intros q N1 N2. rewrite !upd_other by auto. reflexivity.
Qed.

(** What any part of an eviction does: [took] lines were taken. *)
Record Evicts (t : nat) (took : N) (ps : list nat) (s s' : cache) : Prop := {
  e_same : same s s';
  e_min : forall p, N.min (occ s p) (min_size s p) <= occ s' p;
  e_less : forall p, p <> t -> occ s' p <= occ s p;
  e_avail : forall p, avail s' p <= avail s p;
  e_t : occ s t <= occ s' t <= occ s t + took;
  e_frame : forall p, ~ In p ps -> avail s' p = avail s p /\ (p <> t -> occ s' p = occ s p);
  e_free : free s' = free s /\ availf s' = availf s }.

Lemma evicts_refl t ps s : Evicts t 0 ps s s.
Proof. constructor; intros; try lia; auto using same_refl. Qed.
Lemma evicts_trans t a b p ps s s1 s2 : Evicts t a [p] s s1 -> Evicts t b ps s1 s2 -> Evicts t (a + b) (p :: ps) s s2.
Proof.
  intros A B. constructor.
  - eapply same_trans; [apply A | apply B].
  - intros q. pose proof (e_min _ _ _ _ _ A q). pose proof (e_min _ _ _ _ _ B q) as H2. rewrite (same_min _ _ q (e_same _ _ _ _ _ A)) in H2. lia.
  - intros q Nq. pose proof (e_less _ _ _ _ _ A q Nq). pose proof (e_less _ _ _ _ _ B q Nq). lia.
  - intros q. pose proof (e_avail _ _ _ _ _ A q). pose proof (e_avail _ _ _ _ _ B q). lia.
  - pose proof (e_t _ _ _ _ _ A). pose proof (e_t _ _ _ _ _ B). lia.
  - intros q Nq. cbn [In] in Nq. destruct (e_frame _ _ _ _ _ A q) as (A1 & A2); [cbn [In]; tauto|]. destruct (e_frame _ _ _ _ _ B q) as (B1 & B2); [tauto|].
    split; [congruence|]. intros Nt. rewrite B2, A2 by assumption. reflexivity.
  - destruct (e_free _ _ _ _ _ A), (e_free _ _ _ _ _ B). split; congruence.
Qed.
Lemma evicts_skip t b p ps s s2 : Evicts t b ps s s2 -> Evicts t b (p :: ps) s s2.
Proof. intros B. change b with (0 + b). eapply evicts_trans; [apply evicts_refl | exact B]. Qed.
Lemma evicts_weaken t k ps ps' s s' : Evicts t k ps s s' -> incl ps ps' -> Evicts t k ps' s s'.
Proof.
  intros A I. destruct A as [A1 A2 A3 A4 A5 A6 A7]. constructor; auto.
Qed.

Lemma calculate_bound s p n : evict_calculate s p n <= n /\ (min_size s p < occ s p -> evict_calculate s p n <= occ s p - min_size s p) /\
  (occ s p <= min_size s p -> evict_calculate s p n = 0) /\ (evict_calculate s p n < n -> occ s p <= min_size s p \/ evict_calculate s p n = occ s p - min_size s p).
Proof.
  unfold evict_calculate. destruct (N.leb_spec (occ s p) (min_size s p)); [repeat split; intros; try lia; auto|].
  destruct (N.ltb_spec (occ s p - min_size s p) n); repeat split; intros; try lia; auto.
Qed.

(** One class: at most what may be taken from it *)
Lemma req_evicts t p n um s : n <= um -> n <= evict_calculate s p um ->
  exists k s', req_clines t (Some p) n um s = Some (k, um - k, s') /\ Evicts t k [p] s s' /\ k <= n /\
    (k < n -> avail s' p = 0) /\ (p <> t -> occ s' p = occ s p - k).
Proof.
  intros H C. destruct (req_part t p n um s H) as (k & s' & E & K & S & F1 & F2 & A1 & A2 & O1 & O2). exists k, s'. split; [exact E|].
  assert (Kn : k <= n) by lia. pose proof (calculate_bound s p um) as (C0 & C1 & C2 & _).
  assert (Km : k <= occ s p - min_size s p). { destruct (N.lt_ge_cases (min_size s p) (occ s p)) as [L|L]; [specialize (C1 L); lia | specialize (C2 L); lia]. }
  split; [|split; [exact Kn|split]].
  - constructor; [exact S| | | | | |split; assumption].
    + intros q. destruct (Nat.eq_dec p t) as [E'|N]; [rewrite (O1 E'); lia|]. destruct (O2 N) as (P1 & P2 & P3).
      destruct (Nat.eq_dec q p) as [->|Nq]; [rewrite P1; lia|]. destruct (Nat.eq_dec q t) as [->|Nt]; [rewrite P2; lia|]. rewrite P3 by assumption. lia.
    + intros q Nq. destruct (Nat.eq_dec p t) as [E'|N]; [rewrite (O1 E'); lia|]. destruct (O2 N) as (P1 & P2 & P3).
      destruct (Nat.eq_dec q p) as [->|Nq']; [rewrite P1; lia|]. rewrite P3 by assumption. lia.
    + intros q. destruct (Nat.eq_dec q p) as [->|Nq]; [rewrite A1; lia | rewrite A2 by assumption; lia].
    + destruct (Nat.eq_dec p t) as [E'|N]; [rewrite (O1 E'); lia|]. destruct (O2 N) as (P1 & P2 & P3). rewrite P2. lia.
    + intros q Nq. cbn [In] in Nq. split; [apply A2; intros ->; tauto|]. intros Nt. destruct (Nat.eq_dec p t) as [E'|N]; [apply (O1 E')|].
      apply (O2 N); [intros ->; tauto | exact Nt].
  - intros L. rewrite A1. lia.
  - intros N. apply (O2 N).
Qed.

Lemma drained_later t k ps s s' q : Evicts t k ps s s' -> q <> t -> drained s q -> drained s' q.
Proof.
  intros E N [D|D]; [left; pose proof (e_avail _ _ _ _ _ E q); lia|]. right. rewrite (same_min _ _ q (e_same _ _ _ _ _ E)). pose proof (e_less _ _ _ _ _ E q N). lia.
Qed.
Lemma drained_mono t k s s' p need : Evicts t k [p] s s' -> p <> t -> occ s' p = occ s p - k -> k < need ->
  (k < evict_calculate s p need -> avail s' p = 0) -> drained s' p.
Proof.
  intros E N O Lt A. pose proof (calculate_bound s p need) as (C0 & _ & _ & C3).
  destruct (N.lt_ge_cases k (evict_calculate s p need)) as [L|L]; [left; apply A; exact L|]. right. rewrite (same_min _ _ p (e_same _ _ _ _ _ E)).
  destruct C3 as [D|D]; [lia| |]; lia.
Qed.
Lemma calc_um s p need um : need <= um -> evict_calculate s p need <= evict_calculate s p um.
Proof.
  intros H. unfold evict_calculate. destruct (_ <=? _); [lia|]. destruct (N.ltb_spec (occ s p - min_size s p) need), (N.ltb_spec (occ s p - min_size s p) um); lia.
Qed.

(** ** The third phase: by priority *)
Lemma loop_prio t mp : forall ps need ev um s, NoDup ps -> ev < need -> need - ev <= um ->
  exists ev' um' s', evict_loop t ps need false mp ev um s = Some (ev', um', s') /\ ev <= ev' <= need /\ um' + ev' = um + ev /\
    Evicts t (ev' - ev) ps s s' /\
    (forall p, p <> t -> occ s' p < occ s p -> exists A B, ps = A ++ p :: B /\ (mp <= prio (cfg s p))%Z /\ eviction (cfg s p) = true /\
       forall q, In q A -> q <> t -> drained s' q) /\
    (ev' < need -> forall A q B, ps = A ++ q :: B -> (forall a, In a (A ++ [q]) -> (mp <= prio (cfg s a))%Z /\ eviction (cfg s a) = true) -> q <> t -> drained s' q).
Proof.
  induction ps as [|h ps IH]; intros need ev um s ND Hn Hu; cbn [evict_loop].
  - exists ev, um, s. split; [reflexivity|]. split; [lia|]. split; [reflexivity|]. split; [rewrite N.sub_diag; apply evicts_refl|].
    split; [intros; lia|]. intros _ A q B E. destruct A; discriminate.
  - apply NoDup_cons_iff in ND. destruct ND as (Nh & ND).
    assert (Stop : ~ ((mp <= prio (cfg s h))%Z /\ eviction (cfg s h) = true) -> exists ev' um' s', Some (ev, um, s) = Some (ev', um', s') /\ ev <= ev' <= need /\ um' + ev' = um + ev /\
      Evicts t (ev' - ev) (h :: ps) s s' /\
      (forall p, p <> t -> occ s' p < occ s p -> exists A B, h :: ps = A ++ p :: B /\ (mp <= prio (cfg s p))%Z /\ eviction (cfg s p) = true /\ forall q, In q A -> q <> t -> drained s' q) /\
      (ev' < need -> forall A q B, h :: ps = A ++ q :: B -> (forall a, In a (A ++ [q]) -> (mp <= prio (cfg s a))%Z /\ eviction (cfg s a) = true) -> q <> t -> drained s' q)).
    { intros X. exists ev, um, s. split; [reflexivity|]. split; [lia|]. split; [reflexivity|]. split; [rewrite N.sub_diag; apply evicts_refl|].
      split; [intros; lia|]. intros _ A q B E Q. exfalso. apply X. apply Q. destruct A as [|a A]; cbn [app] in E; injection E as <- _; left; reflexivity. }
    destruct (Z.ltb_spec (prio (cfg s h)) mp) as [L|L]; [apply Stop; lia|]. cbn [negb andb].
    destruct (eviction (cfg s h)) eqn:Ev; cbn [negb]; [|apply Stop; intros (_ & X); discriminate]. clear Stop.
    pose proof (calculate_bound s h (need - ev)) as (C0 & _ & _ & C3).
    destruct (N.eqb_spec (evict_calculate s h (need - ev)) 0) as [Z|Z].
    + assert (Dh : drained s h) by (right; destruct C3 as [D|D]; lia).
      destruct (IH need ev um s ND Hn Hu) as (ev' & um' & s' & E & B1 & B2 & V & P & Q). exists ev', um', s'. split; [exact E|]. split; [exact B1|]. split; [exact B2|].
      split; [apply evicts_skip; exact V|]. split.
      * intros p Np Lp. destruct (P p Np Lp) as (A & B & -> & P1 & P2 & P3). exists (h :: A), B. split; [reflexivity|]. split; [exact P1|]. split; [exact P2|].
        intros q [<-|Iq] Nq; [apply (drained_later _ _ _ _ _ _ V Nq Dh) | apply P3; assumption].
      * intros Lt A q B E' X Nq. destruct A as [|a A]; cbn [app] in E'; injection E' as E1 E2.
        -- rewrite <- E1. apply (drained_later _ _ _ _ _ _ V); [rewrite E1; exact Nq | exact Dh].
        -- apply (Q Lt A q B E2); [|exact Nq]. intros b Ib. apply X. cbn [app]. right. exact Ib.
    + destruct (req_evicts t h (evict_calculate s h (need - ev)) um s) as (k & s1 & -> & V1 & K1 & K2 & K3); [lia | apply calc_um; lia|].
      destruct (N.leb_spec need (ev + k)) as [Le|Le].
      * assert (ev + k = need) by lia. exists (ev + k), (um - k), s1. split; [reflexivity|]. split; [lia|]. split; [lia|].
        split; [replace (ev + k - ev) with k by lia; apply (evicts_weaken t k [h]); [exact V1 | intros x [<-|[]]; left; reflexivity]|].
        split; [|intros; lia]. intros p Np Lp. destruct (Nat.eq_dec p h) as [->|Nph].
        -- exists [], ps. split; [reflexivity|]. split; [exact L|]. split; [exact Ev|]. intros q [].
        -- exfalso. destruct (e_frame _ _ _ _ _ V1 p) as (_ & F); [cbn [In]; intros [X|[]]; congruence|]. rewrite (F Np) in Lp. lia.
      * destruct (IH need (ev + k) (um - k) s1 ND Le ltac:(lia)) as (ev' & um' & s' & E & B1 & B2 & V & P & Q). exists ev', um', s'.
        split; [exact E|]. split; [lia|]. split; [lia|]. split; [replace (ev' - ev) with (k + (ev' - (ev + k))) by lia; apply (evicts_trans t _ _ h ps s s1 s' V1 V)|].
        assert (Dh : h <> t -> drained s' h).
        { intros Nt. apply (drained_later _ _ _ _ _ _ V Nt). apply (drained_mono t k s s1 h (need - ev) V1 Nt (K3 Nt)); [lia|exact K2]. }
        destruct (e_same _ _ _ _ _ V1) as (CE & _ & _). split.
        -- intros p Np Lp. destruct (Nat.eq_dec p h) as [->|Nph].
           ++ exists [], ps. split; [reflexivity|]. split; [exact L|]. split; [exact Ev|]. intros q [].
           ++ destruct (e_frame _ _ _ _ _ V1 p) as (_ & F); [cbn [In]; intros [X|[]]; congruence|]. rewrite <- (F Np) in Lp.
              destruct (P p Np Lp) as (A & B & -> & P1 & P2 & P3). rewrite CE in P1, P2. exists (h :: A), B. split; [reflexivity|]. split; [exact P1|]. split; [exact P2|].
              intros q [<-|Iq] Nq; [apply Dh; exact Nq | apply P3; assumption].
        -- intros Lt A q B E' X Nq. destruct A as [|a A]; cbn [app] in E'; injection E' as E1 E2.
           ++ rewrite <- E1 in *. apply Dh. exact Nq.
           ++ apply (Q Lt A q B E2); [|exact Nq]. intros b Ib. rewrite CE. apply X. cbn [app]. right. exact Ib.
Qed.

(** ** The second phase: overflown classes *)
Lemma overflow_spec s p : (overflow_size s p = 0 <-> occ s p <= max_size s p) /\ overflow_size s p <= occ s p - max_size s p.
Proof. unfold overflow_size. destruct (N.ltb_spec (max_size s p) (occ s p)); lia. Qed.
Lemma loop_over t : forall ps need ev um s, NoDup ps -> (forall p, In p ps -> (-1 <= prio (cfg s p))%Z) -> ev < need -> need - ev <= um ->
  exists ev' um' s', evict_loop t ps need true (-1) ev um s = Some (ev', um', s') /\ ev <= ev' <= need /\ um' + ev' = um + ev /\
    Evicts t (ev' - ev) ps s s' /\
    (forall p, p <> t -> occ s' p < occ s p -> max_size s p <= occ s' p) /\
    (ev' < need -> forall q, In q ps -> q <> t -> occ s' q <= max_size s q \/ drained s' q).
Proof.
  induction ps as [|h ps IH]; intros need ev um s ND Pr Hn Hu; cbn [evict_loop].
  - exists ev, um, s. split; [reflexivity|]. split; [lia|]. split; [reflexivity|]. split; [rewrite N.sub_diag; apply evicts_refl|]. split; [intros; lia|]. intros _ q [].
  - apply NoDup_cons_iff in ND. destruct ND as (Nh & ND).
    destruct (Z.ltb_spec (prio (cfg s h)) (-1)) as [L|_]; [specialize (Pr h (or_introl eq_refl)); lia|]. cbn [negb andb].
    pose proof (overflow_spec s h) as (OV & OV2).
    assert (Skip : occ s h <= max_size s h \/ drained s h -> exists ev' um' s', evict_loop t ps need true (-1) ev um s = Some (ev', um', s') /\ ev <= ev' <= need /\ um' + ev' = um + ev /\
      Evicts t (ev' - ev) (h :: ps) s s' /\ (forall p, p <> t -> occ s' p < occ s p -> max_size s p <= occ s' p) /\
      (ev' < need -> forall q, In q (h :: ps) -> q <> t -> occ s' q <= max_size s q \/ drained s' q)).
    { intros D. destruct (IH need ev um s ND (fun p Ip => Pr p (or_intror Ip)) Hn Hu) as (ev' & um' & s' & E & B1 & B2 & V & P & Q). exists ev', um', s'.
      split; [exact E|]. split; [exact B1|]. split; [exact B2|]. split; [apply evicts_skip; exact V|]. split; [exact P|].
      intros Lt q [<-|Iq] Nq; [|apply (Q Lt q Iq Nq)]. destruct D as [D|D]; [left; pose proof (e_less _ _ _ _ _ V h Nq); lia | right; apply (drained_later _ _ _ _ _ _ V Nq D)]. }
    destruct (N.eqb_spec (overflow_size s h) 0) as [Z|Z]; [apply Skip; left; apply OV; exact Z|].
    pose proof (calculate_bound s h (need - ev)) as (C0 & _ & _ & C3).
    destruct (N.eqb_spec (evict_calculate s h (need - ev)) 0) as [Z2|Z2]; [apply Skip; right; right; destruct C3 as [D|D]; lia|]. clear Skip.
    destruct (req_evicts t h (N.min (evict_calculate s h (need - ev)) (overflow_size s h)) um s) as (k & s1 & -> & V1 & K1 & K2 & K3);
      [lia | pose proof (calc_um s h (need - ev) um ltac:(lia)); lia|].
    assert (Ph : h <> t -> max_size s h <= occ s1 h) by (intros Nt; rewrite (K3 Nt); lia).
    assert (Po : forall p, p <> t -> occ s1 p < occ s p -> p = h).
    { intros p Np Lp. destruct (Nat.eq_dec p h) as [|Nph]; [assumption|]. exfalso. destruct (e_frame _ _ _ _ _ V1 p) as (_ & F); [cbn [In]; intros [X|[]]; congruence|]. rewrite (F Np) in Lp. lia. }
    destruct (N.leb_spec need (ev + k)) as [Le|Le].
    + assert (ev + k = need) by lia. exists (ev + k), (um - k), s1. split; [reflexivity|]. split; [lia|]. split; [lia|].
      split; [replace (ev + k - ev) with k by lia; apply (evicts_weaken t k [h]); [exact V1 | intros x [<-|[]]; left; reflexivity]|].
      split; [|intros; lia]. intros p Np Lp. pose proof (Po p Np Lp) as ->. apply Ph. exact Np.
    + destruct (e_same _ _ _ _ _ V1) as (CE & CL & CN).
      destruct (IH need (ev + k) (um - k) s1 ND) as (ev' & um' & s' & E & B1 & B2 & V & P & Q); [intros p Ip; rewrite CE; apply Pr; right; exact Ip | lia | lia|]. exists ev', um', s'.
      split; [exact E|]. split; [lia|]. split; [lia|]. split; [replace (ev' - ev) with (k + (ev' - (ev + k))) by lia; apply (evicts_trans t _ _ h ps s s1 s' V1 V)|].
      assert (Fh : h <> t -> occ s' h = occ s1 h) by (intros Nt; apply (e_frame _ _ _ _ _ V h Nh); exact Nt).
      split.
      * intros p Np Lp. destruct (Nat.eq_dec p h) as [->|Nph]; [rewrite (Fh Np); apply Ph; exact Np|].
        destruct (e_frame _ _ _ _ _ V1 p) as (_ & F); [cbn [In]; intros [X|[]]; congruence|]. rewrite <- (F Np) in Lp.
        rewrite <- (same_max s s1 p (e_same _ _ _ _ _ V1)). apply P; assumption.
      * intros Lt q [<-|Iq] Nq; [|rewrite <- (same_max s s1 q (e_same _ _ _ _ _ V1)); apply (Q Lt q Iq Nq)].
        destruct (N.lt_ge_cases k (N.min (evict_calculate s h (need - ev)) (overflow_size s h))) as [Lk|Lk].
        -- right. apply (drained_later _ _ _ _ _ _ V Nq). left. apply K2. exact Lk.
        -- destruct (N.le_ge_cases (overflow_size s h) (evict_calculate s h (need - ev))) as [Mo|Mo].
           ++ left. rewrite (Fh Nq), (K3 Nq). unfold overflow_size in *. destruct (N.ltb_spec (max_size s h) (occ s h)); lia.
           ++ right. apply (drained_later _ _ _ _ _ _ V Nq). right. rewrite (same_min _ _ h (e_same _ _ _ _ _ V1)), (K3 Nq).
              destruct C3 as [D|D]; lia.
Qed.

(** ** A whole request *)

(** The freelist *)
Definition took_free (t : nat) (k : N) (s s' : cache) : Prop :=
  same s s' /\ avail s' = avail s /\ (forall p, p <> t -> occ s' p = occ s p) /\ occ s' t = occ s t + k /\ availf s' = availf s - k.

Lemma free_phase t um s : exists k s', (if 0 <? free s then req_clines t None um um s else Some (0, um, s)) = Some (k, um - k, s') /\
  k <= um /\ took_free t k s s' /\ (k < um -> free s = 0 \/ availf s' = 0) /\ (um <= availf s -> 0 < free s -> k = um).
Proof.
  destruct (N.ltb_spec 0 (free s)) as [F|F].
  - unfold req_clines. destruct (N.eqb_spec um 0) as [->|Nz].
    + exists 0, s. split; [reflexivity|]. split; [lia|]. split; [|split; lia]. split; [apply same_refl|]. repeat split; try lia; auto.
    + rewrite N.ltb_irrefl. eexists _, _. split; [reflexivity|]. split; [lia|]. cbn. split; [|split; lia].
      split; [repeat split|]. cbn. split; [reflexivity|]. split; [intros p Np; apply upd_other; exact Np|]. split; [apply upd_same | reflexivity].
  - exists 0, s. rewrite N.sub_0_r. split; [reflexivity|]. split; [lia|]. split; [|split; lia]. split; [apply same_refl|]. repeat split; try lia; auto.
Qed.

(** The list of classes, well formed: every class once, priorities in range *)
Definition classes (s : cache) : Prop := NoDup (order s) /\ forall p, In p (order s) -> (-1 <= prio (cfg s p))%Z.

(** What ocf_remap_do does *)
Record Remaps (t : nat) (um r : N) (s s' : cache) : Prop := {
  r_le : r <= um;
  r_same : same s s';
  r_min : forall p, N.min (occ s p) (min_size s p) <= occ s' p;
  r_less : forall p, p <> t -> occ s' p <= occ s p;
  r_t : occ s t <= occ s' t <= occ s t + r;
  r_free : um <= availf s -> 0 < free s -> r = um /\ forall p, p <> t -> occ s' p = occ s p;
  (* taken from another class: no free line was left *)
  r_free_first : forall p, p <> t -> occ s' p < occ s p -> free s = 0 \/ availf s' = 0;
  (* taken below its maximum: nothing was left to take from overflown classes *)
  r_over_first : forall p, p <> t -> occ s' p < occ s p -> occ s' p < max_size s p ->
    forall q, In q (order s) -> q <> t -> occ s' q <= max_size s q \/ drained s' q;
  (* ... the class has no higher priority than the request, and all classes before it in the list are drained *)
  r_prio : forall p, p <> t -> occ s' p < occ s p -> occ s' p < max_size s p ->
    exists A B, order s = A ++ p :: B /\ (prio (cfg s t) <= prio (cfg s p))%Z /\ eviction (cfg s p) = true /\ forall q, In q A -> q <> t -> drained s' q;
  (* not enough: everything that may be taken was taken *)
  r_fail : r < um -> (free s = 0 \/ availf s' = 0) /\
    forall A q B, order s = A ++ q :: B -> (forall a, In a (A ++ [q]) -> (prio (cfg s t) <= prio (cfg s a))%Z /\ eviction (cfg s a) = true) -> q <> t -> drained s' q }.

Lemma remap_spec t um s : classes s -> exists r um' s', remap_do t um s = Some (r, um', s') /\ Remaps t um r s s'.
Proof.
  intros (ND & Pr). unfold remap_do.
  destruct (free_phase t um s) as (k0 & s0 & -> & K0 & (S0 & A0 & O0 & T0 & F0) & X0 & Y0).
  assert (MM : forall p, min_size s0 p = min_size s p /\ max_size s0 p = max_size s p) by (intros p; split; [apply same_min | apply same_max]; exact S0).
  pose proof (same_order _ _ S0) as OO. destruct S0 as (C0 & L0 & N0). assert (S0 : same s s0) by (repeat split; assumption).
  destruct (N.leb_spec um k0) as [Le|Lt0].
  { assert (k0 = um) by lia. subst k0. exists um, (um - um), s0. split; [reflexivity|].
    constructor; try (intros; lia); auto.
    - intros p. destruct (Nat.eq_dec p t) as [->|N]; [rewrite T0; lia | rewrite O0 by exact N; lia].
    - intros p N. rewrite O0 by exact N. lia.
    - intros p N L. rewrite O0 in L by exact N. lia.
    - intros p N L. rewrite O0 in L by exact N. lia.
    - intros p N L. rewrite O0 in L by exact N. lia. }
  specialize (X0 Lt0). unfold evict_user_partitions.
  destruct (loop_over t (order s0) (um - k0) 0 (um - k0) s0) as (k1 & um1 & s1 & -> & B1 & U1 & V1 & P1 & Q1);
    [rewrite OO; exact ND | intros p Ip; rewrite C0; apply Pr; rewrite <- OO; exact Ip | lia | lia|].
  rewrite N.sub_0_r in V1. pose proof (e_same _ _ _ _ _ V1) as S1. destruct (e_free _ _ _ _ _ V1) as (Fr1 & Af1). pose proof (same_order _ _ S1) as OO1.
  assert (Fe : free s = 0 \/ availf s1 = 0) by (rewrite Af1; exact X0).
  assert (Nf : um <= availf s -> 0 < free s -> False) by (intros Z1 Z2; specialize (Y0 Z1 Z2); lia).
  destruct (N.leb_spec um (k0 + k1)) as [Le|Lt1].
  { exists (k0 + k1), um1, s1. split; [reflexivity|].
    constructor.
    - lia.
    - eapply same_trans; [exact S0 | exact S1].
    - intros p. pose proof (e_min _ _ _ _ _ V1 p) as H. destruct (MM p) as (M1 & _). rewrite M1 in H. destruct (Nat.eq_dec p t) as [->|N]; [rewrite T0 in H; lia | rewrite (O0 p N) in H; lia].
    - intros p N. pose proof (e_less _ _ _ _ _ V1 p N). rewrite (O0 p N) in *. lia.
    - pose proof (e_t _ _ _ _ _ V1). lia.
    - intros Z1 Z2. destruct (Nf Z1 Z2).
    - intros; exact Fe.
    - intros p N L L2. exfalso. rewrite <- (O0 p N) in L. specialize (P1 p N L). destruct (MM p) as (_ & M2). lia.
    - intros p N L L2. exfalso. rewrite <- (O0 p N) in L. specialize (P1 p N L). destruct (MM p) as (_ & M2). lia.
    - intros; lia. }
  destruct (loop_prio t (prio (cfg s1 t)) (order s1) (um - (k0 + k1)) 0 um1 s1) as (k2 & um2 & s2 & -> & B2 & U2 & V2 & P2 & Q2);
    [rewrite OO1, OO; exact ND | lia | lia|].
  rewrite N.sub_0_r in V2. pose proof (e_same _ _ _ _ _ V2) as S2. destruct (e_free _ _ _ _ _ V2) as (Fr2 & Af2).
  destruct S1 as (C1 & _ & _). assert (Tt : forall p, cfg s1 p = cfg s p) by (intros p; rewrite C1, C0; reflexivity). rewrite OO1, OO in P2, Q2.
  exists (k0 + k1 + k2), um2, s2. split; [reflexivity|].
  assert (M1 : forall p, min_size s1 p = min_size s p /\ max_size s1 p = max_size s p).
  { intros p. destruct (MM p) as (<- & <-). split; [apply same_min | apply same_max]; apply (e_same _ _ _ _ _ V1). }
  constructor.
  - lia.
  - eapply same_trans; [exact S0|]. eapply same_trans; [apply V1 | exact S2].
  - intros p. pose proof (e_min _ _ _ _ _ V1 p) as H1. pose proof (e_min _ _ _ _ _ V2 p) as H2. destruct (MM p) as (E1 & _), (M1 p) as (E2 & _). rewrite E1 in H1. rewrite E2 in H2.
    destruct (Nat.eq_dec p t) as [->|N]; [rewrite T0 in H1; lia | rewrite (O0 p N) in H1; lia].
  - intros p N. pose proof (e_less _ _ _ _ _ V1 p N). pose proof (e_less _ _ _ _ _ V2 p N). rewrite (O0 p N) in *. lia.
  - pose proof (e_t _ _ _ _ _ V1). pose proof (e_t _ _ _ _ _ V2). lia.
  - intros Z1 Z2. destruct (Nf Z1 Z2).
  - intros p N L. rewrite Af2. exact Fe.
  - intros p N L L2 q Iq Nq. destruct (MM q) as (_ & Mq). specialize (Q1 ltac:(lia) q). rewrite OO in Q1. specialize (Q1 Iq Nq). rewrite Mq in Q1.
    destruct Q1 as [D|D]; [left; pose proof (e_less _ _ _ _ _ V2 q Nq); lia | right; apply (drained_later _ _ _ _ _ _ V2 Nq D)].
  - intros p N L L2. destruct (N.lt_ge_cases (occ s2 p) (occ s1 p)) as [L3|L3].
    + destruct (P2 p N L3) as (A & B & E & Q1' & Q2' & Q3). rewrite !Tt in Q1'. rewrite Tt in Q2'. exists A, B. repeat split; assumption.
    + exfalso. rewrite <- (O0 p N) in L. pose proof (e_less _ _ _ _ _ V2 p N). specialize (P1 p N ltac:(lia)). destruct (MM p) as (_ & Mp). lia.
  - intros Lt. split; [rewrite Af2; exact Fe|]. intros A q B E X Nq. apply (Q2 ltac:(lia) A q B E); [|exact Nq]. intros a Ia. rewrite !Tt. apply X. exact Ia.
Qed.

(** ** The list of classes over histories *)
Lemma memo_eq {A} (f : nat -> A) p : memo f p = f p.
Proof.
  unfold memo. destruct (nth_error _ p) as [v|] eqn:E; [|reflexivity]. apply nth_error_In in E as I.
  rewrite nth_error_map in E. destruct (nth_error (seq 0 (MAXP + 1)) p) as [x|] eqn:E2; [|discriminate]. cbn in E. injection E as <-. f_equal.
  assert (L : (p < length (seq 0 (MAXP + 1)))%nat) by (apply nth_error_Some; congruence). rewrite seq_length in L.
  apply nth_error_nth with (d := 0%nat) in E2. rewrite seq_nth in E2 by exact L. lia.
Qed.
Lemma rep_ext inv e e' L : (forall x, e' x = e x) -> Rep inv e L -> Rep inv e' L.
Proof.
  intros H (ND & B & K & O). split; [exact ND|]. split; [exact B|]. split.
  - apply (link_ext e); [| |exact K]; intros y _; rewrite H; reflexivity.
  - intros x Hx Nx. rewrite H. apply O; assumption.
Qed.
Lemma rep_order s L : Rep MAXP (lst s) L -> order s = L.
Proof.
  intros R. apply visit_rep; [exact R|]. destruct R as (ND & B & _).
  assert (length L <= MAXP)%nat; [|lia]. rewrite <- (seq_length MAXP 0). apply NoDup_incl_length; [exact ND|]. intros y Iy. apply in_seq. specialize (B y Iy). lia.
Qed.

(** Before in the list *)
Definition pairs (R : nat -> nat -> Prop) (L : list nat) : Prop := StronglySorted R L.
Lemma sorted_weaken {A} (R R' : A -> A -> Prop) l : (forall a b, In a l -> In b l -> R a b -> R' a b) -> StronglySorted R l -> StronglySorted R' l.
Proof.
  intros H S. induction S as [|x l S IH Fa]; constructor.
  - apply IH. intros a b Ia Ib. apply H; right; assumption.
  - rewrite Forall_forall in *. intros y Iy. apply H; [left; reflexivity | right; exact Iy | apply Fa; exact Iy].
Qed.
Lemma sorted_app {A} (R : A -> A -> Prop) l1 l2 a b : StronglySorted R (l1 ++ l2) -> In a l1 -> In b l2 -> R a b.
Proof.
  induction l1 as [|x l1 IH]; intros S Ia Ib; [destruct Ia|]. cbn [app] in S. inversion S as [|? ? S1 S2]; subst. rewrite Forall_forall in S2.
  destruct Ia as [<-|Ia]; [apply S2; apply in_app_iff; right; exact Ib | apply IH; assumption].
Qed.

(** Less important classes first: classes that were removed but still have lines, then the valid ones
    by falling priority value. *)
Definition importance_order (s : cache) (a b : nat) : Prop :=
  (valid (cfg s a) = true -> if valid (cfg s b) then (prio (cfg s b) <= prio (cfg s a))%Z else occ s b = 0) /\
  (valid (cfg s a) = false -> valid (cfg s b) = true \/ occ s b <> 0 -> eviction (cfg s a) = true).
Definition removed_prio (s : cache) : Prop := forall p, (p < MAXP)%nat -> valid (cfg s p) = false -> prio (cfg s p) = 255%Z.
Record W (s : cache) : Prop := {
  w_rep : exists L, Rep MAXP (lst s) L /\ Permutation L (seq 0 MAXP);
  w_prio : forall p, (p < MAXP)%nat -> (-1 <= prio (cfg s p) <= 255)%Z;
  w_removed : removed_prio s;
  w_order : StronglySorted (importance_order s) (order s);
  w_evict : forall p, (p < MAXP)%nat -> if valid (cfg s p) then eviction (cfg s p) = negb (prio (cfg s p) =? -1)%Z else occ s p <> 0 -> eviction (cfg s p) = true }.

Lemma w_in s p : W s -> In p (order s) <-> (p < MAXP)%nat.
Proof.
  intros X. destruct (w_rep _ X) as (L & R & P). rewrite (rep_order s L R). split; intros I.
  - apply (Permutation_in p P) in I. apply in_seq in I. lia.
  - apply (Permutation_in p (Permutation_sym P)). apply in_seq. lia.
Qed.
Lemma w_classes s : W s -> classes s.
Proof.
  intros X. destruct (w_rep _ X) as (L & R & P). split; [rewrite (rep_order s L R); apply R|]. intros p Ip. apply (w_prio _ X). apply (w_in s p X). exact Ip.
Qed.

Lemma cmp_gt_preorder s : preorder (cmp_gt s).
Proof.
  unfold cmp_gt. split.
  - intros a b c H1 H2. rewrite orb_false_iff, andb_false_iff, Z.ltb_ge, Z.eqb_neq, Nat.ltb_ge in *. lia.
  - intros a b H. rewrite orb_false_iff, andb_false_iff, Z.ltb_ge, Z.eqb_neq, Nat.ltb_ge. rewrite orb_true_iff, andb_true_iff, Z.ltb_lt, Z.eqb_eq, Nat.ltb_lt in H. lia.
Qed.

(** Sorting: whatever the configuration was *)
Lemma sort_w s L : Rep MAXP (lst s) L -> Permutation L (seq 0 MAXP) -> (forall p, (p < MAXP)%nat -> (-1 <= prio (cfg s p) <= 255)%Z) -> removed_prio s ->
  exists s', part_sort s = Some s' /\ W s' /\ occ s' = occ s /\ free s' = free s /\ avail s' = avail s /\ availf s' = availf s /\ lines s' = lines s /\
    forall p, valid (cfg s' p) = valid (cfg s p) /\ prio (cfg s' p) = prio (cfg s p) /\ minp (cfg s' p) = minp (cfg s p) /\ maxp (cfg s' p) = maxp (cfg s p) /\ added (cfg s' p) = added (cfg s p).
Proof.
  intros R P Pr Rm. unfold part_sort. destruct (C45_sorted MAXP (cmp_gt s) (lst s) L R (cmp_gt_preorder s)) as (e' & L' & -> & R' & P' & S').
  eexists. split; [reflexivity|].
  assert (PP : Permutation L' (seq 0 MAXP)) by (etransitivity; [symmetry; exact P' | exact P]).
  assert (EX : forall p, (p < MAXP)%nat -> (1 <? length (order s))%nat && existsb (Nat.eqb p) (order s) = true).
  { intros p Hp. rewrite (rep_order s L R). apply andb_true_iff. split.
    - rewrite (Permutation_length P), seq_length. reflexivity.
    - apply existsb_in. apply (Permutation_in p (Permutation_sym P)). apply in_seq. lia. }
  assert (CF : forall p, let s' := with_lst (with_cfg s (fun p => if (1 <? length (order s))%nat && existsb (Nat.eqb p) (order s) then set_evict s p else cfg s p)) e' in
     valid (cfg s' p) = valid (cfg s p) /\ prio (cfg s' p) = prio (cfg s p) /\ minp (cfg s' p) = minp (cfg s p) /\ maxp (cfg s' p) = maxp (cfg s p) /\ added (cfg s' p) = added (cfg s p)).
  { intros p s'. cbn [s' cfg with_lst with_cfg]. rewrite memo_eq. destruct (_ && _); repeat split. }
  cbv zeta in CF. split; [|split; [reflexivity|split; [reflexivity|split; [reflexivity|split; [reflexivity|split; [reflexivity|exact CF]]]]]].
  set (s' := with_lst _ e'). fold s' in CF.
  assert (RL : Rep MAXP (lst s') L') by (apply (rep_ext MAXP e'); [intros x; apply memo_eq | exact R']).
  constructor.
  - exists L'. split; assumption.
  - intros p Hp. destruct (CF p) as (_ & -> & _). apply Pr. exact Hp.
  - intros p Hp. destruct (CF p) as (-> & -> & _). apply Rm. exact Hp.
  - rewrite (rep_order s' L' RL). revert S'. apply sorted_weaken. intros a b Ia Ib G. unfold importance_order.
    destruct (CF a) as (-> & -> & _), (CF b) as (-> & -> & _). change (occ s' b) with (occ s b).
    assert (Ha : (a < MAXP)%nat) by (apply (Permutation_in a PP), in_seq in Ia; lia). assert (Hb : (b < MAXP)%nat) by (apply (Permutation_in b PP), in_seq in Ib; lia).
    assert (E : eviction (cfg s' a) = evict_flag s a) by (cbn [s' cfg with_lst with_cfg]; rewrite memo_eq, (EX a Ha); reflexivity). rewrite E.
    unfold cmp_gt, sort_value in G. rewrite orb_false_iff, Z.ltb_ge in G. destruct G as (G & _). split; intros Va; rewrite Va in G.
    + destruct (valid (cfg s b)); [exact G|]. destruct (N.ltb_spec 0 (occ s b)); [|lia]. specialize (Pr a Ha). lia.
    + intros Q. unfold evict_flag. rewrite Va. destruct (N.ltb_spec 0 (occ s a)); [reflexivity|]. exfalso. specialize (Pr b Hb).
      destruct (valid (cfg s b)); [lia|]. destruct Q as [Q|Q]; [discriminate|]. destruct (N.ltb_spec 0 (occ s b)); lia.
  - intros p Hp. destruct (CF p) as (-> & -> & _). change (occ s' p) with (occ s p).
    assert (E : eviction (cfg s' p) = evict_flag s p).
    { cbn [s' cfg with_lst with_cfg]. rewrite memo_eq, (EX p Hp). reflexivity. }
    rewrite E. unfold evict_flag. destruct (valid (cfg s p)); [reflexivity|]. intros N0. apply N.ltb_lt. lia.
Qed.

Lemma w_change s s' : W s -> cfg s' = cfg s -> lst s' = lst s -> (forall p, valid (cfg s p) = false -> occ s p = 0 -> occ s' p = 0) -> W s'.
Proof.
  intros X C L O. destruct X as [X1 X2 X2' X3 X4]. assert (OE : order s' = order s) by (unfold order; rewrite L; reflexivity).
  constructor; unfold removed_prio; rewrite ?C, ?L, ?OE; try assumption.
  - revert X3. apply sorted_weaken. intros a b _ _ (H1 & H2). unfold importance_order. rewrite C. split.
    + intros Va. specialize (H1 Va). destruct (valid (cfg s b)) eqn:E; [exact H1 | apply O; assumption].
    + intros Va [Q|Q]; [apply (H2 Va); left; exact Q|]. apply (H2 Va). destruct (valid (cfg s b)) eqn:E; [left; reflexivity | right; intros Z; apply Q; apply O; assumption].
  - intros p Hp. specialize (X4 p Hp). destruct (valid (cfg s p)) eqn:E; [exact X4|]. intros N0. apply X4. intros Z. apply N0. apply O; assumption.
Qed.

Lemma map_spec t um rp s : classes s -> exists b s', map_request t um rp s = Some (b, s') /\
  if has_space s t um rp then exists r, Remaps t um r s s' /\ b = (um <=? r)
  else same s s' /\ (forall p, occ s' p = occ s p) /\ (forall p, p <> t -> avail s' p = avail s p) /\ free s' = free s /\ availf s' = availf s /\
       b = ((um =? 0) || ((um <=? occ s t - min_size s t) && (um <=? avail s t))).
Proof.
  intros C. unfold map_request. destruct (has_space s t um rp).
  - destruct (remap_spec t um s C) as (r & um' & s' & -> & R). eexists _, _. split; [reflexivity|]. exists r. auto.
  - unfold evict_part_do. destruct (calculate_bound s t um) as (C0 & C1 & C2 & C3). destruct (N.ltb_spec (evict_calculate s t um) um) as [L|L].
    + eexists _, _. split; [reflexivity|]. split; [apply same_refl|]. repeat split.
      destruct (N.eqb_spec um 0); [lia|]. cbn [orb]. destruct (N.leb_spec um 0); [lia|]. symmetry. apply andb_false_iff. left. apply N.leb_gt.
      destruct (N.le_gt_cases (occ s t) (min_size s t)); [lia|]. destruct C3 as [D|D]; lia.
    + destruct (req_part t t (evict_calculate s t um) um s C0) as (k & s' & -> & K & S & F1 & F2 & A1 & A2 & O1 & _). eexists _, _. split; [reflexivity|].
      split; [exact S|]. split; [apply O1; reflexivity|]. split; [exact A2|]. split; [exact F1|]. split; [exact F2|].
      destruct (N.eqb_spec um 0) as [->|Nz]; cbn [orb]; [apply N.leb_le; lia|].
      destruct (N.le_gt_cases (occ s t) (min_size s t)) as [Q|Q]; [specialize (C2 Q); lia|]. specialize (C1 Q).
      destruct (N.leb_spec um k), (N.leb_spec um (occ s t - min_size s t)), (N.leb_spec um (avail s t)); cbn [andb]; try reflexivity; lia.
Qed.

Definition no_load (e : event) : bool := match e with Load => false | _ => true end.
Lemma set_valid_prio c v : (-1 <= prio c <= 255)%Z -> (-1 <= prio (set_valid c v) <= 255)%Z.
Proof. intros H. unfold set_valid. destruct (Bool.eqb v (valid c)); [exact H|]. destruct v; [exact H|]. cbn. lia. Qed.
Lemma step_w e s : no_load e = true -> W s -> exists s', step e s = Some s' /\ W s'.
Proof.
  intros NL X. destruct e as [es|t um rp|p t k|p k|f ff|]; cbn [step no_load] in *; try discriminate.
  - destruct (forallb _ _) eqn:V; [|eauto]. unfold configure. destruct (w_rep _ X) as (L & R & P).
    rewrite forallb_forall in V.
    assert (VP : forall p, (p < MAXP)%nat -> valid_cfg (es p) = true) by (intros p Hp; apply V; apply in_seq; lia).
    destruct (sort_w (with_cfg s (fun p => if (p <? MAXP)%nat then edit p (es p) (cfg s p) else cfg s p)) L R P) as (s' & E & W' & _).
    + intros p Hp. cbn [cfg with_cfg]. rewrite memo_eq. destruct (Nat.ltb_spec p MAXP) as [_|]; [|lia]. specialize (VP p Hp). unfold edit.
      pose proof (w_prio _ X p Hp) as Q. destruct (es p) as [[pr mx]|]; cbn [valid_cfg] in VP.
      * destruct (added (cfg s p)); [|exact Q]. cbn [prio]. lia.
      * destruct (p =? 0)%nat; [exact Q|]. destruct (valid (cfg s p)); [apply set_valid_prio; exact Q | exact Q].
    + intros p Hp. cbn [cfg with_cfg]. rewrite memo_eq. destruct (Nat.ltb_spec p MAXP) as [_|]; [|lia]. unfold edit.
      pose proof (w_removed _ X p Hp) as Q. destruct (es p) as [[pr mx]|].
      * destruct (added (cfg s p)); [|exact Q]. unfold set_valid. cbn [valid prio]. destruct (valid (cfg s p)); cbn; discriminate.
      * destruct (p =? 0)%nat; [exact Q|]. destruct (valid (cfg s p)) eqn:Vp; [|intros _; apply Q; reflexivity]. unfold set_valid. rewrite Vp. cbn. reflexivity.
    + exists s'. split; [exact E | exact W'].
  - destruct ((t <? MAXP)%nat && valid (cfg s t)) eqn:E; [|eauto]. apply andb_true_iff in E. destruct E as (Ht & Vt).
    destruct (map_spec t um rp s (w_classes s X)) as (b & s' & -> & M). exists s'. split; [reflexivity|].
    assert (Q : same s s' /\ forall p, p <> t -> occ s' p <= occ s p).
    { destruct (has_space s t um rp); [destruct M as (r & M & _); split; [apply M | apply M]|]. destruct M as (M1 & M2 & _). split; [exact M1|]. intros p _. rewrite M2. lia. }
    destruct Q as ((C & L & _) & Q). apply (w_change s s' X C L). intros p Vp Op. assert (Np : p <> t) by (intros ->; congruence). specialize (Q p Np). lia.
  - destruct (_ && _) eqn:E; [|eauto]. rewrite !andb_true_iff, negb_true_iff, Nat.eqb_neq, N.leb_le in E. destruct E as ((((_ & _) & Vt) & Npt) & Hk).
    eexists. split; [reflexivity|]. apply (w_change s); [exact X | reflexivity | reflexivity|]. intros q Vq Oq. cbn [occ].
    rewrite upd_other by (intros ->; congruence). destruct (Nat.eq_dec q p) as [->|Nq]; [rewrite upd_same; lia | rewrite upd_other by exact Nq; exact Oq].
  - destruct (_ && _) eqn:E; [|eauto]. eexists. split; [reflexivity|]. apply (w_change s); [exact X | reflexivity | reflexivity|]. intros q Vq Oq. cbn [occ].
    destruct (Nat.eq_dec q p) as [->|Nq]; [rewrite upd_same; lia | rewrite upd_other by exact Nq; exact Oq].
  - eexists. split; [reflexivity|]. apply (w_change s); auto.
Qed.

(** A new cache *)
Fixpoint link_check (e : entries) (p : nat) (L : list nat) (n : nat) : bool :=
  match L with
  | [] => (next (e p) =? n)%nat && (prev (e n) =? p)%nat
  | x :: L => (next (e p) =? x)%nat && (prev (e x) =? p)%nat && link_check e x L n
  end.
Lemma link_check_ok e : forall L p n, link_check e p L n = true -> link e p L n.
Proof.
  induction L as [|x L IH]; intros p n; cbn [link_check link]; rewrite !andb_true_iff, !Nat.eqb_eq; [tauto|]. intros ((A & B) & C). split; [exact A|]. split; [exact B | apply IH; exact C].
Qed.
Definition start_list : list nat := 0%nat :: rev (seq 1 32).
Lemma start_rep e : link_check e MAXP start_list MAXP = true -> Rep MAXP e start_list.
Proof.
  intros H. assert (P : Permutation start_list (seq 0 MAXP)).
  { unfold start_list. change (seq 0 MAXP) with (0%nat :: seq 1 32). constructor. symmetry. apply Permutation_rev. }
  assert (I : forall x, In x start_list <-> (x < MAXP)%nat).
  { intros x. split; intros Ix; [apply (Permutation_in x P), in_seq in Ix; lia | apply (Permutation_in x (Permutation_sym P)), in_seq; lia]. }
  split; [apply (Permutation_NoDup (Permutation_sym P)), seq_NoDup|]. split; [intros x; apply I|]. split; [apply link_check_ok; exact H|].
  intros x Hx Nx. exfalso. apply Nx. apply I. exact Hx.
Qed.
Definition start_check (s : cache) : bool :=
  link_check (lst s) MAXP start_list MAXP &&
  forallb (fun p => (prio (cfg s p) =? 255)%Z && Bool.eqb (valid (cfg s p)) (p =? 0)%nat && Bool.eqb (eviction (cfg s p)) (p =? 0)%nat && (occ s p =? 0) && added (cfg s p) && (maxp (cfg s p) =? 100)) (seq 0 MAXP).
Lemma start_ok n : exists s, start n = Some s /\ start_check s = true /\ free s = n /\ availf s = n /\ lines s = n.
Proof.
  destruct (start n) as [s|] eqn:E.
  - exists s. split; [reflexivity|].
    assert (Q : option_map (fun s => (start_check s, free s, availf s, lines s)) (start n) = Some (true, n, n, n)) by (vm_compute; reflexivity).
    rewrite E in Q. cbn [option_map] in Q. injection Q as Q1 Q2 Q3 Q4. auto.
  - exfalso. assert (Q : option_map start_check (start n) = Some true) by (vm_compute; reflexivity). rewrite E in Q. discriminate.
Qed.
Lemma start_w n : exists s, start n = Some s /\ W s /\ order s = start_list.
Proof.
  destruct (start_ok n) as (s & E & C & _). exists s. split; [exact E|]. apply andb_true_iff in C. destruct C as (C1 & C2). rewrite forallb_forall in C2.
  pose proof (start_rep _ C1) as R. pose proof (rep_order s _ R) as O.
  assert (Q : forall p, (p < MAXP)%nat -> prio (cfg s p) = 255%Z /\ valid (cfg s p) = (p =? 0)%nat /\ eviction (cfg s p) = (p =? 0)%nat /\ occ s p = 0).
  { intros p Hp. specialize (C2 p ltac:(apply in_seq; lia)). rewrite !andb_true_iff, !Bool.eqb_true_iff, Z.eqb_eq, !N.eqb_eq in C2. tauto. }
  split; [|exact O]. constructor.
  - exists start_list. split; [exact R|]. unfold start_list. change (seq 0 MAXP) with (0%nat :: seq 1 32). constructor. symmetry. apply Permutation_rev.
  - intros p Hp. destruct (Q p Hp) as (-> & _). lia.
  - intros p Hp _. apply (Q p Hp).
  - rewrite O. destruct R as (ND & B & _).
    assert (Z : forall l, ~ In 0%nat l -> (forall p, In p l -> (p < MAXP)%nat) -> StronglySorted (importance_order s) l).
    { induction l as [|x l IH]; intros N0 Bl; constructor.
      - apply IH; [cbn [In] in N0; tauto | intros p Ip; apply Bl; right; exact Ip].
      - rewrite Forall_forall. intros y Iy. destruct (Q x (Bl x (or_introl eq_refl))) as (_ & V1 & _), (Q y (Bl y (or_intror Iy))) as (_ & V2 & _ & O2).
        destruct (Nat.eqb_spec x 0) as [->|]; [exfalso; apply N0; left; reflexivity|]. destruct (Nat.eqb_spec y 0) as [->|]; [exfalso; apply N0; right; exact Iy|].
        split; [congruence|]. intros _ [Z|Z]; congruence. }
    unfold start_list in *. apply NoDup_cons_iff in ND. destruct ND as (N0 & _). constructor; [apply Z; [exact N0 | intros p Ip; apply B; right; exact Ip]|].
    rewrite Forall_forall. intros y Iy. destruct (Q 0%nat (B 0%nat (or_introl eq_refl))) as (_ & V1 & _), (Q y (B y (or_intror Iy))) as (_ & V2 & _ & O2).
    change (0 =? 0)%nat with true in V1. split; [|congruence]. intros _. rewrite V2. destruct (Nat.eqb_spec y 0) as [->|]; [contradiction | exact O2].
  - intros p Hp. destruct (Q p Hp) as (P1 & V1 & E1 & O1). rewrite P1, V1, E1. destruct (p =? 0)%nat; [reflexivity|]. intros N0. contradiction.
Qed.

Lemma run_w es : forall s, forallb no_load es = true -> W s -> exists s', run es s = Some s' /\ W s'.
Proof.
  induction es as [|e es IH]; intros s H X; cbn [forallb run] in *; [eauto|]. apply andb_true_iff in H. destruct H as (H1 & H2).
  destruct (step_w e s H1 X) as (s' & -> & X'). apply IH; assumption.
Qed.

(** ** All histories, with reloads *)
Record V (s : cache) : Prop := {
  v_rep : exists L, Rep MAXP (lst s) L /\ Permutation L (seq 0 MAXP);
  v_prio : forall p, (p < MAXP)%nat -> (-1 <= prio (cfg s p) <= 255)%Z;
  v_removed : removed_prio s }.
Lemma w_v s : W s -> V s.
Proof. intros [A B C _ _]. constructor; assumption. Qed.
Lemma v_classes s : V s -> classes s.
Proof.
  intros X. destruct (v_rep _ X) as (L & R & P). split; [rewrite (rep_order s L R); apply R|]. intros p Ip. apply (v_prio _ X).
  rewrite (rep_order s L R) in Ip. apply (Permutation_in p P), in_seq in Ip. lia.
Qed.
Lemma edit_v es s : V s -> (forall p, (p < MAXP)%nat -> valid_cfg (es p) = true) -> exists s', configure es s = Some s' /\ W s'.
Proof.
  intros X VP. unfold configure. destruct (v_rep _ X) as (L & R & P).
  destruct (sort_w (with_cfg s (fun p => if (p <? MAXP)%nat then edit p (es p) (cfg s p) else cfg s p)) L R P) as (s' & E & W' & _).
  + intros p Hp. cbn [cfg with_cfg]. rewrite memo_eq. destruct (Nat.ltb_spec p MAXP) as [_|]; [|lia]. specialize (VP p Hp). unfold edit.
    pose proof (v_prio _ X p Hp) as Q. destruct (es p) as [[pr mx]|]; cbn [valid_cfg] in VP.
    * destruct (added (cfg s p)); [|exact Q]. cbn [prio]. lia.
    * destruct (p =? 0)%nat; [exact Q|]. destruct (valid (cfg s p)); [apply set_valid_prio; exact Q | exact Q].
  + intros p Hp. cbn [cfg with_cfg]. rewrite memo_eq. destruct (Nat.ltb_spec p MAXP) as [_|]; [|lia]. unfold edit.
    pose proof (v_removed _ X p Hp) as Q. destruct (es p) as [[pr mx]|].
    * destruct (added (cfg s p)); [|exact Q]. unfold set_valid. cbn [valid prio]. destruct (valid (cfg s p)); cbn; discriminate.
    * destruct (p =? 0)%nat; [exact Q|]. destruct (valid (cfg s p)) eqn:Vp; [|intros _; apply Q; reflexivity]. unfold set_valid. rewrite Vp. cbn. reflexivity.
  + exists s'. split; [exact E | exact W'].
Qed.
Lemma v_change s s' : V s -> cfg s' = cfg s -> lst s' = lst s -> V s'.
Proof. intros [A B C] E F. constructor; unfold removed_prio; rewrite ?E, ?F; assumption. Qed.
Lemma step_v e s : V s -> exists s', step e s = Some s' /\ V s'.
Proof.
  intros X. destruct e as [es|t um rp|p t k|p k|f ff|]; cbn [step].
  - destruct (forallb _ _) eqn:E; [|eauto]. rewrite forallb_forall in E. destruct (edit_v es s X) as (s' & E' & W'); [intros p Hp; apply E; apply in_seq; lia|].
    exists s'. split; [exact E' | apply w_v; exact W'].
  - destruct (_ && _); [|eauto]. destruct (map_spec t um rp s (v_classes s X)) as (b & s' & -> & M). exists s'. split; [reflexivity|].
    assert (Q : same s s') by (destruct (has_space s t um rp); [destruct M as (r & M & _); apply M | apply M]). destruct Q as (C & L & _). apply (v_change s s' X C L).
  - destruct (_ && _); [|eauto]. eexists. split; [reflexivity|]. apply (v_change s); [exact X | reflexivity | reflexivity].
  - destruct (_ && _); [|eauto]. eexists. split; [reflexivity|]. apply (v_change s); [exact X | reflexivity | reflexivity].
  - eexists. split; [reflexivity|]. apply (v_change s); [exact X | reflexivity | reflexivity].
  - unfold load. destruct (start_w (lines s)) as (s0 & -> & W0 & _). eexists. split; [reflexivity|]. destruct (w_v _ W0) as [A _ _]. destruct X as [_ B C]. constructor; assumption.
Qed.
Lemma run_v es : forall s, V s -> exists s', run es s = Some s' /\ V s'.
Proof.
  induction es as [|e es IH]; intros s X; cbn [run]; [eauto|]. destruct (step_v e s X) as (s' & -> & X'). apply IH. exact X'.
Qed.

(** ** C32 *)
Definition reached (n : N) (es : list event) (s : cache) : Prop := exists s0, start n = Some s0 /\ run es s0 = Some s.

(** No ENV_BUG in any history. *)
Theorem C32_no_bug n es : exists s, reached n es s.
Proof.
  destruct (start_w n) as (s0 & E & X & _). destruct (run_v es s0 (w_v _ X)) as (s & R & _). exists s, s0. auto.
Qed.
Lemma reached_v n es s : reached n es s -> V s.
Proof.
  intros (s0 & E & R). destruct (start_w n) as (s1 & E1 & X & _). assert (s1 = s0) by congruence. subst s1. destruct (run_v es s0 (w_v _ X)) as (s' & R' & X'). congruence.
Qed.
Lemma reached_w n es s : forallb no_load es = true -> reached n es s -> W s.
Proof.
  intros H (s0 & E & R). destruct (start_w n) as (s1 & E1 & X & _). assert (s1 = s0) by congruence. subst s1. destruct (run_w es s0 H X) as (s' & R' & X'). congruence.
Qed.

(** A request does not shrink any class below its minimum: whatever the sizes, priorities, valid and
    evictable flags, occupancy and available lines.  (Through the management interface only minimum 0 can
    be set.) *)
Theorem C32_minimum s t um rp : NoDup (order s) -> (forall p, In p (order s) -> (-1 <= prio (cfg s p))%Z) ->
  exists b s', map_request t um rp s = Some (b, s') /\ forall p, occ s' p < occ s p -> min_size s p <= occ s' p.
Proof.
  intros ND Pr. destruct (map_spec t um rp s (conj ND Pr)) as (b & s' & E & M). exists b, s'. split; [exact E|]. intros p L.
  destruct (has_space s t um rp).
  - destruct M as (r & M & _). pose proof (r_min _ _ _ _ _ M p). lia.
  - destruct M as (_ & M & _). rewrite M in L. lia.
Qed.
Corollary C32_minimum_reached n es s t um rp c : reached n es s -> (forall p, prio (c p) = prio (cfg s p)) ->
  exists b s', map_request t um rp (with_cfg s c) = Some (b, s') /\ forall p, occ s' p < occ s p -> min_size (with_cfg s c) p <= occ s' p.
Proof.
  intros R EP. destruct (v_classes _ (reached_v _ _ _ R)) as (ND & Pr). apply (C32_minimum (with_cfg s c) t um rp); [exact ND|]. intros p Ip. cbn [cfg with_cfg]. rewrite memo_eq, EP. apply Pr. exact Ip.
Qed.

(** A request does not make its class exceed the maximum. *)
Theorem C32_maximum n es s t um rp : reached n es s -> exists b s', map_request t um rp s = Some (b, s') /\
  (occ s' t <= max_size s t \/ occ s' t = occ s t).
Proof.
  intros R. destruct (map_spec t um rp s (v_classes _ (reached_v _ _ _ R))) as (b & s' & E & M). exists b, s'. split; [exact E|].
  destruct (has_space s t um rp) eqn:H.
  - left. destruct M as (r & M & _). unfold has_space in H. apply N.leb_le in H. pose proof (r_t _ _ _ _ _ M). pose proof (r_le _ _ _ _ _ M). lia.
  - right. apply M.
Qed.

(** If it would, lines of this class only are reused and no class changes its size; the request is
    mapped exactly if there are enough. *)
Theorem C32_own_class n es s t um rp : reached n es s -> max_size s t < occ s t + (rp + um) -> exists b s', map_request t um rp s = Some (b, s') /\
  (forall p, occ s' p = occ s p) /\ (forall p, p <> t -> avail s' p = avail s p) /\ free s' = free s /\
  (b = true <-> um = 0 \/ (um <= avail s t /\ um + min_size s t <= occ s t)).
Proof.
  intros R H. destruct (map_spec t um rp s (v_classes _ (reached_v _ _ _ R))) as (b & s' & E & M). exists b, s'. split; [exact E|].
  assert (HS : has_space s t um rp = false) by (apply N.leb_gt; exact H). rewrite HS in M. destruct M as (_ & M1 & M2 & M3 & _ & ->).
  split; [exact M1|]. split; [exact M2|]. split; [exact M3|]. rewrite orb_true_iff, andb_true_iff, N.eqb_eq, !N.leb_le.
  destruct (N.eq_dec um 0); lia.
Qed.

(** If the class may not give so many lines without falling below its minimum, the request is
    refused and nothing at all changes. *)
Theorem C32_own_class_none s t um rp : max_size s t < occ s t + (rp + um) -> occ s t < um + min_size s t -> 0 < um ->
  map_request t um rp s = Some (false, s).
Proof.
  intros M L P. unfold map_request, has_space. destruct (N.leb_spec (occ s t + (rp + um)) (max_size s t)); [lia|].
  unfold evict_part_do.
  assert (C : evict_calculate s t um < um).
  { unfold evict_calculate. destruct (N.leb_spec (occ s t) (min_size s t)); [lia|].
    destruct (N.ltb_spec (occ s t - min_size s t) um); lia. }
  apply N.ltb_lt in C. rewrite C. destruct (N.leb_spec um 0); [lia | reflexivity].
Qed.
(** A class that may have 5 to 10 of 100 lines and has 8, all of which can be evicted: 3 are given,
    4 are refused and none is taken. *)
Definition own_ex : cache :=
  {| cfg := fun _ => {| valid := true; added := true; eviction := true; prio := 7%Z; minp := 5; maxp := 10 |};
     lst := fun _ => {| next := 0; prev := 0 |}; occ := fun _ => 8; free := 50; avail := fun _ => 8; availf := 50; lines := 100 |}.
Example own_class_none_run :
  option_map (fun x => (fst x, avail (snd x) 1)) (map_request 1 3 0 own_ex) = Some (true, 5) /\ map_request 1 4 0 own_ex = Some (false, own_ex).
Proof. split; [vm_compute; reflexivity | apply C32_own_class_none; vm_compute; reflexivity]. Qed.

(** Histories without reload.  A line is taken from another class only if no free line was left, and
    then - either only the surplus over the maximum of that class was taken, or: no surplus that could be
    evicted is left in any other class, the class is not more important than that of the request and
    not pinned, and all classes that are less important, or have been removed, are used up. *)
Theorem C32_order_partial n es s t um rp b s' p : forallb no_load es = true -> reached n es s -> (t < MAXP)%nat -> (p < MAXP)%nat ->
  map_request t um rp s = Some (b, s') -> p <> t -> occ s' p < occ s p ->
  (free s = 0 \/ availf s' = 0) /\
  (max_size s p <= occ s' p \/
   ((prio (cfg s t) <= prio (cfg s p))%Z /\ (valid (cfg s p) = true -> prio (cfg s p) <> (-1)%Z) /\
    forall q, (q < MAXP)%nat -> q <> t ->
      (occ s' q <= max_size s q \/ drained s' q) /\
      (valid (cfg s p) = true -> valid (cfg s q) = false \/ (prio (cfg s p) < prio (cfg s q))%Z -> drained s' q))).
Proof.
  intros NL R Ht Hp E Np L. pose proof (reached_w _ _ _ NL R) as X. destruct (map_spec t um rp s (w_classes s X)) as (b' & s1 & E' & M). rewrite E in E'. injection E' as <- <-.
  destruct (has_space s t um rp); [|destruct M as (_ & M & _); rewrite M in L; lia]. destruct M as (r & M & _).
  split; [apply (r_free_first _ _ _ _ _ M p Np L)|]. destruct (N.le_gt_cases (max_size s p) (occ s' p)) as [Q|Q]; [left; exact Q|]. right.
  destruct (r_prio _ _ _ _ _ M p Np L Q) as (A & B & EO & P1 & P2 & P3). split; [exact P1|]. split.
  { intros Vp. pose proof (w_evict _ X p Hp) as W1. rewrite Vp in W1. rewrite W1 in P2. apply negb_true_iff in P2. apply Z.eqb_neq. exact P2. }
  intros q Hq Nq. split; [apply (r_over_first _ _ _ _ _ M p Np L Q q); [apply (w_in s q X); exact Hq | exact Nq]|].
  intros Vp C. pose proof (w_order _ X) as SO. rewrite EO in SO. assert (Iq : In q (A ++ p :: B)) by (rewrite <- EO; apply (w_in s q X); exact Hq).
  apply in_app_iff in Iq. destruct Iq as [Iq|[<-|Iq]]; [apply P3; assumption | destruct C as [C|C]; [congruence|lia]|].
  assert (I : importance_order s p q). { replace (A ++ p :: B) with ((A ++ [p]) ++ B) in SO by (rewrite <- app_assoc; reflexivity).
    apply (sorted_app _ (A ++ [p]) B); [exact SO | apply in_app_iff; right; left; reflexivity | exact Iq]. }
  destruct I as (I & _). specialize (I Vp). destruct (valid (cfg s q)) eqn:Vq; [destruct C as [C|C]; [discriminate|lia]|].
  right. pose proof (r_less _ _ _ _ _ M q Nq). lia.
Qed.

(** Histories without reload.  A request whose class has room is refused only if no line is left
    that it may take. *)
Theorem C32_refused_partial n es s t um rp s' q : forallb no_load es = true -> reached n es s -> (t < MAXP)%nat -> (q < MAXP)%nat ->
  map_request t um rp s = Some (false, s') -> occ s t + (rp + um) <= max_size s t -> q <> t ->
  valid (cfg s q) = false \/ (prio (cfg s t) <= prio (cfg s q))%Z /\ prio (cfg s q) <> (-1)%Z ->
  (free s = 0 \/ availf s' = 0) /\ drained s' q.
Proof.
  intros NL R Ht Hq E HS Nq C. pose proof (reached_w _ _ _ NL R) as X. destruct (map_spec t um rp s (w_classes s X)) as (b' & s1 & E' & M). rewrite E in E'. injection E' as Eb <-.
  assert (HS' : has_space s t um rp = true) by (apply N.leb_le; exact HS). rewrite HS' in M. destruct M as (r & M & Er). rewrite <- Eb in Er. symmetry in Er. apply N.leb_gt in Er.
  destruct (r_fail _ _ _ _ _ M Er) as (F & D). split; [exact F|].
  destruct (N.eq_dec (occ s q) 0) as [Z|Z]; [right; pose proof (r_less _ _ _ _ _ M q Nq); lia|].
  assert (Iq : In q (order s)) by (apply (w_in s q X); exact Hq). apply in_split in Iq. destruct Iq as (A & B & EO).
  apply (D A q B EO); [|exact Nq]. intros a Ia. pose proof (w_order _ X) as SO. rewrite EO in SO.
  assert (Ha : (a < MAXP)%nat). { apply (w_in s a X). rewrite EO. apply in_app_iff in Ia. apply in_app_iff. cbn [In] in *. tauto. }
  pose proof (w_prio _ X t Ht) as Pt. pose proof (w_evict _ X a Ha) as Wa. pose proof (w_removed _ X a Ha) as Ra.
  apply in_app_iff in Ia. destruct Ia as [Ia|[->|[]]].
  - assert (I : importance_order s a q) by (apply (sorted_app _ A (q :: B)); [exact SO | exact Ia | left; reflexivity]). destruct I as (I1 & I2).
    destruct (valid (cfg s a)) eqn:Va.
    + specialize (I1 eq_refl). destruct (valid (cfg s q)) eqn:Vq; [|contradiction]. destruct C as [C|(C1 & C2)]; [discriminate|]. split; [lia|].
      rewrite Wa. apply negb_true_iff. apply Z.eqb_neq. pose proof (w_prio _ X q Hq). lia.
    + split; [rewrite Ra by reflexivity; lia|]. apply I2; [reflexivity | right; exact Z].
  - destruct (valid (cfg s a)) eqn:Va.
    + destruct C as [C|(C1 & C2)]; [discriminate|]. split; [exact C1|]. rewrite Wa. apply negb_true_iff, Z.eqb_neq. exact C2.
    + split; [rewrite Ra by reflexivity; lia | apply Wa; exact Z].
Qed.

(** ** Finding: the list of classes is not sorted after loading *)

(** Classes 1 (least important) and 2 (most important) filled, lines of both can be evicted. *)
Definition two_classes : list event :=
  [Configure (fun p => if (p =? 0)%nat then Some (255%Z, 100) else if (p =? 1)%nat then Some (200%Z, 100) else if (p =? 2)%nat then Some (1%Z, 100) else None);
   Request 1 900 0; Request 2 100 0; Avail (fun _ => 1000) 1000].
(** After a reload, a request of the most important class is refused although all lines of the
    least important one could be evicted: the walk stops at the first unused class. *)
Theorem C32_load_refused_refuted : exists n es s s', reached n es s /\ map_request 2 10 0 s = Some (false, s') /\
  occ s 2 + 10 <= max_size s 2 /\ valid (cfg s 1) = true /\ (prio (cfg s 2) < prio (cfg s 1))%Z /\ eviction (cfg s 1) = true /\ avail s' 1 = 900 /\ min_size s 1 = 0.
Proof.
  destruct (C32_no_bug 1000 (two_classes ++ [Load])) as (s & R).
  assert (Q : option_map (fun s => (option_map (fun x => (fst x, avail (snd x) 1)) (map_request 2 10 0 s), occ s 2, max_size s 2, valid (cfg s 1), prio (cfg s 1), prio (cfg s 2), eviction (cfg s 1), min_size s 1))
    (match start 1000 with Some s0 => run (two_classes ++ [Load]) s0 | None => None end) = Some (Some (false, 900), 100, 1000, true, 200%Z, 1%Z, true, 0)) by (vm_compute; reflexivity).
  destruct R as (s0 & E0 & E1). rewrite E0, E1 in Q. cbn [option_map] in Q. destruct (map_request 2 10 0 s) as [[b s']|] eqn:E; [|discriminate]. cbn [option_map fst snd] in Q.
  injection Q as -> Q1 Q2 Q3 Q4 Q5 Q6 Q7 Q8. exists 1000, (two_classes ++ [Load]), s, s'. split; [exists s0; auto|]. split; [exact E|]. rewrite Q2, Q3, Q4, Q5, Q6, Q7. repeat split; try lia; assumption.
Qed.
(** Without the reload it succeeds. *)
Example two_classes_run : option_map (fun s => option_map (fun x => (fst x, occ (snd x) 1%nat, occ (snd x) 2%nat)) (map_request 2 10 0 s))
  (match start 1000 with Some s0 => run two_classes s0 | None => None end) = Some (Some (true, 890, 110)).
Proof. vm_compute. reflexivity. Qed.

(** All classes in use: after a reload lines are taken from a class although a less important one has
    lines to give. *)
Definition all_classes : list event :=
  [Configure (fun p => if (p =? 1)%nat then Some (200%Z, 100) else Some (10%Z, 100)); Request 1 500 0; Request 31 500 0; Avail (fun _ => 1000) 1000; Load].
Theorem C32_load_order_refuted : exists n es s s', reached n es s /\ map_request 2 10 0 s = Some (true, s') /\
  valid (cfg s 1) = true /\ valid (cfg s 31) = true /\ (prio (cfg s 31) < prio (cfg s 1))%Z /\ avail s' 1 = 500 /\ min_size s 1 = 0 /\
  occ s' 31 < occ s 31 /\ occ s' 31 < max_size s 31.
Proof.
  destruct (C32_no_bug 1000 all_classes) as (s & R).
  assert (Q : option_map (fun s => (option_map (fun x => (fst x, avail (snd x) 1, occ (snd x) 31)) (map_request 2 10 0 s), valid (cfg s 1), valid (cfg s 31), prio (cfg s 1), prio (cfg s 31), min_size s 1, occ s 31, max_size s 31))
    (match start 1000 with Some s0 => run all_classes s0 | None => None end) = Some (Some (true, 500, 490), true, true, 200%Z, 10%Z, 0, 500, 1000)) by (vm_compute; reflexivity).
  destruct R as (s0 & E0 & E1). rewrite E0, E1 in Q. cbn [option_map] in Q. destruct (map_request 2 10 0 s) as [[b s']|] eqn:E; [|discriminate]. cbn [option_map fst snd] in Q.
  injection Q as -> Q1 Q2 Q3 Q4 Q5 Q6 Q7 Q8 Q9. exists 1000, all_classes, s, s'. split; [exists s0; auto|]. split; [exact E|]. rewrite Q1, Q2, Q3, Q4, Q5, Q6, Q7, Q8, Q9. repeat split; try lia.
Qed.

(** A run that meets the hypotheses of the positive theorems: overflown and less important classes *)
Definition mixed : list event :=
  [Configure (fun p => if (p =? 0)%nat then Some (255%Z, 100) else if (p =? 1)%nat then Some (100%Z, 60) else if (p =? 2)%nat then Some (1%Z, 100) else if (p =? 3)%nat then Some ((-1)%Z, 100) else None);
   Request 1 500 0; Request 3 200 0; Request 0 150 0; Request 2 150 0;
   Configure (fun p => if (p =? 0)%nat then Some (255%Z, 100) else if (p =? 1)%nat then Some (100%Z, 45) else if (p =? 2)%nat then Some (1%Z, 100) else if (p =? 3)%nat then Some ((-1)%Z, 100) else None);
   Avail (fun _ => 300) 1000].
Example mixed_run : option_map (fun s => (free s, option_map (fun x => (fst x, map (occ (snd x)) [0; 1; 2; 3]%nat)) (map_request 2 300 0 s)))
  (match start 1000 with Some s0 => run mixed s0 | None => None end) = Some (0, Some (true, [0; 350; 450; 200])).
Proof. vm_compute. reflexivity. Qed.

(** The same with a minimum of 10% for classes 0 and 1 *)
Example mixed_min : option_map (fun s => let s := with_cfg s (fun p => let c := cfg s p in {| valid := valid c; added := added c; eviction := eviction c; prio := prio c; minp := if (p <? 2)%nat then 10 else 0; maxp := maxp c |}) in
    (map (min_size s) [0; 1]%nat, option_map (fun x => (fst x, map (occ (snd x)) [0; 1; 2; 3]%nat)) (map_request 2 300 0 s)))
  (match start 1000 with Some s0 => run mixed s0 | None => None end) = Some ([100; 100], Some (true, [100; 250; 450; 200])).
Proof. vm_compute. reflexivity. Qed.

Print Assumptions C32_minimum.
Print Assumptions C32_maximum.
Print Assumptions C32_own_class_none.
Print Assumptions C32_own_class.
Print Assumptions C32_order_partial.
Print Assumptions C32_refused_partial.
Print Assumptions C32_load_refused_refuted.
Print Assumptions C32_load_order_refuted.

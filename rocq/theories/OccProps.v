(** C33 - occupancy counters and the content of the cache.

    Spec: a line is cached for a core if it is mapped to it and has a valid sector, dirty if it has a
    dirty sector; the numbers of such lines, per core and per core and class. *)
From Coq Require Import NArith ZArith List Bool Arith Lia.
From Verif Require Import BitsModel BitsProofs BitsProps OccModel.
Import ListNotations.
Open Scope nat_scope.

Definition of_core (x : line) (c : nat) : bool := match core x with Some d => d =? c | None => false end.
Definition nz (b : N) : bool := negb (b =? 0)%N.
Definition count (n : nat) (s : cache) (P : line -> bool) : Z := Z.of_nat (length (filter (fun l => P (ln s l)) (seq 0 n))).
(** The counters are exact *)
Definition cached_exact (n : nat) (s : cache) : Prop := forall c,
  cc s c = count n s (fun x => of_core x c && nz (vb x)) /\
  forall p, cp s c p = count n s (fun x => of_core x c && nz (vb x) && (part x =? p)).
Definition dirty_exact (n : nat) (s : cache) : Prop := forall c,
  dc s c = count n s (fun x => of_core x c && nz (db x)) /\
  forall p, dp s c p = count n s (fun x => of_core x c && nz (db x) && (part x =? p)).

(** ** Sums *)
Definition b2z (b : bool) : Z := if b then 1%Z else 0%Z.
Fixpoint sum (n : nat) (f : nat -> Z) : Z := match n with 0 => 0%Z | S n => (sum n f + f n)%Z end.
Lemma count_sum n s P : count n s P = sum n (fun l => b2z (P (ln s l))).
Proof.
  unfold count. induction n as [|n IH]; [reflexivity|]. rewrite seq_S, filter_app, app_length, Nat2Z.inj_add, IH. cbn [sum Nat.add filter].
  f_equal. destruct (P (ln s n)); reflexivity.
Qed.
Lemma sum_ext n f g : (forall l, l < n -> f l = g l) -> sum n f = sum n g.
Proof. induction n as [|n IH]; intros H; [reflexivity|]. cbn [sum]. rewrite IH, H by (try intros; try apply H; lia). reflexivity. Qed.
Lemma sum_change n f g k : k < n -> (forall l, l <> k -> g l = f l) -> sum n g = (sum n f + (g k - f k))%Z.
Proof.
  induction n as [|n IH]; intros Hk H; [lia|]. cbn [sum]. destruct (Nat.eq_dec k n) as [->|Ne].
  - rewrite (sum_ext n g f) by (intros l Hl; apply H; lia). lia.
  - rewrite IH, (H n) by (try lia; exact H). lia.
Qed.

(** ** Lines *)
Definition line_ok (w : N) (x : line) : Prop :=
  in_line w (vb x) /\ in_line w (db x) /\ (forall i, holds (db x) i -> holds (vb x) i) /\
  (core x = None -> vb x = 0%N) /\ (busy x = true -> vb x = 0%N /\ core x <> None).
(** Mapped lines that nobody is filling have data *)
Definition filled (x : line) : Prop := core x <> None -> busy x = false -> nz (vb x) = true.

Lemma nz_holds b : nz b = true <-> exists i, holds b i.
Proof. apply negb_eqb0. Qed.
Lemma nz_false b : nz b = false <-> b = 0%N.
Proof. unfold nz. rewrite negb_false_iff. apply N.eqb_eq. Qed.
Lemma zero_in w : in_line w 0.
Proof. intros i H. unfold holds in H. rewrite N.bits_0 in H. discriminate. Qed.
Lemma zero_holds i : ~ holds 0 i.
Proof. unfold holds. rewrite N.bits_0. discriminate. Qed.
Lemma dirty_valid w x : line_ok w x -> nz (db x) = true -> nz (vb x) = true.
Proof. intros (_ & _ & Q & _) H. apply nz_holds in H. destruct H as (i & H). apply nz_holds. exists i. apply Q. exact H. Qed.

Lemma bool_iff (a b : bool) : (a = true <-> b = true) -> a = b.
Proof. destruct a, b; intros H; try reflexivity; destruct H as (H1 & H2); [symmetry; apply H1 | apply H2]; reflexivity. Qed.
Section Ops.
  Variables (w b start stop : N).
  Hypotheses (Hw : line_width w) (Hb : in_line w b) (Hr : (start <= stop < w)%N).
  Lemma op_clean : exists c lc d, clear_dirty_sec_changed w b start stop = Some (c, lc, d) /\ in_line w d /\
    (forall i, holds d i <-> holds b i /\ ~ in_range start stop i) /\ c && lc = nz b && negb (nz d).
  Proof.
    destruct (C07_changed_exact w b start stop Hw Hb Hr) as ((c & lc & d & E & B & C & L) & _). exists c, lc, d. split; [exact E|].
    split; [intros i Hi; apply Hb; apply B; exact Hi|]. split; [exact B|]. apply bool_iff. rewrite !andb_true_iff, negb_true_iff, C, L, nz_holds, nz_false. split.
    - intros ((i & Hi & _) & H). split; [eauto|]. destruct (nz d) eqn:E'; [apply nz_holds in E'; destruct E' as (j & Hj); elim (H j Hj)|]. apply nz_false. exact E'.
    - intros ((i & Hi) & ->). split; [exists i; split; [exact Hi | apply zero_holds] | intros j; apply zero_holds].
  Qed.
  Lemma op_dirty : exists c wd d, set_dirty_sec_changed w b start stop = Some (c, wd, d) /\ in_line w d /\
    (forall i, holds d i <-> holds b i \/ in_range start stop i) /\ nz d = true /\ c && negb wd = negb (nz b).
  Proof.
    destruct (C07_changed_exact w b start stop Hw Hb Hr) as (_ & (c & wd & d & E & B & C & L) & _). exists c, wd, d. split; [exact E|].
    split; [intros i Hi; apply B in Hi; unfold in_range in Hi; destruct Hi; [apply Hb; assumption | lia]|]. split; [exact B|].
    assert (I : holds d start) by (apply B; right; unfold in_range; lia). split; [apply nz_holds; eauto|].
    assert (W : wd = nz b) by (apply bool_iff; rewrite L, nz_holds; tauto). subst wd. destruct (nz b) eqn:E'; [apply andb_false_r|]. cbn [negb]. rewrite andb_true_r.
    apply C. exists start. split; [|exact I]. apply nz_false in E'. subst b. apply zero_holds.
  Qed.
  Lemma op_valid : exists c d, set_valid_sec_changed w b start stop = Some (c, d) /\ in_line w d /\
    (forall i, holds d i <-> holds b i \/ in_range start stop i) /\ nz d = true /\ c = negb (nz b).
  Proof.
    destruct (C07_changed_exact w b start stop Hw Hb Hr) as (_ & _ & (c & d & E & B & C) & _). exists c, d. split; [exact E|].
    split; [intros i Hi; apply B in Hi; unfold in_range in Hi; destruct Hi; [apply Hb; assumption | lia]|]. split; [exact B|].
    assert (I : holds d start) by (apply B; right; unfold in_range; lia). split; [apply nz_holds; eauto|].
    apply bool_iff. rewrite C, negb_true_iff, nz_false. split.
    - intros (H & _). destruct (nz b) eqn:E'; [apply nz_holds in E'; destruct E' as (j & Hj); elim (H j Hj) | apply nz_false; exact E'].
    - intros ->. split; [intros i; apply zero_holds | eauto].
  Qed.
  Lemma op_invalid : exists c r d, clear_valid_sec_changed w b start stop = Some (c, r, d) /\ in_line w d /\
    (forall i, holds d i <-> holds b i /\ ~ in_range start stop i) /\ r = nz d /\ c = nz b && negb (nz d).
  Proof.
    destruct (C07_changed_exact w b start stop Hw Hb Hr) as (_ & _ & _ & (c & r & d & E & B & C & R)). exists c, r, d. split; [exact E|].
    split; [intros i Hi; apply Hb; apply B; exact Hi|]. split; [exact B|].
    split; [apply bool_iff; rewrite R, nz_holds; tauto|]. apply bool_iff. rewrite C, andb_true_iff, negb_true_iff, nz_holds, nz_false. split.
    - intros (H1 & H). split; [exact H1|]. destruct (nz d) eqn:E'; [apply nz_holds in E'; destruct E' as (j & Hj); elim (H j Hj) | apply nz_false; exact E'].
    - intros (H1 & ->). split; [exact H1 | intros i; apply zero_holds].
  Qed.
End Ops.
Lemma clear_all w b : line_width w -> in_line w b -> exists r, bit_clear w b 0 (w - 1) = Some (r, 0%N).
Proof.
  intros Hw Hb. assert (P : (0 < w)%N) by (apply width_pos; exact Hw).
  destruct (C07_unmark_exact w b 0 (w - 1) Hw Hb) as (r & d & E & _ & T & _); [lia|]. exists r. rewrite E. do 2 f_equal.
  apply nz_false. destruct (nz d) eqn:Z; [|reflexivity]. apply nz_holds in Z. destruct Z as (i & Hi). apply T in Hi. destruct Hi as (H1 & H2).
  apply Hb in H1. elim H2. unfold in_range. lia.
Qed.

(** ** Effects of one step on a line and the counters *)
Definition vcnt (x : line) (c : nat) : Z := b2z (of_core x c && nz (vb x)).
Definition vcntp (x : line) (c p : nat) : Z := b2z (of_core x c && nz (vb x) && (part x =? p)).
Definition dcnt (x : line) (c : nat) : Z := b2z (of_core x c && nz (db x)).
Definition dcntp (x : line) (c p : nat) : Z := b2z (of_core x c && nz (db x) && (part x =? p)).
Record Eff (good : Prop) (l : nat) (s s' : cache) : Prop := {
  e_other : forall k, k <> l -> ln s' k = ln s k;
  e_dc : forall c, (dc s' c = dc s c + (dcnt (ln s' l) c - dcnt (ln s l) c))%Z;
  e_dp : forall c p, (dp s' c p = dp s c p + (dcntp (ln s' l) c p - dcntp (ln s l) c p))%Z;
  e_cc : good -> forall c, (cc s' c = cc s c + (vcnt (ln s' l) c - vcnt (ln s l) c))%Z;
  e_cp : good -> forall c p, (cp s' c p = cp s c p + (vcntp (ln s' l) c p - vcntp (ln s l) c p))%Z }.
Lemma eff_trans g1 g2 (g : Prop) l s1 s2 s3 : (g -> g1 /\ g2) -> Eff g1 l s1 s2 -> Eff g2 l s2 s3 -> Eff g l s1 s3.
Proof.
  intros G A B. constructor.
  - intros k Hk. rewrite (e_other _ _ _ _ B k Hk). apply A. exact Hk.
  - intros c. rewrite (e_dc _ _ _ _ B), (e_dc _ _ _ _ A). lia.
  - intros c p. rewrite (e_dp _ _ _ _ B), (e_dp _ _ _ _ A). lia.
  - intros H c. destruct (G H) as (G1 & G2). rewrite (e_cc _ _ _ _ B G2), (e_cc _ _ _ _ A G1). lia.
  - intros H c p. destruct (G H) as (G1 & G2). rewrite (e_cp _ _ _ _ B G2), (e_cp _ _ _ _ A G1). lia.
Qed.
Lemma upd_eq {A} (f : nat -> A) x v : upd f x v x = v.
Proof. unfold upd. rewrite Nat.eqb_refl. reflexivity. Qed.
Lemma upd_ne {A} (f : nat -> A) x v y : y <> x -> upd f x v y = f y.
Proof. intros H. unfold upd. destruct (Nat.eqb_spec y x); [contradiction|reflexivity]. Qed.
Lemma add1_at f c d k : add1 f c d k = (f k + (if (k =? c)%nat then d else 0))%Z.
Proof. unfold add1, upd. destruct (Nat.eqb_spec k c) as [->|]; lia. Qed.
Lemma add2_at f c p d k q : add2 f c p d k q = (f k q + (if (k =? c)%nat && (q =? p)%nat then d else 0))%Z.
Proof.
  unfold add2. unfold upd at 1. destruct (Nat.eqb_spec k c) as [->|]; cbn [andb].
  - rewrite add1_at. reflexivity.
  - lia.
Qed.
Ltac fields := cbn [ln cc dc cp dp with_line cached dirtied core part vb db busy].
Ltac line_eq := rewrite ?upd_eq; cbn [core part vb db busy].

Section Steps.
  Variable w : N.
  Hypothesis Hw : line_width w.

  Lemma clean_eff l a b s c : line_ok w (ln s l) -> core (ln s l) = Some c -> (a <= b < w)%N -> exists s', set_clean w l a b s = Some s' /\
    Eff True l s s' /\ line_ok w (ln s' l) /\ core (ln s' l) = Some c /\ busy (ln s' l) = busy (ln s l) /\ vb (ln s' l) = vb (ln s l) /\
    (forall i, holds (db (ln s' l)) i <-> holds (db (ln s l)) i /\ ~ in_range a b i).
  Proof.
    intros (V & D & Sub & U & Bz) C R. destruct (op_clean w (db (ln s l)) a b Hw D R) as (ch & lc & d & E & Id & B & Q). unfold set_clean. rewrite C, E, Q.
    eexists. split; [reflexivity|].
    assert (Z0 : nz d = true -> nz (db (ln s l)) = true) by (rewrite !nz_holds; intros (i & Hi); apply B in Hi; exists i; apply Hi).
    assert (LO : line_ok w {| core := Some c; part := part (ln s l); vb := vb (ln s l); db := d; busy := busy (ln s l) |}).
    { split; [exact V|]. split; [exact Id|]. cbn [core part vb db busy]. split; [intros i Hi; apply Sub; apply B; exact Hi|]. split; [discriminate|]. intros Hb. split; [apply Bz; exact Hb | discriminate]. }
    destruct (nz (db (ln s l))) eqn:N1, (nz d) eqn:N2; try (discriminate (Z0 eq_refl)); cbn [andb negb];
    (split; [constructor; intros; unfold dcnt, dcntp, vcnt, vcntp, of_core; fields; rewrite ?add1_at, ?add2_at, ?upd_eq, ?upd_ne by assumption; fields; rewrite ?C, ?N1, ?N2; try reflexivity;
      rewrite ?(Nat.eqb_sym c), ?(Nat.eqb_sym (part _)); try (destruct (c0 =? c)%nat; try destruct (p =? _)%nat; cbn [andb b2z]; lia) |
     fields; line_eq; split; [exact LO|]; split; [reflexivity|]; split; [reflexivity|]; split; [reflexivity | exact B]]).
  Qed.

  Lemma dirty_eff l a b s c : line_ok w (ln s l) -> core (ln s l) = Some c -> (a <= b < w)%N -> busy (ln s l) = false ->
    (forall i, in_range a b i -> holds (vb (ln s l)) i) -> exists s', set_dirty w l a b s = Some s' /\
    Eff True l s s' /\ line_ok w (ln s' l) /\ core (ln s' l) = Some c /\ busy (ln s' l) = false /\ vb (ln s' l) = vb (ln s l).
  Proof.
    intros (V & D & Sub & U & Bz) C R Bf RV. destruct (op_dirty w (db (ln s l)) a b Hw D R) as (ch & wd & d & E & Id & B & N2 & Q). unfold set_dirty. rewrite C, E, Q.
    eexists. split; [reflexivity|].
    assert (LO : line_ok w {| core := Some c; part := part (ln s l); vb := vb (ln s l); db := d; busy := busy (ln s l) |}).
    { split; [exact V|]. split; [exact Id|]. cbn [core part vb db busy]. split; [intros i Hi; apply B in Hi; destruct Hi as [Hi|Hi]; [apply Sub; exact Hi | apply RV; exact Hi]|]. split; [discriminate|]. congruence. }
    destruct (nz (db (ln s l))) eqn:N1; cbn [negb];
    (split; [constructor; intros; unfold dcnt, dcntp, vcnt, vcntp, of_core; fields; rewrite ?add1_at, ?add2_at, ?upd_eq, ?upd_ne by assumption; fields; rewrite ?C, ?N1, ?N2; try reflexivity;
      rewrite ?(Nat.eqb_sym c), ?(Nat.eqb_sym (part _)); try (destruct (c0 =? c)%nat; try destruct (p =? _)%nat; cbn [andb b2z]; lia) |
     fields; line_eq; split; [exact LO|]; split; [reflexivity|]; split; [exact Bf | reflexivity]]).
  Qed.

  Lemma valid_eff l a b s c : line_ok w (ln s l) -> core (ln s l) = Some c -> (a <= b < w)%N -> exists s', set_valid w l a b s = Some s' /\
    Eff True l s s' /\ line_ok w (ln s' l) /\ core (ln s' l) = Some c /\ busy (ln s' l) = false /\ nz (vb (ln s' l)) = true /\
    (forall i, in_range a b i -> holds (vb (ln s' l)) i).
  Proof.
    intros (V & D & Sub & U & Bz) C R. destruct (op_valid w (vb (ln s l)) a b Hw V R) as (ch & v & E & Iv & B & N2 & Q). unfold set_valid. rewrite C, E, Q.
    eexists. split; [reflexivity|].
    assert (LO : line_ok w {| core := Some c; part := part (ln s l); vb := v; db := db (ln s l); busy := false |}).
    { split; [exact Iv|]. split; [exact D|]. cbn [core part vb db busy]. split; [intros i Hi; apply B; left; apply Sub; exact Hi|]. split; discriminate. }
    destruct (nz (vb (ln s l))) eqn:N1; cbn [negb];
    (split; [constructor; intros; unfold dcnt, dcntp, vcnt, vcntp, of_core; fields; rewrite ?add1_at, ?add2_at, ?upd_eq, ?upd_ne by assumption; fields; rewrite ?C, ?N1, ?N2; try reflexivity;
      rewrite ?(Nat.eqb_sym c), ?(Nat.eqb_sym (part _)); try (destruct (c0 =? c)%nat; try destruct (p =? _)%nat; cbn [andb b2z]; lia) |
     fields; line_eq; split; [exact LO|]; split; [reflexivity|]; split; [reflexivity|]; split; [exact N2|]; intros i Hi; apply B; right; exact Hi]).
  Qed.

  (** Invalidating sectors that are clean *)
  Lemma invalid_eff l a b wt s c : line_ok w (ln s l) -> core (ln s l) = Some c -> (a <= b < w)%N ->
    (forall i, holds (db (ln s l)) i -> ~ in_range a b i) -> exists s', set_invalid w l a b wt s = Some s' /\
    Eff (wt = false) l s s' /\ line_ok w (ln s' l) /\ (wt = false -> filled (ln s' l)) /\ (forall i, holds (db (ln s' l)) i -> holds (db (ln s l)) i).
  Proof.
    intros (V & D & Sub & U & Bz) C R Cl. destruct (op_invalid w (vb (ln s l)) a b Hw V R) as (ch & r & v & E & Iv & B & -> & ->). unfold set_invalid. rewrite C, E.
    assert (Z0 : nz v = true -> nz (vb (ln s l)) = true) by (rewrite !nz_holds; intros (i & Hi); apply B in Hi; exists i; apply Hi).
    assert (Sub' : forall i, holds (db (ln s l)) i -> holds v i) by (intros i Hi; apply B; split; [apply Sub; exact Hi | apply Cl; exact Hi]).
    assert (Zd : nz v = false -> nz (db (ln s l)) = false).
    { intros Z. destruct (nz (db (ln s l))) eqn:Y; [|reflexivity]. apply nz_holds in Y. destruct Y as (i & Hi). apply nz_false in Z. subst v. elim (zero_holds i). apply Sub'. exact Hi. }
    destruct (nz (vb (ln s l))) eqn:N1, (nz v) eqn:N2; try (discriminate (Z0 eq_refl)); cbn [andb negb]; try destruct wt;
    (eexists; split; [reflexivity|]; split;
      [constructor; intros; unfold dcnt, dcntp, vcnt, vcntp, of_core; fields; rewrite ?add1_at, ?add2_at, ?upd_eq, ?upd_ne by assumption; fields; rewrite ?upd_ne by assumption; rewrite ?C, ?N1, ?N2, ?(Zd eq_refl), ?andb_false_r; try reflexivity; try discriminate;
       rewrite ?(Nat.eqb_sym c), ?(Nat.eqb_sym (part _)); try (destruct (c0 =? c)%nat; try destruct (p =? _)%nat; cbn [andb b2z]; lia)
      |fields; line_eq; split;
       [split; [exact Iv|]; split; [exact D|]; cbn [core part vb db busy]; split; [exact Sub'|]; split; [intros Hc; try discriminate; apply nz_false; exact N2 | discriminate]
       |split; [intros Hwt; unfold filled; cbn [core busy vb]; intros; try discriminate; congruence | intros i Hi; exact Hi]]]).
  Qed.

  Lemma move_eff l p s c : line_ok w (ln s l) -> core (ln s l) = Some c -> exists s', move l p s = Some s' /\
    Eff (nz (vb (ln s l)) = true) l s s' /\ line_ok w (ln s' l) /\ core (ln s' l) = Some c /\ busy (ln s' l) = busy (ln s l) /\ vb (ln s' l) = vb (ln s l).
  Proof.
    intros LO C. unfold move. rewrite C. destruct (Nat.eqb_spec (part (ln s l)) p) as [Ep|Np].
    - exists s. split; [reflexivity|]. split; [constructor; intros; try reflexivity; lia|]. auto.
    - eexists. split; [reflexivity|]. destruct (db (ln s l) =? 0)%N eqn:Z; fields;
      (split; [constructor; intros; unfold dcnt, dcntp, vcnt, vcntp, of_core, nz in *; fields; rewrite ?add1_at, ?add2_at, ?upd_eq, ?upd_ne by assumption; fields; rewrite ?C, ?Z, ?H; cbn [negb]; rewrite ?andb_false_r; try reflexivity; try (cbn [andb b2z]; lia);
        rewrite ?(Nat.eqb_sym c), ?(Nat.eqb_sym (part _)), ?(Nat.eqb_sym p); try (destruct (c0 =? c)%nat; try destruct (Nat.eqb_spec p0 p) as [|]; try destruct (Nat.eqb_spec p0 (part (ln s l))) as [|]; cbn [andb b2z]; lia)
      | line_eq; split; [|auto]; destruct LO as (V & D & Sub & U & Bz); split; [exact V|]; split; [exact D|]; cbn [core part vb db busy]; split; [exact Sub|]; split; [discriminate|]; intros Hb; split; [apply Bz; exact Hb | discriminate]]).
  Qed.

  Lemma map_eff l c p s : line_ok w (ln s l) -> core (ln s l) = None -> Eff True l s (map_line l c p s) /\ line_ok w (ln (map_line l c p s) l) /\ filled (ln (map_line l c p s) l).
  Proof.
    intros (V & D & Sub & U & Bz) C. specialize (U C).
    assert (Zd : nz (db (ln s l)) = false).
    { destruct (nz (db (ln s l))) eqn:Y; [|reflexivity]. apply nz_holds in Y. destruct Y as (i & Hi). apply Sub in Hi. rewrite U in Hi. elim (zero_holds i Hi). }
    assert (Zv : nz (vb (ln s l)) = false) by (apply nz_false; exact U). unfold map_line. split.
    - constructor; intros; unfold dcnt, dcntp, vcnt, vcntp, of_core; fields; rewrite ?upd_eq, ?upd_ne by assumption; fields; rewrite ?C, ?Zd, ?Zv, ?andb_false_r; try reflexivity; cbn [andb b2z]; lia.
    - fields. line_eq. split.
      + split; [exact V|]. split; [exact D|]. split; [exact Sub|]. split; [discriminate|]. intros _. split; [exact U | discriminate].
      + intros _ H. discriminate.
  Qed.

  Lemma evict_eff l c p s c0 : line_ok w (ln s l) -> core (ln s l) = Some c0 -> db (ln s l) = 0%N -> exists s', evict w l c p s = Some s' /\
    Eff (nz (vb (ln s l)) = true) l s s' /\ line_ok w (ln s' l) /\ filled (ln s' l).
  Proof.
    intros (V & D & Sub & U & Bz) C Cl. destruct (clear_all w (vb (ln s l)) Hw V) as (r & E). unfold evict. rewrite C, E. eexists. split; [reflexivity|].
    assert (Zd : nz (db (ln s l)) = false) by (apply nz_false; exact Cl). unfold map_line. fields. line_eq. split.
    - constructor; intros; unfold dcnt, dcntp, vcnt, vcntp, of_core; fields; rewrite ?add1_at, ?add2_at, ?upd_eq, ?upd_ne by assumption; fields; rewrite ?upd_ne by assumption; rewrite ?C, ?Zd, ?H; change (nz 0) with false; rewrite ?andb_false_r; try reflexivity; try (cbn [andb b2z]; lia);
      rewrite ?(Nat.eqb_sym c0), ?(Nat.eqb_sym (part _)).
      + destruct (c1 =? c0)%nat; cbn [andb b2z]; lia.
      + destruct (c1 =? c0)%nat; try destruct (p0 =? _)%nat; cbn [andb b2z]; lia.
    - line_eq. rewrite ?upd_eq. cbn [core part vb db busy]. rewrite Cl. split.
      + split; [apply zero_in|]. split; [apply zero_in|]. split; [intros i Hi; exact Hi|]. split; [discriminate|]. intros _. split; [reflexivity | discriminate].
      + intros _ H. discriminate.
  Qed.
End Steps.

(** ** Histories *)
Record Dinv (w : N) (n : nat) (s : cache) : Prop := { d_ok : forall l, l < n -> line_ok w (ln s l); d_exact : dirty_exact n s }.
Record Cinv (n : nat) (s : cache) : Prop := { c_filled : forall l, l < n -> filled (ln s l); c_exact : cached_exact n s }.

Lemma eff_count l n s s' (P : line -> bool) : (forall k, k <> l -> ln s' k = ln s k) -> l < n -> count n s' P = (count n s P + (b2z (P (ln s' l)) - b2z (P (ln s l))))%Z.
Proof. intros O Hl. rewrite !count_sum. apply (sum_change n (fun k => b2z (P (ln s k))) (fun k => b2z (P (ln s' k))) l Hl). intros k Hk. cbn beta. rewrite O by exact Hk. reflexivity. Qed.
Lemma eff_dinv w n g l s s' : Dinv w n s -> l < n -> Eff g l s s' -> line_ok w (ln s' l) -> Dinv w n s'.
Proof.
  intros [A B] Hl E L. constructor.
  - intros k Hk. destruct (Nat.eq_dec k l) as [->|Ne]; [exact L|]. rewrite (e_other _ _ _ _ E k Ne). apply A. exact Hk.
  - intros c. destruct (B c) as (B1 & B2). split.
    + rewrite (e_dc _ _ _ _ E), B1, (eff_count l n s s') by (try apply E; exact Hl). reflexivity.
    + intros p. rewrite (e_dp _ _ _ _ E), B2, (eff_count l n s s') by (try apply E; exact Hl). reflexivity.
Qed.
Lemma eff_cinv n (g : Prop) l s s' : g -> Cinv n s -> l < n -> Eff g l s s' -> filled (ln s' l) -> Cinv n s'.
Proof.
  intros G [A B] Hl E L. constructor.
  - intros k Hk. destruct (Nat.eq_dec k l) as [->|Ne]; [exact L|]. rewrite (e_other _ _ _ _ E k Ne). apply A. exact Hk.
  - intros c. destruct (B c) as (B1 & B2). split.
    + rewrite (e_cc _ _ _ _ E G), B1, (eff_count l n s s') by (try apply E; exact Hl). reflexivity.
    + intros p. rewrite (e_cp _ _ _ _ E G), B2, (eff_count l n s s') by (try apply E; exact Hl). reflexivity.
Qed.

(** Recovery *)
Lemma rebuild_line_ok w x : line_width w -> line_ok w x -> exists x', rebuild_line w x = Some x' /\ line_ok w x' /\ busy x' = false /\
  match core x' with Some c => part x' = 0 /\ nz (vb x') = true /\ nz (db x') = true | None => vb x' = 0%N /\ db x' = 0%N end.
Proof.
  intros Hw (V & D & Sub & U & Bz). assert (P : (0 < w)%N) by (apply width_pos; exact Hw). unfold rebuild_line.
  destruct (C07_valid_dirty_exact w (vb x) (db x) 0 (w - 1) Hw V D) as ((r & v & E & T & R) & _); [lia|]. rewrite E.
  assert (Nv : nz v = r) by (apply bool_iff; rewrite nz_holds, R; reflexivity).
  assert (Hv : forall i, holds v i <-> holds (db x) i).
  { intros i. rewrite T. split.
    - intros (H1 & [H2|H2]); [exact H2|]. apply V in H1. elim H2. unfold in_range. lia.
    - intros H. auto. }
  assert (Bv : in_line w v) by (intros i Hi; apply D; apply Hv; exact Hi).
  destruct (core x) as [c|] eqn:C; [destruct r|].
  - eexists. split; [reflexivity|]. cbn [core part vb db busy]. split; [|split; [reflexivity|]].
    + split; [exact Bv|]. split; [exact D|]. cbn [core part vb db busy]. split; [intros i Hi; apply Hv; exact Hi|]. split; discriminate.
    + split; [reflexivity|]. split; [exact Nv|]. apply nz_holds in Nv. destruct Nv as (i & Hi). apply nz_holds. exists i. apply Hv. exact Hi.
  - eexists. split; [reflexivity|]. cbn [core part vb db busy]. split; [|auto]. split; [apply zero_in|]. split; [apply zero_in|]. split; [auto|]. split; [reflexivity | discriminate].
  - eexists. split; [reflexivity|]. cbn [core part vb db busy]. split; [|auto]. split; [apply zero_in|]. split; [apply zero_in|]. split; [auto|]. split; [reflexivity | discriminate].
Qed.
Lemma count_S n s P : count (S n) s P = (count n s P + b2z (P (ln s n)))%Z.
Proof. rewrite !count_sum. reflexivity. Qed.
Lemma count_ext n s s' P : (forall l, l < n -> ln s' l = ln s l) -> count n s' P = count n s P.
Proof. intros H. rewrite !count_sum. apply sum_ext. intros l Hl. rewrite H by exact Hl. reflexivity. Qed.
Lemma rebuild_ok w n s : line_width w -> (forall l, l < n -> line_ok w (ln s l)) ->
  (forall c, cc s c = 0 /\ dc s c = 0 /\ forall p, cp s c p = 0 /\ dp s c p = 0)%Z ->
  exists s', rebuild_lines w n s = Some s' /\ Dinv w n s' /\ Cinv n s' /\ (forall l, n <= l -> ln s' l = ln s l).
Proof.
  intros Hw. revert s. induction n as [|n IH]; intros s L Z.
  - exists s. split; [reflexivity|]. split; [|split; [|reflexivity]]; constructor; try (intros; lia); intros c; destruct (Z c) as (Z1 & Z2 & Z3); (split; [assumption|]; intros p; apply Z3).
  - destruct (IH s) as (s1 & E1 & [D1 D2] & [C1 C2] & O1); [intros l Hl; apply L; lia | exact Z|]. cbn [rebuild_lines]. rewrite E1. cbn [bind].
    rewrite (O1 n) by lia. destruct (rebuild_line_ok w (ln s n) Hw (L n (Nat.lt_succ_diag_r n))) as (x' & -> & LO & Bf & K). cbn [bind].
    eexists. split; [reflexivity|].
    assert (O : forall l, l < n -> ln (with_line s1 n x') l = ln s1 l) by (intros l Hl; fields; apply upd_ne; lia).
    destruct (core x') as [c0|] eqn:C; fields.
    + destruct K as (K1 & K2 & K3). split; [|split]; [constructor|constructor|intros l Hl; rewrite upd_ne by lia; apply O1; lia].
      * fields. intros l Hl. unfold upd. destruct (Nat.eqb_spec l n) as [->|]; [exact LO | apply D1; lia].
      * intros c. rewrite !count_S. fields. rewrite add1_at, upd_eq. unfold of_core. rewrite C, K3. destruct (D2 c) as (Q1 & Q2).
        split; [rewrite (count_ext n s1) by exact O; rewrite Q1, (Nat.eqb_sym c0); destruct (c =? c0)%nat; reflexivity|].
        intros p. rewrite count_S. fields. rewrite add2_at, upd_eq, (count_ext n s1), Q2, C, K1, K3, (Nat.eqb_sym c0), (Nat.eqb_sym 0) by exact O. destruct (c =? c0)%nat, (p =? 0)%nat; reflexivity.
      * fields. intros l Hl. unfold upd. destruct (Nat.eqb_spec l n) as [->|]; [intros _ _; exact K2 | apply C1; lia].
      * intros c. rewrite !count_S. fields. rewrite add1_at, upd_eq. unfold of_core. rewrite C, K2. destruct (C2 c) as (Q1 & Q2).
        split; [rewrite (count_ext n s1) by exact O; rewrite Q1, (Nat.eqb_sym c0); destruct (c =? c0)%nat; reflexivity|].
        intros p. rewrite count_S. fields. rewrite add2_at, upd_eq, (count_ext n s1), Q2, C, K1, K2, (Nat.eqb_sym c0), (Nat.eqb_sym 0) by exact O. destruct (c =? c0)%nat, (p =? 0)%nat; reflexivity.
    + destruct K as (K1 & K2). split; [|split]; [constructor|constructor|intros l Hl; rewrite upd_ne by lia; apply O1; lia].
      * fields. intros l Hl. unfold upd. destruct (Nat.eqb_spec l n) as [->|]; [exact LO | apply D1; lia].
      * intros c. rewrite !count_S. fields. rewrite upd_eq. unfold of_core. rewrite C. destruct (D2 c) as (Q1 & Q2). cbn [andb b2z].
        split; [rewrite (count_ext n s1) by exact O; rewrite Q1; unfold of_core; lia|].
        intros p. rewrite count_S. fields. rewrite upd_eq, (count_ext n s1), Q2, C by exact O. unfold of_core. cbn [andb b2z]. lia.
      * fields. intros l Hl. unfold upd. destruct (Nat.eqb_spec l n) as [->|]; [intros Hc; congruence | apply C1; lia].
      * intros c. rewrite !count_S. fields. rewrite upd_eq. unfold of_core. rewrite C. destruct (C2 c) as (Q1 & Q2). cbn [andb b2z].
        split; [rewrite (count_ext n s1) by exact O; rewrite Q1; unfold of_core; lia|].
        intros p. rewrite count_S. fields. rewrite upd_eq, (count_ext n s1), Q2, C by exact O. unfold of_core. cbn [andb b2z]. lia.
Qed.

(** No request waits for the line when it is invalidated *)
Definition quiet (e : event) : bool := match e with Purge _ _ _ wt | Abort _ wt | Sparse _ wt => negb wt | _ => true end.

Lemma mapped_core s l : mapped s l = true -> exists c, core (ln s l) = Some c.
Proof. unfold mapped. destruct (core (ln s l)); [eauto | discriminate]. Qed.

Theorem step_ok w n e s : line_width w -> Dinv w n s -> exists s', step w n e s = Some s' /\ Dinv w n s' /\ (quiet e = true -> Cinv n s -> Cinv n s').
Proof.
  intros Hw D. unfold step. destruct (allowed w n e s) eqn:A; [|exists s; auto]. assert (P : (0 < w)%N) by (apply width_pos; exact Hw).
  destruct e as [l c p|l c p|l a b|l a b|l a b|l a b wt|l wt|l wt|l p|]; cbn [allowed do_event quiet] in *; rewrite ?andb_true_iff, ?negb_true_iff, ?Nat.ltb_lt, ?N.ltb_lt, ?N.leb_le, ?N.eqb_eq in A.
  - destruct A as (Hl & M). assert (C : core (ln s l) = None) by (unfold mapped in M; destruct (core (ln s l)); [discriminate|reflexivity]).
    destruct (map_eff w l c p s (d_ok _ _ _ D l Hl) C) as (E & LO & F). eexists. split; [reflexivity|]. split; [exact (eff_dinv _ _ _ _ _ _ D Hl E LO)|].
    intros _ I. exact (eff_cinv n True l s _ Logic.I I Hl E F).
  - destruct A as (((Hl & M) & Bf) & Cl). destruct (mapped_core s l M) as (c0 & C). destruct (evict_eff w Hw l c p s c0 (d_ok _ _ _ D l Hl) C Cl) as (s' & -> & E & LO & F).
    exists s'. split; [reflexivity|]. split; [exact (eff_dinv _ _ _ _ _ _ D Hl E LO)|]. intros _ I. apply (eff_cinv n _ l s s' (c_filled _ _ I l Hl ltac:(congruence) Bf) I Hl E F).
  - destruct A as ((Hl & M) & R). destruct (mapped_core s l M) as (c0 & C). destruct (valid_eff w Hw l a b s c0 (d_ok _ _ _ D l Hl) C R) as (s' & -> & E & LO & _ & _ & N1 & _).
    exists s'. split; [reflexivity|]. split; [exact (eff_dinv _ _ _ _ _ _ D Hl E LO)|]. intros _ I. apply (eff_cinv n True l s s' Logic.I I Hl E). intros _ _. exact N1.
  - destruct A as ((Hl & M) & R). destruct (mapped_core s l M) as (c0 & C). destruct (valid_eff w Hw l a b s c0 (d_ok _ _ _ D l Hl) C R) as (s1 & E1 & E & LO & C1 & B1 & N1 & RV).
    unfold write_dirty. rewrite E1. cbn [bind]. destruct (dirty_eff w Hw l a b s1 c0 LO C1 R B1 RV) as (s' & -> & E' & LO' & _ & _ & V').
    pose proof (eff_trans True True True l s s1 s' (fun _ => conj Logic.I Logic.I) E E') as EE.
    exists s'. split; [reflexivity|]. split; [exact (eff_dinv _ _ _ _ _ _ D Hl EE LO')|]. intros _ I. apply (eff_cinv n True l s s' Logic.I I Hl EE). intros _ _. rewrite V'. exact N1.
  - destruct A as (((Hl & M) & Bf) & R). destruct (mapped_core s l M) as (c0 & C). destruct (clean_eff w Hw l a b s c0 (d_ok _ _ _ D l Hl) C R) as (s' & -> & E & LO & C1 & B1 & V1 & _).
    exists s'. split; [reflexivity|]. split; [exact (eff_dinv _ _ _ _ _ _ D Hl E LO)|]. intros _ I. apply (eff_cinv n True l s s' Logic.I I Hl E). intros _ _. rewrite V1. apply (c_filled _ _ I l Hl); [congruence | exact Bf].
  - destruct A as ((Hl & M) & R). destruct (mapped_core s l M) as (c0 & C). unfold purge. destruct (clean_eff w Hw l a b s c0 (d_ok _ _ _ D l Hl) C R) as (s1 & -> & E & LO & C1 & B1 & V1 & DB). cbn [bind].
    destruct (invalid_eff w Hw l a b wt s1 c0 LO C1 R) as (s' & -> & E' & LO' & F & _); [intros i Hi; apply DB; exact Hi|].
    pose proof (eff_trans True (wt = false) (wt = false) l s s1 s' (fun H => conj Logic.I H) E E') as EE.
    exists s'. split; [reflexivity|]. split; [exact (eff_dinv _ _ _ _ _ _ D Hl EE LO')|]. intros Q I. apply negb_true_iff in Q. apply (eff_cinv n _ l s s' Q I Hl EE (F Q)).
  - destruct A as ((Hl & M) & Bt). destruct (mapped_core s l M) as (c0 & C). pose proof (d_ok _ _ _ D l Hl) as LO. destruct LO as (V & Db & Sub & U & Bz). destruct (Bz Bt) as (Z & _).
    destruct (invalid_eff w Hw l 0 (w - 1) wt s c0 (d_ok _ _ _ D l Hl) C) as (s' & -> & E & LO' & F & _); [lia | intros i Hi; apply Sub in Hi; rewrite Z in Hi; elim (zero_holds i Hi)|].
    exists s'. split; [reflexivity|]. split; [exact (eff_dinv _ _ _ _ _ _ D Hl E LO')|]. intros Q I. apply negb_true_iff in Q. apply (eff_cinv n _ l s s' Q I Hl E (F Q)).
  - destruct A as (((Hl & M) & Bf) & Cl). destruct (mapped_core s l M) as (c0 & C). unfold sparse.
    destruct (invalid_eff w Hw l 0 (w - 1) wt s c0 (d_ok _ _ _ D l Hl) C) as (s1 & -> & E & LO & F & DB); [lia | intros i Hi; rewrite Cl in Hi; elim (zero_holds i Hi)|]. cbn [bind].
    assert (Z : db (ln s1 l) = 0%N). { apply nz_false. destruct (nz (db (ln s1 l))) eqn:Y; [|reflexivity]. apply nz_holds in Y. destruct Y as (i & Hi). apply DB in Hi. rewrite Cl in Hi. elim (zero_holds i Hi). }
    destruct (clear_all w (db (ln s1 l)) Hw) as (r & ->); [rewrite Z; apply zero_in|].
    assert (SL : {| core := core (ln s1 l); part := part (ln s1 l); vb := vb (ln s1 l); db := 0; busy := busy (ln s1 l) |} = ln s1 l) by (rewrite <- Z; destruct (ln s1 l); reflexivity).
    rewrite SL. assert (EE : Eff (wt = false) l s (with_line s1 l (ln s1 l))).
    { constructor; fields; rewrite ?upd_eq; try apply E. intros k Hk. rewrite upd_ne by exact Hk. apply E. exact Hk. }
    eexists. split; [reflexivity|]. split; [apply (eff_dinv _ _ _ _ _ _ D Hl EE); fields; rewrite upd_eq; exact LO|].
    intros Q I. apply negb_true_iff in Q. apply (eff_cinv n _ l s _ Q I Hl EE). fields. rewrite upd_eq. exact (F Q).
  - destruct A as ((Hl & M) & Bf). destruct (mapped_core s l M) as (c0 & C). destruct (move_eff w l p s c0 (d_ok _ _ _ D l Hl) C) as (s' & -> & E & LO & C1 & B1 & V1).
    exists s'. split; [reflexivity|]. split; [exact (eff_dinv _ _ _ _ _ _ D Hl E LO)|]. intros _ I.
    assert (N1 : nz (vb (ln s l)) = true) by (apply (c_filled _ _ I l Hl); [congruence | exact Bf]). apply (eff_cinv n _ l s s' N1 I Hl E). intros _ _. rewrite V1. exact N1.
  - unfold recover. destruct (rebuild_ok w n {| ln := ln s; cc := fun _ => 0%Z; dc := fun _ => 0%Z; cp := fun _ _ => 0%Z; dp := fun _ _ => 0%Z |} Hw) as (s' & -> & D' & C' & _);
      [intros l Hl; apply (d_ok _ _ _ D l Hl) | intros c; cbn; auto |]. exists s'. auto.
Qed.

Lemma run_ok w n es : line_width w -> forall s, Dinv w n s -> exists s', run w n es s = Some s' /\ Dinv w n s' /\ (forallb quiet es = true -> Cinv n s -> Cinv n s').
Proof.
  intros Hw. induction es as [|e es IH]; intros s D; cbn [run forallb]; [exists s; auto|].
  destruct (step_ok w n e s Hw D) as (s1 & -> & D1 & C1). cbn [bind]. destruct (IH s1 D1) as (s' & -> & D' & C'). exists s'. split; [reflexivity|]. split; [exact D'|].
  intros Q I. apply andb_prop in Q. destruct Q as (Q1 & Q2). apply C'; [exact Q2|]. apply C1; assumption.
Qed.
Lemma init_dinv w n : Dinv w n init.
Proof.
  constructor.
  - intros l _. cbn. split; [apply zero_in|]. split; [apply zero_in|]. split; [auto|]. split; [reflexivity | discriminate].
  - intros c. split; [|intros p]; rewrite count_sum; cbn; induction n; cbn [sum]; try reflexivity; [rewrite <- IHn | rewrite <- IHn]; reflexivity.
Qed.
Lemma init_cinv n : Cinv n init.
Proof.
  constructor.
  - intros l _ H. elim H. reflexivity.
  - intros c. split; [|intros p]; rewrite count_sum; cbn; induction n; cbn [sum]; try reflexivity; [rewrite <- IHn | rewrite <- IHn]; reflexivity.
Qed.

(** ** C33 *)

(** The numbers of dirty lines are exact in every history. *)
Theorem C33_dirty w n es : line_width w -> exists s, run w n es init = Some s /\ dirty_exact n s.
Proof. intros Hw. destruct (run_ok w n es Hw init (init_dinv w n)) as (s & E & D & _). exists s. split; [exact E | apply D]. Qed.

(** The numbers of cached lines are exact if no request waits for a line that becomes invalid; then the
    cached lines are the mapped lines other than those still being filled. *)
Theorem C33_cached_partial w n es s : line_width w -> forallb quiet es = true -> run w n es init = Some s ->
  cached_exact n s /\
  forall c, cc s c = count n s (fun x => of_core x c && negb (busy x)) /\ forall p, cp s c p = count n s (fun x => of_core x c && negb (busy x) && (part x =? p)).
Proof.
  intros Hw Q E. destruct (run_ok w n es Hw init (init_dinv w n)) as (s' & E' & D & C). assert (s' = s) by congruence. subst s'. specialize (C Q (init_cinv n)).
  split; [apply C|]. assert (X : forall l c, l < n -> of_core (ln s l) c && nz (vb (ln s l)) = of_core (ln s l) c && negb (busy (ln s l))).
  { intros l c Hl. pose proof (c_filled _ _ C l Hl) as F. destruct (d_ok _ _ _ D l Hl) as (_ & _ & _ & _ & Bz). unfold of_core. unfold filled in F. destruct (core (ln s l)) as [d|] eqn:Cl; [|reflexivity].
    destruct (busy (ln s l)) eqn:B; [destruct (Bz eq_refl) as (-> & _); reflexivity|]. rewrite F by (try discriminate; reflexivity). reflexivity. }
  intros c. destruct (c_exact _ _ C c) as (C1 & C2). split.
  - rewrite C1, !count_sum. apply sum_ext. intros l Hl. rewrite X by exact Hl. reflexivity.
  - intros p. rewrite C2, !count_sum. apply sum_ext. intros l Hl. rewrite X by exact Hl. reflexivity.
Qed.

(** A line is invalidated while a request waits for it; the waiting request fills it again: the line is
    counted twice. *)
Theorem C33_waiters_refuted : exists es s, run 8 4 es init = Some s /\ cc s 0 = 2%Z /\ count 4 s (fun x => of_core x 0) = 1%Z.
Proof. exists [Map 0 0 0; Fill 0 0 7; Purge 0 0 7 true; Fill 0 0 7]. eexists. split; [reflexivity|]. split; reflexivity. Qed.
(** A read miss fails while a pass-through read of another class waits for the line: the line stays
    mapped without data, its class loses a line it never had, eviction counts it down. *)
Theorem C33_negative_refuted : exists es s, run 8 4 es init = Some s /\ cc s 0 = (-1)%Z /\ cp s 0 0 = (-1)%Z /\ cp s 0 1 = 0%Z.
Proof. exists [Map 0 0 0; Purge 0 0 7 true; Move 0 1; Evict 0 0 1]. eexists. split; [reflexivity|]. repeat split. Qed.

(** A history that meets the hypotheses *)
Definition history : list event :=
  [Map 0 0 0; Fill 0 0 7; Map 1 0 0; Write 1 2 3; Map 2 1 0; Purge 2 0 7 false; Map 2 1 1; Write 2 0 7; Clean 2 0 3; Move 1 1; Evict 0 1 1; Fill 0 4 5; Map 3 0 0; Clean 1 0 7].
Example history_run : option_map (fun s => (map (cc s) [0; 1], map (dc s) [0; 1], map (cp s 1) [0; 1], map (dp s 1) [0; 1])) (run 8 4 history init)
  = Some ([1; 2], [0; 1], [0; 2], [0; 1])%Z /\ forallb quiet history = true /\
  option_map (fun s => (map (cc s) [0; 1], map (dc s) [0; 1], map (cp s 1) [0; 1])) (run 8 4 (history ++ [Recover]) init) = Some ([0; 1], [0; 1], [1; 0])%Z.
Proof. vm_compute. auto. Qed.

Print Assumptions C33_dirty.
Print Assumptions C33_cached_partial.
Print Assumptions C33_waiters_refuted.
Print Assumptions C33_negative_refuted.

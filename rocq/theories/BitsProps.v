(** C07 - sector bitmap operations are exact.

    Spec: a line is a set of sectors.  [holds bits i] - sector [i] is in the set.
    All theorems are for every width used by the code, every bitmap of that
    width and every range inside the line. *)
From Coq Require Import NArith Bool Lia.
From Verif Require Import BitsModel BitsProofs.
Open Scope N_scope.

Definition line_width (w : N) : Prop := w = 8 \/ w = 16 \/ w = 32 \/ w = 64 \/ w = 128.
Definition holds (bits i : N) : Prop := N.testbit bits i = true.
(** No sector beyond the end of the line. *)
Definition in_line (w bits : N) : Prop := forall i, holds bits i -> i < w.
Definition in_range (start stop i : N) : Prop := start <= i /\ i <= stop.

Lemma in_line_bm w bits : in_line w bits <-> bm w bits.
Proof.
  unfold in_line, bm, holds. split; intros H i Hi.
  - destruct (N.testbit bits i) eqn:E; [|reflexivity]. specialize (H i E). lia.
  - destruct (N.lt_ge_cases i w); [assumption|]. now rewrite H in Hi.
Qed.

Lemma inr_iff start stop i : inr start stop i = true <-> in_range start stop i.
Proof.
  unfold inr, in_range. rewrite andb_true_iff, !N.leb_le. tauto.
Qed.

Lemma inr_niff start stop i : negb (inr start stop i) = true <-> ~ in_range start stop i.
Proof. rewrite negb_true_iff, <- inr_iff. now destruct (inr start stop i). Qed.

Theorem C07_mark_exact w bits start stop :
  line_width w -> in_line w bits -> start <= stop < w ->
  exists was b, bit_set w bits start stop = Some (was, b) /\ in_line w b /\
    (forall i, holds b i <-> holds bits i \/ in_range start stop i) /\
    (was = true <-> exists i, holds bits i).
Proof.
  intros Hw Hb [Hs Hl]. apply in_line_bm in Hb.
  destruct (bit_set_ok w bits start stop Hw Hb Hs Hl) as (r & b & E & B & T & R).
  exists r, b. split; [exact E|]. split; [now apply in_line_bm|]. split; [|exact R].
  intros i. unfold holds. rewrite T, orb_true_iff, inr_iff. tauto.
Qed.

Theorem C07_unmark_exact w bits start stop :
  line_width w -> in_line w bits -> start <= stop < w ->
  exists left b, bit_clear w bits start stop = Some (left, b) /\ in_line w b /\
    (forall i, holds b i <-> holds bits i /\ ~ in_range start stop i) /\
    (left = true <-> exists i, holds b i).
Proof.
  intros Hw Hb [Hs Hl]. apply in_line_bm in Hb.
  destruct (bit_clear_ok w bits start stop Hw Hb Hs Hl) as (r & b & E & B & T & R).
  exists r, b. split; [exact E|]. split; [now apply in_line_bm|]. split; [|exact R].
  intros i. unfold holds. rewrite T, andb_true_iff, inr_niff. tauto.
Qed.

Theorem C07_test_exact w bits start stop :
  line_width w -> in_line w bits -> start <= stop < w ->
  (exists r, bit_test w bits start stop true = Some r /\
     (r = true <-> forall i, in_range start stop i -> holds bits i)) /\
  (exists r, bit_test w bits start stop false = Some r /\
     (r = true <-> exists i, in_range start stop i /\ holds bits i)) /\
  (exists r, bit_test_out w bits start stop = Some r /\
     (r = true <-> exists i, ~ in_range start stop i /\ holds bits i)).
Proof.
  intros Hw Hb [Hs Hl]. apply in_line_bm in Hb. split; [|split].
  - destruct (bit_test_all_ok w bits start stop Hw Hs Hl) as (r & E & R).
    exists r; split; [exact E|]. rewrite R. unfold in_range, holds.
    split; [intros F i [A B]; now apply F|intros F i A B; now apply F].
  - destruct (bit_test_any_ok w bits start stop Hw Hs Hl) as (r & E & R).
    exists r; split; [exact E|]. exact R.
  - destruct (bit_test_out_ok w bits start stop Hw Hb Hs Hl) as (r & E & R).
    exists r; split; [exact E|]. rewrite R. unfold in_range, holds.
    split; intros [i [H1 H2]]; exists i; split; try assumption; lia.
Qed.

Theorem C07_test_and_modify_exact w bits start stop all :
  line_width w -> in_line w bits -> start <= stop < w ->
  (exists r b, bit_test_and_set w bits start stop all = Some (r, b) /\
     bit_test w bits start stop all = Some r /\ in_line w b /\
     (forall i, holds b i <-> holds bits i \/ in_range start stop i)) /\
  (exists r b, bit_test_and_clear w bits start stop all = Some (r, b) /\
     bit_test w bits start stop all = Some r /\ in_line w b /\
     (forall i, holds b i <-> holds bits i /\ ~ in_range start stop i)).
Proof.
  intros Hw Hb [Hs Hl]. apply in_line_bm in Hb. split.
  - destruct (bit_test_and_set_ok w bits start stop Hw Hb Hs Hl all)
      as (r & b & E & B & T & R).
    exists r, b. split; [exact E|]. split; [exact T|].
    split; [now apply in_line_bm|].
    intros i. unfold holds. rewrite R, orb_true_iff, inr_iff. tauto.
  - destruct (bit_test_and_clear_ok w bits start stop Hw Hb Hs Hl all)
      as (r & b & E & B & T & R).
    exists r, b. split; [exact E|]. split; [exact T|].
    split; [now apply in_line_bm|].
    intros i. unfold holds. rewrite R, andb_true_iff, inr_niff. tauto.
Qed.

(** The "changed" wrappers report exactly whether some sector / the line state
    changed. *)
Theorem C07_changed_exact w bits start stop :
  line_width w -> in_line w bits -> start <= stop < w ->
  (exists c lc b, clear_dirty_sec_changed w bits start stop = Some (c, lc, b) /\
     (forall i, holds b i <-> holds bits i /\ ~ in_range start stop i) /\
     (c = true <-> exists i, holds bits i /\ ~ holds b i) /\
     (lc = true <-> forall i, ~ holds b i)) /\
  (exists c wd b, set_dirty_sec_changed w bits start stop = Some (c, wd, b) /\
     (forall i, holds b i <-> holds bits i \/ in_range start stop i) /\
     (c = true <-> exists i, ~ holds bits i /\ holds b i) /\
     (wd = true <-> exists i, holds bits i)) /\
  (exists c b, set_valid_sec_changed w bits start stop = Some (c, b) /\
     (forall i, holds b i <-> holds bits i \/ in_range start stop i) /\
     (c = true <-> (forall i, ~ holds bits i) /\ exists i, holds b i)) /\
  (exists c rem b, clear_valid_sec_changed w bits start stop = Some (c, rem, b) /\
     (forall i, holds b i <-> holds bits i /\ ~ in_range start stop i) /\
     (c = true <-> (exists i, holds bits i) /\ forall i, ~ holds b i) /\
     (rem = true <-> exists i, holds b i)).
Proof.
  intros Hw Hb H. pose proof H as [Hs Hl].
  destruct (C07_mark_exact w bits start stop Hw Hb H) as (was & bs & Es & _ & Ts & Ws).
  destruct (C07_unmark_exact w bits start stop Hw Hb H) as (lf & bc & Ec & _ & Tc & Wc).
  destruct (C07_test_exact w bits start stop Hw Hb H) as ((ra & Ea & Ra) & (rn & En & Rn) & _).
  assert (H0 : 0 <= w - 1 < w) by (pose proof (width_pos w Hw); lia).
  destruct (C07_test_exact w bits 0 (w - 1) Hw Hb H0) as (_ & (rw & Ew & Rw) & _).
  assert (Rw' : rw = true <-> exists i, holds bits i).
  { rewrite Rw. split; [intros (i & _ & Hi); now exists i|]. intros [i Hi]. exists i. split; [|assumption].
    apply Hb in Hi. unfold in_range. lia. }
  repeat split.
  - exists rn, (negb lf), bc. unfold clear_dirty_sec_changed. rewrite En, Ec.
    split; [reflexivity|]. split; [assumption|]. split.
    + rewrite Rn. split; intros [i Hi]; exists i.
      * rewrite Tc. tauto.
      * destruct Hi as [Hi1 Hi2]. rewrite Tc in Hi2. split; [|assumption].
        unfold in_range in *.
        destruct (N.le_gt_cases start i), (N.le_gt_cases i stop); try lia;
        exfalso; apply Hi2; (split; [assumption|lia]).
    + rewrite negb_true_iff. split.
      * intros -> i Hi. assert (false = true) by (apply Wc; eauto). discriminate.
      * intros Hn. destruct lf; [|reflexivity].
        destruct (proj1 Wc eq_refl) as [i Hi]. now apply Hn in Hi.
  - exists (negb ra), was, bs. unfold set_dirty_sec_changed. rewrite Ea, Es.
    split; [reflexivity|]. split; [assumption|]. split; [|assumption].
    rewrite negb_true_iff. split.
    + intros ->.
      (* not all in range hold: find the lowest by bounded search *)
      assert (D : forall n, (forall i, in_range start stop i -> i < n -> holds bits i) \/
                  (exists i, in_range start stop i /\ ~ holds bits i)).
      { intros n. induction n as [|n IH] using N.peano_ind.
        - left. intros i _ Hi. lia.
        - destruct IH as [IH|IH]; [|right; exact IH].
          destruct (N.testbit bits n) eqn:E.
          + left. intros i Hi Hn. destruct (N.eq_dec i n) as [->|]; [exact E|].
            apply IH; [assumption|lia].
          + destruct (N.le_gt_cases start n), (N.le_gt_cases n stop);
              try (left; intros i Hi Hn; destruct (N.eq_dec i n) as [->|];
                   [unfold in_range in Hi; lia|apply IH; [assumption|lia]]).
            right. exists n. split; [unfold in_range; lia|]. unfold holds. congruence. }
      destruct (D (stop + 1)) as [D'|[i [Hi1 Hi2]]].
      * assert (false = true) by (apply Ra; intros i Hi; apply D';
          [assumption|unfold in_range in Hi; lia]). discriminate.
      * exists i. rewrite Ts. tauto.
    + intros [i [Hi1 Hi2]]. destruct ra; [|reflexivity].
      rewrite Ts in Hi2. destruct Hi2; [contradiction|].
      exfalso. apply Hi1. now apply (proj1 Ra eq_refl).
  - exists (negb was), bs. unfold set_valid_sec_changed. rewrite Es.
    split; [reflexivity|]. split; [assumption|].
    rewrite negb_true_iff. split.
    + intros ->. split.
      * intros i Hi. assert (false = true) by (apply Ws; eauto). discriminate.
      * exists start. rewrite Ts. right. unfold in_range. lia.
    + intros [Hn _]. destruct was; [|reflexivity].
      destruct (proj1 Ws eq_refl) as [i Hi]. now apply Hn in Hi.
  - exists (rw && negb lf), lf, bc. unfold clear_valid_sec_changed. rewrite Ew, Ec.
    split; [reflexivity|]. split; [assumption|]. split; [|assumption].
    rewrite andb_true_iff, Rw', negb_true_iff. split; intros [A B]; (split; [assumption|]).
    + subst lf. intros i Hi. assert (false = true) by (apply Wc; eauto). discriminate.
    + destruct lf; [|reflexivity].
      destruct (proj1 Wc eq_refl) as [i Hi]. now apply B in Hi.
Qed.

Theorem C07_valid_dirty_exact w valid dirty start stop :
  line_width w -> in_line w valid -> in_line w dirty -> start <= stop < w ->
  (exists r v, bit_clear_valid_if_clean w valid dirty start stop = Some (r, v) /\
     (forall i, holds v i <-> holds valid i /\ (holds dirty i \/ ~ in_range start stop i)) /\
     (r = true <-> exists i, holds v i)) /\
  (exists d, bit_clear_dirty_if_invalid w valid dirty start stop = Some d /\
     (forall i, holds d i <-> holds dirty i /\ (holds valid i \/ ~ in_range start stop i))) /\
  (bit_check w valid dirty = true <-> forall i, holds dirty i -> holds valid i).
Proof.
  intros Hw Hv Hd [Hs Hl]. apply in_line_bm in Hv, Hd. split; [|split].
  - destruct (bit_clear_valid_if_clean_ok w valid dirty start stop Hw Hv Hd Hs Hl)
      as (r & v & E & B & T & R).
    exists r, v. split; [exact E|]. split; [|exact R].
    intros i. unfold holds. rewrite T, andb_true_iff, orb_true_iff, inr_niff. tauto.
  - destruct (bit_clear_dirty_if_invalid_ok w valid dirty start stop Hw Hv Hd Hs Hl)
      as (d & E & B & T).
    exists d. split; [exact E|].
    intros i. unfold holds. rewrite T, andb_true_iff, orb_true_iff, inr_niff. tauto.
  - now apply bit_check_ok.
Qed.

(** Non-vacuity: a 128-sector line, range crossing bit 64. *)
Example C07_example :
  line_width 128 /\ in_line 128 (2^100 + 1) /\ 60 <= 70 < 128 /\
  bit_set 128 (2^100 + 1) 60 70 = Some (true, 2^100 + 1 + (2^71 - 2^60)) /\
  bit_clear 8 255 2 5 = Some (true, 195) /\
  bit_test 8 195 1 5 false = Some true /\ bit_test 8 195 2 5 false = Some false /\
  bit_test 16 65535 3 15 true = Some true.
Proof.
  split; [unfold line_width; lia|]. split.
  - intros i Hi. destruct (N.lt_ge_cases i 128); [assumption|]. unfold holds in Hi.
    rewrite N.bits_above_log2 in Hi; [discriminate|]. apply N.lt_le_trans with 128; [|assumption].
    vm_compute. reflexivity.
  - split; [lia|]. vm_compute. repeat split.
Qed.

Print Assumptions C07_mark_exact.
Print Assumptions C07_unmark_exact.
Print Assumptions C07_test_exact.
Print Assumptions C07_test_and_modify_exact.
Print Assumptions C07_changed_exact.
Print Assumptions C07_valid_dirty_exact.

(** Lemmas about BitsModel. *)
From Coq Require Import NArith Bool Lia.
From Verif Require Import BitsModel.
Open Scope N_scope.

(** Supported bitmap widths. *)
Definition width (w : N) : Prop := w = 8 \/ w = 16 \/ w = 32 \/ w = 64 \/ w = 128.

Lemma width_pos w : width w -> 0 < w.
Proof. unfold width; lia. Qed.

Lemma ones_spec n i : N.testbit (N.ones n) i = (i <? n).
Proof.
  destruct (N.ltb_spec i n).
  - apply N.ones_spec_low; lia.
  - apply N.ones_spec_high; lia.
Qed.

Lemma land_0_testbit a : (a =? 0) = false <-> exists i, N.testbit a i = true.
Proof.
  rewrite N.eqb_neq. split.
  - intros H. exists (N.log2 a). now apply N.bit_log2.
  - intros [i H] ->. now rewrite N.bits_0 in H.
Qed.

Lemma negb_eqb0 a : negb (a =? 0) = true <-> exists i, N.testbit a i = true.
Proof. rewrite negb_true_iff. apply land_0_testbit. Qed.

Lemma mask_bits W (start stop i : N) :
  start <= stop -> stop < W ->
  N.testbit (N.land (N.shiftl (N.shiftr (N.ones W) (start + (W - 1 - stop))) start)
                    (N.ones W)) i
  = (start <=? i) && (i <=? stop).
Proof.
  intros Hs Hw. rewrite N.land_spec, ones_spec.
  destruct (N.leb_spec start i) as [Hi|Hi].
  - rewrite N.shiftl_spec_high' by assumption.
    rewrite N.shiftr_spec', ones_spec.
    destruct (N.leb_spec i stop); simpl;
      destruct (N.ltb_spec (i - start + (start + (W - 1 - stop))) W);
      destruct (N.ltb_spec i W); simpl; try reflexivity; lia.
  - rewrite N.shiftl_spec_low by assumption. reflexivity.
Qed.

Lemma get_mask_ok w start stop :
  width w -> start <= stop -> stop < w ->
  exists m, get_mask w start stop = Some m /\
    forall i, N.testbit m i = (start <=? i) && (i <=? stop).
Proof.
  intros Hw Hs Hl. unfold get_mask.
  destruct (N.eqb_spec w 128) as [->|Hn].
  - unfold get_mask128.
    replace (128 <=? start) with false by (symmetry; apply N.leb_gt; lia).
    replace (128 <=? stop) with false by (symmetry; apply N.leb_gt; lia).
    replace (stop <? start) with false by (symmetry; apply N.ltb_ge; lia).
    simpl orb. eexists; split; [reflexivity|]. intros i.
    exact (mask_bits 128 start stop i Hs Hl).
  - assert (Hw' : w <= 64) by (unfold width in Hw; lia).
    unfold get_mask64.
    replace (64 <=? start) with false by (symmetry; apply N.leb_gt; lia).
    replace (64 <=? stop) with false by (symmetry; apply N.leb_gt; lia).
    replace (stop <? start) with false by (symmetry; apply N.ltb_ge; lia).
    simpl orb. eexists; split; [reflexivity|]. intros i.
    rewrite N.land_spec.
    assert (Hl64 : stop < 64) by lia.
    pose proof (mask_bits 64 start stop i Hs Hl64) as M.
    change (64 - 1) with 63 in M. rewrite M, ones_spec.
    destruct (N.leb_spec start i), (N.leb_spec i stop), (N.ltb_spec i w);
      simpl; try reflexivity; lia.
Qed.

Lemma get_mask_bug w start stop :
  width w -> stop < start -> get_mask w start stop = None.
Proof.
  intros Hw Hs. unfold get_mask, get_mask64, get_mask128.
  assert (stop <? start = true) by (apply N.ltb_lt; lia).
  rewrite H, !orb_true_r. now destruct (w =? 128).
Qed.

(** A bitmap of [w] bits. *)
Definition bm (w bits : N) : Prop := forall i, w <= i -> N.testbit bits i = false.

Definition inr (start stop i : N) : bool := (start <=? i) && (i <=? stop).

Lemma cnot_bits w m i : N.testbit (cnot w m) i = xorb (N.testbit m i) (i <? w).
Proof. unfold cnot. now rewrite N.lxor_spec, ones_spec. Qed.

Lemma land_cnot_bits w bits m start stop i :
  bm w bits -> (forall j, N.testbit m j = inr start stop j) ->
  N.testbit (N.land bits (cnot w m)) i
  = N.testbit bits i && negb (inr start stop i).
Proof.
  intros Hb Hm. rewrite N.land_spec, cnot_bits, Hm.
  destruct (N.ltb_spec i w).
  - now rewrite xorb_true_r.
  - now rewrite Hb by assumption.
Qed.

Lemma test_all_spec m bits start stop :
  (forall j, N.testbit m j = inr start stop j) ->
  (m =? N.land bits m) = true <->
  (forall i, start <= i -> i <= stop -> N.testbit bits i = true).
Proof.
  intros Hm. rewrite N.eqb_eq. split.
  - intros E i H1 H2.
    assert (T : N.testbit m i = true).
    { rewrite Hm. unfold inr. apply andb_true_intro; split; apply N.leb_le; lia. }
    rewrite E, N.land_spec in T. apply andb_prop in T. tauto.
  - intros H. apply N.bits_inj. intros i. rewrite N.land_spec, Hm.
    destruct (inr start stop i) eqn:E; [|now rewrite andb_false_r].
    unfold inr in E. apply andb_prop in E. destruct E as [E1 E2].
    apply N.leb_le in E1, E2. now rewrite H.
Qed.

Lemma test_any_spec m bits start stop :
  (forall j, N.testbit m j = inr start stop j) ->
  negb (N.land bits m =? 0) = true <->
  (exists i, start <= i <= stop /\ N.testbit bits i = true).
Proof.
  intros Hm. rewrite negb_eqb0. split; intros [i H]; exists i.
  - rewrite N.land_spec, Hm in H. apply andb_prop in H. destruct H as [H1 H2].
    unfold inr in H2. apply andb_prop in H2. destruct H2 as [H2 H3].
    apply N.leb_le in H2, H3. tauto.
  - destruct H as [[H1 H2] H3]. rewrite N.land_spec, Hm, H3. unfold inr.
    simpl. apply andb_true_intro; split; apply N.leb_le; lia.
Qed.

Lemma bits_nonzero_spec bits :
  negb (bits =? 0) = true <-> exists i, N.testbit bits i = true.
Proof. apply negb_eqb0. Qed.

Lemma bm_land w a b : bm w a -> bm w (N.land a b).
Proof. intros H i Hi. rewrite N.land_spec, H by assumption. reflexivity. Qed.

Lemma bm_lor_mask w a m start stop :
  bm w a -> stop < w -> (forall j, N.testbit m j = inr start stop j) ->
  bm w (N.lor a m).
Proof.
  intros H Hs Hm i Hi. rewrite N.lor_spec, H, Hm by assumption. unfold inr.
  destruct (N.leb_spec i stop); [lia|]. now rewrite andb_false_r.
Qed.

Lemma iff_bool (b : bool) (P Q : Prop) : (b = true <-> P) -> (P <-> Q) -> (b = true <-> Q).
Proof. tauto. Qed.

Section Ops.
  Variables (w bits start stop : N).
  Hypotheses (Hw : width w) (Hb : bm w bits) (Hs : start <= stop) (Hl : stop < w).

  Lemma bit_test_all_ok :
    exists r, bit_test w bits start stop true = Some r /\
      (r = true <-> forall i, start <= i -> i <= stop -> N.testbit bits i = true).
  Proof.
    destruct (get_mask_ok w start stop Hw Hs Hl) as (m & E & Hm).
    unfold bit_test. rewrite E. eexists; split; [reflexivity|].
    now apply test_all_spec.
  Qed.

  Lemma bit_test_any_ok :
    exists r, bit_test w bits start stop false = Some r /\
      (r = true <-> exists i, start <= i <= stop /\ N.testbit bits i = true).
  Proof.
    destruct (get_mask_ok w start stop Hw Hs Hl) as (m & E & Hm).
    unfold bit_test. rewrite E. eexists; split; [reflexivity|].
    now apply test_any_spec.
  Qed.

  Lemma bit_test_out_ok :
    exists r, bit_test_out w bits start stop = Some r /\
      (r = true <-> exists i, (i < start \/ stop < i) /\ N.testbit bits i = true).
  Proof.
    destruct (get_mask_ok w start stop Hw Hs Hl) as (m & E & Hm).
    unfold bit_test_out. rewrite E. eexists; split; [reflexivity|].
    rewrite negb_eqb0. split; intros [i H]; exists i.
    - rewrite (land_cnot_bits w bits m start stop i Hb Hm) in H.
      apply andb_prop in H. destruct H as [H1 H2]. split; [|assumption].
      unfold inr in H2. apply negb_true_iff in H2.
      apply andb_false_iff in H2. rewrite !N.leb_gt in H2. lia.
    - rewrite (land_cnot_bits w bits m start stop i Hb Hm).
      destruct H as [H ->]. simpl. apply negb_true_iff. unfold inr.
      apply andb_false_iff. rewrite !N.leb_gt. lia.
  Qed.

  Lemma bit_clear_ok :
    exists r b, bit_clear w bits start stop = Some (r, b) /\ bm w b /\
      (forall i, N.testbit b i = N.testbit bits i && negb (inr start stop i)) /\
      (r = true <-> exists i, N.testbit b i = true).
  Proof.
    destruct (get_mask_ok w start stop Hw Hs Hl) as (m & E & Hm).
    unfold bit_clear. rewrite E. do 2 eexists; split; [reflexivity|].
    split; [now apply bm_land|]. split.
    - intros i. now apply land_cnot_bits.
    - apply negb_eqb0.
  Qed.

  Lemma bit_set_ok :
    exists r b, bit_set w bits start stop = Some (r, b) /\ bm w b /\
      (forall i, N.testbit b i = N.testbit bits i || inr start stop i) /\
      (r = true <-> exists i, N.testbit bits i = true).
  Proof.
    destruct (get_mask_ok w start stop Hw Hs Hl) as (m & E & Hm).
    unfold bit_set. rewrite E. do 2 eexists; split; [reflexivity|].
    split; [now apply bm_lor_mask with start stop|]. split.
    - intros i. now rewrite N.lor_spec, Hm.
    - apply negb_eqb0.
  Qed.

  Lemma bit_test_and_set_ok all :
    exists r b, bit_test_and_set w bits start stop all = Some (r, b) /\ bm w b /\
      bit_test w bits start stop all = Some r /\
      (forall i, N.testbit b i = N.testbit bits i || inr start stop i).
  Proof.
    destruct (get_mask_ok w start stop Hw Hs Hl) as (m & E & Hm).
    unfold bit_test_and_set, bit_test. rewrite E. do 2 eexists; split; [reflexivity|].
    split; [now apply bm_lor_mask with start stop|]. split; [reflexivity|].
    intros i. now rewrite N.lor_spec, Hm.
  Qed.

  Lemma bit_test_and_clear_ok all :
    exists r b, bit_test_and_clear w bits start stop all = Some (r, b) /\ bm w b /\
      bit_test w bits start stop all = Some r /\
      (forall i, N.testbit b i = N.testbit bits i && negb (inr start stop i)).
  Proof.
    destruct (get_mask_ok w start stop Hw Hs Hl) as (m & E & Hm).
    unfold bit_test_and_clear, bit_test. rewrite E. do 2 eexists; split; [reflexivity|].
    split; [now apply bm_land|]. split; [reflexivity|].
    intros i. now apply land_cnot_bits.
  Qed.
End Ops.

Lemma bit_clear_valid_if_clean_ok w valid dirty start stop :
  width w -> bm w valid -> bm w dirty -> start <= stop -> stop < w ->
  exists r v, bit_clear_valid_if_clean w valid dirty start stop = Some (r, v) /\
    bm w v /\
    (forall i, N.testbit v i =
       N.testbit valid i && (N.testbit dirty i || negb (inr start stop i))) /\
    (r = true <-> exists i, N.testbit v i = true).
Proof.
  intros Hw Hv Hd Hs Hl.
  destruct (get_mask_ok w start stop Hw Hs Hl) as (m & E & Hm).
  unfold bit_clear_valid_if_clean. rewrite E. do 2 eexists; split; [reflexivity|].
  split; [now apply bm_land|]. split.
  - intros i. rewrite N.land_spec, N.lor_spec, N.land_spec, cnot_bits, Hm.
    fold (inr start stop i).
    destruct (N.ltb_spec i w).
    + destruct (N.testbit valid i), (N.testbit dirty i), (inr start stop i); reflexivity.
    + now rewrite Hv by assumption.
  - apply negb_eqb0.
Qed.

Lemma bit_clear_dirty_if_invalid_ok w valid dirty start stop :
  width w -> bm w valid -> bm w dirty -> start <= stop -> stop < w ->
  exists d, bit_clear_dirty_if_invalid w valid dirty start stop = Some d /\
    bm w d /\
    (forall i, N.testbit d i =
       N.testbit dirty i && (N.testbit valid i || negb (inr start stop i))).
Proof.
  intros Hw Hv Hd Hs Hl.
  destruct (get_mask_ok w start stop Hw Hs Hl) as (m & E & Hm).
  unfold bit_clear_dirty_if_invalid. rewrite E. eexists; split; [reflexivity|].
  split; [now apply bm_land|].
  intros i. rewrite N.land_spec, N.lor_spec, N.land_spec, cnot_bits, Hm.
  fold (inr start stop i).
  destruct (N.ltb_spec i w).
  - destruct (N.testbit valid i), (N.testbit dirty i), (inr start stop i); reflexivity.
  - now rewrite Hd by assumption.
Qed.

Lemma bit_check_ok w valid dirty :
  bm w valid -> bm w dirty ->
  bit_check w valid dirty = true <->
  (forall i, N.testbit dirty i = true -> N.testbit valid i = true).
Proof.
  intros Hv Hd. unfold bit_check. rewrite N.eqb_eq. split.
  - intros E i Hi.
    assert (T : N.testbit (N.land dirty (cnot w valid)) i = false)
      by (rewrite E; apply N.bits_0).
    rewrite N.land_spec, cnot_bits, Hi in T. simpl in T.
    destruct (N.ltb_spec i w).
    + rewrite xorb_true_r in T. now apply negb_false_iff in T.
    + now rewrite Hd in Hi.
  - intros H. apply N.bits_inj_0. intros i. rewrite N.land_spec, cnot_bits.
    destruct (N.testbit dirty i) eqn:E; [|reflexivity]. rewrite (H _ E).
    destruct (N.ltb_spec i w); [reflexivity|].
    now rewrite Hd in E by assumption.
Qed.

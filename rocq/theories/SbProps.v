(** Property C24: saving the configuration is atomic with respect to a crash. *)
From Coq Require Import List Bool Arith Lia.
From Verif Require Import SbModel.
Import ListNotations.
Open Scope nat_scope.

Section Spec.
Variable np : nat -> nat.
Variable crc : nat -> list nat -> nat.

(** What loading has to return for a configuration: its superblock and all its pages. *)
Definition image (c : config) : nat * list (list nat) :=
  (c_pay c, map (fun k => map (c_pg c k) (seq 0 (np k))) (seq 0 3)).

(** A device formatted with configuration [c], the superblock naming copy [f]. *)
Definition formatted (c : config) (f : bool) (s : st) : Prop :=
  pend s = [] /\ flap s = f /\ s_pay (d_sb (dk s)) = c_pay c /\ s_flap (d_sb (dk s)) = f /\
  (forall k, k < 3 -> s_sum (d_sb (dk s)) k = crc k (map (c_pg c k) (seq 0 (np k)))) /\
  (forall k p, k < 3 -> p < np k -> d_pg (dk s) k f p = c_pg c k p).

(** The configuration of the last successful save of a history. *)
Fixpoint last_good (c0 : config) (h : list (config * outcome)) : config :=
  match h with
  | [] => c0
  | (c, Good) :: h => last_good c h
  | (_, Bad _ _) :: h => last_good c0 h
  end.

(** Index of the superblock write among the steps of a save. *)
Definition sb_step : nat := np 0 + np 1 + np 2 + 2.
(** The only failures: the write of the superblock is refused and nothing is written. *)
Definition benign (h : list (config * outcome)) : Prop :=
  Forall (fun co => match snd co with Good => True | Bad i did => i = sb_step /\ did = false end) h.

(** The device after a crash at step [j] of a save of [c]. *)
Definition crash_in (c : config) (j : nat) (m : list bool) (s : st) : disk :=
  crash m (execs (firstn j (prog np crc c (flap s))) s).
End Spec.

Section Proofs.
Variable np : nat -> nat.
Variable crc : nat -> list nat -> nat.

Lemma apply_all_app l1 l2 d : apply_all (l1 ++ l2) d = apply_all l2 (apply_all l1 d).
Proof. unfold apply_all. apply fold_left_app. Qed.

Lemma execs_app l1 l2 s : execs (l1 ++ l2) s = execs l2 (execs l1 s).
Proof. unfold execs. apply fold_left_app. Qed.

Lemma execs_wr ws s : execs (map Wr ws) s = {| dk := dk s; pend := pend s ++ ws; flap := flap s |}.
Proof.
  revert s; induction ws as [|w ws IH]; intros s; simpl.
  - rewrite app_nil_r; destruct s; reflexivity.
  - unfold execs in *; simpl. rewrite IH. cbn [dk pend flap exec]. rewrite <- app_assoc. reflexivity.
Qed.

Definition only (copy : bool) (ws : list wr) : Prop :=
  Forall (fun w => match w with WSeg _ c _ _ => c = copy | WSb _ => False end) ws.

Lemma pick_only copy m ws : only copy ws -> only copy (pick m ws).
Proof.
  revert m; induction ws as [|w ws IH]; intros [|b m] H; simpl; try constructor.
  inversion H; subst. destruct b; [constructor; [assumption|]|]; apply IH; assumption.
Qed.

Lemma firstn_only copy n ws : only copy ws -> only copy (firstn n ws).
Proof. revert n; induction ws as [|w ws IH]; intros [|n] H; simpl; try constructor; inversion H; subst; [assumption|apply IH; assumption]. Qed.

Lemma only_other copy ws d : only copy ws ->
  d_sb (apply_all ws d) = d_sb d /\ forall k p, d_pg (apply_all ws d) k (negb copy) p = d_pg d k (negb copy) p.
Proof.
  revert d; induction ws as [|w ws IH]; intros d H; simpl; [split; reflexivity|].
  inversion H as [|? ? Hw Hws]; subst. destruct w as [k c p v|x]; [subst|contradiction].
  destruct (IH (apply (WSeg k copy p v) d) Hws) as [I1 I2]. split; [exact I1|].
  intros k' p'. unfold apply_all in *; simpl in *. rewrite I2.
  replace (Bool.eqb (negb copy) copy) with false by (destruct copy; reflexivity).
  rewrite andb_false_r. reflexivity.
Qed.

Lemma seg_only c copy : only copy (seg_writes np c copy).
Proof.
  unfold seg_writes. simpl. rewrite app_nil_r.
  assert (H : forall k, only copy (map (fun p => WSeg k copy p (c_pg c k p)) (seq 0 (np k)))).
  { intro k. apply Forall_forall. intros w Hw. apply in_map_iff in Hw. destruct Hw as [p [<- _]]. reflexivity. }
  unfold only. rewrite !Forall_app. repeat split; apply H.
Qed.

(** Writing the pages of one segment. *)
Lemma one_seg c copy k n d :
  let d' := apply_all (map (fun p => WSeg k copy p (c_pg c k p)) (seq 0 n)) d in
  forall k' p, d_pg d' k' copy p = if (k' =? k) && (p <? n) then c_pg c k p else d_pg d k' copy p.
Proof.
  induction n as [|n IH]; intros d' k' p.
  - subst d'. simpl. rewrite andb_false_r. reflexivity.
  - subst d'. rewrite seq_S, map_app, apply_all_app. simpl. unfold apply_all at 1. simpl.
    rewrite eqb_reflx, andb_true_r. rewrite IH.
    destruct (Nat.eqb_spec k' k); simpl; [subst|reflexivity].
    destruct (Nat.eqb_spec p n); simpl.
    + subst. replace (n <? S n) with true by (symmetry; apply Nat.ltb_lt; lia). reflexivity.
    + destruct (Nat.ltb_spec p n), (Nat.ltb_spec p (S n)); try reflexivity; lia.
Qed.

Lemma seg_written c copy d k p : k < 3 -> p < np k ->
  d_pg (apply_all (seg_writes np c copy) d) k copy p = c_pg c k p.
Proof.
  intros Hk Hp. unfold seg_writes.
  change (concat _) with (map (fun p => WSeg 0 copy p (c_pg c 0 p)) (seq 0 (np 0)) ++
    map (fun p => WSeg 1 copy p (c_pg c 1 p)) (seq 0 (np 1)) ++
    map (fun p => WSeg 2 copy p (c_pg c 2 p)) (seq 0 (np 2)) ++ []).
  rewrite app_nil_r, !apply_all_app, !one_seg.
  apply Nat.ltb_lt in Hp.
  destruct k as [|[|[|k]]]; try lia; simpl; rewrite Hp; reflexivity.
Qed.

Lemma seg_len c copy : length (seg_writes np c copy) = np 0 + np 1 + np 2.
Proof. unfold seg_writes. simpl. rewrite app_nil_r, !app_length, !map_length, !seq_length. lia. Qed.

Lemma load_formatted c f d :
  s_pay (d_sb d) = c_pay c -> s_flap (d_sb d) = f ->
  (forall k, k < 3 -> s_sum (d_sb d) k = crc k (map (c_pg c k) (seq 0 (np k)))) ->
  (forall k p, k < 3 -> p < np k -> d_pg d k f p = c_pg c k p) ->
  load np crc d = Some (image np c).
Proof.
  intros H1 H2 H3 H4. unfold load. rewrite H2, H1.
  assert (E : forall k, k < 3 -> pages np (fun k => d_pg d k f) k = map (c_pg c k) (seq 0 (np k))).
  { intros k Hk. unfold pages. apply map_ext_in. intros p Hp. apply in_seq in Hp. apply H4; lia. }
  change (seq 0 3) with [0; 1; 2]. cbn [forallb map].
  rewrite !E, !H3 by lia. rewrite !Nat.eqb_refl. reflexivity.
Qed.

(** The three phases of a save. *)
Lemma prog_prefix c f j : 
  (exists n, firstn j (prog np crc c f) = map Wr (firstn n (seg_writes np c (negb f)))) \/
  (exists n, n < 4 /\ firstn j (prog np crc c f) = map Wr (seg_writes np c (negb f)) ++ firstn (S n) [Fl; Flap; Wr (WSb (sb_of np crc c (negb f))); Fl]).
Proof.
  unfold prog. rewrite firstn_app, map_length.
  destruct (Nat.le_gt_cases j (length (seg_writes np c (negb f)))) as [H|H].
  - left. exists j. replace (j - length _) with 0 by lia. simpl. rewrite app_nil_r, firstn_map. reflexivity.
  - right. rewrite firstn_all2 by (rewrite map_length; lia).
    set (x := j - length _) in *. assert (0 < x) by (unfold x; lia). clearbody x.
    exists (if x <? 4 then x - 1 else 3). destruct (Nat.ltb_spec x 4).
    + split; [lia|]. replace (S (x - 1)) with x by lia. reflexivity.
    + split; [lia|]. rewrite !firstn_all2 by (simpl; lia). reflexivity.
Qed.

Lemma exec_good c0 f c s : formatted np crc c0 f s -> formatted np crc c (negb f) (execs (prog np crc c (flap s)) s).
Proof.
  intros [P [F [H1 [H2 [H3 H4]]]]]. unfold prog. rewrite execs_app, execs_wr, P, F. cbn [app].
  unfold execs. cbn [fold_left exec dk pend flap app].
  destruct (only_other (negb f) (seg_writes np c (negb f)) (dk s) (seg_only c (negb f))) as [O1 O2].
  unfold apply_all at 1. cbn [fold_left apply].
  unfold formatted. cbn [dk pend flap d_sb d_pg sb_of s_pay s_flap s_sum].
  refine (conj eq_refl (conj _ (conj eq_refl (conj eq_refl (conj _ _))))).
  - reflexivity.
  - intros; reflexivity.
  - intros k p Hk Hp. unfold apply_all; cbn [fold_left apply d_pg]. apply (seg_written c (negb f) (dk s) k p Hk Hp).
Qed.

Lemma formatted_dk c f s s' : formatted np crc c f s -> pend s' = [] -> flap s' = f ->
  d_sb (dk s') = d_sb (dk s) -> (forall k p, d_pg (dk s') k f p = d_pg (dk s) k f p) -> formatted np crc c f s'.
Proof.
  intros [P [F [H1 [H2 [H3 H4]]]]] P' F' E1 E2. unfold formatted. rewrite E1.
  refine (conj P' (conj F' (conj H1 (conj H2 (conj H3 _))))). intros. rewrite E2. apply H4; assumption.
Qed.

Lemma exec_bad c0 f c s : formatted np crc c0 f s -> formatted np crc c0 f (save np crc c (Bad (sb_step np) false) s).
Proof.
  intro H. pose proof H as [P [F _]]. unfold save, sb_step.
  set (l := prog np crc c (flap s)).
  assert (E : firstn (np 0 + np 1 + np 2 + 2) l = map Wr (seg_writes np c (negb f)) ++ [Fl; Flap]).
  { unfold l, prog. rewrite F, firstn_app, map_length, seg_len.
    replace (np 0 + np 1 + np 2 + 2 - (np 0 + np 1 + np 2)) with 2 by lia.
    rewrite firstn_all2 by (rewrite map_length, seg_len; lia). reflexivity. }
  assert (N : nth_error l (np 0 + np 1 + np 2 + 2) = Some (Wr (WSb (sb_of np crc c (negb f))))).
  { unfold l, prog. rewrite F, nth_error_app2 by (rewrite map_length, seg_len; lia).
    rewrite map_length, seg_len. replace (np 0 + np 1 + np 2 + 2 - (np 0 + np 1 + np 2)) with 2 by lia. reflexivity. }
  rewrite E, N. rewrite execs_app, execs_wr, P, F. cbn [app].
  unfold execs. cbn [fold_left exec dk pend flap].
  destruct (only_other (negb f) (seg_writes np c (negb f)) (dk s) (seg_only c (negb f))) as [O1 O2].
  rewrite negb_involutive in O2.
  apply formatted_dk with (s := s); cbn [dk pend flap]; auto. apply negb_involutive.
Qed.

Lemma history c0 f h s : formatted np crc c0 f s -> benign np h ->
  exists f', formatted np crc (last_good c0 h) f' (saves np crc h s).
Proof.
  revert c0 f s. induction h as [|[c o] h IH]; intros c0 f s H B; simpl; [eauto|].
  inversion B as [|? ? B1 B2]; subst. cbn [snd] in B1. unfold saves; cbn [fold_left fst snd].
  destruct o as [|i did].
  - apply (IH c (negb f)); [|exact B2]. apply (exec_good c0 f c s H).
  - destruct B1 as [-> ->]. apply (IH c0 f); [|exact B2]. apply exec_bad; assumption.
Qed.

Lemma crash_atomic c0 f c s j m : formatted np crc c0 f s ->
  let d := crash_in np crc c j m s in
  load np crc d = Some (image np c0) \/ load np crc d = Some (image np c).
Proof.
  intros H. pose proof H as [P [F [H1 [H2 [H3 H4]]]]]. cbv zeta. unfold crash_in. rewrite F.
  destruct (only_other (negb f) (seg_writes np c (negb f)) (dk s) (seg_only c (negb f))) as [O1 O2].
  rewrite negb_involutive in O2.
  destruct (prog_prefix c f j) as [[n E]|[n [Hn E]]]; rewrite E.
  - left. rewrite execs_wr, P. unfold crash. cbn [dk pend app].
    destruct (only_other (negb f) (pick m (firstn n (seg_writes np c (negb f)))) (dk s)) as [Q1 Q2].
    { apply pick_only, firstn_only, seg_only. }
    rewrite negb_involutive in Q2.
    apply load_formatted with (f := f); rewrite ?Q1; auto. intros. rewrite Q2. auto.
  - rewrite execs_app, execs_wr, P. cbn [app].
    assert (OLD : load np crc (apply_all (seg_writes np c (negb f)) (dk s)) = Some (image np c0)).
    { apply load_formatted with (f := f); rewrite ?O1; auto. intros. rewrite O2. auto. }
    assert (NEW : load np crc (apply (WSb (sb_of np crc c (negb f))) (apply_all (seg_writes np c (negb f)) (dk s))) = Some (image np c)).
    { apply load_formatted with (f := negb f); cbn [apply d_sb d_pg sb_of s_pay s_flap s_sum]; auto.
      intros. apply seg_written; assumption. }
    destruct n as [|[|[|[|n]]]]; try lia; cbn [firstn]; unfold execs; cbn [fold_left exec dk pend flap app]; unfold crash; cbn [dk pend].
    + left. destruct m; exact OLD.
    + left. destruct m; exact OLD.
    + destruct m as [|[|] m]; cbn [pick]; [left; exact OLD| |left; destruct m; exact OLD].
      right. destruct m; exact NEW.
    + right. destruct m; exact NEW.
Qed.

(** C24, for histories in which the only failures are superblock writes that the device
    refuses without writing anything: a crash at any step of a save, with any part of the
    volatile cache written, leaves the complete configuration of the last successful save or
    of the save in progress.  Nothing is assumed of the checksum or of the segments' sizes. *)
Theorem C24_crash_atomic_partial c0 f s h c j m :
  formatted np crc c0 f s -> benign np h ->
  let d := crash_in np crc c j m (saves np crc h s) in
  load np crc d = Some (image np (last_good c0 h)) \/ load np crc d = Some (image np c).
Proof. intros H B. destruct (history c0 f h s H B) as [f' Hf]. apply (crash_atomic _ f' c _ j m Hf). Qed.

(** Between saves exactly the last successful configuration is found. *)
Theorem C24_saved_partial c0 f s h m :
  formatted np crc c0 f s -> benign np h ->
  load np crc (crash m (saves np crc h s)) = Some (image np (last_good c0 h)).
Proof.
  intros H B. destruct (history c0 f h s H B) as [f' [P [F [H1 [H2 [H3 H4]]]]]].
  unfold crash. rewrite P. replace (pick m []) with (@nil wr) by (destruct m; reflexivity).
  apply load_formatted with (f := f'); assumption.
Qed.
End Proofs.

(** ** Witnesses *)
Definition cfg (n : nat) : config := {| c_pay := n; c_pg := fun k p => n |}.
Definition np2 (k : nat) : nat := 2.
Definition start (crc : nat -> list nat -> nat) : st :=
  {| dk := {| d_sb := sb_of np2 crc (cfg 0) false; d_pg := fun k c p => 0 |}; pend := []; flap := false |}.

Example start_formatted crc : formatted np2 crc (cfg 0) false (start crc).
Proof.
  unfold formatted, start; cbn [dk pend flap d_sb d_pg sb_of s_pay s_flap s_sum cfg c_pay c_pg].
  refine (conj eq_refl (conj eq_refl (conj eq_refl (conj eq_refl (conj _ _))))); intros; reflexivity.
Qed.
(** A history with a success and a harmless failure, then a crash half-way through the next save. *)
Example benign_ex : benign np2 [(cfg 1, Good); (cfg 2, Bad 8 false); (cfg 3, Good)].
Proof. repeat constructor. Qed.
Definition sumcrc (k : nat) (l : list nat) : nat := fold_left (fun a x => 3 * a + x) l k.
Example crash_old : load np2 sumcrc (crash_in np2 sumcrc (cfg 5) 9 [false] (saves np2 sumcrc [(cfg 1, Good); (cfg 2, Bad 8 false)] (start sumcrc))) = Some (1, [[1; 1]; [1; 1]; [1; 1]]).
Proof. vm_compute. reflexivity. Qed.
Example crash_new : load np2 sumcrc (crash_in np2 sumcrc (cfg 5) 9 [true] (saves np2 sumcrc [(cfg 1, Good); (cfg 2, Bad 8 false)] (start sumcrc))) = Some (5, [[5; 5]; [5; 5]; [5; 5]]).
Proof. vm_compute. reflexivity. Qed.

(** ** C24 is false for the other failures *)
Definition ok_after (c0 : config) (h : list (config * outcome)) (c : config) (r : option (nat * list (list nat))) : Prop :=
  r = Some (image np2 (last_good c0 h)) \/ r = Some (image np2 c).

(** The finish handler moves flapping_idx back although it was not moved forward yet: a save
    whose very first page write was refused makes the next save overwrite the copy the
    superblock on the device names.  With any checksum, a crash leaves a mixture of two
    configurations, or nothing that loads. *)
Theorem C24_segment_error_refuted : forall crc, exists h c j m,
  h = [(cfg 1, Bad 0 false)] /\
  ~ ok_after (cfg 0) h c (load np2 crc (crash_in np2 crc c j m (saves np2 crc h (start crc)))).
Proof.
  intro crc. exists [(cfg 1, Bad 0 false)], (cfg 2), 6, [true]. split; [reflexivity|].
  unfold ok_after. cbn [last_good]. unfold load. intros [E|E];
  destruct (forallb _ _) in E; [|discriminate| |discriminate]; inversion E.
Qed.

(** The same happens when the superblock was written but the write, or the flush after it,
    was reported as failed: flapping_idx is moved back, while the device names the new copy. *)
Theorem C24_superblock_error_refuted : forall crc did, exists h c j m,
  h = [(cfg 1, if did : bool then Bad 8 true else Bad 9 false)] /\
  let r := load np2 crc (crash_in np2 crc c j m (saves np2 crc h (start crc))) in
  ~ ok_after (cfg 0) h c r /\ r <> Some (image np2 (cfg 1)).
Proof.
  intros crc did. exists [(cfg 1, if did then Bad 8 true else Bad 9 false)], (cfg 2), 6, [true; true; false; true]. split; [reflexivity|].
  cbv zeta. unfold ok_after. destruct did; cbn [last_good]; (split; [intros [E|E]|intro E]);
  unfold load in E; destruct (forallb _ _) in E; try discriminate; vm_compute in E; inversion E.
Qed.

(** With a checksum that tells the two apart nothing loads at all: the cache is lost. *)
Example C24_nothing_loads :
  load np2 sumcrc (crash_in np2 sumcrc (cfg 2) 6 [true] (saves np2 sumcrc [(cfg 1, Bad 0 false)] (start sumcrc))) = None.
Proof. vm_compute. reflexivity. Qed.

Print Assumptions C24_crash_atomic_partial.
Print Assumptions C24_saved_partial.
Print Assumptions C24_segment_error_refuted.
Print Assumptions C24_superblock_error_refuted.

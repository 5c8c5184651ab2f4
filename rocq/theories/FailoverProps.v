(** C71: a standby cache takes over with exactly what the device holds. *)
From Coq Require Import NArith List Bool Arith Lia Permutation.
From Verif Require Import PassiveModel PassiveProps SaveModel FailoverModel.
Import ListNotations.
Open Scope N_scope.

(** ** What is claimed *)
(** Where an entry of the collision segment lies, on the device and in memory *)
Definition esz (P : par) : nat := (10 + w P + w P)%nat.
Definition on_dev (P : par) (d : N -> N) (l : N) : list N :=
  let g := coll (geom P) in rd d ((off g + l / eip g) * PAGE + (l mod eip g) * es g) (esz P).
Definition in_ram (P : par) (m : N -> N) (l : N) : list N := rd m (l * N.of_nat (esz P)) (esz P).
Definition par_ok (P : par) : Prop :=
  geo_ok (geom P) /\ off (sb (geom P)) = 0 /\ es (sb (geom P)) * eip (sb (geom P)) = PAGE /\
  es (coll (geom P)) = N.of_nat (esz P) /\ N.of_nat (nl P) <= pages (coll (geom P)) * eip (coll (geom P)) /\
  pages (sb (geom P)) <= off (coll (geom P)) /\
  16 <= ckoff P /\ ckoff P <= sbsize P /\ sbsize P <= pages (sb (geom P)) * PAGE /\
  (forall m ax, In ax (cfgw P m) -> pages (sb (geom P)) * PAGE <= fst ax /\
     (fst ax + N.of_nat (length (snd ax)) <= off (coll (geom P)) * PAGE \/
      (off (coll (geom P)) + pages (coll (geom P))) * PAGE <= fst ax)) /\
  (forall d, good P d = true -> exists f, f < 2 /\ rd d 12 4 = le4 f).
(** Byte k of the valid bits and of the dirty bits *)
Definition vbyte (x : list N) (k : nat) : N := nth (10 + k) x 0.
Definition dbyte (w : nat) (x : list N) (k : nat) : N := nth (10 + w + k) x 0.
Definition core_of (x : list N) : N := nth 8 x 0 + 256 * nth 9 x 0.
Definition consistent (w : nat) (x : list N) : Prop :=
  (forall k i, (k < w)%nat -> N.testbit (dbyte w x k) i = true -> N.testbit (vbyte x k) i = true) /\ core_of x <= 4096.
Definition holds_dirty (w : nat) (x : list N) : Prop :=
  core_of x <> 4096 /\ exists k i, (k < w)%nat /\ N.testbit (dbyte w x k) i = true.
(** What must be in memory for a line whose entry on the device is x: the dirty sectors, mapped as there, and nothing else *)
Definition takes_over (w : nat) (x y : list N) : Prop :=
  length y = length x /\
  (holds_dirty w x -> firstn 10 y = firstn 10 x /\ forall k, (k < w)%nat -> vbyte y k = dbyte w x k /\ dbyte w y k = dbyte w x k) /\
  (~ holds_dirty w x -> core_of y = 4096 /\ forall k, (k < w)%nat -> vbyte y k = 0 /\ dbyte w y k = 0).
(** The device's contents can be taken over *)
Definition acceptable (P : par) (d : N -> N) : Prop :=
  rd d 8 4 = le4 (version P) /\ good P d = true /\
  forall l, l < N.of_nat (nl P) -> consistent (w P) (on_dev P d l) /\
    (holds_dirty (w P) (on_dev P d l) -> cores P d (core_of (on_dev P d l)) = true).
(** The line of an event; every line is handed over once, to the right place *)
Definition line_of (e : ev) : N := match e with Free l => l | Mapped l _ _ => l end.
Definition handed_right (P : par) (d : N -> N) (evs : list ev) : Prop :=
  Permutation (map line_of evs) (map N.of_nat (seq 0 (nl P))) /\
  forall e, In e evs -> match e with
    | Free l => ~ holds_dirty (w P) (on_dev P d l)
    | Mapped l c ln => holds_dirty (w P) (on_dev P d l) /\ c = core_of (on_dev P d l) /\ ln = firstn 8 (on_dev P d l)
    end.
(** Histories: how a standby instance starts, writes the peer makes through it, attempts to activate that fail before
    the shutdown status is written *)
Inductive starts (P : par) : fo -> Prop :=
| starts_load d s : standby_load P d = Some s -> starts P s
| starts_attach sb0 d : starts P (standby_attach P sb0 d).
Fixpoint writes (P : par) (l : list io) (s : fo) : option fo :=
  match l with [] => Some s | i :: l => match volume_write P i s with Some s => writes P l s | None => None end end.
Definition early (f : fails) : Prop := f_open f || f_read f || f_load f || f_mid f || f_clean f = true.
Definition quiet (f : fails) : Prop := f_open f || f_read f || f_load f || f_mid f || f_clean f = false /\ f_stat f = SNone.
Fixpoint attempts (P : par) (fs : list fails) (s : fo) : option fo :=
  match fs with [] => Some s | f :: fs => match activate P f s with Some (_, s) => attempts P fs s | None => None end end.

(** ** Bytes *)
Lemma rd_length m b n : length (rd m b n) = n.
Proof. unfold rd. rewrite map_length, seq_length. reflexivity. Qed.
Lemma rd_nth m b n k : (k < n)%nat -> nth k (rd m b n) 0 = m (b + N.of_nat k).
Proof.
  intros H. unfold rd. rewrite (nth_indep _ 0 (m (b + N.of_nat 0))) by (rewrite map_length, seq_length; exact H).
  rewrite (map_nth (fun k => m (b + N.of_nat k))), seq_nth by exact H. reflexivity.
Qed.
Lemma list_ext (x y : list N) : length x = length y -> (forall k, (k < length x)%nat -> nth k x 0 = nth k y 0) -> x = y.
Proof. intros L H. apply (nth_ext x y 0 0 L H). Qed.
Lemma rd_ext m m' b b' n : (forall k, k < N.of_nat n -> m (b + k) = m' (b' + k)) -> rd m b n = rd m' b' n.
Proof.
  intros H. apply list_ext; [rewrite !rd_length; reflexivity|]. intros k K. rewrite rd_length in K.
  rewrite !rd_nth by exact K. apply H. lia.
Qed.
Lemma wr_in m b x k : k < N.of_nat (length x) -> wr m b x (b + k) = nth (N.to_nat k) x 0.
Proof.
  intros H. unfold wr. replace (b <=? b + k) with true by (symmetry; apply N.leb_le; lia).
  replace (b + k <? b + N.of_nat (length x)) with true by (symmetry; apply N.ltb_lt; lia). cbn [andb].
  replace (b + k - b) with k by lia. reflexivity.
Qed.
Lemma wr_out m b x a : a < b \/ b + N.of_nat (length x) <= a -> wr m b x a = m a.
Proof.
  intros H. unfold wr. destruct (N.leb_spec b a); [|reflexivity].
  destruct (N.ltb_spec a (b + N.of_nat (length x))); [lia | reflexivity].
Qed.
Lemma rd_wr m b x n : length x = n -> rd (wr m b x) b n = x.
Proof.
  intros <-. apply list_ext; [apply rd_length|]. intros k K. rewrite rd_length in K. rewrite rd_nth by exact K.
  rewrite wr_in by lia. rewrite Nat2N.id. reflexivity.
Qed.
Lemma rd_wr_out m b x b' n : b' + N.of_nat n <= b \/ b + N.of_nat (length x) <= b' -> rd (wr m b x) b' n = rd m b' n.
Proof. intros H. apply rd_ext. intros k K. apply wr_out. lia. Qed.
Lemma slots (z l l' : N) : l <> l' -> l' * z + z <= l * z \/ l * z + z <= l' * z.
Proof.
  intros H. destruct (N.lt_ge_cases l l').
  - right. assert ((l + 1) * z <= l' * z) by (apply N.mul_le_mono_r; lia). lia.
  - left. assert ((l' + 1) * z <= l * z) by (apply N.mul_le_mono_r; lia). lia.
Qed.

(** ** One entry *)
Definition bad (w : nat) (x : entry) : bool := negb (check w x) || (CORE_MAX <? e_core x).
Definition idle (w : nat) (x : entry) : bool := negb (fst (clear_valid_if_clean w x)) || (e_core x =? CORE_MAX).
Definition nrm (w : nat) (x : entry) : entry := if bad w x then x else if idle w x then reset w else snd (clear_valid_if_clean w x).

Lemma reset_length w : length (reset w) = (10 + w + w)%nat.
Proof. unfold reset. rewrite !app_length, !repeat_length. cbn [length]. lia. Qed.
Lemma part_length w a (x : list N) : (a + w <= length x)%nat -> length (firstn w (skipn a x)) = w.
Proof. intros H. rewrite firstn_length, skipn_length. lia. Qed.
Lemma nth_part w a (x : list N) k : (k < w)%nat -> nth k (firstn w (skipn a x)) 0 = nth (a + k) x 0.
Proof.
  intros H. destruct (Nat.lt_ge_cases (a + k) (length x)) as [L|L].
  - rewrite <- (firstn_skipn a x) at 2. rewrite app_nth2 by (rewrite firstn_length; lia).
    rewrite firstn_length, Nat.min_l by lia. replace (a + k - a)%nat with k by lia.
    rewrite <- (firstn_skipn w (skipn a x)) at 2.
    rewrite app_nth1 by (rewrite firstn_length, skipn_length; lia). reflexivity.
  - rewrite !nth_overflow; [reflexivity | exact L |]. rewrite firstn_length, skipn_length. lia.
Qed.
Lemma nth_combine (f : N -> N -> N) (a b : list N) k : (k < length a)%nat -> length a = length b ->
  nth k (map (fun p => f (fst p) (snd p)) (combine a b)) 0 = f (nth k a 0) (nth k b 0).
Proof.
  intros H L. revert b k H L. induction a as [|x a IH]; intros [|y b] k H L; cbn [length] in *; try lia.
  destruct k as [|k]; cbn [combine map nth fst snd]; [reflexivity|]. apply IH; lia.
Qed.
Lemma check_spec w x : length x = (10 + w + w)%nat ->
  (check w x = true <-> forall k, (k < w)%nat -> N.ldiff (dbyte w x k) (vbyte x k) = 0).
Proof.
  intros L. unfold check, dbyte, vbyte.
  assert (Ld : length (e_dirty w x) = w) by (apply part_length; lia).
  assert (Lv : length (e_valid w x) = w) by (apply part_length; lia).
  split.
  - intros H k K. rewrite forallb_forall in H.
    assert (C : length (combine (e_dirty w x) (e_valid w x)) = w) by (rewrite combine_length; lia).
    assert (I := nth_In (combine (e_dirty w x) (e_valid w x)) (0, 0) (n := k) ltac:(lia)).
    rewrite combine_nth in I by lia. specialize (H _ I). cbn [fst snd] in H. apply N.eqb_eq in H.
    unfold e_dirty, e_valid in H. rewrite !nth_part in H by exact K. exact H.
  - intros H. apply forallb_forall. intros (a, b) I.
    destruct (In_nth _ _ (0, 0) I) as (k & K & E). rewrite combine_length in K.
    rewrite combine_nth in E by lia. injection E as <- <-. cbn [fst snd]. apply N.eqb_eq.
    unfold e_dirty, e_valid. rewrite !nth_part by lia. apply H. lia.
Qed.
Lemma clear_length w x : length x = (10 + w + w)%nat -> length (snd (clear_valid_if_clean w x)) = (10 + w + w)%nat.
Proof.
  intros L. unfold clear_valid_if_clean. cbn [snd]. rewrite !app_length, map_length, combine_length, firstn_length.
  unfold e_valid, e_dirty. rewrite !part_length by lia. lia.
Qed.
Lemma clear_head w x k : length x = (10 + w + w)%nat -> (k < 10)%nat -> nth k (snd (clear_valid_if_clean w x)) 0 = nth k x 0.
Proof.
  intros L K. unfold clear_valid_if_clean. cbn [snd]. rewrite app_nth1 by (rewrite firstn_length; lia).
  rewrite <- (firstn_skipn 10 x) at 2. rewrite app_nth1 by (rewrite firstn_length; lia). reflexivity.
Qed.
Lemma clear_v w x k : length x = (10 + w + w)%nat -> (k < w)%nat ->
  vbyte (snd (clear_valid_if_clean w x)) k = N.land (vbyte x k) (dbyte w x k).
Proof.
  intros L K. unfold clear_valid_if_clean, vbyte, dbyte. cbn [snd].
  assert (Ld : length (e_dirty w x) = w) by (apply part_length; lia).
  assert (Lv : length (e_valid w x) = w) by (apply part_length; lia).
  assert (L10 : length (firstn 10 x) = 10%nat) by (rewrite firstn_length; lia).
  rewrite app_nth2 by lia. rewrite L10. replace (10 + k - 10)%nat with k by lia.
  rewrite app_nth1 by (rewrite map_length, combine_length; lia).
  rewrite nth_combine by lia. unfold e_valid, e_dirty. rewrite !nth_part by exact K. reflexivity.
Qed.
Lemma clear_d w x k : length x = (10 + w + w)%nat -> (k < w)%nat ->
  dbyte w (snd (clear_valid_if_clean w x)) k = dbyte w x k.
Proof.
  intros L K. unfold clear_valid_if_clean, dbyte. cbn [snd].
  assert (Ld : length (e_dirty w x) = w) by (apply part_length; lia).
  assert (Lv : length (e_valid w x) = w) by (apply part_length; lia).
  assert (L10 : length (firstn 10 x) = 10%nat) by (rewrite firstn_length; lia).
  rewrite app_nth2 by lia. rewrite L10.
  rewrite app_nth2 by (rewrite map_length, combine_length; lia). rewrite map_length, combine_length.
  rewrite Ld, Lv, Nat.min_id. replace (10 + w + k - 10 - w)%nat with k by lia.
  unfold e_dirty. apply nth_part. exact K.
Qed.
Lemma clear_any w x : length x = (10 + w + w)%nat ->
  (fst (clear_valid_if_clean w x) = true <-> exists k, (k < w)%nat /\ N.land (vbyte x k) (dbyte w x k) <> 0).
Proof.
  intros L. unfold clear_valid_if_clean. cbn [fst].
  assert (Ld : length (e_dirty w x) = w) by (apply part_length; lia).
  assert (Lv : length (e_valid w x) = w) by (apply part_length; lia).
  assert (E : forall k, (k < w)%nat -> nth k (map (fun p => N.land (fst p) (snd p)) (combine (e_valid w x) (e_dirty w x))) 0 = N.land (vbyte x k) (dbyte w x k)).
  { intros k K. rewrite nth_combine by lia. unfold e_valid, e_dirty, vbyte, dbyte. rewrite !nth_part by exact K. reflexivity. }
  rewrite existsb_exists. split.
  - intros (b & I & H). destruct (In_nth _ _ 0 I) as (k & K & <-). rewrite map_length, combine_length in K.
    exists k. split; [lia|]. rewrite E in H by lia. intros Z. rewrite Z in H. discriminate.
  - intros (k & K & H). eexists. split; [apply nth_In with (n := k); rewrite map_length, combine_length; lia|].
    rewrite E by exact K. apply negb_true_iff, N.eqb_neq. exact H.
Qed.
Lemma core_head x y : (forall k, (k < 10)%nat -> nth k x 0 = nth k y 0) -> e_core x = e_core y.
Proof. intros H. unfold e_core. rewrite !H by lia. reflexivity. Qed.
Lemma reset_v w k : (k < w)%nat -> vbyte (reset w) k = 0 /\ dbyte w (reset w) k = 0.
Proof.
  intros K. unfold vbyte, dbyte, reset.
  assert (A : forall j, nth (10 + j) (repeat 255 8 ++ [CORE_MAX mod 256; CORE_MAX / 256] ++ repeat 0 (w + w)) 0 = 0).
  { intros j. change (10 + j)%nat with (8 + (2 + j))%nat. change (repeat 255 8) with [255;255;255;255;255;255;255;255].
    cbn [app plus nth]. destruct (Nat.lt_ge_cases j (w + w)); [apply nth_repeat | apply nth_overflow; rewrite repeat_length; lia]. }
  split; [apply A|]. rewrite <- Nat.add_assoc. apply A.
Qed.
Lemma reset_core w : e_core (reset w) = CORE_MAX.
Proof. reflexivity. Qed.
Lemma reset_bad w : bad w (reset w) = false.
Proof.
  unfold bad. replace (check w (reset w)) with true; [reflexivity|]. symmetry. apply check_spec; [apply reset_length|].
  intros k K. destruct (reset_v w k K) as (_ & ->). apply N.ldiff_0_l.
Qed.
Lemma reset_idle w : idle w (reset w) = true.
Proof. unfold idle. rewrite reset_core, N.eqb_refl. apply orb_true_r. Qed.
Lemma bool_iff (a b : bool) : (a = true <-> b = true) -> a = b.
Proof. intros (H1 & H2). destruct a, b; try reflexivity; [symmetry; apply H1; reflexivity | apply H2; reflexivity]. Qed.

Lemma clear_core w x : length x = (10 + w + w)%nat -> e_core (snd (clear_valid_if_clean w x)) = e_core x.
Proof. intros L. apply core_head. intros k K. apply clear_head; assumption. Qed.
(** After dropping the clean sectors *)
Lemma clear_check w x : length x = (10 + w + w)%nat -> check w x = true -> check w (snd (clear_valid_if_clean w x)) = true.
Proof.
  intros L H. apply check_spec; [apply clear_length; exact L|]. intros k K. rewrite clear_d, clear_v by assumption.
  assert (H' := proj1 (check_spec w x L) H k K). apply N.bits_inj_0. intros i.
  rewrite N.ldiff_spec, N.land_spec. assert (B : N.testbit (N.ldiff (dbyte w x k) (vbyte x k)) i = false) by (rewrite H'; apply N.bits_0).
  rewrite N.ldiff_spec in B. destruct (N.testbit (dbyte w x k) i), (N.testbit (vbyte x k) i); cbn in *; congruence.
Qed.
Lemma clear_twice w x : length x = (10 + w + w)%nat -> snd (clear_valid_if_clean w (snd (clear_valid_if_clean w x))) = snd (clear_valid_if_clean w x).
Proof.
  intros L. set (y := snd (clear_valid_if_clean w x)).
  assert (Ly : length y = (10 + w + w)%nat) by (apply clear_length; exact L).
  apply list_ext; [rewrite clear_length by exact Ly; symmetry; exact Ly|]. intros k K. rewrite clear_length in K by exact Ly.
  destruct (Nat.lt_ge_cases k 10) as [H|H]; [apply clear_head; assumption|].
  destruct (Nat.lt_ge_cases k (10 + w)) as [H'|H'].
  - assert (E := clear_v w y (k - 10)%nat Ly ltac:(lia)). unfold vbyte at 1 in E. replace (10 + (k - 10))%nat with k in E by lia. rewrite E.
    assert (Ey : vbyte y (k - 10) = nth k y 0) by (unfold vbyte; f_equal; lia). rewrite <- Ey.
    unfold y. rewrite clear_v, clear_d by (try exact L; lia). rewrite <- N.land_assoc, N.land_diag. reflexivity.
  - assert (E := clear_d w y (k - 10 - w)%nat Ly ltac:(lia)). unfold dbyte in E. replace (10 + w + (k - 10 - w))%nat with k in E by lia. exact E.
Qed.
Lemma clear_again w x : length x = (10 + w + w)%nat -> fst (clear_valid_if_clean w (snd (clear_valid_if_clean w x))) = fst (clear_valid_if_clean w x).
Proof.
  intros L. apply bool_iff. rewrite (clear_any w x L), (clear_any w _ (clear_length w x L)).
  split; intros (k & K & H); exists k; (split; [exact K|]).
  - rewrite clear_v, clear_d in H by assumption. rewrite <- N.land_assoc, N.land_diag in H. exact H.
  - rewrite clear_v, clear_d by assumption. rewrite <- N.land_assoc, N.land_diag. exact H.
Qed.
Lemma nrm_length w x : length x = (10 + w + w)%nat -> length (nrm w x) = (10 + w + w)%nat.
Proof.
  intros L. unfold nrm. destruct (bad w x); [exact L|]. destruct (idle w x); [apply reset_length | apply clear_length, L].
Qed.
Lemma nrm_bad w x : length x = (10 + w + w)%nat -> bad w (nrm w x) = bad w x.
Proof.
  intros L. unfold nrm. destruct (bad w x) eqn:B; [exact B|]. destruct (idle w x); [apply reset_bad|].
  unfold bad in *. apply orb_false_iff in B. destruct B as (B1 & B2). apply negb_false_iff in B1.
  rewrite (clear_check w x L B1), (clear_core w x L), B2. reflexivity.
Qed.
Lemma nrm_idle w x : length x = (10 + w + w)%nat -> bad w x = false -> idle w (nrm w x) = idle w x.
Proof.
  intros L B. unfold nrm. rewrite B. destruct (idle w x) eqn:I; [apply reset_idle|].
  unfold idle in *. rewrite (clear_again w x L), (clear_core w x L). exact I.
Qed.
Lemma nrm_idem w x : length x = (10 + w + w)%nat -> nrm w (nrm w x) = nrm w x.
Proof.
  intros L. unfold nrm at 1. rewrite nrm_bad by exact L. destruct (bad w x) eqn:B; [reflexivity|].
  rewrite nrm_idle by assumption. unfold nrm. rewrite B. destruct (idle w x); [reflexivity|]. apply clear_twice, L.
Qed.
Lemma nrm_core w x : length x = (10 + w + w)%nat -> bad w x = false -> idle w x = false -> e_core (nrm w x) = e_core x /\ e_line (nrm w x) = e_line x.
Proof.
  intros L B I. unfold nrm. rewrite B, I. split; [apply clear_core, L|].
  unfold e_line. apply list_ext; [rewrite !firstn_length, clear_length by exact L; lia|].
  intros k K. rewrite firstn_length, clear_length in K by exact L.
  rewrite (nth_part 8 0 (snd (clear_valid_if_clean w x)) k ltac:(lia) : nth k (firstn 8 (snd (clear_valid_if_clean w x))) 0 = nth k (snd (clear_valid_if_clean w x)) 0).
  rewrite (nth_part 8 0 x k ltac:(lia) : nth k (firstn 8 x) 0 = nth k x 0). apply clear_head; [exact L | lia].
Qed.

(** ** Rebuilding *)
(** What becomes of a line *)
Definition out (cv : N -> bool) (w : nat) (x : entry) (l : N) : option (list ev) :=
  if bad w x then None else if idle w x then Some [Free l] else if cv (e_core x) then Some [Mapped l (e_core x) (e_line x)] else None.
Lemma out_nrm cv w x l : length x = (10 + w + w)%nat -> out cv w (nrm w x) l = out cv w x l.
Proof.
  intros L. unfold out. rewrite nrm_bad by exact L. destruct (bad w x) eqn:B; [reflexivity|].
  rewrite nrm_idle by assumption. destruct (idle w x) eqn:I; [reflexivity|].
  destruct (nrm_core w x L B I) as (-> & ->). reflexivity.
Qed.
Definition ent (w : nat) (m : N -> N) (l : N) : entry := rd m (l * N.of_nat (10 + w + w)) (10 + w + w).
Lemma ent_length w m l : length (ent w m l) = (10 + w + w)%nat. Proof. apply rd_length. Qed.
Lemma ent_wr w m l x : length x = (10 + w + w)%nat -> ent w (wr m (l * N.of_nat (10 + w + w)) x) l = x.
Proof. intros L. unfold ent. apply rd_wr, L. Qed.
Lemma ent_other w m l l' x : length x = (10 + w + w)%nat -> l <> l' -> ent w (wr m (l * N.of_nat (10 + w + w)) x) l' = ent w m l'.
Proof. intros L N. unfold ent. apply rd_wr_out. rewrite L. apply slots. congruence. Qed.
(** Every entry stays or has its clean part dropped *)
Definition settles (w : nat) (m m' : N -> N) : Prop := forall l, ent w m' l = ent w m l \/ ent w m' l = nrm w (ent w m l).
Lemma settles_refl w m : settles w m m. Proof. intros l. left. reflexivity. Qed.
Lemma settles_trans w m1 m2 m3 : settles w m1 m2 -> settles w m2 m3 -> settles w m1 m3.
Proof.
  intros H1 H2 l. destruct (H1 l) as [E1|E1], (H2 l) as [E2|E2]; rewrite E2, E1; auto.
  right. apply nrm_idem, ent_length.
Qed.
Lemma settles_nrm w m m' l : settles w m m' -> nrm w (ent w m' l) = nrm w (ent w m l).
Proof. intros H. destruct (H l) as [->| ->]; [reflexivity | apply nrm_idem, ent_length]. Qed.
Lemma settles_out cv w m m' l : settles w m m' -> out cv w (ent w m' l) l = out cv w (ent w m l) l.
Proof. intros H. rewrite <- (out_nrm cv w (ent w m' l)), (settles_nrm w m m' l H) by apply ent_length. apply out_nrm, ent_length. Qed.
Lemma settles_done w m m' l : settles w m m' -> ent w m l = nrm w (ent w m l) -> ent w m' l = ent w m l.
Proof. intros H E. destruct (H l) as [->| ->]; congruence. Qed.

Lemma line_spec cv w l m : let (r, m') := rebuild_line cv w l m in
  r = out cv w (ent w m l) l /\ settles w m m' /\ (r <> None -> ent w m' l = nrm w (ent w m l)).
Proof.
  unfold rebuild_line. fold (ent w m l). set (x := ent w m l).
  assert (L : length x = (10 + w + w)%nat) by apply ent_length.
  unfold out. fold (bad w x). destruct (bad w x) eqn:B.
  { split; [reflexivity|]. split; [apply settles_refl | congruence]. }
  destruct (clear_valid_if_clean w x) as (any, y) eqn:C.
  assert (Ey : y = snd (clear_valid_if_clean w x)) by (rewrite C; reflexivity).
  assert (Ly : length y = (10 + w + w)%nat) by (rewrite Ey; apply clear_length, L).
  replace (negb any || (e_core x =? CORE_MAX)) with (idle w x) by (unfold idle; rewrite C; reflexivity).
  destruct (idle w x) eqn:I.
  - split; [reflexivity|].
    assert (E : ent w (wr (wr m (l * N.of_nat (10 + w + w)) y) (l * N.of_nat (10 + w + w)) (reset w)) l = nrm w x).
    { rewrite ent_wr by apply reset_length. unfold nrm. rewrite B, I. reflexivity. }
    split; [|intros _; exact E]. intros l'. destruct (N.eq_dec l l') as [<-|Ne]; [right; exact E|].
    left. rewrite !ent_other by (try exact Ne; try exact Ly; apply reset_length). reflexivity.
  - assert (E : ent w (wr m (l * N.of_nat (10 + w + w)) y) l = nrm w x).
    { rewrite ent_wr by exact Ly. unfold nrm. rewrite B, I. exact Ey. }
    assert (S : settles w m (wr m (l * N.of_nat (10 + w + w)) y)).
    { intros l'. destruct (N.eq_dec l l') as [<-|Ne]; [right; exact E|]. left. apply ent_other; assumption. }
    destruct (cv (e_core x)); cbn [negb]; (split; [reflexivity|]; split; [exact S|]); [intros _; exact E | congruence].
Qed.
(** Results one after the other *)
Fixpoint cat (l : list (option (list ev))) : option (list ev) :=
  match l with [] => Some [] | Some a :: l => match cat l with Some b => Some (a ++ b) | None => None end | None :: _ => None end.
Definition outs (cv : N -> bool) (w : nat) (m : N -> N) (ls : list N) : option (list ev) := cat (map (fun l => out cv w (ent w m l) l) ls).
Lemma outs_settles cv w m m' ls : settles w m m' -> outs cv w m' ls = outs cv w m ls.
Proof. intros H. unfold outs. f_equal. apply map_ext. intros l. apply settles_out, H. Qed.
Lemma cat_app a b : cat (a ++ b) = match cat a, cat b with Some x, Some y => Some (x ++ y) | _, _ => None end.
Proof.
  induction a as [|[x|] a IH]; cbn [cat app]; [destruct (cat b); reflexivity | | reflexivity].
  rewrite IH. destruct (cat a); [|reflexivity]. destruct (cat b); [rewrite app_assoc; reflexivity | reflexivity].
Qed.
Lemma shard_spec cv w ls : forall m, let (r, m') := rebuild_shard cv w ls m in
  r = outs cv w m ls /\ settles w m m' /\ (r <> None -> forall l, In l ls -> ent w m' l = nrm w (ent w m l)).
Proof.
  induction ls as [|l ls IH]; intros m; cbn [rebuild_shard].
  { split; [reflexivity|]. split; [apply settles_refl|]. intros _ l []. }
  assert (H := line_spec cv w l m). destruct (rebuild_line cv w l m) as (r, m1). destruct H as (E & S & D).
  unfold outs. cbn [map cat]. rewrite <- E.
  destruct r as [e|]; [|split; [reflexivity | split; [exact S | congruence]]].
  specialize (IH m1). destruct (rebuild_shard cv w ls m1) as (q, m2). destruct IH as (E2 & S2 & D2).
  rewrite (outs_settles cv w m m1 ls S) in E2. unfold outs in E2. rewrite <- E2.
  assert (S12 := settles_trans w m m1 m2 S S2).
  destruct q as [es|]; (split; [reflexivity|]; split; [exact S12|]); [|congruence].
  intros _ l' [<-|I].
  - specialize (D ltac:(discriminate)). rewrite (settles_done w m1 m2 l S2); [exact D|]. rewrite D. symmetry. apply nrm_idem, ent_length.
  - rewrite (D2 ltac:(discriminate) l' I). apply settles_nrm, S.
Qed.
Lemma from_spec cv w n ks : forall m, let (r, m') := rebuild_from cv w n ks m in
  r = outs cv w m (flat_map (shard_lines n) ks) /\ settles w m m' /\ (r <> None -> forall l, In l (flat_map (shard_lines n) ks) -> ent w m' l = nrm w (ent w m l)).
Proof.
  induction ks as [|k ks IH]; intros m; cbn [rebuild_from flat_map].
  { split; [reflexivity|]. split; [apply settles_refl|]. intros _ l []. }
  assert (H := shard_spec cv w (shard_lines n k) m). destruct (rebuild_shard cv w (shard_lines n k) m) as (r, m1). destruct H as (E & S & D).
  specialize (IH m1). destruct (rebuild_from cv w n ks m1) as (q, m2). destruct IH as (E2 & S2 & D2).
  rewrite (outs_settles cv w m m1 _ S) in E2.
  assert (S12 := settles_trans w m m1 m2 S S2).
  split; [unfold outs; rewrite map_app, cat_app; unfold outs in E, E2; rewrite <- E, <- E2; reflexivity|]. split; [exact S12|].
  destruct r as [a|]; [|congruence]. destruct q as [b|]; [|congruence].
  intros _ l I. apply in_app_or in I. destruct I as [I|I].
  - specialize (D ltac:(discriminate) l I). rewrite (settles_done w m1 m2 l S2); [exact D|]. rewrite D. symmetry. apply nrm_idem, ent_length.
  - rewrite (D2 ltac:(discriminate) l I). apply settles_nrm, S.
Qed.
(** Every line is in one shard *)
Definition order (n : nat) : list N := flat_map (shard_lines n) (seq 0 SHARDS).
Lemma in_shard n k l : In l (shard_lines n k) <-> l < N.of_nat n /\ (N.to_nat l mod SHARDS)%nat = k.
Proof.
  unfold shard_lines. rewrite in_map_iff. split.
  - intros (i & <- & I). apply filter_In in I. destruct I as (I & E). apply in_seq in I. apply Nat.eqb_eq in E.
    rewrite Nat2N.id. split; [lia | exact E].
  - intros (H & E). exists (N.to_nat l). split; [apply N2Nat.id|]. apply filter_In. split; [apply in_seq; lia | apply Nat.eqb_eq, E].
Qed.
Lemma in_order n l : In l (order n) <-> l < N.of_nat n.
Proof.
  unfold order. rewrite in_flat_map. split.
  - intros (k & _ & I). apply in_shard in I. apply I.
  - intros H. exists (N.to_nat l mod SHARDS)%nat. split; [|apply in_shard; split; [exact H | reflexivity]].
    apply in_seq. assert (N.to_nat l mod SHARDS < SHARDS)%nat by (apply Nat.mod_upper_bound; discriminate). lia.
Qed.
Lemma nodup_map_of_nat l : NoDup l -> NoDup (map N.of_nat l).
Proof. intros H. apply FinFun.Injective_map_NoDup; [|exact H]. intros a b E. apply Nat2N.inj, E. Qed.
Lemma nodup_flat (f : nat -> list N) ks : NoDup ks -> (forall k, NoDup (f k)) -> (forall j k x, In x (f j) -> In x (f k) -> j = k) -> NoDup (flat_map f ks).
Proof.
  intros Nd H D. induction Nd as [|k ks I Nd IH]; cbn [flat_map]; [constructor|].
  assert (A : forall a b : list N, NoDup a -> NoDup b -> (forall x, In x a -> ~ In x b) -> NoDup (a ++ b)).
  { induction a as [|x a IHa]; intros b Na Nb Dab; cbn [app]; [exact Nb|]. inversion Na as [|? ? Nx Na' ]; subst. constructor.
    - intros J. apply in_app_or in J. destruct J as [J|J]; [exact (Nx J) | exact (Dab x (or_introl eq_refl) J)].
    - apply IHa; [exact Na' | exact Nb | intros z Iz; apply Dab; right; exact Iz]. }
  apply A; [apply H | exact IH |]. intros x Ix J. apply in_flat_map in J. destruct J as (j & Ij & J).
  rewrite (D k j x Ix J) in I. exact (I Ij).
Qed.
Lemma order_perm n : Permutation (order n) (map N.of_nat (seq 0 n)).
Proof.
  apply NoDup_Permutation.
  - apply nodup_flat; [apply seq_NoDup | intros k; unfold shard_lines; apply nodup_map_of_nat, NoDup_filter, seq_NoDup |].
    intros j k x Ij Ik. apply in_shard in Ij, Ik. destruct Ij as (_ & <-), Ik as (_ & <-). reflexivity.
  - apply nodup_map_of_nat, seq_NoDup.
  - intros l. rewrite in_order, in_map_iff. split.
    + intros H. exists (N.to_nat l). split; [apply N2Nat.id | apply in_seq; lia].
    + intros (i & <- & I). apply in_seq in I. lia.
Qed.
Lemma rebuild_spec cv w n m : let (r, m') := rebuild cv w n m in
  r = outs cv w m (order n) /\ settles w m m' /\ (r <> None -> forall l, l < N.of_nat n -> ent w m' l = nrm w (ent w m l)).
Proof.
  unfold rebuild. assert (H := from_spec cv w n (seq 0 SHARDS) m). fold (order n) in H.
  destruct (rebuild_from cv w n (seq 0 SHARDS) m) as (r, m'). destruct H as (E & S & D). split; [exact E|]. split; [exact S|].
  intros R l H. apply D; [exact R | apply in_order, H].
Qed.

(** ** Memory and device *)
Definition near (P : par) (s : st) : Prop :=
  seg_mirror (sb (geom P)) (m_sb s) (disk s) /\
  forall l, l < N.of_nat (nl P) -> nrm (w P) (in_ram P (m_coll s) l) = nrm (w P) (on_dev P (disk s) l).
Lemma in_ram_ent P m l : in_ram P m l = ent (w P) m l. Proof. reflexivity. Qed.
(** The page of a line and the place in it *)
Lemma line_place P l : par_ok P -> l < N.of_nat (nl P) -> let g := coll (geom P) in
  l / eip g < pages g /\ (l mod eip g) * es g + es g <= es g * eip g /\
  l * es g = (l / eip g) * (es g * eip g) + (l mod eip g) * es g.
Proof.
  intros (G & _ & _ & _ & N & _) H g. destruct G as (_ & G & _). destruct G as (E0 & E1 & _). fold g in E0, E1, N.
  assert (D := N.div_mod l (eip g) ltac:(lia)). assert (M := N.mod_lt l (eip g) ltac:(lia)).
  split; [apply N.div_lt_upper_bound; lia|]. split.
  - assert ((l mod eip g + 1) * es g <= eip g * es g) by (apply N.mul_le_mono_r; lia). lia.
  - rewrite D at 1. ring.
Qed.
Lemma place_byte P l k : par_ok P -> l < N.of_nat (nl P) -> k < N.of_nat (esz P) -> let g := coll (geom P) in
  exists p j, p < pages g /\ j < es g * eip g /\ l * N.of_nat (esz P) + k = p * (es g * eip g) + j /\
  (off g + l / eip g) * PAGE + l mod eip g * es g + k = (off g + p) * PAGE + j /\ p = l / eip g.
Proof.
  intros O H K g. destruct (line_place P l O H) as (A & B & C). fold g in A, B, C.
  destruct O as (_ & _ & _ & E & _). fold g in E. exists (l / eip g), (l mod eip g * es g + k).
  split; [exact A|]. split; [lia|]. split; [rewrite <- E; lia|]. split; [lia | reflexivity].
Qed.
(** Where memory mirrors the device the entries are the same *)
Lemma mirror_entry P m d l : par_ok P -> l < N.of_nat (nl P) -> seg_mirror (coll (geom P)) m d -> in_ram P m l = on_dev P d l.
Proof.
  intros O H M. unfold in_ram, on_dev. apply rd_ext. intros k K.
  destruct (place_byte P l k O H K) as (p & j & A & B & -> & -> & _). apply M; assumption.
Qed.
Lemma near_write P i s : par_ok P -> io_ok (geom P) i -> near P s ->
  exists s', submit (geom P) i s = Some (OK, s') /\ near P s' /\ disk s' = dev_write i (disk s).
Proof.
  intros O I (M & C). assert (O' := O). destruct O' as (G & _). assert (G' := G). destruct G' as (G1 & G2 & G3). destruct (write i) eqn:W.
  2:{ unfold submit, passive_update, dev_write. rewrite W. cbn [negb]. eexists. split; [reflexivity|]. split; [split; assumption | reflexivity]. }
  assert (Out : meta_pages (geom P) * PAGE <= addr i -> addr i + bytes i + PAGE < two64 ->
    exists s', submit (geom P) i s = Some (OK, s') /\ near P s' /\ disk s' = dev_write i (disk s)).
  { intros A B. unfold submit, passive_update. rewrite W. cbn [negb]. rewrite (outside_pages (geom P) i A B). eexists. split; [reflexivity|].
    split; [|reflexivity]. split; cbn [m_sb m_coll disk]; [eapply seg_out; eassumption|].
    intros l H. rewrite (C l H). f_equal. unfold on_dev. apply rd_ext. intros k K. symmetry.
    destruct (place_byte P l k O H K) as (p & j & Bp & Bj & _ & -> & _).
    unfold dev_write. rewrite W. replace (addr i <=? _) with false; [reflexivity|]. symmetry. apply N.leb_gt.
    destruct G2 as (_ & _ & S3 & _ & S5 & _).
    assert ((off (coll (geom P)) + p + 1) * PAGE <= meta_pages (geom P) * PAGE) by (apply N.mul_le_mono_r; lia). lia. }
  destruct I as [I|[(A & B)|(A1 & A2 & B & D & T)]]; [congruence | apply Out; assumption|].
  destruct (mult_of _ A1) as (k & Ek), (mult_of _ A2) as (c & Ec).
  destruct (N.lt_ge_cases k (meta_pages (geom P))) as [Hk|Hk].
  2:{ apply Out; [rewrite Ek; apply N.mul_le_mono_r; exact Hk | exact T]. }
  destruct (submit_spec (geom P) i s k c G W Ek Ec B D Hk) as (a & b & E & Ha & Hb).
  eexists. split; [exact E|]. split; [|reflexivity].
  assert (Dw : dev_write i (disk s) = fun x => if (k * PAGE <=? x) && (x <? k * PAGE + c * PAGE) then data i (0 + (x - k * PAGE)) else disk s x).
  { unfold dev_write. rewrite W, Ek, Ec, D. reflexivity. }
  split; cbn [m_sb m_coll disk]; rewrite Dw.
  - eapply seg_step; eassumption.
  - intros l H. destruct (line_place P l O H) as (Lp & _ & _). set (g := coll (geom P)) in *. set (p := l / eip g) in *.
    destruct ((k <=? off g + p) && (off g + p <? k + c)) eqn:In.
    + f_equal. unfold in_ram, on_dev. apply rd_ext. intros q Q.
      destruct (place_byte P l q O H Q) as (p' & j & Bp & Bj & -> & Ed & Ep). fold g in Ed, Bp, Bj, Ep. fold p in Ep, Ed. subst p'.
      fold g p. rewrite Ed. fold g. rewrite Hb by assumption. fold g. rewrite In.
      assert (Jp : j < PAGE) by (destruct G2 as (_ & _ & S3 & _); fold g in S3; lia).
      rewrite page_in, In by exact Jp. f_equal. apply andb_prop in In. destruct In as (I1 & _). apply N.leb_le in I1.
      rewrite N.mul_sub_distr_r. assert (k * PAGE <= (off g + p) * PAGE) by (apply N.mul_le_mono_r; exact I1). lia.
    + transitivity (nrm (w P) (in_ram P (m_coll s) l)).
      * f_equal. unfold in_ram. apply rd_ext. intros q Q.
        destruct (place_byte P l q O H Q) as (p' & j & Bp & Bj & -> & Ed & Ep). fold g in Ed, Bp, Bj, Ep. fold p in Ep, Ed. subst p'.
        fold g. rewrite Hb by assumption. fold g. rewrite In. reflexivity.
      * rewrite (C l H). f_equal. unfold on_dev. fold g p. apply rd_ext. intros q Q.
        destruct (place_byte P l q O H Q) as (p' & j & Bp & Bj & _ & Ed & Ep). fold g in Ed, Bp, Bj, Ep. fold p in Ep, Ed. subst p'.
        rewrite Ed. assert (Jp : j < PAGE) by (destruct G2 as (_ & _ & S3 & _); fold g in S3; lia).
        rewrite page_in, In by exact Jp. reflexivity.
Qed.
(** A segment just loaded or just written *)
Lemma load_mirror total g d m : seg_ok total g -> exists m', load_seg g d m = Some m' /\ seg_mirror g m' d.
Proof.
  intros S. destruct (raw_update_spec total g (at_seg g d) S (N.to_nat (pages g)) 0 0 m) as (m' & E & H); [lia|].
  exists m'. split; [exact E|]. intros p j Hp Hj. rewrite H by exact Hj.
  replace ((0 <=? p) && (p <? 0 + N.of_nat (N.to_nat (pages g)))) with true by (symmetry; apply andb_true_intro; split; [apply N.leb_le | apply N.ltb_lt]; lia).
  unfold at_seg. f_equal. rewrite N.sub_0_r. ring.
Qed.
Lemma save_mirror total g m d : seg_ok total g -> seg_mirror g m (save_seg g m d).
Proof.
  intros (S1 & S2 & S3 & S4 & S5 & S6) p j Hp Hj. unfold save_seg.
  assert (B : (off g + p + 1) * PAGE <= (off g + pages g) * PAGE) by (apply N.mul_le_mono_r; lia).
  assert (B' : off g * PAGE <= (off g + p) * PAGE) by (apply N.mul_le_mono_r; lia).
  replace ((off g * PAGE <=? (off g + p) * PAGE + j) && ((off g + p) * PAGE + j <? (off g + pages g) * PAGE)) with true
    by (symmetry; apply andb_true_intro; split; [apply N.leb_le | apply N.ltb_lt]; lia).
  replace ((off g + p) * PAGE + j - off g * PAGE) with (PAGE * p + j) by lia.
  assert (Q1 : (PAGE * p + j) / PAGE = p) by (symmetry; apply (N.div_unique _ _ _ j); [lia | reflexivity]).
  assert (Q2 : (PAGE * p + j) mod PAGE = j) by (symmetry; apply (N.mod_unique _ _ p); [lia | reflexivity]).
  unfold image, fill. rewrite Q1, Q2.
  replace (j <? es g * eip g) with true by (symmetry; apply N.ltb_lt; exact Hj).
  assert (W : (p * eip g) mod two32 = p * eip g).
  { apply N.mod_small. assert (p * eip g <= (pages g - 1) * eip g) by (apply N.mul_le_mono_r; lia). lia. }
  rewrite W. f_equal. ring.
Qed.
Lemma save_out g m d a : a < off g * PAGE \/ (off g + pages g) * PAGE <= a -> save_seg g m d a = d a.
Proof.
  intros H. unfold save_seg. destruct (N.leb_spec (off g * PAGE) a); [|reflexivity].
  destruct (N.ltb_spec a ((off g + pages g) * PAGE)); [lia | reflexivity].
Qed.
Lemma dev_same P d d' l : par_ok P -> l < N.of_nat (nl P) ->
  (forall a, off (coll (geom P)) * PAGE <= a -> a < (off (coll (geom P)) + pages (coll (geom P))) * PAGE -> d' a = d a) -> on_dev P d' l = on_dev P d l.
Proof.
  intros O H E. unfold on_dev. apply rd_ext. intros k K. destruct (place_byte P l k O H K) as (p & j & Bp & Bj & _ & -> & _).
  destruct O as ((_ & (_ & _ & S3 & _) & _) & _). apply E.
  - assert (off (coll (geom P)) * PAGE <= (off (coll (geom P)) + p) * PAGE) by (apply N.mul_le_mono_r; lia). lia.
  - assert ((off (coll (geom P)) + p + 1) * PAGE <= (off (coll (geom P)) + pages (coll (geom P))) * PAGE) by (apply N.mul_le_mono_r; lia). lia.
Qed.
Definition standing (P : par) (s : fo) : Prop := active s = false /\ near P (ps s).
Lemma starts_near P s : par_ok P -> starts P s -> standing P s /\ frozen s = false.
Proof.
  intros O H. assert (O' := O). destruct O' as ((G1 & G2 & G3) & Z & Zp & Ze & Zn & Zo & _). destruct H as [d s E|sb0 d].
  - unfold standby_load in E. destruct (negb _); [discriminate|].
    destruct (load_mirror _ _ d (fun _ => 0) G1) as (a & Ea & Ma). destruct (load_mirror _ _ d (fun _ => 0) G2) as (b & Eb & Mb).
    rewrite Ea, Eb in E. assert (R := rebuild_spec (cores P d) (w P) (nl P) b).
    destruct (rebuild (cores P d) (w P) (nl P) b) as (r, b'). destruct R as (_ & S & _). destruct r as [evs|]; [|discriminate].
    injection E as <-. split; [|reflexivity]. split; [reflexivity|]. cbn [ps]. split; cbn [m_sb disk m_coll]; [exact Ma|].
    intros l H. rewrite in_ram_ent, (settles_nrm _ _ _ l S), <- in_ram_ent. f_equal. apply mirror_entry; assumption.
  - split; [|reflexivity]. split; [reflexivity|]. unfold standby_attach. cbn [ps]. split; cbn [m_sb disk m_coll]; [eapply save_mirror, G1|].
    intros l H. f_equal. rewrite (dev_same P (save_seg (coll (geom P)) (init_entries (w P) (map N.of_nat (seq 0 (nl P))) (fun _ => 0)) d) _ l O H).
    + apply mirror_entry; [exact O | exact H | eapply save_mirror, G2].
    + intros a A _. apply save_out. right. rewrite Z, N.add_0_l. assert (pages (sb (geom P)) * PAGE <= off (coll (geom P)) * PAGE) by (apply N.mul_le_mono_r; exact Zo). lia.
Qed.
Lemma writes_near P l : par_ok P -> Forall (io_ok (geom P)) l -> forall s, standing P s -> frozen s = false ->
  exists s', writes P l s = Some s' /\ standing P s' /\ frozen s' = false /\ disk (ps s') = fold_left (fun d i => dev_write i d) l (disk (ps s)).
Proof.
  intros O. induction l as [|i l IH]; intros F s (A & C) Z; cbn [writes fold_left].
  { exists s. split; [reflexivity|]. split; [split; assumption|]. split; [exact Z | reflexivity]. }
  apply Forall_cons_iff in F. destruct F as (F1 & F2). unfold volume_write. rewrite Z, A. cbn [orb].
  destruct (near_write P i (ps s) O F1 C) as (p & E & C' & D). rewrite E, <- D.
  apply (IH F2); [split; [reflexivity | exact C'] | reflexivity].
Qed.

(** ** Entries in terms of the claim *)
Lemma ldiff_bits a b : N.ldiff a b = 0 <-> forall i, N.testbit a i = true -> N.testbit b i = true.
Proof.
  split.
  - intros H i A. assert (E : N.testbit (N.ldiff a b) i = false) by (rewrite H; apply N.bits_0).
    rewrite N.ldiff_spec, A in E. destruct (N.testbit b i); [reflexivity | discriminate].
  - intros H. apply N.bits_inj. intros i. rewrite N.ldiff_spec, N.bits_0. destruct (N.testbit a i) eqn:A; [|reflexivity].
    rewrite (H i A). reflexivity.
Qed.
Lemma ldiff_land a b : N.ldiff a b = 0 -> N.land b a = a.
Proof.
  intros H. rewrite ldiff_bits in H. apply N.bits_inj. intros i. rewrite N.land_spec.
  destruct (N.testbit a i) eqn:A; [rewrite (H i A); reflexivity | apply andb_false_r].
Qed.
Lemma nonzero_bits a : a <> 0 <-> exists i, N.testbit a i = true.
Proof.
  split.
  - intros H. exists (N.log2 a). apply N.bit_log2, H.
  - intros (i & I) ->. rewrite N.bits_0 in I. discriminate.
Qed.
Lemma bad_spec w x : length x = (10 + w + w)%nat -> (bad w x = false <-> consistent w x).
Proof.
  intros L. unfold bad, consistent. rewrite orb_false_iff, negb_false_iff, (check_spec w x L), N.ltb_ge. unfold core_of, e_core, CORE_MAX.
  split; intros (A & B); (split; [|exact B]); [intros k i K; apply ldiff_bits, A, K | intros k K; apply ldiff_bits; intros i; apply A, K].
Qed.
Lemma idle_spec w x : length x = (10 + w + w)%nat -> bad w x = false -> (idle w x = false <-> holds_dirty w x).
Proof.
  intros L B. unfold bad in B. apply orb_false_iff in B. destruct B as (B & _). apply negb_false_iff in B. rewrite (check_spec w x L) in B.
  unfold idle, holds_dirty. rewrite orb_false_iff, negb_false_iff, (clear_any w x L), N.eqb_neq. unfold core_of, e_core, CORE_MAX.
  split.
  - intros ((k & K & A) & C). split; [exact C|]. rewrite (ldiff_land _ _ (B k K)) in A. apply nonzero_bits in A. destruct A as (i & A). exists k, i. split; assumption.
  - intros (C & k & i & K & A). split; [|exact C]. exists k. split; [exact K|]. rewrite (ldiff_land _ _ (B k K)). apply nonzero_bits. exists i. exact A.
Qed.
Lemma nrm_takes w x : length x = (10 + w + w)%nat -> bad w x = false -> takes_over w x (nrm w x).
Proof.
  intros L B. assert (I := idle_spec w x L B). split; [rewrite nrm_length, L by exact L; reflexivity|]. unfold nrm. rewrite B. destruct (idle w x).
  - split; [intros H; apply I in H; discriminate|]. intros _. split; [apply reset_core | intros k; apply reset_v].
  - split; [|intros H; destruct H; apply I; reflexivity]. intros _.
    unfold bad in B. apply orb_false_iff in B. destruct B as (B & _). apply negb_false_iff in B. rewrite (check_spec w x L) in B.
    split.
    + apply list_ext; [rewrite !firstn_length, clear_length by exact L; lia|].
      intros k K. rewrite firstn_length, clear_length in K by exact L.
      rewrite (nth_part 10 0 (snd (clear_valid_if_clean w x)) k ltac:(lia) : nth k (firstn 10 (snd (clear_valid_if_clean w x))) 0 = nth k (snd (clear_valid_if_clean w x)) 0).
      rewrite (nth_part 10 0 x k ltac:(lia) : nth k (firstn 10 x) 0 = nth k x 0). apply clear_head; [exact L | lia].
    + intros k K. rewrite clear_v, clear_d by assumption. split; [apply ldiff_land, B, K | reflexivity].
Qed.
(** All lines together *)
Lemma cat_some l evs : cat l = Some evs -> Forall (fun o => o <> None) l /\ evs = flat_map (fun o => match o with Some a => a | None => [] end) l.
Proof.
  revert evs. induction l as [|[a|] l IH]; cbn [cat flat_map]; intros evs H; [injection H as <-; split; [constructor | reflexivity] | | discriminate].
  destruct (cat l) as [b|]; [|discriminate]. injection H as <-. destruct (IH b eq_refl) as (F & ->). split; [constructor; [discriminate | exact F] | reflexivity].
Qed.
Lemma cat_all l : Forall (fun o => o <> None) l -> cat l <> None.
Proof.
  induction 1 as [|[a|] l H F IH]; cbn [cat]; [discriminate | | congruence]. destruct (cat l); [discriminate | congruence].
Qed.
Definition one (w : nat) (x : entry) (l : N) : ev := if idle w x then Free l else Mapped l (e_core x) (e_line x).
Lemma out_one cv w x l a : out cv w x l = Some a -> bad w x = false /\ a = [one w x l] /\ (idle w x = false -> cv (e_core x) = true).
Proof.
  unfold out, one. destruct (bad w x); [discriminate|]. destruct (idle w x); [intros H; injection H as <-; split; [reflexivity|]; split; [reflexivity | discriminate]|].
  destruct (cv (e_core x)) eqn:C; [|discriminate]. intros H. injection H as <-. split; [reflexivity|]. split; reflexivity.
Qed.
Lemma outs_events cv w m ls evs : outs cv w m ls = Some evs -> evs = map (fun l => one w (ent w m l) l) ls.
Proof.
  intros H. destruct (cat_some _ _ H) as (F & ->). clear H. induction ls as [|l ls IH]; cbn [map flat_map]; [reflexivity|].
  cbn [map] in F. apply Forall_cons_iff in F. destruct F as (F1 & F2). rewrite (IH F2).
  destruct (out cv w (ent w m l) l) as [a|] eqn:E; [|congruence]. destruct (out_one _ _ _ _ _ E) as (_ & -> & _). reflexivity.
Qed.
Lemma near_out P cv s l : near P s -> l < N.of_nat (nl P) -> out cv (w P) (ent (w P) (m_coll s) l) l = out cv (w P) (on_dev P (disk s) l) l.
Proof.
  intros (_ & C) H. specialize (C l H). rewrite in_ram_ent in C.
  rewrite <- (out_nrm cv _ (ent _ _ _)), C by apply ent_length. apply out_nrm, rd_length.
Qed.
Lemma near_outs P cv s : near P s -> outs cv (w P) (m_coll s) (order (nl P)) = cat (map (fun l => out cv (w P) (on_dev P (disk s) l) l) (order (nl P))).
Proof.
  intros C. unfold outs. f_equal. apply map_ext_in. intros l I. apply near_out; [exact C | apply in_order, I].
Qed.
Definition lines_ok (P : par) (d : N -> N) : Prop := forall l, l < N.of_nat (nl P) -> consistent (w P) (on_dev P d l) /\
    (holds_dirty (w P) (on_dev P d l) -> cores P d (core_of (on_dev P d l)) = true).
Lemma out_ok P d l : consistent (w P) (on_dev P d l) /\ (holds_dirty (w P) (on_dev P d l) -> cores P d (core_of (on_dev P d l)) = true) <->
  out (cores P d) (w P) (on_dev P d l) l <> None.
Proof.
  set (x := on_dev P d l). assert (L : length x = (10 + w P + w P)%nat) by apply rd_length.
  rewrite <- (bad_spec _ x L). unfold out. change (core_of x) with (e_core x). assert (I := idle_spec (w P) x L). destruct (bad (w P) x); [split; [intros (H & _); discriminate | congruence]|].
  specialize (I eq_refl). rewrite <- I. destruct (idle (w P) x); [split; [discriminate | intros _; split; [reflexivity | discriminate]]|].
  destruct (cores P d (e_core x)); [split; [discriminate | intros _; split; reflexivity] | split; [intros (_ & H); discriminate (H eq_refl) | congruence]].
Qed.
Lemma near_lines P s : near P s -> (lines_ok P (disk s) <-> outs (cores P (disk s)) (w P) (m_coll s) (order (nl P)) <> None).
Proof.
  intros C. rewrite (near_outs P _ s C). split.
  - intros H. apply cat_all. apply Forall_forall. intros o I. apply in_map_iff in I. destruct I as (l & <- & I). apply out_ok, H, in_order, I.
  - intros H l I. apply out_ok. destruct (cat (map _ (order (nl P)))) as [evs|] eqn:E; [|congruence]. apply cat_some in E. destruct E as (F & _).
    rewrite Forall_forall in F. apply F. apply in_map_iff. exists l. split; [reflexivity | apply in_order, I].
Qed.
Lemma near_handed P s evs : near P s -> outs (cores P (disk s)) (w P) (m_coll s) (order (nl P)) = Some evs -> handed_right P (disk s) evs.
Proof.
  intros C E. assert (K : lines_ok P (disk s)) by (apply (near_lines P s C); congruence).
  rewrite (near_outs P _ s C) in E. destruct (cat_some _ _ E) as (F & ->).
  assert (M : flat_map (fun o => match o with Some a => a | None => [] end) (map (fun l => out (cores P (disk s)) (w P) (on_dev P (disk s) l) l) (order (nl P)))
    = map (fun l => one (w P) (on_dev P (disk s) l) l) (order (nl P))).
  { clear E. revert F. generalize (order (nl P)). intros ls. induction ls as [|l ls IH]; cbn [map flat_map]; intros F; [reflexivity|].
    apply Forall_cons_iff in F. destruct F as (F1 & F2). rewrite (IH F2).
    destruct (out (cores P (disk s)) (w P) (on_dev P (disk s) l) l) as [a|] eqn:Q; [|congruence]. destruct (out_one _ _ _ _ _ Q) as (_ & -> & _). reflexivity. }
  rewrite M. clear M F E. split.
  - rewrite map_map. rewrite (map_ext _ (fun l => l)); [rewrite map_id; apply order_perm|]. intros l. unfold one. destruct (idle _ _); reflexivity.
  - intros e I. apply in_map_iff in I. destruct I as (l & <- & I). apply in_order in I. destruct (K l I) as (Kc & _).
    assert (L : length (on_dev P (disk s) l) = (10 + w P + w P)%nat) by apply rd_length.
    apply (bad_spec _ _ L) in Kc. assert (Q := idle_spec _ _ L Kc). unfold one. destruct (idle (w P) (on_dev P (disk s) l)).
    + intros H. apply Q in H. discriminate.
    + split; [apply Q; reflexivity|]. split; reflexivity.
Qed.

(** ** Activating *)
Lemma same_spec x y : same x y = true <-> x = y.
Proof. unfold same. destruct (list_eq_dec N.eq_dec x y); split; congruence. Qed.
Lemma mirror_byte P m d a : par_ok P -> seg_mirror (sb (geom P)) m d -> a < pages (sb (geom P)) * PAGE -> m a = d a.
Proof.
  intros (G & Z & E & _) M A. assert (D := N.div_mod a PAGE PAGE_pos). assert (R := N.mod_lt a PAGE PAGE_pos).
  specialize (M (a / PAGE) (a mod PAGE)). rewrite E, Z in M. replace (0 + a / PAGE) with (a / PAGE) in M by lia.
  rewrite (N.mul_comm _ PAGE), <- D in M. apply M; [apply N.div_lt_upper_bound; [apply PAGE_pos | lia] | exact R].
Qed.
Lemma byte_mirror P m d : par_ok P -> (forall a, a < pages (sb (geom P)) * PAGE -> m a = d a) -> seg_mirror (sb (geom P)) m d.
Proof.
  intros (G & Z & E & _) H p j Hp Hj. rewrite E in *. rewrite Z, N.add_0_l. apply H.
  assert ((p + 1) * PAGE <= pages (sb (geom P)) * PAGE) by (apply N.mul_le_mono_r; lia). lia.
Qed.
Lemma near_same P s : par_ok P -> near P s -> same_sb P s = true.
Proof.
  intros O (M & _). apply forallb_forall. intros k K. apply in_seq in K. apply N.eqb_eq. apply (mirror_byte P _ _ _ O M).
  destruct O as (_ & _ & _ & _ & _ & _ & _ & _ & B & _). lia.
Qed.
Lemma version_same P m d : par_ok P -> seg_mirror (sb (geom P)) m d -> rd d 8 4 = le4 (version P) -> seg_mirror (sb (geom P)) (put32 m 8 (version P)) d.
Proof.
  intros O M V. apply (byte_mirror P _ _ O). intros a A. unfold put32. rewrite <- V.
  destruct (N.lt_ge_cases a 8); [rewrite wr_out by (left; assumption); apply (mirror_byte P _ _ _ O M A)|].
  destruct (N.lt_ge_cases a 12); [|rewrite wr_out by (right; rewrite rd_length; lia); apply (mirror_byte P _ _ _ O M A)].
  replace a with (8 + (a - 8)) at 1 by lia. rewrite wr_in by (rewrite rd_length; lia). rewrite rd_nth by lia. f_equal. lia.
Qed.
(** What activation does up to the shutdown status *)
Lemma activate_spec P f s : par_ok P -> standing P s -> frozen s = true ->
  exists r s', activate P f s = Some (r, s') /\
  ((r <> ROk /\ standing P s' /\ frozen s' = true /\ disk (ps s') = disk (ps s) /\ (early f \/ ~ acceptable P (disk (ps s)))) \/
   (~ early f /\ acceptable P (disk (ps s)) /\ exists p evs, near P p /\ disk p = disk (ps s) /\ handed_right P (disk (ps s)) evs /\
    (forall l, l < N.of_nat (nl P) -> in_ram P (m_coll p) l = nrm (w P) (on_dev P (disk (ps s)) l)) /\
    let (ok, p') := set_status P (f_stat f) p in
    if ok then r = ROk /\ s' = {| ps := p'; frozen := false; active := true; handed := evs |}
    else r = RWrite /\ s' = {| ps := p'; frozen := true; active := false; handed := handed s |})).
Proof.
  intros O (A & C) F. assert (St : standing P s) by (split; assumption). unfold activate, early. rewrite A, F. cbn [negb].
  destruct (f_open f || f_read f) eqn:E1.
  { exists RFail, s. split; [reflexivity|]. left. split; [discriminate|]. split; [exact St|]. split; [exact F|]. split; [reflexivity|].
    left. cbn [orb]. reflexivity. }
  rewrite (near_same P _ O C). cbn [negb orb]. destruct (f_load f) eqn:E2.
  { exists RFail, s. split; [reflexivity|]. left. split; [discriminate|]. split; [exact St|]. split; [exact F|]. split; [reflexivity|].
    left. reflexivity. }
  assert (G1 := proj1 (proj1 O)).
  destruct (load_mirror _ _ (disk (ps s)) (m_sb (ps s)) G1) as (a & Ea & Ma). rewrite Ea. cbn [orb].
  destruct (same (rd (disk (ps s)) 8 4) (le4 (version P)) && good P (disk (ps s))) eqn:E3; cbn [negb].
  2:{ exists RInval, s. split; [reflexivity|]. left. split; [discriminate|]. split; [exact St|]. split; [exact F|]. split; [reflexivity|].
      right. intros (V & Gd & _). apply same_spec in V. rewrite V, Gd in E3. discriminate. }
  apply andb_prop in E3. destruct E3 as (V & Gd). apply same_spec in V.
  destruct (f_mid f) eqn:E4.
  { eexists. eexists. split; [reflexivity|]. left. cbn [ps disk frozen]. split; [discriminate|].
    split; [split; [reflexivity | split; [exact Ma | exact (proj2 C)]]|]. split; [reflexivity|]. split; [reflexivity|].
    left. reflexivity. }
  cbn [orb].
  assert (R := rebuild_spec (cores P (disk (ps s))) (w P) (nl P) (m_coll (ps s))). assert (Ln := near_lines P (ps s) C).
  assert (Hd := near_handed P (ps s)).
  destruct (rebuild (cores P (disk (ps s))) (w P) (nl P) (m_coll (ps s))) as (r, b). destruct R as (Er & S & D).
  rewrite <- Er in Ln. set (p := {| disk := disk (ps s); m_sb := put32 a 8 (version P); m_coll := b |}).
  assert (Cp : near P p).
  { split; cbn [p m_sb disk m_coll]; [apply version_same; assumption|]. intros l H. rewrite in_ram_ent, (settles_nrm _ _ _ l S), <- in_ram_ent. apply (proj2 C l H). }
  destruct r as [evs|].
  2:{ eexists. eexists. split; [reflexivity|]. left. cbn [ps frozen]. split; [discriminate|]. split; [split; [reflexivity | exact Cp]|]. split; [reflexivity|].
      split; [reflexivity|]. right. intros (_ & _ & H). apply Ln in H. congruence. }
  assert (K : acceptable P (disk (ps s))) by (split; [exact V|]; split; [exact Gd|]; apply Ln; discriminate).
  destruct (f_clean f) eqn:E5.
  { eexists. eexists. split; [reflexivity|]. left. cbn [ps frozen]. split; [discriminate|]. split; [split; [reflexivity | exact Cp]|]. split; [reflexivity|].
    split; [reflexivity|]. left. reflexivity. }
  destruct (set_status P (f_stat f) p) as (ok, p') eqn:Es.
  exists (if ok then ROk else RWrite), (if ok then {| ps := p'; frozen := false; active := true; handed := evs |} else {| ps := p'; frozen := true; active := false; handed := handed s |}).
  split; [destruct ok; [reflexivity | rewrite ?A, ?F; reflexivity]|]. right. split; [discriminate|]. split; [exact K|]. exists p, evs. split; [exact Cp|]. split; [reflexivity|].
  split; [apply Hd; [exact C | symmetry; exact Er]|]. split.
  { intros l H. cbn [p m_coll]. rewrite in_ram_ent, (D ltac:(discriminate) l H), <- in_ram_ent. apply (proj2 C l H). }
  rewrite Es. destruct ok; split; reflexivity.
Qed.
Lemma attempts_near P fs : par_ok P -> Forall early fs -> forall s, standing P s -> frozen s = true ->
  exists s', attempts P fs s = Some s' /\ standing P s' /\ frozen s' = true /\ disk (ps s') = disk (ps s).
Proof.
  intros O. induction fs as [|f fs IH]; intros F s St Z; cbn [attempts].
  { exists s. split; [reflexivity|]. split; [exact St|]. split; [exact Z | reflexivity]. }
  apply Forall_cons_iff in F. destruct F as (F1 & F2).
  destruct (activate_spec P f s O St Z) as (r & s1 & E & [(_ & S1 & Z1 & D1 & _)|(H & _)]); [|contradiction].
  rewrite E. destruct (IH F2 s1 S1 Z1) as (s2 & E2 & S2 & Z2 & D2). exists s2. split; [exact E2|]. split; [exact S2|]. split; [exact Z2 | congruence].
Qed.
(** The shutdown status *)
Lemma write_cfg_out l : forall d a, (forall ax, In ax l -> a < fst ax \/ fst ax + N.of_nat (length (snd ax)) <= a) -> write_cfg l d a = d a.
Proof.
  unfold write_cfg. induction l as [|ax l IH]; intros d a H; cbn [fold_left]; [reflexivity|].
  rewrite IH by (intros bx I; apply H; right; exact I). apply wr_out, H. left. reflexivity.
Qed.
Lemma le4_length n : length (le4 n) = 4%nat. Proof. reflexivity. Qed.
Lemma set_ck_out P sv m a : a < ckoff P -> set_ck P m sv a = m a.
Proof. intros H. unfold set_ck, put32. apply wr_out. left. lia. Qed.
Lemma set_cks_out P l : forall m a, a < ckoff P -> fold_left (set_ck P) l m a = m a.
Proof.
  induction l as [|sv l IH]; intros m a H; cbn [fold_left]; [reflexivity|]. rewrite IH by exact H. apply set_ck_out, H.
Qed.
Lemma put32_out m b v a : a < b \/ b + 4 <= a -> put32 m b v a = m a.
Proof. intros H. unfold put32. apply wr_out. rewrite le4_length. lia. Qed.
Lemma firstn_incl {A} n (l : list A) x : In x (firstn n l) -> In x l.
Proof. intros H. rewrite <- (firstn_skipn n l). apply in_or_app. left. exact H. Qed.
Lemma cfg_sb P k m d a : par_ok P -> a < pages (sb (geom P)) * PAGE -> write_cfg (firstn k (cfgw P m)) d a = d a.
Proof.
  intros (_ & _ & _ & _ & _ & _ & _ & _ & _ & W & _) A. apply write_cfg_out. intros ax I. apply firstn_incl in I. destruct (W m ax I) as (B & _). lia.
Qed.
Lemma cfg_coll P k m d l : par_ok P -> l < N.of_nat (nl P) -> on_dev P (write_cfg (firstn k (cfgw P m)) d) l = on_dev P d l.
Proof.
  intros O H. apply (dev_same P _ _ _ O H). intros a A B. destruct O as (_ & _ & _ & _ & _ & _ & _ & _ & _ & W & _).
  apply write_cfg_out. intros ax I. apply firstn_incl in I. destruct (W m ax I) as (_ & C). lia.
Qed.
Lemma save_coll P m d l : par_ok P -> l < N.of_nat (nl P) -> on_dev P (save_seg (sb (geom P)) m d) l = on_dev P d l.
Proof.
  intros O H. apply (dev_same P _ _ _ O H). intros a A B. destruct O as (_ & Z & _ & _ & _ & Zo & _). apply save_out. right. rewrite Z, N.add_0_l.
  assert (pages (sb (geom P)) * PAGE <= off (coll (geom P)) * PAGE) by (apply N.mul_le_mono_r; exact Zo). lia.
Qed.
Lemma status_coll P f p l : par_ok P -> l < N.of_nat (nl P) -> let p' := snd (set_status P f p) in
  m_coll p' = m_coll p /\ on_dev P (disk p') l = on_dev P (disk p) l.
Proof.
  intros O H. unfold set_status. set (m := put32 _ _ _). assert (E : forall m, cfgw P m = firstn (length (cfgw P m)) (cfgw P m)) by (intros; symmetry; apply firstn_all).
  destruct f; cbn [snd m_coll disk]; split; try reflexivity.
  all: rewrite ?(save_coll P) by assumption; try (apply cfg_coll; assumption). all: rewrite E; apply cfg_coll; assumption.
Qed.
Lemma status_done P p : par_ok P -> exists p', set_status P SNone p = (true, p') /\ seg_mirror (sb (geom P)) (m_sb p') (disk p') /\ m_sb p' 0 = 0.
Proof.
  intros O. eexists. split; [reflexivity|]. cbn [m_sb disk]. split; [eapply save_mirror; apply (proj1 (proj1 O))|].
  assert (C := O). destruct C as (_ & _ & _ & _ & _ & _ & C & _). rewrite set_ck_out by lia. rewrite put32_out by (left; lia). rewrite set_cks_out by lia.
  rewrite put32_out by (left; lia). reflexivity.
Qed.
(** ** The theorems *)
Definition on_device (l : list io) (d : N -> N) : N -> N := fold_left (fun d i => dev_write i d) l d.
Theorem C71_failover P s0 l fs f : par_ok P -> starts P s0 -> Forall (io_ok (geom P)) l -> Forall early fs -> quiet f ->
  let d := on_device l (disk (ps s0)) in
  exists s1 s2 r s3, writes P l s0 = Some s1 /\ attempts P fs (standby_detach s1) = Some s2 /\ activate P f s2 = Some (r, s3) /\
  (r = ROk <-> acceptable P d) /\
  (r = ROk -> active s3 = true /\ frozen s3 = false /\ handed_right P d (handed s3) /\
    (forall k, k < N.of_nat (nl P) -> takes_over (w P) (on_dev P d k) (in_ram P (m_coll (ps s3)) k) /\ on_dev P (disk (ps s3)) k = on_dev P d k) /\
    disk (ps s3) 0 = 0 /\ seg_mirror (sb (geom P)) (m_sb (ps s3)) (disk (ps s3))) /\
  (r <> ROk -> active s3 = false /\ frozen s3 = true /\ disk (ps s3) = d).
Proof.
  intros O St L F (Q1 & Q2) d. destruct (starts_near P s0 O St) as (S0 & Z0).
  destruct (writes_near P l O L s0 S0 Z0) as (s1 & E1 & S1 & Z1 & D1).
  assert (S1' : standing P (standby_detach s1)) by (unfold standby_detach; rewrite (proj1 S1), Z1; cbn [orb]; split; [reflexivity | exact (proj2 S1)]).
  assert (Z1' : frozen (standby_detach s1) = true) by (unfold standby_detach; rewrite (proj1 S1), Z1; reflexivity).
  assert (D1' : disk (ps (standby_detach s1)) = d) by (unfold standby_detach; rewrite (proj1 S1), Z1; exact D1).
  destruct (attempts_near P fs O F _ S1' Z1') as (s2 & E2 & S2 & Z2 & D2). rewrite D1' in D2.
  destruct (activate_spec P f s2 O S2 Z2) as (r & s3 & E3 & H). exists s1, s2, r, s3.
  split; [exact E1|]. split; [exact E2|]. split; [exact E3|]. rewrite D2 in H.
  destruct H as [(R & S3 & Z3 & D3 & H)|(_ & A & p & evs & Cp & Dp & Hd & M & H)].
  - split; [split; [intros X; contradiction|]; intros A; destruct H as [H|H]; [unfold early in H; congruence | contradiction]|].
    split; [intros X; contradiction|]. intros _. split; [exact (proj1 S3)|]. split; [exact Z3 | exact D3].
  - rewrite Q2 in H. destruct (status_done P p O) as (p' & Es & Ms & M0). assert (Sc := fun k Hk => status_coll P SNone p k O Hk).
    rewrite Es in H, Sc. cbn [snd] in Sc. destruct H as (-> & ->).
    split; [split; [intros _; exact A | reflexivity]|]. split; [|intros X; congruence]. intros _. cbn [active frozen handed ps].
    split; [reflexivity|]. split; [reflexivity|]. split; [exact Hd|]. split.
    + intros k K. destruct (Sc k K) as (Ec & Ed). rewrite Ec, Ed, Dp. split; [|reflexivity]. rewrite (M k K). apply nrm_takes; [apply rd_length|].
      apply bad_spec; [apply rd_length|]. apply (proj2 (proj2 A) k K).
    + split; [|exact Ms]. rewrite <- (mirror_byte P _ _ 0 O Ms); [exact M0|]. destruct O as ((G & _) & _). destruct G as (_ & _ & _ & G & _).
      assert (1 * PAGE <= pages (sb (geom P)) * PAGE) by (apply N.mul_le_mono_r; lia). unfold PAGE in *. lia.
Qed.
(** A superblock changed on the device behind the instance's back is noticed, and nothing is done about it; nothing is
    written through the instance while it is detached, and it is not activated before it is. *)
Theorem C71_guard P f s : active s = false -> 
  (frozen s = true -> f_open f || f_read f = false -> (exists k, k < sbsize P /\ m_sb (ps s) k <> disk (ps s) k) -> activate P f s = Some (RMismatch, s)) /\
  (frozen s = true -> forall i, volume_write P i s = Some s) /\ (frozen s = false -> activate P f s = Some (RRefused, s)).
Proof.
  intros A. split.
  - intros F E (k & K & D). unfold activate. rewrite A, F, E. cbn [negb]. replace (same_sb P (ps s)) with false; [reflexivity|].
    symmetry. apply not_true_is_false. intros H. unfold same_sb in H. rewrite forallb_forall in H. specialize (H (N.to_nat k)).
    rewrite N2Nat.id in H. apply D, N.eqb_eq, H. apply in_seq. lia.
  - split; [intros F i; unfold volume_write; rewrite F; reflexivity|]. intros F. unfold activate. rewrite A, F. reflexivity.
Qed.
(** ** Trying again *)
Definition reaches (P : par) (s : fo) : Prop := exists s0 l fs s1, starts P s0 /\ Forall (io_ok (geom P)) l /\ Forall early fs /\
  writes P l s0 = Some s1 /\ attempts P fs (standby_detach s1) = Some s.
Lemma reaches_standing P s : par_ok P -> reaches P s -> standing P s /\ frozen s = true.
Proof.
  intros O (s0 & l & fs & s1 & St & L & F & E1 & E2). destruct (starts_near P s0 O St) as (S0 & Z0).
  destruct (writes_near P l O L s0 S0 Z0) as (s1' & E1' & S1 & Z1 & _). rewrite E1 in E1'. injection E1' as <-.
  assert (S1' : standing P (standby_detach s1)) by (unfold standby_detach; rewrite (proj1 S1), Z1; cbn [orb]; split; [reflexivity | exact (proj2 S1)]).
  assert (Z1' : frozen (standby_detach s1) = true) by (unfold standby_detach; rewrite (proj1 S1), Z1; reflexivity).
  destruct (attempts_near P fs O F _ S1' Z1') as (s2 & E2' & S2 & Z2 & _). rewrite E2 in E2'. injection E2' as <-. split; assumption.
Qed.
Lemma get32_rd m f : f < 2 -> rd m 12 4 = le4 f -> get32 m 12 = f.
Proof.
  intros F H. assert (B : forall k, (k < 4)%nat -> m (12 + N.of_nat k) = nth k (le4 f) 0) by (intros k K; rewrite <- H; symmetry; apply rd_nth, K).
  assert (H0 : m 12 = nth 0 (le4 f) 0) by exact (B 0%nat ltac:(lia)). assert (H1 : m (12 + 1) = nth 1 (le4 f) 0) by exact (B 1%nat ltac:(lia)).
  assert (H2 : m (12 + 2) = nth 2 (le4 f) 0) by exact (B 2%nat ltac:(lia)). assert (H3 : m (12 + 3) = nth 3 (le4 f) 0) by exact (B 3%nat ltac:(lia)).
  unfold get32. rewrite H0, H1, H2, H3.
  assert (C : f = 0 \/ f = 1) by lia. destruct C as [-> | ->]; reflexivity.
Qed.
Lemma get32_same m m' : (forall a, 12 <= a -> a < 16 -> m a = m' a) -> get32 m 12 = get32 m' 12.
Proof. intros H. unfold get32. rewrite !H by lia. reflexivity. Qed.
Lemma put32_get m v : v < 2 -> get32 (put32 m 12 v) 12 = v /\ put32 m 12 v 12 = v.
Proof. intros H. assert (C : v = 0 \/ v = 1) by lia. destruct C as [-> | ->]; split; reflexivity. Qed.
Lemma flap_values f : f < 2 -> ((f + 1) mod two32) mod 2 = 1 - f /\ ((f + (two32 - 1)) mod two32) mod 2 = 1 - f.
Proof. intros H. assert (C : f = 0 \/ f = 1) by lia. destruct C as [-> | ->]; split; reflexivity. Qed.
Theorem C71_stuck P s f k : par_ok P -> reaches P s -> acceptable P (disk (ps s)) -> ~ early f -> f_stat f = SCfg k \/ f_stat f = SFlush ->
  exists s', activate P f s = Some (RWrite, s') /\
  (forall l, l < N.of_nat (nl P) -> on_dev P (disk (ps s')) l = on_dev P (disk (ps s)) l) /\
  forall fs, attempts P fs s' = Some s' /\ active s' = false.
Proof.
  intros O R A E Sf. destruct (reaches_standing P s O R) as (St & Z).
  destruct (activate_spec P f s O St Z) as (r & s' & Ea & [(_ & _ & _ & _ & [H|H])|(_ & _ & p & evs & Cp & Dp & _ & _ & H)]); [contradiction | contradiction|].
  assert (Sc := fun k Hk => status_coll P (f_stat f) p k O Hk).
  assert (C := O). destruct C as (G & Zs & Ze & _ & _ & _ & C1 & C2 & C3 & _ & Cg). destruct A as (_ & Gd & _). destruct (Cg _ Gd) as (v & Hv & Ev).
  assert (Big : 16 <= pages (sb (geom P)) * PAGE) by lia.
  assert (Em : get32 (m_sb p) 12 = v).
  { rewrite (get32_same _ (disk p)) by (intros; apply (mirror_byte P _ _ _ O (proj1 Cp)); lia). rewrite Dp. apply get32_rd; assumption. }
  assert (Ed : disk p 12 = v) by (rewrite Dp; injection Ev as E0 _ _ _; rewrite E0; apply N.mod_small; lia).
  destruct (set_status P (f_stat f) p) as (ok, p') eqn:Es. cbn [snd] in Sc.
  assert (K : ok = false /\ m_sb p' 12 <> disk p' 12).
  { clear Sc H. destruct (flap_values v Hv) as (F1 & F2). assert (Hv' : 1 - v < 2) by lia. destruct Sf as [Sf|Sf]; rewrite Sf in Es; unfold set_status in Es.
    - injection Es as <- <-. split; [reflexivity|]. cbn [m_sb disk]. rewrite cfg_sb by (try exact O; lia). rewrite Ed. unfold flap_back.
      rewrite (get32_same _ (m_sb p)) by (intros; rewrite set_cks_out by lia; rewrite put32_out by (right; lia); apply wr_out; right; cbn [length]; lia).
      rewrite Em, F2. rewrite (proj2 (put32_get _ _ Hv')). lia.
    - injection Es as <- <-. split; [reflexivity|]. cbn [m_sb disk].
      set (m0 := fold_left (set_ck P) (sums P (put32 (wr (m_sb p) 0 [0]) 4 410918054)) (put32 (wr (m_sb p) 0 [0]) 4 410918054)).
      assert (E0 : get32 m0 12 = v).
      { rewrite <- Em. apply get32_same. intros. unfold m0. rewrite set_cks_out by lia. rewrite put32_out by (right; lia). apply wr_out. right. cbn [length]. lia. }
      rewrite E0, F1. set (m1 := put32 m0 12 (1 - v)). set (m2 := set_ck P m1 (0, crc P (rd m1 0 (N.to_nat (ckoff P))))).
      assert (E2 : get32 m2 12 = 1 - v).
      { rewrite (get32_same _ m1) by (intros; apply set_ck_out; lia). apply put32_get. exact Hv'. }
      rewrite <- (mirror_byte P m2 _ 12 O (save_mirror _ _ m2 _ (proj1 G)) ltac:(lia)).
      unfold m2 at 2. rewrite set_ck_out by lia. unfold m1 at 1. rewrite (proj2 (put32_get m0 _ Hv')).
      unfold flap_back. rewrite E2. destruct (flap_values (1 - v) Hv') as (_ & F3). rewrite F3, (proj2 (put32_get m2 (1 - (1 - v)) ltac:(lia))). lia. }
  destruct K as (-> & K). destruct H as (-> & ->). eexists. split; [exact Ea|]. cbn [ps active]. split.
  { intros l H. rewrite <- Dp. apply (Sc l H). }
  intros fs. split; [|reflexivity]. induction fs as [|g fs IH]; cbn [attempts]; [reflexivity|].
  set (s' := {| ps := p'; frozen := true; active := false; handed := handed s |}) in *.
  destruct (f_open g || f_read g) eqn:Eg.
  - assert (X : activate P g s' = Some (RFail, s')) by (unfold activate; cbn [s' active frozen negb]; rewrite Eg; reflexivity). rewrite X. exact IH.
  - rewrite (proj1 (C71_guard P g s' eq_refl) eq_refl Eg); [exact IH|]. exists 12. split; [lia | exact K].
Qed.
(** ** A standby instance *)
(** A page of superblock, a page of configuration, a page of collision entries for three lines; cores 0 and 1 *)
Definition P0 : par :=
  {| geom := {| sb := {| off := 0; pages := 1; es := PAGE; eip := 1 |}; coll := {| off := 2; pages := 1; es := 12; eip := 341 |}; meta_pages := 3 |};
     nl := 3; w := 1; sbsize := 64; ckoff := 32; version := 7;
     good := fun d => same (rd d 12 4) (le4 0) || same (rd d 12 4) (le4 1); cores := fun _ c => c <? 2;
     crc := fun x => fold_left N.add x 0; sums := fun _ => [(1, 5)]; cfgw := fun _ => [(PAGE, [1; 2; 3])] |}.
Lemma P0_ok : par_ok P0.
Proof.
  unfold par_ok, geo_ok, seg_ok. cbn [P0 geom sb coll off pages es eip meta_pages nl w sbsize ckoff cfgw good].
  split; [split; [|split]; [repeat split; vm_compute; (reflexivity || discriminate) .. | vm_compute; reflexivity]|].
  split; [reflexivity|]. split; [reflexivity|]. split; [reflexivity|]. split; [vm_compute; discriminate|]. split; [vm_compute; discriminate|].
  split; [vm_compute; discriminate|]. split; [vm_compute; discriminate|]. split; [vm_compute; discriminate|]. split.
  - intros m ax [<-|[]]. split; [vm_compute; discriminate|]. left. vm_compute. discriminate.
  - intros d H. apply orb_true_iff in H. destruct H as [H|H]; apply same_spec in H; [exists 0 | exists 1]; (split; [reflexivity | exact H]).
Qed.
(** What the peer writes: superblocks, and a page in which line 1 holds core line 5 of core 1 with sector 0 dirty and
    sector 1 clean, and line 2 holds a clean sector *)
Definition bytes_of (x : list N) : N -> N := fun a => nth (N.to_nat a) x 0.
Definition peer_sb (clean flap : N) : io := {| write := true; addr := 0; bytes := PAGE; data := bytes_of ([clean; 0; 0; 0; 166; 28; 126; 24; 7; 0; 0; 0; flap] ++ repeat 0 50); doff := 0 |}.
Definition peer_entries : list N := repeat 255 8 ++ [0; 16; 0; 0] ++ [5; 0; 0; 0; 0; 0; 0; 0; 1; 0; 3; 1] ++ [9; 0; 0; 0; 0; 0; 0; 0; 0; 0; 1; 0].
Definition peer_coll : io := {| write := true; addr := 2 * PAGE; bytes := PAGE; data := bytes_of peer_entries; doff := 0 |}.
Definition peer : list io := [peer_sb 1 0; peer_coll; peer_sb 0 1; {| write := true; addr := 3 * PAGE; bytes := 512; data := fun _ => 77; doff := 0 |}].
Definition started : fo := standby_attach P0 (fun _ => 0) (fun _ => 9).
Definition fine : fails := {| f_open := false; f_read := false; f_load := false; f_mid := false; f_clean := false; f_stat := SNone |}.
Definition opens_not : fails := {| f_open := true; f_read := false; f_load := false; f_mid := false; f_clean := false; f_stat := SNone |}.
Definition cleans_not : fails := {| f_open := false; f_read := false; f_load := false; f_mid := false; f_clean := true; f_stat := SNone |}.
Definition late (f : stage) : fails := {| f_open := false; f_read := false; f_load := false; f_mid := false; f_clean := false; f_stat := f |}.
Lemma peer_ok : Forall (io_ok (geom P0)) peer.
Proof.
  assert (W : forall a x, a mod PAGE = 0 -> a + PAGE + PAGE < two64 -> io_ok (geom P0) {| write := true; addr := a; bytes := PAGE; data := x; doff := 0 |}).
  { intros a x A B. right. right. cbn [addr bytes doff]. split; [exact A|]. split; [reflexivity|]. split; [split; [reflexivity | vm_compute; discriminate]|]. split; [reflexivity | exact B]. }
  repeat apply Forall_cons; try apply Forall_nil; try (apply W; vm_compute; reflexivity).
  right. left. cbn [addr bytes]. split; [vm_compute; discriminate | vm_compute; reflexivity].
Qed.
Definition seen (o : option (res * fo)) : option (res * bool * list ev * list (list N)) :=
  match o with Some (r, s) => Some (r, active s, handed s, map (in_ram P0 (m_coll (ps s))) [0; 1; 2]) | None => None end.
Definition after (l : list io) (fs : list fails) (f : fails) : option (res * fo) :=
  match writes P0 l started with
  | Some s => match attempts P0 fs (standby_detach s) with Some s => activate P0 f s | None => None end
  | None => None
  end.
Lemma after_eq l fs f s1 s2 o : writes P0 l started = Some s1 -> attempts P0 fs (standby_detach s1) = Some s2 -> activate P0 f s2 = o -> after l fs f = o.
Proof. intros E1 E2 E3. unfold after. rewrite E1, E2. exact E3. Qed.
(** The hypotheses of C71_failover are met, and it is taken over: line 1 with its dirty sector only *)
Example C71_failover_case : par_ok P0 /\ starts P0 started /\ Forall (io_ok (geom P0)) peer /\ Forall early [opens_not; cleans_not] /\ quiet fine /\
  seen (after peer [opens_not; cleans_not] fine) = Some (ROk, true, [Free 0; Mapped 1 1 [5; 0; 0; 0; 0; 0; 0; 0]; Free 2], [reset 1; [5; 0; 0; 0; 0; 0; 0; 0; 1; 0; 1; 1]; reset 1]).
Proof.
  split; [exact P0_ok|]. split; [apply starts_attach|]. split; [exact peer_ok|]. split; [repeat constructor|]. split; [split; reflexivity|]. vm_compute. reflexivity.
Qed.
(** A device holding that is also taken over when the instance is started by loading it; entries that are not
    consistent are refused *)
Example C71_load_case : match standby_load P0 (on_device peer (fun _ => 0)) with
  | Some s => seen (activate P0 fine (standby_detach s)) | None => None end
  = Some (ROk, true, [Free 0; Mapped 1 1 [5; 0; 0; 0; 0; 0; 0; 0]; Free 2], [reset 1; [5; 0; 0; 0; 0; 0; 0; 0; 1; 0; 1; 1]; reset 1]).
Proof. vm_compute. reflexivity. Qed.
Example C71_refused_case : let i := {| write := true; addr := 2 * PAGE; bytes := PAGE; data := bytes_of (repeat 255 8 ++ [0; 16; 0; 1]); doff := 0 |} in
  io_ok (geom P0) i /\ match after (peer ++ [i]) [] fine with Some (r, s) => Some (r, active s, frozen s) | None => None end = Some (RStale, false, true).
Proof.
  split; [|vm_compute; reflexivity]. right. right. cbn [addr bytes doff]. split; [reflexivity|]. split; [reflexivity|]. split; [split; [reflexivity | vm_compute; discriminate]|].
  split; vm_compute; reflexivity.
Qed.
(** The superblock is changed by someone else while the instance is detached *)
Example C71_guard_case : exists s, active s = false /\ frozen s = true /\ f_open fine || f_read fine = false /\ (exists k, k < sbsize P0 /\ m_sb (ps s) k <> disk (ps s) k).
Proof.
  assert (Q : match writes P0 peer started with Some s => m_sb (ps s) 12 = 1 | None => False end) by (vm_compute; reflexivity).
  destruct (writes P0 peer started) as [s|]; [|contradiction].
  exists {| ps := {| disk := dev_write (peer_sb 0 0) (disk (ps s)); m_sb := m_sb (ps s); m_coll := m_coll (ps s) |}; frozen := true; active := false; handed := [] |}.
  split; [reflexivity|]. split; [reflexivity|]. split; [reflexivity|]. exists 12. split; [reflexivity|]. cbn [ps m_sb disk]. rewrite Q. vm_compute. discriminate.
Qed.
(** An activation whose last write or flush fails cannot be tried again *)
Theorem C71_retry_refuted : exists P s f s', par_ok P /\ reaches P s /\ acceptable P (disk (ps s)) /\ ~ early f /\ f_stat f = SFlush /\
  activate P f s = Some (RWrite, s') /\ acceptable P (disk (ps s')) /\ forall fs, attempts P fs s' = Some s' /\ active s' = false.
Proof.
  destruct (C71_failover P0 started peer [] fine P0_ok (starts_attach P0 _ _) peer_ok ltac:(constructor) ltac:(split; reflexivity))
    as (s1 & s2 & r & s3 & E1 & E2 & E3 & (A & _) & _).
  assert (R : r = ROk).
  { assert (Q : match after peer [] fine with Some (r, _) => r = ROk | None => False end) by (vm_compute; reflexivity).
    rewrite (after_eq _ _ _ _ _ _ E1 E2 E3) in Q. exact Q. }
  assert (Rs : reaches P0 s2) by (exists started, peer, [], s1; split; [apply starts_attach|]; split; [exact peer_ok|]; split; [constructor|]; split; assumption).
  assert (D : disk (ps s2) = on_device peer (disk (ps started))).
  { destruct (starts_near P0 started P0_ok (starts_attach P0 _ _)) as (S0 & Z0).
    destruct (writes_near P0 peer P0_ok peer_ok started S0 Z0) as (s1' & E1' & S1 & Z1 & D1). rewrite E1 in E1'. injection E1' as <-.
    cbn [attempts] in E2. injection E2 as <-. unfold standby_detach. rewrite (proj1 S1), Z1. exact D1. }
  assert (Ac : acceptable P0 (disk (ps s2))) by (rewrite D; apply A, R).
  destruct (C71_stuck P0 s2 (late SFlush) 0 P0_ok Rs Ac ltac:(discriminate) ltac:(right; reflexivity)) as (s' & Ea & Eo & Ef).
  exists P0, s2, (late SFlush), s'. split; [exact P0_ok|]. split; [exact Rs|]. split; [exact Ac|]. split; [discriminate|]. split; [reflexivity|]. split; [exact Ea|].
  split; [|exact Ef].
  assert (Q : match after peer [] (late SFlush) with Some (_, s) => rd (disk (ps s)) 8 4 = le4 7 /\ good P0 (disk (ps s)) = true | None => False end) by (vm_compute; split; reflexivity).
  rewrite (after_eq _ _ _ _ _ _ E1 E2 Ea) in Q. destruct Q as (Q1 & Q2). split; [exact Q1|]. split; [exact Q2|].
  intros l H. rewrite (Eo l H). apply Ac, H.
Qed.
(** A write into the collision segment that is not of whole pages reaches the device only: the instance is activated
    and does not know about the dirty data *)
Definition sector_write : io := {| write := true; addr := 2 * PAGE; bytes := 512; data := bytes_of (peer_entries ++ repeat 0 500); doff := 0 |}.
Theorem C71_unnoticed_refuted : exists P s0 i s1 s2, par_ok P /\ starts P s0 /\ write i = true /\ bytes i mod 512 = 0 /\ addr i mod 512 = 0 /\
  writes P [peer_sb 0 1; i] s0 = Some s1 /\ activate P fine (standby_detach s1) = Some (ROk, s2) /\
  holds_dirty (w P) (on_dev P (disk (ps s1)) 1) /\ core_of (in_ram P (m_coll (ps s2)) 1) = 4096 /\ ~ takes_over (w P) (on_dev P (disk (ps s1)) 1) (in_ram P (m_coll (ps s2)) 1).
Proof.
  assert (Q : match writes P0 [peer_sb 0 1; sector_write] started with
    | Some s1 => on_dev P0 (disk (ps s1)) 1 = [5; 0; 0; 0; 0; 0; 0; 0; 1; 0; 3; 1] /\
      match activate P0 fine (standby_detach s1) with Some (ROk, s2) => in_ram P0 (m_coll (ps s2)) 1 = reset 1 | _ => False end
    | None => False end) by (vm_compute; split; reflexivity).
  destruct (writes P0 [peer_sb 0 1; sector_write] started) as [s1|] eqn:E1; [|contradiction]. destruct Q as (Q1 & Q2).
  destruct (activate P0 fine (standby_detach s1)) as [([], s2)|] eqn:E2; try contradiction.
  assert (Hd : holds_dirty (w P0) (on_dev P0 (disk (ps s1)) 1)) by (rewrite Q1; split; [vm_compute; discriminate|]; exists 0%nat, 0; split; [apply Nat.lt_0_1 | reflexivity]).
  exists P0, started, sector_write, s1, s2. split; [exact P0_ok|]. split; [apply starts_attach|]. split; [reflexivity|]. split; [reflexivity|]. split; [reflexivity|].
  split; [exact E1|]. split; [exact E2|]. split; [exact Hd|]. rewrite Q2. split; [reflexivity|].
  intros (_ & T & _). destruct (T Hd) as (T1 & _). rewrite Q1 in T1. vm_compute in T1. discriminate.
Qed.

Print Assumptions C71_failover.
Print Assumptions C71_guard.
Print Assumptions C71_stuck.
Print Assumptions C71_retry_refuted.
Print Assumptions C71_unnoticed_refuted.

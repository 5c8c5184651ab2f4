(** C75: memory that grows on demand is big enough, keeps what it must keep and is given back. *)
From Coq Require Import NArith List Bool Arith Lia.
From Verif Require Import ReallocModel.
Import ListNotations.
Open Scope N_scope.

(** ** What is claimed *)
(** A request a caller may make: an amount that fits a size_t, or none at all *)
Definition proper (size count : N) : Prop := (size = 0 <-> count = 0) /\ size * count < 18446744073709551616.
(** Histories, in a heap that holds the blocks [h0] of others *)
Inductive reaches (h0 : nat -> option blk) : st -> Prop :=
| reaches_init s : hp s = h0 -> (forall q, (next s <= q)%nat -> h0 q = None) -> reaches h0 (init s)
| reaches_call s cp size count ok r s' : reaches h0 s -> proper size count -> realloc cp size count ok s = Ret r s' -> reaches h0 s'
| reaches_store s k v r s' : reaches h0 s -> store k v s = Ret r s' -> reaches h0 s'.
(** What the caller has: nothing, or one block of [limit] bytes, from the allocator its size asks for; the blocks of
    others are as they were, and there is no further one. *)
Definition has (h0 : nat -> option blk) (s : st) : Prop :=
  (mem s = None /\ limit s = 0 /\ forall q, hp s q = h0 q) \/
  (exists p b, mem s = Some p /\ hp s p = Some b /\ bsize b = limit s /\ 0 < limit s /\ (big b = true <-> 131072 < limit s) /\
     h0 p = None /\ forall q, q <> p -> hp s q = h0 q).
Definition at_byte (s : st) (k : N) : option N :=
  match mem s with Some p => match hp s p with Some b => if k <? bsize b then Some (byte b k) else None | None => None end | None => None end.

(** ** Invariant *)
Definition inv (h0 : nat -> option blk) (s : st) : Prop :=
  has h0 s /\ (forall q, (next s <= q)%nat -> h0 q = None) /\ (forall p, mem s = Some p -> (p < next s)%nat).
Lemma put_same h p b : put h p b p = b.
Proof. unfold put. rewrite Nat.eqb_refl. reflexivity. Qed.
Lemma put_other h p b q : q <> p -> put h p b q = h q.
Proof. intros H. unfold put. destruct (Nat.eqb_spec q p); [contradiction | reflexivity]. Qed.
Lemma free_own v p h b : h p = Some b -> big b = v -> free v p h = Some (put h p None).
Proof. intros H <-. unfold free. rewrite H, eqb_reflx. reflexivity. Qed.
Lemma big_iff b n : (big b = true <-> 131072 < n) -> big b = (K_MAX <? n).
Proof. intros H. unfold K_MAX. destruct (N.ltb_spec 131072 n); [apply H; assumption|]. apply not_true_is_false. intros E. apply H in E. lia. Qed.
Lemma proper_cases size count : proper size count ->
  (size = 0 /\ count = 0) \/ (size <> 0 /\ count <> 0 /\ (size * count) mod two64 = size * count /\ 0 < size * count).
Proof.
  intros (E & L). destruct (N.eq_dec size 0) as [Z|Z]; [left; split; [exact Z | apply E, Z]|]. right.
  assert (count <> 0) by (intros C; apply Z, E, C). split; [exact Z|]. split; [assumption|]. split; [apply N.mod_small; exact L|].
  apply N.mul_pos_pos; lia.
Qed.
(** One call, for a state with the invariant: what it returns and what it leaves *)
Lemma realloc_spec h0 s cp size count ok : inv h0 s -> proper size count -> exists r s', realloc cp size count ok s = Ret r s' /\ inv h0 s' /\
  (r = false <-> ok = false /\ limit s < size * count) /\ (r = false -> s' = s) /\
  (size * count = 0 -> mem s' = None /\ limit s' = 0) /\
  (r = true -> size * count <> 0 -> limit s' = N.max (limit s) (size * count) /\
    forall k, k < limit s' -> at_byte s' k =
      if cp then if (k <? size * count) && (k <? limit s) then at_byte s k else Some 0
      else if size * count <=? limit s then at_byte s k else Some 0).
Proof.
  intros (H & F & M) P. destruct (proper_cases size count P) as [(-> & ->)|(Z1 & Z2 & E & L)]; clear P.
  - unfold realloc. cbn [N.eqb negb andb]. destruct H as [(H1 & H2 & H3)|(p & b & H1 & H2 & H3 & H4 & H5 & H6 & H7)].
    + rewrite H1, H2. cbn [N.eqb]. exists true, s. split; [reflexivity|]. split; [split; [left; auto | auto]|].
      split; [split; [discriminate | intros (_ & X); lia]|]. split; [discriminate|]. split; [auto|]. intros _ X. lia.
    + rewrite H1. destruct (N.eqb_spec (limit s) 0) as [X|_]; [lia|]. rewrite (free_own _ _ _ _ H2 (big_iff _ _ H5)).
      eexists true, _. split; [reflexivity|]. cbn [mem limit hp next].
      split; [split; [left; cbn [mem limit hp]; split; [reflexivity|]; split; [reflexivity|]; intros q | cbn [next mem]; split; [exact F | discriminate]]|].
      { destruct (Nat.eq_dec q p) as [->|N]; [rewrite put_same; symmetry; exact H6 | rewrite put_other by exact N; apply H7, N]. }
      split; [split; [discriminate | intros (_ & X); lia]|]. split; [discriminate|]. split; [auto|]. intros _ X. lia.
  - assert (Hz : size * count <> 0) by lia. unfold realloc. rewrite E. rewrite (proj2 (N.eqb_neq _ _) Z1), (proj2 (N.eqb_neq _ _) Z2). cbn [negb andb].
    destruct (N.ltb_spec (limit s) (size * count)) as [G|G].
    + destruct ok; cbn [negb].
      2:{ exists false, s. split; [reflexivity|]. split; [split; [exact H | auto]|]. split; [split; auto|]. split; [auto|].
          split; [intros X; lia | discriminate]. }
      assert (Fn : h0 (next s) = None) by (apply F; lia).
      set (nb := {| big := K_MAX <? size * count; bsize := size * count; byte := fun _ => 0 |}).
      assert (Bn : forall b : blk, big b = (K_MAX <? size * count) -> (big b = true <-> 131072 < size * count)).
      { intros b ->. unfold K_MAX. apply N.ltb_lt. }
      destruct H as [(H1 & H2 & H3)|(p & b & H1 & H2 & H3 & H4 & H5 & H6 & H7)].
      * rewrite H1. eexists true, _. split; [reflexivity|].
        split; [split; [right; exists (next s), nb; cbn [mem hp limit] | cbn [next mem]]|].
        { split; [reflexivity|]. split; [apply put_same|]. split; [reflexivity|]. split; [exact L|]. split; [apply Bn; reflexivity|].
          split; [exact Fn|]. intros q N. rewrite put_other by exact N. apply H3. }
        { split; [intros q Q; apply F; lia | intros p Q; injection Q as <-; lia]. }
        split; [split; [discriminate | intros (X & _); discriminate]|]. split; [discriminate|]. split; [intros X; lia|]. intros _ _.
        cbn [limit]. split; [lia|]. intros k K. unfold at_byte at 1. cbn [mem hp]. rewrite put_same. cbn [nb bsize byte].
        rewrite (proj2 (N.ltb_lt _ _) K), H2. destruct (N.ltb_spec k 0); [lia|]. rewrite andb_false_r.
        destruct (N.leb_spec (size * count) 0); [lia|]. destruct cp; reflexivity.
      * rewrite H1. assert (Np : p <> next s) by (intros X; specialize (M p H1); lia).
        assert (Hp : put (hp s) (next s) (Some nb) p = Some b) by (rewrite put_other by exact Np; exact H2).
        assert (Q : exists nb', big nb' = (K_MAX <? size * count) /\ bsize nb' = size * count /\
          (forall k, byte nb' k = if cp && (k <? limit s) then byte b k else 0) /\ exists h,
          (if cp then memcpy (put (hp s) (next s) (Some nb)) (next s) p (size * count) (limit s) else Some (put (hp s) (next s) (Some nb))) = Some h /\
          h (next s) = Some nb' /\ h p = Some b /\ forall q, q <> next s -> h q = hp s q).
        { destruct cp.
          - unfold memcpy. rewrite put_same, Hp, H3. cbn [nb bsize]. replace (N.min (size * count) (limit s)) with (limit s) by lia.
            rewrite (proj2 (N.leb_le (limit s) (size * count))), N.leb_refl by lia. cbn [andb].
            eexists. split; [|split; [|split; [|eexists; split; [reflexivity|]]]]; [| | |split; [apply put_same|]]; [reflexivity | reflexivity | intros k; reflexivity|].
            split; [rewrite !put_other by exact Np; exact H2 | intros q N; rewrite !put_other by exact N; reflexivity].
          - exists nb. split; [reflexivity|]. split; [reflexivity|]. split; [intros k; reflexivity|]. eexists. split; [reflexivity|].
            split; [apply put_same|]. split; [exact Hp|]. intros q N. apply put_other, N. }
        destruct Q as (nb' & B1 & B2 & B3 & h & Eh & Hn & Hb & Ho). rewrite Eh, (free_own _ _ _ _ Hb (big_iff _ _ H5)).
        eexists true, _. split; [reflexivity|].
        assert (Hn' : put h p None (next s) = Some nb') by (rewrite put_other by (intros X; apply Np; symmetry; exact X); exact Hn).
        split; [split; [right; exists (next s), nb'; cbn [mem hp limit] | cbn [next mem]]|].
        { split; [reflexivity|]. split; [exact Hn'|]. split; [exact B2|]. split; [exact L|]. split; [apply Bn, B1|]. split; [exact Fn|].
          intros q N. destruct (Nat.eq_dec q p) as [->|N2]; [rewrite put_same; symmetry; exact H6|].
          rewrite put_other, Ho by assumption. apply H7, N2. }
        { split; [intros q Q; apply F; lia | intros p' Q; injection Q as <-; lia]. }
        split; [split; [discriminate | intros (X & _); discriminate]|]. split; [discriminate|]. split; [intros X; lia|]. intros _ _.
        cbn [limit]. split; [lia|]. intros k K. unfold at_byte at 1. cbn [mem hp]. rewrite Hn', B2, B3, (proj2 (N.ltb_lt _ _) K).
        cbn [andb]. destruct (N.leb_spec (size * count) (limit s)); [lia|]. destruct cp; cbn [andb]; [|reflexivity].
        destruct (N.ltb_spec k (limit s)) as [Kl|Kl]; [|reflexivity]. unfold at_byte. rewrite H1, H2, H3, (proj2 (N.ltb_lt _ _) Kl). reflexivity.
    + assert (Hf : limit s < size * count -> False) by lia.
      destruct H as [(H1 & H2 & H3)|(p & b & H1 & H2 & H3 & H4 & H5 & H6 & H7)]; [lia|].
      destruct cp.
      2:{ exists true, s. split; [reflexivity|]. split; [split; [right; exists p, b; auto 10 | auto]|].
          split; [split; [discriminate | intros (_ & X); contradiction]|]. split; [discriminate|]. split; [intros X; lia|]. intros _ _.
          split; [lia|]. intros k K. rewrite (proj2 (N.leb_le _ _) G). reflexivity. }
      assert (Q : exists b', big b' = big b /\ bsize b' = bsize b /\ (forall k, k < limit s -> byte b' k = if k <? size * count then byte b k else 0) /\
        exists h, memzero (hp s) (mem s) (size * count) (limit s - size * count) = Some h /\ h p = Some b' /\ forall q, q <> p -> h q = hp s q).
      { unfold memzero. destruct (N.eqb_spec (limit s - size * count) 0) as [X|X].
        - exists b. split; [reflexivity|]. split; [reflexivity|]. split; [intros k K; destruct (N.ltb_spec k (size * count)); [reflexivity | lia]|].
          exists (hp s). auto.
        - rewrite H1, H2, H3. replace (size * count + (limit s - size * count)) with (limit s) by lia. rewrite N.leb_refl.
          eexists. split; [|split; [|split; [|eexists; split; [reflexivity | split; [apply put_same|]]]]];
            [reflexivity | reflexivity | | intros q N; apply put_other, N].
          intros k K. cbn [byte]. rewrite (proj2 (N.ltb_lt _ _) K), andb_true_r.
          destruct (N.leb_spec (size * count) k), (N.ltb_spec k (size * count)); try lia; reflexivity. }
      destruct Q as (b' & B1 & B2 & B3 & h & Eh & Hn & Ho). rewrite Eh. eexists true, _. split; [reflexivity|].
      split; [split; [right; exists p, b'; cbn [mem hp limit] | cbn [next mem]; split; [exact F | exact M]]|].
      { split; [exact H1|]. split; [exact Hn|]. split; [rewrite B2; exact H3|]. split; [exact H4|]. split; [rewrite B1; exact H5|]. split; [exact H6|].
        intros q N. rewrite Ho by exact N. apply H7, N. }
      split; [split; [discriminate | intros (_ & X); contradiction]|]. split; [discriminate|]. split; [intros X; lia|]. intros _ _.
      cbn [limit]. split; [lia|]. intros k K. unfold at_byte. cbn [mem hp]. rewrite H1, Hn, H2, B2, H3, (proj2 (N.ltb_lt _ _) K), B3 by exact K.
      rewrite andb_true_r. destruct (N.ltb_spec k (size * count)); reflexivity.
Qed.
Lemma store_spec h0 s k v : inv h0 s -> k < limit s -> exists s', store k v s = Ret true s' /\ inv h0 s' /\ limit s' = limit s /\ mem s' = mem s.
Proof.
  intros (H & F & M) K. destruct H as [(H1 & H2 & H3)|(p & b & H1 & H2 & H3 & H4 & H5 & H6 & H7)]; [lia|].
  unfold store. rewrite H1, H2, H3, (proj2 (N.ltb_lt _ _) K). eexists. split; [reflexivity|]. cbn [limit mem]. split; [|auto].
  split; [right; eexists p, _; cbn [mem hp limit] | split; [exact F | cbn [mem next]; intros q Q; injection Q as <-; apply M, H1]].
  split; [reflexivity|]. split; [apply put_same|]. cbn [bsize big]. split; [reflexivity|]. split; [exact H4|]. split; [exact H5|]. split; [exact H6|].
  intros q N. rewrite put_other by exact N. apply H7, N.
Qed.
Lemma store_in h0 s k v r s' : inv h0 s -> store k v s = Ret r s' -> k < limit s.
Proof.
  intros (H & _) E. destruct H as [(H1 & _)|(p & b & H1 & H2 & H3 & _)]; unfold store in E; rewrite H1 in E; [discriminate|].
  rewrite H2, H3 in E. destruct (N.ltb_spec k (limit s)); [assumption | discriminate].
Qed.
Lemma reaches_inv h0 s : reaches h0 s -> inv h0 s.
Proof.
  induction 1 as [s H F | s cp size count ok r s' _ I P E | s k v r s' _ I E].
  - split; [left; cbn; rewrite H; auto|]. split; [exact F | discriminate].
  - destruct (realloc_spec h0 s cp size count ok I P) as (r2 & s2 & E2 & I2 & _). rewrite E2 in E. injection E as _ <-. exact I2.
  - destruct (store_spec h0 s k v I (store_in _ _ _ _ _ _ I E)) as (s2 & E2 & I2 & _). rewrite E2 in E. injection E as _ <-. exact I2.
Qed.

(** ** The theorems *)
(** At any time there is nothing or one block of the size recorded, and nothing else was taken or given away *)
Theorem C75_one_block h0 s : reaches h0 s -> has h0 s.
Proof. intros R. apply (reaches_inv h0 s R). Qed.
(** No call frees, copies or sets what it must not; it fails only for want of memory and then changes nothing; after a
    success there is what was asked for, and never less than before; with nothing asked for, all is given back. *)
Theorem C75_call h0 s cp size count ok : reaches h0 s -> proper size count -> exists r s', realloc cp size count ok s = Ret r s' /\
  (r = false <-> ok = false /\ limit s < size * count) /\ (r = false -> s' = s) /\
  (r = true -> size * count <> 0 -> limit s' = N.max (limit s) (size * count)) /\
  (size * count = 0 -> mem s' = None /\ limit s' = 0 /\ forall q, hp s' q = h0 q).
Proof.
  intros R P. destruct (realloc_spec h0 s cp size count ok (reaches_inv h0 s R) P) as (r & s' & E & (I & _) & A & B & C & D).
  exists r, s'. split; [exact E|]. split; [exact A|]. split; [exact B|]. split; [intros T Z; apply (D T Z)|]. intros Z. destruct (C Z) as (C1 & C2).
  split; [exact C1|]. split; [exact C2|]. destruct I as [(_ & _ & I)|(p & b & I & _)]; [exact I | congruence].
Qed.
(** Contents: the copying variant keeps what there was, as far as asked for, and the rest is 0; the other one keeps all
    if the block stays and has zeros if not. *)
Theorem C75_contents h0 s cp size count ok s' k : reaches h0 s -> proper size count -> size * count <> 0 ->
  realloc cp size count ok s = Ret true s' -> k < limit s' ->
  at_byte s' k = (if cp then if (k <? size * count) && (k <? limit s) then at_byte s k else Some 0
                  else if size * count <=? limit s then at_byte s k else Some 0).
Proof.
  intros R P Z E K. destruct (realloc_spec h0 s cp size count ok (reaches_inv h0 s R) P) as (r & s2 & E2 & _ & _ & _ & _ & D).
  rewrite E in E2. injection E2 as <- <-. apply (D eq_refl Z), K.
Qed.
(** Every byte up to the recorded size may be written, and is then read; no other byte changes *)
Theorem C75_store h0 s k v : reaches h0 s -> k < limit s -> exists s', store k v s = Ret true s' /\ limit s' = limit s /\
  at_byte s' k = Some v /\ forall j, j <> k -> at_byte s' j = at_byte s j.
Proof.
  intros R K. destruct (reaches_inv h0 s R) as ([(H1 & H2 & H3)|(p & b & H1 & H2 & H3 & H4 & H5 & H6 & H7)] & F & M); [lia|].
  unfold store. rewrite H1, H2, H3, (proj2 (N.ltb_lt _ _) K). eexists. split; [reflexivity|]. split; [reflexivity|].
  unfold at_byte. cbn [mem hp]. rewrite put_same, H1, H2. cbn [bsize byte]. rewrite H3, (proj2 (N.ltb_lt _ _) K), N.eqb_refl. split; [reflexivity|].
  intros j J. rewrite (proj2 (N.eqb_neq _ _) J). reflexivity.
Qed.
(** ENV_BUG is for callers that give one of size and count as 0 *)
Theorem C75_bug h0 s cp size count ok : reaches h0 s -> size * count < 18446744073709551616 ->
  (realloc cp size count ok s = Bug <-> (size = 0 /\ count <> 0) \/ (size <> 0 /\ count = 0)).
Proof.
  intros R L. destruct (N.eq_dec size 0) as [A|A], (N.eq_dec count 0) as [B|B].
  - destruct (C75_call h0 s cp size count ok R) as (r & s' & E & _); [split; [tauto | exact L]|]. rewrite E. split; [discriminate | intuition].
  - split; [intros _; left; auto|]. intros _. unfold realloc. subst. rewrite (proj2 (N.eqb_neq _ _) B). reflexivity.
  - split; [intros _; right; auto|]. intros _. unfold realloc. subst. rewrite (proj2 (N.eqb_neq _ _) A). reflexivity.
  - destruct (C75_call h0 s cp size count ok R) as (r & s' & E & _); [split; [tauto | exact L]|]. rewrite E. split; [discriminate | intuition].
Qed.
(** ALRU: with at least one and at most 10000 lines to a run (C65_limits) every entry it fills lies in the block, however
    the allocation ends, and after the run the heap is as before. *)
Theorem C75_alru h0 s es clines asked ok ws : hp s = h0 -> (forall q, (next s <= q)%nat -> h0 q = None) ->
  0 < es < 4294967296 -> 1 <= clines <= 10000 -> (forall i o v, In (i, o, v) ws -> i < clines /\ o < es) ->
  exists s', alru_run es clines asked ok ws s = Ret true s' /\ mem s' = None /\ limit s' = 0 /\ forall q, hp s' q = h0 q.
Proof.
  intros H F Es Cl W. assert (R : reaches h0 (init s)) by (apply reaches_init; assumption).
  assert (P0 : proper 0 0) by (split; [tauto | reflexivity]).
  assert (Fin : forall t, reaches h0 t -> exists s', realloc false 0 0 ok t = Ret true s' /\ mem s' = None /\ limit s' = 0 /\ forall q, hp s' q = h0 q).
  { intros t T. destruct (C75_call h0 t false 0 0 ok T P0) as (r & s' & E & A & _ & _ & D). exists s'. destruct (D eq_refl) as (D1 & D2 & D3).
    destruct r; [auto|]. destruct (proj1 A eq_refl) as (_ & X). lia. }
  unfold alru_run. destruct asked; cbn [negb]; [|apply Fin, R].
  assert (Lt : es * clines <= es * 10000) by (apply N.mul_le_mono_l; lia).
  assert (P : proper es clines) by (split; [split; intros; lia | lia]).
  assert (Nz : es * clines <> 0) by (apply N.neq_mul_0; lia).
  destruct (C75_call h0 (init s) false es clines ok R P) as (r & s1 & E & A & B & D & _). rewrite E.
  assert (R1 : reaches h0 s1) by (apply (reaches_call h0 (init s) false es clines ok r s1 R P E)).
  destruct (mem s1) as [p|] eqn:M1; [|apply Fin, R1].
  assert (Big : es * clines <= limit s1).
  { destruct r; [rewrite (D eq_refl Nz); lia|]. rewrite (B eq_refl) in M1. discriminate. }
  assert (Fl : forall ws t, reaches h0 t -> es * clines <= limit t -> (forall i o v, In (i, o, v) ws -> i < clines /\ o < es) ->
    exists t', fill es ws t = Ret true t' /\ reaches h0 t').
  { clear - Es. induction ws as [|[[i o] v] ws IH]; intros t T L W; [exists t; auto|]. cbn [fill].
    destruct (W i o v (or_introl eq_refl)) as (Wi & Wo).
    assert (K : i * es + o < limit t).
    { assert (es * (i + 1) <= es * clines) by (apply N.mul_le_mono_l; lia). lia. }
    destruct (C75_store h0 t (i * es + o) v T K) as (t' & E & L' & _). rewrite E. apply IH; [apply (reaches_store h0 t _ _ _ _ T E) | lia|].
    intros i' o' v' X. apply (W i' o' v'). right. exact X. }
  destruct (Fl ws s1 R1 Big W) as (s2 & E2 & R2). rewrite E2. apply Fin, R2.
Qed.
(** A product that does not fit is not noticed: success, and 16 bytes where 16 times (2^60 + 1) were asked for *)
Definition empty : st := {| hp := fun _ => None; next := 0; mem := None; limit := 0 |}.
Theorem C75_overflow_refuted : exists size count s s', reaches (fun _ => None) s /\ size < 2 ^ 64 /\ count < 2 ^ 64 /\ size <> 0 /\ count <> 0 /\
  realloc true size count true s = Ret true s' /\ limit s' < size * count /\ store 16 1 s' = Undefined.
Proof.
  exists 16, (2 ^ 60 + 1), (init empty). eexists. split; [apply reaches_init; [reflexivity | intros; reflexivity]|].
  split; [reflexivity|]. split; [reflexivity|]. split; [discriminate|]. split; [discriminate|]. split; [reflexivity|]. split; reflexivity.
Qed.

(** ** Cases *)
(** 8 bytes, the last one written; 200000 asked for and refused, then granted; back to 4; all given back *)
Definition steps : list (st -> out) := [realloc true 4 2 true; store 7 9; store 3 5; realloc true 8 25000 false; realloc true 8 25000 true;
  store 199999 3; realloc true 4 1 false].
Fixpoint play (l : list (st -> out)) (s : st) : option (list bool * st) :=
  match l with [] => Some ([], s) | f :: l => match f s with Ret r s => match play l s with Some (rs, s) => Some (r :: rs, s) | None => None end | _ => None end end.
Example C75_ex_grow : match play (firstn 6 steps) (init empty) with
  | Some (rs, s) => rs = [true; true; true; false; true; true] /\ limit s = 200000 /\ mem s = Some 1%nat /\
      match hp s 0%nat with None => true | Some _ => false end = true /\
      map (at_byte s) [3; 7; 8; 199999; 200000] = [Some 5; Some 9; Some 0; Some 3; None]
  | None => False end.
Proof. vm_compute. repeat split; reflexivity. Qed.
Example C75_ex_shrink : match play steps (init empty) with
  | Some (rs, s) => rs = [true; true; true; false; true; true; true] /\ limit s = 200000 /\
      map (at_byte s) [3; 7; 199999] = [Some 5; Some 0; Some 0] /\
      match realloc false 0 0 true s with Ret true s' => match hp s' 1%nat with None => true | Some _ => false end | _ => false end = true
  | None => False end.
Proof. vm_compute. repeat split; reflexivity. Qed.
Example C75_ex_alru : match alru_run 16 10000 true true [(0, 0, 7); (9999, 15, 8)] empty with Ret true _ => true | _ => false end = true /\
  match alru_run 16 10000 true true [(10000, 0, 7)] empty with Undefined => true | _ => false end = true.
Proof. vm_compute. split; reflexivity. Qed.
Print Assumptions C75_call.
Print Assumptions C75_contents.
Print Assumptions C75_alru.
Print Assumptions C75_overflow_refuted.

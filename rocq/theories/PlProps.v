(** C68: metadata pages are written under their locks. *)
From Coq Require Import ZArith NArith List Bool Arith Lia.
From Verif Require Import AlockModel AlockProofs AlockLive AlockProps PlModel.
Import ListNotations.
Open Scope nat_scope.

(** ** Specification *)

(** The pages [a] to [a + n - 1]. *)
Definition covers (f : flush) (p : N) : Prop :=
  (f_page f <= p < f_page f + N.of_nat (f_count f))%N.

(** The range lies in the segment of [num] pages at [first]. *)
Definition inside (first num : N) (f : flush) : Prop :=
  (first <= f_page f)%N /\ (f_page f + N.of_nat (f_count f) <= first + num)%N.

(** ** Page numbers and entries *)

Lemma w32_small : forall n, (n < 2 ^ 32)%N -> w32 n = n.
Proof. intros n H. unfold w32. apply N.mod_small. exact H. Qed.

Lemma mio_entry_ok : forall first num f i, (first + num < 2 ^ 32)%N -> inside first num f ->
  i < f_count f ->
  mio_entry first num (f_page f) (N.of_nat i) = Some (f_page f + N.of_nat i - first)%N.
Proof.
  intros first num f i B (I1 & I2) L. unfold mio_entry.
  rewrite (w32_small (f_page f + N.of_nat i)) by lia.
  rewrite (w32_small (first + num)) by lia.
  destruct (N.ltb_spec (f_page f + N.of_nat i) first); [lia|].
  destruct (N.leb_spec (first + num) (f_page f + N.of_nat i)); [lia|]. reflexivity.
Qed.

Lemma mio_lines_nth : forall first num f i, (first + num < 2 ^ 32)%N -> inside first num f ->
  i < f_count f ->
  nth_error (mio_lines first num f) i = Some (N.to_nat (f_page f + N.of_nat i - first)).
Proof.
  intros first num f i B I L. unfold mio_lines. rewrite nth_error_map.
  rewrite (nth_error_nth' _ 0) by (rewrite seq_length; exact L).
  rewrite seq_nth by exact L. cbn [option_map Nat.add].
  rewrite (mio_entry_ok first num f i B I L). reflexivity.
Qed.

Lemma mio_lines_len : forall first num f, length (mio_lines first num f) = f_count f.
Proof. intros. unfold mio_lines. rewrite map_length, seq_length. reflexivity. Qed.

(** Two flushes of one segment: no assertion fails, every entry is inside the table of
    the lock, and they lock a common entry exactly if they have a page in common. *)
Theorem C68_mio_entries : forall first num f g,
  (first + num < 2 ^ 32)%N -> inside first num f -> inside first num g ->
  (forall i, i < f_count f -> exists e, mio_entry first num (f_page f) (N.of_nat i) = Some e /\ (e < num)%N) /\
  NoDup (mio_lines first num f) /\
  ((exists e, In e (mio_lines first num f) /\ In e (mio_lines first num g)) <->
   (exists p, covers f p /\ covers g p)).
Proof.
  intros first num f g B F G. split; [|split].
  - intros i L. eexists. split; [apply mio_entry_ok; eassumption|]. destruct F; lia.
  - apply NoDup_nth_error. intros i j L E. rewrite mio_lines_len in L.
    rewrite (mio_lines_nth first num f i B F L) in E. symmetry in E.
    assert (L' : j < f_count f).
    { rewrite <- (mio_lines_len first num f). apply nth_error_Some. rewrite E. discriminate. }
    rewrite (mio_lines_nth first num f j B F L') in E. injection E as E. destruct F. lia.
  - split.
    + intros (e & E1 & E2). apply In_nth_error in E1 as (i & E1). apply In_nth_error in E2 as (j & E2).
      assert (L1 : i < f_count f).
      { rewrite <- (mio_lines_len first num f). apply nth_error_Some. rewrite E1. discriminate. }
      assert (L2 : j < f_count g).
      { rewrite <- (mio_lines_len first num g). apply nth_error_Some. rewrite E2. discriminate. }
      rewrite (mio_lines_nth first num f i B F L1) in E1. rewrite (mio_lines_nth first num g j B G L2) in E2.
      injection E1 as E1. injection E2 as E2. exists (f_page f + N.of_nat i)%N. destruct F, G.
      unfold covers. lia.
    + intros (p & P1 & P2). unfold covers in *. exists (N.to_nat (p - first)). split.
      * apply nth_error_In with (N.to_nat (p - f_page f)).
        rewrite (mio_lines_nth first num f _ B F) by lia. f_equal. f_equal. lia.
      * apply nth_error_In with (N.to_nat (p - f_page g)).
        rewrite (mio_lines_nth first num g _ B G) by lia. f_equal. f_equal. lia.
Qed.

(** ** Standby: segments and pages *)

(** Segments: position and number of pages, one behind the other, as laid out (C25). *)
Fixpoint laid_out (from : N) (l : list (N * N)) : Prop :=
  match l with
  | [] => True
  | (off, pages) :: l' => (from <= off)%N /\ laid_out (off + pages) l'
  end.
Definition pages_of (l : list (N * N)) : N := fold_right (fun x t => (snd x + t)%N) 0%N l.
Definition in_segs (l : list (N * N)) (p : N) : Prop :=
  exists x, In x l /\ (fst x <= p < fst x + snd x)%N.

Lemma pio_find_spec : forall l from t p, laid_out from l -> (t + pages_of l < 2 ^ 32 - 1)%N ->
  (p < 2 ^ 32)%N ->
  (in_segs l p -> (t <= pio_find (fst (pio_segs l t)) p < t + pages_of l)%N /\ (from <= p)%N) /\
  (~ in_segs l p -> pio_find (fst (pio_segs l t)) p = out_of_range).
Proof.
  induction l as [|[off pages] l IH]; intros from t p LO T P; cbn [pio_segs].
  { split; [intros (x & [] & _) | reflexivity]. }
  cbn [laid_out] in LO. destruct LO as (O & LO).
  change (pages_of ((off, pages) :: l)) with (pages + pages_of l)%N in *.
  rewrite (w32_small (t + pages)) by lia.
  destruct (IH (off + pages)%N (t + pages)%N p LO ltac:(lia) P) as (I1 & I2).
  destruct (pio_segs l (t + pages)) as [r tt] eqn:E. cbn [fst] in *. cbn [pio_find].
  unfold in_seg. cbn [s_begin s_end].
  destruct (N.leb_spec off p); destruct (N.ltb_spec p (off + pages)); cbn [andb].
  - unfold page_entry. cbn [s_first s_begin]. rewrite (w32_small (p - off)) by lia.
    rewrite w32_small by lia. split; [intros _; lia|]. intros N. exfalso. apply N.
    exists (off, pages). split; [now left | cbn; lia].
  - split.
    + intros (x & [<-|X] & R); [cbn in R; lia|]. destruct I1 as (I1 & I3); [exists x; auto|]. lia.
    + intros N. apply I2. intros (x & X & R). apply N. exists x. split; [now right | exact R].
  - split.
    + intros (x & [<-|X] & R); [cbn in R; lia|]. destruct I1 as (I1 & I3); [exists x; auto|]. lia.
    + intros N. apply I2. intros (x & X & R). apply N. exists x. split; [now right | exact R].
  - split.
    + intros (x & [<-|X] & R); [cbn in R; lia|]. destruct I1 as (I1 & I3); [exists x; auto|]. lia.
    + intros N. apply I2. intros (x & X & R). apply N. exists x. split; [now right | exact R].
Qed.

Lemma pio_find_inj : forall l from t p q, laid_out from l -> (t + pages_of l < 2 ^ 32 - 1)%N ->
  (p < 2 ^ 32)%N -> (q < 2 ^ 32)%N -> in_segs l p -> in_segs l q ->
  pio_find (fst (pio_segs l t)) p = pio_find (fst (pio_segs l t)) q -> p = q.
Proof.
  induction l as [|[off pages] l IH]; intros from t p q LO T P Q IP IQ; [destruct IP as (x & [] & _)|].
  cbn [laid_out] in LO. destruct LO as (O & LO).
  change (pages_of ((off, pages) :: l)) with (pages + pages_of l)%N in *. cbn [pio_segs].
  rewrite (w32_small (t + pages)) by lia.
  pose proof (pio_find_spec l (off + pages)%N (t + pages)%N p LO ltac:(lia) P) as (SP & _).
  pose proof (pio_find_spec l (off + pages)%N (t + pages)%N q LO ltac:(lia) Q) as (SQ & _).
  specialize (IH (off + pages)%N (t + pages)%N p q LO ltac:(lia) P Q).
  destruct (pio_segs l (t + pages)) as [r tt] eqn:E. cbn [fst] in *. cbn [pio_find].
  unfold in_seg, page_entry. cbn [s_begin s_end s_first].
  assert (CP : (off <= p < off + pages)%N \/ (~ (off <= p < off + pages)%N /\ in_segs l p)).
  { destruct IP as (x & [<-|X] & R); [left; exact R|].
    destruct (N.leb_spec off p); destruct (N.ltb_spec p (off + pages)); try (left; lia);
      right; (split; [lia | exists x; auto]). }
  assert (CQ : (off <= q < off + pages)%N \/ (~ (off <= q < off + pages)%N /\ in_segs l q)).
  { destruct IQ as (x & [<-|X] & R); [left; exact R|].
    destruct (N.leb_spec off q); destruct (N.ltb_spec q (off + pages)); try (left; lia);
      right; (split; [lia | exists x; auto]). }
  destruct (N.leb_spec off p); destruct (N.ltb_spec p (off + pages));
  destruct (N.leb_spec off q); destruct (N.ltb_spec q (off + pages)); cbn [andb];
  destruct CP as [CP|[CP IP']]; destruct CQ as [CQ|[CQ IQ']]; try lia;
  rewrite ?(w32_small (p - off)), ?(w32_small (q - off)) by lia;
  rewrite ?(w32_small (t + (p - off))), ?(w32_small (t + (q - off))) by lia;
  try (intros E'; specialize (IH IP' IQ' E'); exact IH);
  try (specialize (SP IP')); try (specialize (SQ IQ')); lia.
Qed.

(** Passive updates: a page is locked exactly if it belongs to one of the segments, with
    an entry inside the table, and different pages have different entries; the number of
    entries announced to the lock is the number locked. *)
Theorem C68_pio_entries : forall l f g, laid_out 0 l -> (pages_of l < 2 ^ 32 - 1)%N ->
  (f_page f + N.of_nat (f_count f) < 2 ^ 32)%N -> (f_page g + N.of_nat (f_count g) < 2 ^ 32)%N ->
  let segs := fst (pio_segs l 0) in
  (forall e, In e (pio_lines segs f) -> (N.of_nat e < pages_of l)%N) /\
  NoDup (pio_lines segs f) /\
  ((exists e, In e (pio_lines segs f) /\ In e (pio_lines segs g)) <->
   (exists p, covers f p /\ covers g p /\ in_segs l p)) /\
  pio_count segs (f_page f) 0 (f_count f) = length (pio_lines segs f) /\
  snd (pio_segs l 0) = pages_of l.
Proof.
  intros l f g LO T BF BG segs.
  assert (IN : forall h e, (f_page h + N.of_nat (f_count h) < 2 ^ 32)%N ->
    (In e (pio_lines segs h) <->
     exists p, covers h p /\ in_segs l p /\ e = N.to_nat (pio_find segs p))).
  { intros h e B. unfold pio_lines. rewrite in_map_iff. split.
    - intros (x & <- & X). apply filter_In in X as (X & R). apply in_map_iff in X as (i & <- & I).
      apply in_seq in I. exists (f_page h + N.of_nat i)%N. split; [unfold covers; lia|].
      unfold pio_entry in *. rewrite w32_small in * by lia. split; [|reflexivity].
      destruct (pio_find_spec l 0%N 0%N (f_page h + N.of_nat i)%N LO ltac:(lia) ltac:(lia)) as (_ & S2).
      fold segs in S2.
      assert (D : in_segs l (f_page h + N.of_nat i) \/ ~ in_segs l (f_page h + N.of_nat i)).
      { clear. induction l as [|x l IH]; [right; intros (y & [] & _)|].
        destruct IH as [(y & Y & R)|N]; [left; exists y; split; [now right|exact R]|].
        destruct (N.leb_spec (fst x) (f_page h + N.of_nat i));
        destruct (N.ltb_spec (f_page h + N.of_nat i) (fst x + snd x));
          try (left; exists x; split; [now left | lia]);
          right; intros (y & [<-|Y] & R); try lia; apply N; exists y; auto. }
      destruct D as [D|D]; [exact D|]. rewrite (S2 D) in R. discriminate R.
    - intros (p & C & I & ->). exists (pio_find segs p). split; [reflexivity|].
      apply filter_In. unfold covers in C. split.
      + apply in_map_iff. exists (N.to_nat (p - f_page h)). split; [|apply in_seq; lia].
        unfold pio_entry. rewrite w32_small by lia. f_equal. lia.
      + destruct (pio_find_spec l 0%N 0%N p LO ltac:(lia) ltac:(lia)) as (S1 & _). fold segs in S1.
        destruct (S1 I) as (S1' & _). apply negb_true_iff. apply N.eqb_neq. unfold out_of_range. lia. }
  split; [|split; [|split; [|split]]].
  - intros e E. apply (IN f e BF) in E as (p & C & I & ->). unfold covers in C.
    destruct (pio_find_spec l 0%N 0%N p LO ltac:(lia) ltac:(lia)) as (S1 & _). fold segs in S1.
    destruct (S1 I) as (S1' & _). lia.
  - unfold pio_lines. rewrite <- (map_id (filter _ _)).
    assert (ND : NoDup (filter (fun e => negb (e =? out_of_range)%N)
       (map (fun i => pio_entry segs (f_page f) (N.of_nat i)) (seq 0 (f_count f))))).
    { assert (G : forall n a, (f_page f + N.of_nat (a + n) < 2 ^ 32)%N ->
        NoDup (filter (fun e => negb (e =? out_of_range)%N)
          (map (fun i => pio_entry segs (f_page f) (N.of_nat i)) (seq a n)))).
      { induction n as [|n IH]; intros a B; [constructor|]. cbn [seq map filter].
        destruct (negb (pio_entry segs (f_page f) (N.of_nat a) =? out_of_range)%N) eqn:R;
          [|apply IH; lia].
        constructor; [|apply IH; lia].
        intros X. apply filter_In in X as (X & R'). apply in_map_iff in X as (j & E & J).
        apply in_seq in J. apply negb_true_iff, N.eqb_neq in R. unfold pio_entry in *.
        rewrite !w32_small in * by lia.
        assert (D : forall p, (p < 2 ^ 32)%N -> pio_find segs p <> out_of_range -> in_segs l p).
        { intros p P NE. destruct (pio_find_spec l 0%N 0%N p LO ltac:(lia) P) as (_ & S2). fold segs in S2.
          assert (DD : in_segs l p \/ ~ in_segs l p).
          { clear. induction l as [|x l IH]; [right; intros (y & [] & _)|].
            destruct IH as [(y & Y & R)|N]; [left; exists y; split; [now right|exact R]|].
            destruct (N.leb_spec (fst x) p); destruct (N.ltb_spec p (fst x + snd x));
              try (left; exists x; split; [now left | lia]);
              right; intros (y & [<-|Y] & R); try lia; apply N; exists y; auto. }
          destruct DD as [DD|DD]; [exact DD|]. elim NE. exact (S2 DD). }
        assert (EQ : (f_page f + N.of_nat j)%N = (f_page f + N.of_nat a)%N).
        { eapply pio_find_inj with (from := 0%N) (t := 0%N);
            [exact LO | lia | lia | lia | apply D; [lia | fold segs in E; rewrite E; exact R]
            | apply D; [lia | exact R] | fold segs; exact E]. }
        lia. }
      apply G. exact BF. }
    rewrite map_id. revert ND. generalize (filter (fun e => negb (e =? out_of_range)%N)
       (map (fun i => pio_entry segs (f_page f) (N.of_nat i)) (seq 0 (f_count f)))).
    intros L ND. induction ND as [|x L N ND IH]; cbn; constructor; [|exact IH].
    intros X. apply in_map_iff in X as (y & E & Y). apply N2Nat.inj in E. subst. contradiction.
  - split.
    + intros (e & E1 & E2). apply (IN f e BF) in E1 as (p & C1 & I1 & E1).
      apply (IN g e BG) in E2 as (q & C2 & I2 & E2). unfold covers in *.
      assert (EQ : p = q).
      { eapply pio_find_inj with (from := 0%N) (t := 0%N);
          [exact LO | lia | lia | lia | exact I1 | exact I2 | fold segs; lia]. }
      subst q. exists p. auto.
    + intros (p & C1 & C2 & I). exists (N.to_nat (pio_find segs p)).
      split; [apply (IN f _ BF) | apply (IN g _ BG)]; exists p; auto.
  - unfold pio_lines. rewrite map_length.
    assert (G : forall n a, pio_count segs (f_page f) a n =
      length (filter (fun e => negb (e =? out_of_range)%N)
        (map (fun i => pio_entry segs (f_page f) (N.of_nat i)) (seq a n)))).
    { induction n as [|n IH]; intros a; [reflexivity|]. cbn [pio_count seq map filter].
      rewrite IH. destruct (pio_entry segs (f_page f) (N.of_nat a) =? out_of_range)%N; reflexivity. }
    apply G.
  - assert (G : forall l t, (t + pages_of l < 2 ^ 32)%N -> snd (pio_segs l t) = (t + pages_of l)%N).
    { clear. induction l as [|[o p] l IH]; intros t B; cbn [pio_segs]; [cbn; lia|].
      change (pages_of ((o, p) :: l)) with (p + pages_of l)%N in *.
      rewrite w32_small by lia. specialize (IH (t + p)%N ltac:(lia)).
      destruct (pio_segs l (t + p)) as [r tt]. cbn [snd] in *. lia. }
    rewrite G by lia. lia.
Qed.

(** ** The lock lets go of nothing that is held *)

Lemma entry_locked_held : forall s r i r', ph s r' = Held -> ph (entry_locked s r i) r' = Held.
Proof.
  intros s r i r' H. destruct (entry_locked_misc s r i) as (_ & _ & _ & _ & _ & E & _). rewrite E.
  destruct (rem s r - 1 =? 0)%Z; [|exact H].
  destruct (Nat.eq_dec r' r) as [->|NE]; [apply setf_eq | rewrite setf_neq; auto].
Qed.

Lemma grants_held : forall g s r', ph s r' = Held -> ph (grants s g) r' = Held.
Proof.
  induction g as [|w g IH]; intros s r' H; [exact H|]. cbn [grants fold_left].
  fold (grants (entry_locked s (w_req w) (w_idx w)) g). apply IH. apply entry_locked_held. exact H.
Qed.

Lemma unlock_common_held : forall nb s l h s' r', unlock_common nb s l h = Some s' ->
  ph s r' = Held -> ph s' r' = Held.
Proof.
  intros nb s l h s' r' U H. unfold unlock_common in U.
  destruct (scanq l h true (access s l) (queue s (bucket nb l))) as [[[[a k] g] ex]|]; [|discriminate U].
  destruct (if ex then release_entry h a else Some a) as [a'|]; [|discriminate U].
  injection U as <-. apply grants_held. exact H.
Qed.

Lemma step_held : forall nb wants r oom s s' r', step nb wants r oom s = Ok s' -> r' <> r ->
  ph s r' = Held -> ph s' r' = Held.
Proof.
  intros nb wants r oom s s' r' S NE H.
  assert (G : forall x p, ph x r' = Held -> ph (goto x r p) r' = Held).
  { intros x p X. unfold goto. cbn [ph w_ph]. rewrite setf_neq; auto. }
  assert (U : forall i p s', unlock_idx nb wants s r i p = Some s' -> ph s' r' = Held).
  { intros i p s0 U. unfold unlock_idx in U. eapply unlock_common_held; [exact U|]. apply G. exact H. }
  unfold step in S.
  destruct (ph s r) as [i|[|i]| |i|i|[|i]| | |i| | |] eqn:P; try discriminate S.
  - destruct (i =? len wants r); [injection S as <-; apply G; exact H|].
    destruct (bits s r i); [discriminate S|].
    destruct (try_idle _ _); injection S as <-; apply G; exact H.
  - injection S as <-. apply G; exact H.
  - destruct (bits s r i); [|injection S as <-; apply G; exact H].
    destruct (unlock_idx nb wants s r i (Roll i)) eqn:E; [|discriminate S]. injection S as <-. exact (U _ _ _ E).
  - destruct (mutex s); [discriminate S|]. destruct (negb _); [discriminate S|].
    injection S as <-. apply G; exact H.
  - destruct (i =? len wants r).
    + cbv zeta in S. destruct (_ =? 0)%Z; injection S as <-; apply G; exact H.
    + destruct (bits s r i); [discriminate S|].
      destruct (try_idle _ _); injection S as <-; [apply entry_locked_held|]; apply G; exact H.
  - destruct oom; [injection S as <-; apply G; exact H|]. cbv zeta in S.
    destruct (if wr (wants r) then _ else _); injection S as <-; [apply entry_locked_held|]; apply G; exact H.
  - injection S as <-. apply G; exact H.
  - destruct (bits s r i); [|injection S as <-; apply G; exact H].
    destruct (unlock_idx nb wants s r i (Err i)) eqn:E; [|discriminate S]. injection S as <-. exact (U _ _ _ E).
  - injection S as <-. apply G; exact H.
  - destruct (i =? len wants r); [injection S as <-; apply G; exact H|].
    destruct (bits s r i); [|injection S as <-; apply G; exact H].
    destruct (unlock_idx nb wants s r i (Unlock (Datatypes.S i))) eqn:E; [|discriminate S]. injection S as <-. exact (U _ _ _ E).
Qed.

(** ** Pages in memory, in the buffers and on the device *)

(** The locking of [nr] requests that write the ranges [fl], all inside the segment of
    [num] pages at [first]. *)
Definition well_placed (first num : N) (nr : nat) (fl : nat -> flush) : Prop :=
  (first + num < 2 ^ 32)%N /\ (forall r, r < nr -> inside first num (fl r)).
Definition locks_pages (first num : N) (fl : nat -> flush) (r : nat) : want := mio_want first num (fl r).
Definition event_known (nr : nat) (e : event) : Prop :=
  match e with ELock r _ | EFill r | EWrite r _ | EEnd r _ => r < nr | EMem _ => True end.
Definition all_known (nr : nat) (evs : list event) : Prop := Forall (event_known nr) evs.

Section System.
Variables (nb : nat) (first num : N) (nr : nat) (fl : nat -> flush).
Hypothesis placed : well_placed first num nr fl.
Hypothesis small : few (locks_pages first num fl) nr.
Let wants := locks_pages first num fl.
Let Inv' := Inv nb wants nr.

Let bnd : (Z.of_nat (2 * length (slots wants nr) + 1) < WR)%Z.
Proof. rewrite slots_total. exact small. Qed.

(** Two requests that hold their locks have no page in common. *)
Lemma held_apart : forall s r r' p, Inv' s -> r < nr -> r' < nr -> ph s r = Held -> ph s r' = Held ->
  covers (fl r) p -> covers (fl r') p -> r = r'.
Proof.
  intros s r r' p I L L' P P' C C'. destruct (Nat.eq_dec r r') as [E|NE]; [exact E|]. exfalso.
  destruct placed as (B & IN). pose proof (IN r L) as F. pose proof (IN r' L') as F'.
  unfold covers in C, C'.
  assert (N1 : nth_error (lines (wants r)) (N.to_nat (p - f_page (fl r))) = Some (N.to_nat (p - first))).
  { unfold wants, locks_pages, mio_want. cbn [lines]. rewrite (mio_lines_nth first num (fl r) _ B F) by lia.
    f_equal. f_equal. lia. }
  assert (N2 : nth_error (lines (wants r')) (N.to_nat (p - f_page (fl r'))) = Some (N.to_nat (p - first))).
  { unfold wants, locks_pages, mio_want. cbn [lines]. rewrite (mio_lines_nth first num (fl r') _ B F') by lia.
    f_equal. f_equal. lia. }
  assert (A : forall q j, q < nr -> ph s q = Held -> nth_error (lines (wants q)) j = Some (N.to_nat (p - first)) ->
    In (q, j) (filter (holdf wants true (bits s) (N.to_nat (p - first))) (slots wants nr))).
  { intros q j Q PQ N. pose proof (v_r nb wants nr s I q Q) as R. unfold RInv in R. rewrite PQ in R. cbn [RI] in R.
    destruct R as (R & _).
    assert (LJ : j < len wants q) by (unfold len; apply nth_error_Some; congruence).
    apply filter_In. split; [apply in_slots; auto|]. unfold holdf. cbn [fst snd].
    rewrite R. rewrite (proj2 (Nat.ltb_lt j (len wants q)) LJ).
    unfold line. rewrite (nth_error_nth _ _ _ N). rewrite Nat.eqb_refl. reflexivity. }
  pose proof (A r _ L P N1) as A1. pose proof (A r' _ L' P' N2) as A2.
  assert (T : 2 <= holdc wants nr true (bits s) (N.to_nat (p - first))).
  { eapply two_in; [apply NoDup_filter, nodup_slots | exact A1 | exact A2 | congruence]. }
  pose proof (v_acc nb wants nr s I (N.to_nat (p - first))) as HA. unfold AccOk in HA. lia.
Qed.

Lemma covers_pg : forall r i, i < f_count (fl r) -> covers (fl r) (pg fl r i).
Proof. intros. unfold covers, pg. lia. Qed.

Record SInv (s : sys) : Prop := {
  i_lk : Inv' (lk s);
  i_dev : forall p, dev s p <= mem s p;
  i_fil : forall r, fil s r <= f_count (fl r);
  i_held : forall r, r < nr -> 0 < fil s r -> ended s r = None -> ph (lk s) r = Held;
  i_buf : forall r i, r < nr -> i < fil s r -> buf s r i <= mem s (pg fl r i);
  i_old : forall r i, r < nr -> ended s r = None -> i < fil s r -> dev s (pg fl r i) <= buf s r i;
  i_wr : forall r i, r < nr -> wrote s r i = true -> i < fil s r /\ buf s r i <= dev s (pg fl r i);
  i_end : forall r, r < nr -> ended s r = Some true -> fil s r = f_count (fl r) /\
            forall i, i < f_count (fl r) -> wrote s r i = true
}.

Lemma sinit_inv : SInv sinit.
Proof.
  constructor; cbn [sinit lk mem dev fil buf wrote ended]; try (intros; lia); try discriminate.
  - apply init_inv.
Qed.

(** One step: the invariant, and nothing on the device goes back. *)
Lemma sstep_inv : forall e s, SInv s -> event_known nr e ->
  match sstep nb wants fl e s with
  | SBug => False
  | SNo => True
  | SOk s' => SInv s' /\ (forall p, dev s p <= dev s' p) /\ (forall p, mem s p <= mem s' p) /\
      (forall r, fil s r <= fil s' r) /\
      (forall r i, i < fil s r -> buf s' r i = buf s r i) /\
      (forall r i, r < nr -> fil s r <= i -> i < fil s' r -> buf s' r i = mem s (pg fl r i))
  end.
Proof.
  intros e s I K. destruct e as [r oom|p|r|r i|r ok]; cbn [sstep event_known] in *.
  - destruct (match ph (lk s) r with Held => match ended s r with None => true | _ => false end | _ => false end) eqn:D.
    { destruct (ph (lk s) r); try discriminate D. destruct (ended s r); [discriminate D|]. exact Logic.I. }
    assert (X : match step nb wants r oom (lk s) with
      | Ok l => SInv {| lk := l; mem := mem s; dev := dev s; fil := fil s; buf := buf s; wrote := wrote s; ended := ended s |}
      | Blocked => True | Bug => False end).
    { pose proof (step_inv nb wants nr bnd (lk s) r oom (i_lk s I) K) as SI.
      destruct (step nb wants r oom (lk s)) as [| |] eqn:S; try exact SI; try exact Logic.I.
      destruct I. constructor; cbn [lk mem dev fil buf wrote ended]; auto.
      - exact (proj1 SI).
      - intros r' L' F E. pose proof (i_held0 r' L' F E) as H.
        destruct (Nat.eq_dec r' r) as [->|NE]; [rewrite H, E in D; discriminate D|].
        eapply step_held; eauto. }
    destruct (ph (lk s) r); destruct (ended s r); try discriminate D;
      destruct (step nb wants r oom (lk s)); try exact X; try exact Logic.I;
      (split; [exact X|]; cbn [lk mem dev fil buf wrote ended]; repeat split; intros; lia).
  - split.
    { destruct I. constructor; cbn [lk mem dev fil buf wrote ended]; auto.
      - intros q. unfold setn. specialize (i_dev0 q). destruct (N.eqb_spec q p); subst; lia.
      - intros r i L B. specialize (i_buf0 r i L B). unfold setn. destruct (N.eqb_spec (pg fl r i) p) as [E|E]; [rewrite E in i_buf0|]; lia. }
    cbn [lk mem dev fil buf wrote ended]. repeat split; intros; try lia.
    unfold setn. destruct (N.eqb_spec p0 p); subst; lia.
  - destruct (ph (lk s) r) eqn:P; try exact Logic.I. destruct (ended s r) eqn:E; [exact Logic.I|].
    destruct (Nat.ltb_spec (fil s r) (f_count (fl r))) as [F|F]; [|exact Logic.I].
    assert (NB : forall r' i, i < fil s r' -> set2 (buf s) r (fil s r) (mem s (pg fl r (fil s r))) r' i = buf s r' i).
    { intros r' i L. unfold set2. destruct (Nat.eqb_spec r' r); [|reflexivity].
      destruct (Nat.eqb_spec i (fil s r)); [|reflexivity]. subst. lia. }
    split; [|cbn [lk mem dev fil buf wrote ended]; repeat split; intros; try lia].
    + destruct I. constructor; cbn [lk mem dev fil buf wrote ended]; auto.
      * intros r'. destruct (Nat.eq_dec r' r) as [->|NE]; [rewrite setf_eq; lia | rewrite setf_neq; auto].
      * intros r' L' FF EE. destruct (Nat.eq_dec r' r) as [->|NE]; [exact P|]. rewrite setf_neq in FF; auto.
      * intros r' i L' B. unfold set2. destruct (Nat.eqb_spec r' r) as [->|NE].
        -- rewrite setf_eq in B. destruct (Nat.eqb_spec i (fil s r)) as [->|NI]; cbn [andb]; [lia|].
           apply i_buf0; [exact L' | lia].
        -- rewrite setf_neq in B by auto. apply i_buf0; auto.
      * intros r' i L' E' B. unfold set2. destruct (Nat.eqb_spec r' r) as [->|NE].
        -- rewrite setf_eq in B. destruct (Nat.eqb_spec i (fil s r)) as [->|NI]; cbn [andb]; [apply i_dev0|].
           apply i_old0; [exact L' | exact E' | lia].
        -- rewrite setf_neq in B by auto. apply i_old0; auto.
      * intros r' i L' W. destruct (i_wr0 r' i L' W) as (W1 & W2). rewrite NB by exact W1. split; [|exact W2].
        destruct (Nat.eq_dec r' r) as [->|NE]; [rewrite setf_eq; lia | rewrite setf_neq; auto].
      * intros r' L' EE. destruct (i_end0 r' L' EE) as (W1 & W2). split; [|exact W2].
        destruct (Nat.eq_dec r' r) as [->|NE]; [congruence | rewrite setf_neq; auto].
    + destruct (Nat.eq_dec r0 r) as [->|NE]; [rewrite setf_eq; lia | rewrite setf_neq; auto].
    + apply NB; assumption.
    + match goal with H : _ < setf _ _ _ _ |- _ => rename H into B end.
      destruct (Nat.eq_dec r0 r) as [->|NE]; [|rewrite setf_neq in B by auto; lia].
      rewrite setf_eq in B. assert (i = fil s r) by lia. subst i. unfold set2. rewrite !Nat.eqb_refl. reflexivity.
  - destruct (ph (lk s) r) eqn:P; try exact Logic.I. destruct (ended s r) eqn:E; [exact Logic.I|].
    destruct ((fil s r =? f_count (fl r)) && (i <? f_count (fl r)) && negb (wrote s r i)) eqn:D; [|exact Logic.I].
    apply andb_true_iff in D as (D & D3). apply andb_true_iff in D as (D1 & D2).
    apply Nat.eqb_eq in D1. apply Nat.ltb_lt in D2. apply negb_true_iff in D3.
    assert (O : dev s (pg fl r i) <= buf s r i) by (apply (i_old s I); [exact K | exact E | lia]).
    assert (DV : forall p, dev s p <= setn (dev s) (pg fl r i) (buf s r i) p).
    { intros p. unfold setn. destruct (N.eqb_spec p (pg fl r i)); subst; lia. }
    split; [|cbn [lk mem dev fil buf wrote ended]; repeat split; intros; try lia; apply DV].
    pose proof (i_held s I) as HH. destruct I. constructor; cbn [lk mem dev fil buf wrote ended]; auto.
    + intros p. unfold setn. destruct (N.eqb_spec p (pg fl r i)) as [->|NE]; [|apply i_dev0].
      apply i_buf0; [exact K | lia].
    + intros r' j L' E' B. unfold setn. destruct (N.eqb_spec (pg fl r' j) (pg fl r i)) as [EP|NE]; [|apply i_old0; auto].
      assert (RR : r' = r).
      { eapply held_apart with (s := lk s) (p := pg fl r i); eauto.
        - apply HH; [exact L' | lia | exact E'].
        - rewrite <- EP. apply covers_pg. specialize (i_fil0 r'). lia.
        - apply covers_pg. lia. }
      subst r'. assert (j = i) by (unfold pg in EP; lia). subst j. lia.
    + intros r' j L' W. unfold set2 in W. destruct (Nat.eqb_spec r' r) as [->|NE]; cbn [andb] in W.
      * destruct (Nat.eqb_spec j i) as [->|NJ]; cbn [andb] in W.
        -- split; [lia|]. unfold setn. rewrite N.eqb_refl. lia.
        -- destruct (i_wr0 r j L' W) as (W1 & W2). split; [exact W1|]. specialize (DV (pg fl r j)). lia.
      * destruct (i_wr0 r' j L' W) as (W1 & W2). split; [exact W1|]. specialize (DV (pg fl r' j)). lia.
    + intros r' L' EE. destruct (i_end0 r' L' EE) as (W1 & W2). split; [exact W1|]. intros j J.
      unfold set2. destruct ((r' =? r) && (j =? i)); [reflexivity|]. apply W2. exact J.
  - destruct (ph (lk s) r) eqn:P; try exact Logic.I. destruct (ended s r) eqn:E; [exact Logic.I|].
    destruct ((fil s r =? f_count (fl r)) && _) eqn:D; [|exact Logic.I].
    apply andb_true_iff in D as (D1 & D2). apply Nat.eqb_eq in D1.
    split; [|cbn [lk mem dev fil buf wrote ended]; repeat split; intros; lia].
    destruct I. constructor; cbn [lk mem dev fil buf wrote ended]; auto.
    + intros r' L' FF EE. destruct (Nat.eq_dec r' r) as [->|NE]; [rewrite setf_eq in EE; discriminate EE|].
      rewrite setf_neq in EE by auto. auto.
    + intros r' j L' EE B. destruct (Nat.eq_dec r' r) as [->|NE]; [rewrite setf_eq in EE; discriminate EE|].
      rewrite setf_neq in EE by auto. auto.
    + intros r' L' EE. destruct (Nat.eq_dec r' r) as [->|NE].
      * rewrite setf_eq in EE. injection EE as ->. cbn [negb orb] in D2. split; [exact D1|]. intros j J.
        rewrite forallb_forall in D2. apply D2. apply in_seq. lia.
      * rewrite setf_neq in EE by auto. auto.
Qed.

Lemma srun_inv : forall evs s, SInv s -> all_known nr evs ->
  exists s', srun nb wants fl evs s = SOk s' /\ SInv s' /\ (forall p, dev s p <= dev s' p) /\
    (forall p, mem s p <= mem s' p) /\ (forall r, fil s r <= fil s' r) /\
    (forall r i, i < fil s r -> buf s' r i = buf s r i) /\
    (forall r i, r < nr -> fil s r <= i -> i < fil s' r -> mem s (pg fl r i) <= buf s' r i).
Proof.
  induction evs as [|e evs IH]; intros s I K; cbn [srun].
  { exists s. split; [reflexivity|]. split; [exact I|]. repeat split; intros; try reflexivity; lia. }
  inversion K as [|? ? K1 K2]; subst. pose proof (sstep_inv e s I K1) as S.
  destruct (sstep nb wants fl e s) as [| |s1]; [contradiction | apply IH; assumption |].
  destruct S as (I1 & D1 & M1 & F1 & B1 & N1).
  destruct (IH s1 I1 K2) as (s2 & R & I2 & D2 & M2 & F2 & B2 & N2). exists s2.
  split; [exact R|]. split; [exact I2|]. split; [intros p; specialize (D1 p); specialize (D2 p); lia|].
  split; [intros p; specialize (M1 p); specialize (M2 p); lia|].
  split; [intros r; specialize (F1 r); specialize (F2 r); lia|]. split.
  - intros r i L. rewrite B2 by (specialize (F1 r); lia). apply B1. exact L.
  - intros r i L A B. destruct (Nat.lt_ge_cases i (fil s1 r)) as [C|C].
    + rewrite B2 by exact C. rewrite (N1 r i L A C). lia.
    + specialize (N2 r i L C B). specialize (M1 (pg fl r i)). lia.
Qed.
End System.

Lemma srun_app : forall nb wants fl a b s, srun nb wants fl (a ++ b) s =
  match srun nb wants fl a s with SOk s' => srun nb wants fl b s' | x => x end.
Proof.
  intros nb wants fl. induction a as [|e a IH]; intros b s; [reflexivity|]. cbn [app srun].
  destruct (sstep nb wants fl e s); auto.
Qed.

(** ** Theorems *)

(** Whatever the order of the events, no assertion fails, and of two requests that hold
    their locks none writes a page of the other. *)
Theorem C68_exclusive : forall nb first num nr fl evs,
  well_placed first num nr fl -> few (locks_pages first num fl) nr -> all_known nr evs ->
  exists s, srun nb (locks_pages first num fl) fl evs sinit = SOk s /\
    forall r r' p, r < nr -> r' < nr -> ph (lk s) r = Held -> ph (lk s) r' = Held ->
      covers (fl r) p -> covers (fl r') p -> r = r'.
Proof.
  intros nb first num nr fl evs W F K.
  destruct (srun_inv nb first num nr fl W F evs sinit (sinit_inv nb first num nr fl F) K) as (s & R & I & _).
  exists s. split; [exact R|]. intros r r' p L L' P P' C C'.
  exact (held_apart nb first num nr fl W F (lk s) r r' p (i_lk _ _ _ _ _ _ I) L L' P P' C C').
Qed.

(** The copy of a page on the device is never replaced by an older one, and is never
    newer than the memory. *)
Theorem C68_no_older_copy : forall nb first num nr fl evs evs',
  well_placed first num nr fl -> few (locks_pages first num fl) nr ->
  all_known nr evs -> all_known nr evs' ->
  exists s s', srun nb (locks_pages first num fl) fl evs sinit = SOk s /\
    srun nb (locks_pages first num fl) fl evs' s = SOk s' /\
    forall p, dev s p <= dev s' p /\ dev s' p <= mem s' p.
Proof.
  intros nb first num nr fl evs evs' W F K K'.
  destruct (srun_inv nb first num nr fl W F evs sinit (sinit_inv nb first num nr fl F) K) as (s & R & I & _).
  destruct (srun_inv nb first num nr fl W F evs' s I K') as (s' & R' & I' & D & _).
  exists s, s'. split; [exact R|]. split; [exact R'|]. intros p. split; [apply D|].
  apply (i_dev _ _ _ _ _ _ I').
Qed.

(** A flush that had copied nothing yet at some moment and later ends without error has
    put on the device everything that was in memory at that moment, and it is still
    there. *)
Theorem C68_flushed : forall nb first num nr fl evs evs' s s' r,
  well_placed first num nr fl -> few (locks_pages first num fl) nr ->
  all_known nr evs -> all_known nr evs' -> r < nr ->
  srun nb (locks_pages first num fl) fl evs sinit = SOk s ->
  srun nb (locks_pages first num fl) fl evs' s = SOk s' ->
  fil s r = 0 -> ended s' r = Some true ->
  forall p, covers (fl r) p -> mem s p <= dev s' p.
Proof.
  intros nb first num nr fl evs evs' s s' r W F K K' L R R' Z E p C.
  destruct (srun_inv nb first num nr fl W F evs sinit (sinit_inv nb first num nr fl F) K) as (s0 & R0 & I & _).
  rewrite R in R0. injection R0 as <-.
  destruct (srun_inv nb first num nr fl W F evs' s I K') as (s0 & R0 & I' & _ & _ & _ & _ & N).
  rewrite R' in R0. injection R0 as <-.
  destruct (i_end _ _ _ _ _ _ I' r L E) as (FE & WE). unfold covers in C.
  assert (PE : p = pg fl r (N.to_nat (p - f_page (fl r)))) by (unfold pg; lia).
  assert (LI : N.to_nat (p - f_page (fl r)) < f_count (fl r)) by lia.
  destruct (i_wr _ _ _ _ _ _ I' r _ L (WE _ LI)) as (_ & B).
  rewrite PE. specialize (N r (N.to_nat (p - f_page (fl r))) L ltac:(lia) ltac:(lia)). lia.
Qed.

(** A page outside of the segment, and only such a page, is refused by the assertion. *)
Theorem C68_mio_refuses : forall first num page index, (first + num < 2 ^ 32)%N -> (page + index < 2 ^ 32)%N ->
  (mio_entry first num page index = None <-> (page + index < first \/ first + num <= page + index)%N).
Proof.
  intros first num page index B L. unfold mio_entry. rewrite (w32_small (page + index)), (w32_small (first + num)) by assumption.
  destruct (N.ltb_spec (page + index) first); [intuition|].
  destruct (N.leb_spec (first + num) (page + index)); [intuition|]. split; [discriminate | lia].
Qed.
Example C68_ex_refuses : mio_entry 100 4 103 1 = None /\ mio_entry 100 4 103 0 = Some 3%N /\ mio_entry 100 4 99 0 = None.
Proof. repeat split; reflexivity. Qed.

(** An error of the device ends a request whose pages were sent, with the error, whatever has been written; then its
    lock can be given back (C68_all_end: and is). *)
Theorem C68_error_ends : forall nb wants fl s r, ph (lk s) r = Held -> ended s r = None -> fil s r = f_count (fl r) ->
  exists s', sstep nb wants fl (EEnd r false) s = SOk s' /\ ended s' r = Some false /\ ph (lk s') r = Held /\
    (forall p, dev s' p = dev s p) /\ (forall r', r' <> r -> ended s' r' = ended s r') /\
    forall oom l, step nb wants r oom (lk s') = Ok l -> exists s'', sstep nb wants fl (ELock r oom) s' = SOk s'' /\ lk s'' = l.
Proof.
  intros nb wants fl s r H E F. unfold sstep. rewrite H, E, F, Nat.eqb_refl. cbn [andb negb orb].
  eexists. split; [reflexivity|]. cbn [ended lk dev]. assert (S0 : setf (ended s) r (Some false) r = Some false) by (unfold setf; rewrite Nat.eqb_refl; reflexivity).
  split; [exact S0|]. split; [exact H|]. split; [reflexivity|].
  split; [intros r' N; unfold setf; destruct (Nat.eqb_spec r' r); [contradiction | reflexivity]|].
  intros oom l L. rewrite H, S0, L. eexists. split; reflexivity.
Qed.

(** ** Every flush ends *)

Definition late (p : phase) : Prop := match p with Unlock _ | Done => True | _ => False end.

Lemma grants_phase : forall g s r', ph (grants s g) r' = ph s r' \/ ph (grants s g) r' = Held.
Proof.
  induction g as [|w g IH]; intros s r'; [now left|]. cbn [grants fold_left].
  fold (grants (entry_locked s (w_req w) (w_idx w)) g).
  destruct (IH (entry_locked s (w_req w) (w_idx w)) r') as [E|E]; [|now right]. rewrite E.
  destruct (entry_locked_misc s (w_req w) (w_idx w)) as (_ & _ & _ & _ & _ & P & _). rewrite P.
  destruct (_ =? 0)%Z; [|now left].
  destruct (Nat.eq_dec r' (w_req w)) as [->|NE]; [right; apply setf_eq | left; now apply setf_neq].
Qed.

Lemma unlock_idx_phase : forall nb wants s r i p s' r', unlock_idx nb wants s r i p = Some s' ->
  ph s' r' = setf (ph s) r p r' \/ ph s' r' = Held.
Proof.
  intros nb wants s r i p s' r' U. unfold unlock_idx, unlock_common in U.
  destruct (scanq _ _ _ _ _) as [[[[a k] g] ex]|]; [|discriminate U].
  destruct (if ex then _ else _) as [a'|]; [|discriminate U]. injection U as <-.
  match goal with |- ph (grants ?x g) r' = _ \/ _ => destruct (grants_phase g x r') as [E|E]; [left; rewrite E; reflexivity | now right] end.
Qed.

Lemma entry_phase : forall x r i p r', ph (entry_locked (goto x r p) r i) r' = setf (ph x) r p r' \/
  ph (entry_locked (goto x r p) r i) r' = Held.
Proof.
  intros. destruct (grants_phase [{| w_line := 0; w_req := r; w_idx := i; w_wr := true |}] (goto x r p) r') as [E|E]; [left | right]; exact E.
Qed.

(** Where a step leads: the acting request goes to some phase or is granted everything,
    the others stay or are granted everything. *)
Lemma step_phase : forall nb wants r oom s s', step nb wants r oom s = Ok s' ->
  exists p, (forall r', ph s' r' = setf (ph s) r p r' \/ ph s' r' = Held) /\
    (late p -> late (ph s r) \/ ph s r = Held) /\ (p = Refused -> tryonly (wants r) = true).
Proof.
  intros nb wants r oom s s' S. unfold step in S.
  assert (G : forall x p, ph x = ph s ->
    forall r', ph (goto x r p) r' = setf (ph s) r p r' \/ ph (goto x r p) r' = Held).
  { intros x p E r'. left. unfold goto. cbn [ph w_ph]. rewrite E. reflexivity. }
  destruct (ph s r) as [i|[|i]| |i|i|[|i]| | |i| | |] eqn:P; try discriminate S.
  - destruct (i =? len wants r).
    { injection S as <-. exists Held. split; [apply G; reflexivity|]. split; [intros [] | discriminate]. }
    destruct (bits s r i); [discriminate S|]. destruct (try_idle _ _); injection S as <-.
    + exists (Fast (Datatypes.S i)). split; [apply G; reflexivity|]. split; [intros [] | discriminate].
    + exists (Roll i). split; [apply G; reflexivity|]. split; [intros [] | discriminate].
  - injection S as <-. exists (if tryonly (wants r) then Refused else SlowStart). split; [apply G; reflexivity|].
    destruct (tryonly (wants r)); (split; [intros [] | intros E; first [reflexivity | discriminate E]]).
  - exists (Roll i). split; [|split; [intros [] | discriminate]].
    destruct (bits s r i); [|injection S as <-; apply G; reflexivity].
    destruct (unlock_idx nb wants s r i (Roll i)) eqn:E; [|discriminate S]. injection S as <-. intros r'.
    exact (unlock_idx_phase _ _ _ _ _ _ _ r' E).
  - destruct (mutex s); [discriminate S|]. destruct (negb _); [discriminate S|].
    injection S as <-. exists (Slow 0). split; [apply G; reflexivity|]. split; [intros [] | discriminate].
  - destruct (i =? len wants r).
    + cbv zeta in S. destruct (_ =? 0)%Z; injection S as <-.
      * exists Held. split; [apply G; reflexivity|]. split; [intros [] | discriminate].
      * exists Wait. split; [apply G; reflexivity|]. split; [intros [] | discriminate].
    + destruct (bits s r i); [discriminate S|]. destruct (try_idle _ _); injection S as <-.
      * exists (Slow (Datatypes.S i)). split; [|split; [intros [] | discriminate]].
        intros r'. apply (entry_phase (w_access s _)).
      * exists (SlowB i). split; [apply G; reflexivity|]. split; [intros [] | discriminate].
  - destruct oom.
    { injection S as <-. exists (Err (Datatypes.S i)). split; [apply G; reflexivity|]. split; [intros [] | discriminate]. }
    exists (Slow (Datatypes.S i)). split; [|split; [intros [] | discriminate]]. cbv zeta in S.
    destruct (if wr (wants r) then _ else _); injection S as <-; intros r'.
    + apply (entry_phase (w_access s _)).
    + apply G. reflexivity.
  - injection S as <-. exists Failed. split; [apply G; reflexivity|]. split; [intros [] | discriminate].
  - exists (Err i). split; [|split; [intros [] | discriminate]].
    destruct (bits s r i); [|injection S as <-; apply G; reflexivity].
    destruct (unlock_idx nb wants s r i (Err i)) eqn:E; [|discriminate S]. injection S as <-. intros r'.
    exact (unlock_idx_phase _ _ _ _ _ _ _ r' E).
  - injection S as <-. exists (Unlock 0). split; [apply G; reflexivity|]. split; [auto | discriminate].
  - destruct (i =? len wants r).
    { injection S as <-. exists Done. split; [apply G; reflexivity|]. split; [left; exact I | discriminate]. }
    exists (Unlock (Datatypes.S i)). split; [|split; [left; exact I | discriminate]].
    destruct (bits s r i); [|injection S as <-; apply G; reflexivity].
    destruct (unlock_idx nb wants s r i (Unlock (Datatypes.S i))) eqn:E; [|discriminate S]. injection S as <-. intros r'.
    exact (unlock_idx_phase _ _ _ _ _ _ _ r' E).
Qed.

(** What the lock goes through in a run of the system is a run of the lock; who has let
    go has ended, and nobody is refused. *)
Definition lock_events (evs : list event) : list (nat * bool) :=
  flat_map (fun e => match e with ELock r oom => [(r, oom)] | _ => [] end) evs.

Lemma run_app : forall nb wants a b s, run nb wants (a ++ b) s =
  match run nb wants a s with Ok s' => run nb wants b s' | x => x end.
Proof.
  intros nb wants. induction a as [|[r oom] a IH]; intros b s; [reflexivity|]. cbn [app run].
  destruct (step nb wants r oom s); auto.
Qed.

Record Traced (nb : nat) (wants : nat -> want) (P : nat * bool -> Prop) (s : sys) : Prop := {
  t_run : exists l, run nb wants l init = Ok (lk s) /\ Forall P l;
  t_late : forall r, late (ph (lk s) r) -> ended s r <> None;
  t_ref : forall r, ph (lk s) r <> Refused
}.

Lemma srun_traced : forall nb wants fl (P : nat * bool -> Prop) evs s s',
  (forall r, tryonly (wants r) = false) ->
  Forall P (lock_events evs) -> Traced nb wants P s -> srun nb wants fl evs s = SOk s' -> Traced nb wants P s'.
Proof.
  intros nb wants fl P evs s s' TO. revert s. induction evs as [|e evs IH]; intros s F T R; cbn [srun] in R.
  { injection R as <-. exact T. }
  assert (F2 : Forall P (lock_events evs)).
  { destruct e; cbn [lock_events flat_map app] in F; fold (lock_events evs) in F; auto. now inversion F. }
  assert (ST : forall s1, sstep nb wants fl e s = SOk s1 -> Traced nb wants P s1).
  { intros s1 S1. destruct e as [r oom|p|r|r i|r ok]; cbn [sstep] in S1.
    - assert (X : exists l, step nb wants r oom (lk s) = Ok l /\
         s1 = {| lk := l; mem := mem s; dev := dev s; fil := fil s; buf := buf s; wrote := wrote s; ended := ended s |} /\
         ~ (ph (lk s) r = Held /\ ended s r = None)).
      { destruct (ph (lk s) r); destruct (ended s r); try discriminate S1;
          destruct (step nb wants r oom (lk s)) as [| |l]; try discriminate S1; injection S1 as <-;
          exists l; (split; [reflexivity|]; split; [reflexivity|]); intros (A & B); discriminate. }
      destruct X as (l & SL & -> & N). destruct T as [(tr & TR & TP) TL TF].
      destruct (step_phase _ _ _ _ _ _ SL) as (p & P1 & P2 & P3).
      constructor; cbn [lk ended].
      + exists (tr ++ [(r, oom)]). split.
        * rewrite run_app, TR. cbn [run]. rewrite SL. reflexivity.
        * apply Forall_app. split; [exact TP|]. cbn [lock_events flat_map app] in F. inversion F. constructor; auto.
      + intros r' L'. destruct (P1 r') as [E|E]; [|rewrite E in L'; destruct L'].
        destruct (Nat.eq_dec r' r) as [->|NE].
        * rewrite E, setf_eq in L'. destruct (P2 L') as [A|A]; [apply TL; exact A|].
          intros B. apply N. auto.
        * rewrite E, setf_neq in L' by auto. apply TL. exact L'.
      + intros r' E'. destruct (P1 r') as [E|E]; [|congruence]. rewrite E in E'.
        destruct (Nat.eq_dec r' r) as [->|NE].
        * rewrite setf_eq in E'. specialize (P3 E'). rewrite TO in P3. discriminate P3.
        * rewrite setf_neq in E' by auto. exact (TF r' E').
    - injection S1 as <-. destruct T as [A B C]. constructor; auto.
    - destruct (ph (lk s) r) eqn:E; try discriminate S1. destruct (ended s r); [discriminate S1|].
      destruct (fil s r <? f_count (fl r)); [|discriminate S1]. injection S1 as <-. destruct T as [A B C]. constructor; auto.
    - destruct (ph (lk s) r) eqn:E; try discriminate S1. destruct (ended s r); [discriminate S1|].
      destruct ((fil s r =? f_count (fl r)) && (i <? f_count (fl r)) && negb (wrote s r i)); [|discriminate S1].
      injection S1 as <-. destruct T as [A B C]. constructor; auto.
    - destruct (ph (lk s) r) eqn:E; try discriminate S1. destruct (ended s r); [discriminate S1|].
      destruct ((fil s r =? f_count (fl r)) && _); [|discriminate S1].
      injection S1 as <-. destruct T as [A B C]. constructor; cbn [lk ended]; auto.
      intros r' L'. destruct (Nat.eq_dec r' r) as [->|NE]; [rewrite setf_eq; discriminate | rewrite setf_neq; auto]. }
  destruct (sstep nb wants fl e s) as [| |s1] eqn:E; [discriminate R | exact (IH s F2 T R) |].
  exact (IH s1 F2 (ST s1 eq_refl) R).
Qed.

Lemma traced_init : forall nb wants P, Traced nb wants P sinit.
Proof.
  intros. constructor; cbn [sinit lk ended].
  - exists []. split; [reflexivity | constructor].
  - intros r [].
  - intros r H. discriminate H.
Qed.

(** If nothing but changes of memory can happen, every flush has ended and given its
    locks back; a flush under way can always end. *)
Theorem C68_all_end : forall nb first num nr fl evs s,
  well_placed first num nr fl -> few (locks_pages first num fl) nr -> all_known nr evs ->
  (forall r, nr <= r -> f_count (fl r) = 0) ->
  (forall r oom, In (ELock r oom) evs -> oom = false) ->
  srun nb (locks_pages first num fl) fl evs sinit = SOk s ->
  (forall e, event_known nr e -> (forall p, e <> EMem p) -> (forall r, e <> ELock r true) ->
     sstep nb (locks_pages first num fl) fl e s = SNo) ->
  forall r, r < nr -> ph (lk s) r = Done /\ ended s r <> None.
Proof.
  intros nb first num nr fl evs s W F K Z O R Q.
  set (wants := locks_pages first num fl) in *.
  pose proof (srun_inv nb first num nr fl W F evs sinit (sinit_inv nb first num nr fl F) K) as (s0 & R0 & SI & _).
  fold wants in R0. rewrite R in R0. injection R0 as <-.
  assert (T : Traced nb wants (fun e => fst e < nr /\ snd e = false) s).
  { apply (srun_traced nb wants fl _ evs sinit s (fun _ => eq_refl)); [|apply traced_init | exact R].
    clear R Q. unfold all_known in K. induction evs as [|e evs IH]; [constructor|].
    inversion K; subst. cbn [lock_events flat_map]. fold (lock_events evs).
    apply Forall_app. split; [|apply IH; auto; intros r oom X; apply (O r oom); now right].
    destruct e; constructor; auto. split; [assumption|]. apply (O r oom). now left. }
  destruct T as [(tr & TR & TP) TL TF].
  assert (D : nodup_lines wants).
  { intros r. destruct W as (B & IN). destruct (Nat.lt_ge_cases r nr) as [L|L].
    - exact (proj1 (proj2 (C68_mio_entries first num (fl r) (fl r) B (IN r L) (IN r L)))).
    - unfold wants, locks_pages, mio_want, mio_lines. cbn [lines]. rewrite (Z r L). constructor. }
  assert (N1 : forall r, r < nr -> ~ (ph (lk s) r = Held /\ ended s r = None)).
  { intros r L (A & B).
    pose proof (Q (EFill r) L ltac:(discriminate) ltac:(discriminate)) as Q1. cbn [sstep] in Q1. rewrite A, B in Q1.
    pose proof (Q (EEnd r false) L ltac:(discriminate) ltac:(discriminate)) as Q2. cbn [sstep] in Q2. rewrite A, B in Q2.
    destruct (Nat.ltb_spec (fil s r) (f_count (fl r))) as [X|X]; [discriminate Q1|].
    pose proof (i_fil _ _ _ _ _ _ SI r) as Y. replace (fil s r) with (f_count (fl r)) in Q2 by lia.
    rewrite Nat.eqb_refl in Q2. discriminate Q2. }
  assert (BL : forall r, r < nr -> step nb wants r false (lk s) = Blocked).
  { intros r L. pose proof (Q (ELock r false) L ltac:(discriminate) ltac:(discriminate)) as Q1. cbn [sstep] in Q1.
    specialize (N1 r L).
    destruct (ph (lk s) r) eqn:PH; destruct (ended s r) eqn:EE;
      try (elim N1; auto; fail); destruct (step nb wants r false (lk s)); auto; discriminate Q1. }
  intros r L.
  assert (KN : known nr tr /\ noalloc_failure tr).
  { unfold known, noalloc_failure. split; eapply Forall_impl; try exact TP; cbn; tauto. }
  destruct (C13_no_deadlock nb wants nr tr F (proj1 KN) (proj2 KN) D) as (s1 & R1 & X).
  rewrite TR in R1. injection R1 as <-. specialize (X BL r L).
  destruct X as [X|X]; [|elim (TF r); exact X]. split; [exact X|]. apply TL. rewrite X. exact I.
Qed.

(** ** A flush that could not be locked leaves nothing behind *)

(** The lines of a request are in different waiters lists. *)
Definition spread (nb : nat) (w : want) : Prop :=
  forall i j a b, nth_error (lines w) i = Some a -> nth_error (lines w) j = Some b ->
    a mod nb = b mod nb -> i = j.

Lemma scanq_sub : forall l h q ex a a' k g ex', scanq l h ex a q = Some (a', k, g, ex') ->
  (forall w, In w k -> In w q) /\ (forall w, In w g -> In w q).
Proof.
  induction q as [|x q IH]; intros ex a a' k g ex' S; cbn [scanq] in S.
  { injection S as <- <- <- <-. split; intros w []. }
  destruct (negb (w_line x =? l)).
  - destruct (scanq l h ex a q) as [[[[b k1] g1] e1]|] eqn:E; [|discriminate S]. injection S as <- <- <- <-.
    destruct (IH _ _ _ _ _ _ E) as (A & B). split; intros w; [intros [<-|X]; [now left | right; auto] | right; auto].
  - destruct (attempt h ex (w_wr x) a) as [| |b]; [discriminate S| |].
    + injection S as <- <- <- <-. split; [auto | intros w []].
    + destruct (scanq l h false b q) as [[[[c k1] g1] e1]|] eqn:E; [|discriminate S]. injection S as <- <- <- <-.
      destruct (IH _ _ _ _ _ _ E) as (A & B). split; intros w; [right; auto | intros [<-|X]; [now left | right; auto]].
Qed.

Lemma unlock_idx_frame : forall nb wants s r i p s', unlock_idx nb wants s r i p = Some s' ->
  (forall b w, In w (queue s' b) -> In w (queue s b)) /\
  (forall r' j, bits s' r' j = true -> setb (bits s) r i false r' j = true \/
     exists b w, In w (queue s b) /\ w_req w = r' /\ w_idx w = j).
Proof.
  intros nb wants s r i p s' U. unfold unlock_idx, unlock_common in U.
  cbn [access queue goto w_ph w_bits] in U.
  destruct (scanq _ _ _ _ _) as [[[[a k] g] ex]|] eqn:E; [|discriminate U].
  destruct (if ex then _ else _) as [a'|]; [|discriminate U]. injection U as <-.
  destruct (scanq_sub _ _ _ _ _ _ _ _ _ E) as (SK & SG). split.
  - intros b w X. destruct (grants_misc g (w_queue (w_access (goto (w_bits s (setb (bits s) r i false)) r p)
      (setf (access s) (line wants r i) a')) (setf (queue s) (bucket nb (line wants r i)) k))) as (_ & Q & _).
    unfold goto in Q, X. cbn [access queue w_ph w_bits w_access w_queue] in Q, X. rewrite Q in X.
    destruct (Nat.eq_dec b (bucket nb (line wants r i))) as [->|NE];
      [rewrite setf_eq in X; apply SK; exact X | rewrite setf_neq in X by auto; exact X].
  - intros r' j X. rewrite grants_bits in X. apply orb_true_iff in X as [X|X]; [left; exact X|]. right.
    apply ing_true in X. apply in_map_iff in X as (w & KW & X). unfold key in KW. injection KW as <- <-.
    exists (bucket nb (line wants r i)), w. auto.
Qed.

(** Nothing of request [r] from index [i] on. *)
Definition clean_from (s : st) (r i : nat) : Prop :=
  (forall j, i <= j -> bits s r j = false) /\
  (forall b w, In w (queue s b) -> w_req w = r -> w_idx w < i).

Definition Cleaned (s : st) (r : nat) : Prop :=
  match ph s r with Err i => clean_from s r i | Failed => clean_from s r 0 | _ => True end.

Lemma del_first_in : forall r q w, In w (del_first r q) -> w_req w = r ->
  exists a x c, q = a ++ x :: c /\ w_req x = r /\ In w c.
Proof.
  induction q as [|x q IH]; intros w X E; cbn [del_first] in X; [destruct X|].
  destruct (Nat.eqb_spec (w_req x) r) as [D|D].
  - exists [], x, q. auto.
  - destruct X as [<-|X]; [contradiction|]. destruct (IH w X E) as (a & y & c & -> & A & B).
    exists (x :: a), y, c. auto.
Qed.

Lemma step_other : forall nb wants r oom s s' r', step nb wants r oom s = Ok s' -> r' <> r ->
  (forall b w, In w (queue s' b) -> w_req w = r' -> In w (queue s b)) /\
  (forall j, bits s' r' j = true -> bits s r' j = true \/ exists b w, In w (queue s b) /\ w_req w = r' /\ w_idx w = j).
Proof.
  intros nb wants r oom s s' r' S NE.
  assert (B0 : forall i v j, setb (bits s) r i v r' j = bits s r' j).
  { intros. apply setb_neq. congruence. }
  assert (G : forall x, queue x = queue s -> (forall j, bits x r' j = bits s r' j) ->
    (forall b w, In w (queue x b) -> w_req w = r' -> In w (queue s b)) /\
    (forall j, bits x r' j = true -> bits s r' j = true \/ exists b w, In w (queue s b) /\ w_req w = r' /\ w_idx w = j)).
  { intros x QX BX. split; [intros b w X _; rewrite <- QX; exact X | intros j X; left; rewrite <- BX; exact X]. }
  assert (U : forall i p x, unlock_idx nb wants s r i p = Some x ->
    (forall b w, In w (queue x b) -> w_req w = r' -> In w (queue s b)) /\
    (forall j, bits x r' j = true -> bits s r' j = true \/ exists b w, In w (queue s b) /\ w_req w = r' /\ w_idx w = j)).
  { intros i p x UX. destruct (unlock_idx_frame _ _ _ _ _ _ _ UX) as (A & B). split; [intros b w X _; auto|].
    intros j X. destruct (B r' j X) as [C|C]; [left; rewrite B0 in C; exact C | right; exact C]. }
  assert (EL : forall x p i, queue x = queue s -> bits x = bits s ->
    queue (entry_locked (goto x r p) r i) = queue s /\ (forall j, bits (entry_locked (goto x r p) r i) r' j = bits s r' j)).
  { intros x p i QX BX. destruct (entry_locked_misc (goto x r p) r i) as (_ & A & _ & B & _). rewrite A, B.
    unfold goto. cbn [queue bits w_ph]. rewrite BX. split; [exact QX|]. intros j. apply B0. }
  unfold step in S.
  destruct (ph s r) as [i|[|i]| |i|i|[|i]| | |i| | |] eqn:P; try discriminate S.
  - destruct (i =? len wants r); [injection S as <-; apply G; reflexivity|].
    destruct (bits s r i); [discriminate S|]. destruct (try_idle _ _); injection S as <-; apply G; try reflexivity.
    intros j. unfold goto. cbn [bits w_ph w_bits w_access]. apply B0.
  - injection S as <-. apply G; reflexivity.
  - destruct (bits s r i); [|injection S as <-; apply G; reflexivity].
    destruct (unlock_idx nb wants s r i (Roll i)) eqn:E; [|discriminate S]. injection S as <-. exact (U _ _ _ E).
  - destruct (mutex s); [discriminate S|]. destruct (negb _); [discriminate S|]. injection S as <-. apply G; reflexivity.
  - destruct (i =? len wants r).
    + cbv zeta in S. destruct (_ =? 0)%Z; injection S as <-; apply G; reflexivity.
    + destruct (bits s r i); [discriminate S|]. destruct (try_idle _ _) as [a|]; injection S as <-; [|apply G; reflexivity].
      destruct (EL (w_access s (setf (access s) (line wants r i) a)) (Slow (Datatypes.S i)) i eq_refl eq_refl). apply G; assumption.
  - destruct oom; [injection S as <-; apply G; reflexivity|]. cbv zeta in S.
    destruct (if wr (wants r) then _ else _) as [a|]; injection S as <-.
    + destruct (EL (w_access s (setf (access s) (line wants r i) a)) (Slow (Datatypes.S i)) i eq_refl eq_refl). apply G; assumption.
    + split; [|intros j X; left; exact X]. intros b w X E. unfold goto in X. cbn [queue w_ph w_queue] in X.
      destruct (Nat.eq_dec b (bucket nb (line wants r i))) as [->|NB]; [|rewrite setf_neq in X by auto; exact X].
      rewrite setf_eq in X. apply in_app_iff in X as [X|[<-|[]]]; [exact X|]. cbn [w_req] in E. congruence.
  - injection S as <-. apply G; reflexivity.
  - destruct (bits s r i).
    { destruct (unlock_idx nb wants s r i (Err i)) eqn:E; [|discriminate S]. injection S as <-. exact (U _ _ _ E). }
    injection S as <-. split; [|intros j X; left; exact X]. intros b w X _. unfold goto in X. cbn [queue w_ph w_queue] in X.
    destruct (Nat.eq_dec b (bucket nb (line wants r i))) as [->|NB]; [|rewrite setf_neq in X by auto; exact X].
    rewrite setf_eq in X. exact (del_first_sub _ _ _ X).
  - injection S as <-. apply G; reflexivity.
  - destruct (i =? len wants r); [injection S as <-; apply G; reflexivity|].
    destruct (bits s r i); [|injection S as <-; apply G; reflexivity].
    destruct (unlock_idx nb wants s r i (Unlock (Datatypes.S i))) eqn:E; [|discriminate S]. injection S as <-. exact (U _ _ _ E).
Qed.

Lemma step_cleaned : forall nb wants nr r oom s s', Inv nb wants nr s -> r < nr -> spread nb (wants r) ->
  step nb wants r oom s = Ok s' ->
  (forall r', Cleaned s r') -> forall r', Cleaned s' r'.
Proof.
  intros nb wants nr r oom s s' HI Hr SP S C r'. destruct (Nat.eq_dec r' r) as [->|NE].
  2: { destruct (step_phase _ _ _ _ _ _ S) as (p & P1 & _). destruct (step_other _ _ _ _ _ _ r' S NE) as (Q & B).
       specialize (C r'). unfold Cleaned in *.
       destruct (P1 r') as [E|E]; [|rewrite E; exact I]. rewrite setf_neq in E by auto. rewrite E.
       assert (T : forall i, clean_from s r' i -> clean_from s' r' i).
       { intros i (A1 & A2). split.
         - intros j J. destruct (bits s' r' j) eqn:X; [|reflexivity].
           destruct (B j X) as [Y|(b & w & Y & Y1 & Y2)]; [rewrite (A1 j J) in Y; discriminate Y|].
           specialize (A2 b w Y Y1). lia.
         - intros b w X E'. apply (A2 b w); [apply Q; assumption | exact E']. }
       destruct (ph s r'); auto. }
  specialize (C r). unfold Cleaned in *.
  assert (EASY : forall x, ph x r = Held -> match ph x r with Err i => clean_from x r i | Failed => clean_from x r 0 | _ => True end).
  { intros x E. rewrite E. exact I. }
  assert (GO : forall x p, match p with Err _ | Failed => False | _ => True end ->
    match ph (goto x r p) r with Err i => clean_from (goto x r p) r i | Failed => clean_from (goto x r p) r 0 | _ => True end).
  { intros x p E. unfold goto at 1. cbn [ph w_ph]. rewrite setf_eq. destruct p; auto; destruct E. }
  assert (EN : forall x i j, match ph (entry_locked (goto x r (Slow i)) r j) r with
     Err i' => clean_from (entry_locked (goto x r (Slow i)) r j) r i' | Failed => clean_from (entry_locked (goto x r (Slow i)) r j) r 0 | _ => True end).
  { intros x i j. destruct (entry_phase x r j (Slow i) r) as [E|E]; rewrite E; [rewrite setf_eq|]; exact I. }
  assert (UN : forall i p x, unlock_idx nb wants s r i p = Some x -> match p with Err _ | Failed => False | _ => True end ->
    match ph x r with Err i => clean_from x r i | Failed => clean_from x r 0 | _ => True end).
  { intros i p x E Y. destruct (unlock_idx_phase _ _ _ _ _ _ _ r E) as [D|D]; rewrite D; [rewrite setf_eq|exact I].
    destruct p; auto; destruct Y. }
  pose proof (v_r nb wants nr s HI r Hr) as RI0. unfold RInv in RI0.
  unfold step in S.
  destruct (ph s r) as [i|[|i]| |i|i|[|i]| | |i| | |] eqn:P; try discriminate S.
  - destruct (i =? len wants r); [injection S as <-; apply GO; exact I|].
    destruct (bits s r i); [discriminate S|]. destruct (try_idle _ _); injection S as <-; apply GO; exact I.
  - injection S as <-. apply GO. destruct (tryonly (wants r)); exact I.
  - destruct (bits s r i); [|injection S as <-; apply GO; exact I].
    destruct (unlock_idx nb wants s r i (Roll i)) eqn:E; [|discriminate S]. injection S as <-. apply (UN _ _ _ E I).
  - destruct (mutex s); [discriminate S|]. destruct (negb _); [discriminate S|]. injection S as <-. apply GO; exact I.
  - destruct (i =? len wants r).
    + cbv zeta in S. destruct (_ =? 0)%Z; injection S as <-; apply GO; exact I.
    + destruct (bits s r i); [discriminate S|]. destruct (try_idle _ _); injection S as <-; [apply EN | apply GO; exact I].
  - destruct oom.
    2: { cbv zeta in S. destruct (if wr (wants r) then _ else _); injection S as <-; [apply EN | apply GO; exact I]. }
    injection S as <-. unfold goto at 1. cbn [ph w_ph]. rewrite setf_eq. cbn [RI] in RI0.
    destruct RI0 as (R1 & R2 & R3 & _). split.
    + intros j J. unfold goto. cbn [bits w_ph]. rewrite R2.
      replace (j <? i) with false by (symmetry; apply Nat.ltb_ge; lia). apply andb_false_r.
    + intros b w X E. unfold goto in X. cbn [queue w_ph] in X.
      destruct (v_q nb wants nr s HI b w X) as ((W1 & W2 & W3 & W4) & WB & _).
      assert (IQ : inq nb wants (queue s) r (w_idx w) = true).
      { unfold inq. apply ing_true. apply in_map_iff. exists w. split; [unfold key; congruence|].
        replace (line wants r (w_idx w)) with (w_line w) by (rewrite <- E; congruence). rewrite WB. exact X. }
      specialize (R3 _ IQ). lia.
  - injection S as <-. unfold goto at 1. cbn [ph w_ph]. rewrite setf_eq. destruct C as (C1 & C2). split; [exact C1 | exact C2].
  - destruct C as (C1 & C2). destruct (bits s r i) eqn:BI.
    + destruct (unlock_idx nb wants s r i (Err i)) eqn:E; [|discriminate S]. injection S as <-.
      destruct (unlock_idx_phase _ _ _ _ _ _ _ r E) as [D|D]; rewrite D; [rewrite setf_eq|exact I].
      destruct (unlock_idx_frame _ _ _ _ _ _ _ E) as (Q & B).
      assert (NQ : forall b w, In w (queue s b) -> w_req w = r -> w_idx w < i).
      { intros b w X Y. specialize (C2 b w X Y). destruct (Nat.eq_dec (w_idx w) i) as [Z|Z]; [|lia].
        destruct (v_q nb wants nr s HI b w X) as (_ & _ & V). rewrite Y, Z in V. congruence. }
      split.
      * intros j J. destruct (bits s0 r j) eqn:X; [|reflexivity].
        destruct (B r j X) as [Y|(b & w & Y & Y1 & Y2)]; [|specialize (NQ b w Y Y1); lia].
        unfold setb in Y. rewrite Nat.eqb_refl in Y. cbn [andb] in Y.
        destruct (Nat.eqb_spec j i); [discriminate Y|]. rewrite C1 in Y by lia. discriminate Y.
      * intros b w X Y. apply (NQ b w); [apply Q; exact X | exact Y].
    + injection S as <-. unfold goto at 1. cbn [ph w_ph]. rewrite setf_eq. split.
      * intros j J. unfold goto. cbn [bits w_ph w_queue]. destruct (Nat.eq_dec j i) as [->|Z]; [exact BI|]. apply C1. lia.
      * intros b w X Y. unfold goto in X. cbn [queue w_ph w_queue] in X.
        assert (SUB : In w (queue s b)).
        { destruct (Nat.eq_dec b (bucket nb (line wants r i))) as [->|NB];
            [rewrite setf_eq in X; exact (del_first_sub _ _ _ X) | rewrite setf_neq in X by auto; exact X]. }
        pose proof (C2 b w SUB Y) as LT. destruct (Nat.eq_dec (w_idx w) i) as [Z|Z]; [exfalso|lia].
        destruct (v_q nb wants nr s HI b w SUB) as ((W1 & W2 & W3 & W4) & WB & _).
        assert (BB : b = bucket nb (line wants r i)) by (rewrite <- WB, W3, Y, Z; reflexivity).
        rewrite BB in X, WB. rewrite setf_eq in X. destruct (del_first_in _ _ _ X Y) as (a & x & c & EQ & XR & XC).
        assert (XI : In x (queue s (bucket nb (line wants r i)))) by (rewrite EQ; apply in_app_iff; right; now left).
        destruct (v_q nb wants nr s HI _ x XI) as ((X1 & X2 & X3 & X4) & XB & _).
        assert (SAME : w_idx x = w_idx w).
        { apply (SP (w_idx x) (w_idx w) (line wants r (w_idx x)) (line wants r (w_idx w))).
          - unfold line. apply nth_error_nth'. rewrite XR in X2. exact X2.
          - unfold line. apply nth_error_nth'. rewrite Y in W2. exact W2.
          - rewrite XR in X3. rewrite Y in W3. unfold bucket in *. congruence. }
        pose proof (v_nd nb wants nr s HI (bucket nb (line wants r i))) as ND. rewrite EQ, map_app in ND. cbn [map] in ND.
        apply NoDup_remove_2 in ND. apply ND. apply in_app_iff. right. apply in_map_iff. exists w. split; [unfold key; congruence | exact XC].
  - injection S as <-. apply GO; exact I.
  - destruct (i =? len wants r); [injection S as <-; apply GO; exact I|].
    destruct (bits s r i); [|injection S as <-; apply GO; exact I].
    destruct (unlock_idx nb wants s r i (Unlock (Datatypes.S i))) eqn:E; [|discriminate S]. injection S as <-. apply (UN _ _ _ E I).
Qed.

(** With the lines of every request in different waiters lists, a request that failed
    for lack of memory holds nothing and waits for nothing (in general it may keep a
    lock, [C13_liveness_oom_refuted]). *)
Theorem C68_failed_clean : forall nb wants nr evs s, few wants nr -> known nr evs ->
  (forall r, r < nr -> spread nb (wants r)) ->
  run nb wants evs init = Ok s ->
  forall r, ph s r = Failed -> forall i l, ~ holds wants s r i l /\ ~ waits s r i l.
Proof.
  intros nb wants nr evs s F K SP R.
  assert (HB : (Z.of_nat (2 * length (slots wants nr) + 1) < WR)%Z) by (rewrite slots_total; exact F).
  assert (X : forall evs s0 s, Inv nb wants nr s0 -> known nr evs -> (forall r, Cleaned s0 r) ->
    run nb wants evs s0 = Ok s -> forall r, Cleaned s r).
  { clear evs K s R. induction evs as [|[r oom] evs IH]; intros s0 s I0 K C R; cbn [run] in R.
    - injection R as <-. exact C.
    - inversion K as [|? ? K1 K2]; subst. cbn [fst] in K1.
      pose proof (step_inv nb wants nr HB s0 r oom I0 K1) as SI.
      destruct (step nb wants r oom s0) as [| |s1] eqn:E; [exact (IH s0 s I0 K2 C R) | discriminate R |].
      apply (IH s1 s (proj1 SI) K2); [|exact R].
      exact (step_cleaned nb wants nr r oom s0 s1 I0 K1 (SP r K1) E C). }
  intros r P i l. specialize (X evs init s (init_inv nb wants nr) K (fun _ => I) R r). unfold Cleaned in X. rewrite P in X.
  destruct X as (X1 & X2). split.
  - intros (H & _). rewrite X1 in H by lia. discriminate H.
  - intros (b & w & W & W1 & _). specialize (X2 b w W W1). lia.
Qed.

(** The pages of one flush are in different waiters lists, as there are more lists than
    pages in one request (_WAITERS_LIST_ENTRIES, utils_alock.c:39-43; metadata_io_max_page). *)
Theorem C68_flush_spread : forall nb first num f, (first + num < 2 ^ 32)%N -> inside first num f ->
  f_count f <= nb -> spread nb (mio_want first num f).
Proof.
  intros nb first num f B I L i j a b A1 A2 E. unfold mio_want in *. cbn [lines] in *.
  assert (L1 : i < f_count f) by (rewrite <- (mio_lines_len first num f); apply nth_error_Some; congruence).
  assert (L2 : j < f_count f) by (rewrite <- (mio_lines_len first num f); apply nth_error_Some; congruence).
  rewrite (mio_lines_nth first num f i B I L1) in A1. injection A1 as <-.
  rewrite (mio_lines_nth first num f j B I L2) in A2. injection A2 as <-. destruct I as (I1 & I2).
  set (x := N.to_nat (f_page f - first)) in *.
  replace (N.to_nat (f_page f + N.of_nat i - first)) with (x + i) in E by lia.
  replace (N.to_nat (f_page f + N.of_nat j - first)) with (x + j) in E by lia.
  assert (NZ : nb <> 0) by lia.
  pose proof (Nat.div_mod (x + i) nb NZ) as D1. pose proof (Nat.div_mod (x + j) nb NZ) as D2.
  assert (Q : (x + i) / nb = (x + j) / nb) by nia. nia.
Qed.

(** ** Examples *)

(** Pages 8 to 15 are one segment; flush 0 writes the pages 10, 11, 12, flush 1 the pages
    12, 13. *)
Definition ex_fl (r : nat) : flush :=
  match r with
  | 0 => {| f_page := 10; f_count := 3 |}
  | 1 => {| f_page := 12; f_count := 2 |}
  | _ => {| f_page := 8; f_count := 0 |}
  end.
Definition lsteps (r n : nat) : list event := repeat (ELock r false) n.
Definition ex_first : list event :=
  [EMem 12%N] ++ lsteps 0 4 ++ [EFill 0; EFill 0; EFill 0; EMem 12%N] ++ lsteps 1 8 ++
  [EFill 1; EWrite 1 0].                       (* flush 1 waits: these cannot happen *)
Definition ex_second : list event :=
  [EWrite 0 2; EWrite 0 0; EWrite 0 1; EEnd 0 true] ++ lsteps 0 8 ++
  [EFill 1; EFill 1; EWrite 1 0; EWrite 1 1; EEnd 1 true] ++ lsteps 1 8.

Example ex_placed : well_placed 8 8 2 ex_fl /\ few (locks_pages 8 8 ex_fl) 2 /\
  all_known 2 ex_first /\ all_known 2 ex_second /\ (forall r, 2 <= r -> f_count (ex_fl r) = 0).
Proof.
  split; [|split; [|split; [|split]]].
  - split; [reflexivity|]. intros [|[|r]] L; [| |lia]; (split; cbn; lia).
  - reflexivity.
  - unfold ex_first, all_known, lsteps. cbn. repeat constructor.
  - unfold ex_second, all_known, lsteps. cbn. repeat constructor.
  - intros [|[|r]] L; try lia. reflexivity.
Qed.

Definition ex_show (o : sout) : option (list phase * list (option bool) * list nat * list nat) :=
  match o with
  | SOk s => Some ([ph (lk s) 0; ph (lk s) 1], [ended s 0; ended s 1], map (mem s) [12; 13]%N, map (dev s) [12; 13]%N)
  | _ => None
  end.
Example ex_waits : ex_show (srun 4 (locks_pages 8 8 ex_fl) ex_fl ex_first sinit) =
  Some ([Held; Wait], [None; None], [2; 0], [0; 0]).
Proof. vm_compute. reflexivity. Qed.
Example ex_ends : ex_show (srun 4 (locks_pages 8 8 ex_fl) ex_fl (ex_first ++ ex_second) sinit) =
  Some ([Done; Done], [Some true; Some true], [2; 0], [2; 0]).
Proof. vm_compute. reflexivity. Qed.

(** Without the locks (metadata_io_restart_req without mio_conc, metadata_io.c:250-253)
    an older copy may replace a newer one. *)
Definition ex_unlocked (r : nat) : want := {| lines := []; wr := true; tryonly := false |}.
Definition ex_race : list event :=
  [EMem 12%N] ++ lsteps 0 1 ++ [EFill 0; EFill 0; EFill 0; EMem 12%N] ++ lsteps 1 1 ++
  [EFill 1; EFill 1; EWrite 1 0; EWrite 1 1; EEnd 1 true].
Example ex_lock_needed :
  ex_show (srun 4 ex_unlocked ex_fl ex_race sinit) =
    Some ([Held; Held], [None; Some true], [2; 0], [2; 0]) /\
  ex_show (srun 4 ex_unlocked ex_fl (ex_race ++ [EWrite 0 2]) sinit) =
    Some ([Held; Held], [None; Some true], [2; 0], [1; 0]).
Proof. vm_compute. auto. Qed.

(** Flush 1 meets page 12 locked and gets no memory for a waiter. *)
Definition ex_oom : list (nat * bool) :=
  [(0, false); (0, false); (0, false); (0, false)] ++ repeat (1, false) 4 ++ [(1, true)] ++ repeat (1, false) 4.
Example ex_failed : (exists s, run 4 (locks_pages 8 8 ex_fl) ex_oom init = Ok s /\ ph s 1 = Failed) /\
  (forall r, r < 2 -> spread 4 (locks_pages 8 8 ex_fl r)) /\ known 2 ex_oom.
Proof.
  split; [|split].
  - assert (H : match run 4 (locks_pages 8 8 ex_fl) ex_oom init with Ok s => ph s 1 = Failed | _ => False end)
      by (vm_compute; reflexivity).
    destruct (run 4 (locks_pages 8 8 ex_fl) ex_oom init) as [| |s]; [destruct H | destruct H | exists s; auto].
  - intros r L. apply C68_flush_spread; [reflexivity | | destruct r as [|[|]]; cbn; lia].
    apply (proj2 (proj1 ex_placed)). exact L.
  - unfold known, ex_oom. cbn. repeat constructor.
Qed.

Example ex_pio : laid_out 0 [(4, 3); (10, 2)]%N /\
  fst (pio_segs [(4, 3); (10, 2)]%N 0) = [{| s_first := 0; s_begin := 4; s_end := 7 |}; {| s_first := 3; s_begin := 10; s_end := 12 |}]%N /\
  pio_lines (fst (pio_segs [(4, 3); (10, 2)]%N 0)) {| f_page := 5; f_count := 6 |} = [1; 2; 3].
Proof. split; [cbn; lia|]. vm_compute. auto. Qed.

Print Assumptions C68_mio_entries.
Print Assumptions C68_pio_entries.
Print Assumptions C68_exclusive.
Print Assumptions C68_no_older_copy.
Print Assumptions C68_flushed.
Print Assumptions C68_all_end.
Print Assumptions C68_failed_clean.
Print Assumptions C68_flush_spread.

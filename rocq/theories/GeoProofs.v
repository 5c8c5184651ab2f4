From Coq Require Import Arith NArith List Bool Lia.
From Verif Require Import GeoModel.
Import ListNotations.
Open Scope N_scope.

Lemma u64_small x : x < 2^64 -> u64 x = x.
Proof. intros. now apply N.mod_small. Qed.

Section Geo.
Context (lsz : N) (r : greq).
Context (Hls : exists k, 0 < k /\ k <= 256 /\ lsz = k * 512).
Context (Hb : 0 < g_bytes r) (Hend : g_addr r + g_bytes r < 2^64).

Let A := g_addr r.
Let B := g_bytes r.

Lemma pos_lsz : 0 < lsz.
Proof. destruct Hls as (k & ? & ? & ?); lia. Qed.
Lemma lsec_eq : lsec lsz * 512 = lsz /\ 0 < lsec lsz /\ lsec lsz <= 256.
Proof.
  destruct Hls as (k & K1 & K2 & K3). unfold lsec. rewrite K3, N.div_mul by lia. lia.
Qed.

Lemma minus1 : u64 (u64 (A + B) + (2^64 - 1)) = A + B - 1.
Proof.
  rewrite (u64_small (A + B)) by exact Hend. fold A B in Hend, Hb. unfold u64.
  replace (A + B + (2^64 - 1)) with (A + B - 1 + 1 * 2^64) by lia.
  rewrite N.mod_add by lia. apply N.mod_small. lia.
Qed.
Lemma last_eq : line_last lsz r = (A + B - 1) / lsz.
Proof. unfold line_last. fold A B. now rewrite minus1. Qed.
Lemma first_le_last : line_first lsz r <= line_last lsz r.
Proof.
  rewrite last_eq. unfold line_first. fold A. apply N.div_le_mono; [pose proof pos_lsz; lia|].
  fold B in Hb. lia.
Qed.
Lemma last_lt : line_last lsz r < 2^64.
Proof.
  rewrite last_eq. eapply N.le_lt_trans; [apply N.div_le_upper_bound with (q := A + B - 1)|].
  - pose proof pos_lsz; lia.
  - pose proof pos_lsz. nia.
  - fold A B in Hend. lia.
Qed.
Lemma count_eq : line_last lsz r - line_first lsz r + 1 < 2^64 ->
  line_count lsz r = line_last lsz r - line_first lsz r + 1.
Proof.
  intros H. unfold line_count. pose proof first_le_last. pose proof last_lt.
  set (f := line_first lsz r) in *. set (l := line_last lsz r) in *. clearbody f l.
  assert (E : u64 (l + (2^64 - f)) = l - f).
  { unfold u64. replace (l + (2^64 - f)) with (l - f + 1 * 2^64) by lia. rewrite N.mod_add by lia.
    apply N.mod_small. lia. }
  rewrite E. apply u64_small. lia.
Qed.
Lemma count_small : line_last lsz r - line_first lsz r + 1 < 2^64.
Proof.
  rewrite last_eq. assert ((A + B - 1) / lsz < 2^64 - 1); [|lia].
  apply N.div_lt_upper_bound; [pose proof pos_lsz; lia|].
  destruct Hls as (k & ? & ? & ?). fold A B in Hend. nia.
Qed.
Lemma count_ok : line_count lsz r = line_last lsz r - line_first lsz r + 1.
Proof. apply count_eq, count_small. Qed.

Lemma mod256 x : x < lsec lsz -> x mod 256 = x.
Proof. intros. apply N.mod_small. pose proof lsec_eq. lia. Qed.

Lemma sec_line x : (x / 512) / lsec lsz = x / lsz.
Proof.
  destruct lsec_eq as (E & P & _). rewrite N.div_div by lia. f_equal. lia.
Qed.

(** The sector range of slot [i]. *)
Lemma slot_range i : i < line_count lsz r ->
  start_sector lsz r i = (if i =? 0 then (A / 512) mod lsec lsz else 0) /\
  end_sector lsz r i = (if i =? line_count lsz r - 1 then ((A + B - 1) / 512) mod lsec lsz else lsec lsz - 1) /\
  end_sector lsz r i < lsec lsz.
Proof.
  intros Hi. destruct lsec_eq as (E & P & _). unfold start_sector, end_sector, b2s.
  fold A B. rewrite minus1.
  assert (M : forall x, x mod lsec lsz < lsec lsz) by (intros; apply N.mod_lt; lia).
  split; [|split].
  - apply mod256. destruct (i =? 0); [apply M|lia].
  - apply mod256. destruct (i =? _); [apply M|lia].
  - rewrite mod256; destruct (i =? _); try apply M; lia.
Qed.

(** A sector lies in the request iff it lies in the range of its line's slot. *)
Lemma cover_iff i o : i < line_count lsz r -> o < lsec lsz ->
  (start_sector lsz r i <= o /\ o <= end_sector lsz r i <->
   A / 512 <= (line_first lsz r + i) * lsec lsz + o /\
   (line_first lsz r + i) * lsec lsz + o <= (A + B - 1) / 512).
Proof.
  intros Hi Ho. destruct (slot_range i Hi) as (S & T & _). rewrite S, T. clear S T.
  rewrite count_ok in *. destruct lsec_eq as (E & P & _).
  pose proof first_le_last as FL.
  assert (F : line_first lsz r = (A / 512) / lsec lsz) by (rewrite sec_line; reflexivity).
  assert (L : line_last lsz r = ((A + B - 1) / 512) / lsec lsz) by (rewrite sec_line; apply last_eq).
  set (a := A / 512) in *. set (b := (A + B - 1) / 512) in *. set (K := lsec lsz) in *.
  set (f := line_first lsz r) in *. set (l := line_last lsz r) in *.
  pose proof (N.div_mod a K ltac:(lia)) as D1. pose proof (N.div_mod b K ltac:(lia)) as D2.
  rewrite <- F in D1. rewrite <- L in D2.
  pose proof (N.mod_lt a K ltac:(lia)) as M1. pose proof (N.mod_lt b K ltac:(lia)) as M2.
  set (ra := a mod K) in *. set (rb := b mod K) in *.
  clearbody a b K f l ra rb. clear F L.
  replace (l - f + 1 - 1) with (l - f) by lia.
  destruct (N.eqb_spec i 0) as [I0|I0], (N.eqb_spec i (l - f)) as [I1|I1].
  - assert (l = f) by lia. subst. nia.
  - assert (f + 1 <= l) by lia. subst i. split; intros [X Y]; split; nia.
  - assert (l = f + i) by lia. assert (1 <= i) by lia. split; intros [X Y]; split; nia.
  - assert (f + i + 1 <= l) by lia. assert (1 <= i) by lia. split; intros [X Y]; split; nia.
Qed.
End Geo.

(** ** Contiguity *)
Definition npairs (m : nat -> mstat) (n : nat) : nat :=
  length (filter (phys_cont m) (seq 0 (n - 1))).
Definition nof (f : mstat -> bool) (m : nat -> mstat) (n : nat) : nat :=
  length (filter (fun j => f (m j)) (seq 0 n)).
Definition is_hit1 (s : mstat) := match s with Found _ true => true | _ => false end.
Definition is_ins1 (s : mstat) := match s with Remapped _ => true | _ => false end.
Definition is_map1 (s : mstat) := match s with Miss => false | _ => true end.

Lemma nof_S f m n : nof f m (S n) = (nof f m n + if f (m n) then 1 else 0)%nat.
Proof.
  unfold nof. rewrite seq_S, filter_app, app_length. cbn [filter plus]. destruct (f (m n)); reflexivity.
Qed.
Lemma npairs_S m n : npairs m (S (S n)) = (npairs m (S n) + if phys_cont m n then 1 else 0)%nat.
Proof.
  unfold npairs. replace (S (S n) - 1)%nat with (S n) by lia. replace (S n - 1)%nat with n by lia.
  rewrite seq_S, filter_app, app_length. cbn [filter plus].
  destruct (phys_cont m n); reflexivity.
Qed.

Lemma cont_miss m j : coll (m j) = None -> phys_cont m j = false.
Proof. unfold phys_cont. now intros ->. Qed.
Lemma cont_miss' m j : coll (m (S j)) = None -> phys_cont m j = false.
Proof. unfold phys_cont. intros ->. destruct (coll (m j)); reflexivity. Qed.

Lemma scan_ok m n : hit_no (scan m n) = nof is_hit1 m n /\ insert_no (scan m n) = nof is_ins1 m n /\
  seq_no (scan m n) = npairs m n.
Proof.
  unfold scan. induction n as [|n (I1 & I2 & I3)]; [now cbn|].
  rewrite seq_S, fold_left_app. cbn [fold_left plus]. unfold update_info at 1 3 5.
  rewrite !nof_S. destruct n as [|n].
  - destruct (m 0%nat) as [|c [|]|c]; cbn; auto.
  - rewrite npairs_S. destruct (m (S n)) as [|c [|]|c] eqn:E; cbn [hit_no insert_no seq_no is_hit1 is_ins1].
    + rewrite I1, I2, I3, cont_miss' by (now rewrite E). lia.
    + rewrite I1, I2, I3. lia.
    + rewrite I1, I2, I3. lia.
    + rewrite I1, I2, I3. lia.
Qed.

(** Number of elements of [0..n) satisfying f, when f differs from g only at [a] *)
Definition cnt (f : nat -> bool) (n : nat) : nat := length (filter f (seq 0 n)).
Lemma cnt_S f n : cnt f (S n) = (cnt f n + if f n then 1 else 0)%nat.
Proof. unfold cnt. rewrite seq_S, filter_app, app_length. cbn [filter plus]. destruct (f n); reflexivity. Qed.
Lemma cnt_ext f g n : (forall j, (j < n)%nat -> f j = g j) -> cnt f n = cnt g n.
Proof. intros H. unfold cnt. f_equal. apply filter_ext_in. intros j Hj. apply in_seq in Hj. apply H. lia. Qed.
Lemma cnt_one f g n a : (a < n)%nat -> f a = true -> g a = false -> (forall j, j <> a -> f j = g j) ->
  cnt f n = S (cnt g n).
Proof.
  induction n as [|n IH]; intros Ha F G H; [lia|]. rewrite !cnt_S.
  destruct (Nat.eq_dec a n) as [->|N].
  - rewrite F, G, (cnt_ext f g n); [lia|]. intros j Hj. apply H. lia.
  - rewrite IH, (H n) by (try assumption; lia). lia.
Qed.

Lemma npairs_cnt m n : npairs m n = cnt (phys_cont m) (n - 1).
Proof. reflexivity. Qed.

Lemma upd_same m j s : upd_stat m j s j = s.
Proof. unfold upd_stat. now rewrite Nat.eqb_refl. Qed.
Lemma upd_other m j s i : i <> j -> upd_stat m j s i = m i.
Proof. unfold upd_stat. intros H. destruct (Nat.eqb_spec i j); [contradiction|reflexivity]. Qed.
Lemma cont_upd m j s i : i <> j -> S i <> j -> phys_cont (upd_stat m j s) i = phys_cont m i.
Proof. intros A B. unfold phys_cont. now rewrite !upd_other. Qed.

(** Changing entry j from miss to mapped: pairs j-1 and j may become contiguous. *)
Lemma cnt_two f g n a : (a < n)%nat -> (forall j, j <> a -> S j <> a -> f j = g j) -> g a = false ->
  (forall b, a = S b -> g b = false) ->
  (cnt f n = cnt g n + (match a with O => 0 | S b => if f b then 1 else 0 end) + (if f a then 1 else 0))%nat.
Proof.
  intros Ha H Ga Gb. destruct a as [|b].
  - destruct (f 0%nat) eqn:F.
    + rewrite (cnt_one f g n 0) by (first [assumption|intros j Hj; apply H; [assumption|discriminate]]). lia.
    + rewrite (cnt_ext f g); [lia|]. intros j Hj. destruct (Nat.eq_dec j 0) as [->|E]; [congruence|].
      apply H; [assumption|discriminate].
  - set (h := fun j => if Nat.eqb j b then f b else g j).
    assert (Hb : h b = f b) by (unfold h; now rewrite Nat.eqb_refl).
    assert (H1 : cnt h n = (cnt g n + if f b then 1 else 0)%nat).
    { specialize (Gb b eq_refl). destruct (f b) eqn:F.
      - rewrite (cnt_one h g n b); [lia|lia|congruence|assumption|].
        intros j Hj. unfold h. destruct (Nat.eqb_spec j b); [contradiction|reflexivity].
      - rewrite (cnt_ext h g); [lia|]. intros j Hj. unfold h. destruct (Nat.eqb_spec j b); congruence. }
    assert (Ha' : h (S b) = false).
    { unfold h. destruct (Nat.eqb_spec (S b) b); [lia|assumption]. }
    assert (H2 : forall j, j <> S b -> f j = h j).
    { intros j Hj. unfold h. destruct (Nat.eqb_spec j b) as [->|E]; [reflexivity|].
      apply H; [assumption|lia]. }
    destruct (f (S b)) eqn:F.
    + rewrite (cnt_one f h n (S b)) by assumption. lia.
    + rewrite (cnt_ext f h); [lia|]. intros j Hj. destruct (Nat.eq_dec j (S b)) as [->|E]; [congruence|now apply H2].
Qed.

Lemma patch_seq m n j c x : (j < n)%nat -> m j = Miss -> seq_no x = npairs m n ->
  let m' := upd_stat m j (Remapped c) in seq_no (patch_info m' n j x) = npairs m' n.
Proof.
  intros Hj Mj E m'. cbn [patch_info seq_no]. rewrite E, !npairs_cnt.
  assert (Ga : phys_cont m j = false) by (apply cont_miss; now rewrite Mj).
  assert (Gb : forall b, j = S b -> phys_cont m b = false) by (intros b ->; apply cont_miss'; now rewrite Mj).
  assert (H : forall i, i <> j -> S i <> j -> phys_cont m' i = phys_cont m i).
  { intros i A B. unfold m'. now apply cont_upd. }
  destruct (Nat.ltb_spec (j + 1) n) as [L|L].
  - rewrite (cnt_two (phys_cont m') (phys_cont m) (n - 1) j) by (try assumption; lia). lia.
  - assert (n = S j) by lia. subst n. replace (S j - 1)%nat with j by lia. destruct j as [|b]; [reflexivity|].
    rewrite !cnt_S, (cnt_ext (phys_cont m') (phys_cont m) b).
    + rewrite (Gb b eq_refl). lia.
    + intros i Hi. apply H; lia.
Qed.

Lemma patches_ok n : forall l m x m' x', seq_no x = npairs m n ->
  (hit_no x + insert_no x <= nof is_map1 m n)%nat ->
  (* each patched entry is a miss when it gets mapped *)
  NoDup (map fst l) -> (forall j c, In (j, c) l -> (j < n)%nat /\ m j = Miss) ->
  patches m n x l = (m', x') ->
  seq_no x' = npairs m' n /\ (hit_no x' + insert_no x' <= nof is_map1 m' n)%nat.
Proof.
  induction l as [|[j c] l IH]; intros m x m' x' S H D F E; cbn [patches] in E.
  - injection E as <- <-. now split.
  - inversion D; subst. destruct (F j c (or_introl eq_refl)) as [Hj Mj].
    eapply IH; [| | eassumption | | exact E].
    + now apply patch_seq.
    + cbn [patch_info hit_no insert_no].
      assert (nof is_map1 (upd_stat m j (Remapped c)) n = (1 + nof is_map1 m n)%nat); [|lia].
      change (cnt (fun i => is_map1 (upd_stat m j (Remapped c) i)) n = (1 + cnt (fun i => is_map1 (m i)) n)%nat).
      rewrite (cnt_one _ (fun i => is_map1 (m i)) n j); try assumption; try reflexivity.
      * now rewrite upd_same.
      * now rewrite Mj.
      * intros i Hi. now rewrite upd_other.
    + intros i c' Hi. destruct (F i c' (or_intror Hi)) as [A B]. split; [assumption|].
      rewrite upd_other; [assumption|]. intros ->. apply H2. now apply (in_map fst) in Hi.
Qed.

Lemma cnt_full f n : cnt f n = n -> forall j, (j < n)%nat -> f j = true.
Proof.
  assert (LE : forall n, (cnt f n <= n)%nat).
  { clear. induction n; [reflexivity|]. rewrite cnt_S. destruct (f n); lia. }
  induction n as [|n IH]; intros E j Hj; [lia|]. rewrite cnt_S in E. specialize (LE n).
  destruct (f n) eqn:F; [|lia].
  destruct (Nat.eq_dec j n) as [->|N]; [assumption|]. apply IH; lia.
Qed.

Lemma cont_all m n : (forall j, (S j < n)%nat -> phys_cont m j = true) ->
  forall c0, coll (m 0%nat) = Some c0 -> forall j, (j < n)%nat -> coll (m j) = Some (c0 + N.of_nat j).
Proof.
  intros H c0 E. induction j as [|j IH]; intros Hj; [rewrite E; f_equal; lia|].
  specialize (IH ltac:(lia)). specialize (H j Hj). unfold phys_cont in H. rewrite IH in H.
  destruct (coll (m (S j))) as [p|]; [|discriminate]. apply andb_prop in H. destruct H as [_ H].
  apply N.eqb_eq in H. f_equal. lia.
Qed.

Lemma le_map m n : (nof is_hit1 m n + nof is_ins1 m n <= nof is_map1 m n)%nat.
Proof.
  induction n as [|n IH]; [reflexivity|]. rewrite !nof_S. destruct (m n) as [|c [|]|c]; cbn; lia.
Qed.

(** ** I/O loop *)
Section Io.
Context (lsz mo A B : N) (m : list N).
Context (Hls : 0 < lsz).
Context (HA : A + B < 2^64).
Context (Hdev : forall c, In c m -> mo + (c + 1) * lsz < 2^64).
Context (HB : 0 < B).
Context (Hlen : N.of_nat (length m) = (A + B - 1) / lsz - A / lsz + 1).

Let seek := A mod lsz.
(** Where byte [b] of the request has to go. *)
Definition place (b : N) : N :=
  mo + nth (N.to_nat ((seek + b) / lsz)) m 0 * lsz + (seek + b) mod lsz.

Lemma merge_spec : forall rest addr bytes an bytes' rest' an', (forall c, In c rest -> In c m) ->
  merge lsz mo rest addr bytes an = (bytes', rest', an') ->
  addr + bytes < 2^64 ->
  exists pre, rest = pre ++ rest' /\ bytes' = bytes + N.of_nat (length pre) * lsz /\
    (forall j c, nth_error pre j = Some c -> c * lsz + mo = addr + bytes + N.of_nat j * lsz) /\
    (match rest' with [] => True | c :: _ => an' = c * lsz + mo end).
Proof.
  induction rest as [|c r IH]; intros addr bytes an bytes' rest' an' Hin E Hsm; cbn [merge] in E.
  - injection E as <- <- <-. exists []. cbn. split; [reflexivity|]. split; [lia|]. split; [|exact I].
    intros j c H. destruct j; discriminate.
  - pose proof (Hdev c (Hin c (or_introl eq_refl))) as Hc.
    assert (U : u64 (u64 (c * lsz) + mo) = c * lsz + mo).
    { rewrite (u64_small (c * lsz)) by nia. apply u64_small. nia. }
    rewrite U in E. rewrite (u64_small (addr + bytes)) in E by exact Hsm.
    destruct (N.eqb_spec (c * lsz + mo) (addr + bytes)) as [Q|Q].
    + destruct (IH addr (bytes + lsz) _ bytes' rest' an' (fun x h => Hin x (or_intror h)) E) as (pre & P1 & P2 & P3 & P4).
      { nia. }
      exists (c :: pre). split; [now rewrite P1|]. split; [cbn [length]; nia|]. split; [|exact P4].
      intros [|j] c' Hj; cbn in Hj.
      * injection Hj as <-. lia.
      * apply P3 in Hj. nia.
    + injection E as <- <- <-. exists []. cbn. split; [reflexivity|]. split; [lia|]. split; [|reflexivity].
      intros j c' H. destruct j; discriminate.
Qed.

Fixpoint chain (t : N) (l : list cio) : Prop :=
  match l with
  | [] => t = B
  | io :: l' => io_off io = t /\ 0 < io_bytes io /\ chain (t + io_bytes io) l'
  end.
Definition placed (io : cio) : Prop :=
  forall b, io_off io <= b -> b < io_off io + io_bytes io -> io_addr io + (b - io_off io) = place b.

Lemma seek_len : N.of_nat (length m) = (seek + B - 1) / lsz + 1.
Proof.
  rewrite Hlen. f_equal. pose proof (N.div_mod A lsz ltac:(lia)) as D. fold seek in D.
  assert (E : A + B - 1 = seek + B - 1 + A / lsz * lsz) by lia.
  rewrite E, N.div_add by lia. now rewrite N.add_sub.
Qed.

Lemma fwd_spec : forall fuel rest done first an total,
  m = done ++ rest -> (length rest <= fuel)%nat ->
  first = (match done with [] => true | _ => false end) ->
  (match rest with [] => True | c :: _ => an = 0 \/ an = c * lsz + mo end) ->
  (match rest with
   | [] => total = B
   | _ => seek + total = N.of_nat (length done) * lsz + (if first then seek else 0) /\ (first = true -> total = 0)
   end) ->
  exists l, fwd_loop lsz mo A B fuel first rest an total = Some l /\ chain total l /\ Forall placed l.
Proof.
  induction fuel as [|f IH]; intros rest done first an total Em Hf Hfirst Han Htot.
  - destruct rest; [|cbn in Hf; lia]. cbn. subst total. rewrite N.eqb_refl. exists []. cbn. auto.
  - destruct rest as [|c r].
    + cbn. subst total. rewrite N.eqb_refl. exists []. cbn. auto.
    + cbn [fwd_loop]. destruct Htot as [Ht0 Ht1].
      assert (Hin : forall x, In x (c :: r) -> In x m) by (intros x Hx; rewrite Em; apply in_or_app; now right).
      pose proof (Hdev c (Hin c (or_introl eq_refl))) as Hc.
      assert (U : u64 (u64 (c * lsz) + mo) = c * lsz + mo).
      { rewrite (u64_small (c * lsz)) by nia. apply u64_small. nia. }
      assert (Ea : (if an =? 0 then u64 (u64 (c * lsz) + mo) else an) = c * lsz + mo).
      { rewrite U. destruct (N.eqb_spec an 0); [reflexivity|]. destruct Han; [lia|assumption]. }
      rewrite Ea. clear Ea.
      fold seek. pose proof (N.mod_lt A lsz ltac:(lia)) as Hsk. fold seek in Hsk.
      set (s0 := if first then seek else 0) in *.
      assert (Hs0 : s0 < lsz) by (unfold s0; destruct first; lia).
      assert (Ua : u64 (c * lsz + mo + s0) = c * lsz + mo + s0) by (apply u64_small; nia).
      rewrite Ua.
      destruct (merge lsz mo r (c * lsz + mo + s0) (lsz - s0) an) as [[bytes rest'] an'] eqn:Em2.
      assert (Hin2 : forall x, In x r -> In x m) by (intros x Hx; apply Hin; now right).
      destruct (merge_spec r _ _ _ _ _ _ Hin2 Em2) as (pre & P1 & P2 & P3 & P4).
      { nia. }
      set (i := N.of_nat (length done)) in *. set (p := N.of_nat (length pre)) in *.
      (* total length of the map *)
      pose proof seek_len as SL. rewrite Em, P1, app_length in SL. cbn [length] in SL. rewrite app_length in SL.
      assert (SL' : i + 1 + p + N.of_nat (length rest') = (seek + B - 1) / lsz + 1) by lia. clear SL.
      pose proof (N.div_mod (seek + B - 1) lsz ltac:(lia)) as DM.
      pose proof (N.mod_lt (seek + B - 1) lsz ltac:(lia)) as DL.
      set (q := (seek + B - 1) / lsz) in *. set (rm := (seek + B - 1) mod lsz) in *.
      (* length of this I/O *)
      assert (BY : exists by_, N.min (bytes - match rest' with [] => (lsz - u64 (A + B) mod lsz) mod lsz | _ => 0 end) (B - total) = by_ /\
        0 < by_ /\ seek + total + by_ <= (i + 1 + p) * lsz /\
        (rest' = [] -> total + by_ = B) /\
        (rest' <> [] -> seek + total + by_ = (i + 1 + p) * lsz /\ total + by_ <= B)).
      { rewrite (u64_small (A + B)) by exact HA.
        destruct rest' as [|c' r'].
        - cbn [length] in SL'. assert (Eq : i + p = q) by lia.
          assert (SK : (lsz - (A + B) mod lsz) mod lsz = lsz - 1 - rm).
          { pose proof (N.div_mod A lsz ltac:(lia)) as DA. fold seek in DA.
            assert (E1 : (A + B) mod lsz = (rm + 1) mod lsz).
            { replace (A + B) with (rm + 1 + (A / lsz + q) * lsz) by nia. apply N.mod_add. lia. }
            rewrite E1. destruct (N.eq_dec (rm + 1) lsz) as [E2|E2].
            - rewrite E2, N.mod_same by lia. rewrite N.sub_0_r, N.mod_same by lia. lia.
            - rewrite (N.mod_small (rm + 1)) by lia. rewrite N.mod_small by lia. lia. }
          rewrite SK. exists (B - total).
          assert (HQ : q * lsz = i * lsz + p * lsz) by (rewrite <- Eq; apply N.mul_add_distr_r).
          assert (HE : (i + 1 + p) * lsz = i * lsz + p * lsz + lsz) by (rewrite !N.mul_add_distr_r; lia).
          rewrite HE. clear HE.
          assert (HC : lsz * q = q * lsz) by apply N.mul_comm. rewrite HC, HQ in DM. clear HC HQ.
          set (X := i * lsz) in *. set (Y := p * lsz) in *. clearbody X Y.
          assert (total < B).
          { unfold s0 in *. destruct first; [rewrite (Ht1 eq_refl); exact HB|]. lia. }
          split; [lia|]. split; [lia|]. split; [lia|]. split; [lia|congruence].
        - cbn [length] in SL'. assert (i + p + 1 <= q) by lia.
          assert (HQ : (i + 1 + p) * lsz <= q * lsz) by (apply N.mul_le_mono_r; lia).
          assert (HE : (i + 1 + p) * lsz = i * lsz + p * lsz + lsz) by (rewrite !N.mul_add_distr_r; lia).
          assert (HC : lsz * q = q * lsz) by apply N.mul_comm. rewrite HC in DM. clear HC.
          rewrite HE in *. set (X := i * lsz) in *. set (Y := p * lsz) in *. set (Z := q * lsz) in *. clearbody X Y Z.
          rewrite N.sub_0_r. exists bytes.
          assert (E1 : seek + total + bytes = X + Y + lsz) by lia.
          split; [lia|]. split; [lia|]. split; [lia|]. split; [congruence|]. intros _. split; [assumption|lia]. }
      destruct BY as (by_ & Eby & Bp & Bend & Blast & Bmid). rewrite Eby.
      destruct (N.eqb_spec by_ 0); [lia|].
      assert (Em' : m = (done ++ c :: pre) ++ rest') by (rewrite Em, P1, <- app_assoc; reflexivity).
      destruct (IH rest' (done ++ c :: pre) false an' (total + by_)) as (l & L1 & L2 & L3).
      * assumption.
      * cbn in Hf. rewrite P1, app_length in Hf. lia.
      * destruct done; reflexivity.
      * destruct rest'; [exact I|]. right. exact P4.
      * destruct rest' as [|c' r']; [now apply Blast|]. split; [|discriminate].
        destruct Bmid as [Bm _]; [discriminate|]. rewrite app_length. cbn [length].
        rewrite N.add_assoc, Bm. fold i p. rewrite N.add_0_r. f_equal. lia.
      * rewrite L1. eexists. split; [reflexivity|]. split.
        -- cbn [chain io_off io_bytes]. auto.
        -- constructor; [|assumption]. intros b H1 H2. cbn [io_off io_bytes io_addr] in *. unfold place.
           set (x := seek + b) in *.
           assert (Hx1 : i * lsz + s0 <= x) by lia.
           assert (Hx2 : x < (i + 1 + p) * lsz) by lia.
           pose proof (N.div_mod x lsz ltac:(lia)) as Dx. pose proof (N.mod_lt x lsz ltac:(lia)) as Mx.
           set (j := x / lsz) in *. set (w := x mod lsz) in *.
           assert (Hj1 : i <= j).
           { destruct (N.le_gt_cases i j) as [?|Hg]; [assumption|exfalso].
             assert (Hm : (j + 1) * lsz <= i * lsz) by (apply N.mul_le_mono_r; lia).
             clear - Hm Dx Mx Hx1. rewrite N.mul_add_distr_r, N.mul_1_l in Hm. rewrite N.mul_comm in Dx. lia. }
           assert (Hj2 : j < i + 1 + p).
           { destruct (N.lt_ge_cases j (i + 1 + p)) as [?|Hg]; [assumption|exfalso].
             assert (Hm : (i + 1 + p) * lsz <= j * lsz) by (apply N.mul_le_mono_r; lia).
             clear - Hm Dx Hx2. rewrite (N.mul_comm lsz j) in Dx. lia. }
           assert (Nth : nth (N.to_nat j) m 0 * lsz + mo = c * lsz + mo + (j - i) * lsz).
           { rewrite Em, app_nth2 by (clear - Hj1; unfold i in *; lia).
             destruct (N.eq_dec j i) as [->|Nj].
             - replace (N.to_nat i - length done)%nat with 0%nat by (clear; unfold i; lia). cbn [nth]. clear; lia.
             - assert (Hlt : i < j) by (clear - Nj Hj1; lia).
               replace (N.to_nat j - length done)%nat with (S (N.to_nat (j - i - 1))) by (clear - Hlt; unfold i in *; lia).
               cbn [nth]. rewrite P1, app_nth1 by (clear - Hlt Hj2; unfold p in *; lia).
               destruct (nth_error pre (N.to_nat (j - i - 1))) as [c'|] eqn:NE.
               + rewrite (nth_error_nth _ _ _ NE). rewrite (P3 _ _ NE). rewrite N2Nat.id.
                 assert (Hm : (j - i) * lsz = (j - i - 1) * lsz + lsz).
                 { replace (j - i) with (j - i - 1 + 1) at 1 by (clear - Hlt; lia). clear; lia. }
                 rewrite Hm. clear - Hs0. lia.
               + apply nth_error_None in NE. clear - NE Hj2 Hlt. unfold p in *. lia. }
           assert (Hm : j * lsz = i * lsz + (j - i) * lsz).
           { rewrite <- N.mul_add_distr_r. f_equal. clear - Hj1. lia. }
           rewrite (N.mul_comm lsz j), Hm in Dx. unfold x in *. clear - Nth Dx H1 Ht0 Hx1 Hs0. lia.
Qed.
End Io.

(** C08 request geometry, C17 cache I/O of a request. *)
From Coq Require Import Arith NArith List Bool Lia.
From Verif Require Import GeoModel GeoProofs.
Import ListNotations.
Open Scope N_scope.

(** A supported line size in bytes: a multiple of the sector size, at most 256
    sectors (the real ones are 4, 8, 16, 32 and 64 KiB). *)
Definition line_size_ok (lsz : N) : Prop := exists k, 0 < k /\ k <= 256 /\ lsz = k * 512.

(** ** C08 *)
(** Sector [x] contains a byte of the request. *)
Definition touched (r : greq) (x : N) : Prop :=
  exists y, g_addr r <= y /\ y < g_addr r + g_bytes r /\ x = y / 512.
(** Sector [x] is sector [o] of line slot [i], and in the sector range of that slot. *)
Definition in_slot (lsz : N) (r : greq) (i o x : N) : Prop :=
  i < line_count lsz r /\ o < lsec lsz /\
  start_sector lsz r i <= o /\ o <= end_sector lsz r i /\
  x = (line_first lsz r + i) * lsec lsz + o.

Lemma touched_iff r x : 0 < g_bytes r ->
  (touched r x <-> g_addr r / 512 <= x /\ x <= (g_addr r + g_bytes r - 1) / 512).
Proof.
  intros Hb. unfold touched. split.
  - intros (y & H1 & H2 & ->). split; apply N.div_le_mono; lia.
  - intros [H1 H2]. destruct (N.le_gt_cases (g_addr r) (x * 512)) as [L|L].
    + exists (x * 512). rewrite N.div_mul by lia. split; [assumption|]. split; [|reflexivity].
      pose proof (N.mul_div_le (g_addr r + g_bytes r - 1) 512). lia.
    + exists (g_addr r). split; [lia|]. split; [lia|]. apply N.le_antisymm; [|assumption].
      assert (g_addr r / 512 >= x); [|lia]. apply N.le_ge. apply N.div_le_lower_bound; [lia|].
      pose proof (N.mul_div_le (g_addr r) 512). lia.
Qed.

Theorem C08_lines_cover_exactly : forall lsz r, line_size_ok lsz ->
  0 < g_bytes r -> g_addr r + g_bytes r < 2^64 ->
  (forall x, touched r x <-> exists i o, in_slot lsz r i o x) /\
  (forall x i o i' o', in_slot lsz r i o x -> in_slot lsz r i' o' x -> i = i' /\ o = o') /\
  (forall i, i < line_count lsz r ->
     start_sector lsz r i <= end_sector lsz r i /\ end_sector lsz r i < lsec lsz).
Proof.
  intros lsz r Hls Hb He. pose proof (lsec_eq lsz r Hls Hb He) as (LE & LP & _).
  assert (Cov : forall x, touched r x -> exists i o, in_slot lsz r i o x).
  { intros x Hx. apply touched_iff in Hx; [|assumption]. destruct Hx as [H1 H2].
    pose proof (N.div_mod x (lsec lsz) ltac:(lia)) as D. pose proof (N.mod_lt x (lsec lsz) ltac:(lia)) as M.
    assert (F : line_first lsz r <= x / lsec lsz).
    { unfold line_first. rewrite <- (sec_line lsz r Hls Hb He). apply N.div_le_mono; [lia|assumption]. }
    assert (L : x / lsec lsz <= line_last lsz r).
    { rewrite last_eq by assumption. rewrite <- (sec_line lsz r Hls Hb He). apply N.div_le_mono; [lia|assumption]. }
    exists (x / lsec lsz - line_first lsz r), (x mod lsec lsz).
    assert (HI : x / lsec lsz - line_first lsz r < line_count lsz r).
    { rewrite count_ok by assumption. set (a := x / lsec lsz) in *. clearbody a.
      set (f := line_first lsz r) in *. set (l := line_last lsz r) in *. clearbody f l. lia. }
    assert (X : x = (line_first lsz r + (x / lsec lsz - line_first lsz r)) * lsec lsz + x mod lsec lsz).
    { replace (line_first lsz r + (x / lsec lsz - line_first lsz r)) with (x / lsec lsz) by
        (set (a := x / lsec lsz) in *; clearbody a; set (f := line_first lsz r) in *; clearbody f; lia).
      rewrite (N.mul_comm (x / lsec lsz)). exact D. }
    pose proof (proj2 (cover_iff lsz r Hls Hb He _ (x mod lsec lsz) HI M)) as C.
    rewrite <- X in C. destruct (C (conj H1 H2)) as [C1 C2].
    split; [exact HI|]. split; [exact M|]. split; [exact C1|]. split; [exact C2|exact X]. }
  split; [|split].
  - intros x. split; [apply Cov|]. intros (i & o & H1 & H2 & H3 & H4 & ->).
    apply touched_iff; [assumption|]. apply (cover_iff lsz r Hls Hb He i o H1 H2). now split.
  - intros x i o i' o' (A1 & A2 & _ & _ & A3) (B1 & B2 & _ & _ & B3). rewrite A3 in B3.
    set (f := line_first lsz r) in *. set (K := lsec lsz) in *. clearbody f K. clear Cov.
    assert (E : f + i = f + i'); [|assert (i = i') by lia; subst; split; [reflexivity|lia]].
    destruct (N.lt_trichotomy (f + i) (f + i')) as [H|[H|H]]; [exfalso|assumption|exfalso].
    + assert ((f + i + 1) * K <= (f + i') * K) by (apply N.mul_le_mono_r; lia).
      rewrite N.mul_add_distr_r, N.mul_1_l in H0. lia.
    + assert ((f + i' + 1) * K <= (f + i) * K) by (apply N.mul_le_mono_r; lia).
      rewrite N.mul_add_distr_r, N.mul_1_l in H0. lia.
  - intros i Hi. pose proof (slot_range lsz r Hls Hb He i Hi) as (S & T & U). split; [|exact U].
    rewrite S, T. rewrite count_ok in * by assumption.
    pose proof (first_le_last lsz r Hls Hb He) as FL.
    destruct (N.eqb_spec i 0) as [I0|I0], (N.eqb_spec i (line_last lsz r - line_first lsz r + 1 - 1)) as [I1|I1]; try lia.
    + (* one line *)
      assert (E : line_last lsz r = line_first lsz r) by lia.
      rewrite last_eq in E by assumption. unfold line_first in E. rewrite <- !(sec_line lsz r Hls Hb He) in E.
      assert (LE2 : g_addr r / 512 <= (g_addr r + g_bytes r - 1) / 512) by (apply N.div_le_mono; lia).
      set (a := g_addr r / 512) in *. set (b := (g_addr r + g_bytes r - 1) / 512) in *. set (K := lsec lsz) in *.
      pose proof (N.div_mod a K ltac:(lia)) as D1. pose proof (N.div_mod b K ltac:(lia)) as D2.
      rewrite E in D2. set (q := K * (a / K)) in *. clearbody q. lia.
    + pose proof (N.mod_lt (g_addr r / 512) (lsec lsz) ltac:(lia)). lia.
Qed.

(** A request over three 4 KiB lines, not aligned to them. *)
Example ex08 : let r := {| g_addr := 7 * 512; g_bytes := 10 * 512 |} in
  (line_first 4096 r, line_count 4096 r, map (start_sector 4096 r) [0;1;2], map (end_sector 4096 r) [0;1;2])
  = (0, 3, [7; 0; 0], [7; 7; 0]).
Proof. vm_compute. reflexivity. Qed.

(** ** C17 *)
(** The device byte of the cache that holds core byte [y], when line [i] of the
    request is cached in line [m i]. *)
Definition home (lsz mo : N) (r : greq) (m : nat -> N) (y : N) : N :=
  mo + m (N.to_nat (y / lsz - g_addr r / lsz)) * lsz + y mod lsz.

Definition covers (io : cio) (b : N) : Prop := io_off io <= b /\ b < io_off io + io_bytes io.

(** The I/Os [l] together move every byte of the request exactly once, and to or
    from the right place of the cache device. *)
Definition exact_io (lsz mo : N) (r : greq) (m : nat -> N) (l : list cio) : Prop :=
  (forall b, b < g_bytes r -> exists k io, nth_error l k = Some io /\ covers io b /\
     io_addr io + (b - io_off io) = home lsz mo r m (g_addr r + b) /\
     forall k' io', nth_error l k' = Some io' -> covers io' b -> k' = k) /\
  (forall io, In io l -> 0 < io_bytes io /\ io_off io + io_bytes io <= g_bytes r).

Lemma chain_cover B : forall l t, chain B t l ->
  (t <= B) /\
  (forall b, t <= b -> b < B -> exists k io, nth_error l k = Some io /\ covers io b /\
     forall k' io', nth_error l k' = Some io' -> covers io' b -> k' = k) /\
  (forall io, In io l -> t <= io_off io /\ 0 < io_bytes io /\ io_off io + io_bytes io <= B).
Proof.
  induction l as [|io l IH]; intros t C; cbn [chain] in C.
  - subst t. split; [lia|]. split; [intros; lia|]. intros io [].
  - destruct C as (C1 & C2 & C3). destruct (IH _ C3) as (I0 & I1 & I2). split; [lia|]. split.
    + intros b H1 H2. destruct (N.lt_ge_cases b (t + io_bytes io)) as [L|L].
      * exists 0%nat, io. split; [reflexivity|]. split; [unfold covers; lia|].
        intros [|k] io' E Cv; [reflexivity|]. cbn in E. apply nth_error_In in E. apply I2 in E.
        unfold covers in Cv. lia.
      * destruct (I1 b L H2) as (k & io' & E & Cv & U). exists (S k), io'. split; [exact E|]. split; [exact Cv|].
        intros [|k'] io'' E' Cv'.
        -- cbn in E'. injection E' as <-. unfold covers in Cv'. lia.
        -- cbn in E'. f_equal. now apply (U k' io'').
    + intros io' [<-|H]; [lia|]. apply I2 in H. lia.
Qed.

Lemma home_place lsz mo r (m : nat -> N) (l : list N) b : 0 < lsz ->
  (forall i, nth i l 0 = m i \/ (length l <= i)%nat) -> 
  (N.to_nat ((g_addr r mod lsz + b) / lsz) < length l)%nat ->
  place lsz mo (g_addr r) l b = home lsz mo r m (g_addr r + b).
Proof.
  intros Hls Hm Hlt. unfold place, home.
  pose proof (N.div_mod (g_addr r) lsz ltac:(lia)) as D.
  set (A := g_addr r) in *. set (s := A mod lsz) in *.
  assert (E : A + b = s + b + A / lsz * lsz) by lia.
  assert (E1 : (A + b) / lsz = (s + b) / lsz + A / lsz) by (rewrite E at 1; apply N.div_add; lia).
  assert (E2 : (A + b) mod lsz = (s + b) mod lsz) by (rewrite E at 1; apply N.mod_add; lia).
  rewrite E1, E2, N.add_sub. destruct (Hm (N.to_nat ((s + b) / lsz))) as [->|H]; [reflexivity|].
  exfalso. exact (Nat.lt_irrefl _ (Nat.lt_le_trans _ _ _ Hlt H)).
Qed.

(** Request state after lookup (or re-check) and possibly mapping of the missing
    entries; [n] entries, all mapped. *)
Definition prepared (m0 : nat -> mstat) (n : nat) (l : list (nat * N)) (m : nat -> mstat) (x : info) : Prop :=
  NoDup (map fst l) /\ (forall j c, In (j, c) l -> (j < n)%nat /\ m0 j = Miss) /\
  patches m0 n (scan m0 n) l = (m, x) /\ forall j, (j < n)%nat -> coll (m j) <> None.

Definition line_of (m : nat -> mstat) (j : nat) : N := match coll (m j) with Some c => c | None => 0 end.

Theorem C17_cache_io_exact : forall lsz mo r m0 pl m x,
  line_size_ok lsz -> 0 < g_bytes r -> g_addr r + g_bytes r < 2^64 ->
  let n := N.to_nat (line_count lsz r) in
  prepared m0 n pl m x ->
  (forall j, (j < n)%nat -> mo + (line_of m j + 1) * lsz < 2^64) ->
  exists l, forward_cache_io lsz mo r (map (line_of m) (seq 0 n)) (is_sequential x n) = Some l /\
    exact_io lsz mo r (line_of m) l.
Proof.
  intros lsz mo r m0 pl m x Hls Hb He n (ND & PF & PE & Mapped) Hdev.
  assert (P : 0 < lsz) by (destruct Hls as (k & ? & ? & ?); lia).
  pose proof (first_le_last lsz r Hls Hb He) as FL.
  assert (Hn : N.of_nat n = (g_addr r + g_bytes r - 1) / lsz - g_addr r / lsz + 1).
  { unfold n. rewrite N2Nat.id, count_ok, last_eq by assumption. reflexivity. }
  assert (Hn0 : (0 < n)%nat).
  { unfold n. rewrite count_ok by assumption. lia. }
  set (mm := map (line_of m) (seq 0 n)).
  assert (Lm : length mm = n) by (unfold mm; now rewrite map_length, seq_length).
  assert (Nthm : forall i, nth i mm 0 = line_of m i \/ (length mm <= i)%nat).
  { intros i. destruct (Nat.lt_ge_cases i n) as [L|L]; [left|right; lia]. unfold mm.
    rewrite (nth_indep _ 0 (line_of m 0%nat)) by (rewrite map_length, seq_length; exact L).
    rewrite map_nth, seq_nth by assumption. reflexivity. }
  assert (Hlen : N.of_nat (length mm) = (g_addr r + g_bytes r - 1) / lsz - g_addr r / lsz + 1) by (rewrite Lm; exact Hn).
  assert (Hplace : forall b, b < g_bytes r -> place lsz mo (g_addr r) mm b = home lsz mo r (line_of m) (g_addr r + b)).
  { intros b Hbb. apply home_place; [assumption|assumption|].
    pose proof (seek_len lsz (g_addr r) (g_bytes r) mm P He Hb Hlen) as SL.
    assert ((g_addr r mod lsz + b) / lsz <= (g_addr r mod lsz + g_bytes r - 1) / lsz) by (apply N.div_le_mono; lia).

    set (a := (g_addr r mod lsz + b) / lsz) in *. set (c := (g_addr r mod lsz + g_bytes r - 1) / lsz) in *.
    clearbody a c. lia. }
  assert (K : forall l, chain (g_bytes r) 0 l -> Forall (placed lsz mo (g_addr r) mm) l ->
    exact_io lsz mo r (line_of m) l).
  { intros l Ch Pl. destruct (chain_cover _ _ _ Ch) as (_ & C1 & C2). split.
    - intros b Hbb. destruct (C1 b ltac:(lia) Hbb) as (k & io & E & Cv & U). exists k, io.
      split; [exact E|]. split; [exact Cv|]. split; [|exact U].
      rewrite <- Hplace by assumption. rewrite Forall_forall in Pl. apply Pl; [now apply nth_error_In in E| |]; apply Cv.
    - intros io Hio. apply C2 in Hio. lia. }
  unfold forward_cache_io. destruct (is_sequential x n) eqn:SQ.
  - eexists. split; [reflexivity|].
    (* all pairs are contiguous *)
    destruct (scan_ok m0 n) as (S1 & S2 & S3).
    destruct (patches_ok n pl m0 (scan m0 n) m x) as (Q1 & Q2); try assumption.
    { rewrite S1, S2. apply le_map. }
    unfold is_sequential in SQ. apply andb_prop in SQ. destruct SQ as [_ SQ]. apply Nat.eqb_eq in SQ.
    rewrite Q1, npairs_cnt in SQ.
    assert (AllC : forall j, (S j < n)%nat -> phys_cont m j = true).
    { intros j Hj. apply (cnt_full _ (n - 1)); [assumption|lia]. }
    assert (E0 : coll (m 0%nat) = Some (line_of m 0%nat)).
    { unfold line_of. destruct (coll (m 0%nat)) eqn:E; [reflexivity|]. exfalso. now apply (Mapped 0%nat). }
    assert (AllL : forall j, (j < n)%nat -> line_of m j = line_of m 0%nat + N.of_nat j).
    { intros j Hj. unfold line_of at 1. now rewrite (cont_all m n AllC _ E0 j Hj). }
    assert (HD : hd 0 mm = line_of m 0%nat).
    { unfold mm. destruct n; [lia|]. reflexivity. }
    rewrite HD. pose proof (Hdev 0%nat Hn0) as D0.
    pose proof (N.mod_lt (g_addr r) lsz ltac:(lia)) as MA.
    rewrite u64_small by lia.
    split.
    + intros b Hbb. exists 0%nat. eexists. split; [reflexivity|]. split; [unfold covers; cbn; lia|]. split.
      * cbn [io_addr io_off]. rewrite N.sub_0_r, <- Hplace by assumption. unfold place.
        set (sk := g_addr r mod lsz) in *.
        pose proof (N.div_mod (sk + b) lsz ltac:(lia)) as DB.
        assert (J : (N.to_nat ((sk + b) / lsz) < n)%nat).
        { pose proof (seek_len lsz (g_addr r) (g_bytes r) mm P He Hb Hlen) as SL. fold sk in SL.
          assert (X : (sk + b) / lsz <= (sk + g_bytes r - 1) / lsz) by (apply N.div_le_mono; lia).
          rewrite <- Lm. set (a := (sk + b) / lsz) in *. set (c := (sk + g_bytes r - 1) / lsz) in *.
          clearbody a c. lia. }
        destruct (Nthm (N.to_nat ((sk + b) / lsz))) as [->|X]; [|exfalso; rewrite Lm in X; exact (Nat.lt_irrefl _ (Nat.lt_le_trans _ _ _ J X))].
        rewrite (AllL _ J), N2Nat.id.
        set (a := (sk + b) / lsz) in *. set (w := (sk + b) mod lsz) in *. clearbody a w.
        rewrite N.mul_add_distr_r. rewrite (N.mul_comm lsz a) in DB. lia.
      * intros [|k'] io' E' _; [reflexivity|]. destruct k'; discriminate.
    + intros io [<-|[]]. cbn. lia.
  - destruct (fwd_spec lsz mo (g_addr r) (g_bytes r) mm P He) with (fuel := length mm) (rest := mm)
      (done := @nil N) (first := true) (an := 0) (total := 0) as (l & L1 & L2 & L3); try assumption; try reflexivity.
    + intros c Hc. unfold mm in Hc. apply in_map_iff in Hc. destruct Hc as (j & <- & Hj). apply in_seq in Hj.
      apply Hdev. lia.
    + destruct mm; [exact I|]. now left.
    + destruct mm; [cbn in Lm; lia|]. split; [cbn; lia|reflexivity].
    + exists l. split; [assumption|]. now apply K.
Qed.

(** Different lines of the request in different cache lines: no two bytes go to
    the same place of the device, so the I/Os are also disjoint on the device. *)
Theorem C17_places_disjoint : forall lsz mo r (m : nat -> N) y y', line_size_ok lsz ->
  (forall i j, m i = m j -> i = j) ->
  g_addr r <= y -> g_addr r <= y' ->
  home lsz mo r m y = home lsz mo r m y' -> y = y'.
Proof.
  intros lsz mo r m y y' Hls Inj H1 H2 E. unfold home in E.
  assert (P : 0 < lsz) by (destruct Hls as (k & ? & ? & ?); lia).
  pose proof (N.div_mod y lsz ltac:(lia)) as D1. pose proof (N.div_mod y' lsz ltac:(lia)) as D2.
  pose proof (N.mod_lt y lsz ltac:(lia)) as M1. pose proof (N.mod_lt y' lsz ltac:(lia)) as M2.
  assert (Q1 : g_addr r / lsz <= y / lsz) by (apply N.div_le_mono; lia).
  assert (Q2 : g_addr r / lsz <= y' / lsz) by (apply N.div_le_mono; lia).
  set (a := y / lsz) in *. set (a' := y' / lsz) in *. set (w := y mod lsz) in *. set (w' := y' mod lsz) in *.
  set (f := g_addr r / lsz) in *. clearbody a a' w w' f.
  set (c := m (N.to_nat (a - f))) in *. set (c' := m (N.to_nat (a' - f))) in *.
  assert (CC : c = c').
  { destruct (N.lt_trichotomy c c') as [H|[H|H]]; [exfalso|assumption|exfalso].
    - assert (X : (c + 1) * lsz <= c' * lsz) by (apply N.mul_le_mono_r; lia).
      rewrite N.mul_add_distr_r, N.mul_1_l in X. lia.
    - assert (X : (c' + 1) * lsz <= c * lsz) by (apply N.mul_le_mono_r; lia).
      rewrite N.mul_add_distr_r, N.mul_1_l in X. lia. }
  assert (a = a') by (apply Inj in CC; lia). subst a'. rewrite CC in E. lia.
Qed.

(** Three lines, the last two adjacent on the device: two I/Os; fully adjacent:
    one. *)
Example ex17_loop : let r := {| g_addr := 7 * 512; g_bytes := 10 * 512 |} in
  forward_cache_io 4096 1000000 r [9; 4; 5] false =
  Some [{| io_addr := 1000000 + 9 * 4096 + 3584; io_bytes := 512; io_off := 0 |};
        {| io_addr := 1000000 + 4 * 4096; io_bytes := 4608; io_off := 512 |}].
Proof. vm_compute. reflexivity. Qed.
Example ex17_seq :
  let m0 := fun j => match j with 0%nat => Found 3 true | 1%nat => Miss | _ => Found 5 true end in
  prepared m0 3 [(1%nat, 4)] (upd_stat m0 1 (Remapped 4)) (patch_info (upd_stat m0 1 (Remapped 4)) 3 1 (scan m0 3)) /\
  is_sequential (patch_info (upd_stat m0 1 (Remapped 4)) 3 1 (scan m0 3)) 3 = true.
Proof.
  split; [|reflexivity]. split; [|split; [|split]].
  - constructor; [intros []|constructor].
  - intros j c [H|[]]. injection H as <- <-. split; [lia|reflexivity].
  - reflexivity.
  - intros [|[|[|j]]] Hj; cbn; discriminate.
Qed.

Print Assumptions C08_lines_cover_exactly.
Print Assumptions C17_cache_io_exact.
Print Assumptions C17_places_disjoint.

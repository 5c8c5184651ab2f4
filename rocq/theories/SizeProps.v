(** Properties C25 and C26: number of cache lines and placement of metadata; and C20 for every
    accepted device. *)
From Coq Require Import ZArith NArith List Bool Lia.
From Verif Require Import SizeModel SizeProofs.
From Verif Require ShardModel ShardProps.
Import ListNotations.
Open Scope Z_scope.

(** ** Specification *)
(** Pages occupied by the copies of a section: the second copy of a double-buffered section
    starts after the first, rounded up to 32 pages (/repo/src/metadata/metadata_raw.c:337-340). *)
Definition copies (r : raw) : list (Z * Z) :=
  (r_off r, r_pages r) :: (if r_flap r then [(r_off r + seg_size (r_pages r), r_pages r)] else []).
Definition disjoint (a b : Z * Z) : Prop := fst a + snd a <= fst b \/ fst b + snd b <= fst a.
Definition inside (n : Z) (a : Z * Z) : Prop := 0 <= fst a /\ 0 <= snd a /\ fst a + snd a <= n.

(** Fixed sections any environment may have: entries no larger than a page, at most 36 MiB in all. *)
Definition entry_ok (d : Z * Z * bool) : Prop := match d with (n, sz, _) => 0 <= n /\ 1 <= sz <= 4096 end.
Definition copies_pages (d : Z * Z * bool) : Z :=
  match d with (n, sz, fl) => div_up (div_up n (4096 / sz)) 32 * 32 * (if fl : bool then 2 else 1) end.
Definition fixed_ok (fixed : list (Z * Z * bool)) : Prop :=
  Forall entry_ok fixed /\ fold_right (fun d a => copies_pages d + a) 0 fixed <= 9216.

(** A cache device that is accepted: at least 40 MiB, fewer than 2^32 - 1 lines. *)
Definition accepted (size line : Z) : Prop :=
  In line [4096; 8192; 16384; 32768; 65536] /\ 40 * 2^20 <= size /\ size / line < 2^32 - 1.

Lemma fixed_ok_abi : fixed_ok fixed_abi.
Proof. split; [repeat constructor; vm_compute; discriminate|vm_compute; discriminate]. Qed.
Example accepted_ex : accepted (100 * 2^30) 4096 /\ accepted (40 * 2^20) 65536 /\ accepted (4096 * (2^32 - 2)) 4096.
Proof. unfold accepted. repeat split; try (vm_compute; tauto); vm_compute; discriminate. Qed.

Definition total_eq fixed : fold_right (fun d a => copies_pages d + a) 0 fixed = total fixed.
Proof. reflexivity. Qed.

Lemma total_mod32 ds : total ds mod 32 = 0.
Proof.
  induction ds as [|[[n sz] fl] ds IH]; [reflexivity|].
  change (total ((n, sz, fl) :: ds)) with (psize (n, sz, fl) + total ds). unfold psize, rnd.
  rewrite Z.add_mod, IH by lia. destruct fl.
  - replace (div_up (div_up n (4096 / sz)) 32 * 32 * 2) with (div_up (div_up n (4096 / sz)) 32 * 2 * 32) by lia. rewrite Z.mod_mul by lia. reflexivity.
  - rewrite Z.mul_1_r, Z.mod_mul by lia. reflexivity.
Qed.

(** ** Everything about a successful initialisation *)
Lemma init_all wide fixed size line noc : fixed_ok fixed -> accepted size line ->
  exists l c frs vrs, init wide fixed size line noc = Ok l /\
    l = {| l_fixed := frs; l_var := vrs; l_lines := c; l_pages := total fixed + M line noc c;
           l_offset := if wide then (total fixed + M line noc c) * 4096 else u32 ((total fixed + M line noc c) * 4096) |} /\
    dom (size / line) c /\ chain 0 fixed frs /\ chain (total fixed) (variable line noc c) vrs /\
    total fixed + M line noc c < 2^32 /\ 0 <= M line noc c /\
    c <= g (size / line) line (total fixed) noc c /\
    (forall k, line = 4096 * k -> 49 * k * (g (size / line) line (total fixed) noc c - c) <= 8300 + 50 * k).
Proof.
  intros [F1 F2] (HL & H1 & H2). rewrite total_eq in F2. set (dev := size / line) in *.
  destruct (line_k line HL) as [k [Hk Hk2]].
  assert (HD : 40 * 2^20 <= dev * line).
  { assert (E : 40 * 2^20 = 40 * 2^20 / line * line).
    { simpl in HL. destruct HL as [<-|[<-|[<-|[<-|[<-|[]]]]]]; reflexivity. }
    assert (40 * 2^20 / line <= dev) by (apply Z.div_le_mono; lia). rewrite E. nia. }
  pose proof (total_nonneg fixed F1) as F0. pose proof (total_mod32 fixed) as FM.
  destruct (place_ok 0 ltac:(lia) fixed 0 F1 ltac:(lia) ltac:(lia)) as [frs [E1 C1]].
  destruct (calc_good dev line (total fixed) noc HL HD H2 ltac:(lia) FM) as (c & D & E2 & G1 & G2).
  pose proof D as [D1 D2]. destruct (M_total line noc c ltac:(lia) HL) as [MT MO].
  pose proof (M_bound line noc c HL ltac:(lia)) as MB.
  destruct (place_ok (total fixed) F0 (variable line noc c) 0 MO ltac:(lia) ltac:(rewrite MT; lia)) as [vrs [E3 C3]].
  unfold result in E2. rewrite E3, MT in E2. cbn [fst snd] in E2.
  eexists. exists c, frs, vrs. split.
  - unfold init. fold dev.
    replace (size <? 40 * 2^20) with false by (symmetry; apply Z.ltb_ge; lia).
    replace (2^32 - 1 <=? dev) with false by (symmetry; apply Z.leb_gt; lia).
    rewrite E1. cbn [Z.add] in *. rewrite E2.
    rewrite (u32_id c) by lia. replace (dev <? c) with false by (symmetry; apply Z.ltb_ge; lia).
    rewrite (u32_id (total fixed + M line noc c)) by lia. reflexivity.
  - split; [reflexivity|]. split; [exact D|]. split; [exact C1|]. split; [rewrite Z.add_0_r in C3; exact C3|].
    split; [lia|]. split; [lia|]. split; [exact G1|exact G2].
Qed.

(** ** C25 *)
(** Every accepted device gets a positive number of lines; metadata and data fit, and less
    than 1 MiB is left unused.  The computation never fails. *)
Theorem C25_fits wide fixed size line noc : fixed_ok fixed -> accepted size line ->
  exists l, init wide fixed size line noc = Ok l /\ 0 < l_lines l /\
    l_pages l * 4096 + l_lines l * line <= size < l_pages l * 4096 + l_lines l * line + 2^20.
Proof.
  intros HF HA. destruct (init_all wide fixed size line noc HF HA) as (l & c & frs & vrs & E & -> & D & _ & _ & _ & M0 & G1 & G2).
  eexists. split; [exact E|]. cbn [l_lines l_pages]. destruct D as [D1 D2]. split; [lia|].
  destruct HA as (HL & A1 & A2). destruct (line_k line HL) as [k [Hk Hk2]]. specialize (G2 k Hk).
  unfold g in *. set (m := (total fixed + M line noc c) * 4096) in *.
  set (dev := size / line) in *.
  pose proof (Z.div_mod size line ltac:(lia)) as Q1. pose proof (Z.mod_pos_bound size line ltac:(lia)) as Q2. fold dev in Q1.
  pose proof (Z.div_mod (dev * line - m) line ltac:(lia)) as Q3. pose proof (Z.mod_pos_bound (dev * line - m) line ltac:(lia)) as Q4.
  set (q := (dev * line - m) / line) in *. set (r1 := size mod line) in *. set (r2 := (dev * line - m) mod line) in *.
  clearbody m dev q r1 r2. subst line.
  assert (B : k * (q - c) <= 169 + k + k / 49 + 1).
  { pose proof (Z.mul_div_le k 49 ltac:(lia)). pose proof (Z.mul_succ_div_gt k 49 ltac:(lia)). set (x := k * (q - c)) in *. replace (49 * k * (q - c)) with (49 * x) in G2 by (unfold x; lia). clearbody x. lia. }
  assert (k / 49 = 0) by (apply Z.div_small; lia).
  assert (4096 * k * c <= 4096 * k * q) by nia.
  set (kc := k * c) in *. replace (c * (4096 * k)) with (4096 * kc) by (unfold kc; lia).
  replace (k * (q - c)) with (k * q - kc) in B by (unfold kc; lia). set (kq := k * q) in *.
  replace (4096 * k * q) with (4096 * kq) in * by (unfold kq; lia). replace (4096 * k * c) with (4096 * kc) in * by (unfold kc; lia).
  clearbody kc kq. lia.
Qed.

(** The data area starts where the metadata ends, if PAGE_SIZE is 64 bits wide or the metadata
    takes less than 4 GiB. *)
Theorem C25_data_after_metadata_partial wide fixed size line noc l : fixed_ok fixed -> accepted size line ->
  init wide fixed size line noc = Ok l -> wide = true \/ l_pages l < 2^20 -> l_offset l = l_pages l * 4096.
Proof.
  intros HF HA E HW. destruct (init_all wide fixed size line noc HF HA) as (l' & c & frs & vrs & E' & L & D & _ & _ & _ & M0 & _ & _).
  rewrite E in E'. inversion E'; subst l'. subst l. clear E E'. cbn [l_offset l_pages] in *.
  destruct wide; [reflexivity|]. destruct HW as [HW|HW]; [discriminate|].
  destruct HF as [F1 _]. pose proof (total_nonneg _ F1). apply u32_id. lia.
Qed.

(** With the POSIX environment's PAGE_SIZE the product wraps: whenever the metadata takes 4 GiB or
    more, the data area starts inside the metadata. *)
Theorem C25_data_overlaps_refuted fixed size line noc l : fixed_ok fixed -> accepted size line ->
  init false fixed size line noc = Ok l -> 2^20 <= l_pages l -> l_offset l < l_pages l * 4096.
Proof.
  intros HF HA E HW. destruct (init_all false fixed size line noc HF HA) as (l' & c & frs & vrs & E' & L & D & _).
  rewrite E in E'. inversion E'; subst l'. subst l. clear E E'. cbn [l_offset l_pages] in *.
  apply Z.lt_le_trans with (m := 2^32); [|lia]. apply Z.mod_pos_bound. lia.
Qed.
(** A device of 400 GiB with 4 KiB lines. *)
Theorem C25_posix_refuted : exists size line l, accepted size line /\ init false fixed_abi size line false = Ok l /\
  size = 400 * 2^30 /\ l_lines l = 103758592 /\ l_pages l * 4096 = 4501536768 /\ l_offset l = 206569472.
Proof.
  exists (400 * 2^30), 4096.
  assert (A : accepted (400 * 2^30) 4096) by (unfold accepted; split; [simpl; tauto|split; [vm_compute; discriminate|reflexivity]]).
  destruct (init false fixed_abi (400 * 2^30) 4096 false) as [l| |] eqn:E; [exists l|vm_compute in E; discriminate|vm_compute in E; discriminate].
  split; [exact A|]. split; [reflexivity|]. split; [reflexivity|].
  assert (X : match init false fixed_abi (400 * 2^30) 4096 false with Ok l => (l_lines l, l_pages l * 4096, l_offset l) | _ => (0, 0, 0) end = (103758592, 4501536768, 206569472)) by (vm_compute; reflexivity).
  rewrite E in X. inversion X. auto.
Qed.
Example C25_case : exists l, init true fixed_abi (100 * 2^30) 4096 false = Ok l /\ l_lines l = 25932928 /\ l_pages l = 281472.
Proof.
  assert (X : match init true fixed_abi (100 * 2^30) 4096 false with Ok l => (l_lines l, l_pages l) | _ => (0, 0) end = (25932928, 281472)) by (vm_compute; reflexivity).
  destruct (init true fixed_abi (100 * 2^30) 4096 false) as [l| |]; [|discriminate|discriminate]. exists l. inversion X. auto.
Qed.

(** ** C26 *)
Lemma seg_size_rnd p n fl : 0 <= p -> rnd p * (if fl : bool then 2 else 1) <= n -> n < 2^32 -> seg_size p = rnd p.
Proof. intros. unfold seg_size. fold (rnd p). pose proof (rnd_spec p). apply u32_id. destruct fl; lia. Qed.

Lemma chain_copies : forall ds s rs, Forall okd ds -> 0 <= s -> s + total ds < 2^32 -> chain s ds rs ->
  Forall (fun a => s <= fst a /\ 0 <= snd a /\ fst a + snd a <= s + total ds) (flat_map copies rs) /\
  ForallOrdPairs disjoint (flat_map copies rs).
Proof.
  induction ds as [|[[n sz] fl] ds IH]; intros s rs HO Hs HT HC.
  - destruct rs; [|contradiction]. split; constructor.
  - destruct rs as [|r rs]; [contradiction|]. destruct HC as [-> HC].
    inversion HO as [|? ? O1 O2]; subst. pose proof (psize_nonneg _ O1) as P0. pose proof (total_nonneg _ O2) as T0.
    change (total ((n, sz, fl) :: ds)) with (psize (n, sz, fl) + total ds) in *.
    destruct (IH (s + psize (n, sz, fl)) rs O2 ltac:(lia) ltac:(lia) HC) as [A B].
    destruct O1 as [O1 O3]. pose proof (inpage_pos sz O3) as IP. pose proof (div_up_nonneg n (4096 / sz) O1 ltac:(lia)) as DN.
    set (p := div_up n (4096 / sz)) in *. assert (PS : psize (n, sz, fl) = rnd p * (if fl then 2 else 1)) by reflexivity.
    assert (SS : seg_size p = rnd p) by (apply (seg_size_rnd p (psize (n, sz, fl)) fl); lia).
    pose proof (rnd_spec p) as RS. cbn [flat_map copies r_off r_pages r_flap]. unfold copies at 1; cbn [r_off r_pages r_flap].
    unfold copies at 2; cbn [r_off r_pages r_flap]. rewrite SS, PS in *. clearbody p.
    assert (A' : Forall (fun a => s <= fst a /\ 0 <= snd a /\ fst a + snd a <= s + (rnd p * (if fl then 2 else 1) + total ds)) (flat_map copies rs)).
    { eapply Forall_impl; [|exact A]. intros a Ha. cbv beta in Ha. destruct fl; lia. }
    split.
    + destruct fl; cbn [app]; repeat constructor; cbn [fst snd]; try assumption; lia.
    + destruct fl; cbn [app]; repeat constructor; try assumption.
      * cbn [fst snd]. unfold disjoint; cbn [fst snd]. lia.
      * eapply Forall_impl; [|exact A]. intros a Ha. cbv beta in Ha. unfold disjoint; cbn [fst snd]. lia.
      * eapply Forall_impl; [|exact A]. intros a Ha. cbv beta in Ha. unfold disjoint; cbn [fst snd]. lia.
      * eapply Forall_impl; [|exact A]. intros a Ha. cbv beta in Ha. unfold disjoint; cbn [fst snd]. lia.
Qed.

Lemma chain_room ds : Forall okd ds -> forall s rs, chain s ds rs -> Forall (fun r => r_entries r <= r_pages r * r_in_page r) rs.
Proof.
  induction 1 as [|[[n sz] fl] ds O1 O2 IH]; intros s rs HC; destruct rs as [|r rs]; try contradiction; constructor.
  - destruct HC as [-> _]. cbn [r_entries r_pages r_in_page]. destruct O1 as [O1 O3]. pose proof (inpage_pos sz O3).
    apply (div_up_spec n (4096 / sz)). lia.
  - destruct HC as [_ HC]. eapply IH; eassumption.
Qed.

Lemma pairs_app (A : Type) (R : A -> A -> Prop) l1 l2 : ForallOrdPairs R l1 -> ForallOrdPairs R l2 ->
  (forall a b, In a l1 -> In b l2 -> R a b) -> ForallOrdPairs R (l1 ++ l2).
Proof.
  induction 1 as [|a l1 H1 H2 IH]; intros H3 H4; [assumption|]. cbn [app]. constructor.
  - apply Forall_app. split; [assumption|]. apply Forall_forall. intros b Hb. apply H4; [left; reflexivity|assumption].
  - apply IH; [assumption|]. intros; apply H4; [right|]; assumption.
Qed.

(** All sections and copies are pairwise disjoint and inside the metadata area; each section has
    room for its entries. *)
Theorem C26_disjoint wide fixed size line noc l : fixed_ok fixed -> accepted size line ->
  init wide fixed size line noc = Ok l ->
  ForallOrdPairs disjoint (flat_map copies (l_fixed l ++ l_var l)) /\
  Forall (inside (l_pages l)) (flat_map copies (l_fixed l ++ l_var l)) /\
  Forall (fun r => r_entries r <= r_pages r * r_in_page r) (l_fixed l ++ l_var l).
Proof.
  intros HF HA E. destruct (init_all wide fixed size line noc HF HA) as (l' & c & frs & vrs & E' & L & D & C1 & C2 & LT & M0 & _ & _).
  rewrite E in E'. inversion E'; subst l'. subst l. clear E E'. cbn [l_fixed l_var l_pages].
  destruct HF as [F1 _]. pose proof (total_nonneg _ F1) as F0. destruct HA as (HL & _). destruct D as [D1 D2].
  destruct (M_total line noc c ltac:(lia) HL) as [MT MO].
  destruct (chain_copies fixed 0 frs F1 ltac:(lia) ltac:(lia) C1) as [A1 B1].
  destruct (chain_copies (variable line noc c) (total fixed) vrs MO ltac:(lia) ltac:(rewrite MT; lia) C2) as [A2 B2].
  rewrite MT in A2. rewrite Forall_forall in A1, A2. rewrite flat_map_app. split; [|split].
  - apply pairs_app; [assumption|assumption|]. intros a b Ha Hb. specialize (A1 a Ha). specialize (A2 b Hb). left. lia.
  - apply Forall_app. split; apply Forall_forall; intros a Ha; [specialize (A1 a Ha)|specialize (A2 a Ha)]; unfold inside; lia.
  - apply Forall_app. split; [apply (chain_room fixed F1 0 frs C1)|apply (chain_room _ MO _ vrs C2)].
Qed.

(** The sections sized by the number of lines have an entry for each line (the hash table: for
    each four lines). *)
Theorem C26_entries wide fixed size line noc l : fixed_ok fixed -> accepted size line ->
  init wide fixed size line noc = Ok l ->
  map r_entries (l_var l) = (if noc then [] else [l_lines l]) ++ [l_lines l; l_lines l; l_lines l; (l_lines l + 3) / 4].
Proof.
  intros HF HA E. destruct (init_all wide fixed size line noc HF HA) as (l' & c & frs & vrs & E' & L & D & C1 & C2 & LT & M0 & _ & _).
  rewrite E in E'. inversion E'; subst l'. subst l. clear E E'. cbn [l_var l_lines]. destruct D as [D1 D2].
  unfold variable in C2. rewrite (u32_id c) in C2 by lia. rewrite (u32_id (c + 4 - 1)) in C2 by lia.
  replace (c + 4 - 1) with (c + 3) in C2 by lia.
  destruct noc; cbn [app] in *.
  - destruct vrs as [|r1 [|r2 [|r3 [|r4 [|]]]]]; cbn [chain] in C2; try tauto.
    destruct C2 as (-> & -> & -> & -> & _). reflexivity.
  - destruct vrs as [|r1 [|r2 [|r3 [|r4 [|r5 [|]]]]]]; cbn [chain] in C2; try tauto.
    destruct C2 as (-> & -> & -> & -> & -> & _). reflexivity.
Qed.

Example C26_case : exists l, init true fixed_abi (40 * 2^20) 4096 false = Ok l /\
  flat_map copies (l_fixed l ++ l_var l) =
  [(0, 1); (32, 1); (64, 32); (96, 12); (128, 12); (160, 18); (192, 128); (320, 128); (448, 293); (768, 4096); (4864, 4096);
   (8960, 4); (8992, 3); (9024, 4); (9056, 3); (9088, 1)].
Proof.
  assert (X : match init true fixed_abi (40 * 2^20) 4096 false with Ok l => flat_map copies (l_fixed l ++ l_var l) | _ => [] end =
   [(0, 1); (32, 1); (64, 32); (96, 12); (128, 12); (160, 18); (192, 128); (320, 128); (448, 293); (768, 4096); (4864, 4096);
   (8960, 4); (8992, 3); (9024, 4); (9056, 3); (9088, 1)]) by (vm_compute; reflexivity).
  destruct (init true fixed_abi (40 * 2^20) 4096 false) as [l| |]; [|discriminate|discriminate]. exists l. split; [reflexivity|exact X].
Qed.

(** ** C20 for every accepted device *)
(** More lines than LRU lists, and far enough from 2^32 for the parallel passes. *)
Theorem C25_line_range wide size line noc l : accepted size line -> init wide fixed_abi size line noc = Ok l ->
  32 < l_lines l < 2^32 - 500.
Proof.
  intros HA E. destruct (init_all wide fixed_abi size line noc fixed_ok_abi HA) as (l' & c & frs & vrs & E' & L & D & C1 & C2 & LT & M0 & G1 & G2).
  rewrite E in E'. inversion E'; subst l'. subst l. clear E E'. cbn [l_lines].
  destruct HA as (HL & A1 & A2). change (total fixed_abi) with 8960 in *. set (dev := size / line) in *.
  destruct (line_k line HL) as [k [Hk Hk2]].
  assert (HD : 10240 <= dev * k).
  { assert (E : 40 * 2^20 = 40 * 2^20 / line * line).
    { simpl in HL. destruct HL as [<-|[<-|[<-|[<-|[<-|[]]]]]]; reflexivity. }
    assert (40 * 2^20 / line <= dev) by (apply Z.div_le_mono; lia). nia. }
  pose proof D as [D1 D2]. split.
  - specialize (G2 k Hk). pose proof (M_bound line noc c HL ltac:(lia)) as MB.
    destruct (Z.lt_ge_cases 32 c) as [|C]; [assumption|exfalso]. unfold g in *.
    pose proof (Z.mul_succ_div_gt (dev * line - (8960 + M line noc c) * 4096) line ltac:(lia)) as Q.
    set (q := (dev * line - (8960 + M line noc c) * 4096) / line) in *. clearbody q. subst line.
    assert (Q' : dev * k - (8960 + M (4096 * k) noc c) < k * q + k) by nia.
    assert (G' : 49 * (k * q) - 49 * (k * c) <= 8300 + 50 * k) by nia.
    assert (k * c <= 32 * k) by nia. set (x := k * q) in *. set (y := k * c) in *. clearbody x y. lia.
  - assert (40 * 2^20 <= dev * line) by (subst line; lia). pose proof (g_small dev line 8960 noc HL ltac:(assumption) c D ltac:(lia)). lia.
Qed.

(** The parallel passes over the lines and over the hash table process every entry exactly once. *)
Theorem C20_accepted wide size line noc l n : accepted size line -> init wide fixed_abi size line noc = Ok l ->
  (0 < n <= 500)%N ->
  let lines := Z.to_N (l_lines l) in let buckets := Z.to_N ((l_lines l + 3) / 4) in
  ShardProps.partitions lines n (fun s => Some (ShardModel.shard_contig32 lines n s)) /\
  ShardProps.partitions buckets n (fun s => Some (ShardModel.shard_contig32 buckets n s)) /\
  ShardProps.partitions lines n (fun s => Some (ShardModel.shard_contig64 lines n s)) /\
  ShardProps.partitions lines 32 (ShardModel.shard_stride lines 32) /\
  ShardProps.partitions lines 32 (ShardModel.shard_populate lines 32).
Proof.
  intros HA E Hn lines buckets. pose proof (C25_line_range wide size line noc l HA E) as R.
  assert (L : (32 < lines /\ lines + 500 <= 2^32)%N) by (unfold lines; lia).
  assert (B : (0 < buckets <= lines)%N).
  { unfold buckets, lines. pose proof (Z.div_mod (l_lines l + 3) 4 ltac:(lia)). pose proof (Z.mod_pos_bound (l_lines l + 3) 4 ltac:(lia)).
    set (q := (l_lines l + 3) / 4) in *. clearbody q. lia. }
  clearbody lines buckets.
  split; [apply ShardProps.C20_contig32; lia|]. split; [apply ShardProps.C20_contig32; lia|].
  split; [apply ShardProps.C20_contig64; lia|]. split; [apply ShardProps.C20_stride; lia|].
  apply ShardProps.C20_populate; try lia.
  destruct (ShardProps.portion_spec lines 32 ltac:(lia) ltac:(lia)) as (P1 & P2 & P3). lia.
Qed.

Print Assumptions C25_fits.
Print Assumptions C25_data_after_metadata_partial.
Print Assumptions C25_data_overlaps_refuted.
Print Assumptions C25_posix_refuted.
Print Assumptions C25_line_range.
Print Assumptions C26_disjoint.
Print Assumptions C26_entries.
Print Assumptions C20_accepted.

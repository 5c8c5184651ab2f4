(** C35 - out-of-range user I/O is rejected.  C58 - a discard covers exactly its range. *)
From Coq Require Import NArith List Bool Lia.
From Verif Require Import ReqModel.
Import ListNotations.
Open Scope N_scope.

(** The arguments fit their C types *)
Definition typed (i : io) : Prop := addr i < 2 ^ 64 /\ bytes i < 2 ^ 32.
(** The range ends below 2^64 *)
Definition no_wrap (i : io) : Prop := addr i + bytes i < 2 ^ 64.
Definition well_formed (i : io) : Prop := io_class i < 33 /\ (rw i = 0 \/ rw i = 1) /\ has_queue i = true /\ has_end i = true /\ mngt i = false.
(** The lines of a range: those with a byte of it; there are [count] of them *)
Definition lines_of (ls a b : N) (l : lines) : Prop :=
  (forall x, first l <= x <= last l <-> exists y, a <= y < a + b /\ y / ls = x) /\ first l + count l = last l + 1.

(** C35, for ranges that do not wrap around: accepted exactly if the range is inside the core and the rest is
    well formed.  Missing: ranges with addr + bytes >= 2^64 - there the claim fails. *)
Theorem C35_range_partial length i : typed i -> no_wrap i -> (validate length i = true <-> addr i + bytes i <= length /\ well_formed i).
Proof.
  intros (A & B) Nw. unfold no_wrap in Nw. unfold validate, well_formed, W64. rewrite !andb_true_iff, !negb_true_iff, orb_true_iff, !N.eqb_eq, N.mod_small by exact Nw.
  change CLASS_MAX with 33. rewrite N.ltb_ge, N.leb_gt. tauto.
Qed.

Lemma sub64_small a b : b <= a -> a < W64 -> sub64 a b = a - b.
Proof. intros H1 H2. unfold sub64. replace (a + W64 - b) with (a - b + 1 * W64) by lia. rewrite N.mod_add by discriminate. apply N.mod_small. lia. Qed.
Lemma div_range ls a b x : 0 < ls -> 0 < b -> (a / ls <= x <= (a + b - 1) / ls <-> exists y, a <= y < a + b /\ y / ls = x).
Proof.
  intros L B. split.
  - intros (H1 & H2). destruct (N.le_gt_cases a (x * ls)) as [H|H].
    + exists (x * ls). split; [|apply N.div_mul; lia]. split; [exact H|]. assert (x * ls <= a + b - 1); [|lia].
      transitivity (ls * ((a + b - 1) / ls)); [rewrite N.mul_comm; apply N.mul_le_mono_l; exact H2 | apply N.mul_div_le; lia].
    + exists a. split; [lia|]. apply N.le_antisymm; [exact H1|]. apply N.div_le_lower_bound; [lia|]. rewrite N.mul_comm. lia.
  - intros (y & (H1 & H2) & <-). split; apply N.div_le_mono; lia.
Qed.

(** The request of an accepted I/O covers exactly the lines of the range, and its line count and the place of the
    lock status after the map are exact *)
Theorem C35_lines ls length i l : 512 <= ls -> typed i -> no_wrap i -> bytes i <> 0 -> submit ls length false i = Some l ->
  lines_of ls (addr i) (bytes i) l /\ map_off l = count l /\ last l * ls < length.
Proof.
  intros L T Nw Nz S. unfold submit in S. destruct (validate length i) eqn:V; [|discriminate]. injection S as <-. apply C35_range_partial in V; [|assumption..]. destruct V as (V & _).
  destruct T as (A & B). unfold no_wrap in Nw. unfold req_lines. replace (bytes i =? 0) with false by (symmetry; apply N.eqb_neq; exact Nz).
  unfold lines_of. cbn [first last count map_off]. unfold W32. change (2 ^ 64) with W64 in *.
  rewrite (sub64_small (addr i + bytes i) 1) by lia. rewrite (N.mod_small (addr i + bytes i - 1)) by lia.
  set (f := addr i / ls). set (l := (addr i + bytes i - 1) / ls).
  assert (Fl : f <= l) by (apply N.div_le_mono; lia). assert (Lb : l <= addr i + bytes i - 1) by (apply N.div_le_upper_bound; [lia|]; nia).
  rewrite (sub64_small l f) by lia.
  assert (D : l - f < 2 ^ 23 + 1). { assert (l <= f + bytes i / ls + 1).
    { unfold l, f. apply N.lt_succ_r. rewrite <- !N.add_1_r. apply N.div_lt_upper_bound; [lia|]. pose proof (N.div_mod (addr i) ls ltac:(lia)) as D1. pose proof (N.mod_lt (addr i) ls ltac:(lia)). pose proof (N.div_mod (bytes i) ls ltac:(lia)) as D2. pose proof (N.mod_lt (bytes i) ls ltac:(lia)). nia. }
    assert (bytes i / ls < 2 ^ 23). { apply N.div_lt_upper_bound; [lia|]. change (2 ^ 32) with (512 * 2 ^ 23) in B. nia. } lia. }
  rewrite (N.mod_small (l - f + 1) W64) by (change W64 with (2 ^ 64); change (2 ^ 23) with 8388608 in D; lia). rewrite N.mod_small by (change (2 ^ 23) with 8388608 in D; lia).
  split; [split|].
  - intros x. apply div_range; lia.
  - lia.
  - split; [reflexivity|]. apply N.le_lt_trans with (addr i + bytes i - 1); [rewrite N.mul_comm; apply N.mul_div_le; lia | lia].
Qed.

(** C35 fails for ranges that wrap around: 8 KiB starting 4 KiB below 2^64 is accepted for any core of at least 4 KiB;
    the request then has its first line after its last one and the lock status far outside of the map *)
Definition wrapped : io := {| addr := 2 ^ 64 - 4096; bytes := 8192; rw := 1; io_class := 0; has_queue := true; mngt := false; has_end := true |}.
Theorem C35_wrap_refuted : exists i, typed i /\ io_new_ok i = true /\ forall length, 4096 <= length < 2 ^ 63 ->
  validate length i = true /\ length < addr i /\ exists l, submit 4096 length false i = Some l /\ last l < first l /\ count l = 2 /\ count l < map_off l.
Proof.
  exists wrapped. split; [split; reflexivity|]. split; [reflexivity|]. intros length Hl.
  assert (V : validate length wrapped = true).
  { unfold validate. replace ((addr wrapped + bytes wrapped) mod W64) with 4096 by reflexivity. replace (length <? 4096) with false by (symmetry; apply N.ltb_ge; lia). reflexivity. }
  split; [exact V|]. split; [cbn; lia|]. unfold submit. rewrite V. eexists. split; [reflexivity|]. repeat split.
Qed.
(** The hypotheses are met: an unaligned request over three lines of a 1 MiB core *)
Definition io0 : io := {| addr := 3584; bytes := 8192; rw := 0; io_class := 5; has_queue := true; mngt := false; has_end := true |}.
Example C35_case : typed io0 /\ no_wrap io0 /\ submit 4096 1048576 false io0 = Some {| first := 0; last := 2; count := 3; map_off := 3 |}.
Proof. split; [split; reflexivity|]. split; reflexivity. Qed.
Example C35_case_end : validate 11776 io0 = true /\ validate 11264 io0 = false.
Proof. split; reflexivity. Qed.

(** ** C58 *)
(** The steps follow each other from [a] to [e], each of 1 byte to 512 KiB *)
Fixpoint chain (a e : N) (ds : list dstep) : Prop :=
  match ds with
  | [] => a = e
  | d :: ds => d_addr d = a /\ 0 < d_bytes d <= 524288 /\ chain (a + d_bytes d) e ds
  end.

Lemma step_lines ls a b : 512 <= ls -> 0 < b -> b <= TRIM -> a + b < W64 ->
  lines_of ls a b {| first := a / ls; last := sub64 (a + b) 1 mod W64 / ls; count := (sub64 (sub64 (a + b) 1 mod W64 / ls) (a / ls) + 1) mod W32; map_off := 0 |} /\
  (sub64 (sub64 (a + b) 1 mod W64 / ls) (a / ls) + 1) mod W32 = (a + b - 1) / ls - a / ls + 1.
Proof.
  intros L B Bt Nw. rewrite (sub64_small (a + b) 1) by lia. rewrite (N.mod_small (a + b - 1)) by lia. set (f := a / ls). set (l := (a + b - 1) / ls).
  assert (Fl : f <= l) by (apply N.div_le_mono; lia). assert (Lb : l <= a + b - 1) by (apply N.div_le_upper_bound; [lia|]; nia).
  rewrite (sub64_small l f) by lia.
  assert (D : l - f < 2000). { assert (l <= f + b / ls + 1).
    { unfold l, f. apply N.lt_succ_r. rewrite <- !N.add_1_r. apply N.div_lt_upper_bound; [lia|]. pose proof (N.div_mod a ls ltac:(lia)) as D1. pose proof (N.mod_lt a ls ltac:(lia)). pose proof (N.div_mod b ls ltac:(lia)) as D2. pose proof (N.mod_lt b ls ltac:(lia)). nia. }
    assert (b / ls < 1025). { apply N.div_lt_upper_bound; [lia|]. unfold TRIM in Bt. nia. } lia. }
  rewrite N.mod_small by (unfold W32; change (2 ^ 32) with 4294967296; lia). split; [|reflexivity]. split; cbn [first last count].
  - intros x. apply div_range; lia.
  - lia.
Qed.
(** Lines of a step that starts a multiple of 512 KiB after a *)
Lemma same_offset ls a k b : 512 <= ls -> (exists q, TRIM = ls * q) -> 0 < b -> b <= TRIM -> (a + k * TRIM + b - 1) / ls - (a + k * TRIM) / ls = (a + b - 1) / ls - a / ls.
Proof.
  intros L (q & Q) B Bt. rewrite Q. replace (a + k * (ls * q) + b - 1) with (a + b - 1 + k * q * ls) by nia. replace (a + k * (ls * q)) with (a + k * q * ls) by nia.
  rewrite !N.div_add by lia. lia.
Qed.

Lemma steps_spec ls sector nr (e : N) : 512 <= ls -> (exists q, TRIM = ls * q) -> (sector + nr) * SECTOR < W64 -> nr * SECTOR < 2 ^ 32 ->
  forall fuel k, k * (TRIM / SECTOR) < nr -> (N.to_nat (nr - k * (TRIM / SECTOR)) <= fuel * N.to_nat (TRIM / SECTOR))%nat ->
  exists ds, discard_steps fuel ls sector nr (k * (TRIM / SECTOR)) = Some ds /\
  chain ((sector + k * (TRIM / SECTOR)) * SECTOR) ((sector + nr) * SECTOR) ds /\
  forall d, In d ds -> lines_of ls (d_addr d) (d_bytes d) (d_lines d) /\ count (d_lines d) <= (sector * SECTOR + N.min (nr * SECTOR) TRIM - 1) / ls - sector * SECTOR / ls + 1.
Proof.
  intros L Q Nw B32. change (TRIM / SECTOR) with 1024. induction fuel as [|fuel IH]; intros k Hk F; [lia|]. cbn [discard_steps].
  assert (W : W64 = 18446744073709551616) by reflexivity. assert (Sc : SECTOR = 512) by reflexivity. assert (Tr : TRIM = 524288) by reflexivity.
  set (d := discard_step ls sector nr (k * 1024)).
  assert (Ea : d_addr d = (sector + k * 1024) * SECTOR) by (unfold d, discard_step; cbn [d_addr]; apply N.mod_small; nia).
  assert (Eb : d_bytes d = N.min ((nr - k * 1024) * SECTOR) TRIM) by (unfold d, discard_step; cbn [d_bytes]; rewrite sub64_small by nia; rewrite N.mod_small by nia; reflexivity).
  assert (SL := step_lines ls (d_addr d) (d_bytes d) L ltac:(rewrite Eb; nia) ltac:(rewrite Eb; lia) ltac:(rewrite Ea, Eb; nia)).
  assert (El : lines_of ls (d_addr d) (d_bytes d) (d_lines d) /\ count (d_lines d) = (d_addr d + d_bytes d - 1) / ls - d_addr d / ls + 1) by exact SL. clear SL. destruct El as (El & Ec).
  assert (Ed : lines_of ls (d_addr d) (d_bytes d) (d_lines d) /\ count (d_lines d) <= (sector * SECTOR + N.min (nr * SECTOR) TRIM - 1) / ls - sector * SECTOR / ls + 1).
  { split; [exact El|]. rewrite Ec. apply N.add_le_mono_r. replace (d_addr d) with (sector * SECTOR + k * TRIM) by (rewrite Ea; nia).
    rewrite same_offset by (try assumption; rewrite Eb; nia). apply N.sub_le_mono_r. apply N.div_le_mono; [lia|]. rewrite Eb. nia. }
  destruct (N.le_gt_cases ((nr - k * 1024) * SECTOR) TRIM) as [H|H].
  - rewrite N.min_l in Eb by exact H. replace ((k * 1024 + d_bytes d / SECTOR) mod W64) with nr.
    2: { rewrite Eb, N.div_mul by discriminate. rewrite N.mod_small by nia. lia. }
    rewrite N.ltb_irrefl. exists [d]. split; [reflexivity|]. split; [|intros d' [<-|[]]; exact Ed]. cbn [chain]. split; [exact Ea|]. split; [rewrite Eb; nia|]. rewrite Eb. nia.
  - rewrite N.min_r in Eb by lia. replace ((k * 1024 + d_bytes d / SECTOR) mod W64) with ((k + 1) * 1024).
    2: { rewrite Eb. change (TRIM / SECTOR) with 1024. rewrite N.mod_small by nia. lia. }
    replace ((k + 1) * 1024 <? nr) with true by (symmetry; apply N.ltb_lt; nia).
    destruct (IH (k + 1)) as (ds & E & C & D); [nia | nia |]. rewrite E. exists (d :: ds). split; [reflexivity|]. split; [|intros d' [<-|Hd]; [exact Ed | exact (D d' Hd)]].
    cbn [chain]. split; [exact Ea|]. split; [rewrite Eb; lia|]. replace ((sector + k * 1024) * SECTOR + d_bytes d) with ((sector + (k + 1) * 1024) * SECTOR) by (rewrite Eb; nia). exact C.
Qed.
Lemma map_spec pool ls a b : 512 <= ls -> 0 < b -> a + b < W64 -> b < 2 ^ 32 -> (a + N.min b TRIM - 1) / ls - a / ls + 1 <= discard_map pool ls a b.
Proof.
  intros L B Nw B32. assert (K : (a + b - 1) / ls - a / ls + 1 = count (req_lines ls a b)).
  { set (i := {| addr := a; bytes := b; rw := 1; io_class := 0; has_queue := true; mngt := false; has_end := true |}).
    assert (T : typed i) by (split; unfold i; cbn [addr bytes]; [apply N.le_lt_trans with (a + b); [lia | exact Nw] | exact B32]). assert (V : validate (a + b) i = true) by (apply C35_range_partial; [exact T | exact Nw | split; [unfold i; cbn [addr bytes]; lia | unfold i; repeat split; auto]]).
    destruct (C35_lines ls (a + b) i (req_lines ls a b) L T Nw) as ((_ & C) & _); [unfold i; cbn [bytes]; lia | unfold submit; rewrite V; reflexivity |].
    assert (Ff : first (req_lines ls a b) = a / ls) by (unfold req_lines; replace (b =? 0) with false by (symmetry; apply N.eqb_neq; lia); reflexivity).
    assert (Fl : last (req_lines ls a b) = (a + b - 1) / ls) by (unfold req_lines; replace (b =? 0) with false by (symmetry; apply N.eqb_neq; lia); cbn [last]; rewrite sub64_small by lia; rewrite N.mod_small by lia; reflexivity).
    rewrite Ff, Fl in C. assert (a / ls <= (a + b - 1) / ls) by (apply N.div_le_mono; lia). lia. }
  unfold discard_map. rewrite <- K. destruct pool; [|destruct (N.leb_spec b TRIM) as [H|H]].
  - apply N.add_le_mono_r. apply N.sub_le_mono_r. apply N.div_le_mono; lia.
  - rewrite N.min_l by exact H. lia.
  - rewrite N.min_r by lia. destruct (step_lines ls a TRIM L ltac:(reflexivity) ltac:(lia) ltac:(lia)) as (_ & ->). lia.
Qed.

(** C58: the steps of an accepted discard cover exactly its range, one after the other, each the lines of its part of
    the range, and the map has room for the lines of each step; the core gets a discard of exactly the range. *)
Theorem C58_discard pool ls length i : 512 <= ls -> (exists q, TRIM = ls * q) -> typed i -> no_wrap i -> io_new_ok i = true -> bytes i <> 0 -> rw i = 1 -> validate length i = true ->
  exists ds, discard (N.to_nat (bytes i)) ls length i = Some (ds, (addr i, bytes i)) /\ chain (addr i) (addr i + bytes i) ds /\
  forall d, In d ds -> lines_of ls (d_addr d) (d_bytes d) (d_lines d) /\ count (d_lines d) <= discard_map pool ls (addr i) (bytes i).
Proof.
  intros L Q (TA & TB) Nw Al Nz Rw V. unfold no_wrap in Nw. apply andb_prop in Al. destruct Al as (A1 & A2). apply N.eqb_eq in A1, A2.
  apply N.mod_divide in A1, A2; [|discriminate..]. destruct A1 as (sa & A1), A2 as (sb & A2).
  unfold discard. replace (bytes i =? 0) with false by (symmetry; apply N.eqb_neq; exact Nz). rewrite V, Rw. change (1 =? 0) with false. cbn match.
  rewrite A1, A2, !N.div_mul by discriminate. change (2 ^ 64) with W64 in *. assert (Sc : SECTOR = 512) by reflexivity.
  assert (N1 : (sa + sb) * SECTOR < W64) by (rewrite N.mul_add_distr_r, <- A1, <- A2; exact Nw). assert (N2 : sb * SECTOR < 2 ^ 32) by (rewrite <- A2; exact TB). assert (N3 : 0 * (TRIM / SECTOR) < sb) by (rewrite N.mul_0_l; lia).
  destruct (steps_spec ls sa sb 0 L Q N1 N2 (N.to_nat (sb * SECTOR)) 0 N3) as (ds & E & C & D); [rewrite <- N2Nat.inj_mul; change (TRIM / SECTOR) with 1024; lia|].
  change (0 * (TRIM / SECTOR)) with 0 in E, C. rewrite E. exists ds. rewrite !N.mod_small by lia. split; [reflexivity|]. rewrite N.add_0_r in C. split; [rewrite <- N.mul_add_distr_r; exact C|].
  intros d Hd. destruct (D d Hd) as (D1 & D2). split; [exact D1|]. eapply N.le_trans; [exact D2|]. apply map_spec; lia.
Qed.
(** The hypotheses are met: 1.25 MiB starting at an odd sector, 8 KiB lines *)
Definition io1 : io := {| addr := 6656; bytes := 1310720; rw := 1; io_class := 0; has_queue := true; mngt := false; has_end := true |}.
Example C58_case : (exists q, TRIM = 8192 * q) /\ typed io1 /\ no_wrap io1 /\ io_new_ok io1 = true /\ validate 2000000 io1 = true /\
  option_map (fun p => map (fun d => (d_addr d, d_bytes d, count (d_lines d))) (fst p)) (discard 10 8192 2000000 io1) = Some [(6656, 524288, 65); (530944, 524288, 65); (1055232, 262144, 33)] /\ discard_map false 8192 6656 1310720 = 65.
Proof. split; [exists 64; reflexivity|]. repeat split. Qed.

Print Assumptions C35_range_partial.
Print Assumptions C35_lines.
Print Assumptions C35_wrap_refuted.
Print Assumptions C58_discard.

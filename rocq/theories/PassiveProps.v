(** C50 - metadata kept in memory follows the writes to a standby cache. *)
From Coq Require Import NArith ZArith List Bool Arith Lia.
From Verif Require Import PassiveModel.
Import ListNotations.
Open Scope N_scope.

(** ** Specification: each byte of each entry on page p of the segment equals the device *)
Definition seg_mirror (g : seg) (m d : N -> N) : Prop :=
  forall p j, p < pages g -> j < es g * eip g -> m (p * (es g * eip g) + j) = d ((off g + p) * PAGE + j).
Definition mirror (g : geo) (s : st) : Prop := seg_mirror (sb g) (m_sb s) (disk s) /\ seg_mirror (coll g) (m_coll s) (disk s).
Definition seg_ok (total : N) (g : seg) : Prop := 0 < es g /\ 0 < eip g /\ es g * eip g <= PAGE /\ 0 < pages g /\ off g + pages g <= total /\ (pages g - 1) * eip g < two32.
Definition geo_ok (g : geo) : Prop := seg_ok (meta_pages g) (sb g) /\ seg_ok (meta_pages g) (coll g) /\ (meta_pages g + MAX_IO) * PAGE < two64.
(** Writes the update can follow: outside of the metadata, or of whole pages, not empty, within 32 MiB, data from its start *)
Definition io_ok (g : geo) (i : io) : Prop :=
  write i = false \/ (meta_pages g * PAGE <= addr i /\ addr i + bytes i + PAGE < two64) \/
  (addr i mod PAGE = 0 /\ bytes i mod PAGE = 0 /\ 0 < bytes i <= MAX_IO /\ doff i = 0 /\ addr i + bytes i + PAGE < two64).

Lemma PAGE_pos : PAGE <> 0. Proof. discriminate. Qed.
Lemma to_pages_mult x k : x = k * PAGE -> x + PAGE < two64 -> to_pages x = k.
Proof.
  intros -> B. unfold to_pages. rewrite N.mod_small by (unfold PAGE in *; lia). symmetry. apply (N.div_unique _ _ _ (PAGE - 1)); [reflexivity | lia].
Qed.
Lemma mult_of x : x mod PAGE = 0 -> exists k, x = k * PAGE.
Proof. intros H. exists (x / PAGE). rewrite N.mul_comm. apply N.div_exact; [exact PAGE_pos | exact H]. Qed.

(** What is copied: page by page *)
Lemma in_page sz p q j : 0 < sz -> j < sz -> (p * sz <=? q * sz + j) && (q * sz + j <? p * sz + sz) = (q =? p).
Proof.
  intros S J. destruct (N.eqb_spec q p) as [->|Ne].
  - apply andb_true_intro. split; [apply N.leb_le | apply N.ltb_lt]; lia.
  - apply andb_false_iff. destruct (N.lt_trichotomy q p) as [H|[H|H]]; [left; apply N.leb_gt | contradiction | right; apply N.ltb_ge].
    + assert ((q + 1) * sz <= p * sz) by (apply N.mul_le_mono_r; lia). lia.
    + assert ((p + 1) * sz <= q * sz) by (apply N.mul_le_mono_r; lia). lia.
Qed.
Lemma raw_update_spec total g D : seg_ok total g -> forall n pos p m, p + N.of_nat n <= pages g -> exists m', raw_update n g D pos p m = Some m' /\
  forall q j, j < es g * eip g -> m' (q * (es g * eip g) + j) = if (p <=? q) && (q <? p + N.of_nat n) then D (pos + (q - p) * PAGE + j) else m (q * (es g * eip g) + j).
Proof.
  intros (S1 & S2 & S3 & S4 & S5 & S6). assert (Sz : 0 < es g * eip g) by (apply N.mul_pos_pos; assumption). induction n as [|n IH]; intros pos p m Hp.
  - exists m. split; [reflexivity|]. intros q j Hj. replace ((p <=? q) && (q <? p + N.of_nat 0)) with false; [reflexivity|]. symmetry. apply andb_false_iff. destruct (N.leb_spec p q); [right; apply N.ltb_ge; lia | left; reflexivity].
  - cbn [raw_update]. unfold drain. replace (pages g <? p) with false by (symmetry; apply N.ltb_ge; lia). replace (PAGE <? es g * eip g) with false by (symmetry; apply N.ltb_ge; lia). cbn [orb].
    assert (W : p * eip g mod two32 = p * eip g) by (apply N.mod_small; assert (p * eip g <= (pages g - 1) * eip g) by (apply N.mul_le_mono_r; lia); lia). rewrite W. replace (p * eip g * es g) with (p * (es g * eip g)) by lia.
    match goal with |- context [raw_update n g D (pos + PAGE) (p + 1) ?x] => set (m1 := x) end. destruct (IH (pos + PAGE) (p + 1) m1 ltac:(lia)) as (m' & E & H). exists m'. split; [exact E|]. intros q j Hj. rewrite H by exact Hj. unfold m1. rewrite in_page by assumption.
    destruct (N.eqb_spec q p) as [->|Ne].
    + replace ((p + 1 <=? p) && (p <? p + 1 + N.of_nat n)) with false by (symmetry; apply andb_false_iff; left; apply N.leb_gt; lia). replace ((p <=? p) && (p <? p + N.of_nat (S n))) with true by (symmetry; apply andb_true_intro; split; [apply N.leb_le | apply N.ltb_lt]; lia). f_equal. lia.
    + destruct (N.leb_spec (p + 1) q) as [L|L]; cbn [andb].
      * replace (p <=? q) with true by (symmetry; apply N.leb_le; lia). cbn [andb]. replace (q <? p + N.of_nat (S n)) with (q <? p + 1 + N.of_nat n) by (f_equal; lia). destruct (q <? p + 1 + N.of_nat n); [|reflexivity]. f_equal. replace (q - p) with (q - (p + 1) + 1) by lia. rewrite N.mul_add_distr_r. lia.
      * replace (p <=? q) with false by (symmetry; apply N.leb_gt; lia). reflexivity.
Qed.
(** One segment: exactly the entries on written pages get the data written there *)
Lemma resume_spec total g k c D m : seg_ok total g -> 0 < c -> (k + c + 1) * PAGE + PAGE < two64 -> exists m', resume_seg g (k * PAGE) (c * PAGE) D m = Some m' /\
  forall p j, p < pages g -> j < es g * eip g -> m' (p * (es g * eip g) + j) = if (k <=? off g + p) && (off g + p <? k + c) then D ((off g + p - k) * PAGE + j) else m (p * (es g * eip g) + j).
Proof.
  intros SO C B. assert (SO' := SO). destruct SO' as (S1 & S2 & S3 & S4 & S5 & S6). unfold resume_seg. 
  assert (Bk : k * PAGE + PAGE < two64) by (assert (k * PAGE <= (k + c + 1) * PAGE) by (apply N.mul_le_mono_r; lia); lia). assert (Bc : c * PAGE + PAGE < two64) by (assert (c * PAGE <= (k + c + 1) * PAGE) by (apply N.mul_le_mono_r; lia); lia).
  rewrite (to_pages_mult (k * PAGE) k eq_refl Bk), (to_pages_mult (c * PAGE) c eq_refl Bc).
  assert (Kc : k + c < two64) by (unfold PAGE in B; lia).
  assert (E : (k + c + (two64 - 1)) mod two64 = k + c - 1). { replace (k + c + (two64 - 1)) with (k + c - 1 + 1 * two64) by lia. rewrite N.mod_add by discriminate. apply N.mod_small. lia. }
  rewrite E. set (s0 := N.max k (off g)). set (e0 := N.min (k + c - 1) (off g + pages g - 1)). destruct (N.ltb_spec e0 s0) as [L|L].
  - exists m. split; [reflexivity|]. intros p j Hp Hj. replace ((k <=? off g + p) && (off g + p <? k + c)) with false; [reflexivity|]. symmetry. apply andb_false_iff. destruct (N.leb_spec k (off g + p)) as [H|H]; [right | left; reflexivity]. apply N.ltb_ge. unfold s0, e0 in L. lia.
  - destruct (raw_update_spec total g D SO (N.to_nat (e0 - s0 + 1)) ((s0 - k) * PAGE) (s0 - off g) m) as (m' & E1 & H); [unfold s0, e0 in *; lia|]. exists m'. split; [exact E1|]. intros p j Hp Hj. rewrite H by exact Hj. rewrite N2Nat.id.
    replace ((s0 - off g <=? p) && (p <? s0 - off g + (e0 - s0 + 1))) with ((k <=? off g + p) && (off g + p <? k + c)).
    + destruct ((k <=? off g + p) && (off g + p <? k + c)) eqn:I; [|reflexivity]. apply andb_prop in I. destruct I as (I1 & I2). apply N.leb_le in I1. apply N.ltb_lt in I2. f_equal. replace (off g + p - k) with (s0 - k + (p - (s0 - off g))) by (unfold s0, e0 in *; lia). rewrite N.mul_add_distr_r. reflexivity.
    + destruct (N.leb_spec k (off g + p)), (N.ltb_spec (off g + p) (k + c)), (N.leb_spec (s0 - off g) p), (N.ltb_spec p (s0 - off g + (e0 - s0 + 1))); cbn [andb]; try reflexivity; unfold s0, e0 in *; lia.
Qed.
Lemma page_in k c q j : j < PAGE -> (k * PAGE <=? q * PAGE + j) && (q * PAGE + j <? k * PAGE + c * PAGE) = (k <=? q) && (q <? k + c).
Proof.
  intros J. f_equal.
  - destruct (N.leb_spec k q) as [L|L]; [apply N.leb_le; assert (k * PAGE <= q * PAGE) by (apply N.mul_le_mono_r; lia); lia | apply N.leb_gt; assert ((q + 1) * PAGE <= k * PAGE) by (apply N.mul_le_mono_r; lia); lia].
  - rewrite <- N.mul_add_distr_r. destruct (N.ltb_spec q (k + c)) as [L|L]; [apply N.ltb_lt; assert ((q + 1) * PAGE <= (k + c) * PAGE) by (apply N.mul_le_mono_r; lia); lia | apply N.ltb_ge; assert ((k + c) * PAGE <= q * PAGE) by (apply N.mul_le_mono_r; lia); lia].
Qed.
Lemma outside_pages g i : meta_pages g * PAGE <= addr i -> addr i + bytes i + PAGE < two64 -> (meta_pages g <=? to_pages (addr i)) = true.
Proof.
  intros H B. apply N.leb_le. unfold to_pages. rewrite N.mod_small by lia. apply N.div_le_lower_bound; [exact PAGE_pos|]. unfold PAGE in *. lia.
Qed.
Lemma seg_same g m d d' : seg_mirror g m d -> (forall p j, p < pages g -> j < es g * eip g -> d' ((off g + p) * PAGE + j) = d ((off g + p) * PAGE + j)) -> seg_mirror g m d'.
Proof. intros H E p j Hp Hj. rewrite E by assumption. apply H; assumption. Qed.


(** What [submit] does with a write of whole pages inside the metadata *)
Lemma submit_spec g i s k c : geo_ok g -> write i = true -> addr i = k * PAGE -> bytes i = c * PAGE -> 0 < bytes i <= MAX_IO -> doff i = 0 -> k < meta_pages g -> exists a b,
  submit g i s = Some (OK, {| disk := dev_write i (disk s); m_sb := a; m_coll := b |}) /\
  (forall p j, p < pages (sb g) -> j < es (sb g) * eip (sb g) -> a (p * (es (sb g) * eip (sb g)) + j) = if (k <=? off (sb g) + p) && (off (sb g) + p <? k + c) then data i ((off (sb g) + p - k) * PAGE + j) else m_sb s (p * (es (sb g) * eip (sb g)) + j)) /\
  (forall p j, p < pages (coll g) -> j < es (coll g) * eip (coll g) -> b (p * (es (coll g) * eip (coll g)) + j) = if (k <=? off (coll g) + p) && (off (coll g) + p <? k + c) then data i ((off (coll g) + p - k) * PAGE + j) else m_coll s (p * (es (coll g) * eip (coll g)) + j)).
Proof.
  intros (G1 & G2 & G3) W Ek Ec (B1 & B2) D L. assert (C : 0 < c) by (rewrite Ec in B1; destruct c; [discriminate | lia]).
  assert (Bnd : (k + c + 1) * PAGE + PAGE < two64) by (rewrite Ec in B2; unfold MAX_IO, PAGE in *; lia).
  assert (Bk : k * PAGE + PAGE < two64) by (assert (k * PAGE <= (k + c + 1) * PAGE) by (apply N.mul_le_mono_r; lia); lia).
  destruct (resume_spec _ (sb g) k c (data i) (m_sb s) G1 C Bnd) as (a & Ea & Ha). destruct (resume_spec _ (coll g) k c (data i) (m_coll s) G2 C Bnd) as (b & Eb & Hb).
  exists a, b. split; [|split; assumption]. unfold submit, passive_update. rewrite W. cbn [negb m_sb m_coll disk]. rewrite Ek, (to_pages_mult _ k eq_refl Bk). replace (meta_pages g <=? k) with false by (symmetry; apply N.leb_gt; exact L).
  rewrite N.mod_mul by exact PAGE_pos. replace (bytes i mod PAGE) with 0 by (rewrite Ec, N.mod_mul by exact PAGE_pos; reflexivity). cbn [N.eqb negb orb]. replace (MAX_IO <? bytes i) with false by (symmetry; apply N.ltb_ge; exact B2). rewrite Ec, Ea, Eb. reflexivity.
Qed.

(** ** C50 *)
(** Exactly the entries of written pages change, to what was written; everything else stays *)
Theorem C50_exact_partial g i s : geo_ok g -> write i = true -> addr i mod PAGE = 0 -> bytes i mod PAGE = 0 -> 0 < bytes i <= MAX_IO -> doff i = 0 -> addr i < meta_pages g * PAGE ->
  exists s', submit g i s = Some (OK, s') /\ 
  (forall p j, p < pages (coll g) -> j < es (coll g) * eip (coll g) -> let b := (off (coll g) + p) * PAGE + j in
     m_coll s' (p * (es (coll g) * eip (coll g)) + j) = if (addr i <=? b) && (b <? addr i + bytes i) then data i (b - addr i) else m_coll s (p * (es (coll g) * eip (coll g)) + j)) /\
  (forall p j, p < pages (sb g) -> j < es (sb g) * eip (sb g) -> let b := (off (sb g) + p) * PAGE + j in
     m_sb s' (p * (es (sb g) * eip (sb g)) + j) = if (addr i <=? b) && (b <? addr i + bytes i) then data i (b - addr i) else m_sb s (p * (es (sb g) * eip (sb g)) + j)).
Proof.
  intros G W A1 A2 B D L. destruct (mult_of _ A1) as (k & Ek), (mult_of _ A2) as (c & Ec).
  assert (Lk : k < meta_pages g) by (apply (N.mul_lt_mono_pos_r PAGE); [reflexivity | rewrite <- Ek; exact L]).
  destruct (submit_spec g i s k c G W Ek Ec B D Lk) as (a & b & E & Ha & Hb). destruct G as ((_ & _ & S1 & _) & (_ & _ & S2 & _) & _). eexists. split; [exact E|]. cbn [m_sb m_coll]. split; intros p j Hp Hj.
  - rewrite Hb by assumption. rewrite Ek, Ec, page_in by lia. destruct (_ && _) eqn:I; [|reflexivity]. apply andb_prop in I. destruct I as (I & _). apply N.leb_le in I. f_equal. rewrite N.mul_sub_distr_r. assert (k * PAGE <= (off (coll g) + p) * PAGE) by (apply N.mul_le_mono_r; exact I). lia.
  - rewrite Ha by assumption. rewrite Ek, Ec, page_in by lia. destruct (_ && _) eqn:I; [|reflexivity]. apply andb_prop in I. destruct I as (I & _). apply N.leb_le in I. f_equal. rewrite N.mul_sub_distr_r. assert (k * PAGE <= (off (sb g) + p) * PAGE) by (apply N.mul_le_mono_r; exact I). lia.
Qed.
Lemma seg_step total g m a d k c D : seg_ok total g -> seg_mirror g m d ->
  (forall p j, p < pages g -> j < es g * eip g -> a (p * (es g * eip g) + j) = if (k <=? off g + p) && (off g + p <? k + c) then D ((off g + p - k) * PAGE + j) else m (p * (es g * eip g) + j)) ->
  seg_mirror g a (fun b => if (k * PAGE <=? b) && (b <? k * PAGE + c * PAGE) then D (0 + (b - k * PAGE)) else d b).
Proof.
  intros (_ & _ & S1 & _) M H p j Hp Hj. rewrite H by assumption. cbn beta. rewrite page_in by lia. destruct (_ && _) eqn:I; [|apply M; assumption]. apply andb_prop in I. destruct I as (I & _). apply N.leb_le in I. f_equal. rewrite N.mul_sub_distr_r. assert (k * PAGE <= (off g + p) * PAGE) by (apply N.mul_le_mono_r; exact I). lia.
Qed.
Lemma seg_out total g m d i : seg_ok total g -> seg_mirror g m d -> total * PAGE <= addr i -> seg_mirror g m (dev_write i d).
Proof.
  intros (_ & _ & S1 & _ & S2 & _) M O. apply (seg_same g m d); [exact M|]. intros p j Hp Hj. unfold dev_write. destruct (write i); [|reflexivity]. replace (addr i <=? (off g + p) * PAGE + j) with false; [reflexivity|]. symmetry. apply N.leb_gt. assert ((off g + p + 1) * PAGE <= total * PAGE) by (apply N.mul_le_mono_r; lia). lia.
Qed.
Lemma mirror_step g i s : geo_ok g -> io_ok g i -> mirror g s -> exists s', submit g i s = Some (OK, s') /\ mirror g s' /\ disk s' = dev_write i (disk s).
Proof.
  intros G I (M1 & M2). assert (G' := G). destruct G' as (G1 & G2 & G3). destruct (write i) eqn:W.
  2:{ unfold submit, passive_update, dev_write. rewrite W. cbn [negb]. eexists. split; [reflexivity|]. split; [split; assumption | reflexivity]. }
  assert (Out : meta_pages g * PAGE <= addr i -> addr i + bytes i + PAGE < two64 -> exists s', submit g i s = Some (OK, s') /\ mirror g s' /\ disk s' = dev_write i (disk s)).
  { intros O B. unfold submit, passive_update. rewrite W. cbn [negb]. rewrite (outside_pages g i O B). eexists. split; [reflexivity|]. split; [split; cbn [m_sb m_coll disk]; eapply seg_out; eassumption | reflexivity]. }
  destruct I as [I|[(O & B)|(A1 & A2 & B & D & T)]]; [congruence | apply Out; assumption|].
  destruct (N.lt_ge_cases (addr i) (meta_pages g * PAGE)) as [L|L]; [|apply Out; assumption].
  destruct (mult_of _ A1) as (k & Ek), (mult_of _ A2) as (c & Ec).
  assert (Lk : k < meta_pages g) by (apply (N.mul_lt_mono_pos_r PAGE); [reflexivity | rewrite <- Ek; exact L]).
  destruct (submit_spec g i s k c G W Ek Ec B D Lk) as (a & b & E & Ha & Hb). eexists. split; [exact E|]. split; [|reflexivity]. split; cbn [m_sb m_coll disk]; unfold dev_write; rewrite W, D, Ek, Ec; eapply seg_step; eassumption.
Qed.
(** Under any sequence of such writes the memory keeps mirroring the device, no check fails, and the device has what was written *)
Theorem C50_mirror_partial g : geo_ok g -> forall l s, mirror g s -> Forall (io_ok g) l -> exists s', run g l s = Some s' /\ mirror g s' /\ disk s' = fold_left (fun d i => dev_write i d) l (disk s).
Proof.
  intros G. induction l as [|i l IH]; intros s M F.
  - exists s. split; [reflexivity | split; [exact M | reflexivity]].
  - apply Forall_cons_iff in F. destruct F as (F1 & F2). destruct (mirror_step g i s G F1 M) as (s1 & E & M1 & D1). cbn [run fold_left]. rewrite E, <- D1. apply IH; assumption.
Qed.

(** ** Refutations *)
(** sb: 1 page of 1 entry of 4096 bytes at page 0; collision: 3 pages with 5 entries of 800 bytes from page 2; 6 pages of metadata *)
Definition gx : geo := {| sb := {| off := 0; pages := 1; es := 4096; eip := 1 |}; coll := {| off := 2; pages := 3; es := 800; eip := 5 |}; meta_pages := 6 |}.
Definition sx : st := {| disk := fun _ => 0; m_sb := fun _ => 0; m_coll := fun _ => 0 |}.
Example gx_ok : geo_ok gx. Proof. repeat split; vm_compute; congruence. Qed.
Example sx_mirror : mirror gx sx. Proof. split; intros p j _ _; reflexivity. Qed.
Definition wx (a n : N) (o : N) : io := {| write := true; addr := a; bytes := n; data := fun b => b / 512 + 1; doff := o |}.
(** A write over pages 1 to 3: the second page of the data is the first of the collision segment; a read; a write of user data *)
Example C50_ex : Forall (io_ok gx) [wx 4096 12288 0; {| write := false; addr := 1; bytes := 5; data := fun _ => 9; doff := 7 |}; wx 40960 512 3] /\
  match run gx [wx 4096 12288 0; wx 40960 512 3] sx with Some s => (m_coll s 0, m_coll s 3999, m_coll s 4000, m_coll s 8000, disk s 8192, disk s 12288, disk s 40960) | None => (0, 0, 0, 0, 0, 0, 0) end = (9, 16, 17, 0, 9, 17, 1).
Proof.
  split; [|vm_compute; reflexivity]. apply Forall_cons; [|apply Forall_cons; [|apply Forall_cons; [|apply Forall_nil]]].
  - right; right. repeat split; vm_compute; congruence.
  - left. reflexivity.
  - right; left. split; vm_compute; congruence.
Qed.
(** An offset into the data is honoured by the device and not by the memory *)
Theorem C50_offset_refuted : exists g i s, geo_ok g /\ mirror g s /\ addr i mod PAGE = 0 /\ bytes i mod PAGE = 0 /\ 0 < bytes i <= MAX_IO /\
  match submit g i s with Some (e, s') => e = OK /\ m_coll s' 0 = 1 /\ disk s' (off (coll g) * PAGE) = 9 | None => False end.
Proof. exists gx, (wx 8192 4096 4096), sx. split; [exact gx_ok|]. split; [exact sx_mirror|]. split; [reflexivity|]. split; [reflexivity|]. split; [split; vm_compute; congruence|]. vm_compute. repeat split; reflexivity. Qed.
(** An empty write at address 0 overwrites the whole of both segments in memory with what lies behind the data *)
Theorem C50_empty_refuted : exists g i s, geo_ok g /\ mirror g s /\ addr i = 0 /\ bytes i = 0 /\ doff i = 0 /\
  match submit g i s with Some (e, s') => e = OK /\ disk s' 8192 = disk s 8192 /\ m_coll s' 0 = 17 /\ m_sb s' 0 = 1 /\ disk s' 0 = 0 | None => False end.
Proof. exists gx, (wx 0 0 0), sx. split; [exact gx_ok|]. split; [exact sx_mirror|]. vm_compute. repeat split; reflexivity. Qed.
(** A write of 512 bytes in the metadata fails, but after it has changed the device and not the memory *)
Theorem C50_unaligned_refuted : exists g i s, geo_ok g /\ mirror g s /\ addr i mod PAGE = 0 /\ bytes i mod 512 = 0 /\ doff i = 0 /\
  match submit g i s with Some (e, s') => e = INVAL /\ disk s' (off (coll g) * PAGE) = 1 /\ m_coll s' 0 = 0 | None => False end.
Proof. exists gx, (wx 8192 512 0), sx. split; [exact gx_ok|]. split; [exact sx_mirror|]. vm_compute. repeat split; reflexivity. Qed.
(** A write into the last page of the metadata, not at its start, is taken for user data and reported as done *)
Definition gy : geo := {| sb := sb gx; coll := {| off := 2; pages := 4; es := 800; eip := 5 |}; meta_pages := 6 |}.
Theorem C50_last_page_refuted : exists g i s, geo_ok g /\ mirror g s /\ addr i mod 512 = 0 /\ bytes i mod 512 = 0 /\ doff i = 0 /\
  match submit g i s with Some (e, s') => e = OK /\ disk s' (5 * PAGE + 512) = 1 /\ m_coll s' (3 * 4000 + 512) = 0 | None => False end.
Proof. exists gy, (wx (5 * PAGE + 512) 512 0), sx. split; [repeat split; vm_compute; congruence|]. split; [split; intros p j _ _; reflexivity|]. vm_compute. repeat split; reflexivity. Qed.
(** On a cache not in standby every request on its volume leaves the use counter one higher *)
Theorem C50_refcount_refuted : exists n, refs true false n = n /\ refs false true n = n /\ refs false false n = n + 1.
Proof. exists 3. repeat split. Qed.

Print Assumptions C50_exact_partial.
Print Assumptions C50_mirror_partial.
Print Assumptions C50_offset_refuted.
Print Assumptions C50_empty_refuted.
Print Assumptions C50_unaligned_refuted.
Print Assumptions C50_last_page_refuted.
Print Assumptions C50_refcount_refuted.

(** C47 - metadata stored by a clean stop is accepted, unchanged, by the next load. *)
From Coq Require Import NArith List Bool Arith Lia.
From Verif Require Import PassiveModel PassiveProps SaveModel.
Import ListNotations.
Open Scope N_scope.

(** ** Segments in one block of memory *)
Definition fits (g : seg) : Prop := 0 < es g /\ 0 < eip g /\ es g * eip g <= PAGE /\ 0 < pages g /\ (pages g - 1) * eip g < two32.
Definition history (g : seg) (l : list (N * (N -> N))) : N -> N := fold_left (fun m w => set_entry g (fst w) (snd w) m) l (fun _ => 0).

Lemma tail_zero g l : forall m, (forall a, pages g * (es g * eip g) <= a -> m a = 0) -> Forall (fun w => fst w < pages g * eip g) l ->
  forall a, pages g * (es g * eip g) <= a -> fold_left (fun m w => set_entry g (fst w) (snd w) m) l m a = 0.
Proof.
  induction l as [|[e v] l IH]; intros m Z F a Ha; cbn [fold_left]; [apply Z; exact Ha|]. apply Forall_cons_iff in F. destruct F as (F1 & F2). cbn [fst snd] in *. apply IH; [|exact F2 | exact Ha]. intros b Hb. unfold set_entry. replace (b <? e * es g + es g) with false; [rewrite andb_false_r; apply Z; exact Hb|]. symmetry. apply N.ltb_ge. assert ((e + 1) * es g <= pages g * eip g * es g) by (apply N.mul_le_mono_r; lia). lia.
Qed.
Lemma fold_sum_ext {A} (f h : N -> A -> N) (l : list A) : (forall c x, In x l -> f c x = h c x) -> forall c, fold_left f l c = fold_left h l c.
Proof. induction l as [|x l IH]; intros H c; cbn [fold_left]; [reflexivity|]. rewrite H by (left; reflexivity). apply IH. intros; apply H; right; assumption. Qed.

(** Whatever was written to entries: loading what was stored gives back every byte, and the checksum of the stored state *)
Theorem C47_block (crc : N -> list N -> N) g : fits g -> forall l, Forall (fun w => fst w < pages g * eip g) l -> exists m,
  ram_load g (image g (history g l)) = Some m /\ (forall a, m a = history g l a) /\ ram_sum crc g m = ram_sum crc g (history g l).
Proof.
  intros (F1 & F2 & F3 & F4 & F5) l W. set (h := history g l). assert (Z : forall a, pages g * (es g * eip g) <= a -> h a = 0) by (intros a Ha; unfold h, history; apply tail_zero; [reflexivity | exact W | exact Ha]).
  assert (SO : seg_ok (off g + pages g) g) by (repeat split; try assumption; lia).
  destruct (raw_update_spec _ g (image g h) SO (N.to_nat (pages g)) 0 0 (fun _ => 0)) as (m & E & H); [rewrite N2Nat.id; lia|]. exists m. split; [exact E|].
  assert (Eq : forall a, m a = h a).
  { intros a. set (sz := es g * eip g) in *. assert (Sz : sz <> 0) by (unfold sz; assert (0 < es g * eip g) by (apply N.mul_pos_pos; assumption); lia).
    assert (Q : exists q r, a = q * sz + r /\ r < sz) by (exists (a / sz), (a mod sz); split; [rewrite (N.mul_comm _ sz); apply N.div_mod; exact Sz | apply N.mod_lt; exact Sz]). destruct Q as (q & r & -> & R). rewrite H by exact R. rewrite N2Nat.id. replace (0 <=? q) with true by (symmetry; apply N.leb_le; lia). cbn [andb]. destruct (N.ltb_spec q (0 + pages g)) as [L|L].
    - unfold image. replace (0 + (q - 0) * PAGE + r) with (q * PAGE + r) by lia. replace ((q * PAGE + r) / PAGE) with q by (apply (N.div_unique _ _ _ r); lia). replace ((q * PAGE + r) mod PAGE) with r by (apply (N.mod_unique _ _ q); lia).
      unfold fill. fold sz. replace (r <? sz) with true by (symmetry; apply N.ltb_lt; exact R). rewrite N.mod_small by (assert (q * eip g <= (pages g - 1) * eip g) by (apply N.mul_le_mono_r; lia); lia). f_equal. unfold sz. lia.
    - symmetry. apply Z. assert (pages g * sz <= q * sz) by (apply N.mul_le_mono_r; lia). lia. }
  split; [exact Eq|]. unfold ram_sum. apply fold_sum_ext. intros c i _. f_equal. unfold page_at. apply map_ext. intros j. apply Eq.
Qed.
Example C47_block_ex : let g := {| off := 5; pages := 3; es := 1000; eip := 4 |} in fits g /\
  match ram_load g (image g (history g [(1, fun _ => 7); (9, fun j => j); (1, fun j => if j <? 3 then 1 else 2)])) with
  | Some m => (m 999, m 1000, m 1003, m 9000, m 9123, m 10000, image g m 8192, image g m (8192 + 1000 + 5)) | None => (0, 0, 0, 0, 0, 0, 0, 0) end = (0, 1, 2, 0, 123, 0, 0, 5).
Proof. split; [repeat split; vm_compute; congruence | vm_compute; reflexivity]. Qed.

(** ** Core UUIDs *)
(** The UUID each core should have, from the operations alone *)
Definition spec_step (o : op) (s : nat -> option (list N)) : nat -> option (list N) :=
  match o with
  | Add i (Some b) true => fun j => if Nat.eqb j i then (match s i with Some x => Some x | None => Some b end) else s j
  | Remove i => fun j => if Nat.eqb j i then None else s j
  | SetUuid i (Some b) => fun j => if Nat.eqb j i then (match s i with Some x => if Nat.ltb UUID_MAX (length b) then Some x else Some b | None => None end) else s j
  | _ => s
  end.
Definition spec (l : list op) : nat -> option (list N) := fold_left (fun s o => spec_step o s) l (fun _ => None).
(** What a page says: a size and so many bytes *)
Definition decode (p : page) : list N := 
  match p with a :: b :: c :: d :: r => firstn (N.to_nat (a + 256 * b + 65536 * c + 16777216 * d)) r | _ => [] end.
Definition good (u : uuid) : Prop := match u with Some b => (0 < length b <= UUID_MAX)%nat | None => False end.
(** Adding: a UUID of 1 to 4092 bytes; changing it: anything but an empty one *)
Definition op_ok (o : op) : Prop := match o with Add _ u _ => good u | SetUuid _ u => u <> Some [] | _ => True end.

Definition enc (b : list N) : page := le4 (N.of_nat (length b)) ++ b ++ zeros (UUID_MAX - length b).
Lemma UM : UUID_MAX = 4092%nat. Proof. reflexivity. Qed.
Lemma le4_small n : n < 65536 -> le4 n = [n mod 256; n / 256; 0; 0].
Proof. intros H. unfold le4. assert (n / 256 < 256) by (apply N.div_lt_upper_bound; lia). rewrite (N.mod_small (n / 256)) by assumption. rewrite (N.div_small n 65536), (N.div_small n 16777216) by lia. reflexivity. Qed.
Lemma len_small (b : list N) : (length b <= UUID_MAX)%nat -> N.of_nat (length b) < 65536.
Proof. rewrite UM. lia. Qed.
Lemma decode_enc b : (length b <= UUID_MAX)%nat -> decode (enc b) = b.
Proof.
  intros H. assert (L := len_small b H). unfold enc. rewrite le4_small by exact L. cbn [app decode]. replace (N.of_nat (length b) mod 256 + 256 * (N.of_nat (length b) / 256) + 65536 * 0 + 16777216 * 0) with (N.of_nat (length b)) by (rewrite (N.div_mod (N.of_nat (length b)) 256) at 1 by discriminate; lia).
  rewrite Nat2N.id, firstn_app, Nat.sub_diag, firstn_all. cbn [firstn]. apply app_nil_r.
Qed.
Lemma enc_nonzero b : (0 < length b <= UUID_MAX)%nat -> is_zero (enc b) = false.
Proof.
  intros (H1 & H2). assert (L := len_small b H2). unfold enc. rewrite le4_small by exact L. cbn [app is_zero forallb]. destruct (N.eqb_spec (N.of_nat (length b) mod 256) 0) as [E|]; [|reflexivity]. destruct (N.eqb_spec (N.of_nat (length b) / 256) 0) as [E2|]; [|reflexivity]. exfalso. assert (X := N.div_mod (N.of_nat (length b)) 256 ltac:(discriminate)). lia.
Qed.
Definition usable (p : option page) : Prop := p = None \/ exists b, (0 < length b <= UUID_MAX)%nat /\ p = Some (enc b).
Definition J (s : nat -> option (list N)) (c : cache) : Prop := forall i,
  match s i with Some b => valid c i = true /\ uuids c i = Some (enc b) /\ (0 < length b <= UUID_MAX)%nat | None => valid c i = false /\ usable (uuids c i) end.
Lemma reload d : (forall i, usable (d i)) -> forall i, dyn_load (dyn_image d) i = d i.
Proof.
  intros H i. unfold dyn_load, dyn_image. destruct (H i) as [E|(b & Hb & E)]; rewrite E.
  - replace (is_zero (zeros PG)) with true by (vm_compute; reflexivity). reflexivity.
  - rewrite enc_nonzero by exact Hb. reflexivity.
Qed.
Lemma J_usable s c : J s c -> forall i, usable (uuids c i).
Proof. intros H i. specialize (H i). destruct (s i) as [b|]; [destruct H as (_ & E & L); right; exists b; split; assumption | apply H]. Qed.
Lemma sum_ext crc n d d' : (forall i, d i = d' i) -> dyn_sum crc n d = dyn_sum crc n d'.
Proof. intros H. unfold dyn_sum. apply fold_sum_ext. intros c x _. rewrite H. reflexivity. Qed.
Lemma access_some i d p : d i = Some p -> forall j, access i d j = d j.
Proof. intros E j. unfold access. destruct (Nat.eqb_spec j i) as [->|]; [rewrite E; reflexivity | reflexivity]. Qed.
Lemma access_all v (d0 : dyn) l : (forall i, v i = true -> exists p, d0 i = Some p) -> forall d, (forall i, d i = d0 i) -> forall j, fold_left (fun d i => if (v i : bool) then access i d else d) l d j = d0 j.
Proof.
  intros H. induction l as [|i l IH]; intros d E j; cbn [fold_left]; [apply E|]. apply IH. intros k. destruct (v i) eqn:V; [|apply E]. destruct (H i V) as (p & Ep). rewrite (access_some i d p) by (rewrite E; exact Ep). apply E.
Qed.
Lemma set_md_ok i b d : (length b <= UUID_MAX)%nat -> fst (set_uuid_md i (Some b) d) = true /\ forall j, snd (set_uuid_md i (Some b) d) j = if Nat.eqb j i then Some (enc b) else d j.
Proof.
  intros H. unfold set_uuid_md, uuid_set. replace (Nat.ltb UUID_MAX (length b)) with false by (symmetry; apply Nat.ltb_ge; exact H). cbn [fst snd]. split; [reflexivity|]. intros j. unfold access. destruct (Nat.eqb_spec j i); reflexivity.
Qed.
(** A refused UUID, and clearing, leave an allocated page as it is *)
Lemma set_md_bad i u d p : d i = Some p -> (u = None \/ exists b, u = Some b /\ (UUID_MAX < length b)%nat) -> fst (set_uuid_md i u d) = false /\ forall j, snd (set_uuid_md i u d) j = d j.
Proof.
  intros E B. assert (U : uuid_set u (dyn_image (access i d) i) = (false, p)). { unfold dyn_image. rewrite (access_some i d p E i), E. destruct B as [->|(b & -> & L)]; [reflexivity|]. unfold uuid_set. replace (Nat.ltb UUID_MAX (length b)) with true by (symmetry; apply Nat.ltb_lt; exact L). reflexivity. }
  unfold set_uuid_md. rewrite U. cbn [fst snd]. split; [reflexivity|]. intros j. destruct (Nat.eqb_spec j i) as [->|Ne]; [symmetry; exact E | apply (access_some i d p E)].
Qed.
Lemma J_step crc n o s c : op_ok o -> J s c -> exists c', step crc n o c = Some c' /\ J (spec_step o s) c'.
Proof.
  intros O H. destruct o as [i u later|i|i u|].
  - cbn [op_ok good] in O. destruct u as [b|]; [|contradiction]. cbn [good] in O. destruct O as (O1 & O2). cbn [step]. destruct (valid c i) eqn:V.
    + exists c. split; [reflexivity|]. cbn [spec_step]. destruct later; [|exact H]. intros j. destruct (Nat.eqb_spec j i) as [->|]; [|apply H]. specialize (H i). destruct (s i); [exact H | destruct H; congruence].
    + assert (Si : s i = None) by (specialize (H i); destruct (s i); [destruct H; congruence | reflexivity]).
      destruct (set_md_ok i b (uuids c) O2) as (E1 & E2). destruct (set_uuid_md i (Some b) (uuids c)) as [ok d] eqn:E. cbn [fst snd] in E1, E2. subst ok. cbn [negb].
      assert (Di : d i = Some (enc b)) by (rewrite E2, Nat.eqb_refl; reflexivity).
      destruct later; cbn [negb].
      * eexists. split; [reflexivity|]. cbn [spec_step]. intros j. cbn [valid uuids]. unfold upd. rewrite E2. destruct (Nat.eqb_spec j i) as [->|Ne]; [|apply H]. rewrite Si. repeat split; assumption.
      * eexists. split; [reflexivity|]. cbn [spec_step]. intros j. cbn [valid uuids]. unfold clear_uuid_md. destruct (set_md_bad i None d (enc b) Di (or_introl eq_refl)) as (_ & X). rewrite X, E2. destruct (Nat.eqb_spec j i) as [->|Ne]; [|apply H]. rewrite Si. split; [exact V|]. right. exists b. repeat split; assumption.
  - cbn [step spec_step]. destruct (valid c i) eqn:V.
    + eexists. split; [reflexivity|]. assert (Hi := H i). destruct (s i) as [b|]; [|destruct Hi; congruence]. destruct Hi as (_ & E & L). intros j. cbn [valid uuids]. unfold clear_uuid_md, upd. destruct (set_md_bad i None (uuids c) (enc b) E (or_introl eq_refl)) as (_ & X). rewrite X. destruct (Nat.eqb_spec j i) as [->|Ne]; [|apply H]. split; [reflexivity|]. right. exists b. split; assumption.
    + exists c. split; [reflexivity|]. intros j. destruct (Nat.eqb_spec j i) as [->|]; [|apply H]. specialize (H i). destruct (s i); [destruct H; congruence | exact H].
  - cbn [step]. destruct (valid c i) eqn:V.
    + eexists. split; [reflexivity|]. assert (Hi := H i). destruct (s i) as [b0|] eqn:Si; [|destruct Hi; congruence]. destruct Hi as (_ & E & L). destruct u as [b|].
      * cbn [spec_step]. rewrite Si. destruct (Nat.ltb_spec UUID_MAX (length b)) as [Lb|Lb].
        { destruct (set_md_bad i (Some b) (uuids c) (enc b0) E (or_intror (ex_intro _ b (conj eq_refl Lb)))) as (_ & X). intros j. cbn [valid uuids]. rewrite X. destruct (Nat.eqb_spec j i) as [->|Ne]; [repeat split; [exact V | exact E | apply L | apply L] | apply H]. }
        { destruct (set_md_ok i b (uuids c) Lb) as (_ & X). intros j. cbn [valid uuids]. rewrite X. destruct (Nat.eqb_spec j i) as [->|Ne]; [|apply H]. split; [exact V|]. split; [reflexivity|]. split; [|exact Lb]. destruct b; [cbn [op_ok] in O; congruence | cbn [length]; lia]. }
      * cbn [spec_step]. destruct (set_md_bad i None (uuids c) (enc b0) E (or_introl eq_refl)) as (_ & X). intros j. cbn [valid uuids]. rewrite X. apply H.
    + exists c. split; [reflexivity|]. cbn [spec_step]. destruct u as [b|]; [|exact H]. intros j. destruct (Nat.eqb_spec j i) as [->|]; [|apply H]. specialize (H i). destruct (s i); [destruct H; congruence | exact H].
  - cbn [step spec_step]. assert (R := reload (uuids c) (J_usable s c H)). rewrite (sum_ext crc n _ _ R), N.eqb_refl. eexists. split; [reflexivity|]. intros j. cbn [valid uuids].
    rewrite (access_all (valid c) (uuids c)); [apply H | | exact R]. intros i V. specialize (H i). destruct (s i) as [b|]; [exists (enc b); apply H | destruct H; congruence].
Qed.
Lemma J_run crc n : forall l s c, Forall op_ok l -> J s c -> exists c', run_ops crc n l c = Some c' /\ J (fold_left (fun s o => spec_step o s) l s) c'.
Proof.
  induction l as [|o l IH]; intros s c F H; cbn [run_ops fold_left]; [exists c; split; [reflexivity | exact H]|]. apply Forall_cons_iff in F. destruct F as (F1 & F2). destruct (J_step crc n o s c F1 H) as (c1 & E & H1). rewrite E. apply IH; assumption.
Qed.
(** Any history of adding and removing cores, changing UUIDs and restarting, with whatever checksum: every restart succeeds, the
    checksum of what the next load reads is the stored one, and each core has the UUID it was given last *)
Theorem C47_uuids_partial (crc : N -> list N -> N) n l : Forall op_ok l -> exists c, run_ops crc n l new = Some c /\
  dyn_sum crc n (dyn_load (dyn_image (uuids c))) = dyn_sum crc n (uuids c) /\
  (forall i, valid c i = match spec l i with Some _ => true | None => false end) /\
  (forall i b, spec l i = Some b -> decode (dyn_image (dyn_load (dyn_image (uuids c))) i) = b).
Proof.
  intros F. destruct (J_run crc n l (fun _ => None) new F) as (c & E & H); [intros i; split; [reflexivity | left; reflexivity]|]. change (fold_left (fun s o => spec_step o s) l (fun _ => None)) with (spec l) in H.
  exists c. assert (R := reload (uuids c) (J_usable _ c H)). split; [exact E|]. split; [apply sum_ext; exact R|]. split.
  - intros i. specialize (H i). destruct (spec l i); apply H.
  - intros i b S. specialize (H i). rewrite S in H. destruct H as (_ & X & L). unfold dyn_image at 1. rewrite R, X. apply decode_enc. apply L.
Qed.
Definition ex_ops : list op := [Add 1 (Some [65; 66]) true; Add 2 (Some [67]) false; Restart; Add 2 (Some [68; 69; 70]) true; SetUuid 1 (Some (repeat 3 (N.to_nat 5000))); Remove 1; Restart; SetUuid 2 (Some [71]); Restart].
Example C47_uuids_ex : Forall op_ok ex_ops /\ match run_ops crc32 4 ex_ops new with Some c => (valid c 1, valid c 2, decode (dyn_image (uuids c) 2), decode (dyn_image (uuids c) 1)) | None => (false, false, [], []) end = (false, true, [71], [65; 66]).
Proof.
  split; [|vm_compute; reflexivity]. unfold ex_ops. repeat apply Forall_cons; try apply Forall_nil; cbn [op_ok good length]; rewrite ?UM; try exact I; try lia; intros E; vm_compute in E; discriminate E.
Qed.

(** ** Refutations *)
(** An attempt to add a core with too long a UUID fails; the cache, stopped cleanly afterwards, can no longer be loaded *)
Theorem C47_failed_add_refuted : exists n l, match l with [Add i u true; Restart] => u = Some (repeat 1 (S UUID_MAX)) | _ => False end /\
  run_ops crc32 n (removelast l) new <> None /\ run_ops crc32 n l new = None.
Proof. exists 4%nat, [Add 1 (Some (repeat 1 (S UUID_MAX))) true; Restart]. split; [reflexivity|]. split; [vm_compute; congruence | vm_compute; reflexivity]. Qed.
(** So can a cache with a core added under an empty UUID *)
Theorem C47_empty_refuted : exists n l c, l = [Add 1 (Some []) true] /\ run_ops crc32 n l new = Some c /\ valid c 1%nat = true /\ run_ops crc32 n (l ++ [Restart]) new = None.
Proof.
  exists 4%nat, [Add 1 (Some []) true]. eexists. split; [reflexivity|]. split; [reflexivity|]. split; [reflexivity|]. vm_compute. reflexivity.
Qed.
(** The checksum behind it: known answer, and pages of zeros count *)
Example crc32_check : crc32 0 [49; 50; 51; 52; 53; 54; 55; 56; 57] = 3421780262 /\ crc32 0 (zeros PG) <> 0.
Proof. split; [vm_compute; reflexivity | vm_compute; congruence]. Qed.

Print Assumptions C47_block.
Print Assumptions C47_uuids_partial.
Print Assumptions C47_failed_add_refuted.
Print Assumptions C47_empty_refuted.

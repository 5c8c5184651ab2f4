(** Property C54: a cache can be attached and detached any number of times. *)
From Coq Require Import List Bool Arith Lia.
From Verif Require Import SegLifeModel.
Import ListNotations.
Open Scope nat_scope.

(** Section [i] exists: its pointer refers to an allocated object. *)
Definition exists_seg (s : st) (i : nat) : Prop := exists h, nth_error (ptr s) i = Some (Some h) /\ In h (live s).
(** What an attached cache needs: all sections, except cleaning when the cleaner is disabled. *)
Definition complete (noc : bool) (s : st) : Prop := forall i, i < 5 -> (i = 0 -> noc = false) -> exists_seg s i.

(** *** The full claim, and where it holds *)
Definition C54_claim : Prop := forall h noc, match history (h ++ [(noc, None)]) start with Ok s => complete noc s | _ => False end.

(** States between attachments in histories with a fixed setting and no failure: *)
Definition detached (noc : bool) (s : st) : Prop := live s = [] /\ (disabled s = true -> noc = true) /\ length (ptr s) = 5 /\ (noc = true -> nth_error (ptr s) 0 = Some None).

Ltac eqbs := repeat match goal with |- context [?a =? ?b] => first [replace (a =? b) with true by (symmetry; apply Nat.eqb_eq; lia) | replace (a =? b) with false by (symmetry; apply Nat.eqb_neq; lia)]; cbn -[Nat.eqb] end.
Lemma attach_ok noc s : detached noc s ->
  exists s', attach noc None s = Ok s' /\ complete noc s' /\ exists s2, detach s' = Ok s2 /\ detached noc s2.
Proof.
  intros (L & D & P & Z). destruct s as [d p l f]. cbn in *. subst l.
  destruct p as [|p0 [|p1 [|p2 [|p3 [|p4 [|]]]]]]; try discriminate P.
  unfold attach, detach, deinit. cbn [disabled ptr live fresh].
  destruct noc.
  - specialize (Z eq_refl). inversion Z; subst p0.
    eexists. split; [cbn; reflexivity|]. split.
    + intros i Hi H0. unfold exists_seg. cbn. destruct i as [|[|[|[|[|i]]]]]; [specialize (H0 eq_refl); discriminate| | | | |lia]; eexists; (split; [reflexivity|cbn; auto 8]).
    + eexists. split; [cbn -[Nat.eqb]; eqbs; reflexivity|]. split; [reflexivity|cbn; repeat split; auto; discriminate].
  - destruct d; [specialize (D eq_refl); discriminate|].
    eexists. split; [cbn; reflexivity|]. split.
    + intros i Hi H0. unfold exists_seg. cbn. destruct i as [|[|[|[|[|i]]]]]; [| | | | |lia]; eexists; (split; [reflexivity|cbn; auto 8]).
    + eexists. split; [cbn -[Nat.eqb]; eqbs; reflexivity|]. split; [reflexivity|cbn; repeat split; auto; discriminate].
Qed.

(** C54 for histories that never change the setting and in which no allocation fails. *)
Theorem C54_same_setting_partial : forall n noc,
  match history (repeat (noc, None) (S n)) start with Ok s => complete noc s | _ => False end.
Proof.
  intros n noc. assert (H : detached noc start).
  { unfold detached, start; cbn. repeat split; try reflexivity; discriminate. }
  generalize dependent start. induction n as [|n IH]; intros s H.
  - destruct (attach_ok noc s H) as (s' & E & C & _). cbn [repeat history]. rewrite E. exact C.
  - destruct (attach_ok noc s H) as (s' & E & C & s2 & E2 & H2). cbn [repeat history] in *. rewrite E.
    specialize (IH s2 H2). rewrite E2. exact IH.
Qed.
Example C54_case : exists s, history [(false, None); (false, None); (false, None)] start = Ok s /\
  ptr s = [Some 10; Some 11; Some 12; Some 13; Some 14] /\ live s = [14; 13; 12; 11; 10].
Proof. eexists. vm_compute. repeat split. Qed.

(** *** C54 is false *)
(** Attach with the cleaner, detach, attach without, detach: the cleaning section of the first
    attachment is released twice. *)
Theorem C54_double_free_refuted : exists h, h = [(false, None); (true, None)] /\
  exists s, history h start = Ok s /\ detach s = DoubleFree.
Proof. eexists. split; [reflexivity|]. eexists. split; [vm_compute; reflexivity|]. vm_compute. reflexivity. Qed.
(** Attach without the cleaner, detach, attach with it: the cleaning section does not exist. *)
Theorem C54_missing_section_refuted : exists s, history [(true, None); (false, None)] start = Ok s /\ ~ complete false s /\ nth_error (ptr s) 0 = Some None.
Proof.
  eexists. split; [vm_compute; reflexivity|]. split; [|reflexivity].
  intro C. destruct (C 0 ltac:(lia) ltac:(reflexivity)) as (h & E & _). discriminate.
Qed.
(** An attachment that fails for lack of memory after an earlier one: double release. *)
Theorem C54_failed_attach_refuted : forall k, k < 5 -> history [(false, None); (false, Some k)] start = DoubleFree.
Proof. intros k Hk. do 5 (destruct k as [|k]; [vm_compute; reflexivity|]). lia. Qed.
Theorem C54_claim_refuted : ~ C54_claim.
Proof.
  intro C. specialize (C [(true, None)] false). destruct C54_missing_section_refuted as (s & E & N & _).
  cbn [app] in C. rewrite E in C. exact (N C).
Qed.

Print Assumptions C54_same_setting_partial.
Print Assumptions C54_double_free_refuted.
Print Assumptions C54_missing_section_refuted.
Print Assumptions C54_failed_attach_refuted.

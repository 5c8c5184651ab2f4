(** C61: I/O of management operations to the cache device (SubIoModel.v). *)
From Coq Require Import List Bool Arith NArith Lia.
From Verif Require Import FwdModel FwdProofs FwdProps SubIoModel.
Import ListNotations.
Open Scope N_scope.

(** ** Specification *)

(** How many of the I/Os touch byte [x] of the device. *)
Definition touched (x : N) (l : list (N * N)) : nat :=
  length (filter (fun p => (fst p <=? x) && (x <? fst p + snd p)) l).

(** Following the allocations: what is held after the events; [None]: something is released that is
    not held, or allocated twice (its first instance is lost). *)
Definition thing_eqb (x y : thing) : bool :=
  match x, y with Ctx, Ctx | Req, Req | QRef, QRef | Data, Data => true | _, _ => false end.
Fixpoint audit (held : list thing) (l : list sev) : option (list thing) :=
  match l with
  | [] => Some held
  | Take x :: r => if existsb (thing_eqb x) held then None else audit (x :: held) r
  | Give x :: r =>
      if existsb (thing_eqb x) held then audit (filter (fun y => negb (thing_eqb x y)) held) r else None
  | Cmpl _ :: r => audit held r
  end.

(** The codes the caller was given. *)
Definition told (l : list sev) : list N := flat_map (fun e => match e with Cmpl c => [c] | _ => [] end) l.

(** The operations; writing zeros is apart (refuted below). *)
Inductive operation : call -> Prop :=
| Op_flush a b v : operation (flush a b v)
| Op_discard a b v addr len : operation (discard a b v addr len)
| Op_page a b c v addr : operation (page a b c v addr)
| Op_read_sb a b c v pages : operation (read_sb a b c v pages).

(** The device has failed one of the I/Os. *)
Definition device_failed (k : call) (l : list ev) : Prop :=
  exists p c, program k = Some p /\ run l (start p) = Some c /\ io_failed c.

(** ** The range is cut up exactly *)

Lemma pieces_spec fuel : forall max addr len,
  0 < max -> addr + len <= 2 ^ 64 -> len / max < N.of_nat fuel ->
  (forall x, touched x (pieces fuel max addr len) = if (addr <=? x) && (x <? addr + len) then 1%nat else 0%nat) /\
  Forall (fun p => 0 < snd p <= max) (pieces fuel max addr len).
Proof.
  induction fuel as [|fuel IH]; intros max addr len Hm Hb Hf; [destruct (N.nlt_0_r _ Hf)|].
  cbn [pieces]. destruct (N.eqb_spec len 0) as [->|Hn].
  - split; [|constructor]. intros x. rewrite N.add_0_r.
    destruct (N.leb_spec addr x), (N.ltb_spec x addr); cbn; auto; lia.
  - set (b := N.min len max).
    assert (Hb0 : 0 < b <= max) by (unfold b; lia).
    assert (Hbl : b <= len) by (unfold b; lia).
    destruct (N.eq_dec b len) as [E|E].
    + rewrite E, N.sub_diag.
      assert (HP : forall a, pieces fuel max a 0 = []) by (intros a; destruct fuel; reflexivity).
      rewrite HP. split.
      * intros x. unfold touched. cbn [filter fst snd]. destruct ((addr <=? x) && (x <? addr + len)); reflexivity.
      * constructor; [cbn; lia|constructor].
    + assert (Hmb : b = max) by (unfold b in *; lia).
      assert (Hu : u64 (addr + b) = addr + b) by (unfold u64; apply N.mod_small; lia).
      rewrite Hu.
      assert (Hd : len / max = (len - max) / max + 1).
      { replace len with ((len - max) + 1 * max) at 1 by lia. rewrite N.div_add by lia. reflexivity. }
      destruct (IH max (addr + b) (len - b)) as [H1 H2]; [auto|lia|rewrite Hmb; lia|].
      split.
      * intros x. unfold touched in *. cbn [filter fst snd].
        specialize (H1 x). replace (addr + b + (len - b)) with (addr + len) in H1 by lia.
        destruct (N.leb_spec addr x), (N.ltb_spec x (addr + b)), (N.leb_spec (addr + b) x),
          (N.ltb_spec x (addr + len)); cbn [andb length] in *; try lia; rewrite ?H1; reflexivity.
      * constructor; [exact Hb0|exact H2].
Qed.

Lemma pieces_aligned a fuel : forall max addr len,
  (a | max) -> (a | 2 ^ 64) -> (a | addr) -> (a | len) ->
  Forall (fun p => (a | fst p) /\ (a | snd p)) (pieces fuel max addr len).
Proof.
  induction fuel as [|fuel IH]; intros max addr len Hm H64 Ha Hl; cbn [pieces]; [constructor|].
  destruct (N.eqb_spec len 0); [constructor|].
  assert (Hb : (a | N.min len max)) by (destruct (N.min_dec len max) as [->| ->]; auto).
  constructor; [auto|]. apply IH; auto.
  - unfold u64. rewrite N.mod_eq by discriminate. apply N.divide_sub_r.
    + apply N.divide_add_r; auto.
    + apply N.divide_mul_l; auto.
  - apply N.divide_sub_r; auto.
Qed.

Lemma split_spec max addr len : 0 < max -> addr + len <= 2 ^ 64 ->
  (forall x, touched x (split max addr len) = if (addr <=? x) && (x <? addr + len) then 1%nat else 0%nat) /\
  Forall (fun p => 0 < snd p <= max) (split max addr len).
Proof. intros. apply pieces_spec; auto. rewrite N2Nat.id. lia. Qed.

Lemma discard_max_val : discard_max = 4294966784.
Proof. reflexivity. Qed.
Lemma zeros_max_val : zeros_max = 4294963200.
Proof. reflexivity. Qed.

(** For every range of the device, however long: each byte of it is discarded exactly once, no
    other byte is; no I/O is empty or too long for 32 bits; whole sectors stay whole. *)
Theorem C61_discard_exact v addr len : addr + len <= 2 ^ 64 ->
  let l := ios (discard false false v addr len) in
  (forall x, touched x l = if (addr <=? x) && (x <? addr + len) then 1%nat else 0%nat) /\
  Forall (fun p => 0 < snd p < 2 ^ 32) l /\
  ((512 | addr) -> (512 | len) -> Forall (fun p => (512 | fst p) /\ (512 | snd p)) l).
Proof.
  intros H l. destruct (split_spec discard_max addr len) as [H1 H2]; [reflexivity|auto|].
  split; [exact H1|]. split.
  - eapply Forall_impl; [|exact H2]. cbn beta. intros p Hp. rewrite discard_max_val in Hp. lia.
  - intros Ha Hl. apply pieces_aligned; auto.
    + exists 8388607. reflexivity.
    + exists (2 ^ 55). reflexivity.
Qed.

(** The same for the zeros, in pages. *)
Lemma zeros_ios v addr len : addr + len <= 2 ^ 64 ->
  ios (write_zeros false false v addr len) = split zeros_max addr len.
Proof.
  intros H. cbn [write_zeros with_ctx_req ios].
  destruct (split_spec zeros_max addr len) as [_ H2]; [reflexivity|auto|].
  rewrite <- (map_id (split zeros_max addr len)) at 2. apply map_ext_in. intros [x y] Hp.
  rewrite Forall_forall in H2. specialize (H2 _ Hp). cbn [snd] in H2. rewrite zeros_max_val in H2.
  unfold u32. cbn [fst snd]. rewrite N.mod_small by lia. reflexivity.
Qed.

Theorem C61_zeros_exact v addr len : addr + len <= 2 ^ 64 ->
  let l := ios (write_zeros false false v addr len) in
  (forall x, touched x l = if (addr <=? x) && (x <? addr + len) then 1%nat else 0%nat) /\
  Forall (fun p => 0 < snd p < 2 ^ 32) l /\
  ((4096 | addr) -> (4096 | len) -> Forall (fun p => (4096 | fst p) /\ (4096 | snd p)) l).
Proof.
  intros H l. unfold l. rewrite zeros_ios by auto.
  destruct (split_spec zeros_max addr len) as [H1 H2]; [reflexivity|auto|].
  split; [exact H1|]. split.
  - eapply Forall_impl; [|exact H2]. cbn beta. intros p Hp. rewrite zeros_max_val in Hp. lia.
  - intros Ha Hl. apply pieces_aligned; auto.
    + exists 1048575. reflexivity.
    + exists (2 ^ 52). reflexivity.
Qed.

(** A terabyte. *)
Example discard_big : length (ios (discard false false (fun _ => VDev) 4096 (2 ^ 40))) = 257%nat /\
  4096 + 2 ^ 40 <= 2 ^ 64.
Proof. split; [vm_compute; reflexivity|lia]. Qed.

(** One I/O per piece is what is forwarded. *)
Theorem C61_one_io_each v addr len :
  program (discard false false v addr len) =
  Some (cache_io_req (map v (seq 0 (length (ios (discard false false v addr len)))))).
Proof. reflexivity. Qed.

(** Whole pages do not stay whole when discarded: of a range of more than 4 GiB that is aligned to
    pages the second I/O begins in the middle of a page. *)
Theorem C61_discard_pages_refuted : exists v addr len p,
  addr + len <= 2 ^ 64 /\ (4096 | addr) /\ (4096 | len) /\
  In p (ios (discard false false v addr len)) /\ ~ (4096 | fst p).
Proof.
  exists (fun _ => VDev), 0, (2 ^ 32), (4294966784, 512).
  split; [lia|]. split; [exists 0; reflexivity|]. split; [exists 1048576; reflexivity|].
  split; [vm_compute; auto|].
  intros [z Hz]. cbn [fst] in Hz. lia.
Qed.

(** ** Completed once, everything given back *)

Lemma volumes_len v l : length (volumes v l) = length l.
Proof. unfold volumes. rewrite map_length, seq_length. reflexivity. Qed.

(** Shape of an operation that has reached the device. *)
Inductive reached : call -> Prop :=
| Reached k p f h : program k = Some p -> engine_prog p -> cb k = Some f -> ret k = 0 ->
    audit [] (now k) = Some h -> h <> [] -> told (now k) = [] ->
    (forall e, audit [] (now k ++ f e) = Some [] /\ told (now k ++ f e) = [e]) -> reached k.
Inductive refused : call -> Prop :=
| Refused k : program k = None -> audit [] (now k) = Some [] ->
    (told (now k) = [ENOMEM] /\ ret k = 0 \/ told (now k) = [] /\ ret k = ENOMEM) -> refused k.

Lemma operation_cases k : operation k -> reached k \/ refused k.
Proof.
  intros [[] [] v|[] [] v addr len|[] [] [] v addr|[] [] [] v pages];
    try (right; constructor; [reflexivity|reflexivity|cbn; auto]; fail);
    left; (eapply Reached; [reflexivity|constructor|reflexivity|reflexivity|reflexivity|discriminate|reflexivity|]);
    intros e; split; reflexivity.
Qed.

Lemma over_iff k p l c : program k = Some p -> run l (start p) = Some c -> (over k l <-> finished c).
Proof. intros HP HR. unfold over. rewrite HP, HR. reflexivity. Qed.

(** At every moment of every execution, whichever allocations fail and whatever the device does: no
    NULL pointer is called, nothing is released twice or lost; before the end the caller has been
    told nothing and something is held; at the end nothing is held, and the caller has been told
    exactly once - through the callback, or by the return value. *)
Theorem C61_once k l r : operation k -> events k l = Some r ->
  exists es held, r = Some es /\ audit [] es = Some held /\
  ((over k l /\ held = [] /\ (exists e, told es = [e] /\ ret k = 0 \/ told es = [] /\ ret k = e /\ e <> 0)) \/
   (~ over k l /\ held <> [] /\ told es = [] /\ ret k = 0)).
Proof.
  intros HO HE. destruct (operation_cases k HO) as [HR|HR].
  - destruct HR as [k p f h HP Hep Hcb Hret Ha Hh Ht Hf].
    unfold events in HE. rewrite HP, Hcb in HE. destruct (run l (start p)) as [c|] eqn:E; [|discriminate].
    pose proof (over_iff k p l c HP E) as HV.
    pose proof (finished_all_ended p l c E) as HF.
    destruct (callback_exactly_once p l c Hep E) as [[H1 H2]|(e & H1 & H2)]; rewrite H1 in HE.
    + injection HE as <-. exists (now k), h. repeat split; auto. right. repeat split; auto. tauto.
    + injection HE as <-. cbn [flat_map]. rewrite app_nil_r. destruct (Hf e) as [H3 H4].
      exists (now k ++ f e), []. repeat split; auto. left. repeat split; [tauto|]. exists e. auto.
  - destruct HR as [k HP Ha Ht]. unfold events in HE. rewrite HP in HE. destruct l; [|discriminate].
    injection HE as <-. exists (now k), []. repeat split; auto. left.
    unfold over. rewrite HP. repeat split; auto.
    destruct Ht as [[-> H]|[-> H]]; exists ENOMEM; [auto|]. right. repeat split; auto. discriminate.
Qed.

(** An error the caller is told of is the device's, or the memory's: *)
Theorem C61_error_real k l es e : operation k -> events k l = Some (Some es) -> In e (told es) -> e <> 0 ->
  device_failed k l \/ program k = None.
Proof.
  intros HO HE HI He. destruct (operation_cases k HO) as [HR|HR]; [left|right; destruct HR; auto].
  destruct HR as [k p f h HP Hep Hcb Hret Ha Hh Ht Hf].
  unfold events in HE. rewrite HP, Hcb in HE. destruct (run l (start p)) as [c|] eqn:E; [|discriminate].
  destruct (callback_exactly_once p l c Hep E) as [[H1 H2]|(x & H1 & H2)]; rewrite H1 in HE; injection HE as <-.
  - rewrite Ht in HI. destruct HI.
  - cbn [flat_map] in HI. rewrite app_nil_r in HI. destruct (Hf x) as [_ H4]. rewrite H4 in HI.
    destruct HI as [<-|[]]. exists p, c. repeat split; auto. eapply callback_error_real; eauto.
Qed.

(** and the other way round, if no two I/Os of the operation end at the same moment (with several
    pieces ending at the same moment the code can get lost, C46): *)
Theorem C61_error_told k l es : operation k -> atomic l -> over k l -> events k l = Some (Some es) ->
  device_failed k l -> exists e, told es = [e] /\ e <> 0.
Proof.
  intros HO HA HV HE (p & c & HP & HR & HF).
  destruct (operation_cases k HO) as [HQ|HQ]; [|destruct HQ; congruence].
  destruct HQ as [k p' f h HP' Hep Hcb Hret Ha Hh Ht Hf].
  assert (p' = p) by congruence. subst p'.
  unfold events in HE. rewrite HP, Hcb, HR in HE.
  destruct (callback_exactly_once p l c Hep HR) as [[H1 H2]|(x & H1 & H2)]; rewrite H1 in HE; injection HE as <-.
  - exfalso. apply H2. apply (finished_all_ended p l c HR). apply (over_iff k p l c HP HR). auto.
  - cbn [flat_map]. rewrite app_nil_r. destruct (Hf x) as [_ H4]. exists x. split; auto.
    apply (callback_error_serial p l c x Hep HA HR H1). auto.
Qed.

(** and the end is reached: until then a thread can go on, and there is a bound. *)
Theorem C61_ends k l p c : operation k -> program k = Some p -> run l (start p) = Some c ->
  (length l <= 5 * length p)%nat /\ (~ over k l -> exists e c', step e c = Some c').
Proof.
  intros HO HP HR. destruct (operation_cases k HO) as [HQ|HQ]; [|destruct HQ; congruence].
  destruct HQ as [k p' f h HP' Hep _ _ _ _ _ _]. assert (p' = p) by congruence. subst p'.
  destruct (callback_happens p l c Hep HR) as [H1 H2]. split; auto. intros HV. apply H2.
  destruct (callback_exactly_once p l c Hep HR) as [[H3 _]|(x & _ & H4)]; auto.
  exfalso. apply HV. apply (over_iff k p l c HP HR). apply (finished_all_ended p l c HR). auto.
Qed.

(** Two pieces on a device that finishes the second one first, with an error. *)
Definition two : call := discard false false (fun _ => VDev) 0 (2 ^ 32).
Definition two_run : list ev :=
  [EvSub; EvSub; EvSub; EvSub; EvBegin 1 5; EvLoad 1; EvStore 1; EvDec 1; EvSub; EvBegin 0 0; EvLoad 0; EvStore 0; EvDec 0].
Example two_case : operation two /\ events two two_run = Some (Some (taken ++ submit_end 5)) /\
  atomic two_run /\ over two two_run /\ device_failed two two_run.
Proof.
  assert (HR : run two_run (start (cache_io_req [VDev; VDev])) =
    Some {| cnt := 0; err := 5; prog := []; thr := [Fin 0; Fin 5]; calls := [5] |}) by reflexivity.
  assert (HP : program two = Some (cache_io_req [VDev; VDev])) by reflexivity.
  split; [constructor|]. split; [reflexivity|]. split; [cbn; auto|]. split.
  - unfold over. rewrite HP, HR. cbn. split; auto. repeat constructor; eexists; reflexivity.
  - exists (cache_io_req [VDev; VDev]). eexists. split; [exact HP|]. split; [exact HR|].
    exists 1%nat, 5. split; [reflexivity|discriminate].
Qed.

(** ** Writing zeros *)

(** Every execution that comes to its end calls a NULL pointer; the caller never hears of it.
    (The callback is never set, utils_io.c:109-115.) *)
Theorem C61_zeros_never_completes v addr len l r :
  events (write_zeros false false v addr len) l = Some r ->
  (over (write_zeros false false v addr len) l -> r = None) /\
  (forall es, r = Some es -> told es = []).
Proof.
  set (k := write_zeros false false v addr len). intros HE.
  pose (vs := volumes v (ios k)).
  assert (HP : program k = Some (IGet :: flat_map fwd vs ++ [IPut])) by reflexivity.
  unfold events in HE. rewrite HP in HE.
  destruct (run l (start (IGet :: flat_map fwd vs ++ [IPut]))) as [c|] eqn:E; [|discriminate].
  assert (HR : run (EvSub :: l) (start (cache_io_req vs)) = Some c) by exact E.
  change (cb k) with (@None (N -> list sev)) in HE.
  destruct (callback_exactly_once _ _ _ (EP_frag vs) HR) as [[H1 H2]|(x & H1 & H2)]; rewrite H1 in HE;
    injection HE as <-.
  - split.
    + intros HV. exfalso. apply H2. apply (finished_all_ended _ _ _ HR).
      apply (over_iff k _ l c HP E). auto.
    + intros es [= <-]. reflexivity.
  - split; [reflexivity|discriminate].
Qed.

(** So attaching an atomic device whose discards do not zero, with discard_on_start, does not
    come to an end as it should: *)
Theorem C61_zeros_refuted : exists k l,
  attach_discard true false true false false (fun _ => VDev) 4096 8192 = Some k /\
  over k l /\ events k l = Some None.
Proof.
  exists (write_zeros false false (fun _ => VDev) 4096 4096), [EvSub; EvSub; EvSub; EvBegin 0 0; EvLoad 0; EvStore 0; EvDec 0].
  split; [reflexivity|]. split; [|reflexivity].
  unfold over. cbn. split; auto. repeat constructor. eexists; reflexivity.
Qed.

(** Everywhere else the attach step is one of the operations above, over the data area exactly. *)
Theorem C61_attach_discard on_start zeroes atomic a b v moff vlen k :
  zeroes = true \/ atomic = false -> moff <= vlen -> vlen < 2 ^ 64 ->
  attach_discard on_start zeroes atomic a b v moff vlen = Some k ->
  on_start = true /\ operation k /\
  (a = false -> b = false -> forall x, touched x (ios k) = if (moff <=? x) && (x <? vlen) then 1%nat else 0%nat).
Proof.
  intros HZ Hm Hv HA. unfold attach_discard in HA.
  destruct on_start; [|discriminate]. cbn [negb] in HA.
  assert (HF : negb zeroes && atomic = false) by (destruct HZ as [->| ->]; auto using andb_false_r).
  assert (HL : u64 (vlen + 2 ^ 64 - moff) = vlen - moff).
  { unfold u64. replace (vlen + 2 ^ 64 - moff) with ((vlen - moff) + 1 * 2 ^ 64) by lia.
    rewrite N.mod_add by discriminate. apply N.mod_small. lia. }
  rewrite HF, HL in HA. injection HA as <-. split; auto. split; [constructor|].
  intros -> -> x.
  destruct (C61_discard_exact v moff (vlen - moff)) as [H1 _]; [lia|].
  rewrite H1. replace (moff + (vlen - moff)) with vlen by lia. reflexivity.
Qed.

Example attach_discard_case : exists k, attach_discard true true true false false (fun _ => VDev) 4096 (2 ^ 33) = Some k /\
  length (ios k) = 2%nat.
Proof. eexists. split; [reflexivity|]. vm_compute. reflexivity. Qed.

Print Assumptions C61_discard_exact.
Print Assumptions C61_zeros_exact.
Print Assumptions C61_one_io_each.
Print Assumptions C61_discard_pages_refuted.
Print Assumptions C61_once.
Print Assumptions C61_error_real.
Print Assumptions C61_error_told.
Print Assumptions C61_ends.
Print Assumptions C61_zeros_never_completes.
Print Assumptions C61_zeros_refuted.
Print Assumptions C61_attach_discard.

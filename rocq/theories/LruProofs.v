(** Representation of one LRU list (LruModel.v) by two Coq lists: the hot
    elements and the cold elements, head first. *)
From Coq Require Import List Bool Arith ZArith Lia.
From Verif Require Import LruModel.
Import ListNotations.
Open Scope nat_scope.

Definition hd_or (n : option nat) (L : list nat) : option nat := match L with [] => n | a :: _ => Some a end.
Fixpoint last_or (p : option nat) (L : list nat) : option nat :=
  match L with [] => p | a :: r => last_or (Some a) r end.

Fixpoint seg (m : mem) (p : option nat) (L : list nat) (n : option nat) : Prop :=
  match L with
  | [] => True
  | a :: r => prev (m a) = p /\ next (m a) = hd_or n r /\ seg m (Some a) r n
  end.

Lemma hd_or_app n L1 L2 : hd_or n (L1 ++ L2) = hd_or (hd_or n L2) L1.
Proof. destruct L1; reflexivity. Qed.
Lemma last_or_app p L1 L2 : last_or p (L1 ++ L2) = last_or (last_or p L1) L2.
Proof. revert p; induction L1; intros; cbn; auto. Qed.

Lemma seg_app m p L1 L2 n : seg m p (L1 ++ L2) n <-> seg m p L1 (hd_or n L2) /\ seg m (last_or p L1) L2 n.
Proof.
  revert p; induction L1 as [|a L1 IH]; intros p; cbn [app seg last_or].
  - tauto.
  - rewrite IH, hd_or_app. tauto.
Qed.

Lemma seg_ext m m' p L n : (forall a, In a L -> prev (m' a) = prev (m a) /\ next (m' a) = next (m a)) ->
  seg m p L n -> seg m' p L n.
Proof.
  revert p; induction L as [|a L IH]; intros p H; cbn [seg]; auto.
  intros (A & B & C). destruct (H a (or_introl eq_refl)). split; [congruence|]. split; [congruence|].
  apply IH; auto. intros x Hx. apply H. right; auto.
Qed.

Lemma last_or_in p L a : last_or p L = Some a -> L <> [] -> In a L.
Proof.
  revert p; induction L as [|b L IH]; intros p H HN; [congruence|]. cbn in H.
  destruct L as [|c L]; [left; cbn in H; congruence|right]. apply (IH (Some b)); auto. discriminate.
Qed.

Lemma upd_same m i n : upd m i n i = n.
Proof. unfold upd. rewrite Nat.eqb_refl. auto. Qed.
Lemma upd_other m i n j : j <> i -> upd m i n j = m j.
Proof. intros H. unfold upd. destruct (Nat.eqb_spec j i); congruence. Qed.

Definition LRep (m : mem) (H K : list nat) (l : lst) : Prop :=
  seg m None (H ++ K) None /\ head l = hd_or None (H ++ K) /\ tail l = last_or None (H ++ K) /\
  num_nodes l = length (H ++ K) /\ num_hot l = length H /\ last_hot l = last_or None H /\
  (forall a, In a H -> hot (m a) = true) /\ (forall a, In a K -> hot (m a) = false) /\
  NoDup (H ++ K) /\ (track_hot l = false -> H = []).

Lemma LRep_ext m m' H K l : (forall a, In a (H ++ K) -> m' a = m a) -> LRep m H K l -> LRep m' H K l.
Proof.
  intros E (A1 & A2 & A3 & A4 & A5 & A6 & A7 & A8 & A9 & A10).
  split. { eapply seg_ext; [|exact A1]. intros a Ha. rewrite E; auto. }
  split; [auto|]. split; [auto|]. split; [auto|]. split; [auto|]. split; [auto|].
  split. { intros a Ha. rewrite E; [auto|]. apply in_or_app; auto. }
  split. { intros a Ha. rewrite E; [auto|]. apply in_or_app; auto. }
  auto.
Qed.

Lemma NoDup_suffix (L1 L2 : list nat) : NoDup (L1 ++ L2) -> NoDup L2.
Proof. induction L1 as [|a L1 IH]; cbn [app]; auto. intros H. apply IH. apply NoDup_cons_iff in H as [_ H]; auto. Qed.

(** ** Adding *)
Lemma add_nobalance_rep m H K l c : LRep m H K l -> ~ In c (H ++ K) ->
  exists m' l', add_lru_head_nobalance m l c = Some (m', l') /\ track_hot l' = track_hot l /\
    (forall a, a <> c -> ~ In a (H ++ K) -> m' a = m a) /\
    LRep m' (if track_hot l && negb (length (H ++ K) =? 0) then c :: H else H)
            (if track_hot l && negb (length (H ++ K) =? 0) then K else c :: K) l'.
Proof.
  intros (A1 & A2 & A3 & A4 & A5 & A6 & A7 & A8 & A9 & A10) Hc.
  unfold add_lru_head_nobalance. rewrite A4.
  destruct (H ++ K) as [|h R] eqn:EHK.
  - apply app_eq_nil in EHK as [-> ->]. cbn [length Nat.eqb negb]. rewrite andb_false_r.
    eexists _, _. split; [reflexivity|]. split; [reflexivity|].
    split. { intros a Ha _. unfold set_prev, set_next, set_hotbit. rewrite !upd_other; auto. }
    unfold LRep. cbn.
    unfold set_prev, set_next, set_hotbit. rewrite !upd_same. cbn.
    split; [auto|]. split; [auto|]. split; [auto|]. split; [auto|]. split; [auto|]. split; [auto|].
    split; [intros ? []|]. split. { intros a [<-|[]]. rewrite !upd_same. auto. }
    split; [constructor; [intros []|constructor]|auto].
  - cbn [length Nat.eqb negb]. rewrite andb_true_r. rewrite A2. cbn [hd_or].
    assert (Hhc : h <> c) by (intros ->; apply Hc; left; auto).
    assert (Hhh : hot (m h) = match H with [] => false | _ => true end).
    { destruct H as [|h' H']; cbn [app] in EHK.
      - apply A8. rewrite EHK. left; auto.
      - injection EHK as -> _. apply A7. left; auto. }
    assert (Hseg : forall m', (forall a, In a R -> m' a = m a) -> prev (m' h) = Some c -> next (m' h) = next (m h) ->
       prev (m' c) = None -> next (m' c) = Some h -> seg m' None (c :: h :: R) None).
    { intros m' E1 E2 E3 E4 E5. cbn [seg hd_or]. destruct A1 as (B1 & B2 & B3).
      split; [auto|]. split; [auto|]. split; [auto|]. split; [congruence|].
      eapply seg_ext; [|exact B3]. intros a Ha. rewrite E1; auto. }
    assert (HR : forall a, In a R -> a <> h /\ a <> c).
    { intros a Ha. apply NoDup_cons_iff in A9 as [B _]. split; [intros ->; auto|].
      intros ->. apply Hc. right; auto. }
    destruct (track_hot l) eqn:ET.
    + eexists _, _. split; [reflexivity|]. cbn [w_head w_num_nodes w_num_hot track_hot].
      split. { destruct (negb _); auto. }
      split. { intros a Ha Hn. unfold set_prev, set_next, set_hotbit.
               rewrite !upd_other; auto; intros ->; apply Hn; left; auto. }
      set (m' := set_hotbit _ c true).
      assert (Hmh : hot (m' h) = hot (m h)).
      { unfold m', set_prev, set_next, set_hotbit. rewrite !upd_other by auto. rewrite !upd_same. cbn. rewrite !upd_other; auto. }
      assert (Hmc : m' c = {| prev := None; next := Some h; hot := true |}).
      { unfold m', set_prev, set_next, set_hotbit. rewrite upd_same. cbn.
        rewrite !(upd_other _ h _ c) by auto. rewrite !upd_same. reflexivity. }
      assert (Hmo : forall a, a <> h -> a <> c -> m' a = m a).
      { intros a H1 H2. unfold m', set_prev, set_next, set_hotbit. rewrite !upd_other; auto. }
      assert (Hph : prev (m' h) = Some c /\ next (m' h) = next (m h)).
      { unfold m', set_prev, set_next, set_hotbit. rewrite (upd_other _ c) by auto. rewrite upd_same. cbn.
        rewrite !upd_other; auto. }
      unfold LRep. cbn [app]. rewrite EHK.
      split. { apply Hseg; [intros a Ha; apply Hmo; apply HR; auto|apply Hph|apply Hph| |]; rewrite Hmc; auto. }
      split. { destruct (negb _); reflexivity. }
      split. { rewrite <- EHK. change (last_or None (c :: H ++ K)) with (last_or (Some c) (H ++ K)). rewrite EHK.
               cbn [last_or]. destruct (negb _); cbn; rewrite A3; reflexivity. }
      split. { destruct (negb _); cbn; auto. }
      split. { destruct (negb _); cbn; auto. }
      split. { rewrite Hmh, Hhh. destruct H as [|h' H']; cbn [negb]; [reflexivity|].
               cbn. rewrite A6. cbn. reflexivity. }
      split. { intros a [<-|Ha]; [rewrite Hmc; auto|].
               destruct (Nat.eq_dec a h) as [->|Hah].
               - rewrite Hmh, Hhh. destruct H; [destruct Ha|auto].
               - rewrite Hmo; auto. intros ->. apply Hc. rewrite <- EHK. apply in_or_app; auto. }
      split. { intros a Ha. destruct (Nat.eq_dec a h) as [->|Hah].
               - rewrite Hmh. auto.
               - rewrite Hmo; auto. intros ->. apply Hc. rewrite <- EHK. apply in_or_app; auto. }
      split. { constructor; auto. }
      destruct (negb _); cbn; rewrite ?ET; discriminate.
    + assert (HN : H = []) by auto. subst H. cbn [app] in *. subst K.
      eexists _, _. split; [reflexivity|]. cbn [w_head w_num_nodes track_hot]. split; [auto|].
      split. { intros a Ha Hn. unfold set_prev, set_next, set_hotbit.
               rewrite !upd_other; auto; intros ->; apply Hn; left; auto. }
      set (m' := set_prev _ h (Some c)).
      assert (Hmh : hot (m' h) = hot (m h)).
      { unfold m', set_prev, set_next, set_hotbit. rewrite upd_same. cbn. rewrite !upd_other; auto. }
      assert (Hmc : m' c = {| prev := None; next := Some h; hot := false |}).
      { unfold m', set_prev, set_next, set_hotbit.
        rewrite !(upd_other _ h _ c) by auto. rewrite !upd_same. reflexivity. }
      assert (Hmo : forall a, a <> h -> a <> c -> m' a = m a).
      { intros a H1 H2. unfold m', set_prev, set_next, set_hotbit. rewrite !upd_other; auto. }
      assert (Hph : prev (m' h) = Some c /\ next (m' h) = next (m h)).
      { unfold m', set_prev, set_next, set_hotbit. rewrite upd_same. cbn.
        rewrite !upd_other; auto. }
      unfold LRep. cbn [app].
      split. { apply Hseg; [intros a Ha; apply Hmo; apply HR; auto|apply Hph|apply Hph| |]; rewrite Hmc; auto. }
      cbn [head tail num_nodes num_hot last_hot track_hot hd_or last_or length].
      split; [auto|]. split; [exact A3|]. split; [cbn; rewrite A4; reflexivity|]. split; [exact A5|]. split; [exact A6|].
      split; [intros ? []|].
      split. { intros a [<-|Ha]; [rewrite Hmc; auto|].
               destruct (Nat.eq_dec a h) as [->|Hah]; [rewrite Hmh; auto|].
               rewrite Hmo; auto. intros ->. apply Hc. auto. }
      split; [constructor; auto|auto].
Qed.

(** ** Balancing *)
Definition bal (H K : list nat) : Prop := length H = (length H + length K) / 2.

Lemma split_last (L : list nat) : L = [] \/ exists L' a, L = L' ++ [a].
Proof. destruct L as [|x L]; [left; auto|right]. destruct (exists_last (l := x :: L)) as (L' & a & E); [discriminate|eauto]. Qed.

Lemma set_hotbit_ptr m p b a : prev (set_hotbit m p b a) = prev (m a) /\ next (set_hotbit m p b a) = next (m a).
Proof. unfold set_hotbit, upd. destruct (Nat.eqb_spec a p) as [->|]; auto. Qed.

(** The new hot and cold parts after balancing. *)
Definition rebal (H K : list nat) : list nat * list nat :=
  let t := length (H ++ K) / 2 in (firstn t (H ++ K), skipn t (H ++ K)).

Lemma balance_rep m H K l : LRep m H K l -> track_hot l = true ->
  (length H = length (H ++ K) / 2 \/ length H = S (length (H ++ K) / 2) \/ S (length H) = length (H ++ K) / 2) ->
  exists m' l' H' K', balance_lru_list m l = Some (m', l') /\ track_hot l' = true /\
    H' ++ K' = H ++ K /\ bal H' K' /\
    (forall a, ~ In a (H ++ K) -> m' a = m a) /\ LRep m' H' K' l'.
Proof.
  intros HR HT Hd. pose proof HR as (A1 & A2 & A3 & A4 & A5 & A6 & A7 & A8 & A9 & A10).
  unfold balance_lru_list. rewrite HT, A4, A5. cbn [negb]. unfold HOT_RATIO.
  remember (length (H ++ K) / 2) as t eqn:Et.
  assert (Hext : forall p b a, a <> p -> set_hotbit m p b a = m a).
  { intros p b a Ha. unfold set_hotbit. apply upd_other; auto. }
  assert (Hsame : forall p b, hot (set_hotbit m p b p) = b).
  { intros p b. unfold set_hotbit. rewrite upd_same. auto. }
  destruct Hd as [Hd|[Hd|Hd]].
  - (* no change *)
    rewrite <- Hd. rewrite Z.sub_diag. cbn [balance_update_last_hot Z.ltb Z.compare].
    exists m, (w_num_hot l (length H)), H, K. split; [reflexivity|]. split; [auto|]. split; [auto|].
    split. { unfold bal. rewrite <- app_length. congruence. }
    split; [auto|]. unfold LRep; cbn. auto 12.
  - (* one element leaves the hot part *)
    destruct (split_last H) as [->|(H' & y & ->)]; [cbn in Hd; lia|].
    rewrite app_length in Hd. cbn [length] in Hd.
    replace (Z.of_nat t - Z.of_nat (length (H' ++ [y])))%Z with (-1)%Z by (rewrite app_length; cbn [length]; lia).
    cbn [balance_update_last_hot w_num_hot last_hot Z.ltb Z.compare Z.eqb Pos.eqb negb Z.leb].
    rewrite A6, last_or_app. cbn [last_or].
    eexists _, _, H', (y :: K). split; [reflexivity|]. split; [auto|].
    split; [rewrite <- app_assoc; reflexivity|].
    assert (EL : (H' ++ [y]) ++ K = H' ++ y :: K) by (rewrite <- app_assoc; reflexivity).
    rewrite EL in *.
    split. { unfold bal. rewrite <- app_length, <- Et. lia. }
    split. { intros a Ha. apply Hext. intros ->. apply Ha. apply in_or_app; right; left; auto. }
    pose proof A1 as S1. apply seg_app in S1 as [S1 S2]. destruct S2 as (S2 & S3 & S4).
    unfold LRep. cbn [w_last_hot w_num_hot head tail num_nodes num_hot last_hot track_hot].
    split. { eapply seg_ext; [|exact A1]. intros a _. apply set_hotbit_ptr. }
    split; [auto|]. split; [auto|]. split; [auto|]. split; [lia|]. split; [auto|].
    assert (HN : ~ In y (H' ++ K)) by (apply NoDup_remove_2; auto).
    split. { intros a Ha. rewrite Hext; [apply A7; apply in_or_app; auto|].
             intros ->. apply HN, in_or_app; auto. }
    split. { intros a [<-|Ha]; [apply Hsame|]. rewrite Hext; [auto|].
             intros ->. apply HN, in_or_app; auto. }
    split; [auto|]. rewrite HT. discriminate.
  - (* one element enters it *)
    assert (HK : K <> []).
    { intros ->. rewrite app_nil_r in *. assert (t <= length H) by (rewrite Et; apply Nat.div_le_upper_bound; lia). lia. }
    destruct K as [|y K']; [congruence|].
    replace (Z.of_nat t - Z.of_nat (length H))%Z with 1%Z by lia.
    cbn [balance_update_last_hot w_num_hot last_hot Z.ltb Z.compare Z.eqb Pos.eqb negb Z.leb].
    assert (EL : (H ++ [y]) ++ K' = H ++ y :: K') by (rewrite <- app_assoc; reflexivity).
    assert (HN : ~ In y (H ++ K')) by (apply NoDup_remove_2; auto).
    assert (Hres : exists m' l', Some (set_hotbit m y true, w_last_hot (w_num_hot l t) (Some y)) = Some (m', l') /\
        track_hot l' = true /\ (H ++ [y]) ++ K' = H ++ y :: K' /\ bal (H ++ [y]) K' /\
        (forall a, ~ In a (H ++ y :: K') -> m' a = m a) /\ LRep m' (H ++ [y]) K' l').
    { eexists _, _. split; [reflexivity|]. split; [auto|]. split; [auto|].
      split. { unfold bal. rewrite <- app_length, EL, <- Et.
               rewrite app_length. cbn [length]. lia. }
      split. { intros a Ha. apply Hext. intros ->. apply Ha. apply in_or_app; right; left; auto. }
      unfold LRep. rewrite EL. cbn [w_last_hot w_num_hot head tail num_nodes num_hot last_hot track_hot].
      split. { eapply seg_ext; [|exact A1]. intros a _. apply set_hotbit_ptr. }
      split; [auto|]. split; [auto|]. split; [auto|]. split; [rewrite app_length; cbn [length]; lia|].
      split; [rewrite last_or_app; auto|].
      split. { intros a Ha. apply in_app_or in Ha as [Ha|[<-|[]]]; [|apply Hsame].
               rewrite Hext; [auto|]. intros ->. apply HN, in_or_app; auto. }
      split. { intros a Ha. rewrite Hext; [apply A8; right; auto|]. intros ->. apply HN, in_or_app; auto. }
      split; [auto|]. rewrite HT. discriminate. }
    destruct (split_last H) as [->|(H0 & h & EH)].
    + rewrite A6. cbn [last_or w_num_hot head]. rewrite A2. cbn [app hd_or]. 
      destruct Hres as (m' & l' & R1 & R2 & R3 & R4 & R5 & R6).
      exists m', l', ([] ++ [y]), K'. auto 10.
    + assert (Hn : next (m h) = Some y).
      { rewrite EH in A1. rewrite <- app_assoc in A1. apply seg_app in A1 as [_ (_ & B & _)]. exact B. }
      assert (Hlh : last_hot l = Some h) by (rewrite A6, EH, last_or_app; reflexivity).
      rewrite Hlh, Hn. cbn [is_end opt_eqb].
      destruct Hres as (m' & l' & R1 & R2 & R3 & R4 & R5 & R6).
      exists m', l', (H ++ [y]), K'. auto 10.
Qed.

Lemma balance_untracked m H K l : LRep m H K l -> track_hot l = false -> balance_lru_list m l = Some (m, l).
Proof. intros _ HT. unfold balance_lru_list. rewrite HT. reflexivity. Qed.

(** ** Removing *)
Lemma set_prev_ptr m i p a :
  prev (set_prev m i p a) = (if a =? i then p else prev (m a)) /\
  next (set_prev m i p a) = next (m a) /\ hot (set_prev m i p a) = hot (m a).
Proof. unfold set_prev, upd. destruct (Nat.eqb_spec a i) as [->|]; auto. Qed.
Lemma set_next_ptr m i p a :
  next (set_next m i p a) = (if a =? i then p else next (m a)) /\
  prev (set_next m i p a) = prev (m a) /\ hot (set_next m i p a) = hot (m a).
Proof. unfold set_next, upd. destruct (Nat.eqb_spec a i) as [->|]; auto. Qed.

(** The pointer part, for any list. *)
Lemma remove_ptrs m l L1 c L2 :
  seg m None (L1 ++ c :: L2) None -> NoDup (L1 ++ c :: L2) ->
  head l = hd_or None (L1 ++ c :: L2) -> tail l = last_or None (L1 ++ c :: L2) ->
  exists m' l', remove_update_ptrs m l c = Some (m', if opt_eqb (last_hot l) (Some c) then w_last_hot l' (prev (m c)) else l') /\
    prev (m c) = last_or None L1 /\ next (m c) = hd_or None L2 /\
    seg m' None (L1 ++ L2) None /\ head l' = hd_or None (L1 ++ L2) /\ tail l' = last_or None (L1 ++ L2) /\
    (forall a, hot (m' a) = hot (m a)) /\ (forall a, ~ In a (L1 ++ L2) -> m' a = m a) /\
    num_nodes l' = num_nodes l /\ num_hot l' = num_hot l /\ last_hot l' = last_hot l /\ track_hot l' = track_hot l.
Proof.
  intros S ND Hh Ht. pose proof S as S0. apply seg_app in S0 as [S1 (S2 & S3 & S4)].
  assert (HN : ~ In c (L1 ++ L2)) by (apply NoDup_remove_2; auto).
  assert (ND' : NoDup (L1 ++ L2)) by (eapply NoDup_remove_1; eauto).
  unfold remove_update_ptrs. rewrite S2, S3.
  destruct (split_last L1) as [->|(L1' & a & ->)], L2 as [|b L2']; cbn [hd_or app] in *.
  - cbn [last_or]. eexists m, _. split; [reflexivity|]. cbn. auto 15.
  - cbn [last_or] in *. eexists (set_prev m b None), _. split; [reflexivity|]. split; [auto|]. split; [auto|].
    destruct S4 as (S5 & S6 & S7).
    split. { cbn [seg]. split; [|rewrite (proj1 (proj2 (set_prev_ptr m b None b)))].
             - rewrite (proj1 (set_prev_ptr _ _ _ _)), Nat.eqb_refl; auto.
             - split; auto. eapply seg_ext; [|exact S7]. intros z Hz.
               destruct (set_prev_ptr m b None z) as (E1 & E2 & _). rewrite E1, E2. split; auto.
               destruct (Nat.eqb_spec z b) as [->|]; auto. apply NoDup_cons_iff in ND' as [X _]. contradiction. }
    cbn. split; [auto|]. split; [auto|]. split; [intros z; apply set_prev_ptr|].
    split; [|auto]. intros z Hz. unfold set_prev. apply upd_other. intros ->. apply Hz. left; auto.
  - rewrite last_or_app in *. cbn [last_or] in *. rewrite app_nil_r in *.
    eexists (set_next m a None), _. split; [reflexivity|]. split; [auto|]. split; [auto|].
    apply seg_app in S1 as [S1 (S5 & S6 & _)]. cbn [hd_or] in S6, S1.
    split. { apply seg_app. cbn [seg hd_or]. split; [|split; [|split; auto]].
             - eapply seg_ext; [|exact S1]. intros z Hz.
               destruct (set_next_ptr m a None z) as (E1 & E2 & _). rewrite E1, E2. split; auto.
               destruct (Nat.eqb_spec z a) as [->|]; auto. exfalso.
               apply NoDup_remove_2 in ND'. apply ND'. rewrite app_nil_r. auto.
             - destruct (set_next_ptr m a None a) as (E1 & E2 & _). rewrite E2. auto.
             - destruct (set_next_ptr m a None a) as (E1 & E2 & _). rewrite E1, Nat.eqb_refl. auto. }
    cbn [w_tail head tail num_nodes num_hot last_hot track_hot].
    split. { rewrite Hh, !hd_or_app. cbn. destruct L1'; reflexivity. }
    split. { rewrite last_or_app; auto. }
    split; [intros z; apply set_next_ptr|].
    split; [|auto]. intros z Hz. unfold set_next. apply upd_other. intros ->. apply Hz. apply in_or_app; right; left; auto.
  - rewrite last_or_app in *. cbn [last_or] in *. destruct S4 as (S5 & S6 & S7).
    apply seg_app in S1 as [S1 (T5 & T6 & _)]. cbn [hd_or] in T6, S1.
    rewrite <- app_assoc in ND', HN. cbn [app] in ND', HN.
    assert (Hab : a <> b).
    { intros ->. apply NoDup_remove_2 in ND'. apply ND'. apply in_or_app; right; left; auto. }
    eexists (set_prev (set_next m a (Some b)) b (Some a)), _. split; [reflexivity|]. split; [auto|]. split; [auto|].
    assert (E : forall z, prev (set_prev (set_next m a (Some b)) b (Some a) z) = (if z =? b then Some a else prev (m z)) /\
       next (set_prev (set_next m a (Some b)) b (Some a) z) = (if z =? a then Some b else next (m z)) /\
       hot (set_prev (set_next m a (Some b)) b (Some a) z) = hot (m z)).
    { intros z. destruct (set_prev_ptr (set_next m a (Some b)) b (Some a) z) as (E1 & E2 & E3).
      destruct (set_next_ptr m a (Some b) z) as (E4 & E5 & E6).
      rewrite E1, E2, E3, E4, E5, E6. auto. }
    split. { rewrite <- app_assoc. apply seg_app. cbn [app seg hd_or].
             split; [|split; [|split; [|split; [|split]]]].
             - eapply seg_ext; [|exact S1]. intros z Hz. destruct (E z) as (E1 & E2 & _). rewrite E1, E2.
               destruct (Nat.eqb_spec z b) as [->|].
               { exfalso. apply (NoDup_remove_2 (L1' ++ [a]) L2' b); rewrite <- app_assoc; auto.
                 apply in_or_app; auto. }
               destruct (Nat.eqb_spec z a) as [->|]; auto.
               exfalso. apply NoDup_remove_2 in ND'. apply ND'. apply in_or_app; auto.
             - destruct (E a) as (E1 & _). rewrite E1. destruct (Nat.eqb_spec a b); [congruence|auto].
             - destruct (E a) as (_ & E1 & _). rewrite E1, Nat.eqb_refl; auto.
             - destruct (E b) as (E1 & _). rewrite E1, Nat.eqb_refl; auto.
             - destruct (E b) as (_ & E1 & _). rewrite E1. destruct (Nat.eqb_spec b a); [congruence|auto].
             - eapply seg_ext; [|exact S7]. intros z Hz. destruct (E z) as (E1 & E2 & _). rewrite E1, E2.
               assert (Q : NoDup (a :: b :: L2')) by (apply (NoDup_suffix L1'); auto).
               apply NoDup_cons_iff in Q as [Q1 Q2]. apply NoDup_cons_iff in Q2 as [Q2 Q3].
               destruct (Nat.eqb_spec z b) as [->|]; [contradiction|].
               destruct (Nat.eqb_spec z a) as [->|]; [exfalso; apply Q1; right; auto|auto]. }
    split. { rewrite Hh, !hd_or_app. destruct L1'; reflexivity. }
    split. { rewrite Ht, !last_or_app. reflexivity. }
    split; [intros z; apply E|].
    split; [|auto]. intros z Hz. unfold set_prev, set_next. rewrite !upd_other; auto; intros ->; apply Hz; rewrite <- app_assoc; apply in_or_app; right; cbn; auto.
Qed.

Lemma last_or_not p L c : ~ In c L -> p <> Some c -> last_or p L <> Some c.
Proof.
  revert p; induction L as [|a L IH]; intros p Hn Hp; cbn; auto.
  apply IH; [intros H; apply Hn; right; auto|]. intros [= ->]. apply Hn; left; auto.
Qed.

Lemma opt_eqb_spec a b : reflect (a = b) (opt_eqb a b).
Proof.
  destruct a as [x|], b as [y|]; cbn; try (constructor; congruence).
  destruct (Nat.eqb_spec x y); constructor; congruence.
Qed.

(** Splitting [c] off the hot or the cold part. *)
Inductive cut (c : nat) : list nat -> list nat -> list nat -> list nat -> Prop :=
| cut_hot H1 H2 K : cut c (H1 ++ c :: H2) K (H1 ++ H2) K
| cut_cold H K1 K2 : cut c H (K1 ++ c :: K2) H (K1 ++ K2).

Lemma cut_exists c H K : In c (H ++ K) -> exists H' K', cut c H K H' K'.
Proof.
  intros Hi. apply in_app_or in Hi as [Hi|Hi]; apply in_split in Hi as (A & B & ->);
    eexists _, _; constructor.
Qed.

Lemma cut_app c H K H' K' : cut c H K H' K' -> exists L1 L2, H ++ K = L1 ++ c :: L2 /\ H' ++ K' = L1 ++ L2.
Proof.
  intros [H1 H2 K0|H0 K1 K2].
  - exists H1, (H2 ++ K0). rewrite <- !app_assoc. auto.
  - exists (H0 ++ K1), K2. rewrite <- !app_assoc. auto.
Qed.

Lemma remove_nobalance_rep m H K l c H' K' : LRep m H K l -> cut c H K H' K' ->
  exists m' l', remove_lru_list_nobalance m l c = Some (m', l') /\ track_hot l' = track_hot l /\
    (forall a, ~ In a (H ++ K) -> m' a = m a) /\
    m' c = {| prev := None; next := None; hot := false |} /\ LRep m' H' K' l'.
Proof.
  intros (A1 & A2 & A3 & A4 & A5 & A6 & A7 & A8 & A9 & A10) HC.
  destruct (cut_app _ _ _ _ _ HC) as (L1 & L2 & E1 & E2). rewrite E1 in *.
  destruct (remove_ptrs m l L1 c L2 A1 A9 A2 A3) as (m' & l' & R & P1 & P2 & P3 & P4 & P5 & P6 & P7 & P8 & P9 & P10 & P11).
  assert (HN : ~ In c (L1 ++ L2)) by (apply NoDup_remove_2; auto).
  assert (ND' : NoDup (L1 ++ L2)) by (eapply NoDup_remove_1; eauto).
  unfold remove_lru_list_nobalance.
  assert (HH : opt_eqb (head l) (Some c) = is_end (prev (m c))).
  { rewrite A2, P1, hd_or_app. cbn [hd_or]. unfold is_end. destruct L1 as [|x L1]; cbn [hd_or last_or].
    - cbn. apply Nat.eqb_refl.
    - destruct (opt_eqb_spec (Some x) (Some c)) as [[= ->]|_]; [exfalso; apply HN; left; auto|].
      destruct (opt_eqb_spec (last_or (Some x) L1) None) as [E|]; auto.
      exfalso. clear -E. revert x E; induction L1 as [|y L IH]; cbn; intros x E; [discriminate|]. exact (IH y E). }
  assert (HT : opt_eqb (tail l) (Some c) = is_end (next (m c))).
  { rewrite A3, P2, last_or_app. cbn [last_or]. unfold is_end. destruct L2 as [|x L2]; cbn [hd_or].
    - cbn. apply Nat.eqb_refl.
    - cbn [last_or opt_eqb]. destruct (opt_eqb_spec (last_or (Some x) L2) (Some c)) as [E|]; auto. exfalso.
      revert E. apply last_or_not.
      + intros Hi; apply HN, in_or_app; right; right; auto.
      + intros [= ->]. apply HN, in_or_app; right; left; auto. }
  rewrite HH, HT.
  assert (Hb : forall b, Bool.eqb b (negb b) = false) by (intros []; auto). rewrite !Hb. rewrite R.
  set (l1 := if opt_eqb (last_hot l) (Some c) then w_last_hot l' (prev (m c)) else l') in *.
  assert (Q1 : num_nodes l1 = num_nodes l) by (unfold l1; destruct (opt_eqb _ _); auto).
  assert (Q2 : num_hot l1 = num_hot l) by (unfold l1; destruct (opt_eqb _ _); auto).
  assert (Q3 : head l1 = head l') by (unfold l1; destruct (opt_eqb _ _); auto).
  assert (Q4 : tail l1 = tail l') by (unfold l1; destruct (opt_eqb _ _); auto).
  assert (Q5 : track_hot l1 = track_hot l) by (unfold l1; destruct (opt_eqb _ _); auto).
  assert (Q6 : last_hot l1 = last_or None H').
  { unfold l1. rewrite A6, P1.
    destruct HC as [H1 H2 K0|H0 K1 K2].
    - rewrite <- app_assoc in E1. cbn [app] in E1.
      assert (EL : L1 = H1).
      { clear -E1 A9 E2 HN. revert L1 A9 E1 HN E2. induction H1 as [|x H1 IH]; intros [|y L1] ND E HN E2; cbn in *; auto.
        - injection E as -> _. exfalso. apply HN. left; auto.
        - injection E as -> E. exfalso. apply NoDup_cons_iff in ND as [X _]. apply X. rewrite <- E. apply in_or_app; right; left; auto.
        - injection E as -> E. f_equal. apply IH; auto.
          + apply NoDup_cons_iff in ND as [_ ND]; auto.
          + injection E2; auto. }
      subst L1. rewrite !last_or_app. cbn [last_or].
      destruct H2 as [|x H2].
      + cbn. rewrite Nat.eqb_refl. cbn. reflexivity.
      + cbn [last_or]. destruct (opt_eqb_spec (last_or (Some x) H2) (Some c)) as [E|_]; [|rewrite P10, A6, last_or_app; reflexivity].
        exfalso. revert E. apply last_or_not.
        * intros Hi; apply HN. rewrite <- E2, <- app_assoc. apply in_or_app; right. cbn. right. apply in_or_app; auto.
        * intros [= ->]. apply HN. rewrite <- E2, <- app_assoc. apply in_or_app; right; left; auto.
    - destruct (opt_eqb_spec (last_or None H0) (Some c)) as [E|_]; [|congruence].
      exfalso. revert E. apply last_or_not; [|discriminate].
      intros Hi. apply HN. rewrite <- E2. apply in_or_app; auto. }
  rewrite Q1, A4, app_length. cbn [length]. rewrite Nat.add_succ_r.
  cbn [w_num_nodes num_hot]. rewrite P6, Q2, A5.
  set (m2 := upd m' c _).
  assert (Hfin : forall l2, num_nodes l2 = length L1 + length L2 -> num_hot l2 = length H' -> head l2 = head l1 ->
     tail l2 = tail l1 -> last_hot l2 = last_hot l1 -> track_hot l2 = track_hot l1 ->
     exists m0 l0, Some (m2, l2) = Some (m0, l0) /\ track_hot l0 = track_hot l /\
       (forall a, ~ In a (L1 ++ c :: L2) -> m0 a = m a) /\
       m0 c = {| prev := None; next := None; hot := false |} /\ LRep m0 H' K' l0).
  { intros l2 F1 F2 F3 F4 F5 F6. exists m2, l2. split; [auto|]. split; [congruence|].
    split. { intros a Ha. unfold m2. rewrite upd_other.
             - apply P7. intros Hi. apply Ha. apply in_app_or in Hi as [?|?]; apply in_or_app; [auto|right; right; auto].
             - intros ->. apply Ha. apply in_or_app; right; left; auto. }
    split; [unfold m2; apply upd_same|].
    assert (Hm : forall a, In a (H' ++ K') -> m2 a = m' a).
    { intros a Ha. unfold m2. apply upd_other. intros ->. apply HN. rewrite <- E2. auto. }
    assert (Hsub : (forall a, In a H' -> In a H) /\ (forall a, In a K' -> In a K)).
    { clear -HC. destruct HC; split; auto; intros a Ha; apply in_app_or in Ha as [?|?]; apply in_or_app; auto; right; right; auto. }
    unfold LRep. rewrite E2.
    split. { eapply seg_ext; [|exact P3]. intros a Ha. rewrite Hm; [auto|rewrite E2; auto]. }
    split; [congruence|]. split; [congruence|]. split; [rewrite app_length; auto|]. split; [auto|]. split; [congruence|].
    split. { intros a Ha. rewrite Hm by (apply in_or_app; auto). rewrite P6. apply A7, Hsub; auto. }
    split. { intros a Ha. rewrite Hm by (apply in_or_app; auto). rewrite P6. apply A8, Hsub; auto. }
    split; [auto|]. intros Ht. rewrite F6, Q5 in Ht. specialize (A10 Ht). subst H.
    destruct H' as [|x H'']; auto. destruct (proj1 Hsub x (or_introl eq_refl)). }
  destruct HC as [H1 H2 K0|H0 K1 K2].
  - rewrite (A7 c) by (apply in_or_app; right; left; auto).
    rewrite app_length. cbn [length]. rewrite Nat.add_succ_r. apply Hfin; auto.
    cbn. rewrite app_length. auto.
  - rewrite (A8 c) by (apply in_or_app; right; left; auto). apply Hfin; auto.
    cbn. congruence.
Qed.

(** ** The list operations *)

(** A balanced list with the elements [L], head first. *)
Definition Bal (m : mem) (L : list nat) (l : lst) : Prop :=
  exists H K, LRep m H K l /\ L = H ++ K /\ (track_hot l = true -> bal H K).

Lemma Bal_ext m m' L l : (forall a, In a L -> m' a = m a) -> Bal m L l -> Bal m' L l.
Proof. intros E (H & K & A & -> & B). exists H, K. split; auto. eapply LRep_ext; eauto. Qed.

Lemma div2_S n : S n / 2 = n / 2 \/ S n / 2 = S (n / 2).
Proof.
  pose proof (Nat.div_mod_eq n 2). pose proof (Nat.div_mod_eq (S n) 2).
  pose proof (Nat.mod_upper_bound n 2). pose proof (Nat.mod_upper_bound (S n) 2). lia.
Qed.
Lemma div2_pos n : n <> 0 -> 1 <= S n / 2.
Proof. intros H. apply Nat.div_le_lower_bound; lia. Qed.

Lemma rebalance m H K l : LRep m H K l ->
  (track_hot l = true -> length H = length (H ++ K) / 2 \/ length H = S (length (H ++ K) / 2) \/ S (length H) = length (H ++ K) / 2) ->
  exists m' l', balance_lru_list m l = Some (m', l') /\ track_hot l' = track_hot l /\
    (forall a, ~ In a (H ++ K) -> m' a = m a) /\ Bal m' (H ++ K) l'.
Proof.
  intros HR Hd. destruct (track_hot l) eqn:HT.
  - destruct (balance_rep m H K l HR HT (Hd eq_refl)) as (m' & l' & H' & K' & B1 & B2 & B3 & B4 & B5 & B6).
    exists m', l'. split; [auto|]. split; [auto|]. split; [auto|]. exists H', K'. auto.
  - exists m, l. split; [eapply balance_untracked; eauto|]. split; [auto|]. split; [auto|].
    exists H, K. split; [auto|]. split; [auto|]. rewrite HT. discriminate.
Qed.

Lemma add_head_bal m L l c : Bal m L l -> ~ In c L ->
  exists m' l', add_lru_head m l c = Some (m', l') /\ track_hot l' = track_hot l /\
    (forall a, a <> c -> ~ In a L -> m' a = m a) /\ Bal m' (c :: L) l'.
Proof.
  intros (H & K & HR & -> & HB) Hc.
  destruct (add_nobalance_rep m H K l c HR Hc) as (m1 & l1 & A1 & A2 & A3 & A4).
  unfold add_lru_head. rewrite A1.
  destruct (track_hot l && negb (length (H ++ K) =? 0)) eqn:E.
  - apply andb_true_iff in E as [E1 E2]. apply negb_true_iff, Nat.eqb_neq in E2.
    destruct (rebalance m1 (c :: H) K l1 A4) as (m2 & l2 & B1 & B2 & B3 & B4).
    { intros _. specialize (HB E1). unfold bal in HB. rewrite <- app_length in HB.
      cbn [app length]. rewrite HB. pose proof (div2_S (length (H ++ K))). lia. }
    exists m2, l2. split; [auto|]. split; [congruence|]. split; [|auto].
    intros a Ha Hn. rewrite B3; [auto|]. intros [->|Hi]; auto.
  - assert (EH : H = []).
    { destruct (track_hot l) eqn:ET; cbn in E.
      - apply negb_false_iff, Nat.eqb_eq, length_zero_iff_nil, app_eq_nil in E as [-> _]; auto.
      - destruct HR as (_ & _ & _ & _ & _ & _ & _ & _ & _ & X). auto. }
    subst H.
    destruct (rebalance m1 [] (c :: K) l1 A4) as (m2 & l2 & B1 & B2 & B3 & B4).
    { intros HT. rewrite A2 in HT. rewrite HT in E. cbn in E.
      apply negb_false_iff, Nat.eqb_eq, length_zero_iff_nil in E as ->. cbn. auto. }
    exists m2, l2. split; [auto|]. split; [congruence|]. split; [|auto].
    intros a Ha Hn. rewrite B3; [auto|]. intros [->|Hi]; auto.
Qed.

(** Without balancing, for the untracked free list. *)
Lemma add_head_free m L l c : Bal m L l -> track_hot l = false -> ~ In c L ->
  exists m' l', add_lru_head_nobalance m l c = Some (m', l') /\ track_hot l' = track_hot l /\
    (forall a, a <> c -> ~ In a L -> m' a = m a) /\ Bal m' (c :: L) l'.
Proof.
  intros (H & K & HR & -> & HB) HT Hc.
  destruct (add_nobalance_rep m H K l c HR Hc) as (m1 & l1 & A1 & A2 & A3 & A4).
  exists m1, l1. split; [auto|]. split; [auto|]. split; [auto|].
  rewrite HT in A4. cbn in A4. destruct HR as (_ & _ & _ & _ & _ & _ & _ & _ & _ & X). rewrite (X HT) in *.
  exists [], (c :: K). split; [auto|]. split; [auto|]. rewrite A2, HT. discriminate.
Qed.

Lemma remove_bal m l L1 c L2 : Bal m (L1 ++ c :: L2) l ->
  exists m' l', lru_remove m l c = Some (m', l') /\ track_hot l' = track_hot l /\
    (forall a, ~ In a (L1 ++ c :: L2) -> m' a = m a) /\ Bal m' (L1 ++ L2) l' /\ hot (m' c) = false.
Proof.
  intros (H & K & HR & E & HB).
  assert (ND : NoDup (L1 ++ c :: L2)) by (rewrite E; apply HR).
  assert (HN : ~ In c (L1 ++ L2)) by (apply NoDup_remove_2; auto).
  destruct (cut_exists c H K) as (H' & K' & HC); [rewrite <- E; apply in_or_app; right; left; auto|].
  destruct (remove_nobalance_rep m H K l c H' K' HR HC) as (m1 & l1 & A1 & A2 & A3 & A4 & A5).
  assert (E' : H' ++ K' = L1 ++ L2).
  { destruct (cut_app _ _ _ _ _ HC) as (M1 & M2 & F1 & F2). rewrite F2. rewrite F1 in E. clear -E ND.
    revert M1 E ND; induction L1 as [|x L1 IH]; intros [|y M1] E ND; cbn in *.
    - injection E; auto.
    - injection E as -> E. apply NoDup_cons_iff in ND as [X _]. exfalso. apply X. rewrite E. apply in_or_app; right; left; auto.
    - injection E as -> E. apply NoDup_cons_iff in ND as [X _]. exfalso. apply X. apply in_or_app; right; left; auto.
    - injection E as -> E. f_equal. apply IH; auto. apply NoDup_cons_iff in ND as [_ ND]; auto. }
  unfold lru_remove. rewrite A1.
  destruct (rebalance m1 H' K' l1 A5) as (m2 & l2 & B1 & B2 & B3 & B4).
  { intros HT. rewrite A2 in HT. specialize (HB HT). unfold bal in HB. rewrite <- app_length in HB.
    assert (EL : length (H ++ K) = S (length (H' ++ K'))).
    { rewrite E', <- E, !app_length. cbn [length]. lia. }
    rewrite EL in HB. pose proof (div2_S (length (H' ++ K'))) as Hdv.
    destruct HC as [H1 H2 K0|H0 K1 K2].
    - rewrite !app_length in HB. cbn [length] in HB. rewrite !app_length in *. lia.
    - lia. }
  exists m2, l2. split; [auto|]. split; [congruence|].
  split. { intros a Ha. rewrite B3, A3; auto.
           - rewrite <- E. auto.
           - rewrite E'. intros Hi. apply Ha. apply in_app_or in Hi as [?|?]; apply in_or_app; [auto|right; right; auto]. }
  split; [rewrite <- E'; auto|]. rewrite B3, A4; auto. rewrite E'. auto.
Qed.

Lemma set_hot_bal m l L1 c L2 : Bal m (L1 ++ c :: L2) l ->
  exists m' l', lru_set_hot m l c = Some (m', l') /\ track_hot l' = track_hot l /\
    (forall a, ~ In a (L1 ++ c :: L2) -> m' a = m a) /\ Bal m' (c :: L1 ++ L2) l'.
Proof.
  intros (H & K & HR & E & HB).
  assert (ND : NoDup (L1 ++ c :: L2)) by (rewrite E; apply HR).
  assert (HN : ~ In c (L1 ++ L2)) by (apply NoDup_remove_2; auto).
  destruct (cut_exists c H K) as (H' & K' & HC); [rewrite <- E; apply in_or_app; right; left; auto|].
  destruct (remove_nobalance_rep m H K l c H' K' HR HC) as (m1 & l1 & A1 & A2 & A3 & A4 & A5).
  assert (E' : H' ++ K' = L1 ++ L2).
  { destruct (cut_app _ _ _ _ _ HC) as (M1 & M2 & F1 & F2). rewrite F2. rewrite F1 in E. clear -E ND.
    revert M1 E ND; induction L1 as [|x L1 IH]; intros [|y M1] E ND; cbn in *.
    - injection E; auto.
    - injection E as -> E. apply NoDup_cons_iff in ND as [X _]. exfalso. apply X. rewrite E. apply in_or_app; right; left; auto.
    - injection E as -> E. apply NoDup_cons_iff in ND as [X _]. exfalso. apply X. apply in_or_app; right; left; auto.
    - injection E as -> E. f_equal. apply IH; auto. apply NoDup_cons_iff in ND as [_ ND]; auto. }
  unfold lru_set_hot. rewrite A1.
  destruct (add_nobalance_rep m1 H' K' l1 c A5) as (m2 & l2 & B1 & B2 & B3 & B4); [rewrite E'; auto|].
  rewrite B1.
  assert (EL : length (H ++ K) = S (length (H' ++ K'))).
  { rewrite E', <- E, !app_length. cbn [length]. lia. }
  assert (HH : length H = length H' \/ length H = S (length H')).
  { clear -HC. destruct HC; [right|left; auto]. rewrite !app_length. cbn [length]. lia. }
  assert (Hfr : forall m3, (forall a, a <> c -> ~ In a (H' ++ K') -> m3 a = m2 a) ->
     forall a, ~ In a (L1 ++ c :: L2) -> m3 a = m a).
  { intros m3 F a Ha.
    assert (X1 : a <> c) by (intros ->; apply Ha; apply in_or_app; right; left; auto).
    assert (X2 : ~ In a (H' ++ K')).
    { rewrite E'. intros Hi. apply Ha. apply in_app_or in Hi as [?|?]; apply in_or_app; [auto|right; right; auto]. }
    rewrite F, B3, A3; auto. rewrite <- E; auto. }
  destruct (track_hot l1 && negb (length (H' ++ K') =? 0)) eqn:ET.
  - apply andb_true_iff in ET as [ET1 ET2]. apply negb_true_iff, Nat.eqb_neq in ET2.
    destruct (rebalance m2 (c :: H') K' l2 B4) as (m3 & l3 & C1 & C2 & C3 & C4).
    { intros _. rewrite A2 in ET1. specialize (HB ET1). unfold bal in HB. rewrite <- app_length in HB.
      cbn [app length]. rewrite <- EL, <- HB. lia. }
    exists m3, l3. split; [auto|]. split; [congruence|].
    split. { apply Hfr. intros a Ha Hn. apply C3. intros [->|Hi]; auto. }
    rewrite <- E'. auto.
  - assert (EH : H' = []).
    { destruct (track_hot l1) eqn:EX; cbn in ET.
      - apply negb_false_iff, Nat.eqb_eq, length_zero_iff_nil, app_eq_nil in ET as [-> _]; auto.
      - destruct A5 as (_ & _ & _ & _ & _ & _ & _ & _ & _ & X). auto. }
    subst H'.
    destruct (rebalance m2 [] (c :: K') l2 B4) as (m3 & l3 & C1 & C2 & C3 & C4).
    { intros HT. rewrite B2 in HT. rewrite HT in ET. cbn in ET.
      apply negb_false_iff, Nat.eqb_eq, length_zero_iff_nil in ET as ->. cbn. auto. }
    exists m3, l3. split; [auto|]. split; [congruence|].
    split. { apply Hfr. intros a Ha Hn. apply C3. intros [->|Hi]; auto. }
    rewrite <- E'. auto.
Qed.

(** Reading a balanced list. *)
Lemma Bal_facts m L l : Bal m L l ->
  NoDup L /\ head l = hd_or None L /\ tail l = last_or None L /\ num_nodes l = length L /\ seg m None L None /\
  (track_hot l = true -> num_hot l = length L / 2 /\
     (forall a, In a (firstn (length L / 2) L) -> hot (m a) = true) /\
     (forall a, In a (skipn (length L / 2) L) -> hot (m a) = false)) /\
  (track_hot l = false -> forall a, In a L -> hot (m a) = false).
Proof.
  intros (H & K & (A1 & A2 & A3 & A4 & A5 & A6 & A7 & A8 & A9 & A10) & -> & HB).
  split; [auto|]. split; [auto|]. split; [auto|]. split; [auto|]. split; [auto|]. split.
  - intros HT. specialize (HB HT). unfold bal in HB. rewrite <- app_length in HB. rewrite <- HB.
    rewrite firstn_app, skipn_app, Nat.sub_diag, firstn_all, skipn_all. cbn. rewrite app_nil_r. auto.
  - intros HT. rewrite (A10 HT). cbn. auto.
Qed.

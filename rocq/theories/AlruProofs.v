(** Lists of the ALRU cleaning policy (AlruModel.v) represented by Coq lists, head first. *)
From Coq Require Import List Bool Arith Lia.
From Verif Require Import AlruModel.
Import ListNotations.
Open Scope nat_scope.

Definition hd_or (n : option nat) (L : list nat) : option nat := match L with [] => n | a :: _ => Some a end.
Fixpoint last_or (p : option nat) (L : list nat) : option nat :=
  match L with [] => p | a :: r => last_or (Some a) r end.
Fixpoint seg (m : nat -> node) (p : option nat) (L : list nat) (n : option nat) : Prop :=
  match L with
  | [] => True
  | a :: r => prv (m a) = p /\ nxt (m a) = hd_or n r /\ seg m (Some a) r n
  end.

Lemma hd_or_app n L1 L2 : hd_or n (L1 ++ L2) = hd_or (hd_or n L2) L1.
Proof. destruct L1; reflexivity. Qed.
Lemma last_or_app p L1 L2 : last_or p (L1 ++ L2) = last_or (last_or p L1) L2.
Proof. revert p; induction L1; intros; cbn; auto. Qed.
Lemma last_or_snoc p L x : last_or p (L ++ [x]) = Some x.
Proof. rewrite last_or_app. reflexivity. Qed.
Lemma seg_app m p L1 L2 n : seg m p (L1 ++ L2) n <-> seg m p L1 (hd_or n L2) /\ seg m (last_or p L1) L2 n.
Proof.
  revert p; induction L1 as [|a L1 IH]; intros p; cbn [app seg last_or].
  - tauto.
  - rewrite IH, hd_or_app. tauto.
Qed.
Lemma seg_ext m m' p L n : (forall a, In a L -> prv (m' a) = prv (m a) /\ nxt (m' a) = nxt (m a)) ->
  seg m p L n -> seg m' p L n.
Proof.
  revert p; induction L as [|a L IH]; intros p H; cbn [seg]; auto.
  intros (A & B & C). destruct (H a (or_introl eq_refl)). split; [congruence|]. split; [congruence|].
  apply IH; auto. intros x Hx. apply H. right; auto.
Qed.
Lemma last_or_in p L a : last_or p L = Some a -> L <> [] -> In a L.
Proof.
  revert p; induction L as [|b L IH]; intros p H HN; [congruence|]. cbn in H.
  destruct L as [|c L]; [left; cbn in H; congruence|right]. apply (IH (Some b)); auto. discriminate.
Qed.
Lemma last_or_cons p a L : exists y, last_or p (a :: L) = Some y /\ In y (a :: L).
Proof.
  cbn [last_or]. revert a. induction L as [|b L IH]; intros a; cbn [last_or]; [exists a; split; [reflexivity|left; reflexivity]|].
  destruct (IH b) as (y & E & I). exists y. split; [assumption|]. right. assumption.
Qed.

Lemma upd_same {A} (m : nat -> A) i v : upd m i v i = v.
Proof. unfold upd. rewrite Nat.eqb_refl. reflexivity. Qed.
Lemma upd_other {A} (m : nat -> A) i v j : j <> i -> upd m i v j = m j.
Proof. intros H. unfold upd. destruct (Nat.eqb_spec j i); congruence. Qed.

(** Pointwise effect of the setters *)
Lemma prv_set_prv m x v y : prv (set_prv m x v y) = if y =? x then v else prv (m y).
Proof. unfold set_prv, upd. destruct (Nat.eqb_spec y x); reflexivity. Qed.
Lemma nxt_set_prv m x v y : nxt (set_prv m x v y) = nxt (m y).
Proof. unfold set_prv, upd. destruct (Nat.eqb_spec y x) as [->|]; reflexivity. Qed.
Lemma prv_set_nxt m x v y : prv (set_nxt m x v y) = prv (m y).
Proof. unfold set_nxt, upd. destruct (Nat.eqb_spec y x) as [->|]; reflexivity. Qed.
Lemma nxt_set_nxt m x v y : nxt (set_nxt m x v y) = if y =? x then v else nxt (m y).
Proof. unfold set_nxt, upd. destruct (Nat.eqb_spec y x); reflexivity. Qed.
Lemma stamp_set_prv m x v y : stamp (set_prv m x v y) = stamp (m y).
Proof. unfold set_prv, upd. destruct (Nat.eqb_spec y x) as [->|]; reflexivity. Qed.
Lemma stamp_set_nxt m x v y : stamp (set_nxt m x v y) = stamp (m y).
Proof. unfold set_nxt, upd. destruct (Nat.eqb_spec y x) as [->|]; reflexivity. Qed.

(** Changing the end pointers of a segment *)
Lemma seg_set_last m p L n n' t : NoDup L -> seg m p L n -> last_or None L = Some t -> seg (set_nxt m t n') p L n'.
Proof.
  revert p. induction L as [|a L IH]; intros p ND S E; [exact I|]. inversion ND as [|? ? N1 N2]; subst.
  cbn [seg] in *. destruct S as (S1 & S2 & S3). rewrite prv_set_nxt, nxt_set_nxt. split; [assumption|].
  destruct L as [|b L].
  - cbn [last_or] in E. injection E as ->. rewrite Nat.eqb_refl. cbn [hd_or seg]. auto.
  - assert (E' : last_or None (b :: L) = Some t) by exact E.
    assert (It : In t (b :: L)) by (apply (last_or_in None); [exact E' | discriminate]).
    split.
    + destruct (Nat.eqb_spec a t) as [->|]; [contradiction|]. cbn [hd_or] in *. assumption.
    + apply IH; assumption.
Qed.
Lemma seg_set_first m p p' L n h : NoDup L -> seg m p L n -> hd_or None L = Some h -> seg (set_prv m h p') p' L n.
Proof.
  destruct L as [|a L]; intros ND S E; [discriminate|]. cbn [hd_or] in E. injection E as ->.
  cbn [seg] in *. destruct S as (S1 & S2 & S3). rewrite prv_set_prv, nxt_set_prv, Nat.eqb_refl.
  split; [reflexivity|]. split; [assumption|]. apply (seg_ext m); [|assumption].
  intros y Iy. rewrite prv_set_prv, nxt_set_prv. destruct (Nat.eqb_spec y h) as [->|]; [|auto].
  inversion ND; contradiction.
Qed.

(** One list *)
Definition Rep (m : nat -> node) (h t : option nat) (L : list nat) : Prop :=
  NoDup L /\ seg m None L None /\ h = hd_or None L /\ t = last_or None L.

Lemma Rep_ext m m' h t L : (forall a, In a L -> prv (m' a) = prv (m a) /\ nxt (m' a) = nxt (m a)) -> Rep m h t L -> Rep m' h t L.
Proof. intros E (A & B & C). split; [assumption|]. split; [eapply seg_ext; eassumption | assumption]. Qed.

(** Joining two lists *)
Lemma join m h1 t1 L1 h2 t2 L2 o t : Rep m h1 t1 L1 -> Rep m h2 t2 L2 -> (forall x, In x L1 -> ~ In x L2) ->
  h2 = Some o -> t1 = Some t -> L1 <> [] ->
  Rep (set_nxt (set_prv m o (Some t)) t (Some o)) h1 t2 (L1 ++ L2).
Proof.
  intros (N1 & S1 & H1 & T1) (N2 & S2 & H2 & T2) D Eo Et NE. rewrite T1 in Et. rewrite H2 in Eo. clear T1 H2.
  assert (It : In t L1) by (apply (last_or_in None); auto).
  destruct L2 as [|o' L2]; [cbn in Eo; discriminate|]. cbn [hd_or] in Eo. injection Eo as ->.
  destruct L1 as [|a L1]; [congruence|].
  split; [|split; [|split]].
  - assert (X : forall A B : list nat, NoDup A -> NoDup B -> (forall x, In x A -> ~ In x B) -> NoDup (A ++ B)).
    { induction A as [|y A IHA]; intros B NA NB DD; [assumption|]. inversion NA; subst. cbn [app]. constructor.
      - rewrite in_app_iff. intros [?|?]; [contradiction|]. apply (DD y); [left; reflexivity|assumption].
      - apply IHA; auto. intros z Iz. apply DD. right. assumption. }
    apply X; assumption.
  - apply seg_app. cbn [hd_or]. split.
    + apply (seg_set_last _ None _ None); [assumption | | assumption].
      apply (seg_ext m); [|assumption]. intros y Iy. rewrite prv_set_prv, nxt_set_prv.
      destruct (Nat.eqb_spec y o) as [->|]; [|auto]. exfalso. apply (D o Iy). left. reflexivity.
    + apply (seg_ext (set_prv m o (Some t))).
      * intros y Iy. rewrite prv_set_nxt, nxt_set_nxt. destruct (Nat.eqb_spec y t) as [->|]; [|auto].
        exfalso. apply (D t It Iy).
      * rewrite Et. apply (seg_set_first _ None); [assumption|assumption|reflexivity].
  - rewrite hd_or_app. exact H1.
  - rewrite last_or_app, Et. exact T2.
Qed.

Lemma Rep_nil m : Rep m None None [].
Proof. split; [constructor|]. split; [exact I|]. split; reflexivity. Qed.
Lemma Rep_head_none m t L : Rep m None t L -> L = [].
Proof. intros (_ & _ & H & _). destruct L; [reflexivity|discriminate]. Qed.

(** Effect of append_alru_head as one record *)
Lemma append_rep p h t a L1 L2 : Rep (meta a) h t L1 -> Rep (meta a) (head a p) (tail a p) L2 -> (forall x, In x L1 -> ~ In x L2) ->
  exists a', append_alru_head p h t a = Some a' /\ Rep (meta a') (head a' p) (tail a' p) (L1 ++ L2) /\
    (forall x, ~ In x L1 -> ~ In x L2 -> meta a' x = meta a x) /\ (forall x, stamp (meta a' x) = stamp (meta a x)) /\
    (forall q, q <> p -> head a' q = head a q /\ tail a' q = tail a q) /\ (forall q, size a' q = size a q) /\
    part a' = part a /\ mapped a' = mapped a /\ dirty a' = dirty a.
Proof.
  intros R1 R2 D. unfold append_alru_head. destruct L1 as [|x L1].
  - destruct R1 as (_ & _ & -> & ->). cbn [hd_or last_or app]. exists a. split; [reflexivity|]. split; [assumption|]. auto 10.
  - pose proof R1 as (N1 & S1 & H1 & T1). destruct (last_or_cons None x L1) as (t0 & Et & It). rewrite Et in T1. subst h t. cbn [hd_or] in R1 |- *.
    destruct (head a p) as [o|] eqn:Eh.
    + eexists. split; [reflexivity|]. cbn [meta head tail size part mapped dirty with_list]. rewrite !upd_same.
      split; [|split; [|split; [|split; [|split; [|auto]]]]].
      * eapply join; try eassumption; try reflexivity. discriminate.
      * intros y Ny1 Ny2. assert (y <> t0) by (intros ->; auto).
        assert (y <> o). { intros ->. apply Ny2. destruct R2 as (_ & _ & H2 & _). destruct L2 as [|z L2]; [discriminate|]. injection H2 as ->. left; reflexivity. }
        unfold set_nxt, set_prv. rewrite !upd_other by assumption. reflexivity.
      * intros y. rewrite stamp_set_nxt, stamp_set_prv. reflexivity.
      * intros q Nq. rewrite !upd_other by assumption. auto.
      * intros q. unfold upd. destruct (Nat.eqb_spec q p) as [->|]; reflexivity.
    + apply Rep_head_none in R2 as E2. subst L2. rewrite app_nil_r.
      eexists. split; [reflexivity|]. cbn [meta head tail size part mapped dirty with_list]. rewrite !upd_same.
      split; [assumption|]. split; [auto|]. split; [auto|]. split.
      * intros q Nq. rewrite !upd_other by assumption. auto.
      * split; [|auto]. intros q. unfold upd. destruct (Nat.eqb_spec q p) as [->|]; reflexivity.
Qed.

(** What an operation on the list of partition p does: representation of that list, and nothing
    else changes. *)
Definition effect (p : nat) (touched : nat -> Prop) (L : list nat) (a a' : alru) : Prop :=
  Rep (meta a') (head a' p) (tail a' p) L /\ size a' p = length L /\
  (forall x, ~ touched x -> meta a' x = meta a x) /\
  (forall q, q <> p -> head a' q = head a q /\ tail a' q = tail a q /\ size a' q = size a q) /\
  part a' = part a /\ mapped a' = mapped a /\ dirty a' = dirty a.

Lemma add_rep p x now a L : Rep (meta a) (head a p) (tail a p) L -> size a p = length L -> ~ In x L ->
  exists a', add_alru_head p x now a = Some a' /\ effect p (fun y => y = x \/ In y L) (x :: L) a a' /\
    (forall y, stamp (meta a' y) = if y =? x then now else stamp (meta a y)).
Proof.
  intros R Sz Nx. unfold add_alru_head. set (a1 := with_list _ _ _ _ _ _).
  assert (Rx : Rep (meta a1) (Some x) (Some x) [x]).
  { split; [constructor; [intros []|constructor]|]. cbn. rewrite upd_same. cbn. auto. }
  assert (RL : Rep (meta a1) (head a1 p) (tail a1 p) L).
  { cbn. rewrite !upd_same. eapply Rep_ext; [|exact R]. intros y Iy. rewrite upd_other; [auto|]. intros ->. contradiction. }
  destruct (append_rep p (Some x) (Some x) a1 [x] L Rx RL) as (a' & E & R' & U & St & H & Szs & Hp & Hm & Hd).
  { intros y [<-|[]]. assumption. }
  rewrite E. eexists. split; [reflexivity|]. split.
  - split; [|split; [|split; [|split; [|auto]]]]; cbn [meta head tail size part mapped dirty with_list]; rewrite ?upd_same.
    + exact R'.
    + rewrite Szs. cbn. rewrite upd_same. lia.
    + intros y Ny. rewrite U; [|intros [<-|[]]; tauto|tauto]. cbn. rewrite upd_other; [reflexivity|]. tauto.
    + intros q Nq. rewrite !upd_other by assumption. destruct (H q Nq) as (-> & ->). rewrite Szs. cbn. rewrite !upd_other by assumption. auto.
  - intros y. cbn [meta with_list]. rewrite St. cbn [meta with_list]. unfold a1. cbn [meta with_list]. unfold upd. destruct (y =? x); reflexivity.
Qed.

Lemma is_iff o x : is o x = true <-> o = Some x.
Proof. destruct o as [y|]; cbn; [rewrite Nat.eqb_eq|]; split; congruence. Qed.

Lemma nodup_split (x : nat) L1 L2 : NoDup (L1 ++ x :: L2) -> ~ In x L1 /\ ~ In x L2 /\ NoDup (L1 ++ L2) /\ NoDup L1 /\ NoDup L2 /\ (forall y, In y L1 -> ~ In y L2).
Proof.
  intros ND. pose proof (NoDup_remove _ _ _ ND) as (A & B). rewrite in_app_iff in B.
  split; [tauto|]. split; [tauto|]. split; [assumption|].
  assert (X : forall A B : list nat, NoDup (A ++ B) -> NoDup A /\ NoDup B /\ (forall y, In y A -> ~ In y B)).
  { clear. induction A as [|a A IH]; intros B H; cbn [app] in H; [split; [constructor|auto]|].
    inversion H as [|? ? N1 N2]; subst. destruct (IH B N2) as (X & Y & Z). rewrite in_app_iff in N1.
    split; [constructor; tauto|]. split; [assumption|]. intros y [<-|Iy]; [tauto|auto]. }
  apply X. assumption.
Qed.

(** Removing a line that is on the list *)
Lemma remove_rep p x a L1 L2 : Rep (meta a) (head a p) (tail a p) (L1 ++ x :: L2) -> size a p = length (L1 ++ x :: L2) ->
  exists a', remove_alru_list p x a = Some a' /\ effect p (fun y => In y (L1 ++ x :: L2)) (L1 ++ L2) a a' /\
    (forall y, stamp (meta a' y) = stamp (meta a y)) /\ prv (meta a' x) = None /\ nxt (meta a' x) = None.
Proof.
  intros (ND & SG & H & T) Sz. unfold remove_alru_list.
  assert (SzP : size a p = S (length (L1 ++ L2))) by (rewrite Sz, !app_length; cbn [length]; lia).
  rewrite SzP. cbn [Nat.eqb]. replace (S (length (L1 ++ L2)) - 1) with (length (L1 ++ L2)) by lia.
  pose proof (nodup_split _ _ _ ND) as (Nx1 & Nx2 & ND' & N1 & N2 & D12).
  apply seg_app in SG. destruct SG as (S1 & S2). cbn [seg] in S2. destruct S2 as (P & Nn & S2). cbn [hd_or] in S1.
  rewrite P, Nn. 
  assert (Hh : is (head a p) x = match L1 with [] => true | _ => false end).
  { rewrite H. destruct L1 as [|b L1]; cbn [app hd_or is]; [apply Nat.eqb_refl|]. apply Nat.eqb_neq. intros ->. apply Nx1. left; reflexivity. }
  assert (Ht : is (tail a p) x = match L2 with [] => true | _ => false end).
  { rewrite T, last_or_app. cbn [last_or]. destruct L2 as [|b L2]; [cbn; apply Nat.eqb_refl|].
    destruct (last_or_cons (Some x) b L2) as (y & -> & Iy). cbn. apply Nat.eqb_neq. intros ->. contradiction. }
  rewrite Hh, Ht.
  destruct L1 as [|b L1]; destruct L2 as [|c L2].
  - (* only node *)
    cbn [app last_or hd_or is_none andb negb length]. eexists. split; [reflexivity|]. cbn [with_list meta head tail size part mapped dirty].
    unfold effect. cbn [with_list meta head tail size part mapped dirty]. rewrite !upd_same. split; [split; [|split; [|split; [|split; [|auto]]]]|].
    + apply Rep_nil.
    + reflexivity.
    + intros y Ny. unfold set_prv, set_nxt. rewrite !upd_other; [reflexivity | |]; intros ->; apply Ny; left; reflexivity.
    + intros q Nq. rewrite !upd_other by assumption. auto.
    + split; [intros y; rewrite stamp_set_prv, stamp_set_nxt; reflexivity|].
      rewrite prv_set_prv, Nat.eqb_refl, nxt_set_prv, nxt_set_nxt, Nat.eqb_refl. auto.
  - (* head *)
    cbn [app last_or hd_or is_none andb negb length]. eexists. split; [reflexivity|].
    unfold effect. cbn [with_list meta head tail size part mapped dirty]. rewrite !upd_same.
    assert (cx : c <> x) by (intros ->; apply Nx2; left; reflexivity).
    split; [split; [|split; [|split; [|split; [|auto]]]]|].
    + split; [assumption|]. split; [|split; [reflexivity|]].
      * apply (seg_set_first _ (Some x)); [assumption | | reflexivity].
        apply (seg_ext (meta a)); [|exact S2]. intros y Iy. rewrite prv_set_nxt, nxt_set_nxt.
        destruct (Nat.eqb_spec y x) as [->|]; [contradiction|auto].
      * rewrite T. reflexivity.
    + reflexivity.
    + intros y Ny. unfold set_prv, set_nxt. rewrite !upd_other; [reflexivity | |]; intros ->; apply Ny; [left; reflexivity | right; left; reflexivity].
    + intros q Nq. rewrite !upd_other by assumption. auto.
    + split; [intros y; rewrite stamp_set_prv, stamp_set_nxt; reflexivity|].
      rewrite prv_set_prv, nxt_set_prv, nxt_set_nxt, Nat.eqb_refl, prv_set_nxt. destruct (Nat.eqb_spec x c); [congruence|].
      split; [exact P | reflexivity].
  - (* tail *)
    destruct (last_or_cons None b L1) as (z & Ez & Iz).
    assert (zx : z <> x) by (intros ->; contradiction).
    cbn [hd_or is_none]. rewrite Ez. cbn [is_none andb negb]. eexists. split; [reflexivity|].
    unfold effect. cbn [with_list meta head tail size part mapped dirty]. rewrite !upd_same.
    rewrite app_nil_r in *. split; [split; [|split; [|split; [|split; [|auto]]]]|].
    + split; [assumption|]. split; [|split].
      * apply (seg_set_last _ None _ (Some x)); [assumption | | assumption].
        apply (seg_ext (meta a)); [|exact S1]. intros y Iy. rewrite prv_set_prv, nxt_set_prv.
        destruct (Nat.eqb_spec y x) as [->|]; [contradiction|auto].
      * rewrite H. reflexivity.
      * symmetry. assumption.
    + reflexivity.
    + intros y Ny. unfold set_prv, set_nxt. rewrite !upd_other; [reflexivity | |]; intros ->; apply Ny; apply in_or_app; [right; left; reflexivity | left; assumption].
    + intros q Nq. rewrite !upd_other by assumption. auto.
    + split; [intros y; rewrite stamp_set_nxt, stamp_set_prv; reflexivity|].
      rewrite prv_set_nxt, prv_set_prv, Nat.eqb_refl, nxt_set_nxt, nxt_set_prv. destruct (Nat.eqb_spec x z); [congruence|].
      split; [reflexivity | exact Nn].
  - (* middle *)
    destruct (last_or_cons None b L1) as (z & Ez & Iz).
    assert (zx : z <> x) by (intros ->; contradiction).
    assert (cx : c <> x) by (intros ->; apply Nx2; left; reflexivity).
    assert (zc : z <> c) by (intros ->; apply (D12 c Iz); left; reflexivity).
    cbn [hd_or is_none]. rewrite Ez. cbn [is_none andb negb]. eexists. split; [reflexivity|].
    unfold effect. cbn [with_list meta head tail size part mapped dirty]. rewrite !upd_same.
    split; [split; [|split; [|split; [|split; [|auto]]]]|].
    + split; [assumption|]. split; [|split].
      * apply (seg_ext (set_prv (set_nxt (meta a) z (Some c)) c (Some z))).
        { intros y Iy. rewrite !prv_set_prv, !nxt_set_prv, !prv_set_nxt, !nxt_set_nxt.
          assert (y <> x). { intros ->. rewrite in_app_iff in Iy. tauto. }
          destruct (Nat.eqb_spec y x); [congruence|]. rewrite prv_set_prv, nxt_set_prv, prv_set_nxt, nxt_set_nxt. auto. }
        apply seg_app. cbn [hd_or]. split.
        -- apply (seg_ext (set_nxt (meta a) z (Some c))).
           { intros y Iy. rewrite prv_set_prv, nxt_set_prv. destruct (Nat.eqb_spec y c) as [->|]; [|auto].
             exfalso. apply (D12 c Iy). left; reflexivity. }
           apply (seg_set_last _ None _ (Some x)); assumption.
        -- rewrite Ez. apply (seg_set_first _ (Some x)); [assumption | | reflexivity].
           apply (seg_ext (meta a)); [|exact S2]. intros y Iy. rewrite prv_set_nxt, nxt_set_nxt.
           destruct (Nat.eqb_spec y z) as [->|]; [|auto]. exfalso. apply (D12 z Iz Iy).
      * rewrite H. reflexivity.
      * rewrite T, !last_or_app. reflexivity.
    + reflexivity.
    + intros y Ny. unfold set_prv, set_nxt.
      assert (y <> x) by (intros ->; apply Ny; apply in_or_app; right; left; reflexivity).
      assert (y <> c) by (intros ->; apply Ny; apply in_or_app; right; right; left; reflexivity).
      assert (y <> z) by (intros ->; apply Ny; apply in_or_app; left; assumption).
      rewrite !upd_other by assumption. reflexivity.
    + intros q Nq. rewrite !upd_other by assumption. auto.
    + split; [intros y; rewrite stamp_set_prv, stamp_set_nxt, stamp_set_prv, stamp_set_nxt; reflexivity|].
      rewrite prv_set_prv, Nat.eqb_refl, nxt_set_prv, nxt_set_nxt, Nat.eqb_refl. auto.
Qed.

(** The index based list refines a list, and ocf_lst_sort sorts it: property C45. *)
From Coq Require Import List Bool Arith Lia Sorted Permutation.
From Verif Require Import ListModel.
Import ListNotations.

(** ** Representation *)

(** From [p] the entries [L] follow and then [n], linked in both directions. *)
Fixpoint link (e : entries) (p : nat) (L : list nat) (n : nat) : Prop :=
  match L with
  | [] => next (e p) = n /\ prev (e n) = p
  | x :: L => next (e p) = x /\ prev (e x) = p /\ link e x L n
  end.

(** The list [L]: linked through the head, everything else is out. *)
Definition Rep (inv : nat) (e : entries) (L : list nat) : Prop :=
  NoDup L /\ (forall x, In x L -> x < inv) /\ link e inv L inv /\
  (forall x, x < inv -> ~ In x L -> next (e x) = inv + 1 /\ prev (e x) = inv + 1).

Lemma link_ext e e' : forall L p n, (forall y, In y (p :: L) -> next (e' y) = next (e y)) -> (forall y, In y (L ++ [n]) -> prev (e' y) = prev (e y)) ->
  link e p L n -> link e' p L n.
Proof.
  induction L as [|x L IH]; intros p n HN HP; cbn [link].
  - intros (A & B). rewrite HN, HP by (left; reflexivity). split; assumption.
  - intros (A & B & C). split; [rewrite HN by (left; reflexivity); exact A|]. split; [rewrite HP by (left; reflexivity); exact B|].
    apply IH; [| |exact C]; intros y Iy; [apply HN | apply HP]; right; exact Iy.
Qed.
Lemma link_app e : forall A p x B n, link e p (A ++ x :: B) n <-> link e p A x /\ link e x B n.
Proof.
  induction A as [|a A IH]; intros p x B n; cbn [app link]; [tauto|]. rewrite IH. tauto.
Qed.
Lemma link_prev e : forall L p n, link e p L n -> prev (e n) = last L p.
Proof.
  induction L as [|x L IH]; intros p n; cbn [link]; [intros (_ & H); exact H|]. intros (_ & _ & H). rewrite (IH x n H).
  destruct L as [|y L]; [reflexivity|]. cbn [last]. clear. revert y. induction L as [|z L IH]; intros y; [reflexivity|]. apply IH.
Qed.
Lemma link_next e L p n : link e p L n -> next (e p) = hd n L.
Proof. destruct L as [|x L]; cbn [link hd]; tauto. Qed.
Lemma last_in (A : list nat) d : In (last A d) (d :: A).
Proof.
  revert d. induction A as [|a A IH]; intros d; [left; reflexivity|]. destruct A as [|b A]; [right; left; reflexivity|].
  change (last (a :: b :: A) d) with (last (b :: A) d). specialize (IH d). destruct IH as [H|H]; [left; exact H | right; right; exact H].
Qed.
Lemma last_indep (A : list nat) a d d' : last (a :: A) d = last (a :: A) d'.
Proof. revert a. induction A as [|b A IH]; intros a; [reflexivity|]. apply (IH b). Qed.
Lemma last_cons (A : list nat) a d : last (a :: A) d = last A a.
Proof. destruct A as [|b A]; [reflexivity|]. exact (last_indep A b d a). Qed.

(** Inserting x between q and b *)
Definition inserted (e e' : entries) (q x b : nat) : Prop :=
  (forall y, next (e' y) = if y =? x then b else if y =? q then x else next (e y)) /\
  (forall y, prev (e' y) = if y =? x then q else if y =? b then x else prev (e y)).

Lemma insert_left e e' x b : forall A p, inserted e e' (last A p) x b -> link e p A b -> NoDup (p :: A) -> ~ In x (p :: A) -> b <> x -> ~ In b A ->
  link e' p (A ++ [x]) b.
Proof.
  induction A as [|a A IH]; intros p (HN & HP) L ND Nx Nb NbA; cbn [app link In] in *.
  - cbn [last] in *. rewrite !HN, !HP, !Nat.eqb_refl. assert (p <> x) by tauto.
    destruct (Nat.eqb_spec p x); [congruence|]. destruct (Nat.eqb_spec b x); [congruence|]. auto.
  - destruct L as (L1 & L2 & L3). rewrite last_cons in *. rewrite HN, HP. inversion ND as [|? ? Np ND']; subst.
    pose proof (last_in A (next (e p))) as LI.
    destruct (Nat.eqb_spec p x); [subst; tauto|]. destruct (Nat.eqb_spec p (last A (next (e p)))) as [E|]; [rewrite <- E in LI; contradiction|].
    destruct (Nat.eqb_spec (next (e p)) x); [subst; tauto|]. destruct (Nat.eqb_spec (next (e p)) b); [subst; exfalso; apply NbA; left; reflexivity|].
    split; [reflexivity|]. split; [exact L2|]. apply IH; [split; assumption | exact L3 | exact ND' | tauto | assumption | tauto].
Qed.

Lemma insert_link e e' inv A B x : inserted e e' (last A inv) x (hd inv B) -> link e inv (A ++ B) inv -> NoDup (inv :: A ++ B) -> ~ In x (inv :: A ++ B) ->
  link e' inv (A ++ x :: B) inv.
Proof.
  intros I L ND Nx. destruct B as [|b B].
  - rewrite app_nil_r in *. cbn [hd] in I. apply (insert_left e e' x inv A inv I L ND Nx); [intros ->; apply Nx; left; reflexivity|].
    inversion ND; assumption.
  - cbn [hd] in I. apply link_app in L. destruct L as (L1 & L2). change (A ++ x :: b :: B) with (A ++ [x] ++ b :: B). rewrite app_assoc.
    inversion ND as [|? ? Ni ND']; subst. pose proof (NoDup_remove_2 _ _ _ ND') as Nb. cbn [In] in Nx. rewrite in_app_iff in Nb, Ni, Nx. cbn [In] in Nb, Ni, Nx.
    assert (NDA : NoDup (inv :: A)).
    { constructor; [tauto|]. apply NoDup_remove_1 in ND'. clear -ND'. induction A as [|a A IH]; [constructor|]. cbn [app] in ND'. inversion ND'; subst.
      constructor; [rewrite in_app_iff in *; tauto | apply IH; assumption]. }
    apply link_app. cbn [In] in *. split.
    + apply (insert_left e e' x b A inv I L1 NDA); [cbn [In]; tauto | intros ->; tauto | tauto].
    + destruct I as (HN & HP). pose proof (last_in A inv) as LI. cbn [In] in LI.
      assert (NBA : forall y, In y (b :: B) -> ~ In y A).
      { intros y Iy IA. apply in_split in IA. destruct IA as (A1 & A2 & ->). rewrite <- app_assoc in ND'. cbn [app] in ND'.
        apply NoDup_remove_2 in ND'. apply ND'. rewrite !in_app_iff. right. right. exact Iy. }
      apply (link_ext e); [| |exact L2].
      * intros y Iy. rewrite HN. destruct (Nat.eqb_spec y x) as [->|]; [cbn [In] in Iy; tauto|].
        destruct (Nat.eqb_spec y (last A inv)) as [->|]; [|reflexivity]. exfalso. destruct LI as [LI|LI]; [rewrite <- LI in Iy; cbn [In] in Iy; tauto|].
        apply (NBA _ Iy LI).
      * intros y Iy. rewrite HP. apply in_app_iff in Iy. destruct (Nat.eqb_spec y x) as [->|]; [cbn [In] in Iy; exfalso; destruct Iy as [Iy|[<-|[]]]; tauto|].
        destruct (Nat.eqb_spec y b) as [->|]; [|reflexivity]. exfalso. cbn [In] in Iy. destruct Iy as [Iy|[Iy|[]]]; [tauto|]. subst. tauto.
Qed.

Lemma link_bound e : forall L p n K, link e p L n -> (forall y, In y L -> y <= K) -> p <= K -> n <= K ->
  (forall y, In y (p :: L) -> next (e y) <= K) /\ (forall y, In y (L ++ [n]) -> prev (e y) <= K).
Proof.
  induction L as [|x L IH]; intros p n K H B Bp Bn; cbn [link] in H.
  - destruct H as (H1 & H2). split; intros y [<-|[]]; lia.
  - destruct H as (H1 & H2 & H3). assert (Bx : x <= K) by (apply B; left; reflexivity).
    destruct (IH x n K H3 (fun y Iy => B y (or_intror Iy)) Bx Bn) as (I1 & I2). split.
    + intros y [<-|Iy]; [lia | apply I1; exact Iy].
    + intros y [<-|Iy]; [lia | apply I2; exact Iy].
Qed.
Lemma is_entry_in inv e L x : link e inv L inv -> (forall y, In y L -> y < inv) -> In x (inv :: L) -> is_entry inv (e x) = Some true.
Proof.
  intros H B Ix. destruct (link_bound e L inv inv inv H) as (I1 & I2); [intros y Iy; specialize (B y Iy); lia | lia | lia|].
  specialize (I1 x Ix). assert (P : prev (e x) <= inv).
  { apply I2. apply in_app_iff. destruct Ix as [<-|Ix]; [right; left; reflexivity | left; exact Ix]. }
  unfold is_entry. destruct (Nat.eqb_spec (next (e x)) (inv + 1)); [lia|]. cbn [andb].
  destruct (Nat.ltb_spec (next (e x)) (inv + 1)); [|lia]. destruct (Nat.ltb_spec (prev (e x)) (inv + 1)); [reflexivity|lia].
Qed.
Lemma is_entry_out inv (e : entries) x : next (e x) = inv + 1 -> prev (e x) = inv + 1 -> is_entry inv (e x) = Some false.
Proof. intros A B. unfold is_entry. rewrite A, B, Nat.eqb_refl. reflexivity. Qed.

(** ** The operations as insertions *)
Ltac eqb_all := repeat match goal with |- context [?a =? ?b] => destruct (Nat.eqb_spec a b); subst; cbn [next prev] end; try congruence; try reflexivity.

Lemma add_before_inserted inv b x e e' : add_before inv b x e = Some e' -> x <> prev (e b) -> x <> b -> inserted e e' (prev (e b)) x b.
Proof.
  unfold add_before. destruct (_ && _); [|discriminate]. intros E. injection E as <-. intros N1 N2.
  remember (prev (e b)) as q eqn:Eq. split; intros y; unfold setn, setp; eqb_all.
Qed.
Lemma add_tail_inserted inv x e e' : add_tail inv x e = Some e' -> x <> prev (e inv) -> x <> inv -> inserted e e' (prev (e inv)) x inv.
Proof.
  unfold add_tail. destruct (_ && _); [|discriminate]. intros E. injection E as <-. intros N1 N2.
  remember (prev (e inv)) as q eqn:Eq. split; intros y; unfold setn, setp; eqb_all.
Qed.
Lemma add_inserted inv x e e' : add inv x e = Some e' -> x <> next (e inv) -> x <> inv -> inserted e e' inv x (next (e inv)).
Proof.
  unfold add. destruct (_ && _); [|discriminate]. intros E. injection E as <-. intros N1 N2.
  remember (next (e inv)) as q eqn:Eq. split; intros y; unfold setn, setp; eqb_all.
Qed.
Lemma add_after_inserted inv at_ x e e' : add_after inv at_ x e = Some e' -> x <> next (e at_) -> x <> at_ -> inserted e e' at_ x (next (e at_)).
Proof.
  unfold add_after. destruct (_ && _); [|discriminate]. intros E. injection E as <-. intros N1 N2.
  remember (next (e at_)) as q eqn:Eq. split; intros y; unfold setn, setp; eqb_all.
Qed.

(** What an insertion leaves alone *)
Lemma inserted_frame e e' q x b y : inserted e e' q x b -> y <> q -> y <> x -> y <> b -> next (e' y) = next (e y) /\ prev (e' y) = prev (e y).
Proof.
  intros (HN & HP) N1 N2 N3. rewrite HN, HP. destruct (Nat.eqb_spec y x); [contradiction|]. destruct (Nat.eqb_spec y q); [contradiction|].
  destruct (Nat.eqb_spec y b); [contradiction|]. auto.
Qed.
Lemma hd_in (B : list nat) d : In (hd d B) (d :: B).
Proof. destruct B as [|b B]; [left; reflexivity | right; left; reflexivity]. Qed.
Lemma rep_insert inv e e' A B x : Rep inv e (A ++ B) -> x < inv -> ~ In x (A ++ B) -> inserted e e' (last A inv) x (hd inv B) -> Rep inv e' (A ++ x :: B).
Proof.
  intros (ND & B1 & L & O) Hx Nx I.
  assert (ND' : NoDup (inv :: A ++ B)) by (constructor; [intros Ii; specialize (B1 inv Ii); lia | exact ND]).
  split; [|split; [|split]].
  - apply Permutation_NoDup with (l := x :: A ++ B); [apply Permutation_middle | constructor; assumption].
  - intros y Iy. apply in_app_iff in Iy. destruct Iy as [Iy|[<-|Iy]]; [apply B1; apply in_app_iff; tauto | exact Hx | apply B1; apply in_app_iff; tauto].
  - apply (insert_link e e' inv A B x I L ND'). intros [<-|Ix]; [lia | contradiction].
  - intros y Hy Ny. rewrite in_app_iff in Ny. cbn [In] in Ny. pose proof (last_in A inv) as LA. pose proof (hd_in B inv) as HB. cbn [In] in LA, HB.
    destruct (inserted_frame e e' _ x _ y I) as (-> & ->).
    + intros ->. destruct LA as [LA|LA]; [rewrite <- LA in Hy; lia | tauto].
    + intros ->. apply Ny. tauto.
    + intros ->. destruct HB as [HB|HB]; [rewrite <- HB in Hy; lia | tauto].
    + apply O; [exact Hy|]. rewrite in_app_iff. tauto.
Qed.

(** ** C45: the operations of the list *)
Theorem add_rep inv e L x : Rep inv e L -> x < inv -> ~ In x L -> exists e', add inv x e = Some e' /\ Rep inv e' (x :: L).
Proof.
  intros R Hx Nx. destruct R as (ND & B & K & O). pose proof (link_next _ _ _ _ K) as HN.
  pose proof (hd_in L inv) as HI. rewrite <- HN in HI.
  assert (E : exists e', add inv x e = Some e').
  { unfold add, dbg. destruct (O x Hx Nx) as (O1 & O2). rewrite (is_entry_out inv e x O1 O2), (is_entry_in inv e L (next (e inv)) K B HI). unfold ok.
    assert (next (e inv) <= inv) by (destruct HI as [<-|HI]; [lia | specialize (B _ HI); lia]).
    destruct (Nat.leb_spec x inv); [|lia]. destruct (Nat.leb_spec (next (e inv)) inv); [|lia]. cbn [andb]. eauto. }
  destruct E as (e' & E). exists e'. split; [exact E|]. apply (rep_insert inv e e' [] L x); [repeat split; assumption || apply O; assumption | exact Hx | exact Nx|].
  cbn [last]. rewrite <- HN. apply add_inserted; [exact E| |lia]. intros X. rewrite <- X in HI. destruct HI as [HI|HI]; [lia | contradiction].
Qed.

Theorem add_tail_rep inv e L x : Rep inv e L -> x < inv -> ~ In x L -> exists e', add_tail inv x e = Some e' /\ Rep inv e' (L ++ [x]).
Proof.
  intros R Hx Nx. destruct R as (ND & B & K & O). pose proof (link_prev _ _ _ _ K) as HN.
  pose proof (last_in L inv) as HI. rewrite <- HN in HI.
  assert (E : exists e', add_tail inv x e = Some e').
  { unfold add_tail, dbg. destruct (O x Hx Nx) as (O1 & O2). rewrite (is_entry_out inv e x O1 O2), (is_entry_in inv e L (prev (e inv)) K B HI). unfold ok.
    assert (prev (e inv) <= inv) by (destruct HI as [<-|HI]; [lia | specialize (B _ HI); lia]).
    destruct (Nat.leb_spec x inv); [|lia]. destruct (Nat.leb_spec (prev (e inv)) inv); [|lia]. cbn [andb]. eauto. }
  destruct E as (e' & E). exists e'. split; [exact E|].
  apply (rep_insert inv e e' L [] x); [rewrite app_nil_r; repeat split; assumption || apply O; assumption | exact Hx | rewrite app_nil_r; exact Nx|].
  cbn [hd]. rewrite <- HN. apply add_tail_inserted; [exact E| |lia]. intros X. rewrite <- X in HI. destruct HI as [HI|HI]; [lia | contradiction].
Qed.

Theorem add_before_rep inv e A b B x : Rep inv e (A ++ b :: B) -> x < inv -> ~ In x (A ++ b :: B) ->
  exists e', add_before inv b x e = Some e' /\ Rep inv e' (A ++ x :: b :: B).
Proof.
  intros R Hx Nx. destruct R as (ND & Bd & K & O). pose proof K as K'. apply link_app in K'. destruct K' as (K1 & _). pose proof (link_prev _ _ _ _ K1) as HN.
  pose proof (last_in A inv) as HI. rewrite <- HN in HI.
  assert (HI' : In (prev (e b)) (inv :: A ++ b :: B)). { destruct HI as [<-|HI]; [left; reflexivity | right; apply in_app_iff; left; exact HI]. }
  assert (Ib : In b (A ++ b :: B)) by (apply in_app_iff; right; left; reflexivity). pose proof (Bd b Ib) as Hb.
  assert (E : exists e', add_before inv b x e = Some e').
  { unfold add_before, dbg. destruct (O x Hx Nx) as (O1 & O2).
    rewrite (is_entry_out inv e x O1 O2), (is_entry_in inv e _ (prev (e b)) K Bd HI'), (is_entry_in inv e _ b K Bd (or_intror Ib)). unfold ok.
    assert (prev (e b) <= inv) by (destruct HI' as [<-|HI']; [lia | specialize (Bd _ HI'); lia]).
    destruct (Nat.leb_spec x inv); [|lia]. destruct (Nat.leb_spec (prev (e b)) inv); [|lia]. destruct (Nat.leb_spec b inv); [|lia]. cbn [andb]. eauto. }
  destruct E as (e' & E). exists e'. split; [exact E|].
  apply (rep_insert inv e e' A (b :: B) x); [repeat split; assumption || apply O; assumption | exact Hx | exact Nx|].
  cbn [hd]. rewrite <- HN. apply (add_before_inserted inv); [exact E| |intros ->; contradiction]. intros X. rewrite <- X in HI'. destruct HI' as [HI'|HI']; [lia | contradiction].
Qed.

Theorem add_after_rep inv e A a B x : Rep inv e (A ++ a :: B) -> x < inv -> ~ In x (A ++ a :: B) ->
  exists e', add_after inv a x e = Some e' /\ Rep inv e' (A ++ a :: x :: B).
Proof.
  intros R Hx Nx. destruct R as (ND & Bd & K & O). pose proof K as K'. apply link_app in K'. destruct K' as (_ & K1). pose proof (link_next _ _ _ _ K1) as HN.
  pose proof (hd_in B inv) as HI. rewrite <- HN in HI.
  assert (HI' : In (next (e a)) (inv :: A ++ a :: B)). { destruct HI as [<-|HI]; [left; reflexivity | right; apply in_app_iff; right; right; exact HI]. }
  assert (Ia : In a (A ++ a :: B)) by (apply in_app_iff; right; left; reflexivity). pose proof (Bd a Ia) as Ha.
  assert (E : exists e', add_after inv a x e = Some e').
  { unfold add_after, dbg. destruct (O x Hx Nx) as (O1 & O2).
    rewrite (is_entry_out inv e x O1 O2), (is_entry_in inv e _ (next (e a)) K Bd HI'), (is_entry_in inv e _ a K Bd (or_intror Ia)). unfold ok.
    assert (next (e a) <= inv) by (destruct HI' as [<-|HI']; [lia | specialize (Bd _ HI'); lia]).
    destruct (Nat.leb_spec x inv); [|lia]. destruct (Nat.leb_spec (next (e a)) inv); [|lia]. destruct (Nat.leb_spec a inv); [|lia]. cbn [andb]. eauto. }
  destruct E as (e' & E). exists e'. split; [exact E|].
  change (A ++ a :: x :: B) with (A ++ [a] ++ x :: B). rewrite app_assoc.
  apply (rep_insert inv e e' (A ++ [a]) B x); [rewrite <- app_assoc; repeat split; assumption || apply O; assumption | exact Hx | rewrite <- app_assoc; exact Nx|].
  rewrite last_last, <- HN. apply (add_after_inserted inv); [exact E| |intros ->; contradiction]. intros X. rewrite <- X in HI'. destruct HI' as [HI'|HI']; [lia | contradiction].
Qed.

(** Deleting *)
Lemma del_link e e' x : forall A p B n, (forall y, next (e' y) = if y =? x then next (e' x) else if y =? prev (e x) then next (e x) else next (e y)) ->
  (forall y, prev (e' y) = if y =? x then prev (e' x) else if y =? next (e x) then prev (e x) else prev (e y)) ->
  link e p (A ++ x :: B) n -> NoDup (p :: A ++ x :: B) -> ~ In n (A ++ x :: B) -> link e' p (A ++ B) n.
Proof.
  induction A as [|a A IH]; intros p B n HN HP K ND Nn; cbn [app link] in *.
  - destruct K as (K1 & K2 & K3). apply NoDup_cons_iff in ND. destruct ND as (Np & ND). apply NoDup_cons_iff in ND. destruct ND as (Nx & ND).
    rewrite K2 in HN, HP. destruct B as [|b B]; cbn [link app In] in *.
    + destruct K3 as (K3 & K4). rewrite K3 in HN, HP. rewrite HN, HP, !Nat.eqb_refl.
      destruct (Nat.eqb_spec p x) as [E|]; [exfalso; apply Np; left; symmetry; exact E|].
      destruct (Nat.eqb_spec n x) as [E|]; [exfalso; apply Nn; left; symmetry; exact E|]. auto.
    + destruct K3 as (K3 & K4 & K5). rewrite K3 in HN, HP. apply NoDup_cons_iff in ND. destruct ND as (Nb & ND).
      rewrite HN, HP, !Nat.eqb_refl. destruct (Nat.eqb_spec p x) as [E|]; [exfalso; apply Np; left; symmetry; exact E|].
      destruct (Nat.eqb_spec b x) as [E|]; [exfalso; apply Nx; left; exact E|]. split; [reflexivity|]. split; [reflexivity|].
      apply (link_ext e); [| |exact K5].
      * intros y Iy. rewrite HN. destruct (Nat.eqb_spec y x) as [->|]; [exfalso; apply Nx; exact Iy|].
        destruct (Nat.eqb_spec y p) as [->|]; [exfalso; apply Np; right; exact Iy | reflexivity].
      * intros y Iy. rewrite HP. apply in_app_iff in Iy. cbn [In] in Iy.
        destruct (Nat.eqb_spec y x) as [->|]; [exfalso; destruct Iy as [Iy|[Iy|[]]]; [apply Nx; right; exact Iy | apply Nn; left; symmetry; exact Iy]|].
        destruct (Nat.eqb_spec y b) as [->|]; [|reflexivity]. exfalso. destruct Iy as [Iy|[Iy|[]]]; [apply Nb; exact Iy | apply Nn; right; left; symmetry; exact Iy].
  - destruct K as (K1 & K2 & K3). inversion ND as [|? ? Np ND']; subst. cbn [In] in *.
    assert (PX : In (prev (e x)) (next (e p) :: A)).
    { apply link_app in K3. destruct K3 as (K3 & _). rewrite (link_prev _ _ _ _ K3). apply last_in. }
    assert (NX : In (next (e x)) (n :: B)).
    { apply link_app in K3. destruct K3 as (_ & K3). rewrite (link_next _ _ _ _ K3). apply hd_in. }
    split; [|split].
    + rewrite HN. destruct (Nat.eqb_spec p x) as [->|]; [exfalso; apply Np; right; apply in_app_iff; right; left; reflexivity|].
      destruct (Nat.eqb_spec p (prev (e x))) as [E|]; [|reflexivity]. exfalso. rewrite <- E in PX. apply Np. destruct PX as [PX|PX]; [left; exact PX | right; apply in_app_iff; left; exact PX].
    + rewrite HP. inversion ND' as [|? ? Na ND'']; subst. rewrite in_app_iff in Na. cbn [In] in Na.
      destruct (Nat.eqb_spec (next (e p)) x) as [E|]; [exfalso; apply Na; right; left; symmetry; exact E|].
      destruct (Nat.eqb_spec (next (e p)) (next (e x))) as [E|]; [|exact K2]. exfalso. rewrite <- E in NX. destruct NX as [NX|NX]; [apply Nn; left; symmetry; exact NX | tauto].
    + apply IH; [assumption | assumption | exact K3 | exact ND' | tauto].
Qed.

Theorem del_rep inv e A x B : Rep inv e (A ++ x :: B) -> exists e', del inv x e = Some e' /\ Rep inv e' (A ++ B).
Proof.
  intros (ND & Bd & K & O).
  assert (Ix : In x (A ++ x :: B)) by (apply in_app_iff; right; left; reflexivity). pose proof (Bd x Ix) as Hx.
  pose proof K as K'. apply link_app in K'. destruct K' as (K1 & K2).
  pose proof (link_prev _ _ _ _ K1) as HP. pose proof (link_next _ _ _ _ K2) as HN.
  assert (IP : In (prev (e x)) (inv :: A ++ x :: B)). { rewrite HP. destruct (last_in A inv) as [E|E]; [left; exact E | right; apply in_app_iff; left; exact E]. }
  assert (IN : In (next (e x)) (inv :: A ++ x :: B)). { rewrite HN. destruct (hd_in B inv) as [E|E]; [left; exact E | right; apply in_app_iff; right; right; exact E]. }
  assert (Le : forall y, In y (inv :: A ++ x :: B) -> y <= inv). { intros y [<-|Iy]; [lia|]. specialize (Bd y Iy). lia. }
  assert (NDi : NoDup (inv :: A ++ x :: B)). { constructor; [|exact ND]. intros Ii. specialize (Bd inv Ii). lia. }
  assert (NPx : prev (e x) <> x).
  { rewrite HP. intros E. destruct (last_in A inv) as [LI|LI]; rewrite E in LI; [lia|]. apply NoDup_remove_2 in ND. apply ND. apply in_app_iff. tauto. }
  assert (NNx : next (e x) <> x).
  { rewrite HN. intros E. destruct (hd_in B inv) as [LI|LI]; rewrite E in LI; [lia|]. apply NoDup_remove_2 in ND. apply ND. apply in_app_iff. tauto. }
  eexists. split.
  - unfold del, dbg. rewrite (is_entry_in inv e _ x K Bd (or_intror Ix)), (is_entry_in inv e _ _ K Bd IP), (is_entry_in inv e _ _ K Bd IN). unfold ok.
    destruct (Nat.leb_spec x inv); [|lia]. destruct (Nat.leb_spec (next (e x)) inv) as [|H']; [|specialize (Le _ IN); lia].
    destruct (Nat.leb_spec (prev (e x)) inv) as [|H']; [|specialize (Le _ IP); lia]. reflexivity.
  - assert (HN' : forall y, next (init_entry inv (setp (setn e (prev (e x)) (next (e x))) (next (e x)) (prev (e x))) x y) =
        if y =? x then inv + 1 else if y =? prev (e x) then next (e x) else next (e y)).
    { intros y. unfold init_entry, setn, setp. eqb_all. }
    assert (HP' : forall y, prev (init_entry inv (setp (setn e (prev (e x)) (next (e x))) (next (e x)) (prev (e x))) x y) =
        if y =? x then inv + 1 else if y =? next (e x) then prev (e x) else prev (e y)).
    { intros y. unfold init_entry, setn, setp. eqb_all. }
    split; [apply NoDup_remove_1 in ND; exact ND|]. split; [|split].
    + intros y Iy. apply Bd. apply in_app_iff in Iy. apply in_app_iff. cbn [In]. tauto.
    + eapply (del_link e _ x); [| |exact K|exact NDi|intros Ii; specialize (Bd inv Ii); lia].
      * intros y. rewrite !HN'. rewrite Nat.eqb_refl. reflexivity.
      * intros y. rewrite !HP'. rewrite Nat.eqb_refl. reflexivity.
    + intros y Hy Ny. rewrite HN', HP'. destruct (Nat.eqb_spec y x) as [|Nyx]; [auto|].
      assert (Ny' : ~ In y (A ++ x :: B)). { rewrite in_app_iff in *. cbn [In]. intros [I|[I|I]]; [tauto|congruence|tauto]. }
      destruct (Nat.eqb_spec y (prev (e x))) as [E|]; [exfalso; rewrite <- E in IP; destruct IP as [IP|IP]; [lia | contradiction]|].
      destruct (Nat.eqb_spec y (next (e x))) as [E|]; [exfalso; rewrite <- E in IN; destruct IN as [IN|IN]; [lia | contradiction]|]. apply O; assumption.
Qed.

Theorem init_rep inv e : Rep inv (lst_init inv e) [].
Proof.
  assert (G : forall k e0, (forall y, k <= y -> next (init_entries inv k e0 y) = next (e0 y) /\ prev (init_entries inv k e0 y) = prev (e0 y)) /\
    (forall y, y < k -> next (init_entries inv k e0 y) = inv + 1 /\ prev (init_entries inv k e0 y) = inv + 1)).
  { induction k as [|k IH]; intros e0; cbn [init_entries]; [split; intros y H; [auto|lia]|]. destruct (IH e0) as (I1 & I2). split; intros y H; unfold init_entry, setn, setp.
    - destruct (Nat.eqb_spec y k); [lia|]. apply I1. lia.
    - destruct (Nat.eqb_spec y k) as [->|]; [auto|]. apply I2. lia. }
  destruct (G inv (setp (setn e inv inv) inv inv)) as (G1 & G2). split; [constructor|]. split; [intros x []|]. split.
  - cbn [link]. unfold lst_init. destruct (G1 inv (le_n _)) as (-> & ->). unfold setn, setp. rewrite !Nat.eqb_refl. auto.
  - intros x Hx _. apply G2. exact Hx.
Qed.

Theorem visit_rep inv e L fuel : Rep inv e L -> length L < fuel -> visit fuel inv e (next (e inv)) = L.
Proof.
  intros (_ & B & K & _). revert K. generalize inv at 1 4 as p. revert fuel. induction L as [|x L IH]; intros fuel p K H; cbn [link length] in *.
  - destruct K as (-> & _). destruct fuel; [lia|]. cbn [visit]. rewrite Nat.eqb_refl. reflexivity.
  - destruct K as (-> & _ & K). destruct fuel as [|fuel]; [lia|]. cbn [visit].
    destruct (Nat.eqb_spec x inv) as [->|]; [specialize (B inv (or_introl eq_refl)); lia|]. f_equal. apply IH; [intros y Iy; apply B; right; exact Iy | exact K | lia].
Qed.

(** ** Sorting *)

(** Specification: x goes before the first element that is greater. *)
Fixpoint insert (gt : nat -> nat -> bool) (x : nat) (L : list nat) : list nat :=
  match L with [] => [x] | y :: L => if gt y x then x :: y :: L else y :: insert gt x L end.
Fixpoint insert_all (gt : nat -> nat -> bool) (D R : list nat) : list nat :=
  match R with [] => D | x :: R => insert_all gt (insert gt x D) R end.

Lemma scan_spec inv gt e x : forall D p fuel, link e p D inv -> (forall y, In y D -> y < inv) -> length D < fuel ->
  exists A B, D = A ++ B /\ insert gt x D = A ++ x :: B /\ scan fuel inv gt e (next (e p)) x = Some (hd inv B).
Proof.
  induction D as [|y D IH]; intros p fuel K B F; cbn [link length] in *; (destruct fuel as [|fuel]; [lia|]).
  - destruct K as (-> & _). exists [], []. cbn. unfold ok. rewrite Nat.leb_refl, Nat.eqb_refl. auto.
  - destruct K as (-> & _ & K). assert (Hy : y < inv) by (apply B; left; reflexivity). cbn [scan insert]. unfold ok.
    destruct (Nat.leb_spec y inv); [|lia]. cbn [negb]. destruct (Nat.eqb_spec y inv); [lia|]. destruct (gt y x).
    + exists [], (y :: D). auto.
    + destruct (IH y fuel K (fun z Iz => B z (or_intror Iz)) ltac:(lia)) as (A & B' & -> & E & Sc). exists (y :: A), B'. cbn [app]. rewrite E. auto.
Qed.

(** During sorting: [D] is the list, the entries of [R] are not yet taken, the rest is out. *)
Definition Mid (inv : nat) (e : entries) (D R : list nat) : Prop :=
  NoDup (D ++ R) /\ (forall x, In x (D ++ R) -> x < inv) /\ link e inv D inv /\
  (forall x, x < inv -> ~ In x (D ++ R) -> next (e x) = inv + 1 /\ prev (e x) = inv + 1).
Fixpoint chain (inv : nat) (e : entries) (x : nat) (R : list nat) : Prop :=
  match R with [] => x = inv | y :: R => x = y /\ chain inv e (next (e y)) R end.

Lemma chain_ext inv e e' : forall R x, (forall y, In y R -> next (e' y) = next (e y)) -> chain inv e x R -> chain inv e' x R.
Proof.
  induction R as [|y R IH]; intros x H; cbn [chain]; [auto|]. intros (-> & C). split; [reflexivity|]. rewrite H by (left; reflexivity).
  apply IH; [|exact C]. intros z Iz. apply H. right; exact Iz.
Qed.
Lemma init_entry_self inv e x : next (init_entry inv e x x) = inv + 1 /\ prev (init_entry inv e x x) = inv + 1.
Proof. unfold init_entry, setn, setp. rewrite !Nat.eqb_refl. auto. Qed.
Lemma init_entry_other inv e x y : y <> x -> init_entry inv e x y = e y.
Proof. intros N. unfold init_entry, setn, setp. destruct (Nat.eqb_spec y x); [contradiction|reflexivity]. Qed.
Lemma hd_app_in (A B : list nat) d x : In x (d :: A ++ B) -> In x (d :: A) \/ In x B.
Proof. cbn [In]. rewrite in_app_iff. tauto. Qed.

(** Inserting at a known place *)
Lemma place inv gt e D x e1 : e1 = init_entry inv e x -> link e1 inv D inv -> NoDup D -> (forall y, In y D -> y < inv) -> x < inv -> ~ In x D ->
  exists e2, sort_one inv gt x e = Some e2 /\ link e2 inv (insert gt x D) inv /\
    (forall y, y <> x -> ~ In y (inv :: D) -> next (e2 y) = next (e y) /\ prev (e2 y) = prev (e y)).
Proof.
  intros E1 K ND B Hx Nx. unfold sort_one. rewrite <- E1.
  destruct (init_entry_self inv e x) as (O1 & O2). rewrite <- E1 in O1, O2.
  assert (Fr : forall y, y <> x -> e1 y = e y) by (intros y Ny; rewrite E1; apply init_entry_other; exact Ny).
  assert (Ie : forall y, In y (inv :: D) -> is_entry inv (e1 y) = Some true) by (intros y; apply (is_entry_in inv e1 D y K B)).
  assert (Le : forall y, In y (inv :: D) -> y <= inv) by (intros y [<-|Iy]; [lia | specialize (B y Iy); lia]).
  assert (NDi : NoDup (inv :: D)) by (constructor; [intros Ii; specialize (B inv Ii); lia | exact ND]).
  assert (Nxi : ~ In x (inv :: D)) by (intros [<-|Ix]; [lia | contradiction]).
  (* any insertion *)
  assert (G : forall A B' e2, D = A ++ B' -> inserted e1 e2 (last A inv) x (hd inv B') -> link e2 inv (A ++ x :: B') inv /\
    (forall y, y <> x -> ~ In y (inv :: D) -> next (e2 y) = next (e y) /\ prev (e2 y) = prev (e y))).
  { intros A B' e2 -> I. split; [apply (insert_link e1 e2 inv A B' x I K NDi Nxi)|]. intros y Ny Nyi. rewrite <- (Fr y Ny).
    apply (inserted_frame e1 e2 _ x _ y I); [|exact Ny|].
    - intros ->. apply Nyi. destruct (last_in A inv) as [E|E]; [left; exact E | right; apply in_app_iff; left; exact E].
    - intros ->. apply Nyi. destruct (hd_in B' inv) as [E|E]; [left; exact E | right; apply in_app_iff; right; exact E]. }
  destruct (Nat.eqb_spec (next (e1 inv)) inv) as [Em|Ne].
  - assert (D = []). { destruct D as [|d D]; [reflexivity|]. cbn [link] in K. destruct K as (K & _). specialize (B d (or_introl eq_refl)). lia. } subst D.
    unfold add, dbg. rewrite Em, (is_entry_out inv e1 x O1 O2), (Ie inv (or_introl eq_refl)). unfold ok. rewrite Nat.leb_refl.
    destruct (Nat.leb_spec x inv); [|lia]. cbn [andb]. eexists. split; [reflexivity|]. cbn [insert]. apply (G [] []); [reflexivity|]. cbn [last hd].
    replace inv with (next (e1 inv)) at 6. apply (add_inserted inv); [|lia|lia].
    unfold add, dbg. rewrite Em, (is_entry_out inv e1 x O1 O2), (Ie inv (or_introl eq_refl)). unfold ok. rewrite Nat.leb_refl.
    destruct (Nat.leb_spec x inv); [|lia]. reflexivity.
  - destruct (scan_spec inv gt e1 x D inv (inv + 2) K B) as (A & B' & ED & EI & Sc).
    { assert (length D <= inv); [|lia]. rewrite <- (seq_length inv 0). apply NoDup_incl_length; [exact ND|]. intros y Iy. apply in_seq. specialize (B y Iy). lia. }
    rewrite Sc, EI. destruct B' as [|b B']; cbn [hd].
    + rewrite Nat.eqb_refl. assert (IP : In (prev (e1 inv)) (inv :: D)) by (rewrite (link_prev _ _ _ _ K); apply last_in).
      assert (Ea : exists e2, add_tail inv x e1 = Some e2).
      { unfold add_tail, dbg. rewrite (is_entry_out inv e1 x O1 O2), (Ie _ IP). unfold ok. specialize (Le _ IP).
        destruct (Nat.leb_spec x inv); [|lia]. destruct (Nat.leb_spec (prev (e1 inv)) inv); [|lia]. cbn [andb]. eauto. }
      destruct Ea as (e2 & Ea). exists e2. split; [exact Ea|]. apply G; [exact ED|]. cbn [hd]. rewrite app_nil_r in ED. rewrite <- ED, <- (link_prev _ _ _ _ K).
      apply add_tail_inserted; [exact Ea | intros X; apply Nxi; rewrite X; exact IP | lia].
    + assert (Ib : In b D) by (rewrite ED; apply in_app_iff; right; left; reflexivity). pose proof (B b Ib) as Hb.
      destruct (Nat.eqb_spec b inv); [lia|]. pose proof K as K'. rewrite ED in K'. apply link_app in K'. destruct K' as (K1 & _).
      pose proof (link_prev _ _ _ _ K1) as HP.
      assert (IP : In (prev (e1 b)) (inv :: D)). { rewrite HP, ED. destruct (last_in A inv) as [E|E]; [left; exact E | right; apply in_app_iff; left; exact E]. }
      assert (Ea : exists e2, add_before inv b x e1 = Some e2).
      { unfold add_before, dbg. rewrite (is_entry_out inv e1 x O1 O2), (Ie _ IP), (Ie b (or_intror Ib)). unfold ok. specialize (Le _ IP).
        destruct (Nat.leb_spec x inv); [|lia]. destruct (Nat.leb_spec (prev (e1 b)) inv); [|lia]. destruct (Nat.leb_spec b inv); [|lia]. cbn [andb]. eauto. }
      destruct Ea as (e2 & Ea). exists e2. split; [exact Ea|]. apply G; [exact ED|]. cbn [hd]. rewrite <- HP.
      apply (add_before_inserted inv); [exact Ea | intros X; apply Nxi; rewrite X; exact IP | intros ->; contradiction].
Qed.

Lemma insert_perm gt x L : Permutation (x :: L) (insert gt x L).
Proof.
  induction L as [|y L IH]; cbn [insert]; [reflexivity|]. destruct (gt y x); [reflexivity|]. rewrite perm_swap. apply perm_skip. exact IH.
Qed.
Lemma insert_all_perm gt : forall R D, Permutation (D ++ R) (insert_all gt D R).
Proof.
  induction R as [|x R IH]; intros D; cbn [insert_all]; [rewrite app_nil_r; reflexivity|]. rewrite <- IH, <- insert_perm. cbn [app]. rewrite <- Permutation_middle. reflexivity.
Qed.

Lemma sort_loop_spec inv gt : forall R D x e fuel, Mid inv e D R -> chain inv e x R -> length R <= fuel ->
  exists e', sort_loop fuel inv gt x (next (e x)) e = Some e' /\ Mid inv e' (insert_all gt D R) [].
Proof.
  induction R as [|z R IH]; intros D x e fuel M C F; cbn [chain insert_all length] in *.
  - subst x. exists e. split; [destruct fuel; cbn [sort_loop]; rewrite Nat.eqb_refl; reflexivity | exact M].
  - destruct C as (-> & C). destruct fuel as [|fuel]; [lia|]. destruct M as (ND & B & K & O).
    assert (Iz : In z (D ++ z :: R)) by (apply in_app_iff; right; left; reflexivity). pose proof (B z Iz) as Hz.
    pose proof (NoDup_remove_2 _ _ _ ND) as Nz. rewrite in_app_iff in Nz.
    assert (NDD : NoDup D). { apply NoDup_remove_1 in ND. clear -ND. induction D as [|a D IH]; [constructor|]. cbn [app] in ND. inversion ND; subst. constructor; [rewrite in_app_iff in *; tauto | apply IH; assumption]. }
    assert (BD : forall y, In y D -> y < inv) by (intros y Iy; apply B; apply in_app_iff; left; exact Iy).
    assert (K1 : link (init_entry inv e z) inv D inv).
    { apply (link_ext e); [| |exact K]; intros y Iy; rewrite init_entry_other; [reflexivity| |reflexivity|]; intros ->.
      - destruct Iy as [Iy|Iy]; [lia | tauto].
      - apply in_app_iff in Iy. destruct Iy as [Iy|[Iy|[]]]; [tauto | lia]. }
    destruct (place inv gt e D z _ eq_refl K1 NDD BD Hz ltac:(tauto)) as (e2 & S2 & L2 & Fr).
    cbn [sort_loop]. destruct (Nat.eqb_spec z inv); [lia|]. rewrite S2.
    assert (FrR : forall y, In y R -> next (e2 y) = next (e y)).
    { intros y Iy. apply Fr; [intros ->; tauto|]. intros [<-|ID]; [specialize (B inv); rewrite in_app_iff in B; cbn [In] in B; specialize (B (or_intror (or_intror Iy))); lia|].
      apply in_split in ID. destruct ID as (D1 & D2 & ->). rewrite <- app_assoc in ND. apply NoDup_remove_2 in ND. apply ND. rewrite !in_app_iff. cbn [In]. tauto. }
    pose proof (chain_ext inv e e2 R _ FrR C) as C2.
    assert (Okn : ok inv (next (e z)) = true).
    { unfold ok. apply Nat.leb_le. destruct R as [|r R]; cbn [chain] in C; [lia|]. destruct C as (-> & _).
      assert (r < inv); [|lia]. apply B. apply in_app_iff. right. right. left. reflexivity. }
    rewrite Okn. apply (IH (insert gt z D) (next (e z)) e2 fuel); [|exact C2|lia].
    assert (PM : Permutation (D ++ z :: R) (insert gt z D ++ R)) by (rewrite <- insert_perm, <- Permutation_middle; reflexivity).
    split; [|split; [|split]].
    + apply (Permutation_NoDup PM ND).
    + intros y Iy. apply B. apply (Permutation_in y (Permutation_sym PM) Iy).
    + exact L2.
    + intros y Hy Ny. assert (Ny' : ~ In y (D ++ z :: R)) by (intros X; apply Ny; apply (Permutation_in y PM X)).
      rewrite in_app_iff in Ny'. cbn [In] in Ny'. destruct (Fr y) as (-> & ->); [intros ->; tauto | intros [X|X]; [lia|tauto] |]. apply O; [exact Hy|]. rewrite in_app_iff. cbn [In]. tauto.
Qed.

Lemma link_chain inv e : forall L p, link e p L inv -> chain inv e (next (e p)) L.
Proof.
  induction L as [|x L IH]; intros p; cbn [link chain]; [intros (H & _); exact H|]. intros (-> & _ & K). split; [reflexivity | apply IH; exact K].
Qed.

(** ocf_lst_sort never stops with ENV_BUG and yields the insertion sort of the list. *)
Theorem sort_rep inv gt e L : Rep inv e L -> exists e', lst_sort inv gt e = Some e' /\ Rep inv e' (insert_all gt [] L).
Proof.
  intros (ND & B & K & O). unfold lst_sort. destruct (Nat.eqb_spec (next (e inv)) inv) as [Em|Ne].
  - exists e. split; [reflexivity|]. assert (L = []). { destruct L as [|d L]; [reflexivity|]. cbn [link] in K. destruct K as (K & _). specialize (B d (or_introl eq_refl)). lia. }
    subst L. exact (conj ND (conj B (conj K O))).
  - destruct L as [|x L]; [cbn [link] in K; tauto|]. pose proof K as K'. cbn [link] in K'. destruct K' as (E1 & E2 & K'). rewrite E1.
    assert (Hx : x < inv) by (apply B; left; reflexivity). pose proof (link_next _ _ _ _ K') as HN.
    assert (Hn : next (e x) <= inv). { rewrite HN. destruct (hd_in L inv) as [<-|I]; [lia|]. assert (hd inv L < inv) by (apply B; right; exact I). lia. }
    unfold ok. destruct (Nat.leb_spec x inv); [|lia]. destruct (Nat.leb_spec (next (e x)) inv); [|lia]. cbn [andb].
    set (e0 := setp (setn e inv inv) inv inv).
    assert (Fr : forall y, y <> inv -> e0 y = e y). { intros y Ny. unfold e0, setp, setn. destruct (Nat.eqb_spec y inv); [contradiction|reflexivity]. }
    assert (N0 : next (e0 inv) = inv /\ prev (e0 inv) = inv). { unfold e0, setp, setn. rewrite !Nat.eqb_refl. auto. }
    rewrite <- (Fr x) by lia.
    destruct (sort_loop_spec inv gt (x :: L) [] x e0 (inv + 1)) as (e' & S & M).
    + split; [exact ND|]. split; [exact B|]. split; [exact N0|]. intros y Hy Ny. rewrite Fr by lia. apply O; assumption.
    + apply (chain_ext inv e).
      * intros y Iy. rewrite Fr; [reflexivity|]. specialize (B y Iy). lia.
      * pose proof (link_chain _ _ _ _ K) as Q. rewrite E1 in Q. exact Q.
    + assert (length (x :: L) <= inv); [|lia]. rewrite <- (seq_length inv 0). apply NoDup_incl_length; [exact ND|]. intros y Iy. apply in_seq. specialize (B y Iy). lia.
    + exists e'. split; [exact S|]. unfold Mid in M. rewrite app_nil_r in M. exact M.
Qed.

(** ** C45 *)

(** The comparison is a total preorder: "not greater" is transitive, and one of two elements is not
    greater than the other. *)
Definition preorder (gt : nat -> nat -> bool) : Prop :=
  (forall a b c, gt a b = false -> gt b c = false -> gt a c = false) /\ (forall a b, gt a b = true -> gt b a = false).

Lemma insert_sorted gt x L : preorder gt -> StronglySorted (fun a b => gt a b = false) L -> StronglySorted (fun a b => gt a b = false) (insert gt x L).
Proof.
  intros (T & A) S. induction S as [|y L S IH Fa]; cbn [insert]; [constructor; constructor|]. destruct (gt y x) eqn:E.
  - constructor; [constructor; assumption|]. constructor; [apply A; exact E|]. rewrite Forall_forall in *. intros z Iz. apply (T x y z); [apply A; exact E | apply Fa; exact Iz].
  - constructor; [exact IH|]. rewrite Forall_forall in *. intros z Iz. apply (Permutation_in z (Permutation_sym (insert_perm gt x L))) in Iz.
    destruct Iz as [<-|Iz]; [exact E | apply Fa; exact Iz].
Qed.

(** ocf_lst_sort returns a sorted permutation, linked in both directions, for every comparison that
    is a total preorder. *)
Theorem C45_sorted inv gt e L : Rep inv e L -> preorder gt ->
  exists e' L', lst_sort inv gt e = Some e' /\ Rep inv e' L' /\ Permutation L L' /\ StronglySorted (fun a b => gt a b = false) L'.
Proof.
  intros R P. destruct (sort_rep inv gt e L R) as (e' & E & R'). exists e', (insert_all gt [] L). split; [exact E|]. split; [exact R'|].
  split; [exact (insert_all_perm gt L [])|].
  assert (G : forall M D, StronglySorted (fun a b => gt a b = false) D -> StronglySorted (fun a b => gt a b = false) (insert_all gt D M)).
  { induction M as [|x M IH]; intros D S; cbn [insert_all]; [exact S|]. apply IH. apply insert_sorted; assumption. }
  apply G. constructor.
Qed.

(** Any sequence of operations from ocf_lst_init keeps the list: the operations the code offers *)
Inductive op := OAdd (x : nat) | OTail (x : nat) | OBefore (b x : nat) | OAfter (a x : nat) | ODel (x : nat) | OSort.
Definition step (inv : nat) (gt : nat -> nat -> bool) (o : op) (e : entries) : option entries :=
  match o with
  | OAdd x => add inv x e | OTail x => add_tail inv x e | OBefore b x => add_before inv b x e | OAfter a x => add_after inv a x e
  | ODel x => del inv x e | OSort => lst_sort inv gt e
  end.
(** What it should do to a list; None: not allowed (the entry is there already, or is not there) *)
Definition fresh (inv x : nat) (L : list nat) : bool := (x <? inv) && negb (existsb (Nat.eqb x) L).
Fixpoint before (b x : nat) (L : list nat) : list nat := match L with [] => [] | y :: L => if y =? b then x :: y :: L else y :: before b x L end.
Fixpoint after (a x : nat) (L : list nat) : list nat := match L with [] => [] | y :: L => if y =? a then y :: x :: L else y :: after a x L end.
Definition spec_step (inv : nat) (gt : nat -> nat -> bool) (o : op) (L : list nat) : option (list nat) :=
  match o with
  | OAdd x => if fresh inv x L then Some (x :: L) else None
  | OTail x => if fresh inv x L then Some (L ++ [x]) else None
  | OBefore b x => if fresh inv x L && existsb (Nat.eqb b) L then Some (before b x L) else None
  | OAfter a x => if fresh inv x L && existsb (Nat.eqb a) L then Some (after a x L) else None
  | ODel x => if existsb (Nat.eqb x) L then Some (filter (fun y => negb (y =? x)) L) else None
  | OSort => Some (insert_all gt [] L)
  end.
Fixpoint run (inv : nat) (gt : nat -> nat -> bool) (os : list op) (e : entries) : option entries :=
  match os with [] => Some e | o :: os => match step inv gt o e with Some e => run inv gt os e | None => None end end.
Fixpoint spec_run (inv : nat) (gt : nat -> nat -> bool) (os : list op) (L : list nat) : option (list nat) :=
  match os with [] => Some L | o :: os => match spec_step inv gt o L with Some L => spec_run inv gt os L | None => None end end.

Lemma existsb_in x L : existsb (Nat.eqb x) L = true <-> In x L.
Proof. rewrite existsb_exists. split; [intros (y & Iy & E); apply Nat.eqb_eq in E; subst; exact Iy | intros Ix; exists x; rewrite Nat.eqb_refl; auto]. Qed.
Lemma fresh_spec inv x L : fresh inv x L = true <-> x < inv /\ ~ In x L.
Proof. unfold fresh. rewrite andb_true_iff, Nat.ltb_lt, negb_true_iff, <- not_true_iff_false, existsb_in. tauto. Qed.
Lemma split_first (x : nat) L : In x L -> exists A B, L = A ++ x :: B /\ ~ In x A.
Proof.
  induction L as [|y L IH]; intros I; [destruct I|]. destruct (Nat.eq_dec y x) as [->|N]; [exists [], L; auto|]. destruct I as [I|I]; [contradiction|].
  destruct (IH I) as (A & B & -> & NA). exists (y :: A), B. split; [reflexivity|]. cbn [In]. tauto.
Qed.
Lemma before_split b x A B : ~ In b A -> before b x (A ++ b :: B) = A ++ x :: b :: B.
Proof.
  induction A as [|y A IH]; intros N; cbn [app before]; [rewrite Nat.eqb_refl; reflexivity|]. cbn [In] in N. destruct (Nat.eqb_spec y b); [tauto|]. f_equal. apply IH. tauto.
Qed.
Lemma after_split a x A B : ~ In a A -> after a x (A ++ a :: B) = A ++ a :: x :: B.
Proof.
  induction A as [|y A IH]; intros N; cbn [app after]; [rewrite Nat.eqb_refl; reflexivity|]. cbn [In] in N. destruct (Nat.eqb_spec y a); [tauto|]. f_equal. apply IH. tauto.
Qed.
Lemma del_split x A B : ~ In x A -> ~ In x B -> filter (fun y => negb (y =? x)) (A ++ x :: B) = A ++ B.
Proof.
  assert (G : forall M, ~ In x M -> filter (fun y => negb (y =? x)) M = M).
  { induction M as [|y M IH]; intros N; [reflexivity|]. cbn [filter In] in *. destruct (Nat.eqb_spec y x); [tauto|]. cbn [negb]. f_equal. apply IH. tauto. }
  intros NA NB. rewrite filter_app. cbn [filter]. rewrite Nat.eqb_refl. cbn [negb]. rewrite (G A NA), (G B NB). reflexivity.
Qed.

Theorem step_rep inv gt o e L L' : Rep inv e L -> spec_step inv gt o L = Some L' -> exists e', step inv gt o e = Some e' /\ Rep inv e' L'.
Proof.
  intros R. destruct o as [x|x|b x|a x|x|]; cbn [spec_step step].
  - destruct (fresh inv x L) eqn:F; [|discriminate]. intros E. injection E as <-. apply fresh_spec in F. apply add_rep; tauto.
  - destruct (fresh inv x L) eqn:F; [|discriminate]. intros E. injection E as <-. apply fresh_spec in F. apply add_tail_rep; tauto.
  - destruct (_ && _) eqn:F; [|discriminate]. intros E. injection E as <-. apply andb_true_iff in F. destruct F as (F & Ib). apply fresh_spec in F. apply existsb_in in Ib.
    destruct (split_first b L Ib) as (A & B & -> & NA). rewrite before_split by exact NA. apply add_before_rep; tauto.
  - destruct (_ && _) eqn:F; [|discriminate]. intros E. injection E as <-. apply andb_true_iff in F. destruct F as (F & Ia). apply fresh_spec in F. apply existsb_in in Ia.
    destruct (split_first a L Ia) as (A & B & -> & NA). rewrite after_split by exact NA. apply add_after_rep; tauto.
  - destruct (existsb _ _) eqn:Ix; [|discriminate]. intros E. injection E as <-. apply existsb_in in Ix. destruct (split_first x L Ix) as (A & B & -> & NA).
    rewrite del_split; [apply del_rep; exact R | exact NA|]. destruct R as (ND & _). apply NoDup_remove_2 in ND. rewrite in_app_iff in ND. tauto.
  - intros E. injection E as <-. apply sort_rep. exact R.
Qed.

(** All operations, any order: the list visited by for_each_lst is the one of the specification. *)
Theorem C45_operations inv gt e0 os L : spec_run inv gt os [] = Some L ->
  exists e, run inv gt os (lst_init inv e0) = Some e /\ visit (inv + 1) inv e (next (e inv)) = L /\ Rep inv e L.
Proof.
  pose proof (init_rep inv e0) as R. revert R. generalize (lst_init inv e0) as e. generalize (@nil nat) as L0. induction os as [|o os IH]; intros L0 e R; cbn [spec_run run].
  - intros E. injection E as ->. exists e. split; [reflexivity|]. split; [|exact R]. apply visit_rep; [exact R|].
    assert (length L <= inv); [|lia]. destruct R as (ND & B & _). rewrite <- (seq_length inv 0). apply NoDup_incl_length; [exact ND|]. intros y Iy. apply in_seq. specialize (B y Iy). lia.
  - destruct (spec_step inv gt o L0) as [L1|] eqn:E1; [|discriminate]. destruct (step_rep inv gt o e L0 L1 R E1) as (e1 & -> & R1). apply IH. exact R1.
Qed.

Example C45_case : option_map (fun e => (visit 9 8 e (next (e 8)), prev (e 8), prev (e 5), next (e 3)))
  (run 8 (fun a b => (b mod 4 <? a mod 4)) [OAdd 5; OTail 3; OBefore 3 7; OAfter 7 0; OAdd 2; OSort; ODel 7; OTail 1; OAdd 6; OSort] (lst_init 8 (fun _ => {| next := 77; prev := 3 |}))) =
  Some ([0; 5; 1; 6; 2; 3], 3, 0, 8).
Proof. vm_compute. reflexivity. Qed.
Example C45_case_preorder : preorder (fun a b => (b mod 4 <? a mod 4)).
Proof.
  split.
  - intros a b c H1 H2. apply Nat.ltb_ge in H1, H2. apply Nat.ltb_ge. lia.
  - intros a b H. apply Nat.ltb_lt in H. apply Nat.ltb_ge. lia.
Qed.

Print Assumptions C45_sorted.
Print Assumptions C45_operations.

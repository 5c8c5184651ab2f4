(** C09: the collision table is a partial injective map (CollisionModel.v). *)
From Coq Require Import NArith List Bool Arith Lia.
From Verif Require Import HashModel CollisionModel.
Import ListNotations.
Open Scope nat_scope.

(** ** Specification: a partial map from core lines to cache lines. *)
Definition pmap := key -> option nat.

Definition spec_map (k : key) (l : nat) (m : pmap) : pmap :=
  fun k' => if key_eqb k' k then Some l else m k'.
Definition spec_unmap (l : nat) (m : pmap) : pmap :=
  fun k' => match m k' with Some l' => if l' =? l then None else Some l' | None => None end.
Definition spec_op (o : op) (m : pmap) : pmap :=
  match o with Map k l => spec_map k l m | Unmap l => spec_unmap l m end.

(** A core line of an existing core. *)
Definition valid_key (k : key) : Prop := (fst k < CORE_MAX)%N.

(** What callers ensure: only an unmapped core line is mapped, to a line that
    is not in use; only a mapped line is unmapped. *)
Definition allowed (nl : nat) (o : op) (m : pmap) : Prop :=
  match o with
  | Map k l => valid_key k /\ m k = None /\ l < nl /\ forall k', m k' <> Some l
  | Unmap l => exists k, m k = Some l
  end.
Fixpoint allowed_all (nl : nat) (l : list op) (m : pmap) : Prop :=
  match l with [] => True | o :: r => allowed nl o m /\ allowed_all nl r (spec_op o m) end.
Definition spec_all (l : list op) (m : pmap) : pmap := fold_left (fun m o => spec_op o m) l m.

(** ** Chains *)
Section Coll.
Variables (nh : N) (nl : nat).

Fixpoint dll (s : ct) (p : nat) (L : list nat) : Prop :=
  match L with
  | [] => True
  | a :: r => prv s a = p /\ nxt s a = hd nl r /\ dll s a r
  end.

(** The table represents [m] with the chains [C]. *)
Definition Rep (s : ct) (m : pmap) (C : N -> list nat) : Prop :=
  (forall b, (b < nh)%N -> hash s b = hd nl (C b) /\ dll s nl (C b) /\ NoDup (C b)) /\
  (forall b a, (b < nh)%N -> In a (C b) -> a < nl /\ m (core s a) = Some a /\ bucket nh (core s a) = b) /\
  (forall k a, m k = Some a -> core s a = k /\ valid_key k /\ In a (C (bucket nh k))).

Lemma key_eqb_spec a b : reflect (a = b) (key_eqb a b).
Proof.
  destruct a as [a1 a2], b as [b1 b2]. unfold key_eqb; cbn [fst snd].
  destruct (N.eqb_spec a1 b1), (N.eqb_spec a2 b2); constructor; congruence.
Qed.

Lemma bucket_lt k : (0 < nh)%N -> (bucket nh k < nh)%N.
Proof. intros H. unfold bucket, hash_func. apply N.mod_lt. lia. Qed.

Lemma dll_ext s s' p L : (forall a, In a L -> prv s' a = prv s a /\ nxt s' a = nxt s a) ->
  dll s p L -> dll s' p L.
Proof.
  revert p; induction L as [|a r IH]; intros p H; cbn; auto.
  intros (A & B & C). destruct (H a (or_introl eq_refl)) as [E1 E2].
  split; [congruence|]. split; [congruence|]. apply IH; auto. intros x Hx. apply H. right; auto.
Qed.

Lemma set_same {A} (f : nat -> A) i v : set f i v i = v.
Proof. unfold set. rewrite Nat.eqb_refl. auto. Qed.
Lemma set_other {A} (f : nat -> A) i v j : j <> i -> set f i v j = f j.
Proof. intros H. unfold set. destruct (Nat.eqb_spec j i); congruence. Qed.

Lemma dll_app s p L1 x L2 : dll s p (L1 ++ x :: L2) -> dll s (last L1 p) (x :: L2).
Proof.
  revert p; induction L1 as [|a r IH]; intros p; cbn [app]; [auto|].
  intros (A & B & C). apply IH in C.
  destruct r as [|b r']; [exact C|].
  assert (E : forall (l : list nat) b d d', last (b :: l) d = last (b :: l) d').
  { clear. induction l as [|c l IH]; intros b d d'; [reflexivity|]. cbn [last]. apply (IH c). }
  change (last (a :: b :: r') p) with (last (b :: r') p). rewrite (E r' b p a). exact C.
Qed.

(** Removing [x] from a chain. *)
Lemma dll_remove s p L1 x L2 s' :
  NoDup (L1 ++ x :: L2) -> dll s p (L1 ++ x :: L2) ->
  (forall a, In a (L1 ++ x :: L2) -> a < nl) -> p = nl ->
  (forall a, In a (L1 ++ L2) ->
     nxt s' a = (if a =? prv s x then if negb (prv s x =? nl) then nxt s x else nxt s a else nxt s a) /\
     prv s' a = (if a =? nxt s x then if negb (nxt s x =? nl) then prv s x else prv s a else prv s a)) ->
  dll s' p (L1 ++ L2).
Proof.
  intros HN HD HB Hp HU.
  assert (HG : forall L p', NoDup (L ++ x :: L2) -> dll s p' (L ++ x :: L2) ->
     (L = [] -> prv s x = p') -> ~ In p' (L ++ x :: L2) ->
     (forall a, In a (L ++ L2) -> a < nl) ->
     (forall a, In a (L ++ L2) ->
     nxt s' a = (if a =? prv s x then if negb (prv s x =? nl) then nxt s x else nxt s a else nxt s a) /\
     prv s' a = (if a =? nxt s x then if negb (nxt s x =? nl) then prv s x else prv s a else prv s a)) ->
     dll s' p' (L ++ L2)).
  { clear HN HD HB HU Hp p L1. induction L as [|a L IH]; intros p' HN HD HE HP HB HU; cbn [app] in *.
    - specialize (HE eq_refl). destruct HD as (A & B & C). inversion HN as [|? ? Hx HN2]; subst.
      destruct L2 as [|y L2]; [exact I|]. cbn [hd] in B. cbn [dll] in C. destruct C as (C1 & C2 & C3).
      cbn [dll]. assert (Hy : y < nl) by (apply HB; left; auto).
      destruct (HU y (or_introl eq_refl)) as [U1 U2].
      rewrite B in U2. rewrite Nat.eqb_refl in U2.
      destruct (Nat.eqb_spec y nl) as [|_]; [lia|]. cbn [negb] in U2. split; [auto|].
      assert (Hyx : y <> prv s x).
      { intros ->. apply HP. right; left; auto. }
      destruct (Nat.eqb_spec y (prv s x)) as [|_]; [congruence|]. split; [congruence|].
      eapply dll_ext; [|exact C3]. intros z Hz.
      apply NoDup_cons_iff in HN2 as [Hny HN3].
      destruct (HU z (or_intror Hz)) as [V1 V2].
      destruct (Nat.eqb_spec z (prv s x)) as [->|_].
      { exfalso. apply HP. right; right; auto. }
      rewrite B in V2. destruct (Nat.eqb_spec z y) as [->|_]; [contradiction|]. auto.
    - destruct HD as (A & B & C). inversion HN as [|? ? Ha HN2]; subst. cbn [dll].
      destruct (HU a (or_introl eq_refl)) as [U1 U2].
      assert (Hna : ~ In a L2) by (intros HH; apply Ha; apply in_or_app; right; right; auto).
      assert (Hax : a <> x) by (intros ->; apply Ha; apply in_or_app; right; left; auto).
      (* a is not the successor of x *)
      assert (Hnx : a <> nxt s x).
      { intros HH. destruct (dll_app _ _ _ _ _ C) as (D1 & D2 & D3).
        assert (Hanl : a < nl) by (apply HB; left; auto).
        destruct L2 as [|z L2]; cbn [hd] in D2; [lia|]. apply Hna. left. congruence. }
      destruct (Nat.eqb_spec a (nxt s x)) as [|_]; [congruence|]. split; [auto|].
      destruct L as [|b L].
      + (* a is the predecessor of x *)
        cbn [app] in *. destruct C as (C1 & C2 & C3).
        rewrite C1 in U1. rewrite Nat.eqb_refl in U1.
        destruct (Nat.eqb_spec a nl) as [->|_]; [exfalso; assert (nl < nl) by (apply HB; left; auto); lia|].
        cbn [negb] in U1. split; [congruence|].
        apply (IH a).
        * exact HN2.
        * split; [auto|]. split; auto.
        * auto.
        * exact Ha.
        * intros z Hz. apply HB. right; auto.
        * intros z Hz. apply HU. right; auto.
      + assert (Hpx : a <> prv s x).
        { intros HH. cbn [app] in C. destruct C as (C1 & C2 & C3).
          destruct (dll_app _ _ _ _ _ C3) as (D1 & D2 & D3).
          apply Ha. rewrite HH, D1. cbn [app].
          destruct L as [|c L]; [left; auto|]. right. apply in_or_app. left.
          clear. revert c. induction L as [|d L IH]; intros c; [left; auto|]. right. apply IH. }
        destruct (Nat.eqb_spec a (prv s x)) as [|_]; [congruence|]. cbn [app hd] in *. split; [congruence|].
        apply (IH a); auto.
        * discriminate.
        * intros z Hz. apply HB. right; auto.
        * intros z Hz. apply HU. right; auto. }
  subst p. apply HG; auto.
  - intros ->. destruct HD as (A & _). auto.
  - intros Hi. apply HB in Hi. lia.
  - intros a Ha. apply HB. apply in_app_or in Ha as [Ha|Ha]; apply in_or_app; [auto|right; right; auto].
Qed.

Lemma walk_spec s k L : forall fuel p, dll s p L -> (forall a, In a L -> a < nl) -> length L <= fuel ->
  exists r, walk nl s k fuel (hd nl L) = Some r /\
    match r with
    | Some a => In a L /\ core s a = k
    | None => forall a, In a L -> core s a <> k
    end.
Proof.
  induction L as [|a L IH]; intros fuel p HD HB HF; cbn [hd].
  - exists None. split; [|intros ? []]. destruct fuel; cbn [walk]; rewrite Nat.eqb_refl; auto.
  - destruct fuel as [|f]; cbn [length] in HF; [lia|]. cbn [walk].
    assert (Ha : a < nl) by (apply HB; left; auto).
    destruct (Nat.eqb_spec a nl) as [|_]; [lia|].
    destruct (Nat.ltb_spec a nl) as [_|]; [|lia]. cbn [negb].
    destruct (key_eqb_spec k (core s a)) as [E|E].
    + exists (Some a). split; auto. split; [left; auto|auto].
    + destruct HD as (D1 & D2 & D3). rewrite D2.
      destruct (IH f a D3) as (r & R1 & R2); [intros x Hx; apply HB; right; auto|lia|].
      exists r. split; auto. destruct r as [c|].
      * destruct R2; split; [right; auto|auto].
      * intros x [<-|Hx]; auto.
Qed.

Lemma chain_length s m C b : Rep s m C -> (b < nh)%N -> length (C b) <= nl.
Proof.
  intros (R1 & R2 & R3) Hb. destruct (R1 b Hb) as (_ & _ & HN).
  rewrite <- (seq_length nl 0). apply NoDup_incl_length; auto.
  intros a Ha. apply in_seq. destruct (R2 b a Hb Ha). lia.
Qed.

(** The look-up returns the value of the map, without failure. *)
Lemma lookup_rep s m C k : (0 < nh)%N -> Rep s m C -> lookup nh nl s k = Some (m k).
Proof.
  intros Hn HR. pose proof HR as (R1 & R2 & R3). pose proof (bucket_lt k Hn) as Hb.
  destruct (R1 _ Hb) as (H1 & H2 & H3). unfold lookup. rewrite H1.
  destruct (walk_spec s k (C (bucket nh k)) nl nl H2) as (r & W1 & W2).
  - intros a Ha. apply (R2 _ a Hb Ha).
  - eapply chain_length; eauto.
  - rewrite W1. f_equal. destruct r as [a|].
    + destruct W2 as [Ha <-]. destruct (R2 _ a Hb Ha) as (_ & E & _). auto.
    + destruct (m k) as [a|] eqn:E; auto. exfalso. destruct (R3 k a E) as (E1 & _ & E2). exact (W2 a E2 E1).
Qed.

Lemma set_comm_if (P : bool) (f : nat -> nat) i v j : (if P then set f i v else f) j = (if (j =? i) then if P then v else f j else f j).
Proof. destruct P; unfold set; destruct (j =? i); auto. Qed.

Lemma rep_add s m C k l : (0 < nh)%N -> Rep s m C -> allowed nl (Map k l) m ->
  exists s' C', add_to_collision nh nl s k l = Some s' /\ Rep s' (spec_map k l m) C'.
Proof.
  intros Hn (R1 & R2 & R3) (Hv & Hk & Hl & Hfree). pose proof (bucket_lt k Hn) as Hb.
  assert (Hnew : forall b a, (b < nh)%N -> In a (C b) -> a <> l).
  { intros b a Hbb Ha ->. destruct (R2 b l Hbb Ha) as (_ & E & _). exact (Hfree _ E). }
  unfold add_to_collision. pose proof Hb as Hb'. apply N.ltb_lt in Hb'. rewrite Hb'.
  pose proof Hl as Hl'. apply Nat.ltb_lt in Hl'. rewrite Hl'. cbn [andb]. eexists.
  exists (fun b => if (b =? bucket nh k)%N then l :: C b else C b). split; [reflexivity|].
  destruct (R1 _ Hb) as (Q1 & Q2 & Q3).
  set (s' := set_hash _ _ _).
  assert (Hcore : forall a, core s' a = if a =? l then k else core s a).
  { intros a. unfold s'. destruct (negb (hash s (bucket nh k) =? nl)); reflexivity. }
  assert (Hnxt : forall a, nxt s' a = if a =? l then hash s (bucket nh k) else nxt s a).
  { intros a. unfold s'. destruct (negb (hash s (bucket nh k) =? nl)); reflexivity. }
  assert (Hprv : forall a, a <> l -> prv s' a = if negb (hash s (bucket nh k) =? nl) && (a =? hash s (bucket nh k)) then l else prv s a).
  { intros a Hal. unfold s'. apply Nat.eqb_neq in Hal.
    destruct (negb (hash s (bucket nh k) =? nl)); cbn; unfold set; rewrite ?Hal; auto. }
  assert (Hprvl : prv s' l = nl).
  { unfold s'. destruct (negb (hash s (bucket nh k) =? nl)) eqn:E; cbn; unfold set; rewrite Nat.eqb_refl; auto.
    destruct (Nat.eqb_spec l (hash s (bucket nh k))) as [Ee|]; auto.
    exfalso. rewrite Q1 in Ee, E. destruct (C (bucket nh k)) as [|y r] eqn:EC; cbn [hd] in *.
    - subst l. lia.
    - subst y. apply (Hnew (bucket nh k) l Hb); [rewrite EC; left; auto|auto]. }
  assert (Hhash : forall b, hash s' b = if (b =? bucket nh k)%N then l else hash s b).
  { intros b. unfold s'. destruct (negb (hash s (bucket nh k) =? nl)); reflexivity. }
  assert (Heqb : forall b a, (b < nh)%N -> In a (C b) -> (a =? l) = false).
  { intros b a Hbb Ha. apply Nat.eqb_neq. eapply Hnew; eauto. }
  split; [|split].
  - intros b Hbb. rewrite Hhash. destruct (N.eqb_spec b (bucket nh k)) as [->|Hne].
    + cbn [hd]. split; auto. split; [|constructor; auto; intros HH; exact (Hnew _ _ Hb HH eq_refl)].
      cbn [dll]. split; [auto|]. split; [rewrite Hnxt, Nat.eqb_refl; auto|].
      destruct (C (bucket nh k)) as [|y r] eqn:EC; [exact I|]. cbn [hd] in Q1. rewrite Q1 in *.
      cbn [dll] in Q2 |- *. destruct Q2 as (D1 & D2 & D3).
      assert (Hy : y <> l) by (apply (Hnew (bucket nh k)); auto; rewrite EC; left; auto).
      assert (Hynl : y < nl) by (apply (R2 (bucket nh k)); auto; rewrite EC; left; auto).
      split.
      { rewrite Hprv by auto. rewrite Nat.eqb_refl. destruct (Nat.eqb_spec y nl); [lia|auto]. }
      split; [rewrite Hnxt; apply Nat.eqb_neq in Hy; rewrite Hy; auto|].
      eapply dll_ext; [|exact D3]. intros a Ha.
      assert (Hal : a <> l) by (apply (Hnew (bucket nh k)); auto; rewrite EC; right; auto).
      apply NoDup_cons_iff in Q3 as [Hy2 _].
      rewrite Hprv by auto. rewrite Hnxt. apply Nat.eqb_neq in Hal. rewrite Hal.
      destruct (Nat.eqb_spec a y) as [->|]; [contradiction|]. rewrite andb_false_r. auto.
    + destruct (R1 b Hbb) as (P1 & P2 & P3). split; auto. split; auto.
      eapply dll_ext; [|exact P2]. intros a Ha.
      assert (Hal : a <> l) by (eapply Hnew; eauto).
      rewrite Hprv by auto. rewrite Hnxt. pose proof Hal as Hal'. apply Nat.eqb_neq in Hal'. rewrite Hal'.
      destruct (Nat.eqb_spec a (hash s (bucket nh k))) as [E|E]; [|rewrite andb_false_r; auto].
      destruct (Nat.eqb_spec (hash s (bucket nh k)) nl) as [E2|E2]; [auto|].
      exfalso. rewrite Q1 in E, E2. destruct (C (bucket nh k)) as [|y r] eqn:EC; cbn [hd] in *; [congruence|].
      subst y. assert (Hin : In a (C (bucket nh k))) by (rewrite EC; left; auto).
      destruct (R2 _ _ Hbb Ha) as (_ & _ & B1). destruct (R2 _ _ Hb Hin) as (_ & _ & B2). congruence.
  - intros b a Hbb Ha. rewrite Hcore. unfold spec_map.
    assert (Hold : In a (C b) -> a < nl /\
      (if key_eqb (if a =? l then k else core s a) k then Some l else m (if a =? l then k else core s a)) = Some a /\
      bucket nh (if a =? l then k else core s a) = b).
    { intros Hi. destruct (R2 b a Hbb Hi) as (A1 & A2 & A3). rewrite (Heqb b a Hbb Hi).
      destruct (key_eqb_spec (core s a) k) as [E|E]; [congruence|]. auto. }
    destruct (N.eqb_spec b (bucket nh k)) as [->|Hne]; [|auto].
    destruct Ha as [<-|Ha]; [|auto]. rewrite Nat.eqb_refl.
    destruct (key_eqb_spec k k); [|congruence]. auto.
  - intros k' a. unfold spec_map. destruct (key_eqb_spec k' k) as [->|Hkk].
    + intros HE; injection HE as <-. rewrite Hcore, Nat.eqb_refl. split; auto. split; auto.
      rewrite N.eqb_refl. left; auto.
    + intros E. destruct (R3 k' a E) as (A1 & A2 & A3). rewrite Hcore.
      assert (Hal : (a =? l) = false).
      { apply Nat.eqb_neq. intros ->. exact (Hfree _ E). }
      rewrite Hal. split; auto. split; auto.
      destruct (bucket nh k' =? bucket nh k)%N; [right; auto|auto].
Qed.

Lemma rep_remove s m C l : (0 < nh)%N -> Rep s m C -> allowed nl (Unmap l) m ->
  exists s' C', remove_from_collision nh nl s l = Some s' /\ Rep s' (spec_unmap l m) C'.
Proof.
  intros Hn (R1 & R2 & R3) (k & Hk). destruct (R3 k l Hk) as (Ek & Hv & Hin).
  pose proof (bucket_lt k Hn) as Hb. set (b0 := bucket nh k) in *.
  destruct (R2 _ _ Hb Hin) as (Hl & _ & _).
  destruct (in_split _ _ Hin) as (L1 & L2 & EC).
  destruct (R1 _ Hb) as (Q1 & Q2 & Q3).
  assert (HB0 : forall a, In a (L1 ++ l :: L2) -> a < nl).
  { intros a Ha. apply (R2 b0); auto. rewrite EC. auto. }
  rewrite EC in Q1, Q2, Q3.
  unfold remove_from_collision.
  pose proof Hl as Hl'. apply Nat.ltb_lt in Hl'. rewrite Hl'. cbn [negb].
  assert (Hc1 : forall x y z w (c1 c2 : bool),
    core (if c1 then set_collision_prev (if c2 then set_collision_next s x y else s) z w
          else (if c2 then set_collision_next s x y else s)) = core s).
  { intros x y z w [] []; auto. }
  assert (Hh1 : forall x y z w (c1 c2 : bool),
    hash (if c1 then set_collision_prev (if c2 then set_collision_next s x y else s) z w
          else (if c2 then set_collision_next s x y else s)) = hash s).
  { intros x y z w [] []; auto. }
  rewrite Hc1, Hh1, Ek. fold b0.
  pose proof Hb as Hb'. apply N.ltb_lt in Hb'. rewrite Hb'. cbn [negb].
  eexists. exists (fun b => if (b =? b0)%N then L1 ++ L2 else C b). split; [reflexivity|].
  match goal with |- Rep ?t _ _ => set (s' := t) end.
  set (n := nxt s l) in *. set (p := prv s l) in *.
  assert (Hcore : forall a, core s' a = if a =? l then no_key else core s a).
  { intros a. unfold s'. destruct (hash s b0 =? l), (negb (n =? nl)), (negb (p =? nl)); reflexivity. }
  assert (Hnxt : forall a, a <> l -> nxt s' a = if a =? p then if negb (p =? nl) then n else nxt s a else nxt s a).
  { intros a Hal. apply Nat.eqb_neq in Hal. unfold s'.
    destruct (hash s b0 =? l), (negb (n =? nl)), (negb (p =? nl)); cbn; unfold set; rewrite Hal;
      destruct (a =? p); auto. }
  assert (Hprv : forall a, a <> l -> prv s' a = if a =? n then if negb (n =? nl) then p else prv s a else prv s a).
  { intros a Hal. apply Nat.eqb_neq in Hal. unfold s'.
    destruct (hash s b0 =? l), (negb (n =? nl)), (negb (p =? nl)); cbn; unfold set; rewrite Hal;
      destruct (a =? n); auto. }
  assert (Hhash : forall b, hash s' b = if (b =? b0)%N && (hash s b0 =? l) then n else hash s b).
  { intros b. unfold s'. destruct (hash s b0 =? l), (negb (n =? nl)), (negb (p =? nl)); cbn; unfold setN;
      destruct (b =? b0)%N; reflexivity. }
  assert (Hnotin : ~ In l (L1 ++ L2)) by (apply NoDup_remove_2; auto).
  destruct (dll_app _ _ _ _ _ Q2) as (D1 & D2 & _). fold p in D1. fold n in D2.
  (* neighbours of l are in bucket b0 *)
  assert (Hpin : p = nl \/ In p (L1 ++ L2)).
  { rewrite D1. destruct L1 as [|c L1]; [left; auto|right]. apply in_or_app; left.
    clear. revert c. induction L1 as [|d L IH]; intros c; [left; auto|]. right. apply IH. }
  assert (Hnin : n = nl \/ In n (L1 ++ L2)).
  { rewrite D2. destruct L2 as [|c L2]; [left; auto|right]. apply in_or_app; right. left; auto. }
  assert (HC0 : forall a, In a (L1 ++ L2) -> In a (C b0)).
  { intros a Ha. rewrite EC. apply in_app_or in Ha as [Ha|Ha]; apply in_or_app; [auto|right; right; auto]. }
  split; [|split].
  - intros b Hbb. rewrite Hhash. destruct (N.eqb_spec b b0) as [->|Hne]; cbn [andb].
    + split; [|split].
      * rewrite Q1. destruct L1 as [|c L1]; cbn [app hd].
        -- rewrite Nat.eqb_refl. auto.
        -- destruct (Nat.eqb_spec c l) as [->|]; [|auto]. exfalso. apply Hnotin. left; auto.
      * apply (dll_remove s nl L1 l L2 s'); auto. intros a Ha.
        assert (a <> l) by (intros ->; contradiction).
        rewrite Hnxt, Hprv by auto. auto.
      * apply NoDup_remove_1 in Q3. auto.
    + destruct (R1 b Hbb) as (P1 & P2 & P3). split; auto. split; auto.
      eapply dll_ext; [|exact P2]. intros a Ha.
      assert (Hdis : ~ In a (C b0)).
      { intros Hi. destruct (R2 _ _ Hbb Ha) as (_ & _ & B1). destruct (R2 _ _ Hb Hi) as (_ & _ & B2). congruence. }
      assert (Hal : a <> l) by (intros ->; apply Hdis; rewrite EC; apply in_or_app; right; left; auto).
      assert (Hanl : a < nl) by (apply (R2 b); auto).
      rewrite Hnxt, Hprv by auto.
      destruct (Nat.eqb_spec a p) as [E|_].
      { exfalso. destruct Hpin as [|Hi]; [lia|]. apply Hdis, HC0. congruence. }
      destruct (Nat.eqb_spec a n) as [E|_].
      { exfalso. destruct Hnin as [|Hi]; [lia|]. apply Hdis, HC0. congruence. }
      auto.
  - intros b a Hbb Ha.
    assert (Hab : In a (C b) /\ a <> l).
    { destruct (N.eqb_spec b b0) as [->|Hne].
      - split; [auto|]. intros ->. contradiction.
      - split; auto. intros ->. destruct (R2 _ _ Hbb Ha) as (_ & _ & B1).
        rewrite Ek in B1. unfold b0 in Hne. congruence. }
    destruct Hab as [Hi Hal]. destruct (R2 b a Hbb Hi) as (A1 & A2 & A3).
    rewrite Hcore. pose proof Hal as Hal'. apply Nat.eqb_neq in Hal'. rewrite Hal'.
    unfold spec_unmap. rewrite A2, Hal'. auto.
  - intros k' a. unfold spec_unmap. destruct (m k') as [a'|] eqn:E; [|discriminate].
    destruct (Nat.eqb_spec a' l) as [|Hal]; [discriminate|]. intros HH; injection HH as <-.
    destruct (R3 k' a' E) as (A1 & A2 & A3). rewrite Hcore. pose proof Hal as Hal'. apply Nat.eqb_neq in Hal'.
    rewrite Hal'. split; auto. split; auto.
    destruct (N.eqb_spec (bucket nh k') b0) as [Eb|]; [|auto].
    rewrite Eb, EC in A3. apply in_app_or in A3 as [A3|[A3|A3]]; apply in_or_app; auto; congruence.
Qed.

Lemma rep_all ops : forall s m C, (0 < nh)%N -> Rep s m C -> allowed_all nl ops m ->
  exists s' C', exec_all nh nl ops s = Some s' /\ Rep s' (spec_all ops m) C'.
Proof.
  induction ops as [|o ops IH]; intros s m C Hn HR HA; cbn [exec_all spec_all fold_left].
  - eauto.
  - destruct HA as [H1 H2].
    assert (HX : exists s' C', exec nh nl o s = Some s' /\ Rep s' (spec_op o m) C').
    { destruct o as [k l|l]; cbn [exec spec_op]; [eapply rep_add|eapply rep_remove]; eauto. }
    destruct HX as (s1 & C1 & E & R). rewrite E. eapply IH; eauto.
Qed.

Lemma rep_empty : Rep (empty nl) (fun _ => None) (fun _ => []).
Proof.
  split; [|split].
  - intros b _. cbn. repeat split; auto. constructor.
  - intros b a _ [].
  - intros k a H; discriminate.
Qed.
End Coll.

(** ** C09 *)

(** After any sequence of map and unmap operations starting with an empty table:
    no operation fails, and every look-up ends and returns exactly what the partial
    map says. *)
Theorem C09_lookup_refines_map nh nl ops :
  (0 < nh)%N -> allowed_all nl ops (fun _ => None) ->
  exists s, exec_all nh nl ops (empty nl) = Some s /\
    forall k, lookup nh nl s k = Some (spec_all ops (fun _ => None) k).
Proof.
  intros Hn HA. destruct (rep_all nh nl ops _ _ _ Hn (rep_empty nh nl) HA) as (s & C & E & R).
  exists s. split; auto. intros k. eapply lookup_rep; eauto.
Qed.

(** The map is injective: a cache line holds one core line. *)
Theorem C09_injective nl ops : allowed_all nl ops (fun _ => None) ->
  forall k k' l, spec_all ops (fun _ => None) k = Some l -> spec_all ops (fun _ => None) k' = Some l -> k = k'.
Proof.
  assert (HG : forall ops m, (forall k k' l, m k = Some l -> m k' = Some l -> k = k') -> allowed_all nl ops m ->
     forall k k' l, spec_all ops m k = Some l -> spec_all ops m k' = Some l -> k = k').
  { clear. induction ops as [|o ops IH]; intros m Hm HA; cbn [spec_all fold_left]; auto.
    destruct HA as [H1 H2]. apply (IH (spec_op o m)); auto.
    destruct o as [k0 l0|l0]; cbn [spec_op allowed] in *.
    - destruct H1 as (_ & _ & _ & Hf). intros k k' l. unfold spec_map.
      destruct (key_eqb_spec k k0), (key_eqb_spec k' k0); intros E1 E2.
      + congruence.
      + exfalso. apply (Hf k'). congruence.
      + exfalso. apply (Hf k). congruence.
      + exact (Hm _ _ _ E1 E2).
    - intros k k' l. unfold spec_unmap.
      destruct (m k) as [a|] eqn:Ea; [|discriminate]. destruct (m k') as [b|] eqn:Eb; [|intros ?; discriminate].
      destruct (a =? l0), (b =? l0); try discriminate; intros E1 E2; try discriminate.
      eapply Hm; [exact Ea|]. congruence. }
  intros HA. apply HG; auto. intros k k' l H; discriminate.
Qed.

(** Operations on one core line do not change the look-up of another one. *)
Theorem C09_other_unchanged nh nl ops o s s' k :
  (0 < nh)%N -> allowed_all nl (ops ++ [o]) (fun _ => None) ->
  exec_all nh nl ops (empty nl) = Some s -> exec nh nl o s = Some s' ->
  match o with
  | Map k0 _ => k <> k0
  | Unmap l => lookup nh nl s k <> Some (Some l)
  end ->
  lookup nh nl s' k = lookup nh nl s k.
Proof.
  intros Hn HA E E' Hk.
  assert (HS : forall l1 l2 m, allowed_all nl (l1 ++ l2) m -> allowed_all nl l1 m /\ allowed_all nl l2 (spec_all l1 m)).
  { clear. induction l1 as [|a l1 IH]; intros l2 m H; cbn in *; auto. destruct H as [H1 H2].
    destruct (IH _ _ H2). auto. }
  destruct (HS _ _ _ HA) as [HA1 HA2].
  destruct (rep_all nh nl ops _ _ _ Hn (rep_empty nh nl) HA1) as (s1 & C & E1 & R).
  rewrite E in E1. injection E1 as <-.
  destruct (rep_all nh nl [o] _ _ _ Hn R HA2) as (s2 & C2 & E2 & R2). cbn [exec_all] in E2.
  rewrite E' in E2. injection E2 as <-.
  rewrite (lookup_rep nh nl _ _ _ k Hn R) in *. rewrite (lookup_rep nh nl _ _ _ k Hn R2).
  f_equal. cbn [spec_all fold_left]. fold (spec_all ops (fun _ => None)).
  destruct o as [k0 l|l]; cbn [spec_op].
  - unfold spec_map. destruct (key_eqb_spec k k0); [congruence|auto].
  - unfold spec_unmap. destruct (spec_all ops (fun _ => None) k) as [a|]; auto.
    destruct (Nat.eqb_spec a l); [congruence|auto].
Qed.

(** Three core lines in one bucket; the middle one is unmapped, its line reused. *)
Example C09_case :
  let ops := [Map (0, 1)%N 3; Map (0, 33)%N 0; Map (1, 0)%N 2; Unmap 0; Map (5, 7)%N 0] in
  bucket 32 (0, 1)%N = 1%N /\ bucket 32 (0, 33)%N = 1%N /\ bucket 32 (1, 0)%N = 1%N /\
  allowed_all 4 ops (fun _ => None) /\
  match exec_all 32 4 ops (empty 4) with
  | Some s => lookup 32 4 s (0, 1)%N = Some (Some 3) /\ lookup 32 4 s (0, 33)%N = Some None /\
              lookup 32 4 s (1, 0)%N = Some (Some 2) /\ lookup 32 4 s (5, 7)%N = Some (Some 0)
  | None => False
  end.
Proof.
  cbn zeta. split; [reflexivity|]. split; [reflexivity|]. split; [reflexivity|]. split; [|vm_compute; auto].
  cbn [allowed_all allowed].
  repeat match goal with
  | |- _ /\ _ => split
  | |- valid_key _ => reflexivity
  | |- _ < _ => lia
  | |- True => exact I
  | |- _ = None => reflexivity
  | |- forall k', _ => intros k'; unfold spec_op, spec_map, spec_unmap;
        repeat (match goal with |- context [key_eqb ?a ?b] => destruct (key_eqb a b) end; cbn); try discriminate
  end.
  exists (0, 33)%N. reflexivity.
Qed.

Print Assumptions C09_lookup_refines_map.
Print Assumptions C09_injective.
Print Assumptions C09_other_unchanged.

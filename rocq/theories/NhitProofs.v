(** Proofs about NhitModel.v: the ring buffer with hash chains behaves like a first-in
    first-out memory of core lines with counters. *)
From Coq Require Import List Bool NArith Arith Lia.
From Verif Require Import NhitModel.
Import ListNotations.
Open Scope nat_scope.

Lemma keyb_spec a b : reflect (a = b) (keyb a b).
Proof.
  destruct a as [a1 a2], b as [b1 b2]. unfold keyb. cbn [fst snd].
  destruct (N.eqb_spec a1 b1) as [E|E]; destruct (N.eqb_spec a2 b2) as [F|F]; cbn; constructor; congruence.
Qed.
Lemma keyb_refl a : keyb a a = true.
Proof. destruct (keyb_spec a a); [reflexivity|congruence]. Qed.

(** ** Doubly linked chains *)
Section chains.
  Variables n : nat.
  (** [dl nx pv p l]: the elements of l are linked in order, the first has predecessor p, the
      last has no successor. *)
  Fixpoint dl (nx pv : nat -> nat) (p : nat) (l : list nat) : Prop :=
    match l with
    | [] => True
    | x :: l' => pv x = p /\ nx x = hd n l' /\ dl nx pv x l'
    end.

  Lemma dl_ext nx pv nx' pv' l : forall p,
    (forall x, In x l -> nx' x = nx x /\ pv' x = pv x) -> dl nx pv p l -> dl nx' pv' p l.
  Proof.
    induction l as [|x l IH]; intros p E D; [exact I|].
    destruct D as [D1 [D2 D3]]. destruct (E x (or_introl eq_refl)) as [E1 E2].
    cbn [dl]. rewrite E1, E2. split; [exact D1|]. split; [exact D2|].
    apply IH; [intros y Y; apply E; right; exact Y|exact D3].
  Qed.

  Lemma hd_app_cons l1 (x : nat) l2 y : hd y (l1 ++ x :: l2) = hd x l1.
  Proof. destruct l1; reflexivity. Qed.

  Lemma dl_remove nx pv nx' pv' x l2 : forall l1 p,
    NoDup (l1 ++ x :: l2) -> ~ In p (l1 ++ x :: l2) -> (forall y, In y (l1 ++ x :: l2) -> y < n) ->
    (forall y, nx' y = if (y =? pv x) && negb (pv x =? n) then nx x else nx y) ->
    (forall y, pv' y = if (y =? nx x) && negb (nx x =? n) then pv x else pv y) ->
    dl nx pv p (l1 ++ x :: l2) -> dl nx' pv' p (l1 ++ l2).
  Proof.
    induction l1 as [|a l1 IH]; intros p ND NP LT N' P' D; cbn [app] in *.
    - destruct D as [D1 [D2 D3]]. apply NoDup_cons_iff in ND. destruct ND as [ND1 ND2].
      destruct l2 as [|y l2]; [exact I|].
      destruct D3 as [D4 [D5 D6]]. cbn [hd] in D2.
      assert (Ny : y < n) by (apply LT; right; left; reflexivity).
      cbn [dl]. split.
      + rewrite P', D2, Nat.eqb_refl. destruct (Nat.eqb_spec y n); [lia|]. exact D1.
      + split.
        * rewrite N'. destruct (Nat.eqb_spec y (pv x)) as [E|E]; [|exact D5].
          exfalso. apply NP. right. left. rewrite E. exact D1.
        * apply (dl_ext nx pv); [|exact D6]. intros z Z. split.
          -- rewrite N'. destruct (Nat.eqb_spec z (pv x)) as [E|E]; [|reflexivity].
             exfalso. apply NP. right. right. rewrite <- D1, <- E. exact Z.
          -- rewrite P', D2. destruct (Nat.eqb_spec z y) as [E|E]; [|reflexivity].
             subst z. apply NoDup_cons_iff in ND2. destruct ND2 as [ND2 _]. contradiction.
    - destruct D as [D1 [D2 D3]]. apply NoDup_cons_iff in ND. destruct ND as [ND1 ND2].
      assert (Na : a < n) by (apply LT; left; reflexivity).
      assert (Nx : x < n) by (apply LT; right; apply in_or_app; right; left; reflexivity).
      assert (Da : forall y, In y (l1 ++ x :: l2) -> y <> a)
        by (intros y Y E; subst y; contradiction).
      assert (D3' := D3).
      specialize (IH a ND2 ND1 (fun y Y => LT y (or_intror Y)) N' P' D3).
      cbn [dl]. split; [|split; [|exact IH]].
      + rewrite P'. destruct (Nat.eqb_spec a (nx x)) as [E|E]; [|exact D1].
        (* nx x is in the list after x or n *)
        destruct (Nat.eqb_spec (nx x) n) as [E2|E2]; [lia|].
        exfalso. clear IH D1 D2.
        assert (Q : forall l p, dl nx pv p (l ++ x :: l2) -> nx x = hd n l2).
        { clear. induction l as [|z l IHl]; intros p D; cbn [app dl] in D.
          - exact (proj1 (proj2 D)).
          - exact (IHl _ (proj2 (proj2 D))). }
        rewrite (Q l1 a D3') in E, E2. destruct l2 as [|z l2]; cbn [hd] in *; [lia|].
        apply (Da z); [apply in_or_app; right; right; left; reflexivity|]. symmetry. exact E.
      + rewrite N'. destruct l1 as [|b l1]; cbn [app hd] in *.
        * (* a is just before x *)
          destruct D3' as [E1 [E2 _]]. rewrite E1, Nat.eqb_refl.
          destruct (Nat.eqb_spec a n); [lia|]. cbn. exact E2.
        * destruct (Nat.eqb_spec a (pv x)) as [E|E]; [|exact D2].
          exfalso.
          assert (Q : forall l p, dl nx pv p (l ++ x :: l2) -> pv x = p \/ In (pv x) l).
          { clear. induction l as [|z l IHl]; intros p D; cbn [app dl] in D.
            - left. exact (proj1 D).
            - right. destruct (IHl _ (proj2 (proj2 D))) as [Z|Z]; [left; symmetry; exact Z|right; exact Z]. }
          destruct D3' as [_ [_ D4]].
          destruct (Q l1 b D4) as [Z|Z].
          -- apply (Da b); [left; reflexivity|]. congruence.
          -- apply (Da (pv x)); [right; apply in_or_app; left; exact Z|]. symmetry. exact E.
  Qed.

  Lemma dl_cons nx pv nx' pv' x l :
    ~ In x l -> (forall y, In y l -> y < n) -> NoDup l ->
    nx' x = hd n l -> pv' x = n ->
    (forall y, y <> x -> nx' y = nx y) ->
    (forall y, In y l -> pv' y = if y =? hd n l then x else pv y) ->
    dl nx pv n l -> dl nx' pv' n (x :: l).
  Proof.
    intros NI LT ND Nx Px N' P' D. cbn [dl]. split; [exact Px|]. split; [exact Nx|].
    destruct l as [|a l]; [exact I|]. destruct D as [_ [D2 D3]].
    assert (Ax : a <> x) by (intro E; apply NI; left; exact E).
    cbn [dl]. split; [rewrite P' by (left; reflexivity); cbn [hd]; rewrite Nat.eqb_refl; reflexivity|].
    split; [rewrite N' by exact Ax; exact D2|].
    apply (dl_ext nx pv); [|exact D3]. intros z Z.
    assert (Zx : z <> x) by (intro E; apply NI; right; rewrite <- E; exact Z).
    split; [apply N'; exact Zx|]. rewrite P' by (right; exact Z). cbn [hd].
    destruct (Nat.eqb_spec z a) as [E|E]; [|reflexivity].
    subst z. apply NoDup_cons_iff in ND. destruct ND as [ND _]. contradiction.
  Qed.
End chains.

Definition nx (s : nh) x := coll_next (ring s x).
Definition pv (s : nh) x := coll_prev (ring s x).
Definition ow (s : nh) x := owner (ring s x).

Definition chains (n H : nat) (s : nh) (ch : nat -> list nat) : Prop :=
  forall b, b < H -> hash_map s b = hd n (ch b) /\ dl n (nx s) (pv s) n (ch b) /\ NoDup (ch b)
                     /\ (forall x, In x (ch b) <-> x < n /\ exists k, ow s x = Some k /\ hash_function H k = b).
Definition uniq (n : nat) (s : nh) : Prop :=
  forall x y k, x < n -> y < n -> ow s x = Some k -> ow s y = Some k -> x = y.

Lemma hash_lt H k : 0 < H -> hash_function H k < H.
Proof.
  intro P. unfold hash_function.
  assert (Q : (((snd k * HASH_PRIME + fst k) mod M64) mod N.of_nat H < N.of_nat H)%N) by (apply N.mod_lt; lia).
  lia.
Qed.

Lemma nodup_len n l : NoDup l -> (forall x, In x l -> x < n) -> length l <= n.
Proof.
  intros ND LT. rewrite <- (seq_length n 0). apply NoDup_incl_length; [exact ND|].
  intros x X. apply in_seq. specialize (LT x X). lia.
Qed.

Lemma lookup_loop_ok n s k : forall l fuel p,
  dl n (nx s) (pv s) p l -> (forall x, In x l -> x < n) -> length l < fuel ->
  exists x, lookup_loop fuel n s k (hd n l) = Some x /\
    ((In x l /\ ow s x = Some k) \/ (x = n /\ forall y, In y l -> ow s y <> Some k)).
Proof.
  induction l as [|a l IH]; intros fuel p D LT F; (destruct fuel as [|fuel]; [cbn in F; lia|]); cbn [lookup_loop hd].
  - rewrite Nat.eqb_refl. exists n. split; [reflexivity|]. right. split; [reflexivity|intros y []].
  - assert (An : a < n) by (apply LT; left; reflexivity).
    destruct (Nat.eqb_spec a n); [lia|]. destruct D as [D1 [D2 D3]].
    fold (ow s a). destruct (ow s a) as [o|] eqn:O.
    + destruct (keyb_spec o k) as [E|E].
      * exists a. split; [reflexivity|]. left. split; [left; reflexivity|]. rewrite O, E. reflexivity.
      * fold (nx s a). rewrite D2.
        destruct (IH fuel a D3 (fun x X => LT x (or_intror X)) ltac:(cbn in F; lia)) as [x [L C]].
        exists x. split; [exact L|]. destruct C as [[C1 C2]|[C1 C2]].
        -- left. split; [right; exact C1|exact C2].
        -- right. split; [exact C1|]. intros y [Y|Y]; [subst y; rewrite O; congruence|apply C2; exact Y].
    + fold (nx s a). rewrite D2.
      destruct (IH fuel a D3 (fun x X => LT x (or_intror X)) ltac:(cbn in F; lia)) as [x [L C]].
      exists x. split; [exact L|]. destruct C as [[C1 C2]|[C1 C2]].
      -- left. split; [right; exact C1|exact C2].
      -- right. split; [exact C1|]. intros y [Y|Y]; [subst y; rewrite O; discriminate|apply C2; exact Y].
Qed.

Lemma lookup_ok n H s ch k : 0 < H -> chains n H s ch ->
  exists x, core_line_lookup n H s k = Some x /\
    ((x < n /\ ow s x = Some k) \/ (x = n /\ forall y, y < n -> ow s y <> Some k)).
Proof.
  intros HP C. destruct (C (hash_function H k) (hash_lt H k HP)) as [C1 [C2 [C3 C4]]].
  unfold core_line_lookup. rewrite C1.
  assert (LT : forall x, In x (ch (hash_function H k)) -> x < n) by (intros x X; exact (proj1 (proj1 (C4 x) X))).
  destruct (lookup_loop_ok n s k (ch (hash_function H k)) (S n) n C2 LT) as [x [L D]].
  { pose proof (nodup_len n _ C3 LT). lia. }
  exists x. split; [exact L|]. destruct D as [[D1 D2]|[D1 D2]].
  - left. split; [apply LT; exact D1|exact D2].
  - right. split; [exact D1|]. intros y Y E. apply (D2 y); [|exact E].
    apply C4. split; [exact Y|]. exists k. split; [exact E|reflexivity].
Qed.

(** ** Insertion *)
Lemma chains_ext n H s s' ch :
  (forall b, b < H -> hash_map s' b = hash_map s b) ->
  (forall x, nx s' x = nx s x /\ pv s' x = pv s x /\ ow s' x = ow s x) -> chains n H s ch -> chains n H s' ch.
Proof.
  intros EH E C b B. destruct (C b B) as [C1 [C2 [C3 C4]]].
  split; [rewrite EH by exact B; exact C1|]. split.
  - apply (dl_ext n (nx s) (pv s)); [|exact C2]. intros x _. destruct (E x) as [E1 [E2 _]]. split; assumption.
  - split; [exact C3|]. intro x. destruct (E x) as [_ [_ E3]]. rewrite E3. apply C4.
Qed.

Definition chd (ch : nat -> list nat) b (v : list nat) : nat -> list nat := fun c => if c =? b then v else ch c.

Ltac fin := unfold upd; cbn [hash_map ring rb_pointer set_ring owner counter coll_prev coll_next valid
  set_next set_prev set_counter set_owner set_valid].

(** What removal does to every element. *)
Lemma remove_fields n H slot s o : ow s slot = Some o -> pv s slot <> slot -> nx s slot <> slot ->
  let s' := collision_remove n H slot s in
  (forall y, ow s' y = if y =? slot then None else ow s y) /\
  (forall y, nx s' y = if (y =? pv s slot) && negb (pv s slot =? n) then nx s slot else nx s y) /\
  (forall y, pv s' y = if (y =? nx s slot) && negb (nx s slot =? n) then pv s slot else pv s y) /\
  (forall y, counter (ring s' y) = counter (ring s y)) /\ (forall y, valid (ring s' y) = valid (ring s y)) /\
  rb_pointer s' = rb_pointer s /\
  (forall b, hash_map s' b = if (b =? hash_function H o) && (hash_map s b =? slot) then nx s slot else hash_map s b).
Proof.
  intros O Np Nn. unfold collision_remove. fold (ow s slot). rewrite O.
  unfold nx, pv, ow in *.
  remember (coll_prev (ring s slot)) as p eqn:Ep. remember (coll_next (ring s slot)) as q eqn:Eq.
  cbn zeta. unfold set_ring. cbn [ring hash_map rb_pointer].
  remember (hash_function H o) as h eqn:Eh. clear Eh.
  assert (E1 : upd (ring s) slot (set_owner None (ring s slot)) slot = set_owner None (ring s slot))
    by (unfold upd; rewrite Nat.eqb_refl; reflexivity).
  rewrite E1. cbn [coll_prev set_owner]. rewrite <- Ep.
  match goal with |- context [if p =? n then ?a else ?b] => remember (if p =? n then a else b) as s1 eqn:E2 end.
  assert (F : hash_map s1 = hash_map s /\ rb_pointer s1 = rb_pointer s /\
              (forall y, ring s1 y = if y =? slot then set_owner None (ring s slot)
                                     else if (y =? p) && negb (p =? n) then set_next q (ring s p) else ring s y)).
  { subst s1. destruct (Nat.eqb_spec p n) as [Pn|Pn]; (split; [reflexivity|split; [reflexivity|]]); intro y; fin.
    - rewrite andb_false_r. reflexivity.
    - rewrite <- ?Eq.
      destruct (Nat.eqb_spec y p) as [Y|Y]; cbn [andb negb]; [|reflexivity].
      subst y. destruct (Nat.eqb_spec p slot) as [Z|Z]; [contradiction|reflexivity]. }
  clear E2. destruct F as [F1 [F2 F3]].
  assert (E3 : ring s1 slot = set_owner None (ring s slot)) by (rewrite F3, Nat.eqb_refl; reflexivity).
  rewrite E3. cbn [coll_prev coll_next set_owner]. rewrite <- Ep, <- Eq.
  match goal with |- context [if q =? n then ?a else ?b] => remember (if q =? n then a else b) as s2 eqn:E2 end.
  assert (F : hash_map s2 = hash_map s /\ rb_pointer s2 = rb_pointer s /\
              (forall y, ring s2 y = if (y =? q) && negb (q =? n) then set_prev p (ring s1 q) else ring s1 y)).
  { subst s2. destruct (Nat.eqb_spec q n) as [Qn|Qn].
    - split; [exact F1|]. split; [exact F2|]. intro y. rewrite andb_false_r. reflexivity.
    - split; [exact F1|]. split; [exact F2|]. intro y. fin.
      destruct (Nat.eqb_spec y q) as [Y|Y]; reflexivity. }
  clear E2. destruct F as [G1 [G2 G3]].
  assert (E4 : ring s2 slot = set_owner None (ring s slot)).
  { rewrite G3. destruct (Nat.eqb_spec slot q) as [Z|Z]; [congruence|]. exact E3. }
  rewrite E4. cbn [coll_next set_owner]. rewrite <- Eq, G1.
  match goal with |- context [if hash_map s h =? slot then ?a else ?b] => remember (if hash_map s h =? slot then a else b) as s3 eqn:E2 end.
  assert (R : ring s3 = ring s2) by (subst s3; destruct (hash_map s h =? slot); reflexivity).
  assert (P : rb_pointer s3 = rb_pointer s) by (subst s3; destruct (hash_map s h =? slot); [exact G2|exact G2]).
  rewrite R.
  split; [|split; [|split; [|split; [|split; [|split; [exact P|]]]]]].
  6:{ intro b. subst s3. destruct (Nat.eqb_spec (hash_map s h) slot) as [Z|Z]; fin; rewrite ?G1;
        destruct (Nat.eqb_spec b h) as [B|B]; cbn [andb]; try reflexivity; subst b;
        destruct (Nat.eqb_spec (hash_map s h) slot); try reflexivity; contradiction. }
  all: intro y; rewrite G3, (F3 q), (F3 y);
    destruct (Nat.eqb_spec q slot) as [Z|_]; [contradiction|];
    destruct (Nat.eqb_spec y q) as [Y1|Y1]; destruct (Nat.eqb_spec q n) as [Y2|Y2];
    destruct (Nat.eqb_spec y slot) as [Y3|Y3]; destruct (Nat.eqb_spec p n) as [Y4|Y4];
    destruct (Nat.eqb_spec q p) as [Y5|Y5]; destruct (Nat.eqb_spec y p) as [Y6|Y6];
    cbn [andb negb owner counter coll_prev coll_next valid set_owner set_next set_prev]; congruence.
Qed.

Lemma dl_pv_in n nx pv l : forall p x, dl n nx pv p l -> In x l -> pv x = p \/ In (pv x) l.
Proof.
  induction l as [|a l IH]; intros p x D X; [destruct X|].
  destruct D as [D1 [D2 D3]]. destruct X as [X|X]; [subst x; left; exact D1|].
  right. destruct (IH a x D3 X) as [E|E]; [left; symmetry; exact E|right; exact E].
Qed.
Lemma dl_nx_in n nx pv l : forall p x, dl n nx pv p l -> In x l -> nx x = n \/ In (nx x) l.
Proof.
  induction l as [|a l IH]; intros p x D X; [destruct X|].
  destruct D as [D1 [D2 D3]]. destruct X as [X|X].
  - subst x. rewrite D2. destruct l as [|b l]; [left; reflexivity|right; right; left; reflexivity].
  - destruct (IH a x D3 X) as [E|E]; [left; exact E|right; right; exact E].
Qed.
Lemma dl_pv_ne n nx pv l : forall p x, dl n nx pv p l -> NoDup l -> ~ In p l -> In x l -> pv x <> x.
Proof.
  induction l as [|a l IH]; intros p x D ND NP X; [destruct X|].
  destruct D as [D1 [D2 D3]]. apply NoDup_cons_iff in ND. destruct ND as [N1 N2]. destruct X as [X|X].
  - subst x. rewrite D1. intro E. apply NP. left. symmetry. exact E.
  - apply (IH a x D3 N2 N1 X).
Qed.
Lemma dl_nx_ne n nx pv l : forall p x, dl n nx pv p l -> NoDup l -> (forall x, In x l -> x < n) -> In x l -> nx x <> x.
Proof.
  induction l as [|a l IH]; intros p x D ND LT X; [destruct X|].
  destruct D as [D1 [D2 D3]]. apply NoDup_cons_iff in ND. destruct ND as [N1 N2]. destruct X as [X|X].
  - subst x. rewrite D2. destruct l as [|b l]; cbn [hd].
    + specialize (LT a (or_introl eq_refl)). lia.
    + intro E. apply N1. left. exact E.
  - apply (IH a x D3 N2 (fun y Y => LT y (or_intror Y)) X).
Qed.

Lemma ch_lt n H s ch b x : chains n H s ch -> b < H -> In x (ch b) -> x < n.
Proof. intros C B X. destruct (C b B) as [_ [_ [_ C4]]]. exact (proj1 (proj1 (C4 x) X)). Qed.
Lemma ch_disj n H s ch a b x : chains n H s ch -> a < H -> b < H -> In x (ch a) -> In x (ch b) -> a = b.
Proof.
  intros C A B XA XB. destruct (C a A) as [_ [_ [_ CA]]]. destruct (C b B) as [_ [_ [_ CB]]].
  apply CA in XA. apply CB in XB. destruct XA as [_ [k [K1 K2]]]. destruct XB as [_ [k' [K3 K4]]]. congruence.
Qed.

Lemma remove_chains n H slot s ch : 0 < H -> slot < n -> chains n H s ch ->
  exists ch', chains n H (collision_remove n H slot s) ch'.
Proof.
  intros HP SL C. destruct (ow s slot) as [o|] eqn:O.
  2:{ exists ch. unfold collision_remove. fold (ow s slot). rewrite O. exact C. }
  set (h := hash_function H o). assert (Hh : h < H) by (apply hash_lt; exact HP).
  destruct (C h Hh) as [C1 [C2 [C3 C4]]].
  assert (IN : In slot (ch h)) by (apply C4; split; [exact SL|exists o; split; [exact O|reflexivity]]).
  assert (LT : forall x, In x (ch h) -> x < n) by (intros x X; apply (ch_lt n H s ch h); assumption).
  assert (NN : ~ In n (ch h)) by (intro Q; specialize (LT n Q); lia).
  pose proof (dl_pv_ne n _ _ _ _ _ C2 C3 NN IN) as Np.
  pose proof (dl_nx_ne n _ _ _ _ _ C2 C3 LT IN) as Nn.
  destruct (remove_fields n H slot s o O Np Nn) as [R1 [R2 [R3 [R4 [R5 [R6 R7]]]]]].
  destruct (in_split _ _ IN) as [l1 [l2 SP]].
  exists (chd ch h (l1 ++ l2)). intros b B. unfold chd.
  destruct (Nat.eqb_spec b h) as [E|E].
  - subst b. rewrite SP in C1, C2, C3.
    assert (ND2 : NoDup (l1 ++ l2)) by (apply NoDup_remove_1 in C3; exact C3).
    assert (NS : ~ In slot (l1 ++ l2)) by (apply NoDup_remove_2 in C3; exact C3).
    split; [|split; [|split; [exact ND2|]]].
    + rewrite R7. fold h. rewrite Nat.eqb_refl. cbn [andb]. rewrite C1.
      destruct l1 as [|a l1]; cbn [app hd] in *.
      * rewrite Nat.eqb_refl. destruct C2 as [_ [C2 _]]. exact C2.
      * destruct (Nat.eqb_spec a slot) as [Q|Q]; [|reflexivity].
        exfalso. apply NS. left. exact Q.
    + apply (dl_remove n (nx s) (pv s) _ _ slot); [exact C3|rewrite <- SP; exact NN|rewrite <- SP; exact LT|exact R2|exact R3|exact C2].
    + intro x. rewrite R1. specialize (C4 x). rewrite SP in C4. rewrite in_app_iff in *. cbn [In] in C4.
      destruct (Nat.eqb_spec x slot) as [Q|Q].
      * subst x. split; [intro X; exfalso; apply NS; exact X|].
        intros [_ [k [K _]]]. discriminate K.
      * split.
        -- intro X. apply C4. destruct X as [X|X]; [left; exact X|right; right; exact X].
        -- intro X. apply C4 in X. destruct X as [X|[X|X]]; [left; exact X|congruence|right; exact X].
  - destruct (C b B) as [D1 [D2 [D3 D4]]].
    split; [|split; [|split; [exact D3|]]].
    + rewrite R7. destruct (Nat.eqb_spec b (hash_function H o)) as [Q|Q]; [contradiction|]. exact D1.
    + apply (dl_ext n (nx s) (pv s)); [|exact D2]. intros x X. split.
      * rewrite R2. destruct (Nat.eqb_spec x (pv s slot)) as [Q|Q]; [|reflexivity].
        destruct (Nat.eqb_spec (pv s slot) n) as [Q2|Q2]; [reflexivity|]. exfalso. apply E.
        destruct (dl_pv_in n _ _ _ _ _ C2 IN) as [W|W]; [contradiction|].
        rewrite <- Q in W. apply (ch_disj n H s ch b h x C B Hh X W).
      * rewrite R3. destruct (Nat.eqb_spec x (nx s slot)) as [Q|Q]; [|reflexivity].
        destruct (Nat.eqb_spec (nx s slot) n) as [Q2|Q2]; [reflexivity|]. exfalso. apply E.
        destruct (dl_nx_in n _ _ _ _ _ C2 IN) as [W|W]; [contradiction|].
        rewrite <- Q in W. apply (ch_disj n H s ch b h x C B Hh X W).
    + intro x. rewrite R1. destruct (Nat.eqb_spec x slot) as [Q|Q]; [|apply D4].
      subst x. split.
      * intro X. exfalso. apply E. apply (ch_disj n H s ch b h slot C B Hh X IN).
      * intros [_ [k [K _]]]. discriminate K.
Qed.

Lemma remove_owner n H slot s ch : 0 < H -> slot < n -> chains n H s ch ->
  let s' := collision_remove n H slot s in
  (forall y, ow s' y = if y =? slot then None else ow s y) /\
  (forall y, counter (ring s' y) = counter (ring s y)) /\ (forall y, valid (ring s' y) = valid (ring s y)) /\
  rb_pointer s' = rb_pointer s.
Proof.
  intros HP SL C. destruct (ow s slot) as [o|] eqn:O.
  2:{ unfold collision_remove. fold (ow s slot). rewrite O. cbn zeta.
      split; [intro y; destruct (Nat.eqb_spec y slot); [subst y; exact O|reflexivity]|].
      split; [reflexivity|]. split; reflexivity. }
  set (h := hash_function H o). assert (Hh : h < H) by (apply hash_lt; exact HP).
  destruct (C h Hh) as [C1 [C2 [C3 C4]]].
  assert (IN : In slot (ch h)) by (apply C4; split; [exact SL|exists o; split; [exact O|reflexivity]]).
  assert (LT : forall x, In x (ch h) -> x < n) by (intros x X; apply (ch_lt n H s ch h); assumption).
  assert (NN : ~ In n (ch h)) by (intro Q; specialize (LT n Q); lia).
  pose proof (dl_pv_ne n _ _ _ _ _ C2 C3 NN IN) as Np.
  pose proof (dl_nx_ne n _ _ _ _ _ C2 C3 LT IN) as Nn.
  destruct (remove_fields n H slot s o O Np Nn) as [R1 [R2 [R3 [R4 [R5 [R6 R7]]]]]].
  cbn zeta. split; [exact R1|]. split; [exact R4|]. split; [exact R5|exact R6].
Qed.

Lemma insert_fields n H slot k s : hash_map s (hash_function H k) <> slot ->
  let s' := collision_insert_new n H slot k s in
  let f := hash_map s (hash_function H k) in
  (forall y, ow s' y = if y =? slot then Some k else ow s y) /\
  (forall y, nx s' y = if y =? slot then f else nx s y) /\
  (forall y, pv s' y = if y =? slot then n else if (y =? f) && negb (f =? n) then slot else pv s y) /\
  (forall y, counter (ring s' y) = if y =? slot then 1%N else counter (ring s y)) /\
  (forall y, valid (ring s' y) = valid (ring s y)) /\ rb_pointer s' = rb_pointer s /\
  (forall b, hash_map s' b = if b =? hash_function H k then slot else hash_map s b).
Proof.
  intro NE. unfold collision_insert_new, nx, pv, ow. remember (hash_function H k) as h eqn:Eh. clear Eh.
  remember (hash_map s h) as f eqn:Ef. cbn zeta. unfold set_ring. cbn [ring hash_map rb_pointer]. rewrite <- Ef.
  destruct (Nat.eqb_spec f n) as [Fn|Fn]; cbn [ring hash_map rb_pointer];
  (split; [|split; [|split; [|split; [|split; [|split; [reflexivity|intro b; reflexivity]]]]]]).
  all: intro y; fin; destruct (Nat.eqb_spec f slot) as [Z|_]; [contradiction|];
    destruct (Nat.eqb_spec y f) as [Y1|Y1]; destruct (Nat.eqb_spec y slot) as [Y2|Y2];
    cbn [andb negb owner counter coll_prev coll_next valid set_prev]; congruence.
Qed.

Lemma insert_chains n H slot k s ch : 0 < H -> slot < n -> chains n H s ch -> ow s slot = None ->
  (exists ch', chains n H (collision_insert_new n H slot k s) ch') /\ hash_map s (hash_function H k) <> slot.
Proof.
  intros HP SL C O. set (h := hash_function H k). assert (Hh : h < H) by (apply hash_lt; exact HP).
  assert (NS : forall b, b < H -> ~ In slot (ch b)).
  { intros b B X. destruct (C b B) as [_ [_ [_ C4]]]. apply C4 in X. destruct X as [_ [o [X _]]]. congruence. }
  destruct (C h Hh) as [C1 [C2 [C3 C4]]].
  assert (NE : hash_map s h <> slot).
  { rewrite C1. destruct (ch h) as [|a l] eqn:CH; cbn [hd]; [lia|]. intro E. apply (NS h Hh). rewrite CH. left. exact E. }
  split; [|exact NE].
  destruct (insert_fields n H slot k s NE) as [R1 [R2 [R3 [R4 [R5 [R6 R7]]]]]]. fold h in R2, R3, R7.
  assert (LT : forall x, In x (ch h) -> x < n) by (intros x X; apply (ch_lt n H s ch h); assumption).
  exists (chd ch h (slot :: ch h)). intros b B. unfold chd.
  destruct (Nat.eqb_spec b h) as [E|E].
  - subst b. split; [|split; [|split; [constructor; [apply NS; exact Hh|exact C3]|]]].
    + rewrite R7, Nat.eqb_refl. reflexivity.
    + apply (dl_cons n (nx s) (pv s)); [apply NS; exact Hh|exact LT|exact C3| | | | |exact C2].
      * rewrite R2, Nat.eqb_refl. exact C1.
      * rewrite R3, Nat.eqb_refl. reflexivity.
      * intros y Y. rewrite R2. destruct (Nat.eqb_spec y slot); [contradiction|reflexivity].
      * intros y Y. rewrite R3. destruct (Nat.eqb_spec y slot) as [Q|Q]; [subst y; exfalso; exact (NS h Hh Y)|].
        rewrite C1. destruct (Nat.eqb_spec y (hd n (ch h))) as [Q2|Q2]; [|reflexivity].
        destruct (Nat.eqb_spec (hd n (ch h)) n) as [Q3|Q3]; [|reflexivity].
        specialize (LT y Y). lia.
    + intro x. rewrite R1. cbn [In]. specialize (C4 x). destruct (Nat.eqb_spec x slot) as [Q|Q].
      * subst x. split; [intros _; split; [exact SL|exists k; split; reflexivity]|intros _; left; reflexivity].
      * rewrite <- C4. split; [intros [X|X]; [congruence|exact X]|intro X; right; exact X].
  - destruct (C b B) as [D1 [D2 [D3 D4]]].
    split; [|split; [|split; [exact D3|]]].
    + rewrite R7. destruct (Nat.eqb_spec b h) as [Q|Q]; [contradiction|]. exact D1.
    + apply (dl_ext n (nx s) (pv s)); [|exact D2]. intros x X.
      assert (Xs : x <> slot) by (intro Q; subst x; exact (NS b B X)).
      split.
      * rewrite R2. destruct (Nat.eqb_spec x slot); [contradiction|reflexivity].
      * rewrite R3. destruct (Nat.eqb_spec x slot); [contradiction|].
        destruct (Nat.eqb_spec x (hash_map s h)) as [Q|Q]; [|reflexivity].
        destruct (Nat.eqb_spec (hash_map s h) n) as [Q2|Q2]; [reflexivity|]. exfalso. apply E.
        rewrite C1 in Q, Q2. destruct (ch h) as [|a l] eqn:CH; cbn [hd] in Q, Q2; [contradiction|].
        apply (ch_disj n H s ch b h x C B Hh X). rewrite CH. left. symmetry. exact Q.
    + intro x. rewrite R1. destruct (Nat.eqb_spec x slot) as [Q|Q]; [|apply D4].
      subst x. split; [intro X; exfalso; exact (NS b B X)|].
      intros [_ [k' [K1 K2]]]. injection K1 as K1. subst k'. exfalso. apply E. symmetry. exact K2.
Qed.

(** ** The first-in first-out memory *)
Fixpoint fget (k : key) (m : list (key * N)) : option N :=
  match m with
  | [] => None
  | (k', c) :: m => if keyb k' k then Some c else fget k m
  end.
Definition fset (k : key) (c : N) (m : list (key * N)) : list (key * N) :=
  map (fun e => if keyb (fst e) k then (fst e, c) else e) m.

(** Slot of the i-th most recent insertion when T insertions happened. *)
Definition islot (n T i : nat) : nat := (T - 1 - i) mod n.

Record inv (n H : nat) (s : nh) (T : nat) (m : list (key * N)) : Prop := {
  i_ch : exists ch, chains n H s ch;
  i_un : uniq n s;
  i_va : forall x, x < n -> valid (ring s x) = true;
  i_pt : rb_pointer s = T mod n;
  i_len : length m = Nat.min n T;
  i_mem : forall i k c, nth_error m i = Some (k, c) ->
            ow s (islot n T i) = Some k /\ counter (ring s (islot n T i)) = c;
  i_fresh : forall x, T <= x -> x < n -> ow s x = None }.

Lemma mod_inj n a b : 0 < n -> a < b -> b < a + n -> a mod n <> b mod n.
Proof.
  intros P L U E. pose proof (Nat.div_mod a n ltac:(lia)) as A. pose proof (Nat.div_mod b n ltac:(lia)) as B.
  rewrite E in A. assert (Q : a / n < b / n \/ b / n <= a / n) by lia. destruct Q as [Q|Q]; nia.
Qed.

Lemma islot_inj n T i j : 0 < n -> i < Nat.min n T -> j < Nat.min n T -> islot n T i = islot n T j -> i = j.
Proof.
  intros P I J E. unfold islot in E. destruct (Nat.lt_trichotomy i j) as [L|[L|L]]; [exfalso|exact L|exfalso].
  - apply (mod_inj n (T - 1 - j) (T - 1 - i)); [lia|lia|lia|symmetry; exact E].
  - apply (mod_inj n (T - 1 - i) (T - 1 - j)); [lia|lia|lia|exact E].
Qed.

(** Every slot in use is the slot of one of the remembered insertions. *)
Lemma slot_index n T x : 0 < n -> x < n -> x < T -> exists i, i < Nat.min n T /\ islot n T i = x.
Proof.
  intros P X XT. unfold islot.
  exists ((T - 1 - x) mod n).
  assert (A : (T - 1 - x) mod n < n) by (apply Nat.mod_upper_bound; lia).
  assert (B : (T - 1 - x) mod n <= T - 1 - x) by (apply Nat.mod_le; lia).
  split; [lia|].
  pose proof (Nat.div_mod (T - 1 - x) n ltac:(lia)) as D.
  set (r := (T - 1 - x) mod n) in *. set (q := (T - 1 - x) / n) in *. clearbody r q.
  replace (T - 1 - r) with (x + q * n) by nia.
  rewrite Nat.mod_add by lia. apply Nat.mod_small. exact X.
Qed.

Lemma fget_nth m : forall k, match fget k m with
  | Some c => exists i, nth_error m i = Some (k, c) /\ forall j c', j < i -> nth_error m j <> Some (k, c')
  | None => forall i c, nth_error m i <> Some (k, c) end.
Proof.
  induction m as [|[k' c'] m IH]; intro k; cbn [fget].
  - intros i c. destruct i; discriminate.
  - destruct (keyb_spec k' k) as [E|E].
    + subst k'. exists 0. split; [reflexivity|]. intros j c'' J. lia.
    + specialize (IH k). destruct (fget k m) as [c|].
      * destruct IH as [i [I1 I2]]. exists (S i). split; [exact I1|].
        intros j c'' J. destruct j as [|j]; [intro Q; injection Q as Q1 Q2; contradiction|apply (I2 j c''); lia].
      * intros i c. destruct i as [|i]; [intro Q; injection Q as Q1 Q2; contradiction|apply IH].
Qed.

(** Looking up a core line: found exactly when remembered, in its slot. *)
Lemma lookup_mem n H s T m k : 0 < n -> 0 < H -> inv n H s T m ->
  match fget k m with
  | Some c => exists i, nth_error m i = Some (k, c) /\ core_line_lookup n H s k = Some (islot n T i)
                        /\ islot n T i < n /\ counter (ring s (islot n T i)) = c
  | None => core_line_lookup n H s k = Some n /\ forall y, y < n -> ow s y <> Some k
  end.
Proof.
  intros P HP I. destruct (i_ch _ _ _ _ _ I) as [ch C].
  destruct (lookup_ok n H s ch k HP C) as [x [L D]].
  pose proof (fget_nth m k) as F. destruct (fget k m) as [c|].
  - destruct F as [i [F1 _]]. exists i. split; [exact F1|].
    destruct (i_mem _ _ _ _ _ I i k c F1) as [M1 M2].
    assert (Lt : islot n T i < n) by (apply Nat.mod_upper_bound; lia).
    destruct D as [[D1 D2]|[D1 D2]].
    + assert (E : x = islot n T i) by (apply (i_un _ _ _ _ _ I x (islot n T i) k); assumption).
      rewrite L, E. split; [reflexivity|]. split; assumption.
    + exfalso. exact (D2 _ Lt M1).
  - assert (NO : forall y, y < n -> ow s y <> Some k).
    { intros y Y O. assert (YT : y < T).
      { destruct (Nat.lt_ge_cases y T) as [Q|Q]; [exact Q|].
        rewrite (i_fresh _ _ _ _ _ I y Q Y) in O. discriminate O. }
      destruct (slot_index n T y P Y YT) as [i [I1 I2]].
      rewrite <- (i_len _ _ _ _ _ I) in I1.
      destruct (nth_error m i) as [[k' c]|] eqn:NE; [|apply nth_error_None in NE; lia].
      destruct (i_mem _ _ _ _ _ I i k' c NE) as [M1 M2]. rewrite I2, O in M1. injection M1 as M1. subst k'.
      exact (F i c NE). }
    split; [|exact NO]. destruct D as [[D1 D2]|[D1 D2]]; [exfalso; exact (NO x D1 D2)|]. rewrite L, D1. reflexivity.
Qed.

Lemma nth_fset k c m : forall i, nth_error (fset k c m) i =
  match nth_error m i with Some e => Some (if keyb (fst e) k then (fst e, c) else e) | None => None end.
Proof. intro i. unfold fset. rewrite nth_error_map. destruct (nth_error m i); reflexivity. Qed.

(** Storing a counter. *)
Lemma set_counter_inv n H s T m k i c0 c : 0 < n -> inv n H s T m -> nth_error m i = Some (k, c0) ->
  inv n H (set_ring (upd (ring s) (islot n T i) (set_counter c (ring s (islot n T i)))) s) T (fset k c m).
Proof.
  intros P I NI. set (x := islot n T i). set (s' := set_ring _ s).
  assert (F : forall y, nx s' y = nx s y /\ pv s' y = pv s y /\ ow s' y = ow s y).
  { intro y. unfold s', nx, pv, ow. fin. destruct (Nat.eqb_spec y x) as [E|E]; [rewrite E|]; (split; [|split]); reflexivity. }
  destruct (i_mem _ _ _ _ _ I i k c0 NI) as [K1 K2]. fold x in K1, K2.
  assert (Xn : x < n) by (apply Nat.mod_upper_bound; lia).
  constructor.
  - destruct (i_ch _ _ _ _ _ I) as [ch C]. exists ch. apply (chains_ext n H s); [reflexivity|exact F|exact C].
  - intros a b q A B. destruct (F a) as [_ [_ Fa]]. destruct (F b) as [_ [_ Fb]]. rewrite Fa, Fb. apply (i_un _ _ _ _ _ I); assumption.
  - intros y Y. unfold s'. fin. destruct (Nat.eqb_spec y x) as [E|E]; cbn; apply (i_va _ _ _ _ _ I); assumption.
  - exact (i_pt _ _ _ _ _ I).
  - unfold fset. rewrite map_length. exact (i_len _ _ _ _ _ I).
  - intros j q d. rewrite nth_fset. destruct (nth_error m j) as [[k' c']|] eqn:NJ; [|discriminate].
    destruct (i_mem _ _ _ _ _ I j k' c' NJ) as [M1 M2].
    assert (LJ : j < Nat.min n T) by (rewrite <- (i_len _ _ _ _ _ I); apply nth_error_Some; congruence).
    assert (LI : i < Nat.min n T) by (rewrite <- (i_len _ _ _ _ _ I); apply nth_error_Some; congruence).
    assert (Ln : islot n T j < n) by (apply Nat.mod_upper_bound; lia).
    cbn [fst]. intro Q. destruct (F (islot n T j)) as [_ [_ Fj]]. rewrite Fj.
    unfold s'. fin. destruct (keyb_spec k' k) as [E|E]; injection Q as Q1 Q2; subst q d.
    + subst k'. assert (Z : islot n T j = x) by (apply (i_un _ _ _ _ _ I _ _ k); assumption).
      rewrite Z, Nat.eqb_refl. split; [exact K1|reflexivity].
    + split; [exact M1|]. destruct (Nat.eqb_spec (islot n T j) x) as [Z|Z]; [|exact M2].
      exfalso. apply E. rewrite Z, K1 in M1. injection M1 as M1. symmetry. exact M1.
  - intros y Y1 Y2. destruct (F y) as [_ [_ Fy]]. rewrite Fy. apply (i_fresh _ _ _ _ _ I); assumption.
Qed.

Definition fins (n : nat) (k : key) (m : list (key * N)) : list (key * N) := firstn n ((k, 1%N) :: m).

(** Inserting a core line that is not remembered. *)
Lemma insert_inv n H s T m k : 0 < n -> 0 < H -> inv n H s T m -> (forall y, y < n -> ow s y <> Some k) ->
  inv n H (nhit_hash_insert n H k s) (S T) (fins n k m).
Proof.
  intros P HP I NK. unfold nhit_hash_insert, get_rb_slot.
  set (slot := rb_pointer s).
  assert (Es : slot = T mod n) by exact (i_pt _ _ _ _ _ I).
  assert (SL : slot < n) by (rewrite Es; apply Nat.mod_upper_bound; lia).
  rewrite (i_va _ _ _ _ _ I slot SL). cbn [negb].
  set (s1 := {| hash_map := hash_map s; ring := upd (ring s) slot (set_valid false (ring s slot)); rb_pointer := (slot + 1) mod n |}).
  assert (F1 : forall y, nx s1 y = nx s y /\ pv s1 y = pv s y /\ ow s1 y = ow s y).
  { intro y. unfold s1, nx, pv, ow. fin. destruct (Nat.eqb_spec y slot) as [E|E]; [rewrite E|]; (split; [|split]); reflexivity. }
  destruct (i_ch _ _ _ _ _ I) as [ch C].
  assert (C1 : chains n H s1 ch) by (apply (chains_ext n H s); [reflexivity|exact F1|exact C]).
  destruct (remove_owner n H slot s1 ch HP SL C1) as [R1 [R2 [R3 R4]]].
  destruct (remove_chains n H slot s1 ch HP SL C1) as [ch2 C2].
  set (s2 := collision_remove n H slot s1) in *.
  assert (O2 : ow s2 slot = None) by (rewrite R1, Nat.eqb_refl; reflexivity).
  destruct (insert_chains n H slot k s2 ch2 HP SL C2 O2) as [[ch3 C3] NE].
  destruct (insert_fields n H slot k s2 NE) as [Q1 [_ [_ [Q4 [Q5 [Q6 _]]]]]].
  set (s3 := collision_insert_new n H slot k s2) in *.
  set (s4 := commit_rb_slot slot s3).
  assert (F4 : forall y, nx s4 y = nx s3 y /\ pv s4 y = pv s3 y /\ ow s4 y = ow s3 y).
  { intro y. unfold s4, commit_rb_slot, nx, pv, ow. fin. destruct (Nat.eqb_spec y slot) as [E|E]; [rewrite E|]; (split; [|split]); reflexivity. }
  assert (OW : forall y, ow s4 y = if y =? slot then Some k else ow s y).
  { intro y. destruct (F4 y) as [_ [_ Fy]]. rewrite Fy, Q1. destruct (Nat.eqb_spec y slot) as [E|E]; [reflexivity|].
    rewrite R1. destruct (Nat.eqb_spec y slot); [contradiction|]. destruct (F1 y) as [_ [_ G]]. exact G. }
  assert (CN : forall y, counter (ring s4 y) = if y =? slot then 1%N else counter (ring s y)).
  { intro y. unfold s4, commit_rb_slot. fin. destruct (Nat.eqb_spec y slot) as [E|E].
    - cbn [counter set_valid]. rewrite Q4, Nat.eqb_refl. reflexivity.
    - rewrite Q4. destruct (Nat.eqb_spec y slot); [contradiction|]. rewrite R2. unfold s1. fin.
      destruct (Nat.eqb_spec y slot); [contradiction|reflexivity]. }
  constructor.
  - exists ch3. apply (chains_ext n H s3); [reflexivity|exact F4|exact C3].
  - intros a b q A B. rewrite !OW. destruct (Nat.eqb_spec a slot) as [E|E]; destruct (Nat.eqb_spec b slot) as [G|G].
    + intros _ _. congruence.
    + intros X Y. injection X as X. subst q. exfalso. exact (NK b B Y).
    + intros X Y. injection Y as Y. subst q. exfalso. exact (NK a A X).
    + apply (i_un _ _ _ _ _ I); assumption.
  - intros y Y. unfold s4, commit_rb_slot. fin. destruct (Nat.eqb_spec y slot) as [E|E]; [reflexivity|].
    rewrite Q5, R3. unfold s1. fin. destruct (Nat.eqb_spec y slot); [contradiction|]. apply (i_va _ _ _ _ _ I); exact Y.
  - unfold s4, commit_rb_slot. fin. rewrite Q6, R4. unfold s1. fin. rewrite Es.
    rewrite Nat.add_mod_idemp_l by lia. replace (T + 1) with (S T) by lia. reflexivity.
  - unfold fins. rewrite firstn_length. cbn [length]. rewrite (i_len _ _ _ _ _ I). lia.
  - intros i q c NI. unfold fins in NI.
    assert (Li : i < n).
    { destruct (Nat.lt_ge_cases i n) as [L|L]; [exact L|]. exfalso.
      assert (Z : nth_error (firstn n ((k, 1%N) :: m)) i = None) by (apply nth_error_None; rewrite firstn_length; lia).
      congruence. }
    assert (NI2 : nth_error ((k, 1%N) :: m) i = Some (q, c)).
    { rewrite <- NI. clear -Li. revert i Li. generalize ((k, 1%N) :: m) as l. induction n as [|n' IH]; intros l i Li; [lia|].
      destruct l as [|a l]; [destruct i; reflexivity|]. destruct i as [|i]; [reflexivity|]. cbn [nth_error firstn]. apply IH. lia. }
    clear NI. rewrite OW, CN. destruct i as [|i].
    + cbn in NI2. injection NI2 as N1 N2. subst q c.
      replace (islot n (S T) 0) with slot by (rewrite Es; unfold islot; f_equal; lia).
      rewrite Nat.eqb_refl. split; reflexivity.
    + cbn [nth_error] in NI2. destruct (i_mem _ _ _ _ _ I i q c NI2) as [M1 M2].
      assert (Lm : i < Nat.min n T) by (rewrite <- (i_len _ _ _ _ _ I); apply nth_error_Some; congruence).
      replace (islot n (S T) (S i)) with (islot n T i) by (unfold islot; f_equal; lia).
      destruct (Nat.eqb_spec (islot n T i) slot) as [E|E]; [|split; assumption].
      exfalso. rewrite Es in E. unfold islot in E. apply (mod_inj n (T - 1 - i) T); [lia|lia|lia|exact E].
  - intros x X1 X2. rewrite OW. destruct (Nat.eqb_spec x slot) as [E|E].
    + exfalso. rewrite Es in E. rewrite Nat.mod_small in E by lia. lia.
    + apply (i_fresh _ _ _ _ _ I); lia.
Qed.

Lemma init_inv n H : 0 < n -> inv n H (nhit_hash_init n) 0 [].
Proof.
  intro P. constructor.
  - exists (fun _ => []). intros b B. split; [reflexivity|]. split; [exact I|]. split; [constructor|].
    intro x. split; [intros []|intros [_ [k [K _]]]; discriminate K].
  - intros x y k _ _ K. discriminate K.
  - reflexivity.
  - cbn [rb_pointer nhit_hash_init]. rewrite Nat.mod_0_l by lia. reflexivity.
  - rewrite Nat.min_0_r. reflexivity.
  - intros i k c E. destruct i; discriminate E.
  - reflexivity.
Qed.

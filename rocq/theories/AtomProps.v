(** C69: the metadata of an atomic cache device. *)
From Coq Require Import NArith List Bool Arith Lia.
From Verif Require Import AtomModel.
Import ListNotations.
Open Scope N_scope.

(** ** Specification *)

(** How many of the I/Os touch byte [a] of the device. *)
Definition touches (a : N) (x : io) : bool := (fst x <=? a) && (a <? fst x + snd x).
Definition times (a : N) (l : list io) : nat := length (filter (touches a) l).

(** Byte [a] of the device holds, in the cache line of the [i]-th line of a request for
    [bytes] bytes at [addr], a byte of the request. *)
Definition in_line (S off c a : N) : bool := (c * (S * 512) + off <=? a) && (a <? c * (S * 512) + off + S * 512).
Definition in_request (S off addr bytes i c a : N) : bool :=
  let core_byte := (addr / (S * 512) + i) * (S * 512) + (a - (c * (S * 512) + off)) in
  in_line S off c a && (addr <=? core_byte) && (core_byte <? addr + bytes).
Fixpoint wanted (S off addr bytes a i : N) (maps : list minfo) : nat :=
  match maps with
  | [] => 0
  | m :: r => ((if negb (mi_miss m) && in_request S off addr bytes i (mi_coll m) a then 1 else 0) +
              wanted S off addr bytes a (i + 1) r)%nat
  end.

(** ** Discarding *)

Lemma w32_small : forall n, n < 2 ^ 32 -> w32 n = n.
Proof. intros n H. unfold w32. apply N.mod_small. exact H. Qed.
Lemma w8_small : forall n, n < 2 ^ 8 -> w8 n = n.
Proof. intros n H. unfold w8. apply N.mod_small. exact H. Qed.

Lemma times_app : forall a l r, times a (l ++ r) = (times a l + times a r)%nat.
Proof. intros. unfold times. rewrite filter_app, app_length. reflexivity. Qed.
Lemma times_cons : forall a x l, times a (x :: l) = ((if touches a x then 1 else 0) + times a l)%nat.
Proof. intros. unfold times. cbn [filter]. destruct (touches a x); reflexivity. Qed.

Definition lines_at (S off a : N) (l : list N) : nat := length (filter (fun c => in_line S off c a) l).
Lemma lines_at_cons : forall S off a x l, lines_at S off a (x :: l) = ((if in_line S off x a then 1 else 0) + lines_at S off a l)%nat.
Proof. intros. unfold lines_at. cbn [filter]. destruct (in_line S off x a); reflexivity. Qed.

Lemma insert_at : forall S off a x l, lines_at S off a (insert x l) = lines_at S off a (x :: l).
Proof.
  intros S off a x. induction l as [|y l IH]; [reflexivity|]. cbn [insert].
  destruct (x <=? y); [reflexivity|]. rewrite lines_at_cons, IH, !lines_at_cons. lia.
Qed.
Lemma sort_at : forall S off a l, lines_at S off a (sort l) = lines_at S off a l.
Proof.
  intros S off a. induction l as [|x l IH]; [reflexivity|]. unfold sort. cbn [fold_right]. fold (sort l).
  rewrite insert_at, !lines_at_cons, IH. reflexivity.
Qed.
Lemma insert_length : forall x l, length (insert x l) = Datatypes.S (length l).
Proof. intros x. induction l as [|y l IH]; [reflexivity|]. cbn [insert]. destruct (x <=? y); cbn [length]; auto. Qed.
Lemma sort_length : forall l, length (sort l) = length l.
Proof. induction l as [|x l IH]; [reflexivity|]. unfold sort. cbn [fold_right]. fold (sort l). rewrite insert_length, IH. reflexivity. Qed.
Lemma insert_in : forall x l y, In y (insert x l) -> y = x \/ In y l.
Proof.
  intros x. induction l as [|z l IH]; intros y H; cbn [insert] in H.
  - destruct H as [<-|[]]. now left.
  - destruct (x <=? z); [destruct H as [<-|H]; [now left | now right]|].
    destruct H as [<-|H]; [right; now left|]. destruct (IH y H); [now left | right; now right].
Qed.
Lemma sort_in : forall l y, In y (sort l) -> In y l.
Proof.
  induction l as [|x l IH]; intros y H; [exact H|]. unfold sort in H. cbn [fold_right] in H. fold (sort l) in H.
  destruct (insert_in _ _ _ H) as [->|H']; [now left | right; auto].
Qed.

Lemma merge_at : forall S off a l start prev len, 0 < S -> start <= prev -> prev < 2 ^ 32 - 1 ->
  len = (prev - start + 1) * (S * 512) -> (forall x, In x l -> x < 2 ^ 32 - 1) ->
  len + N.of_nat (length l) * (S * 512) < 2 ^ 32 ->
  times a (merge S off start prev len l) =
    ((if (start * (S * 512) + off <=? a)%N && (a <? start * (S * 512) + off + len)%N then 1 else 0) + lines_at S off a l)%nat.
Proof.
  intros S off a. induction l as [|x l IH]; intros start prev len P LE PB LN B W; cbn [merge].
  { rewrite times_cons. unfold touches, sector. cbn [fst snd times filter length lines_at]. reflexivity. }
  cbn [length] in W. rewrite (w32_small (prev + 1)) by lia. change sector with 512.
  assert (LL : N.of_nat (Datatypes.S (length l)) * (S * 512) = N.of_nat (length l) * (S * 512) + S * 512) by lia.
  destruct (N.eqb_spec (prev + 1) x) as [E|E].
  - rewrite (w32_small (len + S * 512)) by lia.
    rewrite IH; [|lia | lia | apply B; now left | subst len x; nia | intros y Y; apply B; now right | lia].
    rewrite lines_at_cons. unfold in_line.
    assert (X : x * (S * 512) = start * (S * 512) + len) by (subst x len; nia).
    rewrite X.
    destruct (N.leb_spec (start * (S * 512) + off) a); destruct (N.ltb_spec a (start * (S * 512) + off + len));
    destruct (N.ltb_spec a (start * (S * 512) + off + (len + S * 512)));
    destruct (N.leb_spec (start * (S * 512) + len + off) a); destruct (N.ltb_spec a (start * (S * 512) + len + off + S * 512));
      cbn [andb]; lia.
  - rewrite times_cons. rewrite IH; [|lia | lia | apply B; now left | nia | intros y Y; apply B; now right | lia].
    rewrite lines_at_cons. unfold touches, in_line. cbn [fst snd]. reflexivity.
Qed.

Lemma runs_at : forall S off a l, 0 < S -> (forall x, In x l -> x < 2 ^ 32 - 1) ->
  N.of_nat (length l) * (S * 512) < 2 ^ 32 ->
  times a (runs S off l) = lines_at S off a l.
Proof.
  intros S off a [|x l] P B W; [reflexivity|]. cbn [runs length] in *. change sector with 512.
  rewrite merge_at; [|lia | lia | apply B; now left | lia | intros y Y; apply B; now right | lia].
  rewrite lines_at_cons. reflexivity.
Qed.

(** The marked sectors of one line. *)
Definition own (S off a : N) (m : minfo) : bool :=
  (mi_coll m * (S * 512) + off + mi_start m * 512 <=? a) && (a <? mi_coll m * (S * 512) + off + (mi_stop m + 1) * 512).
Definition active (m : minfo) : bool := mi_flush m && negb (mi_miss m).
Definition marked (S off a : N) (maps : list minfo) : nat := length (filter (fun m => active m && own S off a m) maps).
Lemma marked_cons : forall S off a m l, marked S off a (m :: l) = ((if active m && own S off a m then 1 else 0) + marked S off a l)%nat.
Proof. intros. unfold marked. cbn [filter]. destruct (active m && own S off a m); reflexivity. Qed.

Definition good_marks (S : N) (n i : nat) (m : minfo) : Prop :=
  active m = true -> mi_start m <= mi_stop m /\ mi_stop m < S /\
    (n <> 1%nat -> what S n i m = Page -> mi_start m = 0 /\ mi_stop m = S - 1).

Lemma sec_touches : forall S off a m, 0 < S -> S <= 256 -> mi_start m <= mi_stop m -> mi_stop m < S ->
  touches a (sec_io S off m) = own S off a m.
Proof.
  intros S off a m P SB L H. unfold touches, sec_io, own. cbn [fst snd]. change sector with 512.
  rewrite w32_small by lia.
  replace (mi_coll m * (S * 512) + off + mi_start m * 512 + ((mi_stop m - mi_start m) * 512 + 512))
    with (mi_coll m * (S * 512) + off + (mi_stop m + 1) * 512) by lia. reflexivity.
Qed.

Lemma split_at : forall S off a n maps i, n <> 1%nat -> 0 < S -> S <= 256 ->
  (forall j m, nth_error maps j = Some m -> good_marks S n (i + j) m) ->
  (times a (secs S off n i maps) + lines_at S off a (pages S n i maps) = marked S off a maps)%nat.
Proof.
  intros S off a n. induction maps as [|m maps IH]; intros i N1 P SB G; [reflexivity|].
  pose proof (G 0%nat m eq_refl) as G0. rewrite Nat.add_0_r in G0.
  specialize (IH (Datatypes.S i) N1 P SB).
  assert (G' : forall j m', nth_error maps j = Some m' -> good_marks S n (Datatypes.S i + j) m').
  { intros j m' E. replace (Datatypes.S i + j)%nat with (i + Datatypes.S j)%nat by lia. apply G. exact E. }
  specialize (IH G'). cbn [secs pages]. rewrite marked_cons. unfold good_marks in G0.
  destruct (what S n i m) eqn:W.
  - assert (A : active m = false).
    { unfold active. unfold what in W. destruct (mi_flush m); destruct (mi_miss m); cbn [negb orb] in W; auto;
        destruct (i =? 0)%nat; [destruct (negb (mi_start m =? 0)); discriminate W|];
        destruct (i =? n - 1)%nat; [destruct (negb (mi_stop m =? S - 1))|]; discriminate W. }
    rewrite A. cbn [andb]. lia.
  - assert (A : active m = true).
    { unfold active. unfold what in W. destruct (mi_flush m); destruct (mi_miss m); cbn [negb orb] in W; auto; discriminate W. }
    destruct (G0 A) as (G1 & G2 & _). rewrite times_cons, (sec_touches S off a m P SB G1 G2), A. cbn [andb]. lia.
  - assert (A : active m = true).
    { unfold active. unfold what in W. destruct (mi_flush m); destruct (mi_miss m); cbn [negb orb] in W; auto; discriminate W. }
    destruct (G0 A) as (G1 & G2 & G3). destruct (G3 N1 eq_refl) as (G4 & G5). rewrite lines_at_cons, A. cbn [andb].
    replace (own S off a m) with (in_line S off (mi_coll m) a); [lia|].
    unfold own, in_line. rewrite G4, G5.
    replace (mi_coll m * (S * 512) + off + 0 * 512) with (mi_coll m * (S * 512) + off) by lia.
    replace (mi_coll m * (S * 512) + off + (S - 1 + 1) * 512) with (mi_coll m * (S * 512) + off + S * 512) by lia. reflexivity.
Qed.

Lemma pages_in : forall S n maps i x, In x (pages S n i maps) -> exists m, In m maps /\ mi_coll m = x.
Proof.
  intros S n. induction maps as [|m maps IH]; intros i x H; cbn [pages] in H; [destruct H|].
  destruct (what S n i m); try (destruct (IH _ _ H) as (m' & A & B); exists m'; split; [now right | exact B]).
  destruct H as [<-|H]; [exists m; split; [now left | reflexivity]|].
  destruct (IH _ _ H) as (m' & A & B). exists m'. split; [now right | exact B].
Qed.
Lemma pages_length : forall S n maps i, (length (pages S n i maps) <= length maps)%nat.
Proof.
  intros S n. induction maps as [|m maps IH]; intros i; cbn [pages length]; [lia|].
  specialize (IH (Datatypes.S i)). destruct (what S n i m); cbn [length]; lia.
Qed.

Lemma flush_at : forall S off maps, 0 < S -> S <= 256 ->
  (forall m, In m maps -> mi_coll m < 2 ^ 32 - 1) -> N.of_nat (length maps) * (S * 512) < 2 ^ 32 ->
  (forall j m, nth_error maps j = Some m -> good_marks S (length maps) j m) ->
  exists ios, flush_do S off false maps = Sent ios /\ forall a, times a ios = marked S off a maps.
Proof.
  intros S off maps P SB C W G. unfold flush_do.
  destruct (existsb mi_flush maps) eqn:F; cbn [negb].
  2: { exists []. split; [reflexivity|]. intros a. cbn [times filter length].
       clear C W G. induction maps as [|m maps IH]; [reflexivity|]. cbn [existsb] in F.
       apply orb_false_iff in F as (F1 & F2). rewrite marked_cons. unfold active. rewrite F1. cbn [andb]. rewrite <- IH; auto. }
  assert (M : length maps <> 1%nat -> exists ios, Sent (secs S off (length maps) 0 maps ++ runs S off (sort (pages S (length maps) 0 maps))) = Sent ios /\
    forall a, times a ios = marked S off a maps).
  { intros N1. eexists. split; [reflexivity|]. intros a. rewrite times_app, runs_at.
    - rewrite sort_at. apply split_at; auto.
    - exact P.
    - intros x X. apply sort_in in X. apply pages_in in X as (m & A & <-). apply C. exact A.
    - rewrite sort_length. pose proof (pages_length S (length maps) maps 0). nia. }
  destruct maps as [|m [|m' maps]]; [apply M; discriminate | | rewrite andb_false_r; apply M; discriminate].
  pose proof (G 0%nat m eq_refl) as G0. unfold good_marks in G0. fold (active m).
  destruct (active m) eqn:A.
  - destruct (G0 eq_refl) as (G1 & G2 & _). eexists. split; [reflexivity|]. intros a.
    rewrite times_cons, (sec_touches S off a m P SB G1 G2), marked_cons, A. reflexivity.
  - exists []. split; [reflexivity|]. intros a. rewrite marked_cons, A. reflexivity.
Qed.

(** The marks of a request. *)
Lemma zero_nth : forall S addr bytes count maps i j m,
  nth_error (zero_map_info S addr bytes count i maps) j = Some m ->
  exists m0, nth_error maps j = Some m0 /\
    m = (if mi_miss m0 then m0 else flush_mark m0 (if i + N.of_nat j =? 0 then addr / sector mod S else 0)
           (if i + N.of_nat j =? count - 1 then (addr + bytes - 1) / sector mod S else S - 1)).
Proof.
  intros S addr bytes count. induction maps as [|m0 maps IH]; intros i j m H; cbn [zero_map_info] in H.
  { destruct j; discriminate H. }
  destruct j as [|j]; cbn [nth_error] in H.
  - injection H as <-. exists m0. split; [reflexivity|]. replace (i + N.of_nat 0) with i by lia. reflexivity.
  - destruct (IH _ _ _ H) as (m1 & A & B). exists m1. split; [exact A|].
    replace (i + N.of_nat (Datatypes.S j)) with (i + 1 + N.of_nat j) by lia. exact B.
Qed.
Lemma zero_length : forall S addr bytes count maps i, length (zero_map_info S addr bytes count i maps) = length maps.
Proof. intros S addr bytes count. induction maps as [|m maps IH]; intros i; [reflexivity|]. cbn [zero_map_info length]. rewrite IH. reflexivity. Qed.

(** Sectors of a request and of its [i]-th line. *)
Lemma sector_range : forall S A B i x, 0 < S -> 0 < B -> i <= (A + B - 1) / S - A / S -> x < S * 512 ->
  let start := if i =? 0 then A mod S else 0 in
  let stop := if i =? (A + B - 1) / S - A / S then (A + B - 1) mod S else S - 1 in
  ((start * 512 <=? x) && (x <? (stop + 1) * 512) =
   (A * 512 <=? (A / S + i) * (S * 512) + x) && ((A / S + i) * (S * 512) + x <? A * 512 + B * 512))%bool.
Proof.
  intros S A B i x P PB L X start stop.
  set (E := A + B - 1) in *. set (qa := A / S) in *. set (qe := E / S) in *.
  pose proof (N.div_mod A S ltac:(lia)) as DA. pose proof (N.div_mod E S ltac:(lia)) as DE.
  pose proof (N.mod_upper_bound A S ltac:(lia)) as MA. pose proof (N.mod_upper_bound E S ltac:(lia)) as ME.
  fold qa in DA. fold qe in DE. set (ra := A mod S) in *. set (re := E mod S) in *.
  assert (QQ : qa <= qe) by (unfold qa, qe; apply N.div_le_mono; [lia | unfold E; lia]).
  assert (AB : A * 512 + B * 512 = (E + 1) * 512) by (unfold E; lia).
  rewrite AB. rewrite DA at 1. rewrite DE.
  assert (S1 : (A / S + i) * (S * 512) = (S * qa) * 512 + (S * i) * 512) by (fold qa; nia).
  fold qa in S1 |- *. rewrite S1.
  assert (C1 : (start * 512 <=? x) = ((S * qa + ra) * 512 <=? S * qa * 512 + S * i * 512 + x)).
  { unfold start. apply eq_true_iff_eq. rewrite !N.leb_le. destruct (N.eqb_spec i 0) as [->|NZ]; [lia|].
    assert (S <= S * i) by nia. split; intros; lia. }
  assert (C2 : (x <? (stop + 1) * 512) = (S * qa * 512 + S * i * 512 + x <? (S * qe + re + 1) * 512)).
  { unfold stop. apply eq_true_iff_eq. rewrite !N.ltb_lt. destruct (N.eqb_spec i (qe - qa)) as [->|NE].
    - assert (S * qe = S * qa + S * (qe - qa)) by nia. split; intros; lia.
    - assert (S * qe = S * qa + S * i + S * (qe - qa - i)) by nia.
      assert (S <= S * (qe - qa - i)) by nia. split; intros; lia. }
  rewrite C1, C2. reflexivity.
Qed.

(** Zeroing a request discards on the device, once each, exactly the bytes of the
    request that are cached. *)
Theorem C69_discard_exact : forall S off addr bytes maps,
  0 < S <= 128 -> addr mod 512 = 0 -> bytes mod 512 = 0 -> 0 < bytes ->
  N.of_nat (length maps) = (addr + bytes - 1) / (S * 512) - addr / (S * 512) + 1 ->
  N.of_nat (length maps) * (S * 512) < 2 ^ 32 ->
  (forall m, In m maps -> mi_coll m < 2 ^ 32 - 1 /\ mi_flush m = false) ->
  exists ios,
    flush_do S off false (zero_map_info S addr bytes (N.of_nat (length maps)) 0 maps) = Sent ios /\
    forall a, times a ios = wanted S off addr bytes a 0 maps.
Proof.
  intros S off addr bytes maps (P & SB) MA MB PB LEN W C.
  set (A := addr / 512) in *. set (B := bytes / 512) in *.
  assert (EA : addr = A * 512) by (unfold A; pose proof (N.div_mod addr 512 ltac:(lia)); lia).
  assert (EB : bytes = B * 512) by (unfold B; pose proof (N.div_mod bytes 512 ltac:(lia)); lia).
  assert (PB' : 0 < B) by lia.
  assert (LA : addr / (S * 512) = A / S).
  { rewrite EA, (N.mul_comm S 512), <- N.div_div by lia. rewrite N.div_mul by lia. reflexivity. }
  assert (SE : (addr + bytes - 1) / 512 = A + B - 1).
  { symmetry. apply (N.div_unique _ 512 _ 511); lia. }
  assert (LE : (addr + bytes - 1) / (S * 512) = (A + B - 1) / S).
  { rewrite (N.mul_comm S 512), <- N.div_div by lia. rewrite SE. reflexivity. }
  rewrite LA, LE in LEN. set (n := N.of_nat (length maps)) in *.
  set (D := (A + B - 1) / S - A / S) in *.
  assert (ND : n - 1 = D) by lia.
  set (zs := zero_map_info S addr bytes n 0 maps).
  assert (MODA : addr / sector mod S = A mod S) by reflexivity.
  assert (MODE : (addr + bytes - 1) / sector mod S = (A + B - 1) mod S) by (change sector with 512; rewrite SE; reflexivity).
  assert (RNG : forall m0 i, i <= D -> mi_flush m0 = false ->
    let m := if mi_miss m0 then m0 else flush_mark m0 (if i =? 0 then addr / sector mod S else 0)
       (if i =? n - 1 then (addr + bytes - 1) / sector mod S else S - 1) in
    (active m = negb (mi_miss m0)) /\ mi_coll m = mi_coll m0 /\
    (active m = true -> mi_start m = (if i =? 0 then A mod S else 0) /\
       mi_stop m = (if i =? D then (A + B - 1) mod S else S - 1))).
  { intros m0 i L F m. unfold m, active. destruct (mi_miss m0) eqn:M; cbn [mi_flush mi_miss mi_coll flush_mark negb andb].
    - rewrite F, M. cbn [negb andb]. split; [reflexivity|]. split; [reflexivity | intros X; discriminate X].
    - rewrite M. cbn [negb andb]. split; [reflexivity|]. split; [reflexivity|]. intros _.
      unfold flush_mark. cbn [mi_start mi_stop]. rewrite MODA, MODE, ND.
      pose proof (N.mod_upper_bound A S ltac:(lia)). pose proof (N.mod_upper_bound (A + B - 1) S ltac:(lia)).
      split; apply w8_small; [destruct (i =? 0) | destruct (i =? D)]; lia. }
  assert (ORD : A mod S <= (A + B - 1) mod S \/ 0 < D).
  { destruct (N.eq_dec D 0) as [Z|Z]; [left | right; lia].
    pose proof (N.div_mod A S ltac:(lia)) as DA. pose proof (N.div_mod (A + B - 1) S ltac:(lia)) as DE.
    assert (A / S <= (A + B - 1) / S) by (apply N.div_le_mono; lia).
    assert (Q : (A + B - 1) / S = A / S) by (unfold D in Z; lia). rewrite Q in DE. lia. }
  destruct (flush_at S off zs P ltac:(lia)) as (ios & F & T).
  - intros m X. apply In_nth_error in X as (j & X). apply zero_nth in X as (m0 & X & ->).
    apply nth_error_In in X. destruct (C m0 X) as (X1 & _). destruct (mi_miss m0); exact X1.
  - unfold zs. rewrite zero_length. fold n. exact W.
  - intros j m X. pose proof X as X0. apply zero_nth in X as (m0 & X & EM). rewrite N.add_0_l in EM.
    assert (J : (j < length maps)%nat) by (apply nth_error_Some; congruence).
    destruct (C m0 (nth_error_In _ _ X)) as (_ & FL).
    destruct (RNG m0 (N.of_nat j) ltac:(unfold n in *; lia) FL) as (_ & _ & R). rewrite <- EM in R.
    unfold good_marks. intros AC. destruct (R AC) as (R1 & R2).
    pose proof (N.mod_upper_bound A S ltac:(lia)) as UA. pose proof (N.mod_upper_bound (A + B - 1) S ltac:(lia)) as UE.
    rewrite R1, R2. unfold zs.
    assert (JN : (N.of_nat j =? 0) = (j =? 0)%nat) by (destruct j; reflexivity).
    assert (JD : (N.of_nat j =? D) = (j =? length maps - 1)%nat).
    { apply eq_true_iff_eq. rewrite N.eqb_eq, Nat.eqb_eq. unfold n in *. lia. }
    rewrite JN, JD.
    split; [|split].
    + destruct (Nat.eqb_spec j 0); [|lia]. destruct (Nat.eqb_spec j (length maps - 1)); [|lia].
      destruct ORD as [O|O]; [exact O|]. unfold n in *. lia.
    + destruct (j =? length maps - 1)%nat; lia.
    + rewrite zero_length. unfold what. intros N1 Q. assert (NF : negb (mi_flush m) || mi_miss m = false).
      { unfold active in AC. apply andb_true_iff in AC as (-> & AC). apply negb_true_iff in AC. rewrite AC. reflexivity. }
      rewrite NF in Q. rewrite R1, R2, JN, JD in Q.
      destruct (Nat.eqb_spec j 0) as [J0|J0].
      * destruct (N.eqb_spec (A mod S) 0) as [Z|Z]; cbn [negb] in Q; [|discriminate Q]. split; [exact Z|].
        destruct (Nat.eqb_spec j (length maps - 1)) as [J1|J1]; [|reflexivity]. lia.
      * destruct (Nat.eqb_spec j (length maps - 1)) as [J1|J1]; [|split; reflexivity].
        destruct (N.eqb_spec ((A + B - 1) mod S) (S - 1)) as [Z|Z]; cbn [negb] in Q; [|discriminate Q]. split; [reflexivity | exact Z].
  - exists ios. split; [exact F|]. intros a. rewrite T. unfold zs.
    assert (G : forall l i, (forall m, In m l -> mi_flush m = false) -> i + N.of_nat (length l) <= n ->
      marked S off a (zero_map_info S addr bytes n i l) = wanted S off addr bytes a i l).
    { induction l as [|m0 l IH]; intros i FL BD; [reflexivity|]. cbn [zero_map_info wanted length] in *.
      rewrite marked_cons, (IH (i + 1)); [|intros m X; apply FL; now right | lia].
      f_equal. destruct (RNG m0 i ltac:(lia) (FL m0 (or_introl eq_refl))) as (R1 & R2 & R3).
      cbv zeta in R1, R2, R3. cbv zeta.
      set (m := if mi_miss m0 then m0 else _) in *. rewrite R1.
      destruct (mi_miss m0); cbn [negb andb]; [reflexivity|]. destruct (R3 R1) as (R4 & R5).
      replace (own S off a m) with (in_request S off addr bytes i (mi_coll m0) a); [reflexivity|].
      unfold own. rewrite R2, R4, R5. unfold in_request. cbv zeta. unfold in_line.
      pose proof (N.mod_upper_bound A S ltac:(lia)) as UA. pose proof (N.mod_upper_bound (A + B - 1) S ltac:(lia)) as UE.
      set (c := mi_coll m0 * (S * 512) + off).
      destruct (N.leb_spec c a) as [L1|L1]; destruct (N.ltb_spec a (c + S * 512)) as [L2|L2]; cbn [andb].
      - rewrite LA, EA, EB.
        rewrite <- (sector_range S A B i (a - c) P PB' ltac:(unfold D in *; lia) ltac:(lia)). cbv zeta. fold D.
        set (st := if i =? 0 then A mod S else 0). set (sp := if i =? D then (A + B - 1) mod S else S - 1).
        f_equal; apply eq_true_iff_eq; rewrite ?N.leb_le, ?N.ltb_lt; split; intros; lia.
      - symmetry. apply andb_false_iff. right. apply N.ltb_ge. destruct (i =? D); lia.
      - symmetry. apply andb_false_iff. left. apply N.leb_gt. destruct (i =? 0); lia.
      - symmetry. apply andb_false_iff. left. apply N.leb_gt. destruct (i =? 0); lia. }
    apply G; [intros m X; apply (C m X) | unfold n; lia].
Qed.

(** With different cache lines behind the lines of the request no byte is discarded twice. *)
Theorem C69_discard_once : forall S off addr bytes a maps i, 0 < S ->
  NoDup (map mi_coll (filter (fun m => negb (mi_miss m)) maps)) ->
  (wanted S off addr bytes a i maps <= 1)%nat.
Proof.
  intros S off addr bytes a maps i P ND.
  assert (IL : forall c c', in_line S off c a = true -> in_line S off c' a = true -> c = c').
  { intros c c' H H'. unfold in_line in *. apply andb_true_iff in H as (H1 & H2). apply andb_true_iff in H' as (H3 & H4).
    apply N.leb_le in H1, H3. apply N.ltb_lt in H2, H4. nia. }
  assert (Z : forall l j c, in_line S off c a = true -> ~ In c (map mi_coll (filter (fun m => negb (mi_miss m)) l)) ->
    wanted S off addr bytes a j l = 0%nat).
  { induction l as [|m l IH]; intros j c H N; [reflexivity|]. cbn [wanted filter map] in *.
    destruct (mi_miss m); cbn [negb andb] in *; [apply (IH _ c); assumption|].
    cbn [map] in N. rewrite (IH _ c H) by (intros X; apply N; now right).
    destruct (in_request S off addr bytes j (mi_coll m) a) eqn:E; [|reflexivity].
    exfalso. apply N. left. apply IL; [|exact H].
    unfold in_request in E. apply andb_true_iff in E as (E & _). apply andb_true_iff in E as (E & _). exact E. }
  revert i. induction maps as [|m maps IH]; intros i; cbn [wanted]; [lia|]. cbn [filter map] in ND.
  destruct (mi_miss m); cbn [negb andb map] in *; [specialize (IH ND (i + 1)); lia|].
  inversion ND as [|? ? N1 N2]; subst.
  destruct (in_request S off addr bytes i (mi_coll m) a) eqn:E; [|specialize (IH N2 (i + 1)); lia].
  rewrite (Z maps (i + 1) (mi_coll m)); [lia | | exact N1].
  unfold in_request in E. apply andb_true_iff in E as (E & _). apply andb_true_iff in E as (E & _). exact E.
Qed.

(** ** The entry of a sector *)

Lemma addr_line : forall S off l p d, 0 < S -> l < 2 ^ 32 -> p < S -> d < 512 ->
  addr2line S off (off + l * (S * 512) + p * 512 + d) = l.
Proof.
  intros S off l p d P L PP D. unfold addr2line. change sector with 512.
  replace (off + l * (S * 512) + p * 512 + d - off) with (S * 512 * l + (p * 512 + d)) by lia.
  rewrite <- (N.div_unique (S * 512 * l + (p * 512 + d)) (S * 512) l (p * 512 + d)) by lia. apply w32_small. exact L.
Qed.
Lemma addr_pos : forall S off l p d, 0 < S <= 128 -> p < S -> d < 512 ->
  addr2pos S off (off + l * (S * 512) + p * 512 + d) = p.
Proof.
  intros S off l p d P PP D. unfold addr2pos. change sector with 512.
  replace (off + l * (S * 512) + p * 512 + d - off) with (512 * (S * l + p) + d) by lia.
  rewrite <- (N.div_unique (512 * (S * l + p) + d) 512 (S * l + p) d) by lia.
  rewrite <- (N.mod_unique (S * l + p) S l p) by lia. apply w8_small. lia.
Qed.

(** Any address in a sector of a mapped line: the entry is that sector's. *)
Theorem C69_entry : forall S off nl len seqs mt l p d,
  0 < S <= 128 -> nl < 2 ^ 32 -> l < nl -> p < S -> d < 512 ->
  off + l * (S * 512) + p * 512 + d <= len ->
  l_core (mt l) < 4096 -> l_cl (mt l) < 2 ^ 46 -> nth (N.to_nat (l_core (mt l))) seqs 0 < 2 ^ 16 ->
  get_entry S off nl len seqs mt (off + l * (S * 512) + p * 512 + d) =
    AEntry {| e_cl := l_cl (mt l); e_seq := nth (N.to_nat (l_core (mt l))) seqs 0;
              e_val := l_val (mt l) p; e_dir := l_dir (mt l) p |}.
Proof.
  intros S off nl len seqs mt l p d P NL L PP D LN CO CL SQ. unfold get_entry.
  destruct (N.ltb_spec len (off + l * (S * 512) + p * 512 + d)); [lia|].
  destruct (N.ltb_spec (off + l * (S * 512) + p * 512 + d) off); [lia|].
  rewrite addr_line by lia. rewrite addr_pos by lia.
  destruct (N.leb_spec nl l); [lia|]. unfold core_max. destruct (N.leb_spec 4096 (l_core (mt l))); [lia|].
  rewrite (N.mod_small (l_cl (mt l))) by exact CL. rewrite (N.mod_small (nth _ _ _)) by exact SQ. reflexivity.
Qed.

(** The sectors in front of the cache lines carry an empty entry. *)
Theorem C69_entry_metadata : forall S off nl len seqs mt addr, addr < off -> off <= len ->
  get_entry S off nl len seqs mt addr = AEntry {| e_cl := 0; e_seq := 0; e_val := false; e_dir := false |}.
Proof.
  intros S off nl len seqs mt addr H L. unfold get_entry.
  destruct (N.ltb_spec len addr); [lia|]. destruct (N.ltb_spec addr off); [reflexivity | lia].
Qed.

(** A sector of a line that is not mapped: a null pointer is followed. *)
Theorem C69_entry_unmapped_refuted : forall S off nl len seqs mt l p d,
  0 < S <= 128 -> nl < 2 ^ 32 -> l < nl -> p < S -> d < 512 ->
  off + l * (S * 512) + p * 512 + d <= len -> l_core (mt l) = core_max ->
  get_entry S off nl len seqs mt (off + l * (S * 512) + p * 512 + d) = ANull.
Proof.
  intros S off nl len seqs mt l p d P NL L PP D LN CO. unfold get_entry.
  destruct (N.ltb_spec len (off + l * (S * 512) + p * 512 + d)); [lia|].
  destruct (N.ltb_spec (off + l * (S * 512) + p * 512 + d) off); [lia|].
  rewrite addr_line by lia. destruct (N.leb_spec nl l); [lia|]. rewrite CO. unfold core_max. reflexivity.
Qed.

(** The address behind the last sector is accepted, and a line that does not exist is read. *)
Theorem C69_entry_end_refuted : forall S off nl seqs mt, 0 < S -> nl < 2 ^ 32 ->
  get_entry S off nl (off + nl * (S * 512)) seqs mt (off + nl * (S * 512)) = AOutside.
Proof.
  intros S off nl seqs mt P NL. unfold get_entry.
  destruct (N.ltb_spec (off + nl * (S * 512)) (off + nl * (S * 512))); [lia|].
  destruct (N.ltb_spec (off + nl * (S * 512)) off); [lia|].
  replace (off + nl * (S * 512)) with (off + nl * (S * 512) + 0 * 512 + 0) by lia.
  rewrite addr_line by lia. destruct (N.leb_spec nl nl); [reflexivity | lia].
Qed.

Lemma none_valid_spec : forall s from to, none_valid s from to = true <-> (forall q, from <= q < to -> l_val s q = false).
Proof.
  intros s from to. unfold none_valid. rewrite forallb_forall. split.
  - intros H q Q. specialize (H (N.to_nat q)). rewrite N2Nat.id in H. apply negb_true_iff. apply H. apply in_seq. lia.
  - intros H x X. apply in_seq in X. apply negb_true_iff. apply H. lia.
Qed.

(** The number of invalid sectors in front of an address, up to the start of its line,
    and behind an address, up to the end: all of them, or 0 if one of them is valid. *)
Theorem C69_invalid_before : forall S off mt l p, 0 < S <= 128 -> l < 2 ^ 32 -> p < S ->
  exists n, invalid_before false S off mt (off + l * (S * 512) + p * 512) = Some n /\
    ((forall q, q < p -> l_val (mt l) q = false) -> n = p) /\
    ((exists q, q < p /\ l_val (mt l) q = true) -> n = 0).
Proof.
  intros S off mt l p P L PP. unfold invalid_before.
  replace (off + l * (S * 512) + p * 512) with (off + l * (S * 512) + p * 512 + 0) by lia.
  rewrite addr_pos, addr_line by lia.
  destruct (N.ltb_spec (off + l * (S * 512) + p * 512 + 0) off); [lia|]. rewrite orb_false_r.
  destruct (N.eqb_spec p 0) as [->|NZ].
  - exists 0. split; [reflexivity|]. split; intros; lia.
  - eexists. split; [reflexivity|]. destruct (none_valid (mt l) 0 p) eqn:E.
    + split; [reflexivity|]. intros (q & Q & V). rewrite none_valid_spec in E. rewrite E in V by lia. discriminate V.
    + split; [|reflexivity]. intros H'. exfalso.
      assert (none_valid (mt l) 0 p = true) by (apply none_valid_spec; intros; apply H'; lia). congruence.
Qed.
Theorem C69_invalid_after : forall S off mt addr bytes l p, 0 < S <= 128 -> l < 2 ^ 32 -> p < S -> off <= addr ->
  addr + bytes = off + l * (S * 512) + p * 512 -> p <> 0 ->
  exists n, invalid_after false S off mt addr bytes = Some n /\
    ((forall q, p <= q < S -> l_val (mt l) q = false) -> n = S - p) /\
    ((exists q, p <= q < S /\ l_val (mt l) q = true) -> n = 0).
Proof.
  intros S off mt addr bytes l p P L PP O E NZ. unfold invalid_after. rewrite E.
  replace (off + l * (S * 512) + p * 512) with (off + l * (S * 512) + p * 512 + 0) by lia.
  rewrite addr_pos, addr_line by lia.
  destruct (N.ltb_spec addr off); [lia|]. rewrite orb_false_r. destruct (N.eqb_spec p 0); [contradiction|].
  eexists. split; [reflexivity|]. destruct (none_valid (mt l) p S) eqn:V.
  + split; [reflexivity|]. intros (q & Q & X). rewrite none_valid_spec in V. rewrite V in X by lia. discriminate X.
  + split; [|reflexivity]. intros H'. exfalso.
    assert (none_valid (mt l) p S = true) by (apply none_valid_spec; exact H'). congruence.
Qed.

(** ** Recovery *)

(** What the sectors of a cache in state [mt] carry (C69_entry; a sector of a line that
    is not mapped is not valid). *)
Definition entry_at (S : N) (seqs : list N) (mt : meta) (k : N) : entry :=
  {| e_cl := l_cl (mt (k / S)); e_seq := nth (N.to_nat (l_core (mt (k / S)))) seqs 0;
     e_val := l_val (mt (k / S)) (k mod S); e_dir := l_dir (mt (k / S)) (k mod S) |}.

(** It is what the model of the code hands out for the sector. *)
Theorem C69_entry_at : forall S off nl len seqs mt k, 0 < S <= 128 -> nl < 2 ^ 32 -> k < nl * S ->
  off + nl * (S * 512) <= len -> l_core (mt (k / S)) < 4096 -> l_cl (mt (k / S)) < 2 ^ 46 ->
  nth (N.to_nat (l_core (mt (k / S)))) seqs 0 < 2 ^ 16 ->
  get_entry S off nl len seqs mt (off + k * 512) = AEntry (entry_at S seqs mt k).
Proof.
  intros S off nl len seqs mt k P NL K LN CO CL SQ.
  pose proof (N.div_mod k S ltac:(lia)) as DM. pose proof (N.mod_upper_bound k S ltac:(lia)) as PB.
  assert (LB : k / S < nl) by (apply N.div_lt_upper_bound; lia).
  replace (off + k * 512) with (off + k / S * (S * 512) + k mod S * 512 + 0) by nia.
  rewrite C69_entry; try assumption; try lia. reflexivity.
Qed.

(** The cores have different sequence numbers, and every line with a valid sector
    belongs to one of them. *)
Definition numbered (seqs : list N) : Prop :=
  length seqs = 4096%nat /\ (forall i, nth_error seqs i <> Some 0 -> forall j, nth_error seqs i = nth_error seqs j ->
     nth_error seqs i <> None -> i = j).
Definition owned (S nl : N) (seqs : list N) (mt : meta) : Prop :=
  forall l p, l < nl -> p < S -> l_val (mt l) p = true ->
    l_core (mt l) < 4096 /\ nth (N.to_nat (l_core (mt l))) seqs 0 <> 0.

Definition blank : meta := fun _ => {| l_core := core_max; l_cl := 0; l_val := fun _ => false; l_dir := fun _ => false |}.

Lemma find_seq_spec : forall seqs id q i, nth_error seqs i = Some q ->
  (forall j, (j < i)%nat -> nth_error seqs j <> Some q) -> find_seq seqs id q = id + N.of_nat i.
Proof.
  induction seqs as [|x seqs IH]; intros id q i E F; [destruct i; discriminate E|]. cbn [find_seq].
  destruct i as [|i]; cbn [nth_error] in E.
  - injection E as ->. rewrite N.eqb_refl. lia.
  - destruct (N.eqb_spec x q) as [->|NE]; [elim (F 0%nat); [lia | reflexivity]|].
    rewrite (IH (id + 1) q i E); [lia|]. intros j J. apply (F (Datatypes.S j)). lia.
Qed.

Lemma find_core_spec : forall seqs c, numbered seqs -> c < 4096 -> nth (N.to_nat c) seqs 0 <> 0 ->
  find_core seqs (nth (N.to_nat c) seqs 0) = c.
Proof.
  intros seqs c (LN & U) L NZ. unfold find_core.
  destruct (N.eqb_spec (nth (N.to_nat c) seqs 0) 0); [contradiction|].
  assert (E : nth_error seqs (N.to_nat c) = Some (nth (N.to_nat c) seqs 0)) by (apply nth_error_nth'; lia).
  rewrite (find_seq_spec seqs 0 _ (N.to_nat c) E); [lia|].
  intros j J X. assert (N.to_nat c = j); [|lia].
  apply U; [rewrite E; congruence | congruence | rewrite E; discriminate].
Qed.

(** After the first [k] sectors. *)
Record Loaded (S nl : N) (mt0 : meta) (k : N) (mt : meta) : Prop := {
  d_val : forall l p, l < nl -> p < S -> l_val (mt l) p = (l * S + p <? k) && l_val (mt0 l) p;
  d_dir : forall l p, l < nl -> p < S -> l_dir (mt l) p = (l * S + p <? k) && l_val (mt0 l) p && l_dir (mt0 l) p;
  d_map : forall l p, l < nl -> p < S -> l * S + p < k -> l_val (mt0 l) p = true ->
            l_core (mt l) = l_core (mt0 l) /\ l_cl (mt l) = l_cl (mt0 l);
  d_un : forall l, l < nl -> (forall p, p < S -> l * S + p < k -> l_val (mt0 l) p = false) -> l_core (mt l) = core_max
}.

Lemma drain_loaded : forall S nl seqs mt0 n k ok mt, 0 < S <= 128 -> nl < 2 ^ 32 -> numbered seqs -> owned S nl seqs mt0 ->
  Loaded S nl mt0 k mt -> k + N.of_nat n <= nl * S ->
  (ok = true -> k mod S <> 0 -> exists p, p < k mod S /\ l_val (mt0 (k / S)) p = true) ->
  Loaded S nl mt0 (k + N.of_nat n)
    (drain S seqs k (map (fun i => entry_at S seqs mt0 (k + N.of_nat i)) (seq 0 n)) ok mt).
Proof.
  intros S nl seqs mt0. induction n as [|n IH]; intros k ok mt P NL NU OW D B OK.
  { cbn [seq map drain]. replace (k + N.of_nat 0) with k by lia. exact D. }
  cbn [seq map]. rewrite <- seq_shift, map_map.
  replace (map (fun x => entry_at S seqs mt0 (k + N.of_nat (Datatypes.S x))) (seq 0 n))
    with (map (fun i => entry_at S seqs mt0 (k + 1 + N.of_nat i)) (seq 0 n)).
  2: { apply map_ext. intros x. f_equal. lia. }
  replace (k + N.of_nat (Datatypes.S n)) with (k + 1 + N.of_nat n) by lia.
  replace (k + N.of_nat 0) with k by lia. cbn [drain].
  set (l := k / S) in *. set (p := k mod S) in *.
  pose proof (N.div_mod k S ltac:(lia)) as DM. fold l in DM. fold p in DM.
  pose proof (N.mod_upper_bound k S ltac:(lia)) as PB. fold p in PB.
  assert (LB : l < nl) by nia.
  rewrite (w32_small l) by lia. rewrite (w8_small p) by lia.
  assert (KEY : forall l' p', p' < S -> l' * S + p' = k -> l' = l /\ p' = p).
  { intros l' p' P' E. assert (l' = l) by nia. subst l'. split; [reflexivity | lia]. }
  assert (NEXT : (k + 1) mod S <> 0 -> (k + 1) / S = l /\ (k + 1) mod S = p + 1).
  { intros NZ. destruct (N.eq_dec (p + 1) S) as [E|E].
    - exfalso. apply NZ. symmetry. apply (N.mod_unique (k + 1) S (l + 1) 0); lia.
    - split; symmetry; [apply (N.div_unique (k + 1) S l (p + 1)); lia | apply (N.mod_unique (k + 1) S l (p + 1)); lia]. }
  assert (LTB : forall l' p', p' < S -> (l' * S + p' <? k + 1) = ((l' * S + p' <? k) || ((l' =? l) && (p' =? p)))).
  { intros l' p' P'. apply eq_true_iff_eq. rewrite orb_true_iff, andb_true_iff, !N.ltb_lt, !N.eqb_eq. split.
    - intros H. destruct (N.eq_dec (l' * S + p') k) as [E|E]; [right; apply KEY; assumption | left; lia].
    - intros [H|(-> & ->)]; lia. }
  change (e_val (entry_at S seqs mt0 k)) with (l_val (mt0 l) p).
  change (e_dir (entry_at S seqs mt0 k)) with (l_dir (mt0 l) p).
  change (e_cl (entry_at S seqs mt0 k)) with (l_cl (mt0 l)).
  change (e_seq (entry_at S seqs mt0 k)) with (nth (N.to_nat (l_core (mt0 l))) seqs 0).
  destruct (l_val (mt0 l) p) eqn:V; cbn [andb].
  - destruct (OW l p LB PB V) as (O1 & O2). rewrite (find_core_spec seqs _ NU O1 O2).
    unfold core_max. destruct (N.eqb_spec (l_core (mt0 l)) 4096); [lia|]. cbn [negb].
    set (mt1 := if (if p =? 0 then false else ok) then mt else set_core mt l (l_core (mt0 l)) (l_cl (mt0 l))).
    assert (M1 : l_val (mt1 l) = l_val (mt l) /\ l_dir (mt1 l) = l_dir (mt l) /\
      l_core (mt1 l) = l_core (mt0 l) /\ l_cl (mt1 l) = l_cl (mt0 l) /\ (forall l', l' <> l -> mt1 l' = mt l')).
    { unfold mt1. destruct (N.eqb_spec p 0) as [Z|Z]; [|destruct ok].
      - unfold set_core, upd. rewrite N.eqb_refl. cbn. repeat split. intros l' NE. destruct (N.eqb_spec l' l); [contradiction | reflexivity].
      - destruct (OK eq_refl Z) as (q & Q & VQ). destruct (d_map _ _ _ _ _ D l q LB ltac:(lia) ltac:(lia) VQ). repeat split; auto.
      - unfold set_core, upd. rewrite N.eqb_refl. cbn. repeat split. intros l' NE. destruct (N.eqb_spec l' l); [contradiction | reflexivity]. }
    destruct M1 as (A1 & A2 & A3 & A4 & A5).
    apply IH; auto; try lia.
    + constructor.
      * intros l' p' L' P'. rewrite LTB by exact P'. unfold set_bits, upd. destruct (N.eqb_spec l' l) as [->|NE]; cbn [l_val andb].
        -- rewrite A1. destruct (N.eqb_spec p' p) as [->|NP]; [rewrite V, orb_true_r; reflexivity|].
           rewrite orb_false_r. apply (d_val _ _ _ _ _ D); assumption.
        -- rewrite orb_false_r, A5 by exact NE. apply (d_val _ _ _ _ _ D); assumption.
      * intros l' p' L' P'. rewrite LTB by exact P'. unfold set_bits, upd. destruct (N.eqb_spec l' l) as [->|NE]; cbn [l_dir andb].
        -- rewrite A2. destruct (N.eqb_spec p' p) as [->|NP]; [rewrite V, orb_true_r; reflexivity|].
           rewrite orb_false_r. apply (d_dir _ _ _ _ _ D); assumption.
        -- rewrite orb_false_r, A5 by exact NE. apply (d_dir _ _ _ _ _ D); assumption.
      * intros l' p' L' P' LT V'. unfold set_bits, upd. destruct (N.eqb_spec l' l) as [->|NE]; cbn [l_core l_cl]; [auto|].
        rewrite A5 by exact NE. apply (d_map _ _ _ _ _ D l' p'); auto.
        destruct (N.eq_dec (l' * S + p') k) as [E|E]; [destruct (KEY l' p' P' E); contradiction | lia].
      * intros l' L' H. unfold set_bits, upd. destruct (N.eqb_spec l' l) as [->|NE].
        -- rewrite (H p PB) in V by lia. discriminate V.
        -- rewrite A5 by exact NE. apply (d_un _ _ _ _ _ D); [exact L'|]. intros p' P' LT. apply H; [exact P' | lia].
    + intros _ NZ. destruct (NEXT NZ) as (E1 & E2). rewrite E1, E2. exists p. split; [lia | exact V].
  - apply IH; auto; try lia.
    + constructor.
      * intros l' p' L' P'. rewrite LTB by exact P'. rewrite (d_val _ _ _ _ _ D l' p' L' P').
        destruct (N.eqb_spec l' l) as [->|NE]; cbn [andb]; [|rewrite orb_false_r; reflexivity].
        destruct (N.eqb_spec p' p) as [->|NP]; [rewrite V, !andb_false_r; reflexivity | rewrite orb_false_r; reflexivity].
      * intros l' p' L' P'. rewrite LTB by exact P'. rewrite (d_dir _ _ _ _ _ D l' p' L' P').
        destruct (N.eqb_spec l' l) as [->|NE]; cbn [andb]; [|rewrite orb_false_r; reflexivity].
        destruct (N.eqb_spec p' p) as [->|NP]; [rewrite V, !andb_false_r; reflexivity | rewrite orb_false_r; reflexivity].
      * intros l' p' L' P' LT V'. apply (d_map _ _ _ _ _ D l' p'); auto.
        destruct (N.eq_dec (l' * S + p') k) as [E|E]; [|lia]. destruct (KEY l' p' P' E) as (-> & ->). congruence.
      * intros l' L' H. apply (d_un _ _ _ _ _ D); [exact L'|]. intros p' P' LT. apply H; [exact P' | lia].
    + intros OK' NZ. destruct (NEXT NZ) as (E1 & E2). rewrite E1, E2.
      destruct (N.eqb_spec p 0) as [Z|Z]; [discriminate OK'|]. destruct (OK OK' Z) as (q & Q & VQ). exists q. split; [lia | exact VQ].
Qed.

(** The address at which the entry of sector [curr] is. *)
Definition right_addr (off curr : N) : N := off + curr * 512.

Lemma recover_loaded : forall S off nl seqs mt0 fuel curr count mt, 0 < S <= 128 -> 512 mod S = 0 ->
  nl < 2 ^ 32 -> numbered seqs -> owned S nl seqs mt0 ->
  curr mod 512 = 0 -> curr + count = nl * S -> count < 512 * N.of_nat fuel ->
  Loaded S nl mt0 curr mt ->
  Loaded S nl mt0 (nl * S) (recover fuel S off seqs (entry_at S seqs mt0) right_addr curr count mt).
Proof.
  intros S off nl seqs mt0. induction fuel as [|fuel IH]; intros curr count mt P DV NL NU OW CM CC FU D; [lia|].
  cbn [recover].
  assert (RD : read_at (entry_at S seqs mt0) off (right_addr off curr) (N.to_nat (N.min 512 count)) =
    map (fun i => entry_at S seqs mt0 (curr + N.of_nat i)) (seq 0 (N.to_nat (N.min 512 count)))).
  { unfold read_at, right_addr. apply map_ext. intros i. f_equal. f_equal.
    replace (off + curr * 512 - off) with (curr * 512) by lia. change sector with 512. apply N.div_mul. lia. }
  rewrite RD.
  assert (CS : curr mod S = 0).
  { apply N.mod_divide in DV; [|lia]. apply N.mod_divide in CM; [|lia]. apply N.mod_divide; [lia|].
    eapply N.divide_trans; eassumption. }
  pose proof (drain_loaded S nl seqs mt0 (N.to_nat (N.min 512 count)) curr false mt P NL NU OW D ltac:(lia) ltac:(discriminate)) as D'.
  rewrite N2Nat.id in D'.
  destruct (N.ltb_spec 0 (count - N.min 512 count)) as [Z|Z].
  - apply IH; auto; try lia. replace (N.min 512 count) with 512 by lia.
    rewrite N.add_mod by lia. rewrite CM. reflexivity.
  - replace (nl * S) with (curr + N.min 512 count) by lia. exact D'.
Qed.

(** If every step reads the entries of its sectors, recovery brings back what was there:
    the state of every sector, and the mapping of every line with a valid sector. *)
Theorem C69_recovery : forall S off nl seqs mt0, 0 < S <= 128 -> 512 mod S = 0 -> nl < 2 ^ 32 ->
  numbered seqs -> owned S nl seqs mt0 ->
  let mt := recover (Datatypes.S (N.to_nat (nl * S / 512))) S off seqs (entry_at S seqs mt0) right_addr 0 (nl * S) blank in
  forall l, l < nl ->
    (forall p, p < S -> l_val (mt l) p = l_val (mt0 l) p /\ l_dir (mt l) p = (l_val (mt0 l) p && l_dir (mt0 l) p)) /\
    ((exists p, p < S /\ l_val (mt0 l) p = true) -> l_core (mt l) = l_core (mt0 l) /\ l_cl (mt l) = l_cl (mt0 l)) /\
    ((forall p, p < S -> l_val (mt0 l) p = false) -> l_core (mt l) = core_max).
Proof.
  intros S off nl seqs mt0 P DV NL NU OW mt l L.
  assert (D : Loaded S nl mt0 (nl * S) mt).
  { unfold mt. apply recover_loaded; auto; try lia.
    - pose proof (N.div_mod (nl * S) 512 ltac:(lia)). pose proof (N.mod_upper_bound (nl * S) 512 ltac:(lia)). lia.
    - constructor; cbn [blank l_val l_dir l_core l_cl]; intros; try reflexivity; try lia.
      + destruct (N.ltb_spec (l0 * S + p) 0); [lia | reflexivity].
      + destruct (N.ltb_spec (l0 * S + p) 0); [lia | reflexivity]. }
  assert (IN : forall p, p < S -> l * S + p < nl * S) by (intros; nia).
  split; [|split].
  - intros p PP. rewrite (d_val _ _ _ _ _ D l p L PP), (d_dir _ _ _ _ _ D l p L PP).
    rewrite (proj2 (N.ltb_lt _ _) (IN p PP)). split; reflexivity.
  - intros (p & PP & V). apply (d_map _ _ _ _ _ D l p L PP (IN p PP) V).
  - intros H. apply (d_un _ _ _ _ _ D l L). intros p PP _. apply H. exact PP.
Qed.

(** Recovery, whatever the device delivers and wherever it is read, changes no line
    beyond the last one. *)
Lemma drain_outside : forall S nl seqs es k ok mt l, 0 < S -> nl < 2 ^ 32 ->
  k + N.of_nat (length es) <= nl * S -> nl <= l -> drain S seqs k es ok mt l = mt l.
Proof.
  intros S nl seqs. induction es as [|e es IH]; intros k ok mt l P NL B L; [reflexivity|].
  cbn [length] in B. cbn [drain].
  assert (K : k / S < nl) by (apply N.div_lt_upper_bound; lia).
  rewrite (w32_small (k / S)) by lia.
  assert (NE : (l =? k / S) = false) by (apply N.eqb_neq; lia).
  destruct (e_val e && negb (find_core seqs (e_seq e) =? core_max)).
  - rewrite IH by lia. unfold set_bits, upd. rewrite NE.
    destruct (if w8 (k mod S) =? 0 then false else ok); [reflexivity|]. unfold set_core, upd. rewrite NE. reflexivity.
  - apply IH; lia.
Qed.
Lemma recover_outside : forall S off nl seqs at_ addr_of fuel curr count mt l, 0 < S -> nl < 2 ^ 32 ->
  curr + count <= nl * S -> nl <= l -> recover fuel S off seqs at_ addr_of curr count mt l = mt l.
Proof.
  intros S off nl seqs at_ addr_of. induction fuel as [|fuel IH]; intros curr count mt l P NL B L; [reflexivity|].
  cbn [recover].
  assert (D : forall es, (length es = N.to_nat (N.min 512 count))%nat -> drain S seqs curr es false mt l = mt l).
  { intros es E. apply (drain_outside S nl); auto. lia. }
  assert (E : drain S seqs curr (read_at at_ off (addr_of off curr) (N.to_nat (N.min 512 count))) false mt l = mt l).
  { apply D. unfold read_at. rewrite map_length, seq_length. reflexivity. }
  destruct (0 <? count - N.min 512 count); [|exact E]. rewrite IH by lia. exact E.
Qed.
Theorem C69_recovery_outside : forall S off nl seqs at_ mt l, 0 < S -> nl < 2 ^ 32 -> nl <= l ->
  load_atomic S off nl seqs at_ mt l = mt l.
Proof. intros S off nl seqs at_ mt l P NL L. unfold load_atomic. apply (recover_outside S off nl); auto. lia. Qed.
(** 65 lines of 8 sectors, 520 sectors in two steps; every sector of the device, those
    behind the last line too, says it is valid. *)
Example C69_ex_outside :
  let mt := load_atomic 8 0 65 (1 :: repeat 0 4095) (fun _ => {| e_cl := 3; e_seq := 1; e_val := true; e_dir := true |}) blank in
  l_core (mt 64) = 0 /\ l_core (mt 65) = core_max.
Proof. vm_compute. split; reflexivity. Qed.

(** The code reads at the address for whole pages: all but the first 512 sectors are
    taken from the wrong place.  One line is cached, line 64 of 128, all sectors valid and
    dirty; after recovery it is lost. *)
Definition ex_seqs : list N := 1 :: repeat 0 4095.
Definition ex_mt : meta := fun l =>
  if l =? 64 then {| l_core := 0; l_cl := 7; l_val := fun _ => true; l_dir := fun _ => true |}
  else {| l_core := core_max; l_cl := 0; l_val := fun _ => false; l_dir := fun _ => false |}.

Lemma ex_numbered : numbered ex_seqs.
Proof.
  unfold ex_seqs. split; [cbn [length]; rewrite repeat_length; reflexivity|].
  assert (Z : forall i x, nth_error (repeat 0 4095) i = Some x -> x = 0).
  { intros i x E. apply nth_error_In in E. apply repeat_spec in E. exact E. }
  intros [|i] NZ [|j] E SO; auto.
  - cbn [nth_error] in E. symmetry in E. apply Z in E. discriminate E.
  - cbn [nth_error] in *. destruct (nth_error (repeat 0 4095) i) as [x|] eqn:X; [|contradiction].
    apply Z in X. subst x. contradiction.
  - cbn [nth_error] in *. destruct (nth_error (repeat 0 4095) i) as [x|] eqn:X; [|contradiction].
    apply Z in X. subst x. contradiction.
Qed.
Lemma ex_owned : owned 8 128 ex_seqs ex_mt.
Proof.
  intros l p L P V. unfold ex_mt in *. destruct (l =? 64); cbn [l_core l_val] in *; [|discriminate V].
  split; [lia | discriminate].
Qed.

Theorem C69_recovery_refuted :
  exists S off nl seqs mt0, 0 < S <= 128 /\ 512 mod S = 0 /\ nl < 2 ^ 32 /\ numbered seqs /\ owned S nl seqs mt0 /\
  exists l p, l < nl /\ p < S /\ l_val (mt0 l) p = true /\ l_dir (mt0 l) p = true /\
    let mt := load_atomic S off nl seqs (entry_at S seqs mt0) blank in
    l_val (mt l) p = false /\ l_core (mt l) = core_max.
Proof.
  exists 8, 65536, 128, ex_seqs, ex_mt.
  split; [lia|]. split; [reflexivity|]. split; [reflexivity|]. split; [apply ex_numbered|]. split; [apply ex_owned|].
  exists 64, 0. split; [reflexivity|]. split; [reflexivity|]. split; [reflexivity|]. split; [reflexivity|].
  vm_compute. split; reflexivity.
Qed.

(** ** Zeroing a line *)

Definition completions (l : list zev) : list bool := flat_map (fun e => match e with ZComplete ok => [ok] | _ => [] end) l.
Definition puts (l : list zev) : nat := length (filter (fun e => match e with ZPut => true | _ => false end) l).

(** A mapped line is always marked, and then the request completes twice, is unlocked
    twice and gives back one reference more than the two it has; if the flush failed it
    is reported to have failed and to have succeeded. *)
Theorem C69_zero_refuted : forall S addr bytes m ok, mi_miss m = false ->
  existsb mi_flush (zero_map_info S addr bytes 1 0 [m]) = true /\
  completions (zero_do true ok) = [ok; true] /\ puts (zero_do true ok) = 3%nat.
Proof.
  intros S addr bytes m ok M. cbn [zero_map_info]. rewrite M. cbn [existsb flush_mark mi_flush orb].
  destruct ok; repeat split.
Qed.

(** ** Sequence numbers *)

Definition distinct_nos (s : seqst) : Prop :=
  cur s <= 65535 /\ (forall i n, nth_error (nos s) i = Some (Some n) -> 0 < n <= cur s) /\
  (forall i j n, nth_error (nos s) i = Some (Some n) -> nth_error (nos s) j = Some (Some n) -> i = j).

Lemma put_nth : forall (A : Type) (l : list A) i v j x, nth_error (put l i v) j = Some x ->
  (j = i /\ x = v) \/ (j <> i /\ nth_error l j = Some x).
Proof.
  induction l as [|y l IH]; intros i v j x H; [destruct j, i; discriminate H|].
  destruct i as [|i], j as [|j]; cbn [put nth_error] in H.
  - injection H as <-. now left.
  - right. split; [lia | exact H].
  - right. split; [lia | exact H].
  - destruct (IH i v j x H) as [(-> & ->)|(A1 & A2)]; [now left | right; split; [lia | exact A2]].
Qed.

Lemma renumber_spec : forall l c, c + N.of_nat (length l) <= 65535 -> exists c' l', renumber c l = Some (c', l') /\
  length l' = length l /\ c <= c' <= c + N.of_nat (length l) /\
  (forall i n, nth_error l' i = Some (Some n) -> c < n <= c') /\
  (forall i j n, nth_error l' i = Some (Some n) -> nth_error l' j = Some (Some n) -> i = j) /\
  (forall i, nth_error l' i = Some None <-> nth_error l i = Some None).
Proof.
  induction l as [|x l IH]; intros c B; cbn [renumber length] in *.
  { exists c, []. split; [reflexivity|]. split; [reflexivity|]. split; [lia|]. split; [intros [|i] n H; discriminate H|].
    split; [intros [|i] j n H; discriminate H | tauto]. }
  destruct x as [x|].
  - unfold next_seq, seq_max. destruct (N.eqb_spec c 65535); [lia|]. destruct (N.eqb_spec (c + 1) 0); [lia|].
    destruct (IH (c + 1) ltac:(lia)) as (c' & l' & -> & A & R & N & U & V). exists c', (Some (c + 1) :: l').
    split; [reflexivity|]. split; [cbn [length]; lia|]. split; [lia|]. split; [|split].
    + intros [|i] m H; cbn [nth_error] in H; [injection H as <-; lia|]. specialize (N i m H). lia.
    + intros [|i] [|j] m H H'; cbn [nth_error] in *; auto.
      * injection H as <-. specialize (N j _ H'). lia.
      * injection H' as <-. specialize (N i _ H). lia.
      * f_equal. eapply U; eassumption.
    + intros [|i]; cbn [nth_error]; [split; discriminate | apply V].
  - destruct (IH c ltac:(lia)) as (c' & l' & -> & A & R & N & U & V). exists c', (None :: l').
    split; [reflexivity|]. split; [cbn [length]; lia|]. split; [lia|]. split; [|split].
    + intros [|i] m H; cbn [nth_error] in H; [discriminate H|]. exact (N i m H).
    + intros [|i] [|j] m H H'; cbn [nth_error] in *; try discriminate; auto. f_equal. eapply U; eassumption.
    + intros [|i]; cbn [nth_error]; [tauto | apply V].
Qed.

Lemma put_length : forall (A : Type) (l : list A) i v, length (put l i v) = length l.
Proof. induction l as [|x l IH]; intros [|i] v; cbn [put length]; auto. Qed.

(** From the attachment on, the cores have different numbers, none of them 0. *)
Theorem C69_numbers : forall s ops, (length (nos s) = 4096)%nat ->
  distinct_nos (fold_left seq_step ops (seq_step s SAttach)).
Proof.
  intros s ops L.
  assert (A : length (nos (seq_step s SAttach)) = 4096%nat /\ distinct_nos (seq_step s SAttach)).
  { destruct (renumber_spec (nos s) 0 ltac:(lia)) as (c & l & E & LL & R & N & U & _).
    unfold seq_step, seq_op, distinct_nos. rewrite E. cbn [cur nos]. split; [lia|]. split; [lia|]. split; [intros i n H; specialize (N i n H); lia|exact U]. }
  destruct A as (A & D). revert A D. generalize (seq_step s SAttach). clear s L.
  induction ops as [|o ops IH]; intros s A D; [exact D|]. cbn [fold_left].
  assert (X : length (nos (seq_step s o)) = 4096%nat /\ distinct_nos (seq_step s o)).
  { destruct D as (D1 & D2 & D3). unfold seq_step, seq_op, distinct_nos. destruct o as [|id|id].
    - destruct (renumber_spec (nos s) 0 ltac:(lia)) as (c & l & E & LL & R & N & U & _). rewrite E. cbn [cur nos].
      split; [lia|]. split; [lia|]. split; [intros i n H; specialize (N i n H); lia|exact U].
    - unfold next_seq, seq_max. destruct (N.eqb_spec (cur s) 65535); [cbn; split; [exact A | split; auto]|].
      destruct (N.eqb_spec (cur s + 1) 0); [lia|]. cbn [cur nos]. rewrite put_length. split; [exact A|].
      split; [lia|]. split.
      + intros i nn H. apply put_nth in H as [(_ & H)|(_ & H)]; [injection H as ->; lia|]. specialize (D2 i nn H). lia.
      + intros i j nn H H'. apply put_nth in H as [(-> & H)|(I & H)]; apply put_nth in H' as [(-> & H')|(J & H')]; auto.
        * injection H as ->. specialize (D2 j _ H'). lia.
        * injection H' as ->. specialize (D2 i _ H). lia.
        * eapply D3; eassumption.
    - cbn [cur nos]. rewrite put_length. split; [exact A|]. split; [exact D1|]. split.
      + intros i nn H. apply put_nth in H as [(_ & H)|(_ & H)]; [discriminate H|]. exact (D2 i nn H).
      + intros i j nn H H'. apply put_nth in H as [(-> & H)|(I & H)]; apply put_nth in H' as [(-> & H')|(J & H')]; try discriminate.
        eapply D3; eassumption. }
  destruct X. apply IH; assumption.
Qed.

(** Numbers are not used again: after 65535 additions no core can be added, even if none
    is left. *)
Theorem C69_numbers_used_up : forall n id s, cur s = 0 -> N.of_nat n = 65535 ->
  let s' := fold_left seq_step (repeat (SAdd id) n ++ [SRemove id]) s in seq_op (SAdd id) s' = None.
Proof.
  intros n id s C N s'.
  assert (G : forall k s, cur s + N.of_nat k <= 65535 -> cur (fold_left seq_step (repeat (SAdd id) k) s) = cur s + N.of_nat k).
  { clear. induction k as [|k IH]; intros s B; cbn [repeat fold_left]; [lia|]. rewrite IH.
    - unfold seq_step at 1. unfold seq_op, next_seq, seq_max. destruct (N.eqb_spec (cur s) 65535); [lia|].
      destruct (N.eqb_spec (cur s + 1) 0); [lia|]. cbn [cur]. lia.
    - unfold seq_step at 1. unfold seq_op, next_seq, seq_max. destruct (N.eqb_spec (cur s) 65535); [lia|].
      destruct (N.eqb_spec (cur s + 1) 0); [lia|]. cbn [cur]. lia. }
  unfold s'. rewrite fold_left_app. cbn [fold_left]. unfold seq_step at 1. unfold seq_op at 2. unfold seq_op. cbn [cur].
  rewrite G by lia. rewrite C, N. reflexivity.
Qed.

(** ** Examples *)

(** 4 KiB lines; 10 KiB at 2560: sectors 5..7 of the first line, two lines (cached at 9 and 10),
    sector 0 of the last; the last is not cached. *)
Definition ex_map (miss : bool) (c : N) : minfo := {| mi_miss := miss; mi_coll := c; mi_flush := false; mi_start := 0; mi_stop := 0 |}.
Example ex_discard :
  flush_do 8 65536 false (zero_map_info 8 2560 10240 4 0 [ex_map false 3; ex_map false 10; ex_map false 9; ex_map true 0]) =
    Sent [(65536 + 3 * 4096 + 2560, 1536); (65536 + 9 * 4096, 8192)] /\
  N.of_nat 4 = (2560 + 10240 - 1) / 4096 - 2560 / 4096 + 1.
Proof. split; vm_compute; reflexivity. Qed.

Example ex_entry : get_entry 8 65536 128 (65536 + 128 * 4096) ex_seqs ex_mt (65536 + 64 * 4096 + 3 * 512) =
  AEntry {| e_cl := 7; e_seq := 1; e_val := true; e_dir := true |}.
Proof. vm_compute. reflexivity. Qed.

Example ex_nos : distinct_nos (fold_left seq_step [SAdd 5; SRemove 1; SAdd 1]
    (seq_step {| cur := 9; nos := put (put (repeat None 4096) 1 (Some 0)) 3 (Some 0) |} SAttach)) /\
  map (fun i => nth i (nos (fold_left seq_step [SAdd 5; SRemove 1; SAdd 1]
    (seq_step {| cur := 9; nos := put (put (repeat None 4096) 1 (Some 0)) 3 (Some 0) |} SAttach))) None) [1; 3; 5]%nat =
    [Some 4; Some 2; Some 3].
Proof.
  split; [apply C69_numbers; cbn [nos]; rewrite !put_length; apply repeat_length|]. vm_compute. reflexivity.
Qed.

Print Assumptions C69_discard_exact.
Print Assumptions C69_discard_once.
Print Assumptions C69_entry.
Print Assumptions C69_entry_metadata.
Print Assumptions C69_entry_unmapped_refuted.
Print Assumptions C69_entry_end_refuted.
Print Assumptions C69_invalid_before.
Print Assumptions C69_invalid_after.
Print Assumptions C69_entry_at.
Print Assumptions C69_recovery.
Print Assumptions C69_recovery_outside.
Print Assumptions C69_recovery_refuted.
Print Assumptions C69_zero_refuted.
Print Assumptions C69_numbers.
Print Assumptions C69_numbers_used_up.

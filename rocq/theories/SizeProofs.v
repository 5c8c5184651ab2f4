(** Proofs about the sizing of metadata: the iteration in [calc] is the iteration of an
    antitone map with a small Lipschitz constant. *)
From Coq Require Import ZArith List Bool Lia.
From Verif Require Import SizeModel.
Import ListNotations.
Open Scope Z_scope.

Lemma u32_id x : 0 <= x < 2^32 -> u32 x = x.
Proof. intro. unfold u32. apply Z.mod_small; assumption. Qed.
Lemma u64_id x : 0 <= x < 2^64 -> u64 x = x.
Proof. intro. unfold u64. apply Z.mod_small; assumption. Qed.

Lemma div_up_spec x y : 0 < y -> x <= div_up x y * y < x + y.
Proof.
  intro H. unfold div_up. pose proof (Z.div_mod (x + y - 1) y ltac:(lia)) as E.
  pose proof (Z.mod_pos_bound (x + y - 1) y H) as M. set (q := (x + y - 1) / y) in *. clearbody q. nia.
Qed.

(** ** Placement *)
Definition rnd (p : Z) : Z := div_up p 32 * 32.
Definition psize (d : Z * Z * bool) : Z :=
  match d with (n, sz, fl) => rnd (div_up n (4096 / sz)) * (if fl : bool then 2 else 1) end.
Definition total (ds : list (Z * Z * bool)) : Z := fold_right (fun d a => psize d + a) 0 ds.
Definition okd (d : Z * Z * bool) : Prop := match d with (n, sz, fl) => 0 <= n /\ 1 <= sz <= 4096 end.

Lemma rnd_spec p : p <= rnd p < p + 32.
Proof. unfold rnd. apply div_up_spec. lia. Qed.

Lemma inpage_pos sz : 1 <= sz <= 4096 -> 1 <= 4096 / sz.
Proof. intro. apply Z.div_le_lower_bound; lia. Qed.

Lemma div_up_nonneg x y : 0 <= x -> 0 < y -> 0 <= div_up x y.
Proof. intros. unfold div_up. apply Z.div_pos; lia. Qed.

Lemma psize_nonneg d : okd d -> 0 <= psize d.
Proof.
  destruct d as [[n sz] fl]. intros [H1 H2]. unfold psize.
  pose proof (inpage_pos sz H2). pose proof (div_up_nonneg n (4096 / sz) H1 ltac:(lia)).
  pose proof (rnd_spec (div_up n (4096 / sz))). destruct fl; lia.
Qed.
Lemma total_nonneg ds : Forall okd ds -> 0 <= total ds.
Proof. induction 1; simpl; [lia|]. pose proof (psize_nonneg x H). lia. Qed.

(** What the sections look like when nothing wraps: one after the other. *)
Fixpoint chain (start : Z) (ds : list (Z * Z * bool)) (rs : list raw) : Prop :=
  match ds, rs with
  | [], [] => True
  | (n, sz, fl) :: ds, r :: rs =>
    r = {| r_entries := n; r_in_page := 4096 / sz; r_flap := fl; r_off := start; r_pages := div_up n (4096 / sz) |} /\
    chain (start + psize (n, sz, fl)) ds rs
  | _, _ => False
  end.

Lemma place_ok base : 0 <= base -> forall ds page, Forall okd ds -> 0 <= page -> base + page + total ds < 2^32 ->
  exists rs, place base page ds = (rs, page + total ds) /\ chain (base + page) ds rs.
Proof.
  intro Hb. induction ds as [|[[n sz] fl] ds IH]; intros page H P T.
  - exists []. split; [simpl; f_equal; lia|exact I].
  - inversion H as [|? ? H1 H2]; subst. pose proof (psize_nonneg _ H1) as N1. pose proof (total_nonneg _ H2) as N2.
    change (total ((n, sz, fl) :: ds)) with (psize (n, sz, fl) + total ds) in *.
    assert (S1 : size_on_ssd (place1 base page (n, sz, fl)) = psize (n, sz, fl)).
    { unfold size_on_ssd, place1, seg_size, psize in *. cbn [r_pages r_flap].
      destruct H1 as [H1 H3]. pose proof (inpage_pos sz H3).
      pose proof (div_up_nonneg n (4096 / sz) H1 ltac:(lia)).
      pose proof (rnd_spec (div_up n (4096 / sz))). unfold rnd in *.
      destruct fl; rewrite (u32_id (div_up _ 32 * 32)) by lia; apply u32_id; lia. }
    cbn [place]. rewrite S1, (u32_id (page + psize _)) by lia.
    destruct (IH (page + psize (n, sz, fl)) H2 ltac:(lia) ltac:(lia)) as [rs [E C]].
    rewrite E. exists (place1 base page (n, sz, fl) :: rs). split; [f_equal; lia|].
    split.
    + unfold place1. rewrite u32_id by lia. reflexivity.
    + replace (base + page + psize (n, sz, fl)) with (base + (page + psize (n, sz, fl))) by lia. exact C.
Qed.

(** ** One section as a function of the number of lines *)
Definition f (e n : Z) : Z := rnd (div_up n e).

Lemma div_up_mono e n m : 0 < e -> n <= m -> div_up n e <= div_up m e.
Proof. intros. unfold div_up. apply Z.div_le_mono; lia. Qed.
Lemma f_mono e n m : 0 < e -> n <= m -> f e n <= f e m.
Proof. intros. unfold f, rnd. pose proof (div_up_mono e n m H H0). pose proof (div_up_mono 32 _ _ ltac:(lia) H1). lia. Qed.
Lemma f_lip e n m : 0 < e -> n <= m -> e * (f e m - f e n) <= m - n + 33 * e.
Proof.
  intros H1 H2. unfold f. pose proof (rnd_spec (div_up n e)). pose proof (rnd_spec (div_up m e)).
  pose proof (div_up_spec n e H1). pose proof (div_up_spec m e H1).
  set (a := div_up n e) in *. set (b := div_up m e) in *. clearbody a b. nia.
Qed.
Lemma f_low e n : 0 < e -> n <= e * f e n.
Proof. intros H. unfold f. pose proof (rnd_spec (div_up n e)). pose proof (div_up_spec n e H). set (a := div_up n e) in *. clearbody a. nia. Qed.

Definition lines_sizes : list Z := [4096; 8192; 16384; 32768; 65536].

(** Pages of the sections that depend on the number of lines. *)
Definition M (line : Z) (noc : bool) (c : Z) : Z :=
  (if noc then 0 else f 341 c) + f 455 c + f (4096 / (10 + line / 512 / 8 * 2)) c + f 455 c + f 1024 ((c + 3) / 4).

Lemma M_total line noc c : 0 <= c < 2^32 - 3 -> In line lines_sizes ->
  total (variable line noc c) = M line noc c /\ Forall okd (variable line noc c).
Proof.
  intros Hc HL. unfold variable. rewrite (u32_id c) by lia. rewrite (u32_id (c + 4 - 1)) by lia.
  replace (c + 4 - 1) with (c + 3) by lia.
  assert (0 <= (c + 3) / 4) by (apply Z.div_pos; lia).
  split.
  - unfold M, total. destruct noc; cbn [app fold_right psize]; unfold f; change (4096 / 12) with 341; change (4096 / 9) with 455; change (4096 / 4) with 1024; ring.
  - assert (B : 1 <= 10 + line / 512 / 8 * 2 <= 4096).
    { unfold lines_sizes in HL. simpl in HL. destruct HL as [<-|[<-|[<-|[<-|[<-|[]]]]]]; vm_compute; split; discriminate. }
    destruct noc; cbn [app]; repeat constructor; unfold okd; lia.
Qed.

Lemma coll_e line : In line lines_sizes -> In (4096 / (10 + line / 512 / 8 * 2)) [341; 292; 227; 157; 97].
Proof. unfold lines_sizes. simpl. intros [<-|[<-|[<-|[<-|[<-|[]]]]]]; vm_compute; tauto. Qed.

Lemma coll_pos line : In line lines_sizes -> 0 < 4096 / (10 + line / 512 / 8 * 2).
Proof. intro H. pose proof (coll_e line H) as E. set (e := 4096 / _) in *. clearbody e. simpl in E. lia. Qed.

Lemma M_mono line noc c c' : In line lines_sizes -> c' <= c -> M line noc c' <= M line noc c.
Proof.
  intros HL H. unfold M. pose proof (coll_pos line HL) as P.
  pose proof (f_mono 341 c' c ltac:(lia) H). pose proof (f_mono 455 c' c ltac:(lia) H).
  pose proof (f_mono _ c' c P H).
  pose proof (f_mono 1024 ((c' + 3) / 4) ((c + 3) / 4) ltac:(lia) ltac:(apply Z.div_le_mono; lia)).
  destruct noc; lia.
Qed.

Lemma M_lip line noc c c' : In line lines_sizes -> c' <= c -> 50 * (M line noc c - M line noc c') <= (c - c') + 50 * 166.
Proof.
  intros HL H. unfold M. pose proof (coll_e line HL) as E.
  set (e := 4096 / (10 + line / 512 / 8 * 2)) in *. clearbody e.
  pose proof (f_lip 341 c' c ltac:(lia) H). pose proof (f_lip 455 c' c ltac:(lia) H).
  pose proof (f_mono 341 c' c ltac:(lia) H) as Q1.
  assert (0 < e) by (simpl in E; lia).
  pose proof (f_lip e c' c ltac:(lia) H) as Q2.
  assert (G : (c + 3) / 4 - (c' + 3) / 4 <= (c - c') / 4 + 1 /\ (c' + 3) / 4 <= (c + 3) / 4).
  { split; [|apply Z.div_le_mono; lia].
    pose proof (Z.div_mod (c + 3) 4 ltac:(lia)). pose proof (Z.mod_pos_bound (c + 3) 4 ltac:(lia)).
    pose proof (Z.div_mod (c' + 3) 4 ltac:(lia)). pose proof (Z.mod_pos_bound (c' + 3) 4 ltac:(lia)).
    pose proof (Z.div_mod (c - c') 4 ltac:(lia)). pose proof (Z.mod_pos_bound (c - c') 4 ltac:(lia)). lia. }
  destruct G as [G1 G2]. pose proof (f_lip 1024 _ _ ltac:(lia) G2) as Q3.
  pose proof (Z.mul_div_le (c - c') 4 ltac:(lia)) as Q4.
  assert (Q5 : 97 * (f e c - f e c') <= c - c' + 33 * 97).
  { pose proof (f_mono e c' c ltac:(lia) H). simpl in E. destruct E as [<-|[<-|[<-|[<-|[<-|[]]]]]]; lia. }
  set (x1 := f 341 c - f 341 c') in *. set (x2 := f 455 c - f 455 c') in *. set (x3 := f e c - f e c') in *.
  set (x4 := f 1024 ((c + 3) / 4) - f 1024 ((c' + 3) / 4)) in *.
  replace ((if noc then 0 else f 341 c) + f 455 c + f e c + f 455 c + f 1024 ((c + 3) / 4) -
    ((if noc then 0 else f 341 c') + f 455 c' + f e c' + f 455 c' + f 1024 ((c' + 3) / 4)))
    with ((if noc then 0 else x1) + x2 + x3 + x2 + x4) by (unfold x1, x2, x3, x4; destruct noc; lia).
  clearbody x1 x2 x3 x4. destruct noc; lia.
Qed.

Lemma M_zero line noc : In line lines_sizes -> M line noc 0 = 0.
Proof. unfold lines_sizes; simpl; intros [<-|[<-|[<-|[<-|[<-|[]]]]]]; destruct noc; reflexivity. Qed.
Lemma M_bound line noc c : In line lines_sizes -> 0 <= c -> 0 <= 50 * M line noc c <= c + 50 * 166.
Proof. intros HL H. pose proof (M_lip line noc c 0 HL H). pose proof (M_mono line noc c 0 HL H). rewrite M_zero in * by assumption. lia. Qed.

Section Iter.
Variables dev line fixed : Z.
Variable noc : bool.
Hypothesis HL : In line lines_sizes.
Hypothesis Hdev : 40 * 2^20 <= dev * line.
Hypothesis Hdev2 : dev < 2^32 - 1.
Hypothesis Hfix : 0 <= fixed <= 9216.

Definition g (c : Z) : Z := (dev * line - (fixed + M line noc c) * 4096) / line.
Definition dom (c : Z) : Prop := 0 < c <= dev /\ c < 2^32 - 3.

Lemma line_k : exists k, line = 4096 * k /\ 1 <= k <= 16.
Proof using HL. clear Hdev Hdev2 Hfix. unfold lines_sizes in HL; simpl in HL. destruct HL as [<-|[<-|[<-|[<-|[<-|[]]]]]]; [exists 1|exists 2|exists 4|exists 8|exists 16]; lia. Qed.

Lemma g_pos_num c : dom c -> line <= dev * line - (fixed + M line noc c) * 4096 < dev * line + 1.
Proof.
  intros [Hc Hc2]. pose proof (M_bound line noc c HL ltac:(lia)) as B. destruct line_k as [k [Hk Hk2]].
  assert (dev <= dev * k) by nia. assert (dev * line = 4096 * (dev * k)) by (rewrite Hk; lia).
  set (x := dev * k) in *. clearbody x. lia.
Qed.
Lemma g_dom c : dom c -> 0 < g c <= dev.
Proof.
  intros H. pose proof (g_pos_num c H) as P. destruct line_k as [k [Hk Hk2]]. unfold g. split.
  - apply Z.lt_le_trans with (m := 1); [lia|]. apply Z.div_le_lower_bound; lia.
  - apply Z.div_le_upper_bound; lia.
Qed.

Lemma g_anti c c' : c' <= c -> g c <= g c'.
Proof.
  intro H. unfold g. destruct line_k as [k [Hk Hk2]]. apply Z.div_le_mono; [lia|].
  pose proof (M_mono line noc c c' HL H). lia.
Qed.

Lemma g_lip c c' k : line = 4096 * k -> c' <= c -> 50 * k * (g c' - g c) <= c - c' + 8300 + 50 * k.
Proof.
  intros Hk H. pose proof (M_lip line noc c c' HL H) as L. unfold g.
  destruct line_k as [k' [Hk' Hk2]]. assert (k' = k) by lia. subst k'. assert (P : 0 < line) by lia.
  set (a := dev * line - (fixed + M line noc c') * 4096). set (b := dev * line - (fixed + M line noc c) * 4096).
  pose proof (Z.div_mod a line ltac:(lia)) as A. pose proof (Z.mod_pos_bound a line ltac:(lia)) as A2.
  pose proof (Z.div_mod b line ltac:(lia)) as B. pose proof (Z.mod_pos_bound b line ltac:(lia)) as B2.
  assert (E : a - b = (M line noc c - M line noc c') * 4096) by (unfold a, b; lia).
  set (m := M line noc c - M line noc c') in *. clearbody m.
  set (qa := a / line) in *. set (qb := b / line) in *. clearbody qa qb.
  assert (F : line * (qa - qb) <= m * 4096 + line) by lia. rewrite Hk in F.
  assert (k * (qa - qb) <= m + k) by lia. lia.
Qed.

(** Every number the iteration meets stays away from the wrap of 32 bits: the fixed sections
    alone take more than three lines. *)
Lemma g_small c : dom c -> 8192 <= fixed -> g c + 500 < dev.
Proof.
  intros H F. pose proof (M_bound line noc c HL ltac:(destruct H; lia)) as B. unfold g. destruct line_k as [k [Hk Hk2]].
  pose proof (Z.mul_div_le (dev * line - (fixed + M line noc c) * 4096) line ltac:(lia)) as Q.
  set (q := _ / line) in *. clearbody q. rewrite Hk in *. nia.
Qed.

Definition result (c : Z) : list raw * Z * Z :=
  (fst (place fixed 0 (variable line noc c)), snd (place fixed 0 (variable line noc c)), c).

Lemma place_count c : dom c -> snd (place fixed 0 (variable line noc c)) = M line noc c.
Proof.
  intros [Hc Hc2]. destruct (M_total line noc c ltac:(lia) HL) as [E O]. pose proof (M_bound line noc c HL ltac:(lia)).
  destruct (place_ok fixed ltac:(lia) (variable line noc c) 0 O ltac:(lia) ltac:(rewrite E; lia)) as [rs [P _]].
  rewrite P, E. reflexivity.
Qed.

Lemma calc_step fuel i diff c lowest : dom c -> i < 1000 ->
  calc (S fuel) dev line fixed noc i diff c lowest =
  (let d := g c - c in
   if (0 <? d) && negb (d <? lowest) && (d =? lowest) then Ok (result c)
   else let lowest := if (0 <? d) && (d <? lowest) then d else lowest in
        if d =? 0 then Ok (result c) else calc fuel dev line fixed noc (i + 1) d (c + d) lowest).
Proof.
  intros H Hi. pose proof H as [Hc Hc2]. pose proof (place_count c H) as P. unfold result.
  cbn [calc]. rewrite (u32_id c) by lia.
  destruct (Z.eqb_spec c 0); [lia|].
  destruct (place fixed 0 (variable line noc c)) as [rs count]. cbn [fst snd] in *. subst count.
  replace (1000 <=? i) with false by (symmetry; apply Z.leb_gt; lia). cbn [andb].
  pose proof (M_bound line noc c HL ltac:(lia)) as B. pose proof (g_pos_num c H) as G.
  rewrite (u32_id (fixed + M line noc c)) by lia.
  rewrite u64_id; [reflexivity|].
  destruct line_k as [k [Hk Hk2]]. split; [lia|]. apply Z.le_lt_trans with (m := dev * line); [lia|]. nia.
Qed.

(** A number of lines on the high side, with the loop's [lowest_diff]. *)
Definition high (c lowest : Z) : Prop := dom c /\ g c <= c /\ g (g c) <= c /\ 0 < lowest /\ c - g c <= lowest.

Definition good (r : res (list raw * Z * Z)) : Prop :=
  exists c, dom c /\ r = Ok (result c) /\ c <= g c /\ (forall k, line = 4096 * k -> 49 * k * (g c - c) <= 8300 + 50 * k).

Lemma dom_low c : dom c -> forall x, 0 < x -> x <= c -> dom x.
Proof. unfold dom. intros. lia. Qed.

Lemma round fuel i diff c lowest : high c lowest -> i < 999 ->
  let r := calc (S (S fuel)) dev line fixed noc i diff c lowest in
  good r \/
  exists d' c' p, r = calc fuel dev line fixed noc (i + 2) d' c' p /\ high c' p /\ p < lowest /\ 50 * p <= lowest + 8350.
Proof.
  intros (D & H1 & H2 & H3 & H4) Hi. cbv zeta. pose proof (g_dom c D) as GD.
  assert (DL : dom (g c)) by (apply (dom_low c D); lia).
  rewrite calc_step by (assumption || lia). cbv zeta.
  replace (0 <? g c - c) with false by (symmetry; apply Z.ltb_ge; lia). cbn [andb].
  destruct (Z.eqb_spec (g c - c) 0) as [E|E].
  - left. exists c. split; [assumption|]. split; [reflexivity|]. split; [lia|]. intros k Hk. nia.
  - replace (c + (g c - c)) with (g c) by lia. set (low := g c) in *.
    assert (P0 : low <= g low) by (apply (g_anti c low); lia).
    destruct line_k as [k [Hk Hk2]].
    assert (L : 50 * k * (g low - low) <= c - low + 8300 + 50 * k) by (apply (g_lip c low k Hk); lia).
    rewrite calc_step by (assumption || lia). cbv zeta.
    destruct (Z.ltb_spec 0 (g low - low)); cbn [andb].
    + destruct (Z.ltb_spec (g low - low) lowest); cbn [negb andb].
      * destruct (Z.eqb_spec (g low - low) 0); [lia|]. right.
        exists (g low - low), (g low), (g low - low). replace (low + (g low - low)) with (g low) by lia.
        replace (i + 1 + 1) with (i + 2) by lia. split; [reflexivity|].
        assert (DG : dom (g low)) by (apply (dom_low c D); lia).
        assert (A1 : g (g low) <= g low) by (apply g_anti; lia).
        assert (A2 : low <= g (g low)) by (apply (g_anti c (g low)); lia).
        split; [|split; [lia|nia]]. unfold high. split; [assumption|]. split; [assumption|].
        split; [apply g_anti; assumption|]. lia.
      * assert (g low - low = lowest) by lia. destruct (Z.eqb_spec (g low - low) lowest); [|lia].
        left. exists low. split; [assumption|]. split; [reflexivity|]. split; [lia|].
        intros k' Hk'. assert (k' = k) by lia. subst k'. nia.
    + destruct (Z.eqb_spec (g low - low) 0); [|lia]. left. exists low. split; [assumption|]. split; [reflexivity|].
      split; [lia|]. intros k' Hk'. assert (k' = k) by lia. subst k'. nia.
Qed.

Lemma small_rounds : forall n fuel i diff c lowest, high c lowest -> lowest <= Z.of_nat n -> (2 * n + 2 <= fuel)%nat ->
  i + 2 * Z.of_nat n < 999 -> good (calc fuel dev line fixed noc i diff c lowest).
Proof.
  induction n as [|n IH]; intros fuel i diff c lowest H Hn Hf Hi.
  - destruct H as (_ & _ & _ & H & _). simpl in Hn. lia.
  - destruct fuel as [|[|fuel]]; [lia|lia|].
    destruct (round fuel i diff c lowest H ltac:(lia)) as [G|(d' & c' & p & E & Hc' & Hp & _)]; [exact G|].
    rewrite E. apply IH; [assumption|lia|lia|lia].
Qed.

Lemma big_rounds fuel i diff c lowest : high c lowest -> lowest <= 2^32 -> (500 <= fuel)%nat -> i < 500 ->
  good (calc fuel dev line fixed noc i diff c lowest).
Proof.
  intros H Hl Hf Hi.
  do 10 (destruct fuel as [|fuel]; [lia|]).
  destruct (round (S (S (S (S (S (S (S (S fuel)))))))) i diff c lowest H ltac:(lia)) as [G|(d1 & c1 & p1 & E1 & H1 & _ & Q1)]; [exact G|rewrite E1; clear E1].
  destruct (round (S (S (S (S (S (S fuel)))))) (i + 2) d1 c1 p1 H1 ltac:(lia)) as [G|(d2 & c2 & p2 & E2 & H2 & _ & Q2)]; [exact G|rewrite E2; clear E2].
  destruct (round (S (S (S (S fuel)))) (i + 2 + 2) d2 c2 p2 H2 ltac:(lia)) as [G|(d3 & c3 & p3 & E3 & H3 & _ & Q3)]; [exact G|rewrite E3; clear E3].
  destruct (round (S (S fuel)) (i + 2 + 2 + 2) d3 c3 p3 H3 ltac:(lia)) as [G|(d4 & c4 & p4 & E4 & H4 & _ & Q4)]; [exact G|rewrite E4; clear E4].
  destruct (round fuel (i + 2 + 2 + 2 + 2) d4 c4 p4 H4 ltac:(lia)) as [G|(d5 & c5 & p5 & E5 & H5 & _ & Q5)]; [exact G|rewrite E5; clear E5].
  apply (small_rounds 190); [assumption| | |]; lia.
Qed.

Lemma start_high : dev < 2^32 - 3 -> 0 < dev -> high dev dev.
Proof.
  intros H P. assert (D : dom dev) by (unfold dom; lia). pose proof (g_dom dev D).
  assert (D2 : dom (g dev)) by (apply (dom_low dev D); lia). pose proof (g_dom (g dev) D2).
  unfold high. split; [assumption|]. lia.
Qed.
End Iter.

(** ** The two largest numbers of lines, where the size of the hash table wraps in the first pass *)
Definition edge_ok (dev line fixed : Z) (noc : bool) : bool :=
  let '(_, count) := place fixed 0 (variable line noc dev) in
  let c1 := u64 (dev * line - u32 (fixed + count) * 4096) / line in
  (0 <? c1) && (c1 <? 2^32 - 3) && (c1 <? dev) && (g dev line fixed noc c1 <=? c1) && (g dev line fixed noc (g dev line fixed noc c1) <=? c1).

Definition edge_k (k : nat) : bool :=
  forallb (fun line => forallb (fun noc => forallb (fun dev => edge_ok dev line (32 * Z.of_nat k) noc) [2^32 - 3; 2^32 - 2]) [true; false]) lines_sizes.
Lemma edge_all_true : forallb edge_k (seq 0 289) = true.
Proof. vm_compute. reflexivity. Qed.
Lemma edge_k_true k : In k (seq 0 289) -> edge_k k = true.
Proof. exact (proj1 (forallb_forall edge_k (seq 0 289)) edge_all_true k). Qed.

Lemma edge dev line fixed noc : In line lines_sizes -> dev = 2^32 - 3 \/ dev = 2^32 - 2 ->
  0 <= fixed <= 9216 -> fixed mod 32 = 0 -> edge_ok dev line fixed noc = true.
Proof.
  intros HL HD HF HM.
  assert (K : In (Z.to_nat (fixed / 32)) (seq 0 289)).
  { apply in_seq. assert (0 <= fixed / 32 < 289); [|lia]. split; [apply Z.div_pos; lia|apply Z.div_lt_upper_bound; lia]. }
  pose proof (edge_k_true _ K) as E. unfold edge_k in E. rewrite forallb_forall in E. specialize (E _ HL). rewrite forallb_forall in E.
  assert (N : In noc [true; false]) by (destruct noc; simpl; tauto). specialize (E _ N). rewrite forallb_forall in E.
  assert (D : In dev [2^32 - 3; 2^32 - 2]) by (simpl; destruct HD; subst; tauto). specialize (E _ D).
  rewrite Z2Nat.id in E by (apply Z.div_pos; lia). replace (32 * (fixed / 32)) with fixed in E; [exact E|].
  pose proof (Z.div_mod fixed 32 ltac:(lia)). lia.
Qed.

Lemma calc_good dev line fixed noc : In line lines_sizes -> 40 * 2^20 <= dev * line -> dev < 2^32 - 1 ->
  0 <= fixed <= 9216 -> fixed mod 32 = 0 -> good dev line fixed noc (calc 2100 dev line fixed noc 0 0 dev dev).
Proof.
  intros HL H1 H2 H3 HM.
  assert (P : 0 < dev). { destruct (line_k line HL) as [k [Hk Hk2]]. nia. }
  destruct (Z.lt_ge_cases dev (2^32 - 3)) as [H|H].
  - apply big_rounds; auto; try lia. apply start_high; auto.
  - assert (HD : dev = 2^32 - 3 \/ dev = 2^32 - 2) by lia.
    pose proof (edge dev line fixed noc HL HD H3 HM) as E. unfold edge_ok in E.
    assert (FU : exists fu, 2100%nat = S fu /\ (500 <= fu)%nat) by (exists 2099%nat; split; [reflexivity|lia]).
    destruct FU as (fu & -> & FU). cbn [calc].
    assert (U : u32 dev = dev) by (apply u32_id; lia). rewrite U.
    destruct (Z.eqb_spec dev 0); [lia|].
    destruct (place fixed 0 (variable line noc dev)) as [rs count].
    change (1000 <=? 0) with false. cbn [andb].
    set (c1 := u64 (dev * line - u32 (fixed + count) * 4096) / line) in *. clearbody c1.
    repeat rewrite andb_true_iff in E. destruct E as ((((E1 & E2) & E3) & E4) & E5).
    apply Z.ltb_lt in E1, E2, E3. apply Z.leb_le in E4, E5.
    replace (0 <? c1 - dev) with false by (symmetry; apply Z.ltb_ge; lia). cbn [andb].
    destruct (Z.eqb_spec (c1 - dev) 0); [lia|]. replace (dev + (c1 - dev)) with c1 by lia.
    assert (D : dom dev c1) by (unfold dom; lia).
    apply big_rounds; auto; try lia. unfold high. pose proof (g_dom dev line fixed noc HL H1 H3 c1 D).
    split; [assumption|]. split; [assumption|]. split; [assumption|]. lia.
Qed.

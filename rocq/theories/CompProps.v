(** Composite volume (C21) and metadata page merging (C22), for CompModel.v. *)
From Coq Require Import List Bool Arith NArith Lia Permutation Sorted.
From Verif Require Import FwdModel FwdProofs FwdProps CompModel.
Import ListNotations.
Open Scope N_scope.

(** ** Specification of C21: concatenation of the members *)

Fixpoint sum (l : list N) : N := match l with [] => 0 | x :: r => x + sum r end.

(** Byte [x] of the concatenation is byte [y] of member [i]. *)
Definition home (lens : list N) (x : N) (i : nat) (y : N) : Prop :=
  (i < length lens)%nat /\ y < nth i lens 0 /\ x = sum (firstn i lens) + y.

(** The forward [p] touches byte [y] of member [i] with byte [o] of the buffer. *)
Definition touches (p : part) (i : nat) (y o : N) : Prop :=
  p_idx p = i /\ exists d, d < p_bytes p /\ y = p_addr p + d /\ o = p_off p + d.

(** Exactly the bytes of the range, each exactly once, each at home. *)
Definition exact (lens : list N) (addr bytes off : N) (l : list part) : Prop :=
  (forall b, b < bytes -> exists k i y,
      home lens (addr + b) i y /\
      (exists p, nth_error l k = Some p /\ touches p i y (off + b)) /\
      (forall k' p' i' y', nth_error l k' = Some p' -> touches p' i' y' (off + b) -> k' = k)) /\
  (forall p i y o, In p l -> touches p i y o -> exists b, b < bytes /\ o = off + b /\ home lens (addr + b) i y).

(** The concatenation determines the place. *)
Lemma firstn_S_sum lens i : (i < length lens)%nat ->
  sum (firstn (S i) lens) = sum (firstn i lens) + nth i lens 0.
Proof.
  revert i; induction lens as [|x r IH]; intros i Hi; cbn [length] in Hi; [lia|].
  destruct i as [|i]; [cbn; lia|].
  change (firstn (S (S i)) (x :: r)) with (x :: firstn (S i) r).
  change (firstn (S i) (x :: r)) with (x :: firstn i r).
  cbn [sum nth]. rewrite IH; lia.
Qed.

Lemma firstn_sum_mono lens i j : (i <= j)%nat -> sum (firstn i lens) <= sum (firstn j lens).
Proof.
  revert i j; induction lens as [|x r IH]; intros i j H.
  - rewrite !firstn_nil. lia.
  - destruct i as [|i]; [cbn; lia|]. destruct j as [|j]; [lia|]. cbn [firstn sum].
    specialize (IH i j ltac:(lia)). lia.
Qed.

Theorem home_unique lens x i y i' y' : home lens x i y -> home lens x i' y' -> i = i' /\ y = y'.
Proof.
  intros (H1 & H2 & H3) (H1' & H2' & H3').
  assert (HX : forall i j, (i < j)%nat -> (i < length lens)%nat ->
     sum (firstn i lens) + nth i lens 0 <= sum (firstn j lens)).
  { intros a b Hab Ha. rewrite <- firstn_S_sum by auto. apply firstn_sum_mono. lia. }
  destruct (lt_eq_lt_dec i i') as [[HL|HE]|HL].
  - specialize (HX _ _ HL H1). lia.
  - subst i'. split; auto. lia.
  - specialize (HX _ _ HL H1'). lia.
Qed.

(** ** Proof *)
Lemma subw_ge a b : b <= a -> a < W -> subw a b = a - b.
Proof.
  intros H1 H2. unfold subw. replace (a + W - b) with (a - b + 1 * W) by lia.
  rewrite N.mod_add by (unfold W; discriminate). apply N.mod_small. lia.
Qed.
Lemma addw_small a b : a + b < W -> addw a b = a + b.
Proof. intros H. unfold addw. apply N.mod_small. auto. Qed.

Lemma sum_app a b : sum (a ++ b) = sum a + sum b.
Proof. induction a; cbn [app sum]; lia. Qed.

(** Consecutive buffer ranges. *)
Fixpoint consec (o : N) (l : list part) (oe : N) : Prop :=
  match l with [] => o = oe | p :: r => p_off p = o /\ consec (o + p_bytes p) r oe end.

Lemma consec_bound l : forall o oe p, consec o l oe -> In p l -> o <= p_off p /\ p_off p + p_bytes p <= oe /\ o <= oe.
Proof.
  induction l as [|q l IH]; intros o oe p H Hi; [destruct Hi|].
  cbn [consec] in H. destruct H as [H1 H2].
  assert (HO : o + p_bytes q <= oe).
  { clear - H2. revert H2. generalize (o + p_bytes q). induction l as [|r l IH]; cbn [consec]; intros o' H.
    - lia.
    - destruct H as [_ H]. apply IH in H. lia. }
  destruct Hi as [->|Hi]; [lia|]. destruct (IH _ _ _ H2 Hi). lia.
Qed.

Lemma consec_cover l : forall o oe x, consec o l oe -> o <= x -> x < oe ->
  exists k p, nth_error l k = Some p /\ p_off p <= x /\ x < p_off p + p_bytes p /\
    forall k' p', nth_error l k' = Some p' -> p_off p' <= x -> x < p_off p' + p_bytes p' -> k' = k.
Proof.
  induction l as [|q l IH]; intros o oe x H H1 H2; cbn [consec] in H; [lia|].
  destruct H as [Hq H].
  destruct (N.lt_ge_cases x (o + p_bytes q)) as [Hx|Hx].
  - exists 0%nat, q. split; [reflexivity|]. split; [lia|]. split; [lia|].
    intros [|k'] p' Hk A B; auto. cbn [nth_error] in Hk. apply nth_error_In in Hk.
    destruct (consec_bound _ _ _ _ H Hk). lia.
  - destruct (IH _ _ _ H Hx H2) as (k & p & A & B & C & D). exists (S k), p.
    split; [auto|]. split; [auto|]. split; [auto|].
    intros [|k'] p' Hk A' B'.
    + cbn [nth_error] in Hk. injection Hk as <-. lia.
    + cbn [nth_error] in Hk. f_equal. eapply D; eauto.
Qed.

(** Every part lies in its member, at the right distance. *)
Definition placed (lens : list N) (addr off : N) (p : part) : Prop :=
  (p_idx p < length lens)%nat /\ p_addr p + p_bytes p <= nth (p_idx p) lens 0 /\
  sum (firstn (p_idx p) lens) + p_addr p + off = addr + p_off p.

Lemma open_from_app b a : forall len, open_from len (a ++ b) = open_from len a ++ open_from (fold_left addw a len) b.
Proof. induction a as [|x a IH]; intros len; cbn; auto. rewrite IH. auto. Qed.

Lemma split_zero ms i a c o : split_go ms i a c 0 o = ([], true).
Proof. destruct ms; reflexivity. Qed.

Lemma NoDup_app_intro' {A} (a b : list A) :
  NoDup a -> NoDup b -> (forall x, In x a -> In x b -> False) -> NoDup (a ++ b).
Proof.
  induction 1 as [|x a Hx Ha IH]; intros Hb HD; cbn; auto. constructor.
  - intros Hi. apply in_app_or in Hi as [Hi|Hi]; [auto|]. apply (HD x); [left; auto|auto].
  - apply IH; auto. intros y Hy. apply HD. right; auto.
Qed.

Lemma split_exact lens addr off : sum lens < W ->
  forall suf pre caddr bytes o,
  lens = pre ++ suf ->
  sum pre <= caddr -> (suf <> [] -> caddr <= sum pre + hd 0 suf) -> (suf = [] -> caddr = sum pre) ->
  caddr + bytes <= sum lens -> o + bytes < W ->
  addr + o = caddr + off ->
  exists l, split_go (open_from (sum pre) suf) (length pre) (caddr - sum pre) caddr bytes o = (l, true) /\
            consec o l (o + bytes) /\ Forall (placed lens addr off) l.
Proof.
  intros HW. induction suf as [|x suf IH]; intros pre caddr bytes o HL H1 H2 H2' H3 H4 H5.
  - rewrite app_nil_r in HL. subst pre. exists []. cbn. split; [auto|]. specialize (H2' eq_refl). split; [lia|constructor].
  - cbn [open_from split_go m_end m_open negb].
    assert (HS : sum lens = sum pre + (x + sum suf)) by (rewrite HL, sum_app; auto).
    rewrite (addw_small (sum pre) x) by lia.
    destruct (N.eqb_spec bytes 0) as [Hz|Hz].
    + exists []. split; [auto|]. cbn. split; [lia|constructor].
    + specialize (H2 ltac:(discriminate)). cbn [hd] in H2.
      rewrite (subw_ge (sum pre + x) caddr) by lia.
      set (mb := N.min bytes (sum pre + x - caddr)).
      rewrite (subw_ge bytes mb) by lia. rewrite (addw_small o mb) by lia.
      assert (HPl : placed lens addr off {| p_idx := length pre; p_addr := caddr - sum pre; p_bytes := mb; p_off := o |}).
      { unfold placed; cbn [p_idx p_addr p_bytes p_off]. subst lens.
        rewrite app_length, firstn_app, Nat.sub_diag, firstn_all, app_nth2, Nat.sub_diag by lia.
        cbn [length nth firstn]. rewrite app_nil_r. split; [lia|]. split; lia. }
      destruct (N.le_gt_cases bytes (sum pre + x - caddr)) as [HB|HB].
      * assert (HM : mb = bytes) by lia. rewrite HM in *. rewrite N.sub_diag.
        rewrite split_zero. eexists. split; [reflexivity|]. split; [|constructor; auto].
        cbn [consec p_off p_bytes]. auto.
      * destruct (IH (pre ++ [x]) (sum pre + x) (bytes - mb) (o + mb)) as (l & E & C & P).
        -- rewrite <- app_assoc. auto.
        -- rewrite sum_app. cbn [sum]. lia.
        -- intros _. rewrite sum_app. cbn [sum]. lia.
        -- intros ->. rewrite sum_app. cbn [sum]. lia.
        -- lia.
        -- lia.
        -- lia.
        -- rewrite sum_app in E. cbn [sum] in E. rewrite N.add_0_r in E.
           rewrite app_length in E. cbn [length] in E. rewrite Nat.add_1_r in E.
           replace (sum pre + x - (sum pre + x)) with 0 in E by lia. rewrite E.
           eexists. split; [reflexivity|]. split; [|constructor; auto].
           cbn [consec p_off p_bytes]. split; [auto|].
           replace (o + bytes) with (o + mb + (bytes - mb)) by lia. auto.
Qed.

Lemma find_spec lens addr : sum lens < W -> addr < sum lens ->
  forall suf pre, lens = pre ++ suf -> sum pre <= addr ->
  exists pre' suf', lens = pre' ++ suf' /\ suf' <> [] /\ sum pre' <= addr /\ addr < sum pre' + hd 0 suf' /\
    find (open_from (sum pre) suf) (length pre) (sum pre) addr =
      (open_from (sum pre') suf', length pre', addr - sum pre').
Proof.
  intros HW HA. induction suf as [|x suf IH]; intros pre HL H1.
  - rewrite app_nil_r in HL. subst pre. lia.
  - assert (HS : sum lens = sum pre + (x + sum suf)) by (rewrite HL, sum_app; auto).
    cbn [open_from find m_end]. rewrite (addw_small (sum pre) x) by lia.
    destruct (N.leb_spec (sum pre + x) addr) as [HB|HB].
    + destruct (IH (pre ++ [x])) as (p' & s' & A & B & C & D & E).
      * rewrite <- app_assoc. auto.
      * rewrite sum_app. cbn [sum]. lia.
      * rewrite sum_app in E. cbn [sum] in E. rewrite N.add_0_r in E.
        rewrite app_length in E. cbn [length] in E. rewrite Nat.add_1_r in E.
        exists p', s'. auto.
    + exists pre, (x :: suf). split; [auto|]. split; [discriminate|]. split; [auto|].
      split; [cbn [hd]; lia|]. rewrite subw_ge by lia. cbn [open_from].
      rewrite (addw_small (sum pre) x) by lia. auto.
Qed.

Lemma open_length lens : sum lens < W -> comp_length (comp_open lens) = sum lens.
Proof.
  intros H. unfold comp_length, comp_open.
  assert (HG : forall l n, n + sum l < W -> forall d, (l = [] -> d = n) ->
            last (map m_end (open_from n l)) d = n + sum l).
  { induction l as [|x l IH]; intros n Hn d Hd; [cbn; rewrite Hd; auto; lia|].
    cbn [open_from map m_end sum]. cbn [sum] in Hn. rewrite addw_small by lia.
    destruct l as [|y l]; [cbn; lia|].
    specialize (IH (n + x) ltac:(lia) d ltac:(discriminate)).
    cbn [open_from map m_end] in IH |- *. cbn [last] in IH |- *. rewrite IH. lia. }
  apply (HG lens 0); auto.
Qed.

(** C21: a read, write, discard (any operation with that loop) on a composite
    volume of any number of members of any lengths. *)
Theorem C21_exact_concatenation lens addr bytes off :
  sum lens < W -> addr < sum lens -> addr + bytes <= sum lens -> off + bytes < W ->
  exists l, comp_forward (comp_open lens) addr bytes off = Fwds l true /\ exact lens addr bytes off l.
Proof.
  intros HW HA HB HO. unfold comp_forward. rewrite open_length by auto.
  destruct (N.leb_spec (sum lens) addr) as [|_]; [lia|]. rewrite addw_small by lia.
  destruct (N.ltb_spec (sum lens) (addr + bytes)) as [|_]; [lia|].
  destruct (find_spec lens addr HW HA lens [] eq_refl) as (pre & suf & A & B & C & D & E); [cbn; lia|].
  unfold comp_open. cbn [sum length] in E. rewrite E.
  destruct (split_exact lens addr off HW suf pre addr bytes off) as (l & F & G & H); auto; try lia.
  { intros HN; congruence. }
  destruct suf as [|x suf]; [congruence|].
  assert (HOp : exists m r, open_from (sum pre) (x :: suf) = m :: r /\ m_open m = true)
    by (cbn; eauto).
  destruct HOp as (m & r & HM & HO'). rewrite F. rewrite HM, HO'. cbn [negb].
  exists l. split; [auto|]. rewrite Forall_forall in H. split.
  - intros b Hb. destruct (consec_cover _ _ _ (off + b) G) as (k & p & K1 & K2 & K3 & K4); try lia.
    exists k, (p_idx p), (p_addr p + (off + b - p_off p)).
    destruct (H p (nth_error_In _ _ K1)) as (P1 & P2 & P3).
    split; [split; [auto|]; split; lia|]. split.
    + exists p. split; [auto|]. split; [auto|]. exists (off + b - p_off p). lia.
    + intros k' p' i' y' Hk (_ & d & D1 & D2 & D3). eapply K4; eauto; lia.
  - intros p i y o Hp (HI & d & D1 & D2 & D3).
    destruct (H p Hp) as (P1 & P2 & P3). destruct (consec_bound _ _ _ _ G Hp) as (Q1 & Q2 & _).
    subst i. exists (o - off). split; [lia|]. split; [lia|]. split; [auto|]. split; lia.
Qed.

(** Out of the range nothing is forwarded, the code stops (ENV_BUG_ON). *)
Theorem C21_out_of_range_bug lens addr bytes off :
  sum lens < W -> sum lens <= addr \/ (sum lens < addr + bytes /\ addr + bytes < W) ->
  comp_forward (comp_open lens) addr bytes off = Bug.
Proof.
  intros HW H. unfold comp_forward. rewrite open_length by auto.
  destruct (N.leb_spec (sum lens) addr) as [|]; [auto|]. destruct H as [|[H1 H2]]; [lia|].
  rewrite addw_small by lia. destruct (N.ltb_spec (sum lens) (addr + bytes)) as [|]; [auto|lia].
Qed.

(** io_simple either forwards exactly the range to the one member that holds it,
    or nothing and an error. *)
Theorem C21_simple lens addr bytes :
  sum lens < W -> addr < sum lens -> addr + bytes <= sum lens ->
  comp_simple (comp_open lens) addr bytes = Fwds [] false \/
  (exists l, comp_simple (comp_open lens) addr bytes = Fwds l true /\ exact lens addr bytes 0 l).
Proof.
  intros HW HA HB. unfold comp_simple. rewrite open_length by auto.
  destruct (N.leb_spec (sum lens) addr) as [|_]; [lia|]. rewrite addw_small by lia.
  destruct (N.ltb_spec (sum lens) (addr + bytes)) as [|_]; [lia|].
  destruct (find_spec lens addr HW HA lens [] eq_refl) as (pre & suf & A & B & C & D & E); [cbn; lia|].
  unfold comp_open. cbn [sum length] in E. rewrite E.
  destruct suf as [|x suf]; [congruence|]. cbn [open_from m_open m_end negb].
  assert (HS : sum lens = sum pre + (x + sum suf)) by (rewrite A, sum_app; auto).
  rewrite (addw_small (sum pre) x) by lia. cbn [hd] in D.
  destruct (N.ltb_spec (sum pre + x) (addr + bytes)) as [|HL]; [left; auto|right].
  eexists. split; [reflexivity|].
  assert (HI : firstn (length pre) lens = pre).
  { subst lens. rewrite firstn_app, Nat.sub_diag, firstn_all. cbn. apply app_nil_r. }
  assert (HN : nth (length pre) lens 0 = x).
  { subst lens. rewrite app_nth2, Nat.sub_diag by lia. auto. }
  assert (HLn : (length pre < length lens)%nat).
  { subst lens. rewrite app_length. cbn. lia. }
  split.
  - intros b Hb. exists 0%nat, (length pre), (addr + b - sum pre). split.
    { split; [auto|]. rewrite HN, HI. split; lia. }
    split.
    + eexists. split; [reflexivity|]. split; [auto|]. exists b. cbn. lia.
    + intros [|k'] p' i' y' Hk _; [auto|]. destruct k'; discriminate.
  - intros p i y o [<-|[]] (HI' & d & D1 & D2 & D3). cbn in *. exists d. split; [auto|]. split; [auto|].
    subst i. split; [auto|]. rewrite HN, HI. split; lia.
Qed.

(** Completion: the token of a request forwarded to a composite volume is completed
    exactly once, after all members have finished ... *)
Theorem C21_completes_once l ok evs c :
  run evs (start (core_io_req (comp_prog l ok))) = Some c ->
  (calls c = [] /\ ~ (prog c = [] /\ all_ended (core_io_req (comp_prog l ok)) c)) \/
  (exists e, calls c = [e] /\ prog c = [] /\ all_ended (core_io_req (comp_prog l ok)) c).
Proof. apply callback_exactly_once. apply EP_core. Qed.

(** ... every part is a device I/O of that request (and one more forward_end is
    that of the composite volume itself, carrying the code for closed members) ... *)
Theorem C21_parts_counted l ok :
  ends (core_io_req (comp_prog l ok)) = S (length l).
Proof.
  unfold core_io_req, comp_prog. cbn [ends fwd].
  induction l as [|p l IH]; cbn in *; auto.
Qed.

(** ... with an error iff some member failed or was closed, if the forward_ends do
    not overlap; false otherwise. *)
Theorem C21_error_iff_partial l ok evs c e :
  run evs (start (core_io_req (comp_prog l ok))) = Some c -> atomic evs -> calls c = [e] ->
  (e <> 0 <-> io_failed c).
Proof. intros H Ha Hc. eapply callback_error_serial; eauto. apply EP_core. Qed.

Theorem C21_error_iff_refuted :
  exists lens addr bytes l evs c,
    sum lens < W /\ addr + bytes <= sum lens /\
    comp_forward (comp_open lens) addr bytes 0 = Fwds l true /\
    run evs (start (core_io_req (comp_prog l true))) = Some c /\
    calls c = [0] /\ nth_error (thr c) 0 = Some (Fin 5).
Proof.
  exists [8192], 0, 4096. eexists. exists lost_run. eexists.
  split; [reflexivity|]. split; [cbn; lia|]. split; [vm_compute; reflexivity|].
  split; [vm_compute; reflexivity|]. split; reflexivity.
Qed.

(** A range over four members, one of them empty. *)
Example C21_case :
  comp_forward (comp_open [4096; 8192; 0; 4096]) 2048 13000 512 =
  Fwds [{| p_idx := 0; p_addr := 2048; p_bytes := 2048; p_off := 512 |};
        {| p_idx := 1; p_addr := 0; p_bytes := 8192; p_off := 2560 |};
        {| p_idx := 2; p_addr := 0; p_bytes := 0; p_off := 10752 |};
        {| p_idx := 3; p_addr := 0; p_bytes := 2760; p_off := 10752 |}] true.
Proof. vm_compute. reflexivity. Qed.

(** ** C22 *)

(** Specification: entry of line [x] is on page [x / epp]; the marked lines. *)
Definition needs (epp : N) (m : list mapent) (pg : N) : Prop :=
  exists e, In e m /\ me_flush e = true /\ me_line e / epp = pg.

Definition sorting (sort : list N -> list N) : Prop :=
  forall l, Permutation l (sort l) /\ StronglySorted N.le (sort l).

Lemma add_pages_in epp m pg : In pg (add_pages epp m) <-> needs epp m pg.
Proof.
  unfold needs. induction m as [|e m IH]; cbn [add_pages].
  - split; [intros []|intros (e & [] & _)].
  - destruct (me_flush e) eqn:Ef; cbn [In]; rewrite ?IH; split.
    + intros [H|(e' & A & B)]; [exists e; auto|exists e'; auto].
    + intros (e' & [->|A] & B & C); [left; auto|right; eauto].
    + intros (e' & A & B); exists e'; auto.
    + intros (e' & [->|A] & B & C); [congruence|eauto].
Qed.

Lemma run_pages_in s n q : In q (run_pages (s, n)) <-> s <= q /\ q < s + n.
Proof.
  unfold run_pages. cbn [fst snd]. rewrite in_map_iff. split.
  - intros (k & <- & Hk). apply in_seq in Hk. lia.
  - intros [H1 H2]. exists (N.to_nat (q - s)). split; [lia|]. apply in_seq. lia.
Qed.

Lemma run_pages_nodup x : NoDup (run_pages x).
Proof.
  unfold run_pages. apply FinFun.Injective_map_NoDup; [|apply seq_NoDup].
  intros a b H. lia.
Qed.

Lemma merge_spec rest : forall start count cur,
  1 <= count -> cur + 1 = start + count -> StronglySorted N.le (cur :: rest) ->
  NoDup (flat_map run_pages (merge start count cur rest)) /\
  (forall q, In q (flat_map run_pages (merge start count cur rest)) <->
             (start <= q /\ q < start + count) \/ In q rest).
Proof.
  induction rest as [|p r IH]; intros start count cur H1 H2 HS; cbn [merge].
  - cbn [flat_map]. rewrite app_nil_r. split; [apply run_pages_nodup|].
    intros q. rewrite run_pages_in. cbn. tauto.
  - inversion HS as [|? ? HS' HF]; subst. pose proof HF as HF0.
    rewrite Forall_forall in HF. pose proof (HF p (or_introl eq_refl)) as Hp.
    destruct (N.eqb_spec cur p) as [->|Hne].
    + destruct (IH start count p) as [A B]; auto. split; [auto|]. intros q. rewrite B. cbn [In]. split.
      * intros [C|C]; auto.
      * intros [C|[<-|C]]; auto. left. lia.
    + destruct (N.eqb_spec (cur + 1) p) as [<-|Hne2].
      * destruct (IH start (count + 1) (cur + 1)) as [A B]; auto; try lia. split; [auto|].
        intros q. rewrite B. cbn [In]. split.
        -- intros [C|C]; auto. destruct (N.eq_dec q (cur + 1)) as [->|]; [auto|left; lia].
        -- intros [C|[<-|C]]; auto; left; lia.
      * cbn [flat_map]. destruct (IH p 1 p) as [A B]; auto; try lia. split.
        -- apply NoDup_app_intro'; [apply run_pages_nodup|auto|].
           intros q Hq Hq2. rewrite run_pages_in in Hq. apply B in Hq2.
           inversion HS' as [|? ? _ HF2]; subst. rewrite Forall_forall in HF2.
           destruct Hq2 as [C|C]; [lia|]. specialize (HF2 q C). lia.
        -- intros q. rewrite in_app_iff, run_pages_in, B. cbn [In]. split.
           ++ intros [C|[C|C]]; auto. right; left. lia.
           ++ intros [C|[<-|C]]; auto. right; left. lia.
Qed.

(** C22: every page that holds the entry of a marked line, none twice, no other. *)
Theorem C22_pages_exact sort epp m :
  sorting sort ->
  NoDup (flush_do sort epp true m) /\
  (forall pg, In pg (flush_do sort epp true m) <-> needs epp m pg).
Proof.
  intros Hs. destruct (Hs (add_pages epp m)) as [HP HSo]. unfold flush_do, flush_runs.
  assert (HI : forall pg, In pg (sort (add_pages epp m)) <-> needs epp m pg).
  { intros pg. rewrite <- add_pages_in. split; apply Permutation_in; [apply Permutation_sym|]; auto. }
  destruct (sort (add_pages epp m)) as [|p r] eqn:E.
  - cbn. split; [constructor|]. intros pg. rewrite <- HI. cbn. tauto.
  - destruct (merge_spec r p 1 p) as [A B]; auto; try lia. split; [auto|].
    intros pg. rewrite B, <- HI. cbn [In]. split; intros [C|C]; auto; left; lia.
Qed.

(** The writes themselves: non-empty runs, neighbouring runs do not touch. *)
Lemma merge_gaps rest : forall start count cur,
  1 <= count -> cur + 1 = start + count -> StronglySorted N.le (cur :: rest) ->
  exists n r, merge start count cur rest = (start, n) :: r /\ count <= n /\
    StronglySorted (fun a b => fst a + snd a < fst b) ((start, n) :: r) /\ Forall (fun x => 1 <= snd x) r.
Proof.
  induction rest as [|p r IH]; intros start count cur H1 H2 HS; cbn [merge].
  - exists count, []. split; [auto|]. split; [lia|]. split; [repeat constructor|constructor].
  - inversion HS as [|? ? HS' HF]; subst. rewrite Forall_forall in HF.
    pose proof (HF p (or_introl eq_refl)) as Hp.
    destruct (N.eqb_spec cur p) as [->|Hne]; [apply IH; auto|].
    destruct (N.eqb_spec (cur + 1) p) as [<-|Hne2].
    + destruct (IH start (count + 1) (cur + 1)) as (n & t & A & B & C); auto; try lia.
      exists n, t. split; [auto|]. split; [lia|auto].
    + destruct (IH p 1 p) as (n & t & A & B & C & D); auto; try lia. rewrite A.
      exists count, ((p, n) :: t). split; [auto|]. split; [lia|]. split.
      * constructor; [auto|]. constructor; [cbn; lia|].
        inversion C as [|? ? _ F]; subst. eapply Forall_impl; [|exact F]. cbn. intros; lia.
      * constructor; [cbn; lia|auto].
Qed.

(** Marking: after any sequence of marks on a request without marks, the lines
    written are exactly the marked ones; without a mark nothing is written. *)
Definition marks (ops : list (nat * bool)) (s : list mapent * bool) : list mapent * bool :=
  fold_left (fun s op => mark (fst op) (snd op) s) ops s.

Definition fresh (lines : list N) : list mapent * bool :=
  (map (fun x => {| me_line := x; me_flush := false |}) lines, false).

Lemma upd_nth_error {A} (l : list A) : forall i j x,
  nth_error (upd l i x) j = if (i =? j)%nat then match nth_error l j with Some _ => Some x | None => None end
                            else nth_error l j.
Proof.
  induction l as [|a l IH]; intros [|i] [|j] x; cbn; auto.
  destruct (i =? j)%nat; auto.
Qed.

Lemma marks_spec lines ops :
  let s := marks ops (fresh lines) in
  (forall i, nth_error (fst s) i =
     match nth_error lines i with
     | Some x => Some {| me_line := x; me_flush := existsb (fun op => (fst op =? i)%nat && snd op) ops |}
     | None => None
     end) /\
  (snd s = existsb (fun op => snd op && (fst op <? length lines)%nat) ops).
Proof.
  cbn zeta. unfold marks. rewrite <- fold_left_rev_right.
  assert (HX : forall ops i, existsb (fun op : nat * bool => (fst op =? i)%nat && snd op) ops =
                             existsb (fun op : nat * bool => (fst op =? i)%nat && snd op) (rev ops)).
  { intros l i. apply eq_true_iff_eq. rewrite !existsb_exists.
    split; intros (x & A & B); exists x; split; auto; [apply in_rev in A|apply in_rev]; auto. }
  assert (HY : existsb (fun op : nat * bool => snd op && (fst op <? length lines)%nat) ops =
               existsb (fun op : nat * bool => snd op && (fst op <? length lines)%nat) (rev ops)).
  { apply eq_true_iff_eq. rewrite !existsb_exists.
    split; intros (x & A & B); exists x; split; auto; [apply in_rev in A|apply in_rev]; auto. }
  rewrite HY. assert (HX' := HX ops). clear HX HY.
  match goal with |- context [fold_right ?f ?g ?h] => set (s := fold_right f g h) end.
  assert (HG : (forall i, nth_error (fst s) i =
     match nth_error lines i with
     | Some x => Some {| me_line := x; me_flush := existsb (fun op => (fst op =? i)%nat && snd op) (rev ops) |}
     | None => None
     end) /\ (snd s = existsb (fun op => snd op && (fst op <? length lines)%nat) (rev ops))).
  { clear HX'. subst s. induction (rev ops) as [|[j st] r [IH1 IH2]]; cbn [fold_right existsb].
    - cbn [fst snd fresh]. split; [|auto]. intros i. rewrite nth_error_map. destruct (nth_error lines i); auto.
    - match goal with |- context [mark _ _ ?g] => set (s := g) in * end. cbn [fst snd]. unfold mark.
      destruct st; cbn [andb].
      + destruct (nth_error (fst s) j) as [e|] eqn:Ej; cbn [fst snd].
        * split.
          -- intros i. rewrite upd_nth_error. destruct (Nat.eqb_spec j i) as [->|Hn].
             ++ rewrite Ej. pose proof (IH1 i) as H1. rewrite Ej in H1.
                destruct (nth_error lines i); [|discriminate]. injection H1 as ->. cbn. auto.
             ++ rewrite IH1. destruct (nth_error lines i); auto.
          -- rewrite IH1 in Ej. destruct (nth_error lines j) eqn:El; [|discriminate].
             assert (HL : (j < length lines)%nat) by (apply nth_error_Some; congruence).
             apply Nat.ltb_lt in HL. rewrite HL. auto.
        * split.
          -- intros i. rewrite IH1. destruct (Nat.eqb_spec j i) as [->|Hn]; [|auto].
             rewrite IH1 in Ej. destruct (nth_error lines i); [discriminate|auto].
          -- rewrite IH1 in Ej. destruct (nth_error lines j) eqn:El; [discriminate|].
             apply nth_error_None in El. apply Nat.ltb_ge in El. rewrite El. auto.
      + split; [|auto]. intros i. rewrite IH1.
        destruct (nth_error lines i); auto. rewrite andb_false_r. auto. }
  destruct HG as [G1 G2]. split; [|exact G2]. intros i. rewrite G1. rewrite HX'. auto.
Qed.

Theorem C22_marked_lines_flushed sort epp lines ops pg :
  sorting sort ->
  let s := marks ops (fresh lines) in
  In pg (flush_do sort epp (snd s) (fst s)) <->
  exists i x, nth_error lines i = Some x /\ In (i, true) ops /\ x / epp = pg.
Proof.
  intros Hs s. destruct (marks_spec lines ops) as [M1 M2]. fold s in M1, M2.
  assert (HE : needs epp (fst s) pg <-> exists i x, nth_error lines i = Some x /\ In (i, true) ops /\ x / epp = pg).
  { unfold needs. split.
    - intros (e & Hi & Hf & Hp). apply In_nth_error in Hi as [i Hi]. rewrite M1 in Hi.
      destruct (nth_error lines i) as [x|] eqn:El; [|discriminate]. injection Hi as <-.
      cbn in Hf, Hp. exists i, x. split; [auto|]. split; [|auto].
      apply existsb_exists in Hf as ([j b] & Ho & Hb). cbn in Hb. apply andb_true_iff in Hb as [Hb ->].
      apply Nat.eqb_eq in Hb. subst j. auto.
    - intros (i & x & Hl & Ho & Hp). eexists. split; [apply (nth_error_In _ i); rewrite M1, Hl; reflexivity|].
      cbn. split; [|auto]. apply existsb_exists. exists (i, true). split; [auto|]. cbn.
      rewrite Nat.eqb_refl. auto. }
  destruct (snd s) eqn:Es.
  - destruct (C22_pages_exact sort epp (fst s) Hs) as [_ H]. rewrite H. auto.
  - cbn. split; [tauto|]. intros (i & x & Hl & Ho & Hp).
    assert (HT : existsb (fun op : nat * bool => snd op && (fst op <? length lines)%nat) ops = true).
    { apply existsb_exists. exists (i, true). split; [auto|]. cbn. apply Nat.ltb_lt.
      apply nth_error_Some. congruence. }
    congruence.
Qed.

(** A sorting function exists (insertion sort), and a concrete flush. *)
Fixpoint ins (x : N) (l : list N) : list N :=
  match l with [] => [x] | y :: r => if x <=? y then x :: l else y :: ins x r end.
Definition isort (l : list N) : list N := fold_right ins [] l.

Lemma isort_sorting : sorting isort.
Proof.
  intros l. induction l as [|x l [P Q]]; cbn [isort fold_right]; [split; constructor|].
  change (fold_right ins [] l) with (isort l).
  assert (HP : forall l, Permutation (x :: l) (ins x l)).
  { clear. induction l as [|y r IH]; cbn; [auto|]. destruct (x <=? y); auto.
    rewrite perm_swap. constructor. auto. }
  split; [rewrite <- HP; constructor; auto|].
  clear P. induction Q as [|y r Q IH F]; cbn [ins]; [repeat constructor|].
  destruct (N.leb_spec x y).
  - constructor; [constructor; auto|]. constructor; [auto|].
    eapply Forall_impl; [|exact F]. cbn. intros; lia.
  - constructor; [exact IH|].
    apply (Permutation_Forall (HP r)). constructor; [lia|auto].
Qed.

Example C22_case :
  let s := marks [(0%nat, true); (2%nat, true); (1%nat, false); (3%nat, true); (4%nat, true); (5%nat, true)]
                 (fresh [300; 9000; 205; 299; 100; 900]) in
  flush_do isort 100 (snd s) (fst s) = [1; 2; 3; 9] /\
  flush_runs (isort (add_pages 100 (fst s))) = [(1, 3); (9, 1)].
Proof. vm_compute. auto. Qed.

Print Assumptions C21_exact_concatenation.
Print Assumptions C21_simple.
Print Assumptions C21_completes_once.
Print Assumptions C21_error_iff_partial.
Print Assumptions C21_error_iff_refuted.
Print Assumptions C22_pages_exact.
Print Assumptions C22_marked_lines_flushed.
Print Assumptions merge_gaps.

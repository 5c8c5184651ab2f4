(** Parameters of a running cache: properties (C70). *)
From Coq Require Import NArith List Bool Lia.
From Verif Require Import TuneModel.
Import ListNotations.
Open Scope N_scope.

(** ** Specification *)

(** The parameters and their limits (inc/ocf_def.h:153-202, 209-247, inc/cleaning/alru.h:32-78,
    inc/cleaning/acp.h:28-43, inc/promotion/nhit.h:15-20). *)
Inductive par :=
| PMode | PClean | PProm
| PAlruWake | PAlruStale | PAlruBufs | PAlruAct | PAlruRatio
| PAcpWake | PAcpBufs
| PNhitIns | PNhitTrig
| PCore (i : N) (f : cfield).
Definition limits (p : par) : N * N :=
  match p with
  | PMode => (0, 5) | PClean => (0, 2) | PProm => (0, 1)
  | PAlruWake => (0, 3600) | PAlruStale => (1, 3600) | PAlruBufs => (1, 10000)
  | PAlruAct => (0, 1000000) | PAlruRatio => (0, 100)
  | PAcpWake => (0, 10000) | PAcpBufs => (1, 10000)
  | PNhitIns => (2, 1000) | PNhitTrig => (0, 100)
  | PCore _ FThr => (1, 4294841344) | PCore _ FPol => (0, 2) | PCore _ FCnt => (1, 65535) | PCore _ FProm => (0, 1)
  end.
Definition inside (p : par) (v : N) : Prop := fst (limits p) <= v <= snd (limits p).

(** Its value in a state; None: there is no such core. *)
Definition value (p : par) (s : st) : option N :=
  match p with
  | PMode => Some (mode s) | PClean => Some (cpol s) | PProm => Some (ptype s)
  | PAlruWake => Some (al_wake (s_alru s)) | PAlruStale => Some (al_stale (s_alru s))
  | PAlruBufs => Some (al_bufs (s_alru s)) | PAlruAct => Some (al_act (s_alru s))
  | PAlruRatio => Some (al_ratio (s_alru s))
  | PAcpWake => Some (ac_wake (s_acp s)) | PAcpBufs => Some (ac_bufs (s_acp s))
  | PNhitIns => Some (nh_ins (s_nhit s)) | PNhitTrig => Some (nh_trig (s_nhit s))
  | PCore i f =>
      match cores s i with
      | None => None
      | Some c => Some (match f with FThr => cc_thr c | FPol => cc_pol c | FCnt => cc_cnt c | FProm => if cc_prom c then 1 else 0 end)
      end
  end.

(** The operation that sets a parameter (of policies: if they can be initialised), and the
    one that reads it. *)
Definition setter (p : par) (v : N) : op :=
  match p with
  | PMode => SetMode v | PClean => CleanPolicy v true | PProm => PromPolicy v true
  | PAlruWake => CleanParam 1 0 v | PAlruStale => CleanParam 1 1 v | PAlruBufs => CleanParam 1 2 v
  | PAlruAct => CleanParam 1 3 v | PAlruRatio => CleanParam 1 4 v
  | PAcpWake => CleanParam 2 0 v | PAcpBufs => CleanParam 2 1 v
  | PNhitIns => PromParam 1 0 v | PNhitTrig => PromParam 1 1 v
  | PCore i f => CoreParam i f v
  end.
Definition getter (p : par) (s : st) : res * N :=
  match p with
  | PMode => (Ok, mode s) | PClean => (Ok, cpol s) | PProm => (Ok, ptype s)
  | PAlruWake => cleaning_get_param 1 0 s | PAlruStale => cleaning_get_param 1 1 s | PAlruBufs => cleaning_get_param 1 2 s
  | PAlruAct => cleaning_get_param 1 3 s | PAlruRatio => cleaning_get_param 1 4 s
  | PAcpWake => cleaning_get_param 2 0 s | PAcpBufs => cleaning_get_param 2 1 s
  | PNhitIns => promotion_get_param 1 0 s | PNhitTrig => promotion_get_param 1 1 s
  | PCore i f => get_core i f s
  end.

Definition in_range (s : st) : Prop :=
  forall p v, value p s = Some v ->
    match p with
    | PMode | PClean | PProm | PCore _ _ => inside p v
    | _ => attached s = true -> inside p v
    end.

(** The policy object of an attached cache is that of the configured type, with a context
    and the configuration that is set. *)
Definition coupled (s : st) : Prop :=
  (attached s = true -> exists p, ppol s = Some p /\ p_type p = ptype s /\
     (ptype s = 1 -> p_conf p = 1 /\ p_ctx p = true)) /\
  (attached s = false -> ppol s = None).

Definition good (s : st) : Prop := standby s = false /\ in_range s /\ coupled s.

(** What a caller has to observe: configurations of new cores within the limits, types of
    promotion policies that exist, no change of a policy without a device. *)
Definition caller_ok (o : op) (s : st) : Prop :=
  match o with
  | AddCore i thr cnt _ => inside (PCore i FThr) thr /\ inside (PCore i FCnt) cnt
  | PromParam t _ _ => t < 2
  | PromPolicy _ _ | CleanPolicy _ _ => attached s = true
  | _ => True
  end.
Fixpoint allowed (l : list op) (s : st) : Prop :=
  match l with
  | [] => True
  | o :: r => caller_ok o s /\ allowed r (snd (run o s))
  end.

(** ** Start *)

Lemma start_good : forall m t, m < 6 -> t < 2 -> good (start m t).
Proof.
  intros m t M T. split; [reflexivity|]. split.
  - intros p v V. destruct p; cbn in V |- *; try discriminate; injection V as <-; unfold inside; cbn; try lia.
  - split; [discriminate | reflexivity].
Qed.

(** ** One core *)

Definition cval (f : cfield) (c : ccfg) : N :=
  match f with FThr => cc_thr c | FPol => cc_pol c | FCnt => cc_cnt c | FProm => if cc_prom c then 1 else 0 end.
Definition fine (c : ccfg) : Prop := forall f, inside (PCore 0 f) (cval f c).
Definition truth (f : cfield) (v : N) : N := match f with FProm => if v =? 0 then 0 else 1 | _ => v end.

Lemma core_set_spec : forall f v c, fine c ->
  let (r, c') := core_set f v c in
  cc_opened c' = cc_opened c /\
  ((inside (PCore 0 f) (truth f v) /\ r = Ok /\ cval f c' = truth f v /\ (forall g, g <> f -> cval g c' = cval g c)) \/
   (~ inside (PCore 0 f) (truth f v) /\ r = EInval /\ c' = c)).
Proof.
  intros f v c FI. destruct f; cbn [core_set truth].
  - destruct (N.ltb_spec v 1); cbn [orb].
    { split; [reflexivity|]. right. split; [unfold inside; cbn; lia | split; reflexivity]. }
    destruct (N.ltb_spec 4294841344 v); cbn [orb].
    { split; [reflexivity|]. right. split; [unfold inside; cbn; lia | split; reflexivity]. }
    destruct (N.eqb_spec (cc_thr c) v) as [<-|NE]; cbn [cc_opened]; (split; [reflexivity|]); left;
      (split; [unfold inside; cbn; lia|]); split; try reflexivity; split; try reflexivity; intros []; cbn; congruence.
  - pose proof (FI FPol) as P. unfold inside in P. cbn in P.
    destruct (N.eqb_spec (cc_pol c) v) as [<-|NE].
    { split; [reflexivity|]. left. split; [unfold inside; cbn; lia|]. split; [reflexivity|]. split; [reflexivity|]. intros []; congruence. }
    destruct (N.leb_spec 3 v).
    { split; [reflexivity|]. right. split; [unfold inside; cbn; lia | split; reflexivity]. }
    split; [reflexivity|]. left. split; [unfold inside; cbn; lia|]. split; [reflexivity|]. split; [reflexivity|]. intros []; cbn; congruence.
  - destruct (N.ltb_spec v 1); cbn [orb].
    { split; [reflexivity|]. right. split; [unfold inside; cbn; lia | split; reflexivity]. }
    destruct (N.ltb_spec 65535 v); cbn [orb].
    { split; [reflexivity|]. right. split; [unfold inside; cbn; lia | split; reflexivity]. }
    destruct (N.eqb_spec (cc_cnt c) v) as [<-|NE]; cbn [cc_opened]; (split; [reflexivity|]); left;
      (split; [unfold inside; cbn; lia|]); split; try reflexivity; split; try reflexivity; intros []; cbn; congruence.
  - assert (IN : inside (PCore 0 FProm) (if v =? 0 then 0 else 1)) by (destruct (v =? 0); unfold inside; cbn; lia).
    destruct c as [o t p n b]. cbn [cc_prom cc_opened cc_thr cc_pol cc_cnt]. destruct b, (v =? 0); cbn [negb Bool.eqb];
      (split; [reflexivity|]); left; (split; [exact IN|]); split; try reflexivity; split; try reflexivity; intros []; cbn; congruence.
Qed.

Lemma inside_core : forall i j f v, inside (PCore i f) v <-> inside (PCore j f) v.
Proof. intros i j [] v; reflexivity. Qed.

Lemma core_set_fine : forall f v c, fine c -> fine (snd (core_set f v c)).
Proof.
  intros f v c FI. pose proof (core_set_spec f v c FI) as H. destruct (core_set f v c) as (r, c'). cbn [snd].
  destruct H as (_ & [(I & _ & E & O)|(_ & _ & ->)]); [|exact FI].
  intros g. assert (D : g = f \/ g <> f) by (destruct f, g; (now left) || (right; discriminate)).
  destruct D as [->|D]; [rewrite E; exact I | rewrite O by exact D; apply FI].
Qed.

Definition all_fine (m : N -> option ccfg) : Prop := forall i c, m i = Some c -> fine c.

Lemma in_range_cores : forall s, in_range s -> all_fine (cores s).
Proof. intros s R i c E f. apply (inside_core i 0). specialize (R (PCore i f) (cval f c)). apply R. cbn [value]. rewrite E. destruct f; reflexivity. Qed.

Lemma updc_fine : forall m i c, all_fine m -> fine c -> all_fine (updc m i (Some c)).
Proof.
  intros m i c A F j d E. unfold updc in E. destruct (j =? i); [injection E as <-; exact F | exact (A j d E)].
Qed.

(** All opened cores of the visited ids. *)
Lemma visit_spec : forall n id f v m, all_fine m ->
  let (r, m') := visit n id f v m in
  all_fine m' /\
  (forall i, i < id \/ id + N.of_nat n <= i -> m' i = m i) /\
  ((r = Ok /\ forall i, id <= i < id + N.of_nat n ->
      match m i with
      | None => m' i = None
      | Some c => if cc_opened c then inside (PCore 0 f) (truth f v) /\ exists c', m' i = Some c' /\ cc_opened c' = true /\
                    cval f c' = truth f v /\ (forall g, g <> f -> cval g c' = cval g c)
                  else m' i = Some c
      end) \/
   (r = EInval /\ ~ inside (PCore 0 f) (truth f v) /\ forall i, m' i = m i)).
Proof.
  induction n as [|n IH]; intros id f v m A; cbn [visit].
  { split; [exact A|]. split; [reflexivity|]. left. split; [reflexivity|]. intros; lia. }
  assert (SKIP : (forall c, m id = Some c -> cc_opened c = false) ->
    let (r, m') := visit n (id + 1) f v m in
    all_fine m' /\
    (forall i, i < id \/ id + N.of_nat (S n) <= i -> m' i = m i) /\
    ((r = Ok /\ forall i, id <= i < id + N.of_nat (S n) ->
      match m i with
      | None => m' i = None
      | Some c => if cc_opened c then inside (PCore 0 f) (truth f v) /\ exists c', m' i = Some c' /\ cc_opened c' = true /\
                    cval f c' = truth f v /\ (forall g, g <> f -> cval g c' = cval g c)
                  else m' i = Some c
      end) \/ (r = EInval /\ ~ inside (PCore 0 f) (truth f v) /\ forall i, m' i = m i))).
  { intros CL. specialize (IH (id + 1) f v m A). destruct (visit n (id + 1) f v m) as (r, m').
    destruct IH as (I1 & I2 & I3). split; [exact I1|]. split; [intros; apply I2; lia|].
    destruct I3 as [(R & I3)|I3]; [left; split; [exact R|] | right; exact I3].
    intros i H. destruct (N.eq_dec i id) as [->|NE]; [|apply I3; lia].
    rewrite (I2 id) by lia. destruct (m id) as [c|] eqn:E; [rewrite (CL c eq_refl); reflexivity | reflexivity]. }
  destruct (m id) as [c|] eqn:E; [|apply SKIP; discriminate].
  destruct (cc_opened c) eqn:OP; cbn [negb]; [|apply SKIP; intros c' H; injection H as <-; exact OP].
  clear SKIP. pose proof (core_set_spec f v c (A id c E)) as CS. pose proof (core_set_fine f v c (A id c E)) as CF.
  destruct (core_set f v c) as (r, c'). cbn [snd] in CF. destruct CS as (CO & CS).
  destruct CS as [(IN & -> & VA & OT)|(NI & -> & ->)].
  - specialize (IH (id + 1) f v (updc m id (Some c')) (updc_fine m id c' A CF)).
    destruct (visit n (id + 1) f v (updc m id (Some c'))) as (r, m'). destruct IH as (I1 & I2 & I3).
    assert (UP : forall i, i <> id -> updc m id (Some c') i = m i).
    { intros i NE. unfold updc. destruct (N.eqb_spec i id); [contradiction | reflexivity]. }
    split; [exact I1|]. split; [intros i H; rewrite I2 by lia; apply UP; lia|].
    destruct I3 as [(R & I3)|(R & NI & _)]; [|contradiction]. left. split; [exact R|].
    intros i H. destruct (N.eq_dec i id) as [->|NE].
    + rewrite E, OP. split; [exact IN|]. exists c'. rewrite I2 by lia. unfold updc. rewrite N.eqb_refl.
      split; [reflexivity|]. split; [congruence|]. split; assumption.
    + specialize (I3 i ltac:(lia)). rewrite UP in I3 by exact NE. exact I3.
  - assert (SAME : forall i, updc m id (Some c) i = m i).
    { intros i. unfold updc. destruct (N.eqb_spec i id) as [->|]; [symmetry; exact E | reflexivity]. }
    split; [apply updc_fine; [exact A | exact CF]|]. split; [intros; apply SAME|]. right. split; [reflexivity|]. split; [exact NI | exact SAME].
Qed.

(** ** The limits are kept *)

Definition alru_in (c : alru) : Prop :=
  al_wake c <= 3600 /\ 1 <= al_stale c <= 3600 /\ 1 <= al_bufs c <= 10000 /\ al_act c <= 1000000 /\ al_ratio c <= 100.
Definition acp_in (c : acp) : Prop := ac_wake c <= 10000 /\ 1 <= ac_bufs c <= 10000.
Definition nhit_in (c : nhit) : Prop := 2 <= nh_ins c <= 1000 /\ nh_trig c <= 100.
Definition ranges (s : st) : Prop :=
  mode s <= 5 /\ cpol s <= 2 /\ ptype s <= 1 /\
  (attached s = true -> alru_in (s_alru s) /\ acp_in (s_acp s) /\ nhit_in (s_nhit s)) /\ all_fine (cores s).

Lemma ranges_iff : forall s, in_range s <-> ranges s.
Proof.
  intros s. split.
  - intros R. unfold ranges.
    pose proof (R PMode _ eq_refl) as H1. pose proof (R PClean _ eq_refl) as H2. pose proof (R PProm _ eq_refl) as H3.
    unfold inside in H1, H2, H3; cbn in H1, H2, H3. split; [lia|]. split; [lia|]. split; [lia|]. split; [|apply in_range_cores; exact R].
    intros A.
    pose proof (R PAlruWake _ eq_refl A) as A1. pose proof (R PAlruStale _ eq_refl A) as A2. pose proof (R PAlruBufs _ eq_refl A) as A3.
    pose proof (R PAlruAct _ eq_refl A) as A4. pose proof (R PAlruRatio _ eq_refl A) as A5.
    pose proof (R PAcpWake _ eq_refl A) as A6. pose proof (R PAcpBufs _ eq_refl A) as A7.
    pose proof (R PNhitIns _ eq_refl A) as A8. pose proof (R PNhitTrig _ eq_refl A) as A9.
    unfold inside in *; cbn [limits fst snd] in *. unfold alru_in, acp_in, nhit_in. lia.
  - intros (H1 & H2 & H3 & H4 & H5) p v V.
    destruct p; cbn [value] in V;
      try (injection V as <-); try (intros A; destruct (H4 A) as (A1 & A2 & A3); unfold alru_in, acp_in, nhit_in in *);
      try (unfold inside; cbn [limits fst snd]; lia).
    destruct (cores s i) as [c|] eqn:E; [|discriminate V]. injection V as <-. apply (inside_core i 0).
    pose proof (H5 i c E f) as X. destruct f; exact X.
Qed.

Lemma ranges_mode : forall s v, ranges s -> v <= 5 -> ranges (w_mode s v).
Proof. intros s v (H1 & H2) V. split; [exact V | exact H2]. Qed.
Lemma ranges_cpol : forall s v, ranges s -> v <= 2 -> ranges (w_cpol s v).
Proof. intros s v (H1 & H2 & H3) V. split; [exact H1 | split; [exact V | exact H3]]. Qed.
Lemma ranges_prom : forall s v p, ranges s -> v <= 1 -> ranges (w_prom s v p).
Proof. intros s v p (H1 & H2 & H3 & H4) V. split; [exact H1 | split; [exact H2 | split; [exact V | exact H4]]]. Qed.
Lemma ranges_alru : forall s v, ranges s -> (attached s = true -> alru_in v) -> ranges (w_alru s v).
Proof.
  intros s v (H1 & H2 & H3 & H4 & H5) V. split; [exact H1|]. split; [exact H2|]. split; [exact H3|]. split; [|exact H5].
  intros A. destruct (H4 A) as (A1 & A2). split; [exact (V A) | exact A2].
Qed.
Lemma ranges_acp : forall s v, ranges s -> (attached s = true -> acp_in v) -> ranges (w_acp s v).
Proof.
  intros s v (H1 & H2 & H3 & H4 & H5) V. split; [exact H1|]. split; [exact H2|]. split; [exact H3|]. split; [|exact H5].
  intros A. destruct (H4 A) as (A1 & A2 & A3). split; [exact A1 | split; [exact (V A) | exact A3]].
Qed.
Lemma ranges_nhit : forall s v, ranges s -> (attached s = true -> nhit_in v) -> ranges (w_nhit s v).
Proof.
  intros s v (H1 & H2 & H3 & H4 & H5) V. split; [exact H1|]. split; [exact H2|]. split; [exact H3|]. split; [|exact H5].
  intros A. destruct (H4 A) as (A1 & A2 & A3). split; [exact A1 | split; [exact A2 | exact (V A)]].
Qed.
Lemma ranges_cores : forall s v, ranges s -> all_fine v -> ranges (w_cores s v).
Proof. intros s v (H1 & H2 & H3 & H4 & H5) V. split; [exact H1|]. split; [exact H2|]. split; [exact H3|]. split; [exact H4 | exact V]. Qed.
Lemma ranges_dev : forall s a d, ranges s -> (a = true -> alru_in (s_alru s) /\ acp_in (s_acp s) /\ nhit_in (s_nhit s)) -> ranges (w_dev s a d).
Proof. intros s a d (H1 & H2 & H3 & H4 & H5) V. split; [exact H1|]. split; [exact H2|]. split; [exact H3|]. split; [exact V | exact H5]. Qed.

Definition kept (s : st) : Prop := standby s = false /\ ranges s /\ coupled s.

(** A result that is no crash, and a state that is again good. *)
Definition safe (x : res * st) : Prop := fst x <> Null /\ fst x <> Bug /\ kept (snd x).

Lemma safe_same : forall r s, kept s -> r <> Null -> r <> Bug -> safe (r, s).
Proof. intros r s K N B. split; [exact N | split; [exact B | exact K]]. Qed.

Lemma checked_safe : forall v lo hi s s', kept s -> (lo <= v <= hi -> kept s') -> safe (checked v lo hi s s').
Proof.
  intros v lo hi s s' K H. unfold checked. destruct (N.ltb_spec v lo); cbn [orb]; [apply safe_same; [exact K | discriminate | discriminate]|].
  destruct (N.ltb_spec hi v); [apply safe_same; [exact K | discriminate | discriminate]|].
  apply safe_same; [apply H; lia | discriminate | discriminate].
Qed.

Lemma kept_alru : forall s v, kept s -> (attached s = true -> alru_in v) -> kept (w_alru s v).
Proof. intros s v (A & R & C) V. split; [exact A|]. split; [apply ranges_alru; assumption | exact C]. Qed.
Lemma kept_acp : forall s v, kept s -> (attached s = true -> acp_in v) -> kept (w_acp s v).
Proof. intros s v (A & R & C) V. split; [exact A|]. split; [apply ranges_acp; assumption | exact C]. Qed.
Lemma kept_nhit : forall s v, kept s -> (attached s = true -> nhit_in v) -> kept (w_nhit s v).
Proof. intros s v (A & R & C) V. split; [exact A|]. split; [apply ranges_nhit; assumption | exact C]. Qed.
Lemma kept_cores : forall s v, kept s -> all_fine v -> kept (w_cores s v).
Proof. intros s v (A & R & C) V. split; [exact A|]. split; [apply ranges_cores; assumption | exact C]. Qed.

Ltac same := apply safe_same; [assumption | discriminate | discriminate].

Lemma run_safe : forall o s, kept s -> caller_ok o s -> safe (run o s).
Proof.
  intros o s K CA. pose proof K as (SB & R & CO). pose proof R as (R1 & R2 & R3 & R4 & R5).
  destruct o; cbn [run].
  - (* mode *) unfold set_mode. rewrite SB. unfold mode_valid. destruct (N.ltb_spec m 6); cbn [negb]; [|same].
    unfold set_cache_mode, mode_valid. destruct (N.ltb_spec m 6); [|lia]. cbn [negb]. destruct (m =? mode s); [same|].
    apply safe_same; [|discriminate|discriminate]. split; [exact SB|]. split; [apply ranges_mode; [exact R | lia] | exact CO].
  - (* cleaning parameter *) unfold cleaning_set_param. destruct (3 <=? t); [same|]. rewrite SB.
    destruct (attached s) eqn:A; cbn [negb]; [|same]. specialize (R4 eq_refl). destruct R4 as (A1 & A2 & A3). unfold alru_in, acp_in in *.
    assert (HA : safe (alru_set id v s)).
    { unfold alru_set. destruct id as [|[[p|p|]|[p|[p|p|]|]|]];
        try same; apply checked_safe; try exact K; intros V; apply kept_alru; try exact K; intros _; unfold alru_in; cbn; lia. }
    assert (HB : safe (acp_set id v s)).
    { unfold acp_set. destruct id as [|[p|p|]];
        try same; apply checked_safe; try exact K; intros V; apply kept_acp; try exact K; intros _; unfold acp_in; cbn; lia. }
    destruct t as [|[p|[p|p|]|]]; try same; assumption.
  - (* cleaning policy *) cbn [caller_ok] in CA. unfold cleaning_set_policy. destruct (N.leb_spec 3 t); [same|]. rewrite SB.
    destruct (t =? cpol s); [same|]. destruct (disabled s); [same|]. rewrite CA. cbn [negb].
    destruct ok; (apply safe_same; [|discriminate|discriminate]); (split; [exact SB|]); (split; [apply ranges_cpol; [exact R | lia] | exact CO]).
  - (* promotion policy *) cbn [caller_ok] in CA. unfold mngt_promotion_set_policy. rewrite SB. unfold promotion_set_policy.
    destruct (proj1 CO CA) as (p & P & PT & PC). rewrite P. destruct (N.leb_spec 2 t); [same|].
    destruct (N.eqb_spec t (ptype s)) as [|NE]; [same|]. unfold pol_deinit.
    assert (D : exists q, (if ptype s =? 1 then if p_ctx p then Some {| p_type := p_type p; p_conf := p_conf p; p_ctx := false |} else None else Some p) = Some q).
    { destruct (N.eqb_spec (ptype s) 1) as [E|E]; [destruct (PC E) as (_ & ->)|]; eexists; reflexivity. }
    destruct D as (q & ->). unfold pol_init.
    assert (T : t = 0 \/ t = 1) by lia. destruct T as [->| ->]; cbn [N.eqb].
    + apply safe_same; [|discriminate|discriminate]. split; [exact SB|]. split; [apply ranges_prom; [exact R | lia]|].
      split; cbn [attached w_prom ppol ptype]; [|congruence]. intros _. eexists. split; [reflexivity|]. split; [reflexivity|]. discriminate.
    + unfold nhit_init. destruct ok; cbn [Pos.eqb].
      * apply safe_same; [|discriminate|discriminate]. split; [exact SB|]. split; [apply ranges_prom; [exact R | lia]|].
        split; cbn [attached w_prom ppol ptype]; [|congruence]. intros _. eexists. split; [reflexivity|]. split; [reflexivity|].
        intros _. split; reflexivity.
      * apply safe_same; [|discriminate|discriminate]. split; [exact SB|]. split; [apply ranges_prom; [exact R | lia]|].
        split; cbn [attached w_prom ppol ptype]; [|congruence]. intros _. eexists. split; [reflexivity|]. split; [reflexivity|]. discriminate.
  - (* promotion parameter *) cbn [caller_ok] in CA. unfold promotion_set_param. rewrite SB. destruct (attached s) eqn:A; cbn [negb]; [|same].
    destruct (N.leb_spec 2 t); [lia|]. destruct (t =? 1); [|same]. destruct (R4 eq_refl) as (_ & _ & A3). unfold nhit_in in A3.
    unfold nhit_set. destruct id as [|[p|p|]]; try same.
    + destruct (N.leb_spec 2 v); cbn [andb]; [|same]. destruct (N.leb_spec v 1000); [|same].
      apply safe_same; [|discriminate|discriminate]. apply kept_nhit; [exact K|]. intros _. unfold nhit_in. cbn. lia.
    + destruct (N.leb_spec 0 v); cbn [andb]; [|same]. destruct (N.leb_spec v 100); [|same].
      apply safe_same; [|discriminate|discriminate]. apply kept_nhit; [exact K|]. intros _. unfold nhit_in. cbn. lia.
  - (* one core *) unfold set_core. destruct (cores s i) as [c|] eqn:E; [|same]. rewrite SB. destruct (attached s); cbn [negb]; [|same].
    pose proof (core_set_spec f v c (R5 i c E)) as CS. pose proof (core_set_fine f v c (R5 i c E)) as CF.
    destruct (core_set f v c) as (r, c'). cbn [snd] in CF. destruct CS as (_ & CS).
    apply safe_same; [apply kept_cores; [exact K | apply updc_fine; assumption] | |]; destruct CS as [(_ & -> & _)|(_ & -> & _)]; discriminate.
  - (* all cores *) unfold set_all. rewrite SB. destruct (attached s); cbn [negb]; [|same].
    pose proof (visit_spec core_max 0 f v (cores s) R5) as V. destruct (visit core_max 0 f v (cores s)) as (r, m').
    destruct V as (V1 & _ & V2).
    apply safe_same; [apply kept_cores; assumption | |]; destruct V2 as [(-> & _)|(-> & _)]; discriminate.
  - (* add *) cbn [caller_ok] in CA. unfold add_core. rewrite SB. destruct (cores s i); [same|].
    apply safe_same; [|discriminate|discriminate]. apply kept_cores; [exact K|]. apply updc_fine; [exact R5|].
    destruct CA as (C1 & C2). intros []; [exact C1 | unfold inside; cbn; lia | exact C2 | unfold inside; cbn; destruct prom; lia].
  - (* remove *) unfold remove_core. apply safe_same; [|discriminate|discriminate]. apply kept_cores; [exact K|].
    intros j c E. unfold updc in E. destruct (j =? i); [discriminate E | exact (R5 j c E)].
  - (* close *) unfold close_core. destruct (cores s i) as [c|] eqn:E; [|same]. destruct (cc_opened c); [|same].
    apply safe_same; [|discriminate|discriminate]. apply kept_cores; [exact K|]. apply updc_fine; [exact R5|].
    pose proof (R5 i c E) as F. intros f. specialize (F f). destruct f; exact F.
  - (* attach *) unfold attach. destruct (attached s) eqn:A; [same|].
    set (s1 := w_acp (w_alru (if dis then w_cpol (w_nhit (w_dev s false dis) nhit_def) 0 else w_nhit (w_dev s false dis) nhit_def) alru_def) acp_def).
    assert (K1 : kept s1).
    { split; [unfold s1; destruct dis; exact SB|]. split.
      - unfold s1. apply ranges_acp; [apply ranges_alru|].
        + assert (X : ranges (w_nhit (w_dev s false dis) nhit_def)).
          { apply ranges_nhit; [apply ranges_dev; [exact R | discriminate] | discriminate]. }
          destruct dis; [apply ranges_cpol; [exact X | lia] | exact X].
        + intros _. unfold alru_in, alru_def; cbn; lia.
        + intros _. unfold acp_in, acp_def; cbn; lia.
      - assert (Y : attached s1 = false /\ ppol s1 = ppol s) by (unfold s1; destruct dis; split; reflexivity).
        destruct Y as (Y1 & Y2). split; [rewrite Y1; discriminate|]. intros _. rewrite Y2. apply (proj2 CO A). }
    assert (F : s_alru s1 = alru_def /\ s_acp s1 = acp_def /\ s_nhit s1 = nhit_def /\ ptype s1 = ptype s /\ standby s1 = false).
    { unfold s1. destruct dis; cbn; auto. }
    destruct F as (F1 & F2 & F3 & F4 & F5). destruct K1 as (K1 & K2 & K3).
    destruct cok; cbn [negb]; [|apply safe_same; [split; [exact K1 | split; assumption] | discriminate | discriminate]].
    unfold promotion_init. rewrite F4. destruct (N.leb_spec 2 (ptype s)); [lia|]. unfold pol_init.
    assert (OKC : forall p, p_type p = ptype s -> (ptype s = 1 -> p_conf p = 1 /\ p_ctx p = true) ->
      safe (Ok, w_dev (w_prom s1 (ptype s) (Some p)) true (disabled (w_prom s1 (ptype s) (Some p))))).
    { intros p P1 P2. apply safe_same; [|discriminate|discriminate]. split; [exact F5|]. split.
      - apply ranges_dev; [apply ranges_prom; [exact K2 | lia]|]. intros _. cbn [w_prom s_alru s_acp s_nhit].
        rewrite F1, F2, F3. unfold alru_in, acp_in, nhit_in; cbn; lia.
      - split; cbn [w_dev w_prom attached ppol ptype]; [|discriminate]. intros _. exists p. split; [reflexivity|]. split; assumption. }
    destruct (N.eqb_spec (ptype s) 1) as [E|E].
    + unfold nhit_init. destruct pok.
      * apply OKC; [reflexivity|]. intros _. split; reflexivity.
      * apply safe_same; [|discriminate|discriminate]. split; [exact F5|]. split; [apply ranges_prom; [exact K2 | lia]|].
        destruct K3 as (K3 & K4).
        assert (Y1 : attached s1 = false) by (unfold s1; destruct dis; reflexivity).
        split; cbn [w_prom attached ppol ptype]; [rewrite Y1; discriminate | reflexivity].
    + apply OKC; [reflexivity|]. intros; contradiction.
  - (* detach *) unfold detach. destruct (attached s); cbn [negb]; [|same]. apply safe_same; [|discriminate|discriminate].
    split; [exact SB|]. split; [apply ranges_dev; [apply ranges_prom; [exact R | lia] | discriminate]|].
    split; cbn [w_dev w_prom attached ppol]; [discriminate | reflexivity].
Qed.

Lemma good_kept : forall s, good s <-> kept s.
Proof. intros s. unfold good, kept. rewrite ranges_iff. reflexivity. Qed.

(** Whatever is done, in any order, with callers that observe [caller_ok]: no crash, every
    parameter within its limits, and the promotion policy at work is the configured one. *)
Theorem C70_limits : forall m t l, m < 6 -> t < 2 -> allowed l (start m t) ->
  exists s, runs l (start m t) = Some s /\ good s.
Proof.
  intros m t l M T. generalize (start_good m t M T). generalize (start m t). clear m t M T.
  induction l as [|o l IH]; intros s G A; cbn [runs allowed] in *; [exists s; split; [reflexivity | exact G]|].
  destruct A as (A1 & A2). apply good_kept in G. pose proof (run_safe o s G A1) as (N & B & K).
  destruct (run o s) as (r, s'). cbn [fst snd] in *. apply good_kept in K.
  destruct r; try contradiction; apply IH; assumption.
Qed.

(** The thresholds that decide about promotion are the ones that are set. *)
Theorem C70_effective : forall s, good s -> attached s = true ->
  thresholds s = (if ptype s =? 1 then UNhit (s_nhit s) else UAlways).
Proof.
  intros s (_ & _ & C & _) A. destruct (C A) as (p & P & PT & PC). unfold thresholds. rewrite P, PT.
  destruct (N.eqb_spec (ptype s) 1) as [E|E]; [|reflexivity]. destruct (PC E) as (-> & ->). reflexivity.
Qed.

(** ** Setting a parameter *)

Definition values_same (s s' : st) : Prop := forall q, value q s' = value q s.

Lemma checked_spec : forall p v lo hi s t, limits p = (lo, hi) ->
  (value p t = Some v /\ getter p t = (Ok, v) /\ (forall q, q <> p -> value q t = value q s)) ->
  let (r, s') := checked v lo hi s t in
  (inside p v -> r = Ok /\ value p s' = Some v /\ getter p s' = (Ok, v) /\ (forall q, q <> p -> value q s' = value q s)) /\
  (~ inside p v -> r = EInval /\ values_same s s').
Proof.
  intros p v lo hi s t L H. unfold checked, inside. rewrite L. cbn [fst snd].
  destruct (N.ltb_spec v lo); cbn [orb]; [split; [lia | intros _; split; [reflexivity | intros q; reflexivity]]|].
  destruct (N.ltb_spec hi v); [split; [lia | intros _; split; [reflexivity | intros q; reflexivity]]|].
  split; [intros _; split; [reflexivity | exact H] | lia].
Qed.

(** A value within the limits is stored, read back, and nothing else changes; any other is
    refused and nothing changes.  [PClean]: unless the cleaner is disabled; the flag of the
    sequential cut-off is a truth value. *)
Theorem C70_set_get : forall p v s, good s -> attached s = true ->
  (p = PClean -> disabled s = false) ->
  (forall i f, p = PCore i f -> cores s i <> None /\ (f = FProm -> v <= 1)) ->
  let (r, s') := run (setter p v) s in
  (inside p v -> r = Ok /\ value p s' = Some v /\ getter p s' = (Ok, v) /\ (forall q, q <> p -> value q s' = value q s)) /\
  (~ inside p v -> r = EInval /\ values_same s s').
Proof.
  intros p v s G A DI CE. apply good_kept in G. destruct G as (SB & R & CO).
  assert (ID : forall r0, r0 = EInval -> values_same s s) by (intros _ _ q; reflexivity).
  destruct p; cbn [setter run].
  - unfold set_mode. rewrite SB. unfold mode_valid, set_cache_mode, mode_valid, inside; cbn [limits fst snd].
    destruct (N.ltb_spec v 6); cbn [negb]; [|split; [lia | intros _; split; [reflexivity | intros q; reflexivity]]].
    destruct (N.eqb_spec v (mode s)) as [->|]; (split; [intros _; split; [reflexivity|] | lia]);
      (split; [reflexivity|]); (split; [reflexivity|]); intros []; congruence || reflexivity.
  - specialize (DI eq_refl). unfold cleaning_set_policy, inside; cbn [limits fst snd].
    destruct (N.leb_spec 3 v); [split; [lia | intros _; split; [reflexivity | intros q; reflexivity]]|]. rewrite SB.
    destruct (N.eqb_spec v (cpol s)) as [->|].
    { split; [intros _; split; [reflexivity|] | lia]. split; [reflexivity|]. split; [reflexivity|]. intros []; congruence || reflexivity. }
    rewrite DI, A. cbn [negb]. split; [intros _; split; [reflexivity|] | lia]. split; [reflexivity|]. split; [reflexivity|].
    intros []; congruence || reflexivity.
  - unfold mngt_promotion_set_policy. rewrite SB. unfold promotion_set_policy.
    destruct (proj1 CO A) as (p & P & PT & PC). rewrite P. unfold inside; cbn [limits fst snd].
    destruct (N.leb_spec 2 v); [split; [lia | intros _; split; [reflexivity | intros q; reflexivity]]|].
    destruct (N.eqb_spec v (ptype s)) as [->|NE].
    { split; [intros _; split; [reflexivity|] | lia]. split; [reflexivity|]. split; [reflexivity|]. intros []; congruence || reflexivity. }
    unfold pol_deinit.
    assert (D : exists q, (if ptype s =? 1 then if p_ctx p then Some {| p_type := p_type p; p_conf := p_conf p; p_ctx := false |} else None else Some p) = Some q).
    { destruct (N.eqb_spec (ptype s) 1) as [E|E]; [destruct (PC E) as (_ & ->)|]; eexists; reflexivity. }
    destruct D as (q & ->). unfold pol_init, nhit_init.
    destruct (v =? 1); (split; [intros _; split; [reflexivity|] | lia]); (split; [reflexivity|]); (split; [reflexivity|]);
      intros []; congruence || reflexivity.
  - unfold cleaning_set_param. cbn [N.leb N.compare Pos.compare Pos.compare_cont]. rewrite SB, A. cbn [negb alru_set].
    apply checked_spec; [reflexivity|]. cbn [getter]. unfold cleaning_get_param. cbn. rewrite SB.
    split; [reflexivity|]. split; [reflexivity|]. intros []; congruence || reflexivity.
  - unfold cleaning_set_param. cbn [N.leb N.compare Pos.compare Pos.compare_cont]. rewrite SB, A. cbn [negb alru_set].
    apply checked_spec; [reflexivity|]. cbn [getter]. unfold cleaning_get_param. cbn. rewrite SB.
    split; [reflexivity|]. split; [reflexivity|]. intros []; congruence || reflexivity.
  - unfold cleaning_set_param. cbn [N.leb N.compare Pos.compare Pos.compare_cont]. rewrite SB, A. cbn [negb alru_set].
    apply checked_spec; [reflexivity|]. cbn [getter]. unfold cleaning_get_param. cbn. rewrite SB.
    split; [reflexivity|]. split; [reflexivity|]. intros []; congruence || reflexivity.
  - unfold cleaning_set_param. cbn [N.leb N.compare Pos.compare Pos.compare_cont]. rewrite SB, A. cbn [negb alru_set].
    apply checked_spec; [reflexivity|]. cbn [getter]. unfold cleaning_get_param. cbn. rewrite SB.
    split; [reflexivity|]. split; [reflexivity|]. intros []; congruence || reflexivity.
  - unfold cleaning_set_param. cbn [N.leb N.compare Pos.compare Pos.compare_cont]. rewrite SB, A. cbn [negb alru_set].
    apply checked_spec; [reflexivity|]. cbn [getter]. unfold cleaning_get_param. cbn. rewrite SB.
    split; [reflexivity|]. split; [reflexivity|]. intros []; congruence || reflexivity.
  - unfold cleaning_set_param. cbn [N.leb N.compare Pos.compare Pos.compare_cont]. rewrite SB, A. cbn [negb acp_set].
    apply checked_spec; [reflexivity|]. cbn [getter]. unfold cleaning_get_param. cbn. rewrite SB.
    split; [reflexivity|]. split; [reflexivity|]. intros []; congruence || reflexivity.
  - unfold cleaning_set_param. cbn [N.leb N.compare Pos.compare Pos.compare_cont]. rewrite SB, A. cbn [negb acp_set].
    apply checked_spec; [reflexivity|]. cbn [getter]. unfold cleaning_get_param. cbn. rewrite SB.
    split; [reflexivity|]. split; [reflexivity|]. intros []; congruence || reflexivity.
  - unfold promotion_set_param. rewrite SB, A. cbn [negb N.leb N.compare Pos.compare Pos.compare_cont N.eqb Pos.eqb nhit_set].
    unfold inside; cbn [limits fst snd]. destruct (N.leb_spec 2 v); cbn [andb];
      [|split; [lia | intros _; split; [reflexivity | intros q; reflexivity]]].
    destruct (N.leb_spec v 1000); [|split; [lia | intros _; split; [reflexivity | intros q; reflexivity]]].
    split; [intros _ | lia]. split; [reflexivity|]. cbn [getter]. unfold promotion_get_param. cbn. rewrite SB.
    split; [reflexivity|]. split; [reflexivity|]. intros []; congruence || reflexivity.
  - unfold promotion_set_param. rewrite SB, A. cbn [negb N.leb N.compare Pos.compare Pos.compare_cont N.eqb Pos.eqb nhit_set].
    unfold inside; cbn [limits fst snd]. destruct (N.leb_spec 0 v); [|lia]. cbn [andb].
    destruct (N.leb_spec v 100); [|split; [lia | intros _; split; [reflexivity | intros q; reflexivity]]].
    split; [intros _ | lia]. split; [reflexivity|]. cbn [getter]. unfold promotion_get_param. cbn. rewrite SB.
    split; [reflexivity|]. split; [reflexivity|]. intros []; congruence || reflexivity.
  - destruct (CE i f eq_refl) as (CN & CB). unfold set_core. destruct (cores s i) as [c|] eqn:E; [|contradiction].
    rewrite SB, A. cbn [negb].
    pose proof (core_set_spec f v c (proj2 (proj2 (proj2 (proj2 R))) i c E)) as CS.
    destruct (core_set f v c) as (r, c'). destruct CS as (_ & CS).
    assert (TV : truth f v = v).
    { destruct f; cbn [truth]; try reflexivity. specialize (CB eq_refl). destruct (N.eqb_spec v 0); lia. }
    rewrite TV in CS.
    assert (OTH : forall j g, j <> i -> value (PCore j g) (w_cores s (updc (cores s) i (Some c'))) = value (PCore j g) s).
    { intros j g NE. cbn [value w_cores cores]. unfold updc. destruct (N.eqb_spec j i); [contradiction | reflexivity]. }
    assert (SELF : forall g, value (PCore i g) (w_cores s (updc (cores s) i (Some c'))) = Some (cval g c')).
    { intros g. cbn [value w_cores cores]. unfold updc. rewrite N.eqb_refl. destruct g; reflexivity. }
    assert (OLD : forall g, value (PCore i g) s = Some (cval g c)).
    { intros g. cbn [value]. rewrite E. destruct g; reflexivity. }
    destruct CS as [(IN & -> & VA & OT)|(NI & -> & ->)].
    + split; [intros _ | intros X; exfalso; apply X; apply (inside_core i 0); exact IN].
      split; [reflexivity|]. split; [rewrite SELF, VA; reflexivity|]. split.
      * cbn [getter]. unfold get_core. cbn [w_cores cores standby]. unfold updc. rewrite N.eqb_refl, SB.
        rewrite <- VA. destruct f; reflexivity.
      * intros q NQ. destruct q; try reflexivity. destruct (N.eq_dec i0 i) as [->|NE]; [|apply OTH; exact NE].
        rewrite SELF, OLD, OT; [reflexivity | congruence].
    + split; [intros X; exfalso; apply NI; apply (inside_core i 0); exact X|]. intros _. split; [reflexivity|].
      intros q. destruct q; try reflexivity. destruct (N.eq_dec i0 i) as [->|NE]; [|apply OTH; exact NE].
      rewrite SELF, OLD. reflexivity.
Qed.

(** Without a device all but three setters refuse. *)
Theorem C70_detached : forall p v s, standby s = false -> attached s = false -> p <> PMode -> p <> PClean -> p <> PProm ->
  let (r, s') := run (setter p v) s in (r = EDetached \/ (r = EInval /\ exists i f, p = PCore i f /\ cores s i = None)) /\ s' = s.
Proof.
  intros p v s SB A N1 N2 N3. destruct p; try contradiction; cbn [setter run];
    try (unfold cleaning_set_param, promotion_set_param; cbn [N.leb N.compare Pos.compare Pos.compare_cont]; rewrite SB, A; cbn [negb];
         split; [left; reflexivity | reflexivity]).
  unfold set_core. destruct (cores s i) eqn:E.
  - rewrite SB, A. cbn [negb]. split; [left; reflexivity | reflexivity].
  - split; [right; split; [reflexivity|]; exists i, f; split; [reflexivity | exact E] | reflexivity].
Qed.

(** Setting a parameter of all cores: either the value is within the limits, or nothing
    changes; every opened core has it then, and of other cores and parameters nothing
    changes. *)
Theorem C70_all : forall f v s, good s -> attached s = true -> (f = FProm -> v <= 1) ->
  (forall i, cores s i <> None -> i < 4096) ->
  let (r, s') := run (AllParam f v) s in
  (r = Ok \/ (r = EInval /\ ~ inside (PCore 0 f) v)) /\
  (forall q, (forall i g, q = PCore i g -> g <> f) -> value q s' = value q s) /\
  (forall i c, cores s i = Some c ->
     value (PCore i f) s' = (if cc_opened c then match r with Ok => Some v | _ => value (PCore i f) s end else value (PCore i f) s)) /\
  (inside (PCore 0 f) v -> r = Ok).
Proof.
  intros f v s G A FB CM. apply good_kept in G. destruct G as (SB & R & _). cbn [run]. unfold set_all. rewrite SB, A. cbn [negb].
  pose proof (visit_spec core_max 0 f v (cores s) (proj2 (proj2 (proj2 (proj2 R))))) as V.
  destruct (visit core_max 0 f v (cores s)) as (r, m'). destruct V as (_ & V0 & V).
  assert (TV : truth f v = v).
  { destruct f; cbn [truth]; try reflexivity. specialize (FB eq_refl). destruct (N.eqb_spec v 0); lia. }
  rewrite TV in V.
  assert (CMX : N.of_nat core_max = 4096) by reflexivity. rewrite CMX in V, V0.
  assert (VL : forall i g (c : ccfg) (mm : N -> option ccfg), mm i = Some c -> value (PCore i g) (w_cores s mm) = Some (cval g c)).
  { intros i g c mm E. cbn [value w_cores cores]. rewrite E. destruct g; reflexivity. }
  destruct V as [(-> & V)|(-> & NI & V)].
  - split; [left; reflexivity|]. split; [|split; [|reflexivity]].
    + intros q Q. destruct q; try reflexivity. cbn [value w_cores cores].
      destruct (cores s i) as [c|] eqn:E.
      * specialize (V i ltac:(specialize (CM i ltac:(rewrite E; discriminate)); lia)). rewrite E in V.
        destruct (cc_opened c); [|rewrite V; reflexivity]. destruct V as (_ & c' & E' & _ & _ & OT). rewrite E'.
        pose proof (OT f0 (Q i f0 eq_refl)) as X. f_equal. destruct f0; exact X.
      * destruct (N.lt_ge_cases i 4096) as [L|L].
        -- specialize (V i ltac:(lia)). rewrite E in V. rewrite V. reflexivity.
        -- rewrite V0 by lia. rewrite E. reflexivity.
    + intros i c E. specialize (V i ltac:(specialize (CM i ltac:(rewrite E; discriminate)); lia)). rewrite E in V.
      destruct (cc_opened c).
      * destruct V as (_ & c' & E' & _ & VA & _). rewrite (VL i f c' m' E'), VA. reflexivity.
      * rewrite (VL i f c m' V). cbn [value]. rewrite E. destruct f; reflexivity.
  - split; [right; split; [reflexivity | exact NI]|]. split; [|split; [|intros X; contradiction]].
    + intros q _. destruct q; try reflexivity. cbn [value w_cores cores]. rewrite V. reflexivity.
    + intros i c E. cbn [value w_cores cores]. rewrite V. destruct (cc_opened c); reflexivity.
Qed.

(** ** Attaching and detaching *)

(** Detaching changes no parameter. *)
Theorem C70_detach_keeps : forall s, values_same s (snd (run Detach s)).
Proof. intros s q. cbn [run]. unfold detach. destruct (attached s); cbn [negb snd]; destruct q; reflexivity. Qed.

(** Attaching brings the parameters of the policies back to the defaults; it keeps the
    mode, the promotion policy and the cores' parameters, and the cleaning policy unless
    the cleaner is disabled. *)
Theorem C70_attach_values : forall dis s, good s -> attached s = false ->
  let (r, s') := run (Attach dis true true) s in
  r = Ok /\ attached s' = true /\
  value PMode s' = value PMode s /\ value PProm s' = value PProm s /\ (forall i f, value (PCore i f) s' = value (PCore i f) s) /\
  value PClean s' = (if dis then Some 0 else value PClean s) /\
  map (fun p => value p s') [PAlruWake; PAlruStale; PAlruBufs; PAlruAct; PAlruRatio; PAcpWake; PAcpBufs; PNhitIns; PNhitTrig] =
    [Some 20; Some 120; Some 100; Some 10000; Some 100; Some 10; Some 128; Some 3; Some 80].
Proof.
  intros dis s G A. apply good_kept in G. destruct G as (SB & (R1 & R2 & R3 & _) & _). cbn [run]. unfold attach. rewrite A. cbn [negb].
  unfold promotion_init.
  assert (P : (if dis then w_cpol (w_nhit (w_dev s false dis) nhit_def) 0 else w_nhit (w_dev s false dis) nhit_def) =
    {| standby := standby s; attached := false; disabled := dis; mode := mode s; cpol := if dis then 0 else cpol s;
       s_alru := s_alru s; s_acp := s_acp s; ptype := ptype s; ppol := ppol s; s_nhit := nhit_def; cores := cores s |})
    by (destruct dis; reflexivity).
  rewrite P. cbn [w_alru w_acp ptype]. destruct (N.leb_spec 2 (ptype s)); [lia|]. unfold pol_init, nhit_init.
  destruct (ptype s =? 1); cbn; (split; [reflexivity|]); (split; [reflexivity|]); (split; [reflexivity|]);
    (split; [reflexivity|]); (split; [reflexivity|]); split; try reflexivity; destruct dis; reflexivity.
Qed.

(** So a parameter that was set is lost when the device is detached and attached again. *)
Theorem C70_attach_refuted : exists l1 l2 s1 s2,
  runs l1 (start 0 1) = Some s1 /\ runs l2 s1 = Some s2 /\ allowed l1 (start 0 1) /\ allowed l2 s1 /\ l2 = [Detach; Attach false true true] /\
  value PNhitIns s1 = Some 10 /\ value PNhitIns s2 = Some 3 /\ value PAlruRatio s1 = Some 40 /\ value PAlruRatio s2 = Some 100.
Proof.
  eexists [Attach false true true; PromParam 1 0 10; CleanParam 1 4 40], [Detach; Attach false true true], _, _.
  split; [vm_compute; reflexivity|]. split; [vm_compute; reflexivity|]. vm_compute. repeat split.
Qed.

(** ** What goes wrong *)

(** The mode of a detached cache is changed, though the error for it is assigned. *)
Theorem C70_mode_detached_refuted : forall m s, standby s = false -> attached s = false -> m < 6 ->
  let (r, s') := run (SetMode m) s in r = Ok /\ mode s' = m.
Proof.
  intros m s SB A M. cbn [run]. unfold set_mode, set_cache_mode, mode_valid. rewrite SB. destruct (N.ltb_spec m 6); [|lia]. cbn [negb].
  destruct (N.eqb_spec m (mode s)); split; auto.
Qed.

(** Setting the promotion policy of a cache without device follows a null pointer. *)
Theorem C70_promotion_detached_refuted : forall m t l s v ok, m < 6 -> t < 2 -> allowed l (start m t) -> runs l (start m t) = Some s ->
  attached s = false -> fst (run (PromPolicy v ok) s) = Null.
Proof.
  intros m t l s v ok M T AL RU A. destruct (C70_limits m t l M T AL) as (s' & E & SB & _ & _ & C). rewrite RU in E. injection E as <-.
  cbn [run]. unfold mngt_promotion_set_policy, promotion_set_policy. rewrite SB, (C A). reflexivity.
Qed.

(** A type that does not exist is refused by the cleaning parameters, but ends the program
    in the promotion parameters. *)
Theorem C70_promotion_type_refuted : forall s t id v, standby s = false -> attached s = true -> 3 <= t ->
  fst (run (CleanParam t id v) s) = EInval /\ fst (run (PromParam t id v) s) = Bug /\ fst (promotion_get_param t id s) = Bug.
Proof.
  intros s t id v SB A T. cbn [run]. unfold cleaning_set_param, promotion_set_param, promotion_get_param. rewrite SB, A. cbn [negb].
  destruct (N.leb_spec 3 t); [|lia]. destruct (N.leb_spec 2 t); [|lia]. repeat split.
Qed.

(** The configuration of a new core is not checked. *)
Theorem C70_add_core_refuted : forall i s, standby s = false -> cores s i = None ->
  let (r, s') := run (AddCore i 0 0 false) s in
  r = Ok /\ value (PCore i FThr) s' = Some 0 /\ ~ inside (PCore i FThr) 0 /\ value (PCore i FCnt) s' = Some 0 /\ ~ inside (PCore i FCnt) 0.
Proof.
  intros i s SB E. cbn [run]. unfold add_core. rewrite SB, E. cbn [value w_cores cores]. unfold updc. rewrite N.eqb_refl.
  split; [reflexivity|]. split; [reflexivity|]. split; [unfold inside; cbn; lia|]. split; [reflexivity | unfold inside; cbn; lia].
Qed.

(** Setting a parameter of all cores succeeds and leaves out cores that are not opened;
    if there is no other, even a value outside the limits is accepted. *)
Theorem C70_all_refuted : exists l s, allowed l (start 0 0) /\ runs l (start 0 0) = Some s /\
  (let (r, s') := run (AllParam FThr 4096) s in r = Ok /\ value (PCore 1 FThr) s' = Some 1048576) /\
  (let (r, s') := run (AllParam FThr 0) s in r = Ok).
Proof.
  eexists [Attach false true true; AddCore 1 1048576 8 false; CloseCore 1], _.
  split; [|split; [vm_compute; reflexivity|]]; vm_compute; repeat split; discriminate.
Qed.

(** The parameters of a cache that has no device yet are readable and outside the limits. *)
Theorem C70_unset_refuted : forall m t, getter PAlruStale (start m t) = (Ok, 0) /\ ~ inside PAlruStale 0 /\
  getter PNhitIns (start m t) = (Ok, 0) /\ ~ inside PNhitIns 0.
Proof. intros m t. split; [reflexivity|]. split; [unfold inside; cbn; lia|]. split; [reflexivity | unfold inside; cbn; lia]. Qed.

(** ** Examples *)

(** A run that uses everything and observes [caller_ok]. *)
Definition ex_ops : list op :=
  [Attach false true true; AddCore 3 1048576 8 true; AddCore 4 4096 1 false; PromPolicy 1 true; PromParam 1 0 5; PromParam 1 0 1;
   CleanParam 1 4 60; CleanPolicy 2 true; CleanParam 2 1 7; CoreParam 3 FPol 2; AllParam FCnt 9; CloseCore 4; AllParam FCnt 10; SetMode 1].
Example ex_allowed : allowed ex_ops (start 0 0).
Proof. vm_compute. repeat split; discriminate. Qed.
Example ex_values : match runs ex_ops (start 0 0) with
  | Some s => map (fun p => value p s) [PMode; PClean; PProm; PNhitIns; PAlruRatio; PAcpBufs; PCore 3 FPol; PCore 3 FCnt; PCore 4 FCnt; PCore 5 FCnt]
              = [Some 1; Some 2; Some 1; Some 5; Some 60; Some 7; Some 2; Some 10; Some 9; None] /\
              thresholds s = UNhit {| nh_ins := 5; nh_trig := 80 |} /\ attached s = true
  | None => False
  end.
Proof. vm_compute. repeat split. Qed.

(** A failed switch of the promotion policy falls back to policy 0. *)
Example ex_fallback : match runs [Attach false true true; PromPolicy 1 false] (start 0 0) with
  | Some s => ptype s = 0 /\ thresholds s = UAlways
  | None => False
  end.
Proof. vm_compute. split; reflexivity. Qed.

Print Assumptions C70_limits.
Print Assumptions C70_effective.
Print Assumptions C70_set_get.
Print Assumptions C70_detached.
Print Assumptions C70_all.
Print Assumptions C70_detach_keeps.
Print Assumptions C70_attach_values.
Print Assumptions C70_attach_refuted.
Print Assumptions C70_mode_detached_refuted.
Print Assumptions C70_promotion_detached_refuted.
Print Assumptions C70_promotion_type_refuted.
Print Assumptions C70_add_core_refuted.
Print Assumptions C70_all_refuted.
Print Assumptions C70_unset_refuted.

(** Completion of requests split into several device I/Os (C46) and of reads in
    write-only mode (C37), for FwdModel.v. *)
From Coq Require Import List Bool Arith NArith Lia.
From Verif Require Import FwdModel FwdProofs.
Import ListNotations.
Open Scope nat_scope.

(** ** Specification *)

(** The submission programs of the engines: one I/O or several ones to the cache,
    one to the core; over any volume (plain, closed, composite, nested). *)
Inductive engine_prog : list instr -> Prop :=
| EP_seq v : engine_prog (cache_io_req_seq v)
| EP_frag vs : engine_prog (cache_io_req vs)
| EP_core v : engine_prog (core_io_req v).

(** Number of forward_ends a program is going to cause. *)
Fixpoint ends (p : list instr) : nat :=
  match p with
  | [] => 0
  | IFwd :: r | IEnd _ :: r => S (ends r)
  | _ :: r => ends r
  end.

(** All forward_ends of the program [p] have completely taken place. *)
Definition all_ended (p : list instr) (c : cfg) : Prop :=
  length (thr c) = ends p /\ forall i, i < ends p -> exists e, nth_error (thr c) i = Some (Fin e).

(** Some I/O ended with an error. *)
Definition io_failed (c : cfg) : Prop := exists i e, nth_error (thr c) i = Some (Fin e) /\ e <> 0%N.

Lemma engine_wf p : engine_prog p -> wf0 p.
Proof. intros []; [apply wf0_cache_seq|apply wf0_cache|apply wf0_core]. Qed.

Lemma ends_step e c c' n : length (thr c) + ends (prog c) = n -> step e c = Some c' ->
  length (thr c') + ends (prog c') = n.
Proof.
  intros HN Hs. destruct e as [|i x|i|i|i]; cbn [step] in Hs.
  - destruct (prog c) as [|[| | | |x] r] eqn:Hp; try discriminate.
    + injection Hs as <-. cbn in *. lia.
    + injection Hs as <-. cbn in *. lia.
    + injection Hs as <-. cbn in *. rewrite app_length. cbn. lia.
    + apply put_fields in Hs as (-> & -> & _). cbn in *. lia.
    + injection Hs as <-. cbn in *. rewrite app_length. cbn. lia.
  - destruct (nth_error (thr c) i) as [[| | | |]|]; try discriminate. injection Hs as <-.
    cbn [thr prog]. rewrite upd_length. auto.
  - destruct (nth_error (thr c) i) as [[| | | |]|]; try discriminate. injection Hs as <-.
    cbn [thr prog]. rewrite upd_length. auto.
  - destruct (nth_error (thr c) i) as [[| | | |]|]; try discriminate. injection Hs as <-.
    cbn [thr prog]. rewrite upd_length. auto.
  - destruct (nth_error (thr c) i) as [[| | | |]|]; try discriminate.
    apply put_fields in Hs as (-> & -> & _). rewrite upd_length. auto.
Qed.

Lemma ends_run l c c' n : length (thr c) + ends (prog c) = n -> run l c = Some c' ->
  length (thr c') + ends (prog c') = n.
Proof.
  revert c; induction l as [|e l IH]; cbn [run]; intros c HN H.
  - injection H as <-; auto.
  - destruct (step e c) as [c1|] eqn:E; [|discriminate]. eapply IH; [|eauto]. eapply ends_step; eauto.
Qed.

Lemma finished_all_ended p l c : run l (start p) = Some c ->
  (finished c <-> prog c = [] /\ all_ended p c).
Proof.
  intros H. pose proof (ends_run l (start p) c (ends p) eq_refl H) as HE.
  unfold finished, all_ended. split.
  - intros [Hp Hf]. rewrite Hp in HE. cbn in HE. split; [auto|]. split; [lia|].
    intros i Hi. rewrite Forall_forall in Hf.
    destruct (nth_error (thr c) i) as [q|] eqn:E.
    + destruct (Hf q (nth_error_In _ _ E)) as [e ->]. eauto.
    + apply nth_error_None in E. lia.
  - intros (Hp & Hl & Hf). split; auto. apply Forall_forall. intros q Hq.
    apply In_nth_error in Hq as [i Hi]. destruct (Hf i) as [e He].
    + assert (nth_error (thr c) i <> None) by congruence. apply nth_error_Some in H0. lia.
    + rewrite He in Hi. injection Hi as <-. eexists; reflexivity.
Qed.

(** ** C46: exactly once, after everything has finished *)

(** In every interleaving, before the end the callback has not been called, at the
    end exactly once; "the end" = every I/O of the program has been submitted and
    has completely finished. *)
Theorem callback_exactly_once p l c :
  engine_prog p -> run l (start p) = Some c ->
  (calls c = [] /\ ~ (prog c = [] /\ all_ended p c)) \/
  (exists e, calls c = [e] /\ prog c = [] /\ all_ended p c).
Proof.
  intros HP H.
  destruct (Inv_once c (Inv_run _ _ _ (Inv_start _ (engine_wf _ HP)) H)) as [[H1 H2]|(e & H1 & H2)].
  - left; split; auto. intros HH. apply H2. apply (finished_all_ended p l c H); auto.
  - right; exists e; split; auto. apply (finished_all_ended p l c H); auto.
Qed.

(** The callback does happen: as long as it has not been called some thread can
    take a step, and no run is longer than five steps per instruction. *)
Theorem callback_happens p l c :
  engine_prog p -> run l (start p) = Some c ->
  length l <= 5 * length p /\
  (calls c = [] -> exists e c', step e c = Some c').
Proof.
  intros HP H. pose proof (Inv_run _ _ _ (Inv_start _ (engine_wf _ HP)) H) as HI. split.
  - pose proof (run_length _ _ _ H) as HL. unfold mu in HL. cbn [start prog thr msum] in HL. lia.
  - intros Hc. apply Inv_progress; auto. intros Hf.
    destruct (Inv_once c HI) as [[H1 H2]|(e & H1 & H2)]; [tauto|congruence].
Qed.

(** A reported error is a real one: every interleaving. *)
Theorem callback_error_real p l c e :
  engine_prog p -> run l (start p) = Some c -> calls c = [e] -> e <> 0%N -> io_failed c.
Proof.
  intros HP H Hc He. pose proof (Inv_run _ _ _ (Inv_start _ (engine_wf _ HP)) H) as HI.
  assert (HS : ErrSrc (start p)).
  { unfold ErrSrc; cbn. split; [congruence|]. split; intros; tauto. }
  destruct (ErrSrc_run _ _ _ HS H) as (_ & _ & H3).
  assert (HE : Exists failing (thr c)) by (apply (H3 e); [rewrite Hc; left; auto|auto]).
  destruct (Inv_once c HI) as [[H1 H2]|(e' & H1 & [Hp Hf])]; [congruence|].
  apply Exists_exists in HE as (q & Hq & Hn). rewrite Forall_forall in Hf.
  destruct (Hf q Hq) as [x ->]. apply In_nth_error in Hq as [i Hi]. exists i, x. split; auto.
Qed.

(** An error is reported if the forward_ends of the request do not overlap. *)
Lemma error_kept r l c e :
  wf0 (IInit :: r) -> no_init r -> atomic l -> run l (start (IInit :: r)) = Some c -> calls c = [e] ->
  io_failed c -> e <> 0%N.
Proof.
  intros Hw Hr Ha H Hc (i & x & Hi & Hx).
  destruct l as [|[|j y|j|j|j] l]; cbn [run step start prog thr] in H.
  - injection H as <-. discriminate.
  - cbn [cnt err calls] in H.
    set (c0 := {| cnt := 0; err := 0; prog := r; thr := []; calls := [] |}) in *.
    assert (HK : ErrKeep c0).
    { unfold ErrKeep, c0; cbn. split; [intros HE; inversion HE|]. split; [tauto|auto]. }
    assert (HI : Inv c0) by (left; cbn; cbn in Hw; auto).
    destruct (ErrKeep_run (length l) l c0 c) as (H1 & H2 & _); auto.
    rewrite (H2 e); [|rewrite Hc; left; auto]. apply H1. apply Exists_exists.
    exists (Fin x). split; [eapply nth_error_In; eauto|exact Hx].
  - destruct j; discriminate.
  - destruct j; discriminate.
  - destruct j; discriminate.
  - destruct j; discriminate.
Qed.

Lemma engine_shape p : engine_prog p -> exists r, p = IInit :: r /\ no_init r.
Proof.
  intros [v|vs|v]; eexists; (split; [reflexivity|]).
  - apply no_init_fwd.
  - unfold no_init. intros [HI|HI]; [discriminate|]. exact (no_init_flat vs HI).
  - apply no_init_fwd.
Qed.

Theorem callback_error_serial p l c e :
  engine_prog p -> atomic l -> run l (start p) = Some c -> calls c = [e] ->
  (e <> 0%N <-> io_failed c).
Proof.
  intros HP Ha H Hc. split; [intros He; eapply callback_error_real; eauto|].
  intros Hf. destruct (engine_shape p HP) as (r & -> & Hr).
  eapply error_kept; eauto. apply (engine_wf _ HP).
Qed.

(** Without that restriction the statement is false: [ocf_forward_end] updates the
    error field by a plain read and write, so a successful forward_end that read 0
    before, and writes after, a failing one erases the error.  Here the successful
    one is the final [ocf_forward_end(token, 0)] of a composite volume with a
    single member. *)
Definition lost_run : list ev :=
  [EvSub; EvSub; EvSub; EvSub; EvLoad 1; EvBegin 0 5; EvLoad 0; EvStore 0; EvDec 0; EvStore 1; EvDec 1].

Theorem callback_error_refuted :
  exists v l c, run l (start (core_io_req v)) = Some c /\ calls c = [0%N] /\ io_failed c.
Proof.
  exists (VComp [VDev] true), lost_run. eexists. split; [vm_compute; reflexivity|].
  split; [reflexivity|]. exists 0, 5%N. split; [reflexivity|discriminate].
Qed.

(** The same with two fragments of one write on a plain cache device. *)
Theorem callback_error_fragments_refuted :
  exists l c, run l (start (cache_io_req [VDev; VDev])) = Some c /\ calls c = [0%N] /\ io_failed c.
Proof.
  exists [EvSub; EvSub; EvSub; EvSub; EvSub; EvBegin 1 0; EvLoad 1; EvBegin 0 5; EvLoad 0; EvStore 0;
          EvDec 0; EvStore 1; EvDec 1].
  eexists. split; [vm_compute; reflexivity|].
  split; [reflexivity|]. exists 0, 5%N. split; [reflexivity|discriminate].
Qed.

(** Non-trivial instance: three fragments, one of them on a composite volume with
    a closed member, the second fails; completions in another order than the
    submissions, one of them before the next submission. *)
Example callback_case :
  let p := cache_io_req [VDev; VDev; VComp [VDev; VClosed] false] in
  let l := [EvSub; EvSub; EvSub; EvBegin 0 0; EvLoad 0; EvStore 0; EvDec 0; EvSub; EvSub; EvSub;
            EvSub; EvSub; EvSub; EvSub;
            EvBegin 2 0; EvLoad 2; EvStore 2; EvDec 2; EvBegin 1 7; EvLoad 1; EvStore 1; EvDec 1;
            EvLoad 3; EvStore 3; EvDec 3; EvLoad 4; EvStore 4; EvDec 4] in
  engine_prog p /\ atomic l /\
  exists c, run l (start p) = Some c /\ calls c = [7%N] /\ length (thr c) = 5.
Proof.
  cbn zeta. split; [apply EP_frag|]. split; [vm_compute; repeat split; auto|].
  eexists. split; [vm_compute; reflexivity|]. split; reflexivity.
Qed.

(** ** C46 for the write-through engine *)

Definition hd0 (l : list N) : N := match l with e :: _ => e | [] => 0%N end.

(** Result code a handler got / whether it has recorded it / done its decrement. *)
Definition hflag (h : hph) : bool := match h with HFlag | HDone => true | _ => false end.
Definition hdone (h : hph) : bool := match h with HDone => true | _ => false end.
Definition hcode (h : hph) (c : cfg) : Prop :=
  match h with
  | HIdle => True
  | HStart e => calls c = [e]
  | HRead e _ _ => calls c = [e] /\ e <> 0%N
  | HFlag | HDone => exists e, calls c = [e]
  end.

Definition WInv (dirty : bool) (s : wt) : Prop :=
  Inv (fc s) /\ Inv (fk s) /\ hcode (hc s) (fc s) /\ hcode (hk s) (fk s) /\
  rem s + (if hdone (hc s) then 1 else 0) + (if hdone (hk s) then 1 else 0) = 2 /\
  rerr s = (if hflag (hk s) then hd0 (calls (fk s)) else 0%N) /\
  ((hflag (hc s) = true /\ hd0 (calls (fc s)) <> 0%N) \/
   (hflag (hk s) = true /\ hd0 (calls (fk s)) <> 0%N) <-> ica s || ico s = true) /\
  (rem s <> 0 -> done s = [] /\ meta s = false) /\
  (rem s = 0 ->
    (meta s = true /\ done s = [] /\ dirty = true /\ ica s || ico s = false) \/
    (meta s = false /\ exists x, done s = [x] /\
      (x = hd0 (calls (fk s)) \/ (dirty = true /\ ica s || ico s = false)))).

Lemma calls_step c e c' x : Inv c -> calls c = [x] -> step e c = Some c' -> False.
Proof.
  intros HI Hc Hs. destruct (Inv_once c HI) as [[H1 H2]|(y & H1 & [Hp Hf])]; [congruence|].
  rewrite Forall_forall in Hf.
  destruct e as [|i z|i|i|i]; cbn [step] in Hs; [rewrite Hp in Hs; discriminate|..];
    destruct (nth_error (thr c) i) as [q|] eqn:E; try discriminate;
    destruct (Hf q (nth_error_In _ _ E)) as [w ->]; discriminate.
Qed.

Lemma WInv_start dirty pc pk : wf0 pc -> wf0 pk -> WInv dirty (wstart pc pk).
Proof.
  intros H1 H2. unfold WInv, wstart; cbn [fc fk hc hk ica ico rerr rem meta done hcode hdone hflag].
  split; [apply Inv_start; auto|]. split; [apply Inv_start; auto|].
  split; [exact I|]. split; [exact I|]. split; [reflexivity|]. split; [reflexivity|].
  split; [split; [intros [[HH _]|[HH _]]; discriminate|intros HH; discriminate]|].
  split; [auto|]. intros HH; discriminate.
Qed.

Lemma hcode_step h c e c' : Inv c -> hcode h c -> step e c = Some c' ->
  hcode h c' /\ (hflag h = true -> False).
Proof.
  intros HI Hh Hs. destruct h as [|x|x a b| |]; cbn in *.
  - split; [auto|discriminate].
  - exfalso; eapply calls_step; eauto.
  - destruct Hh as [Hh _]. exfalso; eapply calls_step; eauto.
  - destruct Hh as [x Hh]. exfalso; eapply calls_step; eauto.
  - destruct Hh as [x Hh]. exfalso; eapply calls_step; eauto.
Qed.

Lemma hdone_hflag h : hdone h = true -> hflag h = true.
Proof. destruct h; cbn; auto. Qed.

Lemma WInv_step dirty e s s' : WInv dirty s -> wstep dirty e s = Some s' -> WInv dirty s'.
Proof.
  intros (I1 & I2 & I3 & I4 & I5 & I6 & I7 & I8 & I9) Hs.
  destruct e as [x|x|t|x]; cbn [wstep] in Hs.
  - destruct (step x (fc s)) as [c|] eqn:E; [|discriminate]. injection Hs as <-.
    destruct (hcode_step _ _ _ _ I1 I3 E) as [Hc Hf].
    unfold WInv; cbn [fc fk hc hk ica ico rerr rem meta done].
    split; [exact (Inv_step _ _ _ I1 E)|]. split; [auto|]. split; [auto|]. split; [auto|].
    split; [auto|]. split; [auto|]. split.
    + rewrite <- I7. split; intros [[HA HB]|HA]; auto; exfalso; apply Hf; auto.
    + split; [auto|]. intros HR. exfalso. apply Hf. apply hdone_hflag.
      destruct (hdone (hc s)); auto. destruct (hdone (hk s)); lia.
  - destruct (match x with
              | EvSub => match prog (fc s) with _ :: _ => true | [] => false end
              | _ => false end) eqn:EG.
    { destruct x; try discriminate. destruct (prog (fc s)); discriminate. }
    assert (Hs' : match step x (fk s) with
                  | Some c => Some {| fc := fc s; fk := c; hc := hc s; hk := hk s; ica := ica s; ico := ico s;
                              rerr := rerr s; rem := rem s; meta := meta s; done := done s |}
                  | None => None end = Some s').
    { destruct x; auto. destruct (prog (fc s)); [auto|discriminate]. }
    clear Hs EG. destruct (step x (fk s)) as [c|] eqn:E; [|discriminate]. injection Hs' as <-.
    destruct (hcode_step _ _ _ _ I2 I4 E) as [Hc Hf].
    unfold WInv; cbn [fc fk hc hk ica ico rerr rem meta done].
    assert (HF : hflag (hk s) = false) by (destruct (hflag (hk s)); auto; exfalso; auto).
    split; [auto|]. split; [exact (Inv_step _ _ _ I2 E)|]. split; [auto|]. split; [auto|].
    split; [auto|]. split; [rewrite HF in *; auto|]. split.
    + rewrite <- I7. split; intros [HA|[HA HB]]; auto; exfalso; apply Hf; auto.
    + split; [auto|]. intros HR. exfalso. apply Hf. apply hdone_hflag.
      destruct (hdone (hk s)); auto. destruct (hdone (hc s)); lia.
  - unfold wt_handler in Hs. destruct t.
    + destruct (hc s) as [|e|e a b| |] eqn:Eh.
      * destruct (calls (fc s)) as [|y ys] eqn:Ec; [discriminate|]. injection Hs as <-.
        unfold WInv, set_h; cbn [fc fk hc hk ica ico rerr rem meta done hcode hdone hflag] in *.
        split; [auto|]. split; [auto|]. split.
        { destruct (Inv_once _ I1) as [[H1 _]|(z & H1 & _)]; congruence. }
        split; [auto|]. split; [auto|]. split; [auto|]. split; [rewrite Ec; exact I7|]. split; auto.
      * injection Hs as <-. cbn [hcode] in I3.
        unfold WInv, set_h; cbn [fc fk hc hk ica ico rerr rem meta done] in *.
        split; [auto|]. split; [auto|].
        destruct (N.eqb_spec e 0) as [He|He]; cbn [hcode hdone hflag] in *.
        -- split; [eauto|]. split; [auto|]. split; [auto|]. split; [auto|].
           split; [|split; auto]. rewrite <- I7. rewrite I3. cbn [hd0].
           split; (intros [[HA HB]|HA]; [exfalso; congruence|right; exact HA]).
        -- split; [auto|]. split; [auto|]. split; [auto|]. split; [auto|]. split; [auto|]. split; auto.
      * injection Hs as <-. cbn [hcode] in I3. destruct I3 as [I3 He].
        unfold WInv, set_h; cbn [fc fk hc hk ica ico rerr rem meta done] in *.
        split; [auto|]. split; [auto|]. split; [cbn; eauto|]. split; [auto|].
        cbn [hdone hflag] in *. split; [auto|]. split; [auto|].
        split.
        { rewrite I3. cbn [hd0]. cbn [orb]. split; auto. }
        split; [auto|]. intros HR. destruct (hdone (hk s)); lia.
      * unfold wt_req_complete, set_h in Hs. cbn [hcode] in I3.
        cbn [fc fk hc hk ica ico rerr rem meta done] in Hs.
        cbn [hdone hflag] in *.
        destruct (rem s) as [|[|k]] eqn:Er; [discriminate| |].
        -- injection Hs as <-. unfold WInv; cbn [fc fk hc hk ica ico rerr rem meta done hcode hdone hflag].
           split; [auto|]. split; [auto|]. split; [auto|]. split; [auto|].
           destruct (hdone (hk s)) eqn:Ed; [|lia].
           split; [lia|]. split; [auto|]. split; [auto|]. split; [lia|].
           destruct (I8 ltac:(lia)) as [D1 D2]. intros _.
           destruct (ica s || ico s) eqn:Ef.
           ++ right. split; [auto|]. rewrite D1. exists (rerr s). split; [auto|]. left.
              rewrite I6. apply hdone_hflag in Ed. rewrite Ed. auto.
           ++ destruct dirty; [left; auto|]. right. split; [auto|]. rewrite D1. exists 0%N.
              split; [auto|]. left. apply hdone_hflag in Ed.
              destruct (N.eq_dec (hd0 (calls (fk s))) 0) as [Z|Z]; [auto|].
              exfalso. assert (HT : false = true) by (apply I7; right; auto). discriminate.
        -- injection Hs as <-. unfold WInv; cbn [fc fk hc hk ica ico rerr rem meta done hcode hdone hflag].
           split; [auto|]. split; [auto|]. split; [auto|]. split; [auto|].
           split; [lia|]. split; [auto|]. split; [auto|]. split; [intros _; apply I8; lia|]. lia.
      * discriminate.
    + destruct (hk s) as [|e|e a b| |] eqn:Eh.
      * destruct (calls (fk s)) as [|y ys] eqn:Ec; [discriminate|]. injection Hs as <-.
        unfold WInv, set_h; cbn [fc fk hc hk ica ico rerr rem meta done hcode hdone hflag] in *.
        split; [auto|]. split; [auto|]. split; [auto|]. split.
        { destruct (Inv_once _ I2) as [[H1 _]|(z & H1 & _)]; congruence. }
        split; [auto|]. split; [auto|]. split; [rewrite Ec; exact I7|]. split; [auto|].
        rewrite Ec. auto.
      * injection Hs as <-. cbn [hcode] in I4.
        unfold WInv, set_h; cbn [fc fk hc hk ica ico rerr rem meta done] in *.
        split; [auto|]. split; [auto|]. split; [auto|].
        destruct (N.eqb_spec e 0) as [He|He]; cbn [hcode hdone hflag] in *.
        -- split; [eauto|]. split; [auto|]. split; [rewrite I4; cbn; congruence|].
           split; [|split; auto]. rewrite <- I7. rewrite I4. cbn [hd0].
           split; (intros [HA|[HA HB]]; [left; exact HA|exfalso; congruence]).
        -- split; [auto|]. split; [auto|]. split; [auto|]. split; [auto|]. split; auto.
      * injection Hs as <-. cbn [hcode] in I4. destruct I4 as [I4 He].
        unfold WInv, set_h; cbn [fc fk hc hk ica ico rerr rem meta done] in *.
        split; [auto|]. split; [auto|]. split; [auto|]. split; [cbn; eauto|].
        cbn [hdone hflag] in *. split; [auto|]. split; [rewrite I4; auto|].
        split.
        { rewrite I4. cbn [hd0]. rewrite orb_true_r. split; auto. }
        split; [auto|]. intros HR. destruct (hdone (hc s)); lia.
      * unfold wt_req_complete, set_h in Hs. cbn [hcode] in I4.
        cbn [fc fk hc hk ica ico rerr rem meta done] in Hs.
        cbn [hdone hflag] in *.
        destruct (rem s) as [|[|k]] eqn:Er; [discriminate| |].
        -- injection Hs as <-. unfold WInv; cbn [fc fk hc hk ica ico rerr rem meta done hcode hdone hflag].
           split; [auto|]. split; [auto|]. split; [auto|]. split; [auto|].
           destruct (hdone (hc s)) eqn:Ed; [|lia].
           split; [lia|]. split; [auto|]. split; [auto|]. split; [lia|].
           destruct (I8 ltac:(lia)) as [D1 D2]. intros _.
           destruct (ica s || ico s) eqn:Ef.
           ++ right. split; [auto|]. rewrite D1. exists (rerr s). split; [auto|]. left. auto.
           ++ destruct dirty; [left; auto|]. right. split; [auto|]. rewrite D1. exists 0%N.
              split; [auto|]. left.
              destruct (N.eq_dec (hd0 (calls (fk s))) 0) as [Z|Z]; [auto|].
              exfalso. assert (HT : false = true) by (apply I7; right; auto). discriminate.
        -- injection Hs as <-. unfold WInv; cbn [fc fk hc hk ica ico rerr rem meta done hcode hdone hflag].
           split; [auto|]. split; [auto|]. split; [auto|]. split; [auto|].
           split; [lia|]. split; [auto|]. split; [auto|]. split; [intros _; apply I8; lia|]. lia.
      * discriminate.
  - destruct (meta s) eqn:Em; [|discriminate]. injection Hs as <-.
    unfold WInv; cbn [fc fk hc hk ica ico rerr rem meta done].
    split; [auto|]. split; [auto|]. split; [auto|]. split; [auto|]. split; [auto|]. split; [auto|].
    split; [auto|].
    assert (HR : rem s = 0).
    { destruct (rem s); [auto|]. destruct I8; [discriminate|congruence]. }
    split; [congruence|]. intros _. right. split; [auto|].
    destruct (I9 HR) as [(A1 & A2 & A3 & A4)|(A1 & _)]; [|congruence].
    exists x. rewrite A2. split; [auto|]. right. auto.
Qed.

Lemma WInv_run dirty l s s' : WInv dirty s -> wrun dirty l s = Some s' -> WInv dirty s'.
Proof.
  revert s; induction l as [|e l IH]; cbn [wrun]; intros s HI H.
  - injection H as <-; auto.
  - destruct (wstep dirty e s) as [s1|] eqn:E; [|discriminate]. eapply IH; [|eauto]. eapply WInv_step; eauto.
Qed.

(** The runs of the two forwards inside a run of the engine. *)
Fixpoint on_cache (l : list wev) : list ev :=
  match l with [] => [] | WC e :: r => e :: on_cache r | _ :: r => on_cache r end.
Fixpoint on_core (l : list wev) : list ev :=
  match l with [] => [] | WK e :: r => e :: on_core r | _ :: r => on_core r end.

Lemma handler_fwd dirty t s s' : wt_handler dirty t s = Some s' -> fc s' = fc s /\ fk s' = fk s.
Proof.
  unfold wt_handler, wt_req_complete. destruct (if t then hc s else hk s).
  - destruct (calls (if t then fc s else fk s)); intros H; [discriminate|]. injection H as <-; auto.
  - intros H; injection H as <-; auto.
  - intros H; injection H as <-; auto.
  - cbn [set_h rem]. destruct (rem s) as [|[|k]]; intros H; [discriminate| |]; injection H as <-; auto.
  - discriminate.
Qed.

Lemma wrun_proj dirty l s s' : wrun dirty l s = Some s' ->
  run (on_cache l) (fc s) = Some (fc s') /\ run (on_core l) (fk s) = Some (fk s').
Proof.
  revert s; induction l as [|e l IH]; cbn [wrun on_cache on_core]; intros s H.
  - injection H as <-. auto.
  - destruct (wstep dirty e s) as [s1|] eqn:E; [|discriminate]. specialize (IH _ H).
    destruct e as [x|x|t|x]; cbn [wstep] in E.
    + destruct (step x (fc s)) as [c|] eqn:Es; [|discriminate]. injection E as <-.
      cbn [run]. rewrite Es. cbn [fc fk] in IH. auto.
    + assert (Es : step x (fk s) = Some (fk s1) /\ fc s1 = fc s).
      { destruct x; [destruct (prog (fc s)); [|discriminate]|..];
        (destruct (step _ (fk s)) as [c|] eqn:Es; [|discriminate]; injection E as <-; auto). }
      destruct Es as [Es Ef]. cbn [run]. rewrite Es, <- Ef. auto.
    + apply handler_fwd in E as [E1 E2]. rewrite <- E1, <- E2. auto.
    + destruct (meta s); [|discriminate]. injection E as <-. cbn [fc fk] in IH. auto.
Qed.

(** The user's completion callback of a write-through write is called at most
    once, and only when all I/Os to the cache and to the core have finished. *)
Theorem wt_complete_once dirty pc pk l s :
  engine_prog pc -> engine_prog pk -> wrun dirty l (wstart pc pk) = Some s ->
  done s = [] \/
  (exists x, done s = [x] /\ meta s = false /\
     prog (fc s) = [] /\ all_ended pc (fc s) /\ prog (fk s) = [] /\ all_ended pk (fk s)).
Proof.
  intros H1 H2 H.
  pose proof (WInv_run _ _ _ _ (WInv_start dirty _ _ (engine_wf _ H1) (engine_wf _ H2)) H)
    as (I1 & I2 & I3 & I4 & I5 & I6 & I7 & I8 & I9).
  destruct (wrun_proj _ _ _ _ H) as [P1 P2]. cbn [wstart fc fk] in P1, P2.
  destruct (rem s) eqn:Er; [|left; apply I8; lia].
  destruct (I9 eq_refl) as [(A1 & A2 & _)|(A1 & x & A2 & _)]; [left; auto|right].
  exists x. split; auto. split; auto.
  assert (D : hdone (hc s) = true /\ hdone (hk s) = true).
  { destruct (hdone (hc s)), (hdone (hk s)); auto; lia. }
  destruct D as [D1 D2].
  assert (C1 : exists e, calls (fc s) = [e]) by (destruct (hc s); try discriminate; exact I3).
  assert (C2 : exists e, calls (fk s) = [e]) by (destruct (hk s); try discriminate; exact I4).
  destruct C1 as [e1 C1], C2 as [e2 C2].
  destruct (callback_exactly_once pc _ _ H1 P1) as [[HH _]|(? & _ & HA & HB)]; [congruence|].
  destruct (callback_exactly_once pk _ _ H2 P2) as [[HH _]|(? & _ & HC & HD)]; [congruence|].
  auto.
Qed.

(** It is called: until then some step is possible, and runs are bounded (a step
    of the metadata flush counts as one step here). *)
Definition wmu (s : wt) : nat :=
  let h (x : hph) := match x with HIdle => 4 | HStart _ => 3 | HRead _ _ _ => 2 | HFlag => 1 | HDone => 0 end in
  mu (fc s) + mu (fk s) + 2 * h (hc s) + 2 * h (hk s) + (if meta s then 1 else 0).

Lemma wmu_step dirty e s s' : wstep dirty e s = Some s' -> wmu s' < wmu s.
Proof.
  intros Hs. unfold wmu. destruct e as [x|x|t|x]; cbn [wstep] in Hs.
  - destruct (step x (fc s)) as [c|] eqn:E; [|discriminate]. injection Hs as <-.
    apply mu_step in E. cbn [fc fk hc hk meta]. lia.
  - assert (Es : step x (fk s) = Some (fk s') /\ fc s' = fc s /\ hc s' = hc s /\ hk s' = hk s /\ meta s' = meta s).
    { destruct x; [destruct (prog (fc s)); [|discriminate]|..];
      (destruct (step _ (fk s)) as [c|] eqn:Es; [|discriminate]; injection Hs as <-; auto). }
    destruct Es as (Es & -> & -> & -> & ->). apply mu_step in Es. lia.
  - unfold wt_handler in Hs. destruct t.
    + destruct (hc s) as [|e|e a b| |] eqn:Eh.
      * destruct (calls (fc s)); [discriminate|]. injection Hs as <-. cbn. lia.
      * injection Hs as <-. cbn. destruct (e =? 0)%N; lia.
      * injection Hs as <-. cbn. lia.
      * unfold wt_req_complete, set_h in Hs. cbn [rem fc fk hc hk ica ico rerr meta done] in Hs.
        destruct (rem s) as [|[|k]]; [discriminate| |]; injection Hs as <-; cbn [fc fk hc hk meta].
        -- destruct (ica s || ico s), dirty, (meta s); lia.
        -- lia.
      * discriminate.
    + destruct (hk s) as [|e|e a b| |] eqn:Eh.
      * destruct (calls (fk s)); [discriminate|]. injection Hs as <-. cbn. lia.
      * injection Hs as <-. cbn. destruct (e =? 0)%N; lia.
      * injection Hs as <-. cbn. lia.
      * unfold wt_req_complete, set_h in Hs. cbn [rem fc fk hc hk ica ico rerr meta done] in Hs.
        destruct (rem s) as [|[|k]]; [discriminate| |]; injection Hs as <-; cbn [fc fk hc hk meta].
        -- destruct (ica s || ico s), dirty, (meta s); lia.
        -- lia.
      * discriminate.
  - destruct (meta s); [|discriminate]. injection Hs as <-. cbn [fc fk hc hk meta]. lia.
Qed.

Theorem wt_completes dirty pc pk l s :
  engine_prog pc -> engine_prog pk -> wrun dirty l (wstart pc pk) = Some s ->
  length l <= 5 * length pc + 5 * length pk + 16 /\
  (done s = [] -> exists e s', wstep dirty e s = Some s').
Proof.
  intros H1 H2 H. split.
  - assert (HL : forall l s s', wrun dirty l s = Some s' -> length l + wmu s' <= wmu s).
    { clear. induction l as [|e l IH]; cbn [wrun length]; intros s s' H.
      - injection H as <-. lia.
      - destruct (wstep dirty e s) as [s1|] eqn:E; [|discriminate]. apply wmu_step in E. apply IH in H. lia. }
    apply HL in H. unfold wmu at 2 in H. unfold wstart, mu, start in H.
    cbn [fc fk hc hk meta prog thr msum] in H. lia.
  - intros Hd.
    pose proof (WInv_run _ _ _ _ (WInv_start dirty _ _ (engine_wf _ H1) (engine_wf _ H2)) H)
      as (I1 & I2 & I3 & I4 & I5 & I6 & I7 & I8 & I9).
    destruct (Inv_once _ I1) as [[C1 F1]|(e1 & C1 & F1)].
    { destruct (Inv_progress _ I1 F1) as (e & c & E). exists (WC e). cbn [wstep]. rewrite E. eauto. }
    destruct (Inv_once _ I2) as [[C2 F2]|(e2 & C2 & F2)].
    { destruct (Inv_progress _ I2 F2) as (e & c & E). exists (WK e). cbn [wstep]. rewrite E.
      destruct F1 as [-> _]. destruct e; eauto. }
    destruct (rem s) as [|k] eqn:Er.
    { destruct (I9 eq_refl) as [(A1 & A2 & _)|(A1 & x & A2 & _)]; [|congruence].
      exists (WMeta 0). cbn [wstep]. rewrite A1. eauto. }
    assert (HX : hdone (hc s) = false \/ hdone (hk s) = false).
    { destruct (hdone (hc s)), (hdone (hk s)); auto; lia. }
    destruct HX as [HX|HX].
    + exists (WH true). cbn [wstep]. unfold wt_handler, wt_req_complete, set_h.
      cbn [rem fc fk hc hk ica ico rerr meta done]. rewrite C1, Er.
      destruct (hc s); try discriminate; eauto. destruct k; eauto.
    + exists (WH false). cbn [wstep]. unfold wt_handler, wt_req_complete, set_h.
      cbn [rem fc fk hc hk ica ico rerr meta done]. rewrite C2, Er.
      destruct (hk s); try discriminate; eauto. destruct k; eauto.
Qed.

Lemma wmeta_in dirty l s s' x :
  wrun dirty l s = Some s' -> WInv dirty s -> done s' = [x] -> done s = [] ->
  x <> hd0 (calls (fk s')) -> In (WMeta x) l.
Proof.
  revert s; induction l as [|e l IH]; cbn [wrun]; intros s H HI Hd Hd0 Hx.
  - injection H as <-. congruence.
  - destruct (wstep dirty e s) as [s1|] eqn:E; [|discriminate].
    pose proof (WInv_step _ _ _ _ HI E) as HI1.
    destruct (done s1) as [|y ys] eqn:Ed; [right; eapply IH; eauto|].
    assert (HY : y :: ys = [x] /\ forall q, fk s1 = q -> finished q -> fk s' = q).
    { clear IH. assert (HG : forall l s1 s', wrun dirty l s1 = Some s' -> WInv dirty s1 -> forall y ys, done s1 = y :: ys ->
          done s' = y :: ys /\ fk s' = fk s1).
      { clear. induction l as [|e l IH]; cbn [wrun]; intros s1 s' H HI y ys Hy.
        - injection H as <-. auto.
        - destruct (wstep dirty e s1) as [s2|] eqn:E; [|discriminate].
          pose proof (WInv_step _ _ _ _ HI E) as HI2.
          destruct HI as (I1 & I2 & I3 & I4 & I5 & I6 & I7 & I8 & I9).
          assert (HR : rem s1 = 0) by (destruct (rem s1); auto; destruct I8; congruence).
          assert (HD : hdone (hc s1) = true /\ hdone (hk s1) = true).
          { destruct (hdone (hc s1)), (hdone (hk s1)); auto; lia. }
          destruct HD as [D1 D2].
          exfalso. destruct e as [z|z|t|z]; cbn [wstep] in E.
          + destruct (step z (fc s1)) eqn:Ez; [|discriminate].
            destruct (hc s1); try discriminate. destruct I3 as [w I3]. exact (calls_step _ _ _ _ I1 I3 Ez).
          + destruct (hk s1); try discriminate. destruct I4 as [w I4].
            assert (step z (fk s1) <> None).
            { destruct z; [destruct (prog (fc s1)); [|discriminate]|..]; destruct (step _ (fk s1)); congruence. }
            destruct (step z (fk s1)) eqn:Ez; [|congruence]. exact (calls_step _ _ _ _ I2 I4 Ez).
          + unfold wt_handler in E. destruct t;
              [destruct (hc s1); try discriminate|destruct (hk s1); try discriminate].
          + destruct (meta s1) eqn:Em; [|discriminate].
            destruct (I9 HR) as [(A1 & A2 & _)|(A1 & _)]; congruence. }
      destruct (HG _ _ _ H HI1 _ _ Ed) as [G1 G2]. split; [congruence|].
      intros q <- _. auto. }
    destruct HY as [HY HF].
    (* the step that produced the completion *)
    assert (HR0 : rem s = 0 \/ rem s <> 0) by lia.
    pose proof HI1 as (J1 & J2 & J3 & J4 & J5 & J6 & J7 & J8 & J9).
    assert (HR1 : rem s1 = 0) by (destruct (rem s1); auto; destruct J8; congruence).
    assert (HD : hdone (hk s1) = true).
    { destruct (hdone (hc s1)), (hdone (hk s1)); auto; lia. }
    assert (HC : exists w, calls (fk s1) = [w]) by (destruct (hk s1); try discriminate; exact J4).
    destruct HC as [w HC].
    assert (HFin : finished (fk s1)).
    { destruct (Inv_once _ J2) as [[Q1 _]|(q & Q1 & Q2)]; [congruence|auto]. }
    assert (HEQ : fk s' = fk s1) by (apply HF; auto).
    rewrite HEQ in Hx.
    destruct HI as (I1 & I2 & I3 & I4 & I5 & I6 & I7 & I8 & I9).
    destruct e as [z|z|t|z]; cbn [wstep] in E.
    + exfalso. destruct (step z (fc s)) eqn:Ez; [|discriminate]. injection E as <-. cbn [done] in Ed. congruence.
    + exfalso. assert (done s1 = done s).
      { destruct z; [destruct (prog (fc s)); [|discriminate]|..];
        (destruct (step _ (fk s)) as [c|]; [|discriminate]; injection E as <-; auto). }
      congruence.
    + exfalso. destruct HR0 as [HR0|HR0].
      * assert (HDD : hdone (hc s) = true /\ hdone (hk s) = true).
        { destruct (hdone (hc s)), (hdone (hk s)); auto; lia. }
        destruct HDD as [D1 D2]. unfold wt_handler in E.
        destruct t; [destruct (hc s); try discriminate|destruct (hk s); try discriminate].
      * assert (HM : meta s1 = false).
        { destruct (J9 HR1) as [(A1 & A2 & _)|(A1 & _)]; congruence. }
        (* completed by the handler: code recorded in req->error or 0 *)
        assert (HV : done s1 = [rerr s1] /\ ica s1 || ico s1 = true \/
                     done s1 = [0%N] /\ ica s1 || ico s1 = false).
        { unfold wt_handler in E. destruct t.
          - destruct (hc s) eqn:Eh.
            + destruct (calls (fc s)); [discriminate|]. injection E as <-. cbn in Ed. congruence.
            + injection E as <-. cbn in Ed. congruence.
            + injection E as <-. cbn in Ed. congruence.
            + unfold wt_req_complete, set_h in E. cbn [rem fc fk hc hk ica ico rerr meta done] in E.
              destruct (rem s) as [|[|k]]; [discriminate| |]; injection E as <-; cbn [done ica ico rerr] in *.
              * rewrite Hd0 in *. destruct (ica s || ico s); [left; auto|].
                destruct dirty; [discriminate|right; auto].
              * congruence.
            + discriminate.
          - destruct (hk s) eqn:Eh.
            + destruct (calls (fk s)); [discriminate|]. injection E as <-. cbn in Ed. congruence.
            + injection E as <-. cbn in Ed. congruence.
            + injection E as <-. cbn in Ed. congruence.
            + unfold wt_req_complete, set_h in E. cbn [rem fc fk hc hk ica ico rerr meta done] in E.
              destruct (rem s) as [|[|k]]; [discriminate| |]; injection E as <-; cbn [done ica ico rerr] in *.
              * rewrite Hd0 in *. destruct (ica s || ico s); [left; auto|].
                destruct dirty; [discriminate|right; auto].
              * congruence.
            + discriminate. }
        destruct HV as [[HV _]|[HV HW]].
        -- apply Hx. rewrite J6 in HV. rewrite (hdone_hflag _ HD) in HV. congruence.
        -- apply Hx. destruct (N.eq_dec (hd0 (calls (fk s1))) 0) as [Z|Z]; [congruence|].
           exfalso. assert (HT : ica s1 || ico s1 = true).
           { apply J7. right. split; [apply hdone_hflag; auto|auto]. }
           congruence.
    + left. destruct (meta s); [|discriminate]. injection E as <-. cbn [done] in Ed. rewrite Hd0 in Ed.
      cbn in Ed. congruence.
Qed.

(** Errors of the cache are tolerated, errors of the core and of the metadata
    flush are not: the code reported is that of the core, or, if neither cache nor
    core reported an error, that of the metadata flush. *)
Theorem wt_error_real dirty pc pk l s x :
  engine_prog pc -> engine_prog pk -> wrun dirty l (wstart pc pk) = Some s -> done s = [x] -> x <> 0%N ->
  io_failed (fk s) \/ (dirty = true /\ In (WMeta x) l).
Proof.
  intros H1 H2 H Hd Hx.
  pose proof (WInv_start dirty _ _ (engine_wf _ H1) (engine_wf _ H2)) as H0.
  pose proof (WInv_run _ _ _ _ H0 H) as (I1 & I2 & I3 & I4 & I5 & I6 & I7 & I8 & I9).
  destruct (wrun_proj _ _ _ _ H) as [P1 P2]. cbn [wstart fc fk] in P1, P2.
  destruct (N.eq_dec x (hd0 (calls (fk s)))) as [E|E].
  - left. destruct (calls (fk s)) as [|y ys] eqn:Ec; [cbn in E; congruence|]. cbn in E. subst y.
    destruct (callback_exactly_once pk _ _ H2 P2) as [[HH _]|(e & HH & _)]; [congruence|].
    rewrite Ec in HH. injection HH as -> ->. eapply callback_error_real; eauto.
  - right. split.
    + destruct (rem s) eqn:Er; [|destruct I8; [lia|congruence]].
      destruct (I9 eq_refl) as [(A1 & A2 & A3 & _)|(A1 & y & A2 & [A3|[A3 _]])]; auto.
      rewrite Hd in A2. injection A2 as <-. congruence.
    + eapply wmeta_in; eauto.
Qed.

Theorem wt_error_serial dirty pc pk l s x :
  engine_prog pc -> engine_prog pk -> wrun dirty l (wstart pc pk) = Some s -> done s = [x] ->
  atomic (on_core l) -> io_failed (fk s) -> x <> 0%N.
Proof.
  intros H1 H2 H Hd Ha Hf.
  pose proof (WInv_start dirty _ _ (engine_wf _ H1) (engine_wf _ H2)) as H0.
  pose proof (WInv_run _ _ _ _ H0 H) as (I1 & I2 & I3 & I4 & I5 & I6 & I7 & I8 & I9).
  destruct (wrun_proj _ _ _ _ H) as [P1 P2]. cbn [wstart fc fk] in P1, P2.
  destruct (rem s) eqn:Er; [|destruct I8; [lia|congruence]].
  assert (HD : hdone (hk s) = true) by (destruct (hdone (hc s)), (hdone (hk s)); auto; lia).
  assert (HC : exists w, calls (fk s) = [w]) by (destruct (hk s); try discriminate; exact I4).
  destruct HC as [w HC].
  assert (HW : w <> 0%N) by (apply (callback_error_serial pk _ _ w H2 Ha P2 HC); auto).
  assert (HT : ica s || ico s = true).
  { apply I7. right. split; [apply hdone_hflag; auto|rewrite HC; auto]. }
  destruct (I9 eq_refl) as [(A1 & A2 & _)|(A1 & y & A2 & [A3|[_ A3]])]; [congruence| |congruence].
  rewrite Hd in A2. injection A2 as <-. rewrite HC in A3. cbn in A3. congruence.
Qed.

(** Failures of the cache device alone are not reported. *)
Theorem wt_cache_error_tolerated pc pk l s x :
  engine_prog pc -> engine_prog pk -> wrun false l (wstart pc pk) = Some s -> done s = [x] ->
  ~ io_failed (fk s) -> x = 0%N.
Proof.
  intros H1 H2 H Hd Hn. destruct (N.eq_dec x 0) as [|Hx]; auto.
  destruct (wt_error_real false pc pk l s x H1 H2 H Hd Hx) as [HF|[HF _]]; [tauto|discriminate].
Qed.

(** The lost error reaches the user: a write-through write whose core write failed
    is reported as successful (core on a composite volume). *)
Theorem wt_error_refuted :
  exists pk l s, engine_prog pk /\ wrun false l (wstart (cache_io_req_seq VDev) pk) = Some s /\
    done s = [0%N] /\ io_failed (fk s).
Proof.
  exists (core_io_req (VComp [VDev] true)).
  exists ([WC EvSub; WC EvSub] ++ [WC (EvBegin 0 0); WC (EvLoad 0); WC (EvStore 0); WC (EvDec 0)] ++
          map WK lost_run ++ [WH true; WH true; WH true; WH false; WH false; WH false]).
  eexists. split; [apply EP_core|]. split; [vm_compute; reflexivity|].
  split; [reflexivity|]. exists 0, 5%N. split; [reflexivity|discriminate].
Qed.

(** Non-trivial instances: the cache write fails, the core write succeeds (reported
    as success); both fail at the same time with the update of the bit field lost. *)
Example wt_case_tolerated :
  exists l s, wrun true l (wstart (cache_io_req [VDev; VDev]) (core_io_req VDev)) = Some s /\
    done s = [0%N] /\ io_failed (fc s) /\ ica s = true.
Proof.
  exists ([WC EvSub; WC EvSub; WC EvSub; WC EvSub; WC EvSub; WK EvSub; WK EvSub;
           WC (EvBegin 1 3); WC (EvLoad 1); WC (EvStore 1); WC (EvDec 1);
           WK (EvBegin 0 0); WK (EvLoad 0); WK (EvStore 0); WK (EvDec 0); WH false; WH false; WH false;
           WC (EvBegin 0 0); WC (EvLoad 0); WC (EvStore 0); WC (EvDec 0);
           WH true; WH true; WH true; WH true]).
  eexists. split; [vm_compute; reflexivity|]. split; [reflexivity|]. split; [|reflexivity].
  exists 1, 3%N. split; [reflexivity|discriminate].
Qed.

Example wt_case_both :
  exists l s, wrun true l (wstart (cache_io_req_seq VDev) (core_io_req VDev)) = Some s /\
    done s = [9%N] /\ ica s = false /\ ico s = true.
Proof.
  exists ([WC EvSub; WC EvSub; WK EvSub; WK EvSub;
           WC (EvBegin 0 3); WC (EvLoad 0); WC (EvStore 0); WC (EvDec 0);
           WK (EvBegin 0 9); WK (EvLoad 0); WK (EvStore 0); WK (EvDec 0);
           WH true; WH false; WH true; WH false; WH true; WH false; WH true; WH false]).
  eexists. split; [vm_compute; reflexivity|]. split; [reflexivity|]. split; reflexivity.
Qed.

(** ** C37: reads in write-only mode *)

(** The callback of the fetch from the cache, and so the user's callback, is called
    exactly once when everything has ended. *)
Theorem wo_complete_once vs l c :
  run l (start (wo_cache_do vs)) = Some c ->
  (calls c = [] /\ ~ (prog c = [] /\ all_ended (wo_cache_do vs) c)) \/
  (exists e, calls c = [e] /\ prog c = [] /\ all_ended (wo_cache_do vs) c).
Proof.
  intros H.
  destruct (Inv_once c (Inv_run _ _ _ (Inv_start _ (wf0_wo vs)) H)) as [[H1 H2]|(e & H1 & H2)].
  - left; split; auto. intros HH. apply H2. apply (finished_all_ended _ l c H); auto.
  - right; exists e; split; auto. apply (finished_all_ended _ l c H); auto.
Qed.

(** Not true: two dirty fragments; the fetch of the first one fails before the
    second one is submitted; forward_ends do not even overlap.  The read completes
    successfully. *)
Theorem wo_error_refuted :
  exists vs l c, run l (start (wo_cache_do vs)) = Some c /\ atomic l /\ calls c = [0%N] /\ io_failed c.
Proof.
  exists [VDev; VDev].
  exists [EvSub; EvSub; EvSub; EvSub; EvBegin 0 5; EvLoad 0; EvStore 0; EvDec 0;
          EvSub; EvSub; EvSub; EvBegin 1 0; EvLoad 1; EvStore 1; EvDec 1].
  eexists. split; [vm_compute; reflexivity|]. split; [cbn; repeat split; auto|].
  split; [reflexivity|]. exists 0, 5%N. split; [reflexivity|discriminate].
Qed.

(** What is true: the error is reported if no fetch had failed at the moment the
    last fragment was being submitted (the program had no [IInit] left). *)
Theorem wo_error_partial vs l1 l2 c1 c e :
  run l1 (start (wo_cache_do vs)) = Some c1 -> ~ In IInit (prog c1) ->
  Forall (fun p => match p with Issued => True | Ending x | Loaded _ x | Stored x | Fin x => x = 0%N end) (thr c1) ->
  atomic l2 -> run l2 c1 = Some c -> calls c1 = [] -> calls c = [e] ->
  (e <> 0%N <-> io_failed c).
Proof.
  intros R1 Hp Hf Ha R2 Hc1 Hc.
  pose proof (Inv_run _ _ _ (Inv_start _ (wf0_wo vs)) R1) as HI1.
  pose proof (Inv_run _ _ _ HI1 R2) as HI.
  split.
  - intros He.
    assert (HS : ErrSrc (start (wo_cache_do vs))).
    { unfold ErrSrc; cbn. split; [congruence|]. split; intros; tauto. }
    destruct (ErrSrc_run _ _ _ (ErrSrc_run _ _ _ HS R1) R2) as (_ & _ & H3).
    assert (HE : Exists failing (thr c)) by (apply (H3 e); [rewrite Hc; left; auto|auto]).
    destruct (Inv_once c HI) as [[H1 H2]|(e' & H1 & [Hq Hff])]; [congruence|].
    apply Exists_exists in HE as (q & Hq' & Hn). rewrite Forall_forall in Hff.
    destruct (Hff q Hq') as [x ->]. apply In_nth_error in Hq' as [i Hi]. exists i, x. split; auto.
  - intros (i & x & Hi & Hx).
    assert (HK : ErrKeep c1).
    { split; [|split; [rewrite Hc1; cbn; tauto|auto]].
      intros HE. apply Exists_exists in HE as (q & Hq & Hs). rewrite Forall_forall in Hf.
      specialize (Hf q Hq). destruct q; cbn in Hs; tauto. }
    destruct (ErrKeep_run (length l2) l2 c1 c) as (K1 & K2 & _); auto.
    rewrite (K2 e); [|rewrite Hc; left; auto]. apply K1. apply Exists_exists.
    exists (Fin x). split; [eapply nth_error_In; eauto|exact Hx].
Qed.

(** In particular a read with a single dirty fragment on a plain device reports it. *)
Example wo_partial_case :
  exists l1 l2 c1 c, run l1 (start (wo_cache_do [VDev; VDev])) = Some c1 /\ ~ In IInit (prog c1) /\
    thr c1 = [Fin 0; Issued] /\ calls c1 = [] /\ atomic l2 /\ run l2 c1 = Some c /\ calls c = [4%N].
Proof.
  exists [EvSub; EvSub; EvSub; EvSub; EvBegin 0 0; EvLoad 0; EvStore 0; EvDec 0; EvSub; EvSub],
         [EvBegin 1 4; EvLoad 1; EvStore 1; EvDec 1; EvSub].
  eexists. eexists. split; [vm_compute; reflexivity|].
  split; [cbn; intros [|[]]; discriminate|]. split; [reflexivity|]. split; [reflexivity|].
  split; [cbn; auto|]. split; [vm_compute; reflexivity|]. reflexivity.
Qed.

Print Assumptions callback_exactly_once.
Print Assumptions callback_happens.
Print Assumptions callback_error_real.
Print Assumptions callback_error_serial.
Print Assumptions callback_error_refuted.
Print Assumptions wt_complete_once.
Print Assumptions wt_completes.
Print Assumptions wt_error_real.
Print Assumptions wt_error_serial.
Print Assumptions wt_error_refuted.
Print Assumptions wo_complete_once.
Print Assumptions wo_error_refuted.
Print Assumptions wo_error_partial.

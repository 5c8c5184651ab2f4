(** Property C29: the n-hit promotion policy admits core lines according to the number of
    requests.

    The specification counts requests in the history: [asked k h] is the number of times core
    line [k] was asked for in [h] since it was last purged (purging happens when the line has
    been inserted into the cache, and on discard). *)
From Coq Require Import List Bool NArith Arith Lia.
From Verif Require Import NhitModel NhitProofs.
Import ListNotations.
Open Scope nat_scope.

(** ** Specification *)
Inductive lev := Ask (k : key) | Purge (k : key).
Definition asked (k : key) (h : list lev) : N :=
  fold_left (fun a e => match e with
    | Ask k' => if keyb k' k then N.succ a else a
    | Purge k' => if keyb k' k then 0%N else a end) h 0%N.

(** Requests as the cache issues them: the core lines of a request, the number of free cache
    lines and the number of core lines already mapped at that time; purges.  Below the
    configured occupancy the policy is not asked. *)
Inductive ev := EReq (l : list key) (free mapped : N) | EPurge (l : list key).
Definition below (trig entries free : N) : bool := (100 * (entries - free) <? trig * entries)%N.
Definition lines (trig entries : N) (e : ev) : list lev :=
  match e with
  | EReq l free _ => if below trig entries free then [] else map Ask l
  | EPurge l => map Purge l
  end.
Definition history (trig entries : N) (h : list ev) : list lev := flat_map (lines trig entries) h.

(** A policy that remembers the n last core lines asked for, each with a counter. *)
Definition fifo_ask (n : nat) (thr : N) (k : key) (m : list (key * N)) : bool * list (key * N) :=
  match fget k m with
  | Some c => let c' := ((c + 1) mod M32)%N in ((thr <=? c')%N, fset k c' m)
  | None => (false, fins n k m)
  end.
Definition fifo_purge (k : key) (m : list (key * N)) : list (key * N) := fset k 0%N m.

(** ** Runs of the model *)
Definition step (n H : nat) (thr trig entries : N) (e : ev) (s : nh) : option (list bool * nh) :=
  match e with
  | EReq l free mapped =>
      match nhit_req_should_promote n H thr trig entries free mapped l s with
      | Some (b, s) => Some ([b], s) | None => None end
  | EPurge l => match nhit_req_purge n H l s with Some s => Some ([], s) | None => None end
  end.
Fixpoint run (n H : nat) (thr trig entries : N) (h : list ev) (s : nh) : option (list bool * nh) :=
  match h with
  | [] => Some ([], s)
  | e :: h => match step n H thr trig entries e s with
              | None => None
              | Some (a, s) => match run n H thr trig entries h s with
                               | None => None
                               | Some (b, s) => Some (a ++ b, s) end
              end
  end.

(** ** Refinement of the first-in first-out memory *)
Fixpoint fifo_asks (n : nat) (thr : N) (l : list key) (m : list (key * N)) : bool * list (key * N) :=
  match l with
  | [] => (true, m)
  | k :: l => let '(b, m) := fifo_ask n thr k m in let '(r, m) := fifo_asks n thr l m in (b && r, m)
  end.
Definition fifo_step (n : nat) (thr trig entries : N) (e : ev) (m : list (key * N)) : list bool * list (key * N) :=
  match e with
  | EReq l free mapped =>
      if below trig entries free then ([true], m)
      else let '(r, m) := fifo_asks n thr l m in ([r || negb (mapped =? 0)%N], m)
  | EPurge l => ([], fold_left (fun m k => fifo_purge k m) l m)
  end.
Fixpoint fifo_run (n : nat) (thr trig entries : N) (h : list ev) (m : list (key * N)) : list bool * list (key * N) :=
  match h with
  | [] => ([], m)
  | e :: h => let '(a, m) := fifo_step n thr trig entries e m in
              let '(b, m) := fifo_run n thr trig entries h m in (a ++ b, m)
  end.

Definition R n H s m := exists T, inv n H s T m.

Lemma fset_absent k c m : fget k m = None -> fset k c m = m.
Proof.
  induction m as [|[k' c'] m IH]; [reflexivity|]. cbn [fget fset map fst].
  destruct (keyb_spec k' k) as [E|E]; [discriminate|]. intro F. f_equal. apply IH. exact F.
Qed.

Lemma ask_ok n H thr k s m : 0 < n -> 0 < H -> R n H s m ->
  exists s', core_line_should_promote n H thr k s = Some (fst (fifo_ask n thr k m), s') /\ R n H s' (snd (fifo_ask n thr k m)).
Proof.
  intros P HP [T I]. unfold core_line_should_promote, nhit_hash_query, fifo_ask.
  pose proof (lookup_mem n H s T m k P HP I) as L. destruct (fget k m) as [c|].
  - destruct L as [i [L1 [L2 [L3 L4]]]]. rewrite L2. destruct (Nat.eqb_spec (islot n T i) n); [lia|].
    rewrite L4. eexists. split; [reflexivity|]. cbn [snd]. exists T. apply (set_counter_inv n H s T m k i c); assumption.
  - destruct L as [L1 L2]. rewrite L1, Nat.eqb_refl. eexists. split; [reflexivity|]. cbn [snd].
    exists (S T). apply insert_inv; assumption.
Qed.

Lemma purge_ok n H k s m : 0 < n -> 0 < H -> R n H s m ->
  exists s', core_line_purge n H k s = Some s' /\ R n H s' (fifo_purge k m).
Proof.
  intros P HP [T I]. unfold core_line_purge, fifo_purge.
  pose proof (lookup_mem n H s T m k P HP I) as L. destruct (fget k m) as [c|] eqn:F.
  - destruct L as [i [L1 [L2 [L3 L4]]]]. rewrite L2. destruct (Nat.eqb_spec (islot n T i) n); [lia|].
    eexists. split; [reflexivity|]. exists T. apply (set_counter_inv n H s T m k i c); assumption.
  - destruct L as [L1 L2]. rewrite L1, Nat.eqb_refl. exists s. split; [reflexivity|].
    rewrite (fset_absent k 0%N m F). exists T. exact I.
Qed.

Lemma asks_ok n H thr l : forall s m, 0 < n -> 0 < H -> R n H s m ->
  exists s', lines_should_promote n H thr l s = Some (fst (fifo_asks n thr l m), s') /\ R n H s' (snd (fifo_asks n thr l m)).
Proof.
  induction l as [|k l IH]; intros s m P HP I; cbn [lines_should_promote fifo_asks].
  - exists s. split; [reflexivity|exact I].
  - destruct (ask_ok n H thr k s m P HP I) as [s1 [A1 A2]]. rewrite A1.
    destruct (fifo_ask n thr k m) as [b m1]. cbn [fst snd] in *.
    destruct (IH s1 m1 P HP A2) as [s2 [B1 B2]]. rewrite B1.
    destruct (fifo_asks n thr l m1) as [r m2]. cbn [fst snd] in *.
    exists s2. split; [reflexivity|exact B2].
Qed.

Lemma purges_ok n H l : forall s m, 0 < n -> 0 < H -> R n H s m ->
  exists s', nhit_req_purge n H l s = Some s' /\ R n H s' (fold_left (fun m k => fifo_purge k m) l m).
Proof.
  induction l as [|k l IH]; intros s m P HP I; cbn [nhit_req_purge fold_left].
  - exists s. split; [reflexivity|exact I].
  - destruct (purge_ok n H k s m P HP I) as [s1 [A1 A2]]. rewrite A1. exact (IH s1 _ P HP A2).
Qed.

Lemma below_ok trig entries free :
  ((entries - free) <? (trig * entries + 99) / 100)%N = below trig entries free.
Proof.
  unfold below. pose proof (N.div_mod (trig * entries + 99) 100 ltac:(discriminate)) as D.
  pose proof (N.mod_lt (trig * entries + 99) 100 ltac:(discriminate)) as U.
  set (x := (trig * entries)%N) in *. set (d := ((x + 99) / 100)%N) in *. set (r := ((x + 99) mod 100)%N) in *.
  clearbody x d r. set (o := (entries - free)%N). clearbody o.
  destruct (N.ltb_spec o d); destruct (N.ltb_spec (100 * o) x); try reflexivity; lia.
Qed.

Lemma step_ok n H thr trig entries e s m : 0 < n -> 0 < H -> R n H s m ->
  exists s', step n H thr trig entries e s = Some (fst (fifo_step n thr trig entries e m), s')
             /\ R n H s' (snd (fifo_step n thr trig entries e m)).
Proof.
  intros P HP I. destruct e as [l free mapped|l]; unfold step, fifo_step.
  - unfold nhit_req_should_promote. rewrite below_ok. destruct (below trig entries free).
    + exists s. split; [reflexivity|exact I].
    + destruct (asks_ok n H thr l s m P HP I) as [s1 [A1 A2]]. rewrite A1.
      destruct (fifo_asks n thr l m) as [r m1]. cbn [fst snd] in *. exists s1. split; [reflexivity|exact A2].
  - destruct (purges_ok n H l s m P HP I) as [s1 [A1 A2]]. rewrite A1. exists s1. split; [reflexivity|exact A2].
Qed.

Lemma run_ok n H thr trig entries h : forall s m, 0 < n -> 0 < H -> R n H s m ->
  exists s', run n H thr trig entries h s = Some (fst (fifo_run n thr trig entries h m), s')
             /\ R n H s' (snd (fifo_run n thr trig entries h m)).
Proof.
  induction h as [|e h IH]; intros s m P HP I; cbn [run fifo_run].
  - exists s. split; [reflexivity|exact I].
  - destruct (step_ok n H thr trig entries e s m P HP I) as [s1 [A1 A2]]. rewrite A1.
    destruct (fifo_step n thr trig entries e m) as [a m1]. cbn [fst snd] in *.
    destruct (IH s1 m1 P HP A2) as [s2 [B1 B2]]. rewrite B1.
    destruct (fifo_run n thr trig entries h m1) as [b m2]. cbn [fst snd] in *. exists s2. split; [reflexivity|exact B2].
Qed.

(** The ring buffer with hash chains answers every history like the simple memory; in
    particular no search in a chain runs forever. *)
Theorem C29_fifo : forall n H thr trig entries h, 0 < n -> 0 < H ->
  exists s, run n H thr trig entries h (nhit_hash_init n) = Some (fst (fifo_run n thr trig entries h []), s).
Proof.
  intros n H thr trig entries h P HP.
  destruct (run_ok n H thr trig entries h (nhit_hash_init n) [] P HP) as [s [A _]].
  - exists 0. apply init_inv. exact P.
  - exists s. exact A.
Qed.

(** ** Counting in the history *)
Lemma asked_app k h e : asked k (h ++ [e]) = match e with
  | Ask k' => if keyb k' k then N.succ (asked k h) else asked k h
  | Purge k' => if keyb k' k then 0%N else asked k h end.
Proof. unfold asked. rewrite fold_left_app. reflexivity. Qed.

Lemma fget_fset k k' c m : fget k (fset k' c m) =
  if keyb k' k then match fget k m with Some _ => Some c | None => None end else fget k m.
Proof.
  induction m as [|[q d] m IH]; cbn [fset map fget].
  - destruct (keyb k' k); reflexivity.
  - cbn [fst]. fold (fset k' c m). destruct (keyb_spec q k') as [E|E].
    + subst q. cbn [fget]. destruct (keyb_spec k' k) as [E|E]; [reflexivity|]. exact IH.
    + cbn [fget]. destruct (keyb_spec q k) as [F|F].
      * subst q. destruct (keyb_spec k' k) as [G|G]; [congruence|reflexivity].
      * exact IH.
Qed.
Lemma fget_firstn k n : forall m c, fget k (firstn n m) = Some c -> fget k m = Some c.
Proof.
  induction n as [|n IH]; intros m c; [discriminate|]. destruct m as [|[q d] m]; [discriminate|].
  cbn [firstn fget]. destruct (keyb q k); [auto|apply IH].
Qed.

Definition sound (h : list lev) (m : list (key * N)) : Prop := forall k c, fget k m = Some c -> (c <= asked k h)%N.

Lemma sound_ask n thr k h m : sound h m ->
  sound (h ++ [Ask k]) (snd (fifo_ask n thr k m)) /\
  (fst (fifo_ask n thr k m) = true -> (thr <= asked k (h ++ [Ask k]))%N).
Proof.
  intro I. unfold fifo_ask. destruct (fget k m) as [c|] eqn:F; cbn [fst snd].
  - assert (Le : ((c + 1) mod M32 <= N.succ (asked k h))%N).
    { pose proof (I k c F). assert ((c + 1) mod M32 <= c + 1)%N by (apply N.mod_le; discriminate). lia. }
    split.
    + intros q d. rewrite fget_fset, asked_app. destruct (keyb_spec k q) as [E|E].
      * subst q. rewrite F. intro Q. injection Q as Q. subst d. exact Le.
      * apply I.
    + intro L. apply N.leb_le in L. rewrite asked_app, keyb_refl. lia.
  - split; [|discriminate]. intros q d Q. unfold fins in Q. apply fget_firstn in Q. cbn [fget] in Q.
    rewrite asked_app. destruct (keyb_spec k q) as [E|E].
    + injection Q as Q. subst d. lia.
    + apply I. exact Q.
Qed.
Lemma sound_purge k h m : sound h m -> sound (h ++ [Purge k]) (fifo_purge k m).
Proof.
  intros I q d. unfold fifo_purge. rewrite fget_fset, asked_app. destruct (keyb_spec k q) as [E|E]; [|apply I].
  destruct (fget q m); [|discriminate]. intro Q. injection Q as Q. subst d. lia.
Qed.

Lemma asked_mono k l : forall h, (asked k h <= asked k (h ++ map Ask l))%N.
Proof.
  induction l as [|a l IH]; intro h; cbn [map]; [rewrite app_nil_r; lia|].
  replace (h ++ Ask a :: map Ask l) with ((h ++ [Ask a]) ++ map Ask l) by (rewrite <- app_assoc; reflexivity).
  specialize (IH (h ++ [Ask a])). rewrite asked_app in IH. destruct (keyb a k); lia.
Qed.

Lemma sound_asks n thr l : forall h m, sound h m ->
  sound (h ++ map Ask l) (snd (fifo_asks n thr l m)) /\
  (fst (fifo_asks n thr l m) = true -> forall k, In k l -> (thr <= asked k (h ++ map Ask l))%N).
Proof.
  induction l as [|a l IH]; intros h m I; cbn [fifo_asks map].
  - rewrite app_nil_r. split; [exact I|]. intros _ k [].
  - destruct (sound_ask n thr a h m I) as [A1 A2]. destruct (fifo_ask n thr a m) as [b m1]. cbn [fst snd] in *.
    destruct (IH (h ++ [Ask a]) m1 A1) as [B1 B2]. destruct (fifo_asks n thr l m1) as [r m2]. cbn [fst snd] in *.
    replace (h ++ Ask a :: map Ask l) with ((h ++ [Ask a]) ++ map Ask l) by (rewrite <- app_assoc; reflexivity).
    split; [exact B1|]. intro Q. apply andb_true_iff in Q. destruct Q as [Q1 Q2]. intros k [K|K].
    + subst k. specialize (A2 Q1). pose proof (asked_mono a l (h ++ [Ask a])). lia.
    + apply B2; assumption.
Qed.
Lemma sound_purges l : forall h m, sound h m -> sound (h ++ map Purge l) (fold_left (fun m k => fifo_purge k m) l m).
Proof.
  induction l as [|a l IH]; intros h m I; cbn [fold_left map].
  - rewrite app_nil_r. exact I.
  - replace (h ++ Purge a :: map Purge l) with ((h ++ [Purge a]) ++ map Purge l) by (rewrite <- app_assoc; reflexivity).
    apply IH. apply sound_purge. exact I.
Qed.

Lemma sound_run n thr trig entries h : forall g m, sound g m ->
  sound (g ++ history trig entries h) (snd (fifo_run n thr trig entries h m)).
Proof.
  induction h as [|e h IH]; intros g m I; cbn [history flat_map fifo_run].
  - rewrite app_nil_r. exact I.
  - rewrite app_assoc. destruct e as [l free mapped|l]; cbn [lines fifo_step].
    + destruct (below trig entries free).
      * rewrite app_nil_r. specialize (IH g m I). destruct (fifo_run n thr trig entries h m) as [b m2]. exact IH.
      * destruct (sound_asks n thr l g m I) as [A _]. destruct (fifo_asks n thr l m) as [r m1]. cbn [snd] in A.
        specialize (IH (g ++ map Ask l) m1 A). destruct (fifo_run n thr trig entries h m1) as [b m2]. exact IH.
    + pose proof (sound_purges l g m I) as A. set (m1 := fold_left (fun m k => fifo_purge k m) l m) in *.
      specialize (IH (g ++ map Purge l) m1 A). destruct (fifo_run n thr trig entries h m1) as [b m2]. exact IH.
Qed.

(** A request none of whose lines is mapped, at or above the trigger occupancy, is admitted
    only if each of its lines was asked for at least "insertion_threshold" times since it was
    last purged, this request included. *)
Theorem C29_admitted_only_partial : forall n H thr trig entries h l free s a s',
  0 < n -> 0 < H -> below trig entries free = false ->
  run n H thr trig entries h (nhit_hash_init n) = Some (a, s) ->
  step n H thr trig entries (EReq l free 0) s = Some ([true], s') ->
  forall k, In k l -> (thr <= asked k (history trig entries (h ++ [EReq l free 0])))%N.
Proof.
  intros n H thr trig entries h l free s a s' P HP B Rn St k K.
  destruct (run_ok n H thr trig entries h (nhit_hash_init n) [] P HP) as [s1 [A1 A2]].
  { exists 0. apply init_inv. exact P. }
  rewrite Rn in A1. injection A1 as A0 A1. subst s1.
  destruct (step_ok n H thr trig entries (EReq l free 0) s _ P HP A2) as [s2 [B1 _]]. rewrite St in B1.
  injection B1 as B1 _. cbn [fifo_step] in B1. rewrite B in B1.
  pose proof (sound_run n thr trig entries h [] [] ltac:(intros q c Q; discriminate Q)) as S1. cbn [app] in S1.
  destruct (sound_asks n thr l _ _ S1) as [_ S2].
  destruct (fifo_asks n thr l _) as [r m2]. cbn [fst] in *. injection B1 as B1. cbn in B1. rewrite orb_false_r in B1.
  unfold history. rewrite flat_map_app. cbn [flat_map lines]. rewrite B, app_nil_r. apply S2; [symmetry; exact B1|exact K].
Qed.

(** ** A line asked for often enough while remembered is admitted *)
Definition exact_mem (h : list lev) (m : list (key * N)) : Prop :=
  NoDup (map fst m) /\ (forall k, In k (map fst m) <-> In (Ask k) h) /\ (forall k c, fget k m = Some c -> c = asked k h).

Lemma fget_in k m : In k (map fst m) <-> exists c, fget k m = Some c.
Proof.
  induction m as [|[q d] m IH]; cbn [map fget fst In]; [split; [intros []|intros [c C]; discriminate C]|].
  destruct (keyb_spec q k) as [E|E].
  - split; [intros _; exists d; reflexivity|intros _; left; exact E].
  - rewrite <- IH. split; [intros [Q|Q]; [contradiction|exact Q]|intro Q; right; exact Q].
Qed.
Lemma map_fst_fset k c m : map fst (fset k c m) = map fst m.
Proof. unfold fset. rewrite map_map. apply map_ext. intros [q d]. cbn [fst]. destruct (keyb q k); reflexivity. Qed.

Lemma asked_len k h : (asked k h <= N.of_nat (length h))%N.
Proof.
  induction h as [|e h IH] using rev_ind; [cbn; lia|]. rewrite asked_app, app_length. cbn [length].
  destruct e as [q|q]; destruct (keyb q k); lia.
Qed.
Lemma asked_never k h : ~ In (Ask k) h -> asked k h = 0%N.
Proof.
  induction h as [|e h IH] using rev_ind; [reflexivity|]. intro NI. rewrite asked_app.
  rewrite in_app_iff in NI. specialize (IH ltac:(intro Q; apply NI; left; exact Q)).
  destruct e as [q|q]; destruct (keyb_spec q k) as [E|E]; try exact IH; [|reflexivity].
  subst q. exfalso. apply NI. right. left. reflexivity.
Qed.

Lemma exact_ask n thr k h m K : (2 <= thr)%N -> exact_mem h m ->
  (forall q, In (Ask q) (h ++ [Ask k]) -> In q K) -> length K <= n -> (N.of_nat (length (h ++ [Ask k])) < M32)%N ->
  exact_mem (h ++ [Ask k]) (snd (fifo_ask n thr k m)) /\
  fst (fifo_ask n thr k m) = (thr <=? asked k (h ++ [Ask k]))%N.
Proof.
  intros T2 [I1 [I2 I3]] KK KL LL. unfold fifo_ask.
  pose proof (asked_len k (h ++ [Ask k])) as AL. rewrite asked_app, keyb_refl in AL |- *.
  destruct (fget k m) as [c|] eqn:F; cbn [fst snd].
  - pose proof (I3 k c F) as Ec. rewrite N.mod_small by lia.
    split; [|rewrite Ec, N.add_1_r; reflexivity]. split; [rewrite map_fst_fset; exact I1|]. split.
    + intro q. rewrite map_fst_fset, I2, in_app_iff. cbn [In]. split; [intro Q; left; exact Q|].
      intros [Q|[Q|[]]]; [exact Q|]. injection Q as Q. subst q. apply I2. apply fget_in. exists c. exact F.
    + intros q d. rewrite fget_fset, asked_app. destruct (keyb_spec k q) as [E|E].
      * subst q. rewrite F. intro Q. injection Q as Q. lia.
      * apply I3.
  - assert (NI : ~ In (Ask k) h) by (rewrite <- I2, fget_in; intros [c C]; congruence).
    assert (NIm : ~ In k (map fst m)) by (rewrite I2; exact NI).
    assert (ND : NoDup (k :: map fst m)) by (constructor; assumption).
    assert (Ln : length (k :: map fst m) <= length K).
    { apply NoDup_incl_length; [exact ND|]. intros q [Q|Q]; apply KK; apply in_or_app.
      - right. left. rewrite Q. reflexivity.
      - left. apply I2. exact Q. }
    cbn [length] in Ln. rewrite map_length in Ln.
    unfold fins. rewrite firstn_all2 by (cbn [length]; lia).
    split.
    + split; [cbn [map fst]; exact ND|]. split.
      * intro q. cbn [map fst In]. rewrite I2, in_app_iff. cbn [In]. split.
        -- intros [Q|Q]; [right; left; congruence|left; exact Q].
        -- intros [Q|[Q|[]]]; [right; exact Q|left; congruence].
      * intros q d. cbn [fget]. rewrite asked_app. destruct (keyb_spec k q) as [E|E]; [|apply I3].
        intro Q. injection Q as Q. subst d q. rewrite (asked_never k h NI). reflexivity.
    + rewrite (asked_never k h NI). symmetry. apply N.leb_gt. lia.
Qed.

Lemma exact_purge k h m : exact_mem h m -> exact_mem (h ++ [Purge k]) (fifo_purge k m).
Proof.
  intros [I1 [I2 I3]]. unfold fifo_purge. split; [rewrite map_fst_fset; exact I1|]. split.
  - intro q. rewrite map_fst_fset, I2, in_app_iff. cbn [In]. split; [intro Q; left; exact Q|].
    intros [Q|[Q|[]]]; [exact Q|discriminate Q].
  - intros q d. rewrite fget_fset, asked_app. destruct (keyb_spec k q) as [E|E]; [|apply I3].
    destruct (fget q m); [|discriminate]. intro Q. injection Q as Q. symmetry. exact Q.
Qed.

Lemma asked_skip k l : forall h, ~ In k l -> asked k (h ++ map Ask l) = asked k h.
Proof.
  induction l as [|a l IH]; intros h NI; cbn [map]; [rewrite app_nil_r; reflexivity|].
  replace (h ++ Ask a :: map Ask l) with ((h ++ [Ask a]) ++ map Ask l) by (rewrite <- app_assoc; reflexivity).
  rewrite IH by (intro Q; apply NI; right; exact Q). rewrite asked_app.
  destruct (keyb_spec a k) as [E|E]; [|reflexivity]. exfalso. apply NI. left. exact E.
Qed.

Lemma exact_asks n thr K l : (2 <= thr)%N -> length K <= n -> forall h m, exact_mem h m -> NoDup l ->
  (forall q, In (Ask q) (h ++ map Ask l) -> In q K) -> (N.of_nat (length (h ++ map Ask l)) < M32)%N ->
  exact_mem (h ++ map Ask l) (snd (fifo_asks n thr l m)) /\
  fst (fifo_asks n thr l m) = forallb (fun k => thr <=? asked k (h ++ map Ask l))%N l.
Proof.
  intros T2 KL. induction l as [|a l IH]; intros h m I ND KK LL; cbn [fifo_asks map forallb].
  - rewrite app_nil_r. split; [exact I|reflexivity].
  - replace (h ++ map Ask (a :: l)) with ((h ++ [Ask a]) ++ map Ask l) in * by (rewrite <- app_assoc; reflexivity).
    replace (h ++ Ask a :: map Ask l) with ((h ++ [Ask a]) ++ map Ask l) in * by (rewrite <- app_assoc; reflexivity).
    apply NoDup_cons_iff in ND. destruct ND as [N1 N2].
    destruct (exact_ask n thr a h m K T2 I) as [A1 A2].
    { intros q Q. apply KK. apply in_or_app. left. exact Q. }
    { exact KL. }
    { rewrite app_length in LL. lia. }
    destruct (fifo_ask n thr a m) as [b m1]. cbn [fst snd] in *.
    destruct (IH (h ++ [Ask a]) m1 A1 N2 KK LL) as [B1 B2]. destruct (fifo_asks n thr l m1) as [r m2]. cbn [fst snd] in *.
    split; [exact B1|]. rewrite A2, B2, (asked_skip a l (h ++ [Ask a]) N1). reflexivity.
Qed.
Lemma exact_purges l : forall h m, exact_mem h m -> exact_mem (h ++ map Purge l) (fold_left (fun m k => fifo_purge k m) l m).
Proof.
  induction l as [|a l IH]; intros h m I; cbn [fold_left map].
  - rewrite app_nil_r. exact I.
  - replace (h ++ Purge a :: map Purge l) with ((h ++ [Purge a]) ++ map Purge l) by (rewrite <- app_assoc; reflexivity).
    apply IH. apply exact_purge. exact I.
Qed.

(** The core lines of a request are different. *)
Definition wf_ev (e : ev) : Prop := match e with EReq l _ _ => NoDup l | EPurge _ => True end.

Lemma exact_run n thr trig entries K h : (2 <= thr)%N -> length K <= n -> forall g m, exact_mem g m ->
  (forall e, In e h -> wf_ev e) -> (forall q, In (Ask q) (g ++ history trig entries h) -> In q K) ->
  (N.of_nat (length (g ++ history trig entries h)) < M32)%N ->
  exact_mem (g ++ history trig entries h) (snd (fifo_run n thr trig entries h m)).
Proof.
  intros T2 KL. induction h as [|e h IH]; intros g m I W KK LL; cbn [history flat_map fifo_run] in *.
  - rewrite app_nil_r. exact I.
  - assert (We : wf_ev e) by (apply W; left; reflexivity).
    assert (Wh : forall e, In e h -> wf_ev e) by (intros x X; apply W; right; exact X).
    rewrite app_assoc in *. destruct e as [l free mapped|l]; cbn [lines fifo_step wf_ev] in *.
    + destruct (below trig entries free).
      * rewrite app_nil_r in *. specialize (IH g m I Wh KK LL). destruct (fifo_run n thr trig entries h m) as [b m2]. exact IH.
      * destruct (exact_asks n thr K l T2 KL g m I We) as [A _].
        { intros q Q. apply KK. apply in_or_app. left. exact Q. }
        { rewrite app_length in LL. lia. }
        destruct (fifo_asks n thr l m) as [r m1]. cbn [snd] in A.
        specialize (IH (g ++ map Ask l) m1 A Wh KK LL). destruct (fifo_run n thr trig entries h m1) as [b m2]. exact IH.
    + pose proof (exact_purges l g m I) as A. set (m1 := fold_left (fun m k => fifo_purge k m) l m) in *.
      specialize (IH (g ++ map Purge l) m1 A Wh KK LL). destruct (fifo_run n thr trig entries h m1) as [b m2]. exact IH.
Qed.

(** As long as no more than n different core lines were asked for, so that none had to be
    forgotten, the decision is exact: a request without mapped lines is admitted if and only
    if each of its lines was asked for often enough.  n is twice the number of cache lines. *)
Theorem C29_exact_while_remembered : forall n H thr trig entries h l free K s a,
  0 < n -> 0 < H -> (2 <= thr)%N -> below trig entries free = false ->
  (forall e, In e (h ++ [EReq l free 0]) -> wf_ev e) ->
  length K <= n -> (forall k, In (Ask k) (history trig entries (h ++ [EReq l free 0])) -> In k K) ->
  (N.of_nat (length (history trig entries (h ++ [EReq l free 0]))) < M32)%N ->
  run n H thr trig entries h (nhit_hash_init n) = Some (a, s) ->
  exists s', step n H thr trig entries (EReq l free 0) s =
    Some ([forallb (fun k => thr <=? asked k (history trig entries (h ++ [EReq l free 0])))%N l], s').
Proof.
  intros n H thr trig entries h l free K s a P HP T2 B W KL KK LL Rn.
  destruct (run_ok n H thr trig entries h (nhit_hash_init n) [] P HP) as [s1 [A1 A2]].
  { exists 0. apply init_inv. exact P. }
  rewrite Rn in A1. injection A1 as A0 A1. subst s1.
  destruct (step_ok n H thr trig entries (EReq l free 0) s _ P HP A2) as [s2 [B1 _]].
  exists s2. rewrite B1. cbn [fifo_step]. rewrite B.
  assert (EH : history trig entries (h ++ [EReq l free 0]) = history trig entries h ++ map Ask l).
  { unfold history. rewrite flat_map_app. cbn [flat_map lines]. rewrite B, app_nil_r. reflexivity. }
  rewrite EH in *.
  assert (X : exact_mem (history trig entries h) (snd (fifo_run n thr trig entries h []))).
  { apply (exact_run n thr trig entries K h T2 KL [] []).
    - split; [constructor|]. split; [intro k; split; intros []|intros k c C; discriminate C].
    - intros e E. apply W. apply in_or_app. left. exact E.
    - intros q Q. apply KK. apply in_or_app. left. exact Q.
    - cbn [app]. rewrite app_length in LL. lia. }
  destruct (exact_asks n thr K l T2 KL _ _ X) as [_ Y]; [|exact KK|exact LL|].
  { apply (W (EReq l free 0)). apply in_or_app. right. left. reflexivity. }
  destruct (fifo_asks n thr l _) as [r m2]. cbn [fst] in *. rewrite Y. cbn. rewrite orb_false_r. reflexivity.
Qed.

(** A concrete case: 8 slots, 3 buckets, threshold 2, trigger 0; the second request for the
    same lines is admitted, after a purge it takes two more. *)
Definition kk (i : N) : key := (1%N, i).
Example C29_case :
  match run 8 3 2 0 100 [EReq [kk 1; kk 2] 100 0; EReq [kk 1; kk 2] 100 0; EPurge [kk 1; kk 2];
                         EReq [kk 1; kk 2] 100 0; EReq [kk 1; kk 2] 100 0] (nhit_hash_init 8) with
  | Some (a, _) => a = [false; true; false; true] | None => False end.
Proof. vm_compute. reflexivity. Qed.
Example C29_case_asked : asked (kk 1) (history 0 100 [EReq [kk 1; kk 2] 100 0; EReq [kk 1] 100 0]) = 2%N
  /\ below 0 100 100 = false.
Proof. split; vm_compute; reflexivity. Qed.
(** With more than n lines the oldest is forgotten. *)
Example C29_case_forgotten :
  match run 2 3 2 0 100 [EReq [kk 1] 100 0; EReq [kk 2] 100 0; EReq [kk 3] 100 0; EReq [kk 1] 100 0; EReq [kk 3] 100 0] (nhit_hash_init 2) with
  | Some (a, _) => a = [false; false; false; false; true] | None => False end.
Proof. vm_compute. reflexivity. Qed.

(** The claim without the exception for partial hits is false: a request with one mapped line
    brings in a line that was never asked for before. *)
Theorem C29_partial_hit_refuted :
  ~ (forall n H thr trig entries h l free mapped s a s',
      0 < n -> 0 < H -> below trig entries free = false ->
      run n H thr trig entries h (nhit_hash_init n) = Some (a, s) ->
      step n H thr trig entries (EReq l free mapped) s = Some ([true], s') ->
      forall k, In k l -> (thr <= asked k (history trig entries (h ++ [EReq l free mapped])))%N).
Proof.
  intro C. destruct (ask_ok 8 3 2 (kk 1) (nhit_hash_init 8) [] ltac:(lia) ltac:(lia)) as [s1 [A1 _]].
  { exists 0. apply init_inv. lia. }
  destruct (step_ok 8 3 2 0 100 (EReq [kk 1; kk 2] 100 1) (nhit_hash_init 8) [] ltac:(lia) ltac:(lia)) as [s2 [B1 _]].
  { exists 0. apply init_inv. lia. }
  specialize (C 8 3 2%N 0%N 100%N [] [kk 1; kk 2] 100%N 1%N (nhit_hash_init 8) [] s2 ltac:(lia) ltac:(lia) eq_refl eq_refl B1 (kk 2)
                ltac:(right; left; reflexivity)).
  vm_compute in C. apply C. reflexivity.
Qed.

(** Two requests for the same new line that overlap in time (both search before one of them
    inserts) are counted once: with threshold 3 the third request is not admitted. *)
Theorem C29_concurrent_refuted : exists s1 s2 s3 : nh,
  nhit_hash_query 8 3 (kk 1) (nhit_hash_init 8) = Some (None, s1) /\
  nhit_hash_query 8 3 (kk 1) s1 = Some (None, s2) /\
  core_line_should_promote 8 3 3 (kk 1) (nhit_hash_insert 8 3 (kk 1) (nhit_hash_insert 8 3 (kk 1) s2)) = Some (false, s3).
Proof.
  exists (nhit_hash_init 8), (nhit_hash_init 8). eexists.
  split; [reflexivity|]. split; [reflexivity|].
  cbv beta iota zeta delta [core_line_should_promote nhit_hash_query].
  match goal with |- context [core_line_lookup ?n ?H ?s ?k] =>
    replace (core_line_lookup n H s k) with (Some 1) by (vm_compute; reflexivity) end.
  cbn [Nat.eqb].
  match goal with |- Some (?b, _) = Some (?c, _) => replace b with c by (vm_compute; reflexivity) end.
  reflexivity.
Qed.

Print Assumptions C29_fifo.
Print Assumptions C29_admitted_only_partial.
Print Assumptions C29_exact_while_remembered.
Print Assumptions C29_partial_hit_refuted.
Print Assumptions C29_concurrent_refuted.

(** C65: one run of the cleaner. *)
From Coq Require Import List Bool Arith ZArith Lia.
From Verif Require Import CrunModel.
Import ListNotations.
Open Scope Z_scope.

(** ** Specification *)

(** What may be seen of a run: the thread's events, and from the start of the flush on, at any time, those
    of its completion. *)
Inductive shuffle : list ev -> list ev -> list ev -> Prop :=
| sh_nil : shuffle [] [] []
| sh_l : forall e a b t, shuffle a b t -> shuffle (e :: a) b (e :: t)
| sh_r : forall e a b t, shuffle a b t -> shuffle a (e :: b) (e :: t).
Definition no_flush (l : list ev) : Prop := forall ls, ~ In (Flush ls) l.
Inductive trace (p : prog) : list ev -> Prop :=
| tr_sync : no_flush (fst p) -> trace p (fst p)
| tr_async : forall pre ls post t, fst p = pre ++ Flush ls :: post -> no_flush pre -> shuffle post (snd p) t -> trace p (pre ++ Flush ls :: t).

(** d are held now: at no time is more given back than is held, and in the end nothing is held *)
Fixpoint returned (o c : ev -> bool) (d : nat) (t : list ev) : Prop :=
  match t with
  | [] => d = O
  | e :: t => if o e then returned o c (S d) t
              else if c e then match d with O => False | S d => returned o c d t end
              else returned o c d t
  end.
Definition cache_lock e := match e with CacheLock => true | _ => false end.
Definition cache_unlock e := match e with CacheUnlock => true | _ => false end.
Definition queue_get e := match e with QueueGet => true | _ => false end.
Definition queue_put e := match e with QueuePut => true | _ => false end.
Definition ref_get e := match e with RefGet => true | _ => false end.
Definition ref_put e := match e with RefPut => true | _ => false end.
Definition meta_lock e := match e with MetaLock => true | _ => false end.
Definition meta_unlock e := match e with MetaUnlock => true | _ => false end.
Definition data_alloc e := match e with DataAlloc => true | _ => false end.
Definition data_free e := match e with DataFree => true | _ => false end.
Definition line_lock l e := match e with LineLock k => Nat.eqb k l | _ => false end.
Definition line_unlock l e := match e with LineUnlock k => Nat.eqb k l | _ => false end.
Definition is_end e := match e with End _ => true | _ => false end.
Definition is_flush e := match e with Flush _ => true | _ => false end.
Definition times (f : ev -> bool) (t : list ev) : nat := length (filter f t).

(** ** Lemmas *)
Lemma times_app : forall f a b, times f (a ++ b) = (times f a + times f b)%nat.
Proof. intros. unfold times. rewrite filter_app, app_length. reflexivity. Qed.
Lemma times_cons : forall f e a, times f (e :: a) = ((if f e then 1 else 0) + times f a)%nat.
Proof. intros. unfold times. cbn [filter]. destruct (f e); reflexivity. Qed.
Lemma times_shuffle : forall f a b t, shuffle a b t -> times f t = (times f a + times f b)%nat.
Proof. intros f a b t S. induction S; [reflexivity | |]; rewrite !times_cons; lia. Qed.
Lemma shuffle_in : forall a b t e, shuffle a b t -> In e t <-> In e a \/ In e b.
Proof. intros a b t e S. induction S; cbn [In]; tauto. Qed.

Lemma returned_pre : forall o c pre t d, (forall e, In e pre -> c e = false) -> returned o c d (pre ++ t) <-> returned o c (d + times o pre) t.
Proof.
  intros o c pre t. induction pre as [| e pre IH]; intros d H; cbn [app returned].
  - unfold times. cbn. rewrite Nat.add_0_r. tauto.
  - rewrite times_cons, (H e (or_introl eq_refl)). destruct (o e); rewrite IH by (intros; apply H; right; assumption).
    + replace (S d + times o pre)%nat with (d + (1 + times o pre))%nat by lia. tauto.
    + cbn. tauto.
Qed.
Lemma returned_rest : forall o c t d, (forall e, In e t -> o e = false) -> returned o c d t <-> d = times c t.
Proof.
  intros o c. induction t as [| e t IH]; intros d H; cbn [returned]; [tauto |].
  rewrite times_cons, (H e (or_introl eq_refl)). assert (H' : forall e, In e t -> o e = false) by (intros; apply H; right; assumption).
  destruct (c e); [destruct d as [| d] |]; [split; [tauto | lia] | rewrite IH by exact H'; lia | rewrite IH by exact H'; lia].
Qed.
(** everything is taken before the flush starts and given back after it started *)
Lemma returned_async : forall o c pre ls post b t, shuffle post b t ->
  (forall e, In e pre -> c e = false) -> o (Flush ls) = false -> c (Flush ls) = false ->
  (forall e, In e post -> o e = false) -> (forall e, In e b -> o e = false) ->
  times o pre = (times c post + times c b)%nat -> returned o c 0 (pre ++ Flush ls :: t).
Proof.
  intros o c pre ls post b t S H1 H2 H3 H4 H5 E. rewrite returned_pre by exact H1. cbn [returned]. rewrite H2, H3.
  apply returned_rest; [intros e I; apply (shuffle_in _ _ _ _ S) in I; destruct I; auto |].
  rewrite (times_shuffle _ _ _ _ S). lia.
Qed.

(** the shapes of a run: without a flush, or with one *)
Inductive shape (v : view) : prog -> Prop :=
| s_end : shape v ([End SLEEP], [])
| s_inactive : shape v ([CacheLock; CacheUnlock; End SLEEP], [])
| s_frozen : shape v ([CacheLock; QueueGet; CacheUnlock; QueuePut; End RETRY], [])
| s_sync : forall mid ms, mid = [] \/ mid = [MetaLock; MetaUnlock] \/ mid = [MetaLock; DataAlloc; MetaUnlock; DataFree] ->
    shape v ([CacheLock; QueueGet; RefGet] ++ mid ++ [CacheUnlock; QueuePut; End ms; RefPut], [])
| s_alru : forall a ls, pol v = Alru a -> ls <> [] ->
    shape v ([CacheLock; QueueGet; RefGet; MetaLock; DataAlloc] ++ Flush ls :: [MetaUnlock; RefPut], [DataFree; CacheUnlock; QueuePut; End 0])
| s_acp : forall a s ls, pol v = Acp a s -> ls <> [] ->
    shape v (([CacheLock; QueueGet; RefGet] ++ map LineLock ls) ++ Flush ls :: [RefPut], map LineUnlock ls ++ [CacheUnlock; QueuePut; End (a_wakeup a)]).

Lemma run_shape : forall v, shape v (cleaner_run v).
Proof.
  intro v. unfold cleaner_run. destruct (negb (running v) || seen_locked v); [constructor |]. destruct (standby v); [constructor |].
  destruct (lock_ok v); cbn [negb]; [| constructor]. destruct (dirty_inactive v); [constructor |].
  unfold perform_cleaning. destruct (ref_ok v); cbn [negb]; [| apply s_frozen].
  unfold and_then, seq_ev, perform, alru_clean. destruct (pol v) as [| a | a s] eqn:P; cbn [fst snd].
  - apply (s_sync v [] DISABLE). auto.
  - destruct (is_cleanup_possible a) as [can ex]. destruct can; cbn [negb]; [| apply (s_sync v [] (wakeup a * 1000)); auto].
    destruct (meta_free a); cbn [negb]; [| apply (s_sync v [] (wakeup a * 1000)); auto].
    destruct (data_ok a); cbn [negb]; [| apply (s_sync v [MetaLock; MetaUnlock] (wakeup a * 1000)); auto].
    destruct (Nat.ltb_spec 0 (length (get_data_to_flush a ex))) as [L | L].
    + apply (s_alru v a (get_data_to_flush a ex) P). intro E. rewrite E in L. cbn in L. lia.
    + apply (s_sync v [MetaLock; DataAlloc; MetaUnlock; DataFree] (wakeup a * 1000)). auto.
  - unfold acp_clean. set (start := if in_progress s then _ else _). destruct start as [[c i] |]; cbn [snd fst].
    2: { apply (s_sync v [] ACP_BACKOFF). auto. }
    destruct (prepare a (c + i) (per_chunk a - i) (a_max a)) as [tried ls]. cbn [snd]. destruct ls as [| l ls].
    + apply (s_sync v [] (a_wakeup a)). auto.
    + cbn [fst snd]. pose proof (s_acp v a s (l :: ls) P) as A. unfold acp_flush_end, run_complete.
      replace ([CacheLock; QueueGet] ++ ([RefGet] ++ map LineLock (l :: ls) ++ [Flush (l :: ls)]) ++ [RefPut])
        with (([CacheLock; QueueGet; RefGet] ++ map LineLock (l :: ls)) ++ Flush (l :: ls) :: [RefPut]).
      * apply A. discriminate.
      * cbn [app]. rewrite <- !app_assoc. reflexivity.
Qed.

Lemma flush_split : forall pre ls post pre' ls' post', no_flush pre -> no_flush pre' ->
  pre ++ Flush ls :: post = pre' ++ Flush ls' :: post' -> pre = pre' /\ ls = ls' /\ post = post'.
Proof.
  induction pre as [| e pre IH]; intros ls post pre' ls' post' N N' E; destruct pre' as [| e' pre']; cbn [app] in E.
  - injection E. auto.
  - injection E as E1 E2. subst e'. exfalso. apply (N' ls). left. reflexivity.
  - injection E as E1 E2. subst e. exfalso. apply (N ls'). left. reflexivity.
  - injection E as E1 E2. subst e'. apply IH in E2; [destruct E2 as (-> & -> & ->); auto | |].
    + intros x X. apply (N x). right. exact X.
    + intros x X. apply (N' x). right. exact X.
Qed.
Lemma no_flush_locks : forall ls, no_flush ([CacheLock; QueueGet; RefGet] ++ map LineLock ls).
Proof. intros ls x [X | [X | [X | X]]]; try discriminate. apply in_map_iff in X. destruct X as (y & Y & _). discriminate. Qed.

(** the traces of a run *)
Inductive seen (v : view) : list ev -> Prop :=
| n_end : seen v [End SLEEP]
| n_inactive : seen v [CacheLock; CacheUnlock; End SLEEP]
| n_frozen : seen v [CacheLock; QueueGet; CacheUnlock; QueuePut; End RETRY]
| n_sync : forall mid ms, mid = [] \/ mid = [MetaLock; MetaUnlock] \/ mid = [MetaLock; DataAlloc; MetaUnlock; DataFree] ->
    seen v ([CacheLock; QueueGet; RefGet] ++ mid ++ [CacheUnlock; QueuePut; End ms; RefPut])
| n_alru : forall a ls t, pol v = Alru a -> ls <> [] -> shuffle [MetaUnlock; RefPut] [DataFree; CacheUnlock; QueuePut; End 0] t ->
    seen v ([CacheLock; QueueGet; RefGet; MetaLock; DataAlloc] ++ Flush ls :: t)
| n_acp : forall a s ls t, pol v = Acp a s -> ls <> [] -> shuffle [RefPut] (map LineUnlock ls ++ [CacheUnlock; QueuePut; End (a_wakeup a)]) t ->
    seen v (([CacheLock; QueueGet; RefGet] ++ map LineLock ls) ++ Flush ls :: t).
Lemma trace_seen : forall v t, trace (cleaner_run v) t -> seen v t.
Proof.
  intros v t T. pose proof (run_shape v) as S. destruct T as [NF | pre ls post t E NF SH].
  - destruct S; cbn [fst] in *; try (constructor; assumption).
    + exfalso. apply (NF ls). apply in_or_app. right. left. reflexivity.
    + exfalso. apply (NF ls). apply in_or_app. right. left. reflexivity.
  - assert (F : In (Flush ls) (fst (cleaner_run v))) by (rewrite E; apply in_or_app; right; left; reflexivity).
    destruct S as [ | | | mid ms M | a l P L | a s l P L]; cbn [fst snd] in *.
    + destruct F as [F | []]; discriminate.
    + destruct F as [F | [F | [F | []]]]; discriminate.
    + destruct F as [F | [F | [F | [F | [F | []]]]]]; discriminate.
    + exfalso. destruct M as [-> | [-> | ->]]; cbn in F; intuition discriminate.
    + apply flush_split in E; [| intros x X; cbn in X; intuition discriminate | exact NF]. destruct E as (<- & <- & <-). apply (n_alru v a); assumption.
    + apply flush_split in E; [| apply no_flush_locks | exact NF]. destruct E as (<- & <- & <-). apply (n_acp v a s); assumption.
Qed.

Lemma times_locks : forall l ls, times (line_lock l) (map LineLock ls) = times (line_unlock l) (map LineUnlock ls).
Proof. intros l ls. induction ls as [| k ls IH]; [reflexivity |]. cbn [map]. rewrite !times_cons, IH. reflexivity. Qed.
Lemma times_none : forall f t, (forall e, In e t -> f e = false) -> times f t = 0%nat.
Proof. intros f t H. induction t as [| e t IH]; [reflexivity |]. rewrite times_cons, (H e (or_introl eq_refl)), IH; [reflexivity |]. intros; apply H; right; assumption. Qed.

Ltac inlist := let e := fresh "e" in let I := fresh "I" in intros e I; repeat (apply in_app_or in I; destruct I as [I | I]);
  try (apply in_map_iff in I; destruct I as (? & <- & ?); reflexivity); cbn [In] in I; repeat (destruct I as [<- | I]; [reflexivity |]); contradiction.

(** ** C65 *)

(** Whatever happens, end is called exactly once, and the cache lock, the queue, the reference on the
    cleaner, the metadata lock, the array and every cache line lock are given back exactly as often as
    they were taken, never before. *)
Theorem C65_balanced : forall v t, trace (cleaner_run v) t ->
  times is_end t = 1%nat /\
  returned cache_lock cache_unlock 0 t /\ returned queue_get queue_put 0 t /\ returned ref_get ref_put 0 t /\
  returned meta_lock meta_unlock 0 t /\ returned data_alloc data_free 0 t /\
  forall l, returned (line_lock l) (line_unlock l) 0 t.
Proof.
  intros v t T. apply trace_seen in T. destruct T as [ | | | mid ms M | a ls t P L S | a s ls t P L S].
  - repeat split.
  - repeat split.
  - repeat split.
  - destruct M as [-> | [-> | ->]]; repeat split.
  - split; [rewrite times_app, !times_cons, (times_shuffle _ _ _ _ S); reflexivity |].
    repeat match goal with |- _ /\ _ => split end; intros; (apply (returned_async _ _ _ _ _ _ _ S); [inlist | reflexivity | reflexivity | inlist | inlist | reflexivity]).
  - split.
    { rewrite !times_app, !times_cons, (times_shuffle _ _ _ _ S), !times_app.
      rewrite (times_none is_end (map LineLock ls)) by inlist. rewrite (times_none is_end (map LineUnlock ls)) by inlist. reflexivity. }
    repeat match goal with |- _ /\ _ => split end; intros;
      (apply (returned_async _ _ _ _ _ _ _ S); [inlist | reflexivity | reflexivity | inlist | inlist |]);
      rewrite !times_app, ?times_locks; try (rewrite (times_none _ (map LineLock ls)) by inlist; rewrite (times_none _ (map LineUnlock ls)) by inlist); try reflexivity.
    cbn. lia.
Qed.

(** Once the cache lock is given back only the queue, the references and the metadata lock are left to
    give back. *)
Theorem C65_after_unlock : forall v t a b, trace (cleaner_run v) t -> t = a ++ CacheUnlock :: b ->
  forall e, In e b -> e = QueuePut \/ e = RefPut \/ e = MetaUnlock \/ exists ms, e = End ms.
Proof.
  assert (SPL : forall e x y a b, x ++ e :: y = a ++ CacheUnlock :: b -> ~ In CacheUnlock x -> (e = CacheUnlock /\ b = y) \/ exists a', y = a' ++ CacheUnlock :: b).
  { intros e x. induction x as [| h x IH]; intros y a b E N; destruct a as [| k a]; cbn [app] in E.
    - injection E as -> ->. left. auto.
    - injection E as -> ->. right. exists a. reflexivity.
    - injection E as -> E. exfalso. apply N. left. reflexivity.
    - injection E as -> E. apply (IH y a b E). intro X. apply N. right. exact X. }
  assert (GOOD : forall (l : list ev), forallb (fun e => match e with QueuePut | RefPut | MetaUnlock | End _ => true | _ => false end) l = true ->
            forall e, In e l -> e = QueuePut \/ e = RefPut \/ e = MetaUnlock \/ exists ms, e = End ms).
  { intros l F e I. rewrite forallb_forall in F. specialize (F e I). destruct e; try discriminate; eauto. }
  assert (SH : forall post c d, forallb (fun e => match e with QueuePut | RefPut | MetaUnlock | End _ => true | _ => false end) post = true ->
            forallb (fun e => match e with QueuePut | RefPut | MetaUnlock | End _ => true | _ => false end) d = true ->
            ~ In CacheUnlock c -> ~ In CacheUnlock post ->
            forall t, shuffle post (c ++ CacheUnlock :: d) t -> forall a b, t = a ++ CacheUnlock :: b ->
            forallb (fun e => match e with QueuePut | RefPut | MetaUnlock | End _ => true | _ => false end) b = true).
  { intros post c d FP FD NC NP t S. remember (c ++ CacheUnlock :: d) as cd eqn:CD. revert c CD NC.
    induction S as [| e x y t S IH | e x y t S IH]; intros c CD NC a b E.
    - destruct c; discriminate.
    - destruct a as [| k a]; cbn [app] in E; injection E as -> E.
      + exfalso. apply NP. left. reflexivity.
      + cbn [forallb] in FP. apply andb_true_iff in FP. apply (IH (proj2 FP)) with (c := c) (a := a); auto. intro X. apply NP. right. exact X.
    - destruct c as [| k c]; cbn [app] in CD; injection CD as -> CD.
      + subst y. assert (ALL : forallb (fun e => match e with QueuePut | RefPut | MetaUnlock | End _ => true | _ => false end) t = true).
        { apply forallb_forall. intros z Z. apply (shuffle_in _ _ _ z S) in Z. destruct Z as [Z | Z].
          - rewrite forallb_forall in FP. apply (FP z Z).
          - rewrite forallb_forall in FD. apply (FD z Z). }
        destruct a as [| k a]; cbn [app] in E; [injection E as E2 | injection E as E1 E2].
        * subst b. exact ALL.
        * exfalso. rewrite E2 in ALL. rewrite forallb_app in ALL. cbn [forallb] in ALL. rewrite andb_false_r in ALL. discriminate.
      + destruct a as [| k' a]; cbn [app] in E; injection E as E1 E2.
        * exfalso. apply NC. left. exact E1.
        * apply (IH FP NP c CD) with (a := a); auto. intro X. apply NC. right. exact X. }
  intros v t a b T E. apply trace_seen in T. destruct T as [ | | | mid ms M | al ls t P L S | ac s ls t P L S].
  - destruct a as [| ? [|]]; discriminate.
  - destruct a as [| ? [| ? [| ? [|]]]]; try discriminate. injection E as _ E. subst b. intros z I. apply (GOOD [End SLEEP] eq_refl z I).
  - destruct a as [| ? [| ? [| ? [| ? [| ? [|]]]]]]; try discriminate. injection E as _ _ E. subst b. intros z I. apply (GOOD [QueuePut; End RETRY] eq_refl z I).
  - assert (X : exists x, [CacheLock; QueueGet; RefGet] ++ mid ++ [CacheUnlock; QueuePut; End ms; RefPut] = x ++ CacheUnlock :: [QueuePut; End ms; RefPut] /\ ~ In CacheUnlock x).
    { exists ([CacheLock; QueueGet; RefGet] ++ mid). rewrite <- app_assoc. split; [reflexivity |]. destruct M as [-> | [-> | ->]]; cbn; intuition discriminate. }
    destruct X as (x & X & N). rewrite X in E. destruct (SPL _ _ _ _ _ E N) as [[_ ->] | (a' & A)].
    + intros z I. apply (GOOD [QueuePut; End ms; RefPut] eq_refl z I).
    + destruct a' as [| ? [| ? [| ? [|]]]]; discriminate.
  - intros z I. destruct (SPL _ _ _ _ _ E) as [[X _] | (a' & A)]; [cbn; intuition discriminate | discriminate |].
    apply (GOOD b); [| exact I]. apply (SH [MetaUnlock; RefPut] [DataFree] [QueuePut; End 0] eq_refl eq_refl) with (t := t) (a := a'); auto; cbn; intuition discriminate.
  - intros z I. destruct (SPL _ _ _ _ _ E) as [[X _] | (a' & A)]; [| discriminate |].
    + rewrite in_app_iff, in_map_iff. cbn. intros [X | (y & Y & _)]; [intuition discriminate | discriminate].
    + apply (GOOD b); [| exact I]. apply (SH [RefPut] (map LineUnlock ls) [QueuePut; End (a_wakeup ac)] eq_refl eq_refl) with (t := t) (a := a'); auto.
      * rewrite in_map_iff. intros (y & Y & _). discriminate.
      * cbn. intuition discriminate.
Qed.

(** Lines are flushed only if the cache runs, is not in standby, no management operation holds or waits for it, and if
    cores are missing then a core that is there is dirty; the flush is never empty. *)
Theorem C65_when : forall v t ls, trace (cleaner_run v) t -> In (Flush ls) t ->
  running v = true /\ seen_locked v = false /\ standby v = false /\ lock_ok v = true /\ ref_ok v = true /\
  (incomplete v = true -> exists c, In c (cores v) /\ fst c = true /\ snd c = true) /\ ls <> [].
Proof.
  intros v t ls T F.
  assert (N : ls <> []).
  { pose proof (trace_seen v t T) as S. destruct S as [ | | | mid ms M | a l t P L S | a s l t P L S].
    - destruct F as [F | []]; discriminate.
    - cbn in F; intuition discriminate.
    - cbn in F; intuition discriminate.
    - destruct M as [-> | [-> | ->]]; cbn in F; intuition discriminate.
    - apply in_app_or in F. destruct F as [F | [F | F]]; [cbn in F; intuition discriminate | congruence |].
      apply (shuffle_in _ _ _ _ S) in F. cbn in F. intuition discriminate.
    - apply in_app_or in F. destruct F as [F | [F | F]]; [exfalso; eapply no_flush_locks; exact F | congruence |].
      apply (shuffle_in _ _ _ _ S) in F. rewrite in_app_iff, in_map_iff in F. cbn in F. destruct F as [F | [(y & Y & _) | F]]; intuition discriminate. }
  assert (FP : In (Flush ls) (fst (cleaner_run v)) \/ In (Flush ls) (snd (cleaner_run v))).
  { destruct T as [NF | pre l post t E NF S]; [left; exact F |]. rewrite E. rewrite in_app_iff in *. cbn [In] in *.
    rewrite (shuffle_in _ _ _ _ S) in F. tauto. }
  clear F T. unfold cleaner_run in FP.
  destruct (running v); cbn [negb orb] in FP; [| cbn in FP; intuition discriminate].
  destruct (seen_locked v); [cbn in FP; intuition discriminate |]. destruct (standby v); [cbn in FP; intuition discriminate |].
  destruct (lock_ok v); cbn [negb] in FP; [| cbn in FP; intuition discriminate].
  unfold dirty_inactive in FP. destruct (incomplete v) eqn:IC; cbn [negb] in FP.
  - destruct (existsb (fun c => fst c && snd c) (cores v)) eqn:EX; cbn [negb] in FP; [| cbn in FP; intuition discriminate].
    unfold perform_cleaning in FP. destruct (ref_ok v); cbn [negb] in FP; [| cbn in FP; intuition discriminate].
    repeat split; auto. intros _. apply existsb_exists in EX. destruct EX as (c & C & X). apply andb_true_iff in X. exists c. tauto.
  - unfold perform_cleaning in FP. destruct (ref_ok v); cbn [negb] in FP; [| cbn in FP; intuition discriminate].
    repeat split; auto. discriminate.
Qed.

(** *** ALRU *)
(** lines older than the limit, from the tail of the list of a class *)
Fixpoint older (limit : Z) (ls : list line) : list line :=
  match ls with [] => [] | l :: ls => if stamp l <? limit then l :: older limit ls else [] end.
Definition idle (l : line) : bool := core_open l && negb (in_use l).
Definition wanted (limit : Z) (lss : list (list line)) : list nat := map lid (concat (map (fun ls => filter idle (older limit ls)) lss)).

Lemma take_list_spec : forall limit ls n, take_list limit n ls = (firstn n (map lid (filter idle (older limit ls))), snd (take_list limit n ls)) /\
  (snd (take_list limit n ls) = true -> length (fst (take_list limit n ls)) = n) /\
  (snd (take_list limit n ls) = false -> fst (take_list limit n ls) = map lid (filter idle (older limit ls))).
Proof.
  intros limit ls. induction ls as [| l ls IH]; intro n; cbn [take_list older].
  - cbn. rewrite firstn_nil. repeat split; auto. discriminate.
  - destruct (Z.leb_spec limit (stamp l)) as [L | L]; destruct (Z.ltb_spec (stamp l) limit) as [L' | L']; try lia.
    + cbn. rewrite firstn_nil. repeat split; auto. discriminate.
    + destruct n as [| m].
      * cbn [firstn fst snd]. repeat split; auto. discriminate.
      * cbn [filter]. replace (idle l) with (core_open l && negb (in_use l)) by reflexivity. unfold block_is_busy. destruct (core_open l); cbn [negb orb andb]; [destruct (in_use l); cbn [negb] |].
        -- exact (IH (S m)).
        -- destruct (IH m) as (A & B & C). destruct (take_list limit m ls) as [r e]. cbn [fst snd] in *. injection A as A. subst r. cbn [map firstn length].
           split; [reflexivity |]. split; intro X; [rewrite (B X); reflexivity | rewrite (C X); reflexivity].
        -- exact (IH (S m)).
Qed.

Lemma take_lists_spec : forall limit lss n, take_lists limit n lss = firstn n (wanted limit lss).
Proof.
  intros limit lss. induction lss as [| ls lss IH]; intro n; cbn [take_lists]; [unfold wanted; cbn; rewrite firstn_nil; reflexivity |].
  destruct (take_list_spec limit ls n) as (A & B & C). destruct (take_list limit n ls) as [r e]. cbn [fst snd] in *. injection A as A.
  unfold wanted. cbn [map concat]. rewrite map_app, firstn_app. destruct e.
  - pose proof (B eq_refl) as LN. rewrite <- A. rewrite A in LN. rewrite firstn_length in LN. rewrite map_length in *.
    replace (n - length (filter idle (older limit ls)))%nat with 0%nat by lia. cbn [firstn]. rewrite app_nil_r. reflexivity.
  - rewrite IH. rewrite <- A. specialize (C eq_refl). f_equal. rewrite C. rewrite map_length. reflexivity.
Qed.

(** ALRU takes, class by class and oldest first, the unused lines of open cores that are older than the
    limit, up to flush_max_buffers. *)
Theorem C65_alru_chosen : forall a exceeded,
  get_data_to_flush a exceeded = firstn (max_buffers a) (wanted (if exceeded then 2 ^ 32 - 1 else compute_timestamp a) (lists a)).
Proof. intros. apply take_lists_spec. Qed.

(** in a list ordered by time nothing older is behind what is not *)
Fixpoint ordered (ls : list line) : Prop := match ls with [] => True | l :: r => (forall k, In k r -> stamp l <= stamp k) /\ ordered r end.
Theorem C65_alru_complete : forall limit ls, ordered ls -> older limit ls = filter (fun l => stamp l <? limit) ls.
Proof.
  intros limit ls. induction ls as [| l ls IH]; intro O; [reflexivity |]. destruct O as [O1 O2]. cbn [older filter]. destruct (Z.ltb_spec (stamp l) limit); [rewrite IH by exact O2; reflexivity |].
  symmetry. clear IH O2. induction ls as [| k ls IH]; [reflexivity |]. cbn [filter]. destruct (Z.ltb_spec (stamp k) limit) as [L | L].
  - pose proof (O1 k (or_introl eq_refl)). lia.
  - apply IH. intros x X. apply O1. right. exact X.
Qed.

Lemma older_in : forall limit ls l, In l (older limit ls) -> In l ls /\ stamp l < limit.
Proof.
  intros limit ls. induction ls as [| k ls IH]; intros l I; cbn [older] in I; [contradiction |].
  destruct (Z.ltb_spec (stamp k) limit); [| contradiction]. destruct I as [<- | I]; [split; [left; reflexivity | assumption] |]. apply IH in I. cbn [In]. tauto.
Qed.
Lemma chosen_in : forall a ex l, In l (get_data_to_flush a ex) ->
  exists k ls, In ls (lists a) /\ In k ls /\ lid k = l /\ core_open k = true /\ in_use k = false /\ stamp k < (if ex then 2 ^ 32 - 1 else compute_timestamp a).
Proof.
  intros a ex l I. rewrite C65_alru_chosen in I.
  assert (I' : In l (wanted (if ex then 2 ^ 32 - 1 else compute_timestamp a) (lists a))).
  { rewrite <- (firstn_skipn (max_buffers a)). apply in_or_app. left. exact I. }
  unfold wanted in I'. apply in_map_iff in I'. destruct I' as (k & E & K). apply in_concat in K. destruct K as (x & X & K).
  apply in_map_iff in X. destruct X as (ls & <- & LS). apply filter_In in K. destruct K as [K D]. apply older_in in K. destruct K as [K S].
  apply andb_true_iff in D. destruct D as [D1 D2]. apply negb_true_iff in D2. exists k, ls. auto 10.
Qed.

(** A flushed line belongs to an open core and is not in use; unless too much is dirty it was not used for longer than
    stale_buffer_time, the user's I/O rests for at least activity_threshold and the last pass that found
    nothing lies more than thread_wakeup_time back - if the machine runs that long, and the clocks fit. *)
Theorem C65_alru_rest : forall a ls l, In (Flush ls) (fst (alru_clean a)) -> In l ls ->
  0 < hz a -> 0 <= stale a -> stale a * hz a <= now a < 2 ^ 64 -> now a * 1000 / hz a < 2 ^ 32 ->
  0 <= last_ms a <= now a * 1000 / hz a -> 0 <= thread_access a <= now a / hz a ->
  (length ls <= max_buffers a)%nat /\
  exists k cls, In cls (lists a) /\ In k cls /\ lid k = l /\ core_open k = true /\ in_use k = false /\
  (ratio_exceeded a = false ->
     stamp k + stale a < now a / hz a /\ threshold a <= now a * 1000 / hz a - last_ms a /\ wakeup a < now a / hz a - thread_access a).
Proof.
  intros a ls l F L HZ ST NW MS LM TA. unfold alru_clean in F.
  assert (SEC : 0 <= now a / hz a < 2 ^ 32).
  { split; [apply Z.div_pos; nia |]. apply Z.le_lt_trans with (now a * 1000 / hz a); [| exact MS]. apply Z.div_le_mono; nia. }
  assert (TS : compute_timestamp a = now a / hz a - stale a).
  { unfold compute_timestamp. rewrite (Z.mod_small (now a - stale a * hz a)) by nia.
    replace (now a - stale a * hz a) with (now a + (- stale a) * hz a) by ring. rewrite Z.div_add by lia.
    assert (0 <= now a / hz a - stale a).
    { assert (stale a <= now a / hz a) by (apply Z.div_le_lower_bound; nia). lia. }
    rewrite Z.mod_small by lia. lia. }
  unfold is_cleanup_possible in F.
  destruct (ratio_exceeded a) eqn:RE.
  - cbn [negb] in F. destruct (meta_free a), (data_ok a); cbn [negb] in F; try (cbn in F; intuition discriminate).
    destruct (0 <? length (get_data_to_flush a true))%nat; [| cbn in F; intuition discriminate].
    cbn [fst In] in F. destruct F as [F | [F | [F | [F | []]]]]; try discriminate. injection F as <-.
    split; [rewrite C65_alru_chosen, firstn_length; lia |].
    destruct (chosen_in a true l L) as (k & cls & A & B & C & D & E & _). exists k, cls. repeat split; auto; discriminate.
  - destruct (io_activity a) eqn:IO; [cbn in F; intuition discriminate |].
    destruct (clean_later a) eqn:CL; [cbn in F; intuition discriminate |].
    destruct (max_buffers a =? 0)%nat; [cbn in F; intuition discriminate |].
    cbn [negb] in F. destruct (meta_free a), (data_ok a); cbn [negb] in F; try (cbn in F; intuition discriminate).
    destruct (0 <? length (get_data_to_flush a false))%nat; [| cbn in F; intuition discriminate].
    cbn [fst In] in F. destruct F as [F | [F | [F | [F | []]]]]; try discriminate. injection F as <-.
    split; [rewrite C65_alru_chosen, firstn_length; lia |].
    destruct (chosen_in a false l L) as (k & cls & A & B & C & D & E & S). exists k, cls. repeat split; auto.
    + rewrite TS in S. lia.
    + unfold io_activity in IO. apply Z.ltb_ge in IO. rewrite (Z.mod_small (now a * 1000 / hz a)) in IO by lia.
      rewrite Z.mod_small in IO by lia. exact IO.
    + unfold clean_later in CL. apply Z.leb_gt in CL. rewrite Z.mod_small in CL by lia. exact CL.
Qed.

(** Before the machine ran for stale_buffer_time the limit wraps: a line used this second is flushed. *)
Definition boot : alru :=
  {| wakeup := 20; stale := 120; max_buffers := 100; threshold := 10000; hz := 1000; now := 100000; last_ms := 90000; thread_access := 0;
     lists := [[{| lid := 5; stamp := 100; core_open := true; in_use := false |}]]; meta_free := true; data_ok := true; ratio_exceeded := false |}.
Theorem C65_stale_refuted : exists a l k, 0 < hz a /\ In k (concat (lists a)) /\ stamp k = now a / hz a /\ 0 < stale a /\
  ratio_exceeded a = false /\ In (Flush [l]) (fst (alru_clean a)) /\ lid k = l.
Proof.
  exists boot, 5%nat, {| lid := 5; stamp := 100; core_open := true; in_use := false |}. split; [reflexivity |]. split; [left; reflexivity |].
  split; [reflexivity |]. split; [reflexivity |]. split; [reflexivity |]. split; [vm_compute; auto | reflexivity].
Qed.

(** After a flush the next pass follows at once, otherwise after thread_wakeup_time seconds. *)
Theorem C65_alru_pause : forall a,
  ((exists ls, In (Flush ls) (fst (alru_clean a))) /\ forall ms, In (End ms) (fst (alru_clean a) ++ snd (alru_clean a)) -> ms = 0) \/
  (no_flush (fst (alru_clean a)) /\ forall ms, In (End ms) (fst (alru_clean a) ++ snd (alru_clean a)) -> ms = wakeup a * 1000).
Proof.
  intro a. unfold alru_clean. destruct (is_cleanup_possible a) as [can ex].
  destruct can; [destruct (meta_free a); [destruct (data_ok a); [destruct (0 <? length (get_data_to_flush a ex))%nat |] |] |]; cbn [negb];
    [left; split; [exists (get_data_to_flush a ex); cbn; auto |] | right; split | right; split | right; split | right; split];
    try (intros ls F; cbn in F; intuition discriminate); intros ms F; cbn [fst snd alru_complete run_complete app In] in F;
    repeat (destruct F as [F | F]; [try discriminate; injection F as <-; reflexivity |]); contradiction.
Qed.

(** *** ACP *)
Lemma prepare_spec : forall a fuel c n, let (tried, ls) := prepare a c fuel n in
  tried = seq c (length tried) /\ (length tried <= fuel)%nat /\ (length ls <= n)%nat /\
  (length tried < fuel -> length ls = n)%nat /\ ls = concat (map (fun x => match trylock a x with Some l => [l] | None => [] end) tried).
Proof.
  intro a. induction fuel as [| f IH]; intros c n; cbn [prepare].
  - repeat split; auto; cbn; lia.
  - destruct n as [| m]; [repeat split; cbn; auto; lia |]. destruct (trylock a c) as [l |] eqn:T.
    + specialize (IH (S c) m). destruct (prepare a (S c) f m) as [t ls]. destruct IH as (A & B & C & D & E). cbn [length seq map concat].
      rewrite T. cbn [app]. rewrite <- E, <- A. repeat split; auto; lia.
    + specialize (IH (S c) (S m)). destruct (prepare a (S c) f (S m)) as [t ls]. destruct IH as (A & B & C & D & E). cbn [length seq map concat].
      rewrite T. cbn [app]. rewrite <- E, <- A. repeat split; auto; try lia.
Qed.

(** ACP runs, one after the other; the list gives what each sees; the chunk stays in work until its end *)
Fixpoint rounds (as_ : list acp) (s : acp_state) : acp_state * list nat :=
  match as_ with
  | [] => (s, [])
  | a :: r => let '(s', tried, _) := acp_clean a s in let (s'', t) := rounds r s' in (s'', tried ++ t)
  end.
Fixpoint busy (as_ : list acp) (s : acp_state) : Prop :=
  match as_ with
  | [] => True
  | a :: r => let '(s', _, _) := acp_clean a s in match r with [] => True | _ => in_progress s' = true end /\ busy r s'
  end.

Lemma rounds_from : forall as_ s n, (forall a, In a as_ -> per_chunk a = n) -> in_progress s = true -> (iter s < n)%nat -> busy as_ s ->
  let (s', t) := rounds as_ s in chunk s' = chunk s /\ (iter s <= iter s' <= n)%nat /\ t = seq (chunk s + iter s) (iter s' - iter s) /\
  (in_progress s' = true <-> iter s' <> n).
Proof.
  induction as_ as [| a r IH]; intros s n H P L B; cbn [rounds].
  - repeat split; auto; try lia. rewrite Nat.sub_diag. reflexivity.
  - cbn [busy] in B. unfold acp_clean in *. rewrite P in *.
    pose proof (prepare_spec a (per_chunk a - iter s) (chunk s + iter s) (a_max a)) as PS.
    destruct (prepare a (chunk s + iter s) (per_chunk a - iter s) (a_max a)) as [tried ls]. destruct PS as (A & C & _).
    rewrite (H a (or_introl eq_refl)) in *. set (s1 := {| chunk := chunk s; iter := (iter s + length tried)%nat; in_progress := negb (iter s + length tried =? n)%nat |}) in *.
    destruct B as [B1 B2].
    assert (PI : in_progress s1 = true <-> iter s1 <> n).
    { cbn. destruct (Nat.eqb_spec (iter s + length tried) n); cbn; intuition (try discriminate; try lia). }
    destruct r as [| a2 r].
    + cbn [rounds]. cbn [s1 chunk iter]. rewrite app_nil_r. repeat split; auto; try lia; try apply PI.
      rewrite A at 1. f_equal. lia.
    + assert (L1 : (iter s1 < n)%nat) by (apply PI in B1; cbn in *; lia).
      specialize (IH s1 n (fun x X => H x (or_intror X)) B1 L1 B2).
      destruct (rounds (a2 :: r) s1) as [s' t]. destruct IH as (I1 & I2 & I3 & I4). cbn [s1 chunk iter] in *.
      repeat split; auto; try lia; try apply I4.
      rewrite I3. rewrite A at 1. replace (chunk s + (iter s + length tried))%nat with (chunk s + iter s + length tried)%nat by lia. rewrite <- seq_app.
      f_equal. lia.
Qed.

(** From the run that picks a chunk on, over any number of runs, whatever lines are there, dirty or
    locked at each of them: the core lines of the chunk are tried in order, each once, and it is left
    only when all were tried. *)
Theorem C65_acp_round : forall a r s c n, in_progress s = false -> candidate a = Some c -> (0 < n)%nat ->
  (forall x, In x (a :: r) -> per_chunk x = n) -> busy (a :: r) s ->
  let (s', t) := rounds (a :: r) s in
  chunk s' = c /\ (iter s' <= n)%nat /\ t = seq c (iter s') /\ (in_progress s' = false <-> t = seq c n).
Proof.
  intros a r s c n P C N H B. pose proof (rounds_from (a :: r) {| chunk := c; iter := 0; in_progress := true |} n H eq_refl N) as R.
  assert (E : acp_clean a s = acp_clean a {| chunk := c; iter := 0; in_progress := true |}) by (unfold acp_clean; rewrite P, C; reflexivity).
  cbn [busy rounds] in *. rewrite E in *. specialize (R B). destruct (acp_clean a {| chunk := c; iter := 0; in_progress := true |}) as [[s1 t1] p1].
  destruct (rounds r s1) as [s' t]. cbn [chunk iter] in R. destruct R as (R1 & R2 & R3 & R4). rewrite Nat.add_0_r, Nat.sub_0_r in R3.
  repeat split; auto; try lia.
  - intro X. rewrite R3. f_equal. destruct (Nat.eq_dec (iter s') n) as [D | D]; [exact D |]. apply R4 in D. congruence.
  - intro X. rewrite R3 in X. apply (f_equal (@length nat)) in X. rewrite !seq_length in X. destruct (in_progress s') eqn:D; [| reflexivity].
    exfalso. apply R4 in X; auto.
Qed.

(** Of the lines tried those are flushed that are dirty and could be locked, at most flush_max_buffers; and with that
    at least 1 every run gets on. *)
Theorem C65_acp_flush : forall a s, let '(s', tried, p) := acp_clean a s in
  (forall ls, In (Flush ls) (fst p) -> ls = concat (map (fun x => match trylock a x with Some l => [l] | None => [] end) tried) /\ (length ls <= a_max a)%nat) /\
  ((0 < a_max a)%nat -> (in_progress s = true -> iter s < per_chunk a)%nat -> in_progress s = true \/ candidate a <> None -> (0 < per_chunk a)%nat -> tried <> []).
Proof.
  intros a s. unfold acp_clean. set (start := if in_progress s then _ else _). destruct start as [[c i] |] eqn:ST.
  - pose proof (prepare_spec a (per_chunk a - i) (c + i) (a_max a)) as PS. destruct (prepare a (c + i) (per_chunk a - i) (a_max a)) as [tried ls].
    destruct PS as (A & B & C & D & E). split.
    + intros l F. assert (F' : l = ls).
      { destruct ls as [| x ls]; [cbn in F; intuition discriminate |]. cbn [fst] in F. apply in_app_or in F. destruct F as [F | [F | []]].
        - apply in_map_iff in F. destruct F as (y & Y & _). discriminate.
        - congruence. }
      subst l. auto.
    + intros M I W N X. subst tried. cbn [length] in *. assert (i < per_chunk a)%nat.
      { unfold start in ST. destruct (in_progress s); [injection ST as _ <-; auto |]. destruct (candidate a); [injection ST as _ <-; lia | discriminate]. }
      assert (length ls = a_max a) by (apply D; lia). subst ls. cbn in *. lia.
  - split; [intros ls F; cbn in F; intuition discriminate |]. intros _ _ [W | W] _; unfold start in ST.
    + rewrite W in ST. discriminate.
    + destruct (in_progress s); [discriminate |]. destruct (candidate a); [discriminate | contradiction].
Qed.

(** A run of ACP leaves off within a chunk only with as many lines as one run may flush *)
Theorem C65_acp_full : forall a s, let '(s', tried, p) := acp_clean a s in
  in_progress s = true \/ candidate a <> None -> (in_progress s = true -> iter s < per_chunk a)%nat -> (0 < a_max a)%nat -> in_progress s' = true ->
  exists ls, In (Flush ls) (fst p) /\ length ls = a_max a.
Proof.
  intros a s. unfold acp_clean. set (start := if in_progress s then _ else _). destruct start as [[c i] |] eqn:ST.
  - pose proof (prepare_spec a (per_chunk a - i) (c + i) (a_max a)) as PS. destruct (prepare a (c + i) (per_chunk a - i) (a_max a)) as [tried ls].
    destruct PS as (A & B & C & D & E). cbn [in_progress fst]. intros W I M P. apply negb_true_iff, Nat.eqb_neq in P.
    assert (i <= per_chunk a)%nat.
    { unfold start in ST. destruct (in_progress s); [injection ST as _ <-; specialize (I eq_refl); lia |]. destruct (candidate a); [injection ST as _ <-; lia | discriminate]. }
    assert (L : length ls = a_max a) by (apply D; lia). exists ls. split; [| exact L].
    destruct ls as [| x ls]; [cbn in L; lia |]. cbn [fst]. apply in_or_app. right. left. reflexivity.
  - intros [W | W] _ _ P; unfold start in ST; rewrite ?W in ST; [discriminate |]. rewrite P in ST. discriminate.
Qed.
(** two lines a run, the second core line clean: the run goes on to the third *)
Example C65_ex_acp_full : let a := {| a_wakeup := 10; a_max := 2; per_chunk := 5; candidate := Some 10%nat; trylock := fun x => if (x =? 11)%nat then None else Some (x + 90)%nat |} in
  let '(s', tried, p) := acp_clean a {| chunk := 0; iter := 0; in_progress := false |} in
  in_progress s' = true /\ tried = [10; 11; 12]%nat /\ In (Flush [100; 102]%nat) (fst p).
Proof. vm_compute. split; [reflexivity |]. split; [reflexivity |]. auto 10. Qed.

(** *** The thread is not done when end is called *)
Definition before (f g : ev -> bool) (t : list ev) : Prop := exists a x b y c, t = a ++ x :: b ++ y :: c /\ f x = true /\ g y = true.
Definition idle_view : view :=
  {| running := true; seen_locked := false; standby := false; lock_ok := true; incomplete := false; cores := []; ref_ok := true; pol := Alru boot |}.
(** The cache lock is given back and end called while the run still holds the metadata lock, shared, and its
    reference on the cleaner: what comes next under the cache lock finds them held. *)
Theorem C65_end_last_refuted : exists v t, trace (cleaner_run v) t /\ before cache_unlock meta_unlock t /\ before is_end meta_unlock t /\ before is_end ref_put t.
Proof.
  exists idle_view. exists ([CacheLock; QueueGet; RefGet; MetaLock; DataAlloc] ++ Flush [5%nat] :: [DataFree; CacheUnlock; QueuePut; End 0; MetaUnlock; RefPut]).
  split.
  - apply (tr_async (cleaner_run idle_view) [CacheLock; QueueGet; RefGet; MetaLock; DataAlloc] [5%nat] [MetaUnlock; RefPut]).
    + vm_compute. reflexivity.
    + intros x X. cbn in X. intuition discriminate.
    + replace (snd (cleaner_run idle_view)) with [DataFree; CacheUnlock; QueuePut; End 0] by (vm_compute; reflexivity). repeat constructor.
  - split; [| split].
    + exists ([CacheLock; QueueGet; RefGet; MetaLock; DataAlloc] ++ [Flush [5%nat]; DataFree]), CacheUnlock, [QueuePut; End 0], MetaUnlock, [RefPut]. auto.
    + exists ([CacheLock; QueueGet; RefGet; MetaLock; DataAlloc] ++ [Flush [5%nat]; DataFree; CacheUnlock; QueuePut]), (End 0), [], MetaUnlock, [RefPut]. auto.
    + exists ([CacheLock; QueueGet; RefGet; MetaLock; DataAlloc] ++ [Flush [5%nat]; DataFree; CacheUnlock; QueuePut]), (End 0), [MetaUnlock], RefPut, []. auto.
Qed.
(** also with nothing to flush at all: in no such run is the reference given back before end is called *)
Theorem C65_end_before_put : forall v t, trace (cleaner_run v) t -> no_flush t -> times ref_get t = 1%nat -> before is_end ref_put t.
Proof.
  intros v t T NF R. apply trace_seen in T. destruct T as [ | | | mid ms M | a ls t P L S | a s ls t P L S].
  - discriminate.
  - discriminate.
  - discriminate.
  - exists ([CacheLock; QueueGet; RefGet] ++ mid ++ [CacheUnlock; QueuePut]), (End ms), [], RefPut, []. split; [| auto]. rewrite <- !app_assoc. reflexivity.
  - exfalso. apply (NF ls). apply in_or_app. right. left. reflexivity.
  - exfalso. apply (NF ls). apply in_or_app. right. left. reflexivity.
Qed.

(** *** Parameters *)
Lemma set_nth_length : forall l i x, (i < length l)%nat -> length (set_nth l i x) = length l.
Proof. intros. unfold set_nth. rewrite app_length, firstn_length. cbn [length]. rewrite skipn_length. lia. Qed.
Lemma set_nth_at : forall l i x j, (i < length l)%nat -> nth_error (set_nth l i x) j = if (j =? i)%nat then Some x else nth_error l j.
Proof.
  induction l as [| h l IH]; intros i x j L; [cbn in L; lia |]. destruct i as [| i]; unfold set_nth; cbn [firstn skipn app].
  - destruct j; reflexivity.
  - destruct j as [| j]; [reflexivity |]. cbn [nth_error Nat.eqb]. apply (IH i x j). cbn in L. lia.
Qed.
(** A value is taken if and only if the parameter exists and its limits allow it; then it is read back, the others stay; else
    nothing changes; and every value stays within its limits. *)
Theorem C65_params : forall limits conf id x, length conf = length limits ->
  let (ok, conf') := set_param limits conf id x in
  (ok = true <-> exists lo hi, nth_error limits id = Some (lo, hi) /\ lo <= x <= hi) /\
  (ok = true -> get_param conf' id = Some x) /\ (ok = false -> conf' = conf) /\
  (forall j, j <> id -> get_param conf' j = get_param conf j) /\ length conf' = length limits /\
  ((forall j lo hi y, nth_error limits j = Some (lo, hi) -> get_param conf j = Some y -> lo <= y <= hi) ->
   (forall j lo hi y, nth_error limits j = Some (lo, hi) -> get_param conf' j = Some y -> lo <= y <= hi)).
Proof.
  intros limits conf id x LN. unfold set_param, get_param. destruct (nth_error limits id) as [[lo hi] |] eqn:E.
  - assert (I : (id < length conf)%nat) by (rewrite LN; apply nth_error_Some; congruence).
    destruct (Z.ltb_spec x lo) as [L | L]; cbn [orb]; [| destruct (Z.ltb_spec hi x) as [H | H]].
    + split; [split; [discriminate | intros (l & h & X & Y); injection X as <- <-; lia] |]. split; [discriminate |]. auto 10.
    + split; [split; [discriminate | intros (l & h & X & Y); injection X as <- <-; lia] |]. split; [discriminate |]. auto 10.
    + split; [split; [intros _; exists lo, hi; auto | auto] |]. split; [intros _; rewrite set_nth_at by exact I; rewrite Nat.eqb_refl; reflexivity |].
      split; [discriminate |]. split; [intros j J; rewrite set_nth_at by exact I; destruct (Nat.eqb_spec j id); [contradiction | reflexivity] |].
      split; [rewrite set_nth_length by exact I; exact LN |].
      intros K j l h y A B. rewrite set_nth_at in B by exact I. destruct (Nat.eqb_spec j id) as [-> | J].
      * injection B as <-. rewrite E in A. injection A as <- <-. lia.
      * apply (K j l h y A B).
  - split; [split; [discriminate | intros (l & h & X & _); discriminate] |]. split; [discriminate |]. auto 10.
Qed.

(** Whatever was set, in any order, from the defaults on: both policies may flush at least one line at a time, ALRU never more
    than 10000 and its staleness is at least a second; ACP's sleep is at most ten seconds. *)
Definition sets (limits : list (Z * Z)) (conf : list Z) (l : list (nat * Z)) : list Z := fold_left (fun c p => snd (set_param limits c (fst p) (snd p))) l conf.
Lemma sets_inv : forall limits l conf, length conf = length limits ->
  (forall j lo hi y, nth_error limits j = Some (lo, hi) -> get_param conf j = Some y -> lo <= y <= hi) ->
  length (sets limits conf l) = length limits /\
  (forall j lo hi y, nth_error limits j = Some (lo, hi) -> get_param (sets limits conf l) j = Some y -> lo <= y <= hi).
Proof.
  intros limits l. induction l as [| p l IH]; intros conf L H; [auto |]. unfold sets. cbn [fold_left].
  pose proof (C65_params limits conf (fst p) (snd p) L) as C. destruct (set_param limits conf (fst p) (snd p)) as [ok conf']. destruct C as (_ & _ & _ & _ & L' & K).
  apply (IH conf' L' (K H)).
Qed.
Theorem C65_limits : forall l,
  (exists w st mb th dr, sets alru_limits [20; 120; 100; 10000; 100] l = [w; st; mb; th; dr] /\ 0 <= w <= 3600 /\ 1 <= st <= 3600 /\ 1 <= mb <= 10000 /\ 0 <= th <= 1000000 /\ 0 <= dr <= 100) /\
  (exists w mb, sets acp_limits [10; 128] l = [w; mb] /\ 0 <= w <= 10000 /\ 1 <= mb <= 10000).
Proof.
  intro l. split.
  - destruct (sets_inv alru_limits l [20; 120; 100; 10000; 100] eq_refl) as [L H].
    { intros j lo hi y A B. do 5 (destruct j as [| j]; [cbn in A, B; injection A as <- <-; injection B as <-; lia |]). destruct j; discriminate. }
    destruct (sets alru_limits [20; 120; 100; 10000; 100] l) as [| w [| st [| mb [| th [| dr [|]]]]]]; try discriminate.
    exists w, st, mb, th, dr. split; [reflexivity |].
    pose proof (H 0%nat _ _ w eq_refl eq_refl). pose proof (H 1%nat _ _ st eq_refl eq_refl). pose proof (H 2%nat _ _ mb eq_refl eq_refl).
    pose proof (H 3%nat _ _ th eq_refl eq_refl). pose proof (H 4%nat _ _ dr eq_refl eq_refl). auto 10.
  - destruct (sets_inv acp_limits l [10; 128] eq_refl) as [L H].
    { intros j lo hi y A B. do 2 (destruct j as [| j]; [cbn in A, B; injection A as <- <-; injection B as <-; lia |]). destruct j; discriminate. }
    destruct (sets acp_limits [10; 128] l) as [| w [| mb [|]]]; try discriminate.
    exists w, mb. split; [reflexivity |]. pose proof (H 0%nat _ _ w eq_refl eq_refl). pose proof (H 1%nat _ _ mb eq_refl eq_refl). auto.
Qed.

(** ** Examples *)
Definition rest : alru :=
  {| wakeup := 20; stale := 120; max_buffers := 2; threshold := 10000; hz := 1000; now := 1000000; last_ms := 900000; thread_access := 900;
     lists := [[{| lid := 5; stamp := 100; core_open := true; in_use := false |}; {| lid := 6; stamp := 200; core_open := true; in_use := true |};
                {| lid := 7; stamp := 300; core_open := true; in_use := false |}; {| lid := 8; stamp := 950; core_open := true; in_use := false |}];
               [{| lid := 9; stamp := 50; core_open := true; in_use := false |}]]; meta_free := true; data_ok := true; ratio_exceeded := false |}.
Example rest_runs : fst (alru_clean rest) = [MetaLock; DataAlloc; Flush [5; 7]%nat; MetaUnlock] /\
  wanted (compute_timestamp rest) (lists rest) = [5; 7; 9]%nat.
Proof. vm_compute. auto. Qed.
Example rest_hyps : In (Flush [5; 7]%nat) (fst (alru_clean rest)) /\ 0 < hz rest /\ 0 <= stale rest /\ stale rest * hz rest <= now rest < 2 ^ 64 /\
  now rest * 1000 / hz rest < 2 ^ 32 /\ 0 <= last_ms rest <= now rest * 1000 / hz rest /\ 0 <= thread_access rest <= now rest / hz rest /\
  ordered (hd [] (lists rest)).
Proof.
  split; [vm_compute; auto |]. vm_compute. intuition (try discriminate; subst; try discriminate).
Qed.
Definition see (m : nat) (f : nat -> option nat) : acp := {| a_wakeup := 10; a_max := m; per_chunk := 4; candidate := Some 8%nat; trylock := f |}.
Definition fresh : acp_state := {| chunk := 0; iter := 0; in_progress := false |}.
Definition two_runs : list acp := [see 1 (fun x => if Nat.eqb x 9 then Some 30%nat else None); see 2 (fun x => Some (x + 20)%nat)].
Example two_runs_hyps : busy two_runs fresh /\ rounds two_runs fresh = ({| chunk := 8; iter := 4; in_progress := false |}, [8; 9; 10; 11]%nat).
Proof. vm_compute. auto. Qed.
Definition acp_view : view :=
  {| running := true; seen_locked := false; standby := false; lock_ok := true; incomplete := true; cores := [(false, true); (true, true)]; ref_ok := true;
     pol := Acp (see 2 (fun x => if Nat.even x then Some x else None)) fresh |}.
Example acp_trace : trace (cleaner_run acp_view)
  [CacheLock; QueueGet; RefGet; LineLock 8; LineLock 10; Flush [8; 10]%nat; LineUnlock 8; RefPut; LineUnlock 10; CacheUnlock; QueuePut; End 10].
Proof.
  apply (tr_async (cleaner_run acp_view) [CacheLock; QueueGet; RefGet; LineLock 8; LineLock 10] [8; 10]%nat [RefPut] [LineUnlock 8; RefPut; LineUnlock 10; CacheUnlock; QueuePut; End 10]).
  - vm_compute. reflexivity.
  - intros x X. cbn in X. intuition discriminate.
  - replace (snd (cleaner_run acp_view)) with [LineUnlock 8; LineUnlock 10; CacheUnlock; QueuePut; End 10] by (vm_compute; reflexivity). repeat constructor.
Qed.
Example params_hyps : set_param alru_limits [20; 120; 100; 10000; 50] 1 0 = (false, [20; 120; 100; 10000; 50]) /\
  set_param alru_limits [20; 120; 100; 10000; 50] 2 7 = (true, [20; 120; 7; 10000; 50]) /\ set_param acp_limits [10; 128] 2 1 = (false, [10; 128]).
Proof. vm_compute. auto. Qed.

Print Assumptions C65_balanced.
Print Assumptions C65_after_unlock.
Print Assumptions C65_when.
Print Assumptions C65_alru_chosen.
Print Assumptions C65_alru_complete.
Print Assumptions C65_alru_rest.
Print Assumptions C65_stale_refuted.
Print Assumptions C65_acp_round.
Print Assumptions C65_acp_flush.
Print Assumptions C65_end_last_refuted.
Print Assumptions C65_end_before_put.
Print Assumptions C65_params.
Print Assumptions C65_limits.
Print Assumptions C65_alru_pause.

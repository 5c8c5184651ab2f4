(** C64: volume objects and the core pool. *)
From Coq Require Import List Bool Arith NArith Lia.
From Verif Require Import VobModel.
Import ListNotations.

(** ** Specification *)

(** Calls on volumes.  The booleans: which calls of the environment succeed. *)
Inductive op :=
| Init (v : nat) (t : ty) (u : option (nat * nat)) (copy okp okc okm okh : bool)
| Create (v : nat) (t : ty) (u : option (nat * nat)) (oks okp okc okm okh : bool)
| Deinit (v : nat) | Destroy (v : nat) | Move (v w : nat) | SetUuid (v k n : nat) | Open (v : nat) (ok : bool) | Close (v : nat).
Definition step (o : op) (s : st) : st :=
  match o with
  | Init v t u c okp okc okm okh => snd (volume_init v (Some t) u c okp okc okm okh s)
  | Create v t u oks okp okc okm okh => snd (volume_create v (Some t) u oks okp okc okm okh s)
  | Deinit v => volume_deinit v s
  | Destroy v => volume_destroy v s
  | Move v w => volume_move v w s
  | SetUuid v k n => volume_set_uuid v k n s
  | Open v ok => snd (volume_open v ok s)
  | Close v => volume_close v s
  end.

(** Callers' part: only fresh places are initialised, only closed volumes are given up or moved over,
    and the memory of a uuid to copy exists.  The last condition of [SetUuid] is what the callers
    would have to know (see the refutations). *)
Definition readable (u : option (nat * nat)) (s : st) : Prop :=
  match u with Some (k, _) => ext s k <> None | None => True end.
Definition legal (o : op) (s : st) : Prop :=
  match o with
  | Init v _ u _ _ _ _ _ => cnt (vol s v) = false /\ box (vol s v) = None /\ readable u s
  | Create v _ u _ _ _ _ _ => cnt (vol s v) = false /\ box (vol s v) = None /\ readable u s
  | Deinit v => cnt (vol s v) = true /\ opened (vol s v) = false /\ box (vol s v) = None
  | Destroy v => cnt (vol s v) = true /\ opened (vol s v) = false
  | Move v w => v <> w /\ cnt (vol s v) = true /\ opened (vol s v) = false /\ cnt (vol s w) = true
  | SetUuid v _ _ => cnt (vol s v) = true /\ ucopy (vol s v) = false
  | Open v _ => cnt (vol s v) = true /\ vty (vol s v) <> None
  | Close v => cnt (vol s v) = true /\ vty (vol s v) <> None
  end.
Inductive runs : st -> st -> Prop :=
| runs_nil : forall s, runs s s
| runs_cons : forall o s s', legal o s -> runs (step o s) s' -> runs s s'.

(** the blocks a structure points to *)
Definition opt (o : option nat) : list nat := match o with Some b => [b] | None => [] end.
Definition own_ptr (p : ptr) : list nat := match p with Own b => [b] | _ => [] end.
Definition owned (x : volume) : list nat := opt (box x) ++ opt (priv x) ++ own_ptr (uuid x).

(** a new context: no volumes, nothing allocated, some memory of others *)
Definition new (e : nat -> option (list N)) : st :=
  {| vol := fun _ => zeroed; live := []; fresh := 0; faults := []; hooks := []; ext := e |}.

Definition opens (p : nat) (l : list hook) : nat := length (filter (fun h => match h with Opened q => p =? q | _ => false end) l).
Definition closes (p : nat) (l : list hook) : nat := length (filter (fun h => match h with Closed q => p =? q | _ => false end) l).

(** The same with the pool: cores join it, are taken from it while a cache is loaded, and volumes outside
    of it are used as above. *)
Definition touched (o : op) : list nat :=
  match o with
  | Init v _ _ _ _ _ _ _ | Create v _ _ _ _ _ _ _ | Deinit v | Destroy v | SetUuid v _ _ | Open v _ | Close v => [v]
  | Move v w => [v; w]
  end.
Inductive pstep : pool * st -> pool * st -> Prop :=
| ps_add : forall v t u oks okp okc okm okh oko p s,
    cnt (vol s v) = false -> box (vol s v) = None -> readable (Some u) s ->
    pstep (p, s) (let '(_, p', s') := pool_add v t u oks okp okc okm okh oko p s in (p', s'))
| ps_load : forall v t m n okp okc okh try_open oko p s,
    cnt (vol s v) = false -> box (vol s v) = None -> ext s m <> None ->
    pstep (p, s) (let '(_, p', s') := load_core v t m n okp okc okh try_open oko p s in (p', s'))
| ps_other : forall o p s, legal o s -> (forall v, In v (items p) -> ~ In v (touched o)) -> pstep (p, s) (p, step o s).
Inductive pruns : pool * st -> pool * st -> Prop :=
| pruns_nil : forall a, pruns a a
| pruns_cons : forall a b c, pstep a b -> pruns b c -> pruns a c.
Definition empty : pool := {| items := []; count := 0 |}.

(** ** Invariant *)
Record fine (x : volume) : Prop := {
  f_dead : cnt x = false -> priv x = None /\ own_ptr (uuid x) = [] /\ opened x = false;
  f_ty : cnt x = true -> vty x <> None -> priv x <> None;
  f_open : opened x = true -> vty x <> None;
  f_copy : cnt x = true -> if ucopy x then (forall k, uuid x <> Ext k) else own_ptr (uuid x) = [];
  f_refs : refs x = 0 }.
Record inv (s : st) : Prop := {
  i_faults : faults s = [];
  i_nodup : NoDup (live s);
  i_fresh : forall b, In b (live s) -> b < fresh s;
  i_fine : forall v, fine (vol s v);
  i_own : forall v, NoDup (owned (vol s v));
  i_live : forall v b, In b (owned (vol s v)) -> In b (live s);
  i_uniq : forall v w b, In b (owned (vol s v)) -> In b (owned (vol s w)) -> v = w;
  i_some : forall b, In b (live s) -> exists v, In b (owned (vol s v));
  i_hooks : forall p, fresh s <= p -> opens p (hooks s) = 0 /\ closes p (hooks s) = 0;
  i_opens : forall p, opens p (hooks s) = closes p (hooks s) \/ (opens p (hooks s) = S (closes p (hooks s)) /\ exists v, priv (vol s v) = Some p /\ opened (vol s v) = true);
  i_opened : forall v p, priv (vol s v) = Some p -> opened (vol s v) = true -> opens p (hooks s) = S (closes p (hooks s)) }.

Lemma upd_same : forall A (f : nat -> A) i a, upd f i a i = a. Proof. intros. unfold upd. rewrite Nat.eqb_refl. reflexivity. Qed.
Lemma upd_other : forall A (f : nat -> A) i j a, j <> i -> upd f i a j = f j.
Proof. intros. unfold upd. destruct (Nat.eqb_spec i j); congruence. Qed.

Lemma in_live : forall b s, In b (live s) -> existsb (Nat.eqb b) (live s) = true.
Proof. intros b s H. apply existsb_exists. exists b. split; [exact H | apply Nat.eqb_refl]. Qed.
Lemma remove_nodup : forall b l, NoDup l -> NoDup (remove Nat.eq_dec b l).
Proof.
  intros b l H. induction H as [| a l N H IH]; cbn [remove]; [constructor |].
  destruct (Nat.eq_dec b a); [exact IH |]. constructor; [| exact IH]. intro I. apply N. apply in_remove in I. apply I.
Qed.
Lemma in_remove_iff : forall b a l, In a (remove Nat.eq_dec b l) <-> In a l /\ a <> b.
Proof. intros b a l. split; [apply in_remove | intros [A B]; apply in_in_remove; assumption]. Qed.

(** *** the general step: the structure at v changes, blocks [gone] are given up, [got] are new *)
(** A new content of the volume at v: what it owns afterwards is what it owned, plus new blocks, minus
    released ones. *)
Lemma inv_change : forall s s' v got gone,
  inv s -> faults s' = [] ->
  (forall w, w <> v -> vol s' w = vol s w) -> fine (vol s' v) -> NoDup (owned (vol s' v)) ->
  fresh s <= fresh s' -> NoDup (live s') ->
  (forall b, In b (live s') <-> (In b (live s) /\ ~ In b gone) \/ In b got) ->
  (forall b, In b got -> fresh s <= b < fresh s') ->
  (forall b, In b (owned (vol s' v)) <-> (In b (owned (vol s v)) /\ ~ In b gone) \/ In b got) ->
  (forall b, In b gone -> In b (owned (vol s v))) ->
  (forall p, fresh s' <= p -> opens p (hooks s') = 0 /\ closes p (hooks s') = 0) ->
  (forall p, opens p (hooks s') = closes p (hooks s') \/ (opens p (hooks s') = S (closes p (hooks s')) /\ exists v, priv (vol s' v) = Some p /\ opened (vol s' v) = true)) ->
  (forall v p, priv (vol s' v) = Some p -> opened (vol s' v) = true -> opens p (hooks s') = S (closes p (hooks s'))) ->
  inv s'.
Proof.
  intros s s' v got gone I F V FV NV FR ND LV GOT OW GONE H1 H2 H3.
  assert (OUT : forall w b, w <> v -> In b (owned (vol s w)) -> ~ In b gone).
  { intros w b D B G. apply D. apply (i_uniq s I w v b B). apply GONE. exact G. }
  constructor; try assumption.
  - intros b B. apply LV in B. destruct B as [[B _] | B]; [apply (i_fresh s I) in B; lia | apply GOT in B; lia].
  - intro w. destruct (Nat.eq_dec w v) as [-> | D]; [exact FV | rewrite (V w D); apply (i_fine s I)].
  - intro w. destruct (Nat.eq_dec w v) as [-> | D]; [exact NV | rewrite (V w D); apply (i_own s I)].
  - intros w b B. apply LV. destruct (Nat.eq_dec w v) as [-> | D].
    + apply OW in B. destruct B as [[B G] | B]; [left; split; [apply (i_live s I v); exact B | exact G] | right; exact B].
    + rewrite (V w D) in B. left. split; [apply (i_live s I w); exact B | apply (OUT w); assumption].
  - assert (X : forall w b, w <> v -> In b (owned (vol s' w)) -> In b (owned (vol s' v)) -> False).
    { intros w b D Bw Bv. rewrite (V w D) in Bw. apply OW in Bv. destruct Bv as [[Bv _] | Bv].
      - apply D. apply (i_uniq s I w v b); assumption.
      - apply GOT in Bv. apply (i_live s I) in Bw. apply (i_fresh s I) in Bw. lia. }
    intros w u b Bw Bu. destruct (Nat.eq_dec w v) as [-> | D], (Nat.eq_dec u v) as [-> | D']; auto.
    + exfalso. apply (X u b); assumption.
    + exfalso. apply (X w b); assumption.
    + rewrite (V w D) in Bw. rewrite (V u D') in Bu. apply (i_uniq s I w u b); assumption.
  - intros b B. apply LV in B. destruct B as [[B G] | B].
    + destruct (i_some s I b B) as (w & W). exists w. destruct (Nat.eq_dec w v) as [-> | D]; [apply OW; left; auto | rewrite (V w D); exact W].
    + exists v. apply OW. right. exact B.
Qed.

(** hooks that are neither open nor close change nothing *)
Lemma opens_app : forall p l l', opens p (l ++ l') = opens p l + opens p l'.
Proof. intros. unfold opens. rewrite filter_app, app_length. reflexivity. Qed.
Lemma closes_app : forall p l l', closes p (l ++ l') = closes p l + closes p l'.
Proof. intros. unfold closes. rewrite filter_app, app_length. reflexivity. Qed.

(** the volume at v is closed before and after, nothing is opened or closed *)
Lemma inv_quiet : forall s s' v got gone,
  inv s -> faults s' = [] ->
  (forall w, w <> v -> vol s' w = vol s w) -> fine (vol s' v) -> NoDup (owned (vol s' v)) ->
  fresh s <= fresh s' -> NoDup (live s') ->
  (forall b, In b (live s') <-> (In b (live s) /\ ~ In b gone) \/ In b got) ->
  (forall b, In b got -> fresh s <= b < fresh s') ->
  (forall b, In b (owned (vol s' v)) <-> (In b (owned (vol s v)) /\ ~ In b gone) \/ In b got) ->
  (forall b, In b gone -> In b (owned (vol s v))) ->
  opened (vol s v) = false -> opened (vol s' v) = false ->
  (forall p, opens p (hooks s') = opens p (hooks s) /\ closes p (hooks s') = closes p (hooks s)) ->
  inv s'.
Proof.
  intros s s' v got gone I F V FV NV FR ND LV GOT OW GONE O O' H.
  apply (inv_change s s' v got gone); auto.
  - intros p L. destruct (H p) as [-> ->]. apply (i_hooks s I). lia.
  - intros p. destruct (H p) as [-> ->]. destruct (i_opens s I p) as [E | (E & w & P & OP)]; [left; exact E |].
    right. split; [exact E |]. exists w. rewrite V; [auto |]. intros ->. congruence.
  - intros w p P OP. destruct (H p) as [-> ->]. destruct (Nat.eq_dec w v) as [-> | D]; [congruence |].
    rewrite (V w D) in *. apply (i_opened s I w); assumption.
Qed.

Ltac noin := match goal with |- forall b, In b [] -> _ => intros b [] end.
Lemma own_dead : forall x, fine x -> cnt x = false -> owned x = opt (box x).
Proof. intros x F C. destruct (f_dead x F C) as (P & U & _). unfold owned. rewrite P, U. apply app_nil_r. Qed.
Lemma fresh_not : forall s b, inv s -> fresh s <= b -> ~ In b (live s).
Proof. intros s b I L N. apply (i_fresh s I) in N. lia. Qed.
Lemma nodup_opt : forall o, NoDup (opt o).
Proof. intros [b |]; cbn; repeat constructor; auto. Qed.
Lemma box_lt : forall s v b, inv s -> box (vol s v) = Some b -> b < fresh s.
Proof. intros s v b I B. apply (i_fresh s I). apply (i_live s I v). unfold owned. rewrite B. cbn. left. reflexivity. Qed.

(** *** ocf_volume_init *)
Lemma free_head : forall p vl l fr fa h e, ~ In p l ->
  free_block p {| vol := vl; live := p :: l; fresh := fr; faults := fa; hooks := h; ext := e |} =
  {| vol := vl; live := l; fresh := fr; faults := fa; hooks := h; ext := e |}.
Proof.
  intros p vl l fr fa h e N. unfold free_block. cbn [live existsb]. rewrite Nat.eqb_refl. cbn [orb vol fresh faults hooks ext remove].
  destruct (Nat.eq_dec p p); [| congruence]. rewrite notin_remove by exact N. reflexivity.
Qed.

(** what ocf_volume_init leaves *)
Inductive init_res (s : st) (v : nat) (t : ty) (u : option (nat * nat)) (copy : bool) : bool -> st -> Prop :=
| ir_bad : forall s', faults s' = faults s -> live s' = live s -> fresh s <= fresh s' -> hooks s' = hooks s -> ext s' = ext s ->
    (forall w, w <> v -> vol s' w = vol s w) ->
    (vol s' v = vol s v \/ (cnt (vol s' v) = cnt (vol s v) \/ cnt (vol s' v) = false) /\ box (vol s' v) = box (vol s v) /\ priv (vol s' v) = None /\ uuid (vol s' v) = Null /\ opened (vol s' v) = false /\ refs (vol s' v) = (if cnt (vol s' v) then refs (vol s v) else refs (vol s' v)) /\ (refs (vol s' v) = refs (vol s v) \/ refs (vol s' v) = 0)) ->
    init_res s v t u copy false s'
| ir_plain : forall s', faults s' = faults s -> live s' = fresh s :: live s -> fresh s' = S (fresh s) -> ext s' = ext s ->
    (hooks s' = hooks s \/ hooks s' = hooks s ++ [OnInit (fresh s)]) ->
    (forall w, w <> v -> vol s' w = vol s w) ->
    box (vol s' v) = box (vol s v) -> priv (vol s' v) = Some (fresh s) -> own_ptr (uuid (vol s' v)) = [] -> ucopy (vol s' v) = false ->
    cnt (vol s' v) = true -> refs (vol s' v) = 0 -> opened (vol s' v) = false -> vty (vol s' v) = Some t ->
    init_res s v t u copy true s'
| ir_copy : forall s', faults s' = faults s -> live s' = S (fresh s) :: fresh s :: live s -> fresh s' = S (S (fresh s)) -> ext s' = ext s ->
    (hooks s' = hooks s \/ hooks s' = hooks s ++ [OnInit (fresh s)]) ->
    (forall w, w <> v -> vol s' w = vol s w) ->
    box (vol s' v) = box (vol s v) -> priv (vol s' v) = Some (fresh s) -> uuid (vol s' v) = Own (S (fresh s)) -> ucopy (vol s' v) = true ->
    cnt (vol s' v) = true -> refs (vol s' v) = 0 -> opened (vol s' v) = false -> vty (vol s' v) = Some t ->
    init_res s v t u copy true s'.

Ltac flds := cbn [vol live fresh faults hooks ext box opened vty uuid usize copied ucopy priv cnt frozen refs with_priv with_uuid with_cnt].
Lemma err1_eq : forall v p vl l fr fa h e, ~ In p l ->
  err1 v p {| vol := vl; live := p :: l; fresh := fr; faults := fa; hooks := h; ext := e |} =
  {| vol := upd vl v (with_priv (vl v) None); live := l; fresh := fr; faults := fa; hooks := h; ext := e |}.
Proof. intros. unfold err1. rewrite free_head by assumption. reflexivity. Qed.
Lemma err2_out : forall v p vl l fr fa h e, ~ In p l ->
  let s' := err2 v p {| vol := vl; live := p :: l; fresh := fr; faults := fa; hooks := h; ext := e |} in
  live s' = l /\ fresh s' = fr /\ faults s' = fa /\ hooks s' = h /\ ext s' = e /\ (forall w, w <> v -> vol s' w = vl w) /\
  vol s' v = with_priv (with_cnt (vl v) false (frozen (vl v) - 1) (refs (vl v))) None.
Proof.
  intros v p vl l fr fa h e N s'. unfold s', err2, put. cbn [vol live fresh faults hooks ext]. rewrite err1_eq by exact N.
  cbn [vol live fresh faults hooks ext]. rewrite !upd_same. repeat split. intros w D. rewrite !upd_other by exact D. reflexivity.
Qed.
Lemma err3_out : forall v p b vl l fr fa h e, ~ In p l -> ~ In b (p :: l) ->
  (ucopy (vl v) = true -> uuid (vl v) = Own b) ->
  let s' := err3 v p {| vol := vl; live := if ucopy (vl v) then b :: p :: l else p :: l; fresh := fr; faults := fa; hooks := h; ext := e |} in
  live s' = l /\ fresh s' = fr /\ faults s' = fa /\ hooks s' = h /\ ext s' = e /\ (forall w, w <> v -> vol s' w = vl w) /\
  vol s' v = with_priv (with_cnt (with_uuid (vl v) Null 0 [] (ucopy (vl v))) false (frozen (vl v) - 1) (refs (vl v))) None.
Proof.
  intros v p b vl l fr fa h e N NB U s'. unfold s', err3. cbn [vol].
  assert (E : (if ucopy (vl v) then free_ptr (uuid (vl v)) {| vol := vl; live := if ucopy (vl v) then b :: p :: l else p :: l; fresh := fr; faults := fa; hooks := h; ext := e |}
               else {| vol := vl; live := if ucopy (vl v) then b :: p :: l else p :: l; fresh := fr; faults := fa; hooks := h; ext := e |}) =
              {| vol := vl; live := p :: l; fresh := fr; faults := fa; hooks := h; ext := e |}).
  { destruct (ucopy (vl v)) eqn:C; [| reflexivity]. rewrite (U eq_refl). cbn [free_ptr]. apply free_head. exact NB. }
  rewrite E. unfold put. cbn [vol live fresh faults hooks ext].
  destruct (err2_out v p (upd vl v (with_uuid (vl v) Null 0 [] (ucopy (vl v)))) l fr fa h e N) as (A & B & C & D & F & G & H).
  rewrite A, B, C, D, F, H. rewrite upd_same. repeat split. intros w W. rewrite (G w W). apply upd_other. exact W.
Qed.

Lemma init_out : forall s v t u copy okp okc okm okh,
  inv s -> readable u s ->
  init_res s v t u copy (fst (volume_init v (Some t) u copy okp okc okm okh s)) (snd (volume_init v (Some t) u copy okp okc okm okh s)).
Proof.
  intros s v t u copy okp okc okm okh I R.
  assert (N0 : ~ In (fresh s) (live s)) by (apply fresh_not; auto).
  assert (N1 : ~ In (S (fresh s)) (fresh s :: live s)) by (intros [E | E]; [lia | apply (fresh_not s (S (fresh s)) I); [lia | exact E]]).
  unfold volume_init.
  destruct (match u with Some (_, n) => (UUID_MAX <? N.of_nat n)%N | None => false end);
    [cbn [fst snd]; apply ir_bad; auto |].
  destruct okp; cbn [negb]; [| cbn [fst snd]; apply ir_bad; auto].
  unfold alloc, init_head, put. cbn [vol live fresh faults hooks ext].
  set (x := {| box := box (vol s v); opened := false; vty := Some t; uuid := Null; usize := 0; copied := []; ucopy := false; priv := Some (fresh s);
               cnt := cnt (vol s v); frozen := frozen (vol s v); refs := refs (vol s v) |}).
  destruct okc; cbn [negb].
  2: { cbn [fst snd]. rewrite err1_eq by exact N0. apply ir_bad; cbn [vol live fresh faults hooks ext]; auto.
       - intros w D. rewrite !upd_other by exact D. reflexivity.
       - right. rewrite !upd_same. unfold x. flds. repeat split; auto. destruct (cnt (vol s v)); reflexivity. }
  set (vl := upd (upd (vol s) v x) v (with_cnt (upd (vol s) v x v) true 1 0)).
  assert (OTHER : forall w, w <> v -> vl w = vol s w) by (intros w D; unfold vl; rewrite !upd_other by exact D; reflexivity).
  assert (VV : vl v = with_cnt x true 1 0) by (unfold vl; rewrite !upd_same; reflexivity).
  clearbody vl.
  destruct u as [[k n] |].
  2: { cbn [fst snd]. apply ir_plain; cbn [vol live fresh faults hooks ext]; rewrite ?VV; unfold x; flds; auto. }
  cbn [readable] in R. unfold init_uuid.
  destruct copy.
  - destruct okm; cbn [negb].
    + unfold alloc, put. cbn [vol live fresh faults hooks ext]. destruct (ext s k) as [c |] eqn:EK; [| congruence].
      set (vl' := upd vl v (with_uuid (vl v) (Own (S (fresh s))) n (firstn n c) true)).
      assert (OTHER' : forall w, w <> v -> vl' w = vol s w) by (intros w D; unfold vl'; rewrite !upd_other by exact D; apply OTHER; exact D).
      assert (VV' : vl' v = with_uuid (with_cnt x true 1 0) (Own (S (fresh s))) n (firstn n c) true) by (unfold vl'; rewrite !upd_same, VV; reflexivity).
      clearbody vl'. unfold init_hook. destruct (has_init t) eqn:HI; [destruct okh |].
      * cbn [fst snd]. unfold call. apply ir_copy; cbn [vol live fresh faults hooks ext]; rewrite ?VV'; unfold x; flds; auto.
      * cbn [fst snd]. assert (C : ucopy (vl' v) = true) by (rewrite VV'; reflexivity).
        destruct (err3_out v (fresh s) (S (fresh s)) vl' (live s) (S (S (fresh s))) (faults s) (hooks s) (ext s) N0 N1) as (A & B & D & F & G & H & J).
        { rewrite VV'. reflexivity. }
        rewrite C in A, B, D, F, G, H, J. apply ir_bad; auto; [rewrite B; lia | intros w W; rewrite (H w W); auto |].
        right. rewrite J, VV'. unfold x. flds. repeat split; auto.
      * cbn [fst snd]. apply ir_copy; cbn [vol live fresh faults hooks ext]; rewrite ?VV'; unfold x; flds; auto.
    + unfold put. cbn [vol live fresh faults hooks ext fst snd].
      destruct (err2_out v (fresh s) (upd vl v (with_uuid (vl v) Null 0 [] true)) (live s) (S (fresh s)) (faults s) (hooks s) (ext s) N0) as (A & B & D & F & G & H & J).
      apply ir_bad; auto; [rewrite B; lia | intros w W; rewrite (H w W), upd_other by exact W; auto |].
      right. rewrite J, upd_same, VV. unfold x. flds. repeat split; auto.
  - unfold put. cbn [vol live fresh faults hooks ext].
    set (vl' := upd vl v (with_uuid (vl v) (Ext k) n [] false)).
    assert (OTHER' : forall w, w <> v -> vl' w = vol s w) by (intros w D; unfold vl'; rewrite !upd_other by exact D; apply OTHER; exact D).
    assert (VV' : vl' v = with_uuid (with_cnt x true 1 0) (Ext k) n [] false) by (unfold vl'; rewrite !upd_same, VV; reflexivity).
    clearbody vl'. unfold init_hook. destruct (has_init t) eqn:HI; [destruct okh |].
    + cbn [fst snd]. unfold call. apply ir_plain; cbn [vol live fresh faults hooks ext]; rewrite ?VV'; unfold x; flds; auto.
    + cbn [fst snd]. assert (C : ucopy (vl' v) = false) by (rewrite VV'; reflexivity).
      destruct (err3_out v (fresh s) (S (fresh s)) vl' (live s) (S (fresh s)) (faults s) (hooks s) (ext s) N0 N1) as (A & B & D & F & G & H & J).
      { rewrite C. discriminate. }
      rewrite C in A, B, D, F, G, H, J. apply ir_bad; auto; [rewrite B; lia | intros w W; rewrite (H w W); auto |].
      right. rewrite J, VV'. unfold x. flds. repeat split; auto.
    + cbn [fst snd]. apply ir_plain; cbn [vol live fresh faults hooks ext]; rewrite ?VV'; unfold x; flds; auto.
Qed.

Lemma quiet_hooks : forall h h' x, (forall p, x <> Opened p) -> (forall p, x <> Closed p) -> h' = h \/ h' = h ++ [x] ->
  forall p, opens p h' = opens p h /\ closes p h' = closes p h.
Proof.
  intros h h' x A B [-> | ->] p; [auto |]. rewrite opens_app, closes_app.
  destruct x; cbn; try (split; lia); [destruct (A p0 eq_refl) | destruct (B p0 eq_refl)].
Qed.
Lemma in_pair : forall (a b c : nat), In c [a; b] <-> c = a \/ c = b.
Proof. intros. cbn. intuition congruence. Qed.

Lemma init_res_inv : forall s v t u copy r s', inv s -> cnt (vol s v) = false -> init_res s v t u copy r s' ->
  inv s' /\ cnt (vol s' v) = r /\ opened (vol s' v) = false /\ box (vol s' v) = box (vol s v).
Proof.
  intros s v t u copy r s' I C R.
  pose proof (own_dead _ (i_fine s I v) C) as OD.
  destruct (f_dead _ (i_fine s I v) C) as (PD & UD & OPD).
  pose proof (f_refs _ (i_fine s I v)) as RD.
  destruct R as [s' F L FR H E V X | s' F L FR E H V B P U UC CN RF OP TY | s' F L FR E H V B P U UC CN RF OP TY].
  - assert (Z : cnt (vol s' v) = false /\ opened (vol s' v) = false /\ box (vol s' v) = box (vol s v) /\ fine (vol s' v)).
    { destruct X as [X | (X1 & X2 & X3 & X4 & X5 & X6 & X7)].
      - rewrite X. repeat split; auto; apply (i_fine s I v).
      - assert (cnt (vol s' v) = false) by (destruct X1; congruence). repeat split; auto.
        + rewrite X4. reflexivity.
        + intros; congruence.
        + congruence.
        + intros; congruence.
        + destruct X7; congruence. }
    destruct Z as (Z1 & Z2 & Z3 & Z4). split; [| auto].
    apply (inv_quiet s s' v [] []); auto; try noin.
    + rewrite F. apply (i_faults s I).
    + rewrite (own_dead _ Z4 Z1). apply nodup_opt.
    + rewrite L. apply (i_nodup s I).
    + intro b. rewrite L. cbn [In]. tauto.
    + intro b. rewrite (own_dead _ Z4 Z1), OD, Z3. cbn [In]. tauto.
    + intro p. rewrite H. auto.
  - assert (N0 : ~ In (fresh s) (live s)) by (apply fresh_not; auto).
    assert (OW : owned (vol s' v) = opt (box (vol s v)) ++ [fresh s]) by (unfold owned; rewrite B, P, U; reflexivity).
    split; [| auto].
    apply (inv_quiet s s' v [fresh s] []); auto; try noin.
    + rewrite F. apply (i_faults s I).
    + constructor; try congruence. rewrite UC. intros _. exact U.
    + rewrite OW. destruct (box (vol s v)) as [q |] eqn:Q; cbn; [| repeat constructor; auto].
      constructor; [| repeat constructor; auto]. intros [X | []]. pose proof (box_lt s v q I Q). lia.
    + lia.
    + rewrite L. constructor; [exact N0 | apply (i_nodup s I)].
    + intro b. rewrite L. cbn [In]. tauto.
    + intros b [<- | []]. lia.
    + intro b. rewrite OW, OD, in_app_iff. cbn [In]. tauto.
    + apply (quiet_hooks _ _ (OnInit (fresh s))); try discriminate; assumption.
  - assert (N0 : ~ In (fresh s) (live s)) by (apply fresh_not; auto).
    assert (N1 : ~ In (S (fresh s)) (live s)) by (apply fresh_not; auto).
    assert (OW : owned (vol s' v) = opt (box (vol s v)) ++ [fresh s; S (fresh s)]) by (unfold owned; rewrite B, P, U; reflexivity).
    split; [| auto].
    apply (inv_quiet s s' v [fresh s; S (fresh s)] []); auto; try noin.
    + rewrite F. apply (i_faults s I).
    + constructor; try congruence. rewrite UC, U. intros _ k. discriminate.
    + rewrite OW. assert (ND : NoDup [fresh s; S (fresh s)]) by (constructor; [intros [X | []]; lia | repeat constructor; auto]).
      destruct (box (vol s v)) as [q |] eqn:Q; cbn; [| exact ND].
      constructor; [| exact ND]. rewrite in_pair. pose proof (box_lt s v q I Q). lia.
    + lia.
    + rewrite L. constructor; [intros [X | X]; [lia | auto] |]. constructor; [exact N0 | apply (i_nodup s I)].
    + intro b. rewrite L. cbn [In]. tauto.
    + intros b [<- | [<- | []]]; lia.
    + intro b. rewrite OW, OD, in_app_iff. cbn [In]. tauto.
    + apply (quiet_hooks _ _ (OnInit (fresh s))); try discriminate; assumption.
Qed.

Lemma init_inv : forall s v t u copy okp okc okm okh, inv s -> cnt (vol s v) = false -> readable u s ->
  let r := volume_init v (Some t) u copy okp okc okm okh s in
  inv (snd r) /\ cnt (vol (snd r) v) = fst r /\ opened (vol (snd r) v) = false /\ box (vol (snd r) v) = box (vol s v).
Proof. intros. apply (init_res_inv s v t u copy); auto. apply init_out; assumption. Qed.

(** *** giving up the blocks of a closed volume *)
(** the structure at v is freed as far as it belongs to the heap *)
Lemma drop_box : forall s v, inv s -> cnt (vol s v) = false -> opened (vol s v) = false ->
  inv (put v zeroed (free_opt (box (vol s v)) s)).
Proof.
  intros s v I C O. pose proof (own_dead _ (i_fine s I v) C) as OD.
  assert (FZ : fine zeroed) by (constructor; cbn; auto; discriminate).
  destruct (box (vol s v)) as [q |] eqn:Q; cbn [free_opt].
  - assert (IL : In q (live s)) by (apply (i_live s I v); rewrite OD; left; reflexivity).
    unfold free_block. rewrite in_live by exact IL.
    apply (inv_quiet s _ v [] [q]); unfold put; cbn [vol live fresh faults hooks ext]; rewrite ?upd_same; auto; try noin.
    + apply (i_faults s I).
    + intros w D. apply upd_other. exact D.
    + constructor.
    + apply remove_nodup. apply (i_nodup s I).
    + intro b. rewrite in_remove_iff. cbn [In]. intuition congruence.
    + intro b. rewrite OD. cbn. intuition congruence.
    + intros b [<- | []]. rewrite OD. left. reflexivity.
  - apply (inv_quiet s _ v [] []); unfold put; cbn [vol live fresh faults hooks ext]; rewrite ?upd_same; auto; try noin.
    + apply (i_faults s I).
    + intros w D. apply upd_other. exact D.
    + constructor.
    + apply (i_nodup s I).
    + cbn [In]. tauto.
    + intro b. rewrite OD. cbn. tauto.
Qed.

(** priv and the copy of the uuid are freed *)
Definition lose (x : volume) (s : st) : st :=
  let s := free_opt (priv x) s in if ucopy x then free_ptr (uuid x) s else s.
Lemma lose_out : forall s v, inv s -> cnt (vol s v) = true ->
  let s' := lose (vol s v) s in
  faults s' = [] /\ vol s' = vol s /\ fresh s' = fresh s /\ hooks s' = hooks s /\ ext s' = ext s /\ NoDup (live s') /\
  forall b, In b (live s') <-> In b (live s) /\ ~ In b (opt (priv (vol s v)) ++ own_ptr (uuid (vol s v))).
Proof.
  intros s v I C. pose proof (i_fine s I v) as F. pose proof (f_copy _ F C) as FC.
  pose proof (i_own s I v) as NO. pose proof (i_live s I v) as IL.
  assert (NO2 : NoDup (opt (priv (vol s v)) ++ own_ptr (uuid (vol s v)))).
  { unfold owned in NO. destruct (box (vol s v)); cbn [opt app] in NO; [inversion NO; assumption | exact NO]. }
  assert (IL2 : forall b, In b (opt (priv (vol s v)) ++ own_ptr (uuid (vol s v))) -> In b (live s)).
  { intros b B. apply IL. unfold owned. apply in_or_app. right. exact B. }
  set (x := vol s v) in *.
  assert (S1 : let s1 := free_opt (priv x) s in faults s1 = [] /\ vol s1 = vol s /\ fresh s1 = fresh s /\ hooks s1 = hooks s /\ ext s1 = ext s /\ NoDup (live s1) /\
               forall b, In b (live s1) <-> In b (live s) /\ ~ In b (opt (priv x))).
  { pose proof (i_faults s I). pose proof (i_nodup s I). destruct (priv x) as [p |]; cbn [free_opt opt].
    - unfold free_block. rewrite in_live by (apply IL2; left; reflexivity). cbn [vol live fresh faults hooks ext].
      repeat split; auto; [apply remove_nodup; assumption | | |]; intros; rewrite ?in_remove_iff in *; cbn [In] in *; intuition congruence.
    - repeat split; auto; intros; cbn [In] in *; tauto. }
  unfold lose. set (s1 := free_opt (priv x) s) in *. cbn zeta in S1. destruct S1 as (A & B & D & E & G & H & J).
  cbn zeta. destruct (ucopy x) eqn:UC.
  - destruct (uuid x) as [| b | k] eqn:U; cbn [free_ptr own_ptr].
    + rewrite app_nil_r. repeat split; auto; apply J; assumption.
    + cbn [own_ptr] in NO2, IL2. assert (NP : ~ In b (opt (priv x))).
      { intro Z. destruct (priv x) as [p |]; cbn in *; [| exact Z]. destruct Z as [-> | []]. inversion NO2 as [| ? ? Z ?]. apply Z. left. reflexivity. }
      unfold free_block. rewrite in_live.
      2: { apply J. split; [apply IL2; apply in_or_app; right; left; reflexivity | exact NP]. }
      cbn [vol live fresh faults hooks ext]. split; [exact A |]. split; [exact B |]. split; [exact D |]. split; [exact E |]. split; [exact G |].
      split; [apply remove_nodup; exact H |]. intro a. rewrite in_remove_iff, J, in_app_iff. cbn [In]. intuition congruence.
    + exfalso. apply (FC k). reflexivity.
  - rewrite FC, app_nil_r. repeat split; auto; apply J; assumption.
Qed.

(** a closed volume loses what it points to *)
Lemma lose_inv : forall s s' v x',
  inv s -> cnt (vol s v) = true -> opened (vol s v) = false ->
  faults s' = [] -> (forall w, w <> v -> vol s' w = vol s w) -> vol s' v = x' -> fresh s' = fresh s -> NoDup (live s') ->
  (forall p, opens p (hooks s') = opens p (hooks s) /\ closes p (hooks s') = closes p (hooks s)) ->
  (forall b, In b (live s') <-> In b (live s) /\ ~ In b (opt (priv (vol s v)) ++ own_ptr (uuid (vol s v)))) ->
  fine x' -> opened x' = false -> box x' = box (vol s v) -> priv x' = None -> own_ptr (uuid x') = [] ->
  inv s'.
Proof.
  intros s s' v x' I C O F V X FR ND H L FX OX BX PX UX.
  assert (OW : owned x' = opt (box (vol s v))) by (unfold owned; rewrite BX, PX, UX; apply app_nil_r).
  apply (inv_quiet s s' v [] (opt (priv (vol s v)) ++ own_ptr (uuid (vol s v)))); rewrite ?X; auto; try noin.
  - rewrite OW. apply nodup_opt.
  - lia.
  - intro b. rewrite L. cbn [In]. tauto.
  - intro b. rewrite OW. unfold owned. rewrite in_app_iff.
    assert (ND2 : In b (opt (box (vol s v))) -> ~ In b (opt (priv (vol s v)) ++ own_ptr (uuid (vol s v)))).
    { intros B Z. pose proof (i_own s I v) as NO. unfold owned in NO. destruct (box (vol s v)) as [q |]; cbn in B; [| exact B].
      destruct B as [-> | []]. cbn [opt app] in NO. inversion NO. contradiction. }
    cbn [In]. tauto.
  - intros b B. unfold owned. apply in_or_app. right. exact B.
Qed.

Lemma deinit_inv : forall s v, inv s -> cnt (vol s v) = true -> opened (vol s v) = false ->
  let s' := volume_deinit v s in inv s' /\ cnt (vol s' v) = false /\ opened (vol s' v) = false /\ box (vol s' v) = box (vol s v).
Proof.
  intros s v I C O. unfold volume_deinit. rewrite C.
  set (x := vol s v) in *.
  set (s0 := match vty x, priv x with Some t, Some p => if has_deinit t then call (OnDeinit p) s else s | _, _ => s end).
  assert (E0 : exists h, s0 = {| vol := vol s; live := live s; fresh := fresh s; faults := faults s; hooks := h; ext := ext s |} /\
                         forall p, opens p h = opens p (hooks s) /\ closes p h = closes p (hooks s)).
  { unfold s0. assert (T : s = {| vol := vol s; live := live s; fresh := fresh s; faults := faults s; hooks := hooks s; ext := ext s |}) by (destruct s; reflexivity).
    destruct (vty x) as [t |]; [| exists (hooks s); auto]. destruct (priv x) as [p |]; [| exists (hooks s); auto].
    destruct (has_deinit t); [| exists (hooks s); auto]. exists (hooks s ++ [OnDeinit p]). split; [reflexivity |].
    apply (quiet_hooks _ _ (OnDeinit p)); [discriminate | discriminate | right; reflexivity]. }
  destruct E0 as (h & -> & HH).
  set (s0 := {| vol := vol s; live := live s; fresh := fresh s; faults := faults s; hooks := h; ext := ext s |}).
  assert (I0 : inv s0).
  { constructor; cbn [s0 vol live fresh faults hooks ext]; try apply I.
    - intros p L. destruct (HH p) as [-> ->]. apply (i_hooks s I). exact L.
    - intro p. destruct (HH p) as [-> ->]. apply (i_opens s I).
    - intros w p. destruct (HH p) as [-> ->]. apply (i_opened s I w). }
  pose proof (lose_out s0 v I0 C) as LO. cbn zeta in LO. change (vol s0 v) with x in LO.
  assert (EQ : (if ucopy x && match uuid x with Null => false | _ => true end then free_ptr (uuid x) (free_opt (priv x) s0) else free_opt (priv x) s0) = lose x s0).
  { unfold lose. destruct (ucopy x); [| reflexivity]. destruct (uuid x); reflexivity. }
  rewrite EQ. destruct LO as (A & B & D & E & G & H & J).
  unfold put. cbn [vol live fresh faults hooks ext]. rewrite upd_same. cbn [cnt opened box].
  split; [| auto].
  pose proof (i_fine s I v) as F. pose proof (f_copy _ F C) as FC. change (vol s v) with x in FC, F.
  match goal with |- inv {| vol := upd _ _ ?y |} => apply (lose_inv s0 _ v y) end; cbn [vol live fresh faults hooks ext]; auto.
  - intros w W. rewrite upd_other by exact W. rewrite B. reflexivity.
  - apply upd_same.
  - intro p. rewrite E. auto.
  - constructor; cbn [cnt priv uuid opened vty ucopy refs]; try congruence; [| apply (f_refs _ F)].
    intros _. repeat split; auto. destruct (ucopy x) eqn:U; cbn [andb].
    + destruct (uuid x); cbn; auto.
    + exact FC.
  - cbn [uuid]. destruct (ucopy x) eqn:U; cbn [andb].
    + destruct (uuid x) eqn:UU; cbn; auto.
    + exact FC.
Qed.

Lemma destroy_inv : forall s v, inv s -> cnt (vol s v) = true -> opened (vol s v) = false -> inv (volume_destroy v s).
Proof.
  intros s v I C O. unfold volume_destroy. destruct (deinit_inv s v I C O) as (I' & C' & O' & B').
  apply drop_box; assumption.
Qed.

Lemma create_inv : forall s v t u oks okp okc okm okh, inv s -> cnt (vol s v) = false -> box (vol s v) = None -> readable u s ->
  inv (snd (volume_create v (Some t) u oks okp okc okm okh s)) /\
  (fst (volume_create v (Some t) u oks okp okc okm okh s) = true ->
   cnt (vol (snd (volume_create v (Some t) u oks okp okc okm okh s)) v) = true /\
   opened (vol (snd (volume_create v (Some t) u oks okp okc okm okh s)) v) = false).
Proof.
  intros s v t u oks okp okc okm okh I C B R. unfold volume_create.
  destruct oks; cbn [negb]; [| cbn [fst snd]; split; [exact I | discriminate]].
  unfold alloc.
  set (s1 := put v _ _).
  pose proof (own_dead _ (i_fine s I v) C) as OD. rewrite B in OD. cbn [opt] in OD.
  destruct (f_dead _ (i_fine s I v) C) as (_ & _ & OPD).
  assert (V1 : vol s1 v = {| box := Some (fresh s); opened := false; vty := None; uuid := Null; usize := 0; copied := []; ucopy := false; priv := None; cnt := false; frozen := 0; refs := 0 |})
    by (unfold s1, put; cbn [vol]; apply upd_same).
  assert (I1 : inv s1).
  { apply (inv_quiet s s1 v [fresh s] []); rewrite ?V1; auto; try noin; unfold s1, put; cbn [vol live fresh faults hooks ext]; auto.
    - apply (i_faults s I).
    - intros w D. apply upd_other. exact D.
    - constructor; cbn; auto; try discriminate; try tauto.
    - repeat constructor. auto.
    - constructor; [apply fresh_not; auto | apply (i_nodup s I)].
    - intro b. cbn [In]. tauto.
    - intros b [<- | []]. lia.
    - intro b. rewrite OD. cbn. tauto. }
  destruct (init_inv s1 v t u true okp okc okm okh I1) as (I2 & C2 & O2 & B2); [rewrite V1; reflexivity | exact R |].
  destruct (volume_init v (Some t) u true okp okc okm okh s1) as [r s2] eqn:E. cbn [fst snd] in *.
  destruct r; cbn [fst snd]; [auto |]. split; [| discriminate].
  rewrite V1 in B2. cbn [box] in B2.
  pose proof (drop_box s2 v I2 C2 O2) as D. rewrite B2 in D. exact D.
Qed.

(** *** ocf_volume_move: what the volume had is freed, then the other's belongings change hands *)
Lemma transfer_inv : forall s v w, inv s -> v <> w -> cnt (vol s v) = true -> cnt (vol s w) = true ->
  priv (vol s v) = None -> own_ptr (uuid (vol s v)) = [] -> opened (vol s v) = false ->
  forall s', vol s' v = {| box := box (vol s v); opened := opened (vol s w); vty := vty (vol s w); uuid := uuid (vol s w); usize := usize (vol s w); copied := copied (vol s w);
                           ucopy := ucopy (vol s w); priv := priv (vol s w); cnt := cnt (vol s v); frozen := frozen (vol s v); refs := refs (vol s v) |} ->
  vol s' w = {| box := box (vol s w); opened := false; vty := None; uuid := Null; usize := usize (vol s w); copied := []; ucopy := ucopy (vol s w); priv := None;
                cnt := cnt (vol s w); frozen := frozen (vol s w); refs := refs (vol s w) |} ->
  (forall u, u <> v -> u <> w -> vol s' u = vol s u) ->
  live s' = live s -> fresh s' = fresh s -> faults s' = faults s -> hooks s' = hooks s -> inv s'.
Proof.
  intros s v w I D CV CW PV UV OV s' EV EW EO L FR FA HK.
  set (loot := opt (priv (vol s w)) ++ own_ptr (uuid (vol s w))).
  assert (OW : owned (vol s w) = opt (box (vol s w)) ++ loot) by reflexivity.
  assert (OV0 : owned (vol s v) = opt (box (vol s v))) by (unfold owned; rewrite PV, UV; apply app_nil_r).
  assert (OV' : owned (vol s' v) = opt (box (vol s v)) ++ loot) by (rewrite EV; reflexivity).
  assert (OW' : owned (vol s' w) = opt (box (vol s w))) by (rewrite EW; unfold owned; cbn [box priv uuid opt own_ptr]; apply app_nil_r).
  assert (SPLIT : forall b, In b (opt (box (vol s w))) -> In b loot -> False).
  { intros b X Y. pose proof (i_own s I w) as N. rewrite OW in N. destruct (box (vol s w)) as [q |]; cbn in X; [| exact X].
    destruct X as [-> | []]. cbn [opt app] in N. inversion N. contradiction. }
  assert (WHO : forall u b, In b (owned (vol s' u)) ->
            (u = v /\ (In b (owned (vol s v)) \/ In b loot)) \/ (u = w /\ In b (owned (vol s w)) /\ ~ In b loot) \/ (u <> v /\ u <> w /\ In b (owned (vol s u)))).
  { intros u b B. destruct (Nat.eq_dec u v) as [-> | N]; [left; split; [reflexivity |]; rewrite OV', in_app_iff in B; rewrite OV0; exact B |].
    right. destruct (Nat.eq_dec u w) as [-> | M]; [left; split; [reflexivity |]; rewrite OW' in B; rewrite OW, in_app_iff; split; [auto | intro; eapply SPLIT; eauto] |].
    right. rewrite EO in B by assumption. auto. }
  assert (LOOT : forall b, In b loot -> In b (owned (vol s w))) by (intros b B; rewrite OW; apply in_or_app; auto).
  constructor; rewrite ?L, ?FR, ?FA, ?HK; try apply I.
  - intro u. destruct (Nat.eq_dec u v) as [-> | N]; [| destruct (Nat.eq_dec u w) as [-> | M]; [| rewrite EO by assumption; apply (i_fine s I)]].
    + rewrite EV. pose proof (i_fine s I w) as FW. constructor; cbn [cnt priv uuid opened vty ucopy refs].
      * congruence.
      * intros _. apply (f_ty _ FW CW).
      * apply (f_open _ FW).
      * intros _. apply (f_copy _ FW CW).
      * apply (f_refs _ (i_fine s I v)).
    + rewrite EW. constructor; cbn [cnt priv uuid opened vty ucopy refs]; auto; try congruence.
      * intros _. destruct (ucopy (vol s w)); [discriminate | reflexivity].
      * apply (f_refs _ (i_fine s I w)).
  - intro u. destruct (Nat.eq_dec u v) as [-> | N]; [| destruct (Nat.eq_dec u w) as [-> | M]; [| rewrite EO by assumption; apply (i_own s I)]].
    + rewrite OV'. assert (NL : NoDup loot).
      { pose proof (i_own s I w) as N. rewrite OW in N. destruct (box (vol s w)); cbn [opt app] in N; [inversion N; assumption | exact N]. }
      destruct (box (vol s v)) as [q |] eqn:Q; cbn [opt app]; [| exact NL]. constructor; [| exact NL].
      intro Z. apply D. apply (i_uniq s I v w q); [rewrite OV0; left; reflexivity | apply LOOT; exact Z].
    + rewrite OW'. apply nodup_opt.
  - intros u b B. destruct (WHO u b B) as [(-> & [X | X]) | [(-> & X & _) | (_ & _ & X)]].
    + apply (i_live s I v). exact X.
    + apply (i_live s I w). apply LOOT. exact X.
    + apply (i_live s I w). exact X.
    + apply (i_live s I u). exact X.
  - intros u u' b B B'. destruct (WHO u b B) as [(-> & X) | [(-> & X & X') | (N & M & X)]], (WHO u' b B') as [(-> & Y) | [(-> & Y & Y') | (N' & M' & Y)]]; auto.
    + exfalso. destruct X as [X | X]; [| contradiction]. apply D. apply (i_uniq s I v w b); assumption.
    + exfalso. destruct X as [X | X]; [apply N'; apply (i_uniq s I u' v b); assumption | apply M'; apply (i_uniq s I u' w b); auto].
    + exfalso. destruct Y as [Y | Y]; [| contradiction]. apply D. apply (i_uniq s I v w b); assumption.
    + exfalso. apply M'. apply (i_uniq s I u' w b); assumption.
    + exfalso. destruct Y as [Y | Y]; [apply N; apply (i_uniq s I u v b); assumption | apply M; apply (i_uniq s I u w b); auto].
    + exfalso. apply M. apply (i_uniq s I u w b); assumption.
    + apply (i_uniq s I u u' b); assumption.
  - intros b B. destruct (i_some s I b B) as (u & U). destruct (Nat.eq_dec u v) as [-> | N].
    + exists v. rewrite OV', <- OV0. apply in_or_app. auto.
    + destruct (Nat.eq_dec u w) as [-> | M].
      * rewrite OW, in_app_iff in U. destruct U as [U | U]; [exists w; rewrite OW'; exact U | exists v; rewrite OV'; apply in_or_app; auto].
      * exists u. rewrite EO by assumption. exact U.
  - intro p. destruct (i_opens s I p) as [E | (E & u & P & O)]; [left; exact E |]. right. split; [exact E |].
    destruct (Nat.eq_dec u v) as [-> | N]; [congruence |]. destruct (Nat.eq_dec u w) as [-> | M].
    + exists v. rewrite EV. auto.
    + exists u. rewrite EO by assumption. auto.
  - intros u p P O. destruct (Nat.eq_dec u v) as [-> | N].
    + rewrite EV in P, O. cbn in P, O. apply (i_opened s I w); assumption.
    + destruct (Nat.eq_dec u w) as [-> | M]; [rewrite EW in O; discriminate |]. rewrite EO in P, O by assumption. apply (i_opened s I u); assumption.
Qed.

Lemma move_inv : forall s v w, inv s -> v <> w -> cnt (vol s v) = true -> opened (vol s v) = false -> cnt (vol s w) = true ->
  inv (volume_move v w s).
Proof.
  intros s v w I D CV OV CW. unfold volume_move.
  rewrite (f_refs _ (i_fine s I v)), (f_refs _ (i_fine s I w)). cbn [Nat.eqb negb orb].
  pose proof (lose_out s v I CV) as LO. cbn zeta in LO.
  change (if ucopy (vol s v) then free_ptr (uuid (vol s v)) (free_opt (priv (vol s v)) s) else free_opt (priv (vol s v)) s) with (lose (vol s v) s).
  set (s1 := lose (vol s v) s) in *. destruct LO as (A & B & C & E & G & H & J).
  set (x := {| box := box (vol s v); opened := false; vty := None; uuid := Null; usize := 0; copied := []; ucopy := ucopy (vol s v); priv := None;
               cnt := cnt (vol s v); frozen := frozen (vol s v); refs := refs (vol s v) |}).
  set (s2 := put v x s1).
  assert (V2 : vol s2 v = x) by (unfold s2, put; cbn [vol]; apply upd_same).
  assert (W2 : forall u, u <> v -> vol s2 u = vol s u) by (intros u N; unfold s2, put; cbn [vol]; rewrite upd_other by exact N; rewrite B; reflexivity).
  assert (I2 : inv s2).
  { apply (lose_inv s s2 v x); auto; try (intro; unfold s2, put; cbn [hooks]; rewrite E; auto).
    unfold x. constructor; cbn [cnt priv uuid opened vty ucopy refs]; auto; try congruence; [| apply (f_refs _ (i_fine s I v))].
    intros _. destruct (ucopy (vol s v)); [discriminate | reflexivity]. }
  apply (transfer_inv s2 v w I2 D); rewrite ?V2, ?W2 by auto; auto; unfold put; cbn [vol live fresh faults hooks ext].
  - rewrite upd_other by exact D. rewrite upd_same. unfold x. cbn [box cnt frozen refs]. rewrite (f_refs _ (i_fine s I v)). reflexivity.
  - rewrite upd_same, (f_refs _ (i_fine s I w)). reflexivity.
  - intros u N M. rewrite !upd_other by assumption. rewrite B, W2 by exact N. reflexivity.
Qed.

(** *** the rest *)
Lemma set_uuid_inv : forall s v k n, inv s -> cnt (vol s v) = true -> ucopy (vol s v) = false -> inv (volume_set_uuid v k n s).
Proof.
  intros s v k n I C U. unfold volume_set_uuid. rewrite U. set (x' := {| box := _ |}).
  pose proof (f_copy _ (i_fine s I v) C) as FC. rewrite U in FC.
  assert (OW : owned x' = owned (vol s v)) by (unfold owned, x'; cbn [box priv uuid own_ptr]; rewrite FC; reflexivity).
  assert (PV : forall u, priv (vol (put v x' s) u) = priv (vol s u) /\ opened (vol (put v x' s) u) = opened (vol s u)).
  { intro u. unfold put. cbn [vol]. destruct (Nat.eq_dec u v) as [-> | D]; [rewrite upd_same | rewrite upd_other by exact D]; auto. }
  apply (inv_change s _ v [] []); auto; try noin; unfold put; cbn [vol live fresh faults hooks ext]; rewrite ?upd_same, ?OW; auto; try apply I.
  - intros w D. apply upd_other. exact D.
  - unfold x'. destruct (i_fine s I v). constructor; cbn [cnt priv uuid opened vty ucopy refs]; auto; congruence.
  - intro b. cbn [In]. tauto.
  - intro b. cbn [In]. tauto.
  - intro p. destruct (i_opens s I p) as [E | (E & u & P & O)]; [left; exact E |]. right. split; [exact E |]. exists u.
    destruct (PV u) as [PU OU]. unfold put in PU, OU. cbn [vol] in PU, OU. rewrite PU, OU. auto.
  - intros u p. destruct (PV u) as [PU OU]. unfold put in PU, OU. cbn [vol] in PU, OU. rewrite PU, OU. apply (i_opened s I u).
Qed.

Lemma opens1 : forall p q l, opens p (l ++ [Opened q]) = opens p l + (if p =? q then 1 else 0) /\ closes p (l ++ [Opened q]) = closes p l.
Proof. intros. rewrite opens_app, closes_app. unfold opens at 2, closes at 2. cbn. destruct (p =? q); cbn; lia. Qed.
Lemma closes1 : forall p q l, opens p (l ++ [Closed q]) = opens p l /\ closes p (l ++ [Closed q]) = closes p l + (if p =? q then 1 else 0).
Proof. intros. rewrite opens_app, closes_app. unfold opens at 2, closes at 2. cbn. destruct (p =? q); cbn; lia. Qed.
Lemma priv_uniq : forall s v w p, inv s -> priv (vol s v) = Some p -> priv (vol s w) = Some p -> v = w.
Proof. intros s v w p I A B. apply (i_uniq s I v w p); unfold owned; [rewrite A | rewrite B]; apply in_or_app; right; left; reflexivity. Qed.
Lemma priv_lt : forall s v p, inv s -> priv (vol s v) = Some p -> p < fresh s.
Proof. intros s v p I A. apply (i_fresh s I). apply (i_live s I v). unfold owned. rewrite A. apply in_or_app; right; left; reflexivity. Qed.

Lemma open_inv : forall s v ok, inv s -> cnt (vol s v) = true -> vty (vol s v) <> None -> inv (snd (volume_open v ok s)).
Proof.
  intros s v ok I C T. unfold volume_open. destruct (opened (vol s v)) eqn:O; [exact I |].
  pose proof (f_ty _ (i_fine s I v) C T) as P. destruct (vty (vol s v)) as [t |] eqn:VT; [| congruence].
  destruct (priv (vol s v)) as [p |] eqn:PV; [| congruence]. destruct ok; [| exact I]. cbn [snd].
  assert (EQ : opens p (hooks s) = closes p (hooks s)).
  { destruct (i_opens s I p) as [E | (E & u & PU & OU)]; [exact E |]. rewrite (priv_uniq s u v p I PU PV) in OU. congruence. }
  unfold put, call. cbn [vol live fresh faults hooks ext].
  apply (inv_change s _ v [] []); auto; try noin; cbn [vol live fresh faults hooks ext]; rewrite ?upd_same; auto; try apply I.
  - intros w D. apply upd_other. exact D.
  - destruct (i_fine s I v). constructor; cbn [set_open cnt priv uuid opened vty ucopy refs]; auto; congruence.
  - intro b. cbn [In]. tauto.
  - intro b. unfold owned. cbn [set_open box priv uuid In]. tauto.
  - intros q L. pose proof (priv_lt s v p I PV). destruct (opens1 q p (hooks s)) as [-> ->]. destruct (i_hooks s I q L) as [-> ->].
    destruct (Nat.eqb_spec q p); [lia | auto].
  - intro q. destruct (opens1 q p (hooks s)) as [-> ->]. destruct (Nat.eqb_spec q p) as [-> | D].
    + right. split; [lia |]. exists v. rewrite upd_same. cbn. auto.
    + destruct (i_opens s I q) as [E | (E & u & PU & OU)]; [left; lia |]. right. split; [lia |]. exists u.
      destruct (Nat.eq_dec u v) as [-> | N]; [congruence |]. rewrite upd_other by exact N. auto.
  - intros u q PU OU. destruct (opens1 q p (hooks s)) as [-> ->]. destruct (Nat.eq_dec u v) as [-> | N].
    + rewrite upd_same in PU. cbn in PU. assert (q = p) as -> by congruence. rewrite Nat.eqb_refl. lia.
    + rewrite upd_other in PU, OU by exact N. destruct (Nat.eqb_spec q p) as [-> | D]; [destruct N; apply (priv_uniq s u v p I); assumption |].
      rewrite (i_opened s I u q PU OU). lia.
Qed.
Lemma close_inv : forall s v, inv s -> cnt (vol s v) = true -> vty (vol s v) <> None -> inv (volume_close v s) /\ opened (vol (volume_close v s) v) = false /\ cnt (vol (volume_close v s) v) = true.
Proof.
  intros s v I C T. unfold volume_close.
  pose proof (f_ty _ (i_fine s I v) C T) as P. destruct (vty (vol s v)) as [t |] eqn:VT; [| congruence].
  destruct (priv (vol s v)) as [p |] eqn:PV; [| congruence]. destruct (opened (vol s v)) eqn:O; [| auto].
  assert (EQ : opens p (hooks s) = S (closes p (hooks s))) by (apply (i_opened s I v); assumption).
  unfold put, call. cbn [vol live fresh faults hooks ext]. rewrite upd_same. cbn [set_open opened cnt]. split; [| auto].
  apply (inv_change s _ v [] []); auto; try noin; cbn [vol live fresh faults hooks ext]; rewrite ?upd_same; auto; try apply I.
  - intros w D. apply upd_other. exact D.
  - destruct (i_fine s I v). constructor; cbn [set_open cnt priv uuid opened vty ucopy refs]; auto; congruence.
  - intro b. cbn [In]. tauto.
  - intro b. unfold owned. cbn [set_open box priv uuid In]. tauto.
  - intros q L. pose proof (priv_lt s v p I PV). destruct (closes1 q p (hooks s)) as [-> ->]. destruct (i_hooks s I q L) as [-> ->].
    destruct (Nat.eqb_spec q p); [lia | auto].
  - intro q. destruct (closes1 q p (hooks s)) as [-> ->]. destruct (Nat.eqb_spec q p) as [-> | D]; [left; lia |].
    destruct (i_opens s I q) as [E | (E & u & PU & OU)]; [left; lia |]. right. split; [lia |]. exists u.
    destruct (Nat.eq_dec u v) as [-> | N]; [congruence |]. rewrite upd_other by exact N. auto.
  - intros u q PU OU. destruct (closes1 q p (hooks s)) as [-> ->]. destruct (Nat.eq_dec u v) as [-> | N]; [rewrite upd_same in OU; discriminate |].
    rewrite upd_other in PU, OU by exact N. destruct (Nat.eqb_spec q p) as [-> | D]; [destruct N; apply (priv_uniq s u v p I); assumption |].
    rewrite (i_opened s I u q PU OU). lia.
Qed.

Lemma step_inv : forall o s, inv s -> legal o s -> inv (step o s).
Proof.
  intros o s I L. destruct o; cbn [legal step] in *.
  - apply init_inv; tauto.
  - apply create_inv; tauto.
  - apply deinit_inv; tauto.
  - apply destroy_inv; tauto.
  - destruct L as (D & A & B & C). apply move_inv; assumption.
  - apply set_uuid_inv; tauto.
  - apply open_inv; tauto.
  - apply close_inv; tauto.
Qed.
Lemma runs_inv : forall s s', inv s -> runs s s' -> inv s'.
Proof. intros s s' I R. induction R as [| o s s' L R IH]; [exact I |]. apply IH. apply step_inv; assumption. Qed.
Lemma new_inv : forall e, inv (new e).
Proof.
  intro e. constructor; cbn; auto; try (constructor; cbn; auto; discriminate); try tauto; try constructor; cbn; auto; try discriminate; intros; try discriminate; contradiction.
Qed.

(** *** what a call leaves alone *)
Lemma vol_free : forall b s, vol (free_block b s) = vol s.
Proof. intros. unfold free_block. destruct (existsb _ _); reflexivity. Qed.
Lemma vol_free_opt : forall b s, vol (free_opt b s) = vol s.
Proof. intros [b |] s; [apply vol_free | reflexivity]. Qed.
Lemma vol_free_ptr : forall p s, vol (free_ptr p s) = vol s.
Proof. intros [| b | k] s; cbn; [reflexivity | apply vol_free | reflexivity]. Qed.
Lemma vol_if_free : forall (c : bool) p s, vol (if c then free_ptr p s else s) = vol s.
Proof. intros [|] p s; [apply vol_free_ptr | reflexivity]. Qed.
Lemma put_other : forall v x s w, w <> v -> vol (put v x s) w = vol s w.
Proof. intros. unfold put. cbn [vol]. apply upd_other. assumption. Qed.
Lemma err1_other : forall v p s w, w <> v -> vol (err1 v p s) w = vol s w.
Proof. intros. unfold err1. rewrite put_other by assumption. rewrite vol_free. reflexivity. Qed.
Lemma err2_other : forall v p s w, w <> v -> vol (err2 v p s) w = vol s w.
Proof. intros. unfold err2. rewrite err1_other, put_other by assumption. reflexivity. Qed.
Lemma err3_other : forall v p s w, w <> v -> vol (err3 v p s) w = vol s w.
Proof. intros. unfold err3. rewrite err2_other, put_other, vol_if_free by assumption. reflexivity. Qed.
Lemma hook_other : forall v p t ok s w, w <> v -> vol (snd (init_hook v p t ok s)) w = vol s w.
Proof. intros. unfold init_hook. destruct (has_init t); [destruct ok |]; cbn [snd]; try reflexivity. apply err3_other. assumption. Qed.
Lemma init_other : forall v t u copy okp okc okm okh s w, w <> v -> vol (snd (volume_init v t u copy okp okc okm okh s)) w = vol s w.
Proof.
  intros v t u copy okp okc okm okh s w D. unfold volume_init. destruct t as [t |]; [| reflexivity].
  destruct (match u with Some (_, n) => (UUID_MAX <? N.of_nat n)%N | None => false end); [reflexivity |].
  destruct okp; cbn [negb]; [| reflexivity]. unfold alloc, init_head.
  destruct okc; cbn [negb snd].
  2: { rewrite err1_other, put_other by exact D. reflexivity. }
  destruct u as [[k n] |]; cbn [snd]; [| rewrite !put_other by exact D; reflexivity].
  match goal with |- vol (snd (init_uuid v _ t k n copy okm okh ?y)) w = _ =>
    assert (E : vol y w = vol s w) by (rewrite !put_other by exact D; reflexivity); generalize dependent y end.
  intros y E. rewrite <- E. unfold init_uuid. destruct copy.
  - destruct okm; cbn [negb].
    + unfold alloc. cbn [ext]. destruct (ext y k); [| reflexivity]. rewrite hook_other, put_other by exact D. reflexivity.
    + cbn [snd]. rewrite err2_other, !put_other by exact D. reflexivity.
  - rewrite hook_other, !put_other by exact D. reflexivity.
Qed.
Lemma create_other : forall v t u oks okp okc okm okh s w, w <> v -> vol (snd (volume_create v t u oks okp okc okm okh s)) w = vol s w.
Proof.
  intros v t u oks okp okc okm okh s w D. unfold volume_create. destruct oks; cbn [negb]; [| reflexivity]. unfold alloc.
  set (s1 := put v _ _).
  pose proof (init_other v t u true okp okc okm okh s1 w D) as E.
  destruct (volume_init v t u true okp okc okm okh s1) as [r s2]. cbn [snd] in E.
  assert (E1 : vol s1 w = vol s w) by (unfold s1; rewrite put_other by exact D; reflexivity).
  destruct r; cbn [snd]; [congruence |]. rewrite put_other, vol_free by exact D. congruence.
Qed.
Lemma deinit_other : forall v s w, w <> v -> vol (volume_deinit v s) w = vol s w.
Proof.
  intros v s w D. unfold volume_deinit. rewrite put_other by exact D. rewrite vol_if_free.
  assert (X : forall (c : bool) a, vol (if c then a else fail BadCount a) = vol a) by (intros [|] a; reflexivity).
  rewrite X, vol_free_opt. destruct (vty (vol s v)) as [t |]; [| reflexivity]. destruct (priv (vol s v)); [| reflexivity]. destruct (has_deinit t); reflexivity.
Qed.
Lemma destroy_other : forall v s w, w <> v -> vol (volume_destroy v s) w = vol s w.
Proof. intros v s w D. unfold volume_destroy. rewrite put_other, vol_free_opt by exact D. apply deinit_other. exact D. Qed.
Lemma open_other : forall v ok s w, w <> v -> vol (snd (volume_open v ok s)) w = vol s w.
Proof.
  intros v ok s w D. unfold volume_open. destruct (opened (vol s v)); [reflexivity |]. destruct (vty (vol s v)), (priv (vol s v)); try reflexivity.
  destruct ok; [| reflexivity]. cbn [snd]. rewrite put_other by exact D. reflexivity.
Qed.
Lemma close_other : forall v s w, w <> v -> vol (volume_close v s) w = vol s w.
Proof.
  intros v s w D. unfold volume_close. destruct (vty (vol s v)), (priv (vol s v)); try reflexivity. destruct (opened (vol s v)); [| reflexivity].
  rewrite put_other by exact D. reflexivity.
Qed.
Lemma move_other : forall v x s w, w <> v -> w <> x -> vol (volume_move v x s) w = vol s w.
Proof.
  intros v x s w D E. unfold volume_move. destruct (negb _ || negb _); [reflexivity |]. rewrite !put_other, vol_if_free, vol_free_opt by assumption. reflexivity.
Qed.
Lemma set_uuid_other : forall v k n s w, w <> v -> vol (volume_set_uuid v k n s) w = vol s w.
Proof. intros. unfold volume_set_uuid. rewrite put_other, vol_if_free by assumption. reflexivity. Qed.
Lemma step_other : forall o s w, ~ In w (touched o) -> vol (step o s) w = vol s w.
Proof.
  intros o s w N. destruct o; cbn [touched step In] in *.
  - apply init_other. intuition congruence.
  - apply create_other. intuition congruence.
  - apply deinit_other. intuition congruence.
  - apply destroy_other. intuition congruence.
  - apply move_other; intuition congruence.
  - apply set_uuid_other. intuition congruence.
  - apply open_other. intuition congruence.
  - apply close_other. intuition congruence.
Qed.

(** *** the pool *)
Record pinv (p : pool) (s : st) : Prop := {
  pi_inv : inv s;
  pi_nodup : NoDup (items p);
  pi_count : count p = length (items p);
  pi_items : forall v, In v (items p) -> cnt (vol s v) = true /\ opened (vol s v) = true }.

Lemma remove_length : forall v l, NoDup l -> In v l -> length (remove Nat.eq_dec v l) = length l - 1.
Proof.
  intros v l N I. induction N as [| a l NA N IH]; [contradiction |]. cbn [remove]. destruct (Nat.eq_dec v a) as [-> | D].
  - rewrite notin_remove by exact NA. cbn. lia.
  - destruct I as [E | I]; [congruence |]. cbn [length]. rewrite (IH I). destruct l; [contradiction | cbn; lia].
Qed.

Lemma open_ok : forall v ok s, fst (volume_open v ok s) = true -> opened (vol (snd (volume_open v ok s)) v) = true /\ cnt (vol (snd (volume_open v ok s)) v) = cnt (vol s v).
Proof.
  intros v ok s. unfold volume_open. destruct (opened (vol s v)); [discriminate |]. destruct (vty (vol s v)), (priv (vol s v)); try discriminate.
  destruct ok; [| discriminate]. intros _. cbn [snd]. unfold put. cbn [vol]. rewrite upd_same. cbn. auto.
Qed.
Lemma open_bad : forall v ok s, fst (volume_open v ok s) = false -> opened (vol s v) = false -> vol (snd (volume_open v ok s)) v = vol s v.
Proof.
  intros v ok s. unfold volume_open. destruct (opened (vol s v)); [discriminate |]. destruct (vty (vol s v)), (priv (vol s v)); try reflexivity.
  destruct ok; [discriminate | reflexivity].
Qed.

Lemma init_ty : forall s v t u copy r s', init_res s v t u copy r s' -> r = true -> vty (vol s' v) = Some t.
Proof. intros s v t u copy r s' R E. destruct R; congruence. Qed.
Lemma create_ty : forall s v t u oks okp okc okm okh, inv s -> cnt (vol s v) = false -> box (vol s v) = None -> readable u s ->
  fst (volume_create v (Some t) u oks okp okc okm okh s) = true -> vty (vol (snd (volume_create v (Some t) u oks okp okc okm okh s)) v) = Some t.
Proof.
  intros s v t u oks okp okc okm okh I C B R. unfold volume_create. destruct oks; cbn [negb]; [| discriminate]. unfold alloc.
  set (s1 := put v _ _).
  assert (I1 : inv s1).
  { pose proof (own_dead _ (i_fine s I v) C) as OD. rewrite B in OD. cbn [opt] in OD. destruct (f_dead _ (i_fine s I v) C) as (_ & _ & OPD).
    apply (inv_quiet s s1 v [fresh s] []); auto; try noin; unfold s1, put; cbn [vol live fresh faults hooks ext]; rewrite ?upd_same; auto.
    - apply (i_faults s I).
    - intros w D. apply upd_other. exact D.
    - constructor; cbn; auto; try discriminate; try tauto.
    - repeat constructor. auto.
    - constructor; [apply fresh_not; auto | apply (i_nodup s I)].
    - intro b. cbn [In]. tauto.
    - intros b [<- | []]. lia.
    - intro b. rewrite OD. cbn. tauto. }
  pose proof (init_out s1 v t u true okp okc okm okh I1 R) as IR.
  destruct (volume_init v (Some t) u true okp okc okm okh s1) as [r s2]. cbn [fst snd] in *.
  destruct r; cbn [fst snd]; [| discriminate]. intros _. apply (init_ty _ _ _ _ _ _ _ IR). reflexivity.
Qed.

Lemma add_inv : forall v t u oks okp okc okm okh oko p s, pinv p s -> cnt (vol s v) = false -> box (vol s v) = None -> readable (Some u) s ->
  let '(r, p', s') := pool_add v t u oks okp okc okm okh oko p s in
  pinv p' s' /\ (r = true -> items p' = v :: items p) /\ (r = false -> p' = p).
Proof.
  intros v t u oks okp okc okm okh oko p s P C B R. pose proof P as [I N CT IT]. unfold pool_add.
  destruct t as [t |]; [| split; [exact P | split; [discriminate | auto]]].
  assert (NV : ~ In v (items p)) by (intro Z; destruct (IT v Z); congruence).
  destruct (create_inv s v t (Some u) oks okp okc okm okh I C B R) as (I1 & S1).
  pose proof (create_ty s v t (Some u) oks okp okc okm okh I C B R) as T1.
  assert (O1 : forall w, In w (items p) -> vol (snd (volume_create v (Some t) (Some u) oks okp okc okm okh s)) w = vol s w)
    by (intros w W; apply create_other; intros ->; contradiction).
  destruct (volume_create v (Some t) (Some u) oks okp okc okm okh s) as [r s1]. cbn [fst snd] in *.
  destruct r; cbn [negb].
  2: { split; [| split; [discriminate | auto]]. constructor; auto. intros w W. rewrite (O1 w W). apply IT. exact W. }
  destruct (S1 eq_refl) as (C1 & OP1). specialize (T1 eq_refl).
  assert (I2 : inv (snd (volume_open v oko s1))) by (apply open_inv; auto; congruence).
  pose proof (open_ok v oko s1) as OK. pose proof (open_bad v oko s1) as BAD.
  assert (O2 : forall w, In w (items p) -> vol (snd (volume_open v oko s1)) w = vol s w)
    by (intros w W; rewrite <- (O1 w W); apply open_other; intros ->; contradiction).
  destruct (volume_open v oko s1) as [r s2]. cbn [fst snd] in *. destruct r.
  - split; [| split; [reflexivity | discriminate]]. constructor; cbn [items count]; auto.
    + constructor; assumption.
    + cbn. congruence.
    + intros w [<- | W]; [destruct (OK eq_refl); split; congruence | rewrite (O2 w W); apply IT; exact W].
  - split; [| split; [discriminate | auto]]. constructor; auto.
    + apply destroy_inv; rewrite ?BAD by auto; assumption.
    + intros w W. rewrite destroy_other by (intros ->; contradiction). rewrite (O2 w W). apply IT. exact W.
Qed.

Lemma lookup_sound : forall l id u s v, lookup_in l id u s = Some v ->
  In v l /\ exists t c, vty (vol s v) = Some t /\ tid t = id /\ uuid_bytes s (vol s v) = Some c /\ prefix_eq c u = true.
Proof.
  induction l as [| a l IH]; intros id u s v H; cbn [lookup_in] in H; [discriminate |].
  destruct (vty (vol s a)) as [t |] eqn:T; [| apply IH in H; cbn [In]; tauto].
  destruct (uuid_bytes s (vol s a)) as [c |] eqn:U; [| apply IH in H; cbn [In]; tauto].
  destruct ((tid t =? id) && prefix_eq c u) eqn:E.
  - injection H as <-. apply andb_true_iff in E. destruct E as [E1 E2]. apply Nat.eqb_eq in E1. split; [left; reflexivity | exists t, c; auto].
  - apply IH in H. cbn [In]. tauto.
Qed.
Lemma lookup_none : forall l id u s, lookup_in l id u s = None -> forall v t c, In v l -> vty (vol s v) = Some t -> tid t = id -> uuid_bytes s (vol s v) = Some c -> prefix_eq c u = false.
Proof.
  induction l as [| a l IH]; intros id u s H v t c V T E U; [contradiction |]. cbn [lookup_in] in H. destruct V as [-> | V].
  - rewrite T, U, E, Nat.eqb_refl in H. cbn [andb] in H. destruct (prefix_eq c u); [discriminate | reflexivity].
  - destruct (vty (vol s a)); [destruct (uuid_bytes s (vol s a)) |]; try (destruct (_ && _); [discriminate |]); eapply IH; eauto.
Qed.
Lemma prefix_same : forall a b, length a = length b -> prefix_eq a b = true <-> a = b.
Proof.
  induction a as [| x a IH]; intros [| y b] L; cbn in *; try lia; [tauto |]. rewrite andb_true_iff, N.eqb_eq, IH by lia. split; [intros [-> ->]; reflexivity | intro E; injection E; auto].
Qed.

Lemma remove_inv : forall v p s, pinv p s -> In v (items p) ->
  forall s', inv s' -> cnt (vol s' v) = true -> opened (vol s' v) = false -> (forall w, In w (items p) -> w <> v -> vol s' w = vol s w) ->
  pinv (fst (pool_remove v p s')) (snd (pool_remove v p s')).
Proof.
  intros v p s P V s' I' C' O' E. destruct P as [I N CT IT]. unfold pool_remove. cbn [fst snd]. constructor; cbn [items count].
  - apply destroy_inv; assumption.
  - apply remove_nodup. exact N.
  - rewrite remove_length by assumption. lia.
  - intros w W. apply in_remove_iff in W. destruct W as [W D]. rewrite destroy_other by exact D. rewrite E by assumption. apply IT. exact W.
Qed.

Lemma move_out : forall v w s, inv s -> v <> w ->
  let s' := volume_move v w s in
  opened (vol s' v) = opened (vol s w) /\ vty (vol s' v) = vty (vol s w) /\ priv (vol s' v) = priv (vol s w) /\ uuid (vol s' v) = uuid (vol s w) /\
  cnt (vol s' v) = cnt (vol s v) /\ frozen (vol s' v) = frozen (vol s v) /\ ucopy (vol s' v) = ucopy (vol s w) /\
  cnt (vol s' w) = cnt (vol s w) /\ opened (vol s' w) = false.
Proof.
  intros v w s I D. unfold volume_move. rewrite (f_refs _ (i_fine s I v)), (f_refs _ (i_fine s I w)). cbn [Nat.eqb negb orb].
  unfold put. cbn [vol]. rewrite upd_same. rewrite upd_other by exact D. rewrite upd_same. cbn [opened vty priv uuid cnt frozen ucopy]. repeat split.
Qed.
Lemma hooks_free : forall b s, hooks (free_block b s) = hooks s.
Proof. intros. unfold free_block. destruct (existsb _ _); reflexivity. Qed.

Lemma hooks_free_opt : forall b s, hooks (free_opt b s) = hooks s.
Proof. intros [b |] s; [apply hooks_free | reflexivity]. Qed.
Lemma hooks_if_free : forall (c : bool) p s, hooks (if c then free_ptr p s else s) = hooks s.
Proof. intros [|] [| b | k] s; cbn [free_ptr]; rewrite ?hooks_free; reflexivity. Qed.
Lemma hooks_put : forall v x s, hooks (put v x s) = hooks s.
Proof. reflexivity. Qed.
Lemma move_hooks : forall v w s, hooks (volume_move v w s) = hooks s.
Proof. intros. unfold volume_move. destruct (negb _ || negb _); [reflexivity |]. rewrite !hooks_put, hooks_if_free, hooks_free_opt. reflexivity. Qed.
Lemma destroy_hooks : forall w s, vty (vol s w) = None -> hooks (volume_destroy w s) = hooks s.
Proof.
  intros w s V. unfold volume_destroy. rewrite hooks_put, hooks_free_opt. unfold volume_deinit. rewrite hooks_put, hooks_if_free, V.
  destruct (cnt (vol s w)); [rewrite hooks_free_opt; reflexivity |]. cbn [fail hooks]. apply hooks_free_opt.
Qed.

Lemma load_inv : forall v t m n okp okc okh try_open oko p s, pinv p s -> cnt (vol s v) = false -> box (vol s v) = None -> ext s m <> None ->
  let '(r, p', s') := load_core v t m n okp okc okh try_open oko p s in
  pinv p' s' /\ (forall w, In w (items p') -> In w (items p)) /\
  (p' <> p -> r = true /\ cnt (vol s' v) = true /\ opened (vol s' v) = true).
Proof.
  intros v t m n okp okc okh try_open oko p s P C B R. pose proof P as [I N CT IT]. unfold load_core.
  assert (NV : ~ In v (items p)) by (intro Z; destruct (IT v Z); congruence).
  destruct (init_inv s v t (Some (m, n)) false okp okc true okh I C R) as (I1 & C1 & O1 & _).
  pose proof (init_out s v t (Some (m, n)) false okp okc true okh I R) as IR.
  assert (OT : forall w, In w (items p) -> vol (snd (volume_init v (Some t) (Some (m, n)) false okp okc true okh s)) w = vol s w)
    by (intros w W; apply init_other; intros ->; contradiction).
  destruct (volume_init v (Some t) (Some (m, n)) false okp okc true okh s) as [r s1] eqn:VI. cbn [fst snd] in *.
  assert (P1 : pinv p s1) by (constructor; auto; intros w W; rewrite (OT w W); apply IT; exact W).
  destruct r; cbn [negb]; [| split; [exact P1 | split; [auto | congruence]]].
  pose proof (init_ty _ _ _ _ _ _ _ IR eq_refl) as T1.
  assert (UB : uuid_bytes s1 (vol s1 v) <> None).
  { unfold volume_init in VI. destruct (UUID_MAX <? N.of_nat n)%N; [discriminate |]. destruct okp; cbn [negb] in VI; [| discriminate].
    unfold alloc in VI. destruct okc; cbn [negb] in VI; [| discriminate]. unfold init_uuid, init_hook in VI.
    destruct (has_init t); [destruct okh; [| discriminate] |]; injection VI as <-; unfold call, put; cbn [vol ext]; rewrite !upd_same; unfold uuid_bytes; cbn [uuid with_uuid];
      cbn [init_head put ext]; destruct (ext s m) eqn:EM; congruence. }
  destruct (uuid_bytes s1 (vol s1 v)) as [u |] eqn:UE; [| congruence].
  destruct (pool_lookup p (tid t) u s1) as [w |] eqn:LK.
  - unfold pool_lookup in LK. destruct (lookup_sound _ _ _ _ _ LK) as (W & _).
    assert (D : v <> w) by (intros ->; contradiction).
    destruct (pi_items p s1 P1 w W) as (CW & OW).
    assert (I2 : inv (volume_move v w s1)) by (apply move_inv; assumption).
    destruct (move_out v w s1 I1 D) as (M1 & M2 & M3 & M4 & M5 & M6 & M7 & M8 & M9).
    pose proof (remove_inv w p s1 P1 W (volume_move v w s1) I2) as PR.
    assert (PI : pinv (fst (pool_remove w p (volume_move v w s1))) (snd (pool_remove w p (volume_move v w s1)))).
    { apply PR; [congruence | exact M9 |]. intros y Y YD. apply move_other; [intros ->; contradiction | exact YD]. }
    unfold pool_remove in *. cbn [fst snd] in *. split; [exact PI |]. split.
    + intros y Y. cbn [items] in Y. apply in_remove_iff in Y. apply Y.
    + intros _. split; [reflexivity |]. rewrite !destroy_other by exact D. split; congruence.
  - destruct try_open; [| split; [exact P1 | split; [auto | congruence]]]. split; [| split; [auto | congruence]].
    constructor; auto.
    + apply open_inv; auto; congruence.
    + intros y Y. rewrite open_other by (intros ->; contradiction). apply (pi_items p s1 P1). exact Y.
Qed.

Lemma pruns_inv : forall a b, pruns a b -> pinv (fst a) (snd a) -> pinv (fst b) (snd b).
Proof.
  intros a b R. induction R as [| a b c ST R IH]; intro P; [exact P |]. apply IH. clear IH R c.
  destruct ST as [v t u oks okp okc okm okh oko p s H1 H2 H3 | v t m n okp okc okh try_open oko p s H1 H2 H3 | o p s H1 H2]; cbn [fst snd] in P.
  - pose proof (add_inv v t u oks okp okc okm okh oko p s P H1 H2 H3) as A.
    destruct (pool_add v t u oks okp okc okm okh oko p s) as [[r p'] s']. apply A.
  - pose proof (load_inv v t m n okp okc okh try_open oko p s P H1 H2 H3) as A.
    destruct (load_core v t m n okp okc okh try_open oko p s) as [[r p'] s']. apply A.
  - cbn [fst snd]. destruct P as [I N CT IT]. constructor; auto.
    + apply step_inv; assumption.
    + intros v V. rewrite step_other by (apply H2; exact V). apply IT. exact V.
Qed.

(** ** C64 *)

(** Over any legal sequence of calls, whichever allocations and hooks fail: no faulty access, no double or
    foreign free, and the live blocks are exactly what the volumes hold, each held once. *)
Theorem C64_balanced : forall e s, runs (new e) s ->
  faults s = [] /\ NoDup (live s) /\
  (forall b, In b (live s) <-> exists v, In b (owned (vol s v))) /\
  (forall v, NoDup (owned (vol s v))) /\
  (forall v w b, In b (owned (vol s v)) -> In b (owned (vol s w)) -> v = w).
Proof.
  intros e s R. pose proof (runs_inv _ _ (new_inv e) R) as I. split; [apply I |]. split; [apply I |]. split; [| split; apply I].
  intro b. split; [apply (i_some s I) | intros (v & B); apply (i_live s I v b B)].
Qed.

(** Once every volume is given up nothing is left. *)
Theorem C64_nothing_left : forall e s, runs (new e) s -> (forall v, cnt (vol s v) = false /\ box (vol s v) = None) -> live s = [].
Proof.
  intros e s R D. pose proof (runs_inv _ _ (new_inv e) R) as I. destruct (live s) as [| b l] eqn:L; [reflexivity |].
  destruct (i_some s I b) as (v & B); [rewrite L; left; reflexivity |]. destruct (D v) as [C X].
  rewrite (own_dead _ (i_fine s I v) C), X in B. contradiction.
Qed.

(** The open and close hooks of one device alternate: a device is closed as often as it was opened, or
    once less, and then exactly one volume, open, still has it. *)
Theorem C64_alternate : forall e s, runs (new e) s -> forall p,
  (opens p (hooks s) = closes p (hooks s) /\ forall v, priv (vol s v) = Some p -> opened (vol s v) = false) \/
  (opens p (hooks s) = S (closes p (hooks s)) /\ exists v, priv (vol s v) = Some p /\ opened (vol s v) = true /\ forall w, priv (vol s w) = Some p -> w = v).
Proof.
  intros e s R p. pose proof (runs_inv _ _ (new_inv e) R) as I. destruct (i_opens s I p) as [E | (E & v & P & O)].
  - left. split; [exact E |]. intros v P. destruct (opened (vol s v)) eqn:O; [| reflexivity]. rewrite (i_opened s I v p P O) in E. lia.
  - right. split; [exact E |]. exists v. repeat split; auto. intros w W. apply (priv_uniq s w v p I); assumption.
Qed.

(** A volume that is open has a type and a device, which was opened and not closed since; so a volume moved away from
    is not open. *)
Theorem C64_open_device : forall e s, runs (new e) s -> forall v, opened (vol s v) = true ->
  vty (vol s v) <> None /\ exists p, priv (vol s v) = Some p /\ opens p (hooks s) = S (closes p (hooks s)).
Proof.
  intros e s R v O. pose proof (runs_inv _ _ (new_inv e) R) as I. pose proof (i_fine s I v) as F. pose proof (f_open _ F O) as T. split; [exact T |].
  assert (C : cnt (vol s v) = true).
  { destruct (cnt (vol s v)) eqn:C; [reflexivity |]. destruct (f_dead _ F C) as (_ & _ & X). congruence. }
  pose proof (f_ty _ F C T) as P. destruct (priv (vol s v)) as [p |] eqn:E; [| contradiction]. exists p. split; [reflexivity |]. apply (i_opened s I v p E O).
Qed.

(** The pool: its count is right, no volume is in it twice, each is open; no fault, nothing lost. *)
Theorem C64_pool : forall e p s, pruns (empty, new e) (p, s) ->
  faults s = [] /\ count p = length (items p) /\ NoDup (items p) /\
  (forall v, In v (items p) -> cnt (vol s v) = true /\ opened (vol s v) = true) /\
  (forall b, In b (live s) <-> exists v, In b (owned (vol s v))).
Proof.
  intros e p s R. assert (P : pinv p s).
  { apply (pruns_inv _ _ R). cbn [fst snd]. constructor; [apply new_inv | constructor | reflexivity | intros v []]. }
  destruct P as [I N C T]. repeat split; auto; try apply I; try (apply T; assumption). intros (v & B). apply (i_live s I v b B).
Qed.

(** A core the pool refuses leaves nothing behind. *)
Theorem C64_refused : forall e p s v t u oks okp okc okm okh oko, pruns (empty, new e) (p, s) ->
  cnt (vol s v) = false -> box (vol s v) = None -> readable (Some u) s ->
  let '(r, p', s') := pool_add v t u oks okp okc okm okh oko p s in
  r = false -> p' = p /\ owned (vol s' v) = [] /\ forall w, w <> v -> vol s' w = vol s w.
Proof.
  intros e p s v t u oks okp okc okm okh oko R C B RD.
  assert (I : inv s) by (pose proof (pruns_inv _ _ R) as P; apply P; constructor; [apply new_inv | constructor | reflexivity | intros y []]).
  pose proof (own_dead _ (i_fine s I v) C) as OD. rewrite B in OD. cbn [opt] in OD.
  unfold pool_add. destruct t as [t |]; [| intros _; auto].
  pose proof (fun w D => create_other v (Some t) (Some u) oks okp okc okm okh s w D) as CO.
  assert (CF : fst (volume_create v (Some t) (Some u) oks okp okc okm okh s) = false -> owned (vol (snd (volume_create v (Some t) (Some u) oks okp okc okm okh s)) v) = []).
  { unfold volume_create. destruct oks; cbn [negb]; [| intros _; exact OD]. unfold alloc. destruct (volume_init _ _ _ _ _ _ _ _ _) as [r s1]. destruct r; cbn [fst snd]; [discriminate |].
    intros _. unfold put. cbn [vol]. rewrite upd_same. reflexivity. }
  destruct (volume_create v (Some t) (Some u) oks okp okc okm okh s) as [r s1]. cbn [fst snd] in *.
  destruct r; cbn [negb]; [| intros _; split; [reflexivity |]; split; [apply CF; reflexivity | exact CO]].
  pose proof (fun w D => open_other v oko s1 w D) as OO.
  destruct (volume_open v oko s1) as [r s2]. cbn [snd] in OO. destruct r; [discriminate |].
  intros _. split; [reflexivity |]. split.
  - unfold volume_destroy, put. cbn [vol]. rewrite upd_same. reflexivity.
  - intros w D. rewrite destroy_other, OO, CO by exact D. reflexivity.
Qed.

(** A core found in the pool: its volume takes over the open device of the pool's volume, which leaves the
    pool; no device is opened or closed for it. *)
Theorem C64_taken : forall e p s v t m n u w okp okc okh try_open oko,
  pruns (empty, new e) (p, s) -> cnt (vol s v) = false -> box (vol s v) = None -> ext s m = Some u ->
  (N.of_nat n <= UUID_MAX)%N -> okp = true -> okc = true -> okh = true ->
  pool_lookup p (tid t) (firstn n u) s = Some w ->
  let '(r, p', s') := load_core v t m n okp okc okh try_open oko p s in
  r = true /\ items p' = remove Nat.eq_dec w (items p) /\ opened (vol s' v) = true /\ priv (vol s' v) = priv (vol s w) /\ vty (vol s' v) = vty (vol s w) /\
  uuid (vol s' v) = uuid (vol s w) /\ vol s' w = zeroed /\
  (forall q, opens q (hooks s') = opens q (hooks s) /\ closes q (hooks s') = closes q (hooks s)).
Proof.
  intros e p s v t m n u w okp okc okh try_open oko R C B E L -> -> -> LK.
  assert (P : pinv p s).
  { apply (pruns_inv _ _ R). cbn [fst snd]. constructor; [apply new_inv | constructor | reflexivity | intros y []]. }
  pose proof P as [I N CT IT].
  assert (NV : ~ In v (items p)) by (intro Z; destruct (IT v Z); congruence).
  unfold pool_lookup in LK. destruct (lookup_sound _ _ _ _ _ LK) as (W & _).
  assert (D : w <> v) by (intros ->; contradiction).
  assert (RD : readable (Some (m, n)) s) by (cbn; congruence).
  unfold load_core.
  destruct (init_inv s v t (Some (m, n)) false true true true true I C RD) as (I1 & C1 & O1 & _).
  pose proof (init_out s v t (Some (m, n)) false true true true true I RD) as IR.
  assert (UB : uuid_bytes (snd (volume_init v (Some t) (Some (m, n)) false true true true true s)) (vol (snd (volume_init v (Some t) (Some (m, n)) false true true true true s)) v) = Some (firstn n u) /\
               fst (volume_init v (Some t) (Some (m, n)) false true true true true s) = true).
  { unfold volume_init. destruct (N.ltb_spec UUID_MAX (N.of_nat n)); [lia |]. cbn [negb alloc]. unfold init_uuid, init_hook.
    destruct (has_init t); cbn [fst snd]; unfold call, put; cbn [vol ext]; rewrite !upd_same; unfold uuid_bytes; cbn [uuid with_uuid usize]; cbn [init_head put ext]; rewrite E; auto. }
  destruct UB as [UB RT].
  destruct (volume_init v (Some t) (Some (m, n)) false true true true true s) as [r s1]. cbn [fst snd] in *. destruct r; [| discriminate]. cbn [negb].
  rewrite UB.
  assert (OTH : forall y, y <> v -> vol s1 y = vol s y) by (inversion IR; assumption).
  assert (EX : ext s1 = ext s) by (inversion IR; assumption).
  assert (HK : hooks s1 = hooks s \/ hooks s1 = hooks s ++ [OnInit (fresh s)]) by (inversion IR; assumption).
  assert (SAME : forall l, (forall y, In y l -> y <> v) -> lookup_in l (tid t) (firstn n u) s1 = lookup_in l (tid t) (firstn n u) s).
  { induction l as [| a l IH]; intro A; [reflexivity |]. cbn [lookup_in]. rewrite (OTH a) by (apply A; left; reflexivity).
    unfold uuid_bytes. rewrite EX. rewrite IH by (intros y Y; apply A; right; exact Y). reflexivity. }
  unfold pool_lookup. rewrite SAME by (intros y Y ->; contradiction). rewrite LK.
  destruct (move_out v w s1 I1 (not_eq_sym D)) as (M1 & M2 & M3 & M4 & M5 & M6 & M7 & M8 & M9).
  assert (VT : vty (vol (volume_move v w s1) w) = None).
  { unfold volume_move. rewrite (f_refs _ (i_fine s1 I1 v)), (f_refs _ (i_fine s1 I1 w)). cbn [Nat.eqb negb orb]. unfold put. cbn [vol]. rewrite upd_same. reflexivity. }
  assert (HM : hooks (volume_move v w s1) = hooks s1) by apply move_hooks.
  assert (HD : hooks (volume_destroy w (volume_move v w s1)) = hooks s1) by (rewrite destroy_hooks by exact VT; exact HM).
  unfold pool_remove. cbn [items]. destruct (IT w W) as [CW OW].
  split; [reflexivity |]. split; [reflexivity |]. rewrite !destroy_other by auto. rewrite M1, M2, M3, M4, (OTH w D). repeat split; auto.
  - unfold volume_destroy, put. cbn [vol]. rewrite upd_same. reflexivity.
  - rewrite HD. apply (quiet_hooks _ _ (OnInit (fresh s))); try discriminate; assumption.
  - rewrite HD. apply (quiet_hooks _ _ (OnInit (fresh s))); try discriminate; assumption.
Qed.

(** Lookup by type and uuid is exact when the uuids have one length. *)
Theorem C64_lookup : forall p id u s, (forall v c, In v (items p) -> uuid_bytes s (vol s v) = Some c -> length c = length u) ->
  match pool_lookup p id u s with
  | Some v => In v (items p) /\ (exists t, vty (vol s v) = Some t /\ tid t = id) /\ uuid_bytes s (vol s v) = Some u
  | None => forall v t, In v (items p) -> vty (vol s v) = Some t -> tid t = id -> uuid_bytes s (vol s v) <> Some u
  end.
Proof.
  intros p id u s L. unfold pool_lookup. destruct (lookup_in (items p) id u s) as [v |] eqn:E.
  - apply lookup_sound in E. destruct E as (V & t & c & T & TI & U & PE). apply prefix_same in PE; [| apply (L v c V U)]. subst c. eauto.
  - intros v t V T TI U. pose proof (lookup_none _ _ _ _ E v t u V T TI U) as F.
    assert (prefix_eq u u = true) by (apply prefix_same; reflexivity). congruence.
Qed.

(** ** What is false *)
Definition tyA : ty := {| tid := 1; has_init := true; has_deinit := true |}.
Definition mem (k : nat) : option (list N) := nth k [Some [1; 2; 3]; Some [9; 9; 9]; Some [1; 2]; Some [8; 8; 8]; Some [1; 2; 3; 4]]%N None.
(** a core with uuid 0 waits in the pool at place 7, and the core of the loaded cache at place 3 finds it;
    the cache's copy of the uuid is memory 4 (its first three bytes) *)
Definition in_pool : pool * st := let '(_, p, s) := pool_add 7 (Some tyA) (0, 3) true true true true true true empty (new mem) in (p, s).
Definition loaded : pool * st := let '(_, p, s) := load_core 3 tyA 4 3 true true true false false (fst in_pool) (snd in_pool) in (p, s).

Example loaded_runs : pruns (empty, new mem) loaded /\ items (fst loaded) = [] /\ opened (vol (snd loaded) 3) = true.
Proof.
  split; [| split; vm_compute; reflexivity]. apply (pruns_cons _ in_pool).
  - unfold in_pool. apply ps_add; [reflexivity | reflexivity | cbn; discriminate].
  - apply (pruns_cons _ loaded); [| apply pruns_nil].
    assert (E : in_pool = (fst in_pool, snd in_pool)) by (destruct in_pool; reflexivity).
    unfold loaded. rewrite E at 1. apply ps_load; [vm_compute; reflexivity | vm_compute; reflexivity | vm_compute; discriminate].
Qed.
Lemma pair_eta : forall (a : pool * st), (fst a, snd a) = a.
Proof. intros []. reflexivity. Qed.
Example loaded_hyps : cnt (vol (snd in_pool) 3) = false /\ box (vol (snd in_pool) 3) = None /\ ext (snd in_pool) 4 = Some [1; 2; 3; 4]%N /\
  pool_lookup (fst in_pool) (tid tyA) (firstn 3 [1; 2; 3; 4]%N) (snd in_pool) = Some 7 /\
  (forall v c, In v (items (fst in_pool)) -> uuid_bytes (snd in_pool) (vol (snd in_pool) v) = Some c -> length c = 3).
Proof.
  split; [vm_compute; reflexivity |]. split; [vm_compute; reflexivity |]. split; [vm_compute; reflexivity |]. split; [vm_compute; reflexivity |].
  intros v c V. assert (V7 : items (fst in_pool) = [7]) by (vm_compute; reflexivity). rewrite V7 in V. destruct V as [<- | []].
  intro E. assert (E7 : uuid_bytes (snd in_pool) (vol (snd in_pool) 7) = Some [1; 2; 3]%N) by (vm_compute; reflexivity). rewrite E7 in E. injection E as <-. reflexivity.
Qed.
(** created, opened, moved, closed and given up: nothing left *)
Definition life : list op := [Create 1 tyA (Some (0, 3)) true true true true true; Init 2 tyA (Some (1, 3)) true true true true true; Open 1 true; Move 2 1; Destroy 1; Close 2; Deinit 2].
Fixpoint all_legal (l : list op) (s : st) : Prop := match l with [] => True | o :: l => legal o s /\ all_legal l (step o s) end.
Lemma run_list : forall l s, all_legal l s -> runs s (fold_left (fun s o => step o s) l s).
Proof. induction l as [| o l IH]; intros s A; [constructor |]. destruct A as [A B]. cbn [fold_left]. apply (runs_cons o); [exact A | apply IH; exact B]. Qed.
Ltac legal_list := vm_compute; repeat split; discriminate.
Example life_runs : exists s, runs (new mem) s /\ live s = [] /\ length (hooks s) = 5.
Proof.
  exists (fold_left (fun s o => step o s) life (new mem)). split; [apply run_list; legal_list | split; vm_compute; reflexivity].
Qed.

(** ocf_volume_set_uuid keeps uuid_copy: a core taken from the pool whose uuid is then changed frees the
    caller's memory when it is removed. *)
Theorem C64_set_uuid_refuted : exists e p s, pruns (empty, new e) (p, s) /\ faults s = [] /\
  exists r s1, core_set_uuid 3 4 1 3 s = (r, s1) /\ r = true /\ faults s1 = [] /\ faults (core_deinit 3 s1) = [BadFree].
Proof.
  exists mem, (fst loaded), (snd loaded). split; [rewrite pair_eta; exact (proj1 loaded_runs) |]. split; [vm_compute; reflexivity |].
  exists (fst (core_set_uuid 3 4 1 3 (snd loaded))), (snd (core_set_uuid 3 4 1 3 (snd loaded))). split; [apply surjective_pairing |].
  split; [vm_compute; reflexivity |]. split; vm_compute; reflexivity.
Qed.

Example C64_ex_open_device : exists s, runs (new mem) s /\ opened (vol s 1) = true /\ opened (vol s 0) = false /\ priv (vol s 0) = None.
Proof.
  exists (fold_left (fun s o => step o s) [Init 0 tyA (Some (0, 3)) false true true true true; Open 0 true; Init 1 tyA (Some (0, 3)) false true true true true; Move 1 0] (new mem)).
  split; [apply run_list; legal_list | vm_compute; auto].
Qed.

(** ocf_mngt_core_set_uuid keeps a pointer to its argument: once the caller's memory is gone, the next
    change of the uuid reads it. *)
Theorem C64_dangling_refuted : exists e s, runs (new e) s /\ faults s = [] /\
  exists r s1, core_set_uuid 3 4 1 3 s = (r, s1) /\ r = true /\ faults s1 = [] /\
  faults (snd (core_set_uuid 3 4 3 3 (set_ext 1 None s1))) = [UseAfterFree].
Proof.
  set (s := fold_left (fun s o => step o s) [Init 3 tyA (Some (0, 3)) false true true true true] (new mem)).
  exists mem, s. split; [apply run_list; legal_list | split; [vm_compute; reflexivity |]].
  exists (fst (core_set_uuid 3 4 1 3 s)), (snd (core_set_uuid 3 4 1 3 s)). split; [apply surjective_pairing |].
  split; [vm_compute; reflexivity |]. split; vm_compute; reflexivity.
Qed.

(** A uuid of which the other is a prefix counts as equal: a core gets the wrong device of the pool, and a
    change of the uuid is dropped although the call succeeds. *)
Theorem C64_prefix_refuted : exists e p s, pruns (empty, new e) (p, s) /\
  (exists v, pool_lookup p (tid tyA) [1; 2; 3; 4]%N s = Some v /\ uuid_bytes s (vol s v) = Some [1; 2; 3]%N) /\
  (exists v s', fst (core_set_uuid v 4 2 2 s) = true /\ s' = snd (core_set_uuid v 4 2 2 s) /\ ext s 2 = Some [1; 2]%N /\ uuid_bytes s' (vol s' v) = Some [1; 2; 3]%N).
Proof.
  exists mem, (fst in_pool), (snd in_pool). split; [| split].
  - rewrite pair_eta. apply (pruns_cons _ in_pool); [| apply pruns_nil].
    unfold in_pool. apply ps_add; [reflexivity | reflexivity | cbn; discriminate].
  - exists 7. split; vm_compute; reflexivity.
  - exists 7, (snd (core_set_uuid 7 4 2 2 (snd in_pool))). split; [vm_compute; reflexivity |]. split; [reflexivity |]. split; vm_compute; reflexivity.
Qed.

(** A volume that took over an open one is open, but its counter stays frozen: no I/O can be created on it,
    unlike on one opened itself. *)
Theorem C64_frozen_refuted : exists e p s, pruns (empty, new e) (p, s) /\ opened (vol s 3) = true /\ can_submit (vol s 3) = false /\
  can_submit (vol (step (Open 1 true) (step (Init 1 tyA None false true true true true) (new e))) 1) = true.
Proof. exists mem, (fst loaded), (snd loaded). split; [rewrite pair_eta; exact (proj1 loaded_runs) |]. repeat split; vm_compute; reflexivity. Qed.

(** on_init and on_deinit are not paired: without a uuid ocf_volume_init does not call on_init, and what
    ocf_volume_move frees gets no on_deinit. *)
Theorem C64_hooks_refuted : exists e s s', runs (new e) s /\ live s = [] /\ hooks s = [OnDeinit 0] /\
  runs (new e) s' /\ In (OnInit 0) (hooks s') /\ ~ In (OnDeinit 0) (hooks s') /\ ~ In 0 (live s').
Proof.
  exists mem, (fold_left (fun s o => step o s) [Init 1 tyA None false true true true true; Deinit 1] (new mem)),
    (fold_left (fun s o => step o s) [Init 1 tyA (Some (0, 3)) false true true true true; Init 2 tyA (Some (1, 3)) false true true true true; Move 1 2] (new mem)).
  split; [apply run_list; legal_list |]. split; [vm_compute; reflexivity |]. split; [vm_compute; reflexivity |]. split; [apply run_list; legal_list |].
  vm_compute. repeat split; [left; reflexivity | |]; intuition discriminate.
Qed.

(** ocf_mngt_core_clear_uuid_metadata changes nothing. *)
Example clear_nothing : forall m s, core_clear_uuid m None s = s.
Proof. reflexivity. Qed.

Print Assumptions C64_balanced.
Print Assumptions C64_nothing_left.
Print Assumptions C64_alternate.
Print Assumptions C64_pool.
Print Assumptions C64_refused.
Print Assumptions C64_taken.
Print Assumptions C64_lookup.
Print Assumptions C64_set_uuid_refuted.
Print Assumptions C64_dangling_refuted.
Print Assumptions C64_prefix_refuted.
Print Assumptions C64_frozen_refuted.
Print Assumptions C64_hooks_refuted.

(** C63: loading the superblock. *)
From Coq Require Import List ZArith Bool NArith Lia.
From Verif Require Import SbLoadModel.
Import ListNotations.
Local Open Scope Z_scope.

(** ** Specification *)

(** What the rest of the library needs of a superblock: every field used as an index, a selector or a
    count is in range, the name ends inside its array. *)
Record fit (b : sb) : Prop := {
  fit_clean : clean_shutdown b = 0%N \/ clean_shutdown b = 1%N;
  fit_flushed : dirty_flushed b = 0%N \/ dirty_flushed b = 1%N;
  fit_flap : flapping_idx b = 0%N \/ flapping_idx b = 1%N;
  fit_mode : In (cache_mode b) [0; 1; 2; 3; 4; 5];
  fit_name : exists k, (k < 32)%nat /\ nth k (name b) 0%N = 0%N;
  fit_parts : (valid_parts_no b <= 33)%N;
  fit_line : In (line_size b) [4096; 8192; 16384; 32768; 65536]%N;
  fit_cores : (core_count b <= 4096)%N;
  fit_cleaning : In (cleaning_policy b) [0; 1; 2];
  fit_disabled : cleaner_disabled b = true -> cleaning_policy b = 0;
  fit_promotion : In (promotion_policy b) [0; 1] }.

(** Where segment s is read from, given the superblock: part and core configuration have two copies *)
Definition copy_no (b : sb) (s : seg) : N :=
  match s with PartConfig | CoreConfig | CoreUuid => flapping_idx b | _ => 0 end%N.
(** The segments a load reads beside the superblock *)
Definition wanted (recovery : bool) (s : seg) : Prop :=
  s = PartConfig \/ s = CoreConfig \/ s = CoreUuid \/ (recovery = false /\ (s = SbRuntime \/ s = PartRuntime)).

(** The stored configuration is good: c s is what the device holds for s *)
Record good (L : layout) (v : env) (recovery : bool) (c : seg -> content) : Prop := {
  g_sb : rd v SbConfig 0 = (c SbConfig, 0);
  g_magic : magic_number (dec L (c SbConfig)) = 410918054%N;
  g_version : metadata_version (dec L (c SbConfig)) = 1311488%N;
  g_crc_sb : crc_sb L (c SbConfig) = checksum (dec L (c SbConfig)) SbConfig;
  g_fit : fit (dec L (c SbConfig));
  g_read : forall s, wanted recovery s -> rd v s (copy_no (dec L (c SbConfig)) s) = (c s, 0);
  g_crc : forall s, wanted recovery s -> crc L (c s) = checksum (dec L (c SbConfig)) s;
  g_cores : forall id, (id < 4096)%N -> core_bit (dec L (c SbConfig)) id = core_valid L (c CoreConfig) id }.

Definition is_told (e : ev) : bool := match e with Told _ => true | _ => false end.
Definition is_end (e : ev) : bool := match e with Destroyed => true | _ => false end.
Definition is_malloc (s : seg) (e : ev) : bool := match e with Malloc t => seg_eqb s t | _ => false end.
Definition is_free (s : seg) (e : ev) : bool := match e with Freed t => seg_eqb s t | _ => false end.
Definition count (p : ev -> bool) (l : list ev) : nat := length (filter p l).

(** ** Proofs *)

Lemma seg_eqb_refl : forall s, seg_eqb s s = true. Proof. destruct s; reflexivity. Qed.
Lemma seg_eqb_eq : forall a b, seg_eqb a b = true -> a = b. Proof. destruct a, b; cbn; congruence. Qed.
Lemma upd_same : forall A (f : seg -> A) s a, upd f s a s = a. Proof. intros. unfold upd. rewrite seg_eqb_refl. reflexivity. Qed.
Lemma upd_other : forall A (f : seg -> A) s t a, s <> t -> upd f s a t = f t.
Proof. intros. unfold upd. destruct (seg_eqb s t) eqn:E; auto. apply seg_eqb_eq in E. contradiction. Qed.
Lemma wanted_loaded : forall r s, wanted r s <-> In s (loaded r).
Proof.
  intros r s. unfold wanted, loaded. destruct r; cbn [In]; split; intro H.
  - destruct H as [H | [H | [H | [H _]]]]; [subst; tauto .. | discriminate].
  - destruct H as [H | [H | [H | H]]]; [subst; tauto .. | contradiction].
  - destruct H as [H | [H | [H | [_ [H | H]]]]]; subst; tauto.
  - destruct H as [H | [H | [H | [H | [H | H]]]]]; subst; tauto.
Qed.
Lemma loaded_nodup : forall r, NoDup (loaded r).
Proof. destruct r; cbn; repeat constructor; cbn; intuition discriminate. Qed.
Lemma loaded_sb : forall r, ~ In SbConfig (loaded r).
Proof. destruct r; cbn; intuition discriminate. Qed.

Lemma memcpy_ok : forall n, memcpy_err n n = 0.
Proof. intro n. unfold memcpy_err. rewrite N.ltb_irrefl. reflexivity. Qed.

(** *** Validation *)
Lemma strnlen_cons : forall c l m, strnlen (c :: l) (S m) = if (c =? 0)%N then O else S (strnlen l m).
Proof. reflexivity. Qed.
Lemma strnlen_short : forall m l, (m <=? strnlen l m)%nat = false <-> exists k, (k < m)%nat /\ nth k l 0%N = 0%N.
Proof.
  induction m as [| m IH]; intro l.
  - split; [intro H; discriminate | intros (k & H & _); lia].
  - destruct l as [| c l].
    + split; [intros _; exists O; split; [lia | reflexivity] | intros _; reflexivity].
    + rewrite strnlen_cons. destruct (c =? 0)%N eqn:E.
      * apply N.eqb_eq in E. subst. split; [intros _; exists O; split; [lia | reflexivity] | intros _; reflexivity].
      * change (S m <=? S (strnlen l m))%nat with (m <=? strnlen l m)%nat. rewrite IH. apply N.eqb_neq in E. split; intros (k & Hk & Hn).
        -- exists (S k). split; [lia | exact Hn].
        -- destruct k; [cbn in Hn; contradiction |]. exists k. split; [lia | exact Hn].
Qed.
Lemma line_size_ok : forall n, line_size_is_valid n = true <-> In n [4096; 8192; 16384; 32768; 65536]%N.
Proof.
  intro n. unfold line_size_is_valid. rewrite !orb_true_iff, !N.eqb_eq. cbn [In]. split; intro H.
  - destruct H as [[[[H | H] | H] | H] | H]; subst; tauto.
  - destruct H as [H | [H | [H | [H | [H | H]]]]]; subst; tauto.
Qed.
Lemma range_list : forall z n, (z <? 0) || (z >=? Z.of_nat n) = false <-> In z (map Z.of_nat (seq 0 n)).
Proof.
  intros z n. rewrite orb_false_iff, Z.ltb_ge, Z.geb_leb, Z.leb_gt, in_map_iff. split.
  - intros [A B]. exists (Z.to_nat z). split; [lia | apply in_seq; lia].
  - intros (k & E & H). apply in_seq in H. lia.
Qed.
Lemma below2 : forall n : N, (1 <? n)%N = false <-> n = 0%N \/ n = 1%N.
Proof. intro n. rewrite N.ltb_ge. lia. Qed.

Definition accept (L : layout) (c : content) : Prop :=
  magic_number (dec L c) = 410918054%N /\ metadata_version (dec L c) = 1311488%N
  /\ crc_sb L c = checksum (dec L c) SbConfig /\ fit (dec L c).
Lemma validate_iff : forall L c, validate_superblock L c = 0 <-> accept L c.
Proof.
  intros L c. unfold validate_superblock, accept. cbv zeta. set (b := dec L c).
  assert (R3 := range_list (cleaning_policy b) 3). assert (R2 := range_list (promotion_policy b) 2).
  assert (R6 := range_list (cache_mode b) 6).
  unfold ERR_NO_METADATA, ERR_METADATA_VER, ERR_CRC, ERR_INVAL, MAGIC, VERSION, MODE_MAX, CLEANING_MAX, PROMOTION_MAX, NAME_SIZE, CORE_MAX, CLASS_MAX, CLEAN, DIRTY_FLUSHED, NOP.
  cbn [Z.of_nat Pos.of_succ_nat Pos.succ] in R3, R2, R6. cbn [seq map Z.of_nat Pos.of_succ_nat Pos.succ] in R3, R2, R6.
  split.
  - intro H.
    destruct (magic_number b =? 410918054)%N eqn:E1; cbn [negb] in H; [| discriminate].
    destruct (1311488 =? metadata_version b)%N eqn:E2; cbn [negb] in H; [| discriminate].
    destruct (crc_sb L c =? checksum b SbConfig)%N eqn:E3; cbn [negb] in H; [| discriminate].
    destruct (1 <? clean_shutdown b)%N eqn:E4; [discriminate |].
    destruct (1 <? dirty_flushed b)%N eqn:E5; [discriminate |].
    destruct (1 <? flapping_idx b)%N eqn:E6; [discriminate |].
    destruct ((cache_mode b <? 0) || (cache_mode b >=? 6)) eqn:E7; [discriminate |].
    destruct (32 <=? strnlen (name b) 32)%nat eqn:E8; [discriminate |].
    destruct (33 <? valid_parts_no b)%N eqn:E9; [discriminate |].
    destruct (line_size_is_valid (line_size b)) eqn:E10; cbn [negb] in H; [| discriminate].
    destruct (4096 <? core_count b)%N eqn:E11; [discriminate |].
    destruct ((cleaning_policy b <? 0) || (cleaning_policy b >=? 3)) eqn:E12; [discriminate |].
    destruct (cleaner_disabled b && negb (cleaning_policy b =? 0)) eqn:E13; [discriminate |].
    destruct ((promotion_policy b <? 0) || (promotion_policy b >=? 2)) eqn:E14; [discriminate |].
    apply N.eqb_eq in E1, E2, E3. apply below2 in E4, E5, E6. apply strnlen_short in E8.
    apply line_size_ok in E10. apply N.ltb_ge in E9, E11.
    split; [exact E1 |]. split; [symmetry; exact E2 |]. split; [exact E3 |].
    constructor; try assumption; [apply R6; reflexivity | apply R3; reflexivity | | apply R2; reflexivity].
    intro D. rewrite D in E13. cbn [andb] in E13. apply negb_false_iff in E13. apply Z.eqb_eq. exact E13.
  - intros (H1 & H2 & H3 & F). destruct F.
    rewrite H1, H2, H3. rewrite !N.eqb_refl. cbn [negb].
    apply below2 in fit_clean0, fit_flushed0, fit_flap0. rewrite fit_clean0, fit_flushed0, fit_flap0.
    apply R6 in fit_mode0. rewrite fit_mode0. apply strnlen_short in fit_name0. rewrite fit_name0.
    apply N.ltb_ge in fit_parts0, fit_cores0. rewrite fit_parts0. apply line_size_ok in fit_line0. rewrite fit_line0. cbn [negb].
    rewrite fit_cores0. assert (Q := fit_cleaning0). apply R3 in fit_cleaning0. rewrite fit_cleaning0.
    apply R2 in fit_promotion0. rewrite fit_promotion0.
    destruct (cleaner_disabled b); cbn [andb]; [rewrite (fit_disabled0 eq_refl); reflexivity | reflexivity].
Qed.
Lemma cores_agree_iff : forall f g n id,
  cores_agree f g n id = true <-> forall k, (id <= k < id + N.of_nat n)%N -> f k = g k.
Proof.
  intros f g. induction n as [| n IH]; intro id; cbn [cores_agree].
  - split; [intros _ k H; lia | reflexivity].
  - split.
    + intro H. destruct (f id) eqn:F, (g id) eqn:G; cbn [andb negb] in H; try discriminate;
        rewrite IH in H; intros k Hk; (destruct (N.eq_dec k id) as [-> | D]; [congruence | apply H; lia]).
    + intro H. assert (E : f id = g id) by (apply H; lia).
      destruct (f id), (g id); cbn [andb negb]; try discriminate; apply IH; intros k Hk; apply H; lia.
Qed.

Lemma cores_agree_max : forall f g,
  cores_agree f g (N.to_nat CORE_MAX) 0 = true <-> forall k, (k < 4096)%N -> f k = g k.
Proof.
  intros f g. rewrite cores_agree_iff, N2Nat.id. unfold CORE_MAX. split; intros H k Hk; apply H; lia.
Qed.
Lemma core_step : forall L x, validate_core_config L x = Next x /\ (forall k, (k < 4096)%N -> core_bit (dec L (mem x SbConfig)) k = core_valid L (mem x CoreConfig) k)
  \/ validate_core_config L x = Finish (- ERR_INVAL) x.
Proof.
  intros L x. unfold validate_core_config. generalize (cores_agree_max (core_bit (dec L (mem x SbConfig))) (core_valid L (mem x CoreConfig))).
  destruct (cores_agree _ _ _ _); intros [H _]; [left | right]; auto.
Qed.

(** *** The pipeline *)
Fixpoint chain (l : list (st -> res)) (x : st) : option st :=
  match l with [] => Some x | f :: l => match f x with Next x => chain l x | _ => None end end.
Lemma chain_app : forall l l' x, chain (l ++ l') x = match chain l x with Some y => chain l' y | None => None end.
Proof. induction l as [| f l IH]; intros; cbn [chain app]; auto. destruct (f x); auto. Qed.
Lemma run_chain : forall v l x y, chain l x = Some y -> run v l x = finish v 0 y.
Proof.
  induction l as [| f l IH]; intros x y H; cbn [chain run] in *; [injection H as ->; reflexivity |].
  destruct (f x); try discriminate. apply IH. exact H.
Qed.

(** a step: P kept, a finish leaves Q and a real error *)
Definition keeps (P Q : st -> Prop) (f : st -> res) : Prop :=
  forall x, P x -> match f x with Next y => P y | Finish e y => Q y /\ e <> 0 | Bug => False end.
Lemma run_cases : forall v P Q l x, Forall (keeps P Q) l -> P x ->
  (exists y, chain l x = Some y /\ P y /\ run v l x = finish v 0 y)
  \/ (chain l x = None /\ exists e y, e <> 0 /\ Q y /\ run v l x = finish v e y).
Proof.
  intros v P Q l. induction l as [| f l IH]; intros x F Hx; cbn [chain run].
  - left. exists x. auto.
  - inversion F as [| f' l' Hf Fl]; subst. specialize (Hf x Hx). destruct (f x) as [y | e y |]; [apply IH; auto | | contradiction].
    right. split; [reflexivity |]. exists e, y. destruct Hf. auto.
Qed.

(** stores *)
Definition saved (k : nat) (m : seg -> content) (s : seg) : option content :=
  if existsb (seg_eqb s) (firstn k stored) then Some (m s) else None.
Record after (k : nat) (m : seg -> content) (x : st) : Prop := {
  a_copy : forall s, copy x s = saved k m s; a_log : log x = map Malloc (firstn k stored) }.
Lemma store_ok : forall v s x, malloc_ok v s = true ->
  store_segment v s x = Next {| mem := mem x; copy := upd (upd (copy x) s (Some [])) s (Some (mem x s)); log := log x ++ [Malloc s] |}.
Proof. intros v s x M. unfold store_segment. rewrite M, memcpy_ok. reflexivity. Qed.
Lemma store_no : forall v s x, malloc_ok v s = false -> store_segment v s x = Finish (- ERR_NO_MEM) x.
Proof. intros v s x M. unfold store_segment. rewrite M. reflexivity. Qed.
Definition start (m : seg -> content) : st := {| mem := m; copy := fun _ => None; log := [] |}.

Lemma stores : forall v m l,
  (exists x, mem x = m /\ after 5 m x /\ run v (map (store_segment v) stored ++ l) (start m) = run v l x
             /\ (forall s, s <> CoreUuid -> malloc_ok v s = true))
  \/ (exists k x, (k < 5)%nat /\ mem x = m /\ after k m x /\ malloc_ok v (nth k stored SbConfig) = false
             /\ run v (map (store_segment v) stored ++ l) (start m) = finish v (- ERR_NO_MEM) x).
Proof.
  intros v m l. remember (run v (map (store_segment v) stored ++ l) (start m)) as W eqn:EW.
  unfold stored in EW. cbn [map app run] in EW.
  destruct (malloc_ok v SbConfig) eqn:M0; [rewrite (store_ok _ _ _ M0) in EW | rewrite (store_no _ _ _ M0) in EW].
  2:{ right. exists 0%nat, (start m). split; [lia |]. split; [reflexivity |]. split; [split; [intro; reflexivity | reflexivity] |]. split; [exact M0 | exact EW]. }
  destruct (malloc_ok v SbRuntime) eqn:M1; [rewrite (store_ok _ _ _ M1) in EW | rewrite (store_no _ _ _ M1) in EW].
  2:{ right. eexists 1%nat, _. split; [lia |]. split; [| split; [| split; [exact M1 | exact EW]]]; [reflexivity |]. split; [intros []; reflexivity | reflexivity]. }
  destruct (malloc_ok v PartConfig) eqn:M2; [rewrite (store_ok _ _ _ M2) in EW | rewrite (store_no _ _ _ M2) in EW].
  2:{ right. eexists 2%nat, _. split; [lia |]. split; [| split; [| split; [exact M2 | exact EW]]]; [reflexivity |]. split; [intros []; reflexivity | reflexivity]. }
  destruct (malloc_ok v PartRuntime) eqn:M3; [rewrite (store_ok _ _ _ M3) in EW | rewrite (store_no _ _ _ M3) in EW].
  2:{ right. eexists 3%nat, _. split; [lia |]. split; [| split; [| split; [exact M3 | exact EW]]]; [reflexivity |]. split; [intros []; reflexivity | reflexivity]. }
  destruct (malloc_ok v CoreConfig) eqn:M4; [rewrite (store_ok _ _ _ M4) in EW | rewrite (store_no _ _ _ M4) in EW].
  2:{ right. eexists 4%nat, _. split; [lia |]. split; [| split; [| split; [exact M4 | exact EW]]]; [reflexivity |]. split; [intros []; reflexivity | reflexivity]. }
  left. eexists. split; [| split; [| split; [exact EW |]]]; [reflexivity | split; [intros []; reflexivity | reflexivity] |].
  intros [] N; try assumption. contradiction.
Qed.

(** the steps after the stores *)
Definition rest (L : layout) (v : env) (r : bool) : list (st -> res) :=
  [load_segment L v SbConfig; validate_step L] ++ map (load_segment L v) (loaded r) ++ map (check_crc L) (loaded r) ++ [validate_core_config L].
Lemma load_split : forall L v r m, create_ok v = true ->
  load_superblock L v r m = run v (map (store_segment v) stored ++ rest L v r) (start m).
Proof. intros L v r m C. unfold load_superblock. rewrite C. reflexivity. Qed.

Lemma after_mem : forall k m x s c, after k m x -> after k m (set_mem s c x).
Proof. intros k m x s c [A B]. split; assumption. Qed.

Definition flap_ok (L : layout) (x : st) : Prop := (flapping_idx (dec L (mem x SbConfig)) <= 1)%N.
(** unread segments keep their content *)
Definition same_rest (r : bool) (m : seg -> content) (x : st) : Prop :=
  forall s, s <> SbConfig -> ~ In s (loaded r) -> mem x s = m s.

Lemma keeps_load_sb : forall L v k m r, keeps (fun x => after k m x /\ same_rest r m x) (fun x => after k m x /\ same_rest r m x) (load_segment L v SbConfig).
Proof.
  intros L v k m r x [A S]. unfold load_segment. cbn [is_flapped]. cbn [N.eqb negb].
  destruct (rd v SbConfig 0) as [c e].
  assert (K : after k m (set_mem SbConfig c x) /\ same_rest r m (set_mem SbConfig c x)).
  { split; [apply after_mem; exact A |]. intros s Hs Hl. unfold set_mem. cbn [mem]. rewrite upd_other by congruence. apply S; assumption. }
  destruct (e =? 0) eqn:E; [exact K |]. split; [exact K |]. apply Z.eqb_neq in E. exact E.
Qed.
Lemma rest_run : forall L v r m x, after 5 m x -> mem x = m ->
  (exists y, chain (rest L v r) x = Some y /\ after 5 m y /\ same_rest r m y /\ run v (rest L v r) x = finish v 0 y)
  \/ (chain (rest L v r) x = None /\ exists e y, e <> 0 /\ after 5 m y /\ run v (rest L v r) x = finish v e y).
Proof.
  intros L v r m x A M. assert (S0 : same_rest r m x) by (intros s _ _; rewrite M; reflexivity).
  unfold rest. cbn [app chain run].
  assert (K := keeps_load_sb L v 5 m r x (conj A S0)).
  destruct (load_segment L v SbConfig x) as [y | e y |]; [| right; split; [reflexivity |]; exists e, y; destruct K as [[K1 K2] K3]; auto | contradiction].
  destruct K as [A1 S1]. unfold validate_step at 1 3. cbv zeta.
  destruct (validate_superblock L (mem y SbConfig) =? 0) eqn:V.
  2:{ right. unfold validate_step. cbv zeta. rewrite V. split; [reflexivity |]. exists (validate_superblock L (mem y SbConfig)), y. apply Z.eqb_neq in V. auto. }
  unfold validate_step. cbv zeta. rewrite V.
  apply Z.eqb_eq in V. apply validate_iff in V. destruct V as (_ & _ & _ & F).
  set (P := fun z => (after 5 m z /\ same_rest r m z) /\ flap_ok L z).
  assert (HP : P y). { split; [auto |]. unfold flap_ok. destruct (fit_flap _ F) as [-> | ->]; lia. }
  assert (KL : forall s, In s (loaded r) -> keeps P (fun z => after 5 m z) (load_segment L v s)).
  { intros s Hs z [[Az Sz] Fz]. assert (N : s <> SbConfig) by (intro; subst; exact (loaded_sb r Hs)).
    unfold load_segment. cbv zeta.
    assert (B : (if is_flapped s then 1 <? (if is_flapped s then flapping_idx (dec L (mem z SbConfig)) else 0) else negb ((if is_flapped s then flapping_idx (dec L (mem z SbConfig)) else 0) =? 0))%N = false).
    { destruct (is_flapped s); [apply N.ltb_ge; exact Fz | reflexivity]. }
    rewrite B. destruct (rd v s _) as [c e].
    destruct (e =? 0) eqn:E; [| split; [apply after_mem; exact Az | apply Z.eqb_neq in E; exact E]].
    split; [split; [apply after_mem; exact Az |] |].
    - intros t Ht Hn. unfold set_mem. cbn [mem]. rewrite upd_other; [apply Sz; assumption |]. intro; subst. contradiction.
    - unfold flap_ok, set_mem. cbn [mem]. rewrite upd_other by assumption. exact Fz. }
  assert (KC : forall s, keeps P (fun z => after 5 m z) (check_crc L s)).
  { intros s z [[Az Sz] Fz]. unfold check_crc. destruct (_ =? _)%N; [repeat split; try assumption; apply Az | split; [exact Az | discriminate]]. }
  assert (KV : keeps P (fun z => after 5 m z) (validate_core_config L)).
  { intros z [[Az Sz] Fz]. unfold validate_core_config. destruct (cores_agree _ _ _ _); [repeat split; try assumption; apply Az | split; [exact Az | discriminate]]. }
  destruct (run_cases v P (fun z => after 5 m z) (map (load_segment L v) (loaded r) ++ map (check_crc L) (loaded r) ++ [validate_core_config L]) y) as [(z & C1 & [[Az Sz] _] & R) | (C1 & e & z & E & Az & R)].
  - apply Forall_app. split; [| apply Forall_app; split].
    + apply Forall_forall. intros f Hf. apply in_map_iff in Hf. destruct Hf as (s & <- & Hs). apply KL. exact Hs.
    + apply Forall_forall. intros f Hf. apply in_map_iff in Hf. destruct Hf as (s & <- & Hs). apply KC.
    + constructor; [exact KV | constructor].
  - exact HP.
  - left. exists z. auto.
  - right. split; [exact C1 |]. exists e, z. auto.
Qed.

(** the shape of every run *)
Lemma load_shape : forall L v r m, create_ok v = true ->
  (exists x y, mem x = m /\ after 5 m x /\ chain (rest L v r) x = Some y /\ after 5 m y /\ same_rest r m y
               /\ (forall s, s <> CoreUuid -> malloc_ok v s = true) /\ load_superblock L v r m = finish v 0 y)
  \/ (exists e k y, e <> 0 /\ (k <= 5)%nat /\ ((k < 5)%nat -> mem y = m) /\ after k m y /\ load_superblock L v r m = finish v e y
               /\ (((k < 5)%nat /\ e = - ERR_NO_MEM /\ exists s, s <> CoreUuid /\ malloc_ok v s = false)
                   \/ exists x, mem x = m /\ chain (rest L v r) x = None)).
Proof.
  intros L v r m C. rewrite (load_split _ _ _ _ C).
  destruct (stores v m (rest L v r)) as [(x & M & A & -> & MA) | (k & x & Hk & M & A & MK & ->)].
  - destruct (rest_run L v r m x A M) as [(y & C1 & Ay & Sy & R) | (C1 & e & y & E & Ay & R)]; rewrite R.
    + left. exists x, y. repeat split; try assumption; apply A || apply Ay.
    + right. exists e, 5%nat, y. split; [exact E |]. split; [lia |]. split; [lia |]. split; [exact Ay |]. split; [reflexivity |].
      right. exists x. auto.
  - right. exists (- ERR_NO_MEM), k, x. split; [discriminate |]. split; [lia |]. split; [auto |]. split; [exact A |]. split; [reflexivity |].
    left. split; [exact Hk |]. split; [reflexivity |]. exists (nth k stored SbConfig). split; [| exact MK].
    do 5 (destruct k as [| k]; [cbn; discriminate |]). lia.
Qed.

(** the finish *)
Lemma restore_ok : forall v l x, exists y, restore v l x = Some y /\ copy y = copy x /\ log y = log x
  /\ forall s, mem y s = if existsb (seg_eqb s) l then match copy x s with Some c => c | None => mem x s end else mem x s.
Proof.
  induction l as [| t l IH]; intro x; cbn [restore existsb].
  - exists x. auto.
  - destruct (copy x t) as [c |] eqn:E.
    + rewrite memcpy_ok. cbn [Z.eqb]. destruct (IH (set_mem t c x)) as (y & R & C & G & M). exists y.
      split; [exact R |]. split; [rewrite C; reflexivity |]. split; [rewrite G; reflexivity |].
      intro s. rewrite M. unfold set_mem. cbn [copy mem]. destruct (seg_eqb s t) eqn:Q.
      * apply seg_eqb_eq in Q. subst. cbn [orb]. rewrite E. rewrite upd_same. destruct (existsb _ _); reflexivity.
      * cbn [orb]. unfold upd. destruct (seg_eqb t s) eqn:Q2; [apply seg_eqb_eq in Q2; subst; rewrite seg_eqb_refl in Q; discriminate |]. reflexivity.
    + destruct (IH x) as (y & R & C & G & M). exists y. repeat split; try assumption.
      intro s. rewrite M. destruct (seg_eqb s t) eqn:Q; [| reflexivity]. apply seg_eqb_eq in Q. subst. cbn [orb]. rewrite E.
      destruct (existsb _ _); reflexivity.
Qed.
Lemma free_keep : forall l x, mem (free_copies l x) = mem x /\ copy (free_copies l x) = copy x
  /\ log (free_copies l x) = log x ++ map Freed (filter (fun s => match copy x s with Some _ => true | None => false end) l).
Proof.
  induction l as [| t l IH]; intro x; cbn [free_copies filter map]; [rewrite app_nil_r; auto |].
  destruct (copy x t) eqn:E.
  - destruct (IH (say (Freed t) x)) as (A & B & C). split; [rewrite A; reflexivity |]. split; [rewrite B; reflexivity |].
    rewrite C. unfold say. cbn [log copy map]. rewrite <- app_assoc. reflexivity.
  - apply IH.
Qed.
Lemma in_segs : forall s, existsb (seg_eqb s) segs = true. Proof. destruct s; reflexivity. Qed.

Lemma frees_eq : forall k m x, (k <= 5)%nat -> (forall s, copy x s = saved k m s) ->
  filter (fun s => match copy x s with Some _ => true | None => false end) segs = firstn k stored.
Proof.
  intros k m x K H. assert (E : filter (fun s => match copy x s with Some _ => true | None => false end) segs = filter (fun s => match saved k m s with Some _ => true | None => false end) segs).
  { apply filter_ext. intro s. rewrite H. reflexivity. }
  rewrite E. do 6 (destruct k as [| k]; [reflexivity |]). lia.
Qed.
Lemma finish_shape : forall v e k m y, (k <= 5)%nat -> after k m y -> exists z, finish v e y = Some z
  /\ log z = map Malloc (firstn k stored) ++ (if e =? 0 then [] else [MdError]) ++ map Freed (firstn k stored) ++ [Told e; Destroyed]
  /\ forall s, mem z s = if e =? 0 then mem y s else match saved k m s with Some c => c | None => mem y s end.
Proof.
  intros v e k m y K [A G]. unfold finish. destruct (e =? 0) eqn:E.
  - eexists. split; [reflexivity |]. destruct (free_keep segs y) as (M & C & F). cbn [say log mem]. split.
    + rewrite F, G, (frees_eq k m y K A). rewrite <- !app_assoc. reflexivity.
    + intro s. rewrite M. reflexivity.
  - destruct (restore_ok v segs (say MdError y)) as (z & R & C & Lz & M). rewrite R. eexists. split; [reflexivity |].
    destruct (free_keep segs z) as (Mf & Cf & F). cbn [say log mem]. split.
    + rewrite F, Lz. rewrite (frees_eq k m z K); [| intro s; rewrite C; cbn [say copy]; apply A].
      cbn [say log]. rewrite G. rewrite <- !app_assoc. reflexivity.
    + intro s. rewrite Mf, M, in_segs. cbn [say copy mem]. rewrite A. reflexivity.
Qed.

(** the memory after a chain of reads and checks *)
Lemma chain_loads : forall L v l x y, NoDup l -> ~ In SbConfig l -> chain (map (load_segment L v) l) x = Some y ->
  mem y SbConfig = mem x SbConfig /\ (forall s, ~ In s l -> mem y s = mem x s)
  /\ (forall s, In s l -> rd v s (copy_no (dec L (mem x SbConfig)) s) = (mem y s, 0)).
Proof.
  intros L v. induction l as [| t l IH]; intros x y ND NS H; cbn [map chain] in H.
  - injection H as <-. split; [reflexivity |]. split; [reflexivity |]. intros s [].
  - unfold load_segment at 1 in H. cbv zeta in H.
    destruct (if is_flapped t then _ else _) in H; [discriminate |].
    assert (CN : (if is_flapped t then flapping_idx (dec L (mem x SbConfig)) else 0%N) = copy_no (dec L (mem x SbConfig)) t) by (destruct t; reflexivity).
    rewrite CN in H. destruct (rd v t (copy_no (dec L (mem x SbConfig)) t)) as [c e] eqn:RD.
    destruct (e =? 0) eqn:E; [| discriminate]. apply Z.eqb_eq in E. subst e.
    inversion ND as [| t' l' Nt NDl]; subst. cbn [In] in NS.
    assert (Ts : t <> SbConfig) by (intro; subst; tauto).
    destruct (IH _ _ NDl (fun h => NS (or_intror h)) H) as (S1 & U & R).
    assert (MS : mem (set_mem t c x) SbConfig = mem x SbConfig) by (unfold set_mem; cbn [mem]; apply upd_other; exact Ts).
    split; [rewrite S1; exact MS |]. split.
    + intros s Hs. rewrite U by (intro; apply Hs; right; assumption). unfold set_mem. cbn [mem]. apply upd_other. intro; subst; apply Hs; left; reflexivity.
    + intros s [-> | Hs].
      * rewrite RD. rewrite (U s Nt). unfold set_mem. cbn [mem]. rewrite upd_same. reflexivity.
      * rewrite <- MS. apply R. exact Hs.
Qed.
Lemma chain_crc : forall L l x y, chain (map (check_crc L) l) x = Some y <->
  x = y /\ forall s, In s l -> crc L (mem x s) = checksum (dec L (mem x SbConfig)) s.
Proof.
  intro L. induction l as [| t l IH]; intros x y; cbn [map chain].
  - split; [intro H; injection H as ->; split; [reflexivity | intros s []] | intros [-> _]; reflexivity].
  - unfold check_crc at 1. destruct (crc L (mem x t) =? checksum (dec L (mem x SbConfig)) t)%N eqn:E.
    + rewrite IH. apply N.eqb_eq in E. split; intros [H1 H2]; (split; [exact H1 |]).
      * intros s [<- | Hs]; [exact E | apply H2; exact Hs].
      * intros s Hs. apply H2. right. exact Hs.
    + split; [discriminate |]. intros [_ H]. apply N.eqb_neq in E. exfalso. apply E. apply H. left. reflexivity.
Qed.
Lemma chain_cons : forall f l x, chain (f :: l) x = match f x with Next y => chain l y | _ => None end.
Proof. reflexivity. Qed.
Lemma load_sb_eq : forall L v x c e, rd v SbConfig 0 = (c, e) ->
  load_segment L v SbConfig x = if e =? 0 then Next (set_mem SbConfig c x) else Finish e (set_mem SbConfig c x).
Proof. intros L v x c e H. unfold load_segment. cbn [is_flapped N.eqb negb]. rewrite H. reflexivity. Qed.
Lemma validate_eq : forall L c x, validate_step L (set_mem SbConfig c x) =
  if validate_superblock L c =? 0 then Next (set_mem SbConfig c x) else Finish (validate_superblock L c) (set_mem SbConfig c x).
Proof. reflexivity. Qed.
Lemma set_mem_same : forall s c x, mem (set_mem s c x) s = c.
Proof. intros. unfold set_mem. cbn [mem]. apply upd_same. Qed.
Lemma rest_eq : forall L v r, rest L v r = load_segment L v SbConfig :: validate_step L ::
  (map (load_segment L v) (loaded r) ++ map (check_crc L) (loaded r) ++ [validate_core_config L]).
Proof. reflexivity. Qed.
Lemma chain_good : forall L v r x y, chain (rest L v r) x = Some y -> good L v r (mem y).
Proof.
  intros L v r x y H. rewrite rest_eq, chain_cons in H.
  destruct (rd v SbConfig 0) as [c e] eqn:RD. rewrite (load_sb_eq L v x c e RD) in H.
  destruct (e =? 0) eqn:E; [| discriminate]. apply Z.eqb_eq in E. subst e.
  rewrite chain_cons, validate_eq in H.
  destruct (validate_superblock L c =? 0) eqn:V; [| discriminate]. apply Z.eqb_eq in V. apply validate_iff in V. destruct V as (V1 & V2 & V3 & V4).
  rewrite chain_app in H. destruct (chain (map (load_segment L v) (loaded r)) _) as [y1 |] eqn:CL; [| discriminate].
  apply chain_loads in CL; [| apply loaded_nodup | apply loaded_sb]. destruct CL as (S1 & U1 & R1).
  rewrite set_mem_same in S1, R1.
  rewrite chain_app in H. destruct (chain (map (check_crc L) (loaded r)) y1) as [y2 |] eqn:CC; [| discriminate].
  apply chain_crc in CC. destruct CC as [<- CC].
  rewrite chain_cons in H. destruct (core_step L y1) as [[CE CA] | CE]; rewrite CE in H; [| discriminate]. injection H as <-.
  rewrite S1 in CC, CA.
  constructor; rewrite ?S1; try assumption.
  - intros s Hs. apply wanted_loaded in Hs. apply R1. exact Hs.
  - intros s Hs. apply wanted_loaded in Hs. apply CC. exact Hs.
Qed.
Lemma good_loads : forall L v c l x, NoDup l -> ~ In SbConfig l -> mem x SbConfig = c SbConfig ->
  (flapping_idx (dec L (c SbConfig)) <= 1)%N ->
  (forall s, In s l -> rd v s (copy_no (dec L (c SbConfig)) s) = (c s, 0)) ->
  exists y, chain (map (load_segment L v) l) x = Some y /\ mem y SbConfig = c SbConfig
            /\ (forall s, In s l -> mem y s = c s).
Proof.
  intros L v c. induction l as [| t l IH]; intros x ND NS HS FL R; cbn [map chain].
  - exists x. split; [reflexivity |]. split; [exact HS | intros s []].
  - unfold load_segment at 1. cbv zeta. rewrite HS.
    assert (B : (if is_flapped t then 1 <? (if is_flapped t then flapping_idx (dec L (c SbConfig)) else 0) else negb ((if is_flapped t then flapping_idx (dec L (c SbConfig)) else 0) =? 0))%N = false).
    { destruct (is_flapped t); [apply N.ltb_ge; exact FL | reflexivity]. }
    rewrite B.
    assert (CN : (if is_flapped t then flapping_idx (dec L (c SbConfig)) else 0%N) = copy_no (dec L (c SbConfig)) t) by (destruct t; reflexivity).
    rewrite CN, (R t (or_introl eq_refl)). cbn [Z.eqb].
    inversion ND as [| t' l' Nt NDl]; subst. cbn [In] in NS.
    assert (Ts : t <> SbConfig) by (intro; subst; tauto).
    destruct (IH (set_mem t (c t) x)) as (y & C & S & M); auto.
    + unfold set_mem. cbn [mem]. rewrite upd_other by exact Ts. exact HS.
    + intros s Hs. apply R. right. exact Hs.
    + exists y. split; [exact C |]. split; [exact S |]. intros s [<- | Hs]; [| apply M; exact Hs].
      destruct (chain_loads _ _ _ _ _ NDl (fun h => NS (or_intror h)) C) as (_ & U & _).
      rewrite (U t Nt). unfold set_mem. cbn [mem]. apply upd_same.
Qed.
Lemma good_chain : forall L v r c x, good L v r c -> exists y, chain (rest L v r) x = Some y.
Proof.
  intros L v r c x G. destruct G as [G1 G2 G3 G4 G5 G6 G7 G8]. unfold rest. cbn [app chain].
  unfold load_segment at 1. cbn [is_flapped N.eqb negb]. rewrite G1. cbn [Z.eqb].
  unfold validate_step. cbv zeta. unfold set_mem at 1. cbn [mem]. rewrite upd_same.
  assert (V : validate_superblock L (c SbConfig) = 0) by (apply validate_iff; repeat split; assumption || apply G5).
  rewrite V. cbn [Z.eqb]. rewrite chain_app.
  destruct (good_loads L v c (loaded r) (set_mem SbConfig (c SbConfig) x)) as (y & C & S & M).
  - apply loaded_nodup.
  - apply loaded_sb.
  - unfold set_mem. cbn [mem]. apply upd_same.
  - destruct (fit_flap _ G5) as [-> | ->]; lia.
  - intros s Hs. apply G6. apply wanted_loaded. exact Hs.
  - rewrite C, chain_app. exists y.
    assert (CC : chain (map (check_crc L) (loaded r)) y = Some y).
    { apply chain_crc. split; [reflexivity |]. intros s Hs. rewrite (M s Hs), S. apply G7. apply wanted_loaded. exact Hs. }
    rewrite CC. cbn [chain]. unfold validate_core_config.
    assert (MC : mem y CoreConfig = c CoreConfig) by (apply M; apply wanted_loaded; right; left; reflexivity).
    rewrite S, MC.
    assert (CA : cores_agree (core_bit (dec L (c SbConfig))) (core_valid L (c CoreConfig)) (N.to_nat CORE_MAX) 0 = true).
    { apply cores_agree_max. exact G8. }
    rewrite CA. reflexivity.
Qed.

(** ** Theorems *)

(** No assertion fails, whatever is on the device. *)
Theorem C63_no_bug : forall L v r m, exists x, load_superblock L v r m = Some x.
Proof.
  intros L v r m. destruct (create_ok v) eqn:C.
  - destruct (load_shape L v r m C) as [(x & y & _ & _ & _ & A & _ & _ & R) | (e & k & y & _ & K & _ & A & R & _)]; rewrite R.
    + destruct (finish_shape v 0 5 m y (le_n _) A) as (z & F & _). exists z. exact F.
    + destruct (finish_shape v e k m y K A) as (z & F & _). exists z. exact F.
  - unfold load_superblock. rewrite C. eexists. reflexivity.
Qed.

Lemma log_told : forall k e f, In (Told f) (map Malloc (firstn k stored) ++ (if e =? 0 then [] else [MdError]) ++ map Freed (firstn k stored) ++ [Told e; Destroyed]) -> f = e.
Proof.
  intros k e f H. apply in_app_or in H. destruct H as [H | H].
  - apply in_map_iff in H. destruct H as (s & H & _). discriminate.
  - apply in_app_or in H. destruct H as [H | H].
    + destruct (e =? 0); cbn in H; [contradiction | destruct H as [H | []]; discriminate].
    + apply in_app_or in H. destruct H as [H | H].
      * apply in_map_iff in H. destruct H as (s & H & _). discriminate.
      * destruct H as [H | [H | []]]; [injection H as ->; reflexivity | discriminate].
Qed.

(** Success means: every segment in memory is the stored one, from the copy the superblock names,
    with the right checksum, everything in range, and the cores agree; segments that are not read
    are as before. *)
Theorem C63_success : forall L v r m x,
  load_superblock L v r m = Some x -> In (Told 0) (log x) ->
  good L v r (mem x) /\ (forall s, s <> SbConfig -> ~ wanted r s -> mem x s = m s).
Proof.
  intros L v r m x H T. destruct (create_ok v) eqn:C.
  - destruct (load_shape L v r m C) as [(x0 & y & _ & _ & CH & A & S & _ & R) | (e & k & y & E & K & _ & A & R & _)].
    + destruct (finish_shape v 0 5 m y (le_n _) A) as (z & F & _ & M). rewrite R, F in H. injection H as <-.
      assert (MM : forall s, mem z s = mem y s) by (intro s; rewrite M; reflexivity).
      split.
      * apply chain_good in CH. destruct CH as [G1 G2 G3 G4 G5 G6 G7 G8].
        constructor; rewrite ?(MM SbConfig), ?(MM CoreConfig); try assumption.
        -- intros s Hs. rewrite (MM s). apply G6. exact Hs.
        -- intros s Hs. rewrite (MM s). apply G7. exact Hs.
      * intros s N W. rewrite MM. apply S; [exact N |]. rewrite <- wanted_loaded. exact W.
    + destruct (finish_shape v e k m y K A) as (z & F & G & _). rewrite R, F in H. injection H as <-.
      rewrite G in T. apply log_told in T. congruence.
  - unfold load_superblock in H. rewrite C in H. injection H as <-. cbn in T. destruct T as [T | []]. discriminate.
Qed.

(** A good configuration on the device is accepted when memory suffices. *)
Theorem C63_accepted : forall L v r m c,
  create_ok v = true -> (forall s, malloc_ok v s = true) -> good L v r c ->
  exists x, load_superblock L v r m = Some x /\ In (Told 0) (log x)
            /\ mem x SbConfig = c SbConfig /\ forall s, wanted r s -> mem x s = c s.
Proof.
  intros L v r m c C MA G.
  destruct (load_shape L v r m C) as [(x0 & y & _ & _ & CH & A & _ & _ & R) | (e & k & y & _ & _ & _ & _ & _ & [(_ & _ & s & _ & HM) | (x & _ & CN)])].
  - destruct (finish_shape v 0 5 m y (le_n _) A) as (z & F & Gl & M). exists z. split; [rewrite R; exact F |].
    split; [rewrite Gl; rewrite !in_app_iff; right; right; right; left; reflexivity |].
    apply chain_good in CH. destruct CH as [Q1 _ _ _ _ Q6 _ _]. destruct G as [G1 _ _ _ _ G6 _ _].
    rewrite G1 in Q1. injection Q1 as Q1.
    split; [rewrite M; cbn [Z.eqb]; symmetry; exact Q1 |].
    intros s Hs. specialize (Q6 s Hs). rewrite <- Q1, (G6 s Hs) in Q6. injection Q6 as Q6. rewrite M. cbn [Z.eqb]. symmetry. exact Q6.
  - rewrite MA in HM. discriminate.
  - destruct (good_chain L v r c x G) as (y' & CY). congruence.
Qed.

(** Failure: the caller is told an error, and the configuration in memory is what it was, except for
    the cores' UUIDs. *)
Theorem C63_restored : forall L v r m x e,
  load_superblock L v r m = Some x -> In (Told e) (log x) -> e <> 0 ->
  forall s, s <> CoreUuid -> mem x s = m s.
Proof.
  intros L v r m x e H T E s Hs. destruct (create_ok v) eqn:C.
  - destruct (load_shape L v r m C) as [(x0 & y & _ & _ & _ & A & _ & _ & R) | (e' & k & y & E' & K & ME & A & R & _)].
    + destruct (finish_shape v 0 5 m y (le_n _) A) as (z & F & G & _). rewrite R, F in H. injection H as <-.
      rewrite G in T. apply (log_told 5 0) in T. contradiction.
    + destruct (finish_shape v e' k m y K A) as (z & F & _ & M). rewrite R, F in H. injection H as <-.
      rewrite M. apply Z.eqb_neq in E'. rewrite E'.
      destruct (saved k m s) eqn:SV; [unfold saved in SV; destruct (existsb _ _); [injection SV as <-; reflexivity | discriminate] |].
      assert (K5 : (k < 5)%nat). { assert (D : k <> 5%nat); [| lia]. intro; subst. destruct s; cbn in SV; try discriminate. contradiction. }
      rewrite (ME K5). reflexivity.
  - unfold load_superblock in H. rewrite C in H. injection H as <-. reflexivity.
Qed.

(** The caller is told exactly once, at the end; a failure is recorded unless the load did not even
    start; every copy made is released exactly once, after it was made. *)
Theorem C63_once : forall L v r m x,
  load_superblock L v r m = Some x ->
  count is_told (log x) = 1%nat
  /\ (forall s, count (is_malloc s) (log x) = count (is_free s) (log x) /\ (count (is_malloc s) (log x) <= 1)%nat)
  /\ (forall p q s, log x = p ++ q -> (count (is_free s) p <= count (is_malloc s) p)%nat)
  /\ (create_ok v = true -> exists p e, log x = p ++ [Told e; Destroyed] /\ (In MdError p <-> e <> 0) /\ ~ In Destroyed p)
  /\ (create_ok v = false -> log x = [Told (- ERR_NO_MEM)]).
Proof.
  intros L v r m x H.
  assert (CD : (create_ok v = true /\ exists k e, (k <= 5)%nat /\ log x = map Malloc (firstn k stored) ++ (if e =? 0 then [] else [MdError]) ++ map Freed (firstn k stored) ++ [Told e; Destroyed])
               \/ (create_ok v = false /\ log x = [Told (- ERR_NO_MEM)])).
  { destruct (create_ok v) eqn:C.
    - left. split; [reflexivity |]. destruct (load_shape L v r m C) as [(x0 & y & _ & _ & _ & A & _ & _ & R) | (e' & k & y & _ & K & _ & A & R & _)].
      + destruct (finish_shape v 0 5 m y (le_n _) A) as (z & F & G & _). rewrite R, F in H. injection H as <-. exists 5%nat, 0. split; [lia | exact G].
      + destruct (finish_shape v e' k m y K A) as (z & F & G & _). rewrite R, F in H. injection H as <-. exists k, e'. split; [exact K | exact G].
    - right. split; [reflexivity |]. unfold load_superblock in H. rewrite C in H. injection H as <-. reflexivity. }
  destruct CD as [(C & k & e & K & G) | [C G]]; rewrite G.
  - assert (PRE : forall b : bool, forall w : list ev, w = map Malloc (firstn k stored) ++ (if b then [] else [MdError]) ++ map Freed (firstn k stored) ++ [Told e; Destroyed] ->
       forall i s, (count (is_free s) (firstn i w) <= count (is_malloc s) (firstn i w))%nat).
    { intros b w -> i s. apply Nat.leb_le. destruct b; do 6 (destruct k as [| k]; [do 14 (destruct i as [| i]; [destruct s; reflexivity |]); destruct s; reflexivity |]); lia. }
    split; [| split; [| split; [| split]]].
    + destruct (e =? 0); do 6 (destruct k as [| k]; [reflexivity |]); lia.
    + intro s. destruct (e =? 0); do 6 (destruct k as [| k]; [destruct s; cbn; split; lia |]); lia.
    + intros p q s HPQ. specialize (PRE (e =? 0) _ (eq_sym HPQ) (length p) s).
      rewrite firstn_app, firstn_all, Nat.sub_diag, firstn_O, app_nil_r in PRE. exact PRE.
    + intros _. exists (map Malloc (firstn k stored) ++ (if e =? 0 then [] else [MdError]) ++ map Freed (firstn k stored)), e.
      split; [rewrite <- !app_assoc; reflexivity |].
      destruct (e =? 0) eqn:E; [apply Z.eqb_eq in E | apply Z.eqb_neq in E];
        do 6 (destruct k as [| k]; [cbn; split; [split; intuition (try discriminate; try congruence) | intuition discriminate] |]); lia.
    + rewrite C. discriminate.
  - split; [reflexivity |]. split; [intro s; cbn; split; lia |]. split.
    + intros p q s HPQ. destruct p as [| a p]; [cbn; lia |]. cbn in HPQ. injection HPQ as <- HPQ. symmetry in HPQ. apply app_eq_nil in HPQ. destruct HPQ as [-> _]. cbn. lia.
    + split; [rewrite C; discriminate | reflexivity].
Qed.

(** A device without a superblock, one of another version and a damaged one are told apart. *)
Theorem C63_reasons : forall L v r m c,
  create_ok v = true -> (forall s, malloc_ok v s = true) -> rd v SbConfig 0 = (c, 0) ->
  exists x, load_superblock L v r m = Some x
   /\ (magic_number (dec L c) <> 410918054%N -> In (Told (- ERR_NO_METADATA)) (log x))
   /\ (magic_number (dec L c) = 410918054%N -> metadata_version (dec L c) <> 1311488%N -> In (Told (- ERR_METADATA_VER)) (log x))
   /\ (magic_number (dec L c) = 410918054%N -> metadata_version (dec L c) = 1311488%N ->
       crc_sb L c <> checksum (dec L c) SbConfig -> In (Told (- ERR_CRC)) (log x)).
Proof.
  intros L v r m c C MA R0. destruct (C63_no_bug L v r m) as (x & HX). exists x. split; [exact HX |].
  rewrite (load_split _ _ _ _ C) in HX.
  destruct (stores v m (rest L v r)) as [(y & M & A & RUN & _) | (k & y & Hk & _ & _ & MK & _)]; [| rewrite MA in MK; discriminate].
  rewrite RUN in HX. unfold rest in HX. cbn [app run] in HX. unfold load_segment at 1 in HX. cbn [is_flapped N.eqb negb] in HX.
  rewrite R0 in HX. cbn [Z.eqb] in HX.
  assert (D : forall e, e <> 0 -> validate_superblock L c = e -> In (Told e) (log x)).
  { intros e E V. unfold validate_step at 1 in HX. cbv zeta in HX. change (mem (set_mem SbConfig c y) SbConfig) with (upd (mem y) SbConfig c SbConfig) in HX. rewrite upd_same, V in HX.
    apply Z.eqb_neq in E. rewrite E in HX.
    destruct (finish_shape v e 5 m (set_mem SbConfig c y) (le_n _) (after_mem _ _ _ _ _ A)) as (z & F & G & _).
    rewrite F in HX. injection HX as <-. rewrite G, !in_app_iff. right. right. right. left. reflexivity. }
  repeat split.
  - intro H. apply D; [discriminate |]. unfold validate_superblock. cbv zeta. apply N.eqb_neq in H. unfold MAGIC. rewrite H. reflexivity.
  - intros H1 H2. apply D; [discriminate |]. unfold validate_superblock. cbv zeta. unfold MAGIC, VERSION. rewrite H1, N.eqb_refl. cbn [negb].
    assert (Q : (1311488 =? metadata_version (dec L c))%N = false) by (apply N.eqb_neq; congruence). rewrite Q. reflexivity.
  - intros H1 H2 H3. apply D; [discriminate |]. unfold validate_superblock. cbv zeta. unfold MAGIC, VERSION. rewrite H1, H2, !N.eqb_refl. cbn [negb].
    apply N.eqb_neq in H3. rewrite H3. reflexivity.
Qed.

(** *** A concrete layout, device and memory *)

Definition nm : list N := [99; 97; 99; 104; 101; 49; 0; 0; 0; 0; 0; 0; 0; 0; 0; 0; 0; 0; 0; 0; 0; 0; 0; 0; 0; 0; 0; 0; 0; 0; 0; 0]%N.
(** bytes: cores in the bitmap, number of cores, flapping index, cache mode; checksum of a segment: sum *)
Definition lay : layout := {|
  dec := fun c => {| clean_shutdown := 1; dirty_flushed := 1; magic_number := nth 4 c 0%N; metadata_version := 1311488;
    flapping_idx := nth 2 c 0%N; cache_mode := Z.of_N (nth 3 c 0%N); name := nm; valid_parts_no := 1; line_size := 4096;
    core_count := nth 1 c 0%N; core_bit := fun id => (id <? nth 0 c 0)%N; cleaner_disabled := false; cleaning_policy := 1;
    promotion_policy := 0; checksum := fun s => match s with SbConfig => nth 0 c 0%N | _ => nth 5 c 0%N end |};
  core_valid := fun c id => (id <? nth 0 c 0)%N; crc_sb := fun c => nth 0 c 0%N; crc := fun c => nth 0 c 0%N |}.
Definition dev (b : content) (bad : seg -> bool) : env :=
  {| create_ok := true; malloc_ok := fun _ => true; limit := fun _ => 4096%N;
     rd := fun s i => match s with SbConfig => (b, 0) | _ => if bad s then ([7]%N, -5) else if (i =? nth 2 b 0)%N || negb (is_flapped s) then ([2; i]%N, 0) else ([9]%N, 0) end |}.
Definition old : seg -> content := fun s => match s with SbConfig => [0; 1]%N | CoreUuid => [3]%N | _ => [4]%N end.
Definition disk_sb : content := [2; 2; 1; 1; 410918054; 2]%N.

Example dev_good : good lay (dev disk_sb (fun _ => false)) false
  (fun s => match s with SbConfig => disk_sb | PartConfig | CoreConfig | CoreUuid => [2; 1]%N | _ => [2; 0]%N end).
Proof.
  constructor; try reflexivity.
  - constructor; cbn; try tauto; try lia; try discriminate. exists 6%nat. split; [lia | reflexivity].
  - intros s [-> | [-> | [-> | [_ [-> | ->]]]]]; reflexivity.
  - intros s [-> | [-> | [-> | [_ [-> | ->]]]]]; reflexivity.
Qed.
Example load_works : exists x, load_superblock lay (dev disk_sb (fun _ => false)) false old = Some x
  /\ In (Told 0) (log x) /\ mem x PartConfig = [2; 1]%N /\ mem x SbRuntime = [2; 0]%N.
Proof. eexists. split; [vm_compute; reflexivity |]. vm_compute. intuition. Qed.
(** a read error after the UUIDs have been read *)
Example load_fails : exists x, load_superblock lay (dev [2; 2; 1; 1; 410918054; 3]%N (fun _ => false)) true old = Some x
  /\ In (Told (- ERR_CRC)) (log x) /\ mem x CoreConfig = old CoreConfig /\ count (is_free CoreConfig) (log x) = 1%nat.
Proof. eexists. split; [vm_compute; reflexivity |]. vm_compute. intuition. Qed.

(** Refuted: the cores' UUIDs are neither saved nor restored. *)
Theorem C63_uuid_refuted : exists L v r m x e,
  load_superblock L v r m = Some x /\ In (Told e) (log x) /\ e <> 0 /\ mem x CoreUuid <> m CoreUuid.
Proof.
  exists lay, (dev [2; 2; 1; 1; 410918054; 3]%N (fun _ => false)), true, old. eexists. exists (- ERR_CRC).
  split; [vm_compute; reflexivity |]. vm_compute. intuition discriminate.
Qed.

(** Refuted: a superblock whose core count is not the number of its cores is accepted, and stopping
    the cache then leaves a core behind. *)
Theorem C63_core_count_refuted : exists L v m x,
  load_superblock L v false m = Some x /\ In (Told 0) (log x)
  /\ exists id, core_valid L (mem x CoreConfig) id = true
  /\ ~ In id (stop_remove (core_valid L (mem x CoreConfig)) (N.to_nat CORE_MAX) 0 (Z.of_N (core_count (dec L (mem x SbConfig))))).
Proof.
  exists lay, (dev [2; 1; 1; 1; 410918054; 2]%N (fun _ => false)), old. eexists.
  split; [vm_compute; reflexivity |]. split; [vm_compute; intuition |]. exists 1%N. split; [reflexivity |]. vm_compute. intuition discriminate.
Qed.

Print Assumptions C63_no_bug.
Print Assumptions C63_success.
Print Assumptions C63_accepted.
Print Assumptions C63_restored.
Print Assumptions C63_once.
Print Assumptions C63_reasons.
Print Assumptions C63_uuid_refuted.
Print Assumptions C63_core_count_refuted.

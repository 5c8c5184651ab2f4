(** C72: caches are found, visited and kept alive by name and reference (model: RegModel.v). *)
From Coq Require Import NArith List Bool Arith Lia Sorting.Sorted.
From Verif Require Import RegModel.
Import ListNotations.
Open Scope nat_scope.

(** ** What is claimed *)
(** The text of a C string in a buffer; it is terminated within [n] bytes when shorter *)
Fixpoint text (l : list N) : list N :=
  match l with [] => [] | x :: l => if N.eqb x 0%N then [] else x :: text l end.
Definition terminated (n : nat) (l : list N) : Prop := length (text l) < n.
(** References thread [th] has: what its caller got, what the list copied or its removal owns *)
Definition holds (th : thread) : list nat :=
  mine th ++ match at_ th with Copy _ got _ => got | Visit _ got => got | Puts l => l | Unlisted c => [c] | _ => [] end.
Definition held (s : st) (c : nat) : Prop := exists th, In th (ths s) /\ In c (holds th).
Definition alive (s : st) (c : nat) : Prop := In c (lst s) /\ frozen (get s c) = false.
Definition named (s : st) (c : nat) (q : list N) : Prop := text (name (get s c)) = text q.
Definition reach (n : nat) (s : st) : Prop := exists l, run (init n) l s.
(** Runs in which names given to a start are terminated and no cache of that name is being removed just then *)
Inductive calm : st -> list (nat * act * ev) -> st -> Prop :=
| calm_nil s : calm s [] s
| calm_cons t a e s s1 l s2 :
    (forall nm, a = AStart nm -> terminated NAME nm /\ forall c, In c (lst s) -> frozen (get s c) = true -> ~ named s c nm) ->
    step t a s = Step e s1 -> calm s1 l s2 -> calm s ((t, a, e) :: l) s2.
(** Subsequence *)
Inductive sub : list nat -> list nat -> Prop :=
| sub_nil : sub [] []
| sub_keep x a b : sub a b -> sub (x :: a) (x :: b)
| sub_drop x a b : sub a b -> sub a (x :: b).
(** What thread [t] visited, in order *)
Fixpoint visited (t : nat) (l : list (nat * act * ev)) : list nat :=
  match l with
  | [] => []
  | (u, _, Visited c) :: l => if u =? t then c :: visited t l else visited t l
  | _ :: l => visited t l
  end.

(** ** Names *)
Lemma str_eq_text n : forall a b, length (text b) < n -> (str_eq n a b = true <-> text a = text b).
Proof.
  induction n as [|n IH]; intros a b L; [lia|]. cbn [str_eq].
  destruct a as [|x a], b as [|y b]; cbn [hd tl text] in *.
  - cbn. tauto.
  - destruct (N.eqb_spec y 0%N) as [->|Ny]; [cbn; tauto|].
    destruct (N.eqb_spec 0%N y) as [E|E]; [congruence|]. cbn. split; discriminate.
  - destruct (N.eqb_spec x 0%N) as [->|Nx]; [cbn; tauto|]. cbn. split; discriminate.
  - destruct (N.eqb_spec x y) as [->|Nxy].
    + destruct (N.eqb_spec y 0%N) as [->|Ny]; [cbn; tauto|]. cbn [andb orb]. cbn [length] in L.
      rewrite IH by lia. split; [congruence|]. intros E; inversion E; reflexivity.
    + cbn [andb]. split; [discriminate|].
      destruct (N.eqb_spec x 0%N), (N.eqb_spec y 0%N); subst; try congruence.
Qed.
Lemma matches_text a q len : terminated NAME q -> terminated len q -> (matches a q len = true <-> text a = text q).
Proof. unfold terminated, matches. intros L1 L2. apply str_eq_text. lia. Qed.
Lemma text_repeat0 n l : text (repeat 0%N (S n) ++ l) = [].
Proof. reflexivity. Qed.
Lemma text_copy n : forall src l, text (copy n src ++ 0%N :: l) = firstn n (text src).
Proof.
  induction n as [|n IH]; intros src l; cbn [copy]; [reflexivity|].
  destruct src as [|x src]; cbn [hd tl text]; [reflexivity|].
  destruct (N.eqb_spec x 0%N) as [->|Nx]; [reflexivity|].
  cbn [app text]. destruct (N.eqb_spec x 0%N); [contradiction|]. cbn [firstn]. rewrite IH. reflexivity.
Qed.
Lemma text_set_name nm : text (set_name nm) = firstn 31 (text nm).
Proof. unfold set_name. apply text_copy. Qed.
Lemma text_set_term nm : terminated NAME nm -> text (set_name nm) = text nm.
Proof. unfold terminated, NAME. intros L. rewrite text_set_name. apply firstn_all2. lia. Qed.

(** ** Lists *)
Notation occ := (count_occ Nat.eq_dec).
Fixpoint sumf {A} (f : A -> nat) (l : list A) : nat := match l with [] => 0 | x :: l => f x + sumf f l end.
Lemma sumf_upd {A} (f : A -> nat) l : forall i x y, nth_error l i = Some y -> sumf f (upd l i x) + f y = sumf f l + f x.
Proof.
  induction l as [|z l IH]; intros [|i] x y E; cbn in E; try discriminate; cbn [upd sumf].
  - inversion E; subst; lia.
  - specialize (IH i x y E). lia.
Qed.
Lemma sumf_in {A} (f : A -> nat) l x : In x l -> f x <= sumf f l.
Proof. induction l as [|y l IH]; cbn; [tauto|]. intros [->|H]; [lia|]. specialize (IH H). lia. Qed.
Lemma sumf_pos {A} (f : A -> nat) l : 0 < sumf f l -> exists x, In x l /\ 0 < f x.
Proof.
  induction l as [|y l IH]; cbn; [lia|]. intros H. destruct (Nat.eq_dec (f y) 0) as [E|E].
  - destruct IH as (x & I & P); [lia|]. exists x. tauto.
  - exists y. split; [left; reflexivity|lia].
Qed.
Lemma sumf_repeat {A} (f : A -> nat) x n : f x = 0 -> sumf f (repeat x n) = 0.
Proof. intros E. induction n; cbn; [reflexivity|]. lia. Qed.
Lemma upd_length {A} (l : list A) : forall i x, length (upd l i x) = length l.
Proof. induction l; intros [|i] x; cbn; auto. Qed.
Lemma nth_upd {A} (l : list A) d : forall i x j, i < length l -> nth j (upd l i x) d = if j =? i then x else nth j l d.
Proof.
  induction l as [|y l IH]; intros [|i] x [|j] L; cbn [length] in L; try lia; try reflexivity.
  cbn [upd nth]. rewrite IH by lia. reflexivity.
Qed.
Lemma nth_error_upd {A} (l : list A) : forall i x j, i < length l -> nth_error (upd l i x) j = if j =? i then Some x else nth_error l j.
Proof.
  induction l as [|y l IH]; intros [|i] x [|j] L; cbn [length] in L; try lia; try reflexivity.
  cbn [upd nth_error]. rewrite IH by lia. reflexivity.
Qed.
Lemma nth_error_lt {A} (l : list A) i x : nth_error l i = Some x -> i < length l.
Proof. intros E. apply nth_error_Some. congruence. Qed.
Lemma occ_drop1 c l d : In c l -> occ (drop1 c l) d + (if Nat.eq_dec c d then 1 else 0) = occ l d.
Proof.
  induction l as [|x l IH]; [intros []|]. intros I. cbn [drop1].
  destruct (Nat.eqb_spec x c) as [->|N].
  - cbn [count_occ]. destruct (Nat.eq_dec c d); lia.
  - destruct I as [|I]; [congruence|]. specialize (IH I). cbn [count_occ]. destruct (Nat.eq_dec x d); lia.
Qed.
Lemma drop1_in c l d : In d (drop1 c l) -> In d l.
Proof.
  induction l as [|x l IH]; [intros []|]. cbn [drop1]. destruct (x =? c); [right; assumption|].
  intros [->|I]; [left; reflexivity|right; auto].
Qed.
Lemma existsb_in c l : existsb (Nat.eqb c) l = true -> In c l.
Proof. intros E. apply existsb_exists in E. destruct E as (x & I & Q). apply Nat.eqb_eq in Q. congruence. Qed.
Lemma occ_in c l : In c l <-> 1 <= occ l c.
Proof. rewrite (count_occ_In Nat.eq_dec). lia. Qed.

(** ** The invariant *)
Definition total (s : st) (c : nat) : nat := sumf (fun th => occ (holds th) c) (ths s).
Definition frzf (c : nat) (th : thread) : nat := match at_ th with Frozen d => if Nat.eq_dec d c then 1 else 0 | _ => 0 end.
Definition frz (s : st) (c : nat) : nat := sumf (frzf c) (ths s).
Definition locking (p : pc) : bool := match p with Starting _ => true | Copy _ _ _ => true | _ => false end.
Definition ctl (s : st) (t : nat) (th : thread) : Prop :=
  (locking (at_ th) = true <-> lock s = Some t) /\
  match at_ th with Copy todo _ _ => incl todo (lst s) | Visit todo got => incl todo got | _ => True end.
Definition good (s : st) (c : nat) : Prop :=
  (c < length (caches s) ->
    refs (get s c) = total s c + occ (lst s) c /\
    freed (get s c) = (frozen (get s c) && (refs (get s c) =? 0)) /\
    frz s c = (if frozen (get s c) then occ (lst s) c else 0) /\
    (frozen (get s c) = false -> occ (lst s) c = 1) /\ occ (lst s) c <= 1) /\
  (length (caches s) <= c -> total s c = 0 /\ occ (lst s) c = 0 /\ frz s c = 0).
Definition inv (s : st) : Prop := (forall c, good s c) /\ (forall t th, nth_error (ths s) t = Some th -> ctl s t th).

Lemma inv_init n : inv (init n).
Proof.
  split.
  - intros c. split; cbn [caches init length]; [lia|]. intros _. unfold total, frz. cbn [ths init lst].
    rewrite !sumf_repeat by reflexivity. cbn. lia.
  - intros t th E. cbn [ths init] in E. apply nth_error_In in E. apply repeat_spec in E. subst th.
    split; [cbn; split; discriminate|exact I].
Qed.
(** What a thread has or what is listed exists and is not freed *)
Lemma occ_exists s c : inv s -> 1 <= total s c + occ (lst s) c -> c < length (caches s) /\ freed (get s c) = false /\ 1 <= refs (get s c).
Proof.
  intros (G & _) P. destruct (G c) as (A & B). destruct (Nat.lt_ge_cases c (length (caches s))) as [L|L].
  - destruct (A L) as (R & F & _). split; [exact L|]. split; [|lia]. rewrite F.
    destruct (Nat.eqb_spec (refs (get s c)) 0); [lia|]. apply andb_false_r.
  - destruct (B L) as (T0 & O0 & _). lia.
Qed.
Lemma total_in s t th c : nth_error (ths s) t = Some th -> occ (holds th) c <= total s c.
Proof. intros E. apply (sumf_in (fun th => occ (holds th) c)). eapply nth_error_In; eassumption. Qed.
Lemma held_ok s t th c : inv s -> nth_error (ths s) t = Some th -> In c (holds th) ->
  c < length (caches s) /\ freed (get s c) = false /\ 1 <= refs (get s c).
Proof. intros I E H. apply occ_exists; [exact I|]. pose proof (total_in s t th c E). apply occ_in in H. lia. Qed.
Lemma listed_ok s c : inv s -> In c (lst s) -> c < length (caches s) /\ freed (get s c) = false /\ 1 <= refs (get s c).
Proof. intros I H. apply occ_exists; [exact I|]. apply occ_in in H. lia. Qed.
Lemma mine_holds th c : existsb (Nat.eqb c) (mine th) = true -> In c (holds th).
Proof. intros E. unfold holds. apply in_or_app. left. apply existsb_in. exact E. Qed.

Lemma get_set s c x d : c < length (caches s) -> get (set_cache s c x) d = if d =? c then x else get s d.
Proof. intros L. unfold get, set_cache. cbn [caches]. apply nth_upd. exact L. Qed.
Lemma get_set_th s t x d : get (set_th s t x) d = get s d.
Proof. reflexivity. Qed.

(** A thread goes on, references and cache [c] change together: [x] is what [c] becomes *)
Lemma good_thread s t th th' l :
  inv s -> nth_error (ths s) t = Some th ->
  (forall d, occ (holds th') d = occ (holds th) d) -> (forall d, frzf d th' = frzf d th) ->
  forall c, good (set_lock (set_th s t th') l) c.
Proof.
  intros (G & _) E H Z c. specialize (G c). unfold good, total, frz in *. cbn [ths caches lst lock set_lock set_th get] in *.
  change (get (set_lock (set_th s t th') l) c) with (get s c).
  pose proof (sumf_upd (fun th => occ (holds th) c) (ths s) t th' th E) as Q1. cbn beta in Q1. rewrite H in Q1.
  pose proof (sumf_upd (frzf c) (ths s) t th' th E) as Q2. rewrite Z in Q2.
  replace (sumf (fun th0 => occ (holds th0) c) (upd (ths s) t th')) with (sumf (fun th0 => occ (holds th0) c) (ths s)) by lia.
  replace (sumf (frzf c) (upd (ths s) t th')) with (sumf (frzf c) (ths s)) by lia. exact G.
Qed.
Lemma good_inc s t th th' c x :
  inv s -> nth_error (ths s) t = Some th -> c < length (caches s) -> inc (get s c) = Some x ->
  (forall d, occ (holds th') d = occ (holds th) d + if Nat.eq_dec c d then 1 else 0) -> (forall d, frzf d th' = frzf d th) ->
  forall d, good (set_th (set_cache s c x) t th') d.
Proof.
  intros (G & _) E L X H Z d. specialize (G d). unfold good, total, frz in *. cbn [ths caches lst lock set_th set_cache] in *.
  rewrite upd_length, get_set_th, get_set by exact L.
  pose proof (sumf_upd (fun th => occ (holds th) d) (ths s) t th' th E) as Q1. cbn beta in Q1. rewrite H in Q1.
  pose proof (sumf_upd (frzf d) (ths s) t th' th E) as Q2. rewrite Z in Q2.
  replace (sumf (frzf d) (upd (ths s) t th')) with (sumf (frzf d) (ths s)) by lia.
  unfold inc in X. destruct (frozen (get s c)) eqn:Fz; [discriminate|]. inversion X; subst x.
  destruct (Nat.eqb_spec d c) as [->|Nd].
  - destruct (Nat.eq_dec c c); [|congruence]. cbn [refs frozen freed]. destruct G as (A & B). split; [intros _|lia].
    destruct (A L) as (R & F & W & V & U). rewrite Fz in *. cbn [andb] in *. repeat split; try assumption; try (intros _; apply V; reflexivity). lia.
  - destruct (Nat.eq_dec c d); [congruence|].
    replace (sumf (fun th0 => occ (holds th0) d) (upd (ths s) t th')) with (sumf (fun th0 => occ (holds th0) d) (ths s)) by lia. exact G.
Qed.
Lemma good_dec s t th th' c x :
  inv s -> nth_error (ths s) t = Some th -> c < length (caches s) -> dec (get s c) = Some x ->
  (forall d, occ (holds th') d + (if Nat.eq_dec c d then 1 else 0) = occ (holds th) d) -> (forall d, frzf d th' = frzf d th) ->
  forall d, good (set_th (set_cache s c x) t th') d.
Proof.
  intros (G & _) E L X H Z d. specialize (G d). unfold good, total, frz in *. cbn [ths caches lst lock set_th set_cache] in *.
  rewrite upd_length, get_set_th, get_set by exact L.
  pose proof (sumf_upd (fun th => occ (holds th) d) (ths s) t th' th E) as Q1. cbn beta in Q1. specialize (H d).
  pose proof (sumf_upd (frzf d) (ths s) t th' th E) as Q2. rewrite Z in Q2.
  replace (sumf (frzf d) (upd (ths s) t th')) with (sumf (frzf d) (ths s)) by lia.
  unfold dec in X. destruct (refs (get s c)) as [|k] eqn:Rk; [discriminate|]. inversion X; subst x.
  destruct (Nat.eqb_spec d c) as [->|Nd].
  - destruct (Nat.eq_dec c c); [|congruence]. cbn [refs frozen freed]. destruct G as (A & B). split; [intros _|lia].
    destruct (A L) as (R & F & W & V & U). rewrite Rk in *. split; [lia|]. split; [reflexivity|]. tauto.
  - destruct (Nat.eq_dec c d); [congruence|].
    replace (sumf (fun th0 => occ (holds th0) d) (upd (ths s) t th')) with (sumf (fun th0 => occ (holds th0) d) (ths s)) by lia. exact G.
Qed.
(** The control part: other threads keep theirs when the list stays and the lock stays or was / becomes [t]'s *)
Lemma ctl_other s s' t th th' :
  inv s -> nth_error (ths s) t = Some th -> ths s' = upd (ths s) t th' ->
  (lst s' = lst s \/ lock s = None \/ lock s = Some t) ->
  (lock s' = lock s \/ ((lock s = None \/ lock s = Some t) /\ (lock s' = None \/ lock s' = Some t))) ->
  ctl s' t th' -> forall u w, nth_error (ths s') u = Some w -> ctl s' u w.
Proof.
  intros (_ & C) E T Ls Lk Own u w W. rewrite T, nth_error_upd in W by (eapply nth_error_lt; eassumption).
  destruct (Nat.eqb_spec u t) as [->|Nu]; [inversion W; subst; exact Own|].
  destruct (C u w W) as (A & B). split.
  - destruct Lk as [->|(L1 & L2)]; [exact A|].
    rewrite A. destruct L1 as [-> | ->], L2 as [-> | ->]; split; congruence.
  - destruct (at_ w) eqn:P; try exact I; try exact B.
    destruct Ls as [->|Ls]; [exact B|]. exfalso. cbn in A. destruct A as (A & _). specialize (A eq_refl). destruct Ls; congruence.
Qed.
Lemma search_ok s l q len : inv s -> incl l (lst s) -> search s l q len <> None.
Proof.
  intros I. induction l as [|c l IH]; intros S; cbn [search]; [discriminate|].
  destruct (listed_ok s c I (S c (or_introl eq_refl))) as (_ & F & _). rewrite F.
  destruct (matches _ _ _); [discriminate|]. apply IH. intros x Hx. apply S. right. exact Hx.
Qed.
Lemma search_in s l q len c : search s l q len = Some (Some c) -> In c l /\ matches (name (get s c)) q len = true.
Proof.
  induction l as [|d l IH]; cbn [search]; [discriminate|]. destruct (freed _); [discriminate|].
  destruct (matches (name (get s d)) q len) eqn:M.
  - intros E; inversion E; subst. split; [left; reflexivity|exact M].
  - intros E. destruct (IH E). split; [right|]; assumption.
Qed.

Definition fine (r : res) : Prop := match r with Disabled => True | Bug => False | Step _ s' => inv s' end.
Ltac ownctl := split; [cbn [at_ locking]; try (split; [discriminate|]; cbn; congruence); try (split; reflexivity)|cbn [at_]; try exact I].

Lemma lock_mine s t th : inv s -> nth_error (ths s) t = Some th -> locking (at_ th) = true -> lock s = Some t.
Proof. intros (_ & C) E L. apply (C t th E). exact L. Qed.
Lemma lock_not s t th : inv s -> nth_error (ths s) t = Some th -> locking (at_ th) = false -> lock s <> Some t.
Proof. intros (_ & C) E L X. apply (C t th E) in X. congruence. Qed.

(** The thread goes on at [p], its references staying, the lock as said *)
Lemma fine_thread s t th p l e :
  inv s -> nth_error (ths s) t = Some th ->
  (forall d, occ (holds {| at_ := p; mine := mine th |}) d = occ (holds th) d) ->
  (forall d, frzf d {| at_ := p; mine := mine th |} = frzf d th) ->
  (l = lock s \/ ((lock s = None \/ lock s = Some t) /\ (l = None \/ l = Some t))) ->
  (locking p = true <-> l = Some t) ->
  match p with Copy todo _ _ => incl todo (lst s) | Visit todo got => incl todo got | _ => True end ->
  fine (Step e (set_lock (set_th s t {| at_ := p; mine := mine th |}) l)).
Proof.
  intros I E H Z L Own P. cbn [fine]. split; [apply good_thread with (th := th); assumption|].
  apply (ctl_other s _ t th {| at_ := p; mine := mine th |} I E); cbn [ths set_lock set_th lst lock]; try reflexivity.
  - left; reflexivity.
  - exact L.
  - split; [exact Own|exact P].
Qed.
Lemma fine_inc s t th th' c x e :
  inv s -> nth_error (ths s) t = Some th -> c < length (caches s) -> inc (get s c) = Some x ->
  (forall d, occ (holds th') d = occ (holds th) d + if Nat.eq_dec c d then 1 else 0) ->
  (forall d, frzf d th' = frzf d th) -> ctl s t th' -> fine (Step e (set_th (set_cache s c x) t th')).
Proof.
  intros I E L X H Z Own. cbn [fine]. split; [apply good_inc with (th := th); assumption|].
  apply (ctl_other s _ t th th' I E); cbn [ths set_cache set_th lst lock]; try reflexivity; try (left; reflexivity). exact Own.
Qed.
Lemma fine_put s t th th' c :
  inv s -> nth_error (ths s) t = Some th -> In c (holds th) ->
  (forall d, occ (holds th') d + (if Nat.eq_dec c d then 1 else 0) = occ (holds th) d) ->
  (forall d, frzf d th' = frzf d th) -> ctl s t th' -> fine (put s c t th').
Proof.
  intros I E M H Z Own. destruct (held_ok s t th c I E M) as (L & F & R). unfold put. rewrite F.
  destruct (dec (get s c)) as [x|] eqn:X.
  - cbn [fine]. split; [apply good_dec with (th := th); assumption|].
    apply (ctl_other s _ t th th' I E); cbn [ths set_cache set_th lst lock]; try reflexivity; try (left; reflexivity). exact Own.
  - unfold dec in X. destruct (refs (get s c)); [lia|discriminate].
Qed.
Lemma by_name_cases s q len : inv s ->
  (by_name s q len = Some None) \/ exists c x, by_name s q len = Some (Some (c, x)) /\ In c (lst s) /\ inc (get s c) = Some x.
Proof.
  intros I. unfold by_name. pose proof (search_ok s (lst s) q len I (incl_refl _)) as Q.
  destruct (search s (lst s) q len) as [[c|]|] eqn:S; [|left; reflexivity|congruence].
  destruct (inc (get s c)) as [x|] eqn:X; [|left; reflexivity]. right. exists c, x.
  apply search_in in S. tauto.
Qed.
Lemma fine_stop s t th c :
  inv s -> nth_error (ths s) t = Some th -> at_ th = Idle -> In c (holds th) -> frozen (get s c) = false ->
  fine (Step Nothing (set_th (set_cache s c {| name := name (get s c); refs := refs (get s c); frozen := true; freed := false |}) t
                        {| at_ := Frozen c; mine := mine th |})).
Proof.
  intros I E P M Fz. destruct (held_ok s t th c I E M) as (L & F & R). cbn [fine]. split.
  - intros d. destruct I as (G & _). specialize (G d). unfold good, total, frz in *. cbn [ths caches lst lock set_th set_cache] in *.
    rewrite upd_length, get_set_th, get_set by exact L.
    set (th' := {| at_ := Frozen c; mine := mine th |}).
    assert (H : occ (holds th') d = occ (holds th) d) by (unfold holds, th'; cbn [at_ mine]; rewrite P; reflexivity).
    pose proof (sumf_upd (fun th => occ (holds th) d) (ths s) t th' th E) as Q1. cbn beta in Q1. rewrite H in Q1.
    pose proof (sumf_upd (frzf d) (ths s) t th' th E) as Q2. unfold frzf at 2 4 in Q2. rewrite P in Q2. cbn [at_ th'] in Q2.
    replace (sumf (fun th0 => occ (holds th0) d) (upd (ths s) t th')) with (sumf (fun th0 => occ (holds th0) d) (ths s)) by lia.
    destruct (Nat.eqb_spec d c) as [->|Nd].
    + destruct (Nat.eq_dec c c); [|congruence]. cbn [refs frozen freed]. destruct G as (A & B). split; [intros _|lia].
      destruct (A L) as (R1 & F1 & W & V & U). rewrite Fz in *. specialize (V eq_refl).
      split; [exact R1|]. split; [destruct (Nat.eqb_spec (refs (get s c)) 0); [lia|reflexivity]|]. split; [lia|]. split; [discriminate|lia].
    + destruct (Nat.eq_dec c d); [congruence|].
      replace (sumf (frzf d) (upd (ths s) t th')) with (sumf (frzf d) (ths s)) by lia. exact G.
  - apply (ctl_other s _ t th {| at_ := Frozen c; mine := mine th |} I E); cbn [ths set_cache set_th lst lock]; try reflexivity; try (left; reflexivity).
    split; cbn [at_ locking]; [|exact Logic.I]. split; [discriminate|]. intros X. cbn [lock set_th set_cache] in X.
    exfalso. apply (lock_not s t th I E); [rewrite P; reflexivity|exact X].
Qed.
Lemma frozen_listed s t th c : inv s -> nth_error (ths s) t = Some th -> at_ th = Frozen c -> In c (lst s) /\ frozen (get s c) = true.
Proof.
  intros (G & _) E P. destruct (G c) as (A & B).
  assert (1 <= frz s c).
  { assert (Q : frzf c th <= frz s c) by (apply sumf_in; eapply nth_error_In; eassumption).
    unfold frzf in Q at 1. rewrite P in Q. destruct (Nat.eq_dec c c); [exact Q|congruence]. }
  destruct (Nat.lt_ge_cases c (length (caches s))) as [L|L].
  - destruct (A L) as (_ & _ & W & _ & _). destruct (frozen (get s c)); [|lia]. split; [apply occ_in; lia|reflexivity].
  - destruct (B L) as (_ & _ & W). lia.
Qed.
Lemma fine_del s t th c :
  inv s -> nth_error (ths s) t = Some th -> at_ th = Frozen c -> lock s = None ->
  fine (Step Nothing (set_th (set_lst s (drop1 c (lst s))) t {| at_ := Unlisted c; mine := mine th |})).
Proof.
  intros I E P Lk. destruct (frozen_listed s t th c I E P) as (M & Fz). destruct (listed_ok s c I M) as (L & F & R). cbn [fine]. split.
  - intros d. destruct I as (G & _). specialize (G d). unfold good, total, frz in *. cbn [ths caches lst lock set_th set_lst] in *.
    set (th' := {| at_ := Unlisted c; mine := mine th |}).
    change (get (set_th (set_lst s (drop1 c (lst s))) t th') d) with (get s d).
    assert (H : occ (holds th') d = occ (holds th) d + if Nat.eq_dec c d then 1 else 0).
    { unfold holds, th'; cbn [at_ mine]; rewrite P, !count_occ_app. cbn. destruct (Nat.eq_dec c d); lia. }
    pose proof (sumf_upd (fun th => occ (holds th) d) (ths s) t th' th E) as Q1. cbn beta in Q1. rewrite H in Q1.
    pose proof (sumf_upd (frzf d) (ths s) t th' th E) as Q2. unfold frzf at 2 4 in Q2. rewrite P in Q2. cbn [at_ th'] in Q2.
    pose proof (occ_drop1 c (lst s) d M) as Q3.
    destruct (Nat.eq_dec c d) as [<-|Nd].
    + destruct G as (A & B). split; [intros _|lia]. destruct (A L) as (R1 & F1 & W & V & U). rewrite Fz in *.
      split; [lia|]. split; [exact F1|]. split; [lia|]. split; [discriminate|lia].
    + replace (sumf (fun th0 => occ (holds th0) d) (upd (ths s) t th')) with (sumf (fun th0 => occ (holds th0) d) (ths s)) by lia.
      replace (sumf (frzf d) (upd (ths s) t th')) with (sumf (frzf d) (ths s)) by lia.
      replace (occ (drop1 c (lst s)) d) with (occ (lst s) d) by lia. exact G.
  - apply (ctl_other s _ t th {| at_ := Unlisted c; mine := mine th |} I E); cbn [ths set_lst set_th lst lock]; try reflexivity; try tauto.
    split; cbn [at_ locking]; [|exact Logic.I]. split; [discriminate|]. cbn [lock set_th set_lst]. congruence.
Qed.
Lemma fine_add s t th nm :
  inv s -> nth_error (ths s) t = Some th -> at_ th = Starting nm ->
  fine (Step (Created (length (caches s)))
    {| caches := caches s ++ [{| name := set_name nm; refs := 2; frozen := false; freed := false |}];
       lst := lst s ++ [length (caches s)]; lock := None;
       ths := upd (ths s) t {| at_ := Idle; mine := length (caches s) :: mine th |} |}).
Proof.
  intros I E P. set (n := length (caches s)).
  assert (Lk : lock s = Some t) by (apply lock_mine with (th := th); [exact I|exact E|rewrite P; reflexivity]).
  cbn [fine]. split.
  - intros d. destruct I as (G & _). specialize (G d). unfold good, total, frz in *. cbn [ths caches lst lock] in *.
    set (th' := {| at_ := Idle; mine := n :: mine th |}).
    assert (H : occ (holds th') d = occ (holds th) d + if Nat.eq_dec n d then 1 else 0).
    { unfold holds, th'; cbn [at_ mine]; rewrite P, !app_nil_r. cbn [count_occ]. destruct (Nat.eq_dec n d); lia. }
    pose proof (sumf_upd (fun th => occ (holds th) d) (ths s) t th' th E) as Q1. cbn beta in Q1. rewrite H in Q1.
    pose proof (sumf_upd (frzf d) (ths s) t th' th E) as Q2. unfold frzf at 2 4 in Q2. rewrite P in Q2. cbn [at_ th'] in Q2.
    rewrite app_length, count_occ_app. cbn [length count_occ]. fold n. destruct G as (A & B). unfold get. cbn [caches].
    destruct (Nat.eq_dec n d) as [<-|Nd].
    + split; [intros _|lia]. rewrite app_nth2 by (fold n; lia). fold n. rewrite Nat.sub_diag. cbn [nth refs frozen freed].
      destruct (B (le_n _)) as (T0 & O0 & Z0). split; [lia|]. split; [reflexivity|]. split; [lia|]. split; [lia|lia].
    + split.
      * intros L. assert (L' : d < n) by (fold n in L; lia). rewrite app_nth1 by exact L'. destruct (A L') as (R1 & F1 & W & V & U).
        unfold get in *. split; [lia|]. split; [exact F1|]. split; [rewrite Nat.add_0_r; lia|]. split; [intros X; specialize (V X); lia|lia].
      * intros L. destruct B as (T0 & O0 & Z0); [fold n; lia|]. lia.
  - apply (ctl_other s _ t th {| at_ := Idle; mine := n :: mine th |} I E); cbn [ths lst lock]; try reflexivity; try tauto.
    split; cbn [at_ locking]; [|exact Logic.I]. split; [discriminate|]. cbn [lock]. discriminate.
Qed.
Lemma step_fine t a s : inv s -> fine (step t a s).
Proof.
  intros I. unfold step. destruct (nth_error (ths s) t) as [th|] eqn:E; [|exact Logic.I].
  assert (NL : locking (at_ th) = false -> lock s = Some t -> False) by (intros X Y; exact (lock_not s t th I E X Y)).
  assert (YL : locking (at_ th) = true -> lock s = Some t) by (exact (lock_mine s t th I E)).
  assert (CT : ctl s t th) by (apply (proj2 I); exact E). destruct CT as (_ & CT).
  destruct (at_ th) as [|nm|todo got back|todo got|todo|c|c] eqn:P; cbn [locking] in NL, YL.
  - (* Idle *) destruct a as [nm|ok|q len|c|c|back mem| |stop| |c| | ]; try exact Logic.I.
    + destruct (lock s) eqn:Lk; unfold free_lock; rewrite Lk; cbn [negb]; [exact Logic.I|].
      destruct (N.eqb _ _); [exact I|].
      destruct (by_name_cases s nm NAME I) as [-> | (c & x & -> & _)]; [|exact I].
      apply fine_thread with (th := th); try assumption; try exact Logic.I.
      * intros d. unfold holds. cbn [at_ mine]. rewrite P. reflexivity.
      * intros d. unfold frzf. cbn [at_]. rewrite P. reflexivity.
      * tauto.
      * cbn. tauto.
    + destruct (lock s) eqn:Lk; unfold free_lock; rewrite Lk; cbn [negb]; [exact Logic.I|].
      destruct (by_name_cases s q len I) as [-> | (c & x & -> & M & X)]; [exact I|].
      apply fine_inc with (th := th); try assumption.
      * apply (listed_ok s c I M).
      * intros d. unfold holds. cbn [at_ mine]. rewrite P, !app_nil_r. cbn [count_occ]. destruct (Nat.eq_dec c d); lia.
      * intros d. unfold frzf. cbn [at_]. rewrite P. reflexivity.
      * split; [|exact Logic.I]. cbn. rewrite Lk. split; discriminate.
    + destruct (existsb (Nat.eqb c) (mine th)) eqn:X; cbn [negb]; [|exact Logic.I]. apply mine_holds in X.
      destruct (held_ok s t th c I E X) as (L & F & R). rewrite F. destruct (inc (get s c)) as [x|] eqn:Y; [|exact I].
      apply fine_inc with (th := th); try assumption.
      * intros d. unfold holds. cbn [at_ mine]. rewrite P, !app_nil_r. cbn [count_occ]. destruct (Nat.eq_dec c d); lia.
      * intros d. unfold frzf. cbn [at_]. rewrite P. reflexivity.
      * split; [|exact Logic.I]. cbn. split; [discriminate|]. intros Z. destruct (NL eq_refl Z).
    + destruct (existsb (Nat.eqb c) (mine th)) eqn:X; cbn [negb]; [|exact Logic.I]. pose proof (existsb_in _ _ X) as M. apply mine_holds in X.
      apply fine_put with (th := th); try assumption.
      * intros d. unfold holds. cbn [at_ mine]. rewrite P, !app_nil_r. apply occ_drop1. exact M.
      * intros d. unfold frzf. cbn [at_]. rewrite P. reflexivity.
      * split; [|exact Logic.I]. cbn. split; [discriminate|]. intros Z. destruct (NL eq_refl Z).
    + destruct (lock s) eqn:Lk; unfold free_lock; rewrite Lk; cbn [negb]; [exact Logic.I|].
      destruct (lst s) as [|c0 l0] eqn:Ls; [exact I|]. destruct mem; [|exact I].
      apply fine_thread with (th := th); try assumption; try exact Logic.I.
      * intros d. unfold holds. cbn [at_ mine]. rewrite P. reflexivity.
      * intros d. unfold frzf. cbn [at_]. rewrite P. reflexivity.
      * tauto.
      * cbn. tauto.
      * rewrite Ls. apply incl_refl.
    + destruct (existsb (Nat.eqb c) (mine th)) eqn:X; cbn [negb]; [|exact Logic.I]. apply mine_holds in X.
      destruct (held_ok s t th c I E X) as (L & F & R). rewrite F. destruct (frozen (get s c)) eqn:Fz; [exact Logic.I|].
      apply fine_stop; assumption.
  - (* Starting *) destruct a; try exact Logic.I. destruct ok; [exact (fine_add s t th nm I E P)|].
    apply fine_thread with (th := th); try assumption; try exact Logic.I.
    + intros d. unfold holds. cbn [at_ mine]. rewrite P. reflexivity.
    + intros d. unfold frzf. cbn [at_]. rewrite P. reflexivity.
    + rewrite YL by reflexivity. tauto.
    + cbn. split; discriminate.
  - (* Copy *) destruct todo as [|c todo]; destruct a; try exact Logic.I.
    + apply fine_thread with (th := th); try assumption; try exact Logic.I.
      * intros d. unfold holds. cbn [at_ mine]. rewrite P. reflexivity.
      * intros d. unfold frzf. cbn [at_]. rewrite P. reflexivity.
      * rewrite YL by reflexivity. tauto.
      * cbn. split; discriminate.
      * destruct back; [intros x Hx; apply in_rev; exact Hx|apply incl_refl].
    + destruct (listed_ok s c I (CT c (or_introl eq_refl))) as (L & F & R). rewrite F.
      assert (IC : incl todo (lst s)) by (intros x Hx; apply CT; right; exact Hx).
      destruct (inc (get s c)) as [x|] eqn:X.
      * apply fine_inc with (th := th); try assumption.
        -- intros d. unfold holds. cbn [at_ mine]. rewrite P, !count_occ_app. cbn [count_occ]. destruct (Nat.eq_dec c d); lia.
        -- intros d. unfold frzf. cbn [at_]. rewrite P. reflexivity.
        -- split; [cbn; split; [intros _; apply YL; reflexivity|reflexivity]|exact IC].
      * change (set_th s t ?x) with (set_lock (set_th s t x) (lock s)). apply fine_thread with (th := th); try assumption; try exact Logic.I.
        -- intros d. unfold holds. cbn [at_ mine]. rewrite P. reflexivity.
        -- intros d. unfold frzf. cbn [at_]. rewrite P. reflexivity.
        -- left; reflexivity.
        -- cbn. split; [intros _; apply YL; reflexivity|reflexivity].
  - (* Visit *) destruct todo as [|c todo]; destruct a; try exact Logic.I.
    + change (set_th s t ?x) with (set_lock (set_th s t x) (lock s)). apply fine_thread with (th := th); try assumption; try exact Logic.I.
      * intros d. unfold holds. cbn [at_ mine]. rewrite P. reflexivity.
      * intros d. unfold frzf. cbn [at_]. rewrite P. reflexivity.
      * left; reflexivity.
      * cbn. split; [discriminate|]. intros Z. destruct (NL eq_refl Z).
    + assert (X : In c (holds th)) by (unfold holds; rewrite P; apply in_or_app; right; apply CT; left; reflexivity).
      destruct (held_ok s t th c I E X) as (L & F & R). rewrite F.
      change (set_th s t ?x) with (set_lock (set_th s t x) (lock s)). apply fine_thread with (th := th); try assumption; try exact Logic.I.
      * intros d. unfold holds. cbn [at_ mine]. rewrite P. destruct stop; reflexivity.
      * intros d. unfold frzf. cbn [at_]. rewrite P. destruct stop; reflexivity.
      * left; reflexivity.
      * destruct stop; cbn; (split; [discriminate|]; intros Z; destruct (NL eq_refl Z)).
      * destruct stop; [exact Logic.I|]. intros x Hx. apply CT. right. exact Hx.
  - (* Puts *) destruct todo as [|c todo]; destruct a; try exact Logic.I.
    + change (set_th s t ?x) with (set_lock (set_th s t x) (lock s)). apply fine_thread with (th := th); try assumption; try exact Logic.I.
      * intros d. unfold holds. cbn [at_ mine]. rewrite P. reflexivity.
      * intros d. unfold frzf. cbn [at_]. rewrite P. reflexivity.
      * left; reflexivity.
      * cbn. split; [discriminate|]. intros Z. destruct (NL eq_refl Z).
    + apply fine_put with (th := th); try assumption.
      * unfold holds. rewrite P. apply in_or_app. right. left. reflexivity.
      * intros d. unfold holds. cbn [at_ mine]. rewrite P, !count_occ_app. cbn [count_occ]. destruct (Nat.eq_dec c d); lia.
      * intros d. unfold frzf. cbn [at_]. rewrite P. reflexivity.
      * split; [|exact Logic.I]. cbn. split; [discriminate|]. intros Z. destruct (NL eq_refl Z).
  - (* Frozen *) destruct a; try exact Logic.I. destruct (lock s) eqn:Lk; unfold free_lock; rewrite Lk; cbn [negb]; [exact Logic.I|].
    destruct (frozen_listed s t th c I E P) as (M & _). destruct (listed_ok s c I M) as (L & F & R). rewrite F.
    apply fine_del; assumption.
  - (* Unlisted *) destruct a as [nm|ok|q len|d0|d0|back mem| |stop| |d0| | ]; try exact Logic.I.
    + destruct (existsb (Nat.eqb d0) (mine th)) eqn:X; cbn [negb]; [|exact Logic.I]. pose proof (existsb_in _ _ X) as M. apply mine_holds in X.
      apply fine_put with (th := th); try assumption.
      * intros d. unfold holds. cbn [at_ mine]. rewrite P, !count_occ_app. pose proof (occ_drop1 d0 (mine th) d M). lia.
      * intros d. unfold frzf. cbn [at_]. rewrite P. reflexivity.
      * split; [|exact Logic.I]. cbn. split; [discriminate|]. intros Z. destruct (NL eq_refl Z).
    + apply fine_put with (th := th); try assumption.
      * unfold holds. rewrite P. apply in_or_app. right. left. reflexivity.
      * intros d. unfold holds. cbn [at_ mine]. rewrite P, !count_occ_app. cbn [count_occ]. destruct (Nat.eq_dec c d); lia.
      * intros d. unfold frzf. cbn [at_]. rewrite P. reflexivity.
      * split; [|exact Logic.I]. cbn. split; [discriminate|]. intros Z. destruct (NL eq_refl Z).
Qed.
Lemma run_inv s l s' : run s l s' -> inv s -> inv s'.
Proof. induction 1 as [|t a e s s1 l s2 E R IH]; [trivial|]. intros I. apply IH. pose proof (step_fine t a s I) as F. rewrite E in F. exact F. Qed.
Lemma reach_inv n s : reach n s -> inv s.
Proof. intros (l & R). apply (run_inv _ _ _ R). apply inv_init. Qed.

(** ** References *)
Lemma good_of s c : inv s -> c < length (caches s) ->
  refs (get s c) = total s c + occ (lst s) c /\ freed (get s c) = (frozen (get s c) && (refs (get s c) =? 0)) /\
  (frozen (get s c) = false -> In c (lst s)).
Proof.
  intros (G & _) L. destruct (G c) as (A & _). destruct (A L) as (R & F & _ & V & _).
  split; [exact R|]. split; [exact F|]. intros X. apply occ_in. rewrite V by exact X. lia.
Qed.
Lemma held_total s c : held s c <-> 1 <= total s c.
Proof.
  split.
  - intros (th & I & H). pose proof (sumf_in (fun th => occ (holds th) c) (ths s) th I) as Q. cbn beta in Q. apply occ_in in H.
    unfold total. lia.
  - intros P. apply (sumf_pos (fun th => occ (holds th) c)) in P. destruct P as (th & I & P). exists th. split; [exact I|]. apply occ_in. exact P.
Qed.
(** Nothing uses a freed cache or drops a reference that is not there; a cache is freed exactly when it is removed and
    nobody has a reference; what is listed or held is there *)
Theorem C72_safe n s : reach n s ->
  (forall t a, step t a s <> Bug) /\
  (forall c, In c (lst s) \/ held s c -> c < length (caches s) /\ freed (get s c) = false) /\
  (forall c, c < length (caches s) -> (freed (get s c) = true <-> ~ In c (lst s) /\ ~ held s c)).
Proof.
  intros R. pose proof (reach_inv n s R) as I. split; [|split].
  - intros t a X. pose proof (step_fine t a s I) as F. rewrite X in F. exact F.
  - intros c H. assert (P : 1 <= total s c + occ (lst s) c).
    { destruct H as [H|H]; [apply occ_in in H; lia|apply held_total in H; lia]. }
    destruct (occ_exists s c I P) as (L & F & _). tauto.
  - intros c L. destruct (good_of s c I L) as (Rf & F & V). rewrite F. split.
    + intros X. apply andb_prop in X. destruct X as (_ & X). apply Nat.eqb_eq in X. split; intros Y.
      * apply occ_in in Y. lia.
      * apply held_total in Y. lia.
    + intros (A & B). assert (occ (lst s) c = 0) by (destruct (occ (lst s) c) eqn:O; [reflexivity|]; exfalso; apply A; apply occ_in; lia).
      assert (total s c = 0) by (destruct (total s c) eqn:O; [reflexivity|]; exfalso; apply B; apply held_total; lia).
      destruct (frozen (get s c)); [|exfalso; apply A; apply V; reflexivity].
      cbn [andb]. apply Nat.eqb_eq. lia.
Qed.
(** When every operation has ended and every reference was put, a cache is freed, or running with one reference *)
Theorem C72_no_leak n s : reach n s -> (forall th, In th (ths s) -> at_ th = Idle /\ mine th = []) ->
  forall c, c < length (caches s) -> freed (get s c) = true \/ (alive s c /\ refs (get s c) = 1).
Proof.
  intros R Q c L. pose proof (reach_inv n s R) as I. destruct I as (G & C) eqn:EI. destruct (G c) as (A & _).
  destruct (A L) as (Rf & F & W & V & U).
  assert (T0 : total s c = 0).
  { destruct (total s c) eqn:O; [reflexivity|]. exfalso. assert (H : held s c) by (apply held_total; lia).
    destruct H as (th & H1 & H2). destruct (Q th H1) as (P & M). unfold holds in H2. rewrite P, M in H2. exact H2. }
  assert (Z0 : frz s c = 0).
  { destruct (frz s c) eqn:O; [reflexivity|]. exfalso. assert (H : 0 < frz s c) by lia. apply (sumf_pos (frzf c)) in H.
    destruct H as (th & H1 & H2). destruct (Q th H1) as (P & M). unfold frzf in H2. rewrite P in H2. lia. }
  destruct (frozen (get s c)) eqn:Fz.
  - left. rewrite F. cbn [andb]. apply Nat.eqb_eq. lia.
  - right. split; [|rewrite (V eq_refl) in Rf; lia]. split; [|exact Fz]. apply occ_in. rewrite (V eq_refl). lia.
Qed.

(** ** What a step leaves alone *)
Lemma put_shape s c t x e s' : put s c t x = Step e s' ->
  exists y, s' = set_th (set_cache s c y) t x /\ name y = name (get s c) /\ frozen y = frozen (get s c).
Proof.
  unfold put. destruct (freed _); [discriminate|]. unfold dec. destruct (refs _); [discriminate|].
  intros E. inversion E. eexists. split; [reflexivity|]. split; reflexivity.
Qed.
Lemma inc_shape x y : inc x = Some y -> name y = name x /\ frozen y = frozen x.
Proof. unfold inc. destruct (frozen x) eqn:F; [discriminate|]. intros E; inversion E. split; [reflexivity|]. cbn. reflexivity. Qed.
(** Kept: names; frozen stays frozen; the number of caches does not fall *)
Definition kept (s s' : st) : Prop :=
  length (caches s) <= length (caches s') /\
  forall c, c < length (caches s) -> name (get s' c) = name (get s c) /\ (frozen (get s c) = true -> frozen (get s' c) = true).
Lemma kept_refl s : kept s s.
Proof. split; [lia|]. tauto. Qed.
Lemma kept_trans a b c : kept a b -> kept b c -> kept a c.
Proof.
  intros (L1 & K1) (L2 & K2). split; [lia|]. intros d Ld. destruct (K1 d Ld) as (N1 & F1). destruct (K2 d ltac:(lia)) as (N2 & F2).
  split; [congruence|]. auto.
Qed.
Lemma kept_same s s' : caches s' = caches s -> kept s s'.
Proof. intros E. unfold kept, get. rewrite E. split; [lia|]. tauto. Qed.
Lemma kept_upd s s' c x : caches s' = upd (caches s) c x -> name x = name (get s c) -> (frozen (get s c) = true -> frozen x = true) -> kept s s'.
Proof.
  intros E Nx Fx. unfold kept, get in *. rewrite E, upd_length. split; [lia|]. intros d Ld.
  destruct (Nat.lt_ge_cases c (length (caches s))) as [L|L].
  - rewrite nth_upd by exact L. destruct (Nat.eqb_spec d c) as [->|]; tauto.
  - replace (upd (caches s) c x) with (caches s); [tauto|]. clear -L. revert c L. induction (caches s) as [|y l IH]; intros [|c] L; cbn in *; try reflexivity; try lia.
    f_equal. apply IH. lia.
Qed.
Ltac invst H := inversion H; subst; clear H.
(** One thread changes, the others stay *)
Lemma step_shape t a s e s' : inv s -> step t a s = Step e s' ->
  kept s s' /\ (forall u, u <> t -> nth_error (ths s') u = nth_error (ths s) u).
Proof.
  intros I. unfold step. destruct (nth_error (ths s) t) as [th|] eqn:E; [|discriminate]. pose proof (nth_error_lt _ _ _ E) as Lt.
  assert (O : forall x u, u <> t -> nth_error (upd (ths s) t x) u = nth_error (ths s) u).
  { intros x u Nu. rewrite nth_error_upd by exact Lt. destruct (Nat.eqb_spec u t); [congruence|reflexivity]. }
  assert (K1 : forall x l, kept s (set_lock (set_th s t x) l)) by (intros; apply kept_same; reflexivity).
  assert (K2 : forall x, kept s (set_th s t x)) by (intros; apply kept_same; reflexivity).
  assert (KP : forall c x e0 s0, put s c t x = Step e0 s0 -> kept s s0 /\ (forall u, u <> t -> nth_error (ths s0) u = nth_error (ths s) u)).
  { intros c x e0 s0 Pq. apply put_shape in Pq. destruct Pq as (y & -> & Ny & Fy). split.
    - apply kept_upd with (c := c) (x := y); [reflexivity|exact Ny|congruence].
    - intros u Nu. cbn [ths set_th set_cache]. apply O. exact Nu. }
  assert (KI : forall c y x, inc (get s c) = Some y -> kept s (set_th (set_cache s c y) t x)).
  { intros c y x Q. apply inc_shape in Q. apply kept_upd with (c := c) (x := y); [reflexivity|tauto|]. destruct Q as (_ & ->). tauto. }
  destruct (at_ th) as [|nm|todo got back|todo got|todo|c|c] eqn:P; try (destruct todo as [|c todo]); destruct a as [nm0|ok|q len|d|d|bk mem| |stop| |d| | ]; try discriminate.
  - destruct (free_lock s); [|discriminate]. cbn [negb]. destruct (N.eqb _ _); [intros X; invst X; split; [apply kept_refl|reflexivity]|].
    destruct (by_name s nm0 NAME) as [[[d x]|]|]; [| |discriminate]; intros X; invst X.
    + split; [apply kept_refl|reflexivity].
    + split; [apply K1|]. intros u Nu. cbn [ths set_lock set_th]. apply O. exact Nu.
  - destruct (free_lock s); [|discriminate]. cbn [negb].
    destruct (by_name_cases s q len I) as [-> | (d & x & -> & M & Q)]; intros X; invst X.
    + split; [apply kept_refl|reflexivity].
    + split; [apply KI; exact Q|]. intros u Nu. cbn [ths set_th set_cache]. apply O. exact Nu.
  - destruct (existsb _ _); [|discriminate]. cbn [negb]. destruct (freed _); [discriminate|].
    destruct (inc (get s d)) as [x|] eqn:Q; intros X; invst X.
    + split; [apply KI; exact Q|]. intros u Nu. cbn [ths set_th set_cache]. apply O. exact Nu.
    + split; [apply kept_refl|reflexivity].
  - destruct (existsb _ _); [|discriminate]. apply KP.
  - destruct (free_lock s); [|discriminate]. cbn [negb]. destruct (lst s) as [|c0 l0]; [intros X; invst X; split; [apply kept_refl|reflexivity]|].
    destruct mem; intros X; invst X; [|split; [apply kept_refl|reflexivity]]. split; [apply K1|].
    intros u Nu. cbn [ths set_lock set_th]. apply O. exact Nu.
  - destruct (existsb _ _); [|discriminate]. cbn [negb]. destruct (freed _); [discriminate|]. destruct (frozen (get s d)) eqn:Fz; [discriminate|].
    intros X; invst X. split.
    + eapply kept_upd; [reflexivity|reflexivity|]. intros _. reflexivity.
    + intros u Nu. cbn [ths set_th set_cache]. apply O. exact Nu.
  - destruct ok; intros X; invst X.
    + split; [|intros u Nu; cbn [ths]; apply O; exact Nu]. split; cbn [caches]; [rewrite app_length; lia|].
      intros d Ld. unfold get. cbn [caches]. rewrite app_nth1 by exact Ld. tauto.
    + split; [apply K1|]. intros u Nu. cbn [ths set_lock set_th]. apply O. exact Nu.
  - intros X; invst X. split; [apply K1|]. intros u Nu. cbn [ths set_lock set_th]. apply O. exact Nu.
  - destruct (freed _); [discriminate|]. destruct (inc (get s c)) as [x|] eqn:Q; intros X; invst X.
    + split; [apply KI; exact Q|]. intros u Nu. cbn [ths set_th set_cache]. apply O. exact Nu.
    + split; [apply K2|]. intros u Nu. cbn [ths set_th]. apply O. exact Nu.
  - intros X; invst X. split; [apply K2|]. intros u Nu. cbn [ths set_th]. apply O. exact Nu.
  - destruct (freed _); [discriminate|]. intros X; invst X. split; [apply K2|]. intros u Nu. cbn [ths set_th]. apply O. exact Nu.
  - intros X; invst X. split; [apply K2|]. intros u Nu. cbn [ths set_th]. apply O. exact Nu.
  - apply KP.
  - destruct (free_lock s); [|discriminate]. cbn [negb]. destruct (freed _); [discriminate|]. intros X; invst X. split; [apply kept_same; reflexivity|].
    intros u Nu. cbn [ths set_th set_lst]. apply O. exact Nu.
  - destruct (existsb _ _); [|discriminate]. apply KP.
  - apply KP.
Qed.
(** Where the list changes *)
Lemma put_lst s c t x e s' : put s c t x = Step e s' -> lst s' = lst s.
Proof. intros E. apply put_shape in E. destruct E as (y & -> & _). reflexivity. Qed.
Lemma step_lst t a s e s' : step t a s = Step e s' ->
  lst s' = lst s \/ (exists c th, nth_error (ths s) t = Some th /\ at_ th = Frozen c /\ lst s' = drop1 c (lst s)) \/
  (exists th nm, nth_error (ths s) t = Some th /\ at_ th = Starting nm /\ lst s' = lst s ++ [length (caches s)] /\
     caches s' = caches s ++ [{| name := set_name nm; refs := 2; frozen := false; freed := false |}]).
Proof.
  unfold step. destruct (nth_error (ths s) t) as [th|] eqn:E; [|discriminate].
  destruct (at_ th) as [|nm|todo got back|todo got|todo|c|c] eqn:P; try (destruct todo as [|c todo]); destruct a as [nm0|ok|q len|d|d|bk mem| |stop| |d| | ]; try discriminate;
  repeat match goal with |- context[match ?x with _ => _ end] => destruct x eqn:? end; intros X; try discriminate;
    try (invst X; left; cbn [lst set_lock set_th set_cache]; congruence); try (left; exact (put_lst _ _ _ _ _ _ X)).
  all: invst X.
  - right. right. exists th, nm. split; [reflexivity|]. split; [exact P|]. split; reflexivity.
  - right. left. exists c, th. split; [reflexivity|]. split; [exact P|]. reflexivity.
Qed.

(** ** Finding *)
Lemma search_none s l q len : search s l q len = Some None -> forall c, In c l -> matches (name (get s c)) q len = false.
Proof.
  induction l as [|d l IH]; cbn [search]; [intros _ c []|]. destruct (freed _); [discriminate|].
  destruct (matches (name (get s d)) q len) eqn:M; [discriminate|]. intros E c [->|H]; [exact M|exact (IH E c H)].
Qed.
Lemma search_first s l q len c : search s l q len = Some (Some c) ->
  exists l1 l2, l = l1 ++ c :: l2 /\ matches (name (get s c)) q len = true /\ forall d, In d l1 -> matches (name (get s d)) q len = false.
Proof.
  induction l as [|d l IH]; cbn [search]; [discriminate|]. destruct (freed _); [discriminate|].
  destruct (matches (name (get s d)) q len) eqn:M.
  - intros E; inversion E; subst. exists [], l. split; [reflexivity|]. split; [exact M|]. intros x [].
  - intros E. destruct (IH E) as (l1 & l2 & -> & M2 & F). exists (d :: l1), l2. split; [reflexivity|]. split; [exact M2|].
    intros x [->|H]; [exact M|exact (F x H)].
Qed.
Definition first_hidden (s : st) (q : list N) : Prop :=
  forall c, alive s c -> named s c q -> exists d l1 l2, lst s = l1 ++ d :: l2 /\ In c l2 /\ frozen (get s d) = true /\ named s d q.
Lemma by_name_spec s q len : inv s -> terminated NAME q -> terminated len q ->
  (exists c x, by_name s q len = Some (Some (c, x)) /\ alive s c /\ named s c q /\ inc (get s c) = Some x /\
     forall l1 l2, lst s = l1 ++ c :: l2 -> forall d, In d l1 -> d <> c -> ~ named s d q) \/
  (by_name s q len = Some None /\ first_hidden s q).
Proof.
  intros I T1 T2. unfold by_name. pose proof (search_ok s (lst s) q len I (incl_refl _)) as Q.
  destruct (search s (lst s) q len) as [[c|]|] eqn:Sr; [| |congruence].
  - apply search_first in Sr. destruct Sr as (l1 & l2 & E & M & F).
    destruct (inc (get s c)) as [x|] eqn:X.
    + left. exists c, x. split; [reflexivity|]. assert (Ic : In c (lst s)) by (rewrite E; apply in_or_app; right; left; reflexivity).
      split; [split; [exact Ic|unfold inc in X; destruct (frozen (get s c)); [discriminate|reflexivity]]|].
      split; [apply (matches_text _ q len T1 T2); exact M|]. split; [exact X|].
      intros k1 k2 K d Hd Nd H. apply (matches_text _ q len T1 T2) in H.
      assert (Hd' : In d l1).
      { assert (U : occ (lst s) c <= 1).
        { destruct I as (G & _). destruct (G c) as (A & B). destruct (Nat.lt_ge_cases c (length (caches s))) as [L|L]; [apply (A L)|destruct (B L) as (_ & U & _); lia]. }
        clear -E K Hd U. rewrite E in K, U. clear E. revert k1 K Hd U. induction l1 as [|y l1 IH]; intros [|z k1] K Hd U; cbn in *.
        - destruct Hd.
        - inversion K; subst. exfalso. destruct (Nat.eq_dec z z); [|congruence]. rewrite count_occ_app in U. cbn in U. destruct (Nat.eq_dec z z); [lia|congruence].
        - destruct Hd.
        - inversion K; subst. destruct Hd as [->|Hd]; [left; reflexivity|]. right. apply (IH k1); [assumption|exact Hd|]. destruct (Nat.eq_dec z c); lia. }
      rewrite (F d Hd') in H. discriminate.
    + right. split; [reflexivity|]. intros d (Id & Fd) Nd.
      assert (Fc : frozen (get s c) = true) by (unfold inc in X; destruct (frozen (get s c)); [reflexivity|discriminate]).
      exists c, l1, l2. split; [exact E|]. split; [|split; [exact Fc|apply (matches_text _ q len T1 T2); exact M]].
      rewrite E in Id. apply in_app_or in Id. destruct Id as [Id|[->|Id]]; [|congruence|exact Id].
      specialize (F d Id). apply (matches_text _ q len T1 T2) in Nd. congruence.
  - right. split; [reflexivity|]. intros d (Id & Fd) Nd. apply (matches_text _ q len T1 T2) in Nd.
    rewrite (search_none s (lst s) q len Sr d Id) in Nd. discriminate.
Qed.
(** Looking a name up, with its terminator: a cache of that name that is running, with a reference for the caller; or
    none, and then any running cache of that name is behind one of that name that is being removed *)
Theorem C72_find n s t q len e s' : reach n s -> terminated NAME q -> terminated len q -> step t (AFind q len) s = Step e s' ->
  (exists c th, e = Found c /\ alive s c /\ named s c q /\ nth_error (ths s') t = Some th /\ In c (mine th) /\
     refs (get s' c) = S (refs (get s c)) /\ (forall d, d <> c -> get s' d = get s d)) \/
  (e = NotFound /\ s' = s /\ first_hidden s q).
Proof.
  intros R T1 T2. pose proof (reach_inv n s R) as I. unfold step. destruct (nth_error (ths s) t) as [th|] eqn:E; [|discriminate].
  destruct (at_ th) eqn:P; try discriminate; try (destruct todo; discriminate).
  destruct (free_lock s); [|discriminate]. cbn [negb].
  destruct (by_name_spec s q len I T1 T2) as [(c & x & -> & A & Nm & X & _)|(-> & H)]; intros Q; invst Q.
  - left. destruct (listed_ok s c I (proj1 A)) as (L & _). eexists c, _. split; [reflexivity|]. split; [exact A|]. split; [exact Nm|].
    split; [cbn [ths set_th set_cache]; rewrite nth_error_upd by (eapply nth_error_lt; eassumption); rewrite Nat.eqb_refl; reflexivity|].
    split; [left; reflexivity|]. rewrite get_set_th, get_set, Nat.eqb_refl by exact L. split.
    + unfold inc in X. destruct (frozen (get s c)); [discriminate|]. inversion X. reflexivity.
    + intros d Nd. rewrite get_set_th, get_set by exact L. destruct (Nat.eqb_spec d c); [congruence|reflexivity].
  - right. split; [reflexivity|]. split; [reflexivity|exact H].
Qed.

(** ** Distinct names *)
Definition names_ok (s : st) : Prop :=
  (forall c d, In c (lst s) -> In d (lst s) -> named s c (name (get s d)) -> c = d) /\
  (forall t th nm, nth_error (ths s) t = Some th -> at_ th = Starting nm ->
     terminated NAME nm /\ forall c, In c (lst s) -> ~ named s c nm).
Lemma names_init n : names_ok (init n).
Proof.
  split; [intros c d []|]. intros t th nm E P. cbn [ths init] in E. apply nth_error_In in E. apply repeat_spec in E. subst th. discriminate.
Qed.
Lemma names_step t a s e s' : inv s -> names_ok s ->
  (forall nm, a = AStart nm -> terminated NAME nm /\ forall c, In c (lst s) -> frozen (get s c) = true -> ~ named s c nm) ->
  step t a s = Step e s' -> names_ok s'.
Proof.
  intros I (U & St) C E. destruct (step_shape t a s e s' I E) as ((Len & K) & O).
  assert (Lin : forall c, In c (lst s) -> c < length (caches s)) by (intros c H; apply (listed_ok s c I H)).
  assert (KN : forall c, In c (lst s) -> name (get s' c) = name (get s c)) by (intros c H; apply K; auto).
  (* the thread that steps: it starts a cache only after the check *)
  assert (Own : forall th nm, nth_error (ths s') t = Some th -> at_ th = Starting nm ->
    terminated NAME nm /\ lst s' = lst s /\ forall c, In c (lst s) -> ~ named s c nm).
  { intros th nm E1 P1. assert (a = AStart nm /\ s' = set_lock (set_th s t {| at_ := Starting nm; mine := mine th |}) (Some t) /\ by_name s nm NAME = Some None) as (-> & -> & B).
    { revert E. unfold step. destruct (nth_error (ths s) t) as [th0|] eqn:E0; [|discriminate]. pose proof (nth_error_lt _ _ _ E0) as Lt.
      assert (SAME : s' = s -> at_ th0 = Idle -> False).
      { intros -> P0. rewrite E0 in E1. inversion E1; subst. congruence. }
      assert (NEW : forall x, ths s' = upd (ths s) t x -> th = x).
      { intros x Q. rewrite Q, nth_error_upd, Nat.eqb_refl in E1 by exact Lt. congruence. }
      assert (NOST : forall x, ths s' = upd (ths s) t x -> (forall nm0, at_ x <> Starting nm0) -> False).
      { intros x Q1 Q2. rewrite <- (NEW x Q1) in Q2. exact (Q2 nm P1). }
      assert (PUT : forall c x e0, put s c t x = Step e0 s' -> (forall nm0, at_ x <> Starting nm0) -> False).
      { intros c x e0 Q1 Q2. apply put_shape in Q1. destruct Q1 as (y & -> & _). apply (NOST x); [reflexivity|exact Q2]. }
      destruct (at_ th0) as [|nm1|todo got back|todo got|todo|c|c] eqn:P; try (destruct todo as [|c todo]); destruct a as [nm0|ok|q len|d|d|bk mem| |stop| |d| | ]; try discriminate.
      - destruct (free_lock s); [|discriminate]. cbn [negb]. destruct (N.eqb _ _); [intros X; inversion X; exfalso; apply SAME; congruence|].
        destruct (by_name s nm0 NAME) as [[[d x]|]|] eqn:B; [| |discriminate]; intros X; inversion X; [exfalso; apply SAME; congruence|].
        subst s'. assert (th = {| at_ := Starting nm0; mine := mine th0 |}) by (apply NEW; reflexivity). subst th. cbn [at_ mine] in *. inversion P1; subst.
        split; [reflexivity|]. split; [reflexivity|]. exact B.
      - destruct (free_lock s); [|discriminate]. cbn [negb]. destruct (by_name s q len) as [[[d x]|]|]; [| |discriminate]; intros X; inversion X; exfalso; [|apply SAME; congruence].
        subst s'. eapply NOST; [reflexivity|]. discriminate.
      - destruct (existsb _ _); [|discriminate]. cbn [negb]. destruct (freed _); [discriminate|].
        destruct (inc (get s d)) as [x|]; intros X; inversion X; exfalso; [|apply SAME; congruence]. subst s'. eapply NOST; [reflexivity|]. discriminate.
      - destruct (existsb _ _); [|discriminate]. cbn [negb]. intros X. exfalso. eapply PUT; [exact X|]. cbn [at_]. congruence.
      - destruct (free_lock s); [|discriminate]. cbn [negb]. destruct (lst s) as [|c0 l0]; [intros X; inversion X; exfalso; apply SAME; congruence|].
        destruct mem; intros X; inversion X; exfalso; [|apply SAME; congruence]. subst s'. eapply NOST; [reflexivity|]. discriminate.
      - destruct (existsb _ _); [|discriminate]. cbn [negb]. destruct (freed _); [discriminate|]. destruct (frozen _); [discriminate|].
        intros X; inversion X; exfalso. subst s'. eapply NOST; [reflexivity|]. discriminate.
      - destruct ok; intros X; inversion X; exfalso; subst s'; (eapply NOST; [reflexivity|]; discriminate).
      - intros X; inversion X; exfalso; subst s'. eapply NOST; [reflexivity|]. discriminate.
      - destruct (freed _); [discriminate|]. destruct (inc _); intros X; inversion X; exfalso; subst s'; (eapply NOST; [reflexivity|]; discriminate).
      - intros X; inversion X; exfalso; subst s'. eapply NOST; [reflexivity|]. discriminate.
      - destruct (freed _); [discriminate|]. intros X; inversion X; exfalso; subst s'. eapply NOST; [reflexivity|]. destruct stop; discriminate.
      - intros X; inversion X; exfalso; subst s'. eapply NOST; [reflexivity|]. discriminate.
      - intros X. exfalso. eapply PUT; [exact X|]. discriminate.
      - destruct (free_lock s); [|discriminate]. cbn [negb]. destruct (freed _); [discriminate|]. intros X; inversion X; exfalso; subst s'. eapply NOST; [reflexivity|]. discriminate.
      - destruct (existsb _ _); [|discriminate]. cbn [negb]. intros X. exfalso. eapply PUT; [exact X|]. cbn [at_]. congruence.
      - intros X. exfalso. eapply PUT; [exact X|]. discriminate. }
    destruct (C nm eq_refl) as (T & Fz). split; [exact T|]. split; [reflexivity|].
    destruct (by_name_spec s nm NAME I T T) as [(c & x & B2 & _)|(_ & H)]; [congruence|].
    intros c Ic Nc. destruct (frozen (get s c)) eqn:F; [exact (Fz c Ic F Nc)|].
    destruct (H c (conj Ic F) Nc) as (d & l1 & l2 & Ed & _ & Fd & Nd). apply (Fz d); [rewrite Ed; apply in_or_app; right; left; reflexivity|exact Fd|exact Nd]. }
  destruct (step_lst t a s e s' E) as [Ls|[(c0 & th0 & E0 & P0 & Ls)|(th0 & nm0 & E0 & P0 & Ls & Cs)]].
  - split.
    + rewrite Ls. intros c d Ic Id. unfold named. rewrite !KN by assumption. apply U; assumption.
    + intros u th nm Eu Pu. destruct (Nat.eq_dec u t) as [->|Nu].
      * destruct (Own th nm Eu Pu) as (T & _ & H). split; [exact T|]. rewrite Ls. intros c Ic. unfold named. rewrite KN by exact Ic. apply H. exact Ic.
      * rewrite O in Eu by exact Nu. destruct (St u th nm Eu Pu) as (T & H). split; [exact T|]. rewrite Ls. intros c Ic. unfold named.
        rewrite KN by exact Ic. apply H. exact Ic.
  - split.
    + rewrite Ls. intros c d Ic Id. apply drop1_in in Ic, Id. unfold named. rewrite !KN by assumption. apply U; assumption.
    + intros u th nm Eu Pu. destruct (Nat.eq_dec u t) as [->|Nu].
      * destruct (Own th nm Eu Pu) as (T & Lss & H). split; [exact T|]. rewrite Lss. intros c Ic. unfold named. rewrite KN by exact Ic. apply H. exact Ic.
      * rewrite O in Eu by exact Nu. destruct (St u th nm Eu Pu) as (T & H). split; [exact T|]. rewrite Ls. intros c Ic. apply drop1_in in Ic. unfold named.
        rewrite KN by exact Ic. apply H. exact Ic.
  - destruct (St t th0 nm0 E0 P0) as (T0 & H0).
    assert (NEWN : name (get s' (length (caches s))) = set_name nm0).
    { unfold get. rewrite Cs, app_nth2, Nat.sub_diag by lia. reflexivity. }
    split.
    + rewrite Ls. intros c d Ic Id. unfold named. apply in_app_or in Ic, Id.
      destruct Ic as [Ic|[<-|[]]], Id as [Id|[<-|[]]].
      * rewrite !KN by assumption. apply U; assumption.
      * rewrite NEWN, KN, text_set_term by assumption. intros X. destruct (H0 c Ic X).
      * rewrite NEWN, KN, text_set_term by assumption. intros X. destruct (H0 d Id (eq_sym X)).
      * reflexivity.
    + intros u th nm Eu Pu. destruct (Nat.eq_dec u t) as [->|Nu].
      * destruct (Own th nm Eu Pu) as (_ & Lss & _). exfalso. rewrite Lss in Ls. apply (f_equal (@length nat)) in Ls. rewrite app_length in Ls. cbn in Ls. lia.
      * exfalso. rewrite O in Eu by exact Nu.
        assert (lock s = Some u) by (apply (lock_mine s u th I Eu); rewrite Pu; reflexivity).
        assert (lock s = Some t) by (apply (lock_mine s t th0 I E0); rewrite P0; reflexivity). congruence.
Qed.
Lemma calm_run s l s' : calm s l s' -> run s l s'.
Proof. induction 1; [apply run_nil|eapply run_cons; eassumption]. Qed.
Lemma calm_names s l s' : calm s l s' -> inv s -> names_ok s -> inv s' /\ names_ok s'.
Proof.
  induction 1 as [|t a e s s1 l s2 C E R IH]; [tauto|]. intros I U. apply IH.
  - pose proof (step_fine t a s I) as F. rewrite E in F. exact F.
  - eapply names_step; eassumption.
Qed.
(** When no cache is started while one of its name is being removed, the names of the listed caches are distinct, so that
    a name finds the running cache of that name if there is one, and it is not started a second time *)
Theorem C72_calm n l s : calm (init n) l s ->
  (forall c d, In c (lst s) -> In d (lst s) -> named s c (name (get s d)) -> c = d) /\
  (forall t q len e s', terminated NAME q -> terminated len q -> step t (AFind q len) s = Step e s' ->
     forall c, (e = Found c <-> alive s c /\ named s c q)) /\
  (forall t nm e s', terminated NAME nm -> step t (AStart nm) s = Step e s' -> (exists c, alive s c /\ named s c nm) -> e = Refused /\ s' = s).
Proof.
  intros R. destruct (calm_names _ _ _ R (inv_init n) (names_init n)) as (I & U & St). split; [exact U|]. split.
  - intros t q len e s' T1 T2. unfold step. destruct (nth_error (ths s) t) as [th|] eqn:E; [|discriminate].
    destruct (at_ th) eqn:P; try discriminate; try (destruct todo; discriminate).
    destruct (free_lock s); [|discriminate]. cbn [negb].
    destruct (by_name_spec s q len I T1 T2) as [(c & x & -> & A & Nm & X & _)|(-> & H)]; intros Q; invst Q; intros d.
    + split; [intros Y; inversion Y; subst; tauto|]. intros (Ad & Nd). f_equal. apply U; [apply A|apply Ad|]. unfold named in *. congruence.
    + split; [discriminate|]. intros (Ad & Nd). exfalso. destruct (H d Ad Nd) as (f & l1 & l2 & Ef & _ & Ff & Nf).
      assert (f = d).
      { apply U; [rewrite Ef; apply in_or_app; right; left; reflexivity|apply Ad|unfold named in *; congruence]. }
      subst f. destruct Ad. congruence.
  - intros t nm e s' T. unfold step. destruct (nth_error (ths s) t) as [th|] eqn:E; [|discriminate].
    destruct (at_ th) eqn:P; try discriminate; try (destruct todo; discriminate).
    destruct (free_lock s); [|discriminate]. cbn [negb]. destruct (N.eqb _ _); [intros Q; invst Q; split; reflexivity|].
    destruct (by_name_spec s nm NAME I T T) as [(c & x & -> & _)|(-> & H)]; intros Q; invst Q; [split; reflexivity|].
    intros (d & Ad & Nd). exfalso. destruct (H d Ad Nd) as (f & l1 & l2 & Ef & _ & Ff & Nf).
    assert (f = d).
    { apply U; [rewrite Ef; apply in_or_app; right; left; reflexivity|apply Ad|unfold named in *; congruence]. }
    subst f. destruct Ad. congruence.
Qed.

(** ** Visiting *)
Lemma sub_refl_nil l : sub [] l.
Proof. induction l; constructor; assumption. Qed.
Lemma sub_snoc a b x : sub a b -> sub (a ++ [x]) (b ++ [x]).
Proof. induction 1; cbn; constructor; try assumption. constructor. Qed.
Lemma sub_skip a b x : sub a b -> sub a (b ++ [x]).
Proof. induction 1; cbn; constructor; try assumption. constructor. Qed.
Definition ord (back : bool) (l : list nat) : list nat := if back then rev l else l.
(** [got]: some of the caches of [L], in order, among them all not stopped by now *)
Definition copied (s : st) (L got : list nat) : Prop := sub got L /\ forall c, In c L -> frozen (get s c) = false -> In c got.
Definition visiting (t : nat) (L : list nat) (back : bool) (m : list nat) (s : st) (vs : list nat) (stops : bool) : Prop :=
  exists th, nth_error (ths s) t = Some th /\ mine th = m /\
  match at_ th with
  | Copy todo got b => b = back /\ vs = [] /\ exists done, L = done ++ todo /\ copied s done got
  | Visit todo got => copied s L got /\ vs ++ todo = ord back got
  | Puts _ | Idle => exists got rest, copied s L got /\ vs ++ rest = ord back got /\ (stops = false -> rest = [])
  | _ => False
  end.
Lemma copied_kept s s' L got : kept s s' -> (forall c, In c L -> c < length (caches s)) -> copied s L got -> copied s' L got.
Proof.
  intros (_ & K) B (A & H). split; [exact A|]. intros c Ic F. apply (H c Ic). destruct (K c (B c Ic)) as (_ & M).
  destruct (frozen (get s c)); [rewrite M in F by reflexivity; discriminate|reflexivity].
Qed.
Definition own_act (a : act) : Prop := a = ANext \/ (exists stop, a = AVisit stop) \/ a = APutNext.
Definition stopping (a : act) : bool := match a with AVisit b => b | _ => false end.
Lemma visiting_step t L back m u a s e s' vs stops :
  inv s -> (forall c, In c L -> c < length (caches s)) -> step u a s = Step e s' -> (u = t -> own_act a) ->
  visiting t L back m s vs stops ->
  visiting t L back m s' (vs ++ visited t [(u, a, e)]) (stops || ((u =? t) && stopping a)).
Proof.
  intros I B E Ow (th & Et & M & V). destruct (step_shape u a s e s' I E) as (K & O).
  destruct (Nat.eqb_spec u t) as [->|Nu].
  - cbn [andb]. specialize (Ow eq_refl). pose proof (nth_error_lt _ _ _ Et) as Lt.
    revert E. unfold step. rewrite Et.
    assert (NEW : forall x s0 (k : st), ths s0 = upd (ths s) t x -> nth_error (ths s0) t = Some x).
    { intros x s0 _ Q. rewrite Q, nth_error_upd, Nat.eqb_refl by exact Lt. reflexivity. }
    destruct (at_ th) as [|nm|todo got b|todo got|todo|c|c] eqn:P; try contradiction.
    + destruct Ow as [->|[(stop & ->)| ->]]; discriminate.
    + destruct V as (-> & -> & done & EL & Cp). destruct todo as [|c todo]; destruct Ow as [->|[(stop & ->)| ->]]; try discriminate.
      * rewrite app_nil_r in EL. subst done. intros X; inversion X; subst e s'. eexists. split; [apply NEW; [exact s|reflexivity]|]. split; [exact M|].
        cbn [at_]. split; [eapply copied_kept; eassumption|]. destruct back; reflexivity.
      * destruct (freed _) eqn:F; [discriminate|]. destruct (inc (get s c)) as [x|] eqn:X0; intros X; inversion X; subst e s'.
        -- eexists. split; [apply NEW; [exact s|reflexivity]|]. split; [exact M|]. cbn [at_]. split; [reflexivity|]. split; [reflexivity|].
           exists (done ++ [c]). split; [rewrite EL, <- app_assoc; reflexivity|].
           apply (copied_kept s); [exact K|intros d Hd; apply B; rewrite EL; apply in_app_or in Hd; apply in_or_app; destruct Hd as [Hd|[->|[]]]; [left; exact Hd|right; left; reflexivity]|].
           destruct Cp as (A & H). split; [apply sub_snoc; exact A|]. intros d Hd Fd. apply in_or_app. apply in_app_or in Hd.
           destruct Hd as [Hd|Hd]; [left; apply H; assumption|right; exact Hd].
        -- eexists. split; [apply NEW; [exact s|reflexivity]|]. split; [exact M|]. cbn [at_]. split; [reflexivity|]. split; [reflexivity|].
           exists (done ++ [c]). split; [rewrite EL, <- app_assoc; reflexivity|].
           apply (copied_kept s); [exact K|intros d Hd; apply B; rewrite EL; apply in_app_or in Hd; apply in_or_app; destruct Hd as [Hd|[->|[]]]; [left; exact Hd|right; left; reflexivity]|].
           destruct Cp as (A & H). split; [apply sub_skip; exact A|]. intros d Hd Fd. apply in_app_or in Hd.
           destruct Hd as [Hd|[<-|[]]]; [apply H; assumption|]. unfold inc in X0. rewrite Fd in X0. discriminate.
    + destruct V as (Cp & Q). destruct todo as [|c todo]; destruct Ow as [->|[(stop & ->)| ->]]; try discriminate.
      * intros X; inversion X; subst e s'. eexists. split; [apply NEW; [exact s|reflexivity]|]. split; [exact M|]. cbn [at_ visited].
        exists got, []. split; [eapply copied_kept; eassumption|]. split; [rewrite app_nil_r; exact Q|reflexivity].
      * destruct (freed _); [discriminate|]. intros X; inversion X; subst e s'. eexists. split; [apply NEW; [exact s|reflexivity]|]. split; [exact M|].
        cbn [visited]. rewrite Nat.eqb_refl. cbn [stopping]. destruct stop; cbn [at_].
        -- exists got, todo. split; [eapply copied_kept; eassumption|]. split; [rewrite <- app_assoc; exact Q|]. rewrite orb_true_r. discriminate.
        -- split; [eapply copied_kept; eassumption|]. rewrite <- app_assoc. exact Q.
    + destruct V as (got & rest & Cp & Q & Z). destruct todo as [|c todo]; destruct Ow as [->|[(stop & ->)| ->]]; try discriminate.
      * intros X; inversion X; subst e s'. eexists. split; [apply NEW; [exact s|reflexivity]|]. split; [exact M|]. cbn [at_ visited stopping].
        exists got, rest. split; [eapply copied_kept; eassumption|]. rewrite app_nil_r, orb_false_r. split; assumption.
      * intros X. pose proof X as X2. apply put_shape in X. destruct X as (y & -> & _). assert (e = Nothing).
        { unfold put in X2. destruct (freed _); [discriminate|]. destruct (dec _); [|discriminate]. inversion X2. reflexivity. }
        subst e. eexists. split; [apply NEW; [exact s|reflexivity]|]. split; [exact M|]. cbn [at_ visited stopping].
        exists got, rest. split; [eapply copied_kept; eassumption|]. rewrite app_nil_r, orb_false_r. split; assumption.
  - cbn [andb]. rewrite orb_false_r. assert (Vz : visited t [(u, a, e)] = []).
    { cbn [visited]. destruct e; try reflexivity. destruct (Nat.eqb_spec u t); [congruence|reflexivity]. }
    rewrite Vz, app_nil_r. exists th. split; [rewrite O by congruence; exact Et|]. split; [exact M|].
    destruct (at_ th); try exact V.
    + destruct V as (got & rest & Cp & Q). exists got, rest. split; [eapply copied_kept; eassumption|exact Q].
    + destruct V as (Eb & Ev & done & EL & Cp). split; [exact Eb|]. split; [exact Ev|]. exists done. split; [exact EL|].
      eapply copied_kept; [exact K| |exact Cp]. intros c Hc. apply B. rewrite EL. apply in_or_app. left. exact Hc.
    + destruct V as (Cp & Q). split; [eapply copied_kept; eassumption|exact Q].
    + destruct V as (got & rest & Cp & Q). exists got, rest. split; [eapply copied_kept; eassumption|exact Q].
Qed.
Lemma visited_app t a b : visited t (a ++ b) = visited t a ++ visited t b.
Proof.
  induction a as [|[[u x] e] a IH]; [reflexivity|]. cbn [app visited]. destruct e; try exact IH.
  destruct (u =? t); [cbn [app]; f_equal; exact IH|exact IH].
Qed.
Lemma visiting_run t L back m s l s' : run s l s' -> forall vs stops,
  inv s -> (forall c, In c L -> c < length (caches s)) -> (forall a e, In (t, a, e) l -> own_act a) ->
  visiting t L back m s vs stops ->
  exists stops', visiting t L back m s' (vs ++ visited t l) stops' /\
    ((forall a e, In (t, a, e) l -> stopping a = false) -> stops = false -> stops' = false).
Proof.
  induction 1 as [s|u a e s s1 l s2 E R IH]; intros vs stops I B Ow V.
  - exists stops. cbn [visited]. rewrite app_nil_r. tauto.
  - assert (I1 : inv s1) by (pose proof (step_fine u a s I) as F; rewrite E in F; exact F).
    destruct (step_shape u a s e s1 I E) as ((Len & _) & _).
    pose proof (visiting_step t L back m u a s e s1 vs stops I B E) as VS.
    assert (V1 := VS ltac:(intros ->; apply (Ow a e); left; reflexivity) V).
    destruct (IH _ _ I1 ltac:(intros c Hc; specialize (B c Hc); lia) ltac:(intros a0 e0 H0; apply (Ow a0 e0); right; exact H0) V1) as (st' & V2 & Z).
    exists st'. change ((u, a, e) :: l) with ([(u, a, e)] ++ l). rewrite visited_app, app_assoc. split; [exact V2|].
    intros NS S0. apply Z; [intros a0 e0 H0; apply (NS a0 e0); right; exact H0|]. rewrite S0. cbn [orb].
    destruct (Nat.eqb_spec u t) as [->|]; [|reflexivity]. cbn [andb]. apply (NS a e). left. reflexivity.
Qed.
(** A visit by thread [t], from the copy of the list to the last put, whatever other threads do meanwhile: it visits, in
    the order asked for and each once, caches listed at the beginning, a prefix of what it copied if a visitor fails and
    all of it otherwise; every cache not stopped at the end is in the copy; all references are given back *)
Theorem C72_visit n s t th back e s0 l s1 th1 :
  reach n s -> nth_error (ths s) t = Some th -> at_ th = Idle -> step t (ACopy back true) s = Step e s0 -> run s0 l s1 ->
  (forall a e, In (t, a, e) l -> own_act a) -> nth_error (ths s1) t = Some th1 -> at_ th1 = Idle ->
  NoDup (lst s) /\ mine th1 = mine th /\
  exists got rest, sub got (lst s) /\ (forall c, In c (lst s) -> frozen (get s1 c) = false -> In c got) /\
    visited t l ++ rest = ord back got /\ ((forall a e, In (t, a, e) l -> stopping a = false) -> rest = []).
Proof.
  intros R Et P E Rn Ow E1 P1. pose proof (reach_inv n s R) as I.
  assert (I0 : inv s0) by (pose proof (step_fine t (ACopy back true) s I) as F; rewrite E in F; exact F).
  destruct (step_shape t _ s e s0 I E) as ((Len & _) & _).
  assert (B : forall c, In c (lst s) -> c < length (caches s0)) by (intros c Hc; destruct (listed_ok s c I Hc); lia).
  assert (V0 : visiting t (lst s) back (mine th) s0 [] false).
  { revert E. unfold step. rewrite Et, P. destruct (free_lock s); [|discriminate]. cbn [negb].
    destruct (lst s) as [|c0 l0] eqn:Ls; intros X; inversion X; subst e s0.
    - exists th. split; [exact Et|]. split; [reflexivity|]. rewrite P. exists [], []. split; [split; [constructor|intros c []]|]. split; [destruct back; reflexivity|reflexivity].
    - eexists. split; [cbn [ths set_lock set_th]; rewrite nth_error_upd, Nat.eqb_refl by (eapply nth_error_lt; eassumption); reflexivity|].
      split; [reflexivity|]. cbn [at_]. split; [reflexivity|]. split; [reflexivity|]. exists []. split; [reflexivity|]. split; [constructor|intros c []]. }
  destruct (visiting_run t (lst s) back (mine th) s0 l s1 Rn [] false I0 B Ow V0) as (st' & (th' & E' & M' & V') & Z).
  rewrite E1 in E'. inversion E'; subst th'. rewrite P1 in V'. destruct V' as (got & rest & (A & H) & Q & W).
  split.
  - apply (NoDup_count_occ Nat.eq_dec). intros c. destruct I as (G & _). destruct (G c) as (Ga & Gb).
    destruct (Nat.lt_ge_cases c (length (caches s))) as [L|L]; [apply (Ga L)|destruct (Gb L) as (_ & U & _); lia].
  - split; [exact M'|]. exists got, rest. split; [exact A|]. split; [exact H|]. split; [exact Q|]. intros NS. apply W. apply Z; [exact NS|reflexivity].
Qed.

(** ** Cores by name *)
Lemma core_by_name_spec cs q len : terminated NAME q -> terminated len q -> forall id,
  match core_by_name cs id q len with
  | Some k => exists i nm, k = id + i /\ nth_error cs i = Some (true, nm) /\ text nm = text q
  | None => forall i nm, nth_error cs i = Some (true, nm) -> text nm <> text q
  end.
Proof.
  intros T1 T2. induction cs as [|[added nm] cs IH]; intros id; cbn [core_by_name].
  - intros [|i] nm X; discriminate.
  - destruct (added && matches nm q len) eqn:M.
    + apply andb_prop in M. destruct M as (-> & M). exists 0, nm. split; [lia|]. split; [reflexivity|]. apply (matches_text _ q len T1 T2). exact M.
    + specialize (IH (S id)). destruct (core_by_name cs (S id) q len) as [k|].
      * destruct IH as (i & nm' & -> & A & B). exists (S i), nm'. split; [lia|]. split; assumption.
      * intros [|i] nm' X; cbn in X; [|exact (IH i nm' X)]. inversion X; subst. cbn [andb] in M. intros Y.
        apply (matches_text _ q len T1 T2) in Y. congruence.
Qed.
(** A core is found by its name, with the terminator, exactly when it is added, names being distinct *)
Theorem C72_core cs q len : terminated NAME q -> terminated len q ->
  (forall i j nm nm', nth_error cs i = Some (true, nm) -> nth_error cs j = Some (true, nm') -> text nm = text nm' -> i = j) ->
  forall k, core_by_name cs 0 q len = Some k <-> exists nm, nth_error cs k = Some (true, nm) /\ text nm = text q.
Proof.
  intros T1 T2 D k. pose proof (core_by_name_spec cs q len T1 T2 0) as Q. destruct (core_by_name cs 0 q len) as [m|].
  - destruct Q as (i & nm & -> & A & B). cbn [Nat.add]. split.
    + intros X; inversion X; subst. exists nm. tauto.
    + intros (nm' & A' & B'). f_equal. apply (D i k nm nm' A A'). congruence.
  - split; [discriminate|]. intros (nm & A & B). destruct (Q k nm A B).
Qed.

(** ** Runs written out *)
Fixpoint exec (l : list (nat * act)) (s : st) : option (list (nat * act * ev) * st) :=
  match l with
  | [] => Some ([], s)
  | (t, a) :: l =>
    match step t a s with
    | Step e s1 => match exec l s1 with Some (tr, s2) => Some ((t, a, e) :: tr, s2) | None => None end
    | _ => None
    end
  end.
Lemma exec_run l : forall s tr s', exec l s = Some (tr, s') -> run s tr s'.
Proof.
  induction l as [|[t a] l IH]; cbn [exec]; intros s tr s' E; [inversion E; apply run_nil|].
  destruct (step t a s) as [| |e s1] eqn:X; try discriminate. destruct (exec l s1) as [[tr1 s2]|] eqn:Y; [|discriminate].
  inversion E; subst. eapply run_cons; [exact X|]. apply IH. exact Y.
Qed.
Definition cache1 : list N := [99; 97; 99; 104; 101; 49]%N.
Definition cache10 : list N := cache1 ++ [48]%N.
Definition long_name : list N := repeat 97%N 32.
Definition start (t : nat) (nm : list N) : list (nat * act) := [(t, AStart nm); (t, AAdd true)].
(** cache10, then cache1; the name without its terminator and its length (as inc/ocf_mngt.h:102 says) finds cache10 *)
Theorem C72_prefix_refuted : exists s q c t s',
  reach 1 s /\ alive s c /\ named s c q /\ terminated NAME q /\
  step t (AFind q (length (text q))) s = Step (Found 0) s' /\ c <> 0 /\ ~ named s 0 q /\
  core_by_name [(true, set_name cache10); (true, set_name cache1)] 0 q (length (text q)) = Some 0.
Proof.
  assert (Q : match exec (start 0 cache10 ++ start 0 cache1) (init 1) with
    | Some (_, s) => alive s 1 /\ text (name (get s 1)) = text cache1 /\ text (name (get s 0)) = text cache10 /\
                     exists s', step 0 (AFind cache1 6) s = Step (Found 0) s'
    | None => False end).
  { vm_compute. split; [split; [right; left; reflexivity|reflexivity]|]. split; [reflexivity|]. split; [reflexivity|]. eexists. reflexivity. }
  destruct (exec (start 0 cache10 ++ start 0 cache1) (init 1)) as [[tr s]|] eqn:E; [|contradiction].
  destruct Q as (A & B & B0 & s' & F). exists s, cache1, 1, 0, s'. split; [exists tr; apply exec_run with (1 := E)|].
  split; [exact A|]. split; [exact B|]. split; [unfold terminated, NAME; cbn; lia|]. split; [exact F|]. split; [discriminate|].
  split; [unfold named; rewrite B0; discriminate|vm_compute; reflexivity].
Qed.
(** While a cache is being removed - frozen, still listed - its name may be given to another, which cannot be found, and
    so to a third one: two running caches of one name *)
Theorem C72_twins_refuted : exists s c d q s',
  reach 2 s /\ terminated NAME q /\ alive s c /\ alive s d /\ c <> d /\ named s c q /\ named s d q /\ step 1 (AFind q NAME) s = Step NotFound s'.
Proof.
  assert (Q : match exec (start 0 cache1 ++ [(0, AStop 0)] ++ start 1 cache1 ++ start 1 cache1) (init 2) with
    | Some (_, s) => alive s 1 /\ alive s 2 /\ text (name (get s 1)) = text cache1 /\ text (name (get s 2)) = text cache1 /\
                     exists s', step 1 (AFind cache1 32) s = Step NotFound s'
    | None => False end).
  { vm_compute. split; [split; [right; left; reflexivity|reflexivity]|]. split; [split; [right; right; left; reflexivity|reflexivity]|].
    split; [reflexivity|]. split; [reflexivity|]. eexists. reflexivity. }
  destruct (exec (start 0 cache1 ++ [(0, AStop 0)] ++ start 1 cache1 ++ start 1 cache1) (init 2)) as [[tr s]|] eqn:E; [|contradiction].
  destruct Q as (A & B & C & D & s' & F). exists s, 1, 2, cache1, s'. split; [exists tr; apply exec_run with (1 := E)|].
  split; [unfold terminated, NAME; cbn; lia|]. split; [exact A|]. split; [exact B|]. split; [discriminate|]. split; [exact C|]. split; [exact D|exact F].
Qed.
(** A name that fills its 32 bytes is accepted, cut when stored and so never found again: two caches get the same name,
    with nothing being removed *)
Theorem C72_unterminated_refuted : exists s c d nm,
  reach 1 s /\ length nm = NAME /\ alive s c /\ alive s d /\ c <> d /\ named s c (name (get s d)) /\
  (forall e, In e (lst s) -> frozen (get s e) = false) /\
  core_by_name [(true, set_name nm)] 0 nm NAME = None.
Proof.
  assert (Q : match exec (start 0 long_name ++ start 0 long_name) (init 1) with
    | Some (_, s) => alive s 0 /\ alive s 1 /\ text (name (get s 0)) = text (name (get s 1)) /\ lst s = [0; 1]
    | None => False end).
  { vm_compute. split; [split; [left; reflexivity|reflexivity]|]. split; [split; [right; left; reflexivity|reflexivity]|]. split; reflexivity. }
  destruct (exec (start 0 long_name ++ start 0 long_name) (init 1)) as [[tr s]|] eqn:E; [|contradiction].
  destruct Q as (A & B & C & D). exists s, 0, 1, long_name. split; [exists tr; apply exec_run with (1 := E)|].
  split; [reflexivity|]. split; [exact A|]. split; [exact B|]. split; [discriminate|]. split; [exact C|]. split; [|vm_compute; reflexivity].
  rewrite D. intros e [<-|[<-|[]]]; [apply A|apply B].
Qed.

(** ** The lock and the order of the list *)
(** What a step does to the lock and the list *)
Lemma step_lock t a s e s' : step t a s = Step e s' ->
  length (ths s') = length (ths s) /\ (lock s' = lock s \/ lock s' = None \/ lock s' = Some t /\ t < length (ths s)) /\
  (lst s' = lst s \/ (exists c, lst s' = drop1 c (lst s)) \/ lst s' = lst s ++ [length (caches s)]).
Proof.
  unfold step, put. intros H. destruct (nth_error (ths s) t) as [th|] eqn:E; [|discriminate].
  assert (L : t < length (ths s)) by (apply nth_error_Some; congruence).
  destruct (at_ th), a; try discriminate;
    repeat match type of H with
    | context [match ?x with _ => _ end] => destruct x eqn:?; try discriminate
    end;
    inversion H; subst; cbn; rewrite ?upd_length; split; try reflexivity; split; eauto 8.
Qed.
Lemma drop1_sorted c l : Sorted.StronglySorted lt l -> Sorted.StronglySorted lt (drop1 c l).
Proof.
  induction 1 as [|x l Sl IH F]; cbn; [constructor|]. destruct (x =? c); [exact Sl|]. constructor; [exact IH|].
  rewrite Forall_forall in *. intros y Iy. apply F. clear -Iy. induction l as [|z l IHl]; cbn in *; [exact Iy|].
  destruct (z =? c); [right; exact Iy|]. destruct Iy as [->|Iy]; [left; reflexivity|right; auto].
Qed.
Lemma snoc_sorted l n : Sorted.StronglySorted lt l -> (forall c, In c l -> c < n) -> Sorted.StronglySorted lt (l ++ [n]).
Proof.
  induction 1 as [|x l Sl IH F]; intros B; cbn; [repeat constructor|]. constructor; [apply IH; intros c I; apply B; right; exact I|].
  rewrite Forall_forall in *. intros y Iy. apply in_app_or in Iy as [Iy|[<-|[]]]; [auto|apply B; left; reflexivity].
Qed.
Lemma run_lock s l s' : run s l s' -> inv s ->
  (forall u, lock s = Some u -> u < length (ths s)) -> Sorted.StronglySorted lt (lst s) ->
  (forall u, lock s' = Some u -> u < length (ths s')) /\ Sorted.StronglySorted lt (lst s').
Proof.
  induction 1 as [s|t a e s s1 l s2 H R IH]; intros I K Q; [auto|]. destruct (step_lock _ _ _ _ _ H) as (Ln & Lk & Ls).
  apply IH.
  - pose proof (step_fine t a s I) as F. rewrite H in F. exact F.
  - intros u X. rewrite Ln. destruct Lk as [E|[E|(E & B)]]; rewrite E in X; [auto|discriminate|congruence].
  - destruct Ls as [->|[(c & ->)| ->]]; [exact Q|apply drop1_sorted, Q|apply snoc_sorted; [exact Q|]].
    intros c Ic. exact (proj1 (listed_ok s c I Ic)).
Qed.
(** ctx->lock is held by a thread that is starting a cache or copying the list, and by no other; in particular visitors
    run without it, and it is free when there is no such thread *)
Theorem C72_lock n s : reach n s ->
  (forall t th, nth_error (ths s) t = Some th ->
     (lock s = Some t <-> (exists nm, at_ th = Starting nm) \/ (exists todo got back, at_ th = Copy todo got back))) /\
  (forall t, lock s = Some t -> t < length (ths s)).
Proof.
  intros R. pose proof (reach_inv n s R) as (_ & C). destruct R as (l & R).
  destruct (run_lock _ _ _ R (inv_init n)) as (K & _); [discriminate|constructor|]. split; [|exact K].
  intros t th E. destruct (C t th E) as (B & _). rewrite <- B.
  destruct (at_ th) as [|nm|todo got back|todo got|todo|c|c]; cbn [locking].
  2: split; [intros _; left; exists nm; reflexivity|reflexivity].
  2: split; [intros _; right; exists todo, got, back; reflexivity|reflexivity].
  all: split; [discriminate|intros [(? & X)|(? & ? & ? & X)]; discriminate].
Qed.
(** Nothing waits for ever: while some operation has not ended, one of them can go on *)
Theorem C72_progress n s t th : reach n s -> nth_error (ths s) t = Some th -> at_ th <> Idle ->
  exists u thu a e s', nth_error (ths s) u = Some thu /\ at_ thu <> Idle /\ step u a s = Step e s'.
Proof.
  intros R E P. destruct (C72_safe n s R) as (NB & _). destruct (C72_lock n s R) as (K & B).
  assert (G : forall u thu, nth_error (ths s) u = Some thu -> at_ thu <> Idle ->
    (lock s = None \/ lock s = Some u) -> exists a e s', step u a s = Step e s').
  { intros u thu Eu Pu Lu.
    assert (W : forall a, step u a s <> Disabled -> exists a e s', step u a s = Step e s').
    { intros a D. destruct (step u a s) as [| |e s'] eqn:X; [congruence|destruct (NB u a X)|exists a, e, s'; exact X]. }
    destruct (at_ thu) as [|nm|todo got back|todo got|todo|c|c] eqn:Q; [congruence| | | | | |].
    - apply (W (AAdd false)). unfold step. rewrite Eu, Q. discriminate.
    - apply (W ANext). unfold step. rewrite Eu, Q. destruct todo as [|c todo]; [discriminate|].
      destruct (freed (get s c)); [discriminate|]. destruct (inc (get s c)); discriminate.
    - apply (W (AVisit false)). unfold step. rewrite Eu, Q. destruct todo as [|c todo]; [discriminate|].
      destruct (freed (get s c)); discriminate.
    - apply (W APutNext). unfold step, put. rewrite Eu, Q. destruct todo as [|c todo]; [discriminate|].
      destruct (freed (get s c)); [discriminate|]. destruct (dec (get s c)); discriminate.
    - apply (W ADel). unfold step, free_lock. rewrite Eu, Q. destruct Lu as [-> | Lu].
      + cbn [negb]. destruct (freed (get s c)); discriminate.
      + apply (K u thu Eu) in Lu. rewrite Q in Lu. destruct Lu as [(? & X)|(? & ? & ? & X)]; discriminate.
    - apply (W AFin). unfold step, put. rewrite Eu, Q. destruct (freed (get s c)); [discriminate|]. destruct (dec (get s c)); discriminate. }
  destruct (lock s) as [u|] eqn:Lk.
  - specialize (B u eq_refl). destruct (nth_error (ths s) u) as [thu|] eqn:Eu; [|apply nth_error_None in Eu; lia].
    assert (Pu : at_ thu <> Idle).
    { intros X. destruct (proj1 (K u thu Eu) eq_refl) as [(? & Y)|(? & ? & ? & Y)]; congruence. }
    destruct (G u thu Eu Pu (or_intror eq_refl)) as (a & e & s' & X). exists u, thu, a, e, s'. auto.
  - destruct (G t th E P (or_introl eq_refl)) as (a & e & s' & X). exists t, th, a, e, s'. auto.
Qed.
(** The list, hence every visit (C72_visit), is in the order the caches were started in *)
Theorem C72_order n s : reach n s -> Sorted.StronglySorted lt (lst s).
Proof. intros (l & R). destruct (run_lock _ _ _ R (inv_init n)) as (_ & Q); [discriminate|constructor|exact Q]. Qed.

(** ** Concrete cases *)
(** Two caches; thread 1 visits them backwards while thread 0 stops the first; the visitor's reference keeps it until put *)
Definition ex_visit : list (nat * act) :=
  [(1, ANext); (0, AStop 0); (1, ANext); (1, ANext); (0, ADel); (1, AVisit false); (0, AFin); (0, APut 0); (1, AVisit false);
   (1, AVisit false); (1, APutNext); (1, APutNext); (1, APutNext)].
Definition ex_start : list (nat * act) := start 0 cache1 ++ start 0 cache10.
Definition sum_up (r : option (list (nat * act * ev) * st)) : option (list nat * list nat * list (nat * bool * bool)) :=
  match r with Some (tr, s) => Some (visited 1 tr, lst s, map (fun x => (refs x, frozen x, freed x)) (caches s)) | None => None end.
Example C72_ex_visit :
  match exec (ex_start ++ [(1, ACopy true true)]) (init 2) with
  | Some (_, s) => sum_up (exec ex_visit s) = Some ([1; 0], [1], [(0, true, true); (2, false, false)])
  | None => False
  end.
Proof. vm_compute. reflexivity. Qed.
(** Before the last put of the visitor it was there *)
Example C72_ex_kept :
  match exec (ex_start ++ [(1, ACopy true true)] ++ firstn 10 ex_visit) (init 2) with
  | Some (_, s) => map (fun x => (refs x, frozen x, freed x)) (caches s) = [(1, true, false); (3, false, false)] /\ held s 0
  | None => False
  end.
Proof. vm_compute. split; [reflexivity|]. eexists. split; [right; left; reflexivity|left; reflexivity]. Qed.
(** A cache stopped before it is copied is left out *)
Example C72_ex_skip :
  sum_up (exec (ex_start ++ [(1, ACopy false true); (0, AStop 0); (1, ANext); (1, ANext); (1, ANext); (1, AVisit false); (1, AVisit false);
    (1, APutNext); (1, APutNext); (0, ADel); (0, AFin); (0, APut 0)]) (init 2)) = Some ([1], [1], [(0, true, true); (2, false, false)]).
Proof. vm_compute. reflexivity. Qed.
(** The hypotheses of C72_visit are met *)
Example C72_ex_visit_hyps : exists s th e s0 l s1 th1,
  reach 2 s /\ nth_error (ths s) 1 = Some th /\ at_ th = Idle /\ step 1 (ACopy true true) s = Step e s0 /\ run s0 l s1 /\
  (forall a e, In (1, a, e) l -> own_act a) /\ nth_error (ths s1) 1 = Some th1 /\ at_ th1 = Idle /\ visited 1 l = [1; 0].
Proof.
  destruct (exec ex_start (init 2)) as [[tr s]|] eqn:E; [|vm_compute in E; discriminate].
  assert (Q : match exec ex_start (init 2) with
    | Some (_, s) => match step 1 (ACopy true true) s with
       | Step Nothing s0 => match exec ex_visit s0 with
          | Some (l, s1) => nth_error (ths s) 1 = Some idle_thread /\ nth_error (ths s1) 1 = Some idle_thread /\ visited 1 l = [1; 0] /\
              forallb (fun x => match x with (t, a, _) => negb (t =? 1) || match a with ANext | AVisit _ | APutNext => true | _ => false end end) l = true
          | None => False end
       | _ => False end
    | None => False end) by (vm_compute; repeat split; reflexivity).
  rewrite E in Q. destruct (step 1 (ACopy true true) s) as [| |e s0] eqn:X; try contradiction. destruct e; try contradiction.
  destruct (exec ex_visit s0) as [[l s1]|] eqn:Y; [|contradiction]. destruct Q as (A & B & C & D).
  exists s, idle_thread, Nothing, s0, l, s1, idle_thread. split; [exists tr; apply exec_run with (1 := E)|]. split; [exact A|]. split; [reflexivity|].
  split; [exact X|]. split; [apply exec_run with (1 := Y)|]. split; [|split; [exact B|split; [reflexivity|exact C]]].
  intros a e0 H. rewrite forallb_forall in D. specialize (D _ H). cbn in D. unfold own_act. destruct a; try discriminate; eauto.
Qed.
(** A calm run: one cache stopped and removed, then another of its name *)
Example C72_ex_calm : exists l s, calm (init 1) l s /\ alive s 1 /\ named s 1 cache1 /\ freed (get s 0) = true.
Proof.
  eexists _, _. split.
  { unfold init. cbn [repeat].
    eapply (calm_cons 0 (AStart cache1)); [intros nm X; inversion X; subst; split; [unfold terminated, NAME; cbn; lia|intros c []]|vm_compute; reflexivity|].
    eapply (calm_cons 0 (AAdd true)); [discriminate|vm_compute; reflexivity|].
    eapply (calm_cons 0 (AStop 0)); [discriminate|vm_compute; reflexivity|].
    eapply (calm_cons 0 ADel); [discriminate|vm_compute; reflexivity|].
    eapply (calm_cons 0 (APut 0)); [discriminate|vm_compute; reflexivity|].
    eapply (calm_cons 0 AFin); [discriminate|vm_compute; reflexivity|].
    eapply (calm_cons 0 (AStart cache1)); [intros nm X; inversion X; subst; split; [unfold terminated, NAME; cbn; lia|intros c []]|vm_compute; reflexivity|].
    eapply (calm_cons 0 (AAdd true)); [discriminate|vm_compute; reflexivity|].
    apply calm_nil. }
  vm_compute. repeat split. left. reflexivity.
Qed.
(** Found with the terminator, not a prefix; not started twice *)
Example C72_ex_find :
  match exec (ex_start ++ [(1, AFind cache1 NAME); (1, AFind (cache1 ++ [0%N; 48%N]) 7); (1, AFind cache10 NAME); (1, AStart cache1); (1, AStart [0%N])]) (init 2) with
  | Some (tr, _) => map snd (skipn 4 tr) = [Found 0; Found 0; Found 1; Refused; Refused]
  | None => False
  end.
Proof. vm_compute. reflexivity. Qed.
Example C72_ex_core :
  let cs := [(true, set_name cache10); (false, set_name cache1); (true, set_name cache1)] in
  core_by_name cs 0 cache1 NAME = Some 2 /\ core_by_name cs 0 cache10 NAME = Some 0 /\ core_by_name cs 0 [49%N] NAME = None.
Proof. vm_compute. repeat split; reflexivity. Qed.
(** All at rest: freed or running *)
Example C72_ex_rest :
  match exec (ex_start ++ [(0, AStop 0); (0, ADel); (0, AFin); (0, APut 0); (0, APut 1)]) (init 1) with
  | Some (_, s) => forallb (fun th => match at_ th, mine th with Idle, [] => true | _, _ => false end) (ths s) = true /\
      map (fun x => (refs x, frozen x, freed x)) (caches s) = [(0, true, true); (1, false, false)]
  | None => False
  end.
Proof. vm_compute. split; reflexivity. Qed.

(** The hypotheses of C72_progress: thread 0 removes a cache and cannot go on while thread 1 copies the list *)
Example C72_ex_progress : exists s, reach 2 s /\ map at_ (ths s) = [Frozen 0; Copy [0; 1] [] false] /\ lock s = Some 1 /\
  step 0 ADel s = Disabled.
Proof.
  assert (Q : match exec (ex_start ++ [(0, AStop 0); (1, ACopy false true)]) (init 2) with
    | Some (_, s) => map at_ (ths s) = [Frozen 0; Copy [0; 1] [] false] /\ lock s = Some 1 /\ step 0 ADel s = Disabled
    | None => False end) by (vm_compute; auto).
  destruct (exec (ex_start ++ _) (init 2)) as [[tr s]|] eqn:E; [|contradiction].
  exists s. split; [exists tr; apply exec_run with (1 := E)|exact Q].
Qed.

Print Assumptions C72_safe.
Print Assumptions C72_no_leak.
Print Assumptions C72_find.
Print Assumptions C72_calm.
Print Assumptions C72_visit.
Print Assumptions C72_core.
Print Assumptions C72_prefix_refuted.
Print Assumptions C72_twins_refuted.
Print Assumptions C72_unterminated_refuted.
Print Assumptions C72_lock.
Print Assumptions C72_progress.
Print Assumptions C72_order.

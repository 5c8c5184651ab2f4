(** C67: a constructor either builds its object or leaves nothing behind, and the
    destructor gives back exactly what the constructor took.

    The specification knows nothing of the constructors: it replays the events of a
    run on a bag of resources, where giving back something that is not held (or in the
    wrong way) is an error, and compares the bag with the list of resources the object
    is made of. *)
From Coq Require Import List Bool Arith Lia Permutation.
From Verif Require Import CtorModel.
Import ListNotations.

(** ** Specification *)

Definition kind_eq (a b : kind) : {a = b} + {a <> b}.
Proof. decide equality. Defined.
Definition slot_eq (a b : slot) : {a = b} + {a <> b}.
Proof. decide equality; apply Nat.eq_dec. Defined.
Definition res_eq (a b : res) : {a = b} + {a <> b}.
Proof. decide equality; [apply Nat.eq_dec | apply slot_eq | apply kind_eq]. Defined.

(** What is held: how many times each resource. *)
Definition bag := res -> nat.
Definition nothing : bag := fun _ => 0.
Definition holds (l : list res) : bag := fun r => count_occ res_eq l r.
Definition same (f g : bag) : Prop := forall r, f r = g r.

(** Replay of a run; the flag tells whether a request has been denied. *)
Fixpoint play (tr : list ev) (f : bag) (dn : bool) : option (bag * bool) :=
  match tr with
  | [] => Some (f, dn)
  | Got r :: tr => play tr (fun x => if res_eq r x then S (f x) else f x) dn
  | Denied _ :: tr => play tr f true
  | Gave r :: tr =>
      match f r with
      | 0 => None
      | S _ => play tr (fun x => if res_eq r x then f x - 1 else f x) dn
      end
  | Crash :: _ => None
  end.

(** The run [d] is free of errors, starts holding [f] and ends holding [g]. *)
Definition takes (d : list ev) (f g : bag) : Prop :=
  exists f' dn, play d f false = Some (f', dn) /\ same f' g.

Definition refused (d : list ev) : Prop := exists r, In (Denied r) d.

(** A constructor is sound: whatever the environment denies, the run makes no error;
    on success exactly the resources of the object are held, otherwise nothing; and it
    fails only if something was denied (or for the reason [why]). *)
Definition sound {A} (why : Prop) (own : A -> option (list res)) (c : M A) : Prop :=
  forall tr, exists d,
    snd (c tr) = tr ++ d /\
    match own (fst (c tr)) with
    | Some l => takes d nothing (holds l)
    | None => takes d nothing nothing /\ (refused d \/ why)
    end.

(** A destructor gives back exactly the resources of the object. *)
Definition gives_back {A} (c : M A) (l : list res) : Prop :=
  forall tr, exists d, snd (c tr) = tr ++ d /\ takes d (holds l) nothing.

Definition all (mk : nat -> res) (n : nat) : list res := map mk (seq 0 n).

(** ** Reasoning about runs *)

Lemma play_ext : forall d f g dn f' dn',
  same f g -> play d f dn = Some (f', dn') ->
  exists g', play d g dn = Some (g', dn') /\ same f' g'.
Proof.
  induction d as [|e d IH]; intros f g dn f' dn' E P; cbn in P |- *.
  - inversion P; subst. exists g. split; [reflexivity | exact E].
  - destruct e as [r|r|r|].
    + eapply IH; [|exact P]. intros x. cbn. rewrite (E x). reflexivity.
    + eapply IH; [|exact P]. exact E.
    + rewrite <- (E r). destruct (f r) eqn:F; [discriminate P|].
      eapply IH; [|exact P]. intros x. cbn. rewrite (E x). reflexivity.
    + discriminate P.
Qed.

Lemma play_app : forall a b f dn,
  play (a ++ b) f dn =
  match play a f dn with Some (g, dn') => play b g dn' | None => None end.
Proof.
  induction a as [|e a IH]; intros b f dn; cbn; [reflexivity|].
  destruct e as [r|r|r|]; try apply IH; [|reflexivity].
  destruct (f r); [reflexivity | apply IH].
Qed.

(** Weakest precondition of a step of a run, up to equality of bags. *)
Definition wp {A} (c : M A) (Q : A -> bag -> bool -> Prop) (f : bag) (dn : bool) : Prop :=
  forall tr, exists d f' dn',
    snd (c tr) = tr ++ d /\ play d f dn = Some (f', dn') /\ Q (fst (c tr)) f' dn'.

Definition ext {A} (Q : A -> bag -> bool -> Prop) : Prop :=
  forall a f g dn, same f g -> Q a f dn -> Q a g dn.

Lemma same_sym : forall f g, same f g -> same g f.
Proof. intros f g E r. symmetry. apply E. Qed.
Lemma same_trans : forall f g h, same f g -> same g h -> same f h.
Proof. intros f g h E F r. rewrite (E r). apply F. Qed.

Lemma wp_same : forall A (c : M A) Q f g dn,
  ext Q -> same f g -> wp c Q f dn -> wp c Q g dn.
Proof.
  intros A c Q f g dn X E W tr. destruct (W tr) as (d & f' & dn' & S & P & H).
  destruct (play_ext _ _ _ _ _ _ E P) as (g' & P' & E').
  exists d, g', dn'. split; [exact S|]. split; [exact P'|]. apply (X _ f'); assumption.
Qed.

Lemma wp_ret : forall A (a : A) (Q : A -> bag -> bool -> Prop) f dn,
  Q a f dn -> wp (ret a) Q f dn.
Proof.
  intros A a Q f dn H tr. exists [], f, dn. cbn. rewrite app_nil_r. auto.
Qed.

Lemma wp_bind : forall A B (m : M A) (k : A -> M B) Q f dn,
  wp m (fun a g dn' => wp (k a) Q g dn') f dn -> wp (bind m k) Q f dn.
Proof.
  intros A B m k Q f dn W tr. destruct (W tr) as (d & f' & dn' & S & P & H).
  unfold bind. destruct (m tr) as [a tr'] eqn:E. cbn in S, H. subst tr'.
  destruct (H (tr ++ d)) as (d2 & f2 & dn2 & S2 & P2 & H2).
  exists (d ++ d2), f2, dn2. split; [rewrite S2; symmetry; apply app_assoc|].
  split; [rewrite play_app, P; exact P2 | exact H2].
Qed.

Lemma wp_mono : forall A (c : M A) (Q Q' : A -> bag -> bool -> Prop) f dn,
  (forall a g dn', Q a g dn' -> Q' a g dn') -> wp c Q f dn -> wp c Q' f dn.
Proof.
  intros A c Q Q' f dn H W tr. destruct (W tr) as (d & f' & dn' & S & P & X).
  exists d, f', dn'. auto.
Qed.

(** The bag after taking, and after giving back, a list of resources. *)
Definition plus (f : bag) (l : list res) : bag := fun r => f r + holds l r.
Definition minus (f : bag) (l : list res) : bag := fun r => f r - holds l r.

Lemma wp_acq : forall o r (Q : bool -> bag -> bool -> Prop) f dn,
  ext Q -> Q true (plus f [r]) dn -> ((exists tr, o tr r = true) -> Q false f true) ->
  wp (acq o r) Q f dn.
Proof.
  intros o r Q f dn X H1 H2 tr. unfold acq. destruct (o tr r) eqn:O.
  - exists [Denied r], f, true. cbn. split; [reflexivity|]. split; [reflexivity|]. eauto.
  - exists [Got r], (fun x => if res_eq r x then S (f x) else f x), dn. cbn.
    split; [reflexivity|]. split; [reflexivity|].
    apply (X _ (plus f [r])); [|exact H1]. intros x. unfold plus, holds. cbn.
    destruct (res_eq r x); lia.
Qed.

Lemma wp_take : forall r (Q : unit -> bag -> bool -> Prop) f dn,
  ext Q -> Q tt (plus f [r]) dn -> wp (take r) Q f dn.
Proof.
  intros r Q f dn X H tr.
  exists [Got r], (fun x => if res_eq r x then S (f x) else f x), dn. cbn.
  split; [reflexivity|]. split; [reflexivity|].
  apply (X _ (plus f [r])); [|exact H]. intros x. unfold plus, holds. cbn.
  destruct (res_eq r x); lia.
Qed.

Lemma wp_rel : forall r (Q : unit -> bag -> bool -> Prop) f dn,
  ext Q -> 1 <= f r -> Q tt (minus f [r]) dn -> wp (rel r) Q f dn.
Proof.
  intros r Q f dn X L H tr.
  exists [Gave r], (fun x => if res_eq r x then f x - 1 else f x), dn. cbn.
  split; [reflexivity|]. split.
  - destruct (f r); [lia | reflexivity].
  - apply (X _ (minus f [r])); [|exact H]. intros x. unfold minus, holds. cbn.
    destruct (res_eq r x); lia.
Qed.

Lemma ext_wp : forall A B (k : A -> M B) (Q : B -> bag -> bool -> Prop),
  ext Q -> ext (fun a g dn' => wp (k a) Q g dn').
Proof. intros A B k Q X a f g dn E W. eapply wp_same; eassumption. Qed.

Lemma holds_app : forall a b r, holds (a ++ b) r = holds a r + holds b r.
Proof. intros. unfold holds. apply count_occ_app. Qed.
Lemma holds_cons : forall a b r, holds (a :: b) r = holds [a] r + holds b r.
Proof. intros. apply (holds_app [a] b r). Qed.
Lemma holds_nil : forall r, holds [] r = 0.
Proof. reflexivity. Qed.

Definition from (mk : nat -> res) (i n : nat) : list res := map mk (seq i n).

Lemma wp_take_all : forall mk n i (Q : unit -> bag -> bool -> Prop) f dn,
  ext Q -> Q tt (plus f (from mk i n)) dn -> wp (take_all mk i n) Q f dn.
Proof.
  induction n as [|n IH]; intros i Q f dn X H; cbn [take_all].
  - apply wp_ret. apply (X _ (plus f (from mk i 0))); [|exact H].
    intros x. unfold plus. cbn. lia.
  - apply wp_bind. apply wp_take; [apply ext_wp with (k := fun _ => take_all mk (S i) n); exact X|].
    apply IH; [exact X|]. apply (X _ (plus f (from mk i (S n)))); [|exact H].
    intros x. unfold plus, from. cbn [seq map]. rewrite (holds_cons (mk i)). lia.
Qed.

Lemma wp_acq_all : forall o mk n i (Q : nat * bool -> bag -> bool -> Prop) f dn,
  ext Q -> Q (i + n, true) (plus f (from mk i n)) dn ->
  (forall j, j < n -> Q (i + j, false) (plus f (from mk i j)) true) ->
  wp (acq_all o mk i n) Q f dn.
Proof.
  induction n as [|n IH]; intros i Q f dn X H HF; cbn [acq_all].
  - apply wp_ret. rewrite Nat.add_0_r in H. apply (X _ (plus f (from mk i 0))); [|exact H].
    intros x. unfold plus. cbn. lia.
  - apply wp_bind. apply wp_acq.
    + apply ext_wp with (k := fun b : bool => if b then acq_all o mk (S i) n else ret (i, false)).
      exact X.
    + apply IH; [exact X| |].
      * replace (S i + n) with (i + S n) by lia.
        apply (X _ (plus f (from mk i (S n)))); [|exact H].
        intros x. unfold plus, from. cbn [seq map]. rewrite (holds_cons (mk i)). lia.
      * intros j J. replace (S i + j) with (i + S j) by lia.
        apply (X _ (plus f (from mk i (S j)))); [|apply HF; lia].
        intros x. unfold plus, from. cbn [seq map]. rewrite (holds_cons (mk i)). lia.
    + intros _. apply wp_ret. specialize (HF 0 ltac:(lia)). rewrite Nat.add_0_r in HF.
      apply (X _ (plus f (from mk i 0))); [|exact HF]. intros x. unfold plus. cbn. lia.
Qed.

Lemma wp_rel_up : forall mk n i (Q : unit -> bag -> bool -> Prop) f dn,
  ext Q -> (forall r, holds (from mk i n) r <= f r) -> Q tt (minus f (from mk i n)) dn ->
  wp (rel_up mk i n) Q f dn.
Proof.
  induction n as [|n IH]; intros i Q f dn X L H; cbn [rel_up].
  - apply wp_ret. apply (X _ (minus f (from mk i 0))); [|exact H].
    intros x. unfold minus. cbn. lia.
  - unfold from in L, H. cbn [seq map] in L, H.
    apply wp_bind. apply wp_rel; [apply ext_wp with (k := fun _ => rel_up mk (S i) n); exact X| |].
    + specialize (L (mk i)). rewrite holds_cons in L.
      assert (holds [mk i] (mk i) = 1) by
        (unfold holds; cbn; destruct (res_eq (mk i) (mk i)); congruence).
      lia.
    + apply IH; [exact X| |].
      * intros r. specialize (L r). rewrite holds_cons in L. unfold minus, from. lia.
      * eapply X; [|exact H]. intros x. unfold minus, from. rewrite (holds_cons (mk i)). lia.
Qed.

Lemma from_snoc : forall mk n x, holds (from mk 0 (S n)) x = holds (from mk 0 n) x + holds [mk n] x.
Proof.
  intros. unfold from. replace (S n) with (n + 1) by lia. rewrite seq_app, map_app, holds_app.
  reflexivity.
Qed.

Lemma wp_rel_down : forall mk n (Q : unit -> bag -> bool -> Prop) f dn,
  ext Q -> (forall r, holds (from mk 0 n) r <= f r) -> Q tt (minus f (from mk 0 n)) dn ->
  wp (rel_down mk n) Q f dn.
Proof.
  induction n as [|n IH]; intros Q f dn X L H; cbn [rel_down].
  - apply wp_ret. apply (X _ (minus f (from mk 0 0))); [|exact H].
    intros x. unfold minus. cbn. lia.
  - apply wp_bind. apply wp_rel; [apply ext_wp with (k := fun _ => rel_down mk n); exact X| |].
    + specialize (L (mk n)). rewrite from_snoc in L.
      assert (holds [mk n] (mk n) = 1) by
        (unfold holds; cbn; destruct (res_eq (mk n) (mk n)); congruence).
      lia.
    + apply IH; [exact X| |].
      * intros r. specialize (L r). rewrite from_snoc in L. unfold minus. lia.
      * eapply X; [|exact H]. intros x. unfold minus. rewrite from_snoc. lia.
Qed.

Lemma play_refused : forall d f dn f' dn',
  play d f dn = Some (f', dn') -> dn' = true -> dn = true \/ refused d.
Proof.
  induction d as [|e d IH]; intros f dn f' dn' P D; cbn in P.
  - inversion P; subst. auto.
  - destruct e as [r|r|r|].
    + destruct (IH _ _ _ _ P D) as [A | [r0 A]]; [auto | right; exists r0; right; exact A].
    + right. exists r. left. reflexivity.
    + destruct (f r); [discriminate P|].
      destruct (IH _ _ _ _ P D) as [A | [r0 A]]; [auto | right; exists r0; right; exact A].
    + discriminate P.
Qed.

(** The frame rule: what a run leaves untouched may as well be there. *)
Lemma play_frame : forall d f dn f' dn' h,
  play d f dn = Some (f', dn') ->
  exists g, play d (fun r => f r + h r) dn = Some (g, dn') /\ same g (fun r => f' r + h r).
Proof.
  induction d as [|e d IH]; intros f dn f' dn' h P; cbn in P |- *.
  - inversion P; subst. eexists. split; [reflexivity|]. intros r. reflexivity.
  - destruct e as [r|r|r|].
    + destruct (IH _ _ _ _ h P) as (g & P' & E).
      assert (SM : same (fun x => (if res_eq r x then S (f x) else f x) + h x)
                        (fun x => if res_eq r x then S (f x + h x) else f x + h x))
        by (intros x; destruct (res_eq r x); lia).
      destruct (play_ext _ _ _ _ _ _ SM P') as (g' & P2 & E2).
      exists g'. split; [exact P2|]. apply (same_trans _ g); [apply same_sym; exact E2 | exact E].
    + apply IH. exact P.
    + destruct (f r) eqn:F; [discriminate P|]. cbn.
      destruct (IH _ _ _ _ h P) as (g & P' & E).
      assert (SM : same (fun x => (if res_eq r x then f x - 1 else f x) + h x)
                        (fun x => if res_eq r x then f x + h x - 1 else f x + h x)).
      { intros x. destruct (res_eq r x); [subst x; lia | lia]. }
      destruct (play_ext _ _ _ _ _ _ SM P') as (g' & P2 & E2).
      exists g'. split; [exact P2|]. apply (same_trans _ g); [apply same_sym; exact E2 | exact E].
    + discriminate P.
Qed.

(** From the weakest precondition to the specification. *)
Lemma sound_wp : forall A (why : Prop) (own : A -> option (list res)) (c : M A),
  wp c (fun a g dn => match own a with
                      | Some l => same g (holds l)
                      | None => same g nothing /\ (dn = true \/ why)
                      end) nothing false ->
  sound why own c.
Proof.
  intros A why own c W tr. destruct (W tr) as (d & f' & dn' & S & P & H).
  exists d. split; [exact S|]. destruct (own (fst (c tr))) as [l|].
  - exists f', dn'. auto.
  - destruct H as [E D]. split; [exists f', dn'; auto|].
    destruct D as [D | D]; [|auto]. left.
    destruct (play_refused _ _ _ _ _ P D) as [F | F]; [discriminate F | exact F].
Qed.

Lemma gives_back_wp : forall A (c : M A) l,
  wp c (fun _ g _ => same g nothing) (holds l) false -> gives_back c l.
Proof.
  intros A c l W tr. destruct (W tr) as (d & f' & dn' & S & P & H).
  exists d. split; [exact S|]. exists f', dn'. auto.
Qed.

(** A sound constructor inside another function. *)
Lemma play_flag : forall d f dn f' dn',
  play d f dn = Some (f', dn') -> forall dm, exists dm', play d f dm = Some (f', dm').
Proof.
  induction d as [|e d IH]; intros f dn f' dn' P dm; cbn in P |- *.
  - inversion P; subst. eauto.
  - destruct e as [r|r|r|].
    + eapply IH. exact P.
    + eexists. exact P.
    + destruct (f r); [discriminate P|]. eapply IH. exact P.
    + discriminate P.
Qed.

Lemma play_true : forall d f f' dn', play d f true = Some (f', dn') -> dn' = true.
Proof.
  induction d as [|e d IH]; intros f f' dn' P; cbn in P.
  - inversion P; subst. reflexivity.
  - destruct e as [r|r|r|]; try (eapply IH; exact P); [|discriminate P].
    destruct (f r); [discriminate P|]. eapply IH; exact P.
Qed.

Lemma play_denied : forall d f dn f' dn',
  play d f dn = Some (f', dn') -> refused d -> dn' = true.
Proof.
  pose proof play_true as T.
  induction d as [|e d IH]; intros f dn f' dn' P [r0 D]; [destruct D|].
  cbn in P. destruct D as [D | D].
  - subst e. eapply T. exact P.
  - destruct e as [r|r|r|].
    + eapply IH; [exact P | exists r0; exact D].
    + eapply T. exact P.
    + destruct (f r); [discriminate P|]. eapply IH; [exact P | exists r0; exact D].
    + discriminate P.
Qed.

Lemma wp_sound : forall A why (own : A -> option (list res)) (c : M A)
    (Q : A -> bag -> bool -> Prop) f dn,
  ext Q -> sound why own c ->
  (forall a l dn', own a = Some l -> Q a (plus f l) dn') ->
  (forall a, own a = None -> Q a f true) ->
  (forall a dn', why -> own a = None -> Q a f dn') ->
  wp c Q f dn.
Proof.
  intros A why own c Q f dn X S HS HN HW tr. destruct (S tr) as (d & E & H).
  assert (F : forall g dd, play d nothing dn = Some (g, dd) ->
            exists g', play d f dn = Some (g', dd) /\ same g' (fun r => g r + f r)).
  { intros g dd P. destruct (play_frame _ _ _ _ _ f P) as (g1 & P1 & E1).
    assert (SM : same (fun r => nothing r + f r) f) by (intros r; reflexivity).
    destruct (play_ext _ _ _ _ _ _ SM P1) as (g2 & P2 & E2).
    exists g2. split; [exact P2|]. apply (same_trans _ g1); [apply same_sym; exact E2 | exact E1]. }
  destruct (own (fst (c tr))) as [l|] eqn:O.
  - destruct H as (f' & dn' & P & SM).
    destruct (play_flag _ _ _ _ _ P dn) as (dm & P').
    destruct (F _ _ P') as (g & P2 & E2).
    exists d, g, dm. split; [exact E|]. split; [exact P2|].
    apply (X _ (plus f l)); [|apply HS; exact O].
    intros r. rewrite (E2 r), (SM r). unfold plus. lia.
  - destruct H as ((f' & dn' & P & SM) & D).
    destruct (play_flag _ _ _ _ _ P dn) as (dm & P').
    destruct (F _ _ P') as (g & P2 & E2).
    exists d, g, dm. split; [exact E|]. split; [exact P2|].
    assert (SF : same f g) by (intros r; rewrite (E2 r), (SM r); reflexivity).
    destruct D as [D | D].
    + rewrite (play_denied _ _ _ _ _ P2 D). apply (X _ f); [exact SF | apply HN; exact O].
    + apply (X _ f); [exact SF | apply HW; assumption].
Qed.

Lemma wp_gives_back : forall A (c : M A) l (Q : A -> bag -> bool -> Prop) f dn,
  ext Q -> gives_back c l -> (forall r, holds l r <= f r) ->
  (forall a dn', (dn = true -> dn' = true) -> Q a (minus f l) dn') -> wp c Q f dn.
Proof.
  intros A c l Q f dn X G L H tr. destruct (G tr) as (d & E & f' & dn' & P & SM).
  destruct (play_flag _ _ _ _ _ P dn) as (dm & P').
  destruct (play_frame _ _ _ _ _ (minus f l) P') as (g1 & P1 & E1).
  assert (S0 : same (fun r => holds l r + minus f l r) f)
    by (intros r; specialize (L r); unfold minus; lia).
  destruct (play_ext _ _ _ _ _ _ S0 P1) as (g2 & P2 & E2).
  exists d, g2, dm. split; [exact E|]. split; [exact P2|].
  apply (X _ (minus f l)); [|apply H].
  - intros r. rewrite <- (E2 r), (E1 r), (SM r). reflexivity.
  - intros ->. exact (play_true _ _ _ _ P2).
Qed.

(** ** Automation *)

Lemma ext_post : forall A (own : A -> option (list res)) (why : Prop),
  ext (fun a g dn => match own a with
                     | Some l => same g (holds l)
                     | None => same g nothing /\ (dn = true \/ why)
                     end).
Proof.
  intros A own why a f g dn E. destruct (own a).
  - intros H. apply (same_trans _ f); [apply same_sym; exact E | exact H].
  - intros [H D]. split; [|exact D]. apply (same_trans _ f); [apply same_sym; exact E | exact H].
Qed.

Lemma ext_nothing : forall A, ext (fun (_ : A) g (_ : bool) => same g nothing).
Proof.
  intros A a f g dn E H. apply (same_trans _ f); [apply same_sym; exact E | exact H].
Qed.

Lemma holds_self : forall r, holds [r] r = 1.
Proof. intros r. unfold holds. cbn. destruct (res_eq r r); congruence. Qed.

Ltac ext_tac :=
  repeat match goal with
         | |- ext (fun a g dn => wp (@?k a) ?Q g dn) => apply (ext_wp _ _ k Q)
         end;
  first [ apply ext_nothing | apply ext_post | assumption | auto ].

Ltac split_holds :=
  repeat match goal with
         | |- context [holds (?a ++ ?b) ?r] => rewrite (holds_app a b r)
         | |- context [holds (?a :: ?l) ?r] =>
             lazymatch l with nil => fail | _ => rewrite (holds_cons a l r) end
         | |- context [holds [] ?r] => rewrite (holds_nil r)
         end.

Ltac bags :=
  unfold same; intros; unfold plus, minus, nothing, all, from; cbn [app seq map];
  split_holds; rewrite ?holds_self; lia.

Ltac step :=
  cbn [negb fst snd orb andb Nat.add];
  match goal with
  | |- wp (ret _) _ _ _ => apply wp_ret
  | |- wp (bind _ _) _ _ _ => apply wp_bind
  | |- wp (acq _ _) _ _ _ => apply wp_acq; [ext_tac | | let DN := fresh "DN" in intros DN]
  | |- wp (take _) _ _ _ => apply wp_take; [ext_tac |]
  | |- wp (rel_if true ?r) _ _ _ => change (rel_if true r) with (rel r)
  | |- wp (rel_if false ?r) _ _ _ => change (rel_if false r) with (ret tt)
  | |- wp (rel _) _ _ _ => apply wp_rel; [ext_tac | bags |]
  | |- wp (acq_all _ _ _ _) _ _ _ =>
      apply wp_acq_all; [ext_tac | | let j := fresh "j" in let J := fresh "J" in intros j J]
  | |- wp (take_all _ _ _) _ _ _ => apply wp_take_all; [ext_tac |]
  | |- wp (rel_up _ _ _) _ _ _ => apply wp_rel_up; [ext_tac | bags |]
  | |- wp (rel_down _ _) _ _ _ => apply wp_rel_down; [ext_tac | bags |]
  end.

Ltac run := repeat step.

(** ** Metadata locks *)

Definition built (l : list res) (b : bool) : option (list res) := if b then Some l else None.

Definition own_mconc (nl ng np : nat) : list res :=
  all r_lru nl ++ all r_global ng ++ all r_part np.

Ltac post := unfold built; first [ split; [bags | auto] | bags ].

Theorem C67_metadata_locks : forall o nl ng np,
  sound False (built (own_mconc nl ng np)) (mconc_init o nl ng np) /\
  gives_back (mconc_deinit nl ng np) (own_mconc nl ng np).
Proof.
  intros o nl ng np. split.
  - apply sound_wp. unfold mconc_init, own_mconc. run; post.
  - apply gives_back_wp. unfold mconc_deinit, own_mconc. run; bags.
Qed.

(** ** What a constructor leaves behind *)

(** Weaker than [sound]: no error, and on return what is held is one of the listed
    possibilities; a failing constructor was refused something (or [why]). *)
Definition leaves {A} (why : Prop) (ok : A -> bool) (out : A -> list (list res)) (c : M A) : Prop :=
  forall tr, exists d l,
    snd (c tr) = tr ++ d /\ In l (out (fst (c tr))) /\ takes d nothing (holds l) /\
    (ok (fst (c tr)) = false -> refused d \/ why).

Lemma leaves_wp : forall A (why : Prop) ok (out : A -> list (list res)) (c : M A),
  wp c (fun a g dn => (exists l, In l (out a) /\ same g (holds l)) /\
                      (ok a = false -> dn = true \/ why)) nothing false ->
  leaves why ok out c.
Proof.
  intros A why ok out c W tr. destruct (W tr) as (d & f' & dn' & S & P & (l & I & E) & D).
  exists d, l. split; [exact S|]. split; [exact I|]. split; [exists f', dn'; auto|].
  intros O. destruct (D O) as [D' | D']; [|auto]. left.
  destruct (play_refused _ _ _ _ _ P D') as [F | F]; [discriminate F | exact F].
Qed.

Lemma ext_leaves : forall A ok (out : A -> list (list res)) (why : Prop),
  ext (fun a g dn => (exists l, In l (out a) /\ same g (holds l)) /\
                     (ok a = false -> dn = true \/ why)).
Proof.
  intros A ok out why a f g dn E [(l & I & H) D]. split; [|exact D].
  exists l. split; [exact I|]. apply (same_trans _ f); [apply same_sym; exact E | exact H].
Qed.

(** A sound constructor leaves its object or nothing. *)
Lemma sound_leaves : forall A why (own : A -> option (list res)) (c : M A),
  sound why own c ->
  leaves why (fun a => match own a with Some _ => true | None => false end)
    (fun a => [match own a with Some l => l | None => [] end]) c.
Proof.
  intros A why own c S tr. destruct (S tr) as (d & E & H). exists d.
  destruct (own (fst (c tr))) as [l|] eqn:O.
  - exists l. split; [exact E|]. split; [left; reflexivity|]. split; [exact H|]. intros F; discriminate F.
  - exists []. split; [exact E|]. split; [left; reflexivity|]. destruct H as [H D].
    split; [exact H|]. intros _. exact D.
Qed.

Ltac ext_tac ::=
  repeat match goal with
         | |- ext (fun a g dn => wp (@?k a) ?Q g dn) => apply (ext_wp _ _ k Q)
         end;
  first [ apply ext_nothing | apply ext_post | apply ext_leaves | assumption | auto ].

(** ** Locks of the hash table and the collision table *)

Definition fresh_lock : mlock := {| m_hash := false; m_coll := false; m_nhash := 0; m_ncoll := 0 |}.
Definition own_att (h c : nat) : list res :=
  [r_hash; r_coll] ++ all r_hsem h ++ all r_csem c.

Ltac pick l := split; [exists l; split; [cbn; auto | bags] | cbn; auto].

(** Everything is given back when a step fails, except that a failure among the locks
    of the collision pages leaves all locks of the hash buckets initialised. *)
Theorem C67_attached_locks : forall o h c,
  leaves False (fun p : bool * mlock => fst p)
    (fun p => if fst p then [own_att h c] else [[]; all r_hsem h])
    (att_init o h c fresh_lock) /\
  gives_back (att_deinit {| m_hash := true; m_coll := true; m_nhash := h; m_ncoll := c |})
    (own_att h c).
Proof.
  intros o h c. split.
  - apply leaves_wp. unfold att_init, att_deinit, fresh_lock, own_att.
    cbn [m_hash m_coll m_nhash m_ncoll]. run; cbn [fst].
    all: first [ solve [pick (@nil res)] | solve [pick (all r_hsem h)]
               | solve [split; [eexists; split; [left; reflexivity | bags] | intros F; discriminate F]] ].
  - apply gives_back_wp. unfold att_deinit, own_att. cbn [m_hash m_coll m_nhash m_ncoll].
    run; bags.
Qed.

(** How often a run holds a resource at its end. *)
Definition left_over (d : list ev) (r : res) : nat :=
  match play d nothing false with Some (f, _) => f r | None => 0 end.

Lemma takes_at : forall d g r, takes d nothing g -> left_over d r = g r.
Proof. intros d g r (f & dn & P & E). unfold left_over. rewrite P. apply E. Qed.

Lemma takes_not : forall d r n, takes d nothing (holds []) -> left_over d r = n -> 1 <= n -> False.
Proof. intros d r n T L G. rewrite (takes_at _ _ r T) in L. cbn in L. lia. Qed.

(** Denies the request for one resource. *)
Definition deny (r : res) : oracle := fun _ x => if res_eq r x then true else false.
Definition deny_nothing : oracle := fun _ _ => false.

Theorem C67_attached_locks_refuted : exists o h c,
  fst (fst (att_init o h c fresh_lock [])) = false /\
  takes (snd (att_init o h c fresh_lock [])) nothing (holds [r_hsem 0; r_hsem 1]).
Proof.
  exists (deny (r_csem 0)), 2, 1. split; [vm_compute; reflexivity|].
  destruct (C67_attached_locks (deny (r_csem 0)) 2 1) as (L & _).
  destruct (L []) as (d & l & E & I & T & _). rewrite E. cbn [app].
  assert (F : fst (fst (att_init (deny (r_csem 0)) 2 1 fresh_lock [])) = false)
    by (vm_compute; reflexivity).
  rewrite F in I. destruct I as [I | [I | []]]; subst l; [|exact T]. exfalso.
  apply (takes_not d (r_hsem 0) 1) in T; [exact T | | lia].
  cbn [app] in E. rewrite <- E. vm_compute. reflexivity.
Qed.

(** ** Locks over lines and pages *)

Definition own_inner (nw : nat) : list res := [r_amutex; r_access; r_waiters] ++ all r_wait nw.
Definition own_alock (nw : nat) : list res := r_alock :: own_inner nw.

Lemma inplace_sound : forall o nw,
  sound False (built (own_inner nw)) (alock_init_inplace o nw).
Proof.
  intros o nw. apply sound_wp. unfold alock_init_inplace, alock_err, own_inner. run; post.
Qed.

Ltac by_sound S :=
  eapply wp_sound;
  [ ext_tac
  | exact S
  | let a := fresh in intros a ? ?; destruct a; cbn [built];
    let E := fresh in intros E; first [discriminate E | injection E as <-]
  | let a := fresh in intros a; destruct a; cbn [built];
    let E := fresh in intros E; first [discriminate E | clear E]
  | try (intros ? ? []) ].

Theorem C67_alock : forall o nw,
  sound False (built (own_alock nw)) (alock_init o nw) /\
  gives_back (alock_deinit nw true) (own_alock nw) /\
  gives_back (alock_deinit nw false) [].
Proof.
  intros o nw. split; [|split].
  - apply sound_wp. unfold alock_init, own_alock. run; [|post].
    by_sound (inplace_sound o nw); unfold own_inner; run; post.
  - apply gives_back_wp. unfold alock_deinit, own_alock, own_inner. run; bags.
  - apply gives_back_wp. unfold alock_deinit. run; bags.
Qed.

Theorem C67_page_locks : forall o nw name_ok,
  sound (name_ok = false) (built (own_alock nw)) (pio_init o nw name_ok).
Proof.
  intros o nw name_ok. apply sound_wp. unfold pio_init, own_alock.
  destruct name_ok; run; [| post | post].
  by_sound (inplace_sound o nw); unfold own_inner; run; post.
Qed.

(** The page locks of metadata containers: the same, unless the memory is freed with the
    wrong function, which happens exactly when the inner part fails. *)
Theorem C67_mio_locks : forall o nw name_ok tr,
  mio_init o nw name_ok tr = pio_init o nw name_ok tr \/
  exists d, mio_init o nw name_ok tr = (false, tr ++ d) /\ refused d /\
            In (Gave (R KMem SAlock 0)) d.
Proof.
  intros o nw name_ok tr. unfold mio_init, pio_init. destruct name_ok; cbn [negb]; [|left; reflexivity].
  unfold bind, acq. destruct (o tr r_alock); cbn [negb]; [left; reflexivity|].
  destruct (inplace_sound o nw (tr ++ [Got r_alock])) as (d & E & H).
  destruct (alock_init_inplace o nw (tr ++ [Got r_alock])) as [ok tr'] eqn:I.
  cbn in E, H. subst tr'. destruct ok; [left; reflexivity|]. right.
  exists ([Got r_alock] ++ d ++ [Gave (R KMem SAlock 0)]). split; [|split].
  - cbn. rewrite <- !app_assoc. reflexivity.
  - destruct H as [_ [[r D] | []]]. exists r. apply in_or_app. right. apply in_or_app. left. exact D.
  - apply in_or_app. right. apply in_or_app. right. left. reflexivity.
Qed.

Theorem C67_mio_locks_refuted : exists o nw,
  fst (mio_init o nw true []) = false /\
  forall g, ~ takes (snd (mio_init o nw true [])) nothing g.
Proof.
  exists (deny r_access), 3. split; [vm_compute; reflexivity|].
  intros g (f & dn & P & _). vm_compute in P. discriminate P.
Qed.

(** ** Metadata containers *)

Definition fresh_raw : raw := {| w_mio := false; w_pool := false; w_ctrl := false; w_pages := [] |}.

Definition own_mio (lock : bool) (nw : nat) : list res := if lock then own_alock nw else [].

(** A container whose constructor failed has no pointers left. *)
Lemma ram_init_failed : forall o nw mio lock tr,
  fst (fst (raw_ram_init o nw mio lock fresh_raw tr)) = false ->
  snd (fst (raw_ram_init o nw mio lock fresh_raw tr)) = fresh_raw.
Proof.
  intros o nw mio lock tr. unfold raw_ram_init, bind. destruct lock.
  - destruct (mio tr) as [b t]. destruct b; cbn [ret fst snd negb orb]; [|reflexivity].
    unfold acq. destruct (o t r_pool); cbn [ret fst snd negb orb].
    + destruct (alock_deinit nw true (t ++ [Denied r_pool])). reflexivity.
    + intros F; discriminate F.
  - cbn [ret fst snd negb orb]. unfold acq. destruct (o tr r_pool); cbn [ret fst snd negb orb].
    + destruct (alock_deinit nw _ (tr ++ [Denied r_pool])). reflexivity.
    + intros F; discriminate F.
Qed.

Theorem C67_raw_ram : forall o nw mio lock,
  sound False (built (own_alock nw)) mio ->
  sound False (fun p : bool * raw => if fst p then Some (r_pool :: own_mio lock nw) else None)
    (raw_ram_init o nw mio lock fresh_raw) /\
  (forall tr p tr', raw_ram_init o nw mio lock fresh_raw tr = (p, tr') -> fst p = true ->
     gives_back (raw_ram_deinit nw (snd p)) (r_pool :: own_mio lock nw)) /\
  (forall tr, fst (fst (raw_ram_init o nw mio lock fresh_raw tr)) = false ->
     snd (fst (raw_ram_init o nw mio lock fresh_raw tr)) = fresh_raw).
Proof.
  intros o nw mio lock SM. destruct (C67_alock o nw) as (_ & GB & GN). split; [|split; [|apply ram_init_failed]].
  - apply sound_wp. unfold raw_ram_init, fresh_raw. cbn [w_mio w_pool w_ctrl w_pages].
    destruct lock; cbn [own_mio].
    + run. by_sound SM; run; cbn [fst]; try post.
      eapply (wp_gives_back _ _ (own_alock nw)); [ext_tac | exact GB | bags |].
      intros a dn D. specialize (D eq_refl). subst dn. run. cbn [fst]. post.
    + run; cbn [fst]; try post.
      eapply (wp_gives_back _ _ []); [ext_tac | exact GN | bags |].
      intros a dn D. specialize (D eq_refl). subst dn. run. cbn [fst]. post.
  - intros tr p tr' E T. unfold raw_ram_init, bind in E.
    assert (W : snd p = {| w_mio := lock; w_pool := true; w_ctrl := false; w_pages := [] |}).
    { destruct lock.
      - destruct (mio tr) as [b t]. destruct b; cbn [ret fst snd negb orb] in E.
        + unfold acq in E. destruct (o t r_pool); cbn [ret fst snd negb orb] in E.
          * destruct (alock_deinit nw true (t ++ [Denied r_pool])). inversion E; subst.
            discriminate T.
          * inversion E; subst. reflexivity.
        + inversion E; subst. discriminate T.
      - cbn [ret fst snd negb orb] in E. unfold acq in E.
        destruct (o tr r_pool); cbn [ret fst snd negb orb] in E.
        + destruct (alock_deinit nw _ (tr ++ [Denied r_pool])). inversion E; subst. discriminate T.
        + inversion E; subst. reflexivity. }
    rewrite W. apply gives_back_wp. unfold raw_ram_deinit. cbn [w_pool w_mio]. run.
    destruct lock; cbn [own_mio].
    + eapply (wp_gives_back _ _ (own_alock nw)); [ext_tac | exact GB | bags |]. intros; bags.
    + eapply (wp_gives_back _ _ []); [ext_tac | exact GN | bags |]. intros; bags.
Qed.

(** The pages of a dynamic container are allocated on first access. *)
Fixpoint accesses (o : oracle) (w : raw) (ps : list nat) : M raw :=
  match ps with
  | [] => ret w
  | p :: ps => w' <- raw_dyn_page o w p ;; accesses o w' ps
  end.

(** Build, use, destroy. *)
Definition raw_dyn_life (o : oracle) (nw np : nat) (mio : M bool) (fits lock : bool)
    (ps : list nat) : M unit :=
  p <- raw_dyn_init o nw mio fits lock fresh_raw ;;
  if fst p then w <- accesses o (snd p) ps ;; raw_dyn_deinit nw np w else ret tt.

Lemma wp_accesses : forall o np base ps w (Q : raw -> bag -> bool -> Prop) dn,
  ext Q -> NoDup (w_pages w) -> Forall (fun p => p < np) (w_pages w) ->
  Forall (fun p => p < np) ps ->
  (forall w' dn', w_mio w' = w_mio w -> w_ctrl w' = w_ctrl w -> NoDup (w_pages w') ->
     Forall (fun p => p < np) (w_pages w') ->
     Q w' (plus base (map r_page (w_pages w'))) dn') ->
  wp (accesses o w ps) Q (plus base (map r_page (w_pages w))) dn.
Proof.
  induction ps as [|p ps IH]; intros w Q dn X ND LT LP H; cbn [accesses].
  - apply wp_ret. apply H; auto.
  - inversion LP as [|? ? L1 L2]; subst. apply wp_bind. unfold raw_dyn_page.
    destruct (existsb (Nat.eqb p) (w_pages w)) eqn:F.
    + apply wp_ret. apply IH; auto.
    + apply wp_bind. apply wp_acq; [ext_tac | |].
      * apply wp_ret.
        match goal with |- wp (accesses o ?w' ps) _ _ _ => set (w1 := w') end.
        apply (wp_same _ _ _ (plus base (map r_page (w_pages w1)))); [exact X | |].
        -- intros r. unfold plus, w1. cbn [w_pages map]. rewrite (holds_cons (r_page p)). lia.
        -- apply IH; auto; unfold w1; cbn [w_pages].
           ++ constructor; [|exact ND]. intros I.
              assert (T : existsb (Nat.eqb p) (w_pages w) = true)
                by (apply existsb_exists; exists p; split; [exact I | apply Nat.eqb_refl]).
              congruence.
           ++ constructor; assumption.
      * intros _. apply wp_ret. apply IH; auto.
Qed.

Definition page_list (ps : list nat) (i n : nat) : list res :=
  flat_map (fun j => if existsb (Nat.eqb j) ps then [r_page j] else []) (seq i n).

Lemma wp_rel_pages : forall ps n i (Q : unit -> bag -> bool -> Prop) f dn,
  ext Q -> (forall r, holds (page_list ps i n) r <= f r) ->
  Q tt (minus f (page_list ps i n)) dn -> wp (rel_pages ps i n) Q f dn.
Proof.
  induction n as [|n IH]; intros i Q f dn X L H; cbn [rel_pages].
  - apply wp_ret. eapply X; [|exact H]. intros r. unfold minus. cbn. lia.
  - unfold page_list in L, H. cbn [seq flat_map] in L, H.
    apply wp_bind. destruct (existsb (Nat.eqb i) ps); cbn [rel_if].
    + apply wp_rel; [ext_tac | |].
      * specialize (L (r_page i)). rewrite holds_app, holds_self in L. lia.
      * apply IH; [exact X | |].
        -- intros r. specialize (L r). rewrite holds_app in L. unfold minus, page_list. lia.
        -- eapply X; [|exact H]. intros r. unfold minus, page_list. rewrite holds_app. lia.
    + apply wp_ret. apply IH; [exact X | exact L | exact H].
Qed.

Lemma page_list_all : forall ps np r,
  NoDup ps -> Forall (fun p => p < np) ps ->
  holds (page_list ps 0 np) r = holds (map r_page ps) r.
Proof.
  intros ps np r ND LT.
  assert (E : forall l, flat_map (fun j => if existsb (Nat.eqb j) ps then [r_page j] else []) l =
                        map r_page (filter (fun j => existsb (Nat.eqb j) ps) l)).
  { induction l as [|x l IH]; [reflexivity|]. cbn. destruct (existsb (Nat.eqb x) ps); cbn;
      rewrite IH; reflexivity. }
  unfold page_list. rewrite E. unfold holds.
  apply Permutation_count_occ, Permutation_map.
  apply NoDup_Permutation; [apply NoDup_filter, seq_NoDup | exact ND |].
  intros x. rewrite filter_In, in_seq, existsb_exists. rewrite Forall_forall in LT. split.
  - intros [_ (y & I & Y)]. apply Nat.eqb_eq in Y. subst y. exact I.
  - intros I. split; [specialize (LT _ I); lia|]. exists x. split; [exact I | apply Nat.eqb_refl].
Qed.

Definition own_dyn (lock : bool) (nw : nat) : list res := [r_ctrl; r_clock] ++ own_mio lock nw.

Definition dyn_ready (lock : bool) : raw :=
  {| w_mio := lock; w_pool := false; w_ctrl := true; w_pages := [] |}.

Lemma dyn_init_result : forall o nw mio fits lock tr,
  fst (fst (raw_dyn_init o nw mio fits lock fresh_raw tr)) = true ->
  snd (fst (raw_dyn_init o nw mio fits lock fresh_raw tr)) = dyn_ready lock.
Proof.
  intros o nw mio fits lock tr. unfold raw_dyn_init, bind.
  destruct fits; cbn [ret fst snd negb orb]; [|intros F; discriminate F].
  assert (G : forall t, let z := (let '(a, tr') := acq o r_ctrl t in
     (if negb a
      then fun tr0 => let '(_, tr'0) := alock_deinit nw lock tr0 in
           ret (false, {| w_mio := false; w_pool := w_pool fresh_raw; w_ctrl := w_ctrl fresh_raw;
                          w_pages := w_pages fresh_raw |}) tr'0
      else fun tr0 => let '(a0, tr'0) := acq o r_clock tr0 in
           (if negb a0
            then fun tr1 => let '(_, tr'1) := alock_deinit nw lock tr1 in
                 (let '(_, tr'2) := rel r_ctrl tr'1 in
                  ret (false, {| w_mio := false; w_pool := w_pool fresh_raw;
                                 w_ctrl := w_ctrl fresh_raw; w_pages := w_pages fresh_raw |}) tr'2)
            else ret (true, {| w_mio := lock; w_pool := w_pool fresh_raw; w_ctrl := true;
                               w_pages := [] |})) tr'0) tr') in
     fst (fst z) = true -> snd (fst z) = dyn_ready lock).
  { intros t. unfold acq. destruct (o t r_ctrl); cbn [negb].
    - destruct (alock_deinit nw lock (t ++ [Denied r_ctrl])). intros F; discriminate F.
    - destruct (o (t ++ [Got r_ctrl]) r_clock); cbn [negb].
      + destruct (alock_deinit nw lock ((t ++ [Got r_ctrl]) ++ [Denied r_clock])).
        cbn. intros F; discriminate F.
      + intros _. reflexivity. }
  destruct lock.
  - destruct (mio tr) as [b t]. destruct b; cbn [ret fst snd negb orb].
    + apply (G t).
    + intros F; discriminate F.
  - cbn [ret fst snd negb orb]. apply (G tr).
Qed.

Lemma dyn_init_failed : forall o nw mio fits lock tr,
  fst (fst (raw_dyn_init o nw mio fits lock fresh_raw tr)) = false ->
  snd (fst (raw_dyn_init o nw mio fits lock fresh_raw tr)) = fresh_raw.
Proof.
  intros o nw mio fits lock tr. unfold raw_dyn_init, bind.
  destruct fits; cbn [ret fst snd negb orb]; [|reflexivity].
  destruct lock.
  - destruct (mio tr) as [b t]. destruct b; cbn [ret fst snd negb orb]; [|reflexivity].
    unfold acq. destruct (o t r_ctrl); cbn [ret fst snd negb orb].
    + destruct (alock_deinit nw true (t ++ [Denied r_ctrl])). reflexivity.
    + destruct (o (t ++ [Got r_ctrl]) r_clock); cbn [negb].
      * destruct (alock_deinit nw true ((t ++ [Got r_ctrl]) ++ [Denied r_clock])). reflexivity.
      * intros F; discriminate F.
  - cbn [ret fst snd negb orb]. unfold acq. destruct (o tr r_ctrl); cbn [ret fst snd negb orb].
    + destruct (alock_deinit nw _ (tr ++ [Denied r_ctrl])). reflexivity.
    + destruct (o (tr ++ [Got r_ctrl]) r_clock); cbn [negb].
      * destruct (alock_deinit nw _ ((tr ++ [Got r_ctrl]) ++ [Denied r_clock])). reflexivity.
      * intros F; discriminate F.
Qed.

Theorem C67_raw_dynamic : forall o nw np mio fits lock ps,
  sound False (built (own_alock nw)) mio -> Forall (fun p => p < np) ps ->
  sound (fits = false)
    (fun p : bool * raw => if fst p then Some (own_dyn lock nw) else None)
    (raw_dyn_init o nw mio fits lock fresh_raw) /\
  gives_back (raw_dyn_life o nw np mio fits lock ps) [] /\
  (forall tr, fst (fst (raw_dyn_init o nw mio fits lock fresh_raw tr)) = false ->
     snd (fst (raw_dyn_init o nw mio fits lock fresh_raw tr)) = fresh_raw).
Proof.
  intros o nw np mio fits lock ps SM LP. destruct (C67_alock o nw) as (_ & GB & GN).
  assert (S1 : sound (fits = false)
    (fun p : bool * raw => if fst p then Some (own_dyn lock nw) else None)
    (raw_dyn_init o nw mio fits lock fresh_raw)).
  { apply sound_wp. unfold raw_dyn_init, fresh_raw, own_dyn. cbn [w_mio w_pool w_ctrl w_pages].
    destruct fits; [|run; cbn [fst]; post].
    destruct lock; cbn [own_mio].
    - run. by_sound SM; run; cbn [fst]; try post.
      all: eapply (wp_gives_back _ _ (own_alock nw)); [ext_tac | exact GB | bags |];
        intros a dn D; specialize (D eq_refl); subst dn; run; cbn [fst]; post.
    - run; cbn [fst]; try post.
      all: eapply (wp_gives_back _ _ []); [ext_tac | exact GN | bags |];
        intros a dn D; specialize (D eq_refl); subst dn; run; cbn [fst]; post. }
  split; [exact S1|]. split; [|intros tr; apply dyn_init_failed].
  apply gives_back_wp. unfold raw_dyn_life. apply wp_bind.
  (* remember what the constructor returns *)
  intros tr. destruct (S1 tr) as (d & E & H).
  pose proof (dyn_init_result o nw mio fits lock tr) as RES.
  destruct (raw_dyn_init o nw mio fits lock fresh_raw tr) as [[ok w] tr'] eqn:I.
  cbn [fst snd] in *. destruct ok.
  - specialize (RES eq_refl). subst w. destruct H as (f & dn & P & SM1).
    exists d, f, dn. split; [exact E|]. split; [exact P|].
    apply (wp_same _ _ _ (plus (holds (own_dyn lock nw)) (map r_page (w_pages (dyn_ready lock)))));
      [ext_tac | |].
    { intros r. unfold plus. rewrite (SM1 r). cbn [dyn_ready w_pages map]. rewrite holds_nil. lia. }
    apply wp_bind. apply (wp_accesses o np); [ext_tac | constructor | constructor | exact LP |].
    intros w' dn' M1 C1 ND LT. cbn in M1, C1. unfold raw_dyn_deinit. rewrite C1. cbn [negb].
    assert (L1 : gives_back (alock_deinit nw lock) (own_mio lock nw))
      by (destruct lock; [exact GB | exact GN]).
    apply wp_bind. rewrite M1.
    eapply (wp_gives_back _ _ (own_mio lock nw)); [ext_tac | exact L1 | unfold own_dyn; bags |].
    intros _ dn1 _. apply wp_bind. apply wp_rel_pages; [ext_tac | |].
    + intros r. rewrite (page_list_all _ _ _ ND LT). unfold own_dyn. bags.
    + apply (wp_same _ _ _ (holds [r_ctrl; r_clock])); [ext_tac | |].
      * intros r. unfold minus, plus. rewrite (page_list_all _ _ _ ND LT). unfold own_dyn.
        rewrite holds_app. lia.
      * run. bags.
  - destruct H as ((f & dn & P & SM1) & _).
    exists d, f, dn. split; [exact E|]. split; [exact P|]. run. exact SM1.
Qed.

(** ** Promotion policy nhit *)

Definition own_nhash (he : nat) : list res :=
  [r_nhash; r_hmap; r_hlocks; r_ring; r_rblock] ++ all r_hlk he.
Definition own_nhit (he : nat) : list res := r_nhit :: own_nhash he.

Ltac outs :=
  first [ solve [pick (@nil res)]
        | solve [split; [eexists; split; [left; reflexivity | bags] | intros F; discriminate F]]
        | solve [split; [eexists; split; [right; left; reflexivity | bags] | cbn; auto]]
        | solve [split; [eexists; split; [right; right; left; reflexivity | bags] | cbn; auto]]
        | solve [split; [eexists; split; [right; right; right; left; reflexivity | bags] | cbn; auto]] ].

(** A failing initialisation of the spin lock leaves the ring buffer allocated; every
    other failure leaves nothing. *)
Theorem C67_nhit : forall o he mem_ok,
  leaves (mem_ok = false) (fun b => b)
    (fun b : bool => if b then [own_nhit he] else [[]; [r_ring]])
    (nhit_init o he mem_ok) /\
  gives_back (nhit_deinit he) (own_nhit he).
Proof.
  intros o he mem_ok. split.
  - apply leaves_wp. unfold nhit_init, nhash_init, own_nhit, own_nhash.
    destruct mem_ok; run; outs.
  - apply gives_back_wp. unfold nhit_deinit, nhash_deinit, own_nhit, own_nhash. run; bags.
Qed.

Theorem C67_nhit_refuted : exists o he,
  fst (nhit_init o he true []) = false /\
  takes (snd (nhit_init o he true [])) nothing (holds [r_ring]).
Proof.
  exists (deny r_rblock), 2.
  assert (F : fst (nhit_init (deny r_rblock) 2 true []) = false) by (vm_compute; reflexivity).
  split; [exact F|].
  destruct (C67_nhit (deny r_rblock) 2 true) as (L & _).
  destruct (L []) as (d & l & E & I & T & _). rewrite E. cbn [app] in *.
  rewrite F in I. destruct I as [I | [I | []]]; subst l; [|exact T]. exfalso.
  apply (takes_not d r_ring 1) in T; [exact T | | lia].
  rewrite <- E. vm_compute. reflexivity.
Qed.

(** ** The context *)

Definition own_mpool (w n : nat) : list res := r_mpool w :: all (r_malloc w) n.

Theorem C67_mpool : forall o w n,
  sound False (built (own_mpool w n)) (mpool_create o w n) /\
  gives_back (mpool_destroy w n) (own_mpool w n).
Proof.
  intros o w n. split.
  - apply sound_wp. unfold mpool_create, own_mpool. run; post.
  - apply gives_back_wp. unfold mpool_destroy, own_mpool. run; bags.
Qed.

Definition own_type (id : nat) (dflt : bool) : list res :=
  r_type id :: (if dflt then [r_talloc id] else []).
Definition own_types (t : types) : list res :=
  flat_map (fun p => own_type (fst p) (snd p)) t.

Lemma type_init_sound : forall o id valid dflt,
  sound (valid = false) (built (own_type id dflt)) (type_init o id valid dflt) /\
  gives_back (type_deinit id dflt) (own_type id dflt).
Proof.
  intros o id valid dflt. split.
  - apply sound_wp. unfold type_init, own_type. destruct valid, dflt; run; post.
  - apply gives_back_wp. unfold type_deinit, own_type. destruct dflt; run; bags.
Qed.

(** A registered type is made of its own resources; a refused registration changes
    nothing. *)
Lemma wp_register : forall o id valid dflt t (Q : bool * types -> bag -> bool -> Prop) f dn,
  ext Q ->
  (id < type_max -> ~ In id (map fst t) ->
     forall dn', Q (true, (id, dflt) :: t) (plus f (own_type id dflt)) dn') ->
  (forall dn', (id < type_max -> valid = true -> ~ In id (map fst t) -> dn' = true) ->
     Q (false, t) f dn') ->
  wp (type_register o id valid dflt t) Q f dn.
Proof.
  intros o id valid dflt t Q f dn X H1 H2. unfold type_register.
  destruct (type_max <=? id) eqn:L.
  - cbn [orb]. apply wp_ret. apply H2. intros A. apply Nat.leb_le in L. lia.
  - apply Nat.leb_gt in L. cbn [orb]. destruct (type_find id t) eqn:F.
    + apply wp_ret. apply H2. intros _ _ N. exfalso. apply N.
      unfold type_find in F. destruct (find _ t) as [p|] eqn:FD; [|discriminate F].
      apply find_some in FD. destruct FD as [I E]. apply Nat.eqb_eq in E. subst id.
      apply in_map. exact I.
    + assert (N : ~ In id (map fst t)).
      { intros I. apply in_map_iff in I. destruct I as (p & E & I).
        unfold type_find in F. destruct (find _ t) as [q|] eqn:FD; [discriminate F|].
        pose proof (find_none _ _ FD _ I) as G. cbn in G. apply Nat.eqb_neq in G. congruence. }
      apply wp_bind. destruct (type_init_sound o id valid dflt) as (S & _).
      eapply wp_sound; [ext_tac | exact S | | |].
      * intros a l dn'. destruct a; cbn [built]; intros E; [|discriminate E].
        injection E as <-. apply wp_ret. apply H1; assumption.
      * intros a. destruct a; cbn [built]; intros E; [discriminate E|].
        apply wp_ret. apply H2. auto.
      * intros a dn' V. destruct a; cbn [built]; intros E; [discriminate E|].
        apply wp_ret. apply H2. intros _ V'. congruence.
Qed.

Lemma types_split : forall id d t r,
  NoDup (map fst t) -> type_find id t = Some d ->
  holds (own_types t) r = holds (own_type id d) r + holds (own_types (type_drop id t)) r.
Proof.
  induction t as [|[i b] t IH]; intros r ND F; [discriminate F|].
  cbn [map fst] in ND. inversion ND as [|? ? NI ND']; subst.
  unfold type_find in F. cbn [find fst] in F. unfold own_types, type_drop.
  cbn [filter flat_map fst snd]. rewrite holds_app. destruct (Nat.eqb i id) eqn:E.
  - apply Nat.eqb_eq in E. subst i. cbn in F. injection F as <-. cbn [negb].
    assert (G : filter (fun p : nat * bool => negb (Nat.eqb (fst p) id)) t = t).
    { clear -NI. induction t as [|[j c] t IH]; [reflexivity|]. cbn in *.
      destruct (Nat.eqb j id) eqn:E; [apply Nat.eqb_eq in E; tauto|]. cbn. f_equal. tauto. }
    rewrite G. reflexivity.
  - cbn [negb flat_map fst snd]. rewrite holds_app.
    specialize (IH r ND' F). unfold own_types, type_drop in IH. rewrite IH. lia.
Qed.

Lemma drop_absent : forall id t, type_find id t = None -> type_drop id t = t.
Proof.
  intros id t F. unfold type_drop. unfold type_find in F.
  destruct (find _ t) as [p|] eqn:FD; [discriminate F|].
  assert (G : forall l, (forall p, In p l -> In p t) ->
            filter (fun p : nat * bool => negb (Nat.eqb (fst p) id)) l = l).
  { induction l as [|q l IH]; intros S; [reflexivity|]. cbn.
    pose proof (find_none _ _ FD q (S q (or_introl eq_refl))) as N. cbn in N. rewrite N. cbn.
    f_equal. apply IH. intros p I. apply S. right. exact I. }
  apply G. auto.
Qed.

Lemma drop_nodup : forall id t, NoDup (map fst t) -> NoDup (map fst (type_drop id t)).
Proof.
  intros id t. unfold type_drop. induction t as [|[i b] t IH]; intros ND; [constructor|].
  cbn in ND. inversion ND as [|? ? NI ND']; subst. cbn. destruct (Nat.eqb i id); cbn; [auto|].
  constructor; [|auto]. intros I. apply NI. apply in_map_iff in I. destruct I as (p & E & I).
  apply filter_In in I. apply in_map_iff. exists p. tauto.
Qed.

Lemma wp_unregister : forall id base t (Q : types -> bag -> bool -> Prop) dn,
  ext Q -> NoDup (map fst t) -> id < type_max ->
  (forall dn', Q (type_drop id t) (plus base (own_types (type_drop id t))) dn') ->
  wp (type_unregister id t) Q (plus base (own_types t)) dn.
Proof.
  intros id base t Q dn X ND L H. unfold type_unregister.
  apply Nat.ltb_lt in L. rewrite L. destruct (type_find id t) as [d|] eqn:F.
  - apply wp_bind. destruct (type_init_sound deny_nothing id true d) as (_ & G).
    eapply wp_gives_back; [ext_tac | exact G | |].
    + intros r. unfold plus. rewrite (types_split _ _ _ r ND F). lia.
    + intros a dn' _. apply wp_ret. eapply X; [|apply (H dn')].
      intros r. unfold plus, minus. rewrite (types_split _ _ _ r ND F). lia.
  - apply wp_ret. specialize (H dn). rewrite (drop_absent _ _ F) in H. exact H.
Qed.

Lemma wp_unregister_all : forall n i base t (Q : types -> bag -> bool -> Prop) dn,
  ext Q -> NoDup (map fst t) -> i + n = type_max -> (forall id, In id (map fst t) -> i <= id < type_max) ->
  (forall dn', Q [] base dn') ->
  wp (types_unregister i n t) Q (plus base (own_types t)) dn.
Proof.
  induction n as [|n IH]; intros i base t Q dn X ND E B H; cbn [types_unregister].
  - destruct t as [|[id b] t].
    + apply wp_ret. eapply X; [|apply (H dn)]. intros r. unfold plus. cbn. lia.
    + specialize (B id (or_introl eq_refl)). lia.
  - apply wp_bind. apply wp_unregister; [ext_tac | exact ND | lia |].
    intros dn'. apply IH; [exact X | apply drop_nodup; exact ND | lia | | exact H].
    intros id I. apply in_map_iff in I. destruct I as ([j b] & J & I). cbn in J. subst j.
    unfold type_drop in I. apply filter_In in I. destruct I as [I N]. cbn in N.
    apply negb_true_iff, Nat.eqb_neq in N.
    assert (BB : i <= id < type_max) by (apply B; apply in_map_iff; exists (id, b); auto). lia.
Qed.

Definition own_ctx (nr nm : nat) (lg : bool) : list res :=
  [r_ctx; r_ctxlock] ++ (if lg then [r_log] else []) ++ own_mpool 0 nr ++ own_mpool 1 nm.

Definition ctx_types : types := [(type_composite, true); (type_cache, false); (type_core, false)].

(** What a failing ocf_ctx_create leaves: nothing, if one of the first two steps fails;
    then always the lock of the context; and the type of core or cache volumes if the
    registration of the types fails. *)
Theorem C67_ctx_create : forall o nr nm lg,
  leaves False (fun r => match r with Some _ => true | None => false end)
    (fun r : option types =>
       match r with
       | Some t => [own_ctx nr nm lg ++ own_types ctx_types]
       | None => [[]; [r_ctxlock]; [r_ctxlock; r_type type_core]; [r_ctxlock; r_type type_cache]]
       end)
    (ctx_create o nr nm lg).
Proof.
  intros o nr nm lg. apply leaves_wp. unfold ctx_create.
  destruct (C67_mpool o 0 nr) as (SR & DR). destruct (C67_mpool o 1 nm) as (SM & DM).
  assert (RDR : forall (Q : unit -> bag -> bool -> Prop) f dn, ext Q ->
     (forall r, holds (own_mpool 0 nr) r <= f r) ->
     (forall dn', (dn = true -> dn' = true) -> Q tt (minus f (own_mpool 0 nr)) dn') ->
     wp (mpool_destroy 0 nr) Q f dn).
  { intros Q f dn X L H. eapply wp_gives_back; [exact X | exact DR | exact L |].
    intros [] dn' D. apply H. exact D. }
  assert (RDM : forall (Q : unit -> bag -> bool -> Prop) f dn, ext Q ->
     (forall r, holds (own_mpool 1 nm) r <= f r) ->
     (forall dn', (dn = true -> dn' = true) -> Q tt (minus f (own_mpool 1 nm)) dn') ->
     wp (mpool_destroy 1 nm) Q f dn).
  { intros Q f dn X L H. eapply wp_gives_back; [exact X | exact DM | exact L |].
    intros [] dn' D. apply H. exact D. }
  Ltac kill RDR RDM :=
    repeat first
      [ step
      | match goal with
        | |- wp (mpool_destroy 0 _) _ _ _ =>
            apply RDR; [ext_tac | bags |
              let dd := fresh "dd" in let D := fresh "D" in
              intros dd D; specialize (D eq_refl); subst dd]
        | |- wp (mpool_destroy 1 _) _ _ _ =>
            apply RDM; [ext_tac | bags |
              let dd := fresh "dd" in let D := fresh "D" in
              intros dd D; specialize (D eq_refl); subst dd]
        end ].
  assert (REST : forall dn, wp (
        b <- mpool_create o 0 nr;;
        (if negb b then rel_if lg r_log;;; rel r_ctx;;; ret None
        else b <- mpool_create o 1 nm;;
          (if negb b then mpool_destroy 0 nr;;; rel_if lg r_log;;; rel r_ctx;;; ret None
          else p <- type_register o type_core true false [];;
            (if negb (fst p)
             then mpool_destroy 1 nm;;; mpool_destroy 0 nr;;; rel_if lg r_log;;; rel r_ctx;;; ret None
             else p <- type_register o type_cache true false (snd p);;
               (if negb (fst p)
                then mpool_destroy 1 nm;;; mpool_destroy 0 nr;;; rel_if lg r_log;;; rel r_ctx;;; ret None
                else p <- type_register o type_composite true true (snd p);;
                  (if negb (fst p)
                   then type_unregister type_core (snd p);;; mpool_destroy 1 nm;;; mpool_destroy 0 nr;;;
                        rel_if lg r_log;;; rel r_ctx;;; ret None
                   else ret (Some (snd p))))))))
     (fun a g dn => (exists l, In l (match a with
       | Some t => [own_ctx nr nm lg ++ own_types ctx_types]
       | None => [[]; [r_ctxlock]; [r_ctxlock; r_type type_core]; [r_ctxlock; r_type type_cache]]
       end) /\ same g (holds l)) /\
       (match a with Some _ => true | None => false end = false -> dn = true \/ False))
     (plus (plus (plus nothing [r_ctx]) [r_ctxlock]) (if lg then [r_log] else [])) dn).
  { intros dn. apply wp_bind. by_sound SR; [| destruct lg; kill RDR RDM; outs].
    cbn [negb]. apply wp_bind. by_sound SM; [| destruct lg; kill RDR RDM; outs].
    cbn [negb]. apply wp_bind. apply wp_register; [ext_tac | |].
    2:{ intros dd D. specialize (D ltac:(unfold type_max, type_core; lia) eq_refl ltac:(cbn; auto)).
        subst dd. destruct lg; kill RDR RDM; outs. }
    intros _ _ d1. cbn [fst snd negb]. apply wp_bind. apply wp_register; [ext_tac | |].
    2:{ intros dd D. specialize (D ltac:(unfold type_max, type_cache; lia) eq_refl
          ltac:(cbn; unfold type_core, type_cache; lia)).
        subst dd. unfold own_type. destruct lg; kill RDR RDM; outs. }
    intros _ _ d2. cbn [fst snd negb]. apply wp_bind. apply wp_register; [ext_tac | |].
    2:{ intros dd D. specialize (D ltac:(unfold type_max, type_composite; lia) eq_refl
          ltac:(cbn; unfold type_core, type_cache, type_composite; lia)).
        subst dd. cbn [fst snd negb].
        change (type_unregister type_core [(type_cache, false); (type_core, false)])
          with (type_deinit type_core false ;;; ret [(type_cache, false)]).
        unfold type_deinit, own_type. destruct lg; kill RDR RDM; outs. }
    intros _ _ d3. cbn [fst snd negb]. apply wp_ret.
    split; [|intros F; discriminate F]. eexists. split; [left; reflexivity|].
    unfold own_ctx, own_types, ctx_types, own_type. cbn [flat_map fst snd app].
    destruct lg; bags. }
  apply wp_bind. apply wp_acq; [ext_tac | | intros _; kill RDR RDM; outs].
  cbn [negb]. apply wp_bind. apply wp_acq; [ext_tac | | intros _; kill RDR RDM; outs].
  cbn [negb]. apply wp_bind. destruct lg.
  - apply wp_acq; [ext_tac | | intros _; kill RDR RDM; outs]. apply REST.
  - apply wp_ret. cbn [negb].
    apply (wp_same _ _ _ (plus (plus (plus nothing [r_ctx]) [r_ctxlock]) [])); [ext_tac | bags |].
    apply REST.
Qed.

Lemma ctx_left : forall r0 l0,
  fst (ctx_create (deny r0) 8 8 true []) = None ->
  In l0 [[]; [r_ctxlock]; [r_ctxlock; r_type type_core]; [r_ctxlock; r_type type_cache]] ->
  (forall l, In l [[]; [r_ctxlock]; [r_ctxlock; r_type type_core]; [r_ctxlock; r_type type_cache]] ->
     holds l r_ctxlock = left_over (snd (ctx_create (deny r0) 8 8 true [])) r_ctxlock ->
     holds l (r_type type_core) = left_over (snd (ctx_create (deny r0) 8 8 true [])) (r_type type_core) ->
     holds l (r_type type_cache) = left_over (snd (ctx_create (deny r0) 8 8 true [])) (r_type type_cache) ->
     l = l0) ->
  takes (snd (ctx_create (deny r0) 8 8 true [])) nothing (holds l0).
Proof.
  intros r0 l0 F I0 U.
  destruct (C67_ctx_create (deny r0) 8 8 true []) as (d & l & E & I & T & _).
  rewrite F in I. rewrite E in *. cbn [app] in *.
  rewrite (U l I) in T; [exact T | | |]; symmetry; apply takes_at; exact T.
Qed.

(** One denied request each: the lock stays, the type of core volumes stays, the type of
    cache volumes stays. *)
Theorem C67_ctx_create_refuted :
  (fst (ctx_create (deny (r_malloc 1 3)) 8 8 true []) = None /\
   takes (snd (ctx_create (deny (r_malloc 1 3)) 8 8 true [])) nothing (holds [r_ctxlock])) /\
  (fst (ctx_create (deny (r_type type_cache)) 8 8 true []) = None /\
   takes (snd (ctx_create (deny (r_type type_cache)) 8 8 true [])) nothing
     (holds [r_ctxlock; r_type type_core])) /\
  (fst (ctx_create (deny (r_talloc type_composite)) 8 8 true []) = None /\
   takes (snd (ctx_create (deny (r_talloc type_composite)) 8 8 true [])) nothing
     (holds [r_ctxlock; r_type type_cache])).
Proof.
  Ltac one :=
    let F := fresh "F" in
    match goal with |- fst ?x = None /\ _ =>
      assert (F : fst x = None) by (vm_compute; reflexivity) end;
    split; [exact F|]; apply ctx_left; [exact F | cbn; auto |];
    let I := fresh "I" in
    let l := fresh "l" in
    intros l I; cbn in I;
    repeat (destruct I as [I | I]; [subst l; vm_compute; intros; first [reflexivity | congruence | lia]|]);
    destruct I.
  split; [|split]; one.
Qed.

(** Create a context, register and unregister volume types as you like, drop it: nothing
    is left. *)
Inductive type_op := OReg (id : nat) (valid : bool) | OUnreg (id : nat).

Definition do_op (o : oracle) (x : type_op) (t : types) : M types :=
  match x with
  | OReg id valid => p <- type_register_user o id valid t ;; ret (snd p)
  | OUnreg id => type_unregister id t
  end.

Fixpoint do_ops (o : oracle) (l : list type_op) (t : types) : M types :=
  match l with
  | [] => ret t
  | x :: l => t' <- do_op o x t ;; do_ops o l t'
  end.

Definition types_ok (t : types) : Prop :=
  NoDup (map fst t) /\ forall id, In id (map fst t) -> id < type_max.

Lemma drop_ok : forall id t, types_ok t -> types_ok (type_drop id t).
Proof.
  intros id t [ND B]. split; [apply drop_nodup; exact ND|].
  intros j I. apply B. apply in_map_iff in I. destruct I as (p & E & I).
  unfold type_drop in I. apply filter_In in I. apply in_map_iff. exists p. tauto.
Qed.

Lemma wp_do_ops : forall o l base t (Q : types -> bag -> bool -> Prop) dn,
  ext Q -> types_ok t ->
  (forall t' dn', types_ok t' -> Q t' (plus base (own_types t')) dn') ->
  wp (do_ops o l t) Q (plus base (own_types t)) dn.
Proof.
  induction l as [|x l IH]; intros base t Q dn X OK H; cbn [do_ops].
  - apply wp_ret. apply H. exact OK.
  - apply wp_bind. destruct x as [id valid | id]; cbn [do_op].
    + apply wp_bind. unfold type_register_user. destruct (type_max_user <=? id).
      * apply wp_ret. apply wp_ret. apply IH; assumption.
      * apply wp_register; [ext_tac | |].
        -- intros L N dn'. apply wp_ret. cbn [snd].
           apply (wp_same _ _ _ (plus base (own_types ((id, true) :: t)))); [exact X | |].
           ++ intros r. unfold plus, own_types. cbn [flat_map fst snd]. rewrite holds_app. lia.
           ++ apply IH; [exact X | | exact H]. destruct OK as [ND B]. split.
              ** cbn. constructor; assumption.
              ** cbn. intros j [J | J]; [subst j; exact L | apply B; exact J].
        -- intros dn' _. apply wp_ret. cbn [snd]. apply IH; assumption.
    + destruct (id <? type_max) eqn:L.
      * apply Nat.ltb_lt in L. apply wp_unregister; [ext_tac | apply OK | exact L |].
        intros dn'. apply IH; [exact X | apply drop_ok; exact OK | exact H].
      * unfold type_unregister. rewrite L. apply wp_ret. apply IH; assumption.
Qed.

Lemma wp_ctx_put : forall nr nm lg base t (Q : unit -> bag -> bool -> Prop) dn,
  ext Q -> types_ok t ->
  (forall dn', Q tt base dn') ->
  wp (ctx_put nr nm lg t) Q (plus (plus base (own_ctx nr nm lg)) (own_types t)) dn.
Proof.
  intros nr nm lg base t Q dn X [ND B] H. unfold ctx_put. apply wp_bind.
  apply wp_unregister_all; [ext_tac | exact ND | reflexivity | |].
  { intros id I. specialize (B id I). lia. }
  intros dn'. unfold own_ctx.
  destruct (C67_mpool deny_nothing 0 nr) as (_ & DR).
  destruct (C67_mpool deny_nothing 1 nm) as (_ & DM).
  apply wp_bind. apply wp_rel; [ext_tac | bags |].
  apply wp_bind. eapply wp_gives_back; [ext_tac | exact DM | |].
  { destruct lg; bags. }
  intros _ d1 _. apply wp_bind. eapply wp_gives_back; [ext_tac | exact DR | |].
  { destruct lg; bags. }
  intros _ d2 _. apply wp_bind. destruct lg.
  - run. eapply X; [|apply H]. bags.
  - run. eapply X; [|apply H]. bags.
Qed.

Theorem C67_ctx_life : forall o nr nm lg ops t,
  fst (ctx_create o nr nm lg []) = Some t ->
  t = ctx_types /\
  gives_back (t' <- do_ops o ops t ;; ctx_put nr nm lg t')
    (own_ctx nr nm lg ++ own_types ctx_types).
Proof.
  intros o nr nm lg ops t F.
  assert (E : t = ctx_types).
  { destruct (fst (ctx_create o nr nm lg [])) eqn:G; [|discriminate F]. injection F as ->.
    revert G. unfold ctx_create, bind.
    destruct (acq o r_ctx []) as [b1 t1]. destruct b1; cbn [negb]; [|intros G; discriminate G].
    destruct (acq o r_ctxlock t1) as [b2 t2].
    destruct b2; cbn [negb]; [|destruct (rel r_ctx t2); intros G; discriminate G].
    destruct ((if lg then acq o r_log else ret true) t2) as [b3 t3].
    destruct b3; cbn [negb]; [|destruct (rel r_ctx t3); intros G; discriminate G].
    destruct (mpool_create o 0 nr t3) as [b4 t4].
    destruct b4; cbn [negb];
      [|destruct (rel_if lg r_log t4) as [? ?]; match goal with |- context [rel r_ctx ?x] => destruct (rel r_ctx x) end;
        intros G; discriminate G].
    destruct (mpool_create o 1 nm t4) as [b5 t5].
    destruct b5; cbn [negb];
      [|destruct (mpool_destroy 0 nr t5) as [? x5]; destruct (rel_if lg r_log x5) as [? y5];
        destruct (rel r_ctx y5); intros G; discriminate G].
    assert (RG : forall id v d tt tr, fst (type_register o id v d tt tr) = (true, (id, d) :: tt) \/
                                      fst (type_register o id v d tt tr) = (false, tt)).
    { intros id v d tt tr. unfold type_register.
      destruct (_ || _); [right; reflexivity|]. unfold bind.
      destruct (type_init o id v d tr) as [[] ?]; [left | right]; reflexivity. }
    pose proof (RG type_core true false [] t5) as R1.
    destruct (type_register o type_core true false [] t5) as [p6 t6]. cbn [fst] in R1.
    destruct R1 as [-> | ->]; cbn [fst snd negb].
    2:{ destruct (mpool_destroy 1 nm t6) as [? a]; destruct (mpool_destroy 0 nr a) as [? b];
        destruct (rel_if lg r_log b) as [? c]; destruct (rel r_ctx c); intros G; discriminate G. }
    pose proof (RG type_cache true false [(type_core, false)] t6) as R2.
    destruct (type_register o type_cache true false _ t6) as [p7 t7]. cbn [fst] in R2.
    destruct R2 as [-> | ->]; cbn [fst snd negb].
    2:{ destruct (mpool_destroy 1 nm t7) as [? a]; destruct (mpool_destroy 0 nr a) as [? b];
        destruct (rel_if lg r_log b) as [? c]; destruct (rel r_ctx c); intros G; discriminate G. }
    pose proof (RG type_composite true true [(type_cache, false); (type_core, false)] t7) as R3.
    destruct (type_register o type_composite true true _ t7) as [p8 t8]. cbn [fst] in R3.
    destruct R3 as [-> | ->]; cbn [fst snd negb].
    2:{ destruct (type_unregister type_core _ t8) as [? z];
        destruct (mpool_destroy 1 nm z) as [? a]; destruct (mpool_destroy 0 nr a) as [? b];
        destruct (rel_if lg r_log b) as [? c]; destruct (rel r_ctx c); intros G; discriminate G. }
    intros G. cbn in G. injection G as <-. reflexivity. }
  split; [exact E|]. subst t. apply gives_back_wp. apply wp_bind.
  apply (wp_same _ _ _ (plus (plus nothing (own_ctx nr nm lg)) (own_types ctx_types)));
    [ext_tac | bags |].
  apply wp_do_ops; [ext_tac | |].
  - split.
    + cbn. repeat constructor; cbn; unfold type_composite, type_cache, type_core; lia.
    + cbn. unfold type_composite, type_cache, type_core, type_max. lia.
  - intros t' dn' OK. apply wp_ctx_put; [ext_tac | exact OK |]. intros dd. bags.
Qed.

(** ** Queues *)

Definition own_queue (mngt : bool) : list res :=
  [r_cacheref; r_queue; r_qlock] ++ (if mngt then [] else [r_seq; r_seqlock]).

(** A failing ocf_queue_create leaves at most the spin lock of the queue. *)
Theorem C67_queue : forall o has,
  leaves False (fun b => b) (fun b : bool => if b then [own_queue false] else [[]; [r_qlock]])
    (queue_create o) /\
  sound (has = true) (built (own_queue true)) (queue_create_mngt o has) /\
  forall mngt, gives_back (queue_put mngt) (own_queue mngt).
Proof.
  intros o has. split; [|split].
  - apply leaves_wp. unfold queue_create, queue_alloc, qseq_init, own_queue. run; outs.
  - apply sound_wp. unfold queue_create_mngt, queue_alloc, own_queue. destruct has; run; post.
  - intros mngt. apply gives_back_wp. unfold queue_put, own_queue. destruct mngt; run; bags.
Qed.

Theorem C67_queue_refuted : exists o,
  fst (queue_create o []) = false /\
  takes (snd (queue_create o [])) nothing (holds [r_qlock]).
Proof.
  exists (deny r_seq).
  assert (F : fst (queue_create (deny r_seq) []) = false) by (vm_compute; reflexivity).
  split; [exact F|].
  destruct (C67_queue (deny r_seq) false) as (L & _).
  destruct (L []) as (d & l & E & I & T & _). rewrite E. cbn [app] in *.
  rewrite F in I. destruct I as [I | [I | []]]; subst l; [|exact T]. exfalso.
  apply (takes_not d r_qlock 1) in T; [exact T | | lia].
  rewrite <- E. vm_compute. reflexivity.
Qed.

(** ** Requests *)

(** The resources behind a request with the given fields. *)
Definition own_req (q : req) : list res :=
  r_qref ::
  (if q_d2c q then [r_d2c] else if q_mngt q && negb (q_cleaner q) then [] else [r_meta]) ++
  (if q_mngt q then [r_reqmem]
   else r_item (q_alloc q) :: match q_map q with MHeap => [r_map] | _ => [] end).

Definition own_some (r : option req) : option (list res) := option_map own_req r.

(** Dropping the last reference gives back everything, dropping another one nothing. *)
Theorem C67_req_put : forall q,
  (q_refs q <= 1 -> gives_back (req_put q) (own_req q) /\ forall tr, fst (req_put q tr) = None) /\
  (2 <= q_refs q -> forall tr, exists q', req_put q tr = (Some q', tr) /\
     own_req q' = own_req q /\ q_refs q' = q_refs q - 1).
Proof.
  intros q. split.
  - intros L. assert (E : 2 <=? q_refs q = false) by (apply Nat.leb_gt; lia). split.
    + apply gives_back_wp. unfold req_put, own_req. rewrite E.
      destruct (q_d2c q), (q_mngt q), (q_cleaner q), (q_map q); cbn [negb orb andb]; run; bags.
    + intros tr. unfold req_put. rewrite E. unfold bind.
      destruct (_ tr) as [? a]. destruct (_ a) as [? b]. destruct (rel r_qref b). reflexivity.
  - intros L tr. unfold req_put. assert (E : 2 <=? q_refs q = true) by (apply Nat.leb_le; lia).
    rewrite E. eexists. split; [reflexivity|]. split; reflexivity.
Qed.

Lemma wp_req_put : forall q (Q : option req -> bag -> bool -> Prop) f dn,
  ext Q -> q_refs q <= 1 -> (forall r, holds (own_req q) r <= f r) ->
  (forall dn', (dn = true -> dn' = true) -> Q None (minus f (own_req q)) dn') ->
  wp (req_put q) Q f dn.
Proof.
  intros q Q f dn X L B H. destruct (C67_req_put q) as (P & _). destruct (P L) as (G & N).
  intros tr. destruct (wp_gives_back _ _ _ (fun a g d => a = fst (req_put q tr) -> Q a g d)
    f dn ltac:(intros a f1 g1 d1 E1 W1 A1; eapply X; [exact E1 | exact (W1 A1)]) G B
    ltac:(intros a d1 D A; rewrite A, (N tr); apply H; exact D) tr)
    as (d & f' & dn' & E & P' & QQ).
  exists d, f', dn'. split; [exact E|]. split; [exact P'|]. apply QQ. reflexivity.
Qed.

Lemma wp_sound_req : forall (c : M (option req)) (Q : option req -> bag -> bool -> Prop) f dn,
  ext Q ->
  sound False own_some c ->
  (forall q dn', Q (Some q) (plus f (own_req q)) dn') -> Q None f true ->
  wp c Q f dn.
Proof.
  intros c Q f dn X S H1 H2. eapply wp_sound; [exact X | exact S | | |].
  - intros [q|] l dn' E; [|discriminate E]. injection E as <-. apply H1.
  - intros [q|] E; [discriminate E | exact H2].
  - intros a dn' [].
Qed.

Ltac post_req :=
  unfold own_some, own_req; cbn [option_map q_d2c q_mngt q_cleaner q_alloc q_map andb negb]; post.

(** The constructors that clean up after themselves. *)
Theorem C67_req_new_mngt : forall o, sound False own_some (req_new_mngt o).
Proof. intros o. apply sound_wp. unfold req_new_mngt. run; post_req. Qed.

Theorem C67_req_new_cache : forall o lines, sound False own_some (req_new_cache o false lines).
Proof. intros o lines. apply sound_wp. unfold req_new_cache, pool_two. run; post_req. Qed.

(** ocf_req_new, as long as one of the two reference counters accepts: at most the
    reference on the d2c counter stays behind. *)
Theorem C67_req_new : forall o lines,
  (forall tr, o tr r_d2c = false) ->
  leaves False (fun r => match r with Some _ => true | None => false end)
    (fun r => match r with Some q => [own_req q] | None => [[]; [r_d2c]] end)
    (req_new o false lines).
Proof.
  intros o lines ND. apply leaves_wp. unfold req_new, pool_two. run.
  all: unfold own_req; cbn [q_d2c q_mngt q_cleaner q_alloc q_map andb negb].
  all: try outs.
  exfalso. match goal with H : exists tr, o tr r_d2c = true |- _ =>
    destruct H as (t & H); rewrite ND in H; discriminate H end.
Qed.

Theorem C67_req_new_refuted :
  (exists o, (forall tr, o tr r_d2c = false) /\ fst (req_new o false 4 []) = None /\
     takes (snd (req_new o false 4 [])) nothing (holds [r_d2c])) /\
  (exists o, forall g, ~ takes (snd (req_new o false 4 [])) nothing g).
Proof.
  split.
  - set (o := (fun _ r => if res_eq r_d2c r then false else if res_eq r_qref r then false else true) : oracle).
    assert (ND : forall tr, o tr r_d2c = false) by (intros tr; unfold o; destruct (res_eq r_d2c r_d2c); congruence).
    assert (F : fst (req_new o false 4 []) = None) by (vm_compute; reflexivity).
    exists o. split; [exact ND|]. split; [exact F|].
    destruct (C67_req_new o 4 ND []) as (d & l & E & I & T & _). rewrite E. cbn [app] in *.
    rewrite F in I. destruct I as [I | [I | []]]; subst l; [|exact T]. exfalso.
    apply (takes_not d r_d2c 1) in T; [exact T | | lia].
    rewrite <- E. vm_compute. reflexivity.
  - exists (fun _ _ => true). intros g (f & dn & P & _). vm_compute in P. discriminate P.
Qed.

Lemma wp_alloc_map : forall o q (Q : bool * req -> bag -> bool -> Prop) base dn,
  ext Q -> (q_map q = MNone -> 1 <= q_lines q /\ q_mngt q = false) ->
  (forall q' dn', q_refs q' = q_refs q -> q_d2c q' = q_d2c q -> q_map q' <> MNone ->
     Q (true, q') (plus base (own_req q')) dn') ->
  (q_map q = MNone -> Q (false, q) (plus base (own_req q)) true) ->
  wp (alloc_map o q) Q (plus base (own_req q)) dn.
Proof.
  intros o q Q base dn X M H1 H2. unfold alloc_map. destruct (q_map q) eqn:E.
  - destruct (M eq_refl) as (L & NM). replace (Nat.eqb (q_lines q) 0) with false
      by (symmetry; apply Nat.eqb_neq; lia).
    apply wp_bind. apply wp_acq; [ext_tac | |].
    + apply wp_ret. eapply X; [|apply (H1 _ dn); [reflexivity | reflexivity | discriminate]].
      intros r. unfold plus, own_req. cbn [q_d2c q_mngt q_cleaner q_alloc q_map]. rewrite E, NM.
      split_holds. lia.
    + intros _. apply wp_ret. apply H2. reflexivity.
  - apply wp_ret. apply H1; [reflexivity | reflexivity | congruence].
  - apply wp_ret. apply H1; [reflexivity | reflexivity | congruence].
Qed.

Lemma own_get : forall q, own_req (req_get q) = own_req q.
Proof. reflexivity. Qed.

Theorem C67_req_new_cleaner : forall o mq count, 1 <= count ->
  sound False own_some (req_new_cleaner o mq count) /\
  forall tr q, fst (req_new_cleaner o mq count tr) = Some q -> q_lines q = count /\ q_refs q = 1.
Proof.
  intros o mq count C. split.
  - apply sound_wp. unfold req_new_cleaner, pool_two.
    assert (Z : Nat.eqb count 0 = false) by (apply Nat.eqb_neq; lia).
    set (q0 := fun room : bool => {| q_d2c := false; q_mngt := mq; q_cleaner := true;
                          q_alloc := if room then count else 1; q_lines := count;
                          q_map := if room then MInline else MNone; q_refs := 1 |}).
    assert (REST : forall room f dn,
      mq && negb room = false -> same f (holds (own_req (q0 room))) ->
      wp (a <- alloc_map o (q0 room) ;;
          if fst a then ret (Some (snd a)) else req_put (snd a) ;;; ret None)
         (fun a g dn => match own_some a with
                        | Some l => same g (holds l)
                        | None => same g nothing /\ (dn = true \/ False)
                        end) f dn).
    { intros room f dn MR SF.
      apply (wp_same _ _ _ (plus nothing (own_req (q0 room)))); [ext_tac | |].
      { intros r. unfold plus. rewrite (SF r). reflexivity. }
      apply wp_bind. apply wp_alloc_map; [ext_tac | | |].
      - intros MN. unfold q0 in *. cbn in MN |- *. destruct room; [discriminate MN|].
        destruct mq; [discriminate MR|]. auto.
      - intros q' dn' _ _ _. cbn [fst snd]. apply wp_ret. cbn [own_some option_map]. bags.
      - intros _. cbn [fst snd]. apply wp_bind. apply wp_req_put; [ext_tac | cbn; lia | bags |].
        intros dd D. specialize (D eq_refl). subst dd. apply wp_ret. post. }
    apply wp_bind. apply wp_acq; [ext_tac | | intros _; run; post].
    cbn [negb]. apply wp_bind. destruct mq.
    + rewrite Z. apply wp_bind. apply wp_ret. apply wp_bind.
      apply wp_acq; [ext_tac | | intros _; run; post].
      apply wp_ret. apply wp_bind. apply wp_take; [ext_tac|].
      apply (REST true); [reflexivity|]. unfold own_req, q0. cbn [q_d2c q_mngt q_cleaner andb negb]. bags.
    + apply wp_bind. apply wp_acq; [ext_tac | |].
      * apply wp_ret. apply wp_bind. apply wp_take; [ext_tac|].
        apply (REST true); [reflexivity|]. unfold own_req, q0.
        cbn [q_d2c q_mngt q_cleaner q_map q_alloc andb negb]. bags.
      * intros _. apply wp_bind. apply wp_acq; [ext_tac | | intros _; run; post].
        apply wp_ret. apply wp_bind. apply wp_take; [ext_tac|].
        apply (REST false); [reflexivity|]. unfold own_req, q0.
        cbn [q_d2c q_mngt q_cleaner q_map q_alloc andb negb]. bags.
  - intros tr q. unfold req_new_cleaner, bind.
    destruct (acq o r_meta tr) as [b1 t1]. destruct b1; cbn [negb]; [|intros F; discriminate F].
    destruct (_ t1) as [p t2]. destruct p as [[n room]|]; [|destruct (rel r_meta t2); intros F; discriminate F].
    destruct (take r_qref t2) as [? t3].
    assert (AM : forall q0 t, q_lines (snd (fst (alloc_map o q0 t))) = q_lines q0 /\
                              q_refs (snd (fst (alloc_map o q0 t))) = q_refs q0).
    { intros q0 t. unfold alloc_map. destruct (q_map q0); [|split; reflexivity..].
      destruct (Nat.eqb (q_lines q0) 0); [split; reflexivity|]. unfold bind.
      destruct (acq o r_map t) as [[] ?]; split; reflexivity. }
    match goal with |- context [alloc_map o ?x t3] => specialize (AM x t3);
      destruct (alloc_map o x t3) as [[ok q1] t4] end.
    cbn [fst snd q_lines q_refs] in AM |- *. destruct ok.
    + intros F. injection F as <-. exact AM.
    + destruct (req_put q1 t4) as [? ?]. intros F; discriminate F.
Qed.

(** ** Life of an I/O *)

(** A user allocates an I/O on a core, submits it with [submit] and puts it when it has
    completed; if the request was handed to an engine, the engine drops its reference
    before or after that ([first]). *)
Definition put_opt (q : option req) : M unit :=
  match q with Some q => req_put q ;;; ret tt | None => emit Crash end.

Definition io_life (o : oracle) (submit : req -> M (bool * req)) (lines : nat) (first : bool)
  : M unit :=
  q <- io_new o true lines ;;
  match q with
  | None => ret tt
  | Some q =>
      p <- submit q ;;
      if fst p then
        if first then
          q' <- req_put (snd p) ;;
          match q' with Some q' => io_put q' ;;; ret tt | None => emit Crash end
        else
          q' <- io_put (snd p) ;; put_opt q'
      else io_put (snd p) ;;; ret tt
  end.

(** The requests ocf_req_new returns. *)
Definition new_req (d2c room : bool) (lines : nat) : req :=
  if d2c then {| q_d2c := true; q_mngt := false; q_cleaner := false; q_alloc := 1;
                 q_lines := 0; q_map := MNone; q_refs := 1 |}
  else {| q_d2c := false; q_mngt := false; q_cleaner := false;
          q_alloc := if room then lines else 1; q_lines := lines;
          q_map := if room then MInline else MNone; q_refs := 1 |}.

Lemma wp_io_new : forall o lines (Q : option req -> bag -> bool -> Prop) f dn,
  ext Q -> (forall tr, o tr r_d2c = false) ->
  (forall d2c room dn', Q (Some (new_req d2c room lines))
     (plus (plus f [r_volref]) (own_req (new_req d2c room lines))) dn') ->
  Q None f true -> Q None (plus f [r_d2c]) true ->
  wp (io_new o true lines) Q f dn.
Proof.
  intros o lines Q f dn X ND H1 H2 H3. unfold io_new, req_new, pool_two. run.
  - eapply X; [|apply (H1 false true)]. unfold own_req, new_req.
    cbn [q_d2c q_mngt q_cleaner q_alloc q_map andb negb]. bags.
  - eapply X; [|apply (H1 false false)]. unfold own_req, new_req.
    cbn [q_d2c q_mngt q_cleaner q_alloc q_map andb negb]. bags.
  - eapply X; [|exact H2]. bags.
  - eapply X; [|apply (H1 true true)]. unfold own_req, new_req.
    cbn [q_d2c q_mngt q_cleaner q_alloc q_map andb negb]. bags.
  - eapply X; [|exact H3]. bags.
  - exfalso. destruct DN0 as (t & D). rewrite ND in D. discriminate D.
  - eapply X; [|exact H2]. bags.
Qed.

Lemma wp_get_put : forall q (Q : option req -> bag -> bool -> Prop) f dn,
  2 <= q_refs q ->
  (forall q', own_req q' = own_req q -> q_refs q' = q_refs q - 1 -> Q (Some q') f dn) ->
  wp (req_put q) Q f dn.
Proof.
  intros q Q f dn L H tr. destruct (C67_req_put q) as (_ & P).
  destruct (P L tr) as (q' & E & O & R). rewrite E. exists [], f, dn. cbn.
  rewrite app_nil_r. split; [reflexivity|]. split; [reflexivity|]. apply H; assumption.
Qed.

(** Both orders of the two puts give everything back. *)
Lemma wp_two_puts : forall q (first : bool) (Q : unit -> bag -> bool -> Prop) f dn,
  ext Q -> q_refs q = 2 ->
  (forall r, holds (r_volref :: own_req q) r <= f r) ->
  (forall dn', Q tt (minus f (r_volref :: own_req q)) dn') ->
  wp (if first then
        q' <- req_put q ;;
        match q' with Some q' => io_put q' ;;; ret tt | None => emit Crash end
      else q' <- io_put q ;; put_opt q') Q f dn.
Proof.
  intros q first Q f dn X R B H. destruct first.
  - apply wp_bind. apply wp_get_put; [lia|]. intros q' O R'. unfold io_put.
    apply wp_bind. apply wp_bind. apply wp_req_put; [ext_tac | lia | |].
    + intros r. specialize (B r). rewrite holds_cons in B. rewrite O. lia.
    + intros d1 _. rewrite O. apply wp_bind. apply wp_rel; [ext_tac | |].
      * specialize (B r_volref). rewrite holds_cons, holds_self in B. unfold minus. lia.
      * run. eapply X; [|apply (H d1)]. intros r. unfold minus. rewrite (holds_cons r_volref). lia.
  - apply wp_bind. unfold io_put. apply wp_bind. apply wp_get_put; [lia|]. intros q' O R'.
    apply wp_bind. apply wp_rel; [ext_tac | |].
    + specialize (B r_volref). rewrite holds_cons, holds_self in B. lia.
    + apply wp_ret. cbn [put_opt]. apply wp_bind. apply wp_req_put; [ext_tac | lia | |].
      * intros r. specialize (B r). rewrite holds_cons in B. rewrite O. unfold minus. lia.
      * intros d1 _. run. rewrite O. eapply X; [|apply (H d1)]. intros r. unfold minus.
        rewrite (holds_cons r_volref). lia.
Qed.

Lemma wp_last_put : forall q (Q : unit -> bag -> bool -> Prop) f dn,
  ext Q -> q_refs q = 1 ->
  (forall r, holds (r_volref :: own_req q) r <= f r) ->
  (forall dn', Q tt (minus f (r_volref :: own_req q)) dn') ->
  wp (io_put q ;;; ret tt) Q f dn.
Proof.
  intros q Q f dn X R B H. unfold io_put.
  apply wp_bind. apply wp_bind. apply wp_req_put; [ext_tac | lia | |].
  + intros r. specialize (B r). rewrite holds_cons in B. lia.
  + intros d1 _. apply wp_bind. apply wp_rel; [ext_tac | |].
    * specialize (B r_volref). rewrite holds_cons, holds_self in B. unfold minus. lia.
    * run. eapply X; [|apply (H d1)]. intros r. unfold minus. rewrite (holds_cons r_volref). lia.
Qed.

Lemma new_req_ok : forall d2c room lines, 1 <= lines ->
  q_d2c (new_req d2c room lines) = d2c /\ q_refs (new_req d2c room lines) = 1 /\
  q_mngt (new_req d2c room lines) = false /\
  (d2c = false -> 1 <= q_lines (new_req d2c room lines)).
Proof. intros [] [] lines L; cbn; repeat split; auto; intros F; discriminate F. Qed.

(** After the life of a read or write nothing is left, but for the d2c reference of an
    I/O that could not be allocated. *)
Theorem C67_io_life : forall o checks lines first,
  (forall tr, o tr r_d2c = false) -> 1 <= lines ->
  leaves True (fun _ => true) (fun _ : unit => [[]; [r_d2c]])
    (io_life o (submit_io o checks) lines first).
Proof.
  intros o checks lines first ND L. apply leaves_wp. unfold io_life. apply wp_bind.
  apply wp_io_new; [ext_tac | exact ND | | run; outs | run; outs].
  intros d2c room dn. destruct (new_req_ok d2c room lines L) as (D & R & NM & NL).
  set (q := new_req d2c room lines) in *. clearbody q.
  apply wp_bind. unfold submit_io. destruct checks; cbn [negb].
  - change (q_d2c (req_get q)) with (q_d2c q). destruct d2c; rewrite D.
    + apply wp_ret. cbn [fst snd].
      apply wp_two_puts; [ext_tac | cbn; lia | rewrite own_get; bags |].
      intros dn'. rewrite own_get. outs.
    + apply wp_bind. rewrite <- own_get. apply wp_alloc_map; [ext_tac | | |].
      * intros _. cbn. auto.
      * intros q' dn' R' _ _. cbn [fst snd]. apply wp_ret. cbn [fst snd].
        apply wp_two_puts; [ext_tac | rewrite R'; cbn; lia | bags |]. intros dd. outs.
      * intros _. cbn [fst snd]. apply wp_bind. apply wp_get_put; [cbn; lia|].
        intros q' O R'. apply wp_ret. cbn [fst snd].
        apply wp_last_put; [ext_tac | rewrite R'; cbn; lia | rewrite O; bags |].
        intros dd. rewrite O. outs.
  - apply wp_ret. cbn [fst snd]. apply wp_last_put; [ext_tac | exact R | bags |].
    intros dd. outs.
Qed.

(** A discard whose map cannot be allocated is never freed; with the map everything is
    given back. *)
Theorem C67_discard_life : forall o checks lines first,
  (forall tr, o tr r_d2c = false) -> (forall tr, o tr r_map = false) -> 1 <= lines ->
  leaves True (fun _ => true) (fun _ : unit => [[]; [r_d2c]])
    (io_life o (submit_discard o checks) lines first).
Proof.
  intros o checks lines first ND NMAP L. apply leaves_wp. unfold io_life. apply wp_bind.
  apply wp_io_new; [ext_tac | exact ND | | run; outs | run; outs].
  intros d2c room dn. destruct (new_req_ok d2c room lines L) as (D & R & NM & NL).
  set (q := new_req d2c room lines) in *. clearbody q.
  apply wp_bind. unfold submit_discard. destruct checks; cbn [negb].
  - change (q_d2c (req_get q)) with (q_d2c q). destruct d2c; rewrite D.
    + apply wp_ret. cbn [fst snd].
      apply wp_two_puts; [ext_tac | cbn; lia | rewrite own_get; bags |].
      intros dn'. rewrite own_get. outs.
    + rewrite <- own_get. set (q1 := req_get q). unfold alloc_map.
      assert (R1 : q_refs q1 = 2) by (cbn; lia).
      assert (N1 : q_mngt q1 = false) by exact NM.
      assert (D1 : q_d2c q1 = false) by exact D.
      replace (Nat.eqb (q_lines q1) 0) with false
        by (symmetry; apply Nat.eqb_neq; cbn; specialize (NL eq_refl); lia).
      destruct (q_map q1) eqn:M.
      * apply wp_bind. apply wp_acq; [ext_tac | |].
        2:{ intros (t & F). rewrite NMAP in F. discriminate F. }
        apply wp_ret. cbn [fst snd].
        apply wp_two_puts; [ext_tac | exact R1 | |].
        -- unfold own_req. cbn [q_d2c q_mngt q_cleaner q_alloc q_map].
           rewrite M, D1, N1. cbn [andb]. bags.
        -- intros dd. unfold own_req. cbn [q_d2c q_mngt q_cleaner q_alloc q_map].
           rewrite M, D1, N1. cbn [andb]. outs.
      * apply wp_ret. cbn [fst snd]. apply wp_two_puts; [ext_tac | exact R1 | bags |].
        intros dd. outs.
      * apply wp_ret. cbn [fst snd]. apply wp_two_puts; [ext_tac | exact R1 | bags |].
        intros dd. outs.
  - apply wp_ret. cbn [fst snd]. apply wp_last_put; [ext_tac | exact R | bags |].
    intros dd. outs.
Qed.

(** A pool without room for the map, and no memory for it: the request, its reference on
    the queue and its reference on the metadata stay for ever, and the cache can no longer
    be detached. *)
Definition no_map : oracle :=
  fun _ r => if res_eq (r_item 40) r then true else if res_eq r_map r then true else false.

Theorem C67_discard_life_refuted :
  let d := snd (io_life no_map (submit_discard no_map true) 40 true []) in
  left_over d r_meta = 1 /\ left_over d r_qref = 1 /\ left_over d (r_item 1) = 1 /\
  left_over d r_volref = 0 /\
  forall g, takes d nothing g -> ~ same g nothing.
Proof.
  intros d. assert (M : left_over d r_meta = 1) by (vm_compute; reflexivity).
  split; [exact M|]. split; [vm_compute; reflexivity|]. split; [vm_compute; reflexivity|].
  split; [vm_compute; reflexivity|]. intros g T S.
  rewrite (takes_at _ _ r_meta T), (S r_meta) in M. discriminate M.
Qed.

(** ** Requests of the cleaner *)

Definition own_cl (x : req * nat) : list res :=
  own_req (fst x) ++ [r_data (snd x); r_pin (snd x)].
Definition own_cl_opt (x : option (req * nat)) : option (list res) := option_map own_cl x.

(** What the fields of a cleaner request say. *)
Definition cl_shape (refs : nat) (ns : list nat) (x : option (req * nat)) : Prop :=
  match x with
  | Some (q, n) => In n ns /\ q_lines q = n /\ q_refs q = refs
  | None => True
  end.

Lemma cl_alloc_ok : forall o mq count, 1 <= count ->
  sound False own_cl_opt (cl_alloc o mq count) /\
  forall tr, cl_shape 1 [count] (fst (cl_alloc o mq count tr)).
Proof.
  intros o mq count C. destruct (C67_req_new_cleaner o mq count C) as (S & F). split.
  - apply sound_wp. unfold cl_alloc. apply wp_bind.
    (* the request has one reference *)
    intros tr. destruct (wp_sound_req (req_new_cleaner o mq count)
      (fun a g dn => (forall q, a = Some q -> q_refs q = 1) ->
         wp (match a with
             | Some q => b <- acq o (r_data count) ;;
                 if negb b then req_put q ;;; ret None
                 else b <- acq o (r_pin count) ;;
                   if negb b then rel (r_data count) ;;; req_put q ;;; ret None
                   else ret (Some (q, count))
             | None => ret None end)
           (fun a g dn => match own_cl_opt a with
                          | Some l => same g (holds l)
                          | None => same g nothing /\ (dn = true \/ False)
                          end) g dn) nothing false) with (tr := tr)
      as (d & f' & dn' & E & P & Q).
    + intros a f g dn SM W R. eapply wp_same; [ext_tac | exact SM | exact (W R)].
    + exact S.
    + intros q dn' R. specialize (R q eq_refl). run.
      * unfold own_cl_opt, own_cl. cbn [option_map fst snd]. bags.
      * apply wp_req_put; [ext_tac | lia | bags |].
        intros dd D. specialize (D eq_refl). subst dd. run. unfold own_cl_opt. cbn. post.
      * apply wp_req_put; [ext_tac | lia | bags |].
        intros dd D. specialize (D eq_refl). subst dd. run. unfold own_cl_opt. cbn. post.
    + intros _. run. unfold own_cl_opt. cbn. post.
    + exists d, f', dn'. split; [exact E|]. split; [exact P|]. apply Q.
      intros q A. exact (proj2 (F _ _ A)).
  - intros tr. unfold cl_alloc, bind. specialize (F tr).
    destruct (req_new_cleaner o mq count tr) as [[q|] t1]; cbn [fst] in *; [|exact I].
    destruct (F q eq_refl) as (F1 & F2).
    destruct (acq o (r_data count) t1) as [[] t2]; cbn [negb];
      [|destruct (req_put q t2); exact I].
    destruct (acq o (r_pin count) t2) as [[] t3]; cbn [negb].
    + cbn. auto.
    + destruct (rel (r_data count) t3) as [? t4]. destruct (req_put q t4). exact I.
Qed.

Lemma cl_low_pos : forall c, 1 <= c -> 1 <= cl_low c <= 128.
Proof. intros c L. unfold cl_low. destruct (c <? 128) eqn:E; [apply Nat.ltb_lt in E; lia | lia]. Qed.

Lemma slave_ok : forall o mq count, 1 <= count ->
  sound False own_cl_opt (cl_slave o mq count) /\
  forall tr, cl_shape 1 [count; cl_low count] (fst (cl_slave o mq count tr)).
Proof.
  intros o mq count C. destruct (cl_alloc_ok o mq count C) as (S1 & F1).
  destruct (cl_alloc_ok o mq (cl_low count) ltac:(apply cl_low_pos; exact C)) as (S2 & F2). split.
  - apply sound_wp. unfold cl_slave. apply wp_bind.
    eapply wp_sound; [ext_tac | exact S1 | | | intros a dn' []].
    + intros [x|] l dn' E; [|discriminate E]. injection E as <-. apply wp_ret.
      cbn [own_cl_opt option_map]. bags.
    + intros [x|] E; [discriminate E|].
      eapply wp_sound; [ext_tac | exact S2 | | | intros a dn' []].
      * intros [x|] l dn' E'; [|discriminate E']. injection E' as <-. cbn [own_cl_opt option_map]. bags.
      * intros [x|] E'; [discriminate E'|]. cbn [own_cl_opt option_map]. post.
  - intros tr. unfold cl_slave, bind. specialize (F1 tr).
    destruct (cl_alloc o mq count tr) as [[[q n]|] t1]; cbn [fst] in *.
    + cbn in *. tauto.
    + specialize (F2 t1). destruct (fst (cl_alloc o mq (cl_low count) t1)) as [[q n]|]; cbn in *; tauto.
Qed.

(** A request of the cleaner, master or slave, is complete or nothing is left; a second
    attempt is made with at most 128 lines. *)
Theorem C67_cleaner_req : forall o mq count, 1 <= count ->
  (sound False own_cl_opt (cl_slave o mq count) /\
   forall tr, cl_shape 1 [count; cl_low count] (fst (cl_slave o mq count tr))) /\
  (sound False own_cl_opt (cl_master o mq count) /\
   forall tr, cl_shape 2 [count; cl_low count] (fst (cl_master o mq count tr))) /\
  1 <= cl_low count <= 128.
Proof.
  intros o mq count C. destruct (slave_ok o mq count C) as (S & F).
  split; [split; [exact S | exact F]|]. split; [|apply cl_low_pos; exact C].
  assert (EQ : forall tr, cl_master o mq count tr =
    (let '(a, t) := cl_slave o mq count tr in
     (match a with None => None | Some (q, n) => Some (req_get q, n) end, t))).
  { intros tr. unfold cl_master, cl_slave, bind.
    destruct (cl_alloc o mq count tr) as [[[q n]|] t1]; [reflexivity|].
    destruct (cl_alloc o mq (cl_low count) t1) as [[[q n]|] t2]; reflexivity. }
  split.
  - intros tr. destruct (S tr) as (d & E & H). exists d. rewrite EQ.
    destruct (cl_slave o mq count tr) as [[[q n]|] t1]; cbn in *; auto.
  - intros tr. rewrite EQ. specialize (F tr).
    destruct (cl_slave o mq count tr) as [[[q n]|] t1]; cbn in *; [|exact F].
    destruct F as (F1 & F2 & F3). rewrite F3. auto.
Qed.

(** Freeing them: the slave at once, the master after its extra reference is dropped. *)
Theorem C67_cleaner_free : forall q n,
  (q_refs q = 1 -> gives_back (cl_dealloc (q, n)) (own_cl (q, n))) /\
  (q_refs q = 2 ->
     gives_back (q' <- cl_dealloc (q, n) ;; put_opt q') (own_cl (q, n)) /\
     gives_back (q' <- req_put q ;;
                 match q' with Some q' => cl_dealloc (q', n) ;;; ret tt | None => emit Crash end)
       (own_cl (q, n))).
Proof.
  intros q n. split.
  - intros R. apply gives_back_wp. unfold cl_dealloc, own_cl. cbn [fst snd]. run.
    apply wp_req_put; [ext_tac | lia | bags |]. intros dd _. bags.
  - intros R. split.
    + apply gives_back_wp. unfold cl_dealloc, own_cl. cbn [fst snd]. run.
      apply wp_get_put; [lia|]. intros q' O R'. cbn [put_opt]. run.
      apply wp_req_put; [ext_tac | lia | rewrite O; bags |]. intros dd _. run. rewrite O. bags.
    + apply gives_back_wp. unfold own_cl. cbn [fst snd]. apply wp_bind.
      apply wp_get_put; [lia|]. intros q' O R'. rewrite <- O. unfold cl_dealloc. cbn [fst snd]. run.
      apply wp_req_put; [ext_tac | lia | bags |]. intros dd _. run. bags.
Qed.

(** ** Concrete cases *)

(** Nothing is denied: everything is built. *)
Example ctor_success :
  fst (mconc_init deny_nothing 32 4 33 []) = true /\
  fst (fst (att_init deny_nothing 20 5 fresh_lock [])) = true /\
  fst (alock_init deny_nothing 64 []) = true /\
  fst (nhit_init deny_nothing 10 true []) = true /\
  fst (ctx_create deny_nothing 8 8 true []) = Some ctx_types /\
  fst (queue_create deny_nothing []) = true /\
  fst (req_new deny_nothing false 3 []) = Some (new_req false true 3) /\
  (exists q, fst (cl_master deny_nothing true 200 []) = Some (q, 200)).
Proof. repeat split; try (vm_compute; reflexivity). eexists. vm_compute. reflexivity. Qed.

(** A failure in the middle of a loop. *)
Example ctor_failure :
  fst (mconc_init (deny (r_part 7)) 32 4 33 []) = false /\
  fst (alock_init (deny (r_wait 50)) 64 []) = false /\
  left_over (snd (alock_init (deny (r_wait 50)) 64 [])) (r_wait 3) = 0 /\
  fst (cl_master (deny (r_data 200)) false 200 []) <> None.
Proof. repeat split; try (vm_compute; reflexivity). vm_compute. intros F; discriminate F. Qed.

Example dyn_life_pages :
  let d := snd (raw_dyn_life deny_nothing 4 10 (pio_init deny_nothing 4 true) true true [3; 5; 3] []) in
  In (Gave (r_page 5)) d /\ left_over d (r_page 3) = 0.
Proof. split; [vm_compute; repeat (first [left; reflexivity | right])| vm_compute; reflexivity]. Qed.

Print Assumptions C67_metadata_locks.
Print Assumptions C67_attached_locks.
Print Assumptions C67_attached_locks_refuted.
Print Assumptions C67_alock.
Print Assumptions C67_page_locks.
Print Assumptions C67_mio_locks.
Print Assumptions C67_mio_locks_refuted.
Print Assumptions C67_raw_ram.
Print Assumptions C67_raw_dynamic.
Print Assumptions C67_nhit.
Print Assumptions C67_nhit_refuted.
Print Assumptions C67_mpool.
Print Assumptions C67_ctx_create.
Print Assumptions C67_ctx_create_refuted.
Print Assumptions C67_ctx_life.
Print Assumptions C67_queue.
Print Assumptions C67_queue_refuted.
Print Assumptions C67_req_put.
Print Assumptions C67_req_new_mngt.
Print Assumptions C67_req_new_cache.
Print Assumptions C67_req_new.
Print Assumptions C67_req_new_refuted.
Print Assumptions C67_req_new_cleaner.
Print Assumptions C67_io_life.
Print Assumptions C67_discard_life.
Print Assumptions C67_discard_life_refuted.
Print Assumptions C67_cleaner_req.
Print Assumptions C67_cleaner_free.

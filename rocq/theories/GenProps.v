(** C27 - the bisect generator is a permutation. *)
From Coq Require Import Arith NArith List Bool Lia Permutation.
From Verif Require Import GenModel GenProofs.
Import ListNotations.
Open Scope N_scope.

(** From any state of a generator with a supported limit: the next [limit] calls
    succeed and return every number below the limit exactly once. *)
Theorem C27_generator_is_permutation : forall g,
  2 <= g_limit g -> g_limit g <= 2^30 ->
  exists l g', gen_calls (N.to_nat (g_limit g)) g = Some (l, g') /\
    length l = N.to_nat (g_limit g) /\ NoDup l /\ (forall v, In v l <-> v < g_limit g) /\
    g_limit g' = g_limit g.
Proof.
  intros g H1 H2. destruct (params (g_limit g) H1 H2) as (k & K1 & K2 & E1 & E2).
  destruct (calls_perm k (g_limit g) (g_curr g) ltac:(lia) K2) as (w & c & C & P).
  exists w, {| g_curr := c; g_limit := g_limit g |}.
  rewrite (gen_calls_calls _ g k E1 E2), C. split; [reflexivity|]. split; [|split; [|split]].
  - rewrite (Permutation_length P). unfold nats. now rewrite map_length, seq_length.
  - apply (Permutation_NoDup (Permutation_sym P)). apply nats_nodup.
  - intros v. split; intros H.
    + apply (Permutation_in _ P), nats_in in H. lia.
    + apply (Permutation_in _ (Permutation_sym P)). apply nats_in. lia.
  - reflexivity.
Qed.

(** Initialisation succeeds from any offset. *)
Theorem C27_init_succeeds : forall limit offset, 2 <= limit -> limit <= 2^30 ->
  exists g, gen_init limit offset = Some g /\ g_limit g = limit.
Proof.
  intros L off H1 H2. destruct (params L H1 H2) as (k & K1 & K2 & E1 & E2).
  unfold gen_init. rewrite E1, E2. destruct (N.eqb_spec L 0); [lia|]. eexists. split; reflexivity.
Qed.

(** Outside of the supported range the C code is undefined: clz(0), shift overflow. *)
Theorem C27_undefined_limits : forall offset,
  gen_init 0 offset = None /\ gen_init 1 offset = None /\
  forall limit, 2^30 < limit -> limit < 2^32 -> gen_init limit offset = None.
Proof.
  intros off. split; [reflexivity|]. split; [reflexivity|]. intros L H1 H2. unfold gen_init.
  assert (E : u32 (L + 2^32 - 1) = L - 1).
  { unfold u32. replace (L + 2^32 - 1) with (L - 1 + 1 * 2^32) by lia.
    rewrite N.mod_add by lia. apply N.mod_small. lia. }
  rewrite E. unfold clz32. destruct (N.eqb_spec (L - 1) 0); [reflexivity|].
  assert (30 <= N.log2 (L - 1)) by (apply N.log2_le_pow2; lia).
  unfold int_shl1. destruct (N.ltb_spec (32 - (31 - N.log2 (L - 1))) 31); [lia|reflexivity].
Qed.

Example ex_gen : option_map fst (match gen_init 6 2 with Some g => gen_calls 6 g | None => None end)
  = Some [2; 1; 5; 3; 0; 4].
Proof. vm_compute. reflexivity. Qed.

Print Assumptions C27_generator_is_permutation.
Print Assumptions C27_init_succeeds.
Print Assumptions C27_undefined_limits.

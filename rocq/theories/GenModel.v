(** Bisect generator: /repo/src/utils/utils_generator.c. *)
From Coq Require Import NArith List.
Import ListNotations.
Open Scope N_scope.

Definition u32 (x : N) : N := x mod 2^32.

(** utils_generator.c:13-20 bitreverse32; left shifts wrap to 32 bits. *)
Definition bitreverse32 (x0 : N) : N :=
  let x := N.lor (N.shiftr (N.land x0 0xaaaaaaaa) 1) (u32 (N.shiftl (N.land x0 0x55555555) 1)) in
  let x := N.lor (N.shiftr (N.land x 0xcccccccc) 2) (u32 (N.shiftl (N.land x 0x33333333) 2)) in
  let x := N.lor (N.shiftr (N.land x 0xf0f0f0f0) 4) (u32 (N.shiftl (N.land x 0x0f0f0f0f) 4)) in
  let x := N.lor (N.shiftr (N.land x 0xff00ff00) 8) (u32 (N.shiftl (N.land x 0x00ff00ff) 8)) in
  N.lor (N.shiftr x 16) (u32 (N.shiftl x 16)).

(** __builtin_clz on 32 bits: undefined for 0. *)
Definition clz32 (x : N) : option N := if x =? 0 then None else Some (31 - N.log2 x).

(** [1 << n] on a signed 32-bit int: undefined when the result does not fit. *)
Definition int_shl1 (n : N) : option N := if n <? 31 then Some (2^n) else None.

Record gen := { g_curr : N; g_limit : N }.

(** utils_generator.c:25-37 ocf_generator_bisect_init. *)
Definition gen_init (limit offset : N) : option gen :=
  match clz32 (u32 (limit + 2^32 - 1)) with
  | None => None
  | Some clz =>
      match int_shl1 (32 - clz) with
      | None => None
      | Some maplen =>
          if limit =? 0 then None
          else Some {| g_curr := u32 (offset * maplen / limit); g_limit := limit |}
      end
  end.

(** utils_generator.c:42-58 ocf_generator_bisect_next: the do-while loop with
    [fuel] iterations at most; [None]: undefined behaviour or the loop goes on
    for longer than the fuel. *)
Fixpoint gen_loop (fuel : nat) (clz maplen limit curr : N) : option (N * N) :=
  match fuel with
  | O => None
  | S f =>
      let value := N.shiftr (bitreverse32 curr) clz in
      let curr' := u32 (curr + 1) mod maplen in
      if value <? limit then Some (value, curr') else gen_loop f clz maplen limit curr'
  end.
Definition gen_next (g : gen) : option (N * gen) :=
  match clz32 (u32 (g_limit g + 2^32 - 1)) with
  | None => None
  | Some clz =>
      match int_shl1 (32 - clz) with
      | None => None
      | Some maplen =>
          match gen_loop (N.to_nat maplen) clz maplen (g_limit g) (g_curr g) with
          | None => None
          | Some (v, c) => Some (v, {| g_curr := c; g_limit := g_limit g |})
          end
      end
  end.

(** [n] consecutive calls. *)
Fixpoint gen_calls (n : nat) (g : gen) : option (list N * gen) :=
  match n with
  | O => Some ([], g)
  | S m =>
      match gen_next g with
      | None => None
      | Some (v, g1) =>
          match gen_calls m g1 with
          | None => None
          | Some (l, g2) => Some (v :: l, g2)
          end
      end
  end.

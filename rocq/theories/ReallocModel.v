(** Memory that grows on demand: utils/utils_realloc.c:9-117, and its use by ALRU (cleaning/alru.c:875-957).  Memory is
    blocks of bytes; a block remembers which of the two allocators it is from.  What C leaves undefined (freeing what is
    not allocated or with the wrong function, copying or setting outside of a block) is an outcome, and so is ENV_BUG. *)
From Coq Require Import NArith List Bool Arith.
Import ListNotations.
Open Scope N_scope.

Definition two64 : N := 18446744073709551616.
(** OCF_REALLOC_K_MAX (utils_realloc.c:9) *)
Definition K_MAX : N := 131072.
(** [big]: from env_vzalloc, to be freed by env_vfree; otherwise env_zalloc and env_free *)
Record blk := { big : bool; bsize : N; byte : N -> N }.
Definition heap := nat -> option blk.
Definition put (h : heap) (p : nat) (b : option blk) : heap := fun q => if Nat.eqb q p then b else h q.
(** *mem, *limit *)
Record st := { hp : heap; next : nat; mem : option nat; limit : N }.
Inductive out := Ret (ok : bool) (s : st) | Bug | Undefined.

Definition free (v : bool) (p : nat) (h : heap) : option heap :=
  match h p with
  | Some b => if Bool.eqb (big b) v then Some (put h p None) else None
  | None => None
  end.
(** env_memcpy (env/posix/ocf_env.h:90-93) *)
Definition memcpy (h : heap) (dst src : nat) (dmax slen : N) : option heap :=
  let n := N.min dmax slen in
  match h dst, h src with
  | Some d, Some b =>
    if (n <=? bsize d) && (n <=? bsize b)
    then Some (put h dst (Some {| big := big d; bsize := bsize d; byte := fun k => if k <? n then byte b k else byte d k |}))
    else None
  | _, _ => None
  end.
(** env_memset with 0 (ocf_env.h:94-97) of [n] bytes from [o] on *)
Definition memzero (h : heap) (dst : option nat) (o n : N) : option heap :=
  if n =? 0 then Some h
  else match dst with
       | None => None
       | Some p => match h p with
         | Some d => if o + n <=? bsize d
                     then Some (put h p (Some {| big := big d; bsize := bsize d; byte := fun k => if (o <=? k) && (k <? o + n) then 0 else byte d k |}))
                     else None
         | None => None
         end
       end.
(** _ocf_realloc_with_cp (utils_realloc.c:11-98); [ok]: the allocation succeeds *)
Definition realloc (cp : bool) (size count : N) (ok : bool) (s : st) : out :=
  let alloc_size := (size * count) mod two64 in
  if negb (size =? 0) && negb (count =? 0) then
    if limit s <? alloc_size then
      if negb ok then Ret false s
      else
        let h := put (hp s) (next s) (Some {| big := K_MAX <? alloc_size; bsize := alloc_size; byte := fun _ => 0 |}) in
        let done h := Ret true {| hp := h; next := S (next s); mem := Some (next s); limit := alloc_size |} in
        match mem s with
        | None => done h
        | Some p =>
          match (if cp then memcpy h (next s) p alloc_size (limit s) else Some h) with
          | None => Undefined
          | Some h => match free (K_MAX <? limit s) p h with None => Undefined | Some h => done h end
          end
        end
    else if cp then
      match memzero (hp s) (mem s) alloc_size (limit s - alloc_size) with
      | None => Undefined
      | Some h => Ret true {| hp := h; next := next s; mem := mem s; limit := limit s |}
      end
    else Ret true s
  else if (size =? 0) && (count =? 0) then
    match mem s with
    | Some p =>
      if limit s =? 0 then Bug
      else match free (K_MAX <? limit s) p (hp s) with
           | None => Undefined
           | Some h => Ret true {| hp := h; next := next s; mem := None; limit := 0 |}
           end
    | None => if limit s =? 0 then Ret true s else Bug
    end
  else Bug.
(** ocf_realloc_init (110-117): whatever mem and limit were *)
Definition init (s : st) : st := {| hp := hp s; next := next s; mem := None; limit := 0 |}.
(** The caller writes a byte *)
Definition store (k v : N) (s : st) : out :=
  match mem s with
  | Some p => match hp s p with
    | Some b => if k <? bsize b
                then Ret true {| hp := put (hp s) p (Some {| big := big b; bsize := bsize b; byte := fun j => if j =? k then v else byte b j |});
                                 next := next s; mem := mem s; limit := limit s |}
                else Undefined
    | None => Undefined
    end
  | None => Undefined
  end.

(** What ALRU does with it in a run: cleaning_alru_perform_cleaning, alru_clean, get_data_to_flush, alru_clean_complete
    (alru.c:942, 907-913, 855-859, 882).  [es]: sizeof(struct flush_data), [clines]: flush_max_buffers, [asked]: a run that
    gets to the allocation, [ws]: what is written into entries, entry and place in it. *)
Fixpoint fill (es : N) (ws : list (N * N * N)) (s : st) : out :=
  match ws with
  | [] => Ret true s
  | (i, o, v) :: ws => match store (i * es + o) v s with Ret _ s => fill es ws s | x => x end
  end.
Definition alru_run (es clines : N) (asked ok : bool) (ws : list (N * N * N)) (s : st) : out :=
  let s := init s in
  if negb asked then realloc false 0 0 ok s
  else match realloc false es clines ok s with
       | Ret _ s =>
         match mem s with
         | None => realloc false 0 0 ok s
         | Some _ => match fill es ws s with Ret _ s => realloc false 0 0 ok s | x => x end
         end
       | x => x
       end.

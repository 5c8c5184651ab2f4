(** Cleaning of dirty cache lines and the flush operations built on it.
    Models /repo/src/utils/utils_cleaner.c (ocf_cleaner_fire and everything below
    it) and /repo/src/mngt/ocf_mngt_flush.c:82-600 (collecting the dirty lines,
    portions, containers), with /repo/src/utils/utils_cache_line.c:92-132.
    A flush is a transition system: one event = one callback (or one line of a
    loop that drops its lock between lines); any number of containers (one per
    core), each with a portion of several cleaning requests in flight, interleave
    freely with each other and with environment steps (CleanProps).
    Simplified: a core write reaches the device at some moment between submission
    and completion, here at the moment of submission; a failed write may have
    written any part of its sectors; flush_portion size computed from time
    measurements is an arbitrary number > 0; the sort of flush data is an arbitrary
    permutation; memory for the containers is available. *)
From Coq Require Import List Bool Arith.
Import ListNotations.

Definition data := nat.

(** Collision table entry, status bits and contents of a cache line. [mp]: core id
    and core line ([None]: OCF_CORE_ID_INVALID). *)
Record line := { mp : option (nat * nat); va : nat -> bool; di : nat -> bool; da : nat -> data }.

(** [dc]: core->runtime_meta->dirty_clines.  [cr]: contents of the core devices by
    core id, core line, sector. *)
Record cst := { ln : nat -> line; cr : nat -> nat -> nat -> data; dc : nat -> nat }.

Section Clean.
(** [ns]: ocf_line_sectors; [nl]: collision_table_entries; [vol]:
    metadata.is_volatile. *)
Variables (ns nl : nat) (vol : bool).

(** metadata_test_valid (whole line), metadata_test_valid_any, metadata_test_dirty
    (any sector): metadata_status.h. *)
Definition test_valid (l : line) : bool := forallb (va l) (seq 0 ns).
Definition test_valid_any (l : line) : bool := existsb (va l) (seq 0 ns).
Definition test_dirty (l : line) : bool := existsb (di l) (seq 0 ns).

(** utils_cleaner.c:249-261; [None]: ENV_BUG. *)
Definition sector_is_dirty (l : line) (s : nat) : option bool :=
  if negb (va l s) && di l s then None else Some (if va l s then di l s else false).

(** utils_cleaner.c:465-485: the sector loop; [k] iterations left, [i] current
    sector, [st] = Some dirty_start iff counting_dirty. *)
Fixpoint runs (f : nat -> option bool) (k i : nat) (st : option nat) : option (list (nat * nat)) :=
  match k with
  | O => Some (match st with Some b => [(b, i)] | None => [] end)
  | S k' =>
      match f i with
      | None => None
      | Some false =>
          match st with
          | Some b => match runs f k' (S i) None with Some r => Some ((b, i) :: r) | None => None end
          | None => runs f k' (S i) None
          end
      | Some true => runs f k' (S i) (Some (match st with Some b => b | None => i end))
      end
  end.

(** utils_cleaner.c:449-486 [_ocf_cleaner_core_submit_io]: sector ranges [begin,end)
    of the line written to the core. *)
Definition submit_ranges (l : line) : option (list (nat * nat)) :=
  if test_valid l && test_dirty l then Some [(0, ns)] else runs (sector_is_dirty l) ns 0 None.

(** utils_cleaner.c:425-447: byte address on the core and offset in the request's
    buffer of a range of the line in map entry number [h]. *)
Definition range_addr (cl b : nat) : nat := ns * 512 * cl + b * 512.
Definition range_len (b e : nat) : nat := (e - b) * 512.
Definition range_off (h b : nat) : nat := ns * 512 * h + b * 512.

(** ** Cleaning requests *)
Record item := { it_line : nat; it_mp : option (nat * nat); it_flush : bool; it_buf : nat -> data }.

(** Where a request is: waiting for the line locks; cache reads outstanding; core
    writes, [k] entries done, [bad]: one of them failed; core flush; metadata
    update, [k] entries done; metadata flush; cache flush; finished. *)
Inductive phase := PWait | PRead | PCore (k : nat) (bad : bool) | PCflush | PMeta (k : nat) | PMflush | PCaflush | PDone.

(** [q_inval]: map entries' invalid flag (set for all entries that are flushed, on
    any error); [q_core]: req->core. *)
Record creq := { q_items : list item; q_core : option nat; q_inval : bool; q_ph : phase }.

Definition core_of (m : option (nat * nat)) : option nat := match m with Some (c, _) => Some c | None => None end.

(** utils_cleaner.c:659-696 [ocf_cleaner_populate_req]; [m]: map_max - map_curr,
    [last]: last_core_id; returns the entries, req->core and the unprocessed rest. *)
Fixpoint populate (s : cst) (m : nat) (last : option nat) (l : list nat)
  : list item * option nat * list nat :=
  match m with
  | O => ([], last, l)
  | S m' =>
      match l with
      | [] => ([], last, [])
      | x :: r =>
          if Nat.ltb x nl then
            let mx := mp (ln s x) in
            let it := {| it_line := x; it_mp := mx; it_flush := false; it_buf := fun _ => 0 |} in
            match last with
            | None =>
                let '(its, lc, rest) := populate s m' (core_of mx) r in (it :: its, lc, rest)
            | Some q =>
                match core_of mx with
                | Some q' =>
                    if Nat.eqb q' q then
                      let '(its, lc, rest) := populate s m' last r in (it :: its, lc, rest)
                    else ([], last, l)
                | None => ([], last, l)
                end
            end
          else populate s (S m') last r
      end
  end.

Definition opt_eqb (a b : option (nat * nat)) : bool :=
  match a, b with
  | None, None => true
  | Some (c, l), Some (c', l') => Nat.eqb c c' && Nat.eqb l l'
  | _, _ => false
  end.

(** utils_cleaner.c:591-624 [_ocf_cleaner_check_map]. *)
Definition check_item (s : cst) (i : item) : item :=
  {| it_line := it_line i; it_mp := it_mp i;
     it_flush := opt_eqb (mp (ln s (it_line i))) (it_mp i) && test_dirty (ln s (it_line i));
     it_buf := it_buf i |}.

(** Data read from the cache, utils_cleaner.c:548-589 (each line to its slot in the
    buffer). *)
Definition read_item (s : cst) (i : item) : item :=
  {| it_line := it_line i; it_mp := it_mp i; it_flush := it_flush i;
     it_buf := if it_flush i then da (ln s (it_line i)) else it_buf i |}.

Definition upd3 (f : nat -> nat -> nat -> data) c l (g : nat -> data) : nat -> nat -> nat -> data :=
  fun c' l' => if Nat.eqb c' c && Nat.eqb l' l then g else f c' l'.

(** One core write of sectors [b,e) from the buffer; [ok]: success, else only the
    sectors of [part] have been written. *)
Definition write_range (s : cst) (c cl : nat) (buf : nat -> data) (ok : bool) (part : nat -> bool) (r : nat * nat) : cst :=
  {| ln := ln s;
     cr := upd3 (cr s) c cl (fun x => if Nat.leb (fst r) x && Nat.ltb x (snd r) && (ok || part x)
                                      then buf x else cr s c cl x);
     dc := dc s |}.

Definition set_ln (f : nat -> line) (x : nat) (l : line) : nat -> line := fun y => if Nat.eqb y x then l else f y.
Definition set_nat (f : nat -> nat) (x v : nat) : nat -> nat := fun y => if Nat.eqb y x then v else f y.

(** utils_cleaner.c:313-356 for one entry, with set_cache_line_clean(0, end)
    (utils_cache_line.c:92-132): all sectors clean, counter of [req->core]
    decremented. *)
Definition clean_item (s : cst) (qc : option nat) (x : nat) : cst :=
  if test_dirty (ln s x) then
    {| ln := set_ln (ln s) x
               {| mp := mp (ln s x); va := va (ln s x);
                  di := fun k => if Nat.ltb k ns then false else di (ln s x) k; da := da (ln s x) |};
       cr := cr s;
       dc := match qc with Some c => set_nat (dc s) c (dc s c - 1) | None => dc s end |}
  else s.

(** ** A cleaning order (ocf_cleaner_fire, utils_cleaner.c:701-765): lines not yet
    put in a request, requests (the first is the master), master->error. *)
Record order := { o_todo : list nat; o_reqs : list creq; o_err : bool }.

(** ** Flush containers *)
Inductive kst := Ready | Running (o : order) | Ended.
Record cont := { k_core : nat; k_data : list nat; k_count : nat; k_iter : nat; k_st : kst }.

(** Flush operation: [Scan]: collecting dirty lines, position, dirty_found,
    dirty_total; [Work]: flushing containers.  [w_err]: fcs.error; [w_lost]: ghost,
    some device operation issued for cleaning failed ([w_data]: one of the cache
    reads, core writes or core flushes). *)
Inductive mode := Scan (pos found total : nat) | Work.
Record opst := { w_mode : mode; w_conts : list cont; w_revmap : nat -> nat; w_err : bool; w_lost : bool; w_data : bool }.

Inductive config := Cfg (s : cst) (o : opst) | Bug.

Fixpoint upd_nth {A} (l : list A) (i : nat) (a : A) : list A :=
  match l, i with
  | [], _ => []
  | _ :: r, O => a :: r
  | x :: r, S i' => x :: upd_nth r i' a
  end.

(** ocf_mngt_flush.c:238-259: one container per core with dirty lines; a core
    without is given the index [j] that the next core reuses.  Returns the used
    containers (the remaining ones have count 0 and are skipped later). *)
Fixpoint alloc_conts (s : cst) (cores : list nat) (j : nat) (rm : nat -> nat) : list cont * (nat -> nat) :=
  match cores with
  | [] => ([], rm)
  | c :: r =>
      let rm' := set_nat rm c j in
      if Nat.eqb (dc s c) 0 then alloc_conts s r j rm'
      else let '(l, m) := alloc_conts s r (S j) rm' in
           ({| k_core := c; k_data := []; k_count := dc s c; k_iter := 0; k_st := Ready |} :: l, m)
  end.

(** _ocf_mngt_get_flush_containers before the line loop, for flushing the whole
    cache with the cores [cores]; if nothing is dirty there are no containers. *)
Definition start_cache (s : cst) (cores : list nat) : opst :=
  let '(l, rm) := alloc_conts s cores 0 (fun _ => 0) in
  let total := fold_right Nat.add 0 (map k_count l) in
  {| w_mode := if Nat.eqb total 0 then Work else Scan 0 0 total; w_conts := l; w_revmap := rm;
     w_err := false; w_lost := false; w_data := false |}.

(** ocf_mngt_flush.c:260-287 one line of the loop; :147-167 for one core. [only]:
    Some c for the flush of core [c].  After the last line :289-295: count := number
    of lines found (in the core flush *num = dirty_found always). *)
Definition scan_end (total found : nat) (l : list cont) : list cont :=
  if Nat.eqb total found then l
  else map (fun k => {| k_core := k_core k; k_data := k_data k; k_count := length (k_data k);
                        k_iter := 0; k_st := k_st k |}) l.

Definition with_mode (o : opst) (m : mode) (l : list cont) : opst :=
  {| w_mode := m; w_conts := l; w_revmap := w_revmap o; w_err := w_err o; w_lost := w_lost o; w_data := w_data o |}.

Definition scan_line (only : option nat) (s : cst) (o : opst) (pos found total : nat) : config :=
  if Nat.leb nl pos then Cfg s (with_mode o Work (scan_end total found (w_conts o)))
  else
    let l := ln s pos in
    let take := test_valid_any l && test_dirty l &&
                match only with Some c => match core_of (mp l) with Some c' => Nat.eqb c' c | None => false end
                              | None => true end in
    if negb take then Cfg s (with_mode o (Scan (S pos) found total) (w_conts o))
    else
      match core_of (mp l) with
      | None => Bug                     (* core_revmap[OCF_CORE_MAX]: out of bounds *)
      | Some c =>
          let idx := match only with Some _ => 0 | None => w_revmap o c end in
          match nth_error (w_conts o) idx with
          | None => Bug                 (* container with count = 0: ENV_BUG_ON *)
          | Some k =>
              if Nat.leb (k_count k) (length (k_data k)) then Bug
              else
                let l' := upd_nth (w_conts o) idx
                            {| k_core := k_core k; k_data := k_data k ++ [pos]; k_count := k_count k;
                               k_iter := k_iter k; k_st := k_st k |} in
                if Nat.eqb (S found) total
                then Cfg s (with_mode o Work (scan_end total (S found) l'))
                else Cfg s (with_mode o (Scan (S pos) (S found) total) l')
          end
      end.

(** _ocf_mngt_get_sectors before the loop: flush of one core. *)
Definition start_core (s : cst) (c : nat) : opst :=
  if Nat.eqb (dc s c) 0 then
    {| w_mode := Work; w_conts := []; w_revmap := fun _ => 0; w_err := false; w_lost := false; w_data := false |}
  else
    {| w_mode := Scan 0 0 (dc s c);
       w_conts := [{| k_core := c; k_data := []; k_count := dc s c; k_iter := 0; k_st := Ready |}];
       w_revmap := fun _ => 0; w_err := false; w_lost := false; w_data := false |}.

(** ** Events of the flush *)
Inductive ev :=
| EScan                                   (* next line of the collecting loop *)
| ESort (k : nat) (l : list nat)          (* container's table replaced by its sorted version *)
| EPortion (k p : nat)                    (* _ocf_mngt_flush_portion, flush_portion = p *)
| EFire (k m : nat)                       (* next request of the order, at most m entries *)
| EFireFail (k : nat)                     (* allocation or lock error, rest of the order dropped *)
| ELock (k q : nat)                       (* locks acquired: _ocf_cleaner_check_map *)
| ERead (k q : nat) (ok : bool)           (* cache reads completed *)
| ECore (k q : nat) (oks : nat -> bool) (part : nat -> bool)  (* core writes of the next entry; oks: per range *)
| EFlush (k q : nat) (ok : bool)          (* core flush completed *)
| EMeta (k q : nat)                       (* metadata update of the next entry *)
| EMflush (k q : nat) (ok : bool)         (* metadata flush completed *)
| ECaflush (k q : nat) (ok : bool)        (* cache flush completed *)
| EEnd (k : nat) (intr : bool).           (* _ocf_mngt_flush_portion_end; intr: first to see flushing_interrupted *)

Definition set_q (q : creq) (i : bool) (p : phase) : creq :=
  {| q_items := q_items q; q_core := q_core q; q_inval := i; q_ph := p |}.

(** Writes of one entry: ranges numbered from [j]; result and whether all
    succeeded. *)
Fixpoint write_ranges (s : cst) (c cl : nat) (buf : nat -> data) (oks : nat -> bool) (part : nat -> bool)
    (j : nat) (l : list (nat * nat)) : cst * bool :=
  match l with
  | [] => (s, true)
  | r :: l' =>
      let s1 := write_range s c cl buf (oks j) part r in
      let '(s2, ok) := write_ranges s1 c cl buf oks part (S j) l' in (s2, oks j && ok)
  end.

Definition with_conts (o : opst) (l : list cont) (err lost dat : bool) : opst :=
  {| w_mode := w_mode o; w_conts := l; w_revmap := w_revmap o;
     w_err := w_err o || err; w_lost := w_lost o || lost; w_data := w_data o || dat |}.

Definition with_kst (k : cont) (i : nat) (x : kst) : cont :=
  {| k_core := k_core k; k_data := k_data k; k_count := k_count k; k_iter := i; k_st := x |}.

(** Replace request [q] of container [k]; [merr]: master->error set; [lost],
    [dat]: ghosts. *)
Definition put_q (s : cst) (o : opst) (k : nat) (kc : cont) (od : order) (q : nat) (cq : creq)
    (merr lost dat : bool) : config :=
  Cfg s (with_conts o (upd_nth (w_conts o) k
           (with_kst kc (k_iter kc) (Running {| o_todo := o_todo od; o_reqs := upd_nth (o_reqs od) q cq;
                                                 o_err := o_err od || merr |}))) false lost dat).

(** One event of request number [qn]; [None]: the event does not apply now. *)
Definition step_req (e : ev) (s : cst) (o : opst) (k : nat) (kc : cont) (od : order) (qn : nat) (q : creq) : option config :=
  match e, q_ph q with
  | ELock _ _, PWait =>
      (* utils_cleaner.c:591-624; nothing to flush: :616-618 *)
      let its := map (check_item s) (q_items q) in
      Some (put_q s o k kc od qn
              {| q_items := its; q_core := q_core q; q_inval := q_inval q;
                 q_ph := if existsb it_flush its then PRead else PDone |}
              false false false)
  | ERead _ _ ok, PRead =>
      (* :523-546 *)
      Some (put_q s o k kc od qn
              {| q_items := if ok then map (read_item s) (q_items q) else q_items q; q_core := q_core q;
                 q_inval := negb ok; q_ph := PCore 0 false |}
              (negb ok) (negb ok) (negb ok))
  | ECore _ _ oks part, PCore n bad =>
      match nth_error (q_items q) n with
      | None =>
          (* all writes completed, :398-421 *)
          Some (put_q s o k kc od qn (set_q q (q_inval q || bad) PCflush) bad bad bad)
      | Some it =>
          (* :488-521 *)
          if it_flush it && negb (q_inval q) then
            match it_mp it, submit_ranges (ln s (it_line it)) with
            | Some (c, cl), Some l =>
                let '(s', ok) := write_ranges s c cl (it_buf it) oks part 0 l in
                Some (put_q s' o k kc od qn (set_q q (q_inval q) (PCore (S n) (bad || negb ok))) false false false)
            | _, _ => Some Bug
            end
          else Some (put_q s o k kc od qn (set_q q (q_inval q) (PCore (S n) bad)) false false false)
      end
  | EFlush _ _ ok, PCflush =>
      (* :361-388 *)
      Some (put_q s o k kc od qn (set_q q (q_inval q || negb ok) (PMeta 0)) (negb ok) (negb ok) (negb ok))
  | EMeta _ _, PMeta n =>
      match nth_error (q_items q) n with
      | None => Some (put_q s o k kc od qn (set_q q (q_inval q) (if vol then PDone else PMflush)) false false false)
      | Some it =>
          let s' := if it_flush it && negb (q_inval q) then clean_item s (q_core q) (it_line it) else s in
          Some (put_q s' o k kc od qn (set_q q (q_inval q) (PMeta (S n))) false false false)
      end
  | EMflush _ _ ok, PMflush =>
      (* :295-309: the error is stored in the request itself, that is in the
         master only if this request is the master *)
      Some (put_q s o k kc od qn (set_q q (q_inval q) (if ok then PCaflush else PDone))
              (negb ok && Nat.eqb qn 0) (negb ok) false)
  | ECaflush _ _ ok, PCaflush =>
      (* :275-283: the error is not stored *)
      Some (put_q s o k kc od qn (set_q q (q_inval q) PDone) false (negb ok) false)
  | _, _ => None
  end.

Definition is_done (q : creq) : bool := match q_ph q with PDone => true | _ => false end.

(** ocf_mngt_flush.c:389-435 [_ocf_mngt_flush_portion] of a container that is not
    running. *)
Definition portion (s : cst) (o : opst) (k : nat) (kc : cont) (p : nat) : config :=
  let d := dc s (k_core kc) in
  if Nat.eqb d 0 then
    (* :399-403: portion_end with error 0 and no dirty lines: finished *)
    Cfg s (with_conts o (upd_nth (w_conts o) k (with_kst kc (k_count kc) Ended)) false false false)
  else
    let c := Nat.min d p in
    if Nat.eqb c 0 then Bug
    else if Nat.ltb (k_count kc) (c + k_iter kc) then Bug
    else if Nat.ltb (length (k_data kc)) (k_iter kc + c) then Bug  (* uninitialised entries *)
    else Cfg s (with_conts o (upd_nth (w_conts o) k
           (with_kst kc (k_iter kc + c)
              (Running {| o_todo := firstn c (skipn (k_iter kc) (k_data kc)); o_reqs := []; o_err := false |})))
           false false false).

(** ocf_mngt_flush.c:339-377 [_ocf_mngt_flush_portion_end]. *)
Definition portion_end (s : cst) (o : opst) (k : nat) (kc : cont) (od : order) (intr : bool) : config :=
  let err := w_err o || o_err od || intr in
  Cfg s (with_conts o (upd_nth (w_conts o) k
           (with_kst kc (k_iter kc) (if Nat.eqb (dc s (k_core kc)) 0 || err then Ended else Ready)))
         (o_err od || intr) false false).

Definition step (only : option nat) (e : ev) (c : config) : option config :=
  match c with
  | Bug => None
  | Cfg s o =>
      match w_mode o, e with
      | Scan pos found total, EScan => Some (scan_line only s o pos found total)
      | Work, ESort k l =>
          match nth_error (w_conts o) k with
          | Some kc =>
              match k_st kc with
              | Ready => if Nat.eqb (k_iter kc) 0
                         then Some (Cfg s (with_conts o (upd_nth (w_conts o) k
                              {| k_core := k_core kc; k_data := l; k_count := k_count kc; k_iter := 0; k_st := Ready |})
                              false false false))
                         else None
              | _ => None
              end
          | None => None
          end
      | Work, EPortion k p =>
          match nth_error (w_conts o) k with
          | Some kc => match k_st kc with
                       | Ready => if Nat.eqb p 0 then None else Some (portion s o k kc p)
                       | _ => None end
          | None => None
          end
      | Work, EFire k m =>
          match nth_error (w_conts o) k with
          | Some kc =>
              match k_st kc with
              | Running od =>
                  match o_todo od with
                  | [] => None
                  | _ =>
                      if Nat.eqb m 0 then None
                      else
                        let '(its, lc, rest) := populate s m None (o_todo od) in
                        let q := {| q_items := its; q_core := lc; q_inval := false; q_ph := PWait |} in
                        Some (Cfg s (with_conts o (upd_nth (w_conts o) k
                          (with_kst kc (k_iter kc)
                            (Running {| o_todo := rest; o_reqs := o_reqs od ++ [q]; o_err := o_err od |})))
                          false false false))
                  end
              | _ => None
              end
          | None => None
          end
      | Work, EFireFail k =>
          match nth_error (w_conts o) k with
          | Some kc =>
              match k_st kc with
              | Running od =>
                  match o_todo od with
                  | [] => None
                  | _ =>
                      Some (Cfg s (with_conts o (upd_nth (w_conts o) k
                        (with_kst kc (k_iter kc)
                          (Running {| o_todo := []; o_reqs := o_reqs od; o_err := true |})))
                        false false false))
                  end
              | _ => None
              end
          | None => None
          end
      | Work, ELock k q | Work, ERead k q _ | Work, ECore k q _ _ | Work, EFlush k q _
      | Work, EMeta k q | Work, EMflush k q _ | Work, ECaflush k q _ =>
          match nth_error (w_conts o) k with
          | Some kc =>
              match k_st kc with
              | Running od =>
                  match nth_error (o_reqs od) q with
                  | Some cq => step_req e s o k kc od q cq
                  | None => None
                  end
              | _ => None
              end
          | None => None
          end
      | Work, EEnd k intr =>
          match nth_error (w_conts o) k with
          | Some kc =>
              match k_st kc with
              | Running od =>
                  (* master_remaining reaches 0 *)
                  match o_todo od with
                  | [] => if forallb is_done (o_reqs od) then Some (portion_end s o k kc od intr) else None
                  | _ => None
                  end
              | _ => None
              end
          | None => None
          end
      | _, _ => None
      end
  end.

(** The flush has completed, with the given error. *)
Definition ended (k : cont) : bool := match k_st k with Ended => true | _ => false end.
Definition completed (c : config) (err : bool) : Prop :=
  match c with
  | Bug => False
  | Cfg _ o => w_mode o = Work /\ forallb ended (w_conts o) = true /\ w_err o = err
  end.
End Clean.

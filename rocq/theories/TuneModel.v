(** Parameters that can be changed while a cache runs: cache mode, cleaning and promotion
    policy and their parameters, sequential cut-off of the cores.

    Models /repo/src/mngt/ocf_mngt_cache.c:220-266, 1451-1474, 1551-1568, 1813-1830,
    3576-3708, /repo/src/mngt/ocf_mngt_flush.c:961-1149, /repo/src/mngt/ocf_mngt_core.c:473-493,
    805-810, 982-1298, /repo/src/ocf_core.c:121-148, /repo/src/promotion/promotion.c:28-146,
    /repo/src/promotion/nhit/nhit.c:20-171, /repo/src/cleaning/alru.c:355-366, 586-680,
    /repo/src/cleaning/acp.c:239-247, 481-535.

    Simplified: values are natural numbers (uint32_t); negative enumerators are not
    considered; allocations that may fail are arguments of the operations; what the
    policies themselves build and free is in C60, C67. *)
From Coq Require Import NArith List Bool.
Import ListNotations.
Open Scope N_scope.

(** Results; [Null]: a null pointer is followed, [Bug]: ENV_BUG_ON *)
Inductive res := Ok | EInval | EDetached | EStandby | EDisabled | EFail | Null | Bug.

Record alru := { al_wake : N; al_stale : N; al_bufs : N; al_act : N; al_ratio : N }.
Record acp := { ac_wake : N; ac_bufs : N }.
Record nhit := { nh_ins : N; nh_trig : N }.
Record ccfg := { cc_opened : bool; cc_thr : N; cc_pol : N; cc_cnt : N; cc_prom : bool }.

(** struct ocf_promotion_policy (promotion/ops.h:12-22): [p_conf] is the policy whose
    configuration [config] points to, [p_ctx] whether [ctx] points to a context. *)
Record pol := { p_type : N; p_conf : N; p_ctx : bool }.

Record st := {
  standby : bool;
  attached : bool;
  disabled : bool;              (* conf_meta->cleaner_disabled *)
  mode : N;
  cpol : N;                     (* cleaner.policy *)
  s_alru : alru;
  s_acp : acp;
  ptype : N;                    (* conf_meta->promotion_policy_type *)
  ppol : option pol;            (* cache->promotion_policy *)
  s_nhit : nhit;
  cores : N -> option ccfg
}.

Definition w_mode s v := {| standby := standby s; attached := attached s; disabled := disabled s; mode := v; cpol := cpol s;
  s_alru := s_alru s; s_acp := s_acp s; ptype := ptype s; ppol := ppol s; s_nhit := s_nhit s; cores := cores s |}.
Definition w_cpol s v := {| standby := standby s; attached := attached s; disabled := disabled s; mode := mode s; cpol := v;
  s_alru := s_alru s; s_acp := s_acp s; ptype := ptype s; ppol := ppol s; s_nhit := s_nhit s; cores := cores s |}.
Definition w_alru s v := {| standby := standby s; attached := attached s; disabled := disabled s; mode := mode s; cpol := cpol s;
  s_alru := v; s_acp := s_acp s; ptype := ptype s; ppol := ppol s; s_nhit := s_nhit s; cores := cores s |}.
Definition w_acp s v := {| standby := standby s; attached := attached s; disabled := disabled s; mode := mode s; cpol := cpol s;
  s_alru := s_alru s; s_acp := v; ptype := ptype s; ppol := ppol s; s_nhit := s_nhit s; cores := cores s |}.
Definition w_prom s t p := {| standby := standby s; attached := attached s; disabled := disabled s; mode := mode s; cpol := cpol s;
  s_alru := s_alru s; s_acp := s_acp s; ptype := t; ppol := p; s_nhit := s_nhit s; cores := cores s |}.
Definition w_nhit s v := {| standby := standby s; attached := attached s; disabled := disabled s; mode := mode s; cpol := cpol s;
  s_alru := s_alru s; s_acp := s_acp s; ptype := ptype s; ppol := ppol s; s_nhit := v; cores := cores s |}.
Definition w_cores s v := {| standby := standby s; attached := attached s; disabled := disabled s; mode := mode s; cpol := cpol s;
  s_alru := s_alru s; s_acp := s_acp s; ptype := ptype s; ppol := ppol s; s_nhit := s_nhit s; cores := v |}.
Definition w_dev s a d := {| standby := standby s; attached := a; disabled := d; mode := mode s; cpol := cpol s;
  s_alru := s_alru s; s_acp := s_acp s; ptype := ptype s; ppol := ppol s; s_nhit := s_nhit s; cores := cores s |}.

(** ** Cache mode *)

(** ocf_cache_mode_is_valid (ocf_cache.c:56-59) *)
Definition mode_valid (m : N) : bool := m <? 6.

(** _cache_mngt_set_cache_mode (ocf_mngt_cache.c:3576-3605), without the counters *)
Definition set_cache_mode (m : N) (s : st) : res * st :=
  if negb (mode_valid m) then (EInval, s)
  else if m =? mode s then (Ok, s)
  else (Ok, w_mode s m).

(** ocf_mngt_cache_set_mode (ocf_mngt_cache.c:3607-3636): [result] is assigned, not
    returned, if the cache is detached *)
Definition set_mode (m : N) (s : st) : res * st :=
  if standby s then (EStandby, s)
  else if negb (mode_valid m) then (EInval, s)
  else set_cache_mode m s.

(** ** Cleaning *)

(** OCF_CLEANING_CHECK_PARAM (cleaning/cleaning_priv.h:14-19) *)
Definition checked (v lo hi : N) (s s' : st) : res * st :=
  if (v <? lo) || (hi <? v) then (EInval, s) else (Ok, s').

(** cleaning_policy_alru_set_cleaning_param (cleaning/alru.c:586-648); limits
    inc/cleaning/alru.h:32-78 *)
Definition alru_set (id v : N) (s : st) : res * st :=
  let c := s_alru s in
  match id with
  | 0 => checked v 0 3600 s (w_alru s {| al_wake := v; al_stale := al_stale c; al_bufs := al_bufs c; al_act := al_act c; al_ratio := al_ratio c |})
  | 1 => checked v 1 3600 s (w_alru s {| al_wake := al_wake c; al_stale := v; al_bufs := al_bufs c; al_act := al_act c; al_ratio := al_ratio c |})
  | 2 => checked v 1 10000 s (w_alru s {| al_wake := al_wake c; al_stale := al_stale c; al_bufs := v; al_act := al_act c; al_ratio := al_ratio c |})
  | 3 => checked v 0 1000000 s (w_alru s {| al_wake := al_wake c; al_stale := al_stale c; al_bufs := al_bufs c; al_act := v; al_ratio := al_ratio c |})
  | 4 => checked v 0 100 s (w_alru s {| al_wake := al_wake c; al_stale := al_stale c; al_bufs := al_bufs c; al_act := al_act c; al_ratio := v |})
  | _ => (EInval, s)
  end.

(** cleaning_policy_alru_get_cleaning_param (cleaning/alru.c:650-679) *)
Definition alru_get (id : N) (s : st) : res * N :=
  match id with
  | 0 => (Ok, al_wake (s_alru s))
  | 1 => (Ok, al_stale (s_alru s))
  | 2 => (Ok, al_bufs (s_alru s))
  | 3 => (Ok, al_act (s_alru s))
  | 4 => (Ok, al_ratio (s_alru s))
  | _ => (EInval, 0)
  end.

(** cleaning_policy_acp_set_cleaning_param (cleaning/acp.c:481-514); limits
    inc/cleaning/acp.h *)
Definition acp_set (id v : N) (s : st) : res * st :=
  let c := s_acp s in
  match id with
  | 0 => checked v 0 10000 s (w_acp s {| ac_wake := v; ac_bufs := ac_bufs c |})
  | 1 => checked v 1 10000 s (w_acp s {| ac_wake := ac_wake c; ac_bufs := v |})
  | _ => (EInval, s)
  end.

(** cleaning_policy_acp_get_cleaning_param (cleaning/acp.c:516-535) *)
Definition acp_get (id : N) (s : st) : res * N :=
  match id with
  | 1 => (Ok, ac_bufs (s_acp s))
  | 0 => (Ok, ac_wake (s_acp s))
  | _ => (EInval, 0)
  end.

(** ocf_mngt_cache_cleaning_set_param (ocf_mngt_flush.c:1111-1134), ocf_cleaning_set_param
    (cleaning/cleaning_ops.h:249-259); nop (0) has no parameters *)
Definition cleaning_set_param (t id v : N) (s : st) : res * st :=
  if 3 <=? t then (EInval, s)
  else if standby s then (EStandby, s)
  else if negb (attached s) then (EDetached, s)
  else match t with 1 => alru_set id v s | 2 => acp_set id v s | _ => (EInval, s) end.

(** ocf_mngt_cache_cleaning_get_param (ocf_mngt_flush.c:1136-1149) *)
Definition cleaning_get_param (t id : N) (s : st) : res * N :=
  if 3 <=? t then (EInval, 0)
  else if standby s then (EStandby, 0)
  else match t with 1 => alru_get id s | 2 => acp_get id s | _ => (EInval, 0) end.

(** ocf_mngt_cache_cleaning_set_policy (ocf_mngt_flush.c:1053-1096) and its steps
    (961-1033); [ok]: the new policy can be initialised.  Without a device the counter of
    the cleaner is not there (C60). *)
Definition cleaning_set_policy (t : N) (ok : bool) (s : st) : res * st :=
  if 3 <=? t then (EInval, s)
  else if standby s then (EStandby, s)
  else if t =? cpol s then (Ok, s)
  else if disabled s then (EDisabled, s)
  else if negb (attached s) then (Null, s)
  else if ok then (Ok, w_cpol s t)
  else (EFail, w_cpol s 0).

(** ** Promotion *)

(** nhit_init (promotion/nhit/nhit.c:41-82): pointers are set last *)
Definition nhit_init (ok : bool) (p : pol) : option pol :=
  if ok then Some {| p_type := p_type p; p_conf := 1; p_ctx := true |} else None.

(** The init functions of the policies (promotion.c:12-26); policy 0 has none *)
Definition pol_init (t : N) (ok : bool) (p : pol) : option pol :=
  if t =? 1 then nhit_init ok p else Some p.

(** nhit_deinit (promotion/nhit/nhit.c:84-92) *)
Definition pol_deinit (t : N) (p : pol) : option pol :=
  if t =? 1 then (if p_ctx p then Some {| p_type := p_type p; p_conf := p_conf p; p_ctx := false |} else None)
  else Some p.

(** ocf_promotion_init (promotion.c:28-61); [ctx] is not initialised, taken as not set *)
Definition promotion_init (t : N) (ok : bool) (s : st) : res * st :=
  if 2 <=? t then (Bug, s)
  else
    match pol_init t ok {| p_type := t; p_conf := t; p_ctx := false |} with
    | Some p => (Ok, w_prom s (ptype s) (Some p))
    | None => (EFail, w_prom s (ptype s) None)
    end.

(** ocf_promotion_set_policy (promotion.c:75-116) *)
Definition promotion_set_policy (t : N) (ok : bool) (s : st) : res * st :=
  match ppol s with
  | None => (Null, s)
  | Some p =>
      if 2 <=? t then (EInval, s)
      else
        let prev := ptype s in
        if t =? prev then (Ok, s)
        else
          match pol_deinit prev p with
          | None => (Null, s)
          | Some p =>
              let p := {| p_type := t; p_conf := p_conf p; p_ctx := p_ctx p |} in
              match pol_init t ok p with
              | Some p => (Ok, w_prom s t (Some p))
              | None => (EFail, w_prom s 0 (Some {| p_type := 0; p_conf := p_conf p; p_ctx := p_ctx p |}))
              end
          end
  end.

(** ocf_mngt_cache_promotion_set_policy (ocf_mngt_cache.c:3638-3655): as in set_mode, the
    error for a detached cache is overwritten *)
Definition mngt_promotion_set_policy (t : N) (ok : bool) (s : st) : res * st :=
  if standby s then (EStandby, s) else promotion_set_policy t ok s.

(** nhit_set_param (promotion/nhit/nhit.c:94-140); limits inc/promotion/nhit.h:15-20 *)
Definition nhit_set (id v : N) (s : st) : res * st :=
  match id with
  | 0 => if (2 <=? v) && (v <=? 1000) then (Ok, w_nhit s {| nh_ins := v; nh_trig := nh_trig (s_nhit s) |}) else (EInval, s)
  | 1 => if (0 <=? v) && (v <=? 100) then (Ok, w_nhit s {| nh_ins := nh_ins (s_nhit s); nh_trig := v |}) else (EInval, s)
  | _ => (EInval, s)
  end.

(** nhit_get_param (promotion/nhit/nhit.c:142-171) *)
Definition nhit_get (id : N) (s : st) : res * N :=
  match id with
  | 0 => (Ok, nh_ins (s_nhit s))
  | 1 => (Ok, nh_trig (s_nhit s))
  | _ => (EInval, 0)
  end.

(** ocf_mngt_cache_promotion_set_param (ocf_mngt_cache.c:3690-3708), ocf_promotion_set_param
    (promotion.c:118-131) *)
Definition promotion_set_param (t id v : N) (s : st) : res * st :=
  if standby s then (EStandby, s)
  else if negb (attached s) then (EDetached, s)
  else if 2 <=? t then (Bug, s)
  else if t =? 1 then nhit_set id v s else (EInval, s).

(** ocf_mngt_cache_promotion_get_param (ocf_mngt_cache.c:3673-3688), ocf_promotion_get_param
    (promotion.c:133-146) *)
Definition promotion_get_param (t id : N) (s : st) : res * N :=
  if standby s then (EStandby, 0)
  else if 2 <=? t then (Bug, 0)
  else if t =? 1 then nhit_get id s else (EInval, 0).

(** The thresholds that ocf_promotion_req_should_promote (promotion.c:159-173) uses, through
    [config] (promotion/nhit/nhit.c:194-250); None: the policy lets everything in.  The
    configuration of policy 0 is zeros. *)
Inductive used := UNull | UAlways | UNhit (c : nhit).
Definition thresholds (s : st) : used :=
  match ppol s with
  | None => UNull
  | Some p =>
      if p_type p =? 1 then
        (if p_ctx p then UNhit (if p_conf p =? 1 then s_nhit s else {| nh_ins := 0; nh_trig := 0 |}) else UNull)
      else UAlways
  end.

(** ** Sequential cut-off *)

Inductive cfield := FThr | FPol | FCnt | FProm.

(** The four setters of one core (ocf_mngt_core.c:982-1008, 1072-1098, 1148-1176,
    1227-1248), on a core's configuration *)
Definition core_set (f : cfield) (v : N) (c : ccfg) : res * ccfg :=
  match f with
  | FThr =>
      if (v <? 1) || (4294841344 <? v) then (EInval, c)
      else if cc_thr c =? v then (Ok, c)
      else (Ok, {| cc_opened := cc_opened c; cc_thr := v; cc_pol := cc_pol c; cc_cnt := cc_cnt c; cc_prom := cc_prom c |})
  | FPol =>
      if cc_pol c =? v then (Ok, c)
      else if 3 <=? v then (EInval, c)
      else (Ok, {| cc_opened := cc_opened c; cc_thr := cc_thr c; cc_pol := v; cc_cnt := cc_cnt c; cc_prom := cc_prom c |})
  | FCnt =>
      if (v <? 1) || (65535 <? v) then (EInval, c)
      else if cc_cnt c =? v then (Ok, c)
      else (Ok, {| cc_opened := cc_opened c; cc_thr := cc_thr c; cc_pol := cc_pol c; cc_cnt := v; cc_prom := cc_prom c |})
  | FProm =>
      let b := negb (v =? 0) in
      if Bool.eqb (cc_prom c) b then (Ok, c)
      else (Ok, {| cc_opened := cc_opened c; cc_thr := cc_thr c; cc_pol := cc_pol c; cc_cnt := cc_cnt c; cc_prom := b |})
  end.

Definition updc (m : N -> option ccfg) (i : N) (v : option ccfg) : N -> option ccfg := fun j => if j =? i then v else m j.

(** ocf_mngt_core_set_seq_cutoff_* (ocf_mngt_core.c:1010-1024, 1100-1115, 1178-1193,
    1250-1265); the caller has the core, so it is there *)
Definition set_core (i : N) (f : cfield) (v : N) (s : st) : res * st :=
  match cores s i with
  | None => (EInval, s)
  | Some c =>
      if standby s then (EStandby, s)
      else if negb (attached s) then (EDetached, s)
      else let (r, c) := core_set f v c in (r, w_cores s (updc (cores s) i (Some c)))
  end.

(** ocf_core_visit (ocf_core.c:121-148), only opened cores; [n] ids from [id] on *)
Fixpoint visit (n : nat) (id : N) (f : cfield) (v : N) (m : N -> option ccfg) : res * (N -> option ccfg) :=
  match n with
  | O => (Ok, m)
  | S n =>
      match m id with
      | None => visit n (id + 1) f v m
      | Some c =>
          if negb (cc_opened c) then visit n (id + 1) f v m
          else
            let (r, c) := core_set f v c in
            let m := updc m id (Some c) in
            match r with
            | Ok => visit n (id + 1) f v m
            | _ => (r, m)
            end
      end
  end.

(** ocf_mngt_core_set_seq_cutoff_*_all (ocf_mngt_core.c:1026-1039, 1116-1129, 1195-1208,
    1267-1281); OCF_CORE_MAX is 4096 *)
Definition core_max : nat := 4096.
Definition set_all (f : cfield) (v : N) (s : st) : res * st :=
  if standby s then (EStandby, s)
  else if negb (attached s) then (EDetached, s)
  else let (r, m) := visit core_max 0 f v (cores s) in (r, w_cores s m).

(** ocf_mngt_core_get_seq_cutoff_* (ocf_mngt_core.c:1041-1055, 1131-1146, 1210-1225,
    1283-1298) *)
Definition get_core (i : N) (f : cfield) (s : st) : res * N :=
  match cores s i with
  | None => (EInval, 0)
  | Some c =>
      if standby s then (EStandby, 0)
      else (Ok, match f with FThr => cc_thr c | FPol => cc_pol c | FCnt => cc_cnt c | FProm => if cc_prom c then 1 else 0 end)
  end.

(** Adding a core (ocf_mngt_core.c:473-493): the policy is the default one, the rest is
    taken from the caller's configuration; removing it; detaching it (805-810) *)
Definition add_core (i thr cnt : N) (prom : bool) (s : st) : res * st :=
  if standby s then (EStandby, s)
  else
    match cores s i with
    | Some _ => (EInval, s)
    | None => (Ok, w_cores s (updc (cores s) i (Some {| cc_opened := true; cc_thr := thr; cc_pol := 1; cc_cnt := cnt; cc_prom := prom |})))
    end.
Definition remove_core (i : N) (s : st) : res * st := (Ok, w_cores s (updc (cores s) i None)).
Definition close_core (i : N) (s : st) : res * st :=
  match cores s i with
  | Some c =>
      if cc_opened c
      then (Ok, w_cores s (updc (cores s) i (Some {| cc_opened := false; cc_thr := cc_thr c; cc_pol := cc_pol c; cc_cnt := cc_cnt c; cc_prom := cc_prom c |})))
      else (EInval, s)
  | None => (EInval, s)
  end.

(** ** Start, attach, detach *)

(** Defaults (cleaning/alru.c:355-366, cleaning/acp.c:239-247, promotion/nhit/nhit.c:20-28) *)
Definition alru_def : alru := {| al_wake := 20; al_stale := 120; al_bufs := 100; al_act := 10000; al_ratio := 100 |}.
Definition acp_def : acp := {| ac_wake := 10; ac_bufs := 128 |}.
Definition nhit_def : nhit := {| nh_ins := 3; nh_trig := 80 |}.

(** _ocf_mngt_cache_init (ocf_mngt_cache.c:1551-1568) with a configuration that passed
    _ocf_mngt_cache_validate_cfg (3096-3117); the superblock is zeroed memory *)
Definition start (m t : N) : st :=
  {| standby := false; attached := false; disabled := false; mode := m; cpol := 1;
     s_alru := {| al_wake := 0; al_stale := 0; al_bufs := 0; al_act := 0; al_ratio := 0 |};
     s_acp := {| ac_wake := 0; ac_bufs := 0 |};
     ptype := t; ppol := None; s_nhit := {| nh_ins := 0; nh_trig := 0 |}; cores := fun _ => None |}.

(** Attaching: _ocf_mngt_attach_init_services (ocf_mngt_cache.c:1451-1474) with
    __init_cleaning_policy (220-240) and __setup_promotion_policy (248-258), then
    _ocf_mngt_init_promotion (1813-1830); [dis]: cleaner disabled, [cok], [pok]: the
    policies can be initialised. *)
Definition attach (dis cok pok : bool) (s : st) : res * st :=
  if attached s then (EFail, s)
  else
    let s := w_dev s false dis in
    let s := w_nhit s nhit_def in
    let s := if dis then w_cpol s 0 else s in
    let s := w_acp (w_alru s alru_def) acp_def in
    if negb cok then (EFail, s)
    else
      match promotion_init (ptype s) pok s with
      | (Ok, s) => (Ok, w_dev s true (disabled s))
      | (r, s) => (r, s)
      end.

(** Detaching: _ocf_mngt_cache_deinit_services (ocf_mngt_cache.c:2197-2203) *)
Definition detach (s : st) : res * st :=
  if negb (attached s) then (EFail, s)
  else (Ok, w_dev (w_prom s (ptype s) None) false (disabled s)).

Inductive op :=
| SetMode (m : N)
| CleanParam (t id v : N)
| CleanPolicy (t : N) (ok : bool)
| PromPolicy (t : N) (ok : bool)
| PromParam (t id v : N)
| CoreParam (i : N) (f : cfield) (v : N)
| AllParam (f : cfield) (v : N)
| AddCore (i thr cnt : N) (prom : bool)
| RemoveCore (i : N)
| CloseCore (i : N)
| Attach (dis cok pok : bool)
| Detach.
Definition run (o : op) (s : st) : res * st :=
  match o with
  | SetMode m => set_mode m s
  | CleanParam t id v => cleaning_set_param t id v s
  | CleanPolicy t ok => cleaning_set_policy t ok s
  | PromPolicy t ok => mngt_promotion_set_policy t ok s
  | PromParam t id v => promotion_set_param t id v s
  | CoreParam i f v => set_core i f v s
  | AllParam f v => set_all f v s
  | AddCore i thr cnt prom => add_core i thr cnt prom s
  | RemoveCore i => remove_core i s
  | CloseCore i => close_core i s
  | Attach dis cok pok => attach dis cok pok s
  | Detach => detach s
  end.
(** A run; it ends at the first crash. *)
Fixpoint runs (l : list op) (s : st) : option st :=
  match l with
  | [] => Some s
  | o :: r =>
      match run o s with
      | (Null, _) | (Bug, _) => None
      | (_, s) => runs r s
      end
  end.

(* Model of the service manager: directory of services and instances, reservations, pending lookups, deadlines, prepare shutdown.
   Sources, under /repo/middleware: service/include/service/manager/state.h, service/source/manager/state.cpp,
   service/source/manager/handle.cpp, common/include/casual/container.h.

   Identifiers (process ids, ipc ids, correlations, service names, aliases, global transaction ids) are integers, 0 being the
   "nil" value.  A handler is a function from the state to the new state and the list of its observable effects, in order.
   An exception (use of an index that is not present) is the effect [O_raise] and the model carries on: SvcProps shows it never
   appears.  One handler reads the clock once (the code reads it several times).  Not modelled: metrics and event subscriptions,
   visibility, category and transaction mode of services, run time updates of the configuration, the admin services. *)
From Coq Require Import ZArith List Bool.
From Verif Require Import FanModel.
Import ListNotations.
Local Open Scope Z_scope.

(* process::Handle and its operator bool, common/process.h:30-60 *)
Record handle := mk_h { h_pid : Z; h_ipc : Z }.
Definition h_nil : handle := mk_h 0 0.
Definition h_valid (h : handle) : bool := negb (h_pid h =? 0) && negb (h_ipc h =? 0).

(* ---------------------------------------------------------------- casual/container.h: Index *)
(* Index::operator [] and contains, container.h:71-94 *)
Definition get {A} (l : list (option A)) (i : nat) : option A := match nth_error l i with Some (Some x) => Some x | _ => None end.
(* m_data[ i] = x *)
Fixpoint put {A} (i : nat) (x : option A) (l : list (option A)) {struct l} : list (option A) :=
  match l, i with
  | [], _ => []
  | _ :: r, O => x :: r
  | y :: r, S i => y :: put i x r
  end.
(* a change of the value at i, if there is one *)
Definition upd {A} (i : nat) (f : A -> A) (l : list (option A)) : list (option A) :=
  match get l i with Some x => put i (Some (f x)) l | None => l end.
(* Index::insert and emplace, container.h:40-62: the first free slot, otherwise at the end *)
Fixpoint insert {A} (x : A) (l : list (option A)) : list (option A) * nat :=
  match l with
  | [] => ([Some x], 0%nat)
  | None :: r => (Some x :: r, 0%nat)
  | y :: r => let (r', i) := insert x r in (y :: r', S i)
  end.
(* Index::indexes, container.h:111-121 *)
Fixpoint indexes_from {A} (n : nat) (l : list (option A)) : list nat :=
  match l with
  | [] => []
  | Some _ :: r => n :: indexes_from (S n) r
  | None :: r => indexes_from (S n) r
  end.
Definition indexes {A} (l : list (option A)) : list nat := indexes_from 0 l.
(* the first index whose value satisfies f *)
Fixpoint position {A} (f : A -> bool) (l : list (option A)) : option nat :=
  match l with
  | [] => None
  | Some x :: r => if f x then Some 0%nat else match position f r with Some i => Some (S i) | None => None end
  | None :: r => match position f r with Some i => Some (S i) | None => None end
  end.

Definition mem (x : nat) (l : list nat) : bool := existsb (Nat.eqb x) l.
Definition memz (x : Z) (l : list Z) : bool := existsb (Z.eqb x) l.
Definition erase (x : nat) (l : list nat) : list nat := filter (fun y => negb (Nat.eqb x y)) l.

(* ---------------------------------------------------------------- state *)
(* instance::Caller, state.h:95-108 *)
Record caller := mk_c { c_proc : handle; c_corr : Z }.
Definition c_nil : caller := mk_c h_nil 0.

(* instance::Sequential, state.h:126-178; reserved service, caller, services *)
Record seqi := mk_q { q_proc : handle; q_resv : option nat; q_call : caller; q_serv : list nat }.
Definition idle (q : seqi) : bool := match q_resv q with None => true | Some _ => false end.
(* Sequential::reserve, state.cpp:50-60 (the assertion that it is idle: see reserve_sequential) *)
Definition q_reserve (s : nat) (c : caller) (q : seqi) : seqi := mk_q (q_proc q) (Some s) c (q_serv q).
(* Sequential::unreserve and discard, state.cpp:62-72 *)
Definition q_free (q : seqi) : seqi := mk_q (q_proc q) None c_nil (q_serv q).
(* Sequential::consume, state.h:151-158 *)
Definition q_consume (q : seqi) : seqi := mk_q (q_proc q) (q_resv q) c_nil (q_serv q).
(* Sequential::add and remove, state.cpp:84-92 *)
Definition q_add (s : nat) (q : seqi) : seqi := mk_q (q_proc q) (q_resv q) (q_call q) (q_serv q ++ [s]).
Definition q_remove (s : nat) (q : seqi) : seqi := mk_q (q_proc q) (q_resv q) (q_call q) (erase s (q_serv q)).

(* instance::Concurrent, state.h:180-195 *)
Record coni := mk_ci { ci_proc : handle; ci_order : Z }.

(* instances::Concurrent, state.h:277-290 *)
Record conc := mk_cc { cc_id : nat; cc_order : Z; cc_hops : Z }.
(* operator <, on (order, hops) *)
Definition cc_lt (a b : conc) : bool := (cc_order a <? cc_order b) || ((cc_order a =? cc_order b) && (cc_hops a <? cc_hops b)).

(* state::Service with its Instances, state.h:295-345, 362-410.  [v_prio]: length of the span m_prioritized_concurrent *)
Record svc := mk_v { v_name : Z; v_timeout : option Z; v_fatal : bool; v_seq : list nat; v_conc : list conc; v_prio : nat }.
Definition v_with_seq (l : list nat) (v : svc) : svc := mk_v (v_name v) (v_timeout v) (v_fatal v) l (v_conc v) (v_prio v).
Definition has_seq (v : svc) : bool := match v_seq v with [] => false | _ => true end.
Definition has_conc (v : svc) : bool := match v_conc v with [] => false | _ => true end.

(* pending::deadline::Entry, state.h:223-240 *)
Record entry := mk_d { d_when : Z; d_corr : Z; d_target : option nat; d_serv : option nat }.

(* service::lookup::Request, common/message/service.h:270-360 *)
Inductive semantic := Regular | NoReply | Wait | Forward.
Inductive requester := Internal | External | ExternalDiscovery.
Record request := mk_r { r_corr : Z; r_proc : handle; r_name : Z; r_sem : semantic; r_req : requester; r_deadline : option Z; r_gtrid : Z }.
(* Request::no_reply, message/service.h:345-349 *)
Definition no_reply (r : request) : bool := match r_sem r with NoReply | Forward => true | _ => false end.

(* the interval timer of the process, signal/timer.h: not set, set to an instant, set to an indeterminate value *)
Inductive timer := T_unset | T_at (t : Z) | T_undefined.

Record state := mk_s {
  s_svc : list (option svc);               (* services.m_services *)
  s_names : list (Z * nat);                (* services.m_lookup *)
  s_seq : list (option seqi);              (* instances.sequential *)
  s_con : list (option coni);              (* instances.concurrent *)
  s_dead : list entry;                     (* pending.deadline *)
  s_pend : list (request * Z);             (* pending.lookups *)
  s_fan : fan Z Z;                         (* pending.shutdown: replies are process ids, callbacks the ipc to reply to *)
  s_assoc : list (Z * list nat);           (* transaction.associations *)
  s_late : list Z;                         (* timeout_instances *)
  s_disabled : list nat;                   (* disabled *)
  s_timer : timer }.

Definition with_svc x s := mk_s x (s_names s) (s_seq s) (s_con s) (s_dead s) (s_pend s) (s_fan s) (s_assoc s) (s_late s) (s_disabled s) (s_timer s).
Definition with_names x s := mk_s (s_svc s) x (s_seq s) (s_con s) (s_dead s) (s_pend s) (s_fan s) (s_assoc s) (s_late s) (s_disabled s) (s_timer s).
Definition with_seq x s := mk_s (s_svc s) (s_names s) x (s_con s) (s_dead s) (s_pend s) (s_fan s) (s_assoc s) (s_late s) (s_disabled s) (s_timer s).
Definition with_con x s := mk_s (s_svc s) (s_names s) (s_seq s) x (s_dead s) (s_pend s) (s_fan s) (s_assoc s) (s_late s) (s_disabled s) (s_timer s).
Definition with_dead x s := mk_s (s_svc s) (s_names s) (s_seq s) (s_con s) x (s_pend s) (s_fan s) (s_assoc s) (s_late s) (s_disabled s) (s_timer s).
Definition with_pend x s := mk_s (s_svc s) (s_names s) (s_seq s) (s_con s) (s_dead s) x (s_fan s) (s_assoc s) (s_late s) (s_disabled s) (s_timer s).
Definition with_fan x s := mk_s (s_svc s) (s_names s) (s_seq s) (s_con s) (s_dead s) (s_pend s) x (s_assoc s) (s_late s) (s_disabled s) (s_timer s).
Definition with_assoc x s := mk_s (s_svc s) (s_names s) (s_seq s) (s_con s) (s_dead s) (s_pend s) (s_fan s) x (s_late s) (s_disabled s) (s_timer s).
Definition with_late x s := mk_s (s_svc s) (s_names s) (s_seq s) (s_con s) (s_dead s) (s_pend s) (s_fan s) (s_assoc s) x (s_disabled s) (s_timer s).
Definition with_disabled x s := mk_s (s_svc s) (s_names s) (s_seq s) (s_con s) (s_dead s) (s_pend s) (s_fan s) (s_assoc s) (s_late s) x (s_timer s).
Definition with_timer x s := mk_s (s_svc s) (s_names s) (s_seq s) (s_con s) (s_dead s) (s_pend s) (s_fan s) (s_assoc s) (s_late s) (s_disabled s) x.

(* ---------------------------------------------------------------- effects *)
(* where a lookup is routed: a sequential instance, a concurrent one, the service-forward process *)
Inductive dest := D_seq (h : handle) | D_con (h : handle) | D_forward (h : handle).

Inductive out :=
| O_idle (r : request) (d : dest) (deadline : option Z)  (* lookup reply, state idle; the deadline as an instant *)
| O_absent (r : request)                                 (* lookup reply, state absent *)
| O_timeout (r : request)                                (* lookup reply, state timeout *)
| O_queued (r : request) (deadline : option Z)           (* no message: the lookup is queued, with this deadline *)
| O_dropped (r : request)                                (* no message: a queued lookup is removed by a discard *)
| O_discard_reply (ipc corr : Z) (discarded : bool)
| O_error (c : caller) (timeout : bool)                  (* call reply to the caller: TPETIME, or TPESVCERR *)
| O_assassinate (pid : Z) (fatal : bool)
| O_rollback (pid : Z)                                   (* rollback request to the transaction manager *)
| O_discover (corr name : Z)                             (* discovery request *)
| O_shutdown (ipc : Z) (pids : list Z)                   (* prepare shutdown reply *)
| O_lost (ipc : Z)                                       (* no message: a lookup reply to this destination can't be delivered *)
| O_raise.                                               (* an exception *)

(* the environment of one handler: the time; is a discovery request possible; destinations known to be gone;
   the random choice of a concurrent instance, per lookup *)
Record env := mk_env { e_now : Z; e_disc : bool; e_gone : Z -> bool; e_pick : Z -> nat }.

(* configuration: routes, global timeout, service-forward process, service restriction per alias (state.h:515-570) *)
Record config := mk_cfg { g_routes : Z -> list Z; g_timeout : option Z; g_fatal : bool; g_forward : handle; g_allow : Z -> Z -> bool }.

Definition then_ (x : state * list out) (f : state -> state * list out) : state * list out :=
  let (s, o) := x in let (s', o') := f s in (s', o ++ o').
Fixpoint each {A} (f : A -> state -> state * list out) (l : list A) (s : state) : state * list out :=
  match l with
  | [] => (s, [])
  | x :: r => then_ (f x s) (each f r)
  end.

(* ---------------------------------------------------------------- state.cpp: deadlines *)
(* Deadline::add, state.cpp:199-209: insert before the first later entry *)
Fixpoint dead_insert (e : entry) (l : list entry) : list entry :=
  match l with
  | [] => [e]
  | x :: r => if d_when e <? d_when x then e :: l else x :: dead_insert e r
  end.
(* is the new entry the first one? *)
Definition dead_first (e : entry) (l : list entry) : bool := match l with [] => true | x :: _ => d_when e <? d_when x end.

Fixpoint dead_erase (c : Z) (l : list entry) : list entry :=
  match l with
  | [] => []
  | x :: r => if d_corr x =? c then r else x :: dead_erase c r
  end.
(* Deadline::remove( correlation), state.cpp:211-219, and the timer in handle.cpp:1017-1019.  When the erased entry was the only one
   the code reads the end iterator: undefined behaviour, modelled as an indeterminate value of the timer *)
Definition dead_remove (c : Z) (s : state) : state :=
  match s_dead s with
  | [] => s
  | x :: r =>
      let s' := with_dead (dead_erase c (s_dead s)) s in
      if d_corr x =? c then
        match r with
        | [] => with_timer T_undefined s'
        | y :: _ => with_timer (T_at (d_when y)) s'
        end
      else s'
  end.
(* Deadline::find_entry, state.cpp:239-242 *)
Definition dead_find (c : Z) (l : list entry) : option entry := find (fun x => d_corr x =? c) l.
Fixpoint dead_update (c : Z) (t : nat) (v : nat) (l : list entry) : list entry :=
  match l with
  | [] => []
  | x :: r => if d_corr x =? c then mk_d (d_when x) c (Some t) (Some v) :: r else x :: dead_update c t v r
  end.
(* Deadline::expired, state.cpp:244-258: the entries before the first one that is not earlier than now *)
Fixpoint dead_expired (now : Z) (l : list entry) : list entry :=
  match l with [] => [] | x :: r => if now <=? d_when x then [] else x :: dead_expired now r end.
Fixpoint dead_rest (now : Z) (l : list entry) : list entry :=
  match l with [] => [] | x :: r => if now <=? d_when x then l else dead_rest now r end.

(* ---------------------------------------------------------------- state.cpp: instances of a service *)
(* Instances::add sequential, state.cpp:103-112 *)
Definition v_add_seq (i : nat) (v : svc) : svc := if mem i (v_seq v) then v else v_with_seq (v_seq v ++ [i]) v.
(* Instances::prioritize, state.cpp:164-174: the length of the part that is not greater than the front *)
Fixpoint prio_len (f : conc) (l : list conc) : nat :=
  match l with [] => 0%nat | x :: r => if cc_lt f x then 0%nat else S (prio_len f r) end.
Definition prioritize (v : svc) : svc :=
  mk_v (v_name v) (v_timeout v) (v_fatal v) (v_seq v) (v_conc v) (match v_conc v with [] => 0%nat | f :: _ => prio_len f (v_conc v) end).
(* std::sort after the push_back, for a list that is sorted: an insertion.  The order among equal elements is not specified by std::sort;
   nothing below depends on it *)
Fixpoint cc_insert (x : conc) (l : list conc) : list conc :=
  match l with
  | [] => [x]
  | y :: r => if cc_lt x y then x :: l else y :: cc_insert x r
  end.
Definition knows_conc (i : nat) (v : svc) : bool := existsb (fun c => Nat.eqb (cc_id c) i) (v_conc v).
(* Instances::add concurrent, state.cpp:114-130 *)
Definition v_add_conc (i : nat) (order hops : Z) (v : svc) : svc :=
  if knows_conc i v then v
  else prioritize (mk_v (v_name v) (v_timeout v) (v_fatal v) (v_seq v) (cc_insert (mk_cc i order hops) (v_conc v)) (v_prio v)).
(* Instances::remove sequential, state.cpp:141-145 *)
Definition v_del_seq (i : nat) (v : svc) : svc := v_with_seq (erase i (v_seq v)) v.
(* Instances::remove concurrent, state.cpp:132-139; an instance appears at most once *)
Definition v_del_conc (i : nat) (v : svc) : svc :=
  prioritize (mk_v (v_name v) (v_timeout v) (v_fatal v) (v_seq v) (filter (fun c => negb (Nat.eqb (cc_id c) i)) (v_conc v)) (v_prio v)).
Definition v_empty (v : svc) : bool := negb (has_seq v) && negb (has_conc v).
(* the span *)
Definition prioritized (v : svc) : list conc := firstn (v_prio v) (v_conc v).
(* Instances::next_concurrent, state.cpp:147-156.  The code takes the first of the span that is preferred, where the order of the span
   is the unspecified order of std::sort: an arbitrary one of them here *)
Definition next_concurrent (pick : nat) (pref : list nat) (v : svc) : option nat :=
  let p := prioritized v in
  let q := filter (fun c => mem (cc_id c) pref) p in
  let choose l := match nth_error l (Nat.modulo pick (length l)) with Some c => Some (cc_id c) | None => None end in
  match q with [] => choose p | _ => choose q end.
(* stable_sort, used by update_prioritized *)
Definition cc_sort (l : list conc) : list conc := fold_left (fun acc x => cc_insert x acc) l [].
(* Instances::update_prioritized, state.cpp:158-162 *)
Definition update_prioritized (v : svc) : svc :=
  prioritize (mk_v (v_name v) (v_timeout v) (v_fatal v) (v_seq v) (cc_sort (v_conc v)) (v_prio v)).

(* ---------------------------------------------------------------- state.cpp: services by name *)
(* Services::lookup, state.cpp:364-370 *)
Definition lookup_name (n : Z) (s : state) : option nat :=
  match find (fun x => fst x =? n) (s_names s) with Some (_, i) => Some i | None => None end.
(* m_lookup[ name] = id *)
Definition set_name (n : Z) (i : nat) (l : list (Z * nat)) : list (Z * nat) := (n, i) :: filter (fun x => negb (fst x =? n)) l.
Fixpoint first_known (ns : list Z) (s : state) : option nat :=
  match ns with [] => None | n :: r => match lookup_name n s with Some i => Some i | None => first_known r s end end.
(* Services::insert, state.cpp:283-317; without routes: the name itself *)
Definition insert_service (cfg : config) (v : svc) (s : state) : state * nat :=
  match g_routes cfg (v_name v) with
  | [] =>
      match lookup_name (v_name v) s with
      | Some i => (s, i)
      | None => let (l, i) := insert v (s_svc s) in (with_names (set_name (v_name v) i (s_names s)) (with_svc l s), i)
      end
  | routes =>
      let (s', i) :=
        match lookup_name (v_name v) s with
        | Some i => (s, i)
        | None => match first_known routes s with
                  | Some i => (s, i)
                  | None => let (l, i) := insert v (s_svc s) in (with_svc l s, i)
                  end
        end in
      (with_names (fold_left (fun l n => set_name n i l) routes (s_names s')) s', i)
  end.
(* Services::names, state.cpp:387-393 *)
Definition names_of (i : nat) (s : state) : list Z := map fst (filter (fun x => Nat.eqb (snd x) i) (s_names s)).

(* ---------------------------------------------------------------- state.cpp: instances *)
Definition find_seq (ipc : Z) (s : state) : option nat := position (fun q => h_ipc (q_proc q) =? ipc) (s_seq s).
Definition find_con (ipc : Z) (s : state) : option nat := position (fun q => h_ipc (ci_proc q) =? ipc) (s_con s).
(* find_or_add_instance, state.cpp:446-452 *)
Definition find_or_add_seq (h : handle) (s : state) : state * nat :=
  match find_seq (h_ipc h) s with
  | Some i => (s, i)
  | None => let (l, i) := insert (mk_q h None c_nil []) (s_seq s) in (with_seq l s, i)
  end.
Definition find_or_add_con (h : handle) (s : state) : state * nat :=
  match find_con (h_ipc h) s with
  | Some i => (s, i)
  | None => let (l, i) := insert (mk_ci h 0) (s_con s) in (with_con l s, i)
  end.

(* find_or_add_service for a sequential instance, state.cpp:454-480, 695-706; the timeout is the global one *)
Definition add_seq_service (cfg : config) (i : nat) (n : Z) (s : state) : state :=
  let (s, v) := insert_service cfg (mk_v n (g_timeout cfg) (g_fatal cfg) [] [] 0) s in
  with_svc (upd v (v_add_seq i) (s_svc s)) (with_seq (upd i (q_add v) (s_seq s)) s).
(* ... for a concurrent instance, state.cpp:779-793; (name, hops, timeout) *)
Definition add_con_service (cfg : config) (i : nat) (order : Z) (x : Z * Z * Z) (s : state) : state :=
  let '(n, hops, t) := x in
  let (s, v) := insert_service cfg (mk_v n (if 0 <? t then Some t else None) false [] [] 0) s in
  with_svc (upd v (v_add_conc i order hops) (s_svc s)) s.

(* remove_services, state.cpp:483-496 *)
Definition remove_seq_services (i : nat) (ns : list Z) (s : state) : state :=
  fold_left (fun s v =>
    match get (s_svc s) v with
    | Some x => if memz (v_name x) ns then with_svc (upd v (v_del_seq i) (s_svc s)) (with_seq (upd i (q_remove v) (s_seq s)) s) else s
    | None => s
    end) (indexes (s_svc s)) s.
Definition remove_con_services (i : nat) (ns : list Z) (s : state) : state :=
  fold_left (fun s v =>
    match get (s_svc s) v with
    | Some x => if memz (v_name x) ns then with_svc (upd v (v_del_conc i) (s_svc s)) s else s
    | None => s
    end) (indexes (s_svc s)) s.

(* clean_instances_from_services for one instance, state.cpp:531-536 *)
Definition map_svc (f : svc -> svc) (s : state) : state := with_svc (map (option_map f) (s_svc s)) s.

(* local::remove, state.cpp:520-564, State::remove, state.cpp:569-586 (the forward process is taken not to exit).  The test on the process is a parameter *)
Definition remove_con_instance (i : nat) (s : state) : state := with_con (put i None (s_con s)) (map_svc (v_del_conc i) s).
Definition remove_seq_instance (i : nat) (s : state) : state :=
  with_disabled (erase i (s_disabled s)) (with_seq (put i None (s_seq s)) (map_svc (v_del_seq i) s)).
Definition having {A} (f : A -> bool) (l : list (option A)) : list nat :=
  filter (fun i => match get l i with Some x => f x | None => false end) (indexes l).
(* the caller of an instance, if it waits for a reply *)
Definition caller_of (s : state) (i : nat) : list caller :=
  match get (s_seq s) i with
  | Some q => if h_valid (c_proc (q_call q)) then [q_call q] else []
  | None => []
  end.
Definition remove_process (p : handle -> bool) (s : state) : state * list caller :=
  let con := having (fun q => p (ci_proc q)) (s_con s) in
  let seq := having (fun q => p (q_proc q)) (s_seq s) in
  (fold_left (fun s i => remove_seq_instance i s) seq (fold_left (fun s i => remove_con_instance i s) con s),
   flat_map (caller_of s) seq).

(* ---------------------------------------------------------------- handle.cpp: lookups *)
(* calculate_deadline, handle.cpp:365-374 *)
Definition calculate_deadline (v : svc) (now : Z) (caller_deadline : option Z) : option Z :=
  match v_timeout v with
  | Some d =>
      if 0 <? d then
        match caller_deadline with
        | Some c => if now + d <? c then Some (now + d) else Some c
        | None => Some (now + d)
        end
      else caller_deadline
  | None => caller_deadline
  end.

Definition queue (e : env) (r : request) (s : state) : state := with_pend (s_pend s ++ [(r, e_now e)]) s.

(* discover, handle.cpp:376-406 *)
Definition discover (e : env) (r : request) (name : Z) (s : state) : state * list out :=
  if e_disc e then (queue e r s, [O_discover (r_corr r) name; O_queued r None])
  else match r_sem r with
       | Wait => (queue e r s, [O_queued r None])
       | _ => (s, [O_absent r])
       end.

(* the discard when a reply can't be delivered, handle.cpp:486-491: the instance is looked up by the destination of the reply *)
Definition undeliverable (ipc : Z) (s : state) : state :=
  match find_seq ipc s with Some i => with_seq (upd i q_free (s_seq s)) s | None => s end.
Definition lost (ipc : Z) (s : state) : state * list out := (undeliverable ipc s, [O_lost ipc]).
(* state.multiplex.send: the callback is invoked at once if the destination is known to be gone *)
Definition send_reply (e : env) (r : request) (d : dest) (deadline : option Z) (s : state) : state * list out :=
  then_ (s, [O_idle r d deadline]) (fun s => if e_gone e (h_ipc (r_proc r)) then lost (h_ipc (r_proc r)) s else (s, [])).

(* dispatch::lookup::reply for a concurrent instance, handle.cpp:421-492 *)
Definition reply_con (e : env) (r : request) (vi i : nat) (s : state) : state * list out :=
  match get (s_svc s) vi, get (s_con s) i with
  | Some v, Some c => send_reply e r (D_con (ci_proc c)) (calculate_deadline v (e_now e) (r_deadline r)) s
  | _, _ => (s, [O_raise])
  end.
(* ... for a sequential instance *)
Definition reply_seq (e : env) (r : request) (vi i : nat) (s : state) : state * list out :=
  match get (s_svc s) vi, get (s_seq s) i with
  | Some v, Some q =>
      match dead_find (r_corr r) (s_dead s) with
      | Some x => send_reply e r (D_seq (q_proc q)) (Some (d_when x)) (with_dead (dead_update (r_corr r) i vi (s_dead s)) s)
      | None =>
          match calculate_deadline v (e_now e) (r_deadline r) with
          | Some d =>
              let x := mk_d d (r_corr r) (Some i) (Some vi) in
              let s' := with_dead (dead_insert x (s_dead s)) s in
              let s' := if dead_first x (s_dead s) then with_timer (T_at d) s' else s' in
              send_reply e r (D_seq (q_proc q)) (Some d) s'
          | None => send_reply e r (D_seq (q_proc q)) None s
          end
      end
  | _, _ => (s, [O_raise])
  end.

(* dispatch::lookup::pending, handle.cpp:494-539 *)
Definition lookup_pending (cfg : config) (e : env) (r : request) (v : svc) (s : state) : state * list out :=
  match r_sem r with
  | NoReply => (s, [O_idle r (D_forward (g_forward cfg)) None])
  | Regular | Forward =>
      match calculate_deadline v (e_now e) (r_deadline r) with
      | Some d =>
          if has_seq v then (queue e r (with_dead (dead_insert (mk_d d (r_corr r) None None) (s_dead s)) s), [O_queued r (Some d)])
          else (queue e r s, [O_queued r None])
      | None => (queue e r s, [O_queued r None])
      end
  | Wait => (queue e r s, [O_queued r None])
  end.

(* State::reserve_sequential, state.cpp:588-609: the first idle instance *)
Inductive found := F_none | F_some (i : nat) | F_raise.
Fixpoint first_idle (l : list nat) (s : state) : found :=
  match l with
  | [] => F_none
  | i :: r => match get (s_seq s) i with
              | None => F_raise
              | Some q => if idle q then F_some i else first_idle r s
              end
  end.

(* dispatch::lookup::internal_only, handle.cpp:541-561; None: false *)
Definition internal_only (cfg : config) (e : env) (r : request) (vi : nat) (v : svc) (s : state) : option (state * list out) :=
  if has_seq v then
    match first_idle (v_seq v) s with
    | F_some i =>
        let c := mk_c (if no_reply r then h_nil else r_proc r) (r_corr r) in
        Some (reply_seq e r vi i (with_seq (upd i (q_reserve vi c) (s_seq s)) s))
    | F_none => Some (lookup_pending cfg e r v s)
    | F_raise => Some (s, [O_raise])
    end
  else None.

Definition assoc_of (g : Z) (s : state) : option (list nat) :=
  match find (fun x => fst x =? g) (s_assoc s) with Some (_, l) => Some l | None => None end.
Definition set_assoc (g : Z) (l : list nat) (s : state) : state :=
  with_assoc ((g, l) :: filter (fun x => negb (fst x =? g)) (s_assoc s)) s.

(* dispatch::lookup::external_internal, handle.cpp:563-606 *)
Definition external_internal (cfg : config) (e : env) (r : request) (vi : nat) (v : svc) (s : state) : option (state * list out) :=
  match internal_only cfg e r vi v s with
  | Some x => Some x
  | None =>
      if r_gtrid r =? 0 then
        match next_concurrent (e_pick e (r_corr r)) [] v with
        | Some i => Some (reply_con e r vi i s)
        | None => None
        end
      else
        match assoc_of (r_gtrid r) s with
        | Some l =>
            match next_concurrent (e_pick e (r_corr r)) l v with
            | Some i => Some (reply_con e r vi i (if mem i l then s else set_assoc (r_gtrid r) (l ++ [i]) s))
            | None => None
            end
        | None =>
            match next_concurrent (e_pick e (r_corr r)) [] v with
            | Some i => Some (reply_con e r vi i (set_assoc (r_gtrid r) [i] s))
            | None => None
            end
        end
  end.

(* detail::lookup, handle.cpp:610-647 *)
Definition lookup (cfg : config) (e : env) (r : request) (s : state) : state * list out :=
  match lookup_name (r_name r) s with
  | Some vi =>
      match get (s_svc s) vi with
      | None => (s, [O_raise])
      | Some v =>
          match r_req r with
          | External => match internal_only cfg e r vi v s with Some x => x | None => (s, [O_absent r]) end
          | _ => match external_internal cfg e r vi v s with Some x => x | None => discover e r (v_name v) s end
          end
      end
  | None => match r_req r with Internal => discover e r (r_name r) s | _ => (s, [O_absent r]) end
  end.

(* detail::handle::pending, handle.cpp:709-727 *)
Definition lookup_again (cfg : config) (e : env) (l : list (request * Z)) (s : state) : state * list out :=
  each (fun p => lookup cfg e (fst p)) l s.

(* find and extract the first pending lookup that satisfies f *)
Fixpoint extract_first {A} (f : A -> bool) (l : list A) : option (A * list A) :=
  match l with
  | [] => None
  | x :: r => if f x then Some (x, r) else match extract_first f r with Some (y, r') => Some (y, x :: r') | None => None end
  end.

(* does the instance have the requested service? state.cpp:714-719, handle.cpp:1055-1058 *)
Definition provides (q : seqi) (s : state) (p : request * Z) : bool :=
  match lookup_name (r_name (fst p)) s with Some vi => mem vi (q_serv q) | None => false end.

(* take the first pending lookup that the instance can serve and look it up; state.cpp:712-726 and handle.cpp:1048-1070 *)
Definition serve_first (cfg : config) (e : env) (i : nat) (s : state) : state * list out :=
  match get (s_seq s) i with
  | None => (s, [O_raise])
  | Some q =>
      match extract_first (provides q s) (s_pend s) with
      | Some (p, rest) => lookup cfg e (fst p) (with_pend rest s)
      | None => (s, [])
      end
  end.

(* ---------------------------------------------------------------- messages *)
(* Advertise: add (names), remove (names); concurrent::Advertise: directive, order, add (name, hops, timeout), remove *)
Inductive directive := Dir_update | Dir_reset | Dir_instance.
Inductive input :=
| I_advertise (h : handle) (alias : Z) (add : list Z) (remove : list Z)
| I_concurrent (h : handle) (alias : Z) (dir : directive) (order : Z) (add : list (Z * Z * Z)) (remove : list Z)
| I_lookup (r : request)
| I_discard (ipc corr : Z) (reply : bool)
| I_ack (corr : Z) (h : handle) (trid : bool)
| I_exit (pid : Z)
| I_timeout
| I_prepare (ipc : Z) (hs : list handle)
| I_disassociate (gtrid : Z)
| I_discovered (corr : Z)
| I_undeliverable (ipc : Z).

(* State::update( Advertise), state.cpp:661-726, and handle.cpp:318-328 *)
Definition advertise (cfg : config) (e : env) (h : handle) (alias : Z) (add remove : list Z) (s : state) : state * list out :=
  if negb (h_valid h) then (s, [])
  else match add, remove with
  | [], [] => (fst (remove_process (fun x => h_pid x =? h_pid h) s), [])
  | _, _ =>
      let add := filter (g_allow cfg alias) add in
      let (s, i) := find_or_add_seq h s in
      if mem i (s_disabled s) then
        (with_disabled (match extract_first (Nat.eqb i) (s_disabled s) with Some (_, l) => l | None => s_disabled s end) s, [])
      else
        let s := fold_left (fun s n => add_seq_service cfg i n s) add s in
        let s := remove_seq_services i remove s in
        serve_first cfg e i s
  end.

Definition concurrent_only (s : state) (p : request * Z) : bool :=
  match lookup_name (r_name (fst p)) s with
  | Some vi => match get (s_svc s) vi with Some v => has_conc v && negb (has_seq v) | None => false end
  | None => false
  end.

(* State::update( concurrent::Advertise), state.cpp:729-813, and handle.cpp:332-342 *)
Definition advertise_con (cfg : config) (e : env) (h : handle) (alias : Z) (dir : directive) (order : Z) (add : list (Z * Z * Z)) (remove : list Z) (s : state) : state * list out :=
  if negb (h_valid h) then (s, [])
  else match dir with
  | Dir_reset => (fst (remove_process (fun x => h_ipc x =? h_ipc h) s), [])
  | Dir_instance =>
      match find_con (h_ipc h) s with
      | None => (s, [])
      | Some i => (map_svc update_prioritized (with_con (upd i (fun c => mk_ci (ci_proc c) order) (s_con s)) s), [])
      end
  | Dir_update =>
      let add := filter (fun x => g_allow cfg alias (fst (fst x))) add in
      let (s, i) := find_or_add_con h s in
      let s := with_con (upd i (fun c => mk_ci (ci_proc c) order) (s_con s)) s in
      let s := fold_left (fun s x => add_con_service cfg i order x s) add s in
      let s := remove_con_services i remove s in
      let (found, rest) := partition (concurrent_only s) (s_pend s) in
      lookup_again cfg e found (with_pend rest s)
  end.

(* service::discard::lookup, handle.cpp:661-701 *)
Definition discard (ipc corr : Z) (reply : bool) (s : state) : state * list out :=
  match extract_first (fun p => r_corr (fst p) =? corr) (s_pend s) with
  | Some (p, rest) => (with_pend rest s, O_dropped (fst p) :: (if reply then [O_discard_reply ipc corr true] else []))
  | None =>
      (with_seq (map (option_map (fun q => if negb (idle q) && (c_corr (q_call q) =? corr) then q_free q else q)) (s_seq s)) s,
       if reply then [O_discard_reply ipc corr false] else [])
  end.

(* the callback of a prepare shutdown, handle.cpp:826-848: the processes of the acks *)
Definition shutdown_fired (d : fired Z Z) : out := O_shutdown (d_call d) (map snd (d_recv d)).

(* check_timeout_and_notify_TM, handle.cpp:983-1001 *)
Definition notify_tm (pid : Z) (trid : bool) (s : state) : state * list out :=
  if negb trid then (s, [])
  else match extract_first (Z.eqb pid) (s_late s) with
       | Some (_, l) => (with_late l s, [O_rollback pid])
       | None => (s, [])
       end.

(* ack, handle.cpp:1010-1072 *)
Definition ack (cfg : config) (e : env) (corr : Z) (h : handle) (trid : bool) (s : state) : state * list out :=
  then_ (notify_tm (h_pid h) trid (dead_remove corr s)) (fun s =>
    match find_seq (h_ipc h) s with
    | None => (s, [])
    | Some i =>
        let s := with_seq (upd i q_free (s_seq s)) s in
        if mem i (s_disabled s) then
          match fan_reply corr (h_pid h) (s_fan s) with
          | Some (f, ds) => (with_fan f s, map shutdown_fired ds)
          | None => (s, [O_raise])
          end
        else serve_first cfg e i s
    end).

(* event::process::exit, handle.cpp:241-269 *)
Definition process_exit (cfg : config) (e : env) (pid : Z) (s : state) : state * list out :=
  let (f, ds) := fan_failed pid (s_fan s) in
  let (s, cs) := remove_process (fun x => h_pid x =? pid) (with_fan f s) in
  let s := with_late (filter (fun x => negb (x =? pid)) (s_late s)) s in
  then_ (with_pend [] s, map shutdown_fired ds ++ map (fun c => O_error c false) cs)
        (lookup_again cfg e (s_pend s)).

(* the handling of one expired entry, handle.cpp:127-189 *)
Definition expire_one (x : entry) (s : state) : state * list out :=
  match extract_first (fun p => r_corr (fst p) =? d_corr x) (s_pend s) with
  | Some (p, rest) => (with_pend rest s, [O_timeout (fst p)])
  | None =>
      match d_serv x, d_target x with
      | Some vi, Some i =>
          match get (s_svc s) vi, get (s_seq s) i with
          | Some v, Some q =>
              if c_corr (q_call q) =? d_corr x then
                let s' := with_seq (upd i q_consume (s_seq s)) s in
                if h_valid (c_proc (q_call q)) then
                  let s' := with_late (s_late s' ++ [h_pid (q_proc q)]) s' in
                  let s' := if v_fatal v then with_disabled (s_disabled s' ++ [i]) s' else s' in
                  (s', [O_error (q_call q) true; O_assassinate (h_pid (q_proc q)) (v_fatal v)])
                else (s', [])
              else (s, [])
          | _, _ => (s, [])
          end
      | _, _ => (s, [])
      end
  end.
(* handle::timeout, handle.cpp:118-195 *)
Definition timeout (e : env) (s : state) : state * list out :=
  let expired := dead_expired (e_now e) (s_dead s) in
  let rest := dead_rest (e_now e) (s_dead s) in
  then_ (each expire_one expired (with_dead rest s)) (fun s =>
    match rest with [] => (s, []) | x :: _ => (with_timer (T_at (d_when x)) s, []) end).

(* State::prepare_shutdown, state.cpp:633-659, for one process: services left without instances, instances, unknown *)
Definition prepare_services (i : nat) (l : list nat) (s : state) : state * list Z * bool :=
  fold_left (fun x vi =>
    let '(s, ns, ok) := x in
    match get (s_svc s) vi with
    | None => (s, ns, false)
    | Some v => (with_svc (upd vi (v_del_seq i) (s_svc s)) s, if v_empty (v_del_seq i v) then ns ++ names_of vi s else ns, ok)
    end) l (s, [], true).
Fixpoint prepare_each (hs : list handle) (s : state) : state * list Z * list nat * list handle * bool :=
  match hs with
  | [] => (s, [], [], [], true)
  | h :: r =>
      match find_seq (h_ipc h) s with
      | Some i =>
          let '(s1, ns, ok1) := match get (s_seq s) i with
                                | Some q => prepare_services i (q_serv q) s
                                | None => (s, [], false)
                                end in
          let '(s2, ns2, is2, us2, ok2) := prepare_each r s1 in (s2, ns ++ ns2, i :: is2, us2, ok1 && ok2)
      | None => let '(s2, ns2, is2, us2, ok2) := prepare_each r s in (s2, ns2, is2, h :: us2, ok2)
      end
  end.
Definition seq_proc (i : nat) (s : state) : handle := match get (s_seq s) i with Some q => q_proc q | None => h_nil end.
Definition seq_busy (i : nat) (s : state) : bool := match get (s_seq s) i with Some q => negb (idle q) | None => false end.
Definition seq_corr (i : nat) (s : state) : Z := match get (s_seq s) i with Some q => c_corr (q_call q) | None => 0 end.

(* prepare::shutdown, handle.cpp:741-854.  The order within a reply is not specified (std::partition) *)
Definition prepare (cfg : config) (e : env) (ipc : Z) (hs : list handle) (s : state) : state * list out :=
  let '(s, ns, is, us, ok) := prepare_each hs s in
  let ns := flat_map (fun n => match g_routes cfg n with [] => [n] | rs => rs end) ns in
  then_ (let (found, rest) := partition (fun p => memz (r_name (fst p)) ns) (s_pend s) in
         lookup_again cfg e found (with_pend rest s))
  (fun s =>
    let busy := filter (fun i => seq_busy i s) is in
    let free := filter (fun i => negb (seq_busy i s)) is in
    let now := match free, us with [], [] => [] | _, _ => [O_shutdown ipc (map h_pid us ++ map (fun i => h_pid (seq_proc i s)) free)] end in
    let o := if ok then now else O_raise :: now in
    match busy with
    | [] => (s, o)
    | _ =>
        let s' := with_disabled (s_disabled s ++ busy) s in
        let (f, ds) := fan_start (map (fun i => (seq_corr i s, h_pid (seq_proc i s))) busy) ipc (s_fan s') in
        (with_fan f s', o ++ map shutdown_fired ds)
    end).

(* State::disassociate, state.cpp:815-824 *)
Definition disassociate (g : Z) (s : state) : state := with_assoc (filter (fun x => negb (fst x =? g)) (s_assoc s)) s.

(* discovery::api::reply, handle.cpp:910-942 *)
Definition discovered (cfg : config) (e : env) (corr : Z) (s : state) : state * list out :=
  match extract_first (fun p => r_corr (fst p) =? corr) (s_pend s) with
  | None => (s, [])
  | Some (p, rest) =>
      let available := match lookup_name (r_name (fst p)) s with
                       | Some vi => match get (s_svc s) vi with Some v => negb (v_empty v) | None => false end
                       | None => false
                       end in
      if available then lookup cfg e (fst p) (with_pend rest s)
      else match r_sem (fst p) with
           | Wait => (s, [])
           | _ => (with_pend rest s, [O_absent (fst p)])
           end
  end.

Definition step (cfg : config) (e : env) (i : input) (s : state) : state * list out :=
  match i with
  | I_advertise h alias add rem => advertise cfg e h alias add rem s
  | I_concurrent h alias dir order add rem => advertise_con cfg e h alias dir order add rem s
  | I_lookup r => lookup cfg e r s
  | I_discard ipc corr reply => discard ipc corr reply s
  | I_ack corr h trid => ack cfg e corr h trid s
  | I_exit pid => process_exit cfg e pid s
  | I_timeout => timeout e s
  | I_prepare ipc hs => prepare cfg e ipc hs s
  | I_disassociate g => (disassociate g s, [])
  | I_discovered corr => discovered cfg e corr s
  | I_undeliverable ipc => lost ipc s
  end.

(* the start: services from the configuration (name, timeout, fatal), configuration.cpp:92-98, without instances *)
Definition empty : state := mk_s [] [] [] [] [] [] fan_empty [] [] [] T_unset.
Definition start (cfg : config) (l : list (Z * option Z * bool)) : state :=
  fold_left (fun s x => let '(n, t, f) := x in fst (insert_service cfg (mk_v n t f [] [] 0) s)) l empty.

(* what an observer sees: the messages received and the effects, in order *)
Inductive obs := Rcv (e : env) (i : input) | Eff (o : out).
Fixpoint run (cfg : config) (l : list (env * input)) (s : state) : state * list obs :=
  match l with
  | [] => (s, [])
  | (e, i) :: r =>
      let (s1, o) := step cfg e i s in
      let (s2, t) := run cfg r s1 in (s2, Rcv e i :: map Eff o ++ t)
  end.

(* The queue forward: moves messages from a queue to a service (and the reply to a queue), or to another queue.
   /repo/middleware/queue/source/forward/{handle,state,main}.cpp, /repo/middleware/queue/include/queue/forward/state.h *)
From Coq Require Import ZArith List Bool.
Import ListNotations.
Local Open Scope Z_scope.

(* names, ids, correlations, transactions, processes (ipc) and messages are integers; 0 as id or process is nil. A message is all that the queue has
   but for its id, which is new in the other queue (handle.cpp:572) *)

(* state.h:60-94: Source and Target: the name that is configured, and what the queue-manager has told *)
Record ref := Ref { r_name : Z; r_id : Z; r_ipc : Z }.
(* Source::operator bool, state.h:66 *)
Definition ref_valid (r : ref) : bool := negb (r_id r =? 0) && negb (r_ipc r =? 0).
(* Source::invalidate, state.h:67-71 *)
Definition ref_invalidate (r : ref) : ref := Ref (r_name r) 0 0.

(* forward::Service and forward::Queue, state.h:150-250. [f_service]: the service of a service-forward, None for a queue-forward. [f_dest]: the reply
   queue (if any) of a service-forward, the target of a queue-forward (always), with the delay. Selector, metric and note are left out *)
Record forward := Forward {
  f_id : Z; f_alias : Z; f_service : option Z; f_source : ref; f_dest : option (ref * Z); f_enabled : bool; f_configured : nat; f_running : nat }.
(* valid_queues, state.h:182, 234 *)
Definition valid_queues (f : forward) : bool := ref_valid (f_source f) && match f_dest f with Some (d, _) => ref_valid d | None => true end.
(* Instances::missing, surplus, absent: state.h:101-118. The counts are natural numbers: configured isn't negative *)
Definition missing (f : forward) : nat := f_configured f - f_running f.
Definition surplus (f : forward) : nat := f_running f - f_configured f.
Definition absent (f : forward) : bool := (f_configured f =? 0)%nat && (f_running f =? 0)%nat.

(* where a flow is, state.h:370-420: the member of Pending that it's in. [LookQ] is not a flow, but a lookup of one of the queues of a forward *)
Inductive stage := LookQ | Deq | LookS | Disc | Calling | Enq | Com | Rol.
(* pending::base, transaction_base, service::Lookup: state.h:254-355. One list for all the members, in the order they are added (in C++ a
   filter can permute a member, but each is found by its correlation or all of a forward are taken); [p_trid] is 0 for a
   lookup of a queue, [p_data] is only for [LookS] *)
Record pend := Pend { p_stage : stage; p_fwd : Z; p_corr : Z; p_trid : Z; p_data : Z }.

Inductive runlevel := Startup | Running | Down.
(* State, state.h:435-478. [s_next]: what isn't used yet of what is generated as correlations and transactions *)
Record state := State { s_run : runlevel; s_forwards : list forward; s_pending : list pend; s_next : Z }.
Definition state0 : state := State Startup [] [] 1.

(* what it sends. [f] in AskQueue, Dequeue: the forward it's for (not in the message) *)
Inductive effect :=
| AskQueue (f k name : Z)                                       (* lookup::Request to the queue-manager, waits for ever *)
| DiscardQueue (k : Z)                                          (* lookup::discard::Request *)
| Dequeue (f p k t q name : Z)                                  (* group::dequeue::Request to p, blocking *)
| Forget (p k : Z)                                              (* dequeue::forget::Request *)
| AskService (k service : Z)                                    (* service::lookup::Request, waits for ever *)
| DiscardService (k service : Z)
| Call (p k t service data : Z)
| Enqueue (p k t q name data delay : Z)                         (* group::enqueue::Request to p *)
| Commit (k t : Z)                                              (* to the TM *)
| Rollback (k t : Z)
| Fake (k : Z)                                                  (* an enqueue::Reply without id to itself *)
| Invalid (name : Z)                                            (* the error event: can't forward from a remote queue *)
| Updated.

(* configuration::model::queue::forward::Service, Queue, with whether the groups of it are enabled *)
Record conf := Conf { g_alias : Z; g_service : option Z; g_source : Z; g_dest : option (Z * Z); g_enabled : bool; g_instances : nat }.

(* what arrives. [NotDequeued], [NotEnqueued]: the callback of a send that has failed, handle.cpp:231-236, 769-774 *)
Inductive input :=
| Update (l : list conf)
| QueueFound (k name q p : Z) (remote : bool)                   (* lookup::Reply *)
| QueueDiscarded (k : Z) (replied : bool)
| Dequeued (k : Z) (m : option Z)
| ForgetRequest (k : Z)
| Forgotten (k : Z) (discarded : bool)                          (* dequeue::forget::Reply *)
| ServiceFound (k : Z) (a : option (Z * Z))                     (* service::lookup::Reply: the name and the process, if it's idle *)
| ServiceDiscarded (k : Z)
| CallReply (k code data : Z)
| Enqueued (k : Z) (ok : bool)                                  (* enqueue::Reply: with an id, or nil *)
| Committed (k : Z) (prepare : bool)                            (* commit::Reply, of the stage prepare or the last one *)
| RolledBack (k : Z)
| NotDequeued (k : Z)
| NotEnqueued (k : Z)
| Dead (p : Z)                                                  (* event::process::Exit, event::ipc::Destroyed *)
| Shutdown.

Definition stage_eqb (a b : stage) : bool :=
  match a, b with LookQ, LookQ | Deq, Deq | LookS, LookS | Disc, Disc | Calling, Calling | Enq, Enq | Com, Com | Rol, Rol => true | _, _ => false end.
Definition is (st : stage) (k : Z) (p : pend) : bool := stage_eqb (p_stage p) st && (p_corr p =? k).
Definition with_pending (l : list pend) (s : state) : state := State (s_run s) (s_forwards s) l (s_next s).
Definition with_forwards (l : list forward) (s : state) : state := State (s_run s) l (s_pending s) (s_next s).
Definition push (p : pend) (s : state) : state := with_pending (s_pending s ++ [p]) s.
Fixpoint remove_first {A} (f : A -> bool) (l : list A) : list A := match l with [] => [] | x :: r => if f x then r else x :: remove_first f r end.
(* pending::consume, handle.cpp:187-199 *)
Definition consume (st : stage) (k : Z) (s : state) : option (pend * state) :=
  match find (is st k) (s_pending s) with
  | Some p => Some (p, with_pending (remove_first (is st k) (s_pending s)) s)
  | None => None
  end.
(* the first that has the id is changed: forward_service, forward_queue, forward_apply, state.cpp:115-127, state.h:462-469 *)
Definition find_forward (id : Z) (s : state) : option forward := find (fun f => f_id f =? id) (s_forwards s).
Fixpoint set_forward (f : forward) (l : list forward) : list forward :=
  match l with [] => [] | x :: r => if f_id x =? f_id f then f :: r else x :: set_forward f r end.
Definition put_forward (f : forward) (s : state) : state := with_forwards (set_forward f (s_forwards s)) s.

Definition with_running (n : nat) (f : forward) : forward := Forward (f_id f) (f_alias f) (f_service f) (f_source f) (f_dest f) (f_enabled f) (f_configured f) n.
Definition with_configured (n : nat) (f : forward) : forward := Forward (f_id f) (f_alias f) (f_service f) (f_source f) (f_dest f) (f_enabled f) n (f_running f).
Definition with_queues (src : ref) (dst : option (ref * Z)) (f : forward) : forward := Forward (f_id f) (f_alias f) (f_service f) src dst (f_enabled f) (f_configured f) (f_running f).
(* operator --, state.cpp:38-51, 70-82. The assert that there is one is not in a release *)
Definition decrement (f : forward) : forward :=
  let f' := with_running (f_running f - 1) f in
  if absent f' then
    with_queues (Ref (r_name (f_source f)) (r_id (f_source f)) 0) (option_map (fun d => (Ref (r_name (fst d)) (r_id (fst d)) 0, snd d)) (f_dest f)) f'
  else f'.
(* invalidate_queues, state.h:183-188, 228-232 *)
Definition invalidate_queues (f : forward) : forward := with_queues (ref_invalidate (f_source f)) (option_map (fun d => (ref_invalidate (fst d), snd d)) (f_dest f)) f.

(* dequeue::request, handle.cpp:205-242: [n] times *)
Fixpoint dequeue_n (n : nat) (f : forward) (s : state) : state * list effect :=
  match n with
  | O => (put_forward f s, [])
  | S n =>
      let k := s_next s in
      let s1 := State (s_run s) (s_forwards s) (s_pending s ++ [Pend Deq (f_id f) k (k + 1) 0]) (k + 2) in
      let '(s2, ev) := dequeue_n n (with_running (f_running f + 1) f) s1 in
      (s2, Dequeue (f_id f) (r_ipc (f_source f)) k (k + 1) (r_id (f_source f)) (r_name (f_source f)) :: ev)
  end.
Definition dequeue_request (f : forward) (s : state) : state * list effect :=
  if f_enabled f then dequeue_n (missing f) f s else (put_forward f s, []).

(* queue::lookup::detail::request, handle.cpp:139-175 *)
Fixpoint ask_queues (id : Z) (names : list Z) (s : state) : state * list effect :=
  match names with
  | [] => (s, [])
  | name :: r =>
      let k := s_next s in
      let '(s', ev) := ask_queues id r (State (s_run s) (s_forwards s) (s_pending s ++ [Pend LookQ id k 0 0]) (k + 2)) in
      (s', AskQueue id k name :: ev)
  end.
Definition queues_of (f : forward) : list Z := r_name (f_source f) :: match f_dest f with Some (d, _) => [r_name d] | None => [] end.
Definition lookup_queues (f : forward) (s : state) : state * list effect := ask_queues (f_id f) (queues_of f) s.

(* machine::next, handle.cpp:318-331 *)
Definition next (f : forward) (s : state) : state * list effect :=
  if valid_queues f then dequeue_request f s
  else if existsb (fun p => stage_eqb (p_stage p) LookQ && (p_fwd p =? f_id f)) (s_pending s) then (put_forward f s, [])
  else lookup_queues f (put_forward f s).

(* transaction::rollback::request, commit::request, handle.cpp:245-283 *)
Definition rollback (p : pend) (s : state) : state * list effect := (push (Pend Rol (p_fwd p) (p_corr p) (p_trid p) 0) s, [Rollback (p_corr p) (p_trid p)]).
Definition commit (p : pend) (s : state) : state * list effect := (push (Pend Com (p_fwd p) (p_corr p) (p_trid p) 0) s, [Commit (p_corr p) (p_trid p)]).

(* comply::to::state, handle.cpp:333-418 *)
Definition is_queue_forward (f : forward) : bool := match f_service f with None => true | Some _ => false end.
Definition surplus_of (f : forward) : nat := if f_enabled f then surplus f else f_running f.
Definition of (st : stage) (id : Z) (p : pend) : bool := stage_eqb (p_stage p) st && (p_fwd p =? id).
(* the first n that are at the stage for the forward are moved to the end, as discarded *)
Definition discarded (ks : list Z) (l : list pend) : list pend :=
  filter (fun p => negb (stage_eqb (p_stage p) LookS && existsb (Z.eqb (p_corr p)) ks)) l
  ++ map (fun p => Pend Disc (p_fwd p) (p_corr p) (p_trid p) 0) (filter (fun p => stage_eqb (p_stage p) LookS && existsb (Z.eqb (p_corr p)) ks) l).
Definition cancel_surplus (f : forward) (s : state) : state * list effect :=
  let n := surplus_of f in
  let deqs := firstn n (filter (of Deq (f_id f)) (s_pending s)) in
  let forget := map (fun p => Forget (r_ipc (f_source f)) (p_corr p)) deqs in
  match f_service f with
  | None => (s, forget)
  | Some sv =>
      let looks := firstn (n - length deqs) (filter (of LookS (f_id f)) (s_pending s)) in
      (with_pending (discarded (map p_corr looks) (s_pending s)) s, forget ++ map (fun p => DiscardService (p_corr p) sv) looks)
  end.
Fixpoint each (g : forward -> state -> state * list effect) (l : list forward) (s : state) : state * list effect :=
  match l with
  | [] => (s, [])
  | f :: r => let '(s1, e1) := g f s in let '(s2, e2) := each g r s1 in (s2, e1 ++ e2)
  end.
Definition start_lookups (f : forward) (s : state) : state * list effect :=
  if f_enabled f && negb (f_configured f =? 0)%nat then lookup_queues f s else (s, []).
Definition queue_forwards (s : state) : list forward := filter is_queue_forward (s_forwards s).
Definition service_forwards (s : state) : list forward := filter (fun f => negb (is_queue_forward f)) (s_forwards s).
Definition comply (s : state) : state * list effect :=
  let e0 := map (fun p => DiscardQueue (p_corr p)) (filter (fun p => stage_eqb (p_stage p) LookQ) (s_pending s)) in
  let '(s1, e1) := each cancel_surplus (queue_forwards s ++ service_forwards s) s in
  let '(s2, e2) := each start_lookups (service_forwards s1 ++ queue_forwards s1) s1 in
  (s2, e0 ++ e1 ++ e2).

(* configuration::update::request, handle.cpp:422-462, transform: handle.cpp:45-81 *)
Definition same_kind (c : conf) (f : forward) : bool := match g_service c, f_service f with Some _, Some _ | None, None => true | _, _ => false end.
Fixpoint set_instances (c : conf) (l : list forward) : list forward :=
  match l with [] => [] | f :: r => if same_kind c f && (f_alias f =? g_alias c) then with_configured (g_instances c) f :: r else f :: set_instances c r end.
Definition create (c : conf) (id : Z) : forward :=
  Forward id (g_alias c) (g_service c) (Ref (g_source c) 0 0) (option_map (fun d => (Ref (fst d) 0 0, snd d)) (g_dest c)) (g_enabled c) (g_instances c) 0.
Definition add_or_update (c : conf) (l : list forward) : list forward :=
  if existsb (fun f => same_kind c f && (f_alias f =? g_alias c)) l then set_instances c l else l ++ [create c (Z.of_nat (length l) + 1)].
Definition run (wanted : runlevel) (r : runlevel) : runlevel :=      (* common/state/machine.h:24-29 *)
  match r, wanted with Startup, _ => wanted | Running, Down => Down | _, _ => r end.
Definition update (l : list conf) (s : state) : state * list effect :=
  let l' := filter (fun c => match g_service c with Some _ => true | None => false end) l ++ filter (fun c => match g_service c with Some _ => false | None => true end) l in
  let '(s1, ev) := comply (with_forwards (fold_left (fun a c => add_or_update c a) l' (s_forwards s)) s) in
  (State (run Running (s_run s1)) (s_forwards s1) (s_pending s1) (s_next s1), ev ++ [Updated]).

(* queue::lookup::assign, handle.cpp:85-133 *)
Definition assign (name q p : Z) (remote : bool) (f : forward) : forward * list effect :=
  let dst := option_map (fun d => if r_name (fst d) =? name then (Ref name q p, snd d) else d) (f_dest f) in
  if r_name (f_source f) =? name then
    if remote then (with_queues (f_source f) dst f, [Invalid name]) else (with_queues (Ref name q p) dst f, [])
  else (with_queues (f_source f) dst f, []).

Definition is_down (s : state) : bool := match s_run s with Down => true | _ => false end.
Definition is_enq (f : forward) (p : pend) : bool := stage_eqb (p_stage p) Enq && (p_fwd p =? f_id f).

(* dead_event, handle.cpp:948-1035; for a queue-forward and a service-forward it's the same *)
Definition dead_one (p : Z) (f : forward) (s : state) : state * list effect :=
  let dst := match f_dest f with Some (d, _) => r_ipc d =? p | None => false end in
  if (r_ipc (f_source f) =? p) || dst then
    let e1 := map (fun x => DiscardQueue (p_corr x)) (filter (of LookQ (f_id f)) (s_pending s))
              ++ map (fun x => Forget (r_ipc (f_source f)) (p_corr x)) (filter (of Deq (f_id f)) (s_pending s)) in
    if dst then
      (put_forward (with_queues (f_source f) (option_map (fun d => (ref_invalidate (fst d), snd d)) (f_dest f)) f) s,
       e1 ++ map (fun x => Fake (p_corr x)) (filter (is_enq f) (s_pending s)))
    else (s, e1)
  else (s, []).

(* the handlers, handle.cpp:420-1105 *)
Definition step (i : input) (s : state) : state * list effect :=
  match i with
  | Update l => update l s
  | QueueFound k name q p remote =>                                          (* 466-489 *)
      match consume LookQ k s with
      | None => (s, [])
      | Some (x, s) =>
          if is_down s then (s, [])
          else
            match find_forward (p_fwd x) s with
            | None => (s, [])
            | Some f =>
                let '(f', e) := assign name q p remote f in
                if valid_queues f' then let '(s', ev) := dequeue_request f' s in (s', e ++ ev) else (put_forward f' s, e)
            end
      end
  | QueueDiscarded k replied =>                                              (* 492-509 *)
      if replied then (s, []) else match consume LookQ k s with Some (_, s) => (s, []) | None => (s, []) end
  | Dequeued k m =>                                                          (* 517-585 *)
      match consume Deq k s with
      | None => (s, [])
      | Some (x, s) =>
          match m with
          | None => rollback x s
          | Some data =>
              if is_down s then rollback x s
              else
                match find_forward (p_fwd x) s with
                | None => (s, [])
                | Some f =>
                    match f_service f, f_dest f with
                    | Some sv, _ => (push (Pend LookS (p_fwd x) k (p_trid x) data) s, [AskService k sv])
                    | None, Some (d, delay) => (push (Pend Enq (p_fwd x) k (p_trid x) 0) s, [Enqueue (r_ipc d) k (p_trid x) (r_id d) (r_name d) data delay])
                    | None, None => (s, [])
                    end
                end
          end
      end
  | ForgetRequest k =>                                                       (* 589-626: the flow isn't started again *)
      match consume Deq k s with
      | None => (s, [])
      | Some (x, s) => match find_forward (p_fwd x) s with Some f => (put_forward (decrement f) s, []) | None => (s, []) end
      end
  | Forgotten k discarded =>                                                 (* 629-660 *)
      if discarded then
        match consume Deq k s with
        | None => (s, [])
        | Some (x, s) => match find_forward (p_fwd x) s with Some f => next (decrement f) s | None => (s, []) end
        end
      else (s, [])
  | ServiceFound k a =>                                                      (* 669-703 *)
      match consume LookS k s with
      | None => (s, [])
      | Some (x, s) =>
          match a with
          | None => rollback x s
          | Some (sv, p) => (push (Pend Calling (p_fwd x) k (p_trid x) 0) s, [Call p k (p_trid x) sv (p_data x)])
          end
      end
  | ServiceDiscarded k => match consume Disc k s with Some (x, s) => rollback x s | None => (s, []) end      (* 707-723 *)
  | CallReply k code data =>                                                 (* 730-780 *)
      match consume Calling k s with
      | None => (s, [])
      | Some (x, s) =>
          match find_forward (p_fwd x) s with
          | None => (s, [])
          | Some f =>
              if negb (code =? 0) then rollback x s
              else
                match f_dest f with
                | Some (d, delay) => (push (Pend Enq (p_fwd x) k (p_trid x) 0) s, [Enqueue (r_ipc d) k (p_trid x) (r_id d) (r_name d) data delay])
                | None => commit x s
                end
          end
      end
  | Enqueued k ok =>                                                         (* 786-813 *)
      match consume Enq k s with
      | None => (s, [])
      | Some (x, s) =>
          if ok then commit x s
          else rollback x (match find_forward (p_fwd x) s with Some f => put_forward (invalidate_queues f) s | None => s end)
      end
  | Committed k prepare =>                                                   (* 852-881 *)
      if prepare then (s, [])
      else
        match consume Com k s with
        | None => (s, [])
        | Some (x, s) => match find_forward (p_fwd x) s with Some f => next (decrement f) s | None => (s, []) end
        end
  | RolledBack k =>                                                          (* 821-845 *)
      match consume Rol k s with
      | None => (s, [])
      | Some (x, s) => match find_forward (p_fwd x) s with Some f => next (decrement f) s | None => (s, []) end
      end
  | NotDequeued k =>                                                         (* 231-236: the one that was running is not taken away *)
      (with_pending (filter (fun p => negb (is Deq k p)) (s_pending s)) s, [])
  | NotEnqueued k =>                                                         (* 769-774: only for a service-forward, 580 has no callback *)
      match consume Enq k s with
      | None => (s, [])
      | Some (x, s') =>
          match find_forward (p_fwd x) s with
          | Some f => match f_service f with Some _ => rollback x s' | None => (s, []) end
          | None => (s, [])
          end
      end
  | Dead p => each (dead_one p) (queue_forwards s ++ service_forwards s) s
  | Shutdown =>                                                              (* 1062-1078 *)
      comply (State (run Down (s_run s)) (map (with_configured 0) (s_forwards s)) (s_pending s) (s_next s))
  end.

(* State::done, state.cpp:97-104 *)
Definition done (s : state) : bool := is_down s && forallb absent (s_forwards s).

Definition history := list (input * list effect).
Definition effects (h : history) : list effect := flat_map snd h.
Definition inputs (h : history) : list input := map fst h.
(* a queue-forward has a target, and an alias is of one forward *)
Definition conf_ok (c : conf) : Prop := g_service c = None -> g_dest c <> None.
Definition possible (i : input) : Prop := match i with Update l => forall c, In c l -> conf_ok c | Dead p => p <> 0 | _ => True end.
Inductive reach : state -> history -> Prop :=
| reach_start : reach state0 []
| reach_step : forall s h i, reach s h -> possible i -> reach (fst (step i s)) (h ++ [(i, snd (step i s))]).

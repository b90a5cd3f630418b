(* The outbound of the gateway: the process that has the connections to other domains, and passes requests from this domain to them.
   /repo/middleware/gateway/source/group/outbound/{handle,state,main}.cpp, include/gateway/group/{outbound/state,tcp,connection}.h,
   /repo/middleware/common/include/casual/task/concurrent.h *)
From Coq Require Import ZArith List Bool.
Import ListNotations.
Local Open Scope Z_scope.

(* correlations, ipc ids, socket descriptors and payloads are integers *)
Definition corr := Z.
Definition ipc := Z.
Definition sock := Z.
(* transaction::ID: the global part and the branch; null is None *)
Definition trid := option (Z * Z).

(* xatmi/include/casual/xatmi/code.h:14,17,20 *)
Definition TPENOENT : Z := 6.
Definition TPESVCERR : Z := 10.
Definition TPESYSTEM : Z := 12.

(* the requests that get a task, handle.cpp:240-280, 368-388, 473-494 *)
Inductive kind := Call | Enqueue | Dequeue | Connect.
(* the requests of the transaction manager, handle.cpp:118-131 *)
Inductive resource := Prepare | Commit | Rollback.

(* a request from a process of this domain: its correlation, the ipc of the process, the service or the queue, the transaction, the payload *)
Record request := Request { q_kind : kind; q_corr : corr; q_from : ipc; q_name : Z; q_trid : trid; q_data : Z }.

(* what arrives at the ipc device of a connection, handle.cpp:852-880 *)
Inductive inward :=
| InRequest (q : request)
| InSend (k : corr) (data : Z)
| InDisconnect (k : corr)
| InResource (r : resource) (k : corr) (from : ipc) (t : trid) (data : Z)
| InDiscover (k : corr) (from : ipc) (data : Z)
| InExplore (data : Z).

(* what a remote domain sends, handle.cpp:882-910; a reply of v1.2 is transformed before it's handled as any other (C56-C58).
   [XReply]: the reply to a request of the kind, with the code and the payload. [XDiscovered]: services with hops, and queues *)
Inductive outward :=
| XReply (n : kind) (k : corr) (code data : Z)
| XSend (k : corr) (terminated : bool) (data : Z)
| XResource (r : resource) (k : corr) (data : Z)
| XDiscovered (k : corr) (services : list (Z * Z)) (queues : list Z) (data : Z)
| XDisconnect (k : corr).

(* what a process of this domain gets from the outbound *)
Inductive answer :=
| Reply (n : kind) (k : corr) (code data : Z)
| Sent (k : corr) (terminated : bool) (data : Z)
| Resource (r : resource) (k : corr) (data : Z)
| Discovered (k : corr) (data : option (list (Z * Z) * list Z * Z)).

(* what a remote gets *)
Inductive wire :=
| WRequest (v1_2 : bool) (q : request)
| WSend (k : corr) (data : Z)
| WDisconnect (k : corr)
| WResource (r : resource) (k : corr) (t : trid) (data : Z)
| WDiscover (k : option corr) (data : Z)
| WDisconnected (k : corr).

(* a connection is named by the ipc of its partner device, which nobody else ever has *)
Inductive effect :=
| ToProcess (p : ipc) (m : answer)
| ToRemote (c : ipc) (m : wire)
| Involved (g : Z) (c : ipc)                       (* resource::external::Involved to the TM *)
| Instance (c : ipc)                               (* resource::external::Instance to the TM *)
| Advertise (c : ipc) (services : list (Z * Z))    (* service::concurrent::Advertise to the service-manager *)
| AdvertiseQueues (c : ipc) (queues : list Z)
| Reset (c : ipc)                                  (* service::concurrent::Advertise with the directive reset *)
| ResetQueues (c : ipc)
| Unadvertise (c : ipc) (service : Z)              (* service::Advertise: the one for sequential instances, handle.cpp:138 *)
| Metric (k : corr) (service : Z) (code : Z)
| Destroyed (c : ipc)                              (* event::ipc::Destroyed to all that listen *)
| Lost (f : sock).                                 (* connection::Lost to itself: to reconnect *)

(* connection::Holder: the mapping, the tcp part, the ipc part and the information, which are added to and removed from together
   (connection.h:39-72, 219-243). [c_old]: the protocol isn't compatible with the service call request of v1.3 *)
Record conn := Conn { c_sock : sock; c_ipc : ipc; c_old : bool }.
(* a task unit with what its handlers have captured, handle.cpp:193-234, 296-361, 446-468 *)
Record task := Task { k_sock : sock; k_request : request }.
(* reply::destination::Entry, state.h:118-134 *)
Record dest := Dest { d_corr : corr; d_ipc : ipc; d_sock : sock }.
(* state::disconnect::Directive, state.h:218-233; true is disconnect, false is remove *)
Definition leaving := (sock * bool)%type.

(* State, state.h:239-282; only what decides what it does. The runlevel: if it's beyond running *)
Record state := State {
  s_conns : list conn;
  s_tasks : list task;
  s_dests : list dest;
  s_assoc : list (Z * list sock);
  s_leaving : list leaving;
  s_down : bool
}.
Definition state0 : state := State [] [] [] [] [] false.

(* what a handler ends in: the state and the effects, casual::terminate (the process aborts), undefined behaviour *)
Inductive result :=
| Done (s : state) (ev : list effect)
| Terminated (ev : list effect)
| Undefined (ev : list effect).
Definition bind (r : result) (f : state -> result) : result :=
  match r with
  | Done s ev =>
      match f s with
      | Done s' ev' => Done s' (ev ++ ev')
      | Terminated ev' => Terminated (ev ++ ev')
      | Undefined ev' => Undefined (ev ++ ev')
      end
  | r => r
  end.
Definition emit (s : state) (ev : list effect) : result := Done s ev.

Definition kind_eqb (a b : kind) : bool :=
  match a, b with Call, Call | Enqueue, Enqueue | Dequeue, Dequeue | Connect, Connect => true | _, _ => false end.

(* find_internal, find_external, partner, process_handle: connection.h:95-205 *)
Definition by_ipc (c : ipc) (s : state) : option conn := find (fun n => c_ipc n =? c) (s_conns s).
Definition by_sock (f : sock) (s : state) : option conn := find (fun n => c_sock n =? f) (s_conns s).

(* pending::Transactions::associate, state.cpp:47-63; true if it's the first time *)
Fixpoint associate (g : Z) (f : sock) (l : list (Z * list sock)) : bool * list (Z * list sock) :=
  match l with
  | [] => (true, [(g, [f])])
  | (h, fs) :: r =>
      if h =? g then if existsb (Z.eqb f) fs then (false, l) else (true, (h, fs ++ [f]) :: r)
      else let (b, r') := associate g f r in (b, (h, fs) :: r')
  end.
(* pending::Transactions::extract, state.cpp:91-109: the first that equals in each, and the entry if it was the last *)
Fixpoint remove_first (f : sock) (l : list sock) : list sock :=
  match l with [] => [] | x :: r => if x =? f then r else x :: remove_first f r end.
Definition dissociate (f : sock) (l : list (Z * list sock)) : list (Z * list sock) :=
  flat_map (fun e => if existsb (Z.eqb f) (snd e) then match remove_first f (snd e) with [] => [] | fs => [(fst e, fs)] end else [e]) l.
(* pending::Transactions::contains, state.cpp:111-118 *)
Definition has_assoc (f : sock) (l : list (Z * list sock)) : bool := existsb (fun e => existsb (Z.eqb f) (snd e)) l.

(* handle::unadvertise, handle.cpp:912-938; the queue-manager might not be on-line, which is only logged *)
Definition unadvertise (f : sock) (s : state) : list effect :=
  match by_sock f s with Some n => [Reset (c_ipc n); ResetQueues (c_ipc n)] | None => [] end.

(* the Failed handler of a task, handle.cpp:219-231, 457-466; a conversation has none, handle.cpp:309-360.
   The reply of a queue is the default one: no id, no message *)
Definition failed (t : task) : list effect :=
  let q := k_request t in
  match q_kind q with
  | Call => [ToProcess (q_from q) (Reply Call (q_corr q) TPESVCERR 0); Metric (q_corr q) (q_name q) TPESVCERR]
  | Enqueue => [ToProcess (q_from q) (Reply Enqueue (q_corr q) 0 0)]
  | Dequeue => [ToProcess (q_from q) (Reply Dequeue (q_corr q) 0 0)]
  | Connect => []
  end.

(* connection::lost, handle.cpp:942-962, with Coordinator::failed, concurrent.h:196-209, and State::failed, state.cpp:133-146.
   Holder::extract terminates if there is no information for the descriptor, connection.h:238-239 *)
Definition lost (f : sock) (s : state) : result :=
  match by_sock f s with
  | None => Terminated (flat_map (fun t => if k_sock t =? f then failed t else []) (s_tasks s))
  | Some n =>
      Done
        (State
          (filter (fun n => negb (c_sock n =? f)) (s_conns s))
          (filter (fun t => negb (k_sock t =? f)) (s_tasks s))
          (filter (fun d => negb (d_sock d =? f)) (s_dests s))
          (dissociate f (s_assoc s))
          (filter (fun l => negb (fst l =? f)) (s_leaving s))
          (s_down s))
        (unadvertise f s ++ [Destroyed (c_ipc n)] ++ flat_map (fun t => if k_sock t =? f then failed t else []) (s_tasks s))
  end.

(* group::tcp::send, tcp.h:30-58; [ok]: the device doesn't report an error. What can't be written directly is kept by the connection, tcp.cpp:34-48 *)
Definition send (ok : bool) (f : sock) (m : wire) (s : state) : result :=
  match by_sock f s with
  | None => Done s []
  | Some n => if ok then Done s [ToRemote (c_ipc n) m] else bind (lost f s) (fun s => Done s [Lost f])
  end.

(* associate_and_involve, handle.cpp:67-92 *)
Definition involve (t : trid) (f : sock) (s : state) : result :=
  match t with
  | None => Done s []
  | Some (g, _) =>
      let (first, assoc) := associate g f (s_assoc s) in
      let s' := State (s_conns s) (s_tasks s) (s_dests s) assoc (s_leaving s) (s_down s) in
      if first then match by_sock f s with Some n => Done s' [Involved g (c_ipc n)] | None => Done s' [] end else Done s' []
  end.

(* Coordinator::add, concurrent.h:169-172 *)
Definition add_task (f : sock) (q : request) (s : state) : state :=
  State (s_conns s) (s_tasks s ++ [Task f q]) (s_dests s) (s_assoc s) (s_leaving s) (s_down s).
Definition has_corr (k : corr) (l : list task) : bool := existsb (fun t => q_corr (k_request t) =? k) l.

(* service::call::request, handle.cpp:240-280. The pointer to the connection is used after the send, that might have removed the connection *)
Definition call_request (ok : bool) (n : conn) (q : request) (s : state) : result :=
  if has_corr (q_corr q) (s_tasks s) then
    emit s [ToProcess (q_from q) (Reply Call (q_corr q) TPESYSTEM 0); Metric (q_corr q) (q_name q) TPESYSTEM]
  else if c_old n then
    bind (involve (q_trid q) (c_sock n) (add_task (c_sock n) q s)) (fun s => send ok (c_sock n) (WRequest true q) s)
  else
    match send ok (c_sock n) (WRequest false q) s with
    | Done s1 ev =>
        if ok then bind (Done s1 ev) (fun s => involve (q_trid q) (c_sock n) (add_task (c_sock n) q s))
        else Undefined ev
    | r => r
    end.

(* queue::basic::request, handle.cpp:473-489 *)
Definition queue_request (ok : bool) (n : conn) (q : request) (s : state) : result :=
  bind (send ok (c_sock n) (WRequest false q) s) (fun s => involve (q_trid q) (c_sock n) (add_task (c_sock n) q s)).

(* conversation::connect::request, handle.cpp:368-386 *)
Definition connect_request (ok : bool) (n : conn) (q : request) (s : state) : result :=
  bind (involve (q_trid q) (c_sock n) (add_task (c_sock n) q s)) (fun s => send ok (c_sock n) (WRequest (c_old n) q) s).

(* reply::Destination::add, state.h:141-149 *)
Definition add_dest (k : corr) (from : ipc) (f : sock) (s : state) : state :=
  if existsb (fun d => d_corr d =? k) (s_dests s) then s
  else State (s_conns s) (s_tasks s) (s_dests s ++ [Dest k from f]) (s_assoc s) (s_leaving s) (s_down s).
(* reply::Destination::extract of a correlation, state.h:151-157 *)
Fixpoint without_dest (k : corr) (l : list dest) : list dest :=
  match l with [] => [] | d :: r => if d_corr d =? k then r else d :: without_dest k r end.
Definition take_dest (k : corr) (s : state) : option dest * state :=
  (find (fun d => d_corr d =? k) (s_dests s),
   State (s_conns s) (s_tasks s) (without_dest k (s_dests s)) (s_assoc s) (s_leaving s) (s_down s)).

Definition is_leaving (f : sock) (s : state) : bool := existsb (fun l => fst l =? f) (s_leaving s).

(* Coordinator::operator(), concurrent.h:175-181: the first unit of the correlation; [Unit]: what it does, and if it's done *)
Definition first_task (k : corr) (s : state) : option task := find (fun t => q_corr (k_request t) =? k) (s_tasks s).
Fixpoint without_task (k : corr) (l : list task) : list task :=
  match l with [] => [] | t :: r => if q_corr (k_request t) =? k then r else t :: without_task k r end.
Definition drop_task (k : corr) (s : state) : state :=
  State (s_conns s) (without_task k (s_tasks s)) (s_dests s) (s_assoc s) (s_leaving s) (s_down s).

(* service::unadvertise, handle.cpp:133-145 *)
Definition unadvertise_service (f : sock) (name : Z) (s : state) : list effect :=
  match by_sock f s with Some n => [Unadvertise (c_ipc n) name] | None => [] end.

(* internal conversation disconnect, handle.cpp:393-403, and the Disconnect handler of the task, handle.cpp:344-357. A send that fails
   removes the units of the connection: also the one that is executed *)
Definition disconnect_conversation (ok : bool) (k : corr) (s : state) : result :=
  match first_task k s with
  | Some t =>
      match q_kind (k_request t) with
      | Connect =>
          match by_sock (k_sock t) s with
          | None => emit (drop_task k s) [Metric k (q_name (k_request t)) 0]
          | Some _ =>
              match send ok (k_sock t) (WDisconnect k) s with
              | Done s1 ev => if ok then Done (drop_task k s1) (ev ++ [Metric k (q_name (k_request t)) 0]) else Undefined ev
              | r => r
              end
          end
      | _ => emit s []
      end
  | None => emit s []
  end.

(* the handlers of what arrives at the ipc device of the connection n, handle.cpp:852-880; [ok]: if the device of the connection can send *)
Definition inward_step (ok : bool) (n : conn) (m : inward) (s : state) : result :=
  match m with
  | InRequest q =>
      match q_kind q with
      | Call => call_request ok n q s
      | Enqueue | Dequeue => queue_request ok n q s
      | Connect => connect_request ok n q s
      end
  | InSend k data => send ok (c_sock n) (WSend k data) s                       (* handle.cpp:405-415 *)
  | InDisconnect k => disconnect_conversation ok k s
  | InResource r k from t data =>                                             (* handle.cpp:96-117 *)
      send ok (c_sock n) (WResource r k t data) (add_dest k from (c_sock n) s)
  | InDiscover k from data =>                                                 (* handle.cpp:421-442, precondition::reply 43-65 *)
      if s_down s then emit s [ToProcess from (Discovered k None)]
      else if is_leaving (c_sock n) s then emit s [ToProcess from (Discovered k None)]
      else send ok (c_sock n) (WDiscover (Some k) data) (add_dest k from (c_sock n) s)
  | InExplore data =>                                                         (* handle.cpp:444-472 *)
      if s_down s then emit s []
      else if is_leaving (c_sock n) s then emit s []
      else send ok (c_sock n) (WDiscover None data) s
  end.

(* the Reply and Send handlers of the tasks, handle.cpp:205-217, 309-342, 449-456. [f] is the key of the task, not where the message came from *)
Definition task_reply (n : kind) (k : corr) (code data : Z) (s : state) : result :=
  match first_task k s with
  | Some t =>
      let q := k_request t in
      if kind_eqb (q_kind q) n then
        match n with
        | Call =>
            emit (drop_task k s)
              ([ToProcess (q_from q) (Reply Call k code data)]
               ++ (if code =? TPENOENT then unadvertise_service (k_sock t) (q_name q) s else [])
               ++ [Metric k (q_name q) code])
        | Enqueue | Dequeue => emit (drop_task k s) [ToProcess (q_from q) (Reply n k code data)]
        | Connect =>
            emit s ((if code =? TPENOENT then unadvertise_service (k_sock t) (q_name q) s else []) ++ [ToProcess (q_from q) (Reply Connect k code data)])
        end
      else emit s []
  | None => emit s []
  end.
Definition task_send (k : corr) (terminated : bool) (data : Z) (s : state) : result :=
  match first_task k s with
  | Some t =>
      match q_kind (k_request t) with
      | Connect => emit (if terminated then drop_task k s else s) [ToProcess (q_from (k_request t)) (Sent k terminated data)]
      | _ => emit s []
      end
  | None => emit s []
  end.

(* connection::disconnect and connection::remove, handle.cpp:964-986 *)
Definition leave (directive : bool) (f : sock) (s : state) : result :=
  Done (State (s_conns s) (s_tasks s) (s_dests s) (s_assoc s) (s_leaving s ++ [(f, directive)]) (s_down s)) (unadvertise f s).

(* the handlers of what a remote sends on the connection n, handle.cpp:882-910 *)
Definition outward_step (ok : bool) (n : conn) (m : outward) (s : state) : result :=
  match m with
  | XReply nk k code data => task_reply nk k code data s
  | XSend k terminated data => task_send k terminated data s
  | XResource r k data =>                                                     (* handle.cpp:629-645: an unknown correlation gives a nil destination *)
      let (d, s') := take_dest k s in
      emit s' (match d with Some d => [ToProcess (d_ipc d) (Resource r k data)] | None => [] end)
  | XDiscovered k services queues data =>                                     (* handle.cpp:668-730 *)
      let services' := map (fun x => (fst x, snd x + 1)) services in
      let (d, s') := take_dest k s in
      emit s'
        ((match services' with [] => [] | _ => [Advertise (c_ipc n) services'] end)
         ++ (match queues with [] => [] | _ => [AdvertiseQueues (c_ipc n) queues] end)
         ++ (match d with Some d => [ToProcess (d_ipc d) (Discovered k (Some (services', queues, data)))] | None => [] end))
  | XDisconnect k =>                                                          (* handle.cpp:514-527 *)
      bind (leave true (c_sock n) s) (fun s => send ok (c_sock n) (WDisconnected k) s)
  end.

(* State::idle, state.cpp:148-153 *)
Definition idle_sock (s : state) (f : sock) : bool :=
  negb (has_assoc f (s_assoc s)) && negb (existsb (fun d => d_sock d =? f) (s_dests s)) && negb (existsb (fun t => k_sock t =? f) (s_tasks s)).
(* State::done, state.cpp:155-161 *)
Definition done (s : state) : bool :=
  s_down s && match s_tasks s with [] => true | _ => false end && match s_assoc s with [] => true | _ => false end
  && match s_dests s with [] => true | _ => false end.

(* handle::idle, handle.cpp:1022-1044; the order in which the connections are closed is the one of the list *)
Fixpoint close_all (l : list leaving) (s : state) : result :=
  match l with
  | [] => Done s []
  | (f, directive) :: r => bind (bind (lost f s) (fun s => Done s (if directive then [Lost f] else []))) (close_all r)
  end.
Definition idle (s : state) : result := close_all (filter (fun l => idle_sock s (fst l)) (s_leaving s)) s.

Fixpoint leave_all (l : list conn) (s : state) : result :=
  match l with [] => Done s [] | n :: r => bind (leave true (c_sock n) s) (leave_all r) end.
(* handle::shutdown, handle.cpp:1046-1060 *)
Definition shutdown (s : state) : result :=
  leave_all (s_conns s) (State (s_conns s) (s_tasks s) (s_dests s) (s_assoc s) (s_leaving s) true).

(* what happens to the outbound. [Inward c ok m]: m arrives at the device of c. [Broken]: a read, or a write of what the connection has kept,
   fails (tcp.h:136-219). [Disassociate]: the event from the TM. [Remove]: a configuration update without the connection (main.cpp:136-141) *)
Inductive input :=
| Connected (f : sock) (c : ipc) (old : bool)
| Inward (c : ipc) (ok : bool) (m : inward)
| Outward (c : ipc) (ok : bool) (m : outward)
| Broken (c : ipc)
| Disassociate (g : Z)
| Remove (c : ipc)
| Shutdown
| Idle.

Definition step (i : input) (s : state) : result :=
  match i with
  | Connected f c old =>                                                      (* handle.cpp:803-843; the register at discovery is left out *)
      Done (State (s_conns s ++ [Conn f c old]) (s_tasks s) (s_dests s) (s_assoc s) (s_leaving s) (s_down s)) [Instance c]
  | Inward c ok m => match by_ipc c s with Some n => inward_step ok n m s | None => Done s [] end
  | Outward c ok m => match by_ipc c s with Some n => outward_step ok n m s | None => Done s [] end
  | Broken c => match by_ipc c s with Some n => bind (lost (c_sock n) s) (fun s => Done s [Lost (c_sock n)]) | None => Done s [] end
  | Disassociate g =>                                                         (* handle.cpp:783-797, state.cpp:75-78 *)
      Done (State (s_conns s) (s_tasks s) (s_dests s) (filter (fun e => negb (fst e =? g)) (s_assoc s)) (s_leaving s) (s_down s)) []
  | Remove c => match by_ipc c s with Some n => leave false (c_sock n) s | None => Done s [] end
  | Shutdown => shutdown s
  | Idle => idle s
  end.

(* what has happened: each input with the effects *)
Definition history := list (input * list effect).
(* the kernel doesn't give a descriptor that is open, and an ipc id is never used again; what arrives does so at a connection there is *)
Definition possible (i : input) (s : state) (h : history) : Prop :=
  match i with
  | Connected f c _ =>
      (forall n, In n (s_conns s) -> c_sock n <> f) /\ (forall f' old ev, ~ In (Connected f' c old, ev) h)
  | Inward c _ _ | Outward c _ _ | Broken c | Remove c => In c (map c_ipc (s_conns s))
  | _ => True
  end.
Inductive reach : state -> history -> Prop :=
| reach_start : reach state0 []
| reach_step : forall s h i s' ev, reach s h -> possible i s h -> step i s = Done s' ev -> reach s' (h ++ [(i, ev)]).

(* The inbound of the gateway: the process that has the connections from other domains, and passes their requests to this domain.
   /repo/middleware/gateway/source/group/inbound/{handle,state,main}.cpp, inbound/task/create.cpp, include/gateway/group/{inbound/state,tcp,connection}.h,
   /repo/middleware/common/include/casual/task/concurrent.h *)
From Coq Require Import ZArith List Bool.
Import ListNotations.
Local Open Scope Z_scope.

(* correlations, ipc ids, socket descriptors and payloads are integers *)
Definition corr := Z.
Definition ipc := Z.
Definition sock := Z.
(* transaction::ID: the global part and the branch; null is None *)
Definition trid := option (Z * Z).

(* xatmi/include/casual/xatmi/code.h:14,17,20 *)
Definition TPENOENT : Z := 6.
Definition TPESVCERR : Z := 10.
Definition TPETIME : Z := 13.
(* common/include/common/code/xa.h: protocol, XAER_PROTO *)
Definition XAER_PROTO : Z := -6.

Inductive kind := Call | Connect | Enqueue | Dequeue.
Inductive resource := Prepare | Commit | Rollback.

(* a request from a remote domain: the correlation, the service or the queue, the transaction, the payload, and if it's a call without reply *)
Record request := Request { q_kind : kind; q_corr : corr; q_name : Z; q_trid : trid; q_data : Z; q_noreply : bool }.

(* service::lookup::Reply: idle with the name (of the route) and the ipc, absent, timeout *)
Inductive looked := Found (name : Z) (p : ipc) | Absent | Timeout.

(* what a remote domain sends, handle.cpp:538-567; what is of v1.2 is transformed before it's handled as any other (C58) *)
Inductive external :=
| XRequest (q : request)
| XSend (k : corr) (data : Z)
| XDisconnect (k : corr)                                        (* of a conversation *)
| XResource (r : resource) (k : corr) (t : Z * Z) (data : Z)
| XDiscover (k : corr) (data : Z)
| XLeave.                                                       (* the reply to the disconnect of the connection *)

(* what arrives at the ipc device of a connection, handle.cpp:505-536. [IReply]: the reply to a request of the kind *)
Inductive internal :=
| ILookup (k : corr) (a : looked)
| IQueueLookup (k : corr) (p : option ipc)
| IBranch (k : corr) (t : Z * Z)
| IReply (n : kind) (k : corr) (code data : Z)
| ISend (k : corr) (terminated : bool) (data : Z)
| IResource (r : resource) (k : corr) (t : trid) (code : Z)
| IDiscovered (k : corr) (data : Z)
| IUpdate (data : Z).

(* what a remote gets; the reply in the version of the connection (C58) *)
Inductive wire :=
| WReply (n : kind) (k : corr) (code data : Z)
| WSend (k : corr) (terminated : bool) (data : Z)
| WResource (r : resource) (k : corr) (t : trid) (code : Z)
| WDiscovered (k : corr) (data : Z)
| WUpdate (data : Z)
| WLeave.                                                       (* domain::disconnect::Request *)

(* a connection is named by the ipc of its partner device, which nobody else ever has *)
Inductive effect :=
| ToRemote (c : ipc) (m : wire)
| ToProcess (p : ipc) (c : ipc) (q : request)                   (* the request to the process p, that is to reply to the device of c *)
| ToPeer (p : ipc) (k : corr) (data : Z)                        (* conversation::callee::Send *)
| ToPeerDisconnect (p : ipc) (k : corr)
| ToPartner (c : ipc) (m : internal)                            (* to the device of the connection: an emulated reply *)
| ToItself (m : internal)                                       (* to the device of the process *)
| Lookup (c : ipc) (k : corr) (name : Z) (g : option Z) (noreply : bool)
| Discard (k : corr) (name : Z)                                 (* service::lookup::discard::Request *)
| LookupQueue (c : ipc) (k : corr) (name : Z) (g : option Z)
| Branch (c : ipc) (k : corr) (g : Z)                           (* transaction::inbound::branch::Request to the TM *)
| ToTM (c : ipc) (r : resource) (k : corr) (t : Z * Z) (data : Z)
| Discover (c : ipc) (k : corr) (data : Z)
| Destroyed (c : ipc)                                           (* event::ipc::Destroyed to all that listen *)
| Active (gs : list Z)                                          (* transaction::active::Request to the TM, only for the log *)
| Lost (f : sock).                                              (* connection::Lost to itself: only logged *)

(* connection::Holder, connection.h:39-72, 219-243. [c_soft]: the protocol has the disconnect request *)
Record conn := Conn { c_sock : sock; c_ipc : ipc; c_soft : bool }.
(* a task unit with what its handlers share, create.cpp:207-311, 314-430, 433-497, 499-537 *)
Inductive body :=
| Service (q : request) (origin : trid) (found : option (Z * ipc))
| Queue (q : request) (wait : bool) (found : option (option ipc))
| Rm (r : resource) (k : corr) (origin : trid).
Record task := Task { k_sock : sock; k_body : body }.
Definition t_corr (t : task) : corr := match k_body t with Service q _ _ | Queue q _ _ => q_corr q | Rm _ k _ => k end.
(* transaction::Cache, state.h:120-170: the branch and the descriptors for each global id *)
Record entry := Entry { e_trid : Z * Z; e_socks : list sock }.

(* State, state.h:175-226; only what decides what it does. [s_leaving]: pending.disconnects. [s_down]: the runlevel is beyond running *)
Record state := State {
  s_conns : list conn;
  s_tasks : list task;
  s_cache : list (Z * entry);
  s_leaving : list sock;
  s_down : bool
}.
Definition state0 : state := State [] [] [] [] false.

(* what a handler ends in: the state and the effects, casual::terminate (the process aborts), undefined behaviour *)
Inductive result :=
| Done (s : state) (ev : list effect)
| Terminated (ev : list effect)
| Undefined (ev : list effect).
Definition bind (r : result) (f : state -> result) : result :=
  match r with
  | Done s ev =>
      match f s with
      | Done s' ev' => Done s' (ev ++ ev')
      | Terminated ev' => Terminated (ev ++ ev')
      | Undefined ev' => Undefined (ev ++ ev')
      end
  | r => r
  end.

Definition kind_eqb (a b : kind) : bool :=
  match a, b with Call, Call | Connect, Connect | Enqueue, Enqueue | Dequeue, Dequeue => true | _, _ => false end.
Definition resource_eqb (a b : resource) : bool :=
  match a, b with Prepare, Prepare | Commit, Commit | Rollback, Rollback => true | _, _ => false end.
Definition trid_eqb (a b : trid) : bool :=
  match a, b with
  | None, None => true
  | Some (g, x), Some (h, y) => (g =? h) && (x =? y)
  | _, _ => false
  end.

(* find_internal, find_external, partner, process_handle: connection.h:95-205 *)
Definition by_ipc (c : ipc) (s : state) : option conn := find (fun n => c_ipc n =? c) (s_conns s).
Definition by_sock (f : sock) (s : state) : option conn := find (fun n => c_sock n =? f) (s_conns s).
Definition handle (f : sock) (s : state) : ipc := match by_sock f s with Some n => c_ipc n | None => 0 end.

Definition with_tasks (l : list task) (s : state) : state := State (s_conns s) l (s_cache s) (s_leaving s) (s_down s).
Definition with_cache (l : list (Z * entry)) (s : state) : state := State (s_conns s) (s_tasks s) l (s_leaving s) (s_down s).

(* Cache::find, state.cpp:70-76 *)
Definition cached (g : Z) (l : list (Z * entry)) : option entry := option_map snd (find (fun x => fst x =? g) l).
Definition add_sock (f : sock) (e : entry) : entry := if existsb (Z.eqb f) (e_socks e) then e else Entry (e_trid e) (e_socks e ++ [f]).
Fixpoint update (g : Z) (f : sock) (l : list (Z * entry)) : list (Z * entry) :=
  match l with [] => [] | x :: r => if fst x =? g then (fst x, add_sock f (snd x)) :: r else x :: update g f r end.
(* Cache::associate, state.cpp:33-44 *)
Definition associate (g : Z) (f : sock) (s : state) : option (Z * Z) * state :=
  match cached g (s_cache s) with
  | Some e => (Some (e_trid e), with_cache (update g f (s_cache s)) s)
  | None => (None, s)
  end.
(* Cache::add, state.cpp:46-59 *)
Definition cache_add (t : Z * Z) (f : sock) (s : state) : state :=
  match cached (fst t) (s_cache s) with
  | Some _ => with_cache (update (fst t) f (s_cache s)) s
  | None => with_cache (s_cache s ++ [(fst t, Entry t [f])]) s
  end.
(* Cache::associated, state.cpp:62-69 *)
Definition associated (f : sock) (s : state) : bool := existsb (fun x => existsb (Z.eqb f) (e_socks (snd x))) (s_cache s).
(* Cache::failed, state.cpp:78-95: what is left, and the global ids that are gone *)
Definition without_sock (f : sock) (e : entry) : entry := Entry (e_trid e) (filter (fun x => negb (x =? f)) (e_socks e)).
Definition cache_left (f : sock) (l : list (Z * entry)) : list (Z * entry) :=
  flat_map (fun x => match e_socks (without_sock f (snd x)) with [] => [] | _ => [(fst x, without_sock f (snd x))] end) l.
Definition cache_gone (f : sock) (l : list (Z * entry)) : list Z :=
  flat_map (fun x => match e_socks (without_sock f (snd x)) with [] => [fst x] | _ => [] end) l.

(* State::disconnectable, state.cpp:107-110 *)
Definition disconnectable (f : sock) (s : state) : bool := negb (associated f s) && negb (existsb (fun t => k_sock t =? f) (s_tasks s)).
(* State::done, state.cpp:112-115 *)
Definition done (s : state) : bool := s_down s && match s_conns s with [] => true | _ => false end.

(* the Failed handler of a task, create.cpp:294-308, 413-427; the others have none *)
Definition failed (t : task) : list effect :=
  match k_body t with Service q _ None => [Discard (q_corr q) (q_name q)] | _ => [] end.

(* connection::lost, handle.cpp:582-631, with State::extract, state.cpp:117-133, and Coordinator::failed, concurrent.h:196-209.
   Holder::extract terminates if there is no information for the descriptor, connection.h:238-239 *)
Definition lost (f : sock) (s : state) : result :=
  match by_sock f s with
  | None => Terminated []
  | Some n =>
      Done
        (State
          (filter (fun n => negb (c_sock n =? f)) (s_conns s))
          (filter (fun t => negb (k_sock t =? f)) (s_tasks s))
          (cache_left f (s_cache s))
          (filter (fun x => negb (x =? f)) (s_leaving s))
          (s_down s))
        ([Destroyed (c_ipc n)]
         ++ (match cache_gone f (s_cache s) with [] => [] | gs => [Active gs] end)
         ++ flat_map (fun t => if k_sock t =? f then failed t else []) (s_tasks s))
  end.

(* group::tcp::send, tcp.h:30-58; [ok]: the device doesn't report an error *)
Definition send (ok : bool) (f : sock) (m : wire) (s : state) : result :=
  match by_sock f s with
  | None => Done s []
  | Some n => if ok then Done s [ToRemote (c_ipc n) m] else bind (lost f s) (fun s => Done s [Lost f])
  end.

(* send_to_partner_ipc, create.cpp:102-109 *)
Definition to_partner (f : sock) (m : internal) (s : state) : list effect :=
  match by_sock f s with Some n => [ToPartner (c_ipc n) m] | None => [] end.

(* send::service_request, create.cpp:148-186: the name is the one of the lookup *)
Definition service_request (f : sock) (found : Z * ipc) (q : request) (s : state) : list effect :=
  [ToProcess (snd found) (handle f s) (Request (q_kind q) (q_corr q) (fst found) (q_trid q) (q_data q) (q_noreply q))].
(* send::queue_request, create.cpp:188-202 *)
Definition queue_request (f : sock) (found : option ipc) (q : request) (s : state) : list effect :=
  match found with
  | None => to_partner f (IReply (q_kind q) (q_corr q) 0 0) s
  | Some p => [ToProcess p (handle f s) q]
  end.

Definition with_trid (t : trid) (q : request) : request := Request (q_kind q) (q_corr q) (q_name q) t (q_data q) (q_noreply q).
Definition gtrid (t : trid) : option Z := option_map fst t.

(* the part of a request with a transaction, create.cpp:221-229, 328-336, 450-461: the request, if it has to wait, and what is asked *)
Definition in_transaction (f : sock) (q : request) (s : state) : request * bool * state * list effect :=
  match q_trid q with
  | None => (q, false, s, [])
  | Some (g, _) =>
      match associate g f s with
      | (Some t, s') => (with_trid (Some t) q, false, s', [])
      | (None, s') => (q, true, s', [Branch (handle f s) (q_corr q) g])
      end
  end.
Definition add_task (f : sock) (b : body) (s : state) : state := with_tasks (s_tasks s ++ [Task f b]) s.

(* handle_service, handle_conversation and handle_queue, create.cpp:207-235, 314-344, 433-464. [online]: the queue-manager gets the lookup *)
Definition request_step (online : bool) (n : conn) (q : request) (s : state) : result :=
  let f := c_sock n in
  let '(q', wait, s', ev) := in_transaction f q s in
  match q_kind q with
  | Call => Done (add_task f (Service q' (q_trid q) None) s') (Lookup (handle f s) (q_corr q) (q_name q) (gtrid (q_trid q)) (q_noreply q) :: ev)
  | Connect => Done (add_task f (Service q' (q_trid q) None) s') (Lookup (handle f s) (q_corr q) (q_name q) (gtrid (q_trid q)) false :: ev)
  | Enqueue | Dequeue =>
      Done (add_task f (Queue q' wait None) s')
        ((if online then [LookupQueue (handle f s) (q_corr q) (q_name q) (gtrid (q_trid q))] else [ToItself (IQueueLookup (q_corr q) None)]) ++ ev)
  end.

(* handle_transaction, create.cpp:499-537. The transaction that is kept for the reply is taken after it has been replaced *)
Definition resource_step (n : conn) (r : resource) (k : corr) (t : Z * Z) (data : Z) (s : state) : result :=
  let f := c_sock n in
  match cached (fst t) (s_cache s) with
  | Some e => Done (add_task f (Rm r k (Some (e_trid e))) s) [ToTM (handle f s) r k (e_trid e) data]
  | None => Done (add_task f (Rm r k (Some t)) s) (to_partner f (IResource r k (Some t) XAER_PROTO) s)
  end.

(* Coordinator::operator(), concurrent.h:175-181: the first unit of the correlation *)
Definition first_task (k : corr) (s : state) : option task := find (fun t => t_corr t =? k) (s_tasks s).
Fixpoint without_task (k : corr) (l : list task) : list task :=
  match l with [] => [] | t :: r => if t_corr t =? k then r else t :: without_task k r end.
Definition drop_task (k : corr) (s : state) : state := with_tasks (without_task k (s_tasks s)) s.
(* the unit is still there, with what its handlers share changed *)
Fixpoint set_task (k : corr) (b : body) (l : list task) : list task :=
  match l with [] => [] | t :: r => if t_corr t =? k then Task (k_sock t) b :: r else t :: set_task k b r end.
Definition put_task (k : corr) (b : body) (s : state) : state := with_tasks (set_task k b (s_tasks s)) s.
(* Coordinator::remove, concurrent.h:211-214: all of the correlation *)
Definition remove_tasks (k : corr) (s : state) : state := with_tasks (filter (fun t => negb (t_corr t =? k)) (s_tasks s)) s.

(* the lookup handlers, create.cpp:237-264, 347-373 *)
Definition lookup_reply (k : corr) (a : looked) (s : state) : result :=
  match first_task k s with
  | Some (Task f (Service q origin _ as b)) =>
      match a with
      | Found name p =>
          Done (put_task k (Service q origin (Some (name, p))) s)
            (match origin with
             | None => service_request f (name, p) q s
             | Some _ => if trid_eqb origin (q_trid q) then [] else service_request f (name, p) q s
             end)
      | Absent => Done s (to_partner f (IReply (q_kind q) k TPENOENT 0) s)
      | Timeout => Done s (to_partner f (IReply (q_kind q) k TPETIME 0) s)
      end
  | _ => Done s []
  end.
(* create.cpp:467-479 *)
Definition queue_lookup_reply (k : corr) (p : option ipc) (s : state) : result :=
  match first_task k s with
  | Some (Task f (Queue q wait _)) =>
      if wait then Done (put_task k (Queue q wait (Some p)) s) []
      else Done (drop_task k s) (queue_request f p q s)
  | _ => Done s []
  end.
(* create.cpp:266-278, 375-388, 480-494 *)
Definition branch_reply (k : corr) (t : Z * Z) (s : state) : result :=
  match first_task k s with
  | Some (Task f (Service q origin found)) =>
      let q' := with_trid (Some t) q in
      Done (put_task k (Service q' origin found) (cache_add t f s))
        (match found with Some d => service_request f d q' s | None => [] end)
  | Some (Task f (Queue q _ found)) =>
      let q' := with_trid (Some t) q in
      match found with
      | None => Done (put_task k (Queue q' false None) (cache_add t f s)) []
      | Some p => Done (drop_task k (cache_add t f s)) (queue_request f p q' s)
      end
  | _ => Done s []
  end.
(* the handlers of a reply that ends the task, create.cpp:279-293, 521-535: a send that fails removes the units of the connection, also the one
   that is executed, and then the iterator to it is used, concurrent.h:178-180 *)
Definition reply_and_drop (ok : bool) (k : corr) (f : sock) (m : wire) (s : state) : result :=
  match by_sock f s with
  | None => Terminated []
  | Some _ =>
      match send ok f m s with
      | Done s1 ev => if ok then Done (drop_task k s1) ev else Undefined ev
      | r => r
      end
  end.
Definition call_reply (ok : bool) (k : corr) (code data : Z) (s : state) : result :=
  match first_task k s with
  | Some (Task f (Service q _ _)) =>
      match q_kind q with Call => reply_and_drop ok k f (WReply Call k code data) s | _ => Done s [] end
  | _ => Done s []
  end.
Definition resource_reply (ok : bool) (r : resource) (k : corr) (code : Z) (s : state) : result :=
  match first_task k s with
  | Some (Task f (Rm r' _ origin)) => if resource_eqb r r' then reply_and_drop ok k f (WResource r k origin code) s else Done s []
  | _ => Done s []
  end.

(* the handlers of what arrives at the device of the connection n, handle.cpp:505-536; [ok]: if the connection can send *)
Definition internal_step (ok : bool) (n : conn) (m : internal) (s : state) : result :=
  match m with
  | ILookup k a => lookup_reply k a s
  | IQueueLookup k p => queue_lookup_reply k p s
  | IBranch k t => branch_reply k t s
  | IReply Call k code data => call_reply ok k code data s
  | IReply nk k code data => send ok (c_sock n) (WReply nk k code data) s      (* handle.cpp:87, 117-152 *)
  | ISend k terminated data =>                                                 (* handle.cpp:91-104 *)
      bind (send ok (c_sock n) (WSend k terminated data) s) (fun s => Done (if terminated then remove_tasks k s else s) [])
  | IResource r k _ code => resource_reply ok r k code s
  | IDiscovered k data => send ok (c_sock n) (WDiscovered k data) s           (* handle.cpp:162-177 *)
  | IUpdate data => send ok (c_sock n) (WUpdate data) s                       (* handle.cpp:181-193 *)
  end.

(* the handlers of what a remote sends on the connection n, handle.cpp:538-567 *)
Definition external_step (online : bool) (n : conn) (m : external) (s : state) : result :=
  match m with
  | XRequest q => request_step online n q s
  | XSend k data =>                                                            (* create.cpp:389-400 *)
      match first_task k s with
      | Some (Task _ (Service q _ found)) =>
          match q_kind q with
          | Connect => match found with Some d => Done s [ToPeer (snd d) k data] | None => Terminated [] end
          | _ => Done s []
          end
      | _ => Done s []
      end
  | XDisconnect k =>                                                           (* create.cpp:401-412 *)
      match first_task k s with
      | Some (Task _ (Service q _ found)) =>
          match q_kind q with
          | Connect => match found with Some d => Done (drop_task k s) [ToPeerDisconnect (snd d) k] | None => Terminated [] end
          | _ => Done s []
          end
      | _ => Done s []
      end
  | XResource r k t data => resource_step n r k t data s
  | XDiscover k data => Done s [Discover (handle (c_sock n) s) k data]         (* handle.cpp:392-412 *)
  | XLeave =>                                                                  (* handle.cpp:234-260 *)
      if disconnectable (c_sock n) s then lost (c_sock n) s
      else Done (State (s_conns s) (s_tasks s) (s_cache s) (s_leaving s ++ [c_sock n]) (s_down s)) []
  end.

(* connection::disconnect, handle.cpp:633-647 *)
Definition disconnect (ok : bool) (f : sock) (s : state) : result :=
  match by_sock f s with
  | None => Done s []
  | Some n => if c_soft n then send ok f WLeave s else lost f s
  end.
Fixpoint lost_all (l : list sock) (s : state) : result :=
  match l with [] => Done s [] | f :: r => bind (lost f s) (lost_all r) end.
(* handle::idle, handle.cpp:652-669 *)
Definition idle (s : state) : result :=
  let leave := filter (fun f => disconnectable f s) (s_leaving s) in
  lost_all leave (State (s_conns s) (s_tasks s) (s_cache s) (filter (fun f => negb (disconnectable f s)) (s_leaving s)) (s_down s)).
(* handle::shutdown, handle.cpp:671-680; [broken]: the connections that can't be sent to *)
Fixpoint disconnect_all (broken : list ipc) (l : list conn) (s : state) : result :=
  match l with [] => Done s [] | n :: r => bind (disconnect (negb (existsb (Z.eqb (c_ipc n)) broken)) (c_sock n) s) (disconnect_all broken r) end.
Definition shutdown (broken : list ipc) (s : state) : result :=
  disconnect_all broken (s_conns s) (State (s_conns s) (s_tasks s) (s_cache s) (s_leaving s) true).

(* the error callback of a request that couldn't be sent to the process, create.cpp:160-169, 194-200, the descriptor is the captured one *)
Definition undelivered (f : sock) (q : request) (s : state) : list effect :=
  match q_kind q with
  | Call | Connect => to_partner f (IReply (q_kind q) (q_corr q) TPESVCERR 0) s
  | Enqueue | Dequeue => to_partner f (IReply (q_kind q) (q_corr q) 0 0) s
  end.

(* what happens to the inbound. [External c online m]: the remote of c sends m. [Internal c ok m]: m arrives at the device of c. [Broken]: a read, or a
   write of what the connection has kept, fails (tcp.h:136-219). [Disassociate]: the event from the TM. [Remove]: a configuration update without
   the listener of the connection (main.cpp:108-121). [Undelivered]: the send of a request to a process has failed *)
Inductive input :=
| Connected (f : sock) (c : ipc) (soft : bool)
| External (c : ipc) (online : bool) (m : external)
| Internal (c : ipc) (ok : bool) (m : internal)
| Undelivered (f : sock) (q : request)
| Broken (c : ipc)
| Disassociate (g : Z)
| Remove (c : ipc) (ok : bool)
| Shutdown (broken : list ipc)
| Idle.

Definition step (i : input) (s : state) : result :=
  match i with
  | Connected f c soft =>                                                     (* handle.cpp:451-482; the register at discovery is left out *)
      Done (State (s_conns s ++ [Conn f c soft]) (s_tasks s) (s_cache s) (s_leaving s) (s_down s)) []
  | External c online m => match by_ipc c s with Some n => external_step online n m s | None => Done s [] end
  | Internal c ok m => match by_ipc c s with Some n => internal_step ok n m s | None => Done s [] end
  | Undelivered f q => Done s (undelivered f q s)
  | Broken c => match by_ipc c s with Some n => bind (lost (c_sock n) s) (fun s => Done s [Lost (c_sock n)]) | None => Done s [] end
  | Disassociate g => Done (with_cache (filter (fun x => negb (fst x =? g)) (s_cache s)) s) []    (* handle.cpp:489-499, state.cpp:97-100 *)
  | Remove c ok => match by_ipc c s with Some n => disconnect ok (c_sock n) s | None => Done s [] end
  | Shutdown broken => shutdown broken s
  | Idle => idle s
  end.

(* what has happened: each input with the effects *)
Definition history := list (input * list effect).
Definition effects (h : history) : list effect := flat_map snd h.
Definition inputs (h : history) : list input := map fst h.
(* the kernel doesn't give a descriptor that is open, and an ipc id is never used again; what arrives does so at a connection there is; what
   couldn't be sent is something that was to be sent *)
Definition possible (i : input) (s : state) (h : history) : Prop :=
  match i with
  | Connected f c _ =>
      (forall n, In n (s_conns s) -> c_sock n <> f) /\ (forall f' soft, ~ In (Connected f' c soft) (inputs h))
  | External c _ _ | Internal c _ _ | Broken c | Remove c _ => In c (map c_ipc (s_conns s))
  | Undelivered f q => exists p c soft, In (ToProcess p c q) (effects h) /\ In (Connected f c soft) (inputs h)
  | _ => True
  end.
Inductive reach : state -> history -> Prop :=
| reach_start : reach state0 []
| reach_step : forall s h i s' ev, reach s h -> possible i s h -> step i s = Done s' ev -> reach s' (h ++ [(i, ev)]).

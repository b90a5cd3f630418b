(* The queue manager: tells where queues are, and runs the queue groups and the forward groups.
   /repo/middleware/queue/source/manager/{handle,state,configuration,transform,main}.cpp, /repo/middleware/queue/include/queue/manager/state.h,
   /repo/middleware/common/include/casual/task.h, /repo/middleware/configuration/include/configuration/model/change.h *)
From Coq Require Import ZArith List Bool.
Import ListNotations.
Local Open Scope Z_scope.

(* names, aliases, ids, correlations, pids and devices (ipc) are integers; 0 as ipc is nil *)

(* state::Queue, state.h:96-119, with the name it's for (the key of State::queues) *)
Record inst := Inst { i_name : Z; i_pid : Z; i_ipc : Z; i_id : Z; i_order : nat; i_enq : bool; i_deq : bool }.
(* Queue::local, state.h:106 *)
Definition local (x : inst) : bool := (i_order x =? 0)%nat.

(* lookup::request::context, queue/common/ipc/message.h:124-192 *)
Inductive action := Any | Enqueueing | Dequeueing.
Inductive requester := Internal | External | ExternalDiscovery.
(* lookup::Request *)
Record look := Look { l_corr : Z; l_pid : Z; l_ipc : Z; l_name : Z; l_req : requester; l_wait : bool; l_act : action }.

(* configuration::model::queue::Group and forward::Group: the alias, the queues with what is enabled (none for a forward group), all the rest *)
Record conf := Conf { c_alias : Z; c_queues : list (Z * (bool * bool)); c_rest : Z }.
(* Model of the queues: the groups and the forward groups *)
Record model := Model { m_groups : list conf; m_forwards : list conf }.

(* Entity, state.h:48-66. [e_life]: 1 spawned, 2 connected, 3 running, 4 shutdown (state.h:35-42) *)
Record entity := Entity { e_conf : conf; e_pid : Z; e_ipc : Z; e_life : nat }.

(* the units of the coordinator, configuration.cpp:58-318 and 378-392; [fwd]: of forward groups *)
Inductive task := TAdd (fwd : bool) (l : list conf) | TRemove (fwd : bool) (l : list conf) | TModify (fwd : bool) (l : list conf) | TTell (p k : Z).

(* state.h:139-145; error isn't modelled *)
Inductive runlevel := Configuring | Running | Down.
(* State, state.h:150-224. [s_queues]: the map of vectors as one list, sorted by the order (stable): what is for a name is the vector of that name.
   [s_remotes]: the pid and ipc of the remotes. [s_active], [s_tasks]: the first continuation of the coordinator, with the pids it waits for, and
   the rest. [s_next]: the pid of the next process that is spawned. [s_lost]: the devices that are gone, sends to them do nothing *)
Record state := State { s_run : runlevel; s_queues : list inst; s_lookups : list look; s_groups : list entity; s_forwards : list entity; s_remotes : list (Z * Z);
  s_active : option (task * list Z); s_tasks : list task; s_next : Z; s_lost : list Z }.
Definition state0 : state := State Configuring [] [] [] [] [] None [] 1 [].

(* what it sends and does *)
Inductive effect :=
| Answer (p k name : Z) (a : option inst)                       (* lookup::Reply to the device p *)
| Discarded (p k : Z) (found : bool)                            (* lookup::discard::Reply *)
| Discover (name k : Z)                                         (* to the discovery *)
| Found (p k : Z) (there : list (Z * (bool * bool))) (absent : list Z)   (* discovery::lookup::Reply *)
| Known (p k : Z) (names : list Z)                              (* fetch::known::Reply *)
| Spawn (fwd : bool) (c : conf) (pid : Z)
| Stop (fwd : bool) (pid ipc : Z)                               (* shutdown::Request, or a signal if the ipc isn't known *)
| Configure (fwd : bool) (pid ipc : Z) (c : conf)               (* configuration::update::Request to a group *)
| Told (pid : Z)                                                (* the event that a child has exited *)
| Ready                                                         (* connects to the domain *)
| Updated (p k : Z).

(* what arrives *)
Inductive input :=
| Begin (m : model)
| Lookup (l : look)
| DiscardLookup (p k : Z)
| Advertise (pid ipc : Z) (order : nat) (add : list (Z * (bool * bool))) (remove : list Z)
| Order (ipc : Z) (order : nat)                                 (* Advertise with directive instance *)
| Reset (ipc : Z)                                               (* Advertise with directive reset *)
| Discovered (k : Z)                                            (* discovery::api::Reply *)
| AskKnown (p k : Z)
| AskLocal (p k : Z) (internal : bool) (names : list Z)         (* discovery::lookup::Request *)
| Connect (fwd : bool) (pid ipc : Z)
| Configured (fwd : bool) (pid : Z) (queues : list (Z * Z))     (* configuration::update::Reply: names and ids *)
| Exit (pid : Z)                                                (* SIGCHLD *)
| Dead (pid : Z)                                                (* event::process::Exit *)
| Destroyed (ipc : Z)                                           (* event::ipc::Destroyed *)
| Update (p k : Z) (m : model)
| Shutdown
| Idle
| Lost (ipc : Z).                                               (* the device is gone; not a message *)

(* ---- the queues ---- *)
(* State::queue and local_queue, state.cpp:52-96 *)
Definition enabled (a : action) (x : inst) : bool := match a with Any => true | Enqueueing => i_enq x | Dequeueing => i_deq x end.
Definition queue (name : Z) (a : action) (s : state) : option inst := find (fun x => (i_name x =? name) && enabled a x) (s_queues s).
Definition local_queue (name : Z) (a : action) (s : state) : option inst := find (fun x => (i_name x =? name) && (enabled a x && local x)) (s_queues s).

(* emplace_back and (stable) sort of the vector of the name, state.cpp:115-128, 226-237. For the groups it's std::sort, with the order 0 for the
   new: the place among those that have the same order isn't specified; here it's the last *)
Fixpoint insert (x : inst) (l : list inst) : list inst :=
  match l with [] => [x] | y :: r => if (i_order x <? i_order y)%nat then x :: y :: r else y :: insert x r end.
Definition sort (l : list inst) : list inst := fold_left (fun a x => insert x a) l [].

Definition with_queues (q : list inst) (s : state) : state := State (s_run s) q (s_lookups s) (s_groups s) (s_forwards s) (s_remotes s) (s_active s) (s_tasks s) (s_next s) (s_lost s).
Definition with_lookups (l : list look) (s : state) : state := State (s_run s) (s_queues s) l (s_groups s) (s_forwards s) (s_remotes s) (s_active s) (s_tasks s) (s_next s) (s_lost s).
Definition with_remotes (r : list (Z * Z)) (s : state) : state := State (s_run s) (s_queues s) (s_lookups s) (s_groups s) (s_forwards s) r (s_active s) (s_tasks s) (s_next s) (s_lost s).
Definition with_run (r : runlevel) (s : state) : state := State r (s_queues s) (s_lookups s) (s_groups s) (s_forwards s) (s_remotes s) (s_active s) (s_tasks s) (s_next s) (s_lost s).
Definition with_coord (a : option (task * list Z)) (t : list task) (s : state) : state := State (s_run s) (s_queues s) (s_lookups s) (s_groups s) (s_forwards s) (s_remotes s) a t (s_next s) (s_lost s).
Definition with_lost (l : list Z) (s : state) : state := State (s_run s) (s_queues s) (s_lookups s) (s_groups s) (s_forwards s) (s_remotes s) (s_active s) (s_tasks s) (s_next s) l.
Definition with_next (n : Z) (s : state) : state := State (s_run s) (s_queues s) (s_lookups s) (s_groups s) (s_forwards s) (s_remotes s) (s_active s) (s_tasks s) n (s_lost s).
Definition entities (fwd : bool) (s : state) : list entity := if fwd then s_forwards s else s_groups s.
Definition with_entities (fwd : bool) (l : list entity) (s : state) : state :=
  if fwd then State (s_run s) (s_queues s) (s_lookups s) (s_groups s) l (s_remotes s) (s_active s) (s_tasks s) (s_next s) (s_lost s)
  else State (s_run s) (s_queues s) (s_lookups s) l (s_forwards s) (s_remotes s) (s_active s) (s_tasks s) (s_next s) (s_lost s).

(* State::remove_queues, state.cpp:139-170 *)
Definition drop_pid (pid : Z) (s : state) : state := with_queues (filter (fun x => negb (i_pid x =? pid)) (s_queues s)) s.
Definition drop_ipc (ipc : Z) (s : state) : state := with_queues (filter (fun x => negb (i_ipc x =? ipc)) (s_queues s)) s.
Definition erase_entity (pid : Z) (l : list entity) : list entity := filter (fun e => negb (e_pid e =? pid)) l.
(* State::remove, state.cpp:172-182 *)
Definition remove (pid : Z) (s : state) : state :=
  let s1 := drop_pid pid s in
  State (s_run s1) (s_queues s1) (filter (fun l => negb (l_pid l =? pid)) (s_lookups s1)) (erase_entity pid (s_groups s1)) (erase_entity pid (s_forwards s1))
    (filter (fun r => negb (fst r =? pid)) (s_remotes s1)) (s_active s1) (s_tasks s1) (s_next s1) (s_lost s1).

(* ---- lookups ---- *)
Definition gone (p : Z) (s : state) : bool := existsb (Z.eqb p) (s_lost s).
Definition send (p : Z) (e : effect) (s : state) : list effect := if gone p s then [] else [e].
(* pending::lookups::check, handle.cpp:50-75: what is found and sent isn't pending. A lookup that waits is given any queue, whoever has asked for it *)
Definition replied (s : state) (l : look) : option inst := if gone (l_ipc l) s then None else queue (l_name l) (l_act l) s.
Definition check (s : state) : state * list effect :=
  (with_lookups (filter (fun l => match replied s l with Some _ => false | None => true end) (s_lookups s)) s,
   flat_map (fun l => match replied s l with Some x => [Answer (l_ipc l) (l_corr l) (l_name l) (Some x)] | None => [] end) (s_lookups s)).
(* pending::lookups::discard, handle.cpp:77-92, reply_absent_queue, handle.cpp:144-151 *)
Definition absent (s : state) (l : look) : list effect := send (l_ipc l) (Answer (l_ipc l) (l_corr l) (l_name l) None) s.
Definition discard_all (s : state) : state * list effect := (with_lookups [] s, flat_map (absent s) (s_lookups s)).
Definition push_lookup (l : look) (s : state) : state := with_lookups (s_lookups s ++ [l]) s.
Definition is_down (s : state) : bool := match s_run s with Down => true | _ => false end.
(* lookup::request, handle.cpp:215-250, absent_queue, discovery, internal_only, internal_external: 153-213 *)
Definition absent_queue (l : look) (s : state) : state * list effect := if l_wait l then (push_lookup l s, []) else (s, absent s l).
Definition lookup (l : look) (s : state) : state * list effect :=
  if is_down s then (s, absent s l)
  else
    let found x := (s, send (l_ipc l) (Answer (l_ipc l) (l_corr l) (l_name l) (Some x)) s) in
    match l_req l with
    | Internal => match queue (l_name l) (l_act l) s with Some x => found x | None => (push_lookup l s, [Discover (l_name l) (l_corr l)]) end
    | External => match local_queue (l_name l) (l_act l) s with Some x => found x | None => absent_queue l s end
    | ExternalDiscovery => match queue (l_name l) (l_act l) s with Some x => found x | None => absent_queue l s end
    end.
Fixpoint remove_first {A} (f : A -> bool) (l : list A) : list A := match l with [] => [] | x :: r => if f x then r else x :: remove_first f r end.
(* lookup::discard::request, handle.cpp:254-275 *)
Definition discard_lookup (p k : Z) (s : state) : state * list effect :=
  if existsb (fun l => l_corr l =? k) (s_lookups s) then (with_lookups (remove_first (fun l => l_corr l =? k) (s_lookups s)) s, send p (Discarded p k true) s)
  else (s, send p (Discarded p k false) s).

(* ---- what is advertised, State::update: state.cpp:184-250 ---- *)
Definition remote_id : Z := -1.                                  (* queue::remote::queue::id *)
Definition add_remote (pid ipc : Z) (order : nat) (s : state) (q : Z * (bool * bool)) : state :=
  with_queues (insert (Inst (fst q) pid ipc remote_id (order + 1) (fst (snd q)) (snd (snd q))) (s_queues s)) s.
Definition remove_remote (ipc : Z) (s : state) (name : Z) : state := with_queues (filter (fun x => negb ((i_name x =? name) && (i_ipc x =? ipc))) (s_queues s)) s.
Definition advertise (pid ipc : Z) (order : nat) (add : list (Z * (bool * bool))) (rem : list Z) (s : state) : state :=
  let s1 := if existsb (fun r => (fst r =? pid) && (snd r =? ipc)) (s_remotes s) then s else with_remotes (s_remotes s ++ [(pid, ipc)]) s in
  fold_left (remove_remote ipc) rem (fold_left (add_remote pid ipc order) add s1).
Definition with_order (n : nat) (x : inst) : inst := Inst (i_name x) (i_pid x) (i_ipc x) (i_id x) n (i_enq x) (i_deq x).
(* for each name the first that is of the device, state.cpp:207-214. [done]: the names that have been changed *)
Fixpoint reorder (ipc : Z) (n : nat) (done : list Z) (l : list inst) : list inst :=
  match l with
  | [] => []
  | x :: r => if (i_ipc x =? ipc) && negb (existsb (Z.eqb (i_name x)) done) then with_order n x :: reorder ipc n (i_name x :: done) r else x :: reorder ipc n done r
  end.
Definition order_of (ipc : Z) (n : nat) (s : state) : state :=
  if existsb (fun r => snd r =? ipc) (s_remotes s) then with_queues (sort (reorder ipc (n + 1) [] (s_queues s))) s else s.

(* ---- the groups ---- *)
Definition set_life (n : nat) (e : entity) : entity := Entity (e_conf e) (e_pid e) (e_ipc e) (Nat.max (e_life e) n).     (* Machine, state/machine.h:22-27 *)
Definition set_ipc (p : Z) (e : entity) : entity := Entity (e_conf e) (e_pid e) p (e_life e).
Definition find_entity (pid : Z) (l : list entity) : option entity := find (fun e => e_pid e =? pid) l.
(* the first that has the pid *)
Fixpoint on_entity (pid : Z) (g : entity -> entity) (l : list entity) : list entity := match l with [] => [] | e :: r => if e_pid e =? pid then g e :: r else e :: on_entity pid g r end.
(* the configuration of a queue: all is enabled if it's not configured (the error queue), state.cpp:123-125 *)
Definition enable_of (c : conf) (name : Z) : bool * bool := match find (fun q => fst q =? name) (c_queues c) with Some q => snd q | None => (true, true) end.
Definition add_local (e : entity) (s : state) (q : Z * Z) : state :=
  with_queues (insert (Inst (fst q) (e_pid e) (e_ipc e) (snd q) 0 (fst (enable_of (e_conf e) (fst q))) (snd (enable_of (e_conf e) (fst q)))) (s_queues s)) s.
(* State::update for a group, state.cpp:98-135 *)
Definition update_group (pid : Z) (qs : list (Z * Z)) (s : state) : state :=
  let s1 := drop_pid pid s in
  match find_entity pid (s_groups s1) with
  | Some e => fold_left (add_local e) qs (with_entities false (on_entity pid (set_life 3) (s_groups s1)) s1)
  | None => s1
  end.

(* spawn_entity and the action of added_groups, configuration.cpp:28-36, 70-84, 112-126 *)
Fixpoint spawn (fwd : bool) (l : list conf) (s : state) : state * list effect * list Z :=
  match l with
  | [] => (s, [], [])
  | c :: r =>
      let pid := s_next s in
      let '(s', ev, ps) := spawn fwd r (with_entities fwd (entities fwd s ++ [Entity c pid 0 1]) (with_next (pid + 1) s)) in
      (s', Spawn fwd c pid :: ev, pid :: ps)
  end.
Definition has_alias (l : list conf) (e : entity) : bool := existsb (fun c => c_alias c =? c_alias (e_conf e)) l.
(* the action of a task: what is done, and the pids that it waits for. removed: configuration.cpp:160-182, 203-227; modified: 241-259, 283-302: both kinds
   are looked for among the groups *)
Definition modify_one (fwd : bool) (s : state) (c : conf) : list (effect * Z) :=
  match find (fun e => c_alias (e_conf e) =? c_alias c) (s_groups s) with
  | Some e => [(Configure fwd (e_pid e) (e_ipc e) c, e_pid e)]
  | None => []
  end.
Definition start (t : task) (s : state) : state * list effect * list Z :=
  match t with
  | TAdd fwd l => spawn fwd l s
  | TRemove fwd l =>
      let es := filter (has_alias l) (entities fwd s) in
      (with_entities fwd (map (fun e => if has_alias l e then set_life 4 e else e) (entities fwd s)) s, map (fun e => Stop fwd (e_pid e) (e_ipc e)) es, map e_pid es)
  | TModify fwd l => let x := flat_map (modify_one fwd s) l in (s, map fst x, map snd x)
  | TTell p k => (s, [Updated p k], [])
  end.
(* the messages that tasks handle *)
Inductive message := MConnect (fwd : bool) (pid : Z) | MConfigured (fwd : bool) (pid : Z) | MDead (pid : Z).
Definition erase (pid : Z) (l : list Z) : list Z := filter (fun p => negb (p =? pid)) l.
(* the handlers of a task: connect_handle, update_reply_handle, exit_handle *)
Definition handle (t : task) (m : message) (ps : list Z) : list Z :=
  match t, m with
  | TAdd fwd _, MConnect fwd' pid => if Bool.eqb fwd fwd' then erase pid ps else ps
  | TModify fwd _, MConfigured fwd' pid => if Bool.eqb fwd fwd' then erase pid ps else ps
  | (TAdd _ _ | TRemove _ _ | TModify _ _), MDead pid => erase pid ps
  | _, _ => ps
  end.
(* Coordinator::operator()( message), task.h:320-338: the next is started, and gets the message; one that is done (or has aborted) is taken away *)
Fixpoint advance (ts : list task) (m : message) (s : state) : state * list effect :=
  match ts with
  | [] => (with_coord None [] s, [])
  | t :: r =>
      let '(s1, ev, ps) := start t s in
      match handle t m ps with
      | [] => let '(s2, ev2) := advance r m s1 in (s2, ev ++ ev2)
      | ps' => (with_coord (Some (t, ps')) r s1, ev)
      end
  end.
Definition coordinate (m : message) (s : state) : state * list effect :=
  match s_active s with
  | None => (s, [])
  | Some (t, ps) => match handle t m ps with [] => advance (s_tasks s) m s | ps' => (with_coord (Some (t, ps')) (s_tasks s) s, []) end
  end.
(* Coordinator::then, task.h:351-361 *)
Definition andthen (t : task) (s : state) : state * list effect :=
  match s_active s with
  | Some _ => (with_coord (s_active s) (s_tasks s ++ [t]) s, [])
  | None => let '(s1, ev, ps) := start t s in (with_coord (match ps with [] => None | _ => Some (t, ps) end) [] s1, ev)
  end.
Fixpoint then_all (ts : list task) (s : state) : state * list effect :=
  match ts with [] => (s, []) | t :: r => let '(s1, e1) := andthen t s in let '(s2, e2) := then_all r s1 in (s2, e1 ++ e2) end.

(* change::calculate, model/change.h:47-58 *)
Definition pair_eqb (a b : Z * (bool * bool)) : bool := (fst a =? fst b) && (Bool.eqb (fst (snd a)) (fst (snd b)) && Bool.eqb (snd (snd a)) (snd (snd b))).
Fixpoint list_eqb {A} (f : A -> A -> bool) (a b : list A) : bool := match a, b with [], [] => true | x :: r, y :: r' => f x y && list_eqb f r r' | _, _ => false end.
Definition conf_eqb (a b : conf) : bool := (c_alias a =? c_alias b) && ((c_rest a =? c_rest b) && list_eqb pair_eqb (c_queues a) (c_queues b)).
Definition knows (l : list conf) (c : conf) : bool := existsb (fun d => c_alias d =? c_alias c) l.
Definition differ (current wanted : list conf) : list conf := filter (fun c => negb (existsb (conf_eqb c) current)) wanted.
Definition added (current wanted : list conf) : list conf := filter (fun c => negb (knows current c)) (differ current wanted).
Definition modified (current wanted : list conf) : list conf := filter (knows current) (differ current wanted).
Definition removed (current wanted : list conf) : list conf := filter (fun c => negb (knows wanted c)) current.
Definition task_of (f : list conf -> task) (l : list conf) : list task := match l with [] => [] | _ => [f l] end.
(* conform, configuration.cpp:324-368 *)
Definition tasks_of (cur wanted : model) : list task :=
  task_of (TRemove true) (removed (m_forwards cur) (m_forwards wanted)) ++ task_of (TRemove false) (removed (m_groups cur) (m_groups wanted))
  ++ task_of (TAdd false) (added (m_groups cur) (m_groups wanted)) ++ task_of (TAdd true) (added (m_forwards cur) (m_forwards wanted))
  ++ task_of (TModify true) (modified (m_forwards cur) (m_forwards wanted)) ++ task_of (TModify false) (modified (m_groups cur) (m_groups wanted)).
(* transform::configuration, transform.cpp:200-215 *)
Definition current (s : state) : model := Model (map e_conf (s_groups s)) (map e_conf (s_forwards s)).
Definition conform (cur wanted : model) (s : state) : state * list effect := then_all (tasks_of cur wanted) s.

(* State::ready, done: state.cpp:252-271 *)
Definition ready (s : state) : bool := forallb (fun e => (3 <=? e_life e)%nat) (s_groups s) && forallb (fun e => (3 <=? e_life e)%nat) (s_forwards s).
Definition done (s : state) : bool := is_down s && match s_groups s, s_forwards s with [], [] => true | _, _ => false end.

(* group::connect and forward::connect, handle.cpp:283-306, 332-357 *)
Definition connect (fwd : bool) (pid ipc : Z) (s : state) : state * list effect :=
  match find_entity pid (entities fwd s) with
  | Some e => (with_entities fwd (on_entity pid (fun e => set_ipc ipc (set_life 2 e)) (entities fwd s)) s, [Configure fwd pid ipc (e_conf e)])
  | None => (s, [])
  end.
Definition bind (a : state * list effect) (g : state -> state * list effect) : state * list effect := let '(s1, e1) := a in let '(s2, e2) := g s1 in (s2, e1 ++ e2).

(* domain::discover::lookup::request, handle.cpp:396-437 *)
Definition get_queue (internal : bool) (s : state) (name : Z) : option inst := if internal then local_queue name Any s else queue name Any s.
Definition known_here (internal : bool) (s : state) (names : list Z) : list (Z * (bool * bool)) :=
  flat_map (fun n => match get_queue internal s n with Some x => [(n, (i_enq x, i_deq x))] | None => [] end) names.
Definition unknown_here (internal : bool) (s : state) (names : list Z) : list Z := filter (fun n => match get_queue internal s n with Some _ => false | None => true end) names.
(* fetch::known::request, handle.cpp:463-490. It's sorted there, and each name is once *)
Definition known_names (s : state) : list Z := nodup Z.eq_dec (map i_name (filter (fun x => negb (local x)) (s_queues s)) ++ map l_name (filter l_wait (s_lookups s))).

Definition step (i : input) (s : state) : state * list effect :=
  match i with
  | Begin m => conform (Model [] []) m s                                           (* comply::configuration, handle.cpp:550-561 *)
  | Lookup l => lookup l s
  | DiscardLookup p k => discard_lookup p k s
  | Advertise pid ipc order add rem => check (advertise pid ipc order add rem s)    (* handle.cpp:382-393 *)
  | Order ipc order => check (order_of ipc order s)
  | Reset ipc => check (drop_ipc ipc s)
  | Discovered k =>                                                                (* handle.cpp:441-457 *)
      bind (check s) (fun s => match find (fun l => l_corr l =? k) (s_lookups s) with
                               | Some l => if l_wait l then (s, []) else (with_lookups (remove_first (fun l => l_corr l =? k) (s_lookups s)) s, absent s l)
                               | None => (s, []) end)
  | AskKnown p k => (s, send p (Known p k (known_names s)) s)
  | AskLocal p k internal names => (s, send p (Found p k (known_here internal s names) (unknown_here internal s names)) s)
  | Connect fwd pid ipc => bind (coordinate (MConnect fwd pid) s) (connect fwd pid ipc)
  | Configured false pid qs => bind (coordinate (MConfigured false pid) s) (fun s => check (update_group pid qs s))            (* handle.cpp:310-325 *)
  | Configured true pid _ => bind (coordinate (MConfigured true pid) s) (fun s => (with_entities true (on_entity pid (set_life 3) (s_forwards s)) s, []))   (* 361-376 *)
  | Exit pid => (remove pid s, [Told pid])                                         (* process::exit, handle.cpp:530-545 *)
  | Dead pid => bind (coordinate (MDead pid) s) (fun s => (remove pid s, []))       (* handle.cpp:100-110 *)
  | Destroyed ipc => (drop_ipc ipc s, [])                                          (* handle.cpp:112-122 *)
  | Update p k m => bind (conform (current s) m s) (andthen (TTell p k))           (* configuration.cpp:370-393 *)
  | Shutdown => let s1 := with_run Down s in bind (discard_all s1) (fun s => conform (current s) (Model [] []) s)   (* handle.cpp:128-143 *)
  | Idle => match s_run s with Configuring => if ready s then (with_run Running s, [Ready]) else (s, []) | _ => (s, []) end      (* handle.cpp:563-575 *)
  | Lost ipc => (with_lost (ipc :: s_lost s) s, [])
  end.

Definition history := list (input * list effect).
Definition effects (h : history) : list effect := flat_map snd h.
Definition inputs (h : history) : list input := map fst h.
(* what the environment may do: the configuration is the first; a correlation is used for one lookup, and for one update; another domain never waits (gateway inbound
   task/create.cpp:88); the device of a group is of no gateway, and a device is of one process; a group connects once; only children exit, and the death of one is told of here first.
   The pids of other processes are written as negative numbers *)
Definition distinct (l : list conf) : Prop := NoDup (map c_alias l).
Definition possible (h : history) (i : input) : Prop :=
  match i with
  | Begin m => h = [] /\ distinct (m_groups m) /\ distinct (m_forwards m)
  | _ =>
    h <> [] /\
    match i with
    | Update _ k m => distinct (m_groups m) /\ distinct (m_forwards m) /\ forall p' m', ~ In (Update p' k m') (inputs h)
    | Lookup l => (forall l', In (Lookup l') (inputs h) -> l_corr l' <> l_corr l) /\ (l_req l = External -> l_wait l = false)
    | Advertise pid ipc _ _ _ => pid < 0 /\ (forall f pid', ~ In (Connect f pid' ipc) (inputs h)) /\ forall p o a r, In (Advertise p ipc o a r) (inputs h) -> p = pid
    | Order ipc _ | Reset ipc => forall f pid', ~ In (Connect f pid' ipc) (inputs h)
    | Connect fwd pid ipc => (exists c, In (Spawn fwd c pid) (effects h)) /\ (forall f p, ~ In (Connect f pid p) (inputs h)) /\ ipc <> 0
                             /\ (forall f p, ~ In (Connect f p ipc) (inputs h)) /\ forall p o a r, ~ In (Advertise p ipc o a r) (inputs h)
    | Configured fwd pid _ => exists ipc, In (Connect fwd pid ipc) (inputs h)
    | Exit pid => exists f c, In (Spawn f c pid) (effects h)
    | Dead pid => pid < 0 \/ In (Exit pid) (inputs h)
    | _ => True
    end
  end.
Inductive reach : state -> history -> Prop :=
| reach_start : reach state0 []
| reach_step : forall s h i, reach s h -> possible h i -> reach (fst (step i s)) (h ++ [(i, snd (step i s))]).

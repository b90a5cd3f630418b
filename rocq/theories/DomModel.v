(* The domain manager: starts, watches and ends the processes of a domain.
   /repo/middleware/domain/source/manager/{handle,state,transform}.cpp, state/order.cpp, task/create.cpp; /repo/middleware/domain/include/domain/manager/state.h;
   /repo/middleware/common/include/casual/task.h *)
From Coq Require Import ZArith List Bool.
Import ListNotations.
Local Open Scope Z_scope.

(* Pids, devices (ipc), aliases, the ids of groups, of servers and executables, and the identifications of singletons are integers *)
(* state::Group, state.h:49-80: the id and the direct dependencies *)
Record group := Group { g_id : Z; g_deps : list Z }.
(* instance::Phase and instance::State, state.h:126-147 *)
Inductive phase := PRun | PExit | PDis | PErr.
Inductive ist := SDisabled | SRunning | SSpawned | SScaleOut | SScaleIn | SExit | SError.
(* Instance, state.h:149-176: the handle (an executable has no device) and what's wanted. The time it was spawned isn't modelled *)
Record inst := Inst { i_pid : option Z; i_ipc : option Z; i_want : phase }.
Inductive kind := Server | Exec.
(* Process, Executable and Server, state.h:84-124, 179-277: path, arguments, note, environment and the number of restarts aren't modelled. Servers and executables have
   ids of their own in the code, here the ids of both are different *)
Record ent := Ent { e_id : Z; e_kind : kind; e_alias : Z; e_memb : list Z; e_restart : bool; e_on : bool; e_inst : list inst }.
Definition with_inst (l : list inst) (e : ent) : ent := Ent (e_id e) (e_kind e) (e_alias e) (e_memb e) (e_restart e) (e_on e) l.
Definition want (p : phase) (i : inst) : inst := Inst (i_pid i) (i_ipc i) p.
Definition some {A} (x : option A) : bool := match x with Some _ => true | None => false end.

(* the policies: Executable::instance_policy::state, state.cpp:151-166, and Server::instance_policy::state, 241-255. A process::Handle is true if it has both
   a pid and a device (process.h:54) *)
Definition state_of (k : kind) (i : inst) : ist :=
  let ok := match k with Server => some (i_pid i) && some (i_ipc i) | Exec => some (i_pid i) end in
  match i_want i with
  | PRun => if ok then SRunning else if some (i_pid i) then SSpawned else SScaleOut
  | PExit => if ok then SScaleIn else SExit
  | PDis => if ok then SScaleIn else SDisabled
  | PErr => SError
  end.
Definition ist_eqb (a b : ist) : bool :=
  match a, b with SDisabled, SDisabled | SRunning, SRunning | SSpawned, SSpawned | SScaleOut, SScaleOut | SScaleIn, SScaleIn | SExit, SExit | SError, SError => true | _, _ => false end.
Definition is_st (k : kind) (t : ist) (i : inst) : bool := ist_eqb (state_of k i) t.

(* local::instance::scale, state.cpp:103-147. A negative count is undefined behaviour (the range to keep ends before it begins): None *)
Definition scale (n : Z) (e : ent) : option ent :=
  let keep := if e_on e then PRun else PDis in
  let l := e_inst e in
  if Z.of_nat (length l) <? n then Some (with_inst (map (want keep) (l ++ repeat (Inst None None PRun) (Z.to_nat n - length l))) e)
  else if n <? 0 then None
  else let l1 := filter (is_st (e_kind e) SRunning) l ++ filter (fun i => negb (is_st (e_kind e) SRunning i)) l in
       let out := map (want PExit) (skipn (Z.to_nat n) l1) in
       Some (with_inst (map (want keep) (firstn (Z.to_nat n) l1) ++ filter (fun i => negb (is_st (e_kind e) SExit i)) out) e).

(* Executable::remove and Server::remove, state.cpp:184-215, 262-290: the first instance that has the pid *)
Definition has_pid (p : Z) (i : inst) : bool := match i_pid i with Some q => q =? p | None => false end.
Fixpoint drop (restart : bool) (p : Z) (l : list inst) : list inst :=
  match l with
  | [] => []
  | i :: r => if has_pid p i then
      match i_want i with
      | PDis | PErr => Inst None None (i_want i) :: r
      | PExit => r
      | PRun => Inst None None (if restart then PRun else PExit) :: r
      end else i :: drop restart p r
  end.
Definition ent_drop (p : Z) (e : ent) : ent := with_inst (drop (e_restart e) p (e_inst e)) e.
(* Server::connect, state.cpp:292-300 *)
Fixpoint conn_inst (p q : Z) (l : list inst) : list inst :=
  match l with [] => [] | i :: r => if has_pid p i then Inst (Some p) (Some q) (i_want i) :: r else i :: conn_inst p q r end.
Definition ent_conn (p q : Z) (e : ent) : ent := with_inst (conn_inst p q (e_inst e)) e.

(* sorted::subrange, algorithm/sorted.h:183-189: the first series: (what's before, the series, the rest) *)
Fixpoint span {A} (p : A -> bool) (l : list A) : list A * list A :=
  match l with [] => ([], []) | x :: r => if p x then let (a, b) := span p r in (x :: a, b) else ([], l) end.
Definition subrange {A} (p : A -> bool) (l : list A) : list A * list A * list A :=
  let (a, r) := span (fun x => negb (p x)) l in let (b, c) := span p r in (a, b, c).

(* ---- the order of the boot ---- *)
(* Group::boot::Order, state.cpp:72-78 *)
Definition dep (a b : group) : bool := existsb (Z.eqb (g_id b)) (g_deps a).
Definition before (l r : group) : bool := dep r l && negb (dep l r).
(* std::stable_sort as it is in libstdc++ (bits/stl_algo.h): both halves are sorted with insertion sort of chunks of 7 that are merged, and then they're merged: forward when
   they're of the same size, otherwise backward. [before] isn't a strict weak ordering, which the standard requires: what another library does can be something else *)
Fixpoint insert_rev (x : group) (l : list group) : list group :=
  match l with [] => [x] | y :: r => if before x y then y :: insert_rev x r else x :: l end.
Definition insert_one (acc : list group) (x : group) : list group :=
  match acc with [] => [x] | f :: _ => if before x f then x :: acc else rev (insert_rev x (rev acc)) end.
Definition insertion (l : list group) : list group := fold_left insert_one l [].
Fixpoint merge (a : list group) : list group -> list group :=
  fix go (b : list group) := match a, b with
    | [], _ => b | _, [] => a
    | x :: a', y :: b' => if before y x then y :: go b' else x :: merge a' b
    end.
(* both are given from the back, and so is the result *)
Fixpoint merge_back (a : list group) : list group -> list group :=
  fix go (b : list group) := match a, b with
    | [], _ => b | _, [] => a
    | x :: a', y :: b' => if before y x then x :: merge_back a' b else y :: go b'
    end.
Fixpoint chunks (fuel : nat) (l : list group) : list (list group) :=
  match fuel with O => [] | S f => match l with [] => [] | _ => insertion (firstn 7 l) :: chunks f (skipn 7 l) end end.
Fixpoint pairs (l : list (list group)) : list (list group) := match l with a :: b :: r => merge a b :: pairs r | _ => l end.
Fixpoint passes (fuel : nat) (l : list (list group)) : list group :=
  match l with [] => [] | [a] => a | _ => match fuel with O => concat l | S f => passes f (pairs l) end end.
Definition sort_half (l : list group) : list group := passes (length l) (chunks (length l) l).
Definition sort (l : list group) : list group :=
  let n := Nat.div2 (S (length l)) in
  let a := sort_half (firstn n l) in let b := sort_half (skipn n l) in
  if (length a <=? length b)%nat then merge a b else rev (merge_back (rev a) (rev b)).

(* state::order::boot, order.cpp:18-70. A batch has the ids of its servers, and of its executables: the entities are given with the servers first *)
Definition member (g : group) (e : ent) : bool := existsb (Z.eqb (g_id g)) (e_memb e).
Fixpoint consume (gs : list group) (es : list ent) : list (list Z) :=
  match gs with [] => [] | g :: r => map e_id (filter (member g) es) :: consume r (filter (fun e => negb (member g e)) es) end.
Definition boot_order (gs : list group) (mgr : Z) (es : list ent) : list (list Z) :=
  rev (filter (fun b => match b with [] => false | _ => true end) (consume (rev (sort gs)) (filter (fun e => negb (e_id e =? mgr)) es))).
(* state::order::shutdown, order.cpp:78-81 *)
Definition shutdown_order (gs : list group) (mgr : Z) (es : list ent) : list (list Z) := rev (boot_order gs mgr es).

(* ---- the state ---- *)
(* Runlevel, state.h:354-361; the machine only increases, state/machine.h:21-27 *)
Inductive level := Startup | Running | Down | Error.
Definition rank (l : level) : Z := match l with Startup => 0 | Running => 1 | Down => 2 | Error => 3 end.
(* the tasks: scale::local::group::create_task (task/create.cpp:418-465) with the servers and executables to scale, the done callback of the boot (handle.cpp:251-267),
   the done events (create.cpp:30-60). All groups (task.h:283-321) have one unit. The restart tasks, and those of the configuration, aren't modelled *)
Inductive what := WShutdown | WScale.
Inductive task := TScale (ids : list Z) | TBoot | TDone (w : what).
(* message::domain::process::lookup::Request: the caller (pid, device), the correlation, what is asked for, and the directive *)
Record look := Look { l_pid : Z; l_ipc : Z; l_corr : Z; l_id : option Z; l_proc : option Z; l_direct : bool }.
(* message::domain::process::connect::Request *)
Record conn := Conn { c_pid : Z; c_ipc : Z; c_white : bool; c_sing : option Z }.
(* what the manager pushes on its own device: handle.cpp:113-122 (Spawn), 404-409 (the emulated reply) *)
Inductive self := MSpawn (alias : Z) (pids : list Z) | MReply (l : list (Z * option Z)).
(* what it does. Spawned: process::spawn; Failed: the spawn fails; Prepare: to the service manager; Ask: shutdown::Request to a device; Term: a signal to terminate;
   Answer: a reply to a connect; Found: a lookup reply to a device, with its correlation, pid and device; Begun and Ended: the events of a batch (sub::Task), Booted and Done: the events
   Task done; Kill: the signal of an assassination *)
Inductive effect := Spawned (id pid : Z) | Failed (id : Z) | Prepare (ipc : Z) (l : list (Z * Z)) | Ask (ipc : Z) | Term (pid : Z)
  | Answer (pid ipc : Z) (ok : bool) | Found (ipc corr : Z) (pid dev : option Z) | Begun (ids : list Z) | Ended (ids : list Z) | Booted | Done (w : what) | Kill (pid : Z).
(* State, state.h:365-505. [d_orc]: what the spawns that are to be done give (None: the spawn fails); [d_out]: what has been done while this input is handled *)
Record dom := Dom { d_level : level; d_groups : list group; d_mgr : Z; d_ents : list ent; d_sing : list (Z * (Z * Z)); d_grand : list (Z * Z); d_look : list look;
  d_white : list Z; d_tasks : list task; d_self : list self; d_orc : list (option Z); d_out : list effect }.
Definition dom0 : dom := Dom Startup [] 0 [] [] [] [] [] [] [] [] [].
Definition set_level (l : level) (d : dom) := Dom (if rank (d_level d) <? rank l then l else d_level d) (d_groups d) (d_mgr d) (d_ents d) (d_sing d) (d_grand d) (d_look d) (d_white d) (d_tasks d) (d_self d) (d_orc d) (d_out d).
Definition set_ents (x : list ent) (d : dom) := Dom (d_level d) (d_groups d) (d_mgr d) x (d_sing d) (d_grand d) (d_look d) (d_white d) (d_tasks d) (d_self d) (d_orc d) (d_out d).
Definition set_sing (x : list (Z * (Z * Z))) (d : dom) := Dom (d_level d) (d_groups d) (d_mgr d) (d_ents d) x (d_grand d) (d_look d) (d_white d) (d_tasks d) (d_self d) (d_orc d) (d_out d).
Definition set_grand (x : list (Z * Z)) (d : dom) := Dom (d_level d) (d_groups d) (d_mgr d) (d_ents d) (d_sing d) x (d_look d) (d_white d) (d_tasks d) (d_self d) (d_orc d) (d_out d).
Definition set_look (x : list look) (d : dom) := Dom (d_level d) (d_groups d) (d_mgr d) (d_ents d) (d_sing d) (d_grand d) x (d_white d) (d_tasks d) (d_self d) (d_orc d) (d_out d).
Definition set_white (x : list Z) (d : dom) := Dom (d_level d) (d_groups d) (d_mgr d) (d_ents d) (d_sing d) (d_grand d) (d_look d) x (d_tasks d) (d_self d) (d_orc d) (d_out d).
Definition set_tasks (x : list task) (d : dom) := Dom (d_level d) (d_groups d) (d_mgr d) (d_ents d) (d_sing d) (d_grand d) (d_look d) (d_white d) x (d_self d) (d_orc d) (d_out d).
Definition set_self (x : list self) (d : dom) := Dom (d_level d) (d_groups d) (d_mgr d) (d_ents d) (d_sing d) (d_grand d) (d_look d) (d_white d) (d_tasks d) x (d_orc d) (d_out d).
Definition set_orc (x : list (option Z)) (d : dom) := Dom (d_level d) (d_groups d) (d_mgr d) (d_ents d) (d_sing d) (d_grand d) (d_look d) (d_white d) (d_tasks d) (d_self d) x (d_out d).
Definition set_out (x : list effect) (d : dom) := Dom (d_level d) (d_groups d) (d_mgr d) (d_ents d) (d_sing d) (d_grand d) (d_look d) (d_white d) (d_tasks d) (d_self d) (d_orc d) x.
Definition say (e : list effect) (d : dom) : dom := set_out (d_out d ++ e) d.
Definition push (m : self) (d : dom) : dom := set_self (d_self d ++ [m]) d.
(* State::entity, state.cpp:489-506 *)
Definition entity (id : Z) (d : dom) : option ent := find (fun e => e_id e =? id) (d_ents d).
Definition put (e : ent) (d : dom) : dom := set_ents (map (fun x => if e_id x =? e_id e then e else x) (d_ents d)) d.
(* State::server and State::executable, state.cpp:402-448: those that have an instance with the pid, servers first *)
Definition owner (p : Z) (d : dom) : option ent := find (fun e => existsb (has_pid p) (e_inst e)) (d_ents d).
Definition server_of (p : Z) (d : dom) : option ent := find (fun e => match e_kind e with Server => existsb (has_pid p) (e_inst e) | Exec => false end) (d_ents d).
Definition exec_of (p : Z) (d : dom) : option ent := find (fun e => match e_kind e with Exec => existsb (has_pid p) (e_inst e) | Server => false end) (d_ents d).
(* State::singleton, state.cpp:568-573, of the service manager. Its identification is 0 *)
Definition sm : Z := 0.
Definition singleton (id : Z) (d : dom) : option (Z * Z) := option_map snd (find (fun x => fst x =? id) (d_sing d)).

(* ---- scale ---- *)
(* handle::scale::shutdown, handle.cpp:384-410 *)
Definition shut (l : list (Z * Z)) (d : dom) : dom :=
  match singleton sm d with Some x => say [Prepare (snd x) l] d | None => push (MReply (map (fun h => (fst h, Some (snd h))) l)) d end.
Definition handle_of (i : inst) : list (Z * Z) := match i_pid i, i_ipc i with Some p, Some q => [(p, q)] | _, _ => [] end.
Definition pid_of (i : inst) : list Z := match i_pid i with Some p => [p] | None => [] end.
(* local::scale::in, handle.cpp:127-157, and shutdownable, state.cpp:94-100. An instance that is to be scaled in has a pid, and a device if it's a server *)
Definition scale_in (e : ent) (d : dom) : dom :=
  match subrange (is_st (e_kind e) SScaleIn) (e_inst e) with (_, [], _) => d
  | (_, r, _) => match e_kind e with Exec => say (map Term (flat_map pid_of (rev r))) d | Server => shut (flat_map handle_of (rev r)) d end
  end.
(* the loop of local::scale::out, handle.cpp:71-107 *)
Fixpoint spawns (id : Z) (l : list inst) (o : list (option Z)) : list inst * list effect * list (option Z) :=
  match l with
  | [] => ([], [], o)
  | i :: r =>
    match o with
    | Some p :: o' => let '(l', ev, o'') := spawns id r o' in (Inst (Some p) (i_ipc i) (i_want i) :: l', Spawned id p :: ev, o'')
    | _ => let '(l', ev, o'') := spawns id r (tl o) in (Inst (i_pid i) (i_ipc i) PErr :: l', Failed id :: ev, o'')
    end
  end.
(* local::scale::out, handle.cpp:51-125, and spawnable, state.cpp:85-92, 169-172, 302-308: a server that isn't enabled has none *)
Definition scale_out (e : ent) (d : dom) : dom :=
  if match e_kind e with Server => e_on e | Exec => true end then
    match subrange (is_st (e_kind e) SScaleOut) (e_inst e) with (_, [], _) => d
    | (a, r, c) =>
      let '(r', ev, o) := spawns (e_id e) r (d_orc d) in
      let m := MSpawn (e_alias e) (flat_map pid_of (filter (fun i => negb (is_st (e_kind e) SError i)) r')) in
      push m (set_orc o (say ev (put (with_inst (a ++ r' ++ c) e) d)))
    end
  else d.
(* scale::instances, handle.cpp:417-427 *)
Definition instances (e : ent) (d : dom) : dom := scale_out e (scale_in e d).
Definition instances_id (d : dom) (id : Z) : dom := match entity id d with Some e => instances e d | None => d end.

(* ---- the tasks ---- *)
(* group_done, task/create.cpp:382-408 *)
Definition settled (k : kind) (i : inst) : bool := match state_of k i with SRunning | SExit | SDisabled | SError => true | _ => false end.
Definition ent_done (d : dom) (id : Z) : bool := match entity id d with Some e => forallb (settled (e_kind e)) (e_inst e) | None => true end.
Definition group_done (ids : list Z) (d : dom) : bool := forallb (ent_done d) ids.
(* the actions: create.cpp:425-443, handle.cpp:251-267, create.cpp:33-52. True when the outcome is abort: there's nothing more for it *)
Definition start (t : task) (d : dom) : dom * bool :=
  match t with
  | TScale ids => let d1 := fold_left instances_id ids (say [Begun ids] d) in if group_done ids d1 then (say [Ended ids] d1, true) else (d1, false)
  | TBoot => (say [Booted] (set_level Running d), true)
  | TDone w => (say [Done w] d, true)
  end.
(* Coordinator::operator(), task.h:360-379, when the first is done: the next is started, and if it isn't done then the current message is dispatched to it: for a batch it's the same
   condition in the same state again, and so it's left out *)
Fixpoint next (l : list task) (d : dom) : dom :=
  match l with [] => set_tasks [] d | t :: r => let (d1, a) := start t d in if a then next r d1 else set_tasks l d1 end.
(* the dispatch of an exit, a spawn or a connect to the tasks: they do the same for all of these, create.cpp:444-458 *)
Definition dispatch (d : dom) : dom :=
  match d_tasks d with TScale ids :: r => if group_done ids d then next r (say [Ended ids] d) else d | _ => d end.
(* Coordinator::then, task.h:392-401 *)
Definition andthen (d : dom) (t : task) : dom :=
  match d_tasks d with [] => let (d1, a) := start t d in if a then d1 else set_tasks [t] d1 | l => set_tasks (l ++ [t]) d end.
(* cancel, task.h:423-427: all but the first *)
Definition cancel (d : dom) : dom := set_tasks (firstn 1 (d_tasks d)) d.

(* handle::boot, handle.cpp:227-271 *)
Definition boot (d : dom) : dom := andthen (fold_left andthen (map TScale (boot_order (d_groups d) (d_mgr d) (d_ents d))) d) TBoot.
Definition scale_to (n : Z) (e : ent) : ent := match scale n e with Some x => x | None => e end.
(* handle::shutdown, handle.cpp:273-301 *)
Definition shutdown (d : dom) : dom :=
  let d1 := cancel (set_level Down d) in
  let d2 := set_ents (map (fun e => if e_id e =? d_mgr d then e else scale_to 0 e) (d_ents d1)) d1 in
  andthen (fold_left andthen (map TScale (shutdown_order (d_groups d2) (d_mgr d2) (d_ents d2))) d2) (TDone WShutdown).

(* State::untouchable, state.cpp:587-595, of a server or an executable *)
Definition untouchable (d : dom) (e : ent) : bool := existsb (fun p => existsb (has_pid p) (e_inst e)) (d_white d).
(* State::scalables, state.cpp:533-548 *)
Fixpoint sort_in (x : Z) (l : list Z) : list Z := match l with [] => [x] | y :: r => if x <? y then x :: l else if x =? y then l else y :: sort_in x r end.
Definition by_alias (k : kind) (a : Z) (d : dom) : option ent := find (fun e => (e_alias e =? a) && match e_kind e, k with Server, Server | Exec, Exec => true | _, _ => false end) (d_ents d).
Definition scalable (d : dom) (k : kind) (a : Z) : list ent :=
  match by_alias Server a d with
  | Some e => if negb (untouchable d e) then match k with Server => [e] | Exec => [] end
              else match k with Exec => match by_alias Exec a d with Some x => if untouchable d x then [] else [x] | None => [] end | Server => [] end
  | None => match k with Exec => match by_alias Exec a d with Some x => if untouchable d x then [] else [x] | None => [] end | Server => [] end
  end.
Definition scalables (d : dom) (l : list Z) : list ent := let u := fold_right sort_in [] l in flat_map (scalable d Server) u ++ flat_map (scalable d Exec) u.
(* handle::scale::aliases, handle.cpp:306-354: nothing is said of the runlevel *)
Fixpoint scale_all (l : list (Z * Z)) (es : list ent) (d : dom) : option dom :=
  match es with
  | [] => Some d
  | e :: r => match find (fun x => fst x =? e_alias e) l with
      | Some x => match scale (snd x) e with Some e' => scale_all l r (put e' d) | None => None end
      | None => scale_all l r d end
  end.
Definition scale_aliases (l : list (Z * Z)) (d : dom) : option dom :=
  let es := scalables d (map fst l) in
  option_map (fun d1 => andthen (andthen d1 (TScale (map e_id es))) (TDone WScale)) (scale_all l es d).

(* ---- the processes ---- *)
(* State::remove, state.cpp:322-394; the ipc device of the process is removed too, and its subscriptions: not modelled. Gives the one that's to be restarted *)
Fixpoint remove_first {A} (p : A -> bool) (l : list A) : list A := match l with [] => [] | x :: r => if p x then r else x :: remove_first p r end.
Definition remove (p : Z) (d : dom) : dom * option Z :=
  let d1 := set_sing (remove_first (fun x => fst (snd x) =? p) (d_sing d)) (set_look (filter (fun l => negb (l_pid l =? p)) (d_look d)) (set_white (filter (fun q => negb (q =? p)) (d_white d)) d)) in
  let running := match d_level d with Running => true | _ => false end in
  let gone d := set_grand (remove_first (fun h => fst h =? p) (d_grand d)) d in
  match server_of p d1 with
  | Some e =>
    let d2 := put (ent_drop p e) d1 in
    if e_restart e && running then (d2, Some (e_id e)) else
    match exec_of p d2 with
    | Some x => let d3 := put (ent_drop p x) d2 in if e_restart x && running then (d3, Some (e_id x)) else (gone d3, None)
    | None => (gone d2, None)
    end
  | None =>
    match exec_of p d1 with
    | Some x => let d3 := put (ent_drop p x) d1 in if e_restart x && running then (d3, Some (e_id x)) else (gone d3, None)
    | None => (gone d1, None)
    end
  end.
(* event::process::exit, handle.cpp:625-664 *)
Definition exit (p : Z) (d : dom) : dom :=
  let (d1, r) := remove p d in
  dispatch (match r with Some id => instances_id d1 id | None => d1 end).

(* process::detail::lookup, handle.cpp:785-843. True: it has been taken care of *)
Definition lookup_pid (p : Z) (d : dom) : option Z * option Z :=
  match server_of p d with
  | Some e => match find (has_pid p) (e_inst e) with Some i => (i_pid i, i_ipc i) | None => (None, None) end
  | None => match find (fun h => fst h =? p) (d_grand d) with Some h => (Some (fst h), Some (snd h)) | None => (None, None) end
  end.
Definition direct (l : look) (d : dom) : bool := l_direct l || (rank Running <? rank (d_level d)).
Definition answer (l : look) (d : dom) : dom * bool :=
  match l_id l with
  | Some id => match singleton id d with
      | Some h => (say [Found (l_ipc l) (l_corr l) (Some (fst h)) (Some (snd h))] d, true)
      | None => if direct l d then (say [Found (l_ipc l) (l_corr l) None None] d, true) else (d, false) end
  | None => match l_proc l with
      | Some p => let h := lookup_pid p d in
          if (some (fst h) && some (snd h)) || direct l d then (say [Found (l_ipc l) (l_corr l) (fst h) (snd h)] d, true) else (d, false)
      | None => (d, true) end
  end.
Fixpoint answer_all (ls : list look) (d : dom) : dom * list look :=
  match ls with [] => (d, []) | l :: r => let (d1, b) := answer l d in let (d2, k) := answer_all r d1 in (d2, if b then k else l :: k) end.
Definition lookup (l : look) (d : dom) : dom := let (d1, b) := answer l d in if b then d1 else set_look (d_look d1 ++ [l]) d1.

(* process::detail::connect, handle.cpp:859-876 *)
Definition join (c : conn) (d : dom) : dom :=
  let d1 := match server_of (c_pid c) d with Some e => put (ent_conn (c_pid c) (c_ipc c) e) d | None => set_grand (d_grand d ++ [(c_pid c, c_ipc c)]) d end in
  let (d2, k) := answer_all (d_look d1) d1 in
  dispatch (set_look k d2).
(* process::connect, handle.cpp:966-994, and singleton::connect, 901-961. The environment that is set for new processes, and the services that are advertised when the service manager connects, aren't modelled *)
Definition connect (c : conn) (d : dom) : dom :=
  if rank Running <? rank (d_level d) then say [Answer (c_pid c) (c_ipc c) false] d else
  let white d := if c_white c then set_white (d_white d ++ [c_pid c]) d else d in
  match c_sing c with
  | Some id =>
    match singleton id d with
    | Some _ =>
      let d1 := match server_of (c_pid c) d with
        | Some e => put (scale_to 1 (ent_drop (c_pid c) e)) d
        | None => match exec_of (c_pid c) d with Some e => put (scale_to 1 (ent_drop (c_pid c) e)) d | None => d end end in
      say [Answer (c_pid c) (c_ipc c) false] d1
    | None => say [Answer (c_pid c) (c_ipc c) true] (join c (white (set_sing (d_sing d ++ [(id, (c_pid c, c_ipc c))]) d)))
    end
  | None => say [Answer (c_pid c) (c_ipc c) true] (join c (white d))
  end.

(* scale::prepare::shutdown, handle.cpp:500-515 *)
Definition prepared (l : list (Z * option Z)) (d : dom) : dom := say (map (fun h => match snd h with Some q => Ask q | None => Term (fst h) end) l) d.
(* event::process::assassination, handle.cpp:666-711: [severe] is whether the contract is anything but linger *)
Definition assassinate (p : Z) (severe : bool) (d : dom) : dom := if severe && negb (existsb (Z.eqb p) (d_white d)) then say [Kill p] d else d.

(* what happens to it. Begin: it's started with groups, its own entity, and all entities (transform.cpp:338-420, handle.cpp:163-224, main.cpp:110-137); [pid]: its own pid, that's whitelisted;
   Exit: a child has ended; Own: what it has pushed on its own device is handled; Fatal: an error event that's fatal (handle.cpp:713-729); Terminate: message::shutdown::Request, or one from the
   administration (handle.cpp:445-485) *)
Inductive input := Begin (pid : Z) (gs : list group) (mgr : Z) (es : list ent) | Exit (pid : Z) | Own | Connect (c : conn) | Lookup (l : look) | Prepared (l : list (Z * option Z))
  | Terminate | Fatal | ScaleTo (l : list (Z * Z)) | Assassinate (pid : Z) (severe : bool).
Definition own (d : dom) : dom :=
  match d_self d with
  | [] => d
  | MSpawn _ _ :: r => dispatch (set_self r d)
  | MReply l :: r => prepared l (set_self r d)
  end.
Definition handle (i : input) (d : dom) : option dom :=
  match i with
  | Begin p gs m es => Some (boot (Dom Startup gs m es [] [] [] [p] [] [] (d_orc d) []))
  | Exit p => Some (exit p d)
  | Own => Some (own d)
  | Connect c => Some (connect c d)
  | Lookup l => Some (lookup l d)
  | Prepared l => Some (prepared l d)
  | Terminate => Some (shutdown d)
  | Fatal => Some (match d_level d with Startup => shutdown (set_level Error d) | _ => d end)
  | ScaleTo l => scale_aliases l d
  | Assassinate p b => Some (assassinate p b d)
  end.
(* None: undefined behaviour. [o]: what the spawns give *)
Definition step (o : list (option Z)) (i : input) (d : dom) : option (dom * list effect) :=
  option_map (fun d1 => (set_out [] d1, d_out d1)) (handle i (set_out [] (set_orc o d))).
(* State::execute, state.cpp:625-628: the pump of main.cpp goes on until it's false *)
Definition stopped (d : dom) : bool := (rank Running <? rank (d_level d)) && match d_tasks d with [] => true | _ => false end.

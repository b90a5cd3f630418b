(* The discovery of a domain: finds out what services and queues other domains have.
   /repo/middleware/domain/source/discovery/{handle,state}.cpp, /repo/middleware/domain/include/domain/discovery/state.h,
   /repo/middleware/domain/include/domain/message/discovery.h, /repo/middleware/common/include/common/message/coordinate.h *)
From Coq Require Import ZArith List Bool.
Import ListNotations.
Local Open Scope Z_scope.

(* a service or a queue. The contents of the messages (message/discovery.h:36-62, 149-173) have a list of each; here it's one list. Texts, ids, correlations, pids,
   devices (ipc) and domains are integers *)
Inductive name := Svc (z : Z) | Que (z : Z).
Definition name_eqb (a b : name) : bool := match a, b with Svc x, Svc y => x =? y | Que x, Que y => x =? y | _, _ => false end.
Definition mem (n : name) (l : list name) : bool := existsb (name_eqb n) l.
(* request::Content, and reply::Content: the name with all the rest of it *)
Definition wanted := list name.
Definition item := (name * Z)%type.
Definition content := list item.
Definition has (n : name) (c : content) : bool := existsb (fun x => name_eqb (fst x) n) c.
Definition get (n : name) (c : content) : option item := find (fun x => name_eqb (fst x) n) c.

(* request::Content +=, sorted::append_unique: the union. The order isn't modelled *)
Definition union (a b : wanted) : wanted := fold_left (fun a n => if mem n a then a else a ++ [n]) b a.
(* reply::Content +=. A service is equal to another if the name is (message/service.h:198-200): the one that was there stays. Queues are compared by all they have: they're
   ordered, so that the least is found first *)
Fixpoint insert (x : item) (l : content) : content :=
  match l with
  | [] => [x]
  | y :: r => if name_eqb (fst x) (fst y) then (if snd x <? snd y then x :: y :: r else if snd x =? snd y then y :: r else y :: insert x r) else y :: insert x r
  end.
Definition add (c : content) (x : item) : content := match fst x with Svc _ => if has (fst x) c then c else c ++ [x] | Que _ => insert x c end.
Definition plus (a b : content) : content := fold_left add b a.

(* the configured services with their routes, configuration_update: handle.cpp:783-797. The last that is configured is the one that is used *)
Definition config := list (Z * list Z).
Definition routes (c : config) (s : Z) : option (list Z) := option_map snd (find (fun x => fst x =? s) (rev c)).
Definition origin (c : config) (n : Z) : Z := match find (fun x => existsb (Z.eqb n) (snd x)) (rev c) with Some x => fst x | None => n end.
(* content::normalize::request, handle.cpp:99-112 *)
Definition to_origin (c : config) (n : name) : name := match n with Svc z => Svc (origin c z) | Que _ => n end.
Definition normal (c : config) (w : wanted) : wanted := union [] (map (to_origin c) w).
(* content::normalize::reply, handle.cpp:114-136. Of two with the same name any can be left by the sort and unique of the code: here the first *)
Definition to_routes (c : config) (x : item) : content :=
  match fst x with Svc z => match routes c z with Some rs => map (fun r => (Svc r, snd x)) rs | None => [x] end | Que _ => [x] end.
Definition back (c : config) (l : content) : content := plus [] (flat_map (to_routes c) l).
(* content::includes, difference and the filter of send_reply: handle.cpp:142-186 *)
Definition includes (w : wanted) (c : content) : bool := forallb (fun n => has n c) w.
Definition minus (w : wanted) (c : content) : wanted := filter (fun n => negb (has n c)) w.
Definition select (w : wanted) (c : content) : content := flat_map (fun n => match get n c with Some x => [x] | None => [] end) w.

(* a process that provides: the pid and the device. Provider, state.h:46-60 *)
Record proc := Proc { p_pid : Z; p_ipc : Z }.
(* the Abilities, message/discovery.h:394-400 *)
Inductive ability := ADiscover | ALookup | AKnown | ATopology.
Record provider := Provider { v_proc : proc; v_abilities : list ability }.
Definition ability_eqb (a b : ability) : bool := match a, b with ADiscover, ADiscover | ALookup, ALookup | AKnown, AKnown | ATopology, ATopology => true | _, _ => false end.
Definition able (a : ability) (v : provider) : bool := existsb (ability_eqb a) (v_abilities v).

(* api::Request, or a discovery::Request (from another domain): [r_extend] is the directive forward *)
Record req := Req { r_api : bool; r_extend : bool; r_ipc : Z; r_corr : Z; r_want : wanted }.

(* the pending discoveries. What [minimal::fan::Out] has: those that are waited for, with what has failed, and the callbacks: an aggregated discovery for requests
   (handle.cpp:211-300), or a rediscovery (345-394). [d_asked]: what is in State::pending_content for it, as long as it's there *)
Inductive job := JAnswer (l : list req) | JRedisc (p k : Z).
Record disc := Disc { d_wait : list (Z * proc * bool); d_have : content; d_asked : wanted; d_job : job }.
(* the pending lookups, [fan::Out]: those that are waited for (a reply, or that it fails), what has been received, the request *)
Record look := Look { l_wait : list (Z * proc); l_have : content; l_req : req }.
(* the pending fetches of what is known: for a rediscovery, or a topology update: the devices of the direct updates with what is configured, and those of the implicit updates with the domains *)
Inductive goal := GRedisc (p k : Z) | GExplore (direct : list (Z * wanted)) (implicit : list (Z * list Z)).
Record known := Known { k_wait : list (Z * proc); k_have : wanted; k_goal : goal }.
(* accumulate::Requests, state.h:99-114. [a_reqs]: the api requests and the requests *)
Record acc := Acc { a_api : list req; a_disc : list req; a_have : content; a_direct : list (Z * wanted); a_implicit : list (Z * list Z) }.
Definition acc0 : acc := Acc [] [] [] [] [].
(* State, state.h:196-250. [s_self]: the identity of the domain. [s_timer]: the deadline of accumulate; [s_busy]: what Heuristic::accumulate says (the number of requests
   in flight), it's the environment that changes it. [s_lost]: the devices that are gone, sends to them fail *)
Record state := State { s_down : bool; s_self : Z; s_config : config; s_providers : list provider; s_disc : list disc; s_look : list look; s_known : list known;
  s_acc : acc; s_timer : bool; s_busy : bool; s_next : Z; s_lost : list Z }.
Definition state0 : state := State false 0 [] [] [] [] [] acc0 false false 1 [].

Inductive effect :=
| Registered (p k : Z)
| Answer (api : bool) (p k : Z) (c : content)                (* discovery::Reply, or api::Reply *)
| Ask (p : proc) (k : Z) (w : wanted)                        (* discovery::Request to a provider that discovers; sent to the device of the process *)
| AskLook (p : proc) (k : Z) (internal : bool) (w : wanted)  (* lookup::Request *)
| AskKnown (p : proc) (k : Z)                                (* fetch::known::Request *)
| Rediscovered (p k : Z) (c : content)
| Explore (p : Z) (w : wanted)
| Implicit (p : Z) (domains : list Z)
| Configured (p k : Z)
| Timer.                                                     (* the deadline is set *)

Inductive input :=
| Begin (self : Z) (c : config)
| Register (p : proc) (k : Z) (a : list ability)
| Api (r : req)
| Request (r : req)
| Rediscover (p k : Z)
| DiscReply (k : Z) (c : content)
| LookReply (k : Z) (c : content)
| KnownReply (k : Z) (w : wanted)
| DirectUpdate (p : Z) (w : wanted)
| ImplicitUpdate (p : Z) (domains : list Z)
| Timeout
| Dead (pid : Z)
| Destroyed (ipc : Z)
| Configure (p k : Z) (c : config)
| Shutdown
| Busy (b : bool)                                            (* not a message: the heuristic *)
| Lost (ipc : Z).                                            (* not a message: the device is gone *)

Definition with_disc (d : list disc) (s : state) : state := State (s_down s) (s_self s) (s_config s) (s_providers s) d (s_look s) (s_known s) (s_acc s) (s_timer s) (s_busy s) (s_next s) (s_lost s).
Definition with_look (l : list look) (s : state) : state := State (s_down s) (s_self s) (s_config s) (s_providers s) (s_disc s) l (s_known s) (s_acc s) (s_timer s) (s_busy s) (s_next s) (s_lost s).
Definition with_known (l : list known) (s : state) : state := State (s_down s) (s_self s) (s_config s) (s_providers s) (s_disc s) (s_look s) l (s_acc s) (s_timer s) (s_busy s) (s_next s) (s_lost s).
Definition with_acc (a : acc) (t : bool) (s : state) : state := State (s_down s) (s_self s) (s_config s) (s_providers s) (s_disc s) (s_look s) (s_known s) a t (s_busy s) (s_next s) (s_lost s).
Definition with_next (n : Z) (s : state) : state := State (s_down s) (s_self s) (s_config s) (s_providers s) (s_disc s) (s_look s) (s_known s) (s_acc s) (s_timer s) (s_busy s) n (s_lost s).
Definition with_providers (p : list provider) (s : state) : state := State (s_down s) (s_self s) (s_config s) p (s_disc s) (s_look s) (s_known s) (s_acc s) (s_timer s) (s_busy s) (s_next s) (s_lost s).
Definition with_config (c : config) (s : state) : state := State (s_down s) (s_self s) c (s_providers s) (s_disc s) (s_look s) (s_known s) (s_acc s) (s_timer s) (s_busy s) (s_next s) (s_lost s).
Definition with_self (n : Z) (s : state) : state := State (s_down s) n (s_config s) (s_providers s) (s_disc s) (s_look s) (s_known s) (s_acc s) (s_timer s) (s_busy s) (s_next s) (s_lost s).
Definition with_down (b : bool) (s : state) : state := State b (s_self s) (s_config s) (s_providers s) (s_disc s) (s_look s) (s_known s) (s_acc s) (s_timer s) (s_busy s) (s_next s) (s_lost s).
Definition with_busy (b : bool) (s : state) : state := State (s_down s) (s_self s) (s_config s) (s_providers s) (s_disc s) (s_look s) (s_known s) (s_acc s) (s_timer s) b (s_next s) (s_lost s).
Definition with_lost (l : list Z) (s : state) : state := State (s_down s) (s_self s) (s_config s) (s_providers s) (s_disc s) (s_look s) (s_known s) (s_acc s) (s_timer s) (s_busy s) (s_next s) l.

Definition gone (p : Z) (s : state) : bool := existsb (Z.eqb p) (s_lost s).
(* Providers::filter, state.cpp:42-48. The order isn't modelled *)
Definition with_ability (a : ability) (s : state) : list proc := map v_proc (filter (able a) (s_providers s)).
(* send::requests, handle.cpp:60-81: a request to each that can be reached, with a correlation of its own; those are waited for *)
Fixpoint ask (f : proc -> Z -> effect) (ps : list proc) (s : state) : state * list effect * list (Z * proc) :=
  match ps with
  | [] => (s, [], [])
  | p :: r =>
      if gone (p_ipc p) s then ask f r s
      else let '(s', ev, ws) := ask f r (with_next (s_next s + 1) s) in (s', f p (s_next s) :: ev, (s_next s, p) :: ws)
  end.
(* content::send_reply, handle.cpp:168-186 *)
Definition answer (c : content) (r : req) : effect := Answer (r_api r) (r_ipc r) (r_corr r) (select (r_want r) c).
(* the done callbacks: handle.cpp:262-272, 381-386 *)
Definition finish (d : disc) : list effect := match d_job d with JAnswer l => map (answer (d_have d)) l | JRedisc p k => [Rediscovered p k (d_have d)] end.
(* Entry::is_done, coordinate.h:293-300 *)
Definition all_failed (w : list (Z * proc * bool)) : bool := forallb snd w.
(* Out::add, coordinate.h:323-327 *)
Definition add_disc (d : disc) (s : state) : state * list effect := if all_failed (d_wait d) then (s, finish d) else (with_disc (s_disc s ++ [d]) s, []).
(* send_aggregated_discovery, handle.cpp:197-303 *)
Definition aggregate (reqs : list req) (have : content) (s : state) : state * list effect :=
  match reqs with
  | [] => (s, [])
  | _ =>
      let w := normal (s_config s) (minus (fold_left (fun a r => union a (r_want r)) reqs []) have) in
      let '(s1, ev, ws) := match w with [] => (s, [], []) | _ => ask (fun p k => Ask p k w) (with_ability ADiscover s) s end in
      let '(s2, ev2) := add_disc (Disc (map (fun x => (x, false)) ws) have w (JAnswer reqs)) s1 in
      (s2, ev ++ ev2)
  end.
(* Entry::operator(), coordinate.h:272-281; the message callbacks: handle.cpp:274-298, 367-379 *)
Definition disc_entry (k : Z) (c : content) (cf : config) (d : disc) : option disc * list effect :=
  let ws := filter (fun x => negb (fst (fst x) =? k)) (d_wait d) in
  match d_job d with
  | JRedisc _ _ => let d' := Disc ws (plus (d_have d) c) (d_asked d) (d_job d) in if all_failed ws then (None, finish d') else (Some d', [])
  | JAnswer l =>
      let have := plus (d_have d) (back cf c) in
      let ev := map (answer have) (filter (fun r => includes (r_want r) have) l) in
      let rest := filter (fun r => negb (includes (r_want r) have)) l in
      let d' := Disc ws have (d_asked d) (JAnswer rest) in
      match rest with
      | [] => (None, ev)
      | _ => if all_failed ws then (None, ev ++ finish d') else (Some d', ev)
      end
  end.
Definition waits_disc (k : Z) (d : disc) : bool := existsb (fun x => fst (fst x) =? k) (d_wait d).
(* Out::operator(), coordinate.h:335-340 *)
Fixpoint disc_reply (k : Z) (c : content) (cf : config) (l : list disc) : list disc * list effect :=
  match l with
  | [] => ([], [])
  | d :: r =>
      if waits_disc k d then let '(o, ev) := disc_entry k c cf d in (match o with Some d' => d' :: r | None => r end, ev)
      else let '(r', ev) := disc_reply k c cf r in (d :: r', ev)
  end.
(* Out::failed, Entry::failed, coordinate.h:283-291, 342-348 *)
Definition fail_disc (f : proc -> bool) (d : disc) : disc := Disc (map (fun x => (fst x, snd x || f (snd (fst x)))) (d_wait d)) (d_have d) (d_asked d) (d_job d).
Definition disc_failed (f : proc -> bool) (l : list disc) : list disc * list effect :=
  let l' := map (fail_disc f) l in (filter (fun d => negb (all_failed (d_wait d))) l', flat_map (fun d => if all_failed (d_wait d) then finish d else []) l').

(* Accumulate::add, state.cpp:132-175: the deadline is set if it's not *)
Definition accumulate (a : acc) (s : state) : state * list effect := (with_acc a true s, if s_timer s then [] else [Timer]).
Definition acc_api (r : req) (a : acc) : acc := Acc (a_api a ++ [r]) (a_disc a) (a_have a) (a_direct a) (a_implicit a).
Definition acc_req (r : req) (c : content) (a : acc) : acc := Acc (a_api a) (a_disc a ++ [r]) (plus (a_have a) c) (a_direct a) (a_implicit a).
Definition acc_direct (p : Z) (w : wanted) (a : acc) : acc := Acc (a_api a) (a_disc a) (a_have a) (a_direct a ++ [(p, w)]) (a_implicit a).
Definition acc_implicit (p : Z) (d : list Z) (a : acc) : acc := Acc (a_api a) (a_disc a) (a_have a) (a_direct a) (a_implicit a ++ [(p, d)]).
(* Accumulate::operator bool, state.cpp:186-192 *)
Definition accumulating (s : state) : bool := s_timer s || s_busy s.

(* the lookups are done: handle_internal_lookup and handle_extended_lookup, handle.cpp:414-425, 448-472 *)
Definition look_done (l : look) (s : state) : state * list effect :=
  let r := l_req l in
  if negb (r_extend r) then (s, [Answer (r_api r) (r_ipc r) (r_corr r) (l_have l)])
  else if includes (r_want r) (l_have l) then (s, [answer (l_have l) r])
  else if accumulating s then accumulate (acc_req r (l_have l) (s_acc s)) s
  else aggregate [r] (l_have l) s.
(* request, handle.cpp:402-413, 428-447, 478-503 *)
Definition lookup (r : req) (s : state) : state * list effect :=
  let '(s1, ev, ws) := ask (fun p k => AskLook p k (negb (r_extend r)) (r_want r)) (with_ability ALookup s) s in
  let l := Look ws [] r in
  let '(s2, ev2) := match ws with [] => look_done l s1 | _ => (with_look (s_look s1 ++ [l]) s1, []) end in
  (s2, ev ++ ev2).
Definition waits (k : Z) (w : list (Z * proc)) : bool := existsb (fun x => fst x =? k) w.
Definition drop_wait (k : Z) (w : list (Z * proc)) : list (Z * proc) := filter (fun x => negb (fst x =? k)) w.
Fixpoint remove_first {A} (f : A -> bool) (l : list A) : list A := match l with [] => [] | x :: r => if f x then r else x :: remove_first f r end.
Fixpoint on_first {A} (f : A -> bool) (g : A -> A) (l : list A) : list A := match l with [] => [] | x :: r => if f x then g x :: r else x :: on_first f g r end.
(* [fan::Out]: a reply, coordinate.h:154-166. What has failed isn't waited for: a later reply is ignored *)
Definition look_reply (k : Z) (c : content) (s : state) : state * list effect :=
  let f l := waits k (l_wait l) in let g l := Look (drop_wait k (l_wait l)) (plus (l_have l) c) (l_req l) in
  match find f (s_look s) with
  | None => (s, [])
  | Some l => match l_wait (g l) with [] => look_done (g l) (with_look (remove_first f (s_look s)) s) | _ => (with_look (on_first f g (s_look s)) s, []) end
  end.
Definition fails (f : proc -> bool) (w : list (Z * proc)) : list (Z * proc) := filter (fun x => negb (f (snd x))) w.
Definition empty {A} (l : list A) : bool := match l with [] => true | _ => false end.
Fixpoint each {A} (g : A -> state -> state * list effect) (l : list A) (s : state) : state * list effect :=
  match l with [] => (s, []) | x :: r => let '(s1, e1) := g x s in let '(s2, e2) := each g r s1 in (s2, e1 ++ e2) end.
(* fan::Out::failed, coordinate.h:172-188 *)
Definition look_failed (f : proc -> bool) (s : state) : state * list effect :=
  let ls := map (fun l => Look (fails f (l_wait l)) (l_have l) (l_req l)) (s_look s) in
  each look_done (filter (fun l => empty (l_wait l)) ls) (with_look (filter (fun l => negb (empty (l_wait l))) ls) s).

(* pending::Content, state.cpp:74-80 *)
Definition pending (s : state) : wanted := fold_left (fun a d => union a (d_asked d)) (s_disc s) [].
Definition append_domains (a b : list Z) : list Z := fold_left (fun a d => if existsb (Z.eqb d) a then a else a ++ [d]) b a.
Definition send (p : Z) (e : effect) (s : state) : list effect := if gone p s then [] else [e].
(* what is known has been fetched: rediscovery, handle.cpp:345-394; topology: 551-602 *)
Definition known_done (x : known) (s : state) : state * list effect :=
  match k_goal x with
  | GRedisc p k =>
      let w := union (normal (s_config s) (k_have x)) (pending s) in
      let '(s1, ev, ws) := ask (fun p k => Ask p k w) (with_ability ADiscover s) s in
      let '(s2, ev2) := add_disc (Disc (map (fun x => (x, false)) ws) [] [] (JRedisc p k)) s1 in
      (s2, ev ++ ev2)
  | GExplore direct implicit =>
      let w := union (normal (s_config s) (fold_left (fun a d => union a (snd d)) direct (k_have x))) (pending s) in
      let targets := nodup Z.eq_dec (map fst direct ++ map fst implicit) in
      let domains := append_domains (fold_left (fun a d => append_domains a (snd d)) implicit []) [s_self s] in
      (s, match w with [] => [] | _ => flat_map (fun p => send p (Explore p w) s) targets end
          ++ flat_map (fun p => send (p_ipc p) (Implicit (p_ipc p) domains) s) (with_ability ATopology s))
  end.
(* collect::known::requests, handle.cpp:87-95 *)
Definition fetch (g : goal) (s : state) : state * list effect :=
  let '(s1, ev, ws) := ask AskKnown (with_ability AKnown s) s in
  let x := Known ws [] g in
  let '(s2, ev2) := match ws with [] => known_done x s1 | _ => (with_known (s_known s1 ++ [x]) s1, []) end in
  (s2, ev ++ ev2).
Definition known_reply (k : Z) (w : wanted) (s : state) : state * list effect :=
  let f x := waits k (k_wait x) in let g x := Known (drop_wait k (k_wait x)) (union (k_have x) w) (k_goal x) in
  match find f (s_known s) with
  | None => (s, [])
  | Some x => match k_wait (g x) with [] => known_done (g x) (with_known (remove_first f (s_known s)) s) | _ => (with_known (on_first f g (s_known s)) s, []) end
  end.
Definition known_failed (f : proc -> bool) (s : state) : state * list effect :=
  let xs := map (fun x => Known (fails f (k_wait x)) (k_have x) (k_goal x)) (s_known s) in
  each known_done (filter (fun x => empty (k_wait x)) xs) (with_known (filter (fun x => negb (empty (k_wait x))) xs) s).

Definition bind (a : state * list effect) (g : state -> state * list effect) : state * list effect := let '(s1, e1) := a in let '(s2, e2) := g s1 in (s2, e1 ++ e2).
(* State::failed, state.cpp:200-210, state.h:208-209 *)
Definition failed (f : proc -> bool) (s : state) : state * list effect :=
  let s1 := with_providers (filter (fun v => negb (f (v_proc v))) (s_providers s)) s in
  let '(ds, ev) := disc_failed f (s_disc s1) in
  bind (with_disc ds s1, ev) (fun s => bind (look_failed f s) (known_failed f)).
(* timeout, handle.cpp:655-667; Accumulate::extract, state.cpp:177-184 *)
Definition timeout (s : state) : state * list effect :=
  let a := s_acc s in
  bind (match a_direct a, a_implicit a with [], [] => (with_acc acc0 false s, []) | _, _ => fetch (GExplore (a_direct a) (a_implicit a)) (with_acc acc0 false s) end)
       (aggregate (a_api a ++ a_disc a) (a_have a)).

(* what is sent: to a device that is gone nothing is. (The requests to the providers have been left out already, [ask]) *)
Definition reached (s : state) (e : effect) : bool := match e with Answer _ p _ _ | Rediscovered p _ _ => negb (gone p s) | _ => true end.
Definition handle (i : input) (s : state) : state * list effect :=
  match i with
  | Begin self c => (with_self self (with_config c s), [])
  | Register p k a =>                                                                       (* handle.cpp:309-323, Providers::registration: state.cpp:32-40 *)
      if gone (p_ipc p) s then (s, [])
      else (if existsb (fun v => p_ipc (v_proc v) =? p_ipc p) (s_providers s) then s else with_providers (s_providers s ++ [Provider p a]) s, [Registered (p_ipc p) k])
  | Api r =>                                                                                (* 325-343 *)
      if s_down s || empty (r_want r) then (s, [Answer (r_api r) (r_ipc r) (r_corr r) []])
      else if accumulating s then accumulate (acc_api r (s_acc s)) s else aggregate [r] [] s
  | Request r => if s_down s then (s, [Answer (r_api r) (r_ipc r) (r_corr r) []]) else lookup r s
  | Rediscover p k => fetch (GRedisc p k) s
  | DiscReply k c => let '(ds, ev) := disc_reply k c (s_config s) (s_disc s) in (with_disc ds s, ev)
  | LookReply k c => look_reply k c s
  | KnownReply k w => known_reply k w s
  | DirectUpdate p w => if s_down s then (s, []) else accumulate (acc_direct p w (s_acc s)) s                (* 637-651 *)
  | ImplicitUpdate p ds => if s_down s || existsb (Z.eqb (s_self s)) ds then (s, []) else accumulate (acc_implicit p ds (s_acc s)) s    (* 611-632 *)
  | Timeout => timeout s
  | Dead pid => failed (fun p => p_pid p =? pid) s
  | Destroyed ipc => failed (fun p => p_ipc p =? ipc) s
  | Configure p k c => (with_config c s, send p (Configured p k) s)                          (* 705-716 *)
  | Shutdown => (with_down true s, [])                                                      (* 722-734 *)
  | Busy b => (with_busy b s, [])
  | Lost ipc => (with_lost (ipc :: s_lost s) s, [])
  end.
Definition step (i : input) (s : state) : state * list effect := let '(s', ev) := handle i s in (s', filter (reached s) ev).
(* State::done, state.cpp:212-218 *)
Definition done (s : state) : bool := s_down s && (empty (s_disc s) && (empty (s_look s) && empty (s_known s))).

Definition history := list (input * list effect).
Definition effects (h : history) : list effect := flat_map snd h.
Definition inputs (h : history) : list input := map fst h.
(* what the environment may do: the configuration is fetched first; a correlation is used for one request; a reply is to something that has been asked, and there is one *)
Definition possible (h : history) (i : input) : Prop :=
  match i with
  | Begin _ _ => h = []
  | _ =>
    h <> [] /\
    match i with
    | Api r => r_api r = true /\ forall r', In (Api r') (inputs h) \/ In (Request r') (inputs h) -> r_corr r' <> r_corr r
    | Request r => r_api r = false /\ forall r', In (Api r') (inputs h) \/ In (Request r') (inputs h) -> r_corr r' <> r_corr r
    | Rediscover p k => forall p', ~ In (Rediscover p' k) (inputs h)
    | DiscReply k _ => (exists p w, In (Ask p k w) (effects h)) /\ forall c, ~ In (DiscReply k c) (inputs h)
    | LookReply k _ => (exists p b w, In (AskLook p k b w) (effects h)) /\ forall c, ~ In (LookReply k c) (inputs h)
    | KnownReply k _ => (exists p, In (AskKnown p k) (effects h)) /\ forall w, ~ In (KnownReply k w) (inputs h)
    | _ => True
    end
  end.
Inductive reach : state -> history -> Prop :=
| reach_start : reach state0 []
| reach_step : forall s h i, reach s h -> possible h i -> reach (fst (step i s)) (h ++ [(i, snd (step i s))]).

(* What is claimed of the discovery, by what has arrived and what it has sent. *)
From Coq Require Import ZArith List Bool.
From Verif Require Import DscModel.
Import ListNotations.
Local Open Scope Z_scope.

Definition arrived (r : req) (h : history) : Prop := In (Api r) (inputs h) \/ In (Request r) (inputs h).
Definition down (h : history) : Prop := In Shutdown (inputs h).
Definition lost (p : Z) (h : history) : Prop := In (Lost p) (inputs h).
Definition count {A} (p : A -> bool) (l : list A) : nat := length (filter p l).
Definition is_answer (k : Z) (e : effect) : bool := match e with Answer _ _ k' _ => k' =? k | _ => false end.
Definition is_rediscovered (k : Z) (e : effect) : bool := match e with Rediscovered _ k' _ => k' =? k | _ => false end.

(* ---- the configuration, and what services are called ---- *)
Fixpoint last_config (l : list input) (c : config) : config := match l with [] => c | Begin _ c' :: r | Configure _ _ c' :: r => last_config r c' | _ :: r => last_config r c end.
Definition configured (h : history) : config := last_config (inputs h) [].
Fixpoint first_self (l : list input) : Z := match l with Begin d _ :: _ => d | _ :: r => first_self r | [] => 0 end.
Definition self (h : history) : Z := first_self (inputs h).
(* the service has the routes: the last that is configured for it *)
Definition routed (c : config) (z : Z) (rs : list Z) : Prop := exists a b, c = a ++ (z, rs) :: b /\ ~ In z (map fst b).
(* what is told of under the name of the service is told of as *)
Definition called (c : config) (o n : name) : Prop :=
  match o with Que _ => n = o | Svc z => (exists rs r, routed c z rs /\ In r rs /\ n = Svc r) \/ (~ In z (map fst c) /\ n = o) end.
(* the name that is asked for in other domains: that of the (last) service that has it as a route *)
Definition official (c : config) (n o : name) : Prop :=
  match n with
  | Que _ => o = n
  | Svc z => (exists a b s rs, c = a ++ (s, rs) :: b /\ In z rs /\ (forall x, In x b -> ~ In z (snd x)) /\ o = Svc s) \/ ((forall x, In x c -> ~ In z (snd x)) /\ o = n)
  end.

(* ---- the providers ---- *)
Definition fails (i : input) (p : proc) : bool := match i with Dead pid => p_pid p =? pid | Destroyed ipc => p_ipc p =? ipc | _ => false end.
(* the processes that are registered, with the abilities. A device is registered once; it's told that it is; it's forgotten when it's known to be gone *)
Definition confirmed (p : proc) (ev : list effect) : bool := existsb (fun e => match e with Registered q _ => q =? p_ipc p | _ => false end) ev.
Definition registers (l : list (proc * list ability)) (x : input * list effect) : list (proc * list ability) :=
  match fst x with
  | Register p _ a => if confirmed p (snd x) && forallb (fun v => negb (p_ipc (fst v) =? p_ipc p)) l then l ++ [(p, a)] else l
  | i => filter (fun v => negb (fails i (fst v))) l
  end.
Definition registered (h : history) : list (proc * list ability) := fold_left registers h [].
Definition provides (a : ability) (p : proc) (h : history) : Prop := exists l, In (p, l) (registered h) /\ In a l.

(* ---- what is asked of the providers ---- *)
Definition asked_of (e : effect) : option (proc * Z) := match e with Ask p k _ | AskLook p k _ _ | AskKnown p k => Some (p, k) | _ => None end.
(* the ask is replied to, or the process fails *)
Definition ends (i : input) (e : effect) : bool :=
  match e with
  | Ask p k _ => fails i p || match i with DiscReply k' _ => k' =? k | _ => false end
  | AskLook p k _ _ => fails i p || match i with LookReply k' _ => k' =? k | _ => false end
  | AskKnown p k => fails i p || match i with KnownReply k' _ => k' =? k | _ => false end
  | _ => true
  end.
Inductive open (e : effect) : history -> Prop :=
| open_now : forall h i ev, In e ev -> asked_of e <> None -> open e (h ++ [(i, ev)])
| open_since : forall h i ev, open e h -> ends i e = false -> open e (h ++ [(i, ev)]).
(* nothing is outstanding *)
Definition quiet (h : history) : Prop := forall e, ~ open e h.
(* the timer has been set, and has not expired *)
Inductive armed : history -> Prop :=
| armed_now : forall h i ev, In Timer ev -> armed (h ++ [(i, ev)])
| armed_since : forall h i ev, armed h -> i <> Timeout -> armed (h ++ [(i, ev)]).
(* what a reply tells: as it's said, or as what it's called here *)
Definition says (i : input) (n : name) (x : Z) : Prop := match i with DiscReply _ c | LookReply _ c => In (n, x) c | _ => False end.
Definition says_name (c : config) (i : input) (n : name) : Prop := match i with DiscReply _ l | LookReply _ l => In n (map fst l) | KnownReply _ w => In n w | _ => False end.
Definition hears (c : config) (i : input) (n : name) : Prop := match i with DiscReply _ l => exists o, In o (map fst l) /\ called c o n | _ => says_name c i n end.
(* the ask has been replied to without the name, or the process has failed *)
Inductive refused (tells : config -> input -> name -> Prop) (e : effect) (n : name) : history -> Prop :=
| refused_now : forall h i ev, open e h -> ends i e = true -> ~ tells (configured h) i n -> refused tells e n (h ++ [(i, ev)])
| refused_since : forall h x, refused tells e n h -> refused tells e n (h ++ [x]).

(* all that look up have been asked when the request arrived, and none has it *)
Definition not_here (r : req) (n : name) (h : history) : Prop :=
  exists h1 ev h2, h = h1 ++ (Request r, ev) :: h2 /\ forall p, provides ALookup p (h1 ++ [(Request r, ev)]) -> ~ lost (p_ipc p) h1 ->
    exists k, In (AskLook p k (negb (r_extend r)) (r_want r)) ev /\ refused says_name (AskLook p k (negb (r_extend r)) (r_want r)) n h.
(* all that discover have been asked for it, after the request has arrived, and none has it *)
Definition not_there (r : req) (n : name) (h : history) : Prop :=
  exists h1 i ev h2, h = h1 ++ (i, ev) :: h2 /\ arrived r (h1 ++ [(i, ev)]) /\ forall p, provides ADiscover p (h1 ++ [(i, ev)]) -> ~ lost (p_ipc p) h1 ->
    exists k w o, In (Ask p k w) ev /\ official (configured h1) n o /\ In o w /\ refused hears (Ask p k w) n h.
(* a provider has told of it, with the rest *)
Definition told_here (n : name) (x : Z) (h : history) : Prop := exists k c, In (LookReply k c) (inputs h) /\ In (n, x) c.
Definition told_there (n : name) (x : Z) (h : history) : Prop := exists h1 k c ev h2 o, h = h1 ++ (DiscReply k c, ev) :: h2 /\ In (o, x) c /\ called (configured h1) o n.

(* ---- what is asked ---- *)
(* the request goes further than the domain *)
Definition far (r : req) : Prop := r_api r = true \/ r_extend r = true.
(* the name is what a request wants, what is known, or what an update has, as it was called in other domains at some time *)
Definition wanted_as (o : name) (h : history) : Prop := exists r n h1 h2, arrived r h /\ far r /\ In n (r_want r) /\ h = h1 ++ h2 /\ official (configured h1) n o.
Definition known_as (o : name) (h : history) : Prop := exists k w n h1 h2, In (KnownReply k w) (inputs h) /\ In n w /\ h = h1 ++ h2 /\ official (configured h1) n o.
Definition updated_as (o : name) (h : history) : Prop := exists p w n h1 h2, In (DirectUpdate p w) (inputs h) /\ In n w /\ h = h1 ++ h2 /\ official (configured h1) n o.
(* all that know have been asked when the input arrived, and what isn't in the list is known by none *)
Definition fetched (i : input) (l : wanted) (h : history) : Prop :=
  exists h1 ev h2, h = h1 ++ (i, ev) :: h2 /\ forall p, provides AKnown p (h1 ++ [(i, ev)]) -> ~ lost (p_ipc p) h1 ->
    exists k, In (AskKnown p k) ev /\ forall n, ~ In n l -> refused says_name (AskKnown p k) n h.
(* all that is known has been fetched for the rediscovery, then all that discover have been asked for it, and what isn't in the reply isn't told of by any *)
Definition rediscovered (p k : Z) (c : content) (h : history) : Prop :=
  exists h1 i ev h2 l w, h = h1 ++ (i, ev) :: h2 /\ fetched (Rediscover p k) l (h1 ++ [(i, ev)]) /\ (forall n, In n l -> exists o, official (configured h1) n o /\ In o w) /\
    forall q, provides ADiscover q (h1 ++ [(i, ev)]) -> ~ lost (p_ipc q) h1 -> exists k', In (Ask q k' w) ev /\ forall n, ~ In n (map fst c) -> refused says_name (Ask q k' w) n h.

(* ---- the topology ---- *)
(* after [h1] what is known has been fetched, and the device has been told to explore that and what the update has - unless there's nothing, or the device is gone *)
Definition explored (p : Z) (w : wanted) (h1 h : history) : Prop :=
  exists t i ev g l w', h = (h1 ++ t ++ [(i, ev)]) ++ g /\ fetched Timeout l (h1 ++ t ++ [(i, ev)]) /\
    (forall n, In n w \/ In n l -> exists o, official (configured (h1 ++ t ++ [(i, ev)])) n o /\ In o w') /\ (w' = [] \/ lost p (h1 ++ t ++ [(i, ev)]) \/ In (Explore p w') ev).
(* after [h1] all that want to know have been told of the domains, and of this one *)
Definition spread (ds : list Z) (h1 h : history) : Prop :=
  exists t i ev g, h = (h1 ++ t ++ [(i, ev)]) ++ g /\ forall q, provides ATopology q (h1 ++ t ++ [(i, ev)]) -> ~ lost (p_ipc q) (h1 ++ t ++ [(i, ev)]) ->
    exists l, In (Implicit (p_ipc q) l) ev /\ In (self h) l /\ forall d, In d ds -> In d l.
(* an update has been passed on by the domains (the last first), and has the list of domains in it: a domain that gets it, and doesn't ignore it, sends one that has what it got in it *)
Inductive passed : list Z -> list Z -> Prop :=
| passed_first : forall ds, passed [] ds
| passed_on : forall vs ds s h p s' ev t q l, passed vs ds -> reach s h -> step (ImplicitUpdate p ds) s <> (s, []) -> reach s' (h ++ (ImplicitUpdate p ds, ev) :: t) -> In (Implicit q l) (effects t) -> incl ds l -> passed (self h :: vs) l.

(* ---- two domains, that are connected to each other (with discovery forward) ---- *)
Definition is_ask (e : effect) : bool := match e with Ask _ _ _ => true | _ => false end.
Definition is_reply (e : effect) : bool := match e with Answer _ _ _ _ => true | _ => false end.
Definition is_api (i : input) : bool := match i with Api _ => true | _ => false end.
Inductive net : state -> history -> state -> history -> Prop :=
| net_start : net state0 [] state0 []
| net_a : forall sa ha sb hb i, net sa ha sb hb -> possible ha i -> (forall r, i <> Request r) -> net (fst (step i sa)) (ha ++ [(i, snd (step i sa))]) sb hb
| net_b : forall sa ha sb hb i, net sa ha sb hb -> possible hb i -> (forall r, i <> Request r) -> net sa ha (fst (step i sb)) (hb ++ [(i, snd (step i sb))])
| net_ab : forall sa ha sb hb p k w q, let r := Req false true q k w in net sa ha sb hb -> In (Ask p k w) (effects ha) -> possible hb (Request r) -> net sa ha (fst (step (Request r) sb)) (hb ++ [(Request r, snd (step (Request r) sb))])
| net_ba : forall sa ha sb hb p k w q, let r := Req false true q k w in net sa ha sb hb -> In (Ask p k w) (effects hb) -> possible ha (Request r) -> net (fst (step (Request r) sa)) (ha ++ [(Request r, snd (step (Request r) sa))]) sb hb.

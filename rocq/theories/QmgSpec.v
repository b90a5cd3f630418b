(* What is claimed of the queue manager, by what has arrived and what it has done. *)
From Coq Require Import ZArith List Bool.
From Verif Require Import QmgModel.
Import ListNotations.
Local Open Scope Z_scope.

(* ---- the queues that are offered ---- *)
(* what the configuration of the group enables for the queue: enqueue and dequeue. All is enabled for one that isn't configured (an error queue) *)
Definition allowed (c : conf) (name : Z) : bool * bool := match find (fun q => fst q =? name) (c_queues c) with Some q => snd q | None => (true, true) end.
(* it can be used for what is asked for; it's in this domain *)
Definition usable (a : action) (x : inst) : bool := match a with Any => true | Enqueueing => i_enq x | Dequeueing => i_deq x end.
Definition domestic (x : inst) : bool := (i_order x =? 0)%nat.
(* the process is gone *)
Definition exited (pid : Z) (h : history) : Prop := In (Exit pid) (inputs h) \/ In (Dead pid) (inputs h).
(* what the input takes back: the process has gone, the device has; a group tells anew of its queues; a gateway takes back, or tells anew *)
Definition withdraws (i : input) (x : inst) : bool :=
  match i with
  | Exit pid | Dead pid | Configured false pid _ => i_pid x =? pid
  | Destroyed ipc | Reset ipc => i_ipc x =? ipc
  | Advertise _ ipc _ add rem => (i_ipc x =? ipc) && (existsb (Z.eqb (i_name x)) rem || existsb (fun q => fst q =? i_name x) add)
  | _ => false
  end.
Definition changed (i : input) (x : inst) : inst := match i with Order ipc n => if i_ipc x =? ipc then Inst (i_name x) (i_pid x) (i_ipc x) (i_id x) (n + 1) (i_enq x) (i_deq x) else x | _ => x end.
(* a queue is offered by a group that has told that it has it, with what is enabled in its configuration, and at the order 0; or by a gateway that has
   advertised it, at its order + 1 *)
Inductive offers : inst -> history -> Prop :=
| offers_group : forall h ev pid ipc c qs name id, In (Spawn false c pid) (effects h) -> In (Connect false pid ipc) (inputs h) -> ~ exited pid h -> In (name, id) qs ->
    offers (Inst name pid ipc id 0 (fst (allowed c name)) (snd (allowed c name))) (h ++ [(Configured false pid qs, ev)])
| offers_remote : forall h ev pid ipc n add rem name e d, In (name, (e, d)) add -> ~ In name rem -> offers (Inst name pid ipc (-1) (n + 1) e d) (h ++ [(Advertise pid ipc n add rem, ev)])
| offers_since : forall h x i ev, offers x h -> withdraws i x = false -> offers (changed i x) (h ++ [(i, ev)]).
(* no gateway has advertised a queue that it was offering already *)
Inductive once : history -> Prop :=
| once_none : once []
| once_more : forall h i ev, once h -> (forall pid ipc n add rem, i = Advertise pid ipc n add rem -> NoDup (map fst add) /\ forall x, offers x h -> i_ipc x = ipc -> ~ In (i_name x) (map fst add)) -> once (h ++ [(i, ev)]).

(* ---- the lookups ---- *)
(* the queue is one that the lookup can be answered with *)
Definition fits (l : look) (x : inst) : Prop := i_name x = l_name l /\ usable (l_act l) x = true /\ (l_req l = External -> domestic x = true).
Definition down (h : history) : Prop := In Shutdown (inputs h).
Definition is_answer (k : Z) (e : effect) : bool := match e with Answer _ k' _ _ => k' =? k | _ => false end.
Definition is_discard (k : Z) (e : effect) : bool := match e with Discarded _ k' true => k' =? k | _ => false end.
Definition count {A} (p : A -> bool) (l : list A) : nat := length (filter p l).
Definition ends_wait (l : look) (i : input) (ev : list effect) : bool :=
  existsb (is_answer (l_corr l)) ev || (match i with DiscardLookup _ k => k =? l_corr l | Exit pid | Dead pid => pid =? l_pid l | _ => false end).
(* the lookup has arrived, and has not been answered, nor withdrawn, and the process that has asked isn't known to have exited *)
Inductive waiting (l : look) : history -> Prop :=
| waiting_now : forall h ev, existsb (is_answer (l_corr l)) ev = false -> waiting l (h ++ [(Lookup l, ev)])
| waiting_since : forall h i ev, waiting l h -> ends_wait l i ev = false -> waiting l (h ++ [(i, ev)]).
Definition lost (p : Z) (h : history) : Prop := In (Lost p) (inputs h).

(* ---- the groups ---- *)
(* a group is complete when it has connected (or is dead), one that has been told to stop when it's dead *)
Definition complete (e : effect) (h : history) : Prop :=
  match e with
  | Spawn f _ pid => (exists ipc, In (Connect f pid ipc) (inputs h)) \/ In (Dead pid) (inputs h)
  | Stop _ pid _ => In (Dead pid) (inputs h)
  | _ => True
  end.
Definition acts (e : effect) : bool := match e with Spawn _ _ _ | Stop _ _ _ | Updated _ _ => true | _ => false end.
Definition settled (h : history) : Prop := forall e, In e (effects h) -> complete e h.
(* the processes that have been spawned and not exited *)
Definition live (f : bool) (c : conf) (pid : Z) (h : history) : Prop := In (Spawn f c pid) (effects h) /\ ~ exited pid h.
Definition part (f : bool) (m : model) : list conf := if f then m_forwards m else m_groups m.
(* the updates have been answered *)
Definition answered (h : history) : Prop := forall p k m, In (Update p k m) (inputs h) -> In (Updated p k) (effects h).
Definition asks (i : input) : bool := match i with Begin _ | Update _ _ _ | Shutdown => true | _ => false end.
(* m is the last that was asked for, and all was as it should when that was asked for *)
Inductive wants (m : model) : history -> Prop :=
| wants_begin : forall ev, wants m [(Begin m, ev)]
| wants_update : forall h p k ev, settled h -> answered h -> wants m (h ++ [(Update p k m, ev)])
| wants_shutdown : forall h ev, m = Model [] [] -> settled h -> answered h -> wants m (h ++ [(Shutdown, ev)])
| wants_since : forall h i ev, wants m h -> asks i = false -> wants m (h ++ [(i, ev)]).
(* all was as it should each time something was asked for *)
Inductive calm : history -> Prop :=
| calm_begin : forall m ev, calm [(Begin m, ev)]
| calm_ask : forall h i ev, calm h -> settled h -> answered h -> asks i = true -> calm (h ++ [(i, ev)])
| calm_since : forall h i ev, calm h -> asks i = false -> calm (h ++ [(i, ev)]).
(* the same queue, at the same place *)
Definition near (y x : inst) : Prop := i_name y = i_name x /\ i_pid y = i_pid x /\ i_ipc y = i_ipc x /\ i_id y = i_id x /\ domestic y = domestic x.
(* the lookup that arrives, or one that waits *)
Definition asker (l : look) (i : input) (h : history) : Prop := waiting l h \/ i = Lookup l.
(* the queue has the name, and is in this domain if that is what is asked for *)
Definition here (internal : bool) (n : Z) (x : inst) : Prop := i_name x = n /\ (internal = true -> domestic x = true).
(* both start groups of one kind, or both stop them *)
Definition same_kind (e e' : effect) : Prop := match e, e' with Spawn f _ _, Spawn f' _ _ | Stop f _ _, Stop f' _ _ => f = f' | _, _ => False end.
Definition is_upd (p k : Z) (e : effect) : bool := match e with Updated p' k' => (p' =? p) && (k' =? k) | _ => false end.
(* the group has been sent a configuration, and has not replied since *)
Inductive unreplied (f : bool) (pid : Z) : history -> Prop :=
| unreplied_now : forall h i ev ipc c, In (Configure f pid ipc c) ev -> unreplied f pid (h ++ [(i, ev)])
| unreplied_since : forall h i ev, unreplied f pid h -> (forall qs, i <> Configured f pid qs) -> i <> Dead pid -> unreplied f pid (h ++ [(i, ev)]).

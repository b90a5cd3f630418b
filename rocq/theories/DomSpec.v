(* The domain manager: what the properties are stated with: histories of inputs and effects, the configuration, and what can be seen of the processes. *)
From Coq Require Import ZArith List Bool.
From Coq Require Import Relations.
From Verif Require Import DomModel.
Import ListNotations.
Local Open Scope Z_scope.

(* ---- the order ---- *)
(* the group with id [a] is declared to depend on [b] *)
Definition depends (gs : list group) (a b : Z) : Prop := exists g, In g gs /\ g_id g = a /\ In b (g_deps g).
(* each group is declared after those it depends on *)
Definition declared_in_order (gs : list group) : Prop := forall l g r, gs = l ++ g :: r -> forall b, In b (g_deps g) -> In b (map g_id l).
Definition in_group (gs : list group) (e : ent) (g : Z) : Prop := In g (e_memb e) /\ In g (map g_id gs).
(* [a] is started before [b] *)
Definition earlier (o : list (list Z)) (a b : Z) : Prop := exists l x m y r, o = l ++ x :: m ++ y :: r /\ In a x /\ In b y.

(* ---- histories ---- *)
Definition history := list (input * list effect).
Definition inputs (h : history) : list input := map fst h.
Definition effects (h : history) : list effect := flat_map snd h.
Definition count (p : effect -> bool) (l : list effect) : nat := length (filter p l).
(* the pid of a process that has been seen, and hasn't been seen to end *)
Inductive around (p : Z) : history -> Prop :=
| around_spawned h i ev id : In (Spawned id p) ev -> around p (h ++ [(i, ev)])
| around_connect h c ev : c_pid c = p -> around p (h ++ [(Connect c, ev)])
| around_begin h ev gs m es : around p (h ++ [(Begin p gs m es, ev)])
| around_still h i ev : around p h -> i <> Exit p -> around p (h ++ [(i, ev)]).
(* the entity of the domain manager itself has the running process, no other has any *)
Definition is_self (p m : Z) (e : ent) : Prop := e_id e = m /\ e_kind e = Server /\ exists q, e_inst e = [Inst (Some p) (Some q) PRun].
Definition idle (m : Z) (e : ent) : Prop := e_id e <> m /\ forall i, In i (e_inst e) -> i = Inst None None (if e_on e then PRun else PDis).
Definition configured (p : Z) (gs : list group) (m : Z) (es : list ent) : Prop :=
  NoDup (map g_id gs) /\ NoDup (map e_id es) /\ (exists e, In e es /\ is_self p m e) /\ (forall e, In e es -> is_self p m e \/ idle m e)
  /\ exists n, (forall e, In e (firstn n es) -> e_kind e = Server) /\ (forall e, In e (skipn n es) -> e_kind e = Exec).
(* it begins once, its own exit isn't seen; a pid that's given to a new process isn't that of another *)
Definition possible (h : history) (o : list (option Z)) (i : input) : Prop :=
  match i with
  | Begin p gs m es => h = [] /\ configured p gs m es
  | Exit p => h <> [] /\ forall gs m es, ~ In (Begin p gs m es) (inputs h)
  | _ => h <> []
  end /\ NoDup (flat_map (fun x => match x with Some p => [p] | None => [] end) o) /\ forall p, In (Some p) o -> ~ around p (h ++ [(i, [])]).
Inductive reach : dom -> history -> Prop :=
| reach_start : reach dom0 []
| reach_step d h o i d' ev : reach d h -> possible h o i -> step o i d = Some (d', ev) -> reach d' (h ++ [(i, ev)]).

(* ---- the sequence of batches, in the events ---- *)
(* it's started with the configuration *)
Definition begun (p : Z) (gs : list group) (m : Z) (es : list ent) (h : history) : Prop := exists ev r, h = (Begin p gs m es, ev) :: r.
Definition prefix {A} (a b : list A) : Prop := exists r, b = a ++ r.
Definition mark (e : effect) : bool := match e with Begun _ | Ended _ | Booted | Done _ => true | _ => false end.
Definition marks (l : list effect) : list effect := filter mark l.
Definition in_turn (o : list (list Z)) : list effect := flat_map (fun b => [Begun b; Ended b]) o.
Definition goes_down (i : input) : Prop := i = Terminate \/ i = Fatal.
(* the domain is told to shut down, or there's a fatal error before it's up *)
Definition down (h : history) : Prop := In Terminate (inputs h) \/ exists a ev b, h = a ++ (Fatal, ev) :: b /\ ~ In Booted (effects a).
(* the servers and executables with their configuration *)
Definition conf (e : ent) := (e_id e, e_kind e, e_alias e, e_memb e, e_restart e, e_on e).
(* an instance that is what it's wanted to be, or that can't be *)
Definition at_rest (k : kind) (i : inst) : Prop :=
  let p := match k with Server => exists a b, i_pid i = Some a /\ i_ipc i = Some b | Exec => exists a, i_pid i = Some a end in
  match i_want i with PRun => p | PExit | PDis => ~ p | PErr => True end.

(* ---- the processes ---- *)
(* what's wanted of an instance that's kept *)
Definition kept_want (e : ent) : phase := if e_on e then PRun else PDis.
(* the process of an instance: it's connected, or it's an executable that runs *)
Definition has_process (k : kind) (i : inst) : Prop := match k with Server => exists p q, i_pid i = Some p /\ i_ipc i = Some q | Exec => exists p, i_pid i = Some p end.
Definition proc (i : inst) := (i_pid i, i_ipc i).
(* how many are wanted of it *)
Definition wanted (e : ent) : nat := length (filter (fun i => match i_want i with PExit => false | _ => true end) (e_inst e)).
(* [p] was spawned for [id], and hasn't been seen to end *)
Inductive child (id p : Z) : history -> Prop :=
| child_born h i ev : In (Spawned id p) ev -> child id p (h ++ [(i, ev)])
| child_still h i ev : child id p h -> i <> Exit p -> child id p (h ++ [(i, ev)]).
(* the last connect of [p] was approved, and it hasn't been seen to end. [q]: its device *)
Inductive joined (p q : Z) : history -> Prop :=
| joined_here h c ev : c_pid c = p -> c_ipc c = q -> In (Answer p q true) ev -> joined p q (h ++ [(Connect c, ev)])
| joined_still h i ev : joined p q h -> i <> Exit p -> (forall c, i = Connect c -> c_pid c <> p) -> joined p q (h ++ [(i, ev)]).
(* [p] was approved as the singleton [s], and hasn't been seen to end *)
Inductive holds (s p q : Z) : history -> Prop :=
| holds_here h c ev : c_pid c = p -> c_ipc c = q -> c_sing c = Some s -> In (Answer p q true) ev -> holds s p q (h ++ [(Connect c, ev)])
| holds_still h i ev : holds s p q h -> i <> Exit p -> holds s p q (h ++ [(i, ev)]).
(* no process connects a second time *)
Definition connects_once (h : history) : Prop := forall a c ev b c' ev' r, h = a ++ (Connect c, ev) :: b ++ (Connect c', ev') :: r -> c_pid c = c_pid c' -> In (Exit (c_pid c)) (inputs b).
(* a lookup is of use *)
Definition asks_for (l : look) : Prop := l_id l <> None \/ l_proc l <> None.
Definition is_found (k : Z) (e : effect) : bool := match e with Found _ c _ _ => c =? k | _ => false end.
Definition fresh_look (l : look) (h : history) : Prop := forall l', In (Lookup l') (inputs h) -> l_corr l' <> l_corr l.
(* how many lookups there have been with the correlation *)
Definition asked (k : Z) (h : history) : nat := length (filter (fun i => match i with Lookup l => l_corr l =? k | _ => false end) (inputs h)).
(* it's been asked, there's been no answer to it, and the one that asks hasn't been seen to end *)
Definition waits (l : look) (h : history) : Prop :=
  exists a ev b, h = a ++ (Lookup l, ev) :: b /\ asks_for l /\ ~ In (Exit (l_pid l)) (inputs b) /\ forall p q, ~ In (Found (l_ipc l) (l_corr l) p q) (ev ++ effects b).
(* from [d0], after [h], to [d] with [r] *)
Inductive leads (h : history) (d0 : dom) : dom -> history -> Prop :=
| leads_none : leads h d0 d0 []
| leads_step d r o i d' ev : leads h d0 d r -> possible (h ++ r) o i -> step o i d = Some (d', ev) -> leads h d0 d' (r ++ [(i, ev)]).
(* the batch [b] has begun, and hasn't ended *)
Definition going_on (b : list Z) (h : history) : Prop := exists a c, effects h = a ++ Begun b :: c /\ marks c = [].
(* the process of the instance is told to end: an executable with a signal; for a server the service manager is asked to prepare it, or if there's none the manager answers that itself *)
Definition told (k : kind) (x : inst) (ev : list effect) (own : list self) : Prop :=
  match k with
  | Exec => exists p, i_pid x = Some p /\ In (Term p) ev
  | Server => exists p q, i_pid x = Some p /\ i_ipc x = Some q /\ ((exists s l, In (Prepare s l) ev /\ In (p, q) l) \/ exists l, In (MReply l) own /\ In (p, Some q) l)
  end.
(* [p] has asked to be left alone when it connected, or it's the domain manager itself, and it hasn't been seen to end *)
Inductive white (p : Z) : history -> Prop :=
| white_self h ev gs m es : white p (h ++ [(Begin p gs m es, ev)])
| white_here h c ev q : c_pid c = p -> c_white c = true -> In (Answer p q true) ev -> white p (h ++ [(Connect c, ev)])
| white_still h i ev : white p h -> i <> Exit p -> white p (h ++ [(i, ev)]).
(* the first of the kind that's named [a] *)
Definition first_named (es : list ent) (k : kind) (a : Z) (e : ent) : Prop := exists l r, es = l ++ e :: r /\ e_kind e = k /\ e_alias e = a /\ forall x, In x l -> ~ (e_kind x = k /\ e_alias x = a).
(* none of its processes has asked to be left alone *)
Definition scales_freely (h : history) (e : ent) : Prop := forall i p, In i (e_inst e) -> i_pid i = Some p -> ~ white p h.
(* those that are scaled when a name is asked for: the server with the name, if it scales freely, and otherwise the executable with the name *)
Definition chosen (es : list ent) (h : history) (names : list Z) (e : ent) : Prop :=
  In (e_alias e) names /\ first_named es (e_kind e) (e_alias e) e /\ scales_freely h e /\
  (e_kind e = Exec -> forall s, first_named es Server (e_alias e) s -> ~ scales_freely h s).
(* the first count that's asked for [a] *)
Definition first_count (l : list (Z * Z)) (a n : Z) : Prop := exists x r, l = x ++ (a, n) :: r /\ ~ In a (map fst x).
(* what lets it go on: a start, an exit, a connect that's approved, and what it has said to itself of those it spawned *)
Definition tells (d0 : dom) (i : input) (ev : list effect) : Prop :=
  match i with
  | Begin _ _ _ _ | Exit _ => True
  | Connect c => In (Answer (c_pid c) (c_ipc c) true) ev
  | Own => exists a l r, d_self d0 = MSpawn a l :: r
  | _ => False
  end.
(* an instance that's to end has the process (and the device, if it's a server) *)
Definition must_end (d : dom) (p : Z) (q : option Z) : Prop :=
  exists e i, In e (d_ents d) /\ In i (e_inst e) /\ i_pid i = Some p /\ (i_want i = PExit \/ i_want i = PDis) /\ match q with Some q => e_kind e = Server /\ i_ipc i = Some q | None => e_kind e = Exec end.
(* an instance that hadn't been started: it has been started in [ev], or the start failed *)
Definition started (id : Z) (ev : list effect) (x : inst) : Prop := (exists p, x = Inst (Some p) None PRun /\ In (Spawned id p) ev) \/ (x = Inst None None PErr /\ In (Failed id) ev).

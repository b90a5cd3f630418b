(* What is claimed of the queue forward. A flow is what happens from that a dequeue is requested, and is known by the correlation of the request. *)
From Coq Require Import ZArith List Bool.
From Verif Require Import QfwModel.
Import ListNotations.
Local Open Scope Z_scope.

(* the effect is a request in the flow k *)
Definition about (k : Z) (e : effect) : bool :=
  match e with
  | Dequeue _ _ k' _ _ _ | AskService k' _ | Call _ k' _ _ _ | Enqueue _ k' _ _ _ _ _ | Commit k' _ | Rollback k' _ => k' =? k
  | _ => false
  end.
(* the requests of the flow k, each with what arrived that caused it *)
Definition story_of (k : Z) (h : history) : list (input * effect) := flat_map (fun x => map (pair (fst x)) (filter (about k) (snd x))) h.
Definition configured (c : conf) (h : history) : Prop := exists l, In (Update l) (inputs h) /\ In c l.

(* the request e of the flow k, in the transaction t, for what is configured as c, is right when i has arrived after the request before it *)
Definition follows (c : conf) (f k t : Z) (before : option (input * effect)) (i : input) (e : effect) : Prop :=
  match before, e with
  | None, Dequeue f' _ k' t' _ name => f' = f /\ k' = k /\ t' = t /\ name = g_source c /\ g_enabled c = true
  (* there is a message: the service, or the other queue *)
  | Some (_, Dequeue _ _ _ _ _ _), AskService k' sv => k' = k /\ g_service c = Some sv /\ exists m, i = Dequeued k (Some m)
  | Some (_, Dequeue _ _ _ _ _ _), Enqueue _ k' t' _ name m delay => k' = k /\ t' = t /\ g_service c = None /\ g_dest c = Some (name, delay) /\ i = Dequeued k (Some m)
  | Some (_, Dequeue _ _ _ _ _ _), Rollback k' t' => k' = k /\ t' = t /\ exists m, i = Dequeued k m
  (* there is a service: called with the message *)
  | Some (j, AskService _ _), Call p k' t' sv m => k' = k /\ t' = t /\ j = Dequeued k (Some m) /\ i = ServiceFound k (Some (sv, p))
  | Some (_, AskService _ _), Rollback k' t' => k' = k /\ t' = t /\ (i = ServiceFound k None \/ i = ServiceDiscarded k)
  (* it has replied: the reply to the queue, if there is one *)
  | Some (_, Call _ _ _ _ _), Enqueue _ k' t' _ name r delay => k' = k /\ t' = t /\ g_dest c = Some (name, delay) /\ i = CallReply k 0 r
  | Some (_, Call _ _ _ _ _), Commit k' t' => k' = k /\ t' = t /\ g_dest c = None /\ exists r, i = CallReply k 0 r
  | Some (_, Call _ _ _ _ _), Rollback k' t' => k' = k /\ t' = t /\ exists code r, i = CallReply k code r /\ code <> 0
  (* it's in the queue *)
  | Some (_, Enqueue _ _ _ _ _ _ _), Commit k' t' => k' = k /\ t' = t /\ i = Enqueued k true
  | Some (_, Enqueue _ _ _ _ _ _ _), Rollback k' t' => k' = k /\ t' = t /\ (i = Enqueued k false \/ i = NotEnqueued k)
  | _, _ => False
  end.
Definition last_of {A} (l : list A) : option A := match rev l with x :: _ => Some x | [] => None end.
Inductive story (c : conf) (f k t : Z) : list (input * effect) -> Prop :=
| story_none : story c f k t []
| story_more : forall l i e, story c f k t l -> follows c f k t (last_of l) i e -> story c f k t (l ++ [(i, e)]).

Definition settles (e : effect) : bool := match e with Commit _ _ | Rollback _ _ => true | _ => false end.
Definition count {A} (p : A -> bool) (l : list A) : nat := length (filter p l).

(* the flow has done what is configured: got a message, and given it to the service, and the reply (or the message) to the queue *)
Definition complete (c : conf) (f k t : Z) (l : list (input * effect)) : Prop :=
  match g_service c with
  | Some sv => exists i0 p q p' m sv' , In (i0, Dequeue f p k t q (g_source c)) l /\ In (Dequeued k (Some m), AskService k sv) l /\ In (ServiceFound k (Some (sv', p')), Call p' k t sv' m) l
      /\ exists r, match g_dest c with Some (name, delay) => exists p2 q2, In (CallReply k 0 r, Enqueue p2 k t q2 name r delay) l /\ In (Enqueued k true, Commit k t) l | None => In (CallReply k 0 r, Commit k t) l end
  | None => exists i0 p q p2 q2 m name delay, g_dest c = Some (name, delay) /\ In (i0, Dequeue f p k t q (g_source c)) l /\ In (Dequeued k (Some m), Enqueue p2 k t q2 name m delay) l /\ In (Enqueued k true, Commit k t) l
  end.
(* goes further with a message, or asks for one *)
Definition begins (e : effect) : bool := match e with Dequeue _ _ _ _ _ _ | AskService _ _ | Call _ _ _ _ _ => true | _ => false end.

(* the input ends the flow, if this is the last request of it *)
Definition ends (k : Z) (last : option (input * effect)) (i : input) : bool :=
  match last, i with
  | Some (_, Commit _ _), Committed k' false => k' =? k
  | Some (_, Rollback _ _), RolledBack k' => k' =? k
  | Some (_, Dequeue _ _ _ _ _ _), Forgotten k' true | Some (_, Dequeue _ _ _ _ _ _), ForgetRequest k' | Some (_, Dequeue _ _ _ _ _ _), NotDequeued k' => k' =? k
  | _, _ => false
  end.
Inductive over (k : Z) : history -> Prop :=
| over_now : forall h i ev, ends k (last_of (story_of k h)) i = true -> over k (h ++ [(i, ev)])
| over_since : forall h x, over k h -> over k (h ++ [x]).
(* the flow of the forward f is in progress *)
Definition started (f k : Z) (h : history) : Prop := exists p t q name, In (Dequeue f p k t q name) (effects h).
Definition active (f k : Z) (h : history) : Prop := started f k h /\ ~ over k h.

(* the answer that the flow waits for, after its last request: an input that answers it gives the next request, or ends it *)
Definition answers (k : Z) (withdrawn : bool) (last : option (input * effect)) (i : input) : Prop :=
  match last with
  | Some (_, Dequeue _ _ _ _ _ _) => exists m, i = Dequeued k m
  | Some (_, AskService _ _) => if withdrawn then i = ServiceDiscarded k else exists a, i = ServiceFound k a
  | Some (_, Call _ _ _ _ _) => exists code r, i = CallReply k code r
  | Some (_, Enqueue _ _ _ _ _ _ _) => exists ok, i = Enqueued k ok
  | _ => False
  end.
Definition withdrawn (k : Z) (h : history) : bool := existsb (fun e => match e with DiscardService k' _ => k' =? k | _ => false end) (effects h).

(* how many instances the forward shall have, by what is configured and shutdown *)
Definition is_of (service : bool) (alias : Z) (c : conf) : bool := Bool.eqb (match g_service c with Some _ => true | None => false end) service && (g_alias c =? alias).
Definition limit_step (service : bool) (alias : Z) (n : option nat) (i : input) : option nat :=
  match i with
  | Update l => match last_of (filter (is_of service alias) l) with Some c => Some (g_instances c) | None => n end
  | Shutdown => option_map (fun _ => O) n
  | _ => n
  end.
Definition limit (service : bool) (alias : Z) (h : history) : option nat := fold_left (limit_step service alias) (inputs h) None.

(* a send of a dequeue has failed *)
Definition no_loss (h : history) : Prop := forall k, ~ In (NotDequeued k) (inputs h).
(* shut down, and not configured after that *)
Inductive closing : history -> Prop :=
| closing_now : forall h ev, closing (h ++ [(Shutdown, ev)])
| closing_since : forall h i ev, closing h -> (forall l, i <> Update l) -> closing (h ++ [(i, ev)]).
(* the queue-manager has told that the queue has the id and is at the process *)
Definition told (name q p : Z) (remote : bool) (h : history) : Prop := exists k, In (QueueFound k name q p remote) (inputs h).

(* the queue-manager has been asked where a queue of the forward f is, and hasn't answered *)
Definition answers_lookup (k : Z) (i : input) : bool := match i with QueueFound k' _ _ _ _ | QueueDiscarded k' false => k' =? k | _ => false end.
Inductive waiting (f k : Z) : history -> Prop :=
| waiting_now : forall h i ev name, In (AskQueue f k name) ev -> waiting f k (h ++ [(i, ev)])
| waiting_since : forall h i ev, waiting f k h -> answers_lookup k i = false -> waiting f k (h ++ [(i, ev)]).
Definition asked (f name : Z) (h : history) : Prop := exists k, In (AskQueue f k name) (effects h).
(* the inputs that can make a forward forget where its queues are *)
Definition upsets (i : input) : bool :=
  match i with Enqueued _ false | Dead _ | Committed _ false | RolledBack _ | Forgotten _ true | ForgetRequest _ => true | QueueFound _ _ q p _ => (q =? 0) || (p =? 0) | _ => false end.
(* the forward f has been told where the queue is, and nothing has made it forget *)
Inductive knows (f name : Z) : history -> Prop :=
| knows_now : forall h k q p ev, waiting f k h -> ~ In Shutdown (inputs h) -> q <> 0 -> p <> 0 -> knows f name (h ++ [(QueueFound k name q p false, ev)])
| knows_since : forall h i ev, knows f name h -> upsets i = false -> knows f name (h ++ [(i, ev)]).
(* there are n flows in progress, at least *)
Definition at_least (n : nat) (f : Z) (h : history) : Prop := exists ks, NoDup ks /\ (forall k, In k ks -> active f k h) /\ (n <= length ks)%nat.
Definition kind (c : conf) : bool := match g_service c with Some _ => true | None => false end.
Definition queues (c : conf) : list Z := g_source c :: match g_dest c with Some (d, _) => [d] | None => [] end.

(* how many answers that a flow needs at most when it's shut down, and that all the flows need *)
Definition weight (last : option (input * effect)) : nat :=
  match last with
  | Some (_, AskService _ _) | Some (_, Enqueue _ _ _ _ _ _ _) => 2
  | Some (_, Dequeue _ _ _ _ _ _) | Some (_, Call _ _ _ _ _) => 3
  | Some (_, Commit _ _) | Some (_, Rollback _ _) => 1
  | _ => 0
  end.
Definition remaining (h : history) (n : nat) : Prop :=
  exists ks, NoDup ks /\ (forall k, In k ks <-> exists f, active f k h) /\ n = list_sum (map (fun k => weight (last_of (story_of k h))) ks).

(* What is relied on from the inbound of the gateway: in terms of what arrives at it and what it sends (the history). *)
From Coq Require Import ZArith List Bool Lia.
From Verif Require Import GwiModel.
Import ListNotations.
Local Open Scope Z_scope.

Definition happens (h : history) : Prop := exists s, reach s h.
Fixpoint count {A} (f : A -> bool) (l : list A) : nat := match l with [] => 0%nat | x :: r => ((if f x then 1 else 0) + count f r)%nat end.

(* the connection has been there, and isn't there any more: all have been told *)
Definition connected (c : ipc) (h : history) : Prop := exists f soft, In (Connected f c soft) (inputs h).
Definition gone (c : ipc) (h : history) : Prop := In (Destroyed c) (effects h).
Definition open (c : ipc) (h : history) : Prop := connected c h /\ ~ gone c h.

(* the remote of c has asked *)
Definition asked (c : ipc) (q : request) (h : history) : Prop := exists online, In (External c online (XRequest q)) (inputs h).
Definition asked_rm (c : ipc) (r : resource) (k : corr) (t : Z * Z) (h : history) : Prop := exists online data, In (External c online (XResource r k t data)) (inputs h).
(* a request, or a prepare, commit or rollback, with the correlation *)
Definition opens (k : corr) (i : input) : bool :=
  match i with External _ _ (XRequest q) => q_corr q =? k | External _ _ (XResource _ k' _ _) => k' =? k | _ => false end.
(* no correlation is used twice *)
Definition unique (h : history) : Prop := forall k, (count (opens k) (inputs h) <= 1)%nat.

(* a message has arrived at the device of some connection *)
Definition got (m : internal) (h : history) : Prop := exists c ok, In (Internal c ok m) (inputs h).
(* the branch is from the TM *)
Definition from_tm (t : Z * Z) (h : history) : Prop := exists k, got (IBranch k t) h.
(* the managers only answer what they are asked: the TM for a branch, and the service- and the queue-manager *)
Definition answer_of (m : internal) (e : effect) : Prop :=
  match m, e with
  | IBranch k t, Branch _ k' g => k' = k /\ g = fst t
  | ILookup k _, Lookup _ k' _ _ _ => k' = k
  | IQueueLookup k _, LookupQueue _ k' _ _ => k' = k
  | _, _ => False
  end.
Definition is_answer (m : internal) : bool := match m with IBranch _ _ | ILookup _ _ | IQueueLookup _ _ => true | _ => false end.
Definition honest (h : history) : Prop :=
  forall h1 c ok m ev h2, h = h1 ++ (Internal c ok m, ev) :: h2 -> is_answer m = true -> exists e, In e (effects h1) /\ answer_of m e.
(* the TM gives the same branch for the same transaction *)
Definition tm_consistent (h : history) : Prop := forall t1 t2, from_tm t1 h -> from_tm t2 h -> fst t1 = fst t2 -> t1 = t2.
(* one answer to each lookup, and to each request for a branch *)
Definition is_lookup (k : corr) (i : input) : bool :=
  match i with Internal _ _ (ILookup k' _) | Internal _ _ (IQueueLookup k' _) => k' =? k | _ => false end.
Definition is_branch (k : corr) (i : input) : bool := match i with Internal _ _ (IBranch k' _) => k' =? k | _ => false end.
Definition once (h : history) : Prop := forall k, (count (is_lookup k) (inputs h) <= 1)%nat /\ (count (is_branch k) (inputs h) <= 1)%nat.

(* the request that a process gets is the one of the remote: but for the name, which is that of the route, and the transaction *)
Definition same_request (q q' : request) : Prop := q_kind q' = q_kind q /\ q_corr q' = q_corr q /\ q_data q' = q_data q /\ q_noreply q' = q_noreply q.
Definition is_service (q : request) : bool := match q_kind q with Call | Connect => true | _ => false end.
(* the process that the manager has given for it *)
Definition routed (q q' : request) (p : ipc) (h : history) : Prop :=
  if is_service q then got (ILookup (q_corr q) (Found (q_name q') p)) h
  else q_name q' = q_name q /\ got (IQueueLookup (q_corr q) (Some p)) h.
Definition forwards (k : corr) (e : effect) : bool := match e with ToProcess _ _ q => q_corr q =? k | _ => false end.

(* the reply of a call has arrived, or the conversation is over: the request of the kind and the correlation is *)
Definition ends (n : kind) (k : corr) (i : input) : bool :=
  match i with
  | Internal _ _ (ISend k' true _) => k' =? k
  | Internal _ _ (IReply Call k' _ _) => kind_eqb n Call && (k' =? k)
  | External _ _ (XDisconnect k') => kind_eqb n Connect && (k' =? k)
  | _ => false
  end.
Definition ended (q : request) (h : history) : Prop := exists i, In i (inputs h) /\ ends (q_kind q) (q_corr q) i = true.
(* the TM hasn't been asked for a branch for the request *)
Definition no_branch (k : corr) (h : history) : Prop := forall c g, ~ In (Branch c k g) (effects h).

(* replies to a remote *)
Definition replies (c : ipc) (n : kind) (k : corr) (e : effect) : bool :=
  match e with ToRemote c' (WReply n' k' _ _) => (c' =? c) && kind_eqb n' n && (k' =? k) | _ => false end.
Definition requests (c : ipc) (n : kind) (k : corr) (i : input) : bool :=
  match i with External c' _ (XRequest q) => (c' =? c) && kind_eqb (q_kind q) n && (q_corr q =? k) | _ => false end.
Definition replies_rm (c : ipc) (r : resource) (k : corr) (e : effect) : bool :=
  match e with ToRemote c' (WResource r' k' _ _) => (c' =? c) && resource_eqb r' r && (k' =? k) | _ => false end.
Definition requests_rm (c : ipc) (r : resource) (k : corr) (i : input) : bool :=
  match i with External c' _ (XResource r' k' _ _) => (c' =? c) && resource_eqb r' r && (k' =? k) | _ => false end.

(* a request in the transaction g has been made at c, and the TM hasn't said since that g is over *)
Definition booked (g : Z) (c : ipc) (k : corr) (h : history) : Prop :=
  exists h1 o q b e h2, h = h1 ++ (External c o (XRequest q), e) :: h2 /\ q_trid q = Some (g, b) /\ q_corr q = k /\ (forall ev, ~ In (Disassociate g, ev) h2).
(* ... and it has been passed on *)
Definition uses (g : Z) (c : ipc) (h : history) : Prop := exists k, booked g c k h /\ exists p q', In (ToProcess p c q') (effects h) /\ q_corr q' = k.
(* the transaction of what is sent to a process, or to the TM *)
Definition carries (e : effect) (t : Z * Z) : Prop := match e with ToProcess _ _ q => q_trid q = Some t | ToTM _ _ _ t' _ => t' = t | _ => False end.

(* the connection is told to go *)
Definition leaves (c : ipc) (h : history) : Prop := exists o, In (External c o XLeave) (inputs h).
Definition is_leave (c : ipc) (i : input) : bool := match i with External c' _ XLeave => c' =? c | _ => false end.

(* what makes the inbound send to the remote of c *)
Definition comes_from (h : history) (i : input) (c : ipc) (w : wire) : Prop :=
  match w with
  | WReply Call k code d => (exists c', i = Internal c' true (IReply Call k code d)) /\ exists q, asked c q h /\ q_kind q = Call /\ q_corr q = k
  | WReply nk k code d => i = Internal c true (IReply nk k code d)
  | WSend k term d => i = Internal c true (ISend k term d)
  | WResource r k o code => (exists c' t, i = Internal c' true (IResource r k t code)) /\ exists t0 t1, asked_rm c r k t0 h /\ o = Some t1 /\ fst t1 = fst t0
  | WDiscovered k d => i = Internal c true (IDiscovered k d)
  | WUpdate d => i = Internal c true (IUpdate d)
  | WLeave => True
  end.

(* the prepare, commit or rollback is answered; or it's taken for a conversation that is over, since that has the correlation *)
Definition rm_answered (r : resource) (k : corr) (h : history) : Prop := (exists t code, got (IResource r k t code) h) \/ exists d, got (ISend k true d) h.

(* the transaction isn't known: each branch the TM has given for it is followed by the word that it's over *)
Definition over (g : Z) (h : history) : Prop :=
  forall h1 c ok k t ev h2, h = h1 ++ (Internal c ok (IBranch k t), ev) :: h2 -> fst t = g -> exists ev', In (Disassociate g, ev') h2.

(* the remote of c can be asked to leave *)
Definition soft (c : ipc) (h : history) : Prop := exists f, In (Connected f c true) (inputs h).
(* why c is closed *)
Definition closed_by (h : history) (i : input) (c : ipc) : Prop :=
  match i with
  | External c' _ XLeave => c' = c
  | Internal c' false _ => c' = c                               (* the write fails *)
  | Broken c' => c' = c
  | Remove c' ok => c' = c /\ (soft c h -> ok = false)
  | Shutdown broken => soft c h -> In c broken
  | Idle => leaves c h
  | _ => False
  end.
(* the remote has agreed to leave *)
Definition agreed (i : input) : bool := match i with External _ _ XLeave | Idle => true | _ => false end.
(* nothing is left to do for c: each request to a service, since it was made, is ended; each request to a queue is passed on; each prepare, commit
   and rollback, since it was made, is answered; and the TM has said, since the last request or branch, that the transaction is over *)
Definition holds (g : Z) (c : ipc) (h : history) : Prop :=
  exists h1 i e h2 q, h = h1 ++ (i, e) :: h2 /\ asked c q h /\ gtrid (q_trid q) = Some g /\
    ((exists o, i = External c o (XRequest q)) \/ exists c' ok t, i = Internal c' ok (IBranch (q_corr q) t)) /\ forall e', ~ In (Disassociate g, e') h2.
Definition nothing_left (c : ipc) (h : history) : Prop :=
  (forall h1 o q e h2, h = h1 ++ (External c o (XRequest q), e) :: h2 -> is_service q = true -> ended q h2) /\
  (forall q, asked c q h -> is_service q = false -> (exists x, got (IQueueLookup (q_corr q) x) h) /\ (no_branch (q_corr q) h \/ exists t, got (IBranch (q_corr q) t) h)) /\
  (forall h1 o r k t d e h2, h = h1 ++ (External c o (XResource r k t d), e) :: h2 -> exists t' code, got (IResource r k t' code) h2) /\
  (forall g, ~ holds g c h).
(* the lookup, or the conversation, has a process *)
Definition found (k : corr) (h : history) : Prop := exists name p, got (ILookup k (Found name p)) h.
(* what remotes and the domain are to do: a correlation is used once, the managers answer what is asked, a remote says once that it leaves, and
   doesn't send in a conversation before it's there *)
Definition leaves_once (h : history) : Prop := forall c, (count (is_leave c) (inputs h) <= 1)%nat.
Definition sends_right (h : history) (i : input) : Prop := match i with External _ _ (XSend k _) | External _ _ (XDisconnect k) => found k h | _ => True end.
(* the write of a reply fails *)
Definition reply_fails (i : input) : bool := match i with Internal _ false (IReply Call _ _ _) | Internal _ false (IResource _ _ _ _) => true | _ => false end.

(* the manager that is asked, for a request of the remote of c; [on]: the queue-manager is there *)
Definition asks_lookup (on : bool) (c : ipc) (q : request) : effect :=
  match q_kind q with
  | Call => Lookup c (q_corr q) (q_name q) (gtrid (q_trid q)) (q_noreply q)
  | Connect => Lookup c (q_corr q) (q_name q) (gtrid (q_trid q)) false
  | _ => if on then LookupQueue c (q_corr q) (q_name q) (gtrid (q_trid q)) else ToItself (IQueueLookup (q_corr q) None)
  end.
(* what isn't kept account of: to the remote of the connection it arrives at *)
Definition passed_as (m : internal) : option wire :=
  match m with
  | IReply Connect k code d => Some (WReply Connect k code d)
  | IReply Enqueue k code d => Some (WReply Enqueue k code d)
  | IReply Dequeue k code d => Some (WReply Dequeue k code d)
  | ISend k e d => Some (WSend k e d)
  | IDiscovered k d => Some (WDiscovered k d)
  | IUpdate d => Some (WUpdate d)
  | _ => None
  end.

(* What is relied on from the outbound of the gateway: in terms of what arrives at it and what it sends (the history). *)
From Coq Require Import ZArith List Bool Lia.
From Verif Require Import GwoModel.
Import ListNotations.
Local Open Scope Z_scope.

Definition inputs (h : history) : list input := map fst h.
Definition effects (h : history) : list effect := flat_map snd h.
Fixpoint count {A} (f : A -> bool) (l : list A) : nat := match l with [] => 0%nat | x :: r => ((if f x then 1 else 0) + count f r)%nat end.

(* a request of the process p, with the kind and the correlation *)
Definition is_request (p : ipc) (n : kind) (k : corr) (q : request) : bool := (q_from q =? p) && kind_eqb (q_kind q) n && (q_corr q =? k).
Definition asks (p : ipc) (n : kind) (k : corr) (i : input) : bool :=
  match i with Inward _ _ (InRequest q) => is_request p n k q | _ => false end.
(* p gets a reply of the kind, with the correlation *)
Definition answers (p : ipc) (n : kind) (k : corr) (e : effect) : bool :=
  match e with ToProcess p' (Reply n' k' _ _) => (p' =? p) && kind_eqb n' n && (k' =? k) | _ => false end.
(* how many times p has asked, and got an answer *)
Definition asked (p : ipc) (n : kind) (k : corr) (h : history) : nat := count (asks p n k) (inputs h).
Definition answered (p : ipc) (n : kind) (k : corr) (h : history) : nat := count (answers p n k) (effects h).

(* p has asked at the connection c *)
Definition asked_at (c : ipc) (p : ipc) (n : kind) (k : corr) (h : history) : Prop :=
  exists ok q, In (Inward c ok (InRequest q)) (inputs h) /\ is_request p n k q = true.
(* the connection has been there, and isn't there any more: all have been told *)
Definition gone (c : ipc) (h : history) : Prop := In (Destroyed c) (effects h).
Definition connected (c : ipc) (h : history) : Prop := exists f old, In (Connected f c old) (inputs h).
Definition open (c : ipc) (h : history) : Prop := connected c h /\ ~ gone c h.

(* no request to a queue has been given to a connection that turned out to be broken when it was sent *)
Definition orderly (h : history) : Prop :=
  forall c q, In (Inward c false (InRequest q)) (inputs h) -> q_kind q = Call \/ q_kind q = Connect.

(* what a caller gets if the connection is lost *)
Definition lost_code (n : kind) : Z := match n with Call => TPESVCERR | _ => 0 end.

(* the TM has been told that the transaction g uses c, and hasn't said since that g is over *)
Definition tells (g : Z) (c : ipc) (e : effect) : bool := match e with Involved g' c' => (g' =? g) && (c' =? c) | _ => false end.
Definition told_after (g : Z) (c : ipc) (b : bool) (x : input * list effect) : bool :=
  match fst x with Disassociate g' => if g' =? g then false else b | _ => b end || existsb (tells g c) (snd x).
Definition told (g : Z) (c : ipc) (h : history) : bool := fold_left (told_after g c) h false.

(* somebody has asked that the connection is closed *)
Definition asked_to_leave (c : ipc) (i : input) : Prop :=
  match i with Outward c' _ (XDisconnect _) => c' = c | Remove c' => c' = c | Shutdown => True | _ => False end.

(* p asks (the transaction manager for prepare, commit or rollback; the discovery) and is answered *)
Definition consults (p : ipc) (k : corr) (i : input) : bool :=
  match i with Inward _ _ (InResource _ k' p' _ _) | Inward _ _ (InDiscover k' p' _) => (p' =? p) && (k' =? k) | _ => false end.
Definition consulted (p : ipc) (k : corr) (e : effect) : bool :=
  match e with ToProcess p' (Resource _ k' _) | ToProcess p' (Discovered k' _) => (p' =? p) && (k' =? k) | _ => false end.
Definition consults_count (p : ipc) (k : corr) (h : history) : nat := count (consults p k) (inputs h).
Definition consulted_count (p : ipc) (k : corr) (h : history) : nat := count (consulted p k) (effects h).

(* the history is one that can be *)
Definition happens (h : history) : Prop := exists s, reach s h.

(* what a remote gets, and what it comes from *)
Definition comes_from (h : history) (c : ipc) (m : wire) (i : input) : Prop :=
  match m with
  | WRequest _ q => i = Inward c true (InRequest q)
  | WSend k data => i = Inward c true (InSend k data)
  | WDisconnect k => (exists c', i = Inward c' true (InDisconnect k)) /\ (orderly h -> exists p, asked_at c p Connect k h)
  | WResource r k t data => exists p, i = Inward c true (InResource r k p t data)
  | WDiscover (Some k) data => exists p, i = Inward c true (InDiscover k p data)
  | WDiscover None data => i = Inward c true (InExplore data)
  | WDisconnected k => i = Outward c true (XDisconnect k)
  end.

(* it has been asked that c is closed, when it was open *)
Definition left (c : ipc) (h : history) : Prop := exists h1 i ev h2, h = h1 ++ (i, ev) :: h2 /\ asked_to_leave c i /\ open c h1.
(* ... and at most once for each *)
Definition left_once (h : history) : Prop :=
  forall h1 i ev h2 c, h = h1 ++ (i, ev) :: h2 -> asked_to_leave c i -> open c h1 -> ~ left c h1.

(* p has asked at the connection c (prepare, commit, rollback or discovery) *)
Definition consulted_at (c : ipc) (p : ipc) (k : corr) (h : history) : Prop :=
  exists ok m, In (Inward c ok m) (inputs h) /\ consults p k (Inward c ok m) = true.
(* a question with the correlation, of any process, and the answer of a remote *)
Definition consult_corr (k : corr) (i : input) : bool :=
  match i with Inward _ _ (InResource _ k' _ _ _) | Inward _ _ (InDiscover k' _ _) => k' =? k | _ => false end.
Definition consult_reply (k : corr) (i : input) : bool :=
  match i with Outward _ _ (XResource _ k' _) | Outward _ _ (XDiscovered k' _ _ _) => k' =? k | _ => false end.

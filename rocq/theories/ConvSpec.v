(* What a user relies on with conversations: in terms of what each process has been told (the history), not of the descriptors inside of it. *)
From Coq Require Import ZArith List Bool.
From Verif Require Import ConvModel.
Import ListNotations.
Local Open Scope Z_scope.

(* what has happened at a process *)
Definition of_proc (x : Z) (h : list entry) : list event := flat_map (fun n => let '(p, _, _, ev) := n in if p =? x then ev else []) h.
(* the descriptors a process has, and the conversations they stand for *)
Definition after (o : list (Z * corr)) (v : event) : list (Z * corr) :=
  match v with Opened c d _ => (d, c) :: o | Closed c d => filter (fun y => negb (fst y =? d)) o | _ => o end.
Definition opened (x : Z) (h : list entry) : list (Z * corr) := fold_left after (of_proc x h) [].
(* if a process has the control of a conversation *)
Definition control_after (c : corr) (b : bool) (v : event) : bool :=
  match v with
  | Opened c' _ b' => if corr_eqb c' c then b' else b
  | Sent c' g _ => if corr_eqb c' c && g then false else b
  | Got c' g _ _ => if corr_eqb c' c && g then true else b
  | _ => b
  end.
Definition control (x : Z) (c : corr) (h : list entry) : bool := fold_left (control_after c) (of_proc x h) false.
(* what a process has sent and taken in a conversation: if it passes the control, and the data *)
Definition sent (x : Z) (c : corr) (h : list entry) : list (bool * Z) :=
  flat_map (fun v => match v with Sent c' g d => if corr_eqb c' c then [(g, d)] else [] | _ => [] end) (of_proc x h).
Definition got (x : Z) (c : corr) (h : list entry) : list (bool * Z) :=
  flat_map (fun v => match v with Got c' g d _ => if corr_eqb c' c then [(g, d)] else [] | _ => [] end) (of_proc x h).
Definition prefix {A} (l1 l2 : list A) : Prop := exists r, l2 = l1 ++ r.

(* y is the process of the service that x has connected to *)
Definition connected (x y : Z) (c : corr) (h : list entry) : Prop := In (Called c y) (of_proc x h).
(* x and y are the two of c *)
Definition between (x y : Z) (c : corr) (h : list entry) : Prop := connected x y c h \/ connected y x c h.

(* the service manager doesn't give a process itself, and a server that goes back to the message pump has no conversation that it has connected *)
Definition ordinary (a : action) (h : list entry) : Prop :=
  match a with
  | Do p (Tpconnect _ _ _ (Found t _)) => t <> p
  | Do p Pump => forall d c, In (d, c) (opened p h) -> fst c <> p
  | _ => True
  end.
Fixpoint all_ordinary (l : list action) (w : world) (h : list entry) : Prop :=
  match l with [] => True | a :: r => ordinary a h /\ let '(w1, h1) := act a w in all_ordinary r w1 (h ++ h1) end.
(* nothing between the two is on its way *)
Definition arrived (x y : Z) (w : world) : Prop := forall m, ~ In (x, y, m) (w_net w).
(* the events of the end of a conversation *)
Definition told_return (o : outcome) (user : Z) : output :=
  match o with Success => O_event TPEV_SVCSUCC user | Fail => O_event TPEV_SVCFAIL user | Error => O_event TPEV_SVCERR 0 end.

(* l is what happens, from the start: the world and what has been seen after it *)
Definition runs (l : list action) (w : world) (h : list entry) : Prop := acts l world0 = (w, h) /\ all_ordinary l world0 [].
(* x calls, and is answered *)
Definition asks (x : Z) (i : input) (w : world) (o : output) (ev : list event) (w' : world) : Prop := act (Do x i) w = (w', [(x, i, o, ev)]).
(* nothing has changed: for any process, and nothing is sent *)
Definition unchanged (w w' : world) : Prop := (forall y, w_proc w' y = w_proc w y) /\ w_net w' = w_net w.
(* x has ended c with tpdiscon *)
Definition disconnected (x : Z) (c : corr) (h : list entry) : Prop := exists d, In (x, Tpdiscon d None, O_ok, [Closed c d]) h.
(* the service of c at y has returned, and the reply could be sent *)
Definition returned (y : Z) (c : corr) (o : outcome) (user data : Z) (h : list entry) : Prop := exists ev, In (y, Tpreturn o user data false, O_ok, ev) h /\ In (Back c o user data) ev.
(* a call on a descriptor *)
Definition on (i : input) (d : Z) : Prop := match i with Tpsend e _ _ _ => e = d | Tprecv e _ _ _ => e = d | Tpdiscon e _ => e = d | _ => False end.
(* tprecv tells y that the conversation has ended: x has ended it, the service manager has said that the server is gone, or the service has returned *)
Definition end_of (l : list action) (h : list entry) (x y : Z) (c : corr) (e user : Z) : Prop :=
  (e = TPEV_DISCONIMM /\ user = 0 /\ disconnected x c h) \/ (e = TPEV_SVCERR /\ user = 0 /\ In (Died y c) l) \/
  exists o u data, In (Back c o u data) (of_proc x h) /\ got y c h = sent x c h /\ told_return o u = O_event e user.
(* tpsend: a service that has returned without the control, or has failed *)
Definition end_of_send (l : list action) (h : list entry) (x y : Z) (c : corr) (e user : Z) : Prop :=
  (e = TPEV_DISCONIMM /\ user = 0 /\ disconnected x c h) \/ (e = TPEV_SVCERR /\ user = 0 /\ In (Died y c) l) \/
  exists o u data, In (Back c o u data) (of_proc x h) /\ (if match o with Fail => true | _ => false end then e = TPEV_SVCFAIL /\ user = u else e = TPEV_SVCERR /\ user = 0).

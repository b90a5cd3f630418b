(* The vocabulary of C50 and C51. *)
From Coq Require Import ZArith List Bool Arith.
From Verif Require Import IpcModel IpcSpec SendModel.
Import ListNotations.

(* what becomes of a message: every datagram was sent; given up after n; or n are sent and the rest is pending *)
Inductive fate := Done | Lost (n : nat) | Waiting (n : nat).
Definition grams (max : nat) (m : msg) (f : fate) : list transport :=
  match f with Done => datagrams max m | Lost n | Waiting n => firstn n (datagrams max m) end.
Definition is_done (f : fate) : bool := match f with Done => true | _ => false end.
Definition is_lost (f : fate) : bool := match f with Lost _ => true | _ => false end.
Definition is_waiting (f : fate) : bool := match f with Waiting _ => true | _ => false end.
(* a message with the flag if it has a callback *)
Definition item : Type := (msg * bool)%type.
Definition pick (p : fate -> bool) (fs : list (item * fate)) : list item := map fst (filter (fun x => p (snd x)) fs).

(* messages accepted for a destination; datagrams sent, messages given up and messages pending for it *)
Definition given (d : Z) (l : list cop) : list item :=
  flat_map (fun o => match o with C_send ipc m call _ _ => if (ipc =? d)%Z then [(m, call)] else [] | _ => [] end) l.
Definition sent_to (d : Z) (es : list event) : list transport :=
  flat_map (fun e => match e with E_gram ipc t => if (ipc =? d)%Z then [t] else [] | _ => [] end) es.
Definition lost_to (d : Z) (es : list event) : list item :=
  flat_map (fun e => match e with E_lost ipc m call => if (ipc =? d)%Z then [(m, call)] else [] | _ => [] end) es.
Definition queue_to (d : Z) (c : coord) : list item :=
  flat_map (fun r => if (r_ipc r =? d)%Z then map (fun j => (j_msg j, j_call j)) (r_queue r) else []) (co_dest c).

(* a message that is given up or waits is not completely sent, and only the first that waits may have begun *)
Fixpoint started_first (fs : list (item * fate)) : Prop :=
  match fs with
  | [] => True
  | (_, Waiting _) :: r => (forall x f, In (x, f) r -> f = Waiting 0)
  | _ :: r => started_first r
  end.
Definition sane (max : nat) (fs : list (item * fate)) : Prop :=
  (forall m c n, In (m, c, Lost n) fs \/ In (m, c, Waiting n) fs -> n < length (datagrams max m)) /\ started_first fs.

(* the sockets that are opened are new *)
Fixpoint fresh_fds (max : nat) (l : list cop) (c : coord) : Prop :=
  match l with
  | [] => True
  | o :: r => match o with C_send _ _ _ (Some fd) _ => ~ In fd (map r_fd (co_dest c)) | _ => True end /\ fresh_fds max r (fst (cstep max o c))
  end.
(* the messages have a payload *)
Definition payloads (l : list cop) : Prop := forall ipc m call open w, In (C_send ipc m call open w) l -> m_payload m <> [].

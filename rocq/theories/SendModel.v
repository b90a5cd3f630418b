(* The non-blocking sender that every casual manager uses: ipc::send::Coordinator.
   middleware/common/{include/common/communication/ipc/send.h,source/communication/ipc/send.cpp}, complete::Send in
   include/common/communication/ipc/message.h:249-292 and partial::send in source/communication/ipc.cpp:480-506.
   Not modelled: devices with a connector (send_dispatch tag<1>, send.h:208-262), logging and counters, and callbacks that use the
   coordinator themselves (Remote::failed iterates over its queue while it calls them). *)
From Coq Require Import ZArith List Bool Arith.
From Verif Require Import IpcModel.
Import ListNotations.

(* what one non-blocking ::sendto did, native::non::blocking::send, ipc.cpp:200-222 with check_error, ipc.cpp:90-118:
   the datagram was taken, the receiver's queue is full, or the call raises (the receiver is gone) *)
Inductive outcome := Taken | Full | Gone.

(* coordinator::Message, send.h:36-60, with complete::Send: the message, how many bytes have been sent, and if there is a callback *)
Record job := mk_job { j_msg : msg; j_off : nat; j_call : bool }.
(* complete::Send::left, front and transport, message.h:258-292 *)
Definition left (max : nat) (j : job) : nat := let l := length (m_payload (j_msg j)) - j_off j in if l <? max then l else max.
Definition front (max : nat) (j : job) : transport :=
  mk_t (m_type (j_msg j)) (m_corr (j_msg j)) (j_off j) (length (m_payload (j_msg j))) (firstn (left max j) (skipn (j_off j) (m_payload (j_msg j)))).
Definition pop (max : nat) (j : job) : job := mk_job (j_msg j) (j_off j + left max j) (j_call j).

Inductive verdict := Sent | Later | Broken.
(* partial::send, ipc.cpp:480-506: while there is a front. w: the outcomes of the coming ::sendto, Full when they run out.
   The fuel is larger than the number of bytes left. *)
Fixpoint partial_send (fuel max : nat) (j : job) (w : list outcome) : list transport * job * verdict * list outcome :=
  match fuel with
  | O => ([], j, Later, w)
  | S f =>
    if left max j =? 0 then ([], j, Sent, w)
    else match w with
         | Taken :: w1 => let '(ts, j', v, w') := partial_send f max (pop max j) w1 in (front max j :: ts, j', v, w')
         | Full :: w1 => ([], j, Later, w1)
         | Gone :: w1 => ([], j, Broken, w1)
         | [] => ([], j, Later, [])
         end
  end.
Definition send_job (max : nat) (j : job) (w : list outcome) := partial_send (S (length (m_payload (j_msg j)))) max j w.

(* coordinator::Remote, send.h:62-106 *)
Record remote := mk_remote { r_ipc : Z; r_fd : Z; r_queue : list job }.
(* the loop in Remote::send, send.cpp:38-62 *)
Fixpoint drain (max : nat) (q : list job) (w : list outcome) : list transport * list job * verdict * list outcome :=
  match q with
  | [] => ([], [], Sent, w)
  | j :: r =>
      match send_job max j w with
      | (ts, _, Sent, w1) => let '(ts', q', v, w') := drain max r w1 in (ts ++ ts', q', v, w')
      | (ts, j', v, w1) => (ts, j' :: r, v, w1)
      end
  end.

(* Coordinator, send.h:110-283: the destinations with pending messages, and the descriptors select waits to write to *)
Record coord := mk_coord { co_dest : list remote; co_write : list Z }.

(* what the outside sees: a datagram at the destination, a message given up (and if its callback was called), what a send returned *)
Inductive event := E_gram (ipc : Z) (t : transport) | E_lost (ipc : Z) (m : msg) (called : bool) | E_return (ipc : Z) (m : msg) (nil : bool).

(* select::directive::Set::add and remove, select.cpp:27-45 *)
Definition fd_add (x : Z) (l : list Z) : list Z := if existsb (Z.eqb x) l then l else x :: l.
Definition fd_remove (x : Z) (l : list Z) : list Z := filter (fun y => negb (x =? y)%Z) l.

(* Message::error, send.cpp:17-35, for all of the queue: Remote::failed, send.cpp:64-70 *)
Definition lost (ipc : Z) (q : list job) : list event := map (fun j => E_lost ipc (j_msg j) (j_call j)) q.

(* Remote::send, send.cpp:38-62: None when we are done with the remote *)
Definition remote_send (max : nat) (r : remote) (w : list outcome) (fds : list Z) : option remote * list event * list outcome * list Z :=
  match drain max (r_queue r) w with
  | (ts, q, Sent, w') => (None, map (E_gram (r_ipc r)) ts, w', fd_remove (r_fd r) fds)
  | (ts, q, Later, w') => (Some (mk_remote (r_ipc r) (r_fd r) q), map (E_gram (r_ipc r)) ts, w', fds)
  | (ts, q, Broken, w') => (None, map (E_gram (r_ipc r)) ts ++ lost (r_ipc r) q, w', fd_remove (r_fd r) fds)
  end.

(* find the first destination, let it send, and erase it when done *)
Fixpoint at_first (p : remote -> bool) (f : remote -> remote) (max : nat) (ds : list remote) (w : list outcome) (fds : list Z) : option (list remote * list event * list Z) :=
  match ds with
  | [] => None
  | r :: rest =>
      if p r then let '(o, es, _, fds') := remote_send max (f r) w fds in Some (match o with Some r' => r' :: rest | None => rest end, es, fds')
      else match at_first p f max rest w fds with Some (ds', es, fds') => Some (r :: ds', es, fds') | None => None end
  end.

(* Coordinator::send( ipc, message), send.cpp:126-155. open: the descriptor of the socket partial::Destination opens, None when that raises *)
Definition coord_send (max : nat) (ipc : Z) (m : msg) (call : bool) (open : option Z) (w : list outcome) (c : coord) : coord * list event :=
  let j := mk_job m 0 call in
  match at_first (fun r => (r_ipc r =? ipc)%Z) (fun r => mk_remote (r_ipc r) (r_fd r) (r_queue r ++ [j])) max (co_dest c) w (co_write c) with
  | Some (ds, es, fds) => (mk_coord ds fds, es ++ [E_return ipc m false])
  | None =>
      match open with
      | None => (c, [E_lost ipc m call; E_return ipc m true])
      | Some fd =>
          match send_job max j w with
          | (ts, _, Sent, _) => (c, map (E_gram ipc) ts ++ [E_return ipc m false])
          | (ts, j', Later, _) => (mk_coord (co_dest c ++ [mk_remote ipc fd [j']]) (fd_add fd (co_write c)), map (E_gram ipc) ts ++ [E_return ipc m false])
          | (ts, _, Broken, _) => (c, map (E_gram ipc) ts ++ [E_lost ipc m call; E_return ipc m true])
          end
      end
  end.

(* Coordinator::operator() ( descriptor, write), send.cpp:74-90 *)
Definition coord_ready (max : nat) (fd : Z) (w : list outcome) (c : coord) : coord * list event :=
  match at_first (fun r => (r_fd r =? fd)%Z) (fun r => r) max (co_dest c) w (co_write c) with
  | Some (ds, es, fds) => (mk_coord ds fds, es)
  | None => (c, [])
  end.

(* Coordinator::send(), send.cpp:92-105. std::partition may visit the destinations in another order and reorder those it keeps *)
Fixpoint send_each (max : nat) (ds : list remote) (w : list outcome) (fds : list Z) : list remote * list event * list Z :=
  match ds with
  | [] => ([], [], fds)
  | r :: rest =>
      let '(o, es, w', fds') := remote_send max r w fds in
      let '(ds', es', fds'') := send_each max rest w' fds' in
      (match o with Some r' => r' :: ds' | None => ds' end, es ++ es', fds'')
  end.
Definition coord_all (max : nat) (w : list outcome) (c : coord) : coord * list event :=
  let '(ds, es, fds) := send_each max (co_dest c) w (co_write c) in (mk_coord ds fds, es).

(* Coordinator::failed, send.cpp:116-124 *)
Fixpoint fail_first (ipc : Z) (ds : list remote) (fds : list Z) : list remote * list event * list Z :=
  match ds with
  | [] => ([], [], fds)
  | r :: rest =>
      if (r_ipc r =? ipc)%Z then (rest, lost (r_ipc r) (r_queue r), fd_remove (r_fd r) fds)
      else let '(ds', es, fds') := fail_first ipc rest fds in (r :: ds', es, fds')
  end.
Definition coord_failed (ipc : Z) (c : coord) : coord * list event :=
  let '(ds, es, fds) := fail_first ipc (co_dest c) (co_write c) in (mk_coord ds fds, es).

(* Coordinator::pending, send.cpp:107-114 *)
Definition pending (c : coord) : nat := fold_left (fun n r => n + length (r_queue r)) (co_dest c) 0.

Inductive cop := C_send (ipc : Z) (m : msg) (call : bool) (open : option Z) (w : list outcome) | C_ready (fd : Z) (w : list outcome)
| C_all (w : list outcome) | C_failed (ipc : Z).
Definition cstep (max : nat) (o : cop) (c : coord) : coord * list event :=
  match o with
  | C_send ipc m call open w => coord_send max ipc m call open w c
  | C_ready fd w => coord_ready max fd w c
  | C_all w => coord_all max w c
  | C_failed ipc => coord_failed ipc c
  end.
Fixpoint crun (max : nat) (l : list cop) (c : coord) : coord * list event :=
  match l with
  | [] => (c, [])
  | o :: r => let (c1, e1) := cstep max o c in let (c2, e2) := crun max r c1 in (c2, e1 ++ e2)
  end.
Definition idle : coord := mk_coord [] [].

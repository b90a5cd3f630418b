(* The ipc transport: messages are cut into datagrams by the sender and put together again by the inbound device.
   middleware/common/{include/common/communication/{device.h,ipc/message.h},source/communication/{ipc.cpp,ipc/message.cpp}}.
   Not modelled: signals, message counters, logging, execution id, the socket itself (an AF_UNIX datagram socket: datagrams arrive whole,
   and the datagrams of one sender in order). *)
From Coq Require Import ZArith List Bool Arith.
Import ListNotations.

Definition byte := N.

(* a logical message: type, correlation id and serialized payload; ids are numbers *)
Record msg := mk_msg { m_type : Z; m_corr : Z; m_payload : list byte }.

(* transport::Header and Transport, message.h:27-48, 56-75: one datagram. header.count is the length of the data *)
Record transport := mk_t { t_type : Z; t_corr : Z; t_offset : nat; t_size : nat; t_data : list byte }.

(* message::Complete, message.h:154-221 *)
Record complete := mk_c { c_type : Z; c_corr : Z; c_payload : list byte; c_offset : nat }.

(* Complete::complete, message.cpp:76 *)
Definition is_complete (c : complete) : bool := length (c_payload c) =? c_offset c.
(* Complete( type, correlation, payload&&), message.cpp:48-49 *)
Definition whole (m : msg) : complete := mk_c (m_type m) (m_corr m) (m_payload m) (length (m_payload m)).
Definition msg_of (c : complete) : msg := mk_msg (c_type c) (c_corr c) (c_payload c).

Definition copy_at (n : nat) (d p : list byte) : list byte := firstn n p ++ d ++ skipn (n + length d) p.

(* Complete::add, message.cpp:51-70; None: internal_out_of_bounds is raised *)
Definition add (t : transport) (c : complete) : option complete :=
  if t_offset t <? c_offset c then Some c
  else if c_offset c <? t_offset t then None
  else if length (c_payload c) <? t_offset t + length (t_data t) then None
  else Some (mk_c (c_type c) (c_corr c) (copy_at (c_offset c) (t_data t) (c_payload c)) (c_offset c + length (t_data t))).

(* Complete( type, correlation, size, chunk), message.h:162-167: a payload of size zero bytes, then add *)
Definition fresh (t : transport) : option complete := add t (mk_c (t_type t) (t_corr t) (repeat 0%N (t_size t)) 0).

(* ---------------------------------------------------------------- the sender *)
(* policy::blocking::send and policy::non::blocking::send, ipc.cpp:320-343, 384-409: the do-while loop over the parts of the payload.
   The fuel is the number of bytes left plus one: every part but an only empty one has at least one byte. *)
Fixpoint parts (fuel max : nat) (m : msg) (offset : nat) (rest : list byte) : list transport :=
  match fuel with
  | O => []
  | S f => let n := if max <? length rest then max else length rest in
           mk_t (m_type m) (m_corr m) offset (length (m_payload m)) (firstn n rest)
             :: (match skipn n rest with [] => [] | more => parts f max m (offset + n) more end)
  end.
Definition datagrams (max : nat) (m : msg) : list transport := parts (S (length (m_payload m))) max m 0 (m_payload m).

(* the same functions against a socket: accept says, datagram by datagram, if the socket takes it; the first refusal ends the send, and
   {} is returned. Result: what the receiver's socket got, and if the correlation was returned *)
Fixpoint attempt (accept : list bool) (ts : list transport) : list transport * bool :=
  match ts, accept with
  | [], _ => ([], true)
  | t :: r, true :: a => let (s, ok) := attempt a r in (t :: s, ok)
  | _ :: _, _ => ([], false)
  end.
Definition send (max : nat) (accept : list bool) (m : msg) : list transport * bool := attempt accept (datagrams max m).

(* ---------------------------------------------------------------- the inbound device *)
(* policy::blocking::receive and policy::non::blocking::receive, ipc.cpp:287-318, 351-382: the first incomplete message of the same type
   and correlation gets the datagram, otherwise it starts a new message last in the cache *)
Definition takes (t : transport) (c : complete) : bool :=
  negb (is_complete c) && (t_type t =? c_type c)%Z && (t_corr t =? c_corr c)%Z.
(* Some (before, c, after): the cache with the message c that got the datagram; None: raised *)
Fixpoint receive (t : transport) (cache : list complete) : option (list complete * complete * list complete) :=
  match cache with
  | [] => match fresh t with Some c => Some ([], c, []) | None => None end
  | c :: r => if takes t c then match add t c with Some c' => Some ([], c', r) | None => None end
              else match receive t r with Some (a, x, b) => Some (c :: a, x, b) | None => None end
  end.

(* device::Inbound, device.h:69-437: the cache and the correlations to discard, and the datagrams the socket holds *)
Record inbound := mk_in { i_cache : list complete; i_disc : list Z; i_wire : list transport }.

(* the selections of Inbound::next and Inbound::select, device.h:100-224 *)
Inductive sel :=
| Any | Of_type (t : Z) | Of_types (ts : list Z) | Of_corr (c : Z) | Of_type_corr (t c : Z) | Of_types_corr (ts : list Z) (c : Z)
| Where (p : msg -> bool).
Definition mem (x : Z) (l : list Z) : bool := existsb (Z.eqb x) l.
Definition selects (s : sel) (m : msg) : bool :=
  match s with
  | Any => true
  | Of_type t => (m_type m =? t)%Z
  | Of_types ts => mem (m_type m) ts
  | Of_corr c => (m_corr m =? c)%Z
  | Of_type_corr t c => (m_type m =? t)%Z && (m_corr m =? c)%Z
  | Of_types_corr ts c => mem (m_type m) ts && (m_corr m =? c)%Z
  | Where p => p m
  end.

(* algorithm::find_if and extract_complete on the cache, device.h:351-357 *)
Fixpoint take_first {A} (p : A -> bool) (l : list A) : option (A * list A) :=
  match l with
  | [] => None
  | x :: r => if p x then Some (x, r) else match take_first p r with Some (y, r') => Some (y, x :: r') | None => None end
  end.

(* what an operation reports: Got, the message handed to the caller; Dropped, a message that was thrown away (not visible to the caller);
   Nothing, no such message (a blocking call goes on waiting); Raised, internal_out_of_bounds is thrown *)
Inductive report := Got (m : msg) | Dropped (m : msg) | Nothing | Raised.

Fixpoint erase1 (x : Z) (l : list Z) : list Z :=
  match l with [] => [] | y :: r => if (x =? y)%Z then r else y :: erase1 x r end.

(* Inbound::discard( complete), device.h:419-429, on the message that just got a datagram *)
Definition drop (c : complete) (d : list Z) : bool := mem (c_corr c) d && is_complete c.

(* Inbound::find and select, device.h:213-226, 389-417: the cache first, then datagram by datagram *)
Fixpoint find (p : complete -> bool) (wire : list transport) (cache : list complete) (disc : list Z) {struct wire} : inbound * list report :=
  match take_first p cache with
  | Some (c, cache') => (mk_in cache' disc wire, [Got (msg_of c)])
  | None =>
    match wire with
    | [] => (mk_in cache disc [], [Nothing])
    | t :: wire' =>
      match receive t cache with
      | None => (mk_in cache disc wire', [Raised])
      | Some (a, c, b) =>
          if drop c disc then let (s, r) := find p wire' (a ++ b) (erase1 (c_corr c) disc) in (s, Dropped (msg_of c) :: r)
          else find p wire' (a ++ c :: b) disc
      end
    end
  end.
Definition select (s : sel) (i : inbound) : inbound * list report :=
  find (fun c => is_complete c && selects s (msg_of c)) (i_wire i) (i_cache i) (i_disc i).

Definition got (r : list report) : bool := existsb (fun x => match x with Got _ => true | _ => false end) r.
Definition raised (r : list report) : bool := existsb (fun x => match x with Raised => true | _ => false end) r.
Definition drops (r : list report) : list report :=
  flat_map (fun x => match x with Got m => [Dropped m] | Nothing => [] | x => [x] end) r.

(* message::Type::flush_ipc, type.h:32-33; platform::batch::flush, platform.h:111 *)
Definition flush_ipc : Z := 500.
Definition batch_flush : nat := 20.

(* Inbound::flush, device.h:294-303, 360-368; the messages found are thrown away *)
Fixpoint flush (count : nat) (i : inbound) : inbound * list report :=
  match count with
  | O => (i, [])
  | S n => let (i1, r1) := select (Of_type flush_ipc) i in
           if got r1 then let (i2, r2) := flush n i1 in (i2, drops r1 ++ r2) else (i1, drops r1)
  end.

(* Inbound::discard( correlation), device.h:257-273 *)
Definition discard (corr : Z) (i : inbound) : inbound * list report :=
  let (i1, r1) := flush batch_flush i in
  if raised r1 then (i1, r1)
  else match List.find (fun c => (c_corr c =? corr)%Z) (i_cache i1) with
       | Some c =>
           if is_complete c
           then match take_first (fun c => (c_corr c =? corr)%Z) (i_cache i1) with
                | Some (c, cache) => (mk_in cache (i_disc i1) (i_wire i1), r1 ++ [Dropped (msg_of c)])
                | None => (i1, r1)
                end
           else (mk_in (i_cache i1) (if mem corr (i_disc i1) then i_disc i1 else i_disc i1 ++ [corr]) (i_wire i1), r1)
       | None => (mk_in (i_cache i1) (if mem corr (i_disc i1) then i_disc i1 else i_disc i1 ++ [corr]) (i_wire i1), r1)
       end.

(* Inbound::push, device.h:275-291: the message is complete *)
Definition push (m : msg) (i : inbound) : inbound * list report :=
  let (i1, r1) := flush 1 i in
  if raised r1 then (i1, r1) else (mk_in (i_cache i1 ++ [whole m]) (i_disc i1) (i_wire i1), r1).

(* Inbound::clear, device.h:305-309 *)
Definition clear (i : inbound) : inbound * list report :=
  let (i1, r1) := flush batch_flush i in
  if raised r1 then (i1, r1)
  else (mk_in [] (i_disc i1) (i_wire i1), r1 ++ map (fun c => Dropped (msg_of c)) (filter is_complete (i_cache i1))).

(* Inbound::cached() and cached( types), device.h:108-131 *)
Definition cached (s : sel) (i : inbound) : inbound * list report :=
  match take_first (fun c => is_complete c && selects s (msg_of c)) (i_cache i) with
  | Some (c, cache) => (mk_in cache (i_disc i) (i_wire i), [Got (msg_of c)])
  | None => (i, [Nothing])
  end.

(* what happens at a device: a datagram arrives at the socket, or the process calls an operation *)
Inductive op := Arrive (t : transport) | Next (s : sel) | Cached (s : sel) | Discard (c : Z) | Push (m : msg) | Flush (n : nat) | Clear.
Definition step (o : op) (i : inbound) : inbound * list report :=
  match o with
  | Arrive t => (mk_in (i_cache i) (i_disc i) (i_wire i ++ [t]), [])
  | Next s => select s i
  | Cached s => cached s i
  | Discard c => discard c i
  | Push m => push m i
  | Flush n => flush n i
  | Clear => clear i
  end.
Fixpoint run (l : list op) (i : inbound) : inbound * list report :=
  match l with
  | [] => (i, [])
  | o :: r => let (i1, r1) := step o i in let (i2, r2) := run r i1 in (i2, r1 ++ r2)
  end.
Definition empty : inbound := mk_in [] [] [].

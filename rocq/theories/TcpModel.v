(* The tcp transport between domains: middleware/common/{include/common/communication/tcp/message.h,source/communication/{tcp.cpp,tcp/message.cpp}},
   and what device::Inbound (device.h) adds to it. One connection; the socket is a stream of bytes.
   Not modelled: connecting and listening, signals, logging. *)
From Coq Require Import ZArith List Bool Arith.
From Verif Require Import Bytes BoModel.
Import ListNotations.
Local Open Scope Z_scope.

(* a logical message: the type, the 16 bytes of the correlation, the serialized payload *)
Record tmsg := mk_tm { tm_type : Z; tm_corr : list Z; tm_payload : list Z }.
(* message::Complete, tcp/message.h:85-125: the bytes of the header, the payload, and how much is sent or received *)
Record complete := mk_c { c_head : list Z; c_payload : list Z; c_offset : nat }.
(* header::size, tcp/message.h:52: type 8, correlation 16, size 8 *)
Definition header_size : nat := 32.
(* the header fields as the host sees them, tcp/message.h:57-71, tcp/message.cpp:24-32 *)
Definition c_type (h : host) (c : complete) : Z := decode h T_long (word h (firstn 8 (c_head c))).
Definition c_corr (c : complete) : list Z := firstn 16 (skipn 8 (c_head c)).
Definition c_size (h : host) (c : complete) : Z := decode h T_size (word h (skipn 24 (c_head c))).
(* Complete( type, correlation, payload), tcp/message.cpp:50-56: the offset is 0 *)
Definition outgoing (h : host) (m : tmsg) : complete :=
  mk_c (memory h 8 (encode h T_long (tm_type m)) ++ tm_corr m ++ memory h 8 (encode h T_size (Z.of_nat (length (tm_payload m))))) (tm_payload m) 0.
(* Complete::complete, tcp/message.cpp:68-72; message::Type::absent_message is 0 *)
Definition is_complete (h : host) (c : complete) : bool :=
  negb (c_type h c =? 0) && (c_offset c =? header_size + length (c_payload c))%nat.
Definition msg_of (h : host) (c : complete) : tmsg := mk_tm (c_type h c) (c_corr c) (c_payload c).

(* ---------------------------------------------------------------- send *)
(* policy::local::send, tcp.cpp:519-590: sendmsg takes at most k bytes; k = 0 is also EAGAIN and a refused connection. What is written, and
   the message then *)
Definition send (k : nat) (c : complete) : list Z * complete :=
  let parts := if (header_size <=? c_offset c)%nat then skipn (c_offset c - header_size) (c_payload c)
               else skipn (c_offset c) (c_head c) ++ c_payload c in
  let w := firstn k parts in (w, mk_c (c_head c) (c_payload c) (c_offset c + length w)).

(* ---------------------------------------------------------------- receive *)
(* the lambda receive_message, tcp.cpp:599-614. The socket has the bytes wire; recv gives at least one and at most S k of them; nothing if
   there are none (EAGAIN). If none are asked for recv returns 0, which is taken as the end of the connection: None, raised *)
Definition recv (k count : nat) (wire : list Z) : option (list Z * list Z) :=
  if (count =? 0)%nat then None
  else let n := Nat.min (S k) count in Some (firstn n wire, skipn n wire).
Definition write_at (n : nat) (d p : list Z) : list Z := firstn n p ++ d ++ skipn (n + length d) p.
(* the first part of policy::local::receive, tcp.cpp:616-627: the header, and the payload gets the size it says *)
Definition recv_head (h : host) (k : nat) (c : complete) (wire : list Z) : option (complete * list Z) :=
  if (c_offset c <? header_size)%nat then
    match recv k (header_size - c_offset c) wire with
    | None => None
    | Some (d, wire') =>
        let c1 := mk_c (write_at (c_offset c) d (c_head c)) (c_payload c) (c_offset c + length d) in
        if (c_offset c1 =? header_size)%nat then
          if c_size h c1 <? 0 then None
          else Some (mk_c (c_head c1) (firstn (Z.to_nat (c_size h c1)) (c_payload c1) ++ repeat 0 (Z.to_nat (c_size h c1) - length (c_payload c1))) (c_offset c1), wire')
        else Some (c1, wire')
    end
  else Some (c, wire).
(* the second part, tcp.cpp:629-641: the payload *)
Definition recv_payload (k : nat) (c : complete) (wire : list Z) : option (complete * list Z) :=
  if (header_size <=? c_offset c)%nat then
    let o := (c_offset c - header_size)%nat in
    match recv k (length (c_payload c) - o) wire with
    | None => None
    | Some (d, wire') => Some (mk_c (c_head c) (write_at o d (c_payload c)) (c_offset c + length d), wire')
    end
  else Some (c, wire).
Definition receive (h : host) (k1 k2 : nat) (c : complete) (wire : list Z) : option (complete * list Z) :=
  match recv_head h k1 c wire with
  | None => None
  | Some (c1, wire1) => recv_payload k2 c1 wire1
  end.
Definition blank : complete := mk_c (repeat 0 header_size) [] 0.
(* policy::local::receive( socket, cache), tcp.cpp:649-681. The last of the cache is continued if it isn't complete. None: raised *)
Definition receive_cache (h : host) (k1 k2 : nat) (cache : list complete) (wire : list Z) : option (list complete * list Z) :=
  match rev cache with
  | c :: r =>
      if is_complete h c then
        match receive h k1 k2 blank wire with
        | None => None
        | Some (c', wire') => Some (if (c_offset c' =? 0)%nat then cache else cache ++ [c'], wire')
        end
      else match receive h k1 k2 c wire with
           | None => None
           | Some (c', wire') => Some (rev r ++ [c'], wire')
           end
  | [] => match receive h k1 k2 blank wire with
          | None => None
          | Some (c', wire') => Some (if (c_offset c' =? 0)%nat then [] else [c'], wire')
          end
  end.
(* Inbound::select on the cache, device.h:213-226, 351-357: the first complete message that is asked for *)
Fixpoint take (h : host) (p : tmsg -> bool) (cache : list complete) : option (tmsg * list complete) :=
  match cache with
  | [] => None
  | c :: r => if is_complete h c && p (msg_of h c) then Some (msg_of h c, r)
              else match take h p r with Some (m, r') => Some (m, c :: r') | None => None end
  end.

(* ---------------------------------------------------------------- a connection *)
(* the messages at the sending end, the first of them perhaps sent in part; the bytes on their way; the cache at the receiving end *)
Record connection := mk_con { n_out : list complete; n_wire : list Z; n_cache : list complete }.
Inductive event :=
| Post (m : tmsg)                    (* a message is given to the sending end *)
| Write (k : nat)                    (* the sending end sends: up to k bytes are taken by the socket; a message that is complete is done *)
| Read (k1 k2 : nat)                 (* the receiving end receives *)
| Take (p : tmsg -> bool)            (* a message is asked for, at the receiving end *)
| Push (m : tmsg).                   (* Inbound::push, device.h:274-291, at the receiving end *)
Inductive report := Got (m : tmsg) | Raised.
Definition step (hs hr : host) (e : event) (n : connection) : connection * list report :=
  match e with
  | Post m => (mk_con (n_out n ++ [outgoing hs m]) (n_wire n) (n_cache n), [])
  | Write k => match n_out n with
               | [] => (n, [])
               | c :: r => let (w, c') := send k c in (mk_con (if is_complete hs c' then r else c' :: r) (n_wire n ++ w) (n_cache n), [])
               end
  | Read k1 k2 => match receive_cache hr k1 k2 (n_cache n) (n_wire n) with
                  | None => (n, [Raised])
                  | Some (cache, wire) => (mk_con (n_out n) wire cache, [])
                  end
  | Take p => match take hr p (n_cache n) with
              | None => (n, [])
              | Some (m, cache) => (mk_con (n_out n) (n_wire n) cache, [Got m])
              end
  | Push m => (mk_con (n_out n) (n_wire n) (n_cache n ++ [outgoing hr m]), [])
  end.
Fixpoint run (hs hr : host) (l : list event) (n : connection) : connection * list report :=
  match l with
  | [] => (n, [])
  | e :: r => let (n1, o) := step hs hr e n in let (n2, os) := run hs hr r n1 in (n2, o ++ os)
  end.
Definition connected : connection := mk_con [] [] [].

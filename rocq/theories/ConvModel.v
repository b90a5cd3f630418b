(* Model of conversations: tpconnect, tpsend, tprecv, tpdiscon, the conversational service in the server, and processes that have conversations
   with each other over ipc.
   Source: /repo/middleware/common/source/service/conversation/context.cpp, include/common/service/conversation/state.h,
   source/server/handle/{service,conversation}.cpp, include/common/server/handle/service.h, /repo/middleware/xatmi/source/xatmi/conversation.cpp.

   Simplifications, all deliberate:
   - The inbound device of a process is the list of the complete messages it has received and not yet consumed, in order of arrival; messages
     between two processes arrive in the order they are sent, and as a whole (C29, C30, IpcModel).
   - A payload is an integer; buffers of the caller are left out, but for TPNOCHANGE with another type than that of the message.
   - What the outside world does is part of the input: the outcome of the lookup, if a send fails (the other process is gone, a signal),
     if a signal arrives when the process waits, and that the service manager tells that a server has died.
   - A correlation is the process that asked for it, and its next number (a fresh UUID).
   - A process that is gone does nothing more; it needs no step of its own.
   - Context::disconnect also tells the device to discard messages of the conversation, context.cpp:641-642: no descriptor of the process has this
     correlation any more, and correlations are never used again, so that no call can tell the difference. Left out.
   - The reply that tells that the service is connected is always sent, handle/service.cpp:97-100. The transaction of the service, metrics and
     acknowledgements are in ServeModel. *)
From Coq Require Import ZArith List Bool.
Import ListNotations.
Local Open Scope Z_scope.

(* xatmi/code.h, xatmi/flag.h *)
Definition TPEBADDESC : Z := 2.
Definition TPEBLOCK : Z := 3.
Definition TPEINVAL : Z := 4.
Definition TPEPROTO : Z := 9.
Definition TPESVCERR : Z := 10.
Definition TPESVCFAIL : Z := 11.
Definition TPGOTSIG : Z := 15.
Definition TPEOTYPE : Z := 18.
Definition TPEV_DISCONIMM : Z := 1.
Definition TPEV_SVCERR : Z := 2.
Definition TPEV_SVCFAIL : Z := 4.
Definition TPEV_SVCSUCC : Z := 8.

Definition corr : Type := (Z * Z)%type.
Definition corr_eqb (a b : corr) : bool := (fst a =? fst b) && (snd a =? snd b).

(* duplex::Type, message/conversation.h:33-51; terminated is only found in the message of tpreturn, and isn't looked at *)
Inductive duplex := DSend | DReceive.
(* duplex::convert, context.cpp:48-55; duplex::invert, context.cpp:57-66 *)
Definition convert (receive_only : bool) : duplex := if receive_only then DReceive else DSend.
Definition invert (d : duplex) : duplex := match d with DSend => DReceive | DReceive => DSend end.

(* state::descriptor::Value, state.h:87-108; no value: the correlation is nil (absent) *)
Record value := mk_value { v_corr : corr; v_peer : Z; v_dup : duplex; v_init : bool }.

(* the messages, message/conversation.h; a data message has code absent, the one of tpreturn a code. ServerDied is the service_reply of the service manager *)
Inductive body :=
| Request (from : Z) (d : duplex) (data : Z)
| Connected
| Data (d : duplex) (data : Z)
| Returned (code user data : Z)
| Disconnect
| ServerDied.
Record msg := mk_msg { m_corr : corr; m_body : body }.

(* p_conn: in tpconnect, waits for the reply of the service. p_serv: in a conversational service: the descriptor, the correlation, the caller *)
Record proc := mk_proc { p_descs : list (option value); p_inbox : list msg; p_conn : option (nat * corr); p_serv : option (nat * corr * Z); p_next : Z }.
Definition w_descs l s := mk_proc l (p_inbox s) (p_conn s) (p_serv s) (p_next s).
Definition w_inbox l s := mk_proc (p_descs s) l (p_conn s) (p_serv s) (p_next s).
Definition w_conn c s := mk_proc (p_descs s) (p_inbox s) c (p_serv s) (p_next s).
Definition w_serv c s := mk_proc (p_descs s) (p_inbox s) (p_conn s) c (p_next s).
Definition w_next n s := mk_proc (p_descs s) (p_inbox s) (p_conn s) (p_serv s) n.
Definition start : proc := mk_proc [] [] None None 1.

(* container::reserve, state.h:35-49: the first that is absent, otherwise one more *)
Fixpoint reserve (v : value) (l : list (option value)) : list (option value) * nat :=
  match l with
  | [] => ([Some v], O)
  | None :: r => (Some v :: r, O)
  | Some x :: r => let '(r1, n) := reserve v r in (Some x :: r1, Datatypes.S n)
  end.
Fixpoint set_at (n : nat) (o : option value) (l : list (option value)) : list (option value) :=
  match l, n with [], _ => [] | _ :: r, O => o :: r | x :: r, Datatypes.S k => x :: set_at k o r end.
(* lookup, container::at, state.h:53-54, 76-86: the value if the index is in range and the value isn't absent *)
Definition at_ (n : nat) (l : list (option value)) : option value := nth n l None.
Definition lookup (d : Z) (l : list (option value)) : option (nat * value) :=
  if (0 <=? d) && (d <? Z.of_nat (length l)) then match at_ (Z.to_nat d) l with Some v => Some (Z.to_nat d, v) | None => None end else None.

(* device::next and receive with types and correlation: the first message that matches, communication/device.h:176-181 *)
Fixpoint take (f : msg -> bool) (l : list msg) : option (msg * list msg) :=
  match l with
  | [] => None
  | x :: r => if f x then Some (x, r) else match take f r with Some (y, r1) => Some (y, x :: r1) | None => None end
  end.
Definition is_disconnect (c : corr) (m : msg) : bool := corr_eqb (m_corr m) c && match m_body m with Disconnect => true | _ => false end.
Definition is_connected (c : corr) (m : msg) : bool := corr_eqb (m_corr m) c && match m_body m with Connected => true | _ => false end.
(* the types of check::pending_event, context.cpp:150-153, and of receive, context.cpp:480-486 *)
Definition is_message (c : corr) (m : msg) : bool :=
  corr_eqb (m_corr m) c && match m_body m with Data _ _ | Returned _ _ _ | Disconnect | ServerDied => true | _ => false end.

Inductive found := Found (target : Z) (fails : option Z) | NotFound (code : Z).
Inductive outcome := Success | Fail | Error.
Inductive input :=
| Tpconnect (send_only receive_only : bool) (data : Z) (l : found)
| Wait (sig : bool)                                              (* tpconnect goes on *)
| Tpsend (d : Z) (receive_only : bool) (data : Z) (fails : option Z)
| Tprecv (d : Z) (noblock sig mismatch : bool)                   (* mismatch: TPNOCHANGE, and the buffer of the caller has another type *)
| Tpdiscon (d : Z) (fails : option Z)
| Pump                                                           (* the message pump of the server takes the next message *)
| Tpreturn (o : outcome) (user data : Z) (fails : bool).         (* Error: no tpreturn, an exception, or the transaction can't be committed *)

Inductive output :=
| O_descriptor (d : Z)
| O_ok
| O_received (sendonly : bool) (data : Z)                        (* 0, or -1 with TPEVENT and TPEV_SENDONLY *)
| O_event (ev user : Z)                                          (* -1 with TPEVENT *)
| O_error (code : Z)                                             (* -1 with tperrno *)
| O_waits
| O_invoked (d : Z) (sendonly : bool) (data : Z)                 (* the service is called: TPSVCINFO *)
| O_ignored.

(* what happens, for the specification *)
Inductive event :=
| Called (c : corr) (target : Z)                                   (* the request of c is sent to the process that has the service *)
| Opened (c : corr) (d : Z) (control : bool)                     (* d stands for c; with the control of the conversation or not *)
| Sent (c : corr) (gives : bool) (data : Z)
| Got (c : corr) (gives : bool) (data : Z) (told : bool)         (* not told: TPEOTYPE *)
| Closed (c : corr) (d : Z)                                      (* d stands for nothing any more *)
| Back (c : corr) (o : outcome) (user data : Z)                  (* the service has returned *)
| Lost (m : msg).                                                (* the message pump doesn't know what to do with it *)

Definition gives (d : duplex) : bool := match d with DSend => true | DReceive => false end.
(* the code of the reply, handle/service.cpp:133-152, handle/service.h:124-147 *)
Definition code_of (o : outcome) : Z := match o with Success => 0 | Fail => TPESVCFAIL | Error => TPESVCERR end.

Definition result : Type := (proc * output * list (Z * msg) * list event)%type.
Definition drop (n : nat) (v : value) (s : proc) : proc * event := (w_descs (set_at n None (p_descs s)) s, Closed (v_corr v) (Z.of_nat n)).

(* Context::connect, context.cpp:263-364 (until the reply), tpconnect, xatmi/conversation.cpp:14-58. The descriptor is reserved before the reply of
   the lookup, and unreserved if it fails *)
Definition tpconnect (self : Z) (send_only receive_only : bool) (data : Z) (l : found) (s : proc) : result :=
  if xorb send_only receive_only then
    let c := (self, p_next s) in
    let s0 := w_next (p_next s + 1) s in
    match l with
    | NotFound code => (s0, O_error code, [], [])
    | Found target (Some code) => (s0, O_error code, [], [])
    | Found target None =>
        let d := convert receive_only in
        let '(ds, n) := reserve (mk_value c target d true) (p_descs s) in
        (w_conn (Some (n, c)) (w_descs ds s0), O_waits, [(target, mk_msg c (Request self (invert d) data))], [Called c target; Sent c (gives (invert d)) data])
    end
  else (s, O_error TPEINVAL, [], []).
(* ipc::call, context.cpp:349-361: waits for the reply *)
Definition wait (sig : bool) (s : proc) : result :=
  match p_conn s with
  | None => (s, O_ignored, [], [])
  | Some (n, c) =>
      match take (is_connected c) (p_inbox s) with
      | Some (_, r) => (w_conn None (w_inbox r s), O_descriptor (Z.of_nat n), [], [Opened c (Z.of_nat n) (match at_ n (p_descs s) with Some v => gives (v_dup v) | None => false end)])
      | None => if sig then (w_conn None (w_descs (set_at n None (p_descs s)) s), O_error TPGOTSIG, [], []) else (s, O_waits, [], [])
      end
  end.
(* Context::send, context.cpp:366-437, check::disconnect, check::pending_event, context.cpp:97-237, tpsend, xatmi/conversation.cpp:98-151 *)
Definition tpsend (d : Z) (receive_only : bool) (data : Z) (fails : option Z) (s : proc) : result :=
  match lookup d (p_descs s) with
  | None => (s, O_error TPEBADDESC, [], [])
  | Some (n, v) =>
      match v_dup v with
      | DReceive => (s, O_error TPEPROTO, [], [])
      | DSend =>
          let v1 := mk_value (v_corr v) (v_peer v) (convert receive_only) (v_init v) in
          let s1 := w_descs (set_at n (Some v1) (p_descs s)) s in
          match take (is_disconnect (v_corr v)) (p_inbox s1) with
          | Some (_, r) => let '(s2, e) := drop n v (w_inbox r s1) in (s2, O_event TPEV_DISCONIMM 0, [], [e])
          | None =>
              match take (is_message (v_corr v)) (p_inbox s1) with
              | Some (m, r) =>
                  let '(s2, e) := drop n v (w_inbox r s1) in
                  match m_body m with
                  | Returned code user _ => if code =? TPESVCFAIL then (s2, O_event TPEV_SVCFAIL user, [], [e]) else (s2, O_event TPEV_SVCERR 0, [], [e])
                  | Disconnect => (s2, O_event TPEV_DISCONIMM 0, [], [e])
                  | Data dup x => (s2, O_event TPEV_SVCERR 0, [], [Got (v_corr v) (gives dup) x false; e])
                  | _ => (s2, O_event TPEV_SVCERR 0, [], [e])
                  end
              | None =>
                  match fails with
                  | Some code => let '(s2, e) := drop n v s1 in (s2, O_error code, [], [e])
                  | None => let m := invert (v_dup v1) in (s1, O_ok, [(v_peer v, mk_msg (v_corr v) (Data m data))], [Sent (v_corr v) (gives m) data])
                  end
              end
          end
      end
  end.
(* Context::receive, context.cpp:439-624, tprecv, xatmi/conversation.cpp:153-196 *)
Definition tprecv (d : Z) (noblock sig mismatch : bool) (s : proc) : result :=
  match lookup d (p_descs s) with
  | None => (s, O_error TPEBADDESC, [], [])
  | Some (n, v) =>
      match v_dup v with
      | DSend => (s, O_error TPEPROTO, [], [])
      | DReceive =>
          match take (is_disconnect (v_corr v)) (p_inbox s) with
          | Some (_, r) => let '(s2, e) := drop n v (w_inbox r s) in (s2, O_event TPEV_DISCONIMM 0, [], [e])
          | None =>
              match take (is_message (v_corr v)) (p_inbox s) with
              | None =>
                  if noblock then (s, O_error TPEBLOCK, [], [])
                  else if sig then let '(s2, e) := drop n v s in (s2, O_error TPGOTSIG, [], [e])
                  else (s, O_waits, [], [])
              | Some (m, r) =>
                  let s1 := w_inbox r s in
                  match m_body m with
                  | Data dup data =>
                      let s2 := match dup with DSend => w_descs (set_at n (Some (mk_value (v_corr v) (v_peer v) DSend (v_init v))) (p_descs s1)) s1 | DReceive => s1 end in
                      (s2, if mismatch then O_error TPEOTYPE else O_received (gives dup) data, [], [Got (v_corr v) (gives dup) data (negb mismatch)])
                  | Returned code user data =>
                      let '(s2, e) := drop n v s1 in
                      (s2, if mismatch then O_error TPEOTYPE else if code =? 0 then O_event TPEV_SVCSUCC user else if code =? TPESVCFAIL then O_event TPEV_SVCFAIL user else O_event TPEV_SVCERR 0, [], [e])
                  | Disconnect => let '(s2, e) := drop n v s1 in (s2, O_event TPEV_DISCONIMM 0, [], [e])
                  | _ => let '(s2, e) := drop n v s1 in (s2, O_event TPEV_SVCERR 0, [], [e])
                  end
              end
          end
      end
  end.
(* Context::disconnect, context.cpp:626-645, tpdiscon, xatmi/conversation.cpp:198-203 *)
Definition tpdiscon (d : Z) (fails : option Z) (s : proc) : result :=
  match lookup d (p_descs s) with
  | None => (s, O_error TPEBADDESC, [], [])
  | Some (n, v) =>
      if v_init v then
        let '(s1, e) := drop n v s in
        match fails with
        | Some code => (s1, O_error code, [], [e])
        | None => (s1, O_ok, [(v_peer v, mk_msg (v_corr v) Disconnect)], [e])
        end
      else (s, O_error TPEBADDESC, [], [])
  end.
(* the message pump, message/dispatch.h:326-357, consume::strict: any message is taken, one without a handler is logged and ignored; Conversation,
   handle/conversation.cpp:28-38, transform::parameter, handle/service.cpp:79-104 *)
Definition pump (self : Z) (s : proc) : result :=
  match p_serv s, p_inbox s with
  | None, m :: r =>
      let s1 := w_inbox r s in
      match m_body m with
      | Request from dup data =>
          let '(ds, n) := reserve (mk_value (m_corr m) from dup false) (p_descs s1) in
          (w_serv (Some (n, m_corr m, from)) (w_descs ds s1), O_invoked (Z.of_nat n) (gives dup) data, [(from, mk_msg (m_corr m) Connected)],
           [Opened (m_corr m) (Z.of_nat n) (gives dup); Got (m_corr m) (gives dup) data true])
      | _ => (s1, O_ignored, [], [Lost m])
      end
  | _, _ => (s, O_ignored, [], [])
  end.
(* the end of service::call, handle/service.h:196-250: the reply, and the descriptor is unreserved, whatever it stands for now; if it's already
   unreserved it is an error that is logged *)
Definition tpreturn (o : outcome) (user data : Z) (fails : bool) (s : proc) : result :=
  match p_serv s with
  | None => (s, O_ignored, [], [])
  | Some (n, c, from) =>
      let '(s1, e) := match at_ n (p_descs s) with Some v => let '(s1, e) := drop n v s in (s1, [e]) | None => (s, []) end in
      (w_serv None s1, O_ok, if fails then [] else [(from, mk_msg c (Returned (code_of o) user data))], e ++ [Back c o user data])
  end.
(* a process that is in tpconnect does nothing else *)
Definition step (self : Z) (i : input) (s : proc) : result :=
  match p_conn s, i with
  | _, Wait sig => wait sig s
  | Some _, _ => (s, O_ignored, [], [])
  | None, Tpconnect so ro data l => tpconnect self so ro data l s
  | None, Tpsend d ro data f => tpsend d ro data f s
  | None, Tprecv d nb sg mm => tprecv d nb sg mm s
  | None, Tpdiscon d f => tpdiscon d f s
  | None, Pump => pump self s
  | None, Tpreturn o user data f => tpreturn o user data f s
  end.

(* ------------------------------------------------------------------ processes *)
(* w_net: the messages that are on their way, in the order they were sent: from, to *)
Record world := mk_world { w_proc : Z -> proc; w_net : list (Z * Z * msg) }.
Definition put (p : Z) (x : proc) (f : Z -> proc) : Z -> proc := fun q => if q =? p then x else f q.
Definition world0 : world := mk_world (fun _ => start) [].
Fixpoint take_net (a b : Z) (l : list (Z * Z * msg)) : option (msg * list (Z * Z * msg)) :=
  match l with
  | [] => None
  | (x, y, m) :: r => if (x =? a) && (y =? b) then Some (m, r) else match take_net a b r with Some (m1, r1) => Some (m1, (x, y, m) :: r1) | None => None end
  end.
Inductive action :=
| Do (p : Z) (i : input)
| Deliver (from to : Z)                    (* the first message between the two arrives *)
| Died (p : Z) (c : corr).                 (* the service manager tells p that the server has died *)
(* what is seen: who, what it was asked, what it answered, what happened *)
Definition entry : Type := (Z * input * output * list event)%type.
Definition act (a : action) (w : world) : world * list entry :=
  match a with
  | Do p i =>
      let '(s, o, ms, ev) := step p i (w_proc w p) in
      (mk_world (put p s (w_proc w)) (w_net w ++ map (fun x => (p, fst x, snd x)) ms), [(p, i, o, ev)])
  | Deliver a b =>
      match take_net a b (w_net w) with
      | Some (m, r) => (mk_world (put b (w_inbox (p_inbox (w_proc w b) ++ [m]) (w_proc w b)) (w_proc w)) r, [])
      | None => (w, [])
      end
  | Died p c => (mk_world (put p (w_inbox (p_inbox (w_proc w p) ++ [mk_msg c ServerDied]) (w_proc w p)) (w_proc w)) (w_net w), [])
  end.
Fixpoint acts (l : list action) (w : world) : world * list entry :=
  match l with
  | [] => (w, [])
  | a :: r => let '(w1, h1) := act a w in let '(w2, h2) := acts r w1 in (w2, h1 ++ h2)
  end.

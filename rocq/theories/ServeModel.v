(* Model of how a server handles a service request: the transaction that the service is invoked in, the routine, the reply, a forward, the
   acknowledge to the service manager - on every path, with and without exceptions.
   Source: /repo/middleware/common/include/common/server/handle/{service,call}.h, source/server/handle/{service,policy,conversation}.cpp,
   source/server/service.cpp, include/common/execute.h.

   Simplifications, all deliberate:
   - The routine is any list of what a process can do (CallModel), and how it ends. Conversations inside of it aren't part.
   - What the outside world does is part of the input: if the transaction manager, the caller and the service manager can be reached.
   - A finalize that raises (the transaction manager can't be reached) has made any prefix of what it would have done; it can raise only if
     it has something to tell the transaction manager: if the process owns one of the transactions.
   - Buffers (that they are in the pool, that the pool is cleared), the deadline, headers and metrics are left out. *)
From Coq Require Import ZArith List Bool.
From Verif Require Import CodesModel CtxModel CallModel.
Import ListNotations.
Local Open Scope Z_scope.

(* service::transaction::Type, common/service/type.h *)
Inductive semantics := Automatic | JoinOnly | Atomic | NoTransaction | NewBranch.
(* message::service::call::callee::Request, message::conversation::connect::callee::Request; q_known: the server has the service *)
Record request := mk_request { q_corr : Z; q_known : bool; q_semantics : semantics; q_tid : tid; q_noreply : bool; q_conversation : bool }.
(* how the routine ends: tpreturn with TPSUCCESS or TPFAIL, tpforward, or anything else: an exception, no tpreturn, tpreturn with a bad buffer *)
Inductive ending := E_return (success : bool) (user data : Z) | E_forward (data : Z) (l : lookup) | E_none.
(* what can't be reached: the transaction manager when the service is invoked (f_enter) and when it's done (f_finalize: after so many events), the
   caller for the accept of a conversation (f_connect), the caller for the reply, at the first and at the second try, the service manager *)
Record faults := mk_faults { f_enter : bool; f_connect : bool; f_finalize : option nat; f_reply : bool; f_again : bool; f_ack : bool }.

(* what can be seen from outside *)
Inductive served :=
| V_connected (c : Z)                              (* the accept of a conversation *)
| V_invoked (x : Z) (tptran : bool)                (* the routine starts: the XID tx_info shows, and the TPTRAN flag *)
| V_reply (c : Z) (r : reply)                      (* the caller gets the reply *)
| V_forward (c : Z) (t : tid) (noreply : bool) (data : Z)   (* another server gets the request *)
| V_ack (c : Z) (code : Z).                        (* the service manager gets the acknowledge *)

(* Default::transaction( trid, service), policy.cpp:131-183; transaction::Context::join, start, branch, transaction/context.cpp:461-504 *)
Definition communicates (t : tid) (c : ctx) : bool := negb (is_null t) && match c_fixed c with [] => false | _ => true end.
Definition enter_join (e : env) (t : tid) (fault : bool) (c : ctx) : ctx * result :=
  if fault && communicates t c then (w_txs (c_txs c ++ [new_txn t]) c, Raised) else join e t c.
Definition enter_branch (e : env) (t : tid) (fault : bool) (c : ctx) : ctx * result :=
  if fault && communicates t c then (w_txs (c_txs c ++ [new_txn (mk_tid (c_next c) (x_own t))]) (w_next (c_next c + 1) c), Raised) else branch e t c.
Definition enter (e : env) (y : semantics) (t : tid) (fault : bool) (c : ctx) : ctx * result :=
  match y with
  | Automatic => if is_null t then CtxModel.start e c else enter_join e t fault c
  | NewBranch => if is_null t then CtxModel.start e c else enter_branch e t fault c
  | JoinOnly => enter_join e t fault c
  | Atomic => CtxModel.start e c
  | NoTransaction => enter_join e null_tid fault c
  end.

(* Context::pending, transaction/context.cpp:202-210 *)
Definition owns (c : ctx) : bool := existsb (fun t => negb (is_null (t_id t)) && owned t) (c_txs c).
(* Default::transaction( commit), policy.cpp:186-189; Context::finalize, transaction/context.cpp:532-641; None: it raised *)
Definition finish (e : env) (b : bool) (fault : option nat) (s : proc) : proc * option Z :=
  match fault with
  | Some n =>
      if owns (p_tx s) then
        let s1 := fold_left (fun s c => discard c s) (pending_of (p_tx s)) s in
        let '(c, _) := finalize e b (p_tx s1) in
        (w_tx (mk_ctx [] (c_empty c) (c_ctl c) (c_ret c) (c_dynamic c) (c_fixed c) (c_next c) (firstn (length (c_log (p_tx s1)) + n) (c_log c))) s1, None)
      else match xstep e (Tx (Finalize b)) s with (s1, O_tx (RState m), _) => (s1, Some m) | (s1, _, _) => (s1, None) end
  | None => match xstep e (Tx (Finalize b)) s with (s1, O_tx (RState m), _) => (s1, Some m) | (s1, _, _) => (s1, None) end
  end.

(* transform::reply, handle/service.cpp:46-55, 57-66 *)
Definition no_data : Z := 0.
Definition first_reply : reply := mk_reply TPESVCERR 0 m_ok no_data.
(* complement::reply, handle/service.cpp:112-133, for a conversation 136-153: the transaction state isn't touched *)
Definition complement (conversation success : bool) (user data : Z) (r : reply) : reply :=
  mk_reply (if success then 0 else TPESVCFAIL) user (if conversation then r_state r else if success then m_ok else m_rollback) data.
Definition w_rstate (m : Z) (r : reply) : reply := mk_reply (r_code r) (r_user r) m (r_data r).
(* normalize_code, handle/service.h:101-125 *)
Definition normalize (r : reply) : reply := if (r_code r =? 0) && negb (r_state r =? m_ok) then mk_reply TPESVCERR (r_user r) (r_state r) (r_data r) else r.
(* execute_reply, handle/service.h:99-130, when it's executed by its destructor: one try *)
Definition reply_once (q : request) (fault : bool) (r : reply) : list served :=
  if q_noreply q || fault then [] else [V_reply (q_corr q) (normalize r)].
(* execute_reply(): if it raises the destructor tries again, execute.h:37-40, 53-60 *)
Definition reply_twice (q : request) (fl : faults) (r : reply) : list served :=
  if f_reply fl then reply_once q (f_again fl) r else reply_once q false r.
(* execute_finalize, handle/service.h:72-97 *)
Definition acknowledge (q : request) (fl : faults) (code : Z) : list served := if f_ack fl then [] else [V_ack (q_corr q) code].

(* an exception before the service is done: execute_error_reply (handle/service.h:136-139), execute_reply, execute_finalize, by their destructors *)
Definition gone_wrong (e : env) (q : request) (fl : faults) (s : proc) (out : list served) : proc * list served :=
  let '(s1, m) := finish e false (f_finalize fl) s in
  let r := match m with Some m => w_rstate m first_reply | None => first_reply end in
  (s1, out ++ reply_once q (f_reply fl) r ++ acknowledge q fl (r_code (if q_noreply q then r else normalize r))).
(* the service returned, handle/service.h:195-212: execute_transaction is tried again by its destructor if it raises *)
Definition gone_right (e : env) (q : request) (fl : faults) (r : reply) (s : proc) (out : list served) : proc * list served :=
  match finish e (r_state r =? m_ok) (f_finalize fl) s with
  | (s1, Some m) => let r1 := w_rstate m r in
                    (s1, out ++ reply_twice q fl r1 ++ acknowledge q fl (r_code (if q_noreply q then r1 else normalize r1)))
  | (s1, None) =>
      let '(s2, m) := finish e (r_state r =? m_ok) None s1 in
      let r1 := match m with Some m => w_rstate m r | None => r end in
      (s2, out ++ reply_once q (f_reply fl) r1 ++ acknowledge q fl (r_code (if q_noreply q then r1 else normalize r1)))
  end.
(* local::forward, policy.cpp:192-222; None: it raised *)
Definition forward (l : lookup) (s : proc) : proc * bool :=
  if owns (p_tx s) then (s, false)
  else let s1 := w_corr (p_next s + 1) s in (s1, match l with L_idle None => true | _ => false end).

(* handle::service::call, handle/service.h:55-213; basic_call::operator(), handle/call.h:74-91; Invoke, server/service.cpp:104-189 *)
Definition serve (e : env) (q : request) (us : list input) (fin : ending) (fl : faults) (s : proc) : proc * list served :=
  if negb (q_known q) then gone_wrong e q fl s []
  else
    match enter e (q_semantics q) (q_tid q) (f_enter fl) (p_tx s) with
    | (c1, Raised) => gone_wrong e q fl (w_tx c1 s) []
    | (c1, _) =>
        let s1 := w_tx c1 s in
        if q_conversation q && f_connect fl then gone_wrong e q fl s1 []
        else
          let out := (if q_conversation q then [V_connected (q_corr q)] else []) ++ [V_invoked (x_id (t_id (current c1))) (in_transaction s1)] in
          let '(s2, _) := xrun e us s1 in
          match fin with
          | E_none => gone_wrong e q fl s2 out
          | E_return success user data => gone_right e q fl (complement (q_conversation q) success user data first_reply) s2 out
          | E_forward data l =>
              match forward l s2 with
              | (s3, false) => gone_wrong e q fl s3 out
              | (s3, true) =>
                  let out1 := out ++ [V_forward (q_corr q) (q_tid q) (q_noreply q) data] in
                  match finish e true (f_finalize fl) s3 with
                  | (s4, Some _) => (s4, out1 ++ acknowledge q fl 0)
                  | (s4, None) => gone_wrong e q fl s4 out1
                  end
              end
          end
    end.

(* a server: its requests, and the replies that arrive between them *)
Inductive job := Serve (q : request) (us : list input) (fin : ending) (fl : faults) | Between (c : Z) (r : reply).
Definition sstep (e : env) (j : job) (s : proc) : proc * list served :=
  match j with Serve q us fin fl => serve e q us fin fl s | Between c r => (arrive c r s, []) end.
Fixpoint srun (e : env) (js : list job) (s : proc) : proc * list served :=
  match js with [] => (s, []) | j :: r => let '(s1, o1) := sstep e j s in let '(s2, o2) := srun e r s1 in (s2, o1 ++ o2) end.

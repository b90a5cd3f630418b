(* Model of the transaction context of a process: tx_begin, tx_commit, tx_rollback, tx_suspend, tx_resume, dynamic registration, the
   transactions a service is invoked in, and their completion.
   Source: /repo/middleware/common/source/transaction/context.cpp, transaction.cpp, include/common/transaction/{context,transaction}.h.

   Simplifications, all deliberate:
   - An XID is an integer, 0 is the null XID; an XID that is created here is the next value of a counter (a fresh UUID).  Processes,
     resources and correlations are integers.
   - A call to a resource manager is one event with an arbitrary code: that Resource::start, end, commit and rollback (resource.cpp) may
     reopen the resource and try again is part of the resource manager here.
   - Replies of the transaction manager are arbitrary.  Failures to communicate with it (exceptions) are not modelled.
   - std::partition (begin) may call the predicate in another order, and leave the resources in another order; here it is the order of the
     list.  The deadline of a transaction and logging are left out. *)
From Coq Require Import ZArith List Bool.
From Verif Require Import CodesModel.
Import ListNotations.
Local Open Scope Z_scope.

(* this process *)
Definition me : Z := 1.

(* transaction::ID: the XID and the owner. id.h:60-125 *)
Record tid := mk_tid { x_id : Z; x_own : Z }.
Definition null_tid : tid := mk_tid 0 0.
Definition is_null (t : tid) : bool := x_id t =? 0.

(* Transaction::State: TX_ACTIVE 0, TX_TIMEOUT_ROLLBACK_ONLY 1, TX_ROLLBACK_ONLY 2. transaction.h:28-33, casual/tx.h:31-33 *)
Definition active : Z := 0.
Definition timeout_only : Z := 1.
Definition rollback_only : Z := 2.

(* transaction::Transaction, transaction.h:24-115 *)
Record txn := mk_txn { t_id : tid; t_state : Z; t_inv : list Z; t_pend : list Z; t_dyn : list Z; t_ext : bool; t_susp : bool }.
Definition new_txn (t : tid) : txn := mk_txn t active [] [] [] false false.
Definition w_state x t := mk_txn (t_id t) x (t_inv t) (t_pend t) (t_dyn t) (t_ext t) (t_susp t).
Definition w_inv x t := mk_txn (t_id t) (t_state t) x (t_pend t) (t_dyn t) (t_ext t) (t_susp t).
Definition w_pend x t := mk_txn (t_id t) (t_state t) (t_inv t) x (t_dyn t) (t_ext t) (t_susp t).
Definition w_dyn x t := mk_txn (t_id t) (t_state t) (t_inv t) (t_pend t) x (t_ext t) (t_susp t).
Definition w_ext x t := mk_txn (t_id t) (t_state t) (t_inv t) (t_pend t) (t_dyn t) x (t_susp t).
Definition w_susp x t := mk_txn (t_id t) (t_state t) (t_inv t) (t_pend t) (t_dyn t) (t_ext t) x.

Definition mem (r : Z) (l : list Z) : bool := existsb (Z.eqb r) l.
(* algorithm::append_unique_value, algorithm.h:717-726 *)
Definition add_unique (r : Z) (l : list Z) : list Z := if mem r l then l else l ++ [r].
(* Transaction::involve, transaction.cpp:39-43, transaction.h:57-62 *)
Definition involve (rs : list Z) (t : txn) : txn := w_inv (fold_left (fun l r => add_unique r l) rs (t_inv t)) t.
(* Transaction::local, transaction.cpp:76-79 *)
Definition local (t : txn) : bool := (x_own (t_id t) =? me) && negb (t_ext t).
(* Transaction::associate, transaction.cpp:27-31 *)
Definition associate (corr : Z) (t : txn) : txn := w_pend (t_pend t ++ [corr]) (w_ext true t).
(* Transaction::replied, transaction.cpp:33-36 *)
Definition replied (corr : Z) (t : txn) : txn := w_pend (filter (fun c => negb (c =? corr)) (t_pend t)) t.

(* transaction::Control, commit::Return; context.h *)
Inductive control := Unchained | Chained | Stacked.
Inductive returns := Completed | LoggedOnly.

(* the flags the context uses, and the stage of a commit reply *)
Inductive xop := StartNew | StartJoin | StartResume | EndSuspend | EndSuccess | CommitOnePhase | RollbackRm.
Inductive cstage := SPrepare | SCommit | SRollback.

(* what the outside world sees *)
Inductive event :=
| Xa (op : xop) (r x : Z) (code : xa)                                  (* a call to a resource manager, and what it returned *)
| TmInvolved (x : Z) (rs known : list Z)                                (* synchronize: told the resources, the reply *)
| TmTold (x : Z) (rs : list Z)                                          (* send and forget *)
| TmCommit (x : Z) (rs : list Z) (st : cstage) (code : tx)              (* commit request, and the first reply *)
| TmFinal (x : Z) (code : tx)                                           (* the awaited second reply *)
| TmDiscard (x : Z)                                                     (* the second reply is discarded *)
| TmRollback (x : Z) (rs : list Z) (code : tx)
| Discard (corr : Z).                                                   (* a pending service reply is discarded *)

(* the resource managers and the transaction manager: any functions of what has happened *)
Record env := mk_env { e_xa : list event -> xa; e_known : list event -> list Z; e_tm : list event -> cstage * tx; e_code : list event -> tx }.

(* transaction::Context, context.h; m_resources.all is dynamic ++ fixed *)
Record ctx := mk_ctx { c_txs : list txn; c_empty : txn; c_ctl : control; c_ret : returns; c_dynamic : list Z; c_fixed : list Z; c_next : Z; c_log : list event }.
Definition init (dynamic fixed : list Z) : ctx := mk_ctx [] (new_txn null_tid) Unchained Completed dynamic fixed 1 [].

Definition w_txs x c := mk_ctx x (c_empty c) (c_ctl c) (c_ret c) (c_dynamic c) (c_fixed c) (c_next c) (c_log c).
Definition w_empty x c := mk_ctx (c_txs c) x (c_ctl c) (c_ret c) (c_dynamic c) (c_fixed c) (c_next c) (c_log c).
Definition w_ctl x c := mk_ctx (c_txs c) (c_empty c) x (c_ret c) (c_dynamic c) (c_fixed c) (c_next c) (c_log c).
Definition w_ret x c := mk_ctx (c_txs c) (c_empty c) (c_ctl c) x (c_dynamic c) (c_fixed c) (c_next c) (c_log c).
Definition w_fixed x c := mk_ctx (c_txs c) (c_empty c) (c_ctl c) (c_ret c) (c_dynamic c) x (c_next c) (c_log c).
Definition w_next x c := mk_ctx (c_txs c) (c_empty c) (c_ctl c) (c_ret c) (c_dynamic c) (c_fixed c) x (c_log c).
Definition log (e : event) c := mk_ctx (c_txs c) (c_empty c) (c_ctl c) (c_ret c) (c_dynamic c) (c_fixed c) (c_next c) (c_log c ++ [e]).
Definition all (c : ctx) : list Z := c_dynamic c ++ c_fixed c.

(* the last element of the vector *)
Definition split_last {A} (l : list A) : option (list A * A) := match rev l with [] => None | x :: r => Some (rev r, x) end.

(* Context::current, context.cpp:94-100 *)
Definition current (c : ctx) : txn :=
  match split_last (c_txs c) with Some (_, t) => if t_susp t then c_empty c else t | None => c_empty c end.
(* a modification through the reference that current() returns *)
Definition set_current (t : txn) (c : ctx) : ctx :=
  match split_last (c_txs c) with
  | Some (l, u) => if t_susp u then w_empty t c else w_txs (l ++ [t]) c
  | None => w_empty t c
  end.

Definition rm (e : env) (op : xop) (r x : Z) (c : ctx) : ctx * xa := let k := e_xa e (c_log c) in (log (Xa op r x k) c, k).

(* accumulate over the resources of the transaction that are among [rs]: resources::start::policy::start 354-364, ::end::policy::end 417-425 *)
Fixpoint over (e : env) (op : xop) (x : Z) (ids rs : list Z) (code : tx) (c : ctx) : ctx * tx :=
  match ids with
  | [] => (c, code)
  | r :: q => if mem r rs then let '(c1, k) := rm e op r x c in over e op x q rs (tx_add code (to_tx k)) c1
              else over e op x q rs (tx_add code tx_ok) c
  end.

(* resources::end::invoke with policy suspend or success, context.cpp:407-445 *)
Definition end_all (e : env) (op : xop) (t : txn) (c : ctx) : ctx * tx :=
  match all c with [] => (c, tx_ok) | rs => over e op (x_id (t_id t)) (t_inv t) rs tx_ok c end.

(* resources::start::invoke with policy start or resume: involve, then start; context.cpp:320-331, 353-364, 367-373, 387-394 *)
Definition start_these (e : env) (op : xop) (t : txn) (rs : list Z) (c : ctx) : ctx * txn * tx :=
  match rs with
  | [] => (c, t, tx_ok)
  | _ => let t1 := involve rs t in
         let '(c1, code) := over e op (x_id (t_id t1)) (t_inv t1) rs tx_ok c in (c1, t1, code)
  end.

(* policy::join, context.cpp:337-350 *)
Fixpoint join_each (e : env) (x : Z) (known rs : list Z) (code : tx) (c : ctx) : ctx * tx :=
  match rs with
  | [] => (c, code)
  | r :: q => let '(c1, k) := rm e (if mem r known then StartJoin else StartNew) r x c in join_each e x known q (tx_add code (to_tx k)) c1
  end.
Definition join_these (e : env) (t : txn) (rs : list Z) (c : ctx) : ctx * txn * tx :=
  match rs with
  | [] => (c, t, tx_ok)
  | _ => let x := x_id (t_id t) in
         let known := e_known e (c_log c) in
         let '(c1, code) := join_each e x known rs tx_ok (log (TmInvolved x rs known) c) in
         (c1, involve rs t, code)
  end.

(* the outcome of a call; [Raised]: an exception leaves the function *)
Inductive result := RTx (c : tx) | RState (s : Z) | RInfo (inside : bool) (x s : Z) | RAx (v : Z) | RDone | Raised.
Definition ax_ok : Z := 0.
Definition ax_join : Z := 2.
Definition ax_protocol : Z := -3.

(* begin: try to start every fixed resource; those that answer ok or read-only. 725-734 *)
Fixpoint try_start (e : env) (x : Z) (rs : list Z) (c : ctx) : ctx * list Z * list Z :=
  match rs with
  | [] => (c, [], [])
  | r :: q =>
      let '(c1, k) := rm e StartNew r x c in
      let '(c2, good, bad) := try_start e x q c1 in
      match k with xa_ok | read_only => (c2, r :: good, bad) | _ => (c2, good, r :: bad) end
  end.
Fixpoint end_each (e : env) (x : Z) (rs : list Z) (c : ctx) : ctx :=
  match rs with [] => c | r :: q => end_each e x q (fst (rm e EndSuccess r x c)) end.

(* Context::begin, context.cpp:700-751 *)
Definition begin_new (e : env) (c : ctx) : ctx * tx :=
  let x := c_next c in
  let '(c1, good, bad) := try_start e x (c_fixed c) (w_next (x + 1) c) in
  match bad with
  | _ :: _ => (w_fixed (good ++ bad) (end_each e x good c1), tx_error)
  | [] => (w_txs (c_txs c1 ++ [involve (c_fixed c) (new_txn (mk_tid x me))]) c1, tx_ok)
  end.
Definition begin (e : env) (c : ctx) : ctx * tx :=
  let t := current c in
  if negb (is_null (t_id t)) then
    match c_ctl c with
    | Stacked => let '(c1, code) := end_all e EndSuspend t c in if tx_eqb code tx_ok then begin_new e c1 else (c1, code)
    | _ => (c, tx_protocol)
    end
  else match t_dyn t with [] => begin_new e c | _ => (c, tx_outside) end.

(* Context::resource_commit, resource_rollback; context.cpp:1133-1155 *)
Definition rm_commit (e : env) (r : Z) (t : txn) (c : ctx) : ctx * tx :=
  if mem r (all c) then let '(c1, k) := rm e CommitOnePhase r (x_id (t_id t)) c in (c1, to_tx k) else (c, tx_error).
Definition rm_rollback (e : env) (r : Z) (t : txn) (c : ctx) : ctx * tx :=
  if mem r (all c) then let '(c1, k) := rm e RollbackRm r (x_id (t_id t)) c in (c1, to_tx k) else (c, tx_error).

(* Context::commit( const Transaction&), context.cpp:823-898 *)
Definition commit_tx (e : env) (t : txn) (c : ctx) : ctx * tx :=
  let '(c1, code) := end_all e EndSuccess t c in
  if negb (tx_eqb code tx_ok) then (c1, code)
  else
    if local t && Nat.leb (length (t_inv t)) 1 then
      match t_inv t with
      | r :: _ => rm_commit e r t c1
      | [] => (c1, tx_ok)
      end
    else
      let x := x_id (t_id t) in
      let '(st, k) := e_tm e (c_log c1) in
      let c2 := log (TmCommit x (t_inv t) st k) c1 in
      match st with
      | SPrepare => match c_ret c2 with
                    | LoggedOnly => (log (TmDiscard x) c2, k)
                    | Completed => let f := e_code e (c_log c2) in (log (TmFinal x f) c2, f)
                    end
      | SCommit => (c2, k)
      | SRollback => (c2, tx_rollback)
      end.

(* Context::rollback( const Transaction&), context.cpp:914-959; the ids are sorted and made unique: the order here is ascending *)
Fixpoint insert (r : Z) (l : list Z) : list Z :=
  match l with [] => [r] | x :: q => if r <? x then r :: l else if r =? x then l else x :: insert r q end.
Definition sort_unique (l : list Z) : list Z := fold_right insert [] l.
Fixpoint rollback_each (e : env) (t : txn) (rs : list Z) (code : tx) (c : ctx) : ctx * tx :=
  match rs with
  | [] => (c, code)
  | r :: q => let '(c1, k) := rm_rollback e r t c in rollback_each e t q (tx_add code k) c1
  end.
Definition rollback_tx (e : env) (t : txn) (c : ctx) : ctx * tx :=
  let '(c1, code) := end_all e EndSuccess t c in
  if negb (tx_eqb code tx_ok) then (c1, code)
  else if local t then rollback_each e t (sort_unique (t_inv t ++ c_fixed c1)) tx_ok c1
  else let k := e_code e (c_log c1) in (log (TmRollback (x_id (t_id t)) (t_inv t) k) c1, k).

(* Context::control_continuation, context.cpp:1157-1180 *)
Definition continuation (e : env) (code : tx) (c : ctx) : ctx * tx :=
  match c_ctl c with
  | Unchained => (c, code)
  | Chained => let '(c1, k) := begin e c in (c1, tx_add code k)
  | Stacked =>
      let t := current c in
      if is_null (t_id t) then (c, code)
      else let '(c1, t1, k) := start_these e StartResume t (all c) c in (set_current t1 c1, tx_add code k)
  end.

(* precondition::commit, ::rollback; context.cpp:781-815 *)
Definition may_commit (t : txn) : bool :=
  negb (is_null (t_id t)) && (x_own (t_id t) =? me) && (t_state t =? active) && match t_pend t with [] => true | _ => false end.
Definition may_rollback (t : txn) : bool := negb (is_null (t_id t)) && (x_own (t_id t) =? me).

(* Context::commit(), 900-912; Context::rollback(), 961-972 *)
Definition commit (e : env) (c : ctx) : ctx * tx :=
  if may_commit (current c) then
    match split_last (c_txs c) with
    | Some (l, t) => let '(c1, code) := commit_tx e t (w_txs l c) in continuation e code c1
    | None => (c, tx_protocol)      (* cannot be: current() is not null *)
    end
  else (c, tx_protocol).
Definition rollback (e : env) (c : ctx) : ctx * tx :=
  if may_rollback (current c) then
    match split_last (c_txs c) with
    | Some (l, t) => let '(c1, code) := rollback_tx e t (w_txs l c) in continuation e code c1
    | None => (c, tx_protocol)
    end
  else (c, tx_protocol).

(* Context::suspend, context.cpp:1056-1081; [given]: the pointer is not null *)
Definition suspend (e : env) (given : bool) (c : ctx) : ctx * tx :=
  if negb given then (c, tx_argument)
  else let t := current c in
       if is_null (t_id t) then (c, tx_protocol)
       else let t1 := w_susp true t in
            let '(c1, code) := end_all e EndSuspend t1 (set_current t1 c) in
            if tx_eqb code tx_ok then (c1, tx_ok) else (c1, tx_protocol).

(* the first transaction with the XID, what is before and after it *)
Fixpoint split_at (x : Z) (l : list txn) : option (list txn * txn * list txn) :=
  match l with
  | [] => None
  | t :: r => if x_id (t_id t) =? x then Some ([], t, r)
              else match split_at x r with Some (a, u, b) => Some (t :: a, u, b) | None => None end
  end.

(* Context::resume, context.cpp:1083-1116; None: the pointer is null *)
Definition resume (e : env) (given : option Z) (c : ctx) : ctx * tx :=
  match given with
  | None => (c, tx_argument)
  | Some x =>
      let cur := current c in
      if x =? 0 then (c, tx_argument)
      else if negb (is_null (t_id cur)) && negb (t_susp cur) then (c, tx_protocol)
      else match t_dyn cur with
           | _ :: _ => (c, tx_outside)
           | [] =>
               match split_at x (c_txs c) with
               | None => (c, tx_argument)
               | Some (a, t, b) =>
                   if negb (t_susp t) then (c, tx_protocol)
                   else let '(c1, t1, code) := start_these e StartResume (w_susp false t) (c_fixed c) c in
                        if tx_eqb code tx_ok then (w_txs (b ++ a ++ [t1]) c1, tx_ok)
                        else (w_txs (a ++ t1 :: b) c1, tx_argument)
               end
           end
  end.

(* Context::join 451-464, start 466-479, branch 481-494: a service is invoked; start is used when it is auto and there is no transaction *)
Definition join (e : env) (t : tid) (c : ctx) : ctx * result :=
  if is_null t then (w_txs (c_txs c ++ [new_txn t]) c, RDone)
  else let '(c1, t1, code) := join_these e (new_txn t) (c_fixed c) c in
       (w_txs (c_txs c1 ++ [t1]) c1, if tx_eqb code tx_ok then RDone else Raised).
Definition start (e : env) (c : ctx) : ctx * result :=
  let x := c_next c in
  let '(c1, t1, code) := start_these e StartNew (new_txn (mk_tid x me)) (c_fixed c) (w_next (x + 1) c) in
  if tx_eqb code tx_ok then (w_txs (c_txs c1 ++ [t1]) c1, RDone) else (c1, Raised).
Definition branch (e : env) (t : tid) (c : ctx) : ctx * result :=
  if is_null t then (w_txs (c_txs c ++ [new_txn t]) c, RDone)
  else
    let x := c_next c in
    let c0 := w_next (x + 1) c in
    let c0' := match c_fixed c with [] => c0 | rs => log (TmTold x rs) c0 end in
    let '(c1, t1, code) := start_these e StartNew (new_txn (mk_tid x (x_own t))) (c_fixed c) c0' in
    (w_txs (c_txs c1 ++ [t1]) c1, if tx_eqb code tx_ok then RDone else Raised).

(* Context::update, context.cpp:497-510; Transaction::State( reply.transaction_state) is a cast of the message's values *)
Fixpoint update_first (corr s : Z) (l : list txn) : list txn :=
  match l with
  | [] => []
  | t :: r => if mem corr (t_pend t) then replied corr (if t_state t <? s then w_state s t else t) :: r else t :: update_first corr s r
  end.

(* message::service::transaction::State, message/service.h:73-79; operator + is the maximum *)
Definition m_ok : Z := 0.
Definition m_rollback : Z := 1.
Definition m_timeout : Z := 2.
Definition m_error : Z := 3.

(* the lambda transform_state, context.cpp:565-588 *)
Definition state_of_txn (s : Z) : Z := if s =? active then m_ok else if s =? rollback_only then m_rollback else if s =? timeout_only then m_timeout else m_error.
Definition state_of_code (c : tx) : Z := if tx_eqb c tx_ok then m_ok else if tx_eqb c tx_rollback then m_rollback else m_error.

(* Context::finalize, context.cpp:523-637 *)
Fixpoint pending_check (ts : list txn) (r : Z) (c : ctx) : ctx * Z :=
  match ts with
  | [] => (c, r)
  | t :: q => match t_pend t with
              | [] => pending_check q r c
              | ps => pending_check q (if is_null (t_id t) then r else m_error) (fold_left (fun c p => log (Discard p) c) ps c)
              end
  end.
Definition owned (t : txn) : bool := x_own (t_id t) =? me.
Fixpoint complete_each (e : env) (do_commit : bool) (ts : list txn) (code : tx) (c : ctx) : ctx * tx :=
  match ts with
  | [] => (c, code)
  | t :: q => let '(c1, k) := if do_commit && (t_state t =? active) then commit_tx e t c else rollback_tx e t c in
              complete_each e do_commit q (tx_add code k) c1
  end.
Definition finalize (e : env) (do_commit : bool) (c : ctx) : ctx * Z :=
  let ts := c_txs c in
  let '(c1, r1) := pending_check ts m_ok (w_txs [] c) in
  let act := filter (fun t => negb (is_null (t_id t))) ts in
  let mine := filter owned act in
  let others := filter (fun t => negb (owned t)) act in
  let '(c2, code) := complete_each e do_commit mine tx_ok c1 in
  match others with
  | [] => (c2, Z.max r1 (state_of_code code))
  | t :: _ =>
      let r2 := Z.max r1 (state_of_txn (t_state t)) in
      let r3 := if negb do_commit && (r2 =? m_ok) then Z.max r2 m_rollback else r2 in
      let '(c3, k) := end_all e EndSuccess t c2 in
      (c3, Z.max r3 (state_of_code (tx_add code k)))
  end.

(* Context::resource_registration, context.cpp:639-677 *)
Definition register (e : env) (r : Z) (c : ctx) : ctx * result :=
  if negb (mem r (c_dynamic c)) then (c, Raised)
  else let t := current c in
       if mem r (t_dyn t) then (c, Raised)
       else let t1 := w_dyn (t_dyn t ++ [r]) t in
            if is_null (t_id t) then (set_current t1 c, RAx ax_ok)
            else if mem r (t_inv t1) then (set_current t1 c, RAx ax_join)
            else let t2 := involve [r] t1 in
                 if local t2 then (set_current t2 c, RAx ax_ok)
                 else let known := e_known e (c_log c) in
                      (set_current t2 (log (TmInvolved (x_id (t_id t2)) [r] known) c), RAx (if mem r known then ax_join else ax_ok)).

(* Context::resource_unregistration, context.cpp:680-692; Transaction::disassociate_dynamic *)
Fixpoint erase_first (r : Z) (l : list Z) : list Z := match l with [] => [] | x :: q => if x =? r then q else x :: erase_first r q end.
Definition unregister (r : Z) (c : ctx) : ctx * result :=
  let t := current c in
  if negb (is_null (t_id t)) then (c, RAx ax_protocol)
  else if mem r (t_dyn t) then (set_current (w_dyn (erase_first r (t_dyn t)) t) c, RAx ax_ok)
  else (c, RAx ax_protocol).

Inductive call :=
| Begin | Commit | Rollback | Suspend (given : bool) | Resume (x : option Z)
| SetControl (m : control) | SetReturn (m : returns) | Info
| ServiceCall (corr : Z)            (* call::Context: an asynchronous call in the current transaction; service/call/context.cpp:130-134 *)
| Reply (corr : Z) (s : Z)          (* its reply, with the state of the transaction at the callee *)
| External                          (* the queue api, when the transaction takes part in a queue operation; queue/source/api/queue.cpp *)
| Register (r : Z) | Unregister (r : Z)
| Join (t : tid) | Start | Branch (t : tid) | Finalize (do_commit : bool).

(* Context::info, context.cpp:1005-1018 *)
Definition info (c : ctx) : result := let t := current c in RInfo (negb (is_null (t_id t))) (x_id (t_id t)) (t_state t).

Definition tx_result (p : ctx * tx) : ctx * result := (fst p, RTx (snd p)).

Definition step (e : env) (i : call) (c : ctx) : ctx * result :=
  match i with
  | Begin => tx_result (begin e c)
  | Commit => tx_result (commit e c)
  | Rollback => tx_result (rollback e c)
  | Suspend given => tx_result (suspend e given c)
  | Resume x => tx_result (resume e x c)
  | SetControl m => (w_ctl m c, RTx tx_ok)
  | SetReturn m => (w_ret m c, RTx tx_ok)
  | Info => (c, info c)
  | ServiceCall corr => let t := current c in (if is_null (t_id t) then c else set_current (associate corr t) c, RDone)
  | Reply corr s => (w_txs (update_first corr s (c_txs c)) c, RDone)
  | External => let t := current c in (if is_null (t_id t) then c else set_current (w_ext true t) c, RDone)
  | Register r => register e r c
  | Unregister r => unregister r c
  | Join t => join e t c
  | Start => start e c
  | Branch t => branch e t c
  | Finalize b => let '(c1, s) := finalize e b c in (c1, RState s)
  end.

(* a sequence of calls, with what they returned *)
Fixpoint run (e : env) (is : list call) (c : ctx) : ctx * list (call * result) :=
  match is with
  | [] => (c, [])
  | i :: q => let '(c1, r) := step e i c in let '(c2, h) := run e q c1 in (c2, (i, r) :: h)
  end.

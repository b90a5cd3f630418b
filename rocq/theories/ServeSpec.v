(* C63, C64: what can be seen of how a server handles a request. *)
From Coq Require Import ZArith List Bool.
From Verif Require Import CodesModel CtxModel CallModel ServeModel.
Import ListNotations.
Local Open Scope Z_scope.

(* the answers of a request: a reply to the caller, or the request given to another server *)
Definition answers (l : list served) : list served := filter (fun v => match v with V_reply _ _ | V_forward _ _ _ _ => true | _ => false end) l.
Definition acks (l : list served) : list served := filter (fun v => match v with V_ack _ _ => true | _ => false end) l.
Definition replied_to (l : list served) : Prop := exists c r, In (V_reply c r) l.
Definition invoked (l : list served) : Prop := exists x f, In (V_invoked x f) l.

(* what a service routine may call: not what the server does around it *)
Definition user_input (i : input) : Prop := match i with Tx (Join _) | Tx Start | Tx (Branch _) | Tx (Finalize _) => False | _ => True end.
Definition user_job (j : job) : Prop := match j with Serve _ us _ _ => Forall user_input us | Between _ _ => True end.

(* the transaction that the service is to be invoked in: that of the caller, one that doesn't exist yet (fresh), or none (0) *)
Definition wanted (y : semantics) (t : tid) (fresh : Z) : Z :=
  match y with
  | Automatic => if x_id t =? 0 then fresh else x_id t
  | NewBranch => fresh
  | JoinOnly => x_id t
  | Atomic => fresh
  | NoTransaction => 0
  end.
(* the service is part of the transaction of the caller, or of a branch of it *)
Definition takes_part (q : request) : Prop := x_id (q_tid q) <> 0 /\ (q_semantics q = Automatic \/ q_semantics q = JoinOnly \/ q_semantics q = NewBranch).
(* the server has a transaction of its own around the service *)
Definition own_around (q : request) : Prop := q_semantics q = Atomic \/ x_id (q_tid q) = 0 /\ (q_semantics q = Automatic \/ q_semantics q = NewBranch).

(* what the reply says about what the routine returned *)
Definition says (success : bool) (user data : Z) (r : reply) : Prop :=
  r_user r = user /\ r_data r = data /\ if success then (r_code r = 0 /\ r_state r = m_ok) \/ (r_code r = TPESVCERR /\ r_state r <> m_ok) else r_code r = TPESVCFAIL.

(* the process when the routine has ended *)
Definition routine_end (e : env) (q : request) (us : list input) (fl : faults) (s : proc) : proc :=
  fst (xrun e us (w_tx (fst (enter e (q_semantics q) (q_tid q) (f_enter fl) (p_tx s))) s)).
(* the transaction, at the end of the routine *)
Definition holds (s : proc) (t : txn) : Prop := In t (c_txs (p_tx s)) /\ x_id (t_id t) <> 0.
(* what the transaction manager and the resource managers have seen between *)
Definition seen (s s' : proc) (l : list CtxModel.event) : Prop := c_log (p_tx s') = c_log (p_tx s) ++ l.

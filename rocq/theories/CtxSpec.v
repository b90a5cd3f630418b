(* What the properties of the transaction context say *)
From Coq Require Import ZArith List Bool.
From Verif Require Import CodesModel CtxModel.
Import ListNotations.
Local Open Scope Z_scope.

(* a process with these resources has made these calls *)
Definition reach (e : env) (dynamic fixed : list Z) (c : ctx) : Prop := exists is, fst (run e is (init dynamic fixed)) = c.

(* the XIDs of the transactions the process has, in the order of the context; 0 for a service that was invoked without one *)
Definition held (c : ctx) : list Z := map (fun t => x_id (t_id t)) (c_txs c).
(* what tx_info shows: the XID of the transaction the process is in, 0 if it is in none *)
Definition in_tx (c : ctx) : Z := match info c with RInfo true x _ => x | _ => 0 end.

(* the transaction the process is in, if it is one that may be committed / rolled back *)
Definition at_end (c : ctx) (t : txn) : Prop := exists l, c_txs c = l ++ [t] /\ t_susp t = false /\ x_id (t_id t) <> 0.
Definition committable (c : ctx) (t : txn) : Prop := at_end c t /\ x_own (t_id t) = me /\ t_state t = active /\ t_pend t = [].
Definition rollbackable (c : ctx) (t : txn) : Prop := at_end c t /\ x_own (t_id t) = me.

(* a transaction the process has, that is suspended *)
Definition suspended (c : ctx) (x : Z) : Prop := exists a t b, c_txs c = a ++ t :: b /\ x_id (t_id t) = x /\ t_susp t = true /\ (forall u, In u a -> x_id (t_id u) <> x).

(* ------------------------------------------------------------------ what a resource manager sees (XA, chapter 6) *)

(* the association of the process with the transaction branch, for one resource and one XID *)
Inductive assoc := NotAssociated | Associated | AssociationSuspended | Ended | Settled | Illegal.
Definition legal (a : assoc) (op : xop) : assoc :=
  match a, op with
  | NotAssociated, (StartNew | StartJoin) => Associated
  | Associated, EndSuspend => AssociationSuspended
  | AssociationSuspended, StartResume => Associated
  | (Associated | AssociationSuspended), EndSuccess => Ended
  | Ended, (CommitOnePhase | RollbackRm) => Settled
  | Ended, (StartNew | StartJoin) => Associated      (* another service invocation in the same transaction; a duplicate is joined, resource.cpp:95-103 *)
  | _, _ => Illegal
  end.
Definition assoc_of (r x : Z) (l : list event) : assoc :=
  fold_left (fun a e => match e with Xa op r' x' _ => if (r' =? r) && (x' =? x) then legal a op else a | _ => a end) l NotAssociated.

(* ------------------------------------------------------------------ nothing is lost *)

(* how the transactions of the process change with a call *)
Definition accounted (i : call) (c c' : ctx) : Prop :=
  match i with
  | Begin | Start | Join _ | Branch _ => exists new, held c' = held c ++ new /\ (length new <= 1)%nat
  | Commit =>
      (forall t, committable c t -> exists new, held c = removelast (held c) ++ [x_id (t_id t)] /\ held c' = removelast (held c) ++ new /\ (new = [] \/ c_ctl c = Chained /\ length new = 1%nat)) /\
      ((forall t, ~ committable c t) -> c' = c)
  | Rollback =>
      (forall t, rollbackable c t -> exists new, held c = removelast (held c) ++ [x_id (t_id t)] /\ held c' = removelast (held c) ++ new /\ (new = [] \/ c_ctl c = Chained /\ length new = 1%nat)) /\
      ((forall t, ~ rollbackable c t) -> c' = c)
  | Resume _ => exists a b, held c = a ++ b /\ (held c' = a ++ b \/ exists x a', a = a' ++ [x] /\ held c' = b ++ a' ++ [x])
  | Finalize _ => held c' = []
  | _ => held c' = held c
  end.

(* ------------------------------------------------------------------ for what a resource manager sees *)

(* the resource managers answer XA_OK or XA_RDONLY *)
Definition rms_agree (e : env) : Prop := forall l, e_xa e l = xa_ok \/ e_xa e l = read_only.
(* a service is invoked in a process that is not in the middle of something, with a transaction of another process (whose XIDs are negative
   here, those created in this process are positive) or with none; the transaction control is not changed *)
Definition in_order (i : call) (c : ctx) : Prop :=
  match i with
  | SetControl _ => False
  | Join t => held c = [] /\ (x_id t = 0 \/ (x_id t < 0 /\ x_own t <> me))
  | Start => held c = []
  | Branch t => held c = [] /\ x_own t <> me
  | _ => True
  end.
Fixpoint all_in_order (e : env) (is : list call) (c : ctx) : Prop :=
  match is with [] => True | i :: q => in_order i c /\ all_in_order e q (fst (step e i c)) end.

(* ------------------------------------------------------------------ completion *)

(* [r] is asked, directly or through the transaction manager, to commit (roll back) its part of [x] *)
Definition commits (x r : Z) (ev : event) : Prop := (exists k, ev = Xa CommitOnePhase r x k) \/ exists rs st k, ev = TmCommit x rs st k /\ In r rs.
Definition rolls_back (x r : Z) (ev : event) : Prop := (exists k, ev = Xa RollbackRm r x k) \/ exists rs k, ev = TmRollback x rs k /\ In r rs.
(* [ev] asks anyone to commit (roll back) [x] *)
Definition some_commit (x : Z) (ev : event) : Prop := (exists r k, ev = Xa CommitOnePhase r x k) \/ exists rs st k, ev = TmCommit x rs st k.
Definition some_rollback (x : Z) (ev : event) : Prop := (exists r k, ev = Xa RollbackRm r x k) \/ exists rs k, ev = TmRollback x rs k.

(* what happened between two contexts *)
Definition since (c c' : ctx) (evs : list event) : Prop := c_log c' = c_log c ++ evs.

(* tx_commit of [t] may say TX_OK: there was nothing to do, its only resource committed (or had nothing to do), or the transaction manager said
   so, finally or, when the process does not want to wait for that, when the decision was logged *)
Definition backed (c : ctx) (t : txn) (evs : list event) : Prop :=
  let x := x_id (t_id t) in
  (t_inv t = [] /\ t_ext t = false) \/
  (exists r k, t_inv t = [r] /\ In (Xa CommitOnePhase r x k) evs /\ (k = xa_ok \/ k = read_only)) \/
  In (TmCommit x (t_inv t) SCommit tx_ok) evs \/
  (exists k, In (TmCommit x (t_inv t) SPrepare k) evs /\ In (TmFinal x tx_ok) evs) \/
  (c_ret c = LoggedOnly /\ In (TmCommit x (t_inv t) SPrepare tx_ok) evs).

(* why someone is asked to commit [x] *)
Definition commit_cause (i : call) (c : ctx) (x : Z) : Prop :=
  (i = Commit /\ exists t, committable c t /\ x_id (t_id t) = x) \/
  (i = Finalize true /\ exists t, In t (c_txs c) /\ x_own (t_id t) = me /\ t_state t = active /\ x_id (t_id t) = x).

(* a transaction that must be rolled back; it is not one that is created later *)
Definition doomed (x : Z) (c : ctx) : Prop := x < c_next c /\ (forall t, In t (c_txs c) -> x_id (t_id t) = x -> active < t_state t).
(* the process is not invoked in [x] *)
Definition not_joined (x : Z) (i : call) : Prop := match i with Join t => x_id t <> x | _ => True end.

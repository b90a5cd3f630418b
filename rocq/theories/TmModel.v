(* Model of the transaction manager's coordination: user and external commit/rollback/prepare requests, resource replies, process
   failures, and the persistent replies.
   Source: /repo/middleware/transaction/source/manager/handle.cpp, state.cpp, log.cpp, include/transaction/manager/state.h.

   Simplifications, all deliberate:
   - A global transaction id, a branch id, a process id and an ipc address are integers.  A correlation of a request made by the
     manager is the next value of a counter (a fresh UUID in the code).
   - A request to a resource is an action [Ask].  How it gets there (an idle proxy instance, the queue of pending requests, an
     external process, or an emulated XAER_RMFAIL reply) is not modelled here; the reply, if any, is an input [IReply].  A lost
     reply is an input that never comes.
   - The exit of a local resource proxy has no effect on the coordination (handle.cpp:1138-1142) and is no input.
   - Statistics, events to other managers other than the removal, configuration and the admin interface are left out. *)
From Coq Require Import ZArith List Bool.
From Verif Require Import CodesModel FanModel.
From Verif Require GroupModel.
Import ListNotations.
Local Open Scope Z_scope.

(* common::transaction::ID: global part, branch part, pid of the owner. common/transaction/id.h:60-125 *)
Record trid := mk_t { t_g : Z; t_b : Z; t_own : Z }.
(* the comparison of ids compares the XIDs, not the owner. id.h:102, xa.cpp *)
Definition same_xid (a b : trid) : bool := (t_g a =? t_g b) && (t_b a =? t_b b).

(* process::Handle *)
Record proc := mk_proc { p_pid : Z; p_ipc : Z }.
Definition self : proc := mk_proc 0 0.
Definition same_proc (a b : proc) : bool := (p_pid a =? p_pid b) && (p_ipc a =? p_ipc b).

(* transaction::Branch, state.h:205-239 *)
Record branch := mk_b { b_trid : trid; b_res : list Z }.

(* transaction::Stage, state.h:241-249 *)
Inductive stage := Involved | Prepare | PostPrepare | Commit | Rollback.
Definition stage_n (s : stage) : Z := match s with Involved => 0 | Prepare => 1 | PostPrepare => 2 | Commit => 3 | Rollback => 4 end.

(* state::Machine::operator =, state/machine.h:24-30: the value can only increase *)
Definition advance (wanted current : stage) : stage := if stage_n current <? stage_n wanted then wanted else current.

(* state::Transaction, state.h:253-312; the member owner is never read *)
Record txn := mk_x { x_g : Z; x_branches : list branch; x_stage : stage }.

(* the three kinds of requests to a resource *)
Inductive kind := KPrepare | KCommit | KRollback.

(* what a coordination is going to reply: commit::Reply, rollback::Reply (to a user), resource::prepare/commit/rollback::Reply
   (to another transaction manager) *)
Inductive rkind := UserCommit | UserRollback | ResPrepare | ResCommit | ResRollback.

(* coordinate::Destination, handle.cpp:380-386 *)
Record dest := mk_d { d_proc : proc; d_corr : Z; d_res : Z }.

(* what a callback has captured *)
Record call := mk_c { c_reply : rkind; c_origin : trid; c_dest : dest; c_code : xa }.

(* a reply from a resource *)
Record vote := mk_v { v_trid : trid; v_rid : Z; v_code : xa }.

(* a reply of the manager; [a_stage]: only in commit::Reply *)
Inductive rcode := Tx (c : tx) | Xa (c : xa).
Record answer := mk_a { a_to : proc; a_corr : Z; a_kind : rkind; a_trid : trid; a_stage : option stage; a_code : rcode }.

Inductive action :=
| Ask (k : kind) (c : Z) (t : trid) (r : Z) (one_phase : bool)      (* a request to a resource *)
| Answer (a : answer)                                               (* a reply of the manager *)
| Tell (to : proc) (corr : Z) (rs : list Z)                         (* resource::involved::Reply *)
| BranchIs (to : proc) (corr : Z) (t : trid)                        (* inbound::branch::Reply *)
| Logged (g : Z) (rs : list (Z * Z))                                 (* Log::prepare: the rows that are inserted *)
| Persisted (rows : list (Z * Z))                                   (* Log::persist; what is on disk then *)
| Removed (g : Z)                                                   (* the transaction is forgotten *)
| GaveUp (k : kind) (id : Z).                                       (* requests of that kind to that resource are given up *)

Inductive input :=
| ICommit (p : proc) (corr : Z) (t : trid) (involved : list Z)
| IRollback (p : proc) (corr : Z) (t : trid) (involved : list Z)
| IInvolved (p : proc) (corr : Z) (t : trid) (involved : list Z) (reply : bool)
| IReply (k : kind) (c : Z) (v : vote)
| IExtInstance (p : proc)
| IExtInvolved (p : proc) (t : trid)
| IExtPrepare (p : proc) (corr : Z) (t : trid) (r : Z)
| IExtCommit (p : proc) (corr : Z) (t : trid) (r : Z)
| IExtRollback (p : proc) (corr : Z) (t : trid) (r : Z)
| IInbound (p : proc) (corr : Z) (g : Z) (b : Z) (own : Z)
| IExit (pid : Z)
| IDestroyed (ipc : Z)
| IIdle.

(* state::State: transactions, coordinate, persistent.replies, persistent.log, resources (their ids), externals *)
Record tm := mk_s {
  s_txs : list txn;
  s_p : fan vote call; s_c : fan vote call; s_r : fan vote call;
  s_replies : list answer;
  s_log : list (Z * Z);        (* rows (gtrid, bqual) in the open sqlite transaction *)
  s_disk : list (Z * Z);       (* rows that survive a crash *)
  s_known : list Z;            (* configured resources *)
  s_ext : list (proc * Z);     (* externals: process and id *)
  s_extid : Z;                 (* allocate_id, state.cpp:151-156 *)
  s_next : Z                   (* next correlation *)
}.

Definition init (known : list Z) : tm := mk_s [] fan_empty fan_empty fan_empty [] [] [] known [] 0 1.

Definition w_txs x s := mk_s x (s_p s) (s_c s) (s_r s) (s_replies s) (s_log s) (s_disk s) (s_known s) (s_ext s) (s_extid s) (s_next s).
Definition w_p x s := mk_s (s_txs s) x (s_c s) (s_r s) (s_replies s) (s_log s) (s_disk s) (s_known s) (s_ext s) (s_extid s) (s_next s).
Definition w_c x s := mk_s (s_txs s) (s_p s) x (s_r s) (s_replies s) (s_log s) (s_disk s) (s_known s) (s_ext s) (s_extid s) (s_next s).
Definition w_r x s := mk_s (s_txs s) (s_p s) (s_c s) x (s_replies s) (s_log s) (s_disk s) (s_known s) (s_ext s) (s_extid s) (s_next s).
Definition w_replies x s := mk_s (s_txs s) (s_p s) (s_c s) (s_r s) x (s_log s) (s_disk s) (s_known s) (s_ext s) (s_extid s) (s_next s).
Definition w_log x s := mk_s (s_txs s) (s_p s) (s_c s) (s_r s) (s_replies s) x (s_disk s) (s_known s) (s_ext s) (s_extid s) (s_next s).
Definition w_disk x s := mk_s (s_txs s) (s_p s) (s_c s) (s_r s) (s_replies s) (s_log s) x (s_known s) (s_ext s) (s_extid s) (s_next s).
Definition w_ext x i s := mk_s (s_txs s) (s_p s) (s_c s) (s_r s) (s_replies s) (s_log s) (s_disk s) (s_known s) x i (s_next s).
Definition w_next x s := mk_s (s_txs s) (s_p s) (s_c s) (s_r s) (s_replies s) (s_log s) (s_disk s) (s_known s) (s_ext s) (s_extid s) x.

Definition acts := list action.
Definition mem (r : Z) (l : list Z) : bool := existsb (Z.eqb r) l.

(* ---------------------------------------------------------------- transactions and branches *)

(* algorithm::append_unique, algorithm.h:762-770 *)
Definition append_unique (rs l : list Z) : list Z := fold_left (fun l r => if mem r l then l else l ++ [r]) rs l.
Definition involve (rs : list Z) (b : branch) : branch := mk_b (b_trid b) (append_unique rs (b_res b)).

(* find( transactions, trid): by the global part. state.h:300-304 *)
Definition find_tx (g : Z) (s : tm) : option txn := find (fun x => x_g x =? g) (s_txs s).
Fixpoint put_tx (x : txn) (l : list txn) : list txn :=
  match l with [] => [] | y :: r => if x_g y =? x_g x then x :: r else y :: put_tx x r end.

(* update the first branch that has the xid, or add one: find( branches, trid) ... else emplace_back *)
Fixpoint at_branch (t : trid) (f : branch -> branch) (l : list branch) : list branch :=
  match l with
  | [] => [f (mk_b t [])]
  | b :: r => if same_xid (b_trid b) t then f b :: r else b :: at_branch t f r
  end.

(* find_or_add_and_involve handle.cpp:48-68, branch::find_or_add 79-98: a new transaction has one branch, without resources *)
Definition touch (t : trid) (f : branch -> branch) (s : tm) : tm :=
  match find_tx (t_g t) s with
  | None => w_txs (s_txs s ++ [mk_x (t_g t) (at_branch t f [mk_b t []]) Involved]) s
  | Some x => w_txs (put_tx (mk_x (x_g x) (at_branch t f (x_branches x)) (x_stage x)) (s_txs s)) s
  end.

(* Transaction::purge, state.cpp:219-225 *)
Definition purge (bs : list branch) : list branch :=
  fst (GroupModel.partition_pure (fun b => negb (Nat.eqb (length (b_res b)) 0)) bs).

(* erase( resources, id) of the first branch with the xid; state.h:271-278 *)
Fixpoint drop_res (t : trid) (r : Z) (l : list branch) : list branch :=
  match l with
  | [] => []
  | b :: q => if same_xid (b_trid b) t then mk_b (b_trid b) (filter (fun x => negb (x =? r)) (b_res b)) :: q else b :: drop_res t r q
  end.
Definition purge_votes (vs : list vote) (bs : list branch) : list branch :=
  purge (fold_left (fun bs v => drop_res (v_trid v) (v_rid v) bs) vs bs).

Definition set_branches bs x := mk_x (x_g x) bs (x_stage x).
Definition set_stage st x := mk_x (x_g x) (x_branches x) (advance st (x_stage x)).
Definition upd_tx (x : txn) (s : tm) : tm := w_txs (put_tx x (s_txs s)) s.

(* branch::involved, handle.cpp:197-220: involve, then purge *)
Definition involved (t : trid) (rs : list Z) (s : tm) : tm * txn :=
  let s1 := touch t (involve rs) s in
  match find_tx (t_g t) s1 with
  | None => (s1, mk_x (t_g t) [] Involved)      (* cannot be: it was just added *)
  | Some x => let x' := set_branches (purge (x_branches x)) x in (upd_tx x' s1, x')
  end.

(* Transaction::resource_count, state.cpp:210-217 *)
Definition targets (bs : list branch) : list (trid * Z) := flat_map (fun b => map (fun r => (b_trid b, r)) (b_res b)) bs.
Definition resource_count (x : txn) : nat := length (targets (x_branches x)).

(* remove::transaction, handle.cpp:268-287; Log::remove, log.cpp *)
Definition remove_tx (g : Z) (s : tm) : tm * acts :=
  let s1 := w_log (filter (fun r => negb (fst r =? g)) (s_log s)) s in
  match find_tx g s1 with
  | None => (s1, [])
  | Some _ => (w_txs ((fix del l := match l with [] => [] | y :: r => if x_g y =? g then r else y :: del r end) (s_txs s1)) s1, [Removed g])
  end.

(* ---------------------------------------------------------------- replies *)

(* persist::send, handle.cpp:100-108; Log::persist *)
Definition persist (s : tm) : tm * acts :=
  (w_replies [] (w_disk (s_log s) s), Persisted (s_log s) :: map Answer (s_replies s)).

(* platform::batch::transaction::persistence, platform.h:97 *)
Definition batch : nat := 100.

(* send::persist::reply, handle.cpp:124-134; persist::batch::send, 112-118 *)
Definition persist_reply (a : answer) (s : tm) : tm * acts :=
  let s1 := w_replies (s_replies s ++ [a]) s in
  if Nat.leb batch (length (s_replies s1)) then persist s1 else (s1, []).

(* create::reply, handle.cpp:404-430 *)
Definition xa_eqb (a b : xa) : bool := Nat.eqb (severity a) (severity b).
Definition normal (c : xa) : xa := match c with invalid_xid => read_only | _ => c end.
Definition reply_code (k : rkind) (c : xa) : rcode :=
  match k with UserCommit | UserRollback => Tx (to_tx (normal c)) | _ => Xa (normal c) end.
Definition create_reply (cb : call) (st : stage) (c : xa) : answer :=
  mk_a (d_proc (c_dest cb)) (d_corr (c_dest cb)) (c_reply cb) (c_origin cb)
       (match c_reply cb with UserCommit => Some st | _ => None end) (reply_code (c_reply cb) c).

(* accumulate::code, handle.cpp:139-193 *)
Definition is_failed (p : pending) : bool := match p_state p with Failed => true | _ => false end.
Definition fold_code (vs : list vote) (c : xa) : xa := fold_left (fun c v => severest c (v_code v)) vs c.
Definition accumulate (k : kind) (vs : list vote) (out : list pending) (c : xa) : xa :=
  let failed := existsb is_failed out in
  if (Nat.eqb (length out) 1 && failed)%bool then severest resource_fail c
  else match k with
       | KCommit => fold_code vs (if failed then severest heuristic_commit c else c)
       | KRollback => fold_code vs (if failed then severest heuristic_rollback c else c)
       | KPrepare => fold_code vs (if failed then severest c resource_fail else c)
       end.

(* ---------------------------------------------------------------- coordination *)

(* coordinate::pending::branches and ::replies, handle.cpp:339-376: one request per target *)
Fixpoint ask (k : kind) (one_phase : bool) (ts : list (trid * Z)) (s : tm) : tm * list (Z * Z) * acts :=
  match ts with
  | [] => (s, [], [])
  | (t, r) :: q =>
      let c := s_next s in
      let '(s1, ps, a) := ask k one_phase q (w_next (c + 1) s) in
      (s1, (c, r) :: ps, Ask k c t r one_phase :: a)
  end.

Definition votes (d : fired vote call) : list vote := map snd (d_recv d).

(* the callback of coordinate::commit, handle.cpp:424-440 *)
Definition on_commit (d : fired vote call) (s : tm) : tm * acts :=
  let cb := d_call d in
  let '(s1, a1) := remove_tx (t_g (c_origin cb)) s in
  (s1, Answer (create_reply cb Commit (accumulate KCommit (votes d) (d_out d) (c_code cb))) :: a1).

(* the callback of coordinate::rollback, handle.cpp:447-475.  reply.state == ok: tx ok for a user reply, xa ok otherwise *)
Definition is_ok (c : rcode) : bool :=
  match c with Tx c => tx_eqb c tx_ok | Xa c => xa_eqb c xa_ok end.
Definition on_rollback (d : fired vote call) (s : tm) : tm * acts :=
  let cb := d_call d in
  let a := create_reply cb Rollback (accumulate KRollback (votes d) (d_out d) (c_code cb)) in
  if same_proc (d_proc (c_dest cb)) self then
    (if is_ok (a_code a) then remove_tx (t_g (c_origin cb)) s else (s, []))
  else let '(s1, a1) := remove_tx (t_g (c_origin cb)) s in (s1, Answer a :: a1).

Fixpoint run_all {D} (f : D -> tm -> tm * acts) (ds : list D) (s : tm) : tm * acts :=
  match ds with
  | [] => (s, [])
  | d :: r => let '(s1, a1) := f d s in let '(s2, a2) := run_all f r s1 in (s2, a1 ++ a2)
  end.

(* coordinate::commit, coordinate::rollback: register, and run the callback at once if nobody is asked *)
Definition start_commit (ps : list (Z * Z)) (cb : call) (s : tm) : tm * acts :=
  let '(f, ds) := fan_start ps cb (s_c s) in run_all on_commit ds (w_c f s).
Definition start_rollback (ps : list (Z * Z)) (cb : call) (s : tm) : tm * acts :=
  let '(f, ds) := fan_start ps cb (s_r s) in run_all on_rollback ds (w_r f s).

(* Log::prepare, log.cpp: one row per branch; None: the primary key is violated, the statement raises *)
Definition rows (x : txn) : list (Z * Z) := map (fun b => (t_g (b_trid b), t_b (b_trid b))) (x_branches x).
Definition row_eqb (a b : Z * Z) : bool := (fst a =? fst b) && (snd a =? snd b).
Fixpoint insert_all (rs l : list (Z * Z)) : option (list (Z * Z)) :=
  match rs with
  | [] => Some l
  | r :: q => if existsb (row_eqb r) l then None else insert_all q (l ++ [r])
  end.

Definition vote_is (c : xa) (v : vote) : bool := xa_eqb (v_code v) c.
Definition vote_target (v : vote) : trid * Z := (v_trid v, v_rid v).

(* the callback of coordinate::prepare, handle.cpp:478-573 *)
Definition on_prepare (d : fired vote call) (s : tm) : option (tm * acts) :=
  let cb := d_call d in
  let g := t_g (c_origin cb) in
  match find_tx g s with
  | None => Some (s, [])
  | Some x0 =>
      let code := accumulate KPrepare (votes d) (d_out d) read_only in
      let '(active, ro) := GroupModel.partition_pure (fun v => negb (vote_is read_only v)) (votes d) in
      let x := set_branches (purge_votes ro (x_branches x0)) (set_stage PostPrepare x0) in
      let s1 := upd_tx x s in
      if xa_eqb code read_only then
        let '(s2, a2) := remove_tx g s1 in
        Some (s2, Answer (create_reply cb Commit code) :: a2)
      else if xa_eqb code xa_ok then
        match insert_all (rows x) (s_log s1) with
        | None => None
        | Some l =>
            let s2 := w_log l s1 in
            match c_reply cb with
            | ResPrepare => let '(s3, a3) := persist_reply (create_reply cb Prepare code) s2 in Some (s3, Logged g (rows x) :: a3)
            | k =>
                let '(s3, a3) := match k with UserCommit => persist_reply (create_reply cb Prepare code) s2 | _ => (s2, []) end in
                let s4 := upd_tx (set_stage Commit x) s3 in
                let '(s5, ps, a5) := ask KCommit false (map vote_target active) s4 in
                let '(s6, a6) := start_commit ps (mk_c (c_reply cb) (c_origin cb) (c_dest cb) code) s5 in
                Some (s6, Logged g (rows x) :: a3 ++ a5 ++ a6)
            end
        end
      else
        match c_reply cb with
        | ResPrepare => Some (s1, [Answer (create_reply cb Prepare code)])
        | _ =>
            let s4 := upd_tx (set_stage Rollback x) s1 in
            let '(s5, ps, a5) := ask KRollback false (map vote_target active) s4 in
            let '(s6, a6) := start_rollback ps (mk_c (c_reply cb) (c_origin cb) (c_dest cb) code) s5 in
            Some (s6, a5 ++ a6)
        end
  end.

Fixpoint run_prepares (ds : list (fired vote call)) (s : tm) : option (tm * acts) :=
  match ds with
  | [] => Some (s, [])
  | d :: r => match on_prepare d s with
              | None => None
              | Some (s1, a1) => match run_prepares r s1 with Some (s2, a2) => Some (s2, a1 ++ a2) | None => None end
              end
  end.

Definition start_prepare (ps : list (Z * Z)) (cb : call) (s : tm) : option (tm * acts) :=
  let '(f, ds) := fan_start ps cb (s_p s) in run_prepares ds (w_p f s).

(* ---------------------------------------------------------------- handlers *)

Definition user_dest (p : proc) (corr : Z) : dest := mk_d p corr 0.

(* prepends actions *)
Definition after (a : acts) (o : option (tm * acts)) : option (tm * acts) :=
  match o with Some (s, b) => Some (s, a ++ b) | None => None end.

(* commit::request, handle.cpp:583-652 *)
Definition commit_request (p : proc) (corr : Z) (t : trid) (rs : list Z) (s : tm) : option (tm * acts) :=
  let '(s1, x) := involved t rs s in
  if stage_n Involved <? stage_n (x_stage x) then
    Some (s1, [Answer (mk_a p corr UserCommit t (Some Commit) (Tx tx_protocol))])
  else
    match resource_count x with
    | 0%nat =>
        let '(s2, a2) := remove_tx (x_g x) s1 in
        Some (s2, Answer (mk_a p corr UserCommit t (Some Commit) (Tx tx_ok)) :: a2)
    | 1%nat =>
        let s2 := upd_tx (set_stage Commit x) s1 in
        let '(s3, ps, a3) := ask KCommit true (targets (x_branches x)) s2 in
        let '(s4, a4) := start_commit ps (mk_c UserCommit t (user_dest p corr) read_only) s3 in
        Some (s4, a3 ++ a4)
    | _ =>
        let s2 := upd_tx (set_stage Prepare x) s1 in
        let '(s3, ps, a3) := ask KPrepare false (targets (x_branches x)) s2 in
        after a3 (start_prepare ps (mk_c UserCommit t (user_dest p corr) read_only) s3)
    end.

(* rollback::request, handle.cpp:660-685 *)
Definition rollback_request (p : proc) (corr : Z) (t : trid) (rs : list Z) (s : tm) : tm * acts :=
  let '(s1, x) := involved t rs s in
  let s2 := upd_tx (set_stage Rollback x) s1 in
  let '(s3, ps, a3) := ask KRollback false (targets (x_branches x)) s2 in
  let '(s4, a4) := start_rollback ps (mk_c UserRollback t (user_dest p corr) read_only) s3 in
  (s4, a3 ++ a4).

(* resource::involved::request, handle.cpp:732-775 *)
Definition find_branch (t : trid) (x : txn) : option branch := find (fun b => same_xid (b_trid b) t) (x_branches x).
Definition branch_res (t : trid) (s : tm) : list Z :=
  match find_tx (t_g t) s with
  | Some x => match find_branch t x with Some b => b_res b | None => [] end
  | None => []
  end.
Definition involved_request (p : proc) (corr : Z) (t : trid) (rs : list Z) (reply : bool) (s : tm) : tm * acts :=
  let old := branch_res t s in
  let fresh := filter (fun r => negb (mem r old)) rs in
  let known := fst (GroupModel.partition_pure (fun r => mem r (s_known s)) fresh) in
  (touch t (involve known) s, if reply then [Tell p corr old] else []).

(* the external instances: external::instance::add and ::id, state.cpp:149-184; found by ipc *)
Definition ext_add (p : proc) (s : tm) : tm :=
  let i := s_extid s - 1 in
  if existsb (fun e => p_ipc (fst e) =? p_ipc p) (s_ext s)
  then w_ext (map (fun e => if p_ipc (fst e) =? p_ipc p then (p, i) else e) (s_ext s)) i s
  else w_ext (s_ext s ++ [(p, i)]) i s.
Definition ext_id (p : proc) (s : tm) : tm * Z :=
  match find (fun e => p_ipc (fst e) =? p_ipc p) (s_ext s) with
  | Some e => (s, snd e)
  | None => let i := s_extid s - 1 in (w_ext (s_ext s ++ [(p, i)]) i s, i)
  end.

(* external::involved, handle.cpp:879-892; Branch::involve( id), state.h:209-213 *)
Definition ext_involved (p : proc) (t : trid) (s : tm) : tm :=
  let '(s1, i) := ext_id p s in touch t (involve [i]) s1.

(* external::detail::send::read::only::reply, handle.cpp:828-862 *)
Definition read_only_reply (k : rkind) (p : proc) (corr : Z) (t : trid) : acts := [Answer (mk_a p corr k t None (Xa read_only))].

(* external::prepare::request, handle.cpp:896-945 *)
Definition ext_prepare (p : proc) (corr : Z) (t : trid) (r : Z) (s : tm) : option (tm * acts) :=
  match find_tx (t_g t) s with
  | None => Some (s, read_only_reply ResPrepare p corr t)
  | Some x =>
      if stage_n Involved <? stage_n (x_stage x) then Some (s, read_only_reply ResPrepare p corr t)
      else if Nat.eqb (resource_count x) 0 then
        let '(s1, a1) := remove_tx (x_g x) s in Some (s1, read_only_reply ResPrepare p corr t ++ a1)
      else
        let s2 := upd_tx (set_stage Prepare x) s in
        let '(s3, ps, a3) := ask KPrepare false (targets (x_branches x)) s2 in
        after a3 (start_prepare ps (mk_c ResPrepare t (mk_d p corr r) read_only) s3)
  end.

(* external::commit::request, handle.cpp:949-1010 *)
Definition ext_commit (p : proc) (corr : Z) (t : trid) (r : Z) (s : tm) : option (tm * acts) :=
  match find_tx (t_g t) s with
  | None => Some (s, read_only_reply ResCommit p corr t)
  | Some x =>
      match x_stage x with
      | PostPrepare =>
          let s2 := upd_tx (set_stage Commit x) s in
          let '(s3, ps, a3) := ask KCommit false (targets (x_branches x)) s2 in
          let '(s4, a4) := start_commit ps (mk_c ResCommit t (mk_d p corr r) read_only) s3 in
          Some (s4, a3 ++ a4)
      | Involved =>
          let s2 := upd_tx (set_stage Prepare x) s in
          let '(s3, ps, a3) := ask KPrepare false (targets (x_branches x)) s2 in
          after a3 (start_prepare ps (mk_c ResCommit t (mk_d p corr r) read_only) s3)
      | _ => Some (s, read_only_reply ResCommit p corr t)
      end
  end.

(* external::rollback::request, handle.cpp:1012-1050 *)
Definition ext_rollback (p : proc) (corr : Z) (t : trid) (r : Z) (s : tm) : tm * acts :=
  match find_tx (t_g t) s with
  | None => (s, read_only_reply ResRollback p corr t)
  | Some x =>
      match x_stage x with
      | Involved | PostPrepare =>
          let s2 := upd_tx (set_stage Rollback x) s in
          let '(s3, ps, a3) := ask KRollback false (targets (x_branches x)) s2 in
          let '(s4, a4) := start_rollback ps (mk_c ResRollback t (mk_d p corr r) read_only) s3 in
          (s4, a3 ++ a4)
      | _ => (s, read_only_reply ResRollback p corr t)
      end
  end.

(* inbound::branch::request, handle.cpp:1097-1127.  None: CASUAL_ASSERT( ! branches.empty()) *)
Definition inbound (p : proc) (corr : Z) (g b own : Z) (s : tm) : option (tm * acts) :=
  match find_tx g s with
  | Some x => match x_branches x with
              | [] => None
              | br :: _ => Some (s, [BranchIs p corr (b_trid br)])
              end
  | None => let t := mk_t g b own in
            Some (w_txs (s_txs s ++ [mk_x g [mk_b t []] Involved]) s, [BranchIs p corr t])
  end.

(* the replies: resource::prepare::reply and so on, handle.cpp:780-822 *)
Definition on_reply (k : kind) (c : Z) (v : vote) (s : tm) : option (tm * acts) :=
  match k with
  | KPrepare => match fan_reply c v (s_p s) with None => None | Some (f, ds) => run_prepares ds (w_p f s) end
  | KCommit => match fan_reply c v (s_c s) with None => None | Some (f, ds) => Some (run_all on_commit ds (w_c f s)) end
  | KRollback => match fan_reply c v (s_r s) with None => None | Some (f, ds) => Some (run_all on_rollback ds (w_r f s)) end
  end.

(* Coordinate::failed, state.h:353.  [GaveUp] marks the points for the properties, nothing is sent there *)
Definition coordinate_failed (id : Z) (s : tm) : option (tm * acts) :=
  let '(f1, d1) := fan_failed id (s_p s) in
  match run_prepares d1 (w_p f1 s) with
  | None => None
  | Some (s1, a1) =>
      let '(f2, d2) := fan_failed id (s_c s1) in
      let '(s2, a2) := run_all on_commit d2 (w_c f2 s1) in
      let '(f3, d3) := fan_failed id (s_r s2) in
      let '(s3, a3) := run_all on_rollback d3 (w_r f3 s2) in
      Some (s3, GaveUp KPrepare id :: a1 ++ GaveUp KCommit id :: a2 ++ GaveUp KRollback id :: a3)
  end.

Fixpoint fail_all (ids : list Z) (s : tm) : option (tm * acts) :=
  match ids with
  | [] => Some (s, [])
  | i :: r => match coordinate_failed i s with
              | None => None
              | Some (s1, a1) => after a1 (fail_all r s1)
              end
  end.

(* the transactions whose last branch is owned by that process, handle.cpp:1160-1166 *)
Definition last_branch (x : txn) : option branch := match rev (x_branches x) with b :: _ => Some b | [] => None end.
Definition orphans (pid : Z) (s : tm) : list trid :=
  flat_map (fun x => match last_branch x with Some b => if t_own (b_trid b) =? pid then [b_trid b] else [] | None => [] end) (s_txs s).

(* event::process::exit, handle.cpp:1130-1178; not for a local resource proxy *)
Definition on_exit (pid : Z) (s : tm) : option (tm * acts) :=
  match fail_all (map snd (filter (fun e => p_pid (fst e) =? pid) (s_ext s))) s with
  | None => None
  | Some (s1, a1) =>
      let s2 := w_ext (filter (fun e => negb (p_pid (fst e) =? pid)) (s_ext s1)) (s_extid s1) s1 in
      let '(s3, a3) := run_all (fun t => rollback_request self 0 t []) (orphans pid s2) s2 in
      Some (s3, a1 ++ a3)
  end.

(* event::ipc::destroyed, handle.cpp:1184-1210; Transaction::failed only sets what the admin interface shows *)
Definition on_destroyed (ipc : Z) (s : tm) : option (tm * acts) :=
  match find (fun e => p_ipc (fst e) =? ipc) (s_ext s) with
  | None => Some (s, [])
  | Some e =>
      match coordinate_failed (snd e) s with
      | None => None
      | Some (s1, a1) => Some (w_ext (filter (fun x => negb (p_ipc (fst x) =? ipc)) (s_ext s1)) (s_extid s1) s1, a1)
      end
  end.

(* handle::persist::send, when the inbound queue is empty; handle.cpp:1347-1356, main.cpp:86 *)
Definition on_idle (s : tm) : tm * acts := match s_replies s with [] => (s, []) | _ => persist s end.

Definition step (i : input) (s : tm) : option (tm * acts) :=
  match i with
  | ICommit p corr t rs => commit_request p corr t rs s
  | IRollback p corr t rs => Some (rollback_request p corr t rs s)
  | IInvolved p corr t rs reply => Some (involved_request p corr t rs reply s)
  | IReply k c v => on_reply k c v s
  | IExtInstance p => Some (ext_add p s, [])
  | IExtInvolved p t => Some (ext_involved p t s, [])
  | IExtPrepare p corr t r => ext_prepare p corr t r s
  | IExtCommit p corr t r => ext_commit p corr t r s
  | IExtRollback p corr t r => Some (ext_rollback p corr t r s)
  | IInbound p corr g b own => inbound p corr g b own s
  | IExit pid => on_exit pid s
  | IDestroyed ipc => on_destroyed ipc s
  | IIdle => Some (on_idle s)
  end.

(* a run, and what can be observed of it; None: an exception leaves the handler *)
Inductive event := Recv (i : input) | Act (a : action).

Fixpoint run (is : list input) (s : tm) : option (tm * list event) :=
  match is with
  | [] => Some (s, [])
  | i :: r => match step i s with
              | None => None
              | Some (s1, a) => match run r s1 with
                                | None => None
                                | Some (s2, tr) => Some (s2, Recv i :: map Act a ++ tr)
                                end
              end
  end.

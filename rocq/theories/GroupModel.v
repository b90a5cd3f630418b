(* Model of the queue group's request handlers.

   Sources (under /repo/middleware/queue): source/group/handle.cpp, source/group/state.cpp,
   include/queue/group/state.h, source/group/main.cpp; common/source/signal/timer.cpp for the timer.

   One message (or idle point, or environment event) is one step.  A step yields the new state and the list of actions it
   performed, in order.  The store and its operations are those of QueueModel.

   Simplifications:
   - every clock reading within one step gives the same value [now];
   - sends succeed and keep their order (multiplex.send, blocking::send to the transaction manager);
   - SQLite's COMMIT makes everything before it survive a crash of the process ([g_disk]); a crash loses everything else;
   - a caller is one [pid]: its process id and its ipc id are not distinguished. *)

From Coq Require Import ZArith List String Bool Lia.
From Verif Require Import QueueModel.
Import ListNotations.
Local Open Scope Z_scope.

(* std::partition for random access iterators (libstdc++ and libc++ use the same two-pointer scheme), with a stateful
   predicate evaluated exactly once per element.  algorithm::partition / filter, common/algorithm.h:794-807.
   [held]: the element found at the front that has to go to the back.  Result: final predicate state, front part, back part. *)
Fixpoint unsnoc {A} (l : list A) : option (list A * A) :=
  match l with
  | [] => None
  | x :: r => match unsnoc r with None => Some ([], x) | Some (i, y) => Some (x :: i, y) end
  end.

Fixpoint std_partition {A S} (fuel : nat) (held : option A) (p : S -> A -> S * bool) (s : S) (l : list A)
  : S * list A * list A :=
  match fuel with
  | O => (s, [], match held with Some x => [x] | None => [] end)
  | Datatypes.S n =>
      match held with
      | None =>
          match l with
          | [] => (s, [], [])
          | x :: r =>
              let '(s1, b) := p s x in
              if b then let '(s2, f, bk) := std_partition n None p s1 r in (s2, x :: f, bk)
              else std_partition n (Some x) p s1 r
          end
      | Some x =>
          match unsnoc l with
          | None => (s, [], [x])
          | Some (ini, y) =>
              let '(s1, b) := p s y in
              if b then let '(s2, f, bk) := std_partition n None p s1 ini in (s2, y :: f, bk ++ [x])
              else let '(s2, f, bk) := std_partition n (Some x) p s1 ini in (s2, f, bk ++ [y])
          end
      end
  end.

Definition partition_st {A S} (p : S -> A -> S * bool) (s : S) (l : list A) : S * list A * list A :=
  std_partition (Datatypes.S (List.length l)) None p s l.

(* with a pure predicate *)
Definition partition_pure {A} (p : A -> bool) (l : list A) : list A * list A :=
  let '(_, f, b) := partition_st (fun (_ : unit) a => (tt, p a)) tt l in (f, b).

(* how a request names its queue: by id if it has one, otherwise by name. queuebase.h:214-221 *)
Inductive qref := ById (q : Z) | ByName (n : string).

(* Queuebase::id, queuebase.h:214-221, queuebase.cpp:358-373; None: code::queue::no_queue is raised *)
Definition resolve (d : db) (r : qref) : option Z :=
  match r with
  | ById q => Some q
  | ByName n => match find_name (queues d) n with Some q => Some (q_id q) | None => None end
  end.

(* a transaction id: global part and branch; global part 0 is the null transaction *)
Definition trid := (Z * Z)%type.
Definition trid_eqb (a b : trid) : bool := (fst a =? fst b) && (snd a =? snd b).

(* a dequeue request, queue::ipc::message::group::dequeue::Request; [dr_queue] resolved *)
Record dreq := mk_dreq {
  dr_corr  : Z;
  dr_pid   : Z;
  dr_queue : Z;
  dr_sel   : selector;
  dr_trid  : trid;
  dr_block : bool
}.

Inductive reply :=
| REnqueue (ok : bool) (id : Z)
| RDequeue (m : option msg)
| RDequeueError
| RForget (discarded : bool)
| RForgetRequest                       (* dequeue::forget::Request sent to the caller, at shutdown *)
| RBrowse (m : option msg)
| RCommit (ok : bool) (t : trid)
| RRollback (ok : bool) (t : trid)
| RPrepare (t : trid)
| RRecovery (gs : list Z)
| RRestore (counts : list Z)
| RClear (counts : list Z)
| RRemove (ids : list Z)
| RMetricReset.

(* the observable actions *)
Inductive action :=
| Applied (corr : Z) (e : event)       (* an operation on the queue base, on behalf of request [corr] *)
| Persisted                            (* SQLite COMMIT *)
| Crashed
| Involved (t : trid)                  (* the transaction manager is told that the group takes part in [t] *)
| Sent (pid corr : Z) (r : reply)
| Dropped (corr : Z).                  (* a pending dequeue is given up: forgotten, caller dead, shutdown or crash *)

(* State, state.h:85-110 *)
Record gstate := mk_g {
  g_db       : db;                     (* what the open SQLite transaction sees *)
  g_disk     : db;                     (* what survives a crash *)
  g_size     : Z;                      (* size.current *)
  g_cap      : option Z;               (* size.capacity *)
  g_involved : list trid;
  g_replies  : list (Z * Z * reply);   (* pending.replies: destination, correlation, message *)
  g_pend     : list dreq;              (* pending.dequeues *)
  g_timer    : option Z;               (* the itimer's point of expiry *)
  g_alarm    : bool                    (* a signal::Timeout message is on its way to ourself *)
}.

(* State{} with a new queue base, main.cpp:105-126 *)
Definition g_init : gstate := mk_g db_empty db_empty 0 None [] [] [] None false.

Definition result := (gstate * list action)%type.

Definition w_db (d : db) (s : gstate) := mk_g d (g_disk s) (g_size s) (g_cap s) (g_involved s) (g_replies s) (g_pend s) (g_timer s) (g_alarm s).
Definition w_size (n : Z) (s : gstate) := mk_g (g_db s) (g_disk s) n (g_cap s) (g_involved s) (g_replies s) (g_pend s) (g_timer s) (g_alarm s).
Definition w_cap (c : option Z) (s : gstate) := mk_g (g_db s) (g_disk s) (g_size s) c (g_involved s) (g_replies s) (g_pend s) (g_timer s) (g_alarm s).
Definition w_involved (l : list trid) (s : gstate) := mk_g (g_db s) (g_disk s) (g_size s) (g_cap s) l (g_replies s) (g_pend s) (g_timer s) (g_alarm s).
Definition w_replies (l : list (Z * Z * reply)) (s : gstate) := mk_g (g_db s) (g_disk s) (g_size s) (g_cap s) (g_involved s) l (g_pend s) (g_timer s) (g_alarm s).
Definition w_pend (l : list dreq) (s : gstate) := mk_g (g_db s) (g_disk s) (g_size s) (g_cap s) (g_involved s) (g_replies s) l (g_timer s) (g_alarm s).
Definition w_timer (t : option Z) (a : bool) (s : gstate) := mk_g (g_db s) (g_disk s) (g_size s) (g_cap s) (g_involved s) (g_replies s) (g_pend s) t a.

(* Queuebase::persist, queuebase.cpp:772-779 *)
Definition persist_db (s : gstate) : result :=
  (mk_g (g_db s) (g_db s) (g_size s) (g_cap s) (g_involved s) (g_replies s) (g_pend s) (g_timer s) (g_alarm s), [Persisted]).

(* an operation on the queue base *)
Definition apply_op (corr : Z) (o : op) (s : gstate) : gstate * list action * out :=
  let '(d', r) := step (g_db s) o in (w_db d' s, [Applied corr (o, r)], r).

(* detail::transaction::involved, handle.cpp:46-63 *)
Definition involve (t : trid) (s : gstate) : result :=
  if existsb (trid_eqb t) (g_involved s) then (s, [])
  else (w_involved (g_involved s ++ [t]) s, [Involved t]).

(* detail::transaction::done, handle.cpp:65-71: container::erase removes every equal element *)
Definition done_trid (t : trid) (s : gstate) : gstate :=
  w_involved (filter (fun x => negb (trid_eqb t x)) (g_involved s)) s.

(* ---------------------------------------------------------------- timer *)

(* the itimer expires: the alarm handler pushes a Timeout message (main.cpp:112-118) *)
Definition tick (now : Z) (s : gstate) : gstate :=
  match g_timer s with
  | Some t => if t <=? now then w_timer None true s else s
  | None => s
  end.

(* signal::timer::set, timer.cpp:66-91, given as point in time *)
Definition timer_set (at_ now : Z) (s : gstate) : gstate :=
  if at_ - now <=? 0 then w_timer (g_timer s) true s else w_timer (Some at_) (g_alarm s) s.

(* signal::timer::unset, timer.cpp:98-103 *)
Definition timer_unset (s : gstate) : gstate := w_timer None (g_alarm s) s.

(* ---------------------------------------------------------------- dequeue *)

(* local::dequeue::handle, handle.cpp:299-348 (and the request lambda's catch, which the model's dequeue never reaches).
   The boolean is the handler's result. *)
Definition dequeue_handle (now : Z) (r : dreq) (s : gstate) : gstate * list action * bool :=
  let '(s1, a1, o) := apply_op (dr_corr r) (Dequeue (dr_queue r) (dr_sel r) (fst (dr_trid r)) now) s in
  match o with
  | GotMessage (Some m) =>
      let '(s2, a2) := if fst (dr_trid r) =? 0 then (w_size (g_size s1 - plen m) s1, [])
                       else involve (dr_trid r) s1 in
      (s2, a1 ++ a2 ++ [Sent (dr_pid r) (dr_corr r) (RDequeue (Some m))], true)
  | _ =>
      if dr_block r then
        let s2 := match qb_available (dr_queue r) (g_db s1) with
                  | Some a => match g_timer s1 with
                              | Some t => if a <? t then timer_set a now s1 else s1
                              | None => timer_set a now s1
                              end
                  | None => s1
                  end in
        (w_pend (g_pend s2 ++ [r]) s2, a1, false)
      else (s1, a1 ++ [Sent (dr_pid r) (dr_corr r) (RDequeue None)], true)
  end.

(* queuebase::message::Available: queue, count, when. queuebase.h:88-94 *)
Record available := mk_av { av_queue : Z; av_count : Z; av_when : Z }.

(* Queuebase::available( queues), queuebase.cpp:530-560: the queues with count > 0 among those wanted, with the earliest
   available time of their untaken messages; a queue without any keeps the default time point, 0. *)
Definition availables (wanted : list Z) (d : db) : list available :=
  map (fun q => mk_av (q_id q) (q_count q) (match qb_available (q_id q) d with Some a => a | None => 0 end))
      (filter (fun q => (0 <? q_count q) && existsb (fun w => q_id q =? w) wanted) (queues d)).

(* the lambda reached_message_count, handle.cpp:872-884.  State of the predicate: group state, actions so far, count *)
Definition reached (now : Z) (st : gstate * list action * Z) (r : dreq) : (gstate * list action * Z) * bool :=
  let '(s, acts, count) := st in
  if count <? 1 then (st, true)
  else
    let '(s1, a, b) := dequeue_handle now r s in
    ((s1, acts ++ a, if b then count - 1 else count), false).

(* one iteration of the loop over the passed queues, handle.cpp:865-893 *)
Definition serve_queue (now : Z) (st : gstate * list action * list dreq) (av : available) : gstate * list action * list dreq :=
  let '(s, acts, current) := st in
  let '(mine, rest) := partition_pure (fun r => av_queue av =? dr_queue r) current in
  let '(s1, acts1, _, kept, _) := partition_st (reached now) (s, acts, av_count av) mine in
  (w_pend (g_pend s1 ++ kept) s1, acts1, rest).

Definition min_when (l : list available) : option Z :=
  fold_right (fun a acc => match acc with Some b => Some (Z.min (av_when a) b) | None => Some (av_when a) end) None l.

(* detail::pending::dequeues, handle.cpp:843-911; Pending::extract, state.cpp:67-83.
   The split of [available] uses std::partition; its order within the parts is left as in the table. *)
Definition sweep (now : Z) (s : gstate) : result :=
  match g_pend s with
  | [] => (s, [])
  | _ =>
      let avs := availables (map dr_queue (g_pend s)) (g_db s) in
      let passed := filter (fun a => av_when a <=? now) avs in
      let future := filter (fun a => negb (av_when a <=? now)) avs in
      let '(stay, requests) := partition_pure (fun r => negb (existsb (fun a => av_queue a =? dr_queue r) passed)) (g_pend s) in
      let '(s1, acts, _) := fold_left (serve_queue now) passed (w_pend stay s, [], requests) in
      match min_when future with
      | Some w => (timer_set w now s1, acts)
      | None => (timer_unset s1, acts)
      end
  end.

(* ---------------------------------------------------------------- persist *)

(* handle::persist, handle.cpp:930-945 *)
Definition handle_persist (now : Z) (s : gstate) : result :=
  match g_replies s with
  | [] => sweep now s
  | rs =>
      let '(s1, a1) := persist_db s in
      let a2 := map (fun x => Sent (fst (fst x)) (snd (fst x)) (snd x)) rs in
      let '(s2, a3) := sweep now (w_replies [] s1) in
      (s2, a1 ++ a2 ++ a3)
  end.

(* platform::batch::queue::persistent, common/platform.h:132 *)
Definition batch : nat := 100.

(* detail::persistent::reply, handle.cpp:76-84 *)
Definition persistent_reply (now pid corr : Z) (r : reply) (s : gstate) : result :=
  let s1 := w_replies (g_replies s ++ [(pid, corr, r)]) s in
  if Nat.leb batch (List.length (g_replies s1)) then handle_persist now s1 else (s1, []).

(* ---------------------------------------------------------------- the inputs *)

Inductive input :=
| IConfigure (cap : option Z) (ws : list wanted)
| IEnqueue (corr pid : Z) (q : qref) (id : Z) (t : trid) (c : content) (avail now : Z)
| IDequeue (corr pid : Z) (q : qref) (sel : selector) (t : trid) (block : bool) (now : Z)
| IForget (corr pid : Z)
| IBrowse (corr pid q last now : Z)
| ICommit (corr pid : Z) (t : trid) (now : Z)
| IPrepare (corr pid : Z) (t : trid)
| IRollback (corr pid : Z) (t : trid) (sqlnow now : Z)
| IRecovery (corr pid : Z) (commit : bool) (gs : list Z) (sqlnow : Z)
| IRestore (corr pid : Z) (qs : list Z) (now : Z)
| IClear (corr pid : Z) (qs : list Z)
| IRemove (corr pid : Z) (force : bool) (q : Z) (ids : list Z)
| IMetricReset (corr pid : Z) (qs : list Z)
| ITimeout (now : Z)
| IExit (pid : Z)
| IIdle (now : Z)
| IShutdown (now : Z)
| ICrash.

(* enqueue::detail::has::sufficient::capacity, handle.cpp:231-239 *)
Definition sufficient (c : content) (s : gstate) : bool :=
  match g_cap s with
  | None => true
  | Some cap => Z.of_nat (List.length (c_payload c)) <=? cap - g_size s
  end.

(* enqueue::request, handle.cpp:243-295 *)
Definition on_enqueue (corr pid : Z) (q : qref) (id : Z) (t : trid) (c : content) (avail now : Z) (s : gstate) : result :=
  if negb (sufficient c s) then (s, [Sent pid corr (REnqueue false 0)])
  else
    match resolve (g_db s) q with
    | None => (s, [Sent pid corr (REnqueue false 0)])
    | Some qid =>
        let '(s1, a1, o) := apply_op corr (Enqueue qid id (fst t) c avail now) s in
        match o with
        | Done =>
            let s2 := w_size (g_size s1 + Z.of_nat (List.length (c_payload c))) s1 in
            if fst t =? 0 then
              let '(s3, a3) := persistent_reply now pid corr (REnqueue true id) s2 in (s3, a1 ++ a3)
            else
              let '(s3, a3) := involve t s2 in (s3, a1 ++ a3 ++ [Sent pid corr (REnqueue true id)])
        | _ => (s1, a1 ++ [Sent pid corr (REnqueue false 0)])
        end
    end.

(* dequeue::request, handle.cpp:351-376 *)
Definition on_dequeue (corr pid : Z) (q : qref) (sel : selector) (t : trid) (block : bool) (now : Z) (s : gstate) : result :=
  match resolve (g_db s) q with
  | None => (s, [Sent pid corr RDequeueError])
  | Some qid => fst (dequeue_handle now (mk_dreq corr pid qid sel t block) s)
  end.

(* Pending::forget( request), state.cpp:36-51: the first pending request with that correlation *)
Fixpoint remove_first (corr : Z) (l : list dreq) : option (list dreq) :=
  match l with
  | [] => None
  | r :: rest => if dr_corr r =? corr then Some rest
                 else match remove_first corr rest with Some l' => Some (r :: l') | None => None end
  end.

(* dequeue::forget::request, handle.cpp:381-389 *)
Definition on_forget (corr pid : Z) (s : gstate) : result :=
  match remove_first corr (g_pend s) with
  | Some l => (w_pend l s, [Dropped corr; Sent pid corr (RForget true)])
  | None => (s, [Sent pid corr (RForget false)])
  end.

(* commit::request, handle.cpp:442-471.  Queuebase::commit does not throw in the model. *)
Definition on_commit (corr pid : Z) (t : trid) (now : Z) (s : gstate) : result :=
  let '(s1, a1, o) := apply_op corr (Commit (fst t)) (done_trid t s) in
  match o with
  | Affected n =>
      let '(s2, a2) := persistent_reply now pid corr (RCommit true t) (w_size (g_size s1 - n) s1) in (s2, a1 ++ a2)
  | _ => let '(s2, a2) := persistent_reply now pid corr (RCommit false t) s1 in (s2, a1 ++ a2)
  end.

(* rollback::request, handle.cpp:495-526 *)
Definition on_rollback (corr pid : Z) (t : trid) (sqlnow now : Z) (s : gstate) : result :=
  let '(s1, a1, o) := apply_op corr (Rollback (fst t) sqlnow) (done_trid t s) in
  match o with
  | Affected n =>
      let '(s2, a2) := persistent_reply now pid corr (RRollback true t) (w_size (g_size s1 - n) s1) in (s2, a1 ++ a2)
  | _ => let '(s2, a2) := persistent_reply now pid corr (RRollback false t) s1 in (s2, a1 ++ a2)
  end.

(* message::recovery::request, handle.cpp:196-214 *)
Definition on_recovery (corr pid : Z) (commit : bool) (gs : list Z) (sqlnow : Z) (s : gstate) : result :=
  let '(s1, a1, o) := apply_op corr (if commit then RecoveryCommit gs else RecoveryRollback gs sqlnow) s in
  match o with
  | Recovered n kept => (w_size (g_size s1 - n) s1, a1 ++ [Sent pid corr (RRecovery kept)])
  | _ => (s1, a1)
  end.

Fixpoint apply_ops (corr : Z) (os : list op) (s : gstate) : gstate * list action * list Z :=
  match os with
  | [] => (s, [], [])
  | o :: rest =>
      let '(s1, a1, r) := apply_op corr o s in
      let '(s2, a2, ns) := apply_ops corr rest s1 in
      (s2, a1 ++ a2, (match r with Affected n => n | _ => 0 end) :: ns)
  end.

(* restore::request, handle.cpp:532-561; the reply is sent when the scope ends *)
Definition on_restore (corr pid : Z) (qs : list Z) (now : Z) (s : gstate) : result :=
  let '(s1, a1, ns) := apply_ops corr (map Restore qs) s in
  let '(s2, a2) := persist_db s1 in
  let '(s3, a3) := sweep now s2 in
  (s3, a1 ++ a2 ++ a3 ++ [Sent pid corr (RRestore ns)]).

(* clear::request, handle.cpp:584-608 *)
Definition on_clear (corr pid : Z) (qs : list Z) (s : gstate) : result :=
  let '(s1, a1, ns) := apply_ops corr (map Clear qs) s in
  (w_size (qb_size (g_db s1)) s1, a1 ++ [Sent pid corr (RClear ns)]).

(* message::remove::request, handle.cpp:174-190 *)
Definition on_remove (corr pid : Z) (force : bool) (q : Z) (ids : list Z) (s : gstate) : result :=
  let '(s1, a1, o) := apply_op corr (Remove force q ids) s in
  (w_size (qb_size (g_db s1)) s1,
   a1 ++ [Sent pid corr (RRemove (match o with Removed k => k | _ => [] end))]).

(* configuration::update::request, handle.cpp:690-803 *)
Definition on_configure (cap : option Z) (ws : list wanted) (s : gstate) : result :=
  let '(s1, a1) := persist_db s in
  let '(s2, a2, o) := apply_op 0 (Configure ws) (w_cap cap s1) in
  match o with
  | Done => let '(s3, a3) := persist_db (w_size (qb_size (g_db s2)) s2) in (s3, a1 ++ a2 ++ a3)
  | _ => (s2, a1 ++ a2)          (* Queuebase::rollback: nothing of the failed update stays *)
  end.

(* dead::process, dead::ipc, handle.cpp:99-124; Pending::remove, state.cpp:85-101 *)
Definition on_exit (pid : Z) (s : gstate) : result :=
  (w_replies (filter (fun x => negb (fst (fst x) =? pid)) (g_replies s))
     (w_pend (filter (fun r => negb (dr_pid r =? pid)) (g_pend s)) s),
   map (fun r => Dropped (dr_corr r)) (filter (fun r => dr_pid r =? pid) (g_pend s))).

(* shutdown::detail::perform, handle.cpp:810-821; Pending::forget(), state.cpp:53-65 *)
Definition on_shutdown (now : Z) (s : gstate) : result :=
  let '(s1, a1) := handle_persist now s in
  (w_pend [] s1,
   a1 ++ flat_map (fun r => [Dropped (dr_corr r); Sent (dr_pid r) (dr_corr r) RForgetRequest]) (g_pend s1)).

(* the process dies, and a new one opens the same file; the size is set by the first configuration update
   (main.cpp:105-126, handle.cpp:690-803), which the model folds into the restart *)
Definition on_crash (s : gstate) : result :=
  (mk_g (g_disk s) (g_disk s) (qb_size (g_disk s)) (g_cap s) [] [] [] None false,
   map (fun r => Dropped (dr_corr r)) (g_pend s) ++ [Crashed]).

Definition gstep (s : gstate) (i : input) : result :=
  match i with
  | IConfigure cap ws => on_configure cap ws s
  | IEnqueue corr pid q id t c avail now => on_enqueue corr pid q id t c avail now (tick now s)
  | IDequeue corr pid q sel t block now => on_dequeue corr pid q sel t block now (tick now s)
  | IForget corr pid => on_forget corr pid s
  | IBrowse corr pid q last now =>
      let '(s1, a1, o) := apply_op corr (Browse q last now) s in
      (s1, a1 ++ [Sent pid corr (RBrowse (match o with GotMessage m => m | _ => None end))])
  | ICommit corr pid t now => on_commit corr pid t now (tick now s)
  | IPrepare corr pid t => (s, [Sent pid corr (RPrepare t)])            (* handle.cpp:476-490 *)
  | IRollback corr pid t sqlnow now => on_rollback corr pid t sqlnow now (tick now s)
  | IRecovery corr pid commit gs sqlnow => on_recovery corr pid commit gs sqlnow s
  | IRestore corr pid qs now => on_restore corr pid qs now (tick now s)
  | IClear corr pid qs => on_clear corr pid qs s
  | IRemove corr pid force q ids => on_remove corr pid force q ids s
  | IMetricReset corr pid qs =>                                     (* handle.cpp:614-625 *)
      let '(s1, a1, _) := apply_op corr (MetricReset qs) s in (s1, a1 ++ [Sent pid corr RMetricReset])
  | ITimeout now =>                                                  (* handle.cpp:565-580 *)
      let s1 := tick now s in
      let s2 := w_timer (g_timer s1) false s1 in
      match g_replies s2 with [] => sweep now s2 | _ => (s2, []) end
  | IExit pid => on_exit pid s
  | IIdle now => handle_persist now (tick now s)                     (* main.cpp:132-136 *)
  | IShutdown now => on_shutdown now (tick now s)
  | ICrash => on_crash s
  end.

(* [run s l s']: handling the inputs of [l] one after the other performs the listed actions *)
Inductive run : gstate -> list (input * list action) -> gstate -> Prop :=
| run_nil : forall s, run s [] s
| run_cons : forall s i a s1 l s2, gstep s i = (s1, a) -> run s1 l s2 -> run s ((i, a) :: l) s2.

(* the same as a function *)
Fixpoint grun (s : gstate) (is : list input) : gstate * list (input * list action) :=
  match is with
  | [] => (s, [])
  | i :: rest => let '(s1, a) := gstep s i in let '(s2, l) := grun s1 rest in (s2, (i, a) :: l)
  end.

Definition trace (l : list (input * list action)) : list action := List.concat (map snd l).

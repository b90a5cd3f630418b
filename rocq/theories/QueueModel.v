(* Model of the queue-group's storage engine "Queuebase".

   Sources (all under /repo/middleware/queue):
     source/group/queuebase.cpp            the Queuebase methods
     source/group/queuebase/statement.cpp  the SQL statements
     include/queue/group/queuebase/schema.h  the tables, constraints and triggers

   The two SQLite tables are lists of rows.  Every SQL statement is a function on the
   tables; constraints (PRIMARY KEY, FOREIGN KEY with PRAGMA foreign_keys=ON, UNIQUE name) make
   the statement fail ([None]) without effect, as SQLite does for a statement that violates one.

   Simplifications, valid for the whole file:
   - uuids, global transaction ids, queue ids, times (microseconds) and bytes are [Z];
     gtrid 0 stands for the null transaction (zero-length blob);
   - 64-bit overflow of counters, ids and times is not modelled;
   - disk-full and I/O errors of SQLite are not modelled. *)

From Coq Require Import ZArith List String Bool Lia.
Import ListNotations.
Local Open Scope Z_scope.

(* What the user supplies with a message and gets back.
   statement.cpp:24-39, queue::ipc::message::group::Message (attributes + payload). *)
Record content := mk_content {
  c_props   : string;
  c_reply   : string;
  c_type    : string;
  c_payload : list Z
}.

(* A row of table message.  schema.h:32-46.  State: 1 added, 2 enqueued, 3 dequeued
   (queuebase.h, message::State). *)
Record msg := mk_msg {
  m_id        : Z;
  m_queue     : Z;
  m_origin    : Z;
  m_gtrid     : Z;
  m_state     : Z;
  m_redel     : Z;
  m_avail     : Z;
  m_ts        : Z;
  m_content   : content
}.

(* A row of table queue.  schema.h:15-29.  Column created is constant after insert and not read
   by any decision; it is left out. *)
Record qrow := mk_q {
  q_id          : Z;
  q_name        : string;
  q_retry_count : Z;
  q_retry_delay : Z;
  q_error       : Z;
  q_count       : Z;
  q_size        : Z;
  q_uncommitted : Z;
  q_dequeued    : Z;
  q_enqueued    : Z;
  q_last        : Z
}.

(* The database.  [msgs] is in ROWID order: an implicit ROWID is max+1, so an INSERT appends. *)
Record db := mk_db { msgs : list msg; queues : list qrow }.

(* An empty queue base, as created by Queuebase::Queuebase on a new file. queuebase.cpp:175-262 *)
Definition db_empty : db := mk_db [] [].

(* length( payload) of a row; coalesce( length, 0) for an absent blob *)
Definition plen (m : msg) : Z := Z.of_nat (List.length (c_payload (m_content m))).

(* ---------------------------------------------------------------- record updates *)

(* UPDATE ... SET gtrid, state *)
Definition set_taken (g : Z) (m : msg) : msg :=
  mk_msg (m_id m) (m_queue m) (m_origin m) g 3 (m_redel m) (m_avail m) (m_ts m) (m_content m).

(* UPDATE ... SET state = 2   (commit1, statement.cpp:78) *)
Definition set_committed (m : msg) : msg :=
  mk_msg (m_id m) (m_queue m) (m_origin m) (m_gtrid m) 2 (m_redel m) (m_avail m) (m_ts m) (m_content m).

(* UPDATE ... SET state = 2, redelivered = redelivered + 1, available = a (rollback2, statement.cpp:102-113) *)
Definition set_redelivered (a : Z) (m : msg) : msg :=
  mk_msg (m_id m) (m_queue m) (m_origin m) (m_gtrid m) 2 (m_redel m + 1) a (m_ts m) (m_content m).

(* UPDATE ... SET redelivered = 0, queue = queue - 1, available = 0 (rollback3, statement.cpp:115-119) *)
Definition set_error_moved (m : msg) : msg :=
  mk_msg (m_id m) (m_queue m - 1) (m_origin m) (m_gtrid m) (m_state m) 0 0 (m_ts m) (m_content m).

(* UPDATE ... SET queue = :queue (restore, statement.cpp:267-270) *)
Definition set_queue (q : Z) (m : msg) : msg :=
  mk_msg (m_id m) q (m_origin m) (m_gtrid m) (m_state m) (m_redel m) (m_avail m) (m_ts m) (m_content m).

(* SET on table queue of the numeric columns *)
Definition q_add (dcount dsize dunc ddeq denq : Z) (last : Z) (q : qrow) : qrow :=
  mk_q (q_id q) (q_name q) (q_retry_count q) (q_retry_delay q) (q_error q)
       (q_count q + dcount) (q_size q + dsize) (q_uncommitted q + dunc)
       (q_dequeued q + ddeq) (q_enqueued q + denq) last.

(* ---------------------------------------------------------------- triggers *)

(* TRIGGER insert_message.  schema.h:71-86 *)
Definition trig_insert (new : msg) (q : qrow) : qrow :=
  let q1 := if (q_id q =? m_queue new) && (m_state new =? 1)
            then q_add 0 0 1 0 0 (m_ts new) q else q in
  if (q_id q1 =? m_queue new) && (m_state new =? 2)
  then q_add 1 (plen new) 0 0 1 (m_ts new) q1 else q1.

(* TRIGGER update_message_state (fires for statements that SET state).  schema.h:88-97 *)
Definition trig_state (old new : msg) (q : qrow) : qrow :=
  if (q_id q =? m_queue new) && (m_state old =? 1) && (m_state new =? 2)
  then q_add 1 (plen new) (-1) 0 1 (m_ts new) q else q.

(* TRIGGER update_message_queue (fires for statements that SET queue).  schema.h:99-116 *)
Definition trig_queue (old new : msg) (q : qrow) : qrow :=
  let q1 := if (q_id q =? m_queue new) && negb (m_queue new =? m_queue old)
            then q_add 1 (plen new) 0 0 1 (Z.max (q_last q) (m_ts new)) q else q in
  if (q_id q1 =? m_queue old) && negb (m_queue old =? m_queue new)
  then q_add (-1) (- plen old) 0 1 0 (Z.max (q_last q1) (m_ts new)) q1 else q1.

(* TRIGGER delete_message.  schema.h:118-132 *)
Definition trig_delete (old : msg) (q : qrow) : qrow :=
  let q1 := if (q_id q =? m_queue old) && ((m_state old =? 2) || (m_state old =? 3))
            then q_add (-1) (- plen old) 0 1 0 (m_ts old) q else q in
  if (q_id q1 =? m_queue old) && (m_state old =? 1)
  then q_add 0 0 (-1) 0 0 (q_last q1) q1 else q1.

(* row triggers run once for each affected row, in row order *)
Definition run_triggers {A} (trig : A -> qrow -> qrow) (rows : list A) (qs : list qrow) : list qrow :=
  fold_left (fun qs r => map (trig r) qs) rows qs.

(* ---------------------------------------------------------------- generic statements *)

(* FOREIGN KEY (queue) REFERENCES queue( id), schema.h:45; PRAGMA foreign_keys=ON,
   thirdparty/database/include/sql/database.h:522.  Immediate constraint: checked at the end of the statement. *)
Definition has_queue (qs : list qrow) (id : Z) : bool := existsb (fun q => q_id q =? id) qs.

Definition fk_ok (d : db) : bool := forallb (fun m => has_queue (queues d) (m_queue m)) (msgs d).

(* DELETE FROM message WHERE p *)
Definition delete_where (p : msg -> bool) (d : db) : db :=
  mk_db (filter (fun m => negb (p m)) (msgs d))
        (run_triggers trig_delete (filter p (msgs d)) (queues d)).

(* UPDATE message SET ..., state = ... WHERE p   (column queue is not in the SET list) *)
Definition update_state_where (p : msg -> bool) (f : msg -> msg) (d : db) : db :=
  mk_db (map (fun m => if p m then f m else m) (msgs d))
        (run_triggers (fun m => trig_state m (f m)) (filter p (msgs d)) (queues d)).

(* UPDATE message SET ..., queue = ... WHERE p   (column state is not in the SET list) *)
Definition update_queue_where (p : msg -> bool) (f : msg -> msg) (d : db) : option db :=
  let d' := mk_db (map (fun m => if p m then f m else m) (msgs d))
                  (run_triggers (fun m => trig_queue m (f m)) (filter p (msgs d)) (queues d)) in
  if fk_ok d' then Some d' else None.

(* changes() after a statement with WHERE p: number of matching rows *)
Definition affected (p : msg -> bool) (d : db) : Z := Z.of_nat (List.length (filter p (msgs d))).

Definition sum_len (ms : list msg) : Z := fold_right (fun m s => plen m + s) 0 ms.

(* ---------------------------------------------------------------- the statements *)

(* commit1, statement.cpp:78 *)
Definition commit1_p (g : Z) (m : msg) : bool := (m_gtrid m =? g) && (m_state m =? 1).
(* commit2, statement.cpp:79 *)
Definition commit2_p (g : Z) (m : msg) : bool := (m_gtrid m =? g) && (m_state m =? 3).
(* rollback1, statement.cpp:99 *)
Definition rollback1_p (g : Z) (m : msg) : bool := (m_gtrid m =? g) && (m_state m =? 1).
(* rollback2, statement.cpp:102-113 *)
Definition rollback2_p (g : Z) (m : msg) : bool := (m_gtrid m =? g) && (m_state m =? 3).

Definition find_q (qs : list qrow) (id : Z) : option qrow := find (fun q => q_id q =? id) qs.

(* rollback2: available = ( SELECT CASE WHEN retry_delay = 0 THEN 0 ELSE now + retry_delay END FROM queue WHERE id = message.queue).
   [sqlnow] is julianday('now') in microseconds.  The sub-select is NULL, hence the NOT NULL
   constraint of column available fails, only if the queue row is absent; the foreign key excludes that, and the
   model returns the row's own value in that case. *)
Definition retry_available (qs : list qrow) (sqlnow : Z) (m : msg) : Z :=
  match find_q qs (m_queue m) with
  | Some q => if q_retry_delay q =? 0 then 0 else sqlnow + q_retry_delay q
  | None => m_avail m
  end.

(* rollback3, statement.cpp:115-119.  ( queue % 2) = 0 AND redelivered > ( SELECT retry_count ...); NULL compares as false. *)
Definition rollback3_p (qs : list qrow) (g : Z) (m : msg) : bool :=
  (m_gtrid m =? g) && (Z.rem (m_queue m) 2 =? 0) &&
  match find_q qs (m_queue m) with
  | Some q => q_retry_count q <? m_redel m
  | None => false
  end.

(* restore, statement.cpp:267-270 *)
Definition restore_p (q : Z) (m : msg) : bool :=
  negb (m_queue m =? m_origin m) && (m_state m =? 2) && (m_origin m =? q).
(* clear, statement.cpp:272-274 *)
Definition clear_p (q : Z) (m : msg) : bool := (m_state m =? 2) && (m_queue m =? q).
(* message.remove, statement.cpp:276-278 *)
Definition remove_p (q id : Z) (m : msg) : bool := (m_state m =? 2) && (m_queue m =? q) && (m_id m =? id).
(* message.force_remove, statement.cpp:280-282 *)
Definition force_remove_p (q id : Z) (m : msg) : bool := (m_queue m =? q) && (m_id m =? id).

(* dequeue.first / first_match / first_id candidates, statement.cpp:47-68 *)
Definition first_p (q now : Z) (m : msg) : bool :=
  (m_queue m =? q) && (m_state m =? 2) && (m_avail m <? now).
Definition first_match_p (q : Z) (props : string) (now : Z) (m : msg) : bool :=
  (m_queue m =? q) && (m_state m =? 2) && (String.eqb (c_props (m_content m)) props) && (m_avail m <? now).
Definition first_id_p (id q : Z) (m : msg) : bool :=
  (m_id m =? id) && (m_queue m =? q) && (m_state m =? 2).
(* browse.first, statement.cpp:256-261 *)
Definition browse_p (q last now : Z) (m : msg) : bool :=
  (m_queue m =? q) && (m_state m =? 2) && (last <? m_ts m) && (m_avail m <? now).

(* ORDER BY timestamp ASC, available ASC LIMIT 1.  Rows equal in both keys come in ROWID order
   (index i_dequeue_message ends in the ROWID), so the first of the list wins. *)
Definition earlier (a b : msg) : bool :=
  (m_ts a <? m_ts b) || ((m_ts a =? m_ts b) && (m_avail a <? m_avail b)).
(* SELECT ..., MIN( timestamp), ...: the bare columns come from a row that has the minimum; ties are resolved
   to the first row here (SQLite leaves it unspecified). *)
Definition earlier_ts (a b : msg) : bool := m_ts a <? m_ts b.

Fixpoint select_min (lt : msg -> msg -> bool) (ms : list msg) : option msg :=
  match ms with
  | [] => None
  | m :: rest =>
      match select_min lt rest with
      | Some b => if lt b m then Some b else Some m
      | None => Some m
      end
  end.

(* INSERT INTO message (statement.cpp:40): PRIMARY KEY id, FOREIGN KEY queue *)
Definition insert_msg (m : msg) (d : db) : option db :=
  if existsb (fun r => m_id r =? m_id m) (msgs d) then None
  else if negb (has_queue (queues d) (m_queue m)) then None
  else Some (mk_db (msgs d ++ [m]) (map (trig_insert m) (queues d))).

(* ---------------------------------------------------------------- Queuebase methods *)

(* selector of a dequeue request: queue/common/ipc/message.h, message::Selector; null uuid = None *)
Record selector := mk_sel { sel_id : option Z; sel_props : string }.
Definition no_selector : selector := mk_sel None "".

(* Queuebase::enqueue, queuebase.cpp:375-404.  [id] is the id given in the request, or the one made by
   uuid::make when none is given (the model lets the environment choose any value: a collision fails on the key). *)
Definition qb_enqueue (q id trid : Z) (c : content) (avail now : Z) (d : db) : option db :=
  insert_msg (mk_msg id q q trid (if trid =? 0 then 2 else 1) 0 avail now c) d.

(* the fetch lambda of Queuebase::dequeue, queuebase.cpp:412-433 *)
Definition qb_fetch (q : Z) (s : selector) (now : Z) (d : db) : option msg :=
  match sel_id s with
  | Some i => hd_error (filter (first_id_p i q) (msgs d))
  | None =>
      if String.eqb (sel_props s) "" then
        select_min earlier (filter (first_p q now) (msgs d))
      else
        select_min earlier_ts (filter (first_match_p q (sel_props s) now) (msgs d))
  end.

(* Queuebase::dequeue, queuebase.cpp:406-457; state.xid / state.nullxid statement.cpp:72-73.
   The ROWID of the fetched row is modelled by its unique id. *)
Definition qb_dequeue (q : Z) (s : selector) (trid now : Z) (d : db) : db * option msg :=
  match qb_fetch q s now d with
  | Some m =>
      if trid =? 0 then (delete_where (fun r => m_id r =? m_id m) d, Some m)
      else (update_state_where (fun r => m_id r =? m_id m) (set_taken trid) d, Some m)
  | None => (d, None)
  end.

(* Queuebase::browse, queuebase.cpp:509-528 *)
Definition qb_browse (q last now : Z) (d : db) : option msg :=
  select_min earlier (filter (browse_p q last now) (msgs d)).

(* Queuebase::peek (messages), queuebase.cpp:484-506, for one id; statement.cpp:234-248 *)
Definition qb_peek (id : Z) (d : db) : option msg := hd_error (filter (fun m => m_id m =? id) (msgs d)).

(* Queuebase::commit, queuebase.cpp:662-673: commit1, then commit2 RETURNING length( payload) *)
Definition qb_commit (g : Z) (d : db) : db * Z :=
  let d1 := update_state_where (commit1_p g) set_committed d in
  (delete_where (commit2_p g) d1, sum_len (filter (commit2_p g) (msgs d1))).

(* the three statements of Queuebase::rollback, queuebase.cpp:675-689.  [None] for the table: an
   exception escaped; the statements before it keep their effect. *)
Definition qb_rollback (g sqlnow : Z) (d : db) : db * option Z :=
  let size := sum_len (filter (rollback1_p g) (msgs d)) in
  let d1 := delete_where (rollback1_p g) d in
  let d2 := update_state_where (rollback2_p g)
              (fun m => set_redelivered (retry_available (queues d1) sqlnow m) m) d1 in
  match update_queue_where (rollback3_p (queues d2) g) set_error_moved d2 with
  | Some d3 => (d3, Some size)
  | None => (d2, None)
  end.

(* Queuebase::recovery_commit, queuebase.cpp:625-641: in list order, keep the gtrids with affected rows *)
Fixpoint qb_recovery_commit (gs : list Z) (d : db) : db * Z * list Z :=
  match gs with
  | [] => (d, 0, [])
  | g :: rest =>
      let a1 := affected (commit1_p g) d in
      let d1 := update_state_where (commit1_p g) set_committed d in
      let a2 := affected (commit2_p g) d1 in
      let size := sum_len (filter (commit2_p g) (msgs d1)) in
      let d2 := delete_where (commit2_p g) d1 in
      let '(d3, s, kept) := qb_recovery_commit rest d2 in
      (d3, size + s, if (a1 =? 0) && (a2 =? 0) then kept else g :: kept)
  end.

(* Queuebase::recovery_rollback, queuebase.cpp:643-660; result None: exception from rollback3 *)
Fixpoint qb_recovery_rollback (gs : list Z) (sqlnow : Z) (d : db) : db * option (Z * list Z) :=
  match gs with
  | [] => (d, Some (0, []))
  | g :: rest =>
      let a1 := affected (rollback1_p g) d in
      let size := sum_len (filter (rollback1_p g) (msgs d)) in
      let d1 := delete_where (rollback1_p g) d in
      let a2 := affected (rollback2_p g) d1 in
      let d2 := update_state_where (rollback2_p g)
                  (fun m => set_redelivered (retry_available (queues d1) sqlnow m) m) d1 in
      match update_queue_where (rollback3_p (queues d2) g) set_error_moved d2 with
      | None => (d2, None)
      | Some d3 =>
          match qb_recovery_rollback rest sqlnow d3 with
          | (d4, Some (s, kept)) =>
              (d4, Some (size + s, if (a1 =? 0) && (a2 =? 0) then kept else g :: kept))
          | (d4, None) => (d4, None)
          end
      end
  end.

(* Queuebase::restore, queuebase.cpp:583-590 *)
Definition qb_restore (q : Z) (d : db) : db * option Z :=
  match update_queue_where (restore_p q) (set_queue q) d with
  | Some d' => (d', Some (affected (restore_p q) d))
  | None => (d, None)
  end.

(* Queuebase::clear, queuebase.cpp:592-599 *)
Definition qb_clear (q : Z) (d : db) : db * Z :=
  (delete_where (clear_p q) d, affected (clear_p q) d).

(* Queuebase::remove / force_remove (messages), queuebase.cpp:601-623; returns the ids that were removed.
   algorithm::remove_if evaluates the predicate once per element, in order. *)
Fixpoint qb_remove (p : Z -> Z -> msg -> bool) (q : Z) (ids : list Z) (d : db) : db * list Z :=
  match ids with
  | [] => (d, [])
  | id :: rest =>
      let '(d', kept) := qb_remove p q rest (delete_where (p q id) d) in
      (d', if affected (p q id) d =? 0 then kept else id :: kept)
  end.

(* Queuebase::metric_reset, queuebase.cpp:753-763; statement.cpp:284-287 *)
Definition qb_metric_reset (ids : list Z) (d : db) : db :=
  fold_left (fun d id => mk_db (msgs d)
     (map (fun q => if q_id q =? id
                    then mk_q (q_id q) (q_name q) (q_retry_count q) (q_retry_delay q) (q_error q)
                              (q_count q) (q_size q) (q_uncommitted q) 0 0 (q_last q)
                    else q) (queues d))) ids d.

(* Queuebase::size, queuebase.cpp:743-751; statement.cpp:289-291: sum( length( payload)) over all rows *)
Definition qb_size (d : db) : Z := sum_len (msgs d).

(* Queuebase::available (one queue), queuebase.cpp:562-581; SELECT MIN( available) ... state = 2, statement.cpp:131-134 *)
Definition qb_available (q : Z) (d : db) : option Z :=
  fold_right (fun m acc => if (m_queue m =? q) && (m_state m =? 2)
                           then match acc with Some a => Some (Z.min (m_avail m) a) | None => Some (m_avail m) end
                           else acc) None (msgs d).

(* ---------------------------------------------------------------- queues: create, update, remove, configure *)

Definition name_taken (qs : list qrow) (n : string) : bool := existsb (fun q => String.eqb (q_name q) n) qs.
Definition max_id (qs : list qrow) : Z := fold_right (fun q a => Z.max (q_id q) a) 0 qs.

(* INSERT INTO queue VALUES ( NULL, ...): id is max+1; UNIQUE name *)
Definition insert_queue (n : string) (count delay error : Z) (qs : list qrow) : option (list qrow * Z) :=
  if name_taken qs n then None
  else let id := max_id qs + 1 in
       Some (qs ++ [mk_q id n count delay error 0 0 0 0 0 0], id).

(* Queuebase::create, queuebase.cpp:275-309 *)
Definition error_name (n : string) : string := (n ++ ".error")%string.
Definition qb_create (n : string) (count delay : Z) (d : db) : option db :=
  match insert_queue (error_name n) 0 0 0 (queues d) with
  | None => None
  | Some (qs1, err) =>
      match insert_queue n count delay err qs1 with
      | None => None
      | Some (qs2, _) => Some (mk_db (msgs d) qs2)
      end
  end.

(* UPDATE queue SET name, retry_count, retry_delay WHERE id; UNIQUE name *)
Definition update_queue_row (id : Z) (n : string) (count delay : Z) (qs : list qrow) : option (list qrow) :=
  if existsb (fun q => String.eqb (q_name q) n && negb (q_id q =? id)) qs && has_queue qs id then None
  else Some (map (fun q => if q_id q =? id
                   then mk_q (q_id q) n count delay (q_error q) (q_count q) (q_size q)
                             (q_uncommitted q) (q_dequeued q) (q_enqueued q) (q_last q)
                   else q) qs).

(* Queuebase::update( queue), queuebase.cpp:311-323 *)
Definition qb_update (id : Z) (n : string) (count delay : Z) (d : db) : option db :=
  match find_q (queues d) id with
  | None => Some d
  | Some existing =>
      match update_queue_row id n count delay (queues d) with
      | None => None
      | Some qs1 =>
          match update_queue_row (q_error existing) (error_name n) 0 0 qs1 with
          | None => None
          | Some qs2 => Some (mk_db (msgs d) qs2)
          end
      end
  end.

(* DELETE FROM queue WHERE id; fails when a message still refers to the queue (foreign key) *)
Definition delete_queue_row (id : Z) (d : db) : option db :=
  let d' := mk_db (msgs d) (filter (fun q => negb (q_id q =? id)) (queues d)) in
  if fk_ok d' then Some d' else None.

(* Queuebase::remove( queue), queuebase.cpp:324-335 *)
Definition qb_remove_queue (id : Z) (d : db) : option db :=
  match find_q (queues d) id with
  | None => Some d
  | Some existing =>
      match delete_queue_row (q_error existing) d with
      | None => None
      | Some d1 => delete_queue_row (q_id existing) d1
      end
  end.

Fixpoint fold_opt {A S} (f : A -> S -> option S) (l : list A) (s : S) : option S :=
  match l with
  | [] => Some s
  | a :: rest => match f a s with None => None | Some s' => fold_opt f rest s' end
  end.

(* a queue wanted by configuration: name, retry.count, retry.delay *)
Record wanted := mk_wanted { w_name : string; w_count : Z; w_delay : Z }.

Definition find_name (qs : list qrow) (n : string) : option qrow := find (fun q => String.eqb (q_name q) n) qs.

(* the zombies: existing queues that are neither a wanted queue nor the error queue of one. handle.cpp:722-729.
   A wanted queue that does not exist yet has no valid id or error, and matches nothing. *)
Definition is_wanted (qs : list qrow) (ws : list wanted) (q : qrow) : bool :=
  existsb (fun w => match find_name qs (w_name w) with
                    | Some f => (q_id q =? q_id f) || (q_id q =? q_error f)
                    | None => false
                    end) ws.
Definition zombies_of (qs : list qrow) (ws : list wanted) : list qrow :=
  filter (fun q => negb (is_wanted qs ws q)) qs.

(* join every zombie queue with its zombie error queue, keep the pairs without messages. handle.cpp:731-752.
   type() == queue iff error is valid (message.h:693). *)
Definition empty_pairs (zs : list qrow) : list (Z * Z) :=
  flat_map (fun z =>
    if q_error z =? 0 then [] else
    match find_q zs (q_error z) with
    | None => []
    | Some e => if (0 <? q_count z) || (0 <? q_count e) then [] else [(q_id z, q_id e)]
    end) zs.

(* the group's configuration update, handle.cpp:690-803, with Queuebase::update( list), queuebase.cpp:338-356.
   The whole update runs between two persists; if anything throws it is rolled back. *)
Definition qb_configure (ws : list wanted) (d : db) : option db :=
  let qs := queues d in
  let pairs := empty_pairs (zombies_of qs ws) in
  let removes := (map fst pairs ++ map snd pairs)%list in
  let known := filter (fun w => match find_name qs (w_name w) with Some _ => true | None => false end) ws in
  let fresh := filter (fun w => match find_name qs (w_name w) with Some _ => false | None => true end) ws in
  match fold_opt qb_remove_queue removes d with
  | None => None
  | Some d1 =>
      match fold_opt (fun w d => match find_name qs (w_name w) with
                                 | Some f => qb_update (q_id f) (w_name w) (w_count w) (w_delay w) d
                                 | None => Some d end) known d1 with
      | None => None
      | Some d2 => fold_opt (fun w d => qb_create (w_name w) (w_count w) (w_delay w) d) fresh d2
      end
  end.

(* ---------------------------------------------------------------- operations and histories *)

(* The requests a queue group applies to its queue base, with the environment's choices
   (clock readings, generated ids) as parameters. *)
Inductive op :=
| Configure (ws : list wanted)
| Enqueue (q id trid : Z) (c : content) (avail now : Z)
| Dequeue (q : Z) (s : selector) (trid now : Z)
| Browse (q last now : Z)
| Commit (g : Z)
| Rollback (g sqlnow : Z)
| RecoveryCommit (gs : list Z)
| RecoveryRollback (gs : list Z) (sqlnow : Z)
| Restore (q : Z)
| Clear (q : Z)
| Remove (force : bool) (q : Z) (ids : list Z)
| MetricReset (qs : list Z).

Inductive out :=
| Failed
| Done
| GotMessage (m : option msg)
| Affected (n : Z)
| Removed (ids : list Z)
| Recovered (size : Z) (gs : list Z).

(* one request; an exception gives [Failed] *)
Definition step (d : db) (o : op) : db * out :=
  match o with
  | Configure ws => match qb_configure ws d with Some d' => (d', Done) | None => (d, Failed) end
  | Enqueue q id trid c avail now =>
      match qb_enqueue q id trid c avail now d with Some d' => (d', Done) | None => (d, Failed) end
  | Dequeue q s trid now => let '(d', r) := qb_dequeue q s trid now d in (d', GotMessage r)
  | Browse q last now => (d, GotMessage (qb_browse q last now d))
  | Commit g => let '(d', s) := qb_commit g d in (d', Affected s)
  | Rollback g sqlnow =>
      match qb_rollback g sqlnow d with (d', Some s) => (d', Affected s) | (d', None) => (d', Failed) end
  | RecoveryCommit gs => let '(d', s, kept) := qb_recovery_commit gs d in (d', Recovered s kept)
  | RecoveryRollback gs sqlnow =>
      match qb_recovery_rollback gs sqlnow d with
      | (d', Some (s, kept)) => (d', Recovered s kept)
      | (d', None) => (d', Failed)
      end
  | Restore q => match qb_restore q d with (d', Some n) => (d', Affected n) | (d', None) => (d', Failed) end
  | Clear q => let '(d', n) := qb_clear q d in (d', Affected n)
  | Remove force q ids =>
      let '(d', kept) := qb_remove (if force then force_remove_p else remove_p) q ids d in (d', Removed kept)
  | MetricReset qs => (qb_metric_reset qs d, Done)
  end.

Definition event := (op * out)%type.

(* [history d tr d']: executing the requests of [tr] from [d] gives the listed answers and ends in [d'] *)
Inductive history : db -> list event -> db -> Prop :=
| h_nil : forall d, history d [] d
| h_cons : forall d o r d1 tr d2,
    step d o = (d1, r) -> history d1 tr d2 -> history d ((o, r) :: tr) d2.

(* a queue base reachable from a new file *)
Definition reachable (d : db) : Prop := exists tr, history db_empty tr d.

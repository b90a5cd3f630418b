(* Vocabulary for the queue properties: predicates on the requests and answers a user sees.
   Nothing here refers to how Queuebase stores messages, apart from the table rows themselves. *)

From Coq Require Import ZArith List String Bool Lia.
From Verif Require Import QueueModel.
Import ListNotations.
Local Open Scope Z_scope.

(* the request enqueued message [id] in transaction [g] (0: no transaction) and was accepted *)
Definition enqueued (id g : Z) (e : event) : Prop :=
  exists q c a n, e = (Enqueue q id g c a n, Done).

(* some request enqueued message [id] and was accepted *)
Definition enqueued_any (id : Z) (e : event) : Prop := exists g, enqueued id g e.

(* a dequeue in transaction [g] (0: none) was answered with message [id] *)
Definition dequeued (id g : Z) (e : event) : Prop :=
  exists q s n m, e = (Dequeue q s g n, GotMessage (Some m)) /\ m_id m = id.

(* a browse was answered with message [id] *)
Definition browsed (id : Z) (e : event) : Prop :=
  exists q l n m, e = (Browse q l n, GotMessage (Some m)) /\ m_id m = id.

(* message [id] was shown to a consumer *)
Definition shown (id : Z) (e : event) : Prop := (exists g, dequeued id g e) \/ browsed id e.

(* the event commits / rolls back transaction [g], on request of the transaction manager or by recovery *)
Definition commits (g : Z) (e : event) : Prop :=
  fst e = Commit g \/ exists gs, fst e = RecoveryCommit gs /\ In g gs.
Definition rolls_back (g : Z) (e : event) : Prop :=
  (exists n, fst e = Rollback g n) \/ exists gs n, fst e = RecoveryRollback gs n /\ In g gs.

(* the event explicitly clears queue [q] *)
Definition clears (q : Z) (e : event) : Prop := fst e = Clear q.
(* the event explicitly removed message [id], and said so *)
Definition removes (id : Z) (e : event) : Prop :=
  exists f q ids kept, e = (Remove f q ids, Removed kept) /\ In id kept.

(* The legitimate ends of a message [id] that was enqueued in queue [q] by transaction [g], during the
   later events [t]. *)
Inductive consumed (id q g : Z) (t : list event) : Prop :=
| by_rollback_of_enqueuer : forall u e v,
    t = u ++ e :: v -> g <> 0 -> rolls_back g e -> (forall x, In x u -> ~ commits g x) -> consumed id q g t
| by_plain_dequeue : forall e, In e t -> dequeued id 0 e -> consumed id q g t
| by_commit_of_dequeuer : forall h u e v f w,
    t = u ++ e :: v ++ f :: w -> h <> 0 -> dequeued id h e -> commits h f ->
    (forall x, In x v -> ~ rolls_back h x) -> consumed id q g t
| by_clear : forall e q', In e t -> clears q' e -> (q' = q \/ q' = q - 1) -> consumed id q g t
| by_remove : forall e, In e t -> removes id e -> consumed id q g t.

(* a message that a consumer may get from queue [q] at time [now]: committed, held by nobody, its time has come *)
Definition deliverable (q now : Z) (m : msg) : Prop :=
  m_queue m = q /\ m_state m = 2 /\ m_avail m < now.

(* the messages of table [ms] in queue [q] that count as committed / uncommitted *)
Definition committed_in (q : Z) (ms : list msg) : list msg :=
  filter (fun m => (m_queue m =? q) && negb (m_state m =? 1)) ms.
Definition uncommitted_in (q : Z) (ms : list msg) : list msg :=
  filter (fun m => (m_queue m =? q) && (m_state m =? 1)) ms.
Definition total_payload (ms : list msg) : Z :=
  fold_right Z.add 0 (map (fun m => Z.of_nat (List.length (c_payload (m_content m)))) ms).

(* transaction [g] has messages pending: enqueued and not committed, or dequeued and not settled *)
Definition pending (g : Z) (d : db) : Prop :=
  exists m, In m (msgs d) /\ m_gtrid m = g /\ (m_state m = 1 \/ m_state m = 3).

(* What rolling back its dequeuer does to message [m] of queue [q]: redelivered once more, or moved to the error queue. *)
Definition after_rollback (q : qrow) (sqlnow : Z) (m m' : msg) : Prop :=
  m_id m' = m_id m /\ m_content m' = m_content m /\ m_origin m' = m_origin m /\ m_ts m' = m_ts m /\
  m_state m' = 2 /\
  (   (q_retry_count q < m_redel m + 1 /\ q_error q <> 0 /\
        m_queue m' = q_error q /\ m_redel m' = 0 /\ m_avail m' = 0)
   \/ (~ (q_retry_count q < m_redel m + 1 /\ q_error q <> 0) /\
        m_queue m' = m_queue m /\ m_redel m' = m_redel m + 1 /\
        m_avail m' = if q_retry_delay q =? 0 then 0 else sqlnow + q_retry_delay q)).

(* queue [q] is one of the wanted queues, or the error queue of one *)
Definition in_use (ws : list wanted) (qs : list qrow) (q : qrow) : Prop :=
  exists w f, In w ws /\ In f qs /\ q_name f = w_name w /\ (q_id q = q_id f \/ q_id q = q_error f).

(* [q] is a queue, or the error queue of one, that nobody wants any more and that holds no (committed) messages *)
Definition obsolete (ws : list wanted) (qs : list qrow) (q : qrow) : Prop :=
  exists z e, In z qs /\ In e qs /\ q_error z = q_id e /\ ~ in_use ws qs z /\ ~ in_use ws qs e /\
    q_count z = 0 /\ q_count e = 0 /\ (q = z \/ q = e).

(* queue [w] exists with the wanted settings, and with an error queue of its own *)
Definition is_configured (w : wanted) (qs : list qrow) : Prop :=
  exists q e, In q qs /\ In e qs /\ q_name q = w_name w /\ q_retry_count q = w_count w /\ q_retry_delay q = w_delay w /\
    q_error q = q_id e /\ q_name e = error_name (w_name w) /\ q_error e = 0 /\ q_retry_count e = 0.

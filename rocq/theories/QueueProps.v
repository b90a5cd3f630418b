(* The properties of the queue group's storage: C01-C07, C10, C11, C36-C38. *)
From Coq Require Import ZArith List String Bool Lia.
From Verif Require Import QueueModel QueueSpec QueueProofs QueueHistory QueueLemmas QueueExact.
Import ListNotations.
Local Open Scope Z_scope.

(* ---------------------------------------------------------------- C01 *)

(* A message enqueued in a transaction is shown to a consumer (dequeue with any selector, or browse) only after that
   transaction was committed, and was not rolled back before. *)
Theorem C01_uncommitted_never_shown : forall t1 e1 t2 e2 t3 d i g,
  history db_empty (t1 ++ e1 :: t2 ++ e2 :: t3) d ->
  g <> 0 -> enqueued i g e1 -> (forall e, In e t2 -> ~ enqueued_any i e) -> shown i e2 ->
  exists u e v, t2 = u ++ e :: v /\ commits g e /\ forall x, In x u -> ~ rolls_back g x.
Proof. exact isolation_enqueue_sharp. Qed.

(* A message dequeued by somebody is shown again only if that was in a transaction, which was rolled back without
   being committed before. *)
Theorem C01_taken_never_shown : forall t1 e1 t2 e2 t3 d i g,
  history db_empty (t1 ++ e1 :: t2 ++ e2 :: t3) d ->
  dequeued i g e1 -> (forall e, In e t2 -> ~ enqueued_any i e) -> shown i e2 ->
  g <> 0 /\ exists u e v, t2 = u ++ e :: v /\ rolls_back g e /\ forall x, In x u -> ~ commits g x.
Proof. exact isolation_dequeue_sharp. Qed.

(* ---------------------------------------------------------------- C02 *)

Theorem C02_no_duplicate_delivery : forall t1 e1 t2 e2 t3 d i g h,
  history db_empty (t1 ++ e1 :: t2 ++ e2 :: t3) d ->
  dequeued i g e1 -> dequeued i h e2 -> (forall e, In e t2 -> ~ enqueued_any i e) ->
  g <> 0 /\ exists u e v, t2 = u ++ e :: v /\ rolls_back g e /\ forall x, In x u -> ~ commits g x.
Proof.
  exact (fun t1 e1 t2 e2 t3 d i g h H D E N =>
    isolation_dequeue_sharp t1 e1 t2 e2 t3 d i g H D N (or_introl (ex_intro _ h E))).
Qed.

(* ---------------------------------------------------------------- C03 *)

(* After an accepted enqueue the message is either still stored, unchanged, or has met one of the legitimate ends
   listed in QueueSpec.consumed. *)
Theorem C03_no_lost_message : forall t1 q i g c a n t2 d,
  history db_empty (t1 ++ (Enqueue q i g c a n, Done) :: t2) d ->
  consumed i q g t2 \/
  exists m, qb_peek i d = Some m /\ m_content m = c /\ m_origin m = q /\ m_ts m = n.
Proof. exact no_loss. Qed.

(* ---------------------------------------------------------------- C04 *)

(* Rolling back a transaction succeeds and treats each message it had dequeued as [after_rollback] says. *)
Theorem C04_rollback_of_dequeued : forall g n d m q,
  reachable d -> In m (msgs d) -> m_gtrid m = g -> m_state m = 3 -> find_q (queues d) (m_queue m) = Some q ->
  exists d' s m', step d (Rollback g n) = (d', Affected s) /\ qb_peek (m_id m) d' = Some m' /\ after_rollback q n m m'.
Proof. exact (fun g n d m q R => rollback_dequeued g n d m q (Inv_reachable d R)). Qed.

Theorem C04_rollback_of_enqueued : forall g n d m,
  reachable d -> In m (msgs d) -> m_gtrid m = g -> m_state m = 1 ->
  exists d' s, step d (Rollback g n) = (d', Affected s) /\ qb_peek (m_id m) d' = None.
Proof. exact (fun g n d m R => rollback_enqueued g n d m (Inv_reachable d R)). Qed.

(* Messages of other transactions, and settled messages within their retry limit, are not touched. *)
Theorem C04_rollback_leaves_others : forall g n d m q,
  reachable d -> In m (msgs d) -> find_q (queues d) (m_queue m) = Some q ->
  (m_gtrid m <> g \/ (m_state m = 2 /\ m_redel m <= q_retry_count q)) ->
  exists d' s, step d (Rollback g n) = (d', Affected s) /\ qb_peek (m_id m) d' = Some m.
Proof. exact (fun g n d m q R => rollback_other g n d m q (Inv_reachable d R)). Qed.

(* Every stored message is in an existing queue, and only proper queues have an error queue: it exists, and has none itself. *)
Theorem C04_error_queue_is_last_stop : forall d m,
  reachable d -> In m (msgs d) ->
  exists q, find_q (queues d) (m_queue m) = Some q /\
    (q_error q = 0 \/ exists e, find_q (queues d) (q_error q) = Some e /\ q_error e = 0).
Proof. exact error_queue_last. Qed.

(* ---------------------------------------------------------------- C05, C06 *)

Theorem C05_fifo : forall q t n d d' r,
  step d (Dequeue q no_selector t n) = (d', GotMessage r) ->
  match r with
  | Some m => In m (msgs d) /\ deliverable q n m /\
              (forall x, In x (msgs d) -> deliverable q n x -> m_ts m <= m_ts x)
  | None => forall x, In x (msgs d) -> ~ deliverable q n x
  end.
Proof. exact step_fifo. Qed.

Theorem C06_by_properties : forall q props t n d d' r,
  props <> ""%string ->
  step d (Dequeue q (mk_sel None props) t n) = (d', GotMessage r) ->
  match r with
  | Some m => In m (msgs d) /\ deliverable q n m /\ c_props (m_content m) = props /\
              (forall x, In x (msgs d) -> deliverable q n x -> c_props (m_content x) = props -> m_ts m <= m_ts x)
  | None => forall x, In x (msgs d) -> deliverable q n x -> c_props (m_content x) <> props
  end.
Proof. exact step_by_properties. Qed.

Theorem C06_by_id : forall q i props t n d d' r,
  step d (Dequeue q (mk_sel (Some i) props) t n) = (d', GotMessage r) ->
  match r with
  | Some m => In m (msgs d) /\ m_id m = i /\ m_queue m = q /\ m_state m = 2
  | None => forall x, In x (msgs d) -> m_id x = i -> m_queue x = q -> m_state x <> 2
  end.
Proof. exact step_by_id. Qed.

(* browsing goes forward through the deliverable messages, and changes nothing *)
Theorem C06_browse : forall q last n d d' r,
  step d (Browse q last n) = (d', GotMessage r) ->
  d' = d /\
  match r with
  | Some m => In m (msgs d) /\ deliverable q n m /\ last < m_ts m /\
              (forall x, In x (msgs d) -> deliverable q n x -> last < m_ts x -> m_ts m <= m_ts x)
  | None => forall x, In x (msgs d) -> deliverable q n x -> m_ts x <= last
  end.
Proof. exact step_browse. Qed.

(* What an answered dequeue does to the store: the message is gone (no transaction) or held by the
   transaction; every other message is untouched. *)
Theorem C05_dequeue_effect : forall q s t n d d' m,
  reachable d -> step d (Dequeue q s t n) = (d', GotMessage (Some m)) ->
  qb_peek (m_id m) d' = (if t =? 0 then None else Some (set_taken t m)) /\
  (forall x, m_id x <> m_id m -> (In x (msgs d') <-> In x (msgs d))).
Proof. exact dequeue_effect. Qed.

(* ---------------------------------------------------------------- C07 *)

Theorem C07_metrics_exact : forall d q,
  reachable d -> In q (queues d) ->
  q_count q = Z.of_nat (List.length (committed_in (q_id q) (msgs d))) /\
  q_size q = total_payload (committed_in (q_id q) (msgs d)) /\
  q_uncommitted q = Z.of_nat (List.length (uncommitted_in (q_id q) (msgs d))).
Proof. exact (fun d q R => metrics_exact d q (Inv_reachable d R)). Qed.

(* the enqueued/dequeued metrics balance the count, unless someone resets them *)
Theorem C07_flow_balances : forall tr d q,
  history db_empty tr d -> (forall l r, ~ In (MetricReset l, r) tr) -> In q (queues d) ->
  q_enqueued q - q_dequeued q = q_count q.
Proof. exact flow_balances. Qed.

(* ---------------------------------------------------------------- C10 *)

Theorem C10_restore_exact : forall d q,
  reachable d ->
  exists d', step d (Restore q) =
     (d', Affected (Z.of_nat (List.length
            (filter (fun m => negb (m_queue m =? q) && (m_state m =? 2) && (m_origin m =? q)) (msgs d))))) /\
   (forall m, In m (msgs d) ->
      qb_peek (m_id m) d' =
        Some (if negb (m_queue m =? q) && (m_state m =? 2) && (m_origin m =? q) then set_queue q m else m)) /\
   List.length (msgs d') = List.length (msgs d).
Proof. exact (fun d q R => restore_exact d q (Inv_reachable d R)). Qed.

(* ---------------------------------------------------------------- C11 *)

(* recovering a list of transactions = settling them one after the other, and the answer names exactly those
   that had something pending *)
Theorem C11_recovery_commit : forall gs d d' r,
  reachable d -> NoDup gs -> step d (RecoveryCommit gs) = (d', r) ->
  (exists tr, map fst tr = map Commit gs /\ history d tr d') /\
  exists s kept, r = Recovered s kept /\ (forall g, In g kept <-> In g gs /\ pending g d).
Proof. exact recovery_commit_full. Qed.

Theorem C11_recovery_rollback : forall gs n d d' r,
  reachable d -> NoDup gs -> step d (RecoveryRollback gs n) = (d', r) ->
  (exists tr, map fst tr = map (fun g => Rollback g n) gs /\ history d tr d') /\
  exists s kept, r = Recovered s kept /\ (forall g, In g kept <-> In g gs /\ pending g d).
Proof. exact recovery_rollback_full. Qed.

(* ---------------------------------------------------------------- C36 *)

(* Committing a transaction publishes exactly what it enqueued, removes exactly what it dequeued, touches nothing else,
   and reports the payload bytes it released. *)
Theorem C36_commit_exact : forall g d,
  reachable d ->
  exists d', step d (Commit g) =
      (d', Affected (total_payload (filter (fun m => (m_gtrid m =? g) && (m_state m =? 3)) (msgs d)))) /\
    (forall m, In m (msgs d) ->
       qb_peek (m_id m) d' = if m_gtrid m =? g then
                               if m_state m =? 1 then Some (set_committed m)
                               else if m_state m =? 3 then None else Some m
                             else Some m) /\
    (forall m', In m' (msgs d') -> exists m, In m (msgs d) /\ m_id m' = m_id m).
Proof. exact (fun g d R => commit_exact g d (Inv_reachable d R)). Qed.

(* ---------------------------------------------------------------- C37 *)

Theorem C37_clear_exact : forall q d d' r,
  step d (Clear q) = (d', r) ->
  r = Affected (Z.of_nat (List.length (filter (fun m => (m_queue m =? q) && (m_state m =? 2)) (msgs d)))) /\
  (forall m, In m (msgs d') <-> In m (msgs d) /\ ~ (m_queue m = q /\ m_state m = 2)).
Proof. exact clear_exact. Qed.

Theorem C37_remove_exact : forall force q ids d d' kept,
  step d (Remove force q ids) = (d', Removed kept) ->
  (forall m, In m (msgs d') <->
     In m (msgs d) /\ ~ (In (m_id m) ids /\ m_queue m = q /\ (force = true \/ m_state m = 2))) /\
  (forall id, In id kept <->
     In id ids /\ exists m, In m (msgs d) /\ m_id m = id /\ m_queue m = q /\ (force = true \/ m_state m = 2)).
Proof. exact remove_exact. Qed.

(* ---------------------------------------------------------------- C38 *)

(* An accepted configuration update: no message is touched; every wanted queue exists with its settings and an error queue;
   every other queue stays unless it is obsolete; nothing else appears.  The wanted names are distinct and none is
   the name of an existing error queue. *)
Theorem C38_configure : forall ws d d',
  reachable d -> NoDup (map w_name ws) ->
  (forall w q, In w ws -> In q (queues d) -> q_name q = w_name w -> q_error q <> 0) ->
  step d (Configure ws) = (d', Done) ->
  msgs d' = msgs d /\
  (forall w, In w ws -> is_configured w (queues d')) /\
  (forall q, In q (queues d) -> ~ obsolete ws (queues d) q ->
     exists q', In q' (queues d') /\ q_id q' = q_id q /\ q_name q' = q_name q /\ q_error q' = q_error q) /\
  (forall q', In q' (queues d') ->
     (exists q, In q (queues d) /\ ~ obsolete ws (queues d) q /\ q_id q' = q_id q /\ q_name q' = q_name q) \/
     (exists w, In w ws /\ (q_name q' = w_name w \/ q_name q' = error_name (w_name w)))).
Proof. exact configure_step. Qed.

(* queue names are unique in every reachable queue base *)
Theorem C38_unique_names : forall d, reachable d -> NoDup (map q_name (queues d)).
Proof. exact unique_names. Qed.

(* ---------------------------------------------------------------- a finding beside C04 *)

(* The unconditional frame property fails: statement rollback3 has no state filter and a row keeps its gtrid after it
   is settled, so a second rollback of the same global transaction (for instance for another branch) moves a message
   that the transaction no longer holds to the error queue, once the configuration has lowered the retry count. *)
Definition ex_content := mk_content "p" "" "X_OCTET/" [1; 2; 3].
Definition ex_resettle : list op :=
  [Configure [mk_wanted "a" 3 0];
   Enqueue 2 7 0 ex_content 0 100;
   Dequeue 2 no_selector 5 200;
   Rollback 5 300;
   Configure [mk_wanted "a" 0 0]].

Theorem C04_settled_message_moved_refuted :
  exists d m d' s m', reachable d /\ In m (msgs d) /\ m_state m = 2 /\ m_queue m = 2 /\
    step d (Rollback 5 400) = (d', Affected s) /\ qb_peek (m_id m) d' = Some m' /\ m_queue m' = 1.
Proof.
  exists (snd (exec db_empty ex_resettle)). eexists _, _, _, _.
  split; [apply exec_reachable|]. vm_compute. split; [left; reflexivity|]. repeat split; reflexivity.
Qed.

(* ---------------------------------------------------------------- the hypotheses can be met *)

Definition ex_ops : list op :=
  [Configure [mk_wanted "a" 1 0; mk_wanted "b" 0 50];
   Enqueue 2 7 5 ex_content 0 100;          (* in transaction 5 *)
   Enqueue 2 8 0 ex_content 0 90;
   Dequeue 2 no_selector 6 200;             (* gets 8, the only visible one *)
   Commit 5;
   Dequeue 2 no_selector 9 210;             (* gets 7 *)
   Rollback 9 220;
   Dequeue 2 no_selector 0 230;             (* 7 again *)
   Commit 6].

Example ex_history : exists t d, history db_empty t d /\ map fst t = ex_ops /\
  map snd t = [Done; Done; Done;
    GotMessage (Some (mk_msg 8 2 2 0 2 0 0 90 ex_content)); Affected 0;
    GotMessage (Some (mk_msg 7 2 2 5 2 0 0 100 ex_content)); Affected 0;
    GotMessage (Some (mk_msg 7 2 2 9 2 1 0 100 ex_content)); Affected 3] /\ msgs d = [].
Proof.
  exists (fst (exec db_empty ex_ops)), (snd (exec db_empty ex_ops)).
  split; [apply exec_history|]. vm_compute. auto.
Qed.

(* C01/C02: the event list splits as the theorems require *)
Example ex_C01 : exists t1 e1 t2 e2 t3 d, history db_empty (t1 ++ e1 :: t2 ++ e2 :: t3) d /\
  enqueued 7 5 e1 /\ (forall e, In e t2 -> ~ enqueued_any 7 e) /\ shown 7 e2.
Proof.
  pose proof (exec_history db_empty ex_ops) as H.
  remember (fst (exec db_empty ex_ops)) as t eqn:E. vm_compute in E. subst t.
  eexists [_], _, [_; _; _], _, [_; _; _], _. split; [exact H|]. split.
  - eexists _, _, _, _. reflexivity.
  - split.
    + intros e He (g&q&c&a&n&X). simpl in He. destruct He as [He|[He|[He|[]]]]; rewrite <- He in X; discriminate.
    + left. exists 9. eexists _, _, _, _. split; reflexivity.
Qed.

Example ex_C02 : exists t1 e1 t2 e2 t3 d, history db_empty (t1 ++ e1 :: t2 ++ e2 :: t3) d /\
  dequeued 7 9 e1 /\ dequeued 7 0 e2 /\ (forall e, In e t2 -> ~ enqueued_any 7 e).
Proof.
  pose proof (exec_history db_empty ex_ops) as H.
  remember (fst (exec db_empty ex_ops)) as t eqn:E. vm_compute in E. subst t.
  eexists [_; _; _; _; _], _, [_], _, [_], _. split; [exact H|]. split; [|split].
  - eexists _, _, _, _. split; reflexivity.
  - eexists _, _, _, _. split; reflexivity.
  - intros e He (g&q&c&a&n&X). simpl in He. destruct He as [He|[]]; rewrite <- He in X; discriminate.
Qed.

(* C04: both outcomes of a rollback occur; queue 2 has retry count 1 *)
Definition ex_retry : list op :=
  [Configure [mk_wanted "a" 1 0];
   Enqueue 2 7 0 ex_content 0 100;
   Dequeue 2 no_selector 5 200; Rollback 5 300].

Example ex_C04 :
  let d1 := snd (exec db_empty (ex_retry ++ [Dequeue 2 no_selector 6 400])) in
  let d2 := snd (exec db_empty (ex_retry ++ [Dequeue 2 no_selector 6 400; Rollback 6 500])) in
  qb_peek 7 d1 = Some (mk_msg 7 2 2 6 3 1 0 100 ex_content) /\
  qb_peek 7 d2 = Some (mk_msg 7 1 2 6 2 0 0 100 ex_content).
Proof. vm_compute. auto. Qed.

(* C10: a message in the error queue, restored *)
Example ex_C10 :
  let d := snd (exec db_empty (ex_retry ++ [Dequeue 2 no_selector 6 400; Rollback 6 500])) in
  snd (step d (Restore 2)) = Affected 1.
Proof. vm_compute. auto. Qed.

(* C11: transactions 5 and 6 are pending, 9 is not *)
Example ex_C11 :
  let d := snd (exec db_empty (firstn 4 ex_ops)) in
  snd (step d (RecoveryCommit [9; 5; 6])) = Recovered 3 [5; 6] /\
  snd (step d (RecoveryRollback [9; 5; 6] 300)) = Recovered 3 [5; 6].
Proof. vm_compute. auto. Qed.

(* C38: queue b is dropped, a reconfigured, c created; a holds a message *)
Example ex_C38 :
  let d := snd (exec db_empty (firstn 4 ex_ops)) in
  let ws := [mk_wanted "c" 2 3; mk_wanted "a" 9 8] in
  exists d', step d (Configure ws) = (d', Done) /\
    map (fun q => (q_id q, q_name q, q_retry_count q)) (queues d') =
      [(1, "a.error", 0); (2, "a", 9); (3, "c.error", 0); (4, "c", 2)]%string.
Proof. eexists. vm_compute. auto. Qed.

Print Assumptions C01_uncommitted_never_shown.
Print Assumptions C01_taken_never_shown.
Print Assumptions C02_no_duplicate_delivery.
Print Assumptions C03_no_lost_message.
Print Assumptions C04_rollback_of_dequeued.
Print Assumptions C04_rollback_of_enqueued.
Print Assumptions C04_rollback_leaves_others.
Print Assumptions C04_error_queue_is_last_stop.
Print Assumptions C04_settled_message_moved_refuted.
Print Assumptions C05_fifo.
Print Assumptions C05_dequeue_effect.
Print Assumptions C06_by_properties.
Print Assumptions C06_by_id.
Print Assumptions C06_browse.
Print Assumptions C07_metrics_exact.
Print Assumptions C07_flow_balances.
Print Assumptions C10_restore_exact.
Print Assumptions C11_recovery_commit.
Print Assumptions C11_recovery_rollback.
Print Assumptions C36_commit_exact.
Print Assumptions C37_clear_exact.
Print Assumptions C37_remove_exact.
Print Assumptions C38_configure.
Print Assumptions C38_unique_names.

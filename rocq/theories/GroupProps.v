(* The properties of the queue group's request handling: C08, C09, C12, C39-C41. *)
From Coq Require Import ZArith List String Bool Lia.
From Verif Require Import QueueModel QueueSpec QueueProofs QueueLemmas GroupModel GroupSpec GroupProofs GroupLemmas GroupServe.
Import ListNotations.
Local Open Scope Z_scope.

(* ---------------------------------------------------------------- C08 *)

(* the tracked size is the total payload stored, at all times *)
Theorem C08_size_tracked : forall l s, run g_init l s -> g_size s = total_payload (msgs (g_db s)).
Proof. exact size_tracked. Qed.

(* an enqueue that does not fit is refused, and changes nothing in the store *)
Theorem C08_too_big_is_refused : forall l s corr pid q id t c avail now cap,
  run g_init l s -> g_cap s = Some cap ->
  cap < total_payload (msgs (g_db s)) + Z.of_nat (List.length (c_payload c)) ->
  exists s', gstep s (IEnqueue corr pid q id t c avail now) = (s', [Sent pid corr (REnqueue false 0)]) /\ g_db s' = g_db s.
Proof. exact refused. Qed.

(* as long as the capacity stays configured as it was at first, the stored payload never exceeds it: whatever is requested,
   rolled back, recovered, removed, and wherever the process crashes *)
Theorem C08_capacity_kept : forall c ws l s,
  0 <= c -> run g_init l s -> (exists a l', l = (IConfigure (Some c) ws, a) :: l') ->
  (forall cap ws' a, In (IConfigure cap ws', a) l -> cap = Some c) ->
  total_payload (msgs (g_db s)) <= c.
Proof. exact capacity_kept. Qed.

(* ---------------------------------------------------------------- C09 *)

(* The store is at all times what the operations in [seen] make of an empty one, what is on disk is what those in [durable]
   make of it; a crash continues with the latter; and what is durable stays so. *)
Theorem C09_store_is_log : forall l s, run g_init l s ->
  history db_empty (map snd (seen (trace l))) (g_db s) /\ history db_empty (map snd (durable (trace l))) (g_disk s).
Proof. exact store_is_log. Qed.

Theorem C09_crash_keeps_the_durable : forall l s s' a, run g_init l s -> gstep s ICrash = (s', a) ->
  g_db s' = g_disk s /\ seen (trace (l ++ [(ICrash, a)])) = durable (trace l).
Proof. exact after_crash. Qed.

Theorem C09_durable_stays : forall tr x, exists ext, durable (tr ++ x) = durable tr ++ ext.
Proof. exact durable_mono. Qed.

(* whenever a positive answer to a non-transactional enqueue is sent, the enqueue is durable *)
Theorem C09_enqueue_durable : forall l s tr1 pid corr id tr2,
  run g_init l s -> trace l = tr1 ++ Sent pid corr (REnqueue true id) :: tr2 ->
  (forall q g c a n r, In (Applied corr (Enqueue q id g c a n, r)) tr1 -> g = 0) ->
  exists q c a n, In (corr, (Enqueue q id 0 c a n, Done)) (durable tr1).
Proof. exact enqueue_durable. Qed.

(* hence, after any further requests and crashes, the message is there or was legitimately consumed later *)
Theorem C09_enqueue_survives : forall l s tr1 pid corr id tr2,
  run g_init l s -> trace l = tr1 ++ Sent pid corr (REnqueue true id) :: tr2 ->
  (forall q g c a n r, In (Applied corr (Enqueue q id g c a n, r)) tr1 -> g = 0) ->
  exists q c a n h1 h2, In (Applied corr (Enqueue q id 0 c a n, Done)) tr1 /\
    map snd (seen (trace l)) = h1 ++ (Enqueue q id 0 c a n, Done) :: h2 /\
    (consumed id q 0 h2 \/
     exists m, qb_peek id (g_db s) = Some m /\ m_content m = c /\ m_origin m = q /\ m_ts m = n).
Proof. exact enqueue_survives. Qed.

(* the enqueue operations in a trace are exactly those that were requested: same correlation, id, transaction, content *)
Theorem C09_enqueue_as_requested : forall s i s' a corr q id g c av n r,
  gstep s i = (s', a) -> In (Applied corr (Enqueue q id g c av n, r)) a ->
  exists pid qr b, i = IEnqueue corr pid qr id (g, b) c av n /\ resolve (g_db s) qr = Some q.
Proof. exact enqueue_requested. Qed.

Theorem C09_commit_durable : forall l s tr1 pid corr t tr2,
  run g_init l s -> trace l = tr1 ++ Sent pid corr (RCommit true t) :: tr2 ->
  exists n, In (corr, (Commit (fst t), Affected n)) (durable tr1).
Proof. exact commit_durable. Qed.

Theorem C09_rollback_durable : forall l s tr1 pid corr t tr2,
  run g_init l s -> trace l = tr1 ++ Sent pid corr (RRollback true t) :: tr2 ->
  exists k n, In (corr, (Rollback (fst t) k, Affected n)) (durable tr1).
Proof. exact rollback_durable. Qed.

(* ---------------------------------------------------------------- C12 *)

(* every dequeue request received is answered, given up (forgotten, its process dead, shutdown, crash), or still waiting;
   nothing else happens to it, and it is never answered twice *)
Theorem C12_accounted : forall corr l s, run g_init l s ->
  count (asks corr) (map fst l) =
  (count (answers corr) (trace l) + count (gives_up corr) (trace l) + count (waits corr) (g_pend s))%nat.
Proof. exact accounted_run. Qed.

(* after an idle point nobody waits for a message that could be delivered *)
Theorem C12_served_at_idle : forall l s now s' a,
  run g_init l s -> gstep s (IIdle now) = (s', a) ->
  forall r m, In r (g_pend s') -> In m (msgs (g_db s')) -> wants r m -> ~ deliverable (dr_queue r) now m.
Proof. exact served. Qed.

(* the same when the timer expires, unless there is something to persist first (then the idle point will do it) *)
Theorem C12_served_at_timeout : forall l s now s' a,
  run g_init l s -> g_replies s = [] -> gstep s (ITimeout now) = (s', a) ->
  forall r m, In r (g_pend s') -> In m (msgs (g_db s')) -> wants r m -> ~ deliverable (dr_queue r) now m.
Proof. exact served_timeout. Qed.

(* A timer is armed for a message in the future.  Missing from the full statement: the last hypothesis, that the queue
   had no untaken message whose time has come already.  Without it the statement is false, see below. *)
Theorem C12_timer_partial : forall l s now s' a r m,
  run g_init l s -> gstep s (IIdle now) = (s', a) ->
  In r (g_pend s') -> In m (msgs (g_db s')) -> m_queue m = dr_queue r -> m_state m = 2 ->
  (forall x, In x (msgs (g_db s)) -> m_queue x = dr_queue r -> m_state x = 2 -> now < m_avail x) ->
  exists t, g_timer s' = Some t /\ now < t /\ t <= m_avail m.
Proof. exact timer_armed. Qed.

Lemma grun_run is : forall s, run s (snd (grun s is)) (fst (grun s is)).
Proof.
  induction is as [|i is IH]; intros s; cbn [grun]; [constructor|].
  destruct (gstep s i) as [s1 a] eqn:E. specialize (IH s1). destruct (grun s1 is) as [s2 l]. econstructor; eauto.
Qed.

Definition ex_c := mk_content "p" "" "X_OCTET/" [1; 2; 3].
Definition no_trid : trid := (0, 0).

(* Two requests wait; one message is available at once, another one in the future.  The first request is served, the
   second one arms a timer, which the sweep then disarms, because the queue was not among those with only future messages.
   The second request waits, no timer runs, no wakeup is on its way. *)
Definition ex_lost_wakeup : list input :=
  [IConfigure None [mk_wanted "a" 0 0];
   IDequeue 1 11 (ByName "a") no_selector no_trid true 5;
   IDequeue 2 12 (ByName "a") no_selector no_trid true 6;
   IEnqueue 3 13 (ByName "a") 7 no_trid ex_c 0 10;
   IEnqueue 4 13 (ByName "a") 8 no_trid ex_c 1000 11;
   IIdle 20].

Theorem C12_timer_always_armed_refuted :
  exists l s now a s' r m, run g_init l s /\ gstep s (IIdle now) = (s', a) /\
    In r (g_pend s') /\ In m (msgs (g_db s')) /\ wants r m /\ m_state m = 2 /\ now < m_avail m /\
    g_timer s' = None /\ g_alarm s' = false.
Proof.
  exists (snd (grun g_init (removelast ex_lost_wakeup))), (fst (grun g_init (removelast ex_lost_wakeup))), 20.
  eexists _, _, (mk_dreq 2 12 2 no_selector no_trid true), (mk_msg 8 2 2 0 2 0 1000 11 ex_c). split; [apply grun_run|].
  split; [vm_compute; reflexivity|]. vm_compute. intuition.
Qed.

(* A request that waits for a property, while another message is available: every timeout immediately schedules the next
   one, so the idle process never sleeps. *)
Definition ex_spin : list input :=
  [IConfigure None [mk_wanted "a" 0 0];
   IDequeue 1 11 (ByName "a") (mk_sel None "other") no_trid true 5;
   IEnqueue 3 13 (ByName "a") 7 no_trid ex_c 0 10;
   IIdle 20].

Theorem C12_idle_sleeps_refuted :
  exists l s, run g_init l s /\ g_alarm s = true /\
    forall now, 20 < now -> exists e, gstep s (ITimeout now) = (s, [Applied 1 (e, GotMessage None)]).
Proof.
  exists (snd (grun g_init ex_spin)), (fst (grun g_init ex_spin)). split; [apply grun_run|]. split; [reflexivity|].
  intros [|p|p] N; try lia. eexists. vm_compute. reflexivity.
Qed.

(* ---------------------------------------------------------------- C39 *)

(* A vote to commit is not durable: the group answers a prepare without persisting, so a crash after the vote forgets
   what was enqueued, and the commit that follows succeeds with the message gone. *)
Definition ex_vote : list input :=
  [IConfigure None [mk_wanted "a" 0 0];
   IEnqueue 3 13 (ByName "a") 7 (5, 1) ex_c 0 10;
   IIdle 15;
   IPrepare 4 14 (5, 1);
   IIdle 20].

Theorem C39_vote_is_durable_refuted :
  exists l s s1 s2 a, run g_init l s /\
    In (Sent 14 4 (RPrepare (5, 1))) (trace l) /\ qb_peek 7 (g_db s) <> None /\
    run s [(ICrash, [Crashed]); (ICommit 6 14 (5, 1) 30, [Applied 6 (Commit 5, Affected 0)])] s1 /\
    gstep s1 (IIdle 40) = (s2, a) /\ In (Sent 14 6 (RCommit true (5, 1))) a /\ msgs (g_db s2) = [].
Proof.
  exists (snd (grun g_init ex_vote)), (fst (grun g_init ex_vote)). eexists _, _, _. split; [apply grun_run|].
  split; [vm_compute; auto 10|]. split; [vm_compute; discriminate|].
  split; [eapply run_cons; [vm_compute; reflexivity|]; eapply run_cons; [vm_compute; reflexivity|]; apply run_nil|].
  split; [vm_compute; reflexivity|]. vm_compute. auto.
Qed.

(* ---------------------------------------------------------------- C40 *)

(* A message answered to a non-transactional dequeue is not durably gone: after a crash it is delivered again. *)
Definition ex_redelivery : list input :=
  [IConfigure None [mk_wanted "a" 0 0];
   IEnqueue 3 13 (ByName "a") 7 no_trid ex_c 0 10;
   IIdle 15;
   IDequeue 1 11 (ByName "a") no_selector no_trid false 20;
   IIdle 25;
   ICrash;
   IDequeue 2 12 (ByName "a") no_selector no_trid false 30].

Theorem C40_plain_dequeue_durable_refuted :
  exists l s m, run g_init l s /\ In (Sent 11 1 (RDequeue (Some m))) (trace l) /\ In (Sent 12 2 (RDequeue (Some m))) (trace l).
Proof.
  exists (snd (grun g_init ex_redelivery)), (fst (grun g_init ex_redelivery)). eexists.
  split; [apply grun_run|]. vm_compute. intuition.
Qed.

(* The same for clear: the answer says one message was removed, after a crash it is back. *)
Definition ex_clear : list input :=
  [IConfigure None [mk_wanted "a" 0 0];
   IEnqueue 3 13 (ByName "a") 7 no_trid ex_c 0 10;
   IIdle 15;
   IClear 1 11 [2];
   IIdle 25;
   ICrash].

Theorem C40_clear_durable_refuted :
  exists l s, run g_init l s /\ In (Sent 11 1 (RClear [1])) (trace l) /\ qb_peek 7 (g_db s) <> None.
Proof.
  exists (snd (grun g_init ex_clear)), (fst (grun g_init ex_clear)).
  split; [apply grun_run|]. vm_compute. split; [tauto|discriminate].
Qed.

(* ---------------------------------------------------------------- C41 *)

(* Before a transactional enqueue is answered positively, or a message is handed out to a transactional dequeue, the
   transaction manager has been told that the group takes part in the transaction.  [U] identifies the request: the
   operations done on behalf of the correlation are those of this one request. *)
Theorem C41_told_before_enqueue_reply : forall l i a1 pid corr id a2 s q g c av n,
  run g_init (l ++ [(i, a1 ++ Sent pid corr (REnqueue true id) :: a2)]) s ->
  (forall e, In (Applied corr e) (trace l ++ a1) -> e = (Enqueue q id g c av n, Done)) -> g <> 0 ->
  told g (l ++ [(i, a1)]).
Proof. exact told_before_reply_enqueue. Qed.

Theorem C41_told_before_dequeue_reply : forall l i a1 pid corr x a2 s q sel g,
  run g_init (l ++ [(i, a1 ++ Sent pid corr (RDequeue (Some x)) :: a2)]) s ->
  (forall o r, In (Applied corr (o, r)) (trace l ++ a1) -> exists n, o = Dequeue q sel g n) -> g <> 0 ->
  told g (l ++ [(i, a1)]).
Proof. exact told_before_reply_dequeue. Qed.

(* ---------------------------------------------------------------- the hypotheses can be met *)

Definition ex_inputs : list input :=
  [IConfigure (Some 7) [mk_wanted "a" 1 0];
   IDequeue 1 11 (ByName "a") no_selector (6, 1) true 5;
   IEnqueue 2 13 (ByName "a") 7 no_trid ex_c 0 10;
   IEnqueue 3 13 (ByName "a") 8 (5, 1) ex_c 0 11;
   IEnqueue 4 13 (ByName "a") 9 no_trid ex_c 0 12;      (* does not fit *)
   IIdle 20;
   ICommit 5 14 (5, 1) 21;
   IRollback 6 14 (6, 1) 22 22;
   IIdle 30].

Example ex_trace : trace (snd (grun g_init ex_inputs)) =
  [Persisted; Applied 0 (Configure [mk_wanted "a" 1 0], Done); Persisted;
   Applied 1 (Dequeue 2 no_selector 6 5, GotMessage None);
   Applied 2 (Enqueue 2 7 0 ex_c 0 10, Done);
   Applied 3 (Enqueue 2 8 5 ex_c 0 11, Done); Involved (5, 1); Sent 13 3 (REnqueue true 8);
   Sent 13 4 (REnqueue false 0);
   Persisted; Sent 13 2 (REnqueue true 7);
   Applied 1 (Dequeue 2 no_selector 6 20, GotMessage (Some (mk_msg 7 2 2 0 2 0 0 10 ex_c)));
   Involved (6, 1); Sent 11 1 (RDequeue (Some (mk_msg 7 2 2 0 2 0 0 10 ex_c)));
   Applied 5 (Commit 5, Affected 0); Applied 6 (Rollback 6 22, Affected 0);
   Persisted; Sent 14 5 (RCommit true (5, 1)); Sent 14 6 (RRollback true (6, 1))].
Proof. vm_compute. reflexivity. Qed.

(* C09: the split the theorem needs exists *)
Example ex_C09 : exists l s tr1 tr2, run g_init l s /\ trace l = tr1 ++ Sent 13 2 (REnqueue true 7) :: tr2 /\
  (forall q g c a n r, In (Applied 2 (Enqueue q 7 g c a n, r)) tr1 -> g = 0).
Proof.
  exists (snd (grun g_init ex_inputs)), (fst (grun g_init ex_inputs)).
  eexists [_; _; _; _; _; _; _; _; _; _], _. split; [apply grun_run|]. split; [vm_compute; reflexivity|].
  intros q g c a n r H. simpl in H. repeat (destruct H as [H|H]; [try discriminate H; injection H; auto|]). destruct H.
Qed.

(* C12: a request waits, a message is in the future, the timer is armed; the request is counted as waiting *)
Example ex_C12 :
  let s := fst (grun g_init [IConfigure None [mk_wanted "a" 0 0];
                             IDequeue 2 12 (ByName "a") no_selector no_trid true 6;
                             IEnqueue 4 13 (ByName "a") 8 no_trid ex_c 1000 11; IIdle 20]) in
  g_timer s = Some 1000 /\ count (waits 2) (g_pend s) = 1%nat /\ List.length (msgs (g_db s)) = 1%nat.
Proof. vm_compute. auto. Qed.

(* C41: with the transactional enqueue of [ex_inputs] *)
Example ex_C41 : exists l i a1 a2 s, run g_init (l ++ [(i, a1 ++ Sent 13 3 (REnqueue true 8) :: a2)]) s /\
  (forall e, In (Applied 3 e) (trace l ++ a1) -> e = (Enqueue 2 8 5 ex_c 0 11, Done)).
Proof.
  pose proof (grun_run (firstn 4 ex_inputs) g_init) as R.
  remember (snd (grun g_init (firstn 4 ex_inputs))) as t eqn:E. vm_compute in E. subst t.
  eexists [_; _; _], _, [_; _], _, _. split; [exact R|]. intros e H. simpl in H.
  repeat (destruct H as [H|H]; [try discriminate H; injection H; auto|]). destruct H.
Qed.

Print Assumptions C08_size_tracked.
Print Assumptions C08_too_big_is_refused.
Print Assumptions C08_capacity_kept.
Print Assumptions C09_store_is_log.
Print Assumptions C09_crash_keeps_the_durable.
Print Assumptions C09_durable_stays.
Print Assumptions C09_enqueue_durable.
Print Assumptions C09_enqueue_survives.
Print Assumptions C09_enqueue_as_requested.
Print Assumptions C09_commit_durable.
Print Assumptions C09_rollback_durable.
Print Assumptions C12_accounted.
Print Assumptions C12_served_at_idle.
Print Assumptions C12_served_at_timeout.
Print Assumptions C12_timer_partial.
Print Assumptions C12_timer_always_armed_refuted.
Print Assumptions C12_idle_sleeps_refuted.
Print Assumptions C39_vote_is_durable_refuted.
Print Assumptions C40_plain_dequeue_durable_refuted.
Print Assumptions C40_clear_durable_refuted.
Print Assumptions C41_told_before_enqueue_reply.
Print Assumptions C41_told_before_dequeue_reply.

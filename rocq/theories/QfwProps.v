(* The properties of the queue forward: C82 - C86. *)
From Coq Require Import ZArith List Bool Lia.
From Verif Require Import QfwModel QfwSpec QfwProofs QfwInv QfwFlow QfwCount QfwShape QfwStop QfwEnd QfwQuiet QfwLook QfwRef QfwKnow QfwStart QfwRun.
Import ListNotations.
Local Open Scope Z_scope.

(* a forward to a service with a queue for the replies, and a forward to a queue *)
Definition c1 := Conf 1 (Some 8) 10 (Some (11, 3)) true 1.
Definition c2 := Conf 2 None 20 (Some (21, 0)) true 1.
(* both are configured and looked up; a message through each; then another that waits for the service at the shutdown, and all ends *)
Definition ex_l := [Update [c1; c2]; QueueFound 1 10 100 50 false; QueueFound 3 11 101 51 true; QueueFound 5 20 200 52 false; QueueFound 7 21 201 53 false;
  Dequeued 9 (Some 77); ServiceFound 9 (Some (8, 60)); CallReply 9 0 88; Enqueued 9 true; Committed 9 true; Committed 9 false;
  Dequeued 11 (Some 78); Enqueued 11 true; Committed 11 false; Dequeued 13 (Some 79); Shutdown; ServiceDiscarded 13; Forgotten 15 true; RolledBack 13].
Definition ex := Eval vm_compute in made ex_l.
Definition upto (n : nat) : history := firstn n (snd ex).
Lemma ex_reach n : exists s, reach s (upto n).
Proof.
  exists (fst (made (firstn n ex_l))). apply (exec_reach_upto ex_l ex). vm_compute. reflexivity.
Qed.

(* ------------------------------------------------------------------ C82: a message is moved in one transaction *)
(* the requests of a flow, in order, are those that are right for the configuration and what has arrived, all in one transaction *)
Theorem C82_story : forall s h k, reach s h -> story_of k h = [] \/ exists c f t, configured c h /\ story c f k t (story_of k h).
Proof. intros s h k R. destruct (flows_story s h k R) as [E|(c & f & A & _ & S)]; [auto|right]. exists c, f, (k + 1). auto. Qed.
(* a transaction is of one flow *)
Theorem C82_own : forall s h f p k t q name f' p' k' q' name', reach s h -> In (Dequeue f p k t q name) (effects h) -> In (Dequeue f' p' k' t q' name') (effects h) -> k = k'.
Proof. exact own_transaction. Qed.
(* a flow is committed or rolled back at most once *)
Theorem C82_settled_once : forall s h k, reach s h -> (count settles (filter (about k) (effects h)) <= 1)%nat.
Proof. exact settled_once. Qed.
(* when it's committed, all has been done *)
Theorem C82_commit : forall s h k t, reach s h -> In (Commit k t) (effects h) -> exists c f, configured c h /\ complete c f k t (story_of k h).
Proof. exact commit_complete. Qed.
(* a message that is got isn't given back, if it isn't shut down *)
Theorem C82_kept : forall s h k m ev t, reach s (h ++ [(Dequeued k (Some m), ev)]) -> In (Rollback k t) ev -> In Shutdown (inputs h).
Proof. exact kept. Qed.
(* the answer that a flow waits for gives the next request of it *)
Theorem C82_goes_on : forall s h f k i, reach s h -> active f k h -> answers k (withdrawn k h) (last_of (story_of k h)) i -> exists e, In e (snd (step i s)) /\ about k e = true.
Proof. exact answer_next. Qed.

Example ex_story : map snd (story_of 9 (snd ex)) = [Dequeue 1 50 9 10 100 10; AskService 9 8; Call 60 9 10 8 77; Enqueue 51 9 10 101 11 88 3; Commit 9 10].
Proof. reflexivity. Qed.
Example ex_story_queue : map snd (story_of 11 (snd ex)) = [Dequeue 2 52 11 12 200 20; Enqueue 53 11 12 201 21 78 0; Commit 11 12].
Proof. reflexivity. Qed.
Example ex_commit : In (Commit 9 10) (effects (snd ex)) /\ In (Commit 11 12) (effects (snd ex)).
Proof. cbn. tauto. Qed.
Example ex_goes_on : exists s h, reach s h /\ active 1 9 h /\ answers 9 (withdrawn 9 h) (last_of (story_of 9 h)) (CallReply 9 0 88).
Proof.
  destruct (ex_reach 7) as [s R]. exists s, (upto 7). split; [exact R|]. split; [|cbn; eauto]. assert (R7 : reach (fst (made (firstn 7 ex_l))) (upto 7)) by (apply (exec_reach_upto ex_l ex 7); vm_compute; reflexivity).
  apply (active_by _ _ 1 9 R7). reflexivity.
Qed.
Example ex_kept : exists s h ev t, reach s (h ++ [(Dequeued 9 (Some 77), ev)]) /\ In (Rollback 9 t) ev.
Proof.
  set (w := made (firstn 5 ex_l ++ [Shutdown; Dequeued 9 (Some 77)])). exists (fst w), (firstn 6 (snd w)), [Rollback 9 10], 10. split; [|now left].
  assert (E : snd w = firstn 6 (snd w) ++ [(Dequeued 9 (Some 77), [Rollback 9 10])]) by (vm_compute; reflexivity). rewrite <- E. apply (exec_reach0 (firstn 5 ex_l ++ [Shutdown; Dequeued 9 (Some 77)]) w). vm_compute. reflexivity.
Qed.

(* a queue-forward that doesn't know where its target is (the target is gone) sends to nowhere, and isn't told: the send has no callback. The message
   is neither moved nor given back *)
Definition w_nowhere_l := [Update [c2]; QueueFound 1 20 200 52 false; QueueFound 3 21 201 53 false; Dead 53; Dequeued 5 (Some 78); NotEnqueued 5].
Definition w_nowhere := Eval vm_compute in made w_nowhere_l.
Theorem C82_nowhere_refuted : exists s h k t q name m delay, reach s h /\ active 1 k h /\ last_of (story_of k h) = Some (Dequeued k (Some m), Enqueue 0 k t q name m delay) /\ In (NotEnqueued k) (inputs h) /\
  snd (step (NotEnqueued k) s) = [].
Proof.
  exists (fst w_nowhere), (snd w_nowhere), 5, 6, 0, 21, 78, 0. assert (R : reach (fst w_nowhere) (snd w_nowhere)) by (apply (exec_reach0 w_nowhere_l w_nowhere); vm_compute; reflexivity).
  split; [exact R|]. split; [apply (active_by _ _ 1 5 R); reflexivity|]. split; [reflexivity|]. split; [cbn; tauto|reflexivity].
Qed.

(* ------------------------------------------------------------------ C83: not more instances than what is configured *)
(* when a message is asked for, there are at most as many flows as the instances that are configured; and the forward is enabled *)
Theorem C83_limit : forall s h i ev f p k t q name, reach s (h ++ [(i, ev)]) -> In (Dequeue f p k t q name) ev ->
  exists c n, configured c (h ++ [(i, ev)]) /\ g_source c = name /\ g_enabled c = true /\ limit (kind c) (g_alias c) (h ++ [(i, ev)]) = Some n /\ (0 < n)%nat
   /\ forall ks, NoDup ks -> (forall j, In j ks -> active f j (h ++ [(i, ev)])) -> (length ks <= n)%nat.
Proof. exact within_limit. Qed.
(* what is told as running (casual queue --list-forward) is the number of flows, if no send has failed *)
Theorem C83_running : forall s h f, reach s h -> In f (s_forwards s) ->
  exists ks, NoDup ks /\ (forall k, In k ks <-> active (f_id f) k h) /\ (length ks <= f_running f)%nat /\ (no_loss h -> length ks = f_running f).
Proof. exact counted. Qed.

Example ex_limit : exists s h ev, reach s (h ++ [(Committed 9 false, ev)]) /\ In (Dequeue 1 50 13 14 100 10) ev /\ limit true 1 (h ++ [(Committed 9 false, ev)]) = Some 1%nat.
Proof.
  destruct (ex_reach 11) as [s R]. exists s, (upto 10), [Dequeue 1 50 13 14 100 10]. split; [exact R|]. split; [now left|reflexivity].
Qed.
(* a send of a dequeue that fails: the instance is counted as running for ever, and there is no flow. Nothing is begun in its place, and the process is
   never done *)
Definition w_lost_l := [Update [c2]; QueueFound 1 20 200 52 false; QueueFound 3 21 201 53 false; NotDequeued 5; Shutdown].
Definition w_lost := Eval vm_compute in made w_lost_l.
Theorem C83_lost_refuted : exists s h f, reach s h /\ closing h /\ (forall f k, ~ active f k h) /\ (forall f k, ~ waiting f k h) /\ In f (s_forwards s) /\ f_running f = 1%nat /\ done s = false.
Proof.
  assert (R : reach (fst w_lost) (snd w_lost)) by (apply (exec_reach0 w_lost_l w_lost); vm_compute; reflexivity).
  exists (fst w_lost), (snd w_lost), (hd (create c2 0) (s_forwards (fst w_lost))). split; [exact R|]. split; [apply closing_sound; reflexivity|]. split; [apply (none_active _ _ R); reflexivity|]. split; [apply (none_waiting _ _ R); reflexivity|]. split; [now left|]. split; reflexivity.
Qed.

(* ------------------------------------------------------------------ C84: shutdown *)
(* what waits for a message, or for the service, is withdrawn. What is forgotten is sent to where the queue is known to be: see C84_forget_refuted *)
Theorem C84_withdrawn_partial : forall s h ev f k, reach s (h ++ [(Shutdown, ev)]) -> active f k h ->
  match last_of (story_of k h) with
  | Some (_, Dequeue _ _ _ _ _ _) => exists p, In (Forget p k) ev /\ (p <> 0 -> exists name q, told name q p false h)
  | Some (_, AskService _ _) => withdrawn k h = true \/ exists sv, In (DiscardService k sv) ev
  | _ => True
  end.
Proof. exact shut_down. Qed.
(* nothing is begun: no message is asked for, no service is looked up or called *)
Theorem C84_quiet : forall s h i, reach s h -> possible i -> closing h -> (forall l, i <> Update l) -> forall e, In e (snd (step i s)) -> begins e = false.
Proof. exact closing_quiet. Qed.
(* every request of a flow, and every end of one, is a step to the end: no more than three for each flow *)
Theorem C84_ends : forall s h i n, reach s h -> possible i -> closing h -> (forall l, i <> Update l) -> remaining h n ->
  exists n', remaining (h ++ [(i, snd (step i s))]) n' /\ (n' <= n)%nat /\
    (((exists k e, In e (snd (step i s)) /\ about k e = true) \/ exists f k, active f k h /\ over k (h ++ [(i, snd (step i s))])) -> (n' < n)%nat).
Proof. exact remaining_decreases. Qed.
Theorem C84_remaining : forall s h, reach s h -> (exists n, remaining h n) /\ (forall n m, remaining h n -> remaining h m -> n = m) /\ (forall n, remaining h n -> n = 0%nat -> forall f k, ~ active f k h).
Proof.
  intros s h R. split; [exact (remaining_exists s h R)|]. split; [exact (remaining_unique h)|]. intros n (ks & _ & A & ->) Z f k Ac. pose proof (active_weight s h f k R Ac) as W. assert (I : In k ks) by (apply A; eauto).
  clear - Z W I. induction ks as [|a l IH]; [destruct I|]. change (weight (last_of (story_of a h)) + list_sum (map (fun k => weight (last_of (story_of k h))) l) = 0)%nat in Z. destruct I as [->|I]; [lia|]. apply IH; auto. lia.
Qed.
(* the process ends when there are no flows; not before *)
Theorem C84_done_sound : forall s h, reach s h -> done s = true -> In Shutdown (inputs h) /\ forall f k, ~ active f k h.
Proof. exact done_sound. Qed.
Theorem C84_done_complete : forall s h, reach s h -> closing h -> no_loss h -> (forall f k, ~ active f k h) -> done s = true.
Proof. exact done_complete. Qed.
(* also when it's configured after the shutdown, if that is to have no instances *)
Theorem C84_done_whenever : forall s h, reach s h -> In Shutdown (inputs h) -> (forall c n, configured c h -> limit (kind c) (g_alias c) h = Some n -> n = 0%nat) -> no_loss h -> (forall f k, ~ active f k h) -> done s = true.
Proof.
  intros s h R D Z N A. unfold done. rewrite (shutdown_down s h R D). cbn. apply forallb_forall. intros f I. unfold absent. destruct (forward_conf s h f R I) as (c & C & _ & L). rewrite (Z c _ C L). cbn. apply Nat.eqb_eq.
  destruct (reach_counts s h R f I) as [_ E]. rewrite <- (E (no_loss_exact h N)). apply (flows_zero s h f R I). intros k. apply A.
Qed.

Example ex_shutdown : exists s ev, reach s (upto 15 ++ [(Shutdown, ev)]) /\ active 1 13 (upto 15) /\ active 2 15 (upto 15) /\ In (DiscardService 13 8) ev /\ In (Forget 52 15) ev.
Proof.
  destruct (ex_reach 16) as [s R]. exists s, [Forget 52 15; DiscardService 13 8]. split; [exact R|]. assert (R' : reach (fst (made (firstn 15 ex_l))) (upto 15)) by (apply (exec_reach_upto ex_l ex 15); vm_compute; reflexivity).
  split; [apply (active_by _ _ 1 13 R'); reflexivity|]. split; [apply (active_by _ _ 2 15 R'); reflexivity|]. cbn. tauto.
Qed.
Example ex_ends : exists s, reach s (upto 16) /\ closing (upto 16) /\ remaining (upto 16) 5 /\ (exists f k, active f k (upto 16)).
Proof.
  assert (R : reach (fst (made (firstn 16 ex_l))) (upto 16)) by (apply (exec_reach_upto ex_l ex 16); vm_compute; reflexivity).
  exists (fst (made (firstn 16 ex_l))). split; [exact R|]. split; [apply closing_sound; reflexivity|]. split; [|exists 1, 13; apply (active_by _ _ 1 13 R); reflexivity].
  exists [13; 15]. split; [repeat constructor; cbn; intuition discriminate|]. split; [|reflexivity]. intro k. split.
  - intros [<-|[<-|[]]]; [exists 1; apply (active_by _ _ 1 13 R); reflexivity|exists 2; apply (active_by _ _ 2 15 R); reflexivity].
  - intros [f A]. apply (active_pending _ _ _ _ R) in A as (p & I & <- & _). vm_compute in I. destruct I as [<-|[<-|[]]]; vm_compute; auto.
Qed.
Example ex_done : reach (fst ex) (snd ex) /\ closing (snd ex) /\ no_loss (snd ex) /\ done (fst ex) = true.
Proof. split; [apply (exec_reach0 ex_l ex); vm_compute; reflexivity|]. split; [apply closing_sound; reflexivity|]. split; [apply no_loss_sound; reflexivity|reflexivity]. Qed.
(* two instances: an enqueue that fails makes the forward forget its queues, so the shutdown sends the forget for the other to nowhere: the flow is never
   answered, and the process doesn't end *)
Definition c3 := Conf 2 None 20 (Some (21, 0)) true 2.
Definition w_forget_l := [Update [c3]; QueueFound 1 20 200 52 false; QueueFound 3 21 201 53 false; Dequeued 5 (Some 78); Enqueued 5 false; Shutdown].
Definition w_forget := Eval vm_compute in made w_forget_l.
Theorem C84_forget_refuted : exists s h ev j t q, reach s (h ++ [(Shutdown, ev)]) /\ active 1 7 h /\ last_of (story_of 7 h) = Some (j, Dequeue 1 52 7 t q 20) /\ forall p, In (Forget p 7) ev -> p = 0.
Proof.
  exists (fst w_forget), (firstn 5 (snd w_forget)), (snd (nth 5 (snd w_forget) (Shutdown, []))), (QueueFound 3 21 201 53 false), 8, 200. split; [apply (exec_reach0 w_forget_l w_forget); vm_compute; reflexivity|].
  assert (R' : reach (fst (made (firstn 5 w_forget_l))) (firstn 5 (snd w_forget))) by (apply (exec_reach_upto w_forget_l w_forget 5); vm_compute; reflexivity).
  split; [apply (active_by _ _ 1 7 R'); reflexivity|]. split; [reflexivity|]. intros p I. cbn in I. intuition congruence.
Qed.
Definition c0 := Conf 2 None 20 (Some (21, 0)) true 0.
Definition ex_late_l := [Update [c2]; Shutdown; Update [c0]].
Definition ex_late := Eval vm_compute in made ex_late_l.
Example ex_whenever : reach (fst ex_late) (snd ex_late) /\ In Shutdown (inputs (snd ex_late)) /\ limit (kind c2) (g_alias c2) (snd ex_late) = Some 0%nat /\ ~ closing (snd ex_late) /\ done (fst ex_late) = true.
Proof.
  split; [apply (exec_reach0 ex_late_l ex_late); vm_compute; reflexivity|]. split; [cbn; tauto|]. split; [reflexivity|]. split; [|reflexivity]. intro C. set (h := snd ex_late) in C. assert (E : h = firstn 2 (snd ex_late) ++ [(Update [c0], snd (nth 2 (snd ex_late) (Shutdown, [])))]) by reflexivity.
  inversion C as [h0 ev Q|h0 i ev C' N Q]; rewrite E in Q; apply app_inj_tail in Q as [_ Q]; [discriminate|]. injection Q as -> _. exact (N [c0] eq_refl).
Qed.
(* a configuration that arrives after the shutdown begins it all again *)
Definition w_after_l := [Update [c2]; QueueFound 1 20 200 52 false; QueueFound 3 21 201 53 false; Dequeued 5 (Some 78); Enqueued 5 true; Shutdown; Update [c2]; Committed 5 false].
Definition w_after := Eval vm_compute in made w_after_l.
Theorem C84_update_refuted : exists s h i ev p k t q name, reach s (h ++ [(i, ev)]) /\ In Shutdown (inputs h) /\ In (Dequeue 1 p k t q name) ev.
Proof.
  exists (fst w_after), (firstn 7 (snd w_after)), (Committed 5 false), (snd (nth 7 (snd w_after) (Shutdown, []))), 52, 11, 12, 200, 20. split; [apply (exec_reach0 w_after_l w_after); vm_compute; reflexivity|]. split; [cbn; tauto|now left].
Qed.
(* a queue whose process is gone: what is forgotten is sent to the process that is gone *)
Definition w_dead_l := [Update [c2]; QueueFound 1 20 200 52 false; QueueFound 3 21 201 53 false; Dead 52].
Definition w_dead := Eval vm_compute in made w_dead_l.
Theorem C84_dead_refuted : exists s h ev p k, reach s (h ++ [(Dead p, ev)]) /\ ev = [Forget p k] /\ active 1 k (h ++ [(Dead p, ev)]) /\ forall f j, ~ waiting f j (h ++ [(Dead p, ev)]).
Proof.
  exists (fst w_dead), (firstn 3 (snd w_dead)), [Forget 52 5], 52, 5. assert (R : reach (fst w_dead) (snd w_dead)) by (apply (exec_reach0 w_dead_l w_dead); vm_compute; reflexivity).
  split; [exact R|]. split; [reflexivity|]. split; [apply (active_by _ _ 1 5 R); reflexivity|apply (none_waiting _ _ R); reflexivity].
Qed.

(* ------------------------------------------------------------------ C85: where the requests go *)
(* a message is asked for only where the queue-manager has told that the queue is, and not if it's in another domain *)
Theorem C85_source : forall s h i ev f p k t q name, reach s (h ++ [(i, ev)]) -> In (Dequeue f p k t q name) ev -> p <> 0 /\ q <> 0 /\ told name q p false (h ++ [(i, ev)]).
Proof. exact dequeue_told. Qed.
(* when it has just told, that is where *)
Theorem C85_latest : forall s h k name q p ev f p' k' t q', reach s (h ++ [(QueueFound k name q p false, ev)]) -> In (Dequeue f p' k' t q' name) ev -> p' = p /\ q' = q.
Proof. exact dequeue_now. Qed.
(* a message is put where the queue-manager has told that the queue is; or nowhere: C82_nowhere_refuted *)
Theorem C85_target_partial : forall s h i ev p k t q name m delay, reach s (h ++ [(i, ev)]) -> In (Enqueue p k t q name m delay) ev -> p <> 0 -> exists rem, told name q p rem h.
Proof. exact enqueue_told. Qed.

Example ex_source : exists s, reach s (upto 2 ++ [(QueueFound 3 11 101 51 true, [Dequeue 1 50 9 10 100 10])]) /\ told 10 100 50 false (upto 3).
Proof. destruct (ex_reach 3) as [s R]. exists s. split; [exact R|]. exists 1. cbn. tauto. Qed.
Example ex_latest : exists s ev, reach s (firstn 2 (snd w_dead) ++ [(QueueFound 3 21 201 53 false, ev)]) /\ In (Dequeue 1 52 5 6 200 20) ev.
Proof. exists (fst (made (firstn 3 w_dead_l))), [Dequeue 1 52 5 6 200 20]. split; [apply (exec_reach_upto w_dead_l w_dead 3); vm_compute; reflexivity|now left]. Qed.
Example ex_latest_source : exists s ev h, reach s (h ++ [(QueueFound 1 20 200 52 false, ev)]) /\ In (Dequeue 1 52 5 6 200 20) ev.
Proof.
  set (w := made [Update [c2]; QueueFound 3 21 201 53 false; QueueFound 1 20 200 52 false]). exists (fst w), [Dequeue 1 52 5 6 200 20], (firstn 2 (snd w)). split; [|now left].
  apply (exec_reach0 [Update [c2]; QueueFound 3 21 201 53 false; QueueFound 1 20 200 52 false] w). vm_compute. reflexivity.
Qed.
Example ex_target : exists s, reach s (upto 7 ++ [(CallReply 9 0 88, [Enqueue 51 9 10 101 11 88 3])]) /\ told 11 101 51 true (upto 7).
Proof. destruct (ex_reach 8) as [s R]. exists s. split; [exact R|]. exists 3. cbn. tauto. Qed.

(* ------------------------------------------------------------------ C86: the instances are started, and started again *)
(* the queues of what is configured are looked up, when it's configured the first time *)
Theorem C86_looked_up : forall s h l ev c, reach s (h ++ [(Update l, ev)]) -> In c l -> g_enabled c = true -> (0 < g_instances c)%nat ->
  (forall c', configured c' h \/ In c' l -> is_of (kind c) (g_alias c) c' = true -> c' = c /\ ~ configured c' h) ->
  exists f, forall m, In m (queues c) -> exists k, In (AskQueue f k m) ev.
Proof. exact looked_up. Qed.
(* when the last of the queues is found, there are as many flows as what is configured *)
Theorem C86_begun : forall s h k name q p f ev, reach s (h ++ [(QueueFound k name q p false, ev)]) -> no_loss h -> waiting f k h -> ~ In Shutdown (inputs h) ->
  (forall m, asked f m h -> knows f m (h ++ [(QueueFound k name q p false, ev)])) ->
  exists c n, configured c h /\ g_enabled c = true /\ (forall m, In m (queues c) <-> asked f m h) /\ limit (kind c) (g_alias c) h = Some n /\ at_least n f (h ++ [(QueueFound k name q p false, ev)]).
Proof. exact begun. Qed.
(* when a flow ends, there are as many as what is configured, or a queue is looked up. Not if the end is that the queue asks to forget: C86_forget_refuted *)
Theorem C86_again_partial : forall s h i ev f k, reach s (h ++ [(i, ev)]) -> no_loss (h ++ [(i, ev)]) -> active f k h -> ends k (last_of (story_of k h)) i = true -> (forall j, i <> ForgetRequest j) ->
  exists c n, configured c h /\ (exists t, story c f k t (story_of k h)) /\ limit (kind c) (g_alias c) h = Some n /\ (at_least n f (h ++ [(i, ev)]) \/ exists j, waiting f j (h ++ [(i, ev)])).
Proof. intros s h i ev f k A B C D E. destruct (restarted s h i ev f k A B C D E) as (c & n & X & Y & Z). exists c, n. split; [exact X|]. split; [exists (k + 1); exact Y|exact Z]. Qed.

Example ex_looked_up : exists s ev, reach s ([] ++ [(Update [c1; c2], ev)]) /\ In c1 [c1; c2] /\ g_enabled c1 = true /\ (0 < g_instances c1)%nat /\
  (forall c', configured c' [] \/ In c' [c1; c2] -> is_of (kind c1) (g_alias c1) c' = true -> c' = c1 /\ ~ configured c' []).
Proof.
  destruct (ex_reach 1) as [s R]. exists s, [AskQueue 1 1 10; AskQueue 1 3 11; AskQueue 2 5 20; AskQueue 2 7 21; Updated]. split; [exact R|]. split; [now left|]. split; [reflexivity|]. split; [cbn; lia|].
  intros c' [[l [[] _]]|[<-|[<-|[]]]]; cbn; [intros _; split; auto; intros [l [[] _]]|discriminate].
Qed.
Definition w_begun := Eval vm_compute in made (firstn 3 w_forget_l).
Example ex_begun : exists s h ev, reach s (h ++ [(QueueFound 3 21 201 53 false, ev)]) /\ no_loss h /\ waiting 1 3 h /\ ~ In Shutdown (inputs h) /\
  (forall m, asked 1 m h -> knows 1 m (h ++ [(QueueFound 3 21 201 53 false, ev)])) /\ limit false 2 h = Some 2%nat /\ ~ (exists k, active 1 k h).
Proof.
  exists (fst w_begun), (firstn 2 (snd w_begun)), (snd (nth 2 (snd w_begun) (Shutdown, []))). split; [apply (exec_reach0 (firstn 3 w_forget_l) w_begun); vm_compute; reflexivity|]. split; [apply no_loss_sound; reflexivity|].
  assert (R1 : reach (fst (made (firstn 1 w_forget_l))) (firstn 1 (snd w_begun))) by (apply (exec_reach_upto w_forget_l w_forget 1); vm_compute; reflexivity).
  assert (R2 : reach (fst (made (firstn 2 w_forget_l))) (firstn 2 (snd w_begun))) by (apply (exec_reach_upto w_forget_l w_forget 2); vm_compute; reflexivity).
  assert (W3 : waiting 1 3 (firstn 2 (snd w_begun))) by (apply (waiting_by _ _ 1 3 R2); reflexivity). split; [exact W3|]. split; [apply no_shutdown_sound; reflexivity|]. split; [|split; [reflexivity|intros [k A]; revert A; apply (none_active _ _ R2); reflexivity]].
  intros m [k I]. cbn in I. destruct I as [I|[I|[I|[]]]]; try discriminate; injection I as _ <-.
  - apply knows_since; [|reflexivity]. change (firstn 2 (snd w_begun)) with (firstn 1 (snd w_begun) ++ [(QueueFound 1 20 200 52 false, [])]). apply knows_now; [apply (waiting_by _ _ 1 1 R1); reflexivity|apply no_shutdown_sound; reflexivity|discriminate|discriminate].
  - apply knows_now; [exact W3|apply no_shutdown_sound; reflexivity|discriminate|discriminate].
Qed.
Example ex_again : exists s h ev, reach s (h ++ [(Committed 9 false, ev)]) /\ no_loss (h ++ [(Committed 9 false, ev)]) /\ active 1 9 h /\ ends 9 (last_of (story_of 9 h)) (Committed 9 false) = true.
Proof.
  destruct (ex_reach 11) as [s R]. exists s, (upto 10), [Dequeue 1 50 13 14 100 10]. split; [exact R|]. split; [apply no_loss_sound; reflexivity|].
  assert (R' : reach (fst (made (firstn 10 ex_l))) (upto 10)) by (apply (exec_reach_upto ex_l ex 10); vm_compute; reflexivity). split; [apply (active_by _ _ 1 9 R'); reflexivity|reflexivity].
Qed.
(* the queue asks to forget (the group is shut down): the instance isn't started again, and no queue is looked up *)
Definition w_forgotten_l := [Update [c2]; QueueFound 1 20 200 52 false; QueueFound 3 21 201 53 false; ForgetRequest 5].
Definition w_forgotten := Eval vm_compute in made w_forgotten_l.
Theorem C86_forget_refuted : exists s h ev f k, reach s (h ++ [(ForgetRequest k, ev)]) /\ no_loss (h ++ [(ForgetRequest k, ev)]) /\ active f k h /\ ends k (last_of (story_of k h)) (ForgetRequest k) = true /\
  limit false 2 (h ++ [(ForgetRequest k, ev)]) = Some 1%nat /\ (forall f k', ~ active f k' (h ++ [(ForgetRequest k, ev)])) /\ forall f j, ~ waiting f j (h ++ [(ForgetRequest k, ev)]).
Proof.
  exists (fst w_forgotten), (firstn 3 (snd w_forgotten)), [], 1, 5. assert (R : reach (fst w_forgotten) (snd w_forgotten)) by (apply (exec_reach0 w_forgotten_l w_forgotten); vm_compute; reflexivity).
  split; [exact R|]. split; [apply no_loss_sound; reflexivity|]. assert (R' : reach (fst (made (firstn 3 w_forgotten_l))) (firstn 3 (snd w_forgotten))) by (apply (exec_reach_upto w_forgotten_l w_forgotten 3); vm_compute; reflexivity).
  split; [apply (active_by _ _ 1 5 R'); reflexivity|]. split; [reflexivity|]. split; [reflexivity|]. split; [apply (none_active _ _ R); reflexivity|apply (none_waiting _ _ R); reflexivity].
Qed.
(* the target is gone while the source is looked up: the lookup is withdrawn, and nothing is ever looked up again *)
Definition w_stuck_l := [Update [c2]; QueueFound 3 21 201 53 false; Dead 53; QueueDiscarded 1 false].
Definition w_stuck := Eval vm_compute in made w_stuck_l.
Theorem C86_stuck_refuted : exists s h c, reach s h /\ ~ In Shutdown (inputs h) /\ no_loss h /\ configured c h /\ g_enabled c = true /\ limit (kind c) (g_alias c) h = Some 1%nat /\ (forall f k, ~ active f k h) /\ forall f k, ~ waiting f k h.
Proof.
  assert (R : reach (fst w_stuck) (snd w_stuck)) by (apply (exec_reach0 w_stuck_l w_stuck); vm_compute; reflexivity).
  exists (fst w_stuck), (snd w_stuck), c2. split; [exact R|]. split; [apply no_shutdown_sound; reflexivity|]. split; [apply no_loss_sound; reflexivity|]. split; [exists [c2]; cbn; auto|]. split; [reflexivity|]. split; [reflexivity|]. split; [apply (none_active _ _ R); reflexivity|apply (none_waiting _ _ R); reflexivity].
Qed.
(* a new source (or target, or service) for an alias that is configured already isn't taken: the old is used *)
Definition c2' := Conf 2 None 30 (Some (21, 0)) true 1.
Definition w_alias_l := [Update [c2]; Update [c2']].
Definition w_alias := Eval vm_compute in made w_alias_l.
Theorem C86_changed_refuted : exists s h l ev c, reach s (h ++ [(Update l, ev)]) /\ In c l /\ g_enabled c = true /\ (0 < g_instances c)%nat /\ (forall f k, ~ In (AskQueue f k (g_source c)) ev) /\ exists f k, In (AskQueue f k 20) ev.
Proof.
  exists (fst w_alias), (firstn 1 (snd w_alias)), [c2'], (snd (nth 1 (snd w_alias) (Shutdown, []))), c2'. split; [apply (exec_reach0 w_alias_l w_alias); vm_compute; reflexivity|]. split; [now left|]. split; [reflexivity|]. split; [cbn; lia|]. split; [|exists 1, 5; cbn; tauto].
  intros f k I. cbn in I. intuition discriminate.
Qed.

Print Assumptions C82_story.
Print Assumptions C82_own.
Print Assumptions C82_settled_once.
Print Assumptions C82_commit.
Print Assumptions C82_kept.
Print Assumptions C82_goes_on.
Print Assumptions C82_nowhere_refuted.
Print Assumptions C83_limit.
Print Assumptions C83_running.
Print Assumptions C83_lost_refuted.
Print Assumptions C84_withdrawn_partial.
Print Assumptions C84_quiet.
Print Assumptions C84_ends.
Print Assumptions C84_remaining.
Print Assumptions C84_done_sound.
Print Assumptions C84_done_complete.
Print Assumptions C84_done_whenever.
Print Assumptions C84_forget_refuted.
Print Assumptions C84_update_refuted.
Print Assumptions C84_dead_refuted.
Print Assumptions C85_source.
Print Assumptions C85_latest.
Print Assumptions C85_target_partial.
Print Assumptions C86_looked_up.
Print Assumptions C86_begun.
Print Assumptions C86_again_partial.
Print Assumptions C86_forget_refuted.
Print Assumptions C86_stuck_refuted.
Print Assumptions C86_changed_refuted.

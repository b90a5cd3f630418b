(* The properties of the inbound of the gateway: C77 - C81. *)
From Coq Require Import ZArith List Bool Lia.
From Verif Require Import GwiModel GwiSpec GwiProofs GwiInv GwiFwd GwiOnce GwiKeep GwiPass GwiReply GwiThere GwiCache GwiClose GwiLeave GwiStop GwiRun.
Import ListNotations.
Local Open Scope Z_scope.

(* ------------------------------------------------------------------ C77: requests from other domains *)
(* a request makes the inbound ask for who has the service or the queue; and ask the TM for a branch, but not if the transaction is in use *)
Theorem C77_asks : forall h c on q ev, happens (h ++ [(External c on (XRequest q), ev)]) ->
  exists e, ev = asks_lookup on c q :: e /\ (e = [] \/ exists g, gtrid (q_trid q) = Some g /\ e = [Branch c (q_corr q) g]) /\
    (forall g, gtrid (q_trid q) = Some g -> over g h -> e = [Branch c (q_corr q) g]) /\
    (forall g c', unique h -> honest h -> gtrid (q_trid q) = Some g -> uses g c' h -> open c' h -> e = []).
Proof. exact request_asks. Qed.
(* what a process gets is what the remote of the connection has asked for: the process is the one that the manager has told, and the transaction is a
   branch of the TM of this domain *)
Theorem C77_origin : forall h i ev p c q', happens (h ++ [(i, ev)]) -> In (ToProcess p c q') ev ->
  open c h /\ exists q, asked c q h /\ same_request q q' /\ routed q q' p (h ++ [(i, ev)]) /\
    ((q_trid q = None /\ q_trid q' = None) \/ exists t, q_trid q' = Some t /\ from_tm t (h ++ [(i, ev)])).
Proof. exact fwd_cause. Qed.
(* ... and of the same transaction as that of the remote *)
Theorem C77_transaction : forall h i ev p c q' q, happens (h ++ [(i, ev)]) -> unique h -> honest (h ++ [(i, ev)]) -> In (ToProcess p c q') ev -> asked c q h -> q_corr q' = q_corr q ->
  gtrid (q_trid q') = gtrid (q_trid q).
Proof. exact fwd_gtrid. Qed.
(* at most once *)
Theorem C77_once : forall h k, happens h -> unique h -> once h -> honest h -> (count (forwards k) (effects h) <= 1)%nat.
Proof. exact forwarded_once. Qed.
(* when the service-manager, and the TM if it's asked, has answered the request has been passed on. Not if the transaction of the remote is one
   that the TM has given *)
Theorem C77_service_partial : forall h c q name p, happens h -> unique h -> once h -> honest h -> asked c q h -> is_service q = true -> open c h -> ~ ended q h ->
  (forall t, q_trid q = Some t -> ~ from_tm t h) -> got (ILookup (q_corr q) (Found name p)) h -> no_branch (q_corr q) h \/ (exists t, got (IBranch (q_corr q) t) h) ->
  exists q', In (ToProcess p c q') (effects h) /\ same_request q q' /\ q_name q' = name.
Proof. exact service_forwarded. Qed.
Theorem C77_queue : forall h c q x, happens h -> unique h -> once h -> honest h -> asked c q h -> is_service q = false -> open c h -> ~ ended q h ->
  got (IQueueLookup (q_corr q) x) h -> no_branch (q_corr q) h \/ (exists t, got (IBranch (q_corr q) t) h) ->
  match x with
  | Some p => exists q', In (ToProcess p c q') (effects h) /\ same_request q q' /\ q_name q' = q_name q
  | None => In (ToPartner c (IReply (q_kind q) (q_corr q) 0 0)) (effects h)
  end.
Proof. exact queue_forwarded. Qed.

Definition call (k : Z) (t : trid) := Request Call k 8 t 80 false.
Definition oneway (k : Z) := Request Call k 8 None 80 true.
Definition conv (k : Z) (t : trid) := Request Connect k 9 t 90 false.
Definition enq (k : Z) (t : trid) := Request Enqueue k 7 t 70 false.
(* the transaction that the TM gives is the one of the request (a domain that is connected to itself), and it's given before the lookup is
   answered: the handler of the lookup takes it as not given, and the request is never passed on *)
Definition w_same_l := [Connected 5 100 true; External 100 true (XRequest (call 1 (Some (3, 1)))); Internal 100 true (IBranch 1 (3, 1)); Internal 100 true (ILookup 1 (Found 8 50))].
Definition w_same := Eval vm_compute in made w_same_l.
Theorem C77_same_branch_refuted : exists h c q, happens h /\ unique h /\ once h /\ honest h /\ asked c q h /\ is_service q = true /\ open c h /\ ~ ended q h /\
  got (ILookup (q_corr q) (Found 8 50)) h /\ (exists t, got (IBranch (q_corr q) t) h) /\ forall p q', ~ In (ToProcess p c q') (effects h).
Proof.
  exists (snd w_same), 100, (call 1 (Some (3, 1))). destruct (good_sound (snd w_same)) as (A & B & C & _); [reflexivity|].
  split; [apply (exec_happens0 w_same_l w_same); vm_compute; reflexivity|]. do 3 (split; [assumption|]). split; [exists true; cbn; auto|]. split; [reflexivity|]. split; [apply open_sound; reflexivity|]. split; [apply not_ended; reflexivity|].
  split; [exists 100, true; cbn; auto|]. split; [exists (3, 1), 100, true; cbn; auto|]. intros p q' X. cbn in X. intuition discriminate.
Qed.
(* two connections with one correlation, as when the request takes a way that goes through this domain twice: both answers of the service-manager
   are taken for the first, which is passed on twice, and the second isn't *)
Definition w_loop_l := [Connected 5 100 true; Connected 6 101 true; External 100 true (XRequest (call 1 None)); External 101 true (XRequest (call 1 None));
  Internal 100 true (ILookup 1 (Found 8 50)); Internal 101 true (ILookup 1 (Found 8 51))].
Definition w_loop := Eval vm_compute in made w_loop_l.
Theorem C77_loop_refuted : exists h k c1 c2 p1 p2 q, happens h /\ honest h /\ asked c1 q h /\ asked c2 q h /\ open c1 h /\ open c2 h /\ ~ ended q h /\ q_corr q = k /\ c1 <> c2 /\
  In (Internal c2 true (ILookup k (Found 8 p2))) (inputs h) /\ In (ToProcess p1 c1 q) (effects h) /\ In (ToProcess p2 c1 q) (effects h) /\ forall p q', ~ In (ToProcess p c2 q') (effects h).
Proof.
  exists (snd w_loop), 1, 100, 101, 50, 51, (call 1 None).
  split; [apply (exec_happens0 w_loop_l w_loop); vm_compute; reflexivity|]. split; [apply honest_sound; reflexivity|]. split; [exists true; cbn; auto|]. split; [exists true; cbn; auto|]. split; [apply open_sound; reflexivity|]. split; [apply open_sound; reflexivity|].
  split; [apply not_ended; reflexivity|]. split; [reflexivity|]. split; [discriminate|]. split; [cbn; tauto|]. split; [cbn; tauto|]. split; [cbn; tauto|]. intros p q' X. cbn in X. intuition discriminate.
Qed.

(* ------------------------------------------------------------------ C78: replies to other domains *)
(* at most one reply to each call, and to each prepare, commit and rollback *)
Theorem C78_once : forall h c k, happens h -> (count (replies c Call k) (effects h) <= count (requests c Call k) (inputs h))%nat.
Proof. exact replies_le. Qed.
Theorem C78_once_resource : forall h c r k, happens h -> (count (replies_rm c r k) (effects h) <= count (requests_rm c r k) (inputs h))%nat.
Proof. exact replies_rm_le. Qed.
(* a remote only gets what has been sent to its connection; the reply to a call, and from the TM, what it has asked for *)
Theorem C78_cause : forall h i ev c w, happens (h ++ [(i, ev)]) -> In (ToRemote c w) ev -> w = WLeave \/ (open c h /\ comes_from h i c w).
Proof. exact remote_cause. Qed.
(* the reply gets to the remote that has asked *)
Theorem C78_call : forall h c q c' code d ev, happens (h ++ [(Internal c' true (IReply Call (q_corr q) code d), ev)]) -> unique h -> asked c q h -> q_kind q = Call -> ~ ended q h -> open c h ->
  ev = [ToRemote c (WReply Call (q_corr q) code d)].
Proof. exact reply_passed. Qed.
Theorem C78_resource : forall h c r k t c' t' code ev, happens (h ++ [(Internal c' true (IResource r k t' code), ev)]) -> unique h -> asked_rm c r k t h -> ~ rm_answered r k h -> open c h ->
  exists o, ev = [ToRemote c (WResource r k o code)].
Proof. exact rm_reply_passed. Qed.
Theorem C78_other : forall h c m w ev, happens (h ++ [(Internal c true m, ev)]) -> passed_as m = Some w -> ev = [ToRemote c w].
Proof. exact other_passed. Qed.
(* without a process that has the service there is an answer *)
Theorem C78_absent : forall h c q c' ok a ev, happens (h ++ [(Internal c' ok (ILookup (q_corr q) a), ev)]) -> unique h -> asked c q h -> is_service q = true -> ~ ended q h -> open c h ->
  (forall name p, a <> Found name p) -> ev = [ToPartner c (IReply (q_kind q) (q_corr q) (match a with Absent => TPENOENT | _ => TPETIME end) 0)].
Proof. exact absent_answered. Qed.
(* also if the process is gone, as long as the connection is there *)
Theorem C78_undelivered_partial : forall h f q ev c soft, happens (h ++ [(Undelivered f q, ev)]) -> In (Connected f c soft) (inputs h) -> open c h ->
  ev = [ToPartner c (IReply (q_kind q) (q_corr q) (if is_service q then TPESVCERR else 0) 0)].
Proof. exact undelivered_answered. Qed.

(* the write of the reply of a call fails: the connection is lost, and that removes the task that is executed: undefined behaviour *)
Definition w_fail_l := [Connected 5 100 true; External 100 true (XRequest (call 1 None)); Internal 100 true (ILookup 1 (Found 8 50))].
Definition w_fail := Eval vm_compute in made w_fail_l.
Theorem C78_send_refuted : exists s h c k ev, reach s h /\ unique h /\ once h /\ honest h /\ possible (Internal c false (IReply Call k 0 1)) s h /\ step (Internal c false (IReply Call k 0 1)) s = Undefined ev.
Proof.
  exists (fst w_fail), (snd w_fail), 100, 1, [Destroyed 100; Lost 5]. destruct (good_sound (snd w_fail)) as (A & B & C & _); [reflexivity|].
  split; [apply (exec_reach0 w_fail_l w_fail); vm_compute; reflexivity|]. do 3 (split; [assumption|]). split; [cbn; auto|reflexivity].
Qed.
(* without a queue-manager the emulated answer to the lookup goes to the device of the process, and not to that of the connection: the remote waits
   for ever, and the connection can't be closed *)
Definition w_off_l := [Connected 5 100 true; External 100 false (XRequest (enq 1 None)); External 100 true XLeave; Idle].
Definition w_off := Eval vm_compute in made w_off_l.
Theorem C78_offline_refuted : exists h c q, happens h /\ unique h /\ In (External c false (XRequest q)) (inputs h) /\ q_kind q = Enqueue /\ open c h /\ leaves c h /\
  effects h = [ToItself (IQueueLookup (q_corr q) None)].
Proof.
  exists (snd w_off), 100, (enq 1 None). split; [apply (exec_happens0 w_off_l w_off); vm_compute; reflexivity|]. split; [apply unique_sound; reflexivity|]. split; [cbn; auto|]. split; [reflexivity|]. split; [apply open_sound; reflexivity|]. split; [exists true; cbn; auto|reflexivity].
Qed.
(* the descriptor is used by a new connection when the request turns out not to be delivered: the new connection gets the answer, and passes it
   to its remote *)
Definition w_reuse_l := [Connected 5 100 true; External 100 true (XRequest (conv 1 None)); Internal 100 true (ILookup 1 (Found 9 50)); Broken 100; Connected 5 101 true; Undelivered 5 (conv 1 None); Internal 101 true (IReply Connect 1 TPESVCERR 0)].
Definition w_reuse := Eval vm_compute in made w_reuse_l.
Theorem C78_reuse_refuted : exists h c k, happens h /\ unique h /\ once h /\ honest h /\ In (ToPartner c (IReply Connect k TPESVCERR 0)) (effects h) /\ In (ToRemote c (WReply Connect k TPESVCERR 0)) (effects h) /\ forall q, ~ asked c q h.
Proof.
  exists (snd w_reuse), 101, 1. destruct (good_sound (snd w_reuse)) as (A & B & C & _); [reflexivity|].
  split; [apply (exec_happens0 w_reuse_l w_reuse); vm_compute; reflexivity|]. do 3 (split; [assumption|]). split; [cbn; tauto|]. split; [cbn; tauto|]. intros q [o X]. cbn in X. intuition discriminate.
Qed.

(* ------------------------------------------------------------------ C79: transactions of other domains *)
(* as long as a connection uses the transaction the TM gets the prepare, commit or rollback *)
Theorem C79_passed : forall h c c' on r k t d ev, happens (h ++ [(External c on (XResource r k t d), ev)]) -> unique h -> honest h -> uses (fst t) c' h -> open c' h ->
  exists b, ev = [ToTM c r k (fst t, b) d].
Proof. exact tm_passed. Qed.
(* nothing else, and only with a branch that the TM has given *)
Theorem C79_cause : forall h i ev c r k t d, happens (h ++ [(i, ev)]) -> In (ToTM c r k t d) ev -> open c h /\ from_tm t h /\ exists on t0, i = External c on (XResource r k t0 d) /\ fst t = fst t0.
Proof. exact tm_cause. Qed.
(* all that is done for a transaction is done with one branch *)
Theorem C79_one_branch : forall h e1 e2 t1 t2, happens h -> tm_consistent h -> In e1 (effects h) -> In e2 (effects h) -> carries e1 t1 -> carries e2 t2 -> fst t1 = fst t2 -> t1 = t2.
Proof. exact same_branch. Qed.
(* a transaction that isn't known is told to the remote *)
Theorem C79_unknown : forall h c on r k t d ev, happens (h ++ [(External c on (XResource r k t d), ev)]) -> over (fst t) h -> ev = [ToPartner c (IResource r k (Some t) XAER_PROTO)].
Proof. exact tm_unknown. Qed.

(* the answer has the branch of this domain, and not that which the remote has asked for *)
Definition w_branch_l := [Connected 5 100 true; External 100 true (XRequest (call 1 (Some (3, 1)))); Internal 100 true (ILookup 1 (Found 8 50)); Internal 100 true (IBranch 1 (3, 2)); Internal 100 true (IReply Call 1 0 81);
  External 100 true (XResource Commit 2 (3, 1) 0); Internal 100 true (IResource Commit 2 (Some (3, 2)) 0)].
Definition w_branch := Eval vm_compute in made w_branch_l.
Theorem C79_answer_refuted : exists h c r k t o code, happens h /\ unique h /\ once h /\ honest h /\ asked_rm c r k t h /\ In (ToRemote c (WResource r k o code)) (effects h) /\ o <> Some t.
Proof.
  exists (snd w_branch), 100, Commit, 2, (3, 1), (Some (3, 2)), 0. destruct (good_sound (snd w_branch)) as (A & B & C & _); [reflexivity|].
  split; [apply (exec_happens0 w_branch_l w_branch); vm_compute; reflexivity|]. do 3 (split; [assumption|]). split; [exists true, 0; cbn; tauto|]. split; [cbn; tauto|discriminate].
Qed.
(* the only connection that uses the transaction is lost, and the remote connects again: the rollback isn't passed to the TM, though the TM hasn't
   said that the transaction is over *)
Definition w_again_l := [Connected 5 100 true; External 100 true (XRequest (call 1 (Some (3, 1)))); Internal 100 true (ILookup 1 (Found 8 50)); Internal 100 true (IBranch 1 (3, 2)); Internal 100 true (IReply Call 1 0 81); Broken 100;
  Connected 6 101 true; External 101 true (XResource Rollback 2 (3, 1) 0)].
Definition w_again := Eval vm_compute in made w_again_l.
Theorem C79_again_refuted : exists h c c' p q' r k t, happens h /\ unique h /\ once h /\ honest h /\ In (ToProcess p c' q') (effects h) /\ gtrid (q_trid q') = Some (fst t) /\ asked_rm c r k t h /\ open c h /\
  ~ In (Disassociate (fst t)) (inputs h) /\ In (ToPartner c (IResource r k (Some t) XAER_PROTO)) (effects h) /\ forall c0 r0 k0 t0 d0, ~ In (ToTM c0 r0 k0 t0 d0) (effects h).
Proof.
  exists (snd w_again), 101, 100, 50, (call 1 (Some (3, 2))), Rollback, 2, (3, 1). destruct (good_sound (snd w_again)) as (A & B & C & _); [reflexivity|].
  split; [apply (exec_happens0 w_again_l w_again); vm_compute; reflexivity|]. do 3 (split; [assumption|]). split; [cbn; tauto|]. split; [reflexivity|]. split; [exists true, 0; cbn; tauto|]. split; [apply open_sound; reflexivity|].
  split; [cbn; intuition discriminate|]. split; [cbn; tauto|]. intros c0 r0 k0 t0 d0 X. cbn in X. intuition discriminate.
Qed.

(* ------------------------------------------------------------------ C80: connections are closed in an orderly way *)
(* a connection is closed when it's broken, or is told to leave *)
Theorem C80_cause : forall h i ev c, happens (h ++ [(i, ev)]) -> In (Destroyed c) ev -> open c h /\ closed_by h i c.
Proof. exact closed_cause. Qed.
(* when the remote has agreed to leave it isn't closed before what is done for it is done: but for a request to a queue without a transaction *)
Theorem C80_waits_partial : forall h i ev c, happens (h ++ [(i, ev)]) -> unique h -> honest h -> In (Destroyed c) ev -> agreed i = true ->
  (forall q, asked c q h -> is_service q = true -> ended q h) /\ (forall r k t, asked_rm c r k t h -> rm_answered r k h) /\ (forall g, ~ uses g c h).
Proof. exact agreed_close. Qed.
(* and it's closed when all of it is *)
Theorem C80_leave : forall h c on ev, happens (h ++ [(External c on XLeave, ev)]) -> unique h -> honest h -> nothing_left c h -> In (Destroyed c) ev.
Proof. exact leave_closes. Qed.
Theorem C80_idle : forall h c ev, happens (h ++ [(Idle, ev)]) -> unique h -> honest h -> leaves c h -> open c h -> nothing_left c h -> In (Destroyed c) ev.
Proof. exact idle_closes. Qed.
(* remotes are asked to leave, if they can be *)
Theorem C80_remove : forall h c ok ev, happens (h ++ [(Remove c ok, ev)]) -> (soft c h -> ok = true -> ev = [ToRemote c WLeave]) /\ (~ soft c h \/ ok = false -> In (Destroyed c) ev).
Proof. exact remove_asks. Qed.
Theorem C80_shutdown : forall h broken ev c, happens (h ++ [(Shutdown broken, ev)]) -> open c h -> (soft c h -> ~ In c broken -> In (ToRemote c WLeave) ev) /\ (~ soft c h \/ In c broken -> In (Destroyed c) ev).
Proof. exact shutdown_asks. Qed.
(* it ends when it's told to and all the connections are gone *)
Theorem C80_done : forall s h, reach s h -> (done s = true <-> (exists b, In (Shutdown b) (inputs h)) /\ forall c, connected c h -> gone c h).
Proof. exact done_when. Qed.
(* nothing else ends it: if remotes do what they should, and no write of a reply fails *)
Theorem C80_survives_partial : forall s h i, reach s h -> possible i s h -> unique h -> honest h -> leaves_once h -> sends_right h i -> reply_fails i = false -> exists s' ev, step i s = Done s' ev.
Proof. exact survives. Qed.

(* a remote that leaves has an enqueue without a transaction in flight: the connection is closed before the answer, which is lost *)
Definition w_inflight_l := [Connected 5 100 true; External 100 true (XRequest (enq 1 None)); Internal 100 true (IQueueLookup 1 (Some 60)); External 100 true XLeave].
Definition w_inflight := Eval vm_compute in made w_inflight_l.
Theorem C80_in_flight_refuted : exists h c p q, happens h /\ unique h /\ once h /\ honest h /\ asked c q h /\ In (ToProcess p c q) (effects h) /\ leaves c h /\ (forall n k code d, ~ got (IReply n k code d) h) /\ gone c h.
Proof.
  exists (snd w_inflight), 100, 60, (enq 1 None). destruct (good_sound (snd w_inflight)) as (A & B & C & _); [reflexivity|].
  split; [apply (exec_happens0 w_inflight_l w_inflight); vm_compute; reflexivity|]. do 3 (split; [assumption|]). split; [exists true; cbn; tauto|]. split; [cbn; tauto|]. split; [exists true; cbn; tauto|]. split; [|apply gone_iff; reflexivity].
  intros n k code d (c & ok & X). cbn in X. intuition discriminate.
Qed.
(* a call without reply: there is never anything that ends its task, and the connection isn't closed *)
Definition w_oneway_l := [Connected 5 100 true; External 100 true (XRequest (oneway 1)); Internal 100 true (ILookup 1 (Found 8 50)); External 100 true XLeave; Idle; Idle].
Definition w_oneway := Eval vm_compute in made w_oneway_l.
Theorem C80_oneway_refuted : exists h c p q, happens h /\ unique h /\ once h /\ honest h /\ asked c q h /\ q_noreply q = true /\ In (ToProcess p c q) (effects h) /\ leaves c h /\ (forall q', asked c q' h -> q' = q) /\ In Idle (inputs h) /\ open c h.
Proof.
  exists (snd w_oneway), 100, 50, (oneway 1). destruct (good_sound (snd w_oneway)) as (A & B & C & _); [reflexivity|].
  split; [apply (exec_happens0 w_oneway_l w_oneway); vm_compute; reflexivity|]. do 3 (split; [assumption|]). split; [exists true; cbn; tauto|]. split; [reflexivity|]. split; [cbn; tauto|]. split; [exists true; cbn; tauto|]. split; [|split; [cbn; tauto|apply open_sound; reflexivity]].
  intros q' [o X]. cbn in X. unfold oneway, conv. intuition congruence.
Qed.
(* the same for a conversation with a service that isn't there, though the remote has been told *)
Definition w_absent_l := [Connected 5 100 true; External 100 true (XRequest (conv 1 None)); Internal 100 true (ILookup 1 Absent); Internal 100 true (IReply Connect 1 TPENOENT 0); External 100 true XLeave; Idle; Idle].
Definition w_absent := Eval vm_compute in made w_absent_l.
Theorem C80_conversation_refuted : exists h c q, happens h /\ unique h /\ once h /\ honest h /\ asked c q h /\ In (ToRemote c (WReply Connect (q_corr q) TPENOENT 0)) (effects h) /\ leaves c h /\ (forall q', asked c q' h -> q' = q) /\ In Idle (inputs h) /\ open c h.
Proof.
  exists (snd w_absent), 100, (conv 1 None). destruct (good_sound (snd w_absent)) as (A & B & C & _); [reflexivity|].
  split; [apply (exec_happens0 w_absent_l w_absent); vm_compute; reflexivity|]. do 3 (split; [assumption|]). split; [exists true; cbn; tauto|]. split; [cbn; tauto|]. split; [exists true; cbn; tauto|]. split; [|split; [cbn; tauto|apply open_sound; reflexivity]].
  intros q' [o X]. cbn in X. unfold oneway, conv. intuition congruence.
Qed.
(* a remote that says twice that it leaves takes the process down, with the connections of the others *)
Definition w_twice_l := [Connected 5 100 true; Connected 6 101 true; External 100 true (XRequest (call 1 None)); External 100 true XLeave; External 100 true XLeave; Internal 100 true (ILookup 1 (Found 8 50)); Internal 100 true (IReply Call 1 0 81)].
Definition w_twice := Eval vm_compute in made w_twice_l.
Theorem C80_twice_refuted : exists s h ev, reach s h /\ unique h /\ once h /\ honest h /\ step Idle s = Terminated ev.
Proof.
  exists (fst w_twice), (snd w_twice), [Destroyed 100]. destruct (good_sound (snd w_twice)) as (A & B & C & _); [reflexivity|].
  split; [apply (exec_reach0 w_twice_l w_twice); vm_compute; reflexivity|]. do 3 (split; [assumption|]). reflexivity.
Qed.
(* and so does one that sends in a conversation before it's there *)
Definition w_early_l := [Connected 5 100 true; Connected 6 101 true; External 100 true (XRequest (conv 1 None))].
Definition w_early := Eval vm_compute in made w_early_l.
Theorem C80_early_refuted : exists s h c k d ev, reach s h /\ unique h /\ once h /\ honest h /\ leaves_once h /\ possible (External c true (XSend k d)) s h /\ step (External c true (XSend k d)) s = Terminated ev.
Proof.
  exists (fst w_early), (snd w_early), 100, 1, 5, []. destruct (good_sound (snd w_early)) as (A & B & C & _); [reflexivity|].
  split; [apply (exec_reach0 w_early_l w_early); vm_compute; reflexivity|]. do 3 (split; [assumption|]). split; [intro c; cbn; lia|]. split; [cbn; auto|reflexivity].
Qed.

(* ------------------------------------------------------------------ C81: lookups aren't left behind *)
(* when a connection is closed the lookups that aren't answered are discarded, *)
Theorem C81_discarded : forall h i ev c q, happens (h ++ [(i, ev)]) -> unique h -> In (Destroyed c) ev -> asked c q h -> is_service q = true -> ~ ended q h -> ~ found (q_corr q) h ->
  In (Discard (q_corr q) (q_name q)) ev.
Proof. exact lookup_discarded. Qed.
(* and nothing else is *)
Theorem C81_cause : forall h i ev k name, happens (h ++ [(i, ev)]) -> unique h -> honest h -> In (Discard k name) ev ->
  exists c q, In (Destroyed c) ev /\ asked c q h /\ is_service q = true /\ q_corr q = k /\ q_name q = name /\ ~ found k h.
Proof. exact discard_cause. Qed.

(* an answered lookup, when the connection is closed before the TM has given the branch: the instance that is reserved for the call gets
   neither the call, nor is the lookup discarded *)
Definition w_reserved_l := [Connected 5 100 true; External 100 true (XRequest (call 1 (Some (3, 1)))); Internal 100 true (ILookup 1 (Found 8 50)); Broken 100].
Definition w_reserved := Eval vm_compute in made w_reserved_l.
Theorem C81_reserved_refuted : exists h c q, happens h /\ unique h /\ once h /\ honest h /\ asked c q h /\ got (ILookup (q_corr q) (Found (q_name q) 50)) h /\ gone c h /\
  (forall p c' q', ~ In (ToProcess p c' q') (effects h)) /\ (forall k name, ~ In (Discard k name) (effects h)).
Proof.
  exists (snd w_reserved), 100, (call 1 (Some (3, 1))). destruct (good_sound (snd w_reserved)) as (A & B & C & _); [reflexivity|].
  split; [apply (exec_happens0 w_reserved_l w_reserved); vm_compute; reflexivity|]. do 3 (split; [assumption|]). split; [exists true; cbn; tauto|]. split; [exists 100, true; cbn; tauto|]. split; [apply gone_iff; reflexivity|].
  split; [intros p c' q' X; cbn in X; intuition discriminate|intros k name X; cbn in X; intuition discriminate].
Qed.

(* ------------------------------------------------------------------ there are such histories *)
Definition ex_l := [
  Connected 5 100 true; Connected 6 101 true;
  External 100 true (XRequest (call 1 (Some (3, 1)))); Internal 100 true (ILookup 1 (Found 18 50)); Internal 100 true (IBranch 1 (3, 2));   (* 5: passed on *)
  External 101 true (XRequest (conv 2 (Some (3, 1)))); Internal 101 true (ILookup 2 (Found 9 51));                                       (* 7: passed on, the branch is known *)
  External 100 true (XRequest (enq 3 None)); Internal 100 true (IQueueLookup 3 (Some 60));                                            (* 9: passed on *)
  External 101 true (XSend 2 20); Internal 101 true (ISend 2 true 21);
  External 100 true XLeave; Idle;                                                                                                     (* 13: not closed *)
  Internal 100 true (IReply Call 1 0 81);                                                                                             (* 14 *)
  External 100 true (XResource Commit 4 (3, 1) 0); Internal 100 true (IResource Commit 4 (Some (3, 2)) 0);                              (* 16 *)
  Disassociate 3; Idle;                                                                                                               (* 18: closed *)
  External 101 true (XRequest (call 5 None)); Internal 101 true (ILookup 5 Absent); Internal 101 true (IReply Call 5 TPENOENT 0);      (* 21 *)
  External 101 true (XRequest (call 6 None)); External 101 true (XResource Rollback 7 (3, 1) 0); Shutdown []; Broken 101].            (* 25 *)
Definition ex := Eval vm_compute in made ex_l.
Definition upto (n : nat) : history := firstn n (snd ex).
Example ex_happens : forall n, happens (upto n).
Proof. intro n. unfold upto. apply happens_firstn. apply (exec_happens0 ex_l ex). vm_compute. reflexivity. Qed.
Example ex_good : unique (snd ex) /\ once (snd ex) /\ honest (snd ex) /\ tm_consistent (snd ex).
Proof. apply good_sound. reflexivity. Qed.
Example ex_size : length (snd ex) = 25%nat /\ done (fst ex) = true.
Proof. split; reflexivity. Qed.
Ltac at_ n := apply (eq_ind (upto n) happens (ex_happens n)); reflexivity.
(* C77 *)
Example C77_asks_case : exists ev, happens (upto 5 ++ [(External 101 true (XRequest (conv 2 (Some (3, 1)))), ev)]) /\ unique (upto 5) /\ honest (upto 5) /\ uses 3 100 (upto 5) /\ open 100 (upto 5).
Proof.
  eexists. split; [at_ 6%nat|]. split; [apply unique_sound; reflexivity|]. split; [apply honest_sound; reflexivity|]. split; [|apply open_sound; reflexivity].
  exists 1. split; [|exists 50, (Request Call 1 18 (Some (3, 2)) 80 false); cbn; auto]. exists (upto 2), true, (call 1 (Some (3, 1))), 1. do 2 eexists. split; [reflexivity|]. split; [reflexivity|]. split; [reflexivity|]. cbn. intros e X. intuition discriminate.
Qed.
Example C77_asks_new_case : exists ev, happens (upto 2 ++ [(External 100 true (XRequest (call 1 (Some (3, 1)))), ev)]) /\ over 3 (upto 2).
Proof. eexists. split; [at_ 3%nat|apply over_sound; reflexivity]. Qed.
Example C77_forward_case : exists ev, happens (upto 4 ++ [(Internal 100 true (IBranch 1 (3, 2)), ev)]) /\ unique (upto 4) /\ honest (upto 4 ++ [(Internal 100 true (IBranch 1 (3, 2)), ev)]) /\
  In (ToProcess 50 100 (Request Call 1 18 (Some (3, 2)) 80 false)) ev /\ asked 100 (call 1 (Some (3, 1))) (upto 4).
Proof. eexists. split; [at_ 5%nat|]. split; [apply unique_sound; reflexivity|]. split; [apply honest_sound; reflexivity|]. split; [cbn; auto|exists true; cbn; auto]. Qed.
Example C77_service_case : happens (upto 7) /\ (unique (upto 7) /\ once (upto 7) /\ honest (upto 7)) /\ asked 101 (conv 2 (Some (3, 1))) (upto 7) /\ open 101 (upto 7) /\ ~ ended (conv 2 (Some (3, 1))) (upto 7) /\
  ~ from_tm (3, 1) (upto 7) /\ got (ILookup 2 (Found 9 51)) (upto 7) /\ no_branch 2 (upto 7) /\ count (forwards 2) (effects (upto 7)) = 1%nat.
Proof.
  split; [at_ 7%nat|]. split; [destruct (good_sound (upto 7)) as (A & B & C & _); [reflexivity|auto]|]. split; [exists true; cbn; auto 10|]. split; [apply open_sound; reflexivity|]. split; [apply not_ended; reflexivity|]. split; [apply not_from_tm; cbn; intuition discriminate|].
  split; [exists 101, true; cbn; auto 10|]. split; [apply no_branch_sound; reflexivity|reflexivity].
Qed.
Example C77_queue_case : happens (upto 9) /\ (unique (upto 9) /\ once (upto 9) /\ honest (upto 9)) /\ asked 100 (enq 3 None) (upto 9) /\ open 100 (upto 9) /\ ~ ended (enq 3 None) (upto 9) /\ got (IQueueLookup 3 (Some 60)) (upto 9) /\ no_branch 3 (upto 9).
Proof.
  split; [at_ 9%nat|]. split; [destruct (good_sound (upto 9)) as (A & B & C & _); [reflexivity|auto]|]. split; [exists true; cbn; auto 10|]. split; [apply open_sound; reflexivity|]. split; [apply not_ended; reflexivity|]. split; [exists 100, true; cbn; auto 10|apply no_branch_sound; reflexivity].
Qed.
(* C78 *)
Example C78_once_case : count (replies 100 Call 1) (effects (snd ex)) = 1%nat /\ count (requests 100 Call 1) (inputs (snd ex)) = 1%nat /\ count (replies_rm 100 Commit 4) (effects (snd ex)) = 1%nat /\ count (requests_rm 100 Commit 4) (inputs (snd ex)) = 1%nat.
Proof. vm_compute. auto. Qed.
Example C78_call_case : exists ev, happens (upto 13 ++ [(Internal 100 true (IReply Call 1 0 81), ev)]) /\ unique (upto 13) /\ asked 100 (call 1 (Some (3, 1))) (upto 13) /\ ~ ended (call 1 (Some (3, 1))) (upto 13) /\ open 100 (upto 13) /\ In (ToRemote 100 (WReply Call 1 0 81)) ev.
Proof. eexists. split; [at_ 14%nat|]. split; [apply unique_sound; reflexivity|]. split; [exists true; cbn; auto 10|]. split; [apply not_ended; reflexivity|]. split; [apply open_sound; reflexivity|cbn; auto]. Qed.
Example C78_resource_case : exists ev, happens (upto 15 ++ [(Internal 100 true (IResource Commit 4 (Some (3, 2)) 0), ev)]) /\ unique (upto 15) /\ asked_rm 100 Commit 4 (3, 1) (upto 15) /\ ~ rm_answered Commit 4 (upto 15) /\ open 100 (upto 15).
Proof.
  eexists. split; [at_ 16%nat|]. split; [apply unique_sound; reflexivity|]. split; [exists true, 0; cbn; tauto|]. split; [|apply open_sound; reflexivity].
  intros [(t & code & c & ok & X)|(d & c & ok & X)]; cbn in X; intuition discriminate.
Qed.
Example C78_other_case : exists ev, happens (upto 10 ++ [(Internal 101 true (ISend 2 true 21), ev)]) /\ passed_as (ISend 2 true 21) = Some (WSend 2 true 21).
Proof. eexists. split; [at_ 11%nat|reflexivity]. Qed.
Example C78_absent_case : exists ev, happens (upto 19 ++ [(Internal 101 true (ILookup 5 Absent), ev)]) /\ unique (upto 19) /\ asked 101 (call 5 None) (upto 19) /\ ~ ended (call 5 None) (upto 19) /\ open 101 (upto 19).
Proof. eexists. split; [at_ 20%nat|]. split; [apply unique_sound; reflexivity|]. split; [exists true; cbn; tauto|]. split; [apply not_ended; reflexivity|apply open_sound; reflexivity]. Qed.
Definition ex_un_l := firstn 9 ex_l ++ [Undelivered 5 (enq 3 None)].
Definition ex_un := Eval vm_compute in made ex_un_l.
Example C78_undelivered_case : exists ev, happens (upto 9 ++ [(Undelivered 5 (enq 3 None), ev)]) /\ In (Connected 5 100 true) (inputs (upto 9)) /\ open 100 (upto 9).
Proof. eexists. split; [eapply (exec_happens ex_un_l ex_un); vm_compute; reflexivity|]. split; [cbn; auto|apply open_sound; reflexivity]. Qed.
(* C79 *)
Example C79_passed_case : exists ev, happens (upto 14 ++ [(External 100 true (XResource Commit 4 (3, 1) 0), ev)]) /\ unique (upto 14) /\ honest (upto 14) /\ uses 3 100 (upto 14) /\ open 100 (upto 14) /\ In (ToTM 100 Commit 4 (3, 2) 0) ev.
Proof.
  eexists. split; [at_ 15%nat|]. split; [apply unique_sound; reflexivity|]. split; [apply honest_sound; reflexivity|]. split; [|split; [apply open_sound; reflexivity|cbn; auto]].
  exists 1. split; [|exists 50, (Request Call 1 18 (Some (3, 2)) 80 false); cbn; auto 10]. exists (upto 2), true, (call 1 (Some (3, 1))), 1. do 2 eexists. split; [reflexivity|]. split; [reflexivity|]. split; [reflexivity|]. cbn. intros e X. intuition discriminate.
Qed.
Example C79_one_branch_case : tm_consistent (snd ex) /\ exists e1 e2 e3, In e1 (effects (snd ex)) /\ In e2 (effects (snd ex)) /\ In e3 (effects (snd ex)) /\ e1 <> e2 /\ e2 <> e3 /\ carries e1 (3, 2) /\ carries e2 (3, 2) /\ carries e3 (3, 2).
Proof.
  split; [apply ex_good|]. exists (ToProcess 50 100 (Request Call 1 18 (Some (3, 2)) 80 false)), (ToProcess 51 101 (Request Connect 2 9 (Some (3, 2)) 90 false)), (ToTM 100 Commit 4 (3, 2) 0).
  split; [cbn; tauto|]. split; [cbn; tauto|]. split; [cbn; tauto|]. split; [discriminate|]. split; [discriminate|]. cbn; auto.
Qed.
Example C79_unknown_case : exists ev, happens (upto 22 ++ [(External 101 true (XResource Rollback 7 (3, 1) 0), ev)]) /\ over 3 (upto 22) /\ from_tm (3, 2) (upto 22).
Proof. eexists. split; [at_ 23%nat|]. split; [apply over_sound; reflexivity|apply given_iff; cbn; auto]. Qed.
(* C80: closed at the idle when the transaction is over, and not at the one before *)
Example C80_waits_case : exists ev, happens (upto 17 ++ [(Idle, ev)]) /\ unique (upto 17) /\ honest (upto 17) /\ In (Destroyed 100) ev /\ ~ gone 100 (upto 17) /\ leaves 100 (upto 13) /\ In Idle (inputs (upto 13)).
Proof. eexists. split; [at_ 18%nat|]. split; [apply unique_sound; reflexivity|]. split; [apply honest_sound; reflexivity|]. split; [cbn; auto|]. split; [apply not_gone; reflexivity|]. split; [exists true; cbn; tauto|cbn; tauto]. Qed.
Definition ex_leave_l := [Connected 5 100 true; External 100 true (XRequest (call 1 (Some (3, 1)))); Internal 100 true (ILookup 1 (Found 8 50)); Internal 100 true (IBranch 1 (3, 2)); Internal 100 true (IReply Call 1 0 81);
  External 100 true (XResource Commit 4 (3, 1) 0); Internal 100 true (IResource Commit 4 (Some (3, 2)) 0); Disassociate 3; External 100 true XLeave].
Definition ex_leave := Eval vm_compute in made ex_leave_l.
Definition ex_before : history := removelast (snd ex_leave).
Lemma split_in (h1 h2 h : history) x : h = h1 ++ x :: h2 -> exists n, n = length h1 /\ nth_error h n = Some x /\ h2 = skipn (S n) h.
Proof. intros ->. exists (length h1). split; auto. rewrite nth_error_app2, Nat.sub_diag by lia. split; auto. rewrite skipn_app, skipn_all2, Nat.sub_succ_l, Nat.sub_diag by lia. reflexivity. Qed.
Example C80_nothing_left_case : nothing_left 100 ex_before.
Proof.
  split; [|split; [|split]].
  - intros h1 o q e h2 E SV. destruct (split_in _ _ _ _ E) as (n & _ & N & ->). do 8 (destruct n as [|n]; [cbn in N; try discriminate; injection N as <- <- <-; apply ended_iff; reflexivity|]). cbn in N. now destruct n.
  - intros q [o X] SV. cbn in X. repeat (destruct X as [X|X]; [try discriminate X; injection X as <- <-; discriminate SV|]). destruct X.
  - intros h1 o r k t d e h2 E. destruct (split_in _ _ _ _ E) as (n & _ & N & ->). do 8 (destruct n as [|n]; [cbn in N; try discriminate; injection N as <- <- <- <- <-; exists (Some (3, 2)), 0, 100, true; cbn; auto|]). cbn in N. now destruct n.
  - intros g (h1 & i & e & h2 & q & E & A & G & X & D). assert (g = 3) by (destruct A as [o A]; cbn in A; repeat (destruct A as [A|A]; [try discriminate A; injection A as <- <-; cbn in G; congruence|]); destruct A). subst g.
    destruct (split_in _ _ _ _ E) as (n & _ & N & ->). apply (D []). do 7 (destruct n as [|n]; [cbn; tauto|]). destruct n as [|n]; [|cbn in N; now destruct n]. exfalso. cbn in N. injection N as <- <-. destruct X as [[o X]|(c' & ok & t & X)]; discriminate.
Qed.
Example C80_leave_case : exists ev, happens (ex_before ++ [(External 100 true XLeave, ev)]) /\ unique ex_before /\ honest ex_before /\ nothing_left 100 ex_before.
Proof. eexists. split; [eapply (exec_happens ex_leave_l ex_leave); vm_compute; reflexivity|]. split; [apply unique_sound; reflexivity|]. split; [apply honest_sound; reflexivity|exact C80_nothing_left_case]. Qed.
Example C80_cause_case : exists ev, happens (upto 24 ++ [(Broken 101, ev)]) /\ In (Destroyed 101) ev.
Proof. eexists. split; [at_ 25%nat|cbn; auto]. Qed.
Definition ex_remove_l := [Connected 5 100 true; Connected 6 101 false; Remove 100 true; Remove 101 true].
Definition ex_remove := Eval vm_compute in made ex_remove_l.
Example C80_remove_case : happens (snd ex_remove) /\ soft 100 (snd ex_remove) /\ ~ soft 101 (snd ex_remove) /\ effects (snd ex_remove) = [ToRemote 100 WLeave; Destroyed 101].
Proof. split; [apply (exec_happens0 ex_remove_l ex_remove); vm_compute; reflexivity|]. split; [exists 5; cbn; auto|]. split; [intros [f X]; cbn in X; intuition discriminate|reflexivity]. Qed.
Example C80_shutdown_case : exists ev, happens (upto 23 ++ [(Shutdown [], ev)]) /\ open 101 (upto 23) /\ soft 101 (upto 23) /\ In (ToRemote 101 WLeave) ev.
Proof. eexists. split; [at_ 24%nat|]. split; [apply open_sound; reflexivity|]. split; [exists 6; cbn; auto|cbn; auto]. Qed.
Example C80_survives_case : leaves_once (snd ex) /\ found 2 (upto 9) /\ sends_right (upto 9) (External 101 true (XSend 2 20)) /\ reply_fails (Internal 100 true (IReply Call 1 0 81)) = false.
Proof.
  assert (F: found 2 (upto 9)) by (exists 9, 51, 101, true; cbn; auto 10). split; [|auto]. intro c. cbn -[Z.eqb]. destruct (100 =? c); cbn; lia.
Qed.
(* C81 *)
Example C81_discarded_case : exists ev, happens (upto 24 ++ [(Broken 101, ev)]) /\ unique (upto 24) /\ honest (upto 24) /\ In (Destroyed 101) ev /\ asked 101 (call 6 None) (upto 24) /\ ~ ended (call 6 None) (upto 24) /\ ~ found 6 (upto 24) /\ In (Discard 6 8) ev.
Proof.
  eexists. split; [at_ 25%nat|]. split; [apply unique_sound; reflexivity|]. split; [apply honest_sound; reflexivity|]. split; [cbn; auto|]. split; [exists true; cbn; tauto|]. split; [apply not_ended; reflexivity|]. split; [|cbn; auto].
  intros (name & p & c & ok & X). cbn in X. intuition discriminate.
Qed.

Print Assumptions C77_asks.
Print Assumptions C77_origin.
Print Assumptions C77_transaction.
Print Assumptions C77_once.
Print Assumptions C77_service_partial.
Print Assumptions C77_queue.
Print Assumptions C77_same_branch_refuted.
Print Assumptions C77_loop_refuted.
Print Assumptions C78_once.
Print Assumptions C78_once_resource.
Print Assumptions C78_cause.
Print Assumptions C78_call.
Print Assumptions C78_resource.
Print Assumptions C78_other.
Print Assumptions C78_absent.
Print Assumptions C78_undelivered_partial.
Print Assumptions C78_send_refuted.
Print Assumptions C78_offline_refuted.
Print Assumptions C78_reuse_refuted.
Print Assumptions C79_passed.
Print Assumptions C79_cause.
Print Assumptions C79_one_branch.
Print Assumptions C79_unknown.
Print Assumptions C79_answer_refuted.
Print Assumptions C79_again_refuted.
Print Assumptions C80_cause.
Print Assumptions C80_waits_partial.
Print Assumptions C80_leave.
Print Assumptions C80_idle.
Print Assumptions C80_remove.
Print Assumptions C80_shutdown.
Print Assumptions C80_done.
Print Assumptions C80_survives_partial.
Print Assumptions C80_in_flight_refuted.
Print Assumptions C80_oneway_refuted.
Print Assumptions C80_conversation_refuted.
Print Assumptions C80_twice_refuted.
Print Assumptions C80_early_refuted.
Print Assumptions C81_discarded.
Print Assumptions C81_cause.
Print Assumptions C81_reserved_refuted.

(* The properties of the queue manager: C87 - C90. *)
From Coq Require Import ZArith List Bool Lia.
From Verif Require Import QmgModel QmgSpec QmgProofs QmgEnt QmgQueues QmgOffers QmgLook QmgLook2 QmgAnswers QmgTasks QmgConform QmgConform2 QmgConform3 QmgConform4 QmgConform5 QmgRun.
Import ListNotations.
Local Open Scope Z_scope.

Definition g1 := Conf 1 [(10, (true, true)); (11, (false, true))] 0.
Definition g2 := Conf 2 [(12, (true, true))] 0.
Definition g3 := Conf 3 [(13, (true, true))] 0.
Definition f1 := Conf 5 [] 0.
Definition lk (k name : Z) (r : requester) (w : bool) (a : action) : look := Look k (-5) 301 name r w a.
(* two groups and a forward group are started; two gateways offer queues; lookups; one group is replaced; and all is shut down *)
Definition ex_l := [Begin (Model [g1; g2] [f1]); Connect false 1 101; Connect false 2 102; Configured false 1 [(10, 1001); (11, 1002)]; Lookup (lk 201 12 Internal true Any); Configured false 2 [(12, 1003)];
  Connect true 3 103; Configured true 3 []; Idle; Advertise (-20) 401 0 [(20, (true, true))] []; Advertise (-21) 402 1 [(20, (true, true)); (10, (true, false))] [];
  Lookup (lk 202 20 Internal false Any); Order 401 5; Lookup (lk 203 20 Internal false Any); Lookup (lk 204 11 Internal false Enqueueing); Discovered 204; Lookup (lk 205 30 Internal true Any); DiscardLookup 301 205;
  AskLocal 302 7 true [10; 20]; Lookup (lk 206 20 External false Any); Lookup (lk 207 31 Internal true Any); AskKnown 302 8; Update 303 9 (Model [g1; g3] [f1]); Exit 2; Dead 2; Connect false 4 104;
  Shutdown; Exit 3; Dead 3; Exit 1; Dead 1; Exit 4; Dead 4].
Definition ex := Eval vm_compute in made ex_l.
Definition upto (n : nat) : history := firstn n (snd ex).
Lemma ex_reach n : reach (fst (made (firstn n ex_l))) (upto n).
Proof. apply (exec_reach_upto ex_l ex). vm_compute. reflexivity. Qed.
Definition x10 := Inst 10 1 101 1001 0 true true.
Definition x12 := Inst 12 2 102 1003 0 true true.
Definition x20 := Inst 20 (-21) 402 (-1) 2 true true.
Definition x20' := Inst 20 (-20) 401 (-1) 6 true true.

(* ------------------------------------------------------------------ C87: where a queue is *)
(* a lookup that is answered with a queue is one that waits (or the one that has arrived), and the queue is one that is offered now, has the name, and is enabled for what is asked for. If no gateway has
   advertised the same twice, it's exactly what is offered, and there is no better *)
Theorem C87_where_partial : forall s h i ev p k n x, reach s (h ++ [(i, ev)]) -> In (Answer p k n (Some x)) ev ->
  exists l, asker l i h /\ l_ipc l = p /\ l_corr l = k /\ l_name l = n /\ ~ lost p h /\ fits l x /\ (exists y, offers y (h ++ [(i, ev)]) /\ near x y)
    /\ (once (h ++ [(i, ev)]) -> offers x (h ++ [(i, ev)]) /\ forall y, offers y (h ++ [(i, ev)]) -> fits l y -> (i_order x <= i_order y)%nat).
Proof. exact answer_some. Qed.
(* that there is no such queue is told of only when there is none (or at shutdown), never to one that waits, and to one in this domain only when the other domains have been asked *)
Theorem C87_absent : forall s h i ev p k n, reach s (h ++ [(i, ev)]) -> In (Answer p k n None) ev ->
  exists l, asker l i h /\ l_ipc l = p /\ l_corr l = k /\ l_name l = n /\ (down (h ++ [(i, ev)]) \/ (l_wait l = false /\ (i = Lookup l /\ l_req l <> Internal \/ i = Discovered k) /\ forall y, offers y (h ++ [(i, ev)]) -> ~ fits l y)).
Proof. exact answer_none. Qed.
(* a queue that is offered is told of at once *)
Theorem C87_at_once : forall s h ev l x, reach s (h ++ [(Lookup l, ev)]) -> ~ lost (l_ipc l) h -> ~ down h -> offers x h -> fits l x -> exists y, ev = [Answer (l_ipc l) (l_corr l) (l_name l) (Some y)].
Proof. exact offered_now. Qed.

Example ex_where : exists s h ev, reach s (h ++ [(Lookup (lk 203 20 Internal false Any), ev)]) /\ In (Answer 301 203 20 (Some x20)) ev /\ once (h ++ [(Lookup (lk 203 20 Internal false Any), ev)]) /\ offers x20' (h ++ [(Lookup (lk 203 20 Internal false Any), ev)]).
Proof.
  exists (fst (made (firstn 14 ex_l))), (upto 13), [Answer 301 203 20 (Some x20)]. split; [exact (ex_reach 14)|]. split; [now left|]. split; [apply once_sound; vm_compute; reflexivity|]. apply offers_iff. vm_compute. tauto.
Qed.
Example ex_absent : exists s h ev, reach s (h ++ [(Discovered 204, ev)]) /\ In (Answer 301 204 11 None) ev.
Proof. exists (fst (made (firstn 16 ex_l))), (upto 15), [Answer 301 204 11 None]. split; [exact (ex_reach 16)|now left]. Qed.
Example ex_at_once : exists s h ev, reach s (h ++ [(Lookup (lk 203 20 Internal false Any), ev)]) /\ ~ lost 301 h /\ ~ down h /\ offers x20 h /\ fits (lk 203 20 Internal false Any) x20.
Proof.
  exists (fst (made (firstn 14 ex_l))), (upto 13), [Answer 301 203 20 (Some x20)]. split; [exact (ex_reach 14)|]. split; [apply not_lost; vm_compute; reflexivity|]. split; [apply not_down; vm_compute; reflexivity|]. split; [apply offers_iff; vm_compute; tauto|]. repeat split; discriminate.
Qed.
(* a gateway that advertises a queue again (with another order) keeps both: the order is changed for one of them, and the lookup is answered by the gateway that is farther away *)
Definition w_order_l := [Begin (Model [] []); Advertise (-20) 401 0 [(20, (true, true))] []; Advertise (-20) 401 0 [(20, (true, true))] []; Advertise (-21) 402 1 [(20, (true, true))] []; Order 401 5; Lookup (lk 201 20 Internal false Any)].
Definition w_order := Eval vm_compute in made w_order_l.
Theorem C87_order_refuted : exists s h l ev x y, reach s (h ++ [(Lookup l, ev)]) /\ In (Answer (l_ipc l) (l_corr l) (l_name l) (Some x)) ev /\ ~ offers x h /\ offers y h /\ fits l y /\ i_ipc y <> i_ipc x /\
  forall z, offers z h -> i_ipc z = i_ipc x -> (i_order y < i_order z)%nat.
Proof.
  exists (fst w_order), (firstn 5 (snd w_order)), (lk 201 20 Internal false Any), (snd (nth 5 (snd w_order) (Shutdown, []))), (Inst 20 (-20) 401 (-1) 1 true true), x20. split; [apply (exec_reach0 w_order_l w_order); vm_compute; reflexivity|]. split; [now left|].
  split; [intro O; apply offers_iff in O; vm_compute in O; intuition discriminate|]. split; [apply offers_iff; vm_compute; tauto|]. split; [repeat split; discriminate|]. split; [discriminate|]. intros z O E. apply offers_iff in O. vm_compute in O. destruct O as [<-|[<-|[]]]; [discriminate|cbn; lia].
Qed.
(* and if what is enabled has changed, the lookup is answered with what was before: there is no queue that can be enqueued to *)
Definition w_enabled_l := [Begin (Model [] []); Advertise (-20) 401 0 [(20, (true, true))] []; Advertise (-20) 401 0 [(20, (false, true))] []; Lookup (lk 201 20 Internal false Enqueueing)].
Definition w_enabled := Eval vm_compute in made w_enabled_l.
Theorem C87_enabled_refuted : exists s h l ev x, reach s (h ++ [(Lookup l, ev)]) /\ In (Answer (l_ipc l) (l_corr l) (l_name l) (Some x)) ev /\ forall y, offers y h -> ~ fits l y.
Proof.
  exists (fst w_enabled), (firstn 3 (snd w_enabled)), (lk 201 20 Internal false Enqueueing), (snd (nth 3 (snd w_enabled) (Shutdown, []))), (Inst 20 (-20) 401 (-1) 1 true true). split; [apply (exec_reach0 w_enabled_l w_enabled); vm_compute; reflexivity|]. split; [now left|].
  intros y O (_ & E & _). apply offers_iff in O. vm_compute in O. destruct O as [<-|[]]. discriminate.
Qed.
(* a group whose configuration is updated so that a queue can't be enqueued to: the lookups are answered as before *)
Definition g1' := Conf 1 [(10, (false, true)); (11, (false, true))] 0.
Definition w_stale_l := [Begin (Model [g1] []); Connect false 1 101; Configured false 1 [(10, 1001); (11, 1002)]; Idle; Update 303 9 (Model [g1'] []); Configured false 1 [(10, 1001); (11, 1002)]; Lookup (lk 201 10 Internal false Enqueueing)].
Definition w_stale := Eval vm_compute in made w_stale_l.
Theorem C87_update_refuted : exists s h l ev x m c, reach s (h ++ [(Lookup l, ev)]) /\ In (Answer (l_ipc l) (l_corr l) (l_name l) (Some x)) ev /\ wants m h /\ settled h /\ answered h /\ (forall f pid, ~ unreplied f pid h) /\
  m_groups m = [c] /\ l_act l = Enqueueing /\ allowed c (l_name l) = (false, true).
Proof.
  exists (fst w_stale), (firstn 6 (snd w_stale)), (lk 201 10 Internal false Enqueueing), (snd (nth 6 (snd w_stale) (Shutdown, []))), x10, (Model [g1'] []), g1'. split; [apply (exec_reach0 w_stale_l w_stale); vm_compute; reflexivity|]. split; [now left|].
  split; [apply wants_sound; vm_compute; reflexivity|]. split; [apply settled_sound; vm_compute; reflexivity|]. split; [apply answered_sound; vm_compute; reflexivity|]. split; [apply none_unreplied; vm_compute; reflexivity|repeat split].
Qed.

(* ------------------------------------------------------------------ C88: every lookup has an end *)
(* a lookup is answered at most once *)
Theorem C88_once : forall s h k, reach s h -> (count (is_answer k) (effects h) <= 1)%nat.
Proof. exact one_answer. Qed.
(* none waits for a queue that is offered *)
Theorem C88_none_offered : forall s h l x, reach s h -> waiting l h -> ~ lost (l_ipc l) h -> offers x h -> ~ fits l x.
Proof. exact not_offered. Qed.
(* none waits when it's shut down *)
Theorem C88_none_when_down : forall s h l, reach s h -> down h -> waiting l h -> lost (l_ipc l) h.
Proof. exact not_when_down. Qed.
(* one that isn't to wait is answered when the other domains have been asked, at the latest *)
Theorem C88_direct : forall s h ev l, reach s (h ++ [(Discovered (l_corr l), ev)]) -> l_wait l = false -> waiting l h -> ~ lost (l_ipc l) h -> exists a, In (Answer (l_ipc l) (l_corr l) (l_name l) a) ev.
Proof. exact direct_done. Qed.
(* one from another domain that isn't to wait is answered at once *)
Theorem C88_external : forall s h ev l, reach s (h ++ [(Lookup l, ev)]) -> l_req l <> Internal -> l_wait l = false -> ~ lost (l_ipc l) h -> exists a, ev = [Answer (l_ipc l) (l_corr l) (l_name l) a].
Proof. exact external_now. Qed.
(* a lookup is answered; or the other domains are asked; or it waits, if it's on behalf of another domain *)
Theorem C88_arrives : forall s h ev l, reach s (h ++ [(Lookup l, ev)]) -> ~ lost (l_ipc l) h ->
  (exists a, ev = [Answer (l_ipc l) (l_corr l) (l_name l) a]) \/ (l_req l = Internal /\ ev = [Discover (l_name l) (l_corr l)]) \/ (l_req l <> Internal /\ l_wait l = true /\ ev = []).
Proof. exact asks_others. Qed.
(* a lookup is withdrawn, or it has been answered: the one who withdraws is told which, and one that is withdrawn is never answered *)
Theorem C88_withdraw : forall s h ev p k, reach s (h ++ [(DiscardLookup p k, ev)]) -> ~ lost p h ->
  exists b, ev = [Discarded p k b] /\ if b then exists l, l_corr l = k /\ waiting l h else forall l, l_corr l = k -> waiting l h -> lost (l_ipc l) h.
Proof. exact discard_reply. Qed.
Theorem C88_withdrawn : forall s h p k, reach s h -> In (Discarded p k true) (effects h) -> count (is_answer k) (effects h) = 0%nat.
Proof. exact discarded_none. Qed.

Example ex_waiting : reach (fst (made (firstn 21 ex_l))) (upto 21) /\ waiting (lk 207 31 Internal true Any) (upto 21) /\ ~ lost 301 (upto 21) /\ offers x20 (upto 21).
Proof. pose proof (ex_reach 21) as R. split; [exact R|]. split; [apply (waits _ _ _ R); vm_compute; tauto|]. split; [apply not_lost; vm_compute; reflexivity|apply offers_iff; vm_compute; tauto]. Qed.
Definition ex_gone_l := [Begin (Model [] []); Lookup (lk 201 12 Internal true Any); Lost 301; Shutdown].
Definition ex_gone := Eval vm_compute in made ex_gone_l.
Example ex_when_down : reach (fst ex_gone) (snd ex_gone) /\ down (snd ex_gone) /\ waiting (lk 201 12 Internal true Any) (snd ex_gone).
Proof.
  split; [apply (exec_reach0 ex_gone_l ex_gone); vm_compute; reflexivity|]. split; [vm_compute; tauto|]. change (snd ex_gone) with ((([(Begin (Model [] []), [])] ++ [(Lookup (lk 201 12 Internal true Any), [Discover 12 201])]) ++ [(Lost 301, [])]) ++ [(Shutdown, @nil effect)]).
  apply waiting_since; [|reflexivity]. apply waiting_since; [|reflexivity]. apply waiting_now. reflexivity.
Qed.
Example ex_direct : exists s ev, reach s (upto 15 ++ [(Discovered 204, ev)]) /\ waiting (lk 204 11 Internal false Enqueueing) (upto 15) /\ ~ lost 301 (upto 15).
Proof. exists (fst (made (firstn 16 ex_l))), [Answer 301 204 11 None]. split; [exact (ex_reach 16)|]. split; [apply (waits _ _ _ (ex_reach 15)); vm_compute; tauto|apply not_lost; vm_compute; reflexivity]. Qed.
Example ex_external : exists s ev, reach s (upto 19 ++ [(Lookup (lk 206 20 External false Any), ev)]) /\ ~ lost 301 (upto 19) /\ ev = [Answer 301 206 20 None].
Proof. exists (fst (made (firstn 20 ex_l))), [Answer 301 206 20 None]. split; [exact (ex_reach 20)|]. split; [apply not_lost; vm_compute; reflexivity|reflexivity]. Qed.
Example ex_withdraw : exists s ev, reach s (upto 17 ++ [(DiscardLookup 301 205, ev)]) /\ ~ lost 301 (upto 17) /\ ev = [Discarded 301 205 true].
Proof. exists (fst (made (firstn 18 ex_l))), [Discarded 301 205 true]. split; [exact (ex_reach 18)|]. split; [apply not_lost; vm_compute; reflexivity|reflexivity]. Qed.

(* ------------------------------------------------------------------ C89: what is told of the queues to the discovery *)
(* of the names that are asked for, it's told which are offered and which are not *)
Theorem C89_lookup : forall s h ev p k internal names, reach s (h ++ [(AskLocal p k internal names, ev)]) -> ~ lost p h ->
  exists there absent, ev = [Found p k there absent]
    /\ (forall n, In n (map fst there) <-> In n names /\ exists x, offers x h /\ here internal n x) /\ (forall n, In n absent <-> In n names /\ forall x, offers x h -> ~ here internal n x)
    /\ (once h -> forall n e d, In (n, (e, d)) there -> exists x, offers x h /\ here internal n x /\ i_enq x = e /\ i_deq x = d /\ forall y, offers y h -> here internal n y -> (i_order x <= i_order y)%nat).
Proof. exact ask_local. Qed.
(* what is known: the queues that are offered by gateways, and those that are waited for *)
Theorem C89_known : forall s h ev p k, reach s (h ++ [(AskKnown p k, ev)]) -> ~ lost p h ->
  exists names, ev = [Known p k names] /\ NoDup names /\ (forall n, In n names -> (exists x, offers x h /\ i_name x = n /\ domestic x = false) \/ exists l, waiting l h /\ l_wait l = true /\ l_name l = n)
    /\ (forall x, offers x h -> domestic x = false -> In (i_name x) names) /\ forall l, waiting l h -> ~ lost (l_ipc l) h -> l_wait l = true -> In (l_name l) names.
Proof. exact ask_known. Qed.

Example ex_lookup : exists s ev, reach s (upto 18 ++ [(AskLocal 302 7 true [10; 20], ev)]) /\ ~ lost 302 (upto 18) /\ ev = [Found 302 7 [(10, (true, true))] [20]] /\ once (upto 18).
Proof. exists (fst (made (firstn 19 ex_l))), [Found 302 7 [(10, (true, true))] [20]]. split; [exact (ex_reach 19)|]. split; [apply not_lost; vm_compute; reflexivity|]. split; [reflexivity|apply once_sound; vm_compute; reflexivity]. Qed.
Example ex_known : exists s ev, reach s (upto 21 ++ [(AskKnown 302 8, ev)]) /\ ~ lost 302 (upto 21) /\ ev = [Known 302 8 [10; 20; 31]].
Proof. exists (fst (made (firstn 22 ex_l))), [Known 302 8 [10; 20; 31]]. split; [exact (ex_reach 22)|]. split; [apply not_lost; vm_compute; reflexivity|reflexivity]. Qed.

(* ------------------------------------------------------------------ C90: the groups are what the configuration says *)
(* nothing is started or stopped, and no update is answered, until what was started and stopped before is complete *)
Theorem C90_one_at_a_time : forall s h i ev a e b, reach s (h ++ [(i, ev)]) -> ev = a ++ e :: b -> acts e = true ->
  (forall e', In e' (effects h) -> complete e' (h ++ [(i, ev)])) /\ forall e', In e' a -> complete e' (h ++ [(i, ev)]) \/ same_kind e e'.
Proof. exact one_at_a_time. Qed.
(* when it has settled, what runs is what is wanted: if that was asked for when all was as it should *)
Theorem C90_conforms_partial : forall s h m f, reach s h -> wants m h -> settled h -> answered h ->
  (forall c pid, live f c pid h -> exists c', In c' (part f m) /\ c_alias c' = c_alias c)
  /\ forall c', In c' (part f m) -> exists c pid, In (Spawn f c pid) (effects h) /\ c_alias c = c_alias c' /\ forall ipc, ~ In (Stop f pid ipc) (effects h).
Proof. exact conforms. Qed.
(* there is one process for each *)
Theorem C90_one_process_partial : forall s h f c c' pid pid', reach s h -> calm h -> live f c pid h -> live f c' pid' h -> c_alias c = c_alias c' -> pid = pid'.
Proof. exact one_process. Qed.
(* an update is answered at most once, and only if it's asked for; and it's answered when all has settled and the groups that have got a configuration have replied *)
Theorem C90_updated_once : forall s h p k, reach s h -> (count (is_upd p k) (effects h) <= 1)%nat.
Proof. exact updated_once. Qed.
Theorem C90_updated_asked : forall s h p k, reach s h -> In (Updated p k) (effects h) -> exists m, In (Update p k m) (inputs h).
Proof. exact updated_asked. Qed.
Theorem C90_updated : forall s h, reach s h -> settled h -> (forall f pid, ~ unreplied f pid h) -> answered h.
Proof. exact answered_then. Qed.
(* a group that connects is given its configuration; and that a process has exited is told of *)
Theorem C90_configured : forall s h f c pid ipc ev, reach s (h ++ [(Connect f pid ipc, ev)]) -> live f c pid h -> In (Configure f pid ipc c) ev.
Proof. exact configured_when_connected. Qed.
Theorem C90_told : forall s h pid ev, reach s (h ++ [(Exit pid, ev)]) -> ev = [Told pid].
Proof. exact told_of_exit. Qed.
(* it's ready when all groups have told that they have their configuration: not before *)
Theorem C90_ready_sound : forall s h i ev, reach s (h ++ [(i, ev)]) -> In Ready ev -> i = Idle /\ ~ down h /\ forall f c pid, live f c pid h -> (exists qs, In (Configured f pid qs) (inputs h)) \/ exists ipc, In (Stop f pid ipc) (effects h).
Proof. exact ready_only. Qed.
Theorem C90_ready_complete : forall s h ev, reach s (h ++ [(Idle, ev)]) -> ~ down h -> (forall f c pid, live f c pid h -> exists qs, In (Configured f pid qs) (inputs h)) -> In Ready (effects (h ++ [(Idle, ev)])).
Proof. exact ready_then. Qed.
(* it ends when it's shut down and no group is left; and if it's shut down when all is as it should, that is when it has settled *)
Theorem C90_done : forall s h, reach s h -> done s = true <-> down h /\ forall f c pid, ~ live f c pid h.
Proof. exact done_iff. Qed.
Theorem C90_ends_partial : forall s h, reach s h -> down h -> wants (Model [] []) h -> settled h -> answered h -> done s = true.
Proof. exact ends. Qed.

Example ex_connects : exists s ev, reach s (upto 1 ++ [(Connect false 1 101, ev)]) /\ live false g1 1 (upto 1).
Proof. exists (fst (made (firstn 2 ex_l))), (snd (nth 1 (snd ex) (Idle, []))). split; [exact (ex_reach 2)|]. apply live_sound; [vm_compute; tauto|reflexivity]. Qed.
Example ex_one_at_a_time : exists s ev, reach s (upto 24 ++ [(Dead 2, ev)]) /\ ev = [] ++ Spawn false g3 4 :: [] /\ In (Stop false 2 102) (effects (upto 24)) /\ ~ In (Dead 2) (inputs (upto 24)).
Proof. exists (fst (made (firstn 25 ex_l))), [Spawn false g3 4]. split; [exact (ex_reach 25)|]. split; [reflexivity|]. split; [vm_compute; tauto|]. vm_compute. intuition discriminate. Qed.
Example ex_conforms : reach (fst (made (firstn 26 ex_l))) (upto 26) /\ wants (Model [g1; g3] [f1]) (upto 26) /\ settled (upto 26) /\ answered (upto 26) /\ calm (upto 26) /\ live false g3 4 (upto 26) /\ exited 2 (upto 26).
Proof.
  split; [exact (ex_reach 26)|]. split; [apply wants_sound; vm_compute; reflexivity|]. split; [apply settled_sound; vm_compute; reflexivity|]. split; [apply answered_sound; vm_compute; reflexivity|]. split; [apply calm_sound; vm_compute; reflexivity|].
  split; [apply live_sound; [vm_compute; tauto|reflexivity]|apply exited_iff; reflexivity].
Qed.
Example ex_updated : exists s h, reach s h /\ settled h /\ (forall f pid, ~ unreplied f pid h) /\ In (Update 303 9 (Model [g1'] [])) (inputs h).
Proof. exists (fst (made (firstn 6 w_stale_l))), (firstn 6 (snd w_stale)). split; [apply (exec_reach_upto w_stale_l w_stale 6); vm_compute; reflexivity|]. split; [apply settled_sound; vm_compute; reflexivity|]. split; [apply none_unreplied; vm_compute; reflexivity|vm_compute; tauto]. Qed.
Example ex_ready : exists s, reach s (upto 8 ++ [(Idle, [Ready])]) /\ ~ down (upto 8) /\ forall f c pid, live f c pid (upto 8) -> exists qs, In (Configured f pid qs) (inputs (upto 8)).
Proof.
  exists (fst (made (firstn 9 ex_l))). split; [exact (ex_reach 9)|]. split; [apply not_down; vm_compute; reflexivity|]. intros f c pid [J _]. vm_compute in J. repeat (destruct J as [J|J]; [try discriminate; injection J as <- <- <-; eexists; vm_compute; tauto|]). destruct J.
Qed.
Example ex_done : reach (fst ex) (snd ex) /\ down (snd ex) /\ wants (Model [] []) (snd ex) /\ settled (snd ex) /\ answered (snd ex) /\ done (fst ex) = true /\ exists c pid, In (Spawn true c pid) (effects (snd ex)).
Proof.
  split; [apply (exec_reach0 ex_l ex); vm_compute; reflexivity|]. split; [vm_compute; tauto|]. split; [apply wants_sound; vm_compute; reflexivity|]. split; [apply settled_sound; vm_compute; reflexivity|]. split; [apply answered_sound; vm_compute; reflexivity|]. split; [reflexivity|]. exists f1, 3. vm_compute. tauto.
Qed.
(* a shutdown while the groups are started: the forward group that is to be started after them is started, and never told to stop. All is settled, and the queue-manager doesn't end *)
Definition w_boot_l := [Begin (Model [g1] [f1]); Shutdown; Connect false 1 101; Connect true 2 102; Exit 1; Dead 1].
Definition w_boot := Eval vm_compute in made w_boot_l.
Theorem C90_shutdown_refuted : exists s h f c pid, reach s h /\ down h /\ settled h /\ answered h /\ live f c pid h /\ (forall ipc, ~ In (Stop f pid ipc) (effects h)) /\ s_active s = None /\ done s = false.
Proof.
  exists (fst w_boot), (snd w_boot), true, f1, 2. split; [apply (exec_reach0 w_boot_l w_boot); vm_compute; reflexivity|]. split; [vm_compute; tauto|]. split; [apply settled_sound; vm_compute; reflexivity|]. split; [apply answered_sound; vm_compute; reflexivity|]. split; [apply live_sound; [vm_compute; tauto|reflexivity]|].
  split; [intros ipc J; vm_compute in J; intuition discriminate|]. split; reflexivity.
Qed.
(* an update while the groups are started: the forward group is started twice *)
Definition w_twice_l := [Begin (Model [g1] [f1]); Update 303 9 (Model [g1] [f1]); Connect false 1 101; Connect true 2 102; Connect true 3 103].
Definition w_twice := Eval vm_compute in made w_twice_l.
Theorem C90_twice_refuted : exists s h c pid pid', reach s h /\ settled h /\ answered h /\ live true c pid h /\ live true c pid' h /\ pid <> pid'.
Proof.
  exists (fst w_twice), (snd w_twice), f1, 2, 3. split; [apply (exec_reach0 w_twice_l w_twice); vm_compute; reflexivity|]. split; [apply settled_sound; vm_compute; reflexivity|]. split; [apply answered_sound; vm_compute; reflexivity|]. split; [apply live_sound; [vm_compute; tauto|reflexivity]|]. split; [apply live_sound; [vm_compute; tauto|reflexivity]|discriminate].
Qed.
(* a forward group that is modified isn't told: the modified forward groups are looked for among the (queue) groups. The update is answered *)
Definition f1' := Conf 5 [] 1.
Definition w_forward_l := [Begin (Model [] [f1]); Connect true 1 101; Configured true 1 []; Idle; Update 303 9 (Model [] [f1'])].
Definition w_forward := Eval vm_compute in made w_forward_l.
Theorem C90_forward_refuted : exists s h m ev pid, reach s (h ++ [(Update 303 9 m, ev)]) /\ settled h /\ answered h /\ live true f1 pid h /\ m_forwards m = [f1'] /\ c_alias f1' = c_alias f1 /\ f1' <> f1 /\ ev = [Updated 303 9] /\ done s = false /\ s_active s = None.
Proof.
  exists (fst w_forward), (firstn 4 (snd w_forward)), (Model [] [f1']), [Updated 303 9], 1. split; [apply (exec_reach0 w_forward_l w_forward); vm_compute; reflexivity|]. split; [apply settled_sound; vm_compute; reflexivity|]. split; [apply answered_sound; vm_compute; reflexivity|]. split; [apply live_sound; [vm_compute; tauto|reflexivity]|]. repeat split. discriminate.
Qed.
(* an update that arrives before a group has connected: the new configuration is sent to nowhere, since the device isn't known yet; and the reply to the first configuration is taken as the reply to it *)
Definition w_nowhere_l := [Begin (Model [g1] []); Update 303 9 (Model [g1'] []); Connect false 1 101; Configured false 1 [(10, 1001); (11, 1002)]].
Definition w_nowhere := Eval vm_compute in made w_nowhere_l.
Theorem C90_nowhere_refuted : exists s h c, reach s h /\ settled h /\ answered h /\ (forall f pid, ~ unreplied f pid h) /\ In (Update 303 9 (Model [c] [])) (inputs h) /\ live false g1 1 h /\ In (Connect false 1 101) (inputs h) /\ c <> g1 /\ ~ In (Configure false 1 101 c) (effects h) /\ In (Configure false 1 0 c) (effects h).
Proof.
  exists (fst w_nowhere), (snd w_nowhere), g1'. split; [apply (exec_reach0 w_nowhere_l w_nowhere); vm_compute; reflexivity|]. split; [apply settled_sound; vm_compute; reflexivity|]. split; [apply answered_sound; vm_compute; reflexivity|]. split; [apply none_unreplied; vm_compute; reflexivity|]. split; [vm_compute; tauto|].
  split; [apply live_sound; [vm_compute; tauto|reflexivity]|]. split; [vm_compute; tauto|]. split; [discriminate|]. split; [vm_compute; intuition discriminate|vm_compute; tauto].
Qed.

Print Assumptions C87_where_partial.
Print Assumptions C87_absent.
Print Assumptions C87_at_once.
Print Assumptions C87_order_refuted.
Print Assumptions C87_enabled_refuted.
Print Assumptions C87_update_refuted.
Print Assumptions C88_once.
Print Assumptions C88_none_offered.
Print Assumptions C88_none_when_down.
Print Assumptions C88_direct.
Print Assumptions C88_external.
Print Assumptions C88_arrives.
Print Assumptions C88_withdraw.
Print Assumptions C88_withdrawn.
Print Assumptions C89_lookup.
Print Assumptions C89_known.
Print Assumptions C90_one_at_a_time.
Print Assumptions C90_conforms_partial.
Print Assumptions C90_one_process_partial.
Print Assumptions C90_updated_once.
Print Assumptions C90_updated_asked.
Print Assumptions C90_updated.
Print Assumptions C90_configured.
Print Assumptions C90_told.
Print Assumptions C90_ready_sound.
Print Assumptions C90_ready_complete.
Print Assumptions C90_done.
Print Assumptions C90_ends_partial.
Print Assumptions C90_shutdown_refuted.
Print Assumptions C90_twice_refuted.
Print Assumptions C90_forward_refuted.
Print Assumptions C90_nowhere_refuted.

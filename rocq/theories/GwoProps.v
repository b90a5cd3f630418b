(* The properties of the outbound of the gateway: C70 - C76. *)
From Coq Require Import ZArith List Bool Lia.
From Verif Require SvcModel.
From Verif Require Import GwoModel GwoSpec GwoProofs GwoReply GwoWire GwoTold GwoLost GwoClose GwoConsult GwoAdv GwoGone GwoSvc GwoRun.
Import ListNotations.
Local Open Scope Z_scope.

(* ------------------------------------------------------------------ C70: requests and replies *)
(* a request that a connection can send is passed on as it is, once, to the remote of that connection; or it's a call with a correlation that is
   in use, a loop between domains, which is told *)
Theorem C70_request : forall h c q ev, happens (h ++ [(Inward c true (InRequest q), ev)]) ->
  (exists v, filter (fun e => match e with ToRemote _ _ => true | _ => false end) ev = [ToRemote c (WRequest v q)]) \/
  (q_kind q = Call /\ In (ToProcess (q_from q) (Reply Call (q_corr q) TPESYSTEM 0)) ev /\ exists c' ok' q', In (Inward c' ok' (InRequest q')) (inputs h) /\ q_corr q' = q_corr q).
Proof. exact given. Qed.
(* nothing else is sent to a remote but what has been given to the connection *)
Theorem C70_wire : forall h i ev c m, happens (h ++ [(i, ev)]) -> In (ToRemote c m) ev -> comes_from h c m i.
Proof. exact wire_cause. Qed.
(* at most one reply to each request *)
Theorem C70_once : forall h p n k, happens h -> n <> Connect -> (answered p n k h <= asked p n k h)%nat.
Proof. exact answered_once. Qed.
(* a reply is the one that the remote has sent, to the one that has asked; or tells of a loop, or that the connection is lost *)
Theorem C70_reply : forall h i ev p n k code data, happens (h ++ [(i, ev)]) -> orderly (h ++ [(i, ev)]) -> In (ToProcess p (Reply n k code data)) ev ->
  (exists c ok, i = Outward c ok (XReply n k code data) /\ exists c', asked_at c' p n k h /\ open c' h) \/
  (n = Call /\ code = TPESYSTEM /\ data = 0 /\ asks p n k i = true /\
     exists c ok q, In (Inward c ok (InRequest q)) (inputs h) /\ q_corr q = k /\ open c h /\ (q_kind q <> Connect -> (answered (q_from q) (q_kind q) k h < asked (q_from q) (q_kind q) k h)%nat)) \/
  (n <> Connect /\ code = lost_code n /\ data = 0 /\ exists c, In (Destroyed c) ev /\ asked_at c p n k (h ++ [(i, ev)])).
Proof. exact reply_cause. Qed.
(* the reply of the remote gets to the one that waits for it *)
Theorem C70_passed_on : forall h c ok n k code data ev p, happens (h ++ [(Outward c ok (XReply n k code data), ev)]) -> n <> Connect ->
  (forall c' ok' q, In (Inward c' ok' (InRequest q)) (inputs h) -> q_corr q = k -> q_from q = p /\ q_kind q = n) ->
  (answered p n k h < asked p n k h)%nat -> In (ToProcess p (Reply n k code data)) ev /\ count (answers p n k) ev = 1%nat.
Proof. exact passed_on. Qed.

(* ------------------------------------------------------------------ C71: nobody is left waiting *)
(* when all the connections it has been asked at are gone, it has been answered *)
Theorem C71_lost_answered_partial : forall h p n k, happens h -> orderly h -> n <> Connect -> (forall c, asked_at c p n k h -> gone c h) -> answered p n k h = asked p n k h.
Proof. exact lost_answered. Qed.
(* it stops when it's told to and all the connections are gone, *)
Theorem C71_stops_partial : forall s h, reach s h -> orderly h -> In Shutdown (inputs h) -> (forall c, connected c h -> gone c h) -> done s = true.
Proof. exact stops. Qed.
(* and doesn't stop as long as somebody waits *)
Theorem C71_stops_not : forall s h p n k, reach s h -> n <> Connect -> done s = true -> In Shutdown (inputs h) /\ answered p n k h = asked p n k h.
Proof. exact stops_not. Qed.
(* undefined behaviour: only with a connection that turns out to be broken *)
Theorem C71_undefined_only : forall i s ev, step i s = Undefined ev ->
  exists c, (exists q, i = Inward c false (InRequest q) /\ q_kind q = Call) \/ (exists k, i = Inward c false (InDisconnect k)).
Proof. exact undefined_only. Qed.

(* the request to a queue that can't be sent: the task is added after the connection has been removed, with all its tasks; never answered, and the
   outbound never stops *)
Definition enq (k p : Z) (t : trid) := Request Enqueue k p 7 t 70.
Definition call (k p : Z) (t : trid) := Request Call k p 8 t 80.
Definition conv (k p : Z) := Request Connect k p 9 None 90.
Definition w_queue_l := [Connected 5 100 false; Inward 100 false (InRequest (enq 1 50 None)); Shutdown; Idle].
Definition w_queue := Eval vm_compute in made w_queue_l.
Theorem C71_queue_refuted : exists s h p k, reach s h /\ asked p Enqueue k h = 1%nat /\ (forall c, connected c h -> gone c h) /\ In Shutdown (inputs h) /\
  answered p Enqueue k h = 0%nat /\ done s = false.
Proof.
  exists (fst w_queue), (snd w_queue), 50, 1. split; [apply (exec_reach0 w_queue_l w_queue); vm_compute; reflexivity|]. split; [reflexivity|]. split; [|split; [cbn; auto|split; reflexivity]].
  intros c [f [o H]]. cbn in H. destruct H as [H|[H|[H|[H|[]]]]]; try discriminate. injection H as <- <- <-. unfold gone. cbn. auto.
Qed.
(* a call that can't be sent: the connection is used after it has been removed *)
Definition w_one_l := [Connected 5 100 false].
Definition w_one := Eval vm_compute in made w_one_l.
Theorem C71_call_refuted : exists s h c q ev, reach s h /\ open c h /\ q_kind q = Call /\ possible (Inward c false (InRequest q)) s h /\ step (Inward c false (InRequest q)) s = Undefined ev /\
  (forall p m, ~ In (ToProcess p m) ev).
Proof.
  exists (fst w_one), (snd w_one), 100, (call 1 50 None). eexists. split; [apply (exec_reach0 w_one_l w_one); vm_compute; reflexivity|]. split; [split; [exists 5, false; cbn; auto|unfold gone; cbn; intuition discriminate]|].
  split; [reflexivity|]. split; [cbn; auto|]. split; [vm_compute; reflexivity|]. cbn. intros p m H. intuition discriminate.
Qed.
(* a conversation: the connection is lost, and the one that has connected isn't told *)
Definition w_conv_l := [Connected 5 100 false; Inward 100 true (InRequest (conv 1 50)); Outward 100 true (XReply Connect 1 0 3); Broken 100].
Definition w_conv := Eval vm_compute in made w_conv_l.
Theorem C71_conversation_refuted : exists h c p k ev, happens (h ++ [(Broken c, ev)]) /\ asked_at c p Connect k h /\ answered p Connect k h = 1%nat /\ In (Destroyed c) ev /\ (forall m, ~ In (ToProcess p m) ev).
Proof.
  exists (removelast (snd w_conv)), 100, 50, 1, [Reset 100; ResetQueues 100; Destroyed 100; Lost 5]. split; [apply (exec_happens w_conv_l w_conv); vm_compute; reflexivity|].
  split; [exists true, (conv 1 50); cbn; auto|]. split; [reflexivity|]. split; [cbn; auto|]. intros m H. cbn in H. intuition discriminate.
Qed.
(* a disconnect of a conversation that can't be sent: the task removes itself while it's executed *)
Definition w_conv2_l := [Connected 5 100 false; Inward 100 true (InRequest (conv 1 50))].
Definition w_conv2 := Eval vm_compute in made w_conv2_l.
Theorem C71_disconnect_refuted : exists s h c k ev, reach s h /\ possible (Inward c false (InDisconnect k)) s h /\ step (Inward c false (InDisconnect k)) s = Undefined ev.
Proof. exists (fst w_conv2), (snd w_conv2), 100, 1. eexists. split; [apply (exec_reach0 w_conv2_l w_conv2); vm_compute; reflexivity|]. split; [cbn; auto|vm_compute; reflexivity]. Qed.

(* ------------------------------------------------------------------ C72: the transaction manager knows *)
(* when a request in a transaction has been sent to a remote, the TM has been told that the connection is involved, until it says that it's over *)
Theorem C72_involved_partial : forall h1 h2 c ok q ev v g b, happens (h1 ++ (Inward c ok (InRequest q), ev) :: h2) -> orderly (h1 ++ (Inward c ok (InRequest q), ev) :: h2) ->
  q_trid q = Some (g, b) -> In (ToRemote c (WRequest v q)) ev -> (forall e, ~ In (Disassociate g, e) h2) -> told g c (h1 ++ (Inward c ok (InRequest q), ev) :: h2) = true.
Proof. exact involved_after. Qed.
(* once *)
Theorem C72_once : forall h i ev g c, happens (h ++ [(i, ev)]) -> orderly (h ++ [(i, ev)]) -> In (Involved g c) ev -> told g c h = false /\ count (tells g c) ev = 1%nat /\ open c h.
Proof. exact involved_once. Qed.
(* a request to a queue that couldn't be sent leaves the descriptor associated; the next connection that gets the descriptor is taken to be known by the TM *)
Definition w_stale_l := [Connected 5 100 false; Inward 100 false (InRequest (enq 1 50 (Some (3, 4)))); Connected 5 101 false; Inward 101 true (InRequest (call 2 51 (Some (3, 4))))].
Definition w_stale := Eval vm_compute in made w_stale_l.
Theorem C72_reused_refuted : exists h c q ev v g b, happens (h ++ [(Inward c true (InRequest q), ev)]) /\ q_trid q = Some (g, b) /\ In (ToRemote c (WRequest v q)) ev /\
  told g c (h ++ [(Inward c true (InRequest q), ev)]) = false /\ (forall e, ~ In (Disassociate g, e) h).
Proof.
  exists (removelast (snd w_stale)), 101, (call 2 51 (Some (3, 4))), [ToRemote 101 (WRequest false (call 2 51 (Some (3, 4))))], false, 3, 4.
  split; [apply (exec_happens w_stale_l w_stale); vm_compute; reflexivity|]. split; [reflexivity|]. split; [cbn; auto|]. split; [vm_compute; reflexivity|]. intros e H. cbn in H. intuition discriminate.
Qed.

(* ------------------------------------------------------------------ C73: when connections are closed *)
(* all are told that the connection is gone only if it is broken, or nothing more can be sent, or it has been asked to leave *)
Theorem C73_cause : forall h i ev c, happens (h ++ [(i, ev)]) -> In (Destroyed c) ev ->
  open c h /\
  ((exists m, i = Inward c false m) \/ (exists k, i = Outward c false (XDisconnect k)) \/ i = Broken c \/ (i = Idle /\ left c h)).
Proof. exact closed_cause. Qed.
(* one that is asked to leave isn't closed as long as a transaction uses it or somebody waits for an answer from it *)
Theorem C73_in_flight : forall h ev c, happens (h ++ [(Idle, ev)]) -> orderly h -> In (Destroyed c) ev ->
  (forall g, told g c h = false) /\
  (forall p n k, n <> Connect -> (answered p n k h < asked p n k h)%nat -> exists c', c' <> c /\ open c' h /\ asked_at c' p n k h).
Proof. exact idle_closes. Qed.
(* and is closed when nothing does *)
Theorem C73_closed : forall h ev c, happens (h ++ [(Idle, ev)]) -> orderly h -> left c h -> open c h ->
  (forall g, told g c h = false) ->
  (forall p n k, asked_at c p n k h -> n <> Connect /\ answered p n k h = asked p n k h) ->
  (forall p k, consulted_at c p k h -> consulted_count p k h = consults_count p k h) ->
  In (Destroyed c) ev.
Proof. exact idle_must_close. Qed.
(* nor as long as the transaction manager or the discovery waits for an answer from it *)
Theorem C73_consulted : forall h1 c p k m ev h2 ev2, happens (h1 ++ (Inward c true m, ev) :: h2 ++ [(Idle, ev2)]) ->
  consults p k (Inward c true m) = true -> ~ In Shutdown (inputs h1) -> ~ left c h1 ->
  (forall i e, In (i, e) h1 -> consult_corr k i = false) -> (forall i e, In (i, e) h2 -> consult_reply k i = false) ->
  ~ In (Destroyed c) ev2.
Proof. exact idle_keeps_consulted. Qed.
Definition w_consulted_l := [Connected 5 100 false; Inward 100 true (InResource Prepare 7 50 None 3); Outward 100 true (XDisconnect 9); Idle].
Definition w_consulted := Eval vm_compute in made w_consulted_l.
Example C73_consulted_case : exists h1 m ev h2 ev2, happens (h1 ++ (Inward 100 true m, ev) :: h2 ++ [(Idle, ev2)]) /\ consults 50 7 (Inward 100 true m) = true /\ left 100 (h1 ++ (Inward 100 true m, ev) :: h2).
Proof.
  exists (firstn 1 (snd w_consulted)), (InResource Prepare 7 50 None 3), (snd (nth 1 (snd w_consulted) (Idle, []))), (firstn 1 (skipn 2 (snd w_consulted))), (snd (nth 3 (snd w_consulted) (Idle, []))).
  split; [exists (fst w_consulted); apply (exec_reach0 w_consulted_l w_consulted); vm_compute; reflexivity|]. split; [reflexivity|].
  exists (firstn 2 (snd w_consulted)). eexists. eexists. exists []. split; [reflexivity|]. split; [reflexivity|]. split; [exists 5, false; cbn; auto|]. cbn. intuition discriminate.
Qed.
(* the outbound isn't terminated, if each connection is asked to leave at most once *)
Theorem C73_survives_partial : forall s h i ev, reach s h -> left_once h -> step i s <> Terminated ev.
Proof. exact not_terminated. Qed.
(* the remote asks, and then there's a shutdown, with a call in flight: when the reply has been passed on, the outbound terminates *)
Definition w_twice_l := [Connected 5 100 false; Connected 6 101 false; Inward 100 true (InRequest (call 1 50 None)); Inward 101 true (InRequest (call 2 51 None)); Outward 100 true (XDisconnect 9); Shutdown; Outward 100 true (XReply Call 1 0 3)].
Definition w_twice := Eval vm_compute in made w_twice_l.
Theorem C73_twice_refuted : exists s h ev p k, reach s h /\ step Idle s = Terminated ev /\ (answered p Call k h < asked p Call k h)%nat /\ (forall m, ~ In (ToProcess p m) ev).
Proof.
  exists (fst w_twice), (snd w_twice). eexists. exists 51, 2. split; [apply (exec_reach0 w_twice_l w_twice); vm_compute; reflexivity|]. split; [vm_compute; reflexivity|]. split; [vm_compute; lia|]. cbn. intros m H. intuition discriminate.
Qed.

(* ------------------------------------------------------------------ C74: prepare, commit, rollback and discovery *)
(* at most one answer to each *)
Theorem C74_once : forall h p k, happens h -> (consulted_count p k h <= consults_count p k h)%nat.
Proof. exact consulted_once. Qed.
(* the answer is that of the remote, to the one that has asked; or a discovery is refused since it's about to leave *)
Theorem C74_answer : forall h i ev p k a, happens (h ++ [(i, ev)]) -> In (ToProcess p a) ev -> consulted p k (ToProcess p a) = true ->
  match a with
  | Resource r _ data => exists c ok, i = Outward c ok (XResource r k data) /\ exists c', open c' h /\ consulted_at c' p k h
  | Discovered _ (Some (services, queues, data)) => exists c ok ss, i = Outward c ok (XDiscovered k ss queues data) /\
      services = map (fun x => (fst x, snd x + 1)) ss /\ exists c', open c' h /\ consulted_at c' p k h
  | Discovered _ None => exists c ok data, i = Inward c ok (InDiscover k p data) /\ (In Shutdown (inputs h) \/ left c h)
  | _ => False
  end.
Proof. exact consult_cause. Qed.
(* a discovery at a connection that is about to leave, or when the domain shuts down, is answered at once: nothing *)
Theorem C74_refused : forall h c ok k p d ev, happens (h ++ [(Inward c ok (InDiscover k p d), ev)]) -> In Shutdown (inputs h) \/ left c h ->
  ev = [ToProcess p (Discovered k None)].
Proof. exact refused. Qed.
(* the answer gets to the one that has asked, if the connection is still there *)
Theorem C74_back : forall h1 c p k m ev h2 c2 ok m2 ev2,
  happens (h1 ++ (Inward c true m, ev) :: h2 ++ [(Outward c2 ok m2, ev2)]) ->
  consults p k (Inward c true m) = true -> ~ In Shutdown (inputs h1) -> ~ left c h1 ->
  (forall i e, In (i, e) (h1 ++ h2) -> consult_corr k i = false) -> (forall i e, In (i, e) h2 -> consult_reply k i = false) ->
  open c (h1 ++ (Inward c true m, ev) :: h2) ->
  match m2 with
  | XResource r k' data => k' = k -> In (ToProcess p (Resource r k data)) ev2
  | XDiscovered k' ss qs data => k' = k -> In (ToProcess p (Discovered k (Some (map (fun x => (fst x, snd x + 1)) ss, qs, data)))) ev2
  | _ => True
  end.
Proof. exact answer_back. Qed.

(* ------------------------------------------------------------------ C75: what is advertised *)
(* only what the remote of the connection has said that it has, one hop further away *)
Theorem C75_services : forall h i ev c ss, happens (h ++ [(i, ev)]) -> In (Advertise c ss) ev ->
  open c h /\ exists ok k ss0 qs data, i = Outward c ok (XDiscovered k ss0 qs data) /\ ss = map (fun x => (fst x, snd x + 1)) ss0 /\ ss0 <> [].
Proof. exact advertised. Qed.
Theorem C75_queues : forall h i ev c qs, happens (h ++ [(i, ev)]) -> In (AdvertiseQueues c qs) ev ->
  open c h /\ exists ok k ss data, i = Outward c ok (XDiscovered k ss qs data) /\ qs <> [].
Proof. exact advertised_queues. Qed.
(* all of it *)
Theorem C75_all : forall h c ok k ss qs data ev, happens (h ++ [(Outward c ok (XDiscovered k ss qs data), ev)]) ->
  (ss <> [] -> In (Advertise c (map (fun x => (fst x, snd x + 1)) ss)) ev) /\ (qs <> [] -> In (AdvertiseQueues c qs) ev).
Proof. exact advertises_all. Qed.
(* nothing is advertised for a connection that is gone, and it's gone only once *)
Theorem C75_gone : forall h i ev c, happens (h ++ [(i, ev)]) -> gone c h ->
  (forall ss, ~ In (Advertise c ss) ev) /\ (forall qs, ~ In (AdvertiseQueues c qs) ev) /\ ~ In (Destroyed c) ev.
Proof. exact nothing_after_gone. Qed.
(* the managers are told to forget all of it, before a connection is gone, and when it's asked to leave *)
Theorem C75_reset : forall h i ev c, happens (h ++ [(i, ev)]) -> In (Destroyed c) ev -> exists e1 e2, ev = e1 ++ Reset c :: ResetQueues c :: Destroyed c :: e2.
Proof. exact closed_after_reset. Qed.
Theorem C75_leaving : forall h i ev c, happens (h ++ [(i, ev)]) -> open c h -> asked_to_leave c i -> In (Reset c) ev /\ In (ResetQueues c) ev.
Proof. exact leaving_reset. Qed.
(* the answer to a discovery that was in flight: it's advertised although the connection has been asked to leave *)
Definition w_again_l := [Connected 5 100 false; Inward 100 true (InDiscover 1 50 2); Outward 100 true (XDisconnect 9); Outward 100 true (XDiscovered 1 [(8, 0)] [] 3)].
Definition w_again := Eval vm_compute in made w_again_l.
Theorem C75_leaving_refuted : exists h i ev c ss, happens (h ++ [(i, ev)]) /\ left c h /\ In (Advertise c ss) ev.
Proof.
  exists (removelast (snd w_again)), (Outward 100 true (XDiscovered 1 [(8, 0)] [] 3)). eexists. exists 100. eexists. split; [apply (exec_happens w_again_l w_again); vm_compute; reflexivity|]. split; [|cbn; auto].
  exists (firstn 2 (snd w_again)), (Outward 100 true (XDisconnect 9)). do 2 eexists. split; [vm_compute; reflexivity|]. split; [reflexivity|]. split; [exists 5, false; cbn; auto|unfold gone; cbn; intuition discriminate].
Qed.

(* ------------------------------------------------------------------ C76: a service that the remote doesn't have *)
(* the remote has no such service: the service-manager is told with the message of a server, which it doesn't know as such; what it knows of the
   connection is left as it was, in every state of the service-manager, and there is a server that has nothing *)
Theorem C76_unadvertise_ineffective : forall cfg e h alias x s s' o, SvcModel.h_valid h = true -> SvcModel.find_seq (SvcModel.h_ipc h) s = None ->
  SvcModel.step cfg e (SvcModel.I_advertise h alias [] [x]) s = (s', o) ->
  routes_same s s' /\ o = [] /\ SvcModel.s_pend s' = SvcModel.s_pend s /\ exists i q, SvcModel.get (SvcModel.s_seq s') i = Some q /\ SvcModel.q_proc q = h.
Proof. exact unadvertise_ineffective. Qed.
(* so the next call is routed to the connection again *)
Definition w_noent_l := [Connected 5 100 false; Outward 100 true (XDiscovered 1 [(8, 0)] [] 3); Inward 100 true (InRequest (call 2 51 None)); Outward 100 true (XReply Call 2 TPENOENT 0)].
Definition w_noent := Eval vm_compute in made w_noent_l.
Definition m_cfg := SvcModel.mk_cfg (fun _ => []) None false (SvcModel.mk_h 99 99) (fun _ _ => true).
Definition m_env := SvcModel.mk_env 0 false (fun _ => false) (fun _ => 0%nat).
Definition m_lookup := SvcModel.mk_r 3 (SvcModel.mk_h 61 51) 8 SvcModel.Regular SvcModel.Internal None 0.
Theorem C76_refuted : exists h c p k x pid, happens h /\
  (exists q ok data, In (Inward c true (InRequest q)) (inputs h) /\ is_request p Call k q = true /\ q_name q = x /\ In (Outward c ok (XReply Call k TPENOENT data)) (inputs h)) /\
  let (s, _) := SvcModel.run m_cfg (map (fun i => (m_env, i)) (flat_map (to_manager pid 0 0) (effects h))) (SvcModel.start m_cfg []) in
  SvcModel.r_name m_lookup = x /\
  snd (SvcModel.step m_cfg m_env (SvcModel.I_lookup m_lookup) s) = [SvcModel.O_idle m_lookup (SvcModel.D_con (SvcModel.mk_h pid c)) None].
Proof.
  exists (snd w_noent), 100, 51, 2, 8, 60. split; [exists (fst w_noent); apply (exec_reach0 w_noent_l w_noent); vm_compute; reflexivity|].
  split; [exists (call 2 51 None), true, 0; cbn; auto 10|]. vm_compute. auto.
Qed.

(* ------------------------------------------------------------------ the hypotheses are met *)
(* two connections, one of them old; a call and an enqueue in a transaction, a prepare, a discovery, answers, one is lost *)
Definition ex_l := [Connected 5 100 false; Connected 6 101 true;
  Inward 100 true (InRequest (call 1 50 (Some (3, 4)))); Inward 101 true (InRequest (enq 2 51 (Some (3, 5)))); Inward 101 true (InRequest (call 1 52 None));
  Outward 100 true (XReply Call 1 0 33); Inward 100 true (InResource Prepare 7 60 (Some (3, 4)) 0); Inward 101 true (InDiscover 8 61 2);
  Outward 100 true (XResource Prepare 7 44); Outward 101 true (XDiscovered 8 [(8, 1)] [7] 2); Broken 101; Disassociate 3; Outward 100 true (XDisconnect 9); Idle; Shutdown].
Definition ex := Eval vm_compute in made ex_l.
Example ex_reach : reach (fst ex) (snd ex).
Proof. apply (exec_reach0 ex_l ex). vm_compute. reflexivity. Qed.
Example ex_orderly : orderly (snd ex).
Proof. intros c q H. cbn in H. repeat (destruct H as [H|H]; [discriminate|]). destruct H. Qed.
Example ex_all : answered 50 Call 1 (snd ex) = 1%nat /\ asked 50 Call 1 (snd ex) = 1%nat /\ answered 51 Enqueue 2 (snd ex) = 1%nat /\ answered 52 Call 1 (snd ex) = 1%nat /\
  consulted_count 60 7 (snd ex) = 1%nat /\ consulted_count 61 8 (snd ex) = 1%nat /\ gone 100 (snd ex) /\ gone 101 (snd ex) /\ done (fst ex) = true /\
  In (Involved 3 100) (effects (snd ex)) /\ In (Involved 3 101) (effects (snd ex)) /\ In (AdvertiseQueues 101 [7]) (effects (snd ex)).
Proof. unfold gone. vm_compute. repeat (split; [auto 60|]). auto 60. Qed.
(* the call of 52 with the correlation of 50 was a loop *)
Example ex_loop : In (ToProcess 52 (Reply Call 1 TPESYSTEM 0)) (effects (snd ex)).
Proof. vm_compute. auto 60. Qed.
(* the transaction uses 100 when it's asked to leave: it stays until it's over *)
Example ex_in_flight : exists s h, reach s h /\ left 100 h /\ told 3 100 h = true /\ snd (made (firstn 3 ex_l ++ [Outward 100 true (XDisconnect 9); Idle])) = h /\ ~ gone 100 h.
Proof.
  exists (fst (made (firstn 3 ex_l ++ [Outward 100 true (XDisconnect 9); Idle]))), (snd (made (firstn 3 ex_l ++ [Outward 100 true (XDisconnect 9); Idle]))).
  split; [eapply made_reach; vm_compute; reflexivity|]. split; [|split; [vm_compute; reflexivity|split; [reflexivity|unfold gone; vm_compute; intuition discriminate]]].
  exists (snd (made (firstn 3 ex_l))), (Outward 100 true (XDisconnect 9)). do 2 eexists. split; [vm_compute; reflexivity|]. split; [reflexivity|]. split; [exists 5, false; vm_compute; auto|unfold gone; vm_compute; intuition discriminate].
Qed.
Example ex_closed : exists h ev, happens (h ++ [(Idle, ev)]) /\ orderly h /\ left 100 h /\ open 100 h /\ In (Destroyed 100) ev.
Proof.
  exists (removelast (snd (made (firstn 14 ex_l)))). eexists. split; [eapply (happens_last (firstn 14 ex_l)); vm_compute; reflexivity|].
  split; [intros c q H; vm_compute in H; repeat (destruct H as [H|H]; [discriminate|]); destruct H|]. split; [|split; [split; [exists 5, false; vm_compute; auto|unfold gone; vm_compute; intuition discriminate]|vm_compute; auto 20]].
  exists (snd (made (firstn 12 ex_l))), (Outward 100 true (XDisconnect 9)). do 2 eexists. split; [vm_compute; reflexivity|]. split; [reflexivity|]. split; [exists 5, false; vm_compute; auto|unfold gone; vm_compute; intuition discriminate].
Qed.

Print Assumptions C70_request. Print Assumptions C70_wire. Print Assumptions C70_once. Print Assumptions C70_reply. Print Assumptions C70_passed_on.
Print Assumptions C71_lost_answered_partial. Print Assumptions C71_stops_partial. Print Assumptions C71_stops_not. Print Assumptions C71_undefined_only.
Print Assumptions C71_queue_refuted. Print Assumptions C71_call_refuted. Print Assumptions C71_conversation_refuted. Print Assumptions C71_disconnect_refuted.
Print Assumptions C72_involved_partial. Print Assumptions C72_once. Print Assumptions C72_reused_refuted.
Print Assumptions C73_cause. Print Assumptions C73_in_flight. Print Assumptions C73_closed. Print Assumptions C73_consulted. Print Assumptions C73_survives_partial. Print Assumptions C73_twice_refuted.
Print Assumptions C74_once. Print Assumptions C74_answer. Print Assumptions C74_refused. Print Assumptions C74_back.
Print Assumptions C75_services. Print Assumptions C75_queues. Print Assumptions C75_all. Print Assumptions C75_gone. Print Assumptions C75_reset. Print Assumptions C75_leaving. Print Assumptions C75_leaving_refuted.
Print Assumptions C76_unadvertise_ineffective. Print Assumptions C76_refuted.

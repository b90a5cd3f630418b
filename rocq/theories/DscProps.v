(* The properties of the discovery: C91 - C96. *)
From Coq Require Import ZArith List Bool Lia.
From Verif Require Import DscModel DscSpec DscProofs DscHold DscEnv DscDyn DscOps DscMove DscStep DscGoals DscTimer DscTheorems DscRun DscNet.
Import ListNotations.
Local Open Scope Z_scope.

Definition p5 := Proc 5 50.
Definition p6 := Proc 6 60.
Definition p7 := Proc 7 70.
Definition r_one := Req true true 80 1000 [Svc 11; Svc 3].
Definition r_ext := Req false true 81 1001 [Svc 11; Que 4].
Definition r_loc := Req false false 82 1002 [Que 4].
Definition r_acc := Req true true 83 1003 [Svc 12].
Definition r_late := Req false true 85 1004 [Svc 3].
(* three providers; a request from this domain; one from another, when a provider goes away; one that isn't to go further; requests and updates that are accumulated; an update that has been here; a rediscovery; and the shutdown *)
Definition ex_l : list input := [Begin 100 [(1, [11; 12])]; Register p5 1 [ALookup; AKnown]; Register p6 2 [ADiscover; ATopology]; Register p7 3 [ADiscover; AKnown];
  Api r_one; DiscReply 1 [(Svc 1, 5)]; DiscReply 2 [(Svc 3, 6)]; Request r_ext; LookReply 3 [(Que 4, 40)]; DiscReply 4 []; Destroyed 70; Request r_loc; LookReply 6 [(Que 4, 40)];
  Busy true; Api r_acc; DirectUpdate 90 [Svc 12]; ImplicitUpdate 91 [200]; Timeout; KnownReply 7 [Que 4]; DiscReply 8 [(Svc 1, 5)]; ImplicitUpdate 91 [200; 100];
  Rediscover 84 2000; KnownReply 9 [Svc 11]; DiscReply 10 [(Svc 1, 7)]; Shutdown; Request r_late].
Definition ex := Eval vm_compute in made ex_l.
Definition upto (n : nat) : history := firstn n (snd ex).
Definition sent (n : nat) : list effect := snd (nth n (snd ex) (Shutdown, [])).
Lemma ex_reach n : reach (fst (made (firstn n ex_l))) (upto n).
Proof. apply (exec_reach_upto ex_l ex). vm_compute. reflexivity. Qed.

(* ------------------------------------------------------------------ C91: each request is answered *)
(* there's at most one answer to a correlation, and an answer is to a request: to the process that sent it, and of the kind it expects *)
Theorem C91_once : forall s h k, reach s h -> (count (is_answer k) (effects h) <= 1)%nat /\ forall a p c, In (Answer a p k c) (effects h) -> exists r, arrived r h /\ r_corr r = k /\ r_api r = a /\ r_ipc r = p.
Proof. exact once. Qed.
(* when all that has been asked has been replied to (or those have failed), and the timer isn't set, each request is answered *)
Theorem C91_answered : forall s h r, reach s h -> quiet h -> ~ armed h -> arrived r h -> ~ lost (r_ipc r) h -> exists c, In (Answer (r_api r) (r_ipc r) (r_corr r) c) (effects h).
Proof. exact answered. Qed.
(* after the shutdown a request is answered at once, with nothing *)
Theorem C91_shutdown : forall s h r i ev, reach s (h ++ [(i, ev)]) -> i = Api r \/ i = Request r -> down h -> ~ lost (r_ipc r) h -> ev = [Answer (r_api r) (r_ipc r) (r_corr r) []].
Proof. exact at_shutdown. Qed.
(* the process ends when it has been told to, and nothing is outstanding *)
Theorem C91_ends : forall s h, reach s h -> quiet h -> down h -> done s = true.
Proof. exact done_when_quiet. Qed.
(* when it ends, and the timer isn't set, each request is answered. Missing: when the timer is set, see [C91_left_refuted] *)
Theorem C91_left_partial : forall s h r, reach s h -> done s = true -> ~ armed h -> arrived r h -> ~ lost (r_ipc r) h -> exists c, In (Answer (r_api r) (r_ipc r) (r_corr r) c) (effects h).
Proof. exact done_answered. Qed.
(* it ends with requests that wait for the timer: those are never answered *)
Definition w_left_l := [Begin 100 []; Busy true; Api r_acc; Shutdown].
Definition w_left := Eval vm_compute in made w_left_l.
Theorem C91_left_refuted : exists s h r, reach s h /\ done s = true /\ arrived r h /\ ~ lost (r_ipc r) h /\ count (is_answer (r_corr r)) (effects h) = 0%nat.
Proof.
  exists (fst w_left), (snd w_left), r_acc. split; [apply (exec_reach0 w_left_l w_left); vm_compute; reflexivity|]. split; [reflexivity|]. split; [left; vm_compute; tauto|]. split; [apply not_lost; reflexivity|reflexivity].
Qed.
Example ex_answered : exists s h, reach s h /\ quiet h /\ ~ armed h /\ arrived r_one h /\ arrived r_ext h /\ arrived r_acc h /\ ~ lost (r_ipc r_acc) h /\ count (is_answer 1003) (effects h) = 1%nat.
Proof.
  exists (fst (made (firstn 20 ex_l))), (upto 20). split; [exact (ex_reach 20)|]. split; [apply quiet_sound; vm_compute; reflexivity|]. split; [apply not_armed; vm_compute; reflexivity|]. split; [left; vm_compute; tauto|]. split; [right; vm_compute; tauto|]. split; [left; vm_compute; tauto|]. split; [apply not_lost; vm_compute; reflexivity|reflexivity].
Qed.
Example ex_shutdown : exists s h ev, reach s (h ++ [(Request r_late, ev)]) /\ down h /\ ~ lost (r_ipc r_late) h /\ done s = true.
Proof. exists (fst (made ex_l)), (upto 25), (sent 25). split; [exact (ex_reach 26)|]. split; [vm_compute; tauto|]. split; [apply not_lost; vm_compute; reflexivity|vm_compute; reflexivity]. Qed.
Example ex_ends : exists s h, reach s h /\ quiet h /\ down h /\ ~ armed h.
Proof. exists (fst (made ex_l)), (upto 26). split; [exact (ex_reach 26)|]. split; [apply quiet_sound; vm_compute; reflexivity|]. split; [vm_compute; tauto|]. apply not_armed; vm_compute; reflexivity. Qed.

(* ------------------------------------------------------------------ C92: what is answered *)
(* what is in an answer has been told of, by one that looks up here or (if the request goes further) by another domain, under the name it has here; and it's wanted *)
Theorem C92_sound : forall s h i ev r a p c, reach s (h ++ [(i, ev)]) -> arrived r (h ++ [(i, ev)]) -> In (Answer a p (r_corr r) c) ev ->
  (forall n x, In (n, x) c -> told_here n x (h ++ [(i, ev)]) \/ (far r /\ told_there n x (h ++ [(i, ev)]))) /\ (far r -> forall n, In n (map fst c) -> In n (r_want r)).
Proof.
  intros s h i ev r a p c R A I. pose proof (reach_fine _ _ _ _ R) as F. rewrite Forall_forall in F. destruct (F _ I) as (r' & B & _ & _ & C & D & E & _). assert (r' = r) as -> by (apply (arrived_one s (h ++ [(i, ev)])); auto). auto.
Qed.
(* what is wanted, and isn't in the answer (before the shutdown): all that look up here (if it's from another domain), and all other domains (if it goes further) have been asked for it after it arrived, and have replied without it, or have failed *)
Theorem C92_absent : forall s h i ev r a p c n, reach s (h ++ [(i, ev)]) -> arrived r (h ++ [(i, ev)]) -> In (Answer a p (r_corr r) c) ev -> In n (r_want r) -> ~ In n (map fst c) ->
  down h \/ ((r_api r = false -> not_here r n (h ++ [(i, ev)])) /\ (far r -> not_there r n (h ++ [(i, ev)]))).
Proof.
  intros s h i ev r a p c n R A I W N. pose proof (reach_fine _ _ _ _ R) as F. rewrite Forall_forall in F. destruct (F _ I) as (r' & B & _ & _ & C & _ & _ & D). assert (r' = r) as -> by (apply (arrived_one s (h ++ [(i, ev)])); auto). auto.
Qed.
(* it isn't so that a service another domain has told of (under the very name that is wanted) is in the answer: if it's configured without routes, it's dropped *)
Definition w_dropped_l := [Begin 100 [(1, [])]; Register p6 2 [ADiscover]; Api (Req true true 80 1000 [Svc 1]); DiscReply 1 [(Svc 1, 5)]].
Definition w_dropped := Eval vm_compute in made w_dropped_l.
Theorem C92_found_refuted : exists s h r p k w c a q, reach s h /\ arrived r h /\ In (Ask p k w) (effects h) /\ In (DiscReply k [(Svc 1, 5)]) (inputs h) /\ w = [Svc 1] /\ r_want r = [Svc 1] /\ In (Answer a q (r_corr r) c) (effects h) /\ c = [].
Proof.
  exists (fst w_dropped), (snd w_dropped), (Req true true 80 1000 [Svc 1]), p6, 1, [Svc 1], [], true, 80. split; [apply (exec_reach0 w_dropped_l w_dropped); vm_compute; reflexivity|]. split; [left; vm_compute; tauto|]. split; [vm_compute; tauto|]. split; [vm_compute; tauto|]. split; [reflexivity|]. split; [reflexivity|]. split; [vm_compute; tauto|reflexivity].
Qed.
Example ex_sound : exists s h ev, reach s (h ++ [(DiscReply 2 [(Svc 3, 6)], ev)]) /\ arrived r_one (h ++ [(DiscReply 2 [(Svc 3, 6)], ev)]) /\ In (Answer true 80 1000 [(Svc 11, 5); (Svc 3, 6)]) ev.
Proof. exists (fst (made (firstn 7 ex_l))), (upto 6), (sent 6). split; [exact (ex_reach 7)|]. split; [left; vm_compute; tauto|vm_compute; tauto]. Qed.
Example ex_absent : exists s h ev, reach s (h ++ [(Destroyed 70, ev)]) /\ arrived r_ext (h ++ [(Destroyed 70, ev)]) /\ In (Answer false 81 1001 [(Que 4, 40)]) ev /\ In (Svc 11) (r_want r_ext) /\ ~ down h /\ far r_ext.
Proof. exists (fst (made (firstn 11 ex_l))), (upto 10), (sent 10). split; [exact (ex_reach 11)|]. split; [right; vm_compute; tauto|]. split; [vm_compute; tauto|]. split; [now left|]. split; [apply not_down; vm_compute; reflexivity|now right]. Qed.

(* ------------------------------------------------------------------ C93: who is asked, for what *)
(* only those that are registered for it now, and can be reached, are asked. Other domains are asked for what is known, and what requests that go further want, by the names it has there *)
Theorem C93_asked : forall s h i ev p k w, reach s (h ++ [(i, ev)]) -> In (Ask p k w) ev -> provides ADiscover p (h ++ [(i, ev)]) /\ ~ lost (p_ipc p) (h ++ [(i, ev)]) /\ forall o, In o w -> wanted_as o (h ++ [(i, ev)]) \/ known_as o (h ++ [(i, ev)]).
Proof. intros s h i ev p k w R I. pose proof (reach_fine _ _ _ _ R) as F. rewrite Forall_forall in F. exact (F _ I). Qed.
Theorem C93_looked : forall s h i ev p k b w, reach s (h ++ [(i, ev)]) -> In (AskLook p k b w) ev -> provides ALookup p (h ++ [(i, ev)]) /\ ~ lost (p_ipc p) (h ++ [(i, ev)]) /\ exists r, i = Request r /\ b = negb (r_extend r) /\ w = r_want r.
Proof. intros s h i ev p k b w R I. pose proof (reach_fine _ _ _ _ R) as F. rewrite Forall_forall in F. exact (F _ I). Qed.
Theorem C93_fetched : forall s h i ev p k, reach s (h ++ [(i, ev)]) -> In (AskKnown p k) ev -> provides AKnown p (h ++ [(i, ev)]) /\ ~ lost (p_ipc p) (h ++ [(i, ev)]) /\ (i = Timeout \/ exists q k, i = Rediscover q k).
Proof. intros s h i ev p k R I. pose proof (reach_fine _ _ _ _ R) as F. rewrite Forall_forall in F. exact (F _ I). Qed.
(* a request that isn't to go further doesn't: only those that look up here are asked, for what they have themselves *)
Theorem C93_local : forall s h r ev, reach s (h ++ [(Request r, ev)]) -> r_extend r = false -> forall e, In e ev -> (exists p k, e = AskLook p k true (r_want r)) \/ exists c, e = Answer (r_api r) (r_ipc r) (r_corr r) c.
Proof. exact far_only_local. Qed.
Example ex_asked : exists s h i ev, reach s (h ++ [(i, ev)]) /\ In (Ask p6 4 [Svc 1]) ev /\ i = LookReply 3 [(Que 4, 40)].
Proof. exists (fst (made (firstn 9 ex_l))), (upto 8), (LookReply 3 [(Que 4, 40)]), (sent 8). split; [exact (ex_reach 9)|]. split; [vm_compute; tauto|reflexivity]. Qed.
Example ex_looked : exists s h ev, reach s (h ++ [(Request r_ext, ev)]) /\ In (AskLook p5 3 false [Svc 11; Que 4]) ev.
Proof. exists (fst (made (firstn 8 ex_l))), (upto 7), (sent 7). split; [exact (ex_reach 8)|vm_compute; tauto]. Qed.
Example ex_fetched : exists s h ev, reach s (h ++ [(Timeout, ev)]) /\ In (AskKnown p5 7) ev /\ In (Ask p6 8 [Svc 1]) ev.
Proof. exists (fst (made (firstn 18 ex_l))), (upto 17), (sent 17). split; [exact (ex_reach 18)|vm_compute; tauto]. Qed.
Example ex_local : exists s h ev, reach s (h ++ [(Request r_loc, ev)]) /\ r_extend r_loc = false /\ In (AskLook p5 6 true [Que 4]) ev.
Proof. exists (fst (made (firstn 12 ex_l))), (upto 11), (sent 11). split; [exact (ex_reach 12)|vm_compute; tauto]. Qed.

(* ------------------------------------------------------------------ C94: changes of the topology *)
(* a domain that has connected is explored for what it's configured with, and all that is known here; when nothing is outstanding and the timer isn't set *)
Theorem C94_direct : forall s h h1 p w ev h2, reach s h -> quiet h -> ~ armed h -> h = h1 ++ (DirectUpdate p w, ev) :: h2 -> ~ down h1 -> explored p w (h1 ++ [(DirectUpdate p w, ev)]) h.
Proof. exact direct_explored. Qed.
(* when the topology has changed farther away, the domain that told of it is explored for all that is known, and those upstream are told, with this domain added *)
Theorem C94_implicit : forall s h h1 p ds ev h2, reach s h -> quiet h -> ~ armed h -> h = h1 ++ (ImplicitUpdate p ds, ev) :: h2 -> ~ down h1 -> ~ In (self h1) ds ->
  explored p [] (h1 ++ [(ImplicitUpdate p ds, ev)]) h /\ spread ds (h1 ++ [(ImplicitUpdate p ds, ev)]) h.
Proof. exact implicit_explored. Qed.
(* an update that has been here is ignored *)
Theorem C94_ignored : forall s h p ds, reach s h -> In (self h) ds -> step (ImplicitUpdate p ds) s = (s, []).
Proof. exact been_here. Qed.
(* so an update that is passed on, from domain to domain, passes each at most once *)
Theorem C94_ring : forall vs ds, passed vs ds -> NoDup vs.
Proof. intros vs ds P. exact (proj1 (passed_in vs ds P)). Qed.
(* it's explored only for what is known, what requests want, and what the updates have; all that know have been asked *)
Theorem C94_explore_sound : forall s h i ev p w, reach s (h ++ [(i, ev)]) -> In (Explore p w) ev ->
  ~ lost p (h ++ [(i, ev)]) /\ (forall o, In o w -> wanted_as o (h ++ [(i, ev)]) \/ known_as o (h ++ [(i, ev)]) \/ updated_as o (h ++ [(i, ev)])) /\ exists l, fetched Timeout l (h ++ [(i, ev)]) /\ forall n, In n l -> exists o, official (configured h) n o /\ In o w.
Proof. intros s h i ev p w R I. pose proof (reach_fine _ _ _ _ R) as F. rewrite Forall_forall in F. exact (F _ I). Qed.
(* only those that want to know are told, of domains that updates have told of, and of this one *)
Theorem C94_implicit_sound : forall s h i ev p ds, reach s (h ++ [(i, ev)]) -> In (Implicit p ds) ev ->
  (exists q, p_ipc q = p /\ provides ATopology q (h ++ [(i, ev)])) /\ ~ lost p (h ++ [(i, ev)]) /\ In (self (h ++ [(i, ev)])) ds /\ forall d, In d ds -> d = self (h ++ [(i, ev)]) \/ exists p' ds', In (ImplicitUpdate p' ds') (inputs (h ++ [(i, ev)])) /\ In d ds'.
Proof. intros s h i ev p ds R I. pose proof (reach_fine _ _ _ _ R) as F. rewrite Forall_forall in F. exact (F _ I). Qed.
Example ex_topology : exists s h h1 h2 h1' h2' p ds ev ev', reach s h /\ quiet h /\ ~ armed h /\ ~ down h /\ h = h1 ++ (DirectUpdate 90 [Svc 12], ev) :: h2 /\ h = h1' ++ (ImplicitUpdate p ds, ev') :: h2' /\ ~ In (self h1') ds /\ In (Explore 90 [Que 4; Svc 1]) (effects h) /\ In (Explore p [Que 4; Svc 1]) (effects h) /\ In (Implicit 60 (ds ++ [100])) (effects h).
Proof.
  exists (fst (made (firstn 20 ex_l))), (upto 20), (upto 15), (skipn 16 (upto 20)), (upto 16), (skipn 17 (upto 20)), 91, [200], (sent 15), (sent 16). split; [exact (ex_reach 20)|]. split; [apply quiet_sound; vm_compute; reflexivity|]. split; [apply not_armed; vm_compute; reflexivity|]. split; [apply not_down; vm_compute; reflexivity|]. split; [vm_compute; reflexivity|]. split; [vm_compute; reflexivity|]. split; [vm_compute; intuition discriminate|]. vm_compute. tauto.
Qed.
Example ex_ignored : exists s h, reach s h /\ In (self h) [200; 100] /\ In (Implicit 60 [200; 100]) (effects h).
Proof. exists (fst (made (firstn 20 ex_l))), (upto 20). split; [exact (ex_reach 20)|]. split; [vm_compute; tauto|vm_compute; tauto]. Qed.
Example ex_ring : exists s' ev t, passed [100] [200; 100] /\ reach s' (upto 16 ++ (ImplicitUpdate 91 [200], ev) :: t) /\ In (Implicit 60 [200; 100]) (effects t).
Proof.
  exists (fst (made (firstn 20 ex_l))), (sent 16), (skipn 17 (upto 20)). assert (R : reach (fst (made (firstn 20 ex_l))) (upto 16 ++ (ImplicitUpdate 91 [200], sent 16) :: skipn 17 (upto 20))) by exact (ex_reach 20). assert (J : In (Implicit 60 [200; 100]) (effects (skipn 17 (upto 20)))) by (vm_compute; tauto). split; [|auto].
  apply (passed_on [] [200] (fst (made (firstn 16 ex_l))) (upto 16) 91 (fst (made (firstn 20 ex_l))) (sent 16) (skipn 17 (upto 20)) 60 [200; 100]); auto.
  - apply passed_first. - exact (ex_reach 16). - vm_compute. discriminate. - intros d [<-|[]]. now left.
Qed.

(* ------------------------------------------------------------------ C95: rediscovery *)
Theorem C95_once : forall s h k, reach s h -> (count (is_rediscovered k) (effects h) <= 1)%nat /\ forall p c, In (Rediscovered p k c) (effects h) -> In (Rediscover p k) (inputs h).
Proof. exact redisc_once. Qed.
Theorem C95_answered : forall s h p k, reach s h -> quiet h -> In (Rediscover p k) (inputs h) -> ~ lost p h -> exists c, In (Rediscovered p k c) (effects h).
Proof. exact redisc_answered. Qed.
(* it's answered before the process ends *)
Theorem C95_left : forall s h p k, reach s h -> done s = true -> In (Rediscover p k) (inputs h) -> ~ lost p h -> exists c, In (Rediscovered p k c) (effects h).
Proof. exact done_redisc. Qed.
(* when it's answered all that is known has been fetched, all other domains have been asked for that, and what isn't in the reply isn't told of by any; what is in it is told of by another domain *)
Theorem C95_complete : forall s h i ev p k c, reach s (h ++ [(i, ev)]) -> In (Rediscovered p k c) ev ->
  rediscovered p k c (h ++ [(i, ev)]) /\ forall n x, In (n, x) c -> exists k' c', In (DiscReply k' c') (inputs (h ++ [(i, ev)])) /\ In (n, x) c'.
Proof. intros s h i ev p k c R I. pose proof (reach_fine _ _ _ _ R) as F. rewrite Forall_forall in F. exact (F _ I). Qed.
(* it isn't so that the reply has what has been found by the names it has here: what is known as 2 is found (by its name in other domains, 1), but the reply has 1 *)
Definition w_names_l := [Begin 100 [(1, [2])]; Register p5 1 [AKnown]; Register p6 2 [ADiscover]; Rediscover 84 2000; KnownReply 1 [Svc 2]; DiscReply 2 [(Svc 1, 7)]].
Definition w_names := Eval vm_compute in made w_names_l.
Theorem C95_translated_refuted : exists s h k c n, reach s h /\ In (KnownReply k [n]) (inputs h) /\ told_there n 7 h /\ In (Rediscovered 84 2000 c) (effects h) /\ ~ In n (map fst c) /\ forall n' x, In (n', x) c -> ~ exists k w, In (KnownReply k w) (inputs h) /\ In n' w.
Proof.
  exists (fst w_names), (snd w_names), 1, [(Svc 1, 7)], (Svc 2). split; [apply (exec_reach0 w_names_l w_names); vm_compute; reflexivity|]. split; [vm_compute; tauto|]. split.
  - exists (firstn 5 (snd w_names)), 2, [(Svc 1, 7)], [Rediscovered 84 2000 [(Svc 1, 7)]], [], (Svc 1). split; [reflexivity|]. split; [now left|]. left. exists [2], 2. split; [|split; [now left|reflexivity]]. exists [], []. split; [reflexivity|intros []].
  - split; [vm_compute; tauto|]. split; [cbn; intuition discriminate|]. intros n' x [E|[]] (k & w & I & J). injection E as <- <-. vm_compute in I. repeat (destruct I as [I|I]; try discriminate); [|destruct I]. injection I as <- <-. cbn in J. intuition discriminate.
Qed.
Example ex_rediscover : exists s h ev, reach s (h ++ [(DiscReply 10 [(Svc 1, 7)], ev)]) /\ quiet (h ++ [(DiscReply 10 [(Svc 1, 7)], ev)]) /\ ~ lost 84 (h ++ [(DiscReply 10 [(Svc 1, 7)], ev)]) /\ In (Rediscover 84 2000) (inputs h) /\ In (Rediscovered 84 2000 [(Svc 1, 7)]) ev.
Proof.
  exists (fst (made (firstn 24 ex_l))), (upto 23), (sent 23). split; [exact (ex_reach 24)|]. split; [apply quiet_sound; vm_compute; reflexivity|]. split; [apply not_lost; vm_compute; reflexivity|]. split; [vm_compute; tauto|vm_compute; tauto].
Qed.

Example ex_redisc_left : exists s h, reach s h /\ done s = true /\ In (Rediscover 84 2000) (inputs h) /\ ~ lost 84 h.
Proof. exists (fst (made ex_l)), (upto 26). split; [exact (ex_reach 26)|]. split; [vm_compute; reflexivity|]. split; [vm_compute; tauto|]. apply not_lost; vm_compute; reflexivity. Qed.

(* ------------------------------------------------------------------ C96: two domains that forward to each other *)
(* it isn't so that one request leads to a bounded number of requests between domains: if two domains forward to each other, a request for a service none of them has goes back and forth, and isn't answered *)
Theorem C96_bounded_refuted : forall n, exists sa ha sb hb, net sa ha sb hb /\ count is_api (inputs ha ++ inputs hb) = 1%nat /\ count is_reply (effects ha ++ effects hb) = 0%nat /\ (n <= count is_ask (effects ha))%nat.
Proof. exact loops. Qed.
(* each of the two is a domain by itself: all of the above holds for it *)
Theorem C96_each : forall sa ha sb hb, net sa ha sb hb -> reach sa ha /\ reach sb hb.
Proof. exact net_reach. Qed.

Print Assumptions C91_once.
Print Assumptions C91_answered.
Print Assumptions C91_shutdown.
Print Assumptions C91_ends.
Print Assumptions C91_left_partial.
Print Assumptions C91_left_refuted.
Print Assumptions C92_sound.
Print Assumptions C92_absent.
Print Assumptions C92_found_refuted.
Print Assumptions C93_asked.
Print Assumptions C93_looked.
Print Assumptions C93_fetched.
Print Assumptions C93_local.
Print Assumptions C94_direct.
Print Assumptions C94_implicit.
Print Assumptions C94_ignored.
Print Assumptions C94_ring.
Print Assumptions C94_explore_sound.
Print Assumptions C94_implicit_sound.
Print Assumptions C95_once.
Print Assumptions C95_answered.
Print Assumptions C95_left.
Print Assumptions C95_complete.
Print Assumptions C95_translated_refuted.
Print Assumptions C96_bounded_refuted.
Print Assumptions C96_each.

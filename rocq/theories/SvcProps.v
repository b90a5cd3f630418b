(* The service manager: C25, C26, C27, C28, C45, C46, C47, C48. *)
From Coq Require Import ZArith List Bool Lia.
From Verif Require Import FanModel SvcModel SvcSpec SvcRes SvcCount SvcDead SvcCall SvcTop SvcLimit.
Import ListNotations.
Local Open Scope Z_scope.

(* ================================================================ C25 *)
(* between two lookups that are given the same server, the first reservation has ended *)
Theorem C25_one_caller cfg t r1 h1 d1 r2 h2 d2 t1 t2 t3 : history cfg t ->
  t = t1 ++ Eff (O_idle r1 (D_seq h1) d1) :: t2 ++ Eff (O_idle r2 (D_seq h2) d2) :: t3 -> h_ipc h1 = h_ipc h2 ->
  exists x, In x t2 /\ releases x (h1, r_corr r1) = true.
Proof. exact (one_caller cfg t r1 h1 d1 r2 h2 d2 t1 t2 t3). Qed.

(* ================================================================ C26 *)
(* every lookup is answered exactly once, or is queued; for one lookup: f picks its correlation *)
Theorem C26_answered_once cfg l t s f : reaches cfg l t s -> count (asks f) t = (count (answers f) t + length (filter f (queued s)))%nat.
Proof. exact (answered_once cfg l t s f). Qed.

(* no lost wakeup: while a lookup is queued every server that advertises the service is reserved *)
Theorem C26_no_lost_wakeup_partial cfg conf l s t r h o : run cfg l (start cfg conf) = (s, t) -> proper cfg conf l -> calm t ->
  In r (queued s) -> In (h, o) (advertised cfg t) -> In (r_name r) (names cfg o) -> exists c, In (h, c) (reserved t).
Proof. exact (no_lost_wakeup cfg conf l s t r h o). Qed.

(* when a server acknowledges, the oldest queued lookup of a service it advertises gets it; the others keep their places *)
Theorem C26_oldest_first_partial cfg conf l s t r h o a b e c h' k : run cfg l (start cfg conf) = (s, t) -> proper cfg conf l -> calm t ->
  queued s = a ++ r :: b -> In (h, o) (advertised cfg t) -> In (r_name r) (names cfg o) ->
  (forall r' o', In r' a -> In (h, o') (advertised cfg t) -> ~ In (r_name r') (names cfg o')) -> h_ipc h' = h_ipc h ->
  (exists d, In (O_idle r (D_seq h) d) (snd (step cfg e (I_ack c h' k) s))) /\ queued (fst (step cfg e (I_ack c h' k) s)) = a ++ b.
Proof. exact (oldest_first cfg conf l s t r h o a b e c h' k). Qed.

(* ================================================================ C27 *)
(* a lookup that is routed to a concurrent process is routed to one with the smallest (order, hops) of those that offer the service,
   as they were when the process first offered the service *)
Theorem C27_smallest_order_partial cfg conf l s t t1 r h d t2 : run cfg l (start cfg conf) = (s, t) -> proper cfg conf l -> no_kill t ->
  t = t1 ++ Eff (O_idle r (D_con h) d) :: t2 ->
  exists o a k, In (r_name r) (names cfg o) /\ In (h, (o, a, k)) (offered cfg t1) /\ forall h' a' k', In (h', (o, a', k')) (offered cfg t1) -> a < a' \/ (a = a' /\ k <= k').
Proof. exact (smallest_order cfg conf l s t t1 r h d t2). Qed.

(* ================================================================ C28 *)
(* a timeout is reported only for a deadline that was given and has passed *)
Theorem C28_not_early cfg t t1 y t2 c : history cfg t -> t = t1 ++ Eff y :: t2 -> times_out y c ->
  exists t3 e t4 d, t1 = t3 ++ Rcv e I_timeout :: map Eff t4 /\ In (d, c) (announced t3) /\ d < e_now e.
Proof. exact (not_early cfg t t1 y t2 c). Qed.
(* when the timer fires, every queued lookup whose deadline has passed is told *)
Theorem C28_queued_expire cfg l t s e r d : reaches cfg l t s -> (count (asks (fun x => (r_corr x =? r_corr r)%Z)) t <= 1)%nat -> In r (queued s) ->
  In (d, r_corr r) (due t) -> d < e_now e -> In (O_timeout r) (snd (step cfg e I_timeout s)).
Proof. exact (queued_expire cfg l t s e r d). Qed.
(* ... and so is every caller of a reserved server *)
Theorem C28_call_expires cfg l t s e r h d : reaches cfg l t s -> r_corr r <> 0 -> h_valid (r_proc r) = true -> no_reply r = false ->
  (forall e' x, In (Rcv e' (I_lookup x)) t -> r_corr x = r_corr r -> x = r) -> (count (asks (fun x => (r_corr x =? r_corr r)%Z)) t <= 1)%nat ->
  (forall e' h' k, ~ In (Rcv e' (I_ack (r_corr r) h' k)) t) ->
  In (h, r_corr r) (reserved t) -> In (d, r_corr r) (due t) -> d < e_now e ->
  In (Eff (O_error (mk_c (r_proc r) (r_corr r)) true)) t \/ In (O_error (mk_c (r_proc r) (r_corr r)) true) (snd (step cfg e I_timeout s)).
Proof. exact (call_expires cfg l t s e r h d). Qed.
(* the deadline a lookup is given, when it is answered or queued for a server, is the earliest that applies to it *)
Theorem C28_deadline cfg l t s e r x dl : reaches cfg l t s -> (forall d, ~ In (d, r_corr r) (announced t)) -> In x (snd (step cfg e (I_lookup r) s)) ->
  ((exists d, x = O_queued r (Some d) /\ dl = Some d) \/ (exists h, x = O_idle r (D_seq h) dl \/ x = O_idle r (D_con h) dl)) ->
  match dl with Some d => earliest (limit s e r) d | None => forall z, ~ limit s e r z end.
Proof. exact (deadline_given cfg l t s e r x dl). Qed.
(* the timer: as long as no queued lookup has a deadline, and after each time it has fired *)
Theorem C28_timer_armed_partial cfg l t s d c : reaches cfg l t s -> (forall r d, ~ In (Eff (O_queued r (Some d))) t) -> In (d, c) (due t) ->
  exists m, s_timer s = T_at m /\ m <= d /\ exists c', In (m, c') (announced t).
Proof. exact (timer_armed cfg l t s d c). Qed.
Theorem C28_timer_rearmed cfg l t s e d c : reaches cfg l t s -> In (d, c) (due (t ++ [Rcv e I_timeout])) ->
  exists m, s_timer (fst (step cfg e I_timeout s)) = T_at m /\ m <= d /\ exists c', In (m, c') (announced t).
Proof. exact (timer_rearmed cfg l t s e d c). Qed.

(* ================================================================ C45 *)
(* a lookup is given a server only if that server advertises the service at that time *)
Theorem C45_advertised_only cfg conf l s t t1 r h d t2 : run cfg l (start cfg conf) = (s, t) -> proper cfg conf l -> no_kill t ->
  t = t1 ++ Eff (O_idle r (D_seq h) d) :: t2 -> exists o, In (r_name r) (names cfg o) /\ In (h, o) (advertised cfg t1).
Proof. exact (advertised_only cfg conf l s t t1 r h d t2). Qed.
(* ... and is sent to another domain only if no local server advertises it, and the requester isn't another domain itself *)
Theorem C45_local_first cfg conf l s t t1 r h d t2 : run cfg l (start cfg conf) = (s, t) -> proper cfg conf l -> no_kill t -> no_prepare t ->
  t = t1 ++ Eff (O_idle r (D_con h) d) :: t2 -> r_req r <> External /\ forall o h', known conf l o -> In (r_name r) (names cfg o) -> ~ In (h', o) (advertised cfg t1).
Proof. exact (local_first cfg conf l s t t1 r h d t2). Qed.

(* ================================================================ C46 *)
Theorem C46_absent_only cfg conf l s t t1 r t2 : run cfg l (start cfg conf) = (s, t) -> proper cfg conf l -> no_kill t -> no_prepare t ->
  t = t1 ++ Eff (O_absent r) :: t2 -> forall o, known conf l o -> In (r_name r) (names cfg o) ->
  (forall h, ~ In (h, o) (advertised cfg t1)) /\ (r_req r <> External -> forall h a k, ~ In (h, (o, a, k)) (offered cfg t1)).
Proof. exact (absent_only cfg conf l s t t1 r t2). Qed.

(* ================================================================ C47 *)
Theorem C47_never_raises cfg t : history cfg t -> ~ In (Eff O_raise) t.
Proof. exact (never_raises cfg t). Qed.

(* ================================================================ what does not hold *)
Definition e_at (t : Z) := mk_env t false (fun _ => false) (fun _ => 0%nat).
Definition at0 (l : list input) : list (env * input) := map (fun i => (e_at 0, i)) l.
Definition cfg0 := mk_cfg (fun _ => []) None false (mk_h 99 99) (fun _ _ => true).
Definition cfg_timeout := mk_cfg (fun _ => []) (Some 10) false (mk_h 99 99) (fun _ _ => true).
Definition cfg_fatal := mk_cfg (fun _ => []) (Some 10) true (mk_h 99 99) (fun _ _ => true).
Definition S1 := mk_h 1 11. Definition S2 := mk_h 2 12. Definition G1 := mk_h 3 13. Definition G2 := mk_h 4 14. Definition CA := mk_h 5 15. Definition CB := mk_h 6 16.
Definition lk c h n := mk_r c h n Regular Internal None 0.

(* C26: the caller discards a lookup that has been replied to: the server is free, but the lookup that waits for it isn't served *)
Theorem C26_discard_refuted : exists cfg conf l s t r h o, run cfg l (start cfg conf) = (s, t) /\ proper cfg conf l /\
  In r (queued s) /\ In (h, o) (advertised cfg t) /\ In (r_name r) (names cfg o) /\ reserved t = [].
Proof.
  exists cfg0, [], (at0 [I_advertise S1 0 [100] []; I_lookup (lk 51 CA 100); I_lookup (lk 61 CB 100); I_discard 15 51 false]). do 2 eexists. exists (lk 61 CB 100), S1, 100.
  split; [vm_compute; reflexivity|]. split; [apply proper_plain; [reflexivity|vm_compute; reflexivity]|]. vm_compute. auto 10.
Qed.
(* C26: a lookup reply that can't be delivered leaves the server reserved for good, even when the caller has exited *)
Theorem C26_undeliverable_refuted : exists cfg conf l s t r r' h e, run cfg l (start cfg conf) = (s, t) /\
  In (Eff (O_lost (h_ipc (r_proc r')))) t /\ In (Rcv e (I_exit (h_pid (r_proc r')))) t /\ In (h, r_corr r') (reserved t) /\ In r (queued s) /\ In (h, r_name r) (advertised cfg t).
Proof.
  exists cfg0, [], [(e_at 0, I_advertise S1 0 [100] []); (mk_env 0 false (Z.eqb 15) (fun _ => 0%nat), I_lookup (lk 51 CA 100)); (e_at 0, I_exit 5); (e_at 0, I_lookup (lk 61 CB 100))].
  do 2 eexists. exists (lk 61 CB 100), (lk 51 CA 100), S1, (e_at 0). split; [vm_compute; reflexivity|]. vm_compute. auto 20.
Qed.
Definition w_fifo_l := at0 [I_advertise S1 0 [100] []; I_lookup (lk 51 CA 100); I_lookup (lk 61 CB 100); I_lookup (lk 62 CB 100); I_advertise S1 0 [101] []; I_ack 51 S1 false].
Definition w_fifo := Eval vm_compute in run cfg0 w_fifo_l (start cfg0 []).
(* C26: a busy server that advertises another service puts the oldest lookup last: the younger one is served first *)
Theorem C26_fifo_refuted : exists cfg conf l s t t1 r1 r2 h d, run cfg l (start cfg conf) = (s, t) /\ proper cfg conf l /\ calm t /\ r_name r1 = r_name r2 /\
  (exists u v w e1 e2, t1 = u ++ Rcv e1 (I_lookup r1) :: v ++ Rcv e2 (I_lookup r2) :: w) /\ t = t1 ++ [Eff (O_idle r2 (D_seq h) d)] /\ In r1 (queued s).
Proof.
  exists cfg0, [], w_fifo_l, (fst w_fifo), (snd w_fifo), (removelast (snd w_fifo)), (lk 61 CB 100), (lk 62 CB 100), S1, None.
  split; [vm_compute; reflexivity|]. split; [apply proper_plain; [reflexivity|vm_compute; reflexivity]|]. split; [apply calm_dec; vm_compute; reflexivity|].
  split; [reflexivity|]. split; [|split; [vm_compute; reflexivity|vm_compute; auto]].
  exists (firstn 3 (snd w_fifo)), (firstn 1 (skipn 4 (snd w_fifo))), (removelast (skipn 6 (snd w_fifo))), (e_at 0), (e_at 0). vm_compute. reflexivity.
Qed.
(* C26: the last local server withdraws the service: the queued lookup isn't sent to the other domain that offers it *)
Theorem C26_concurrent_refuted : exists cfg conf l s t r h a k, run cfg l (start cfg conf) = (s, t) /\ proper cfg conf l /\ calm t /\
  In r (queued s) /\ r_req r = Internal /\ advertised cfg t = [] /\ In (h, (r_name r, a, k)) (offered cfg t).
Proof.
  exists cfg0, [], (at0 [I_advertise S1 0 [100] []; I_lookup (lk 51 CA 100); I_concurrent G1 0 Dir_update 1 [(100, 1, 0)] []; I_lookup (lk 61 CB 100); I_advertise S1 0 [] [100]; I_ack 51 S1 false]).
  do 2 eexists. exists (lk 61 CB 100), G1, 1, 1. split; [vm_compute; reflexivity|]. split; [apply proper_plain; [reflexivity|vm_compute; reflexivity]|]. split; [apply calm_dec; vm_compute; reflexivity|]. vm_compute. auto 10.
Qed.
(* C48: a server that is about to be killed, for a timeout, is given to the next caller *)
Theorem C48_killed_refuted : exists cfg t t1 t2 r h d, history cfg t /\ t = t1 ++ Eff (O_idle r (D_seq h) d) :: t2 /\ In (Eff (O_assassinate (h_pid h) true)) t1 /\ forall e, ~ In (Rcv e (I_exit (h_pid h))) t1.
Proof.
  exists cfg_fatal. eexists. exists [Rcv (e_at 0) (I_advertise S1 0 [100] []); Rcv (e_at 0) (I_lookup (lk 51 CA 100)); Eff (O_idle (lk 51 CA 100) (D_seq S1) (Some 10)); Rcv (e_at 11) I_timeout;
    Eff (O_error (mk_c CA 51) true); Eff (O_assassinate 1 true); Rcv (e_at 12) (I_ack 51 S1 false); Rcv (e_at 12) (I_lookup (lk 61 CB 100))], [], (lk 61 CB 100), S1, (Some 22).
  split; [|split; [reflexivity|split; [vm_compute; auto 20|]]].
  - exists [], (at0 [I_advertise S1 0 [100] []; I_lookup (lk 51 CA 100)] ++ [(e_at 11, I_timeout); (e_at 12, I_ack 51 S1 false); (e_at 12, I_lookup (lk 61 CB 100))]). vm_compute. reflexivity.
  - intros e H. repeat (destruct H as [H|H]; [discriminate H|]). destruct H.
Qed.
(* C27: a process that has given a smaller order isn't preferred: only the order of the first advertise of each service counts *)
Theorem C27_order_update_refuted : exists cfg t t1 t2 r h d h' a a' k k', history cfg t /\ t = t1 ++ Eff (O_idle r (D_con h) d) :: t2 /\
  In (h, (r_name r, a, k)) (latest cfg t1) /\ In (h', (r_name r, a', k')) (latest cfg t1) /\ a' < a.
Proof.
  exists cfg0. eexists. exists [Rcv (e_at 0) (I_concurrent G1 0 Dir_update 1 [(100, 1, 0)] []); Rcv (e_at 0) (I_concurrent G2 0 Dir_update 2 [(100, 1, 0)] []);
    Rcv (e_at 0) (I_concurrent G2 0 Dir_update 0 [(100, 1, 0)] []); Rcv (e_at 0) (I_concurrent G2 0 Dir_instance 0 [] []); Rcv (e_at 0) (I_lookup (lk 51 CA 100))], [], (lk 51 CA 100), G1, None, G2, 1, 0, 1, 1.
  split; [|split; [reflexivity|vm_compute; auto 10]]. exists [], (at0 [I_concurrent G1 0 Dir_update 1 [(100, 1, 0)] []; I_concurrent G2 0 Dir_update 2 [(100, 1, 0)] [];
    I_concurrent G2 0 Dir_update 0 [(100, 1, 0)] []; I_concurrent G2 0 Dir_instance 0 [] []; I_lookup (lk 51 CA 100)]). vm_compute. reflexivity.
Qed.
(* C28: the deadline of a queued lookup doesn't arm the timer *)
Theorem C28_queued_timer_refuted : exists cfg l t s d c, reaches cfg l t s /\ In (d, c) (due t) /\ s_timer s = T_unset.
Proof.
  exists cfg0, (at0 [I_advertise S1 0 [100; 101] []; I_lookup (lk 51 CA 101); I_lookup (lk 61 CB 100)]). do 2 eexists. exists 10, 61. split; [exists [(100, Some 10, false)]; vm_compute; reflexivity|]. vm_compute. auto.
Qed.
(* C28: when the acknowledge removes the last deadline the timer is set from memory that isn't an entry: undefined *)
Theorem C28_last_deadline_refuted : exists cfg l t s, reaches cfg l t s /\ due t = [] /\ s_timer s = T_undefined.
Proof. exists cfg_timeout, (at0 [I_advertise S1 0 [100] []; I_lookup (lk 51 CA 100); I_ack 51 S1 false]). do 2 eexists. split; [exists []; vm_compute; reflexivity|]. vm_compute. auto. Qed.
(* C28: a lookup that waits for the discovery has no deadline, neither that of the service nor that of the caller *)
Theorem C28_discovery_refuted : exists cfg l t s r v i d, reaches cfg l t s /\ In r (queued s) /\ In (Some v) (s_svc s) /\ v_name v = r_name r /\ v_timeout v = Some i /\ r_deadline r = Some d /\ announced t = [].
Proof.
  exists cfg_timeout, (map (fun i => (mk_env 0 true (fun _ => false) (fun _ => 0%nat), i)) [I_advertise S1 0 [100] []; I_advertise S1 0 [] [100]; I_lookup (mk_r 51 CA 100 Regular Internal (Some 5) 0)]).
  do 2 eexists. exists (mk_r 51 CA 100 Regular Internal (Some 5) 0). eexists. exists 10, 5. split; [exists []; vm_compute; reflexivity|]. vm_compute. auto 10.
Qed.

(* ================================================================ the hypotheses are met *)
(* two servers, a route, a gateway; three lookups, one of them queued; times *)
Definition ex_cfg := mk_cfg (fun n => if n =? 100 then [200; 201] else []) (Some 10) false (mk_h 99 99) (fun _ _ => true).
Definition ex_l := at0 [I_advertise S1 0 [100; 101] []; I_concurrent G1 0 Dir_update 2 [(102, 1, 0)] []; I_concurrent G2 0 Dir_update 1 [(102, 3, 0); (100, 1, 0)] [];
  I_lookup (lk 51 CA 200); I_lookup (lk 61 CB 101); I_lookup (lk 62 CB 201); I_lookup (lk 63 CB 102); I_lookup (lk 64 CB 100)].
Definition ex_r := Eval vm_compute in run ex_cfg ex_l (start ex_cfg [(101, Some 7, false)]).
Definition ex_s := fst ex_r.
Definition ex_t := snd ex_r.
Lemma ex_run : run ex_cfg ex_l (start ex_cfg [(101, Some 7, false)]) = (ex_s, ex_t). Proof. vm_compute. reflexivity. Qed.
Lemma ex_proper : proper ex_cfg [(101, Some 7, false)] ex_l.
Proof.
  split; [|apply owned_dec; vm_compute; reflexivity]. assert (K : forall o, known [(101, Some 7, false)] ex_l o -> o = 100 \/ o = 101 \/ o = 102).
  { intros o [(t & f & [H|[]])|(e & i & H & Hs)]; [injection H as <- _ _; auto|]. cbn in H. repeat (destruct H as [H|H]; [injection H as <- <-; cbn in Hs; intuition|]). destruct H. }
  intros o o' n Ho Ho'. apply K in Ho, Ho'. unfold names. destruct Ho as [-> | [-> | ->]], Ho' as [-> | [-> | ->]]; cbn; intuition congruence.
Qed.
Example ex_calm : calm ex_t. Proof. apply calm_dec. vm_compute. reflexivity. Qed.
(* C26: two lookups are queued for the reserved server; it acknowledges *)
Example ex_wakeup : queued ex_s = [lk 61 CB 101; lk 62 CB 201] /\ In (S1, 101) (advertised ex_cfg ex_t) /\ In (S1, 100) (advertised ex_cfg ex_t) /\ In 201 (names ex_cfg 100) /\ reserved ex_t = [(S1, 51)] /\
  snd (step ex_cfg (e_at 1) (I_ack 51 S1 false) ex_s) = [O_idle (lk 61 CB 101) (D_seq S1) (Some 7)].
Proof. vm_compute. auto 10. Qed.
(* C27, C46: one lookup went to the gateway with the smallest order, one found nothing: the service is known under its routes only *)
Example ex_routed : exists t1 t2 t3, ex_t = t1 ++ Eff (O_idle (lk 63 CB 102) (D_con G2) None) :: t2 ++ Eff (O_absent (lk 64 CB 100)) :: t3 /\
  offered ex_cfg t1 = [(G1, (102, 2, 1)); (G2, (102, 1, 3)); (G2, (100, 1, 1))].
Proof. exists (firstn 10 ex_t), (firstn 1 (skipn 11 ex_t)), (skipn 13 ex_t). vm_compute. auto. Qed.
(* C28: deadlines of a call and of a queued lookup; at 8 the first has passed *)
(* a caller's deadline of 5 is earlier than the service's timeout of 7 from now *)
Example ex_deadline : forallb (fun a => negb (snd a =? 70)) (announced ex_t) = true /\
  snd (step ex_cfg (e_at 1) (I_lookup (mk_r 70 CB 101 Regular Internal (Some 5) 0)) ex_s) = [O_queued (mk_r 70 CB 101 Regular Internal (Some 5) 0) (Some 5)] /\
  snd (step ex_cfg (e_at 1) (I_lookup (mk_r 70 CB 101 Regular Internal (Some 50) 0)) ex_s) = [O_queued (mk_r 70 CB 101 Regular Internal (Some 50) 0) (Some 8)].
Proof. vm_compute. auto. Qed.
Example ex_due : due ex_t = [(10, 51); (7, 61); (10, 62)] /\ snd (step ex_cfg (e_at 8) I_timeout ex_s) = [O_timeout (lk 61 CB 101)] /\
  snd (step ex_cfg (e_at 11) I_timeout ex_s) = [O_timeout (lk 61 CB 101); O_error (mk_c CA 51) true; O_assassinate 1 false; O_timeout (lk 62 CB 201)].
Proof. vm_compute. auto. Qed.
(* C25: the server is given to one caller after the other *)
Example ex_two : exists t1 t2 t3, snd (run ex_cfg (ex_l ++ [(e_at 1, I_ack 51 S1 false)]) (start ex_cfg [(101, Some 7, false)])) =
  t1 ++ Eff (O_idle (lk 51 CA 200) (D_seq S1) (Some 10)) :: t2 ++ Eff (O_idle (lk 61 CB 101) (D_seq S1) (Some 7)) :: t3.
Proof. exists (firstn 4 ex_t), (skipn 5 ex_t ++ [Rcv (e_at 1) (I_ack 51 S1 false)]), []. vm_compute. reflexivity. Qed.

Print Assumptions C25_one_caller.
Print Assumptions C48_killed_refuted.
Print Assumptions C26_answered_once.
Print Assumptions C26_no_lost_wakeup_partial.
Print Assumptions C26_oldest_first_partial.
Print Assumptions C26_discard_refuted.
Print Assumptions C26_undeliverable_refuted.
Print Assumptions C26_fifo_refuted.
Print Assumptions C26_concurrent_refuted.
Print Assumptions C27_smallest_order_partial.
Print Assumptions C27_order_update_refuted.
Print Assumptions C28_not_early.
Print Assumptions C28_queued_expire.
Print Assumptions C28_call_expires.
Print Assumptions C28_deadline.
Print Assumptions C28_timer_armed_partial.
Print Assumptions C28_timer_rearmed.
Print Assumptions C28_queued_timer_refuted.
Print Assumptions C28_last_deadline_refuted.
Print Assumptions C28_discovery_refuted.
Print Assumptions C45_advertised_only.
Print Assumptions C45_local_first.
Print Assumptions C46_absent_only.
Print Assumptions C47_never_raises.

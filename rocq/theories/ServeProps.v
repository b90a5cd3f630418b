(* C63: every request is answered once and acknowledged once. C64: the transaction a service is invoked in. C65: the transaction ends the way the
   caller is told. *)
From Coq Require Import ZArith List Bool Lia.
From Verif Require Import CodesModel CtxModel CtxSpec CtxProofs CallModel CallSpec CallTx ServeModel ServeSpec ServeProofs ServeTx ServeMore ServeEnd.
Import ListNotations.
Local Open Scope Z_scope.

(* ================================================================ C63 *)
(* whatever the routine does, and however it ends: the service manager gets one acknowledge, last *)
Theorem C63_one_acknowledge : forall e q us fin fl s s' evs, serve e q us fin fl s = (s', evs) -> f_ack fl = false -> exists front code, evs = front ++ [V_ack (q_corr q) code] /\ acks front = [].
Proof. exact one_ack. Qed.
(* a caller that wants a reply, and that can be reached, gets one, unless the routine gave the request to another server *)
Theorem C63_one_answer : forall e q us fin fl s s' evs, serve e q us fin fl s = (s', evs) -> q_noreply q = false -> f_reply fl = false ->
  (exists r, answers evs = [V_reply (q_corr q) r]) \/ exists data, fin = E_forward data (L_idle None) /\ answers evs = [V_forward (q_corr q) (q_tid q) false data].
Proof. exact one_answer. Qed.
(* never more than one, none if it doesn't want one, and always with the correlation of the request *)
Theorem C63_at_most_one : forall e q us fin fl s s' evs, serve e q us fin fl s = (s', evs) ->
  (length (answers evs) <= 1)%nat /\ (q_noreply q = true -> ~ replied_to evs) /\ forall v, In v (answers evs) -> (exists r, v = V_reply (q_corr q) r) \/ exists data, v = V_forward (q_corr q) (q_tid q) (q_noreply q) data.
Proof. exact at_most_one. Qed.
(* the reply is what the routine returned, or TPESVCERR with no data *)
Theorem C63_content : forall e q us fin fl s s' evs c r, serve e q us fin fl s = (s', evs) -> In (V_reply c r) evs ->
  (invoked evs /\ exists success user data, fin = E_return success user data /\ says success user data r) \/
  ((~ invoked evs \/ forall success user data, fin <> E_return success user data) /\ r_code r = TPESVCERR /\ r_user r = 0 /\ r_data r = no_data).
Proof. exact content. Qed.

Definition ok_env : env := mk_env (fun _ => xa_ok) (fun _ => []) (fun _ => (SCommit, tx_ok)) (fun _ => tx_ok).
Definition fine : faults := mk_faults false false None false false false.
Definition theirs_q (y : semantics) : request := mk_request 9 true y (mk_tid (-5) 2) false false.
Definition fresh_s : proc := CallModel.start [] [7; 8].
Definition sent : lookup := L_idle None.
Example C63_case : snd (serve ok_env (theirs_q Automatic) [Tpcall false sent [(1, mk_reply 0 3 0 4)]] (E_return true 6 5) fine fresh_s) = [V_invoked (-5) true; V_reply 9 (mk_reply 0 6 0 5); V_ack 9 0] /\
  snd (serve ok_env (theirs_q Automatic) [Tpacall false false sent] (E_return true 6 5) fine fresh_s) = [V_invoked (-5) true; V_reply 9 (mk_reply TPESVCERR 6 3 5); V_ack 9 TPESVCERR] /\
  snd (serve ok_env (theirs_q NoTransaction) [] E_none (mk_faults false false None true true false) fresh_s) = [V_invoked 0 false; V_ack 9 TPESVCERR] /\
  snd (serve ok_env (theirs_q Automatic) [] (E_forward 4 sent) fine fresh_s) = [V_invoked (-5) true; V_forward 9 (mk_tid (-5) 2) false 4; V_ack 9 0].
Proof. vm_compute. auto. Qed.

(* ================================================================ C64 *)
(* a server that has handled any requests: the routine is invoked in the transaction its service is configured with, and in no other *)
Theorem C64_invoked_in : forall e dyn fix0 js s evs0, Forall user_job js -> srun e js (CallModel.start dyn fix0) = (s, evs0) -> forall q us fin fl s' evs x b, serve e q us fin fl s = (s', evs) -> In (V_invoked x b) evs ->
  x = wanted (q_semantics q) (q_tid q) (c_next (p_tx s)) /\ b = negb (x =? 0).
Proof. intros e dyn fix0 js s evs0 F R q us fin fl s' evs x b H I. exact (invoked_in e q us fin fl s s' evs x b (proj2 (reach_ready _ _ _ _ _ _ F R)) H I). Qed.
(* the fresh one isn't one this process has used before *)
Theorem C64_fresh : forall e dyn fix0 js s evs0, Forall user_job js -> srun e js (CallModel.start dyn fix0) = (s, evs0) -> 0 < c_next (p_tx s) /\ forall q us fin fl s' evs, Forall user_input us -> serve e q us fin fl s = (s', evs) ->
  c_next (p_tx s) <= c_next (p_tx s') /\ forall x b, In (V_invoked x b) evs -> own_around q -> x = c_next (p_tx s) /\ x < c_next (p_tx s').
Proof. exact fresh. Qed.
(* whatever happened, the server has no transaction when the request is done *)
Theorem C64_consumed : forall e q us fin fl s s' evs, serve e q us fin fl s = (s', evs) -> held (p_tx s') = [].
Proof. intros e q us fin fl s s' evs H. unfold held. rewrite (consumed _ _ _ _ _ _ _ _ H). reflexivity. Qed.
(* the routine can do what it wants with its own transactions, but it can't get rid of the one of the caller *)
Theorem C64_joined_stays : forall e dyn fix0 js s evs0, Forall user_job js -> srun e js (CallModel.start dyn fix0) = (s, evs0) -> forall q us fin fl s' evs, Forall user_input us -> serve e q us fin fl s = (s', evs) -> invoked evs ->
  takes_part q -> x_own (q_tid q) <> me -> exists t, holds (routine_end e q us fl s) t /\ x_id (t_id t) = wanted (q_semantics q) (q_tid q) (c_next (p_tx s)) /\ x_own (t_id t) = x_own (q_tid q).
Proof. exact joined_stays. Qed.

Definition two_jobs : list job := [Serve (theirs_q Atomic) [Tpcall false sent [(1, mk_reply 0 3 0 4)]] (E_return true 1 2) fine; Between 4 (mk_reply 0 0 0 0); Serve (theirs_q JoinOnly) [Tx (Suspend true); Tx Begin; Tpacall false false sent] E_none fine].
Example C64_case : Forall user_job two_jobs /\ (let s := fst (srun ok_env two_jobs fresh_s) in map (fun y => filter (fun v => match v with V_invoked _ _ => true | _ => false end) (snd (serve ok_env (theirs_q y) [] E_none fine s))) [Automatic; JoinOnly; Atomic; NoTransaction; NewBranch] =
  [[V_invoked (-5) true]; [V_invoked (-5) true]; [V_invoked 3 true]; [V_invoked 0 false]; [V_invoked 3 true]]) /\ takes_part (theirs_q NewBranch) /\ own_around (theirs_q Atomic) /\ x_own (q_tid (theirs_q NewBranch)) <> me.
Proof. split; [repeat constructor|]. split; [vm_compute; reflexivity|]. split; [split; [cbn; lia|right; right; reflexivity]|]. split; [left; reflexivity|cbn; unfold me; lia]. Qed.

(* ================================================================ C65 *)
(* a reply that lets the caller commit its transaction: the routine returned TPSUCCESS, its transaction was fine when it did and nothing was left to wait for *)
Theorem C65_may_commit : forall e dyn fix0 js s evs0, Forall user_job js -> srun e js (CallModel.start dyn fix0) = (s, evs0) -> forall q us fin fl s' evs c r, Forall user_input us -> serve e q us fin fl s = (s', evs) ->
  takes_part q -> x_own (q_tid q) <> me -> q_known q = true -> f_finalize fl = None -> In (V_reply c r) evs -> r_state r = m_ok ->
  invoked evs /\ (exists success user data, fin = E_return success user data /\ (q_conversation q = false -> success = true)) /\
  (exists t, holds (routine_end e q us fl s) t /\ x_id (t_id t) = wanted (q_semantics q) (q_tid q) (c_next (p_tx s)) /\ t_state t = active) /\
  (forall t, holds (routine_end e q us fl s) t -> t_pend t = []).
Proof. intros e dyn fix0 js s evs0 F R q us fin fl s' evs c r FU H. destruct (reach_ready _ _ _ _ _ _ F R) as (A & B). exact (ok_means e q us fin fl s s' evs c r FU A B H). Qed.
(* and if it isn't so, a caller that has got the reply can't commit *)
Theorem C65_caller_cannot_commit : forall e dyn fix0 js s evs0, Forall user_job js -> srun e js (CallModel.start dyn fix0) = (s, evs0) -> forall q us fin fl s' evs k r, Forall user_input us -> serve e q us fin fl s = (s', evs) ->
  takes_part q -> x_own (q_tid q) <> me -> q_known q = true -> q_conversation q = false -> f_finalize fl = None -> In (V_reply k r) evs -> (forall user data, fin <> E_return true user data) ->
  forall e' dyn' fix' is p h x d, xrun e' is (CallModel.start dyn' fix') = (p, h) -> x <> 0 -> Forall (not_joined_in x) is -> causal (events h) -> single (events h) -> In (Request k d x) (events h) -> In (Took k r) (events h) -> CallSpec.in_tx p = x ->
  xstep e' (Tx Commit) p = (p, O_tx (RTx tx_protocol), []).
Proof. intros e dyn fix0 js s evs0 F R q us fin fl s' evs k r FU H TP OW KN NC FF I NR e' dyn' fix' is p h x d. destruct (reach_ready _ _ _ _ _ _ F R) as (A & B). exact (up_to_the_caller e q us fin fl s s' evs k r e' dyn' fix' is p h x d FU A B H TP OW KN NC FF I NR). Qed.
(* when the routine is done someone is asked to commit only if it returned TPSUCCESS, and only transactions that the process owns and that are fine *)
Theorem C65_commits : forall e dyn fix0 js s evs0, Forall user_job js -> srun e js (CallModel.start dyn fix0) = (s, evs0) -> forall q us fin fl s' evs, Forall user_input us -> serve e q us fin fl s = (s', evs) -> q_conversation q = false ->
  (invoked evs -> exists l, seen (routine_end e q us fl s) s' l /\ forall ev x, In ev l -> some_commit x ev ->
    (exists user data, fin = E_return true user data) /\ exists t, In t (c_txs (p_tx (routine_end e q us fl s))) /\ x_own (t_id t) = me /\ t_state t = active /\ x_id (t_id t) = x) /\
  (~ invoked evs -> exists l, seen s s' l /\ forall ev x, In ev l -> ~ some_commit x ev).
Proof.
  intros e dyn fix0 js s evs0 F R q us fin fl s' evs FU H NC. destruct (reach_ready _ _ _ _ _ _ F R) as (A & B). split; [|exact (early_commits e q us fin fl s s' evs A H)].
  intros IN. destruct (end_commits e q us fin fl s s' evs FU A H IN) as (l & L & C). exists l. split; [exact L|]. intros ev x I SC. destruct (C ev x I SC) as ((su & u & d & E & SU) & T). split; [|exact T]. exists u, d. rewrite (SU NC) in E. exact E.
Qed.
(* a caller that's told success: the transactions of the server that were fine are committed, as far as tx_commit ever knows *)
Theorem C65_told_success : forall e q us fin fl s s' evs c r, serve e q us fin fl s = (s', evs) -> f_finalize fl = None -> In (V_reply c r) evs -> r_code r = 0 ->
  invoked evs /\ exists l, seen (routine_end e q us fl s) s' l /\ forall t, holds (routine_end e q us fl s) t -> t_pend t = [] /\ (x_own (t_id t) = me -> t_state t = active -> backed (p_tx (routine_end e q us fl s)) t l).
Proof. exact success_means. Qed.

Definition called : list input := [Tx Begin; Tpacall false false sent].
Example C65_case : exists r, In (V_reply 1 r) (snd (serve ok_env (mk_request 1 true Automatic (mk_tid (-5) 2) false false) [Tpacall false false sent] E_none fine fresh_s)) /\
  (let '(p, h) := xrun ok_env (called ++ [Arrive 1 r; Tpgetrply 1 false true false]) (CallModel.start [] [7]) in In (Request 1 1 1) (events h) /\ In (Took 1 r) (events h) /\ CallSpec.in_tx p = 1 /\ snd (fst (xstep ok_env (Tx Commit) p)) = O_tx (RTx tx_protocol)).
Proof. eexists. split; [vm_compute; right; left; reflexivity|]. vm_compute. tauto. Qed.
Example C65_success_case : let s := fresh_s in let q := theirs_q Atomic in exists t, holds (routine_end ok_env q [] fine s) t /\ x_own (t_id t) = me /\ t_state t = active /\
  In (V_reply 9 (mk_reply 0 1 0 2)) (snd (serve ok_env q [] (E_return true 1 2) fine s)) /\ In (TmCommit 1 [7; 8] SCommit tx_ok) (c_log (p_tx (fst (serve ok_env q [] (E_return true 1 2) fine s)))).
Proof. eexists. split; [split; [vm_compute; left; reflexivity|vm_compute; discriminate]|]. vm_compute. intuition. Qed.

(* without the assumptions it isn't so. A conversation: the routine returns TPFAIL, and its transaction is committed *)
Theorem C65_conversation_refuted :
  ~ (forall e q us fin fl s s' evs, Forall user_input us -> serve e q us fin fl s = (s', evs) -> s = fresh_s -> invoked evs -> forall l ev x, seen (routine_end e q us fl s) s' l -> In ev l -> some_commit x ev -> exists user data, fin = E_return true user data).
Proof.
  intros H. destruct (H ok_env (mk_request 9 true Atomic null_tid false true) [] (E_return false 0 0) fine fresh_s _ _ (Forall_nil _) (surjective_pairing _) eq_refl) with (l := [Xa EndSuccess 7 1 xa_ok; Xa EndSuccess 8 1 xa_ok; TmCommit 1 [7; 8] SCommit tx_ok]) (ev := TmCommit 1 [7; 8] SCommit tx_ok) (x := 1) as (u & d & D).
  - exists 1, true. vm_compute. auto.
  - vm_compute. reflexivity.
  - right; right; left; reflexivity.
  - right; eauto.
  - discriminate D.
Qed.
(* the transaction manager can't be reached when the routine is done: the caller is told success, and nothing was committed *)
Definition no_tm (n : nat) : faults := mk_faults false false (Some n) false false false.
Theorem C65_unreachable_refuted :
  ~ (forall e q us fin fl s s' evs c r, serve e q us fin fl s = (s', evs) -> s = fresh_s -> In (V_reply c r) evs -> r_code r = 0 ->
     exists l, seen (routine_end e q us fl s) s' l /\ forall t, holds (routine_end e q us fl s) t -> x_own (t_id t) = me -> t_state t = active -> backed (p_tx (routine_end e q us fl s)) t l).
Proof.
  intros H. destruct (H ok_env (theirs_q Atomic) [] (E_return true 1 2) (no_tm 2) fresh_s _ _ 9 (mk_reply 0 1 0 2) (surjective_pairing _) eq_refl) as (l & L & B); [vm_compute; tauto|reflexivity|].
  unfold seen in L. assert (E : l = [Xa EndSuccess 7 1 xa_ok; Xa EndSuccess 8 1 xa_ok]) by (vm_compute in L; injection L; auto). subst l. clear L.
  assert (HT : holds (routine_end ok_env (theirs_q Atomic) [] (no_tm 2) fresh_s) (mk_txn (mk_tid 1 me) 0 [7; 8] [] [] false false)) by (split; [vm_compute; left; reflexivity|cbn; lia]).
  specialize (B _ HT eq_refl eq_refl). clear HT. unfold backed in B. cbn [t_inv t_ext t_id x_id In] in B.
  destruct B as [(B & _) | [(r & k & B & _) | [B | [(k & B & _) | (B & _)]]]]; try discriminate B; intuition discriminate.
Qed.
(* nor is the transaction of the caller doomed if that happens after an exception *)
Theorem C65_unreachable_state_refuted :
  ~ (forall e q us fin fl s s' evs c r, Forall user_input us -> serve e q us fin fl s = (s', evs) -> s = fresh_s -> takes_part q -> x_own (q_tid q) <> me -> q_known q = true -> In (V_reply c r) evs -> r_state r = m_ok -> exists user data, fin = E_return true user data).
Proof.
  intros H. destruct (H ok_env (theirs_q Automatic) [Tx (Suspend true); Tx Begin] E_none (no_tm 0) fresh_s _ _ 9 (mk_reply TPESVCERR 0 0 0) ltac:(repeat constructor) (surjective_pairing _) eq_refl) as (u & d & D).
  - split; [cbn; lia|left; reflexivity].
  - cbn. unfold me. lia.
  - reflexivity.
  - vm_compute. tauto.
  - reflexivity.
  - discriminate D.
Qed.
(* a service that doesn't exist: the caller gets an error, but may commit *)
Theorem C65_unknown_refuted :
  ~ (forall e q us fin fl s s' evs c r, serve e q us fin fl s = (s', evs) -> s = fresh_s -> fl = fine -> takes_part q -> In (V_reply c r) evs -> r_code r <> 0 -> r_state r <> m_ok).
Proof.
  intros H. apply (H ok_env (mk_request 9 false Automatic (mk_tid (-5) 2) false false) [] E_none fine fresh_s _ _ 9 (mk_reply TPESVCERR 0 0 0) (surjective_pairing _) eq_refl eq_refl).
  - split; [cbn; lia|left; reflexivity].
  - vm_compute. tauto.
  - cbn. discriminate.
  - reflexivity.
Qed.
(* the transaction of the server must be rolled back, and is: the caller is told success *)
Definition goes_bad : list input := [Tpcall false sent [(1, mk_reply 0 0 1 4)]].
Theorem C65_rolled_back_refuted :
  ~ (forall e q us fin fl s s' evs c r, Forall user_input us -> serve e q us fin fl s = (s', evs) -> s = fresh_s -> fl = fine -> own_around q -> In (V_reply c r) evs -> r_code r = 0 ->
     forall ev x, In ev (c_log (p_tx s')) -> x <> 0 -> ~ some_rollback x ev).
Proof.
  intros H. apply (H ok_env (theirs_q Atomic) goes_bad (E_return true 1 2) fine fresh_s _ _ 9 (mk_reply 0 1 0 2) ltac:(repeat constructor) (surjective_pairing _) eq_refl eq_refl (or_introl eq_refl)) with (ev := TmRollback 1 [7; 8] tx_ok) (x := 1).
  - vm_compute. tauto.
  - reflexivity.
  - vm_compute. tauto.
  - lia.
  - right. eauto.
Qed.
(* the transaction of the caller must be rolled back, the routine forwards the request: nobody is told *)
Theorem C65_forward_refuted :
  ~ (forall e q us fin fl s s' evs, Forall user_input us -> serve e q us fin fl s = (s', evs) -> s = fresh_s -> fl = fine -> takes_part q -> x_own (q_tid q) <> me -> q_known q = true -> q_noreply q = false -> invoked evs ->
     forall t, holds (routine_end e q us fl s) t -> x_id (t_id t) = x_id (q_tid q) -> active < t_state t -> exists c r, In (V_reply c r) evs /\ r_state r <> m_ok).
Proof.
  intros H. destruct (H ok_env (theirs_q Automatic) goes_bad (E_forward 4 sent) fine fresh_s _ _ ltac:(repeat constructor) (surjective_pairing _) eq_refl eq_refl) with (t := mk_txn (mk_tid (-5) 2) 1 [7; 8] [] [] true false) as (c & r & I & _).
  - split; [cbn; lia|left; reflexivity].
  - cbn. unfold me. lia.
  - reflexivity.
  - reflexivity.
  - exists (-5), true. vm_compute. auto.
  - split; [vm_compute; left; reflexivity|cbn; lia].
  - reflexivity.
  - reflexivity.
  - vm_compute in I. intuition discriminate.
Qed.
Print Assumptions C63_one_acknowledge.
Print Assumptions C63_one_answer.
Print Assumptions C63_at_most_one.
Print Assumptions C63_content.
Print Assumptions C64_invoked_in.
Print Assumptions C64_fresh.
Print Assumptions C64_consumed.
Print Assumptions C64_joined_stays.
Print Assumptions C65_may_commit.
Print Assumptions C65_caller_cannot_commit.
Print Assumptions C65_commits.
Print Assumptions C65_told_success.
Print Assumptions C65_conversation_refuted.
Print Assumptions C65_unreachable_refuted.
Print Assumptions C65_unreachable_state_refuted.
Print Assumptions C65_unknown_refuted.
Print Assumptions C65_rolled_back_refuted.
Print Assumptions C65_forward_refuted.

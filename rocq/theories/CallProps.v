(* C59 - C62: asynchronous and synchronous calls of a process. *)
From Coq Require Import ZArith List Bool Lia.
From Verif Require Import CodesModel CtxModel CtxSpec CallModel CallSpec CallProofs CallMore CallMain CallEnd CallTied CallTx CallXa.
Import ListNotations.
Local Open Scope Z_scope.

(* ================================================================ C59 *)
(* calls that are outstanding have different descriptors, and different requests *)
Theorem C59_descriptors_distinct : forall e dyn fix0 is s h, xrun e is (CallModel.start dyn fix0) = (s, h) ->
  NoDup (map fst (outstanding h)) /\ forall d d' c, In (d, c) (outstanding h) -> In (d', c) (outstanding h) -> d = d'.
Proof. exact descriptors. Qed.
(* tpacall gives a descriptor that isn't outstanding, 0 with TPNOREPLY, and has sent one request, with a correlation never used before *)
Theorem C59_tpacall_fresh : forall e dyn fix0 is s h, xrun e is (CallModel.start dyn fix0) = (s, h) ->
  forall notran noreply l s' d ev, xstep e (Tpacall notran noreply l) s = (s', O_descriptor d, ev) ->
  (exists c x, ev = [Lookup c; Request c d x] /\ forall d' x', ~ In (Request c d' x') (events h)) /\
  if noreply then d = 0 else 0 < d /\ ~ In d (map fst (outstanding h)).
Proof. exact tpacall_fresh. Qed.
(* tpgetrply gives the reply of the request the descriptor stands for, as it arrived *)
Theorem C59_reply_matches : forall e dyn fix0 is s h, xrun e is (CallModel.start dyn fix0) = (s, h) ->
  forall d any noblock sig s' out ev d' r, xstep e (Tpgetrply d any noblock sig) s = (s', out, ev) -> (out = O_reply d' r \/ out = O_fail d' r) ->
  exists c, ev = [Took c r] /\ In (d', c) (outstanding h) /\ In (Arrived c r) (events h) /\ (any = false -> d' = d) /\ told d' r out.
Proof. exact getrply_matches. Qed.
(* a request whose reply has been taken isn't outstanding: no second reply *)
Theorem C59_at_most_one_reply : forall e dyn fix0 is s h d c, xrun e is (CallModel.start dyn fix0) = (s, h) -> causal (events h) ->
  In (d, c) (outstanding h) -> taken c (events h) = [].
Proof. exact reach_untaken. Qed.
(* a descriptor that isn't outstanding is refused, and nothing happens *)
Theorem C59_bad_descriptor : forall e dyn fix0 is s h, xrun e is (CallModel.start dyn fix0) = (s, h) ->
  forall d, ~ In d (map fst (outstanding h)) ->
  (forall noblock sig, xstep e (Tpgetrply d false noblock sig) s = (s, O_error TPEBADDESC, [])) /\ xstep e (Tpcancel d) s = (s, O_error TPEBADDESC, []).
Proof. intros e dyn fix0 is s h R d N. split; [intros; exact (getrply_bad e dyn fix0 is s h R d _ _ N)|exact (cancel_bad e dyn fix0 is s h R d N)]. Qed.
(* a reply that has arrived is given to the one who asks for it *)
Theorem C59_waiting_delivered : forall e dyn fix0 is s h, xrun e is (CallModel.start dyn fix0) = (s, h) ->
  forall d c r rest noblock sig s' out ev, In (d, c) (outstanding h) -> ~ In (Discarded c) (events h) -> arrived c (events h) = taken c (events h) ++ r :: rest ->
  xstep e (Tpgetrply d false noblock sig) s = (s', out, ev) -> told d r out /\ ev = [Took c r].
Proof. exact getrply_waiting. Qed.
(* and otherwise it's TPEBLOCK, TPGOTSIG, or a wait, and nothing happens *)
Theorem C59_not_yet : forall e dyn fix0 is s h, xrun e is (CallModel.start dyn fix0) = (s, h) ->
  forall d c noblock sig s' out ev, In (d, c) (outstanding h) -> ~ In (Discarded c) (events h) -> arrived c (events h) = taken c (events h) ->
  xstep e (Tpgetrply d false noblock sig) s = (s', out, ev) -> s' = s /\ no_reply_yet noblock sig out /\ ev = [].
Proof. exact getrply_none. Qed.
(* TPGETANY, if no request is answered twice: any reply that waits, of an outstanding call; if none waits nothing happens *)
Theorem C59_any : forall e dyn fix0 is s h, xrun e is (CallModel.start dyn fix0) = (s, h) ->
  forall d noblock sig s' out ev, single (events h) -> causal (events h) -> xstep e (Tpgetrply d true noblock sig) s = (s', out, ev) ->
  (exists d' c r, In (d', c) (outstanding h) /\ waiting c r (events h) /\ told d' r out /\ ev = [Took c r]) \/
  ((forall c r, ~ waiting c r (events h)) /\ s' = s /\ no_reply_yet noblock sig out /\ ev = []).
Proof. exact getany. Qed.
(* tpcall gives the reply to the request it has sent itself *)
Theorem C59_tpcall_reply : forall e dyn fix0 is s h, xrun e is (CallModel.start dyn fix0) = (s, h) ->
  forall notran l arr s' out ev d r, xstep e (Tpcall notran l arr) s = (s', out, ev) -> (out = O_reply d r \/ out = O_fail d r) ->
  exists c x, ev = Lookup c :: Request c d x :: map (fun x => Arrived (fst x) (snd x)) arr ++ [Took c r] /\ forall d' x', ~ In (Request c d' x') (events h).
Proof. exact tpcall_reply. Qed.

(* resource managers and a transaction manager that never fail *)
Definition ok_env : env := mk_env (fun _ => xa_ok) (fun _ => []) (fun _ => (SCommit, tx_ok)) (fun _ => tx_ok).
Definition ok_reply (n : Z) : reply := mk_reply 0 n 0 n.
Definition bad (k : Z) : reply := mk_reply k 0 0 0.
Definition sent : lookup := L_idle None.
Definition go (is : list input) : proc * list entry := xrun ok_env is (CallModel.start [] [7]).

Lemma causal_check l : forallb (fun n => match nth n l (Lookup 0) with Arrived c _ => existsb (fun v => match v with Request c' d _ => (c' =? c) && negb (d =? 0) | _ => false end) (firstn n l) | _ => true end) (seq 0 (length l)) = true -> causal l.
Proof.
  intros H a c r b E. rewrite forallb_forall in H. specialize (H (length a)). rewrite E in H. rewrite app_nth2, Nat.sub_diag in H by lia. cbn [nth] in H. rewrite firstn_app, firstn_all, Nat.sub_diag in H. cbn [firstn] in H. rewrite app_nil_r in H.
  assert (L : In (length a) (seq 0 (length (a ++ Arrived c r :: b)))) by (apply in_seq; rewrite app_length; cbn; lia). specialize (H L). apply existsb_exists in H. destruct H as (v & I & J). destruct v; try discriminate. apply andb_prop in J. destruct J as (J1 & J2). apply Z.eqb_eq in J1. subst. apply negb_true_iff, Z.eqb_neq in J2. eauto.
Qed.
Lemma single_check l : forallb (fun v => match v with Arrived c _ => Nat.leb (length (arrived c l)) 1 | _ => true end) l = true -> single l.
Proof.
  intros H c. rewrite forallb_forall in H. destruct (arrived c l) as [|r q] eqn:E; [cbn; lia|]. assert (I : In r (arrived c l)) by (rewrite E; left; reflexivity). apply arrived_in in I. specialize (H _ I). cbn in H. rewrite E in H. apply Nat.leb_le in H. exact H.
Qed.

(* two calls, the second is answered first *)
Definition two : list input := [Tpacall true false sent; Tpacall true false sent; Arrive 2 (ok_reply 22); Arrive 1 (bad TPESVCFAIL)].
Example C59_case : outstanding (snd (go two)) = [(1, 1); (2, 2)] /\ single (events (snd (go two))) /\ causal (events (snd (go two))) /\
  snd (fst (xstep ok_env (Tpgetrply 1 false true false) (fst (go two)))) = O_fail 1 (bad TPESVCFAIL) /\
  snd (fst (xstep ok_env (Tpgetrply 0 true true false) (fst (go two)))) = O_reply 2 (ok_reply 22) /\
  snd (fst (xstep ok_env (Tpgetrply 3 false true false) (fst (go two)))) = O_error TPEBADDESC /\
  snd (fst (xstep ok_env (Tpcall true sent [(3, ok_reply 33)]) (fst (go two)))) = O_reply 3 (ok_reply 33).
Proof. split; [reflexivity|]. split; [apply single_check; reflexivity|]. split; [apply causal_check; reflexivity|]. vm_compute. auto. Qed.

(* a request that is answered twice - the service manager answers TPETIME, and the service later on - makes a later TPGETANY fail, although the reply of an
   outstanding call waits *)
Definition late : list input :=
  [Tpacall true false sent; Arrive 1 (bad TPETIME); Tpgetrply 1 false true false; Arrive 1 (ok_reply 11); Tpacall true false sent; Arrive 2 (ok_reply 22)].
Theorem C59_any_late_refuted :
  ~ (forall e dyn fix0 is s h, xrun e is (CallModel.start dyn fix0) = (s, h) ->
     forall d noblock sig s' out ev, causal (events h) -> (exists d' c r, In (d', c) (outstanding h) /\ waiting c r (events h)) -> xstep e (Tpgetrply d true noblock sig) s = (s', out, ev) ->
     exists d' c r, In (d', c) (outstanding h) /\ waiting c r (events h) /\ told d' r out).
Proof.
  intros H. assert (C : causal (events (snd (go late)))) by (apply causal_check; reflexivity).
  assert (W : waiting 2 (ok_reply 22) (events (snd (go late)))) by (split; [cbn; tauto|]; split; [reflexivity|]; cbn; intuition discriminate).
  destruct (H ok_env [] [7] late _ _ eq_refl 0 true false _ _ _ C (ex_intro _ 1 (ex_intro _ 2 (ex_intro _ _ (conj (or_introl eq_refl) W)))) eq_refl) as (d' & c & r & J & (A & _) & T).
  vm_compute in J. destruct J as [J | []]. injection J as <- <-. vm_compute in A.
  assert (E : r = ok_reply 22). { repeat (destruct A as [A | A]; [try discriminate A; injection A as <-; reflexivity|]). destruct A. }
  subst r. discriminate T.
Qed.
(* an error from TPGETANY doesn't tell which of the calls it is about: what the caller sees is the same, what's outstanding isn't *)
Definition seen (h : list entry) : list (input * output) := flat_map (fun n => match fst (fst n) with Arrive _ _ => [] | _ => [fst n] end) h.
Definition first_fails : list input := [Tpacall true false sent; Tpacall true false sent; Arrive 1 (bad TPESVCERR); Tpgetrply 0 true true false].
Definition second_fails : list input := [Tpacall true false sent; Tpacall true false sent; Arrive 2 (bad TPESVCERR); Tpgetrply 0 true true false].
Theorem C59_any_which_refuted :
  ~ (forall e dyn fix0 is1 s1 h1 is2 s2 h2, xrun e is1 (CallModel.start dyn fix0) = (s1, h1) -> xrun e is2 (CallModel.start dyn fix0) = (s2, h2) ->
     single (events h1) -> single (events h2) -> causal (events h1) -> causal (events h2) -> seen h1 = seen h2 -> map fst (outstanding h1) = map fst (outstanding h2)).
Proof.
  intros H. specialize (H ok_env [] [7] first_fails _ _ second_fails _ _ eq_refl eq_refl). discriminate H; [apply single_check|apply single_check|apply causal_check|apply causal_check|]; reflexivity.
Qed.

(* ================================================================ C60 *)
(* a call that is cancelled is never answered *)
Theorem C60_cancelled_silent : forall e dyn fix0 is s h, xrun e is (CallModel.start dyn fix0) = (s, h) ->
  forall d c s1 ev is2 s2 h2, In (d, c) (outstanding h) -> xstep e (Tpcancel d) s = (s1, O_done, ev) -> xrun e is2 s1 = (s2, h2) ->
  single (events h ++ ev ++ events h2) -> forall r, ~ In (Took c r) (events h2).
Proof. exact cancelled_silent. Qed.
(* a call can be cancelled unless it's part of a transaction that may still be committed *)
Theorem C60_cancel_result : forall e dyn fix0 is s h, xrun e is (CallModel.start dyn fix0) = (s, h) -> forall d c, In (d, c) (outstanding h) ->
  ((exists t, In t (c_txs (p_tx s)) /\ t_state t = active /\ In c (t_pend t)) -> xstep e (Tpcancel d) s = (s, O_error TPETRAN, [])) /\
  ((forall t, In t (c_txs (p_tx s)) -> t_state t = active -> ~ In c (t_pend t)) -> exists s', xstep e (Tpcancel d) s = (s', O_done, [Discarded c])).
Proof. exact cancel_result. Qed.
(* a failed tpacall leaves no descriptor *)
Theorem C60_failed_call : forall e dyn fix0 is s h, xrun e is (CallModel.start dyn fix0) = (s, h) ->
  forall notran noreply l s' k ev, xstep e (Tpacall notran noreply l) s = (s', O_error k, ev) -> outstanding (h ++ [(Tpacall notran noreply l, O_error k, ev)]) = outstanding h.
Proof. intros e dyn fix0 is s h _. exact (acall_failed e s h). Qed.
(* neither does tpcall, unless it is interrupted by a signal *)
Theorem C60_tpcall_clean : forall e dyn fix0 is s h, xrun e is (CallModel.start dyn fix0) = (s, h) ->
  forall notran l arr s' out ev, xstep e (Tpcall notran l arr) s = (s', out, ev) -> out <> O_error TPGOTSIG -> outstanding (h ++ [(Tpcall notran l arr, out, ev)]) = outstanding h.
Proof. exact tpcall_clean. Qed.

Definition in_tx_two : list input := [Tx Begin; Tpacall false false sent; Tpacall true false sent].
Example C60_case : outstanding (snd (go in_tx_two)) = [(1, 1); (2, 2)] /\
  snd (fst (xstep ok_env (Tpcancel 1) (fst (go in_tx_two)))) = O_error TPETRAN /\ snd (fst (xstep ok_env (Tpcancel 2) (fst (go in_tx_two)))) = O_done /\
  snd (fst (xstep ok_env (Tpacall true false (L_idle (Some TPESYSTEM))) (fst (go in_tx_two)))) = O_error TPESYSTEM /\
  snd (fst (xstep ok_env (Tpcall false sent [(3, bad TPESVCERR)]) (fst (go in_tx_two)))) = O_error TPESVCERR.
Proof. vm_compute. auto. Qed.

(* a tpcall that is interrupted leaves its call outstanding; the caller doesn't know the descriptor *)
Theorem C60_interrupted_refuted :
  ~ (forall e dyn fix0 is s h, xrun e is (CallModel.start dyn fix0) = (s, h) ->
     forall notran l arr s' out ev, xstep e (Tpcall notran l arr) s = (s', out, ev) -> outstanding (h ++ [(Tpcall notran l arr, out, ev)]) = outstanding h).
Proof. intros H. specialize (H ok_env [] [7] [] _ _ eq_refl true sent [] _ _ _ eq_refl). vm_compute in H. discriminate. Qed.
(* and a failed tpacall in a transaction may make it impossible to commit: the call stays associated with it *)
Theorem C60_failed_call_commit_refuted :
  ~ (forall e dyn fix0 is s h, xrun e is (CallModel.start dyn fix0) = (s, h) ->
     forall notran l s1 k ev, snd (fst (xstep e (Tx Commit) s)) = O_tx (RTx tx_ok) -> xstep e (Tpacall notran false l) s = (s1, O_error k, ev) -> snd (fst (xstep e (Tx Commit) s1)) = O_tx (RTx tx_ok)).
Proof. intros H. specialize (H ok_env [] [7] [Tx Begin] _ _ eq_refl false (L_idle (Some TPESYSTEM)) _ _ _ eq_refl eq_refl). vm_compute in H. discriminate. Qed.

(* ================================================================ C61 *)
(* if nothing is outstanding at some point - the end of a service invocation - what the process is given after that are replies to requests it has made after that *)
Theorem C61_isolated_partial : forall e dyn fix0 is1 s1 h1 is2 s2 h2 i s3 out ev d r,
  xrun e is1 (CallModel.start dyn fix0) = (s1, h1) -> outstanding h1 = [] -> xrun e is2 s1 = (s2, h2) -> xstep e i s2 = (s3, out, ev) -> (out = O_reply d r \/ out = O_fail d r) ->
  exists c x, In (Took c r) ev /\ In (Request c d x) (events h2 ++ ev).
Proof. exact isolated. Qed.
Definition one_service : list input := [Tx (Join (mk_tid (-5) 2)); Tpacall true false sent; Arrive 1 (ok_reply 1); Tpgetrply 1 false true false; Tx (Finalize true)].
Definition next_service : list input := [Tx (Join (mk_tid (-6) 2)); Tpacall true false sent; Arrive 2 (ok_reply 2)].
Example C61_case : outstanding (snd (go one_service)) = [] /\ snd (fst (xstep ok_env (Tpgetrply 0 true true false) (fst (go (one_service ++ next_service))))) = O_reply 1 (ok_reply 2).
Proof. vm_compute. auto. Qed.
(* a call that a service has left behind: its reply is given to the next invocation *)
Definition leaves_one : list input := [Tx (Join (mk_tid (-5) 2)); Tpacall true false sent; Tx (Finalize true)].
Theorem C61_left_behind_refuted :
  ~ (forall e dyn fix0 is1 s1 h1 is2 s2 h2 i s3 out ev d r,
     xrun e (is1 ++ [Tx (Finalize true)]) (CallModel.start dyn fix0) = (s1, h1) -> xrun e is2 s1 = (s2, h2) -> xstep e i s2 = (s3, out, ev) -> (out = O_reply d r \/ out = O_fail d r) ->
     single (events (h1 ++ h2)) -> causal (events (h1 ++ h2)) -> exists c x, In (Took c r) ev /\ In (Request c d x) (events h2 ++ ev)).
Proof.
  intros H. destruct (H ok_env [] [7] (removelast leaves_one) _ _ [Tx (Join (mk_tid (-6) 2)); Arrive 1 (ok_reply 1)] _ _ (Tpgetrply 0 true true false) _ _ _ 1 (ok_reply 1) eq_refl eq_refl eq_refl (or_introl eq_refl)) as (c & x & T & Q).
  - apply single_check. reflexivity.
  - apply causal_check. reflexivity.
  - vm_compute in Q. intuition discriminate.
Qed.
(* and one that was part of a transaction keeps its descriptor, although its reply is thrown away: to wait for it is to wait for ever *)
Theorem C61_discarded_refuted :
  ~ (forall e dyn fix0 is s h, xrun e is (CallModel.start dyn fix0) = (s, h) ->
     forall d c r rest s' out ev, In (d, c) (outstanding h) -> single (events h) -> causal (events h) -> arrived c (events h) = taken c (events h) ++ r :: rest ->
     xstep e (Tpgetrply d false false false) s = (s', out, ev) -> out <> O_waits).
Proof.
  intros H. refine (H ok_env [] [7] [Tx (Join (mk_tid (-5) 2)); Tpacall false false sent; Tx (Finalize true); Arrive 1 (ok_reply 1)] _ _ eq_refl 1 1 (ok_reply 1) [] _ _ _ (or_introl eq_refl) _ _ eq_refl eq_refl eq_refl).
  - apply single_check. reflexivity.
  - apply causal_check. reflexivity.
Qed.

(* ================================================================ C62 *)
(* a process that isn't invoked in x can't commit x as long as there's a call in x that it has no reply to *)
Theorem C62_pending_call : forall e dyn fix0 is s h x c d, xrun e is (CallModel.start dyn fix0) = (s, h) -> x <> 0 -> Forall (not_joined_in x) is -> causal (events h) ->
  In (Request c d x) (events h) -> taken c (events h) = [] -> CallSpec.in_tx s = x -> xstep e (Tx Commit) s = (s, O_tx (RTx tx_protocol), []).
Proof. exact pending_refuses. Qed.
(* nor if the reply says that something is wrong with the transaction *)
Theorem C62_bad_reply : forall e dyn fix0 is s h x c d r, xrun e is (CallModel.start dyn fix0) = (s, h) -> x <> 0 -> Forall (not_joined_in x) is -> causal (events h) -> single (events h) ->
  In (Request c d x) (events h) -> In (Took c r) (events h) -> 0 < r_state r -> CallSpec.in_tx s = x -> xstep e (Tx Commit) s = (s, O_tx (RTx tx_protocol), []).
Proof. exact bad_reply. Qed.

Definition tx_calls : list input := [Tx Begin; Tpacall false false sent; Tx (Suspend true); Tx Begin; Tpcall false sent []; Tx Rollback; Tx (Resume (Some 1))].
Example C62_case : In (Request 1 1 1) (events (snd (go tx_calls))) /\ taken 1 (events (snd (go tx_calls))) = [] /\ CallSpec.in_tx (fst (go tx_calls)) = 1 /\ causal (events (snd (go tx_calls))) /\ Forall (not_joined_in 1) tx_calls /\
  (* with the reply it can *)
  snd (fst (xstep ok_env (Tx Commit) (fst (go (tx_calls ++ [Arrive 1 (ok_reply 1); Tpgetrply 1 false true false]))))) = O_tx (RTx tx_ok) /\
  (* but not with a bad one *)
  snd (fst (xstep ok_env (Tx Commit) (fst (go (tx_calls ++ [Arrive 1 (mk_reply 0 0 1 0); Tpgetrply 1 false true false]))))) = O_tx (RTx tx_protocol).
Proof.
  split; [vm_compute; tauto|]. split; [reflexivity|]. split; [reflexivity|]. split; [apply causal_check; reflexivity|]. split; [repeat constructor|]. vm_compute. auto.
Qed.

(* ================================================================ C43, with calls *)
(* what the resources see is legal also with synchronous calls, and after them they are associated with the transaction of the caller again *)
Theorem C43_legal_xa_calls : forall e fixed m is s h, rms_agree e -> NoDup fixed -> let s0 := w_tx (w_ctl m (init [] fixed)) (CallModel.start [] fixed) in inputs_in_order e is s0 -> xrun e is s0 = (s, h) ->
  forall r x, let c := p_tx s in let a := assoc_of r x (c_log c) in
  a <> Illegal /\ (a = Associated -> x = CtxSpec.in_tx c /\ x <> 0) /\ (a = AssociationSuspended -> In x (held c) /\ x <> 0 /\ x <> CtxSpec.in_tx c) /\ (In r fixed -> x <> 0 -> In x (held c) -> a = if x =? CtxSpec.in_tx c then Associated else AssociationSuspended).
Proof. exact call_legal. Qed.
(* a synchronous call in a transaction: first (a) until no resource is associated with anything, and last (b) the association is resumed; in between another process
   works in the transaction *)
Theorem C43_suspended_during_call : forall e fixed m is s h, rms_agree e -> NoDup fixed -> let s0 := w_tx (w_ctl m (init [] fixed)) (CallModel.start [] fixed) in inputs_in_order e is s0 -> xrun e is s0 = (s, h) ->
  forall l arr s' o ev, CtxSpec.in_tx (p_tx s) <> 0 -> xstep e (Tpcall false l arr) s = (s', o, ev) ->
  exists a b, c_log (p_tx s') = c_log (p_tx s) ++ a ++ b /\ (forall r x, assoc_of r x (c_log (p_tx s) ++ a) <> Associated) /\
  Forall (fun v => (exists r k, v = CtxModel.Xa EndSuspend r (CtxSpec.in_tx (p_tx s)) k) \/ exists l, v = TmTold (CtxSpec.in_tx (p_tx s)) l) a /\ Forall (fun v => exists r k, v = CtxModel.Xa StartResume r (CtxSpec.in_tx (p_tx s)) k) b.
Proof. exact tpcall_suspends. Qed.
Definition xa_calls : list input := [Tx Begin; Tpcall false sent []; Tpacall false false sent; Tx Rollback; Tx Begin; Tpcall false sent []; Tx (Suspend true); Tx Begin; Tpcall false sent []].
Example C43_calls_case : rms_agree ok_env /\ inputs_in_order ok_env xa_calls (w_tx (w_ctl Unchained (init [] [7; 8])) (CallModel.start [] [7; 8])) /\
  let s := fst (xrun ok_env xa_calls (w_tx (w_ctl Unchained (init [] [7; 8])) (CallModel.start [] [7; 8]))) in
  CtxSpec.in_tx (p_tx s) = 3 /\ assoc_of 7 3 (c_log (p_tx s)) = Associated /\ assoc_of 8 2 (c_log (p_tx s)) = AssociationSuspended /\ In 2 (held (p_tx s)).
Proof. split; [intros r; left; reflexivity|]. split; [vm_compute; tauto|]. vm_compute. auto. Qed.

Print Assumptions C59_descriptors_distinct.
Print Assumptions C59_tpacall_fresh.
Print Assumptions C59_reply_matches.
Print Assumptions C59_at_most_one_reply.
Print Assumptions C59_bad_descriptor.
Print Assumptions C59_waiting_delivered.
Print Assumptions C59_not_yet.
Print Assumptions C59_any.
Print Assumptions C59_tpcall_reply.
Print Assumptions C59_any_late_refuted.
Print Assumptions C59_any_which_refuted.
Print Assumptions C60_cancelled_silent.
Print Assumptions C60_cancel_result.
Print Assumptions C60_failed_call.
Print Assumptions C60_tpcall_clean.
Print Assumptions C60_interrupted_refuted.
Print Assumptions C60_failed_call_commit_refuted.
Print Assumptions C61_isolated_partial.
Print Assumptions C61_left_behind_refuted.
Print Assumptions C61_discarded_refuted.
Print Assumptions C62_pending_call.
Print Assumptions C62_bad_reply.
Print Assumptions C43_legal_xa_calls.
Print Assumptions C43_suspended_during_call.

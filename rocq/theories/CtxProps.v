(* The properties of the transaction context: C21 (the client's half), C22, C23, C24, C43, C44 *)
From Coq Require Import ZArith List Bool Lia.
From Verif Require Import CodesModel CtxModel CtxSpec CtxProofs CtxHeld CtxXa CtxMore.
Import ListNotations.
Local Open Scope Z_scope.

(* ------------------------------------------------------------------ C22 *)

(* commit is refused, and nothing happens, unless the current transaction is owned, active and without pending replies *)
Theorem C22_commit_refused : forall e d f c, reach e d f c -> (forall t, ~ committable c t) -> step e Commit c = (c, RTx tx_protocol).
Proof.
  intros e d f c R N. cbn. unfold tx_result. rewrite commit_refused; [reflexivity|]. destruct (may_commit (current c)) eqn:M; [|reflexivity].
  destruct (N (current c)). apply (committable_current c _ (reach_empty _ _ _ _ R)). auto.
Qed.
Theorem C22_rollback_refused : forall e d f c, reach e d f c -> (forall t, ~ rollbackable c t) -> step e Rollback c = (c, RTx tx_protocol).
Proof.
  intros e d f c R N. cbn. unfold tx_result. rewrite rollback_refused; [reflexivity|]. destruct (may_rollback (current c)) eqn:M; [|reflexivity].
  destruct (N (current c)). apply (rollbackable_current c _ (reach_empty _ _ _ _ R)). auto.
Qed.
(* otherwise exactly that transaction is asked to be committed (rolled back), by every resource it involves if they agree *)
Theorem C22_commit_commits : forall e d f c t c' r, reach e d f c -> committable c t -> step e Commit c = (c', r) ->
  exists evs, since c c' evs /\ (forall x ev, In ev evs -> ~ some_rollback x ev) /\ (forall x ev, In ev evs -> some_commit x ev -> x = x_id (t_id t)) /\
    (rms_agree e -> forall rm, In rm (t_inv t) -> exists ev, In ev evs /\ commits (x_id (t_id t)) rm ev).
Proof. exact commit_effect. Qed.
Theorem C22_rollback_rolls_back : forall e d f c t c' r, reach e d f c -> rollbackable c t -> step e Rollback c = (c', r) ->
  exists evs, since c c' evs /\ (forall x ev, In ev evs -> ~ some_commit x ev) /\ (forall x ev, In ev evs -> some_rollback x ev -> x = x_id (t_id t)) /\
    (rms_agree e -> forall rm, In rm (t_inv t) -> exists ev, In ev evs /\ rolls_back (x_id (t_id t)) rm ev).
Proof. exact rollback_effect. Qed.
(* no transaction is lost: how the transactions of the process change, with every call *)
Theorem C22_none_lost : forall e d f c i, reach e d f c -> accounted i c (fst (step e i c)).
Proof. intros e d f c i R. apply step_accounted. exact (reach_empty _ _ _ _ R). Qed.
(* a call that is refused without that a resource manager was involved changes nothing *)
Theorem C22_refused_unchanged : forall e d f c i c' k, reach e d f c -> (i = Begin \/ (exists g, i = Suspend g) \/ exists x, i = Resume x) ->
  step e i c = (c', RTx k) -> k <> tx_ok -> c_log c' = c_log c -> c' = c.
Proof. intros e d f c i c' k R. apply refused_unchanged. exact (reach_empty _ _ _ _ R). Qed.
(* suspend takes the process out of the transaction, which is then suspended *)
Theorem C22_suspend : forall e d f c g c', reach e d f c -> step e (Suspend g) c = (c', RTx tx_ok) -> in_tx c <> 0 /\ in_tx c' = 0 /\ held c' = held c /\ exists l t, c_txs c' = l ++ [t] /\ x_id (t_id t) = in_tx c /\ t_susp t = true.
Proof.
  intros e d f c g c' R H. cbn in H. unfold tx_result in H. destruct (suspend e g c) as [c1 k] eqn:S. injection H as -> ->. apply (suspend_ok e g c c' (reach_empty _ _ _ _ R)) in S.
  destruct S as (_&N&O&l&t&evs&E&X&_&->). split; [exact N|]. split; [exact O|]. split; [unfold held; cbn; rewrite E, !map_app; reflexivity|]. exists l, (w_susp true t). auto.
Qed.
(* resume succeeds only for a suspended transaction, outside any other, and the process is then in it *)
Theorem C22_resume : forall e d f c g c', reach e d f c -> step e (Resume g) c = (c', RTx tx_ok) -> exists x, g = Some x /\ in_tx c = 0 /\ suspended c x /\ in_tx c' = x.
Proof.
  intros e d f c g c' R H. cbn in H. unfold tx_result in H. destruct (resume e g c) as [c1 k] eqn:S. injection H as -> ->. apply (resume_ok e g c c' (reach_empty _ _ _ _ R)) in S.
  destruct S as (x&G&Z0&SU&IT&_). exists x. auto.
Qed.
(* and cannot be repeated: in the transaction, every resume is refused *)
Theorem C22_resume_once : forall e d f c x y c', reach e d f c -> step e (Resume (Some x)) c = (c', RTx tx_ok) -> y <> 0 -> x <> 0 -> step e (Resume (Some y)) c' = (c', RTx tx_protocol).
Proof.
  intros e d f c x y c' R H NY NX. pose proof (reach_step e d f c (Resume (Some x)) R) as R'. rewrite H in R'. cbn [fst] in R'. destruct (C22_resume e d f c _ c' R H) as (x'&[= <-]&_&_&IT).
  change (step e (Resume (Some y)) c') with (tx_result (resume e (Some y) c')). rewrite (resume_current e c' y (reach_empty _ _ _ _ R')); [reflexivity|congruence|exact NY].
Qed.
(* it can be resumed, if the resources agree *)
Theorem C22_can_resume : forall e d f c x, reach e d f c -> x <> 0 -> suspended c x -> in_tx c = 0 -> t_dyn (current c) = [] -> rms_agree e -> snd (step e (Resume (Some x)) c) = RTx tx_ok.
Proof. intros e d f c x R N S Z0 D G. change (snd (step e (Resume (Some x)) c)) with (RTx (snd (resume e (Some x) c))). f_equal. exact (resume_possible e c x (reach_empty _ _ _ _ R) N S Z0 D (agrees_tx e G)). Qed.

(* the resource manager fails to suspend: the call is refused, but the process is no longer in its transaction *)
Definition all_ok : list event -> xa := fun _ => xa_ok.
Definition w_env (x : list event -> xa) : env := mk_env x (fun _ => []) (fun _ => (SCommit, tx_ok)) (fun _ => tx_ok).
Definition fails_at (n : nat) (k : xa) : list event -> xa := fun l => if Nat.eqb (length l) n then k else xa_ok.
Definition at_run (e : env) (d f : list Z) (is : list call) : ctx := fst (run e is (init d f)).
Lemma at_run_reach e d f is : reach e d f (at_run e d f is). Proof. exists is. reflexivity. Qed.

Theorem C22_failed_suspend_refuted : exists e d f c c', reach e d f c /\ step e (Suspend true) c = (c', RTx tx_protocol) /\ in_tx c <> 0 /\ in_tx c' = 0.
Proof.
  exists (w_env (fails_at 1 resource_error)), [], [10], (at_run (w_env (fails_at 1 resource_error)) [] [10] [Begin]). eexists. split; [apply at_run_reach|].
  split; [vm_compute; reflexivity|]. split; vm_compute; [discriminate|reflexivity].
Qed.
(* the resource manager fails to resume: refused, but the transaction is no longer suspended and the process is in it *)
Theorem C22_failed_resume_refuted : exists e d f c c' x, reach e d f c /\ step e (Resume (Some x)) c = (c', RTx tx_argument) /\ in_tx c = 0 /\ in_tx c' = x /\ x <> 0.
Proof.
  exists (w_env (fails_at 2 resource_error)), [], [10], (at_run (w_env (fails_at 2 resource_error)) [] [10] [Begin; Suspend true]). eexists. exists 1. split; [apply at_run_reach|].
  split; [vm_compute; reflexivity|]. split; [vm_compute; reflexivity|]. split; vm_compute; [reflexivity|discriminate].
Qed.
(* a stacked begin fails: the process is still in its transaction, but the resources do not work in it any more *)
Theorem C22_failed_stacked_begin_refuted : exists e d f c c', reach e d f c /\ step e Begin c = (c', RTx tx_error) /\ in_tx c = 1 /\ in_tx c' = 1 /\ assoc_of 10 1 (c_log c) = Associated /\ assoc_of 10 1 (c_log c') = AssociationSuspended.
Proof.
  exists (w_env (fails_at 2 resource_error)), [], [10], (at_run (w_env (fails_at 2 resource_error)) [] [10] [SetControl Stacked; Begin]). eexists. split; [apply at_run_reach|].
  split; [vm_compute; reflexivity|]. repeat (split; [vm_compute; reflexivity|]). vm_compute. reflexivity.
Qed.

(* ------------------------------------------------------------------ C23 *)

(* In chained mode the result is that of the same completion unchained if the new transaction was started; otherwise an error is added to it.
   Missing: the NO_BEGIN variant, see below. *)
Theorem C23_chained_commit_partial : forall e d f c t c' k u, reach e d f c -> c_ctl c = Chained -> committable c t -> step e Commit c = (c', RTx k) -> snd (step e Commit (w_ctl Unchained c)) = RTx u ->
  (length (held c') = length (held c) -> k = u) /\ (length (held c') <> length (held c) -> exists b, k = tx_add u b /\ (b = tx_error \/ b = tx_outside \/ b = tx_protocol)).
Proof. exact chained_result. Qed.
Theorem C23_chained_rollback_partial : forall e d f c t c' k u, reach e d f c -> c_ctl c = Chained -> rollbackable c t -> step e Rollback c = (c', RTx k) -> snd (step e Rollback (w_ctl Unchained c)) = RTx u ->
  (length (held c') = length (held c) -> k = u) /\ (length (held c') <> length (held c) -> exists b, k = tx_add u b /\ (b = tx_error \/ b = tx_outside \/ b = tx_protocol)).
Proof. exact chained_rollback. Qed.
(* committed, no new transaction: TX_ERROR, and the process is outside *)
Theorem C23_no_begin_refuted : exists e d f c c', reach e d f c /\ c_ctl c = Chained /\ (exists t, committable c t) /\ snd (step e Commit (w_ctl Unchained c)) = RTx tx_ok /\ step e Commit c = (c', RTx tx_error) /\ in_tx c' = 0 /\ held c' = [].
Proof.
  exists (w_env (fails_at 3 resource_error)), [], [10], (at_run (w_env (fails_at 3 resource_error)) [] [10] [SetControl Chained; Begin]). eexists. split; [apply at_run_reach|]. split; [vm_compute; reflexivity|].
  split; [|split; [vm_compute; reflexivity|split; [vm_compute; reflexivity|split; vm_compute; reflexivity]]].
  eexists. split; [exists []; split; [vm_compute; reflexivity|split; [vm_compute; reflexivity|vm_compute; discriminate]]|split; [vm_compute; reflexivity|split; vm_compute; reflexivity]].
Qed.
(* NO_BEGIN when nothing was to begin: the resource does not know the transaction *)
Theorem C23_no_begin_unchained_refuted : exists e d f c c', reach e d f c /\ c_ctl c = Unchained /\ step e Commit c = (c', RTx no_begin).
Proof.
  exists (w_env (fails_at 2 invalid_xid)), [], [10], (at_run (w_env (fails_at 2 invalid_xid)) [] [10] [Begin]). eexists. split; [apply at_run_reach|]. split; vm_compute; reflexivity.
Qed.

(* ------------------------------------------------------------------ C24 *)

(* everything is consumed *)
Theorem C24_consumed : forall e d f c b, reach e d f c -> held (fst (step e (Finalize b) c)) = [] /\ in_tx (fst (step e (Finalize b) c)) = 0.
Proof.
  intros e d f c b R. pose proof (step_accounted e (Finalize b) c (reach_empty _ _ _ _ R)) as H. pose proof (step_empty e (Finalize b) c (reach_empty _ _ _ _ R)) as EO. split; [exact H|]. apply in_tx_nil; [exact EO|]. apply held_nil. exact H.
Qed.
(* someone is asked to commit only in tx_commit, for a transaction that may be, or when a service that succeeded ends, for a transaction of this process that is active *)
Theorem C24_commit_cause : forall e d f c i, reach e d f c -> exists evs, since c (fst (step e i c)) evs /\ forall ev x, In ev evs -> some_commit x ev -> commit_cause i c x.
Proof. intros e d f c i R. apply step_commits. exact (reach_empty _ _ _ _ R). Qed.
(* and every resource of a transaction of this process is asked, to commit or to roll back *)
Theorem C24_completed : forall e d f c b c' s, reach e d f c -> rms_agree e -> step e (Finalize b) c = (c', RState s) ->
  exists evs, since c c' evs /\ forall t r, In t (c_txs c) -> x_id (t_id t) <> 0 -> x_own (t_id t) = me -> In r (t_inv t) ->
    exists ev, In ev evs /\ if b && (t_state t =? active) then commits (x_id (t_id t)) r ev else rolls_back (x_id (t_id t)) r ev.
Proof. intros e d f c b c' s R G H. cbn in H. destruct (finalize e b c) as [c1 s1] eqn:F. injection H as -> ->. exact (finalize_reaches e d f c b c' s R G F). Qed.
(* pending replies: committed all the same, though the caller is told that it failed *)
Theorem C24_pending_refuted : exists e d f c c' t, reach e d f c /\ In t (c_txs c) /\ t_pend t <> [] /\ step e (Finalize true) c = (c', RState m_error) /\ exists k, In (TmCommit (x_id (t_id t)) (t_inv t) SCommit k) (c_log c').
Proof.
  exists (w_env all_ok), [], [10], (at_run (w_env all_ok) [] [10] [Start; ServiceCall 5]). eexists. eexists. split; [apply at_run_reach|]. split; [vm_compute; left; reflexivity|]. split; [vm_compute; discriminate|].
  split; [vm_compute; reflexivity|]. exists tx_ok. vm_compute. auto 10.
Qed.

(* ------------------------------------------------------------------ C21 *)

Theorem C21_client_ok : forall e d f c t c', reach e d f c -> committable c t -> step e Commit c = (c', RTx tx_ok) -> exists evs, since c c' evs /\ backed c t evs.
Proof. exact commit_truth. Qed.
Theorem C21_client_rollback : forall e d f c t c' k evs rs kk, reach e d f c -> committable c t -> c_ctl c = Unchained -> step e Commit c = (c', RTx k) -> since c c' evs ->
  In (TmCommit (x_id (t_id t)) rs SRollback kk) evs -> k = tx_rollback.
Proof. exact commit_rolled_back. Qed.
(* the only resource rolls back instead of committing: not TX_ROLLBACK *)
Theorem C21_client_one_phase_refuted : exists e d f c c', reach e d f c /\ step e Commit c = (c', RTx hazard) /\ In (Xa CommitOnePhase 10 1 rollback_unspecified) (c_log c').
Proof.
  exists (w_env (fails_at 2 rollback_unspecified)), [], [10], (at_run (w_env (fails_at 2 rollback_unspecified)) [] [10] [Begin]). eexists. split; [apply at_run_reach|]. split; [vm_compute; reflexivity|]. vm_compute. auto.
Qed.

(* ------------------------------------------------------------------ C43 *)

Theorem C43_legal_xa : forall e fixed m is, rms_agree e -> NoDup fixed -> all_in_order e is (w_ctl m (init [] fixed)) ->
  forall r x, let c := fst (run e is (w_ctl m (init [] fixed))) in let s := assoc_of r x (c_log c) in
  s <> Illegal /\ (s = Associated -> x = in_tx c /\ x <> 0) /\ (s = AssociationSuspended -> In x (held c) /\ x <> 0 /\ x <> in_tx c) /\
  (In r fixed -> x <> 0 -> In x (held c) -> s = if x =? in_tx c then Associated else AssociationSuspended).
Proof. exact xa_legal. Qed.
(* with a dynamic resource: resumed though it never took part in the transaction *)
Theorem C43_dynamic_refuted : exists e d f is, rms_agree e /\ all_in_order e is (w_ctl Stacked (init d f)) /\ assoc_of 20 1 (c_log (fst (run e is (w_ctl Stacked (init d f))))) = Illegal.
Proof.
  exists (w_env all_ok), [20], [10], [Begin; Begin; Commit]. split; [intros l; left; reflexivity|]. split; [|vm_compute; reflexivity]. cbn. auto.
Qed.
(* the transaction control is changed when transactions are stacked: the process is in a transaction its resources are suspended from *)
Theorem C43_control_change_refuted : exists e f is, rms_agree e /\ let c := at_run e [] f is in in_tx c = 1 /\ In 10 f /\ assoc_of 10 1 (c_log c) = AssociationSuspended.
Proof.
  exists (w_env all_ok), [10], [SetControl Stacked; Begin; Begin; SetControl Unchained; Commit]. split; [intros l; left; reflexivity|]. cbn zeta. split; [vm_compute; reflexivity|]. split; [left; reflexivity|vm_compute; reflexivity].
Qed.

(* ------------------------------------------------------------------ C44 *)

(* after a reply that is not ok, the transaction of the call is never committed by this process *)
Theorem C44_never_committed : forall e d f c corr s a t b is, reach e d f c -> c_txs c = a ++ t :: b -> x_id (t_id t) <> 0 -> x_id (t_id t) < c_next c ->
  In corr (t_pend t) -> (forall u, In u a -> ~ In corr (t_pend u)) -> (forall u, In u (a ++ b) -> x_id (t_id u) <> x_id (t_id t)) -> m_ok < s -> Forall (not_joined (x_id (t_id t))) is ->
  exists evs, since c (fst (run e (Reply corr s :: is) c)) evs /\ forall ev, In ev evs -> ~ some_commit (x_id (t_id t)) ev.
Proof.
  intros e d f c corr s a t b is R E N L M U X S F. pose proof (reply_dooms e c corr s a t b L E M S U X) as D. pose proof (reach_step e d f c (Reply corr s) R) as R'.
  destruct (never_committed e d f _ _ R' N D is F) as (evs&SI&NC). exists evs. split; [|exact NC]. cbn [run]. destruct (step e (Reply corr s) c) as [c1 r] eqn:ST.
  assert (LG : c_log c1 = c_log c) by (cbn in ST; injection ST as <- _; reflexivity). cbn [fst] in SI. destruct (run e is c1) as [c2 h]. cbn [fst] in *. unfold since in *. rewrite SI, LG. reflexivity.
Qed.
(* and tx_commit is refused *)
Theorem C44_commit_refused : forall e d f c corr s t, reach e d f c -> at_end c t -> (forall u, In u (removelast (c_txs c)) -> ~ In corr (t_pend u)) -> In corr (t_pend t) -> m_ok < s ->
  let c' := fst (step e (Reply corr s) c) in step e Commit c' = (c', RTx tx_protocol).
Proof.
  intros e d f c corr s t R (l&E&SU&N) U M S c'. pose proof (reach_step e d f c (Reply corr s) R) as R'. fold c' in R'. apply (C22_commit_refused e d f c' R'). intros u ((l'&E'&_)&_&A0&_).
  rewrite E, removelast_snoc in U. unfold c' in E'. cbn in E'. rewrite E in E'. assert (X : forall a, (forall u, In u a -> ~ In corr (t_pend u)) -> update_first corr s (a ++ [t]) = a ++ [replied corr (if t_state t <? s then w_state s t else t)]).
  { induction a as [|v a IH]; cbn; intros Ua; [rewrite (proj2 (mem_in _ _) M); reflexivity|]. rewrite (proj2 (mem_out _ _) (Ua v (or_introl eq_refl))). rewrite IH; [reflexivity|]. intros w Iw. apply Ua. right. exact Iw. }
  rewrite (X l U) in E'. apply app_inj_tail in E'. destruct E' as [_ <-]. destruct (t_state t <? s) eqn:LT; cbn in A0; unfold active, m_ok in *; [lia|]. apply Z.ltb_ge in LT. lia.
Qed.
(* but the cause is not kept: rollback-only becomes timeout, timeout becomes rollback-only, and an error is no state at all *)
Theorem C44_cause_refuted : exists e d f c, reach e d f c /\
  snd (step e Info (fst (step e (Reply 5 m_rollback) c))) = RInfo true 1 timeout_only /\
  snd (step e Info (fst (step e (Reply 5 m_timeout) c))) = RInfo true 1 rollback_only /\
  snd (step e Info (fst (step e (Reply 5 m_error) c))) = RInfo true 1 3.
Proof.
  exists (w_env all_ok), [], [10], (at_run (w_env all_ok) [] [10] [Begin; ServiceCall 5]). split; [apply at_run_reach|]. split; [vm_compute; reflexivity|]. split; vm_compute; reflexivity.
Qed.

(* ------------------------------------------------------------------ non-trivial cases *)

Definition ex_e : env := mk_env all_ok (fun _ => [10]) (fun _ => (SPrepare, tx_ok)) (fun _ => tx_ok).
(* stacked transactions, one suspended and resumed, two resources *)
Definition ex_is : list call := [Begin; Suspend true; Begin; ServiceCall 5; Begin; Commit; Reply 5 m_ok; Suspend true; Resume (Some 1)].
Definition ex_c : ctx := Eval vm_compute in at_run ex_e [] [10; 11] (SetControl Stacked :: ex_is).
Lemma ex_c_eq : at_run ex_e [] [10; 11] (SetControl Stacked :: ex_is) = ex_c. Proof. vm_compute. reflexivity. Qed.
Lemma ex_reach : reach ex_e [] [10; 11] ex_c. Proof. rewrite <- ex_c_eq. apply at_run_reach. Qed.
Lemma ex_agree : rms_agree ex_e. Proof. intros l. left. reflexivity. Qed.
Example ex_ctx : all_in_order ex_e ex_is (w_ctl Stacked (init [] [10; 11])) /\ held ex_c = [2; 1] /\ in_tx ex_c = 1 /\ suspended ex_c 2 /\ (exists t, committable ex_c t /\ t_inv t = [10; 11]) /\
  assoc_of 10 2 (c_log ex_c) = AssociationSuspended /\ assoc_of 11 1 (c_log ex_c) = Associated /\ assoc_of 10 3 (c_log ex_c) = Ended /\ In (TmCommit 3 [10; 11] SPrepare tx_ok) (c_log ex_c).
Proof.
  split; [cbn; auto 20|]. split; [vm_compute; reflexivity|]. split; [vm_compute; reflexivity|]. split.
  { exists []. eexists. eexists. split; [vm_compute; reflexivity|]. split; [vm_compute; reflexivity|]. split; [vm_compute; reflexivity|]. intros u []. }
  split. { eexists. split; [split; [eexists [_]; split; [vm_compute; reflexivity|split; [vm_compute; reflexivity|vm_compute; discriminate]]|split; [vm_compute; reflexivity|split; vm_compute; reflexivity]]|vm_compute; reflexivity]. }
  split; [vm_compute; reflexivity|]. split; [vm_compute; reflexivity|]. split; [vm_compute; reflexivity|]. vm_compute. auto 30.
Qed.
(* the commit of the current one is accepted and says ok, with both answers of the transaction manager; then the other can be resumed *)
Example ex_commit : exists c1, step ex_e Commit ex_c = (c1, RTx tx_ok) /\ In (TmFinal 1 tx_ok) (c_log c1) /\ in_tx c1 = 0 /\ held c1 = [2] /\ suspended c1 2 /\ snd (step ex_e (Resume (Some 2)) c1) = RTx tx_ok.
Proof.
  eexists. split; [vm_compute; reflexivity|]. split; [vm_compute; auto 40|]. split; [vm_compute; reflexivity|]. split; [vm_compute; reflexivity|]. split; [|vm_compute; reflexivity].
  exists []. eexists. exists []. split; [reflexivity|]. split; [reflexivity|]. split; [reflexivity|]. intros u [].
Qed.
(* chained: completed and a new one begun *)
Example ex_chained : let c := at_run ex_e [20] [10] [SetControl Chained; Begin; Register 20] in (exists t, committable c t /\ t_inv t = [10; 20]) /\ snd (step ex_e Commit c) = RTx tx_ok /\ held (fst (step ex_e Commit c)) = [2].
Proof.
  cbn zeta. split; [|split; vm_compute; reflexivity]. eexists. split; [split; [exists []; split; [vm_compute; reflexivity|split; [vm_compute; reflexivity|vm_compute; discriminate]]|split; [vm_compute; reflexivity|split; vm_compute; reflexivity]]|vm_compute; reflexivity].
Qed.
(* a service in a transaction of its caller, that has begun, and suspended, one of its own: one is ended, the other committed *)
Example ex_service : let is := [Join (mk_tid (-7) 9); Suspend true; Begin; ServiceCall 5] in let c := at_run ex_e [] [10; 11] is in
  all_in_order ex_e is (init [] [10; 11]) /\ held c = [-7; 1] /\ snd (step ex_e (Finalize true) (fst (step ex_e (Reply 5 m_ok) c))) = RState m_ok /\
  In (TmCommit 1 [10; 11] SPrepare tx_ok) (c_log (fst (step ex_e (Finalize true) (fst (step ex_e (Reply 5 m_ok) c))))) /\
  In (TmRollback 1 [10; 11] tx_ok) (c_log (fst (step ex_e (Finalize true) (fst (step ex_e (Reply 5 m_rollback) c))))).
Proof.
  cbn zeta. split; [cbn; repeat split; auto; right; split; [reflexivity|discriminate]|]. split; [vm_compute; reflexivity|]. split; [vm_compute; reflexivity|]. split; vm_compute; auto 40.
Qed.
(* C44: a call that is pending in a transaction *)
Example ex_pending : let c := at_run ex_e [] [10; 11] [Begin; ServiceCall 5; ServiceCall 6] in exists t, c_txs c = [] ++ t :: [] /\ x_id (t_id t) = 1 /\ 1 < c_next c /\ t_pend t = [5; 6] /\ at_end c t.
Proof. cbn zeta. eexists. split; [vm_compute; reflexivity|]. split; [vm_compute; reflexivity|]. split; [vm_compute; reflexivity|]. split; [vm_compute; reflexivity|]. exists []. split; [vm_compute; reflexivity|]. split; [vm_compute; reflexivity|vm_compute; discriminate]. Qed.
(* C21: the manager decided to roll back *)
Example ex_rolled : let e := mk_env all_ok (fun _ => []) (fun _ => (SRollback, tx_rollback)) (fun _ => tx_ok) in let c := at_run e [] [10; 11] [Begin] in
  snd (step e Commit c) = RTx tx_rollback /\ In (TmCommit 1 [10; 11] SRollback tx_rollback) (c_log (fst (step e Commit c))).
Proof. cbn zeta. split; vm_compute; auto 10. Qed.

Print Assumptions C22_commit_refused.
Print Assumptions C22_rollback_refused.
Print Assumptions C22_commit_commits.
Print Assumptions C22_rollback_rolls_back.
Print Assumptions C22_none_lost.
Print Assumptions C22_refused_unchanged.
Print Assumptions C22_suspend.
Print Assumptions C22_resume.
Print Assumptions C22_resume_once.
Print Assumptions C22_can_resume.
Print Assumptions C22_failed_suspend_refuted.
Print Assumptions C22_failed_resume_refuted.
Print Assumptions C22_failed_stacked_begin_refuted.
Print Assumptions C23_chained_commit_partial.
Print Assumptions C23_chained_rollback_partial.
Print Assumptions C23_no_begin_refuted.
Print Assumptions C23_no_begin_unchained_refuted.
Print Assumptions C24_consumed.
Print Assumptions C24_commit_cause.
Print Assumptions C24_completed.
Print Assumptions C24_pending_refuted.
Print Assumptions C21_client_ok.
Print Assumptions C21_client_rollback.
Print Assumptions C21_client_one_phase_refuted.
Print Assumptions C43_legal_xa.
Print Assumptions C43_dynamic_refuted.
Print Assumptions C43_control_change_refuted.
Print Assumptions C44_never_committed.
Print Assumptions C44_commit_refused.
Print Assumptions C44_cause_refuted.

(* The properties of the transaction manager: C13-C17, C21, C42. *)
From Coq Require Import ZArith List Bool Lia.
From Verif Require Import CodesModel FanModel TmModel TmSpec TmMicro TmFacts TmVotes TmStable TmCount TmLog TmUnan TmOutcome TmCheck.
Import ListNotations.
Local Open Scope Z_scope.

(* a run of a manager with these configured resources: the inputs in order, the state reached, the events *)
Definition runs (known : list Z) (is : list input) (s : tm) (tr : list event) : Prop := run is (init known) = Some (s, tr).

(* ---------------------------------------------------------------- C13 *)

(* Whenever a commit request that is not one-phase leaves the manager, for whatever reason: every resource that takes part in the
   transaction has answered prepare with ok or read-only, and the one that is asked has answered it with ok.
   Partial: for resources that answer what they were asked, transactions nobody joins after the vote has begun, and an
   upstream manager that asks for a commit only of what it was told is prepared. The next two theorems show that without the
   last two it is false. *)
Theorem C13_commit_after_vote_partial : forall known is s tr q cc t r rest,
  runs known is s tr -> honest tr -> nobody_late (t_g t) tr -> upstream_obeys (t_g t) tr ->
  tr = q ++ Act (Ask KCommit cc t r false) :: rest ->
  (forall b r', takes_part known q (t_g t) b r' -> answered KPrepare q (t_g t) b r' voted_yes) /\
  answered KPrepare q (t_g t) (t_b t) r voted_ok.
Proof.
  intros known is s tr q cc t r rest R HO NL UO E.
  exact (proj2 (reach_granted known (t_g t) tr (s, D0, Idle) (run_reach known is s tr R) HO NL UO) q cc t r rest E eq_refl).
Qed.

(* without a restriction on who joins, or on the upstream manager: when the commit was not asked for by an upstream manager, those
   that took part when the vote began have all voted yes *)
Theorem C13_own_decision : forall known is s tr q cc t r rest,
  runs known is s tr -> honest tr -> tr = q ++ Act (Ask KCommit cc t r false) :: rest ->
  (forall p corr u r', last_input q None <> Some (IExtCommit p corr u r')) ->
  exists q1 q2, q = q1 ++ q2 /\ (exists c' t' r' q3, q2 = Act (Ask KPrepare c' t' r' false) :: q3 /\ t_g t' = t_g t) /\
    (forall b r', takes_part known q1 (t_g t) b r' -> answered KPrepare q2 (t_g t) b r' voted_yes) /\
    answered KPrepare q2 (t_g t) (t_b t) r voted_ok.
Proof. intros known is s tr q cc t r rest R. exact (commit_after_vote known tr (s, D0, Idle) q cc t r rest (run_reach known is s tr R)). Qed.

Definition user : proc := mk_proc 5 50.
Definition other : proc := mk_proc 6 60.
Definition T1 : trid := mk_t 1 1 5.
Definition vt (r : Z) (c : xa) : vote := mk_v T1 r c.

Definition late_is : list input :=
  [ICommit user 7 T1 [10; 11]; IInvolved user 8 T1 [12] false; IReply KPrepare 1 (vt 10 xa_ok); IReply KPrepare 2 (vt 11 xa_ok)].
Definition late_s : tm := Eval vm_compute in states_of [10; 11; 12] late_is.
Definition late_tr : list event := Eval vm_compute in events_of [10; 11; 12] late_is.
(* a resource that joins during the vote is committed without having been asked *)
Theorem C13_late_joiner_refuted : exists is s tr q rest,
  runs [10; 11; 12] is s tr /\ honest tr /\ upstream_obeys 1 tr /\ tr = q ++ Act (Ask KCommit 3 T1 10 false) :: rest /\
  takes_part [10; 11; 12] q 1 1 12 /\ (forall c t r fl, In (Act (Ask KPrepare c t r fl)) tr -> r <> 12).
Proof.
  exists late_is, late_s, late_tr, (firstn 7 late_tr), (skipn 8 late_tr).
  split; [vm_compute; reflexivity|]. split; [apply honestb_ok; vm_compute; reflexivity|]. split; [apply obeysb_ok; vm_compute; reflexivity|].
  split; [vm_compute; reflexivity|]. split; [unfold takes_part; isin|].
  intros c t r fl I. vm_compute in I. repeat destruct I as [I|I]; try discriminate; try contradiction; injection I as _ _ <- _; discriminate.
Qed.

Definition diso_is : list input :=
  [IInvolved user 8 T1 [10; 11] false; IExtPrepare other 9 T1 77; IReply KPrepare 1 (vt 10 xa_ok); IReply KPrepare 2 (vt 11 rollback_other); IExtCommit other 10 T1 77].
Definition diso_s : tm := Eval vm_compute in states_of [10; 11] diso_is.
Definition diso_tr : list event := Eval vm_compute in events_of [10; 11] diso_is.
(* an upstream manager that is told that the vote has failed, and still asks for the commit, gets it: both resources are
   asked to commit, although one of them has refused *)
Theorem C13_disobedient_upstream_refuted : exists is s tr q rest,
  runs [10; 11] is s tr /\ honest tr /\ nobody_late 1 tr /\ tr = q ++ Act (Ask KCommit 3 T1 10 false) :: rest /\
  takes_part [10; 11] q 1 1 11 /\ reply_of KPrepare 2 tr = Some rollback_other /\ In (Act (Ask KCommit 4 T1 11 false)) tr.
Proof.
  exists diso_is, diso_s, diso_tr, (firstn 8 diso_tr), (skipn 9 diso_tr).
  split; [vm_compute; reflexivity|]. split; [apply honestb_ok; vm_compute; reflexivity|]. split; [apply nobody_lateb_ok; vm_compute; reflexivity|].
  split; [vm_compute; reflexivity|]. split; [unfold takes_part; isin|]. split; [vm_compute; reflexivity|]. isin.
Qed.

(* ---------------------------------------------------------------- C14 *)

(* The caller who is told that the transaction was rolled back (stage rollback): a resource that took part voted no or was given
   up, and everyone voted read-only, was given up, or was asked to roll back and has answered that, or was given up there *)
Theorem C14_rolled_back : forall known is s tr q a rest,
  runs known is s tr -> honest tr -> tr = q ++ Act (Answer a) :: rest -> a_kind a = UserCommit -> a_stage a = Some Rollback ->
  exists q1 q2 rs, q = q1 ++ Recv (ICommit (a_to a) (a_corr a) (a_trid a) rs) :: q2 /\
    let part := takes_part known (q1 ++ [Recv (ICommit (a_to a) (a_corr a) (a_trid a) rs)]) (t_g (a_trid a)) in
    (exists b r, part b r /\ (answered KPrepare q2 (t_g (a_trid a)) b r (fun x => ~ voted_yes x) \/ In (Act (GaveUp KPrepare r)) q2)) /\
    (forall b r, part b r -> answered KPrepare q2 (t_g (a_trid a)) b r voted_read_only \/ In (Act (GaveUp KPrepare r)) q2 \/
       answered KRollback q2 (t_g (a_trid a)) b r (fun _ => True) \/
       (exists cc t, In (Act (Ask KRollback cc t r false)) q2 /\ t_g t = t_g (a_trid a) /\ t_b t = b) /\ In (Act (GaveUp KRollback r)) q2).
Proof. intros known is s tr q a rest R. exact (rolled_back known tr (s, D0, Idle) q a rest (run_reach known is s tr R)). Qed.

(* the caller who is told that it was committed (stage commit; [tx_protocol] is the refusal of a second request): everyone who took
   part voted yes; or there was exactly one, and it was asked for a one-phase commit *)
Theorem C14_committed : forall known is s tr q a rest,
  runs known is s tr -> honest tr -> tr = q ++ Act (Answer a) :: rest -> a_kind a = UserCommit -> a_stage a = Some Commit ->
  a_code a <> Tx tx_protocol ->
  exists q1 q2 rs, q = q1 ++ Recv (ICommit (a_to a) (a_corr a) (a_trid a) rs) :: q2 /\
    let part := takes_part known (q1 ++ [Recv (ICommit (a_to a) (a_corr a) (a_trid a) rs)]) (t_g (a_trid a)) in
    (forall b r, part b r -> answered KPrepare q2 (t_g (a_trid a)) b r voted_yes) \/
    (exists b r, (forall b' r', part b' r' <-> b' = b /\ r' = r) /\ exists cc t, In (Act (Ask KCommit cc t r true)) q2 /\ t_g t = t_g (a_trid a) /\ t_b t = b).
Proof. intros known is s tr q a rest R. exact (committed_unanimous known tr (s, D0, Idle) q a rest (run_reach known is s tr R)). Qed.

(* when the caller is told that it was rolled back, nobody has been asked to commit.  Partial: if nobody else rolls it back
   meanwhile, and no owner dies (C15 is false otherwise) *)
Theorem C14_nobody_committed_partial : forall known is s tr q a rest e,
  runs known is s tr -> honest tr -> undisturbed (t_g (a_trid a)) tr -> tr = q ++ Act (Answer a) :: rest -> a_kind a = UserCommit -> a_stage a = Some Rollback ->
  In e (since_forgotten (t_g (a_trid a)) q) -> ~ asks KCommit (t_g (a_trid a)) e.
Proof.
  intros known is s tr q a rest e R HO UN E K S I.
  exact (reach_clean known (t_g (a_trid a)) tr (s, D0, Idle) (run_reach known is s tr R) UN HO q a rest E K S eq_refl e I).
Qed.

Definition nota_is : list input :=
  [IInvolved user 8 T1 [10; 11] false; IExtPrepare other 9 T1 77; IReply KPrepare 1 (vt 10 xa_ok); IReply KPrepare 2 (vt 11 invalid_xid); IIdle].
Definition nota_s : tm := Eval vm_compute in states_of [10; 11] nota_is.
Definition nota_tr : list event := Eval vm_compute in events_of [10; 11] nota_is.
(* An upstream manager that asks for the prepare of this domain's resources is told read-only when the severest vote was "unknown
   transaction" (XAER_NOTA): a resource that voted ok stays prepared, nobody is asked to roll it back. *)
Theorem C14_upstream_told_read_only_refuted : exists is s tr,
  runs [10; 11] is s tr /\ honest tr /\ settled tr /\
  reply_of KPrepare 1 tr = Some xa_ok /\ reply_of KPrepare 2 tr = Some invalid_xid /\
  In (Act (Answer (mk_a other 9 ResPrepare T1 None (Xa read_only)))) tr /\
  (forall e, In e tr -> ~ asks KCommit 1 e /\ ~ asks KRollback 1 e).
Proof.
  exists nota_is, nota_s, nota_tr.
  split; [vm_compute; reflexivity|]. split; [apply honestb_ok; vm_compute; reflexivity|]. split; [apply settledb_ok; vm_compute; reflexivity|].
  split; [vm_compute; reflexivity|]. split; [vm_compute; reflexivity|]. split; [isin|].
  intros e I. split; [exact (not_askedb_ok KCommit 1 nota_tr eq_refl e I)|exact (not_askedb_ok KRollback 1 nota_tr eq_refl e I)].
Qed.

(* ---------------------------------------------------------------- C15 *)

(* Commit and rollback requests for the same transaction never mix, in either order.  Partial: if nobody asks the manager directly
   to roll it back, and no owner of it dies *)
Theorem C15_stable_partial : forall known is s tr g e1 e2,
  runs known is s tr -> undisturbed g tr -> honest tr ->
  In e1 (since_forgotten g tr) -> In e2 (since_forgotten g tr) -> asks KCommit g e1 -> asks KRollback g e2 -> False.
Proof.
  intros known is s tr g e1 e2 R UN HO. exact (pairs_since g tr (proj2 (reach_stable known g tr (s, D0, Idle) (run_reach known is s tr R) UN HO)) e1 e2).
Qed.

Definition dies_is : list input :=
  [ICommit user 7 T1 [10; 11]; IReply KPrepare 1 (vt 10 xa_ok); IReply KPrepare 2 (vt 11 xa_ok); IReply KCommit 3 (vt 10 xa_ok); IExit 5].
Definition dies_s : tm := Eval vm_compute in states_of [10; 11] dies_is.
Definition dies_tr : list event := Eval vm_compute in events_of [10; 11] dies_is.
(* the owner dies while the commit is under way: the manager asks the same resources to roll back *)
Theorem C15_owner_dies_refuted : exists is s tr e1 e2,
  runs [10; 11] is s tr /\ honest tr /\ In e1 (since_forgotten 1 tr) /\ In e2 (since_forgotten 1 tr) /\ asks KCommit 1 e1 /\ asks KRollback 1 e2.
Proof.
  exists dies_is, dies_s, dies_tr, (Act (Ask KCommit 3 T1 10 false)), (Act (Ask KRollback 5 T1 10 false)).
  split; [vm_compute; reflexivity|]. split; [apply honestb_ok; vm_compute; reflexivity|]. split; [isin|]. split; [isin|]. split; repeat eexists.
Qed.

Definition during_is : list input :=
  [ICommit user 7 T1 [10; 11]; IRollback user 8 T1 []; IReply KPrepare 1 (vt 10 xa_ok); IReply KPrepare 2 (vt 11 xa_ok)].
Definition during_s : tm := Eval vm_compute in states_of [10; 11] during_is.
Definition during_tr : list event := Eval vm_compute in events_of [10; 11] during_is.
(* a rollback request during the vote: the resources are asked to roll back, then, when the votes are in, to commit *)
Theorem C15_rollback_during_vote_refuted : exists is s tr e1 e2,
  runs [10; 11] is s tr /\ honest tr /\ In e1 (since_forgotten 1 tr) /\ In e2 (since_forgotten 1 tr) /\ asks KCommit 1 e1 /\ asks KRollback 1 e2.
Proof.
  exists during_is, during_s, during_tr, (Act (Ask KCommit 5 T1 10 false)), (Act (Ask KRollback 3 T1 10 false)).
  split; [vm_compute; reflexivity|]. split; [apply honestb_ok; vm_compute; reflexivity|]. split; [isin|]. split; [isin|]. split; repeat eexists.
Qed.

(* ---------------------------------------------------------------- C16 *)

(* "prepared" - to the caller, or to an upstream manager - is told only after the record of the vote is on disk *)
Theorem C16_prepared_is_durable_partial : forall known is s tr q a rest,
  runs known is s tr -> tr = q ++ Act (Answer a) :: rest -> prepared a = true -> recorded q (t_g (a_trid a)).
Proof. intros known is s tr q a rest R. exact (proj2 (proj2 (reach_L known tr (s, D0, Idle) (run_reach known is s tr R))) q a rest). Qed.

Definition soon_is : list input :=
  [ICommit user 7 T1 [10; 11]; IReply KPrepare 1 (vt 10 xa_ok); IReply KPrepare 2 (vt 11 xa_ok)].
Definition soon_s : tm := Eval vm_compute in states_of [10; 11] soon_is.
Definition soon_tr : list event := Eval vm_compute in events_of [10; 11] soon_is.
(* the commit requests do not wait for it: both resources have been asked to commit, and nothing is on disk *)
Theorem C16_commit_before_durable_refuted : exists is s tr,
  runs [10; 11] is s tr /\ In (Act (Ask KCommit 3 T1 10 false)) tr /\ In (Act (Ask KCommit 4 T1 11 false)) tr /\ In (Act (Logged 1 [(1, 1)])) tr /\
  s_disk s = [] /\ (forall d, ~ In (Act (Persisted d)) tr).
Proof.
  exists soon_is, soon_s, soon_tr.
  split; [vm_compute; reflexivity|]. split; [isin|]. split; [isin|]. split; [isin|]. split; [vm_compute; reflexivity|].
  intros d I. vm_compute in I. repeat destruct I as [I|I]; try discriminate; contradiction.
Qed.

(* ---------------------------------------------------------------- C17 *)

(* never more final replies than requests, whatever happens *)
Theorem C17_at_most_one : forall known is s tr corr,
  runs known is s tr -> (count (final_for corr) tr <= count (asks_for corr) tr)%nat.
Proof. exact run_at_most. Qed.

(* When every request to a resource has been answered or given up, and the manager is idle, every request has its final reply.
   Partial: if nobody asks the manager to roll back what another one commits, and no owner of a transaction dies *)
Theorem C17_exactly_one_partial : forall known is s tr corr,
  runs known (is ++ [IIdle]) s tr -> (forall g, undisturbed g tr) -> settled tr ->
  count (final_for corr) tr = count (asks_for corr) tr.
Proof. exact run_exactly. Qed.

(* and nothing half done is left: a transaction that is still remembered has not been asked for, or is prepared for an upstream
   manager *)
Theorem C17_removed_partial : forall known is s tr g x,
  runs known is s tr -> undisturbed g tr -> settled tr -> find_tx g s = Some x -> x_stage x = Involved \/ x_stage x = PostPrepare.
Proof. exact run_left. Qed.

Definition never_is : list input :=
  [ICommit user 7 T1 [10; 11]; IRollback user 8 T1 []; IReply KRollback 3 (vt 10 xa_ok); IReply KRollback 4 (vt 11 xa_ok); IReply KPrepare 1 (vt 10 xa_ok); IReply KPrepare 2 (vt 11 xa_ok)].
Definition never_s : tm := Eval vm_compute in states_of [10; 11] (never_is ++ [IIdle]).
Definition never_tr : list event := Eval vm_compute in events_of [10; 11] (never_is ++ [IIdle]).
(* a rollback request during the vote that completes before the vote does: the commit request is never answered *)
Theorem C17_commit_never_answered_refuted : exists is s tr,
  runs [10; 11] (is ++ [IIdle]) s tr /\ honest tr /\ settled tr /\ count (asks_for 7) tr = 1%nat /\ count (final_for 7) tr = 0%nat.
Proof.
  exists never_is, never_s, never_tr.
  split; [vm_compute; reflexivity|]. split; [apply honestb_ok; vm_compute; reflexivity|]. split; [apply settledb_ok; vm_compute; reflexivity|]. split; vm_compute; reflexivity.
Qed.

(* ---------------------------------------------------------------- C21 *)

(* tx_commit is told "ok, committed": every resource that took part has answered the commit request with ok (or read-only, or that it
   does not know the transaction), or has voted read-only *)
Theorem C21_commit_tells_truth : forall known is s tr q a rest,
  runs known is s tr -> honest tr -> tr = q ++ Act (Answer a) :: rest ->
  a_kind a = UserCommit -> a_stage a = Some Commit -> a_code a = Tx tx_ok ->
  exists q1 q2 rs, q = q1 ++ Recv (ICommit (a_to a) (a_corr a) (a_trid a) rs) :: q2 /\
    forall b r, takes_part known (q1 ++ [Recv (ICommit (a_to a) (a_corr a) (a_trid a) rs)]) (t_g (a_trid a)) b r ->
      answered KCommit q2 (t_g (a_trid a)) b r commit_done \/ answered KPrepare q2 (t_g (a_trid a)) b r voted_read_only.
Proof. intros known is s tr q a rest R. exact (commit_answer known tr (s, D0, Idle) q a rest (run_reach known is s tr R)). Qed.

(* ---------------------------------------------------------------- C42 *)

Definition quick_is : list input :=
  [ICommit user 7 T1 [10; 11]; IReply KPrepare 1 (vt 10 xa_ok); IReply KPrepare 2 (vt 11 xa_ok); IReply KCommit 3 (vt 10 xa_ok); IReply KCommit 4 (vt 11 xa_ok); IIdle].
Definition quick_s : tm := Eval vm_compute in states_of [10; 11] quick_is.
Definition quick_tr : list event := Eval vm_compute in events_of [10; 11] quick_is.
(* the final reply is not the last one: when the resources are quick, "prepared" is sent after it *)
Theorem C42_prepared_after_final_refuted : exists is s tr a b,
  runs [10; 11] is s tr /\ (forall g, undisturbed g tr) /\ tr = a ++ Act (Answer (mk_a user 7 UserCommit T1 (Some Commit) (Tx tx_ok))) :: b /\
  In (Act (Answer (mk_a user 7 UserCommit T1 (Some Prepare) (Tx tx_ok)))) b.
Proof.
  exists quick_is, quick_s, quick_tr, (firstn 10 quick_tr), (skipn 11 quick_tr).
  split; [vm_compute; reflexivity|]. split; [apply undisturbedb_ok; vm_compute; reflexivity|]. split; [vm_compute; reflexivity|]. isin.
Qed.

(* ---------------------------------------------------------------- the hypotheses are met *)

(* a vote with a read-only voter, and the commit: C13, C15, C16, C17, C21 *)
Definition ex_is : list input :=
  [IInvolved user 6 T1 [12] true; ICommit user 7 T1 [10; 11]; IReply KPrepare 3 (vt 11 xa_ok); IIdle; IReply KPrepare 1 (vt 12 read_only); IReply KPrepare 2 (vt 10 xa_ok);
   IIdle; IReply KCommit 5 (vt 10 xa_ok); IReply KCommit 4 (vt 11 xa_ok); IIdle].
Definition ex_s : tm := Eval vm_compute in states_of [10; 11; 12] ex_is.
Definition ex_tr : list event := Eval vm_compute in events_of [10; 11; 12] ex_is.

Lemma ex_honest : honest ex_tr.
Proof.
  apply honestb_ok; vm_compute; reflexivity.
Qed.
Lemma ex_undisturbed : forall g, undisturbed g ex_tr.
Proof.
  apply undisturbedb_ok; vm_compute; reflexivity.
Qed.
Lemma ex_obeys : upstream_obeys 1 ex_tr.
Proof.
  apply obeysb_ok; vm_compute; reflexivity.
Qed.
Lemma ex_nobody_late : nobody_late 1 ex_tr.
Proof.
  apply nobody_lateb_ok; vm_compute; reflexivity.
Qed.
Lemma ex_settled : settled ex_tr.
Proof.
  apply settledb_ok; vm_compute; reflexivity.
Qed.

Example ex_tm : exists s, runs [10; 11; 12] ex_is s ex_tr /\ s_txs s = [] /\ count (final_for 7) ex_tr = 1%nat /\
  In (Act (Ask KCommit 4 T1 11 false)) ex_tr /\ In (Act (Answer (mk_a user 7 UserCommit T1 (Some Commit) (Tx tx_ok)))) ex_tr /\
  In (Act (Answer (mk_a user 7 UserCommit T1 (Some Prepare) (Tx tx_ok)))) ex_tr /\ In (Act (Persisted [(1, 1)])) ex_tr.
Proof.
  exists ex_s. split; [vm_compute; reflexivity|]. split; [vm_compute; reflexivity|]. split; [vm_compute; reflexivity|].
  split; [isin|]. split; [isin|]. split; [isin|]. isin.
Qed.

(* an external resource dies during the vote, another votes no: C14 *)
Definition ex2_is : list input :=
  [IExtInvolved other T1; ICommit user 7 T1 [10; 11]; IReply KPrepare 2 (vt 10 xa_ok); IReply KPrepare 3 (vt 11 rollback_other); IExit 6; IReply KRollback 4 (vt 10 xa_ok); IReply KRollback 5 (vt 11 xa_ok); IIdle].
Definition ex2_s : tm := Eval vm_compute in states_of [10; 11] ex2_is.
Definition ex2_tr : list event := Eval vm_compute in events_of [10; 11] ex2_is.
Example ex_tm2 : exists s tr, runs [10; 11] ex2_is s tr /\ undisturbed 1 tr /\
  In (Act (Answer (mk_a user 7 UserCommit T1 (Some Rollback) (Tx fail)))) tr /\ In (Act (GaveUp KPrepare (-1))) tr /\
  In (Act (Ask KRollback 4 T1 10 false)) tr.
Proof.
  exists ex2_s, ex2_tr. split; [vm_compute; reflexivity|]. split; [apply undisturbedb_ok; vm_compute; reflexivity|].
  split; [isin|]. split; [isin|]. isin.
Qed.

(* an upstream manager that obeys: C13 for a commit that is asked for from outside *)
Definition ex3_is : list input :=
  [IInvolved user 8 T1 [10; 11] false; IExtPrepare other 9 T1 77; IReply KPrepare 1 (vt 10 xa_ok); IReply KPrepare 2 (vt 11 xa_ok); IIdle; IExtCommit other 10 T1 77].
Definition ex3_s : tm := Eval vm_compute in states_of [10; 11] ex3_is.
Definition ex3_tr : list event := Eval vm_compute in events_of [10; 11] ex3_is.
Example ex_tm3 : exists s tr, runs [10; 11] ex3_is s tr /\ upstream_obeys 1 tr /\
  In (Act (Answer (mk_a other 9 ResPrepare T1 None (Xa xa_ok)))) tr /\ In (Act (Ask KCommit 3 T1 10 false)) tr.
Proof.
  exists ex3_s, ex3_tr. split; [vm_compute; reflexivity|]. split; [apply obeysb_ok; vm_compute; reflexivity|].
  split; [isin|]. isin.
Qed.

Print Assumptions C13_commit_after_vote_partial.
Print Assumptions C13_own_decision.
Print Assumptions C13_late_joiner_refuted.
Print Assumptions C13_disobedient_upstream_refuted.
Print Assumptions C14_rolled_back.
Print Assumptions C14_committed.
Print Assumptions C14_nobody_committed_partial.
Print Assumptions C14_upstream_told_read_only_refuted.
Print Assumptions C15_stable_partial.
Print Assumptions C15_owner_dies_refuted.
Print Assumptions C15_rollback_during_vote_refuted.
Print Assumptions C16_prepared_is_durable_partial.
Print Assumptions C16_commit_before_durable_refuted.
Print Assumptions C17_at_most_one.
Print Assumptions C17_exactly_one_partial.
Print Assumptions C17_removed_partial.
Print Assumptions C17_commit_never_answered_refuted.
Print Assumptions C21_commit_tells_truth.
Print Assumptions C42_prepared_after_final_refuted.

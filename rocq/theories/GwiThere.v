(* What hasn't been answered is still there, and is then answered. *)
From Coq Require Import ZArith List Bool Lia.
From Verif Require Import GwiModel GwiSpec GwiProofs GwiInv GwiFwd GwiOnce GwiKeep GwiPass GwiReply.
Import ListNotations.
Local Open Scope Z_scope.

Definition there (c : ipc) (q : request) (n : conn) (s : state) : Prop := exists q1 fnd, In (Task (c_sock n) (Service q1 (q_trid q) fnd)) (s_tasks s) /\ same_request q q1 /\ q_name q1 = q_name q.
Definition ends_rm (r : resource) (k : corr) (i : input) : Prop := (exists c ok t code, i = Internal c ok (IResource r k t code)) \/ exists c ok d, i = Internal c ok (ISend k true d).
Lemma rm_snoc r k h i ev : ~ rm_answered r k (h ++ [(i, ev)]) -> ~ rm_answered r k h /\ ~ ends_rm r k i.
Proof.
  intro N. split.
  - intros [(t & code & G)|[d G]]; apply N; [left; exists t, code|right; exists d]; now apply got_mono.
  - intros [(c & ok & t & code & ->)|(c & ok & d & ->)]; apply N; [left; exists t, code|right; exists d]; apply got_now.
Qed.
Lemma asked_rm_connected s h c r k t : reach s h -> asked_rm c r k t h -> connected c h.
Proof.
  induction 1 as [|s h i s' ev R IH P E]; intros (o & d & I); [destruct I|]. rewrite inputs_snoc in I. apply in_app_or in I as [I|[I|[]]].
  - apply connected_mono. apply IH. exists o, d; auto.
  - subst i. cbn in P. apply connected_mono. apply (reach_inv s h R) in P. apply P.
Qed.
Lemma reach_there s h : reach s h -> unique h -> forall c q n, asked c q h -> is_service q = true -> ~ ended q h -> In n (s_conns s) -> c_ipc n = c -> there c q n s.
Proof.
  induction 1 as [|s h i s' ev R IH P E]; intros U c q n A SV EN I CN; [destruct I|]. pose proof (unique_snoc _ _ _ U) as U0.
  apply ended_snoc in EN as [EN EN2]. pose proof (stepd_of _ _ _ _ _ R P E) as [IV SD]. apply asked_snoc in A as [A|[on ->]].
  - assert (I0: In n (s_conns s)) by (apply (conn_before s h i ev s'); auto; rewrite CN; apply (asked_connected s h c q R A)).
    destruct (IH U0 c q n A SV EN I0 CN) as (q1 & fnd & K1 & K2 & KN). set (k := q_corr q) in *. pose proof (tasks_one s h k R U0) as ONE.
    assert (TC: t_corr (Task (c_sock n) (Service q1 (q_trid q) fnd)) = k) by (unfold t_corr; cbn; apply K2). destruct (touches k i) eqn:TO.
    + pose proof (first_unique k s _ ONE K1 TC) as FT. assert (SAME: s' = s -> there c q n s') by (intros ->; exists q1, fnd; auto).
      destruct (touched _ k i TO EN2) as [(c1 & ok & a & ->)|[(c1 & ok & a & ->)|[(c1 & ok & t & ->)|[(c1 & ok & r & t & code & ->)|[(NK & c1 & ok & code & d & ->)|(NK & c1 & on & ->)]]]]]; cbn in P, E; destruct (by_ipc_in _ _ P) as [n1 BI]; rewrite BI in E; cbn in E.
      * unfold lookup_reply in E. rewrite FT in E. destruct a as [name p| |]; injection E as <- EV; auto. exists q1, (Some (name, p)). split; [exact (set_in k _ _ _ FT)|]. auto.
      * unfold queue_lookup_reply in E. rewrite FT in E. injection E as <- _. auto.
      * unfold branch_reply in E. rewrite FT in E. injection E as <- EV. exists (with_trid (Some t) q1), fnd.
        assert (FT': find (fun t0 => t_corr t0 =? k) (s_tasks (cache_add t (c_sock n) s)) = Some (Task (c_sock n) (Service q1 (q_trid q) fnd))) by (rewrite cache_add_tasks; exact FT).
        split; [apply (set_in k (Service (with_trid (Some t) q1) (q_trid q) fnd)) in FT'; exact FT'|]. split; [unfold same_request in *; cbn; tauto|exact KN].
      * unfold resource_reply in E. rewrite FT in E. injection E as <- _. auto.
      * unfold call_reply in E. rewrite FT in E. apply SAME. destruct K2 as (S1 & _); destruct (q_kind q1) eqn:KQ; congruence.
      * rewrite FT in E. apply SAME. destruct K2 as (S1 & _); destruct (q_kind q1) eqn:KQ; congruence.
    + exists q1, fnd. split; auto. apply (task_stays s i s' ev _ c); auto; [apply IV|rewrite TC; auto|exists n; auto|rewrite <- CN; now apply in_map|apply IV].
  - destruct (step_asked _ _ _ _ (i_sock _ _ IV) SD) as [[NR _]|(m & on' & q1 & q' & w & l & e & I1 & EQ & T & -> & ->)]; [destruct NR|]. injection EQ as -> <- <-.
    cbn in I. assert (m = n) by (apply (same_ipc s); auto; apply IV). subst m. exists q', None. unfold body_of. rewrite SV. split; [cbn; apply in_or_app; cbn; auto|]. destruct T; unfold same_request; cbn; auto.
Qed.
Definition there_rm (c : ipc) (r : resource) (k : corr) (n : conn) (s : state) : Prop := exists o, In (Task (c_sock n) (Rm r k o)) (s_tasks s).
Lemma asked_rm_snoc c r k t h i ev : asked_rm c r k t (h ++ [(i, ev)]) -> asked_rm c r k t h \/ exists on d, i = External c on (XResource r k t d).
Proof. intros (o & d & J). rewrite inputs_snoc in J. apply in_app_or in J as [J|[J|[]]]; [left; exists o, d; auto|right; eauto]. Qed.
Lemma reach_there_rm s h : reach s h -> unique h -> forall c r k t n, asked_rm c r k t h -> ~ rm_answered r k h -> In n (s_conns s) -> c_ipc n = c -> there_rm c r k n s.
Proof.
  induction 1 as [|s h i s' ev R IH P E]; intros U c r k t n A EN I CN; [destruct I|]. pose proof (unique_snoc _ _ _ U) as U0.
  apply rm_snoc in EN as [EN EN2]. pose proof (stepd_of _ _ _ _ _ R P E) as [IV SD]. apply asked_rm_snoc in A as [A|(on & d & ->)].
  - assert (I0: In n (s_conns s)) by (apply (conn_before s h i ev s'); auto; rewrite CN; apply (asked_rm_connected s h c r k t R A)).
    destruct (IH U0 c r k t n A EN I0 CN) as (o & K1). pose proof (tasks_one s h k R U0) as ONE.
    assert (TC: t_corr (Task (c_sock n) (Rm r k o)) = k) by reflexivity. destruct (touches k i) eqn:TO.
    + pose proof (first_unique k s _ ONE K1 TC) as FT. assert (SAME: s' = s -> there_rm c r k n s') by (intros ->; exists o; auto).
      assert (EN3: ends Enqueue k i = false).
      { destruct i as [| c1 on1 m|c1 ok1 m| | | | | |]; cbn; auto; [destruct m; auto|]. destruct m as [k' a|k' a|k' t'|nk k' code d|k' [] d|r' k' t' code|k' d|d]; cbn; auto; [destruct nk; auto|].
        destruct (Z.eqb_spec k' k) as [->|]; auto. exfalso. apply EN2. right. eauto. }
      destruct (touched _ k i TO EN3) as [(c1 & ok & a & ->)|[(c1 & ok & a & ->)|[(c1 & ok & t1 & ->)|[(c1 & ok & r1 & t1 & code & ->)|[(NK & c1 & ok & code & d & ->)|(NK & c1 & on & ->)]]]]]; cbn in P, E; destruct (by_ipc_in _ _ P) as [n1 BI]; rewrite BI in E; cbn in E.
      * unfold lookup_reply in E. rewrite FT in E. injection E as <- _; auto.
      * unfold queue_lookup_reply in E. rewrite FT in E. injection E as <- _. auto.
      * unfold branch_reply in E. rewrite FT in E. injection E as <- _. auto.
      * unfold resource_reply in E. rewrite FT in E. destruct (resource_eqb r1 r) eqn:RE; [|injection E as <- _; auto]. apply resource_eqb_eq in RE. subst r1. exfalso. apply EN2. left. eauto 6.
      * unfold call_reply in E. rewrite FT in E. injection E as <- _. auto.
      * rewrite FT in E. injection E as <- _. auto.
    + exists o. apply (task_stays s i s' ev _ c); auto; [apply IV|exists n; auto|rewrite <- CN; now apply in_map|apply IV].
  - assert (J: In n (s_conns s)) by (apply (conn_before s h _ ev s' n R P E I); rewrite CN; cbn in P; apply IV in P; apply P).
    cbn in P, E. destruct (by_ipc_in _ _ P) as [n1 BI]. rewrite BI in E. apply by_ipc_some in BI as [B1 B2]. assert (n1 = n) by (apply (same_ipc s); auto; [apply IV|congruence]). subst n1.
    cbn in E. unfold resource_step in E. destruct (cached _ _) as [x|]; injection E as <- _; eexists; cbn; apply in_or_app; cbn; eauto.
Qed.

(* ---- and so it's answered ---- *)
Lemma open_conn s h c : reach s h -> open c h -> exists n, In n (s_conns s) /\ c_ipc n = c.
Proof. intros R O. apply (reach_inv s h R) in O. apply in_map_iff in O as [n [A B]]. eauto. Qed.
Lemma reply_passed h c q c' code d ev : happens (h ++ [(Internal c' true (IReply Call (q_corr q) code d), ev)]) -> unique h -> asked c q h -> q_kind q = Call -> ~ ended q h -> open c h -> ev = [ToRemote c (WReply Call (q_corr q) code d)].
Proof.
  intros H U A K EN OP. apply happens_snoc in H as (s & s' & R & P & E & R'). destruct (open_conn s h c R OP) as [n [I CN]]. assert (SV: is_service q = true) by (unfold is_service; now rewrite K).
  destruct (reach_there s h R U c q n A SV EN I CN) as (q1 & fnd & T1 & (S1 & S2 & _) & _). pose proof (first_unique (q_corr q) s _ (tasks_one s h _ R U) T1 S2) as FT.
  cbn in P, E. destruct (by_ipc_in _ _ P) as [n1 BI]; rewrite BI in E; cbn in E. unfold call_reply in E. rewrite FT, S1, K in E. unfold reply_and_drop, send in E. rewrite (by_sock_in s n (i_sock _ _ (reach_inv _ _ R)) I) in E. injection E as _ <-. now rewrite CN.
Qed.
Lemma rm_reply_passed h c r k t c' t' code ev : happens (h ++ [(Internal c' true (IResource r k t' code), ev)]) -> unique h -> asked_rm c r k t h -> ~ rm_answered r k h -> open c h -> exists o, ev = [ToRemote c (WResource r k o code)].
Proof.
  intros H U A EN OP. apply happens_snoc in H as (s & s' & R & P & E & R'). destruct (open_conn s h c R OP) as [n [I CN]].
  destruct (reach_there_rm s h R U c r k t n A EN I CN) as (o & T1). pose proof (first_unique k s _ (tasks_one s h _ R U) T1 eq_refl) as FT. exists o.
  cbn in P, E. destruct (by_ipc_in _ _ P) as [n1 BI]; rewrite BI in E; cbn in E. unfold resource_reply in E. rewrite FT in E. replace (resource_eqb r r) with true in E by (destruct r; auto). unfold reply_and_drop, send in E. rewrite (by_sock_in s n (i_sock _ _ (reach_inv _ _ R)) I) in E. injection E as _ <-. now rewrite CN.
Qed.
Lemma other_passed h c m w ev : happens (h ++ [(Internal c true m, ev)]) -> passed_as m = Some w -> ev = [ToRemote c w].
Proof.
  intros H X. apply happens_snoc in H as (s & s' & R & P & E & R'). cbn in P, E. destruct (by_ipc_in _ _ P) as [n BI]; rewrite BI in E; cbn in E. apply by_ipc_some in BI as [I CN]. pose proof (by_sock_in s n (i_sock _ _ (reach_inv _ _ R)) I) as BS.
  destruct m as [k' a|k' a|k' t|nk k' code d|k' term d|r' k' t code|k' d|d]; try discriminate X; [destruct nk; try discriminate X| | |]; injection X as <-; cbn in E; unfold send in E; rewrite BS in E; cbn in E; injection E as _ <-; rewrite ?app_nil_r, ?CN; auto.
Qed.
Lemma absent_answered h c q c' ok a ev : happens (h ++ [(Internal c' ok (ILookup (q_corr q) a), ev)]) -> unique h -> asked c q h -> is_service q = true -> ~ ended q h -> open c h -> (forall name p, a <> Found name p) ->
  ev = [ToPartner c (IReply (q_kind q) (q_corr q) (match a with Absent => TPENOENT | _ => TPETIME end) 0)].
Proof.
  intros H U A SV EN OP NF. apply happens_snoc in H as (s & s' & R & P & E & R'). destruct (open_conn s h c R OP) as [n [I CN]].
  destruct (reach_there s h R U c q n A SV EN I CN) as (q1 & fnd & T1 & (S1 & S2 & _) & _). pose proof (first_unique (q_corr q) s _ (tasks_one s h _ R U) T1 S2) as FT.
  cbn in P, E. destruct (by_ipc_in _ _ P) as [n1 BI]; rewrite BI in E; cbn in E. unfold lookup_reply in E. rewrite FT, S1 in E. assert (PT: forall m, to_partner (c_sock n) m s = [ToPartner c m]) by (intro m; apply to_partner_of; [apply (reach_inv s h R)|exists n; auto]).
  destruct a as [name p| |]; [now destruct (NF name p)| |]; rewrite PT in E; now injection E as _ <-.
Qed.
Lemma connected_once h f f' c soft soft' : happens h -> In (Connected f c soft) (inputs h) -> In (Connected f' c soft') (inputs h) -> f = f' /\ soft = soft'.
Proof.
  intros [s R]. induction R as [|s h i s' ev R IH P E]; [intros []|]. rewrite inputs_snoc. intros A B. apply in_app_or in A as [A|[A|[]]]; apply in_app_or in B as [B|[B|[]]]; auto.
  - subst i. destruct P as [_ P]. now apply P in A.
  - subst i. destruct P as [_ P]. now apply P in B.
  - subst i. now injection B as -> ->.
Qed.
Lemma undelivered_answered h f q ev c soft : happens (h ++ [(Undelivered f q, ev)]) -> In (Connected f c soft) (inputs h) -> open c h ->
  ev = [ToPartner c (IReply (q_kind q) (q_corr q) (if is_service q then TPESVCERR else 0) 0)].
Proof.
  intros H CO OP. apply happens_snoc in H as (s & s' & R & P & E & R'). destruct (open_conn s h c R OP) as [n [I CN]]. pose proof (reach_inv _ _ R) as IV. pose proof (i_conn _ _ IV n I) as X. rewrite CN in X.
  destruct (connected_once h f (c_sock n) c soft (c_soft n)) as [-> _]; auto; [exists s; auto|]. cbn in E. injection E as _ <-. assert (PT: forall m, to_partner (c_sock n) m s = [ToPartner c m]) by (intro m; apply to_partner_of; [apply IV|exists n; auto]).
  unfold undelivered, is_service. destruct (q_kind q); apply PT.
Qed.

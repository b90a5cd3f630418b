(* What is asked is passed on, when the managers have answered. *)
From Coq Require Import ZArith List Bool Lia.
From Verif Require Import GwiModel GwiSpec GwiProofs GwiInv GwiFwd GwiOnce GwiKeep.
Import ListNotations.
Local Open Scope Z_scope.

Lemma got_snoc m h i ev : got m (h ++ [(i, ev)]) -> got m h \/ exists c ok, i = Internal c ok m.
Proof. intros [c [ok I]]. rewrite inputs_snoc in I. apply in_app_or in I as [I|[I|[]]]; [left; exists c, ok; auto|right; eauto]. Qed.
Lemma got_count f m h : (forall c ok, f (Internal c ok m) = true) -> got m h -> (1 <= count f (inputs h))%nat.
Proof. intros H [c [ok I]]. apply (count_in _ _ _ I). apply H. Qed.
Lemma got_answered s h m k : reach s h -> honest h -> got m h -> (exists a, m = ILookup k a) \/ (exists a, m = IQueueLookup k a) \/ (exists t, m = IBranch k t) -> (1 <= count (opens k) (inputs h))%nat.
Proof.
  intros R HO [c [ok I]] M. unfold inputs in I. apply in_map_iff in I as [[i ev] [E I]]. cbn in E; subst i. apply in_split in I as [h1 [h2 I]]. destruct (HO h1 c ok m ev h2 I) as [e [A B]].
  - destruct M as [[a ->]|[[a ->]|[a ->]]]; reflexivity.
  - assert (A': In e (effects h)) by (rewrite I, effects_app; apply in_or_app; auto). clear I. destruct M as [[a ->]|[[a ->]|[t ->]]].
    + destruct e; cbn in B; try tauto. subst. destruct (lookup_asked s h _ k R A') as (c1 & q & X & Y); [left; intro; reflexivity|]. pose proof (asked_opens _ _ _ X). now rewrite Y in H.
    + destruct e; cbn in B; try tauto. subst. destruct (lookup_asked s h _ k R A') as (c1 & q & X & Y); [right; intro; reflexivity|]. pose proof (asked_opens _ _ _ X). now rewrite Y in H.
    + destruct e; cbn in B; try tauto. destruct B as [-> _]. destruct (branch_asked _ _ _ _ _ R A') as (q & X & Y & _). pose proof (asked_opens _ _ _ X). now rewrite Y in H.
Qed.

Definition kept_service (c : ipc) (q : request) (n : conn) (s : state) (h : history) : Prop := exists q1 fnd,
  In (Task (c_sock n) (Service q1 (q_trid q) fnd)) (s_tasks s) /\ same_request q q1 /\
  (forall name p, got (ILookup (q_corr q) (Found name p)) h -> fnd = Some (name, p)) /\
  (forall t, got (IBranch (q_corr q) t) h -> q_trid q1 = Some t) /\
  (no_branch (q_corr q) h -> q_trid q = None \/ exists t, q_trid q1 = Some t /\ from_tm t h) /\
  (forall name p, fnd = Some (name, p) -> q_trid q = None \/ trid_eqb (q_trid q) (q_trid q1) = false -> exists q', In (ToProcess p c q') (effects h) /\ same_request q q' /\ q_name q' = name).
Definition passed (c : ipc) (q : request) (h : history) : Prop := exists x, got (IQueueLookup (q_corr q) x) h /\
  match x with
  | Some p => exists q', In (ToProcess p c q') (effects h) /\ same_request q q' /\ q_name q' = q_name q
  | None => In (ToPartner c (IReply (q_kind q) (q_corr q) 0 0)) (effects h)
  end.
Definition kept_queue (c : ipc) (q : request) (n : conn) (s : state) (h : history) : Prop :=
  (exists q1 w fnd, In (Task (c_sock n) (Queue q1 w fnd)) (s_tasks s) /\ same_request q q1 /\ q_name q1 = q_name q /\
    (forall x, got (IQueueLookup (q_corr q) x) h -> fnd = Some x) /\ (forall t, got (IBranch (q_corr q) t) h -> w = false) /\ (no_branch (q_corr q) h -> w = false) /\ (w = false -> fnd = None)) \/
  passed c q h.
Lemma no_branch_before k h i ev : no_branch k (h ++ [(i, ev)]) -> no_branch k h.
Proof. intros H c g J. apply (H c g). rewrite effects_snoc. apply in_or_app; auto. Qed.
Lemma fwd_mono (P : effect -> Prop) h i ev : (exists e, In e (effects h) /\ P e) -> exists e, In e (effects (h ++ [(i, ev)])) /\ P e.
Proof. intros [e [A B]]. exists e. split; auto. rewrite effects_snoc. apply in_or_app; auto. Qed.
Lemma in_mono (e : effect) h i ev : In e (effects h) -> In e (effects (h ++ [(i, ev)])).
Proof. intro A. rewrite effects_snoc. apply in_or_app; auto. Qed.
Lemma in_now (e : effect) h i ev : In e ev -> In e (effects (h ++ [(i, ev)])).
Proof. intro A. rewrite effects_snoc. apply in_or_app; auto. Qed.
Lemma passed_mono c q h i ev : passed c q h -> passed c q (h ++ [(i, ev)]).
Proof. intros [x [A B]]. exists x. split; [now apply got_mono|]. destruct x as [p|]; [destruct B as [q' [B C]]; exists q'; split; auto; now apply in_mono|now apply in_mono]. Qed.

Lemma same_trans q q1 q2 : same_request q q1 -> same_request q1 q2 -> same_request q q2.
Proof. unfold same_request. intuition congruence. Qed.
Lemma touched n k i : touches k i = true -> ends n k i = false -> (exists c ok a, i = Internal c ok (ILookup k a)) \/ (exists c ok a, i = Internal c ok (IQueueLookup k a)) \/ (exists c ok t, i = Internal c ok (IBranch k t)) \/ (exists c ok r t code, i = Internal c ok (IResource r k t code)) \/
  (n <> Call /\ exists c ok code d, i = Internal c ok (IReply Call k code d)) \/ (n <> Connect /\ exists c o, i = External c o (XDisconnect k)).
Proof.
  destruct i as [|c on m|c ok m| | | | | |]; cbn; try discriminate.
  - destruct m; cbn; try discriminate. intros H X. rewrite H in X. apply Z.eqb_eq in H. subst. do 5 right. split; [intros ->; discriminate|eauto].
  - destruct m as [k' a|k' a|k' t|nk k' code d|k' term d|r k' t code|k' d|d]; cbn; try discriminate.
    + intros H _. apply Z.eqb_eq in H. subst. eauto 8.
    + intros H _. apply Z.eqb_eq in H. subst. eauto 8.
    + intros H _. apply Z.eqb_eq in H. subst. eauto 8.
    + destruct nk; try discriminate. intros H X. rewrite H in X. apply Z.eqb_eq in H. subst. do 4 right. left. split; [intros ->; discriminate|eauto 8].
    + destruct term; congruence.
    + intros H _. apply Z.eqb_eq in H. subst. eauto 12.
Qed.
Lemma step_kept s h i ev s' c q n : reach s h -> possible i s h -> step i s = Done s' ev -> unique (h ++ [(i, ev)]) -> once (h ++ [(i, ev)]) -> honest (h ++ [(i, ev)]) -> ends (q_kind q) (q_corr q) i = false -> In n (s_conns s) -> c_ipc n = c -> In n (s_conns s') ->
  asked c q h -> (if is_service q then kept_service c q n s h else kept_queue c q n s h) -> if is_service q then kept_service c q n s' (h ++ [(i, ev)]) else kept_queue c q n s' (h ++ [(i, ev)]).
Proof.
  intros R P E U O HO EN I CN I' A K. pose proof (unique_snoc _ _ _ U) as U0. pose proof (stepd_of _ _ _ _ _ R P E) as [IV SD]. set (k := q_corr q) in *. pose proof (tasks_one s h k R U0) as ONE.
  assert (O1: forall f m, (forall h0, once h0 -> (count f (inputs h0) <= 1)%nat) -> (forall c ok, f (Internal c ok m) = true) -> f i = true -> ~ got m h).
  { intros f m F1 F2 F3 G. specialize (F1 _ O). rewrite inputs_snoc, count_app in F1. cbn in F1. rewrite F3 in F1. pose proof (got_count f m h F2 G). lia. }
  assert (OL: forall h0, once h0 -> (count (is_lookup k) (inputs h0) <= 1)%nat) by (intros h0 X; apply (X k)).
  assert (OB: forall h0, once h0 -> (count (is_branch k) (inputs h0) <= 1)%nat) by (intros h0 X; apply (X k)).
  assert (STAY: forall b, t_corr (Task (c_sock n) b) = k -> touches k i = false -> In (Task (c_sock n) b) (s_tasks s) -> In (Task (c_sock n) b) (s_tasks s')).
  { intros b TC TO J. apply (task_stays s i s' ev _ c); auto; [apply IV|rewrite TC; auto|exists n; auto|rewrite <- CN; now apply in_map|apply IV]. }
  assert (SK: sock_of c (c_sock n) s) by (exists n; auto). destruct (handle_of _ _ _ (i_sock _ _ IV) SK) as [HC _].
  destruct (is_service q) eqn:SV.
  - destruct K as (q1 & fnd & K1 & K2 & K3 & K4 & K5 & K6). assert (TC: t_corr (Task (c_sock n) (Service q1 (q_trid q) fnd)) = k) by (unfold t_corr; cbn; apply K2).
    destruct (touches k i) eqn:TO.
    + pose proof (first_unique k s _ ONE K1 TC) as FT.
      assert (QUIET: (forall name p, got (ILookup k (Found name p)) (h ++ [(i, ev)]) -> got (ILookup k (Found name p)) h) -> (forall t, got (IBranch k t) (h ++ [(i, ev)]) -> got (IBranch k t) h) -> s' = s -> kept_service c q n s' (h ++ [(i, ev)])).
      { intros G1 G2 ->. exists q1, fnd. fold k. repeat (split; [auto|]); [|].
        - intro NB. apply no_branch_before in NB. destruct (K5 NB) as [X|[t [X Y]]]; auto. right. exists t. split; auto. now apply from_tm_mono.
        - intros name p X Y. destruct (K6 name p X Y) as (q' & B1 & B2). exists q'. split; auto. now apply in_mono. }
      destruct (touched _ k i TO EN) as [(c1 & ok & a & ->)|[(c1 & ok & a & ->)|[(c1 & ok & t & ->)|[(c1 & ok & r & t & code & ->)|[(NK & c1 & ok & code & d & ->)|(NK & c1 & on & ->)]]]]]; cbn in P, E; destruct (by_ipc_in _ _ P) as [n1 BI]; rewrite BI in E; cbn in E.
      * assert (NG: forall a0, ~ got (ILookup k a0) h) by (intro a0; apply (O1 (is_lookup k)); auto; intros; cbn; apply Z.eqb_refl).
        unfold lookup_reply in E. rewrite FT in E. destruct a as [name p| |]; injection E as <- EV.
        -- assert (CASE: exists x, x = put_task k (Service q1 (q_trid q) (Some (name, p))) s) by eauto. clear CASE.
           exists q1, (Some (name, p)). fold k. split; [exact (set_in k _ _ _ FT)|]. split; auto. split; [intros name' p' G; apply got_snoc in G as [G|[c2 [ok2 G]]]; [now apply NG in G|injection G as _ _ <- <-; auto]|].
           split; [intros t G; apply got_snoc in G as [G|[c2 [ok2 G]]]; [auto|discriminate]|].
           split; [intro NB; apply no_branch_before in NB; destruct (K5 NB) as [X|[t [X Y]]]; auto; right; exists t; split; auto; now apply from_tm_mono|].
           intros name' p' X Y. injection X as <- <-. exists (Request (q_kind q1) (q_corr q1) name (q_trid q1) (q_data q1) (q_noreply q1)). split; [|split; [unfold same_request in *; cbn; tauto|reflexivity]].
           apply in_now. rewrite <- EV. unfold service_request. cbn [fst snd]. rewrite HC. destruct (q_trid q) as [o|] eqn:QT; [|cbn; auto]. destruct Y as [Y|Y]; [discriminate|]. rewrite Y. cbn; auto.
        -- apply QUIET; auto.
           ++ intros name p G. apply got_snoc in G as [G|[c2 [ok2 G]]]; [auto|discriminate].
           ++ intros t G. apply got_snoc in G as [G|[c2 [ok2 G]]]; [auto|discriminate].
        -- apply QUIET; auto.
           ++ intros name p G. apply got_snoc in G as [G|[c2 [ok2 G]]]; [auto|discriminate].
           ++ intros t G. apply got_snoc in G as [G|[c2 [ok2 G]]]; [auto|discriminate].
      * unfold queue_lookup_reply in E. rewrite FT in E. injection E as <- _. apply QUIET; auto.
        -- intros name p G. apply got_snoc in G as [G|[c2 [ok2 G]]]; [auto|discriminate].
        -- intros t G. apply got_snoc in G as [G|[c2 [ok2 G]]]; [auto|discriminate].
      * assert (NG: forall a0, ~ got (IBranch k a0) h) by (intro a0; apply (O1 (is_branch k)); auto; intros; cbn; apply Z.eqb_refl).
        unfold branch_reply in E. rewrite FT in E. injection E as <- EV. exists (with_trid (Some t) q1), fnd. fold k.
        assert (FT': find (fun t0 => t_corr t0 =? k) (s_tasks (cache_add t (c_sock n) s)) = Some (Task (c_sock n) (Service q1 (q_trid q) fnd))) by (rewrite cache_add_tasks; exact FT).
        split; [apply (set_in k (Service (with_trid (Some t) q1) (q_trid q) fnd)) in FT'; exact FT'|]. split; [unfold same_request in *; cbn; tauto|].
        split; [intros name p G; apply got_snoc in G as [G|[c2 [ok2 G]]]; [auto|discriminate]|].
        split; [intros t' G; apply got_snoc in G as [G|[c2 [ok2 G]]]; [now apply NG in G|injection G as _ _ <-; reflexivity]|].
        split; [intros _; right; exists t; split; auto; apply from_tm_now|].
        intros name p -> Y. exists (Request (q_kind q1) (q_corr q1) name (Some t) (q_data q1) (q_noreply q1)). split; [|split; [unfold same_request in *; cbn; tauto|reflexivity]].
        apply in_now. rewrite <- EV. unfold service_request. cbn [fst snd]. rewrite HC. cbn; auto.
      * unfold resource_reply in E. rewrite FT in E. injection E as <- _. apply QUIET; auto.
        -- intros name p G. apply got_snoc in G as [G|[c2 [ok2 G]]]; [auto|discriminate].
        -- intros t' G. apply got_snoc in G as [G|[c2 [ok2 G]]]; [auto|discriminate].
      * unfold call_reply in E. rewrite FT in E. assert (SS: s' = s) by (destruct K2 as (S1 & _); destruct (q_kind q1) eqn:KQ; congruence). apply QUIET; auto.
        -- intros name p G. apply got_snoc in G as [G|[c2 [ok2 G]]]; [auto|discriminate].
        -- intros t' G. apply got_snoc in G as [G|[c2 [ok2 G]]]; [auto|discriminate].
      * rewrite FT in E. assert (SS: s' = s) by (destruct K2 as (S1 & _); destruct (q_kind q1) eqn:KQ; congruence). apply QUIET; auto.
        -- intros name p G. apply got_snoc in G as [G|[c2 [ok2 G]]]; [auto|discriminate].
        -- intros t' G. apply got_snoc in G as [G|[c2 [ok2 G]]]; [auto|discriminate].
    + exists q1, fnd. fold k. split; [apply STAY; auto|]. split; auto. split.
      { intros name p G. apply got_snoc in G as [G|[c2 [ok2 G]]]; auto. subst i. cbn in TO. rewrite Z.eqb_refl in TO. discriminate. }
      split; [intros t G; apply got_snoc in G as [G|[c2 [ok2 G]]]; auto; subst i; cbn in TO; rewrite Z.eqb_refl in TO; discriminate|].
      split; [intro NB; apply no_branch_before in NB; destruct (K5 NB) as [X|[t [X Y]]]; auto; right; exists t; split; auto; now apply from_tm_mono|].
      intros name p X Y. destruct (K6 name p X Y) as (q' & B1 & B2). exists q'. split; auto. now apply in_mono.
  - destruct K as [K|K]; [|right; now apply passed_mono]. destruct K as (q1 & w & fnd & K1 & K2 & KN & K3 & K4 & K5 & K6). assert (TC: t_corr (Task (c_sock n) (Queue q1 w fnd)) = k) by (unfold t_corr; cbn; apply K2).
    destruct (touches k i) eqn:TO.
    + pose proof (first_unique k s _ ONE K1 TC) as FT.
      assert (QUIET: (forall x, got (IQueueLookup k x) (h ++ [(i, ev)]) -> got (IQueueLookup k x) h) -> (forall t, got (IBranch k t) (h ++ [(i, ev)]) -> got (IBranch k t) h) -> s' = s -> kept_queue c q n s' (h ++ [(i, ev)])).
      { intros G1 G2 ->. left. exists q1, w, fnd. fold k. split; auto. split; auto. split; auto. split; [intros x G; apply G1 in G; auto|]. split; [intros t G; apply G2 in G; eauto|]. split; auto. intro NB. apply no_branch_before in NB. auto. }
      assert (PARTNER: forall m, to_partner (c_sock n) m s = [ToPartner c m]) by (intro m; apply to_partner_of; auto; apply IV).
      destruct (touched _ k i TO EN) as [(c1 & ok & a & ->)|[(c1 & ok & a & ->)|[(c1 & ok & t & ->)|[(c1 & ok & r & t & code & ->)|[(NK & c1 & ok & code & d & ->)|(NK & c1 & on & ->)]]]]]; cbn in P, E; destruct (by_ipc_in _ _ P) as [n1 BI]; rewrite BI in E; cbn in E.
      * unfold lookup_reply in E. rewrite FT in E. injection E as <- _. apply QUIET; auto.
        -- intros x G. apply got_snoc in G as [G|[c2 [ok2 G]]]; [auto|discriminate].
        -- intros t' G. apply got_snoc in G as [G|[c2 [ok2 G]]]; [auto|discriminate].
      * assert (NG: forall a0, ~ got (IQueueLookup k a0) h) by (intro a0; apply (O1 (is_lookup k)); auto; intros; cbn; apply Z.eqb_refl).
        unfold queue_lookup_reply in E. rewrite FT in E. destruct w.
        -- injection E as <- EV. left. exists q1, true, (Some a). fold k. split; [exact (set_in k _ _ _ FT)|]. split; auto. split; auto. split; [intros x G; apply got_snoc in G as [G|[c2 [ok2 G]]]; [now apply NG in G|injection G as _ _ <-; auto]|].
           split; [intros t G; apply got_snoc in G as [G|[c2 [ok2 G]]]; [eauto|discriminate]|]. split; [intro NB; apply no_branch_before in NB; auto|discriminate].
        -- injection E as <- EV. right. exists a. fold k. split; [apply got_now|]. subst ev. unfold queue_request. destruct a as [p|].
           ++ exists q1. split; [apply in_now; cbn; auto; rewrite HC; auto|]. auto.
           ++ apply in_now. rewrite PARTNER. destruct K2 as (S1 & S2 & _). fold k in S2. rewrite S1, S2. cbn; auto.
      * assert (NG: forall a0, ~ got (IBranch k a0) h) by (intro a0; apply (O1 (is_branch k)); auto; intros; cbn; apply Z.eqb_refl).
        unfold branch_reply in E. rewrite FT in E. destruct fnd as [x|].
        -- injection E as <- EV. right. exists x. fold k. destruct (known_now _ _ _ _ IV FT) as (c3 & _ & (q0 & _ & _ & _ & _ & _ & _ & GX) & _). specialize (GX x eq_refl). destruct K2 as (S1 & S2 & S3 & S4). fold k in S2. rewrite S2 in GX.
           split; [now apply got_mono|]. subst ev. unfold queue_request. destruct x as [p|].
           ++ exists (with_trid (Some t) q1). split; [apply in_now; cbn; rewrite HC; auto|]. split; [unfold same_request; cbn; auto|auto].
           ++ apply in_now. rewrite PARTNER. cbn. rewrite S1, S2. auto.
        -- injection E as <- EV. left. exists (with_trid (Some t) q1), false, None. fold k.
           assert (FT': find (fun t0 => t_corr t0 =? k) (s_tasks (cache_add t (c_sock n) s)) = Some (Task (c_sock n) (Queue q1 w None))) by (rewrite cache_add_tasks; exact FT).
           split; [apply (set_in k (Queue (with_trid (Some t) q1) false None)) in FT'; exact FT'|]. split; [unfold same_request in *; cbn; tauto|]. split; [exact KN|].
           split; [intros x G; apply got_snoc in G as [G|[c2 [ok2 G]]]; [apply K3 in G; discriminate|discriminate]|]. auto.
      * unfold resource_reply in E. rewrite FT in E. injection E as <- _. apply QUIET; auto.
        -- intros x G. apply got_snoc in G as [G|[c2 [ok2 G]]]; [auto|discriminate].
        -- intros t' G. apply got_snoc in G as [G|[c2 [ok2 G]]]; [auto|discriminate].
      * unfold call_reply in E. rewrite FT in E. injection E as <- _. apply QUIET; auto.
        -- intros x G. apply got_snoc in G as [G|[c2 [ok2 G]]]; [auto|discriminate].
        -- intros t' G. apply got_snoc in G as [G|[c2 [ok2 G]]]; [auto|discriminate].
      * rewrite FT in E. injection E as <- _. apply QUIET; auto.
        -- intros x G. apply got_snoc in G as [G|[c2 [ok2 G]]]; [auto|discriminate].
        -- intros t' G. apply got_snoc in G as [G|[c2 [ok2 G]]]; [auto|discriminate].
    + left. exists q1, w, fnd. fold k. split; [apply STAY; auto|]. split; auto. split; auto. split.
      { intros x G. apply got_snoc in G as [G|[c2 [ok2 G]]]; auto. subst i. cbn in TO. rewrite Z.eqb_refl in TO. discriminate. }
      split; [intros t G; apply got_snoc in G as [G|[c2 [ok2 G]]]; eauto; subst i; cbn in TO; rewrite Z.eqb_refl in TO; discriminate|].
      split; [intro NB; apply no_branch_before in NB; auto|auto].
Qed.
Lemma asked_snoc c q h i ev : asked c q (h ++ [(i, ev)]) -> asked c q h \/ exists on, i = External c on (XRequest q).
Proof. intros [o I]. rewrite inputs_snoc in I. apply in_app_or in I as [I|[I|[]]]; [left; exists o; auto|right; eauto]. Qed.
Lemma ended_snoc q h i ev : ~ ended q (h ++ [(i, ev)]) -> ~ ended q h /\ ends (q_kind q) (q_corr q) i = false.
Proof.
  intro N. split; [intros [j [A B]]; apply N; exists j; rewrite inputs_snoc; split; auto; apply in_or_app; auto|]. destruct (ends (q_kind q) (q_corr q) i) eqn:X; auto. exfalso. apply N. exists i. rewrite inputs_snoc. split; auto. apply in_or_app; cbn; auto.
Qed.
Lemma reach_kept s h : reach s h -> unique h -> once h -> honest h -> forall c q n, asked c q h -> ~ ended q h -> In n (s_conns s) -> c_ipc n = c -> if is_service q then kept_service c q n s h else kept_queue c q n s h.
Proof.
  induction 1 as [|s h i s' ev R IH P E]; intros U O HO c q n A EN I CN; [destruct I|]. pose proof (unique_snoc _ _ _ U) as U0. pose proof (once_snoc _ _ _ O) as O0. pose proof (honest_snoc _ _ _ HO) as HO0.
  apply ended_snoc in EN as [EN EN2]. apply asked_snoc in A as [A|[on ->]].
  - assert (I0: In n (s_conns s)) by (apply (conn_before s h i ev s'); auto; rewrite CN; apply (asked_connected s h c q R A)). apply (step_kept s h i ev s' c q n); auto. apply (IH U0 O0 HO0 c q n A EN I0 CN).
  - destruct (stepd_of _ _ _ _ _ R P E) as [IV SD]. destruct (step_asked _ _ _ _ (i_sock _ _ IV) SD) as [[NR _]|(m & on' & q1 & q' & w & l & e & I1 & EQ & T & -> & ->)]; [destruct NR|]. injection EQ as -> <- <-.
    cbn in I. assert (m = n) by (apply (same_ipc s); auto; apply IV). subst m. pose proof (fresh_request _ _ _ _ _ U) as Z0.
    assert (NG: forall x, (exists a, x = ILookup (q_corr q) a) \/ (exists a, x = IQueueLookup (q_corr q) a) \/ (exists t, x = IBranch (q_corr q) t) -> ~ got x (h ++ [(External (c_ipc n) on (XRequest q), asks_lookup on (c_ipc n) q :: e)])).
    { intros x X G. apply got_snoc in G as [G|[c2 [ok2 G]]]; [|discriminate]. pose proof (got_answered s h x (q_corr q) R HO0 G X). lia. }
    assert (SAME: same_request q q') by (destruct T; unfold same_request; cbn; auto).
    destruct (is_service q) eqn:SV.
    + exists q', None. unfold body_of. rewrite SV. split; [cbn; apply in_or_app; cbn; auto|]. split; auto. split; [intros name p G; exfalso; apply NG in G; eauto|]. split; [intros t G; exfalso; apply NG in G; eauto|]. split; [|discriminate].
      intro NB. destruct T as [T|g b x T G|g b T G]; auto.
      * right. exists (e_trid x). split; auto. apply from_tm_mono. apply cached_some in G. apply (i_cache _ _ IV _ _ G).
      * exfalso. apply (NB (handle (c_sock n) s) g). apply in_now. cbn; auto.
    + left. exists q', w, None. unfold body_of. rewrite SV. split; [cbn; apply in_or_app; cbn; auto|]. split; auto. split; [destruct T; auto|]. split; [intros x G; exfalso; apply NG in G; eauto|]. split; [intros t G; exfalso; apply NG in G; eauto|]. split; [|auto].
      intro NB. destruct T as [T|g b x T G|g b T G]; auto. exfalso. apply (NB (handle (c_sock n) s) g). apply in_now. cbn; auto.
Qed.

(* a request to a service: found, and the branch is there or there's no need of it *)
Lemma service_forwarded h c q name p : happens h -> unique h -> once h -> honest h -> asked c q h -> is_service q = true -> open c h -> ~ ended q h ->
  (forall t, q_trid q = Some t -> ~ from_tm t h) -> got (ILookup (q_corr q) (Found name p)) h -> no_branch (q_corr q) h \/ (exists t, got (IBranch (q_corr q) t) h) ->
  exists q', In (ToProcess p c q') (effects h) /\ same_request q q' /\ q_name q' = name.
Proof.
  intros [s R] U O HO A SV OP EN OWN G RS. apply (reach_inv s h R) in OP. apply in_map_iff in OP as [n [CN I]]. pose proof (reach_kept s h R U O HO c q n A EN I CN) as K. rewrite SV in K.
  destruct K as (q1 & fnd & K1 & K2 & K3 & K4 & K5 & K6). apply (K6 name p (K3 _ _ G)). destruct RS as [RS|[t RS]].
  - destruct (K5 RS) as [X|[t [X Y]]]; auto. right. destruct (trid_eqb (q_trid q) (q_trid q1)) eqn:TE; auto. apply trid_eq in TE. exfalso. apply (OWN t); auto. congruence.
  - pose proof (K4 _ RS) as X. right. destruct (trid_eqb (q_trid q) (q_trid q1)) eqn:TE; auto. apply trid_eq in TE. exfalso. apply (OWN t); [congruence|]. exists (q_corr q). auto.
Qed.
Lemma queue_forwarded h c q x : happens h -> unique h -> once h -> honest h -> asked c q h -> is_service q = false -> open c h -> ~ ended q h ->
  got (IQueueLookup (q_corr q) x) h -> no_branch (q_corr q) h \/ (exists t, got (IBranch (q_corr q) t) h) ->
  match x with
  | Some p => exists q', In (ToProcess p c q') (effects h) /\ same_request q q' /\ q_name q' = q_name q
  | None => In (ToPartner c (IReply (q_kind q) (q_corr q) 0 0)) (effects h)
  end.
Proof.
  intros [s R] U O HO A SV OP EN G RS. apply (reach_inv s h R) in OP. apply in_map_iff in OP as [n [CN I]]. pose proof (reach_kept s h R U O HO c q n A EN I CN) as K. rewrite SV in K. destruct K as [K|[y [K1 K2]]].
  - exfalso. destruct K as (q1 & w & fnd & K1 & K2 & KN & K3 & K4 & K5 & K6). pose proof (K3 _ G) as X. assert (w = false) by (destruct RS as [RS|[t RS]]; eauto). rewrite K6 in X; auto. discriminate.
  - assert (X: x = y); [|now subst]. destruct G as [c1 [ok1 G]], K1 as [c2 [ok2 K1]]. assert (Y: Internal c1 ok1 (IQueueLookup (q_corr q) x) = Internal c2 ok2 (IQueueLookup (q_corr q) y)).
    { apply (count_unique (is_lookup (q_corr q)) (inputs h)); auto; [apply (O (q_corr q))| |]; cbn; apply Z.eqb_refl. } now injection Y.
Qed.

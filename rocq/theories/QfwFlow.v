(* A flow is pending until it's over, and an answer to it gives the next request. *)
From Coq Require Import ZArith List Bool Lia.
From Verif Require Import QfwModel QfwSpec QfwProofs QfwInv.
Import ListNotations.
Local Open Scope Z_scope.

Definition present (k : Z) (l : list pend) : Prop := exists p, In p l /\ p_corr p = k /\ p_stage p <> LookQ.
Lemma present_but k j l : present k (but j l) <-> present k l /\ k <> j.
Proof.
  split.
  - intros (p & I & K & N). apply in_but in I as [I J]. split; [exists p; auto|congruence].
  - intros [(p & I & K & N) J]. exists p. split; [apply in_but; split; auto; congruence|auto].
Qed.
Lemma present_push k x l : p_stage x <> LookQ -> present k (l ++ [x]) <-> present k l \/ k = p_corr x.
Proof.
  intro N. split.
  - intros (p & I & K & M). apply in_app_or in I as [I|[<-|[]]]; [left; exists p; auto|right; auto].
  - intros [(p & I & K & M)| ->]; [exists p; split; [apply in_or_app; auto|auto]|exists x; split; [apply in_or_app; right; now left|auto]].
Qed.
Lemma present_look k id j a b l : present k (l ++ [Pend LookQ id j a b]) <-> present k l.
Proof.
  split.
  - intros (p & I & K & M). apply in_app_or in I as [I|[<-|[]]]; [exists p; auto|cbn in M; congruence].
  - intros (p & I & K & M). exists p; split; [apply in_or_app; auto|auto].
Qed.
Lemma present_discarded k ks l : present k (discarded ks l) <-> present k l.
Proof.
  split.
  - intros (p & I & K & M). apply in_discarded in I as [[I _]|(x & I & X & ->)]; [exists p; auto|]. exists x. split; [auto|split; [auto|]]. apply andb_true_iff in X as [X _]. apply stage_eqb_eq in X. rewrite X. discriminate.
  - intros (p & I & K & M). destruct (stage_eqb (p_stage p) LookS && existsb (Z.eqb (p_corr p)) ks) eqn:E.
    + exists (Pend Disc (p_fwd p) (p_corr p) (p_trid p) 0). split; [apply in_discarded; right; exists p; auto|cbn; split; [auto|discriminate]].
    + exists p. split; [apply in_discarded; left; auto|auto].
Qed.
(* new flows have a request, and a correlation that is new *)
Definition more (k : Z) (s s' : state) (ev : list effect) : Prop :=
  (present k (s_pending s') <-> present k (s_pending s) \/ filter (about k) ev <> []) /\ (filter (about k) ev <> [] -> s_next s <= k) /\ s_next s <= s_next s'.
Lemma more_flowless k s s' ev : flowless ev -> (present k (s_pending s') <-> present k (s_pending s)) -> s_next s <= s_next s' -> more k s s' ev.
Proof. intros F P N. unfold more. rewrite (F k). split; [tauto|split; [congruence|auto]]. Qed.
Lemma more_dequeue_n k n : forall f s, more k s (fst (dequeue_n n f s)) (snd (dequeue_n n f s)).
Proof.
  induction n as [|n IH]; intros f s; cbn [dequeue_n].
  - cbn [fst snd]. apply more_flowless; [apply flowless_nil|reflexivity|cbn; lia].
  - match goal with |- context [dequeue_n n ?a ?b] => specialize (IH a b); destruct (dequeue_n n a b) as [s2 ev] end. cbn [fst snd] in *. destruct IH as (A & B & D). cbn [s_next s_pending] in *.
    unfold more. cbn [filter about]. rewrite present_push in A by (cbn; discriminate). cbn [p_corr] in A. destruct (s_next s =? k) eqn:E.
    + apply Z.eqb_eq in E. split; [|split; [lia|lia]]. split; [intros _; right; discriminate|]. intros _. apply A. left. right. auto.
    + apply Z.eqb_neq in E. split; [|split; [intro Q; specialize (B Q); lia|lia]]. rewrite A. intuition congruence.
Qed.
Lemma more_dequeue_request k f s : more k s (fst (dequeue_request f s)) (snd (dequeue_request f s)).
Proof. unfold dequeue_request. destruct (f_enabled f); [apply more_dequeue_n|]. cbn [fst snd]. apply more_flowless; [apply flowless_nil|reflexivity|cbn; lia]. Qed.
Lemma more_ask k id names : forall s, more k s (fst (ask_queues id names s)) (snd (ask_queues id names s)).
Proof.
  induction names as [|n names IH]; intro s; cbn [ask_queues].
  - cbn [fst snd]. apply more_flowless; [apply flowless_nil|reflexivity|lia].
  - match goal with |- context [ask_queues id names ?b] => specialize (IH b); destruct (ask_queues id names b) as [s2 ev] end. cbn [fst snd] in *. destruct IH as (A & B & D). cbn [s_next s_pending] in *.
    rewrite present_look in A. unfold more. cbn [filter about]. split; [auto|split; [intro Q; specialize (B Q); lia|lia]].
Qed.
Lemma more_next k f s : more k s (fst (next f s)) (snd (next f s)).
Proof.
  unfold next. destruct (valid_queues f); [apply more_dequeue_request|]. destruct (existsb _ _).
  - cbn [fst snd]. apply more_flowless; [apply flowless_nil|reflexivity|cbn; lia].
  - unfold lookup_queues. pose proof (more_ask k (f_id f) (queues_of f) (put_forward f s)) as X. exact X.
Qed.
Definition steady (k : Z) (s s' : state) (ev : list effect) : Prop := flowless ev /\ (present k (s_pending s') <-> present k (s_pending s)) /\ s_next s <= s_next s'.
Lemma steady_each k g : (forall f s, steady k s (fst (g f s)) (snd (g f s))) -> forall l s, steady k s (fst (each g l s)) (snd (each g l s)).
Proof.
  intros G l. induction l as [|f l IH]; intro s; cbn [each].
  - cbn. split; [apply flowless_nil|split; [reflexivity|lia]].
  - destruct (G f s) as (A & B & D). destruct (g f s) as [s1 e1]. destruct (IH s1) as (A2 & B2 & D2). destruct (each g l s1) as [s2 e2]. cbn [fst snd] in *. split; [now apply flowless_app|split; [tauto|lia]].
Qed.
Lemma steady_ask k id names s : steady k s (fst (ask_queues id names s)) (snd (ask_queues id names s)).
Proof.
  assert (F : flowless (snd (ask_queues id names s))).
  { revert s. induction names as [|n names IH]; intro s; cbn [ask_queues]; [apply flowless_nil|]. match goal with |- context [ask_queues id names ?b] => specialize (IH b); destruct (ask_queues id names b) as [s2 ev] end. exact IH. }
  destruct (more_ask k id names s) as (A & B & D). split; [auto|split; [|auto]]. rewrite (F k) in A. tauto.
Qed.
Lemma steady_cancel k f s : steady k s (fst (cancel_surplus f s)) (snd (cancel_surplus f s)).
Proof.
  unfold cancel_surplus. cbv zeta. destruct (f_service f); cbn [fst snd].
  - split; [apply flowless_app; now apply flowless_map|split; [apply present_discarded|cbn; lia]].
  - split; [now apply flowless_map|split; [reflexivity|lia]].
Qed.
Lemma steady_comply k s : steady k s (fst (comply s)) (snd (comply s)).
Proof.
  unfold comply. cbv zeta. pose proof (steady_each k cancel_surplus (steady_cancel k) (queue_forwards s ++ service_forwards s) s) as (A & B & D). destruct (each cancel_surplus _ s) as [s1 e1]. cbn [fst snd] in *.
  assert (G : forall f s, steady k s (fst (start_lookups f s)) (snd (start_lookups f s))).
  { intros f s'. unfold start_lookups. destruct (f_enabled f && negb (f_configured f =? 0)%nat); [apply steady_ask|split; [apply flowless_nil|split; [reflexivity|cbn; lia]]]. }
  pose proof (steady_each k start_lookups G (service_forwards s1 ++ queue_forwards s1) s1) as (A2 & B2 & D2). destruct (each start_lookups _ s1) as [s2 e2]. cbn [fst snd] in *.
  split; [|split; [tauto|lia]]. apply flowless_app; [now apply flowless_map|now apply flowless_app].
Qed.

(* the pending of a flow says what the last request of it is *)
Lemma present_last C s st k l : Inv C s st -> last_of (st k) = Some l -> present k (s_pending s) -> exists p, In p (s_pending s) /\ p_corr p = k /\ p_stage p <> LookQ /\ matches p l.
Proof.
  intros H L (p & I & K & N). destruct (flow_facts C s st p H I N) as (c & x & _ & _ & _ & L' & M & _). rewrite K, L in L'. injection L' as <-. exists p. auto.
Qed.
Lemma ends_consume C s st k i stg : Inv C s st -> present k (s_pending s) ->
  (forall p l, matches p l -> p_stage p <> LookQ -> ends k (Some l) i = true -> p_stage p = stg) ->
  ends k (last_of (st k)) i = true -> exists x, In x (s_pending s) /\ p_stage x = stg /\ p_corr x = k.
Proof.
  intros H P M E. destruct (last_of (st k)) as [l|] eqn:L; [|cbn in E; discriminate]. destruct (present_last C s st k l H L P) as (p & I & K & N & Mp). exists p. split; [auto|split; [|auto]]. now apply (M p l).
Qed.
Lemma consume_none st k s : consume st k s = None -> forall x, In x (s_pending s) -> p_stage x = st -> p_corr x <> k.
Proof.
  unfold consume. destruct (find (is st k) (s_pending s)) eqn:E; [discriminate|]. intros _ x I S K. apply (find_none _ _ E) in I. assert (is st k x = true) by (apply is_spec; auto). congruence.
Qed.
Ltac by_match := let p := fresh "p" in let j := fresh "j" in let e := fresh "e" in let M := fresh "M" in let N := fresh "N" in let E := fresh "E" in
  intros p [j e] M N E; unfold matches in M; destruct (p_stage p); try congruence; cbn in M; destruct e; cbn in E; try discriminate; try contradiction; auto.

Definition step_present_goal (st : Z -> list (input * effect)) (k : Z) (i : input) (s s' : state) (ev : list effect) : Prop :=
  present k (s_pending s') <-> (present k (s_pending s) /\ ends k (last_of (st k)) i = false) \/ (st k = [] /\ filter (about k) ev <> []).
Lemma goal_steady st k i s s' ev : steady k s s' ev -> (present k (s_pending s) -> ends k (last_of (st k)) i = false) -> step_present_goal st k i s s' ev.
Proof. intros (F & P & _) E. unfold step_present_goal. rewrite (F k). split; [intro X; left; split; [tauto|apply E; tauto]|intros [[X _]|[_ X]]; [tauto|congruence]]. Qed.
Lemma steady_same k s : steady k s s [].
Proof. split; [apply flowless_nil|split; [reflexivity|lia]]. Qed.
(* a flow moves on *)
Lemma goal_advance C st k i s x x' e fs run : Inv C s st -> In x (s_pending s) -> p_stage x <> LookQ -> p_stage x' <> LookQ -> p_corr x' = p_corr x -> (about (p_corr x) e = true) ->
  (forall last, ends k last i = false) -> step_present_goal st k i s (State run fs (but (p_corr x) (s_pending s) ++ [x']) (s_next s)) [e].
Proof.
  intros H I N N' K A E. unfold step_present_goal. cbn [s_pending]. rewrite present_push, present_but, E, K by auto.
  assert (P : present (p_corr x) (s_pending s)) by (exists x; auto). destruct (Z.eq_dec k (p_corr x)) as [->|D]; [intuition|].
  assert (filter (about k) [e] = []) as ->. { cbn. destruct (about k e) eqn:B; auto. exfalso. apply D. destruct e; cbn in *; try discriminate; apply Z.eqb_eq in A, B; congruence. }
  intuition congruence.
Qed.
(* a flow ends *)
Lemma goal_finish C st k i s x s' ev : Inv C s st -> In x (s_pending s) -> p_stage x <> LookQ ->
  more k (with_pending (but (p_corr x) (s_pending s)) s) s' ev ->
  (forall l, last_of (st (p_corr x)) = Some l -> ends (p_corr x) (Some l) i = true) -> (forall l, k <> p_corr x -> ends k l i = false) -> step_present_goal st k i s s' ev.
Proof.
  intros H I N (A & B & _) E O. unfold step_present_goal. rewrite A. cbn [s_pending with_pending]. rewrite present_but. cbn [s_next with_pending] in B.
  assert (F : filter (about k) ev <> [] <-> st k = [] /\ filter (about k) ev <> []). { split; [|tauto]. intro Q. split; auto. apply (i_fresh _ _ _ H). auto. }
  destruct (Z.eq_dec k (p_corr x)) as [->|D].
  - destruct (flow_facts C s st x H I N) as (c & l & _ & _ & _ & L & _ & _). rewrite L. rewrite (E l L). rewrite F. intuition congruence.
  - rewrite (O _ D). tauto.
Qed.
Lemma step_present C s st i k : Inv C s st -> possible i -> step_present_goal st k i s (fst (step i s)) (snd (step i s)).
Proof.
  intros H P. pose proof (i_nodup _ _ _ H) as ND. destruct i as [l|k0 name q p r|k0 r|k0 m|k0|k0 d|k0 a|k0|k0 code r|k0 ok|k0 pr|k0|k0|k0|p|].
  - cbn [step]. apply goal_steady; [|intros _; destruct (last_of (st k)) as [[j []]|]; reflexivity]. unfold update. cbv zeta.
    match goal with |- context [comply ?x] => pose proof (steady_comply k x) as (A & B & D); destruct (comply x) as [s1 ev] end. cbn [fst snd] in *.
    split; [apply flowless_app; [auto|now intro]|split; [exact B|exact D]].
  - assert (Z0 : forall l, ends k l (QueueFound k0 name q p r) = false) by (intros [[j []]|]; reflexivity).
    cbn [step]. destruct (consume LookQ k0 s) as [[x s1]|] eqn:E; [|apply goal_steady; [apply steady_same|auto]]. apply consume_spec in E as (I & SX & K & ->); auto.
    assert (Q : present k (but k0 (s_pending s)) <-> present k (s_pending s)).
    { rewrite present_but. split; [tauto|]. intro X. split; auto. intros ->. destruct X as (y & Y & Yk & Yn). apply Yn. assert (y = x) by (apply (nodup_inj p_corr (s_pending s)); auto; congruence). subst y. auto. }
    destruct (is_down _); [apply goal_steady; auto; split; [apply flowless_nil|split; [exact Q|cbn; lia]]|].
    destruct (find_forward (p_fwd x) _) as [f|]; [|apply goal_steady; auto; split; [apply flowless_nil|split; [exact Q|cbn; lia]]].
    assert (Fe : flowless (snd (assign name q p r f))). { unfold assign. cbv zeta. destruct (r_name (f_source f) =? name); [destruct r|]; now intro. }
    destruct (assign name q p r f) as [f' e]. cbn [fst snd] in Fe. destruct (valid_queues f').
    + pose proof (more_dequeue_request k f' (with_pending (but k0 (s_pending s)) s)) as (A & B & D). destruct (dequeue_request f' _) as [s' ev]. cbn [fst snd s_pending with_pending s_next] in *.
      unfold step_present_goal. rewrite filter_app, (Fe k). cbn [app]. rewrite A, Q, Z0. split; [intros [X|X]; [auto|right; split; auto; apply (i_fresh _ _ _ H); auto]|tauto].
    + cbn [fst snd]. apply goal_steady; auto. split; [auto|split; [exact Q|cbn; lia]].
  - assert (Z0 : forall l, ends k l (QueueDiscarded k0 r) = false) by (intros [[j []]|]; reflexivity).
    cbn [step]. destruct r; [apply goal_steady; [apply steady_same|auto]|]. destruct (consume LookQ k0 s) as [[x s1]|] eqn:E; [|apply goal_steady; [apply steady_same|auto]]. apply consume_spec in E as (I & SX & K & ->); auto.
    apply goal_steady; auto. split; [apply flowless_nil|split; [|cbn; lia]]. cbn. rewrite present_but. split; [tauto|]. intro X. split; auto. intros ->. destruct X as (y & Y & Yk & Yn). apply Yn. assert (y = x) by (apply (nodup_inj p_corr (s_pending s)); auto; congruence). subst y. auto.
  - assert (Z0 : forall l, ends k l (Dequeued k0 m) = false) by (intros [[j []]|]; reflexivity).
    cbn [step]. destruct (consume Deq k0 s) as [[x s1]|] eqn:E; [|apply goal_steady; [apply steady_same|auto]]. apply consume_spec in E as (I & SX & K & ->); auto. subst k0. st_facts H I SX c y.
    assert (Nx : p_stage x <> LookQ) by (rewrite SX; discriminate).
    destruct m as [data|]; [|apply (goal_advance C st k _ s x); cbn; auto; try discriminate; apply Z.eqb_refl].
    destruct (is_down _); [apply (goal_advance C st k _ s x); cbn; auto; try discriminate; apply Z.eqb_refl|].
    destruct (find_forward_static C s st _ _ H Sta) as (f & F & J & Ef). change (find_forward (p_fwd x) (with_pending (but (p_corr x) (s_pending s)) s)) with (find_forward (p_fwd x) s). rewrite F.
    injection Ef as E1 E2 E3 E4 E5 E6.
    destruct (f_service f) as [sv|] eqn:Sv; [apply (goal_advance C st k _ s x); cbn; auto; try discriminate; apply Z.eqb_refl|].
    destruct (f_dest f) as [[d delay]|] eqn:De; [apply (goal_advance C st k _ s x); cbn; auto; try discriminate; apply Z.eqb_refl|].
    exfalso. destruct (i_sta _ _ _ H _ Sta) as (c2 & _ & Ok & Q). cbn in Q. unfold conf_sta in Q. injection Q as Q1 Q2 Q3 Q4 Q5. cbn in E5. apply Ok; congruence.
  - cbn [step]. destruct (consume Deq k0 s) as [[x s1]|] eqn:E.
    + apply consume_spec in E as (I & SX & K & ->); auto. subst k0. st_facts H I SX c y. destruct (inv_finish C s st (ForgetRequest (p_corr x)) x H I) as (f & F & J & Ef & _ & _); [rewrite SX; discriminate|]. rewrite F. cbn [fst snd].
      apply (goal_finish C st k _ s x); auto; [rewrite SX; discriminate|apply more_flowless; [apply flowless_nil|reflexivity|cbn; lia]| |].
      * intros l Ll. rewrite L in Ll. injection Ll as <-. destruct y as [j e]. mx Mx SX. cbn in Mx. destruct e; try contradiction. apply Z.eqb_refl.
      * intros [[j []]|] N; cbn; auto. apply Z.eqb_neq. congruence.
    + apply goal_steady; [apply steady_same|]. intro Pk. destruct (ends k (last_of (st k)) (ForgetRequest k0)) eqn:En; auto. exfalso.
      destruct (ends_consume C s st k (ForgetRequest k0) Deq H Pk) as (x & I & SX & K); [by_match|auto|]. apply (consume_none _ _ _ E x I SX). destruct (last_of (st k)) as [[j []]|]; cbn in En; try discriminate; apply Z.eqb_eq in En; congruence.
  - cbn [step]. destruct d; [|apply goal_steady; [apply steady_same|intros _; destruct (last_of (st k)) as [[j []]|]; reflexivity]]. destruct (consume Deq k0 s) as [[x s1]|] eqn:E.
    + apply consume_spec in E as (I & SX & K & ->); auto. subst k0. st_facts H I SX c y. destruct (inv_finish C s st (Forgotten (p_corr x) true) x H I) as (f & F & J & Ef & _ & _); [rewrite SX; discriminate|]. rewrite F. cbn [fst snd].
      apply (goal_finish C st k _ s x); auto; [rewrite SX; discriminate|apply more_next| |].
      * intros l Ll. rewrite L in Ll. injection Ll as <-. destruct y as [j e]. mx Mx SX. cbn in Mx. destruct e; try contradiction. apply Z.eqb_refl.
      * intros [[j []]|] N; cbn; auto. apply Z.eqb_neq. congruence.
    + apply goal_steady; [apply steady_same|]. intro Pk. destruct (ends k (last_of (st k)) (Forgotten k0 true)) eqn:En; auto. exfalso.
      destruct (ends_consume C s st k (Forgotten k0 true) Deq H Pk) as (x & I & SX & K); [by_match|auto|]. apply (consume_none _ _ _ E x I SX). destruct (last_of (st k)) as [[j []]|]; cbn in En; try discriminate; apply Z.eqb_eq in En; congruence.
  - assert (Z0 : forall l, ends k l (ServiceFound k0 a) = false) by (intros [[j []]|]; reflexivity).
    cbn [step]. destruct (consume LookS k0 s) as [[x s1]|] eqn:E; [|apply goal_steady; [apply steady_same|auto]]. apply consume_spec in E as (I & SX & K & ->); auto. subst k0. assert (Nx : p_stage x <> LookQ) by (rewrite SX; discriminate).
    destruct a as [[sv p]|]; apply (goal_advance C st k _ s x); cbn; auto; try discriminate; apply Z.eqb_refl.
  - assert (Z0 : forall l, ends k l (ServiceDiscarded k0) = false) by (intros [[j []]|]; reflexivity).
    cbn [step]. destruct (consume Disc k0 s) as [[x s1]|] eqn:E; [|apply goal_steady; [apply steady_same|auto]]. apply consume_spec in E as (I & SX & K & ->); auto. subst k0. assert (Nx : p_stage x <> LookQ) by (rewrite SX; discriminate).
    apply (goal_advance C st k _ s x); cbn; auto; try discriminate; apply Z.eqb_refl.
  - assert (Z0 : forall l, ends k l (CallReply k0 code r) = false) by (intros [[j []]|]; reflexivity).
    cbn [step]. destruct (consume Calling k0 s) as [[x s1]|] eqn:E; [|apply goal_steady; [apply steady_same|auto]]. apply consume_spec in E as (I & SX & K & ->); auto. subst k0. assert (Nx : p_stage x <> LookQ) by (rewrite SX; discriminate). st_facts H I SX c y.
    destruct (find_forward_static C s st _ _ H Sta) as (f & F & J & Ef). change (find_forward (p_fwd x) (with_pending (but (p_corr x) (s_pending s)) s)) with (find_forward (p_fwd x) s). rewrite F.
    destruct (negb (code =? 0)); [apply (goal_advance C st k _ s x); cbn; auto; try discriminate; apply Z.eqb_refl|]. destruct (f_dest f) as [[d delay]|]; apply (goal_advance C st k _ s x); cbn; auto; try discriminate; apply Z.eqb_refl.
  - assert (Z0 : forall l, ends k l (Enqueued k0 ok) = false) by (intros [[j []]|]; reflexivity).
    cbn [step]. destruct (consume Enq k0 s) as [[x s1]|] eqn:E; [|apply goal_steady; [apply steady_same|auto]]. apply consume_spec in E as (I & SX & K & ->); auto. subst k0. assert (Nx : p_stage x <> LookQ) by (rewrite SX; discriminate).
    destruct ok; [apply (goal_advance C st k _ s x); cbn; auto; try discriminate; apply Z.eqb_refl|]. destruct (find_forward _ _); apply (goal_advance C st k _ s x); cbn; auto; try discriminate; apply Z.eqb_refl.
  - cbn [step]. destruct pr; [apply goal_steady; [apply steady_same|intros _; destruct (last_of (st k)) as [[j []]|]; reflexivity]|]. destruct (consume Com k0 s) as [[x s1]|] eqn:E.
    + apply consume_spec in E as (I & SX & K & ->); auto. subst k0. st_facts H I SX c y. destruct (inv_finish C s st (Committed (p_corr x) false) x H I) as (f & F & J & Ef & _ & _); [rewrite SX; discriminate|]. rewrite F. cbn [fst snd].
      apply (goal_finish C st k _ s x); auto; [rewrite SX; discriminate|apply more_next| |].
      * intros l Ll. rewrite L in Ll. injection Ll as <-. destruct y as [j e]. mx Mx SX. cbn in Mx. destruct e; try contradiction. apply Z.eqb_refl.
      * intros [[j []]|] N; cbn; auto. apply Z.eqb_neq. congruence.
    + apply goal_steady; [apply steady_same|]. intro Pk. destruct (ends k (last_of (st k)) (Committed k0 false)) eqn:En; auto. exfalso.
      destruct (ends_consume C s st k (Committed k0 false) Com H Pk) as (x & I & SX & K); [by_match|auto|]. apply (consume_none _ _ _ E x I SX). destruct (last_of (st k)) as [[j []]|]; cbn in En; try discriminate; apply Z.eqb_eq in En; congruence.
  - cbn [step]. destruct (consume Rol k0 s) as [[x s1]|] eqn:E.
    + apply consume_spec in E as (I & SX & K & ->); auto. subst k0. st_facts H I SX c y. destruct (inv_finish C s st (RolledBack (p_corr x)) x H I) as (f & F & J & Ef & _ & _); [rewrite SX; discriminate|]. rewrite F. cbn [fst snd].
      apply (goal_finish C st k _ s x); auto; [rewrite SX; discriminate|apply more_next| |].
      * intros l Ll. rewrite L in Ll. injection Ll as <-. destruct y as [j e]. mx Mx SX. cbn in Mx. destruct e; try contradiction. apply Z.eqb_refl.
      * intros [[j []]|] N; cbn; auto. apply Z.eqb_neq. congruence.
    + apply goal_steady; [apply steady_same|]. intro Pk. destruct (ends k (last_of (st k)) (RolledBack k0)) eqn:En; auto. exfalso.
      destruct (ends_consume C s st k (RolledBack k0) Rol H Pk) as (x & I & SX & K); [by_match|auto|]. apply (consume_none _ _ _ E x I SX). destruct (last_of (st k)) as [[j []]|]; cbn in En; try discriminate; apply Z.eqb_eq in En; congruence.
  - cbn [step fst snd]. unfold step_present_goal. cbn [s_pending with_pending filter].
    assert (A : present k (filter (fun p => negb (is Deq k0 p)) (s_pending s)) <-> present k (s_pending s) /\ ends k (last_of (st k)) (NotDequeued k0) = false); [|tauto]. split.
    + intros (x & I & K & N). apply filter_In in I as [I X]. split; [exists x; auto|]. destruct (ends k (last_of (st k)) (NotDequeued k0)) eqn:En; auto. exfalso.
      destruct (ends_consume C s st k (NotDequeued k0) Deq H) as (y & Y & SY & KY); [exists x; auto|by_match|auto|]. assert (y = x) by (apply (nodup_inj p_corr (s_pending s)); auto; congruence). subst y.
      assert (is Deq k0 x = true) as Z; [|now rewrite Z in X]. apply is_spec. split; auto. destruct (last_of (st k)) as [[j []]|]; cbn in En; try discriminate; apply Z.eqb_eq in En; congruence.
    + intros [(x & I & K & N) En]. exists x. split; [|auto]. apply filter_In. split; auto. apply negb_true_iff. destruct (is Deq k0 x) eqn:Q; auto. apply is_spec in Q as [Q1 Q2]. st_facts H I Q1 c y.
      rewrite <- K, L in En. destruct y as [j e]. mx Mx Q1. cbn in Mx. destruct e; try contradiction. cbn in En. apply Z.eqb_neq in En. congruence.
  - assert (Z0 : forall l, ends k l (NotEnqueued k0) = false) by (intros [[j []]|]; reflexivity).
    cbn [step]. destruct (consume Enq k0 s) as [[x s1]|] eqn:E; [|apply goal_steady; [apply steady_same|auto]]. apply consume_spec in E as (I & SX & K & ->); auto. subst k0. assert (Nx : p_stage x <> LookQ) by (rewrite SX; discriminate).
    destruct (find_forward (p_fwd x) s) as [f|]; [|apply goal_steady; [apply steady_same|auto]]. destruct (f_service f); [|apply goal_steady; [apply steady_same|auto]].
    apply (goal_advance C st k _ s x); cbn; auto; try discriminate; apply Z.eqb_refl.
  - apply goal_steady; [|intros _; destruct (last_of (st k)) as [[j []]|]; reflexivity]. cbn [step]. apply steady_each. intros f s'. unfold dead_one. cbv zeta. destruct (_ || _); [|apply steady_same].
    destruct (match f_dest f with Some (d, _) => _ | None => _ end); cbn [fst snd].
    + split; [apply flowless_app; [apply flowless_app; now apply flowless_map|now apply flowless_map]|split; [reflexivity|cbn; lia]].
    + split; [apply flowless_app; now apply flowless_map|split; [reflexivity|lia]].
  - apply goal_steady; [|intros _; destruct (last_of (st k)) as [[j []]|]; reflexivity]. cbn [step]. match goal with |- context [comply ?x] => exact (steady_comply k x) end.
Qed.

Lemma over_app k h i ev : over k (h ++ [(i, ev)]) <-> over k h \/ ends k (last_of (story_of k h)) i = true.
Proof.
  split.
  - intro O. inversion O as [h0 i0 ev0 E Q|h0 x O' Q]; apply app_inj_tail in Q as [-> Q]; [injection Q as -> ->; auto|auto].
  - intros [O|E]; [now apply over_since|now apply over_now].
Qed.
Lemma over_story k h : over k h -> story_of k h <> [].
Proof.
  intro O. induction O as [h i ev E|h x O IH]; rewrite story_of_app; intro Q; apply app_eq_nil in Q as [Q _]; [|tauto]. rewrite Q in E. cbn in E. discriminate.
Qed.
Lemma not_over_nil k : ~ over k [].
Proof. intro O. inversion O as [h i ev E Q|h x O' Q]; symmetry in Q; now apply app_cons_not_nil in Q. Qed.
Lemma reach_present s h : reach s h -> forall k, present k (s_pending s) <-> story_of k h <> [] /\ ~ over k h.
Proof.
  intro R. induction R as [|s h i R IH P]; intro k.
  - split; [intros (p & [] & _)|intros [X _]; cbn in X; congruence].
  - pose proof (step_present _ _ _ i k (reach_inv s h R) P) as X. unfold step_present_goal in X. rewrite X, IH, over_app, story_of_app, story_of_one. clear X. split.
    + intros [[[A B] E]|[A B]].
      * split; [intro Q; apply app_eq_nil in Q; tauto|]. intros [O|E']; [tauto|congruence].
      * rewrite A. split; [cbn; intro Q; apply B; destruct (filter (about k) (snd (step i s))); auto; discriminate|]. intros [O|O]; [apply over_story in O; congruence|cbn in O; discriminate].
    + intros [A B]. destruct (story_of k h) as [|z l] eqn:Q.
      * right. split; auto. intro Z. rewrite Z in A. cbn in A. congruence.
      * left. split; [split; [discriminate|tauto]|]. destruct (ends k (last_of (z :: l)) i); tauto.
Qed.

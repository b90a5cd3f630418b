(* How many flows a forward has. *)
From Coq Require Import ZArith List Bool Lia.
From Verif Require Import QfwModel QfwSpec QfwProofs QfwInv QfwFlow.
Import ListNotations.
Local Open Scope Z_scope.

Definition flow_of (id : Z) (p : pend) : bool := negb (stage_eqb (p_stage p) LookQ) && (p_fwd p =? id).
Definition flows (id : Z) (l : list pend) : nat := length (filter (flow_of id) l).
Lemma flows_app id a b : flows id (a ++ b) = (flows id a + flows id b)%nat.
Proof. unfold flows. now rewrite filter_app, app_length. Qed.
Lemma flows_one id p : flows id [p] = if flow_of id p then 1%nat else 0%nat.
Proof. unfold flows. cbn. destruct (flow_of id p); reflexivity. Qed.
Lemma flows_but id x l : NoDup (map p_corr l) -> In x l -> (flows id (but (p_corr x) l) + flows id [x] = flows id l)%nat.
Proof.
  intros N I. unfold flows, but. induction l as [|a l IH]; [destruct I|]. cbn [map] in N. inversion N as [|? ? X Y]; subst. destruct I as [->|I].
  - cbn [filter]. rewrite Z.eqb_refl. cbn [negb]. pose proof (but_id (p_corr x) l X) as B. unfold but in B. rewrite B. cbn [filter]. destruct (flow_of id x); cbn; lia.
  - specialize (IH Y I). cbn [filter]. assert (p_corr a =? p_corr x = false) as ->. { apply Z.eqb_neq. intro E. apply X. rewrite E. now apply in_map. }
    cbn [negb filter]. cbn [filter] in IH. destruct (flow_of id a); cbn [length]; lia.
Qed.
Lemma flows_filter id g l : (flows id (filter g l) <= flows id l)%nat.
Proof. unfold flows. induction l as [|a l IH]; cbn; auto. destruct (g a); cbn; destruct (flow_of id a); cbn; lia. Qed.
Lemma flows_discarded id ks l : flows id (discarded ks l) = flows id l.
Proof.
  unfold discarded. rewrite flows_app. unfold flows. induction l as [|a l IH]; auto. cbn [filter]. destruct (stage_eqb (p_stage a) LookS && existsb (Z.eqb (p_corr a)) ks) eqn:E; cbn [negb filter map].
  - apply andb_true_iff in E as [E _]. apply stage_eqb_eq in E. assert (flow_of id (Pend Disc (p_fwd a) (p_corr a) (p_trid a) 0) = flow_of id a) as -> by (unfold flow_of; cbn [p_stage p_fwd]; now rewrite E). destruct (flow_of id a); cbn [length]; lia.
  - destruct (flow_of id a); cbn [length]; lia.
Qed.

(* [exact]: the count is exact *)
Definition good (exact : bool) (l : list pend) (f : forward) : Prop := (flows (f_id f) l <= f_running f)%nat /\ (exact = true -> flows (f_id f) l = f_running f).
Definition Counts (exact : bool) (s : state) : Prop := forall f, In f (s_forwards s) -> good exact (s_pending s) f.
Lemma in_set_forward f l g : NoDup (map f_id l) -> In g (set_forward f l) -> g = f \/ (In g l /\ f_id g <> f_id f).
Proof.
  induction l as [|x l IH]; cbn [set_forward map]; [tauto|]. intro N. inversion N as [|? ? X Y]; subst. destruct (f_id x =? f_id f) eqn:E.
  - apply Z.eqb_eq in E. intros [->|I]; auto. right. split; [now right|]. intro Q. apply X. rewrite E, <- Q. now apply in_map.
  - apply Z.eqb_neq in E. intros [->|I]; [right; split; [now left|auto]|]. destruct (IH Y I) as [->|[J K]]; auto. right. split; [now right|auto].
Qed.
Definition others (exact : bool) (id : Z) (s : state) : Prop := forall g, In g (s_forwards s) -> f_id g <> id -> good exact (s_pending s) g.
Lemma counts_put exact f s : NoDup (map f_id (s_forwards s)) -> others exact (f_id f) s -> good exact (s_pending s) f -> Counts exact (put_forward f s).
Proof. intros N O G g I. cbn in I. apply in_set_forward in I as [->|[I J]]; auto. Qed.
Lemma counts_dequeue_n exact n : forall f s, NoDup (map f_id (s_forwards s)) -> others exact (f_id f) s -> good exact (s_pending s) f -> Counts exact (fst (dequeue_n n f s)).
Proof.
  induction n as [|n IH]; intros f s N O G; cbn [dequeue_n].
  - now apply counts_put.
  - match goal with |- context [dequeue_n n ?a ?b] => specialize (IH a b N); destruct (dequeue_n n a b) as [s2 ev] end. cbn [fst] in *. apply IH.
    + intros g I J. destruct (O g I J) as [A B]. cbn [s_pending f_id with_running] in *. unfold good. rewrite flows_app, flows_one. assert (flow_of (f_id g) (Pend Deq (f_id f) (s_next s) (s_next s + 1) 0) = false) as ->.
      { unfold flow_of. cbn. apply Z.eqb_neq. congruence. } rewrite Nat.add_0_r. auto.
    + destruct G as [A B]. cbn [s_pending]. unfold good. cbn [f_id f_running with_running]. rewrite flows_app, flows_one. assert (flow_of (f_id f) (Pend Deq (f_id f) (s_next s) (s_next s + 1) 0) = true) as ->.
      { unfold flow_of. cbn. apply Z.eqb_refl. } split; [lia|]. intro E. rewrite (B E). reflexivity.
Qed.
Lemma counts_dequeue_request exact f s : NoDup (map f_id (s_forwards s)) -> others exact (f_id f) s -> good exact (s_pending s) f -> Counts exact (fst (dequeue_request f s)).
Proof. intros. unfold dequeue_request. destruct (f_enabled f); [now apply counts_dequeue_n|now apply counts_put]. Qed.
Lemma counts_ask exact id names : forall s, Counts exact s -> Counts exact (fst (ask_queues id names s)).
Proof.
  induction names as [|n names IH]; intros s H; cbn [ask_queues]; auto.
  match goal with |- context [ask_queues id names ?b] => specialize (IH b); destruct (ask_queues id names b) as [s2 ev] end. cbn [fst] in *. apply IH.
  intros f I. cbn [s_forwards s_pending] in *. unfold good. rewrite flows_app, flows_one. cbn [flow_of p_stage stage_eqb negb andb]. rewrite Nat.add_0_r. now apply H.
Qed.
Lemma counts_next exact f s : NoDup (map f_id (s_forwards s)) -> others exact (f_id f) s -> good exact (s_pending s) f -> Counts exact (fst (next f s)).
Proof.
  intros N O G. unfold next. destruct (valid_queues f); [now apply counts_dequeue_request|]. destruct (existsb _ _); [now apply counts_put|]. unfold lookup_queues. apply counts_ask. now apply counts_put.
Qed.
Lemma counts_pending exact s s' : Counts exact s -> s_forwards s' = s_forwards s -> (forall id, flows id (s_pending s') = flows id (s_pending s)) -> Counts exact s'.
Proof. intros H E F f I. rewrite E in I. destruct (H f I) as [A B]. unfold good. rewrite F. auto. Qed.
Lemma counts_loss exact s s' : Counts exact s -> s_forwards s' = s_forwards s -> (forall id, (flows id (s_pending s') <= flows id (s_pending s))%nat) -> Counts false s'.
Proof. intros H E F f I. rewrite E in I. destruct (H f I) as [A B]. specialize (F (f_id f)). split; [lia|discriminate]. Qed.
Lemma counts_weaken exact s : Counts exact s -> Counts false s.
Proof. intros H f I. destruct (H f I). split; [auto|discriminate]. Qed.
Lemma running_decrement f : f_running (decrement f) = (f_running f - 1)%nat.
Proof. unfold decrement. cbv zeta. destruct (absent _); reflexivity. Qed.
Lemma id_decrement f : f_id (decrement f) = f_id f.
Proof. unfold decrement. cbv zeta. destruct (absent _); reflexivity. Qed.
Lemma flow_of_x x : p_stage x <> LookQ -> flow_of (p_fwd x) x = true.
Proof. intro N. unfold flow_of. rewrite Z.eqb_refl, andb_true_r. destruct (p_stage x); auto. Qed.
(* the end of a flow *)
Lemma counts_finish exact s x f : NoDup (map p_corr (s_pending s)) -> NoDup (map f_id (s_forwards s)) -> Counts exact s -> In x (s_pending s) -> p_stage x <> LookQ -> In f (s_forwards s) -> f_id f = p_fwd x ->
  others exact (f_id (decrement f)) (with_pending (but (p_corr x) (s_pending s)) s) /\ good exact (but (p_corr x) (s_pending s)) (decrement f).
Proof.
  intros N M H I NQ J E. split.
  - intros g K D. destruct (H g K) as [A B]. cbn [s_pending with_pending]. rewrite id_decrement in D. pose proof (flows_but (f_id g) x _ N I) as F. rewrite flows_one in F.
    assert (flow_of (f_id g) x = false) as Z. { unfold flow_of. assert (p_fwd x =? f_id g = false) as -> by (apply Z.eqb_neq; congruence). apply andb_false_r. } rewrite Z in F.
    unfold good. replace (flows (f_id g) (but (p_corr x) (s_pending s))) with (flows (f_id g) (s_pending s)) by lia. auto.
  - destruct (H f J) as [A B]. unfold good. rewrite id_decrement, running_decrement. pose proof (flows_but (f_id f) x _ N I) as F. rewrite flows_one in F.
    assert (flow_of (f_id f) x = true) as Z by (rewrite E; now apply flow_of_x). rewrite Z in F. split; [lia|]. intro Q. specialize (B Q). lia.
Qed.
Lemma counts_advance exact s x x' fs r : NoDup (map p_corr (s_pending s)) -> Counts exact s -> In x (s_pending s) -> p_stage x <> LookQ -> p_stage x' <> LookQ -> p_fwd x' = p_fwd x ->
  (forall f, In f fs -> exists g, In g (s_forwards s) /\ f_id f = f_id g /\ f_running f = f_running g) -> Counts exact (State r fs (but (p_corr x) (s_pending s) ++ [x']) (s_next s)).
Proof.
  intros N H I Q Q' E Fs f J. cbn [s_forwards s_pending] in *. destruct (Fs f J) as (g & G & E1 & E2). destruct (H g G) as [A B]. unfold good. rewrite flows_app, flows_one, E1, E2.
  pose proof (flows_but (f_id g) x _ N I) as F. rewrite flows_one in F. assert (flow_of (f_id g) x' = flow_of (f_id g) x) as ->.
  { unfold flow_of. rewrite E. destruct (p_stage x), (p_stage x'); try congruence; reflexivity. } rewrite F. auto.
Qed.
Lemma each_counts exact g : (forall f s, Counts exact s -> Counts exact (fst (g f s))) -> forall l s, Counts exact s -> Counts exact (fst (each g l s)).
Proof.
  intros G l. induction l as [|f l IH]; intros s H; cbn [each]; auto. specialize (G f s H). destruct (g f s) as [s1 e1]. specialize (IH s1 G). destruct (each g l s1) as [s2 e2]. exact IH.
Qed.
Lemma counts_cancel exact f s : Counts exact s -> Counts exact (fst (cancel_surplus f s)).
Proof. intro H. unfold cancel_surplus. cbv zeta. destruct (f_service f); cbn [fst]; auto. apply (counts_pending exact s); auto. intro id. apply flows_discarded. Qed.
Lemma counts_comply exact s : Counts exact s -> Counts exact (fst (comply s)).
Proof.
  intro H. unfold comply. cbv zeta. pose proof (each_counts exact cancel_surplus (counts_cancel exact) (queue_forwards s ++ service_forwards s) s H) as A. destruct (each cancel_surplus _ s) as [s1 e1]. cbn [fst] in *.
  assert (G : forall f s, Counts exact s -> Counts exact (fst (start_lookups f s))). { intros f s' H'. unfold start_lookups. destruct (f_enabled f && negb (f_configured f =? 0)%nat); auto. now apply counts_ask. }
  pose proof (each_counts exact start_lookups G (service_forwards s1 ++ queue_forwards s1) s1 A) as B. destruct (each start_lookups _ s1) as [s2 e2]. exact B.
Qed.
Lemma flows_none C s st id : Inv C s st -> ~ In id (map fst (statics s)) -> flows id (s_pending s) = 0%nat.
Proof.
  intros H N. unfold flows. destruct (filter (flow_of id) (s_pending s)) as [|p l] eqn:E; auto. exfalso. apply N.
  assert (I : In p (filter (flow_of id) (s_pending s))) by (rewrite E; now left). apply filter_In in I as [I F]. unfold flow_of in F. apply andb_true_iff in F as [F1 F2]. apply Z.eqb_eq in F2.
  destruct (flow_facts C s st p H I) as (c & x & _ & St & _). { intro Q. rewrite Q in F1. discriminate. } apply (in_map fst) in St. cbn in St. now rewrite F2 in St.
Qed.
Lemma in_set_instances c l f : In f (set_instances c l) -> exists g, In g l /\ f_id f = f_id g /\ f_running f = f_running g.
Proof.
  induction l as [|x l IH]; cbn; [tauto|]. destruct (same_kind c x && (f_alias x =? g_alias c)).
  - intros [<-|I]; [exists x; auto|exists f; auto].
  - intros [<-|I]; [exists x; auto|]. destruct (IH I) as (g & A & B). exists g. auto.
Qed.
Lemma counts_add_confs exact (C : conf -> Prop) l : forall s st, (forall c, In c l -> C c /\ conf_ok c) -> Inv C s st -> Counts exact s -> Counts exact (with_forwards (fold_left (fun a c => add_or_update c a) l (s_forwards s)) s).
Proof.
  induction l as [|c l IH]; intros s st A H K; cbn [fold_left]; [exact K|].
  destruct (A c (or_introl eq_refl)) as [Cc Ok]. pose proof (inv_add_conf C s st c Cc Ok H) as H1. apply (IH (with_forwards (add_or_update c (s_forwards s)) s) st); auto; [intros d I; apply A; now right|].
  intros f I. cbn [s_forwards s_pending with_forwards] in *. unfold add_or_update in I. destruct (existsb _ _).
  - apply in_set_instances in I as (g & G & E1 & E2). destruct (K g G) as [X Y]. unfold good. rewrite E1, E2. auto.
  - apply in_app_or in I as [I|[<-|[]]]; [now apply K|]. unfold good. cbn [create f_id f_running]. rewrite (flows_none C s st); auto.
    rewrite (i_ids _ _ _ H). intro J. apply in_map_iff in J as [n [E J]]. apply in_seq in J. lia.
Qed.
Definition is_loss (i : input) : bool := match i with NotDequeued _ => true | _ => false end.
Lemma same_running_put s f : NoDup (map f_id (s_forwards s)) -> (exists g, In g (s_forwards s) /\ f_id f = f_id g /\ f_running f = f_running g) ->
  forall g, In g (s_forwards (put_forward f s)) -> exists g', In g' (s_forwards s) /\ f_id g = f_id g' /\ f_running g = f_running g'.
Proof. intros N X g I. cbn in I. apply in_set_forward in I as [->|[I _]]; auto. exists g. auto. Qed.
Lemma counts_forwards exact s s' : Counts exact s -> s_pending s' = s_pending s -> (forall f, In f (s_forwards s') -> exists g, In g (s_forwards s) /\ f_id f = f_id g /\ f_running f = f_running g) -> Counts exact s'.
Proof. intros H P F f I. destruct (F f I) as (g & G & E1 & E2). destruct (H g G). unfold good. rewrite P, E1, E2. auto. Qed.
Lemma same_forwards (fs : list forward) : forall f, In f fs -> exists g, In g fs /\ f_id f = f_id g /\ f_running f = f_running g.
Proof. intros f I. exists f. auto. Qed.
Lemma find_but k s id : find_forward id (with_pending (but k (s_pending s)) s) = find_forward id s.
Proof. reflexivity. Qed.
Lemma running_assign name q p r f : f_running (fst (assign name q p r f)) = f_running f /\ f_id (fst (assign name q p r f)) = f_id f.
Proof. unfold assign. cbv zeta. destruct (r_name (f_source f) =? name); [destruct r|]; auto. Qed.
Lemma flows_but_look id x l : NoDup (map p_corr l) -> In x l -> p_stage x = LookQ -> flows id (but (p_corr x) l) = flows id l.
Proof. intros N I E. pose proof (flows_but id x l N I) as F. rewrite flows_one in F. assert (flow_of id x = false) as Z by (unfold flow_of; now rewrite E). rewrite Z in F. lia. Qed.
Lemma counts_step exact C s st i : Inv C s st -> possible i -> (forall l, i = Update l -> forall c, In c l -> C c) -> Counts exact s -> Counts (if is_loss i then false else exact) (fst (step i s)).
Proof.
  intros H P U K. pose proof (i_nodup _ _ _ H) as ND. pose proof (inv_nodup_ids _ _ _ H) as NF. destruct i as [l|k name q p r|k r|k m|k|k d|k a|k|k code r|k ok|k pr|k|k|k|p|]; cbn [is_loss].
  - cbn [step]. unfold update. cbv zeta. match goal with |- context [comply ?x] => pose proof (counts_comply exact x) as X; destruct (comply x) as [s1 ev] end. cbn [fst] in *. 
    intros f I. apply X; auto. apply (counts_add_confs exact C) with (st := st); auto. intros c J. apply in_app_or in J as [J|J]; apply filter_In in J as [J _]; split; try (now apply (U l)); now apply P.
  - cbn [step]. destruct (consume LookQ k s) as [[x s1]|] eqn:E; [|exact K]. apply consume_spec in E as (I & SX & Kx & ->); auto. subst k.
    assert (H1 : Counts exact (with_pending (but (p_corr x) (s_pending s)) s)). { apply (counts_pending exact s); auto. intro id. now apply flows_but_look. }
    destruct (is_down _); [exact H1|]. destruct (find_forward (p_fwd x) _) as [f|] eqn:F; [|exact H1]. apply find_forward_some in F as [F1 F2].
    destruct (running_assign name q p r f) as [R1 R2]. destruct (assign name q p r f) as [f' e]. cbn [fst] in R1, R2.
    assert (O : others exact (f_id f') (with_pending (but (p_corr x) (s_pending s)) s)) by (intros g G _; now apply H1).
    assert (G : good exact (but (p_corr x) (s_pending s)) f') by (destruct (H1 f F1) as [A B]; unfold good; rewrite R1, R2; auto).
    destruct (valid_queues f').
    + pose proof (counts_dequeue_request exact f' (with_pending (but (p_corr x) (s_pending s)) s) NF O G) as X. destruct (dequeue_request f' _) as [s' ev]. exact X.
    + now apply counts_put.
  - cbn [step]. destruct r; [exact K|]. destruct (consume LookQ k s) as [[x s1]|] eqn:E; [|exact K]. apply consume_spec in E as (I & SX & Kx & ->); auto. subst k. apply (counts_pending exact s); auto. intro id. now apply flows_but_look.
  - cbn [step]. destruct (consume Deq k s) as [[x s1]|] eqn:E; [|exact K]. apply consume_spec in E as (I & SX & Kx & ->); auto. subst k. st_facts H I SX c y. assert (Nx : p_stage x <> LookQ) by (rewrite SX; discriminate).
    assert (R : forall x', p_stage x' <> LookQ -> p_fwd x' = p_fwd x -> Counts exact (push x' (with_pending (but (p_corr x) (s_pending s)) s))).
    { intros x' Q1 Q2. apply (counts_advance exact s x x'); auto. apply same_forwards. }
    destruct m as [data|]; [|apply R; cbn; auto; discriminate]. destruct (is_down _); [apply R; cbn; auto; discriminate|].
    rewrite find_but. destruct (find_forward_static C s st _ _ H Sta) as (f & F & J & Ef). rewrite F. injection Ef as E1 E2 E3 E4 E5 E6.
    destruct (f_service f) as [sv|] eqn:Sv; [apply R; cbn; auto; discriminate|]. destruct (f_dest f) as [[d delay]|] eqn:De; [apply R; cbn; auto; discriminate|].
    exfalso. destruct (i_sta _ _ _ H _ Sta) as (c2 & _ & Ok & Q). cbn in Q. unfold conf_sta in Q. injection Q as Q1 Q2 Q3 Q4 Q5. cbn in E5. apply Ok; congruence.
  - cbn [step]. destruct (consume Deq k s) as [[x s1]|] eqn:E; [|exact K]. apply consume_spec in E as (I & SX & Kx & ->); auto. subst k. assert (Nx : p_stage x <> LookQ) by (rewrite SX; discriminate).
    destruct (inv_finish C s st (ForgetRequest (p_corr x)) x H I Nx) as (f & F & J & Ef & _ & _). rewrite F. cbn [fst]. destruct (counts_finish exact s x f ND NF K I Nx J Ef) as [A B]. now apply counts_put.
  - cbn [step]. destruct d; [|exact K]. destruct (consume Deq k s) as [[x s1]|] eqn:E; [|exact K]. apply consume_spec in E as (I & SX & Kx & ->); auto. subst k. assert (Nx : p_stage x <> LookQ) by (rewrite SX; discriminate).
    destruct (inv_finish C s st (ForgetRequest (p_corr x)) x H I Nx) as (f & F & J & Ef & _ & _). rewrite F. destruct (counts_finish exact s x f ND NF K I Nx J Ef) as [A B]. now apply counts_next.
  - cbn [step]. destruct (consume LookS k s) as [[x s1]|] eqn:E; [|exact K]. apply consume_spec in E as (I & SX & Kx & ->); auto. subst k. assert (Nx : p_stage x <> LookQ) by (rewrite SX; discriminate).
    destruct a as [[sv p]|]; (apply (counts_advance exact s x); cbn; auto; try discriminate; apply same_forwards).
  - cbn [step]. destruct (consume Disc k s) as [[x s1]|] eqn:E; [|exact K]. apply consume_spec in E as (I & SX & Kx & ->); auto. subst k. assert (Nx : p_stage x <> LookQ) by (rewrite SX; discriminate).
    apply (counts_advance exact s x); cbn; auto; try discriminate; apply same_forwards.
  - cbn [step]. destruct (consume Calling k s) as [[x s1]|] eqn:E; [|exact K]. apply consume_spec in E as (I & SX & Kx & ->); auto. subst k. assert (Nx : p_stage x <> LookQ) by (rewrite SX; discriminate). st_facts H I SX c y.
    rewrite find_but. destruct (find_forward_static C s st _ _ H Sta) as (f & F & J & Ef). rewrite F.
    destruct (negb (code =? 0)); [|destruct (f_dest f) as [[d delay]|]]; (apply (counts_advance exact s x); cbn; auto; try discriminate; apply same_forwards).
  - cbn [step]. destruct (consume Enq k s) as [[x s1]|] eqn:E; [|exact K]. apply consume_spec in E as (I & SX & Kx & ->); auto. subst k. assert (Nx : p_stage x <> LookQ) by (rewrite SX; discriminate). st_facts H I SX c y.
    destruct ok; [apply (counts_advance exact s x); cbn; auto; try discriminate; apply same_forwards|].
    rewrite find_but. destruct (find_forward_static C s st _ _ H Sta) as (f & F & J & Ef). rewrite F. apply (counts_advance exact s x); cbn; auto; try discriminate.
    intros g G. apply in_set_forward in G as [->|[G _]]; auto; [exists f; auto|exists g; auto].
  - cbn [step]. destruct pr; [exact K|]. destruct (consume Com k s) as [[x s1]|] eqn:E; [|exact K]. apply consume_spec in E as (I & SX & Kx & ->); auto. subst k. assert (Nx : p_stage x <> LookQ) by (rewrite SX; discriminate).
    destruct (inv_finish C s st (ForgetRequest (p_corr x)) x H I Nx) as (f & F & J & Ef & _ & _). rewrite F. destruct (counts_finish exact s x f ND NF K I Nx J Ef) as [A B]. now apply counts_next.
  - cbn [step]. destruct (consume Rol k s) as [[x s1]|] eqn:E; [|exact K]. apply consume_spec in E as (I & SX & Kx & ->); auto. subst k. assert (Nx : p_stage x <> LookQ) by (rewrite SX; discriminate).
    destruct (inv_finish C s st (ForgetRequest (p_corr x)) x H I Nx) as (f & F & J & Ef & _ & _). rewrite F. destruct (counts_finish exact s x f ND NF K I Nx J Ef) as [A B]. now apply counts_next.
  - cbn [step fst]. apply (counts_loss exact s); auto. intro id. apply flows_filter.
  - cbn [step]. destruct (consume Enq k s) as [[x s1]|] eqn:E; [|exact K]. apply consume_spec in E as (I & SX & Kx & ->); auto. subst k. assert (Nx : p_stage x <> LookQ) by (rewrite SX; discriminate).
    destruct (find_forward (p_fwd x) s) as [f|]; [|exact K]. destruct (f_service f); [|exact K]. apply (counts_advance exact s x); cbn; auto; try discriminate; apply same_forwards.
  - cbn [step]. assert (G : forall l s', (forall f, In f l -> In f (s_forwards s)) -> map f_id (s_forwards s') = map f_id (s_forwards s) -> s_pending s' = s_pending s -> Counts exact s' -> Counts exact (fst (each (dead_one p) l s'))); [|apply G; auto; intros f I; apply in_app_or in I as [I|I]; apply filter_In in I as [I _]; auto].
    induction l as [|f l IH]; intros s' Sub Id Pe K'; cbn [each]; [exact K'|].
    assert (X : map f_id (s_forwards (fst (dead_one p f s'))) = map f_id (s_forwards s) /\ s_pending (fst (dead_one p f s')) = s_pending s /\ Counts exact (fst (dead_one p f s'))).
    { unfold dead_one. cbv zeta. destruct (_ || _); [|auto]. destruct (match f_dest f with Some (d, _) => _ | None => _ end); [|auto]. cbn [fst].
      split; [|split; [exact Pe|]].
      - rewrite <- Id. cbn. clear. induction (s_forwards s') as [|y l' IH']; cbn; auto. destruct (f_id y =? f_id f) eqn:E; cbn; [apply Z.eqb_eq in E; now rewrite E|now rewrite IH'].
      - apply counts_put; [now rewrite Id|intros g Gi _; now apply K'|]. cbn [f_id with_queues]. destruct (K f (Sub f (or_introl eq_refl))) as [A B]. unfold good. rewrite Pe. auto. }
    destruct X as (X1 & X2 & X3). destruct (dead_one p f s') as [s1 e1]. cbn [fst] in *. specialize (IH s1 (fun g Gi => Sub g (or_intror Gi)) X1 X2 X3). destruct (each (dead_one p) l s1) as [s2 e2]. exact IH.
  - cbn [step]. apply counts_comply. apply (counts_forwards exact s); auto. intros f I. cbn in I. apply in_map_iff in I as [g [<- I]]. exists g. auto.
Qed.
Definition exact_b (h : history) : bool := negb (existsb is_loss (inputs h)).
Lemma reach_counts s h : reach s h -> Counts (exact_b h) s.
Proof.
  intro R. induction R as [|s h i R IH P]; [intros f []|].
  assert (X : Counts (if is_loss i then false else exact_b h) (fst (step i s))).
  { apply (counts_step _ (conf_in (h ++ [(i, [])])) s (fun k => story_of k h)); auto.
    - apply (inv_mono (conf_in h)); [|now apply reach_inv]. intros c [(l & A & B) Ok]. split; auto. exists l. split; auto. rewrite inputs_app. apply in_or_app; auto.
    - intros l -> c I. split; [|now apply P]. exists l. split; auto. rewrite inputs_app. apply in_or_app. right. now left. }
  unfold exact_b. rewrite inputs_app, existsb_app. cbn [inputs map existsb fst]. destruct (is_loss i).
  - rewrite orb_true_r. exact X.
  - cbn [orb]. rewrite orb_false_r. exact X.
Qed.
Lemma no_loss_exact h : no_loss h -> exact_b h = true.
Proof.
  intro N. unfold exact_b. apply negb_true_iff. destruct (existsb is_loss (inputs h)) eqn:E; auto. apply existsb_exists in E as [i [I E]]. destruct i; try discriminate. exfalso. now apply (N k).
Qed.

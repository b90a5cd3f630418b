(* Every step of the queue forward keeps the invariant. *)
From Coq Require Import ZArith List Bool Lia.
From Verif Require Import QfwModel QfwSpec QfwProofs.
Import ListNotations.
Local Open Scope Z_scope.

(* ---- shutdown and configuration ---- *)
Lemma in_discarded ks l p : In p (discarded ks l) <->
  (In p l /\ (stage_eqb (p_stage p) LookS && existsb (Z.eqb (p_corr p)) ks) = false)
  \/ exists x, In x l /\ (stage_eqb (p_stage x) LookS && existsb (Z.eqb (p_corr x)) ks) = true /\ p = Pend Disc (p_fwd x) (p_corr x) (p_trid x) 0.
Proof.
  unfold discarded. rewrite in_app_iff, filter_In, negb_true_iff, in_map_iff. split; (intros [H|H]; [left; auto|right]).
  - destruct H as [x [E I]]. apply filter_In in I as [I T]. exists x. auto.
  - destruct H as (x & I & T & E). exists x. split; auto. apply filter_In. auto.
Qed.
Lemma nodup_discarded ks l : NoDup (map p_corr l) -> NoDup (map p_corr (discarded ks l)).
Proof.
  intro N. unfold discarded. rewrite map_app. apply nodup_app; [now apply nodup_map_filter| |].
  - rewrite map_map. cbn. now apply nodup_map_filter.
  - intros k I J. rewrite map_map in J. cbn in J. apply in_map_iff in I as [a [A I]]. apply in_map_iff in J as [b [B J]]. apply filter_In in I as [I I'], J as [J J'].
    assert (a = b) by (apply (nodup_inj p_corr l); auto; congruence). subst b. rewrite J' in I'. discriminate.
Qed.
Lemma inv_discarded C s st ks : Inv C s st -> Inv C (with_pending (discarded ks (s_pending s)) s) st.
Proof.
  intros [A B F P T S D]. split; cbn [s_pending with_pending s_next s_forwards]; auto.
  - now apply nodup_discarded.
  - intros p I. apply in_discarded in I as [[I _]|(x & I & _ & ->)]; auto. cbn. auto.
  - intros p I. apply in_discarded in I as [[I _]|(x & I & X & ->)]; [apply (pend_ok_eq C s _ st); auto|].
    apply andb_true_iff in X as [X _]. apply stage_eqb_eq in X. specialize (P x I). unfold pend_ok in *. rewrite X in P. destruct P as (c & y & P). cbn. exists c, y. 
    destruct P as (P1 & P2 & P3 & P4 & P5 & P6). repeat (split; [solve [auto]|]). split; auto. unfold matches in *. rewrite X in P5. cbn. destruct (snd y); auto.
Qed.
Lemma inv_cancel C s st f : Inv C s st -> Inv C (fst (cancel_surplus f s)) st /\ flowless (snd (cancel_surplus f s)) /\ s_forwards (fst (cancel_surplus f s)) = s_forwards s.
Proof.
  intro H. unfold cancel_surplus. cbv zeta. destruct (f_service f) as [sv|]; cbn [fst snd].
  - split; [now apply inv_discarded|]. split; [|auto]. apply flowless_app; now apply flowless_map.
  - split; [auto|]. split; [|auto]. now apply flowless_map.
Qed.
Lemma inv_each C g : forall l s st, Inv C s st ->
  (forall f s', In f l -> Inv C s' st -> statics s' = statics s -> Inv C (fst (g f s')) st /\ flowless (snd (g f s')) /\ statics (fst (g f s')) = statics s') ->
  Inv C (fst (each g l s)) st /\ flowless (snd (each g l s)) /\ statics (fst (each g l s)) = statics s.
Proof.
  induction l as [|f l IH]; intros s st H G; cbn [each].
  - split; [auto|split; [apply flowless_nil|auto]].
  - destruct (G f s (or_introl eq_refl) H eq_refl) as (A & B & D). destruct (g f s) as [s1 e1]. cbn [fst snd] in *.
    destruct (IH s1 st A) as (A2 & B2 & D2). { intros x s' I H' E. apply G; auto; [now right|congruence]. }
    destruct (each g l s1) as [s2 e2]. cbn [fst snd] in *. split; [auto|split; [now apply flowless_app|congruence]].
Qed.
Lemma inv_comply C s st : Inv C s st -> Inv C (fst (comply s)) st /\ flowless (snd (comply s)) /\ statics (fst (comply s)) = statics s.
Proof.
  intro H. unfold comply. cbv zeta.
  destruct (inv_each C cancel_surplus (queue_forwards s ++ service_forwards s) s st H) as (A & B & D).
  { intros f s' I H' E. destruct (inv_cancel C s' st f H') as (X & Y & Z). split; [auto|split; [auto|]]. unfold statics. now rewrite Z. }
  destruct (each cancel_surplus _ s) as [s1 e1]. cbn [fst snd] in *.
  destruct (inv_each C start_lookups (service_forwards s1 ++ queue_forwards s1) s1 st A) as (A2 & B2 & D2).
  { intros f s' I H' E. unfold start_lookups. destruct (f_enabled f && negb (f_configured f =? 0)%nat); [|split; [auto|split; [apply flowless_nil|auto]]].
    unfold lookup_queues. apply inv_ask; auto. rewrite E, statics_ids. apply in_map. apply in_app_or in I as [I|I]; apply filter_In in I as [I _]; auto. }
  destruct (each start_lookups _ s1) as [s2 e2]. cbn [fst snd] in *. split; [auto|split; [|congruence]]. apply flowless_app; [now apply flowless_map|now apply flowless_app].
Qed.
Lemma inv_mono (C D : conf -> Prop) s st : (forall c, C c -> D c) -> Inv C s st -> Inv D s st.
Proof.
  intros M [A B F P T S I]. split; auto.
  - intros p J. specialize (P p J). unfold pend_ok in *. destruct (p_stage p); auto; destruct P as (c & x & P & Q); exists c, x; split; auto.
  - intro k. destruct (T k) as [E|(c & f & X & Y)]; [auto|right; exists c, f; auto].
  - intros a J. destruct (S a J) as (c & X & Y). exists c; auto.
Qed.
Lemma static_configured n f : static (with_configured n f) = static f.
Proof. reflexivity. Qed.
Lemma static_set_instances c l : map static (set_instances c l) = map static l.
Proof. induction l as [|f l IH]; cbn; auto. destruct (same_kind c f && (f_alias f =? g_alias c)); cbn; [reflexivity|now rewrite IH]. Qed.
Lemma static_create c id : static (create c id) = (id, conf_sta c).
Proof. unfold static, create, conf_sta. cbn. destruct (g_dest c) as [[d y]|]; reflexivity. Qed.
Lemma pend_ok_more C s s' st p : (forall a, In a (statics s) -> In a (statics s')) -> pend_ok C s st p -> pend_ok C s' st p.
Proof.
  intros M. unfold pend_ok. destruct (p_stage p).
  - intros [A B]. split; auto. apply in_map_iff in B as [a [E B]]. rewrite <- E. now apply in_map, M.
  - intros (c & x & P & Q & X). exists c, x. auto.
  - intros (c & x & P & Q & X). exists c, x. auto.
  - intros (c & x & P & Q & X). exists c, x. auto.
  - intros (c & x & P & Q & X). exists c, x. auto.
  - intros (c & x & P & Q & X). exists c, x. auto.
  - intros (c & x & P & Q & X). exists c, x. auto.
  - intros (c & x & P & Q & X). exists c, x. auto.
Qed.
Lemma inv_add_conf (C : conf -> Prop) s st c : C c -> conf_ok c -> Inv C s st -> Inv C (with_forwards (add_or_update c (s_forwards s)) s) st.
Proof.
  intros Cc Ok H. unfold add_or_update. destruct (existsb _ _).
  - apply (inv_static C s); auto. unfold statics. cbn. apply static_set_instances.
  - destruct H as [A B F P T S D]. assert (E : statics (with_forwards (s_forwards s ++ [create c (Z.of_nat (length (s_forwards s)) + 1)]) s) = statics s ++ [(Z.of_nat (length (s_forwards s)) + 1, conf_sta c)]).
    { unfold statics. cbn [with_forwards s_forwards]. rewrite map_app. cbn [map]. now rewrite static_create. }
    split; cbn [s_pending with_forwards s_next]; auto.
    + intros p I. apply (pend_ok_more C s); auto. intros a J. rewrite E. apply in_or_app; auto.
    + intro k. destruct (T k) as [Z|(c' & f & X & Y & Q)]; auto. right. exists c', f. rewrite E. split; [auto|split; [apply in_or_app; auto|auto]].
    + intros a I. rewrite E in I. apply in_app_or in I as [I|[<-|[]]]; auto. exists c; auto.
    + rewrite E, map_app, D. cbn [with_forwards s_forwards map fst]. rewrite app_length, seq_app, map_app. cbn [length seq map]. f_equal. f_equal. lia.
Qed.
Lemma inv_add_confs (C : conf -> Prop) l : forall s st, (forall c, In c l -> C c /\ conf_ok c) -> Inv C s st -> Inv C (with_forwards (fold_left (fun a c => add_or_update c a) l (s_forwards s)) s) st.
Proof.
  induction l as [|c l IH]; intros s st A H; cbn [fold_left].
  - apply (inv_static C s); auto.
  - destruct (A c (or_introl eq_refl)) as [Cc Ok]. pose proof (inv_add_conf C s st c Cc Ok H) as H1. pose proof (IH _ _ (fun d I => A d (or_intror I)) H1) as H2. cbn [s_forwards with_forwards] in H2.
    apply (inv_static C _ _ st H2); reflexivity.
Qed.
Lemma inv_run C s st r : Inv C s st -> Inv C (State r (s_forwards s) (s_pending s) (s_next s)) st.
Proof. intro H. apply (inv_static C s); auto. Qed.
Lemma inv_update (C : conf -> Prop) s st l : (forall c, In c l -> C c /\ conf_ok c) -> Inv C s st -> Inv C (fst (update l s)) st /\ flowless (snd (update l s)).
Proof.
  intros A H. unfold update. cbv zeta.
  match goal with |- context [comply ?x] => destruct (inv_comply C x st) as (X & Y & Z); [|destruct (comply x) as [s1 ev]] end.
  - apply inv_add_confs; auto. intros c I. apply A. apply in_app_or in I as [I|I]; apply filter_In in I as [I _]; auto.
  - cbn [fst snd] in *. split; [now apply inv_run|]. apply flowless_app; auto. now intro.
Qed.
Lemma map_static_configured n l : map static (map (with_configured n) l) = map static l.
Proof. rewrite map_map. apply map_ext. reflexivity. Qed.
Lemma inv_dead C s st p : Inv C s st -> Inv C (fst (step (Dead p) s)) st /\ flowless (snd (step (Dead p) s)).
Proof.
  intro H. cbn [step]. enough (X : Inv C (fst (each (dead_one p) (queue_forwards s ++ service_forwards s) s)) st
    /\ flowless (snd (each (dead_one p) (queue_forwards s ++ service_forwards s) s)) /\ statics (fst (each (dead_one p) (queue_forwards s ++ service_forwards s) s)) = statics s) by tauto.
  apply inv_each; auto. intros f s' I H' E. unfold dead_one. cbv zeta. destruct (_ || _); [|split; [auto|split; [apply flowless_nil|auto]]].
  assert (J : In (static f) (statics s')). { rewrite E. apply in_map. apply in_app_or in I as [I|I]; apply filter_In in I as [I _]; auto. }
  destruct (match f_dest f with Some (d, _) => _ | None => _ end); cbn [fst snd].
  - assert (K : In (static (with_queues (f_source f) (option_map (fun d => (ref_invalidate (fst d), snd d)) (f_dest f)) f)) (statics s')).
    { replace (static (with_queues (f_source f) (option_map (fun d => (ref_invalidate (fst d), snd d)) (f_dest f)) f)) with (static f); auto. unfold static. cbn. destruct (f_dest f) as [[d y]|]; reflexivity. }
    split; [now apply inv_put|]. split; [|now apply (put_forward_static C s' st)].
    apply flowless_app; [apply flowless_app; now apply flowless_map|now apply flowless_map].
  - split; [auto|split; [|auto]]. apply flowless_app; now apply flowless_map.
Qed.

(* ---- the flows ---- *)
Lemma inv_drop C s st k : Inv C s st -> Inv C (with_pending (but k (s_pending s)) s) st.
Proof. apply inv_filter. Qed.
Lemma inv_none C i s st : Inv C s st -> Inv C s (ext i [] st).
Proof. apply inv_eq. intro. apply ext_nil. Qed.
Lemma inv_flowless C i ev s st : flowless ev -> Inv C s st -> Inv C s (ext i ev st).
Proof. intros F. apply inv_eq. intro. now apply ext_flowless. Qed.
Definition at_ (s : state) (x : pend) : Prop := In x (s_pending s).
(* what is known of the flow that an answer is for *)
Lemma flow_facts C s st x : Inv C s st -> In x (s_pending s) -> p_stage x <> LookQ -> flow_ok C s st x.
Proof. intros H I N. apply pend_flow; auto. now apply (i_pend _ _ _ H). Qed.
Lemma conf_unique C s st id c c' : Inv C s st -> In (id, conf_sta c) (statics s) -> In (id, conf_sta c') (statics s) -> conf_sta c = conf_sta c'.
Proof.
  intros H A B. assert (E : (id, conf_sta c) = (id, conf_sta c')); [|exact (f_equal snd E)]. apply (nodup_inj fst (statics s)); auto. rewrite statics_ids. now apply (inv_nodup_ids C s st).
Qed.
Lemma inv_rollback C s st i x : Inv C s st -> In x (s_pending s) -> p_stage x <> LookQ ->
  (forall c l, last_of (st (p_corr x)) = Some l -> matches x l -> follows c (p_fwd x) (p_corr x) (p_corr x + 1) (Some l) i (Rollback (p_corr x) (p_trid x))) ->
  Inv C (fst (rollback x (with_pending (but (p_corr x) (s_pending s)) s))) (ext i (snd (rollback x (with_pending (but (p_corr x) (s_pending s)) s))) st).
Proof.
  intros H I N F. destruct (flow_facts C s st x H I N) as (c & y & Cc & St & Sy & L & Mx & Tr). unfold rollback. cbn [fst snd].
  apply (inv_advance C s st i x (Pend Rol (p_fwd x) (p_corr x) (p_trid x) 0)); auto; cbn; try discriminate; try exact Logic.I.
  - intros c' _ _. rewrite L. now apply F.
  - apply Z.eqb_refl.
Qed.
Lemma inv_commit C s st i x : Inv C s st -> In x (s_pending s) -> p_stage x <> LookQ ->
  (forall c l, In (p_fwd x, conf_sta c) (statics s) -> last_of (st (p_corr x)) = Some l -> matches x l -> follows c (p_fwd x) (p_corr x) (p_corr x + 1) (Some l) i (Commit (p_corr x) (p_trid x))) ->
  Inv C (fst (commit x (with_pending (but (p_corr x) (s_pending s)) s))) (ext i (snd (commit x (with_pending (but (p_corr x) (s_pending s)) s))) st).
Proof.
  intros H I N F. destruct (flow_facts C s st x H I N) as (c & y & Cc & St & Sy & L & Mx & Tr). unfold commit. cbn [fst snd].
  apply (inv_advance C s st i x (Pend Com (p_fwd x) (p_corr x) (p_trid x) 0)); auto; cbn; try discriminate; try exact Logic.I.
  - intros c' _ A. rewrite L. now apply F.
  - apply Z.eqb_refl.
Qed.
(* the end of a flow: it's taken away, and the next is begun *)
Lemma inv_finish C s st i x : Inv C s st -> In x (s_pending s) -> p_stage x <> LookQ ->
  exists f, find_forward (p_fwd x) (with_pending (but (p_corr x) (s_pending s)) s) = Some f /\ In f (s_forwards s) /\ f_id f = p_fwd x
   /\ Inv C (fst (next (decrement f) (with_pending (but (p_corr x) (s_pending s)) s))) (ext i (snd (next (decrement f) (with_pending (but (p_corr x) (s_pending s)) s))) st)
   /\ Inv C (put_forward (decrement f) (with_pending (but (p_corr x) (s_pending s)) s)) (ext i [] st).
Proof.
  intros H I N. destruct (flow_facts C s st x H I N) as (c & y & Cc & St & Sy & L & Mx & Tr). destruct (find_forward_static C s st _ _ H St) as (f & F & J & E). exists f.
  split; [exact F|]. split; [auto|]. split; [unfold static in E; now injection E|].
  assert (K : In (static (decrement f)) (statics (with_pending (but (p_corr x) (s_pending s)) s))) by (rewrite static_decrement; now apply in_map).
  split; [apply inv_next; auto; now apply inv_drop|]. apply inv_none. apply inv_put; auto. now apply inv_drop.
Qed.
Ltac st_facts H I SX c y := destruct (flow_facts _ _ _ _ H I ltac:(rewrite SX; discriminate)) as (c & y & Cc & Sta & Sy & L & Mx & Tr).
Ltac mx Mx SX := unfold matches in Mx; rewrite SX in Mx.
Lemma inv_step C s st i : Inv C s st -> possible i -> (forall l, i = Update l -> forall c, In c l -> C c) -> Inv C (fst (step i s)) (ext i (snd (step i s)) st).
Proof.
  intros H P U. pose proof (i_nodup _ _ _ H) as ND. destruct i as [l|k name q p r|k r|k m|k|k d|k a|k|k code r|k ok|k pr|k|k|k|p|].
  - cbn [step]. destruct (inv_update C s st l) as [A B]; auto. { intros c I. split; [now apply (U l)|now apply P]. } now apply inv_flowless.
  - cbn [step]. destruct (consume LookQ k s) as [[x s1]|] eqn:E; [|now apply inv_none]. apply consume_spec in E as (I & SX & K & ->); auto.
    cbn [fst snd]. pose proof (inv_drop C s st k H) as H1. destruct (is_down _) eqn:Dn; [now apply inv_none|].
    destruct (find_forward (p_fwd x) _) as [f|] eqn:F; [|now apply inv_none]. apply find_forward_some in F as [F1 F2].
    assert (J : In (static (fst (assign name q p r f))) (statics (with_pending (but k (s_pending s)) s))) by (rewrite static_assign; now apply in_map).
    assert (Fe : flowless (snd (assign name q p r f))). { unfold assign. cbv zeta. destruct (r_name (f_source f) =? name); [destruct r|]; now intro. }
    destruct (assign name q p r f) as [f' e]. cbn [fst snd] in *. destruct (valid_queues f').
    + pose proof (inv_dequeue_request C (QueueFound k name q p r) f' _ st H1 J) as X. destruct (dequeue_request f' _) as [s' ev]. cbn [fst snd] in *.
      apply (inv_eq C _ (ext (QueueFound k name q p r) ev st)); auto. intro j. rewrite ext_app. unfold ext at 1. now rewrite ext_flowless.
    + cbn [fst snd]. apply inv_flowless; auto. now apply inv_put.
  - cbn [step]. destruct r; [now apply inv_none|]. destruct (consume LookQ k s) as [[x s1]|] eqn:E; [|now apply inv_none]. apply consume_spec in E as (I & SX & K & ->); auto. apply inv_none. now apply inv_drop.
  - cbn [step]. destruct (consume Deq k s) as [[x s1]|] eqn:E; [|now apply inv_none]. apply consume_spec in E as (I & SX & K & ->); auto. subst k. st_facts H I SX c y.
    assert (R : Inv C (fst (rollback x (with_pending (but (p_corr x) (s_pending s)) s))) (ext (Dequeued (p_corr x) m) (snd (rollback x (with_pending (but (p_corr x) (s_pending s)) s))) st)).
    { apply inv_rollback; auto; [rewrite SX; discriminate|]. intros c' [j e] Lj M. mx M SX. cbn in M. destruct e; try contradiction. cbn. eauto. }
    destruct m as [data|]; [|exact R]. destruct (is_down _); [exact R|]. clear R.
    destruct (find_forward_static C s st _ _ H Sta) as (f & F & J & Ef). change (find_forward (p_fwd x) (with_pending (but (p_corr x) (s_pending s)) s)) with (find_forward (p_fwd x) s). rewrite F.
    destruct y as [j e]. mx Mx SX. cbn in Mx. destruct e; try contradiction. injection Ef as E1 E2 E3 E4 E5 E6.
    destruct (f_service f) as [sv|] eqn:Sv; [|destruct (f_dest f) as [[d delay]|] eqn:De]; cbn [fst snd].
    + apply (inv_advance C s st _ x (Pend LookS (p_fwd x) (p_corr x) (p_trid x) data)); auto; try (rewrite SX; discriminate); cbn; try discriminate; auto; [|apply Z.eqb_refl].
      intros c' _ St'. rewrite L. pose proof (conf_unique C s st _ _ _ H St' Sta) as Q. unfold conf_sta in Q. injection Q as Q1 Q2 Q3 Q4 Q5. cbn. split; [auto|split; [congruence|eauto]].
    + apply (inv_advance C s st _ x (Pend Enq (p_fwd x) (p_corr x) (p_trid x) 0)); auto; try (rewrite SX; discriminate); cbn; try discriminate; auto; [|apply Z.eqb_refl].
      intros c' _ St'. rewrite L. pose proof (conf_unique C s st _ _ _ H St' Sta) as Q. unfold conf_sta in Q. injection Q as Q1 Q2 Q3 Q4 Q5. cbn in E5. cbn. split; [auto|split; [auto|split; [congruence|split; [congruence|auto]]]].
    + exfalso. destruct (i_sta _ _ _ H _ Sta) as (c2 & _ & Ok & Q). cbn in Q. unfold conf_sta in Q. injection Q as Q1 Q2 Q3 Q4 Q5. cbn in E5. apply Ok; congruence.
  - cbn [step]. destruct (consume Deq k s) as [[x s1]|] eqn:E; [|now apply inv_none]. apply consume_spec in E as (I & SX & K & ->); auto. subst k.
    destruct (inv_finish C s st (ForgetRequest (p_corr x)) x H I) as (f & F & J & Ef & _ & X); [rewrite SX; discriminate|]. rewrite F. exact X.
  - cbn [step]. destruct d; [|now apply inv_none]. destruct (consume Deq k s) as [[x s1]|] eqn:E; [|now apply inv_none]. apply consume_spec in E as (I & SX & K & ->); auto. subst k.
    destruct (inv_finish C s st (Forgotten (p_corr x) true) x H I) as (f & F & J & Ef & X & _); [rewrite SX; discriminate|]. rewrite F. exact X.
  - cbn [step]. destruct (consume LookS k s) as [[x s1]|] eqn:E; [|now apply inv_none]. apply consume_spec in E as (I & SX & K & ->); auto. subst k. st_facts H I SX c y.
    destruct a as [[sv p]|].
    + cbn [fst snd]. apply (inv_advance C s st _ x (Pend Calling (p_fwd x) (p_corr x) (p_trid x) 0)); auto; try (rewrite SX; discriminate); cbn; try discriminate; auto; [|apply Z.eqb_refl].
      intros c' _ St'. rewrite L. destruct y as [j e]. mx Mx SX. cbn in Mx. destruct e; try contradiction. cbn. auto.
    + apply inv_rollback; auto; [rewrite SX; discriminate|]. intros c' [j e] Lj M. mx M SX. cbn in M. destruct e; try contradiction. cbn. auto.
  - cbn [step]. destruct (consume Disc k s) as [[x s1]|] eqn:E; [|now apply inv_none]. apply consume_spec in E as (I & SX & K & ->); auto. subst k. st_facts H I SX c y.
    apply inv_rollback; auto; [rewrite SX; discriminate|]. intros c' [j e] Lj M. mx M SX. cbn in M. destruct e; try contradiction. cbn. auto.
  - cbn [step]. destruct (consume Calling k s) as [[x s1]|] eqn:E; [|now apply inv_none]. apply consume_spec in E as (I & SX & K & ->); auto. subst k. st_facts H I SX c y.
    destruct (find_forward_static C s st _ _ H Sta) as (f & F & J & Ef). change (find_forward (p_fwd x) (with_pending (but (p_corr x) (s_pending s)) s)) with (find_forward (p_fwd x) s). rewrite F.
    destruct (code =? 0) eqn:Co; cbn [negb].
    + apply Z.eqb_eq in Co. subst code. injection Ef as E1 E2 E3 E4 E5 E6. destruct (f_dest f) as [[d delay]|] eqn:De.
      * cbn [fst snd]. apply (inv_advance C s st _ x (Pend Enq (p_fwd x) (p_corr x) (p_trid x) 0)); auto; try (rewrite SX; discriminate); cbn; try discriminate; auto; [|apply Z.eqb_refl].
        intros c' _ St'. rewrite L. pose proof (conf_unique C s st _ _ _ H St' Sta) as Q. unfold conf_sta in Q. injection Q as Q1 Q2 Q3 Q4 Q5. cbn in E5. destruct y as [j e]. mx Mx SX. cbn in Mx. destruct e; try contradiction. cbn. split; [auto|split; [auto|split; [congruence|auto]]].
      * apply inv_commit; auto; [rewrite SX; discriminate|]. intros c' [j e] St' Lj M. mx M SX. cbn in M. destruct e; try contradiction. pose proof (conf_unique C s st _ _ _ H St' Sta) as Q. unfold conf_sta in Q. injection Q as Q1 Q2 Q3 Q4 Q5. cbn in E5. cbn. split; [auto|split; [auto|split; [congruence|eauto]]].
    + apply Z.eqb_neq in Co. apply inv_rollback; auto; [rewrite SX; discriminate|]. intros c' [j e] Lj M. mx M SX. cbn in M. destruct e; try contradiction. cbn. eauto 7.
  - cbn [step]. destruct (consume Enq k s) as [[x s1]|] eqn:E; [|now apply inv_none]. apply consume_spec in E as (I & SX & K & ->); auto. subst k. st_facts H I SX c y. destruct ok.
    + apply inv_commit; auto; [rewrite SX; discriminate|]. intros c' [j e] St' Lj M. mx M SX. cbn in M. destruct e; try contradiction. cbn. auto.
    + destruct (find_forward_static C s st _ _ H Sta) as (f & F & J & Ef). change (find_forward (p_fwd x) (with_pending (but (p_corr x) (s_pending s)) s)) with (find_forward (p_fwd x) s). rewrite F.
      assert (H1 : Inv C (put_forward (invalidate_queues f) s) st). { apply inv_put; auto. rewrite static_invalidate. now apply in_map. }
      change (put_forward (invalidate_queues f) (with_pending (but (p_corr x) (s_pending s)) s)) with (with_pending (but (p_corr x) (s_pending (put_forward (invalidate_queues f) s))) (put_forward (invalidate_queues f) s)).
      apply inv_rollback; auto; [rewrite SX; discriminate|]. intros c' [j e] Lj M. mx M SX. cbn in M. destruct e; try contradiction. cbn. auto.
  - cbn [step]. destruct pr; [now apply inv_none|]. destruct (consume Com k s) as [[x s1]|] eqn:E; [|now apply inv_none]. apply consume_spec in E as (I & SX & K & ->); auto. subst k.
    destruct (inv_finish C s st (Committed (p_corr x) false) x H I) as (f & F & J & Ef & X & _); [rewrite SX; discriminate|]. rewrite F. exact X.
  - cbn [step]. destruct (consume Rol k s) as [[x s1]|] eqn:E; [|now apply inv_none]. apply consume_spec in E as (I & SX & K & ->); auto. subst k.
    destruct (inv_finish C s st (RolledBack (p_corr x)) x H I) as (f & F & J & Ef & X & _); [rewrite SX; discriminate|]. rewrite F. exact X.
  - cbn [step]. apply inv_none. now apply inv_filter.
  - cbn [step]. destruct (consume Enq k s) as [[x s1]|] eqn:E; [|now apply inv_none]. apply consume_spec in E as (I & SX & K & ->); auto. subst k. st_facts H I SX c y.
    destruct (find_forward_static C s st _ _ H Sta) as (f & F & J & Ef). rewrite F. destruct (f_service f); [|now apply inv_none].
    apply inv_rollback; auto; [rewrite SX; discriminate|]. intros c' [j e] Lj M. mx M SX. cbn in M. destruct e; try contradiction. cbn. auto.
  - destruct (inv_dead C s st p H) as [A B]. now apply inv_flowless.
  - cbn [step]. match goal with |- context [comply ?x] => destruct (inv_comply C x st) as (X & Y & Z) end.
    + apply (inv_static C s); auto. apply map_static_configured.
    + now apply inv_flowless.
Qed.

(* ---- what is reached ---- *)
Definition conf_in (h : history) (c : conf) : Prop := configured c h /\ conf_ok c.
Lemma story_of_app k h h' : story_of k (h ++ h') = story_of k h ++ story_of k h'.
Proof. unfold story_of. apply flat_map_app. Qed.
Lemma story_of_one k i ev : story_of k [(i, ev)] = map (pair i) (filter (about k) ev).
Proof. unfold story_of. cbn. apply app_nil_r. Qed.
Lemma inputs_app h h' : inputs (h ++ h') = inputs h ++ inputs h'.
Proof. unfold inputs. apply map_app. Qed.
Lemma effects_app h h' : effects (h ++ h') = effects h ++ effects h'.
Proof. unfold effects. apply flat_map_app. Qed.
Lemma reach_inv s h : reach s h -> Inv (conf_in h) s (fun k => story_of k h).
Proof.
  intro R. induction R as [|s h i R IH P].
  - split; cbn; auto; try tauto. constructor.
  - apply (inv_eq _ _ (ext i (snd (step i s)) (fun k => story_of k h))).
    { intro k. rewrite story_of_app, story_of_one. reflexivity. }
    apply inv_step; auto.
    + apply (inv_mono (conf_in h)); auto. intros c [(l & A & B) Ok]. split; auto. exists l. split; auto. rewrite inputs_app. apply in_or_app; auto.
    + intros l -> c I. split; [|now apply P]. exists l. split; auto. rewrite inputs_app. apply in_or_app. right. now left.
Qed.

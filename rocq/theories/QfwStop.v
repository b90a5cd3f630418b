(* Withdrawal of lookups, shutdown, and that it ends. *)
From Coq Require Import ZArith List Bool Lia Permutation.
From Verif Require Import QfwModel QfwSpec QfwProofs QfwInv QfwFlow QfwCount QfwShape.
Import ListNotations.
Local Open Scope Z_scope.

(* ---- what is withdrawn ---- *)
Definition discards (k : Z) (ev : list effect) : Prop := exists sv, In (DiscardService k sv) ev.
Definition Wd (D : Z -> Prop) (l : list pend) : Prop := forall p, In p l -> (p_stage p = Deq \/ p_stage p = LookS -> ~ D (p_corr p)) /\ (p_stage p = Disc -> D (p_corr p)).
Lemma wd_eq (D E : Z -> Prop) l : (forall k, D k <-> E k) -> Wd D l -> Wd E l.
Proof. intros Q W p I. destruct (W p I) as [A B]. split; intro X; [intro Y; apply (A X); now apply Q|apply Q; auto]. Qed.
Lemma in_firstn {A} n (l : list A) x : In x (firstn n l) -> In x l.
Proof. intro I. rewrite <- (firstn_skipn n l). apply in_or_app; auto. Qed.
Lemma wd_cancel D f s : NoDup (map p_corr (s_pending s)) -> Wd D (s_pending s) -> Wd (fun k => D k \/ discards k (snd (cancel_surplus f s))) (s_pending (fst (cancel_surplus f s))).
Proof.
  intros N W. unfold cancel_surplus. cbv zeta. destruct (f_service f) as [sv|]; cbn [fst snd].
  - set (deqs := firstn _ (filter (of Deq (f_id f)) (s_pending s))). set (looks := firstn _ (filter (of LookS (f_id f)) (s_pending s))).
    assert (Dk : forall k, discards k (map (fun p => Forget (r_ipc (f_source f)) (p_corr p)) deqs ++ map (fun p => DiscardService (p_corr p) sv) looks) <-> In k (map p_corr looks)).
    { intro k. split.
      - intros [v I]. apply in_app_or in I as [I|I]; apply in_map_iff in I as [p [E I]]; [discriminate|]. injection E as <- <-. now apply in_map.
      - intro I. apply in_map_iff in I as [p [<- I]]. exists sv. apply in_or_app. right. apply in_map_iff. exists p. auto. }
    assert (Lk : forall p, In p looks -> In p (s_pending s) /\ p_stage p = LookS).
    { intros p I. unfold looks in I. apply in_firstn in I. apply filter_In in I as [I E]. split; auto. apply andb_true_iff in E as [E _]. now apply stage_eqb_eq. }
    intros p I. cbn [s_pending with_pending] in I. rewrite Dk. apply in_discarded in I as [[I X]|(x & I & X & ->)].
    + destruct (W p I) as [A B]. split; [|intro E; auto]. intros E [Y|Y]; [now apply A|]. apply in_map_iff in Y as [y [Ey Y]]. destruct (Lk y Y) as [Y1 Y2]. assert (y = p) by (apply (nodup_inj p_corr (s_pending s)); auto). subst y.
      rewrite Y2 in X. cbn [stage_eqb andb] in X. assert (existsb (Z.eqb (p_corr p)) (map p_corr looks) = true) as Z; [|congruence]. apply existsb_exists. exists (p_corr p). split; [now apply in_map|apply Z.eqb_refl].
    + cbn [p_stage p_corr]. split; [intros [Q|Q]; discriminate|]. intros _. right. apply andb_true_iff in X as [_ X]. apply existsb_exists in X as [y [Y1 Y2]]. apply Z.eqb_eq in Y2. now subst.
  - apply (wd_eq D); auto. intro k. split; auto. intros [X|[v X]]; auto. apply in_map_iff in X as [p [E _]]. discriminate.
Qed.
Lemma nodup_cancel f s : NoDup (map p_corr (s_pending s)) -> NoDup (map p_corr (s_pending (fst (cancel_surplus f s)))).
Proof. intro N. unfold cancel_surplus. cbv zeta. destruct (f_service f); auto. now apply nodup_discarded. Qed.
Lemma wd_each l : forall D s, NoDup (map p_corr (s_pending s)) -> Wd D (s_pending s) -> Wd (fun k => D k \/ discards k (snd (each cancel_surplus l s))) (s_pending (fst (each cancel_surplus l s))).
Proof.
  induction l as [|f l IH]; intros D s N W; cbn [each].
  - cbn [fst snd]. apply (wd_eq D); auto. intro k. split; auto. intros [X|[v []]]; auto.
  - pose proof (wd_cancel D f s N W) as W1. pose proof (nodup_cancel f s N) as N1. destruct (cancel_surplus f s) as [s1 e1]. cbn [fst snd] in *. specialize (IH _ s1 N1 W1). destruct (each cancel_surplus l s1) as [s2 e2]. cbn [fst snd] in *.
    eapply wd_eq; [|exact IH]. cbv beta. intro k. split.
    + intros [[X|[v X]]|[v X]]; [auto|right; exists v; apply in_or_app; auto|right; exists v; apply in_or_app; auto].
    + intros [X|[v X]]; [auto|]. apply in_app_or in X as [X|X]; [left; right; exists v; auto|right; exists v; auto].
Qed.
Lemma start_facts l : forall s, let r := each start_lookups l s in
  s_run (fst r) = s_run s /\ s_forwards (fst r) = s_forwards s /\ (forall p, In p (s_pending (fst r)) -> In p (s_pending s) \/ (s_next s <= p_corr p /\ p_stage p = LookQ))
  /\ (forall e, In e (snd r) -> exists f k name, e = AskQueue f k name) /\ s_next s <= s_next (fst r).
Proof.
  induction l as [|f l IH]; intro s; cbn [each].
  - cbv zeta. cbn [fst snd]. split; [auto|split; [auto|split; [auto|split; [intros e []|lia]]]].
  - assert (X : let r := start_lookups f s in s_run (fst r) = s_run s /\ s_forwards (fst r) = s_forwards s /\ (forall p, In p (s_pending (fst r)) -> In p (s_pending s) \/ (s_next s <= p_corr p /\ p_stage p = LookQ))
      /\ (forall e, In e (snd r) -> exists f k name, e = AskQueue f k name) /\ s_next s <= s_next (fst r)).
    { unfold start_lookups. destruct (f_enabled f && negb (f_configured f =? 0)%nat).
      - pose proof (ask_facts (f_id f) (queues_of f) s) as X. destruct (steady_ask 0 (f_id f) (queues_of f) s) as (_ & _ & Y). cbv zeta in *. unfold lookup_queues. destruct X as (A & B & P & Q). split; [auto|split; [auto|split; [auto|split; [|auto]]]]. intros e I. destruct (Q e I) as (k & n & ->). eauto.
      - cbv zeta. cbn [fst snd]. split; [auto|split; [auto|split; [auto|split; [intros e []|lia]]]]. }
    cbv zeta in *. destruct X as (A & B & P & Q & R). destruct (start_lookups f s) as [s1 e1]. cbn [fst snd] in *. specialize (IH s1). destruct (each start_lookups l s1) as [s2 e2]. cbn [fst snd] in *. destruct IH as (A2 & B2 & P2 & Q2 & R2).
    split; [congruence|split; [congruence|split; [|split; [|lia]]]].
    + intros p I. destruct (P2 p I) as [J|[J K]]; [destruct (P p J) as [J'|J']; auto|right; split; [lia|auto]].
    + intros e I. apply in_app_or in I as [I|I]; auto.
Qed.
Lemma cancel_facts l : forall s, let r := each cancel_surplus l s in s_run (fst r) = s_run s /\ s_forwards (fst r) = s_forwards s /\ s_next (fst r) = s_next s /\
  (forall p, In p (s_pending (fst r)) -> In p (s_pending s) \/ (p_stage p = Disc /\ exists x, In x (s_pending s) /\ p_stage x = LookS /\ p_corr x = p_corr p)) /\
  (forall e, In e (snd r) -> match e with Forget _ _ | DiscardService _ _ => True | _ => False end) /\ (forall id, flows id (s_pending (fst r)) = flows id (s_pending s)) /\
  (forall k sv, In (DiscardService k sv) (snd r) -> exists p, In p (s_pending s) /\ p_stage p = LookS /\ p_corr p = k).
Proof.
  induction l as [|f l IH]; intro s; cbn [each].
  - cbv zeta. cbn [fst snd]. repeat (split; [solve [auto]|]). split; [intros e []|split; [auto|intros k sv []]].
  - assert (X : let r := cancel_surplus f s in s_run (fst r) = s_run s /\ s_forwards (fst r) = s_forwards s /\ s_next (fst r) = s_next s /\
      (forall p, In p (s_pending (fst r)) -> In p (s_pending s) \/ (p_stage p = Disc /\ exists x, In x (s_pending s) /\ p_stage x = LookS /\ p_corr x = p_corr p)) /\
      (forall e, In e (snd r) -> match e with Forget _ _ | DiscardService _ _ => True | _ => False end) /\ (forall id, flows id (s_pending (fst r)) = flows id (s_pending s)) /\
      (forall k sv, In (DiscardService k sv) (snd r) -> exists p, In p (s_pending s) /\ p_stage p = LookS /\ p_corr p = k)).
    { unfold cancel_surplus. cbv zeta. destruct (f_service f) as [sv|]; cbn [fst snd].
      - repeat (split; [solve [auto]|]). split; [|split; [|split]].
        + intros p I. cbn [s_pending with_pending] in I. apply in_discarded in I as [[I _]|(x & I & X & ->)]; auto. right. split; auto. exists x. split; auto. split; auto. apply andb_true_iff in X as [X _]. now apply stage_eqb_eq.
        + intros e I. apply in_app_or in I as [I|I]; apply in_map_iff in I as [p [<- _]]; exact Logic.I.
        + intro id. apply flows_discarded.
        + intros k v I. apply in_app_or in I as [I|I]; apply in_map_iff in I as [p [E I]]; [discriminate|]. injection E as <- <-. apply in_firstn in I. apply filter_In in I as [I E]. exists p. split; auto. split; auto. apply andb_true_iff in E as [E _]. now apply stage_eqb_eq.
      - repeat (split; [solve [auto]|]). split; [|split; [auto|]].
        + intros e I. apply in_map_iff in I as [p [<- _]]; exact Logic.I.
        + intros k v I. apply in_map_iff in I as [p [E _]]. discriminate. }
    cbv zeta in *. destruct X as (A & B & N & P & Q & F & G). destruct (cancel_surplus f s) as [s1 e1]. cbn [fst snd] in *. specialize (IH s1). destruct (each cancel_surplus l s1) as [s2 e2]. cbn [fst snd] in *. destruct IH as (A2 & B2 & N2 & P2 & Q2 & F2 & G2).
    split; [congruence|split; [congruence|split; [congruence|split; [|split; [|split]]]]].
    + intros p I. destruct (P2 p I) as [J|(J & x & X1 & X2 & X3)]; [auto|]. right. split; auto. destruct (P x X1) as [Y|(Y & _)]; [|congruence]. exists x. auto.
    + intros e I. apply in_app_or in I as [I|I]; [exact (Q e I)|exact (Q2 e I)].
    + intro id. rewrite F2. apply F.
    + intros k v I. apply in_app_or in I as [I|I]; [now apply (G k v)|]. destruct (G2 k v I) as (p & J & S1 & S2). destruct (P p J) as [Y|(Y & _)]; [|congruence]. exists p. auto.
Qed.
Lemma comply_facts s : let r := comply s in s_run (fst r) = s_run s /\ s_forwards (fst r) = s_forwards s /\
  (forall p, In p (s_pending (fst r)) -> In p (s_pending s) \/ (s_next s <= p_corr p /\ p_stage p = LookQ) \/ (p_stage p = Disc /\ exists x, In x (s_pending s) /\ p_stage x = LookS /\ p_corr x = p_corr p)) /\
  (forall e, In e (snd r) -> match e with Forget _ _ | DiscardService _ _ | DiscardQueue _ | AskQueue _ _ _ => True | _ => False end) /\
  (forall k sv, In (DiscardService k sv) (snd r) -> exists p, In p (s_pending s) /\ p_stage p = LookS /\ p_corr p = k).
Proof.
  unfold comply. cbv zeta. pose proof (cancel_facts (queue_forwards s ++ service_forwards s) s) as X. cbv zeta in X. destruct (each cancel_surplus _ s) as [s1 e1]. cbn [fst snd] in *. destruct X as (A & B & N & P & Q & F & G).
  pose proof (start_facts (service_forwards s1 ++ queue_forwards s1) s1) as X. cbv zeta in X. destruct (each start_lookups _ s1) as [s2 e2]. cbn [fst snd] in *. destruct X as (A2 & B2 & P2 & Q2 & R2).
  split; [congruence|split; [congruence|split; [|split]]].
  - intros p I. destruct (P2 p I) as [J|[J K]]; [destruct (P p J) as [J'|J']; auto|right; left; split; [lia|auto]].
  - intros e I. rewrite !in_app_iff in I. destruct I as [I|[I|I]]; [apply in_map_iff in I as [p [<- _]]; exact Logic.I|specialize (Q e I); destruct e; auto; contradiction|]. destruct (Q2 e I) as (f & k & n & ->). exact Logic.I.
  - intros k sv I. rewrite !in_app_iff in I. destruct I as [I|[I|I]]; [apply in_map_iff in I as [p [E _]]; discriminate|now apply (G k sv)|]. destruct (Q2 _ I) as (f & k' & n & E). discriminate.
Qed.
Lemma wd_comply D s : NoDup (map p_corr (s_pending s)) -> Wd D (s_pending s) -> (forall k, D k -> k < s_next s) -> Wd (fun k => D k \/ discards k (snd (comply s))) (s_pending (fst (comply s))).
Proof.
  intros N W L. unfold comply. cbv zeta. pose proof (wd_each (queue_forwards s ++ service_forwards s) D s N W) as X. destruct (each cancel_surplus _ s) as [s1 e1]. cbn [fst snd] in *.
  pose proof (start_facts (service_forwards s1 ++ queue_forwards s1) s1) as Y. cbv zeta in Y. destruct (each start_lookups _ s1) as [s2 e2]. cbn [fst snd] in *. destruct Y as (A2 & B2 & P2 & Q2 & R2).
  assert (E : forall k, D k \/ discards k e1 <-> D k \/ discards k (map (fun p => DiscardQueue (p_corr p)) (filter (fun p => stage_eqb (p_stage p) LookQ) (s_pending s)) ++ e1 ++ e2)).
  { intro k. split; (intros [Z|[v Z]]; [auto|right; exists v]); [apply in_or_app; right; apply in_or_app; auto|]. rewrite !in_app_iff in Z. destruct Z as [Z|[Z|Z]]; [apply in_map_iff in Z as [p [Z _]]; discriminate|auto|]. destruct (Q2 _ Z) as (f & k' & n & E). discriminate. }
  apply (wd_eq _ _ _ E). intros p I. destruct (P2 p I) as [J|[J K]]; [now apply X|]. rewrite K. split; [intros [Q|Q]; discriminate|discriminate].
Qed.
Lemma next_grows C s st i : Inv C s st -> possible i -> s_next s <= s_next (fst (step i s)).
Proof.
  intros H P. pose proof (i_nodup _ _ _ H) as ND. destruct i as [l|k name q p r|k r|k m|k|k d|k a|k|k code r|k ok|k pr|k|k|k|p|]; cbn [step].
  - unfold update. cbv zeta. match goal with |- context [comply ?x] => pose proof (steady_comply 0 x) as (_ & _ & X); destruct (comply x) as [s1 ev] end. exact X.
  - destruct (consume LookQ k s) as [[x s1]|] eqn:E; [|cbn; lia]. apply consume_spec in E as (I & SX & Kx & ->); auto. destruct (is_down _); [cbn; lia|]. destruct (find_forward _ _) as [f|]; [|cbn; lia].
    destruct (assign name q p r f) as [f' e]. destruct (valid_queues f'); [|cbn; lia]. pose proof (more_dequeue_request 0 f' (with_pending (but k (s_pending s)) s)) as (_ & _ & X). destruct (dequeue_request _ _). exact X.
  - destruct r; [cbn; lia|]. destruct (consume LookQ k s) as [[x s1]|] eqn:E; [|cbn; lia]. apply consume_spec in E as (I & SX & Kx & ->); auto. cbn. lia.
  - destruct (consume Deq k s) as [[x s1]|] eqn:E; [|cbn; lia]. apply consume_spec in E as (I & SX & Kx & ->); auto. destruct m; [|cbn; lia]. destruct (is_down _); [cbn; lia|]. destruct (find_forward _ _) as [f|]; [|cbn; lia]. destruct (f_service f); [cbn; lia|]. destruct (f_dest f) as [[d delay]|]; cbn; lia.
  - destruct (consume Deq k s) as [[x s1]|] eqn:E; [|cbn; lia]. apply consume_spec in E as (I & SX & Kx & ->); auto. destruct (find_forward _ _) as [f|]; cbn; lia.
  - destruct d; [|cbn; lia]. destruct (consume Deq k s) as [[x s1]|] eqn:E; [|cbn; lia]. apply consume_spec in E as (I & SX & Kx & ->); auto. destruct (find_forward _ _) as [f|]; [|cbn; lia]. pose proof (more_next 0 (decrement f) (with_pending (but k (s_pending s)) s)) as (_ & _ & X). exact X.
  - destruct (consume LookS k s) as [[x s1]|] eqn:E; [|cbn; lia]. apply consume_spec in E as (I & SX & Kx & ->); auto. destruct a as [[sv p]|]; cbn; lia.
  - destruct (consume Disc k s) as [[x s1]|] eqn:E; [|cbn; lia]. apply consume_spec in E as (I & SX & Kx & ->); auto. cbn; lia.
  - destruct (consume Calling k s) as [[x s1]|] eqn:E; [|cbn; lia]. apply consume_spec in E as (I & SX & Kx & ->); auto. destruct (find_forward _ _) as [f|]; [|cbn; lia]. destruct (negb (code =? 0)); [cbn; lia|]. destruct (f_dest f) as [[d delay]|]; cbn; lia.
  - destruct (consume Enq k s) as [[x s1]|] eqn:E; [|cbn; lia]. apply consume_spec in E as (I & SX & Kx & ->); auto. destruct ok; [cbn; lia|]. destruct (find_forward _ _) as [f|]; cbn; lia.
  - destruct pr; [cbn; lia|]. destruct (consume Com k s) as [[x s1]|] eqn:E; [|cbn; lia]. apply consume_spec in E as (I & SX & Kx & ->); auto. destruct (find_forward _ _) as [f|]; [|cbn; lia]. pose proof (more_next 0 (decrement f) (with_pending (but k (s_pending s)) s)) as (_ & _ & X). exact X.
  - destruct (consume Rol k s) as [[x s1]|] eqn:E; [|cbn; lia]. apply consume_spec in E as (I & SX & Kx & ->); auto. destruct (find_forward _ _) as [f|]; [|cbn; lia]. pose proof (more_next 0 (decrement f) (with_pending (but k (s_pending s)) s)) as (_ & _ & X). exact X.
  - cbn; lia.
  - destruct (consume Enq k s) as [[x s1]|] eqn:E; [|cbn; lia]. apply consume_spec in E as (I & SX & Kx & ->); auto. destruct (find_forward _ _) as [f|]; [|cbn; lia]. destruct (f_service f); cbn; lia.
  - assert (G : forall f s, steady 0 s (fst (dead_one p f s)) (snd (dead_one p f s))).
    { intros f s'. unfold dead_one. cbv zeta. destruct (_ || _); [|apply steady_same]. destruct (match f_dest f with Some (d, _) => _ | None => _ end); cbn [fst snd].
      - split; [apply flowless_app; [apply flowless_app; now apply flowless_map|now apply flowless_map]|split; [reflexivity|cbn; lia]].
      - split; [apply flowless_app; now apply flowless_map|split; [reflexivity|lia]]. }
    apply (steady_each 0 (dead_one p) G).
  - match goal with |- context [comply ?x] => exact (proj2 (proj2 (steady_comply 0 x))) end.
Qed.
Lemma withdrawn_spec k h : withdrawn k h = true <-> discards k (effects h).
Proof.
  unfold withdrawn, discards. rewrite existsb_exists. split.
  - intros [e [I E]]. destruct e; try discriminate. apply Z.eqb_eq in E. subst. eauto.
  - intros [sv I]. exists (DiscardService k sv). split; auto. apply Z.eqb_refl.
Qed.
Lemma discards_app k a b : discards k (a ++ b) <-> discards k a \/ discards k b.
Proof. unfold discards. split; [intros [v I]; apply in_app_or in I as [I|I]; eauto|intros [[v I]|[v I]]; exists v; apply in_or_app; auto]. Qed.
Lemma reach_withdrawn s h : reach s h -> Wd (fun k => discards k (effects h)) (s_pending s) /\ (forall k, discards k (effects h) -> k < s_next s).
Proof.
  intro R. induction R as [|s h i R [W L] P]; [split; [intros p []|intros k [v []]]|].
  pose proof (reach_inv s h R) as H. pose proof (next_grows _ _ _ i H P) as NG. pose proof (i_nodup _ _ _ H) as ND. pose proof (i_old _ _ _ H) as Old.
  assert (Q : forall k, discards k (effects (h ++ [(i, snd (step i s))])) <-> discards k (effects h) \/ discards k (snd (step i s))).
  { intro k. rewrite effects_app, discards_app. unfold effects at 2. cbn. now rewrite app_nil_r. }
  destruct (told_b i) eqn:T.
  - assert (X : exists s0, s_pending s0 = s_pending s /\ s_next s0 = s_next s /\ s_pending (fst (step i s)) = s_pending (fst (comply s0)) /\ (forall k, discards k (snd (step i s)) <-> discards k (snd (comply s0)))).
    { destruct i; try discriminate T; cbn [step].
      - unfold update. cbv zeta. match goal with |- context [comply ?x] => exists x; destruct (comply x) as [s1 ev] end. cbn [fst snd]. repeat (split; [solve [auto]|]). intro k. rewrite discards_app. split; [intros [X|[v [X|[]]]]; [auto|discriminate]|auto].
      - eexists. split; [|split; [|split; [reflexivity|reflexivity]]]; reflexivity. }
    destruct X as (s0 & X1 & X2 & X3 & X4). rewrite <- X1 in W, ND. pose proof (wd_comply _ s0 ND W) as Y. rewrite X3. split.
    + eapply wd_eq; [|apply Y; rewrite X2; exact L]. intro k. cbv beta. rewrite Q, X4. reflexivity.
    + intros k K. rewrite Q, X4 in K. destruct K as [K|[v K]]; [specialize (L k K); lia|]. pose proof (comply_facts s0) as Z. cbv zeta in Z. destruct Z as (_ & _ & _ & _ & Z). destruct (Z k v K) as (p & I & _ & <-). rewrite X1 in I. specialize (Old p I). lia.
  - pose proof (step_shape _ _ _ i H T) as [_ _ Sp Sk].
    assert (Q' : forall k, discards k (effects (h ++ [(i, snd (step i s))])) <-> discards k (effects h)). { intro k. rewrite Q. split; auto. intros [X|[v X]]; auto. destruct (Sk _ X). }
    split; [|intros k K; rewrite Q' in K; specialize (L k K); lia].
    intros p I. rewrite Q'. destruct (Sp p I) as [J|[[J [K|K]]|(x & J & K & _ & Tr)]].
    + now apply W.
    + rewrite K. split; [|discriminate]. intros _ X. apply L in X. lia.
    + rewrite K. split; [intros [X|X]; discriminate|discriminate].
    + destruct (W x J) as [W1 W2]. rewrite <- K. split.
      * intros [X|X]; rewrite X in Tr; destruct (p_stage x); try contradiction; apply W1; auto.
      * intro X. rewrite X in Tr. destruct (p_stage x); contradiction.
Qed.

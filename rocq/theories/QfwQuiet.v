(* Shutdown: what is withdrawn, that nothing new is begun, and that it ends. *)
From Coq Require Import ZArith List Bool Lia Permutation.
From Verif Require Import QfwModel QfwSpec QfwProofs QfwInv QfwFlow QfwCount QfwShape QfwStop QfwEnd.
Import ListNotations.
Local Open Scope Z_scope.

Lemma of_spec st id p : of st id p = true <-> p_stage p = st /\ p_fwd p = id.
Proof. unfold of. rewrite andb_true_iff, stage_eqb_eq, Z.eqb_eq. reflexivity. Qed.
Lemma of_count id l : (length (filter (of Deq id) l) + length (filter (of LookS id) l) <= flows id l)%nat.
Proof. unfold flows. induction l as [|a l IH]; cbn; auto. unfold of, flow_of in *. destruct (p_stage a), (p_fwd a =? id); cbn [stage_eqb negb andb length] in *; lia. Qed.
Lemma firstn_full {A} n (l : list A) : (length l <= n)%nat -> firstn n l = l.
Proof. intro L. now apply firstn_all2. Qed.
Lemma surplus_zero f : f_configured f = 0%nat -> surplus_of f = f_running f.
Proof. intro E. unfold surplus_of, surplus. rewrite E. destruct (f_enabled f); lia. Qed.
(* one forward is shut down *)
Lemma cancel_all f s : NoDup (map p_corr (s_pending s)) -> f_configured f = 0%nat -> (flows (f_id f) (s_pending s) <= f_running f)%nat ->
  (forall p, In p (s_pending s) -> p_stage p = Deq -> p_fwd p = f_id f -> In (Forget (r_ipc (f_source f)) (p_corr p)) (snd (cancel_surplus f s))) /\
  (forall sv, f_service f = Some sv -> (forall p, In p (s_pending s) -> p_stage p = LookS -> p_fwd p = f_id f -> In (DiscardService (p_corr p) sv) (snd (cancel_surplus f s)))
     /\ forall p, In p (s_pending (fst (cancel_surplus f s))) -> p_stage p = LookS -> p_fwd p <> f_id f).
Proof.
  intros N E L. pose proof (of_count (f_id f) (s_pending s)) as O. unfold cancel_surplus. cbv zeta. rewrite (surplus_zero f E). rewrite (firstn_full (f_running f)) by lia. rewrite (firstn_full (f_running f - _)) by lia.
  set (looks := filter (of LookS (f_id f)) (s_pending s)). split.
  - intros p I S F. destruct (f_service f); cbn [snd]; [apply in_or_app; left|]; (apply in_map_iff; exists p; split; [reflexivity|]; apply filter_In; split; [auto|]; now apply of_spec).
  - intros sv Q. rewrite Q. cbn [fst snd]. split.
    + intros p I S F. apply in_or_app. right. apply in_map_iff. exists p. split; auto. apply filter_In. split; auto. now apply of_spec.
    + intros p I S F. cbn [s_pending with_pending] in I. apply in_discarded in I as [[I X]|(x & I & X & ->)]; [|discriminate S]. rewrite S in X. cbn [stage_eqb andb] in X.
      assert (existsb (Z.eqb (p_corr p)) (map p_corr looks) = true) as Z; [|congruence]. apply existsb_exists. exists (p_corr p). split; [|apply Z.eqb_refl]. apply in_map. apply filter_In. split; auto. now apply of_spec.
Qed.
Lemma cancel_keeps f s p : In p (s_pending s) -> In p (s_pending (fst (cancel_surplus f s))) \/ (p_stage p = LookS /\ discards (p_corr p) (snd (cancel_surplus f s))).
Proof.
  intro I. unfold cancel_surplus. cbv zeta. destruct (f_service f) as [sv|]; [|auto]. cbn [fst snd s_pending with_pending]. set (looks := firstn _ (filter (of LookS _) _)).
  destruct (stage_eqb (p_stage p) LookS && existsb (Z.eqb (p_corr p)) (map p_corr looks)) eqn:E; [|left; apply in_discarded; auto].
  right. apply andb_true_iff in E as [E X]. split; [now apply stage_eqb_eq|]. apply existsb_exists in X as [k [X K]]. apply Z.eqb_eq in K. subst k. exists sv. apply in_or_app. right. apply in_map_iff in X as [y [Y1 Y2]]. apply in_map_iff. exists y. rewrite Y1. auto.
Qed.
Lemma cancel_each l : forall s, NoDup (map p_corr (s_pending s)) -> (forall f, In f l -> f_configured f = 0%nat /\ (flows (f_id f) (s_pending s) <= f_running f)%nat) ->
  (forall f p, In f l -> In p (s_pending s) -> p_stage p = Deq -> p_fwd p = f_id f -> In (Forget (r_ipc (f_source f)) (p_corr p)) (snd (each cancel_surplus l s))) /\
  (forall f p, In f l -> f_service f <> None -> In p (s_pending s) -> p_stage p = LookS -> p_fwd p = f_id f -> discards (p_corr p) (snd (each cancel_surplus l s))) /\
  (forall f p, In f l -> f_service f <> None -> In p (s_pending (fst (each cancel_surplus l s))) -> p_stage p = LookS -> p_fwd p <> f_id f).
Proof.
  induction l as [|g l IH]; intros s N A; cbn [each].
  - split; [intros f p []|split; intros f p []].
  - destruct (A g (or_introl eq_refl)) as [A1 A2]. destruct (cancel_all g s N A1 A2) as [B1 B2]. pose proof (nodup_cancel g s N) as N1. pose proof (cancel_facts [g] s) as X. cbn [each] in X. pose proof (cancel_keeps g s) as CK.
    destruct (cancel_surplus g s) as [s1 e1]. cbv zeta in X. cbn [fst snd] in *. destruct X as (_ & _ & _ & X1 & _ & X2 & _).
    destruct (IH s1 N1) as (C1 & C2 & C3). { intros f F. destruct (A f (or_intror F)). split; auto. rewrite X2. auto. }
    pose proof (cancel_facts l s1) as Y. cbv zeta in Y. destruct (each cancel_surplus l s1) as [s2 e2]. cbn [fst snd] in *. destruct Y as (_ & _ & _ & Y1 & _). split; [|split].
    + intros f p [<-|F] I S W; apply in_or_app; [left; auto|right]. destruct (CK p I) as [K|[K _]]; [now apply C1|congruence].
    + intros f p [<-|F] Sv I S W; apply discards_app.
      * left. destruct (f_service g) as [sv|] eqn:Q; [|congruence]. exists sv. apply (proj1 (B2 sv eq_refl)); auto.
      * destruct (CK p I) as [K|[_ K]]; [right; now apply (C2 f)|auto].
    + intros f p [<-|F] Sv I S W; [|now apply (C3 f p F Sv I S)]. destruct (f_service g) as [sv|] eqn:Q; [|congruence]. destruct (Y1 p I) as [J|[J _]]; [|congruence]. now apply (proj2 (B2 sv eq_refl) p J S).
Qed.
Lemma look_service C s st p : Inv C s st -> In p (s_pending s) -> p_stage p = LookS -> exists f, In f (s_forwards s) /\ f_id f = p_fwd p /\ f_service f <> None.
Proof.
  intros H I S. destruct (flow_facts _ _ _ p H I ltac:(rewrite S; discriminate)) as (c & x & _ & Sc & Sy & L & M & _). destruct (find_forward_static _ _ _ _ _ H Sc) as (f & _ & J & E). exists f. split; auto. unfold static, conf_sta in E. injection E as E1 E2 E3 E4 E5 E6. split; auto.
  rewrite E3. destruct x as [j e]. unfold matches in M. rewrite S in M. cbn in M. destruct e; try contradiction. apply last_of_some in L as [l' L]. rewrite L in Sy. inversion Sy as [Z|l i e' Sl F Z]; [symmetry in Z; now apply app_eq_nil in Z as [_ Z]|]. apply app_inj_tail in Z as [-> Z]. injection Z as -> ->.
  unfold follows in F. destruct (last_of l') as [[j' b]|]; [destruct b|]; try contradiction. destruct F as (_ & F & _). congruence.
Qed.
Lemma shutdown_step s h : reach s h ->
  let s' := fst (step Shutdown s) in let ev := snd (step Shutdown s) in
  is_down s' = true /\ (forall f, In f (s_forwards s') -> f_configured f = 0%nat) /\ (forall p, In p (s_pending s') -> p_stage p <> LookS)
  /\ (forall p, In p (s_pending s) -> p_stage p = Deq -> exists f, In f (s_forwards s) /\ f_id f = p_fwd p /\ In (Forget (r_ipc (f_source f)) (p_corr p)) ev) /\ (forall p, In p (s_pending s) -> p_stage p = LookS -> discards (p_corr p) ev).
Proof.
  intro R. pose proof (reach_inv s h R) as H. pose proof (i_nodup _ _ _ H) as ND. pose proof (reach_counts s h R) as K. cbn [step]. set (s0 := State (run Down (s_run s)) (map (with_configured 0) (s_forwards s)) (s_pending s) (s_next s)).
  assert (H0 : Inv (conf_in h) s0 (fun k => story_of k h)) by (apply (inv_static _ s); auto; apply map_static_configured).
  pose proof (comply_facts s0) as X. cbv zeta in *. destruct X as (X1 & X2 & _ & _). unfold comply in *. cbv zeta in *.
  assert (A : forall f, In f (queue_forwards s0 ++ service_forwards s0) -> f_configured f = 0%nat /\ (flows (f_id f) (s_pending s0) <= f_running f)%nat).
  { intros f I. assert (J : In f (map (with_configured 0) (s_forwards s))) by (apply in_app_or in I as [I|I]; apply filter_In in I as [I _]; exact I). apply in_map_iff in J as [g [<- J]]. split; [reflexivity|]. destruct (K g J) as [B _]. exact B. }
  destruct (cancel_each _ s0 ND A) as (C1 & C2 & C3). pose proof (cancel_facts (queue_forwards s0 ++ service_forwards s0) s0) as Y. cbv zeta in Y. destruct (each cancel_surplus _ s0) as [s1 e1]. cbn [fst snd] in *. destruct Y as (_ & Y2 & _ & Y3 & _).
  pose proof (start_facts (service_forwards s1 ++ queue_forwards s1) s1) as Z. cbv zeta in Z. destruct (each start_lookups _ s1) as [s2 e2]. cbn [fst snd] in *. destruct Z as (_ & _ & Z3 & _).
  assert (Sub : forall f, In f (s_forwards s0) -> In f (queue_forwards s0 ++ service_forwards s0)).
  { intros f I. apply in_or_app. unfold queue_forwards, service_forwards. destruct (is_queue_forward f) eqn:Q; [left|right]; apply filter_In; split; auto. now rewrite Q. }
  split; [|split; [|split; [|split]]].
  - unfold is_down. rewrite X1. cbn. destruct (s_run s); reflexivity.
  - intros f I. rewrite X2 in I. cbn in I. apply in_map_iff in I as [g [<- _]]. reflexivity.
  - intros p I S. destruct (Z3 p I) as [J|[_ J]]; [|congruence]. assert (J0 : In p (s_pending s0)) by (destruct (Y3 p J) as [J'|[J' _]]; [auto|congruence]).
    destruct (look_service _ _ _ p H0 J0 S) as (f & F1 & F2 & F3). now apply (C3 f p (Sub f F1) F3 J S).
  - intros p I S. destruct (flow_facts _ _ _ p H I ltac:(rewrite S; discriminate)) as (c & x & _ & Sc & _). destruct (find_forward_static _ _ _ _ _ H Sc) as (f & _ & J & E). unfold static in E. injection E as E1 E2 E3 E4 E5 E6.
    exists f. split; [auto|split; [auto|]]. apply in_or_app. right. apply in_or_app. left. apply (C1 (with_configured 0 f) p); auto. apply Sub. cbn. now apply in_map.
  - intros p I S. destruct (look_service _ _ _ p H0 I S) as (f & F1 & F2 & F3). apply discards_app. right. apply discards_app. left. now apply (C2 f p (Sub f F1) F3).
Qed.
Lemma closing_snoc h i ev : closing (h ++ [(i, ev)]) -> i = Shutdown \/ (closing h /\ forall l, i <> Update l).
Proof. intro C. inversion C as [h0 ev0 E|h0 i0 ev0 C0 N E]; apply app_inj_tail in E as [-> E]; injection E as -> ->; auto. Qed.
Lemma closing_state h : forall s, reach s h -> closing h -> is_down s = true /\ (forall f, In f (s_forwards s) -> f_configured f = 0%nat) /\ (forall p, In p (s_pending s) -> p_stage p <> LookS).
Proof.
  intros s R. induction R as [|s h i R IH P]; intro C; [inversion C as [h0 ev0 E|h0 i0 ev0 C0 N E]; apply app_eq_nil in E as [_ E]; discriminate|].
  destruct (closing_snoc _ _ _ C) as [->|[C' N]]. { pose proof (shutdown_step s h R) as X. cbv zeta in X. tauto. }
  destruct (told_b i) eqn:T. { destruct i; try discriminate T; [destruct (N l eq_refl)|]. pose proof (shutdown_step s h R) as X. cbv zeta in X. tauto. }
  destruct (IH C') as (A & B & D). pose proof (step_shape _ _ _ i (reach_inv s h R) T) as [S1 S2 S3 _]. split; [|split].
  - unfold is_down in *. now rewrite S1.
  - intros f I. destruct (dyn_in _ _ f S2 I) as (g & G & _ & _ & _ & E). rewrite <- E. auto.
  - intros p I Q. destruct (S3 p I) as [J|[[_ [J|J]]|(x & J & _ & _ & Tr)]]; [now apply (D p)|congruence|congruence|]. rewrite Q, A in Tr. destruct (p_stage x); try contradiction. discriminate.
Qed.
Lemma closing_quiet s h i : reach s h -> possible i -> closing h -> (forall l, i <> Update l) -> forall e, In e (snd (step i s)) -> begins e = false.
Proof.
  intros R P C N e I. destruct (closing_state h s R C) as (A & B & D). destruct (told_b i) eqn:T.
  - destruct i; try discriminate T; [destruct (N l eq_refl)|]. cbn [step] in I. match type of I with context [comply ?x] => pose proof (comply_facts x) as X; cbv zeta in X; destruct X as (_ & _ & _ & X & _) end. specialize (X e I). destruct e; auto; contradiction.
  - pose proof (step_shape _ _ _ i (reach_inv s h R) T) as [S1 S2 S3 S4]. specialize (S4 e I). destruct e; auto; exfalso.
    + destruct S4 as (f0 & F1 & F2 & F3 & F4 & _). destruct (dyn_in _ _ f0 S2 F1) as (g & G & _ & _ & _ & E). rewrite (B g G) in E. lia.
    + congruence.
    + destruct S4 as (x & X1 & X2 & _). now apply (D x).
Qed.
Lemma flows_zero s h f : reach s h -> In f (s_forwards s) -> flows (f_id f) (s_pending s) = 0%nat <-> forall k, ~ active (f_id f) k h.
Proof.
  intros R I. split.
  - intros Z k A. apply (active_pending s h _ _ R) in A as (p & J & K & F & N). unfold flows in Z. apply length_zero_iff_nil in Z. assert (Q : In p (filter (flow_of (f_id f)) (s_pending s))) by (apply filter_In; split; [auto|rewrite <- F; now apply flow_of_x]). rewrite Z in Q. destruct Q.
  - intro A. unfold flows. destruct (filter (flow_of (f_id f)) (s_pending s)) as [|p l] eqn:E; auto. exfalso. apply (A (p_corr p)). apply (active_pending s h _ _ R). apply in_flow_corrs. rewrite E. now left.
Qed.
Lemma active_forward s h id k : reach s h -> active id k h -> exists f, In f (s_forwards s) /\ f_id f = id.
Proof.
  intros R A. apply (active_pending s h _ _ R) in A as (p & J & K & F & N). destruct (flow_facts _ _ _ p (reach_inv s h R) J N) as (c & x & _ & Sc & _). destruct (find_forward_static _ _ _ _ _ (reach_inv s h R) Sc) as (f & _ & I & E). exists f. split; auto. unfold static in E. injection E as E1 E2. congruence.
Qed.
Lemma done_sound s h : reach s h -> done s = true -> In Shutdown (inputs h) /\ forall f k, ~ active f k h.
Proof.
  intros R D. unfold done in D. apply andb_true_iff in D as [D1 D2]. split.
  - clear D2. induction R as [|s h i R IH P]; [discriminate|]. rewrite inputs_app. apply in_or_app. destruct (told_b i) eqn:T.
    + destruct i; try discriminate T; [|right; now left]. left. apply IH. cbn [step] in D1. unfold update in D1. cbv zeta in D1. match type of D1 with context [comply ?x] => pose proof (comply_facts x) as X; cbv zeta in X; destruct (comply x) as [s1 ev1] end. cbn [fst] in *. destruct X as (X & _). unfold is_down in *. cbn [s_run] in D1. rewrite X in D1. cbn in D1. destruct (s_run s); auto; discriminate.
    + left. apply IH. pose proof (step_shape _ _ _ i (reach_inv s h R) T) as [S1 _ _ _]. unfold is_down in *. now rewrite S1 in D1.
  - intros f k A. destruct (active_forward s h f k R A) as (g & G & <-). rewrite forallb_forall in D2. specialize (D2 g G). unfold absent in D2. apply andb_true_iff in D2 as [_ D2]. apply Nat.eqb_eq in D2.
    destruct (reach_counts s h R g G) as [L _]. apply (proj1 (flows_zero s h g R G)) with (k := k); auto. lia.
Qed.
Lemma done_complete s h : reach s h -> closing h -> no_loss h -> (forall f k, ~ active f k h) -> done s = true.
Proof.
  intros R C N A. destruct (closing_state h s R C) as (D & B & _). unfold done. rewrite D. cbn. apply forallb_forall. intros f I. unfold absent. rewrite (B f I). cbn. apply Nat.eqb_eq.
  destruct (reach_counts s h R f I) as [_ E]. rewrite <- (E (no_loss_exact h N)). apply (flows_zero s h f R I). intros k. apply A.
Qed.
(* ---- the measure ---- *)
Lemma story_weight c f k t l' : forall l, story c f k t (l ++ l') -> l <> [] -> (forall x, In x l' -> begins (snd x) = false) -> (weight (last_of (l ++ l')) + length l' <= weight (last_of l))%nat.
Proof.
  induction l' as [|x l' IH] using rev_ind; intros l S NE B; [rewrite app_nil_r; cbn; lia|]. rewrite app_assoc in S. inversion S as [Z|l0 i e Sl F Z]; [symmetry in Z; now apply app_eq_nil in Z as [_ Z]|]. apply app_inj_tail in Z as [-> Z]. subst x.
  specialize (IH l Sl NE (fun x I => B x (in_or_app _ _ _ (or_introl I)))). rewrite app_assoc, last_of_snoc, app_length. cbn [length]. assert (E : begins e = false) by (apply (B (i, e)); apply in_or_app; right; now left).
  destruct (last_of (l ++ l')) as [[j b]|] eqn:L; [|apply last_of_none, app_eq_nil in L; tauto]. unfold follows in F. destruct b; destruct e; try contradiction; cbn in E; try discriminate; cbn [weight] in *; lia.
Qed.
Lemma sum_perm l l' : Permutation l l' -> list_sum l = list_sum l'.
Proof. unfold list_sum. intro P. induction P; cbn [fold_right] in *; lia. Qed.
Lemma flows_exist s h : reach s h -> exists ks, NoDup ks /\ forall k, In k ks <-> exists f, active f k h.
Proof.
  intro R. exists (map p_corr (filter (fun p => negb (stage_eqb (p_stage p) LookQ)) (s_pending s))). split; [apply nodup_map_filter, (i_nodup _ _ _ (reach_inv s h R))|]. intro k. rewrite in_map_iff. split.
  - intros [p [E I]]. apply filter_In in I as [I F]. exists (p_fwd p). apply (active_pending s h _ _ R). exists p. split; [auto|split; [auto|split; [auto|]]]. intro Q. rewrite Q in F. discriminate.
  - intros [f A]. apply (active_pending s h _ _ R) in A as (p & J & K & F & N). exists p. split; auto. apply filter_In. split; auto. destruct (p_stage p); auto.
Qed.
Lemma remaining_exists s h : reach s h -> exists n, remaining h n.
Proof. intro R. destruct (flows_exist s h R) as (ks & N & A). eexists. exists ks. split; [auto|split; [auto|reflexivity]]. Qed.
Lemma remaining_unique h n m : remaining h n -> remaining h m -> n = m.
Proof.
  intros (ks & N & A & ->) (js & M & B & ->). apply sum_perm, Permutation_map, NoDup_Permutation; auto. intro k. rewrite A, B. reflexivity.
Qed.
Lemma sum_le (f g : Z -> nat) l : (forall k, In k l -> (f k <= g k)%nat) -> (list_sum (map f l) <= list_sum (map g l))%nat.
Proof. unfold list_sum. induction l as [|a l IH]; cbn [map fold_right]; auto. intro H. pose proof (H a (or_introl eq_refl)). specialize (IH (fun k I => H k (or_intror I))). lia. Qed.
Lemma sum_lt (f g : Z -> nat) l x : (forall k, In k l -> (f k <= g k)%nat) -> In x l -> (f x < g x)%nat -> (list_sum (map f l) < list_sum (map g l))%nat.
Proof.
  induction l as [|a l IH]; [intros _ []|]. change (list_sum (map f (a :: l))) with (f a + list_sum (map f l))%nat. change (list_sum (map g (a :: l))) with (g a + list_sum (map g l))%nat. intros H [->|I] L.
  - pose proof (H x (or_introl eq_refl)). pose proof (sum_le f g l (fun k I => H k (or_intror I))). lia.
  - pose proof (H a (or_introl eq_refl)). specialize (IH (fun k I => H k (or_intror I)) I L). lia.
Qed.
Lemma active_weight s h f k : reach s h -> active f k h -> (1 <= weight (last_of (story_of k h)))%nat.
Proof.
  intros R A. apply (active_pending s h _ _ R) in A as (p & J & K & F & N). destruct (flow_facts _ _ _ p (reach_inv s h R) J N) as (c & [j e] & _ & _ & _ & L & M & _). rewrite K in L. rewrite L. unfold matches in M. cbn in M. destruct (p_stage p); destruct e; try contradiction; cbn; lia.
Qed.
(* what a request is caused by: it begins a flow that is new, or goes on with one that is pending *)
Definition caused (k : Z) (i : input) (s : state) (ev : list effect) : Prop :=
  forall e, In e ev -> about k e = true -> s_next s <= k \/ (present k (s_pending s) /\ forall l, ends k l i = false).
Lemma caused_flowless k i s ev : flowless ev -> caused k i s ev.
Proof. intros F e I A. assert (J : In e (filter (about k) ev)) by (apply filter_In; auto). rewrite (F k) in J. destruct J. Qed.
Lemma caused_more k i s s0 s' ev : s_next s0 = s_next s -> more k s0 s' ev -> caused k i s ev.
Proof. intros E (_ & B & _) e I A. left. rewrite <- E. apply B. intro Z. assert (J : In e (filter (about k) ev)) by (apply filter_In; auto). rewrite Z in J. destruct J. Qed.
Lemma caused_advance k i s x e : In x (s_pending s) -> p_stage x <> LookQ -> about (p_corr x) e = true -> (forall l, ends k l i = false) -> caused k i s [e].
Proof.
  intros I N A E e' [<-|[]] B. right. split; auto. exists x. split; [auto|split; [|auto]]. destruct e; cbn in *; try discriminate; apply Z.eqb_eq in A, B; congruence.
Qed.
Lemma step_cause C s st i k e : Inv C s st -> possible i -> In e (snd (step i s)) -> about k e = true -> s_next s <= k \/ (present k (s_pending s) /\ forall l, ends k l i = false).
Proof.
  intros H P. revert e. change (caused k i s (snd (step i s))). pose proof (i_nodup _ _ _ H) as ND. destruct i as [l|k0 name q p r|k0 r|k0 m|k0|k0 d|k0 a|k0|k0 code r|k0 ok|k0 pr|k0|k0|k0|p|].
  - cbn [step]. unfold update. cbv zeta. match goal with |- context [comply ?x] => pose proof (steady_comply k x) as (A & _ & _); destruct (comply x) as [s1 ev] end. cbn [fst snd] in *. apply caused_flowless, flowless_app; [auto|now intro].
  - cbn [step]. destruct (consume LookQ k0 s) as [[x s1]|] eqn:E; [|apply caused_flowless, flowless_nil]. apply consume_spec in E as (I & SX & K & ->); auto.
    destruct (is_down _); [apply caused_flowless, flowless_nil|]. destruct (find_forward (p_fwd x) _) as [f|]; [|apply caused_flowless, flowless_nil].
    assert (Fe : flowless (snd (assign name q p r f))). { unfold assign. cbv zeta. destruct (r_name (f_source f) =? name); [destruct r|]; now intro. }
    destruct (assign name q p r f) as [f' e]. cbn [fst snd] in Fe. destruct (valid_queues f'); [|now apply caused_flowless].
    pose proof (more_dequeue_request k f' (with_pending (but k0 (s_pending s)) s)) as M. destruct (dequeue_request f' _) as [s' ev]. cbn [fst snd] in *.
    intros y J A. apply in_app_or in J as [J|J]; [apply (caused_flowless k (QueueFound k0 name q p r) s _ Fe y J A)|]. apply (caused_more k (QueueFound k0 name q p r) s (with_pending (but k0 (s_pending s)) s) _ _ eq_refl M y J A).
  - cbn [step]. destruct r; [apply caused_flowless, flowless_nil|]. destruct (consume LookQ k0 s) as [[x s1]|]; apply caused_flowless, flowless_nil.
  - assert (Z0 : forall l, ends k l (Dequeued k0 m) = false) by (intros [[j []]|]; reflexivity).
    cbn [step]. destruct (consume Deq k0 s) as [[x s1]|] eqn:E; [|apply caused_flowless, flowless_nil]. apply consume_spec in E as (I & SX & K & ->); auto. subst k0. assert (Nx : p_stage x <> LookQ) by (rewrite SX; discriminate).
    destruct m as [data|]; [|apply (caused_advance k _ s x); cbn; auto; apply Z.eqb_refl]. destruct (is_down _); [apply (caused_advance k _ s x); cbn; auto; apply Z.eqb_refl|].
    destruct (find_forward (p_fwd x) _) as [f|]; [|apply caused_flowless, flowless_nil]. destruct (f_service f) as [sv|]; [apply (caused_advance k _ s x); cbn; auto; apply Z.eqb_refl|].
    destruct (f_dest f) as [[d delay]|]; [apply (caused_advance k _ s x); cbn; auto; apply Z.eqb_refl|apply caused_flowless, flowless_nil].
  - cbn [step]. destruct (consume Deq k0 s) as [[x s1]|]; [|apply caused_flowless, flowless_nil]. destruct (find_forward (p_fwd x) _); apply caused_flowless, flowless_nil.
  - cbn [step]. destruct d; [|apply caused_flowless, flowless_nil]. destruct (consume Deq k0 s) as [[x s1]|] eqn:E; [|apply caused_flowless, flowless_nil]. apply consume_spec in E as (I & SX & K & ->); auto.
    destruct (find_forward (p_fwd x) _) as [f|]; [|apply caused_flowless, flowless_nil]. apply (caused_more k _ s (with_pending (but k0 (s_pending s)) s) _ _ eq_refl (more_next k (decrement f) (with_pending (but k0 (s_pending s)) s))).
  - assert (Z0 : forall l, ends k l (ServiceFound k0 a) = false) by (intros [[j []]|]; reflexivity).
    cbn [step]. destruct (consume LookS k0 s) as [[x s1]|] eqn:E; [|apply caused_flowless, flowless_nil]. apply consume_spec in E as (I & SX & K & ->); auto. subst k0. assert (Nx : p_stage x <> LookQ) by (rewrite SX; discriminate).
    destruct a as [[sv p]|]; (apply (caused_advance k _ s x); cbn; auto; apply Z.eqb_refl).
  - assert (Z0 : forall l, ends k l (ServiceDiscarded k0) = false) by (intros [[j []]|]; reflexivity).
    cbn [step]. destruct (consume Disc k0 s) as [[x s1]|] eqn:E; [|apply caused_flowless, flowless_nil]. apply consume_spec in E as (I & SX & K & ->); auto. subst k0. assert (Nx : p_stage x <> LookQ) by (rewrite SX; discriminate). apply (caused_advance k _ s x); cbn; auto; apply Z.eqb_refl.
  - assert (Z0 : forall l, ends k l (CallReply k0 code r) = false) by (intros [[j []]|]; reflexivity).
    cbn [step]. destruct (consume Calling k0 s) as [[x s1]|] eqn:E; [|apply caused_flowless, flowless_nil]. apply consume_spec in E as (I & SX & K & ->); auto. subst k0. assert (Nx : p_stage x <> LookQ) by (rewrite SX; discriminate).
    destruct (find_forward (p_fwd x) _) as [f|]; [|apply caused_flowless, flowless_nil]. destruct (negb (code =? 0)); [|destruct (f_dest f) as [[d delay]|]]; (apply (caused_advance k _ s x); cbn; auto; apply Z.eqb_refl).
  - assert (Z0 : forall l, ends k l (Enqueued k0 ok) = false) by (intros [[j []]|]; reflexivity).
    cbn [step]. destruct (consume Enq k0 s) as [[x s1]|] eqn:E; [|apply caused_flowless, flowless_nil]. apply consume_spec in E as (I & SX & K & ->); auto. subst k0. assert (Nx : p_stage x <> LookQ) by (rewrite SX; discriminate).
    destruct ok; (apply (caused_advance k _ s x); cbn; auto; apply Z.eqb_refl).
  - cbn [step]. destruct pr; [apply caused_flowless, flowless_nil|]. destruct (consume Com k0 s) as [[x s1]|] eqn:E; [|apply caused_flowless, flowless_nil]. apply consume_spec in E as (I & SX & K & ->); auto.
    destruct (find_forward (p_fwd x) _) as [f|]; [|apply caused_flowless, flowless_nil]. apply (caused_more k _ s (with_pending (but k0 (s_pending s)) s) _ _ eq_refl (more_next k (decrement f) (with_pending (but k0 (s_pending s)) s))).
  - cbn [step]. destruct (consume Rol k0 s) as [[x s1]|] eqn:E; [|apply caused_flowless, flowless_nil]. apply consume_spec in E as (I & SX & K & ->); auto.
    destruct (find_forward (p_fwd x) _) as [f|]; [|apply caused_flowless, flowless_nil]. apply (caused_more k _ s (with_pending (but k0 (s_pending s)) s) _ _ eq_refl (more_next k (decrement f) (with_pending (but k0 (s_pending s)) s))).
  - cbn [step]. apply caused_flowless, flowless_nil.
  - assert (Z0 : forall l, ends k l (NotEnqueued k0) = false) by (intros [[j []]|]; reflexivity).
    cbn [step]. destruct (consume Enq k0 s) as [[x s1]|] eqn:E; [|apply caused_flowless, flowless_nil]. apply consume_spec in E as (I & SX & K & ->); auto. subst k0. assert (Nx : p_stage x <> LookQ) by (rewrite SX; discriminate).
    destruct (find_forward (p_fwd x) s) as [f|]; [|apply caused_flowless, flowless_nil]. destruct (f_service f); [|apply caused_flowless, flowless_nil]. apply (caused_advance k _ s x); cbn; auto; apply Z.eqb_refl.
  - apply caused_flowless. apply (inv_dead C s st p H).
  - cbn [step]. apply caused_flowless. eapply (steady_comply k).
Qed.
Lemma first_begins c f k t i e l : story c f k t ((i, e) :: l) -> begins e = false -> False.
Proof.
  remember ((i, e) :: l) as L eqn:E. intro S. revert l E. induction S as [|l0 j b Sl IH F]; intros l E B; [discriminate|]. destruct l0 as [|x l0].
  - cbn in E. injection E as -> -> _. cbn in F. destruct e; try contradiction. discriminate.
  - cbn in E. injection E as -> E. now apply (IH l0).
Qed.
Lemma remaining_decreases s h i n : reach s h -> possible i -> closing h -> (forall l, i <> Update l) -> remaining h n ->
  exists n', remaining (h ++ [(i, snd (step i s))]) n' /\ (n' <= n)%nat /\
    (((exists k e, In e (snd (step i s)) /\ about k e = true) \/ exists f k, active f k h /\ over k (h ++ [(i, snd (step i s))])) -> (n' < n)%nat).
Proof.
  intros R P C N (ks & Nk & Ak & ->). pose proof (reach_step s h i R P) as R'. set (ev := snd (step i s)) in *. set (h' := h ++ [(i, ev)]) in *. pose proof (closing_quiet s h i R P C N) as Q. fold ev in Q.
  (* the flows that go on were there *)
  assert (Old : forall f k, active f k h' -> active f k h).
  { intros f k [(p & t & q & nm & I) No]. split; [|intro O; apply No; now apply over_since]. exists p, t, q, nm. unfold h' in I. rewrite effects_app in I. apply in_app_or in I as [I|I]; auto. exfalso. cbn in I. rewrite app_nil_r in I. apply Q in I. discriminate. }
  assert (St : forall k, story_of k h' = story_of k h ++ map (pair i) (filter (about k) ev)) by (intro k; unfold h'; rewrite story_of_app, story_of_one; reflexivity).
  assert (W : forall f k, active f k h -> (weight (last_of (story_of k h')) + length (filter (about k) ev) <= weight (last_of (story_of k h)))%nat).
  { intros f k [A _]. pose proof (started_story s h f k R A) as NE. pose proof (flows_story _ _ k R') as FS. fold h' in FS. destruct FS as [E|(c & g & t0 & _ & S)]; [rewrite St in E; apply app_eq_nil in E; tauto|]. rewrite St in S. pose proof (story_weight _ _ _ _ _ _ S NE) as X. rewrite map_length in X. rewrite St. apply X.
    intros x I. apply in_map_iff in I as [e [<- I]]. cbn. apply filter_In in I as [I _]. now apply Q. }
  destruct (flows_exist _ _ R') as (js & Nj & Aj). fold h' in Aj. exists (list_sum (map (fun k => weight (last_of (story_of k h'))) js)). split; [exists js; auto|].
  set (w' := fun k => if in_dec Z.eq_dec k js then weight (last_of (story_of k h')) else 0%nat).
  assert (E : list_sum (map (fun k => weight (last_of (story_of k h'))) js) = list_sum (map w' ks)).
  { assert (Pm : Permutation js (filter (fun k => if in_dec Z.eq_dec k js then true else false) ks)).
    { apply NoDup_Permutation; auto; [now apply NoDup_filter|]. intro k. rewrite filter_In. destruct (in_dec Z.eq_dec k js) as [I|I]; [|split; [tauto|intros [_ X]; discriminate]]. split; [|auto]. intros _. split; auto. apply Ak. apply Aj in I as [f I]. exists f. auto. }
    rewrite (sum_perm _ _ (Permutation_map _ Pm)). clear. unfold w', list_sum. induction ks as [|k l IH]; cbn [filter map fold_right]; auto. destruct (in_dec Z.eq_dec k js); cbn [filter map fold_right]; lia. }
  rewrite E. assert (Le : forall k, In k ks -> (w' k <= weight (last_of (story_of k h)))%nat). { intros k I. apply Ak in I as [f I]. unfold w'. destruct (in_dec Z.eq_dec k js); [|lia]. specialize (W f k I). lia. }
  split; [now apply sum_le|]. intros [(k & e & I & A)|(f & k & A & O)].
  - assert (Act : exists f, active f k h).
    { destruct (step_cause _ _ _ i k e (reach_inv s h R) P I A) as [X|[(p & J & K & M) _]]; [|exists (p_fwd p); apply (active_pending s h _ _ R); exists p; auto].
      exfalso. pose proof (i_fresh _ _ _ (reach_inv s h R) k X) as Z. cbn beta in Z. assert (J : In e (filter (about k) ev)) by (apply filter_In; auto). pose proof (flows_story _ _ k R') as FS. fold h' in FS. rewrite St, Z in FS. cbn [app] in FS. destruct FS as [Y|(c & g & t & _ & S)].
      - apply map_eq_nil in Y. rewrite Y in J. destruct J.
      - destruct (filter (about k) ev) as [|e0 l0] eqn:Y; [destruct J|]. cbn in S. apply (first_begins _ _ _ _ _ _ _ S). apply Q. assert (J0 : In e0 (filter (about k) ev)) by (rewrite Y; now left). now apply filter_In in J0. }
    destruct Act as [f Act]. apply (sum_lt _ _ ks k); auto; [apply Ak; eauto|]. specialize (W f k Act). assert (L1 : (1 <= length (filter (about k) ev))%nat). { assert (J : In e (filter (about k) ev)) by (apply filter_In; auto). destruct (filter (about k) ev); [destruct J|cbn; lia]. }
    unfold w'. destruct (in_dec Z.eq_dec k js); [lia|]. pose proof (active_weight s h f k R Act). lia.
  - apply (sum_lt _ _ ks k); auto; [apply Ak; eauto|]. unfold w'. destruct (in_dec Z.eq_dec k js) as [I|I]; [|apply (active_weight s h f k R A)]. apply Aj in I as [g [_ No]]. contradiction.
Qed.

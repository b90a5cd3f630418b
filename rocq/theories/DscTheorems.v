(* The discovery: the claims. *)
From Coq Require Import ZArith List Bool Lia.
From Verif Require Import DscModel DscSpec DscProofs DscHold DscEnv DscDyn DscOps DscMove DscStep DscGoals DscTimer.
Import ListNotations.
Local Open Scope Z_scope.

(* ---- each request is answered once ---- *)
Definition arrivals (h : history) : list req := flat_map arr (inputs h).
Lemma arrivals_snoc h i ev : arrivals (h ++ [(i, ev)]) = arrivals h ++ arr i.
Proof. unfold arrivals. rewrite inputs_snoc, flat_map_app. cbn. now rewrite app_nil_r. Qed.
Lemma arrivals_in r h : In r (arrivals h) <-> arrived r h.
Proof.
  unfold arrivals, arrived. rewrite in_flat_map. split.
  - intros (i & I & J). destruct i; cbn in J; try (destruct J; fail); destruct J as [->|[]]; auto.
  - intros [I|I]; eexists; (split; [exact I|cbn; auto]).
Qed.
Lemma reach_cons K s h : reach s h -> (aK K (effects h) + nK K (held s) <= nK K (arrivals h))%nat /\ ((forall a p k, K a p k = true -> ~ lost p h) -> (aK K (effects h) + nK K (held s) = nK K (arrivals h))%nat).
Proof.
  induction 1 as [|s h i R [I1 I2] P]; [cbn; auto|]. rewrite effects_snoc, arrivals_snoc, aK_app, nK_app, step_fst, step_snd. pose proof (handle_cons K i s) as C. pose proof (count_filter_le (akeyb K) (reached s) (snd (handle i s))) as F. fold (aK K (filter (reached s) (snd (handle i s)))) in F. fold (aK K (snd (handle i s))) in F. split; [lia|].
  intro L. assert (L' : forall a p k, K a p k = true -> ~ lost p h). { intros a p k E X. apply (L a p k E). unfold lost. rewrite inputs_snoc, in_snoc. auto. } specialize (I2 L').
  assert (F' : aK K (filter (reached s) (snd (handle i s))) = aK K (snd (handle i s))).
  { unfold aK. rewrite <- (count_split (akeyb K) (reached s) (snd (handle i s))). rewrite (count_zero (akeyb K) (filter (fun x => negb _) _)); [lia|]. intros e I. apply filter_In in I as [_ I]. destruct e; auto. cbn in *. destruct (K api p k) eqn:E; [|auto]. rewrite negb_involutive in I. apply (gone_lost h s) in I; [|now apply reach_env]. destruct (L' _ _ _ E I). }
  lia.
Qed.
Lemma arrivals_one s h k : reach s h -> (nK (fun _ _ k' => Z.eqb k' k) (arrivals h) <= 1)%nat.
Proof.
  induction 1 as [|s h i R IH P]; [cbn; unfold nK, count; cbn; lia|]. rewrite arrivals_snoc, nK_app.
  assert (A : forall r, arr i = [r] -> (forall r', arrived r' h -> r_corr r' <> r_corr r) -> (nK (fun _ _ k' => (k' =? k)%Z) (arrivals h) + nK (fun _ _ k' => (k' =? k)%Z) (arr i) <= 1)%nat).
  { intros r E U. rewrite E. unfold nK at 2. rewrite count_cons. change (count _ []) with 0%nat. unfold keyb at 1. destruct (r_corr r =? k) eqn:Ek; [|lia]. apply Z.eqb_eq in Ek. assert (nK (fun _ _ k' => (k' =? k)%Z) (arrivals h) = 0%nat); [|lia]. apply count_zero. intros r' I. unfold keyb. apply Z.eqb_neq. rewrite <- Ek. apply U. now apply arrivals_in. }
  destruct i; cbn [arr]; rewrite ?nK_nil, ?Nat.add_0_r; auto; destruct P as (_ & _ & P); apply (A r); auto.
Qed.
Lemma is_answer_eq k l : count (is_answer k) l = aK (fun _ _ k' => k' =? k) l.
Proof. unfold aK. f_equal. Qed.
Lemma effects_split e h : In e (effects h) -> exists h1 i ev h2, h = (h1 ++ [(i, ev)]) ++ h2 /\ In e ev.
Proof. unfold effects. intro I. apply in_flat_map in I as ([i ev] & I & J). apply in_split in I as (h1 & h2 & ->). exists h1, i, ev, h2. rewrite <- app_assoc. auto. Qed.
Lemma reach_prefix s h1 h2 : reach s (h1 ++ h2) -> exists s', reach s' h1.
Proof.
  revert s. induction h2 as [|x h2 IH] using rev_ind; intros s R; [rewrite app_nil_r in R; eauto|]. rewrite app_assoc in R. inversion R as [E|s0 h0 i0 R0 P0 E1 E2]; [destruct h1, h2; discriminate|]. apply snoc_inj in E2 as [-> E2]. eauto.
Qed.
Lemma arrived_app r h1 h2 : arrived r h1 -> arrived r (h1 ++ h2).
Proof. unfold arrived. rewrite inputs_app, !in_app_iff. tauto. Qed.
Lemma once s h k : reach s h -> (count (is_answer k) (effects h) <= 1)%nat /\ forall a p c, In (Answer a p k c) (effects h) -> exists r, arrived r h /\ r_corr r = k /\ r_api r = a /\ r_ipc r = p.
Proof.
  intro R. split.
  - rewrite is_answer_eq. destruct (reach_cons (fun _ _ k' => k' =? k) s h R) as [C _]. pose proof (arrivals_one s h k R). lia.
  - intros a p c I. apply effects_split in I as (h1 & i & ev & h2 & E & I). rewrite E in R. destruct (reach_prefix _ _ _ R) as (s' & R'). pose proof (reach_fine _ _ _ _ R') as F. rewrite Forall_forall in F. destruct (F _ I) as (r & A & B & C & D & _). exists r. split; [rewrite E; now apply arrived_app|auto].
Qed.
(* nothing is outstanding *)
Lemma quiet_idle s h : reach s h -> quiet h -> s_disc s = [] /\ s_look s = [] /\ s_known s = [].
Proof.
  intros R Qu. destruct (reach_dyn _ _ R) as [D1 D2 D3 _ _ _ _ _]. split; [|split].
  - destruct (s_disc s) as [|d l]; [auto|]. destruct (D1 d (or_introl eq_refl)) as [W (O & _)]. exfalso. assert (A : ~ all_failed (d_wait d) = true) by congruence. apply A. apply all_failed_iff. intros k p I. destruct (O k p I) as (w & Ow). exact (Qu _ Ow).
  - destruct (s_look s) as [|d l]; [auto|]. destruct (D2 d (or_introl eq_refl)) as [W (O & _)]. exfalso. destruct (l_wait d) as [|[k p] ws]; [auto|]. exact (Qu _ (O k p (or_introl eq_refl))).
  - destruct (s_known s) as [|d l]; [auto|]. destruct (D3 d (or_introl eq_refl)) as [W (O & _)]. exfalso. destruct (k_wait d) as [|[k p] ws]; [auto|]. exact (Qu _ (O k p (or_introl eq_refl))).
Qed.
Lemma calm_acc s h : reach s h -> ~ armed h -> s_acc s = acc0.
Proof. intros R A. destruct (reach_timer _ _ R) as [T1 T2]. apply T2. destruct (s_timer s) eqn:E; [|auto]. exfalso. apply A, T1; auto. Qed.
Lemma held_answered s h r : reach s h -> held s = [] -> arrived r h -> ~ lost (r_ipc r) h -> exists c, In (Answer (r_api r) (r_ipc r) (r_corr r) c) (effects h).
Proof.
  intros R E A L. set (K := fun a p k => Bool.eqb a (r_api r) && ((p =? r_ipc r) && (k =? r_corr r))). destruct (reach_cons K s h R) as [_ C]. rewrite E in C.
  assert (H : (1 <= aK K (effects h))%nat).
  { rewrite <- (Nat.add_0_r (aK K (effects h))). change 0%nat with (nK K []). rewrite C.
    - apply (count_pos _ _ r); [now apply arrivals_in|]. unfold keyb, K. now rewrite eqb_reflx, !Z.eqb_refl.
    - intros a p k X. unfold K in X. apply andb_true_iff in X as [_ X]. apply andb_true_iff in X as [X _]. apply Z.eqb_eq in X as ->. auto. }
  apply count_in in H as (e & I & X). destruct e; cbn in X; try discriminate. unfold K in X. apply andb_true_iff in X as [X1 X]. apply andb_true_iff in X as [X2 X3]. apply eqb_prop in X1. apply Z.eqb_eq in X2, X3. subst. eauto.
Qed.
Lemma answered s h r : reach s h -> quiet h -> ~ armed h -> arrived r h -> ~ lost (r_ipc r) h -> exists c, In (Answer (r_api r) (r_ipc r) (r_corr r) c) (effects h).
Proof. intros R Qu A. apply held_answered with s; [auto|]. destruct (quiet_idle _ _ R Qu) as (E1 & E2 & E3). unfold held. now rewrite (calm_acc _ _ R A), E1, E2. Qed.
Lemma done_when_quiet s h : reach s h -> quiet h -> down h -> done s = true.
Proof. intros R Qu D. destruct (quiet_idle _ _ R Qu) as (E1 & E2 & E3). unfold done. rewrite E1, E2, E3, (proj2 (e_down _ _ (reach_env _ _ R)) D). reflexivity. Qed.
Lemma empty_list {A} (l : list A) : empty l = true -> l = [].
Proof. now destruct l. Qed.
Lemma done_answered s h r : reach s h -> done s = true -> ~ armed h -> arrived r h -> ~ lost (r_ipc r) h -> exists c, In (Answer (r_api r) (r_ipc r) (r_corr r) c) (effects h).
Proof.
  intros R D A. apply held_answered with s; [auto|]. unfold done in D. apply andb_true_iff in D as [_ D]. apply andb_true_iff in D as [D1 D]. apply andb_true_iff in D as [D2 _]. apply empty_list in D1, D2. unfold held. now rewrite (calm_acc _ _ R A), D1, D2.
Qed.
Lemma last_step s h i ev : reach s (h ++ [(i, ev)]) -> exists s0, reach s0 h /\ possible h i /\ s = fst (step i s0) /\ ev = snd (step i s0).
Proof. intro R. inversion R as [E|s0 h0 i0 R0 P0 E1 E2]; [destruct h; discriminate|]. apply snoc_inj in E2 as [-> E2]. injection E2 as -> <-. exists s0. auto. Qed.
Lemma at_shutdown s h r i ev : reach s (h ++ [(i, ev)]) -> i = Api r \/ i = Request r -> down h -> ~ lost (r_ipc r) h -> ev = [Answer (r_api r) (r_ipc r) (r_corr r) []].
Proof.
  intros R I D L. destruct (last_step _ _ _ _ R) as (s0 & R0 & _ & _ & ->). apply (e_down _ _ (reach_env _ _ R0)) in D. assert (G : gone (r_ipc r) s0 = false) by (destruct (gone (r_ipc r) s0) eqn:G; [apply (gone_lost h s0) in G; [contradiction|now apply reach_env]|auto]).
  rewrite step_snd. destruct I as [->| ->]; cbn; rewrite D; cbn; rewrite G; reflexivity.
Qed.

(* ---- rediscovery ---- *)
Lemma reach_mass K s h : reach s h -> (aR K (effects h) + mass K s <= nR K (flat_map arr_r (inputs h)))%nat /\ ((forall p k, K p k = true -> ~ lost p h) -> (aR K (effects h) + mass K s = nR K (flat_map arr_r (inputs h)))%nat).
Proof.
  induction 1 as [|s h i R [I1 I2] P]; [cbn; auto|]. rewrite effects_snoc, inputs_snoc, flat_map_app, aR_app, nR_app, step_fst, step_snd. cbn [flat_map]. rewrite app_nil_r. pose proof (handle_mass K i s) as C. pose proof (count_filter_le (rkeyb K) (reached s) (snd (handle i s))) as F. fold (aR K (filter (reached s) (snd (handle i s)))) in F. fold (aR K (snd (handle i s))) in F. split; [lia|].
  intro L. assert (L' : forall p k, K p k = true -> ~ lost p h). { intros p k E X. apply (L p k E). unfold lost. rewrite inputs_snoc, in_snoc. auto. } specialize (I2 L').
  assert (F' : aR K (filter (reached s) (snd (handle i s))) = aR K (snd (handle i s))).
  { unfold aR. rewrite <- (count_split (rkeyb K) (reached s) (snd (handle i s))). rewrite (count_zero (rkeyb K) (filter (fun x => negb _) _)); [lia|]. intros e I. apply filter_In in I as [_ I]. destruct e; auto. cbn in *. destruct (K p k) eqn:E; [|auto]. rewrite negb_involutive in I. apply (gone_lost h s) in I; [|now apply reach_env]. destruct (L' _ _ E I). }
  lia.
Qed.
Lemma arr_r_in p k h : In (p, k) (flat_map arr_r (inputs h)) <-> In (Rediscover p k) (inputs h).
Proof. rewrite in_flat_map. split; [intros (i & I & J); destruct i; cbn in J; try (destruct J; fail); destruct J as [J|[]]; injection J as -> ->; auto|]. intro I. eexists. split; [exact I|cbn; auto]. Qed.
Lemma redisc_one s h k : reach s h -> (nR (fun _ k' => Z.eqb k' k) (flat_map arr_r (inputs h)) <= 1)%nat.
Proof.
  induction 1 as [|s h i R IH P]; [cbn; unfold nR, count; cbn; lia|]. rewrite inputs_snoc, flat_map_app, nR_app. cbn [flat_map]. rewrite app_nil_r. destruct i; cbn [arr_r]; rewrite ?nR_nil, ?Nat.add_0_r; auto. destruct P as (_ & P). unfold nR at 2. rewrite count_cons. cbn [fst snd]. change (count _ []) with 0%nat. destruct (k0 =? k) eqn:E; [|lia]. apply Z.eqb_eq in E as ->.
  assert (nR (fun _ k' => (k' =? k)%Z) (flat_map arr_r (inputs h)) = 0%nat); [|lia]. apply count_zero. intros [p' k'] I. apply arr_r_in in I. cbn. apply Z.eqb_neq. intros ->. exact (P p' I).
Qed.
Lemma redisc_once s h k : reach s h -> (count (is_rediscovered k) (effects h) <= 1)%nat /\ forall p c, In (Rediscovered p k c) (effects h) -> In (Rediscover p k) (inputs h).
Proof.
  intro R. split.
  - change (count (is_rediscovered k) (effects h)) with (aR (fun _ k' => k' =? k) (effects h)). destruct (reach_mass (fun _ k' => k' =? k) s h R) as [C _]. pose proof (redisc_one s h k R). lia.
  - intros p c I. apply effects_split in I as (h1 & i & ev & h2 & E & I). rewrite E in R. destruct (reach_prefix _ _ _ R) as (s' & R'). pose proof (reach_fine _ _ _ _ R') as F. rewrite Forall_forall in F. destruct (F _ I) as [(g1 & i1 & ev1 & g2 & l & w & E1 & (f1 & f2 & f3 & E2 & _) & _) _]. rewrite E, inputs_app. apply in_app_iff. left. rewrite E1. change ((i1, ev1) :: g2) with ([(i1, ev1)] ++ g2). rewrite app_assoc, inputs_app. apply in_app_iff. left. rewrite E2, inputs_app. apply in_app_iff. right. cbn. auto.
Qed.
Lemma redisc_idle s h p k : reach s h -> s_disc s = [] -> s_known s = [] -> In (Rediscover p k) (inputs h) -> ~ lost p h -> exists c, In (Rediscovered p k c) (effects h).
Proof.
  intros R E1 E3 A L. set (K := fun p' k' => (p' =? p) && (k' =? k)). destruct (reach_mass K s h R) as [_ C]. rewrite mass_eq, E1, E3 in C. cbn in C. rewrite nR_nil in C.
  assert (H : (1 <= aR K (effects h))%nat).
  { rewrite <- (Nat.add_0_r (aR K (effects h))). change 0%nat with (0 + 0)%nat. rewrite C.
    - apply (count_pos _ _ (p, k)); [now apply arr_r_in|]. unfold K. cbn. now rewrite !Z.eqb_refl.
    - intros p' k' X. unfold K in X. apply andb_true_iff in X as [X _]. apply Z.eqb_eq in X as ->. auto. }
  apply count_in in H as (e & I & X). destruct e; cbn in X; try discriminate. unfold K in X. apply andb_true_iff in X as [X1 X2]. apply Z.eqb_eq in X1, X2. subst. eauto.
Qed.
Lemma redisc_answered s h p k : reach s h -> quiet h -> In (Rediscover p k) (inputs h) -> ~ lost p h -> exists c, In (Rediscovered p k c) (effects h).
Proof. intros R Qu. destruct (quiet_idle _ _ R Qu) as (E1 & _ & E3). now apply redisc_idle with s. Qed.
Lemma done_redisc s h p k : reach s h -> done s = true -> In (Rediscover p k) (inputs h) -> ~ lost p h -> exists c, In (Rediscovered p k c) (effects h).
Proof. intros R D. unfold done in D. apply andb_true_iff in D as [_ D]. apply andb_true_iff in D as [D1 D]. apply andb_true_iff in D as [_ D3]. apply redisc_idle with s; auto; [now destruct (s_disc s)|now destruct (s_known s)]. Qed.

(* ---- the updates ---- *)
Section Updates.
Variables (s : state) (h : history) (i : input).
Hypotheses (R : reach s h) (P : possible h i).
Let ev := snd (step i s).
Let H := h ++ [(i, ev)].
Definition okdone (x : known) : Prop := okk H x /\ k_wait x = [].
Lemma ok_reply k w x : i = KnownReply k w -> In x (s_known s) -> In k (map fst (k_wait x)) -> drop_wait k (k_wait x) = [] -> okdone (Known [] (union (k_have x) w) (k_goal x)).
Proof.
  intros I J K W. split; [|auto]. destruct (y_known _ _ (reach_dyn _ _ R) x J) as [_ O]. apply (okk_move h i ev x); auto.
  - intros n X. apply union_in. auto.
  - destruct O as (_ & T & _). intros n X. unfold H. rewrite inputs_snoc. apply union_in in X as [X|X]; [destruct (T n X) as (k' & w' & T1 & T2); exists k', w'; rewrite in_snoc; auto|]. exists k, w. rewrite in_snoc, I. auto.
  - intros k' p [].
  - intros k' p X. destruct (Z.eq_dec k' k) as [->|Q]; [|exfalso; assert (Z0 : In (k', p) (drop_wait k (k_wait x))) by (now apply drop_in); rewrite W in Z0; destruct Z0]. right. split; [intros; rewrite I; cbn; apply Z.eqb_refl|]. intros n X1 X2. apply X1. rewrite I in X2. cbn in X2. apply union_in. auto.
Qed.
Lemma ok_fail f x : (forall p, DscSpec.fails i p = f p) -> (match i with Dead _ | Destroyed _ => True | _ => False end) -> In x (s_known s) -> DscModel.fails f (k_wait x) = [] -> okdone (Known [] (k_have x) (k_goal x)).
Proof.
  intros F D J W. split; [|auto]. destruct (y_known _ _ (reach_dyn _ _ R) x J) as [_ O]. apply (okk_move h i ev x); auto.
  - destruct O as (_ & T & _). intros n X. unfold H. rewrite inputs_snoc. destruct (T n X) as (k' & w' & T1 & T2). exists k', w'. rewrite in_snoc. auto.
  - intros k' p [].
  - intros k' p X. right. assert (Fp : f p = true). { destruct (f p) eqn:Fp; [auto|]. exfalso. assert (Z0 : In (k', p) (DscModel.fails f (k_wait x))) by (now apply fails_in). rewrite W in Z0. destruct Z0. }
    split; [unfold ends; rewrite F, Fp; auto|]. intros n _ X2. destruct i; auto.
Qed.
Lemma ok_fetch g : i = cause' g -> (forall p, In p (with_ability AKnown s) -> gone (p_ipc p) s = true) -> (match g with GExplore d im => g = GExplore (a_direct (s_acc s)) (a_implicit (s_acc s)) | _ => True end) -> okdone (Known [] [] g).
Proof.
  intros I A G. split; [|auto]. split; [intros k p []|]. split; [intros n []|]. unfold okgoal. cbn [k_goal k_wait k_have]. assert (N : env h s) by now apply reach_env.
  assert (Kp : kpt H (cause' g) [] []).
  { exists h, ev, []. split; [unfold H; now rewrite <- I|]. rewrite <- I. intros p X L. exfalso. apply L. apply (gone_lost h s); auto. apply A. apply (provides_iff H (before i s)) in X; [|now apply env_step]. destruct g; cbn in I; rewrite I in X; exact X. }
  destruct g; cbn in Kp; auto. split; [|auto]. injection G as -> ->. destruct (y_acc _ _ (reach_dyn _ _ R)) as (_ & _ & _ & U). now apply updates_mono.
Qed.
Lemma okdone_fetched x d im : okdone x -> k_goal x = GExplore d im -> fetched Timeout (k_have x) H.
Proof. intros [(_ & _ & G) W] E. unfold okgoal in G. rewrite E, W in G. destruct G as [_ G]. now apply (kpt_fetched h i ev). Qed.

Definition covers (s' : state) (w l w' : wanted) : Prop := forall n, In n w \/ In n l -> exists o, official (s_config s') n o /\ In o w'.
Definition Qd (p : Z) (w : wanted) (s' : state) (e : list effect) : Prop := exists l w', fetched Timeout l H /\ covers s' w l w' /\ (w' = [] \/ gone p s' = true \/ In (Explore p w') e).
Definition Qi (ds : list Z) (s' : state) (e : list effect) : Prop := forall q, In q (with_ability ATopology s') -> gone (p_ipc q) s' = true \/ exists l, In (Implicit (p_ipc q) l) e /\ In (s_self s') l /\ forall d, In d ds -> In d l.
Lemma Qd_fixed p w a b e : fixed a = fixed b -> Qd p w a e -> Qd p w b e.
Proof. unfold fixed, Qd, covers, gone. intro F. injection F as F1 F2 F3 F4 F5 F6. rewrite F3, F6. auto. Qed.
Lemma Qi_fixed ds a b e : fixed a = fixed b -> Qi ds a e -> Qi ds b e.
Proof. unfold fixed, Qi, gone, with_ability. intro F. injection F as F1 F2 F3 F4 F5 F6. rewrite F2, F4, F6. auto. Qed.
Lemma Qd_incl p w a e e' : incl e e' -> Qd p w a e -> Qd p w a e'.
Proof. intros I (l & w' & A & B & [C|[C|C]]); exists l, w'; (split; [auto|]); (split; [auto|]); auto. Qed.
Lemma Qi_incl ds a e e' : incl e e' -> Qi ds a e -> Qi ds a e'.
Proof. intros I Q q J. destruct (Q q J) as [A|(l & A & B)]; [auto|]. right. exists l. auto. Qed.
Lemma known_explores x s' d im p w : okdone x -> k_goal x = GExplore d im -> (In (p, w) d \/ (w = [] /\ exists ds, In (p, ds) im)) -> Qd p w s' (snd (known_done x s')).
Proof.
  intros O G I. unfold known_done. rewrite G. cbv zeta. cbn [snd]. set (w' := union _ _). exists (k_have x), w'. split; [now apply (okdone_fetched x d im)|]. split.
  - intros n X. exists (to_origin (s_config s') n). split; [apply to_origin_official|]. apply union_in. left. apply normal_in. exists n. split; [|auto]. apply directs_in. destruct X as [X|X]; [|auto]. destruct I as [I|[-> _]]; [|destruct X]. right. exists p, w. auto.
  - destruct w' as [|n0 w0]; [auto|]. destruct (gone p s') eqn:Gp; [auto|]. right. right. apply in_app_iff. left. apply in_flat_map. exists p. split; [|unfold send; rewrite Gp; cbn; auto]. apply nodup_In. apply in_app_iff. destruct I as [I|[_ (ds & I)]]; [left|right]; now apply (in_map fst) in I.
Qed.
Lemma known_spreads x s' d im p ds : k_goal x = GExplore d im -> In (p, ds) im -> Qi ds s' (snd (known_done x s')).
Proof.
  intros G I q J. unfold known_done. rewrite G. cbv zeta. cbn [snd]. destruct (gone (p_ipc q) s') eqn:Gp; [auto|]. right. set (doms := append_domains _ _). exists doms. split; [apply in_app_iff; right; apply in_flat_map; exists q; split; [auto|unfold send; rewrite Gp; left; auto]|]. split; [apply append_in; cbn; auto|]. intros x0 X. apply append_in. left. apply implicits_in. right. eauto.
Qed.
Definition in_direct (p : Z) (w : wanted) (g : goal) : Prop := match g with GExplore d _ => In (p, w) d | _ => False end.
Definition in_implicit (p : Z) (ds : list Z) (g : goal) : Prop := match g with GExplore _ im => In (p, ds) im | _ => False end.
Lemma direct_next p w : keeps (in_direct p w) (fun a => In (p, w) (a_direct a)) s -> next (in_direct p w) (fun a => In (p, w) (a_direct a)) (Qd p w) (before i s) (handle i s).
Proof.
  apply (handle_next (in_direct p w) (fun a => In (p, w) (a_direct a)) okdone (Qd p w)).
  - intros a a' A _ X. auto.
  - intros a X. split; [exact X|]. left. intro E. rewrite E in X. destruct X.
  - intros x s' O G. destruct (k_goal x) as [|d im] eqn:E; [destruct G|]. apply (known_explores x s' d im); auto.
  - intros s1 s2 a b F Q. apply (Qd_fixed _ _ s1); auto. apply (Qd_incl _ _ _ b); [apply incl_appr, incl_refl|auto].
  - intros s1 a b Q. apply (Qd_incl _ _ _ a); [apply incl_appl, incl_refl|auto].
  - apply ok_reply. - apply ok_fail. - apply ok_fetch.
Qed.
Lemma implicit_next p ds : keeps (in_implicit p ds) (fun a => In (p, ds) (a_implicit a)) s -> next (in_implicit p ds) (fun a => In (p, ds) (a_implicit a)) (fun s' e => Qd p [] s' e /\ Qi ds s' e) (before i s) (handle i s).
Proof.
  apply (handle_next (in_implicit p ds) (fun a => In (p, ds) (a_implicit a)) okdone (fun s' e => Qd p [] s' e /\ Qi ds s' e)).
  - intros a a' _ A X. auto.
  - intros a X. split; [exact X|]. right. intro E. rewrite E in X. destruct X.
  - intros x s' O G. destruct (k_goal x) as [|d im] eqn:E; [destruct G|]. split; [apply (known_explores x s' d im); auto; right; split; eauto|now apply (known_spreads x s' d im p)].
  - intros s1 s2 a b F [Q1 Q2]. split; [apply (Qd_fixed _ _ s1); auto; apply (Qd_incl _ _ _ b)|apply (Qi_fixed _ s1); auto; apply (Qi_incl _ _ b)]; auto; apply incl_appr, incl_refl.
  - intros s1 a b [Q1 Q2]. split; [apply (Qd_incl _ _ _ a)|apply (Qi_incl _ _ a)]; auto; apply incl_appl, incl_refl.
  - apply ok_reply. - apply ok_fail. - apply ok_fetch.
Qed.
Lemma Qd_explored p w h1 t : h = h1 ++ t -> Qd p w (before i s) (snd (handle i s)) -> explored p w h1 H.
Proof.
  intros E (l & w' & A & B & C). pose proof (env_step s h i R P (reach_env _ _ R)) as N. fold ev in N. fold H in N. assert (EH : H = h1 ++ t ++ [(i, ev)]) by (unfold H; rewrite E, <- app_assoc; auto). exists t, i, ev, [], l, w'. rewrite app_nil_r, <- EH. split; [auto|]. split; [auto|]. unfold covers in B. rewrite (e_config _ _ N) in B. split; [auto|].
  destruct C as [C|[C|C]]; [auto|right; left; now apply (gone_lost H (before i s))|]. right. right. unfold ev. rewrite step_snd. apply filter_In. auto.
Qed.
Lemma Qi_spread ds h1 t : h = h1 ++ t -> Qi ds (before i s) (snd (handle i s)) -> spread ds h1 H.
Proof.
  intros E Q. pose proof (env_step s h i R P (reach_env _ _ R)) as N. fold ev in N. fold H in N. assert (EH : H = h1 ++ t ++ [(i, ev)]) by (unfold H; rewrite E, <- app_assoc; auto). exists t, i, ev, []. rewrite app_nil_r, <- EH. split; [auto|]. intros q X L. apply (provides_iff H (before i s)) in X; auto. destruct (Q q X) as [C|(l & C1 & C2 & C3)]; [apply (gone_lost H (before i s)) in C; auto; contradiction|].
  exists l. rewrite <- (e_self _ _ N). split; [|auto]. unfold ev. rewrite step_snd. apply filter_In. auto.
Qed.
End Updates.
Lemma explored_mono p w h1 h x : explored p w h1 h -> explored p w h1 (h ++ [x]).
Proof. intros (t & i & ev & g & l & w' & -> & A). exists t, i, ev, (g ++ [x]), l, w'. split; [symmetry; apply app_assoc|auto]. Qed.
Lemma split_last {A} (h h1 h2 : list A) x y : h ++ [x] = h1 ++ y :: h2 -> (h2 = [] /\ h = h1 /\ x = y) \/ exists h3, h2 = h3 ++ [x] /\ h = h1 ++ y :: h3.
Proof.
  destruct h2 as [|z h3 _] using rev_ind; intro E.
  - left. apply snoc_inj in E as [-> ->]. auto.
  - right. exists h3. change (h1 ++ y :: h3 ++ [z]) with (h1 ++ (y :: h3) ++ [z]) in E. rewrite app_assoc in E. apply snoc_inj in E as [-> ->]. auto.
Qed.
Lemma down_state s h : reach s h -> ~ down h -> s_down s = false.
Proof. intros R D. destruct (s_down s) eqn:E; [|auto]. exfalso. apply D. now apply (e_down _ _ (reach_env _ _ R)). Qed.
Lemma direct_inv s h : reach s h -> forall p w h1 ev h2, h = h1 ++ (DirectUpdate p w, ev) :: h2 -> ~ down h1 -> keeps (in_direct p w) (fun a => In (p, w) (a_direct a)) s \/ explored p w (h1 ++ [(DirectUpdate p w, ev)]) h.
Proof.
  induction 1 as [|s h i R IH P]; intros p w h1 ev h2 E D; [destruct h1; discriminate|]. apply split_last in E as [(-> & -> & E)|(h3 & -> & E)].
  - injection E as -> <-. left. left. rewrite step_fst. cbn. rewrite (down_state s h1 R D). cbn. apply in_snoc. auto.
  - destruct (IH p w h1 ev h3 E D) as [K|K]; [|right; now apply explored_mono]. destruct (direct_next s h i R P p w K) as [X|X]; [left; rewrite step_fst; auto|]. right. apply (Qd_explored s h i R P p w _ h3); [rewrite E, <- app_assoc; reflexivity|auto].
Qed.
Lemma spread_mono s ds h1 h i ev : reach s h -> spread ds h1 h -> spread ds h1 (h ++ [(i, ev)]).
Proof.
  intros R (t & i' & ev' & g & E & A). exists t, i', ev', (g ++ [(i, ev)]). split; [rewrite E; symmetry; apply app_assoc|]. destruct (reach_h _ _ R) as [->|(d & c & e0 & t0 & E0)]; [destruct h1, t; discriminate|]. rewrite (self_snoc h i ev d c e0 t0 E0). exact A.
Qed.
Lemma implicit_inv s h : reach s h -> forall p ds h1 ev h2, h = h1 ++ (ImplicitUpdate p ds, ev) :: h2 -> ~ down h1 -> ~ In (self h1) ds ->
  keeps (in_implicit p ds) (fun a => In (p, ds) (a_implicit a)) s \/ (explored p [] (h1 ++ [(ImplicitUpdate p ds, ev)]) h /\ spread ds (h1 ++ [(ImplicitUpdate p ds, ev)]) h).
Proof.
  induction 1 as [|s h i R IH P]; intros p ds h1 ev h2 E D S0; [destruct h1; discriminate|]. apply split_last in E as [(-> & -> & E)|(h3 & -> & E)].
  - injection E as -> <-. left. left. rewrite step_fst. cbn. rewrite (down_state s h1 R D). cbn. rewrite (e_self _ _ (reach_env _ _ R)). destruct (existsb (Z.eqb (self h1)) ds) eqn:X; [apply existsb_eqb in X; contradiction|]. cbn. apply in_snoc. auto.
  - destruct (IH p ds h1 ev h3 E D S0) as [K|[K1 K2]]; [|right; split; [now apply explored_mono|now apply (spread_mono s)]]. destruct (implicit_next s h i R P p ds K) as [X|[X1 X2]]; [left; rewrite step_fst; auto|]. right. assert (E' : h = (h1 ++ [(ImplicitUpdate p ds, ev)]) ++ h3) by (rewrite E, <- app_assoc; reflexivity). split; [now apply (Qd_explored s h i R P p [] _ h3)|now apply (Qi_spread s h i R P ds _ h3)].
Qed.
Lemma nothing_kept (G : goal -> Prop) (A : acc -> Prop) s h : reach s h -> quiet h -> ~ armed h -> ~ A acc0 -> ~ keeps G A s.
Proof. intros R Qu Ar N [K|(x & I & _)]; [rewrite (calm_acc _ _ R Ar) in K; auto|]. destruct (quiet_idle _ _ R Qu) as (_ & _ & E). rewrite E in I. destruct I. Qed.
Lemma direct_explored s h h1 p w ev h2 : reach s h -> quiet h -> ~ armed h -> h = h1 ++ (DirectUpdate p w, ev) :: h2 -> ~ down h1 -> explored p w (h1 ++ [(DirectUpdate p w, ev)]) h.
Proof. intros R Qu Ar E D. destruct (direct_inv s h R p w h1 ev h2 E D) as [K|K]; [|auto]. exfalso. revert K. apply (nothing_kept _ _ s h); auto. Qed.
Lemma implicit_explored s h h1 p ds ev h2 : reach s h -> quiet h -> ~ armed h -> h = h1 ++ (ImplicitUpdate p ds, ev) :: h2 -> ~ down h1 -> ~ In (self h1) ds -> explored p [] (h1 ++ [(ImplicitUpdate p ds, ev)]) h /\ spread ds (h1 ++ [(ImplicitUpdate p ds, ev)]) h.
Proof. intros R Qu Ar E D S0. destruct (implicit_inv s h R p ds h1 ev h2 E D S0) as [K|K]; [|auto]. exfalso. revert K. apply (nothing_kept _ _ s h); auto. Qed.
Lemma been_here s h p ds : reach s h -> In (self h) ds -> step (ImplicitUpdate p ds) s = (s, []).
Proof. intros R I. unfold step. cbn. rewrite (e_self _ _ (reach_env _ _ R)). apply existsb_eqb in I. rewrite I, orb_true_r. reflexivity. Qed.

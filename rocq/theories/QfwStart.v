(* The flows are begun. *)
From Coq Require Import ZArith List Bool Lia.
From Verif Require Import QfwModel QfwSpec QfwProofs QfwInv QfwFlow QfwCount QfwShape QfwStop QfwEnd QfwQuiet QfwLook QfwRef QfwKnow.
Import ListNotations.
Local Open Scope Z_scope.

Lemma reach_asked s h : reach s h -> forall f name, asked f name h -> exists a, In (f, a) (statics s) /\ enabled_sta a = true /\ In name (queues_sta a) /\ forall n, In n (queues_sta a) -> asked f n h.
Proof.
  intro R. induction R as [|s h i R IH P]; intros f name [k I]; [destruct I|]. rewrite effects_app in I. apply in_app_or in I as [I|I].
  - destruct (IH f name (ex_intro _ k I)) as (a & A & B & D & E). exists a. split; [now apply (statics_grow i s _ (f, a) (reach_grows s h i R))|]. split; [auto|split; [auto|]]. intros n N. destruct (E n N) as [j J]. exists j. rewrite effects_app. apply in_or_app; auto.
  - cbn in I. rewrite app_nil_r in I. destruct (reach_looks s h i R P) as [_ A]. destruct (A f k name I) as (a & A1 & A2 & A3 & A4). exists a. split; [auto|split; [auto|split; [auto|]]]. intros n N. destruct (A4 n N) as [j J]. exists j. rewrite effects_app. apply in_or_app. right. cbn. now rewrite app_nil_r.
Qed.
Lemma knows_snoc f name h i ev : knows f name (h ++ [(i, ev)]) -> (knows f name h /\ upsets i = false) \/ exists k q p, i = QueueFound k name q p false /\ waiting f k h /\ ~ In Shutdown (inputs h) /\ q <> 0 /\ p <> 0.
Proof. intro K. inversion K as [h0 k q p ev0 W N Q P E|h0 i0 ev0 K0 U E]; apply app_inj_tail in E as [-> E]; injection E as <- <-; [right; exists k, q, p; auto|auto]. Qed.
Lemma not_knows f name : ~ knows f name [].
Proof. intro W. inversion W as [h k q p ev W0 N Q P E|h i ev W0 U E]; symmetry in E; now apply app_cons_not_nil in E. Qed.
Lemma waits_forward C s st f k : Inv C s st -> waits f k s -> exists g, find_forward f s = Some g /\ In g (s_forwards s) /\ f_id g = f.
Proof.
  intros H (p & I & S & F & K). pose proof (i_pend _ _ _ H p I) as X. unfold pend_ok in X. rewrite S, F in X. destruct X as [_ X]. destruct (find_forward_in f s X) as (g & A & B & D). eauto.
Qed.
(* the step of an answer to a lookup that waits *)
Lemma found_step s h k name q p rem f : reach s h -> waiting f k h -> ~ In Shutdown (inputs h) -> exists g n, In g (s_forwards s) /\ f_id g = f /\
  let g' := fst (assign name q p rem g) in let s' := fst (step (QueueFound k name q p rem) s) in
  s_forwards s' = set_forward (with_running n g') (s_forwards s) /\ (valid_queues g' = true -> f_enabled g = true -> (f_configured g <= n)%nat) /\ (valid_queues g' = false -> n = f_running g').
Proof.
  intros R W N. pose proof (reach_inv s h R) as H. pose proof (i_nodup _ _ _ H) as ND. apply (reach_waiting s h R) in W. destruct (waits_forward _ _ _ _ _ H W) as (g & F & G & E). destruct W as (x & I & S & Fx & Kx).
  assert (D : is_down s = false) by (destruct (is_down s) eqn:D; auto; exfalso; apply N; now apply (down_shutdown s h R)).
  cbv zeta. exists g. cbn [step]. rewrite (consume_in LookQ k s x ND I S Kx). change (is_down (with_pending (but k (s_pending s)) s)) with (is_down s). rewrite D, find_but, Fx, F.
  assert (Dy : dyn (fst (assign name q p rem g)) = dyn g) by apply dyn_assign. assert (St : static (fst (assign name q p rem g)) = static g) by apply static_assign. destruct (running_assign name q p rem g) as [R1 R2]. destruct (assign name q p rem g) as [g' e]. cbn [fst] in *. destruct (valid_queues g') eqn:V.
  - unfold dequeue_request. assert (En : f_enabled g' = f_enabled g) by (unfold static in St; congruence). assert (Cf : f_configured g' = f_configured g) by (unfold dyn in Dy; congruence). rewrite En. destruct (f_enabled g).
    + pose proof (dequeue_n_facts (missing g') g' (with_pending (but k (s_pending s)) s)) as X. cbv zeta in X. destruct (dequeue_n _ _ _) as [s2 ev]. cbn [fst snd s_forwards with_pending] in *. exists (f_running g' + missing g')%nat. split; [auto|split; [auto|]]. split; [tauto|]. split; [|discriminate]. intros _ _. unfold missing. lia.
    + exists (f_running g'). split; [auto|split; [auto|]]. cbn [fst]. split; [|split; [discriminate|auto]]. cbn. now destruct g'.
  - exists (f_running g'). split; [auto|split; [auto|]]. cbn [fst]. split; [|split; [discriminate|auto]]. cbn. now destruct g'.
Qed.
Lemma ref_valid_of name q p : q <> 0 -> p <> 0 -> ref_valid (Ref name q p) = true.
Proof. intros Q P. unfold ref_valid. cbn. apply Z.eqb_neq in Q, P. now rewrite Q, P. Qed.
Definition valid_at (name : Z) (g : forward) : Prop := (r_name (f_source g) = name -> ref_valid (f_source g) = true) /\ forall d x, f_dest g = Some (d, x) -> r_name d = name -> ref_valid d = true.
Lemma refrel_valid i any r r' : upsets i = false -> refrel i any r r' -> ref_valid r = true -> ref_valid r' = true.
Proof.
  intros U [-> |[(X & _)|(k & q & p & rem & -> & -> & _)]]; auto; [congruence|]. intros _. cbn in U. apply orb_false_iff in U as [U1 U2]. apply Z.eqb_neq in U1, U2. now apply ref_valid_of.
Qed.
Lemma refrel_name i any r r' : refrel i any r r' -> r_name r' = r_name r.
Proof. intros [-> |[(_ & X & _)|(k & q & p & rem & _ & -> & _)]]; auto. Qed.
Lemma reach_knows s h : reach s h -> forall f name, knows f name h -> exists g, In g (s_forwards s) /\ f_id g = f /\ valid_at name g.
Proof.
  intro R. induction R as [|s h i R IH P]; intros f name K; [destruct (not_knows _ _ K)|]. apply knows_snoc in K as [[K U]|(k & q & p & -> & W & N & Q & Pz)].
  - destruct (IH f name K) as (g & G & Id & V1 & V2). destruct (grows_forth _ _ _ _ (reach_grows s h i R) G) as (g' & G' & St & Rs & Rd). exists g'. split; auto. split; [unfold static in St; injection St as St1; congruence|]. split.
    + intro E. apply (refrel_valid i false _ _ U Rs). apply V1. now rewrite <- (refrel_name _ _ _ _ Rs).
    + intros d x E Nm. unfold destrel in Rd. rewrite E in Rd. destruct (f_dest g) as [[d0 x0]|] eqn:D; [|contradiction]. destruct Rd as [_ Rd]. apply (refrel_valid i true _ _ U Rd). apply (V2 d0 x0 eq_refl). now rewrite <- (refrel_name _ _ _ _ Rd).
  - destruct (found_step s h k name q p false f R W N) as (g & n & G & Id & E & _). cbv zeta in E. exists (with_running n (fst (assign name q p false g))). rewrite E. split; [|split].
    + apply in_set. exists g. split; auto. cbn. symmetry. apply running_assign.
    + cbn. rewrite <- Id. apply running_assign.
    + unfold assign. cbv zeta. destruct (r_name (f_source g) =? name) eqn:Z; cbn [fst]; split; cbn.
      * intros _. now apply ref_valid_of.
      * intros d x. destruct (f_dest g) as [[d0 x0]|]; cbn; [|discriminate]. destruct (r_name d0 =? name) eqn:Y; intro X; injection X as <- <-; [intros _; now apply ref_valid_of|]. apply Z.eqb_neq in Y. congruence.
      * apply Z.eqb_neq in Z. congruence.
      * intros d x. destruct (f_dest g) as [[d0 x0]|]; cbn; [|discriminate]. destruct (r_name d0 =? name) eqn:Y; intro X; injection X as <- <-; [intros _; now apply ref_valid_of|]. apply Z.eqb_neq in Y. congruence.
Qed.
Lemma forward_conf s h g : reach s h -> In g (s_forwards s) -> exists c, configured c h /\ static g = (f_id g, conf_sta c) /\ limit (kind c) (g_alias c) h = Some (f_configured g).
Proof.
  intros R G. destruct (i_sta _ _ _ (reach_inv s h R) _ (in_map static _ _ G)) as (c & Cc & _ & E). exists c. split; [apply Cc|]. assert (X : static g = (f_id g, conf_sta c)) by (rewrite <- E; reflexivity). split; auto.
  unfold static, conf_sta in E. cbn [snd] in E. injection E as E1 E2 E3 E4 E5. destruct (reach_limits s h R) as [_ L]. rewrite <- (L g G). unfold kind, is_service. now rewrite E1, E2.
Qed.
Lemma at_least_running s h g n : reach s h -> no_loss h -> In g (s_forwards s) -> (n <= f_running g)%nat -> at_least n (f_id g) h.
Proof. intros R N G L. destruct (counted s h g R G) as (ks & Nk & Ak & _ & E). exists ks. split; auto. split; [intros k K; now apply Ak|]. now rewrite (E N). Qed.
Lemma ids_unique s h g g' : reach s h -> In g (s_forwards s) -> In g' (s_forwards s) -> f_id g = f_id g' -> g = g'.
Proof. intros R A B E. apply (nodup_inj f_id (s_forwards s)); auto. apply (inv_nodup_ids _ _ _ (reach_inv s h R)). Qed.
Lemma queues_conf a c : a = conf_sta c -> queues_sta a = queues c.
Proof. intros ->. reflexivity. Qed.
Lemma asked_queues s h f k g : reach s h -> waiting f k h -> In g (s_forwards s) -> f_id g = f -> f_enabled g = true /\ forall m, In m (queues_of g) <-> asked f m h.
Proof.
  intros R W G Id. assert (As : exists name, asked f name h).
  { clear - W. induction W as [h i ev name I|h i ev W [n [j I]] A]; [exists name, k; rewrite effects_app; apply in_or_app; right; cbn; now rewrite app_nil_r|]. exists n, j. rewrite effects_app. apply in_or_app; auto. }
  assert (Un : forall a, In (f, a) (statics s) -> a = snd (static g)).
  { intros a A. apply in_map_iff in A as [g2 [E A]]. assert (g2 = g) by (apply (ids_unique s h); auto; rewrite Id; unfold static in E; congruence). subst g2. now rewrite E. }
  destruct As as [name As]. destruct (reach_asked s h R f name As) as (a & A1 & A2 & A3 & A4). apply Un in A1. subst a. rewrite <- queues_static in *. split; [exact A2|]. intro m. split; [apply A4|]. intro Am. destruct (reach_asked s h R f m Am) as (a & B1 & _ & B3 & _). apply Un in B1. subst a. now rewrite <- queues_static in B3.
Qed.
Lemma begun s h k name q p f ev : reach s (h ++ [(QueueFound k name q p false, ev)]) -> no_loss h -> waiting f k h -> ~ In Shutdown (inputs h) ->
  (forall m, asked f m h -> knows f m (h ++ [(QueueFound k name q p false, ev)])) ->
  exists c n, configured c h /\ g_enabled c = true /\ (forall m, In m (queues c) <-> asked f m h) /\ limit (kind c) (g_alias c) h = Some n /\ at_least n f (h ++ [(QueueFound k name q p false, ev)]).
Proof.
  intros R NL W N K. destruct (reach_snoc _ _ _ _ R) as (s0 & R0 & P & -> & E). destruct (found_step s0 h k name q p false f R0 W N) as (g & n & G & Id & Fs & V1 & V2). cbv zeta in *. set (g' := fst (assign name q p false g)) in *.
  destruct (asked_queues s0 h f k g R0 W G Id) as [En Aq]. destruct (forward_conf s0 h g R0 G) as (c & Cc & St & Lm). exists c, (f_configured g). split; auto. unfold static, conf_sta in St. injection St as S1 S2 S3 S4 S5.
  assert (Qc : queues_of g = queues c). { unfold queues_of, queues. rewrite S3, <- S4. destruct (f_dest g) as [[d x]|]; reflexivity. }
  split; [congruence|]. split; [intro m; rewrite <- Qc; apply Aq|]. split; [auto|].
  destruct (running_assign name q p false g) as [_ Rid]. fold g' in Rid.
  assert (J : In (with_running n g') (s_forwards (fst (step (QueueFound k name q p false) s0)))) by (rewrite Fs; apply in_set; exists g; split; auto).
  assert (Nm : queues_of g' = queues_of g). { assert (X : static g' = static g) by apply static_assign. rewrite !queues_static. now rewrite X. }
  assert (V : valid_queues g' = true).
  { assert (Va : forall m, In m (queues_of g') -> valid_at m (with_running n g')).
    { intros m M. rewrite Nm in M. apply Aq, K in M. destruct (reach_knows _ _ R f m M) as (g2 & G2 & I2 & V). assert (with_running n g' = g2) as -> by (apply (ids_unique _ _ _ _ R J G2); cbn; congruence). exact V. }
    unfold valid_queues. unfold queues_of in Va. apply andb_true_iff. split; [apply (Va (r_name (f_source g'))); [now left|reflexivity]|]. destruct (f_dest g') as [[d x]|] eqn:D; auto. apply (Va (r_name d)) with (d := d) (x := x); [right; now left|exact D|reflexivity]. }
  assert (NL' : no_loss (h ++ [(QueueFound k name q p false, ev)])). { intros j X. rewrite inputs_app in X. apply in_app_or in X as [X|[X|[]]]; [exact (NL j X)|discriminate]. }
  assert (X : f_id (with_running n g') = f) by (cbn; congruence). rewrite <- X. apply (at_least_running _ _ _ _ R NL' J). cbn. auto.
Qed.
(* a flow ends, and the next is begun: or a lookup waits *)
Lemma restarted s h i ev f k : reach s (h ++ [(i, ev)]) -> no_loss (h ++ [(i, ev)]) -> active f k h -> ends k (last_of (story_of k h)) i = true -> (forall j, i <> ForgetRequest j) ->
  exists c n, configured c h /\ story c f k (k + 1) (story_of k h) /\ limit (kind c) (g_alias c) h = Some n /\ (at_least n f (h ++ [(i, ev)]) \/ exists j, waiting f j (h ++ [(i, ev)])).
Proof.
  intros R NL A En NF. destruct (reach_snoc _ _ _ _ R) as (s0 & R0 & P & Es & Ee). pose proof (reach_inv s0 h R0) as H. pose proof (i_nodup _ _ _ H) as ND.
  apply (active_pending s0 h _ _ R0) in A as (x & I & Kx & Fx & Nx). destruct (flow_facts _ _ _ x H I Nx) as (c0 & [j e] & Cc & Sc & Sy & L & M & Tr). destruct (find_forward_static _ _ _ _ _ H Sc) as (g & Fg & G & Eg).
  assert (Idg : f_id g = f) by (unfold static in Eg; congruence). destruct (forward_conf s0 h g R0 G) as (c & Cc' & St & Lm).
  exists c0, (f_configured g). split; [apply Cc|]. split; [rewrite <- Kx, <- Fx; exact Sy|].
  assert (Qc : conf_sta c0 = conf_sta c) by (rewrite St in Eg; congruence). split. { rewrite <- Lm. unfold conf_sta in Qc. unfold kind. injection Qc as Q1 Q2 Q3 Q4 Q5. now rewrite Q1, Q2. }
  assert (Step : s = fst (next (decrement g) (with_pending (but (p_corr x) (s_pending s0)) s0)) /\ ev = snd (next (decrement g) (with_pending (but (p_corr x) (s_pending s0)) s0))).
  { rewrite <- Kx, L in En. unfold matches in M. cbn [snd] in M.
    assert (Cs : forall st, p_stage x = st -> consume st (p_corr x) s0 = Some (x, with_pending (but (p_corr x) (s_pending s0)) s0)) by (intros st Q; apply consume_in; auto).
    destruct (p_stage x) eqn:S; try congruence; destruct e; try contradiction; cbn in En; destruct i as [l|ki n0 q0 p0 r|ki r|ki m|ki|ki d|ki a|ki|ki code r|ki ok|ki pr|ki|ki|ki|p0|]; try discriminate.
    - destruct (NF ki eq_refl).
    - destruct d; [|discriminate]. apply Z.eqb_eq in En. subst ki. cbn [step] in Es, Ee. rewrite (Cs Deq eq_refl), find_but, Fg in Es, Ee. auto.
    - exfalso. apply (NL ki). rewrite inputs_app. apply in_or_app. right. now left.
    - destruct pr; [discriminate|]. apply Z.eqb_eq in En. subst ki. cbn [step] in Es, Ee. rewrite (Cs Com eq_refl), find_but, Fg in Es, Ee. auto.
    - apply Z.eqb_eq in En. subst ki. cbn [step] in Es, Ee. rewrite (Cs Rol eq_refl), find_but, Fg in Es, Ee. auto. }
  destruct Step as [S1 S2]. set (s1 := with_pending (but (p_corr x) (s_pending s0)) s0) in *. clear Es Ee En.
  assert (Hn : f_enabled g = true).
  { assert (Ec : f_enabled g = g_enabled c0) by (unfold static, conf_sta in Eg; congruence). rewrite Ec. clear - Sy L. assert (NE : story_of (p_corr x) h <> []) by (intro Z; rewrite Z in L; discriminate). clear L. remember (story_of (p_corr x) h) as l eqn:Z. clear Z. induction Sy as [|l i0 e0 S0 IH F0]; [congruence|]. destruct l as [|z l]; [|apply IH; discriminate]. cbn in F0. destruct e0; try contradiction. tauto. }
  unfold next in S1, S2. destruct (valid_queues (decrement g)) eqn:V.
  - left. unfold dequeue_request in S1. assert (f_enabled (decrement g) = true) as En by (unfold decrement; cbv zeta; destruct (absent _); auto). rewrite En in S1. pose proof (dequeue_n_facts (missing (decrement g)) (decrement g) s1) as X. cbv zeta in X. rewrite <- S1 in X. destruct X as (_ & X & _).
    set (g1 := with_running (f_running (decrement g) + missing (decrement g)) (decrement g)) in *. assert (J : In g1 (s_forwards s)) by (rewrite X; apply in_set; exists g; split; [exact G|cbn; now rewrite id_decrement]).
    assert (Ig : f_id g1 = f) by (cbn; now rewrite id_decrement). rewrite <- Ig. apply (at_least_running _ _ _ _ R NL J). cbn [g1 f_running with_running]. unfold missing. assert (Q : dyn (decrement g) = dyn g) by apply dyn_decrement. assert (Cf : f_configured (decrement g) = f_configured g) by (unfold dyn in Q; congruence). rewrite Cf. lia.
  - right. destruct (existsb _ (s_pending s1)) eqn:X.
    + apply existsb_exists in X as [y [Y1 Y2]]. apply andb_true_iff in Y2 as [Y2 Y3]. apply stage_eqb_eq in Y2. apply Z.eqb_eq in Y3. rewrite id_decrement, Idg in Y3. exists (p_corr y). apply (reach_waiting _ _ R). rewrite S1. exists y. auto.
    + unfold lookup_queues in S2. destruct (ask_all (f_id (decrement g)) (queues_of (decrement g)) (put_forward (decrement g) s1)) as [Aa _]. destruct (Aa (r_name (f_source (decrement g)))) as [j' J]; [now left|]. exists j'. rewrite id_decrement, Idg in J. apply (waiting_now f j' h i ev (r_name (f_source (decrement g)))). rewrite S2. rewrite <- Idg in *. rewrite id_decrement in *. exact J.
Qed.
(* ---- what is configured is looked up ---- *)
Lemma fold_conf c l : forall fs, (forall c', In c' l -> is_of (kind c) (g_alias c) c' = true -> c' = c) ->
  (exists f, In f fs /\ snd (static f) = conf_sta c) \/ ((forall f, In f fs -> matchf c f = false) /\ In c l) ->
  exists f, In f (fold_left (fun a c => add_or_update c a) l fs) /\ snd (static f) = conf_sta c.
Proof.
  induction l as [|x l IH]; intros fs U [E|[N I]]; cbn [fold_left]; auto; [destruct I| |].
  - apply IH; [intros c' J; apply U; now right|]. left. destruct E as (f & F & S). unfold add_or_update. destruct (existsb _ fs); [|exists f; split; auto; apply in_or_app; auto].
    assert (J : In (static f) (map static (set_instances x fs))) by (rewrite static_set_instances; now apply in_map). apply in_map_iff in J as [f' [J1 J2]]. exists f'. rewrite J1. auto.
  - apply IH; [intros c' J; apply U; now right|]. unfold add_or_update. destruct (existsb _ fs) eqn:X.
    + right. apply existsb_exists in X as [y [Y1 Y2]]. destruct I as [->|I]; [exfalso; specialize (N y Y1); unfold matchf in N; congruence|]. split; auto.
      intros f F. destruct (in_set_instances x fs f F) as (g & _). assert (K : In (keyf f) (map keyf (set_instances x fs))) by now apply in_map. rewrite keys_set_instances in K. apply in_map_iff in K as [g2 [K1 K2]]. specialize (N g2 K2). destruct (matchf c f) eqn:Mf; auto. apply matchf_key in Mf. rewrite <- K1 in Mf. apply matchf_key in Mf. congruence.
    + destruct (is_of (kind c) (g_alias c) x) eqn:Q.
      * left. rewrite (U x (or_introl eq_refl) Q). exists (create c (Z.of_nat (length fs) + 1)). split; [apply in_or_app; right; now left|]. now rewrite static_create.
      * right. destruct I as [->|I]; [exfalso; unfold is_of, kind in Q; rewrite Z.eqb_refl in Q; destruct (g_service c); discriminate|]. split; auto. intros f F. apply in_app_or in F as [F|[<-|[]]]; auto. unfold matchf, same_kind. cbn. unfold is_of, kind in Q. destruct (g_service c), (g_service x); cbn in Q |- *; auto.
Qed.
Lemma looked_up s h l ev c : reach s (h ++ [(Update l, ev)]) -> In c l -> g_enabled c = true -> (0 < g_instances c)%nat ->
  (forall c', configured c' h \/ In c' l -> is_of (kind c) (g_alias c) c' = true -> c' = c /\ ~ configured c' h) ->
  exists f, forall m, In m (queues c) -> exists k, In (AskQueue f k m) ev.
Proof.
  intros R I En Po U. destruct (reach_snoc _ _ _ _ R) as (s0 & R0 & P & Es & Ee). pose proof (reach_inv s0 h R0) as H. cbn [step] in Es, Ee. unfold update in Es, Ee. cbv zeta in Es, Ee.
  set (l' := filter (fun c => match g_service c with Some _ => true | None => false end) l ++ filter (fun c => match g_service c with Some _ => false | None => true end) l) in *.
  assert (Il : forall x, In x l' <-> In x l). { intro x. unfold l'. rewrite in_app_iff, !filter_In. destruct (g_service x); intuition discriminate. }
  destruct (fold_conf c l' (s_forwards s0)) as (f & F & St).
  - intros c' J Q. apply (U c'); auto. right. now apply Il.
  - right. split; [|now apply Il]. intros f F. destruct (matchf c f) eqn:M; auto. exfalso. destruct (forward_conf s0 h f R0 F) as (c2 & C2 & S2 & _). unfold static, conf_sta in S2. injection S2 as S2 S3 S4 S5 S6. apply (proj2 (U c2 (or_introl C2) ltac:(apply matchf_key in M; unfold keyf, is_service in M; unfold is_of, kind; injection M as M1 M2; rewrite <- S3, <- S2, M1, M2, Z.eqb_refl; now destruct (g_service c)))). exact C2.
  - set (s1 := with_forwards (fold_left (fun a c => add_or_update c a) l' (s_forwards s0)) s0) in *. destruct (comply_adds s1) as (_ & _ & All). pose proof (comply_facts s1) as X. cbv zeta in X. destruct X as (_ & X & _). destruct (comply s1) as [s2 ev2]. cbn [fst snd] in *.
    assert (Fs : In f (s_forwards s)) by (rewrite Es; cbn [s_forwards]; rewrite X; exact F). assert (Lm : limit (kind c) (g_alias c) (h ++ [(Update l, ev)]) = Some (f_configured f)).
    { destruct (reach_limits s _ R) as [_ L]. rewrite <- (L f Fs). unfold static, conf_sta in St. cbn [snd] in St. injection St as S2 S3 S4 S5 S6. unfold kind, is_service. now rewrite S2, S3. }
    assert (Cf : f_configured f = g_instances c).
    { rewrite limit_app in Lm. cbn [limit_step] in Lm. destruct (last_of (filter (is_of (kind c) (g_alias c)) l)) as [c2|] eqn:La.
      - apply last_of_some in La as [l2 La]. assert (J : In c2 (filter (is_of (kind c) (g_alias c)) l)) by (rewrite La; apply in_or_app; right; now left). apply filter_In in J as [J1 J2]. destruct (U c2 (or_intror J1) J2) as [-> _]. congruence.
      - apply last_of_none in La. assert (J : In c (filter (is_of (kind c) (g_alias c)) l)) by (apply filter_In; split; auto; unfold is_of, kind; rewrite Z.eqb_refl; now destruct (g_service c)). rewrite La in J. destruct J. }
    exists (f_id f). intros m M. destruct (All f m) as [k K]; auto; [unfold static, conf_sta in St; cbn [snd] in St; congruence|lia|rewrite queues_static, St; exact M|]. exists k. rewrite Ee. apply in_or_app. auto.
Qed.
(* ---- shutdown ---- *)
Lemma shut_down s h ev f k : reach s (h ++ [(Shutdown, ev)]) -> active f k h ->
  match last_of (story_of k h) with
  | Some (_, Dequeue _ _ _ _ _ _) => exists p, In (Forget p k) ev /\ (p <> 0 -> exists name q, told name q p false h)
  | Some (_, AskService _ _) => withdrawn k h = true \/ exists sv, In (DiscardService k sv) ev
  | _ => True
  end.
Proof.
  intros R A. destruct (reach_snoc _ _ _ _ R) as (s0 & R0 & P & -> & ->). apply (active_pending s0 h _ _ R0) in A as (p & I & <- & Fp & N). destruct (flow_facts _ _ _ p (reach_inv s0 h R0) I N) as (c & [j e] & _ & _ & _ & L & M & _). rewrite L. pose proof (shutdown_step s0 h R0) as X. cbv zeta in X. destruct X as (_ & _ & _ & X1 & X2). destruct (proj1 (reach_withdrawn s0 h R0) p I) as [_ W2]. unfold matches in M. cbn [snd] in M.
  destruct e; try exact Logic.I.
  - assert (S : p_stage p = Deq) by (destruct (p_stage p); try contradiction; auto). destruct (X1 p I S) as (g & G & _ & F). exists (r_ipc (f_source g)). split; auto. intro Nz. destruct (reach_told s0 h R0 g G) as [T _]. eauto.
  - destruct (p_stage p) eqn:S; try contradiction; [right; now apply X2|left; apply withdrawn_spec; auto].
Qed.

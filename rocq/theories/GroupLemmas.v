(* Consequences for the queue group: capacity, durability, notification, waiting requests. *)
From Coq Require Import ZArith List String Bool Lia Permutation.
From Verif Require Import QueueModel QueueSpec QueueProofs QueueHistory QueueLemmas QueueExact GroupModel GroupSpec GroupProofs.
Import ListNotations.
Local Open Scope Z_scope.

Lemma total_payload_sum ms : total_payload ms = sum_len ms.
Proof. induction ms as [|m ms IH]; auto. unfold total_payload in *. simpl. rewrite IH. reflexivity. Qed.

Lemma sum_len_nonneg ms : 0 <= sum_len ms.
Proof. induction ms as [|m ms IH]; simpl; unfold plen in *; lia. Qed.

Lemma size_tracked l s : run g_init l s -> g_size s = total_payload (msgs (g_db s)).
Proof. intros R. rewrite total_payload_sum. apply (gi_size _ _ (Ginv_run l s R)). Qed.

(* ------------------------------------------------------------ capacity *)

Lemma tick_fields now s : g_db (tick now s) = g_db s /\ g_size (tick now s) = g_size s /\ g_cap (tick now s) = g_cap s.
Proof. unfold tick. destruct (g_timer s); [destruct (_ <=? _)|]; auto. Qed.

Lemma refused l s corr pid q id t c avail now cap :
  run g_init l s -> g_cap s = Some cap ->
  cap < total_payload (msgs (g_db s)) + Z.of_nat (List.length (c_payload c)) ->
  exists s', gstep s (IEnqueue corr pid q id t c avail now) = (s', [Sent pid corr (REnqueue false 0)]) /\ g_db s' = g_db s.
Proof.
  intros R C X. rewrite <- (size_tracked l s R) in X. destruct (tick_fields now s) as (A1&A2&A3).
  exists (tick now s). split; auto. cbn [gstep]. unfold on_enqueue, sufficient. rewrite A3, C, A2.
  replace (_ <=? _) with false; auto. symmetry. apply Z.leb_gt. lia.
Qed.

Lemma size_not_grow d o d' r : Inv d -> step d o = (d', r) ->
  (forall q i t c a n, o = Enqueue q i t c a n -> r <> Done) -> qb_size d' <= qb_size d.
Proof.
  intros I H N.
  assert (DEL : forall p x, qb_size (delete_where p x) <= qb_size x).
  { intros p x. rewrite size_delete. pose proof (sum_len_nonneg (filter p (msgs x))). lia. }
  destruct (accounted o) eqn:A.
  - rewrite (size_step d o d' r I H A).
    enough (change o r <= 0) by lia.
    destruct o; simpl in H; try discriminate A; simpl.
    + lia.
    + destruct r; try lia. exfalso. eapply N; eauto.
    + destruct r as [| |[m|]| | |]; try lia. destruct (trid =? 0); [|lia]. unfold plen. lia.
    + lia.
    + injection H as _ <-. pose proof (sum_len_nonneg (filter (commit2_p g) (msgs (update_state_where (commit1_p g) set_committed d)))). simpl in *. lia.
    + destruct (rollback_ok g sqlnow d I) as (d1&E&_). rewrite E in H. injection H as _ <-. pose proof (sum_len_nonneg (filter (rollback1_p g) (msgs d))). lia.
    + destruct (qb_recovery_commit gs d) as [[d1 n] k] eqn:E. injection H as _ <-. enough (0 <= n) by lia.
      clear - E. revert d d1 n k E. induction gs as [|g gs IH]; intros d d1 n k E; simpl in E.
      * injection E as _ <- _. lia.
      * destruct (qb_recovery_commit gs _) as [[d3 n3] k3] eqn:R. injection E as _ <- _.
        apply IH in R. match goal with |- 0 <= ?x + _ => enough (0 <= x) by lia end. apply sum_len_nonneg.
    + destruct (recovery_rollback_ok gs sqlnow d I) as (d1&n&k&E&_). rewrite E in H. injection H as _ <-. enough (0 <= n) by lia.
      clear - E I. revert d d1 n k E I. induction gs as [|g gs IH]; intros d d1 n k E I.
      * simpl in E. injection E as _ <- _. lia.
      * rewrite recovery_rollback_cons in E. destruct (rollback_ok g sqlnow d I) as (d2&E2&I2&_). rewrite E2 in E.
        destruct (qb_recovery_rollback gs sqlnow d2) as [d4 [[s4 k4]|]] eqn:R; [|discriminate].
        injection E as _ <- _. apply IH in R; auto. pose proof (sum_len_nonneg (filter (rollback1_p g) (msgs d))). lia.
    + destruct r; lia.
    + lia.
  - destruct o; try discriminate A; simpl in H.
    + injection H as <- _. apply DEL.
    + destruct (qb_remove _ q ids d) as [d1 k] eqn:E. injection H as <- _.
      clear - E DEL. revert d d1 k E. generalize (if force then force_remove_p else remove_p) as p. intros p.
      induction ids as [|i ids IH]; intros d d1 k E; simpl in E.
      * injection E as <- _. lia.
      * destruct (qb_remove p q ids _) as [d2 k2] eqn:R. injection E as <- _. apply IH in R.
        pose proof (DEL (p q i) d). lia.
Qed.

Definition within (c : Z) (s : gstate) : Prop := g_cap s = Some c /\ qb_size (g_db s) <= c /\ qb_size (g_disk s) <= c.

Lemma within_micro (cfg : option Z -> Prop) c tr s a s' : (forall x, cfg x -> x = Some c) ->
  micro cfg tr s a s' -> Ginv tr s -> within c s -> within c s'.
Proof.
  intros HC M G [W1 [W2 W3]]. inversion M; subst; unfold within; simpl; auto.
  - split; auto. split; auto.
    assert (I : Inv (g_db s)) by (eapply Ginv_Inv; eauto).
    assert (D : (forall q i t k av n, o = Enqueue q i t k av n -> r <> Done) \/ exists q i t k av n, o = Enqueue q i t k av n /\ r = Done).
    { destruct o; try (left; discriminate). destruct r; try (left; discriminate). right. eexists _, _, _, _, _, _. auto. }
    destruct D as [D|(q&i&t&k&av&x&->&->)].
    + pose proof (size_not_grow _ _ _ _ I H D). lia.
    + rewrite (size_step _ _ _ _ I H); auto. simpl in H0. unfold sufficient in H0. rewrite W1, (gi_size _ _ G) in H0.
      apply Z.leb_le in H0. simpl. lia.
  - unfold involve. destruct (existsb _ _); simpl; auto.
Qed.

Lemma within_micros (cfg : option Z -> Prop) c tr s a s' : (forall x, cfg x -> x = Some c) ->
  micros cfg tr s a s' -> Ginv tr s -> within c s -> within c s'.
Proof.
  intros HC M. induction M; intros G W; auto.
  apply IHM; [eapply Ginv_micro; eauto|eapply within_micro; eauto].
Qed.

Lemma within_run c s l s' : run s l s' -> forall tr, Ginv tr s -> within c s ->
  (forall cap ws a, In (IConfigure cap ws, a) l -> cap = Some c) -> within c s'.
Proof.
  intros R. induction R as [|s i a s1 l s2 E R IH]; intros tr G W C; auto.
  apply (IH (tr ++ a)); [eapply Ginv_step; eauto| |intros; eapply C; simpl; eauto].
  eapply within_micros; [|eapply (gstep_micros tr); eauto; eapply Ginv_Inv; eauto| |].
  - intros x X. destruct i; simpl in X; try tauto. subst x. eapply C. simpl. eauto.
  - apply Ginv_start; auto.
  - destruct i; simpl; auto.
Qed.

Lemma configure_within c ws s a : 0 <= c -> gstep g_init (IConfigure (Some c) ws) = (s, a) -> within c s.
Proof.
  intros C H. pose proof (Ginv_step [] _ _ _ _ Ginv_init H) as G. cbn [gstep] in H. unfold on_configure, apply_op in H.
  cbn [persist_db w_cap g_db g_init] in H. destruct (step db_empty (Configure ws)) as [d' r] eqn:E.
  assert (M : msgs d' = []).
  { simpl in E. destruct (qb_configure ws db_empty) eqn:Q; injection E as <- _; auto.
    apply Inv_configure in Q as [_ Q]; auto using Inv_empty. }
  assert (Z0 : qb_size d' = 0) by (unfold qb_size; rewrite M; auto).
  destruct r; injection H as <- _; unfold within; simpl; rewrite ?Z0; auto.
Qed.

Lemma capacity_kept c ws l s : 0 <= c -> run g_init l s -> (exists a l', l = (IConfigure (Some c) ws, a) :: l') ->
  (forall cap ws' a, In (IConfigure cap ws', a) l -> cap = Some c) -> total_payload (msgs (g_db s)) <= c.
Proof.
  intros C R (a&l'&->) K. inversion R; subst. rewrite total_payload_sum.
  apply (within_run c _ _ _ H5 ([] ++ a)).
  - eapply Ginv_step; eauto using Ginv_init.
  - eapply configure_within; eauto.
  - intros; eapply K; simpl; eauto.
Qed.

(* ------------------------------------------------------------ durability *)

Lemma run_app s l1 l2 s' : run s (l1 ++ l2) s' <-> exists m, run s l1 m /\ run m l2 s'.
Proof.
  revert s. induction l1 as [|[i a] l1 IH]; intros s; simpl.
  - split; [intros R; exists s; split; [constructor|auto]|intros (m&A&B); inversion A; subst; auto].
  - split.
    + intros R. inversion R; subst. apply IH in H5 as (m&A&B). exists m. split; auto. econstructor; eauto.
    + intros (m&A&B). inversion A; subst. econstructor; eauto. apply IH. eauto.
Qed.

Lemma sent_good l s tr1 pid corr r tr2 :
  run g_init l s -> trace l = tr1 ++ Sent pid corr r :: tr2 -> good tr1 corr r.
Proof. intros R E. eapply (gi_sent _ _ (Ginv_run l s R)); eauto. Qed.

Lemma enqueue_durable l s tr1 pid corr id tr2 :
  run g_init l s -> trace l = tr1 ++ Sent pid corr (REnqueue true id) :: tr2 ->
  (forall q g c a n r, In (Applied corr (Enqueue q id g c a n, r)) tr1 -> g = 0) ->
  exists q c a n, In (corr, (Enqueue q id 0 c a n, Done)) (durable tr1).
Proof.
  intros R E N. destruct (sent_good _ _ _ _ _ _ _ R E) as [A|(q&g&c&a&n&A&B)]; [exact A|].
  exfalso. apply A. eapply N; eauto.
Qed.

Lemma in_durable_seen tr e : In e (durable tr) -> In e (seen tr).
Proof. intros H. destruct (durable_seen tr) as [ext ->]. apply in_app_iff. auto. Qed.

Lemma enqueue_survives l s tr1 pid corr id tr2 :
  run g_init l s -> trace l = tr1 ++ Sent pid corr (REnqueue true id) :: tr2 ->
  (forall q g c a n r, In (Applied corr (Enqueue q id g c a n, r)) tr1 -> g = 0) ->
  exists q c a n h1 h2, In (Applied corr (Enqueue q id 0 c a n, Done)) tr1 /\
    map snd (seen (trace l)) = h1 ++ (Enqueue q id 0 c a n, Done) :: h2 /\
    (consumed id q 0 h2 \/
     exists m, qb_peek id (g_db s) = Some m /\ m_content m = c /\ m_origin m = q /\ m_ts m = n).
Proof.
  intros R E N. destruct (enqueue_durable _ _ _ _ _ _ _ R E N) as (q&c&a&n&D).
  assert (A : In (Applied corr (Enqueue q id 0 c a n, Done)) tr1) by (apply in_durable_seen in D; apply seen_applied in D; auto).
  assert (D2 : In (corr, (Enqueue q id 0 c a n, Done)) (seen (trace l))).
  { apply in_durable_seen. rewrite E. apply durable_in. auto. }
  apply in_split in D2 as (x1&x2&X).
  exists q, c, a, n, (map snd x1), (map snd x2). split; auto. split; [rewrite X, map_app; auto|].
  pose proof (gi_seen _ _ (Ginv_run l s R)) as H. rewrite X, map_app in H. simpl in H. eapply no_loss; eauto.
Qed.

Lemma commit_durable l s tr1 pid corr t tr2 :
  run g_init l s -> trace l = tr1 ++ Sent pid corr (RCommit true t) :: tr2 ->
  exists n, In (corr, (Commit (fst t), Affected n)) (durable tr1).
Proof. intros R E. destruct (sent_good _ _ _ _ _ _ _ R E) as [A|[]]. exact A. Qed.

Lemma rollback_durable l s tr1 pid corr t tr2 :
  run g_init l s -> trace l = tr1 ++ Sent pid corr (RRollback true t) :: tr2 ->
  exists k n, In (corr, (Rollback (fst t) k, Affected n)) (durable tr1).
Proof. intros R E. destruct (sent_good _ _ _ _ _ _ _ R E) as [A|[]]. exact A. Qed.

Lemma store_is_log l s : run g_init l s ->
  history db_empty (map snd (seen (trace l))) (g_db s) /\ history db_empty (map snd (durable (trace l))) (g_disk s).
Proof. intros R. destruct (Ginv_run l s R). auto. Qed.

Lemma durable_mono tr x : exists ext, durable (tr ++ x) = durable tr ++ ext.
Proof. apply durable_grows. Qed.

Lemma trace_app l1 l2 : trace (l1 ++ l2) = trace l1 ++ trace l2.
Proof. unfold trace. rewrite map_app, concat_app. auto. Qed.

Lemma after_crash l s s' a : run g_init l s -> gstep s ICrash = (s', a) ->
  g_db s' = g_disk s /\ seen (trace (l ++ [(ICrash, a)])) = durable (trace l).
Proof.
  intros R H. cbn [gstep] in H. unfold on_crash in H. injection H as <- <-. split; auto.
  rewrite trace_app. unfold trace at 2. simpl. rewrite app_nil_r, app_assoc. unfold seen. rewrite logs_snoc. simpl.
  unfold durable. f_equal. generalize (trace l) as tr. induction (g_pend s) as [|r ps IH]; intros tr; simpl; [rewrite app_nil_r; auto|].
  change (Dropped (dr_corr r) :: ?k) with ([Dropped (dr_corr r)] ++ k). rewrite app_assoc, IH, logs_snoc. auto.
Qed.

(* ------------------------------------------------------------ enqueues come from requests *)

Definition is_enqueue (a : action) : bool := match a with Applied _ (Enqueue _ _ _ _ _ _, _) => true | _ => false end.

(* ------------------------------------------------------------ the transaction manager is told *)

Definition knows (l : list (input * list action)) (t : trid) : Prop :=
  exists l1 i a l2, l = l1 ++ (i, a) :: l2 /\ In (Involved t) a /\ forall j c, In (j, c) l2 -> ~ settles t j.

Definition aware (B : trid -> Prop) (a : list action) (g : Z) : Prop := exists b, In (Involved (g, b)) a \/ B (g, b).

Definition tell_ok (tr0 : list action) (B : trid -> Prop) (a1 : list action) (corr : Z) (r : reply) : Prop :=
  match r with
  | REnqueue true id => exists q g c av n, In (Applied corr (Enqueue q id g c av n, Done)) (tr0 ++ a1) /\ (g = 0 \/ aware B a1 g)
  | RDequeue (Some m) => exists q sel g n, In (Applied corr (Dequeue q sel g n, GotMessage (Some m))) (tr0 ++ a1) /\ (g = 0 \/ aware B a1 g)
  | _ => True
  end.

Definition all_told (tr0 : list action) (B : trid -> Prop) (a : list action) : Prop :=
  forall a1 pid corr r a2, a = a1 ++ Sent pid corr r :: a2 -> tell_ok tr0 B a1 corr r.

Lemma all_told_snoc tr0 B a x : all_told tr0 B a -> (forall pid corr r, x = Sent pid corr r -> tell_ok tr0 B a corr r) ->
  all_told tr0 B (a ++ [x]).
Proof.
  intros H G a1 pid corr r a2 E. apply snoc_split in E as [[<- E]|[l3 E]]; [eapply G; eauto|eapply H; eauto].
Qed.

Definition known (B : trid -> Prop) (a : list action) (s : gstate) : Prop := forall t, In t (g_involved s) -> In (Involved t) a \/ B t.

Lemma known_app B a x s s' : known B a s -> (forall t, In t (g_involved s') -> In t (g_involved s)) -> known B (a ++ x) s'.
Proof. intros H K t T. destruct (H t (K t T)); auto. left. apply in_app_iff. auto. Qed.

Lemma told_micro (cfg : option Z -> Prop) tr0 B a0 s a s' :
  micro cfg (tr0 ++ a0) s a s' -> Ginv (tr0 ++ a0) s -> known B a0 s -> all_told tr0 B a0 ->
  known B (a0 ++ a) s' /\ all_told tr0 B (a0 ++ a).
Proof.
  intros M G K T. inversion M; subst; rewrite ?app_nil_r; auto.
  - split; [eapply known_app; eauto|]. apply all_told_snoc; auto. discriminate.
  - split; [eapply known_app; eauto|]. apply all_told_snoc; auto. discriminate.
  - split; [eapply known_app; eauto|].
    change (Persisted :: ?l) with ([Persisted] ++ l). rewrite app_assoc.
    assert (T1 : all_told tr0 B (a0 ++ [Persisted])) by (apply all_told_snoc; auto; discriminate).
    assert (R : forall p c r, In (p, c, r) (g_replies s) ->
              match r with REnqueue true id => exists q cc av n, In (Applied c (Enqueue q id 0 cc av n, Done)) (tr0 ++ a0 ++ [Persisted]) | RDequeue _ => False | _ => True end).
    { intros p c r X. pose proof (gi_replies _ _ G p c r X) as Y. destruct r as [[] id|m| |?| |m|? t|? t|t|?|?|?|?|]; auto.
      - destruct Y as (q&cc&av&n&Y). exists q, cc, av, n. apply seen_applied in Y. simpl in Y. rewrite app_assoc. apply in_app_iff. auto.
      - destruct (gi_deferred _ _ G p c _ X). }
    clear - T1 R. remember (a0 ++ [Persisted]) as b0 eqn:F. clear F. revert b0 T1 R.
    generalize (g_replies s) as l. induction l as [|[[p c] r] l IH]; intros b0 T1 R; simpl; [rewrite app_nil_r; auto|].
    change (Sent p c r :: ?l) with ([Sent p c r] ++ l). rewrite app_assoc. apply IH.
    + apply all_told_snoc; auto. intros pid corr r' X. injection X as <- <- <-.
      pose proof (R p c r (or_introl eq_refl)) as Y. destruct r as [[] id|[m|]| |?| |m|? t|? t|t|?|?|?|?|]; simpl; auto; try tauto.
      destruct Y as (q&cc&av&n&Y). exists q, 0, cc, av, n. auto.
    + intros p' c' r' X. pose proof (R p' c' r' (or_intror X)) as Y. destruct r' as [[] id|m| |?| |m|? t|? t|t|?|?|?|?|]; auto.
      destruct Y as (q&cc&av&n&Y). exists q, cc, av, n. rewrite app_assoc. apply in_app_iff. auto.
  - unfold involve. destruct (existsb _ _) eqn:X; simpl; [rewrite app_nil_r; auto|]. split.
    + intros u U. simpl in U. apply in_app_iff in U as [U|[<-|[]]].
      * destruct (K u U); auto. left. apply in_app_iff. auto.
      * left. apply in_app_iff. simpl. auto.
    + apply all_told_snoc; auto. discriminate.
  - split; [eapply known_app; eauto|]. apply all_told_snoc; auto. intros p c r' X. injection X as <- <- <-.
    destruct r as [[] id|[m|]| |?| |m|? t|? t|t|?|?|?|?|]; simpl in *; auto.
    + destruct H as (q&t&c&av&n&A1&A2&A3). exists q, (fst t), c, av, n. split; auto. right. exists (snd t).
      destruct t as [g b]. simpl. apply K. auto.
    + destruct H as (q&sel&g&n&A1&A2). exists q, sel, g, n. split; auto. destruct A2 as [A2|[b A2]]; auto.
      right. exists b. apply K. auto.
  - split; [eapply known_app; eauto|]. apply all_told_snoc; auto. discriminate.
  - split; [eapply known_app; eauto; simpl; intros; tauto|]. apply all_told_snoc; auto. discriminate.
Qed.

Lemma told_micros (cfg : option Z -> Prop) tr s a s' : micros cfg tr s a s' -> forall tr0 B a0, tr = tr0 ++ a0 ->
  Ginv tr s -> known B a0 s -> all_told tr0 B a0 ->
  known B (a0 ++ a) s' /\ all_told tr0 B (a0 ++ a).
Proof.
  intros M. induction M; intros tr0 B a0 -> G K T; [rewrite app_nil_r; auto|].
  destruct (told_micro _ _ _ _ _ _ _ H G K T) as [K1 T1]. rewrite app_assoc. apply IHM; auto.
  - rewrite app_assoc. auto.
  - eapply Ginv_micro; eauto.
Qed.

Lemma start_involved s i t : In t (g_involved (start s i)) -> In t (g_involved s) /\ ~ settles t i.
Proof.
  destruct i; simpl; auto; intros H.
  - apply filter_In in H as [A B]. split; auto. intros ->. rewrite (proj2 (trid_eqb_eq t t) eq_refl) in B. discriminate.
  - apply filter_In in H as [A B]. split; auto. intros ->. rewrite (proj2 (trid_eqb_eq t t) eq_refl) in B. discriminate.
  - tauto.
Qed.

Lemma told_step l s i s' a : run g_init l s -> gstep s i = (s', a) ->
  let B := fun t => In t (g_involved s) /\ ~ settles t i in
  known B a s' /\ all_told (trace l) B a.
Proof.
  intros R H B. pose proof (Ginv_run l s R) as G.
  apply (told_micros (configures i) (trace l) (start s i) a s' (gstep_micros _ _ _ _ _ (Ginv_Inv _ _ G) H) (trace l) B []).
  - rewrite app_nil_r. auto.
  - apply Ginv_start; auto.
  - intros t T. right. apply start_involved. auto.
  - intros a1 pid corr r a2 E. destruct a1; discriminate.
Qed.

Lemma run_snoc s l i a s' : run s (l ++ [(i, a)]) s' <-> exists m, run s l m /\ gstep m i = (s', a).
Proof.
  rewrite run_app. split; intros (m&A&B); exists m; split; auto.
  - inversion B; subst. inversion H5; subst. auto.
  - econstructor; eauto. constructor.
Qed.

Lemma involved_known l : forall s, run g_init l s -> forall t, In t (g_involved s) -> knows l t.
Proof.
  induction l as [|[i a] l IH] using rev_ind; intros s R t T.
  - inversion R; subst. simpl in T. tauto.
  - apply run_snoc in R as (m&R&H). destruct (told_step _ _ _ _ _ R H) as [K _].
    destruct (K t T) as [A|[A N]].
    + exists l, i, a, []. auto.
    + destruct (IH m R t A) as (l1&j&b&l2&->&X&Y). exists l1, j, b, (l2 ++ [(i, a)]). split; [rewrite <- app_assoc; auto|].
      split; auto. intros j' c W. apply in_app_iff in W as [W|[W|[]]]; eauto. injection W as <- <-. auto.
Qed.

Lemma aware_told l s i a1 g : run g_init l s -> aware (fun t => In t (g_involved s) /\ ~ settles t i) a1 g -> told g (l ++ [(i, a1)]).
Proof.
  intros R (b&[A|[A N]]).
  - exists b, l, i, a1, []. auto.
  - destruct (involved_known l s R _ A) as (l1&j&c&l2&->&X&Y). exists b, l1, j, c, (l2 ++ [(i, a1)]).
    split; [rewrite <- app_assoc; auto|]. split; auto.
    intros j' c' W. apply in_app_iff in W as [W|[W|[]]]; eauto. injection W as <- <-. auto.
Qed.

Lemma told_before_reply_enqueue l i a1 pid corr id a2 s q g c av n :
  run g_init (l ++ [(i, a1 ++ Sent pid corr (REnqueue true id) :: a2)]) s ->
  (forall e, In (Applied corr e) (trace l ++ a1) -> e = (Enqueue q id g c av n, Done)) -> g <> 0 ->
  told g (l ++ [(i, a1)]).
Proof.
  intros R U N. apply run_snoc in R as (m&R&H). destruct (told_step _ _ _ _ _ R H) as [_ T].
  destruct (T a1 pid corr _ a2 eq_refl) as (q'&g'&c'&av'&n'&A&B). apply U in A. injection A as -> -> -> -> ->.
  destruct B as [B|B]; [tauto|]. eapply aware_told; eauto.
Qed.

Lemma told_before_reply_dequeue l i a1 pid corr x a2 s q sel g :
  run g_init (l ++ [(i, a1 ++ Sent pid corr (RDequeue (Some x)) :: a2)]) s ->
  (forall o r, In (Applied corr (o, r)) (trace l ++ a1) -> exists n, o = Dequeue q sel g n) -> g <> 0 ->
  told g (l ++ [(i, a1)]).
Proof.
  intros R U N. apply run_snoc in R as (m&R&H). destruct (told_step _ _ _ _ _ R H) as [_ T].
  destruct (T a1 pid corr _ a2 eq_refl) as (q'&sel'&g'&n'&A&B). apply U in A as [n2 A]. injection A as -> -> -> ->.
  destruct B as [B|B]; [tauto|]. eapply aware_told; eauto.
Qed.

(* ------------------------------------------------------------ waiting requests are accounted for *)

Lemma count_app {A} (p : A -> bool) l l' : count p (l ++ l') = (count p l + count p l')%nat.
Proof. unfold count. rewrite filter_app, app_length. auto. Qed.

Lemma count_perm {A} (p : A -> bool) l l' : Permutation l l' -> count p l = count p l'.
Proof. intros H. unfold count. apply Permutation_length, perm_filter. auto. Qed.

Lemma count_cons {A} (p : A -> bool) x l : count p (x :: l) = ((if p x then 1 else 0) + count p l)%nat.
Proof. unfold count. simpl. destruct (p x); auto. Qed.

Lemma count_split {A} (p q : A -> bool) l :
  count p l = (count p (filter q l) + count p (filter (fun a => negb (q a)) l))%nat.
Proof.
  induction l as [|x l IH]; [reflexivity|]. cbn [filter]. rewrite count_cons, IH.
  destruct (q x); cbn [negb]; rewrite count_cons; lia.
Qed.

Lemma count_nil {A} (p : A -> bool) : count p [] = 0%nat.
Proof. auto. Qed.

Definition P (corr : Z) (s : gstate) : nat := count (waits corr) (g_pend s).
Definition D (corr : Z) (a : list action) : nat := count (answers corr) a.
Definition X (corr : Z) (a : list action) : nat := count (gives_up corr) a.

Lemma timer_set_pend a n s : g_pend (timer_set a n s) = g_pend s.
Proof. unfold timer_set. destruct (_ <=? _); auto. Qed.

Lemma involve_pend t s : g_pend (fst (involve t s)) = g_pend s.
Proof. unfold involve. destruct (existsb _ _); auto. Qed.

Lemma involve_acts corr t s : D corr (snd (involve t s)) = 0%nat /\ X corr (snd (involve t s)) = 0%nat.
Proof. unfold involve. destruct (existsb _ _); auto. Qed.

Lemma dequeue_account corr now r s s' a b :
  dequeue_handle now r s = (s', a, b) ->
  (P corr s' + D corr a = P corr s + (if waits corr r then 1 else 0) /\ X corr a = 0)%nat.
Proof.
  unfold dequeue_handle, apply_op, P, D, X.
  destruct (step (g_db s) _) as [d' o] eqn:E.
  destruct o as [| |[m|]| | |]; try (simpl in E; destruct (qb_dequeue _ _ _ _ _); discriminate E).
  - destruct (fst (dr_trid r) =? 0).
    + intros H. injection H as <- <- _. simpl. unfold count. simpl. unfold waits. rewrite Z.eqb_sym.
      destruct (corr =? dr_corr r) eqn:C; rewrite ?C; simpl; split; lia.
    + destruct (involve (dr_trid r) (w_db d' s)) as [s2 a2] eqn:V. intros H. injection H as <- <- _.
      pose proof (involve_pend (dr_trid r) (w_db d' s)) as IP. pose proof (involve_acts corr (dr_trid r) (w_db d' s)) as IA.
      rewrite V in *. simpl in IP, IA. unfold D, X in IA. destruct IA as [IA1 IA2]. rewrite IP.
      change (Applied ?c ?e :: ?l) with ([Applied c e] ++ l) . rewrite !count_app, IA1, IA2. unfold count. simpl. unfold waits. rewrite Z.eqb_sym.
      destruct (corr =? dr_corr r) eqn:C; rewrite ?C; simpl; split; lia.
  - destruct (dr_block r).
    + intros H. injection H as <- <- _. cbn [w_pend g_pend].
      assert (EP : forall (x : option Z), g_pend (match x with Some a => match g_timer (w_db d' s) with Some t => if a <? t then timer_set a now (w_db d' s) else w_db d' s | None => timer_set a now (w_db d' s) end | None => w_db d' s end) = g_pend s).
      { intros [a|]; auto. destruct (g_timer _); [destruct (_ <? _)|]; rewrite ?timer_set_pend; auto. }
      rewrite EP, count_app. unfold count. simpl. destruct (waits corr r); simpl; split; lia.
    + intros H. injection H as <- <- _. unfold count. simpl. unfold waits. rewrite Z.eqb_sym.
      destruct (corr =? dr_corr r) eqn:C; rewrite ?C; simpl; split; lia.
Qed.

Lemma exec_account corr now l : forall s acts c s' acts' c' f b,
  exec (reached now) (s, acts, c) l = ((s', acts', c'), f, b) ->
  (P corr s' + D corr acts' + count (waits corr) f = P corr s + D corr acts + count (waits corr) l /\ X corr acts' = X corr acts)%nat.
Proof.
  induction l as [|r l IH]; intros s acts c s' acts' c' f b H.
  - simpl in H. injection H as <- <- <- <- <-. rewrite count_nil. auto.
  - cbn [exec] in H. unfold reached at 1 in H. destruct (c <? 1) eqn:C.
    + destruct (exec (reached now) (s, acts, c) l) as [[st f1] b1] eqn:R. destruct st as [[s1 a1] c1].
      injection H as <- <- <- <- <-. apply IH in R. rewrite !count_cons. lia.
    + destruct (dequeue_handle now r s) as [[s1 a] bb] eqn:Q.
      destruct (exec (reached now) (s1, acts ++ a, if bb then c - 1 else c) l) as [[st f1] b1] eqn:R. destruct st as [[s2 a2] c2].
      injection H as <- <- <- <- <-. apply IH in R. apply (dequeue_account corr) in Q.
      unfold D, X in *. rewrite !count_app in R. rewrite count_cons. lia.
Qed.

Lemma serve_account corr now avs : forall s acts cur s' acts' cur',
  (forall r, In r cur -> exists av, In av avs /\ av_queue av = dr_queue r) ->
  fold_left (serve_queue now) avs (s, acts, cur) = (s', acts', cur') ->
  (cur' = [] /\ P corr s' + D corr acts' = P corr s + D corr acts + count (waits corr) cur /\ X corr acts' = X corr acts)%nat.
Proof.
  induction avs as [|av avs IH]; intros s acts cur s' acts' cur' Q H.
  - simpl in H. injection H as <- <- <-. destruct cur as [|r cur].
    + rewrite count_nil. auto.
    + destruct (Q r (or_introl eq_refl)) as (x&[]&_).
  - cbn [fold_left] in H. unfold serve_queue at 2 in H.
    destruct (partition_pure _ cur) as [mine rest] eqn:PP. apply partition_pure_perm in PP as [P1 P2].
    destruct (partition_st (reached now) (s, acts, av_count av) mine) as [[st kept] gone] eqn:R.
    destruct st as [[s1 acts1] c1]. apply partition_st_exec in R as (l'&f'&b'&PL&R&PF&_).
    apply (exec_account corr) in R. apply IH in H.
    + destruct H as (H0&H1&H2). split; auto.
      unfold P in *. cbn [w_pend g_pend] in H1. rewrite count_app, (count_perm _ _ _ PF) in H1.
      rewrite (count_perm _ _ _ PL), (count_perm _ _ _ P1) in R. rewrite (count_perm _ _ _ P2) in H1.
      assert (SP : count (waits corr) cur = (count (waits corr) (filter (fun r => (av_queue av =? dr_queue r)%Z) cur)
                   + count (waits corr) (filter (fun a => negb (av_queue av =? dr_queue a)%Z) cur))%nat).
      { apply count_split. }
      lia.
    + intros r Hr. apply (Permutation_in _ P2) in Hr. apply filter_In in Hr as [Hr N].
      destruct (Q r Hr) as (x&[<-|Hx]&E); eauto. exfalso. rewrite E, Z.eqb_refl in N. discriminate.
Qed.

Lemma timer_unset_pend s : g_pend (timer_unset s) = g_pend s.
Proof. auto. Qed.

Lemma sweep_account corr now s s' a : sweep now s = (s', a) -> (P corr s' + D corr a = P corr s /\ X corr a = 0)%nat.
Proof.
  unfold sweep. destruct (g_pend s) as [|r0 l0] eqn:G.
  - intros H. injection H as <- <-. unfold P, D, X. rewrite G. simpl. auto.
  - rewrite <- G. clear G r0 l0.
    set (avs := availables _ _). set (passed := filter (fun a => av_when a <=? now) avs).
    destruct (partition_pure _ (g_pend s)) as [stay reqs] eqn:PP. apply partition_pure_perm in PP as [P1 P2].
    destruct (fold_left (serve_queue now) passed (w_pend stay s, [], reqs)) as [[s1 acts] cur] eqn:F.
    apply (serve_account corr) in F.
    2:{ intros r Hr. apply (Permutation_in _ P2) in Hr. apply filter_In in Hr as [_ Hr]. rewrite negb_involutive in Hr.
        apply existsb_exists in Hr as (av&A&B). apply Z.eqb_eq in B. eauto. }
    destruct F as (_&F1&F2).
    assert (SP : (count (waits corr) stay + count (waits corr) reqs = P corr s)%nat).
    { rewrite (count_perm _ _ _ P1), (count_perm _ _ _ P2). unfold P. symmetry. apply count_split. }
    assert (R : (P corr s1 + D corr acts = P corr s /\ X corr acts = 0)%nat).
    { change (P corr (w_pend stay s)) with (count (waits corr) stay) in F1. change (D corr []) with 0%nat in F1.
      change (X corr []) with 0%nat in F2. lia. }
    destruct (min_when _); intros H; injection H as <- <-; unfold P in *; rewrite ?timer_set_pend, ?timer_unset_pend; auto.
Qed.

Lemma replies_acts corr l : (forall p c r, In (p, c, r) l -> deferred r) ->
  D corr (map (fun x => Sent (fst (fst x)) (snd (fst x)) (snd x)) l) = 0%nat /\ X corr (map (fun x => Sent (fst (fst x)) (snd (fst x)) (snd x)) l) = 0%nat.
Proof.
  induction l as [|[[p c] r] l IH]; intros H; [auto|]. destruct IH as [I1 I2]; [intros; eapply H; simpl; eauto|].
  unfold D, X in *. cbn [map]. rewrite !count_cons, I1, I2. specialize (H p c r (or_introl eq_refl)).
  destruct r; simpl in *; try tauto; auto.
Qed.

Lemma handle_persist_account corr now s s' a :
  (forall p c r, In (p, c, r) (g_replies s) -> deferred r) ->
  handle_persist now s = (s', a) -> (P corr s' + D corr a = P corr s /\ X corr a = 0)%nat.
Proof.
  intros DF. unfold handle_persist. destruct (g_replies s) as [|x rs] eqn:G; [apply sweep_account|].
  cbn [persist_db]. destruct (sweep now _) as [s2 a3] eqn:W. intros H. injection H as <- <-.
  apply (sweep_account corr) in W. pose proof (replies_acts corr _ DF) as [R1 R2].
  unfold P, D, X in *. rewrite count_cons. cbn [app]. 
  change (Sent (fst (fst x)) (snd (fst x)) (snd x) :: map ?f rs ++ a3) with (map f (x :: rs) ++ a3).
  rewrite !count_cons, !count_app, R1, R2. simpl in *. lia.
Qed.

Lemma persistent_reply_account corr now pid c r s s' a :
  deferred r -> (forall p c r, In (p, c, r) (g_replies s) -> deferred r) ->
  persistent_reply now pid c r s = (s', a) -> (P corr s' + D corr a = P corr s /\ X corr a = 0)%nat.
Proof.
  intros DR DF. unfold persistent_reply. destruct (Nat.leb _ _).
  - intros H. apply (handle_persist_account corr) in H; [exact H|]. simpl. intros p c' r' Y.
    apply in_app_iff in Y as [Y|[Y|[]]]; [eapply DF; eauto|]. injection Y as <- <- <-. auto.
  - intros H. injection H as <- <-. simpl. unfold P, D, X. simpl. rewrite !count_nil. auto.
Qed.

Lemma apply_ops_account corr c os : forall s s1 a ns, apply_ops c os s = (s1, a, ns) ->
  P corr s1 = P corr s /\ D corr a = 0%nat /\ X corr a = 0%nat.
Proof.
  induction os as [|o os IH]; intros s s1 a ns H; simpl in H.
  - injection H as <- <- _. auto.
  - unfold apply_op in H. destruct (step (g_db s) o) as [d' r].
    destruct (apply_ops c os (w_db d' s)) as [[s2 a2] n2] eqn:R. injection H as <- <- _.
    apply IH in R. destruct R as (R1&R2&R3). unfold P, D, X in *. cbn [app]. rewrite !count_cons, R1, R2, R3. auto.
Qed.

Lemma tick_pend now s : g_pend (tick now s) = g_pend s.
Proof. unfold tick. destruct (g_timer s); [destruct (_ <=? _)|]; auto. Qed.
Lemma tick_replies now s : g_replies (tick now s) = g_replies s.
Proof. unfold tick. destruct (g_timer s); [destruct (_ <=? _)|]; auto. Qed.
Lemma tick_db now s : g_db (tick now s) = g_db s.
Proof. unfold tick. destruct (g_timer s); [destruct (_ <=? _)|]; auto. Qed.

Lemma drops_acts corr l : D corr (map (fun r => Dropped (dr_corr r)) l) = 0%nat /\
  X corr (map (fun r => Dropped (dr_corr r)) l) = count (waits corr) l.
Proof.
  induction l as [|r l [I1 I2]]; [auto|]. unfold D, X in *. cbn [map]. rewrite !count_cons, I1, I2. auto.
Qed.

Lemma remove_first_count corr c l l' : remove_first c l = Some l' ->
  count (waits corr) l = ((if (c =? corr)%Z then 1 else 0) + count (waits corr) l')%nat.
Proof.
  revert l'. induction l as [|r l IH]; simpl; intros l' H; [discriminate|].
  destruct (Z.eqb_spec (dr_corr r) c).
  - injection H as <-. rewrite count_cons. unfold waits at 1. subst c. auto.
  - destruct (remove_first c l) as [l2|] eqn:R; [|discriminate]. injection H as <-.
    rewrite !count_cons, (IH l2 eq_refl). lia.
Qed.

Lemma apply_nil {A} (x : A) : [x] = x :: []. Proof. auto. Qed.

Lemma step_account corr s i s' a :
  (forall p c r, In (p, c, r) (g_replies s) -> deferred r) -> gstep s i = (s', a) ->
  (P corr s' + D corr a + X corr a = P corr s + (if asks corr i then 1 else 0))%nat.
Proof.
  intros DF. destruct i; cbn [gstep asks]; intros H.
  - unfold on_configure, apply_op in H. cbn [persist_db] in H. destruct (step _ (Configure ws)) as [d' r].
    destruct r; injection H as <- <-; unfold P, D, X, count; simpl; lia.
  - unfold on_enqueue in H. rewrite <- (tick_replies now) in DF. unfold P. rewrite <- (tick_pend now s).
    change (count (waits corr) (g_pend (tick now s))) with (P corr (tick now s)). fold (P corr s').
    set (s0 := tick now s) in *. clearbody s0. clear s.
    destruct (negb _). { injection H as <- <-. unfold D, X, count; simpl; lia. }
    destruct (resolve _ _). 2:{ injection H as <- <-. unfold D, X, count; simpl; lia. }
    unfold apply_op in H. destruct (step _ _) as [d' r].
    destruct r; try (injection H as <- <-; unfold P, D, X, count; simpl; lia).
    destruct (fst t =? 0).
    + destruct (persistent_reply _ _ _ _ _) as [s3 a3] eqn:R. injection H as <- <-.
      apply (persistent_reply_account corr) in R; [|exact Logic.I|exact DF].
      unfold P, D, X in *. cbn [app]. rewrite !count_cons. simpl in *. lia.
    + match type of H with (let '(_, _) := involve t ?s2 in _) = _ => set (s2' := s2) in * end.
      pose proof (involve_pend t s2') as IP. pose proof (involve_acts corr t s2') as [IA1 IA2].
      destruct (involve t s2') as [s3 a3]. injection H as <- <-. simpl in IP, IA1, IA2.
      unfold P, D, X in *. cbn [app]. rewrite !count_cons, !count_app, IA1, IA2, IP. unfold count. simpl. lia.
  - unfold on_dequeue in H. unfold P. rewrite <- (tick_pend now s).
    change (count (waits corr) (g_pend (tick now s))) with (P corr (tick now s)). fold (P corr s').
    destruct (resolve _ _).
    + destruct (dequeue_handle _ _ _) as [[s1 a1] b] eqn:Q. simpl in H. injection H as <- <-.
      apply (dequeue_account corr) in Q. unfold waits in Q. simpl in Q. lia.
    + injection H as <- <-. unfold D, X, count. simpl. destruct (corr0 =? corr); simpl; lia.
  - unfold on_forget in H. destruct (remove_first corr0 (g_pend s)) eqn:R; injection H as <- <-.
    + apply (remove_first_count corr) in R. unfold P, D, X. rewrite R. unfold count. simpl. destruct (corr0 =? corr); simpl; lia.
    + unfold P, D, X, count. simpl. lia.
  - unfold apply_op in H. destruct (step _ _) as [d' r]. injection H as <- <-. unfold P, D, X, count. simpl. lia.
  - unfold on_commit, apply_op in H. rewrite <- (tick_replies now) in DF. unfold P. rewrite <- (tick_pend now s).
    change (count (waits corr) (g_pend (tick now s))) with (P corr (tick now s)). fold (P corr s').
    set (s0 := tick now s) in *. clearbody s0. clear s.
    destruct (step _ _) as [d' r]. destruct r;
      (destruct (persistent_reply _ _ _ _ _) as [s2 a2] eqn:R; injection H as <- <-;
       apply (persistent_reply_account corr) in R; [|exact Logic.I|exact DF];
       unfold P, D, X in *; cbn [app]; rewrite !count_cons; simpl in *; lia).
  - injection H as <- <-. unfold P, D, X, count. simpl. lia.
  - unfold on_rollback, apply_op in H. rewrite <- (tick_replies now) in DF. unfold P. rewrite <- (tick_pend now s).
    change (count (waits corr) (g_pend (tick now s))) with (P corr (tick now s)). fold (P corr s').
    set (s0 := tick now s) in *. clearbody s0. clear s.
    destruct (step _ _) as [d' r]. destruct r;
      (destruct (persistent_reply _ _ _ _ _) as [s2 a2] eqn:R; injection H as <- <-;
       apply (persistent_reply_account corr) in R; [|exact Logic.I|exact DF];
       unfold P, D, X in *; cbn [app]; rewrite !count_cons; simpl in *; lia).
  - unfold on_recovery, apply_op in H. destruct (step _ _) as [d' r]. destruct r; injection H as <- <-; unfold P, D, X, count; simpl; lia.
  - unfold on_restore in H. destruct (apply_ops corr0 (map Restore qs) (tick now s)) as [[s1 a1] ns] eqn:A. cbn [persist_db] in H.
    destruct (sweep now _) as [s3 a3] eqn:W. injection H as <- <-.
    apply (apply_ops_account corr) in A as (A1&A2&A3). apply (sweep_account corr) in W.
    unfold P, D, X in *. rewrite tick_pend in A1. cbn [app]. rewrite !count_app, !count_cons, !count_app, A2, A3. simpl in *. rewrite A1 in W. rewrite !count_cons, !count_nil. simpl. lia.
  - unfold on_clear in H. destruct (apply_ops corr0 (map Clear qs) s) as [[s1 a1] ns] eqn:A.
    injection H as <- <-. apply (apply_ops_account corr) in A as (A1&A2&A3).
    unfold P, D, X in *. rewrite !count_app, A2, A3. simpl. rewrite A1. unfold count. simpl. lia.
  - unfold on_remove, apply_op in H. destruct (step _ _) as [d' r]. injection H as <- <-. unfold P, D, X, count. simpl. lia.
  - unfold apply_op in H. destruct (step _ _) as [d' r]. injection H as <- <-. unfold P, D, X, count. simpl. lia.
  - cbn [g_replies w_timer] in H. destruct (g_replies (tick now s)).
    + apply (sweep_account corr) in H. unfold P in *. simpl in H. rewrite tick_pend in H. lia.
    + injection H as <- <-. unfold P, D, X, count. simpl. rewrite tick_pend. lia.
  - unfold on_exit in H. injection H as <- <-. destruct (drops_acts corr (filter (fun r => dr_pid r =? pid) (g_pend s))) as [A1 A2].
    rewrite A1, A2. unfold P. cbn [g_pend w_pend w_replies].
    rewrite (count_split (waits corr) (fun r => dr_pid r =? pid) (g_pend s)). lia.
  - apply (handle_persist_account corr) in H; [|rewrite tick_replies; auto]. unfold P in *. rewrite tick_pend in H. lia.
  - unfold on_shutdown in H. destruct (handle_persist now (tick now s)) as [s1 a1] eqn:R. injection H as <- <-.
    apply (handle_persist_account corr) in R; [|rewrite tick_replies; auto]. unfold P, D, X in *. rewrite tick_pend in R. simpl.
    rewrite !count_app.
    assert (F : forall l, count (answers corr) (flat_map (fun r => [Dropped (dr_corr r); Sent (dr_pid r) (dr_corr r) RForgetRequest]) l) = 0%nat /\
              count (gives_up corr) (flat_map (fun r => [Dropped (dr_corr r); Sent (dr_pid r) (dr_corr r) RForgetRequest]) l) = count (waits corr) l).
    { induction l as [|r l [I1 I2]]; [auto|]. cbn [flat_map app]. rewrite !count_cons, I1, I2. simpl. unfold waits. auto. }
    destruct (F (g_pend s1)) as [F1 F2]. rewrite F1, F2. cbn. lia.
  - unfold on_crash in H. injection H as <- <-. destruct (drops_acts corr (g_pend s)) as [A1 A2].
    unfold P, D, X in *. rewrite !count_app, A1, A2. unfold count at 1 2 4. simpl. lia.
Qed.

Lemma accounted_run corr l s : run g_init l s ->
  count (asks corr) (map fst l) =
  (count (answers corr) (trace l) + count (gives_up corr) (trace l) + count (waits corr) (g_pend s))%nat.
Proof.
  revert s. induction l as [|[i a] l IH] using rev_ind; intros s R.
  - inversion R; subst. auto.
  - apply run_snoc in R as (m&R&H). pose proof (IH m R) as E.
    apply (step_account corr) in H; [|apply (gi_deferred _ _ (Ginv_run l m R))].
    rewrite map_app, trace_app, !count_app, E. unfold P, D, X in H.
    assert (TA : trace [(i, a)] = a) by (unfold trace; simpl; apply app_nil_r). rewrite TA. cbn [map fst]. rewrite count_cons, count_nil. lia.
Qed.

(* Waiting dequeue requests are served. *)
From Coq Require Import ZArith List String Bool Lia Permutation.
From Verif Require Import QueueModel QueueSpec QueueProofs QueueHistory QueueLemmas QueueExact GroupModel GroupSpec GroupProofs GroupLemmas.
Import ListNotations.
Local Open Scope Z_scope.

Definition shrinks (d d' : db) : Prop := forall m, In m (msgs d') -> m_state m = 2 -> In m (msgs d).

Lemma shrinks_refl d : shrinks d d.
Proof. intros m H _. auto. Qed.
Lemma shrinks_trans a b c : shrinks a b -> shrinks b c -> shrinks a c.
Proof. intros H K m A B. auto. Qed.

Definition untaken (q : Z) (m : msg) : bool := (m_queue m =? q) && (m_state m =? 2).
Definition nq2 (q : Z) (d : db) : Z := Z.of_nat (count (untaken q) (msgs d)).

Definition sat (now : Z) (d : db) (r : dreq) : Prop :=
  forall m, In m (msgs d) -> wants r m -> ~ deliverable (dr_queue r) now m.

Lemma sat_shrinks now d d' r : shrinks d d' -> sat now d r -> sat now d' r.
Proof. intros S H m M W DL. destruct DL as (A&B&C). apply (H m (S m M B) W). split; auto. Qed.

Lemma count_le_delete {A} (p q : A -> bool) l : (count p (filter q l) <= count p l)%nat.
Proof. rewrite (count_split p q l). lia. Qed.

Lemma dequeue_shrinks q s t n d d' r : qb_dequeue q s t n d = (d', r) -> shrinks d d' /\
  (forall k, nq2 k d' <= nq2 k d) /\
  (forall m, r = Some m -> nq2 q d' <= nq2 q d - 1).
Proof.
  unfold qb_dequeue. destruct (qb_fetch q s n d) as [m|] eqn:F.
  - apply fetch_in in F as F0. destruct F0 as (IN&ST&QU).
    destruct (t =? 0); intros H; injection H as <- <-.
    + split; [|split].
      * intros x X _. simpl in X. apply filter_In in X. tauto.
      * intros k. unfold nq2. simpl. apply inj_le. apply count_le_delete.
      * intros x _. unfold nq2. simpl. rewrite (count_split (untaken q) (fun r => m_id r =? m_id m) (msgs d)).
        assert (1 <= count (untaken q) (filter (fun r => (m_id r =? m_id m)%Z) (msgs d)))%nat; [|lia].
        assert (I2 : In m (filter (untaken q) (filter (fun r => (m_id r =? m_id m)%Z) (msgs d)))).
        { apply filter_In. split; [apply filter_In; split; [auto|apply Z.eqb_refl]|]. unfold untaken. rewrite QU, ST, Z.eqb_refl. auto. }
        unfold count. destruct (filter (untaken q) _); [destruct I2|simpl; lia].
    + assert (CNT : forall k, (count (untaken k) (map (fun r => if (m_id r =? m_id m)%Z then set_taken t r else r) (msgs d)) +
                     count (untaken k) (filter (fun r => (m_id r =? m_id m)%Z) (msgs d)) = count (untaken k) (msgs d))%nat).
      { intros k. clear. induction (msgs d) as [|x l IH]; [auto|]. cbn [map filter]. destruct (m_id x =? m_id m)%Z; rewrite !count_cons.
        - assert (U : untaken k (set_taken t x) = false) by (unfold untaken; simpl; apply andb_false_r). rewrite U. lia.
        - lia. }
      split; [|split].
      * intros x X S2. simpl in X. apply in_map_iff in X as (y&E&Y). destruct (m_id y =? m_id m); [subst x; simpl in S2; discriminate|subst; auto].
      * intros k. unfold nq2. simpl. specialize (CNT k). lia.
      * intros x _. unfold nq2. simpl. specialize (CNT q).
        assert (1 <= count (untaken q) (filter (fun r => (m_id r =? m_id m)%Z) (msgs d)))%nat; [|lia].
        assert (I2 : In m (filter (untaken q) (filter (fun r => (m_id r =? m_id m)%Z) (msgs d)))).
        { apply filter_In. split; [apply filter_In; split; [auto|apply Z.eqb_refl]|]. unfold untaken. rewrite QU, ST, Z.eqb_refl. auto. }
        unfold count. destruct (filter (untaken q) _); [destruct I2|simpl; lia].
  - intros H. injection H as <- <-. split; [apply shrinks_refl|]. split; [intros; lia|discriminate].
Qed.

Lemma dequeue_none_sat q s t n d d' :
  step d (Dequeue q s t n) = (d', GotMessage None) ->
  forall m, In m (msgs d) -> m_queue m = q ->
  match sel_id s with Some i => m_id m = i | None => sel_props s = ""%string \/ c_props (m_content m) = sel_props s end ->
  ~ deliverable q n m.
Proof.
  destruct s as [i p]. simpl. destruct i as [i|]; intros H m M Q W.
  - apply step_by_id in H. intros (A&B&C). exact (H m M W Q B).
  - destruct (string_dec p "") as [->|N].
    + apply step_fifo in H. auto.
    + apply step_by_properties in H; auto. intros DL. destruct W as [W|W]; [auto|]. exact (H m M DL W).
Qed.

Lemma handle_effect now r s s' a b :
  Inv (g_db s) -> dr_block r = true -> dequeue_handle now r s = (s', a, b) ->
  Inv (g_db s') /\ shrinks (g_db s) (g_db s') /\ (forall k, nq2 k (g_db s') <= nq2 k (g_db s)) /\
  if b then g_pend s' = g_pend s /\ nq2 (dr_queue r) (g_db s') <= nq2 (dr_queue r) (g_db s) - 1
  else g_pend s' = g_pend s ++ [r] /\ sat now (g_db s') r.
Proof.
  intros I B. unfold dequeue_handle, apply_op.
  destruct (step (g_db s) (Dequeue (dr_queue r) (dr_sel r) (fst (dr_trid r)) now)) as [d' o] eqn:E.
  assert (I' : Inv d') by (eapply Inv_step; eauto).
  pose proof E as E0. cbn [step] in E0. destruct (qb_dequeue (dr_queue r) (dr_sel r) (fst (dr_trid r)) now (g_db s)) as [d1 x] eqn:Q.
  injection E0 as -> <-. destruct (dequeue_shrinks _ _ _ _ _ _ _ Q) as (S1&S2&S3).
  destruct x as [m|].
  - destruct (fst (dr_trid r) =? 0).
    + intros H. injection H as <- <- <-. cbn [w_size w_db g_db g_pend]. split; [auto|split; [auto|split; [auto|split; [auto|eapply S3; reflexivity]]]].
    + destruct (involve (dr_trid r) (w_db d' s)) as [s2 a2] eqn:V. intros H. injection H as <- <- <-.
      assert (F : g_db s2 = d' /\ g_pend s2 = g_pend s).
      { unfold involve in V. destruct (existsb _ _); injection V as <- _; auto. }
      destruct F as [-> ->]. split; [auto|split; [auto|split; [auto|split; [auto|eapply S3; reflexivity]]]].
  - rewrite B. intros H. injection H as <- <- <-.
    assert (EP : forall (x : option Z), let z := (match x with Some a => match g_timer (w_db d' s) with Some t => if a <? t then timer_set a now (w_db d' s) else w_db d' s | None => timer_set a now (w_db d' s) end | None => w_db d' s end) in g_pend z = g_pend s /\ g_db z = d').
    { intros [y|]; simpl; auto. unfold timer_set. destruct (g_timer s); [destruct (_ <? _)|]; try destruct (_ <=? _); auto. }
    destruct (EP (qb_available (dr_queue r) (g_db (w_db d' s)))) as [EP1 EP2].
    cbn [w_pend w_db g_db g_pend g_timer] in *. rewrite EP1, EP2. split; auto. split; auto. split; auto. split; auto.
    intros m M W. assert (D : d' = g_db s).
    { unfold qb_dequeue in Q. destruct (qb_fetch _ _ _ _); [destruct (_ =? 0); discriminate|]. injection Q as ->. auto. }
    subst d'. destruct W as [W1 W2]. eapply dequeue_none_sat; eauto.
Qed.

Lemma nq2_zero_sat now d r : nq2 (dr_queue r) d < 1 -> sat now d r.
Proof.
  intros H m M W (A&B&C). unfold nq2 in H.
  assert (I2 : In m (filter (untaken (dr_queue r)) (msgs d))).
  { apply filter_In. split; auto. unfold untaken. rewrite A, B, Z.eqb_refl. auto. }
  unfold count in H. destruct (filter _ _); [destruct I2|simpl in H; lia].
Qed.

Lemma exec_effect now q l : forall s acts c s' acts' c' f b,
  (forall r, In r l -> dr_queue r = q /\ dr_block r = true) -> Inv (g_db s) -> nq2 q (g_db s) <= c ->
  exec (reached now) (s, acts, c) l = ((s', acts', c'), f, b) ->
  Inv (g_db s') /\ shrinks (g_db s) (g_db s') /\ (forall k, nq2 k (g_db s') <= nq2 k (g_db s)) /\ nq2 q (g_db s') <= c' /\ c' <= c /\
  (exists e, g_pend s' = g_pend s ++ e /\ forall r, In r e -> sat now (g_db s') r) /\
  (forall r, In r f -> In r l /\ c' < 1).
Proof.
  induction l as [|r l IH]; intros s acts c s' acts' c' f b Q I N H.
  - simpl in H. injection H as <- <- <- <- <-. split; auto. split; [apply shrinks_refl|]. split; [intros; lia|].
    split; auto. split; [lia|]. split; [exists []; rewrite app_nil_r; simpl; tauto|simpl; tauto].
  - destruct (Q r (or_introl eq_refl)) as [Q1 Q2].
    cbn [exec] in H. unfold reached at 1 in H. destruct (c <? 1) eqn:C.
    + destruct (exec (reached now) (s, acts, c) l) as [[st f1] b1] eqn:R. destruct st as [[s1 a1] c1].
      injection H as <- <- <- <- <-. apply IH in R; auto; [|intros; apply Q; simpl; auto].
      destruct R as (A1&A2&A3&A4&A7&A5&A6). split; auto. split; auto. split; auto. split; auto. split; auto. split; auto.
      intros x [<-|Y]; [|destruct (A6 x Y); simpl; auto].
      split; [simpl; auto|]. apply Z.ltb_lt in C. lia.
    + destruct (dequeue_handle now r s) as [[s1 a] bb] eqn:HD.
      destruct (exec (reached now) (s1, acts ++ a, if bb then c - 1 else c) l) as [[st f1] b1] eqn:R. destruct st as [[s2 a2] c2].
      injection H as <- <- <- <- <-. apply handle_effect in HD; auto. destruct HD as (B1&B2&B3&B4).
      apply IH in R; auto; [|intros; apply Q; simpl; auto|].
      * destruct R as (A1&A2&A3&A4&A7&A5&A6). split; auto. split; [eapply shrinks_trans; eauto|].
        split; [intros k; specialize (A3 k); specialize (B3 k); lia|]. split; auto. split; [destruct bb; lia|].
        split; [|intros x Y; destruct (A6 x Y); simpl; auto].
        destruct A5 as (e&E1&E2). destruct bb.
        -- exists e. destruct B4 as [B4 _]. rewrite <- B4. auto.
        -- exists (r :: e). destruct B4 as [B4 B5]. rewrite E1, B4, <- app_assoc. split; auto.
           intros x [<-|Y]; auto. eapply sat_shrinks; eauto.
      * destruct bb; rewrite <- Q1 in *; [lia|]. specialize (B3 (dr_queue r)). lia.
Qed.

Lemma serve_effect now avs : forall s acts cur s' acts' cur',
  NoDup (map av_queue avs) ->
  (forall r, In r cur -> dr_block r = true) -> Inv (g_db s) ->
  (forall av, In av avs -> nq2 (av_queue av) (g_db s) <= av_count av) ->
  (forall r, In r (g_pend s) -> sat now (g_db s) r) ->
  fold_left (serve_queue now) avs (s, acts, cur) = (s', acts', cur') ->
  Inv (g_db s') /\ shrinks (g_db s) (g_db s') /\ (forall r, In r (g_pend s') -> sat now (g_db s') r).
Proof.
  induction avs as [|av avs IH]; intros s acts cur s' acts' cur' ND B I N S H.
  - simpl in H. injection H as <- <- <-. split; auto. split; [apply shrinks_refl|auto].
  - cbn [fold_left] in H. unfold serve_queue at 2 in H.
    destruct (partition_pure _ cur) as [mine rest] eqn:PP. apply partition_pure_perm in PP as [P1 P2].
    destruct (partition_st (reached now) (s, acts, av_count av) mine) as [[st kept] gone] eqn:R.
    destruct st as [[s1 acts1] c1]. apply partition_st_exec in R as (l'&f'&b'&PL&R&PF&_).
    apply (exec_effect now (av_queue av)) in R.
    + destruct R as (A1&A2&A3&A4&A7&(e&E1&E2)&A6).
      assert (SH : forall r, In r (g_pend s ++ e ++ kept) -> sat now (g_db s1) r).
      { intros r Hr. apply in_app_iff in Hr as [Hr|Hr]; [eapply sat_shrinks; eauto|].
        apply in_app_iff in Hr as [Hr|Hr]; [auto|]. apply (Permutation_in _ PF) in Hr. apply A6 in Hr as [Hr C].
        apply (Permutation_in _ PL) in Hr. apply (Permutation_in _ P1) in Hr. apply filter_In in Hr as [_ Hr].
        apply Z.eqb_eq in Hr. apply nq2_zero_sat. rewrite <- Hr. lia. }
      inversion ND as [|? ? ND1 ND2]; subst. apply IH in H; auto.
      * destruct H as (H1&H2&H3). split; auto. split; auto. eapply shrinks_trans; eauto.
      * intros r Hr. apply B. apply (Permutation_in _ P2) in Hr. apply filter_In in Hr. tauto.
      * intros av' X. specialize (N av' (or_intror X)). specialize (A3 (av_queue av')). simpl. lia.
      * cbn [w_pend g_pend g_db]. rewrite E1, <- app_assoc. auto.
    + intros r Hr. apply (Permutation_in _ PL) in Hr. apply (Permutation_in _ P1) in Hr. apply filter_In in Hr as [Hr E].
      apply Z.eqb_eq in E. auto.
    + auto.
    + apply N. simpl. auto.
Qed.

Lemma qb_available_min q d m : In m (msgs d) -> m_queue m = q -> m_state m = 2 ->
  exists a, qb_available q d = Some a /\ a <= m_avail m.
Proof.
  unfold qb_available. induction (msgs d) as [|x l IH]; intros M Q S; [destruct M|]. cbn [fold_right].
  destruct M as [->|M].
  - rewrite Q, S, Z.eqb_refl. simpl. destruct (fold_right _ _ l); eexists; split; eauto; lia.
  - destruct (IH M Q S) as (a&E&L). rewrite E. destruct (_ && _); eexists; split; eauto; lia.
Qed.

Lemma qb_available_in q d a : qb_available q d = Some a ->
  exists m, In m (msgs d) /\ m_queue m = q /\ m_state m = 2 /\ m_avail m = a.
Proof.
  unfold qb_available. revert a. induction (msgs d) as [|x l IH]; intros a H; [discriminate|]. cbn [fold_right] in H.
  destruct ((m_queue x =? q) && (m_state x =? 2)) eqn:C.
  - apply andb_true_iff in C as [C1 C2]. apply Z.eqb_eq in C1, C2.
    destruct (fold_right _ _ l) as [b|] eqn:F.
    + injection H as <-. destruct (Z.min_spec (m_avail x) b) as [[_ ->]|[_ ->]]; [exists x; simpl; auto|].
      destruct (IH b eq_refl) as (m&A1&A2). exists m. simpl. auto.
    + injection H as <-. exists x. simpl. auto.
  - destruct (IH a H) as (m&A1&A2). exists m. simpl. auto.
Qed.

Lemma av_nodup ws d : Inv d -> NoDup (map av_queue (availables ws d)).
Proof.
  intros I. unfold availables. rewrite map_map. simpl. apply nodup_map_filter. apply (qo_nodup _ (inv_qs _ I)).
Qed.

Lemma nodup_map_filter' {A B} (f : A -> B) (p : A -> bool) l : NoDup (map f l) -> NoDup (map f (filter p l)).
Proof. apply nodup_map_filter. Qed.

Lemma nq2_le_count d q : Inv d -> In q (queues d) -> nq2 (q_id q) d <= q_count q.
Proof.
  intros I Q. destruct (metrics_exact d q I Q) as [-> _]. unfold nq2. apply inj_le. unfold count, committed_in.
  clear. induction (msgs d) as [|m l IH]; simpl; [lia|]. unfold untaken at 1.
  destruct (m_queue m =? q_id q); simpl; [|lia].
  destruct (Z.eqb_spec (m_state m) 2) as [->|]; simpl; [lia|]. destruct (negb _); simpl; lia.
Qed.

(* a wanted queue with an untaken message shows up among the available *)
Lemma availables_has ws d m q : Inv d -> In m (msgs d) -> m_queue m = q -> m_state m = 2 -> In q ws ->
  exists av, In av (availables ws d) /\ av_queue av = q /\ qb_available q d = Some (av_when av) /\ av_when av <= m_avail m.
Proof.
  intros I M Q S W. pose proof (inv_fk _ I m M) as F. unfold qids in F. apply in_map_iff in F as (row&E&R).
  destruct (qb_available_min q d m M Q S) as (a&A&L).
  exists (mk_av (q_id row) (q_count row) a). simpl. rewrite E, Q. split; [|auto].
  unfold availables. apply in_map_iff. exists row. rewrite E, Q, A. split; auto.
  apply filter_In. split; auto. apply andb_true_iff. split.
  - apply Z.ltb_lt. pose proof (nq2_le_count d row I R) as NC. unfold nq2, count in NC.
    assert (I2 : In m (filter (untaken (q_id row)) (msgs d))).
    { apply filter_In. split; auto. unfold untaken. rewrite E, S, Z.eqb_refl. auto. }
    destruct (filter _ _); [destruct I2|simpl in NC; lia].
  - apply existsb_exists. exists q. split; auto. apply Z.eqb_eq. congruence.
Qed.

Lemma timer_set_db a n s : g_db (timer_set a n s) = g_db s.
Proof. unfold timer_set. destruct (_ <=? _); auto. Qed.

Lemma sweep_effect now s s' a :
  Inv (g_db s) -> (forall r, In r (g_pend s) -> dr_block r = true) -> sweep now s = (s', a) ->
  Inv (g_db s') /\ shrinks (g_db s) (g_db s') /\ (forall r, In r (g_pend s') -> sat now (g_db s') r).
Proof.
  intros I B. unfold sweep. destruct (g_pend s) as [|r0 l0] eqn:G.
  - intros H. injection H as <- <-. rewrite G. split; auto. split; [apply shrinks_refl|simpl; tauto].
  - rewrite <- G in *. clear G r0 l0.
    set (avs := availables _ _). set (passed := filter (fun a => av_when a <=? now) avs).
    destruct (partition_pure _ (g_pend s)) as [stay reqs] eqn:PP. apply partition_pure_perm in PP as [P1 P2].
    destruct (fold_left (serve_queue now) passed (w_pend stay s, [], reqs)) as [[s1 acts] cur] eqn:F.
    apply serve_effect in F; auto.
    + destruct F as (F1&F2&F3).
      destruct (min_when _); intros H; injection H as <- <-; rewrite ?timer_set_pend, ?timer_set_db; auto.
    + apply nodup_map_filter'. apply av_nodup; auto.
    + intros r Hr. apply (Permutation_in _ P2) in Hr. apply filter_In in Hr. apply B. tauto.
    + intros av X. apply filter_In in X as [X _]. unfold avs, availables in X. apply in_map_iff in X as (row&<-&X).
      apply filter_In in X as [X _]. simpl. apply nq2_le_count; auto.
    + cbn [w_pend g_pend g_db]. intros r Hr. apply (Permutation_in _ P1) in Hr. apply filter_In in Hr as [Hr NP].
      intros m M W (D1&D2&D3).
      destruct (availables_has (map dr_queue (g_pend s)) (g_db s) m (dr_queue r) I M D1 D2) as (av&A1&A2&A3&A4); [apply in_map; auto|].
      rewrite (proj2 (existsb_exists _ _)) in NP; [discriminate|]. exists av. split.
      * apply filter_In. split; auto. apply Z.leb_le. lia.
      * apply Z.eqb_eq. auto.
Qed.

(* the timer *)
Lemma min_when_some l w : min_when l = Some w -> exists x, In x l /\ w = av_when x.
Proof.
  revert w. induction l as [|y l IH]; simpl; intros w H; [discriminate|].
  destruct (min_when l) as [b|]; injection H as <-.
  - destruct (Z.min_spec (av_when y) b) as [[_ ->]|[_ ->]]; [exists y; auto|].
    destruct (IH b eq_refl) as (x&A1&A2). exists x; auto.
  - exists y; auto.
Qed.

Lemma min_when_le l av : In av l -> exists w, min_when l = Some w /\ w <= av_when av.
Proof.
  induction l as [|y l IH]; intros H; [destruct H|]. simpl. destruct H as [->|H].
  - destruct (min_when l) as [b|]; eexists; split; eauto; lia.
  - destruct (IH H) as (w&->&L). eexists. split; eauto. lia.
Qed.

Lemma sweep_db_shrinks_pend now s s' a r :
  sweep now s = (s', a) -> In r (g_pend s') -> In r (g_pend s).
Proof.
  intros H R. destruct (sweep_account (dr_corr r) now s s' a H) as [_ _]. revert H R. unfold sweep.
  destruct (g_pend s) as [|r0 l0] eqn:G.
  - intros H. injection H as <- <-. rewrite G. auto.
  - rewrite <- G. clear G r0 l0.
    set (passed := filter _ _).
    destruct (partition_pure _ (g_pend s)) as [stay reqs] eqn:PP. apply partition_pure_perm in PP as [P1 P2].
    assert (HE : forall l s acts c s' acts' c' f b, exec (reached now) (s, acts, c) l = ((s', acts', c'), f, b) ->
                 forall r, In r (g_pend s') \/ In r f -> In r (g_pend s) \/ In r l).
    { clear. induction l as [|x l IH]; intros s acts c s' acts' c' f b H r R.
      - simpl in H. injection H as <- <- <- <- <-. simpl in *. tauto.
      - cbn [exec] in H. unfold reached at 1 in H. destruct (c <? 1).
        + destruct (exec (reached now) (s, acts, c) l) as [[st f1] b1] eqn:Q. destruct st as [[s1 a1] c1].
          injection H as <- <- <- <- <-. specialize (IH _ _ _ _ _ _ _ _ Q r). simpl in *. tauto.
        + destruct (dequeue_handle now x s) as [[s1 a] bb] eqn:HD.
          destruct (exec (reached now) (s1, acts ++ a, if bb then c - 1 else c) l) as [[st f1] b1] eqn:Q. destruct st as [[s2 a2] c2].
          injection H as <- <- <- <- <-. specialize (IH _ _ _ _ _ _ _ _ Q r R).
          assert (HP : In r (g_pend s1) -> In r (g_pend s) \/ r = x).
          { clear - HD. unfold dequeue_handle, apply_op in HD. destruct (step _ _) as [d' o].
            assert (BL : forall z : gstate * list action * bool, (if dr_block x then (w_pend (g_pend (match qb_available (dr_queue x) (g_db (w_db d' s)) with
                  | Some a => match g_timer (w_db d' s) with
                              | Some t => if a <? t then timer_set a now (w_db d' s) else (w_db d' s)
                              | None => timer_set a now (w_db d' s)
                              end
                  | None => (w_db d' s)
                  end) ++ [x]) (match qb_available (dr_queue x) (g_db (w_db d' s)) with
                  | Some a => match g_timer (w_db d' s) with
                              | Some t => if a <? t then timer_set a now (w_db d' s) else (w_db d' s)
                              | None => timer_set a now (w_db d' s)
                              end
                  | None => (w_db d' s)
                  end), [Applied (dr_corr x) (Dequeue (dr_queue x) (dr_sel x) (fst (dr_trid x)) now, o)], false)
                  else (w_db d' s, [Applied (dr_corr x) (Dequeue (dr_queue x) (dr_sel x) (fst (dr_trid x)) now, o)] ++ [Sent (dr_pid x) (dr_corr x) (RDequeue None)], true)) = z -> In r (g_pend (fst (fst z))) -> In r (g_pend s) \/ r = x).
            { intros z <-. destruct (dr_block x); cbn [fst w_pend g_pend w_db]; auto. intros H.
              assert (EP : forall (x : option Z), g_pend (match x with Some a => match g_timer (w_db d' s) with Some t => if a <? t then timer_set a now (w_db d' s) else w_db d' s | None => timer_set a now (w_db d' s) end | None => w_db d' s end) = g_pend s).
              { intros [y|]; auto. destruct (g_timer _); [destruct (_ <? _)|]; rewrite ?timer_set_pend; auto. }
              cbn [w_db g_db g_timer] in *. rewrite EP in H. apply in_app_iff in H as [H|[H|[]]]; auto. }
            destruct o as [| |[m|]| | |]; try (specialize (BL _ HD); simpl in BL; exact BL).
            destruct (fst (dr_trid x) =? 0).
            - injection HD as <- _ _. simpl. auto.
            - pose proof (involve_pend (dr_trid x) (w_db d' s)) as IP. destruct (involve _ _) as [s2 a2]. injection HD as <- _ _.
              simpl in IP. rewrite IP. auto. }
          simpl. intuition. }
    assert (HS : forall avs s acts cur s' acts' cur', fold_left (serve_queue now) avs (s, acts, cur) = (s', acts', cur') ->
                 forall r, In r (g_pend s') -> In r (g_pend s) \/ In r cur).
    { clear - HE. induction avs as [|av avs IH]; intros s acts cur s' acts' cur' H r R.
      - simpl in H. injection H as <- <- <-. auto.
      - cbn [fold_left] in H. unfold serve_queue at 2 in H.
        destruct (partition_pure _ cur) as [mine rest] eqn:PP. apply partition_pure_perm in PP as [P1 P2].
        destruct (partition_st (reached now) (s, acts, av_count av) mine) as [[st kept] gone] eqn:Q.
        destruct st as [[s1 acts1] c1]. apply partition_st_exec in Q as (l'&f'&b'&PL&Q&PF&_).
        destruct (IH _ _ _ _ _ _ H r R) as [X|X].
        + cbn [w_pend g_pend] in X. apply in_app_iff in X.
          destruct (HE _ _ _ _ _ _ _ _ _ Q r) as [Y|Y]; auto.
          * destruct X as [X|X]; auto. right. apply (Permutation_in _ PF). auto.
          * right. apply (Permutation_in _ PL) in Y. apply (Permutation_in _ P1) in Y. apply filter_In in Y. tauto.
        + right. apply (Permutation_in _ P2) in X. apply filter_In in X. tauto. }
    destruct (fold_left (serve_queue now) passed (w_pend stay s, [], reqs)) as [[s1 acts] cur] eqn:F.
    assert (K : In r (g_pend s1) -> In r (g_pend s)).
    { intros R. destruct (HS _ _ _ _ _ _ _ F r R) as [X|X]; cbn [w_pend g_pend] in X.
      - apply (Permutation_in _ P1) in X. apply filter_In in X. tauto.
      - apply (Permutation_in _ P2) in X. apply filter_In in X. tauto. }
    destruct (min_when _); intros H; injection H as <- <-; rewrite ?timer_set_pend, ?timer_unset_pend; auto.
Qed.

Lemma sweep_timer now s s' a r m :
  Inv (g_db s) -> (forall r, In r (g_pend s) -> dr_block r = true) -> sweep now s = (s', a) ->
  In r (g_pend s') -> In m (msgs (g_db s')) -> m_queue m = dr_queue r -> m_state m = 2 ->
  (forall x, In x (msgs (g_db s)) -> m_queue x = dr_queue r -> m_state x = 2 -> now < m_avail x) ->
  exists t, g_timer s' = Some t /\ now < t /\ t <= m_avail m.
Proof.
  intros I B H R M Q S F. pose proof (sweep_effect _ _ _ _ I B H) as (_&SH&_).
  pose proof (sweep_db_shrinks_pend _ _ _ _ _ H R) as R0. specialize (SH m M S).
  destruct (availables_has (map dr_queue (g_pend s)) (g_db s) m (dr_queue r) I SH Q S) as (av&A1&A2&A3&A4); [apply in_map; auto|].
  revert H. unfold sweep. destruct (g_pend s) as [|r0 l0] eqn:G; [destruct R0|]. rewrite <- G in *. clear G r0 l0.
  destruct (partition_pure _ (g_pend s)) as [stay reqs].
  destruct (fold_left (serve_queue now) _ (w_pend stay s, [], reqs)) as [[s1 acts] cur].
  assert (FU : In av (filter (fun a => negb (av_when a <=? now)) (availables (map dr_queue (g_pend s)) (g_db s)))).
  { apply filter_In. split; auto. apply qb_available_in in A3 as (x&X1&X2&X3&X4). specialize (F x X1 X2 X3).
    apply negb_true_iff, Z.leb_gt. lia. }
  destruct (min_when_le _ _ FU) as (w&W1&W2). rewrite W1. intros H. injection H as <- <-.
  apply min_when_some in W1 as (y&Y1&Y2). apply filter_In in Y1 as [_ Y1]. apply negb_true_iff, Z.leb_gt in Y1.
  unfold timer_set. replace (w - now <=? 0) with false by (symmetry; apply Z.leb_gt; lia).
  simpl. exists w. split; auto. lia.
Qed.

(* ------------------------------------------------------------ who waits *)
Definition waiters_from (s s' : gstate) : Prop := forall r, In r (g_pend s') -> In r (g_pend s) \/ dr_block r = true.

Lemma handle_waiters now x s s' a b : dequeue_handle now x s = (s', a, b) -> waiters_from s s'.
Proof.
  intros HD r R. unfold dequeue_handle, apply_op in HD. destruct (step _ _) as [d' o].
  assert (EP : forall (x : option Z), g_pend (match x with Some a => match g_timer (w_db d' s) with Some t => if a <? t then timer_set a now (w_db d' s) else w_db d' s | None => timer_set a now (w_db d' s) end | None => w_db d' s end) = g_pend s).
  { intros [y|]; auto. destruct (g_timer _); [destruct (_ <? _)|]; rewrite ?timer_set_pend; auto. }
  assert (ELSE : forall z, (if dr_block x then
        (w_pend (g_pend (match qb_available (dr_queue x) (g_db (w_db d' s)) with
                  | Some a => match g_timer (w_db d' s) with
                              | Some t => if a <? t then timer_set a now (w_db d' s) else w_db d' s
                              | None => timer_set a now (w_db d' s)
                              end
                  | None => w_db d' s
                  end) ++ [x]) (match qb_available (dr_queue x) (g_db (w_db d' s)) with
                  | Some a => match g_timer (w_db d' s) with
                              | Some t => if a <? t then timer_set a now (w_db d' s) else w_db d' s
                              | None => timer_set a now (w_db d' s)
                              end
                  | None => w_db d' s
                  end), [Applied (dr_corr x) (Dequeue (dr_queue x) (dr_sel x) (fst (dr_trid x)) now, o)], false)
      else (w_db d' s, [Applied (dr_corr x) (Dequeue (dr_queue x) (dr_sel x) (fst (dr_trid x)) now, o)] ++ [Sent (dr_pid x) (dr_corr x) (RDequeue None)], true)) = z ->
      In r (g_pend (fst (fst z))) -> In r (g_pend s) \/ dr_block r = true).
  { intros z <-. destruct (dr_block x) eqn:B; cbn [fst w_pend g_pend w_db]; auto. intros H. cbn [w_db g_db g_timer] in *.
    rewrite EP in H. apply in_app_iff in H as [H|[H|[]]]; subst; auto. }
  destruct o as [| |[m|]| | |]; try (exact (ELSE _ HD R)).
  destruct (fst (dr_trid x) =? 0).
  - injection HD as <- _ _. auto.
  - pose proof (involve_pend (dr_trid x) (w_db d' s)) as IP. destruct (involve _ _) as [s2 a2]. injection HD as <- _ _.
    cbn [fst] in IP. rewrite IP in R. auto.
Qed.

Lemma sweep_waiters now s : waiters_from s (fst (sweep now s)).
Proof. destruct (sweep now s) as [s' a] eqn:E. intros r R. left. eapply sweep_db_shrinks_pend; eauto. Qed.

Lemma persist_waiters now s : waiters_from s (fst (handle_persist now s)).
Proof.
  unfold handle_persist. destruct (g_replies s); [apply sweep_waiters|].
  cbn [persist_db]. pose proof (sweep_waiters now (w_replies [] (mk_g (g_db s) (g_db s) (g_size s) (g_cap s) (g_involved s) (g_replies s) (g_pend s) (g_timer s) (g_alarm s)))) as S.
  destruct (sweep _ _). exact S.
Qed.

Lemma reply_waiters now pid corr r s : waiters_from s (fst (persistent_reply now pid corr r s)).
Proof.
  unfold persistent_reply. destruct (Nat.leb _ _); [|intros x X; auto].
  exact (persist_waiters now (w_replies (g_replies s ++ [(pid, corr, r)]) s)).
Qed.

Lemma remove_first_in c l l' : remove_first c l = Some l' -> forall r, In r l' -> In r l.
Proof.
  revert l'. induction l as [|x l IH]; simpl; intros l' H r R; [discriminate|].
  destruct (dr_corr x =? c); [injection H as <-; auto|].
  destruct (remove_first c l) as [l2|]; [|discriminate]. injection H as <-. destruct R as [->|R]; auto. right. eapply IH; eauto.
Qed.

Lemma apply_ops_pend corr os : forall s, g_pend (fst (fst (apply_ops corr os s))) = g_pend s.
Proof.
  induction os as [|o os IH]; intros s; auto. cbn [apply_ops]. unfold apply_op. destruct (step (g_db s) o) as [d' r].
  specialize (IH (w_db d' s)). destruct (apply_ops corr os (w_db d' s)) as [[s2 a2] ns]. exact IH.
Qed.

Lemma tick_pend' now s : g_pend (tick now s) = g_pend s.
Proof. unfold tick. destruct (g_timer s); [destruct (_ <=? _)|]; auto. Qed.

Lemma step_waiters s i : waiters_from s (fst (gstep s i)).
Proof.
  assert (T : forall now f, waiters_from (tick now s) (fst (f (tick now s) : result)) -> waiters_from s (fst (f (tick now s)))).
  { intros now f H r R. specialize (H r R). rewrite tick_pend' in H. auto. }
  destruct i; cbn [gstep].
  - unfold on_configure, apply_op. cbn [persist_db]. destruct (step _ _) as [d' o]. destruct o; intros r R; auto.
  - apply (T now (fun x => on_enqueue corr pid q id t c avail now x)). generalize (tick now s). clear. intros s. unfold on_enqueue.
    destruct (negb _); [intros r R; auto|]. destruct (resolve _ _); [|intros r R; auto]. unfold apply_op.
    destruct (step _ _) as [d' o]. destruct o; try (intros r R; auto; fail).
    destruct (fst t =? 0).
    + match goal with |- context[persistent_reply ?a ?b ?c ?d ?e] => pose proof (reply_waiters a b c d e) as W; destruct (persistent_reply a b c d e) as [s3 a3] end.
      intros r R. apply W in R. auto.
    + match goal with |- context[involve ?a ?b] => pose proof (involve_pend a b) as W; destruct (involve a b) as [s3 a3] end.
      cbn [fst] in *. intros r R. rewrite W in R. auto.
  - apply (T now (fun x => on_dequeue corr pid q sel t block now x)). generalize (tick now s). clear. intros s. unfold on_dequeue.
    destruct (resolve _ _); [|intros r R; auto]. destruct (dequeue_handle _ _ _) as [[s' a] b] eqn:H. exact (handle_waiters _ _ _ _ _ _ H).
  - unfold on_forget. destruct (remove_first corr (g_pend s)) eqn:E; intros r R; auto. left. exact (remove_first_in _ _ _ E r R).
  - unfold apply_op. destruct (step _ _). intros r R. auto.
  - apply (T now (fun x => on_commit corr pid t now x)). generalize (tick now s). clear. intros s. unfold on_commit, apply_op.
    destruct (step _ _) as [d' o]. destruct o;
      match goal with |- context[persistent_reply ?a ?b ?c ?d ?e] => pose proof (reply_waiters a b c d e) as W; destruct (persistent_reply a b c d e) as [s3 a3] end;
      intros r R; apply W in R; auto.
  - intros r R. auto.
  - apply (T now (fun x => on_rollback corr pid t sqlnow now x)). generalize (tick now s). clear. intros s. unfold on_rollback, apply_op.
    destruct (step _ _) as [d' o]. destruct o;
      match goal with |- context[persistent_reply ?a ?b ?c ?d ?e] => pose proof (reply_waiters a b c d e) as W; destruct (persistent_reply a b c d e) as [s3 a3] end;
      intros r R; apply W in R; auto.
  - unfold on_recovery, apply_op. destruct (step _ _) as [d' o]. destruct o; intros r R; auto.
  - apply (T now (fun x => on_restore corr pid qs now x)). generalize (tick now s). clear. intros s. unfold on_restore.
    pose proof (apply_ops_pend corr (map Restore qs) s) as W. destruct (apply_ops _ _ _) as [[s1 a1] ns]. cbn [persist_db].
    match goal with |- context[sweep ?a ?b] => pose proof (sweep_waiters a b) as V; destruct (sweep a b) as [s3 a3] end.
    intros r R. apply V in R. cbn [fst g_pend] in *. rewrite W in R. auto.
  - unfold on_clear. pose proof (apply_ops_pend corr (map Clear qs) s) as W. destruct (apply_ops _ _ _) as [[s1 a1] ns].
    intros r R. cbn [fst w_size g_pend] in *. rewrite W in R. auto.
  - unfold on_remove, apply_op. destruct (step _ _). intros r R. auto.
  - unfold apply_op. destruct (step _ _). intros r R. auto.
  - destruct (g_replies _).
    + intros r R. apply sweep_waiters in R. cbn [w_timer g_pend] in R. rewrite tick_pend' in R. auto.
    + intros r R. cbn [fst w_timer g_pend] in R. rewrite tick_pend' in R. auto.
  - intros r R. left. cbn [on_exit fst w_replies w_pend g_pend] in R. apply filter_In in R. tauto.
  - apply (T now (fun x => handle_persist now x)). apply persist_waiters.
  - unfold on_shutdown. destruct (handle_persist _ _). intros r R. cbn in R. tauto.
  - intros r R. cbn in R. tauto.
Qed.

Lemma waiters_block l : forall s, run g_init l s -> forall r, In r (g_pend s) -> dr_block r = true.
Proof.
  induction l as [|[i a] l IH] using rev_ind; intros s R r P.
  - inversion R; subst. simpl in P. tauto.
  - apply run_snoc in R as (m&R&H). destruct (step_waiters m i r); auto.
    + rewrite H. auto.
    + eapply IH; eauto.
Qed.

(* after an idle point, or a timeout with nothing to persist, nobody waits for a message that is there *)
Lemma served l s now s' a : run g_init l s -> gstep s (IIdle now) = (s', a) ->
  forall r m, In r (g_pend s') -> In m (msgs (g_db s')) -> wants r m -> ~ deliverable (dr_queue r) now m.
Proof.
  intros R H r m P M W. pose proof (Ginv_Inv _ _ (Ginv_run _ _ R)) as I. pose proof (waiters_block _ _ R) as B.
  cbn [gstep] in H. unfold handle_persist in H. destruct (tick_fields now s) as (A1&A2&A3).
  destruct (g_replies (tick now s)).
  - apply sweep_effect in H as (_&_&H); [exact (H r P m M W)|rewrite A1; auto|intros x; rewrite tick_pend'; auto].
  - cbn [persist_db] in H. destruct (sweep _ _) as [s2 a3] eqn:E. injection H as <- <-.
    apply sweep_effect in E as (_&_&E); [exact (E r P m M W)|cbn; rewrite A1; auto|cbn; intros x; rewrite tick_pend'; auto].
Qed.

Lemma served_timeout l s now s' a : run g_init l s -> g_replies s = [] -> gstep s (ITimeout now) = (s', a) ->
  forall r m, In r (g_pend s') -> In m (msgs (g_db s')) -> wants r m -> ~ deliverable (dr_queue r) now m.
Proof.
  intros R E H r m P M W. pose proof (Ginv_Inv _ _ (Ginv_run _ _ R)) as I. pose proof (waiters_block _ _ R) as B.
  cbn [gstep] in H. destruct (tick_fields now s) as (A1&A2&A3).
  assert (ER : g_replies (tick now s) = []) by (unfold tick; destruct (g_timer s); [destruct (_ <=? _)|]; auto).
  cbn [w_timer g_replies] in H. rewrite ER in H.
  apply sweep_effect in H as (_&_&H); [exact (H r P m M W)|cbn; rewrite A1; auto|cbn; intros x; rewrite tick_pend'; auto].
Qed.

(* and somebody who waits in a queue whose messages are all in the future has a timer for the first of them *)
Lemma timer_armed l s now s' a r m : run g_init l s -> gstep s (IIdle now) = (s', a) ->
  In r (g_pend s') -> In m (msgs (g_db s')) -> m_queue m = dr_queue r -> m_state m = 2 ->
  (forall x, In x (msgs (g_db s)) -> m_queue x = dr_queue r -> m_state x = 2 -> now < m_avail x) ->
  exists t, g_timer s' = Some t /\ now < t /\ t <= m_avail m.
Proof.
  intros R H P M Q S F. pose proof (Ginv_Inv _ _ (Ginv_run _ _ R)) as I. pose proof (waiters_block _ _ R) as B.
  cbn [gstep] in H. unfold handle_persist in H. destruct (tick_fields now s) as (A1&A2&A3).
  destruct (g_replies (tick now s)).
  - apply (sweep_timer now (tick now s) s' a r m); auto; [rewrite A1; auto|intros x; rewrite tick_pend'; auto|rewrite A1; auto].
  - cbn [persist_db] in H. destruct (sweep _ _) as [s2 a3] eqn:E. injection H as <- <-.
    apply (sweep_timer _ _ _ _ r m) in E; auto; [cbn; rewrite A1; auto|cbn; intros x; rewrite tick_pend'; auto|cbn; rewrite A1; auto].
Qed.

(* ------------------------------------------------------------ an enqueue happens only on request *)
Definition is_enqueue (a : action) : bool := match a with Applied _ (Enqueue _ _ _ _ _ _, _) => true | _ => false end.
Definition noenq (a : list action) : Prop := existsb is_enqueue a = false.

Lemma noenq_app a b : noenq a -> noenq b -> noenq (a ++ b).
Proof. unfold noenq. rewrite existsb_app. intros -> ->. auto. Qed.

Lemma involve_noenq t s : noenq (snd (involve t s)).
Proof. unfold involve. destruct (existsb _ _); reflexivity. Qed.

Lemma handle_noenq now r s : noenq (snd (fst (dequeue_handle now r s))).
Proof.
  unfold dequeue_handle, apply_op. destruct (step _ _) as [d' o].
  destruct o as [| |[m|]| | |]; try (destruct (dr_block r); reflexivity).
  destruct (fst (dr_trid r) =? 0); [reflexivity|].
  pose proof (involve_noenq (dr_trid r) (w_db d' s)) as W. destruct (involve _ _) as [s2 a2]. cbn [fst snd] in *.
  apply (noenq_app [_]); [reflexivity|]. apply noenq_app; [auto|reflexivity].
Qed.

Lemma exec_noenq now l : forall s acts c s' acts' c' f b, exec (reached now) (s, acts, c) l = ((s', acts', c'), f, b) ->
  noenq acts -> noenq acts'.
Proof.
  induction l as [|x l IH]; intros s acts c s' acts' c' f b H N.
  - simpl in H. injection H as <- <- <- <- <-. auto.
  - cbn [exec] in H. unfold reached at 1 in H. destruct (c <? 1).
    + destruct (exec (reached now) (s, acts, c) l) as [[st f1] b1] eqn:Q. destruct st as [[s1 a1] c1].
      injection H as <- <- <- <- <-. eapply IH; eauto.
    + pose proof (handle_noenq now x s) as W. destruct (dequeue_handle now x s) as [[s1 a] bb] eqn:HD.
      destruct (exec (reached now) (s1, acts ++ a, if bb then c - 1 else c) l) as [[st f1] b1] eqn:Q. destruct st as [[s2 a2] c2].
      injection H as <- <- <- <- <-. eapply IH; eauto. apply noenq_app; auto.
Qed.

Lemma serve_noenq now avs : forall s acts cur s' acts' cur', fold_left (serve_queue now) avs (s, acts, cur) = (s', acts', cur') ->
  noenq acts -> noenq acts'.
Proof.
  induction avs as [|av avs IH]; intros s acts cur s' acts' cur' H N.
  - simpl in H. injection H as <- <- <-. auto.
  - cbn [fold_left] in H. unfold serve_queue at 2 in H.
    destruct (partition_pure _ cur) as [mine rest].
    destruct (partition_st (reached now) (s, acts, av_count av) mine) as [[st kept] gone] eqn:Q.
    destruct st as [[s1 acts1] c1]. apply partition_st_exec in Q as (l'&f'&b'&PL&Q&PF&_).
    eapply IH; eauto. eapply exec_noenq; eauto.
Qed.

Lemma sweep_noenq now s : noenq (snd (sweep now s)).
Proof.
  unfold sweep. destruct (g_pend s) as [|r0 l0] eqn:G; [reflexivity|]. rewrite <- G. clear G r0 l0.
  destruct (partition_pure _ (g_pend s)) as [stay reqs].
  destruct (fold_left _ _ _) as [[s1 acts] cur] eqn:F. apply serve_noenq in F; [|reflexivity].
  destruct (min_when _); exact F.
Qed.

Lemma sends_noenq l : noenq (map (fun x : Z * Z * reply => Sent (fst (fst x)) (snd (fst x)) (snd x)) l).
Proof. induction l as [|x l IH]; [reflexivity|exact IH]. Qed.

Lemma persist_noenq now s : noenq (snd (handle_persist now s)).
Proof.
  unfold handle_persist. destruct (g_replies s) as [|r0 l0]; [apply sweep_noenq|].
  cbn [persist_db]. match goal with |- context[sweep ?a ?b] => pose proof (sweep_noenq a b) as W; destruct (sweep a b) as [s2 a3] end.
  apply (noenq_app [_]); [reflexivity|]. apply noenq_app; auto. apply (sends_noenq (r0 :: l0)).
Qed.

Lemma reply_noenq now pid corr r s : noenq (snd (persistent_reply now pid corr r s)).
Proof. unfold persistent_reply. destruct (Nat.leb _ _); [apply persist_noenq|reflexivity]. Qed.

Lemma ops_noenq corr os : (forall o, In o os -> match o with Enqueue _ _ _ _ _ _ => False | _ => True end) ->
  forall s, noenq (snd (fst (apply_ops corr os s))).
Proof.
  induction os as [|o os IH]; intros H s; [reflexivity|]. cbn [apply_ops]. unfold apply_op. destruct (step (g_db s) o) as [d' r].
  specialize (IH (fun o K => H o (or_intror K)) (w_db d' s)). destruct (apply_ops corr os (w_db d' s)) as [[s2 a2] ns].
  apply (noenq_app [_]); auto. specialize (H o (or_introl eq_refl)). destruct o; try reflexivity. destruct H.
Qed.

Lemma noenq_in a corr q id g c av n r : noenq a -> ~ In (Applied corr (Enqueue q id g c av n, r)) a.
Proof. intros N H. unfold noenq in N. rewrite (proj2 (existsb_exists _ _)) in N; [discriminate|]. eexists. split; eauto. Qed.

Lemma enqueue_requested s i s' a corr q id g c av n r : gstep s i = (s', a) ->
  In (Applied corr (Enqueue q id g c av n, r)) a ->
  exists pid qr b, i = IEnqueue corr pid qr id (g, b) c av n /\ resolve (g_db s) qr = Some q.
Proof.
  assert (NE : forall x, noenq (snd (gstep s x)) -> gstep s x = (s', a) -> In (Applied corr (Enqueue q id g c av n, r)) a -> False).
  { intros x N H I. rewrite H in N. exact (noenq_in _ _ _ _ _ _ _ _ _ N I). }
  intros H I. destruct i.
  2:{ cbn [gstep] in H. unfold on_enqueue in H. destruct (tick_fields now s) as (A1&A2&A3).
      destruct (negb _); [injection H as <- <-; simpl in I; intuition discriminate|].
      rewrite A1 in H. destruct (resolve (g_db s) q0) as [qid|] eqn:RS; [|injection H as <- <-; simpl in I; intuition discriminate].
      unfold apply_op in H. destruct (step _ _) as [d' o].
      assert (X : forall rest, noenq rest -> In (Applied corr (Enqueue q id g c av n, r)) (Applied corr0 (Enqueue qid id0 (fst t) c0 avail now, o) :: rest) ->
        exists pid0 qr b, IEnqueue corr0 pid q0 id0 t c0 avail now = IEnqueue corr pid0 qr id (g, b) c av n /\ Some qid = Some q /\ qr = q0).
      { intros rest NR [E|E]; [|exfalso; exact (noenq_in _ _ _ _ _ _ _ _ _ NR E)]. injection E as -> -> -> <- -> -> -> _.
        exists pid, q0, (snd t). destruct t; auto. }
      assert (Y : forall rest, noenq rest -> In (Applied corr (Enqueue q id g c av n, r)) (Applied corr0 (Enqueue qid id0 (fst t) c0 avail now, o) :: rest) ->
        exists pid0 qr b, IEnqueue corr0 pid q0 id0 t c0 avail now = IEnqueue corr pid0 qr id (g, b) c av n /\ resolve (g_db s) qr = Some q).
      { intros rest NR IR. destruct (X rest NR IR) as (p0&qr&b&E1&E2&->). exists p0, q0, b. split; auto. congruence. }
      destruct o; try (injection H as _ <-; apply (Y _) in I; [exact I|reflexivity]).
      destruct (fst t =? 0).
      - match type of H with context[persistent_reply ?a ?b ?c ?d ?e] => pose proof (reply_noenq a b c d e) as W; destruct (persistent_reply a b c d e) as [s3 a3] end.
        injection H as _ <-. apply (Y _) in I; [exact I|exact W].
      - match type of H with context[involve ?a ?b] => pose proof (involve_noenq a b) as W; destruct (involve a b) as [s3 a3] end.
        injection H as _ <-. apply (Y _) in I; [exact I|]. apply noenq_app; [exact W|reflexivity]. }
  all: exfalso; refine (NE _ _ H I); clear H I NE; cbn [gstep].
  - unfold on_configure, apply_op. cbn [persist_db]. destruct (step _ _) as [d' o]. destruct o; reflexivity.
  - unfold on_dequeue. destruct (resolve _ _); [|reflexivity]. apply handle_noenq.
  - unfold on_forget. destruct (remove_first _ _); reflexivity.
  - unfold apply_op. destruct (step _ _). reflexivity.
  - unfold on_commit, apply_op. destruct (step _ _) as [d' o]. destruct o;
      match goal with |- context[persistent_reply ?a ?b ?c ?d ?e] => pose proof (reply_noenq a b c d e) as W; destruct (persistent_reply a b c d e) as [s3 a3] end;
      (apply (noenq_app [_]); [reflexivity|exact W]).
  - reflexivity.
  - unfold on_rollback, apply_op. destruct (step _ _) as [d' o]. destruct o;
      match goal with |- context[persistent_reply ?a ?b ?c ?d ?e] => pose proof (reply_noenq a b c d e) as W; destruct (persistent_reply a b c d e) as [s3 a3] end;
      (apply (noenq_app [_]); [reflexivity|exact W]).
  - unfold on_recovery, apply_op. destruct (step _ _) as [d' o]. destruct o, commit; reflexivity.
  - unfold on_restore. match goal with |- context[apply_ops ?a ?b ?c] => pose proof (ops_noenq a b) as W; specialize (fun H => W H c); destruct (apply_ops a b c) as [[s1 a1] ns] end.
    cbn [persist_db]. match goal with |- context[sweep ?a ?b] => pose proof (sweep_noenq a b) as V; destruct (sweep a b) as [s3 a3] end.
    apply noenq_app; [apply W; intros o K; apply in_map_iff in K as (x&<-&_); auto|].
    apply (noenq_app [_]); [reflexivity|]. apply noenq_app; [exact V|reflexivity].
  - unfold on_clear. match goal with |- context[apply_ops ?a ?b ?c] => pose proof (ops_noenq a b) as W; specialize (fun H => W H c); destruct (apply_ops a b c) as [[s1 a1] ns] end.
    apply noenq_app; [apply W; intros o K; apply in_map_iff in K as (x&<-&_); auto|reflexivity].
  - unfold on_remove, apply_op. destruct (step _ _). reflexivity.
  - unfold apply_op. destruct (step _ _). reflexivity.
  - destruct (g_replies _); [apply sweep_noenq|reflexivity].
  - unfold on_exit. cbn [snd]. generalize (filter (fun r => dr_pid r =? pid) (g_pend s)). intros l. induction l as [|x l IH]; [reflexivity|exact IH].
  - apply persist_noenq.
  - unfold on_shutdown. pose proof (persist_noenq now (tick now s)) as W. destruct (handle_persist _ _) as [s1 a1]. apply noenq_app; auto.
    generalize (g_pend s1). intros l. induction l as [|x l IH]; [reflexivity|exact IH].
  - unfold on_crash. cbn [snd]. apply noenq_app; [|reflexivity]. generalize (g_pend s). intros l. induction l as [|x l IH]; [reflexivity|exact IH].
Qed.

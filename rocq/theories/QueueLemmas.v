(* The lemmas behind the queue properties. *)
From Coq Require Import ZArith List String Bool Lia Permutation.
From Verif Require Import QueueModel QueueSpec QueueProofs QueueHistory.
Import ListNotations.
Local Open Scope Z_scope.

(* ------------------------------------------------------------ decidability of event classes *)

Lemma commits_dec g e : {commits g e} + {~ commits g e}.
Proof.
  destruct e as [o r]. unfold commits; simpl.
  destruct o; try (right; intros [H|[gs' [H _]]]; discriminate).
  - destruct (Z.eq_dec g0 g) as [->|N]; [left; auto|right; intros [H|[gs' [H _]]]; congruence].
  - destruct (in_dec Z.eq_dec g gs) as [H|N]; [left; right; eauto|].
    right. intros [H|[gs' [H I]]]; [discriminate|]. injection H as ->. auto.
Qed.

Lemma rolls_back_dec g e : {rolls_back g e} + {~ rolls_back g e}.
Proof.
  destruct e as [o r]. unfold rolls_back; simpl.
  destruct o; try (right; intros [[n H]|[gs' [n [H _]]]]; discriminate).
  - destruct (Z.eq_dec g0 g) as [->|N]; [left; eauto|right; intros [[n H]|[gs' [n [H _]]]]; congruence].
  - destruct (in_dec Z.eq_dec g gs) as [H|N]; [left; right; eauto|].
    right. intros [[n H]|[gs' [n [H I]]]]; [discriminate|]. injection H as -> ->. auto.
Qed.

Lemma exists_or_none {A} (P : A -> Prop) (dec : forall a, {P a} + {~ P a}) l :
  (exists a, In a l /\ P a) \/ (forall a, In a l -> ~ P a).
Proof.
  destruct (Exists_dec P l dec) as [H|H].
  - left. apply Exists_exists in H. exact H.
  - right. intros a Ha Pa. apply H. apply Exists_exists. eauto.
Qed.

(* ------------------------------------------------------------ single events *)

Lemma enqueue_event d q i g c a n d' :
  Inv d -> step d (Enqueue q i g c a n) = (d', Done) ->
  qb_peek i d' = Some (mk_msg i q q g (if g =? 0 then 2 else 1) 0 a n c).
Proof.
  intros I H. pose proof (Inv_step _ _ _ _ I H) as I'. simpl in H.
  destruct (qb_enqueue q i g c a n d) as [d1|] eqn:E; [|discriminate]. injection H as ->.
  unfold qb_enqueue, insert_msg in E. destruct (existsb _ _); [discriminate|]. destruct (negb _); [discriminate|].
  injection E as <-.
  change i with (m_id (mk_msg i q q g (if g =? 0 then 2 else 1) 0 a n c)) at 1.
  apply peek_of_in; [apply I'|]. simpl. apply in_or_app. simpl; auto.
Qed.

Lemma dequeue_event d q s g n d' m :
  Inv d -> step d (Dequeue q s g n) = (d', GotMessage (Some m)) ->
  In m (msgs d) /\ m_state m = 2 /\ m_queue m = q /\
  qb_peek (m_id m) d' = if g =? 0 then None else Some (set_taken g m).
Proof.
  intros I H. simpl in H. unfold qb_dequeue in H.
  destruct (qb_fetch q s n d) as [x|] eqn:F; [|discriminate].
  pose proof (fetch_in _ _ _ _ _ F) as [Hx [Sx Qx]].
  assert (x = m) by (destruct (g =? 0); congruence). subst x.
  split; auto. split; auto. split; auto.
  destruct (g =? 0) eqn:G; injection H as <-.
  - rewrite (peek_omap (m_id m) d _ (fun r => if m_id r =? m_id m then None else Some r)).
    + rewrite peek_of_in; [|apply I|auto]. rewrite Z.eqb_refl. auto.
    + apply I.
    + intros a b E. destruct (m_id a =? m_id m); congruence.
    + apply msgs_delete.
  - rewrite (peek_omap (m_id m) d _ (fun r => Some (if m_id r =? m_id m then set_taken g r else r))).
    + rewrite peek_of_in; [|apply I|auto]. rewrite Z.eqb_refl. auto.
    + apply I.
    + intros a b E. injection E as <-. destruct (m_id a =? m_id m); auto.
    + apply msgs_update_state.
Qed.

Lemma shown_event d o r d' i :
  Inv d -> step d o = (d', r) -> shown i (o, r) -> exists m, qb_peek i d = Some m /\ m_state m = 2.
Proof.
  intros I H [[g [q [s [n [m [E <-]]]]]]|[q [l [n [m [E <-]]]]]]; injection E as -> ->.
  - apply dequeue_event in H as (A&B&_); auto. exists m. split; auto. apply peek_of_in; auto. apply I.
  - simpl in H. injection H as _ H. apply browse_in in H as (A&B&_). exists m. split; auto. apply peek_of_in; auto. apply I.
Qed.

Lemma split_history t1 e1 t2 e2 t3 d :
  history db_empty (t1 ++ e1 :: t2 ++ e2 :: t3) d ->
  exists d0 d1 d2 d3, Inv d0 /\ step d0 (fst e1) = (d1, snd e1) /\ Inv d1 /\
     history d1 t2 d2 /\ Inv d2 /\ step d2 (fst e2) = (d3, snd e2).
Proof.
  intros H. apply history_app in H as [d0 [H0 H]].
  destruct e1 as [o1 r1]. apply history_cons in H as [d1 [S1 H]].
  apply history_app in H as [d2 [H2 H]]. destruct e2 as [o2 r2]. apply history_cons in H as [d3 [S3 H]].
  exists d0, d1, d2, d3.
  assert (Inv d0) by (eapply Inv_history; eauto using Inv_empty).
  assert (Inv d1) by (eapply Inv_step; eauto).
  assert (Inv d2) by (eapply Inv_history; eauto).
  auto 10.
Qed.

(* ------------------------------------------------------------ C01, C02 *)

Lemma isolation_enqueue t1 e1 t2 e2 t3 d i g :
  history db_empty (t1 ++ e1 :: t2 ++ e2 :: t3) d ->
  g <> 0 -> enqueued i g e1 -> (forall e, In e t2 -> ~ enqueued_any i e) -> shown i e2 ->
  exists e, In e t2 /\ commits g e.
Proof.
  intros H G E1 NE E2. apply split_history in H as (d0&d1&d2&d3&I0&S0&I1&H&I2&S2).
  destruct (exists_or_none (commits g) (commits_dec g) t2) as [X|X]; auto. exfalso.
  destruct E1 as (q&c&a&n&->). simpl in S0. change (step d0 (Enqueue q i g c a n) = (d1, Done)) in S0.
  apply enqueue_event in S0; auto. destruct (Z.eqb_spec g 0); [tauto|].
  destruct e2 as [o2 r2]. destruct (shown_event _ _ _ _ _ I2 S2 E2) as (m&P&St).
  assert (m_state m = 1 /\ m_gtrid m = g); [|lia].
  apply (row_invariant (fun m => m_state m = 1 /\ m_gtrid m = g) (commits g) i) with (t := t2) (d := d1) (d' := d2); auto.
  - intros o r x y NB [A B] _ T. inversion T; subst; auto; try (simpl in *; lia).
    exfalso. apply NB. destruct H0 as [->|(gs&->&Hi)]; [left; auto|right; exists gs; auto].
  - intros x Hx. rewrite S0 in Hx. injection Hx as <-. auto.
Qed.

Lemma isolation_dequeue t1 e1 t2 e2 t3 d i g :
  history db_empty (t1 ++ e1 :: t2 ++ e2 :: t3) d ->
  dequeued i g e1 -> (forall e, In e t2 -> ~ enqueued_any i e) -> shown i e2 ->
  g <> 0 /\ exists e, In e t2 /\ rolls_back g e.
Proof.
  intros H E1 NE E2. apply split_history in H as (d0&d1&d2&d3&I0&S0&I1&H&I2&S2).
  destruct E1 as (q&s&n&x&->&<-).
  change (step d0 (Dequeue q s g n) = (d1, GotMessage (Some x))) in S0.
  apply dequeue_event in S0 as (_&_&_&P0); auto.
  destruct e2 as [o2 r2]. destruct (shown_event _ _ _ _ _ I2 S2 E2) as (m&P&St).
  destruct (Z.eqb_spec g 0) as [->|G].
  - exfalso. apply (row_invariant (fun m => False) (fun _ => False) (m_id x)) with (t := t2) (d := d1) (d' := d2) (m := m); auto.
    + intros; tauto.
    + intros y Hy. congruence.
  - split; auto.
    destruct (exists_or_none (rolls_back g) (rolls_back_dec g) t2) as [X|X]; auto. exfalso.
    assert (m_state m = 3 /\ m_gtrid m = g); [|lia].
    apply (row_invariant (fun m => m_state m = 3 /\ m_gtrid m = g) (rolls_back g) (m_id x)) with (t := t2) (d := d1) (d' := d2); auto.
    + intros o r y z NB [A B] _ T. inversion T; subst; auto; try (simpl in *; lia).
      exfalso. apply NB. destruct H0 as [[k ->]|(gs&k&->&Hi)]; [left; exists k; auto|right; exists gs, k; auto].
    + intros y Hy. rewrite P0 in Hy. injection Hy as <-. auto.
Qed.

Lemma no_duplicate t1 e1 t2 e2 t3 d i g h :
  history db_empty (t1 ++ e1 :: t2 ++ e2 :: t3) d ->
  dequeued i g e1 -> dequeued i h e2 -> (forall e, In e t2 -> ~ enqueued_any i e) ->
  g <> 0 /\ exists e, In e t2 /\ rolls_back g e.
Proof.
  intros H E1 E2 NE. eapply isolation_dequeue; eauto. left; eauto.
Qed.

(* ------------------------------------------------------------ settled transactions *)

Definition settled (g : Z) (d : db) := forall m, In m (msgs d) -> m_gtrid m = g -> m_state m <> 1 /\ m_state m <> 3.

Lemma settled_delete g p d : settled g d -> settled g (delete_where p d).
Proof. intros S m H. simpl in H. apply filter_In in H as [H _]. apply S; auto. Qed.

Lemma settled_commit_same g d : settled g (fst (qb_commit g d)).
Proof.
  intros m H G. simpl in H. apply filter_In in H as [H P]. apply in_map_iff in H as [x [E H]].
  unfold commit2_p in P. rewrite G, Z.eqb_refl in P. simpl in P. bdest.
  split; auto. unfold commit1_p in E. subst m.
  destruct (Z.eqb_spec (m_gtrid x) g); simpl in *; [|tauto].
  destruct (Z.eqb_spec (m_state x) 1); simpl in *; lia.
Qed.

Lemma settled_commit_other g h d : settled g d -> settled g (fst (qb_commit h d)).
Proof.
  intros S. apply settled_delete. intros m H G. simpl in H. apply in_map_iff in H as [x [<- H]].
  destruct (commit1_p h x); simpl in *; [lia|]. apply S; auto.
Qed.

Lemma settled_rollback_same g n d : Inv d -> settled g (fst (qb_rollback g n d)).
Proof.
  intros I. destruct (rollback_ok g n d I) as (d'&E&_&_&M&_). rewrite E. simpl.
  intros m H G. rewrite M in H. apply in_map_iff in H as [x [Ex Hx]].
  destruct (rollback3_p _ g x) eqn:P; subst m.
  - simpl in G. pose proof (rb12_settled g n d x I Hx G). simpl. lia.
  - pose proof (rb12_settled g n d x I Hx G). lia.
Qed.

Lemma settled_rollback_other g h n d : Inv d -> settled g d -> settled g (fst (qb_rollback h n d)).
Proof.
  intros I S. destruct (rollback_ok h n d I) as (d'&E&_&_&M&_). rewrite E. simpl.
  assert (S2 : settled g (rb12 h n d)).
  { intros m H G. unfold rb12, rb2 in H. simpl in H. apply in_map_iff in H as [x [<- H]].
    apply filter_In in H as [H _]. destruct (rollback2_p h x); simpl in *; [lia|apply S; auto]. }
  intros m H G. rewrite M in H. apply in_map_iff in H as [x [<- H]].
  destruct (rollback3_p _ h x); simpl in *; apply S2; auto.
Qed.

Lemma settles_commit d o d' r g : step d o = (d', r) -> commits g (o, r) -> settled g d'.
Proof.
  intros H [E|(gs&E&Hg)]; simpl in E; subst o; simpl in H.
  - pose proof (settled_commit_same g d). unfold qb_commit in *. injection H as <- _. auto.
  - pose proof (recovery_commit_spec gs d) as R. destruct (qb_recovery_commit gs d) as [[d1 s] k]. simpl in R.
    injection H as <- _. rewrite R. clear -Hg. revert d. induction gs as [|h gs IH]; intros d; [destruct Hg|].
    cbn [fold_left]. destruct (in_dec Z.eq_dec g gs) as [Hi|Hi]; [apply IH; auto|].
    destruct Hg as [->|Hg]; [|tauto].
    assert (A : forall l x, settled g x -> settled g (fold_left (fun d g => fst (qb_commit g d)) l x)).
    { induction l; intros x Sx; cbn [fold_left]; auto. apply IHl. apply settled_commit_other; auto. }
    apply A. apply settled_commit_same.
Qed.

Lemma settles_rollback d o d' r g : Inv d -> step d o = (d', r) -> rolls_back g (o, r) -> settled g d'.
Proof.
  intros I H [[n E]|(gs&n&E&Hg)]; simpl in E; subst o; simpl in H.
  - pose proof (settled_rollback_same g n d I). destruct (qb_rollback g n d) as [d1 [s|]]; injection H as <- _; auto.
  - destruct (recovery_rollback_ok gs n d I) as (d1&s&k&E&_&F). rewrite E in H. injection H as <- _.
    rewrite F. clear -Hg I. revert d I. induction gs as [|h gs IH]; intros d I; [destruct Hg|].
    assert (I1 : forall k x, Inv x -> Inv (fst (qb_rollback k n x))).
    { intros k x Ix. destruct (rollback_ok k n x Ix) as (y&E&Iy&_). rewrite E. auto. }
    cbn [fold_left]. destruct (in_dec Z.eq_dec g gs) as [Hi|Hi]; [apply IH; auto|].
    destruct Hg as [->|Hg]; [|tauto].
    assert (A : forall l x, Inv x -> settled g x -> settled g (fold_left (fun d g => fst (qb_rollback g n d)) l x)).
    { induction l; intros x Ix Sx; cbn [fold_left]; auto. apply IHl; auto. apply settled_rollback_other; auto. }
    apply A; auto. apply settled_rollback_same; auto.
Qed.

(* ------------------------------------------------------------ C03 *)

Lemma transs_to_state1 o r x z : transs o r x z -> forall m m', x = Some m -> z = Some m' -> m_state m' = 1 -> m' = m.
Proof.
  intros H. induction H; intros a b Ea Eb S; [congruence|]. injection Ea as ->.
  destruct y as [y|]; [|inversion H0; subst; discriminate].
  assert (b = y) by (apply IHtranss; auto). subst b.
  inversion H; subst; simpl in *; lia.
Qed.

Lemma transs_to_state3 o r x z : transs o r x z -> forall m m', x = Some m -> z = Some m' -> m_state m' = 3 ->
  m' = m \/ exists q s t n w, o = Dequeue q s t n /\ r = GotMessage (Some w) /\ m_id w = m_id m' /\ t <> 0 /\ m_gtrid m' = t.
Proof.
  intros H. induction H; intros a b Ea Eb S; [left; congruence|]. injection Ea as ->.
  destruct y as [y|]; [|inversion H0; subst; discriminate].
  destruct (IHtranss y b eq_refl Eb S) as [->|X]; auto. right.
  inversion H; subst; simpl in *; try lia. exists q, s, t, n, x. simpl. auto 10.
Qed.

Lemma transs_to_none o r x : transs o r x None -> forall m, x = Some m ->
  exists m1, transs o r (Some m) (Some m1) /\ trans o r m1 None.
Proof.
  intros H. remember None as z. induction H; intros a Ea; [congruence|]. injection Ea as ->.
  destruct y as [y|].
  - destruct (IHtranss Heqz y eq_refl) as (m1&A&B). exists m1. split; auto. econstructor; eauto.
  - exists a. rewrite Heqz. split; auto. constructor.
Qed.

(* the columns that never change *)
Definition same_core (m m' : msg) :=
  m_id m' = m_id m /\ m_origin m' = m_origin m /\ m_content m' = m_content m /\ m_ts m' = m_ts m.

Lemma same_core_refl m : same_core m m.
Proof. unfold same_core; auto. Qed.
Lemma same_core_trans a b c : same_core a b -> same_core b c -> same_core a c.
Proof. unfold same_core. intuition congruence. Qed.

Lemma transs_core o r x z : transs o r x z -> forall m m', x = Some m -> z = Some m' -> same_core m m'.
Proof.
  intros H. induction H; intros a b Ea Eb.
  - assert (a = b) by congruence. subst; apply same_core_refl.
  - injection Ea as ->. destruct y as [y|]; [|inversion H0; subst; discriminate].
    apply (same_core_trans _ y); auto. inversion H; subst; unfold same_core; simpl; auto.
Qed.

Lemma consumed_snoc i q g t e : consumed i q g t -> consumed i q g (t ++ [e]).
Proof.
  intros [u x v E G R N|x H D|h u x v f w E G D C N|x q' H C Q|x H R].
  - apply (by_rollback_of_enqueuer _ _ _ _ u x (v ++ [e])); auto. subst. rewrite <- app_assoc. auto.
  - apply (by_plain_dequeue _ _ _ _ x); auto. apply in_or_app; auto.
  - apply (by_commit_of_dequeuer _ _ _ _ h u x v f (w ++ [e])); auto. subst.
    rewrite <- app_assoc. simpl. rewrite <- app_assoc. auto.
  - apply (by_clear _ _ _ _ x q'); auto. apply in_or_app; auto.
  - apply (by_remove _ _ _ _ x); auto. apply in_or_app; auto.
Qed.

Definition tracked (i q g n : Z) (c : content) (t : list event) (m : msg) : Prop :=
  m_content m = c /\ m_origin m = q /\ m_ts m = n /\
  (m_state m = 1 -> m_gtrid m = g /\ g <> 0 /\ forall x, In x t -> ~ commits g x) /\
  (m_state m = 3 -> m_gtrid m <> 0 /\ exists u e v, t = u ++ e :: v /\ dequeued i (m_gtrid m) e /\
      forall x, In x v -> ~ rolls_back (m_gtrid m) x).

Lemma in_snoc {A} (l : list A) a : In a (l ++ [a]).
Proof. apply in_or_app; simpl; auto. Qed.

Lemma commits_op g o r : committing g o -> commits g (o, r).
Proof. auto. Qed.
Lemma rolls_op g o r : rolling g o -> rolls_back g (o, r).
Proof. auto. Qed.

Lemma trans_clear q r m y : trans (Clear q) r m y -> y = None.
Proof.
  intros H. inversion H; subst; auto; try discriminate;
  match goal with
  | X : committing _ _ |- _ => destruct X as [X|(gs&X&_)]; discriminate
  | X : rolling _ _ |- _ => destruct X as [[k X]|(gs&k&X&_)]; discriminate
  end.
Qed.

Lemma no_loss_step i q g n c t m d o r d' :
  Inv d -> qb_peek i d = Some m -> tracked i q g n c t m -> step d o = (d', r) ->
  consumed i q g (t ++ [(o, r)]) \/ exists m', qb_peek i d' = Some m' /\ tracked i q g n c (t ++ [(o, r)]) m'.
Proof.
  intros I P T S.
  pose proof (peek_in _ _ _ P) as [Hm Hi].
  assert (NE : ~ enqueued_any i (o, r)).
  { intros (g'&q'&c'&a'&n'&E). injection E as -> ->. simpl in S.
    destruct (qb_enqueue q' i g' c' a' n' d) as [dd|] eqn:E; [|discriminate].
    unfold qb_enqueue, insert_msg in E. destruct (existsb _ _) eqn:X; [discriminate|].
    assert (Y : existsb (fun r => m_id r =? m_id (mk_msg i q' q' g' (if g' =? 0 then 2 else 1) 0 a' n' c')) (msgs d) = true).
    { apply existsb_exists. exists m. split; auto. simpl. apply Z.eqb_eq; auto. }
    rewrite Y in X. discriminate. }
  pose proof (step_peek d o d' r i I S NE) as TS. rewrite P in TS.
  destruct T as (T1&T2&T3&T4&T5).
  destruct (qb_peek i d') as [m'|] eqn:P'.
  - right. exists m'. split; auto.
    pose proof (transs_core _ _ _ _ TS m m' eq_refl eq_refl) as (C1&C2&C3&C4).
    pose proof (Inv_step _ _ _ _ I S) as I'.
    pose proof (peek_in _ _ _ P') as [Hm' Hi'].
    unfold tracked. rewrite C2, C3, C4. split; auto. split; auto. split; auto. split.
    + intros S1. assert (m' = m) by (eapply transs_to_state1; eauto). subst m'.
      destruct (T4 S1) as (A&B&C). split; auto. split; auto.
      intros x Hx Cx. apply in_app_iff in Hx as [Hx|[<-|[]]]; [eapply C; eauto|].
      destruct (settles_commit _ _ _ _ _ S Cx m Hm' A). lia.
    + intros S3. destruct (transs_to_state3 _ _ _ _ TS m m' eq_refl eq_refl S3) as [->|(q0&s0&t0&n0&w&->&->&W&Z0&G0)].
      * destruct (T5 S3) as (A&u&e&v&E&D&N). split; auto. exists u, e, (v ++ [(o, r)]). subst t.
        rewrite <- app_assoc. simpl. split; auto. split; auto.
        intros x Hx Rx. apply in_app_iff in Hx as [Hx|[<-|[]]]; [eapply N; eauto|].
        destruct (settles_rollback _ _ _ _ _ I S Rx m Hm' eq_refl). lia.
      * rewrite G0. split; auto. exists t, (Dequeue q0 s0 t0 n0, GotMessage (Some w)), []. split; auto. split.
        -- exists q0, s0, n0, w. split; auto. congruence.
        -- intros x [].
  - left. destruct (transs_to_none _ _ _ TS m eq_refl) as (m1&A&B).
    pose proof (transs_core _ _ _ _ A m m1 eq_refl eq_refl) as (C1&C2&C3&C4).
    inversion B; subst.
    + (* commit of the dequeuer *)
      destruct (transs_to_state3 _ _ _ _ A m m1 eq_refl eq_refl H1) as [->|(q0&s0&t0&n0&w&->&_)].
      2:{ destruct H as [H|(gs&H&_)]; discriminate. }
      destruct (T5 H1) as (G0&u&e&v&E&D&N). subst t.
      apply (by_commit_of_dequeuer _ _ _ _ (m_gtrid m) u e v (o, r) []); auto.
      rewrite <- app_assoc. reflexivity.
    + (* rollback of the enqueuer *)
      assert (m1 = m) by (eapply transs_to_state1; eauto). subst m1.
      destruct (T4 H1) as (A1&B1&C). apply (by_rollback_of_enqueuer _ _ _ _ t (o, r) []); auto.
      rewrite <- A1. auto.
    + (* clear *)
      assert (m1 = m).
      { inversion A; subst; auto. rewrite (trans_clear _ _ _ _ H1) in H2. inversion H2. }
      subst m1. apply (by_clear _ _ _ _ (Clear (m_queue m), r) (m_queue m)); auto using in_snoc.
      * reflexivity.
      * destruct (inv_rows _ I m Hm) as (_&_&_&[E|[E _]]); auto.
    + (* remove *)
      apply (by_remove _ _ _ _ (Remove f q0 ids, Removed kept)); auto using in_snoc.
      exists f, q0, ids, kept. split; auto. rewrite <- C1. auto.
    + (* non-transactional dequeue *)
      apply (by_plain_dequeue _ _ _ _ (Dequeue q0 s 0 n0, GotMessage (Some x))); auto using in_snoc.
      exists q0, s, n0, x. split; auto. congruence.
Qed.

Lemma no_loss t1 q i g c a n t2 d :
  history db_empty (t1 ++ (Enqueue q i g c a n, Done) :: t2) d ->
  consumed i q g t2 \/
  exists m, qb_peek i d = Some m /\ m_content m = c /\ m_origin m = q /\ m_ts m = n.
Proof.
  intros H. apply history_app in H as [d0 [H0 H]]. apply history_cons in H as [d1 [S H]].
  assert (I0 : Inv d0) by (eapply Inv_history; eauto using Inv_empty).
  assert (I1 : Inv d1) by (eapply Inv_step; eauto).
  assert (R : consumed i q g t2 \/ exists m, qb_peek i d = Some m /\ tracked i q g n c t2 m).
  { revert d H. induction t2 as [|e t2 IH] using rev_ind; intros d H.
    - inversion H; subst. right. eexists. split; [apply enqueue_event in S; eauto|].
      unfold tracked; simpl. split; auto. split; auto. split; auto.
      destruct (Z.eqb_spec g 0); split; intros; try lia. auto.
    - apply history_app in H as [d2 [H2 H]]. destruct e as [o r]. apply history_cons in H as [d3 [S3 H]].
      inversion H; subst. destruct (IH d2 H2) as [C|(m&P&T)]; [left; apply consumed_snoc; auto|].
      assert (Inv d2) by (eapply Inv_history; eauto). apply (no_loss_step i q g n c t2 m d2); auto. }
  destruct R as [R|(m&P&T1&T2&T3&_)]; eauto 10.
Qed.

(* ------------------------------------------------------------ C04 *)

Lemma find_static_some qs qs' i q :
  map q_static qs = map q_static qs' -> find_q qs i = Some q ->
  exists q', find_q qs' i = Some q' /\ q_retry_count q' = q_retry_count q /\ q_retry_delay q' = q_retry_delay q
    /\ q_error q' = q_error q /\ q_id q' = q_id q.
Proof.
  intros E F. pose proof (find_q_static _ _ i E) as S. rewrite F in S. simpl in S.
  destruct (find_q qs' i) as [q'|]; [|discriminate]. simpl in S. exists q'.
  unfold q_static in S. injection S as S1 S2 S3 S4 S5. auto.
Qed.

Lemma rb12_static g n d : map q_static (queues (rb12 g n d)) = map q_static (queues d).
Proof. unfold rb12, rb2. simpl. rewrite !run_static; auto. Qed.

Lemma rollback_row g n d m d' :
  Inv d -> fst (qb_rollback g n d) = d' -> In m (msgs d) ->
  qb_peek (m_id m) d' =
    (if rollback1_p g m then None else
     let m2 := if rollback2_p g m
               then set_redelivered (retry_available (queues d) n m) m else m in
     Some (if rollback3_p (queues d) g m2 then set_error_moved m2 else m2)).
Proof.
  intros I E Hm. destruct (rollback_ok g n d I) as (d1&E1&I1&_&M&_). rewrite E1 in E. simpl in E. subst d1.
  set (q2 := queues (rb12 g n d)) in *.
  assert (St : map q_static q2 = map q_static (queues d)) by apply rb12_static.
  assert (Sd : map q_static (queues (delete_where (rollback1_p g) d)) = map q_static (queues d)).
  { simpl. apply run_static; auto. }
  assert (R3 : forall x, rollback3_p q2 g x = rollback3_p (queues d) g x).
  { intros x. unfold rollback3_p. f_equal. pose proof (find_q_static _ _ (m_queue x) St) as F.
    destruct (find_q q2 (m_queue x)) as [a|], (find_q (queues d) (m_queue x)) as [b|]; simpl in F; try discriminate; auto.
    unfold q_static in F. injection F as F1 F2 F3 F4 F5. rewrite F3. auto. }
  assert (RA : forall x, retry_available (queues (delete_where (rollback1_p g) d)) n x = retry_available (queues d) n x).
  { intros x. unfold retry_available. pose proof (find_q_static _ _ (m_queue x) Sd) as F.
    destruct (find_q (queues (delete_where _ d)) (m_queue x)) as [a|], (find_q (queues d) (m_queue x)) as [b|]; simpl in F; try discriminate; auto.
    unfold q_static in F. injection F as F1 F2 F3 F4 F5. rewrite F4. auto. }
  rewrite (peek_omap (m_id m) d d' (fun m => if rollback1_p g m then None else
     let m2 := if rollback2_p g m then set_redelivered (retry_available (queues d) n m) m else m in
     Some (if rollback3_p (queues d) g m2 then set_error_moved m2 else m2))).
  - rewrite peek_of_in; auto. apply I.
  - apply I.
  - intros a b X. destruct (rollback1_p g a); [discriminate|]. injection X as <-.
    destruct (rollback2_p g a); destruct (rollback3_p _ g _); reflexivity.
  - rewrite M. unfold rb12, rb2. rewrite msgs_update_state, msgs_delete, omap_comp, omap_map, omap_comp.
    apply omap_ext. intros a _. destruct (rollback1_p g a); auto. cbv zeta.
    rewrite R3, RA. auto.
Qed.

Lemma rollback_dequeued g n d m q :
  Inv d -> In m (msgs d) -> m_gtrid m = g -> m_state m = 3 -> find_q (queues d) (m_queue m) = Some q ->
  exists d' s m', step d (Rollback g n) = (d', Affected s) /\ qb_peek (m_id m) d' = Some m' /\ after_rollback q n m m'.
Proof.
  intros I Hm G S F. destruct (rollback_ok g n d I) as (d'&E&_).
  assert (Ed : fst (qb_rollback g n d) = d') by (rewrite E; auto).
  pose proof (rollback_row g n d m d' I Ed Hm) as P.
  assert (P1 : rollback1_p g m = false) by (unfold rollback1_p; rewrite S, andb_false_r; auto).
  assert (P2 : rollback2_p g m = true) by (unfold rollback2_p; rewrite S, G, Z.eqb_refl; auto).
  rewrite P1, P2 in P. cbv zeta in P.
  eexists d', _, _. simpl. rewrite E. split; [reflexivity|]. split; [exact P|].
  apply find_q_in in F as F'. destruct F' as [Hq Hqi].
  unfold rollback3_p. cbn [m_gtrid m_queue m_redel set_redelivered]. rewrite G, Z.eqb_refl, F. simpl.
  unfold after_rollback, retry_available. rewrite F.
  destruct (Z.eqb_spec (Z.rem (m_queue m) 2) 0) as [Ev|Od]; simpl.
  - destruct (qo_even _ (inv_qs _ I) q Hq) as [Er _]; [congruence|].
    pose proof (qo_pos _ (inv_qs _ I) q Hq).
    assert (q_error q <> 0).
    { intro. apply rem2_even_iff in Ev as [k Ev]. lia. }
    destruct (Z.ltb_spec (q_retry_count q) (m_redel m + 1)); simpl.
    + split; auto. split; auto. split; auto. split; auto. split; auto. left. repeat split; auto. lia.
    + split; auto. split; auto. split; auto. split; auto. split; auto. right. repeat split; auto. lia.
  - destruct (qo_odd _ (inv_qs _ I) q Hq) as [Er _]; [congruence|].
    split; auto. split; auto. split; auto. split; auto. split; auto. right. repeat split; auto. lia.
Qed.

Lemma rollback_enqueued g n d m :
  Inv d -> In m (msgs d) -> m_gtrid m = g -> m_state m = 1 ->
  exists d' s, step d (Rollback g n) = (d', Affected s) /\ qb_peek (m_id m) d' = None.
Proof.
  intros I Hm G S. destruct (rollback_ok g n d I) as (d'&E&_).
  assert (Ed : fst (qb_rollback g n d) = d') by (rewrite E; auto).
  pose proof (rollback_row g n d m d' I Ed Hm) as P.
  assert (P1 : rollback1_p g m = true) by (unfold rollback1_p; rewrite S, G, Z.eqb_refl; auto).
  rewrite P1 in P. exists d'. eexists. simpl. rewrite E. split; [reflexivity|]. auto.
Qed.

Lemma rollback_other g n d m q :
  Inv d -> In m (msgs d) -> find_q (queues d) (m_queue m) = Some q ->
  (m_gtrid m <> g \/ (m_state m = 2 /\ m_redel m <= q_retry_count q)) ->
  exists d' s, step d (Rollback g n) = (d', Affected s) /\ qb_peek (m_id m) d' = Some m.
Proof.
  intros I Hm F H. destruct (rollback_ok g n d I) as (d'&E&_).
  assert (Ed : fst (qb_rollback g n d) = d') by (rewrite E; auto).
  pose proof (rollback_row g n d m d' I Ed Hm) as P. exists d'. eexists. simpl. rewrite E. split; [reflexivity|].
  rewrite P. unfold rollback1_p, rollback2_p, rollback3_p.
  destruct (Z.eqb_spec (m_gtrid m) g); simpl.
  - destruct H as [H|[H H']]; [tauto|]. rewrite H. simpl. rewrite F.
    destruct (Z.ltb_spec (q_retry_count q) (m_redel m)); [lia|]. rewrite andb_false_r.
    rewrite ?andb_false_r. auto.
  - destruct (Z.eqb_spec (m_gtrid m) g); simpl; auto; tauto.
Qed.

(* ------------------------------------------------------------ C05, C06 *)

Lemma select_min_le lt l m :
  (forall a b c, lt a b = true -> lt b c = true -> lt a c = true) ->
  (forall a b c, lt a b = true -> lt c b = false -> lt a c = true) ->
  (forall a, lt a a = false) ->
  select_min lt l = Some m -> forall x, In x l -> lt x m = false.
Proof.
  intros T C R. revert m. induction l as [|y l IH]; simpl; intros m H x Hx; [tauto|].
  destruct (select_min lt l) as [b|] eqn:E.
  - specialize (IH b eq_refl).
    destruct (lt b y) eqn:B; injection H as <-; destruct Hx as [<-|Hx]; auto.
    + destruct (lt y b) eqn:Y; auto. pose proof (T _ _ _ B Y). rewrite R in *. discriminate.
    + destruct (lt x y) eqn:X; auto.
      destruct (lt x b) eqn:XB; [rewrite IH in XB by auto; discriminate|].
      (* x < y, not b < y ... then x < b by C *)
      rewrite (C x y b X B) in XB. discriminate.
  - injection H as <-. apply select_min_none in E. subst. destruct Hx as [<-|[]]. auto.
Qed.

Lemma earlier_ts_min l m : select_min earlier_ts l = Some m -> forall x, In x l -> m_ts m <= m_ts x.
Proof.
  intros H x Hx. apply (select_min_le earlier_ts) with (x := x) in H; auto; unfold earlier_ts in *; intros; bdest;
  try apply Z.ltb_lt; try apply Z.ltb_ge; lia.
Qed.

Lemma earlier_spec a b : earlier a b = true <-> m_ts a < m_ts b \/ (m_ts a = m_ts b /\ m_avail a < m_avail b).
Proof.
  unfold earlier. rewrite orb_true_iff, andb_true_iff, Z.ltb_lt, Z.eqb_eq, Z.ltb_lt. tauto.
Qed.

Lemma earlier_false a b : earlier a b = false <-> ~ (m_ts a < m_ts b \/ (m_ts a = m_ts b /\ m_avail a < m_avail b)).
Proof. rewrite <- earlier_spec. destruct (earlier a b); split; intros; auto; try discriminate. tauto. Qed.

Lemma earlier_min l m : select_min earlier l = Some m -> forall x, In x l -> m_ts m < m_ts x \/ (m_ts m = m_ts x /\ m_avail m <= m_avail x).
Proof.
  intros H x Hx. apply (select_min_le earlier) with (x := x) in H; auto.
  - apply earlier_false in H. lia.
  - intros a b c. rewrite !earlier_spec. lia.
  - intros a b c. rewrite !earlier_spec, earlier_false. lia.
  - intros a. apply earlier_false. lia.
Qed.

Lemma first_p_iff q n m : first_p q n m = true <-> deliverable q n m.
Proof.
  unfold first_p, deliverable. rewrite !andb_true_iff, !Z.eqb_eq, Z.ltb_lt. tauto.
Qed.

Lemma fifo q t n d d' r :
  qb_dequeue q no_selector t n d = (d', r) ->
  match r with
  | Some m => In m (msgs d) /\ deliverable q n m /\
              (forall x, In x (msgs d) -> deliverable q n x -> m_ts m <= m_ts x)
  | None => forall x, In x (msgs d) -> ~ deliverable q n x
  end.
Proof.
  unfold qb_dequeue, qb_fetch. simpl. intros H.
  destruct (select_min earlier (filter (first_p q n) (msgs d))) as [m|] eqn:E.
  - assert (r = Some m) by (destruct (t =? 0); congruence). subst r.
    pose proof (select_min_in _ _ _ E) as A. apply filter_In in A as [A B]. split; auto.
    split; [apply first_p_iff; auto|]. intros x Hx Dx.
    destruct (earlier_min _ _ E x); [|lia|lia]. apply filter_In. split; auto. apply first_p_iff; auto.
  - injection H as _ <-. intros x Hx Dx. apply select_min_none in E.
    assert (X : In x (filter (first_p q n) (msgs d))) by (apply filter_In; split; auto; apply first_p_iff; auto).
    rewrite E in X. destruct X.
Qed.

Lemma by_properties q props t n d d' r :
  props <> ""%string ->
  qb_dequeue q (mk_sel None props) t n d = (d', r) ->
  match r with
  | Some m => In m (msgs d) /\ deliverable q n m /\ c_props (m_content m) = props /\
              (forall x, In x (msgs d) -> deliverable q n x -> c_props (m_content x) = props -> m_ts m <= m_ts x)
  | None => forall x, In x (msgs d) -> deliverable q n x -> c_props (m_content x) <> props
  end.
Proof.
  intros NE. unfold qb_dequeue, qb_fetch. cbn [sel_id sel_props].
  destruct (String.eqb_spec props ""); [tauto|]. intros H.
  assert (K : forall x, first_match_p q props n x = true <-> deliverable q n x /\ c_props (m_content x) = props).
  { intros x. unfold first_match_p, deliverable. rewrite !andb_true_iff, !Z.eqb_eq, Z.ltb_lt, String.eqb_eq. tauto. }
  destruct (select_min earlier_ts (filter (first_match_p q props n) (msgs d))) as [m|] eqn:E.
  - assert (r = Some m) by (destruct (t =? 0); congruence). subst r.
    pose proof (select_min_in _ _ _ E) as A. apply filter_In in A as [A B]. apply K in B as [B C].
    split; auto. split; auto. split; auto. intros x Hx Dx Px.
    apply (earlier_ts_min _ _ E). apply filter_In. split; auto. apply K; auto.
  - injection H as _ <-. intros x Hx Dx Px. apply select_min_none in E.
    assert (X : In x (filter (first_match_p q props n) (msgs d))) by (apply filter_In; split; auto; apply K; auto).
    rewrite E in X. destruct X.
Qed.

Lemma by_id q i props t n d d' r :
  qb_dequeue q (mk_sel (Some i) props) t n d = (d', r) ->
  match r with
  | Some m => In m (msgs d) /\ m_id m = i /\ m_queue m = q /\ m_state m = 2
  | None => forall x, In x (msgs d) -> m_id x = i -> m_queue x = q -> m_state x <> 2
  end.
Proof.
  unfold qb_dequeue, qb_fetch. cbn [sel_id]. intros H.
  destruct (hd_error (filter (first_id_p i q) (msgs d))) as [m|] eqn:E.
  - assert (r = Some m) by (destruct (t =? 0); congruence). subst r.
    apply hd_error_in, filter_In in E as [A B]. unfold first_id_p in B. bdest. auto.
  - injection H as _ <-. intros x Hx A B C.
    assert (X : In x (filter (first_id_p i q) (msgs d))).
    { apply filter_In; split; auto. unfold first_id_p. rewrite A, B, C, !Z.eqb_refl. auto. }
    destruct (filter (first_id_p i q) (msgs d)); [destruct X|discriminate].
Qed.

Lemma browse_next q last n d r :
  qb_browse q last n d = r ->
  match r with
  | Some m => In m (msgs d) /\ deliverable q n m /\ last < m_ts m /\
              (forall x, In x (msgs d) -> deliverable q n x -> last < m_ts x -> m_ts m <= m_ts x)
  | None => forall x, In x (msgs d) -> deliverable q n x -> m_ts x <= last
  end.
Proof.
  unfold qb_browse. intros <-.
  assert (K : forall x, browse_p q last n x = true <-> deliverable q n x /\ last < m_ts x).
  { intros x. unfold browse_p, deliverable. rewrite !andb_true_iff, !Z.eqb_eq, !Z.ltb_lt. tauto. }
  destruct (select_min earlier (filter (browse_p q last n) (msgs d))) as [m|] eqn:E.
  - pose proof (select_min_in _ _ _ E) as A. apply filter_In in A as [A B]. apply K in B as [B C].
    split; auto. split; auto. split; auto. intros x Hx Dx Px.
    destruct (earlier_min _ _ E x); [|lia|lia]. apply filter_In. split; auto. apply K; auto.
  - intros x Hx Dx. apply select_min_none in E. destruct (Z.le_gt_cases (m_ts x) last); auto.
    assert (X : In x (filter (browse_p q last n) (msgs d))) by (apply filter_In; split; auto; apply K; split; auto; lia).
    rewrite E in X. destruct X.
Qed.

(* ------------------------------------------------------------ C07 *)

Lemma total_cnt_len (p : msg -> bool) l : total (fun m => if p m then 1 else 0) l = Z.of_nat (List.length (filter p l)).
Proof. induction l as [|a l IH]; simpl in *; auto. rewrite IH. destruct (p a); cbn [List.length]; lia. Qed.

Lemma total_siz_sum (p : msg -> bool) l : total (fun m => if p m then plen m else 0) l = total_payload (filter p l).
Proof.
  unfold total_payload. induction l as [|a l IH]; simpl in *; auto. rewrite IH. destruct (p a); simpl; auto.
Qed.

Lemma metrics_exact d q :
  Inv d -> In q (queues d) ->
  q_count q = Z.of_nat (List.length (committed_in (q_id q) (msgs d))) /\
  q_size q = total_payload (committed_in (q_id q) (msgs d)) /\
  q_uncommitted q = Z.of_nat (List.length (uncommitted_in (q_id q) (msgs d))).
Proof.
  intros I Hq. destruct (inv_metrics _ I q Hq) as (A&B&C).
  assert (E : forall m, In m (msgs d) ->
     (m_queue m =? q_id q) && is_committed m = (m_queue m =? q_id q) && negb (m_state m =? 1)).
  { intros m Hm. destruct (inv_rows _ I m Hm) as ([S|[S|S]]&_); unfold is_committed; rewrite S; auto. }
  assert (FE : filter (fun m => (m_queue m =? q_id q) && is_committed m) (msgs d) = committed_in (q_id q) (msgs d)).
  { apply filter_ext_in. auto. }
  rewrite A, B, C. split; [|split].
  - rewrite <- FE. unfold cnt. apply total_cnt_len.
  - rewrite <- FE. unfold siz. apply total_siz_sum.
  - unfold unc. apply total_cnt_len.
Qed.

(* enqueued - dequeued = count, as long as nobody resets the metrics *)
Definition flow (q : qrow) := q_enqueued q - q_dequeued q - q_count q.

Definition flow_trig {A} (t : A -> qrow -> qrow) := forall r q, flow (t r q) = flow q.
Ltac flow_tac :=
  unfold flow;
  repeat match goal with |- context [if ?b then _ else _] => destruct b; cbn [q_id q_name q_retry_count q_retry_delay q_error q_count q_size q_uncommitted q_dequeued q_enqueued q_last] end;
  lia.
Lemma flow_insert : flow_trig trig_insert.
Proof. intros r q. unfold_trig. cbv zeta. flow_tac. Qed.
Lemma flow_state f : flow_trig (fun m => trig_state m (f m)).
Proof. intros r q. unfold_trig. cbv zeta. flow_tac. Qed.
Lemma flow_queue f : flow_trig (fun m => trig_queue m (f m)).
Proof. intros r q. unfold_trig. cbv zeta. flow_tac. Qed.
Lemma flow_delete : flow_trig trig_delete.
Proof. intros r q. unfold_trig. cbv zeta. flow_tac. Qed.

Definition flow_ok (d : db) := forall q, In q (queues d) -> flow q = 0.

Lemma flow_run {A} (t : A -> qrow -> qrow) rows qs :
  flow_trig t -> (forall q, In q qs -> flow q = 0) -> forall q, In q (run_triggers t rows qs) -> flow q = 0.
Proof.
  intros F H q Hq. rewrite run_triggers_map in Hq. apply in_map_iff in Hq as [q0 [<- Hq]].
  specialize (H q0 Hq). clear Hq. revert q0 H. induction rows as [|r rows IH]; simpl; intros q0 H; auto.
  apply IH. rewrite F. auto.
Qed.

Lemma flow_delete_where p d : flow_ok d -> flow_ok (delete_where p d).
Proof. intros F q Hq. simpl in Hq. eapply flow_run; eauto using flow_delete. Qed.
Lemma flow_update_state p f d : flow_ok d -> flow_ok (update_state_where p f d).
Proof. intros F q Hq. simpl in Hq. eapply flow_run; eauto using flow_state. Qed.
Lemma flow_update_queue p f d d' : flow_ok d -> update_queue_where p f d = Some d' -> flow_ok d'.
Proof.
  intros F E q Hq. unfold update_queue_where in E. destruct (fk_ok _); [|discriminate]. injection E as <-.
  simpl in Hq. eapply flow_run; eauto using flow_queue.
Qed.

Lemma flow_commit g d : flow_ok d -> flow_ok (fst (qb_commit g d)).
Proof. intros F. simpl. apply flow_delete_where, flow_update_state; auto. Qed.

Lemma flow_rollback g n d : flow_ok d -> flow_ok (fst (qb_rollback g n d)).
Proof.
  intros F. rewrite qb_rollback_unfold.
  assert (F2 : flow_ok (rb12 g n d)) by (apply flow_update_state, flow_delete_where; auto).
  destruct (rb3 g (rb12 g n d)) eqn:E; simpl; auto. eapply flow_update_queue; eauto.
Qed.

Lemma flow_insert_queue n c dl e qs qs' i :
  insert_queue n c dl e qs = Some (qs', i) -> (forall q, In q qs -> flow q = 0) -> forall q, In q qs' -> flow q = 0.
Proof.
  unfold insert_queue. destruct (name_taken _ _); [discriminate|]. intros H F q Hq. injection H as <- _.
  apply in_app_iff in Hq as [Hq|[<-|[]]]; auto.
Qed.

Lemma update_queue_row_flow i n c dl qs qs' :
  update_queue_row i n c dl qs = Some qs' -> (forall q, In q qs -> flow q = 0) -> forall q, In q qs' -> flow q = 0.
Proof.
  unfold update_queue_row. destruct (_ && _); [discriminate|]. intros H F q Hq. injection H as <-.
  apply in_map_iff in Hq as [q0 [<- Hq]]. destruct (q_id q0 =? i); auto. unfold flow; simpl. apply F in Hq. exact Hq.
Qed.

Lemma flow_configure ws d d' : flow_ok d -> qb_configure ws d = Some d' -> flow_ok d'.
Proof.
  intros F H. unfold qb_configure in H.
  destruct (fold_opt qb_remove_queue _ d) as [d1|] eqn:E1; [|discriminate].
  destruct (fold_opt _ _ d1) as [d2|] eqn:E2 in H; [|discriminate].
  assert (F1 : flow_ok d1).
  { eapply (fold_opt_ind _ flow_ok); [|exact F|exact E1]. intros i x y _ Fx Hf q Hq. apply Fx.
    unfold qb_remove_queue in Hf. destruct (find_q _ _); [|injection Hf as <-; auto].
    unfold delete_queue_row in Hf. destruct (fk_ok _); [|discriminate]. simpl in Hf.
    destruct (fk_ok _); [|discriminate]. injection Hf as <-. simpl in Hq.
    apply filter_In in Hq as [Hq _]. apply filter_In in Hq as [Hq _]. auto. }
  assert (F2 : flow_ok d2).
  { eapply (fold_opt_ind _ flow_ok); [|exact F1|exact E2]. intros w x y _ Fx Hf.
    cbv beta in Hf. destruct (find_name (queues d) (w_name w)); [|injection Hf as <-; auto]. unfold qb_update in Hf.
    destruct (find_q (queues x) (q_id q)); [|injection Hf as <-; auto].
    destruct (update_queue_row _ _ _ _ (queues x)) as [qs1|] eqn:U1; [|discriminate].
    destruct (update_queue_row _ _ _ _ qs1) as [qs2|] eqn:U2; [|discriminate]. injection Hf as <-.
    intros z Hz. simpl in Hz. eapply update_queue_row_flow; eauto. eapply update_queue_row_flow; eauto. }
  eapply (fold_opt_ind _ flow_ok); [|exact F2|exact H]. intros w x y _ Fx Hf. unfold qb_create in Hf.
  destruct (insert_queue _ _ _ _ (queues x)) as [[qs1 i1]|] eqn:U1; [|discriminate].
  destruct (insert_queue _ _ _ _ qs1) as [[qs2 i2]|] eqn:U2; [|discriminate]. injection Hf as <-.
  intros z Hz. simpl in Hz. eapply flow_insert_queue; eauto. eapply flow_insert_queue; eauto.
Qed.

Lemma flow_step d o d' r : Inv d -> flow_ok d -> step d o = (d', r) -> (forall l, o <> MetricReset l) -> flow_ok d'.
Proof.
  intros I F H NR. destruct o; simpl in H.
  - destruct (qb_configure ws d) eqn:E; injection H as <- _; auto. eapply flow_configure; eauto.
  - destruct (qb_enqueue q id trid c avail now d) eqn:E; injection H as <- _; auto.
    unfold qb_enqueue, insert_msg in E. destruct (existsb _ _); [discriminate|]. destruct (negb _); [discriminate|].
    injection E as <-. intros x Hx. simpl in Hx. apply in_map_iff in Hx as [y [<- Hy]].
    rewrite flow_insert. auto.
  - unfold qb_dequeue in H. destruct (qb_fetch _ _ _ _); [destruct (trid =? 0)|]; injection H as <- _; auto.
    + apply flow_delete_where; auto.
    + apply flow_update_state; auto.
  - injection H as <- _; auto.
  - pose proof (flow_commit g d F). unfold qb_commit in *. injection H as <- _. auto.
  - pose proof (flow_rollback g sqlnow d F). destruct (qb_rollback g sqlnow d) as [x [y|]]; injection H as <- _; auto.
  - pose proof (recovery_commit_spec gs d) as R. destruct (qb_recovery_commit gs d) as [[d1 s] k]. simpl in R.
    injection H as <- _. rewrite R. clear -F. revert d F. induction gs; intros d F; cbn [fold_left]; auto.
    apply IHgs. apply flow_commit; auto.
  - destruct (recovery_rollback_ok gs sqlnow d I) as (d1&s&k&E&_&R). rewrite E in H. injection H as <- _.
    rewrite R. clear -F. revert d F. induction gs; intros d F; cbn [fold_left]; auto.
    apply IHgs. apply flow_rollback; auto.
  - unfold qb_restore in H. destruct (update_queue_where _ _ _) eqn:E; injection H as <- _; auto.
    eapply flow_update_queue; eauto.
  - unfold qb_clear in H. injection H as <- _. apply flow_delete_where; auto.
  - assert (G : forall p l x, flow_ok x -> flow_ok (fst (qb_remove p q l x))).
    { intros p. induction l as [|i l IH]; intros x Fx; simpl; auto.
      specialize (IH (delete_where (p q i) x) (flow_delete_where _ _ Fx)).
      destruct (qb_remove p q l (delete_where (p q i) x)); auto. }
    specialize (G (if force then force_remove_p else remove_p) ids d F).
    destruct (qb_remove (if force then force_remove_p else remove_p) q ids d). injection H as <- _. auto.
  - exfalso. eapply NR; eauto.
Qed.

Lemma flow_history tr d :
  history db_empty tr d -> (forall l r, ~ In (MetricReset l, r) tr) -> flow_ok d.
Proof.
  intros H N.
  assert (G : forall a t b, history a t b -> Inv a -> flow_ok a -> (forall l r, ~ In (MetricReset l, r) t) -> flow_ok b).
  { intros a t b X. induction X; intros I F NR; auto.
    apply IHX.
    - eapply Inv_step; eauto.
    - eapply flow_step; eauto. intros l ->. eapply NR. simpl; left; reflexivity.
    - intros l z Hz. eapply NR. simpl; right; eauto. }
  eapply G; eauto using Inv_empty. intros q [].
Qed.

(* ------------------------------------------------------------ C10 *)

Lemma restore_exact d q :
  Inv d ->
  exists d', step d (Restore q) =
     (d', Affected (Z.of_nat (List.length (filter (fun m => negb (m_queue m =? q) && (m_state m =? 2) && (m_origin m =? q)) (msgs d))))) /\
   (forall m, In m (msgs d) ->
      qb_peek (m_id m) d' =
        Some (if negb (m_queue m =? q) && (m_state m =? 2) && (m_origin m =? q) then set_queue q m else m)) /\
   List.length (msgs d') = List.length (msgs d).
Proof.
  intros I. destruct (restore_ok q d I) as (d'&E&I'&M). exists d'. simpl. rewrite E.
  assert (R : forall m, restore_p q m = negb (m_queue m =? q) && (m_state m =? 2) && (m_origin m =? q)).
  { intros m. unfold restore_p. destruct (Z.eqb_spec (m_origin m) q); [subst; auto|]. rewrite !andb_false_r. auto. }
  split; [|split].
  - unfold affected. rewrite (filter_ext _ _ R). auto.
  - intros m Hm.
    rewrite (peek_omap (m_id m) d d' (fun m => Some (if restore_p q m then set_queue q m else m))).
    + rewrite peek_of_in; auto; [|apply I]. rewrite R. auto.
    + apply I.
    + intros a b X. injection X as <-. destruct (restore_p q a); auto.
    + rewrite M. apply omap_map.
  - rewrite M, map_length. auto.
Qed.

(* ------------------------------------------------------------ C11 *)

Definition pending_b (g : Z) (d : db) : bool :=
  existsb (fun m => (m_gtrid m =? g) && ((m_state m =? 1) || (m_state m =? 3))) (msgs d).

Lemma pending_b_iff g d : pending_b g d = true <-> pending g d.
Proof.
  unfold pending_b, pending. rewrite existsb_exists. split; intros [m [A B]]; exists m; split; auto.
  - apply andb_true_iff in B as [B C]. apply orb_true_iff in C. bdest. rewrite !Z.eqb_eq in C. auto.
  - destruct B as [B C]. rewrite B, Z.eqb_refl. simpl. apply orb_true_iff. rewrite !Z.eqb_eq. auto.
Qed.

Lemma affected_zero p d : (affected p d =? 0) = negb (existsb p (msgs d)).
Proof.
  unfold affected. induction (msgs d) as [|m l IH]; simpl; auto.
  destruct (p m); simpl; auto.
Qed.

Lemma existsb_or {A} (p q : A -> bool) l : existsb p l || existsb q l = existsb (fun a => p a || q a) l.
Proof.
  induction l as [|a l IH]; simpl; auto. rewrite <- IH.
  destruct (p a), (q a), (existsb p l), (existsb q l); auto.
Qed.

Lemma existsb_map {A B} (p : B -> bool) (f : A -> B) l : existsb p (map f l) = existsb (fun a => p (f a)) l.
Proof. induction l; simpl; auto. rewrite IHl. auto. Qed.

Lemma existsb_ext {A} (p q : A -> bool) l : (forall a, p a = q a) -> existsb p l = existsb q l.
Proof. intros H. induction l; simpl; auto. rewrite IHl, H. auto. Qed.

Lemma commit_kept g d :
  (affected (commit1_p g) d =? 0) && (affected (commit2_p g) (update_state_where (commit1_p g) set_committed d) =? 0)
  = negb (pending_b g d).
Proof.
  rewrite !affected_zero. simpl. rewrite <- negb_orb, existsb_map.
  replace (existsb (fun a => commit2_p g (if commit1_p g a then set_committed a else a)) (msgs d))
    with (existsb (commit2_p g) (msgs d)).
  2:{ apply existsb_ext. intros a. unfold commit1_p, commit2_p.
      destruct (Z.eqb_spec (m_gtrid a) g); simpl; [|destruct (Z.eqb_spec (m_gtrid a) g); auto; tauto].
      destruct (Z.eqb_spec (m_state a) 1); simpl.
      - rewrite e0. rewrite andb_comm. auto.
      - destruct (Z.eqb_spec (m_gtrid a) g); simpl; tauto. }
  f_equal. rewrite existsb_or. apply existsb_ext. intros a. unfold commit1_p, commit2_p.
  destruct (m_gtrid a =? g); auto.
Qed.

Lemma rollback_kept g d :
  (affected (rollback1_p g) d =? 0) && (affected (rollback2_p g) (delete_where (rollback1_p g) d) =? 0)
  = negb (pending_b g d).
Proof.
  rewrite !affected_zero. simpl. rewrite <- negb_orb. f_equal. unfold pending_b.
  induction (msgs d) as [|a l IH]; simpl; auto. rewrite <- IH. unfold rollback1_p, rollback2_p.
  destruct (m_gtrid a =? g) eqn:G; simpl; rewrite ?G; auto.
  destruct (m_state a =? 1) eqn:S1; simpl; rewrite ?G; simpl; auto.
  destruct (m_state a =? 3); simpl; auto. rewrite orb_true_r. auto.
Qed.

(* committing or rolling back one transaction does not change which others are pending *)
Lemma pending_commit_other g h d : g <> h -> pending_b g (fst (qb_commit h d)) = pending_b g d.
Proof.
  intros N. unfold pending_b. simpl. induction (msgs d) as [|a l IH]; simpl; auto.
  unfold commit1_p, commit2_p in *.
  destruct (Z.eqb_spec (m_gtrid a) h) as [E|E]; simpl.
  - assert (X : (m_gtrid a =? g) = false) by (apply Z.eqb_neq; congruence).
    assert (Y : (m_gtrid a =? h) = true) by (apply Z.eqb_eq; auto).
    destruct (m_state a =? 1) eqn:S1; simpl; rewrite ?Y; simpl; rewrite ?X; simpl; auto.
    destruct (m_state a =? 3); simpl; rewrite ?X; auto.
  - assert (Y : (m_gtrid a =? h) = false) by (apply Z.eqb_neq; auto).
    rewrite Y. simpl. rewrite IH. auto.
Qed.

Lemma pending_rollback_other g h n d : Inv d -> g <> h -> pending_b g (fst (qb_rollback h n d)) = pending_b g d.
Proof.
  intros I N. destruct (rollback_ok h n d I) as (d'&E&_&_&M&_). rewrite E. simpl.
  unfold pending_b. rewrite M, existsb_map.
  rewrite (existsb_ext _ (fun m => (m_gtrid m =? g) && ((m_state m =? 1) || (m_state m =? 3)))).
  2:{ intros a. destruct (rollback3_p _ h a); auto. }
  unfold rb12, rb2. cbn [msgs update_state_where]. rewrite existsb_map.
  rewrite (existsb_ext _ (fun m => (m_gtrid m =? g) && ((m_state m =? 1) || (m_state m =? 3)))).
  2:{ intros a. unfold rollback2_p. destruct (Z.eqb_spec (m_gtrid a) h) as [E1|E1]; auto.
      assert (X : (m_gtrid a =? g) = false) by (apply Z.eqb_neq; congruence).
      destruct (m_state a =? 3); cbn [andb m_gtrid set_redelivered]; rewrite X; auto. }
  cbn [msgs delete_where]. clear -N. induction (msgs d) as [|a l IH]; simpl; auto.
  unfold rollback1_p at 1.
  destruct (Z.eqb_spec (m_gtrid a) h) as [E|E]; simpl.
  - assert (X : (m_gtrid a =? g) = false) by (apply Z.eqb_neq; congruence).
    destruct (m_state a =? 1) eqn:S1; simpl; rewrite ?X; simpl; auto.
  - rewrite IH. auto.
Qed.

Lemma recovery_commit_kept gs d :
  NoDup gs -> snd (qb_recovery_commit gs d) = filter (fun g => pending_b g d) gs.
Proof.
  revert d. induction gs as [|g gs IH]; intros d N; auto. inversion N; subst.
  pose proof (commit_kept g d) as K.
  change (snd (let '(d3, s, kept) := qb_recovery_commit gs (fst (qb_commit g d)) in
      (d3, snd (qb_commit g d) + s,
        if (affected (commit1_p g) d =? 0) && (affected (commit2_p g) (update_state_where (commit1_p g) set_committed d) =? 0)
        then kept else g :: kept)) = filter (fun g => pending_b g d) (g :: gs)).
  rewrite K. specialize (IH (fst (qb_commit g d)) H2).
  destruct (qb_recovery_commit gs (fst (qb_commit g d))) as [[d3 s] kept].
  cbn [snd] in IH |- *. subst kept.
  assert (E : filter (fun h => pending_b h (fst (qb_commit g d))) gs = filter (fun h => pending_b h d) gs).
  { apply filter_ext_in. intros h Hh. apply pending_commit_other. congruence. }
  rewrite E. cbn [filter]. destruct (pending_b g d); auto.
Qed.

Lemma recovery_rollback_kept gs n d :
  Inv d -> NoDup gs ->
  exists d' s, qb_recovery_rollback gs n d = (d', Some (s, filter (fun g => pending_b g d) gs)).
Proof.
  revert d. induction gs as [|g gs IH]; intros d I N; [simpl; eauto|]. inversion N; subst.
  rewrite recovery_rollback_cons, rollback_kept.
  pose proof (pending_rollback_other) as PO.
  destruct (rollback_ok g n d I) as (d1&E&I1&_). rewrite E.
  destruct (IH d1 I1 H2) as (d2&s&E2). rewrite E2. eexists _, _.
  assert (F : filter (fun h => pending_b h d1) gs = filter (fun h => pending_b h d) gs).
  { apply filter_ext_in. intros h Hh. replace d1 with (fst (qb_rollback g n d)) by (rewrite E; auto).
    apply PO; auto. congruence. }
  rewrite F. cbn [filter]. destruct (pending_b g d); reflexivity.
Qed.

Lemma filter_pending gs d : forall g, In g (filter (fun g => pending_b g d) gs) <-> In g gs /\ pending g d.
Proof. intros g. rewrite filter_In, pending_b_iff. tauto. Qed.

(* ------------------------------------------------------------ sharper forms of C01 and C02 *)

Lemma first_split {A} (P : A -> Prop) (dec : forall a, {P a} + {~ P a}) l :
  (exists a, In a l /\ P a) -> exists u a v, l = u ++ a :: v /\ P a /\ forall x, In x u -> ~ P x.
Proof.
  induction l as [|b l IH]; intros [a [Ha Pa]]; [destruct Ha|].
  destruct (dec b) as [Pb|Nb].
  - exists [], b, l. simpl. auto.
  - destruct IH as (u&x&v&E&Px&N).
    + destruct Ha as [->|Ha]; [tauto|eauto].
    + exists (b :: u), x, v. subst. simpl. split; auto. split; auto. intros y [<-|Hy]; auto.
Qed.

Lemma absent_stays i t d d' :
  Inv d -> history d t d' -> (forall e, In e t -> ~ enqueued_any i e) -> qb_peek i d = None -> qb_peek i d' = None.
Proof.
  intros I H NE P. destruct (qb_peek i d') as [m|] eqn:P'; auto. exfalso.
  apply (row_invariant (fun m => False) (fun _ => False) i) with (t := t) (d := d) (d' := d') (m := m); auto.
  - intros; tauto.
  - intros y Hy. congruence.
Qed.

(* a row of transaction [g] pending in state [s] vanishes for good when the transaction is settled the "wrong" way *)
Lemma pending_then_settled i (P : msg -> Prop) (bad done : event -> Prop) (dec : forall e, {done e} + {~ done e}) :
  (forall o r m y, ~ bad (o, r) -> P m -> m_id m = i -> trans o r m y -> match y with Some m' => P m' | None => True end) ->
  (forall d o r d', Inv d -> step d o = (d', r) -> done (o, r) -> forall m, In m (msgs d') -> ~ P m) ->
  forall u d d', Inv d -> history d u d' -> (forall e, In e u -> ~ bad e /\ ~ enqueued_any i e) ->
  (forall m, qb_peek i d = Some m -> P m) ->
  forall m, qb_peek i d' = Some m -> forall e, In e u -> ~ done e.
Proof.
  intros T D u d d' I H B P0 m Pm.
  destruct (exists_or_none done dec u) as [X|X]; auto. exfalso.
  destruct (first_split done dec u X) as (u1&[o r]&u2&->&Dx&_).
  apply history_app in H as [d1 [H1 H]]. apply history_cons in H as [d2 [S H2]].
  assert (I1 : Inv d1) by (eapply Inv_history; eauto).
  assert (I2 : Inv d2) by (eapply Inv_step; eauto).
  assert (P1 : forall m, qb_peek i d1 = Some m -> P m).
  { apply (row_invariant P bad i T u1 d d1); auto. intros e He. apply B. apply in_or_app; auto. }
  assert (P2 : forall m, qb_peek i d2 = Some m -> P m).
  { apply (row_invariant P bad i T [(o, r)] d1 d2); auto.
    - econstructor; eauto. constructor.
    - intros e [<-|[]]. apply B. apply in_or_app; simpl; auto. }
  assert (P3 : qb_peek i d2 = None).
  { destruct (qb_peek i d2) as [x|] eqn:E; auto. exfalso. apply (D d1 o r d2 I1 S Dx x); auto.
    apply peek_in in E. tauto. }
  assert (P4 : qb_peek i d' = None).
  { apply (absent_stays i u2 d2 d'); auto. intros e He. apply B. apply in_or_app; simpl; auto. }
  congruence.
Qed.

Lemma isolation_enqueue_sharp t1 e1 t2 e2 t3 d i g :
  history db_empty (t1 ++ e1 :: t2 ++ e2 :: t3) d ->
  g <> 0 -> enqueued i g e1 -> (forall e, In e t2 -> ~ enqueued_any i e) -> shown i e2 ->
  exists u e v, t2 = u ++ e :: v /\ commits g e /\ forall x, In x u -> ~ rolls_back g x.
Proof.
  intros H G E1 NE E2. pose proof (isolation_enqueue _ _ _ _ _ _ _ _ H G E1 NE E2) as X.
  destruct (first_split _ (commits_dec g) _ X) as (u&[oe re]&v&->&Ce&Nu).
  exists u, (oe, re), v. split; auto. split; auto.
  apply split_history in H as (d0&d1&d2&d3&I0&S0&I1&H&I2&S2).
  destruct E1 as (q&c&a&n&->). change (step d0 (Enqueue q i g c a n) = (d1, Done)) in S0.
  apply enqueue_event in S0; auto. destruct (Z.eqb_spec g 0); [tauto|].
  destruct e2 as [o2 r2]. destruct (shown_event _ _ _ _ _ I2 S2 E2) as (m&P&St).
  apply history_app in H as [d4 [H4 H]].
  pose proof (Inv_history _ _ _ I1 H4) as I4.
  assert (NEu : forall e, In e u -> ~ enqueued_any i e) by (intros; apply NE; apply in_or_app; auto).
  assert (NEv : forall e, In e ((oe, re) :: v) -> ~ enqueued_any i e) by (intros; apply NE; apply in_or_app; auto).
  destruct (qb_peek i d4) as [m4|] eqn:P4.
  2:{ rewrite (absent_stays i _ _ _ I4 H NEv P4) in P. discriminate. }
  apply (pending_then_settled i (fun m => m_state m = 1 /\ m_gtrid m = g) (commits g) (rolls_back g) (rolls_back_dec g))
    with (d := d1) (d' := d4) (m := m4); auto.
  - intros o r x y NB [A B] _ T. inversion T; subst; auto; try (simpl in *; lia).
    exfalso. apply NB. first [apply commits_op; assumption|apply rolls_op; assumption].
  - intros a0 o r b Ia Sa Ra x Hx [A B]. destruct (settles_rollback _ _ _ _ _ Ia Sa Ra x Hx B). tauto.
  - intros x Hx. rewrite S0 in Hx. injection Hx as <-. auto.
Qed.

Lemma isolation_dequeue_sharp t1 e1 t2 e2 t3 d i g :
  history db_empty (t1 ++ e1 :: t2 ++ e2 :: t3) d ->
  dequeued i g e1 -> (forall e, In e t2 -> ~ enqueued_any i e) -> shown i e2 ->
  g <> 0 /\ exists u e v, t2 = u ++ e :: v /\ rolls_back g e /\ forall x, In x u -> ~ commits g x.
Proof.
  intros H E1 NE E2. pose proof (isolation_dequeue _ _ _ _ _ _ _ _ H E1 NE E2) as [G X].
  split; auto.
  destruct (first_split _ (rolls_back_dec g) _ X) as (u&[oe re]&v&->&Ce&Nu).
  exists u, (oe, re), v. split; auto. split; auto.
  apply split_history in H as (d0&d1&d2&d3&I0&S0&I1&H&I2&S2).
  destruct E1 as (q&s&n&w&->&<-). change (step d0 (Dequeue q s g n) = (d1, GotMessage (Some w))) in S0.
  apply dequeue_event in S0 as (_&_&_&S0); auto. destruct (Z.eqb_spec g 0); [tauto|].
  destruct e2 as [o2 r2]. destruct (shown_event _ _ _ _ _ I2 S2 E2) as (m&P&St).
  apply history_app in H as [d4 [H4 H]].
  pose proof (Inv_history _ _ _ I1 H4) as I4.
  assert (NEu : forall e, In e u -> ~ enqueued_any (m_id w) e) by (intros; apply NE; apply in_or_app; auto).
  assert (NEv : forall e, In e ((oe, re) :: v) -> ~ enqueued_any (m_id w) e) by (intros; apply NE; apply in_or_app; auto).
  destruct (qb_peek (m_id w) d4) as [m4|] eqn:P4.
  2:{ rewrite (absent_stays (m_id w) _ _ _ I4 H NEv P4) in P. discriminate. }
  apply (pending_then_settled (m_id w) (fun m => m_state m = 3 /\ m_gtrid m = g) (rolls_back g) (commits g) (commits_dec g))
    with (d := d1) (d' := d4) (m := m4); auto.
  - intros o r x y NB [A B] _ T. inversion T; subst; auto; try (simpl in *; lia).
    exfalso. apply NB. first [apply commits_op; assumption|apply rolls_op; assumption].
  - intros a0 o r b Ia Sa Ra x Hx [A B]. destruct (settles_commit _ _ _ _ _ Sa Ra x Hx B). tauto.
  - intros x Hx. rewrite S0 in Hx. injection Hx as <-. auto.
Qed.

(* ------------------------------------------------------------ executing requests, for the examples *)

Fixpoint exec (d : db) (os : list op) : list event * db :=
  match os with
  | [] => ([], d)
  | o :: rest => let '(d1, r) := step d o in let '(t, d2) := exec d1 rest in ((o, r) :: t, d2)
  end.

Lemma exec_history d os : history d (fst (exec d os)) (snd (exec d os)).
Proof.
  revert d. induction os as [|o os IH]; intros d; simpl; [constructor|].
  destruct (step d o) as [d1 r] eqn:S. specialize (IH d1). destruct (exec d1 os) as [t d2]. simpl in *.
  econstructor; eauto.
Qed.

Lemma exec_reachable os : reachable (snd (exec db_empty os)).
Proof. eexists. apply exec_history. Qed.

(* ------------------------------------------------------------ request-level forms *)

Lemma error_queue_last d m :
  reachable d -> In m (msgs d) ->
  exists q, find_q (queues d) (m_queue m) = Some q /\
    (q_error q = 0 \/ exists e, find_q (queues d) (q_error q) = Some e /\ q_error e = 0).
Proof.
  intros R Hm. apply Inv_reachable in R as I.
  pose proof (inv_fk _ I m Hm) as F. unfold qids in F. apply in_map_iff in F as [q [E Hq]].
  pose proof (qo_nodup _ (inv_qs _ I)) as N.
  exists q. rewrite <- E. split; [apply find_q_nodup; auto|].
  destruct (Z.eq_dec (Z.rem (q_id q) 2) 0) as [Ev|Od].
  - right. destruct (qo_even _ (inv_qs _ I) q Hq Ev) as [Er He]. apply in_map_iff in He as [e [Ee He]].
    exists e. rewrite Er, <- Ee. split; [apply find_q_nodup; auto|].
    apply (qo_odd _ (inv_qs _ I) e He). rewrite Ee. apply rem2_odd_iff.
    apply rem2_even_iff in Ev as [k ->]. exists (k - 1). lia.
  - left. apply (qo_odd _ (inv_qs _ I) q Hq Od).
Qed.

Lemma step_dequeue_eq q s t n d d' r :
  step d (Dequeue q s t n) = (d', GotMessage r) -> qb_dequeue q s t n d = (d', r).
Proof. simpl. destruct (qb_dequeue q s t n d). intros H. injection H as -> ->. auto. Qed.

Lemma step_fifo q t n d d' r :
  step d (Dequeue q no_selector t n) = (d', GotMessage r) ->
  match r with
  | Some m => In m (msgs d) /\ deliverable q n m /\
              (forall x, In x (msgs d) -> deliverable q n x -> m_ts m <= m_ts x)
  | None => forall x, In x (msgs d) -> ~ deliverable q n x
  end.
Proof. intros H. apply step_dequeue_eq in H. eapply fifo; eauto. Qed.

Lemma step_by_properties q props t n d d' r :
  props <> ""%string ->
  step d (Dequeue q (mk_sel None props) t n) = (d', GotMessage r) ->
  match r with
  | Some m => In m (msgs d) /\ deliverable q n m /\ c_props (m_content m) = props /\
              (forall x, In x (msgs d) -> deliverable q n x -> c_props (m_content x) = props -> m_ts m <= m_ts x)
  | None => forall x, In x (msgs d) -> deliverable q n x -> c_props (m_content x) <> props
  end.
Proof. intros N H. apply step_dequeue_eq in H. eapply by_properties; eauto. Qed.

Lemma step_by_id q i props t n d d' r :
  step d (Dequeue q (mk_sel (Some i) props) t n) = (d', GotMessage r) ->
  match r with
  | Some m => In m (msgs d) /\ m_id m = i /\ m_queue m = q /\ m_state m = 2
  | None => forall x, In x (msgs d) -> m_id x = i -> m_queue x = q -> m_state x <> 2
  end.
Proof. intros H. apply step_dequeue_eq in H. eapply by_id; eauto. Qed.

Lemma step_browse q last n d d' r :
  step d (Browse q last n) = (d', GotMessage r) ->
  d' = d /\
  match r with
  | Some m => In m (msgs d) /\ deliverable q n m /\ last < m_ts m /\
              (forall x, In x (msgs d) -> deliverable q n x -> last < m_ts x -> m_ts m <= m_ts x)
  | None => forall x, In x (msgs d) -> deliverable q n x -> m_ts x <= last
  end.
Proof. simpl. intros H. injection H as <- H. split; auto. apply browse_next; auto. Qed.

Lemma dequeue_effect q s t n d d' m :
  reachable d -> step d (Dequeue q s t n) = (d', GotMessage (Some m)) ->
  qb_peek (m_id m) d' = (if t =? 0 then None else Some (set_taken t m)) /\
  (forall x, m_id x <> m_id m -> (In x (msgs d') <-> In x (msgs d))).
Proof.
  intros R H. apply Inv_reachable in R as I.
  destruct (dequeue_event _ _ _ _ _ _ _ I H) as (_&_&_&P). split; auto.
  apply step_dequeue_eq in H. unfold qb_dequeue in H.
  destruct (qb_fetch q s n d) as [y|]; [|discriminate].
  assert (y = m) by (destruct (t =? 0); congruence). subst y.
  intros x Nx. destruct (t =? 0); injection H as <-; simpl.
  - rewrite filter_In. split; [tauto|]. intros Hx. split; auto. apply negb_true_iff, Z.eqb_neq; auto.
  - rewrite in_map_iff. split.
    + intros [y [E Hy]]. destruct (Z.eqb_spec (m_id y) (m_id m)) as [Em|Em]; subst x; auto.
      simpl in Nx. tauto.
    + intros Hx. exists x. destruct (Z.eqb_spec (m_id x) (m_id m)); [tauto|auto].
Qed.

Lemma flow_balances tr d q :
  history db_empty tr d -> (forall l r, ~ In (MetricReset l, r) tr) -> In q (queues d) ->
  q_enqueued q - q_dequeued q = q_count q.
Proof. intros H N Hq. pose proof (flow_history tr d H N q Hq) as F. unfold flow in F. lia. Qed.

Lemma recovery_commit_full gs d d' r :
  reachable d -> NoDup gs -> step d (RecoveryCommit gs) = (d', r) ->
  (exists tr, map fst tr = map Commit gs /\ history d tr d') /\
  exists s kept, r = Recovered s kept /\ (forall g, In g kept <-> In g gs /\ pending g d).
Proof.
  intros R N H. simpl in H.
  pose proof (recovery_commit_spec gs d) as E. pose proof (recovery_commit_kept gs d N) as K.
  destruct (qb_recovery_commit gs d) as [[d1 s] k]. simpl in *. injection H as <- <-. split.
  - subst d1. clear. revert d. induction gs as [|g gs IH]; intros d; [exists []; split; auto; constructor|].
    destruct (IH (fst (qb_commit g d))) as (tr&A&B).
    exists ((Commit g, Affected (snd (qb_commit g d))) :: tr). split; [simpl; f_equal; auto|].
    cbn [fold_left]. econstructor; [reflexivity|exact B].
  - exists s, k. split; auto. intros g. rewrite K. apply filter_pending.
Qed.

Lemma recovery_rollback_full gs n d d' r :
  reachable d -> NoDup gs -> step d (RecoveryRollback gs n) = (d', r) ->
  (exists tr, map fst tr = map (fun g => Rollback g n) gs /\ history d tr d') /\
  exists s kept, r = Recovered s kept /\ (forall g, In g kept <-> In g gs /\ pending g d).
Proof.
  intros R N H. apply Inv_reachable in R as I. simpl in H.
  destruct (recovery_rollback_kept gs n d I N) as (x&s&E).
  destruct (recovery_rollback_ok gs n d I) as (y&s'&k'&E'&_&F). rewrite E in E'. injection E' as -> -> <-.
  rewrite E in H. injection H as <- <-. split.
  - subst y. clear -I. revert d I. induction gs as [|g gs IH]; intros d I; [exists []; split; auto; constructor|].
    destruct (rollback_ok g n d I) as (d1&E1&I1&_).
    destruct (IH d1 I1) as (tr&A&B).
    eexists ((Rollback g n, _) :: tr). split; [simpl; f_equal; auto|].
    cbn [fold_left]. rewrite E1. econstructor; [simpl; rewrite E1; reflexivity|exact B].
  - eexists _, _. split; [reflexivity|]. intros g. apply filter_pending.
Qed.

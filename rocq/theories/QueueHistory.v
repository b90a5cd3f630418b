(* Every request preserves the invariant, and acts on each table row by a few elementary transitions. *)
From Coq Require Import ZArith List String Bool Lia Permutation.
From Verif Require Import QueueModel QueueSpec QueueProofs.
Import ListNotations.
Local Open Scope Z_scope.

(* ------------------------------------------------------------ statements used by several requests *)

Lemma Inv_commit1 g d : Inv d -> Inv (update_state_where (commit1_p g) set_committed d).
Proof.
  intros I. apply Inv_update_state; auto. intros m Hm Hp. unfold commit1_p in Hp. bdest.
  destruct (inv_rows _ I m Hm) as (A&B&C&D). simpl. repeat split; auto; simpl; auto; try lia.
Qed.

Lemma Inv_commit g d : Inv d -> Inv (fst (qb_commit g d)).
Proof. intros I. simpl. apply Inv_delete. apply Inv_commit1. auto. Qed.

Definition rb2 g sqlnow d1 :=
  update_state_where (rollback2_p g) (fun m => set_redelivered (retry_available (queues d1) sqlnow m) m) d1.

Lemma Inv_rb2 g n d : Inv d -> Inv (rb2 g n d).
Proof.
  intros I. apply Inv_update_state; auto. intros m Hm Hp. unfold rollback2_p in Hp. bdest.
  destruct (inv_rows _ I m Hm) as (A&B&C&D). simpl. repeat split; auto; simpl; auto; lia.
Qed.

(* after rollback1 and rollback2 every row of [g] is in state 2 *)
Definition rb12 g n d := rb2 g n (delete_where (rollback1_p g) d).

Lemma Inv_rb12 g n d : Inv d -> Inv (rb12 g n d).
Proof. intros I. apply Inv_rb2, Inv_delete; auto. Qed.

Lemma rb12_settled g n d m : Inv d -> In m (msgs (rb12 g n d)) -> m_gtrid m = g -> m_state m = 2.
Proof.
  intros I H G. unfold rb12, rb2 in H. rewrite msgs_update_state, msgs_delete in H.
  apply omap_in in H as [m1 [H E]]. apply omap_in in H as [m0 [H E0]].
  destruct (rollback1_p g m0) eqn:P1; [discriminate|]. injection E0 as ->.
  unfold rollback2_p in E. injection E as E.
  pose proof (inv_rows _ I m1 H) as (A&_). unfold rollback1_p in P1.
  destruct ((m_gtrid m1 =? g) && (m_state m1 =? 3)) eqn:P2; subst m; simpl in *; auto.
  rewrite G, Z.eqb_refl in *. simpl in *. bdest. lia.
Qed.

Definition rb3 g d := update_queue_where (rollback3_p (queues d) g) set_error_moved d.

Lemma rb3_some g d :
  Inv d -> (forall m, In m (msgs d) -> m_gtrid m = g -> m_state m = 2) ->
  exists d', rb3 g d = Some d' /\ Inv d' /\ map q_static (queues d') = map q_static (queues d) /\
    msgs d' = map (fun m => if rollback3_p (queues d) g m then set_error_moved m else m) (msgs d).
Proof.
  intros I S. unfold rb3.
  destruct (update_queue_where (rollback3_p (queues d) g) set_error_moved d) as [d'|] eqn:E.
  - exists d'. split; auto.
    assert (I' : Inv d').
    { eapply Inv_update_queue; eauto. intros m Hm Hp. unfold rollback3_p in Hp. bdest.
      assert (S2 : m_state m = 2) by auto.
      destruct (inv_rows _ I m Hm) as (A&B&C&D). unfold is_committed. rewrite S2. simpl.
      split; [auto|]. split; [auto|]. split; [auto|]. split; [auto|]. split; [|auto].
      unfold row_ok; simpl. rewrite S2. split; [auto|]. split; [tauto|]. split; [lia|].
      destruct D as [D|[D D']]; [rewrite <- D; auto|].
      exfalso. apply rem2_even_iff in D' as [j D']. apply rem2_even_iff in H1 as [k H1]. lia. }
    split; auto. unfold update_queue_where in E. destruct (fk_ok _); [|discriminate]. injection E as <-.
    split; [|reflexivity]. simpl. apply run_static. auto.
  - exfalso. unfold update_queue_where in E. destruct (fk_ok _) eqn:FK; [discriminate|].
    assert (F : fk_ok (mk_db (map (fun m => if rollback3_p (queues d) g m then set_error_moved m else m) (msgs d))
              (run_triggers (fun m => trig_queue m (set_error_moved m)) (filter (rollback3_p (queues d) g) (msgs d)) (queues d))) = true).
    2:{ rewrite F in FK. discriminate. }
    apply fk_ok_in. simpl. unfold qids; simpl.
    rewrite (map_static_ids _ (queues d)) by (apply run_static; auto).
    intros m' H. apply in_map_iff in H as [m [<- Hm]]. pose proof (inv_fk _ I m Hm) as Fm.
    destruct (rollback3_p (queues d) g m) eqn:P; auto. simpl.
    unfold rollback3_p in P. bdest. unfold qids in Fm. apply in_map_iff in Fm as [q [A B]].
    rewrite <- A in *. apply (qo_even _ (inv_qs _ I) q B); auto.
Qed.

Lemma qb_rollback_unfold g n d :
  qb_rollback g n d =
  match rb3 g (rb12 g n d) with
  | Some d3 => (d3, Some (sum_len (filter (rollback1_p g) (msgs d))))
  | None => (rb12 g n d, None)
  end.
Proof. reflexivity. Qed.

Lemma rollback_ok g n d :
  Inv d -> exists d', qb_rollback g n d = (d', Some (sum_len (filter (rollback1_p g) (msgs d)))) /\ Inv d' /\
     rb3 g (rb12 g n d) = Some d' /\
     msgs d' = map (fun m => if rollback3_p (queues (rb12 g n d)) g m then set_error_moved m else m) (msgs (rb12 g n d)) /\
     map q_static (queues d') = map q_static (queues d).
Proof.
  intros I. destruct (rb3_some g (rb12 g n d) (Inv_rb12 g n d I)) as (d'&A&B&C&D).
  { intros m Hm G. eapply rb12_settled; eauto. }
  exists d'. rewrite qb_rollback_unfold, A. split; [auto|]. split; [auto|]. split; [auto|]. split; [auto|].
  rewrite C. unfold rb12, rb2. simpl. rewrite !run_static; auto.
Qed.

Lemma recovery_commit_spec gs d :
  fst (fst (qb_recovery_commit gs d)) = fold_left (fun d g => fst (qb_commit g d)) gs d.
Proof.
  revert d. induction gs as [|g gs IH]; intros d; simpl; auto.
  specialize (IH (fst (qb_commit g d))). simpl in IH.
  destruct (qb_recovery_commit gs _) as [[d3 s] k]. simpl in *. auto.
Qed.

Lemma recovery_rollback_cons g gs n d :
  qb_recovery_rollback (g :: gs) n d =
  match qb_rollback g n d with
  | (d2, None) => (d2, None)
  | (d3, Some size) =>
      match qb_recovery_rollback gs n d3 with
      | (d4, Some (s, kept)) =>
          (d4, Some (size + s, if (affected (rollback1_p g) d =? 0)
                                   && (affected (rollback2_p g) (delete_where (rollback1_p g) d) =? 0)
                               then kept else g :: kept))
      | (d4, None) => (d4, None)
      end
  end.
Proof.
  simpl. unfold qb_rollback. destruct (update_queue_where _ _ _); auto.
Qed.

Lemma recovery_rollback_ok gs n d :
  Inv d -> exists d' s k, qb_recovery_rollback gs n d = (d', Some (s, k)) /\ Inv d' /\
     d' = fold_left (fun d g => fst (qb_rollback g n d)) gs d.
Proof.
  revert d. induction gs as [|g gs IH]; intros d I.
  - exists d, 0, []. simpl; auto.
  - destruct (rollback_ok g n d I) as (d1&E&I1&_).
    destruct (IH d1 I1) as (d2&s&k&E2&I2&F2).
    rewrite recovery_rollback_cons, E, E2. simpl. rewrite E. simpl.
    eexists _, _, _. split; [reflexivity|]. auto.
Qed.

Lemma Inv_remove p q ids d : Inv d -> Inv (fst (qb_remove p q ids d)).
Proof.
  revert d. induction ids as [|i ids IH]; intros d I; simpl; auto.
  specialize (IH (delete_where (p q i) d) (Inv_delete _ _ I)).
  destruct (qb_remove p q ids _); auto.
Qed.

Lemma Inv_metric_reset ids d : Inv d -> Inv (qb_metric_reset ids d) /\ msgs (qb_metric_reset ids d) = msgs d.
Proof.
  unfold qb_metric_reset. revert d. induction ids as [|i ids IH]; intros d I; simpl; auto.
  set (d1 := mk_db _ _). assert (I1 : Inv d1).
  { apply Inv_map_queues; auto. intros q. destruct (q_id q =? i); simpl; auto 10. }
  destruct (IH d1 I1) as [A B]. split; auto.
Qed.

(* --- selections *)
Lemma select_min_in lt l m : select_min lt l = Some m -> In m l.
Proof.
  revert m. induction l as [|x l IH]; simpl; intros m H; [discriminate|].
  destruct (select_min lt l) as [b|]; [destruct (lt b x)|]; injection H as <-; auto.
Qed.

Lemma select_min_none lt l : select_min lt l = None -> l = [].
Proof.
  destruct l as [|x l]; simpl; auto. destruct (select_min lt l); [destruct (lt _ _)|]; discriminate.
Qed.

Lemma hd_error_in {A} (l : list A) a : hd_error l = Some a -> In a l.
Proof. destruct l; simpl; [discriminate|]. intros H. injection H as <-; auto. Qed.

Lemma fetch_in q s n d m :
  qb_fetch q s n d = Some m -> In m (msgs d) /\ m_state m = 2 /\ m_queue m = q.
Proof.
  unfold qb_fetch. destruct (sel_id s); [|destruct (String.eqb _ _)]; intros H.
  - apply hd_error_in, filter_In in H as [A B]. unfold first_id_p in B. bdest. auto.
  - apply select_min_in, filter_In in H as [A B]. unfold first_p in B. bdest. auto.
  - apply select_min_in, filter_In in H as [A B]. unfold first_match_p in B. bdest. auto.
Qed.

Lemma browse_in q l n d m :
  qb_browse q l n d = Some m -> In m (msgs d) /\ m_state m = 2 /\ m_queue m = q.
Proof.
  unfold qb_browse. intros H. apply select_min_in, filter_In in H as [A B].
  unfold browse_p in B. bdest. auto.
Qed.

Lemma Inv_dequeue q s t n d : Inv d -> Inv (fst (qb_dequeue q s t n d)).
Proof.
  intros I. unfold qb_dequeue. destruct (qb_fetch q s n d) as [m|] eqn:F; auto.
  apply fetch_in in F as [Hm [S _]].
  destruct (Z.eqb_spec t 0); simpl.
  - apply Inv_delete; auto.
  - apply Inv_update_state; auto. intros r Hr Hp. bdest.
    assert (r = m) by (apply (nodup_unique (msgs d)); auto; apply I). subst r.
    destruct (inv_rows _ I m Hm) as (A&B&C&D). simpl. repeat split; auto; simpl; auto; try lia.
Qed.

Lemma enqueue_row_ok q i t c a n : row_ok (mk_msg i q q t (if t =? 0 then 2 else 1) 0 a n c).
Proof.
  unfold row_ok. simpl. destruct (Z.eqb_spec t 0); repeat split; auto; try lia; simpl; auto.
Qed.

Lemma restore_ok q d :
  Inv d -> exists d', qb_restore q d = (d', Some (affected (restore_p q) d)) /\ Inv d' /\
     msgs d' = map (fun m => if restore_p q m then set_queue q m else m) (msgs d).
Proof.
  intros I. unfold qb_restore.
  destruct (update_queue_where (restore_p q) (set_queue q) d) as [d'|] eqn:E.
  - exists d'. split; auto. split.
    + eapply Inv_update_queue; eauto. intros m Hm Hp. unfold restore_p in Hp. bdest.
      destruct (inv_rows _ I m Hm) as (A&B&C&D). unfold is_committed. rewrite H1. simpl.
      split; [auto|]. split; [auto|]. split; [auto|]. split; [auto|]. split; [|auto].
      unfold row_ok; simpl. repeat split; auto. 
    + unfold update_queue_where in E. destruct (fk_ok _); [|discriminate]. injection E as <-. reflexivity.
  - exfalso. unfold update_queue_where in E. destruct (fk_ok _) eqn:FK; [discriminate|].
    assert (F : fk_ok (mk_db (map (fun m => if restore_p q m then set_queue q m else m) (msgs d))
              (run_triggers (fun m => trig_queue m (set_queue q m)) (filter (restore_p q) (msgs d)) (queues d))) = true).
    2:{ rewrite F in FK. discriminate. }
    apply fk_ok_in. simpl. unfold qids; simpl.
    rewrite (map_static_ids _ (queues d)) by (apply run_static; auto).
    intros m' H. apply in_map_iff in H as [m [<- Hm]]. pose proof (inv_fk _ I m Hm) as Fm.
    pose proof (inv_origin _ I m Hm) as Om.
    destruct (restore_p q m) eqn:P; auto. simpl. unfold restore_p in P. bdest. subst. auto.
Qed.

Lemma Inv_step d o d' r : Inv d -> step d o = (d', r) -> Inv d'.
Proof.
  intros I H. destruct o; simpl in H.
  - destruct (qb_configure ws d) eqn:E; injection H as <- _; auto. apply Inv_configure in E; tauto.
  - destruct (qb_enqueue q id trid c avail now d) eqn:E; injection H as <- _; auto.
    unfold qb_enqueue in E. eapply Inv_insert; eauto; simpl; auto using enqueue_row_ok.
    destruct (trid =? 0); lia.
  - pose proof (Inv_dequeue q s trid now d I). destruct (qb_dequeue q s trid now d).
    injection H as <- _. auto.
  - injection H as <- _. auto.
  - pose proof (Inv_commit g d I). unfold qb_commit in *. injection H as <- _. auto.
  - destruct (rollback_ok g sqlnow d I) as (d1&E&I1&_). rewrite E in H. injection H as <- _. auto.
  - assert (Inv (fst (fst (qb_recovery_commit gs d)))).
    { rewrite recovery_commit_spec. clear H. revert d I. induction gs; simpl; intros d I; auto.
      apply IHgs. apply Inv_commit; auto. }
    destruct (qb_recovery_commit gs d) as [[d1 s] k]. injection H as <- _. auto.
  - destruct (recovery_rollback_ok gs sqlnow d I) as (d1&s&k&E&I1&_). rewrite E in H. injection H as <- _. auto.
  - destruct (restore_ok q d I) as (d1&E&I1&_). rewrite E in H. injection H as <- _. auto.
  - unfold qb_clear in H. injection H as <- _. apply Inv_delete; auto.
  - pose proof (Inv_remove (if force then force_remove_p else remove_p) q ids d I).
    destruct (qb_remove _ q ids d). injection H as <- _. auto.
  - injection H as <- _. apply Inv_metric_reset; auto.
Qed.

Lemma Inv_history d tr d' : Inv d -> history d tr d' -> Inv d'.
Proof. intros I H. induction H; auto. eapply IHhistory, Inv_step; eauto. Qed.

Lemma Inv_reachable d : reachable d -> Inv d.
Proof. intros [tr H]. eapply Inv_history; eauto using Inv_empty. Qed.

(* ------------------------------------------------------------ what a request may do to one row *)

Definition committing (g : Z) (o : op) : Prop := o = Commit g \/ exists gs, o = RecoveryCommit gs /\ In g gs.
Definition rolling (g : Z) (o : op) : Prop :=
  (exists n, o = Rollback g n) \/ exists gs n, o = RecoveryRollback gs n /\ In g gs.

Inductive trans (o : op) (r : out) : msg -> option msg -> Prop :=
| t_commit : forall g m, committing g o -> m_gtrid m = g -> m_state m = 1 -> trans o r m (Some (set_committed m))
| t_commit_gone : forall g m, committing g o -> m_gtrid m = g -> m_state m = 3 -> trans o r m None
| t_rollback_gone : forall g m, rolling g o -> m_gtrid m = g -> m_state m = 1 -> trans o r m None
| t_rollback : forall g a m, rolling g o -> m_gtrid m = g -> m_state m = 3 -> trans o r m (Some (set_redelivered a m))
| t_error : forall g m, rolling g o -> m_gtrid m = g -> m_state m = 2 -> Z.rem (m_queue m) 2 = 0 ->
    trans o r m (Some (set_error_moved m))
| t_restore : forall q m, o = Restore q -> m_state m = 2 -> m_origin m = q -> trans o r m (Some (set_queue q m))
| t_clear : forall q m, o = Clear q -> m_state m = 2 -> m_queue m = q -> trans o r m None
| t_remove : forall f q ids kept m, o = Remove f q ids -> r = Removed kept -> In (m_id m) kept -> trans o r m None
| t_take : forall q s t n m x, o = Dequeue q s t n -> r = GotMessage (Some x) -> m_id x = m_id m -> t <> 0 ->
    m_state m = 2 -> trans o r m (Some (set_taken t m))
| t_take_gone : forall q s n m x, o = Dequeue q s 0 n -> r = GotMessage (Some x) -> m_id x = m_id m ->
    m_state m = 2 -> trans o r m None.

Inductive transs (o : op) (r : out) : option msg -> option msg -> Prop :=
| ts_refl : forall x, transs o r x x
| ts_step : forall m y z, trans o r m y -> transs o r y z -> transs o r (Some m) z.

Lemma transs_trans o r x y z : transs o r x y -> transs o r y z -> transs o r x z.
Proof. intros H. induction H; auto. intros. econstructor; eauto. Qed.

Lemma transs_one o r m y : trans o r m y -> transs o r (Some m) y.
Proof. intros. econstructor; eauto. constructor. Qed.

Lemma trans_id o r m m' : trans o r m (Some m') -> m_id m' = m_id m.
Proof. intros H. inversion H; subst; auto. Qed.

Lemma transs_id o r x y : transs o r x y -> forall m m', x = Some m -> y = Some m' -> m_id m' = m_id m.
Proof.
  intros H. induction H; intros a b Ea Eb.
  - congruence.
  - injection Ea as ->. destruct y as [y|].
    + rewrite (IHtranss y b); auto. eapply trans_id; eauto.
    + inversion H0; subst; discriminate.
Qed.

(* [acts o r d d']: table d' is d with each row changed by elementary transitions of (o,r) *)
Definition acts (o : op) (r : out) (d d' : db) : Prop :=
  exists f, keeps_id f /\ msgs d' = omap f (msgs d) /\ forall m, In m (msgs d) -> transs o r (Some m) (f m).

Lemma acts_refl o r d d' : msgs d' = msgs d -> acts o r d d'.
Proof.
  intros E. exists Some. split; [intros m m' H; congruence|]. split; [rewrite omap_some; auto|].
  intros. constructor.
Qed.

Lemma acts_trans o r d1 d2 d3 : acts o r d1 d2 -> acts o r d2 d3 -> acts o r d1 d3.
Proof.
  intros (f&Kf&Ef&Hf) (g&Kg&Eg&Hg).
  exists (fun m => match f m with Some x => g x | None => None end). repeat split.
  - intros m m' H. destruct (f m) eqn:E; [|discriminate]. rewrite (Kg _ _ H). apply Kf; auto.
  - rewrite Eg, Ef, omap_comp. auto.
  - intros m Hm. specialize (Hf m Hm). destruct (f m) as [x|] eqn:E; auto.
    eapply transs_trans; eauto. apply Hg. rewrite Ef. apply omap_in; eauto.
Qed.

Lemma acts_delete o r p d :
  (forall m, In m (msgs d) -> p m = true -> trans o r m None) -> acts o r d (delete_where p d).
Proof.
  intros H. exists (fun m => if p m then None else Some m). split; [|split].
  - intros m m' E. destruct (p m); congruence.
  - apply msgs_delete.
  - intros m Hm. destruct (p m) eqn:E; [|constructor]. apply transs_one; auto.
Qed.

Lemma acts_map o r (p : msg -> bool) (f : msg -> msg) d d' :
  (forall m, m_id (f m) = m_id m) ->
  msgs d' = map (fun m => if p m then f m else m) (msgs d) ->
  (forall m, In m (msgs d) -> p m = true -> trans o r m (Some (f m))) -> acts o r d d'.
Proof.
  intros K E H. exists (fun m => Some (if p m then f m else m)). split; [|split].
  - intros m m' X. injection X as <-. destruct (p m); auto.
  - rewrite E. apply omap_map.
  - intros m Hm. destruct (p m) eqn:P; [|constructor]. apply transs_one; auto.
Qed.

Lemma acts_commit o r g d : committing g o -> acts o r d (fst (qb_commit g d)).
Proof.
  intros C. apply (acts_trans _ _ _ (update_state_where (commit1_p g) set_committed d)).
  - apply (acts_map _ _ (commit1_p g) set_committed); auto.
    intros m Hm P. unfold commit1_p in P. bdest. eapply t_commit; eauto.
  - apply acts_delete. intros m Hm P. unfold commit2_p in P. bdest. eapply t_commit_gone; eauto.
Qed.

Lemma acts_rollback o r g n d : Inv d -> rolling g o -> acts o r d (fst (qb_rollback g n d)).
Proof.
  intros I C. destruct (rollback_ok g n d I) as (d'&E&I'&_&M&_). rewrite E. simpl.
  apply (acts_trans _ _ _ (delete_where (rollback1_p g) d)).
  { apply acts_delete. intros m Hm P. unfold rollback1_p in P. bdest. eapply t_rollback_gone; eauto. }
  apply (acts_trans _ _ _ (rb12 g n d)).
  { apply (acts_map _ _ (rollback2_p g)
       (fun m => set_redelivered (retry_available (queues (delete_where (rollback1_p g) d)) n m) m)); auto.
    intros m Hm P. unfold rollback2_p in P. bdest. apply (t_rollback _ _ g); auto. }
  apply (acts_map _ _ (rollback3_p (queues (rb12 g n d)) g) set_error_moved); auto.
  intros m Hm P. unfold rollback3_p in P. bdest. apply (t_error _ _ g); auto. apply (rb12_settled g n d); auto.
Qed.

Lemma acts_remove f q ids d : forall ids0 kept0,
  (forall i, In i (snd (qb_remove (if f : bool then force_remove_p else remove_p) q ids d)) -> In i kept0) ->
  acts (Remove f q ids0) (Removed kept0) d (fst (qb_remove (if f then force_remove_p else remove_p) q ids d)).
Proof.
  revert d. induction ids as [|i ids IH]; intros d ids0 kept0 H; simpl in *.
  - apply acts_refl; auto.
  - set (p := if f then force_remove_p else remove_p) in *.
    specialize (IH (delete_where (p q i) d) ids0 kept0).
    destruct (qb_remove p q ids (delete_where (p q i) d)) as [d1 k]. simpl in *.
    apply (acts_trans _ _ _ (delete_where (p q i) d)).
    + apply acts_delete. intros m Hm P.
      assert (Ei : m_id m = i).
      { subst p. destruct f; unfold force_remove_p, remove_p in P; bdest; auto. }
      eapply t_remove; eauto. apply H. rewrite Ei.
      assert (A : affected (p q i) d =? 0 = false).
      { apply Z.eqb_neq. unfold affected. intro Z0.
        assert (Hf : In m (filter (p q i) (msgs d))) by (apply filter_In; auto).
        destruct (filter (p q i) (msgs d)); [destruct Hf|simpl in Z0; lia]. }
      rewrite A. simpl; auto.
    + apply IH. intros j Hj. apply H. destruct (affected _ _ =? 0); simpl; auto.
Qed.

(* every request other than an accepted enqueue changes rows by elementary transitions only *)
Lemma step_acts d o d' r :
  Inv d -> step d o = (d', r) -> (forall q i t c a n, o = Enqueue q i t c a n -> r = Failed) -> acts o r d d'.
Proof.
  intros I H NE. destruct o; simpl in H.
  - destruct (qb_configure ws d) eqn:E; injection H as <- <-; apply acts_refl; auto.
    apply Inv_configure in E; tauto.
  - destruct (qb_enqueue q id trid c avail now d) eqn:E; injection H as <- <-.
    + specialize (NE _ _ _ _ _ _ eq_refl). discriminate.
    + apply acts_refl; auto.
  - unfold qb_dequeue in H. destruct (qb_fetch q s now d) as [m|] eqn:F.
    2:{ injection H as <- <-. apply acts_refl; auto. }
    apply fetch_in in F as [Hm [S _]].
    destruct (Z.eqb_spec trid 0); injection H as <- <-.
    + subst. apply acts_delete. intros x Hx P. bdest.
      assert (x = m) by (apply (nodup_unique (msgs d)); auto; apply I). subst.
      eapply t_take_gone; eauto.
    + apply (acts_map _ _ (fun r => m_id r =? m_id m) (set_taken trid)); auto.
      intros x Hx P. bdest.
      assert (x = m) by (apply (nodup_unique (msgs d)); auto; apply I). subst.
      eapply t_take; eauto.
  - injection H as <- <-. apply acts_refl; auto.
  - pose proof (acts_commit (Commit g) r g d (or_introl eq_refl)).
    unfold qb_commit in *. injection H as <- <-. auto.
  - pose proof (acts_rollback (Rollback g sqlnow) r g sqlnow d I (or_introl (ex_intro _ _ eq_refl))) as A.
    destruct (rollback_ok g sqlnow d I) as (d1&E&_). rewrite E in *. injection H as <- _. auto.
  - assert (A : forall l x, incl l gs -> acts (RecoveryCommit gs) r x (fold_left (fun d g => fst (qb_commit g d)) l x)).
    { induction l as [|g l IH]; intros x Hl; [apply acts_refl; auto|].
      cbn [fold_left].
      eapply acts_trans; [apply (acts_commit _ _ g)|apply IH].
      - right. exists gs. split; auto. apply Hl. simpl; auto.
      - intros y Hy. apply Hl. simpl; auto. }
    specialize (A gs d (incl_refl _)). rewrite <- recovery_commit_spec in A.
    destruct (qb_recovery_commit gs d) as [[d1 s] k]. injection H as <- _. auto.
  - assert (A : forall l x, Inv x -> incl l gs ->
        acts (RecoveryRollback gs sqlnow) r x (fold_left (fun d g => fst (qb_rollback g sqlnow d)) l x)).
    { induction l as [|g l IH]; intros x Ix Hl; [apply acts_refl; auto|].
      cbn [fold_left].
      eapply acts_trans; [apply (acts_rollback _ _ g)|apply IH]; auto.
      - right. exists gs, sqlnow. split; auto. apply Hl. simpl; auto.
      - destruct (rollback_ok g sqlnow x Ix) as (x1&E&I1&_). rewrite E. auto.
      - intros y Hy. apply Hl. simpl; auto. }
    specialize (A gs d I (incl_refl _)).
    destruct (recovery_rollback_ok gs sqlnow d I) as (d1&s&k&E&I1&F). rewrite E in H. injection H as <- _.
    rewrite F. auto.
  - destruct (restore_ok q d I) as (d1&E&I1&M). rewrite E in H. injection H as <- _.
    apply (acts_map _ _ (restore_p q) (set_queue q)); auto.
    intros m Hm P. unfold restore_p in P. bdest. eapply t_restore; eauto.
  - unfold qb_clear in H. injection H as <- _. apply acts_delete.
    intros m Hm P. unfold clear_p in P. bdest. eapply t_clear; eauto.
  - pose proof (acts_remove force q ids d ids (snd (qb_remove (if force then force_remove_p else remove_p) q ids d))
        (fun i Hi => Hi)) as A.
    destruct (qb_remove _ q ids d) as [d1 k]. injection H as <- <-. auto.
  - injection H as <- _. apply acts_refl. apply Inv_metric_reset; auto.
Qed.

(* the effect of any request on the row of message [i] *)
Lemma step_peek d o d' r i :
  Inv d -> step d o = (d', r) -> ~ enqueued_any i (o, r) -> transs o r (qb_peek i d) (qb_peek i d').
Proof.
  intros I H NE.
  assert (NoEnq : (exists q j t c a n, o = Enqueue q j t c a n /\ r <> Failed) \/
                  (forall q i t c a n, o = Enqueue q i t c a n -> r = Failed)).
  { destruct o; try (right; intros; discriminate).
    simpl in H. destruct (qb_enqueue _ _ _ _ _ _ _); injection H as <- <-.
    - left. exists q, id, trid, c, avail, now. split; auto. discriminate.
    - right; auto. }
  destruct NoEnq as [(q&j&t&c&a&n&->&NF)|NF].
  - simpl in H. destruct (qb_enqueue q j t c a n d) as [d1|] eqn:E; [|injection H as _ <-; congruence].
    injection H as <- <-.
    assert (Hij : i <> j).
    { intros <-. apply NE. exists t. exists q, c, a, n. auto. }
    unfold qb_enqueue, insert_msg in E. destruct (existsb _ _); [discriminate|]. destruct (negb _); [discriminate|].
    injection E as <-.
    assert (P : qb_peek i (mk_db (msgs d ++ [mk_msg j q q t (if t =? 0 then 2 else 1) 0 a n c])
                  (map (trig_insert (mk_msg j q q t (if t =? 0 then 2 else 1) 0 a n c)) (queues d))) = qb_peek i d).
    { unfold qb_peek. simpl. rewrite filter_app. simpl.
      destruct (Z.eqb_spec j i); [congruence|]. rewrite app_nil_r. auto. }
    rewrite P. constructor.
  - destruct (step_acts d o d' r I H NF) as (f&K&E&T).
    rewrite (peek_omap i d d' f); auto using inv_ids.
    destruct (qb_peek i d) as [m|] eqn:P; [|constructor].
    apply peek_in in P as [Hm _]. auto.
Qed.

(* ------------------------------------------------------------ histories *)

Lemma history_app d t1 t2 d' :
  history d (t1 ++ t2) d' <-> exists d1, history d t1 d1 /\ history d1 t2 d'.
Proof.
  revert d. induction t1 as [|[o r] t1 IH]; simpl; intros d.
  - split; [intros H; exists d; split; auto; constructor|intros [d1 [H1 H2]]; inversion H1; subst; auto].
  - split.
    + intros H. inversion H; subst. apply IH in H6 as [d2 [A B]]. exists d2. split; auto. econstructor; eauto.
    + intros [d2 [A B]]. inversion A; subst. econstructor; eauto. apply IH. eauto.
Qed.

Lemma history_cons d o r t d' :
  history d ((o, r) :: t) d' -> exists d1, step d o = (d1, r) /\ history d1 t d'.
Proof. intros H. inversion H; subst. eauto. Qed.

(* a property of the row of [i] that is kept by all transitions of events outside [bad] holds along a history *)
Lemma row_invariant (P : msg -> Prop) (bad : event -> Prop) i :
  (forall o r m y, ~ bad (o, r) -> P m -> m_id m = i -> trans o r m y -> match y with Some m' => P m' | None => True end) ->
  forall t d d', Inv d -> history d t d' -> (forall e, In e t -> ~ bad e /\ ~ enqueued_any i e) ->
  (forall m, qb_peek i d = Some m -> P m) -> (forall m, qb_peek i d' = Some m -> P m).
Proof.
  intros T. 
  assert (TT : forall o r x z, ~ bad (o, r) -> transs o r x z ->
     (forall m, x = Some m -> P m /\ m_id m = i) -> (forall m, z = Some m -> P m /\ m_id m = i)).
  { intros o r x z NB H. induction H; intros Hx mz Ez; auto.
    destruct (Hx m eq_refl) as [Pm Im].
    apply IHtranss; auto. intros m' ->. pose proof (T _ _ _ _ NB Pm Im H). simpl in *. split; auto.
    rewrite (trans_id _ _ _ _ H). auto. }
  induction t as [|[o r] t IH]; intros d d' I H B P0; [inversion H; subst; auto|].
  apply history_cons in H as (d1&St&H). apply (IH d1); auto.
  - eapply Inv_step; eauto.
  - intros e He. apply B. simpl; auto.
  - destruct (B (o, r)) as [NB NE]; [simpl; auto|].
    pose proof (step_peek _ _ _ _ i I St NE) as Ts.
    intros m Hm. apply (TT o r _ _ NB Ts); auto.
    intros m0 H0. split; auto. apply peek_in in H0. tauto.
Qed.

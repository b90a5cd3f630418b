(* Exact effects of commit, clear, remove and configuration updates. *)
From Coq Require Import ZArith List String Bool Lia Permutation.
From Verif Require Import QueueModel QueueSpec QueueProofs QueueHistory QueueLemmas.
Import ListNotations.
Local Open Scope Z_scope.

(* ------------------------------------------------------------ commit *)

Lemma commit_msgs g d :
  msgs (fst (qb_commit g d)) =
  omap (fun m => if m_gtrid m =? g then
                   if m_state m =? 1 then Some (set_committed m)
                   else if m_state m =? 3 then None else Some m
                 else Some m) (msgs d).
Proof.
  unfold qb_commit. cbn [fst]. rewrite msgs_delete, msgs_update_state.
  rewrite omap_comp. apply omap_ext. intros m _. cbv beta iota.
  unfold commit1_p, commit2_p, set_committed.
  destruct (Z.eqb_spec (m_gtrid m) g); cbn [andb].
  - destruct (Z.eqb_spec (m_state m) 1); cbn [andb m_gtrid m_state].
    + destruct (m_gtrid m =? g); reflexivity.
    + destruct (Z.eqb_spec (m_gtrid m) g); [|tauto]. cbn [andb]. destruct (m_state m =? 3); reflexivity.
  - destruct (Z.eqb_spec (m_gtrid m) g); [tauto|]. reflexivity.
Qed.

Lemma commit_exact g d :
  Inv d ->
  exists d', step d (Commit g) = (d', Affected (total_payload (filter (fun m => (m_gtrid m =? g) && (m_state m =? 3)) (msgs d)))) /\
    (forall m, In m (msgs d) ->
       qb_peek (m_id m) d' = if m_gtrid m =? g then
                               if m_state m =? 1 then Some (set_committed m)
                               else if m_state m =? 3 then None else Some m
                             else Some m) /\
    (forall m', In m' (msgs d') -> exists m, In m (msgs d) /\ m_id m' = m_id m).
Proof.
  intros I. exists (fst (qb_commit g d)). split; [|split].
  - unfold step. destruct (qb_commit g d) as [d' s] eqn:E. cbn [fst]. f_equal. f_equal.
    assert (S : s = snd (qb_commit g d)) by (rewrite E; auto). rewrite S. unfold qb_commit. cbn [snd].
    unfold update_state_where. cbn [msgs]. clear. induction (msgs d) as [|m l IH]; [reflexivity|]. cbn [map filter].
    unfold commit1_p at 1, commit2_p at 1, set_committed at 1.
    destruct (Z.eqb_spec (m_gtrid m) g); cbn [andb].
    + destruct (Z.eqb_spec (m_state m) 1) as [E|E]; cbn [andb m_gtrid m_state].
      * rewrite E. destruct (m_gtrid m =? g); cbn; exact IH.
      * destruct (Z.eqb_spec (m_gtrid m) g); [|tauto]. cbn [andb]. destruct (m_state m =? 3); [|exact IH].
        unfold sum_len, total_payload in *. cbn [fold_right map]. rewrite IH. destruct (commit1_p g m); reflexivity.
    + destruct (Z.eqb_spec (m_gtrid m) g); [tauto|]. cbn [andb]. exact IH.
  - intros m Hm. erewrite (peek_omap (m_id m) d); [|apply I| |apply commit_msgs].
    + rewrite peek_of_in; auto. apply I.
    + intros a b X. destruct (m_gtrid a =? g); [|injection X as <-; auto]. destruct (m_state a =? 1); [injection X as <-; auto|].
      destruct (m_state a =? 3); [discriminate|injection X as <-; auto].
  - intros m' H. rewrite commit_msgs in H. apply omap_in in H as [m [Hm X]]. exists m. split; auto.
    destruct (m_gtrid m =? g); [|injection X as <-; auto]. destruct (m_state m =? 1); [injection X as <-; auto|].
    destruct (m_state m =? 3); [discriminate|injection X as <-; auto].
Qed.

(* ------------------------------------------------------------ clear, remove *)

Lemma in_delete p d m : In m (msgs (delete_where p d)) <-> In m (msgs d) /\ p m = false.
Proof.
  unfold delete_where. cbn [msgs]. rewrite filter_In, negb_true_iff. tauto.
Qed.

Lemma clear_exact q d d' r :
  step d (Clear q) = (d', r) ->
  r = Affected (Z.of_nat (List.length (filter (fun m => (m_queue m =? q) && (m_state m =? 2)) (msgs d)))) /\
  (forall m, In m (msgs d') <-> In m (msgs d) /\ ~ (m_queue m = q /\ m_state m = 2)).
Proof.
  intros H. cbn [step] in H. unfold qb_clear in H. injection H as <- <-. split.
  - f_equal. unfold affected. f_equal. f_equal. apply filter_ext. intros m. unfold clear_p. apply andb_comm.
  - intros m. rewrite in_delete. unfold clear_p.
    destruct (Z.eqb_spec (m_queue m) q), (Z.eqb_spec (m_state m) 2); cbn; intuition discriminate.
Qed.

Lemma affected_pos p d : (affected p d =? 0) = false <-> exists m, In m (msgs d) /\ p m = true.
Proof.
  rewrite affected_zero, negb_false_iff, existsb_exists. reflexivity.
Qed.

Lemma remove_gen p q ids d d' kept :
  (forall id m, p q id m = true -> m_id m = id) ->
  qb_remove p q ids d = (d', kept) ->
  (forall m, In m (msgs d') <-> In m (msgs d) /\ ~ (In (m_id m) ids /\ p q (m_id m) m = true)) /\
  (forall id, In id kept <-> In id ids /\ exists m, In m (msgs d) /\ p q id m = true).
Proof.
  intros Hp. revert d d' kept. induction ids as [|i ids IH]; intros d d' kept H; cbn [qb_remove] in H.
  - injection H as <- <-. split; intros; simpl; intuition.
  - destruct (qb_remove p q ids (delete_where (p q i) d)) as [d1 k1] eqn:E. injection H as <- <-.
    apply IH in E as [A B]. split.
    + intros m. rewrite A, in_delete. simpl. split.
      * intros [[H1 H2] H3]. split; auto. intros [[->|H4] H5]; [congruence|]. apply H3. auto.
      * intros [H1 H2]. split; [split; auto|].
        -- destruct (p q i m) eqn:E; auto. exfalso. apply H2. pose proof (Hp _ _ E). subst i. auto.
        -- intros [H3 H4]. apply H2. auto.
    + intros id. destruct (affected (p q i) d =? 0) eqn:F.
      * rewrite B. simpl. split.
        -- intros [H1 [m [H2 H3]]]. apply in_delete in H2 as [H2 _]. eauto.
        -- intros [[->|H1] [m [H2 H3]]].
           ++ exfalso. assert (X : (affected (p q id) d =? 0) = false) by (apply affected_pos; eauto). congruence.
           ++ split; auto. exists m. split; auto. apply in_delete. split; auto.
              destruct (p q i m) eqn:G; auto. exfalso.
              assert (X : (affected (p q i) d =? 0) = false) by (apply affected_pos; eauto). congruence.
      * apply affected_pos in F as [m [F1 F2]]. simpl. rewrite B. split.
        -- intros [<-|[H1 [m' [H2 H3]]]]; [eauto|]. apply in_delete in H2 as [H2 _]. eauto.
        -- intros [[->|H1] [m' [H2 H3]]]; auto.
           destruct (Z.eq_dec i id); auto. right. split; auto. exists m'. split; auto.
           apply in_delete. split; auto. destruct (p q i m') eqn:G; auto.
           apply Hp in G. apply Hp in H3. congruence.
Qed.

Lemma remove_exact force q ids d d' kept :
  step d (Remove force q ids) = (d', Removed kept) ->
  (forall m, In m (msgs d') <->
     In m (msgs d) /\ ~ (In (m_id m) ids /\ m_queue m = q /\ (force = true \/ m_state m = 2))) /\
  (forall id, In id kept <->
     In id ids /\ exists m, In m (msgs d) /\ m_id m = id /\ m_queue m = q /\ (force = true \/ m_state m = 2)).
Proof.
  intros H. cbn [step] in H.
  destruct (qb_remove _ q ids d) as [d1 k1] eqn:E. injection H as <- <-.
  assert (P : forall id m, (if force then force_remove_p else remove_p) q id m = true <->
      m_id m = id /\ m_queue m = q /\ (force = true \/ m_state m = 2)).
  { intros id m. destruct force; unfold force_remove_p, remove_p;
    destruct (Z.eqb_spec (m_id m) id), (Z.eqb_spec (m_queue m) q), (Z.eqb_spec (m_state m) 2); cbn; intuition discriminate. }
  apply remove_gen in E as [A B]; [|intros id m X; apply P in X; tauto]. split.
  - intros m. rewrite A, P. tauto.
  - intros id. rewrite B. split; intros [H1 [m [H2 H3]]]; split; auto; exists m; split; auto; apply P; auto.
Qed.

(* ------------------------------------------------------------ configure *)

Lemma find_drop is qs i : ~ In i is -> find_q (drop_ids is qs) i = find_q qs i.
Proof.
  intros H. unfold drop_ids, find_q. induction qs as [|q qs IH]; [reflexivity|]. cbn [filter find].
  destruct (negb _) eqn:E; cbn [find]; destruct (Z.eqb_spec (q_id q) i) as [X|X]; auto.
  exfalso. apply negb_false_iff, existsb_exists in E as [j [E1 E2]]. apply Z.eqb_eq in E2. subst. auto.
Qed.

Lemma find_drop_in is qs i : In i is -> find_q (drop_ids is qs) i = None.
Proof.
  intros H. unfold drop_ids, find_q. induction qs as [|q qs IH]; [reflexivity|]. cbn [filter].
  destruct (negb _) eqn:E; cbn [find]; auto.
  destruct (Z.eqb_spec (q_id q) i) as [X|X]; auto.
  exfalso. apply negb_true_iff in E. assert (Y : existsb (fun i => q_id q =? i) is = true).
  { apply existsb_exists. exists i. rewrite X, Z.eqb_refl. auto. }
  congruence.
Qed.

(* removing an even id removes exactly it and its error queue *)
Lemma remove_queue_find i d d' :
  Inv d -> Z.rem i 2 = 0 -> qb_remove_queue i d = Some d' ->
  forall j, find_q (queues d') j = if (j =? i) || (j =? i - 1) then None else find_q (queues d) j.
Proof.
  intros I Ev H j. unfold qb_remove_queue in H.
  destruct (find_q (queues d) i) as [q|] eqn:Fq.
  - apply find_q_in in Fq as [Hq Hi]. subst i.
    destruct (qo_even _ (inv_qs _ I) q Hq Ev) as [Ee Hee].
    unfold delete_queue_row in H. cbn [msgs queues] in H. rewrite Ee in H.
    destruct (fk_ok _) eqn:F1 in H; [|discriminate].
    destruct (fk_ok _) eqn:F2 in H; [|discriminate]. injection H as <-.
    cbn [queues]. rewrite drop_drop.
    destruct (Z.eqb_spec j (q_id q)); cbn [orb]; [subst; apply find_drop_in; simpl; auto|].
    destruct (Z.eqb_spec j (q_id q - 1)); [subst; apply find_drop_in; simpl; auto|].
    apply find_drop. simpl. intuition.
  - injection H as <-. destruct (Z.eqb_spec j i); cbn [orb]; [subst; auto|].
    destruct (Z.eqb_spec j (i - 1)); auto. subst.
    destruct (find_q (queues d) (i - 1)) as [r|] eqn:Fr; auto. exfalso.
    apply find_q_in in Fr as [R1 R2].
    assert (Od : Z.rem (q_id r) 2 <> 0).
    { rewrite R2. apply rem2_odd_iff. apply rem2_even_iff in Ev as [k ->]. exists (k - 1). lia. }
    destruct (qo_odd _ (inv_qs _ I) r R1 Od) as [_ G]. apply find_q_none in Fq. apply Fq.
    replace i with (q_id r + 1) by lia. exact G.
Qed.

Lemma remove_queues_find l d d' :
  Inv d -> (forall i, In i l -> Z.rem i 2 = 0) -> fold_opt qb_remove_queue l d = Some d' ->
  Inv d' /\ forall j, find_q (queues d') j = if existsb (fun i => (j =? i) || (j =? i - 1)) l then None else find_q (queues d) j.
Proof.
  revert d. induction l as [|i l IH]; intros d I Ev H; cbn [fold_opt existsb] in *.
  - injection H as <-. auto.
  - destruct (qb_remove_queue i d) as [d1|] eqn:E; [|discriminate].
    assert (Ei : Z.rem i 2 = 0) by (apply Ev; simpl; auto).
    pose proof (remove_queue_find i d d1 I Ei E) as F.
    apply remove_queue_spec in E as (I1&_); auto.
    apply IH in H as [I2 H]; auto; [|intros; apply Ev; simpl; auto]. split; auto.
    intros j. rewrite H, F. destruct ((j =? i) || (j =? i - 1)); cbn [orb]; auto. destruct (existsb _ l); auto.
Qed.

Lemma remove_missing l d d' :
  (forall e, In e l -> find_q (queues d) e = None) -> fold_opt qb_remove_queue l d = Some d' -> d' = d.
Proof.
  induction l as [|a l IH]; cbn [fold_opt]; intros Hl Hf; [congruence|].
  unfold qb_remove_queue in Hf at 1. rewrite Hl in Hf by (simpl; auto). apply IH in Hf; auto. intros; apply Hl; simpl; auto.
Qed.

(* the pairs that are removed: unwanted queues that are empty, and have an empty error queue *)
Lemma empty_pairs_iff qs ws z e :
  qs_ok qs ->
  In (z, e) (empty_pairs (zombies_of qs ws)) <->
  exists q r, find_q qs z = Some q /\ find_q qs e = Some r /\ q_error q = e /\ e <> 0 /\
     is_wanted qs ws q = false /\ is_wanted qs ws r = false /\ ~ (0 < q_count q) /\ ~ (0 < q_count r).
Proof.
  intros Q. unfold empty_pairs. rewrite in_flat_map. split.
  - intros [q [Hq H]]. unfold zombies_of in Hq. apply filter_In in Hq as [Hq W]. apply negb_true_iff in W.
    destruct (Z.eqb_spec (q_error q) 0); [destruct H|].
    destruct (find_q _ (q_error q)) as [r|] eqn:E in H; [|destruct H].
    destruct (_ || _) eqn:C in H; [destruct H|]. destruct H as [H|[]]. injection H as <- <-.
    apply orb_false_iff in C as [C1 C2]. apply Z.ltb_ge in C1, C2.
    apply find_q_in in E as [E1 E2]. unfold zombies_of in E1. apply filter_In in E1 as [E1 E3]. apply negb_true_iff in E3.
    exists q, r. split; [apply find_q_nodup; auto; apply Q|]. split; [apply find_q_nodup; auto; apply Q|].
    split; [auto|]. split; [congruence|]. split; auto. split; auto. lia.
  - intros (q&r&Fq&Fr&Ee&Ne&W1&W2&C1&C2). apply find_q_in in Fq as [Hq Iq]. apply find_q_in in Fr as [Hr Ir].
    exists q. unfold zombies_of. split; [apply filter_In; rewrite W1; auto|].
    rewrite Ee. destruct (Z.eqb_spec e 0); [tauto|].
    assert (X : find_q (filter (fun q => negb (is_wanted qs ws q)) qs) e = Some r).
    { rewrite <- Ir. apply find_q_nodup.
      - clear -Q. destruct Q as [N _ _ _]. induction qs as [|x l IH]; [constructor|].
        cbn [filter]. revert N. generalize (is_wanted (x :: l) ws). intros f N.
        cbn [map] in N. inversion N; subst.
        assert (G : forall (p : qrow -> bool) l, NoDup (map q_id l) -> NoDup (map q_id (filter p l))).
        { clear. induction l; cbn; intros N; [constructor|]. inversion N; subst. destruct (p a); cbn; auto.
          constructor; auto. intro H. apply H1. apply in_map_iff in H as [y [A B]]. apply filter_In in B as [B _].
          rewrite <- A. apply in_map; auto. }
        destruct (negb _); cbn; auto. constructor; auto. intro H. apply H1.
        apply in_map_iff in H as [y [A B]]. apply filter_In in B as [B _]. rewrite <- A. apply in_map; auto.
      - apply filter_In. rewrite W2. auto. }
    rewrite X. destruct (Z.ltb_spec 0 (q_count q)), (Z.ltb_spec 0 (q_count r)); cbn; try lia.
    rewrite Iq, Ir. auto.
Qed.

Lemma find_map_upd (f : qrow -> qrow) qs j :
  (forall q, q_id (f q) = q_id q) -> find_q (map f qs) j = option_map f (find_q qs j).
Proof.
  intros H. unfold find_q. induction qs as [|q qs IH]; [reflexivity|]. cbn [map find]. rewrite H.
  destruct (q_id q =? j); auto.
Qed.

Definition named (n : string) (c dl : Z) (q : qrow) : qrow :=
  mk_q (q_id q) n c dl (q_error q) (q_count q) (q_size q) (q_uncommitted q) (q_dequeued q) (q_enqueued q) (q_last q).

Lemma update_row_find i n c dl qs qs' j :
  update_queue_row i n c dl qs = Some qs' ->
  find_q qs' j = if j =? i then option_map (named n c dl) (find_q qs j) else find_q qs j.
Proof.
  unfold update_queue_row. destruct (_ && _); [discriminate|]. intros H. injection H as <-.
  rewrite find_map_upd; [|intros q; destruct (q_id q =? i); auto].
  destruct (find_q qs j) as [q|] eqn:E; cbn [option_map]; [|destruct (j =? i); auto].
  apply find_q_in in E as [_ <-]. destruct (q_id q =? i); auto.
Qed.

(* an update changes the row of the queue, and of its error queue *)
Lemma update_find i n c dl d d' j :
  qb_update i n c dl d = Some d' ->
  find_q (queues d') j =
    match find_q (queues d) i with
    | None => find_q (queues d) j
    | Some ex =>
        if j =? q_error ex then option_map (named (error_name n) 0 0)
             (if j =? i then option_map (named n c dl) (find_q (queues d) j) else find_q (queues d) j)
        else if j =? i then option_map (named n c dl) (find_q (queues d) j) else find_q (queues d) j
    end.
Proof.
  unfold qb_update. destruct (find_q (queues d) i) as [ex|] eqn:F; [|intros H; injection H as <-; auto].
  destruct (update_queue_row i n c dl (queues d)) as [q1|] eqn:E1; [|discriminate].
  destruct (update_queue_row (q_error ex) _ 0 0 q1) as [q2|] eqn:E2; [|discriminate].
  intros H. injection H as <-. cbn [queues].
  rewrite (update_row_find _ _ _ _ _ _ j E2), (update_row_find _ _ _ _ _ _ j E1). reflexivity.
Qed.

(* an even row is configured as wanted, together with its error queue *)
Definition configured (w : wanted) (i : Z) (qs : list qrow) : Prop :=
  exists q e, find_q qs i = Some q /\ q_name q = w_name w /\ q_retry_count q = w_count w /\ q_retry_delay q = w_delay w /\ find_q qs (q_error q) = Some e /\ q_name e = error_name (w_name w) /\ q_error e = 0 /\ q_retry_count e = 0.

Lemma find_error qs i q :
  qs_ok qs -> find_q qs i = Some q -> q_error q <> 0 ->
  Z.rem i 2 = 0 /\ q_error q = i - 1 /\ exists e, find_q qs (i - 1) = Some e /\ q_error e = 0.
Proof.
  intros Q F N. apply find_q_in in F as [Hq <-].
  destruct (Z.eq_dec (Z.rem (q_id q) 2) 0) as [Ev|Od].
  - destruct (qo_even _ Q q Hq Ev) as [E1 E2]. split; auto. split; auto.
    apply in_map_iff in E2 as [e [E3 E4]]. exists e. rewrite <- E3. split; [apply find_q_nodup; auto; apply Q|].
    apply (qo_odd _ Q e E4). rewrite E3. apply rem2_odd_iff. apply rem2_even_iff in Ev as [k ->]. exists (k - 1). lia.
  - destruct (qo_odd _ Q q Hq Od). tauto.
Qed.

Lemma update_configures w i d d' q :
  Inv d -> find_q (queues d) i = Some q -> q_error q <> 0 ->
  qb_update i (w_name w) (w_count w) (w_delay w) d = Some d' -> configured w i (queues d').
Proof.
  intros I F N H. destruct (find_error _ _ _ (inv_qs _ I) F N) as (Ev&Ee&e&Fe&Ne).
  unfold configured. pose proof (update_find _ _ _ _ _ _ i H) as A. rewrite F in A.
  pose proof (update_find _ _ _ _ _ _ (i - 1) H) as B. rewrite F in B. rewrite Ee in A, B.
  destruct (Z.eqb_spec i (i - 1)); [lia|]. rewrite Z.eqb_refl in A. cbn [option_map] in A. 
  rewrite Z.eqb_refl in B. destruct (Z.eqb_spec (i - 1) i); [lia|]. rewrite Fe in B. cbn [option_map] in B.
  eexists _, _. split; [exact A|]. cbn [named q_name q_retry_count q_retry_delay q_error].
  split; [auto|]. split; [auto|]. split; [auto|]. rewrite Ee. split; [exact B|]. cbn. auto.
Qed.

(* an update of another (even) queue leaves it as it was *)
Lemma update_keeps w j i n c dl d d' q :
  Inv d -> find_q (queues d) j = Some q -> q_error q <> 0 -> i <> j -> Z.rem i 2 = 0 ->
  configured w i (queues d) ->
  qb_update j n c dl d = Some d' -> configured w i (queues d').
Proof.
  intros I F N D Ev (x&e&F1&A1&A2&A3&F2&A4&A5&A6) H.
  destruct (find_error _ _ _ (inv_qs _ I) F N) as (Evj&Ee&_).
  assert (N1 : q_error x = i - 1).
  { apply find_q_in in F1 as [X Y]. subst i. apply (qo_even _ (inv_qs _ I) x X Ev). }
  exists x, e. pose proof (update_find _ _ _ _ _ _ i H) as A. rewrite F, Ee in A.
  pose proof (update_find _ _ _ _ _ _ (i - 1) H) as B. rewrite F, Ee in B.
  apply rem2_even_iff in Ev as [a Ev]. apply rem2_even_iff in Evj as [b Evj].
  destruct (Z.eqb_spec i (j - 1)); [lia|]. destruct (Z.eqb_spec i j); [lia|].
  destruct (Z.eqb_spec (i - 1) (j - 1)); [lia|]. destruct (Z.eqb_spec (i - 1) j); [lia|].
  rewrite A, N1, B. rewrite <- N1. auto 10.
Qed.

Lemma find_app_l qs l i q : find_q qs i = Some q -> find_q (qs ++ l) i = Some q.
Proof. unfold find_q. induction qs; cbn; [discriminate|]. destruct (q_id a =? i); auto. Qed.

Lemma create_shape n c dl d d' :
  qb_create n c dl d = Some d' -> exists e w, queues d' = queues d ++ [e; w] /\ msgs d' = msgs d /\ q_name e = error_name n /\ q_error e = 0 /\ q_id e = max_id (queues d) + 1 /\ q_retry_count e = 0 /\ q_name w = n /\ q_retry_count w = c /\ q_retry_delay w = dl /\ q_error w = q_id e /\ q_id w = q_id e + 1.
Proof.
  unfold qb_create, insert_queue. destruct (name_taken (queues d) _); [discriminate|].
  destruct (name_taken _ n); [discriminate|]. intros H. injection H as <-. cbn [queues msgs].
  rewrite <- app_assoc. cbn [app]. eexists _, _. split; [reflexivity|]. cbn.
  repeat (split; [reflexivity|]). rewrite max_id_app. cbn. pose proof (max_id_nonneg (queues d)). lia.
Qed.

Lemma configured_app w i qs l : configured w i qs -> configured w i (qs ++ l).
Proof.
  intros (x&e&F1&A1&A2&A3&F2&A4&A5&A6). exists x, e. split; [apply find_app_l; auto|].
  split; auto. split; auto. split; auto. split; [apply find_app_l; auto|]. auto.
Qed.

Lemma create_configures w d d' :
  Inv d -> qb_create (w_name w) (w_count w) (w_delay w) d = Some d' -> exists i, configured w i (queues d').
Proof.
  intros I H. pose proof (Inv_create _ _ _ _ _ I H) as I'. apply create_shape in H as (e&q&E&_&A1&A2&A3&A4&A5&A6&A7&A8&A9).
  exists (q_id q). exists q, e. split; [apply find_q_nodup; [apply I'|rewrite E; apply in_or_app; simpl; auto]|].
  split; auto. split; auto. split; auto. rewrite A8.
  split; [apply find_q_nodup; [apply I'|rewrite E; apply in_or_app; simpl; auto]|]. auto.
Qed.

(* what a queue row keeps when it survives *)
Definition q_core (q : qrow) := (q_id q, q_error q, q_count q, q_size q, q_uncommitted q, q_dequeued q, q_enqueued q).

Definition keeps_core (d d' : db) : Prop :=
  forall j q, find_q (queues d) j = Some q -> exists q', find_q (queues d') j = Some q' /\ q_core q' = q_core q.

Lemma keeps_core_refl d : keeps_core d d.
Proof. intros j q H. eauto. Qed.
Lemma keeps_core_trans a b c : keeps_core a b -> keeps_core b c -> keeps_core a c.
Proof. intros A B j q H. apply A in H as (x&H1&H2). apply B in H1 as (y&H3&H4). exists y. split; auto. congruence. Qed.

Lemma update_core i n c dl d d' : qb_update i n c dl d = Some d' -> keeps_core d d'.
Proof.
  intros H j q F. pose proof (update_find _ _ _ _ _ _ j H) as A. rewrite F in A.
  destruct (find_q (queues d) i); [|eauto].
  destruct (j =? q_error q0), (j =? i); cbn [option_map] in A; eexists; (split; [exact A|reflexivity]).
Qed.

Lemma create_core n c dl d d' : qb_create n c dl d = Some d' -> keeps_core d d'.
Proof.
  intros H j q F. apply create_shape in H as (e&w&E&_). rewrite E. exists q. split; auto. apply find_app_l; auto.
Qed.

(* ------------------------------------------------------------ queue names *)

Definition error_named (qs : list qrow) : Prop :=
  forall q e, In q qs -> In e qs -> q_error q = q_id e -> q_name e = error_name (q_name q).

Record names_ok (qs : list qrow) : Prop := {
  no_nodup : NoDup (map q_name qs);
  no_error : error_named qs
}.

Definition q_named (q : qrow) := (q_id q, q_name q, q_error q).

Lemma names_ok_ext qs qs' : map q_named qs' = map q_named qs -> names_ok qs -> names_ok qs'.
Proof.
  intros E [N Er].
  assert (I : forall q', In q' qs' -> exists q, In q qs /\ q_named q = q_named q').
  { intros q' H. apply (in_map q_named) in H. rewrite E in H. apply in_map_iff in H as [q [A B]]. eauto. }
  constructor.
  - assert (M : map q_name qs' = map q_name qs).
    { assert (X : forall l, map q_name l = map (fun p => snd (fst p)) (map q_named l)).
      { intros l. rewrite map_map. apply map_ext. reflexivity. }
      rewrite !X, E. auto. }
    rewrite M. auto.
  - intros q e Hq He H. apply I in Hq as (q0&A&B). apply I in He as (e0&C&D).
    unfold q_named in *. injection B as B1 B2 B3. injection D as D1 D2 D3.
    rewrite <- B2, <- D2. apply Er; auto. congruence.
Qed.

Lemma step_static d o d' r :
  step d o = (d', r) -> (forall ws, o <> Configure ws) -> map q_static (queues d') = map q_static (queues d).
Proof.
  assert (SD : forall p x, map q_static (queues (delete_where p x)) = map q_static (queues x)).
  { intros. cbn. apply run_static, static_delete. }
  assert (SU : forall p f x, map q_static (queues (update_state_where p f x)) = map q_static (queues x)).
  { intros. cbn. apply run_static, static_state. }
  assert (SQ : forall p f x y, update_queue_where p f x = Some y -> map q_static (queues y) = map q_static (queues x)).
  { intros p f x y. unfold update_queue_where. destruct (fk_ok _); [|discriminate]. intros H. injection H as <-.
    cbn. apply run_static, static_queue. }
  assert (SR : forall g n x, map q_static (queues (fst (qb_rollback g n x))) = map q_static (queues x)).
  { intros. unfold qb_rollback. destruct (update_queue_where _ _ _) eqn:E; cbn [fst].
    - apply SQ in E. rewrite E, SU, SD. auto.
    - rewrite SU, SD. auto. }
  intros H NC. destruct o; cbn [step] in H.
  - exfalso. eapply NC; eauto.
  - destruct (qb_enqueue _ _ _ _ _ _ _) eqn:E; injection H as <- _; auto.
    unfold qb_enqueue, insert_msg in E. destruct (existsb _ _); [discriminate|]. destruct (negb _); [discriminate|].
    injection E as <-. cbn [queues]. rewrite map_map. apply map_ext. intros a. apply static_insert.
  - unfold qb_dequeue in H. destruct (qb_fetch _ _ _ _); [|injection H as <- _; auto].
    destruct (trid =? 0); injection H as <- _; auto.
  - injection H as <- _; auto.
  - unfold qb_commit in H. injection H as <- _. rewrite SD, SU. auto.
  - pose proof (SR g sqlnow d) as X. destruct (qb_rollback g sqlnow d) as [x [s|]]; injection H as <- _; auto.
  - assert (G : forall gs x, map q_static (queues (fst (fst (qb_recovery_commit gs x)))) = map q_static (queues x)).
    { intros gs0 x. rewrite recovery_commit_spec. revert x. induction gs0 as [|g gs0 IH]; intros x; cbn [fold_left]; auto.
      rewrite IH. unfold qb_commit. cbn [fst]. rewrite SD, SU. auto. }
    specialize (G gs d). destruct (qb_recovery_commit gs d) as [[y s] k]. injection H as <- _. auto.
  - assert (G : forall gs x, map q_static (queues (fst (qb_recovery_rollback gs sqlnow x))) = map q_static (queues x)).
    { induction gs0 as [|g gs0 IH]; intros x; [auto|]. rewrite recovery_rollback_cons.
      pose proof (SR g sqlnow x) as X.
      destruct (qb_rollback g sqlnow x) as [y [s|]]; cbn [fst] in *; auto.
      specialize (IH y). destruct (qb_recovery_rollback gs0 sqlnow y) as [z [[s' k]|]]; cbn [fst] in *; congruence. }
    specialize (G gs d). destruct (qb_recovery_rollback gs sqlnow d) as [y [[s k]|]]; injection H as <- _; auto.
  - unfold qb_restore in H. destruct (update_queue_where _ _ _) eqn:E; injection H as <- _; auto. eapply SQ; eauto.
  - injection H as <- _. auto.
  - assert (G : forall p ids x, map q_static (queues (fst (qb_remove p q ids x))) = map q_static (queues x)).
    { induction ids0 as [|i l IH]; intros x; cbn [qb_remove]; [auto|].
      specialize (IH (delete_where (p q i) x)). destruct (qb_remove p q l _) as [y k]. cbn [fst] in *. rewrite IH. auto. }
    specialize (G (if force then force_remove_p else remove_p) ids d).
    destruct (qb_remove _ q ids d) as [y k]. injection H as <- _. auto.
  - injection H as <- _. clear NC. unfold qb_metric_reset. revert d. induction qs as [|i l IH]; intros d; [auto|].
    cbn [fold_left]. rewrite IH. cbn [queues]. rewrite map_map. apply map_ext. intros x. destruct (q_id x =? i); auto.
Qed.

Lemma remove_queue_filter i d d' :
  qb_remove_queue i d = Some d' -> exists p, queues d' = filter p (queues d).
Proof.
  unfold qb_remove_queue. destruct (find_q (queues d) i) as [ex|].
  - destruct (delete_queue_row (q_error ex) d) as [d1|] eqn:E1; [|discriminate]. intros E2.
    unfold delete_queue_row in *. destruct (fk_ok _) in E1; [|discriminate]. injection E1 as <-.
    destruct (fk_ok _) in E2; [|discriminate]. injection E2 as <-. cbn [queues].
    exists (fun q => negb (q_id q =? q_error ex) && negb (q_id q =? q_id ex)).
    induction (queues d) as [|q l IH]; [reflexivity|]. cbn [filter].
    destruct (q_id q =? q_error ex); cbn [negb andb filter]; auto.
    destruct (q_id q =? q_id ex); cbn [negb filter]; auto. f_equal; auto.
  - intros H. injection H as <-. exists (fun _ => true).
    induction (queues d) as [|q l IH]; [reflexivity|]. cbn [filter]. f_equal; auto.
Qed.

Lemma nodup_map_filter {A B} (f : A -> B) (p : A -> bool) l : NoDup (map f l) -> NoDup (map f (filter p l)).
Proof.
  induction l as [|a l IH]; cbn; intros N; [constructor|]. inversion N; subst. destruct (p a); cbn; auto.
  constructor; auto. intro H. apply H1. apply in_map_iff in H as [y [A1 B1]]. apply filter_In in B1 as [B1 _].
  rewrite <- A1. apply in_map; auto.
Qed.

Lemma names_filter p qs : names_ok qs -> names_ok (filter p qs).
Proof.
  intros [N E]. constructor; [apply nodup_map_filter; auto|].
  intros q e Hq He. apply filter_In in Hq as [Hq _]. apply filter_In in He as [He _]. auto.
Qed.

Lemma names_removes l d d' : names_ok (queues d) -> fold_opt qb_remove_queue l d = Some d' -> names_ok (queues d').
Proof.
  intros N H. apply (fold_opt_ind qb_remove_queue (fun x => names_ok (queues x)) l d d'); auto.
  intros a x y _ Nx E. apply remove_queue_filter in E as [p ->]. apply names_filter; auto.
Qed.

Lemma nodup_name qs a b : NoDup (map q_name qs) -> In a qs -> In b qs -> q_name a = q_name b -> a = b.
Proof.
  induction qs as [|x l IH]; cbn; [tauto|]. intros N Ha Hb E. inversion N; subst.
  destruct Ha as [->|Ha], Hb as [->|Hb]; auto; exfalso; apply H1.
  - rewrite E. apply in_map; auto.
  - rewrite <- E. apply in_map; auto.
Qed.

Lemma nodup_qid qs a b : NoDup (map q_id qs) -> In a qs -> In b qs -> q_id a = q_id b -> a = b.
Proof.
  induction qs as [|x l IH]; cbn; [tauto|]. intros N Ha Hb E. inversion N; subst.
  destruct Ha as [->|Ha], Hb as [->|Hb]; auto; exfalso; apply H1.
  - rewrite E. apply in_map; auto.
  - rewrite <- E. apply in_map; auto.
Qed.

(* an update with the name the queue has already changes no name *)
Lemma update_names i n c dl d d' :
  Inv d -> names_ok (queues d) -> (forall q, find_q (queues d) i = Some q -> q_name q = n) ->
  qb_update i n c dl d = Some d' -> map q_named (queues d') = map q_named (queues d).
Proof.
  intros I [N Er] Hn. unfold qb_update. destruct (find_q (queues d) i) as [ex|] eqn:F; [|intros H; injection H as <-; auto].
  specialize (Hn ex eq_refl).
  destruct (update_queue_row i n c dl (queues d)) as [q1|] eqn:E1; [|discriminate].
  destruct (update_queue_row (q_error ex) _ 0 0 q1) as [q2|] eqn:E2; [|discriminate].
  intros H. injection H as <-. cbn [queues]. unfold update_queue_row in *.
  destruct (_ && _) in E1; [discriminate|]. injection E1 as <-. destruct (_ && _) in E2; [discriminate|]. injection E2 as <-.
  rewrite !map_map. apply map_ext_in. intros a Ha. apply find_q_in in F as [X Y].
  destruct (Z.eqb_spec (q_id a) i) as [Ea|Ea]; cbn [q_id]; destruct (Z.eqb_spec (q_id a) (q_error ex)) as [Eb|Eb];
    unfold q_named; cbn [q_id q_name q_error].
  - exfalso. assert (a = ex) by (apply (nodup_qid (queues d)); [apply I|auto|auto|congruence]). subst a.
    destruct (Z.eq_dec (Z.rem (q_id ex) 2) 0) as [Ev|Od].
    + destruct (qo_even _ (inv_qs _ I) ex Ha Ev). lia.
    + destruct (qo_odd _ (inv_qs _ I) ex Ha Od). pose proof (qo_pos _ (inv_qs _ I) ex Ha). lia.
  - assert (a = ex) by (apply (nodup_qid (queues d)); [apply I|auto|auto|congruence]). subst a. congruence.
  - rewrite (Er ex a); auto. congruence.
  - reflexivity.
Qed.

Lemma create_names n c dl d d' :
  Inv d -> names_ok (queues d) -> qb_create n c dl d = Some d' -> names_ok (queues d').
Proof.
  intros I [N Er] H. pose proof (Inv_create _ _ _ _ _ I H) as I'.
  pose proof H as H0. apply create_shape in H0 as (e&w&E&_&A1&A2&A3&A4&A5&A6&A7&A8&A9).
  unfold qb_create, insert_queue in H. destruct (name_taken (queues d) _) eqn:T1; [discriminate|].
  destruct (name_taken _ n) eqn:T2 in H; [discriminate|]. clear H.
  assert (NT : forall qs n, name_taken qs n = false -> ~ In n (map q_name qs)).
  { clear. intros qs n H X. apply in_map_iff in X as [q [<- X]].
    assert (Y : name_taken qs (q_name q) = true) by (apply existsb_exists; exists q; rewrite String.eqb_refl; auto). congruence. }
  apply NT in T1, T2. rewrite map_app in T2. cbn in T2.
  rewrite E. constructor.
  - rewrite map_app. cbn. apply (Permutation_NoDup (l := q_name w :: q_name e :: map q_name (queues d))).
    + change (q_name w :: q_name e :: map q_name (queues d)) with ([q_name w; q_name e] ++ map q_name (queues d)).
      eapply Permutation_trans; [apply Permutation_app_comm|]. apply Permutation_app_head. constructor.
    + constructor; [|constructor; auto].
      * intros [X|X]; apply T2; apply in_or_app; [right; simpl; left; congruence|left; rewrite <- A5; auto].
      * rewrite A1. auto.
  - intros q x Hq Hx Ex. rewrite <- E in Hq, Hx.
    assert (Px : 1 <= q_id x) by (apply (qo_pos _ (inv_qs _ I')); auto).
    rewrite E in Hq, Hx. apply in_app_or in Hq. cbn in Hq. apply in_app_or in Hx. cbn in Hx.
    assert (Ub : forall y, In y (queues d) -> q_id y <= max_id (queues d)) by (apply max_id_ub).
    destruct Hq as [Hq|[<-|[<-|[]]]].
    + destruct Hx as [Hx|Hx]; [auto|]. exfalso.
      assert (q_error q <= max_id (queues d)).
      { pose proof (max_id_nonneg (queues d)). pose proof (Ub q Hq).
        destruct (Z.eq_dec (Z.rem (q_id q) 2) 0) as [Ev|Od].
        - destruct (qo_even _ (inv_qs _ I) q Hq Ev). lia.
        - destruct (qo_odd _ (inv_qs _ I) q Hq Od). lia. }
      destruct Hx as [<-|[<-|[]]]; lia.
    + lia.
    + destruct Hx as [Hx|[<-|[<-|[]]]]; [apply Ub in Hx; lia| congruence | lia].
Qed.

Lemma find_name_in qs n q : find_name qs n = Some q -> In q qs /\ q_name q = n.
Proof. intros H. apply find_some in H as [A B]. apply String.eqb_eq in B. auto. Qed.

Lemma find_name_some qs q : NoDup (map q_name qs) -> In q qs -> find_name qs (q_name q) = Some q.
Proof.
  intros N H. destruct (find_name qs (q_name q)) as [r|] eqn:E.
  - apply find_name_in in E as [A B]. f_equal. eapply nodup_name; eauto.
  - exfalso. pose proof (find_none _ _ E q H) as X. cbn in X. rewrite String.eqb_refl in X. discriminate.
Qed.

Lemma is_wanted_iff qs ws q : NoDup (map q_name qs) -> is_wanted qs ws q = true <-> in_use ws qs q.
Proof.
  intros N. unfold is_wanted, in_use. rewrite existsb_exists. split.
  - intros [w [Hw H]]. destruct (find_name qs (w_name w)) as [f|] eqn:F; [|discriminate].
    apply find_name_in in F as [F1 F2]. exists w, f. split; auto. split; auto. split; auto.
    apply orb_true_iff in H as [H|H]; apply Z.eqb_eq in H; auto.
  - intros (w&f&Hw&Hf&En&H). exists w. split; auto. rewrite <- En, find_name_some; auto.
    destruct H as [->| ->]; rewrite Z.eqb_refl, ?orb_true_r; auto.
Qed.

Lemma metrics_nonneg d q : Inv d -> In q (queues d) -> 0 <= q_count q.
Proof. intros I H. destruct (metrics_exact d q I H) as [-> _]. lia. Qed.

Lemma removes_msgs l d d' :
  Inv d -> (forall i, In i l -> Z.rem i 2 = 0) -> fold_opt qb_remove_queue l d = Some d' -> msgs d' = msgs d.
Proof.
  revert d. induction l as [|i l IH]; intros d I Ev E0; cbn in E0; [congruence|].
  destruct (qb_remove_queue i d) as [x|] eqn:E; [|discriminate].
  apply remove_queue_spec in E as (I1&M1&_); [|auto|left; apply Ev; simpl; auto].
  rewrite <- M1. apply IH; auto. intros; apply Ev; simpl; auto.
Qed.

(* the removal phase of a configuration update *)
Lemma configure_removes ws d d1 :
  Inv d -> names_ok (queues d) ->
  let pairs := empty_pairs (zombies_of (queues d) ws) in
  fold_opt qb_remove_queue (map fst pairs ++ map snd pairs) d = Some d1 ->
  Inv d1 /\ names_ok (queues d1) /\ msgs d1 = msgs d /\
  (forall q, In q (queues d1) <-> In q (queues d) /\ ~ obsolete ws (queues d) q).
Proof.
  intros I N pairs H.
  assert (Hp : forall z e, In (z, e) pairs <-> exists q r, find_q (queues d) z = Some q /\ find_q (queues d) e = Some r /\
     q_error q = e /\ e <> 0 /\ is_wanted (queues d) ws q = false /\ is_wanted (queues d) ws r = false /\
     ~ (0 < q_count q) /\ ~ (0 < q_count r)) by (intros; apply empty_pairs_iff; apply I).
  assert (Ev : forall i, In i (map fst pairs) -> Z.rem i 2 = 0).
  { intros i Hi. apply in_map_iff in Hi as [[z e] [<- Hi]]. cbn. apply Hp in Hi as (q&r&F1&F2&E1&E2&_).
    subst e. apply find_error in F1; auto; [tauto|apply I]. }
  pose proof (names_removes _ _ _ N H) as N1.
  pose proof H as H0. rewrite fold_opt_app in H.
  destruct (fold_opt qb_remove_queue (map fst pairs) d) as [d0|] eqn:E0; [|discriminate].
  assert (M0 : msgs d0 = msgs d).
  { eapply removes_msgs; eauto. }
  apply remove_queues_find in E0 as [I0 F0]; auto.
  apply remove_missing in H.
  2:{ intros e He. rewrite F0. apply in_map_iff in He as [[z e'] [<- He]]. cbn.
      assert (X : existsb (fun i => (e' =? i) || (e' =? i - 1)) (map fst pairs) = true).
      { apply existsb_exists. exists z. split; [apply in_map_iff; exists (z, e'); auto|].
        apply Hp in He as (q&r&F1&F2&E1&E2&_). subst e'. apply find_error in F1; auto; [|apply I].
        destruct F1 as (_&->&_). rewrite Z.eqb_refl. apply orb_true_r. }
      rewrite X. auto. }
  subst d1. split; auto. split; auto. split; auto.
  assert (Q : qs_ok (queues d)) by apply I. assert (Q0 : qs_ok (queues d0)) by apply I0.
  assert (OB : forall q, In q (queues d) ->
     (existsb (fun i => (q_id q =? i) || (q_id q =? i - 1)) (map fst pairs) = true <-> obsolete ws (queues d) q)).
  { intros q Hq. rewrite existsb_exists. split.
    - intros [i [Hi Ei]]. apply in_map_iff in Hi as [[z e] [<- Hi]]. cbn in Ei.
      apply Hp in Hi as (a&b&F1&F2&E1&E2&W1&W2&C1&C2). pose proof F1 as F3. subst e.
      apply find_error in F3 as (_&E3&_); auto.
      apply find_q_in in F1 as [F1 I1]. apply find_q_in in F2 as [F2 I2].
      assert (NW : forall x, is_wanted (queues d) ws x = false -> ~ in_use ws (queues d) x).
      { intros x W U. apply is_wanted_iff in U; [congruence|apply N]. }
      pose proof (metrics_nonneg d a I F1). pose proof (metrics_nonneg d b I F2).
      exists a, b. split; auto. split; auto. split; auto. split; auto. split; auto. split; [lia|]. split; [lia|].
      apply orb_true_iff in Ei as [Ei|Ei]; apply Z.eqb_eq in Ei.
      + left. eapply nodup_qid; eauto; [apply Q|congruence].
      + right. eapply nodup_qid; eauto; [apply Q|congruence].
    - intros (z&e&Hz&He&Eze&U1&U2&C1&C2&Eq). exists (q_id z).
      assert (Pe : 1 <= q_id e) by (apply (qo_pos _ Q); auto).
      assert (Fz : find_q (queues d) (q_id z) = Some z) by (apply find_q_nodup; auto; apply Q).
      assert (Fe : find_q (queues d) (q_id e) = Some e) by (apply find_q_nodup; auto; apply Q).
      destruct (find_error _ _ _ Q Fz) as (_&E3&_); [lia|].
      assert (WN : forall x, ~ in_use ws (queues d) x -> is_wanted (queues d) ws x = false).
      { intros x U. destruct (is_wanted (queues d) ws x) eqn:W; auto. exfalso. apply U. apply is_wanted_iff; auto. apply N. }
      split.
      + apply in_map_iff. exists (q_id z, q_id e). split; auto. apply Hp. exists z, e.
        split; auto. split; auto. split; auto. split; [lia|]. split; auto. split; auto. lia.
      + destruct Eq as [-> | ->]; [rewrite Z.eqb_refl; auto|].
        replace (q_id e) with (q_id z - 1) by lia. rewrite Z.eqb_refl. apply orb_true_r. }
  intros q. split.
  - intros H. assert (F : find_q (queues d0) (q_id q) = Some q) by (apply find_q_nodup; auto; apply Q0).
    rewrite F0 in F. destruct (existsb _ _) eqn:X; [discriminate|]. apply find_q_in in F as [F _].
    split; auto. intro O. apply OB in O; auto. congruence.
  - intros [H O]. assert (F : find_q (queues d0) (q_id q) = Some q).
    { rewrite F0. destruct (existsb _ _) eqn:X; [exfalso; apply O; apply OB; auto|]. apply find_q_nodup; auto. apply Q. }
    apply find_q_in in F. tauto.
Qed.

Lemma named_find qs qs' i q : map q_named qs' = map q_named qs -> find_q qs i = Some q ->
  exists q', find_q qs' i = Some q' /\ q_named q' = q_named q.
Proof.
  revert qs'. induction qs as [|x l IH]; intros qs' E F; [discriminate|].
  destruct qs' as [|y l']; [discriminate|]. cbn [map] in E. injection E as E1 E2 E3 E4.
  unfold find_q in *. cbn [find] in *. rewrite E1. destruct (q_id x =? i).
  - injection F as <-. exists y. split; auto. unfold q_named. congruence.
  - apply IH; auto.
Qed.

Lemma named_in qs qs' q : map q_named qs' = map q_named qs -> In q qs -> exists q', In q' qs' /\ q_named q' = q_named q.
Proof.
  intros E H. apply (in_map q_named) in H. rewrite <- E in H. apply in_map_iff in H as [x [A B]]. eauto.
Qed.

Lemma configured_is w i qs : configured w i qs -> is_configured w qs.
Proof.
  intros (x&e&F1&A1&A2&A3&F2&A4&A5&A6). apply find_q_in in F1 as [F1 _]. apply find_q_in in F2 as [F2 F3].
  exists x, e. auto 12.
Qed.

Lemma configure_exact ws d d' :
  Inv d -> names_ok (queues d) -> NoDup (map w_name ws) ->
  (forall w q, In w ws -> In q (queues d) -> q_name q = w_name w -> q_error q <> 0) ->
  qb_configure ws d = Some d' ->
  msgs d' = msgs d /\ names_ok (queues d') /\
  (forall w, In w ws -> is_configured w (queues d')) /\
  (forall q, In q (queues d) -> ~ obsolete ws (queues d) q ->
     exists q', In q' (queues d') /\ q_core q' = q_core q /\ q_name q' = q_name q) /\
  (forall q', In q' (queues d') ->
     (exists q, In q (queues d) /\ ~ obsolete ws (queues d) q /\ q_core q' = q_core q /\ q_name q' = q_name q) \/
     (exists w, In w ws /\ (q_name q' = w_name w \/ q_name q' = error_name (w_name w)) /\
        q_count q' = 0 /\ q_size q' = 0 /\ q_uncommitted q' = 0)).
Proof.
  intros I N ND NE H. unfold qb_configure in H.
  set (qs := queues d) in *. set (pairs := empty_pairs (zombies_of qs ws)) in *.
  set (known := filter _ ws) in H. set (fresh := filter _ ws) in H.
  destruct (fold_opt qb_remove_queue (map fst pairs ++ map snd pairs) d) as [d1|] eqn:E1; [|discriminate].
  destruct (fold_opt _ known d1) as [d2|] eqn:E2; [|discriminate].
  apply configure_removes in E1 as (I1&N1&M1&K1); auto.
  (* known queues survive *)
  assert (KF : forall w, In w known -> exists f, find_name qs (w_name w) = Some f /\ In f qs /\ q_name f = w_name w /\
                 q_error f <> 0 /\ find_q (queues d1) (q_id f) = Some f /\ In w ws).
  { intros w Hw. unfold known in Hw. apply filter_In in Hw as [Hw F]. destruct (find_name qs (w_name w)) as [f|] eqn:Ff; [|discriminate].
    exists f. split; auto. apply find_name_in in Ff as [F1 F2]. split; auto. split; auto.
    split; [eapply NE; eauto|]. split; auto. apply find_q_nodup; [apply I1|]. apply K1. split; auto.
    intros (z&e&Hz&He&Eze&U1&U2&_&_&[-> | ->]); [apply U1|apply U2]; exists w; [exists z|exists e]; auto. }
  (* the update phase *)
  assert (P2 : forall l x y, (forall w, In w l -> In w known) -> NoDup (map w_name l) ->
     Inv x -> map q_named (queues x) = map q_named (queues d1) -> msgs x = msgs d -> keeps_core d1 x ->
     fold_opt (fun w d => match find_name qs (w_name w) with
                          | Some f => qb_update (q_id f) (w_name w) (w_count w) (w_delay w) d
                          | None => Some d end) l x = Some y ->
     Inv y /\ map q_named (queues y) = map q_named (queues d1) /\ msgs y = msgs d /\ keeps_core d1 y /\
     (forall w, In w l -> exists i, Z.rem i 2 = 0 /\ configured w i (queues y)) /\
     (forall w i, ~ In (w_name w) (map w_name l) -> Z.rem i 2 = 0 -> configured w i (queues x) -> configured w i (queues y))).
  { induction l as [|w l IH]; intros x y Hl Nd Ix Nx Mx Cx Hf; cbn [fold_opt] in Hf.
    - injection Hf as <-. split; [auto|]. split; auto. split; auto. split; auto. split; [intros w []|auto].
    - destruct (KF w (Hl w (or_introl eq_refl))) as (f&Ff&Hfq&Fn&Fe&Fd1&Hws). rewrite Ff in Hf.
      destruct (qb_update _ _ _ _ x) as [x1|] eqn:Eu in Hf; [|discriminate].
      assert (NOx : names_ok (queues x)) by (apply (names_ok_ext (queues d1)); auto).
      destruct (named_find _ _ _ _ Nx Fd1) as (fx&Fx&Nfx). unfold q_named in Nfx. injection Nfx as X1 X2 X3.
      assert (Nu : map q_named (queues x1) = map q_named (queues x)).
      { apply (update_names (q_id f) (w_name w) (w_count w) (w_delay w)); auto. intros q Hq. rewrite Fx in Hq. injection Hq as <-. congruence. }
      assert (Cf : configured w (q_id f) (queues x1)) by (apply (update_configures w (q_id f) x x1 fx); auto; congruence).
      assert (Evf : Z.rem (q_id f) 2 = 0).
      { apply find_error in Fd1; auto; [tauto|apply I1]. }
      cbn [map] in Nd. inversion Nd; subst.
      pose proof (Inv_update_q _ _ _ _ _ _ Ix Eu) as [Ix1 Mx1].
      apply IH in Hf as (Iy&Ny&My&Cy&Wy&Ky); auto.
      2:{ intros w' Hw'. apply Hl. simpl; auto. }
      2:{ congruence. }
      2:{ congruence. }
      2:{ eapply keeps_core_trans; [exact Cx|]. eapply update_core; eauto. }
      split; auto. split; auto. split; auto. split; auto. split.
      + intros w' [<-|Hw']; [exists (q_id f); split; auto|auto].
      + intros w' i Hn Ev Hc. apply Ky; auto; [intro X; apply Hn; simpl; auto|].
        apply (update_keeps w' (q_id f) i (w_name w) (w_count w) (w_delay w) x x1 fx); auto; [congruence|].
        intros ->. apply Hn. simpl. left.
        destruct Hc as (a&b&Fa&Na&_). rewrite Fx in Fa. injection Fa as <-. congruence. }
  assert (NDk : NoDup (map w_name known)) by (apply nodup_map_filter; auto).
  destruct (P2 known d1 d2) as (I2&Nm2&M2&C2&W2&_); auto. { apply keeps_core_refl. }
  clear P2. assert (N2 : names_ok (queues d2)) by (apply (names_ok_ext (queues d1)); auto).
  (* the create phase *)
  assert (P3 : forall l x y, (forall w, In w l -> In w ws) ->
     Inv x -> names_ok (queues x) -> msgs x = msgs d ->
     fold_opt (fun w d => qb_create (w_name w) (w_count w) (w_delay w) d) l x = Some y ->
     Inv y /\ names_ok (queues y) /\ msgs y = msgs d /\
     (exists a, queues y = queues x ++ a /\
        forall q, In q a -> exists w, In w ws /\ (q_name q = w_name w \/ q_name q = error_name (w_name w)) /\
                             q_count q = 0 /\ q_size q = 0 /\ q_uncommitted q = 0) /\
     (forall w, In w l -> exists i, configured w i (queues y))).
  { induction l as [|w l IH]; intros x y Hl Ix Nx Mx Hf; cbn [fold_opt] in Hf.
    - injection Hf as <-. split; auto. split; auto. split; auto. split; [exists []; rewrite app_nil_r; split; auto; intros q []|intros w []].
    - destruct (qb_create _ _ _ x) as [x1|] eqn:Ec; [|discriminate].
      pose proof (create_names _ _ _ _ _ Ix Nx Ec) as Nx1. pose proof (Inv_create _ _ _ _ _ Ix Ec) as Ix1.
      destruct (create_configures w x x1 Ix Ec) as [i Ci].
      pose proof Ec as Ec'. apply create_shape in Ec as (e&q&Eq&Em&A1&A2&A3&A4&A5&A6&A7&A8&A9).
      apply IH in Hf as (Iy&Ny&My&(a&Ea&Ha)&Wy); auto; [|intros; apply Hl; simpl; auto|congruence].
      split; auto. split; auto. split; auto. split.
      + exists ([e; q] ++ a). split; [rewrite Ea, Eq, app_assoc; auto|].
        intros r Hr. apply in_app_or in Hr as [Hr|Hr]; [|auto]. exists w. split; [apply Hl; simpl; auto|].
        assert (Z0 : q_count e = 0 /\ q_size e = 0 /\ q_uncommitted e = 0 /\ q_count q = 0 /\ q_size q = 0 /\ q_uncommitted q = 0).
        { clear -Ec' Eq. unfold qb_create, insert_queue in Ec'. destruct (name_taken _ _) in Ec'; [discriminate|].
          destruct (name_taken _ _) in Ec'; [discriminate|]. injection Ec' as <-. cbn [queues] in Eq.
          rewrite <- app_assoc in Eq. apply app_inv_head in Eq. cbn in Eq. injection Eq as <- <-. cbn. auto 10. }
        destruct Hr as [<-|[<-|[]]]; split; auto; tauto.
      + intros w' [<-|Hw']; [|auto]. exists i. rewrite Ea. apply configured_app; auto. }
  apply P3 in H as (I3&N3&M3&(a&Ea&Ha)&W3); auto.
  2:{ intros w Hw. unfold fresh in Hw. apply filter_In in Hw. tauto. }
  split; auto. split; auto. split; [|split].
  - intros w Hw. destruct (find_name qs (w_name w)) as [f|] eqn:Ff.
    + destruct (W2 w) as (i&_&Ci). { unfold known. apply filter_In. rewrite Ff. auto. }
      apply (configured_is w i). rewrite Ea. apply configured_app; auto.
    + destruct (W3 w) as (i&Ci). { unfold fresh. apply filter_In. rewrite Ff. auto. }
      apply (configured_is w i); auto.
  - intros q Hq O. assert (Hq1 : In q (queues d1)) by (apply K1; auto).
    assert (Fq : find_q (queues d1) (q_id q) = Some q) by (apply find_q_nodup; auto; apply I1).
    destruct (C2 _ _ Fq) as (q'&Fq'&Cq'). destruct (named_find _ _ _ _ Nm2 Fq) as (q''&Fq''&Nq'').
    rewrite Fq' in Fq''. injection Fq'' as <-. unfold q_named in Nq''. injection Nq'' as _ X _.
    exists q'. split; auto. rewrite Ea. apply in_or_app. left. apply find_q_in in Fq'. tauto.
  - intros q' Hq'. rewrite Ea in Hq'. apply in_app_or in Hq' as [Hq'|Hq']; [left|right; auto].
    destruct (named_in _ _ q' (eq_sym Nm2) Hq') as (q&Hq&Nq). unfold q_named in Nq. injection Nq as X1 X2 X3.
    pose proof Hq as Hq1. apply K1 in Hq1 as [Hq1 O].
    assert (Fq : find_q (queues d1) (q_id q) = Some q) by (apply find_q_nodup; auto; apply I1).
    destruct (C2 _ _ Fq) as (r&Fr&Cr).
    assert (Fq' : find_q (queues d2) (q_id q') = Some q') by (apply find_q_nodup; auto; apply I2).
    rewrite X1, Fq' in Fr. injection Fr as <-. exists q. auto.
Qed.

(* names stay unique under every configuration update *)
Lemma names_configure ws d d' : Inv d -> names_ok (queues d) -> qb_configure ws d = Some d' -> names_ok (queues d').
Proof.
  intros I N H. unfold qb_configure in H.
  destruct (fold_opt qb_remove_queue _ d) as [d1|] eqn:E1; [|discriminate].
  destruct (fold_opt _ _ d1) as [d2|] eqn:E2 in H; [|discriminate].
  apply configure_removes in E1 as (I1&N1&M1&K1); auto.
  assert (P2 : Inv d2 /\ map q_named (queues d2) = map q_named (queues d1)).
  { eapply (fold_opt_ind _ (fun x => Inv x /\ map q_named (queues x) = map q_named (queues d1))); [|split; [exact I1|reflexivity]|exact E2].
    intros w x y Hw [Ix Nx] Hf. destruct (find_name (queues d) (w_name w)) as [f|] eqn:Ff; [|injection Hf as <-; auto].
    apply find_name_in in Ff as [F1 F2]. apply filter_In in Hw as [Hw _].
    assert (Hf1 : In f (queues d1)).
    { apply K1. split; auto. intros (z&e&Hz&He&Eze&U1&U2&_&_&[-> | ->]); [apply U1|apply U2]; exists w; [exists z|exists e]; auto. }
    assert (Fd1 : find_q (queues d1) (q_id f) = Some f) by (apply find_q_nodup; auto; apply I1).
    destruct (named_find _ _ _ _ Nx Fd1) as (fx&Fx&Nfx). unfold q_named in Nfx. injection Nfx as X1 X2 X3.
    split; [apply Inv_update_q in Hf; tauto|]. rewrite <- Nx.
    apply (update_names (q_id f) (w_name w) (w_count w) (w_delay w)); auto.
    - apply (names_ok_ext (queues d1)); auto.
    - intros q Hq. rewrite Fx in Hq. injection Hq as <-. congruence. }
  destruct P2 as [I2 Nm2].
  assert (P3 : Inv d' /\ names_ok (queues d')); [|tauto].
  eapply (fold_opt_ind _ (fun x => Inv x /\ names_ok (queues x))); [|split; [exact I2|apply (names_ok_ext (queues d1)); auto]|exact H].
  intros w x y _ [Ix Nx] Hf. split; [eapply Inv_create; eauto|eapply create_names; eauto].
Qed.

Lemma names_step d o d' r : Inv d -> names_ok (queues d) -> step d o = (d', r) -> names_ok (queues d').
Proof.
  intros I N H. destruct o.
  1: { cbn [step] in H. destruct (qb_configure ws d) as [x|] eqn:E; injection H as <- _; auto. eapply names_configure; eauto. }
  all: apply step_static in H; [|intros ? X; discriminate X]; apply (names_ok_ext (queues d)); auto;
       assert (G : forall l, map q_named l = map (fun p => (fst (fst (fst (fst p))), snd (fst (fst (fst p))), snd p)) (map q_static l))
         by (intros l; rewrite map_map; reflexivity); rewrite !G, H; reflexivity.
Qed.

Lemma names_reachable d : reachable d -> names_ok (queues d).
Proof.
  intros [tr H]. assert (G : forall a tr b, history a tr b -> Inv a -> names_ok (queues a) -> names_ok (queues b)).
  { clear. induction 1; auto. intros I N. apply IHhistory; [eapply Inv_step; eauto|eapply names_step; eauto]. }
  eapply G; [exact H|apply Inv_empty|]. constructor; cbn; [constructor|]. intros q e [].
Qed.

Lemma configure_step ws d d' :
  reachable d -> NoDup (map w_name ws) ->
  (forall w q, In w ws -> In q (queues d) -> q_name q = w_name w -> q_error q <> 0) ->
  step d (Configure ws) = (d', Done) ->
  msgs d' = msgs d /\
  (forall w, In w ws -> is_configured w (queues d')) /\
  (forall q, In q (queues d) -> ~ obsolete ws (queues d) q ->
     exists q', In q' (queues d') /\ q_id q' = q_id q /\ q_name q' = q_name q /\ q_error q' = q_error q) /\
  (forall q', In q' (queues d') ->
     (exists q, In q (queues d) /\ ~ obsolete ws (queues d) q /\ q_id q' = q_id q /\ q_name q' = q_name q) \/
     (exists w, In w ws /\ (q_name q' = w_name w \/ q_name q' = error_name (w_name w)))).
Proof.
  intros R ND NE H. cbn [step] in H. destruct (qb_configure ws d) as [x|] eqn:E; [|discriminate]. injection H as <-.
  destruct (configure_exact ws d x (Inv_reachable d R) (names_reachable d R) ND NE E) as (A&_&B&C&D).
  split; auto. split; auto. split.
  - intros q Hq O. destruct (C q Hq O) as (q'&X&Y&Z). exists q'. unfold q_core in Y. injection Y as Y1 Y2 _ _ _ _ _. auto.
  - intros q' Hq. destruct (D q' Hq) as [(q&X1&X2&X3&X4)|(w&X1&X2&_)]; [left|right; eauto].
    exists q. unfold q_core in X3. injection X3 as Y1 _ _ _ _ _ _. auto.
Qed.

Lemma unique_names d : reachable d -> NoDup (map q_name (queues d)).
Proof. intros R. apply (names_reachable d R). Qed.

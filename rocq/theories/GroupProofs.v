(* Proofs about the queue group's request handling. *)
From Coq Require Import ZArith List String Bool Lia Permutation.
From Verif Require Import QueueModel QueueSpec QueueProofs QueueHistory QueueLemmas QueueExact GroupModel GroupSpec.
Import ListNotations.
Local Open Scope Z_scope.

(* ------------------------------------------------------------ std::partition *)

Lemma unsnoc_none {A} (l : list A) : unsnoc l = None -> l = [].
Proof. destruct l as [|x r]; simpl; auto. destruct (unsnoc r) as [[i y]|]; discriminate. Qed.

Lemma unsnoc_some {A} (l : list A) i y : unsnoc l = Some (i, y) -> l = i ++ [y].
Proof.
  revert i y. induction l as [|x r IH]; simpl; intros i y H; [discriminate|].
  destruct (unsnoc r) as [[j z]|] eqn:E.
  - injection H as <- <-. rewrite (IH j z); auto.
  - injection H as <- <-. rewrite (unsnoc_none r); auto.
Qed.

(* run a predicate with state over a list; split by its answers *)
Fixpoint exec {A S} (p : S -> A -> S * bool) (s : S) (l : list A) : S * list A * list A :=
  match l with
  | [] => (s, [], [])
  | x :: r =>
      let '(s1, b) := p s x in
      let '(s2, f, bk) := exec p s1 r in
      if b then (s2, x :: f, bk) else (s2, f, x :: bk)
  end.

Definition held_list {A} (h : option A) : list A := match h with Some x => [x] | None => [] end.

(* std::partition evaluates the predicate on the elements in some order *)
Lemma std_partition_exec {A S} (p : S -> A -> S * bool) n h s l s2 f b :
  std_partition n h p s l = (s2, f, b) -> (List.length l < n)%nat ->
  exists l' f' b', Permutation l' l /\ exec p s l' = (s2, f', b') /\ Permutation f f' /\ Permutation b (held_list h ++ b').
Proof.
  revert h s l s2 f b. induction n as [|n IH]; intros h s l s2 f b H L; [lia|].
  simpl in H. destruct h as [x|].
  - destruct (unsnoc l) as [[ini y]|] eqn:U.
    + apply unsnoc_some in U. subst l. rewrite app_length in L. simpl in L.
      destruct (p s y) as [s1 c] eqn:P. destruct c.
      * destruct (std_partition n None p s1 ini) as [[s3 f3] b3] eqn:R.
        injection H as <- <- <-. destruct (IH _ _ _ _ _ _ R ltac:(lia)) as (l'&f'&b'&P1&E1&P2&P3).
        exists (y :: l'), (y :: f'), b'. split; [rewrite P1; apply Permutation_cons_append|].
        split; [simpl; rewrite P, E1; auto|]. split; [constructor; auto|].
        simpl in *. rewrite <- Permutation_cons_append. constructor; auto.
      * destruct (std_partition n (Some x) p s1 ini) as [[s3 f3] b3] eqn:R.
        injection H as <- <- <-. destruct (IH _ _ _ _ _ _ R ltac:(lia)) as (l'&f'&b'&P1&E1&P2&P3).
        exists (y :: l'), f', (y :: b'). split; [rewrite P1; apply Permutation_cons_append|].
        split; [simpl; rewrite P, E1; auto|]. split; [auto|].
        simpl in *. rewrite <- Permutation_cons_append, P3. apply perm_swap.
    + apply unsnoc_none in U. subst l. injection H as <- <- <-. exists [], [], []. simpl. auto.
  - destruct l as [|x r].
    + injection H as <- <- <-. exists [], [], []. simpl. auto.
    + simpl in L. destruct (p s x) as [s1 c] eqn:P. destruct c.
      * destruct (std_partition n None p s1 r) as [[s3 f3] b3] eqn:R.
        injection H as <- <- <-. destruct (IH _ _ _ _ _ _ R ltac:(lia)) as (l'&f'&b'&P1&E1&P2&P3).
        exists (x :: l'), (x :: f'), b'. split; [constructor; auto|].
        split; [simpl; rewrite P, E1; auto|]. split; [constructor; auto|]. auto.
      * destruct (IH _ _ _ _ _ _ H ltac:(lia)) as (l'&f'&b'&P1&E1&P2&P3).
        exists (x :: l'), f', (x :: b'). split; [constructor; auto|].
        split; [simpl; rewrite P, E1; auto|]. split; [auto|]. simpl in *. auto.
Qed.

Lemma partition_st_exec {A S} (p : S -> A -> S * bool) s l s2 f b :
  partition_st p s l = (s2, f, b) ->
  exists l' f' b', Permutation l' l /\ exec p s l' = (s2, f', b') /\ Permutation f f' /\ Permutation b b'.
Proof.
  intros H. destruct (std_partition_exec _ _ _ _ _ _ _ _ H ltac:(lia)) as (l'&f'&b'&A1&A2&A3&A4).
  exists l', f', b'. auto.
Qed.

Lemma exec_pure {A} (p : A -> bool) l s :
  exec (fun (_ : unit) a => (tt, p a)) s l = (s, filter p l, filter (fun a => negb (p a)) l).
Proof.
  destruct s. induction l as [|x r IH]; simpl; auto. rewrite IH. destruct (p x); auto.
Qed.

Lemma perm_filter {A} (p : A -> bool) l l' : Permutation l l' -> Permutation (filter p l) (filter p l').
Proof.
  intros H. induction H; simpl; auto.
  - destruct (p x); auto.
  - destruct (p x), (p y); auto. apply perm_swap.
  - eapply Permutation_trans; eauto.
Qed.

Lemma partition_pure_perm {A} (p : A -> bool) l f b :
  partition_pure p l = (f, b) -> Permutation f (filter p l) /\ Permutation b (filter (fun a => negb (p a)) l).
Proof.
  unfold partition_pure. destruct (partition_st _ tt l) as [[u f1] b1] eqn:E. intros H. injection H as <- <-.
  apply partition_st_exec in E as (l'&f'&b'&A1&A2&A3&A4). rewrite exec_pure in A2. injection A2 as _ <- <-.
  rewrite A3, A4. split; apply perm_filter; auto.
Qed.

(* ------------------------------------------------------------ logs *)

Lemma fold_log_app l tr1 tr2 : fold_left log_step (tr1 ++ tr2) l = fold_left log_step tr2 (fold_left log_step tr1 l).
Proof. apply fold_left_app. Qed.

Definition log_ok (l : log * log) : Prop := exists ext, fst l = snd l ++ ext.

Lemma log_step_ok l a : log_ok l -> log_ok (log_step l a) /\ exists ext, snd (log_step l a) = snd l ++ ext.
Proof.
  intros [ext E]. destruct a; simpl; unfold log_ok; simpl;
    try (solve [split; [exists ext; exact E|exists []; rewrite app_nil_r; reflexivity]]).
  - split; [exists (ext ++ [(corr, e)]); rewrite E, app_assoc; auto|exists []; rewrite app_nil_r; auto].
  - split; [exists []; rewrite app_nil_r; auto|exists ext; auto].
  - split; [exists []; rewrite app_nil_r; auto|exists []; rewrite app_nil_r; auto].
Qed.

Lemma fold_log_ok tr l : log_ok l -> log_ok (fold_left log_step tr l) /\ exists ext, snd (fold_left log_step tr l) = snd l ++ ext.
Proof.
  revert l. induction tr as [|a tr IH]; intros l H; simpl.
  - split; auto. exists []. rewrite app_nil_r; auto.
  - destruct (log_step_ok l a H) as [A [e1 B]]. destruct (IH _ A) as [C [e2 D]].
    split; auto. exists (e1 ++ e2). rewrite D, B, app_assoc. auto.
Qed.

Lemma logs_ok tr : log_ok (logs tr).
Proof. apply fold_log_ok. exists []. auto. Qed.

Lemma durable_grows tr x : exists ext, durable (tr ++ x) = durable tr ++ ext.
Proof. unfold durable, logs. rewrite fold_log_app. apply fold_log_ok. apply logs_ok. Qed.

Lemma durable_in tr x e : In e (durable tr) -> In e (durable (tr ++ x)).
Proof. intros H. destruct (durable_grows tr x) as [ext E]. rewrite E. apply in_app_iff; auto. Qed.

Lemma durable_seen tr : exists ext, seen tr = durable tr ++ ext.
Proof. apply logs_ok. Qed.

Lemma logs_snoc tr a : logs (tr ++ [a]) = log_step (logs tr) a.
Proof. unfold logs. rewrite fold_log_app. auto. Qed.

Lemma seen_applied tr e : In e (seen tr) -> In (Applied (fst e) (snd e)) tr.
Proof.
  induction tr as [|a tr IH] using rev_ind; [simpl; auto|].
  unfold seen in *. rewrite logs_snoc. intros H. apply in_app_iff.
  destruct (logs_ok tr) as [ext E].
  destruct a; simpl in H; try (left; apply IH; auto; fail).
  - apply in_app_iff in H as [H|[<-|[]]]; [left; auto|right; simpl; auto].
  - left. apply IH. rewrite E. apply in_app_iff. auto.
Qed.

(* ------------------------------------------------------------ elementary steps *)

(* what an operation is accounted for in size.current *)
Definition change (o : op) (r : out) : Z :=
  match o, r with
  | Enqueue _ _ _ c _ _, Done => Z.of_nat (List.length (c_payload c))
  | Dequeue _ _ t _, GotMessage (Some m) => if t =? 0 then - plen m else 0
  | Commit _, Affected n => - n
  | Rollback _ _, Affected n => - n
  | RecoveryCommit _, Recovered n _ => - n
  | RecoveryRollback _ _, Recovered n _ => - n
  | _, _ => 0
  end.

Definition accounted (o : op) : bool := match o with Clear _ | Remove _ _ _ => false | _ => true end.

(* the operation that an answer acknowledges is in the log *)
Definition acked (l : log) (corr : Z) (r : reply) : Prop :=
  match r with
  | REnqueue true id => exists q c a n, In (corr, (Enqueue q id 0 c a n, Done)) l
  | RCommit true t => exists n, In (corr, (Commit (fst t), Affected n)) l
  | RRollback true t => exists k n, In (corr, (Rollback (fst t) k, Affected n)) l
  | _ => True
  end.

(* the answers that wait for a persistent write *)
Definition deferred (r : reply) : Prop := match r with REnqueue _ _ | RCommit _ _ | RRollback _ _ => True | _ => False end.

Definition sendable (tr : list action) (inv : list trid) (corr : Z) (r : reply) : Prop :=
  match r with
  | REnqueue true id => exists q t c a n, fst t <> 0 /\ In t inv /\ In (Applied corr (Enqueue q id (fst t) c a n, Done)) tr
  | RCommit true _ | RRollback true _ => False
  | RDequeue (Some m) => exists q sel g n, In (Applied corr (Dequeue q sel g n, GotMessage (Some m))) tr /\
                           (g = 0 \/ exists b, In (g, b) inv)
  | _ => True
  end.

(* an accepted message fits *)
Definition fits (s : gstate) (o : op) (r : out) : Prop :=
  match o, r with
  | Enqueue _ _ _ c _ _, Done => sufficient c s = true
  | _, _ => True
  end.

(* [cfg]: the capacities that may be configured *)
Inductive micro (cfg : option Z -> Prop) (tr : list action) : gstate -> list action -> gstate -> Prop :=
| mi_op : forall s corr o r d' n, step (g_db s) o = (d', r) -> fits s o r -> (accounted o = true /\ n = g_size s + change o r) \/ n = qb_size d' ->
    micro cfg tr s [Applied corr (o, r)] (w_size n (w_db d' s))
| mi_size : forall s, micro cfg tr s [] (w_size (qb_size (g_db s)) s)
| mi_cap : forall s c, cfg c -> micro cfg tr s [] (w_cap c s)
| mi_persist : forall s, micro cfg tr s [Persisted] (fst (persist_db s))
| mi_flush : forall s, micro cfg tr s (Persisted :: map (fun x => Sent (fst (fst x)) (snd (fst x)) (snd x)) (g_replies s))
                              (w_replies [] (fst (persist_db s)))
| mi_reply : forall s pid corr r, deferred r -> acked (seen tr) corr r -> micro cfg tr s [] (w_replies (g_replies s ++ [(pid, corr, r)]) s)
| mi_prune : forall s p, micro cfg tr s [] (w_replies (filter p (g_replies s)) s)
| mi_involve : forall s t, micro cfg tr s (snd (involve t s)) (fst (involve t s))
| mi_send : forall s pid corr r, sendable tr (g_involved s) corr r -> micro cfg tr s [Sent pid corr r] s
| mi_pend : forall s l, micro cfg tr s [] (w_pend l s)
| mi_timer : forall s t a, micro cfg tr s [] (w_timer t a s)
| mi_drop : forall s c, micro cfg tr s [Dropped c] s
| mi_crash : forall s, micro cfg tr s [Crashed] (mk_g (g_disk s) (g_disk s) (qb_size (g_disk s)) (g_cap s) [] [] [] None false).

Inductive micros (cfg : option Z -> Prop) : list action -> gstate -> list action -> gstate -> Prop :=
| ms_nil : forall tr s, micros cfg tr s [] s
| ms_cons : forall tr s a s1 b s2, micro cfg tr s a s1 -> micros cfg (tr ++ a) s1 b s2 -> micros cfg tr s (a ++ b) s2.

Arguments ms_nil {cfg}. Arguments ms_cons {cfg}.
Arguments mi_op {cfg}. Arguments mi_size {cfg}. Arguments mi_cap {cfg}. Arguments mi_persist {cfg}. Arguments mi_flush {cfg}.
Arguments mi_reply {cfg}. Arguments mi_prune {cfg}. Arguments mi_involve {cfg}. Arguments mi_send {cfg}. Arguments mi_pend {cfg}.
Arguments mi_timer {cfg}. Arguments mi_drop {cfg}. Arguments mi_crash {cfg}.

Lemma ms_one {cfg} tr s a s' : micro cfg tr s a s' -> micros cfg tr s a s'.
Proof. intros H. rewrite <- (app_nil_r a). econstructor; eauto. constructor. Qed.

Lemma ms_app {cfg} tr s a s1 b s2 : micros cfg tr s a s1 -> micros cfg (tr ++ a) s1 b s2 -> micros cfg tr s (a ++ b) s2.
Proof.
  intros H. induction H; simpl; intros K.
  - rewrite app_nil_r in K. auto.
  - rewrite <- app_assoc. econstructor; eauto. apply IHmicros. rewrite <- app_assoc. auto.
Qed.

Lemma ms_silent {cfg} tr s s1 b s2 : micros cfg tr s [] s1 -> micros cfg tr s1 b s2 -> micros cfg tr s b s2.
Proof. intros A B. apply (ms_app tr s [] s1 b s2); auto. rewrite app_nil_r. auto. Qed.

Lemma ms_then {cfg} tr s a s1 s2 : micros cfg tr s a s1 -> micros cfg (tr ++ a) s1 [] s2 -> micros cfg tr s a s2.
Proof. intros A B. rewrite <- (app_nil_r a). eapply ms_app; eauto. Qed.

Lemma w_size_id s : w_size (g_size s) s = s.
Proof. destruct s; auto. Qed.

Lemma trid_eqb_eq a b : trid_eqb a b = true <-> a = b.
Proof.
  destruct a as [a1 a2], b as [b1 b2]. unfold trid_eqb. simpl. rewrite andb_true_iff, !Z.eqb_eq.
  split; [intros [-> ->]; auto|]. intros H. injection H as -> ->. auto.
Qed.

Lemma involve_in t s : In t (g_involved (fst (involve t s))).
Proof.
  unfold involve. destruct (existsb (trid_eqb t) (g_involved s)) eqn:E; simpl.
  - apply existsb_exists in E as (x&A&B). apply trid_eqb_eq in B. subst. auto.
  - apply in_app_iff. simpl. auto.
Qed.

Lemma w_size_db d s n : g_size (w_db d s) = g_size s -> n = g_size s -> w_db d s = w_size n (w_db d s).
Proof. intros _ ->. destruct s; auto. Qed.

Lemma mi_op0 {cfg} tr s corr o r d' : step (g_db s) o = (d', r) -> fits s o r -> accounted o = true -> change o r = 0 -> micro cfg tr s [Applied corr (o, r)] (w_db d' s).
Proof.
  intros H F A C. rewrite (w_size_db d' s (g_size s)); auto. constructor; auto. left. split; [auto|lia].
Qed.

Lemma timer_set_micro {cfg} tr a n s : micro cfg tr s [] (timer_set a n s).
Proof. unfold timer_set. destruct (a - n <=? 0); constructor. Qed.

Lemma dequeue_handle_micros {cfg} tr now r s s' a b :
  dequeue_handle now r s = (s', a, b) -> micros cfg tr s a s'.
Proof.
  unfold dequeue_handle, apply_op.
  destruct (step (g_db s) (Dequeue (dr_queue r) (dr_sel r) (fst (dr_trid r)) now)) as [d' o] eqn:E.
  destruct o as [| |[m|]| | |]; try (simpl in E; destruct (qb_dequeue _ _ _ _ _); discriminate E).
  - destruct (fst (dr_trid r) =? 0) eqn:T.
    + intros H. injection H as <- <- <-. simpl app.
      apply (ms_cons tr s [_] (w_size (g_size (w_db d' s) - plen m) (w_db d' s)) [_]).
      * apply mi_op; [exact E|simpl; auto|]. left. simpl. rewrite T. split; [auto|lia].
      * apply ms_one. constructor. simpl. eexists _, _, _, _. split.
        -- apply in_app_iff. right. simpl. left. reflexivity.
        -- left. apply Z.eqb_eq; auto.
    + destruct (involve (dr_trid r) (w_db d' s)) as [s2 a2] eqn:V. intros H. injection H as <- <- <-.
      apply (ms_cons tr s [_] (w_db d' s) (a2 ++ [_])).
      * apply mi_op0; simpl; auto. rewrite T. auto.
      * assert (I2 : In (dr_trid r) (g_involved s2)) by (pose proof (involve_in (dr_trid r) (w_db d' s)) as I2; rewrite V in I2; auto).
        apply (ms_cons _ (w_db d' s) a2 s2 [_]).
        -- pose proof (@mi_involve cfg (tr ++ [Applied (dr_corr r) (Dequeue (dr_queue r) (dr_sel r) (fst (dr_trid r)) now, GotMessage (Some m))]) (w_db d' s) (dr_trid r)) as X.
           rewrite V in X. auto.
        -- apply ms_one. constructor. simpl. eexists _, _, _, _. split.
           ++ apply in_app_iff. left. apply in_app_iff. right. simpl. left. reflexivity.
           ++ right. exists (snd (dr_trid r)). destruct (dr_trid r); auto.
  - assert (M : micro cfg tr s [Applied (dr_corr r) (Dequeue (dr_queue r) (dr_sel r) (fst (dr_trid r)) now, GotMessage None)] (w_db d' s))
      by (apply mi_op0; simpl; auto).
    destruct (dr_block r).
    + intros H. injection H as <- <- <-.
      eapply ms_then; [apply ms_one; exact M|].
      eapply ms_silent; [|apply ms_one; constructor].
      destruct (qb_available _ _); [|constructor].
      destruct (g_timer _); [destruct (_ <? _)|]; try constructor; apply ms_one; apply timer_set_micro.
    + intros H. injection H as <- <- <-. apply (ms_cons tr s [_] (w_db d' s) [_]); auto.
      apply ms_one. constructor. simpl. auto.
Qed.

Lemma exec_reached_micros {cfg} now l : forall tr s acts c s' acts' c' f b,
  exec (reached now) (s, acts, c) l = ((s', acts', c'), f, b) ->
  exists a, acts' = acts ++ a /\ micros cfg (tr ++ acts) s a s'.
Proof.
  induction l as [|r l IH]; intros tr s acts c s' acts' c' f b H.
  - simpl in H. injection H as <- <- <- _ _. exists []. rewrite app_nil_r. split; auto. constructor.
  - cbn [exec] in H. unfold reached at 1 in H. destruct (c <? 1) eqn:C.
    + destruct (exec (reached now) (s, acts, c) l) as [[st f1] b1] eqn:R. destruct st as [[s1 a1] c1].
      injection H as <- <- <- _ _. eapply IH; eauto.
    + destruct (dequeue_handle now r s) as [[s1 a] bb] eqn:D.
      destruct (exec (reached now) (s1, acts ++ a, if bb then c - 1 else c) l) as [[st f1] b1] eqn:R. destruct st as [[s2 a2] c2].
      injection H as <- <- <- _ _. destruct (IH tr _ _ _ _ _ _ _ _ R) as (x&E&M).
      exists (a ++ x). subst a2. split; [rewrite app_assoc; auto|].
      eapply ms_app; [eapply dequeue_handle_micros; eauto|]. rewrite <- app_assoc. auto.
Qed.

Lemma serve_micros {cfg} now avs : forall tr s acts cur s' acts' cur',
  fold_left (serve_queue now) avs (s, acts, cur) = (s', acts', cur') ->
  exists a, acts' = acts ++ a /\ micros cfg (tr ++ acts) s a s'.
Proof.
  induction avs as [|av avs IH]; intros tr s acts cur s' acts' cur' H.
  - simpl in H. injection H as <- <- _. exists []. rewrite app_nil_r. split; auto. constructor.
  - cbn [fold_left] in H. unfold serve_queue at 2 in H.
    destruct (partition_pure _ cur) as [mine rest] eqn:P.
    destruct (partition_st (reached now) (s, acts, av_count av) mine) as [[st kept] gone] eqn:R.
    destruct st as [[s1 acts1] c1]. apply partition_st_exec in R as (l'&f'&b'&_&R&_&_).
    destruct (@exec_reached_micros cfg _ _ tr _ _ _ _ _ _ _ _ R) as (a&->&M).
    apply (IH tr) in H as (x&->&N). exists (a ++ x). split; [rewrite app_assoc; auto|].
    eapply ms_app; [exact M|]. rewrite <- app_assoc. eapply ms_silent; [apply ms_one; apply mi_pend|].
    exact N.
Qed.

Lemma sweep_micros {cfg} tr now s s' a : sweep now s = (s', a) -> micros cfg tr s a s'.
Proof.
  unfold sweep. destruct (g_pend s) as [|r0 l0] eqn:G.
  - intros H. injection H as <- <-. constructor.
  - destruct (partition_pure _ (r0 :: l0)) as [stay reqs] eqn:P.
    destruct (fold_left (serve_queue now) _ (w_pend stay s, [], reqs)) as [[s1 acts] cur] eqn:F.
    apply (@serve_micros cfg _ _ tr) in F as (x&E&M). simpl in E. subst acts. rewrite app_nil_r in M.
    assert (B : micros cfg tr s x s1) by (eapply ms_silent; [apply ms_one, mi_pend|exact M]).
    destruct (min_when _); intros H; injection H as <- <-; (eapply ms_then; [exact B|]); apply ms_one.
    + apply timer_set_micro.
    + apply mi_timer.
Qed.

Lemma handle_persist_micros {cfg} tr now s s' a : handle_persist now s = (s', a) -> micros cfg tr s a s'.
Proof.
  unfold handle_persist. destruct (g_replies s) as [|x rs] eqn:G; [apply sweep_micros|].
  simpl. destruct (sweep now _) as [s2 a3] eqn:W. intros H. injection H as <- <-.
  pose proof (@mi_flush cfg tr s) as F. rewrite G in F. simpl in F.
  apply (ms_cons tr s _ _ a3 s2) in F; [exact F|]. eapply sweep_micros; eauto.
Qed.

Lemma persistent_reply_micros {cfg} tr now pid corr r s s' a :
  deferred r -> acked (seen tr) corr r -> persistent_reply now pid corr r s = (s', a) -> micros cfg tr s a s'.
Proof.
  unfold persistent_reply. intros D A H.
  eapply ms_silent; [apply ms_one; apply mi_reply; [exact D|exact A]|].
  destruct (Nat.leb _ _); [eapply handle_persist_micros; eauto|]. injection H as <- <-. constructor.
Qed.

Lemma apply_ops_micros {cfg} corr os : forall tr s s1 a ns,
  (forall o r, In o os -> (forall s, fits s o r) /\ accounted o = true /\ change o r = 0) ->
  apply_ops corr os s = (s1, a, ns) -> micros cfg tr s a s1.
Proof.
  induction os as [|o os IH]; intros tr s s1 a ns C H; simpl in H.
  - injection H as <- <- _. constructor.
  - unfold apply_op in H. destruct (step (g_db s) o) as [d' r] eqn:E.
    destruct (apply_ops corr os (w_db d' s)) as [[s2 a2] n2] eqn:R. injection H as <- <- _.
    eapply (ms_cons _ _ [_]); [apply mi_op0; [exact E| | |]; apply C; simpl; auto|]. eapply IH; eauto. intros; apply C; simpl; auto.
Qed.

Lemma apply_ops_size corr os : forall s n s1 a ns,
  apply_ops corr os s = (s1, a, ns) -> apply_ops corr os (w_size n s) = (w_size n s1, a, ns).
Proof.
  induction os as [|o os IH]; intros s n s1 a ns H; simpl in *.
  - injection H as <- <- <-. auto.
  - unfold apply_op in *. simpl. destruct (step (g_db s) o) as [d' r].
    destruct (apply_ops corr os (w_db d' s)) as [[s2 a2] n2] eqn:R. injection H as <- <- <-.
    change (w_db d' (w_size n s)) with (w_size n (w_db d' s)).
    rewrite (IH _ n _ _ _ R). auto.
Qed.

Lemma apply_ops_resize_micros {cfg} corr os : forall tr s s1 a ns,
  (forall s o r, In o os -> fits s o r) -> apply_ops corr os s = (s1, a, ns) -> micros cfg tr s a (w_size (qb_size (g_db s1)) s1).
Proof.
  induction os as [|o os IH]; intros tr s s1 a ns FT H; simpl in H.
  - injection H as <- <- _. apply ms_one, mi_size.
  - unfold apply_op in H. destruct (step (g_db s) o) as [d' r] eqn:E.
    destruct (apply_ops corr os (w_db d' s)) as [[s2 a2] n2] eqn:R. injection H as <- <- _.
    eapply (ms_cons _ _ [_]); [apply mi_op; [exact E|apply FT; simpl; auto|right; reflexivity]|].
    apply (apply_ops_size _ _ _ (qb_size d')) in R. apply (IH (tr ++ [Applied corr (o, r)])) in R; [|intros; apply FT; simpl; auto].
    exact R.
Qed.

Lemma tick_micros {cfg} tr now s : micros cfg tr s [] (tick now s).
Proof. unfold tick. destruct (g_timer s); [destruct (_ <=? _)|]; try constructor. apply ms_one, mi_timer. Qed.

Lemma drop_micros {cfg} tr s l : micros cfg tr s (map (fun r => Dropped (dr_corr r)) l) s.
Proof.
  revert tr. induction l as [|r l IH]; intros tr; simpl; [constructor|].
  apply (ms_cons tr s [_] s); [constructor|auto].
Qed.

(* the state before the effects of the step: the branch that is settled is forgotten first *)
Definition start (s : gstate) (i : input) : gstate :=
  match i with
  | ICommit _ _ t _ => done_trid t s
  | IRollback _ _ t _ _ => done_trid t s
  | ICrash => w_involved [] s
  | _ => s
  end.

Lemma shutdown_micros {cfg} tr s l :
  micros cfg tr s (flat_map (fun r => [Dropped (dr_corr r); Sent (dr_pid r) (dr_corr r) RForgetRequest]) l) s.
Proof.
  revert tr. induction l as [|r l IH]; intros tr; cbn [flat_map]; [constructor|].
  eapply ms_app; [|apply IH]. apply (ms_cons tr s [_] s [_]); [constructor|]. apply ms_one. constructor. simpl. auto.
Qed.

Lemma tick_done now t s : tick now (done_trid t s) = done_trid t (tick now s).
Proof. unfold tick, done_trid. simpl. destruct (g_timer s); [destruct (_ <=? _)|]; auto. Qed.

Definition configures (i : input) (c : option Z) : Prop := match i with IConfigure cap _ => c = cap | _ => False end.

Lemma gstep_micros tr s i s' a :
  Inv (g_db s) -> gstep s i = (s', a) -> micros (configures i) tr (start s i) a s'.
Proof.
  intros I. destruct i; cbn [gstep start]; intros H.
  - (* configure *) unfold on_configure, apply_op in H. cbn [persist_db] in H.
    destruct (step _ (Configure ws)) as [d' r] eqn:E.
    apply (ms_silent tr s (w_cap cap s)); [apply ms_one, mi_cap; simpl; auto|].
    assert (X : micro (configures (IConfigure cap ws)) (tr ++ [Persisted]) (fst (persist_db (w_cap cap s))) [Applied 0 (Configure ws, r)] (w_db d' (fst (persist_db (w_cap cap s))))).
    { apply mi_op0; simpl; auto. }
    destruct r; try (simpl in E; destruct (qb_configure ws _); discriminate E); injection H as <- <-.
    + eapply (ms_cons tr _ [Persisted]); [apply mi_persist|]. apply ms_one. exact X.
    + eapply (ms_cons tr _ [Persisted]); [apply mi_persist|].
      eapply (ms_cons _ _ [_] _ [Persisted]); [exact X|].
      eapply ms_silent; [apply ms_one, mi_size|]. apply ms_one. apply (mi_persist _ (w_size (qb_size d') (w_db d' (fst (persist_db (w_cap cap s)))))).
  - (* enqueue *)
    eapply ms_silent; [apply (tick_micros _ now)|]. set (s0 := tick now s) in *. clearbody s0. clear I s.
    unfold on_enqueue in H. destruct (sufficient c s0) eqn:SUF; cbn [negb] in H.
    2:{ injection H as <- <-. apply ms_one. constructor. simpl; auto. }
    destruct (resolve (g_db s0) q) as [qid|].
    2:{ injection H as <- <-. apply ms_one. constructor. simpl; auto. }
    unfold apply_op in H. destruct (step (g_db s0) (Enqueue qid id (fst t) c avail now)) as [d' r] eqn:E.
    destruct r; try (simpl in E; destruct (qb_enqueue qid id (fst t) c avail now (g_db s0)); discriminate E).
    + injection H as <- <-. eapply (ms_cons _ _ [_] _ [_]); [apply mi_op0; [exact E|simpl; auto|auto|auto]|]. apply ms_one. constructor. simpl. auto.
    + assert (X : micro (configures (IEnqueue corr pid q id t c avail now)) tr s0 [Applied corr (Enqueue qid id (fst t) c avail now, Done)]
                 (w_size (g_size (w_db d' s0) + Z.of_nat (List.length (c_payload c))) (w_db d' s0))).
      { constructor; auto. }
      destruct (fst t =? 0) eqn:T.
      * destruct (persistent_reply now pid corr (REnqueue true id) _) as [s3 a3] eqn:R. injection H as <- <-.
        eapply (ms_cons _ _ [_]); [exact X|]. eapply persistent_reply_micros; [| |exact R]; [exact Logic.I|].
        simpl. apply Z.eqb_eq in T. rewrite T. eexists _, _, _, _. unfold seen. rewrite logs_snoc. simpl. apply in_app_iff. right. simpl. left. reflexivity.
      * destruct (involve t _) as [s3 a3] eqn:V. injection H as <- <-.
        eapply (ms_cons _ _ [_] _ (a3 ++ [_])); [exact X|].
        assert (I2 : In t (g_involved s3)).
        { pose proof (involve_in t (w_size (g_size (w_db d' s0) + Z.of_nat (List.length (c_payload c))) (w_db d' s0))) as I2; rewrite V in I2; auto. }
        eapply (ms_cons _ _ a3 s3 [_]).
        -- pose proof (@mi_involve (configures (IEnqueue corr pid q id t c avail now)) (tr ++ [Applied corr (Enqueue qid id (fst t) c avail now, Done)])
              (w_size (g_size (w_db d' s0) + Z.of_nat (List.length (c_payload c))) (w_db d' s0)) t) as Y.
           rewrite V in Y. exact Y.
        -- apply ms_one. constructor. simpl. exists qid, t, c, avail, now.
           split; [apply Z.eqb_neq; auto|]. split; [auto|]. apply in_app_iff. left. apply in_app_iff. right. simpl. auto.
  - (* dequeue *)
    eapply ms_silent; [apply (tick_micros _ now)|]. unfold on_dequeue in H.
    destruct (resolve _ q).
    + destruct (dequeue_handle _ _ _) as [[s1 a1] b] eqn:D. simpl in H. injection H as <- <-. eapply dequeue_handle_micros; eauto.
    + injection H as <- <-. apply ms_one. constructor. simpl; auto.
  - (* forget *) unfold on_forget in H. destruct (remove_first corr (g_pend s)); injection H as <- <-.
    + eapply ms_silent; [apply ms_one, mi_pend|]. eapply (ms_cons _ _ [_] _ [_]); [apply mi_drop|]. apply ms_one. constructor. simpl; auto.
    + apply ms_one. constructor. simpl; auto.
  - (* browse *) unfold apply_op in H. destruct (step _ _) as [d' r] eqn:E. injection H as <- <-.
    eapply (ms_cons _ _ [_] _ [_]); [apply mi_op0; [exact E|simpl; auto|auto|auto]|]. apply ms_one. constructor. simpl; auto.
  - (* commit *) unfold on_commit, apply_op in H. rewrite <- tick_done in H.
    eapply ms_silent; [apply (tick_micros _ now)|]. set (s0 := tick now (done_trid t s)) in *. clearbody s0. clear I s.
    destruct (step (g_db s0) (Commit (fst t))) as [d' r] eqn:E.
    destruct r; try (simpl in E; discriminate E).
    destruct (persistent_reply _ _ _ _ _) as [s2 a2] eqn:R. injection H as <- <-.
    eapply (ms_cons _ _ [_]).
    + apply mi_op; [exact E|simpl; auto|]. left. split; reflexivity.
    + eapply persistent_reply_micros; [| |exact R]; [exact Logic.I|]. simpl. eexists. unfold seen. rewrite logs_snoc. simpl. apply in_app_iff. right. simpl. left. reflexivity.
  - (* prepare *) injection H as <- <-. apply ms_one. constructor. simpl; auto.
  - (* rollback *) unfold on_rollback, apply_op in H. rewrite <- tick_done in H.
    eapply ms_silent; [apply (tick_micros _ now)|].
    assert (I0 : Inv (g_db (tick now (done_trid t s)))) by (unfold tick, done_trid; simpl; destruct (g_timer s); [destruct (_ <=? _)|]; auto).
    set (s0 := tick now (done_trid t s)) in *. clearbody s0. clear I s.
    destruct (step (g_db s0) (Rollback (fst t) sqlnow)) as [d' r] eqn:E.
    assert (exists n, r = Affected n) as [n ->].
    { simpl in E. destruct (rollback_ok (fst t) sqlnow (g_db s0) I0) as (d1&E1&_). rewrite E1 in E. injection E as _ <-. eauto. }
    destruct (persistent_reply _ _ _ _ _) as [s2 a2] eqn:R. injection H as <- <-.
    eapply (ms_cons _ _ [_]).
    + apply mi_op; [exact E|simpl; auto|]. left. split; reflexivity.
    + eapply persistent_reply_micros; [| |exact R]; [exact Logic.I|]. simpl. eexists _, _. unfold seen. rewrite logs_snoc. simpl. apply in_app_iff. right. simpl. left. reflexivity.
  - (* recovery *) unfold on_recovery, apply_op in H.
    destruct (step (g_db s) _) as [d' r] eqn:E.
    assert (X : exists n k, r = Recovered n k).
    { destruct commit; simpl in E.
      - destruct (qb_recovery_commit gs (g_db s)) as [[? n] k]. injection E as _ <-. eauto.
      - destruct (recovery_rollback_ok gs sqlnow (g_db s) I) as (d1&n&k&E1&_). rewrite E1 in E. injection E as _ <-. eauto. }
    destruct X as (n&k&->). injection H as <- <-.
    eapply (ms_cons _ _ [_] _ [_]).
    + apply mi_op; [exact E|destruct commit; exact Logic.I|]. left. destruct commit; split; reflexivity.
    + apply ms_one. constructor. simpl; auto.
  - (* restore *) eapply ms_silent; [apply (tick_micros _ now)|]. unfold on_restore in H.
    destruct (apply_ops corr (map Restore qs) (tick now s)) as [[s1 a1] ns] eqn:A. cbn [persist_db] in H.
    destruct (sweep now _) as [s3 a3] eqn:W. injection H as <- <-.
    eapply ms_app; [eapply apply_ops_micros; [|exact A]|].
    { intros o r Ho. apply in_map_iff in Ho as (x&<-&_). simpl. auto. }
    eapply (ms_cons _ _ [Persisted]); [apply mi_persist|].
    eapply ms_app; [eapply sweep_micros; exact W|]. apply ms_one. constructor. simpl; auto.
  - (* clear *) unfold on_clear in H. destruct (apply_ops corr (map Clear qs) s) as [[s1 a1] ns] eqn:A.
    injection H as <- <-. eapply ms_app; [eapply apply_ops_resize_micros; [|exact A]; intros ? ? ? Ho; apply in_map_iff in Ho as (?&<-&_); simpl; auto|]. apply ms_one. constructor. simpl; auto.
  - (* remove *) unfold on_remove, apply_op in H. destruct (step (g_db s) _) as [d' r] eqn:E. injection H as <- <-.
    eapply (ms_cons _ _ [_] _ [_]); [apply mi_op; [exact E|simpl; auto|right; reflexivity]|]. apply ms_one. constructor. simpl; auto.
  - (* metric reset *) unfold apply_op in H. destruct (step (g_db s) _) as [d' r] eqn:E. injection H as <- <-.
    eapply (ms_cons _ _ [_] _ [_]); [apply mi_op0; [exact E|simpl; auto|auto|auto]|]. apply ms_one. constructor. simpl; auto.
  - (* timeout *) eapply ms_silent; [apply (tick_micros _ now)|]. eapply ms_silent; [apply ms_one, mi_timer|].
    cbn [g_replies w_timer] in H. destruct (g_replies (tick now s)); [eapply sweep_micros; exact H|].
    injection H as <- <-. constructor.
  - (* exit *) unfold on_exit in H. injection H as <- <-.
    eapply ms_silent; [apply ms_one, mi_pend|]. eapply ms_silent; [apply ms_one, mi_prune|]. apply drop_micros.
  - (* idle *) eapply ms_silent; [apply (tick_micros _ now)|]. eapply handle_persist_micros; eauto.
  - (* shutdown *) eapply ms_silent; [apply (tick_micros _ now)|]. unfold on_shutdown in H.
    destruct (handle_persist now (tick now s)) as [s1 a1] eqn:P. injection H as <- <-.
    eapply ms_app; [eapply handle_persist_micros; exact P|]. eapply ms_silent; [apply ms_one, mi_pend|]. apply shutdown_micros.
  - (* crash *) unfold on_crash in H. injection H as <- <-.
    eapply ms_app; [apply drop_micros|]. apply ms_one. apply (mi_crash _ (w_involved [] s)).
Qed.

(* ------------------------------------------------------------ stored payload *)

Lemma sum_total l : sum_len l = total plen l.
Proof. reflexivity. Qed.

Lemma size_delete p d : qb_size (delete_where p d) = qb_size d - sum_len (filter p (msgs d)).
Proof.
  assert (H : sum_len (msgs d) = sum_len (filter p (msgs d)) + sum_len (filter (fun m => negb (p m)) (msgs d)))
    by exact (total_filter plen p (msgs d)).
  unfold qb_size, delete_where. cbn [msgs]. lia.
Qed.

Lemma total_map_same (p : msg -> bool) (f : msg -> msg) l :
  (forall m, plen (f m) = plen m) -> total plen (map (fun m => if p m then f m else m) l) = total plen l.
Proof. intros H. induction l as [|m l IH]; simpl; auto. rewrite IH. destruct (p m); rewrite ?H; auto. Qed.

Lemma size_update p f d : (forall m, plen (f m) = plen m) -> qb_size (update_state_where p f d) = qb_size d.
Proof. intros H. exact (total_map_same p f (msgs d) H). Qed.

Lemma size_update_queue p f d d' :
  (forall m, plen (f m) = plen m) -> update_queue_where p f d = Some d' -> qb_size d' = qb_size d.
Proof.
  unfold update_queue_where. intros H E. destruct (fk_ok _); [|discriminate]. injection E as <-.
  exact (total_map_same p f (msgs d) H).
Qed.

Lemma size_commit g d d' n : qb_commit g d = (d', n) -> qb_size d' = qb_size d - n.
Proof.
  unfold qb_commit. intros H. injection H as <- <-. rewrite size_delete, size_update; auto.
Qed.

Lemma size_rollback g k d d' n : Inv d -> qb_rollback g k d = (d', Some n) -> qb_size d' = qb_size d - n.
Proof.
  intros I H. unfold qb_rollback in H. destruct (update_queue_where _ _ _) as [d3|] eqn:E; [|discriminate].
  injection H as <- <-. apply size_update_queue in E; auto. rewrite E, size_update, size_delete; auto.
Qed.

Lemma single_total (l : list msg) m :
  NoDup (map m_id l) -> In m l -> total plen (filter (fun r => m_id r =? m_id m) l) = plen m.
Proof.
  induction l as [|x l IH]; simpl; intros N H; [tauto|]. inversion N as [|? ? N1 N2]; subst.
  destruct H as [->|H].
  - rewrite Z.eqb_refl. simpl.
    assert (E : filter (fun r => m_id r =? m_id m) l = []).
    { clear - N1. induction l as [|y l IH]; simpl; auto. destruct (Z.eqb_spec (m_id y) (m_id m)).
      - exfalso. apply N1. rewrite <- e. simpl. auto.
      - apply IH. intro. apply N1. simpl. auto. }
    rewrite E. simpl. lia.
  - destruct (Z.eqb_spec (m_id x) (m_id m)); auto.
    exfalso. apply N1. rewrite e. apply in_map. auto.
Qed.

Lemma size_step d o d' r :
  Inv d -> step d o = (d', r) -> accounted o = true -> qb_size d' = qb_size d + change o r.
Proof.
  intros I H A. destruct o; simpl in H; try discriminate A.
  - destruct (qb_configure ws d) eqn:E; injection H as <- <-; simpl; [|lia].
    apply Inv_configure in E as [_ E]; auto. unfold qb_size. rewrite E. lia.
  - destruct (qb_enqueue q id trid c avail now d) eqn:E; injection H as <- <-; simpl; [|lia].
    unfold qb_enqueue, insert_msg in E. destruct (existsb _ _); [discriminate|]. destruct (negb _); [discriminate|].
    injection E as <-. unfold qb_size. cbn [msgs].
    match goal with |- sum_len (_ ++ [?x]) = _ => assert (Y : sum_len (msgs d ++ [x]) = sum_len (msgs d) + sum_len [x]) by exact (total_app plen (msgs d) [x]) end.
    rewrite Y. simpl. unfold plen. simpl. lia.
  - destruct (qb_dequeue q s trid now d) as [d1 x] eqn:E. injection H as <- <-.
    unfold qb_dequeue in E. destruct (qb_fetch q s now d) as [m|] eqn:F.
    + assert (Hm : In m (msgs d)) by (apply fetch_in in F; tauto).
      destruct (trid =? 0) eqn:T; injection E as <- <-; simpl; rewrite T.
      * rewrite size_delete. pose proof (single_total (msgs d) m (inv_ids d I) Hm) as Y. rewrite <- sum_total in Y. lia.
      * rewrite size_update; auto. lia.
    + injection E as <- <-. simpl. lia.
  - injection H as <- <-. simpl. lia.
  - injection H as <- <-. pose proof (size_commit g d _ _ eq_refl) as Y. simpl in *. lia.
  - destruct (rollback_ok g sqlnow d I) as (d1&E&_). rewrite E in H. injection H as <- <-.
    rewrite (size_rollback _ _ _ _ _ I E). simpl. lia.
  - destruct (qb_recovery_commit gs d) as [[d1 n] k] eqn:E. injection H as <- <-. simpl.
    clear A I. revert d d1 n k E. induction gs as [|g gs IH]; intros d d1 n k E; simpl in E.
    + injection E as <- <- _. lia.
    + destruct (qb_recovery_commit gs _) as [[d3 n3] k3] eqn:R. injection E as <- <- _.
      apply IH in R. rewrite R. rewrite size_delete, size_update; auto. simpl. lia.
  - destruct (qb_recovery_rollback gs sqlnow d) as [d1 [[n k]|]] eqn:E.
    2:{ destruct (recovery_rollback_ok gs sqlnow d I) as (d2&s&k&E2&_). rewrite E2 in E. discriminate. }
    injection H as <- <-. simpl. clear A. revert d d1 n k I E. induction gs as [|g gs IH]; intros d d1 n k I E.
    + simpl in E. injection E as <- <- _. lia.
    + rewrite recovery_rollback_cons in E. destruct (rollback_ok g sqlnow d I) as (d2&E2&I2&_). rewrite E2 in E.
      destruct (qb_recovery_rollback gs sqlnow d2) as [d4 [[s4 k4]|]] eqn:R; [|discriminate].
      injection E as <- <- _. rewrite (IH _ _ _ _ I2 R), (size_rollback _ _ _ _ _ I E2). lia.
  - destruct (restore_ok q d I) as (d1&E&_). rewrite E in H. injection H as <- <-. simpl.
    unfold qb_restore in E. destruct (update_queue_where _ _ d) eqn:U; [|discriminate]. injection E as <-.
    apply size_update_queue in U; [lia|auto].
  - injection H as <- <-. simpl. destruct (Inv_metric_reset qs d I) as [_ E]. unfold qb_size. rewrite E. lia.
Qed.

(* ------------------------------------------------------------ the invariant *)

Lemma history_snoc d tr d1 o r d2 : history d tr d1 -> step d1 o = (d2, r) -> history d (tr ++ [(o, r)]) d2.
Proof. intros H. induction H; simpl; intros E; econstructor; eauto. constructor. Qed.

(* an answer [r] may be sent after [tr] *)
Definition good (tr : list action) (corr : Z) (r : reply) : Prop :=
  acked (durable tr) corr r \/
  match r with
  | REnqueue true id => exists q g c a n, g <> 0 /\ In (Applied corr (Enqueue q id g c a n, Done)) tr
  | _ => False
  end.

Definition all_good (tr : list action) : Prop :=
  forall tr1 pid corr r tr2, tr = tr1 ++ Sent pid corr r :: tr2 -> good tr1 corr r.

Lemma snoc_split {A} (l l1 : list A) a x l2 :
  l ++ [a] = l1 ++ x :: l2 -> (l = l1 /\ a = x) \/ exists l3, l = l1 ++ x :: l3.
Proof.
  intros H. destruct l2 as [|y l2] using rev_ind.
  - left. apply app_inj_tail in H. auto.
  - right. exists l2. change (x :: l2 ++ [y]) with ((x :: l2) ++ [y]) in H. rewrite app_assoc in H.
    apply app_inj_tail in H. tauto.
Qed.

Lemma all_good_snoc tr a : all_good tr -> (forall pid corr r, a = Sent pid corr r -> good tr corr r) -> all_good (tr ++ [a]).
Proof.
  intros H G tr1 pid corr r tr2 E. apply snoc_split in E as [[<- E]|[l3 E]]; [eapply G; eauto|eapply H; eauto].
Qed.

Record Ginv (tr : list action) (s : gstate) : Prop := {
  gi_seen : history db_empty (map snd (seen tr)) (g_db s);
  gi_durable : history db_empty (map snd (durable tr)) (g_disk s);
  gi_size : g_size s = qb_size (g_db s);
  gi_replies : forall pid corr r, In (pid, corr, r) (g_replies s) -> acked (seen tr) corr r;
  gi_deferred : forall pid corr r, In (pid, corr, r) (g_replies s) -> deferred r;
  gi_sent : all_good tr
}.

Lemma acked_mono l l' corr r : (forall e, In e l -> In e l') -> acked l corr r -> acked l' corr r.
Proof.
  intros H. destruct r as [[] id|m| |?| |m|[] t|[] t|t|?|?|?|?|]; simpl; auto.
  - intros (q&c&a&n&X). eexists _, _, _, _. apply H. exact X.
  - intros (n&X). eexists. apply H. exact X.
  - intros (k&n&X). eexists _, _. apply H. exact X.
Qed.

Lemma Ginv_init : Ginv [] g_init.
Proof.
  constructor; simpl; try constructor; try tauto; try (intros; tauto). destruct tr1; discriminate.
Qed.

Lemma Ginv_silent tr s s' : g_db s' = g_db s -> g_disk s' = g_disk s -> g_size s' = g_size s ->
  (forall x, In x (g_replies s') -> In x (g_replies s)) -> Ginv tr s -> Ginv tr s'.
Proof.
  intros A B C D [H1 H2 H3 H4 H6 H5]. constructor; rewrite ?A, ?B, ?C; auto. - intros. eapply H4. apply D. eauto.
  - intros. eapply H6. apply D. eauto.
Qed.

(* a trace element that does not concern the logs *)
Lemma logs_neutral tr a : log_step (logs tr) a = logs tr -> seen (tr ++ [a]) = seen tr /\ durable (tr ++ [a]) = durable tr.
Proof. intros H. unfold seen, durable. rewrite logs_snoc, H. auto. Qed.

Lemma Ginv_neutral tr s a : Ginv tr s -> log_step (logs tr) a = logs tr ->
  (forall pid corr r, a = Sent pid corr r -> acked (durable tr) corr r \/ sendable tr (g_involved s) corr r) -> Ginv (tr ++ [a]) s.
Proof.
  intros [H1 H2 H3 H4 H6 H5] N S. destruct (logs_neutral tr a N) as [E1 E2].
  constructor; rewrite ?E1, ?E2; auto.
  apply all_good_snoc; auto.
  intros pid corr r X. destruct (S pid corr r X) as [B|B]; [left; auto|]. unfold good.
  destruct r as [[] id|m| |?| |m|[] t|[] t|t|?|?|?|?|]; simpl in *; auto; try tauto.
    destruct B as (q&t&c&av&n&B&C&D). right. exists q, (fst t), c, av, n. split; auto.
Qed.

Lemma Ginv_micro {cfg} tr s a s' : micro cfg tr s a s' -> Ginv tr s -> Ginv (tr ++ a) s'.
Proof.
  intros M G. inversion M; subst; rewrite ?app_nil_r.
  - (* op *)
    destruct G as [G1 G2 G3 G4 G6 G5].
    assert (I : Inv (g_db s)) by (apply Inv_reachable; eexists; exact G1).
    assert (E1 : seen (tr ++ [Applied corr (o, r)]) = seen tr ++ [(corr, (o, r))]) by (unfold seen; rewrite logs_snoc; auto).
    assert (E2 : durable (tr ++ [Applied corr (o, r)]) = durable tr) by (unfold durable; rewrite logs_snoc; auto).
    constructor; rewrite ?E1, ?E2; simpl; auto.
    + rewrite map_app. simpl. eapply history_snoc; eauto.
    + match goal with X : _ \/ _ |- _ => rename X into Y end. destruct Y as [[A ->]| ->]; auto. rewrite G3. symmetry. eapply size_step; eauto.
    + intros. eapply acked_mono; [|eapply G4; eauto]. intros. apply in_app_iff. auto.
    + apply all_good_snoc; auto. discriminate.
  - destruct G as [H1 H2 H3 H4 H6 H5]. constructor; simpl; auto.
  - apply (Ginv_silent tr s); auto.
  - destruct G as [H1 H2 H3 H4 H6 H5].
    assert (E1 : seen (tr ++ [Persisted]) = seen tr) by (unfold seen; rewrite logs_snoc; auto).
    assert (E2 : durable (tr ++ [Persisted]) = seen tr) by (unfold durable; rewrite logs_snoc; auto).
    constructor; rewrite ?E1, ?E2; simpl; auto.
    apply all_good_snoc; auto. discriminate.
  - destruct G as [H1 H2 H3 H4 H6 H5].
    assert (E1 : seen (tr ++ [Persisted]) = seen tr) by (unfold seen; rewrite logs_snoc; auto).
    assert (E2 : durable (tr ++ [Persisted]) = seen tr) by (unfold durable; rewrite logs_snoc; auto).
    change (Persisted :: ?l) with ([Persisted] ++ l). rewrite app_assoc.
    assert (B : Ginv (tr ++ [Persisted]) (w_replies [] (fst (persist_db s)))).
    { constructor; rewrite ?E1, ?E2; simpl; auto; [intros; tauto|intros; tauto|].
      apply all_good_snoc; auto. discriminate. }
    assert (K : forall p c r, In (p, c, r) (g_replies s) -> acked (durable (tr ++ [Persisted])) c r) by (rewrite E2; eauto).
    clear - B K. remember (tr ++ [Persisted]) as tr0 eqn:F. clear F. revert tr0 B K.
    generalize (g_replies s) as l. induction l as [|[[p c] r] l IH]; intros tr0 B K; simpl; [rewrite app_nil_r; auto|].
    change (Sent p c r :: ?l) with ([Sent p c r] ++ l). rewrite app_assoc. apply IH.
    + apply Ginv_neutral; auto. intros pid corr r' X. injection X as <- <- <-. left. apply (K p). simpl. auto.
    + intros p' c' r' X. eapply acked_mono; [|apply (K p'); simpl; eauto]. intros; apply durable_in; auto.
  - destruct G as [H1 H2 H3 H4 H6 H5]. constructor; simpl; auto; intros p c r' X;
    apply in_app_iff in X as [X|[X|[]]]; [eapply H4; eauto| |eapply H6; eauto|]; injection X as <- <- <-; auto.
  - apply (Ginv_silent tr s); auto. simpl. intros x X. apply filter_In in X. tauto.
  - unfold involve. destruct (existsb _ _); simpl; [rewrite app_nil_r; auto|].
    apply (Ginv_silent _ s); auto. apply Ginv_neutral; auto. intros; discriminate.
  - apply Ginv_neutral; auto. intros p c r' X. injection X as <- <- <-. auto.
  - apply (Ginv_silent tr s); auto.
  - apply (Ginv_silent tr s); auto.
  - apply Ginv_neutral; auto. intros; discriminate.
  - destruct G as [H1 H2 H3 H4 H6 H5].
    assert (E1 : seen (tr ++ [Crashed]) = durable tr) by (unfold seen; rewrite logs_snoc; auto).
    assert (E2 : durable (tr ++ [Crashed]) = durable tr) by (unfold durable; rewrite logs_snoc; auto).
    constructor; rewrite ?E1, ?E2; simpl; auto; [intros; tauto|intros; tauto|].
    apply all_good_snoc; auto. discriminate.
Qed.

Lemma Ginv_micros {cfg} tr s a s' : micros cfg tr s a s' -> Ginv tr s -> Ginv (tr ++ a) s'.
Proof.
  intros M. induction M; intros G; [rewrite app_nil_r; auto|].
  rewrite app_assoc. apply IHM. eapply Ginv_micro; eauto.
Qed.

Lemma Ginv_start tr s i : Ginv tr s -> Ginv tr (start s i).
Proof. intros G. destruct i; simpl; auto; apply (Ginv_silent tr s); auto. Qed.

Lemma Ginv_Inv tr s : Ginv tr s -> Inv (g_db s).
Proof. intros G. apply Inv_reachable. eexists. apply G. Qed.

Lemma Ginv_step tr s i s' a : Ginv tr s -> gstep s i = (s', a) -> Ginv (tr ++ a) s'.
Proof.
  intros G H. eapply Ginv_micros; [|apply Ginv_start; exact G]. eapply gstep_micros; eauto. eapply Ginv_Inv; eauto.
Qed.

Lemma Ginv_run_gen s l s' : run s l s' -> forall tr, Ginv tr s -> Ginv (tr ++ trace l) s'.
Proof.
  intros R. induction R; intros tr G; [unfold trace; simpl; rewrite app_nil_r; auto|].
  unfold trace in *. simpl. rewrite app_assoc. apply IHR. eapply Ginv_step; eauto.
Qed.

Lemma Ginv_run l s : run g_init l s -> Ginv (trace l) s.
Proof. intros R. apply (Ginv_run_gen _ _ _ R [] Ginv_init). Qed.

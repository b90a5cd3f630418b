From Coq Require Import ZArith List Bool Lia Permutation.
From Verif Require Import CodesModel CtxModel CtxSpec CtxProofs CtxXa CtxMore CallModel CallSpec CallProofs CallMore CallMain CallTied CallTx ServeModel ServeSpec ServeProofs ServeTx ServeMore.
Import ListNotations.
Local Open Scope Z_scope.

(* ---------------------------------------------------------------- who is asked to commit when the request is done *)
Definition may (b : bool) (s : proc) (x : Z) : Prop := b = true /\ exists t, In t (c_txs (p_tx s)) /\ x_own (t_id t) = me /\ t_state t = active /\ x_id (t_id t) = x.
Lemma finish_commits e b f s s1 m : empty_ok (p_tx s) -> finish e b f s = (s1, m) -> exists evs, seen s s1 evs /\ forall ev x, In ev evs -> some_commit x ev -> may b s x.
Proof.
  intros EO. destruct (step_commits e (Finalize b) (p_tx s) EO) as (evs & L & C). cbn [step] in L. destruct (finalize e b (p_tx s)) as [c1 k] eqn:F. cbn [fst] in L.
  assert (C' : forall ev x, In ev evs -> some_commit x ev -> may b s x). { intros ev x I SC. destruct (C ev x I SC) as [(D & _) | (D & t & T)]; [discriminate|]. injection D as ->. split; [reflexivity|exists t; exact T]. }
  assert (N : forall s1 m, finish e b None s = (s1, m) -> exists evs, seen s s1 evs /\ forall ev x, In ev evs -> some_commit x ev -> may b s x).
  { intros s2 m2 H. destruct (finish_none e b s) as (s3 & E & P). rewrite E in H. injection H as <- <-. rewrite F in P. cbn [fst] in P. exists evs. split; [unfold seen; rewrite P; exact L|exact C']. }
  destruct f as [n|]; [|exact (N s1 m)]. unfold finish. destruct (owns (p_tx s)); [|exact (N s1 m)]. destruct (discards_same (pending_of (p_tx s)) s) as (T & _). rewrite T, F.
  intros [= <- <-]. exists (firstn n evs). split.
  - unfold seen. cbn [c_log p_tx w_tx]. unfold since in L. rewrite L. rewrite firstn_app, firstn_all2 by lia. f_equal. f_equal. lia.
  - intros ev x I. apply C'. rewrite <- (firstn_skipn n evs). apply in_app_iff. left. exact I.
Qed.
Lemma seen_trans a b c x y : seen a b x -> seen b c y -> seen a c (x ++ y). Proof. unfold seen. intros A ->. rewrite A, app_assoc. reflexivity. Qed.
Lemma may_tx b s s' x : p_tx s' = p_tx s -> may b s' x -> may b s x. Proof. unfold may. intros ->. auto. Qed.
Lemma routine_ready e q us fl s c1 r : Forall user_input us -> ready (p_tx s) -> enter e (q_semantics q) (q_tid q) (f_enter fl) (p_tx s) = (c1, r) -> forall h, xrun e us (w_tx c1 s) = (routine_end e q us fl s, h) ->
  ready (p_tx (routine_end e q us fl s)) /\ same_foreign c1 (p_tx (routine_end e q us fl s)).
Proof.
  intros F R EN h X. pose proof (enter_ready _ _ _ _ _ _ _ EN R) as R1. destruct (routine_next e us (w_tx c1 s) _ _ F (proj1 R1) X) as (N & E). destruct (routine_foreign e us (w_tx c1 s) _ _ F (proj1 R1) X) as (A & _).
  split; [|exact A]. split; [exact E|]. unfold next_le in N. cbn [p_tx w_tx] in N. unfold ready in R1. lia.
Qed.
Lemma may_none b s x : c_txs (p_tx s) = [] -> ~ may b s x. Proof. intros N (_ & t & I & _). rewrite N in I. exact I. Qed.
Lemma end_commits e q us fin fl s s' evs : Forall user_input us -> ready (p_tx s) -> serve e q us fin fl s = (s', evs) -> invoked evs ->
  exists l, seen (routine_end e q us fl s) s' l /\ forall ev x, In ev l -> some_commit x ev ->
    (exists success user data, fin = E_return success user data /\ (q_conversation q = false -> success = true)) /\ exists t, In t (c_txs (p_tx (routine_end e q us fl s))) /\ x_own (t_id t) = me /\ t_state t = active /\ x_id (t_id t) = x.
Proof.
  intros F R H IN. destruct (serve_path _ _ _ _ _ _ _ _ H) as [_ NI G|c1 r _ NI EN G|c1 out _ EN _ (h & X) G]; [contradiction|contradiction|].
  destruct (routine_ready _ _ _ _ _ _ _ F R EN h X) as ((EO & _) & _). cbv zeta in G. set (s2 := routine_end e q us fl s) in *.
  assert (W : forall s3, p_tx s3 = p_tx s2 -> gone_wrong e q fl s3 out = (s', evs) -> exists l, seen s2 s' l /\ forall ev x, In ev l -> some_commit x ev -> False).
  { intros s3 E G0. apply wrong_consumes in G0. destruct G0 as (m & G0). destruct (finish_commits e _ _ s3 _ _ ltac:(rewrite E; exact EO) G0) as (l & L & C). exists l. split; [unfold seen in *; rewrite L, E; reflexivity|]. intros ev x I SC. destruct (C ev x I SC) as (B & _). discriminate. }
  destruct fin as [success user data|data l|].
  - apply right_consumes in G. destruct G as (s1 & m & G & G'). destruct (finish_commits e _ _ s2 _ _ EO G) as (l & L & C).
    assert (C' : forall ev x, In ev l -> some_commit x ev -> (exists su us0 da, E_return success user data = E_return su us0 da /\ (q_conversation q = false -> su = true)) /\ exists t, In t (c_txs (p_tx s2)) /\ x_own (t_id t) = me /\ t_state t = active /\ x_id (t_id t) = x).
    { intros ev x I SC. destruct (C ev x I SC) as (B & T). split; [|exact T]. exists success, user, data. split; [reflexivity|]. intros Q. unfold complement in B. rewrite Q in B. destruct success; [reflexivity|discriminate B]. }
    destruct G' as [-> | (_ & m' & G')]; [exists l; split; [exact L|exact C']|].
    assert (R2 : ready (p_tx s2)) by exact (proj1 (routine_ready _ _ _ _ _ _ _ F R EN h X)). destruct (finish_ready _ _ _ _ _ _ G R2) as ((E1 & _) & _).
    destruct (finish_commits e _ _ s1 _ _ E1 G') as (l2 & L2 & C2). exists (l ++ l2). split; [exact (seen_trans _ _ _ _ _ L L2)|]. intros ev x I SC. apply in_app_iff in I. destruct I as [I | I]; [exact (C' ev x I SC)|].
    destruct (may_none _ _ x (finish_consumes _ _ _ _ _ _ G) (C2 ev x I SC)).
  - destruct G as [G | [(s3 & E & G) | (O & s3 & m & E & G & _)]].
    + destruct (W s2 eq_refl G) as (l0 & L & C). exists l0. split; [exact L|]. intros ev x I SC. destruct (C ev x I SC).
    + destruct (W s3 E G) as (l0 & L & C). exists l0. split; [exact L|]. intros ev x I SC. destruct (C ev x I SC).
    + assert (E3 : empty_ok (p_tx s3)) by (rewrite E; exact EO). destruct (finish_commits e true None s3 _ _ E3 G) as (l0 & L & C). exists l0. split; [unfold seen in *; rewrite L, E; reflexivity|].
      intros ev x I SC. exfalso. destruct (C ev x I SC) as (_ & t & It & OW & ST & IDT).
      (* the finalize commits only what isn't null *)
      destruct (finish_none e true s3) as (s4 & E4 & P4). rewrite E4 in G. injection G as G _. subst s'. destruct (finalize e true (p_tx s3)) as [c9 k9] eqn:FI. apply finalize_grow in FI. destruct FI as (ev9 & -> & F9). cbn [fst] in P4.
      assert (LL : l0 = ev9). { unfold seen in L. rewrite P4 in L. cbn [c_log grow w_txs] in L. apply app_inv_head in L. auto. } subst l0.
      rewrite E in F9. assert (NO : filter owned (filter (fun t => negb (is_null (t_id t))) (c_txs (p_tx s2))) = []).
      { unfold owns in O. apply not_true_iff_false in O. destruct (filter owned _) as [|u us0] eqn:FF; [reflexivity|]. exfalso. apply O. apply existsb_exists. exists u. assert (Iu : In u (filter owned (filter (fun t => negb (is_null (t_id t))) (c_txs (p_tx s2))))) by (rewrite FF; left; reflexivity).
        apply filter_In in Iu. destruct Iu as (Iu & O1). apply filter_In in Iu. destruct Iu as (Iu & O2). split; [exact Iu|]. rewrite O1, O2. reflexivity. }
      rewrite NO in F9. destruct (proj1 (Forall_forall _ _) F9 ev I) as [(p & ->) | [(u & [] & _) | (u & _ & _ & X9)]]; [destruct SC as [(a & b & D) | (a & b & d & D)]; discriminate D|].
      destruct (proj1 (plain_xa _ _ _ X9 ltac:(discriminate) ltac:(discriminate) x) SC).
  - destruct (W s2 eq_refl G) as (l0 & L & C). exists l0. split; [exact L|]. intros ev x I SC. destruct (C ev x I SC).
Qed.
Lemma early_commits e q us fin fl s s' evs : ready (p_tx s) -> serve e q us fin fl s = (s', evs) -> ~ invoked evs -> exists l, seen s s' l /\ forall ev x, In ev l -> ~ some_commit x ev.
Proof.
  intros (EO & _) H NI.
  assert (W : forall s0, empty_ok (p_tx s0) -> gone_wrong e q fl s0 [] = (s', evs) -> exists l, seen s0 s' l /\ forall ev x, In ev l -> ~ some_commit x ev).
  { intros s0 E0 G. apply wrong_consumes in G. destruct G as (m & G). destruct (finish_commits e _ _ s0 _ _ E0 G) as (l & L & C). exists l. split; [exact L|]. intros ev x I SC. destruct (C ev x I SC) as (B & _). discriminate. }
  destruct (serve_path _ _ _ _ _ _ _ _ H) as [_ _ G|c1 r _ _ EN G|c1 out _ EN OUT _ G].
  - exact (W s EO G).
  - apply enter_spec in EN. destruct (en_log _ _ _ _ _ EN) as (l0 & L0 & P0). destruct (W (w_tx c1 s) (empty_of _ _ (en_empty _ _ _ _ _ EN) EO) G) as (l & L & C). exists (l0 ++ l). split.
    + unfold seen, since in *. cbn [p_tx w_tx] in L. rewrite L, L0, app_assoc. reflexivity.
    + intros ev x I. apply in_app_iff in I. destruct I as [I | I]; [|exact (C ev x I)]. exact (plain_no_commits _ P0 ev x I).
  - exfalso. apply NI. assert (O : forall k, exists b, In (V_invoked (x_id (t_id (current c1))) b) (out ++ k)) by (intros k; eexists; subst out; rewrite <- app_assoc; apply in_app_iff; right; left; reflexivity).
    assert (Wr : forall s0, gone_wrong e q fl s0 out = (s', evs) -> invoked evs). { intros s0 G0. apply wrong_shape in G0. destruct G0 as (m & k & ->). destruct (O (reply_once q (f_reply fl) (w_rstate m first_reply) ++ acknowledge q fl k)) as (b & I). exists (x_id (t_id (current c1))), b. exact I. }
    cbv zeta in G. destruct fin as [success user data|data l|].
    + apply right_shape in G. destruct G as (m & k & [-> | ->]); (match goal with |- invoked (out ++ ?k) => destruct (O k) as (b & I) end); exists (x_id (t_id (current c1))), b; exact I.
    + destruct G as [G | [(s3 & _ & G) | (_ & s3 & m & _ & _ & ->)]]; [exact (Wr _ G)|exact (Wr _ G)|]. match goal with |- invoked (out ++ ?k) => destruct (O k) as (b & I) end. exists (x_id (t_id (current c1))), b. exact I.
    + exact (Wr _ G).
Qed.

(* ---------------------------------------------------------------- what an ok state means *)
Lemma pending_check_error ts : forall c c' r, pending_check ts m_error c = (c', r) -> r = m_error.
Proof. induction ts as [|t ts IH]; intros c c' r; cbn [pending_check]; [intros [= _ <-]; reflexivity|]. destruct (t_pend t); [apply IH|]. destruct (is_null (t_id t)); apply IH. Qed.
Lemma pending_check_ok ts : forall c c' r, pending_check ts m_ok c = (c', r) -> 0 <= r /\ (r = m_ok -> forall t, In t ts -> x_id (t_id t) <> 0 -> t_pend t = []).
Proof.
  induction ts as [|t ts IH]; intros c c' r; cbn [pending_check]; [intros [= _ <-]; split; [unfold m_ok; lia|intros _ t []]|]. destruct (t_pend t) eqn:P.
  - intros H. apply IH in H. destruct H as (A & B). split; [exact A|]. intros E u [<- | I] N; [exact P|exact (B E u I N)].
  - destruct (is_null (t_id t)) eqn:NU.
    + intros H. apply IH in H. destruct H as (A & B). split; [exact A|]. intros E u [<- | I] N; [apply is_null_spec in NU; contradiction|exact (B E u I N)].
    + intros H. apply pending_check_error in H. subst r. split; [unfold m_error; lia|discriminate].
Qed.
Lemma state_of_txn_nonneg s : 0 <= state_of_txn s /\ (state_of_txn s = m_ok -> s = active).
Proof. unfold state_of_txn. destruct (s =? active) eqn:A; [apply Z.eqb_eq in A; unfold m_ok; split; [lia|auto]|]. destruct (s =? rollback_only), (s =? timeout_only); cbv; split; congruence. Qed.
Lemma state_of_code_nonneg k : 0 <= state_of_code k /\ (state_of_code k = m_ok -> k = tx_ok).
Proof. unfold state_of_code. destruct (tx_eqb k tx_ok) eqn:A; [split; [unfold m_ok; lia|intros _; destruct k; try discriminate A; reflexivity]|]. destruct (tx_eqb k tx_rollback); cbv; split; congruence. Qed.
Lemma filter_two {A} (f g : A -> bool) l : filter f (filter g l) = filter (fun x => g x && f x) l.
Proof. induction l as [|x l IH]; [reflexivity|]. cbn. destruct (g x); cbn; [destruct (f x); congruence|exact IH]. Qed.
Definition own_one (t : txn) : bool := negb (is_null (t_id t)) && owned t.
Lemma finalize_ok e b c c' : finalize e b c = (c', m_ok) ->
  (forall t, In t (c_txs c) -> x_id (t_id t) <> 0 -> t_pend t = []) /\
  (forall t l, filter theirs (c_txs c) = t :: l -> t_state t = active /\ b = true) /\
  exists ev0 c2, complete_each e b (filter own_one (c_txs c)) tx_ok (grow ev0 (w_txs [] c)) = (c2, tx_ok) /\ exists ev1, c' = grow ev1 c2.
Proof.
  unfold finalize. rewrite !filter_two. destruct (pending_check (c_txs c) m_ok (w_txs [] c)) as [c1 r1] eqn:P. pose proof (pending_check_ok _ _ _ _ P) as (P0 & P1). apply pending_check_grow in P. destruct P as (ev0 & -> & _).
  change (filter (fun x => negb (is_null (t_id x)) && owned x) (c_txs c)) with (filter own_one (c_txs c)). change (filter (fun x => negb (is_null (t_id x)) && negb (owned x)) (c_txs c)) with (filter theirs (c_txs c)).
  destruct (complete_each e b (filter own_one (c_txs c)) tx_ok _) as [c2 code] eqn:CE. destruct (filter theirs (c_txs c)) as [|t l].
  - intros [= <- M]. destruct (state_of_code_nonneg code) as (S0 & S1). assert (R1 : r1 = m_ok) by (unfold m_ok in *; lia). split; [exact (P1 R1)|]. split; [discriminate|]. assert (code = tx_ok) by (apply S1; unfold m_ok in *; lia). subst code.
    exists ev0, c2. split; [exact CE|]. exists []. rewrite grow_nil. reflexivity.
  - cbv zeta. destruct (end_all e EndSuccess t c2) as [c3 k] eqn:EA. apply end_all_grow in EA. destruct EA as (ev1 & -> & _). intros [= <- M].
    destruct (state_of_code_nonneg (tx_add code k)) as (S0 & S1). destruct (state_of_txn_nonneg (t_state t)) as (T0 & T1).
    set (r2 := Z.max r1 (state_of_txn (t_state t))) in *. assert (R2 : 0 <= r2) by lia.
    assert (K : r2 = m_ok /\ b = true /\ state_of_code (tx_add code k) = m_ok). { unfold m_ok, m_rollback in *. destruct b; cbn [negb andb] in M; [lia|]. destruct (r2 =? 0) eqn:Q; [apply Z.eqb_eq in Q|apply Z.eqb_neq in Q]; lia. }
    destruct K as (K1 & -> & K2). split; [apply P1; unfold m_ok in *; lia|]. split; [intros u l0 [= <- _]; split; [apply T1; unfold m_ok in *; lia|reflexivity]|].
    apply S1, tx_add_ok in K2. destruct K2 as (-> & ->). exists ev0, c2. split; [exact CE|]. exists ev1. reflexivity.
Qed.
Lemma foreign_single e q us fl s c1 r h : Forall user_input us -> ready (p_tx s) -> c_txs (p_tx s) = [] -> enter e (q_semantics q) (q_tid q) (f_enter fl) (p_tx s) = (c1, r) -> xrun e us (w_tx c1 s) = (routine_end e q us fl s, h) ->
  takes_part q -> x_own (q_tid q) <> me -> exists t, filter theirs (c_txs (p_tx (routine_end e q us fl s))) = [t] /\ t_id t = entered (q_semantics q) (q_tid q) (c_next (p_tx s)).
Proof.
  intros F R N EN X (TN & TS) OW. destruct (routine_ready _ _ _ _ _ _ _ F R EN h X) as (_ & SF). set (i := entered (q_semantics q) (q_tid q) (c_next (p_tx s))) in *.
  assert (TH : x_id i <> 0 /\ x_own i <> me). { destruct R as (_ & R). unfold i, entered. assert (NN : is_null (q_tid q) = false) by (apply is_null_false; exact TN). destruct TS as [-> | [-> | ->]]; try rewrite NN; cbn; split; auto; lia. }
  destruct TH as (TH1 & TH2). destruct (en_txs _ _ _ _ _ (enter_spec _ _ _ _ _ _ _ EN)) as [(u & E & (ID & _)) | (_ & _ & O)].
  - rewrite N in E. cbn [app] in E. unfold same_foreign, foreign in SF. rewrite E in SF. cbn [filter] in SF. fold i in ID. assert (TU : theirs u = true). { unfold theirs, owned. rewrite ID. apply andb_true_iff. split; apply negb_true_iff; [apply is_null_false; exact TH1|apply Z.eqb_neq; exact TH2]. }
    rewrite TU in SF. cbn [map] in SF. apply Permutation_length_1_inv in SF. destruct (filter theirs (c_txs (p_tx (routine_end e q us fl s)))) as [|t [|t' l]]; try discriminate SF. injection SF as SF. exists t. split; [reflexivity|congruence].
  - exfalso. apply TH2. unfold owned in O. cbn in O. apply Z.eqb_eq in O. exact O.
Qed.
Lemma fst_finish e b s s1 m : finish e b None s = (s1, m) -> m = Some (snd (finalize e b (p_tx s))) /\ p_tx s1 = fst (finalize e b (p_tx s)).
Proof. intros H. destruct (finish_none e b s) as (s3 & E & P). rewrite E in H. injection H as <- <-. auto. Qed.
Lemma normalize_state r : r_state (normalize r) = r_state r. Proof. unfold normalize. destruct (_ && _); reflexivity. Qed.
(* the state the caller gets is the one finalize came to *)
Lemma wrong_state e q fl s out s' evs c r : f_finalize fl = None -> gone_wrong e q fl s out = (s', evs) -> In (V_reply c r) evs -> (forall c r, ~ In (V_reply c r) out) -> r_state r = snd (finalize e false (p_tx s)).
Proof.
  intros F G I NO. unfold gone_wrong in G. rewrite F in G. destruct (finish e false None s) as [s1 m] eqn:FI. apply fst_finish in FI. destruct FI as (-> & _). injection G as <- <-. apply in_app_iff in I. destruct I as [I | I]; [destruct (NO _ _ I)|].
  apply in_app_iff in I. destruct I as [I | I]; [|destruct (ack_in _ _ _ _ _ I)]. apply once_in in I. subst r. rewrite normalize_state. reflexivity.
Qed.
Lemma right_state e q fl r0 s out s' evs c r : f_finalize fl = None -> gone_right e q fl r0 s out = (s', evs) -> In (V_reply c r) evs -> (forall c r, ~ In (V_reply c r) out) -> r = normalize (w_rstate (snd (finalize e (r_state r0 =? m_ok) (p_tx s))) r0) /\ p_tx s' = fst (finalize e (r_state r0 =? m_ok) (p_tx s)).
Proof.
  intros F G I NO. unfold gone_right in G. rewrite F in G. destruct (finish e (r_state r0 =? m_ok) None s) as [s1 m] eqn:FI. apply fst_finish in FI. destruct FI as (-> & P). injection G as <- <-. split; [|exact P]. apply in_app_iff in I. destruct I as [I | I]; [destruct (NO _ _ I)|].
  apply in_app_iff in I. destruct I as [I | I]; [|destruct (ack_in _ _ _ _ _ I)]. unfold reply_twice in I. destruct (f_reply fl); exact (once_in _ _ _ _ _ I).
Qed.
Lemma out_no_reply q x b : forall c r, ~ In (V_reply c r) (conn_of q ++ [V_invoked x b]).
Proof. intros c r I. unfold conn_of in I. destruct (q_conversation q); cbn in I; intuition discriminate. Qed.
Lemma ok_means e q us fin fl s s' evs c r : Forall user_input us -> ready (p_tx s) -> c_txs (p_tx s) = [] -> serve e q us fin fl s = (s', evs) ->
  takes_part q -> x_own (q_tid q) <> me -> q_known q = true -> f_finalize fl = None -> In (V_reply c r) evs -> r_state r = m_ok ->
  invoked evs /\ (exists success user data, fin = E_return success user data /\ (q_conversation q = false -> success = true)) /\
  (exists t, holds (routine_end e q us fl s) t /\ x_id (t_id t) = wanted (q_semantics q) (q_tid q) (c_next (p_tx s)) /\ t_state t = active) /\
  (forall t, holds (routine_end e q us fl s) t -> t_pend t = []).
Proof.
  intros F R N H TP OW KN FF I ST. destruct (serve_path _ _ _ _ _ _ _ _ H) as [K _ _|c1 r0 _ NI EN G|c1 out _ EN OUT (h & X) G]; [congruence| |].
  - exfalso. rewrite (wrong_state _ _ _ _ _ _ _ _ _ FF G I) in ST by (intros ? ? []). cbn [p_tx w_tx] in ST. destruct (finalize e false c1) as [c9 m9] eqn:FI. cbn [snd] in ST. subst m9. apply finalize_ok in FI. destruct FI as (_ & FO & _).
    destruct (foreign_single e q [] fl s c1 r0 [] ltac:(constructor) R N EN) as (t & E & _); [unfold routine_end; rewrite EN; reflexivity|exact TP|exact OW|]. unfold routine_end in E. rewrite EN in E. cbn in E. destruct (FO t [] E). discriminate.
  - destruct (foreign_single _ _ _ _ _ _ _ _ F R N EN X TP OW) as (t & E & ID). set (s2 := routine_end e q us fl s) in *. cbv zeta in G.
    assert (NO : forall c r, ~ In (V_reply c r) out) by (subst out; apply out_no_reply). assert (IO : forall k, invoked (out ++ k)) by (intros k; subst out; eexists _, _; rewrite <- app_assoc; apply in_app_iff; right; left; reflexivity).
    assert (WR : forall s3, p_tx s3 = p_tx s2 -> gone_wrong e q fl s3 out = (s', evs) -> False).
    { intros s3 E3 G0. rewrite (wrong_state _ _ _ _ _ _ _ _ _ FF G0 I NO), E3 in ST. destruct (finalize e false (p_tx s2)) as [c9 m9] eqn:FI. cbn [snd] in ST. subst m9. apply finalize_ok in FI. destruct FI as (_ & FO & _). destruct (FO t [] E). discriminate. }
    destruct fin as [success user data|data l|].
    + assert (IV : invoked evs) by (apply right_shape in G; destruct G as (m & k & [-> | ->]); apply IO). destruct (right_state _ _ _ _ _ _ _ _ _ _ FF G I NO) as (-> & _). rewrite normalize_state in ST. cbn [r_state w_rstate] in ST.
      set (b := r_state (complement (q_conversation q) success user data first_reply) =? m_ok) in *. destruct (finalize e b (p_tx s2)) as [c9 m9] eqn:FI. cbn [snd] in ST. subst m9. apply finalize_ok in FI. destruct FI as (PE & FO & _). destruct (FO t [] E) as (SA & B).
      split; [exact IV|]. split; [exists success, user, data; split; [reflexivity|]; intros Q; unfold b, complement in B; rewrite Q in B; destruct success; [reflexivity|discriminate B]|].
      assert (IT : In t (filter theirs (c_txs (p_tx s2)))) by (rewrite E; left; reflexivity). apply filter_In in IT. destruct IT as (IT & TT). unfold theirs in TT. apply andb_true_iff in TT. destruct TT as (TT & _). apply negb_true_iff in TT.
      split; [exists t; split; [split; [exact IT|apply is_null_false; exact TT]|]; split; [rewrite ID; apply entered_wanted|exact SA]|]. intros u (IU & NU). exact (PE u IU NU).
    + exfalso. destruct G as [G | [(s3 & E3 & G) | (_ & s3 & m & _ & _ & ->)]]; [exact (WR s2 eq_refl G)|exact (WR s3 E3 G)|]. apply in_app_iff in I. destruct I as [I | [I | I]]; [exact (NO _ _ I)|discriminate|exact (ack_in _ _ _ _ _ I)].
    + exfalso. exact (WR s2 eq_refl G).
Qed.

(* ---------------------------------------------------------------- a service with a transaction of its own *)
Lemma backed_more c c' t evs a b : c_ret c' = c_ret c -> backed c t evs -> backed c' t (a ++ evs ++ b).
Proof.
  intros E. unfold backed. assert (X : forall ev, In ev evs -> In ev (a ++ evs ++ b)) by (intros ev I; rewrite !in_app_iff; auto). rewrite E.
  intros [H | [(r & k & A & B & C) | [H | [(k & A & B) | (A & B)]]]]; [left; exact H|right; left; exists r, k; auto|right; right; left; auto|right; right; right; left; exists k; auto|right; right; right; right; auto].
Qed.
Lemma complete_ok e b ts : forall code c c', complete_each e b ts code c = (c', tx_ok) -> code = tx_ok /\ exists evs, c' = grow evs c /\ forall t, In t ts -> b = true -> t_state t = active -> backed c t evs.
Proof.
  induction ts as [|t ts IH]; intros code c c'; cbn [complete_each]; [intros [= <- ->]; split; [reflexivity|]; exists []; rewrite grow_nil; split; [reflexivity|intros t []]|].
  destruct (if b && (t_state t =? active) then commit_tx e t c else rollback_tx e t c) as [c1 k1] eqn:E. intros H. apply IH in H. destruct H as (AD & evs & -> & B). apply tx_add_ok in AD. destruct AD as (-> & ->). split; [reflexivity|].
  destruct (b && (t_state t =? active)) eqn:C.
  - pose proof (commit_tx_truth _ _ _ _ E) as (ev1 & S1 & B1). apply commit_tx_grow in E. destruct E as (ev2 & -> & _). assert (ev1 = ev2) by (unfold since in S1; cbn in S1; apply app_inv_head in S1; auto). subst ev2. rewrite grow_grow. exists (ev1 ++ evs). split; [reflexivity|].
    intros u [<- | I] BT ST; [exact (backed_more c c t ev1 [] evs eq_refl B1)|]. pose proof (backed_more (grow ev1 c) c u evs ev1 [] eq_refl (B u I BT ST)) as Z0. rewrite app_nil_r in Z0. exact Z0.
  - apply rollback_tx_grow in E. destruct E as (ev2 & -> & _). rewrite grow_grow. exists (ev2 ++ evs). split; [reflexivity|]. intros u [<- | I] BT ST.
    + rewrite BT in C. cbn [andb] in C. apply Z.eqb_neq in C. contradiction.
    + pose proof (backed_more (grow ev2 c) c u evs ev2 [] eq_refl (B u I BT ST)) as Z0. rewrite app_nil_r in Z0. exact Z0.
Qed.
Lemma success_means e q us fin fl s s' evs c r : serve e q us fin fl s = (s', evs) -> f_finalize fl = None -> In (V_reply c r) evs -> r_code r = 0 ->
  invoked evs /\ exists l, seen (routine_end e q us fl s) s' l /\ forall t, holds (routine_end e q us fl s) t -> t_pend t = [] /\ (x_own (t_id t) = me -> t_state t = active -> backed (p_tx (routine_end e q us fl s)) t l).
Proof.
  intros H FF I RC. destruct (serve_path _ _ _ _ _ _ _ _ H) as [_ _ G|c1 r0 _ _ _ G|c1 out _ EN OUT (h & X) G].
  1,2: exfalso; apply wrong_shape in G; destruct G as (m & k & ->); apply in_app_iff in I; destruct I as [[] | I]; apply in_app_iff in I; (destruct I as [I | I]; [|exact (ack_in _ _ _ _ _ I)]); apply once_in in I; subst r; cbn in RC; discriminate.
  set (s2 := routine_end e q us fl s) in *. cbv zeta in G. assert (NO : forall c r, ~ In (V_reply c r) out) by (subst out; apply out_no_reply). assert (IO : forall k, invoked (out ++ k)) by (intros k; subst out; eexists _, _; rewrite <- app_assoc; apply in_app_iff; right; left; reflexivity).
  assert (WR : forall s3, gone_wrong e q fl s3 out = (s', evs) -> False).
  { intros s3 G0. apply wrong_shape in G0. destruct G0 as (m & k & ->). apply in_app_iff in I. destruct I as [I | I]; [exact (NO _ _ I)|]. apply in_app_iff in I; (destruct I as [I | I]; [|exact (ack_in _ _ _ _ _ I)]); apply once_in in I; subst r; cbn in RC; discriminate. }
  destruct fin as [success user data|data l|].
  - assert (IV : invoked evs) by (apply right_shape in G; destruct G as (m & k & [-> | ->]); apply IO). split; [exact IV|]. destruct (right_state _ _ _ _ _ _ _ _ _ _ FF G I NO) as (-> & P).
    set (b := r_state (complement (q_conversation q) success user data first_reply) =? m_ok) in *. destruct (finalize e b (p_tx s2)) as [c9 m9] eqn:FI. cbn [fst snd] in P, RC.
    assert (M : m9 = m_ok /\ b = true). { unfold normalize, w_rstate in RC. cbn [r_code r_state] in RC. unfold complement in RC. cbn [r_code r_state] in RC. destruct success; [|cbn in RC; discriminate]. cbn [Z.eqb andb] in RC. destruct (m9 =? m_ok) eqn:Q; [|cbn in RC; discriminate]. apply Z.eqb_eq in Q. split; [exact Q|]. unfold b, complement. destruct (q_conversation q); reflexivity. }
    destruct M as (-> & B). apply finalize_ok in FI. destruct FI as (PE & _ & ev0 & c2 & CE & ev1 & ->). apply complete_ok in CE. destruct CE as (_ & ev2 & -> & BK). rewrite !grow_grow in P.
    exists (ev0 ++ ev2 ++ ev1). split; [unfold seen; rewrite P; cbn [c_log grow w_txs]; rewrite ?app_assoc; reflexivity|]. intros t (IT & NT). split; [exact (PE t IT NT)|]. intros OW ST.
    apply (backed_more (grow ev0 (w_txs [] (p_tx s2)))); [reflexivity|]. apply BK; [|exact B|exact ST]. apply filter_In. split; [exact IT|]. unfold own_one, owned. apply andb_true_iff. split; [apply negb_true_iff, is_null_false; exact NT|apply Z.eqb_eq; exact OW].
  - exfalso. destruct G as [G | [(s3 & E3 & G) | (_ & s3 & m & _ & _ & ->)]]; [exact (WR s2 G)|exact (WR s3 G)|]. apply in_app_iff in I. destruct I as [I | [I | I]]; [exact (NO _ _ I)|discriminate|exact (ack_in _ _ _ _ _ I)].
  - exfalso. exact (WR s2 G).
Qed.

(* ---------------------------------------------------------------- up to the caller *)
Lemma finalize_nonneg e b c : 0 <= snd (finalize e b c).
Proof.
  unfold finalize. destruct (pending_check (c_txs c) m_ok (w_txs [] c)) as [c1 r1] eqn:P. destruct (pending_check_ok _ _ _ _ P) as (P0 & _). destruct (complete_each _ _ _ _ _) as [c2 code]. destruct (filter _ (filter _ _)) as [|t l]; cbn [snd]; [lia|].
  cbv zeta. destruct (end_all _ _ _ _) as [c3 k]. cbn [snd]. destruct (state_of_code_nonneg (tx_add code k)). lia.
Qed.
Lemma reply_nonneg e q us fin fl s s' evs c r : serve e q us fin fl s = (s', evs) -> f_finalize fl = None -> In (V_reply c r) evs -> 0 <= r_state r.
Proof.
  intros H FF I. destruct (serve_path _ _ _ _ _ _ _ _ H) as [_ _ G|c1 r0 _ _ _ G|c1 out _ EN OUT (h & X) G].
  1,2: rewrite (wrong_state _ _ _ _ _ _ _ _ _ FF G I) by (intros ? ? []); apply finalize_nonneg.
  cbv zeta in G. set (s2 := routine_end e q us fl s) in *. assert (NO : forall c r, ~ In (V_reply c r) out) by (subst out; apply out_no_reply). destruct fin as [success user data|data l|].
  - destruct (right_state _ _ _ _ _ _ _ _ _ _ FF G I NO) as (-> & _). rewrite normalize_state. apply finalize_nonneg.
  - destruct G as [G | [(s3 & E3 & G) | (_ & s3 & m & _ & _ & ->)]]; [rewrite (wrong_state _ _ _ _ _ _ _ _ _ FF G I NO); apply finalize_nonneg|rewrite (wrong_state _ _ _ _ _ _ _ _ _ FF G I NO); apply finalize_nonneg|].
    exfalso. apply in_app_iff in I. destruct I as [I | [I | I]]; [exact (NO _ _ I)|discriminate|exact (ack_in _ _ _ _ _ I)].
  - rewrite (wrong_state _ _ _ _ _ _ _ _ _ FF G I NO); apply finalize_nonneg.
Qed.
Lemma up_to_the_caller e q us fin fl s s' evs k r e' dyn fix0 is p h x d : Forall user_input us -> ready (p_tx s) -> c_txs (p_tx s) = [] -> serve e q us fin fl s = (s', evs) ->
  takes_part q -> x_own (q_tid q) <> me -> q_known q = true -> q_conversation q = false -> f_finalize fl = None -> In (V_reply k r) evs -> (forall user data, fin <> E_return true user data) ->
  xrun e' is (CallModel.start dyn fix0) = (p, h) -> x <> 0 -> Forall (not_joined_in x) is -> causal (events h) -> single (events h) -> In (Request k d x) (events h) -> In (Took k r) (events h) -> CallSpec.in_tx p = x ->
  xstep e' (Tx Commit) p = (p, O_tx (RTx tx_protocol), []).
Proof.
  intros F R N H TP OW KN NC FF I NR XR NZ FJ C SI RQ TK IX. apply (bad_reply e' dyn fix0 is p h x k d r); auto. pose proof (reply_nonneg _ _ _ _ _ _ _ _ _ _ H FF I) as NN.
  assert (r_state r <> m_ok); [|unfold m_ok in *; lia]. intros ST. destruct (ok_means _ _ _ _ _ _ _ _ _ _ F R N H TP OW KN FF I ST) as (_ & (su & user & data & E & SU) & _). rewrite (SU NC) in E. exact (NR _ _ E).
Qed.
Lemma fresh e dyn fix0 js s evs0 : Forall user_job js -> srun e js (CallModel.start dyn fix0) = (s, evs0) -> 0 < c_next (p_tx s) /\ forall q us fin fl s' evs, Forall user_input us -> serve e q us fin fl s = (s', evs) ->
  c_next (p_tx s) <= c_next (p_tx s') /\ forall x b, In (V_invoked x b) evs -> own_around q -> x = c_next (p_tx s) /\ x < c_next (p_tx s').
Proof.
  intros F R. destruct (reach_ready _ _ _ _ _ _ F R) as (RD & N). split; [exact (proj2 RD)|]. intros q us fin fl s' evs FU H. destruct (serve_ready _ _ _ _ _ _ _ _ FU RD H) as (_ & LE). split; [exact LE|].
  intros x b I OA. destruct (invoked_in _ _ _ _ _ _ _ _ _ _ N H I) as (-> & _). assert (W : wanted (q_semantics q) (q_tid q) (c_next (p_tx s)) = c_next (p_tx s)).
  { destruct OA as [-> | (Z0 & [-> | ->])]; cbn; try reflexivity. apply Z.eqb_eq in Z0. rewrite Z0. reflexivity. }
  rewrite W. split; [reflexivity|].
  destruct (serve_path _ _ _ _ _ _ _ _ H) as [_ NI G|c1 r _ NI EN G|c1 out _ EN OUT (h & X) G]; [destruct NI; exists (wanted (q_semantics q) (q_tid q) (c_next (p_tx s))), b; exact I|destruct NI; exists (wanted (q_semantics q) (q_tid q) (c_next (p_tx s))), b; exact I|].
  assert (L1 : c_next (p_tx s) < c_next c1).
  { assert (ST : forall c r, CtxModel.start e (p_tx s) = (c, r) -> c_next (p_tx s) < c_next c). { intros c r. unfold CtxModel.start. destruct (start_these _ _ _ _ _) as [[c2 t1] code] eqn:J. apply start_these_grow in J. destruct J as ((ev1 & -> & _) & _). destruct (tx_eqb code tx_ok); intros [= <- _]; cbn; lia. }
    unfold enter in EN. destruct OA as [Q | (Z0 & [Q | Q])]; rewrite Q in EN; [exact (ST _ _ EN)| |]; assert (NN : is_null (q_tid q) = true) by (apply is_null_spec; exact Z0); rewrite NN in EN; exact (ST _ _ EN). }
  destruct (routine_ready _ _ _ _ _ _ _ FU RD EN h X) as (R2 & _). destruct (routine_next e us (w_tx c1 s) _ _ FU (proj1 (enter_ready _ _ _ _ _ _ _ EN RD)) X) as (N2 & _). unfold next_le in N2. cbn [p_tx w_tx] in N2. set (s2 := routine_end e q us fl s) in *.
  assert (W' : forall s0 out, p_tx s0 = p_tx s2 -> gone_wrong e q fl s0 out = (s', evs) -> c_next (p_tx s') = c_next (p_tx s2)). { intros s0 o E0 G0. apply wrong_consumes in G0. destruct G0 as (m & G0). rewrite (proj2 (finish_ready _ _ _ _ _ _ G0 ltac:(rewrite E0; exact R2))), E0. reflexivity. }
  assert (c_next (p_tx s') = c_next (p_tx s2)); [|lia]. cbv zeta in G. destruct fin as [success user data|data l|].
  - apply right_consumes in G. destruct G as (s1 & m & G & G'). destruct (finish_ready _ _ _ _ _ _ G R2) as (A & B). destruct G' as [-> | (_ & m' & G')]; [exact B|]. rewrite (proj2 (finish_ready _ _ _ _ _ _ G' A)). exact B.
  - destruct G as [G | [(s3 & E & G) | (_ & s3 & m & E & G & _)]]; [exact (W' _ _ eq_refl G)|exact (W' _ _ E G)|]. rewrite (proj2 (finish_ready _ _ _ _ _ _ G ltac:(rewrite E; exact R2))), E. reflexivity.
  - exact (W' _ _ eq_refl G).
Qed.
Lemma joined_stays e dyn fix0 js s evs0 : Forall user_job js -> srun e js (CallModel.start dyn fix0) = (s, evs0) -> forall q us fin fl s' evs, Forall user_input us -> serve e q us fin fl s = (s', evs) -> invoked evs ->
  takes_part q -> x_own (q_tid q) <> me -> exists t, holds (routine_end e q us fl s) t /\ x_id (t_id t) = wanted (q_semantics q) (q_tid q) (c_next (p_tx s)) /\ x_own (t_id t) = x_own (q_tid q).
Proof.
  intros F R q us fin fl s' evs FU H IN TP OW. destruct (reach_ready _ _ _ _ _ _ F R) as (RD & N). destruct (serve_path _ _ _ _ _ _ _ _ H) as [_ NI G|c1 r _ NI EN G|c1 out _ EN OUT (h & X) G]; [contradiction|contradiction|].
  destruct (foreign_single _ _ _ _ _ _ _ _ FU RD N EN X TP OW) as (t & E & ID). assert (IT : In t (filter theirs (c_txs (p_tx (routine_end e q us fl s))))) by (rewrite E; left; reflexivity). apply filter_In in IT. destruct IT as (IT & TT).
  unfold theirs in TT. apply andb_true_iff in TT. destruct TT as (TT & _). apply negb_true_iff in TT. exists t. split; [split; [exact IT|apply is_null_false; exact TT]|]. rewrite ID. split; [apply entered_wanted|].
  destruct TP as (TN & TS). assert (NN : is_null (q_tid q) = false) by (apply is_null_false; exact TN). unfold entered. destruct TS as [-> | [-> | ->]]; rewrite ?NN; reflexivity.
Qed.

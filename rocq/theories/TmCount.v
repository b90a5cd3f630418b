(* Requests and final replies are in balance (C17). *)
From Coq Require Import ZArith List Bool Lia Permutation.
From Verif Require Import CodesModel FanModel FanSpec FanProofs FanTrack TmModel TmSpec TmMicro TmFacts TmProv TmVotes TmFlow TmStable.
From Verif Require GroupModel GroupProofs.
Import ListNotations.
Local Open Scope Z_scope.

(* ------------------------------------------------------------ who is still waited for *)
Lemma waiting_track {M C} (st : progress M) (o : fop M C) p : In p (fst (track st o)) -> p_state p = Waiting ->
  In p (fst st) /\ (forall m, o <> Reply (p_corr p) m) /\ o <> Fail (p_id p).
Proof.
  destruct o as [ps cb|c m|id]; cbn [track]; intros I W.
  - split; auto. split; discriminate.
  - destruct (existsb _ _) eqn:X; cbn [fst] in I.
    + apply in_map_iff in I as (q&E&Q). destruct (Z.eqb_spec (p_corr q) c) as [EC|NC]; [subst p; discriminate|]. subst q. split; auto. split; [|discriminate].
      intros m' E. injection E as ->. tauto.
    + split; auto. split; [|discriminate]. intros m' E. injection E as -> _. assert (Y : existsb (fun q => (p_corr q =? p_corr p) && waiting q) (fst st) = true); [|congruence].
      apply existsb_exists. exists p. split; auto. rewrite Z.eqb_refl. unfold waiting. rewrite W. auto.
  - cbn [fst] in I. apply in_map_iff in I as (q&E&Q). destruct (Z.eqb_spec (p_id q) id) as [EC|NC]; [subst p; discriminate|]. subst q. split; auto. split; [discriminate|].
    intros E. injection E as ->. tauto.
Qed.

Lemma waiting_follow {M C} (os : list (fop M C)) : forall (st : progress M) p, In p (fst (follow st os)) -> p_state p = Waiting ->
  first_reply (p_corr p) os = None /\ ~ In (Fail (p_id p)) os.
Proof.
  induction os as [|o os IH]; intros st p I W; [simpl; auto|]. cbn [follow fold_left] in I. change (fold_left track os (track st o)) with (follow (track st o) os) in I.
  destruct (IH _ _ I W) as [A B]. 
  assert (X : exists q, In q (fst (track st o)) /\ p_corr q = p_corr p /\ p_id q = p_id p /\ p_state q = Waiting).
  { clear A B IH. revert I. generalize (track st o). induction os as [|o' os IH]; intros st' I; [exists p; auto|]. cbn [follow fold_left] in I.
    destruct (IH _ I) as (q&Q1&Q2&Q3&Q4). apply waiting_track in Q1 as [Q1 _]; auto. exists q. auto. }
  destruct X as (q&Q1&Q2&Q3&Q4). apply waiting_track in Q1 as (_&N1&N2); auto. rewrite Q2 in N1. rewrite Q3 in N2. split.
  - cbn [first_reply]. destruct o as [|c m|]; auto. destruct (Z.eqb_spec c (p_corr p)) as [->|]; auto. exfalso. apply (N1 m). reflexivity.
  - intros [E|E]; auto.
Qed.

Lemma in_ops_fail k id tr : In (Act (GaveUp k id)) tr -> In (Fail id) (ops k tr).
Proof.
  intros I. apply in_split in I as (a&b&->). rewrite ops_app. apply in_app_iff. right. cbn [ops flat_map]. apply in_app_iff. left. rewrite kind_eqb_refl. simpl. auto.
Qed.

Section Count.
Variable known : list Z.
Notation reach := (reach known).

Lemma settled_empty tr s D tk : reach tr (s, D, tk) -> settled tr -> forall k, f_entries (fan_of k s) = [].
Proof.
  intros R S k. destruct (f_entries (fan_of k s)) as [|e es] eqn:E; auto. exfalso.
  pose proof (reach_V _ _ _ R) as HV. pose proof (reach_P _ _ _ R) as HP. cbn [fst] in HV.
  assert (IN : In e (f_entries (fan_of k s))) by (rewrite E; left; auto).
  destruct (p_e _ _ _ HP k e IN) as (pre&fl&ts&c&post&ET&RD&ST). pose proof (fi_open _ (v_fan _ HV k) e IN) as OP.
  unfold done in OP. apply negb_false_iff in OP. apply existsb_exists in OP as (p&P&W). unfold waiting in W. destruct (p_state p) eqn:PS; try discriminate. clear W.
  assert (P' : In p (fst (follow (begin (reqs c ts)) (ops k post)))) by (rewrite <- ST; auto).
  destruct (waiting_follow _ _ _ P' PS) as [A B].
  assert (ID : In (p_corr p, p_id p) (reqs c ts)).
  { assert (X : In (p_corr p, p_id p) (map (fun p => (p_corr p, p_id p)) (fst (follow (begin (M:=vote) (reqs c ts)) (ops k post))))) by (apply in_map_iff; exists p; auto).
    rewrite follow_ids, begin_ids in X. auto. }
  apply reqs_in in ID as (n&t&N&EC). destruct (nth_split_asked k fl c ts n t _ N) as (x&y&EA).
  assert (ET2 : tr = (pre ++ map Act x) ++ Act (Ask k (c + Z.of_nat n) t (p_id p) fl) :: map Act y ++ post) by (rewrite ET, EA, <- !app_assoc; auto).
  destruct (S _ _ _ _ _ _ _ ET2) as [Q|Q].
  - apply Q. rewrite reply_skip by apply acts_only. rewrite ops_first, <- EC, A. auto.
  - apply in_app_iff in Q as [Q|Q].
    + apply in_map_iff in Q as (z&EZ&Q). subst. injection EZ as ->.
      assert (X : In (GaveUp k (p_id p)) (asked k fl c ts)).
      { assert (Y : In (Act (GaveUp k (p_id p))) (map Act (asked k fl c ts))) by (rewrite EA; apply in_app_iff; right; right; apply in_map; auto).
        apply in_map_iff in Y as (z&EZ&Y). injection EZ as ->. auto. }
      apply In_nth_error in X as (m&X). rewrite asked_nth in X. destruct (nth_error ts m) as [[? ?]|]; discriminate.
    + apply B. apply in_ops_fail. auto.
Qed.

(* ------------------------------------------------------------ the balance *)
Definition of_corr (k : kind) (c : Z) (cb : call) : bool :=
  (d_corr (c_dest cb) =? c) && match k with KRollback => negb (same_proc (d_proc (c_dest cb)) self) | _ => true end.
Lemma of_corr_p c cb : of_corr KPrepare c cb = (d_corr (c_dest cb) =? c). Proof. apply andb_true_r. Qed.
Lemma of_corr_c c cb : of_corr KCommit c cb = (d_corr (c_dest cb) =? c). Proof. apply andb_true_r. Qed.
Lemma of_corr_r c cb : of_corr KRollback c cb = (d_corr (c_dest cb) =? c) && negb (same_proc (d_proc (c_dest cb)) self). Proof. reflexivity. Qed.
Definition owed (c : Z) (s : tm) : nat := count (fun a => (a_corr a =? c) && is_final a) (s_replies s).
Definition tok (c : Z) (tk : token) : nat :=
  match tk with Idle => 0%nat | Req i => one (asks_for c (Recv i)) | Decided d => one (d_corr (c_dest (d_call d)) =? c) end.
Definition under_way (c : Z) (cf : cfg) : nat :=
  let '(s, D, tk) := cf in
  (cnt (of_corr KPrepare c) KPrepare s D + cnt (of_corr KCommit c) KCommit s D + cnt (of_corr KRollback c) KRollback s D + owed c s + tok c tk)%nat.

Lemma way_eq c s s' D tk tk' : (forall k, fan_of k s' = fan_of k s) -> s_replies s' = s_replies s -> tok c tk' = tok c tk ->
  under_way c (s', D, tk') = under_way c (s, D, tk).
Proof. intros F R T. unfold under_way, owed. rewrite R, T, !(cnt_same _ _ s s') by auto. auto. Qed.

Definition finals (c : Z) (tr : list event) := count (final_for c) tr.
Definition requests (c : Z) (tr : list event) := count (asks_for c) tr.

Lemma finals_none c e : (forall a, ~ In (Act (Answer a)) e) -> finals c e = 0%nat.
Proof.
  intros H. unfold finals, count. induction e as [|x e IH]; auto. simpl. destruct x as [i|a]; simpl; [apply IH; intros a I; apply (H a); simpl; auto|].
  destruct a; simpl; try (apply IH; intros b I; apply (H b); simpl; auto; fail). exfalso. apply (H a). simpl. auto.
Qed.
Lemma requests_acts c l : requests c (map Act l) = 0%nat.
Proof. unfold requests, count. induction l; simpl; auto. Qed.
Lemma finals_replies c l : finals c (map (fun a => Act (Answer a)) l) = count (fun a => (a_corr a =? c) && is_final a) l.
Proof. unfold finals, count. induction l as [|a l IH]; simpl; auto. destruct (_ && _); simpl; auto. Qed.

Lemma reply_corr cb st code c : (a_corr (create_reply cb st code) =? c) && is_final (create_reply cb st code) =
  (d_corr (c_dest cb) =? c) && match c_reply cb, st with UserCommit, Prepare => false | _, _ => true end.
Proof. unfold create_reply, is_final. cbn [a_corr a_kind a_stage]. destruct (c_reply cb), st; auto. Qed.

(* the next vote is not lost, and its result will be told to somebody *)
Definition heard (tr : list event) (cf : cfg) : Prop :=
  (forall d r, td_p (snd (fst cf)) = d :: r -> find_tx (origin_g d) (fst (fst cf)) <> None /\ same_proc (d_proc (c_dest (d_call d))) self = false) /\
  (forall i p, snd cf = Req i -> requester i = Some p -> p <> self).

Lemma answers_one_remove c a h s s' a' : remove_tx h s = (s', a') -> finals c (Act (Answer a) :: map Act a') = one ((a_corr a =? c) && is_final a).
Proof.
  intros R. unfold finals. rewrite count_cons. cbn [final_for]. fold (finals c (map Act a')).
  rewrite finals_none; [lia|]. intros x. eapply no_answers_remove; eauto.
Qed.
Lemma requests_one_remove c a l : requests c (Act (Answer a) :: map Act l) = 0%nat.
Proof. unfold requests. rewrite count_cons. cbn [asks_for one]. apply (requests_acts c l). Qed.

Lemma kind_of_starting tr x k fl st cb tk : starting tr x k fl st cb tk ->
  match tk with
  | Req i => exists q, request_of i = Some q /\ snd (fst q) = d_corr (c_dest cb) /\ requester i = Some (d_proc (c_dest cb))
  | _ => k = KRollback /\ same_proc (d_proc (c_dest cb)) self = true
  end.
Proof.
  intros [_ S]. destruct tk as [|i|d]; [|destruct i; try tauto|tauto].
  - destruct S as (t&pid&->&->&_). auto.
  - destruct S as (->&_). eexists. split; [reflexivity|]. auto.
  - destruct S as (->&_). eexists. split; [reflexivity|]. auto.
  - destruct S as (->&_). eexists. split; [reflexivity|]. auto.
  - destruct S as (->&_). eexists. split; [reflexivity|]. auto.
  - destruct S as (->&_). eexists. split; [reflexivity|]. auto.
Qed.

Lemma balance_micro tr cf e cf' c : micro known tr cf e cf' -> V (fst (fst cf)) ->
  exists lost, (finals c e + under_way c cf' + lost = under_way c cf + requests c e)%nat /\ (heard tr cf -> lost = 0%nat).
Proof.
  intros U HV.
  assert (SAME : forall e', (forall a, ~ In (Act (Answer a)) e') -> requests c e' = 0%nat -> forall s s' D tk tk' (HH : Prop), (forall k, fan_of k s' = fan_of k s) -> s_replies s' = s_replies s -> tok c tk' = tok c tk ->
    exists lost, (finals c e' + under_way c (s', D, tk') + lost = under_way c (s, D, tk) + requests c e')%nat /\ (HH -> lost = 0%nat)).
  { intros e' N RQ s s' D tk tk' HH F R T. exists 0%nat. split; auto. rewrite (way_eq c s s' D tk tk'), finals_none, RQ by auto. lia. }
  assert (TOK : forall i, tok c (tok_of i) = one (asks_for c (Recv i))).
  { intros i. unfold tok_of. destruct (request_of i) eqn:Q; cbn [tok]; auto. unfold asks_for. rewrite Q. auto. }
  assert (RQ1 : forall i, requests c [Recv i] = one (asks_for c (Recv i))) by (intros i; unfold requests; rewrite count_cons, count_nil; lia).
  destruct U; cbn [fst snd] in *.
  - exists 0%nat. split; auto. rewrite finals_none by (intros a [E|[]]; discriminate). rewrite RQ1. unfold under_way. rewrite TOK. cbn [tok]. lia.
  - exists 0%nat. split; auto. rewrite finals_none by (intros a [E|[]]; discriminate). rewrite RQ1. 
    rewrite (way_eq c s _ D0 (tok_of i) (tok_of i)); [|apply fan_touch|unfold touch; destruct (find_tx _ _); auto|auto]. unfold under_way. rewrite TOK. cbn [tok]. lia.
  - apply (SAME []); [intros a []|auto|apply fan_touch|unfold touch; destruct (find_tx _ _); auto|auto].
  - apply (SAME []); auto.
  - apply (SAME []); auto.
  - apply (SAME [Act a]); auto. intros b [E|[]]. injection E as ->. discriminate.
  - exists 0%nat. split; auto. unfold finals, requests. rewrite !count_cons, !count_nil. cbn [final_for asks_for one]. unfold under_way. cbn [tok].
    assert (X : (a_corr a =? c) && is_final a = asks_for c (Recv i)) by (unfold asks_for; destruct i; simpl in H; try tauto; subst a; unfold is_final; cbn; apply andb_true_r). rewrite X. lia.
  - exists 0%nat. split; auto. rewrite (answers_one_remove c a _ _ _ _ H3), requests_one_remove.
    apply remove_spec in H3 as (_&_&R3&_&R5&_); [|apply (v_nd _ HV)]. rewrite (way_eq c s s' D Idle Idle) by auto. unfold under_way. cbn [tok].
    assert (X : (a_corr a =? c) && is_final a = asks_for c (Recv i)) by (unfold asks_for; destruct i; simpl in H; try tauto; destruct H as [_ ->]; unfold is_final; cbn; apply andb_true_r). rewrite X. lia.
  - pose proof (fun p k' => cnt_start p k' k fl _ cb _ s3 ps a f ds D (V_upd (set_stage st x) _ HV) H1 H2) as CS.
    assert (OW : owed c (w_fan k f s3) = owed c s) by (destruct (ask_frame _ _ _ _ _ _ _ H1) as (n&->&_); unfold owed; destruct k; auto).
    assert (NF : finals c (map Act a) = 0%nat).
    { apply finals_none. intros z. rewrite ask_spec in H1. injection H1 as _ _ <-. apply no_answers_asked. }
    rewrite NF, requests_acts. unfold under_way. rewrite !CS, !cnt_upd, OW. cbn [tok]. pose proof (kind_of_starting _ _ _ _ _ _ _ H) as KS. destruct tk as [|i|d0].
    + destruct KS as [-> SP]. exists 0%nat. split; auto. cbn [kind_eqb tok]. rewrite of_corr_r, SP, andb_false_r. cbn [one]. lia.
    + destruct KS as (q&Q1&Q2&Q3). assert (X : asks_for c (Recv i) = (d_corr (c_dest cb) =? c)) by (unfold asks_for; rewrite Q1; destruct q as [[? ?] ?]; cbn in Q2; subst; auto).
      cbn [tok]. rewrite X. destruct k; cbn [kind_eqb]; rewrite ?of_corr_p, ?of_corr_c, ?of_corr_r; [exists 0%nat; split; [lia|auto]|exists 0%nat; split; [lia|auto]|].
      destruct (d_corr (c_dest cb) =? c) eqn:EC; cbn [andb one]; [|exists 0%nat; split; [lia|auto]].
      destruct (same_proc (d_proc (c_dest cb)) self) eqn:SP; cbn [negb one]; [exists 1%nat|exists 0%nat]; (split; [lia|auto]).
      intros [_ HR]. exfalso. apply (HR i _ eq_refl Q3). unfold same_proc in SP. apply andb_true_iff in SP as [A B]. apply Z.eqb_eq in A, B. destruct (d_proc (c_dest cb)). cbn in A, B. subst. reflexivity.
    + exfalso. destruct H as [_ []].
  - exists 0%nat. split; auto. rewrite finals_none by (intros a [E|[]]; destruct H; discriminate). unfold under_way. rewrite !(cnt_track _ _ k o ev s f ds HV H H0).
    assert (OW : owed c (w_fan k f s) = owed c s) by (unfold owed; destruct k; auto). rewrite OW. unfold requests. rewrite count_cons, count_nil. destruct H; cbn [asks_for request_of one]; lia.
  - exists 0%nat. split; auto. rewrite (answers_one_remove c _ _ _ _ _ H0), requests_one_remove, reply_corr.
    apply remove_spec in H0 as (_&_&R3&_&R5&_); [|apply (v_nd _ HV)]. rewrite (way_eq c s s' _ Idle Idle) by auto. unfold under_way.
    pose proof (fun p k' => cnt_pop p k' KCommit s D d r H) as CP. pose proof (CP (of_corr KPrepare c) KPrepare) as C1. pose proof (CP (of_corr KCommit c) KCommit) as C2. pose proof (CP (of_corr KRollback c) KRollback) as C3.
    cbn [kind_eqb] in *. rewrite of_corr_c in C2. replace (match c_reply (d_call d) with UserCommit => true | _ => true end) with true by (destruct (c_reply (d_call d)); auto).
    rewrite andb_true_r. lia.
  - exists 0%nat. split; auto. rewrite (answers_one_remove c _ _ _ _ _ H1), requests_one_remove, reply_corr.
    apply remove_spec in H1 as (_&_&R3&_&R5&_); [|apply (v_nd _ HV)]. rewrite (way_eq c s s' _ Idle Idle) by auto. unfold under_way.
    pose proof (fun p k' => cnt_pop p k' KRollback s D d r H) as CP. pose proof (CP (of_corr KPrepare c) KPrepare) as C1. pose proof (CP (of_corr KCommit c) KCommit) as C2. pose proof (CP (of_corr KRollback c) KRollback) as C3.
    cbn [kind_eqb] in *. rewrite of_corr_r, H0 in C3. cbn [negb] in C3. rewrite andb_true_r in C3.
    replace (match c_reply (d_call d) with UserCommit => true | _ => true end) with true by (destruct (c_reply (d_call d)); auto). rewrite andb_true_r. lia.
  - exists 0%nat. split; auto. rewrite finals_none by (intros z; eapply no_answers_remove; eauto). rewrite requests_acts.
    apply remove_spec in H1 as (_&_&R3&_&R5&_); [|apply (v_nd _ HV)]. rewrite (way_eq c s s' _ Idle Idle) by auto. unfold under_way.
    pose proof (fun p k' => cnt_pop p k' KRollback s D d r H) as CP. pose proof (CP (of_corr KPrepare c) KPrepare) as C1. pose proof (CP (of_corr KCommit c) KCommit) as C2. pose proof (CP (of_corr KRollback c) KRollback) as C3.
    cbn [kind_eqb] in *. rewrite of_corr_r, H0 in C3. cbn [negb] in C3. rewrite andb_false_r in C3. cbn [one] in C3. lia.
  - exists 0%nat. split; auto. rewrite finals_none by (intros z []). unfold under_way, requests. rewrite count_nil.
    pose proof (fun p k' => cnt_pop p k' KRollback s D d r H) as CP. pose proof (CP (of_corr KPrepare c) KPrepare) as C1. pose proof (CP (of_corr KCommit c) KCommit) as C2. pose proof (CP (of_corr KRollback c) KRollback) as C3.
    cbn [kind_eqb] in *. rewrite of_corr_r, H0 in C3. cbn [negb] in C3. rewrite andb_false_r in C3. cbn [one] in C3. lia.
  - exists (one (of_corr KPrepare c (d_call d))). rewrite finals_none by (intros z []). unfold under_way, requests. rewrite count_nil.
    pose proof (fun p k' => cnt_pop p k' KPrepare s D d r H) as CP. pose proof (CP (of_corr KPrepare c) KPrepare) as C1. pose proof (CP (of_corr KCommit c) KCommit) as C2. pose proof (CP (of_corr KRollback c) KRollback) as C3.
    cbn [kind_eqb] in *. split; [lia|]. intros [HH _]. destruct (HH d r H) as [X _]. cbn [fst snd] in X. congruence.
  - exists 0%nat. split; auto. rewrite (answers_one_remove c _ _ _ _ _ H2), requests_one_remove, reply_corr.
    apply remove_spec in H2 as (_&_&R3&_&R5&_); [|apply (v_nd _ (V_upd _ _ HV))]. rewrite (way_eq c s s' _ Idle Idle) by auto. unfold under_way.
    pose proof (fun p k' => cnt_pop p k' KPrepare s D d r H) as CP. pose proof (CP (of_corr KPrepare c) KPrepare) as C1. pose proof (CP (of_corr KCommit c) KCommit) as C2. pose proof (CP (of_corr KRollback c) KRollback) as C3.
    cbn [kind_eqb] in *. rewrite of_corr_p in C1. replace (match c_reply (d_call d) with UserCommit => true | _ => true end) with true by (destruct (c_reply (d_call d)); auto).
    rewrite andb_true_r. lia.
  - exists 0%nat. split; auto. rewrite finals_none by (intros a [E|[]]; discriminate). unfold under_way, requests. rewrite count_cons, count_nil. cbn [asks_for one].
    rewrite !(cnt_same _ _ s (w_replies _ _)) by reflexivity. unfold owed. cbn [w_replies w_log upd_tx w_txs s_replies]. rewrite count_app, count_cons, count_nil, reply_corr, H2.
    pose proof (fun p k' => cnt_pop p k' KPrepare s D d r H) as CP. pose proof (CP (of_corr KPrepare c) KPrepare) as C1. pose proof (CP (of_corr KCommit c) KCommit) as C2. pose proof (CP (of_corr KRollback c) KRollback) as C3.
    cbn [kind_eqb] in *. rewrite of_corr_p in C1. rewrite ?andb_true_r. cbn [tok]. lia.
  - exists 0%nat. split; auto. rewrite finals_none by (intros a [E|[]]; discriminate). unfold under_way, requests. rewrite count_cons, count_nil. cbn [asks_for one].
    set (s1 := match c_reply (d_call d) with UserCommit => _ | _ => _ end). assert (EF : forall k, fan_of k s1 = fan_of k s) by (subst s1; destruct (c_reply (d_call d)), k; auto).
    assert (OW : owed c s1 = owed c s).
    { subst s1. destruct (c_reply (d_call d)) eqn:CR; auto. unfold owed. cbn [w_replies w_log upd_tx w_txs s_replies]. rewrite count_app, count_cons, count_nil, reply_corr, CR, andb_false_r. cbn [one]. lia. }
    rewrite OW, !(cnt_same _ _ s s1) by auto.
    pose proof (fun p k' => cnt_pop p k' KPrepare s D d r H) as CP. pose proof (CP (of_corr KPrepare c) KPrepare) as C1. pose proof (CP (of_corr KCommit c) KCommit) as C2. pose proof (CP (of_corr KRollback c) KRollback) as C3.
    cbn [kind_eqb] in *. rewrite of_corr_p in C1. rewrite ?andb_true_r. cbn [tok]. lia.
  - exists 0%nat. split; auto. unfold finals, requests. rewrite !count_cons. cbn [final_for asks_for one]. fold (finals c (map (fun a => Act (Answer a)) (s_replies s))). rewrite finals_replies.
    rewrite <- (map_map Answer Act). fold (requests c (map Act (map Answer (s_replies s)))). rewrite requests_acts. unfold under_way.
    rewrite !(cnt_same _ _ s (w_replies _ _)) by reflexivity. unfold owed. cbn [w_replies s_replies]. rewrite count_nil. lia.
  - exists 0%nat. split; auto. assert (NF : finals c (map Act a) = 0%nat).
    { apply finals_none. intros z. rewrite ask_spec in H2. injection H2 as _ _ <-. apply no_answers_asked. }
    pose proof (fun p k' => cnt_start p k' KCommit false _ _ _ s3 ps a f ds D (V_upd (set_stage Commit x) _ HV) H2 H3) as CS. cbn [fan_of w_fan d_of] in CS.
    assert (OW : owed c (w_c f s3) = owed c s) by (destruct (ask_frame _ _ _ _ _ _ _ H2) as (n&->&_); auto).
    rewrite NF, requests_acts. unfold under_way. rewrite !CS, !cnt_upd, OW. cbn [kind_eqb tok]. rewrite of_corr_c. cbn [c_dest]. lia.
  - exists 0%nat. split; auto. unfold finals, requests. rewrite !count_cons, !count_nil. cbn [final_for asks_for one]. rewrite reply_corr, H3, andb_true_r. unfold under_way. rewrite !cnt_upd.
    change (owed c (upd_tx (voted d x) s)) with (owed c s).
    pose proof (fun p k' => cnt_pop p k' KPrepare s D d r H) as CP. pose proof (CP (of_corr KPrepare c) KPrepare) as C1. pose proof (CP (of_corr KCommit c) KCommit) as C2. pose proof (CP (of_corr KRollback c) KRollback) as C3.
    cbn [kind_eqb] in *. rewrite of_corr_p in C1. rewrite ?andb_true_r. lia.
  - assert (NF : finals c (map Act a) = 0%nat).
    { apply finals_none. intros z. rewrite ask_spec in H4. injection H4 as _ _ <-. apply no_answers_asked. }
    pose proof (fun p k' => cnt_start p k' KRollback false _ _ _ s3 ps a f ds (w_d KPrepare r D) (V_upd (set_stage Rollback (voted d x)) _ (V_upd (voted d x) _ HV)) H4 H5) as CS. cbn [fan_of w_fan d_of w_d td_p td_c td_r] in CS.
    assert (OW : owed c (w_r f s3) = owed c s) by (destruct (ask_frame _ _ _ _ _ _ _ H4) as (n&->&_); auto).
    rewrite NF, requests_acts. unfold under_way. rewrite !CS, !cnt_upd, OW. cbn [kind_eqb tok]. change (mk_todo r (td_c D) (td_r D)) with (w_d KPrepare r D).
    pose proof (fun p k' => cnt_pop p k' KPrepare s D d r H) as CP. pose proof (CP (of_corr KPrepare c) KPrepare) as C1. pose proof (CP (of_corr KCommit c) KCommit) as C2. pose proof (CP (of_corr KRollback c) KRollback) as C3.
    cbn [kind_eqb] in *. rewrite of_corr_p in C1. rewrite ?andb_true_r. rewrite of_corr_r. cbn [c_dest].
    destruct (same_proc (d_proc (c_dest (d_call d))) self) eqn:SP; cbn [negb].
    + rewrite andb_false_r. exists (one (d_corr (c_dest (d_call d)) =? c)). cbn [one]. split; [lia|]. intros [HH _]. destruct (HH d r H) as [_ X]. congruence.
    + rewrite andb_true_r. exists 0%nat. split; [lia|auto].
Qed.

Lemma finals_app c a b : finals c (a ++ b) = (finals c a + finals c b)%nat. Proof. apply count_app. Qed.
Lemma requests_app c a b : requests c (a ++ b) = (requests c a + requests c b)%nat. Proof. apply count_app. Qed.

Theorem reach_balance tr cf c : reach tr cf -> (finals c tr + under_way c cf <= requests c tr)%nat.
Proof.
  induction 1 as [|tr cf e cf' R IH U|tr s D tk l n R IH].
  - cbn. auto.
  - destruct (balance_micro _ _ _ _ c U (reach_V _ _ _ R)) as (lost&E&_). rewrite finals_app, requests_app. lia.
  - exact IH.
Qed.

Theorem reach_balance_exact tr cf c : reach tr cf -> (forall g, undisturbed g tr) -> (finals c tr + under_way c cf = requests c tr)%nat.
Proof.
  induction 1 as [|tr cf e cf' R IH U|tr s D tk l n R IH]; intros UN.
  - cbn. auto.
  - assert (UP : forall g, undisturbed g tr) by (intros g; eapply undisturbed_prefix; apply UN). specialize (IH UP).
    destruct (balance_micro _ _ _ _ c U (reach_V _ _ _ R)) as (lost&E&L). rewrite finals_app, requests_app.
    assert (HH : heard tr cf).
    { destruct cf as [[s D] tk]. split; cbn [fst snd].
      - intros d r E0. assert (PV : prov_d known tr KPrepare d) by (apply (p_d _ _ _ (reach_P _ _ _ R) KPrepare); cbn [fst snd d_of]; rewrite E0; left; auto).
        split; [|eapply prov_dest; eauto].
        pose proof (reach_J known (origin_g d) _ _ R (UP _)) as HJ. unfold J in HJ. cbn [fst snd] in HJ.
        assert (C : (1 <= cnt (of_g (origin_g d)) KPrepare s D)%nat).
        { unfold cnt. cbn [d_of]. rewrite E0. cbn [map]. rewrite count_cons. unfold of_g at 2. fold (origin_g d). rewrite Z.eqb_refl. cbn [one]. lia. }
        intros F. rewrite F in HJ. unfold Jst in HJ. cbn [option_map] in HJ. lia.
      - intros i p E1 E2. destruct (reach_token _ _ _ R i E1) as (pre&ET). destruct (UP 0) as (_&_&X). apply (X i); auto. rewrite ET. apply in_app_iff. simpl. auto. }
    specialize (L HH). lia.
  - exact (IH UN).
Qed.

End Count.

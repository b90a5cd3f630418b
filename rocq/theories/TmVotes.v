(* Votes: what the accumulated codes say, and what follows for commit requests and answers (C13, C21). *)
From Coq Require Import ZArith List Bool Lia Permutation.
From Verif Require Import CodesModel FanModel FanSpec FanProofs FanTrack TmModel TmSpec TmMicro TmFacts TmProv.
From Verif Require GroupModel GroupProofs.
Import ListNotations.
Local Open Scope Z_scope.

(* ------------------------------------------------------------ codes *)
Lemma severity_le c : (severity c <= 23)%nat. Proof. destruct c; simpl; lia. Qed.
Lemma severity_of n : (n <= 23)%nat -> severity (of_severity n) = n.
Proof. intros H. do 24 (destruct n as [|n]; [reflexivity|]). lia. Qed.
Lemma severity_severest a b : severity (severest a b) = Nat.min (severity a) (severity b).
Proof. unfold severest. apply severity_of. pose proof (severity_le a). lia. Qed.
Lemma severity_ge c n : (21 <= n)%nat -> (n <= severity c)%nat -> c = invalid_xid /\ n = 21%nat \/ c = xa_ok /\ (n <= 22)%nat \/ c = read_only.
Proof. destruct c; simpl; intros; try lia; auto; left; split; auto; lia. Qed.

Lemma severity_fold vs : forall c, (severity (fold_code vs c) <= severity c)%nat /\ (forall v, In v vs -> (severity (fold_code vs c) <= severity (v_code v))%nat).
Proof.
  unfold fold_code. induction vs as [|v vs IH]; intros c; simpl; [split; [lia|tauto]|].
  destruct (IH (severest c (v_code v))) as [A B]. rewrite severity_severest in A. split; [lia|]. intros w [<-|I]; [lia|]. auto.
Qed.
Lemma severity_fold_in vs : forall c, severity (fold_code vs c) = severity c \/ exists v, In v vs /\ severity (fold_code vs c) = severity (v_code v).
Proof.
  unfold fold_code. induction vs as [|v vs IH]; intros c; simpl; auto. destruct (IH (severest c (v_code v))) as [A|(w&I&A)]; [|right; exists w; auto].
  rewrite severity_severest in A. destruct (Nat.min_spec (severity c) (severity (v_code v))) as [[_ E]|[_ E]]; rewrite E in A; [auto|right; exists v; auto].
Qed.

Lemma vote_codes vs out : accumulate KPrepare vs out read_only = xa_ok ->
  (forall p, In p out -> p_state p <> Failed) /\ (forall v, In v vs -> v_code v = xa_ok \/ v_code v = read_only) /\ (exists v, In v vs /\ v_code v = xa_ok).
Proof.
  unfold accumulate. destruct (existsb is_failed out) eqn:F.
  - destruct (Nat.eqb (length out) 1); simpl; [discriminate|]. intros H. exfalso.
    pose proof (severity_fold vs (severest read_only resource_fail)) as [A _]. rewrite H in A. simpl in A. lia.
  - rewrite andb_false_r. intros H. split; [|split].
    + intros p P E. assert (X : existsb is_failed out = true); [|congruence]. apply existsb_exists. exists p. unfold is_failed. rewrite E. auto.
    + intros v V. pose proof (severity_fold vs read_only) as [_ B]. specialize (B v V). rewrite H in B. change (severity xa_ok) with 22%nat in B.
      pose proof (severity_ge (v_code v) 22 ltac:(lia) B) as B2. clear B. destruct B2 as [[_ B]|[[B _]|B]]; auto; discriminate.
    + destruct (severity_fold_in vs read_only) as [A|(v&V&A)]; rewrite H in A; [discriminate|]. exists v. split; auto.
      symmetry in A. change (severity xa_ok) with 22%nat in A. destruct (v_code v); try discriminate; auto.
Qed.

Lemma vote_readonly_codes vs out : accumulate KPrepare vs out read_only = read_only ->
  (forall p, In p out -> p_state p <> Failed) /\ (forall v, In v vs -> v_code v = read_only).
Proof.
  unfold accumulate. destruct (existsb is_failed out) eqn:F.
  - destruct (Nat.eqb (length out) 1); simpl; [discriminate|]. intros H. exfalso.
    pose proof (severity_fold vs (severest read_only resource_fail)) as [A _]. rewrite H in A. simpl in A. lia.
  - rewrite andb_false_r. intros H. split.
    + intros p P E. assert (X : existsb is_failed out = true); [|congruence]. apply existsb_exists. exists p. unfold is_failed. rewrite E. auto.
    + intros v V. pose proof (severity_fold vs read_only) as [_ B]. specialize (B v V). rewrite H in B. change (severity read_only) with 23%nat in B.
      pose proof (severity_ge (v_code v) 23 ltac:(lia) B) as B2. clear B. destruct B2 as [[_ B]|[[_ B]|B]]; auto; [discriminate|lia].
Qed.

Lemma commit_codes vs out c : to_tx (normal (accumulate KCommit vs out c)) = tx_ok ->
  (forall p, In p out -> p_state p <> Failed) /\ (forall v, In v vs -> commit_done (v_code v)).
Proof.
  intros H. assert (S : (21 <= severity (accumulate KCommit vs out c))%nat).
  { destruct (accumulate KCommit vs out c); simpl in H; try discriminate; simpl; lia. }
  clear H. unfold accumulate in S. destruct (existsb is_failed out) eqn:F.
  - destruct (Nat.eqb (length out) 1); cbn [andb] in S.
    + rewrite severity_severest in S. pose proof (Nat.le_min_l (severity resource_fail) (severity c)) as M. set (m := Nat.min _ _) in *. assert (severity resource_fail < 21)%nat by (simpl; lia). lia.
    + pose proof (severity_fold vs (severest heuristic_commit c)) as [A _]. rewrite severity_severest in A.
      pose proof (Nat.le_min_l (severity heuristic_commit) (severity c)) as M. set (m := Nat.min _ _) in *. assert (severity heuristic_commit < 21)%nat by (simpl; lia). lia.
  - rewrite andb_false_r in S. split.
    + intros p P E. assert (X : existsb is_failed out = true); [|congruence]. apply existsb_exists. exists p. unfold is_failed. rewrite E. auto.
    + intros v V. pose proof (severity_fold vs c) as [_ B]. specialize (B v V). unfold commit_done.
      assert (S2 : (21 <= severity (v_code v))%nat) by lia. apply (severity_ge _ 21) in S2; [|lia]. tauto.
Qed.

(* ------------------------------------------------------------ a round that is over, with nobody given up *)
Lemma first_in os c (m : vote) : @first_reply vote call c os = Some m -> In (Reply c m) os.
Proof.
  induction os as [|o os IH]; simpl; [discriminate|]. destruct o; auto. destruct (Z.eqb_spec c0 c) as [->|]; auto. intros H. injection H as ->. auto.
Qed.

Lemma ended_all k ts c post d : ended k ts c post d -> (forall p, In p (d_out d) -> p_state p <> Failed) ->
  forall n t r, nth_error ts n = Some (t, r) -> exists v, In v (votes d) /\ reply_of k (c + Z.of_nat n) post = Some (v_code v) /\ In (Recv (IReply k (c + Z.of_nat n) v)) post.
Proof.
  intros (E&DN&_) NF n t r N. assert (I : In (c + Z.of_nat n, r) (reqs c ts)) by (apply reqs_in; eauto).
  destruct (follow_received (reqs c ts) (ops k post) _ _ (reqs_nodup ts c) I) as (p&P1&P2&P3&P4). rewrite <- E in *. cbn [fst snd] in *.
  assert (R : p_state p = Received).
  { destruct (p_state p) eqn:S; auto; [|exfalso; eapply NF; eauto]. exfalso. rewrite done_true in DN. eapply DN; eauto. }
  destruct (P4 R) as (m&M1&M2). exists m. split; [unfold votes; apply in_map_iff; exists (c + Z.of_nat n, m); auto|].
  split; [rewrite ops_first, M2; auto|]. apply in_ops_reply. apply first_in. auto.
Qed.

(* the votes of a round are replies to its requests *)
Lemma ended_votes k ts c post d v : ended k ts c post d -> In v (votes d) ->
  exists n t r, nth_error ts n = Some (t, r) /\ reply_of k (c + Z.of_nat n) post = Some (v_code v) /\ In (Recv (IReply k (c + Z.of_nat n) v)) post.
Proof.
  intros (E&_&_) I. unfold votes in I. apply in_map_iff in I as ([c' v']&EV&I). simpl in EV. subst v'.
  assert (I' : In (c', v) (snd (follow (begin (reqs c ts)) (ops k post)))) by (rewrite <- E; auto).
  apply follow_messages in I' as (A&B&C); [|apply reqs_nodup]. apply in_map_iff in A as ([c2 r]&EC&A). simpl in EC. subst c2. apply reqs_in in A as (n&t&N&->).
  exists n, t, r. split; auto. split; [rewrite ops_first, C; auto|]. apply in_ops_reply. auto.
Qed.

Lemma reply_skip k c l tr : (forall a, In a l -> match a with Act _ => True | Recv _ => False end) -> reply_of k c (l ++ tr) = reply_of k c tr.
Proof. induction l as [|[i|a] l IH]; intros H; simpl; auto; [destruct (H (Recv i)); simpl; auto|]. apply IH. intros; apply H; simpl; auto. Qed.
Lemma reply_of_app k c a b code : reply_of k c a = Some code -> reply_of k c (a ++ b) = Some code.
Proof.
  induction a as [|[i|x] a IH]; simpl; auto; [discriminate|]. destruct i; auto. destruct (kind_eqb k0 k && (c0 =? c)); auto.
Qed.

Lemma nth_split_asked k fl c ts n t r : nth_error ts n = Some (t, r) ->
  exists a b, map Act (asked k fl c ts) = map Act a ++ Act (Ask k (c + Z.of_nat n) t r fl) :: map Act b.
Proof.
  intros H. assert (N : nth_error (asked k fl c ts) n = Some (Ask k (c + Z.of_nat n) t r fl)) by (rewrite asked_nth, H; auto).
  apply nth_error_split in N as (a&b&E&_). exists a, b. rewrite E, map_app. auto.
Qed.

Lemma acts_only l : forall a, In a (map Act l) -> match a with Act _ => True | Recv _ => False end.
Proof. intros a I. apply in_map_iff in I as (x&<-&_). auto. Qed.

Lemma answered_of k fl c ts n t r post rest code (ok : xa -> Prop) : nth_error ts n = Some (t, r) -> reply_of k (c + Z.of_nat n) post = Some code -> ok code ->
  answered k (map Act (asked k fl c ts) ++ post ++ rest) (t_g t) (t_b t) r ok.
Proof.
  intros N R O. destruct (nth_split_asked k fl c ts n t r N) as (a&b&E). rewrite E.
  exists (map Act a), (c + Z.of_nat n), t, fl, (map Act b ++ post ++ rest), code. split; [rewrite <- app_assoc; auto|]. split; auto. split; auto. split; auto.
  rewrite reply_skip by apply acts_only. apply reply_of_app. auto.
Qed.

Lemma answered_more k a tr b g x r ok : answered k tr g x r ok -> answered k (a ++ tr ++ b) g x r ok.
Proof.
  intros (p&c&t&fl&q&code&->&A1&A2&A3&A4). exists (a ++ p), c, t, fl, (q ++ b), code. split; [rewrite <- !app_assoc; auto|]. split; auto. split; auto. split; auto.
  apply reply_of_app. auto.
Qed.
Lemma answered_left k a tr g x r ok : answered k tr g x r ok -> answered k (a ++ tr) g x r ok.
Proof. intros H. apply (answered_more k a tr []) in H. rewrite app_nil_r in H. auto. Qed.
Lemma answered_right k b tr g x r ok : answered k tr g x r ok -> answered k (tr ++ b) g x r ok.
Proof. intros H. apply (answered_more k [] tr b) in H. auto. Qed.

Section Votes.
Variable known : list Z.
Notation reach := (reach known).
Notation takes_part := (takes_part known).
Notation round := (round known).

(* a vote *)
Lemma prepare_round pre fl ts cb : round pre KPrepare fl ts cb ->
  fl = false /\ exists pre0 i, pre = pre0 ++ [Recv i] /\ asks_start i KPrepare false cb (length ts) /\ covers known pre (t_g (c_origin cb)) ts.
Proof.
  intros R. inversion R as [pre0 i k fl' ts' cb' AS CV| | | |]; subst.
  assert (fl = false). { destruct i; simpl in AS; try tauto. destruct AS as [_ [(A&_)|(_&A&_)]]; [discriminate|auto]. }
  subst fl. split; auto. exists pre0, i. auto.
Qed.

Lemma commit_round pre fl ts cb : round pre KCommit fl ts cb ->
  (fl = true /\ exists pre0 p corr t rs, pre = pre0 ++ [Recv (ICommit p corr t rs)] /\ cb = mk_c UserCommit t (user_dest p corr) read_only /\ length ts = 1%nat /\ covers known pre (t_g t) ts) \/
  (fl = false /\ exists pre0 p corr t r, pre = pre0 ++ [Recv (IExtCommit p corr t r)] /\ cb = mk_c ResCommit t (mk_d p corr r) read_only /\ within known pre (t_g t) ts) \/
  (fl = false /\ exists pre1 ts1 c1 post1 post2 d, pre = pre1 ++ map Act (asked KPrepare false c1 ts1) ++ post1 ++ post2 /\
     round pre1 KPrepare false ts1 (d_call d) /\ ended KPrepare ts1 c1 post1 d /\ no_recv post2 /\ code_of d = xa_ok /\ c_reply (d_call d) <> ResPrepare /\
     ts = map vote_target (active_of d) /\ cb = mk_c (c_reply (d_call d)) (c_origin (d_call d)) (c_dest (d_call d)) xa_ok).
Proof.
  intros R. inversion R as [pre0 i k fl' ts' cb' AS CV|pre0 p corr t r ts' W| |pre1 fl1 ts1 c1 post1 post2 d R1 EN NR CO CR|]; subst.
  - left. destruct i; simpl in AS; try tauto; try (destruct AS as (_&A&_); discriminate). destruct AS as [-> [(_&->&L)|(A&_)]]; [|discriminate]. eauto 15.
  - right; left. eauto 15.
  - right; right. split; auto. apply prepare_round in R1 as R2. destruct R2 as [-> _]. exists pre1, ts1, c1, post1, post2, d. auto 10.
Qed.

Lemma honest_vote tr a k fl c ts post b n t r v : honest tr -> tr = a ++ map Act (asked k fl c ts) ++ post ++ b -> nth_error ts n = Some (t, r) ->
  In (Recv (IReply k (c + Z.of_nat n) v)) post -> v_trid v = t /\ v_rid v = r.
Proof.
  intros H -> N I. eapply H.
  - rewrite !in_app_iff. right. right. left. exact I.
  - rewrite !in_app_iff. right. left. destruct (nth_split_asked k fl c ts n t r N) as (x&y&->). apply in_app_iff. right. left. reflexivity.
Qed.

(* the commit requests that follow a vote *)
Lemma vote_passed tr pre1 ts1 c1 post1 rest d : honest tr -> tr = pre1 ++ map Act (asked KPrepare false c1 ts1) ++ post1 ++ rest ->
  round pre1 KPrepare false ts1 (d_call d) -> ended KPrepare ts1 c1 post1 d -> code_of d = xa_ok ->
  (forall b r, takes_part pre1 (origin_g d) b r -> answered KPrepare (map Act (asked KPrepare false c1 ts1) ++ post1) (origin_g d) b r voted_yes) /\
  (forall t r, In (t, r) (map vote_target (active_of d)) -> t_g t = origin_g d /\ answered KPrepare (map Act (asked KPrepare false c1 ts1) ++ post1) (t_g t) (t_b t) r voted_ok) /\
  ts1 <> [].
Proof.
  intros HO ET R EN CO. unfold code_of in CO. destruct (vote_codes _ _ CO) as (NF&YES&(v0&V0&_)). apply prepare_round in R as (_&pre0&i&EP&AS&CV1&CV2).
  split; [|split].
  - intros b r T. destruct (CV2 b r T) as (t&I&<-). destruct (CV1 t r I) as [G _]. apply In_nth_error in I as (n&N).
    destruct (ended_all _ _ _ _ _ EN NF n t r N) as (v&V1&V2&V3). unfold origin_g. rewrite <- G.
    rewrite <- (app_nil_r post1). eapply answered_of; eauto. destruct (YES v V1); [left|right]; auto.
  - intros t r I. apply in_map_iff in I as (v&E&I). unfold vote_target in E. injection E as <- <-. unfold active_of in I. apply partition_in in I as [I NRO].
    destruct (ended_votes _ _ _ _ _ _ EN I) as (n&t&r&N&RP&RV). destruct (honest_vote _ _ _ _ _ _ _ _ _ _ _ _ HO ET N RV) as [-> ->].
    destruct (CV1 t r (nth_error_In _ _ N)) as [G _]. split; [exact G|]. rewrite <- (app_nil_r post1). eapply answered_of; eauto.
    destruct (YES v I) as [Y|Y]; [exact Y|]. exfalso. unfold vote_is, xa_eqb in NRO. rewrite Y in NRO. discriminate.
  - intros ->. destruct EN as (E&_). simpl in E. destruct (ended_votes KPrepare [] c1 post1 d v0) as (n&t&r&N&_); auto; [|destruct n; discriminate].
    split; [exact E|]. split; [|]. + rewrite done_true. intros p P. assert (X : map (fun p => (p_corr p, p_id p)) (d_out d) = []).
      { change (d_out d) with (fst (d_out d, d_recv d)). rewrite E. rewrite follow_ids. reflexivity. } destruct (d_out d); [destruct P|discriminate].
    + intros post0 ev ->. exfalso. clear -E V0. unfold votes in V0. assert (X : snd (follow (begin (M:=vote) []) (ops KPrepare (post0 ++ [ev]))) = d_recv d) by (rewrite <- E; auto).
      apply in_map_iff in V0 as ([c v]&_&V0). rewrite <- X in V0. apply (follow_messages [] _ c v) in V0 as (A&_); [destruct A|constructor].
Qed.

(* nobody joins, so nobody is new *)
Lemma parts_back e : forall tr g b r, takes_part (tr ++ e) g b r -> (forall i, In (Recv i) e -> ~ involves g i) -> takes_part tr g b r.
Proof.
  induction e as [|x e IH] using rev_ind; intros tr g b r T N; [rewrite app_nil_r in T; auto|].
  apply IH; [|intros i I; apply N; apply in_app_iff; auto]. rewrite app_assoc in T. unfold TmSpec.takes_part in *. rewrite notes_app in T. cbn [fold_left] in T.
  set (bk := notes known (tr ++ e)) in *.
  assert (EN : forall t rs b0, In (g, b, r) (k_inv (enroll t rs b0)) -> (t_g t = g -> rs <> [] -> False) -> In (g, b, r) (k_inv b0)).
  { intros t rs b0 I H. cbn [enroll k_inv] in I. apply in_app_iff in I as [I|I]; auto. apply in_map_iff in I as (y&E&I). injection E as E1 E2 E3.
    exfalso. apply H; auto. intros ->. destruct I. }
  assert (IN : forall i, x = Recv i -> ~ involves g i) by (intros i ->; apply N; apply in_app_iff; simpl; auto).
  destruct x as [i|a].
  - specialize (IN i eq_refl). destruct i; cbn [note] in T; auto.
    + eapply EN; eauto. intros G NE. apply IN. simpl. auto.
    + eapply EN; eauto. intros G NE. apply IN. simpl. auto.
    + eapply EN; eauto. intros G NE. apply IN. simpl. split; auto. intros ->. apply NE. auto.
    + assert (NG : t_g t <> g) by (intros G; apply IN; simpl; auto). destruct (find _ _) as [[q j]|]; eapply EN in T; eauto.
  - destruct a; cbn [note] in T; auto. cbn [k_inv] in T. apply filter_In in T. tauto.
Qed.

Lemma last_input_acts tr l cur : last_input (tr ++ map Act l) cur = last_input tr cur.
Proof.
  revert cur. induction tr as [|[i|a] tr IH]; intros cur; simpl; auto. induction l; simpl; auto.
Qed.

Theorem commit_after_vote tr c q cc t r rest : reach tr c -> honest tr -> tr = q ++ Act (Ask KCommit cc t r false) :: rest ->
  (forall p corr u r', last_input q None <> Some (IExtCommit p corr u r')) ->
  exists q1 q2, q = q1 ++ q2 /\ (exists c' t' r' q3, q2 = Act (Ask KPrepare c' t' r' false) :: q3 /\ t_g t' = t_g t) /\
    (forall b r', takes_part q1 (t_g t) b r' -> answered KPrepare q2 (t_g t) b r' voted_yes) /\
    answered KPrepare q2 (t_g t) (t_b t) r voted_ok.
Proof.
  intros R HO ET LI. destruct (reach_asks _ _ _ R _ _ _ _ _ _ _ ET) as (pre&ts&cb&c0&n&RD&N&EC&EQ).
  apply commit_round in RD as [(A&_)|[(_&pre0&p&corr&u&r'&EP&_)|(_&pre1&ts1&c1&post1&post2&d&EP&R1&EN&NR&CO&CR&ES&EB)]]; [discriminate| |].
  - exfalso. rewrite EQ, last_input_acts, EP, last_snoc in LI. eapply LI. reflexivity.
  - destruct (vote_passed tr pre1 ts1 c1 post1 (post2 ++ map Act (firstn n (asked KCommit false c0 ts)) ++ Act (Ask KCommit cc t r false) :: rest) d) as (V1&V2&V3); auto.
    { rewrite ET, EQ, EP, <- !app_assoc. auto. }
    assert (I : In (t, r) (map vote_target (active_of d))) by (rewrite <- ES; eapply nth_error_In; eauto).
    destruct (V2 t r I) as [G A]. exists pre1, (map Act (asked KPrepare false c1 ts1) ++ post1 ++ post2 ++ map Act (firstn n (asked KCommit false c0 ts))).
    split; [rewrite EQ, EP, <- !app_assoc; auto|]. rewrite G in *. split; [|split].
    + destruct ts1 as [|[t1 r1] ts1]; [tauto|]. cbn [asked map]. apply prepare_round in R1 as (_&p0&i&_&_&CV&_). destruct (CV t1 r1 (or_introl eq_refl)) as [G1 _].
      exists c1, t1, r1. eexists. split; [reflexivity|exact G1].
    + intros b r' T. rewrite app_assoc. apply answered_right. auto.
    + rewrite app_assoc. apply answered_right. auto.
Qed.

(* ------------------------------------------------------------ the answer to a commit request *)
Theorem commit_answer tr c q a rest : reach tr c -> honest tr -> tr = q ++ Act (Answer a) :: rest ->
  a_kind a = UserCommit -> a_stage a = Some Commit -> a_code a = Tx tx_ok ->
  exists q1 q2 rs, q = q1 ++ Recv (ICommit (a_to a) (a_corr a) (a_trid a) rs) :: q2 /\
    forall b r, takes_part (q1 ++ [Recv (ICommit (a_to a) (a_corr a) (a_trid a) rs)]) (t_g (a_trid a)) b r ->
      answered KCommit q2 (t_g (a_trid a)) b r commit_done \/ answered KPrepare q2 (t_g (a_trid a)) b r voted_read_only.
Proof.
  intros R HO ET AK AS AC. destruct (reach_answers _ _ _ R) as [RA _]. pose proof (RA _ _ _ ET) as W. clear RA. inversion W as [pre i a' RF|pre i g a' NT NP|q' d PV|q' d PV SP|q' d PV CR|q' d PV CR CO RP|q1 q2 d PV CO RP]; subst.
  - destruct i; simpl in RF; try tauto; subst a; try discriminate.
  - destruct i; simpl in NT; try tauto; destruct NT as [-> ->]; try discriminate. exists pre, [], involved. split; auto. cbn [a_to a_corr a_trid] in *.
    intros b r T. exfalso. eapply NP; eauto.
  - destruct PV as (pre&fl&ts&c0&post1&post2&EQ&RD&EN&NR). cbn [create_reply a_kind a_stage a_code a_to a_corr a_trid] in *.
    rewrite AK in AC. cbn [reply_code] in AC. injection AC as AC. apply commit_codes in AC as [NF DN].
    apply commit_round in RD as [(_&pre0&p&corr&t&rs&EP&EB&_&CV)|[(_&pre0&p&corr&u&r'&EP&EB&_)|(_&pre1&ts1&c1&p1&p2&d1&EP&R1&EN1&NR1&CO1&CR1&ES&EB)]].
    + rewrite EB. cbn [c_dest c_origin user_dest d_proc d_corr]. exists pre0, (map Act (asked KCommit fl c0 ts) ++ post1 ++ post2), rs.
      split; [rewrite EQ, EP, <- app_assoc; auto|]. intros b r T. left. rewrite <- EP in T. destruct (proj2 CV b r T) as (t'&I&<-). destruct (proj1 CV t' r I) as [G _].
      rewrite <- G. apply In_nth_error in I as (n&N). destruct (ended_all _ _ _ _ _ EN NF n t' r N) as (v&V1&V2&V3). eapply answered_of; eauto.
    + rewrite EB in AK. discriminate.
    + rewrite EB in *. cbn [c_dest c_origin c_reply] in *. assert (R1' := R1). apply prepare_round in R1 as (_&pre0&i&EP1&ASK&CV).
      assert (X : exists p corr t rs, i = ICommit p corr t rs /\ d_call d1 = mk_c UserCommit t (user_dest p corr) read_only).
      { destruct i; simpl in ASK; try tauto; destruct ASK as [E _]; rewrite E in AK; try discriminate. eauto 10. }
      destruct X as (p&corr&t&rs&->&EC). rewrite EC in *. cbn [c_dest c_origin c_reply user_dest d_proc d_corr] in *.
      exists pre0, (map Act (asked KPrepare false c1 ts1) ++ p1 ++ p2 ++ map Act (asked KCommit fl c0 ts) ++ post1 ++ post2), rs.
      split; [rewrite EQ, EP, EP1, <- !app_assoc; auto|]. intros b r T. rewrite <- EP1 in T.
      destruct (proj2 CV b r T) as (t'&I&<-). destruct (proj1 CV t' r I) as [G _]. rewrite <- G. apply In_nth_error in I as (n&N).
      unfold code_of in CO1. destruct (vote_codes _ _ CO1) as (NF1&YES&_). destruct (ended_all _ _ _ _ _ EN1 NF1 n t' r N) as (v&V1&V2&V3).
      assert (HV : v_trid v = t' /\ v_rid v = r).
      { eapply (honest_vote _ pre1 KPrepare false c1 ts1 p1); [exact HO| |exact N|exact V3]. rewrite EQ, EP, <- !app_assoc. reflexivity. }
      destruct HV as [HV1 HV2].
      destruct (YES v V1) as [Y|Y].
      * left. assert (IN : In (t', r) ts).
        { rewrite ES. apply in_map_iff. exists v. unfold vote_target. rewrite HV1, HV2. split; auto. unfold active_of. apply partition_in. split; auto.
          unfold vote_is. rewrite Y. reflexivity. }
        apply In_nth_error in IN as (m&M). destruct (ended_all _ _ _ _ _ EN NF m t' r M) as (w&W1&W2&W3).
        rewrite 2!app_assoc. apply answered_left. eapply answered_of; eauto.
      * right. rewrite !app_assoc. rewrite <- !app_assoc. eapply answered_of; eauto.
  - cbn [create_reply a_stage] in AS. destruct (c_reply (d_call d)); discriminate.
  - destruct PV as (pre&fl&ts&c0&post1&post2&EQ&RD&EN&NR). cbn [create_reply a_kind a_stage a_code a_to a_corr a_trid] in *.
    apply prepare_round in RD as (->&pre0&i&EP1&ASK&CV).
    assert (X : exists p corr t rs, i = ICommit p corr t rs /\ d_call d = mk_c UserCommit t (user_dest p corr) read_only).
    { destruct i; simpl in ASK; try tauto; destruct ASK as [E _]; rewrite E in AK; try discriminate. eauto 10. }
    destruct X as (p&corr&t&rs&->&EC). rewrite EC in *. cbn [c_dest c_origin c_reply user_dest d_proc d_corr] in *.
    exists pre0, (map Act (asked KPrepare false c0 ts) ++ post1 ++ post2), rs. split; [rewrite EQ, EP1, <- !app_assoc; auto|].
    intros b r T. rewrite <- EP1 in T. right. destruct (proj2 CV b r T) as (t'&I&<-). destruct (proj1 CV t' r I) as [G _]. rewrite <- G. apply In_nth_error in I as (n&N).
    unfold code_of in CR. destruct (vote_readonly_codes _ _ CR) as [NF RO]. destruct (ended_all _ _ _ _ _ EN NF n t' r N) as (v&V1&V2&V3).
    eapply answered_of; eauto. exact (RO v V1).
  - cbn [create_reply a_stage] in AS. destruct (c_reply (d_call d)); discriminate.
  - cbn [create_reply a_stage] in AS. destruct (c_reply (d_call d)); discriminate.
Qed.

End Votes.

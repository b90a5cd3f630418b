(* What the answer to a commit request says about the votes (C14, C15, C17). *)
From Coq Require Import ZArith List Bool Lia Permutation.
From Verif Require Import CodesModel FanModel FanSpec FanProofs FanTrack TmModel TmSpec TmMicro TmFacts TmProv TmVotes TmFlow TmStable TmCount TmUnan TmLog.
From Verif Require GroupModel GroupProofs.
Import ListNotations.
Local Open Scope Z_scope.

(* ------------------------------------------------------------ since it was forgotten *)
Lemma since_snoc g tr e : since_forgotten g (tr ++ [e]) = if is_removed g e then [] else since_forgotten g tr ++ [e].
Proof. unfold since_forgotten. rewrite fold_left_app. reflexivity. Qed.
Lemma since_split g tr : exists pre, tr = pre ++ since_forgotten g tr /\ ~ In (Act (Removed g)) (since_forgotten g tr).
Proof.
  induction tr as [|e tr IH] using rev_ind; [exists []; simpl; auto|]. destruct IH as (pre&E&N). rewrite since_snoc. destruct (is_removed g e) eqn:R.
  - exists (tr ++ [e]). rewrite app_nil_r. simpl. auto.
  - exists pre. rewrite app_assoc, <- E. split; auto. intros I. apply in_app_iff in I as [I|[I|[]]]; auto. subst e. simpl in R. rewrite Z.eqb_refl in R. discriminate.
Qed.

Lemma pairs_since g tr : Pairs g tr -> forall e1 e2, In e1 (since_forgotten g tr) -> In e2 (since_forgotten g tr) -> asks KCommit g e1 -> asks KRollback g e2 -> False.
Proof.
  intros HP e1 e2 I1 I2 (c1&t1&r1&f1&->&G1) (c2&t2&r2&f2&->&G2). destruct (since_split g tr) as (pre&E&N).
  apply in_split in I1 as (x&y&E1). rewrite E1 in *. apply in_app_iff in I2 as [I2|[I2|I2]]; [| discriminate|].
  - apply in_split in I2 as (u&v&->). rewrite <- app_assoc in E. cbn [app] in E. rewrite app_assoc in E.
    destruct (HP _ _ _ _ _ _ _ _ _ _ _ _ _ E G2 G1) as [_ X]; [|discriminate (X eq_refl)]. intros I. apply N. rewrite !in_app_iff. simpl. auto.
  - apply in_split in I2 as (u&v&->). rewrite app_assoc in E.
    destruct (HP _ _ _ _ _ _ _ _ _ _ _ _ _ E G1 G2) as [X _]; [|discriminate (X eq_refl)]. intros I. apply N. rewrite !in_app_iff. simpl. rewrite !in_app_iff. auto.
Qed.

Lemma bad_codes vs out : accumulate KPrepare vs out read_only <> read_only -> accumulate KPrepare vs out read_only <> xa_ok ->
  (exists p, In p out /\ p_state p = Failed) \/ (exists v, In v vs /\ ~ voted_yes (v_code v)).
Proof.
  intros N1 N2. destruct (existsb is_failed out) eqn:F.
  - left. apply existsb_exists in F as (p&P&X). exists p. split; auto. unfold is_failed in X. destruct (p_state p); try discriminate. auto.
  - right. unfold accumulate in *. rewrite F, andb_false_r in *.
    destruct (existsb (fun v => negb (xa_eqb (v_code v) xa_ok || xa_eqb (v_code v) read_only)) vs) eqn:X.
    + apply existsb_exists in X as (v&I&X). exists v. split; auto. apply negb_true_iff in X. apply orb_false_iff in X as [X1 X2]. apply xa_neq_ok in X1. apply xa_neq_ro in X2. intros [Y|Y]; auto.
    + exfalso. assert (Y : forall v, In v vs -> voted_yes (v_code v)).
      { intros v I. destruct (xa_eqb (v_code v) xa_ok || xa_eqb (v_code v) read_only) eqn:Z0.
        - apply orb_true_iff in Z0 as [Z0|Z0]; [left; apply xa_eqb_ok; auto|right; apply xa_eqb_ro; auto].
        - assert (Q : existsb (fun v => negb (xa_eqb (v_code v) xa_ok || xa_eqb (v_code v) read_only)) vs = true); [|congruence]. apply existsb_exists. exists v. rewrite Z0. auto. }
      assert (S : (22 <= severity (fold_code vs read_only))%nat).
      { destruct (severity_fold_in vs read_only) as [->|(v&I&->)]; [simpl; lia|]. destruct (Y v I) as [->| ->]; simpl; lia. }
      destruct (severity_ge _ 22 ltac:(lia) S) as [[_ B]|[[B _]|B]]; [discriminate|auto|auto].
Qed.

Lemma ops_fail_in k id tr : In (Fail id) (ops k tr) -> In (Act (GaveUp k id)) tr.
Proof.
  unfold ops. intros I. apply in_flat_map in I as (e&E&I). destruct e as [[]|[]]; simpl in I; try tauto.
  - destruct (kind_eqb _ _); simpl in I; [destruct I as [I|[]]; discriminate|tauto].
  - destruct (kind_eqb k0 k) eqn:K; simpl in I; [|tauto]. destruct I as [I|[]]. injection I as <-. apply kind_eqb_eq in K. subst. auto.
Qed.

(* each request of a round that is over was answered or given up *)
Lemma ended_each k ts c post d n t r : ended k ts c post d -> nth_error ts n = Some (t, r) ->
  (exists v, In v (votes d) /\ reply_of k (c + Z.of_nat n) post = Some (v_code v) /\ In (Recv (IReply k (c + Z.of_nat n) v)) post) \/ In (Act (GaveUp k r)) post.
Proof.
  intros (E&DN&_) N. assert (I : In (c + Z.of_nat n, r) (reqs c ts)) by (apply reqs_in; eauto).
  destruct (follow_received (reqs c ts) (ops k post) _ _ (reqs_nodup ts c) I) as (p&P1&P2&P3&P4). rewrite <- E in *. cbn [fst snd] in *.
  destruct (p_state p) eqn:S.
  - exfalso. rewrite done_true in DN. eapply DN; eauto.
  - left. destruct (P4 eq_refl) as (m&M1&M2). exists m. split; [unfold votes; apply in_map_iff; exists (c + Z.of_nat n, m); auto|].
    rewrite ops_first, M2. split; auto. apply in_ops_reply. apply first_in. auto.
  - right. apply ops_fail_in. assert (P1' : In p (fst (follow (begin (M:=vote) (reqs c ts)) (ops k post)))) by (rewrite <- E; auto).
    destruct (follow_failed _ _ _ P1' S) as [(q&Q&_&_&QF)|X]; [|congruence]. exfalso. unfold begin in Q. cbn [fst] in Q. apply in_map_iff in Q as ([? ?]&<-&_). discriminate.
Qed.

Section Outcome.
Variable known : list Z.
Notation reach := (reach known).
Notation takes_part := (takes_part known).

(* the answer to a commit request that says that the transaction was rolled back *)
Theorem rolled_back tr c q a rest : reach tr c -> honest tr -> tr = q ++ Act (Answer a) :: rest -> a_kind a = UserCommit -> a_stage a = Some Rollback ->
  exists q1 q2 rs, q = q1 ++ Recv (ICommit (a_to a) (a_corr a) (a_trid a) rs) :: q2 /\
    let part := takes_part (q1 ++ [Recv (ICommit (a_to a) (a_corr a) (a_trid a) rs)]) (t_g (a_trid a)) in
    (exists b r, part b r /\ (answered KPrepare q2 (t_g (a_trid a)) b r (fun x => ~ voted_yes x) \/ In (Act (GaveUp KPrepare r)) q2)) /\
    (forall b r, part b r -> answered KPrepare q2 (t_g (a_trid a)) b r voted_read_only \/ In (Act (GaveUp KPrepare r)) q2 \/
       answered KRollback q2 (t_g (a_trid a)) b r (fun _ => True) \/
       (exists cc t, In (Act (Ask KRollback cc t r false)) q2 /\ t_g t = t_g (a_trid a) /\ t_b t = b) /\ In (Act (GaveUp KRollback r)) q2).
Proof.
  intros R HO ET AK AS. destruct (reach_answers _ _ _ R) as [RA _]. pose proof (RA _ _ _ ET) as W. clear RA.
  inversion W as [pre i a' RF|pre i g a' NT NP|q' d PV|q' d PV SP|q' d PV CR|q' d PV CR CO RP|q1 q2 d PV CO RP]; subst.
  - destruct i; simpl in RF; try tauto; subst a; discriminate.
  - destruct i; simpl in NT; try tauto; destruct NT as [_ ->]; discriminate.
  - cbn [create_reply a_stage a_kind] in *. rewrite AK in AS. discriminate.
  - destruct PV as (pre&fl&ts&c0&post1&post2&EQ&RD&EN&NR). cbn [create_reply a_kind a_stage a_code a_to a_corr a_trid] in *.
    inversion RD as [pre0 i k' fl' ts' cb' ASK CV|pre0 p corr t r ts' WI|pre' ts' cb' AB WI|pre1 fl1 ts1 c1 p1 p2 d1 R1 EN1 NR1 CO CR|pre1 fl1 ts1 c1 p1 p2 d1 R1 EN1 NR1 CO1 CO2 CR]; subst.
    + destruct i; simpl in ASK; try tauto; try (destruct ASK as (_&?&_); discriminate). destruct ASK as [_ [(?&_)|(?&_)]]; discriminate.
    + destruct AB as [(pre0&p&corr&t&rs&_&E)|[(pre0&p&corr&t&r&_&E)|(t&E&_)]]; rewrite E in AK; discriminate.
    + assert (EB : d_call d = mk_c (c_reply (d_call d1)) (c_origin (d_call d1)) (c_dest (d_call d1)) (code_of d1)) by congruence. rewrite EB in *. cbn [c_dest c_origin c_reply] in *.
      assert (R1' := R1). apply prepare_round in R1 as (->&pre0&i&EP1&ASK&CV).
      assert (X : exists p corr t rs, i = ICommit p corr t rs /\ d_call d1 = mk_c UserCommit t (user_dest p corr) read_only).
      { destruct i; simpl in ASK; try tauto; destruct ASK as [E _]; rewrite E in AK; try discriminate. eauto 10. }
      destruct X as (p&corr&t&rs&->&EC). rewrite EC in *. cbn [c_dest c_origin c_reply user_dest d_proc d_corr] in *.
      set (ts2 := map vote_target (active_of d1)) in *.
      exists pre0, (map Act (asked KPrepare false c1 ts1) ++ p1 ++ p2 ++ map Act (asked KRollback false c0 ts2) ++ post1 ++ post2), rs.
      split; [rewrite EP1, <- !app_assoc; auto|]. cbv zeta. rewrite <- EP1. unfold code_of in CO1, CO2. split.
      * destruct (bad_codes _ _ CO1 CO2) as [(pp&PI&PF)|(v&VI&VB)].
        -- destruct EN1 as (EF&DN&_). assert (PI' : In pp (fst (follow (begin (M:=vote) (reqs c1 ts1)) (ops KPrepare p1)))) by (rewrite <- EF; auto).
           assert (ID : In (p_corr pp, p_id pp) (reqs c1 ts1)).
           { assert (Y : In (p_corr pp, p_id pp) (map (fun p => (p_corr p, p_id p)) (fst (follow (begin (M:=vote) (reqs c1 ts1)) (ops KPrepare p1))))) by (apply in_map_iff; exists pp; auto).
             rewrite follow_ids, begin_ids in Y. auto. }
           apply reqs_in in ID as (n&u&N&_). destruct (proj1 CV u (p_id pp) (nth_error_In _ _ N)) as [_ TP]. exists (t_b u), (p_id pp). split; auto. right.
           destruct (follow_failed _ _ _ PI' PF) as [(qq&Q&_&_&QF)|X].
           ++ exfalso. unfold begin in Q. cbn [fst] in Q. apply in_map_iff in Q as ([? ?]&<-&_). discriminate.
           ++ rewrite !in_app_iff. right. left. apply ops_fail_in. auto.
        -- destruct (ended_votes _ _ _ _ _ _ EN1 VI) as (n&u&r&N&RP&RV). destruct (proj1 CV u r (nth_error_In _ _ N)) as [G TP]. exists (t_b u), r. split; auto. left.
           rewrite <- G. eapply answered_of; eauto.
      * intros b r T. destruct (proj2 CV b r T) as (u&I&<-). destruct (proj1 CV u r I) as [G _]. apply In_nth_error in I as (n&N).
        destruct (ended_each _ _ _ _ _ _ _ _ EN1 N) as [(v&VI&VR&VE)|GU]; [|right; left; rewrite !in_app_iff; auto].
        assert (HV : v_trid v = u /\ v_rid v = r).
        { eapply (honest_vote _ pre1 KPrepare false c1 ts1 p1); [exact HO| |exact N|exact VE]. rewrite <- !app_assoc. reflexivity. }
        destruct HV as [HV1 HV2]. destruct (vote_is read_only v) eqn:VO.
        -- left. rewrite <- G. eapply answered_of; eauto. apply xa_eqb_ro. exact VO.
        -- assert (IN : In (u, r) ts2).
           { unfold ts2. apply in_map_iff. exists v. unfold vote_target. rewrite HV1, HV2. split; auto. unfold active_of. apply partition_in. split; auto. rewrite VO. auto. }
           apply In_nth_error in IN as (m&M). destruct (ended_each _ _ _ _ _ _ _ _ EN M) as [(w&WI&WR&WE)|GU].
           ++ right. right. left. rewrite <- G. rewrite 2!app_assoc. apply answered_left. eapply answered_of; eauto.
           ++ right. right. right. split; [|rewrite !in_app_iff; auto 10]. exists (c0 + Z.of_nat m), u. split; auto. rewrite !in_app_iff. do 3 right. left.
              destruct (nth_split_asked KRollback false c0 ts2 m u r M) as (x&y&->). apply in_app_iff. simpl. auto.
  - cbn [create_reply a_stage a_kind] in *. rewrite AK in AS. discriminate.
  - cbn [create_reply a_stage a_kind] in *. rewrite AK in AS. discriminate.
  - cbn [create_reply a_stage a_kind] in *. rewrite AK in AS. discriminate.
Qed.

(* the answer that says that it was committed: everybody voted yes, or there was only one *)
Theorem committed_unanimous tr c q a rest : reach tr c -> honest tr -> tr = q ++ Act (Answer a) :: rest -> a_kind a = UserCommit -> a_stage a = Some Commit ->
  a_code a <> Tx tx_protocol ->
  exists q1 q2 rs, q = q1 ++ Recv (ICommit (a_to a) (a_corr a) (a_trid a) rs) :: q2 /\
    let part := takes_part (q1 ++ [Recv (ICommit (a_to a) (a_corr a) (a_trid a) rs)]) (t_g (a_trid a)) in
    (forall b r, part b r -> answered KPrepare q2 (t_g (a_trid a)) b r voted_yes) \/
    (exists b r, (forall b' r', part b' r' <-> b' = b /\ r' = r) /\ exists cc t, In (Act (Ask KCommit cc t r true)) q2 /\ t_g t = t_g (a_trid a) /\ t_b t = b).
Proof.
  intros R HO ET AK AS AC. destruct (reach_answers _ _ _ R) as [RA _]. pose proof (RA _ _ _ ET) as W. clear RA.
  inversion W as [pre i a' RF|pre i g a' NT NP|q' d PV|q' d PV SP|q' d PV CR|q' d PV CR CO RP|q1 q2 d PV CO RP]; subst.
  - destruct i; simpl in RF; try tauto; subst a; try discriminate. exfalso. apply AC. reflexivity.
  - destruct i; simpl in NT; try tauto; destruct NT as [-> ->]; try discriminate. exists pre, [], involved. split; auto. cbv zeta. cbn [a_to a_corr a_trid] in *. left.
    intros b r T. exfalso. eapply NP; eauto.
  - destruct PV as (pre&fl&ts&c0&post1&post2&EQ&RD&EN&NR). cbn [create_reply a_kind a_stage a_code a_to a_corr a_trid] in *.
    apply commit_round in RD as [(->&pre0&p&corr&t&rs&EP&EB&LN&CV)|[(_&pre0&p&corr&u&r'&EP&EB&_)|(_&pre1&ts1&c1&p1&p2&d1&EP&R1&EN1&NR1&CO1&CR1&ES&EB)]].
    + rewrite EB. cbn [c_dest c_origin user_dest d_proc d_corr]. exists pre0, (map Act (asked KCommit true c0 ts) ++ post1 ++ post2), rs.
      split; [rewrite EQ, EP, <- app_assoc; auto|]. cbv zeta. rewrite <- EP. right. destruct ts as [|[u r] [|]]; try discriminate. destruct (proj1 CV u r (or_introl eq_refl)) as [G TP].
      exists (t_b u), r. split; [|exists c0, u; split; [simpl; auto|split; auto]]. intros b' r'. split.
      * intros T. destruct (proj2 CV _ _ T) as (w&[X|[]]&<-). injection X as <- <-. auto.
      * intros [-> ->]. auto.
    + rewrite EB in AK. discriminate.
    + rewrite EB in *. cbn [c_dest c_origin c_reply] in *. assert (R1' := R1). apply prepare_round in R1 as (_&pre0&i&EP1&ASK&CV).
      assert (X : exists p corr t rs, i = ICommit p corr t rs /\ d_call d1 = mk_c UserCommit t (user_dest p corr) read_only).
      { destruct i; simpl in ASK; try tauto; destruct ASK as [E _]; rewrite E in AK; try discriminate. eauto 10. }
      destruct X as (p&corr&t&rs&->&EC). rewrite EC in *. cbn [c_dest c_origin c_reply user_dest d_proc d_corr] in *.
      exists pre0, (map Act (asked KPrepare false c1 ts1) ++ p1 ++ p2 ++ map Act (asked KCommit fl c0 ts) ++ post1 ++ post2), rs.
      split; [rewrite EQ, EP, EP1, <- !app_assoc; auto|]. cbv zeta. rewrite <- EP1. left. intros b r T.
      destruct (proj2 CV b r T) as (t'&I&<-). destruct (proj1 CV t' r I) as [G _]. rewrite <- G. apply In_nth_error in I as (n&N).
      unfold code_of in CO1. destruct (vote_codes _ _ CO1) as (NF1&YES&_). destruct (ended_all _ _ _ _ _ EN1 NF1 n t' r N) as (v&V1&V2&V3).
      eapply answered_of; eauto. destruct (YES v V1); [left|right]; auto.
  - cbn [create_reply a_stage a_kind] in *. rewrite AK in AS. discriminate.
  - destruct PV as (pre&fl&ts&c0&post1&post2&EQ&RD&EN&NR). cbn [create_reply a_kind a_stage a_code a_to a_corr a_trid] in *.
    apply prepare_round in RD as (->&pre0&i&EP1&ASK&CV).
    assert (X : exists p corr t rs, i = ICommit p corr t rs /\ d_call d = mk_c UserCommit t (user_dest p corr) read_only).
    { destruct i; simpl in ASK; try tauto; destruct ASK as [E _]; rewrite E in AK; try discriminate. eauto 10. }
    destruct X as (p&corr&t&rs&->&EC). rewrite EC in *. cbn [c_dest c_origin c_reply user_dest d_proc d_corr] in *.
    exists pre0, (map Act (asked KPrepare false c0 ts) ++ post1 ++ post2), rs. split; [rewrite EQ, EP1, <- !app_assoc; auto|]. cbv zeta. rewrite <- EP1. left.
    intros b r T. destruct (proj2 CV b r T) as (t'&I&<-). destruct (proj1 CV t' r I) as [G _]. rewrite <- G. apply In_nth_error in I as (n&N).
    unfold code_of in CR. destruct (vote_readonly_codes _ _ CR) as [NF RO]. destruct (ended_all _ _ _ _ _ EN NF n t' r N) as (v&V1&V2&V3).
    eapply answered_of; eauto. right. exact (RO v V1).
  - cbn [create_reply a_stage a_kind] in *. rewrite AK in AS. discriminate.
  - cbn [create_reply a_stage a_kind] in *. rewrite AK in AS. discriminate.
Qed.

(* who is told that the transaction was rolled back is told the truth: nobody has been asked to commit *)
Definition Clean (g : Z) (tr : list event) : Prop :=
  forall q a rest, tr = q ++ Act (Answer a) :: rest -> a_kind a = UserCommit -> a_stage a = Some Rollback -> t_g (a_trid a) = g ->
    forall e, In e (since_forgotten g q) -> ~ asks KCommit g e.

Lemma clean_app g tr e : Clean g tr -> (forall q a rest, e = q ++ Act (Answer a) :: rest -> a_kind a = UserCommit -> a_stage a = Some Rollback -> t_g (a_trid a) = g ->
    forall x, In x (since_forgotten g (tr ++ q)) -> ~ asks KCommit g x) -> Clean g (tr ++ e).
Proof. intros H1 H2 q a rest E. apply split_app in E as [(r1&E)|(q2&->&E)]; [eapply H1; eauto|eapply H2; eauto]. Qed.
Lemma clean_none g tr e : Clean g tr -> (forall a, In (Act (Answer a)) e -> a_kind a = UserCommit -> a_stage a <> Some Rollback) -> Clean g (tr ++ e).
Proof. intros H N. apply clean_app; auto. intros q a rest E K S. exfalso. apply (N a); auto. rewrite E. apply in_app_iff. simpl. auto. Qed.

Theorem reach_clean g tr c : reach tr c -> undisturbed g tr -> honest tr -> Clean g tr.
Proof.
  induction 1 as [|tr c e c' R IH U|tr s D tk l n R IH]; intros UN HO.
  - intros q a rest E. destruct q; discriminate.
  - assert (UP := undisturbed_prefix _ _ _ UN). assert (HP := honest_prefix _ _ HO). specialize (IH UP HP). destruct (reach_stable known g _ _ R UP HP) as [HK _]. pose proof (reach_J known g _ _ R UP) as HJ.
    destruct (reach_answers _ _ _ R) as [_ RR]. destruct U; cbn [fst snd] in *; try (rewrite app_nil_r; exact IH);
      try (apply clean_none; auto; intros xx [I|[]]; discriminate; fail);
      try (apply clean_none; auto; intros xx I; exfalso; eapply no_answers_asked; eauto; fail);
      try (apply clean_none; auto; intros xx I; exfalso; eapply no_answers_remove; eauto; fail).
    + apply clean_none; auto. intros xx [I|[]]. injection I as ->. discriminate.
    + apply clean_none; auto. intros xx [I|[]] K. injection I as <-. destruct i; simpl in H; try tauto; subst a; discriminate.
    + apply clean_none; auto. intros xx [I|I] K; [|exfalso; eapply no_answers_remove; eauto]. injection I as <-. destruct i; simpl in H; try tauto; destruct H as [_ ->]; discriminate.
    + rewrite ask_spec in H1. injection H1 as <- <- <-. apply clean_none; auto. intros xx I. exfalso. eapply no_answers_asked; eauto.
    + apply clean_none; auto. intros xx [I|[]]. destruct H; discriminate.
    + apply clean_none; auto. intros xx [I|I] K; [|exfalso; eapply no_answers_remove; eauto]. injection I as <-. cbn [create_reply a_stage a_kind] in *. rewrite K. discriminate.
    + apply clean_app; auto. intros q xx rest E K S G y Y A. destruct q as [|z q]; cbn [app] in E.
      * injection E as <- _. rewrite app_nil_r in Y. cbn [create_reply a_trid] in G.
        assert (X : (1 <= cnt (of_g g) KRollback s D)%nat).
        { unfold cnt. cbn [d_of]. rewrite H. cbn [map]. rewrite count_cons. unfold of_g at 2. rewrite G, Z.eqb_refl. cbn [one]. lia. }
        destruct A as (cc&t&r'&fl&->&GT). destruct (since_split g tr) as (pre&EP&NR). apply in_split in Y as (u&v&EY). rewrite EY in *.
        rewrite app_assoc in EP. destruct (HK _ _ _ _ _ _ _ EP GT) as (x0&F&ST).
        -- intros I. apply NR. apply in_app_iff. simpl. auto.
        -- unfold J in HJ. cbn [fst snd] in HJ. rewrite F in HJ. cbn [stk] in ST. unfold Jst in HJ. cbn [option_map] in HJ. rewrite ST in HJ. lia.
      * injection E as <- E. exfalso. apply (no_answers_remove _ _ _ _ xx H1). rewrite E. apply in_app_iff. simpl. auto.
    + apply clean_none; auto. intros xx [I|I] K; [|exfalso; eapply no_answers_remove; eauto]. injection I as <-. cbn [create_reply a_stage a_kind] in *. rewrite K. discriminate.
    + apply clean_none; auto. intros xx [I|I] K; [discriminate|]. apply in_map_iff in I as (y&E&I). injection E as ->. destruct (RR xx I) as (q1&q2&d&_&->&_). cbn [create_reply a_stage a_kind] in *. rewrite K. discriminate.
    + rewrite ask_spec in H2. injection H2 as <- <- <-. apply clean_none; auto. intros xx I. exfalso. eapply no_answers_asked; eauto.
    + apply clean_none; auto. intros xx [I|[]] K. injection I as <-. cbn [create_reply a_kind] in K. congruence.
    + rewrite ask_spec in H4. injection H4 as <- <- <-. apply clean_none; auto. intros xx I. exfalso. eapply no_answers_asked; eauto.
  - exact (IH UN HO).
Qed.

(* ------------------------------------------------------------ balance of a whole run *)
Theorem run_at_most is s tr corr : run is (init known) = Some (s, tr) -> (count (final_for corr) tr <= count (asks_for corr) tr)%nat.
Proof. intros R. apply run_reach in R. pose proof (reach_balance known _ _ corr R) as B. unfold finals, requests in B. lia. Qed.

Lemma run_snoc a : forall i s s' tr, run (a ++ [i]) s = Some (s', tr) -> exists s1 tr1 e, run a s = Some (s1, tr1) /\ step i s1 = Some (s', e) /\ tr = tr1 ++ Recv i :: map Act e.
Proof.
  induction a as [|j a IH]; intros i s s' tr H; cbn [app run] in H.
  - destruct (step i s) as [[s1 e]|] eqn:E; [|discriminate]. injection H as <- <-. exists s, [], e. rewrite app_nil_r. auto.
  - destruct (step j s) as [[s1 e]|] eqn:E; [|discriminate]. destruct (run (a ++ [i]) s1) as [[s2 tr2]|] eqn:E2; [|discriminate]. injection H as <- <-.
    destruct (IH _ _ _ _ E2) as (s3&tr3&e3&R3&S3&->). exists s3, (Recv j :: map Act e ++ tr3), e3. cbn [run]. rewrite E, R3. split; auto. split; auto. cbn [app]. rewrite <- app_assoc. auto.
Qed.

Theorem run_exactly is s tr corr : run (is ++ [IIdle]) (init known) = Some (s, tr) -> (forall g, undisturbed g tr) -> settled tr ->
  count (final_for corr) tr = count (asks_for corr) tr.
Proof.
  intros R UN ST. pose proof R as R0. apply run_reach in R. pose proof (reach_balance_exact known _ _ corr R UN) as B. pose proof (settled_empty known _ _ _ _ R ST) as E.
  apply run_snoc in R0 as (s1&tr1&e&_&SI&_). cbn [step] in SI. injection SI as SI. unfold on_idle in SI.
  assert (RP : s_replies s = []). { destruct (s_replies s1) as [|y l] eqn:X; [|unfold persist in SI; rewrite X in SI]; injection SI as <- _; auto. }
  unfold under_way, cnt, owed in B. rewrite RP, !E in B. cbn in B. unfold finals, requests in B. lia.
Qed.

(* nothing half done is left *)
Theorem run_left is s tr g x : run is (init known) = Some (s, tr) -> undisturbed g tr -> settled tr -> find_tx g s = Some x ->
  x_stage x = Involved \/ x_stage x = PostPrepare.
Proof.
  intros R UN ST F. apply run_reach in R. pose proof (reach_J known g _ _ R UN) as J0. pose proof (settled_empty known _ _ _ _ R ST) as E.
  unfold J in J0. cbn [fst snd] in J0. rewrite F in J0. unfold cnt, Jst in J0. rewrite !E in J0. cbn in J0. destruct (x_stage x); auto; lia.
Qed.

End Outcome.

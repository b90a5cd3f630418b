(* "Prepared" is told only after the record of it is on disk (C16). *)
From Coq Require Import ZArith List Bool Lia Permutation.
From Verif Require Import CodesModel FanModel FanSpec FanProofs FanTrack TmModel TmSpec TmMicro TmFacts TmProv TmVotes TmFlow TmStable.
From Verif Require GroupModel GroupProofs.
Import ListNotations.
Local Open Scope Z_scope.

Section Log.
Variable known : list Z.
Notation reach := (reach known).

Definition InLog (tr : list event) (s : tm) : Prop :=
  forall a g rs b, tr = a ++ Act (Logged g rs) :: b -> ~ In (Act (Removed g)) b -> find_tx g s <> None /\ incl rs (s_log s) /\ forall r, In r rs -> fst r = g.
Definition Owes (tr : list event) (s : tm) : Prop :=
  forall a, In a (s_replies s) -> prepared a = true -> exists q1 rs q2, tr = q1 ++ Act (Logged (t_g (a_trid a)) rs) :: q2.
Definition Told (tr : list event) : Prop := forall q a rest, tr = q ++ Act (Answer a) :: rest -> prepared a = true -> recorded q (t_g (a_trid a)).

Definition no_logged (e : list event) : Prop := forall g rs, ~ In (Act (Logged g rs)) e.

Lemma InLog_keep tr e s s' : no_logged e ->
  (forall g, In (Act (Removed g)) e \/ (find_tx g s <> None -> find_tx g s' <> None /\ forall r, fst r = g -> In r (s_log s) -> In r (s_log s'))) ->
  InLog tr s -> InLog (tr ++ e) s'.
Proof.
  intros NL H HL a g rs b E NR. apply split_at in E as [(r1&E&->)|(q2&E1&E2)].
  - destruct (HL _ _ _ _ E) as (A&B&C); [intros I; apply NR; apply in_app_iff; auto|]. destruct (H g) as [X|X]; [exfalso; apply NR; apply in_app_iff; auto|].
    destruct (X A) as [X1 Y]. split; auto. split; auto. intros r I. apply Y; auto.
  - exfalso. apply (NL g rs). rewrite E2. apply in_app_iff. simpl. auto.
Qed.
Lemma Owes_keep tr e s s' : (forall a, In a (s_replies s') -> In a (s_replies s)) -> Owes tr s -> Owes (tr ++ e) s'.
Proof. intros H HO a I P. destruct (HO a (H a I) P) as (q1&rs&q2&->). exists q1, rs, (q2 ++ e). rewrite <- app_assoc. auto. Qed.
Lemma recorded_app q e g : recorded q g -> recorded (q ++ e) g.
Proof.
  intros (q1&rs&q2&->&H). exists q1, rs, (q2 ++ e). split; [rewrite <- app_assoc; auto|]. destruct H as [H|(b1&d&b2&->&H)]; [left; apply in_app_iff; auto|right].
  exists b1, d, (b2 ++ e). rewrite <- app_assoc. auto.
Qed.
Lemma Told_keep tr e : (forall a, In (Act (Answer a)) e -> prepared a = true -> recorded tr (t_g (a_trid a))) -> Told tr -> Told (tr ++ e).
Proof.
  intros H HT q a rest E P. apply split_at in E as [(r1&E&->)|(q2&->&E2)]; [eapply HT; eauto|]. apply recorded_app. apply H; auto. rewrite E2. apply in_app_iff. simpl. auto.
Qed.

Lemma no_logged_cons x e : (forall g rs, x <> Act (Logged g rs)) -> no_logged e -> no_logged (x :: e).
Proof. intros H N g rs [I|I]; [exfalso; eapply H; eauto|eapply N; eauto]. Qed.
Lemma no_logged_nil : no_logged []. Proof. intros g rs []. Qed.
Lemma no_logged_remove h s s' a : remove_tx h s = (s', a) -> no_logged (map Act a).
Proof. unfold remove_tx. destruct (find_tx _ _); intros H; injection H as <- <-; intros g rs I; simpl in I; [destruct I as [I|[]]; discriminate|destruct I]. Qed.
Lemma no_logged_asked k fl c ts : no_logged (map Act (asked k fl c ts)).
Proof. intros g rs I. apply in_map_iff in I as (a&E&I). injection E as ->. apply In_nth_error in I as (n&N). rewrite asked_nth in N. destruct (nth_error ts n) as [[t0 r0]|]; discriminate. Qed.

Lemma insert_all_in rs : forall l l', insert_all rs l = Some l' -> incl rs l' /\ incl l l'.
Proof.
  induction rs as [|r rs IH]; intros l l' H; cbn [insert_all] in H; [injection H as <-; split; [intros x []|intros x; auto]|].
  destruct (existsb _ l); [discriminate|]. destruct (IH _ _ H) as [A B]. split.
  - intros x [<-|I]; auto. apply B. apply in_app_iff. simpl. auto.
  - intros x I. apply B. apply in_app_iff. auto.
Qed.

(* the three together *)
Definition L (tr : list event) (s : tm) : Prop := InLog tr s /\ Owes tr s /\ Told tr.

Lemma L_keep tr e s s' : no_logged e -> (forall g, find_tx g s <> None -> find_tx g s' <> None) -> s_log s' = s_log s -> s_replies s' = s_replies s ->
  (forall a, In (Act (Answer a)) e -> prepared a = false) -> L tr s -> L (tr ++ e) s'.
Proof.
  intros NL HF HL HR NA (A&B&C). split; [|split].
  - apply (InLog_keep tr e s); auto. intros g. right. rewrite HL. auto.
  - apply (Owes_keep tr e s); auto. rewrite HR. auto.
  - apply Told_keep; auto. intros a I P. rewrite (NA a I) in P. discriminate.
Qed.

Lemma L_remove tr e h s s0 s' a : V s0 -> s_log s0 = s_log s -> s_replies s0 = s_replies s -> (forall g, find_tx g s <> None -> find_tx g s0 <> None) -> remove_tx h s0 = (s', a) ->
  no_logged e -> (forall x, In (Act (Answer x)) e -> prepared x = false) -> L tr s -> L (tr ++ e ++ map Act a) s'.
Proof.
  intros HV HL HR HF RM NL NA (A&B&C). pose proof (no_logged_remove _ _ _ _ RM) as NLR. assert (NAR : forall x, ~ In (Act (Answer x)) (map Act a)) by (intros x; eapply no_answers_remove; eauto).
  apply remove_spec in RM as (_&R2&_&_&R5&R6&_&->); [|apply (v_nd _ HV)]. split; [|split].
  - apply (InLog_keep tr _ s); auto.
    + intros g rs I. apply in_app_iff in I as [I|I]; [eapply NL; eauto|eapply NLR; eauto].
    + intros g. destruct (Z.eq_dec h g) as [->|N].
      * destruct (find_tx g s0) eqn:F; [left; apply in_app_iff; right; simpl; auto|]. right. intros X. apply HF in X. congruence.
      * right. rewrite R2. destruct (Z.eqb_spec h g); [tauto|]. intros X. split; auto. intros r FR I. rewrite R6, HL. apply filter_In. split; auto. apply negb_true_iff. apply Z.eqb_neq. congruence.
  - apply (Owes_keep tr _ s); auto. rewrite R5, HR. auto.
  - apply Told_keep; auto. intros x I P. apply in_app_iff in I as [I|I]; [rewrite (NA x I) in P; discriminate|]. exfalso. eapply NAR; eauto.
Qed.

Lemma reply_kind pre k fl ts cb : round known pre k fl ts cb -> k <> KPrepare -> c_reply cb <> ResPrepare.
Proof.
  intros R N. inversion R as [pre0 i k' fl' ts' cb' AS CV|pre0 p corr t r ts' W|pre' ts' cb' AB W|pre1 fl1 ts1 c1 post1 post2 d R1 EN NR CO CR|pre1 fl1 ts1 c1 post1 post2 d R1 EN NR CO CO2 CR]; subst; auto; try discriminate.
  - destruct i; simpl in AS; try tauto; destruct AS as [-> AS]; cbn; try discriminate; destruct AS as [-> _]; tauto.
  - destruct AB as [(pre0&p&corr&t&rs&->&->)|[(pre0&p&corr&t&r&->&->)|(t&->&_)]]; discriminate.
Qed.

Lemma not_prepared cb st code : c_reply cb <> ResPrepare -> st <> Prepare -> prepared (create_reply cb st code) = false.
Proof. intros N S. unfold prepared, create_reply. cbn [a_kind a_stage a_code]. destruct (c_reply cb); auto; try tauto. destruct st; auto. tauto. Qed.
Lemma not_prepared_code cb st code : code <> xa_ok -> st <> Prepare \/ c_reply cb = ResPrepare -> prepared (create_reply cb st code) = false.
Proof.
  intros N S. unfold prepared, create_reply. cbn [a_kind a_stage a_code]. destruct (c_reply cb) eqn:E; auto.
  - destruct st; auto. destruct S; [tauto|discriminate].
  - cbn [reply_code]. destruct code; cbn [normal]; auto; try tauto. 
Qed.

Lemma refusal_not i a : refusal i a -> prepared a = false.
Proof. destruct i; simpl; try tauto; intros ->; auto. Qed.
Lemma nothing_not i g a : nothing_to_do i g a -> prepared a = false.
Proof. destruct i; simpl; try tauto; intros [_ ->]; auto. Qed.

Lemma replies_trid cb st code : a_trid (create_reply cb st code) = c_origin cb. Proof. auto. Qed.

Lemma L_logged tr s D d r x l s' : reach tr (s, D, Idle) -> td_p D = d :: r -> find_tx (origin_g d) s = Some x -> insert_all (rows (voted d x)) (s_log s) = Some l ->
  s_log s' = l -> (forall g, find_tx g s' = find_tx g (upd_tx (voted d x) s)) -> (forall a, In a (s_replies s') -> In a (s_replies s) \/ a_trid a = c_origin (d_call d)) ->
  L tr s -> L (tr ++ [Act (Logged (origin_g d) (rows (voted d x)))]) s'.
Proof.
  intros R E F IA SL FT SR (A&B&C). destruct (insert_all_in _ _ _ IA) as [I1 I2]. pose proof (find_tx_g _ _ _ F) as G. pose proof (reach_BM _ _ _ R) as HB. cbn [fst] in HB.
  assert (FU : forall g, find_tx g (upd_tx (voted d x) s) = if origin_g d =? g then Some (voted d x) else find_tx g s).
  { intros g. rewrite (find_upd _ x); cbn [voted set_branches set_stage x_g]; rewrite G; auto. }
  split; [|split].
  - intros a g rs b ET NR. apply split_at in ET as [(r1&ET&->)|(q2&ET1&ET2)].
    + destruct (A _ _ _ _ ET) as (X&Y&Z0); [intros I; apply NR; apply in_app_iff; auto|]. rewrite FT, FU. split; [destruct (_ =? _); [discriminate|auto]|].
      split; auto. rewrite SL. intros y I. apply I2. auto.
    + destruct q2 as [|z q2]; [|destruct q2; discriminate]. injection ET2 as <- <- <-. rewrite FT, FU, Z.eqb_refl. split; [discriminate|]. rewrite SL. split; auto.
      intros y I. unfold rows in I. apply in_map_iff in I as (bb&<-&I). cbn [fst]. apply in_voted in I as (b0&B0&-> & _). destruct (HB x b0 (in_txs_find _ _ _ F) B0) as [_ X]. congruence.
  - intros a I P. destruct (SR a I) as [X|X].
    + destruct (B a X P) as (q1&rs&q2&->). exists q1, rs, (q2 ++ [Act (Logged (origin_g d) (rows (voted d x)))]). rewrite <- app_assoc. auto.
    + rewrite X. exists tr, (rows (voted d x)), []. auto.
  - apply Told_keep; auto. intros a [I|[]]. discriminate.
Qed.

Theorem reach_L tr c : reach tr c -> L tr (fst (fst c)).
Proof.
  induction 1 as [|tr c e c' R IH U|tr s D tk l n R IH].
  - split; [|split].
    + intros a g rs b E. destruct a; discriminate.
    + intros a [].
    + intros q a rest E. destruct q; discriminate.
  - pose proof (reach_V _ _ _ R) as HV. pose proof (reach_P _ _ _ R) as HP. destruct U; cbn [fst snd] in *.
    + apply (L_keep tr _ s); auto; [apply no_logged_cons; [discriminate|apply no_logged_nil]|intros a [I|[]]; discriminate].
    + apply (L_keep tr _ s); auto; [apply no_logged_cons; [discriminate|apply no_logged_nil]| | | |intros a [I|[]]; discriminate].
      * intros g F. destruct (find_tx g s) as [y|] eqn:FY; [|tauto]. destruct (stage_touch g t (involve rs) s y FY) as (z&->&_). discriminate.
      * unfold touch. destruct (find_tx _ _); auto.
      * unfold touch. destruct (find_tx _ _); auto.
    + apply (L_keep tr _ s); auto using no_logged_nil.
      * intros g F. destruct (find_tx g s) as [y|] eqn:FY; [|tauto]. destruct (stage_touch g t (involve []) s y FY) as (z&->&_). discriminate.
      * unfold touch. destruct (find_tx _ _); auto.
      * unfold touch. destruct (find_tx _ _); auto.
      * intros a [].
    + apply (L_keep tr _ s); auto using no_logged_nil; [|intros a []]. intros g F. rewrite (find_upd _ x); auto. destruct (_ =? _); [discriminate|auto].
    + apply (L_keep tr _ s); auto using no_logged_nil; [|intros a []]. intros g F. rewrite find_snoc. destruct (find_tx g s); [discriminate|tauto].
    + apply (L_keep tr _ s); auto; [apply no_logged_cons; [intros g rs E; injection E as ->; discriminate|apply no_logged_nil]|intros b [I|[]]; injection I as ->; discriminate].
    + apply (L_keep tr _ s); auto; [apply no_logged_cons; [discriminate|apply no_logged_nil]|intros b [I|[]]; injection I as <-; eapply refusal_not; eauto].
    + apply (L_remove tr [Act (Answer a)] g s s s' a'); auto; [apply no_logged_cons; [discriminate|apply no_logged_nil]|intros b [I|[]]; injection I as <-; eapply nothing_not; eauto].
    + destruct (start_facts k fl _ cb _ s3 ps a f ds (V_upd (set_stage st x) _ HV) H1 H2) as (_&E3&->&_). pose proof (find_tx_g _ _ _ H0) as G.
      apply (L_keep tr _ s); auto using no_logged_asked.
      * intros g F. rewrite (find_txs g s3) by apply txs_w. rewrite E3. rewrite (find_txs g (upd_tx (set_stage st x) s)) by auto.
        rewrite (find_upd _ x); [destruct (_ =? _); [discriminate|auto]|]. cbn [set_stage x_g]. rewrite G. auto.
      * rewrite E3. destruct k; auto.
      * rewrite E3. destruct k; auto.
      * intros b I. exfalso. eapply no_answers_asked; eauto.
    + apply (L_keep tr _ s); auto.
      * apply no_logged_cons; [destruct H; discriminate|apply no_logged_nil].
      * intros g F. rewrite (find_txs g s) by apply txs_w. auto.
      * destruct k; auto.
      * destruct k; auto.
      * intros b [I|[]]. destruct H; discriminate.
    + match goal with |- L (tr ++ ?y :: _) _ => apply (L_remove tr [y] (origin_g d) s s s' a') end; auto; [apply no_logged_cons; [discriminate|apply no_logged_nil]|].
      intros b [I|[]]. injection I as <-. apply not_prepared; [|discriminate].
      assert (PV : prov_d known tr KCommit d) by (apply (p_d _ _ _ HP KCommit); cbn [fst snd d_of]; rewrite H; left; auto). destruct PV as (?&?&?&?&?&?&_&RD&_). eapply reply_kind; eauto. discriminate.
    + match goal with |- L (tr ++ ?y :: _) _ => apply (L_remove tr [y] (origin_g d) s s s' a') end; auto; [apply no_logged_cons; [discriminate|apply no_logged_nil]|].
      intros b [I|[]]. injection I as <-. apply not_prepared; [|discriminate].
      assert (PV : prov_d known tr KRollback d) by (apply (p_d _ _ _ HP KRollback); cbn [fst snd d_of]; rewrite H; left; auto). destruct PV as (?&?&?&?&?&?&_&RD&_). eapply reply_kind; eauto. discriminate.
    + apply (L_remove tr [] (origin_g d) s s s' a'); auto using no_logged_nil. intros b [].
    + apply (L_keep tr _ s); auto using no_logged_nil. intros b [].
    + apply (L_keep tr _ s); auto using no_logged_nil. intros b [].
    + pose proof (find_tx_g _ _ _ H0) as G. match goal with |- L (tr ++ ?y :: _) _ => apply (L_remove tr [y] (origin_g d) s (upd_tx (voted d x) s) s' a') end; auto using V_upd; [|apply no_logged_cons; [discriminate|apply no_logged_nil]|].
      * intros g F. rewrite (find_upd _ x); [destruct (_ =? _); [discriminate|auto]|]. cbn [voted set_branches set_stage x_g]. rewrite G. auto.
      * intros b [I|[]]. injection I as <-. apply not_prepared_code; [rewrite H1; discriminate|left; discriminate].
    + eapply L_logged; eauto. intros a I. cbn [w_replies s_replies] in I. apply in_app_iff in I as [I|[<-|[]]]; auto.
    + eapply L_logged; eauto; destruct (c_reply (d_call d)); auto. intros a I. cbn [w_replies s_replies] in I. apply in_app_iff in I as [I|[<-|[]]]; auto.
    + destruct IH as (A&B&C). split; [|split].
      * apply (InLog_keep tr _ s); auto.
        apply no_logged_cons; [discriminate|]. intros g rs I. apply in_map_iff in I as (y&E&_). discriminate.
      * intros a [].
      * intros q a rest E P. apply split_at in E as [(r1&E&->)|(q2&->&E2)]; [eapply C; eauto|].
        destruct q2 as [|y q2]; [discriminate|]. cbn [app] in E2. injection E2 as <- E2.
        assert (I : In a (s_replies s)).
        { assert (X : In (Act (Answer a)) (map (fun a => Act (Answer a)) (s_replies s))) by (rewrite E2; apply in_app_iff; simpl; auto). apply in_map_iff in X as (y&EY&X). injection EY as ->. auto. }
        destruct (B a I P) as (q1&rs&q3&ET). exists q1, rs, (q3 ++ Act (Persisted (s_log s)) :: q2). split; [rewrite ET, <- app_assoc; auto|].
        destruct (in_dec (fun a b : event => ltac:(repeat decide equality) : {a = b} + {a <> b}) (Act (Removed (t_g (a_trid a)))) q3) as [IR|IR]; [left; apply in_app_iff; auto|].
        right. exists q3, (s_log s), q2. split; auto. apply (A _ _ _ _ ET IR).
    + destruct (start_facts KCommit false _ _ _ s3 ps a f ds (V_upd (set_stage Commit x) _ HV) H2 H3) as (_&E3&->&_). pose proof (find_tx_g _ _ _ H) as G.
      apply (L_keep tr _ s); auto using no_logged_asked.
      * intros g F. rewrite E3. match goal with |- find_tx g (w_c f (w_next ?n ?z)) <> _ => change (find_tx g (w_c f (w_next n z))) with (find_tx g z) end.
        rewrite (find_upd _ x); [destruct (_ =? _); [discriminate|auto]|]. cbn [set_stage x_g]. rewrite G. auto.
      * rewrite E3. auto.
      * rewrite E3. auto.
      * intros b I. exfalso. eapply no_answers_asked; eauto.
    + pose proof (find_tx_g _ _ _ H0) as G. apply (L_keep tr _ s); auto; [apply no_logged_cons; [discriminate|apply no_logged_nil]| |].
      * intros g F. rewrite (find_upd _ x); [destruct (_ =? _); [discriminate|auto]|]. cbn [voted set_branches set_stage x_g]. rewrite G. auto.
      * intros b [I|[]]. injection I as <-. apply not_prepared_code; auto.
    + destruct (start_facts KRollback false _ _ _ s3 ps a f ds (V_upd (set_stage Rollback (voted d x)) _ (V_upd (voted d x) _ HV)) H4 H5) as (_&E3&->&_). pose proof (find_tx_g _ _ _ H0) as G.
      apply (L_keep tr _ s); auto using no_logged_asked.
      * intros g F. rewrite E3. match goal with |- find_tx g (w_r f (w_next ?n ?z)) <> _ => change (find_tx g (w_r f (w_next n z))) with (find_tx g z) end.
        assert (FX : find_tx (origin_g d) (upd_tx (voted d x) s) = Some (voted d x)) by (rewrite (find_upd _ x); cbn [voted set_branches set_stage x_g]; rewrite G; [rewrite Z.eqb_refl; auto|auto]).
        rewrite (find_upd _ (voted d x)); cbn [voted set_branches set_stage x_g]; rewrite G; auto. destruct (_ =? _) eqn:EG; [discriminate|].
        rewrite (find_upd _ x); cbn [voted set_branches set_stage x_g]; rewrite G; [rewrite EG; auto|auto].
      * rewrite E3. auto.
      * rewrite E3. auto.
      * intros b I. exfalso. eapply no_answers_asked; eauto.
  - exact IH.
Qed.

End Log.
